(** C78, C79: what VCPLS computes - weights that maximise a constrained quotient, orthogonal scores,
    projection of the response; and parameters with which it breaks down. *)
From Coq Require Import List ZArith Lia Bool Arith Reals Lra SpecFloat.
From Verif Require Import Base Num Mat M_Matrix M_Factory M_Helper M_Loop M_Utils M_Linalg M_Transform M_PLSBase M_PLS
  S_Matrix L_Base L_Mat L_Matrix L_MatR L_Linalg L_Alg L_Deflate P_Matrix P_Linalg P_Helper P_Eigen P_PLSPrep L_Public P_PLS1.
Import ListNotations.
Local Open Scope R_scope.

Lemma bind_Ok {A B : Type} (x : A) (f : A -> res B) : bind (Ok x) f = f x.
Proof. reflexivity. Qed.

(** * Symmetric pencils *)
(** Bilinear form x^T B y *)
Definition bil (p : nat) (B : nat -> nat -> R) (x y : nat -> R) : R := sumn p (fun i => sumn p (fun j => x i * B i j * y j)).
(** M is symmetric with respect to a scalar product: B is positive definite and symmetric, B M symmetric.
    Such matrices have real eigenvalues and a basis of eigenvectors. *)
Definition symmetrized_by (p : nat) (B M : nat -> nat -> R) : Prop :=
  (forall i j, (i < p)%nat -> (j < p)%nat -> B i j = B j i) /\
  (forall v, (exists j, (j < p)%nat /\ v j <> 0) -> 0 < bil p B v v) /\
  (forall i j, (i < p)%nat -> (j < p)%nat -> sumn p (fun k => B i k * M k j) = sumn p (fun k => B j k * M k i)).
(** The columns of V span R^p. *)
Definition spanning (p : nat) (V : mat R) : Prop :=
  forall x : nat -> R, exists c : nat -> R, forall j, (j < p)%nat -> x j = Rsum p (fun k => c k * entry V j k).
(** Contract of np.linalg.eig on p x p matrices: a matrix that is symmetric with respect to some scalar product
    is answered with real eigenvalues and a basis of eigenvectors of unit length. *)
Definition eig_basis (p : nat) (eig : mat R -> res (list R * mat R)) : Prop :=
  forall M B, wf M -> nr M = p -> nc M = p -> symmetrized_by p B (entry M) ->
    exists l V, eig M = Ok (l, V) /\ eig_answer M l V /\ spanning p V /\
      forall k, (k < p)%nat -> Rsum p (fun j => entry V j k * entry V j k) = 1.

Lemma bil_ext p B x x' y y' : (forall j, (j < p)%nat -> x j = x' j) -> (forall j, (j < p)%nat -> y j = y' j) -> bil p B x y = bil p B x' y'.
Proof. intros Hx Hy. apply sumn_ext. intros i Hi. apply sumn_ext. intros j Hj. now rewrite Hx, Hy. Qed.
Lemma bil_sum_r p B x m (c : nat -> R) (v : nat -> nat -> R) :
  bil p B x (fun j => sumn m (fun k => c k * v k j)) = sumn m (fun k => c k * bil p B x (v k)).
Proof.
  unfold bil. rewrite (sumn_ext p _ (fun i => sumn m (fun k => c k * sumn p (fun j => x i * B i j * v k j)))).
  - rewrite sumR_swap. apply sumn_ext. intros k Hk. now rewrite sumR_scal.
  - intros i Hi. rewrite (sumn_ext p _ (fun j => sumn m (fun k => c k * (x i * B i j * v k j)))) by (intros; rewrite <- sumR_scal; apply sumn_ext; intros; ring).
    rewrite sumR_swap. apply sumn_ext. intros k Hk. now rewrite sumR_scal.
Qed.
Lemma bil_sym p B x y : (forall i j, (i < p)%nat -> (j < p)%nat -> B i j = B j i) -> bil p B x y = bil p B y x.
Proof. intros Hs. unfold bil. rewrite sumR_swap. apply sumn_ext. intros i Hi. apply sumn_ext. intros j Hj. rewrite Hs by assumption. ring. Qed.
Lemma zero_or_not p (x : nat -> R) : (exists j, (j < p)%nat /\ x j <> 0) \/ forall j, (j < p)%nat -> x j = 0.
Proof.
  induction p as [|p [ (j & Hj & Hne) | Hz ] ]; [right; lia|left; exists j; split; [lia|assumption]|].
  destruct (Req_dec (x p) 0) as [E|E]; [right|left; exists p; auto]. intros j Hj. destruct (Nat.eq_dec j p) as [->|Hd]; [assumption|apply Hz; lia].
Qed.
Lemma bil_nonneg p B x : (forall v, (exists j, (j < p)%nat /\ v j <> 0) -> 0 < bil p B v v) -> 0 <= bil p B x x.
Proof.
  intros Hp. destruct (zero_or_not p x) as [H|H]; [left; now apply Hp|]. right. symmetry. apply sumR_zero. intros i Hi. apply sumR_zero. intros j Hj. rewrite H by assumption. ring.
Qed.
Lemma bil_sums p B m (c d : nat -> R) (v : nat -> nat -> R) : (forall i j, (i < p)%nat -> (j < p)%nat -> B i j = B j i) ->
  bil p B (fun j => sumn m (fun k => c k * v k j)) (fun j => sumn m (fun k => d k * v k j)) = sumn m (fun i => sumn m (fun j => c i * d j * bil p B (v i) (v j))).
Proof.
  intros Hs. rewrite bil_sum_r. rewrite sumR_swap. apply sumn_ext. intros j Hj. rewrite bil_sym, bil_sum_r, <- sumR_scal by assumption. apply sumn_ext. intros i Hi. rewrite (bil_sym p B (v j)) by assumption. ring.
Qed.

Section Pencil.
Variables (p : nat) (B M : nat -> nat -> R) (v : nat -> nat -> R) (mu : nat -> R).
Hypothesis HB : symmetrized_by p B M.
Hypothesis Hv : forall k i, (k < p)%nat -> (i < p)%nat -> sumn p (fun j => M i j * v k j) = mu k * v k i.
Let BM i j := sumn p (fun k => B i k * M k j).
Lemma bil_BM x k : (k < p)%nat -> bil p BM x (v k) = mu k * bil p B x (v k).
Proof.
  intros Hk. unfold bil. rewrite <- sumR_scal. apply sumn_ext. intros i Hi. rewrite <- sumR_scal.
  rewrite (sumn_ext p (fun j => mu k * _) (fun l => x i * B i l * sumn p (fun j => M l j * v k j))) by (intros l Hl; rewrite Hv by assumption; ring).
  rewrite (sumn_ext p _ (fun j => sumn p (fun l => x i * B i l * (M l j * v k j)))).
  - rewrite sumR_swap. apply sumn_ext. intros l Hl. now rewrite sumR_scal.
  - intros j Hj. unfold BM. rewrite <- sumR_scal, <- sumR_scal_r. apply sumn_ext. intros; ring.
Qed.
Lemma eigen_orthogonal i j : (i < p)%nat -> (j < p)%nat -> mu i <> mu j -> bil p B (v i) (v j) = 0.
Proof.
  intros Hi Hj Hne. destruct HB as (Hs & _ & Hbm). pose proof (bil_BM (v i) j Hj) as H1. pose proof (bil_BM (v j) i Hi) as H2.
  rewrite (bil_sym p BM) in H2 by exact Hbm. rewrite (bil_sym p B (v j)) in H2 by exact Hs. rewrite H1 in H2.
  assert ((mu i - mu j) * bil p B (v i) (v j) = 0) as Hz by lra. apply Rmult_integral in Hz. lra.
Qed.
(** The largest eigenvalue bounds the quotient. *)
Lemma pencil_max m x : (m < p)%nat -> (forall k, (k < p)%nat -> mu k <= mu m) ->
  (exists c, forall j, (j < p)%nat -> x j = sumn p (fun k => c k * v k j)) -> bil p BM x x <= mu m * bil p B x x.
Proof.
  intros Hm Hmax (c & Hc). destruct HB as (Hs & Hpos & Hbm). set (r k := sqrt (mu m - mu k)).
  assert (Hz := bil_nonneg p B (fun j => sumn p (fun k => (c k * r k) * v k j)) Hpos). rewrite bil_sums in Hz by exact Hs.
  enough (sumn p (fun i => sumn p (fun j => c i * r i * (c j * r j) * bil p B (v i) (v j))) = mu m * bil p B x x - bil p BM x x) by lra.
  rewrite !(bil_ext p _ x (fun j => sumn p (fun k => c k * v k j)) x (fun j => sumn p (fun k => c k * v k j))) by assumption.
  rewrite !bil_sums by assumption. rewrite <- sumR_scal, <- sumR_minus. apply sumn_ext. intros i Hi. rewrite <- sumR_scal, <- sumR_minus. apply sumn_ext. intros j Hj.
  rewrite bil_BM by assumption. destruct (Req_dec (mu i) (mu j)) as [E|E].
  - assert (r i * r j = mu m - mu j) as Hr by (unfold r; rewrite E; apply sqrt_sqrt; specialize (Hmax j Hj); lra).
    replace (c i * r i * (c j * r j)) with (c i * c j * (r i * r j)) by ring. rewrite Hr. ring.
  - rewrite (eigen_orthogonal i j Hi Hj E). ring.
Qed.
End Pencil.

(** * The weights *)
(** Squared covariance of E v with y minus lambda |v|^2, and the variance |E v|^2 plus 1e-7 |v|^2: VCPLS looks for
    a v for which the quotient of the two is as large as possible. *)
Definition times (p : nat) (E : nat -> nat -> R) (v : nat -> R) (i : nat) : R := Rsum p (fun j => E i j * v j).
Definition vc_num (n p : nat) (E : nat -> nat -> R) (y : nat -> R) (lambda : R) (v : nat -> R) : R :=
  Rsum n (fun i => times p E v i * y i) ^ 2 - lambda * Rsum p (fun j => v j * v j).
Definition vc_den (n p : nat) (E : nat -> nat -> R) (v : nat -> R) : R :=
  Rsum n (fun i => times p E v i * times p E v i) + / 10 ^ 7 * Rsum p (fun j => v j * v j).
Definition maximiser (n p : nat) (E : nat -> nat -> R) (y : nat -> R) (lambda : R) (w : nat -> R) : Prop :=
  forall v, vc_num n p E y lambda v * vc_den n p E w <= vc_num n p E y lambda w * vc_den n p E v.

Section Weights.
Variables (lstsq : mat R -> mat R -> res (mat R)) (eig : mat R -> res (list R * mat R)) (n p : nat) (E : nat -> nat -> R) (y : nat -> R) (lambda : R).
Hypothesis Hp : p <> 0%nat.
Hypothesis Heig : eig_basis p eig.
Let nu := / 10 ^ 7.
Let id (i j : nat) : R := if (i =? j)%nat then 1 else 0.
Let B (i j : nat) : R := sumn n (fun k => E k i * E k j) + id i j * nu.
Let g (j : nat) : R := sumn n (fun k => E k j * y k).
Let A (i j : nat) : R := g i * g j - id i j * lambda.

Lemma bil_id x z : bil p id x z = sumn p (fun j => x j * z j).
Proof.
  unfold bil. apply sumn_ext. intros i Hi. rewrite (sumR_single p i); [unfold id; rewrite Nat.eqb_refl; ring|assumption|]. intros j Hj Hne. unfold id. destruct (Nat.eqb_spec i j); [congruence|ring].
Qed.
Lemma bil_B x : bil p B x x = vc_den n p E x.
Proof.
  unfold vc_den, times. rewrite !Rsum_sumn. rewrite <- bil_id.
  rewrite (sumn_ext n _ (fun i => sumn p (fun j => sumn p (fun l => x j * (E i j * E i l) * x l)))).
  2:{ intros i Hi. rewrite !Rsum_sumn, sumR_mul. apply sumn_ext. intros. apply sumn_ext. intros. ring. }
  rewrite sumR_swap. unfold bil. rewrite <- sumR_scal, <- sumR_plus. apply sumn_ext. intros j Hj. rewrite sumR_swap, <- sumR_scal, <- sumR_plus. apply sumn_ext. intros l Hl.
  unfold B. rewrite sumR_scal_r, sumR_scal. fold nu. ring.
Qed.
Lemma bil_A x : bil p A x x = vc_num n p E y lambda x.
Proof.
  unfold vc_num, times. rewrite !Rsum_sumn. rewrite <- bil_id.
  assert (Hg : sumn n (fun i => Rsum p (fun j => E i j * x j) * y i) = sumn p (fun j => g j * x j)).
  { rewrite (sumn_ext n _ (fun i => sumn p (fun j => E i j * y i * x j))) by (intros; rewrite Rsum_sumn, <- sumR_scal_r; apply sumn_ext; intros; ring).
    rewrite sumR_swap. apply sumn_ext. intros j Hj. unfold g. now rewrite sumR_scal_r. }
  rewrite Hg. cbn [pow]. rewrite Rmult_1_r, sumR_mul. unfold bil. rewrite <- sumR_scal, <- sumR_minus. apply sumn_ext. intros i Hi. rewrite <- sumR_scal, <- sumR_minus. apply sumn_ext. intros j Hj. unfold A. ring.
Qed.
Lemma B_pos v : (exists j, (j < p)%nat /\ v j <> 0) -> 0 < bil p B v v.
Proof.
  intros (j & Hj & Hne). rewrite bil_B. unfold vc_den. rewrite !Rsum_sumn.
  assert (0 <= sumn n (fun i => times p E v i * times p E v i)) by (apply sumR_nonneg; intros; apply Rle_0_sqr).
  assert (0 <= sumn p (fun j => v j * v j)) by (apply sumR_nonneg; intros; apply Rle_0_sqr).
  assert (sumn p (fun j => v j * v j) <> 0).
  { intros Q. apply Hne. apply Rsqr_0_uniq. unfold Rsqr. apply (sumR_nonneg_0 p (fun j => v j * v j)); auto. intros; apply Rle_0_sqr. }
  assert (0 < / 10 ^ 7) by (apply Rinv_0_lt_compat; lra). assert (0 < / 10 ^ 7 * sumn p (fun j => v j * v j)) by (apply Rmult_lt_0_compat; lra). lra.
Qed.
Lemma lit_nu : lit (T:=R) 1 7 = nu.
Proof. unfold lit. cbn [ndiv nofZ NumR]. unfold nu. replace (IZR (10 ^ 7)) with (10 ^ 7) by (cbn; lra). lra. Qed.

Lemma vc_weights : exists w mu, vcpls_weights lstsq eig lambda (mk n p E) (mk n 1 (fun i _ => y i)) = Ok (mk p 1 (fun j _ => w j)) /\
  Rsum p (fun j => w j * w j) = 1 /\
  vc_num n p E y lambda w = mu * vc_den n p E w /\ (forall v, vc_num n p E y lambda v <= mu * vc_den n p E v).
Proof.
  set (BB := mk p p B). set (AA := mk p p A).
  destruct (C61_inverse lstsq BB (mk_wf _ _ _) eq_refl) as [_ HI]. change (nr BB) with p in HI. change (nc BB) with p in HI.
  assert (Hns : ~ singular BB).
  { intros (v & Hv & Hz). change (nc BB) with p in Hv, Hz. change (nr BB) with p in Hz. pose proof (B_pos v Hv) as Hb.
    enough (bil p B v v = 0) by lra. apply sumR_zero. intros i Hi. specialize (Hz i Hi). rewrite Rsum_sumn in Hz.
    rewrite (sumn_ext p _ (fun k => v i * (entry BB i k * v k))) by (intros k Hk; unfold BB; rewrite entry_mk by assumption; ring). rewrite sumR_scal, Hz. ring. }
  destruct (HI Hns) as (I & EI & WI & RI & CI & HIv). set (M i j := sumn p (fun k => entry I i k * A k j)).
  assert (HBM : forall i j, (i < p)%nat -> (j < p)%nat -> sumn p (fun k => B i k * M k j) = A i j).
  { intros i j Hi Hj. unfold M. rewrite (sumn_ext p _ (fun k => sumn p (fun l => B i k * entry I k l * A l j))) by (intros; rewrite <- sumR_scal; apply sumn_ext; intros; ring).
    rewrite sumR_swap, (sumR_single p i).
    - rewrite sumR_scal_r. destruct (HIv i i Hi Hi) as [H1 _]. rewrite Rsum_sumn, Nat.eqb_refl in H1. transitivity (1 * A i j); [|ring]. rewrite <- H1. f_equal. apply sumn_ext. intros k Hk. unfold BB. now rewrite entry_mk.
    - assumption.
    - intros l Hl Hne. rewrite sumR_scal_r. destruct (HIv i l Hi Hl) as [H1 _]. rewrite Rsum_sumn in H1. destruct (Nat.eqb_spec i l); [congruence|].
      rewrite (sumn_ext p _ (fun k => entry BB i k * entry I k l)) by (intros k Hk; unfold BB; now rewrite entry_mk). rewrite H1. ring. }
  assert (Hsym : symmetrized_by p B (entry (mk p p M))).
  { split; [|split].
    - intros i j _ _. unfold B. f_equal; [apply sumn_ext; intros; ring|]. unfold id. now rewrite Nat.eqb_sym.
    - exact B_pos.
    - intros i j Hi Hj. rewrite (sumn_ext p _ (fun k => B i k * M k j)) by (intros; now rewrite entry_mk). rewrite (sumn_ext p (fun k => B j k * _) (fun k => B j k * M k i)) by (intros; now rewrite entry_mk).
      rewrite !HBM by assumption. unfold A. unfold id. rewrite (Nat.eqb_sym j). ring. }
  destruct (Heig (mk p p M) B (mk_wf _ _ _) eq_refl eq_refl Hsym) as (l & V & El & Hans & Hspan & Hunit).
  destruct (C21_dominant eig (mk p p M) l V (mk_wf _ _ _) eq_refl ltac:(cbn; lia) El Hans) as (d & v & m & Ed & Ev & Wv & Rv & Cv & Hm & Hmax & Hvm & _).
  destruct Hans as (Hlen & WV & RV & CV & Heq). change (nr (mk p p M)) with p in *. rewrite Hlen in Hm, Hmax.
  exists (fun j => entry v j 0), (nth m l 0).
  assert (Hw : Rsum p (fun j => entry v j 0 * entry v j 0) = 1).
  { rewrite <- (Hunit m Hm). apply Rsum_ext. intros j Hj. now rewrite Hvm. }
  assert (HV : forall k i, (k < p)%nat -> (i < p)%nat -> sumn p (fun j => entry (mk p p M) i j * entry V j k) = nth k l 0 * entry V i k).
  { intros k i Hk Hi. rewrite <- Rsum_sumn. now apply Heq. }
  assert (Hnum : forall x, vc_num n p E y lambda x = bil p (fun i j => sumn p (fun k => B i k * entry (mk p p M) k j)) x x).
  { intros x. rewrite <- bil_A. apply sumn_ext. intros i Hi. apply sumn_ext. intros j Hj. rewrite <- (HBM i j Hi Hj). f_equal. f_equal. apply sumn_ext. intros k Hk. now rewrite entry_mk. }
  split; [|split; [exact Hw|split]].
  - unfold vcpls_weights. change (nc (mk n p E)) with p.
    assert (Eeye : eye (T:=R) (zn p) (-1) = Ok (mk p p id)).
    { unfold eye, zn. change ((-1 =? -1)%Z) with true. cbv iota zeta. destruct (Z.ltb_spec (Z.of_nat p) 0); [lia|]. cbn [orb]. rewrite !Nat2Z.id. reflexivity. }
    rewrite Eeye, bind_Ok, transpose_mk, mul_mk, bind_Ok, transpose_mk, mul_mk, bind_Ok, mul_mk, bind_Ok, mul_scalar_mk, sub_mk, bind_Ok, mul_mk, bind_Ok, mul_scalar_mk, add_mk, bind_Ok.
    match goal with |- bind (minverse _ ?b) _ = _ => assert (Eb : b = BB) end.
    { apply mk_ext. intros i j Hi Hj. rewrite lit_nu. reflexivity. }
    rewrite Eb. unfold minverse. rewrite EI, bind_Ok.
    match goal with |- bind (mul _ ?b) _ = _ => assert (Ea : b = AA) end.
    { apply mk_ext. intros i j Hi Hj. unfold A. cbn [nsub NumR nmul]. f_equal. rewrite (sumn_ext n _ (fun k => g i * (E k j * y k))). { rewrite sumR_scal. reflexivity. } intros k Hk. rewrite sum1. unfold g. ring. }
    rewrite Ea. rewrite (wf_mk I WI), RI, CI. unfold AA. rewrite mul_mk, bind_Ok. unfold dominant. change (nr (mk p p _)) with p.
    change (mk p p (fun i j : nat => sumn p (fun k : nat => nmul (entry I i k) (A k j)))) with (mk p p M). rewrite Ed, bind_Ok, Ev. f_equal. transitivity (mk (nr v) (nc v) (entry v)); [now apply wf_mk|]. rewrite Rv, Cv. apply mk_ext. intros i j Hi Hj. assert (j = 0%nat) by lia. now subst.
  - rewrite Hnum, <- bil_B. rewrite !(bil_ext p _ (fun j => entry v j 0) (fun j => entry V j m) (fun j => entry v j 0) (fun j => entry V j m)) by (intros; now apply Hvm).
    apply (bil_BM p B (entry (mk p p M)) (fun k j => entry V j k) (fun k => nth k l 0)); auto.
  - intros x. rewrite Hnum, <- bil_B. apply (pencil_max p B (entry (mk p p M)) (fun k j => entry V j k) (fun k => nth k l 0)); auto.
    destruct (Hspan x) as (c & Hc). exists c. intros j Hj. rewrite Hc by assumption. apply Rsum_sumn.
Qed.
End Weights.

(** * The component loop with an arbitrary choice of weights *)
Section Loop.
Variables (weights : mat R -> mat R -> res (mat R)) (n p a : nat) (y : nat -> R) (E : nat -> nat -> nat -> R) (w : nat -> nat -> R).
Hypotheses (Hn : n <> 0%nat) (Hp : p <> 0%nat) (Ha : a <> 0%nat).
Let t k := times p (E k) (w k).
Let q k := loadings_of n (E k) (t k).
Let b k := Rsum n (fun i => t k i * y i) / Rsum n (fun i => t k i * t k i).
Hypothesis Hw : forall k, (k < a)%nat -> weights (mk n p (E k)) (mk n 1 (fun i _ => y i)) = Ok (mk p 1 (fun j _ => w k j)).
Hypothesis HE : forall k i j, (k < a)%nat -> (i < n)%nat -> (j < p)%nat -> E (S k) i j = E k i j - t k i * q k j.
Lemma gen_loop_run :
  pls1_loop weights (Z.of_nat a) (mk n p (E 0%nat)) (mk n 1 (fun i _ => y i)) =
  Ok (mk n p (E a), mk p a (fun j k => w k j), mk p a (fun j k => q k j), mk n a (fun i k => t k i), mk a 1 (fun k _ => b k)).
Proof.
  unfold pls1_loop. change (nr (mk n p (E 0%nat))) with n. change (nc (mk n p (E 0%nat))) with p. unfold zn. rewrite !zeros_mk by assumption. change 1%Z with (Z.of_nat 1). rewrite zeros_mk by assumption. rewrite Nat2Z.id.
  pose (st := fun k => (mk n p (E k), mk p a (fun j l => if (l <? k)%nat then w l j else 0%R), mk p a (fun j l => if (l <? k)%nat then q l j else 0%R),
     mk n a (fun i l => if (l <? k)%nat then t l i else 0%R), mk a 1 (fun l _ => if (l <? k)%nat then b l else 0%R)) : pls1_state (T:=R)).
  destruct (for_range_inv (fun k s => s = st k) (pls1_step weights (mk n 1 (fun i _ => y i))) a (st 0%nat)) as (s & Es & ->).
  - reflexivity.
  - intros k s Hk ->. unfold st at 1. unfold pls1_step, zn. rewrite Hw by assumption. rewrite bind_Ok. rewrite set_column_mk by assumption. rewrite bind_Ok.
    rewrite mul_mk. rewrite bind_Ok.
    assert (Et : mk n 1 (fun i j : nat => sumn p (fun l : nat => nmul (E k i l) (w k l))) = mk n 1 (fun i _ => t k i)).
    { apply mk_ext. intros. unfold t, times. now rewrite Rsum_sumn. }
    rewrite Et. rewrite set_column_mk by assumption. rewrite bind_Ok. rewrite !vector_dot_mk. rewrite !bind_Ok. rewrite set_mk_0 by (assumption || lia). rewrite bind_Ok.
    rewrite transpose_mk, mul_mk. rewrite bind_Ok. rewrite div_scalar_mk.
    assert (Eq : mk p 1 (fun i j : nat => ndiv (sumn n (fun l : nat => nmul (E k l i) (t k l))) (sumn n (fun l : nat => nmul (t k l) (t k l)))) = mk p 1 (fun j _ => q k j)).
    { apply mk_ext. intros. unfold q, loadings_of. now rewrite !Rsum_sumn. }
    rewrite Eq. rewrite set_column_mk by assumption. rewrite bind_Ok. rewrite transpose_mk, mul_mk. rewrite bind_Ok. rewrite sub_mk. rewrite bind_Ok.
    eexists. split; [reflexivity|]. unfold st. f_equal; [f_equal; [f_equal; [f_equal|]|]|]; apply mk_ext; intros i j Hi Hj.
    + rewrite sum1. cbn [nsub nmul NumR]. now rewrite HE.
    + apply (ifS k j 0%R (fun l => w l i)).
    + apply (ifS k j 0%R (fun l => q l i)).
    + apply (ifS k j 0%R (fun l => t l i)).
    + assert (j = 0%nat) by lia. subst. cbn [Nat.eqb]. rewrite andb_true_r. rewrite <- (ifS k _ 0%R (fun l => b l)). destruct (i =? k)%nat; [|reflexivity]. unfold b. now rewrite !Rsum_sumn.
  - transitivity (Ok (st a)); [rewrite <- Es; reflexivity|]. f_equal. unfold st. f_equal; [f_equal; [f_equal; [f_equal|]|]|]; apply mk_ext; intros i j Hi Hj; try reflexivity.
    all: destruct (Nat.ltb_spec j a), (Nat.ltb_spec i a); try lia; reflexivity.
Qed.
End Loop.

(** Fewer than p vectors of R^p have a common orthogonal vector. *)
Lemma common_orthogonal p k (q : nat -> nat -> R) : (k < p)%nat ->
  exists v, (exists j, (j < p)%nat /\ v j <> 0) /\ forall l, (l < k)%nat -> sumn p (fun j => q l j * v j) = 0.
Proof.
  intros Hk. set (M := mk p p (fun l j => if (l <? k)%nat then q l j else 0) : mat R).
  assert (Hs : singular M).
  { apply singular_kernel; [reflexivity|]. intros Q.
    destruct (C61_inverse (fun _ _ => Err LinAlgError) M (mk_wf _ _ _) eq_refl) as [_ HI].
    destruct HI as (I & _ & _ & _ & _ & HI); [rewrite singular_kernel by reflexivity; tauto|].
    destruct (HI k k Hk Hk) as [H1 _]. rewrite Nat.eqb_refl, Rsum_sumn in H1. change (nr M) with p in H1.
    rewrite sumR_zero in H1; [lra|]. intros l Hl. unfold M. rewrite entry_mk by assumption. rewrite Nat.ltb_irrefl. ring. }
  destruct Hs as (v & Hv & Hz). change (nc M) with p in Hv, Hz. change (nr M) with p in Hz. exists v. split; [exact Hv|]. intros l Hl. rewrite <- (Hz l) by lia. rewrite Rsum_sumn. apply sumn_ext. intros j Hj.
  unfold M. rewrite entry_mk by lia. destruct (Nat.ltb_spec l k); [reflexivity|lia].
Qed.
(** Linearly independent columns *)
Definition independent_columns (n p : nat) (X : nat -> nat -> R) : Prop :=
  forall v, (forall i, (i < n)%nat -> times p X v i = 0) -> forall j, (j < p)%nat -> v j = 0.
(** What is left of X after regressing its columns on the first k columns of S (which are orthogonal) *)
Definition rest (n : nat) (X S : nat -> nat -> R) (k i j : nat) : R :=
  X i j - Rsum k (fun l => S i l * (Rsum n (fun m => S m l * X m j) / Rsum n (fun m => S m l * S m l))).

Section Train.
Variables (lstsq : mat R -> mat R -> res (mat R)) (eig : mat R -> res (list R * mat R)) (n p : nat) (X : nat -> nat -> R) (y : nat -> R) (lambda : R).
Hypothesis Hp : p <> 0%nat.
Hypothesis Heig : eig_basis p eig.

Definition vc_w (E : nat -> nat -> R) (j : nat) : R :=
  match vcpls_weights lstsq eig lambda (mk n p E) (mk n 1 (fun i _ => y i)) with Ok m => entry m j 0 | Err _ => 0 end.
Fixpoint vc_E (k : nat) : nat -> nat -> R :=
  match k with
  | O => X
  | S k => let E := vc_E k in let t := times p E (vc_w E) in fun i j => E i j - t i * loadings_of n E t j
  end.
Let w k := vc_w (vc_E k).
Let t k := times p (vc_E k) (w k).
Let q k := loadings_of n (vc_E k) (t k).
Let b k := Rsum n (fun i => t k i * y i) / Rsum n (fun i => t k i * t k i).

Lemma vc_w_spec E : exists mu, vcpls_weights lstsq eig lambda (mk n p E) (mk n 1 (fun i _ => y i)) = Ok (mk p 1 (fun j _ => vc_w E j)) /\
  Rsum p (fun j => vc_w E j * vc_w E j) = 1 /\
  vc_num n p E y lambda (vc_w E) = mu * vc_den n p E (vc_w E) /\ (forall v, vc_num n p E y lambda v <= mu * vc_den n p E v).
Proof.
  destruct (vc_weights lstsq eig n p E y lambda Hp Heig) as (v & mu & Ev & H1 & H2 & H3).
  assert (Hv : forall j, (j < p)%nat -> vc_w E j = v j) by (intros j Hj; unfold vc_w; rewrite Ev; now rewrite entry_mk by lia).
  exists mu. split; [rewrite Ev; f_equal; apply mk_ext; intros; now rewrite Hv|]. split; [rewrite <- H1; apply Rsum_ext; intros; now rewrite !Hv|]. split; [|exact H3].
  assert (Hx : forall i, times p E (vc_w E) i = times p E v i) by (intros i; apply Rsum_ext; intros; now rewrite Hv).
  unfold vc_num, vc_den in *. rewrite (Rsum_ext n (fun i => times p E (vc_w E) i * y i) (fun i => times p E v i * y i)) by (intros; now rewrite Hx). rewrite (Rsum_ext n (fun i => times p E (vc_w E) i * times p E (vc_w E) i) (fun i => times p E v i * times p E v i)) by (intros; now rewrite !Hx).
  rewrite (Rsum_ext p (fun j => vc_w E j * vc_w E j) (fun j => v j * v j)) by (intros; now rewrite !Hv). exact H2.
Qed.
Lemma vc_den_pos E v : (exists j, (j < p)%nat /\ v j <> 0) -> 0 < vc_den n p E v.
Proof. intros H. rewrite <- bil_B. now apply B_pos. Qed.
Lemma vc_w_nonzero E : exists j, (j < p)%nat /\ vc_w E j <> 0.
Proof.
  destruct (vc_w_spec E) as (_ & _ & H1 & _). destruct (zero_or_not p (vc_w E)) as [H|H]; [exact H|]. rewrite Rsum_sumn, sumR_zero in H1; [lra|]. intros j Hj. rewrite H by assumption. ring.
Qed.
Lemma vc_w_max E : maximiser n p E y lambda (vc_w E).
Proof.
  intros v. destruct (vc_w_spec E) as (mu & _ & _ & H2 & H3). rewrite H2. specialize (H3 v). pose proof (vc_den_pos E _ (vc_w_nonzero E)) as Hd.
  apply (Rmult_le_compat_r _ _ _ (Rlt_le _ _ Hd)) in H3. lra.
Qed.

(** lambda > 0 : a residual that is not zero has a score that is not zero *)
Lemma vc_score_nonzero E : 0 < lambda -> (exists v i, (i < n)%nat /\ times p E v i <> 0) ->
  Rsum n (fun i => times p E (vc_w E) i * times p E (vc_w E) i) <> 0.
Proof.
  intros Hl (v & i & Hi & Hne) Q. destruct (vc_w_spec E) as (mu & _ & H1 & H2 & H3).
  assert (Hz : forall i, (i < n)%nat -> times p E (vc_w E) i = 0).
  { intros l Hl'. apply Rsqr_0_uniq. unfold Rsqr. apply (sumR_nonneg_0 n (fun i => times p E (vc_w E) i * times p E (vc_w E) i)); [intros; apply Rle_0_sqr|now rewrite <- Rsum_sumn|assumption]. }
  unfold vc_num, vc_den in H2. rewrite Q, H1 in H2. rewrite (Rsum_sumn n) in H2. rewrite (sumR_zero n) in H2 by (intros; rewrite Hz by assumption; ring).
  specialize (H3 v). unfold vc_num, vc_den in H3. set (vv := Rsum p (fun j => v j * v j)) in H3. set (ee := Rsum n (fun i => times p E v i * times p E v i)) in H3.
  set (c := Rsum n (fun i => times p E v i * y i)) in H3. pose proof (pow2_ge_0 c) as Hc.
  assert (He : 0 < ee).
  { assert (0 <= ee) by (unfold ee; rewrite Rsum_sumn; apply sumR_nonneg; intros; apply Rle_0_sqr). assert (ee <> 0); [|lra]. intros Qe. apply Hne. apply Rsqr_0_uniq. unfold Rsqr.
    apply (sumR_nonneg_0 n (fun i => times p E v i * times p E v i)); [intros; apply Rle_0_sqr|now rewrite <- Rsum_sumn|assumption]. }
  assert (Hmu : mu = - lambda * 10 ^ 7) by (assert (0 ^ 2 - lambda * 1 = mu * (0 + / 10 ^ 7 * 1)) as Hq by exact H2; assert (mu * / 10 ^ 7 = - lambda) by lra; lra).
  assert (mu * (ee + / 10 ^ 7 * vv) = - lambda * 10 ^ 7 * ee - lambda * vv) as Hq by (rewrite Hmu; field). rewrite Hq in H3.
  assert (0 < lambda * 10 ^ 7 * ee) by (apply Rmult_lt_0_compat; [lra|assumption]). lra.
Qed.

Variable a : nat.
Hypotheses (Hn : n <> 0%nat) (Ha : a <> 0%nat) (Hlam : 0 < lambda) (Hind : independent_columns n p X) (Hap : (a <= p)%nat).
Lemma vc_Ht k i : (k < a)%nat -> (i < n)%nat -> t k i = sumn p (fun j => vc_E k i j * w k j).
Proof. intros _ _. unfold t, times. now rewrite Rsum_sumn. Qed.
Lemma vc_Hq k j : (k < a)%nat -> (j < p)%nat -> q k j = sumn n (fun i => vc_E k i j * t k i) / sumn n (fun i => t k i * t k i).
Proof. intros _ _. unfold q, loadings_of. now rewrite !Rsum_sumn. Qed.
Lemma vc_HE k i j : (k < a)%nat -> (i < n)%nat -> (j < p)%nat -> vc_E (S k) i j = vc_E k i j - t k i * q k j.
Proof. reflexivity. Qed.
Lemma vc_tau k : (k < a)%nat -> sumn n (fun i => t k i * t k i) <> 0.
Proof.
  intros Hk. rewrite <- Rsum_sumn. apply vc_score_nonzero; [exact Hlam|].
  destruct (common_orthogonal p k q ltac:(lia)) as (v & (j & Hj & Hne) & Hz).
  destruct (zero_or_not n (times p X v)) as [(i & Hi & Hx)|H0]; [|exfalso; apply Hne; now apply (Hind v)].
  exists v, i. split; [exact Hi|]. intros Q. apply Hx. unfold times in *. rewrite Rsum_sumn in *.
  rewrite (sumn_ext p _ (fun j => sumn k (fun l => t l i * (q l j * v j)) + vc_E k i j * v j)).
  - rewrite sumR_plus, Q, sumR_swap, (sumR_zero k); [ring|]. intros l Hl. rewrite sumR_scal, Hz by assumption. ring.
  - intros j' Hj'. change (X i j') with (vc_E 0%nat i j'). rewrite (E_decompose n p a vc_E t q vc_HE k i j') by lia. rewrite Rmult_plus_distr_r, <- sumR_scal_r. f_equal. apply sumn_ext. intros; ring.
Qed.
Lemma vc_orth k l : (k < a)%nat -> (l < a)%nat -> k <> l -> sumn n (fun i => t k i * t l i) = 0.
Proof. exact (scores_orthogonal n p a vc_E w t q vc_Ht vc_Hq vc_HE vc_tau k l). Qed.
Lemma vc_rest k i j : (k <= a)%nat -> (i < n)%nat -> (j < p)%nat -> vc_E k i j = rest n X (fun i k => t k i) k i j.
Proof.
  intros Hk Hi Hj. unfold rest. rewrite Rsum_sumn. pose proof (E_decompose n p a vc_E t q vc_HE k i j Hk Hi Hj) as HX. change (vc_E 0%nat i j) with (X i j) in HX.
  rewrite HX. enough (sumn k (fun l => t l i * q l j) = sumn k (fun l => t l i * (Rsum n (fun m => t l m * X m j) / Rsum n (fun m => t l m * t l m)))) by lra.
  apply sumn_ext. intros l Hl. f_equal. unfold q, loadings_of. f_equal. rewrite !Rsum_sumn.
  rewrite (sumn_ext n (fun m => t l m * X m j) (fun m => sumn l (fun r => q r j * (t l m * t r m)) + vc_E l m j * t l m)).
  - rewrite sumR_plus, sumR_swap, (sumR_zero l); [ring|]. intros r Hr. rewrite sumR_scal, vc_orth by lia. ring.
  - intros m Hm. change (X m j) with (vc_E 0%nat m j). rewrite (E_decompose n p a vc_E t q vc_HE l m j) by lia. rewrite Rmult_plus_distr_l, <- sumR_scal. f_equal; [apply sumn_ext; intros|]; ring.
Qed.

Lemma vc_train_run own : vc_lambda own = lambda ->
  exists s Iv, c_train (vcpls lstsq eig) (Z.of_nat a) own (mk n p X) (mk n 1 (fun i _ => y i)) = (Vcpls lambda s, Ok None) /\
    o_W s = Some (mk p a (fun j k => w k j)) /\
    let r := fun j k => Rsum a (fun l => w l j * Iv l k) in
    (forall m (z : nat -> nat -> R), m <> 0%nat ->
       pls1_transform (Z.of_nat a) s (mk m p z) = Ok (mk m a (fun i k => Rsum p (fun j => z i j * r j k))) /\
       pls1_predict (Z.of_nat a) s (mk m p z) = Ok (mk m 1 (fun i _ => Rsum a (fun k => Rsum p (fun j => z i j * r j k) * b k)))) /\
    (forall i k, (i < n)%nat -> (k < a)%nat -> Rsum p (fun j => X i j * r j k) = t k i).
Proof.
  intros Hl.
  assert (Hone : forall k, (k < a)%nat -> sumn p (fun j => q k j * w k j) = 1) by (intros; apply (q_self n p a vc_E w t q vc_Ht vc_Hq vc_tau); auto).
  assert (Hlow : forall k m, (k < m)%nat -> (m < a)%nat -> sumn p (fun j => q m j * w k j) = 0) by (intros; apply (q_w_below n p a vc_E w t q vc_Ht vc_Hq vc_HE vc_tau); auto).
  assert (Hws : forall k, (k < a)%nat -> vcpls_weights lstsq eig lambda (mk n p (vc_E k)) (mk n 1 (fun i _ => y i)) = Ok (mk p 1 (fun j _ => w k j))).
  { intros k _. destruct (vc_w_spec (vc_E k)) as (mu & E1 & _). exact E1. }
  pose proof (gen_loop_run (vcpls_weights lstsq eig lambda) n p a y vc_E w Hn Hp Ha Hws vc_HE) as EL. change (vc_E 0%nat) with X in EL.
  destruct (fit_core lstsq p a w q b Hone Hlow _ _ _ _ _ EL) as (Iv & HIv & Ef). set (s := Pls1 _ _ _ _) in Ef. exists s, Iv.
  split; [cbn [vcpls c_train]; rewrite Hl, Ef; reflexivity|]. split; [reflexivity|]. intros r.
  assert (Hrot : forall (x0 : nat -> R) k, (k < a)%nat -> ss p w q x0 k = Rsum p (fun j => x0 j * r j k)).
  { intros x0 k Hk. rewrite (ss_form p a w q Hone Hlow Iv) by assumption. unfold r. rewrite !Rsum_sumn.
    rewrite (sumn_ext a _ (fun l => sumn p (fun j => x0 j * (w l j * Iv l k)))) by (intros; rewrite Rsum_sumn, <- sumR_scal_r; apply sumn_ext; intros; ring).
    rewrite sumR_swap. apply sumn_ext. intros j' Hj'. rewrite sumR_scal, Rsum_sumn. reflexivity. }
  split.
  - intros m z Hm. split.
    + rewrite (transform_run p a w q s Hp Ha eq_refl eq_refl m z Hm). f_equal. apply mk_ext. intros i k Hi Hk. now apply Hrot.
    + rewrite (predict_run p a w q s Hp Ha eq_refl eq_refl m z b Hm eq_refl). f_equal. apply mk_ext. intros i j Hi Hj. apply Rsum_ext. intros k Hk. now rewrite Hrot.
  - intros i k Hi Hk. rewrite <- Hrot by assumption.
    assert (Hxs : forall k j, (k <= a)%nat -> (j < p)%nat -> xs p w q (X i) k j = vc_E k i j).
    { induction k0 as [|k0 IH]; intros j Hk0 Hj; [reflexivity|]. cbn [xs]. rewrite (Rsum_ext p _ (fun l => vc_E k0 i l * w k0 l)) by (intros; rewrite IH by lia; reflexivity).
      rewrite IH by lia. rewrite vc_HE by lia. reflexivity. }
    unfold ss. unfold t, times. apply Rsum_ext. intros j Hj. now rewrite Hxs by lia.
Qed.
End Train.

Lemma vc_num_ext n p E F y la v v' : (forall i j, (i < n)%nat -> (j < p)%nat -> E i j = F i j) -> (forall j, (j < p)%nat -> v j = v' j) ->
  vc_num n p E y la v = vc_num n p F y la v'.
Proof.
  intros HE Hv. unfold vc_num. rewrite (Rsum_ext n (fun i => times p E v i * y i) (fun i => times p F v' i * y i)).
  - f_equal. f_equal. apply Rsum_ext. intros; now rewrite Hv.
  - intros i Hi. f_equal. apply Rsum_ext. intros. now rewrite HE, Hv.
Qed.
Lemma vc_den_ext n p E F v v' : (forall i j, (i < n)%nat -> (j < p)%nat -> E i j = F i j) -> (forall j, (j < p)%nat -> v j = v' j) ->
  vc_den n p E v = vc_den n p F v'.
Proof.
  intros HE Hv. unfold vc_den. rewrite (Rsum_ext n (fun i => times p E v i * times p E v i) (fun i => times p F v' i * times p F v' i)).
  - f_equal. f_equal. apply Rsum_ext. intros; now rewrite Hv.
  - intros i Hi. assert (times p E v i = times p F v' i) as -> by (apply Rsum_ext; intros; now rewrite HE, Hv). reflexivity.
Qed.

(** C78.  Training VCPLS with lambda > 0 on predictors with linearly independent columns (after the preprocessing) and
    at most as many components as columns succeeds.  The model is a p x a matrix of weights and a p x a rotation r:
    scores are Z r, and for the training data T = X r
    - column k is (what is left of X after regression on the first k columns) times the k-th weight vector, which has
      unit length and maximises ((y . E v)^2 - lambda |v|^2) / (|E v|^2 + 1e-7 |v|^2) over all v,
    - columns are not zero and mutually orthogonal,
    and predictions are the regression on these scores, mapped back to the scale of the response. *)
Theorem C78_vcpls lstsq eig (s0 : pls_st (vcpls_st R) R) (X Y : mat R) (a : nat) (pp : preproc) :
  let n := nr X in let p := nc X in
  let y := fun i => prepared pp Y i 0 in
  eig_basis p eig -> p_preprocessing s0 = pp -> p_num_components s0 = Z.of_nat a -> 0 < vc_lambda (p_own s0) ->
  wf X -> wf Y -> n <> 0%nat -> p <> 0%nat -> nr Y = n -> nc Y = 1%nat -> a <> 0%nat -> (a <= p)%nat -> preparable pp X -> preparable pp Y ->
  independent_columns n p (prepared pp X) ->
  exists s W (r : nat -> nat -> R), let T := fun i k => Rsum p (fun j => prepared pp X i j * r j k) in
    initialize (vcpls lstsq eig) s0 (Some X) (Some Y) = (s, Ok None) /\
    o_W (vc_pls1 (p_own s)) = Some W /\ wf W /\ nr W = p /\ nc W = a /\
    (forall k, (k < a)%nat ->
       Rsum p (fun j => entry W j k * entry W j k) = 1 /\
       (forall i, (i < n)%nat -> T i k = times p (rest n (prepared pp X) T k) (fun j => entry W j k) i) /\
       maximiser n p (rest n (prepared pp X) T k) y (vc_lambda (p_own s0)) (fun j => entry W j k)) /\
    (forall k, (k < a)%nat -> Rsum n (fun i => T i k * T i k) <> 0) /\
    (forall k l, (k < a)%nat -> (l < a)%nat -> k <> l -> Rsum n (fun i => T i k * T i l) = 0) /\
    (forall Z, wf Z -> nc Z = p -> nr Z <> 0%nat ->
       exists S V, snd (transform (vcpls lstsq eig) s Z) = Ok S /\ snd (predict (vcpls lstsq eig) s Z) = Ok V /\
         is_mat S (nr Z) a (fun i k => Rsum p (fun j => entry Z i j * r j k)) /\
         is_mat V (nr Z) 1 (fun i _ => Rsum a (fun k => entry S i k * (Rsum n (fun l => T l k * y l) / Rsum n (fun l => T l k * T l k)))
                                        * own_sd pp Y 0 + back_mean pp Y)).
Proof.
  intros n p y Heig Hpp Hnc Hla WX WY Hn Hp RY CY Ha Hap PX PY Hind. set (lam := vc_lambda (p_own s0)) in *.
  destruct (vc_train_run lstsq eig n p (prepared pp X) y lam Hp Heig a Hn Ha Hla Hind Hap (c_reset (vcpls lstsq eig) (p_own s0)) eq_refl) as (s1 & Iv & Et & EW & Hnew & HT).
  cbv zeta in Hnew, HT.
  set (E := vc_E lstsq eig n p (prepared pp X) y lam) in *. set (w := fun k => vc_w lstsq eig n p y lam (E k)). set (t := fun k => times p (E k) (w k)).
  change (forall i k, (i < n)%nat -> (k < a)%nat -> Rsum p (fun j => prepared pp X i j * Rsum a (fun l => w l j * Iv l k)) = t k i) in HT.
  destruct (single_training (vcpls lstsq eig) s0 X Y (Vcpls lam s1) pp) as (s & Ei & Eo & Etr & Epr); auto; [now rewrite Hnc|]. rewrite Hnc in Etr, Epr.
  exists s, (mk p a (fun j k => w k j)), (fun j k => Rsum a (fun l => w l j * Iv l k)). intros T.
  assert (HTt : forall i k, (i < n)%nat -> (k < a)%nat -> T i k = t k i) by exact HT.
  assert (Hrest : forall k i j, (k < a)%nat -> (i < n)%nat -> (j < p)%nat -> rest n (prepared pp X) T k i j = E k i j).
  { intros k i j Hk Hi Hj. unfold E. rewrite (vc_rest lstsq eig n p (prepared pp X) y lam Hp Heig a Hn Ha Hla Hind Hap k i j) by lia. unfold rest. f_equal. apply Rsum_ext. intros l Hl.
    rewrite HTt by lia. f_equal. f_equal; apply Rsum_ext; intros m Hm; rewrite !HTt by lia; reflexivity. }
  split; [exact Ei|]. split; [rewrite Eo; exact EW|]. split; [apply mk_wf|]. split; [reflexivity|]. split; [reflexivity|].
  assert (Hwe : forall k j, (k < a)%nat -> (j < p)%nat -> entry (mk p a (fun j k => w k j)) j k = w k j) by (intros; now rewrite entry_mk).
  split; [|split; [|split]].
  - intros k Hk. split; [|split].
    + destruct (vc_w_spec lstsq eig n p y lam Hp Heig (E k)) as (mu & _ & H1 & _). rewrite <- H1. apply Rsum_ext. intros j Hj. now rewrite !Hwe.
    + intros i Hi. rewrite HTt by assumption. unfold t, times. apply Rsum_ext. intros j Hj. now rewrite Hrest, Hwe.
    + intros v. pose proof (vc_w_max lstsq eig n p y lam Hp Heig (E k) v) as Hm.
      rewrite (vc_num_ext n p _ (E k) y lam v v), (vc_den_ext n p _ (E k) (fun j => entry _ j k) (w k)), (vc_num_ext n p _ (E k) y lam (fun j => entry _ j k) (w k)), (vc_den_ext n p _ (E k) v v); auto.
  - intros k Hk. rewrite Rsum_sumn. rewrite (sumn_ext n _ (fun i => t k i * t k i)) by (intros; now rewrite HTt). apply (vc_tau lstsq eig n p (prepared pp X) y lam Hp Heig a Hn Ha Hla Hind Hap k Hk).
  - intros k l Hk Hl Hne. rewrite Rsum_sumn. rewrite (sumn_ext n _ (fun i => t k i * t l i)) by (intros; now rewrite !HTt). apply (vc_orth lstsq eig n p (prepared pp X) y lam Hp Heig a Hn Ha Hla Hind Hap k l Hk Hl Hne).
  - intros Z WZ CZ RZ. destruct (Hnew (nr Z) (entry Z) RZ) as [E1 E2]. rewrite <- CZ, <- (wf_mk Z WZ) in E1, E2. rewrite CZ in E1, E2.
    eexists. eexists. split; [rewrite Etr; cbn [vcpls c_transform snd vc_pls1]; exact E1|]. split; [apply Epr; [cbn [vcpls c_predict snd vc_pls1]; exact E2|apply mk_wf|reflexivity]|]. split.
    + apply is_mat_mk_ext. reflexivity.
    + apply is_mat_mk_ext. intros i j Hi Hj. change (nr (mk (nr Z) 1 _)) with (nr Z) in Hi. rewrite entry_mk by (assumption || lia). f_equal. f_equal. apply Rsum_ext. intros k Hk. rewrite entry_mk by assumption. f_equal.
      f_equal; apply Rsum_ext; intros l Hl; rewrite !HTt by assumption; reflexivity.
Qed.
Print Assumptions C78_vcpls.

(** * An exact eigen-solver for 2 x 2 matrices, to show that the contract can be met *)
Definition unit2 (x y : R) : R * R := (x / sqrt (x * x + y * y), y / sqrt (x * x + y * y)).
Definition eig2_of (l1 l2 : R) (u v : R * R) : list R * mat R := ([l1; l2], mk 2 2 (fun i k => match k with O => match i with O => fst u | _ => snd u end | _ => match i with O => fst v | _ => snd v end end)).
Definition eig2 (M : mat R) : res (list R * mat R) :=
  let a := entry M 0 0 in let b := entry M 0 1 in let c := entry M 1 0 in let d := entry M 1 1 in
  let D := sqrt ((a - d) * (a - d) + 4 * b * c) in
  let l1 := (a + d + D) / 2 in let l2 := (a + d - D) / 2 in
  Ok (if Req_EM_T c 0 then eig2_of a d (1, 0) (if Req_EM_T b 0 then (0, 1) else unit2 b (d - a))
      else eig2_of l1 l2 (unit2 (l1 - d) c) (unit2 (l2 - d) c)).

Lemma unit2_spec x y : (x <> 0 \/ y <> 0) -> let r := sqrt (x * x + y * y) in r <> 0 /\ unit2 x y = (x / r, y / r) /\ r * r = x * x + y * y.
Proof.
  intros H r. assert (Hpos : 0 < x * x + y * y).
  { pose proof (Rle_0_sqr x) as Hx. pose proof (Rle_0_sqr y) as Hy. unfold Rsqr in *. destruct H as [H|H]; pose proof (Rsqr_pos_lt _ H) as Hs; unfold Rsqr in Hs; lra. }
  split; [apply Rgt_not_eq; now apply sqrt_lt_R0|]. split; [reflexivity|]. unfold r. apply sqrt_sqrt. lra.
Qed.
(** Two linearly independent eigenvectors of unit length make a right answer. *)
Lemma eig2_of_answer (M : mat R) l1 l2 u v : wf M -> nr M = 2%nat -> nc M = 2%nat ->
  fst u * fst u + snd u * snd u = 1 -> fst v * fst v + snd v * snd v = 1 -> fst u * snd v - fst v * snd u <> 0 ->
  entry M 0 0 * fst u + entry M 0 1 * snd u = l1 * fst u -> entry M 1 0 * fst u + entry M 1 1 * snd u = l1 * snd u ->
  entry M 0 0 * fst v + entry M 0 1 * snd v = l2 * fst v -> entry M 1 0 * fst v + entry M 1 1 * snd v = l2 * snd v ->
  eig_answer M (fst (eig2_of l1 l2 u v)) (snd (eig2_of l1 l2 u v)) /\ spanning 2 (snd (eig2_of l1 l2 u v)) /\
  forall k, (k < 2)%nat -> Rsum 2 (fun j => entry (snd (eig2_of l1 l2 u v)) j k * entry (snd (eig2_of l1 l2 u v)) j k) = 1.
Proof.
  intros W R2 C2 U1 V1 Hd A1 A2 B1 B2. cbn [eig2_of fst snd]. split; [|split].
  - split; [now rewrite R2|]. split; [apply mk_wf|]. split; [now rewrite R2|]. split; [now rewrite R2|]. rewrite R2. intros k i Hk Hi.
    destruct k as [|[|k]]; [| |lia]; destruct i as [|[|i]]; try lia; cbn [Rsum nth]; rewrite !entry_mk by lia; lra.
  - intros x. set (D := fst u * snd v - fst v * snd u) in *. exists (fun k => match k with O => (x 0%nat * snd v - fst v * x 1%nat) / D | _ => (fst u * x 1%nat - x 0%nat * snd u) / D end).
    intros j Hj. destruct j as [|[|j]]; [| |lia]; cbn [Rsum]; rewrite !entry_mk by lia; cbv iota; unfold D; field; exact Hd.
  - intros k Hk. destruct k as [|[|k]]; [| |lia]; cbn [Rsum]; rewrite !entry_mk by lia; lra.
Qed.
Lemma eig2_basis : eig_basis 2 eig2.
Proof.
  intros M B W R2 C2 (Hs & Hpos & Hsym).
  set (a := entry M 0 0). set (b := entry M 0 1). set (c := entry M 1 0). set (d := entry M 1 1).
  set (e := B 0%nat 0%nat). set (f := B 0%nat 1%nat). set (g := B 1%nat 1%nat).
  assert (Hf : B 1%nat 0%nat = f) by (apply Hs; lia).
  assert (He : 0 < e).
  { assert (H := Hpos (fun j => match j with O => 1 | _ => 0 end)). unfold bil in H. cbn in H. fold e f g in H. rewrite Hf in H. assert (0 < 0 + (0 + 1 * e * 1 + 1 * f * 0) + (0 + 0 * f * 1 + 0 * g * 0)); [|lra]. apply H. exists 0%nat. split; [lia|lra]. }
  assert (Hdet : 0 < e * g - f * f).
  { assert (H := Hpos (fun j => match j with O => - f | _ => e end)). unfold bil in H. cbn in H. fold e f g in H. rewrite Hf in H.
    assert (0 < 0 + (0 + - f * e * - f + - f * f * e) + (0 + e * f * - f + e * g * e)) as Hq by (apply H; exists 1%nat; split; [lia|lra]).
    assert (0 < e * (e * g - f * f)) as Hq' by lra. apply Rmult_lt_reg_l with e; lra. }
  assert (Hb : e * b = f * (a - d) + g * c).
  { pose proof (Hsym 0%nat 1%nat ltac:(lia) ltac:(lia)) as H. cbn in H. fold a b c d e f g in H. rewrite Hf in H. lra. }
  set (D := (a - d) * (a - d) + 4 * b * c).
  assert (HD : e * e * D = (e * (a - d) + 2 * f * c) * (e * (a - d) + 2 * f * c) + 4 * (c * c) * (e * g - f * f)).
  { unfold D. replace (e * e * ((a - d) * (a - d) + 4 * b * c)) with (e * e * ((a - d) * (a - d)) + 4 * e * c * (e * b)) by ring. rewrite Hb. ring. }
  unfold eig2. fold a b c d D. destruct (Req_EM_T c 0) as [Hc|Hc].
  - destruct (Req_EM_T b 0) as [Hb0|Hb0].
    + eexists. eexists. split; [reflexivity|]. apply eig2_of_answer; auto; cbn [fst snd]; fold a b c d; rewrite ?Hc, ?Hb0; lra.
    + assert (Had : a - d <> 0) by (intros Q; rewrite Q, Hc in Hb; apply Hb0; apply Rmult_eq_reg_l with e; lra).
      destruct (unit2_spec b (d - a)) as (Hr & Eu & Hrr); [now left|]. set (r := sqrt (b * b + (d - a) * (d - a))) in *. eexists. eexists. split; [reflexivity|]. rewrite Eu. apply eig2_of_answer; auto; cbn [fst snd]; fold a b c d; rewrite ?Hc; try lra.
      * replace (b / r * (b / r) + (d - a) / r * ((d - a) / r)) with ((b * b + (d - a) * (d - a)) / (r * r)) by (field; exact Hr). rewrite <- Hrr. field. exact Hr.
      * replace (1 * ((d - a) / r) - b / r * 0) with ((d - a) / r) by (field; exact Hr). unfold Rdiv. apply Rmult_integral_contrapositive_currified; [lra|now apply Rinv_neq_0_compat].
  - assert (HDpos : 0 < D).
    { assert (0 < c * c) by (pose proof (Rsqr_pos_lt _ Hc) as Q; exact Q). assert (0 < 4 * (c * c) * (e * g - f * f)) by (apply Rmult_lt_0_compat; lra).
      pose proof (Rle_0_sqr (e * (a - d) + 2 * f * c)) as Q. unfold Rsqr in Q. assert (0 < e * e) by now apply Rmult_lt_0_compat. apply Rmult_lt_reg_l with (e * e); lra. }
    set (q := sqrt D). assert (Hq : 0 < q) by now apply sqrt_lt_R0. assert (Hqq : q * q = D) by (apply sqrt_sqrt; lra).
    assert (Hl : forall sg, sg * sg = 1 -> let l := (a + d + sg * q) / 2 in a * (l - d) + b * c = l * (l - d)).
    { intros sg Hsg l. unfold l. assert (sg * q * (sg * q) = D) as Q by (replace (sg * q * (sg * q)) with ((sg * sg) * (q * q)) by ring; rewrite Hsg, Hqq; ring). unfold D in Q. lra. }
    pose proof (Hl 1 ltac:(lra)) as H1. pose proof (Hl (-1) ltac:(lra)) as H2. cbv zeta in H1, H2.
    replace (a + d + 1 * q) with (a + d + q) in H1 by ring. replace (a + d + -1 * q) with (a + d - q) in H2 by ring.
    assert (Hll : (a + d + q) / 2 - (a + d - q) / 2 = q) by field.
    set (l1 := (a + d + q) / 2) in *. set (l2 := (a + d - q) / 2) in *.
    destruct (unit2_spec (l1 - d) c) as (Hr1 & Eu1 & Hrr1); [now right|]. destruct (unit2_spec (l2 - d) c) as (Hr2 & Eu2 & Hrr2); [now right|].
    set (r1 := sqrt ((l1 - d) * (l1 - d) + c * c)) in *. set (r2 := sqrt ((l2 - d) * (l2 - d) + c * c)) in *.
    eexists. eexists. split; [reflexivity|]. rewrite Eu1, Eu2. apply eig2_of_answer; auto; cbn [fst snd]; fold a b c d.
    + replace ((l1 - d) / r1 * ((l1 - d) / r1) + c / r1 * (c / r1)) with (((l1 - d) * (l1 - d) + c * c) / (r1 * r1)) by (field; exact Hr1). rewrite <- Hrr1. field. exact Hr1.
    + replace ((l2 - d) / r2 * ((l2 - d) / r2) + c / r2 * (c / r2)) with (((l2 - d) * (l2 - d) + c * c) / (r2 * r2)) by (field; exact Hr2). rewrite <- Hrr2. field. exact Hr2.
    + replace ((l1 - d) / r1 * (c / r2) - (l2 - d) / r2 * (c / r1)) with (c * (l1 - l2) * (/ r1 * / r2)) by (field; auto). rewrite Hll.
      repeat apply Rmult_integral_contrapositive_currified; auto using Rinv_neq_0_compat; lra.
    + replace (a * ((l1 - d) / r1) + b * (c / r1)) with ((a * (l1 - d) + b * c) / r1) by (field; exact Hr1). rewrite H1. field. exact Hr1.
    + field. exact Hr1.
    + replace (a * ((l2 - d) / r2) + b * (c / r2)) with ((a * (l2 - d) + b * c) / r2) by (field; exact Hr2). rewrite H2. field. exact Hr2.
    + field. exact Hr2.
Qed.

(** Two components on a 3 x 2 matrix with lambda = 1. *)
Example C78_ex : let X := Mat 3 2 [[3; 0]; [0; 4]; [1; 1]] in let Y := Mat 3 1 [[1]; [2]; [0]] in
  let c := vcpls (fun _ _ => Err LinAlgError) eig2 in
  let s0 := PlsSt 2 PP_NONE false [] [] None None (c_new c) in
  exists s S V, initialize c s0 (Some X) (Some Y) = (s, Ok None) /\
    snd (transform c s X) = Ok S /\ snd (predict c s X) = Ok V /\
    Rsum 3 (fun i => entry S i 0 * entry S i 1) = 0 /\ Rsum 3 (fun i => entry S i 1 * entry S i 1) <> 0.
Proof.
  cbv zeta. set (X := Mat 3 2 [[3; 0]; [0; 4]; [1; 1]]). set (Y := Mat 3 1 [[1]; [2]; [0]]).
  assert (WX : wf X) by (split; [reflexivity|repeat constructor]). assert (WY : wf Y) by (split; [reflexivity|repeat constructor]).
  destruct (C78_vcpls (fun _ _ => Err LinAlgError) eig2 (PlsSt 2 PP_NONE false [] [] None None (c_new (vcpls (fun _ _ => Err LinAlgError) eig2))) X Y 2 PP_NONE) as (s & W & r & H);
    try (exact eig2_basis || exact WX || exact WY || exact I || reflexivity || (cbn; lia)).
  - cbn. lra.
  - intros v Hv. pose proof (Hv 0%nat ltac:(cbn; lia)) as H0. pose proof (Hv 1%nat ltac:(cbn; lia)) as H1. unfold times in H0, H1. cbn in H0, H1. intros j Hj. cbn in Hj. destruct j as [|[|j]]; [lra|lra|lia].
  - destruct H as (Ei & _ & _ & _ & _ & _ & Hnz & Ho & HZ). destruct (HZ X WX eq_refl ltac:(cbn; lia)) as (S & V & ES & EV & HS & _). change (nr X) with 3%nat in *. change (nc X) with 2%nat in *.
    destruct HS as (_ & _ & _ & HS). exists s, S, V. split; [exact Ei|]. split; [exact ES|]. split; [exact EV|]. split.
    + rewrite <- (Ho 0%nat 1%nat ltac:(lia) ltac:(lia) ltac:(lia)). apply Rsum_ext. intros i Hi. rewrite !HS by lia. reflexivity.
    + specialize (Hnz 1%nat ltac:(lia)). intros Q. apply Hnz. rewrite <- Q. apply Rsum_ext. intros i Hi. rewrite !HS by lia. reflexivity.
Qed.

(** C79 is false.  validate_lambda_ accepts every value, also negative ones.  But with lambda < - 1e-7 |y|^2 the second
    score is zero on every training set with linearly independent columns: once a component has been removed, the removed
    direction w satisfies E w = 0, and such directions have the largest quotient.  The training goes on to divide zero by
    zero. *)
Theorem C79_refuted lstsq eig (n p a : nat) (X : nat -> nat -> R) (y : nat -> R) (lambda : R) :
  eig_basis p eig -> n <> 0%nat -> p <> 0%nat -> (2 <= a)%nat -> independent_columns n p X ->
  lambda < 0 -> / 10 ^ 7 * Rsum n (fun i => y i * y i) < - lambda ->
  c_valid (vcpls lstsq eig) lambda = Some true /\
  exists E W P S b, pls1_loop (vcpls_weights lstsq eig lambda) (Z.of_nat a) (mk n p X) (mk n 1 (fun i _ => y i)) = Ok (E, W, P, S, b) /\
    (forall i, (i < n)%nat -> entry S i 1 = 0) /\ exists i, (i < n)%nat /\ entry S i 0 <> 0.
Proof.
  intros Heig Hn Hp Ha Hind Hlam Hy. split; [reflexivity|].
  set (E := vc_E lstsq eig n p X y lambda). set (w := fun k => vc_w lstsq eig n p y lambda (E k)).
  assert (Hws : forall k, (k < a)%nat -> vcpls_weights lstsq eig lambda (mk n p (E k)) (mk n 1 (fun i _ => y i)) = Ok (mk p 1 (fun j _ => w k j))).
  { intros k _. destruct (vc_w_spec lstsq eig n p y lambda Hp Heig (E k)) as (mu & E1 & _). exact E1. }
  pose proof (gen_loop_run (vcpls_weights lstsq eig lambda) n p a y E w Hn Hp ltac:(lia) Hws ltac:(reflexivity)) as EL. change (E 0%nat) with X in EL.
  do 5 eexists. split; [exact EL|].
  assert (H0 : exists i, (i < n)%nat /\ times p X (w 0%nat) i <> 0).
  { destruct (zero_or_not n (times p X (w 0%nat))) as [H|H]; [exact H|]. destruct (vc_w_nonzero lstsq eig n p y lambda Hp Heig X) as (j & Hj & Hne). exfalso. apply Hne. now apply (Hind (w 0%nat)). }
  split; [|destruct H0 as (i & Hi & Hne); exists i; split; [exact Hi|]; rewrite entry_mk by (assumption || lia); exact Hne].
  set (t0 := times p X (w 0%nat)) in *.
  assert (Htau : sumn n (fun i => t0 i * t0 i) <> 0).
  { destruct H0 as (i & Hi & Hne). intros Q. apply Hne. apply Rsqr_0_uniq. unfold Rsqr. apply (sumR_nonneg_0 n (fun i => t0 i * t0 i)); [intros; apply Rle_0_sqr|exact Q|exact Hi]. }
  (* the first direction is in the kernel of the residual *)
  assert (Hk : forall i, (i < n)%nat -> times p (E 1%nat) (w 0%nat) i = 0).
  { intros i Hi. unfold times. rewrite Rsum_sumn. apply (E_kills_w n p 1 E w (fun k => times p (E k) (w k)) (fun k => loadings_of n (E k) (times p (E k) (w k)))); try lia.
    - intros; unfold times; now rewrite Rsum_sumn.
    - intros; unfold loadings_of; now rewrite !Rsum_sumn.
    - reflexivity.
    - intros k Hk. assert (k = 0%nat) by lia. subst k. exact Htau. }
  set (F := E 1%nat) in *. destruct (vc_w_spec lstsq eig n p y lambda Hp Heig F) as (mu & _ & H1 & H2 & H3). change (vc_w lstsq eig n p y lambda F) with (w 1%nat) in *.
  pose proof (H3 (w 0%nat)) as H30. destruct (vc_w_spec lstsq eig n p y lambda Hp Heig X) as (_ & _ & H10 & _). change (vc_w lstsq eig n p y lambda X) with (w 0%nat) in H10.
  unfold vc_num, vc_den in H30. rewrite H10 in H30. rewrite !(Rsum_sumn n) in H30. rewrite !(sumR_zero n) in H30 by (intros; rewrite Hk by assumption; ring).
  unfold vc_num, vc_den in H2. rewrite H1 in H2. set (ee := Rsum n (fun i => times p F (w 1%nat) i * times p F (w 1%nat) i)) in H2. set (cc := Rsum n (fun i => times p F (w 1%nat) i * y i)) in H2.
  assert (Hmu : - lambda * 10 ^ 7 <= mu) by lra.
  assert (He0 : 0 <= ee) by (unfold ee; rewrite Rsum_sumn; apply sumR_nonneg; intros; apply Rle_0_sqr).
  (* Cauchy-Schwarz *)
  assert (Hcs : cc ^ 2 <= ee * Rsum n (fun i => y i * y i)).
  { unfold cc, ee. rewrite !Rsum_sumn. pose proof (cauchy_schwarz n 1 (fun i _ => times p F (w 1%nat) i) (fun i _ => y i)) as Q. unfold sumsq in Q.
    rewrite (sumn_ext n _ (fun i => times p F (w 1%nat) i * y i)) in Q by (intros; now rewrite sum1). rewrite (sumn_ext n (fun i => sumn 1 (fun _ => times p F (w 1%nat) i * times p F (w 1%nat) i)) (fun i => times p F (w 1%nat) i * times p F (w 1%nat) i)) in Q by (intros; now rewrite sum1).
    rewrite (sumn_ext n (fun i => sumn 1 (fun _ => y i * y i)) (fun i => y i * y i)) in Q by (intros; now rewrite sum1). cbn [pow]. rewrite Rmult_1_r. exact Q. }
  set (yy := Rsum n (fun i => y i * y i)) in *.
  assert (Hz : ee = 0).
  { destruct (Rle_lt_or_eq_dec 0 ee He0) as [Hpos|]; [|congruence]. exfalso.
    assert (- lambda * 10 ^ 7 * (ee + / 10 ^ 7 * 1) <= mu * (ee + / 10 ^ 7 * 1)) as Q by (apply Rmult_le_compat_r; [|exact Hmu]; lra).
    assert (- lambda * 10 ^ 7 * ee <= ee * yy) as Q1 by lra. assert (- lambda * 10 ^ 7 <= yy) as Q2 by (apply Rmult_le_reg_l with ee; lra). lra. }
  intros i Hi. rewrite entry_mk by (assumption || lia). apply Rsqr_0_uniq. unfold Rsqr.
  apply (sumR_nonneg_0 n (fun i => times p F (w 1%nat) i * times p F (w 1%nat) i)); [intros; apply Rle_0_sqr|unfold ee in Hz; now rewrite Rsum_sumn in Hz|exact Hi].
Qed.
Print Assumptions C79_refuted.

(** The hypotheses are met: 3 x 2 data, y = (1, 2, 0), lambda = -1. *)
Example C79_ex : independent_columns 3 2 (entry (Mat 3 2 [[3; 0]; [0; 4]; [1; 1]])) /\
  / 10 ^ 7 * Rsum 3 (fun i => entry (Mat 3 1 [[1]; [2]; [0]]) i 0 * entry (Mat 3 1 [[1]; [2]; [0]]) i 0) < - -1.
Proof.
  split.
  - intros v Hv. pose proof (Hv 0%nat ltac:(cbn; lia)) as H0. pose proof (Hv 1%nat ltac:(cbn; lia)) as H1. unfold times in H0, H1. cbn in H0, H1. intros j Hj. destruct j as [|[|j]]; [lra|lra|lia].
  - cbn. lra.
Qed.

(** The same in binary64, through the public methods: after lambda_ = -1 and two components, training on
    X = diag(1, 2), y = (1, 0) returns None and the model predicts NaN for its own training data.  [diag64] answers diagonal
    matrices, the only ones it is asked for here. *)
Definition diag64 (M : mat f64) : res (list f64 * mat f64) :=
  Ok (map (fun i => entry M i i) (seq 0 (nr M)), mk (nr M) (nr M) (fun i j => if (i =? j)%nat then n1 else n0)).
Definition vc64 := vcpls (fun _ _ => Err LinAlgError) diag64.
Definition vc64_X : mat f64 := mk 2 2 (fun i j => if (i =? j)%nat then nofZ (Z.of_nat (S i)) else n0).
Definition vc64_Y : mat f64 := mk 2 1 (fun i j => if (i =? 0)%nat then n1 else n0).
Definition vc64_run (lambda : Z) := pls_run vc64 [OSet (ANumComponents 2); OSet (AOwn (nofZ lambda)); OInitialize (Some vc64_X) (Some vc64_Y)].
Theorem C79_nan_refuted :
  snd (setattr vc64 (construct vc64) (AOwn (nofZ (-1)))) = Ok tt /\
  p_initialised (vc64_run (-1)) = true /\
  snd (predict vc64 (vc64_run (-1)) vc64_X) = Ok (mk 2 1 (fun _ _ => S754_nan)) /\
  (* while lambda = 1 gives the response back *)
  snd (predict vc64 (vc64_run 1) vc64_X) = Ok vc64_Y.
Proof. split; [vm_compute; reflexivity|]. split; [vm_compute; reflexivity|]. split; vm_compute; reflexivity. Qed.
Print Assumptions C79_nan_refuted.
