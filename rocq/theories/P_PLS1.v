(** C51: PLS1 - orthogonality of weights and scores, regression form of predictions. *)
From Coq Require Import List ZArith Lia Bool Arith Reals Lra.
From Verif Require Import Base Num Mat M_Matrix M_Factory M_Helper M_Loop M_Utils M_Linalg M_Transform M_PLSBase M_PLS
  S_Matrix L_Base L_Mat L_Matrix L_MatR L_Linalg L_Alg L_Deflate P_Matrix P_Linalg.
Import ListNotations.
Local Open Scope nat_scope.

(** The textbook recursion: covariances of the columns of E with y, their normalisation, scores,
    loadings, and the residual matrices of n x p data X with response y. *)
Definition cov (n : nat) (E : nat -> nat -> R) (y : nat -> R) (j : nat) : R := Rsum n (fun i => (E i j * y i)%R).
Definition unit_cov (n p : nat) (E : nat -> nat -> R) (y : nat -> R) (j : nat) : R :=
  (cov n E y j / sqrt (Rsum p (fun l => cov n E y l * cov n E y l)))%R.
Definition scores_of (p : nat) (E : nat -> nat -> R) (w : nat -> R) (i : nat) : R := Rsum p (fun j => (E i j * w j)%R).
Definition loadings_of (n : nat) (E : nat -> nat -> R) (t : nat -> R) (j : nat) : R :=
  (Rsum n (fun i => E i j * t i) / Rsum n (fun i => t i * t i))%R.
Fixpoint residual (n p : nat) (X : nat -> nat -> R) (y : nat -> R) (k : nat) : nat -> nat -> R :=
  match k with
  | 0 => X
  | S k => let E := residual n p X y k in
           let t := scores_of p E (unit_cov n p E y) in
           fun i j => (E i j - t i * loadings_of n E t j)%R
  end.
(** Breakdown: no column of the residual is correlated with y any more. *)
Definition no_breakdown (n p : nat) (X : nat -> nat -> R) (y : nat -> R) (a : nat) : Prop :=
  forall k, k < a -> exists j, j < p /\ cov n (residual n p X y k) y j <> 0%R.

Lemma ifS {A : Type} (k j : nat) (f : A) (h : nat -> A) : (if j =? k then h k else if j <? k then h j else f) = if j <? S k then h j else f.
Proof. destruct (Nat.eqb_spec j k) as [Q|Hne]; destruct (Nat.ltb_spec j (S k)); try lia; destruct (Nat.ltb_spec j k); try lia; congruence. Qed.

Section Run.
Variables (n p a : nat) (X : nat -> nat -> R) (y : nat -> R).
Hypotheses (Hn : n <> 0) (Hp : p <> 0) (Ha : a <> 0).
Let E := residual n p X y.
Let w k := unit_cov n p (E k) y.
Let t k := scores_of p (E k) (w k).
Let q k := loadings_of n (E k) (t k).
Let b k := (Rsum n (fun i => t k i * y i) / Rsum n (fun i => t k i * t k i))%R.

Lemma weights_run k : pls1_weights (mk n p (E k)) (mk n 1 (fun i _ => y i)) = Ok (mk p 1 (fun j _ => w k j)).
Proof.
  unfold pls1_weights. rewrite transpose_mk, mul_mk. cbn [bind]. rewrite normalized0_mk. f_equal. apply mk_ext. intros i j Hi Hj. unfold w, unit_cov, cov.
  rewrite (Rsum_ext p _ (fun l => sumn n (fun i => E k i l * y i) * sumn n (fun i => E k i l * y i))%R) by (intros; now rewrite Rsum_sumn).
  now rewrite !Rsum_sumn.
Qed.
Lemma loop_run :
  pls1_loop pls1_weights (Z.of_nat a) (mk n p X) (mk n 1 (fun i _ => y i)) =
  Ok (mk n p (E a), mk p a (fun j k => w k j), mk p a (fun j k => q k j), mk n a (fun i k => t k i), mk a 1 (fun k _ => b k)).
Proof.
  unfold pls1_loop. cbn [nr nc mk]. fold (mk n p X). unfold zn. rewrite !zeros_mk by assumption. change 1%Z with (Z.of_nat 1). rewrite zeros_mk by assumption. rewrite Nat2Z.id.
  pose (st := fun k => (mk n p (E k), mk p a (fun j l => if l <? k then w l j else 0%R), mk p a (fun j l => if l <? k then q l j else 0%R),
     mk n a (fun i l => if l <? k then t l i else 0%R), mk a 1 (fun l _ => if l <? k then b l else 0%R)) : pls1_state (T:=R)).
  destruct (for_range_inv (fun k s => s = st k) (pls1_step pls1_weights (mk n 1 (fun i _ => y i))) a (st 0)) as (s & Es & ->).
  - reflexivity.
  - intros k s Hk ->. unfold st at 1. unfold pls1_step, zn. rewrite weights_run. cbn [bind]. rewrite set_column_mk by assumption. cbn [bind].
    rewrite mul_mk. cbn [bind].
    assert (Et : mk n 1 (fun i j : nat => sumn p (fun l : nat => nmul (E k i l) (w k l))) = mk n 1 (fun i _ => t k i)).
    { apply mk_ext. intros. unfold t, scores_of. now rewrite Rsum_sumn. }
    rewrite Et. rewrite set_column_mk by assumption. cbn [bind]. rewrite !vector_dot_mk. cbn [bind]. rewrite set_mk_0 by (assumption || lia). cbn [bind].
    rewrite transpose_mk, mul_mk. cbn [bind]. rewrite div_scalar_mk.
    assert (Eq : mk p 1 (fun i j : nat => ndiv (sumn n (fun l : nat => nmul (E k l i) (t k l))) (sumn n (fun l : nat => nmul (t k l) (t k l)))) = mk p 1 (fun j _ => q k j)).
    { apply mk_ext. intros. unfold q, loadings_of. now rewrite !Rsum_sumn. }
    rewrite Eq. rewrite set_column_mk by assumption. cbn [bind]. rewrite transpose_mk, mul_mk. cbn [bind]. rewrite sub_mk. cbn [bind].
    eexists. split; [reflexivity|]. unfold st. f_equal; [f_equal; [f_equal; [f_equal|]|]|]; apply mk_ext; intros i j Hi Hj.
    + rewrite sum1. cbn [nsub nmul NumR]. reflexivity.
    + apply (ifS k j 0%R (fun l => w l i)).
    + apply (ifS k j 0%R (fun l => q l i)).
    + apply (ifS k j 0%R (fun l => t l i)).
    + assert (j = 0) by lia. subst. cbn [Nat.eqb]. rewrite andb_true_r. rewrite <- (ifS k _ 0%R (fun l => b l)). destruct (i =? k); [|reflexivity]. unfold b. now rewrite !Rsum_sumn.
  - transitivity (Ok (st a)); [rewrite <- Es; reflexivity|]. f_equal. unfold st. f_equal; [f_equal; [f_equal; [f_equal|]|]|]; apply mk_ext; intros i j Hi Hj; try reflexivity.
    all: destruct (Nat.ltb_spec j a), (Nat.ltb_spec i a); try lia; reflexivity.
Qed.

End Run.

(** One row x: the scores *)
Section NewRow.
Variables (p a : nat) (w q : nat -> nat -> R) (s : pls1_st R).
Hypotheses (Hp : p <> 0) (Ha : a <> 0).
Hypotheses (HW : o_W s = Some (mk p a (fun j k => w k j))) (HP : o_P s = Some (mk p a (fun j k => q k j))).
Fixpoint xs (x0 : nat -> R) (k : nat) : nat -> R :=
  match k with 0 => x0 | S k => fun j => (xs x0 k j - Rsum p (fun l => xs x0 k l * w k l) * q k j)%R end.
Definition ss (x0 : nat -> R) (k : nat) : R := Rsum p (fun l => (xs x0 k l * w k l)%R).
Lemma row_run x0 : pls1_row (Z.of_nat a) s (mk 1 p (fun _ j => x0 j)) = Ok (mk 1 a (fun _ k => ss x0 k)).
Proof.
  unfold pls1_row. rewrite HW, HP. change 1%Z with (Z.of_nat 1). rewrite zeros_mk by lia. rewrite Nat2Z.id. unfold zn.
  match goal with |- bind (for_range a ?body ?init) _ = _ =>
    destruct (for_range_inv (fun k st => fst (fst st) = mk 1 p (fun _ j => xs x0 k j) /\ nr (snd (fst st)) = 1 /\ nc (snd (fst st)) = a /\
       snd st = mk 1 a (fun _ l => if l <? k then ss x0 l else 0%R)) body a init) as (st & Es & _ & _ & _ & Hst) end.
  - cbn. repeat split; reflexivity.
  - intros k [[x Xs] Ts] Hk (Ex & R1 & C1 & ET). cbn [fst snd] in *. subst x Ts.
    destruct (set_column Xs (Z.of_nat k) (mk 1 p (fun _ j => xs x0 k j))) as [Xs'|e] eqn:EX.
    2:{ exfalso. unfold set_column, must_be_vector in EX. rewrite is_vector_row in EX. cbn [bind] in EX. rewrite C1, npidx_nat in EX by assumption. discriminate. }
    cbn [bind need]. rewrite get_column_mk by assumption. cbn [bind]. rewrite mul_mk. cbn [bind]. rewrite set_column_mk by assumption. cbn [bind].
    rewrite get_column_mk by assumption. cbn [bind]. rewrite as_real_mk. cbn [bind]. rewrite transpose_mk, mul_scalar_mk, sub_mk. cbn [bind].
    eexists. split; [reflexivity|]. cbn [fst snd]. split; [|split; [|split]].
    + apply mk_ext. intros i j Hi Hj. cbn [xs nsub nmul NumR]. rewrite Rsum_sumn. rewrite (Rmult_comm (sumn _ _)). reflexivity.
    + unfold set_column, must_be_vector in EX. rewrite is_vector_row in EX. cbn [bind] in EX. rewrite C1, npidx_nat in EX by assumption. injection EX as <-. exact R1.
    + unfold set_column, must_be_vector in EX. rewrite is_vector_row in EX. cbn [bind] in EX. rewrite C1, npidx_nat in EX by assumption. injection EX as <-. reflexivity.
    + apply mk_ext. intros i j Hi Hj. rewrite <- (ifS k _ 0%R (fun l => ss x0 l)). destruct (j =? k); [|reflexivity]. unfold ss. now rewrite Rsum_sumn.
  - rewrite Es. cbn [bind]. rewrite Hst. f_equal. apply mk_ext. intros i j Hi Hj. now rewrite (proj2 (Nat.ltb_lt j a) Hj).
Qed.
Lemma transform_run m (x : nat -> nat -> R) : m <> 0 ->
  pls1_transform (Z.of_nat a) s (mk m p x) = Ok (mk m a (fun i k => ss (x i) k)).
Proof.
  intros Hm. unfold pls1_transform, row_as_vector. cbn [nr mk]. fold (mk m p x). unfold zn. rewrite zeros_mk by assumption.
  match goal with |- for_range m ?body ?init = _ =>
    destruct (for_range_inv (fun k r => r = mk m a (fun i l => if i <? k then ss (x i) l else 0%R)) body m init) as (r & Er & ->) end.
  - reflexivity.
  - intros k r Hk ->. rewrite get_row_mk by assumption. cbn [bind]. rewrite row_run. cbn [bind]. rewrite set_row_mk by assumption. eexists. split; [reflexivity|].
    apply mk_ext. intros i j Hi Hj. apply (ifS k i 0%R (fun l => ss (x l) j)).
  - rewrite Er. f_equal. apply mk_ext. intros i j Hi Hj. now rewrite (proj2 (Nat.ltb_lt i m) Hi).
Qed.
Lemma predict_run m (x : nat -> nat -> R) (b : nat -> R) : m <> 0 -> o_b_hat s = Some (mk a 1 (fun k _ => b k)) ->
  pls1_predict (Z.of_nat a) s (mk m p x) = Ok (mk m 1 (fun i _ => Rsum a (fun k => (ss (x i) k * b k)%R))).
Proof.
  intros Hm Hb. unfold pls1_predict, row_as_vector. cbn [nr mk]. fold (mk m p x). unfold zn. change 1%Z with (Z.of_nat 1). rewrite zeros_mk by assumption.
  match goal with |- for_range m ?body ?init = _ =>
    destruct (for_range_inv (fun k r => r = mk m 1 (fun i _ => if i <? k then Rsum a (fun k => (ss (x i) k * b k)%R) else 0%R)) body m init) as (r & Er & ->) end.
  - reflexivity.
  - intros k r Hk ->. rewrite get_row_mk by assumption. cbn [bind]. rewrite row_run. cbn [bind]. rewrite Hb. cbn [need bind]. rewrite mul_mk. cbn [bind]. rewrite as_real_mk. cbn [bind].
    rewrite set_mk_0 by (assumption || lia). eexists. split; [reflexivity|].
    apply mk_ext. intros i j Hi Hj. assert (j = 0) by lia. subst. cbn [Nat.eqb]. rewrite andb_true_r. rewrite <- (ifS k i 0%R (fun l => Rsum a (fun k => (ss (x l) k * b k)%R))).
    destruct (i =? k); [|reflexivity]. now rewrite Rsum_sumn.
  - rewrite Er. f_equal. apply mk_ext. intros i j Hi Hj. now rewrite (proj2 (Nat.ltb_lt i m) Hi).
Qed.
End NewRow.

(** M and I are inverse to each other (a x a). *)
Definition inverse_pair (a : nat) (M Iv : nat -> nat -> R) : Prop :=
  forall k l, k < a -> l < a -> Rsum a (fun m => (M k m * Iv m l)%R) = delta k l /\ Rsum a (fun m => (Iv k m * M m l)%R) = delta k l.

Section Core.
Variables (lstsq : mat R -> mat R -> res (mat R)) (n p a : nat) (w q : nat -> nat -> R) (b : nat -> R).
Hypotheses (Hp : p <> 0) (Ha : a <> 0).
Hypothesis Hone : forall k, k < a -> sumn p (fun j => q k j * w k j)%R = 1%R.
Hypothesis Hlow : forall k m, k < m -> m < a -> sumn p (fun j => q m j * w k j)%R = 0%R.
Let PW k l : R := sumn p (fun j => (q k j * w l j)%R).

Lemma fit_core weights X Y Xa Ts :
  pls1_loop weights (Z.of_nat a) X Y = Ok (Xa, mk p a (fun j k => w k j), mk p a (fun j k => q k j), Ts, mk a 1 (fun k _ => b k)) ->
  exists Iv, inverse_pair a PW Iv /\
    pls1_fit lstsq weights (Z.of_nat a) X Y =
      Ok (Pls1 (Some (mk p 1 (fun j _ => sumn a (fun l => sumn a (fun k => w k j * Iv k l) * b l)%R))) (Some (mk p a (fun j k => q k j)))
               (Some (mk p a (fun j k => w k j))) (Some (mk a 1 (fun k _ => b k)))).
Proof.
  intros EL. unfold pls1_fit. rewrite EL. cbn [bind]. rewrite transpose_mk, mul_mk. cbn [bind]. unfold minverse.
  set (M := mk a a (fun i j : nat => sumn p (fun k : nat => nmul (q i k) (w j k))) : mat R).
  assert (HM : is_mat M a a PW) by (apply is_mat_mk_ext; reflexivity). destruct HM as (WM & RM & CM & HM).
  assert (Hns : ~ singular M).
  { rewrite singular_kernel by congruence. intros Q. apply Q. intros v Hv. rewrite CM. rewrite RM, CM in Hv.
    apply (unit_upper_kernel a PW v); [exact Hone|intros; now apply Hlow|]. intros i Hi. rewrite <- (Hv i Hi). apply sumn_ext. intros k Hk. now rewrite HM. }
  destruct (C61_inverse lstsq M WM ltac:(congruence)) as [_ HI]. destruct (HI Hns) as (Iv & EI & WI & R1 & C1 & HIv). rewrite RM in *. rewrite CM in *.
  exists (entry Iv). split.
  - intros k l Hk Hl. destruct (HIv k l Hk Hl) as [H1 H2]. unfold delta. rewrite <- H1 at 1. rewrite <- H2. split; apply Rsum_ext; intros m Hm; now rewrite HM.
  - fold M. rewrite EI. cbn [bind]. pose proof (wf_mk Iv WI) as EIv. rewrite R1, C1 in EIv. remember (entry Iv) as iv eqn:Eiv. clear Eiv. subst Iv. rewrite mul_mk. cbn [bind]. rewrite mul_mk. cbn [bind]. reflexivity.
Qed.
(** scores of a new row *)
Lemma ss_form Iv x0 k : inverse_pair a PW Iv -> k < a -> ss p w q x0 k = Rsum a (fun l => (Rsum p (fun j => x0 j * w l j) * Iv l k)%R).
Proof.
  intros HIv Hk.
  assert (HS : forall l, l < a -> sumn p (fun j => x0 j * w l j)%R = sumn a (fun m => ss p w q x0 m * PW m l)%R).
  { intros l Hl. apply (row_scores p a w q (xs p w q x0) (ss p w q x0)); auto.
    - intros m Hm. unfold ss. now rewrite Rsum_sumn. }
  rewrite Rsum_sumn. rewrite (sumn_ext a _ (fun l => sumn a (fun m => ss p w q x0 m * (PW m l * Iv l k)))%R).
  2:{ intros l Hl. rewrite Rsum_sumn, HS by assumption. rewrite <- sumR_scal_r. apply sumn_ext. intros; ring. }
  rewrite sumR_swap. rewrite (sumR_single a k).
  - rewrite sumR_scal. destruct (HIv k k Hk Hk) as [H1 _]. rewrite Rsum_sumn in H1. rewrite H1. unfold delta. rewrite Nat.eqb_refl. ring.
  - assumption.
  - intros m Hm Hne. rewrite sumR_scal. destruct (HIv m k Hm Hk) as [H1 _]. rewrite Rsum_sumn in H1. rewrite H1. unfold delta. rewrite (proj2 (Nat.eqb_neq _ _) Hne). ring.
Qed.
End Core.

(** Training on n x p predictors X and an n x 1 response Y with a >= 1 components. *)
Section C51.
Variables (lstsq : mat R -> mat R -> res (mat R)).
Let pls := pls1 lstsq.

(** W, P, b, Iv describe a trained PLS1 model over p predictors with a components. *)
Record pls1_regression (p a : nat) (W P : mat R) (b : nat -> R) (Iv : nat -> nat -> R) : Prop := {
  reg_W : wf W /\ nr W = p /\ nc W = a;
  reg_P : wf P /\ nr P = p /\ nc P = a;
  reg_diag : forall k, k < a -> Rsum p (fun j => (entry P j k * entry W j k)%R) = 1%R;
  reg_low : forall k l, l < k -> k < a -> Rsum p (fun j => (entry P j k * entry W j l)%R) = 0%R;
  reg_inverse : inverse_pair a (fun k l => Rsum p (fun j => (entry P j k * entry W j l)%R)) Iv }.

(** Entry (j, k) of W (P^T W)^-1 *)
Definition rotated (a : nat) (W : mat R) (Iv : nat -> nat -> R) (j k : nat) : R := Rsum a (fun l => (entry W j l * Iv l k)%R).

Theorem C51_training (own : pls1_st R) (X Y : mat R) (a : nat) :
  let n := nr X in let p := nc X in
  wf X -> wf Y -> n <> 0 -> p <> 0 -> nr Y = n -> nc Y = 1 -> a <> 0 ->
  no_breakdown n p (entry X) (fun i => entry Y i 0) a ->
  exists s W P b Iv,
    c_train pls (Z.of_nat a) own X Y = (s, Ok None) /\
    o_W s = Some W /\ o_P s = Some P /\ pls1_regression p a W P b Iv /\
    (* orthonormal weights *)
    (forall k l, k < a -> l < a -> Rsum p (fun j => (entry W j k * entry W j l)%R) = delta k l) /\
    (* regression coefficients *)
    (exists r, o_r_hat s = Some r /\ is_mat r p 1 (fun j _ => Rsum a (fun k => (rotated a W Iv j k * b k)%R))) /\
    (* new data *)
    (forall Z, wf Z -> nc Z = p -> nr Z <> 0 ->
       exists S V, c_transform pls (Z.of_nat a) s Z = (s, Ok S) /\ c_predict pls (Z.of_nat a) s Z = (s, Ok V) /\
         is_mat S (nr Z) a (fun i k => Rsum p (fun j => (entry Z i j * rotated a W Iv j k)%R)) /\
         is_mat V (nr Z) 1 (fun i _ => Rsum a (fun k => (Rsum p (fun j => entry Z i j * rotated a W Iv j k) * b k)%R))) /\
    (* the scores of the training data: mutually orthogonal, not zero; b the least squares coefficients *)
    (forall S, snd (c_transform pls (Z.of_nat a) s X) = Ok S ->
       (forall k l, k < a -> l < a -> k <> l -> Rsum n (fun i => (entry S i k * entry S i l)%R) = 0%R) /\
       (forall k, k < a -> Rsum n (fun i => (entry S i k * entry S i k)%R) <> 0%R) /\
       (forall k, k < a -> b k = (Rsum n (fun i => entry S i k * entry Y i 0) / Rsum n (fun i => entry S i k * entry S i k))%R)).
Proof.
  intros n p WX WY Hn Hp RY CY Ha Hnb.
  set (y := fun i => entry Y i 0) in *. set (E := residual n p (entry X) y).
  set (w := fun k => unit_cov n p (E k) y). set (t := fun k => scores_of p (E k) (w k)). set (q := fun k => loadings_of n (E k) (t k)).
  set (b := fun k => (Rsum n (fun i => t k i * y i) / Rsum n (fun i => t k i * t k i))%R).
  assert (EX : X = mk n p (entry X)) by now apply wf_mk.
  assert (EY : Y = mk n 1 (fun i _ => y i)).
  { rewrite (wf_mk Y WY), RY, CY. apply mk_ext. intros i j Hi Hj. assert (j = 0) by lia. now subst. }
  pose proof (loop_run n p a (entry X) y Hn Hp Ha) as EL. fold E in EL. rewrite <- EX, <- EY in EL.
  change (fun j k => unit_cov n p (E k) y j) with (fun j k => w k j) in EL.
  (* norms *)
  assert (Hcov : forall k, k < a -> (0 < sumn p (fun l => cov n (E k) y l * cov n (E k) y l))%R).
  { intros k Hk. destruct (Hnb k Hk) as (j & Hj & Hne). destruct (Rle_lt_or_eq_dec 0 (sumn p (fun l => cov n (E k) y l * cov n (E k) y l)%R)) as [|E0]; [|assumption|].
    - apply sumR_nonneg. intros. apply Rle_0_sqr.
    - exfalso. apply Hne. apply Rsqr_0_uniq. unfold Rsqr. apply (sumR_nonneg_0 p (fun l => cov n (E k) y l * cov n (E k) y l)%R); [intros; apply Rle_0_sqr|auto|auto]. }
  assert (Hw1 : forall k, k < a -> sumn p (fun j => w k j * w k j)%R = 1%R).
  { intros k Hk. unfold w, unit_cov. rewrite Rsum_sumn. set (N := sumn p (fun l => cov n (E k) y l * cov n (E k) y l)%R). specialize (Hcov k Hk). fold N in Hcov.
    assert (Hs : sqrt N <> 0%R) by (intros Q; apply sqrt_eq_0 in Q; lra).
    rewrite (sumn_ext p _ (fun j => (cov n (E k) y j * cov n (E k) y j) * / N)%R).
    2:{ intros j Hj. rewrite <- (sqrt_sqrt N) at 3 by lra. field. exact Hs. }
    rewrite sumR_scal_r. fold N. field. lra. }
  assert (Ht : forall k i, k < a -> i < n -> t k i = sumn p (fun j => E k i j * w k j)%R) by (intros; unfold t, scores_of; now rewrite Rsum_sumn).
  assert (Hq : forall k j, k < a -> j < p -> q k j = (sumn n (fun i => E k i j * t k i) / sumn n (fun i => t k i * t k i))%R) by (intros; unfold q, loadings_of; now rewrite !Rsum_sumn).
  assert (HE : forall k i j, k < a -> i < n -> j < p -> E (S k) i j = (E k i j - t k i * q k j)%R) by reflexivity.
  (* y . E_k v, with v = w_k, is the norm of the covariances *)
  assert (Hyw : forall k (v : nat -> R), sumn n (fun i => y i * sumn p (fun j => E k i j * v j))%R = sumn p (fun j => cov n (E k) y j * v j)%R).
  { intros k v. rewrite (sumn_ext n _ (fun i => sumn p (fun j => E k i j * y i * v j))%R) by (intros; rewrite <- sumR_scal; apply sumn_ext; intros; ring).
    rewrite sumR_swap. apply sumn_ext. intros j Hj. unfold cov. rewrite Rsum_sumn, sumR_scal_r. reflexivity. }
  assert (Htau : forall k, k < a -> sumn n (fun i => t k i * t k i)%R <> 0%R).
  { intros k Hk Q. assert (Hz : forall i, i < n -> t k i = 0%R).
    { intros i Hi. apply Rsqr_0_uniq. unfold Rsqr. apply (sumR_nonneg_0 n (fun i => t k i * t k i)%R); [intros; apply Rle_0_sqr|auto|auto]. }
    specialize (Hcov k Hk). set (N := sumn p (fun l => cov n (E k) y l * cov n (E k) y l)%R) in *.
    assert (HN : (N / sqrt N = 0)%R).
    { transitivity (sumn p (fun j => cov n (E k) y j * w k j)%R).
      - unfold w, unit_cov. rewrite Rsum_sumn. fold N. unfold Rdiv. unfold N at 1. rewrite <- sumR_scal_r. apply sumn_ext. intros; ring.
      - rewrite <- Hyw. apply sumR_zero. intros i Hi. rewrite <- Ht, Hz by assumption. ring. }
    assert (Hs : (0 < sqrt N)%R) by now apply sqrt_lt_R0.
    assert (0 < N / sqrt N)%R by now apply Rdiv_lt_0_compat. lra. }
  assert (Hone : forall k, k < a -> sumn p (fun j => q k j * w k j)%R = 1%R) by (intros; apply (q_self n p a E w t q); auto).
  assert (Hlow : forall k m, k < m -> m < a -> sumn p (fun j => q m j * w k j)%R = 0%R) by (intros; apply (q_w_below n p a E w t q); auto).
  destruct (fit_core lstsq p a w q b Hone Hlow _ _ _ _ _ EL) as (Iv & HIv & Ef).
  set (s := Pls1 _ _ _ _) in Ef.
  exists s, (mk p a (fun j k => w k j)), (mk p a (fun j k => q k j)), b, Iv.
  assert (Htr : forall Z, wf Z -> nc Z = p -> nr Z <> 0 -> pls1_transform (Z.of_nat a) s Z = Ok (mk (nr Z) a (fun i k => ss p w q (entry Z i) k))).
  { intros Z WZ CZ RZ. rewrite (wf_mk Z WZ) at 1. rewrite CZ. now apply transform_run. }
  assert (Hrot : forall i k (Z : mat R), k < a -> ss p w q (entry Z i) k = Rsum p (fun j => (entry Z i j * rotated a (mk p a (fun j k => w k j)) Iv j k)%R)).
  { intros i k Z Hk. rewrite (ss_form p a w q Hone Hlow Iv) by assumption. unfold rotated. rewrite !Rsum_sumn.
    rewrite (sumn_ext a _ (fun l => sumn p (fun j => entry Z i j * (w l j * Iv l k)))%R) by (intros; rewrite Rsum_sumn, <- sumR_scal_r; apply sumn_ext; intros; ring).
    rewrite sumR_swap. apply sumn_ext. intros j' Hj'. rewrite sumR_scal, Rsum_sumn. f_equal. apply sumn_ext. intros l Hl. now rewrite entry_mk. }
  split; [|split; [|split; [|split; [|split; [|split; [|split]]]]]].
  - unfold pls. cbn [pls1 c_train]. now rewrite Ef.
  - reflexivity.
  - reflexivity.
  - split.
    + split; [apply mk_wf|split; reflexivity].
    + split; [apply mk_wf|split; reflexivity].
    + intros k Hk. rewrite <- (Hone k Hk), Rsum_sumn. apply sumn_ext. intros j Hj. now rewrite !entry_mk by lia.
    + intros k l Hl Hk. rewrite <- (Hlow l k Hl Hk), Rsum_sumn. apply sumn_ext. intros j Hj. now rewrite !entry_mk by lia.
    + intros k l Hk Hl. destruct (HIv k l Hk Hl) as [H1 H2]. rewrite <- H1 at 1. rewrite <- H2. split; apply Rsum_ext; intros m Hm; f_equal; rewrite Rsum_sumn; apply sumn_ext; intros j Hj; now rewrite !entry_mk by lia.
  - intros k l Hk Hl. rewrite Rsum_sumn. rewrite (sumn_ext p _ (fun j => w k j * w l j)%R) by (intros; now rewrite !entry_mk).
    assert (Hperp : forall k m, k < m -> m < a -> sumn p (fun j => w m j * w k j)%R = 0%R).
    { intros k' m Hkm Hm. unfold w at 1, unit_cov. rewrite (sumn_ext p _ (fun j => / sqrt (Rsum p (fun l => cov n (E m) y l * cov n (E m) y l)) * (cov n (E m) y j * w k' j))%R) by (intros; unfold Rdiv; ring).
      rewrite sumR_scal, <- Hyw. rewrite (sumR_zero n); [ring|]. intros i Hi. rewrite (E_kills_w n p a E w t q) by (auto; lia). ring. }
    unfold delta. destruct (Nat.eqb_spec k l) as [->|Hne]; [now apply Hw1|]. destruct (Nat.lt_ge_cases k l).
    + rewrite <- (Hperp k l) by lia. apply sumn_ext. intros; ring.
    + apply Hperp; lia.
  - eexists. split; [reflexivity|]. apply is_mat_mk_ext. intros j z Hj Hz. rewrite Rsum_sumn. apply sumn_ext. intros l Hl. f_equal. unfold rotated. rewrite Rsum_sumn. apply sumn_ext. intros k Hk. now rewrite entry_mk.
  - intros Z WZ CZ RZ. eexists. eexists. split; [|split; [|split]].
    + unfold pls. cbn [pls1 c_transform]. now rewrite Htr.
    + unfold pls. cbn [pls1 c_predict]. f_equal. rewrite (wf_mk Z WZ) at 1. rewrite CZ. now rewrite (predict_run p a w q s Hp Ha eq_refl eq_refl (nr Z) (entry Z) b RZ eq_refl).
    + apply is_mat_mk_ext. intros i k Hi Hk. now apply Hrot.
    + apply is_mat_mk_ext. intros i k Hi Hk. apply Rsum_ext. intros l Hl. f_equal. now apply Hrot.
  - intros S0 HS. unfold pls in HS. cbn [pls1 c_transform snd] in HS. rewrite Htr in HS by auto. injection HS as <-. fold n.
    assert (Hst : forall k i, k < a -> i < n -> ss p w q (entry X i) k = t k i).
    { assert (Hxs : forall k i j, k <= a -> i < n -> j < p -> xs p w q (entry X i) k j = E k i j).
      { induction k as [|k IH]; intros i j Hk Hi Hj; [reflexivity|]. cbn [xs]. rewrite (Rsum_ext p _ (fun l => E k i l * w k l)%R) by (intros; rewrite IH by lia; reflexivity).
        rewrite IH by lia. rewrite HE by lia. rewrite Ht by lia. now rewrite Rsum_sumn. }
      intros k i Hk Hi. unfold ss. rewrite Ht by assumption. rewrite Rsum_sumn. apply sumn_ext. intros j Hj. rewrite Hxs by lia. reflexivity. }
    split; [|split].
    + intros k l Hk Hl Hne. rewrite Rsum_sumn. rewrite <- (scores_orthogonal n p a E w t q Ht Hq HE Htau k l Hk Hl Hne). apply sumn_ext. intros i Hi. now rewrite !entry_mk, !Hst by assumption.
    + intros k Hk. rewrite Rsum_sumn. rewrite (sumn_ext n _ (fun i => t k i * t k i)%R); [now apply Htau|]. intros i Hi. now rewrite !entry_mk, !Hst by assumption.
    + intros k Hk. unfold b. f_equal; apply Rsum_ext; intros i Hi; now rewrite !entry_mk, !Hst by assumption.
Qed.

(** The same through the public methods, without preprocessing (with it, X and Y of C51_training are
    the preprocessed matrices: do_initialize hands exactly those to the training). *)
Theorem C51_public (s0 : pls_st (pls1_st R) R) (X Y : mat R) (a : nat) :
  let n := nr X in let p := nc X in
  p_preprocessing s0 = PP_NONE -> p_num_components s0 = Z.of_nat a ->
  wf X -> wf Y -> n <> 0 -> p <> 0 -> nr Y = n -> nc Y = 1 -> a <> 0 ->
  no_breakdown n p (entry X) (fun i => entry Y i 0) a ->
  exists s W P b Iv,
    initialize pls s0 (Some X) (Some Y) = (s, Ok None) /\
    o_W (p_own s) = Some W /\ o_P (p_own s) = Some P /\ pls1_regression p a W P b Iv /\
    (forall k l, k < a -> l < a -> Rsum p (fun j => (entry W j k * entry W j l)%R) = delta k l) /\
    (forall Z, wf Z -> nc Z = p -> nr Z <> 0 ->
       exists S V, transform pls s Z = (s, Ok S) /\ predict pls s Z = (s, Ok V) /\
         is_mat S (nr Z) a (fun i k => Rsum p (fun j => (entry Z i j * rotated a W Iv j k)%R)) /\
         is_mat V (nr Z) 1 (fun i _ => Rsum a (fun k => (Rsum p (fun j => entry Z i j * rotated a W Iv j k) * b k)%R))) /\
    (forall S, snd (transform pls s X) = Ok S ->
       (forall k l, k < a -> l < a -> k <> l -> Rsum n (fun i => (entry S i k * entry S i l)%R) = 0%R) /\
       (forall k, k < a -> Rsum n (fun i => (entry S i k * entry S i k)%R) <> 0%R) /\
       (forall k, k < a -> b k = (Rsum n (fun i => entry S i k * entry Y i 0) / Rsum n (fun i => entry S i k * entry S i k))%R)).
Proof.
  intros n p Hpp Hnc WX WY Hn Hp RY CY Ha Hnb.
  destruct (C51_training pls1_none X Y a WX WY Hn Hp RY CY Ha Hnb) as (s & W & P & b & Iv & Et & EW & EP & Hreg & Hw & _ & Hnew & Hsc).
  fold n in Hsc. fold p in Hreg, Hw, Hnew.
  assert (Ei : initialize pls s0 (Some X) (Some Y) =
    (PlsSt (Z.of_nat a) PP_NONE true [0%R] [1%R] None None s, Ok None)).
  { unfold initialize, check_data. unfold pls at 1. cbn [pls1 c_arity]. rewrite CY. cbn [Nat.eqb negb]. unfold do_initialize. cbn [reset p_preprocessing]. rewrite Hpp.
    unfold prepare. unfold pls at 1. cbn [pls1 c_arity prep_single pt_fit]. cbn [set_prep p_num_components p_own reset]. rewrite Hnc. unfold pls at 2. cbn [pls1 c_reset]. rewrite Et. unfold set_initialised, set_own, set_prep, reset. cbn [p_num_components p_preprocessing p_class_mean p_class_std_dev p_trans_predictors p_trans_response p_own]. rewrite Hpp, Hnc. reflexivity. }
  set (s1 := PlsSt _ _ _ _ _ _ _ _) in Ei. exists s1, W, P, b, Iv.
  assert (Etr : forall Z, transform pls s1 Z = (s1, snd (c_transform pls (Z.of_nat a) s Z))) by reflexivity.
  assert (Epr : forall Z, predict pls s1 Z = (s1, snd (c_predict pls (Z.of_nat a) s Z))).
  { intros Z. unfold predict. cbn [p_initialised s1 negb]. unfold do_predict. cbn. destruct (pls1_predict (Z.of_nat a) s Z); reflexivity. }
  split; [exact Ei|]. split; [exact EW|]. split; [exact EP|]. split; [exact Hreg|]. split; [exact Hw|]. split.
  - intros Z WZ CZ RZ. destruct (Hnew Z WZ CZ RZ) as (S0 & V & E1 & E2 & H1 & H2). exists S0, V. rewrite Etr, Epr, E1, E2. split; [reflexivity|]. split; [reflexivity|]. split; [exact H1|exact H2].
  - intros S0 HS. rewrite Etr in HS. apply Hsc. exact HS.
Qed.
End C51.
Print Assumptions C51_training.
Print Assumptions C51_public.

(** Two components without breakdown: X = diag(3, 4), y = (1, 1). *)
Example C51_ex : let X := Mat 2 2 [[3;0];[0;4]]%R in let Y := Mat 2 1 [[1];[1]]%R in
  wf X /\ wf Y /\ no_breakdown 2 2 (entry X) (fun i => entry Y i 0) 2.
Proof.
  cbv zeta. split; [|split].
  - split; [reflexivity|]. repeat constructor.
  - split; [reflexivity|]. repeat constructor.
  - intros k Hk. exists 0. split; [lia|]. destruct k as [|[|k]]; [| |lia].
    + unfold cov. cbn. lra.
    + assert (Hs : sqrt (0 + 3 * 3 + 4 * 4) = 5%R) by (replace (0 + 3 * 3 + 4 * 4)%R with (5 * 5)%R by ring; apply sqrt_square; lra).
      assert (W0 : unit_cov 2 2 (entry (Mat 2 2 [[3;0];[0;4]]%R)) (fun i => entry (Mat 2 1 [[1];[1]]%R) i 0) 0 = (3/5)%R).
      { unfold unit_cov, cov. cbn. match goal with |- (_ / sqrt ?z)%R = _ => replace z with (0 + 3*3 + 4*4)%R by ring end. rewrite Hs. field. }
      assert (W1 : unit_cov 2 2 (entry (Mat 2 2 [[3;0];[0;4]]%R)) (fun i => entry (Mat 2 1 [[1];[1]]%R) i 0) 1 = (4/5)%R).
      { unfold unit_cov, cov. cbn. match goal with |- (_ / sqrt ?z)%R = _ => replace z with (0 + 3*3 + 4*4)%R by ring end. rewrite Hs. field. }
      unfold cov. cbn [residual]. unfold loadings_of, scores_of. cbn [Rsum]. rewrite W0, W1. cbn. 
      match goal with |- ?l <> _ => replace l with (336/337)%R by field end. lra.
Qed.
