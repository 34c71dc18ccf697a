(** C21, C22, C78: the contracts of the eigen-solver and of the singular value solver that the theorems of this
    development assume can be met, for matrices of every size: there are functions eig and svd that meet all of them at
    once.  (np.linalg.eig and np.linalg.svd are meant to be such functions up to rounding.) *)
From Coq Require Import List ZArith Lia Bool Arith Permutation Sorted Reals Lra IndefiniteDescription Classical.
From Verif Require Import Base Num Mat M_Matrix S_Matrix L_Base L_Mat L_MatR L_Matrix L_Linalg L_Alg L_Eigen L_Spectral P_Linalg P_Eigen P_GLSW P_FastICA P_SIMPLS2 P_VCPLS.
Import ListNotations.
Local Open Scope R_scope.

(** A correct eigen-solver on real matrices: symmetric matrices are answered with an orthonormal basis of eigenvectors and
    decreasing eigenvalues, matrices that are symmetric for another scalar product with a basis of eigenvectors of
    length 1; no answer has the wrong shape or a false eigenvector. *)
Definition correct_eig (eig : mat R -> res (list R * mat R)) : Prop :=
  (forall A, symmetric A -> exists l V, eig A = Ok (l, V) /\ eig_answer A l V /\ orthonormal_columns V (nr A) /\
     forall a b, (a <= b)%nat -> (b < nr A)%nat -> nth b l 0 <= nth a l 0) /\
  (forall p, eig_basis p eig) /\
  (forall A l V, wf A -> nr A = nc A -> eig A = Ok (l, V) -> eig_answer A l V).
Definition correct_svd (svd : mat R -> res (mat R * list R * mat R)) : Prop :=
  forall A, wf A -> exists u s vh, svd A = Ok (u, s, vh) /\ length s = Nat.min (nr A) (nc A) /\
    svd_answer A u s vh /\ orthonormal_factors u (length s) vh /\
    (forall a, (a < length s)%nat -> 0 <= nth a s 0) /\ (forall a b, (a <= b)%nat -> (b < length s)%nat -> nth b s 0 <= nth a s 0).

Lemma nth_tab n (f : nat -> R) k : (k < n)%nat -> nth k (map f (seq 0 n)) 0 = f k.
Proof. intros Hk. rewrite (nth_indep _ 0 (f 0%nat)) by now rewrite map_length, seq_length. rewrite map_nth, seq_nth by assumption. reflexivity. Qed.

(** Every real symmetric matrix has an orthonormal basis of eigenvectors. *)
Theorem C21_symmetric_answer (A : mat R) : symmetric A -> exists l V, eig_answer A l V /\ orthonormal_columns V (nr A) /\
  forall a b, (a <= b)%nat -> (b < nr A)%nat -> nth b l 0 <= nth a l 0.
Proof.
  intros (WA & CA & HA). set (p := nr A) in *.
  destruct (pencil_basis p (entry A) delta HA (delta_sym p) (delta_posdef p) p (le_n p)) as (v & mu & He & Ho & Hm).
  pose proof (pencil_decreasing p (entry A) delta v mu He Ho Hm) as Hd.
  exists (map mu (seq 0 p)), (mk p p (fun i k => v k i)). split; [|split].
  - split; [now rewrite map_length, seq_length|]. split; [apply mk_wf|]. split; [reflexivity|]. split; [reflexivity|]. intros k i Hk Hi. fold p in Hk, Hi |- *. rewrite nth_tab, entry_mk by assumption.
    specialize (He k i Hk Hi). unfold applym in He. rewrite Rsum_sumn. rewrite (sumn_ext p _ (fun j => entry A i j * v k j)) by (intros; now rewrite entry_mk).
    rewrite He. f_equal. rewrite (sumR_single p i); [unfold delta; rewrite Nat.eqb_refl; ring|assumption|]. intros j Hj Hne. unfold delta. assert (i <> j) as Q by congruence. apply Nat.eqb_neq in Q. rewrite Q. ring.
  - intros a b Ha Hb. rewrite <- Ho by assumption. rewrite form_delta. rewrite Rsum_sumn. apply sumn_ext. intros i Hi. now rewrite !entry_mk.
  - intros a b Hab Hb. rewrite !nth_tab by lia. now apply Hd.
Qed.
Print Assumptions C21_symmetric_answer.

(** Every matrix that is symmetric for some scalar product has a basis of eigenvectors of length 1. *)
Theorem C78_basis_answer (M : mat R) (p : nat) (B : nat -> nat -> R) : wf M -> nr M = p -> nc M = p -> symmetrized_by p B (entry M) ->
  exists l V, eig_answer M l V /\ spanning p V /\ forall k, (k < p)%nat -> Rsum p (fun j => entry V j k * entry V j k) = 1.
Proof.
  intros WM RM CM (HB & HP & HBM). pose (A := fun i j => sumn p (fun k => B i k * entry M k j)).
  assert (HA : sym p A) by (intros i j Hi Hj; now apply HBM).
  assert (HP' : posdef p B) by (intros x Hx; now apply HP).
  destruct (pencil_basis p A B HA HB HP' p (le_n p)) as (v & mu & He & Ho & _).
  assert (HeM : forall a i, (a < p)%nat -> (i < p)%nat -> applym p (entry M) (v a) i = mu a * v a i).
  { intros a i Ha Hi. apply Rminus_diag_uniq. destruct (zero_dec p (fun i => applym p (entry M) (v a) i - mu a * v a i)) as [Hn|Hz]; [|now apply Hz]. exfalso.
    pose proof (HP _ Hn) as Q. change (bil p B ?x ?y) with (form p B x y) in Q. rewrite form_apply in Q. rewrite sumR_zero in Q; [lra|]. intros k Hk. replace (applym p B _ k) with 0; [ring|]. symmetry.
    transitivity (applym p A (v a) k - mu a * applym p B (v a) k); [|rewrite He by assumption; ring]. unfold applym, A.
    rewrite (sumn_ext p (fun j => B k j * _) (fun j => B k j * sumn p (fun l => entry M j l * v a l) - mu a * (B k j * v a j))) by (intros; ring). rewrite sumR_minus, sumR_scal. f_equal.
    rewrite (sumn_ext p _ (fun j => sumn p (fun l => B k j * entry M j l * v a l))) by (intros; rewrite <- sumR_scal; apply sumn_ext; intros; ring). rewrite sumR_swap. apply sumn_ext. intros l Hl. now rewrite sumR_scal_r. }
  assert (Hnz : forall a, (a < p)%nat -> nonzero p (v a)).
  { intros a Ha. destruct (zero_dec p (v a)) as [|Hz]; [assumption|]. exfalso. pose proof (Ho a a Ha Ha) as Q. unfold delta in Q. rewrite Nat.eqb_refl in Q. rewrite form_apply, sumR_zero in Q; [lra|]. intros i Hi. rewrite Hz by assumption. ring. }
  pose (s := fun a => / sqrt (dotp p (v a) (v a))).
  assert (Hs : forall a, (a < p)%nat -> sqrt (dotp p (v a) (v a)) <> 0) by (intros a Ha; pose proof (sqrt_lt_R0 _ (dot_pos p (v a) (Hnz a Ha))); lra).
  exists (map mu (seq 0 p)), (mk p p (fun i k => s k * v k i)). split; [|split].
  - split; [now rewrite map_length, seq_length|]. split; [apply mk_wf|]. split; [now rewrite RM|]. split; [now rewrite RM|]. rewrite RM. intros k i Hk Hi. rewrite nth_tab, entry_mk by assumption.
    rewrite Rsum_sumn. rewrite (sumn_ext p _ (fun j => s k * (entry M i j * v k j))) by (intros; rewrite entry_mk by assumption; ring). rewrite sumR_scal. specialize (HeM k i Hk Hi). unfold applym in HeM. rewrite HeM. ring.
  - intros x. destruct (orthonormal_span p B v HB Ho x) as (c & Hc). exists (fun k => c k * sqrt (dotp p (v k) (v k))). intros j Hj. rewrite (Hc j Hj). apply Rsum_ext. intros k Hk. rewrite entry_mk by assumption. unfold s. field. now apply Hs.
  - intros k Hk. rewrite Rsum_sumn. rewrite (sumn_ext p _ (fun j => s k * s k * (v k j * v k j))) by (intros; rewrite entry_mk by assumption; ring). rewrite sumR_scal. fold (dotp p (v k) (v k)).
    rewrite <- (sqrt_sqrt (dotp p (v k) (v k))) at 1 by (left; apply dot_pos; now apply Hnz). unfold s. field. now apply Hs.
Qed.
Print Assumptions C78_basis_answer.

(** Every real matrix has a singular value decomposition with orthonormal factors. *)
Theorem C22_svd_answer (A : mat R) : wf A -> exists u s vh, length s = Nat.min (nr A) (nc A) /\
  svd_answer A u s vh /\ orthonormal_factors u (length s) vh /\
  (forall a, (a < length s)%nat -> 0 <= nth a s 0) /\ (forall a b, (a <= b)%nat -> (b < length s)%nat -> nth b s 0 <= nth a s 0).
Proof.
  intros WA. set (r := nr A). set (c := nc A). destruct (Nat.le_ge_cases c r) as [Hrc|Hrc].
  - destruct (svd_tall r c (entry A) Hrc) as (u & v & s & Hu & Hv & Hs & Hd & HA).
    exists (mk r c (fun i k => u k i)), (map s (seq 0 c)), (mk c c (fun k j => v k j)). rewrite map_length, seq_length. split; [lia|]. split; [|split; [|split]].
    + unfold svd_answer. cbv zeta. rewrite map_length, seq_length. split; [apply mk_wf|]. split; [reflexivity|]. split; [reflexivity|]. split; [apply mk_wf|]. split; [reflexivity|]. split; [reflexivity|].
      intros i j Hi Hj. fold r in Hi. fold c in Hj. rewrite HA by assumption. rewrite Rsum_sumn. apply sumn_ext. intros k Hk. rewrite !entry_mk, nth_tab by assumption. reflexivity.
    + split; intros a b Ha Hb; cbn [nr nc mk].
      * rewrite <- Hu by assumption. rewrite Rsum_sumn. apply sumn_ext. intros i Hi. now rewrite !entry_mk.
      * rewrite <- Hv by assumption. rewrite Rsum_sumn. apply sumn_ext. intros i Hi. now rewrite !entry_mk.
    + intros a Ha. rewrite nth_tab by assumption. now apply Hs.
    + intros a b Hab Hb. rewrite !nth_tab by lia. now apply Hd.
  - destruct (svd_tall c r (fun i j => entry A j i) Hrc) as (u & v & s & Hu & Hv & Hs & Hd & HA).
    exists (mk r r (fun i k => v k i)), (map s (seq 0 r)), (mk r c (fun k j => u k j)). rewrite map_length, seq_length. split; [lia|]. split; [|split; [|split]].
    + unfold svd_answer. cbv zeta. rewrite map_length, seq_length. split; [apply mk_wf|]. split; [reflexivity|]. split; [reflexivity|]. split; [apply mk_wf|]. split; [reflexivity|]. split; [reflexivity|].
      intros i j Hi Hj. fold r in Hi. fold c in Hj. rewrite (HA j i) by assumption. rewrite Rsum_sumn. apply sumn_ext. intros k Hk. rewrite !entry_mk, nth_tab by assumption. ring.
    + split; intros a b Ha Hb; cbn [nr nc mk].
      * rewrite <- Hv by assumption. rewrite Rsum_sumn. apply sumn_ext. intros i Hi. now rewrite !entry_mk.
      * rewrite <- Hu by assumption. rewrite Rsum_sumn. apply sumn_ext. intros i Hi. now rewrite !entry_mk.
    + intros a Ha. rewrite nth_tab by assumption. now apply Hs.
    + intros a b Hab Hb. rewrite !nth_tab by lia. now apply Hd.
Qed.
Print Assumptions C22_svd_answer.

Theorem C22_svd_exists : exists svd, correct_svd svd.
Proof.
  destruct (functional_choice (fun (A : mat R) (x : res (mat R * list R * mat R)) => wf A -> exists u s vh, x = Ok (u, s, vh) /\ length s = Nat.min (nr A) (nc A) /\
    svd_answer A u s vh /\ orthonormal_factors u (length s) vh /\
    (forall a, (a < length s)%nat -> 0 <= nth a s 0) /\ (forall a b, (a <= b)%nat -> (b < length s)%nat -> nth b s 0 <= nth a s 0))) as (svd & H).
  - intros A. destruct (classic (wf A)) as [W|W]; [|exists (Err LinAlgError); contradiction]. destruct (C22_svd_answer A W) as (u & s & vh & H). exists (Ok (u, s, vh)). intros _. exists u, s, vh. auto.
  - exists svd. exact H.
Qed.
Print Assumptions C22_svd_exists.

Theorem C21_eig_exists : exists eig, correct_eig eig.
Proof.
  destruct (functional_choice (fun (A : mat R) (x : res (list R * mat R)) =>
    (symmetric A -> exists l V, x = Ok (l, V) /\ eig_answer A l V /\ orthonormal_columns V (nr A) /\ forall a b, (a <= b)%nat -> (b < nr A)%nat -> nth b l 0 <= nth a l 0) /\
    (forall B, wf A -> nr A = nc A -> symmetrized_by (nr A) B (entry A) ->
       exists l V, x = Ok (l, V) /\ eig_answer A l V /\ spanning (nr A) V /\ forall k, (k < nr A)%nat -> Rsum (nr A) (fun j => entry V j k * entry V j k) = 1) /\
    (forall l V, x = Ok (l, V) -> eig_answer A l V))) as (eig & H).
  - intros A. destruct (classic (symmetric A)) as [HS|HS].
    + destruct (C21_symmetric_answer A HS) as (l & V & H1 & H2 & H3). exists (Ok (l, V)). split; [|split].
      * intros _. exists l, V. auto.
      * intros B _ _ _. exists l, V. split; [reflexivity|]. split; [exact H1|]. split.
        -- intros x. destruct (orthonormal_span (nr A) delta (fun k j => entry V j k) (delta_sym _)) with (x := x) as (c & Hc); [|exists c; exact Hc].
           intros a b Ha Hb. rewrite form_delta, <- H2 by assumption. rewrite Rsum_sumn. reflexivity.
        -- intros k Hk. rewrite H2 by assumption. unfold delta. now rewrite Nat.eqb_refl.
      * intros l' V' E. injection E as <- <-. exact H1.
    + destruct (classic (wf A /\ nr A = nc A /\ exists B, symmetrized_by (nr A) B (entry A))) as [(W & E & B & HB)|HN].
      * destruct (C78_basis_answer A (nr A) B W eq_refl (eq_sym E) HB) as (l & V & H1 & H2 & H3). exists (Ok (l, V)). split; [contradiction|]. split; [intros _ _ _ _; exists l, V; auto|]. intros l' V' E'. injection E' as <- <-. exact H1.
      * exists (Err LinAlgError). split; [contradiction|]. split; [intros B W E HB; exfalso; apply HN; eauto|]. discriminate.
  - exists eig. split; [intros A HA; now apply (H A)|]. split; [|intros A l V _ _ E; now apply (H A)].
    intros p M B WM RM CM HB. subst p. destruct (H M) as (_ & H2 & _). apply (H2 B); congruence.
Qed.
Print Assumptions C21_eig_exists.

(** Such a solver meets the contracts used for FastICA, SIMPLS and VCPLS; the theorems on PCA, GLSW and CCAFilter ask for the
    first and third clause directly. *)
Theorem C21_contracts eig : correct_eig eig -> eig_one eig /\ (forall n, eig_contract eig n) /\ (forall p, eig_basis p eig).
Proof.
  intros (H1 & H2 & H3). split; [|split; [|exact H2]].
  - intros A WA RA CA. assert (HS : symmetric A).
    { split; [exact WA|]. split; [congruence|]. intros i j Hi Hj. now replace j with i by lia. }
    destruct (H1 A HS) as (l & V & E & (Hl & WV & RV & CV & _) & Ho & _). rewrite RA in *. destruct l as [|x [|y l]]; try discriminate.
    exists x, (entry V 0 0). split.
    + rewrite E. do 2 f_equal. transitivity (mk (nr V) (nc V) (entry V)); [now apply wf_mk|]. rewrite RV, CV. reflexivity.
    + intros Q. specialize (Ho 0%nat 0%nat ltac:(lia) ltac:(lia)). cbn in Ho. rewrite Q in Ho. unfold delta in Ho. cbn in Ho. lra.
  - intros n A l V HS Hn E. destruct (H1 A HS) as (l' & V' & E' & Ha & Ho & _). rewrite E in E'. injection E' as <- <-. subst n. auto.
Qed.
Print Assumptions C21_contracts.

(** Matrices the theorems apply to: a symmetric one, and one that is symmetric only for the scalar product diag(4, 1). *)
Example C21_ex_spectral : symmetric (Mat 2 2 [[2; 1]; [1; 3]]) /\
  symmetrized_by 2 (fun i j => if (i =? j)%nat then if (i =? 0)%nat then 4 else 1 else 0) (entry (Mat 2 2 [[0; 1]; [4; 0]])).
Proof.
  split.
  - split; [split; [reflexivity|repeat constructor]|]. split; [reflexivity|]. intros i j Hi Hj. cbn in Hi, Hj. destruct i as [|[|i]]; [| |lia]; (destruct j as [|[|j]]; [| |lia]); reflexivity.
  - split; [|split].
    + intros i j Hi Hj. rewrite (Nat.eqb_sym j i). destruct (Nat.eqb_spec i j) as [->|]; reflexivity.
    + intros v (j & Hj & Hne). unfold bil. cbn. destruct j as [|[|j]]; [| |lia].
      * pose proof (Rsqr_pos_lt _ Hne) as Q. pose proof (Rle_0_sqr (v 1%nat)). unfold Rsqr in *. lra.
      * pose proof (Rsqr_pos_lt _ Hne) as Q. pose proof (Rle_0_sqr (v 0%nat)). unfold Rsqr in *. lra.
    + intros i j Hi Hj. destruct i as [|[|i]]; [| |lia]; (destruct j as [|[|j]]; [| |lia]); cbn; lra.
Qed.
