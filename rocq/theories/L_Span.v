(** Uniqueness of the regression vector of single-response PLS inside its Krylov space, and a
    least-squares inverse over R (what numpy.linalg.pinv is assumed to be). *)
From Coq Require Import List ZArith Lia Bool Arith Reals Lra.
From Verif Require Import Base Num Mat M_Matrix M_Linalg S_Matrix L_Base L_Mat L_Matrix L_MatR L_Linalg L_Alg L_Deflate P_Matrix P_Linalg P_PLS1 L_Krylov.
Import ListNotations.
Local Open Scope R_scope.

Section Span.
Variables (n p a : nat) (X : nat -> nat -> R) (y : nat -> R).
Hypothesis Hnb : no_breakdown n p X y a.
Let E := residual n p X y.
Let w k := unit_cov n p (E k) y.
Let t k := scores_of p (E k) (w k).
Let q k := loadings_of n (E k) (t k).
Let g k j := cov n (E k) y j.
Let G := gsq n p X y.
Let tt := tau n p X y.
Let d := dir n p X y.
(** the regression vector with a components *)
Definition beta (a j : nat) : R := sumn a (fun k => d k j * (G k / tt k)).

Lemma q_beta i : (i < a)%nat -> sumn p (fun j => q i j * beta a j) = sqrt (G i) / tt i.
Proof.
  intros Hi. unfold beta. rewrite (sumn_ext p _ (fun j => sumn a (fun k => q i j * d k j * (G k / tt k)))) by (intros; rewrite <- sumR_scal; apply sumn_ext; intros; ring).
  rewrite sumR_swap. rewrite (sumR_single a i).
  - rewrite sumR_scal_r. rewrite (q_dir n p a X y Hnb i i Hi Hi : sumn p (fun j => q i j * d i j) = _). rewrite Nat.eqb_refl.
    fold G. replace (G i / tt i) with (sqrt (G i) * sqrt (G i) / tt i) by (unfold G; now rewrite rt_rt). pose proof (rt_pos n p a X y Hnb i Hi) as Q. fold G in Q. pose proof (tau_pos n p a X y Hnb i Hi) as Q2. fold tt in Q2. field. lra.
  - assumption.
  - intros k Hk Hne. rewrite sumR_scal_r. rewrite (q_dir n p a X y Hnb i k Hi Hk : sumn p (fun j => q i j * d k j) = _). destruct (Nat.eqb_spec i k); [lia|]. ring.
Qed.
Lemma span_zero (c : nat -> R) (v : nat -> R) : (forall j, (j < p)%nat -> v j = sumn a (fun k => c k * g k j)) ->
  (forall i, (i < a)%nat -> sumn p (fun j => q i j * v j) = 0) -> forall j, (j < p)%nat -> v j = 0.
Proof.
  intros Hv H0.
  assert (Hgv : forall i, (i <= a)%nat -> sumn p (fun j => g i j * v j) = sumn a (fun k => c k * sumn p (fun j => g k j * g i j))).
  { intros i Hi. rewrite (sumn_ext p _ (fun j => sumn a (fun k => c k * (g k j * g i j)))) by (intros j Hj; rewrite (Hv j Hj), <- sumR_scal; apply sumn_ext; intros; ring).
    rewrite sumR_swap. apply sumn_ext. intros. now rewrite sumR_scal. }
  assert (Hlast : sumn p (fun j => g a j * v j) = 0).
  { rewrite Hgv by lia. apply sumR_zero. intros k Hk. unfold g, E. rewrite (g_perp n p a X y Hnb k a) by lia. ring. }
  assert (Hall : forall m i, (i + m = a)%nat -> sumn p (fun j => g i j * v j) = 0).
  { induction m as [|m IH]; intros i Hi; [now replace i with a by lia|].
    specialize (IH (S i) ltac:(lia)). specialize (H0 i ltac:(lia)).
    rewrite (sumn_ext p _ (fun j => / sqrt (G i) * (g i j * v j - g (S i) j * v j))) in H0.
    2:{ intros j Hj. unfold q, t, w, E. rewrite (q_g n p a X y Hnb i j) by lia. unfold g, E, Rdiv. fold G. ring. }
    rewrite sumR_scal, sumR_minus, IH in H0. pose proof (Rinv_0_lt_compat _ (rt_pos n p a X y Hnb i ltac:(lia))) as Hc. fold G in Hc.
    apply Rmult_integral in H0. lra. }
  assert (Hsq : sumn p (fun j => v j * v j) = 0).
  { rewrite (sumn_ext p _ (fun j => sumn a (fun k => c k * (g k j * v j)))) by (intros j Hj; rewrite (Hv j Hj) at 1; rewrite <- sumR_scal_r; apply sumn_ext; intros; ring).
    rewrite sumR_swap. apply sumR_zero. intros k Hk. rewrite sumR_scal, (Hall (a - k)%nat k) by lia. ring. }
  intros j Hj. exact (sum_sq_0 p v j Hsq Hj).
Qed.
Lemma beta_span j : beta a j = sumn a (fun l => sumn a (fun k => if (l <=? k)%nat then / G l * (G k / tt k) else 0) * g l j).
Proof.
  unfold beta. transitivity (sumn a (fun k => sumn a (fun l => (if (l <=? k)%nat then / G l * (G k / tt k) else 0) * g l j))).
  - apply sumn_ext. intros k Hk. unfold d, dir. fold G. rewrite <- sumR_scal_r. replace a with (S k + (a - S k))%nat by lia. rewrite sumR_split.
    rewrite (sumR_zero (a - S k)).
    + rewrite Rplus_0_r. apply sumn_ext. intros l Hl. destruct (Nat.leb_spec l k); [|lia]. unfold g, E, Rdiv. ring.
    + intros l Hl. destruct (Nat.leb_spec (S k + l) k); [lia|]. ring.
  - rewrite sumR_swap. apply sumn_ext. intros l Hl. now rewrite sumR_scal_r.
Qed.
(** The regression vector is the only element of the span of the covariances with these values. *)
Lemma beta_unique (c : nat -> R) (v : nat -> R) : (forall j, (j < p)%nat -> v j = sumn a (fun k => c k * g k j)) ->
  (forall i, (i < a)%nat -> sumn p (fun j => q i j * v j) = sqrt (G i) / tt i) -> forall j, (j < p)%nat -> v j = beta a j.
Proof.
  intros Hv Hq0 j Hj.
  assert (Hz : v j - beta a j = 0); [|lra].
  apply (span_zero (fun l => c l - sumn a (fun k => if (l <=? k)%nat then / G l * (G k / tt k) else 0)) (fun j => v j - beta a j)); [| |assumption].
  - intros i Hi. rewrite Hv, beta_span, <- sumR_minus by assumption. apply sumn_ext. intros; ring.
  - intros i Hi. rewrite (sumn_ext p _ (fun j => q i j * v j - q i j * beta a j)) by (intros; ring). rewrite sumR_minus, Hq0, q_beta by assumption. ring.
Qed.
(** The same for one score direction. *)
Lemma dir_unique k (c : nat -> R) (v : nat -> R) (s : R) : (k < a)%nat -> (forall j, (j < p)%nat -> v j = sumn a (fun l => c l * g l j)) ->
  (forall i, (i < a)%nat -> sumn p (fun j => q i j * v j) = if (i =? k)%nat then s else 0) -> forall j, (j < p)%nat -> v j = s * (sqrt (G k) * d k j).
Proof.
  intros Hk Hv Hq0 j Hj.
  assert (Hz : v j - s * (sqrt (G k) * d k j) = 0); [|lra].
  apply (span_zero (fun l => c l - s * sqrt (G k) * (if (l <=? k)%nat then / G l else 0)) (fun j => v j - s * (sqrt (G k) * d k j))); [| |assumption].
  - intros i Hi. rewrite Hv by assumption. rewrite (sumn_ext a (fun l => (c l - s * sqrt (G k) * (if (l <=? k)%nat then / G l else 0)) * g l i) (fun l => c l * g l i - s * sqrt (G k) * ((if (l <=? k)%nat then / G l else 0) * g l i))) by (intros; ring).
    rewrite sumR_minus, sumR_scal, Rmult_assoc. f_equal. f_equal. f_equal. unfold d, dir. fold G.
    replace a with (S k + (a - S k))%nat at 1 by lia. rewrite sumR_split, (sumR_zero (a - S k)).
    + rewrite Rplus_0_r. apply sumn_ext. intros l Hl. destruct (Nat.leb_spec l k); [|lia]. unfold g, E, Rdiv. ring.
    + intros l Hl. destruct (Nat.leb_spec (S k + l) k); [lia|]. ring.
  - intros i Hi. rewrite (sumn_ext p _ (fun j => q i j * v j - s * sqrt (G k) * (q i j * d k j))) by (intros; ring). rewrite sumR_minus, sumR_scal, Hq0 by assumption.
    rewrite (q_dir n p a X y Hnb i k Hi Hk : sumn p (fun j => q i j * d k j) = _). destruct (Nat.eqb_spec i k); [|ring]. fold G. field. pose proof (rt_pos n p a X y Hnb k Hk) as Q. fold G in Q. lra.
Qed.
End Span.

(** numpy.linalg.pinv: always answers, A A+ A = A and A A+ is symmetric (two of the four Penrose equations). *)
Definition ls_inverse (pinv : mat R -> res (mat R)) : Prop := forall A, wf A -> exists B, pinv A = Ok B /\ wf B /\ nr B = nc A /\ nc B = nr A /\
  (forall i j, (i < nr A)%nat -> (j < nc A)%nat -> Rsum (nc A) (fun k => entry A i k * Rsum (nr A) (fun l => entry B k l * entry A l j)) = entry A i j) /\
  (forall i j, (i < nr A)%nat -> (j < nr A)%nat -> Rsum (nc A) (fun k => entry A i k * entry B k j) = Rsum (nc A) (fun k => entry A j k * entry B k i)).
(** Greville's recursion over the columns *)
Fixpoint greville (n : nat) (A : nat -> nat -> R) (m : nat) : nat -> nat -> R :=
  match m with
  | O => fun _ _ => 0
  | S m => let B := greville n A m in
           let d k := sumn n (fun l => B k l * A l m) in
           let r i := A i m - sumn m (fun k => A i k * d k) in
           let b l := r l / sumn n (fun i => r i * r i) in
           fun k l => if (k =? m)%nat then b l else B k l - d k * b l
  end.
Lemma greville_ok n A m :
  (forall i j, (i < n)%nat -> (j < m)%nat -> sumn m (fun k => A i k * sumn n (fun l => greville n A m k l * A l j)) = A i j) /\
  (forall i j, (i < n)%nat -> (j < n)%nat -> sumn m (fun k => A i k * greville n A m k j) = sumn m (fun k => A j k * greville n A m k i)).
Proof.
  induction m as [|m [IH1 IH3]]; [split; intros; [lia|now rewrite !sumR_0]|].
  cbn [greville]. set (B := greville n A m) in *. set (d := fun k => sumn n (fun l => B k l * A l m)).
  set (r := fun i => A i m - sumn m (fun k => A i k * d k)). set (b := fun l => r l / sumn n (fun i => r i * r i)).
  assert (HAB : forall i j, sumn (S m) (fun k => A i k * (if (k =? m)%nat then b j else B k j - d k * b j)) = sumn m (fun k => A i k * B k j) + r i * b j).
  { intros i j. rewrite sumR_S, Nat.eqb_refl. rewrite (sumn_ext m _ (fun k => A i k * B k j - A i k * d k * b j)).
    - rewrite sumR_minus, sumR_scal_r. unfold r. ring.
    - intros k Hk. destruct (Nat.eqb_spec k m); [lia|]. ring. }
  assert (HrP : forall j, (j < m)%nat -> sumn n (fun i => r i * A i j) = 0).
  { intros j Hj. unfold r. rewrite (sumn_ext n _ (fun i => A i m * A i j - sumn m (fun k => A i k * d k) * A i j)) by (intros; ring). rewrite sumR_minus.
    assert (Q : sumn n (fun i => sumn m (fun k => A i k * d k) * A i j) = sumn n (fun i => A i m * A i j)); [|lra].
    transitivity (sumn n (fun i => sumn n (fun l => sumn m (fun k => A i k * B k l) * A l m * A i j))).
    { apply sumn_ext. intros i Hi. rewrite sumR_scal_r. f_equal. unfold d. rewrite (sumn_ext m _ (fun k => sumn n (fun l => A i k * B k l * A l m))) by (intros; rewrite <- sumR_scal; apply sumn_ext; intros; ring).
      rewrite sumR_swap. apply sumn_ext. intros. now rewrite sumR_scal_r. }
    rewrite sumR_swap. apply sumn_ext. intros l Hl. rewrite (sumn_ext n _ (fun i => A l m * (sumn m (fun k => A l k * B k i) * A i j))) by (intros i Hi; rewrite (IH3 i l Hi Hl); ring).
    rewrite sumR_scal. f_equal. transitivity (sumn m (fun k => A l k * sumn n (fun i => B k i * A i j))); [|now apply IH1].
    rewrite (sumn_ext n _ (fun i => sumn m (fun k => A l k * (B k i * A i j)))) by (intros; rewrite <- sumR_scal_r; apply sumn_ext; intros; ring).
    rewrite sumR_swap. apply sumn_ext. intros. now rewrite sumR_scal. }
  split.
  - intros i j Hi Hj. change (sumn (S m) (fun k => A i k * sumn n (fun l => (if (k =? m)%nat then b l else B k l - d k * b l) * A l j)) = A i j).
    transitivity (sumn n (fun l => sumn (S m) (fun k => A i k * (if (k =? m)%nat then b l else B k l - d k * b l)) * A l j)).
    { rewrite (sumn_ext (S m) _ (fun k => sumn n (fun l => A i k * (if (k =? m)%nat then b l else B k l - d k * b l) * A l j))) by (intros; rewrite <- sumR_scal; apply sumn_ext; intros; ring).
      rewrite sumR_swap. apply sumn_ext. intros. now rewrite sumR_scal_r. }
    rewrite (sumn_ext n _ (fun l => sumn m (fun k => A i k * (B k l * A l j)) + r i * (b l * A l j))) by (intros; rewrite HAB, Rmult_plus_distr_r, <- sumR_scal_r; f_equal; [apply sumn_ext; intros; ring|ring]).
    rewrite sumR_plus, sumR_swap, sumR_scal. rewrite (sumn_ext m _ (fun k => A i k * sumn n (fun l => B k l * A l j))) by (intros; now rewrite sumR_scal).
    assert (Hb : forall j, sumn n (fun l => b l * A l j) = sumn n (fun l => r l * A l j) * / sumn n (fun i => r i * r i)).
    { intros. rewrite <- sumR_scal_r. apply sumn_ext. intros. unfold b, Rdiv. ring. }
    rewrite Hb. destruct (Nat.eq_dec j m) as [->|Hne].
    + fold (d : nat -> R). change (sumn m (fun k => A i k * sumn n (fun l => B k l * A l m))) with (sumn m (fun k => A i k * d k)).
      assert (Hrr : sumn n (fun l => r l * A l m) = sumn n (fun l => r l * r l)).
      { assert (Q : sumn n (fun l => r l * A l m) - sumn n (fun l => r l * r l) = 0); [|lra]. rewrite <- sumR_minus.
        rewrite (sumn_ext n _ (fun l => sumn m (fun k => d k * (r l * A l k)))).
        - rewrite sumR_swap. apply sumR_zero. intros k Hk. rewrite sumR_scal, HrP by assumption. ring.
        - intros l Hl. rewrite (sumn_ext m (fun k => d k * (r l * A l k)) (fun k => r l * (A l k * d k))) by (intros; ring). rewrite sumR_scal.
          assert (Er : sumn m (fun k => A l k * d k) = A l m - r l) by (unfold r; ring). rewrite Er. ring. }
      rewrite Hrr. destruct (Req_dec (sumn n (fun l => r l * r l)) 0) as [E0|E0].
      * pose proof (sum_sq_0 n r i E0 Hi) as Q. rewrite Q. unfold r in Q. lra.
      * rewrite Rinv_r by assumption. unfold r. ring.
    + rewrite HrP by lia. rewrite IH1 by lia. ring.
  - intros i j Hi Hj.
    change (sumn (S m) (fun k => A i k * (if (k =? m)%nat then b j else B k j - d k * b j)) = sumn (S m) (fun k => A j k * (if (k =? m)%nat then b i else B k i - d k * b i))).
    rewrite !HAB, (IH3 i j Hi Hj). unfold b, Rdiv. ring.
Qed.
Definition pinv_R (A : mat R) : res (mat R) := Ok (mk (nc A) (nr A) (greville (nr A) (entry A) (nc A))).
Lemma pinv_R_ls : ls_inverse pinv_R.
Proof.
  intros A W. eexists. split; [reflexivity|]. split; [apply mk_wf|]. split; [reflexivity|]. split; [reflexivity|].
  destruct (greville_ok (nr A) (entry A) (nc A)) as [H1 H3]. cbn [nr nc mk]. split.
  - intros i j Hi Hj. rewrite <- (H1 i j Hi Hj) at 1. rewrite Rsum_sumn. apply sumn_ext. intros k Hk. f_equal. rewrite Rsum_sumn. apply sumn_ext. intros l Hl. now rewrite entry_mk.
  - intros i j Hi Hj. rewrite !Rsum_sumn. rewrite (sumn_ext (nc A) _ (fun k => entry A i k * greville (nr A) (entry A) (nc A) k j)) by (intros; now rewrite entry_mk). rewrite H3 by assumption. apply sumn_ext. intros k Hk. now rewrite entry_mk.
Qed.
