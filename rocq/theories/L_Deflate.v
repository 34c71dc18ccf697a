(** Deflation algebra shared by the NIPALS-style algorithms: a sequence of residual matrices E_0, E_1, ...
    with E_(k+1) = E_k - t_k p_k^T, t_k = E_k w_k, p_k = E_k^T t_k / t_k^T t_k. *)
From Coq Require Import List ZArith Lia Bool Arith Reals Lra.
From Verif Require Import Base Num Mat L_Base L_Mat.
Local Open Scope R_scope.

Section Deflation.
Variables (n p a : nat) (E : nat -> nat -> nat -> R) (w t q : nat -> nat -> R).
Let tau k := sumn n (fun i => t k i * t k i).
Hypothesis Ht : forall k i, (k < a)%nat -> (i < n)%nat -> t k i = sumn p (fun j => E k i j * w k j).
Hypothesis Hq : forall k j, (k < a)%nat -> (j < p)%nat -> q k j = sumn n (fun i => E k i j * t k i) / tau k.
Hypothesis HE : forall k i j, (k < a)%nat -> (i < n)%nat -> (j < p)%nat -> E (S k) i j = E k i j - t k i * q k j.
Hypothesis Htau : forall k, (k < a)%nat -> tau k <> 0.

(** q_k . v = t_k^T E_k v / tau_k *)
Lemma q_dot k (v : nat -> R) : (k < a)%nat ->
  sumn p (fun j => q k j * v j) = sumn n (fun i => t k i * sumn p (fun j => E k i j * v j)) / tau k.
Proof.
  intros Hk. rewrite (sumn_ext p _ (fun j => sumn n (fun i => t k i * (E k i j * v j)) * / tau k)).
  2:{ intros j Hj. rewrite Hq by assumption. unfold Rdiv. rewrite <- !sumR_scal_r. apply sumn_ext. intros; ring. }
  rewrite sumR_scal_r, sumR_swap. unfold Rdiv. f_equal. apply sumn_ext. intros i Hi. now rewrite sumR_scal.
Qed.
Lemma q_self k : (k < a)%nat -> sumn p (fun j => q k j * w k j) = 1.
Proof.
  intros Hk. rewrite q_dot by assumption. rewrite (sumn_ext n _ (fun i => t k i * t k i)) by (intros; now rewrite <- Ht). now apply Rinv_r, Htau.
Qed.
Lemma E_step_dot k i (v : nat -> R) : (k < a)%nat -> (i < n)%nat ->
  sumn p (fun j => E (S k) i j * v j) = sumn p (fun j => E k i j * v j) - t k i * sumn p (fun j => q k j * v j).
Proof.
  intros Hk Hi. rewrite <- sumR_scal, <- sumR_minus. apply sumn_ext. intros j Hj. rewrite HE by assumption. ring.
Qed.
(** E_m w_k = 0 for m > k *)
Lemma E_kills_w k m i : (k < m)%nat -> (m <= a)%nat -> (i < n)%nat -> sumn p (fun j => E m i j * w k j) = 0.
Proof.
  intros Hkm. revert i. induction Hkm as [|m Hkm IH]; intros i Ha Hi.
  - rewrite E_step_dot, q_self, <- Ht by lia. ring.
  - rewrite E_step_dot by lia. rewrite IH by lia. rewrite q_dot by lia. rewrite (sumR_zero n). 2:{ intros i' Hi'. rewrite IH by lia. ring. } unfold Rdiv. ring.
Qed.
Lemma q_w_below k m : (k < m)%nat -> (m < a)%nat -> sumn p (fun j => q m j * w k j) = 0.
Proof.
  intros Hkm Ha. rewrite q_dot by lia. rewrite sumR_zero; [unfold Rdiv; ring|]. intros i Hi. rewrite E_kills_w by lia. ring.
Qed.
(** E_m^T t_k = 0 for m > k *)
Lemma t_E m : (m < a)%nat -> forall s : nat -> R,
  sumn n (fun i => t m i * s i) = sumn p (fun j => w m j * sumn n (fun i => E m i j * s i)).
Proof.
  intros Hm s. rewrite (sumn_ext n _ (fun i => sumn p (fun j => w m j * (E m i j * s i)))).
  2:{ intros i Hi. rewrite Ht by assumption. rewrite <- sumR_scal_r. apply sumn_ext. intros; ring. }
  rewrite sumR_swap. apply sumn_ext. intros j Hj. now rewrite sumR_scal.
Qed.
Lemma E_perp_t k m j : (k < m)%nat -> (m <= a)%nat -> (j < p)%nat -> sumn n (fun i => E m i j * t k i) = 0.
Proof.
  intros Hkm. revert j. induction Hkm as [|m Hkm IH]; intros j Ha Hj.
  - rewrite (sumn_ext n _ (fun i => E k i j * t k i - q k j * (t k i * t k i))) by (intros; rewrite HE by lia; ring).
    rewrite sumR_minus, sumR_scal. rewrite Hq by lia. fold (tau k). field. apply Htau. lia.
  - rewrite (sumn_ext n _ (fun i => E m i j * t k i - q m j * (t m i * t k i))) by (intros; rewrite HE by lia; ring).
    rewrite sumR_minus, sumR_scal. rewrite IH by lia. rewrite (t_E m) by lia. rewrite (sumR_zero p); [ring|]. intros l Hl. rewrite IH by lia. ring.
Qed.
Lemma scores_orthogonal k m : (k < a)%nat -> (m < a)%nat -> k <> m -> sumn n (fun i => t k i * t m i) = 0.
Proof.
  assert (Hlt : forall k m, (k < m)%nat -> (m < a)%nat -> sumn n (fun i => t m i * t k i) = 0).
  { intros k' m' Hkm Ha. rewrite (t_E m') by lia. apply sumR_zero. intros j Hj. rewrite E_perp_t by lia. ring. }
  intros Hk Hm Hne. destruct (Nat.lt_ge_cases k m).
  - rewrite <- (Hlt k m) by lia. apply sumn_ext. intros; ring.
  - apply Hlt; lia.
Qed.
(** E_0 is the sum of the removed parts and the rest *)
Lemma E_decompose k i j : (k <= a)%nat -> (i < n)%nat -> (j < p)%nat -> E 0%nat i j = sumn k (fun l => t l i * q l j) + E k i j.
Proof.
  induction k as [|k IH]; intros Hk Hi Hj; [rewrite sumR_0; ring|]. rewrite sumR_S, (HE k) by lia. rewrite IH by lia. ring.
Qed.
End Deflation.

(** The same deflation applied to one new row x: s_k = x_k . w_k, x_(k+1) = x_k - s_k q_k, gives scores s
    with x W = s (P^T W). *)
Section Row.
Variables (p a : nat) (w q : nat -> nat -> R) (x : nat -> nat -> R) (s : nat -> R).
Hypothesis Hs : forall k, (k < a)%nat -> s k = sumn p (fun j => x k j * w k j).
Hypothesis Hx : forall k j, (k < a)%nat -> (j < p)%nat -> x (S k) j = x k j - s k * q k j.
Hypothesis Hone : forall k, (k < a)%nat -> sumn p (fun j => q k j * w k j) = 1.
Hypothesis Hlow : forall k m, (k < m)%nat -> (m < a)%nat -> sumn p (fun j => q m j * w k j) = 0.

Lemma row_decompose k j : (k <= a)%nat -> (j < p)%nat -> x 0%nat j = sumn k (fun l => s l * q l j) + x k j.
Proof. induction k as [|k IH]; intros Hk Hj; [rewrite sumR_0; ring|]. rewrite sumR_S, (Hx k) by lia. rewrite IH by lia. ring. Qed.
Lemma row_scores l : (l < a)%nat ->
  sumn p (fun j => x 0%nat j * w l j) = sumn a (fun k => s k * sumn p (fun j => q k j * w l j)).
Proof.
  intros Hl. rewrite (sumn_ext p _ (fun j => sumn l (fun k => s k * (q k j * w l j)) + x l j * w l j)).
  2:{ intros j Hj. rewrite (row_decompose l) by lia. rewrite Rmult_plus_distr_r, <- sumR_scal_r. f_equal. apply sumn_ext. intros; ring. }
  rewrite sumR_plus, sumR_swap, <- Hs by assumption.
  replace a with (S l + (a - S l))%nat by lia. rewrite sumR_split, sumR_S, Hone by lia.
  rewrite (sumR_zero (a - S l)). 2:{ intros i Hi. rewrite Hlow by lia. ring. }
  rewrite Rmult_1_r, Rplus_0_r. f_equal. apply sumn_ext. intros k Hk. now rewrite sumR_scal.
Qed.
End Row.

(** A unit upper triangular matrix has a trivial kernel. *)
Lemma unit_upper_kernel a (m : nat -> nat -> R) (v : nat -> R) :
  (forall k, (k < a)%nat -> m k k = 1) -> (forall k l, (l < k)%nat -> (k < a)%nat -> m k l = 0) ->
  (forall i, (i < a)%nat -> sumn a (fun k => m i k * v k) = 0) -> forall k, (k < a)%nat -> v k = 0.
Proof.
  intros H1 H0 Hv. assert (Q : forall d k, (k < a)%nat -> (a - k <= d)%nat -> v k = 0).
  { induction d as [|d IH]; intros k Hk Hd; [lia|]. specialize (Hv k Hk). rewrite (sumR_single _ k) in Hv; [rewrite H1 in Hv by assumption; lra|assumption|].
    intros i Hi Hne. destruct (Nat.lt_ge_cases i k); [rewrite H0 by assumption; ring|rewrite (IH i) by lia; ring]. }
  intros k Hk. now apply (Q a); [|lia].
Qed.
