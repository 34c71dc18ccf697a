(** The textbook single-response PLS recursion of P_PLS1.v (residual matrices, normalised
    covariances, scores, loadings), its closed forms, and what a row or a direction becomes in it. *)
From Coq Require Import List ZArith Lia Bool Arith Reals Lra.
From Verif Require Import Base Num Mat M_Matrix M_Factory M_Helper M_Loop M_Utils M_Linalg M_Transform M_PLSBase M_PLS
  S_Matrix L_Base L_Mat L_Matrix L_MatR L_Linalg L_Alg L_Deflate P_Matrix P_Linalg P_PLS1.
Import ListNotations.
Local Open Scope R_scope.

Lemma sum_sq_pos n (f : nat -> R) j : (j < n)%nat -> f j <> 0 -> 0 < sumn n (fun i => f i * f i).
Proof.
  intros Hj Hf. destruct (Rle_lt_or_eq_dec 0 (sumn n (fun i => f i * f i))) as [|E0]; [|assumption|].
  - apply sumR_nonneg. intros. apply Rle_0_sqr.
  - exfalso. apply Hf. apply Rsqr_0_uniq. unfold Rsqr. apply (sumR_nonneg_0 n (fun i => f i * f i)); [intros; apply Rle_0_sqr|auto|auto].
Qed.
Lemma sum_sq_0 n (f : nat -> R) j : sumn n (fun i => f i * f i) = 0 -> (j < n)%nat -> f j = 0.
Proof. intros E0 Hj. destruct (Req_dec (f j) 0) as [|Hf]; [assumption|]. pose proof (sum_sq_pos n f j Hj Hf). lra. Qed.

Section Krylov.
Variables (n p a : nat) (X : nat -> nat -> R) (y : nat -> R).
Hypothesis Hnb : no_breakdown n p X y a.
Let E := residual n p X y.
Let w k := unit_cov n p (E k) y.
Let t k := scores_of p (E k) (w k).
Let q k := loadings_of n (E k) (t k).
Let g k j := cov n (E k) y j.
Definition gsq (k : nat) : R := sumn p (fun j => g k j * g k j).
Definition tau (k : nat) : R := sumn n (fun i => t k i * t k i).
(** the direction whose scores are t_h up to a factor *)
Definition dir (h j : nat) : R := sumn (S h) (fun l => g l j / gsq l).
Definition dsq (h : nat) : R := sumn p (fun j => dir h j * dir h j).

Lemma gsq_pos k : (k < a)%nat -> 0 < gsq k.
Proof. intros Hk. destruct (Hnb k Hk) as (j & Hj & Hne). exact (sum_sq_pos p (g k) j Hj Hne). Qed.
Lemma gsq_nonneg k : 0 <= gsq k.
Proof. apply sumR_nonneg. intros. apply Rle_0_sqr. Qed.
Lemma rt_pos k : (k < a)%nat -> 0 < sqrt (gsq k).
Proof. intros. apply sqrt_lt_R0. now apply gsq_pos. Qed.
Lemma rt_rt k : sqrt (gsq k) * sqrt (gsq k) = gsq k.
Proof. apply sqrt_sqrt, gsq_nonneg. Qed.
Lemma w_g k j : w k j = g k j / sqrt (gsq k).
Proof. unfold w, unit_cov, gsq. now rewrite Rsum_sumn. Qed.
Lemma Ht k i : (k < a)%nat -> (i < n)%nat -> t k i = sumn p (fun j => E k i j * w k j).
Proof. intros. unfold t, scores_of. now rewrite Rsum_sumn. Qed.
Lemma Hq k j : (k < a)%nat -> (j < p)%nat -> q k j = sumn n (fun i => E k i j * t k i) / sumn n (fun i => t k i * t k i).
Proof. intros. unfold q, loadings_of. now rewrite !Rsum_sumn. Qed.
Lemma HE k i j : (k < a)%nat -> (i < n)%nat -> (j < p)%nat -> E (S k) i j = E k i j - t k i * q k j.
Proof. reflexivity. Qed.
(** y . (E_k v) = g_k . v *)
Lemma y_E k (v : nat -> R) : sumn n (fun i => y i * sumn p (fun j => E k i j * v j)) = sumn p (fun j => g k j * v j).
Proof.
  rewrite (sumn_ext n _ (fun i => sumn p (fun j => E k i j * y i * v j))) by (intros; rewrite <- sumR_scal; apply sumn_ext; intros; ring).
  rewrite sumR_swap. apply sumn_ext. intros j Hj. unfold g, cov. rewrite Rsum_sumn, sumR_scal_r. reflexivity.
Qed.
Lemma t_y k : (k < a)%nat -> sumn n (fun i => t k i * y i) = sqrt (gsq k).
Proof.
  intros Hk. rewrite (sumn_ext n _ (fun i => y i * sumn p (fun j => E k i j * w k j))) by (intros; rewrite <- Ht by assumption; ring).
  rewrite y_E. rewrite (sumn_ext p _ (fun j => / sqrt (gsq k) * (g k j * g k j))) by (intros; rewrite w_g; unfold Rdiv; ring).
  rewrite sumR_scal. fold (gsq k). rewrite <- (rt_rt k) at 2. field. pose proof (rt_pos k Hk). lra.
Qed.
Lemma tau_pos k : (k < a)%nat -> 0 < tau k.
Proof.
  intros Hk. destruct (Rle_lt_or_eq_dec 0 (tau k)) as [|E0]; [|assumption|].
  - apply sumR_nonneg. intros. apply Rle_0_sqr.
  - exfalso. pose proof (rt_pos k Hk) as Hp0. rewrite <- t_y in Hp0 by assumption. rewrite sumR_zero in Hp0; [lra|].
    intros i Hi. rewrite (sum_sq_0 n (t k) i); [ring|symmetry; exact E0|assumption].
Qed.
Lemma Htau k : (k < a)%nat -> sumn n (fun i => t k i * t k i) <> 0.
Proof. intros Hk. pose proof (tau_pos k Hk) as Q. unfold tau in Q. lra. Qed.
Lemma g_step k j : (k < a)%nat -> (j < p)%nat -> g (S k) j = g k j - sqrt (gsq k) * q k j.
Proof.
  intros Hk Hj. unfold g, cov. rewrite !Rsum_sumn. rewrite (sumn_ext n _ (fun i => E k i j * y i - q k j * (t k i * y i))) by (intros; rewrite HE by assumption; ring).
  rewrite sumR_minus, sumR_scal, t_y by assumption. ring.
Qed.
Lemma q_g k j : (k < a)%nat -> (j < p)%nat -> q k j = (g k j - g (S k) j) / sqrt (gsq k).
Proof. intros Hk Hj. rewrite g_step by assumption. field. pose proof (rt_pos k Hk). lra. Qed.
Lemma g_w_below k m : (k < m)%nat -> (m <= a)%nat -> sumn p (fun j => g m j * w k j) = 0.
Proof. intros Hk Hm. rewrite <- y_E. apply sumR_zero. intros i Hi. rewrite (E_kills_w n p a E w t q) by (assumption || apply Ht || apply Hq || apply HE || apply Htau). ring. Qed.
Lemma g_perp k m : (k < a)%nat -> (m <= a)%nat -> k <> m -> sumn p (fun j => g k j * g m j) = 0.
Proof.
  assert (Hw : forall k m, (k < m)%nat -> (m <= a)%nat -> sumn p (fun j => g k j * g m j) = 0).
  { intros k' m' Hk Hm. pose proof (g_w_below k' m' Hk Hm) as Q. pose proof (rt_pos k' ltac:(lia)) as Hc.
    rewrite (sumn_ext p _ (fun j => sqrt (gsq k') * (g m' j * w k' j))).
    - rewrite sumR_scal, Q. ring.
    - intros j Hj. rewrite w_g. field. lra. }
  intros Hk Hm Hne. destruct (Nat.lt_ge_cases k m); [now apply Hw|]. rewrite <- (Hw m k) by lia. apply sumn_ext. intros; ring.
Qed.
Lemma g_dir m h : (m <= a)%nat -> (h < a)%nat -> sumn p (fun j => g m j * dir h j) = if (m <=? h)%nat then 1 else 0.
Proof.
  intros Hm Hh. rewrite (sumn_ext p _ (fun j => sumn (S h) (fun l => g m j * (g l j / gsq l)))) by (intros; unfold dir; now rewrite sumR_scal).
  rewrite sumR_swap. rewrite (sumn_ext (S h) _ (fun l => sumn p (fun j => g l j * g m j) * / gsq l)).
  2:{ intros l Hl. rewrite <- sumR_scal_r. apply sumn_ext. intros. unfold Rdiv. ring. }
  destruct (Nat.leb_spec m h) as [Hle|Hgt].
  - rewrite (sumR_single (S h) m) by (try lia; intros; rewrite g_perp by lia; ring). fold (gsq m). field. pose proof (gsq_pos m ltac:(lia)). lra.
  - apply sumR_zero. intros l Hl. rewrite g_perp by lia. ring.
Qed.
Lemma q_dir k h : (k < a)%nat -> (h < a)%nat -> sumn p (fun j => q k j * dir h j) = if (k =? h)%nat then / sqrt (gsq h) else 0.
Proof.
  intros Hk Hh. rewrite (sumn_ext p _ (fun j => / sqrt (gsq k) * (g k j * dir h j - g (S k) j * dir h j))).
  2:{ intros j Hj. rewrite q_g by assumption. unfold Rdiv. ring. }
  rewrite sumR_scal, sumR_minus, !g_dir by lia.
  destruct (Nat.eqb_spec k h) as [Heq|Hne]; destruct (Nat.leb_spec k h); destruct (Nat.leb_spec (S k) h); try lia; try (subst; ring).
Qed.
Lemma dir_S h j : dir (S h) j = dir h j + g (S h) j / gsq (S h).
Proof. reflexivity. Qed.
Lemma dir_dir h : (S h < a)%nat -> dsq (S h) = dsq h + / gsq (S h).
Proof.
  intros Hh. unfold dsq. pose proof (gsq_pos (S h) Hh) as Hg.
  rewrite (sumn_ext p _ (fun j => dir h j * dir h j + (2 * / gsq (S h) * (g (S h) j * dir h j) + / gsq (S h) * / gsq (S h) * (g (S h) j * g (S h) j)))).
  2:{ intros j Hj. rewrite dir_S. unfold Rdiv. ring. }
  rewrite sumR_plus, sumR_plus, !sumR_scal, g_dir by lia. fold (gsq (S h)). destruct (Nat.leb_spec (S h) h); [lia|]. field. lra.
Qed.
Lemma dsq_0 : (0 < a)%nat -> dsq 0 = / gsq 0.
Proof.
  intros Ha. pose proof (gsq_pos 0 Ha) as Hg. unfold dsq. rewrite (sumn_ext p _ (fun j => / gsq 0 * / gsq 0 * (g 0%nat j * g 0%nat j))).
  - rewrite sumR_scal. fold (gsq 0). field. lra.
  - intros j Hj. unfold dir. rewrite sumR_S, sumR_0. unfold Rdiv. ring.
Qed.
Lemma dsq_pos h : (h < a)%nat -> 0 < dsq h.
Proof.
  induction h as [|h IH]; intros Hh.
  - rewrite dsq_0 by assumption. apply Rinv_0_lt_compat, gsq_pos, Hh.
  - rewrite dir_dir by assumption. pose proof (IH ltac:(lia)). pose proof (Rinv_0_lt_compat _ (gsq_pos (S h) Hh)). lra.
Qed.
(** X dir_h = t_h / sqrt (gsq h) *)
Lemma X_dir h i : (h < a)%nat -> (i < n)%nat -> sumn p (fun j => X i j * dir h j) = t h i / sqrt (gsq h).
Proof.
  intros Hh Hi.
  rewrite (sumn_ext p _ (fun j => sumn h (fun l => t l i * (q l j * dir h j)) + E h i j * dir h j)).
  2:{ intros j Hj. change (X i j) with (E 0%nat i j). rewrite (E_decompose n p a E t q HE h i j) by (assumption || lia).
      rewrite Rmult_plus_distr_r, <- sumR_scal_r. f_equal. apply sumn_ext. intros; ring. }
  rewrite sumR_plus, sumR_swap. rewrite (sumR_zero h).
  2:{ intros l Hl. rewrite sumR_scal, q_dir by lia. destruct (Nat.eqb_spec l h); [lia|]. ring. }
  rewrite (sumn_ext p _ (fun j => sumn (S h) (fun l => E h i j * (w l j * (/ sqrt (gsq l)))))).
  2:{ intros j Hj. unfold dir. rewrite <- sumR_scal. apply sumn_ext. intros l Hl. rewrite w_g. pose proof (rt_pos l ltac:(lia)). pose proof (rt_rt l) as Q.
      unfold Rdiv. rewrite <- Q at 1. field. lra. }
  rewrite sumR_swap, sumR_S.
  rewrite (sumR_zero h).
  2:{ intros l Hl. rewrite (sumn_ext p _ (fun j => E h i j * w l j * / sqrt (gsq l))) by (intros; ring). rewrite sumR_scal_r, (E_kills_w n p a E w t q Ht Hq HE Htau l h i) by (assumption || lia). ring. }
  rewrite (sumn_ext p _ (fun j => E h i j * w h j * / sqrt (gsq h))) by (intros; ring). rewrite sumR_scal_r, <- Ht by assumption. unfold Rdiv. ring.
Qed.
(** X^T t_h = tau_h q_h *)
Lemma X_t h j : (h < a)%nat -> (j < p)%nat -> sumn n (fun i => X i j * t h i) = tau h * q h j.
Proof.
  intros Hh Hj.
  rewrite (sumn_ext n _ (fun i => sumn h (fun l => q l j * (t l i * t h i)) + E h i j * t h i)).
  2:{ intros i Hi. change (X i j) with (E 0%nat i j). rewrite (E_decompose n p a E t q HE h i j) by (assumption || lia).
      rewrite Rmult_plus_distr_r, <- sumR_scal_r. f_equal. apply sumn_ext. intros; ring. }
  rewrite sumR_plus, sumR_swap, (sumR_zero h).
  2:{ intros l Hl. rewrite sumR_scal, (scores_orthogonal n p a E w t q Ht Hq HE Htau l h) by lia. ring. }
  rewrite Hq by assumption. unfold tau. field. now apply Htau.
Qed.
(** The scores of any row in terms of the directions *)
Lemma ss_dir x0 k : (k < a)%nat -> ss p w q x0 k = sqrt (gsq k) * sumn p (fun j => x0 j * dir k j).
Proof.
  intros Hk. pose proof (rt_pos k Hk) as Hc.
  assert (Hone : forall k, (k < a)%nat -> sumn p (fun j => q k j * w k j) = 1) by (intros; apply (q_self n p a E w t q Ht Hq Htau); auto).
  assert (Hlow : forall k m, (k < m)%nat -> (m < a)%nat -> sumn p (fun j => q m j * w k j) = 0) by (intros; apply (q_w_below n p a E w t q Ht Hq HE Htau); auto).
  assert (HS : forall l, (l < a)%nat -> sumn p (fun j => x0 j * w l j) = sumn a (fun m => ss p w q x0 m * sumn p (fun j => q m j * w l j))).
  { intros l Hl. apply (row_scores p a w q (xs p w q x0) (ss p w q x0)); auto. intros m Hm. unfold ss. now rewrite Rsum_sumn. }
  assert (Hw : forall (v : nat -> R), sumn p (fun j => v j * dir k j) = sumn (S k) (fun l => sumn p (fun j => v j * w l j) * / sqrt (gsq l))).
  { intros v. rewrite (sumn_ext p _ (fun j => sumn (S k) (fun l => v j * w l j * / sqrt (gsq l)))).
    - rewrite sumR_swap. apply sumn_ext. intros. now rewrite sumR_scal_r.
    - intros j Hj. unfold dir. rewrite <- sumR_scal. apply sumn_ext. intros l Hl. rewrite w_g. pose proof (rt_pos l ltac:(lia)). pose proof (rt_rt l) as Q. unfold Rdiv. rewrite <- Q at 1. field. lra. }
  rewrite Hw. rewrite (sumn_ext (S k) _ (fun l => sumn a (fun m => ss p w q x0 m * (sumn p (fun j => q m j * w l j) * / sqrt (gsq l))))).
  2:{ intros l Hl. rewrite HS by lia. rewrite <- sumR_scal_r. apply sumn_ext. intros; ring. }
  rewrite sumR_swap. rewrite (sumn_ext a _ (fun m => ss p w q x0 m * sumn p (fun j => q m j * dir k j))) by (intros; now rewrite sumR_scal, <- Hw).
  rewrite (sumR_single a k).
  - rewrite q_dir by assumption. rewrite Nat.eqb_refl. field. lra.
  - assumption.
  - intros m Hm Hne. rewrite q_dir by assumption. rewrite (proj2 (Nat.eqb_neq _ _) Hne). ring.
Qed.
End Krylov.
