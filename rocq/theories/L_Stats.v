(** Real-number lemmas about means and standard deviations. *)
From Coq Require Import List ZArith Lia Bool Arith Reals Lra.
From Verif Require Import Base Num Mat M_Matrix M_Helper S_Matrix L_Base L_Mat L_Matrix L_MatR.
Local Open Scope R_scope.

Lemma IZR_of_nat n : IZR (Z.of_nat n) = INR n.
Proof. symmetry. apply INR_IZR_INZ. Qed.
Lemma INR_ne0 n : n <> 0%nat -> INR n <> 0.
Proof. apply not_0_INR. Qed.
Lemma INR_pos n : n <> 0%nat -> 0 < INR n.
Proof. intros. apply lt_0_INR. lia. Qed.

Lemma np_mean_R n f : np_mean n f = sumn n f / INR n.
Proof. unfold np_mean. cbn [ndiv NumR nofZ]. now rewrite IZR_of_nat. Qed.

Lemma np_mean_ext n f g : (forall i, (i < n)%nat -> f i = g i) -> np_mean n f = np_mean (T:=R) n g.
Proof. intros H. rewrite !np_mean_R. now rewrite (sumn_ext n f g H). Qed.

Lemma np_mean_affine n f a b : n <> 0%nat -> np_mean n (fun i => a + b * f i) = a + b * np_mean n f.
Proof.
  intros Hn. rewrite !np_mean_R, sumR_plus, sumR_scal, sumR_const. pose proof (INR_ne0 n Hn). field. assumption.
Qed.
Lemma np_mean_shift n f c : n <> 0%nat -> np_mean n (fun i => f i + c) = np_mean n f + c.
Proof.
  intros Hn. rewrite (np_mean_ext n _ (fun i => c + 1 * f i)) by (intros; ring). rewrite np_mean_affine by assumption. ring.
Qed.
Lemma np_mean_scal n f k : np_mean n (fun i => f i * k) = np_mean n f * k.
Proof. rewrite !np_mean_R, sumR_scal_r. unfold Rdiv. ring. Qed.
Lemma np_mean_const n (c : R) : n <> 0%nat -> np_mean n (fun _ => c) = c.
Proof. intros Hn. rewrite np_mean_R, sumR_const. pose proof (INR_ne0 n Hn). field. assumption. Qed.
Lemma np_mean_total n (f : nat -> R) : n <> 0%nat -> INR n * np_mean n f = sumn n f.
Proof. intros Hn. rewrite np_mean_R. pose proof (INR_ne0 n Hn). field. assumption. Qed.
Lemma sum_dev_zero n f : n <> 0%nat -> sumn n (fun i => f i - np_mean n f) = 0.
Proof. intros Hn. rewrite sumR_minus, sumR_const, np_mean_total by assumption. lra. Qed.

Definition sumsqdev n (f : nat -> R) : R := sumn n (fun i => (f i - np_mean n f) * (f i - np_mean n f)).
Lemma sumsqdev_nonneg n f : 0 <= sumsqdev n f.
Proof. apply sumR_nonneg. intros. apply Rle_0_sqr. Qed.
Lemma np_std_R n f : np_std n f = sqrt (sumsqdev n f / INR (n - 1)).
Proof. unfold np_std, sumsqdev. cbn [nsqrt ndiv nmul nsub NumR nofZ]. now rewrite IZR_of_nat. Qed.
Lemma sumsqdev_ext n f g : (forall i, (i < n)%nat -> f i = g i) -> sumsqdev n f = sumsqdev n g.
Proof. intros H. unfold sumsqdev. rewrite (np_mean_ext n f g H). apply sumn_ext. intros i Hi. now rewrite H. Qed.
Lemma np_std_ext n f g : (forall i, (i < n)%nat -> f i = g i) -> np_std (T:=R) n f = np_std n g.
Proof. intros H. rewrite !np_std_R. now rewrite (sumsqdev_ext n f g H). Qed.
Lemma np_std_nonneg n f : 0 <= np_std (T:=R) n f.
Proof. rewrite np_std_R. apply sqrt_pos. Qed.

Lemma sumsqdev_affine n f a b : n <> 0%nat -> sumsqdev n (fun i => a + b * f i) = b * b * sumsqdev n f.
Proof.
  intros Hn. unfold sumsqdev. rewrite <- sumR_scal. apply sumn_ext. intros i Hi.
  rewrite np_mean_affine by assumption. ring.
Qed.
Lemma np_std_affine n f a b : (2 <= n)%nat -> np_std n (fun i => a + b * f i) = Rabs b * np_std n f.
Proof.
  intros Hn. rewrite !np_std_R, sumsqdev_affine by lia. rewrite <- sqrt_Rsqr_abs.
  rewrite <- sqrt_mult_alt by apply Rle_0_sqr. f_equal. unfold Rsqr. unfold Rdiv. ring.
Qed.
Lemma np_std_sq n f : (2 <= n)%nat -> np_std n f * np_std n f * INR (n - 1) = sumsqdev n f.
Proof.
  intros Hn. rewrite np_std_R. assert (Hp : 0 < INR (n - 1)) by (apply INR_pos; lia).
  rewrite sqrt_sqrt.
  - field. lra.
  - apply Rmult_le_pos; [apply sumsqdev_nonneg|]. left. now apply Rinv_0_lt_compat.
Qed.
Lemma np_std_zero n (f : nat -> R) : (2 <= n)%nat ->
  (np_std n f = 0 <-> forall i j, (i < n)%nat -> (j < n)%nat -> f i = f j).
Proof.
  intros Hn. split.
  - intros Hz. assert (E : sumsqdev n f = 0) by (rewrite <- np_std_sq by assumption; rewrite Hz; ring).
    assert (F : forall i, (i < n)%nat -> f i = np_mean n f).
    { intros i Hi. assert (Q := sumR_nonneg_0 n _ (fun i _ => Rle_0_sqr (f i - np_mean n f)) E i Hi).
      cbn beta in Q. apply Rsqr_0_uniq in Q. lra. }
    intros i j Hi Hj. rewrite (F i Hi), (F j Hj). reflexivity.
  - intros Hc. rewrite np_std_R. replace (sumsqdev n f) with 0; [unfold Rdiv; rewrite Rmult_0_l; apply sqrt_0|].
    symmetry. apply sumR_zero. intros i Hi.
    assert (E : np_mean n f = f i).
    { rewrite (np_mean_ext n f (fun _ => f i)) by (intros; now apply Hc). apply np_mean_const. lia. }
    rewrite E. ring.
Qed.
Lemma np_std_pos n f : (2 <= n)%nat -> np_std n f <> 0 -> 0 < np_std (T:=R) n f.
Proof. intros. pose proof (np_std_nonneg n f). lra. Qed.
