(** Real polynomials given by coefficient functions: root counting, Taylor coefficients. *)
From Coq Require Import List ZArith Lia Bool Arith Reals Lra.
From Verif Require Import Base Num Mat S_Matrix L_Base L_Mat L_MatR.
Import ListNotations.
Open Scope R_scope.

Definition psum (n : nat) (a : nat -> R) (x : R) : R := sumn n (fun m => a m * x ^ m).

(** synthetic division by (x - x0) of a polynomial with n coefficients *)
Definition quo (n : nat) (a : nat -> R) (x0 : R) (i : nat) : R := sumn (n - 1 - i) (fun k => a (i + 1 + k)%nat * x0 ^ k).
Lemma quo_step n a x0 i : (i < n - 1)%nat -> quo n a x0 i = a (S i) + x0 * quo n a x0 (S i).
Proof.
  intros Hi. unfold quo. replace (n - 1 - i)%nat with (S (n - 1 - S i)) by lia. rewrite sumR_S_hd. rewrite <- sumR_scal.
  replace (i + 1 + 0)%nat with (S i) by lia. cbn [pow]. rewrite Rmult_1_r. f_equal. apply sumn_ext. intros k Hk. replace (i + 1 + S k)%nat with (S i + 1 + k)%nat by lia. cbn [pow]. ring.
Qed.
Lemma quo_end n a x0 i : (n - 1 <= i)%nat -> quo n a x0 i = 0.
Proof. intros Hi. unfold quo. replace (n - 1 - i)%nat with 0%nat by lia. reflexivity. Qed.
Lemma quo_0 n a x0 : psum (S n) a x0 = a 0%nat + x0 * quo (S n) a x0 0.
Proof.
  unfold psum, quo. replace (S n - 1 - 0)%nat with n by lia. rewrite sumR_S_hd, <- sumR_scal. cbn [pow]. rewrite Rmult_1_r. f_equal.
  apply sumn_ext. intros k Hk. replace (0 + 1 + k)%nat with (S k) by lia. cbn [pow]. ring.
Qed.
Lemma quo_spec n a x0 x : psum (S n) a x = psum (S n) a x0 + (x - x0) * psum n (quo (S n) a x0) x.
Proof.
  rewrite (quo_0 n a x0). set (b := quo (S n) a x0). unfold psum at 1. rewrite sumR_S_hd. change (x ^ 0) with 1. rewrite Rmult_1_r.
  assert (E : sumn n (fun i => a (S i) * x ^ S i) = x * psum n b x - x0 * (psum n b x - b 0%nat)).
  { transitivity (sumn n (fun i => x * (b i * x ^ i) - x0 * (b (S i) * x ^ S i))).
    - apply sumn_ext. intros i Hi. unfold b. rewrite (quo_step (S n) a x0 i) by lia. cbn [pow]. ring.
    - rewrite sumR_minus, !sumR_scal. f_equal. f_equal. destruct n as [|n].
      + unfold psum, b. cbn [sumn]. cbn [n0 NumR]. rewrite quo_end by lia. ring.
      + unfold psum. rewrite sumR_S. unfold b at 2. rewrite quo_end by lia. rewrite (sumR_S_hd n (fun m => b m * x ^ m)). cbn [pow]. ring. }
  rewrite E. ring.
Qed.
(** A polynomial with n coefficients and n distinct roots is zero. *)
Lemma roots_zero n : forall (a x : nat -> R),
  (forall i j, (i < n)%nat -> (j < n)%nat -> i <> j -> x i <> x j) ->
  (forall t, (t < n)%nat -> psum n a (x t) = 0) -> forall j, (j < n)%nat -> a j = 0.
Proof.
  induction n as [|n IH]; intros a x Hd Hr j Hj; [lia|].
  set (b := quo (S n) a (x n)).
  assert (Hb : forall i, (i < n)%nat -> b i = 0).
  { apply (IH b x); [intros; apply Hd; lia|]. intros t Ht. pose proof (quo_spec n a (x n) (x t)) as Q. fold b in Q.
    rewrite !Hr in Q by lia. assert (Hne : x t - x n <> 0). { intros E. apply (Hd t n); try lia. lra. }
    apply Rmult_eq_reg_l with (x t - x n); [lra|assumption]. }
  assert (Hb' : forall i, b i = 0). { intros i. destruct (Nat.lt_ge_cases i n); [auto|]. unfold b. apply quo_end. lia. }
  destruct j as [|j].
  - pose proof (quo_0 n a (x n)) as Q. fold b in Q. rewrite Hr, Hb' in Q by lia. lra.
  - pose proof (quo_step (S n) a (x n) j ltac:(lia)) as Q. fold b in Q. rewrite !Hb' in Q. lra.
Qed.

(** The monic polynomial with given roots. *)
Fixpoint proots (w : nat) (x : nat -> R) (i : nat) : R :=
  match w with
  | O => if (i =? 0)%nat then 1 else 0
  | S w' => (match i with O => 0 | S i' => proots w' x i' end) - x w' * proots w' x i
  end.
Lemma proots_top w x : proots w x w = 1 /\ forall i, (w < i)%nat -> proots w x i = 0.
Proof.
  induction w as [|w [IH1 IH2]]; cbn [proots].
  - split; [reflexivity|]. intros [|i] Hi; [lia|reflexivity].
  - split.
    + rewrite IH1, IH2 by lia. ring.
    + intros [|i] Hi; [lia|]. rewrite !IH2 by lia. ring.
Qed.
Lemma proots_eval w x y : psum (S (S w)) (proots (S w) x) y = (y - x w) * psum (S w) (proots w x) y.
Proof.
  unfold psum. cbn [proots]. rewrite (sumn_ext _ _ (fun m => match m with O => 0 | S i => proots w x i * y ^ S i end - x w * (proots w x m * y ^ m))).
  2:{ intros [|m] _; cbn [pow]; ring. }
  rewrite sumR_minus, sumR_scal. rewrite sumR_S_hd. rewrite (sumR_S (S w)). rewrite (proj2 (proots_top w x) (S w)) by lia.
  rewrite (sumn_ext (S w) (fun i => proots w x i * y ^ S i) (fun i => y * (proots w x i * y ^ i))) by (intros; cbn [pow]; ring). rewrite sumR_scal. ring.
Qed.
Lemma proots_roots w x t : (t < w)%nat -> psum (S w) (proots w x) (x t) = 0.
Proof.
  induction w as [|w IH]; intros Ht; [lia|]. rewrite proots_eval. destruct (Nat.eq_dec t w) as [->|Hne]; [ring|]. rewrite IH by lia. ring.
Qed.
Lemma psum_extend n m a x : (n <= m)%nat -> (forall i, (n <= i)%nat -> a i = 0) -> psum m a x = psum n a x.
Proof.
  intros Hnm Ha. unfold psum. replace m with (n + (m - n))%nat by lia. rewrite sumR_split. rewrite (sumR_zero (m - n)); [ring|].
  intros i Hi. rewrite Ha by lia. ring.
Qed.

(** Falling factorial m (m-1) ... (m-d+1): the factor of the d-th derivative of x^m. *)
Fixpoint ff (m d : nat) : R := match d with O => 1 | S d' => INR (m - d') * ff m d' end.
Lemma ff_big m d : (m < d)%nat -> ff m d = 0.
Proof.
  intros Hd. induction d as [|d IH]; [lia|]. cbn [ff]. destruct (Nat.eq_dec m d) as [->|Hne].
  - replace (d - d)%nat with 0%nat by lia. cbn. ring.
  - rewrite IH by lia. ring.
Qed.
Lemma ff_S m d : ff (S m) (S d) = INR (S m) * ff m d.
Proof.
  induction d as [|d IH].
  - cbn [ff]. replace (S m - 0)%nat with (S m) by lia. ring.
  - change (ff (S m) (S (S d))) with (INR (S m - S d) * ff (S m) (S d)). rewrite IH. cbn [ff]. replace (S m - S d)%nat with (m - d)%nat by lia. ring.
Qed.
Lemma ff_pascal m e : ff (S m) (S e) = ff m (S e) + INR (S e) * ff m e.
Proof.
  rewrite ff_S. cbn [ff]. destruct (Nat.le_gt_cases e m) as [He|He].
  - rewrite minus_INR by assumption. rewrite !S_INR. ring.
  - rewrite (ff_big m e) by assumption. ring.
Qed.
Lemma ff_diag d : ff d d = INR (fact d).
Proof. induction d as [|d IH]; [reflexivity|]. rewrite ff_S, IH. change (fact (S d)) with (S d * fact d)%nat. now rewrite mult_INR. Qed.

(** Shifted moments from central moments. *)
Section Moments.
Variables (w : nat) (c k : nat -> R) (N d : nat) (h : R).
Hypothesis moments : forall l, (l <= N)%nat -> sumn w (fun t => c t * k t ^ l) = if (l =? d)%nat then 1 else 0.
Let F (m l : nat) : R := sumn w (fun t => c t * (k t ^ l * (h + k t) ^ m)).
Lemma F_S m l : F (S m) l = h * F m l + F m (S l).
Proof. unfold F. rewrite <- sumR_scal, <- sumR_plus. apply sumn_ext. intros t Ht. cbn [pow]. ring. Qed.
Lemma F_0 l : (l <= N)%nat -> F 0 l = if (l =? d)%nat then 1 else 0.
Proof. intros Hl. rewrite <- moments by assumption. unfold F. apply sumn_ext. intros t Ht. cbn [pow]. ring. Qed.
Lemma F_high m : forall l, (m + l <= N)%nat -> (d < l)%nat -> F m l = 0.
Proof.
  induction m as [|m IH]; intros l Hl Hd.
  - rewrite F_0 by lia. destruct (Nat.eqb_spec l d); [lia|reflexivity].
  - rewrite F_S, !IH by lia. ring.
Qed.
Lemma F_val m : forall l e, (m + l <= N)%nat -> (l + e = d)%nat -> INR (fact e) * F m l = ff m e * h ^ (m - e).
Proof.
  induction m as [|m IH]; intros l e Hl He.
  - rewrite F_0 by lia. destruct e as [|e].
    + replace (l =? d)%nat with true by (symmetry; apply Nat.eqb_eq; lia). cbn. ring.
    + replace (l =? d)%nat with false by (symmetry; apply Nat.eqb_neq; lia). rewrite (ff_big 0 (S e)) by lia. ring.
  - rewrite F_S. destruct e as [|e].
    + rewrite (F_high m (S l)) by lia. specialize (IH l 0%nat ltac:(lia) He). cbn [fact ff] in *. rewrite Nat.sub_0_r in *. cbn [pow]. change (INR 1) with 1 in *. rewrite Rmult_1_l in IH. rewrite IH. ring.
    + rewrite Rmult_plus_distr_l. replace (INR (fact (S e)) * (h * F m l)) with (h * (INR (fact (S e)) * F m l)) by ring. rewrite (IH l (S e)) by lia.
      change (fact (S e)) with (S e * fact e)%nat. rewrite mult_INR. rewrite Rmult_assoc, (IH (S l) e) by lia. rewrite ff_pascal.
      destruct (Nat.le_gt_cases (S e) m) as [Hm|Hm].
      * replace (S m - S e)%nat with (m - e)%nat by lia. replace (m - e)%nat with (S (m - S e)) by lia. cbn [pow]. ring.
      * rewrite (ff_big m (S e)) by lia. replace (S m - S e)%nat with (m - e)%nat by lia. ring.
Qed.
Lemma F_main m : (m <= N)%nat -> INR (fact d) * sumn w (fun t => c t * (h + k t) ^ m) = ff m d * h ^ (m - d).
Proof.
  intros Hm. rewrite <- (F_val m 0 d) by lia. f_equal. unfold F. apply sumn_ext. intros t Ht. cbn [pow]. ring.
Qed.
End Moments.

(** The d-th derivative of sum_{m<n} a_m x^m, as a formula, *)
Definition pder (n : nat) (a : nat -> R) (d : nat) (x : R) : R := Rsum n (fun m => a m * (ff m d * x ^ (m - d))).
(** and the proof that it is the d-th derivative. *)
Lemma pder_0 n a x : pder n a 0 x = Rsum n (fun m => a m * x ^ m).
Proof. unfold pder. apply Rsum_ext. intros m Hm. cbn [ff]. rewrite Nat.sub_0_r. ring. Qed.
Lemma pder_S n a d x : derivable_pt_lim (pder n a d) x (pder n a (S d) x).
Proof.
  unfold pder. induction n as [|n IH]; cbn [Rsum].
  - apply derivable_pt_lim_const.
  - apply derivable_pt_lim_plus with (1 := IH). cbn [ff].
    replace (a n * (INR (n - d) * ff n d * x ^ (n - S d))) with ((a n * ff n d) * (INR (n - d) * x ^ pred (n - d))).
    2:{ replace (pred (n - d)) with (n - S d)%nat by lia. ring. }
    assert (Hd := derivable_pt_lim_scal (fun y => y ^ (n - d)) (a n * ff n d) x _ (derivable_pt_lim_pow x (n - d))).
    unfold derivable_pt_lim in *. intros eps He. destruct (Hd eps He) as (delta & Q). exists delta. intros h Hh1 Hh2. specialize (Q h Hh1 Hh2). unfold mult_real_fct in Q.
    replace (a n * (ff n d * (x + h) ^ (n - d)) - a n * (ff n d * x ^ (n - d))) with (a n * ff n d * (x + h) ^ (n - d) - a n * ff n d * x ^ (n - d)) by ring. exact Q.
Qed.
