(** C105: once no covariance is left - at the latest with as many components as features - PLS1 and
    SIMPLS are ordinary least squares. *)
From Coq Require Import List ZArith Lia Bool Arith Reals Lra.
From Verif Require Import Base Num Mat M_Matrix M_Factory M_Helper M_Loop M_Utils M_Linalg M_Transform M_PLSBase M_PLS
  S_Matrix L_Base L_Mat L_Matrix L_MatR L_Linalg L_Alg L_Deflate L_Stats L_Transform P_Transform P_Matrix P_Linalg P_Helper P_PLSPrep P_PLS1 L_Krylov L_Public L_Perm L_Spectral P_SIMPLS2 P_Geometry.
Import ListNotations.
Local Open Scope R_scope.

Section Normal.
Variables (pp : preproc) (X Y : mat R) (a : nat).
Let n := nr X.
Let p := nc X.
Let x := prepared pp X.
Let y := fun i => prepared pp Y i 0.
Notation G := (gsq n p x y).
Notation tt := (tau n p x y).
Notation E := (residual n p x y).
Notation t := (fun k => scores_of p (residual n p x y k) (unit_cov n p (residual n p x y k) y)).
Notation q := (fun k => loadings_of n (residual n p x y k) (scores_of p (residual n p x y k) (unit_cov n p (residual n p x y k) y))).
Hypotheses (Hn : n <> 0%nat) (Hp : p <> 0%nat) (RY : nr Y = n) (CY : nc Y = 1%nat) (Ha : a <> 0%nat) (PX : preparable pp X) (PY : preparable pp Y).
Hypothesis Hnb : no_breakdown n p x y a.
Notation rest := (rest pp X Y).

Lemma rest_eq h i : rest h i = y i - sumn h (fun k => t k i * (sqrt (G k) / tt k)).
Proof. reflexivity. Qed.
Lemma rest_t0 h k : (k < h)%nat -> (h <= a)%nat -> sumn n (fun i => rest h i * t k i) = 0.
Proof.
  intros Hk Hh. rewrite (sumn_ext n _ (fun i => t k i * y i - sumn h (fun l => sqrt (G l) / tt l * (t l i * t k i)))).
  2:{ intros i Hi. rewrite rest_eq. rewrite Rmult_minus_distr_r, <- sumR_scal_r. f_equal; [ring|]. apply sumn_ext. intros; ring. }
  rewrite sumR_minus, sumR_swap. rewrite (t_y n p a x y Hnb k) by lia. rewrite (sumR_single h k); [|assumption|].
  - rewrite sumR_scal. pose proof (tau_pos n p a x y Hnb k ltac:(lia)) as Ht. change (sumn n _) with (tt k). field. lra.
  - intros l Hl Hne. rewrite sumR_scal. rewrite (t_perp pp X Y a) by (assumption || lia). ring.
Qed.
(** what the fit leaves of y is correlated with column j exactly as much as the deflated column *)
Lemma normal_equations j : (j < p)%nat -> sumn n (fun i => rest a i * x i j) = cov n (E a) y j.
Proof.
  intros Hj.
  rewrite (sumn_ext n _ (fun i => sumn a (fun l => q l j * (rest a i * t l i)) + (E a i j * y i - sumn a (fun l => sqrt (G l) / tt l * (E a i j * t l i))))).
  2:{ intros i Hi. pose proof (E_decompose n p a E t q (HE n p a x y) a i j (le_n _) Hi Hj) as D. cbv beta in D. change (E 0%nat i j) with (x i j) in D.
      rewrite D at 1. rewrite Rmult_plus_distr_l. f_equal.
      - rewrite <- sumR_scal. apply sumn_ext. intros; ring.
      - rewrite rest_eq. rewrite Rmult_minus_distr_r, <- sumR_scal_r. f_equal; [ring|]. apply sumn_ext. intros; ring. }
  rewrite sumR_plus, sumR_minus. rewrite (sumR_swap n a (fun i l => q l j * (rest a i * t l i))). rewrite (sumR_swap n a (fun i l => sqrt (G l) / tt l * (E a i j * t l i))).
  rewrite (sumR_zero a (fun l => sumn n (fun i => q l j * _))); [rewrite (sumR_zero a)|].
  - unfold cov. rewrite Rsum_sumn. ring.
  - intros l Hl. rewrite sumR_scal. rewrite (E_perp_t n p a E (fun k => unit_cov n p (E k) y) t q (Ht n p a x y) (Hq n p a x y) (HE n p a x y) (Htau n p a x y Hnb) l a j Hl (le_n _) Hj). ring.
  - intros l Hl. rewrite sumR_scal. rewrite rest_t0 by lia. ring.
Qed.
Hypothesis Hex : a = p \/ forall j, (j < p)%nat -> cov n (E a) y j = 0.
(** p steps without breakdown use up every direction *)
Lemma used_up j : (j < p)%nat -> cov n (E a) y j = 0.
Proof.
  intros Hj. destruct Hex as [Hap|H0]; [|now apply H0].
  assert (Ho : forall k l, (k < p)%nat -> (l < p)%nat -> dotp p (unit_cov n p (E k) y) (unit_cov n p (E l) y) = delta k l).
  { intros k l Hk Hl. unfold dotp. rewrite (sumn_ext p _ (fun j => / sqrt (G k) * / sqrt (G l) * (cov n (E k) y j * cov n (E l) y j))) by (intros; rewrite !(w_g n p x y); unfold Rdiv; ring).
    rewrite sumR_scal. unfold delta. destruct (Nat.eqb_spec k l) as [->|Hne].
    - change (sumn p _) with (G l). rewrite <- (rt_rt n p x y l) at 3. pose proof (rt_pos n p a x y Hnb l ltac:(lia)). field. lra.
    - rewrite (g_perp n p a x y Hnb k l) by lia. ring. }
  rewrite (orthonormal_expand p (fun k => unit_cov n p (E k) y) Ho (cov n (E a) y) j Hj). apply sumR_zero. intros k Hk. unfold dotp. rewrite (g_w_below n p a x y Hnb k a) by lia. ring.
Qed.
Lemma col_sum j : pp <> PP_NONE -> (j < p)%nat -> sumn n (fun i => x i j) = 0.
Proof.
  intros Hpp Hj. assert (Hc : sumn n (fun i => entry X i j - Rmean (nr X) (fun k => entry X k j)) = 0).
  { rewrite sumR_minus, sumR_const. unfold Rmean. rewrite Rsum_sumn. fold n. field. now apply not_0_INR. }
  unfold x, prepared. destruct pp; [congruence|exact Hc| |now elim PX]. unfold Rdiv. rewrite sumR_scal_r, Hc. ring.
Qed.
Lemma y_sum : pp <> PP_NONE -> sumn n y = 0.
Proof.
  intros Hpp. assert (Hc : sumn n (fun i => entry Y i 0 - Rmean (nr Y) (fun k => entry Y k 0)) = 0).
  { rewrite sumR_minus, sumR_const. unfold Rmean. rewrite Rsum_sumn, RY. field. now apply not_0_INR. }
  unfold y, prepared. destruct pp; [congruence|exact Hc| |now elim PY]. unfold Rdiv. rewrite sumR_scal_r, Hc. ring.
Qed.
Lemma t_sum k : pp <> PP_NONE -> (k < a)%nat -> sumn n (t k) = 0.
Proof.
  intros Hpp Hk. rewrite (sumn_ext n _ (fun i => sumn p (fun j => sqrt (G k) * dir n p x y k j * x i j))).
  - rewrite sumR_swap. apply sumR_zero. intros j Hj. rewrite sumR_scal, col_sum by assumption. ring.
  - intros i Hi. rewrite (sumn_ext p _ (fun j => sqrt (G k) * (x i j * dir n p x y k j))) by (intros; ring). rewrite sumR_scal, (X_dir n p a x y Hnb k i Hk Hi).
    pose proof (rt_pos n p a x y Hnb k Hk). field. lra.
Qed.
Lemma rest_sum : pp <> PP_NONE -> sumn n (rest a) = 0.
Proof.
  intros Hpp. rewrite (sumn_ext n _ (fun i => y i - sumn a (fun k => sqrt (G k) / tt k * t k i))) by (intros; rewrite rest_eq; f_equal; apply sumn_ext; intros; ring).
  rewrite sumR_minus, y_sum by assumption. rewrite (sumR_swap n a (fun i k => sqrt (G k) / tt k * t k i)). rewrite sumR_zero; [ring|]. intros k Hk. rewrite sumR_scal, t_sum by assumption. ring.
Qed.
Definition coef (j : nat) : R := sumn a (fun k => dir n p x y k j * (G k / tt k)) * own_sd pp Y 0.
Lemma predicted_linear z : predicted pp X Y a z = Rsum p (fun j => z j * coef j) + back_mean pp Y.
Proof.
  unfold predicted. fold n p x y. f_equal. rewrite Rsum_sumn.
  rewrite (sumn_ext a _ (fun k => sumn p (fun j => z j * (dir n p x y k j * (G k / tt k))))) by (intros; rewrite <- sumR_scal_r; apply sumn_ext; intros; ring).
  rewrite sumR_swap, <- sumR_scal_r. apply sumn_ext. intros j Hj. unfold coef. rewrite sumR_scal. ring.
Qed.
(** Sum of squared errors of a linear model on the data training sees *)
Definition linear_error (b : nat -> R) (c : R) : R :=
  Rsum n (fun i => (entry Y i 0 - (Rsum p (fun j => x i j * b j) + c)) * (entry Y i 0 - (Rsum p (fun j => x i j * b j) + c))).
Lemma least_squares b c : (pp = PP_NONE -> c = 0) -> linear_error coef (back_mean pp Y) <= linear_error b c.
Proof.
  intros Hc. unfold linear_error. rewrite !Rsum_sumn.
  set (dl := fun i => Rsum p (fun j => x i j * (coef j - b j)) + (back_mean pp Y - c)).
  assert (E1 : forall i, (i < n)%nat -> entry Y i 0 - (Rsum p (fun j => x i j * coef j) + back_mean pp Y) = own_sd pp Y 0 * rest a i).
  { intros i Hi. rewrite <- predicted_linear. now rewrite (predicted_training pp X Y a) by (assumption || lia). }
  assert (E2 : forall i, (i < n)%nat -> entry Y i 0 - (Rsum p (fun j => x i j * b j) + c) = own_sd pp Y 0 * rest a i + dl i).
  { intros i Hi. rewrite <- E1 by assumption. unfold dl. rewrite !Rsum_sumn. rewrite (sumn_ext p (fun j => x i j * (coef j - b j)) (fun j => x i j * coef j - x i j * b j)) by (intros; ring). rewrite sumR_minus. ring. }
  rewrite (sumn_ext n _ (fun i => (own_sd pp Y 0 * rest a i) * (own_sd pp Y 0 * rest a i))) by (intros; now rewrite E1).
  rewrite (sumn_ext n (fun i => (entry Y i 0 - _) * _) (fun i => ((own_sd pp Y 0 * rest a i) * (own_sd pp Y 0 * rest a i) + dl i * dl i) + 2 * own_sd pp Y 0 * (rest a i * dl i))) by (intros; rewrite E2 by assumption; ring).
  rewrite !sumR_plus, sumR_scal.
  assert (Ez : sumn n (fun i => rest a i * dl i) = 0).
  { rewrite (sumn_ext n _ (fun i => sumn p (fun j => (coef j - b j) * (rest a i * x i j)) + (back_mean pp Y - c) * rest a i)).
    2:{ intros i Hi. unfold dl. rewrite Rsum_sumn, Rmult_plus_distr_l, <- sumR_scal. f_equal; [|ring]. apply sumn_ext. intros; ring. }
    rewrite sumR_plus, sumR_scal, (sumR_swap n p (fun i j => (coef j - b j) * (rest a i * x i j))). rewrite (sumR_zero p).
    - destruct (preproc_eq_none pp) as [Ep|Ep]; [rewrite (Hc Ep); rewrite Ep; cbn [back_mean]; ring|]. rewrite rest_sum by assumption. ring.
    - intros j Hj. rewrite sumR_scal, normal_equations, used_up by assumption. ring. }
  rewrite Ez. assert (0 <= sumn n (fun i => dl i * dl i)) by (apply sumR_nonneg; intros; apply Rle_0_sqr). lra.
Qed.
End Normal.

(** * C105 *)
(** On every new row the model is one fixed linear function of the predictors, and that function fits the training
    data at least as well as every other one (with an intercept unless nothing is preprocessed). *)
Definition is_ols (pp : preproc) (X Y : mat R) (pred : mat R -> res (mat R)) : Prop :=
  exists (b : nat -> R) (c : R), (pp = PP_NONE -> c = 0) /\
    (forall Z, wf Z -> nc Z = nc X -> nr Z <> 0%nat -> pred Z = Ok (mk (nr Z) 1 (fun i _ => Rsum (nc X) (fun j => entry Z i j * b j) + c))) /\
    forall b' c', (pp = PP_NONE -> c' = 0) -> linear_error pp X Y b c <= linear_error pp X Y b' c'.

Theorem C105_pls1 lstsq (s0 : pls_st (pls1_st R) R) (X Y : mat R) (a : nat) (pp : preproc) : let n := nr X in let p := nc X in
  p_preprocessing s0 = pp -> p_num_components s0 = Z.of_nat a ->
  wf X -> wf Y -> n <> 0%nat -> p <> 0%nat -> nr Y = n -> nc Y = 1%nat -> a <> 0%nat -> preparable pp X -> preparable pp Y ->
  no_breakdown n p (prepared pp X) (fun i => prepared pp Y i 0) a ->
  a = p \/ (forall j, (j < p)%nat -> cov n (residual n p (prepared pp X) (fun i => prepared pp Y i 0) a) (fun i => prepared pp Y i 0) j = 0) ->
  exists s, initialize (pls1 lstsq) s0 (Some X) (Some Y) = (s, Ok None) /\ is_ols pp X Y (fun Z => snd (predict (pls1 lstsq) s Z)).
Proof.
  intros n p Hpp Hnc WX WY Hn Hp RY CY Ha PX PY Hnb Hex.
  destruct (pls1_public pp X Y a WX WY Hn Hp RY CY Ha PX PY Hnb lstsq s0 Hpp Hnc) as (s & Ei & HZ). exists s. split; [exact Ei|].
  exists (coef pp X Y a), (back_mean pp Y). split; [intros ->; reflexivity|]. split.
  - intros Z WZ CZ RZ. destruct (HZ Z WZ CZ RZ) as [_ A]. rewrite A. f_equal. apply mk_ext. intros i j Hi Hj. now apply predicted_linear.
  - intros b' c' Hc. now apply least_squares.
Qed.
Theorem C105_simpls eig (s0 : pls_st (simpls_st R) R) (X Y : mat R) (a : nat) (pp : preproc) : let n := nr X in let p := nc X in
  eig_one eig -> (si_coef (p_own s0) <= 0)%Z -> p_preprocessing s0 = pp -> p_num_components s0 = Z.of_nat a ->
  wf X -> wf Y -> n <> 0%nat -> p <> 0%nat -> nr Y = n -> nc Y = 1%nat -> a <> 0%nat -> preparable pp X -> preparable pp Y ->
  no_breakdown n p (prepared pp X) (fun i => prepared pp Y i 0) a ->
  a = p \/ (forall j, (j < p)%nat -> cov n (residual n p (prepared pp X) (fun i => prepared pp Y i 0) a) (fun i => prepared pp Y i 0) j = 0) ->
  exists s, initialize (simpls eig) s0 (Some X) (Some Y) = (s, Ok None) /\ is_ols pp X Y (fun Z => snd (predict (simpls eig) s Z)).
Proof.
  intros n p Heig Hco Hpp Hnc WX WY Hn Hp RY CY Ha PX PY Hnb Hex.
  destruct (simpls_public pp X Y a WX WY Hn Hp RY CY Ha PX PY Hnb eig s0 Heig Hpp Hnc Hco) as (s & Ei & HZ). exists s. split; [exact Ei|].
  exists (coef pp X Y a), (back_mean pp Y). split; [intros ->; reflexivity|]. split.
  - intros Z WZ CZ RZ. rewrite (HZ Z WZ CZ RZ). f_equal. apply mk_ext. intros i j Hi Hj. now apply predicted_linear.
  - intros b' c' Hc. now apply least_squares.
Qed.
Print Assumptions C105_pls1.
Print Assumptions C105_simpls.
(** Two features, two components (the data of C51) *)
Example C105_ex : let X := Mat 2 2 [[3;0];[0;4]] in let Y := Mat 2 1 [[1];[1]] in let lstsq := fun _ _ => Err LinAlgError in
  exists s, initialize (pls1 lstsq) (PlsSt 2 PP_NONE false [] [] None None (c_new (pls1 lstsq))) (Some X) (Some Y) = (s, Ok None) /\ is_ols PP_NONE X Y (fun Z => snd (predict (pls1 lstsq) s Z)).
Proof.
  cbv zeta. destruct C51_ex as (WX & WY & Hnb). apply (C105_pls1 (fun _ _ => Err LinAlgError) (PlsSt 2 PP_NONE false [] [] None None (c_new (pls1 (fun _ _ => Err LinAlgError)))) (Mat 2 2 [[3;0];[0;4]]) (Mat 2 1 [[1];[1]]) 2 PP_NONE);
    try (exact WX || exact WY || exact Hnb || exact I || reflexivity || (cbn; lia)).
Qed.
