(** C108: repeating all training rows equally often does not change PLS1 and SIMPLS models. *)
From Coq Require Import List ZArith Lia Bool Arith Reals Lra.
From Verif Require Import Base Num Mat M_Matrix M_Factory M_Helper M_Loop M_Utils M_Transform M_PLSBase M_PLS.
From Verif Require Import S_Matrix L_Base L_Mat L_MatR L_Matrix L_Alg L_Stats L_Transform P_Helper P_PLSPrep P_PLS1 L_Public L_Krylov P_SIMPLS2 P_Geometry.
Import ListNotations.
Local Open Scope R_scope.

Lemma sum_repeat n m (f : nat -> R) : sumn (m * n) (fun i => f (i mod n)%nat) = INR m * sumn n f.
Proof.
  induction m as [|m IH]; [rewrite sumR_0; cbn; ring|]. change (S m * n)%nat with (n + m * n)%nat. rewrite sumR_split.
  rewrite (sumn_ext n (fun i => f (i mod n)%nat) f) by (intros i Hi; now rewrite Nat.mod_small).
  destruct n as [|n]; [rewrite Nat.mul_0_r, !sumR_0; ring|].
  rewrite (sumn_ext (m * S n) (fun i => f ((S n + i) mod S n)%nat) (fun i => f (i mod S n)%nat)).
  - rewrite IH, S_INR. ring.
  - intros i Hi. f_equal. replace (S n + i)%nat with (i + 1 * S n)%nat by lia. apply Nat.mod_add. lia.
Qed.

Lemma sum_copies n m (f f2 : nat -> R) : (forall i, (i < m * n)%nat -> f2 i = f (i mod n)%nat) -> sumn (m * n) f2 = INR m * sumn n f.
Proof. intros Hf. rewrite <- sum_repeat. now apply sumn_ext. Qed.

(** the recursion of PLS1 on m copies of the rows, all numbers c times as large *)
Section Rep.
Variables (n p m : nat) (c : R) (x x2 : nat -> nat -> R) (y y2 : nat -> R).
Hypotheses (Hm : m <> 0%nat) (Hc : 0 < c).
Hypothesis Hx : forall i j, (i < m * n)%nat -> (j < p)%nat -> x2 i j = c * x (i mod n)%nat j.
Hypothesis Hy : forall i, (i < m * n)%nat -> y2 i = c * y (i mod n)%nat.
Let E := residual n p x y.
Let E2 := residual (m * n) p x2 y2.
Let K := INR m * c * c.
Lemma k_pos : 0 < K.
Proof. unfold K. assert (0 < INR m) by (apply lt_0_INR; lia). apply Rmult_lt_0_compat; [apply Rmult_lt_0_compat|]; assumption. Qed.
Definition copies (F F2 : nat -> nat -> R) : Prop := forall i j, (i < m * n)%nat -> (j < p)%nat -> F2 i j = c * F (i mod n)%nat j.
Lemma rep_cov F F2 j : copies F F2 -> (j < p)%nat -> cov (m * n) F2 y2 j = K * cov n F y j.
Proof.
  intros HF Hj. unfold cov, K. rewrite !Rsum_sumn. rewrite (sum_copies n m (fun r => c * c * (F r j * y r))) by (intros i Hi; rewrite HF, Hy by assumption; ring).
  rewrite sumR_scal. ring.
Qed.
Lemma rep_unit F F2 j : copies F F2 -> (j < p)%nat -> unit_cov (m * n) p F2 y2 j = unit_cov n p F y j.
Proof.
  intros HF Hj. unfold unit_cov. rewrite (rep_cov F F2 j HF Hj). pose proof k_pos as HK.
  rewrite (Rsum_ext p (fun l => cov (m * n) F2 y2 l * cov (m * n) F2 y2 l) (fun l => K * K * (cov n F y l * cov n F y l))) by (intros l Hl; rewrite (rep_cov F F2 l HF Hl); ring).
  rewrite !Rsum_sumn, sumR_scal. rewrite sqrt_mult_alt by nra. rewrite sqrt_square by lra. unfold Rdiv. rewrite Rinv_mult. transitivity ((K * / K) * (cov n F y j * / sqrt (sumn p (fun i => cov n F y i * cov n F y i)))); [ring|]. rewrite Rinv_r by lra. ring.
Qed.
Lemma rep_scores F F2 i : copies F F2 -> (i < m * n)%nat -> scores_of p F2 (unit_cov (m * n) p F2 y2) i = c * scores_of p F (unit_cov n p F y) (i mod n)%nat.
Proof.
  intros HF Hi. unfold scores_of. rewrite !Rsum_sumn, <- sumR_scal. apply sumn_ext. intros j Hj. rewrite HF, (rep_unit F F2 j HF) by assumption. ring.
Qed.
Lemma rep_load F F2 j : copies F F2 -> (j < p)%nat -> loadings_of (m * n) F2 (scores_of p F2 (unit_cov (m * n) p F2 y2)) j = loadings_of n F (scores_of p F (unit_cov n p F y)) j.
Proof.
  intros HF Hj. unfold loadings_of. rewrite !Rsum_sumn. set (t := scores_of p F (unit_cov n p F y)). set (t2 := scores_of p F2 (unit_cov (m * n) p F2 y2)).
  assert (Ht : forall i, (i < m * n)%nat -> t2 i = c * t (i mod n)%nat) by (intros i Hi; now apply rep_scores).
  rewrite (sum_copies n m (fun r => c * c * (F r j * t r))) by (intros i Hi; rewrite HF, Ht by assumption; ring). rewrite (sum_copies n m (fun r => c * c * (t r * t r)) (fun i => t2 i * t2 i)) by (intros i Hi; rewrite Ht by assumption; ring).
  rewrite !sumR_scal. pose proof k_pos as HK. replace (INR m * (c * c * sumn n (fun i => F i j * t i))) with (K * sumn n (fun i => F i j * t i)) by (unfold K; ring). replace (INR m * (c * c * sumn n (fun i => t i * t i))) with (K * sumn n (fun i => t i * t i)) by (unfold K; ring).
  unfold Rdiv. rewrite Rinv_mult. transitivity ((K * / K) * (sumn n (fun i => F i j * t i) * / sumn n (fun i => t i * t i))); [ring|]. rewrite Rinv_r by lra. ring.
Qed.
Lemma rep_residual k : copies (E k) (E2 k).
Proof.
  induction k as [|k IH]; intros i j Hi Hj; [now apply Hx|]. unfold E, E2. cbn [residual]. fold (E k). fold (E2 k). rewrite (rep_scores (E k) (E2 k) i IH Hi), (rep_load (E k) (E2 k) j IH Hj), (IH i j Hi Hj). ring.
Qed.
Lemma rep_gsq k : gsq (m * n) p x2 y2 k = K * K * gsq n p x y k.
Proof. unfold gsq. rewrite <- sumR_scal. apply sumn_ext. intros j Hj. fold E. fold E2. rewrite (rep_cov (E k) (E2 k) j (rep_residual k) Hj). ring. Qed.
Lemma rep_tau k : tau (m * n) p x2 y2 k = K * tau n p x y k.
Proof.
  unfold tau. fold E. fold E2. set (t := scores_of p (E k) (unit_cov n p (E k) y)). rewrite (sum_copies n m (fun r => c * c * (t r * t r))); [rewrite sumR_scal; unfold K, t; ring|].
  intros i Hi. rewrite (rep_scores (E k) (E2 k) i (rep_residual k) Hi). unfold t. ring.
Qed.
Lemma rep_dir k j : (j < p)%nat -> dir (m * n) p x2 y2 k j = / K * dir n p x y k j.
Proof.
  intros Hj. unfold dir. rewrite <- sumR_scal. apply sumn_ext. intros l Hl. fold E. fold E2. rewrite (rep_cov (E l) (E2 l) j (rep_residual l) Hj), rep_gsq. pose proof k_pos as HK. unfold Rdiv. rewrite !Rinv_mult.
  transitivity ((K * / K) * (/ K * (cov n (E l) y j * / gsq n p x y l))); [ring|]. rewrite Rinv_r by lra. ring.
Qed.
Lemma rep_breakdown a : n <> 0%nat -> no_breakdown n p x y a -> no_breakdown (m * n) p x2 y2 a.
Proof.
  intros Hn H k Hk. destruct (H k Hk) as (j & Hj & Hne). exists j. split; [exact Hj|]. change (cov n (E k) y j <> 0) in Hne; fold E2. rewrite (rep_cov (E k) (E2 k) j (rep_residual k) Hj). pose proof k_pos. apply Rmult_integral_contrapositive_currified; [lra|exact Hne].
Qed.
(** a row c times as large has c times the scores, and contributes alike *)
Lemma rep_transform z k : sqrt (gsq (m * n) p x2 y2 k) * sumn p (fun j => c * z j * dir (m * n) p x2 y2 k j) = c * (sqrt (gsq n p x y k) * sumn p (fun j => z j * dir n p x y k j)).
Proof.
  rewrite rep_gsq. pose proof k_pos as HK. rewrite sqrt_mult_alt by nra. rewrite sqrt_square by lra. rewrite (sumn_ext p _ (fun j => (c * / K) * (z j * dir n p x y k j))) by (intros j Hj; rewrite rep_dir by exact Hj; ring).
  rewrite sumR_scal. field. lra.
Qed.
Lemma rep_contribution z k : sumn p (fun j => c * z j * dir (m * n) p x2 y2 k j) * (gsq (m * n) p x2 y2 k / tau (m * n) p x2 y2 k) = c * (sumn p (fun j => z j * dir n p x y k j) * (gsq n p x y k / tau n p x y k)).
Proof.
  rewrite rep_gsq, rep_tau. pose proof k_pos as HK. rewrite (sumn_ext p _ (fun j => (c * / K) * (z j * dir n p x y k j))) by (intros j Hj; rewrite rep_dir by exact Hj; ring).
  rewrite sumR_scal. unfold Rdiv. rewrite Rinv_mult. set (S := sumn p _). transitivity ((K * / K) * (K * / K) * (c * (S * (gsq n p x y k * / tau n p x y k)))); [ring|]. rewrite Rinv_r by lra. ring.
Qed.
End Rep.

(** * The objects *)
(** B holds the rows of A, all of them m times *)
Definition repeated (m : nat) (A B : mat R) : Prop := wf B /\ nr B = (m * nr A)%nat /\ nc B = nc A /\ forall i j, (i < nr B)%nat -> (j < nc A)%nat -> entry B i j = entry A (i mod nr A)%nat j.
(** Z, preprocessed with the statistics of the training predictors X *)
Definition prepared_as (pp : preproc) (X W : mat R) : mat R := mk (nr W) (nc W) (fun i j => match pp with
  | PP_CENTER => entry W i j - Rmean (nr X) (fun k => entry X k j)
  | PP_STANDARDIZE => (entry W i j - Rmean (nr X) (fun k => entry X k j)) / sqrt (Rvar (nr X) (fun k => entry X k j))
  | _ => entry W i j end).
Definition growth (pp : preproc) (n m : nat) : R := match pp with PP_STANDARDIZE => sqrt (INR m * INR n - 1) / sqrt (INR m * INR (n - 1)) | _ => 1 end.

Section Stats.
Variables (A B : mat R) (m : nat).
Hypotheses (Hm : m <> 0%nat) (Hn : nr A <> 0%nat) (HB : repeated m A B).
Lemma repeated_mean j : (j < nc A)%nat -> Rmean (nr B) (fun k => entry B k j) = Rmean (nr A) (fun k => entry A k j).
Proof.
  intros Hj. destruct HB as (_ & RB & _ & EB). unfold Rmean. rewrite !Rsum_sumn, RB. rewrite (sum_copies (nr A) m (fun r => entry A r j)) by (intros i Hi; apply EB; [lia|exact Hj]).
  rewrite mult_INR. assert (0 < INR m) by (apply lt_0_INR; lia). assert (0 < INR (nr A)) by (apply lt_0_INR; lia). field. split; lra.
Qed.
Lemma repeated_var j : (j < nc A)%nat -> (2 <= nr A)%nat -> Rvar (nr B) (fun k => entry B k j) = Rvar (nr A) (fun k => entry A k j) * (INR m * INR (nr A - 1)) / (INR m * INR (nr A) - 1).
Proof.
  intros Hj H2. unfold Rvar. rewrite repeated_mean by exact Hj. destruct HB as (_ & RB & _ & EB). rewrite !Rsum_sumn, RB. set (mu := Rmean _ _).
  rewrite (sum_copies (nr A) m (fun r => (entry A r j - mu) * (entry A r j - mu))) by (intros i Hi; rewrite EB by (lia || exact Hj); reflexivity).
  assert (0 < INR m) by (apply lt_0_INR; lia). assert (Q : 1 <= INR m) by (apply (le_INR 1); lia). assert (P2 : 2 <= INR (nr A)) by (apply (le_INR 2); lia).
  rewrite !minus_INR by nia. rewrite mult_INR. change (INR 1) with 1. field. split; nra.
Qed.
End Stats.

Lemma growth_pos pp n m : m <> 0%nat -> (pp = PP_STANDARDIZE -> (2 <= n)%nat) -> 0 < growth pp n m.
Proof.
  intros Hm Hn. destruct pp; cbn [growth]; try lra. specialize (Hn eq_refl).
  assert (Q : 1 <= INR m) by (apply (le_INR 1); lia). assert (P2 : 2 <= INR n) by (apply (le_INR 2); lia). rewrite minus_INR by lia. change (INR 1) with 1.
  apply Rdiv_lt_0_compat; apply sqrt_lt_R0; nra.
Qed.
Lemma repeated_sd (A B : mat R) m j : m <> 0%nat -> repeated m A B -> (j < nc A)%nat -> (2 <= nr A)%nat ->
  sqrt (Rvar (nr B) (fun k => entry B k j)) = sqrt (Rvar (nr A) (fun k => entry A k j)) * / growth PP_STANDARDIZE (nr A) m.
Proof.
  intros Hm HB Hj H2. rewrite (repeated_var A B m Hm ltac:(lia) HB j Hj H2). cbn [growth].
  assert (Q : 1 <= INR m) by (apply (le_INR 1); lia). assert (P2 : 2 <= INR (nr A)) by (apply (le_INR 2); lia). assert (M1 : INR (nr A - 1) = INR (nr A) - 1) by (rewrite minus_INR by lia; reflexivity).
  assert (HV : 0 <= Rvar (nr A) (fun k => entry A k j)).
  { unfold Rvar. rewrite Rsum_sumn. apply Rmult_le_pos; [apply sumR_nonneg; intros i Hi; apply Rle_0_sqr|]. left. apply Rinv_0_lt_compat. rewrite M1. lra. }
  unfold Rdiv at 1. rewrite Rmult_assoc. rewrite sqrt_mult_alt by exact HV. f_equal. fold (Rdiv (INR m * INR (nr A - 1)) (INR m * INR (nr A) - 1)). rewrite sqrt_div_alt by nra.
  unfold Rdiv. now rewrite Rinv_mult, Rinv_inv, Rmult_comm.
Qed.
Lemma repeated_prepared pp (A B : mat R) m i j : m <> 0%nat -> nr A <> 0%nat -> repeated m A B -> preparable pp A -> (i < nr B)%nat -> (j < nc A)%nat ->
  prepared pp B i j = growth pp (nr A) m * prepared pp A (i mod nr A)%nat j.
Proof.
  intros Hm Hn HB HP Hi Hj. pose proof HB as (_ & _ & _ & EB). pose proof (repeated_mean A B m Hm Hn HB j Hj) as HM. destruct pp; cbn [prepared]; rewrite ?HM, EB by assumption; [cbn; ring|cbn; ring| |cbn; ring].
  destruct HP as [H2 _]. rewrite (repeated_sd A B m j Hm HB Hj H2). pose proof (growth_pos PP_STANDARDIZE (nr A) m Hm (fun _ => H2)) as Hg.
  unfold Rdiv. rewrite Rinv_mult, Rinv_inv. ring.
Qed.
Lemma repeated_preparable pp (A B : mat R) m : m <> 0%nat -> nr A <> 0%nat -> repeated m A B -> preparable pp A -> preparable pp B.
Proof.
  intros Hm Hn (_ & RB & CB & EB). destruct pp; cbn [preparable]; auto; intros HP; [rewrite RB; nia|]. destruct HP as [H2 HP]. split; [rewrite RB; nia|].
  intros j Hj HC. rewrite CB in Hj. apply (HP j Hj). intros i k Hi Hk.
  assert (Hr : forall r, (r < nr A)%nat -> (r < nr B)%nat) by (intros r Hr; rewrite RB; nia).
  rewrite <- (Nat.mod_small i (nr A)), <- (Nat.mod_small k (nr A)) by assumption. rewrite <- !EB by auto. apply HC; auto.
Qed.

Section Trained.
Variables (pp : preproc) (X Y X2 Y2 : mat R) (a m : nat).
Let n := nr X.
Let p := nc X.
Hypotheses (WX : wf X) (WY : wf Y) (Hn : n <> 0%nat) (Hp : p <> 0%nat) (RY : nr Y = n) (CY : nc Y = 1%nat) (Ha : a <> 0%nat) (PX : preparable pp X) (PY : preparable pp Y).
Hypothesis Hnb : no_breakdown n p (prepared pp X) (fun i => prepared pp Y i 0) a.
Hypotheses (Hm : m <> 0%nat) (HX : repeated m X X2) (HY : repeated m Y Y2).
Let c := growth pp n m.
Lemma c_pos : 0 < c.
Proof. apply growth_pos; [exact Hm|]. intros ->. exact (proj1 PX). Qed.
Lemma x_copies i j : (i < m * n)%nat -> (j < p)%nat -> prepared pp X2 i j = c * prepared pp X (i mod n)%nat j.
Proof. intros Hi Hj. apply repeated_prepared; auto. destruct HX as (_ & R2 & _). now rewrite R2. Qed.
Lemma y_copies i : (i < m * n)%nat -> prepared pp Y2 i 0 = c * prepared pp Y (i mod n)%nat 0.
Proof.
  intros Hi. unfold c. rewrite <- RY. apply repeated_prepared; auto; [congruence| |lia]. destruct HY as (_ & R2 & _). rewrite R2. unfold n in *. now rewrite RY.
Qed.
Lemma sizes : nr X2 = (m * n)%nat /\ nc X2 = p /\ nr Y2 = nr X2 /\ nc Y2 = 1%nat /\ wf X2 /\ wf Y2 /\ nr X2 <> 0%nat.
Proof. destruct HX as (A1 & A2 & A3 & _), HY as (B1 & B2 & B3 & _). unfold n, p in *. repeat match goal with |- _ /\ _ => split end; try congruence; try assumption. nia. Qed.
Lemma rep_nb : no_breakdown (nr X2) (nc X2) (prepared pp X2) (fun i => prepared pp Y2 i 0) a.
Proof.
  destruct sizes as (R2 & C2 & _). rewrite R2, C2. apply (rep_breakdown n p m c (prepared pp X) (prepared pp X2) (fun i => prepared pp Y i 0) (fun i => prepared pp Y2 i 0)); auto using c_pos, x_copies, y_copies.
Qed.
(** predictions for rows c times as large are the same *)
Lemma rep_predicted z z2 : (forall j, (j < p)%nat -> z2 j = c * z j) -> predicted pp X2 Y2 a z2 = predicted pp X Y a z.
Proof.
  intros Hz. destruct sizes as (R2 & C2 & RY2 & CY2 & _). pose proof c_pos as Hc. unfold predicted. rewrite R2, C2. fold n p.
  rewrite (sumn_ext a _ (fun k => c * (sumn p (fun j => z j * dir n p (prepared pp X) (fun i => prepared pp Y i 0) k j) * (gsq n p (prepared pp X) (fun i => prepared pp Y i 0) k / tau n p (prepared pp X) (fun i => prepared pp Y i 0) k)))).
  2:{ intros k Hk. rewrite <- (rep_contribution n p m c (prepared pp X) (prepared pp X2) (fun i => prepared pp Y i 0) (fun i => prepared pp Y2 i 0)) by auto using c_pos, x_copies, y_copies. f_equal. apply sumn_ext. intros j Hj. now rewrite Hz. }
  rewrite sumR_scal. assert (HYn : nr Y <> 0%nat) by congruence. f_equal.
  - transitivity (sumn a (fun k => sumn p (fun j => z j * dir n p (prepared pp X) (fun i => prepared pp Y i 0) k j) * (gsq n p (prepared pp X) (fun i => prepared pp Y i 0) k / tau n p (prepared pp X) (fun i => prepared pp Y i 0) k)) * (c * own_sd pp Y2 0)); [ring|]. f_equal.
    unfold c. destruct pp; cbn [own_sd growth]; try ring. rewrite (repeated_sd Y Y2 m 0 Hm HY) by (exact (proj1 PY) || lia). fold n. rewrite RY. change (sqrt (INR m * INR n - 1) / sqrt (INR m * INR (n - 1))) with (growth PP_STANDARDIZE n m).
    pose proof (growth_pos PP_STANDARDIZE n m Hm (fun _ => proj1 PX)). field. lra.
  - assert (HM : own_mean Y2 0 = own_mean Y 0) by (unfold own_mean; apply (repeated_mean Y Y2 m Hm HYn HY); lia). unfold back_mean. now rewrite HM.
Qed.
Lemma prepared_copies W i j : (i < nr W)%nat -> (j < p)%nat -> nc W = p -> entry (prepared_as pp X2 W) i j = c * entry (prepared_as pp X W) i j.
Proof.
  intros Hi Hj HW. unfold prepared_as. rewrite !entry_mk by lia. pose proof (repeated_mean X X2 m Hm Hn HX j Hj) as HM. unfold c. destruct pp; cbn [growth]; rewrite ?HM; try ring.
  rewrite (repeated_sd X X2 m j Hm HX Hj (proj1 PX)). fold n. change (sqrt (INR m * INR n - 1) / sqrt (INR m * INR (n - 1))) with (growth PP_STANDARDIZE n m). unfold Rdiv. rewrite Rinv_mult, Rinv_inv. ring.
Qed.
Lemma rep_pls1 lstsq (s1 s2 : pls_st (pls1_st R) R) : p_preprocessing s1 = pp -> p_num_components s1 = Z.of_nat a -> p_preprocessing s2 = pp -> p_num_components s2 = Z.of_nat a ->
  exists t1 t2, initialize (pls1 lstsq) s1 (Some X) (Some Y) = (t1, Ok None) /\ initialize (pls1 lstsq) s2 (Some X2) (Some Y2) = (t2, Ok None) /\
    (forall W, wf W -> nc W = p -> nr W <> 0%nat -> exists V, snd (predict (pls1 lstsq) t1 (prepared_as pp X W)) = Ok V /\ snd (predict (pls1 lstsq) t2 (prepared_as pp X2 W)) = Ok V) /\
    (pp <> PP_STANDARDIZE -> forall Z, wf Z -> nc Z = p -> nr Z <> 0%nat -> exists S V,
      snd (transform (pls1 lstsq) t1 Z) = Ok S /\ snd (transform (pls1 lstsq) t2 Z) = Ok S /\ snd (predict (pls1 lstsq) t1 Z) = Ok V /\ snd (predict (pls1 lstsq) t2 Z) = Ok V).
Proof.
  intros Hp1 Hn1 Hp2 Hn2. destruct sizes as (R2 & C2 & RY2 & CY2 & WX2 & WY2 & N2).
  destruct (pls1_public pp X Y a WX WY Hn Hp RY CY Ha PX PY Hnb lstsq s1 Hp1 Hn1) as (t1 & E1 & Z1).
  destruct (pls1_public pp X2 Y2 a WX2 WY2) with (lstsq := lstsq) (s0 := s2) as (t2 & E2 & Z2); try assumption; [congruence|now apply (repeated_preparable pp X X2 m)|apply (repeated_preparable pp Y Y2 m); auto; congruence|exact rep_nb|].
  exists t1, t2. split; [exact E1|]. split; [exact E2|]. split.
  - intros W WW CW RW. assert (Wf : forall A, wf (prepared_as pp A W)) by (intros A; apply mk_wf). destruct (Z1 (prepared_as pp X W) (Wf X)) as [_ B1]; [exact CW|exact RW|]. destruct (Z2 (prepared_as pp X2 W) (Wf X2)) as [_ B2]; [now rewrite C2|exact RW|].
    eexists. split; [exact B1|]. rewrite B2. unfold prepared_as at 1 3. rewrite !nr_mk. f_equal. apply mk_ext. intros i j Hi Hj. apply rep_predicted. intros l Hl. now apply prepared_copies.
  - intros Hs Z WZ CZ RZ. destruct (Z1 Z WZ CZ RZ) as [A1 B1]. destruct (Z2 Z WZ) as [A2 B2]; [congruence|exact RZ|]. assert (C1 : c = 1) by (unfold c; destruct pp; try reflexivity; now elim Hs).
    eexists. eexists. split; [exact A1|]. split; [rewrite A2|split; [exact B1|rewrite B2]]; f_equal; apply mk_ext; intros i k Hi Hk.
    + rewrite R2, C2. fold n p. transitivity (c * (sqrt (gsq n p (prepared pp X) (fun i => prepared pp Y i 0) k) * sumn p (fun j => entry Z i j * dir n p (prepared pp X) (fun i => prepared pp Y i 0) k j))); [|rewrite C1; ring].
      rewrite <- (rep_transform n p m c (prepared pp X) (prepared pp X2) (fun i => prepared pp Y i 0) (fun i => prepared pp Y2 i 0)) by auto using c_pos, x_copies, y_copies. f_equal. apply sumn_ext. intros j Hj. rewrite C1. ring.
    + apply rep_predicted. intros j Hj. rewrite C1. ring.
Qed.
Lemma rep_simpls eig (s1 s2 : pls_st (simpls_st R) R) : eig_one eig -> (si_coef (p_own s1) <= 0)%Z -> (si_coef (p_own s2) <= 0)%Z ->
  p_preprocessing s1 = pp -> p_num_components s1 = Z.of_nat a -> p_preprocessing s2 = pp -> p_num_components s2 = Z.of_nat a ->
  exists t1 t2, initialize (simpls eig) s1 (Some X) (Some Y) = (t1, Ok None) /\ initialize (simpls eig) s2 (Some X2) (Some Y2) = (t2, Ok None) /\
    (forall W, wf W -> nc W = p -> nr W <> 0%nat -> exists V, snd (predict (simpls eig) t1 (prepared_as pp X W)) = Ok V /\ snd (predict (simpls eig) t2 (prepared_as pp X2 W)) = Ok V) /\
    (pp <> PP_STANDARDIZE -> forall Z, wf Z -> nc Z = p -> nr Z <> 0%nat -> exists V, snd (predict (simpls eig) t1 Z) = Ok V /\ snd (predict (simpls eig) t2 Z) = Ok V).
Proof.
  intros Heig Hc1 Hc2 Hp1 Hn1 Hp2 Hn2. destruct sizes as (R2 & C2 & RY2 & CY2 & WX2 & WY2 & N2).
  destruct (simpls_public pp X Y a WX WY Hn Hp RY CY Ha PX PY Hnb eig s1 Heig Hp1 Hn1 Hc1) as (t1 & E1 & Z1).
  destruct (simpls_public pp X2 Y2 a WX2 WY2) with (eig := eig) (s0 := s2) as (t2 & E2 & Z2); try assumption; [congruence|now apply (repeated_preparable pp X X2 m)|apply (repeated_preparable pp Y Y2 m); auto; congruence|exact rep_nb|].
  exists t1, t2. split; [exact E1|]. split; [exact E2|]. split.
  - intros W WW CW RW. assert (Wf : forall A, wf (prepared_as pp A W)) by (intros A; apply mk_wf). pose proof (Z1 (prepared_as pp X W) (Wf X) CW RW) as B1. pose proof (Z2 (prepared_as pp X2 W) (Wf X2) ltac:(now rewrite C2) RW) as B2.
    eexists. split; [exact B1|]. rewrite B2. unfold prepared_as at 1 3. rewrite !nr_mk. f_equal. apply mk_ext. intros i j Hi Hj. apply rep_predicted. intros l Hl. now apply prepared_copies.
  - intros Hs Z WZ CZ RZ. pose proof (Z1 Z WZ CZ RZ) as B1. pose proof (Z2 Z WZ ltac:(congruence) RZ) as B2. assert (C1 : c = 1) by (unfold c; destruct pp; try reflexivity; now elim Hs).
    eexists. split; [exact B1|rewrite B2]. f_equal. apply mk_ext. intros i k Hi Hk. apply rep_predicted. intros j Hj. rewrite C1. ring.
Qed.
End Trained.

(** * C108 *)
(** Two PLS1 objects, one trained on (X, Y), the other on a training set that has every row of it m times.  With no or
    mean-centering preprocessing they answer alike.  With standardising, which divides by n - 1, the published models differ,
    but predictions for new measurements, preprocessed with the statistics of the respective training set, are the same.
    (breakdown: some covariance is not zero at each of the a steps, as in C51.) *)
Theorem C108_pls1 lstsq (s1 s2 : pls_st (pls1_st R) R) (X Y X2 Y2 : mat R) (a m : nat) (pp : preproc) : let n := nr X in let p := nc X in
  p_preprocessing s1 = pp -> p_num_components s1 = Z.of_nat a -> p_preprocessing s2 = pp -> p_num_components s2 = Z.of_nat a ->
  wf X -> wf Y -> n <> 0%nat -> p <> 0%nat -> nr Y = n -> nc Y = 1%nat -> a <> 0%nat -> preparable pp X -> preparable pp Y ->
  no_breakdown n p (prepared pp X) (fun i => prepared pp Y i 0) a ->
  m <> 0%nat -> repeated m X X2 -> repeated m Y Y2 ->
  exists t1 t2, initialize (pls1 lstsq) s1 (Some X) (Some Y) = (t1, Ok None) /\ initialize (pls1 lstsq) s2 (Some X2) (Some Y2) = (t2, Ok None) /\
    (forall W, wf W -> nc W = p -> nr W <> 0%nat -> exists V, snd (predict (pls1 lstsq) t1 (prepared_as pp X W)) = Ok V /\ snd (predict (pls1 lstsq) t2 (prepared_as pp X2 W)) = Ok V) /\
    (pp <> PP_STANDARDIZE -> forall Z, wf Z -> nc Z = p -> nr Z <> 0%nat -> exists S V,
      snd (transform (pls1 lstsq) t1 Z) = Ok S /\ snd (transform (pls1 lstsq) t2 Z) = Ok S /\ snd (predict (pls1 lstsq) t1 Z) = Ok V /\ snd (predict (pls1 lstsq) t2 Z) = Ok V).
Proof. intros n p Hp1 Hn1 Hp2 Hn2 WX WY Hn Hp RY CY Ha PX PY Hnb Hm HX HY. now apply (rep_pls1 pp X Y X2 Y2 a m). Qed.
(** The same for the predictions of SIMPLS (with every weight kept, and an eigenvector routine that normalises 1x1 matrices' vectors). *)
Theorem C108_simpls eig (s1 s2 : pls_st (simpls_st R) R) (X Y X2 Y2 : mat R) (a m : nat) (pp : preproc) : let n := nr X in let p := nc X in
  eig_one eig -> (si_coef (p_own s1) <= 0)%Z -> (si_coef (p_own s2) <= 0)%Z ->
  p_preprocessing s1 = pp -> p_num_components s1 = Z.of_nat a -> p_preprocessing s2 = pp -> p_num_components s2 = Z.of_nat a ->
  wf X -> wf Y -> n <> 0%nat -> p <> 0%nat -> nr Y = n -> nc Y = 1%nat -> a <> 0%nat -> preparable pp X -> preparable pp Y ->
  no_breakdown n p (prepared pp X) (fun i => prepared pp Y i 0) a ->
  m <> 0%nat -> repeated m X X2 -> repeated m Y Y2 ->
  exists t1 t2, initialize (simpls eig) s1 (Some X) (Some Y) = (t1, Ok None) /\ initialize (simpls eig) s2 (Some X2) (Some Y2) = (t2, Ok None) /\
    (forall W, wf W -> nc W = p -> nr W <> 0%nat -> exists V, snd (predict (simpls eig) t1 (prepared_as pp X W)) = Ok V /\ snd (predict (simpls eig) t2 (prepared_as pp X2 W)) = Ok V) /\
    (pp <> PP_STANDARDIZE -> forall Z, wf Z -> nc Z = p -> nr Z <> 0%nat -> exists V, snd (predict (simpls eig) t1 Z) = Ok V /\ snd (predict (simpls eig) t2 Z) = Ok V).
Proof. intros n p Heig Hc1 Hc2 Hp1 Hn1 Hp2 Hn2 WX WY Hn Hp RY CY Ha PX PY Hnb Hm HX HY. now apply (rep_simpls pp X Y X2 Y2 a m). Qed.
Print Assumptions C108_pls1.
Print Assumptions C108_simpls.
(** The data of C51, twice *)
Example C108_ex : let X := Mat 2 2 [[3;0];[0;4]] in let Y := Mat 2 1 [[1];[1]] in let lstsq := fun _ _ => Err LinAlgError in
  let X2 := Mat 4 2 [[3;0];[0;4];[3;0];[0;4]] in let Y2 := Mat 4 1 [[1];[1];[1];[1]] in
  let obj := PlsSt 2 PP_NONE false [] [] None None (c_new (pls1 lstsq)) in
  exists t1 t2 V, initialize (pls1 lstsq) obj (Some X) (Some Y) = (t1, Ok None) /\ initialize (pls1 lstsq) obj (Some X2) (Some Y2) = (t2, Ok None) /\
    snd (predict (pls1 lstsq) t1 (Mat 1 2 [[5;10]])) = Ok V /\ snd (predict (pls1 lstsq) t2 (Mat 1 2 [[5;10]])) = Ok V.
Proof.
  cbv zeta. destruct C51_ex as (WX & WY & Hnb).
  destruct (C108_pls1 (fun _ _ => Err LinAlgError) (PlsSt 2 PP_NONE false [] [] None None (c_new (pls1 (fun _ _ => Err LinAlgError))))
    (PlsSt 2 PP_NONE false [] [] None None (c_new (pls1 (fun _ _ => Err LinAlgError)))) (Mat 2 2 [[3;0];[0;4]]) (Mat 2 1 [[1];[1]]) (Mat 4 2 [[3;0];[0;4];[3;0];[0;4]]) (Mat 4 1 [[1];[1];[1];[1]]) 2 2 PP_NONE) as (t1 & t2 & E1 & E2 & _ & HZ);
    try (exact WX || exact WY || exact Hnb || exact I || reflexivity || (cbn; lia)).
  - split; [split; [reflexivity|repeat constructor]|]. split; [reflexivity|]. split; [reflexivity|]. intros i j Hi Hj. destruct i as [|[|[|[|i]]]]; [| | | |cbn in Hi; lia]; (destruct j as [|[|j]]; [reflexivity|reflexivity|cbn in Hj; lia]).
  - split; [split; [reflexivity|repeat constructor]|]. split; [reflexivity|]. split; [reflexivity|]. intros i j Hi Hj. destruct i as [|[|[|[|i]]]]; [| | | |cbn in Hi; lia]; (destruct j as [|j]; [reflexivity|cbn in Hj; lia]).
  - destruct (HZ ltac:(discriminate) (Mat 1 2 [[5;10]])) as (S & V & _ & _ & A1 & A2); [split; [reflexivity|repeat constructor]|reflexivity|cbn; lia|].
    exists t1, t2, V. auto.
Qed.
