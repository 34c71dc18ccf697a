(** DIPLS on two domains with the same covariance matrix (for P_DIPLS.v). *)
From Coq Require Import List ZArith Lia Bool Arith Reals Lra FunctionalExtensionality.
From Verif Require Import Base Num Mat M_Matrix M_Factory M_Helper M_Loop M_Utils M_Linalg M_Transform M_PLSBase M_PLS M_PLS2
  S_Matrix L_Base L_Mat L_Matrix L_MatR L_Linalg L_Alg L_Transform L_Deflate P_Matrix P_Linalg P_Helper P_PLSPrep P_PLS1 L_Krylov L_Public P_CCAFilter P_NIPALS2 P_KernelPLS P_VCPLS L_DIPLS.
Import ListNotations.
Local Open Scope R_scope.

(** * Deflation of a cross product matrix *)
Definition gw (p : nat) (G : nat -> nat -> R) (w : nat -> R) (i : nat) : R := sumn p (fun l => G i l * w l).
Definition wgw (p : nat) (G : nat -> nat -> R) (w : nat -> R) : R := sumn p (fun i => w i * gw p G w i).
Lemma gram_t m p E w i : sumn m (fun k => E k i * scores_of p E w k) = gw p (gram m E) w i.
Proof.
  unfold gw, gram, scores_of. rewrite (sumn_ext m _ (fun k => sumn p (fun l => E k i * E k l * w l))) by (intros; rewrite Rsum_sumn, <- sumR_scal; apply sumn_ext; intros; ring).
  rewrite sumR_swap. apply sumn_ext. intros l Hl. rewrite Rsum_sumn, sumR_scal_r. reflexivity.
Qed.
Lemma gram_tau m p E w : sumn m (fun k => scores_of p E w k * scores_of p E w k) = wgw p (gram m E) w.
Proof.
  unfold wgw. rewrite (sumn_ext p _ (fun i => sumn m (fun k => w i * (E k i * scores_of p E w k)))) by (intros; rewrite sumR_scal, gram_t; reflexivity).
  rewrite sumR_swap. apply sumn_ext. intros k Hk. unfold scores_of at 1. rewrite Rsum_sumn, <- sumR_scal_r. apply sumn_ext. intros; ring.
Qed.
Lemma gram_next m p E w (E' : nat -> nat -> R) i j : sumn m (fun k => scores_of p E w k * scores_of p E w k) <> 0 ->
  (forall k l, (k < m)%nat -> E' k l = E k l - scores_of p E w k * loadings_of m E (scores_of p E w) l) ->
  gram m E' i j = gram m E i j - gw p (gram m E) w i * gw p (gram m E) w j / wgw p (gram m E) w.
Proof.
  intros Ht HE. rewrite <- !gram_t, <- gram_tau. set (t := scores_of p E w) in *. unfold gram. rewrite !Rsum_sumn.
  assert (Hq : forall l, loadings_of m E t l = sumn m (fun k => E k l * t k) / sumn m (fun k => t k * t k)) by (intros; unfold loadings_of; now rewrite !Rsum_sumn).
  rewrite (sumn_ext m _ (fun k => E k i * E k j - (E k i * t k * loadings_of m E t j + (E k j * t k * loadings_of m E t i - t k * t k * (loadings_of m E t i * loadings_of m E t j))))).
  2:{ intros k Hk. rewrite !HE by exact Hk. ring. }
  rewrite sumR_minus, sumR_plus, sumR_minus, !sumR_scal_r, !Hq. field. exact Ht.
Qed.
(** Equal covariances stay equal when both domains are deflated with the same weights. *)
Lemma gram_kept p (ms mt : nat) (c : R) (E F E' F' : nat -> nat -> R) w : c <> 0 ->
  sumn ms (fun k => scores_of p E w k * scores_of p E w k) <> 0 -> sumn mt (fun k => scores_of p F w k * scores_of p F w k) <> 0 ->
  (forall k l, E' k l = E k l - scores_of p E w k * loadings_of ms E (scores_of p E w) l) ->
  (forall k l, F' k l = F k l - scores_of p F w k * loadings_of mt F (scores_of p F w) l) ->
  (forall i j, (i < p)%nat -> (j < p)%nat -> gram mt F i j = c * gram ms E i j) ->
  forall i j, (i < p)%nat -> (j < p)%nat -> gram mt F' i j = c * gram ms E' i j.
Proof.
  intros Hc Hs Ht HE HF HG i j Hi Hj. rewrite (gram_next ms p E w E' i j Hs) by auto. rewrite (gram_next mt p F w F' i j Ht) by auto.
  assert (Q : forall l, (l < p)%nat -> gw p (gram mt F) w l = c * gw p (gram ms E) w l). { intros l Hl. unfold gw. rewrite <- sumR_scal. apply sumn_ext. intros m Hm. rewrite HG by assumption. ring. }
  assert (Q2 : wgw p (gram mt F) w = c * wgw p (gram ms E) w). { unfold wgw. rewrite <- sumR_scal. apply sumn_ext. intros m Hm. rewrite Q by assumption. ring. }
  rewrite !Q, Q2, HG by assumption. rewrite gram_tau in Hs. field. now split.
Qed.
Lemma tau_kept p ms mt c E F w : (forall i j, (i < p)%nat -> (j < p)%nat -> gram mt F i j = c * gram ms E i j) ->
  sumn mt (fun k => scores_of p F w k * scores_of p F w k) = c * sumn ms (fun k => scores_of p E w k * scores_of p E w k).
Proof.
  intros HG. rewrite !gram_tau. unfold wgw. rewrite <- sumR_scal. apply sumn_ext. intros i Hi. unfold gw.
  rewrite (sumn_ext p _ (fun l => c * (gram ms E i l * w l))) by (intros; rewrite HG by assumption; ring). rewrite sumR_scal. ring.
Qed.
Lemma delta_inverse p : inverse_pair p delta delta.
Proof.
  intros k l Hk Hl. assert (Q : Rsum p (fun m => delta k m * delta m l) = delta k l); [|now split].
  rewrite Rsum_sumn. rewrite (sumR_single p k); [unfold delta; rewrite Nat.eqb_refl; ring|exact Hk|]. intros m Hm Hne. unfold delta at 1. rewrite (proj2 (Nat.eqb_neq k m)) by congruence. ring.
Qed.
(** scaling does not change the direction *)
Lemma unit_scale p (v u : nat -> R) c j : 0 < c -> (forall l, (l < p)%nat -> v l = c * u l) -> (j < p)%nat -> v j / sqrt (Rsum p (fun l => v l * v l)) = u j / sqrt (Rsum p (fun l => u l * u l)).
Proof.
  intros Hc Hv Hj. rewrite !Rsum_sumn. rewrite (sumn_ext p (fun l => v l * v l) (fun l => c * c * (u l * u l))) by (intros; rewrite Hv by assumption; ring). rewrite sumR_scal.
  rewrite sqrt_mult; [|nra|apply sumR_nonneg; intros; nra]. rewrite sqrt_square by lra. rewrite Hv by exact Hj.
  destruct (Req_dec (sqrt (sumn p (fun l => u l * u l))) 0) as [Z|Z]; [rewrite Z, Rmult_0_r; unfold Rdiv; rewrite Rinv_0; ring|]. field. split; [exact Z|lra].
Qed.

Section Invariant.
Variables (n ns nt p a : nat) (zs zt : Z) (lambda : R) (X Xs Xt : nat -> nat -> R) (y : nat -> R) (C : cols).
Hypotheses (Hzs : (zs <> 1)%Z) (Hzt : (zt <> 1)%Z).
Hypothesis Hcov : forall i j, (i < p)%nat -> (j < p)%nat -> gram ns Xs i j / (IZR zs - 1) = gram nt Xt i j / (IZR zt - 1).
Let c := (IZR zt - 1) / (IZR zs - 1).
Lemma zs1 : IZR zs - 1 <> 0. Proof. intros Q. apply Hzs, eq_IZR. lra. Qed.
Lemma zt1 : IZR zt - 1 <> 0. Proof. intros Q. apply Hzt, eq_IZR. lra. Qed.
Lemma c_nz : c <> 0.
Proof. unfold c. apply Rmult_integral_contrapositive. split; [apply zt1|apply Rinv_neq_0_compat, zs1]. Qed.
Lemma cov_c A B : A / (IZR zs - 1) = B / (IZR zt - 1) <-> B = c * A.
Proof.
  pose proof zs1. pose proof zt1. unfold c. split; intros Q.
  - replace ((IZR zt - 1) / (IZR zs - 1) * A) with ((IZR zt - 1) * (A / (IZR zs - 1))) by (field; assumption). rewrite Q. field. assumption.
  - rewrite Q. field. split; assumption.
Qed.
Section Kept.
Hypothesis HTs : forall l i, (l < a)%nat -> kTs C i l = scores_of p (left Xs (kTs C) (kPs C) l) (fun j => kW C j l) i.
Hypothesis HPs : forall l j, (l < a)%nat -> kPs C j l = loadings_of ns (left Xs (kTs C) (kPs C) l) (fun i => kTs C i l) j.
Hypothesis Hts : forall l, (l < a)%nat -> Rsum ns (fun i => kTs C i l * kTs C i l) <> 0.
Hypothesis HTt : forall l i, (l < a)%nat -> kTt C i l = scores_of p (left Xt (kTt C) (kPt C) l) (fun j => kW C j l) i.
Hypothesis HPt : forall l j, (l < a)%nat -> kPt C j l = loadings_of nt (left Xt (kTt C) (kPt C) l) (fun i => kTt C i l) j.
Hypothesis Htt : forall l, (l < a)%nat -> Rsum nt (fun i => kTt C i l * kTt C i l) <> 0.
Lemma left_step (X0 T P : nat -> nat -> R) m k w : (forall i, T i k = scores_of p (left X0 T P k) w i) -> (forall j, P j k = loadings_of m (left X0 T P k) (fun i => T i k) j) ->
  forall i j, left X0 T P (S k) i j = left X0 T P k i j - scores_of p (left X0 T P k) w i * loadings_of m (left X0 T P k) (scores_of p (left X0 T P k) w) j.
Proof.
  intros HT HP i j. assert (ET : scores_of p (left X0 T P k) w = fun i => T i k) by (extensionality q; symmetry; apply HT).
  rewrite ET, <- HP. unfold left. rewrite !Rsum_sumn, sumR_S. ring.
Qed.
Lemma cov_kept k : (k <= a)%nat -> forall i j, (i < p)%nat -> (j < p)%nat -> gram nt (left Xt (kTt C) (kPt C) k) i j = c * gram ns (left Xs (kTs C) (kPs C) k) i j.
Proof.
  induction k as [|k IH]; intros Hk i j Hi Hj.
  - assert (E0 : forall Z T P, left Z T P 0 = Z) by (intros; extensionality u; extensionality v; unfold left; cbn [Rsum]; ring). rewrite !E0. now apply cov_c, Hcov.
  - apply (gram_kept p ns nt c (left Xs (kTs C) (kPs C) k) (left Xt (kTt C) (kPt C) k) _ _ (fun j => kW C j k)); try assumption.
    + apply c_nz.
    + intros Q. apply (Hts k ltac:(lia)). rewrite <- Q, Rsum_sumn. apply sumn_ext. intros. now rewrite HTs by lia.
    + intros Q. apply (Htt k ltac:(lia)). rewrite <- Q, Rsum_sumn. apply sumn_ext. intros. now rewrite HTt by lia.
    + apply left_step; intros; [apply HTs|apply HPs]; lia.
    + apply left_step; intros; [apply HTt|apply HPt]; lia.
    + apply IH. lia.
Qed.
Lemma shrink_id k i j : (k <= a)%nat -> (i < p)%nat -> (j < p)%nat -> shrink_at n ns nt zs zt lambda Xs Xt y C k i j = delta i j.
Proof. intros Hk Hi Hj. unfold shrink_at, shrink. rewrite (proj2 (cov_c _ _) (cov_kept k Hk i j Hi Hj)). ring. Qed.
End Kept.

Section Comp.
Hypothesis HC : forall l, (l < a)%nat -> component n ns nt p zs zt lambda X Xs Xt y C l.
Let T := kT C. Let P := kP C. Let W := kW C.
Lemma comp_shrink k i j : (k < a)%nat -> (i < p)%nat -> (j < p)%nat -> shrink_at n ns nt zs zt lambda Xs Xt y C k i j = delta i j.
Proof. intros Hk. apply shrink_id; try lia; intros; now apply HC. Qed.
Lemma comp_weight k j : (k < a)%nat -> (j < p)%nat -> W j k = unit_cov n p (left X T P k) y j.
Proof.
  intros Hk Hj. destruct (HC k Hk) as ((V & HV & Hw) & _). destruct (f_weight n ns nt p a zs zt lambda X Xs Xt y C HC k Hk) as (Hu & Hy & _). 
  assert (EV : forall u v, (u < p)%nat -> (v < p)%nat -> V u v = delta u v).
  { apply (inverse_unique p (shrink_at n ns nt zs zt lambda Xs Xt y C k)); [exact HV|]. intros u v Hu' Hv'. destruct (delta_inverse p u v Hu' Hv') as (Q1 & Q2). split.
    - rewrite <- Q1. apply Rsum_ext. intros m Hm. now rewrite comp_shrink.
    - rewrite <- Q2. apply Rsum_ext. intros m Hm. now rewrite comp_shrink. }
  unfold W. rewrite Hw. unfold weight, unit, unit_cov.
  assert (Ec : forall l, (l < p)%nat -> cov n (left X T P k) (lefty y T (kc C) k) l = cov n (left X T P k) y l).
  { intros l Hl. unfold T, P. rewrite (f_cov n ns nt p a zs zt lambda X Xs Xt y C HC k l ltac:(lia) Hl). unfold cov. apply Rsum_ext. intros i Hi.
    rewrite <- (block_rest n p a X T P W); try lia; [reflexivity| | |]; intros; now apply HC. }
  assert (Ey : Rsum n (fun i => lefty y T (kc C) k i * lefty y T (kc C) k i) = Rsum n (fun i => y_left n y T k i * y_left n y T k i)).
  { apply Rsum_ext. intros i Hi. unfold T. now rewrite (f_y n ns nt p a zs zt lambda X Xs Xt y C HC k i ltac:(lia)). }
  fold T P. rewrite Ey. set (y2 := Rsum n (fun i => y_left n y T k i * y_left n y T k i)) in *.
  assert (Hy2 : 0 < y2). { assert (0 <= y2) by (unfold y2; rewrite Rsum_sumn; apply sumR_nonneg; intros; apply Rle_0_sqr). unfold T in *. fold y2 in Hy. lra. }
  apply (unit_scale p (fun j => Rsum p (fun l => cov n (left X T P k) (lefty y T (kc C) k) l / y2 * V l j)) (fun j => cov n (left X T P k) y j) (/ y2)); [now apply Rinv_0_lt_compat| |exact Hj].
  intros l Hl. rewrite Rsum_sumn, (sumR_single p l); [|exact Hl|].
  - rewrite EV, Ec by assumption. unfold delta. rewrite Nat.eqb_refl. unfold Rdiv. ring.
  - intros m Hm Hne. rewrite EV by assumption. unfold delta. rewrite (proj2 (Nat.eqb_neq m l) Hne). ring.
Qed.
Lemma comp_residual k : (k <= a)%nat -> left X T P k = residual n p X y k.
Proof.
  induction k as [|k IH]; intros Hk.
  - extensionality i. extensionality j. unfold left. cbn [Rsum residual]. ring.
  - cbn [residual]. rewrite <- IH by lia. extensionality i. extensionality j.
    rewrite (left_step X T P n k (fun j => W j k)) by (intros; apply HC; lia).
    assert (ES : scores_of p (left X T P k) (fun j => W j k) = scores_of p (left X T P k) (unit_cov n p (left X T P k) y)).
    { extensionality u. unfold scores_of. apply Rsum_ext. intros l Hl. rewrite comp_weight by lia. reflexivity. }
    now rewrite ES.
Qed.
Lemma comp_no_breakdown : no_breakdown n p X y a.
Proof.
  intros k Hk. destruct (zero_or_not p (cov n (residual n p X y k) y)) as [Q|Q]; [exact Q|]. exfalso.
  destruct (f_weight n ns nt p a zs zt lambda X Xs Xt y C HC k Hk) as (Hu & _). rewrite Rsum_sumn, (sumR_zero p) in Hu; [lra|].
  intros j Hj. fold W. rewrite comp_weight by assumption. unfold unit_cov. rewrite comp_residual by lia. rewrite Q by exact Hj. unfold Rdiv. ring.
Qed.
Lemma comp_super : (2 <= a)%nat -> Rsum p (fun j => P j 0%nat * W j 1%nat) < 0.
Proof.
  intros Ha. pose proof comp_no_breakdown as Hnb.
  rewrite (Rsum_ext p _ (fun j => (cov n (residual n p X y 0) y j - cov n (residual n p X y 1) y j) / sqrt (gsq n p X y 0) * (cov n (residual n p X y 1) y j / sqrt (gsq n p X y 1)))).
  2:{ intros j Hj. rewrite comp_weight by lia. rewrite comp_residual by lia. f_equal.
      - rewrite <- (q_g n p a X y Hnb 0 j) by lia. destruct (HC 0%nat ltac:(lia)) as (_ & Q1 & _ & _ & Q2 & _). unfold P. rewrite Q2. fold T P. rewrite comp_residual by lia. f_equal. extensionality i. fold T in Q1. rewrite Q1. fold P. rewrite comp_residual by lia. unfold scores_of. apply Rsum_ext. intros l Hl. f_equal. fold W. rewrite comp_weight by lia. now rewrite comp_residual by lia.
      - exact (w_g n p X y 1 j). }
  pose proof (rt_pos n p a X y Hnb 0 ltac:(lia)) as H0. pose proof (rt_pos n p a X y Hnb 1 ltac:(lia)) as H1. pose proof (gsq_pos n p a X y Hnb 1 ltac:(lia)) as H2.
  rewrite Rsum_sumn. rewrite (sumn_ext p _ (fun j => (cov n (residual n p X y 0) y j * cov n (residual n p X y 1) y j - cov n (residual n p X y 1) y j * cov n (residual n p X y 1) y j) * / (sqrt (gsq n p X y 0) * sqrt (gsq n p X y 1)))) by (intros; field; lra).
  rewrite sumR_scal_r, sumR_minus, (g_perp n p a X y Hnb 0 1) by lia. fold (gsq n p X y 1).
  pose proof (Rinv_0_lt_compat _ (Rmult_lt_0_compat _ _ H0 H1)). nra.
Qed.
End Comp.
End Invariant.

(** * The predictions of PLS1 *)
Section Pls1.
Variables (lstsq : mat R -> mat R -> res (mat R)) (n ns nt p a : nat) (zs zt : Z) (lambda : R) (X Xs Xt : nat -> nat -> R) (y : nat -> R) (C : cols).
Hypotheses (Hzs : (zs <> 1)%Z) (Hzt : (zt <> 1)%Z).
Hypothesis Hcov : forall i j, (i < p)%nat -> (j < p)%nat -> gram ns Xs i j / (IZR zs - 1) = gram nt Xt i j / (IZR zt - 1).
Hypothesis HC : forall l, (l < a)%nat -> component n ns nt p zs zt lambda X Xs Xt y C l.
Hypotheses (Hn : n <> 0%nat) (Hp : p <> 0%nat) (Ha : a <> 0%nat).
Lemma pls1_coef own : exists s, c_train (pls1 lstsq) (Z.of_nat a) own (mk n p X) (mk n 1 (fun i _ => y i)) = (s, Ok None) /\
  forall Iv, inverse_pair a (PW p C) Iv -> forall m z, m <> 0%nat -> pls1_predict (Z.of_nat a) s (mk m p z) = Ok (mk m 1 (fun i _ => Rsum p (fun j => z i j * coef a C Iv j))).
Proof.
  pose proof (loop_run n p a X y Hn Hp Ha) as EL. cbv zeta in EL.
  set (w := fun k => unit_cov n p (residual n p X y k) y) in *.
  set (t := fun k => scores_of p (residual n p X y k) (w k)) in *.
  set (q := fun k => loadings_of n (residual n p X y k) (t k)) in *.
  set (b := fun k => Rsum n (fun i => t k i * y i) / Rsum n (fun i => t k i * t k i)) in *.
  assert (Er : forall k, (k <= a)%nat -> left X (kT C) (kP C) k = residual n p X y k) by (intros; now apply (comp_residual n ns nt p a zs zt lambda X Xs Xt y C)).
  assert (Ew : forall k j, (k < a)%nat -> (j < p)%nat -> kW C j k = w k j) by (intros k j Hk Hj; unfold w; rewrite <- Er by lia; now apply (comp_weight n ns nt p a zs zt lambda X Xs Xt y C)).
  assert (Et : forall k i, (k < a)%nat -> kT C i k = t k i).
  { intros k i Hk. destruct (HC k Hk) as (_ & Q & _). rewrite Q. unfold t. rewrite Er by lia. unfold scores_of. apply Rsum_ext. intros j Hj. now rewrite Ew. }
  assert (Eq : forall k j, (k < a)%nat -> kP C j k = q k j).
  { intros k j Hk. destruct (HC k Hk) as (_ & _ & _ & _ & Q & _). rewrite Q. unfold q. rewrite Er by lia. f_equal. extensionality i. now apply Et. }
  assert (Eb : forall k, (k < a)%nat -> kc C k = b k).
  { intros k Hk. rewrite (f_c n ns nt p a zs zt lambda X Xs Xt y C HC k Hk). unfold b. f_equal; apply Rsum_ext; intros; now rewrite Et. }
  assert (Hone : forall k, (k < a)%nat -> sumn p (fun j => q k j * w k j) = 1).
  { intros k Hk. rewrite <- (block_one n p a X (kT C) (kP C) (kW C)) with (k := k); try lia; [|intros; now apply HC|intros; now apply HC|intros; now apply HC]. rewrite Rsum_sumn. apply sumn_ext. intros j Hj. now rewrite Eq, Ew. }
  assert (Hlow : forall k m, (k < m)%nat -> (m < a)%nat -> sumn p (fun j => q m j * w k j) = 0).
  { intros k m Hk Hm. rewrite <- (block_low n p a X (kT C) (kP C) (kW C)) with (k := m) (l := k); try lia; [|intros; now apply HC|intros; now apply HC|intros; now apply HC]. rewrite Rsum_sumn. apply sumn_ext. intros j Hj. rewrite Eq, Ew by lia. reflexivity. }
  destruct (fit_core lstsq p a w q b Hone Hlow _ _ _ _ _ EL) as (Iv0 & HIv0 & Ef).
  set (s := Pls1 _ _ _ _) in Ef. exists s. split; [cbn [pls1 c_train]; now rewrite Ef|].
  intros Iv HIv m z Hm. rewrite (predict_run p a w q s Hp Ha eq_refl eq_refl m z b Hm eq_refl). f_equal. apply mk_ext. intros i k0 Hi Hk0.
  assert (HIv' : inverse_pair a (fun k l => sumn p (fun j => q k j * w l j)) Iv).
  { intros k l Hk Hl. destruct (HIv k l Hk Hl) as (Q1 & Q2). split.
    - rewrite <- Q1. apply Rsum_ext. intros m' Hm'. f_equal. unfold PW. apply sumn_ext. intros j Hj. now rewrite Eq, Ew.
    - rewrite <- Q2. apply Rsum_ext. intros m' Hm'. f_equal. unfold PW. apply sumn_ext. intros j Hj. now rewrite Eq, Ew. }
  rewrite !Rsum_sumn. rewrite (sumn_ext a _ (fun k => sumn p (fun j => z i j * (sumn a (fun l => kW C j l * Iv l k) * kc C k)))).
  2:{ intros k Hk. rewrite (ss_form p a w q Hone Hlow Iv (z i) k HIv' Hk), Eb, Rsum_sumn by exact Hk.
      rewrite (sumn_ext p _ (fun j => sumn a (fun l => z i j * w l j * Iv l k) * b k)).
      - rewrite sumR_scal_r. f_equal. rewrite sumR_swap. apply sumn_ext. intros l Hl. now rewrite Rsum_sumn, sumR_scal_r.
      - intros j Hj. rewrite <- Rmult_assoc, <- sumR_scal. f_equal. apply sumn_ext. intros l Hl. rewrite Ew by assumption. ring. }
  rewrite sumR_swap. apply sumn_ext. intros j Hj. rewrite sumR_scal. reflexivity.
Qed.
End Pls1.

(** * Components for domains with the same covariance *)
Section Build.
Variables (n nt p a : nat) (zs zt : Z) (lambda : R) (X Xt : nat -> nat -> R) (y : nat -> R).
Hypotheses (Hzs : (zs <> 1)%Z) (Hzt : (zt <> 1)%Z).
Hypothesis Hcov : forall i j, (i < p)%nat -> (j < p)%nat -> gram n X i j / (IZR zs - 1) = gram nt Xt i j / (IZR zt - 1).
Hypothesis Hnb : no_breakdown n p X y a.
Let E := residual n p X y.
Let w k j := if (j <? p)%nat then unit_cov n p (E k) y j else 0.
Let t k := scores_of p (E k) (unit_cov n p (E k) y).
Let q k := loadings_of n (E k) (t k).
Fixpoint tgt (k : nat) : nat -> nat -> R :=
  match k with
  | O => Xt
  | S k => let F := tgt k in let s := scores_of p F (w k) in fun i j => F i j - s i * loadings_of nt F s j
  end.
Definition built : cols :=
  Cols (fun k => Rsum n (fun i => t k i * y i) / Rsum n (fun i => t k i * t k i))
    (fun i k => t k i) (fun i k => t k i) (fun i k => scores_of p (tgt k) (w k) i)
    (fun j k => q k j) (fun j k => q k j) (fun j k => loadings_of nt (tgt k) (scores_of p (tgt k) (w k)) j) (fun j k => w k j).
Lemma scores_w k F : scores_of p F (w k) = scores_of p F (unit_cov n p (E k) y).
Proof. extensionality i. unfold scores_of. apply Rsum_ext. intros j Hj. unfold w. now rewrite (proj2 (Nat.ltb_lt j p) Hj). Qed.
Lemma built_left k : left X (kT built) (kP built) k = E k.
Proof.
  induction k as [|k IH]; extensionality i; extensionality j; [unfold left; cbn [Rsum]; unfold E; cbn [residual]; ring|].
  unfold left. rewrite Rsum_sumn, sumR_S, <- Rsum_sumn.
  pose proof (f_equal (fun f => f i j) IH) as Q. cbv beta in Q. unfold left in Q. change (E (S k) i j) with (E k i j - t k i * q k j). rewrite <- Q. cbn [built kT kP]. ring.
Qed.
Lemma built_left_t k : left Xt (kTt built) (kPt built) k = tgt k.
Proof.
  induction k as [|k IH]; extensionality i; extensionality j; [unfold left; cbn [Rsum tgt]; ring|].
  unfold left. rewrite Rsum_sumn, sumR_S, <- Rsum_sumn.
  pose proof (f_equal (fun f => f i j) IH) as Q. cbv beta in Q. unfold left in Q. cbn [tgt]. rewrite <- Q. cbn [built kTt kPt]. ring.
Qed.
Let c := (IZR zt - 1) / (IZR zs - 1).
Lemma tau_nz k : (k < a)%nat -> Rsum n (fun i => t k i * t k i) <> 0.
Proof. intros Hk. rewrite Rsum_sumn. now apply (Htau n p a X y Hnb). Qed.
Lemma built_gram k : (k <= a)%nat -> (forall i j, (i < p)%nat -> (j < p)%nat -> gram nt (tgt k) i j = c * gram n (E k) i j).
Proof.
  induction k as [|k IH]; intros Hk i j Hi Hj.
  - now apply (cov_c zs zt Hzs Hzt), Hcov.
  - assert (Q : sumn n (fun i => scores_of p (E k) (w k) i * scores_of p (E k) (w k) i) <> 0) by (rewrite scores_w, <- Rsum_sumn; apply tau_nz; lia).
    apply (gram_kept p n nt c (E k) (tgt k) _ _ (w k)); try assumption.
    + now apply c_nz.
    + rewrite (tau_kept p n nt c (E k) (tgt k) (w k) (IH ltac:(lia))). apply Rmult_integral_contrapositive. split; [now apply c_nz|exact Q].
    + intros u v. rewrite !scores_w. reflexivity.
    + intros u v. reflexivity.
    + apply IH. lia.
Qed.
Lemma built_tau_t k : (k < a)%nat -> Rsum nt (fun i => scores_of p (tgt k) (w k) i * scores_of p (tgt k) (w k) i) <> 0.
Proof.
  intros Hk. rewrite Rsum_sumn, (tau_kept p n nt c (E k) (tgt k) (w k) (built_gram k ltac:(lia))). apply Rmult_integral_contrapositive. split; [now apply c_nz|].
  rewrite scores_w, <- Rsum_sumn. now apply tau_nz.
Qed.
Lemma t_perp k l : (k < a)%nat -> (l < a)%nat -> k <> l -> Rsum n (fun i => t k i * t l i) = 0.
Proof.
  intros. rewrite Rsum_sumn. apply (scores_orthogonal n p a E (fun k => unit_cov n p (E k) y) t q (Ht n p a X y) (Hq n p a X y) (HE n p a X y) (Htau n p a X y Hnb)); assumption.
Qed.
Lemma E_perp k l j : (k < l)%nat -> (l <= a)%nat -> (j < p)%nat -> Rsum n (fun i => E l i j * t k i) = 0.
Proof.
  intros. rewrite Rsum_sumn. apply (E_perp_t n p a E (fun k => unit_cov n p (E k) y) t q (Ht n p a X y) (Hq n p a X y) (HE n p a X y) (Htau n p a X y Hnb)); assumption.
Qed.
Lemma built_component l : (l < a)%nat -> component n n nt p zs zt lambda X X Xt y built l.
Proof.
  intros Hl. unfold component. change (kTs built) with (kT built). change (kPs built) with (kP built). rewrite !built_left, built_left_t.
  assert (EP : forall g j, (j < p)%nat -> cov n (E l) (lefty y (kT built) g l) j = cov n (E l) y j).
  { intros g j Hj. unfold cov. rewrite !Rsum_sumn. unfold lefty.
    rewrite (sumn_ext n _ (fun i => E l i j * y i - sumn l (fun m => E l i j * t m i * g m))).
    2:{ intros i Hi. rewrite Rsum_sumn, Rmult_minus_distr_l, <- sumR_scal. f_equal. apply sumn_ext. intros; cbn [built kT]; ring. }
    rewrite sumR_minus, sumR_swap, (sumR_zero l); [ring|]. intros m Hm. rewrite sumR_scal_r, <- Rsum_sumn, E_perp by lia. ring. }
  assert (ES : forall i j, (i < p)%nat -> (j < p)%nat -> shrink_at n n nt zs zt lambda X Xt y built l i j = delta i j).
  { intros i j Hi Hj. unfold shrink_at, shrink. change (kTs built) with (kT built). change (kPs built) with (kP built). rewrite built_left, built_left_t. rewrite (proj2 (cov_c zs zt Hzs Hzt _ _) (built_gram l ltac:(lia) i j Hi Hj)). ring. }
  split.
  { exists delta. split.
    - intros u v Hu Hv. destruct (delta_inverse p u v Hu Hv) as (Q1 & Q2). split.
      + rewrite <- Q1. apply Rsum_ext. intros m Hm. now rewrite ES.
      + rewrite <- Q2. apply Rsum_ext. intros m Hm. now rewrite ES.
    - intros j. change (kW built j l) with (w l j). unfold weight, unit. rewrite built_left. set (y2 := Rsum n (fun i => lefty y (kT built) (kc built) l i * _)).
      destruct (Nat.ltb_spec j p) as [Hj|Hj].
      + unfold w. rewrite (proj2 (Nat.ltb_lt j p) Hj). symmetry. unfold unit_cov.
        assert (Hy2 : 0 < y2).
        { assert (0 <= y2) by (unfold y2; rewrite Rsum_sumn; apply sumR_nonneg; intros; apply Rle_0_sqr). destruct H as [H|H]; [exact H|]. exfalso.
          destruct (Hnb l Hl) as (m & Hm & Hne). apply Hne. fold E. rewrite <- (EP (kc built) m Hm). unfold cov. rewrite Rsum_sumn. apply sumR_zero. intros i Hi.
          rewrite (sum_sq_0 n (lefty y (kT built) (kc built) l) i); [ring| |exact Hi]. rewrite <- Rsum_sumn. now symmetry. }
        apply (unit_scale p (fun j => Rsum p (fun l0 => cov n (E l) (lefty y (kT built) (kc built) l) l0 / y2 * delta l0 j)) (fun j => cov n (E l) y j) (/ y2)); [now apply Rinv_0_lt_compat| |exact Hj].
        intros m Hm. rewrite Rsum_sumn, (sumR_single p m); [|exact Hm|].
        * rewrite EP by assumption. unfold delta. rewrite Nat.eqb_refl. unfold Rdiv. ring.
        * intros m' Hm' Hne. unfold delta. rewrite (proj2 (Nat.eqb_neq m' m) Hne). ring.
      + unfold w. destruct (Nat.ltb_spec j p); [lia|]. rewrite Rsum_sumn, (sumR_zero p); [unfold Rdiv; ring|]. intros m Hm. unfold delta. rewrite (proj2 (Nat.eqb_neq m j)) by lia. ring. }
  split; [intros i; change (fun j => kW built j l) with (w l); rewrite scores_w; reflexivity|].
  split; [intros i; change (fun j => kW built j l) with (w l); rewrite scores_w; reflexivity|].
  split; [intros i; reflexivity|]. split; [reflexivity|]. split; [reflexivity|]. split; [reflexivity|].
  split.
  { change (kc built l) with (Rsum n (fun i => t l i * y i) / Rsum n (fun i => t l i * t l i)) at 1. change (fun i => kT built i l * kT built i l) with (fun i => t l i * t l i). f_equal. rewrite !Rsum_sumn.
    unfold lefty. cbn [kT built]. rewrite (sumn_ext n (fun i => (y i - _) * _) (fun i => t l i * y i - sumn l (fun m => t m i * t l i * kc built m))).
    2:{ intros i Hi. rewrite Rsum_sumn, Rmult_minus_distr_r, <- sumR_scal_r. f_equal; [ring|]. apply sumn_ext. intros; ring. }
    rewrite sumR_minus, sumR_swap, (sumR_zero l); [ring|]. intros m Hm. rewrite sumR_scal_r, <- Rsum_sumn, t_perp by lia. ring. }
  split; [now apply tau_nz|]. split; [now apply tau_nz|now apply built_tau_t].
Qed.
End Build.
