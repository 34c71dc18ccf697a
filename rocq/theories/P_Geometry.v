(** C103: more components nest and fit better.  C104: PLS1 and SIMPLS do not depend on the
    orthonormal basis the predictors are expressed in. *)
From Coq Require Import List ZArith Lia Bool Arith Reals Lra Permutation.
From Verif Require Import Base Num Mat M_Matrix M_Factory M_Helper M_Loop M_Utils M_Linalg M_Transform M_PLSBase M_PLS
  S_Matrix L_Base L_Mat L_Matrix L_MatR L_Linalg L_Alg L_Deflate L_Stats L_Transform P_Transform P_Matrix P_Linalg P_Helper P_PLSPrep P_PLS1 L_Krylov L_Public L_Perm P_SIMPLS2.
Import ListNotations.
Local Open Scope R_scope.

(** ** What both classes return after training, in terms of the directions of L_Krylov *)
Section Answers.
Variables (pp : preproc) (X Y : mat R) (a : nat).
Let n := nr X.
Let p := nc X.
Let x := prepared pp X.
Let y := fun i => prepared pp Y i 0.
Notation G := (gsq n p x y).
Notation d := (dir n p x y).
Notation tt := (tau n p x y).
Hypotheses (WX : wf X) (WY : wf Y) (Hn : n <> 0%nat) (Hp : p <> 0%nat) (RY : nr Y = n) (CY : nc Y = 1%nat) (Ha : a <> 0%nat) (PX : preparable pp X) (PY : preparable pp Y).
Hypothesis Hnb : no_breakdown n p x y a.
Definition predicted (h : nat) (z : nat -> R) : R := sumn h (fun k => sumn p (fun j => z j * d k j) * (G k / tt k)) * own_sd pp Y 0 + back_mean pp Y.

Lemma predicted_ext h z z' : (forall j, (j < p)%nat -> z j = z' j) -> predicted h z = predicted h z'.
Proof. intros E. unfold predicted. f_equal. f_equal. apply sumn_ext. intros k Hk. f_equal. apply sumn_ext. intros j Hj. now rewrite E. Qed.
Lemma pls1_public lstsq (s0 : pls_st (pls1_st R) R) : p_preprocessing s0 = pp -> p_num_components s0 = Z.of_nat a ->
  exists s, initialize (pls1 lstsq) s0 (Some X) (Some Y) = (s, Ok None) /\
    forall Z, wf Z -> nc Z = p -> nr Z <> 0%nat ->
      snd (transform (pls1 lstsq) s Z) = Ok (mk (nr Z) a (fun i k => sqrt (G k) * sumn p (fun j => entry Z i j * d k j))) /\
      snd (predict (pls1 lstsq) s Z) = Ok (mk (nr Z) 1 (fun i _ => predicted a (entry Z i))).
Proof.
  intros Hpp Hnc. destruct (pls1_run lstsq n p a x y Hn Hp Ha Hnb (c_reset (pls1 lstsq) (p_own s0))) as (own & Et & Hnew).
  destruct (single_training (pls1 lstsq) s0 X Y own pp) as (s & Ei & _ & Etr & Epr); auto; [now rewrite Hnc|]. rewrite Hnc in Etr, Epr.
  exists s. split; [exact Ei|]. intros Z WZ CZ RZ. assert (EZ : Z = mk (nr Z) p (entry Z)) by (rewrite <- CZ; now apply wf_mk).
  destruct (Hnew (nr Z) (entry Z) RZ) as [A1 A2]. rewrite <- EZ in A1, A2. split.
  - rewrite Etr. exact A1.
  - erewrite Epr; [|cbn [pls1 c_predict snd]; exact A2|apply mk_wf|reflexivity]. rewrite nr_mk. f_equal. apply mk_ext. intros i j Hi Hj. rewrite entry_mk by lia. reflexivity.
Qed.
Lemma simpls_public eig (s0 : pls_st (simpls_st R) R) : eig_one eig -> p_preprocessing s0 = pp -> p_num_components s0 = Z.of_nat a -> (si_coef (p_own s0) <= 0)%Z ->
  exists s, initialize (simpls eig) s0 (Some X) (Some Y) = (s, Ok None) /\
    forall Z, wf Z -> nc Z = p -> nr Z <> 0%nat -> snd (predict (simpls eig) s Z) = Ok (mk (nr Z) 1 (fun i _ => predicted a (entry Z i))).
Proof.
  intros Heig Hpp Hnc Hco. destruct (simpls_run eig n p a x y Heig Hn Hp Ha Hnb (c_reset (simpls eig) (p_own s0)) Hco) as (own & eps & Heps & Et & Hnew).
  destruct (single_training (simpls eig) s0 X Y own pp) as (s & Ei & _ & Etr & Epr); auto; [now rewrite Hnc|]. rewrite Hnc in Etr, Epr.
  exists s. split; [exact Ei|]. intros Z WZ CZ RZ. assert (EZ : Z = mk (nr Z) p (entry Z)) by (rewrite <- CZ; now apply wf_mk).
  destruct (Hnew (nr Z) (entry Z)) as [A1 A2]. rewrite <- EZ in A1, A2.
  erewrite Epr; [|exact A2|apply mk_wf|reflexivity]. rewrite nr_mk. f_equal. apply mk_ext. intros i j Hi Hj. rewrite entry_mk by lia. reflexivity.
Qed.

(** training error in terms of the directions *)
Lemma back_Y i : (i < n)%nat -> y i * own_sd pp Y 0 + back_mean pp Y = entry Y i 0.
Proof.
  intros Hi. unfold y, prepared, own_sd, back_mean, own_mean. destruct pp; cbn [preparable] in PY; try ring; try (now elim PY).
  destruct PY as [P1 P2]. field. destruct (sd_used_R Y 0 P1) as [A _]. destruct (A (P2 0%nat ltac:(lia))) as [B1 B2]. now rewrite <- B1.
Qed.
Lemma sd_pos : 0 < own_sd pp Y 0.
Proof.
  unfold own_sd. destruct pp; cbn [preparable] in PY; try lra. destruct PY as [P1 P2]. destruct (sd_used_R Y 0 P1) as [A _]. destruct (A (P2 0%nat ltac:(lia))) as [B1 B2].
  rewrite B1 in B2. pose proof (sqrt_pos (Rvar (nr Y) (fun i => entry Y i 0))). lra.
Qed.
Notation t := (fun k => scores_of p (residual n p x y k) (unit_cov n p (residual n p x y k) y)).
Lemma t_perp k l : (k < a)%nat -> (l < a)%nat -> k <> l -> sumn n (fun i => t k i * t l i) = 0.
Proof.
  intros Hk Hl Hne. apply (scores_orthogonal n p a (residual n p x y) (fun k => unit_cov n p (residual n p x y k) y) t (fun k => loadings_of n (residual n p x y k) (t k))); auto;
    [apply (Ht n p a x y)|apply (Hq n p a x y)|apply (Htau n p a x y Hnb)].
Qed.
(** what h components leave of the prepared response *)
Definition rest (h i : nat) : R := y i - sumn h (fun k => t k i * (sqrt (G k) / tt k)).
Lemma rest_t h k : (h <= k)%nat -> (k < a)%nat -> sumn n (fun i => rest h i * t k i) = sqrt (G k).
Proof.
  intros Hh Hk. rewrite <- (t_y n p a x y Hnb k Hk).
  rewrite (sumn_ext n _ (fun i => t k i * y i - sumn h (fun l => sqrt (G l) / tt l * (t l i * t k i)))).
  2:{ intros i Hi. unfold rest. rewrite Rmult_minus_distr_r, <- sumR_scal_r. f_equal; [ring|]. apply sumn_ext. intros; ring. }
  rewrite sumR_minus, sumR_swap. rewrite (sumR_zero h); [ring|]. intros l Hl. rewrite sumR_scal, t_perp by lia. ring.
Qed.
Lemma rest_sq h : (h <= a)%nat -> sumn n (fun i => rest h i * rest h i) = sumn n (fun i => y i * y i) - sumn h (fun k => G k / tt k).
Proof.
  induction h as [|h IH]; intros Hh.
  - rewrite sumR_0, Rminus_0_r. apply sumn_ext. intros i Hi. unfold rest. rewrite sumR_0. ring.
  - rewrite sumR_S. rewrite (sumn_ext n _ (fun i => rest h i * rest h i - (2 * (sqrt (G h) / tt h) * (rest h i * t h i) - (sqrt (G h) / tt h) * (sqrt (G h) / tt h) * (t h i * t h i)))).
    2:{ intros i Hi. unfold rest. rewrite sumR_S. ring. }
    rewrite sumR_minus, IH by lia. rewrite sumR_minus, !sumR_scal, rest_t by lia. cbv beta. set (T := sumn n (fun i => scores_of _ _ _ i * scores_of _ _ _ i)). assert (ET : T = tt h) by reflexivity. rewrite ET. clear T ET.
    pose proof (tau_pos n p a x y Hnb h Hh). pose proof (rt_rt n p x y h) as E. set (r := sqrt (G h)) in *. clearbody r. rewrite <- E. field. lra.
Qed.
Lemma predicted_training h i : (h <= a)%nat -> (i < n)%nat -> entry Y i 0 - predicted h (x i) = own_sd pp Y 0 * rest h i.
Proof.
  intros Hh Hi. rewrite <- back_Y by assumption. unfold predicted, rest.
  rewrite (sumn_ext h (fun k => sumn p (fun j => x i j * d k j) * (G k / tt k)) (fun k => t k i * (sqrt (G k) / tt k))).
  - ring.
  - intros k Hk. rewrite (X_dir n p a x y Hnb k i) by lia. pose proof (rt_pos n p a x y Hnb k ltac:(lia)). pose proof (tau_pos n p a x y Hnb k ltac:(lia)). pose proof (rt_rt n p x y k) as E. set (r := sqrt (G k)) in *. clearbody r. rewrite <- E. field. lra.
Qed.
Definition sse (h : nat) : R := sumn n (fun i => (entry Y i 0 - predicted h (x i)) * (entry Y i 0 - predicted h (x i))).
Lemma sse_form h : (h <= a)%nat -> sse h = own_sd pp Y 0 * own_sd pp Y 0 * (sumn n (fun i => y i * y i) - sumn h (fun k => G k / tt k)).
Proof.
  intros Hh. rewrite <- rest_sq by assumption. unfold sse. rewrite <- sumR_scal. apply sumn_ext. intros i Hi. rewrite predicted_training by assumption. ring.
Qed.
Lemma sse_decreases h h' : (h < h')%nat -> (h' <= a)%nat -> sse h' < sse h.
Proof.
  intros Hh Hh'. rewrite !sse_form by lia. pose proof sd_pos as Hs. assert (Hss : 0 < own_sd pp Y 0 * own_sd pp Y 0) by now apply Rmult_lt_0_compat.
  apply Rmult_lt_compat_l; [exact Hss|]. cut (sumn h (fun k => G k / tt k) < sumn h' (fun k => G k / tt k)); [lra|].
  clear Hss Hs. induction h' as [|h' IH]; [lia|]. rewrite sumR_S.
  assert (Hg : 0 < G h' / tt h'). { apply Rdiv_lt_0_compat; [apply (gsq_pos n p a x y Hnb h'); lia|apply (tau_pos n p a x y Hnb h'); lia]. }
  destruct (Nat.eq_dec h h') as [->|Hne]; [lra|]. pose proof (IH ltac:(lia) ltac:(lia)). lra.
Qed.
End Answers.

(** * C103 *)
(** Sum of the squared differences between the response and predictions for the training rows *)
Definition training_error (Y V : mat R) : R := Rsum (nr Y) (fun i => (entry Y i 0 - entry V i 0) * (entry Y i 0 - entry V i 0)).

Lemma error_sse pp X Y h : nr Y = nr X -> training_error Y (mk (nr X) 1 (fun i _ => predicted pp X Y h (entry (mk (nr X) (nc X) (prepared pp X)) i))) = sse pp X Y h.
Proof.
  intros RY. unfold training_error, sse. rewrite Rsum_sumn, RY. apply sumn_ext. intros i Hi. rewrite entry_mk by lia.
  rewrite (predicted_ext pp X Y h (entry (mk (nr X) (nc X) (prepared pp X)) i) (prepared pp X i)); [reflexivity|]. intros j Hj. now rewrite entry_mk.
Qed.
Lemma breakdown_less n p x y a b : (a <= b)%nat -> no_breakdown n p x y b -> no_breakdown n p x y a.
Proof. intros H Hb k Hk. apply Hb. lia. Qed.

Theorem C103_pls1 lstsq (s1 s2 : pls_st (pls1_st R) R) (X Y : mat R) (a b : nat) (pp : preproc) : let n := nr X in let p := nc X in
  p_preprocessing s1 = pp -> p_preprocessing s2 = pp -> p_num_components s1 = Z.of_nat a -> p_num_components s2 = Z.of_nat b -> (0 < a < b)%nat ->
  wf X -> wf Y -> n <> 0%nat -> p <> 0%nat -> nr Y = n -> nc Y = 1%nat -> preparable pp X -> preparable pp Y ->
  no_breakdown n p (prepared pp X) (fun i => prepared pp Y i 0) b ->
  exists t1 t2, initialize (pls1 lstsq) s1 (Some X) (Some Y) = (t1, Ok None) /\ initialize (pls1 lstsq) s2 (Some X) (Some Y) = (t2, Ok None) /\
    (forall Z, wf Z -> nc Z = p -> nr Z <> 0%nat -> exists S1 S2, snd (transform (pls1 lstsq) t1 Z) = Ok S1 /\ snd (transform (pls1 lstsq) t2 Z) = Ok S2 /\
       nc S1 = a /\ nc S2 = b /\ forall i k, (i < nr Z)%nat -> (k < a)%nat -> entry S1 i k = entry S2 i k) /\
    (exists V1 V2, snd (predict (pls1 lstsq) t1 (mk n p (prepared pp X))) = Ok V1 /\ snd (predict (pls1 lstsq) t2 (mk n p (prepared pp X))) = Ok V2 /\
       training_error Y V2 < training_error Y V1).
Proof.
  intros n p Hp1 Hp2 Hn1 Hn2 Hab WX WY Hn Hp RY CY PX PY Hnb. pose proof (breakdown_less _ _ _ _ a b ltac:(lia) Hnb) as Hna.
  destruct (pls1_public pp X Y a WX WY Hn Hp RY CY ltac:(lia) PX PY Hna lstsq s1 Hp1 Hn1) as (t1 & E1 & Z1).
  destruct (pls1_public pp X Y b WX WY Hn Hp RY CY ltac:(lia) PX PY Hnb lstsq s2 Hp2 Hn2) as (t2 & E2 & Z2).
  exists t1, t2. split; [exact E1|]. split; [exact E2|]. split.
  - intros Z WZ CZ RZ. destruct (Z1 Z WZ CZ RZ) as [A1 _]. destruct (Z2 Z WZ CZ RZ) as [A2 _]. eexists. eexists. split; [exact A1|]. split; [exact A2|].
    split; [reflexivity|]. split; [reflexivity|]. intros i k Hi Hk. rewrite !entry_mk by lia. reflexivity.
  - assert (WP : wf (mk n p (prepared pp X))) by apply mk_wf. destruct (Z1 _ WP eq_refl Hn) as [_ A1]. destruct (Z2 _ WP eq_refl Hn) as [_ A2].
    eexists. eexists. split; [exact A1|]. split; [exact A2|]. rewrite nr_mk. unfold n, p. rewrite !error_sse by assumption.
    apply (sse_decreases pp X Y b); auto; lia.
Qed.
(** The same for the predictions of SIMPLS (with every weight kept, and an eigenvector routine that normalises 1x1 matrices' vectors). *)
Theorem C103_simpls eig (s1 s2 : pls_st (simpls_st R) R) (X Y : mat R) (a b : nat) (pp : preproc) : let n := nr X in let p := nc X in
  eig_one eig -> (si_coef (p_own s1) <= 0)%Z -> (si_coef (p_own s2) <= 0)%Z ->
  p_preprocessing s1 = pp -> p_preprocessing s2 = pp -> p_num_components s1 = Z.of_nat a -> p_num_components s2 = Z.of_nat b -> (0 < a < b)%nat ->
  wf X -> wf Y -> n <> 0%nat -> p <> 0%nat -> nr Y = n -> nc Y = 1%nat -> preparable pp X -> preparable pp Y ->
  no_breakdown n p (prepared pp X) (fun i => prepared pp Y i 0) b ->
  exists t1 t2, initialize (simpls eig) s1 (Some X) (Some Y) = (t1, Ok None) /\ initialize (simpls eig) s2 (Some X) (Some Y) = (t2, Ok None) /\
    exists V1 V2, snd (predict (simpls eig) t1 (mk n p (prepared pp X))) = Ok V1 /\ snd (predict (simpls eig) t2 (mk n p (prepared pp X))) = Ok V2 /\
       training_error Y V2 < training_error Y V1.
Proof.
  intros n p Heig Hc1 Hc2 Hp1 Hp2 Hn1 Hn2 Hab WX WY Hn Hp RY CY PX PY Hnb. pose proof (breakdown_less _ _ _ _ a b ltac:(lia) Hnb) as Hna.
  destruct (simpls_public pp X Y a WX WY Hn Hp RY CY ltac:(lia) PX PY Hna eig s1 Heig Hp1 Hn1 Hc1) as (t1 & E1 & Z1).
  destruct (simpls_public pp X Y b WX WY Hn Hp RY CY ltac:(lia) PX PY Hnb eig s2 Heig Hp2 Hn2 Hc2) as (t2 & E2 & Z2).
  exists t1, t2. split; [exact E1|]. split; [exact E2|].
  assert (WP : wf (mk n p (prepared pp X))) by apply mk_wf. pose proof (Z1 _ WP eq_refl Hn) as A1. pose proof (Z2 _ WP eq_refl Hn) as A2.
  eexists. eexists. split; [exact A1|]. split; [exact A2|]. rewrite nr_mk. unfold n, p. rewrite !error_sse by assumption.
  apply (sse_decreases pp X Y b); auto; lia.
Qed.

Print Assumptions C103_pls1.
Print Assumptions C103_simpls.
(** The two-component data of C51: the second component strictly improves the fit. *)
Example C103_ex : let X := Mat 2 2 [[3;0];[0;4]] in let Y := Mat 2 1 [[1];[1]] in let lstsq := fun _ _ => Err LinAlgError in
  let obj a := PlsSt a PP_NONE false [] [] None None (c_new (pls1 lstsq)) in
  exists t1 t2 V1 V2, initialize (pls1 lstsq) (obj 1%Z) (Some X) (Some Y) = (t1, Ok None) /\ initialize (pls1 lstsq) (obj 2%Z) (Some X) (Some Y) = (t2, Ok None) /\
    snd (predict (pls1 lstsq) t1 X) = Ok V1 /\ snd (predict (pls1 lstsq) t2 X) = Ok V2 /\ training_error Y V2 < training_error Y V1.
Proof.
  cbv zeta. destruct C51_ex as (WX & WY & Hnb).
  destruct (C103_pls1 (fun _ _ => Err LinAlgError) (PlsSt 1 PP_NONE false [] [] None None (c_new (pls1 (fun _ _ => Err LinAlgError))))
    (PlsSt 2 PP_NONE false [] [] None None (c_new (pls1 (fun _ _ => Err LinAlgError)))) (Mat 2 2 [[3;0];[0;4]]) (Mat 2 1 [[1];[1]]) 1 2 PP_NONE) as (t1 & t2 & E1 & E2 & _ & V1 & V2 & A1 & A2 & Hlt);
    try (exact WX || exact WY || exact Hnb || exact I || reflexivity || (cbn; lia)).
  exists t1, t2, V1, V2. split; [exact E1|]. split; [exact E2|]. split; [exact A1|]. split; [exact A2|exact Hlt].
Qed.

(** ** The same predictors in another orthonormal basis *)
Lemma sum_sq_witness m (f : nat -> R) : 0 < sumn m (fun j => f j * f j) -> exists j, (j < m)%nat /\ f j <> 0.
Proof.
  induction m as [|m IH]; [rewrite sumR_0; lra|]. rewrite sumR_S. intros H. destruct (Req_dec (f m) 0) as [E|E].
  - rewrite E in H. destruct IH as (j & Hj & Hf); [lra|]. exists j. split; [lia|assumption].
  - exists m. split; [lia|assumption].
Qed.
Section Basis.
Variables (n p p2 : nat) (Q x x2 : nat -> nat -> R) (y : nat -> R).
Let act (v : nat -> R) (j : nat) : R := sumn p (fun l => v l * Q l j).
Hypothesis HQ : forall l m, (l < p)%nat -> (m < p)%nat -> sumn p2 (fun j => Q l j * Q m j) = if (l =? m)%nat then 1 else 0.
Hypothesis Hx : forall i j, (i < n)%nat -> (j < p2)%nat -> x2 i j = act (x i) j.
Lemma act_iso u v : sumn p2 (fun j => act u j * act v j) = sumn p (fun l => u l * v l).
Proof.
  rewrite (sumn_ext p2 _ (fun j => sumn p (fun l => sumn p (fun m => u l * v m * (Q l j * Q m j))))).
  2:{ intros j Hj. unfold act. rewrite <- sumR_scal_r. apply sumn_ext. intros l Hl. rewrite <- sumR_scal. apply sumn_ext. intros m Hm. ring. }
  rewrite sumR_swap. apply sumn_ext. intros l Hl. rewrite sumR_swap.
  rewrite (sumR_single p l); [|assumption|].
  - rewrite sumR_scal, HQ, Nat.eqb_refl by assumption. ring.
  - intros m Hm Hne. rewrite sumR_scal, HQ by assumption. destruct (Nat.eqb_spec l m); [congruence|ring].
Qed.
Notation E := (residual n p x y).
Notation E2 := (residual n p2 x2 y).
Lemma act_cov k : (forall i j, (i < n)%nat -> (j < p2)%nat -> E2 k i j = act (E k i) j) -> forall j, (j < p2)%nat -> cov n (E2 k) y j = act (cov n (E k) y) j.
Proof.
  intros H j Hj. unfold cov, act. rewrite Rsum_sumn. rewrite (sumn_ext n _ (fun i => sumn p (fun l => Q l j * (E k i l * y i)))).
  2:{ intros i Hi. rewrite H by assumption. unfold act. rewrite <- sumR_scal_r. apply sumn_ext. intros; ring. }
  rewrite sumR_swap. apply sumn_ext. intros l Hl. rewrite sumR_scal, Rsum_sumn. ring.
Qed.
Lemma act_gsq k : (forall i j, (i < n)%nat -> (j < p2)%nat -> E2 k i j = act (E k i) j) -> gsq n p2 x2 y k = gsq n p x y k.
Proof. intros H. unfold gsq. rewrite <- act_iso. apply sumn_ext. intros j Hj. now rewrite !(act_cov k H). Qed.
Lemma act_unit k : (forall i j, (i < n)%nat -> (j < p2)%nat -> E2 k i j = act (E k i) j) -> forall j, (j < p2)%nat -> unit_cov n p2 (E2 k) y j = act (unit_cov n p (E k) y) j.
Proof.
  intros H j Hj. pose proof (w_g n p2 x2 y k j) as A. cbv beta in A. rewrite A, (act_gsq k H), (act_cov k H) by assumption. unfold act, Rdiv. rewrite <- sumR_scal_r.
  apply sumn_ext. intros l Hl. rewrite (w_g n p x y k l). unfold Rdiv. ring.
Qed.
Lemma act_scores k : (forall i j, (i < n)%nat -> (j < p2)%nat -> E2 k i j = act (E k i) j) -> forall i, (i < n)%nat ->
  scores_of p2 (E2 k) (unit_cov n p2 (E2 k) y) i = scores_of p (E k) (unit_cov n p (E k) y) i.
Proof.
  intros H i Hi. unfold scores_of. rewrite !Rsum_sumn. rewrite <- act_iso. apply sumn_ext. intros j Hj. now rewrite H, act_unit.
Qed.
Lemma act_residual k : forall i j, (i < n)%nat -> (j < p2)%nat -> E2 k i j = act (E k i) j.
Proof.
  induction k as [|k IH]; [exact Hx|]. intros i j Hi Hj. cbn [residual]. rewrite IH, act_scores by assumption.
  unfold loadings_of. rewrite !Rsum_sumn.
  rewrite (sumn_ext n (fun i => scores_of p2 _ _ i * _) (fun i => scores_of p (E k) (unit_cov n p (E k) y) i * scores_of p (E k) (unit_cov n p (E k) y) i)) by (intros; now rewrite act_scores).
  rewrite (sumn_ext n (fun i => E2 k i j * _) (fun i => sumn p (fun l => Q l j * (E k i l * scores_of p (E k) (unit_cov n p (E k) y) i)))).
  2:{ intros i' Hi'. rewrite IH, act_scores by assumption. unfold act. rewrite <- sumR_scal_r. apply sumn_ext. intros; ring. }
  rewrite sumR_swap. unfold act. set (t := scores_of p (E k) (unit_cov n p (E k) y)).
  rewrite (sumn_ext p (fun l => (_ - _) * _) (fun l => E k i l * Q l j - t i / sumn n (fun i => t i * t i) * (Q l j * sumn n (fun i => E k i l * t i)))).
  2:{ intros l Hl. rewrite !Rsum_sumn. unfold Rdiv. ring. }
  rewrite sumR_minus, sumR_scal. f_equal. unfold Rdiv. rewrite (sumn_ext p (fun l => sumn n _) (fun l => Q l j * sumn n (fun i => E k i l * t i))) by (intros; now rewrite sumR_scal). ring.
Qed.
Lemma basis_gsq k : gsq n p2 x2 y k = gsq n p x y k.
Proof. apply act_gsq, act_residual. Qed.
Lemma basis_tau k : tau n p2 x2 y k = tau n p x y k.
Proof. unfold tau. apply sumn_ext. intros i Hi. now rewrite !(act_scores k (act_residual k)). Qed.
Lemma basis_dir k j : (j < p2)%nat -> dir n p2 x2 y k j = act (dir n p x y k) j.
Proof.
  intros Hj. unfold dir, act. rewrite (sumn_ext p _ (fun l => sumn (S k) (fun h => cov n (E h) y l / gsq n p x y h * Q l j))) by (intros; now rewrite sumR_scal_r).
  rewrite sumR_swap. apply sumn_ext. intros h Hh. rewrite basis_gsq, (act_cov h (act_residual h)) by assumption. unfold act, Rdiv. rewrite <- sumR_scal_r. apply sumn_ext. intros; ring.
Qed.
Lemma basis_breakdown a : no_breakdown n p x y a -> no_breakdown n p2 x2 y a.
Proof.
  intros H k Hk. pose proof (gsq_pos n p a x y H k Hk) as Hg. rewrite <- basis_gsq in Hg. exact (sum_sq_witness p2 _ Hg).
Qed.
Lemma basis_score (z z2 : nat -> R) k : (forall j, (j < p2)%nat -> z2 j = act z j) -> sumn p2 (fun j => z2 j * dir n p2 x2 y k j) = sumn p (fun j => z j * dir n p x y k j).
Proof. intros Hz. rewrite <- act_iso. apply sumn_ext. intros j Hj. now rewrite Hz, basis_dir. Qed.
End Basis.

(** * C104 *)
(** B holds the rows of A in the coordinates given by the columns of Q: B = A Q. *)
Definition in_basis (A Q B : mat R) : Prop :=
  wf B /\ nr B = nr A /\ nc B = nc Q /\ forall i j, (i < nr A)%nat -> (j < nc Q)%nat -> entry B i j = Rsum (nc A) (fun l => entry A i l * entry Q l j).
(** Q Q^T = I: rotations, reflections, permutations of the features, additional zero features *)
Definition orthonormal_rows (Q : mat R) : Prop :=
  forall l m, (l < nr Q)%nat -> (m < nr Q)%nat -> Rsum (nc Q) (fun j => entry Q l j * entry Q m j) = if (l =? m)%nat then 1 else 0.
(** the data as training sees it is in the new basis as well *)
Definition prepared_in_basis (pp : preproc) (X Q X2 : mat R) : Prop :=
  forall i j, (i < nr X)%nat -> (j < nc Q)%nat -> prepared pp X2 i j = sumn (nc X) (fun l => prepared pp X i l * entry Q l j).

Section Same.
Variables (pp : preproc) (X Y Q X2 : mat R) (a : nat).
Let n := nr X.
Let p := nc X.
Hypotheses (WX : wf X) (WY : wf Y) (Hn : n <> 0%nat) (Hp : p <> 0%nat) (RY : nr Y = n) (CY : nc Y = 1%nat) (Ha : a <> 0%nat) (PX : preparable pp X) (PX2 : preparable pp X2) (PY : preparable pp Y).
Hypothesis Hnb : no_breakdown n p (prepared pp X) (fun i => prepared pp Y i 0) a.
Hypotheses (HB : in_basis X Q X2) (HQ : orthonormal_rows Q) (RQ : nr Q = p) (HP : prepared_in_basis pp X Q X2).
Lemma hq : forall l m, (l < p)%nat -> (m < p)%nat -> sumn (nc Q) (fun j => entry Q l j * entry Q m j) = if (l =? m)%nat then 1 else 0.
Proof. intros l m Hl Hm. rewrite <- Rsum_sumn. apply HQ; lia. Qed.
Lemma q_nonempty : nc Q <> 0%nat.
Proof. intros E. pose proof (hq 0 0 ltac:(lia) ltac:(lia)) as H. rewrite E, sumR_0 in H. cbn in H. lra. Qed.
Lemma nb2 : no_breakdown (nr X2) (nc X2) (prepared pp X2) (fun i => prepared pp Y i 0) a.
Proof. destruct HB as (_ & R2 & C2 & _). rewrite R2, C2. apply (basis_breakdown (nr X) p (nc Q) (entry Q) (prepared pp X)); [exact hq|exact HP|exact Hnb]. Qed.
Lemma score_same Z Z2 k i : nc Z = p -> in_basis Z Q Z2 -> (i < nr Z)%nat ->
  sumn (nc X2) (fun j => entry Z2 i j * dir (nr X2) (nc X2) (prepared pp X2) (fun i => prepared pp Y i 0) k j) = sumn p (fun j => entry Z i j * dir n p (prepared pp X) (fun i => prepared pp Y i 0) k j).
Proof.
  intros CZ (_ & RZ & _ & HZ) Hi. destruct HB as (_ & R2 & C2 & _). rewrite R2, C2. apply (basis_score n p (nc Q) (entry Q)); [exact hq|exact HP|].
  intros j Hj. rewrite HZ by assumption. now rewrite Rsum_sumn, CZ.
Qed.
Lemma gsq_same k : gsq (nr X2) (nc X2) (prepared pp X2) (fun i => prepared pp Y i 0) k = gsq n p (prepared pp X) (fun i => prepared pp Y i 0) k.
Proof. destruct HB as (_ & R2 & C2 & _). rewrite R2, C2. apply (basis_gsq n p (nc Q) (entry Q)); [exact hq|exact HP]. Qed.
Lemma tau_same k : tau (nr X2) (nc X2) (prepared pp X2) (fun i => prepared pp Y i 0) k = tau n p (prepared pp X) (fun i => prepared pp Y i 0) k.
Proof. destruct HB as (_ & R2 & C2 & _). rewrite R2, C2. apply (basis_tau n p (nc Q) (entry Q)); [exact hq|exact HP]. Qed.
Lemma predicted_same Z Z2 i : nc Z = p -> in_basis Z Q Z2 -> (i < nr Z)%nat -> predicted pp X2 Y a (entry Z2 i) = predicted pp X Y a (entry Z i).
Proof.
  intros CZ HZ Hi. unfold predicted. f_equal. f_equal. apply sumn_ext. intros k Hk. rewrite (score_same Z Z2) by assumption. now rewrite gsq_same, tau_same.
Qed.

Lemma same_pls1 lstsq (s1 s2 : pls_st (pls1_st R) R) : p_preprocessing s1 = pp -> p_num_components s1 = Z.of_nat a -> p_preprocessing s2 = pp -> p_num_components s2 = Z.of_nat a ->
  exists t1 t2, initialize (pls1 lstsq) s1 (Some X) (Some Y) = (t1, Ok None) /\ initialize (pls1 lstsq) s2 (Some X2) (Some Y) = (t2, Ok None) /\
    forall Z Z2, wf Z -> nc Z = p -> nr Z <> 0%nat -> in_basis Z Q Z2 -> exists S V,
      snd (transform (pls1 lstsq) t1 Z) = Ok S /\ snd (transform (pls1 lstsq) t2 Z2) = Ok S /\ snd (predict (pls1 lstsq) t1 Z) = Ok V /\ snd (predict (pls1 lstsq) t2 Z2) = Ok V.
Proof.
  intros Hp1 Hn1 Hp2 Hn2. pose proof HB as (WX2 & R2 & C2 & _).
  destruct (pls1_public pp X Y a WX WY Hn Hp RY CY Ha PX PY Hnb lstsq s1 Hp1 Hn1) as (t1 & E1 & Z1).
  destruct (pls1_public pp X2 Y a WX2 WY) with (lstsq := lstsq) (s0 := s2) as (t2 & E2 & Z2'); try assumption; [unfold n in *; congruence|rewrite C2; exact q_nonempty|unfold n in *; congruence|exact nb2|].
  exists t1, t2. split; [exact E1|]. split; [exact E2|]. intros Z Z2 WZ CZ RZ HZ. pose proof HZ as (WZ2 & RZ2 & CZ2 & _).
  destruct (Z1 Z WZ CZ RZ) as [A1 B1]. destruct (Z2' Z2 WZ2) as [A2 B2]; [congruence|congruence|].
  eexists. eexists. split; [exact A1|]. split; [rewrite A2|split; [exact B1|rewrite B2]].
  - rewrite RZ2. f_equal. apply mk_ext. intros i k Hi Hk. rewrite gsq_same. now rewrite (score_same Z Z2).
  - rewrite RZ2. f_equal. apply mk_ext. intros i k Hi Hk. now apply predicted_same.
Qed.
Lemma same_simpls eig (s1 s2 : pls_st (simpls_st R) R) : eig_one eig -> (si_coef (p_own s1) <= 0)%Z -> (si_coef (p_own s2) <= 0)%Z ->
  p_preprocessing s1 = pp -> p_num_components s1 = Z.of_nat a -> p_preprocessing s2 = pp -> p_num_components s2 = Z.of_nat a ->
  exists t1 t2, initialize (simpls eig) s1 (Some X) (Some Y) = (t1, Ok None) /\ initialize (simpls eig) s2 (Some X2) (Some Y) = (t2, Ok None) /\
    forall Z Z2, wf Z -> nc Z = p -> nr Z <> 0%nat -> in_basis Z Q Z2 -> exists V, snd (predict (simpls eig) t1 Z) = Ok V /\ snd (predict (simpls eig) t2 Z2) = Ok V.
Proof.
  intros Heig Hc1 Hc2 Hp1 Hn1 Hp2 Hn2. pose proof HB as (WX2 & R2 & C2 & _).
  destruct (simpls_public pp X Y a WX WY Hn Hp RY CY Ha PX PY Hnb eig s1 Heig Hp1 Hn1 Hc1) as (t1 & E1 & Z1).
  destruct (simpls_public pp X2 Y a WX2 WY) with (eig := eig) (s0 := s2) as (t2 & E2 & Z2'); try assumption; [unfold n in *; congruence|rewrite C2; exact q_nonempty|unfold n in *; congruence|exact nb2|].
  exists t1, t2. split; [exact E1|]. split; [exact E2|]. intros Z Z2 WZ CZ RZ HZ. pose proof HZ as (WZ2 & RZ2 & CZ2 & _).
  pose proof (Z1 Z WZ CZ RZ) as B1. pose proof (Z2' Z2 WZ2 ltac:(congruence) ltac:(congruence)) as B2.
  eexists. split; [exact B1|rewrite B2]. rewrite RZ2. f_equal. apply mk_ext. intros i k Hi Hk. now apply predicted_same.
Qed.
End Same.

Lemma prepared_rotated pp X Q X2 : pp = PP_NONE \/ pp = PP_CENTER -> in_basis X Q X2 -> prepared_in_basis pp X Q X2.
Proof.
  intros Hpp (_ & R2 & C2 & H) i j Hi Hj. destruct Hpp as [-> | ->]; cbn [prepared].
  - now rewrite H, Rsum_sumn.
  - rewrite R2, H, Rsum_sumn by assumption. unfold Rmean. rewrite Rsum_sumn.
    rewrite (sumn_ext (nr X) _ (fun k => sumn (nc X) (fun l => entry X k l * entry Q l j))) by (intros; now rewrite H, Rsum_sumn).
    rewrite sumR_swap. rewrite (sumn_ext (nc X) (fun l => (_ - _) * _) (fun l => entry X i l * entry Q l j - / INR (nr X) * sumn (nr X) (fun k => entry X k l * entry Q l j))).
    2:{ intros l Hl. rewrite Rsum_sumn, sumR_scal_r. unfold Rdiv. ring. }
    rewrite sumR_minus, sumR_scal. unfold Rdiv. ring.
Qed.
Lemma preparable_rotated pp X Q X2 : pp = PP_NONE \/ pp = PP_CENTER -> in_basis X Q X2 -> preparable pp X -> preparable pp X2.
Proof. intros [-> | ->] (_ & R2 & _); cbn [preparable]; now rewrite ?R2. Qed.

Theorem C104_pls1 lstsq (s1 s2 : pls_st (pls1_st R) R) (X Y Q X2 : mat R) (a : nat) (pp : preproc) : let n := nr X in let p := nc X in
  pp = PP_NONE \/ pp = PP_CENTER ->
  p_preprocessing s1 = pp -> p_num_components s1 = Z.of_nat a -> p_preprocessing s2 = pp -> p_num_components s2 = Z.of_nat a ->
  wf X -> wf Y -> n <> 0%nat -> p <> 0%nat -> nr Y = n -> nc Y = 1%nat -> a <> 0%nat -> preparable pp X ->
  no_breakdown n p (prepared pp X) (fun i => prepared pp Y i 0) a -> nr Q = p -> orthonormal_rows Q -> in_basis X Q X2 ->
  exists t1 t2, initialize (pls1 lstsq) s1 (Some X) (Some Y) = (t1, Ok None) /\ initialize (pls1 lstsq) s2 (Some X2) (Some Y) = (t2, Ok None) /\
    forall Z Z2, wf Z -> nc Z = p -> nr Z <> 0%nat -> in_basis Z Q Z2 -> exists S V,
      snd (transform (pls1 lstsq) t1 Z) = Ok S /\ snd (transform (pls1 lstsq) t2 Z2) = Ok S /\ snd (predict (pls1 lstsq) t1 Z) = Ok V /\ snd (predict (pls1 lstsq) t2 Z2) = Ok V.
Proof.
  intros n p Hpp H1 H2 H3 H4 WX WY Hn Hp RY CY Ha PX Hnb RQ HQ HB. apply (same_pls1 pp X Y Q X2 a); auto.
  - eapply preparable_rotated; eauto.
  - destruct Hpp as [-> | ->]; cbn [preparable] in *; [exact I|]. unfold n in RY. now rewrite RY.
  - now apply prepared_rotated.
Qed.
Theorem C104_simpls eig (s1 s2 : pls_st (simpls_st R) R) (X Y Q X2 : mat R) (a : nat) (pp : preproc) : let n := nr X in let p := nc X in
  eig_one eig -> (si_coef (p_own s1) <= 0)%Z -> (si_coef (p_own s2) <= 0)%Z -> pp = PP_NONE \/ pp = PP_CENTER ->
  p_preprocessing s1 = pp -> p_num_components s1 = Z.of_nat a -> p_preprocessing s2 = pp -> p_num_components s2 = Z.of_nat a ->
  wf X -> wf Y -> n <> 0%nat -> p <> 0%nat -> nr Y = n -> nc Y = 1%nat -> a <> 0%nat -> preparable pp X ->
  no_breakdown n p (prepared pp X) (fun i => prepared pp Y i 0) a -> nr Q = p -> orthonormal_rows Q -> in_basis X Q X2 ->
  exists t1 t2, initialize (simpls eig) s1 (Some X) (Some Y) = (t1, Ok None) /\ initialize (simpls eig) s2 (Some X2) (Some Y) = (t2, Ok None) /\
    forall Z Z2, wf Z -> nc Z = p -> nr Z <> 0%nat -> in_basis Z Q Z2 -> exists V,
      snd (predict (simpls eig) t1 Z) = Ok V /\ snd (predict (simpls eig) t2 Z2) = Ok V.
Proof.
  intros n p Heig Hc1 Hc2 Hpp H1 H2 H3 H4 WX WY Hn Hp RY CY Ha PX Hnb RQ HQ HB. apply (same_simpls pp X Y Q X2 a); auto.
  - eapply preparable_rotated; eauto.
  - destruct Hpp as [-> | ->]; cbn [preparable] in *; [exact I|]. unfold n in RY. now rewrite RY.
  - now apply prepared_rotated.
Qed.

(** The order of the features, for every preprocessing *)
Definition columns_in_order (s : nat -> nat) (A B : mat R) : Prop :=
  wf B /\ nr B = nr A /\ nc B = nc A /\ forall i j, (i < nr A)%nat -> (j < nc A)%nat -> entry B i j = entry A i (s j).
Definition perm_matrix (p : nat) (s : nat -> nat) : mat R := mk p p (fun l j => if (l =? s j)%nat then 1 else 0).
Lemma perm_pick p s (f : nat -> R) j : (s j < p)%nat -> (j < p)%nat -> sumn p (fun l => f l * entry (perm_matrix p s) l j) = f (s j).
Proof.
  intros Hs Hj. rewrite (sumR_single p (s j)); [|assumption|].
  - unfold perm_matrix. rewrite entry_mk, Nat.eqb_refl by assumption. ring.
  - intros l Hl Hne. unfold perm_matrix. rewrite entry_mk by assumption. destruct (Nat.eqb_spec l (s j)); [congruence|ring].
Qed.
Lemma perm_orthonormal p s : Permutation (map s (seq 0 p)) (seq 0 p) -> orthonormal_rows (perm_matrix p s).
Proof.
  intros Hs l m Hl Hm. unfold perm_matrix in Hl, Hm |- *. rewrite nr_mk in Hl, Hm. rewrite nc_mk, Rsum_sumn.
  rewrite (sumn_ext p _ (fun j => (fun i => if (l =? i)%nat then if (m =? i)%nat then 1 else 0 else 0) (s j))).
  2:{ intros j Hj. rewrite !entry_mk by assumption. destruct (l =? s j)%nat, (m =? s j)%nat; ring. }
  rewrite (sum_perm p s Hs (fun i => if (l =? i)%nat then if (m =? i)%nat then 1 else 0 else 0)). rewrite (sumR_single p l); [|assumption|].
  - rewrite Nat.eqb_refl. now rewrite Nat.eqb_sym.
  - intros i Hi Hne. destruct (Nat.eqb_spec l i); [congruence|reflexivity].
Qed.
Lemma perm_basis s A B : Permutation (map s (seq 0 (nc A))) (seq 0 (nc A)) -> columns_in_order s A B -> in_basis A (perm_matrix (nc A) s) B.
Proof.
  intros Hs (W & HR & HC & H). split; [exact W|]. split; [exact HR|]. split; [exact HC|]. intros i j Hi Hj. change (nc (perm_matrix (nc A) s)) with (nc A) in Hj.
  rewrite Rsum_sumn, perm_pick; [now apply H|now apply p_lt|assumption].
Qed.
Lemma perm_prepared pp s X X2 : Permutation (map s (seq 0 (nc X))) (seq 0 (nc X)) -> columns_in_order s X X2 -> prepared_in_basis pp X (perm_matrix (nc X) s) X2.
Proof.
  intros Hs (W & HR & HC & H) i j Hi Hj. change (nc (perm_matrix (nc X) s)) with (nc X) in Hj. rewrite perm_pick; [|now apply p_lt|assumption].
  assert (EM : Rmean (nr X2) (fun k => entry X2 k j) = Rmean (nr X) (fun k => entry X k (s j))).
  { rewrite HR. unfold Rmean. f_equal. rewrite !Rsum_sumn. apply sumn_ext. intros k Hk. now apply H. }
  assert (EV : Rvar (nr X2) (fun k => entry X2 k j) = Rvar (nr X) (fun k => entry X k (s j))).
  { unfold Rvar. rewrite EM, HR. f_equal. rewrite !Rsum_sumn. apply sumn_ext. intros k Hk. now rewrite H. }
  destruct pp; cbn [prepared]; rewrite ?EM, ?EV, H by assumption; reflexivity.
Qed.
Lemma perm_preparable pp s X X2 : Permutation (map s (seq 0 (nc X))) (seq 0 (nc X)) -> columns_in_order s X X2 -> preparable pp X -> preparable pp X2.
Proof.
  intros Hs (W & HR & HC & H). destruct pp; cbn [preparable]; rewrite ?HR, ?HC; auto. intros [P1 P2]. split; [exact P1|]. intros j Hj Hc. apply (P2 (s j)); [now apply p_lt|].
  intros i k Hi Hk. rewrite <- !H by assumption. apply Hc; now rewrite HR.
Qed.
Theorem C104_columns lstsq (s1 s2 : pls_st (pls1_st R) R) (X Y X2 : mat R) (s : nat -> nat) (a : nat) (pp : preproc) : let n := nr X in let p := nc X in
  p_preprocessing s1 = pp -> p_num_components s1 = Z.of_nat a -> p_preprocessing s2 = pp -> p_num_components s2 = Z.of_nat a ->
  wf X -> wf Y -> n <> 0%nat -> p <> 0%nat -> nr Y = n -> nc Y = 1%nat -> a <> 0%nat -> preparable pp X -> preparable pp Y ->
  no_breakdown n p (prepared pp X) (fun i => prepared pp Y i 0) a -> Permutation (map s (seq 0 p)) (seq 0 p) -> columns_in_order s X X2 ->
  exists t1 t2, initialize (pls1 lstsq) s1 (Some X) (Some Y) = (t1, Ok None) /\ initialize (pls1 lstsq) s2 (Some X2) (Some Y) = (t2, Ok None) /\
    forall Z Z2, wf Z -> nc Z = p -> nr Z <> 0%nat -> columns_in_order s Z Z2 -> exists S V,
      snd (transform (pls1 lstsq) t1 Z) = Ok S /\ snd (transform (pls1 lstsq) t2 Z2) = Ok S /\ snd (predict (pls1 lstsq) t1 Z) = Ok V /\ snd (predict (pls1 lstsq) t2 Z2) = Ok V.
Proof.
  intros n p H1 H2 H3 H4 WX WY Hn Hp RY CY Ha PX PY Hnb Hs HB.
  destruct (same_pls1 pp X Y (perm_matrix p s) X2 a WX WY Hn Hp RY CY Ha PX (perm_preparable pp s X X2 Hs HB PX) PY Hnb (perm_basis s X X2 Hs HB) (perm_orthonormal p s Hs) eq_refl (perm_prepared pp s X X2 Hs HB) lstsq s1 s2 H1 H2 H3 H4) as (t1 & t2 & E1 & E2 & HZ).
  exists t1, t2. split; [exact E1|]. split; [exact E2|]. intros Z Z2 WZ CZ RZ Hc. apply HZ; auto. unfold p in *. rewrite <- CZ in Hs |- *. now apply perm_basis.
Qed.
Theorem C104_columns_simpls eig (s1 s2 : pls_st (simpls_st R) R) (X Y X2 : mat R) (s : nat -> nat) (a : nat) (pp : preproc) : let n := nr X in let p := nc X in
  eig_one eig -> (si_coef (p_own s1) <= 0)%Z -> (si_coef (p_own s2) <= 0)%Z ->
  p_preprocessing s1 = pp -> p_num_components s1 = Z.of_nat a -> p_preprocessing s2 = pp -> p_num_components s2 = Z.of_nat a ->
  wf X -> wf Y -> n <> 0%nat -> p <> 0%nat -> nr Y = n -> nc Y = 1%nat -> a <> 0%nat -> preparable pp X -> preparable pp Y ->
  no_breakdown n p (prepared pp X) (fun i => prepared pp Y i 0) a -> Permutation (map s (seq 0 p)) (seq 0 p) -> columns_in_order s X X2 ->
  exists t1 t2, initialize (simpls eig) s1 (Some X) (Some Y) = (t1, Ok None) /\ initialize (simpls eig) s2 (Some X2) (Some Y) = (t2, Ok None) /\
    forall Z Z2, wf Z -> nc Z = p -> nr Z <> 0%nat -> columns_in_order s Z Z2 -> exists V,
      snd (predict (simpls eig) t1 Z) = Ok V /\ snd (predict (simpls eig) t2 Z2) = Ok V.
Proof.
  intros n p Heig Hc1 Hc2 H1 H2 H3 H4 WX WY Hn Hp RY CY Ha PX PY Hnb Hs HB.
  destruct (same_simpls pp X Y (perm_matrix p s) X2 a WX WY Hn Hp RY CY Ha PX (perm_preparable pp s X X2 Hs HB PX) PY Hnb (perm_basis s X X2 Hs HB) (perm_orthonormal p s Hs) eq_refl (perm_prepared pp s X X2 Hs HB) eig s1 s2 Heig Hc1 Hc2 H1 H2 H3 H4) as (t1 & t2 & E1 & E2 & HZ).
  exists t1, t2. split; [exact E1|]. split; [exact E2|]. intros Z Z2 WZ CZ RZ Hc. apply HZ; auto. unfold p in *. rewrite <- CZ in Hs |- *. now apply perm_basis.
Qed.
Print Assumptions C104_pls1.
Print Assumptions C104_simpls.
Print Assumptions C104_columns.
Print Assumptions C104_columns_simpls.
(** The data of C51 in a rotated basis, and with an additional feature that is always 0 *)
Example C104_ex : let X := Mat 2 2 [[3;0];[0;4]] in let Y := Mat 2 1 [[1];[1]] in let lstsq := fun _ _ => Err LinAlgError in
  let X2 := Mat 2 3 [[9/5;0;12/5];[-16/5;0;12/5]] in
  let obj := PlsSt 2 PP_NONE false [] [] None None (c_new (pls1 lstsq)) in
  exists t1 t2 V, initialize (pls1 lstsq) obj (Some X) (Some Y) = (t1, Ok None) /\ initialize (pls1 lstsq) obj (Some X2) (Some Y) = (t2, Ok None) /\
    snd (predict (pls1 lstsq) t1 (Mat 1 2 [[5;10]])) = Ok V /\ snd (predict (pls1 lstsq) t2 (Mat 1 3 [[-5;0;10]])) = Ok V.
Proof.
  cbv zeta. destruct C51_ex as (WX & WY & Hnb).
  assert (HB : forall r A B, wf A -> wf B -> nr A = r -> nr B = r -> nc A = 2%nat -> nc B = 3%nat ->
    (forall i, (i < r)%nat -> entry B i 0 = entry A i 0 * (3/5) + entry A i 1 * (-4/5) /\ entry B i 1 = 0 /\ entry B i 2 = entry A i 0 * (4/5) + entry A i 1 * (3/5)) ->
    in_basis A (Mat 2 3 [[3/5;0;4/5];[-4/5;0;3/5]]) B).
  { intros r A B WA WB RA RB CA CB H. split; [exact WB|]. split; [congruence|]. split; [exact CB|]. intros i j Hi Hj. rewrite RA in Hi. destruct (H i Hi) as (H0 & H1 & H2).
    rewrite CA, Rsum_sumn, !sumR_S, sumR_0. destruct j as [|[|[|j]]]; [rewrite H0|rewrite H1|rewrite H2|cbn in Hj; lia]; cbn; lra. }
  destruct (C104_pls1 (fun _ _ => Err LinAlgError) (PlsSt 2 PP_NONE false [] [] None None (c_new (pls1 (fun _ _ => Err LinAlgError))))
    (PlsSt 2 PP_NONE false [] [] None None (c_new (pls1 (fun _ _ => Err LinAlgError)))) (Mat 2 2 [[3;0];[0;4]]) (Mat 2 1 [[1];[1]]) (Mat 2 3 [[3/5;0;4/5];[-4/5;0;3/5]])
    (Mat 2 3 [[9/5;0;12/5];[-16/5;0;12/5]]) 2 PP_NONE) as (t1 & t2 & E1 & E2 & HZ);
    try (exact WX || exact WY || exact Hnb || exact I || reflexivity || (cbn; lia)).
  - now left.
  - intros l m Hl Hm. rewrite Rsum_sumn. cbn [nc]. rewrite !sumR_S, sumR_0. destruct l as [|[|l]]; [| |cbn in Hl; lia]; (destruct m as [|[|m]]; [| |cbn in Hm; lia]); cbn; lra.
  - apply (HB 2%nat); try reflexivity; [exact WX|split; [reflexivity|repeat constructor]|]. intros i Hi. destruct i as [|[|i]]; [| |lia]; cbn; lra.
  - destruct (HZ (Mat 1 2 [[5;10]]) (Mat 1 3 [[-5;0;10]])) as (S & V & _ & _ & A1 & A2).
    + split; [reflexivity|repeat constructor].
    + reflexivity.
    + cbn; lia.
    + apply (HB 1%nat); try reflexivity; [split; [reflexivity|repeat constructor]|split; [reflexivity|repeat constructor]|]. intros i Hi. destruct i as [|i]; [|lia]; cbn; lra.
    + exists t1, t2, V. split; [exact E1|]. split; [exact E2|]. split; [exact A1|exact A2].
Qed.
