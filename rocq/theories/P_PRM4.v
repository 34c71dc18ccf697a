(** C88: PRM on data with more columns than rows, over the reals. *)
From Coq Require Import List ZArith Lia Bool Arith Reals Lra Permutation Sorted.
From Verif Require Import Base Num Mat M_Matrix M_Factory M_Helper M_Loop M_Transform M_PLSBase M_PLS M_PLS2
  S_Matrix L_Base L_Mat L_MatR L_Matrix L_Linalg L_Alg L_Krylov L_Public P_Eigen P_PLS1 P_SIMPLS2 L_DIPLS P_DIPLS P_PRM P_Sparse P_Median L_PRM P_PRM2 P_PRM3.
Import ListNotations.
Local Open Scope R_scope.

Lemma fit_tall eig svd (ps : prm_st (T:=R)) a (X Y : mat R) m its : wf X -> wf Y -> (2 <= nr X)%nat -> nc X <> 0%nat -> (nc X <= nr X)%nat -> nr Y = nr X -> nc Y = 1%nat ->
  prm_fit eig svd ps (Z.of_nat a) X Y = Ok (m, its) -> table (nc X) 1 (pm_coef m) /\ exists W, si_W (p_own (pm_simpls m)) = Some W /\ table (nc X) a W.
Proof.
  intros WX WY Hn Hp Hw HY CY Ef. unfold prm_fit in Ef. rewrite (proj2 (Nat.ltb_ge (nr X) (nc X)) Hw) in Ef. cbn [bind] in Ef.
  destruct (start_run ps X Y WX WY Hn Hp HY CY) as (wr & wx & med & Er & Ex & Or & Ox & _). rewrite Er in Ef. cbn [bind] in Ef. rewrite Ex in Ef. cbn [bind] in Ef.
  match type of Ef with bind ?x _ = _ => destruct x as [[[[[[W_r W_x] Ts] g] sm] it]|] eqn:Ew end; cbn [bind] in Ef; [|discriminate].
  destruct (while_run eig ps a X Y WX WY Hn Hp HY CY _ _ _ _ _ _ _ _ _ _ _ Or Ox Ew) as (K & wrs & wxs & sim & _ & _ & _ & _ & _ & _ & _ & (B & EB & TB & _) & (W & EW & TW & _)).
  rewrite EB in Ef. cbn [need bind] in Ef. assert (Em : m = PrmModel W_r W_x Ts g B sm) by congruence. rewrite Em. cbn [pm_coef pm_simpls]. split; [exact TB|]. now exists W.
Qed.

(** -1 times the left singular vectors of X^T; what the training replaces X by; the paper's
    reduction of X. *)
Definition back (u : mat R) (n p : nat) : mat R := mk p n (fun i j => - entry u i j).
Definition reduced (n : nat) (s : list R) (vh : mat R) : mat R := mk n n (fun i j => - (entry vh i j * nth j s 0)).
Definition rotated (X u : mat R) : mat R := mk (nr X) (nr X) (fun i j => Rsum (nc X) (fun l => entry X i l * - entry u l j)).

Section Wide.
Variables (eig : mat R -> res (list R * mat R)) (svd : mat R -> res (mat R * list R * mat R)) (X Y u vh : mat R) (sv : list R) (a : nat).
Hypotheses (WX : wf X) (WY : wf Y) (Hn : (2 <= nr X)%nat) (Hw : (nr X < nc X)%nat) (HY : nr Y = nr X) (CY : nc Y = 1%nat).
Hypotheses (Es : svd (transpose X) = Ok (u, sv, vh)) (Hans : svd_answer (transpose X) u sv vh) (Hl : length sv = nr X).
Let n := nr X.
Let p := nc X.
Lemma factors : svd_U svd (transpose X) = Ok (back u n p) /\ exists V S, svd_V svd (transpose X) = Ok V /\ svd_S svd (transpose X) = Ok S /\ mul V S = Ok (reduced n sv vh).
Proof.
  destruct (svd_parts svd (transpose X) u sv vh Es) as (EU & EV & ESs); [lia|]. destruct Hans as (Wu & Ru & Cu & Wv & Rv & Cv & _). rewrite Hl in *.
  assert (Ru' : nr u = p) by exact Ru. assert (Cv' : nc vh = n) by exact Cv.
  split. { rewrite EU. f_equal. rewrite (wf_mk u Wu) at 1. rewrite Ru', Cu, mul_scalar_mk. apply mk_ext. intros i j Hi Hj. cbn [nmul NumR]. ring. }
  do 2 eexists. split; [exact EV|]. split; [exact ESs|]. rewrite (wf_mk vh Wv) at 1. rewrite Rv, Cv', mul_scalar_mk. fold n. rewrite mul_mk. f_equal. apply mk_ext. intros i j Hi Hj. cbn [nmul NumR].
  rewrite (sumn_ext n _ (fun k => (if (j =? k)%nat then 1 else 0) * (- (entry vh i k * nth k sv 0)))).
  - rewrite (sumR_single n j); [rewrite Nat.eqb_refl; ring|exact Hj|]. intros k Hk Hne. rewrite (proj2 (Nat.eqb_neq j k)) by congruence. ring.
  - intros k Hk. destruct (Nat.eqb_spec j k) as [->|]; ring.
Qed.
Lemma rotated_eq : orthonormal_factors u n vh -> rotated X u = mk n n (fun i j => - (entry vh j i * nth j sv 0)).
Proof.
  intros (Ho & _). apply mk_ext. intros i j Hi Hj. destruct Hans as (_ & Ru & _ & _ & _ & _ & HA). rewrite Hl in HA. change (nr u = p) in Ru.
  rewrite Rsum_sumn. rewrite (sumn_ext p _ (fun l => sumn n (fun t => - (nth t sv 0 * entry vh t i) * (entry u l t * entry u l j)))).
  - rewrite sumR_swap. rewrite (sumn_ext n _ (fun t => (if (j =? t)%nat then 1 else 0) * (- (nth t sv 0 * entry vh t i)))).
    + rewrite (sumR_single n j); [rewrite Nat.eqb_refl; ring|exact Hj|]. intros k Hk Hne. rewrite (proj2 (Nat.eqb_neq j k)) by congruence. ring.
    + intros t Ht. rewrite sumR_scal. specialize (Ho t j Ht Hj). rewrite Ru, Rsum_sumn in Ho. rewrite Ho. unfold delta. rewrite (Nat.eqb_sym t j). ring.
  - intros l Hll. assert (E : entry X i l = sumn n (fun t => entry u l t * nth t sv 0 * entry vh t i)).
    { rewrite <- Rsum_sumn, <- HA; [|exact Hll|exact Hi]. unfold transpose. rewrite entry_mk by assumption. reflexivity. }
    rewrite E. rewrite Rmult_comm, <- sumR_scal. apply sumn_ext. intros t Ht. ring.
Qed.
Lemma fit_wide (ps : prm_st (T:=R)) m its : prm_fit eig svd ps (Z.of_nat a) X Y = Ok (m, its) ->
  exists m', prm_fit eig svd ps (Z.of_nat a) (reduced n sv vh) Y = Ok (m', its) /\ mul (back u n p) (pm_coef m') = Ok (pm_coef m) /\ pm_simpls m = pm_simpls m'.
Proof.
  intros Ef. unfold prm_fit in Ef. rewrite (proj2 (Nat.ltb_lt (nr X) (nc X)) Hw) in Ef. cbv zeta in Ef. destruct factors as (EU & V & S & EV & ESs & Em). rewrite EU in Ef. cbn [bind] in Ef. rewrite EV in Ef. cbn [bind] in Ef. rewrite ESs in Ef. cbn [bind] in Ef. rewrite Em in Ef. cbn [bind] in Ef.
  unfold prm_fit. cbn [reduced nr nc mk]. rewrite Nat.ltb_irrefl. cbn [bind]. fold (reduced n sv vh).
  repeat match type of Ef with bind ?x _ = _ => destruct x as [?o|] eqn:?; cbn [bind] in Ef |- *; [|discriminate] end.
  destruct o1 as [[[[[W_r W_x] Ts] g] sm] it]. destruct (need (si_B (p_own sm))) as [B|]; cbn [bind] in Ef |- *; [|discriminate]. destruct (mul (back u n p) B) as [C|] eqn:EC; cbn [bind] in Ef; [|discriminate].
  injection Ef as <- <-. eexists. split; [reflexivity|]. cbn [pm_coef pm_simpls]. split; [exact EC|reflexivity].
Qed.
End Wide.

(** C88.  Training on n x p data with p > n, given a correct answer u, s, vh of the singular value
    decomposition of X^T: it is the training on the n x n matrix  - vh diag(s)  followed by  Z -> Z U
    with U = -u.  (The reduction of the paper is X U = - vh^T diag(s); the two agree when vh is
    symmetric.)  transform raises ValueError. *)
Theorem C88_wide_partial eig svd (s0 s : pls_st (prm_st (T:=R)) R) (X Y u vh : mat R) (sv : list R) (a : nat) :
  let n := nr X in let p := nc X in
  p_preprocessing s0 = PP_NONE -> p_num_components s0 = Z.of_nat a -> wf X -> wf Y -> (2 <= n)%nat -> (n < p)%nat -> nr Y = n ->
  svd (transpose X) = Ok (u, sv, vh) -> svd_answer (transpose X) u sv vh -> length sv = n ->
  initialize (prm eig svd) s0 (Some X) (Some Y) = (s, Ok None) ->
  (exists t, initialize (prm eig svd) s0 (Some (reduced n sv vh)) (Some Y) = (t, Ok None) /\
    forall Z, wf Z -> nc Z = p -> exists V, snd (predict (prm eig svd) s Z) = Ok V /\
      snd (predict (prm eig svd) t (mk (nr Z) n (fun i j => Rsum p (fun l => entry Z i l * - entry u l j)))) = Ok V) /\
  (orthonormal_factors u n vh -> (forall i j, (i < n)%nat -> (j < n)%nat -> entry vh i j = entry vh j i) -> reduced n sv vh = rotated X u).
Proof.
  intros n p Hpp Ha WX WY Hn Hw HY Es Hans Hl Ei. destruct (single_none_conv (prm eig svd) s0 s X Y eq_refl Hpp Ei) as (CY & own & Etr).
  destruct (single_none (prm eig svd) s0 X Y own _ eq_refl Hpp CY Etr) as (_ & Hs). destruct (Hs eq_refl) as (s' & Ei' & _ & _ & HP). rewrite Ei in Ei'. injection Ei' as <-.
  split.
  - cbn [prm c_train] in Etr. rewrite Ha in Etr. set (o := c_reset (prm eig svd) (p_own s0)) in Etr. destruct (prm_fit eig svd o (Z.of_nat a) X Y) as [[m its]|] eqn:Ef; [|discriminate]. injection Etr as <-.
    destruct (fit_wide eig svd X Y u vh sv a Hn Hw HY CY Es Hans Hl o m its Ef) as (m' & Ef' & Ec & _).
    assert (Et : c_train (prm eig svd) (p_num_components s0) (c_reset (prm eig svd) (p_own s0)) (reduced n sv vh) Y = (Prm (pr_tol o) (pr_max_iter o) (pr_C o) (pr_num_coef o) (Some m'), Ok None)).
    { rewrite Ha. fold o. cbn [prm c_train]. rewrite (Ef' : prm_fit eig svd o (Z.of_nat a) (reduced n sv vh) Y = _). reflexivity. }
    destruct (single_none (prm eig svd) s0 (reduced n sv vh) Y _ _ eq_refl Hpp CY Et) as (_ & Hst). destruct (Hst eq_refl) as (t & Eit & _ & _ & HPt). exists t. split; [exact Eit|].
    destruct (fit_tall eig svd o a (reduced n sv vh) Y m' its) as ((fB & EB) & _); try assumption; try apply mk_wf; try (cbn [reduced nr nc mk]; lia). cbn [reduced nc mk] in EB.
    intros Z WZ CZ. rewrite HP, HPt. cbn [prm c_predict snd pr_model need bind]. rewrite EB in Ec |- *. unfold back in Ec. fold n in Ec. fold p in Ec. rewrite mul_mk in Ec. injection Ec as Ec. rewrite <- Ec.
    assert (EZ : forall M, mul Z M = mul (mk (nr Z) p (entry Z)) M) by (intros M; f_equal; rewrite <- CZ; now apply wf_mk). rewrite EZ, !mul_mk. eexists. split; [reflexivity|]. f_equal. apply mk_ext. intros i j Hi Hj. cbn [nmul NumR].
    rewrite (sumn_ext n _ (fun k => sumn p (fun l => entry Z i l * (- entry u l k * fB k j)))) by (intros k Hk; rewrite Rsum_sumn, <- sumR_scal_r; apply sumn_ext; intros; ring).
    rewrite sumR_swap. apply sumn_ext. intros l Hll. apply sumR_scal.
  - intros Ho Hsym. rewrite (rotated_eq X u vh sv Hans Hl Ho). apply mk_ext. intros i j Hi Hj. now rewrite Hsym.
Qed.
(** It succeeds whenever the training on the reduction does. *)
Theorem C88_trains eig svd (s0 t : pls_st (prm_st (T:=R)) R) (X Y u vh : mat R) (sv : list R) (a : nat) :
  p_preprocessing s0 = PP_NONE -> p_num_components s0 = Z.of_nat a -> wf Y -> (2 <= nr X)%nat -> (nr X < nc X)%nat -> nr Y = nr X ->
  svd (transpose X) = Ok (u, sv, vh) -> svd_answer (transpose X) u sv vh -> length sv = nr X ->
  initialize (prm eig svd) s0 (Some (reduced (nr X) sv vh)) (Some Y) = (t, Ok None) ->
  exists s, initialize (prm eig svd) s0 (Some X) (Some Y) = (s, Ok None).
Proof.
  intros Hpp Ha WY Hn Hw HY Es Hans Hl Et. destruct (single_none_conv (prm eig svd) s0 t _ Y eq_refl Hpp Et) as (CY & own & Etr). cbn [prm c_train] in Etr. rewrite Ha in Etr.
  set (o := c_reset (prm eig svd) (p_own s0)) in Etr. destruct (prm_fit eig svd o (Z.of_nat a) (reduced (nr X) sv vh) Y) as [[m its]|] eqn:Ef; [|discriminate].
  destruct (fit_tall eig svd o a (reduced (nr X) sv vh) Y m its) as ((fB & EB) & _); try apply mk_wf; try assumption; try (cbn [reduced nr nc mk]; lia). cbn [reduced nc mk] in EB.
  destruct (factors svd X Y u vh sv Hn Hw HY CY Es Hans Hl) as (EU & V & S & EV & ES & EM).
  assert (Efw : exists m', prm_fit eig svd o (Z.of_nat a) X Y = Ok (m', its)).
  { unfold prm_fit in Ef |- *. cbn [reduced nr nc mk] in Ef. rewrite Nat.ltb_irrefl in Ef. cbn [bind] in Ef. fold (reduced (nr X) sv vh) in Ef.
    rewrite (proj2 (Nat.ltb_lt (nr X) (nc X)) Hw). cbv zeta. rewrite EU. cbn [bind]. rewrite EV. cbn [bind]. rewrite ES. cbn [bind]. rewrite EM. cbn [bind].
    repeat match type of Ef with bind ?x _ = _ => destruct x as [?o|] eqn:?; cbn [bind] in Ef |- *; [|discriminate] end. destruct o2 as [[[[[W_r W_x] Ts] g] sm] it]. destruct (need (si_B (p_own sm))) as [B|]; cbn [bind] in Ef |- *; [|discriminate].
    injection Ef as <- <-. cbn [pm_coef] in EB. rewrite EB. unfold back. rewrite mul_mk. cbn [bind]. eexists. reflexivity. }
  destruct Efw as (m' & Efw).
  assert (Et2 : exists own, c_train (prm eig svd) (p_num_components s0) o X Y = (own, Ok None)).
  { rewrite Ha. cbn [prm c_train]. rewrite Efw. eexists. reflexivity. }
  destruct Et2 as (own2 & Et2). destruct (single_none (prm eig svd) s0 X Y own2 _ eq_refl Hpp CY Et2) as (_ & Hs). destruct (Hs eq_refl) as (s & Ei & _). now exists s.
Qed.
(** After every successful training on wide data transform raises, on any data the training accepts. *)
Theorem C88_transform_refuted eig svd (s0 s : pls_st (prm_st (T:=R)) R) (X Y u vh : mat R) (sv : list R) (a : nat) :
  p_preprocessing s0 = PP_NONE -> p_num_components s0 = Z.of_nat a -> wf X -> wf Y -> (2 <= nr X)%nat -> (nr X < nc X)%nat -> nr Y = nr X ->
  svd (transpose X) = Ok (u, sv, vh) -> svd_answer (transpose X) u sv vh -> length sv = nr X ->
  initialize (prm eig svd) s0 (Some X) (Some Y) = (s, Ok None) ->
  forall Z, nc Z = nc X -> snd (transform (prm eig svd) s Z) = Err ValueError.
Proof.
  intros Hpp Ha WX WY Hn Hw HY Es Hans Hl Ei. destruct (single_none_conv (prm eig svd) s0 s X Y eq_refl Hpp Ei) as (CY & own & Etr).
  destruct (single_none (prm eig svd) s0 X Y own _ eq_refl Hpp CY Etr) as (_ & Hs). destruct (Hs eq_refl) as (s' & Ei' & _ & HT & _). rewrite Ei in Ei'. injection Ei' as <-.
  cbn [prm c_train] in Etr. rewrite Ha in Etr. set (o := c_reset (prm eig svd) (p_own s0)) in Etr. destruct (prm_fit eig svd o (Z.of_nat a) X Y) as [[m its]|] eqn:Ef; [|discriminate]. injection Etr as <-.
  destruct (fit_wide eig svd X Y u vh sv a Hn Hw HY CY Es Hans Hl o m its Ef) as (m' & Ef' & _ & Em).
  destruct (fit_tall eig svd o a (reduced (nr X) sv vh) Y m' its) as (_ & W & EW & (fW & ->)); try assumption; try apply mk_wf; try (cbn [reduced nr nc mk]; lia).
  intros Z CZ. rewrite HT. cbn [prm c_transform snd pr_model need bind]. rewrite Em, EW. cbn [need bind]. unfold mul, is_multiplicable_with. cbn [reduced nr nc mk]. rewrite CZ, (proj2 (Nat.eqb_neq (nc X) (nr X))) by lia. reflexivity.
Qed.

(** * One component *)
Lemma simpls_first eig coef n p (X : nat -> nat -> R) (y : nat -> R) j0 : eig_one eig -> (coef <= 0)%Z -> n <> 0%nat -> (j0 < p)%nat -> cov n X y j0 <> 0 ->
  exists s c, 0 < c /\ initialize (simpls eig) (new_simpls eig coef 1) (Some (mk n p X)) (Some (mk n 1 (fun i _ => y i))) = (s, Ok None) /\
    forall m z, snd (predict (simpls eig) s (mk m p z)) = Ok (mk m 1 (fun i _ => c * sumn p (fun j => z i j * cov n X y j))).
Proof.
  intros Heig Hco Hn Hj Hne. assert (Hnb : no_breakdown n p X y 1). { intros k Hk. replace k with 0%nat by lia. exists j0. split; [exact Hj|exact Hne]. }
  destruct (simpls_run eig n p 1 X y Heig Hn ltac:(lia) ltac:(discriminate) Hnb (Simpls coef None None None) Hco) as (own & eps & _ & Et & Hnew).
  destruct (single_none (simpls eig) (new_simpls eig coef 1) (mk n p X) (mk n 1 (fun i _ => y i)) own _ eq_refl eq_refl eq_refl Et) as (_ & Hs). destruct (Hs eq_refl) as (s & Ei & _ & _ & HP).
  pose proof (tau_pos n p 1 X y Hnb 0 ltac:(lia)) as Htau. pose proof (gsq_pos n p 1 X y Hnb 0 ltac:(lia)) as Hg.
  exists s, (/ tau n p X y 0). split; [now apply Rinv_0_lt_compat|]. split; [exact Ei|]. intros m z. rewrite HP. change (p_num_components (new_simpls eig coef 1)) with (Z.of_nat 1). rewrite (proj2 (Hnew m z)). f_equal. apply mk_ext. intros i j Hi Hj'.
  cbn [sumn]. cbn [nadd n0 NumR]. rewrite Rplus_0_l. rewrite <- sumR_scal_r, <- sumR_scal. apply sumn_ext. intros l Hl. unfold dir. cbn [sumn residual]. cbn [nadd n0 NumR]. field. split; lra.
Qed.
(** PRM with one component on two rows, y = (1, 0): predictions are proportional to the products with the first row *)
Definition y10 : mat R := Mat 2 1 [[1];[0]].
Lemma W10 : wf y10. Proof. split; [reflexivity|repeat constructor]. Qed.
Lemma two_rows svd q (X : nat -> nat -> R) : (q = 1%nat \/ q = 2%nat) -> X 0%nat 0%nat <> 0 ->
  exists s c, 0 < c /\ initialize (prm eig_1x1 svd) eS (Some (mk 2 q X)) (Some y10) = (s, Ok None) /\
    forall m z, snd (predict (prm eig_1x1 svd) s (mk m q z)) = Ok (mk m 1 (fun i _ => c * sumn q (fun j => z i j * X 0%nat j))).
Proof.
  intros Hq Hx.
  assert (G : forall w, (forall i, (i < 2)%nat -> 0 < w i <= 1) -> exists s c, 0 < c /\ initialize (simpls eig_1x1) (new_simpls eig_1x1 (-1) 1) (Some (weighted w (mk 2 q X))) (Some (weighted w y10)) = (s, Ok None) /\
    forall m z, snd (predict (simpls eig_1x1) s (mk m q z)) = Ok (mk m 1 (fun i _ => c * sumn q (fun j => z i j * X 0%nat j)))).
  { intros w Hw. pose proof (Hw 0%nat ltac:(lia)) as H0.
    assert (Hc : forall j, cov 2 (fun i j => sqrt (w i) * X i j) (fun i => sqrt (w i) * entry y10 i 0) j = w 0%nat * X 0%nat j).
    { intros j. unfold cov. cbn [Rsum]. rewrite <- (sqrt_sqrt (w 0%nat)) at 3 by lra. cbn. ring. }
    destruct (simpls_first eig_1x1 (-1) 2 q (fun i j => sqrt (w i) * X i j) (fun i => sqrt (w i) * entry y10 i 0) 0 eig_1x1_one) as (s & c & Hpos & E & HP); [lia|discriminate|destruct Hq; lia|rewrite Hc; apply Rmult_integral_contrapositive; split; lra|].
    exists s, (c * w 0%nat). split; [apply Rmult_lt_0_compat; lra|]. split.
    - rewrite <- E. do 2 f_equal. f_equal. unfold weighted. cbn [nr nc mk]. apply mk_ext. intros i j Hi Hj. fold (mk 2 q X). rewrite entry_mk by assumption. reflexivity.
    - intros m z. rewrite HP. f_equal. apply mk_ext. intros i j Hi Hj. rewrite Rmult_assoc. f_equal. rewrite <- sumR_scal. apply sumn_ext. intros l Hl. rewrite Hc. ring. }
  assert (HE : exists s, initialize (prm eig_1x1 svd) eS (Some (mk 2 q X)) (Some y10) = (s, Ok None)).
  { apply (C85_trains eig_1x1 svd eS (mk 2 q X) y10 1); try reflexivity; try apply mk_wf; try exact W10; try (cbn [nr nc mk]; destruct Hq; lia).
    intros w Hw. destruct (G w Hw) as (s & c & _ & E & _). now exists s. }
  destruct HE as (s & Ei).
  destruct (C85_prm eig_1x1 svd eS s (mk 2 q X) y10 1) as (_ & K & wr & wx & sim & med & m & _ & _ & Rr & Rx & Hps & _ & _ & _ & HP & _); try reflexivity; try apply mk_wf; try exact W10; try (cbn [nr nc mk]; destruct Hq; lia); [exact Ei|].
  assert (Hin : forall k, (k <= K)%nat -> forall i, (i < 2)%nat -> in_01 (wr k i) /\ in_01 (wx k i)).
  { intros [|k] Hk i Hi; [split; [exact (residual_rule_01 _ _ _ _ Rr i Hi)|exact (leverage_rule_01 _ _ _ _ _ _ _ Rx i Hi)]|].
    destruct (Hps k ltac:(lia)) as (_ & T & V & _ & _ & _ & _ & _ & _ & R1 & R2). split; [exact (residual_rule_01 _ _ _ _ R1 i Hi)|exact (leverage_rule_01 _ _ _ _ _ _ _ R2 i Hi)]. }
  destruct (Hps K ltac:(lia)) as (Es & _). cbv beta zeta in Es.
  destruct (G (fun i => wr K i * wx K i)) as (s1 & c & Hpos & E1 & HP1).
  { intros i Hi. destruct (Hin K (le_n K) i Hi) as [H1 H2]. unfold in_01 in *. split; [apply Rmult_lt_0_compat; lra|]. rewrite <- (Rmult_1_l 1). apply Rmult_le_compat; lra. }
  pose proof (eq_trans (eq_sym Es) E1) as Q. injection Q as Q. exists s, c. split; [exact Hpos|]. split; [exact Ei|]. intros m' z. rewrite HP, Q. apply HP1.
Qed.

(** * The witness: X^T = [[1,0],[0,1],[0,0]] diag(2,1) [[3/5,4/5],[-4/5,3/5]] *)
Definition w88_u : mat R := Mat 3 2 [[1;0];[0;1];[0;0]].
Definition w88_s : list R := [2;1].
Definition w88_vh : mat R := Mat 2 2 [[3/5;4/5];[-4/5;3/5]].
Definition w88_svd : mat R -> res (mat R * list R * mat R) := fun _ => Ok (w88_u, w88_s, w88_vh).
Definition w88_X : mat R := Mat 2 3 [[6/5;-4/5;0];[8/5;3/5;0]].
Lemma w88_answer : svd_answer (transpose w88_X) w88_u w88_s w88_vh /\ orthonormal_factors w88_u 2 w88_vh.
Proof.
  split.
  - split; [split; repeat constructor|]. split; [reflexivity|]. split; [reflexivity|]. split; [split; repeat constructor|]. split; [reflexivity|]. split; [reflexivity|].
    change (nr (transpose w88_X)) with 3%nat. change (nc (transpose w88_X)) with 2%nat. intros i j Hi Hj. unfold transpose. rewrite entry_mk by assumption.
    destruct i as [|[|[|i]]]; [| | |lia]; (destruct j as [|[|j]]; [| |lia]); cbn; lra.
  - split; intros a b Ha Hb; (destruct a as [|[|a]]; [| |lia]); (destruct b as [|[|b]]; [| |lia]); cbn; lra.
Qed.
Lemma w88_trains : exists s, initialize (prm eig_1x1 w88_svd) eS (Some w88_X) (Some y10) = (s, Ok None).
Proof.
  destruct (two_rows w88_svd 2 (fun i j => - (entry w88_vh i j * nth j w88_s 0))) as (t & c & _ & Et & _); [now right|cbn; lra|].
  exact (C88_trains eig_1x1 w88_svd eS t w88_X y10 w88_u w88_vh w88_s 1 eq_refl eq_refl W10 (le_n 2) (le_n 3) eq_refl eq_refl (proj1 w88_answer) eq_refl Et).
Qed.
(** The claim - predictions for X as trained on the reduction X U - fails although the
    decomposition is correct. *)
Theorem C88_refuted : exists s t V V', svd_answer (transpose w88_X) w88_u w88_s w88_vh /\ orthonormal_factors w88_u 2 w88_vh /\
  initialize (prm eig_1x1 w88_svd) eS (Some w88_X) (Some y10) = (s, Ok None) /\
  initialize (prm eig_1x1 w88_svd) eS (Some (rotated w88_X w88_u)) (Some y10) = (t, Ok None) /\
  snd (predict (prm eig_1x1 w88_svd) s w88_X) = Ok V /\ snd (predict (prm eig_1x1 w88_svd) t (rotated w88_X w88_u)) = Ok V' /\
  entry V 1 0 = 3 * entry V 0 0 /\ entry V' 1 0 = 9/13 * entry V' 0 0 /\ entry V 0 0 <> 0 /\ V <> V'.
Proof.
  destruct w88_trains as (s & Ei). destruct w88_answer as (Ha & Ho).
  destruct (two_rows w88_svd 2 (fun i j => Rsum 3 (fun l => entry w88_X i l * - entry w88_u l j))) as (t & c & Hc & Et & HPt); [now right|cbn; lra|].
  destruct (two_rows w88_svd 2 (fun i j => - (entry w88_vh i j * nth j w88_s 0))) as (r & d & Hd & Er & HPr); [now right|cbn; lra|].
  destruct (C88_wide_partial eig_1x1 w88_svd eS s w88_X y10 w88_u w88_vh w88_s 1) as ((r' & Er' & HZ) & _); try assumption; try reflexivity; try (cbn; lia); try (split; [reflexivity|repeat constructor]).
  pose proof (eq_trans (eq_sym Er') Er) as Q. injection Q as ->.
  destruct (HZ w88_X) as (V & EV & EV2); [split; [reflexivity|repeat constructor]|reflexivity|]. change (nr w88_X) with 2%nat in *. change (nc w88_X) with 3%nat in *. rewrite HPr in EV2.
  exists s, t, V. eexists. split; [exact Ha|]. split; [exact Ho|]. split; [exact Ei|]. split; [exact Et|]. split; [exact EV|]. split; [exact (HPt 2%nat (fun i j => Rsum 3 (fun l => entry w88_X i l * - entry w88_u l j)))|].
  injection EV2 as <-. rewrite !entry_mk by lia.
  assert (N : forall A B : mat R, entry A 1 0 = 3 * entry A 0 0 -> entry B 1 0 = 9/13 * entry B 0 0 -> entry A 0 0 <> 0 -> A <> B) by (intros A B H1 H2 H3 ->; lra).
  assert (P1 : d * sumn 2 (fun j => Rsum 3 (fun l => entry w88_X 1 l * - entry w88_u l j) * - (entry w88_vh 0 j * nth j w88_s 0)) = 3 * (d * sumn 2 (fun j => Rsum 3 (fun l => entry w88_X 0 l * - entry w88_u l j) * - (entry w88_vh 0 j * nth j w88_s 0)))) by (cbn; lra).
  assert (P2 : c * sumn 2 (fun j => Rsum 3 (fun l => entry w88_X 1 l * - entry w88_u l j) * Rsum 3 (fun l => entry w88_X 0 l * - entry w88_u l j)) = 9/13 * (c * sumn 2 (fun j => Rsum 3 (fun l => entry w88_X 0 l * - entry w88_u l j) * Rsum 3 (fun l => entry w88_X 0 l * - entry w88_u l j)))) by (cbn; lra).
  assert (P3 : d * sumn 2 (fun j => Rsum 3 (fun l => entry w88_X 0 l * - entry w88_u l j) * - (entry w88_vh 0 j * nth j w88_s 0)) <> 0) by (cbn; lra).
  split; [exact P1|]. split; [exact P2|]. split; [exact P3|]. apply N; rewrite !entry_mk by lia; assumption.
Qed.
Example C88_ex : exists s, initialize (prm eig_1x1 w88_svd) eS (Some w88_X) (Some y10) = (s, Ok None) /\ snd (transform (prm eig_1x1 w88_svd) s w88_X) = Err ValueError.
Proof.
  destruct w88_trains as (s & Ei). exists s. split; [exact Ei|]. destruct w88_answer as (Ha & _).
  apply (C88_transform_refuted eig_1x1 w88_svd eS s w88_X y10 w88_u w88_vh w88_s 1); try assumption; try reflexivity; try (cbn; lia); split; try reflexivity; repeat constructor.
Qed.
Print Assumptions C88_wide_partial.
Print Assumptions C88_transform_refuted.
Print Assumptions C88_refuted.
