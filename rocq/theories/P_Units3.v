(** C109: units of measurement at training.  With preprocessing CENTER or STANDARDIZE, every PLS class
    learns the same model from the same data in other units. *)
From Coq Require Import List ZArith Lia Bool Arith Reals Lra.
From Verif Require Import Base Num Mat M_Matrix M_Factory M_Helper M_Loop M_Utils M_Linalg M_Transform M_PLSBase M_PLS M_PLS2.
From Verif Require Import S_Matrix P_Helper L_Base L_Mat L_Matrix L_MatR L_Sort L_Alg L_Stats L_Transform P_Transform P_PLSPrep L_Public P_NIPALS2 L_Span L_Perm P_Perm2 L_DIPLS P_KernelPLS2 P_Units P_Units2.
Import ListNotations.
Local Open Scope R_scope.

(** Predictions are matrices with rectangular contents (proved below for every class). *)
Definition proper {A K} (cl : pls_class A K R) : Prop := forall n o Z V, snd (c_predict cl n o Z) = Ok V -> wf V.
(** Which change of units preprocessing can absorb: centring a change of the zero point, standardising
    any. *)
Definition absorbed (pp : preproc) (c : nat -> R) : Prop :=
  match pp with PP_CENTER => forall j, c j = 1 | PP_STANDARDIZE => forall j, 0 < c j | _ => False end.
(** The unit of column j of the predictions, when the first response column has unit a: the
    single-response classes map column 0 back, the others every column (with the statistics of the
    first response column, see C50). *)
Definition answer_unit (ar : arity) (a e : R) (j : nat) : R := match ar with Single => if j =? 0 then a else e | Multi _ _ => a end.

(** * Statistics *)
Section Stats.
Variables (pp : preproc) (c d : nat -> R) (X X' : mat R).
Hypothesis Hc : absorbed pp c.
Hypothesis HX : units c d X X'.
Hypothesis HP : preparable pp X.
Lemma abs_preparable : preparable pp X'.
Proof. pose proof HX as (_ & _ & E1 & _ & _). destruct pp; cbn [absorbed preparable] in *; [exact I|lia| |exact HP]. now apply (units_preparable c d X). Qed.
Lemma abs_rows : (2 <= nr X)%nat.
Proof. destruct pp; cbn [absorbed preparable] in *; tauto. Qed.
Lemma abs_prepared : mk (nr X') (nc X') (prepared pp X') = mk (nr X) (nc X) (prepared pp X).
Proof.
  pose proof HX as (_ & _ & E1 & E2 & E). pose proof abs_rows as HR. rewrite E1, E2. apply mk_ext. intros i j Hi Hj. destruct pp; cbn [absorbed preparable prepared] in *; try contradiction.
  - rewrite E1, E by assumption. rewrite (Rmean_units (nr X) (fun k => entry X k j) (fun k => entry X' k j) (c j) (d j)) by (lia || (intros; now apply E)). rewrite Hc. ring.
  - exact (standardised_units c d X X' Hc HX HP X X' i j HX eq_refl Hi Hj).
Qed.
Lemma abs_mean : nc X <> 0%nat -> own_mean X' 0 = c 0%nat * own_mean X 0 + d 0%nat.
Proof. intros HN. pose proof HX as (_ & _ & E1 & E2 & E). pose proof abs_rows as HR. unfold own_mean. rewrite E1. apply Rmean_units; [lia|]. intros. apply E; [assumption|lia]. Qed.
Lemma abs_sd : nc X <> 0%nat -> own_sd pp X' 0 = c 0%nat * own_sd pp X 0.
Proof.
  intros HN. pose proof HX as (_ & _ & E1 & E2 & E). pose proof abs_rows as HR. destruct pp; cbn [absorbed preparable own_sd] in *; try contradiction.
  - rewrite Hc. ring.
  - apply (units_sd c d X X' Hc HX HP). lia.
Qed.
End Stats.

(** * Training *)
Definition stat_list {A K} (cl : pls_class A K R) (Y : mat R) (x : R) : list R := match c_arity cl with Single => [x] | Multi _ _ => repeat x (nc Y) end.
Lemma init_pre {A K} (cl : pls_class A K R) (s : pls_st A R) X Y : let pp := p_preprocessing s in
  pp = PP_CENTER \/ pp = PP_STANDARDIZE -> wf X -> wf Y -> nc X <> 0%nat -> nc Y <> 0%nat -> preparable pp X -> preparable pp Y ->
  exists tp tr, initialize cl s (Some X) (Some Y) =
    match check_data cl Y with
    | Some m => (reset cl s, Ok (Some m))
    | None => let (o, r) := c_train cl (p_num_components s) (c_reset cl (p_own s)) (mk (nr X) (nc X) (prepared pp X)) (mk (nr Y) (nc Y) (prepared pp Y)) in
              (PlsSt (p_num_components s) pp (match r with Ok None => true | _ => false end) (stat_list cl Y (own_mean Y 0)) (stat_list cl Y (own_sd pp Y 0)) (Some tp) (Some tr) o, r)
    end.
Proof.
  intros pp Hpp WX WY NX NY PX PY. assert (HR : (2 <= nr Y)%nat) by (destruct pp; cbn [preparable] in PY; destruct Hpp; try discriminate; tauto).
  destruct (stats_of Y HR NY) as [Em Es]. destruct (prep_multi_spec Y NY) as (_ & Pc & Ps). rewrite Em in Pc, Ps. rewrite Es in Ps. cbn [bind] in Pc, Ps.
  set (t0 := match pp with PP_CENTER => Some (PTCenter (t_new center)) | PP_STANDARDIZE => Some (PTStandardize (t_new standardize)) | _ => None end : option (ptrans R)).
  assert (Hprep : prepare cl pp Y = Ok (stat_list cl Y (own_mean Y 0), stat_list cl Y (own_sd pp Y 0), t0, t0)).
  { unfold prepare, stat_list, t0. destruct (c_arity cl) as [|lo hi]; destruct Hpp as [E | E]; rewrite E in *.
    - cbn [prep_single]. rewrite Em. reflexivity.
    - cbn [prep_single]. rewrite Em, Es. reflexivity.
    - rewrite Pc. reflexivity.
    - rewrite Ps. reflexivity. }
  assert (Ht : t0 <> None) by (unfold t0; destruct Hpp as [-> | ->]; discriminate).
  destruct (fit_prepared pp X t0 WX NX PX eq_refl) as (tp & EX & Nx). destruct (fit_prepared pp Y t0 WY NY PY eq_refl) as (tr & EY & Ny).
  destruct tp as [tp|]; [|elim Ht; now apply Nx]. destruct tr as [tr|]; [|elim Ht; now apply Ny]. exists tp, tr.
  unfold initialize. destruct (check_data cl Y) as [m|]; [reflexivity|]. unfold do_initialize. cbn [reset p_preprocessing]. fold pp. rewrite Hprep, EX, EY. cbn [set_prep reset p_num_components p_own]. destruct (c_train cl _ _ _ _) as [o [[m|]|e]]; reflexivity.
Qed.

(** * Mapping back *)
Lemma denorm_short {A K} (cl : pls_class A K R) lo hi (mean std : list R) (m : mat R) : c_arity cl = Multi lo hi -> wf m -> length std = length mean -> (length mean < nc m)%nat -> nr m <> 0%nat ->
  denormalise cl mean std m = Err IndexError.
Proof.
  intros Ha W EL HL HN. unfold denormalise. rewrite Ha. set (q := length mean) in *.
  set (body := fun (r : mat R) (j : nat) => do x <- get r (Z.of_nat 0) (Z.of_nat j); do sd <- lget std (Z.of_nat j); do mm <- lget mean (Z.of_nat j); set r (Z.of_nat 0) (Z.of_nat j) (nadd (nmul x sd) mm)).
  assert (Hrow : for_range (nc m) body m = Err IndexError).
  { assert (H0 : exists f, for_range q body m = Ok (mk (nr m) (nc m) f)).
    { destruct (for_range_inv (fun _ r => exists f, r = mk (nr m) (nc m) f) body q m) as (r & E & f & ->).
      - exists (entry m). now apply wf_mk.
      - intros k r Hk (f & ->). unfold body. rewrite get_mk by lia. cbn [bind]. rewrite (lget_nat std k 0%R), (lget_nat mean k 0%R) by (fold q; lia). cbn [bind]. rewrite set_mk by lia. eexists. split; [reflexivity|]. eexists. reflexivity.
      - exists f. exact E. }
    assert (H1 : forall k, (q < k <= nc m)%nat -> for_range k body m = Err IndexError).
    { induction k as [|k IH]; [lia|]. intros Hk. rewrite for_range_S. destruct (Nat.eq_dec k q) as [->|Ne].
      - destruct H0 as (f & ->). cbn [bind]. unfold body. rewrite get_mk by lia. cbn [bind]. replace (lget std (Z.of_nat q)) with (@Err R IndexError); [reflexivity|]. unfold lget. rewrite EL. unfold npidx.
        destruct (Z.ltb_spec (Z.of_nat q) 0); [lia|]. destruct (Z.leb_spec 0 (Z.of_nat q)); [|lia]. fold q. destruct (Z.ltb_spec (Z.of_nat q) (Z.of_nat q)); [lia|]. cbn [andb]. rewrite andb_false_r. reflexivity.
      - rewrite IH by lia. reflexivity. }
    apply H1. lia. }
  destruct (nr m) as [|r]; [now elim HN|]. unfold for_range at 1. cbn [seq for_each]. fold body. rewrite Hrow. reflexivity.
Qed.
Lemma denorm_units {A K} (cl : pls_class A K R) (Y Y' V : mat R) (a b mu sd : R) : wf V -> nc Y' = nc Y ->
  same_in_units (answer_unit (c_arity cl) a 1) (answer_unit (c_arity cl) b 0)
    (denormalise cl (stat_list cl Y mu) (stat_list cl Y sd) V) (denormalise cl (stat_list cl Y' (a * mu + b)) (stat_list cl Y' (a * sd)) V).
Proof.
  intros W EY. unfold stat_list. rewrite EY. destruct (Nat.eq_dec (nr V) 0) as [E0|E0].
  { assert (E : forall l l', denormalise cl l l' V = Ok V) by (intros l l'; unfold denormalise; rewrite E0; destruct (c_arity cl); reflexivity). rewrite !E. cbn [same_in_units]. repeat (split; [reflexivity || assumption|]). intros i j Hi. lia. }
  destruct (c_arity cl) as [|lo hi] eqn:Ea.
  - destruct (Nat.eq_dec (nc V) 0) as [E1|E1].
    + assert (E : forall l l', denormalise cl l l' V = Err IndexError). { intros l l'. unfold denormalise. rewrite Ea. destruct (nr V) as [|r] eqn:Er; [now elim E0|]. unfold for_range. cbn [seq for_each]. unfold get. rewrite Er, E1. reflexivity. }
      rewrite !E. reflexivity.
    + rewrite !denorm_single by assumption. cbn [same_in_units]. split; [apply mk_wf|]. split; [apply mk_wf|]. split; [reflexivity|]. split; [reflexivity|]. intros i j Hi Hj. cbn [nr nc mk] in Hi, Hj. rewrite !entry_mk by assumption. cbn [answer_unit]. destruct (j =? 0); ring.
  - destruct (le_lt_dec (nc V) (nc Y)) as [Hl|Hl].
    + rewrite !(denorm_multi cl lo hi) by (assumption || rewrite repeat_length; assumption). cbn [same_in_units]. split; [apply mk_wf|]. split; [apply mk_wf|]. split; [reflexivity|]. split; [reflexivity|]. intros i j Hi Hj. cbn [nr nc mk] in Hi, Hj. rewrite !entry_mk by assumption.
      assert (Hnth : forall x, nth j (repeat x (nc Y)) 0 = x) by (intros x; rewrite (nth_indep _ 0 x) by (rewrite repeat_length; lia); apply nth_repeat). rewrite !Hnth. cbn [answer_unit]. ring.
    + rewrite !(denorm_short cl lo hi) by (assumption || rewrite ?repeat_length; (reflexivity || assumption)). reflexivity.
Qed.

(** * C109 *)
Definition learns_unit_free {A K} (cl : pls_class A K R) : Prop := forall (s : pls_st A R) (X Y X' Y' : mat R) (c d a b : nat -> R),
  absorbed (p_preprocessing s) c -> absorbed (p_preprocessing s) a -> units c d X X' -> units a b Y Y' -> nc X <> 0%nat -> nc Y <> 0%nat ->
  preparable (p_preprocessing s) X -> preparable (p_preprocessing s) Y ->
  let t := fst (initialize cl s (Some X) (Some Y)) in let t' := fst (initialize cl s (Some X') (Some Y')) in
  snd (initialize cl s (Some X') (Some Y')) = snd (initialize cl s (Some X) (Some Y)) /\
  p_own t' = p_own t /\
  (forall Z, snd (transform cl t' Z) = snd (transform cl t Z)) /\
  (forall Z, same_in_units (answer_unit (c_arity cl) (a 0%nat) 1) (answer_unit (c_arity cl) (b 0%nat) 0) (snd (predict cl t Z)) (snd (predict cl t' Z))).
Lemma proper_units {A K} (cl : pls_class A K R) : proper cl -> learns_unit_free cl.
Proof.
  intros Hpr s X Y X' Y' c d a b Hc Ha HX HY NX NY PX PY. pose proof HX as (WX & WX' & RX & CX & _). pose proof HY as (WY & WY' & RY & CY & _).
  assert (Hpp : p_preprocessing s = PP_CENTER \/ p_preprocessing s = PP_STANDARDIZE) by (destruct (p_preprocessing s); cbn [absorbed] in Hc; tauto).
  destruct (init_pre cl s X Y Hpp WX WY NX NY PX PY) as (tp & tr & E). destruct (init_pre cl s X' Y' Hpp WX' WY' ltac:(congruence) ltac:(congruence) (abs_preparable _ c d X X' Hc HX PX) (abs_preparable _ a b Y Y' Ha HY PY)) as (tp' & tr' & E').
  rewrite (check_units cl Y Y' CY), (abs_prepared _ c d X X' Hc HX PX), (abs_prepared _ a b Y Y' Ha HY PY), (abs_mean _ a b Y Y' Ha HY PY NY), (abs_sd _ a b Y Y' Ha HY PY NY) in E'.
  cbv zeta. rewrite E, E'. clear E E'. destruct (check_data cl Y) as [m|].
  { cbn [fst snd]. unfold transform, predict. cbn [reset p_initialised negb snd]. repeat (split; [reflexivity|]). reflexivity. }
  destruct (c_train cl _ _ _ _) as [o r]. cbn [fst snd]. split; [reflexivity|]. split; [reflexivity|]. unfold transform, predict. cbn [p_initialised p_num_components p_own].
  destruct r as [[m|]|e]; cbn [negb snd]; try (split; intros; reflexivity). split; intros Z.
  - destruct (c_transform _ _ _ _). reflexivity.
  - unfold do_predict. cbn [p_num_components p_own p_trans_response p_class_mean p_class_std_dev]. pose proof (Hpr (p_num_components s) o Z) as HV. destruct (c_predict cl _ _ _) as [o' [V|e]]; cbn [snd bind] in HV |- *; [|reflexivity]. apply denorm_units; [exact (HV V eq_refl)|exact CY].
Qed.

(** * Predictions are rectangular *)
Definition wfr (r : res (mat R)) : Prop := forall V, r = Ok V -> wf V.
Lemma wfr_bind {B} (x : res B) (f : B -> res (mat R)) : (forall v, wfr (f v)) -> wfr (bind x f).
Proof. intros H V E. destruct x as [v|]; [|discriminate]. exact (H v V E). Qed.
Lemma wfr_range k (f : mat R -> nat -> res (mat R)) m : wf m -> (forall x i, wf x -> wfr (f x i)) -> wfr (for_range k f m).
Proof.
  intros W H. induction k as [|k IH]; [intros V [= <-]; exact W|]. rewrite for_range_S. intros V E. destruct (for_range k f m) as [x|]; [|discriminate]. exact (H x k (IH x eq_refl) V E).
Qed.
Lemma wfr_set m i j x : wf m -> wfr (set m i j x).
Proof. intros W. unfold set. apply wfr_bind. intros p. apply wfr_bind. intros q V [= <-]. now apply set_entry_wf. Qed.
Lemma wfr_mul a b : wfr (mul a b).
Proof. intros V E. unfold mul in E. destruct (negb _); [discriminate|]. injection E as <-. apply matmul_wf. Qed.
Lemma wfr_vop op m v : wfr (vector_op op m v).
Proof. intros V E. exact (proj1 (vop_wf op m v V E)). Qed.
Lemma wfr_denorm {A K} (cl : pls_class A K R) mean std m : wf m -> wfr (denormalise cl mean std m).
Proof.
  intros W. unfold denormalise. destruct (c_arity cl).
  - apply wfr_range; [exact W|]. intros x i Wx. do 3 (apply wfr_bind; intros ?). now apply wfr_set.
  - apply wfr_range; [exact W|]. intros x i Wx. apply wfr_range; [exact Wx|]. intros y j Wy. do 3 (apply wfr_bind; intros ?). now apply wfr_set.
Qed.
Lemma wfr_predict {A K} (cl : pls_class A K R) s Z : proper cl -> wfr (snd (predict cl s Z)).
Proof.
  intros Hp. unfold predict. destruct (negb _); [discriminate|]. unfold do_predict. pose proof (Hp (p_num_components s) (p_own s) Z) as HV. destruct (c_predict cl _ _ _) as [o [V|e]]; cbn [snd bind] in HV |- *; [|discriminate].
  destruct (p_trans_response s); [apply wfr_denorm; now apply HV|]. intros V' [= <-]. now apply HV.
Qed.
Lemma pls1_wfr n o Z : wfr (pls1_predict n o Z).
Proof.
  unfold pls1_predict. apply wfr_range; [exact (proj1 (zeros_sc 1 _ _))|]. intros x i Wx. do 5 (apply wfr_bind; intros ?). now apply wfr_set.
Qed.
Section Classes.
Variables (lstsq : mat R -> mat R -> res (mat R)) (pinv : mat R -> res (mat R)) (eig : mat R -> res (list R * mat R)) (svd : mat R -> res (mat R * list R * mat R)).
Lemma proper_pls1 : proper (pls1 lstsq).
Proof. intros n o Z. apply pls1_wfr. Qed.
Lemma proper_vcpls : proper (vcpls lstsq eig).
Proof. intros n o Z. apply pls1_wfr. Qed.
Lemma proper_simpls : proper (simpls eig).
Proof. intros n o Z. apply wfr_bind. intros B. apply wfr_mul. Qed.
Lemma proper_prm : proper (prm eig svd).
Proof. intros n o Z. apply wfr_bind. intros B. apply wfr_mul. Qed.
Lemma proper_nipals wm d f : proper (nipals_class lstsq pinv wm d f).
Proof.
  intros n o Z. cbn [nipals_class c_predict]. unfold nipals_predict, nipals_apply. destruct (t_transform _ _ _) as [sx r]. cbn [snd]. do 4 (apply wfr_bind; intros ?). apply wfr_vop.
Qed.
Lemma proper_sparse : proper (sparse_pls lstsq pinv).
Proof.
  intros n o Z. cbn [sparse_pls c_predict]. unfold sparse_predict. destruct (t_transform _ _ _) as [sx r]. cbn [snd]. do 9 (apply wfr_bind; intros ?). apply wfr_vop.
Qed.
Lemma proper_dipls : proper (dipls lstsq).
Proof.
  intros n o Z. cbn [dipls c_predict]. unfold dipls_predict.
  assert (H : forall r, wfr (do X <- r; do m <- need (di_model o); do g <- mul X (dm_b m); match di_b_0 o with Some b0 => Ok (add_scalar g b0) | None => Ok (add_scalar g (ndiv n0 n0)) end)).
  { intros r. do 3 (apply wfr_bind; intros ?). destruct (di_b_0 o); intros V [= <-]; apply mk_wf. }
  destruct (di_strategy o); destruct (t_transform _ _ _) as [sx r]; cbn [snd]; apply H.
Qed.
Lemma proper_opls {AB KB} (base : pls_class AB KB R) : proper base -> proper (opls base).
Proof.
  intros Hb n o Z. cbn [opls c_predict]. unfold opls_predict. destruct (opls_transform _ _ _) as [X|e]; [|discriminate]. pose proof (wfr_predict base (op_base o) X Hb) as H. destruct (predict base _ _). exact H.
Qed.
Lemma proper_kernel {KS} rnd (k0 : KS) kapply : proper (kernel_pls lstsq rnd k0 kapply).
Proof.
  intros n o Z. cbn [kernel_pls c_predict]. unfold kpls_predict. destruct (kpls_transform _ _ _) as [a r]. match goal with |- context [match ?x with Ok _ => _ | Err _ => _ end] => destruct x as [Y|e]; [|discriminate] end.
  assert (H : forall s, wfr (t_undo center s Y)). { intros s. cbn [t_undo center]. apply wfr_bind. intros ?. intros V E. exact (proj1 (vop_wf _ _ _ _ E)). }
  assert (H2 : wfr (snd (t_inverse center (kp_center_Y a) Y))). { unfold t_inverse. destruct (negb _); [|apply H]. destruct (t_configure center _ _) as [s [u|e]]; cbn [snd]; [apply H|discriminate]. }
  destruct (t_inverse center _ _). exact H2.
Qed.

Theorem C109_units_at_training rnd {KS} (k0 : KS) kapply :
  learns_unit_free (pls1 lstsq) /\ learns_unit_free (vcpls lstsq eig) /\ learns_unit_free (simpls eig) /\ learns_unit_free (prm eig svd) /\
  learns_unit_free (nipals lstsq pinv) /\ learns_unit_free (cca_regression lstsq pinv) /\ learns_unit_free (sparse_pls lstsq pinv) /\ learns_unit_free (dipls lstsq) /\
  learns_unit_free (opls (pls1 lstsq)) /\ learns_unit_free (kernel_pls lstsq rnd k0 kapply).
Proof.
  repeat (split; [apply proper_units|]); try apply proper_units.
  - apply proper_pls1.
  - apply proper_vcpls.
  - apply proper_simpls.
  - apply proper_prm.
  - apply proper_nipals.
  - apply proper_nipals.
  - apply proper_sparse.
  - apply proper_dipls.
  - apply proper_opls, proper_pls1.
  - apply proper_kernel.
Qed.
End Classes.
Print Assumptions C109_units_at_training.

(** Centred training data of three rows and two features (P_KernelPLS2), the features measured from other
    zero points (1 and 2) and the response from -5: the predictions for the same rows are 5 higher. *)
Example C109_ex : let X' := mk 3 2 (fun i j => entry kX i j + (INR j + 1)) in let Y' := mk 3 1 (fun i j => entry kY i j + 5) in exists s s' V V',
  initialize (pls1 no_ls) p_start (Some kX) (Some kY) = (s, Ok None) /\ initialize (pls1 no_ls) p_start (Some X') (Some Y') = (s', Ok None) /\
  snd (predict (pls1 no_ls) s kX) = Ok V /\ snd (predict (pls1 no_ls) s' kX) = Ok V' /\ nr V' = nr V /\ nc V' = nc V /\ forall i, (i < nr V)%nat -> (0 < nc V)%nat -> entry V' i 0 = entry V i 0 + 5.
Proof.
  intros X' Y'. destruct k_run as (sk & s & _ & Ei & H). destruct (H (mk 3 2 (fun i j => entry kX i j + Rmean 3 (fun k => entry kX k j))%R)) as (V & _ & HV); [apply mk_wf|reflexivity|discriminate|].
  match type of HV with snd (predict _ _ ?m) = _ => replace m with kX in HV end.
  2: { assert (W : wf kX) by apply kX_wf. rewrite (wf_mk kX W) at 1. apply mk_ext. intros i j Hi Hj. rewrite entry_mk by assumption. ring. }
  destruct (proper_units (pls1 no_ls) (proper_pls1 no_ls) p_start kX kY X' Y' (fun _ => 1) (fun j => INR j + 1) (fun _ => 1) (fun _ => 5)) as (E1 & _ & _ & E4).
  - intros j. reflexivity.
  - intros j. reflexivity.
  - split; [apply kX_wf|]. split; [apply mk_wf|]. split; [reflexivity|]. split; [reflexivity|]. intros i j Hi Hj. unfold X'. rewrite entry_mk by assumption. ring.
  - split; [apply kX_wf|]. split; [apply mk_wf|]. split; [reflexivity|]. split; [reflexivity|]. intros i j Hi Hj. unfold Y'. rewrite entry_mk by assumption. ring.
  - discriminate.
  - discriminate.
  - cbn. lia.
  - cbn. lia.
  - rewrite Ei in E1, E4. cbn [fst snd] in E1, E4. destruct (initialize (pls1 no_ls) p_start (Some X') (Some Y')) as [s' r]. cbn [fst snd] in E1, E4. subst r. specialize (E4 kX). rewrite HV in E4. destruct (snd (predict (pls1 no_ls) s' kX)) as [V'|e] eqn:EV; [|contradiction]. destruct E4 as (_ & _ & R1 & C1 & E). cbn in R1, C1.
    exists s, s', V, V'. repeat (split; [assumption || reflexivity|]). intros i Hi Hj. rewrite E by assumption. cbn [answer_unit c_arity pls1 Nat.eqb]. ring.
Qed.
