(** Properties C35-C39: configure-once semantics, Center, Standardize, RowNorm, Log. *)
From Coq Require Import List ZArith Lia Bool Arith Reals Lra SpecFloat.
From Verif Require Import Base Num Mat M_Matrix M_Factory M_Helper M_Transform S_Matrix L_Base L_Mat L_Matrix L_MatR L_Stats L_Float L_Transform P_Matrix P_Helper.
Import ListNotations.
Local Open Scope nat_scope.

(** * C35: which matrix a transformation is configured on after a history of calls *)
Definition effective_step {T} (cur : option (mat T)) (o : t_op T) : option (mat T) :=
  match o with
  | OReset => None
  | OConfigure m => Some m
  | OTransform m | OInverse m => match cur with None => Some m | Some d => Some d end
  end.
Definition effective {T} (h : list (t_op T)) : option (mat T) := fold_left effective_step h None.
Definition op_ok {T} (P : mat T -> Prop) (o : t_op T) : Prop :=
  match o with OReset => True | OConfigure m | OTransform m | OInverse m => P m end.

(** What any history amounts to: nothing, or one explicit configure call. *)
Definition amounts_to {S T} (c : tclass S T) (h : list (t_op T)) : Prop :=
  forall x,
    let canonical := match effective h with None => [] | Some d => [OConfigure d] end in
    snd (t_transform c (t_run c (t_new c) h) x) = snd (t_transform c (t_run c (t_new c) canonical) x) /\
    snd (t_inverse c (t_run c (t_new c) h) x) = snd (t_inverse c (t_run c (t_new c) canonical) x).

Lemma amounts_to_generic {S T} (c : tclass S T) (P : mat T -> Prop) (conf : mat T -> S) :
  t_configured c (t_new c) = false -> t_reset c (t_new c) = t_new c ->
  (forall d, P d -> t_configured c (conf d) = true) -> (forall d, P d -> t_mark c (conf d) = conf d) ->
  (forall d, P d -> t_reset c (conf d) = t_new c) ->
  (forall d, P d -> t_configure c (t_new c) d = (conf d, Ok tt)) ->
  (forall d d', P d -> P d' -> t_configure c (conf d) d' = (conf d', Ok tt)) ->
  forall h, Forall (op_ok P) h -> amounts_to c h.
Proof.
  intros L1 L2 L3 L4 L5 L6 L7 h Hh.
  assert (G : t_run c (t_new c) h = match effective h with None => t_new c | Some d => conf d end /\
              match effective h with None => True | Some d => P d end).
  { unfold t_run, effective. revert Hh. rewrite <- (rev_involutive h). generalize (rev h). clear h. intros h. induction h as [|o h IH]; intros Hh; [split; reflexivity|].
    cbn [rev] in *. rewrite !fold_left_app. apply Forall_app in Hh as [Hh Ho]. specialize (IH Hh). inversion_clear Ho as [|? ? Po _].
    cbn [fold_left]. destruct IH as [-> IH]. set (e := fold_left effective_step (rev h) None) in *. clearbody e. destruct e as [d|], o as [m|m|m|]; cbn [t_step effective_step op_ok] in *.
    - unfold t_transform. rewrite L3 by assumption. cbn. auto.
    - unfold t_inverse. rewrite L3 by assumption. cbn. auto.
    - rewrite L7 by assumption. cbn. auto.
    - rewrite L5 by assumption. auto.
    - unfold t_transform. rewrite L1. cbn [negb]. rewrite L6 by assumption. cbn. auto.
    - unfold t_inverse. rewrite L1. cbn [negb]. rewrite L6 by assumption. cbn. rewrite L4 by assumption. auto.
    - rewrite L6 by assumption. cbn. auto.
    - rewrite L2. auto. }
  intros x canonical. unfold canonical. destruct G as [-> G]. destruct (effective h) as [d|]; cbn [t_run fold_left t_step]; [|split; reflexivity].
  rewrite L6 by assumption. split; reflexivity.
Qed.

Theorem C35_center {T} `{Num T} (h : list (t_op T)) : amounts_to center h.
Proof.
  apply (amounts_to_generic center (fun _ => True) center_conf); try reflexivity.
  apply Forall_forall. intros [m|m|m|] _; exact I.
Qed.
Theorem C35_standardize {T} `{Num T} (h : list (t_op T)) : Forall (op_ok (fun m => nc m <> 0)) h -> amounts_to standardize h.
Proof.
  apply (amounts_to_generic standardize (fun m => nc m <> 0) std_conf); try reflexivity.
  - intros. now apply standardize_configure.
  - intros. now apply standardize_configure.
Qed.
Theorem C35_pass_through {T} (h : list (t_op T)) : amounts_to (pass_through (T:=T)) h.
Proof.
  apply (amounts_to_generic pass_through (fun _ => True) (fun _ => true)); try reflexivity.
  apply Forall_forall. intros [m|m|m|] _; exact I.
Qed.
Theorem C35_log (h : list (t_op R)) : amounts_to log_transformation h.
Proof.
  apply (amounts_to_generic log_transformation (fun _ => True) (fun _ => LogSt true (exp 1) 1)); try reflexivity.
  apply Forall_forall. intros [m|m|m|] _; exact I.
Qed.
(** The scikit-learn wrappers, whatever scikit-learn computes, on matrices that can be fitted. *)
Theorem C35_wrappers {T P I} `{Num T} (params0 : P) (fit : P -> mat T -> res I) (fwd bwd : I -> mat T -> res (mat T)) (h : list (t_op T)) :
  Forall (op_ok (fun m => exists i, fit params0 m = Ok i)) h -> amounts_to (wrapper params0 fit fwd bwd) h.
Proof.
  intros Hh.
  assert (Hi : forall o : option I, exists f : mat T -> wrap_st P I, forall d i, fit params0 d = Ok i -> f d = WrapSt true params0 (Some (Some i))).
  { intros _. exists (fun d => match fit params0 d with Ok i => WrapSt true params0 (Some (Some i)) | Err _ => WrapSt false params0 None end). intros d i ->. reflexivity. }
  destruct (Hi None) as (f & Hf). clear Hi.
  apply (amounts_to_generic (wrapper params0 fit fwd bwd) (fun m => exists i, fit params0 m = Ok i) f); auto; try reflexivity.
  - intros d (i & E). now rewrite (Hf d i E).
  - intros d (i & E). now rewrite (Hf d i E).
  - intros d (i & E). now rewrite (Hf d i E).
  - intros d (i & E). cbn. rewrite E. now rewrite (Hf d i E).
  - intros d d' (i & E) (i' & E'). rewrite (Hf d i E), (Hf d' i' E'). cbn. rewrite E'. reflexivity.
Qed.
(** quick_apply is the first transform of a new object. *)
Theorem C35_quick_apply {S T} (c : tclass S T) (x : mat T) : t_quick_apply c x = snd (t_transform c (t_run c (t_new c) []) x).
Proof. reflexivity. Qed.
(** A history in which the configuration comes from a matrix seen long ago. *)
Example C35_ex : effective [OTransform exA; OReset; OInverse (Mat 1 3 [[exF 1; exF 2; exF 3]]); OTransform exA; OInverse exA]
  = Some (Mat 1 3 [[exF 1; exF 2; exF 3]]).
Proof. reflexivity. Qed.
Print Assumptions C35_center.
Print Assumptions C35_standardize.
Print Assumptions C35_pass_through.
Print Assumptions C35_log.
Print Assumptions C35_wrappers.
Print Assumptions C35_quick_apply.

(** * C36 *)
Local Open Scope R_scope.
(** An object that was configured by transforming d first. *)
Definition after_first {S} (c : tclass S R) (d : matR) : S := fst (t_transform c (t_new c) d).

Theorem C36_center (d x : matR) : nr d <> 0%nat -> wf x -> nc x = nc d ->
  exists y, snd (t_transform center (after_first center d) x) = Ok y /\
    is_mat y (nr x) (nc x) (fun i j => entry x i j - Rmean (nr d) (fun k => entry d k j)) /\
    snd (t_inverse center (after_first center d) y) = Ok x.
Proof.
  intros Hd Wx Hc. change (after_first center d) with (center_conf d).
  unfold t_transform, t_inverse. cbn [t_configured center ce_configured center_conf negb snd].
  fold (center_conf d). change (t_do center (center_conf d)) with (t_do (center (T:=R)) (center_conf d)).
  rewrite center_do, Hc, Nat.eqb_refl. eexists. split; [reflexivity|]. split.
  - rewrite <- Hc. apply is_mat_mk_ext. intros i j Hi Hj. now rewrite Rmean_np.
  - rewrite center_undo. cbn [nc nr mk]. rewrite Nat.eqb_refl. f_equal. rewrite <- Hc. symmetry. apply mat_eq_mk; auto. intros i j Hi Hj.
    rewrite entry_mk by assumption. cbn [nadd nsub NumR]. ring.
Qed.
(** The configuration data themselves end up with zero column means. *)
Theorem C36_zero_means (d : matR) : nr d <> 0%nat ->
  exists y, snd (t_transform center (t_new center) d) = Ok y /\ nr y = nr d /\ nc y = nc d /\
    forall j, (j < nc d)%nat -> Rmean (nr y) (fun i => entry y i j) = 0.
Proof.
  intros Hd. unfold t_transform. cbn [t_configured center t_new ce_configured negb t_configure snd]. fold (center_conf d).
  change (t_do center (center_conf d)) with (t_do (center (T:=R)) (center_conf d)). rewrite center_do, Nat.eqb_refl. eexists. split; [reflexivity|].
  split; [reflexivity|]. split; [reflexivity|]. intros j Hj. rewrite Rmean_np. cbn [nr mk].
  rewrite (np_mean_ext _ _ (fun i => entry d i j + - np_mean (nr d) (fun k => entry d k j))).
  - rewrite np_mean_shift by assumption. lra.
  - intros i Hi. rewrite entry_mk by assumption. cbn. ring.
Qed.
Theorem C36_wrong_width {T} `{Num T} (d x : mat T) : nc x <> nc d ->
  let s := fst (t_transform center (t_new center) d) in
  snd (t_transform center s x) = Err ValueError /\ snd (t_inverse center s x) = Err ValueError.
Proof.
  intros Hc s. change s with (center_conf d). unfold t_transform, t_inverse. cbn [t_configured center ce_configured center_conf negb snd].
  change (CenterSt true (Some (column_means d))) with (center_conf d).
  pose proof (center_do d x) as E1. pose proof (center_undo d x) as E2. apply Nat.eqb_neq in Hc. rewrite Hc in E1, E2. split; assumption.
Qed.
Example C36_ex : exists y, snd (t_transform center (after_first center (Mat 2 1 [[1];[3]])) (Mat 1 1 [[7]])) = Ok y /\ entry y 0 0%nat = 5.
Proof.
  destruct (C36_center (Mat 2 1 [[1];[3]]) (Mat 1 1 [[7]])) as (y & E & (_ & _ & _ & Hy) & _); [cbn; lia|repeat constructor|reflexivity|].
  exists y. split; [exact E|]. rewrite Hy by (cbn; lia). unfold Rmean, entry. cbn. lra.
Qed.
Print Assumptions C36_center.
Print Assumptions C36_zero_means.
Print Assumptions C36_wrong_width.

(** * C37 *)
Definition constant_column (d : matR) (j : nat) : Prop :=
  forall i k, (i < nr d)%nat -> (k < nr d)%nat -> entry d i j = entry d k j.
Lemma sd_used_R (d : matR) j : (2 <= nr d)%nat ->
  (~ constant_column d j -> sd_used d j = sqrt (Rvar (nr d) (fun k => entry d k j)) /\ sd_used d j <> 0) /\
  (constant_column d 0%nat -> sd_used d 0%nat = 1).
Proof.
  intros Hn. unfold sd_used. cbv zeta. cbn [neqb n0 nofZ NumR]. split.
  - intros Hc. assert (Hs : np_std (nr d) (fun k => entry d k j) <> 0).
    { intros Q. apply Hc. intros i k Hi Hk. exact (proj1 (np_std_zero _ (fun k => entry d k j) Hn) Q i k Hi Hk). }
    apply Reqb_false in Hs as E. rewrite E, andb_false_r, Rvar_np. split; [reflexivity|assumption].
  - intros Hc. assert (Hs : np_std (nr d) (fun k => entry d k 0%nat) = 0) by (apply np_std_zero; auto).
    rewrite Hs. cbn [Nat.eqb]. replace (Reqb 0 0) with true by (symmetry; now apply Reqb_true). reflexivity.
Qed.
Lemma std_after_first (d : matR) : nc d <> 0%nat -> after_first standardize d = std_conf d.
Proof. intros Hc. unfold after_first, t_transform. cbn [t_configured standardize t_new st_configured negb]. fold (standardize (T:=R)).
  rewrite (standardize_configure d _ Hc). reflexivity. Qed.

(** Round trip for every x of that width, provided only column 0 may be constant. *)
Theorem C37_round_trip_partial (d x : matR) : (2 <= nr d)%nat -> nc d <> 0%nat -> wf x -> nc x = nc d ->
  (forall j, (1 <= j)%nat -> (j < nc d)%nat -> ~ constant_column d j) ->
  exists y, snd (t_transform standardize (after_first standardize d) x) = Ok y /\
    nr y = nr x /\ nc y = nc x /\
    (forall i j, (i < nr x)%nat -> (j < nc x)%nat -> ~ constant_column d j ->
       entry y i j = (entry x i j - Rmean (nr d) (fun k => entry d k j)) / sqrt (Rvar (nr d) (fun k => entry d k j))) /\
    snd (t_inverse standardize (after_first standardize d) y) = Ok x.
Proof.
  intros Hr Hc0 Wx Hc Hn. rewrite std_after_first by assumption.
  unfold t_transform, t_inverse. cbn [t_configured standardize st_configured std_conf negb snd].
  change (StdSt true (Some (column_means d)) (Some (mk 1 (nc d) (fun _ j => sd_used d j)))) with (std_conf d).
  pose proof (standardize_do d x) as E1. rewrite Hc, Nat.eqb_refl in E1. eexists. split; [exact E1|]. split; [reflexivity|]. split; [cbn; auto|]. split.
  - intros i j Hi Hj Hcj. rewrite entry_mk by lia. cbn [ndiv nsub NumR]. destruct (sd_used_R d j Hr) as [A _]. destruct (A Hcj) as [-> _]. now rewrite Rmean_np.
  - pose proof (standardize_undo d (mk (nr x) (nc d) (fun i j => ndiv (nsub (entry x i j) (np_mean (nr d) (fun k => entry d k j))) (sd_used d j)))) as E2.
    cbn [nc nr mk] in E2. rewrite Nat.eqb_refl in E2. etransitivity; [exact E2|]. f_equal. symmetry. apply mat_eq_mk; auto. intros i j Hi Hj.
    rewrite entry_mk by assumption. cbn [nadd nmul ndiv nsub NumR]. assert (Hs : sd_used d j <> 0).
    { destruct (sd_used_R d j Hr) as [A B]. destruct j as [|j].
      - destruct (Req_dec (np_std (nr d) (fun k => entry d k 0%nat)) 0) as [Q|Q].
        + rewrite B; [lra|]. intros i0 k0 Hi0 Hk0. exact (proj1 (np_std_zero _ (fun k => entry d k 0%nat) Hr) Q i0 k0 Hi0 Hk0).
        + apply A. intros Hcc. apply Q. apply np_std_zero; auto.
      - apply A. apply Hn; lia. }
    field. assumption.
Qed.
(** Statistics of the transformed configuration data; a constant column 0 becomes zeros. *)
Theorem C37_statistics (d : matR) : (2 <= nr d)%nat -> nc d <> 0%nat ->
  exists y, snd (t_transform standardize (t_new standardize) d) = Ok y /\ nr y = nr d /\ nc y = nc d /\
    (forall j, (j < nc d)%nat -> ~ constant_column d j ->
       Rmean (nr y) (fun i => entry y i j) = 0 /\ sqrt (Rvar (nr y) (fun i => entry y i j)) = 1) /\
    (constant_column d 0%nat -> forall i, (i < nr d)%nat -> entry y i 0%nat = 0).
Proof.
  intros Hr Hc. unfold t_transform. cbn [t_configured standardize t_new st_configured negb]. fold (standardize (T:=R)).
  rewrite (standardize_configure d _ Hc). cbn [snd]. rewrite standardize_do, Nat.eqb_refl. eexists. split; [reflexivity|]. split; [reflexivity|]. split; [reflexivity|]. split.
  - intros j Hj Hcj. destruct (sd_used_R d j Hr) as [A _]. destruct (A Hcj) as [E1 E2]. rewrite Rvar_np in E1. rewrite Rmean_np, Rvar_np. cbn [nr mk].
    set (mu := np_mean (nr d) (fun k => entry d k j)) in *. set (s := sd_used d j) in *.
    assert (Hx : forall i, (i < nr d)%nat -> entry (mk (nr d) (nc d) (fun i j => ndiv (nsub (entry d i j) (np_mean (nr d) (fun k => entry d k j))) (sd_used d j))) i j = - (mu / s) + / s * entry d i j).
    { intros i Hi. rewrite entry_mk by assumption. cbn [ndiv nsub NumR]. fold mu s. field. assumption. }
    rewrite (np_mean_ext _ _ _ Hx), (np_std_ext _ _ _ Hx). rewrite np_mean_affine by lia. fold mu. split; [field; assumption|].
    rewrite np_std_affine by assumption. rewrite <- E1. assert (0 < s). { pose proof (np_std_nonneg (nr d) (fun k => entry d k j)). lra. }
    rewrite Rabs_right; [field; assumption|]. left. now apply Rinv_0_lt_compat.
  - intros Hcc i Hi. rewrite entry_mk by lia. cbn [ndiv nsub NumR]. destruct (sd_used_R d 0%nat Hr) as [_ B]. rewrite B by assumption.
    rewrite (np_mean_ext _ _ (fun _ => entry d i 0%nat)) by (intros k Hk; now apply Hcc). rewrite np_mean_const by lia. field.
Qed.
Theorem C37_wrong_width {T} `{Num T} (d x : mat T) : nc d <> 0%nat -> nc x <> nc d ->
  let s := fst (t_transform standardize (t_new standardize) d) in
  snd (t_transform standardize s x) = Err ValueError /\ snd (t_inverse standardize s x) = Err ValueError.
Proof.
  intros Hd Hc s. assert (s = std_conf d) as ->.
  { unfold s, t_transform. cbn [t_configured standardize t_new st_configured negb]. fold (standardize (T:=T)). rewrite (standardize_configure d _ Hd). reflexivity. }
  pose proof (standardize_do d x) as E1. pose proof (standardize_undo d x) as E2. apply Nat.eqb_neq in Hc. rewrite Hc in E1, E2.
  unfold t_transform, t_inverse. cbn [t_configured standardize st_configured std_conf negb snd]. split; assumption.
Qed.
(** REFUTED part.  In binary64, a column other than the first whose standard deviation
    is computed as zero is destroyed: no entry of it is finite after the transform, and
    the round trip turns all of it into NaN. *)
Lemma SFdiv_zero x s : ~ finite_f (SFdiv fprec femax x (S754_zero s)).
Proof. destruct x; cbn; auto. Qed.
Lemma SFmul_nonfinite_zero x s : ~ finite_f x -> SFmul fprec femax x (S754_zero s) = S754_nan.
Proof. destruct x; cbn; intros Hx; try reflexivity; exfalso; apply Hx; exact I. Qed.
Lemma SFeqb_zero_inv x : SFeqb x (S754_zero false) = true -> exists s, x = S754_zero s.
Proof. destruct x as [s|[]| |[] m e]; cbn; try discriminate. eauto. Qed.
Theorem C37_zero_deviation_columns (d x y : mat f64) (j : nat) : nc x = nc d -> (1 <= j)%nat -> (j < nc d)%nat ->
  SFeqb (np_std (nr d) (fun k => entry d k j)) (S754_zero false) = true ->
  snd (t_transform standardize (fst (t_transform standardize (t_new standardize) d)) x) = Ok y ->
  forall i, (i < nr x)%nat -> ~ finite_f (entry y i j) /\
    forall z, snd (t_inverse standardize (fst (t_transform standardize (t_new standardize) d)) y) = Ok z -> entry z i j = S754_nan.
Proof.
  intros Hc Hj1 Hj Hs E i Hi. apply SFeqb_zero_inv in Hs as (sg & Hs).
  assert (Ec : fst (t_transform standardize (t_new standardize) d) = std_conf d).
  { unfold t_transform. cbn [t_configured standardize t_new st_configured negb]. fold (standardize (T:=f64)). rewrite (standardize_configure d) by lia. reflexivity. }
  assert (Hsd : sd_used d j = S754_zero sg).
  { unfold sd_used. cbv zeta. rewrite Hs. destruct (Nat.eqb_spec j 0); [lia|reflexivity]. }
  rewrite Ec in *. unfold t_transform in E. cbn [t_configured standardize st_configured std_conf negb snd] in E.
  pose proof (eq_trans (eq_sym (standardize_do d x)) E) as E1. rewrite Hc, Nat.eqb_refl in E1. injection E1 as <-.
  assert (Hn : ~ finite_f (entry (mk (nr x) (nc d) (fun i j => ndiv (nsub (entry x i j) (np_mean (nr d) (fun k => entry d k j))) (sd_used d j))) i j)).
  { rewrite entry_mk by assumption. rewrite Hsd. apply SFdiv_zero. }
  split; [exact Hn|]. intros z Ez. unfold t_inverse in Ez. cbn [t_configured standardize st_configured std_conf negb snd] in Ez.
  pose proof (eq_trans (eq_sym (standardize_undo d _)) Ez) as E2. cbn [nc nr mk] in E2. rewrite Nat.eqb_refl in E2. injection E2 as <-.
  rewrite entry_mk by assumption. rewrite Hsd. cbn [nmul nadd NumF]. rewrite (SFmul_nonfinite_zero _ _ Hn). reflexivity.
Qed.
Theorem C37_refuted : exists (d y z : mat f64), nr d = 2%nat /\
  snd (t_transform standardize (t_new standardize) d) = Ok y /\ entry d 0 1 = entry d 1 1 /\ entry y 0 1 = S754_nan /\
  snd (t_inverse standardize (fst (t_transform standardize (t_new standardize) d)) y) = Ok z /\ entry z 0 1 = S754_nan.
Proof.
  exists (Mat 2 2 [[exF 1; exF 5]; [exF 3; exF 5]]). eexists. eexists. split; [reflexivity|].
  split; [vm_compute; reflexivity|]. split; [reflexivity|]. split; [reflexivity|]. split; [vm_compute; reflexivity|]. reflexivity.
Qed.
Example C37_ex : exists y, snd (t_transform standardize (after_first standardize (Mat 2 2 [[1;1];[3;2]])) (Mat 1 2 [[7;7]])) = Ok y.
Proof.
  destruct (C37_round_trip_partial (Mat 2 2 [[1;1];[3;2]]) (Mat 1 2 [[7;7]])) as (y & E & _); try (cbn; lia); try reflexivity.
  - repeat constructor.
  - intros j Hj Hj2 Hc. cbn in Hj2. assert (j = 1)%nat by lia. subst j. specialize (Hc 0%nat 1%nat ltac:(cbn; lia) ltac:(cbn; lia)). unfold entry in Hc. cbn in Hc. lra.
  - eauto.
Qed.
Print Assumptions C37_round_trip_partial.
Print Assumptions C37_statistics.
Print Assumptions C37_wrong_width.
Print Assumptions C37_zero_deviation_columns.
Print Assumptions C37_refuted.

(** * C38 *)
Definition constant_row (d : matR) (i : nat) : Prop :=
  forall j k, (j < nc d)%nat -> (k < nc d)%nat -> entry d i j = entry d i k.
Lemma rsd_used_R (d : matR) i : (2 <= nc d)%nat ->
  (~ constant_row d i -> rsd_used d i = np_std (nc d) (fun k => entry d i k) /\ 0 < rsd_used d i) /\
  (constant_row d i -> rsd_used d i = 1).
Proof.
  intros Hn. unfold rsd_used. cbv zeta. cbn [neqb n0 nofZ NumR]. split.
  - intros Hc. assert (Hs : np_std (nc d) (fun k => entry d i k) <> 0).
    { intros Q. apply Hc. intros a b Ha Hb. exact (proj1 (np_std_zero _ (fun k => entry d i k) Hn) Q a b Ha Hb). }
    apply Reqb_false in Hs as E. rewrite E. split; [reflexivity|]. now apply np_std_pos.
  - intros Hc. assert (Hs : np_std (nc d) (fun k => entry d i k) = 0) by (apply np_std_zero; auto).
    rewrite Hs. replace (Reqb 0 0) with true by (symmetry; now apply Reqb_true). reflexivity.
Qed.
Definition rn_value (d : matR) : matR :=
  mk (nr d) (nc d) (fun i j => (entry d i j - np_mean (nc d) (fun k => entry d i k)) / rsd_used d i).
Lemma rn_value_stats (d : matR) i : (2 <= nc d)%nat -> (i < nr d)%nat ->
  np_mean (nc d) (fun j => entry (rn_value d) i j) = 0 /\ rsd_used (rn_value d) i = 1 /\
  (~ constant_row d i -> np_std (nc d) (fun j => entry (rn_value d) i j) = 1) /\
  (constant_row d i -> forall j, (j < nc d)%nat -> entry (rn_value d) i j = 0).
Proof.
  intros Hn Hi. set (mu := np_mean (nc d) (fun k => entry d i k)). set (s := rsd_used d i). destruct (rsd_used_R d i Hn) as [A B]. fold s in A, B.
  assert (Hs : s <> 0).
  { destruct (Req_dec (np_std (nc d) (fun k => entry d i k)) 0) as [Q|Q].
    - rewrite B; [lra|]. intros a b Ha Hb. exact (proj1 (np_std_zero _ (fun k => entry d i k) Hn) Q a b Ha Hb).
    - enough (0 < s) by lra. apply A. intros Hcc. apply Q. apply np_std_zero; auto. }
  assert (Hx : forall j, (j < nc d)%nat -> entry (rn_value d) i j = - (mu / s) + / s * entry d i j).
  { intros j Hj. unfold rn_value. rewrite entry_mk by assumption. fold mu s. field. assumption. }
  assert (Hm : np_mean (nc d) (fun j => entry (rn_value d) i j) = 0).
  { rewrite (np_mean_ext (nc d) (fun j => entry (rn_value d) i j) _ Hx), np_mean_affine by lia. match goal with |- context[np_mean (nc d) ?f] => change (np_mean (nc d) f) with mu end. field. assumption. }
  assert (Hsd : ~ constant_row d i -> np_std (nc d) (fun j => entry (rn_value d) i j) = 1).
  { intros Hc. destruct (A Hc) as [E1 E2]. rewrite (np_std_ext (nc d) (fun j => entry (rn_value d) i j) _ Hx), np_std_affine by assumption. match goal with |- context[np_std (nc d) ?f] => replace (np_std (nc d) f) with s by exact E1 end.
    rewrite Rabs_right; [field; assumption|]. left. now apply Rinv_0_lt_compat. }
  assert (Hz : constant_row d i -> forall j, (j < nc d)%nat -> entry (rn_value d) i j = 0).
  { intros Hc j Hj. rewrite Hx by assumption. unfold mu. rewrite (np_mean_ext _ _ (fun _ => entry d i j)) by (intros k Hk; now apply Hc).
    rewrite np_mean_const by lia. field. assumption. }
  split; [exact Hm|]. split; [|split; [exact Hsd|exact Hz]].
  destruct (Req_dec (np_std (nc d) (fun k => entry d i k)) 0) as [Q|Q].
  - assert (Hc : constant_row d i) by (intros a b Ha Hb; exact (proj1 (np_std_zero _ (fun k => entry d i k) Hn) Q a b Ha Hb)).
    apply rsd_used_R; [exact Hn|]. intros a b Ha Hb. cbn in Ha, Hb. rewrite !Hz by assumption. reflexivity.
  - assert (Hc : ~ constant_row d i) by (intros Hcc; apply Q; apply np_std_zero; auto).
    unfold rsd_used. cbv zeta. change (nc (rn_value d)) with (nc d). rewrite (Hsd Hc). cbn [neqb n0 NumR].
    replace (Reqb 1 0) with false by (symmetry; apply Reqb_false; lra). reflexivity.
Qed.
(** transform: correct in every state in which no inverse_transform has been called yet. *)
Theorem C38_transform (s : std_st R) (d : matR) : st_configured s = false -> (2 <= nc d)%nat ->
  exists y, snd (t_transform rownorm s d) = Ok y /\ wf y /\ nr y = nr d /\ nc y = nc d /\ forall i, (i < nr d)%nat ->
    (~ constant_row d i -> Rmean (nc d) (fun j => entry y i j) = 0 /\ sqrt (Rvar (nc d) (fun j => entry y i j)) = 1 /\
       forall j, (j < nc d)%nat -> entry y i j = (entry d i j - Rmean (nc d) (fun k => entry d i k)) / sqrt (Rvar (nc d) (fun k => entry d i k))) /\
    (constant_row d i -> forall j, (j < nc d)%nat -> entry y i j = 0).
Proof.
  intros Hs Hn. unfold t_transform. cbn [t_configured rownorm]. rewrite Hs. cbn [negb]. fold (rownorm (T:=R)). rewrite rownorm_configure. cbn [snd].
  rewrite rownorm_do by reflexivity. eexists. split; [reflexivity|]. split; [apply mk_wf|]. split; [reflexivity|]. split; [reflexivity|]. intros i Hi.
  destruct (rn_value_stats d i Hn Hi) as (A1 & A2 & A3 & A4). split.
  - intros Hc. split; [|split].
    + rewrite Rmean_np. exact A1.
    + rewrite Rvar_np. exact (A3 Hc).
    + intros j Hj. rewrite entry_mk by assumption. rewrite Rmean_np, Rvar_np. destruct (rsd_used_R d i Hn) as [B _]. destruct (B Hc) as [-> _]. reflexivity.
  - exact A4.
Qed.
(** REFUTED part: the object never becomes configured by transform, so the following
    inverse_transform re-configures itself on its own argument and returns it unchanged. *)
Theorem C38_inverse_is_identity (s : std_st R) (d y : matR) : st_configured s = false -> (2 <= nc d)%nat ->
  snd (t_transform rownorm s d) = Ok y ->
  snd (t_inverse rownorm (fst (t_transform rownorm s d)) y) = Ok y.
Proof.
  intros Hs Hn. unfold t_transform. cbn [t_configured rownorm]. rewrite Hs. cbn [negb]. fold (rownorm (T:=R)). rewrite rownorm_configure. cbn [fst snd].
  rewrite rownorm_do by reflexivity. intros [= <-]. fold (rn_value d). unfold t_inverse. cbn [t_configured rownorm st_configured rn_conf]. rewrite Hs. cbn [negb].
  fold (rownorm (T:=R)). rewrite rownorm_configure. cbn [snd]. change (t_mark rownorm (rn_conf (st_configured (rn_conf (st_configured s) d)) (rn_value d))) with (rn_conf (T:=R) true (rn_value d)).
  etransitivity; [exact (rownorm_undo true (rn_value d) (rn_value d) eq_refl)|]. f_equal. symmetry. apply mat_eq_mk; try apply mk_wf; try reflexivity. intros i j Hi Hj.
  destruct (rn_value_stats d i Hn Hi) as (A1 & A2 & _). rewrite A2. change (nc (rn_value d)) with (nc d). rewrite A1. change (entry (rn_value d) i j = entry (rn_value d) i j * 1 + 0). ring.
Qed.
(** Exactly when the round trip works: when d was already normalised. *)
Theorem C38_round_trip_partial (s : std_st R) (d y : matR) : wf d -> st_configured s = false -> (2 <= nc d)%nat ->
  snd (t_transform rownorm s d) = Ok y ->
  (snd (t_inverse rownorm (fst (t_transform rownorm s d)) y) = Ok d <->
   forall i, (i < nr d)%nat -> (Rmean (nc d) (fun j => entry d i j) = 0 /\ sqrt (Rvar (nc d) (fun j => entry d i j)) = 1) \/
                               (forall j, (j < nc d)%nat -> entry d i j = 0)).
Proof.
  intros Wd Hs Hn E. rewrite (C38_inverse_is_identity s d y Hs Hn E). destruct (C38_transform s d Hs Hn) as (y' & E' & Wy & R1 & R2 & H3).
  assert (y' = y) by congruence. subst y'. clear E'. split.
  - intros [= ->] i Hi. destruct (H3 i Hi) as [B1 B2]. destruct (Req_dec (np_std (nc d) (fun k => entry d i k)) 0) as [Q|Q].
    + right. apply B2. intros a b Ha Hb. exact (proj1 (np_std_zero _ (fun k => entry d i k) Hn) Q a b Ha Hb).
    + left. destruct B1 as (C1 & C2 & _); [|split; assumption]. intros Hc. apply Q. apply np_std_zero; auto.
  - intros Hd. f_equal. apply mat_ext; auto. intros i j Hi Hj. rewrite R1 in Hi. rewrite R2 in Hj. destruct (H3 i Hi) as [B1 B2].
    destruct (Hd i Hi) as [[D1 D2]|D].
    + destruct B1 as (_ & _ & C3). { intros Hc. rewrite Rvar_np in D2. assert (np_std (nc d) (fun k => entry d i k) = 0) by (apply np_std_zero; auto). lra. }
      rewrite C3 by assumption. rewrite D1, D2. field.
    + rewrite B2 by (try assumption; intros a b Ha Hb; now rewrite !D). now rewrite D.
Qed.
Theorem C38_refuted : exists (d y : matR), (2 <= nc d)%nat /\ wf d /\
  snd (t_transform rownorm (t_new rownorm) d) = Ok y /\
  snd (t_inverse rownorm (fst (t_transform rownorm (t_new rownorm) d)) y) <> Ok d.
Proof.
  exists (Mat 1 2 [[5; 5]]). destruct (C38_transform (t_new rownorm) (Mat 1 2 [[5;5]]) eq_refl (Nat.le_refl _)) as (y & E & _).
  exists y. split; [cbn; lia|]. split; [repeat constructor|]. split; [exact E|]. intros Q.
  assert (Wd : wf (Mat 1 2 [[5;5]])) by repeat constructor.
  apply (C38_round_trip_partial (t_new rownorm) (Mat 1 2 [[5;5]]) y Wd eq_refl (Nat.le_refl _) E) with (i := 0%nat) in Q; [|cbn; lia].
  destruct Q as [[Q _]|Q].
  - unfold Rmean, entry in Q. cbn in Q. lra.
  - specialize (Q 0%nat ltac:(cbn; lia)). unfold entry in Q. cbn in Q. lra.
Qed.
(** After one inverse_transform the object is configured for good and further
    transforms reuse the parameters of that argument instead of their own. *)
Theorem C38_latched_after_inverse (s : std_st R) (d x : matR) : st_configured s = false -> (2 <= nc d)%nat -> nr x = nr d ->
  exists y, snd (t_transform rownorm (fst (t_inverse rownorm s d)) x) = Ok y /\
    forall i j, (i < nr x)%nat -> (j < nc x)%nat -> ~ constant_row d i ->
      entry y i j = (entry x i j - Rmean (nc d) (fun k => entry d i k)) / sqrt (Rvar (nc d) (fun k => entry d i k)).
Proof.
  intros Hs Hn Hr. unfold t_inverse. cbn [t_configured rownorm]. rewrite Hs. cbn [negb]. fold (rownorm (T:=R)). rewrite rownorm_configure. cbn [fst].
  change (t_mark rownorm (rn_conf (st_configured s) d)) with (rn_conf (T:=R) true d).
  unfold t_transform. cbn [t_configured rownorm st_configured rn_conf negb snd]. fold (rn_conf (T:=R) true d).
  pose proof (rownorm_do true d x Hr) as E. eexists. split; [exact E|]. intros i j Hi Hj Hc. rewrite entry_mk by assumption.
  rewrite Rmean_np, Rvar_np. destruct (rsd_used_R d i Hn) as [B _]. destruct (B Hc) as [-> _]. reflexivity.
Qed.
Example C38_ex : exists y, snd (t_transform rownorm (t_new rownorm) (Mat 1 2 [[1; 3]])) = Ok y /\ Rmean 2 (fun j => entry y 0 j) = 0.
Proof.
  destruct (C38_transform (t_new rownorm) (Mat 1 2 [[1;3]]) eq_refl (Nat.le_refl _)) as (y & E & _ & _ & _ & H3).
  exists y. split; [exact E|]. destruct (H3 0%nat ltac:(cbn; lia)) as [B _]. destruct B as (B & _); [|exact B].
  intros Hc. specialize (Hc 0%nat 1%nat ltac:(cbn; lia) ltac:(cbn; lia)). unfold entry in Hc. cbn in Hc. lra.
Qed.
Print Assumptions C38_transform.
Print Assumptions C38_inverse_is_identity.
Print Assumptions C38_round_trip_partial.
Print Assumptions C38_refuted.
Print Assumptions C38_latched_after_inverse.

(** * C39 *)
(** log_b v: the number y with b^y = v. *)
Lemma log_factor_R s : 0 < lg_base s -> lg_base s <> 1 -> log_factor s = / ln (lg_base s) /\ ln (lg_base s) <> 0.
Proof.
  intros H0 H1. assert (Hl : ln (lg_base s) <> 0).
  { intros Q. apply H1. rewrite <- ln_1 in Q. apply ln_inv in Q; lra. }
  split; [|assumption]. unfold log_factor. destruct (Reqb (lg_base s) (exp 1)) eqn:E.
  - apply Reqb_true in E. rewrite E, ln_exp. lra.
  - unfold Rdiv. ring.
Qed.
Theorem C39_transform (s : log_st) (x : matR) : 0 < lg_base s -> lg_base s <> 1 ->
  (snd (t_transform log_transformation s x) = Err ValueError <->
     exists i j, (i < nr x)%nat /\ (j < nc x)%nat /\ entry x i j + lg_offset s <= 0) /\
  ((forall i j, (i < nr x)%nat -> (j < nc x)%nat -> 0 < entry x i j + lg_offset s) ->
     exists y, snd (t_transform log_transformation s x) = Ok y /\ wf y /\ nr y = nr x /\ nc y = nc x /\
       (forall i j, (i < nr x)%nat -> (j < nc x)%nat -> Rpower (lg_base s) (entry y i j) = entry x i j + lg_offset s) /\
       (wf x -> snd (t_inverse log_transformation (fst (t_transform log_transformation s x)) y) = Ok x)).
Proof.
  intros H0 H1. destruct (log_factor_R s H0 H1) as [Hf Hl].
  set (s' := LogSt true (lg_base s) (lg_offset s)).
  assert (Et : t_transform log_transformation s x = (if lg_configured s then s else s', t_do log_transformation s' x)).
  { unfold t_transform. cbn [t_configured log_transformation]. destruct s as [[] b o]; reflexivity. }
  assert (Hs1 : lg_configured (if lg_configured s then s else s') = true) by (destruct (lg_configured s) eqn:E; [exact E|reflexivity]).
  assert (Hdo : (exists i j, (i < nr x)%nat /\ (j < nc x)%nat /\ entry x i j + lg_offset s <= 0) <->
                any (add_scalar x (lg_offset s')) (fun v => Rleb v 0) = true).
  { rewrite any_iff. unfold add_scalar. autorewrite with sh. split; intros (i & j & Hi & Hj & Hij); exists i, j; (split; [assumption|split; [assumption|]]).
    - rewrite entry_map_mat by assumption. now apply Rleb_true.
    - rewrite entry_map_mat in Hij by assumption. now apply Rleb_true in Hij. }
  rewrite Et. cbn [snd fst]. unfold t_do. cbn [log_transformation]. change (lg_offset s') with (lg_offset s) in *. split.
  - rewrite Hdo. destruct any; split; intros; auto; discriminate.
  - intros Hpos. destruct (any (add_scalar x (lg_offset s)) (fun v => Rleb v 0)) eqn:Ea.
    { exfalso. destruct (proj2 Hdo eq_refl) as (i & j & Hi & Hj & Hle). specialize (Hpos i j Hi Hj). lra. }
    change (log_factor s') with (log_factor s).
    set (y := mul_scalar (map_mat ln (add_scalar x (lg_offset s))) (log_factor s)).
    assert (Hy : forall i j, (i < nr x)%nat -> (j < nc x)%nat -> entry y i j = ln (entry x i j + lg_offset s) / ln (lg_base s)).
    { intros i j Hi Hj. unfold y, mul_scalar, add_scalar. rewrite !entry_map_mat by (autorewrite with sh; assumption). rewrite Hf. reflexivity. }
    exists y. split; [reflexivity|]. split; [apply mk_wf|]. split; [reflexivity|]. split; [reflexivity|]. split.
    + intros i j Hi Hj. rewrite Hy by assumption. unfold Rpower. replace (ln (entry x i j + lg_offset s) / ln (lg_base s) * ln (lg_base s)) with (ln (entry x i j + lg_offset s)) by (field; assumption).
      apply exp_ln. auto.
    + intros Wx. unfold t_inverse. cbn [t_configured log_transformation]. rewrite Hs1. cbn [negb snd]. unfold t_undo. cbn [log_transformation].
      replace (log_factor (if lg_configured s then s else s')) with (log_factor s) by (destruct (lg_configured s); reflexivity).
      replace (lg_offset (if lg_configured s then s else s')) with (lg_offset s) by (destruct (lg_configured s); reflexivity).
      f_equal. apply mat_ext; [apply mk_wf|assumption|reflexivity|reflexivity|]. intros i j Hi Hj. cbn in Hi, Hj.
      unfold sub_scalar, div_scalar. rewrite !entry_map_mat by (autorewrite with sh; cbn; assumption). rewrite Hy by assumption. rewrite Hf. cbn [nsub ndiv NumR].
      replace (ln (entry x i j + lg_offset s) / ln (lg_base s) / / ln (lg_base s)) with (ln (entry x i j + lg_offset s)) by (field; assumption).
      rewrite exp_ln by auto. ring.
Qed.
Theorem C39_parameters (v : R) (s : log_st) :
  (v = 1 \/ v <= 0 -> log_set_base v s = (s, Err ValueError)) /\
  (0 < v -> v <> 1 -> exists s', log_set_base v s = (s', Ok tt) /\ lg_base s' = v /\ lg_offset s' = lg_offset s /\ t_configured log_transformation s' = false) /\
  (exists s', log_set_offset v s = (s', Ok tt) /\ lg_base s' = lg_base s /\ lg_offset s' = v).
Proof.
  unfold log_set_base. split; [|split].
  - intros [->|Hv].
    + replace (Reqb 1 1) with true by (symmetry; now apply Reqb_true). reflexivity.
    + replace (Rleb v 0) with true by (symmetry; now apply Rleb_true). now rewrite orb_true_r.
  - intros Hv H1. replace (Reqb v 1) with false by (symmetry; now apply Reqb_false). replace (Rleb v 0) with false by (symmetry; now apply Rleb_false).
    eexists. split; [reflexivity|]. repeat split.
  - eexists. split; [reflexivity|]. repeat split.
Qed.
(** Over whole histories the base stays valid, so C39_transform applies after any of them. *)
Inductive log_op : Type := LSetBase (v : R) | LSetOffset (v : R) | LCall (o : t_op R).
Definition log_step (s : log_st) (o : log_op) : log_st :=
  match o with LSetBase v => fst (log_set_base v s) | LSetOffset v => fst (log_set_offset v s) | LCall o => t_step log_transformation s o end.
Theorem C39_base_always_valid (h : list log_op) :
  let s := fold_left log_step h (t_new log_transformation) in 0 < lg_base s /\ lg_base s <> 1.
Proof.
  apply (fold_left_inv (fun s => 0 < lg_base s /\ lg_base s <> 1)).
  - cbn. split; [apply exp_pos|]. pose proof (exp_ineq1 1 ltac:(lra)). lra.
  - intros s o _ [H0 H1]. destruct o as [v|v|o]; cbn [log_step].
    + unfold log_set_base. destruct (Reqb v 1 || Rleb v 0) eqn:E; [split; assumption|]. cbn. apply orb_false_iff in E as [E1 E2].
      apply Reqb_false in E1. apply Rleb_false in E2. split; assumption.
    + split; assumption.
    + destruct o as [m|m|m|]; cbn [t_step]; unfold t_transform, t_inverse; cbn; try (split; assumption); destruct (lg_configured s); split; assumption.
Qed.
Example C39_ex : exists y, snd (t_transform log_transformation (LogSt false 2 0) (Mat 1 1 [[8]])) = Ok y /\ entry y 0 0%nat = 3.
Proof.
  destruct (C39_transform (LogSt false 2 0) (Mat 1 1 [[8]])) as [_ B]; [cbn; lra|cbn; lra|].
  destruct B as (y & E & _ & _ & _ & P & _). { intros [|i] [|j] Hi Hj; cbn in *; try lia. unfold entry. cbn. lra. }
  exists y. split; [exact E|]. specialize (P 0%nat 0%nat ltac:(cbn; lia) ltac:(cbn; lia)). unfold entry at 2 in P. cbn in P.
  assert (H2 : Rpower 2 3 = 8). { replace 3 with (INR 3) by (cbn; lra). rewrite Rpower_pow by lra. cbn. lra. }
  assert (L2 : 0 < ln 2) by (rewrite <- ln_1; apply ln_increasing; lra).
  unfold Rpower in P, H2. assert (Q : exp (entry y 0 0%nat * ln 2) = exp (3 * ln 2)) by lra. apply exp_inv in Q. apply Rmult_eq_reg_r with (ln 2); lra.
Qed.
Print Assumptions C39_transform.
Print Assumptions C39_parameters.
Print Assumptions C39_base_always_valid.
