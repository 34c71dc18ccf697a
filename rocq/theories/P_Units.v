(** C98: units.  Measuring the features and the responses in other units changes nothing but the unit
    of the predictions, for the algorithms that standardise their data themselves. *)
From Coq Require Import List ZArith Lia Bool Arith Reals Lra.
From Verif Require Import Base Num Mat M_Matrix M_Factory M_Helper M_Loop M_Utils M_Linalg M_Transform M_PLSBase M_PLS M_PLS2.
From Verif Require Import S_Matrix P_Helper L_Base L_Mat L_Matrix L_MatR L_Alg L_Stats L_Transform P_Transform P_PLSPrep L_Public P_NIPALS2 L_Span L_Perm.
Import ListNotations.
Local Open Scope R_scope.

(** X' is X in other units: column j is multiplied by c j and shifted by d j. *)
Definition units (c d : nat -> R) (X X' : mat R) : Prop :=
  wf X /\ wf X' /\ nr X' = nr X /\ nc X' = nc X /\ forall i j, (i < nr X)%nat -> (j < nc X)%nat -> entry X' i j = c j * entry X i j + d j.
(** Two calls that both raise the same exception, or both return, the second in other units *)
Definition same_in_units (a b : nat -> R) (r r' : res (mat R)) : Prop :=
  match r, r' with
  | Ok V, Ok V' => units a b V V'
  | Err e, Err e' => e' = e
  | _, _ => False
  end.
(** Training on (X', Y') instead of (X, Y): the same outcome, and whatever is predicted afterwards for
    Z' is what would have been predicted for Z. *)
Definition unit_free {A K} (cl : pls_class A K R) : Prop := forall (s : pls_st A R) X Y X' Y' c d a b,
  p_preprocessing s = PP_NONE -> (forall j, 0 < c j) -> (forall j, 0 < a j) -> units c d X X' -> units a b Y Y' -> nc X <> 0%nat -> nc Y <> 0%nat ->
  (2 <= nr X)%nat -> (2 <= nr Y)%nat -> (forall j, (j < nc X)%nat -> ~ constant_column X j) -> (forall j, (j < nc Y)%nat -> ~ constant_column Y j) ->
  snd (initialize cl s (Some X') (Some Y')) = snd (initialize cl s (Some X) (Some Y)) /\
  forall Z Z', units c d Z Z' -> nc Z = nc X ->
    same_in_units a b (snd (predict cl (fst (initialize cl s (Some X) (Some Y))) Z)) (snd (predict cl (fst (initialize cl s (Some X') (Some Y'))) Z')).
(** ... and the scores of Z' are those of Z. *)
Definition unit_free_scores {A K} (cl : pls_class A K R) : Prop := forall (s : pls_st A R) X Y X' Y' c d a b,
  p_preprocessing s = PP_NONE -> (forall j, 0 < c j) -> (forall j, 0 < a j) -> units c d X X' -> units a b Y Y' -> nc X <> 0%nat -> nc Y <> 0%nat ->
  (2 <= nr X)%nat -> (2 <= nr Y)%nat -> (forall j, (j < nc X)%nat -> ~ constant_column X j) -> (forall j, (j < nc Y)%nat -> ~ constant_column Y j) ->
  forall Z Z', units c d Z Z' -> nc Z = nc X ->
    snd (transform cl (fst (initialize cl s (Some X') (Some Y'))) Z') = snd (transform cl (fst (initialize cl s (Some X) (Some Y))) Z).

(** * Statistics in other units *)
Lemma Rmean_units n f g c d : n <> 0%nat -> (forall i, (i < n)%nat -> g i = c * f i + d) -> Rmean n g = c * Rmean n f + d.
Proof.
  intros Hn E. unfold Rmean. rewrite (Rsum_ext n g (fun i => c * f i + d)) by exact E. rewrite !Rsum_sumn, sumR_plus, sumR_scal, sumR_const. pose proof (not_0_INR n Hn). field. assumption.
Qed.
Lemma Rvar_units n f g c d : n <> 0%nat -> (forall i, (i < n)%nat -> g i = c * f i + d) -> Rvar n g = c * c * Rvar n f.
Proof.
  intros Hn E. unfold Rvar. rewrite (Rmean_units n f g c d Hn E). rewrite (Rsum_ext n _ (fun i => c * c * ((f i - Rmean n f) * (f i - Rmean n f)))) by (intros; rewrite E by assumption; ring).
  rewrite !Rsum_sumn, sumR_scal. unfold Rdiv. ring.
Qed.
Lemma sd_units n f g c d : n <> 0%nat -> 0 < c -> (forall i, (i < n)%nat -> g i = c * f i + d) -> sqrt (Rvar n g) = c * sqrt (Rvar n f).
Proof. intros Hn Hc E. rewrite (Rvar_units n f g c d Hn E). rewrite sqrt_mult_alt by nra. now rewrite sqrt_square by lra. Qed.

Section Columns.
Variables (c d : nat -> R) (X X' : mat R).
Hypothesis Hc : forall j, 0 < c j.
Hypothesis HX : units c d X X'.
Hypothesis HP : preparable PP_STANDARDIZE X.
Lemma units_preparable : preparable PP_STANDARDIZE X'.
Proof.
  destruct HX as (_ & _ & E1 & E2 & E). destruct HP as (P1 & P2). split; [lia|]. intros j Hj Q. rewrite E2 in Hj. apply (P2 j Hj). intros i k Hi Hk. specialize (Q i k ltac:(lia) ltac:(lia)). rewrite !E in Q by assumption. pose proof (Hc j). nra.
Qed.
Lemma units_mean j : (j < nc X)%nat -> Rmean (nr X') (fun k => entry X' k j) = c j * Rmean (nr X) (fun k => entry X k j) + d j.
Proof. intros Hj. destruct HX as (_ & _ & E1 & E2 & E). destruct HP as (P1 & _). rewrite E1. apply Rmean_units; [lia|]. intros; now apply E. Qed.
Lemma units_sd j : (j < nc X)%nat -> sqrt (Rvar (nr X') (fun k => entry X' k j)) = c j * sqrt (Rvar (nr X) (fun k => entry X k j)).
Proof. intros Hj. destruct HX as (_ & _ & E1 & E2 & E). destruct HP as (P1 & _). rewrite E1. apply (sd_units _ _ _ _ (d j)); [lia|apply Hc|]. intros; now apply E. Qed.
Lemma sd_nonzero j : (j < nc X)%nat -> sqrt (Rvar (nr X) (fun k => entry X k j)) <> 0.
Proof. intros Hj. destruct HP as (P1 & P2). destruct (sd_used_R X j P1) as [A _]. destruct (A (P2 j Hj)) as [<- H]. exact H. Qed.
Lemma standardised_units Z Z' i j : units c d Z Z' -> nc Z = nc X -> (i < nr Z)%nat -> (j < nc X)%nat -> standardised_by X' Z' i j = standardised_by X Z i j.
Proof.
  intros (_ & _ & F1 & F2 & F) EZ Hi Hj. unfold standardised_by. rewrite units_mean, units_sd, F by (assumption || lia). pose proof (Hc j). pose proof (sd_nonzero j Hj). field. split; [assumption|lra].
Qed.
Lemma again_units Z Z' : units c d Z Z' -> nc Z = nc X -> snd (t_transform standardize (std_conf X') Z') = snd (t_transform standardize (std_conf X) Z).
Proof.
  intros HZ EZ. pose proof HZ as (_ & _ & F1 & F2 & _). pose proof HX as (_ & _ & E1 & E2 & _). rewrite (standardize_again X Z EZ HP), (standardize_again X' Z' ltac:(congruence) units_preparable). cbn [snd]. apply f_equal. rewrite F1, E2. apply mk_ext. intros i j Hi Hj. now apply standardised_units.
Qed.
Lemma new_units : nc X <> 0%nat -> exists x, t_transform standardize (t_new standardize) X = (std_conf X, Ok x) /\ t_transform standardize (t_new standardize) X' = (std_conf X', Ok x).
Proof.
  intros Hn. pose proof HX as (W & W' & E1 & E2 & _). eexists. split; [now apply standardize_new|]. rewrite (standardize_new X' W' ltac:(congruence) units_preparable). apply f_equal. apply f_equal. rewrite E1, E2. apply mk_ext. intros i j Hi Hj.
  exact (standardised_units X X' i j HX eq_refl Hi Hj).
Qed.
Lemma devs_units : st_devs (std_conf X) = Some (mk 1 (nc X) (fun _ j => sqrt (Rvar (nr X) (fun k => entry X k j)))) /\ st_devs (std_conf X') = Some (mk 1 (nc X) (fun _ j => c j * sqrt (Rvar (nr X) (fun k => entry X k j)))).
Proof.
  pose proof HX as (_ & _ & E1 & E2 & _). cbn [std_conf st_devs]. split.
  - apply f_equal. apply mk_ext. intros i j Hi Hj. destruct HP as (P1 & P2). destruct (sd_used_R X j P1) as [A _]. now destruct (A (P2 j Hj)) as [-> _].
  - apply f_equal. rewrite E2. apply mk_ext. intros i j Hi Hj. destruct units_preparable as (P1 & P2). destruct (sd_used_R X' j P1) as [A _]. destruct (A (P2 j ltac:(lia))) as [-> _]. now apply units_sd.
Qed.
Lemma means_units : st_means (std_conf X) = Some (mk 1 (nc X) (fun _ j => Rmean (nr X) (fun k => entry X k j))) /\ st_means (std_conf X') = Some (mk 1 (nc X) (fun _ j => c j * Rmean (nr X) (fun k => entry X k j) + d j)).
Proof.
  pose proof HX as (_ & _ & E1 & E2 & _). cbn [std_conf st_means]. unfold column_means. split; apply f_equal; rewrite ?E2; apply mk_ext; intros i j Hi Hj; rewrite <- Rmean_np; [reflexivity|]. now apply units_mean.
Qed.
End Columns.

(** * From the class to the object, without preprocessing *)
Lemma init_none {A K} (cl : pls_class A K R) (s : pls_st A R) X Y : p_preprocessing s = PP_NONE -> nc Y <> 0%nat ->
  let '(own, r) := c_train cl (p_num_components s) (c_reset cl (p_own s)) X Y in
  snd (initialize cl s (Some X) (Some Y)) = match check_data cl Y with Some m => Ok (Some m) | None => r end /\
  (forall Z, snd (predict cl (fst (initialize cl s (Some X) (Some Y))) Z) = match check_data cl Y, r with None, Ok None => snd (c_predict cl (p_num_components s) own Z) | _, _ => Err RuntimeError end) /\
  (forall Z, snd (transform cl (fst (initialize cl s (Some X) (Some Y))) Z) = match check_data cl Y, r with None, Ok None => snd (c_transform cl (p_num_components s) own Z) | _, _ => Err RuntimeError end).
Proof.
  intros Hpp Hq. destruct (c_train cl _ _ X Y) as [own r] eqn:Et. unfold initialize. destruct (check_data cl Y) as [m|]; [split; [reflexivity|]; split; intros; reflexivity|].
  unfold do_initialize. cbn [reset p_preprocessing]. assert (Hprep : exists m sd, prepare cl (p_preprocessing s) Y = Ok (m, sd, None, None)).
  { rewrite Hpp. unfold prepare. destruct (c_arity cl); [eexists; eexists; reflexivity|]. destruct (prep_multi_spec Y Hq) as (-> & _). eexists. eexists. reflexivity. }
  destruct Hprep as (m & sd & ->). cbn [pt_fit set_prep p_num_components p_own reset]. rewrite Et. unfold predict, transform, do_predict.
  destruct r as [[g|]|e]; cbn [fst snd set_initialised set_own set_prep p_initialised negb p_own p_num_components reset p_trans_response]; (split; [reflexivity|]); (split; intros Z; [|]); try reflexivity.
  - destruct (c_predict cl _ own Z) as [a' [r'|e]]; reflexivity.
  - destruct (c_transform cl _ own Z) as [a' r']. reflexivity.
Qed.
Lemma check_units {A K} (cl : pls_class A K R) Y Y' : nc Y' = nc Y -> check_data cl Y' = check_data cl Y.
Proof. intros E. unfold check_data. now rewrite E. Qed.

(** * NIPALS and CCARegression *)
Definition scaled_columns (q : nat) (a : nat -> R) (B B' : mat R) : Prop := nc B = q /\ wf B /\ B' = mk (nr B) q (fun i j => a j * entry B i j).
Definition coef_rel (q : nat) (a : nat -> R) (m m' : nipals_model R) : Prop :=
  nm_X_rotations m' = nm_X_rotations m /\ scaled_columns q a (nm_coef m) (nm_coef m').
Lemma scale_units q a sd (M : mat R) : rrel (scaled_columns q a) (scale_by_row_vector M (mk 1 q (fun _ j => sd j))) (scale_by_row_vector M (mk 1 q (fun _ j => a j * sd j))).
Proof.
  destruct (Nat.eq_dec q 1) as [->|Hq].
  - destruct (Nat.eq_dec (nc M) 1) as [Hm|Hm].
    + destruct (scale_by_row_vector_spec M (mk 1 1 (fun _ j => sd j))) as (_ & _ & H1). destruct (scale_by_row_vector_spec M (mk 1 1 (fun _ j => a j * sd j))) as (_ & _ & H2).
      destruct (H1 eq_refl Hm) as (m1 & -> & Q1). destruct (H2 eq_refl Hm) as (m2 & -> & Q2). apply is_mat_eq_mk in Q1, Q2. subst m1 m2. cbn [rrel]. split; [exact Hm|]. split; [apply mk_wf|]. cbn [nr mk]. rewrite Hm. apply mk_ext. intros i j Hi Hj. assert (j = 0)%nat by lia. subst j.
      fold (mk (nr M) 1 (fun i j => nmul (entry M i j) (entry (mk 1 1 (fun _ j => sd j)) j 0))). rewrite !entry_mk by lia. cbn [nmul NumR]. ring.
    + destruct (scale_by_row_vector_spec M (mk 1 1 (fun _ j => sd j))) as (_ & H1 & _). destruct (scale_by_row_vector_spec M (mk 1 1 (fun _ j => a j * sd j))) as (_ & H2 & _). rewrite H1, H2 by (reflexivity || exact Hm). reflexivity.
  - destruct (scale_by_row_vector_spec M (mk 1 q (fun _ j => sd j))) as (H1 & _). destruct (scale_by_row_vector_spec M (mk 1 q (fun _ j => a j * sd j))) as (H2 & _). rewrite H1, H2 by exact Hq. reflexivity.
Qed.
Lemma add_means_units q a b mu (V V' : mat R) : scaled_columns q a V V' -> same_in_units a b (add_by_vector V (mk 1 q (fun _ j => mu j))) (add_by_vector V' (mk 1 q (fun _ j => a j * mu j + b j))).
Proof.
  intros (E & W & ->). unfold add_by_vector, vector_op, copy. rewrite !vector_opm_row by (cbn [nr nc mk]; congruence). cbn [same_in_units]. split; [apply mk_wf|]. split; [apply mk_wf|]. split; [reflexivity|]. split; [cbn [nc mk]; congruence|].
  intros i j Hi Hj. cbn [nr nc mk] in Hi, Hj. rewrite !entry_mk by (cbn [nr nc mk]; lia). cbn [nadd NumR]. ring.
Qed.
Lemma mul_scaled q a (Z B B' : mat R) : scaled_columns q a B B' -> rrel (scaled_columns q a) (mul Z B) (mul Z B').
Proof.
  intros (E & W & ->). unfold mul, is_multiplicable_with. cbn [nr mk]. destruct (nc Z =? nr B) eqn:Ez; cbn [negb rrel]; [|reflexivity]. apply Nat.eqb_eq in Ez. unfold scaled_columns. unfold matmul at 1 2. cbn [nc mk]. split; [exact E|]. split; [apply mk_wf|].
  unfold matmul. cbn [nr nc mk]. apply mk_ext. intros i j Hi Hj. rewrite entry_mk by lia. cbn [nmul NumR]. rewrite <- sumR_scal. apply sumn_ext. intros k Hk. rewrite entry_mk by lia. cbn [nmul NumR]. ring.
Qed.
Section Nipals.
Variables (lstsq : mat R -> mat R -> res (mat R)) (pinv : mat R -> res (mat R)) (mode : weight_mode) (def0 : deflation_mode) (asg : deflation_mode -> deflation_mode -> deflation_mode).
Notation cl := (nipals_class lstsq pinv mode def0 asg).
Lemma nipals_step_own (o o' : nipals_st R) st k : ni_tol o' = ni_tol o -> ni_max_iter o' = ni_max_iter o -> ni_norm_Y_weights o' = ni_norm_Y_weights o -> ni_deflation o' = ni_deflation o ->
  nipals_step lstsq mode o' st k = nipals_step lstsq mode o st k.
Proof. intros E1 E2 E3 E4. unfold nipals_step. now rewrite E1, E2, E3, E4. Qed.
Lemma for_range_ext {B} k (f g : B -> nat -> res B) b : (forall x i, f x i = g x i) -> for_range k f b = for_range k g b.
Proof. intros E. apply rrel_eq. apply rrel_range; [reflexivity|]. intros x y i <-. rewrite E. apply rrel_refl. Qed.
Lemma nipals_fit_units k (o o' : nipals_st R) x y q a sd : ni_tol o' = ni_tol o -> ni_max_iter o' = ni_max_iter o -> ni_norm_Y_weights o' = ni_norm_Y_weights o -> ni_deflation o' = ni_deflation o ->
  rrel (coef_rel q a) (nipals_fit lstsq pinv mode k o x y (Some (mk 1 q (fun _ j => sd j)))) (nipals_fit lstsq pinv mode k o' x y (Some (mk 1 q (fun _ j => a j * sd j)))).
Proof.
  intros E1 E2 E3 E4. unfold nipals_fit. rewrite (for_range_ext _ (nipals_step lstsq mode o') (nipals_step lstsq mode o)) by (intros; now apply nipals_step_own).
  apply (rrel_bind eq); [apply rrel_refl|]. intros [[s [X1 Y1]] [[[[[XS YS] XL] YL] XW] YW]] st' <-. do 4 (apply (rrel_bind eq); [apply rrel_refl|]; intros ? ? <-). cbn [bind]. apply (rrel_bind eq); [apply rrel_refl|]. intros M ? <-.
  eapply rrel_bind; [apply scale_units|]. intros B B' HB. cbn [rrel]. unfold coef_rel. cbn. split; [reflexivity|exact HB].
Qed.
Lemma nipals_units : unit_free cl /\ unit_free_scores cl.
Proof.
  assert (H : forall (s : pls_st (nipals_st R) R) X Y X' Y' c d a b,
    p_preprocessing s = PP_NONE -> (forall j, 0 < c j) -> (forall j, 0 < a j) -> units c d X X' -> units a b Y Y' -> nc X <> 0%nat -> nc Y <> 0%nat -> preparable PP_STANDARDIZE X -> preparable PP_STANDARDIZE Y ->
    snd (initialize cl s (Some X') (Some Y')) = snd (initialize cl s (Some X) (Some Y)) /\
    forall Z Z', units c d Z Z' -> nc Z = nc X ->
      same_in_units a b (snd (predict cl (fst (initialize cl s (Some X) (Some Y))) Z)) (snd (predict cl (fst (initialize cl s (Some X') (Some Y'))) Z')) /\
      snd (transform cl (fst (initialize cl s (Some X') (Some Y'))) Z') = snd (transform cl (fst (initialize cl s (Some X) (Some Y))) Z)).
  { intros s X Y X' Y' c d a b Hpp Hc Ha HX HY NX NY PX PY. pose proof HY as (_ & _ & _ & CY & _).
    pose proof (init_none cl s X Y Hpp NY) as I1. pose proof (init_none cl s X' Y' Hpp ltac:(congruence)) as I2. rewrite (check_units cl Y Y' CY) in I2.
    destruct (new_units c d X X' Hc HX PX NX) as (x & X1 & X2). destruct (new_units a b Y Y' Ha HY PY NY) as (y & Y1 & Y2). destruct (devs_units a b Y Y' Ha HY PY) as (D1 & D2). destruct (means_units a b Y Y' HY PY) as (M1 & M2).
    cbn [nipals_class c_train c_reset c_predict c_transform] in I1, I2. unfold nipals_train in I1, I2. cbn [ni_standardize_X] in I1, I2. rewrite X1 in I1. rewrite X2 in I2. cbn [ni_standardize_Y ni_tol ni_max_iter ni_norm_Y_weights ni_deflation ni_model ni_standardize_X] in I1, I2. rewrite Y1 in I1. rewrite Y2 in I2.
    cbn [ni_standardize_Y ni_tol ni_max_iter ni_norm_Y_weights ni_deflation ni_model ni_standardize_X] in I1, I2. rewrite D1 in I1. rewrite D2 in I2.
    match type of I1 with context [nipals_fit _ _ _ ?kk ?o x y _] => match type of I2 with context [nipals_fit _ _ _ kk ?o' x y _] => pose proof (nipals_fit_units kk o o' x y (nc Y) a (fun j => sqrt (Rvar (nr Y) (fun k => entry Y k j))) eq_refl eq_refl eq_refl eq_refl) as Q; cbv beta in Q end end.
    destruct (nipals_fit _ _ _ _ _ x y (Some (mk 1 (nc Y) (fun _ j => sqrt _)))) as [m|e], (nipals_fit _ _ _ _ _ x y (Some (mk 1 (nc Y) (fun _ j => a j * _)))) as [m'|e']; cbn [rrel] in Q; try contradiction.
    2:{ subst e'. destruct I1 as (I11 & I12 & I13), I2 as (I21 & I22 & I23). split; [congruence|]. intros Z Z' HZ EZ. rewrite I12, I22, I13, I23. split; [|reflexivity]. destruct (check_data cl Y); reflexivity. }
    destruct I1 as (I11 & I12 & I13), I2 as (I21 & I22 & I23). split; [congruence|]. intros Z Z' HZ EZ. rewrite I12, I22, I13, I23. destruct (check_data cl Y); [split; reflexivity|].
    pose proof (again_units c d X X' Hc HX PX Z Z' HZ EZ) as Eg. destruct Q as (Er & Eco). unfold nipals_predict, nipals_transform, nipals_apply. cbn [ni_standardize_X].
    destruct (t_transform standardize (std_conf X) Z) as [sx r], (t_transform standardize (std_conf X') Z') as [sx' r']. cbn [snd] in Eg. subst r'. cbn [snd ni_model ni_standardize_Y need bind]. rewrite M1, M2. cbn [need bind]. split.
    - destruct r as [zz|e]; cbn [bind]; [|reflexivity]. pose proof (mul_scaled (nc Y) a zz _ _ Eco) as Qm. destruct (mul zz (nm_coef m)) as [V|e], (mul zz (nm_coef m')) as [V'|e']; cbn [rrel bind] in *; try contradiction; [|now subst]. now apply add_means_units.
    - now rewrite Er. }
  split.
  - intros s X Y X' Y' c d a b Hpp Hc Ha HX HY NX NY N1 N2 P1 P2. destruct (H s X Y X' Y' c d a b Hpp Hc Ha HX HY NX NY (conj N1 P1) (conj N2 P2)) as (Q1 & Q2). split; [exact Q1|]. intros Z Z' HZ EZ. now apply Q2.
  - intros s X Y X' Y' c d a b Hpp Hc Ha HX HY NX NY N1 N2 P1 P2 Z Z' HZ EZ. destruct (H s X Y X' Y' c d a b Hpp Hc Ha HX HY NX NY (conj N1 P1) (conj N2 P2)) as (_ & Q2). now apply Q2.
Qed.
End Nipals.

(** * SparsePLS *)
Section Sparse.
Variables (lstsq : mat R -> mat R -> res (mat R)) (pinv : mat R -> res (mat R)).
Notation cl := (sparse_pls lstsq pinv).
Lemma sparse_units : unit_free cl.
Proof.
  intros s X Y X' Y' c d a b Hpp Hc Ha HX HY NX NY N1 N2 P1 P2. pose proof (conj N1 P1 : preparable PP_STANDARDIZE X) as PX. pose proof (conj N2 P2 : preparable PP_STANDARDIZE Y) as PY. pose proof HY as (_ & _ & _ & CY & _).
  pose proof (init_none cl s X Y Hpp NY) as I1. pose proof (init_none cl s X' Y' Hpp ltac:(congruence)) as I2. rewrite (check_units cl Y Y' CY) in I2.
  destruct (new_units c d X X' Hc HX PX NX) as (x & X1 & X2). destruct (new_units a b Y Y' Ha HY PY NY) as (y & Y1 & Y2). destruct (devs_units a b Y Y' Ha HY PY) as (D1 & D2). destruct (means_units a b Y Y' HY PY) as (M1 & M2).
  cbn [sparse_pls c_train c_reset c_predict c_transform] in I1, I2. unfold sparse_train in I1, I2. cbn [sp_standardize_X sp_standardize_Y sp_tol sp_max_iter sp_lambda sp_A sp_B sp_W] in I1, I2. rewrite X1 in I1. rewrite X2 in I2. rewrite Y1 in I1. rewrite Y2 in I2.
  destruct (sparse_fit _ _ _ _ x y) as [[[[A B] W] y']|e].
  2:{ destruct I1 as (I11 & I12 & _), I2 as (I21 & I22 & _). split; [congruence|]. intros Z Z' HZ EZ. rewrite I12, I22. destruct (check_data cl Y); reflexivity. }
  destruct I1 as (I11 & I12 & I13), I2 as (I21 & I22 & I23). split; [congruence|]. intros Z Z' HZ EZ. rewrite I12, I22. destruct (check_data cl Y); [reflexivity|].
  pose proof (again_units c d X X' Hc HX PX Z Z' HZ EZ) as Eg. unfold sparse_predict. cbn [sp_standardize_X sp_standardize_Y sp_tol sp_max_iter sp_lambda sp_A sp_B sp_W].
  destruct (t_transform standardize (std_conf X) Z) as [sx r], (t_transform standardize (std_conf X') Z') as [sx' r']. cbn [snd] in Eg. subst r'. cbn [snd sp_A sp_B sp_standardize_Y need bind]. rewrite D1, D2, M1, M2. cbn [need bind].
  destruct r as [zz|e]; cbn [bind]; [|reflexivity]. destruct (sparse_columns A zz) as [XA|e]; cbn [bind]; [|reflexivity]. destruct (sparse_rows A B) as [BA|e]; cbn [bind]; [|reflexivity]. destruct (mul XA BA) as [M|e]; cbn [bind]; [|reflexivity].
  pose proof (scale_units (nc Y) a (fun j => sqrt (Rvar (nr Y) (fun k => entry Y k j))) M) as Qs. cbv beta in Qs. destruct (scale_by_row_vector M _) as [V|e], (scale_by_row_vector M (mk 1 (nc Y) (fun _ j => a j * _))) as [V'|e']; cbn [rrel bind] in *; try contradiction; [|now subst]. now apply add_means_units.
Qed.
End Sparse.

(** * C98 *)
Theorem C98_nipals lstsq pinv : unit_free (nipals lstsq pinv) /\ unit_free_scores (nipals lstsq pinv).
Proof. apply nipals_units. Qed.
Theorem C98_cca_regression lstsq pinv : unit_free (cca_regression lstsq pinv) /\ unit_free_scores (cca_regression lstsq pinv).
Proof. apply nipals_units. Qed.
Theorem C98_sparse_pls lstsq pinv : unit_free (sparse_pls lstsq pinv).
Proof. apply sparse_units. Qed.
(** NIPALS with two components on four rows; features in other units (2 x + 1) and the response as
    3 y - 5: training returns as before and the predictions for (5, 7) are converted. *)
Example C98_ex : let c := nipals (fun _ _ => Err LinAlgError) pinv_R in let s0 := PlsSt 2 PP_NONE false [] [] None None (c_new c) in
  let X' := mk 4 2 (fun i j => 2 * entry exX i j + 1) in let Y' := mk 4 1 (fun i j => 3 * entry exY i j + -5) in
  snd (initialize c s0 (Some exX) (Some exY)) = Ok None /\ snd (initialize c s0 (Some X') (Some Y')) = Ok None /\
  same_in_units (fun _ => 3) (fun _ => -5) (snd (predict c (fst (initialize c s0 (Some exX) (Some exY))) (Mat 1 2 [[5;7]])))
    (snd (predict c (fst (initialize c s0 (Some X') (Some Y'))) (Mat 1 2 [[11;15]]))).
Proof.
  intros c s0 X' Y'. destruct C70_ex as (s & h & Ei & _). fold c s0 in Ei. destruct ex_prep as [[P1 P2] [P3 P4]].
  destruct (proj1 (C98_nipals (fun _ _ => Err LinAlgError) pinv_R) s0 exX exY X' Y' (fun _ => 2) (fun _ => 1) (fun _ => 3) (fun _ => -5)) as (E & HZ); try (reflexivity || assumption || discriminate).
  - intros. lra.
  - intros. lra.
  - split; [split; [reflexivity|repeat constructor]|]. split; [apply mk_wf|]. split; [reflexivity|]. split; [reflexivity|]. intros i j Hi Hj. unfold X'. now rewrite entry_mk.
  - split; [split; [reflexivity|repeat constructor]|]. split; [apply mk_wf|]. split; [reflexivity|]. split; [reflexivity|]. intros i j Hi Hj. unfold Y'. now rewrite entry_mk.
  - fold c in E, HZ. rewrite Ei in E |- *. split; [reflexivity|]. split; [exact E|]. rewrite Ei in HZ. apply HZ; [|reflexivity]. split; [split; [reflexivity|repeat constructor]|]. split; [split; [reflexivity|repeat constructor]|]. split; [reflexivity|]. split; [reflexivity|].
    intros i j Hi Hj. cbn in Hi, Hj. destruct i as [|]; [|lia]. destruct j as [|[|]]; [| |lia]; cbn; lra.
Qed.
Print Assumptions C98_nipals.
Print Assumptions C98_cca_regression.
Print Assumptions C98_sparse_pls.
