(** C106: predictions and scores are affine in the data: the result for the weighted mean of two batches is
    the weighted mean of their results. *)
From Coq Require Import List ZArith Lia Bool Arith Reals Lra.
From Verif Require Import Base Num Mat M_Matrix M_Factory M_Helper M_Loop M_Utils M_Transform M_PLSBase M_PLS M_PLS2 M_Kernel.
From Verif Require Import S_Matrix L_Base L_Mat L_MatR L_Matrix L_Alg L_Batch P_Batch L_Affine P_OLS.
Import ListNotations.
Local Open Scope nat_scope.

(** X1 * l + X2 * (1 - l), with the library's own operations *)
Definition blend (l : R) (A B : mat R) : res (mat R) := add (mul_scalar A l) (mul_scalar B (1 - l)%R).
(** m(X1 * l + X2 * (1 - l)) = m(X1) * l + m(X2) * (1 - l), for every number l *)
Definition is_affine (m : mat R -> res (mat R)) : Prop := forall l X1 X2 R1 R2, wf X1 -> wf X2 -> nr X1 <> 0 -> nr X2 = nr X1 -> nc X2 = nc X1 -> m X1 = Ok R1 -> m X2 = Ok R2 ->
  exists X R, blend l X1 X2 = Ok X /\ blend l R1 R2 = Ok R /\ m X = Ok R.
Lemma blend_comb l A B : alike A B -> blend l A B = Ok (comb l A B).
Proof.
  intros (WA & WB & ER & EC). unfold blend, mul_scalar, map_mat. rewrite ER, EC, add_mk. f_equal. unfold comb. apply mk_ext. intros i j Hi Hj. unfold lc. cbn. ring.
Qed.
Lemma affine_is_affine m : affine m -> is_affine m.
Proof.
  intros Hm l X1 X2 R1 R2 W1 W2 N ER EC E1 E2. assert (HX : alike X1 X2) by (split; [exact W1|]; split; [exact W2|]; split; assumption). destruct (Hm l X1 X2 R1 R2 HX N E1 E2) as (HR & _ & E).
  exists (comb l X1 X2), (comb l R1 R2). split; [now apply blend_comb|]. split; [now apply blend_comb|exact E].
Qed.

Section Lift.
Context {A K : Type} (c : pls_class A K R).
Lemma affine_predict s : (p_initialised s = true -> affine (fun X => snd (c_predict c (p_num_components s) (p_own s) X))) -> affine (fun X => snd (predict c s X)).
Proof.
  intros Hc. unfold predict. destruct (p_initialised s); cbn [negb]; [|apply affine_err]. unfold do_predict.
  apply (affine_ext (fun X => do result <- snd (c_predict c (p_num_components s) (p_own s) X); match p_trans_response s with None => Ok result | Some _ => denormalise c (p_class_mean s) (p_class_std_dev s) result end)).
  - intros X. now destruct (c_predict c _ _ X).
  - apply (affine_bind (fun X => snd (c_predict c (p_num_components s) (p_own s) X))); [now apply Hc|]. destruct (p_trans_response s); [apply affine_denormalise|apply affine_id].
Qed.
Lemma affine_transform s : (p_initialised s = true -> affine (fun X => snd (c_transform c (p_num_components s) (p_own s) X))) -> affine (fun X => snd (transform c s X)).
Proof.
  intros Hc. unfold transform. destruct (p_initialised s); cbn [negb]; [|apply affine_err].
  apply (affine_ext (fun X => snd (c_transform c (p_num_components s) (p_own s) X))); [|now apply Hc]. intros X. now destruct (c_transform c _ _ X).
Qed.
End Lift.

(** * The classes *)
Section Classes.
Variables (lstsq : mat R -> mat R -> res (mat R)) (eig : mat R -> res (list R * mat R)) (pinv : mat R -> res (mat R)) (svd : mat R -> res (mat R * list R * mat R)).

(** PLS1, VCPLS, SIMPLS, PRM: every object, also one not reachable *)
Lemma pls1_affine s : affine (fun X => snd (predict (pls1 lstsq) s X)) /\ (p_num_components s <> (-1)%Z -> affine (fun X => snd (transform (pls1 lstsq) s X))).
Proof. split; [apply affine_predict; intros _; cbn; apply affine_pls1_predict|intros Hn; apply affine_transform; intros _; cbn; now apply affine_pls1_transform]. Qed.
Lemma vcpls_affine s : affine (fun X => snd (predict (vcpls lstsq eig) s X)) /\ (p_num_components s <> (-1)%Z -> affine (fun X => snd (transform (vcpls lstsq eig) s X))).
Proof. split; [apply affine_predict; intros _; cbn; apply affine_pls1_predict|intros Hn; apply affine_transform; intros _; cbn; now apply affine_pls1_transform]. Qed.
Lemma simpls_affine s : affine (fun X => snd (predict (simpls eig) s X)) /\ affine (fun X => snd (transform (simpls eig) s X)).
Proof. split; [apply affine_predict|apply affine_transform]; intros _; cbn; apply affine_const; intros B _; apply affine_mul. Qed.
Lemma prm_affine s : affine (fun X => snd (predict (prm eig svd) s X)) /\ affine (fun X => snd (transform (prm eig svd) s X)).
Proof. split; [apply affine_predict|apply affine_transform]; intros _; cbn; apply affine_const; intros B _; [apply affine_mul|]. apply affine_const; intros W _; apply affine_mul. Qed.

(** OPLS, over a base class of which the same is known *)
Lemma affine_opls W P : affine (opls_transform (T:=R) W P).
Proof.
  unfold opls_transform. apply affine_const. intros W' _. destruct P as [P'|]; cbn [need].
  - apply (affine_ext (fun X => do A <- Ok X; do B <- (do Ts <- mul X W'; mul Ts (transpose P')); sub A B)).
    + intros X. cbn [bind]. destruct (mul X W') as [Ts|]; [|reflexivity]. cbn [bind]. destruct (mul Ts (transpose P')); reflexivity.
    + apply (affine_sub Ok (fun X => do Ts <- mul X W'; mul Ts (transpose P'))); [apply affine_id|]. apply (affine_bind (fun X => mul X W')); apply affine_mul.
  - intros l X1 X2 R1 R2 HX N. destruct (mul X1 W'); discriminate.
Qed.
Section OPLS.
Context {AB KB : Type} (base : pls_class AB KB R).
Hypothesis Hbase : forall s, affine (fun X => snd (predict base s X)).
Lemma opls_affine s : affine (fun X => snd (predict (opls base) s X)) /\ affine (fun X => snd (transform (opls base) s X)).
Proof.
  split; [apply affine_predict|apply affine_transform]; intros _; cbn [c_predict c_transform opls snd]; [|apply affine_opls].
  apply (affine_ext (fun X => do X' <- opls_transform (op_W (p_own s)) (op_P (p_own s)) X; snd (predict base (op_base (p_own s)) X'))).
  - intros X. unfold opls_predict. destruct (opls_transform _ _ X) as [X'|]; [|reflexivity]. cbn [bind]. now destruct (predict base _ X').
  - apply (affine_bind (opls_transform (op_W (p_own s)) (op_P (p_own s))) (fun X' => snd (predict base (op_base (p_own s)) X'))); [apply affine_opls|apply Hbase].
Qed.
End OPLS.

Lemma nipals_affine mode def0 assign h : let c := nipals_class lstsq pinv mode def0 assign in
  affine (fun X => snd (predict c (pls_run c h) X)) /\ affine (fun X => snd (transform c (pls_run c h) X)).
Proof.
  intros c. destruct (reach_run c _ _ (nipals_laws lstsq pinv mode def0 assign) h) as ((HX & HY) & Ht). revert HX HY Ht. generalize (pls_run c h) as s. intros s (M1 & D1) (M2 & D2) Ht.
  split; [apply affine_predict|apply affine_transform]; intros Hi; specialize (Ht Hi); cbn [c_predict c_transform c nipals_class]; unfold nipals_predict, nipals_transform, nipals_apply.
  - apply (affine_ext (fun X => do X' <- t_do standardize (ni_standardize_X (p_own s)) X; (do m <- need (ni_model (p_own s)); do xc <- mul X' (nm_coef m); do mu <- need (st_means (ni_standardize_Y (p_own s))); add_by_vector xc mu))).
    + intros X. rewrite std_transform_conf by exact Ht. reflexivity.
    + apply (affine_bind (t_do standardize (ni_standardize_X (p_own s))) (fun X' => do m <- need (ni_model (p_own s)); do xc <- mul X' (nm_coef m); do mu <- need (st_means (ni_standardize_Y (p_own s))); add_by_vector xc mu)); [now apply affine_standardize|].
      apply affine_const. intros m _. apply (affine_bind (fun X => mul X (nm_coef m)) (fun xc => do mu <- need (st_means (ni_standardize_Y (p_own s))); add_by_vector xc mu)); [apply affine_mul|]. apply affine_const. intros mu E.
      destruct (st_means (ni_standardize_Y (p_own s))) as [mu'|] eqn:Em; [|discriminate]. injection E as <-. apply affine_vector; [now apply M2|apply op_add].
  - apply (affine_ext (fun X => do X' <- t_do standardize (ni_standardize_X (p_own s)) X; (do m <- need (ni_model (p_own s)); mul X' (nm_X_rotations m)))).
    + intros X. rewrite std_transform_conf by exact Ht. reflexivity.
    + apply (affine_bind (t_do standardize (ni_standardize_X (p_own s))) (fun X' => do m <- need (ni_model (p_own s)); mul X' (nm_X_rotations m))); [now apply affine_standardize|]. apply affine_const. intros m _. apply affine_mul.
Qed.
(** KernelPLS with a kernel that treats rows on their own *)
Section KPLS.
Context {KS : Type} (rnd : Z -> nat -> mat R) (kernel0 : KS) (kapply : KS -> mat R -> option (mat R) -> KS * res (mat R)).
Notation kp := (kernel_pls lstsq rnd kernel0 kapply).
Lemma kpls_affine h : kernel_affine kapply -> affine (fun X => snd (predict kp (pls_run kp h) X)) /\ affine (fun X => snd (transform kp (pls_run kp h) X)).
Proof.
  intros Hk. destruct (reach_run kp _ _ (kpls_laws lstsq rnd kernel0 kapply) h) as ((HX & HY) & Ht). revert HX HY Ht. generalize (pls_run kp h) as s. intros s HX HY Ht.
  assert (Tr : p_initialised s = true -> affine (fun X => snd (kpls_transform kapply (p_own s) X))).
  { intros Hi. specialize (Ht Hi). destruct Ht as (T1 & T2). set (a := p_own s) in *.
    apply (affine_ext (fun X => do X' <- t_do center (kp_center_X a) X; (do m <- need (kp_model a); do K <- snd (kapply (kp_kernel a) X' (Some (km_X m))); do K <- centralize_test (nr (km_X m)) (km_K_orig m) K; mul K (km_U m)))).
    - intros X. unfold kpls_transform. rewrite center_transform_conf by exact T1. destruct (t_do center (kp_center_X a) X) as [X'|]; [|reflexivity]. cbn [bind kp_model kp_kernel]. destruct (kp_model a) as [m|]; [|reflexivity]. cbn [need bind].
      destruct (kapply (kp_kernel a) X' (Some (km_X m))) as [ks rK]. reflexivity.
    - apply (affine_bind (t_do center (kp_center_X a)) (fun X' => do m <- need (kp_model a); do K <- snd (kapply (kp_kernel a) X' (Some (km_X m))); do K <- centralize_test (nr (km_X m)) (km_K_orig m) K; mul K (km_U m))); [now apply affine_center|].
      apply affine_const. intros m _. apply (affine_bind (fun X' => snd (kapply (kp_kernel a) X' (Some (km_X m)))) (fun K => do K <- centralize_test (nr (km_X m)) (km_K_orig m) K; mul K (km_U m))); [apply Hk|].
      apply (affine_bind (centralize_test (nr (km_X m)) (km_K_orig m))); [apply affine_centralize|apply affine_mul]. }
  split; [apply affine_predict|apply affine_transform]; intros Hi; cbn [c_predict c_transform kernel_pls]; [|now apply Tr]. specialize (Tr Hi). destruct (Ht Hi) as (T1 & T2). set (a := p_own s) in *.
  apply (affine_ext (fun X => do K <- snd (kpls_transform kapply a X); (do m <- need (kp_model a); do V <- mul K (km_B_RHS m); t_undo center (kp_center_Y a) V))).
  - intros X. unfold kpls_predict. destruct (kpls_transform_state kapply a X (conj T1 T2)) as (ks & E). destruct (kpls_transform kapply a X) as [a' r]. cbn [fst snd] in *. subst a'. destruct r as [K|]; [|reflexivity]. cbn [bind kp_model].
    destruct (need (kp_model a)) as [m|]; [|reflexivity]. cbn [bind]. destruct (mul K (km_B_RHS m)) as [V|]; [|reflexivity]. cbn [kp_center_Y bind]. unfold t_inverse. cbn [t_configured center]. rewrite T2. reflexivity.
  - apply (affine_bind (fun X => snd (kpls_transform kapply a X)) (fun K => do m <- need (kp_model a); do V <- mul K (km_B_RHS m); t_undo center (kp_center_Y a) V)); [exact Tr|]. apply affine_const. intros m _.
    apply (affine_bind (fun K => mul K (km_B_RHS m)) (t_undo center (kp_center_Y a))); [apply affine_mul|now apply affine_center].
Qed.
End KPLS.

Lemma dipls_affine h : let c := dipls lstsq in affine (fun X => snd (predict c (pls_run c h) X)) /\ affine (fun X => snd (transform c (pls_run c h) X)).
Proof.
  intros c. destruct (reach_run c _ _ (dipls_laws lstsq) h) as ((HX & HY) & Ht). revert HX HY Ht. generalize (pls_run c h) as s. intros s HX HY Ht.
  assert (F : forall ce, center_ok ce -> affine (fun X => do X <- t_do center ce X; do m <- need (di_model (p_own s)); do g <- mul X (dm_b m); match di_b_0 (p_own s) with Some b0 => Ok (add_scalar g b0) | None => Ok (add_scalar g (ndiv n0 n0)) end)).
  { intros ce Hce. apply (affine_bind (t_do center ce) (fun X => do m <- need (di_model (p_own s)); do g <- mul X (dm_b m); match di_b_0 (p_own s) with Some b0 => Ok (add_scalar g b0) | None => Ok (add_scalar g (ndiv n0 n0)) end)); [now apply affine_center|].
    apply affine_const. intros m _. apply (affine_bind (fun X => mul X (dm_b m))); [apply affine_mul|]. destruct (di_b_0 (p_own s)) as [b0|]; [apply (affine_map _ 1%R b0)|apply (affine_map _ 1%R (0 / 0)%R)]; intros x; cbn; ring. }
  split; [apply affine_predict|apply affine_transform]; intros Hi; destruct (Ht Hi) as (T1 & T2); cbn [c_predict c_transform c dipls]; unfold dipls_predict, dipls_transform.
  - destruct (di_strategy (p_own s)); (eapply affine_ext; [intros X; rewrite center_transform_conf by assumption; cbn [snd]; reflexivity|now apply F]).
  - eapply affine_ext; [intros X; rewrite center_transform_conf by assumption; cbn [snd]; reflexivity|].
    apply (affine_bind (t_do center (di_X_center (p_own s))) (fun X => do m <- need (di_model (p_own s)); mul X (dm_W m))); [now apply affine_center|]. apply affine_const. intros m _. apply affine_mul.
Qed.

Lemma sparse_affine_predict h : let c := sparse_pls lstsq pinv in affine (fun X => snd (predict c (pls_run c h) X)).
Proof.
  intros c. destruct (reach_run c _ _ (sparse_laws lstsq pinv) h) as ((HX & HY) & Ht). revert HX HY Ht. generalize (pls_run c h) as s. intros s (M1 & D1) (M2 & D2) Ht.
  apply affine_predict. intros Hi. specialize (Ht Hi). cbn [c_predict c sparse_pls]. unfold sparse_predict. eapply affine_ext; [intros X; rewrite std_transform_conf by exact Ht; cbn [snd sp_A sp_B sp_standardize_Y]; reflexivity|].
  apply (affine_bind (t_do standardize (sp_standardize_X (p_own s)))); [now apply affine_standardize|]. apply affine_const. intros A _. apply (affine_bind (sparse_columns A)); [apply affine_sparse_columns|].
  apply affine_const. intros B _. apply affine_const. intros BA _. apply (affine_bind (fun X => mul X BA)); [apply affine_mul|]. apply affine_const. intros sd _.
  apply (affine_bind (fun xb => scale_by_row_vector xb sd)); [apply affine_scale|]. apply affine_const. intros mu E. destruct (st_means (sp_standardize_Y (p_own s))) as [mu'|] eqn:Em; [|discriminate]. injection E as <-. apply affine_vector; [now apply M2|apply op_add].
Qed.
End Classes.

(** * C106: every class, every solver, every sequence of calls before *)
Section C106.
Variables (lstsq : mat R -> mat R -> res (mat R)) (eig : mat R -> res (list R * mat R)) (pinv : mat R -> res (mat R)) (svd : mat R -> res (mat R * list R * mat R)).
Theorem C106_pls1 h : is_affine (fun X => snd (predict (pls1 lstsq) (pls_run (pls1 lstsq) h) X)) /\
  (p_num_components (pls_run (pls1 lstsq) h) <> (-1)%Z -> is_affine (fun X => snd (transform (pls1 lstsq) (pls_run (pls1 lstsq) h) X))).
Proof. split; [|intros Hn]; apply affine_is_affine; now apply pls1_affine. Qed.
Theorem C106_vcpls h : is_affine (fun X => snd (predict (vcpls lstsq eig) (pls_run (vcpls lstsq eig) h) X)) /\
  (p_num_components (pls_run (vcpls lstsq eig) h) <> (-1)%Z -> is_affine (fun X => snd (transform (vcpls lstsq eig) (pls_run (vcpls lstsq eig) h) X))).
Proof. split; [|intros Hn]; apply affine_is_affine; now apply vcpls_affine. Qed.
Theorem C106_simpls h : is_affine (fun X => snd (predict (simpls eig) (pls_run (simpls eig) h) X)) /\ is_affine (fun X => snd (transform (simpls eig) (pls_run (simpls eig) h) X)).
Proof. split; apply affine_is_affine, simpls_affine. Qed.
Theorem C106_prm h : is_affine (fun X => snd (predict (prm eig svd) (pls_run (prm eig svd) h) X)) /\ is_affine (fun X => snd (transform (prm eig svd) (pls_run (prm eig svd) h) X)).
Proof. split; apply affine_is_affine, prm_affine. Qed.
(** over its default base class *)
Theorem C106_opls h : is_affine (fun X => snd (predict (opls (pls1 lstsq)) (pls_run (opls (pls1 lstsq)) h) X)) /\ is_affine (fun X => snd (transform (opls (pls1 lstsq)) (pls_run (opls (pls1 lstsq)) h) X)).
Proof. split; apply affine_is_affine, opls_affine; intros s; apply pls1_affine. Qed.
Theorem C106_nipals h : is_affine (fun X => snd (predict (nipals lstsq pinv) (pls_run (nipals lstsq pinv) h) X)) /\ is_affine (fun X => snd (transform (nipals lstsq pinv) (pls_run (nipals lstsq pinv) h) X)).
Proof. split; apply affine_is_affine; [exact (proj1 (nipals_affine lstsq pinv _ _ _ h))|exact (proj2 (nipals_affine lstsq pinv _ _ _ h))]. Qed.
Theorem C106_cca_regression h : is_affine (fun X => snd (predict (cca_regression lstsq pinv) (pls_run (cca_regression lstsq pinv) h) X)) /\ is_affine (fun X => snd (transform (cca_regression lstsq pinv) (pls_run (cca_regression lstsq pinv) h) X)).
Proof. split; apply affine_is_affine; [exact (proj1 (nipals_affine lstsq pinv _ _ _ h))|exact (proj2 (nipals_affine lstsq pinv _ _ _ h))]. Qed.
Theorem C106_dipls h : is_affine (fun X => snd (predict (dipls lstsq) (pls_run (dipls lstsq) h) X)) /\ is_affine (fun X => snd (transform (dipls lstsq) (pls_run (dipls lstsq) h) X)).
Proof. split; apply affine_is_affine, dipls_affine. Qed.
(** its scores are no function of the single rows (C92) *)
Theorem C106_sparse_pls h : is_affine (fun X => snd (predict (sparse_pls lstsq pinv) (pls_run (sparse_pls lstsq pinv) h) X)).
Proof. apply affine_is_affine, sparse_affine_predict. Qed.
Theorem C106_kernel_pls_linear rnd h : let c := kernel_pls lstsq rnd tt (fun ks X Y => (ks, linear_apply_matrix X Y)) in
  is_affine (fun X => snd (predict c (pls_run c h) X)) /\ is_affine (fun X => snd (transform c (pls_run c h) X)).
Proof. split; apply affine_is_affine, kpls_affine, linear_affine. Qed.
End C106.

(** An object trained on two features (the data of C105): it predicts 1 for both training rows, 0 for rows of zeros, hence l for l times the training rows *)
Definition e106_X : mat R := Mat 2 2 [[3;0];[0;4]]%R.
Definition e106_h : list (pls_op Empty_set R) := [OSet (ANumComponents 2); OInitialize (Some e106_X) (Some (Mat 2 1 [[1];[1]]%R))].
Definition e106_cls := pls1 (T:=R) (fun _ _ => Err LinAlgError).
Example C106_ex l : exists X R, blend l e106_X (mk 2 2 (fun _ _ => 0%R)) = Ok X /\ snd (predict e106_cls (pls_run e106_cls e106_h) X) = Ok R /\ entry R 0 0 = l /\ entry R 1 0 = l.
Proof.
  destruct C105_ex as (s & Ei & b & c & Hc & HP & Hmin). specialize (Hc eq_refl). subst c.
  assert (Es : pls_run e106_cls e106_h = s).
  { unfold pls_run, e106_h. cbn [fold_left pls_step]. unfold e106_X. set (s0 := fst (setattr _ _ _)). assert (E0 : s0 = PlsSt 2 PP_NONE false [] [] None None (c_new e106_cls)) by reflexivity. rewrite E0. unfold e106_cls. now rewrite Ei. }
  assert (HX : wf e106_X) by (split; [reflexivity|repeat constructor]). set (Z0 := mk 2 2 (fun _ _ => 0%R)).
  pose proof (HP e106_X HX eq_refl ltac:(discriminate)) as P1. pose proof (HP Z0 (mk_wf _ _ _) eq_refl ltac:(discriminate)) as P2. rewrite <- Es in P1, P2. fold e106_cls in P1, P2.
  destruct (proj1 (C106_pls1 _ e106_h) l e106_X Z0 _ _ HX (mk_wf _ _ _) ltac:(discriminate) eq_refl eq_refl P1 P2) as (X & V & EX & EV & EP).
  exists X, V. split; [exact EX|]. split; [exact EP|].
  assert (Hb : (3 * b 0%nat = 1 /\ 4 * b 1%nat = 1)%R).
  { pose proof (Hmin (fun j => if j =? 0 then / 3 else / 4)%R 0%R (fun _ => eq_refl)) as M. unfold linear_error in M. cbn in M. ring_simplify in M. assert (M2 : (Rsqr (3 * b 0%nat - 1) + Rsqr (4 * b 1%nat - 1) <= 0)%R) by (unfold Rsqr; nra). pose proof (Rle_0_sqr (3 * b 0%nat - 1)) as S1. pose proof (Rle_0_sqr (4 * b 1%nat - 1)) as S2.
    assert (Q1 : Rsqr (3 * b 0%nat - 1) = 0%R) by lra. assert (Q2 : Rsqr (4 * b 1%nat - 1) = 0%R) by lra. apply Rsqr_0_uniq in Q1, Q2. lra. }
  rewrite blend_comb in EV by apply mk_alike. injection EV as <-. rewrite comb_mk. cbn [nr e106_X nc]. rewrite !entry_mk by (cbn; lia). unfold lc. cbn. destruct Hb as (B0 & B1). replace (b 0%nat) with (/ 3)%R by lra. replace (b 1%nat) with (/ 4)%R by lra. unfold tab. cbn [map seq nth]. split; field.
Qed.
Print Assumptions C106_pls1.
Print Assumptions C106_vcpls.
Print Assumptions C106_simpls.
Print Assumptions C106_prm.
Print Assumptions C106_opls.
Print Assumptions C106_nipals.
Print Assumptions C106_cca_regression.
Print Assumptions C106_dipls.
Print Assumptions C106_sparse_pls.
Print Assumptions C106_kernel_pls_linear.
