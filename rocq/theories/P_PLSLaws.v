(** C46, C48 for the concrete algorithms: which of them satisfy [lawful], and counterexamples for
    those that do not. *)
From Coq Require Import List ZArith Lia Bool Arith.
From Verif Require Import Base Num Mat M_Matrix M_Factory M_Helper M_Loop M_Utils M_Linalg M_Transform M_PLSBase M_PLS M_PLS2 M_Kernel P_PLSBase.
Import ListNotations.
Local Open Scope nat_scope.

(** The common case: reset leaves nothing but the parameters, and a state is like itself only. *)
Lemma lawful_eq {A K T E F} (c : pls_class A K T) (P : A -> E) (V : E -> F) :
  (forall a, P (c_reset c a) = P a) ->
  (forall n a X Y, P (fst (c_train c n a X Y)) = P a) ->
  (forall n a X, P (fst (c_predict c n a X)) = P a) ->
  (forall n a X, P (fst (c_transform c n a X)) = P a) ->
  (forall k a, c_valid c k = None -> V (P (c_assign c k a)) = V (P a)) ->
  (forall a b, P a = P b -> c_reset c a = c_reset c b) ->
  lawful c P V eq.
Proof.
  intros H1 H2 H3 H4 H5 H6. split; [constructor; assumption|constructor].
  - intros n a b X Y E0. rewrite (H6 _ _ E0). auto.
  - intros n a b X ->. auto.
  - intros n a b X ->. auto.
Qed.

Section Instances.
Context {T : Type} `{Num T}.
Variables (lstsq : mat T -> mat T -> res (mat T)) (pinv : mat T -> res (mat T))
          (eig : mat T -> res (list T * mat T)) (svd : mat T -> res (mat T * list T * mat T))
          (rnd : Z -> nat -> mat T).

Lemma pls1_lawful : lawful (pls1 lstsq) (fun _ => tt) (fun u => u) eq.
Proof. apply lawful_eq; try reflexivity; intros; reflexivity. Qed.

Lemma vcpls_lawful : lawful (vcpls lstsq eig) (@vc_lambda T) (fun u => u) eq.
Proof.
  apply lawful_eq; try reflexivity.
  - intros n a X Y. cbn. destruct (pls1_fit _ _ _ _ _); reflexivity.
  - intros k a. discriminate.
  - intros a b E0. cbn. now rewrite E0.
Qed.

Lemma simpls_lawful : lawful (simpls eig) (@si_coef T) (fun u => u) eq.
Proof.
  split; [constructor|constructor]; try reflexivity.
  - intros n a X Y. cbn. destruct (simpls_fit _ _ _ _ _) as [[[W B] Q]|e]; reflexivity.
  - intros k a. discriminate.
  - intros n a b X Y E0. cbn. rewrite E0. destruct (simpls_fit _ _ _ _ _) as [[[W B] Q]|e]; cbn; [auto|]. split; [reflexivity|discriminate].
  - intros n a b X ->. auto.
  - intros n a b X ->. auto.
Qed.

(** NIPALS, CCARegression: norm_Y_weights and deflation_mode have no validator. *)
Definition nipals_P (a : nipals_st T) : T * Z * (bool * deflation_mode) := ((ni_tol a, ni_max_iter a), (ni_norm_Y_weights a, ni_deflation a)).
Lemma nipals_class_lawful mode d f : lawful (nipals_class lstsq pinv mode d f) nipals_P fst eq.
Proof.
  apply lawful_eq; try reflexivity.
  - intros n a X Y. cbn [c_train nipals_class]. unfold nipals_train. destruct (t_transform standardize _ X) as [sx [X'|e]]; [|reflexivity].
    destruct (t_transform standardize _ Y) as [sy [Y'|e]]; [|reflexivity]. destruct (nipals_fit _ _ _ _ _ _ _); reflexivity.
  - intros n a X. cbn. unfold nipals_predict, nipals_apply. destruct (t_transform standardize _ X); reflexivity.
  - intros n a X. cbn. unfold nipals_transform, nipals_apply. destruct (t_transform standardize _ X); reflexivity.
  - intros [v|v|v|v] a E0; cbn in *; try discriminate; reflexivity.
  - intros a b E0. unfold nipals_P in E0. injection E0 as E1 E2 E3 E4. cbn. now rewrite E1, E2, E3, E4.
Qed.
Lemma nipals_lawful : lawful (nipals lstsq pinv) nipals_P fst eq.
Proof. apply nipals_class_lawful. Qed.
Lemma cca_regression_lawful : lawful (cca_regression lstsq pinv) nipals_P fst eq.
Proof. apply nipals_class_lawful. Qed.

(** KernelPLS, as long as using the kernel does not change it (PolyKernel and RBFKernel change
    only while their gamma is NAN). *)
Definition kpls_P {KS} (a : @kpls_st T KS) : KS * T * Z := (kp_kernel a, kp_tol a, kp_max_iter a).
Lemma kernel_pls_lawful {KS} (kernel0 : KS) kapply : (forall ks X Y, fst (kapply ks X Y) = ks) ->
  lawful (kernel_pls lstsq rnd kernel0 kapply) kpls_P (fun u => u) eq.
Proof.
  intros Hk. apply lawful_eq; try reflexivity.
  - intros n a X Y. cbn [c_train kernel_pls]. unfold kpls_train. destruct (t_transform center _ X) as [sx [X'|e]]; [|reflexivity].
    destruct (t_transform center _ Y) as [sy [Y'|e]]; [|reflexivity].
    assert (Hf : fst (kpls_fit lstsq rnd kapply n (kp_kernel a) (kp_tol a) (kp_max_iter a) X' Y') = kp_kernel a).
    { unfold kpls_fit. destruct (eye _ _); [|reflexivity]. specialize (Hk (kp_kernel a) X' None). destruct (kapply (kp_kernel a) X' None). exact Hk. }
    destruct (kpls_fit _ _ _ _ _ _ _ _ _) as [ks [m|e]]; cbn in *; subst ks; reflexivity.
  - intros n a X. cbn [c_predict kernel_pls]. unfold kpls_predict.
    assert (Hf : kpls_P (fst (kpls_transform kapply a X)) = kpls_P a).
    { unfold kpls_transform. destruct (t_transform center _ X) as [sx [X'|e]]; [|reflexivity]. cbn [kp_model]. destruct (kp_model a) as [m|]; [|reflexivity].
      cbn [kp_kernel]. specialize (Hk (kp_kernel a) X' (Some (km_X m))). destruct (kapply (kp_kernel a) X' (Some (km_X m))). cbn in *. subst. reflexivity. }
    destruct (kpls_transform kapply a X) as [a' r]. cbn [fst] in Hf. rewrite <- Hf.
    destruct (do K_t <- r; _) as [Y|e]; [|reflexivity]. destruct (t_inverse center _ Y); reflexivity.
  - intros n a X. cbn [c_transform kernel_pls]. unfold kpls_transform. destruct (t_transform center _ X) as [sx [X'|e]]; [|reflexivity]. cbn [kp_model]. destruct (kp_model a) as [m|]; [|reflexivity].
    cbn [kp_kernel]. specialize (Hk (kp_kernel a) X' (Some (km_X m))). destruct (kapply (kp_kernel a) X' (Some (km_X m))). cbn in *. subst. reflexivity.
  - intros [v|v|v] a E0; discriminate.
  - intros a b E0. unfold kpls_P in E0. injection E0 as E1 E2 E3. cbn. now rewrite E1, E2, E3.
Qed.

Definition sparse_P (a : @sparse_st T) : T * Z * T := (sp_tol a, sp_max_iter a, sp_lambda a).
Lemma sparse_pls_lawful : lawful (sparse_pls lstsq pinv) sparse_P (fun u => u) eq.
Proof.
  apply lawful_eq; try reflexivity.
  - intros n a X Y. cbn [c_train sparse_pls]. unfold sparse_train. destruct (t_transform standardize _ X) as [sx [X'|e]]; [|reflexivity].
    destruct (t_transform standardize _ Y) as [sy [Y'|e]]; [|reflexivity]. destruct (sparse_fit _ _ _ _ _ _) as [[[[A B] W] y]|e]; reflexivity.
  - intros n a X. cbn. unfold sparse_predict. destruct (t_transform standardize _ X); reflexivity.
  - intros [v|v|v] a E0; discriminate.
  - intros a b E0. unfold sparse_P in E0. injection E0 as E1 E2 E3. cbn. now rewrite E1, E2, E3.
Qed.

Definition prm_P (a : @prm_st T) : T * Z * T * Z := (pr_tol a, pr_max_iter a, pr_C a, pr_num_coef a).
Lemma prm_lawful : lawful (prm eig svd) prm_P (fun u => u) eq.
Proof.
  apply lawful_eq; try reflexivity.
  - intros n a X Y. cbn [c_train prm]. destruct (prm_fit _ _ _ _ _ _) as [[m i]|e]; reflexivity.
  - intros [v|v|v|v] a E0; discriminate.
  - intros a b E0. unfold prm_P in E0. injection E0 as E1 E2 E3 E4. cbn. now rewrite E1, E2, E3, E4.
Qed.

(** OPLS over any lawful base class.  The parameters are those of the base object. *)
Section Opls.
Context {AB KB E F : Type} (base : pls_class AB KB T) (P : AB -> E) (V : E -> F) (sim : AB -> AB -> Prop) (L : lawful base P V sim).
Definition opls_P (a : @opls_st T AB) : Z * preproc * E := params P (op_base a).
Definition opls_sim (a b : @opls_st T AB) : Prop :=
  op_P a = op_P b /\ op_T a = op_T b /\ op_W a = op_W b /\ op_X_osc a = op_X_osc b /\ alike sim (op_base a) (op_base b).
Lemma opls_lawful : lawful (opls base) opls_P (fun u => u) opls_sim.
Proof.
  destruct L as [Lk Lf]. split; [constructor|constructor]; try reflexivity.
  - intros n a X Y. cbn [c_train opls]. unfold opls_train. destruct (opls_fit _ _ _) as [[w [[[[X' Xt] W] Po] Ts]]|e]; [|reflexivity].
    destruct (opls_transform _ _ _) as [cl|e]; [|reflexivity].
    pose proof (params_initialize base P V Lk (op_base a) cl Y) as Hp. destruct (initialize base (op_base a) (Some cl) (Some Y)) as [b r]. exact Hp.
  - intros n a X. cbn [c_predict opls]. unfold opls_predict. destruct (opls_transform _ _ _) as [cl|e]; [|reflexivity].
    pose proof (params_predict base P V Lk (op_base a) cl) as Hp. destruct (predict base (op_base a) cl) as [b r]. exact Hp.
  - intros k a. discriminate.
  - intros n a b X Y E0. cbn [c_train c_reset opls]. unfold opls_train. destruct (opls_fit _ _ _) as [[w [[[[X' Xt] W] Po] Ts]]|e]; [|split; [reflexivity|discriminate]].
    destruct (opls_transform _ _ _) as [cl|e]; [|split; [reflexivity|discriminate]]. cbn [op_base].
    destruct (initialize_alike base P sim Lf (op_base a) (op_base b) cl Y E0) as [Hr Ha].
    destruct (initialize base (op_base a) (Some cl) (Some Y)) as [a' r], (initialize base (op_base b) (Some cl) (Some Y)) as [b' r']. cbn [fst snd] in *. subst r'.
    split; [reflexivity|]. intros _. unfold opls_sim. cbn. auto.
  - intros n a b X (E1 & E2 & E3 & E4 & E5). cbn [c_predict opls]. unfold opls_predict. rewrite <- E1, <- E3. destruct (opls_transform _ _ _) as [cl|e].
    + destruct (alike_ask base P sim Lf _ _ (QPredict cl) E5) as [Hr Ha]. cbn [ask] in *.
      destruct (predict base (op_base a) cl) as [a' r], (predict base (op_base b) cl) as [b' r']. cbn [fst snd] in *. subst r'.
      split; [reflexivity|]. unfold opls_sim. cbn. auto.
    + split; [reflexivity|]. unfold opls_sim. cbn. auto.
  - intros n a b X (E1 & E2 & E3 & E4 & E5). cbn [c_transform opls fst snd]. rewrite <- E1, <- E3. split; [reflexivity|]. unfold opls_sim. auto.
Qed.
End Opls.
End Instances.

(** * C48 per algorithm: an object with any past, retrained on (X, Y), gives the outcome and the
    answers of a new instance with the same parameters trained on (X, Y). *)
Definition retrains_like_new {A K T} `{Num T} (c : pls_class A K T) : Prop :=
  forall (assignments : list (assignment K)) (past : list (pls_op K T)) (X Y : mat T) (qs : list query),
  Forall no_assignment past ->
  let used := pls_run c (map OSet assignments ++ past) in
  let fresh := pls_run c (map OSet assignments) in
  snd (initialize c used (Some X) (Some Y)) = snd (initialize c fresh (Some X) (Some Y)) /\
  answers c (fst (initialize c used (Some X) (Some Y))) qs = answers c (fst (initialize c fresh (Some X) (Some Y))) qs.
Lemma lawful_retrains {A K T E F} `{Num T} (c : pls_class A K T) (P : A -> E) (V : E -> F) sim :
  lawful c P V sim -> retrains_like_new c.
Proof. intros [Lk Lf] assignments past X Y qs Hp. exact (C48_retraining c P V sim Lk Lf assignments past X Y qs Hp). Qed.

Section Theorems.
Context {T : Type} `{Num T}.
Variables (lstsq : mat T -> mat T -> res (mat T)) (pinv : mat T -> res (mat T))
          (eig : mat T -> res (list T * mat T)) (svd : mat T -> res (mat T * list T * mat T))
          (rnd : Z -> nat -> mat T) (nexp : T -> T) (npow : T -> Z -> T).

Theorem C48_pls1 : retrains_like_new (pls1 lstsq). Proof. exact (lawful_retrains _ _ _ _ (pls1_lawful lstsq)). Qed.
Theorem C48_vcpls : retrains_like_new (vcpls lstsq eig). Proof. exact (lawful_retrains _ _ _ _ (vcpls_lawful lstsq eig)). Qed.
Theorem C48_simpls : retrains_like_new (simpls eig). Proof. exact (lawful_retrains _ _ _ _ (simpls_lawful eig)). Qed.
Theorem C48_nipals : retrains_like_new (nipals lstsq pinv). Proof. exact (lawful_retrains _ _ _ _ (nipals_lawful lstsq pinv)). Qed.
Theorem C48_cca_regression : retrains_like_new (cca_regression lstsq pinv).
Proof. exact (lawful_retrains _ _ _ _ (cca_regression_lawful lstsq pinv)). Qed.
Theorem C48_sparse_pls : retrains_like_new (sparse_pls lstsq pinv).
Proof. exact (lawful_retrains _ _ _ _ (sparse_pls_lawful lstsq pinv)). Qed.
Theorem C48_prm : retrains_like_new (prm eig svd). Proof. exact (lawful_retrains _ _ _ _ (prm_lawful eig svd)). Qed.
(** KernelPLS with kernels whose use does not change them: the linear kernel, and the polynomial
    and RBF kernels with gamma set (C45_gamma_latched: a set gamma stays). *)
Theorem C48_kernel_pls {KS} (kernel0 : KS) kapply : (forall ks X Y, fst (kapply ks X Y) = ks) ->
  retrains_like_new (kernel_pls lstsq rnd kernel0 kapply).
Proof. intros Hk. exact (lawful_retrains _ _ _ _ (kernel_pls_lawful lstsq rnd kernel0 kapply Hk)). Qed.
(** OPLS over each base, also over OPLS itself. *)
Theorem C48_opls_pls1 : retrains_like_new (opls (pls1 lstsq)).
Proof. exact (lawful_retrains _ _ _ _ (opls_lawful _ _ _ _ (pls1_lawful lstsq))). Qed.
Theorem C48_opls {AB KB E F} (base : pls_class AB KB T) (P : AB -> E) (V : E -> F) sim :
  lawful base P V sim -> retrains_like_new (opls base).
Proof. intros L. exact (lawful_retrains _ _ _ _ (opls_lawful base P V sim L)). Qed.
End Theorems.
Print Assumptions C48_pls1.
Print Assumptions C48_nipals.
Print Assumptions C48_opls.

(** * C46 per algorithm *)
Lemma dipls_keeps {T} `{Num T} lstsq : keeps (dipls lstsq) (fun a => (di_lambda a, (di_strategy a, di_ns a, di_nt a))) fst.
Proof.
  constructor; try reflexivity.
  - intros n a X Y. cbn [c_train dipls]. unfold dipls_train. destruct (eye _ _) as [Id|e]; [|reflexivity].
    destruct ((di_ns a =? 0) || (di_nt a =? 0))%Z; [reflexivity|]. destruct ((di_ns a =? 1) || (di_nt a =? 1))%Z; [reflexivity|].
    destruct (do X_s <- get_rows X _; _) as [[[X0 Xs] Xt]|e]; [|reflexivity].
    destruct (t_transform center _ X0) as [cx [X'|e]]; [|reflexivity].
    destruct (t_transform center _ Xs) as [cs [Xs'|e]]; [|reflexivity].
    destruct (t_transform center _ Xt) as [ct rT].
    destruct (do X_t <- rT; _) as [[Xt' b0]|e]; [|reflexivity].
    destruct (do st <- for_range _ _ _; _); reflexivity.
  - intros n a X. cbn [c_predict dipls]. unfold dipls_predict. destruct (di_strategy a); destruct (t_transform center _ X); reflexivity.
  - intros n a X. cbn [c_transform dipls]. unfold dipls_transform. destruct (t_transform center _ X); reflexivity.
  - intros [v|v|v|v] a E0; cbn in *; try discriminate; reflexivity.
Qed.

(** In each algorithm, whatever the history: if the object is trained, then every validated
    parameter has the value it had when the training call was made. *)
Definition parameters_of_training {A K T F} `{Num T} (c : pls_class A K T) (read : A -> F) : Prop :=
  forall h : list (pls_op K T), p_initialised (pls_run c h) = true ->
  exists pre X Y post, h = pre ++ OInitialize (Some X) (Some Y) :: post /\
    snd (initialize c (pls_run c pre) (Some X) (Some Y)) = Ok None /\
    p_num_components (pls_run c h) = p_num_components (pls_run c pre) /\
    p_preprocessing (pls_run c h) = p_preprocessing (pls_run c pre) /\
    read (p_own (pls_run c h)) = read (p_own (pls_run c pre)).
Lemma keeps_parameters {A K T E F} `{Num T} (c : pls_class A K T) (P : A -> E) (V : E -> F) (read : A -> F) :
  keeps c P V -> (forall a, read a = V (P a)) -> parameters_of_training c read.
Proof.
  intros Lk Hread h Ht. destruct (C46_parameters_of_trained c P V Lk h Ht) as (pre & X & Y & post & E1 & E2 & E3).
  exists pre, X, Y, post. split; [exact E1|]. split; [exact E2|]. unfold validated in E3. injection E3 as E4 E5 E6. rewrite !Hread. auto.
Qed.
Section Parameters.
Context {T : Type} `{Num T}.
Variables (lstsq : mat T -> mat T -> res (mat T)) (pinv : mat T -> res (mat T))
          (eig : mat T -> res (list T * mat T)) (svd : mat T -> res (mat T * list T * mat T))
          (rnd : Z -> nat -> mat T).
Theorem C46_pls1 : parameters_of_training (pls1 lstsq) (fun _ => tt).
Proof. exact (keeps_parameters _ _ _ _ (proj1 (pls1_lawful lstsq)) (fun _ => eq_refl)). Qed.
Theorem C46_vcpls : parameters_of_training (vcpls lstsq eig) (@vc_lambda T).
Proof. exact (keeps_parameters _ _ _ _ (proj1 (vcpls_lawful lstsq eig)) (fun _ => eq_refl)). Qed.
Theorem C46_simpls : parameters_of_training (simpls eig) (@si_coef T).
Proof. exact (keeps_parameters _ _ _ _ (proj1 (simpls_lawful eig)) (fun _ => eq_refl)). Qed.
Theorem C46_nipals : parameters_of_training (nipals lstsq pinv) (fun a => (ni_tol a, ni_max_iter a)).
Proof. exact (keeps_parameters _ _ _ _ (proj1 (nipals_lawful lstsq pinv)) (fun _ => eq_refl)). Qed.
Theorem C46_cca_regression : parameters_of_training (cca_regression lstsq pinv) (fun a => (ni_tol a, ni_max_iter a)).
Proof. exact (keeps_parameters _ _ _ _ (proj1 (cca_regression_lawful lstsq pinv)) (fun _ => eq_refl)). Qed.
Theorem C46_sparse_pls : parameters_of_training (sparse_pls lstsq pinv) (fun a => (sp_tol a, sp_max_iter a, sp_lambda a)).
Proof. exact (keeps_parameters _ _ _ _ (proj1 (sparse_pls_lawful lstsq pinv)) (fun _ => eq_refl)). Qed.
Theorem C46_prm : parameters_of_training (prm eig svd) (fun a => (pr_tol a, pr_max_iter a, pr_C a, pr_num_coef a)).
Proof. exact (keeps_parameters _ _ _ _ (proj1 (prm_lawful eig svd)) (fun _ => eq_refl)). Qed.
Theorem C46_kernel_pls {KS} (kernel0 : KS) kapply : (forall ks X Y, fst (kapply ks X Y) = ks) ->
  parameters_of_training (kernel_pls lstsq rnd kernel0 kapply) (fun a => (kp_kernel a, kp_tol a, kp_max_iter a)).
Proof. intros Hk. exact (keeps_parameters _ _ _ _ (proj1 (kernel_pls_lawful lstsq rnd kernel0 kapply Hk)) (fun _ => eq_refl)). Qed.
Theorem C46_dipls : parameters_of_training (dipls lstsq) (@di_lambda T).
Proof. exact (keeps_parameters _ _ _ _ (dipls_keeps lstsq) (fun _ => eq_refl)). Qed.
(** OPLS: number of components and preprocessing of the base object *)
Theorem C46_opls : parameters_of_training (opls (pls1 lstsq)) (fun a => (p_num_components (op_base a), p_preprocessing (op_base a), tt)).
Proof. exact (keeps_parameters _ _ _ _ (proj1 (opls_lawful _ _ _ _ (pls1_lawful lstsq))) (fun _ => eq_refl)). Qed.

(** Assignments, attribute by attribute: refused values (ValueError, nothing changes) and accepted
    ones (stored; the other parameters stay; untrained). *)
Definition refused {A K} (c : pls_class A K T) (k : K) : Prop :=
  forall s : pls_st A T, setattr c s (AOwn k) = (s, Err ValueError).
Definition accepted {A K F} (c : pls_class A K T) (read : A -> F) (k : K) (new : F -> F) : Prop :=
  forall s : pls_st A T, exists s', setattr c s (AOwn k) = (s', Ok tt) /\ p_initialised s' = false /\
    read (p_own s') = new (read (p_own s)) /\ p_num_components s' = p_num_components s /\ p_preprocessing s' = p_preprocessing s /\
    (forall X, snd (predict c s' X) = Err RuntimeError /\ snd (transform c s' X) = Err RuntimeError).
Ltac acc := match goal with |- accepted _ _ _ _ => let s := fresh in intros s; eexists; split; [unfold setattr, a_valid; cbn; try match goal with Hv : _ = true |- _ => rewrite Hv end; reflexivity|]; cbn; auto 10
            | |- refused _ _ => let s := fresh in intros s; unfold setattr, a_valid; cbn; match goal with Hv : _ = false |- _ => rewrite Hv end; reflexivity end.
Theorem C46_tolerances (v : T) (m : Z) :
  let nread := fun a : nipals_st T => (ni_tol a, ni_max_iter a) in
  let sread := fun a : @sparse_st T => (sp_tol a, sp_max_iter a, sp_lambda a) in
  let pread := fun a : @prm_st T => (pr_tol a, pr_max_iter a, pr_C a, pr_num_coef a) in
  (nleb n0 v = false -> refused (nipals lstsq pinv) (NTol v) /\ refused (cca_regression lstsq pinv) (NTol v) /\
                        refused (sparse_pls lstsq pinv) (SpTol v) /\ refused (sparse_pls lstsq pinv) (SpLambda v)) /\
  (nleb n0 v = true -> accepted (nipals lstsq pinv) nread (NTol v) (fun '(_, b) => (v, b)) /\
                       accepted (cca_regression lstsq pinv) nread (NTol v) (fun '(_, b) => (v, b)) /\
                       accepted (sparse_pls lstsq pinv) sread (SpTol v) (fun '(_, b, c) => (v, b, c)) /\
                       accepted (sparse_pls lstsq pinv) sread (SpLambda v) (fun '(a, b, _) => (a, b, v))) /\
  ((0 <=? m)%Z = false -> refused (nipals lstsq pinv) (NMaxIter m) /\ refused (cca_regression lstsq pinv) (NMaxIter m) /\
                          refused (sparse_pls lstsq pinv) (SpMaxIter m) /\ refused (prm eig svd) (PrMaxIter m)) /\
  ((0 <=? m)%Z = true -> accepted (nipals lstsq pinv) nread (NMaxIter m) (fun '(a, _) => (a, m)) /\
                         accepted (cca_regression lstsq pinv) nread (NMaxIter m) (fun '(a, _) => (a, m)) /\
                         accepted (sparse_pls lstsq pinv) sread (SpMaxIter m) (fun '(a, _, c) => (a, m, c)) /\
                         accepted (prm eig svd) pread (PrMaxIter m) (fun '(a, _, c, d) => (a, m, c, d))).
Proof.
  intros nread sread pread. split; [|split; [|split]]; intros Hv; (split; [|split; [|split]]); acc.
Qed.
(** The robustness constant of PRM and lambda of DIPLS must not be (nearly) zero. *)
Theorem C46_constants (v : T) :
  (nleb (lit 1 10) (nabs v) = false -> refused (prm eig svd) (PrC v)) /\
  (nleb (lit 1 10) (nabs v) = true ->
     accepted (prm eig svd) (fun a => (pr_tol a, pr_max_iter a, pr_C a, pr_num_coef a)) (PrC v) (fun '(a, b, _, d) => (a, b, v, d))) /\
  (nleb (lit 1 8) (nabs v) = false -> refused (dipls lstsq) (DLambda v)) /\
  (nleb (lit 1 8) (nabs v) = true -> accepted (dipls lstsq) (@di_lambda T) (DLambda v) (fun _ => v)).
Proof. split; [|split; [|split]]; intros Hv; acc. Qed.
End Parameters.
Print Assumptions C46_nipals.
Print Assumptions C46_dipls.
Print Assumptions C46_tolerances.
Print Assumptions C46_constants.
