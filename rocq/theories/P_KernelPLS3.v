(** KernelPLS: what the training predictions average to (C73), the loadings P (C74), parameters that can
    never be trained with (C75). *)
From Coq Require Import List ZArith Lia Bool Arith Reals Lra.
From Verif Require Import Base Num Mat M_Matrix M_Factory M_Helper M_Loop M_Utils M_Linalg M_Transform M_PLSBase M_PLS M_PLS2 M_Kernel
  S_Matrix L_Base L_Mat L_Matrix L_MatR L_Linalg L_Alg L_Transform L_Deflate P_Matrix P_Linalg P_Helper P_Kernel P_PLSPrep P_PLS1 L_Krylov L_Public P_CCAFilter P_NIPALS2 P_KernelPLS P_KernelPLS2.
From Verif Require P_PLSRefute.
Import ListNotations.
Local Open Scope R_scope.

Lemma not_all_zero n (f : nat -> R) : (forall j, (j < n)%nat -> f j = 0) \/ (exists j, (j < n)%nat /\ f j <> 0).
Proof.
  induction n as [|n [IH|(j & Hj & E)]]; [left; intros; lia| |right; exists j; split; [lia|exact E]].
  destruct (Req_dec (f n) 0) as [E|E]; [left|right; exists n; split; [lia|exact E]]. intros j Hj. destruct (Nat.eq_dec j n) as [->|]; [exact E|apply IH; lia].
Qed.
Section Trained.
Context {KS : Type} (lstsq : mat R -> mat R -> res (mat R)) (rnd : Z -> nat -> mat R) (kernel0 : KS) (kapply : KS -> mat R -> option (mat R) -> KS * res (mat R)).
Hypothesis Hrnd : column_source rnd.
Notation kp := (kernel_pls lstsq rnd kernel0 kapply).

(** everything a successful training leaves behind *)
Lemma trained_model (s0 s : pls_st (@kpls_st R KS) R) (X Y : mat R) (a : nat) : wf X -> wf Y -> nr X = nr Y -> nr X <> 0%nat -> nc Y <> 0%nat ->
  p_preprocessing s0 = PP_NONE -> p_num_components s0 = Z.of_nat a -> initialize kp s0 (Some X) (Some Y) = (s, Ok None) ->
  let n := nr X in let p := nc X in let c := nc Y in
  exists ks K Kd Tm U Q B, kapply (kp_kernel (p_own s0)) (mk n p (centred X)) None = (ks, Ok K) /\ nr K = n /\ nc K = n /\
    (forall k, (k < a)%nat -> exists j, (j < n)%nat /\ sumn n (fun i => Tm i k * kcentred n (entry K) i j) <> 0) /\
    p_own s = Kpls ks (kp_tol (p_own s0)) (kp_max_iter (p_own s0)) (center_conf X) (center_conf Y)
      (Some (KplsModel (mk n n (kcentred n (entry K))) (mk n n Kd) (mk n a Tm) (mk n a U) (mk n a (fun _ _ => 0)) (mk c a Q) (mk a c B) (mk n p (centred X)))) /\
    forall Z, snd (predict kp s Z) = snd (kpls_predict kapply (p_own s) Z).
Proof.
  intros WX WY Hrows Hn Hc Hpp Ha Hi n p c. fold n in Hrows, Hn. fold c in Hc.
  pose proof (kpls_train_eq lstsq rnd kernel0 kapply (p_num_components s0) (p_own s0) X Y) as Etr. rewrite <- Hrows in Etr. fold n p c in Etr. rewrite Ha in Etr.
  destruct (kpls_fit lstsq rnd kapply (Z.of_nat a) (kp_kernel (p_own s0)) (kp_tol (p_own s0)) (kp_max_iter (p_own s0)) (mk n p (centred X)) (mk n c (centred Y))) as (ks & [m|e]) eqn:Ef.
  2:{ rewrite <- Ha in Etr. pose proof (multi_training_result kp s0 X Y _ _ 1 eq_refl ltac:(fold c; lia) Hpp Hc Etr) as E. rewrite Hi in E. discriminate. }
  destruct (kpls_fit_ok _ _ _ _ _ _ _ _ _ _ _ Ef) as (K & EK & K1 & K2). change (nr (mk n p (centred X))) with n in K1, K2.
  destruct (kpls_fit_run lstsq rnd kapply Hrnd n p c a _ _ K (kp_tol (p_own s0)) (kp_max_iter (p_own s0)) (centred X) (centred Y) Hn Hc EK K1 K2) as (Kd & Tm & U & Q & _ & Ef').
  change (zn a) with (Z.of_nat a) in Ef'. rewrite Ef in Ef'. injection Ef' as Em. set (K0 := kcentred n (entry K)) in *. set (M := regression_matrix n K0 Tm U) in *.
  destruct (minverse lstsq (mk a a M)) as [inv|e] eqn:Einv; [|discriminate]. cbn [bind] in Em.
  destruct (inverse_rows lstsq a (mk a a M) inv (mk_wf _ _ _) eq_refl eq_refl Einv) as (Einv' & Hinv).
  rewrite Einv' in Em. rewrite mul_mk in Em. cbn [bind] in Em. injection Em as Em. rewrite <- Ha in Etr.
  destruct (multi_training_none kp s0 X Y _ 1 eq_refl ltac:(fold c; lia) Hpp Hc Etr) as (s' & Ei' & Eown & _ & _ & Hpred). rewrite Hi in Ei'. injection Ei' as <-.
  exists ks, K, Kd, Tm, U, Q, (fun i j => sumn a (fun k => nmul (entry inv i k) (Q j k))). split; [exact EK|]. split; [exact K1|]. split; [exact K2|]. split.
  - intros k Hk. destruct (not_all_zero n (fun j => sumn n (fun i => Tm i k * K0 i j))) as [Hz|Hz]; [|exact Hz]. exfalso.
    specialize (Hinv k k Hk Hk). unfold dlt in Hinv. rewrite Nat.eqb_refl in Hinv. rewrite (sumn_ext a _ (fun _ => 0)) in Hinv; [rewrite sum0 in Hinv; lra|].
    intros l Hl. rewrite entry_mk by assumption. unfold M, regression_matrix. rewrite (sumn_ext n _ (fun _ => 0)); [rewrite sum0; ring|]. intros j Hj. rewrite Hz by exact Hj. ring.
  - split; [rewrite Eown, Em; reflexivity|]. intros Z. rewrite Hpred, Eown. reflexivity.
Qed.

(** * C73: the mean of the training predictions.  With K the kernel matrix of the centred training data, the
    predictions average to the mean of the response when all columns of K have the same sum. *)
Theorem C73_partial (s0 s : pls_st (@kpls_st R KS) R) (X Y : mat R) (a : nat) : wf X -> wf Y -> nr X = nr Y -> nr X <> 0%nat -> nc Y <> 0%nat ->
  p_preprocessing s0 = PP_NONE -> p_num_components s0 = Z.of_nat a -> initialize kp s0 (Some X) (Some Y) = (s, Ok None) ->
  let n := nr X in let Xc := mk n (nc X) (centred X) in
  snd (kapply (kp_kernel (p_own s)) Xc (Some Xc)) = snd (kapply (kp_kernel (p_own s0)) Xc None) ->
  exists K V, snd (kapply (kp_kernel (p_own s0)) Xc None) = Ok K /\ snd (predict kp s X) = Ok V /\
    ((exists sum, forall b, (b < n)%nat -> Rsum n (fun i => entry K i b) = sum) ->
     forall j, (j < nc Y)%nat -> Rmean n (fun i => entry V i j) = Rmean n (fun i => entry Y i j)).
Proof.
  intros WX WY Hrows Hn Hc Hpp Ha Hi n Xc Hk.
  destruct (trained_model s0 s X Y a WX WY Hrows Hn Hc Hpp Ha Hi) as (ks & K & Kd & Tm & U & Q & B & EK & K1 & K2 & _ & Eown & Hpred).
  fold n in EK, K1, K2, Eown, Hn. fold Xc in EK, Eown. set (p := nc X) in *. set (c := nc Y) in *. rewrite Eown in Hk. cbn [kp_kernel] in Hk. rewrite EK in Hk. cbn [snd] in Hk.
  destruct (kapply ks Xc (Some Xc)) as (ks' & rK) eqn:Ek2. cbn [snd] in Hk. subst rK.
  set (K0 := kcentred n (entry K)) in *. assert (HK0 : sums_zero n K0) by (intros j Hj; now apply kcentred_sums).
  destruct (kpls_predict_run kapply X Y X n p c a ks ks' (kp_tol (p_own s0)) (kp_max_iter (p_own s0)) K0 (centred X) U B (mk n n Kd) (mk n a Tm) (mk n a (fun _ _ => 0)) (mk c a Q) K Hn HK0 eq_refl eq_refl eq_refl Ek2 K1 K2) as (_ & Ep).
  exists K. eexists. rewrite EK. split; [reflexivity|]. rewrite Hpred, Eown. split; [exact Ep|]. intros (sum & Hs) j Hj. change (nr X) with n. rewrite <- Hrows. fold n.
  unfold Rmean at 1. rewrite Rsum_sumn. rewrite (sumn_ext n _ (fun i => score_predictions n c a n (entry K) U B i j + Rmean n (fun k => entry Y k j))) by (intros i Hin; now rewrite entry_mk by assumption).
  rewrite sumR_plus, sumR_const. replace (sumn n (fun i => score_predictions n c a n (entry K) U B i j)) with 0; [apply not_0_INR in Hn; field; exact Hn|].
  symmetry. unfold score_predictions. rewrite (sumR_swap n a). rewrite (sumn_ext a _ (fun _ => 0)); [apply sum0|]. intros l Hl. rewrite sumR_scal_r.
  rewrite (sumR_swap n n). rewrite (sumn_ext n _ (fun _ => 0)); [rewrite sum0; ring|]. intros b Hb. rewrite sumR_scal_r. rewrite (sumR_swap n n).
  rewrite (sumn_ext n _ (fun x => sum * cen n x b)). 2:{ intros x Hx. rewrite sumR_scal_r. f_equal. rewrite <- (Hs x Hx), Rsum_sumn. reflexivity. }
  rewrite sumR_scal, cen_sum by assumption. ring.
Qed.

(** * C74: P, published as the loadings on K, is the zero matrix after every training, although the (centred)
    kernel matrix is orthogonal to none of the scores. *)
Theorem C74_refuted (s0 s : pls_st (@kpls_st R KS) R) (X Y : mat R) (a : nat) : wf X -> wf Y -> nr X = nr Y -> nr X <> 0%nat -> nc Y <> 0%nat ->
  p_preprocessing s0 = PP_NONE -> p_num_components s0 = Z.of_nat a -> initialize kp s0 (Some X) (Some Y) = (s, Ok None) ->
  exists m, kp_model (p_own s) = Some m /\ nr (km_P m) = nr X /\ nc (km_P m) = a /\
    forall k, (k < a)%nat -> (forall j, (j < nr X)%nat -> entry (km_P m) j k = 0) /\
      exists j, (j < nr X)%nat /\ Rsum (nr X) (fun i => entry (km_K_orig m) i j * entry (km_T m) i k) <> 0.
Proof.
  intros WX WY Hrows Hn Hc Hpp Ha Hi.
  destruct (trained_model s0 s X Y a WX WY Hrows Hn Hc Hpp Ha Hi) as (ks & K & Kd & Tm & U & Q & B & EK & K1 & K2 & Hz & Eown & _).
  eexists. rewrite Eown. cbn [kp_model]. split; [reflexivity|]. cbn [km_P km_K_orig km_T]. split; [reflexivity|]. split; [reflexivity|]. intros k Hk. split.
  - intros j Hj. now rewrite entry_mk.
  - destruct (Hz k Hk) as (j & Hj & Ej). exists j. split; [exact Hj|]. rewrite Rsum_sumn. intros E. apply Ej. rewrite <- E. apply sumn_ext. intros i Hin. rewrite !entry_mk by assumption. ring.
Qed.

(** * C75: with tol = 0 or max_iter = 0, which the validators accept, no data can be trained on. *)
Theorem C75_refuted (s0 : pls_st (@kpls_st R KS) R) (X Y : mat R) (a : nat) : nr X = nr Y -> nr X <> 0%nat -> nc Y <> 0%nat -> a <> 0%nat ->
  p_preprocessing s0 = PP_NONE -> p_num_components s0 = Z.of_nat a ->
  (exists ks K, kapply (kp_kernel (p_own s0)) (mk (nr X) (nc X) (centred X)) None = (ks, Ok K) /\ nr K = nr X /\ nc K = nr X) ->
  kp_tol (p_own s0) = 0 \/ kp_max_iter (p_own s0) = 0%Z ->
  snd (initialize kp s0 (Some X) (Some Y)) = Err LinAlgError.
Proof.
  intros Hrows Hn Hc Ha0 Hpp Ha (ks & K & EK & K1 & K2) Hidle. set (n := nr X) in *. set (p := nc X) in *. set (c := nc Y) in *.
  pose proof (kpls_train_eq lstsq rnd kernel0 kapply (p_num_components s0) (p_own s0) X Y) as Etr. rewrite <- Hrows in Etr. fold n p c in Etr.
  destruct (kpls_fit_run lstsq rnd kapply Hrnd n p c a _ _ K (kp_tol (p_own s0)) (kp_max_iter (p_own s0)) (centred X) (centred Y) Hn Hc EK K1 K2) as (Kd & Tm & U & Q & (HT & _) & Ef).
  change (zn a) with (Z.of_nat a) in Ef. rewrite <- Ha in Ef. rewrite Ef in Etr.
  assert (HT0 : forall i k, (i < n)%nat -> (k < a)%nat -> Tm i k = 0).
  { apply HT. destruct Hidle as [-> | ->]; [|apply andb_false_r]. replace (nltb 0 (nmul 0 (nofZ 10))) with false; [reflexivity|]. symmetry. apply Rltb_false. cbn [nmul NumR]. lra. }
  set (M := mk a a _) in Etr. destruct (C61_inverse lstsq M (mk_wf _ _ _) eq_refl) as (I1 & _).
  unfold minverse in Etr. rewrite I1 in Etr.
  - cbn [bind] in Etr. exact (multi_training_result kp s0 X Y _ _ 1 eq_refl ltac:(fold c; lia) Hpp Hc Etr).
  - exists (fun _ => 1). change (nc M) with a. change (nr M) with a. split; [exists 0%nat; split; [lia|lra]|]. intros k Hk. rewrite Rsum_sumn. rewrite (sumn_ext a _ (fun _ => 0)); [apply sum0|].
    intros l Hl. unfold M. rewrite entry_mk by assumption. unfold regression_matrix. rewrite (sumn_ext n _ (fun _ => 0)); [rewrite sum0; ring|]. intros j Hj.
    rewrite (sumn_ext n _ (fun _ => 0)); [rewrite sum0; ring|]. intros i Hin. rewrite HT0 by assumption. ring.
Qed.
End Trained.

(** The kernels of the package answer apply_matrix(X, X) after apply_matrix(X) the same. *)
Definition consistent {KS} (kapply : KS -> mat R -> option (mat R) -> KS * res (mat R)) : Prop :=
  forall ks X, wf X -> nr X <> 0%nat -> snd (kapply (fst (kapply ks X None)) X (Some X)) = snd (kapply ks X None).
Definition rbf_kernel (g : option R) (X : mat R) (Y : option (mat R)) : option R * res (mat R) :=
  match rbf_apply_matrix exp g X Y with Ok (h, K) => (h, Ok K) | Err e => (g, Err e) end.
Lemma lin_consistent {KS} : consistent (lin (KS:=KS)).
Proof. intros ks X WX Hn. reflexivity. Qed.
Lemma poly_consistent : consistent (poly_apply_matrix Rpow).
Proof.
  intros s X WX Hn. unfold poly_apply_matrix. cbn [fst snd]. rewrite !latch_gamma. cbn [poly_set_gamma p_gamma p_degree p_coef gamma_of]. reflexivity.
Qed.
Lemma rbf_consistent : consistent rbf_kernel.
Proof.
  intros g X WX Hn. unfold rbf_kernel. change (rbf_apply_matrix exp g X None) with (abstract_one (rbf_apply_vector exp) g X). destruct (rbf_one_spec g X Hn) as (h & K & E & G & HK). rewrite E. cbn [fst snd].
  destruct (C45_rbf h X X WX WX eq_refl Hn) as (h' & K' & E' & _ & W & R1 & C1 & N1). rewrite E'. cbn [snd]. f_equal. symmetry.
  apply (is_mat_ext _ _ _ _ _ HK). split; [exact W|]. split; [exact R1|]. split; [exact C1|]. intros i j Hi Hj. destruct (N1 i j Hi Hj) as (? & ? & _ & _ & _ & ->). now rewrite G.
Qed.
(** so with any of them the training residuals are orthogonal to the scores *)
Theorem C71_residuals {KS : Type} (lstsq : mat R -> mat R -> res (mat R)) rnd (kernel0 : KS) kapply (s0 s : pls_st (@kpls_st R KS) R) (X Y : mat R) (a : nat) :
  let kp := kernel_pls lstsq rnd kernel0 kapply in
  consistent kapply -> column_source rnd -> wf X -> wf Y -> nr X = nr Y -> nr X <> 0%nat -> nc Y <> 0%nat ->
  p_preprocessing s0 = PP_NONE -> p_num_components s0 = Z.of_nat a -> initialize kp s0 (Some X) (Some Y) = (s, Ok None) ->
  exists m V, kp_model (p_own s) = Some m /\ snd (predict kp s X) = Ok V /\ nr V = nr X /\ nc V = nc Y /\
    forall k j, (k < a)%nat -> (j < nc Y)%nat -> Rsum (nr X) (fun i => entry (km_T m) i k * (entry V i j - entry Y i j)) = 0.
Proof.
  intros kp Hcon Hrnd WX WY Hrows Hn Hc Hpp Ha Hi.
  destruct (C71_kernel_pls lstsq rnd kernel0 kapply Hrnd s0 s X Y a WX WY Hrows Hn Hc Hpp Ha Hi) as (m & Em & _ & _ & _ & _ & _ & H2).
  destruct (trained_model lstsq rnd kernel0 kapply Hrnd s0 s X Y a WX WY Hrows Hn Hc Hpp Ha Hi) as (ks & K & Kd & Tm & U & Q & B & EK & _ & _ & _ & Eown & _).
  destruct H2 as (V & EV & _ & V1 & V2 & H2).
  - rewrite Eown. cbn [kp_kernel]. specialize (Hcon (kp_kernel (p_own s0)) (mk (nr X) (nc X) (centred X)) (mk_wf _ _ _) Hn). rewrite EK in Hcon. cbn [fst snd] in Hcon. rewrite Hcon, EK. reflexivity.
  - exists m, V. auto.
Qed.
(** with the linear kernel the training predictions do keep the mean of the response *)
Theorem C73_linear {KS : Type} (lstsq : mat R -> mat R -> res (mat R)) rnd (kernel0 : KS) (s0 s : pls_st (@kpls_st R KS) R) (X Y : mat R) (a : nat) :
  let kp := kernel_pls lstsq rnd kernel0 lin in
  column_source rnd -> wf X -> wf Y -> nr X = nr Y -> nr X <> 0%nat -> nc Y <> 0%nat ->
  p_preprocessing s0 = PP_NONE -> p_num_components s0 = Z.of_nat a -> initialize kp s0 (Some X) (Some Y) = (s, Ok None) ->
  exists V, snd (predict kp s X) = Ok V /\ forall j, (j < nc Y)%nat -> Rmean (nr X) (fun i => entry V i j) = Rmean (nr X) (fun i => entry Y i j).
Proof.
  intros kp Hrnd WX WY Hrows Hn Hc Hpp Ha Hi.
  destruct (C73_partial lstsq rnd kernel0 lin Hrnd s0 s X Y a WX WY Hrows Hn Hc Hpp Ha Hi eq_refl) as (K & V & EK & EV & H). exists V. split; [exact EV|]. apply H. exists 0. intros b Hb.
  cbn [lin snd] in EK. unfold linear_apply_matrix in EK. rewrite transpose_mk, mul_mk in EK. injection EK as <-. rewrite Rsum_sumn.
  rewrite (sumn_ext (nr X) _ (fun i => sumn (nc X) (fun k => centred X i k * centred X b k))) by (intros i Hin; now rewrite entry_mk).
  rewrite (sumR_swap (nr X) (nc X)). rewrite (sumn_ext (nc X) _ (fun _ => 0)); [apply sum0|]. intros k Hk. rewrite sumR_scal_r.
  replace (sumn (nr X) (fun i => centred X i k)) with 0; [ring|]. symmetry. unfold centred. rewrite sumR_minus, sumR_const. unfold Rmean. rewrite Rsum_sumn. apply not_0_INR in Hn. field. exact Hn.
Qed.

(** In general they do not.  Polynomial kernel (x . y / columns + 1)^2, one component, y = x = 1, 2, 3, 10: the
    predictions for the training data average to 6.64, the responses to 4. *)
Import P_PLSRefute.
Theorem C73_refuted : exists (X V : mat f64), let s := pls_run kpoly [OSet (ANumComponents 1)] in
  snd (initialize kpoly s (Some X) (Some X)) = Ok None /\ snd (predict kpoly (fst (initialize kpoly s (Some X) (Some X))) X) = Ok V /\
  column_means X = col [4]%Z /\ nltb (nofZ 6) (entry (column_means V) 0 0) = true.
Proof.
  exists (col [1;2;3;10]%Z). set (V := match snd (predict kpoly (fst (initialize kpoly (pls_run kpoly [OSet (ANumComponents 1)]) (Some (col [1;2;3;10]%Z)) (Some (col [1;2;3;10]%Z)))) (col [1;2;3;10]%Z)) with Ok v => v | Err _ => col [] end).
  exists V. split; [run|]. split; [vm_compute; reflexivity|]. split; run.
Qed.
(** both parameters pass their validators, and the data train with the defaults *)
Example C75_ex : let kp := kernel_pls no_ls krnd tt lin in
  c_valid kp (KTol 0) = Some true /\ c_valid kp (KMaxIter 0) = Some true /\
  snd (initialize kp k_start (Some kX) (Some kY)) = Ok None /\
  snd (initialize kp (PlsSt 1 PP_NONE false [] [] None None (Kpls tt 0 500 (t_new center) (t_new center) None)) (Some kX) (Some kY)) = Err LinAlgError /\
  snd (initialize kp (PlsSt 1 PP_NONE false [] [] None None (Kpls tt (lit 1 6) 0 (t_new center) (t_new center) None)) (Some kX) (Some kY)) = Err LinAlgError.
Proof.
  intros kp. split; [cbn; f_equal; apply Rleb_true; lra|]. split; [reflexivity|]. split; [|split].
  - destruct k_run as (s & s' & Ei & _). change (kernel_pls no_ls krnd tt lin) with kpl in kp. unfold kp. now rewrite Ei.
  - apply (C75_refuted no_ls krnd tt lin krnd_col _ kX kY 1); try reflexivity; try discriminate; [|left; reflexivity].
    do 2 eexists. unfold lin, linear_apply_matrix. rewrite transpose_mk, mul_mk. repeat split.
  - apply (C75_refuted no_ls krnd tt lin krnd_col _ kX kY 1); try reflexivity; try discriminate; [|right; reflexivity].
    do 2 eexists. unfold lin, linear_apply_matrix. rewrite transpose_mk, mul_mk. repeat split.
Qed.
Example C73_ex : exists s V, initialize kpl k_start (Some kX) (Some kY) = (s, Ok None) /\ snd (predict kpl s kX) = Ok V /\ Rmean 3 (fun i => entry V i 0) = Rmean 3 (fun i => entry kY i 0).
Proof.
  destruct k_run as (s & s' & Ei & _). destruct kX_wf as (W1 & W2).
  destruct (C73_linear no_ls krnd tt k_start s kX kY 1 krnd_col W1 W2 eq_refl) as (V & EV & H); try reflexivity; try discriminate; [exact Ei|].
  exists s, V. split; [exact Ei|]. split; [exact EV|]. apply H. cbn. lia.
Qed.
Example C74_ex : exists s m, initialize kpl k_start (Some kX) (Some kY) = (s, Ok None) /\ kp_model (p_own s) = Some m /\ (forall j, (j < 3)%nat -> entry (km_P m) j 0 = 0) /\
  exists j, (j < 3)%nat /\ Rsum 3 (fun i => entry (km_K_orig m) i j * entry (km_T m) i 0) <> 0.
Proof.
  destruct k_run as (s & s' & Ei & _). destruct kX_wf as (W1 & W2).
  destruct (C74_refuted no_ls krnd tt lin krnd_col k_start s kX kY 1 W1 W2 eq_refl) as (m & Em & _ & _ & H); try reflexivity; try discriminate; [exact Ei|].
  exists s, m. split; [exact Ei|]. split; [exact Em|]. apply H. lia.
Qed.
Print Assumptions C71_residuals.
Print Assumptions C73_partial.
Print Assumptions C73_linear.
Print Assumptions C73_refuted.
Print Assumptions C74_refuted.
Print Assumptions C75_refuted.
