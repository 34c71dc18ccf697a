(** C96: the order of the training rows does not matter. *)
From Coq Require Import List ZArith Lia Bool Arith Reals Lra Permutation.
From Verif Require Import Base Num Mat M_Matrix M_Factory M_Helper M_Loop M_Utils M_Linalg M_Transform M_PLSBase M_PLS M_PLS2.
From Verif Require Import S_Matrix P_Helper L_Base L_Mat L_Matrix L_MatR L_Alg L_Transform P_PLSPrep L_Batch P_Batch P_KernelPLS2 L_Perm.
Import ListNotations.
Local Open Scope nat_scope.

Section Perm.
Variables (n : nat) (p : nat -> nat).
Hypothesis Hp : Permutation (map p (seq 0 n)) (seq 0 n).
Hypothesis Hn : n <> 0.
Notation pr := (pr n p).

Ltac atom := first
  [ assumption | apply rrel_refl | eassumption
  | apply (pr_mul n p Hp); atom | apply (pr_tmul n p Hp); atom | apply (pr_sub n p Hp); atom | apply (pr_get_column n p Hp); atom | apply (pr_set_column n p Hp); atom
  | apply (pr_vector_dot n p Hp); atom | apply (pr_map n p Hp); atom | apply (pr_zeros n p Hp); exact Hn ].
Ltac rb := match goal with
  | |- rrel _ (bind _ _) (bind _ _) => eapply rrel_bind; [solve [atom]|let a := fresh "a" in let b := fresh "b" in let h := fresh "E" in intros a b h; cbv beta; try (subst b)]
  end.

(** * The generic part *)
Definition weights_rel (weights : mat R -> mat R -> res (mat R)) : Prop := forall X X' Y Y', pr X X' -> pr Y Y' -> rrel eq (weights X Y) (weights X' Y').
Lemma pls1_weights_rel : weights_rel pls1_weights.
Proof. intros X X' Y Y' HX HY. unfold pls1_weights. rb. apply rrel_refl. Qed.
Lemma mul_t_mul a f f' e e' : pr f f' -> pr e e' -> rrel eq (do x <- mul a (transpose f); mul x e) (do x <- mul a (transpose f'); mul x e').
Proof.
  intros (Nf & ->) (Ne & ->). unfold mul, is_multiplicable_with. cbn [pm transpose nr nc mk]. destruct (nc a =? nc f) eqn:Ea; cbn [negb bind rrel]; [|reflexivity]. unfold matmul. cbn [transpose pm nr nc mk]. rewrite Nf, Ne, Nat.eqb_refl. cbn [negb rrel]. apply mk_ext. intros i j Hi Hj.
  rewrite <- (sum_perm n p Hp). apply sumn_ext. intros k Hk. pose proof (p_lt n p Hp k Hk). rewrite !entry_mk by (rewrite ?Nf; assumption). f_equal; [|unfold pm; now rewrite entry_mk].
  apply sumn_ext. intros l Hl. f_equal. apply Nat.eqb_eq in Ea. unfold transpose. cbn [pm nr nc mk]. fold (pm n p f). rewrite !entry_mk by (rewrite ?Nf; lia). unfold pm. rewrite entry_mk by lia. reflexivity.
Qed.
Variables (lstsq : mat R -> mat R -> res (mat R)) (eig : mat R -> res (list R * mat R)) (pinv : mat R -> res (mat R)).
Lemma pr_nc A B : pr A B -> nc B = nc A.
Proof. now intros (_ & ->). Qed.
Lemma pr_nr A B : pr A B -> nr B = n.
Proof. now intros (_ & ->). Qed.
Lemma vcpls_weights_rel lambda : weights_rel (vcpls_weights lstsq eig lambda).
Proof.
  intros X X' Y Y' HX HY. unfold vcpls_weights. rewrite (pr_nc X X' HX). rb. rb. 
  pose proof (mul_t_mul a0 Y Y' X X' HY HX) as Q. destruct (mul a0 (transpose Y)) as [u|], (mul a0 (transpose Y')) as [u'|]; cbn [bind] in *; try (cbn in Q; contradiction || exact Q).
  - eapply rrel_bind; [exact Q|]. intros v v' ->. rb. rb. apply rrel_refl.
  - destruct (mul u X); cbn in *; auto; contradiction.
  - destruct (mul u' X'); cbn in *; auto; contradiction.
Qed.
Lemma pls1_fit_rel weights k X X' Y Y' : weights_rel weights -> pr X X' -> pr Y Y' -> rrel eq (pls1_fit lstsq weights k X Y) (pls1_fit lstsq weights k X' Y').
Proof.
  intros HW HX HY. unfold pls1_fit. eapply (rrel_bind (fun st st' => let '(X, W, P, Ts, b) := st in let '(X', W', P', Ts', b') := st' in pr X X' /\ W = W' /\ P = P' /\ pr Ts Ts' /\ b = b')).
  - unfold pls1_loop. rewrite (pr_nc X X' HX), (pr_nr X X' HX). replace (nr X) with n by (destruct HX; auto). apply rrel_range; [repeat (split; [first [assumption|reflexivity|apply (pr_zeros n p Hp); exact Hn]|]); reflexivity|].
    intros [[[[x w] q] t] b] [[[[x' w'] q'] t'] b'] i (H1 & -> & -> & H4 & ->). unfold pls1_step. eapply rrel_bind; [apply HW; eassumption|]. intros a a' <-. rb. rb. rb. rb. rb. rb. rb. rb. rb. rb. cbn [rrel]. auto.
  - intros [[[[x w] q] t] b] [[[[x' w'] q'] t'] b'] (H1 & -> & -> & H4 & ->). apply rrel_refl.
Qed.
Lemma simpls_fit_rel co k X X' Y Y' : pr X X' -> pr Y Y' -> rrel eq (simpls_fit eig co k X Y) (simpls_fit eig co k X' Y').
Proof.
  intros HX HY. unfold simpls_fit, simpls_loop. rewrite (pr_nc X X' HX). apply rrel_bind with (Q := eq); [|intros a b <-; apply rrel_refl]. rb. rb. apply rrel_refl.
Qed.

(** * NIPALS *)
Lemma div_if (b : bool) (x y : mat R) : (if b then x else y) = (if b then x else y). Proof. reflexivity. Qed.
Lemma nipals_weights_rel ny X X' Y Y' u u' : pr X X' -> pr Y Y' -> pr u u' -> rrel eq (nipals_weights lstsq WM_PLS ny X Y u) (nipals_weights lstsq WM_PLS ny X' Y' u').
Proof.
  intros HX HY Hu. unfold nipals_weights. rewrite (pr_norm2_squared n p Hp u u' Hu). eapply (rrel_bind eq); [eapply (rrel_bind eq); [atom|]; intros a b <-; apply rrel_refl|]. intros a b <-.
  eapply (rrel_bind pr); [atom|]. intros s s' Hs. rewrite (pr_norm2_squared n p Hp s s' Hs). eapply (rrel_bind eq); [eapply (rrel_bind eq); [atom|]; intros c d <-; apply rrel_refl|]. intros c d <-. apply rrel_refl.
Qed.
Lemma nipals_while_rel f ny tol mi X X' Y Y' u u' w it : pr X X' -> pr Y Y' -> pr u u' -> rrel eq (nipals_while lstsq f WM_PLS ny tol mi X Y u w it) (nipals_while lstsq f WM_PLS ny tol mi X' Y' u' w it).
Proof.
  intros HX HY Hu. revert w it. induction f as [|f IH]; intros w it; cbn [nipals_while]; [reflexivity|]. eapply rrel_bind; [apply nipals_weights_rel; eassumption|]. intros [a1 a2] b <-. rb. rb. rewrite (pr_nc Y Y' HY). destruct (_ || _); [reflexivity|]. destruct (_ <=? _)%Z; [reflexivity|]. apply IH.
Qed.
Lemma nipals_loop_rel ny tol mi X X' Y Y' : pr X X' -> pr Y Y' -> rrel eq (nipals_loop lstsq WM_PLS ny tol mi X Y) (nipals_loop lstsq WM_PLS ny tol mi X' Y').
Proof. intros HX HY. unfold nipals_loop. rewrite (pr_nc X X' HX). rb. now apply nipals_while_rel. Qed.
Definition nst_rel (st st' : nipals_state) : Prop :=
  let '(s, (X, Y), (XS, YS, XL, YL, XW, YW)) := st in let '(s', (X', Y'), (XS', YS', XL', YL', XW', YW')) := st' in
  s = s' /\ pr X X' /\ pr Y Y' /\ pr XS XS' /\ pr YS YS' /\ XL = XL' /\ YL = YL' /\ XW = XW' /\ YW = YW'.
Lemma nipals_step_rel a st st' k : nst_rel st st' -> rrel nst_rel (nipals_step lstsq WM_PLS a st k) (nipals_step lstsq WM_PLS a st' k).
Proof.
  destruct st as [[s [X Y]] [[[[[XS YS] XL] YL] XW] YW]], st' as [[s' [X' Y']] [[[[[XS' YS'] XL'] YL'] XW'] YW']]. intros (-> & HX & HY & HXS & HYS & -> & -> & -> & ->). unfold nipals_step.
  destruct s'; [cbn [rrel nst_rel]; auto 10|]. rb. destruct (all _ _); [cbn [rrel nst_rel]; auto 10|]. eapply rrel_bind; [apply nipals_loop_rel; eassumption|]. intros [[xw yw] it] b <-. eapply (rrel_bind pr); [atom|]. intros xs xs' Hxs. eapply (rrel_bind pr); [atom|]. intros us us' Hus.
  assert (Es : pr (div_scalar us (norm2_squared yw)) (div_scalar us' (norm2_squared yw))) by (apply (pr_map n p Hp); assumption). revert Es. cbv zeta. generalize (div_scalar us (norm2_squared yw)) as ys, (div_scalar us' (norm2_squared yw)) as ys'. intros ys ys' Es.
  rewrite (pr_norm2_squared n p Hp _ _ Hxs). destruct (nltb _ _); [cbn [rrel nst_rel]; auto 10|]. rb. rb. rb.
  eapply (rrel_bind (fun r r' => fst r = fst r' /\ pr (snd r) (snd r'))).
  - destruct (ni_deflation a).
    + rewrite (pr_norm2_squared n p Hp _ _ Es). rb. rb. rb. cbn. auto.
    + rb. rb. rb. cbn. auto.
  - intros [l Y1] [l' Y1'] (E' & HY1). cbn [fst snd] in E', HY1. subst l'. rb. rb. rb. rb. rb. rb. cbn [rrel nst_rel]. auto 10.
Qed.
Definition nm_rel (m m' : nipals_model R) : Prop := pr (nm_X_scores m) (nm_X_scores m') /\ pr (nm_Y_scores m) (nm_Y_scores m') /\ nm_X_loadings m = nm_X_loadings m' /\ nm_Y_loadings m = nm_Y_loadings m' /\
  nm_X_weights m = nm_X_weights m' /\ nm_Y_weights m = nm_Y_weights m' /\ nm_X_rotations m = nm_X_rotations m' /\ nm_Y_rotations m = nm_Y_rotations m' /\ pr (nm_X m) (nm_X m') /\ nm_coef m = nm_coef m'.
Lemma nipals_fit_rel k a X X' Y Y' sd : pr X X' -> pr Y Y' -> rrel nm_rel (nipals_fit lstsq pinv WM_PLS k a X Y sd) (nipals_fit lstsq pinv WM_PLS k a X' Y' sd).
Proof.
  intros HX HY. unfold nipals_fit. rewrite (pr_nc X X' HX), (pr_nr X X' HX), (pr_nc Y Y' HY). replace (nr X) with n by (destruct HX; auto).
  eapply rrel_bind; [apply (rrel_range nst_rel); [cbn; repeat (split; [first [assumption|reflexivity|apply (pr_zeros n p Hp); exact Hn]|]); reflexivity|intros; now apply nipals_step_rel]|].
  intros [[s [X1 Y1]] [[[[[XS YS] XL] YL] XW] YW]] [[s' [X1' Y1']] [[[[[XS' YS'] XL'] YL'] XW'] YW']]. intros (-> & HX1 & HY1 & HXS & HYS & -> & -> & -> & ->). rewrite (pr_nc Y1 Y1' HY1). rb. rb. rb. rb. rb. rb. rb. cbn. unfold nm_rel. cbn. auto 12.
Qed.

(** * From the class to the object *)
Definition train_rel {A K} (c : pls_class A K R) (Q : A -> Prop) (E : A -> A -> Prop) : Prop :=
  (forall a, E a a) /\ (forall a, Q (c_reset c a)) /\
  (forall k a X X' Y Y', Q a -> pr X X' -> pr Y Y' -> snd (c_train c k a X Y) = snd (c_train c k a X' Y') /\ E (fst (c_train c k a X Y)) (fst (c_train c k a X' Y'))).
Definition srel {A} (E : A -> A -> Prop) (s s' : pls_st A R) : Prop := s' = set_own s (p_own s') /\ E (p_own s) (p_own s').
Lemma srel_same {A} (E : A -> A -> Prop) s : (forall a, E a a) -> srel E s s.
Proof. intros HE. split; [now destruct s|apply HE]. Qed.
Lemma prepare_rel {A K} (c : pls_class A K R) pp Y Y' : pr Y Y' -> prepare c pp Y' = prepare c pp Y.
Proof.
  intros HY. unfold prepare, prep_single, prep_multi, helper_mean, helper_stdev, column_mean, column_stdev. rewrite (pr_nc Y Y' HY), <- (pr_means n p Hp Y Y' HY), <- (pr_stdevs n p Hp Y Y' HY). reflexivity.
Qed.
Lemma pt_fit_rel t X X' : pr X X' -> fst (pt_fit t X) = fst (pt_fit t X') /\ rrel pr (snd (pt_fit t X)) (snd (pt_fit t X')).
Proof.
  intros HX. destruct t as [[s|s]|]; cbn [pt_fit]; [| |now split].
  - cbn [pt_configure t_configure center]. rewrite (pr_means n p Hp X X' HX). cbn [pt_transform]. pose proof (pr_center n p Hp (CenterSt true (Some (column_means X'))) X X' HX) as Q. destruct Q as (Q1 & Q2); [intros m [= <-]; reflexivity|].
    destruct (t_transform center _ X), (t_transform center _ X'). cbn [fst snd] in *. subst. now split.
  - cbn [pt_configure t_configure standardize]. rewrite (pr_means n p Hp X X' HX), (pr_stdevs n p Hp X X' HX). destruct (zero_guard _) as [sd|e] eqn:Eg; [|now split]. cbn [pt_transform].
    pose proof (pr_standardize n p Hp (StdSt true (Some (column_means X')) (Some sd)) X X' HX) as Q. destruct Q as ((Q1 & Q2) & _); [split; intros m [= <-]; [reflexivity|exact (guard_rows _ _ _ Eg)]|].
    destruct (t_transform standardize _ X), (t_transform standardize _ X'). cbn [fst snd] in *. subst. now split.
Qed.
Lemma initialize_rel {A K} (c : pls_class A K R) Q E s X X' Y Y' : train_rel c Q E -> pr X X' -> pr Y Y' ->
  snd (initialize c s (Some X) (Some Y)) = snd (initialize c s (Some X') (Some Y')) /\ srel E (fst (initialize c s (Some X) (Some Y))) (fst (initialize c s (Some X') (Some Y'))).
Proof.
  intros (HE & HR & HT) HX HY. unfold initialize. assert (HQ : Q (p_own (reset c s))) by apply HR. revert HQ. generalize (reset c s) as s0. intros s0 HQ. replace (check_data c Y') with (check_data c Y) by (unfold check_data; now rewrite (pr_nc Y Y' HY)).
  destruct (check_data c Y); [split; [reflexivity|now apply srel_same]|]. unfold do_initialize. rewrite (prepare_rel c _ Y Y' HY). destruct (prepare c _ Y) as [[[[mean std] tp] tr]|e]; [|split; [reflexivity|now apply srel_same]].
  pose proof (pt_fit_rel tp X X' HX) as (F1 & F2). destruct (pt_fit tp X) as [tp1 [X1|e1]], (pt_fit tp X') as [tp2 [X2|e2]]; cbn [fst snd rrel] in *; try contradiction; subst; [|split; [reflexivity|now apply srel_same]].
  pose proof (pt_fit_rel tr Y Y' HY) as (G1 & G2). destruct (pt_fit tr Y) as [tr1 [Y1|e1]], (pt_fit tr Y') as [tr2 [Y2|e2]]; cbn [fst snd rrel] in *; try contradiction; subst; [|split; [reflexivity|now apply srel_same]].
  cbn [set_prep p_num_components p_own]. destruct (HT (p_num_components s0) (p_own s0) X1 X2 Y1 Y2 HQ F2 G2) as (T1 & T2). destruct (c_train c _ _ X1 Y1) as [a1 r1], (c_train c _ _ X2 Y2) as [a2 r2]. cbn [fst snd] in *. subst r2.
  destruct r1 as [[m|]|]; cbn; (split; [reflexivity|]); split; cbn; auto.
Qed.
Definition use_rel {A K} (c : pls_class A K R) (E : A -> A -> Prop) : Prop := forall k a b Z, E a b -> snd (c_predict c k a Z) = snd (c_predict c k b Z) /\ snd (c_transform c k a Z) = snd (c_transform c k b Z).
Lemma use_state {A K} (c : pls_class A K R) E s s' Z : use_rel c E -> srel E s s' -> snd (predict c s Z) = snd (predict c s' Z) /\ snd (transform c s Z) = snd (transform c s' Z).
Proof.
  intros HU (Es & HE). rewrite Es. unfold predict, transform, do_predict. cbn [set_own p_initialised p_num_components p_trans_response p_own p_class_mean p_class_std_dev]. destruct (p_initialised s); cbn [negb]; [|split; reflexivity]. destruct (HU (p_num_components s) _ _ Z HE) as (U1 & U2).
  destruct (c_predict c _ (p_own s) Z), (c_predict c _ (p_own s') Z), (c_transform c _ (p_own s) Z), (c_transform c _ (p_own s') Z). cbn [fst snd] in *. now subst.
Qed.

Lemma pls1_train : train_rel (pls1 lstsq) (fun _ => True) eq.
Proof.
  split; [reflexivity|]. split; [auto|]. intros k a X X' Y Y' _ HX HY. cbn [c_train pls1]. rewrite (rrel_eq _ _ (pls1_fit_rel pls1_weights k X X' Y Y' pls1_weights_rel HX HY)). now split.
Qed.
Lemma vcpls_train : train_rel (vcpls lstsq eig) (fun _ => True) eq.
Proof.
  split; [reflexivity|]. split; [auto|]. intros k a X X' Y Y' _ HX HY. cbn [c_train vcpls]. rewrite (rrel_eq _ _ (pls1_fit_rel _ k X X' Y Y' (vcpls_weights_rel (vc_lambda a)) HX HY)). now split.
Qed.
Lemma simpls_train : train_rel (simpls eig) (fun _ => True) eq.
Proof.
  split; [reflexivity|]. split; [auto|]. intros k a X X' Y Y' _ HX HY. cbn [c_train simpls]. rewrite (rrel_eq _ _ (simpls_fit_rel (si_coef a) k X X' Y Y' HX HY)). now split.
Qed.
Definition ni_rows (a : nipals_st R) : Prop := std_rows (ni_standardize_X a) /\ std_rows (ni_standardize_Y a).
Definition ni_rel (a b : nipals_st R) : Prop := ni_tol a = ni_tol b /\ ni_max_iter a = ni_max_iter b /\ ni_norm_Y_weights a = ni_norm_Y_weights b /\ ni_deflation a = ni_deflation b /\
  ni_standardize_X a = ni_standardize_X b /\ ni_standardize_Y a = ni_standardize_Y b /\ (ni_model a = ni_model b \/ exists m m', ni_model a = Some m /\ ni_model b = Some m' /\ nm_rel m m').
Lemma new_rows : std_rows (t_new standardize).
Proof. split; discriminate. Qed.
Lemma nipals_train_rel d asg : train_rel (nipals_class lstsq pinv WM_PLS d asg) ni_rows ni_rel.
Proof.
  split; [unfold ni_rel; auto 10|]. split; [intros a; split; apply new_rows|]. intros k a X X' Y Y' (HSX & HSY) HX HY. cbn [c_train nipals_class]. unfold nipals_train.
  destruct (pr_standardize n p Hp (ni_standardize_X a) X X' HX HSX) as ((F1 & F2) & _). destruct (t_transform standardize (ni_standardize_X a) X) as [sx [X1|e1]], (t_transform standardize (ni_standardize_X a) X') as [sx' [X2|e2]]; cbn [fst snd rrel] in *; try contradiction; subst; [|split; [reflexivity|unfold ni_rel; auto 10]].
  cbn [ni_standardize_Y]. destruct (pr_standardize n p Hp (ni_standardize_Y a) Y Y' HY HSY) as ((G1 & G2) & _). destruct (t_transform standardize (ni_standardize_Y a) Y) as [sy [Y1|e1]], (t_transform standardize (ni_standardize_Y a) Y') as [sy' [Y2|e2]]; cbn [fst snd rrel] in *; try contradiction; subst; [|split; [reflexivity|unfold ni_rel; auto 10]].
  match goal with |- context [nipals_fit _ _ _ k ?b X1 Y1 ?sd] => pose proof (nipals_fit_rel k b X1 X2 Y1 Y2 sd F2 G2) as Q end. destruct (nipals_fit _ _ _ _ _ X1 Y1 _), (nipals_fit _ _ _ _ _ X2 Y2 _); cbn [rrel] in Q; try contradiction; [|subst; split; [reflexivity|unfold ni_rel; auto 10]].
  cbn [fst snd]. split; [reflexivity|]. unfold ni_rel. cbn. repeat (split; [reflexivity|]). right. eauto 10.
Qed.
Lemma nipals_use d asg : use_rel (nipals_class lstsq pinv WM_PLS d asg) ni_rel.
Proof.
  intros k a b Z (_ & _ & _ & _ & E1 & E2 & E3). cbn [c_predict c_transform nipals_class]. unfold nipals_predict, nipals_transform, nipals_apply. rewrite <- E1, <- E2. destruct (t_transform standardize _ Z) as [sx r]. cbn [snd ni_model ni_standardize_Y].
  destruct E3 as [->|(m & m' & -> & -> & HM)]; [split; reflexivity|]. cbn [need bind]. destruct HM as (_ & _ & _ & _ & _ & _ & -> & _ & _ & ->). split; reflexivity.
Qed.

(** * OPLS, over any base *)
Definition ost_rel (x y : mat R * mat R * mat R * mat R * mat R) : Prop :=
  let '(X, Xt, W, P, Tm) := x in let '(X', Xt', W', P', Tm') := y in pr X X' /\ Xt = transpose X /\ Xt' = transpose X' /\ W = W' /\ P = P' /\ pr Tm Tm'.
Lemma opls_step_rel w st st' k : ost_rel st st' -> rrel ost_rel (opls_step w st k) (opls_step w st' k).
Proof.
  destruct st as [[[[X Xt] W] P] Tm], st' as [[[[X' Xt'] W'] P'] Tm']. intros (HX & -> & -> & <- & <- & HT). unfold opls_step.
  eapply (rrel_bind pr); [atom|]. intros t0 t0' Ht0. cbv zeta. assert (Ht : pr (mul_scalar t0 (inv_L2_squared w)) (mul_scalar t0' (inv_L2_squared w))) by now apply (pr_map n p Hp). revert Ht. generalize (mul_scalar t0 (inv_L2_squared w)) (mul_scalar t0' (inv_L2_squared w)). intros t t' Ht.
  replace (inv_L2_squared t') with (inv_L2_squared t) by (unfold inv_L2_squared; now rewrite (pr_norm2_squared n p Hp t t' Ht)). rb. rb. rb. rb. rb.
  eapply (rrel_bind pr); [atom|]. intros u0 u0' Hu0. cbv beta. assert (Hu : pr (mul_scalar u0 (inv_L2_squared a3)) (mul_scalar u0' (inv_L2_squared a3))) by now apply (pr_map n p Hp). revert Hu. generalize (mul_scalar u0 (inv_L2_squared a3)) (mul_scalar u0' (inv_L2_squared a3)). intros u u' Hu.
  replace (inv_L2_squared u') with (inv_L2_squared u) by (unfold inv_L2_squared; now rewrite (pr_norm2_squared n p Hp u u' Hu)). rb. rb. rb. rb. rb. rb. cbn. auto 10.
Qed.
Lemma opls_fit_rel k X X' Y Y' : pr X X' -> pr Y Y' -> rrel (fun r r' => ost_rel (snd r) (snd r')) (opls_fit k X Y) (opls_fit k X' Y').
Proof.
  intros HX HY. unfold opls_fit. cbv zeta. rewrite (pr_nc X X' HX), (pr_nr X X' HX). replace (nr X) with n by (destruct HX; auto). replace (inv_L2_squared Y') with (inv_L2_squared Y) by (unfold inv_L2_squared; now rewrite (pr_norm2_squared n p Hp Y Y' HY)). rb. rb.
  eapply (rrel_bind ost_rel); [apply (rrel_range ost_rel); [repeat (split; [first [assumption|reflexivity]|]); apply (pr_zeros n p Hp); exact Hn|intros; now apply opls_step_rel]|]. intros st st' H. exact H.
Qed.
Lemma opls_transform_rel W P X X' : pr X X' -> rrel pr (opls_transform W P X) (opls_transform W P X').
Proof. intros HX. unfold opls_transform. rb. rb. rb. rb. atom. Qed.
Definition op_rel {AB} (Eb : AB -> AB -> Prop) (a b : opls_st (T:=R) (AB:=AB)) : Prop := op_P a = op_P b /\ op_W a = op_W b /\ srel Eb (op_base a) (op_base b).
Lemma opls_train_rel {AB KB} (base : pls_class AB KB R) Qb Eb : train_rel base Qb Eb -> train_rel (opls base) (fun _ => True) (op_rel Eb).
Proof.
  intros HB. pose proof HB as (HE & _). split; [intros a; unfold op_rel; repeat split; [now destruct (op_base a)|apply HE]|]. split; [auto|]. intros k a X X' Y Y' _ HX HY. cbn [c_train opls]. unfold opls_train.
  assert (Hs : srel Eb (op_base a) (op_base a)) by now apply srel_same.
  pose proof (opls_fit_rel k X X' Y Y' HX HY) as F. destruct (opls_fit k X Y) as [[w [[[[X1 Xt1] W1] P1] T1]]|e], (opls_fit k X' Y') as [[w' [[[[X2 Xt2] W2] P2] T2]]|e']; cbn [rrel snd] in F; try contradiction; [|subst; split; [reflexivity|split; auto]].
  destruct F as (_ & _ & _ & <- & <- & _). pose proof (opls_transform_rel (Some W1) (Some P1) X X' HX) as G. destruct (opls_transform _ _ X) as [c1|e1], (opls_transform _ _ X') as [c2|e2]; cbn [rrel] in G; try contradiction; [|subst; split; [reflexivity|split; auto]].
  destruct (initialize_rel base Qb Eb (op_base a) c1 c2 Y Y' HB G HY) as (I1 & I2). destruct (initialize base _ (Some c1) _), (initialize base _ (Some c2) _). cbn [fst snd] in *. subst. split; [reflexivity|split; auto].
Qed.
Lemma opls_use {AB KB} (base : pls_class AB KB R) Eb : use_rel base Eb -> use_rel (opls base) (op_rel Eb).
Proof.
  intros HU k a b Z (E1 & E2 & E3). cbn [c_predict c_transform opls snd]. unfold opls_predict. rewrite E1, E2. split; [|reflexivity]. destruct (opls_transform _ _ Z) as [X|e]; [|reflexivity].
  destruct (use_state base Eb _ _ X HU E3) as (U & _). destruct (predict base (op_base a) X), (predict base (op_base b) X). exact U.
Qed.

(** * SparsePLS *)
Lemma rrel_each {A B C} (Q : A -> B -> Prop) (l : list C) (f : A -> C -> res A) (g : B -> C -> res B) a b :
  Q a b -> (forall x y c, Q x y -> rrel Q (f x c) (g y c)) -> rrel Q (for_each l f a) (for_each l g b).
Proof.
  intros H HS. revert a b H. induction l as [|c l IH]; intros a b H; cbn; [exact H|]. pose proof (HS a b c H) as Q1. destruct (f a c), (g b c); cbn in *; try contradiction; auto.
Qed.
Lemma sparse_direction_rel l X X' Y Y' : pr X X' -> pr Y Y' -> rrel eq (sparse_direction l X Y) (sparse_direction l X' Y').
Proof. intros HX HY. unfold sparse_direction. rb. apply rrel_refl. Qed.
Lemma sparse_columns_rel A X X' : pr X X' -> rrel pr (sparse_columns A X) (sparse_columns A X').
Proof.
  intros HX. unfold sparse_columns. rewrite (pr_nr X X' HX). replace (nr X) with n by (destruct HX; auto). eapply (rrel_bind (fun x y => pr (fst x) (fst y) /\ snd x = snd y)).
  - apply rrel_each; [split; [apply (pr_zeros n p Hp); exact Hn|reflexivity]|]. intros [m i] [m' i'] c (Hm & Hi). cbn [fst snd] in *. subst i'. rb. rb. cbn. auto.
  - intros [m i] [m' i'] (Hm & _). exact Hm.
Qed.
Lemma sparse_regression_rel mi tol X X' Y Y' k : pr X X' -> pr Y Y' -> rrel eq (sparse_regression lstsq pinv mi tol X Y k) (sparse_regression lstsq pinv mi tol X' Y' k).
Proof.
  intros HX HY. unfold sparse_regression. cbv zeta. rewrite (pr_nc X X' HX). destruct (setattr _ _ _) as [s1 r1]. rb. destruct (setattr _ _ _) as [s2 r2]. rb. destruct (setattr _ _ _) as [s3 r3]. rb.
  destruct (initialize_rel (nipals lstsq pinv) ni_rows ni_rel s3 X X' Y Y' (nipals_train_rel _ _) HX HY) as (I1 & (_ & I2)). destruct (initialize _ s3 (Some X) _) as [q r], (initialize _ s3 (Some X') _) as [q' r']. cbn [fst snd] in *. subst r'. rb. cbn.
  destruct I2 as (_ & _ & _ & _ & _ & _ & [->|(m & m' & -> & -> & HM)]); [reflexivity|]. f_equal. apply HM.
Qed.
Definition sst_rel (x y : list nat * mat R * mat R * mat R) : Prop := fst x = fst y /\ pr (snd x) (snd y).
Lemma sparse_step_rel a X X' Y Y' st st' k : pr X X' -> pr Y Y' -> sst_rel st st' -> rrel sst_rel (sparse_step lstsq pinv a X Y st k) (sparse_step lstsq pinv a X' Y' st' k).
Proof.
  intros HX HY. destruct st as [[[A B] W] yj], st' as [[[A' B'] W'] yj']. intros (E & Hy). cbn [fst snd] in *. injection E as <- <- <-. unfold sparse_step. cbv zeta. rewrite (pr_nc X X' HX), (pr_nc Y Y' HY).
  eapply (rrel_bind eq); [now apply sparse_direction_rel|]. intros w ? <-. rb. rb. eapply (rrel_bind pr); [now apply sparse_columns_rel|]. intros XA XA' HXA. eapply (rrel_bind eq); [now apply sparse_regression_rel|]. intros BA ? <-. rb. rb. rb. cbn. split; [reflexivity|assumption].
Qed.
Lemma sparse_fit_rel k a X X' Y Y' : pr X X' -> pr Y Y' -> rrel sst_rel (sparse_fit lstsq pinv k a X Y) (sparse_fit lstsq pinv k a X' Y').
Proof.
  intros HX HY. unfold sparse_fit. rewrite (pr_nc X X' HX), (pr_nc Y Y' HY). apply (rrel_range sst_rel); [split; [reflexivity|exact HY]|]. intros. now apply sparse_step_rel.
Qed.
Definition sp_rows (a : sparse_st (T:=R)) : Prop := std_rows (sp_standardize_X a) /\ std_rows (sp_standardize_Y a).
Lemma sparse_train_rel : train_rel (sparse_pls lstsq pinv) sp_rows eq.
Proof.
  split; [reflexivity|]. split; [intros a; split; apply new_rows|]. intros k a X X' Y Y' (HSX & HSY) HX HY. cbn [c_train sparse_pls]. unfold sparse_train.
  destruct (pr_standardize n p Hp (sp_standardize_X a) X X' HX HSX) as ((F1 & F2) & _). destruct (t_transform standardize (sp_standardize_X a) X) as [sx [X1|e1]], (t_transform standardize (sp_standardize_X a) X') as [sx' [X2|e2]]; cbn [fst snd rrel] in *; try contradiction; subst; [|now split].
  destruct (pr_standardize n p Hp (sp_standardize_Y a) Y Y' HY HSY) as ((G1 & G2) & _). destruct (t_transform standardize (sp_standardize_Y a) Y) as [sy [Y1|e1]], (t_transform standardize (sp_standardize_Y a) Y') as [sy' [Y2|e2]]; cbn [fst snd rrel] in *; try contradiction; subst; [|now split].
  pose proof (sparse_fit_rel k a X1 X2 Y1 Y2 F2 G2) as Q. destruct (sparse_fit _ _ _ _ X1 Y1) as [[[[A B] W] y]|], (sparse_fit _ _ _ _ X2 Y2) as [[[[A' B'] W'] y']|]; cbn [rrel] in Q; try contradiction; [|subst; now split].
  destruct Q as (E & _). cbn [fst] in E. injection E as <- <- <-. now split.
Qed.
End Perm.

(** * C96 *)
(** X' and Y' are X and Y with the rows in another order (both in the same one).  Training from
    any state s gives the same result, and afterwards predict and transform answer alike. *)
Definition order_free {A K} (c : pls_class A K R) : Prop := forall s X Y l X' Y', wf X -> wf Y -> nr X = nr Y -> nr X <> 0 ->
  Permutation l (map Z.of_nat (seq 0 (nr X))) -> get_rows X (SList l) = Ok X' -> get_rows Y (SList l) = Ok Y' ->
  let t := initialize c s (Some X) (Some Y) in let t' := initialize c s (Some X') (Some Y') in
  snd t' = snd t /\ p_initialised (fst t') = p_initialised (fst t) /\ forall Z, snd (predict c (fst t') Z) = snd (predict c (fst t) Z) /\ snd (transform c (fst t') Z) = snd (transform c (fst t) Z).
(** the permutation behind a list of row indices *)
Lemma reorder n l : n <> 0 -> Permutation l (map Z.of_nat (seq 0 n)) -> exists p, Permutation (map p (seq 0 n)) (seq 0 n) /\ forall A : mat R, nr A = n -> get_rows A (SList l) = Ok (pm n p A).
Proof.
  intros N0 Pl. set (ks := map Z.to_nat l).
  assert (El : l = map Z.of_nat ks). { unfold ks. rewrite map_map. rewrite <- (map_id l) at 1. apply map_ext_in. intros z Hz. apply (Permutation_in _ Pl) in Hz. apply in_map_iff in Hz as (k & <- & _). now rewrite Nat2Z.id. }
  assert (Pk : Permutation ks (seq 0 n)). { unfold ks. apply (Permutation_map Z.to_nat) in Pl. rewrite map_map in Pl. rewrite (map_ext_in _ (fun k => k)) in Pl by (intros; apply Nat2Z.id). now rewrite map_id in Pl. }
  assert (Lk : length ks = n) by (rewrite (Permutation_length Pk); apply seq_length).
  assert (Hl : l <> []). { intros ->. cbn in ks. subst ks. cbn in Lk. lia. }
  assert (Hi : mapM (npidx n) l = Ok ks). { rewrite El. clear - Pk. assert (H : forall k, In k ks -> k < n) by (intros k Hk; apply (Permutation_in _ Pk) in Hk; apply in_seq in Hk; lia). clear Pk. induction ks as [|k r IH]; [reflexivity|]. cbn [map mapM]. rewrite npidx_nat by (apply H; now left). cbn [bind]. rewrite IH; [reflexivity|]. intros; apply H; now right. }
  exists (fun i => nth i ks 0). split.
  - rewrite <- Lk at 1. rewrite <- (map_by_index (fun k => k) ks 0). now rewrite map_id.
  - intros A NA. rewrite <- NA in Hi. rewrite (get_rows_take A l ks Hi Hl). unfold take_rows, pm. now rewrite Lk.
Qed.
Lemma order_free_of {A K} (c : pls_class A K R) (Q : A -> Prop) (E : nat -> (nat -> nat) -> A -> A -> Prop) :
  (forall n p, Permutation (map p (seq 0 n)) (seq 0 n) -> n <> 0 -> train_rel n p c Q (E n p)) -> (forall n p, use_rel c (E n p)) -> order_free c.
Proof.
  intros HT HU s X Y l X' Y' WX WY NY N0 Pl EX EY. destruct (reorder (nr X) l N0 Pl) as (p & Pp & Hg). rewrite (Hg X eq_refl) in EX. rewrite (Hg Y (eq_sym NY)) in EY. injection EX as <-. injection EY as <-. set (n := nr X) in *.
  destruct (initialize_rel n p Pp c Q (E n p) s X (pm n p X) Y (pm n p Y) (HT n p Pp N0)) as (I1 & I2); [now split|now split|]. cbv zeta. split; [now symmetry|]. split; [|intros Z; destruct (use_state c (E n p) _ _ Z (HU n p) I2); now split].
  destruct I2 as (-> & _). reflexivity.
Qed.
Lemma use_eq {A K} (c : pls_class A K R) : use_rel c eq.
Proof. intros k a b Z ->. now split. Qed.
Section C96.
Variables (lstsq : mat R -> mat R -> res (mat R)) (eig : mat R -> res (list R * mat R)) (pinv : mat R -> res (mat R)).
Theorem C96_pls1 : order_free (pls1 lstsq).
Proof. apply (order_free_of _ (fun _ => True) (fun _ _ => eq)); [|intros; apply use_eq]. intros. now apply pls1_train. Qed.
Theorem C96_vcpls : order_free (vcpls lstsq eig).
Proof. apply (order_free_of _ (fun _ => True) (fun _ _ => eq)); [|intros; apply use_eq]. intros. now apply vcpls_train. Qed.
Theorem C96_simpls : order_free (simpls eig).
Proof. apply (order_free_of _ (fun _ => True) (fun _ _ => eq)); [|intros; apply use_eq]. intros. now apply simpls_train. Qed.
Theorem C96_nipals : order_free (nipals lstsq pinv).
Proof. apply (order_free_of _ ni_rows ni_rel); [intros; now apply nipals_train_rel|intros; apply nipals_use]. Qed.
Theorem C96_sparse_pls : order_free (sparse_pls lstsq pinv).
Proof. apply (order_free_of _ sp_rows (fun _ _ => eq)); [|intros; apply use_eq]. intros. now apply sparse_train_rel. Qed.
(** OPLS over each of these as base_PLS *)
Theorem C96_opls : order_free (opls (pls1 lstsq)) /\ order_free (opls (vcpls lstsq eig)) /\ order_free (opls (simpls eig)) /\ order_free (opls (nipals lstsq pinv)) /\ order_free (opls (sparse_pls lstsq pinv)).
Proof.
  assert (H : forall A K (c : pls_class A K R) Q E, (forall n p, Permutation (map p (seq 0 n)) (seq 0 n) -> n <> 0 -> train_rel n p c Q (E n p)) -> (forall n p, use_rel c (E n p)) -> order_free (opls c)).
  { intros A K c Q E HT HU. apply (order_free_of _ (fun _ => True) (fun n p => op_rel (E n p))); [intros; eapply opls_train_rel; eauto|intros; now apply opls_use]. }
  split; [apply (H _ _ _ (fun _ => True) (fun _ _ => eq)); [intros; now apply pls1_train|intros; apply use_eq]|]. split; [apply (H _ _ _ (fun _ => True) (fun _ _ => eq)); [intros; now apply vcpls_train|intros; apply use_eq]|].
  split; [apply (H _ _ _ (fun _ => True) (fun _ _ => eq)); [intros; now apply simpls_train|intros; apply use_eq]|]. split; [apply (H _ _ _ ni_rows ni_rel); [intros; now apply nipals_train_rel|intros; apply nipals_use]|].
  apply (H _ _ _ sp_rows (fun _ _ => eq)); [intros; now apply sparse_train_rel|intros; apply use_eq].
Qed.
End C96.
(** PLS1 on three rows, and on the same rows in the order 2, 0, 1: both trainings succeed and both predict the same values. *)
Example C96_ex : exists X' Y' s s' V, get_rows kX (SList [2; 0; 1]%Z) = Ok X' /\ get_rows kY (SList [2; 0; 1]%Z) = Ok Y' /\ rws X' = [[1; 2]; [2; 5]; [0; 5]]%R /\
  initialize (pls1 no_ls) p_start (Some kX) (Some kY) = (s, Ok None) /\ initialize (pls1 no_ls) p_start (Some X') (Some Y') = (s', Ok None) /\
  snd (predict (pls1 no_ls) s kX) = Ok V /\ snd (predict (pls1 no_ls) s' kX) = Ok V.
Proof.
  destruct k_run as (sk & s & _ & Ei & H). destruct (H (mk 3 2 (fun i j => entry kX i j + Rmean 3 (fun k => entry kX k j))%R)) as (V & _ & HV); [apply mk_wf|reflexivity|discriminate|].
  match type of HV with snd (predict _ _ ?m) = _ => replace m with kX in HV end.
  2: { assert (W : wf kX) by apply kX_wf. rewrite (wf_mk kX W) at 1. apply mk_ext. intros i j Hi Hj. rewrite entry_mk by assumption. ring. }
  do 2 eexists. exists s. do 2 eexists. split; [reflexivity|]. split; [reflexivity|]. split; [reflexivity|]. split; [exact Ei|].
  edestruct (C96_pls1 no_ls p_start kX kY [2; 0; 1]%Z) as (E1 & _ & E2); [exact (proj1 kX_wf)|exact (proj2 kX_wf)|reflexivity|discriminate| |reflexivity|reflexivity|].
  - cbn. apply (Permutation_trans (l' := [0; 2; 1]%Z)); [apply perm_swap|apply perm_skip, perm_swap].
  - rewrite Ei in E1, E2. cbn [fst snd] in *. split; [|split; [exact HV|]].
    + rewrite <- E1. apply surjective_pairing.
    + rewrite (proj1 (E2 kX)). exact HV.
Qed.
Print Assumptions C96_pls1.
Print Assumptions C96_vcpls.
Print Assumptions C96_simpls.
Print Assumptions C96_nipals.
Print Assumptions C96_sparse_pls.
Print Assumptions C96_opls.
