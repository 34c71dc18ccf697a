(** The single-response life cycle from the outside: which matrices reach the training of an
    algorithm, and what predict and transform return afterwards. *)
From Coq Require Import List ZArith Lia Bool Arith Reals Lra.
From Verif Require Import Base Num Mat M_Matrix M_Factory M_Helper M_Loop M_Utils M_Linalg M_Transform M_PLSBase M_PLS
  S_Matrix L_Base L_Mat L_Matrix L_MatR L_Linalg L_Stats L_Transform L_Alg P_Matrix P_Linalg P_Helper P_Transform P_PLSBase P_PLSPrep.
Import ListNotations.
Local Open Scope R_scope.

(** Textbook preprocessing of a data matrix, entry by entry *)
Definition prepared (pp : preproc) (X : mat R) (i j : nat) : R :=
  match pp with
  | PP_CENTER => entry X i j - Rmean (nr X) (fun k => entry X k j)
  | PP_STANDARDIZE => (entry X i j - Rmean (nr X) (fun k => entry X k j)) / sqrt (Rvar (nr X) (fun k => entry X k j))
  | _ => entry X i j
  end.
(** Preprocessing makes sense: at least two rows for statistics, no constant column to standardise. *)
Definition preparable (pp : preproc) (X : mat R) : Prop :=
  match pp with
  | PP_NONE => True
  | PP_CENTER => (2 <= nr X)%nat
  | PP_STANDARDIZE => (2 <= nr X)%nat /\ forall j, (j < nc X)%nat -> ~ constant_column X j
  | PP_OTHER => False
  end.
(** Mean and deviation predictions are mapped back with *)
Definition back_mean (pp : preproc) (Y : mat R) : R := match pp with PP_NONE => 0 | _ => own_mean Y 0 end.

Lemma fit_prepared pp (X : mat R) tp : wf X -> nc X <> 0%nat -> preparable pp X ->
  tp = match pp with PP_CENTER => Some (PTCenter (t_new center)) | PP_STANDARDIZE => Some (PTStandardize (t_new standardize)) | _ => None end ->
  exists tp', pt_fit tp X = (tp', Ok (mk (nr X) (nc X) (prepared pp X))) /\ (tp = None <-> tp' = None).
Proof.
  intros W Hc Hp ->. destruct pp; cbn [preparable] in Hp; [| | |now elim Hp].
  - exists None. split; [|tauto]. cbn [pt_fit]. f_equal. f_equal. now apply wf_mk.
  - exists (Some (PTCenter (center_conf X))). rewrite pt_fit_center. split; [|split; discriminate]. f_equal. f_equal. apply mk_ext. intros i j Hi Hj. cbn [prepared nsub NumR]. now rewrite Rmean_np.
  - exists (Some (PTStandardize (std_conf X))). rewrite pt_fit_standardize by assumption. split; [|split; discriminate]. f_equal. f_equal. apply mk_ext. intros i j Hi Hj. cbn [prepared nsub ndiv NumR]. rewrite Rmean_np.
    destruct Hp as [Hr Hn]. destruct (sd_used_R X j Hr) as [A _]. destruct (A (Hn j Hj)) as [-> _]. reflexivity.
Qed.

Lemma preproc_eq_none (pp : preproc) : pp = PP_NONE \/ pp <> PP_NONE.
Proof. destruct pp; [left; reflexivity|right; discriminate|right; discriminate|right; discriminate]. Qed.
Section Single.
Context {A K : Type} (c : pls_class A K R).
Lemma single_training (s0 : pls_st A R) (X Y : mat R) (own : A) (pp : preproc) :
  c_arity c = Single -> p_preprocessing s0 = pp -> wf X -> wf Y -> nr X = nr Y -> nc X <> 0%nat -> nc Y = 1%nat -> preparable pp X -> preparable pp Y ->
  c_train c (p_num_components s0) (c_reset c (p_own s0)) (mk (nr X) (nc X) (prepared pp X)) (mk (nr X) 1 (fun i _ => prepared pp Y i 0)) = (own, Ok None) ->
  exists s, initialize c s0 (Some X) (Some Y) = (s, Ok None) /\ p_own s = own /\
    (forall Z, snd (transform c s Z) = snd (c_transform c (p_num_components s0) own Z)) /\
    (forall Z raw, snd (c_predict c (p_num_components s0) own Z) = Ok raw -> wf raw -> nc raw = 1%nat ->
       snd (predict c s Z) = Ok (mk (nr raw) 1 (fun i _ => entry raw i 0 * own_sd pp Y 0 + back_mean pp Y))).
Proof.
  intros Ha Hpp WX WY Hrows HcX HcY HpX HpY Htr.
  assert (Hprep : exists mean std, prep_single pp Y = Ok (mean, std,
     match pp with PP_CENTER => Some (PTCenter (t_new center)) | PP_STANDARDIZE => Some (PTStandardize (t_new standardize)) | _ => None end,
     match pp with PP_CENTER => Some (PTCenter (t_new center)) | PP_STANDARDIZE => Some (PTStandardize (t_new standardize)) | _ => None end)).
  { destruct pp; cbn [preparable] in HpY; [eexists; eexists; reflexivity| | |now elim HpY].
    - destruct (stats_of Y HpY ltac:(lia)) as [Em Es]. cbn [prep_single]. rewrite Em. cbn [bind]. eexists. eexists. reflexivity.
    - destruct HpY as [HpY _]. destruct (stats_of Y HpY ltac:(lia)) as [Em Es]. cbn [prep_single]. rewrite Em, Es. cbn [bind]. eexists. eexists. reflexivity. }
  destruct Hprep as (mean & std & Hprep).
  destruct (fit_prepared pp X _ WX HcX HpX eq_refl) as (tp' & EX & NX). destruct (fit_prepared pp Y _ WY ltac:(lia) HpY eq_refl) as (tr' & EY & NY).
  assert (EY' : mk (nr Y) (nc Y) (prepared pp Y) = mk (nr X) 1 (fun i _ => prepared pp Y i 0)).
  { rewrite HcY, <- Hrows. apply mk_ext. intros i j Hi Hj. assert (j = 0%nat) by lia. now subst. }
  rewrite EY' in EY.
  set (s := PlsSt (p_num_components s0) pp true mean std tp' tr' own).
  assert (Ei : initialize c s0 (Some X) (Some Y) = (s, Ok None)).
  { unfold initialize, check_data. rewrite Ha, HcY. cbn [Nat.eqb negb]. unfold do_initialize. cbn [reset p_preprocessing]. rewrite Hpp. unfold prepare. rewrite Ha, Hprep, EX, EY.
    cbn [set_prep p_num_components p_own reset]. rewrite Htr. unfold set_initialised, set_own, set_prep, reset. cbn [p_num_components p_preprocessing p_class_mean p_class_std_dev p_trans_predictors p_trans_response p_own].
    rewrite Hpp. reflexivity. }
  exists s. split; [exact Ei|]. split; [reflexivity|]. split.
  - intros Z. unfold transform, s. cbn [p_initialised negb p_num_components p_own]. destruct (c_transform _ _ _ _). reflexivity.
  - intros Z raw Hraw Wr Cr. destruct (preproc_eq_none pp) as [Hn|Hn].
    + rewrite Hn in Hpp. rewrite (C50_no_preprocessing c s0 s X Y Z Hpp ltac:(lia) Ei). cbn [s p_num_components p_own]. rewrite Hraw. f_equal. rewrite Hn. cbn [own_sd back_mean].
      symmetry. rewrite (wf_mk raw Wr) at 2. rewrite Cr. apply mk_ext. intros i j Hi Hj. assert (j = 0%nat) by lia. subst. ring.
    + destruct (C50_single c s0 s X Y Z raw Ha) as (r & Er & Hr); auto.
      * destruct pp; rewrite Hpp; auto; [now elim Hn|now elim HpX].
      * destruct pp; cbn [preparable] in HpY; [now elim Hn|lia|lia|now elim HpY].
      * lia.
      * rewrite Er. f_equal. rewrite Hpp in Hr. destruct Hr as (W1 & R1 & C1 & H1). rewrite (wf_mk r W1), R1, C1. apply mk_ext. intros i j Hi Hj. rewrite H1 by assumption.
        destruct pp; try reflexivity. now elim Hn.
Qed.
End Single.

(** Classes for one or more responses, without preprocessing of their own. *)
Section Multi.
Context {A K : Type} (c : pls_class A K R).
Lemma multi_training_none (s0 : pls_st A R) (X Y : mat R) (own : A) lo :
  c_arity c = Multi lo (-1) -> (lo <= Z.of_nat (nc Y))%Z -> p_preprocessing s0 = PP_NONE -> nc Y <> 0%nat ->
  c_train c (p_num_components s0) (c_reset c (p_own s0)) X Y = (own, Ok None) ->
  exists s, initialize c s0 (Some X) (Some Y) = (s, Ok None) /\ p_own s = own /\ p_num_components s = p_num_components s0 /\
    (forall Z, snd (transform c s Z) = snd (c_transform c (p_num_components s0) own Z)) /\
    (forall Z, snd (predict c s Z) = snd (c_predict c (p_num_components s0) own Z)).
Proof.
  intros Ha Hlo Hpp Hc Htr.
  set (s := PlsSt (p_num_components s0) PP_NONE true (repeat 0 (nc Y)) (repeat 1 (nc Y)) None None own).
  assert (Ei : initialize c s0 (Some X) (Some Y) = (s, Ok None)).
  { unfold initialize, check_data. rewrite Ha. destruct (Z.ltb_spec (Z.of_nat (nc Y)) lo); [lia|]. cbn [Z.eqb negb andb]. unfold do_initialize. cbn [reset p_preprocessing]. rewrite Hpp. unfold prepare. rewrite Ha.
    rewrite (proj1 (prep_multi_spec Y Hc)). cbn [pt_fit]. cbn [set_prep p_num_components p_own reset]. rewrite Htr. unfold set_initialised, set_own, set_prep, reset.
    cbn [p_num_components p_preprocessing p_class_mean p_class_std_dev p_trans_predictors p_trans_response p_own]. rewrite Hpp. reflexivity. }
  exists s. split; [exact Ei|]. split; [reflexivity|]. split; [reflexivity|]. split.
  - intros Z. unfold transform, s. cbn [p_initialised negb p_num_components p_own]. destruct (c_transform _ _ _ _). reflexivity.
  - intros Z. rewrite (C50_no_preprocessing c s0 s X Y Z Hpp Hc Ei). reflexivity.
Qed.
End Multi.
