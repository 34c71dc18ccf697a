(** C110: KernelPLS does not depend on the coordinate system the predictors are expressed in. *)
From Coq Require Import List ZArith Lia Bool Arith Reals Lra.
From Verif Require Import Base Num Mat M_Matrix M_Factory M_Helper M_Loop M_Utils M_Linalg M_Transform M_Kernel M_PLSBase M_PLS M_PLS2.
From Verif Require Import S_Matrix P_Helper L_Base L_Mat L_Matrix L_MatR L_Alg L_Stats L_Transform P_Transform P_Kernel P_PLSPrep L_Public L_Batch L_Perm P_KernelPLS2 P_Geometry P_Units.
Import ListNotations.
Local Open Scope R_scope.

(** B holds the points of A (its rows) in another coordinate system: the axes are the columns of Q, the
    origin is moved by d. *)
Definition moved (Q : mat R) (d : nat -> R) (A B : mat R) : Prop :=
  wf B /\ nr B = nr A /\ nc B = nc Q /\ forall i j, (i < nr A)%nat -> (j < nc Q)%nat -> entry B i j = Rsum (nc A) (fun l => entry A i l * entry Q l j) + d j.

(** * Kernels that only depend on products of points *)
Definition same_products (A B A2 B2 : mat R) : Prop :=
  forall i k, (i < nr A)%nat -> (k < nr B)%nat -> sumn (nc A) (fun l => entry A2 i l * entry B2 k l) = sumn (nc A) (fun l => entry A i l * entry B k l).
Definition congruent (A B A2 B2 : mat R) : Prop :=
  nr A2 = nr A /\ nr B2 = nr B /\ nc B = nc A /\ nc A2 = nc A /\ nc B2 = nc A /\ same_products A A A2 A2 /\ same_products A B A2 B2 /\ same_products B B B2 B2.
Definition congruence_kernel {KS} (kapply : KS -> mat R -> option (mat R) -> KS * res (mat R)) : Prop := forall ks A B A2 B2, congruent A B A2 B2 ->
  kapply ks A2 None = kapply ks A None /\ kapply ks A2 (Some B2) = kapply ks A (Some B).
Lemma congruent_self A B A2 B2 : congruent A B A2 B2 -> congruent A A A2 A2.
Proof. intros (H1 & H2 & H3 & H4 & H5 & H6 & H7 & H8). repeat (split; [assumption || reflexivity|]). assumption. Qed.
Lemma congruent_product A B A2 B2 : congruent A B A2 B2 -> mul A2 (transpose B2) = mul A (transpose B).
Proof.
  intros (H1 & H2 & H3 & H4 & H5 & _ & H7 & _). unfold mul, is_multiplicable_with. cbn [transpose nr nc mk]. rewrite H4, H5, H3, Nat.eqb_refl. cbn [negb]. f_equal. unfold matmul. cbn [transpose nr nc mk]. rewrite H1, H2. apply mk_ext. intros i k Hi Hk.
  rewrite H4. rewrite (sumn_ext (nc A) _ (fun l => entry A2 i l * entry B2 k l)), (sumn_ext (nc A) (fun l => nmul (entry A i l) _) (fun l => entry A i l * entry B k l)); [now apply H7| |]; intros l Hl; cbn [nmul NumR]; f_equal; unfold transpose; rewrite entry_mk; (reflexivity || lia).
Qed.
Lemma congruent_dist A B A2 B2 i k : congruent A B A2 B2 -> (i < nr A)%nat -> (k < nr B)%nat -> dist (nc A) (entry A2 i) (entry B2 k) = dist (nc A) (entry A i) (entry B k).
Proof.
  intros (H1 & H2 & H3 & H4 & H5 & H6 & H7 & H8) Hi Hk. unfold dist. f_equal. rewrite !Rsum_sumn.
  assert (E : forall u v : nat -> R, sumn (nc A) (fun l => (u l - v l) * (u l - v l)) = sumn (nc A) (fun l => u l * u l) - 2 * sumn (nc A) (fun l => u l * v l) + sumn (nc A) (fun l => v l * v l)).
  { intros u v. rewrite <- sumR_scal, <- sumR_minus, <- sumR_plus. apply sumn_ext. intros; ring. }
  rewrite !E. rewrite H6, H7 by assumption. unfold same_products in H8. rewrite H3 in H8. now rewrite H8.
Qed.
Lemma linear_congruence {KS} : congruence_kernel (fun (ks : KS) X Y => (ks, linear_apply_matrix X Y)).
Proof. intros ks A B A2 B2 HC. unfold linear_apply_matrix. now rewrite (congruent_product A B A2 B2 HC), (congruent_product A A A2 A2 (congruent_self _ _ _ _ HC)). Qed.
Lemma poly_congruence npow : congruence_kernel (poly_apply_matrix (T:=R) npow).
Proof.
  intros s A B A2 B2 HC. unfold poly_apply_matrix. rewrite (congruent_product A B A2 B2 HC), (congruent_product A A A2 A2 (congruent_self _ _ _ _ HC)). destruct HC as (_ & _ & _ & -> & _). split; reflexivity.
Qed.
Lemma rbf_pair nexp g A B A2 B2 i k : congruent A B A2 B2 -> (i < nr A)%nat -> (k < nr B)%nat -> rbf_apply_vector nexp g (row_of A2 i) (row_of B2 k) = rbf_apply_vector nexp g (row_of A i) (row_of B k).
Proof.
  intros HC Hi Hk. pose proof HC as (H1 & H2 & H3 & H4 & H5 & _). unfold rbf_apply_vector. destruct (sub_rows A B i k ltac:(congruence)) as (e & -> & He). destruct (sub_rows A2 B2 i k ltac:(congruence)) as (e2 & -> & He2).
  rewrite He, He2, H4. rewrite (congruent_dist A B A2 B2 i k HC Hi Hk). cbn [nc mk row_of]. now rewrite H4.
Qed.
Lemma rbf_congruence nexp : congruence_kernel (rbf_at (T:=R) nexp).
Proof.
  intros g A B A2 B2 HC. pose proof HC as (H1 & H2 & H3 & H4 & H5 & _). unfold rbf_at, rbf_apply_matrix, abstract_apply_matrix. split.
  - replace (abstract_one (rbf_apply_vector nexp) g A2) with (abstract_one (rbf_apply_vector nexp) g A); [reflexivity|]. unfold abstract_one. rewrite H1. unfold for_range. apply for_each_ext. intros sr i Hi. apply for_each_ext. intros sr' j Hj. apply in_seq in Hi. apply in_seq in Hj.
    rewrite !get_row_nat by lia. cbn [bind]. fold (row_of A i) (row_of A j) (row_of A2 i) (row_of A2 j). now rewrite (rbf_pair nexp (fst sr') A A A2 A2 i j (congruent_self _ _ _ _ HC)) by lia.
  - replace (abstract_two (rbf_apply_vector nexp) g A2 B2) with (abstract_two (rbf_apply_vector nexp) g A B); [reflexivity|]. unfold abstract_two. rewrite H1, H2. unfold for_range. apply for_each_ext. intros sr i Hi. apply for_each_ext. intros sr' j Hj. apply in_seq in Hi. apply in_seq in Hj.
    rewrite !get_row_nat by lia. cbn [bind]. fold (row_of A i) (row_of B j) (row_of A2 i) (row_of B2 j). now rewrite (rbf_pair nexp (fst sr') A B A2 B2 i j HC) by lia.
Qed.

(** * Centring in the other coordinate system *)
Definition centred (X Z : mat R) : mat R := mk (nr Z) (nc Z) (fun i j => nsub (entry Z i j) (np_mean (nr X) (fun k => entry X k j))).
Section Moved.
Variables (Q : mat R) (d : nat -> R) (X X2 : mat R).
Hypotheses (HQ : orthonormal_rows Q) (RQ : nr Q = nc X) (CQ : nc Q = nc X) (HX : moved Q d X X2) (NX : nr X <> 0%nat).
Lemma moved_mean j : (j < nc Q)%nat -> Rmean (nr X2) (fun k => entry X2 k j) = sumn (nc X) (fun l => Rmean (nr X) (fun k => entry X k l) * entry Q l j) + d j.
Proof.
  intros Hj. destruct HX as (_ & R2 & _ & H). rewrite R2. unfold Rmean. rewrite Rsum_sumn. rewrite (sumn_ext (nr X) _ (fun k => sumn (nc X) (fun l => entry X k l * entry Q l j) + d j)) by (intros; now rewrite H, Rsum_sumn).
  rewrite sumR_plus, sumR_const, sumR_swap. rewrite (sumn_ext (nc X) (fun l => Rsum _ _ / _ * _) (fun l => / INR (nr X) * sumn (nr X) (fun k => entry X k l * entry Q l j))) by (intros; rewrite Rsum_sumn, sumR_scal_r; unfold Rdiv; ring).
  rewrite sumR_scal. pose proof (not_0_INR (nr X) NX). field. assumption.
Qed.
Lemma centred_moved Z Z2 i j : moved Q d Z Z2 -> nc Z = nc X -> (i < nr Z)%nat -> (j < nc X)%nat -> entry (centred X2 Z2) i j = sumn (nc X) (fun l => entry (centred X Z) i l * entry Q l j).
Proof.
  intros (_ & R2 & C2 & H) CZ Hi Hj. unfold centred at 1. rewrite entry_mk by lia. rewrite <- Rmean_np, moved_mean, H, Rsum_sumn, CZ by lia. rewrite (sumn_ext (nc X) (fun l => entry (centred X Z) i l * _) (fun l => entry Z i l * entry Q l j - Rmean (nr X) (fun k => entry X k l) * entry Q l j)).
  - rewrite sumR_minus. cbn [nsub NumR]. ring.
  - intros l Hl. unfold centred. rewrite entry_mk by lia. rewrite <- Rmean_np. cbn [nsub NumR]. ring.
Qed.
Lemma products Z W Z2 W2 : moved Q d Z Z2 -> moved Q d W W2 -> nc Z = nc X -> nc W = nc X -> same_products (centred X Z) (centred X W) (centred X2 Z2) (centred X2 W2).
Proof.
  intros HZ HW CZ CW i k Hi Hk. cbn [centred nr nc mk] in Hi, Hk |- *. rewrite CZ. fold (centred X Z) (centred X W) (centred X2 Z2) (centred X2 W2).
  rewrite (sumn_ext (nc X) (fun l => entry (centred X2 Z2) i l * _) (fun j => sumn (nc X) (fun l => entry (centred X Z) i l * entry Q l j) * sumn (nc X) (fun l => entry (centred X W) k l * entry Q l j))) by (intros; now rewrite (centred_moved Z Z2), (centred_moved W W2)).
  apply (act_iso (nc X) (nc X) (entry Q)). intros l m Hl Hm. rewrite <- Rsum_sumn, <- CQ. apply HQ; lia.
Qed.
Lemma centred_congruent Z Z2 : moved Q d Z Z2 -> nc Z = nc X -> congruent (centred X Z) (centred X X) (centred X2 Z2) (centred X2 X2).
Proof.
  intros HZ CZ. pose proof HZ as (_ & R2 & C2 & _). pose proof HX as (_ & R1 & C1 & _). unfold congruent. cbn [centred nr nc mk]. fold (centred X Z) (centred X X) (centred X2 Z2) (centred X2 X2). repeat (split; [congruence|]). split; [|split]; apply products; auto.
Qed.
Lemma centre_new : t_transform center (t_new center) X = (center_conf X, Ok (centred X X)).
Proof.
  unfold t_transform. cbn [t_configured center ce_configured t_new negb t_configure]. fold (center (T:=R)). fold (center_conf X). pose proof (L_Transform.center_do X X) as E. rewrite Nat.eqb_refl in E. exact (f_equal (pair (center_conf X)) E).
Qed.
End Moved.

(** * Training and predicting *)
Section Kpls.
Context {KS : Type} (lstsq : mat R -> mat R -> res (mat R)) (rnd : Z -> nat -> mat R) (k0 : KS) (kapply : KS -> mat R -> option (mat R) -> KS * res (mat R)).
Hypothesis HK : congruence_kernel kapply.
Let cl := kernel_pls lstsq rnd k0 kapply.
Definition with_X (m : kpls_model) (X : mat R) : kpls_model := KplsModel (km_K_orig m) (km_K_deflated m) (km_T m) (km_U m) (km_P m) (km_Q m) (km_B_RHS m) X.
Lemma fit_moved n ks tol mi A A2 Y : congruent A A A2 A2 ->
  kpls_fit lstsq rnd kapply n ks tol mi A2 Y = (let (ks', r) := kpls_fit lstsq rnd kapply n ks tol mi A Y in (ks', do m <- r; Ok (with_X m A2))) /\
  forall m, snd (kpls_fit lstsq rnd kapply n ks tol mi A Y) = Ok m -> km_X m = A.
Proof.
  intros HC. destruct (HK ks A A A2 A2 HC) as (E & _). destruct HC as (H1 & _). unfold kpls_fit. rewrite E, H1. destruct (eye (zn (nr A)) (zn (nr A))) as [Id|e]; [|split; [reflexivity|discriminate]]. destruct (kapply ks A None) as [ks' rK]. cbn [snd].
  destruct rK as [K|e]; cbn [bind]; [|split; [reflexivity|discriminate]]. destruct (centralize_train (nr A) K) as [Ko|e]; cbn [bind]; [|split; [reflexivity|discriminate]].
  match goal with |- context [for_range ?a ?b ?c] => destruct (for_range a b c) as [[[[Kd Y1] [[t w] q]] [[[Tm U] P] Qm]]|e]; cbn [bind]; [|split; [reflexivity|discriminate]] end.
  match goal with |- context [bind ?x _] => destruct x as [tk|e]; cbn [bind]; [|split; [reflexivity|discriminate]] end. match goal with |- context [bind ?x _] => destruct x as [tku|e]; cbn [bind]; [|split; [reflexivity|discriminate]] end. match goal with |- context [bind ?x _] => destruct x as [iv|e]; cbn [bind]; [|split; [reflexivity|discriminate]] end. match goal with |- context [bind ?x _] => destruct x as [B|e]; cbn [bind]; [|split; [reflexivity|discriminate]] end.
  split; [reflexivity|]. intros m [= <-]. reflexivity.
Qed.
Variables (Q : mat R) (d : nat -> R).
Hypothesis HQ : orthonormal_rows Q.
(** the trained objects of the two runs *)
Definition twins (X X2 : mat R) (o o2 : @kpls_st R KS) : Prop := exists ks tol mi cy m,
  o = Kpls ks tol mi (center_conf X) cy (Some m) /\ o2 = Kpls ks tol mi (center_conf X2) cy (Some (with_X m (centred X2 X2))) /\ km_X m = centred X X.
Lemma train_moved n a X X2 Y : nr Q = nc X -> nc Q = nc X -> moved Q d X X2 -> nr X <> 0%nat -> kp_center_X a = t_new center ->
  let r := kpls_train lstsq rnd kapply n a X Y in let r2 := kpls_train lstsq rnd kapply n a X2 Y in
  snd r2 = snd r /\ (snd r = Ok None -> twins X X2 (fst r) (fst r2)) /\ forall m, snd r <> Ok (Some m).
Proof.
  intros RQ CQ HX NX Ha. cbv zeta. unfold kpls_train. rewrite Ha, !centre_new. destruct (t_transform center (kp_center_Y a) Y) as [cy [Yc|e]]; [|split; [reflexivity|split; discriminate]].
  pose proof (centred_congruent Q d X X2 HQ RQ CQ HX NX X X2 HX eq_refl) as HC. destruct (fit_moved n (kp_kernel a) (kp_tol a) (kp_max_iter a) _ _ Yc HC) as (E & Em). rewrite E. clear E. destruct (kpls_fit _ _ _ _ _ _ _ (centred X X) _) as [ks [m|e]]; cbn [bind fst snd] in *; [|split; [reflexivity|split; discriminate]].
  split; [reflexivity|]. split; [|discriminate]. intros _. exists ks, (kp_tol a), (kp_max_iter a), cy, m. split; [reflexivity|]. split; [reflexivity|]. now apply Em.
Qed.
Lemma answers_moved X X2 o o2 Z Z2 : nr Q = nc X -> nc Q = nc X -> moved Q d X X2 -> nr X <> 0%nat -> twins X X2 o o2 -> moved Q d Z Z2 -> nc Z = nc X ->
  snd (kpls_transform kapply o2 Z2) = snd (kpls_transform kapply o Z) /\ snd (kpls_predict kapply o2 Z2) = snd (kpls_predict kapply o Z).
Proof.
  intros RQ CQ HX NX (ks & tol & mi & cy & m & -> & -> & Em) HZ CZ. pose proof HX as (_ & R1 & C1 & _). pose proof HZ as (_ & R2 & C2 & _).
  assert (T1 : t_transform center (center_conf X) Z = (center_conf X, Ok (centred X Z))). { unfold t_transform. cbn [t_configured center ce_configured center_conf negb]. pose proof (L_Transform.center_do X Z) as E. rewrite CZ, Nat.eqb_refl in E. unfold centred. rewrite CZ. exact (f_equal (pair (center_conf X)) E). }
  assert (T2 : t_transform center (center_conf X2) Z2 = (center_conf X2, Ok (centred X2 Z2))). { unfold t_transform. cbn [t_configured center ce_configured center_conf negb]. pose proof (L_Transform.center_do X2 Z2) as E. replace (nc Z2) with (nc X2) in E by congruence. rewrite Nat.eqb_refl in E. unfold centred. replace (nc Z2) with (nc X2) by congruence. exact (f_equal (pair (center_conf X2)) E). }
  destruct (HK ks _ _ _ _ (centred_congruent Q d X X2 HQ RQ CQ HX NX Z Z2 HZ CZ)) as (_ & EK).
  assert (Et : kpls_transform kapply (Kpls ks tol mi (center_conf X2) cy (Some (with_X m (centred X2 X2)))) Z2 =
    (let (o, r) := kpls_transform kapply (Kpls ks tol mi (center_conf X) cy (Some m)) Z in (Kpls (kp_kernel o) tol mi (center_conf X2) cy (Some (with_X m (centred X2 X2))), r)) /\
    exists ks', fst (kpls_transform kapply (Kpls ks tol mi (center_conf X) cy (Some m)) Z) = Kpls ks' tol mi (center_conf X) cy (Some m)).
  { unfold kpls_transform. cbn [kp_center_X kp_kernel kp_tol kp_max_iter kp_center_Y kp_model]. rewrite T1, T2. cbn [kp_model kp_kernel with_X km_X km_K_orig km_U]. rewrite EK, Em. destruct (kapply ks (centred X Z) (Some (centred X X))) as [ks' rK]. cbn [kp_kernel fst]. cbn [centred nr mk]. rewrite R1. split; [reflexivity|]. exists ks'. reflexivity. }
  destruct Et as (Et & ks' & Ef). split; [rewrite Et; clear Et; destruct (kpls_transform _ _ Z); reflexivity|]. unfold kpls_predict. rewrite Et. clear Et. destruct (kpls_transform kapply (Kpls ks tol mi (center_conf X) cy (Some m)) Z) as [o r]. cbn [fst] in Ef. subst o. cbn [kp_model kp_center_Y with_X km_B_RHS need bind].
  match goal with |- context [match ?x with Ok _ => _ | Err _ => _ end] => destruct x as [V|e]; [|reflexivity] end. destruct (t_inverse center cy V). reflexivity.
Qed.
End Kpls.

(** initialize: what training receives, for two sets of predictors and the same response *)
Lemma init_any {A K} (cl : pls_class A K R) (s : pls_st A R) Y : let pp := p_preprocessing s in wf Y -> nc Y <> 0%nat -> preparable pp Y ->
  exists mean std tr, forall X, wf X -> nc X <> 0%nat -> preparable pp X -> exists tp, initialize cl s (Some X) (Some Y) =
    match check_data cl Y with
    | Some m => (reset cl s, Ok (Some m))
    | None => let (o, r) := c_train cl (p_num_components s) (c_reset cl (p_own s)) (mk (nr X) (nc X) (prepared pp X)) (mk (nr Y) (nc Y) (prepared pp Y)) in
              (PlsSt (p_num_components s) pp (match r with Ok None => true | _ => false end) mean std tp tr o, r)
    end.
Proof.
  intros pp WY NY PY. destruct (prep_multi_spec Y NY) as (Pn & Pc & Ps).
  set (t0 := match pp with PP_CENTER => Some (PTCenter (t_new center)) | PP_STANDARDIZE => Some (PTStandardize (t_new standardize)) | _ => None end : option (ptrans R)).
  assert (Hprep : exists mean std, prepare cl pp Y = Ok (mean, std, t0, t0)).
  { assert (HS : (2 <= nr Y)%nat -> helper_mean Y 0 true = Ok (own_mean Y 0) /\ helper_stdev Y 0 true = Ok (own_sd PP_STANDARDIZE Y 0)) by (intros; now apply stats_of).
    unfold prepare, t0. destruct (c_arity cl) as [|lo hi]; destruct pp; cbn [preparable] in PY; try contradiction.
    - cbn [prep_single]. eexists. eexists. reflexivity.
    - cbn [prep_single]. destruct (HS PY) as (-> & _). eexists. eexists. reflexivity.
    - cbn [prep_single]. destruct (HS (proj1 PY)) as (-> & ->). eexists. eexists. reflexivity.
    - rewrite Pn. eexists. eexists. reflexivity.
    - rewrite Pc. destruct (HS PY) as (-> & _). eexists. eexists. reflexivity.
    - rewrite Ps. destruct (HS (proj1 PY)) as (-> & ->). eexists. eexists. reflexivity. }
  destruct Hprep as (mean & std & Hprep). destruct (fit_prepared pp Y t0 WY NY PY eq_refl) as (tr & EY & Ny). exists mean, std, tr. intros X WX NX PX. destruct (fit_prepared pp X t0 WX NX PX eq_refl) as (tp & EX & Nx). exists tp.
  unfold initialize. destruct (check_data cl Y) as [m|]; [reflexivity|]. unfold do_initialize. cbn [reset p_preprocessing]. fold pp. rewrite Hprep, EX, EY. cbn [set_prep reset p_num_components p_own]. destruct (c_train cl _ _ _ _) as [o [[m|]|e]]; reflexivity.
Qed.

(** * C110 *)
Definition coordinate_free {A K} (cl : pls_class A K R) : Prop := forall (s : pls_st A R) (X Y Q X2 : mat R) (d : nat -> R),
  (p_preprocessing s = PP_NONE \/ p_preprocessing s = PP_CENTER /\ forall j, d j = 0) -> preparable (p_preprocessing s) X -> preparable (p_preprocessing s) Y ->
  wf X -> wf Y -> nr X <> 0%nat -> nc X <> 0%nat -> nc Y <> 0%nat -> nr Q = nc X -> nc Q = nc X -> orthonormal_rows Q -> moved Q d X X2 ->
  let t := fst (initialize cl s (Some X) (Some Y)) in let t2 := fst (initialize cl s (Some X2) (Some Y)) in
  snd (initialize cl s (Some X2) (Some Y)) = snd (initialize cl s (Some X) (Some Y)) /\
  forall Z Z2, moved Q d Z Z2 -> nc Z = nc X -> snd (transform cl t2 Z2) = snd (transform cl t Z) /\ snd (predict cl t2 Z2) = snd (predict cl t Z).
Lemma kpls_coordinate_free {KS} lstsq rnd (k0 : KS) kapply : congruence_kernel kapply -> coordinate_free (kernel_pls lstsq rnd k0 kapply).
Proof.
  intros HK s X Y Q X2 d Hpp PX PY WX WY NR NX NY RQ CQ HQ HX. set (cl := kernel_pls lstsq rnd k0 kapply). pose proof HX as (WX2 & R2 & C2 & HE).
  assert (PX2 : preparable (p_preprocessing s) X2) by (destruct Hpp as [-> | [E _]]; [exact I|rewrite E in *; cbn [preparable] in *; lia]).
  destruct (init_any cl s Y WY NY PY) as (mean & std & tr & H). destruct (H X WX NX PX) as (tp & E). destruct (H X2 WX2 ltac:(congruence) PX2) as (tp2 & E2). clear H. cbv zeta. rewrite E, E2. clear E E2.
  destruct (check_data cl Y) as [m|]; [split; [reflexivity|]; intros; split; reflexivity|]. set (pp := p_preprocessing s) in *. set (Xp := mk (nr X) (nc X) (prepared pp X)). set (Xp2 := mk (nr X2) (nc X2) (prepared pp X2)).
  assert (HP : moved Q d Xp Xp2).
  { split; [apply mk_wf|]. split; [exact R2|]. split; [exact C2|]. intros i j Hi Hj. change (nr Xp) with (nr X) in Hi. change (nc Xp) with (nc X). unfold Xp2. rewrite entry_mk by lia. rewrite (Rsum_ext (nc X) _ (fun l => prepared pp X i l * entry Q l j)) by (intros; unfold Xp; now rewrite entry_mk).
    destruct Hpp as [-> | [-> Hd]].
    - cbn [prepared]. now apply HE.
    - rewrite Hd, Rplus_0_r, Rsum_sumn. apply (prepared_rotated PP_CENTER X Q X2); [now right| |assumption|assumption]. split; [exact WX2|]. split; [exact R2|]. split; [exact C2|]. intros i' j' Hi' Hj'. rewrite HE by assumption. rewrite Hd. ring. }
  pose proof (train_moved lstsq rnd kapply HK Q d HQ (p_num_components s) (c_reset cl (p_own s)) Xp Xp2 (mk (nr Y) (nc Y) (prepared pp Y)) RQ CQ HP NR eq_refl) as (T1 & T2 & T3). cbv zeta in T1, T2, T3. change (c_train cl) with (kpls_train lstsq rnd kapply).
  destruct (kpls_train lstsq rnd kapply (p_num_components s) (c_reset cl (p_own s)) Xp _) as [o r]. destruct (kpls_train lstsq rnd kapply (p_num_components s) (c_reset cl (p_own s)) Xp2 _) as [o2 r2]. cbn [fst snd] in *. subst r2. split; [reflexivity|]. intros Z Z2 HZ CZ.
  unfold transform, predict, do_predict. cbn [p_initialised p_num_components p_own p_trans_response p_class_mean p_class_std_dev]. destruct r as [[m|]|e]; cbn [negb]; [split; reflexivity| |split; reflexivity].
  destruct (answers_moved kapply HK Q d HQ Xp Xp2 o o2 Z Z2 RQ CQ HP NR (T2 eq_refl) HZ CZ) as (A1 & A2). cbn [cl kernel_pls c_predict c_transform].
  destruct (kpls_transform kapply o2 Z2), (kpls_transform kapply o Z), (kpls_predict kapply o2 Z2), (kpls_predict kapply o Z). cbn [snd] in *. subst. split; reflexivity.
Qed.
Theorem C110_kernel_pls lstsq rnd npow nexp k0 g0 :
  coordinate_free (kernel_pls lstsq rnd tt (fun ks X Y => (ks, linear_apply_matrix X Y))) /\
  coordinate_free (kernel_pls lstsq rnd k0 (poly_apply_matrix (T:=R) npow)) /\
  coordinate_free (kernel_pls lstsq rnd g0 (rbf_at (T:=R) nexp)).
Proof. split; [|split]; apply kpls_coordinate_free; [apply linear_congruence|apply poly_congruence|apply rbf_congruence]. Qed.
Print Assumptions C110_kernel_pls.

(** The training data of C72 turned by the rotation with cosine 3/5 and moved by (1, 2): training
    works, and the predictions for turned and moved rows are those for the original rows. *)
Definition turn : mat R := Mat 2 2 [[3/5; 4/5]; [-4/5; 3/5]].
Example C110_ex : let X2 := mk 3 2 (fun i j => Rsum 2 (fun l => entry kX i l * entry turn l j) + (INR j + 1)) in exists s s2 V,
  initialize kpl k_start (Some kX) (Some kY) = (s, Ok None) /\ initialize kpl k_start (Some X2) (Some kY) = (s2, Ok None) /\ snd (predict kpl s kX) = Ok V /\ snd (predict kpl s2 X2) = Ok V.
Proof.
  intros X2. destruct k_run as (s & s' & Ei & _ & H). destruct (H kX) as (V & HV & _); [apply kX_wf|reflexivity|discriminate|].
  assert (HM : moved turn (fun j => INR j + 1) kX X2). { split; [apply mk_wf|]. split; [reflexivity|]. split; [reflexivity|]. intros i j Hi Hj. unfold X2. now rewrite entry_mk. }
  destruct (kpls_coordinate_free no_ls krnd tt lin linear_congruence k_start kX kY turn X2 (fun j => INR j + 1)) as (E1 & E2).
  - now left.
  - exact I.
  - exact I.
  - apply kX_wf.
  - apply kX_wf.
  - discriminate.
  - discriminate.
  - discriminate.
  - reflexivity.
  - reflexivity.
  - intros l m Hl Hm. change (nr turn) with 2%nat in *. change (nc turn) with 2%nat. destruct l as [|[|l]], m as [|[|m]]; try lia; unfold Rsum; cbn; field.
  - exact HM.
  - change (initialize (kernel_pls no_ls krnd tt lin)) with (initialize kpl) in E1, E2. rewrite Ei in E1, E2. cbn [fst snd] in E1, E2. destruct (initialize kpl k_start (Some X2) (Some kY)) as [s2 r] eqn:E. cbn [fst snd] in E1, E2. subst r. exists s, s2, V. split; [exact Ei|]. split; [reflexivity|]. split; [exact HV|]. destruct (E2 kX X2 HM eq_refl) as (_ & Ep). now rewrite <- HV.
Qed.
