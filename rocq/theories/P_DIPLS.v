(** C80-C83: what DIPLS computes, when it equals PLS1, its semi-supervised training and its transform. *)
From Coq Require Import List ZArith Lia Bool Arith Reals Lra FunctionalExtensionality.
From Verif Require Import Base Num Mat M_Matrix M_Factory M_Helper M_Loop M_Utils M_Linalg M_Transform M_PLSBase M_PLS M_PLS2
  S_Matrix L_Base L_Mat L_Matrix L_MatR L_Linalg L_Alg L_Transform L_Deflate P_Matrix P_Linalg P_Helper P_PLSPrep P_PLS1 L_Krylov L_Public P_CCAFilter P_NIPALS2 P_KernelPLS P_VCPLS L_DIPLS L_DIPLS2.
Import ListNotations.
Local Open Scope R_scope.

(** The rows of A above the rows of B *)
Definition stack (A B : mat R) : mat R := mk (nr A + nr B) (nc A) (fun i j => if (i <? nr A)%nat then entry A i j else entry B (i - nr A) j).
Lemma stack_run A B : wf A -> wf B -> nc A = nc B -> concat_along_rows A B = Ok (stack A B).
Proof. intros HA HB Hc. destruct (concat_rows_ok A B HA HB Hc) as (m & E & W & M1 & M2 & Hm). rewrite E. f_equal. unfold stack. rewrite (wf_mk m W), M1, M2. apply mk_ext. intros. now apply Hm. Qed.
Lemma stack_inv A B M : wf A -> wf B -> concat_along_rows A B = Ok M -> nc A = nc B /\ M = stack A B.
Proof.
  intros HA HB E. destruct (Nat.eq_dec (nc A) (nc B)) as [Hc|Hc]; [|rewrite concat_rows_err in E by assumption; discriminate].
  split; [exact Hc|]. rewrite (stack_run A B HA HB Hc) in E. congruence.
Qed.
Lemma stack_top A B : wf A -> get_rows (stack A B) (STuple 0 (zn (nr A))) = Ok A.
Proof.
  intros HA. change 0%Z with (Z.of_nat 0). unfold zn. rewrite get_rows_range by (cbn; lia). f_equal. rewrite (wf_mk A HA) at 3. rewrite Nat.sub_0_r. apply mk_ext. intros i j Hi Hj. unfold stack. rewrite entry_mk by (cbn in *; lia). cbn [Nat.add]. now rewrite (proj2 (Nat.ltb_lt i (nr A)) Hi).
Qed.
Lemma stack_bottom A B : wf B -> nc A = nc B -> get_rows (stack A B) (STuple (zn (nr A)) (zn (nr (stack A B)))) = Ok B.
Proof.
  intros HB Hc. unfold zn. rewrite get_rows_range by (cbn; lia). f_equal. rewrite (wf_mk B HB) at 3. change (nr (stack A B)) with (nr A + nr B)%nat. change (nc (stack A B)) with (nc A). replace (nr A + nr B - nr A)%nat with (nr B) by lia. rewrite Hc. apply mk_ext. intros i j Hi Hj. unfold stack. rewrite entry_mk by lia. destruct (Nat.ltb_spec (nr A + i) (nr A)); [lia|]. f_equal. lia.
Qed.

(** What a successful training leaves behind: X the labelled rows, Xs the source rows, Xt the target rows, with
    zs - 1 and zt - 1 the divisors of the two covariance matrices; predict subtracts the column means of Cm. *)
Definition dipls_result lstsq (s : pls_st (dipls_st (T:=R)) R) (a : nat) (zs zt : Z) (lambda : R) (X Xs Xt Y Cm : mat R) : Prop :=
  let p := nc X in
  exists m b, di_model (p_own s) = Some m /\
    dipls_fit (nr X) (nr Xs) (nr Xt) p a zs zt lambda (centred X) (centred Xs) (centred Xt) (fun i => centred Y i 0) m b /\
    (forall Z, nc Z = p -> snd (predict (dipls lstsq) s Z) = Ok (mk (nr Z) 1 (fun i _ => Rsum p (fun j => (entry Z i j - Rmean (nr Cm) (fun k => entry Cm k j)) * b j) + Rmean (nr Y) (fun k => entry Y k 0%nat)))) /\
    (forall Z, nc Z = p -> snd (transform (dipls lstsq) s Z) = Ok (mk (nr Z) a (fun i k => Rsum p (fun j => (entry Z i j - Rmean (nr X) (fun l => entry X l j)) * entry (dm_W m) j k)))).

Lemma train_needs lstsq a (o : dipls_st (T:=R)) PX Y o' : dipls_train lstsq a o PX Y = (o', Ok None) -> (di_ns o <> 0 /\ di_ns o <> 1 /\ di_nt o <> 0 /\ di_nt o <> 1)%Z.
Proof.
  unfold dipls_train, zn. rewrite eye_eyeR. intros E.
  destruct (Z.eqb_spec (di_ns o) 0); [discriminate|]. destruct (Z.eqb_spec (di_nt o) 0); [discriminate|].
  destruct (Z.eqb_spec (di_ns o) 1); [discriminate|]. destruct (Z.eqb_spec (di_nt o) 1); [discriminate|]. repeat split; assumption.
Qed.
Lemma single_none_conv {A Key : Type} (cl : pls_class A Key R) (s0 s : pls_st A R) (X Y : mat R) :
  c_arity cl = Single -> p_preprocessing s0 = PP_NONE -> initialize cl s0 (Some X) (Some Y) = (s, Ok None) ->
  nc Y = 1%nat /\ exists own, c_train cl (p_num_components s0) (c_reset cl (p_own s0)) X Y = (own, Ok None).
Proof.
  intros Ha Hpp E. assert (HY : nc Y = 1%nat).
  { unfold initialize, check_data in E. rewrite Ha in E. destruct (Nat.eqb_spec (nc Y) 1) as [H|H]; [exact H|]. discriminate. }
  split; [exact HY|]. destruct (c_train cl (p_num_components s0) (c_reset cl (p_own s0)) X Y) as (own, r) eqn:Et.
  destruct (single_none cl s0 X Y own r Ha Hpp HY Et) as (Q & _). rewrite E in Q. cbn [snd] in Q. exists own. now rewrite Q.
Qed.
Section Public.
Variable lstsq : mat R -> mat R -> res (mat R).
Lemma center_minus (D Z : mat R) : nc Z = nc D -> t_do center (center_conf D) Z = Ok (mk (nr Z) (nc Z) (fun i j => entry Z i j - Rmean (nr D) (fun k => entry D k j))).
Proof. intros Hc. rewrite center_do, Hc, Nat.eqb_refl. f_equal. rewrite <- Hc. apply mk_ext. intros i j Hi Hj. cbn [nsub NumR]. now rewrite Rmean_np. Qed.
Lemma public_run (s0 s : pls_st (dipls_st (T:=R)) R) (a : nat) (PX Y X Xs Xt Cm : mat R) :
  fresh_centers (p_own s0) -> p_preprocessing s0 = PP_NONE -> p_num_components s0 = Z.of_nat a ->
  get_rows PX (STuple 0 (di_ns (p_own s0))) = Ok Xs -> get_rows PX (STuple (di_ns (p_own s0)) (zn (nr PX))) = Ok Xt -> labelled (p_own s0) PX Xs X ->
  nc X = nc PX -> nc Xs = nc PX -> nc Xt = nc PX -> nc PX <> 0%nat -> nr X <> 0%nat -> nr Xs <> 0%nat -> nr Xt <> 0%nat ->
  Cm = match di_strategy (p_own s0) with UNSUPERVISED => Xt | _ => X end ->
  initialize (dipls lstsq) s0 (Some PX) (Some Y) = (s, Ok None) ->
  a <> 0%nat /\ nr X = nr Y /\ dipls_result lstsq s a (di_ns (p_own s0)) (di_nt (p_own s0)) (di_lambda (p_own s0)) X Xs Xt Y Cm.
Proof.
  intros HF Hpp Ha Es Et El C1 C2 C3 Hp Hn Hns Hnt HCm Ei.
  destruct (single_none_conv (dipls lstsq) s0 s PX Y eq_refl Hpp Ei) as (HY & own & Etr). rewrite Ha in Etr.
  set (o := c_reset (dipls lstsq) (p_own s0)) in *. change (c_train (dipls lstsq)) with (dipls_train lstsq) in Etr. pose proof (train_needs _ _ _ _ _ _ Etr) as HZ.
  assert (Ha0 : a <> 0%nat).
  { intros ->. rewrite (train_eq lstsq 0 o PX Y X Xs Xt) in Etr by assumption. cbn in Etr. discriminate. }
  assert (Hr : nr X = nr Y).
  { destruct (Nat.eq_dec (nr X) (nr Y)) as [H|H]; [exact H|]. pose proof (train_mismatch lstsq a o PX Y X Xs Xt HF HZ HY Es Et El C1 C2 C3 H Ha0) as Q. rewrite Etr in Q. discriminate. }
  destruct (train_ok lstsq a o PX Y X Xs Xt HF HZ HY Es Et El C1 C2 C3 Hp Hn Hns Hnt own Hr Etr) as (_ & m & b & -> & Hfit).
  split; [exact Ha0|]. split; [exact Hr|]. rewrite <- Ha in Etr.
  destruct (single_none (dipls lstsq) s0 PX Y _ _ eq_refl Hpp HY Etr) as (_ & Hs). destruct (Hs eq_refl) as (s' & Ei' & Eo & HTr & HPr). rewrite Ei in Ei'. injection Ei' as <-.
  exists m, b. rewrite Eo. split; [reflexivity|]. rewrite C1. split; [exact Hfit|].
  pose proof Hfit as (T & Ts & Tt & P & Ps & Pt & W & (_ & _ & _ & _ & _ & _ & MW & Mb) & _).
  destruct MW as (W1 & W2 & W3 & W4). destruct Mb as (B1 & B2 & B3 & B4).
  split; intros Z HZc.
  - rewrite HPr. cbn [c_predict dipls]. unfold dipls_predict, trained. cbn [di_strategy di_X_center di_X_t_center di_b_0 di_model need].
    assert (Q : forall D : mat R, nc D = nc PX -> (do X <- snd (t_transform center (center_conf D) Z); do m0 <- Ok m; do g <- mul X (dm_b m0); Ok (add_scalar g (Rmean (nr Y) (fun i => entry Y i 0%nat)))) =
      Ok (mk (nr Z) 1 (fun i _ => Rsum (nc PX) (fun j => (entry Z i j - Rmean (nr D) (fun k => entry D k j)) * b j) + Rmean (nr Y) (fun k => entry Y k 0%nat)))).
    { intros D HD. rewrite t_transform_center_conf. cbn [snd]. rewrite center_minus by congruence. rewrite !bind_Ok. rewrite (wf_mk (dm_b m) B1), B2, B3, HZc, mul_mk, bind_Ok, add_scalar_mk. f_equal. apply mk_ext. intros i j Hi Hj. cbn [nadd nmul NumR]. rewrite Rsum_sumn. f_equal. apply sumn_ext. intros k Hk. rewrite B4 by lia. reflexivity. }
    change (di_strategy o) with (di_strategy (p_own s0)). subst Cm. destruct (di_strategy (p_own s0)); rewrite t_transform_center_conf; cbn [snd fst]; apply Q; assumption.
  - rewrite HTr. cbn [c_transform dipls]. unfold dipls_transform, trained. cbn [di_X_center di_model need]. rewrite t_transform_center_conf. cbn [snd]. rewrite center_minus by congruence. rewrite !bind_Ok.
    rewrite (wf_mk (dm_W m) W1) at 1. rewrite W2, W3, HZc, mul_mk. f_equal. apply mk_ext. intros i j Hi Hj. rewrite Rsum_sumn. reflexivity.
Qed.
Definition with_sizes (s0 : pls_st (dipls_st (T:=R)) R) (Xs Xt : mat R) (strat : strategy) : pls_st (dipls_st (T:=R)) R :=
  set_own s0 (Dipls strat (zn (nr Xs)) (zn (nr Xt)) (di_lambda (p_own s0)) (di_X_center (p_own s0)) (di_X_s_center (p_own s0)) (di_X_t_center (p_own s0)) (di_b_0 (p_own s0)) (di_model (p_own s0))).
Lemma unsupervised_eq s0 Xs Xt Ys : wf Xs -> wf Xt -> nc Xs = nc Xt ->
  dipls_initialize_unsupervised lstsq s0 Xs Xt Ys = initialize (dipls lstsq) (with_sizes s0 Xs Xt UNSUPERVISED) (Some (stack Xs Xt)) (Some Ys).
Proof. intros. unfold dipls_initialize_unsupervised. rewrite stack_run by assumption. reflexivity. Qed.
Lemma supervised_eq s0 Xs Xt Ys Yt : wf Xs -> wf Xt -> wf Ys -> wf Yt -> nc Xs = nc Xt -> nc Ys = nc Yt ->
  dipls_initialize_supervised lstsq s0 Xs Xt Ys Yt = initialize (dipls lstsq) (with_sizes s0 Xs Xt SUPERVISED) (Some (stack Xs Xt)) (Some (stack Ys Yt)).
Proof. intros. unfold dipls_initialize_supervised. rewrite !stack_run by assumption. reflexivity. Qed.
Lemma stack_wf A B : wf (stack A B).
Proof. apply mk_wf. Qed.
Lemma semisupervised_eq s0 Xs Xt Xu Ys Yt : wf Xs -> wf Xt -> wf Xu -> wf Ys -> wf Yt -> nc Xs = nc Xt -> nc Xs = nc Xu -> nc Ys = nc Yt ->
  dipls_initialize_semisupervised lstsq s0 Xs Xt Xu Ys Yt = initialize (dipls lstsq) (with_sizes s0 Xs Xt SEMISUPERVISED) (Some (stack (stack Xs Xt) Xu)) (Some (stack Ys Yt)).
Proof. intros. unfold dipls_initialize_semisupervised. rewrite (stack_run Xs Xt), bind_Ok, (stack_run (stack Xs Xt) Xu), bind_Ok, (stack_run Ys Yt), bind_Ok; auto. apply stack_wf. Qed.

(** * C80 *)
Theorem C80_unsupervised (s0 s : pls_st (dipls_st (T:=R)) R) (a : nat) (Xs Xt Ys : mat R) :
  fresh_centers (p_own s0) -> p_preprocessing s0 = PP_NONE -> p_num_components s0 = Z.of_nat a -> wf Xs -> wf Xt -> nc Xs <> 0%nat ->
  dipls_initialize_unsupervised lstsq s0 Xs Xt Ys = (s, Ok None) ->
  nr Ys = nr Xs /\ a <> 0%nat /\ dipls_result lstsq s a (zn (nr Xs)) (zn (nr Xt)) (di_lambda (p_own s0)) Xs Xs Xt Ys Xt.
Proof.
  intros HF Hpp Ha WXs WXt Hp E.
  assert (Hc : nc Xs = nc Xt).
  { unfold dipls_initialize_unsupervised in E. destruct (Nat.eq_dec (nc Xs) (nc Xt)) as [H|H]; [exact H|]. rewrite concat_rows_err in E by assumption. discriminate. }
  rewrite unsupervised_eq in E by assumption. destruct (single_none_conv (dipls lstsq) (with_sizes s0 Xs Xt UNSUPERVISED) s _ _ eq_refl Hpp E) as (_ & own & Etr). apply train_needs in Etr. cbn in Etr. unfold zn in Etr.
  destruct (public_run (with_sizes s0 Xs Xt UNSUPERVISED) s a (stack Xs Xt) Ys Xs Xs Xt Xt) as (H1 & H2 & H3); try assumption; try reflexivity; try (cbn; lia).
  - now apply stack_top.
  - now apply stack_bottom.
  - now split; [|split].
Qed.
Theorem C80_supervised (s0 s : pls_st (dipls_st (T:=R)) R) (a : nat) (Xs Xt Ys Yt : mat R) :
  fresh_centers (p_own s0) -> p_preprocessing s0 = PP_NONE -> p_num_components s0 = Z.of_nat a -> wf Xs -> wf Xt -> wf Ys -> wf Yt -> nc Xs <> 0%nat ->
  dipls_initialize_supervised lstsq s0 Xs Xt Ys Yt = (s, Ok None) ->
  (nr Ys + nr Yt = nr Xs + nr Xt)%nat /\ a <> 0%nat /\
  dipls_result lstsq s a (zn (nr Xs)) (zn (nr Xt)) (di_lambda (p_own s0)) (stack Xs Xt) Xs Xt (stack Ys Yt) (stack Xs Xt).
Proof.
  intros HF Hpp Ha WXs WXt WYs WYt Hp E.
  assert (Hc : nc Xs = nc Xt /\ nc Ys = nc Yt).
  { unfold dipls_initialize_supervised in E. destruct (Nat.eq_dec (nc Xs) (nc Xt)) as [H|H]; [|rewrite concat_rows_err in E by assumption; discriminate].
    rewrite stack_run, bind_Ok in E by assumption. destruct (Nat.eq_dec (nc Ys) (nc Yt)) as [H'|H']; [now split|rewrite concat_rows_err in E by assumption; discriminate]. }
  destruct Hc as (Hc & Hcy). rewrite supervised_eq in E by assumption. destruct (single_none_conv (dipls lstsq) (with_sizes s0 Xs Xt SUPERVISED) s _ _ eq_refl Hpp E) as (_ & own & Etr). apply train_needs in Etr. cbn in Etr. unfold zn in Etr.
  destruct (public_run (with_sizes s0 Xs Xt SUPERVISED) s a (stack Xs Xt) (stack Ys Yt) (stack Xs Xt) Xs Xt (stack Xs Xt)) as (H1 & H2 & H3); try assumption; try reflexivity; try (cbn; lia).
  - now apply stack_top.
  - now apply stack_bottom.
  - cbn in H2. now split; [|split].
Qed.
Lemma stack_assoc A B C : nc A = nc B -> stack (stack A B) C = stack A (stack B C).
Proof.
  intros Hc. unfold stack at 1 3. cbn [nr nc stack mk]. rewrite Nat.add_assoc. apply mk_ext. intros i j Hi Hj. unfold stack. cbn [nr nc stack mk] in *.
  destruct (Nat.ltb_spec i (nr A + nr B)).
  - rewrite entry_mk by lia. destruct (Nat.ltb_spec i (nr A)); [reflexivity|]. rewrite entry_mk by lia. destruct (Nat.ltb_spec (i - nr A) (nr B)); [reflexivity|lia].
  - destruct (Nat.ltb_spec i (nr A)); [lia|]. rewrite entry_mk by lia. destruct (Nat.ltb_spec (i - nr A) (nr B)); [lia|]. f_equal. lia.
Qed.
(** Semi-supervised: the unlabelled target rows count for the covariance of the target, but its divisor stays nt - 1.
    The method can only be called with as many labelled target rows as source rows (see C82). *)
Theorem C80_semisupervised (s0 s : pls_st (dipls_st (T:=R)) R) (a : nat) (Xs Xt Xu Ys Yt : mat R) :
  fresh_centers (p_own s0) -> p_preprocessing s0 = PP_NONE -> p_num_components s0 = Z.of_nat a -> wf Xs -> wf Xt -> wf Xu -> wf Ys -> wf Yt -> nc Xs <> 0%nat ->
  nr Xt = nr Xs -> dipls_initialize_semisupervised lstsq s0 Xs Xt Xu Ys Yt = (s, Ok None) ->
  (nr Ys + nr Yt = nr Xs + nr Xt)%nat /\ a <> 0%nat /\
  dipls_result lstsq s a (zn (nr Xs)) (zn (nr Xt)) (di_lambda (p_own s0)) (stack Xs Xt) Xs (stack Xt Xu) (stack Ys Yt) (stack Xs Xt).
Proof.
  intros HF Hpp Ha WXs WXt WXu WYs WYt Hp Hst E.
  assert (Hc : nc Xs = nc Xt /\ nc Xs = nc Xu /\ nc Ys = nc Yt).
  { unfold dipls_initialize_semisupervised in E. destruct (Nat.eq_dec (nc Xs) (nc Xt)) as [H|H]; [|rewrite concat_rows_err in E by assumption; discriminate].
    rewrite stack_run, bind_Ok in E by assumption. destruct (Nat.eq_dec (nc Xs) (nc Xu)) as [H'|H']; [|rewrite concat_rows_err in E by (try assumption; apply stack_wf); discriminate].
    rewrite (stack_run (stack Xs Xt)), bind_Ok in E by (try assumption; apply stack_wf). destruct (Nat.eq_dec (nc Ys) (nc Yt)) as [H''|H'']; [now split|rewrite concat_rows_err in E by assumption; discriminate]. }
  destruct Hc as (Hc & Hcu & Hcy). rewrite semisupervised_eq in E by assumption. destruct (single_none_conv (dipls lstsq) (with_sizes s0 Xs Xt SEMISUPERVISED) s _ _ eq_refl Hpp E) as (_ & own & Etr). apply train_needs in Etr. cbn in Etr. unfold zn in Etr.
  destruct (public_run (with_sizes s0 Xs Xt SEMISUPERVISED) s a (stack (stack Xs Xt) Xu) (stack Ys Yt) (stack Xs Xt) Xs (stack Xt Xu) (stack Xs Xt)) as (H1 & H2 & H3); try assumption; try reflexivity; try (cbn; lia).
  - rewrite stack_assoc by assumption. now apply stack_top.
  - rewrite stack_assoc by assumption. apply stack_bottom; [apply stack_wf|exact Hc].
  - unfold labelled. cbn [p_own with_sizes set_own di_strategy di_ns]. replace (2 * zn (nr Xs))%Z with (zn (nr (stack Xs Xt))) by (unfold zn; cbn [stack nr mk]; lia). apply stack_top, stack_wf.
  - cbn in H2. now split; [|split].
Qed.


(** * C81 *)
(** Unbiased sample covariance of two columns *)
Definition sample_cov (X : mat R) (i j : nat) : R := Rsum (nr X) (fun k => centred X k i * centred X k j) / (INR (nr X) - 1).
(** The two predict alike; PLS1's predict does not centre, hence the centred data on its side. *)
Definition predicts_like_pls1 lstsq' (s : pls_st (dipls_st (T:=R)) R) (s' : pls_st (pls1_st R) R) (Cm : mat R) : Prop :=
  forall Z, nc Z = nc Cm -> nr Z <> 0%nat -> exists V, snd (predict (dipls lstsq) s Z) = Ok V /\
    snd (predict (pls1 lstsq') s' (mk (nr Z) (nc Z) (fun i j => entry Z i j - Rmean (nr Cm) (fun k => entry Cm k j)))) = Ok V.
Lemma invariant_public lstsq' (s0 s : pls_st (dipls_st (T:=R)) R) (s1 : pls_st (pls1_st R) R) (a : nat) (PX Y X Xs Xt Cm : mat R) :
  fresh_centers (p_own s0) -> p_preprocessing s0 = PP_NONE -> p_num_components s0 = Z.of_nat a ->
  p_preprocessing s1 = PP_CENTER -> p_num_components s1 = Z.of_nat a -> wf X -> wf Y ->
  get_rows PX (STuple 0 (di_ns (p_own s0))) = Ok Xs -> get_rows PX (STuple (di_ns (p_own s0)) (zn (nr PX))) = Ok Xt -> labelled (p_own s0) PX Xs X ->
  nc X = nc PX -> nc Xs = nc PX -> nc Xt = nc PX -> nc PX <> 0%nat -> (2 <= nr X)%nat -> nr Xs <> 0%nat -> nr Xt <> 0%nat ->
  Cm = match di_strategy (p_own s0) with UNSUPERVISED => Xt | _ => X end ->
  (forall i j, (i < nc PX)%nat -> (j < nc PX)%nat -> gram (nr Xs) (centred Xs) i j / (IZR (di_ns (p_own s0)) - 1) = gram (nr Xt) (centred Xt) i j / (IZR (di_nt (p_own s0)) - 1)) ->
  initialize (dipls lstsq) s0 (Some PX) (Some Y) = (s, Ok None) ->
  exists s', initialize (pls1 lstsq') s1 (Some X) (Some Y) = (s', Ok None) /\ predicts_like_pls1 lstsq' s s' Cm.
Proof.
  intros HF Hpp Ha Hpp1 Ha1 WX WY Es Et El C1 C2 C3 Hp Hn Hns Hnt HCm Hcov Ei.
  destruct (public_run s0 s a PX Y X Xs Xt Cm) as (Ha0 & Hr & (m & b & Em & Hfit & Hpr & _)); try assumption; [lia|].
  destruct (single_none_conv (dipls lstsq) s0 s PX Y eq_refl Hpp Ei) as (HY & own & Etr). rewrite Ha in Etr. pose proof Etr as Etr'. rewrite <- Ha in Etr'.
  destruct (single_none (dipls lstsq) s0 PX Y _ _ eq_refl Hpp HY Etr') as (_ & Hs). destruct (Hs eq_refl) as (s'' & Ei' & Eo & _). rewrite Ei in Ei'. injection Ei' as <-.
  set (o := c_reset (dipls lstsq) (p_own s0)) in *. change (c_train (dipls lstsq)) with (dipls_train lstsq) in Etr. pose proof (train_needs _ _ _ _ _ _ Etr) as HZ.
  destruct (train_cols lstsq a o PX Y X Xs Xt HF HZ HY Es Et El C1 C2 C3 Hp ltac:(lia) Hns Hnt own Hr Etr) as (_ & C & Iv & -> & HIv & HC).
  rewrite Eo in Em. cbn [trained di_model] in Em. injection Em as <-.
  pose proof Hfit as (T & Ts & Tt & P & Ps & Pt & W & (_ & _ & _ & _ & _ & _ & _ & (_ & _ & _ & B4)) & _). cbn [fitted_model dm_b] in B4. rewrite C1 in B4.
  assert (Eb : forall j, (j < nc PX)%nat -> b j = coef a C Iv j) by (intros j Hj; rewrite <- (B4 j 0%nat Hj ltac:(lia)), entry_mk by lia; reflexivity).
  destruct (pls1_coef lstsq' (nr X) (nr Xs) (nr Xt) (nc PX) a (di_ns o) (di_nt o) (di_lambda o) (centred X) (centred Xs) (centred Xt) (fun i => centred Y i 0%nat) C) with (own := c_reset (pls1 lstsq') (p_own s1)) as (own' & Etr1 & Hnew); try assumption; try tauto; [lia|].
  destruct (single_training (pls1 lstsq') s1 X Y own' PP_CENTER) as (s' & Ei1 & _ & _ & Epr'); auto; try (cbn [preparable]; lia); try congruence.
  { rewrite Ha1, C1. exact Etr1. }
  exists s'. split; [exact Ei1|]. intros Z HZc RZ. assert (HCc : nc Cm = nc PX) by (subst Cm; destruct (di_strategy (p_own s0)); assumption).
  eexists. split; [apply Hpr; congruence|].
  specialize (Hnew Iv HIv (nr Z) (fun i j => entry Z i j - Rmean (nr Cm) (fun k => entry Cm k j)) RZ). rewrite HZc, HCc. rewrite Ha1 in Epr'.
  rewrite (Epr' _ _ Hnew (mk_wf _ _ _) eq_refl). apply (f_equal Ok). apply mk_ext. intros i j Hi Hj. rewrite entry_mk by (assumption || lia). cbn [own_sd back_mean]. unfold own_mean. rewrite Rmult_1_r. f_equal.
  rewrite C1. apply Rsum_ext. intros k Hk. now rewrite Eb.
Qed.
Lemma sample_gram (X : mat R) i j : sample_cov X i j = gram (nr X) (centred X) i j / (IZR (zn (nr X)) - 1).
Proof. unfold sample_cov, gram, zn. now rewrite <- INR_IZR_INZ. Qed.
Section Equal.
Variables (s0 : pls_st (dipls_st (T:=R)) R) (a : nat) (Xs Xt Ys : mat R).
Hypotheses (HF : fresh_centers (p_own s0)) (Hpp : p_preprocessing s0 = PP_NONE) (Ha : p_num_components s0 = Z.of_nat a) (Ha0 : a <> 0%nat).
Hypotheses (WXs : wf Xs) (WXt : wf Xt) (Hns : (2 <= nr Xs)%nat) (Hnt : (2 <= nr Xt)%nat) (Hc : nc Xs = nc Xt) (Hp : nc Xs <> 0%nat) (Hr : nr Ys = nr Xs) (HY : nc Ys = 1%nat).
Hypothesis Hcov : forall i j, (i < nc Xs)%nat -> (j < nc Xs)%nat -> sample_cov Xs i j = sample_cov Xt i j.
Hypothesis Hnb : no_breakdown (nr Xs) (nc Xs) (centred Xs) (fun i => centred Ys i 0%nat) a.
Lemma equal_trains : exists s C Iv, dipls_initialize_unsupervised lstsq s0 Xs Xt Ys = (s, Ok None) /\
  di_model (p_own s) = Some (fitted_model (nr Xs) (nr Xs) (nr Xt) (nc Xs) a C Iv) /\
  forall l, (l < a)%nat -> component (nr Xs) (nr Xs) (nr Xt) (nc Xs) (zn (nr Xs)) (zn (nr Xt)) (di_lambda (p_own s0)) (centred Xs) (centred Xs) (centred Xt) (fun i => centred Ys i 0%nat) C l.
Proof.
  rewrite unsupervised_eq by assumption. set (s1 := with_sizes s0 Xs Xt UNSUPERVISED). set (o := c_reset (dipls lstsq) (p_own s1)).
  set (C := built (nr Xs) (nr Xt) (nc Xs) (centred Xs) (centred Xt) (fun i => centred Ys i 0%nat)).
  assert (HC : forall l, (l < a)%nat -> component (nr Xs) (nr Xs) (nr Xt) (nc Xs) (zn (nr Xs)) (zn (nr Xt)) (di_lambda (p_own s0)) (centred Xs) (centred Xs) (centred Xt) (fun i => centred Ys i 0%nat) C l).
  { intros l Hl. apply (built_component (nr Xs) (nr Xt) (nc Xs) a); try assumption; try (unfold zn; lia). intros i j Hi Hj. rewrite <- !sample_gram. now apply Hcov. }
  destruct (train_fwd lstsq a o (stack Xs Xt) Ys Xs Xs Xt) with (C := C) as (Iv & HIv & Etr); try assumption; try reflexivity; try (cbn; unfold zn; lia).
  - now apply stack_top.
  - now apply stack_bottom.
  - rewrite <- Ha in Etr. destruct (single_none (dipls lstsq) s1 (stack Xs Xt) Ys _ _ eq_refl Hpp HY Etr) as (_ & Hs). destruct (Hs eq_refl) as (s & Ei & Eo & _).
    exists s, C, Iv. split; [exact Ei|]. split; [now rewrite Eo|exact HC].
Qed.
End Equal.
(** If source and target have the same covariance matrix (a constant shift between the domains, for instance), the penalty
    vanishes in every round, whatever lambda is: unsupervised DIPLS trains whenever PLS1 on the source data does not break
    down, and it predicts what PLS1 trained on the centred source data predicts from the rows minus the target means. *)
Theorem C81_unsupervised lstsq' (s0 : pls_st (dipls_st (T:=R)) R) (s1 : pls_st (pls1_st R) R) (a : nat) (Xs Xt Ys : mat R) :
  fresh_centers (p_own s0) -> p_preprocessing s0 = PP_NONE -> p_num_components s0 = Z.of_nat a -> a <> 0%nat ->
  p_preprocessing s1 = PP_CENTER -> p_num_components s1 = Z.of_nat a ->
  wf Xs -> wf Xt -> wf Ys -> (2 <= nr Xs)%nat -> (2 <= nr Xt)%nat -> nc Xs = nc Xt -> nc Xs <> 0%nat -> nr Ys = nr Xs -> nc Ys = 1%nat ->
  (forall i j, (i < nc Xs)%nat -> (j < nc Xs)%nat -> sample_cov Xs i j = sample_cov Xt i j) ->
  no_breakdown (nr Xs) (nc Xs) (centred Xs) (fun i => centred Ys i 0%nat) a ->
  exists s s', dipls_initialize_unsupervised lstsq s0 Xs Xt Ys = (s, Ok None) /\ initialize (pls1 lstsq') s1 (Some Xs) (Some Ys) = (s', Ok None) /\ predicts_like_pls1 lstsq' s s' Xt.
Proof.
  intros HF Hpp Ha Ha0 Hpp1 Ha1 WXs WXt WYs Hns Hnt Hc Hp Hr HY Hcov Hnb.
  destruct (equal_trains s0 a Xs Xt Ys) as (s & C & Iv & E & _); try assumption. exists s. pose proof E as E'. rewrite unsupervised_eq in E' by assumption.
  destruct (invariant_public lstsq' (with_sizes s0 Xs Xt UNSUPERVISED) s s1 a (stack Xs Xt) Ys Xs Xs Xt Xt) as (s' & E1 & H1); try assumption; try reflexivity; try (cbn; lia).
  - now apply stack_top.
  - now apply stack_bottom.
  - intros i j Hi Hj. cbn [with_sizes set_own p_own di_ns di_nt]. rewrite <- !sample_gram. now apply Hcov.
  - exists s'. now split; [|split].
Qed.
(** Supervised training uses the labelled rows of both domains: then the reference is PLS1 on all of them. *)
Theorem C81_supervised lstsq' (s0 s : pls_st (dipls_st (T:=R)) R) (s1 : pls_st (pls1_st R) R) (a : nat) (Xs Xt Ys Yt : mat R) :
  fresh_centers (p_own s0) -> p_preprocessing s0 = PP_NONE -> p_num_components s0 = Z.of_nat a ->
  p_preprocessing s1 = PP_CENTER -> p_num_components s1 = Z.of_nat a ->
  wf Xs -> wf Xt -> wf Ys -> wf Yt -> nc Xs <> 0%nat ->
  (forall i j, (i < nc Xs)%nat -> (j < nc Xs)%nat -> sample_cov Xs i j = sample_cov Xt i j) ->
  dipls_initialize_supervised lstsq s0 Xs Xt Ys Yt = (s, Ok None) ->
  exists s', initialize (pls1 lstsq') s1 (Some (stack Xs Xt)) (Some (stack Ys Yt)) = (s', Ok None) /\ predicts_like_pls1 lstsq' s s' (stack Xs Xt).
Proof.
  intros HF Hpp Ha Hpp1 Ha1 WXs WXt WYs WYt Hp Hcov E.
  assert (Hc : nc Xs = nc Xt /\ nc Ys = nc Yt).
  { unfold dipls_initialize_supervised in E. destruct (Nat.eq_dec (nc Xs) (nc Xt)) as [H|H]; [|rewrite concat_rows_err in E by assumption; discriminate].
    rewrite stack_run, bind_Ok in E by assumption. destruct (Nat.eq_dec (nc Ys) (nc Yt)) as [H'|H']; [now split|rewrite concat_rows_err in E by assumption; discriminate]. }
  destruct Hc as (Hc & Hcy). rewrite supervised_eq in E by assumption. destruct (single_none_conv (dipls lstsq) (with_sizes s0 Xs Xt SUPERVISED) s _ _ eq_refl Hpp E) as (_ & own & Etr). apply train_needs in Etr. cbn in Etr. unfold zn in Etr.
  destruct (invariant_public lstsq' (with_sizes s0 Xs Xt SUPERVISED) s s1 a (stack Xs Xt) (stack Ys Yt) (stack Xs Xt) Xs Xt (stack Xs Xt)) as (s' & E1 & H1); try assumption; try reflexivity; try (cbn; lia); try apply stack_wf.
  - now apply stack_top.
  - now apply stack_bottom.
  - intros i j Hi Hj. cbn [with_sizes set_own p_own di_ns di_nt]. rewrite <- !sample_gram. now apply Hcov.
  - exists s'. now split.
Qed.
(** A constant shift: what DIPLS predicts for shifted rows is what PLS1 predicts for the rows themselves. *)
Definition shifted (X : mat R) (d : nat -> R) : mat R := mk (nr X) (nc X) (fun i j => entry X i j + d j).
Lemma shift_mean X d j : nr X <> 0%nat -> (j < nc X)%nat -> Rmean (nr X) (fun k => entry (shifted X d) k j) = Rmean (nr X) (fun k => entry X k j) + d j.
Proof.
  intros Hn Hj. unfold Rmean. rewrite !Rsum_sumn. rewrite (sumn_ext (nr X) _ (fun k => entry X k j + d j)) by (intros; unfold shifted; now rewrite entry_mk). rewrite sumR_plus, sumR_const. field. now apply not_0_INR.
Qed.
Lemma shift_centred X d i j : (i < nr X)%nat -> (j < nc X)%nat -> centred (shifted X d) i j = centred X i j.
Proof. intros Hi Hj. unfold centred. change (nr (shifted X d)) with (nr X). rewrite shift_mean by lia. unfold shifted at 1. rewrite entry_mk by assumption. ring. Qed.
Theorem C81_shift lstsq' (s0 : pls_st (dipls_st (T:=R)) R) (s1 : pls_st (pls1_st R) R) (a : nat) (Xs Ys : mat R) (d : nat -> R) :
  fresh_centers (p_own s0) -> p_preprocessing s0 = PP_NONE -> p_num_components s0 = Z.of_nat a -> a <> 0%nat ->
  p_preprocessing s1 = PP_CENTER -> p_num_components s1 = Z.of_nat a ->
  wf Xs -> wf Ys -> (2 <= nr Xs)%nat -> nc Xs <> 0%nat -> nr Ys = nr Xs -> nc Ys = 1%nat ->
  no_breakdown (nr Xs) (nc Xs) (centred Xs) (fun i => centred Ys i 0%nat) a ->
  exists s s', dipls_initialize_unsupervised lstsq s0 Xs (shifted Xs d) Ys = (s, Ok None) /\ initialize (pls1 lstsq') s1 (Some Xs) (Some Ys) = (s', Ok None) /\
    forall Z, nc Z = nc Xs -> nr Z <> 0%nat -> exists V, snd (predict (dipls lstsq) s (shifted Z d)) = Ok V /\
      snd (predict (pls1 lstsq') s' (mk (nr Z) (nc Z) (fun i j => entry Z i j - Rmean (nr Xs) (fun k => entry Xs k j)))) = Ok V.
Proof.
  intros HF Hpp Ha Ha0 Hpp1 Ha1 WXs WYs Hns Hp Hr HY Hnb.
  destruct (C81_unsupervised lstsq' s0 s1 a Xs (shifted Xs d) Ys) as (s & s' & E & E' & H); try assumption; try apply mk_wf; try reflexivity.
  - intros i j Hi Hj. unfold sample_cov. change (nr (shifted Xs d)) with (nr Xs). f_equal. apply Rsum_ext. intros k Hk. now rewrite !shift_centred.
  - exists s, s'. split; [exact E|]. split; [exact E'|]. intros Z HZ RZ. destruct (H (shifted Z d) HZ RZ) as (V & E1 & E2). exists V. split; [exact E1|]. rewrite <- E2.
    match goal with |- snd (predict _ _ ?A) = snd (predict _ _ ?B) => replace B with A; [reflexivity|] end.
    change (nr (shifted Z d)) with (nr Z). change (nc (shifted Z d)) with (nc Z). apply mk_ext. intros i j Hi Hj. change (nr (shifted Xs d)) with (nr Xs). rewrite shift_mean by lia. unfold shifted. rewrite entry_mk by assumption. ring.
Qed.

(** * C82 *)
(** Semi-supervised training takes the first 2 ns rows for the labelled ones: with nt labelled target rows, nt <> ns, it raises. *)
Theorem C82_raises (s0 : pls_st (dipls_st (T:=R)) R) (a : nat) (Xs Xt Xu Ys Yt : mat R) :
  fresh_centers (p_own s0) -> p_preprocessing s0 = PP_NONE -> p_num_components s0 = Z.of_nat a -> a <> 0%nat ->
  wf Xs -> wf Xt -> wf Xu -> wf Ys -> wf Yt -> nc Xs <> 0%nat -> nc Xt = nc Xs -> nc Xu = nc Xs -> nc Ys = 1%nat -> nc Yt = 1%nat ->
  (2 <= nr Xs)%nat -> (2 <= nr Xt)%nat -> nr Ys = nr Xs -> nr Yt = nr Xt -> nr Xt <> nr Xs ->
  snd (dipls_initialize_semisupervised lstsq s0 Xs Xt Xu Ys Yt) = Err (if (nr Xs <=? nr Xt + nr Xu)%nat then ValueError else IndexError).
Proof.
  intros HF Hpp Ha Ha0 WXs WXt WXu WYs WYt Hp Hct Hcu Cs Ct Hns Hnt Rs Rt Hne. rewrite semisupervised_eq by (assumption || congruence).
  set (s1 := with_sizes s0 Xs Xt SEMISUPERVISED). set (o := c_reset (dipls lstsq) (p_own s1)). set (PX := stack (stack Xs Xt) Xu).
  assert (Es : get_rows PX (STuple 0 (di_ns o)) = Ok Xs) by (unfold PX; rewrite stack_assoc by congruence; now apply stack_top).
  assert (Et : get_rows PX (STuple (di_ns o) (zn (nr PX))) = Ok (stack Xt Xu)) by (unfold PX; rewrite stack_assoc by congruence; apply stack_bottom; [apply stack_wf|now symmetry]).
  destruct (Nat.leb_spec (nr Xs) (nr Xt + nr Xu)) as [L|L].
  - set (X := mk (2 * nr Xs) (nc Xs) (fun i j => entry PX (0 + i) j)).
    assert (El : get_rows PX (STuple 0 (2 * di_ns o)) = Ok X).
    { replace (2 * di_ns o)%Z with (Z.of_nat (2 * nr Xs)) by (cbn [o s1 with_sizes set_own p_own c_reset dipls di_ns]; unfold zn; lia). change 0%Z with (Z.of_nat 0). rewrite get_rows_range by (cbn; lia). rewrite Nat.sub_0_r. reflexivity. }
    pose proof (train_mismatch lstsq a o PX (stack Ys Yt) X Xs (stack Xt Xu)) as Q.
    assert (Q' : snd (dipls_train lstsq (Z.of_nat a) o PX (stack Ys Yt)) = Err ValueError) by (apply Q; try assumption; try reflexivity; try (cbn; unfold zn; lia)).
    rewrite <- Ha in Q'. destruct (dipls_train lstsq (p_num_components s0) o PX (stack Ys Yt)) as (own, r) eqn:Etr. cbn [snd] in Q'. subst r.
    apply (single_none (dipls lstsq) s1 PX (stack Ys Yt) own (Err ValueError) eq_refl Hpp Cs Etr).
  - assert (Ex : get_rows PX (STuple 0 (2 * di_ns o)) = Err IndexError).
    { pose proof (sel_indices_denotes (STuple 0 (2 * di_ns o))) as D. set (rl := sel_indices _) in D. apply (proj2 (C01_get_rows PX _ rl D)). destruct D as (D1 & D2).
      assert (Hl : length rl = (2 * nr Xs)%nat) by (rewrite D1; cbn [o s1 with_sizes set_own p_own c_reset dipls di_ns]; unfold zn; lia).
      split; [reflexivity|]. split; [intros Q; rewrite Q in Hl; cbn in Hl; lia|]. split; [exact Hp|]. apply Exists_exists. exists (nth (2 * nr Xs - 1) rl 0%Z). split; [apply nth_In; lia|].
      rewrite D2 by lia. unfold out_of_range. change (nr PX) with (nr Xs + nr Xt + nr Xu)%nat. lia. }
    assert (Etr : dipls_train lstsq (p_num_components s0) o PX (stack Ys Yt) = (o, Err IndexError)).
    { unfold dipls_train. unfold zn at 1. rewrite eye_eyeR.
      destruct (Z.eqb_spec (di_ns o) 0) as [Q|_]; [cbn in Q; unfold zn in Q; lia|]. destruct (Z.eqb_spec (di_nt o) 0) as [Q|_]; [cbn in Q; unfold zn in Q; lia|].
      destruct (Z.eqb_spec (di_ns o) 1) as [Q|_]; [cbn in Q; unfold zn in Q; lia|]. destruct (Z.eqb_spec (di_nt o) 1) as [Q|_]; [cbn in Q; unfold zn in Q; lia|]. cbn [orb].
      rewrite Es, bind_Ok, Et, bind_Ok. change (di_strategy o) with SEMISUPERVISED. cbv iota. rewrite Ex. reflexivity. }
    apply (single_none (dipls lstsq) s1 PX (stack Ys Yt) o (Err IndexError) eq_refl Hpp Cs Etr).
Qed.

(** * C83 *)
(** The k-th column of transform(training rows) is the k-th score plus earlier scores times the entries of P^T W. *)
Theorem C83_training_rows_partial (s : pls_st (dipls_st (T:=R)) R) (a : nat) (zs zt : Z) lambda (X Xs Xt Y Cm : mat R) :
  dipls_result lstsq s a zs zt lambda X Xs Xt Y Cm -> exists m V, di_model (p_own s) = Some m /\ snd (transform (dipls lstsq) s X) = Ok V /\
    is_mat V (nr X) a (fun i k => entry (dm_T m) i k + Rsum k (fun l => entry (dm_T m) i l * Rsum (nc X) (fun j => entry (dm_P m) j l * entry (dm_W m) j k))).
Proof.
  intros (m & b & Em & (T & Ts & Tt & P & Ps & Pt & W & ((T1 & T2 & T3 & T4) & _ & _ & (P1 & P2 & P3 & P4) & _ & _ & (W1 & W2 & W3 & W4) & _) & (B1 & _ & _ & B4) & _) & _ & Htr).
  exists m. eexists. split; [exact Em|]. split; [now apply Htr|]. apply is_mat_mk_ext. intros i k Hi Hk.
  rewrite T4 by assumption. rewrite B1 by assumption. rewrite !Rsum_sumn.
  rewrite (sumn_ext (nc X) (fun j => rest _ _ _ _ _ _ * _) (fun j => centred X i j * W j k - sumn k (fun l => T i l * (P j l * W j k)))).
  - rewrite sumR_minus, sumR_swap.
    rewrite (sumn_ext k (fun l => entry (dm_T m) i l * _) (fun l => sumn (nc X) (fun j => T i l * (P j l * W j k)))).
    + rewrite (sumn_ext (nc X) (fun j => (entry X i j - _) * _) (fun j => centred X i j * W j k)); [ring|]. intros j Hj. rewrite W4 by assumption. reflexivity.
    + intros l Hl. rewrite T4, Rsum_sumn, <- sumR_scal by lia. apply sumn_ext. intros j Hj. rewrite P4, W4 by lia. ring.
  - intros j Hj. unfold rest. rewrite Rsum_sumn, Rmult_minus_distr_r, <- sumR_scal_r. f_equal. apply sumn_ext. intros l Hl. rewrite B4 by lia. unfold Rdiv. ring.
Qed.
(** With equal covariance matrices (as in C81) they differ as soon as there are two components. *)
Theorem C83_differ (s0 : pls_st (dipls_st (T:=R)) R) (a : nat) (Xs Xt Ys : mat R) :
  fresh_centers (p_own s0) -> p_preprocessing s0 = PP_NONE -> p_num_components s0 = Z.of_nat a -> (2 <= a)%nat ->
  wf Xs -> wf Xt -> (2 <= nr Xs)%nat -> (2 <= nr Xt)%nat -> nc Xs = nc Xt -> nc Xs <> 0%nat -> nr Ys = nr Xs -> nc Ys = 1%nat ->
  (forall i j, (i < nc Xs)%nat -> (j < nc Xs)%nat -> sample_cov Xs i j = sample_cov Xt i j) ->
  no_breakdown (nr Xs) (nc Xs) (centred Xs) (fun i => centred Ys i 0%nat) a ->
  exists s m, dipls_initialize_unsupervised lstsq s0 Xs Xt Ys = (s, Ok None) /\ di_model (p_own s) = Some m /\ snd (transform (dipls lstsq) s Xs) <> Ok (dm_T m).
Proof.
  intros HF Hpp Ha Ha2 WXs WXt Hns Hnt Hc Hp Hr HY Hcov Hnb.
  destruct (equal_trains s0 a Xs Xt Ys) as (s & C & Iv & E & Em & HC); try assumption; [lia|].
  destruct (C80_unsupervised s0 s a Xs Xt Ys HF Hpp Ha WXs WXt Hp E) as (_ & _ & Hres).
  destruct (C83_training_rows_partial s a _ _ _ _ _ _ _ _ Hres) as (m & V & Em' & EV & HV). rewrite Em in Em'. injection Em' as <-. destruct HV as (_ & _ & _ & HV).
  exists s. eexists. split; [exact E|]. split; [exact Em|]. rewrite EV. intros Q. injection Q as ->.
  assert (Hs : Rsum (nc Xs) (fun j => kP C j 0%nat * kW C j 1%nat) < 0).
  { apply (comp_super (nr Xs) (nr Xs) (nr Xt) (nc Xs) a (zn (nr Xs)) (zn (nr Xt)) (di_lambda (p_own s0)) (centred Xs) (centred Xs) (centred Xt) (fun i => centred Ys i 0%nat) C); try assumption; try (unfold zn; lia).
    intros i j Hi Hj. rewrite <- !sample_gram. now apply Hcov. }
  destruct (HC 0%nat ltac:(lia)) as (_ & _ & _ & _ & _ & _ & _ & _ & Ht & _). apply Ht. rewrite Rsum_sumn. apply sumR_zero. intros i Hi.
  assert (Hz : kT C i 0%nat = 0); [|rewrite Hz; ring].
  specialize (HV i 1%nat Hi ltac:(lia)). cbn [fitted_model dm_T dm_P dm_W] in HV. rewrite Rsum_sumn, sum1 in HV. rewrite !entry_mk in HV by lia.
  rewrite (Rsum_ext (nc Xs) _ (fun j => kP C j 0%nat * kW C j 1%nat)) in HV by (intros; rewrite !entry_mk by lia; reflexivity).
  assert (Hm : kT C i 0%nat * Rsum (nc Xs) (fun j => kP C j 0%nat * kW C j 1%nat) = 0) by lra. apply Rmult_integral in Hm. destruct Hm as [Hm|Hm]; [exact Hm|lra].
Qed.
End Public.
Print Assumptions C80_unsupervised.
Print Assumptions C80_supervised.
Print Assumptions C80_semisupervised.
Print Assumptions C81_unsupervised.
Print Assumptions C81_supervised.
Print Assumptions C81_shift.
Print Assumptions C82_raises.
Print Assumptions C83_training_rows_partial.
Print Assumptions C83_differ.

(** * Data *)
Definition no_ls3 : mat R -> mat R -> res (mat R) := fun _ _ => Err LinAlgError.
Definition dX : mat R := Mat 4 2 [[3;0];[-3;0];[0;4];[0;-4]].
Definition dT : mat R := Mat 4 2 [[3;0];[-3;0];[0;1];[0;-1]].
Definition dY : mat R := Mat 4 1 [[1];[-1];[1];[-1]].
Definition d_start (a : Z) (l : R) : pls_st (dipls_st (T:=R)) R := PlsSt a PP_NONE false [] [] None None (c_assign (dipls no_ls3) (DLambda l) (c_new (dipls no_ls3))).
Lemma d_wf : wf dX /\ wf dT /\ wf dY.
Proof. repeat split; repeat constructor. Qed.
Lemma d_fresh a l : fresh_centers (p_own (d_start a l)).
Proof. repeat split. Qed.
Lemma four i (Q : nat -> Prop) : Q 0%nat -> Q 1%nat -> Q 2%nat -> Q 3%nat -> (i < 4)%nat -> Q i.
Proof. intros. destruct i as [|[|[|[|i]]]]; try assumption. lia. Qed.
Lemma d_X i j : (i < 4)%nat -> (j < 2)%nat -> centred dX i j = entry dX i j.
Proof. intros Hi Hj. unfold centred, Rmean. replace (Rsum (nr dX) (fun k => entry dX k j)) with 0; [unfold Rdiv; ring|]. destruct j as [|[|j]]; [| |lia]; cbn; ring. Qed.
Lemma d_T i j : (i < 4)%nat -> (j < 2)%nat -> centred dT i j = entry dT i j.
Proof. intros Hi Hj. unfold centred, Rmean. replace (Rsum (nr dT) (fun k => entry dT k j)) with 0; [unfold Rdiv; ring|]. destruct j as [|[|j]]; [| |lia]; cbn; ring. Qed.
Lemma d_Y i : (i < 4)%nat -> centred dY i 0%nat = entry dY i 0%nat.
Proof. intros Hi. unfold centred, Rmean. replace (Rsum (nr dY) (fun k => entry dY k 0%nat)) with 0; [unfold Rdiv; ring|]. cbn; ring. Qed.
Lemma d_nb : no_breakdown 4 2 (centred dX) (fun i => centred dY i 0%nat) 2.
Proof.
  assert (G : forall j, (j < 2)%nat -> cov 4 (centred dX) (fun i => centred dY i 0%nat) j = match j with O => 6 | _ => 8 end).
  { intros j Hj. unfold cov. cbn [Rsum]. rewrite !d_Y, !d_X by lia. destruct j as [|[|j]]; [| |lia]; cbn; ring. }
  intros k Hk. destruct k as [|[|k]]; [| |lia].
  - exists 0%nat. split; [lia|]. cbn [residual]. rewrite G by lia. lra.
  - assert (U : forall j, (j < 2)%nat -> unit_cov 4 2 (centred dX) (fun i => centred dY i 0%nat) j = match j with O => 3/5 | _ => 4/5 end).
    { intros j Hj. unfold unit_cov. rewrite G by exact Hj. cbn [Rsum]. rewrite !G by lia. replace (0 + 6 * 6 + 8 * 8) with (10 * 10) by ring. rewrite sqrt_square by lra. destruct j as [|[|j]]; [field|field|lia]. }
    exists 0%nat. split; [lia|]. unfold cov. cbn [residual]. unfold loadings_of, scores_of. cbn [Rsum]. rewrite !U by lia. rewrite !d_Y, !d_X by lia. cbn.
    match goal with |- ?l <> _ => replace l with (672/337) by field end. lra.
Qed.
Example C81_ex : exists s s', dipls_initialize_unsupervised no_ls3 (d_start 2 1) dX (shifted dX (fun j => INR j + 5)) dY = (s, Ok None) /\
  initialize (pls1 no_ls3) (PlsSt 2 PP_CENTER false [] [] None None (c_new (pls1 no_ls3))) (Some dX) (Some dY) = (s', Ok None).
Proof.
  destruct d_wf as (W1 & _ & W3).
  destruct (C81_shift no_ls3 no_ls3 (d_start 2 1) (PlsSt 2 PP_CENTER false [] [] None None (c_new (pls1 no_ls3))) 2 dX dY (fun j => INR j + 5)) as (s & s' & E1 & E2 & _); try reflexivity; try assumption; try (cbn; lia); try apply d_fresh; try apply d_nb.
  now exists s, s'.
Qed.
Example C83_ex : sample_cov dX 0 0 = sample_cov (shifted dX (fun _ => 1)) 0 0 /\ no_breakdown 4 2 (centred dX) (fun i => centred dY i 0%nat) 2.
Proof. split; [|exact d_nb]. unfold sample_cov. change (nr (shifted dX (fun _ => 1))) with (nr dX). f_equal. apply Rsum_ext. intros k Hk. rewrite !shift_centred by (try exact Hk; cbn; lia). reflexivity. Qed.
(** transform(training data) is not the score matrix of the training. *)
Theorem C83_refuted : ~ (forall lstsq (s0 s : pls_st (dipls_st (T:=R)) R) Xs Xt Ys m,
  fresh_centers (p_own s0) -> p_preprocessing s0 = PP_NONE -> wf Xs -> wf Xt -> wf Ys ->
  dipls_initialize_unsupervised lstsq s0 Xs Xt Ys = (s, Ok None) -> di_model (p_own s) = Some m -> snd (transform (dipls lstsq) s Xs) = Ok (dm_T m)).
Proof.
  intros H. destruct d_wf as (W1 & _ & W3).
  destruct (C83_differ no_ls3 (d_start 2 1) 2 dX dX dY) as (s & m & E & Em & Hd); try reflexivity; try assumption; try (cbn; lia); try apply d_fresh; try apply d_nb.
  apply Hd. apply (H no_ls3 (d_start 2 1) s dX dX dY m); try assumption; try reflexivity. apply d_fresh.
Qed.
Print Assumptions C83_refuted.
(** Different covariances: diag(6, 32/3) in the source, diag(6, 2/3) in the target.  With lambda = 28/45 the weights are
    (4/5, 3/5); without the penalty they would be (3/5, 4/5). *)
Lemma first_component n ns nt p zs zt lambda X Xs Xt y V (w : nat -> R) : p <> 0%nat -> n <> 0%nat -> ns <> 0%nat -> nt <> 0%nat ->
  inverse_pair p (shrink n ns nt zs zt lambda y Xs Xt) V ->
  (forall j, (j < p)%nat -> unit p (fun j => Rsum p (fun l => cov n X y l / Rsum n (fun i => y i * y i) * V l j)) j = w j) ->
  Rsum n (fun i => scores_of p X w i * scores_of p X w i) <> 0 -> Rsum ns (fun i => scores_of p Xs w i * scores_of p Xs w i) <> 0 -> Rsum nt (fun i => scores_of p Xt w i * scores_of p Xt w i) <> 0 ->
  exists C, (forall l, (l < 1)%nat -> component n ns nt p zs zt lambda X Xs Xt y C l) /\ forall j, (j < p)%nat -> kW C j 0%nat = w j.
Proof.
  intros Hp Hn Hns Hnt HV Hw T1 T2 T3. pose (C0 := Cols (fun _ => 0) (fun _ _ => 0) (fun _ _ => 0) (fun _ _ => 0) (fun _ _ => 0) (fun _ _ => 0) (fun _ _ => 0) (fun _ _ => 0)).
  assert (L0 : forall X T P, left X T P 0 = X) by (intros; extensionality i; extensionality j; unfold left; cbn [Rsum]; ring).
  assert (Y0 : forall y T g, lefty y T g 0 = y) by (intros; extensionality i; unfold lefty; cbn [Rsum]; ring).
  assert (Ew : forall j, (j < p)%nat -> weight n p X y C0 0 V j = w j) by (intros j Hj; unfold weight; rewrite L0, Y0; now apply Hw).
  assert (Es : forall Z, scores_of p Z (weight n p X y C0 0 V) = scores_of p Z w) by (intros; extensionality i; unfold scores_of; apply Rsum_ext; intros; now rewrite Ew).
  exists (extend n ns nt p X Xs Xt y 0 C0 (weight n p X y C0 0 V)). split.
  - intros l Hl. replace l with 0%nat by lia. apply extend_component; try assumption.
    + unfold shrink_at. rewrite !L0, Y0. exact HV.
    + unfold taus_at. rewrite !L0, !Es. repeat split; assumption.
  - intros j Hj. cbn [extend kW]. unfold snoc. cbn [Nat.ltb Nat.leb]. now apply Ew.
Qed.
Definition dV (c : R) (i j : nat) : R := match i, j with O, O => 1 | S O, S O => c | _, _ => 0 end.
Definition dw (c d : R) (j : nat) : R := match j with O => c | _ => d end.
Lemma two (Q : nat -> Prop) : Q 0%nat -> Q 1%nat -> forall i, (i < 2)%nat -> Q i.
Proof. intros ? ? i Hi. destruct i as [|[|i]]; try assumption. lia. Qed.
Example C80_ex : exists s m, dipls_initialize_unsupervised no_ls3 (d_start 1 (28/45)) dX dT dY = (s, Ok None) /\ di_model (p_own s) = Some m /\ dm_W m = Mat 2 1 [[4/5];[3/5]].
Proof.
  destruct d_wf as (W1 & W2 & W3).
  assert (G : forall j, (j < 2)%nat -> cov 4 (centred dX) (fun i => centred dY i 0%nat) j = match j with O => 6 | _ => 8 end).
  { intros j Hj. unfold cov. cbn [Rsum]. rewrite !d_Y, !d_X by lia. destruct j as [|[|j]]; [| |lia]; cbn; ring. }
  assert (Y2 : Rsum 4 (fun i => centred dY i 0%nat * centred dY i 0%nat) = 4). { cbn [Rsum]. rewrite !d_Y by lia. cbn. ring. }
  assert (GX : forall i j, (i < 2)%nat -> (j < 2)%nat -> gram 4 (centred dX) i j = match i, j with O, O => 18 | S O, S O => 32 | _, _ => 0 end).
  { intros i j Hi Hj. unfold gram. cbn [Rsum]. rewrite !d_X by lia. revert i Hi. apply two; revert j Hj; apply two; cbn; ring. }
  assert (GT : forall i j, (i < 2)%nat -> (j < 2)%nat -> gram 4 (centred dT) i j = match i, j with O, O => 18 | S O, S O => 2 | _, _ => 0 end).
  { intros i j Hi Hj. unfold gram. cbn [Rsum]. rewrite !d_T by lia. revert i Hi. apply two; revert j Hj; apply two; cbn; ring. }
  destruct (first_component 4 4 4 2 4 4 (28/45) (centred dX) (centred dX) (centred dT) (fun i => centred dY i 0%nat) (dV (9/16)) (dw (4/5) (3/5))) as (C & HC & HW); try lia.
  - assert (HD : forall i j, (i < 2)%nat -> (j < 2)%nat -> shrink 4 4 4 4 4 (28/45) (fun i => centred dY i 0%nat) (centred dX) (centred dT) i j = dV (16/9) i j).
    { intros i j Hi Hj. unfold shrink. cbv beta. rewrite Y2, GX, GT by assumption. revert i Hi. apply two; revert j Hj; apply two; cbn; field. }
    intros k l Hk Hl. cbn [Rsum]. rewrite !HD by lia. revert k Hk. apply two; revert l Hl; apply two; cbn; split; field.
  - intros j Hj. unfold unit. rewrite Y2. cbn [Rsum]. rewrite !G by lia. unfold dV, dw.
    assert (Hq : sqrt (0 + (0 + 6 / 4 * 1 + 8 / 4 * 0) * (0 + 6 / 4 * 1 + 8 / 4 * 0) + (0 + 6 / 4 * 0 + 8 / 4 * (9 / 16)) * (0 + 6 / 4 * 0 + 8 / 4 * (9 / 16))) = 15/8).
    { match goal with |- sqrt ?z = _ => replace z with (15/8 * (15/8)) by field end. apply sqrt_square. lra. }
    rewrite Hq. revert j Hj. apply two; field.
  - unfold scores_of. cbn [Rsum]. rewrite !d_X by lia. cbn. match goal with |- ?l <> _ => replace l with (576/25) by field end. lra.
  - unfold scores_of. cbn [Rsum]. rewrite !d_X by lia. cbn. match goal with |- ?l <> _ => replace l with (576/25) by field end. lra.
  - unfold scores_of. cbn [Rsum]. rewrite !d_T by lia. cbn. match goal with |- ?l <> _ => replace l with (306/25) by field end. lra.
  - rewrite (unsupervised_eq no_ls3 (d_start 1 (28/45)) dX dT dY W1 W2 eq_refl). set (s1 := with_sizes _ _ _ _).
    destruct (train_fwd no_ls3 1 (c_reset (dipls no_ls3) (p_own s1)) (stack dX dT) dY dX dX dT) with (C := C) as (Iv & HIv & Etr); try assumption; try reflexivity; try (cbn; lia); [repeat split|].
    destruct (single_none (dipls no_ls3) s1 (stack dX dT) dY _ _ eq_refl eq_refl eq_refl Etr) as (_ & Hs). destruct (Hs eq_refl) as (s & Ei & Eo & _).
    exists s. eexists. split; [exact Ei|]. rewrite Eo. split; [reflexivity|]. cbn [fitted_model dm_W]. change (nc (stack dX dT)) with 2%nat.
    change (mk 2 1 (kW C)) with (Mat 2 1 [[kW C 0%nat 0%nat];[kW C 1%nat 0%nat]]). now rewrite !HW by lia.
Qed.
(** Well-shaped arguments of initialize_semisupervised *)
Definition semi_shapes (Xs Xt Xu Ys Yt : mat R) : Prop :=
  wf Xs /\ wf Xt /\ wf Xu /\ wf Ys /\ wf Yt /\ nc Xs <> 0%nat /\ nc Xt = nc Xs /\ nc Xu = nc Xs /\ nc Ys = 1%nat /\ nc Yt = 1%nat /\ (2 <= nr Xs)%nat /\ (2 <= nr Xt)%nat /\ nr Ys = nr Xs /\ nr Yt = nr Xt.
Theorem C82_refuted : ~ (forall lstsq (s0 : pls_st (dipls_st (T:=R)) R) Xs Xt Xu Ys Yt,
  fresh_centers (p_own s0) -> p_preprocessing s0 = PP_NONE -> (1 <= p_num_components s0)%Z -> semi_shapes Xs Xt Xu Ys Yt ->
  snd (dipls_initialize_semisupervised lstsq s0 Xs Xt Xu Ys Yt) <> Err ValueError).
Proof.
  intros H. destruct d_wf as (W1 & W2 & W3). pose (X2 := mk 2 2 (entry dX)). pose (Y2 := mk 2 1 (entry dY)).
  apply (H no_ls3 (d_start 1 1) X2 dX dT Y2 dY); [apply d_fresh|reflexivity|cbn; lia| |].
  - unfold semi_shapes. cbn. repeat split; try assumption; try lia; try apply mk_wf; try apply W1; try apply W2; try apply W3.
  - rewrite (C82_raises no_ls3 (d_start 1 1) 1 X2 dX dT Y2 dY); try reflexivity; try assumption; try apply mk_wf; try apply d_fresh; cbn; try lia.
Qed.
Print Assumptions C82_refuted.
Example C82_ex : semi_shapes dX (mk 2 2 (entry dX)) dT dY (mk 2 1 (entry dY)) /\ nr (mk 2 2 (entry dX)) <> nr dX.
Proof.
  destruct d_wf as (W1 & W2 & W3). split; [|cbn; lia]. unfold semi_shapes. cbn. repeat split; try assumption; try lia; try apply mk_wf; try apply W1; try apply W2; try apply W3.
Qed.
