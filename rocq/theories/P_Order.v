(** C112: the order of the features does not matter to NIPALS. *)
From Coq Require Import List ZArith Lia Bool Arith Reals Lra Permutation.
From Verif Require Import Base Num Mat M_Matrix M_Factory M_Helper M_Loop M_Utils M_Linalg M_Transform M_PLSBase M_PLS.
From Verif Require Import S_Matrix P_Helper L_Base L_Mat L_Matrix L_MatR L_Alg L_Stats L_Transform P_Transform P_PLSPrep L_Public L_Batch L_Perm L_Span P_NIPALS2 P_Geometry P_Units P_Geometry2.
Import ListNotations.
Local Open Scope nat_scope.

Section Order.
Variables (n : nat) (p : nat -> nat).
Hypothesis Hp : Permutation (map p (seq 0 n)) (seq 0 n).
Hypothesis Hn : n <> 0.
Notation pr := (pr n p).
(** columns in the other order *)
Definition pc (A B : mat R) : Prop := nc A = n /\ B = mk (nr A) n (fun i j => entry A i (p j)).
Lemma pc_transpose A B : pc A B -> pr (transpose A) (transpose B).
Proof.
  intros (C & ->). split; [exact C|]. unfold pm, transpose. cbn [nr nc mk]. apply mk_ext. intros i j Hi Hj. fold (mk (nc A) (nr A) (fun i j => entry A j i)) (mk (nr A) n (fun i j => entry A i (p j))). rewrite !entry_mk; auto. rewrite C. now apply p_lt.
Qed.
Lemma pc_nr A B : pc A B -> nr B = nr A.
Proof. now intros (_ & ->). Qed.
Lemma pc_tmul A B v : pc A B -> rrel pr (mul (transpose A) v) (mul (transpose B) v).
Proof. intros H. apply (pr_mul n p Hp). now apply pc_transpose. Qed.
Lemma pc_mul A B v w : pc A B -> pr v w -> rrel eq (mul A v) (mul B w).
Proof.
  intros (C & ->) (E & ->). unfold mul, is_multiplicable_with, pm. cbn [nr nc mk]. rewrite C, E, !Nat.eqb_refl. cbn [negb rrel]. unfold matmul. cbn [nr nc mk]. rewrite C. apply mk_ext. intros i j Hi Hj. rewrite <- (sum_perm n p Hp). apply sumn_ext. intros k Hk. now rewrite !entry_mk.
Qed.
Lemma pr_mulT t l m : pr l m -> rrel pc (mul t (transpose l)) (mul t (transpose m)).
Proof.
  intros (E & ->). unfold mul, is_multiplicable_with, pm. cbn [transpose nr nc mk]. destruct (Nat.eqb_spec (nc t) (nc l)) as [Ec|]; cbn [negb rrel]; [|reflexivity]. split; [exact E|]. unfold matmul. cbn [transpose nr nc mk]. rewrite E. apply mk_ext. intros i j Hi Hj. pose proof (p_lt n p Hp j Hj). rewrite entry_mk by assumption. apply sumn_ext. intros k Hk. f_equal. unfold transpose. cbn [nr nc mk]. rewrite !entry_mk by lia. reflexivity.
Qed.
Lemma pc_sub A B C D : pc A B -> pc C D -> rrel pc (sub A C) (sub B D).
Proof.
  intros (E & ->) (F & ->). unfold sub. rewrite !must_be_same_shape_eq. unfold same_shape_as. cbn [nr nc mk]. rewrite E, F, !Nat.eqb_refl. destruct (Nat.eqb_spec (nr A) (nr C)) as [Er|]; cbn [andb bind rrel]; [|reflexivity]. split; [exact E|]. unfold map2_mat. cbn [nr nc mk]. apply mk_ext. intros i j Hi Hj. pose proof (p_lt n p Hp j Hj). rewrite E. fold (mk (nr A) n (fun i j => entry A i (p j))) (mk (nr C) n (fun i j => entry C i (p j))). now rewrite !entry_mk by lia.
Qed.
Ltac same := eapply (rrel_bind eq); [apply rrel_refl|]; let a := fresh "a" in let b := fresh "b" in intros a b <-; cbv beta.
Variables (lstsq : mat R -> mat R -> res (mat R)) (pinv : mat R -> res (mat R)).
Definition wt (r r' : mat R * mat R) : Prop := pr (fst r) (fst r') /\ snd r = snd r'.
Lemma weights_order ny X X' Y u : pc X X' -> rrel wt (nipals_weights lstsq WM_PLS ny X Y u) (nipals_weights lstsq WM_PLS ny X' Y u).
Proof.
  intros HX. unfold nipals_weights. eapply (rrel_bind pr).
  - eapply (rrel_bind pr); [apply pc_tmul; exact HX|]. intros a b H. cbn [rrel]. now apply (pr_map n p Hp).
  - intros a b H. cbv zeta. rewrite (pr_norm2_squared n p Hp a b H).
    set (a1 := if nltb (norm2_squared b) (lit 1 16) then add_scalar a (lit 1 16) else a). set (b1 := if nltb (norm2_squared b) (lit 1 16) then add_scalar b (lit 1 16) else b).
    assert (H1 : pr a1 b1) by (unfold a1, b1; destruct (nltb _ _); [now apply (pr_map n p Hp)|exact H]). rewrite (pr_norm2 n p Hp a1 b1 H1).
    assert (H2 : pr (div_scalar a1 (nadd (norm2 b1) (lit 1 16))) (div_scalar b1 (nadd (norm2 b1) (lit 1 16)))) by now apply (pr_map n p Hp). eapply (rrel_bind eq); [eapply pc_mul; [exact HX|exact H2]|]. intros s s' <-. same. cbn [rrel]. split; [exact H2|reflexivity].
Qed.
Lemma while_order f ny tol mi X X' Y u w w' it : pc X X' -> pr w w' ->
  rrel (fun r r' => wt (fst r) (fst r')) (nipals_while lstsq f WM_PLS ny tol mi X Y u w it) (nipals_while lstsq f WM_PLS ny tol mi X' Y u w' it).
Proof.
  intros HX. revert w w' it. induction f as [|f IH]; intros w w' it Hw; cbn [nipals_while]; [reflexivity|]. eapply rrel_bind; [apply weights_order; exact HX|]. intros [a1 a2] [b1 b2] (H1 & H2). cbn [fst snd] in H1, H2. subst b2. same.
  eapply rrel_bind; [apply (pr_sub n p Hp); [exact H1|exact Hw]|]. intros d d' Hd. cbv zeta. rewrite (pr_norm2_squared n p Hp d d' Hd). destruct (_ || _); [cbn; now split|]. destruct (_ <=? _)%Z; [cbn; now split|]. now apply IH.
Qed.
Definition orel (st st' : nipals_state) : Prop :=
  let '(s, (X, Y), (XS, YS, XL, YL, XW, YW)) := st in let '(s', (X', Y'), (XS', YS', XL', YL', XW', YW')) := st' in
  s = s' /\ pc X X' /\ Y = Y' /\ XS = XS' /\ YS = YS' /\ pr XL XL' /\ YL = YL' /\ pr XW XW' /\ YW = YW'.
Lemma step_order a st st' k : orel st st' -> rrel orel (nipals_step lstsq WM_PLS a st k) (nipals_step lstsq WM_PLS a st' k).
Proof.
  destruct st as [[s [X Y]] [[[[[XS YS] XL] YL] XW] YW]], st' as [[s' [X' Y']] [[[[[XS' YS'] XL'] YL'] XW'] YW']]. intros (-> & HX & -> & -> & -> & HXL & -> & HXW & ->). unfold nipals_step.
  destruct s'; [cbn [rrel orel]; auto 10|]. same. destruct (all _ _); [cbn [rrel orel]; auto 10|].
  eapply rrel_bind. { unfold nipals_loop. same. apply while_order; [exact HX|]. pose proof HX as (C & ->). cbn [nc mk]. rewrite C. apply (pr_zeros n p Hp). exact Hn. }
  intros [[xw yw] it] [[xw' yw'] it'] (Hw & E). cbn [fst snd] in Hw, E. subst yw'. eapply (rrel_bind eq); [eapply pc_mul; [exact HX|exact Hw]|]. intros xs xs' <-. same. cbv zeta. destruct (nltb _ _); [cbn [rrel orel]; auto 10|].
  eapply (rrel_bind pr); [apply pc_tmul; exact HX|]. intros xl xl' Hl. assert (Hl' : pr (div_scalar xl (norm2_squared xs)) (div_scalar xl' (norm2_squared xs))) by now apply (pr_map n p Hp).
  eapply (rrel_bind pc); [apply pr_mulT; exact Hl'|]. intros dx dx' Hdx. eapply (rrel_bind pc); [apply pc_sub; [exact HX|exact Hdx]|]. intros X1 X1' HX1. same. destruct a2 as [l Y1]. same. same.
  eapply (rrel_bind pr); [apply (pr_set_column n p Hp); assumption|]. intros XW1 XW1' HXW1. same. eapply (rrel_bind pr); [apply (pr_set_column n p Hp); assumption|]. intros XL1 XL1' HXL1. same. cbn [rrel orel]. auto 10.
Qed.
Definition omrel (m m' : nipals_model R) : Prop := pr (nm_X_rotations m) (nm_X_rotations m') /\ pr (nm_coef m) (nm_coef m') /\ nm_X_scores m = nm_X_scores m' /\ pr (nm_X_loadings m) (nm_X_loadings m') /\ nm_Y_loadings m = nm_Y_loadings m'.
Lemma scale_order A B v : pr A B -> rrel pr (scale_by_row_vector A v) (scale_by_row_vector B v).
Proof.
  intros (E & ->). destruct (scale_by_row_vector_spec A v) as (H1 & H2 & H3), (scale_by_row_vector_spec (pm n p A) v) as (G1 & G2 & G3). change (nc (pm n p A)) with (nc A) in G2, G3. unfold col_shaped in *. destruct (Nat.eq_dec (nc v) 1) as [Ev|Ev]; [|rewrite H1, G1 by exact Ev; reflexivity]. destruct (Nat.eq_dec (nc A) (nr v)) as [Ea|Ea]; [|rewrite H2, G2 by assumption; reflexivity].
  destruct (H3 Ev Ea) as (m & -> & Q1), (G3 Ev Ea) as (m' & -> & Q2). apply is_mat_eq_mk in Q1, Q2. subst m m'. cbn [rrel]. split; [exact E|]. unfold pm. cbn [nr nc mk]. rewrite E. apply mk_ext. intros i j Hi Hj. fold (mk n (nc A) (fun i j => nmul (entry A i j) (entry v j 0))) (mk n (nc A) (fun i j => entry A (p i) j)). rewrite !entry_mk; auto. now apply p_lt.
Qed.
Lemma fit_order k a X X' Y sd : pc X X' -> rrel omrel (nipals_fit lstsq pinv WM_PLS k a X Y sd) (nipals_fit lstsq pinv WM_PLS k a X' Y sd).
Proof.
  intros HX. unfold nipals_fit. cbv zeta. rewrite (pc_nr X X' HX). pose proof HX as (C & E). assert (C' : nc X' = n) by (rewrite E; reflexivity). rewrite C, C'.
  eapply rrel_bind; [apply (rrel_range orel); [cbn; repeat (split; [first [assumption|reflexivity|apply (pr_zeros n p Hp); exact Hn]|]); reflexivity|intros; now apply step_order]|].
  intros [[s [X1 Y1]] [[[[[XS YS] XL] YL] XW] YW]] [[s' [X1' Y1']] [[[[[XS' YS'] XL'] YL'] XW'] YW']]. intros (-> & HX1 & -> & -> & -> & HXL & -> & HXW & ->).
  eapply (rrel_bind eq); [apply (pr_tmul n p Hp); assumption|]. intros pw pw' <-. same. eapply (rrel_bind pr); [apply (pr_mul n p Hp); exact HXW|]. intros XR XR' HXR. same. same. eapply (rrel_bind pr); [apply (pr_mul n p Hp); exact HXR|]. intros xq xq' Hxq.
  eapply (rrel_bind pr); [apply scale_order; exact Hxq|]. intros co co' Hco. cbn [rrel]. unfold omrel. cbn. auto 10.
Qed.
End Order.

(** * The class and the object *)
Local Open Scope R_scope.
Lemma ordered_stats s A B j : columns_in_order s A B -> (j < nc A)%nat ->
  Rmean (nr B) (fun k => entry B k j) = Rmean (nr A) (fun k => entry A k (s j)) /\ Rvar (nr B) (fun k => entry B k j) = Rvar (nr A) (fun k => entry A k (s j)).
Proof.
  intros (_ & HR & HC & H) Hj. assert (EM : Rmean (nr B) (fun k => entry B k j) = Rmean (nr A) (fun k => entry A k (s j))).
  { rewrite HR. unfold Rmean. f_equal. rewrite !Rsum_sumn. apply sumn_ext. intros k Hk. now apply H. }
  split; [exact EM|]. unfold Rvar. rewrite EM, HR. f_equal. rewrite !Rsum_sumn. apply sumn_ext. intros k Hk. now rewrite H.
Qed.
Lemma ordered_by s X X2 Z Z2 : Permutation (map s (seq 0 (nc X))) (seq 0 (nc X)) -> columns_in_order s X X2 -> columns_in_order s Z Z2 -> nc Z = nc X ->
  pc (nc X) s (mk (nr Z) (nc X) (standardised_by X Z)) (mk (nr Z2) (nc X2) (standardised_by X2 Z2)).
Proof.
  intros Hs HX HZ CZ. pose proof HX as (_ & _ & C2 & _). pose proof HZ as (_ & R2 & _ & H). split; [reflexivity|]. cbn [nr mk]. rewrite R2, C2. apply mk_ext. intros i j Hi Hj. pose proof (p_lt _ s Hs j Hj). rewrite entry_mk by assumption. unfold standardised_by. destruct (ordered_stats s X X2 j HX Hj) as (-> & ->). rewrite H by lia. reflexivity.
Qed.
Lemma prepared_order pp s X X2 : Permutation (map s (seq 0 (nc X))) (seq 0 (nc X)) -> columns_in_order s X X2 -> columns_in_order s (mk (nr X) (nc X) (prepared pp X)) (mk (nr X2) (nc X2) (prepared pp X2)).
Proof.
  intros Hs HX. pose proof HX as (_ & R2 & C2 & _). split; [apply mk_wf|]. split; [exact R2|]. split; [exact C2|]. cbn [nr nc mk]. intros i j Hi Hj. pose proof (p_lt _ s Hs j Hj). rewrite !entry_mk by lia. pose proof (perm_prepared pp s X X2 Hs HX i j Hi Hj) as E. rewrite E. now rewrite perm_pick.
Qed.
Lemma prepared_std pp X : preparable pp X -> preparable PP_STANDARDIZE X -> preparable PP_STANDARDIZE (mk (nr X) (nc X) (prepared pp X)).
Proof.
  intros P [H1 H2]. split; [exact H1|]. cbn [nr nc mk]. intros j Hj Hc. apply (H2 j Hj). intros i k Hi Hk. specialize (Hc i k Hi Hk). fold (mk (nr X) (nc X) (prepared pp X)) in Hc. rewrite !entry_mk in Hc by assumption. destruct pp; cbn [prepared preparable] in *; [exact Hc|lra| |contradiction].
  destruct (sd_used_R X j H1) as [A _]. destruct (A (H2 j Hj)) as [Es Hpos]. rewrite Es in Hpos. set (sg := sqrt _) in *. apply (f_equal (fun z => z * sg)) in Hc. unfold Rdiv in Hc. rewrite !Rmult_assoc, !Rinv_l in Hc by exact Hpos. lra.
Qed.
Lemma fit_own lstsq pinv k (o o' : nipals_st R) X Y sd : ni_tol o' = ni_tol o -> ni_max_iter o' = ni_max_iter o -> ni_norm_Y_weights o' = ni_norm_Y_weights o -> ni_deflation o' = ni_deflation o ->
  nipals_fit lstsq pinv WM_PLS k o' X Y sd = nipals_fit lstsq pinv WM_PLS k o X Y sd.
Proof. intros E1 E2 E3 E4. unfold nipals_fit. now rewrite (for_range_ext _ (nipals_step lstsq WM_PLS o') (nipals_step lstsq WM_PLS o)) by (intros; now apply nipals_step_own). Qed.
Theorem C112_nipals lstsq pinv (o : pls_st (nipals_st R) R) (X Y X2 : mat R) (s : nat -> nat) : let c := nipals lstsq pinv in
  preparable (p_preprocessing o) Y -> wf X -> wf Y -> nc X <> 0%nat -> nc Y <> 0%nat -> preparable PP_STANDARDIZE X ->
  Permutation (map s (seq 0 (nc X))) (seq 0 (nc X)) -> columns_in_order s X X2 ->
  let t := fst (initialize c o (Some X) (Some Y)) in let t2 := fst (initialize c o (Some X2) (Some Y)) in
  snd (initialize c o (Some X2) (Some Y)) = snd (initialize c o (Some X) (Some Y)) /\
  forall Z Z2, nc Z = nc X -> columns_in_order s Z Z2 -> snd (transform c t2 Z2) = snd (transform c t Z) /\ snd (predict c t2 Z2) = snd (predict c t Z).
Proof.
  intros c PY WX WY NX NY PS Hs HX. pose proof HX as (WX2 & R2 & C2 & HE). set (pp := p_preprocessing o) in *.
  assert (PX : preparable pp X) by (destruct PS; destruct pp; cbn [preparable] in *; auto).
  pose proof (perm_preparable pp s X X2 Hs HX PX) as PX2. pose proof (perm_preparable PP_STANDARDIZE s X X2 Hs HX PS) as PS2.
  destruct (init_any c o Y WY NY PY) as (mean & std & tr & H). destruct (H X WX NX PX) as (tp & E). destruct (H X2 WX2 ltac:(congruence) PX2) as (tp2 & E2). clear H. cbv zeta. rewrite E, E2. clear E E2.
  destruct (check_data c Y) as [m|]; [split; [reflexivity|]; intros; split; reflexivity|]. fold pp. pose proof (prepared_order pp s X X2 Hs HX) as HP. pose proof (prepared_std pp X PX PS) as QX. pose proof (prepared_std pp X2 PX2 PS2) as QX2.
  set (Xp := mk (nr X) (nc X) (prepared pp X)) in *. set (Xp2 := mk (nr X2) (nc X2) (prepared pp X2)) in *. assert (WP : wf Xp) by apply mk_wf. assert (WP2 : wf Xp2) by apply mk_wf.
  change (c_train c) with (nipals_train lstsq pinv WM_PLS). unfold nipals_train. cbn [c nipals nipals_class c_reset ni_standardize_X]. rewrite (standardize_new Xp WP NX QX), (standardize_new Xp2 WP2 ltac:(cbn; congruence) QX2). cbn [ni_standardize_Y ni_tol ni_max_iter ni_norm_Y_weights ni_deflation ni_model ni_standardize_X].
  destruct (t_transform standardize (t_new standardize) (mk (nr Y) (nc Y) (prepared pp Y))) as [sy [Yc|e]]; [|split; [reflexivity|intros; split; reflexivity]]. cbn [ni_standardize_Y ni_tol ni_max_iter ni_norm_Y_weights ni_deflation ni_model ni_standardize_X].
  assert (HC : pc (nc X) s (mk (nr Xp) (nc Xp) (prepared PP_STANDARDIZE Xp)) (mk (nr Xp2) (nc Xp2) (prepared PP_STANDARDIZE Xp2))) by exact (ordered_by s Xp Xp2 Xp Xp2 Hs HP HP eq_refl).
  set (A1 := mk (nr Xp) (nc Xp) (prepared PP_STANDARDIZE Xp)) in *. set (A2 := mk (nr Xp2) (nc Xp2) (prepared PP_STANDARDIZE Xp2)) in *.
  match goal with |- context [nipals_fit _ _ _ ?kk ?a A1 Yc ?sd] => match goal with |- context [nipals_fit _ _ _ kk ?a' A2 Yc sd] => pose proof (fit_order (nc X) s Hs NX lstsq pinv kk a A1 A2 Yc sd HC) as Q; rewrite <- (fit_own lstsq pinv kk a a' A2 Yc sd eq_refl eq_refl eq_refl eq_refl) in Q end end.
  destruct (nipals_fit lstsq pinv WM_PLS _ _ A1 Yc _) as [m|e], (nipals_fit lstsq pinv WM_PLS _ _ A2 Yc _) as [m2|e2]; cbn [rrel] in Q; try contradiction; [|subst e2; split; [reflexivity|intros; split; reflexivity]].
  split; [reflexivity|]. intros Z Z2 CZ HZ. pose proof HZ as (_ & RZ & CZ2 & _). destruct Q as (QR & QC & _).
  unfold transform, predict, do_predict. cbn [fst p_initialised p_num_components p_own p_trans_response p_class_mean p_class_std_dev negb]. change (c_transform c) with (fun _ : BinInt.Z.t => nipals_transform (T:=R)). change (c_predict c) with (fun _ : BinInt.Z.t => nipals_predict (T:=R)). cbv beta. unfold nipals_transform, nipals_predict, nipals_apply. cbn [ni_standardize_X ni_standardize_Y ni_tol ni_max_iter ni_norm_Y_weights ni_deflation ni_model].
  rewrite (standardize_again Xp Z CZ QX), (standardize_again Xp2 Z2 ltac:(cbn; congruence) QX2). cbn [bind need ni_model ni_standardize_Y ni_standardize_X].
  pose proof (ordered_by s Xp Xp2 Z Z2 Hs HP HZ CZ) as HD. rewrite (rrel_eq _ _ (pc_mul (nc X) s Hs _ _ _ _ HD QR)), (rrel_eq _ _ (pc_mul (nc X) s Hs _ _ _ _ HD QC)). split; [reflexivity|]. destruct (mul _ (nm_coef m2)); cbn [bind]; [|reflexivity]. destruct (need (st_means sy)); cbn [bind]; [|reflexivity]. destruct (add_by_vector _ _); reflexivity.
Qed.
Print Assumptions C112_nipals.

(** NIPALS with two components on the four rows of C70 with the two features exchanged: training
    returns as before, and (7, 5) now gets the scores and the prediction of (5, 7). *)
Example C112_ex : let c := nipals (fun _ _ => Err LinAlgError) pinv_R in let s0 := PlsSt 2 PP_NONE false [] [] None None (c_new c) in let X2 := mk 4 2 (fun i j => entry exX i (1 - j)) in
  snd (initialize c s0 (Some exX) (Some exY)) = Ok None /\ snd (initialize c s0 (Some X2) (Some exY)) = Ok None /\
  snd (transform c (fst (initialize c s0 (Some X2) (Some exY))) (Mat 1 2 [[7;5]])) = snd (transform c (fst (initialize c s0 (Some exX) (Some exY))) (Mat 1 2 [[5;7]])) /\
  snd (predict c (fst (initialize c s0 (Some X2) (Some exY))) (Mat 1 2 [[7;5]])) = snd (predict c (fst (initialize c s0 (Some exX) (Some exY))) (Mat 1 2 [[5;7]])).
Proof.
  intros c s0 X2. destruct C70_ex as (s & h & Ei & _). fold c s0 in Ei.
  destruct (C112_nipals (fun _ _ => Err LinAlgError) pinv_R s0 exX exY X2 (fun j => (1 - j)%nat)) as (E & HZ).
  - exact I.
  - split; [reflexivity|repeat constructor].
  - split; [reflexivity|repeat constructor].
  - discriminate.
  - discriminate.
  - apply ex_prep.
  - apply perm_swap.
  - split; [apply mk_wf|]. split; [reflexivity|]. split; [reflexivity|]. intros i j Hi Hj. unfold X2. now rewrite entry_mk.
  - fold c in E, HZ. split; [now rewrite Ei|]. split; [now rewrite E, Ei|]. apply HZ; [reflexivity|]. split; [split; [reflexivity|repeat constructor]|]. split; [reflexivity|]. split; [reflexivity|].
    intros i j Hi Hj. cbn in Hi, Hj. destruct i as [|]; [|lia]. destruct j as [|[|]]; [| |lia]; reflexivity.
Qed.
