(** C113: the order of the features does not matter to PLS1 and OPLS. *)
From Coq Require Import List ZArith Lia Bool Arith Reals Lra Permutation.
From Verif Require Import Base Num Mat M_Matrix M_Factory M_Helper M_Loop M_Utils M_Linalg M_Transform M_PLSBase M_PLS M_PLS2.
From Verif Require Import S_Matrix P_Helper L_Base L_Mat L_Matrix L_MatR L_Alg L_Stats L_Transform P_Transform P_PLSPrep L_Public L_Batch L_Perm P_KernelPLS P_KernelPLS2 P_Geometry P_Units P_Geometry2 P_Order.
Import ListNotations.
Local Open Scope nat_scope.

Section Order.
Variables (n : nat) (p : nat -> nat).
Hypothesis Hp : Permutation (map p (seq 0 n)) (seq 0 n).
Hypothesis Hn : n <> 0.
Notation pr := (pr n p).
Notation pc := (pc n p).
Ltac same := eapply (rrel_bind eq); [apply rrel_refl|]; let a := fresh "a" in let b := fresh "b" in intros a b <-; cbv beta.
Lemma pr_normalized A B : pr A B -> rrel pr (normalized A 0) (normalized B 0).
Proof.
  intros (E & ->). unfold normalized. cbn [Z.eqb orb rrel]. split; [exact E|]. unfold pm. cbn [nr nc mk]. apply mk_ext. intros i j Hi Hj. pose proof (p_lt n p Hp i Hi). fold (mk n (nc A) (fun i j => entry A (p i) j)). rewrite !entry_mk by lia. f_equal. f_equal. rewrite E. rewrite <- (sum_perm n p Hp (fun k => nmul (entry A k j) (entry A k j))). apply sumn_ext. intros k Hk. now rewrite entry_mk.
Qed.
Lemma pr_T A B : pr A B -> pc (transpose A) (transpose B).
Proof. intros (E & ->). split; [exact E|]. unfold pm, transpose. cbn [nr nc mk]. apply mk_ext. intros i j Hi Hj. pose proof (p_lt n p Hp j Hj). now rewrite !entry_mk by lia. Qed.
Lemma pc_map f A B : pc A B -> pc (map_mat f A) (map_mat f B).
Proof. intros (E & ->). split; [exact E|]. unfold map_mat. cbn [nr nc mk]. apply mk_ext. intros i j Hi Hj. pose proof (p_lt n p Hp j Hj). fold (mk (nr A) n (fun i j => entry A i (p j))). now rewrite !entry_mk by lia. Qed.
Lemma pc_row A B i : pc A B -> rrel pc (get_row A i) (get_row B i).
Proof. intros (E & ->). unfold get_row. cbn [nr nc mk]. destruct (npidx (nr A) i) as [k|e] eqn:Ek; cbn [bind rrel]; [|reflexivity]. split; [exact E|]. cbn [nr mk]. apply mk_ext. intros a j Ha Hj. pose proof (p_lt n p Hp j Hj). fold (mk (nr A) n (fun i j => entry A i (p j))). pose proof (npidx_lt _ _ _ Ek). now rewrite !entry_mk by lia. Qed.

(** * PLS1 *)
Variable lstsq : mat R -> mat R -> res (mat R).
Definition p1rel (a b : pls1_state) : Prop := let '(X, W, P, Ts, bh) := a in let '(X', W', P', Ts', bh') := b in pc X X' /\ pr W W' /\ pr P P' /\ Ts = Ts' /\ bh = bh'.
Lemma pls1_step_order y st st' k : p1rel st st' -> rrel p1rel (pls1_step pls1_weights y st k) (pls1_step pls1_weights y st' k).
Proof.
  destruct st as [[[[X W] P] Ts] bh], st' as [[[[X' W'] P'] Ts'] bh']. intros (HX & HW & HP & -> & ->). unfold pls1_step.
  eapply (rrel_bind pr). { unfold pls1_weights. eapply (rrel_bind pr); [apply (pc_tmul n p Hp); exact HX|]. intros a b H. now apply pr_normalized. } intros w w' Hw.
  eapply (rrel_bind pr); [apply (pr_set_column n p Hp); assumption|]. intros W1 W1' HW1. eapply (rrel_bind eq); [apply (pc_mul n p Hp); eassumption|]. intros t t' <-. same. same. same. same.
  eapply (rrel_bind pr); [apply (pc_tmul n p Hp); exact HX|]. intros xt xt' Hxt. cbv zeta. assert (Hd : pr (div_scalar xt a0) (div_scalar xt' a0)) by now apply (pr_map n p Hp).
  eapply (rrel_bind pr); [apply (pr_set_column n p Hp); assumption|]. intros P1 P1' HP1. eapply (rrel_bind pc); [apply (pr_mulT n p Hp Hn); exact Hd|]. intros tp tp' Htp. eapply (rrel_bind pc); [apply (pc_sub n p Hp Hn); assumption|]. intros X1 X1' HX1. cbn [rrel p1rel]. auto.
Qed.
Definition p1m (a b : pls1_st R) : Prop := exists P P' W W', o_P a = Some P /\ o_P b = Some P' /\ o_W a = Some W /\ o_W b = Some W' /\ pr P P' /\ pr W W' /\ o_b_hat a = o_b_hat b.
Lemma pls1_fit_order k X X' Y : pc X X' -> rrel p1m (pls1_fit lstsq pls1_weights k X Y) (pls1_fit lstsq pls1_weights k X' Y).
Proof.
  intros HX. unfold pls1_fit, pls1_loop. cbv zeta. rewrite (pc_nr n p X X' HX). pose proof HX as (C & E). assert (C' : nc X' = n) by (rewrite E; reflexivity). rewrite C, C'.
  eapply rrel_bind; [apply (rrel_range p1rel); [cbn; repeat (split; [first [assumption|reflexivity|apply (pr_zeros n p Hp); exact Hn]|]); reflexivity|intros; now apply pls1_step_order]|].
  intros [[[[X1 W] P] Ts] bh] [[[[X1' W'] P'] Ts'] bh'] (_ & HW & HP & -> & ->). eapply (rrel_bind eq); [apply (pr_tmul n p Hp); assumption|]. intros pw pw' <-. same.
  eapply (rrel_bind pr); [apply (pr_mul n p Hp); exact HW|]. intros tm tm' Htm. eapply (rrel_bind pr); [apply (pr_mul n p Hp); exact Htm|]. intros r r' _. cbn [rrel]. exists P, P', W, W'. cbn. auto 10.
Qed.
Definition shaped (A B : mat R) : Prop := nr A = nr B /\ nc A = nc B.
Lemma set_shaped A B v w k : shaped A B -> shaped v w -> rrel shaped (set_column A k v) (set_column B k w).
Proof.
  intros (E1 & E2) (F1 & F2). unfold set_column, must_be_vector. assert (V : is_vector w = is_vector v) by (unfold is_vector; now rewrite F1, F2). rewrite V. destruct (is_vector v); cbn [bind rrel]; [|reflexivity]. rewrite E2. destruct (npidx (nc B) k); cbn [bind rrel]; [|reflexivity]. split; [exact E1|reflexivity].
Qed.
Lemma pls1_row_order k a b x y : p1m a b -> pc x y -> rrel eq (pls1_row k a x) (pls1_row k b y).
Proof.
  intros (P & P' & W & W' & E1 & E2 & E3 & E4 & HP & HW & Eb) Hx. unfold pls1_row. eapply (rrel_bind (fun s t : mat R * mat R * mat R => snd s = snd t)).
  - assert (H : forall s t : mat R * mat R * mat R, (let '(x, Xs, Ts) := s in let '(x', Xs', Ts') := t in pc x x' /\ shaped Xs Xs' /\ Ts = Ts') -> snd s = snd t) by (intros [[? ?] ?] [[? ?] ?]; cbn; tauto).
    match goal with |- rrel _ ?u ?v => assert (G : rrel (fun s t : mat R * mat R * mat R => let '(x, Xs, Ts) := s in let '(x', Xs', Ts') := t in pc x x' /\ shaped Xs Xs' /\ Ts = Ts') u v) end.
    + apply (rrel_range (fun s t : mat R * mat R * mat R => let '(x, Xs, Ts) := s in let '(x', Xs', Ts') := t in pc x x' /\ shaped Xs Xs' /\ Ts = Ts')); [split; [exact Hx|split; [split; reflexivity|reflexivity]]|].
      intros [[u Xs] Ts] [[u' Xs'] Ts'] j (Hu & HXs & ->). eapply rrel_bind; [apply set_shaped; [exact HXs|]|]. { destruct Hu as (C & ->). split; [reflexivity|exact C]. } intros Y1 Y1' HY1. rewrite E1, E2, E3, E4. cbn [need bind].
      eapply (rrel_bind pr); [apply (pr_get_column n p Hp); exact HW|]. intros w w' Hw. eapply (rrel_bind eq); [apply (pc_mul n p Hp); eassumption|]. intros t t' <-. same. eapply (rrel_bind pr); [apply (pr_get_column n p Hp); exact HP|]. intros q q' Hq. same.
      eapply (rrel_bind pc); [apply (pc_sub n p Hp Hn); [exact Hu|apply pc_map, pr_T; exact Hq]|]. intros v v' Hv. cbn [rrel]. auto.
    + match type of G with rrel _ ?u ?v => destruct u, v end; cbn [rrel] in *; auto.
  - intros s t E. cbn [rrel]. exact E.
Qed.
Lemma pls1_transform_order k a b Z Z' : p1m a b -> pc Z Z' -> rrel eq (pls1_transform k a Z) (pls1_transform k b Z').
Proof.
  intros Hm HZ. unfold pls1_transform. rewrite (pc_nr n p Z Z' HZ). apply (rrel_range eq); [reflexivity|]. intros s t i <-. eapply rrel_bind; [apply pc_row; exact HZ|]. intros x x' Hx. eapply (rrel_bind eq); [apply pls1_row_order; eassumption|]. intros Ts Ts' <-. apply rrel_refl.
Qed.
Lemma pls1_predict_order k a b Z Z' : p1m a b -> pc Z Z' -> rrel eq (pls1_predict k a Z) (pls1_predict k b Z').
Proof.
  intros Hm HZ. unfold pls1_predict. rewrite (pc_nr n p Z Z' HZ). apply (rrel_range eq); [reflexivity|]. intros s t i <-. eapply rrel_bind; [apply pc_row; exact HZ|]. intros x x' Hx. eapply (rrel_bind eq); [apply pls1_row_order; eassumption|]. intros Ts Ts' <-. destruct Hm as (? & ? & ? & ? & _ & _ & _ & _ & _ & _ & ->). apply rrel_refl.
Qed.
(** a class that does not see the order; [Q] relates the answers of transform *)
Definition blind {A K} (c : pls_class A K R) (Q : mat R -> mat R -> Prop) : Prop := forall k a X X' Y, pc X X' ->
  snd (c_train c k a X' Y) = snd (c_train c k a X Y) /\
  (snd (c_train c k a X Y) = Ok None -> forall Z Z', pc Z Z' ->
    rrel Q (snd (c_transform c k (fst (c_train c k a X Y)) Z)) (snd (c_transform c k (fst (c_train c k a X' Y)) Z')) /\
    snd (c_predict c k (fst (c_train c k a X' Y)) Z') = snd (c_predict c k (fst (c_train c k a X Y)) Z)).
Lemma pls1_blind : blind (pls1 lstsq) eq.
Proof.
  intros k a X X' Y HX. cbn [c_train c_transform c_predict pls1]. pose proof (pls1_fit_order k X X' Y HX) as Q. destruct (pls1_fit lstsq pls1_weights k X Y) as [m|e], (pls1_fit lstsq pls1_weights k X' Y) as [m'|e']; cbn [rrel] in Q; try contradiction; cbn [fst snd].
  - split; [reflexivity|]. intros _ Z Z' HZ. split; [now apply pls1_transform_order|]. symmetry. apply rrel_eq. now apply pls1_predict_order.
  - subst. split; [reflexivity|discriminate].
Qed.

End Order.

(** * From the class to the object *)
Lemma order_pc s A B : columns_in_order s A B -> pc (nc A) s A B.
Proof. intros (W & R2 & C2 & H). split; [reflexivity|]. rewrite (wf_mk B W), R2, C2. apply mk_ext. intros i j Hi Hj. now apply H. Qed.
Lemma pc_order n s A B : pc n s A B -> columns_in_order s A B.
Proof. intros (C & ->). split; [apply mk_wf|]. split; [reflexivity|]. split; [exact (eq_sym C)|]. intros i j Hi Hj. now rewrite entry_mk by lia. Qed.
Lemma order_object {A K} (c : pls_class A K R) (Q : mat R -> mat R -> Prop) (o : pls_st A R) (X Y X2 : mat R) (s : nat -> nat) : let pp := p_preprocessing o in
  preparable pp X -> preparable pp Y -> wf X -> wf Y -> nc X <> 0 -> nc Y <> 0 -> Permutation (map s (seq 0 (nc X))) (seq 0 (nc X)) -> columns_in_order s X X2 ->
  (forall A1 A2 B1, nr A1 = nr X -> nr B1 = nr Y -> nc B1 = nc Y -> wf B1 -> pc (nc X) s A1 A2 -> let k := p_num_components o in let a := c_reset c (p_own o) in
    snd (c_train c k a A2 B1) = snd (c_train c k a A1 B1) /\
    (snd (c_train c k a A1 B1) = Ok None -> forall Z Z', pc (nc X) s Z Z' ->
      rrel Q (snd (c_transform c k (fst (c_train c k a A1 B1)) Z)) (snd (c_transform c k (fst (c_train c k a A2 B1)) Z')) /\
      snd (c_predict c k (fst (c_train c k a A2 B1)) Z') = snd (c_predict c k (fst (c_train c k a A1 B1)) Z))) ->
  let t := fst (initialize c o (Some X) (Some Y)) in let t2 := fst (initialize c o (Some X2) (Some Y)) in
  snd (initialize c o (Some X2) (Some Y)) = snd (initialize c o (Some X) (Some Y)) /\
  forall Z Z2, nc Z = nc X -> columns_in_order s Z Z2 -> rrel Q (snd (transform c t Z)) (snd (transform c t2 Z2)) /\ snd (predict c t2 Z2) = snd (predict c t Z).
Proof.
  intros pp PX PY WX WY NX NY Hs HX HB. pose proof HX as (WX2 & R2 & C2 & HE). pose proof (perm_preparable pp s X X2 Hs HX PX) as PX2.
  destruct (init_any c o Y WY NY PY) as (mean & std & tr & H). destruct (H X WX NX PX) as (tp & E). destruct (H X2 WX2 ltac:(congruence) PX2) as (tp2 & E2). clear H. cbv zeta. rewrite E, E2. clear E E2.
  destruct (check_data c Y) as [m|]; [split; [reflexivity|]; intros; split; reflexivity|]. fold pp. pose proof (order_pc s _ _ (prepared_order pp s X X2 Hs HX)) as HP. cbn [nc mk] in HP.
  destruct (HB (mk (nr X) (nc X) (prepared pp X)) (mk (nr X2) (nc X2) (prepared pp X2)) (mk (nr Y) (nc Y) (prepared pp Y)) eq_refl eq_refl eq_refl ltac:(apply mk_wf) HP) as (T1 & T2). clear HB. cbv zeta in T1, T2.
  destruct (c_train c _ _ (mk (nr X) (nc X) (prepared pp X)) _) as [u r], (c_train c _ _ (mk (nr X2) (nc X2) (prepared pp X2)) _) as [u2 r2]. cbn [fst snd] in T1, T2 |- *. subst r2. split; [reflexivity|]. intros Z Z2 CZ HZ. pose proof (order_pc s Z Z2 HZ) as HZ'. rewrite CZ in HZ'.
  unfold transform, predict, do_predict. cbn [p_initialised p_num_components p_own p_trans_response p_class_mean p_class_std_dev]. destruct r as [[m|]|e]; cbn [negb]; [split; reflexivity| |split; reflexivity].
  destruct (T2 eq_refl Z Z2 HZ') as (Q1 & Q2). destruct (c_transform c _ u Z), (c_transform c _ u2 Z2), (c_predict c _ u Z), (c_predict c _ u2 Z2). cbn [snd] in *. subst. split; [exact Q1|reflexivity].
Qed.
(** * OPLS *)
Section Opls.
Variables (n : nat) (p : nat -> nat).
Hypothesis Hp : Permutation (map p (seq 0 n)) (seq 0 n).
Hypothesis Hn : n <> 0.
Notation pr := (pr n p).
Notation pc := (pc n p).
Ltac same := eapply (rrel_bind eq); [apply rrel_refl|]; let a := fresh "a" in let b := fresh "b" in intros a b <-; cbv beta.
Definition oprel (a b : mat R * mat R * mat R * mat R * mat R) : Prop := let '(X, Xt, W, P, Tm) := a in let '(X', Xt', W', P', Tm') := b in pc X X' /\ Xt = transpose X /\ Xt' = transpose X' /\ pr W W' /\ pr P P' /\ Tm = Tm'.
Lemma inv_pr a b : pr a b -> inv_L2_squared b = inv_L2_squared a.
Proof. intros H. unfold inv_L2_squared. now rewrite (pr_norm2_squared n p Hp a b H). Qed.
Lemma opls_step_order w w' st st' k : pr w w' -> oprel st st' -> rrel oprel (opls_step w st k) (opls_step w' st' k).
Proof.
  intros Hw. destruct st as [[[[X Xt] W] P] Tm], st' as [[[[X' Xt'] W'] P'] Tm']. intros (HX & -> & -> & HW & HP & ->). unfold opls_step. rewrite (inv_pr w w' Hw).
  eapply (rrel_bind eq); [apply (pc_mul n p Hp); eassumption|]. intros xw ? <-. cbv zeta. eapply (rrel_bind pr); [apply (pc_tmul n p Hp); exact HX|]. intros xt xt' Hxt.
  eapply (rrel_bind eq); [apply (pr_tmul n p Hp); [exact Hw|apply (pr_map n p Hp); exact Hxt]|]. intros wp ? <-. same. eapply (rrel_bind pr); [apply (pr_sub n p Hp); apply (pr_map n p Hp); assumption|]. intros wo wo' Hwo.
  eapply (rrel_bind pr); [apply (pr_normalized n p Hp Hn); exact Hwo|]. intros v v' Hv. rewrite (inv_pr v v' Hv). eapply (rrel_bind eq); [apply (pc_mul n p Hp); eassumption|]. intros xo ? <-. eapply (rrel_bind pr); [apply (pc_tmul n p Hp); exact HX|]. intros xto xto' Hxto.
  eapply (rrel_bind pc); [apply (pr_mulT n p Hp Hn); apply (pr_map n p Hp); exact Hxto|]. intros tp tp' Htp. eapply (rrel_bind pc); [apply (pc_sub n p Hp Hn); assumption|]. intros X1 X1' HX1.
  eapply (rrel_bind pr); [apply (pr_set_column n p Hp); assumption|]. intros W1 W1' HW1. same. eapply (rrel_bind pr); [apply (pr_set_column n p Hp); [assumption|apply (pr_map n p Hp); exact Hxto]|]. intros P1 P1' HP1. cbn [rrel oprel]. auto 10.
Qed.
Lemma opls_fit_order k X X' Y : pc X X' -> rrel (fun r r' => oprel (snd r) (snd r')) (opls_fit k X Y) (opls_fit k X' Y).
Proof.
  intros HX. unfold opls_fit. cbv zeta. rewrite (pc_nr n p X X' HX). pose proof HX as (C & E). assert (C' : nc X' = n) by (rewrite E; reflexivity). rewrite C, C'. eapply (rrel_bind pr); [apply (pc_tmul n p Hp); exact HX|]. intros xy xy' Hxy.
  eapply (rrel_bind pr); [apply (pr_normalized n p Hp Hn), (pr_map n p Hp); exact Hxy|]. intros w w' Hw. eapply (rrel_bind oprel); [apply (rrel_range oprel); [cbn; repeat (split; [first [assumption|reflexivity|apply (pr_zeros n p Hp); exact Hn]|]); reflexivity|intros; now apply opls_step_order]|]. intros st st' H. exact H.
Qed.
Lemma opls_transform_order W W' P P' X X' : pr W W' -> pr P P' -> pc X X' -> rrel pc (opls_transform (Some W) (Some P) X) (opls_transform (Some W') (Some P') X').
Proof.
  intros HW HP HX. unfold opls_transform. cbn [need bind]. eapply (rrel_bind eq); [apply (pc_mul n p Hp); eassumption|]. intros t ? <-. eapply (rrel_bind pc); [apply (pr_mulT n p Hp Hn); exact HP|]. intros o o' Ho. now apply (pc_sub n p Hp Hn).
Qed.
(** The preprocessing of the base object inside OPLS: none, or center with at least two rows. *)
Definition quiet (pb : preproc) (rows : nat) : Prop := pb = PP_NONE \/ (pb = PP_CENTER /\ 2 <= rows).
Lemma quiet_preparable pb (A : mat R) : quiet pb (nr A) -> preparable pb A.
Proof. intros [-> | [-> H]]; [exact I|exact H]. Qed.
Lemma opls_transform_out W P (A C : mat R) : opls_transform W P A = Ok C -> nr C = nr A /\ nc C = nc A /\ wf C.
Proof.
  unfold opls_transform. destruct (need W); cbn [bind]; [|discriminate]. destruct (mul A _); cbn [bind]; [|discriminate]. destruct (need P); cbn [bind]; [|discriminate]. destruct (mul _ _); cbn [bind]; [|discriminate]. unfold sub. destruct (must_be_same_shape A _); cbn [bind]; [|discriminate]. intros [= <-]. split; [reflexivity|]. split; [reflexivity|apply mk_wf].
Qed.
Lemma opls_blind_at {A K} (base : pls_class A K R) Q k (a : opls_st (T:=R) (AB:=A)) X X' Y : blind n p base Q -> quiet (p_preprocessing (op_base a)) (nr X) -> quiet (p_preprocessing (op_base a)) (nr Y) -> wf Y -> nc Y <> 0 -> pc X X' -> let c := opls base in
  snd (c_train c k a X' Y) = snd (c_train c k a X Y) /\
  (snd (c_train c k a X Y) = Ok None -> forall Z Z', pc Z Z' ->
    rrel pc (snd (c_transform c k (fst (c_train c k a X Y)) Z)) (snd (c_transform c k (fst (c_train c k a X' Y)) Z')) /\
    snd (c_predict c k (fst (c_train c k a X' Y)) Z') = snd (c_predict c k (fst (c_train c k a X Y)) Z)).
Proof.
  intros HB HqX HqY WY NY HX. cbv zeta. cbn [c_train c_transform c_predict opls]. unfold opls_train. pose proof (opls_fit_order k X X' Y HX) as F.
  destruct (opls_fit k X Y) as [[w [[[[X1 Xt1] W1] P1] T1]]|e], (opls_fit k X' Y) as [[w' [[[[X2 Xt2] W2] P2] T2]]|e']; cbn [rrel snd] in F; try contradiction; [|subst; split; [reflexivity|discriminate]].
  destruct F as (_ & _ & _ & HW & HP & <-). pose proof (opls_transform_order W1 W2 P1 P2 X X' HW HP HX) as G. destruct (opls_transform _ _ X) as [c1|e1] eqn:Ec, (opls_transform _ _ X') as [c2|e2]; cbn [rrel] in G; try contradiction; [|subst; split; [reflexivity|discriminate]]. apply opls_transform_out in Ec. destruct Ec as (Rc & Cc & Wc). pose proof HX as (CX & _). assert (Ec : nc c1 = n) by congruence.
  destruct (order_object base Q (op_base a) c1 Y c2 p) as (I1 & I2).
  { apply quiet_preparable. now rewrite Rc. }
  { now apply quiet_preparable. }
  { exact Wc. }
  { exact WY. }
  { congruence. }
  { exact NY. }
  { now rewrite Ec. }
  { exact (pc_order n p c1 c2 G). }
  { intros A1 A2 B1 _ _ _ _ HA. rewrite Ec in *. exact (HB _ _ A1 A2 B1 HA). }
 destruct (initialize base _ (Some c1) _) as [b1 r1], (initialize base _ (Some c2) _) as [b2 r2]. cbn [fst snd] in *. subst r2. split; [reflexivity|]. intros _ Z Z' HZ. cbn [op_W op_P].
  pose proof (opls_transform_order W1 W2 P1 P2 Z Z' HW HP HZ) as GZ. split; [exact GZ|]. unfold opls_predict. cbn [op_W op_P op_base]. destruct (opls_transform _ _ Z) as [z1|e1], (opls_transform _ _ Z') as [z2|e2]; cbn [rrel] in GZ; try contradiction; [|now subst].
  assert (I3 : snd (predict base b2 z2) = snd (predict base b1 z1)) by (apply I2; [destruct GZ as (GC & _); congruence|exact (pc_order n p z1 z2 GZ)]). clear I2. destruct (predict base b1 z1), (predict base b2 z2). exact I3.
Qed.
End Opls.

(** * The claims *)
Theorem C113_pls1 lstsq (o : pls_st (pls1_st R) R) (X Y X2 : mat R) (s : nat -> nat) : let c := pls1 lstsq in
  preparable (p_preprocessing o) X -> preparable (p_preprocessing o) Y -> wf X -> wf Y -> nc X <> 0 -> nc Y <> 0 -> Permutation (map s (seq 0 (nc X))) (seq 0 (nc X)) -> columns_in_order s X X2 ->
  let t := fst (initialize c o (Some X) (Some Y)) in let t2 := fst (initialize c o (Some X2) (Some Y)) in
  snd (initialize c o (Some X2) (Some Y)) = snd (initialize c o (Some X) (Some Y)) /\
  forall Z Z2, nc Z = nc X -> columns_in_order s Z Z2 -> snd (transform c t2 Z2) = snd (transform c t Z) /\ snd (predict c t2 Z2) = snd (predict c t Z).
Proof.
  intros c PX PY WX WY NX NY Hs HX. destruct (order_object c eq o X Y X2 s PX PY WX WY NX NY Hs HX) as (E1 & E2).
  - intros A1 A2 B1 _ _ _ _ HA. exact (pls1_blind (nc X) s Hs NX lstsq (p_num_components o) (c_reset c (p_own o)) A1 A2 B1 HA).
  - split; [exact E1|]. intros Z Z2 CZ HZ. destruct (E2 Z Z2 CZ HZ) as (Q1 & Q2). split; [symmetry; now apply rrel_eq|exact Q2].
Qed.
Theorem C113_opls lstsq (o : pls_st (opls_st (T:=R) (AB:=pls1_st R)) R) (X Y X2 : mat R) (s : nat -> nat) : let c := opls (pls1 lstsq) in
  preparable (p_preprocessing o) X -> preparable (p_preprocessing o) Y -> quiet (p_preprocessing (op_base (p_own o))) (nr X) -> quiet (p_preprocessing (op_base (p_own o))) (nr Y) ->
  wf X -> wf Y -> nc X <> 0 -> nc Y <> 0 -> Permutation (map s (seq 0 (nc X))) (seq 0 (nc X)) -> columns_in_order s X X2 ->
  let t := fst (initialize c o (Some X) (Some Y)) in let t2 := fst (initialize c o (Some X2) (Some Y)) in
  snd (initialize c o (Some X2) (Some Y)) = snd (initialize c o (Some X) (Some Y)) /\
  forall Z Z2, nc Z = nc X -> columns_in_order s Z Z2 ->
    match snd (transform c t Z), snd (transform c t2 Z2) with Ok C, Ok C2 => columns_in_order s C C2 | Err e, Err e2 => e = e2 | _, _ => False end /\
    snd (predict c t2 Z2) = snd (predict c t Z).
Proof.
  intros c PX PY Hb Hb2 WX WY NX NY Hs HX. destruct (order_object c (pc (nc X) s) o X Y X2 s PX PY WX WY NX NY Hs HX) as (E1 & E2).
  - intros A1 A2 B1 R1 R2 NB WB HA. refine (opls_blind_at (nc X) s Hs NX (pls1 lstsq) eq (p_num_components o) (c_reset c (p_own o)) A1 A2 B1 (pls1_blind (nc X) s Hs NX lstsq) _ _ WB _ HA); [rewrite R1; exact Hb|rewrite R2; exact Hb2|congruence].
  - split; [exact E1|]. intros Z Z2 CZ HZ. destruct (E2 Z Z2 CZ HZ) as (Q1 & Q2). split; [|exact Q2]. unfold rrel in Q1. destruct (snd (transform c _ Z)), (snd (transform c _ Z2)); auto. now apply (pc_order (nc X)).
Qed.
Print Assumptions C113_pls1.
Print Assumptions C113_opls.

(** The training data of C72 with the two features exchanged: PLS1, and OPLS over PLS1 (with no orthogonal
    component, over a centring base), are trained, and exchanged rows get the same predictions from PLS1. *)
Definition swapped (A : mat R) : mat R := mk (nr A) 2 (fun i j => entry A i (1 - j)).
Lemma swapped_order A : nc A = 2 -> columns_in_order (fun j => 1 - j) A (swapped A).
Proof. intros E. split; [apply mk_wf|]. split; [reflexivity|]. split; [exact (eq_sym E)|]. intros i j Hi Hj. unfold swapped. now rewrite entry_mk by lia. Qed.
Definition o_start : pls_st (opls_st (T:=R) (AB:=pls1_st R)) R := PlsSt 0 PP_NONE false [] [] None None (Opls None None None None p_start).
Lemma o_trains : snd (initialize (opls (pls1 no_ls)) o_start (Some kX) (Some kY)) = Ok None.
Proof.
  destruct k_run as (sk & s & _ & Ei & _). pose proof (init_none (opls (pls1 no_ls)) o_start kX kY eq_refl ltac:(discriminate)) as I. cbn [c_train opls p_num_components p_own o_start c_reset] in I. unfold opls_train in I. cbn [op_base op_X_osc] in I.
  assert (F : exists w W P Tm, opls_fit 0 kX kY = Ok (w, (kX, transpose kX, W, P, Tm)) /\ opls_transform (Some W) (Some P) kX = Ok kX).
  { unfold opls_fit. cbv zeta. cbn [mul]. eexists. eexists. eexists. eexists. split; [reflexivity|]. 
    set (z := zeros (T:=R) (zn (nc kX)) 0). assert (Ez : z = mk 2 0 (fun _ _ => 0%R)) by reflexivity. rewrite Ez. transitivity (Ok (map2_mat Rminus kX (matmul (matmul kX (mk 2 0 (fun _ _ => 0%R))) (transpose (mk 2 0 (fun _ _ => 0%R)))))); [reflexivity|].
    f_equal. assert (W : wf kX) by apply kX_wf. rewrite (wf_mk kX W) at 3. unfold map2_mat. apply mk_ext. intros i j Hi Hj. unfold matmul at 1. rewrite entry_mk by assumption. change (sumn (T:=R) (nc (matmul kX (mk 2 0 (fun _ _ => 0%R)))) _) with 0%R. ring. }
  destruct F as (w & W & P & Tm & F1 & F2). rewrite F1, F2, Ei in I. destruct I as (I & _). rewrite I. reflexivity.
Qed.
Example C113_ex : exists s s2 V, initialize (pls1 no_ls) p_start (Some kX) (Some kY) = (s, Ok None) /\ initialize (pls1 no_ls) p_start (Some (swapped kX)) (Some kY) = (s2, Ok None) /\
  snd (predict (pls1 no_ls) s kX) = Ok V /\ snd (predict (pls1 no_ls) s2 (swapped kX)) = Ok V /\
  snd (initialize (opls (pls1 no_ls)) o_start (Some kX) (Some kY)) = Ok None /\ snd (initialize (opls (pls1 no_ls)) o_start (Some (swapped kX)) (Some kY)) = Ok None.
Proof.
  destruct k_run as (sk & s & _ & Ei & H). destruct (H (mk 3 2 (fun i j => entry kX i j + Rmean 3 (fun k => entry kX k j))%R)) as (V & _ & HV); [apply mk_wf|reflexivity|discriminate|].
  match type of HV with snd (predict _ _ ?m) = _ => replace m with kX in HV end.
  2: { assert (W : wf kX) by apply kX_wf. rewrite (wf_mk kX W) at 1. apply mk_ext. intros i j Hi Hj. rewrite entry_mk by assumption. ring. }
  assert (Hs : Permutation (map (fun j => 1 - j) (seq 0 (nc kX))) (seq 0 (nc kX))) by apply perm_swap.
  destruct (C113_pls1 no_ls p_start kX kY (swapped kX) (fun j => 1 - j) ltac:(cbn; lia) ltac:(cbn; lia) ltac:(apply kX_wf) ltac:(apply kX_wf) ltac:(discriminate) ltac:(discriminate) Hs (swapped_order kX eq_refl)) as (E1 & E2).
  destruct (C113_opls no_ls o_start kX kY (swapped kX) (fun j => 1 - j) I I ltac:(right; split; [reflexivity|cbn; lia]) ltac:(right; split; [reflexivity|cbn; lia]) ltac:(apply kX_wf) ltac:(apply kX_wf) ltac:(discriminate) ltac:(discriminate) Hs (swapped_order kX eq_refl)) as (F1 & _).
  rewrite Ei in E1, E2. destruct (initialize (pls1 no_ls) p_start (Some (swapped kX)) (Some kY)) as [s2 r]. cbn [fst snd] in *. subst r. destruct (E2 kX (swapped kX) eq_refl (swapped_order kX eq_refl)) as (_ & Q). exists s, s2, V. split; [exact Ei|]. split; [reflexivity|]. split; [exact HV|]. split; [congruence|]. split; [exact o_trains|]. rewrite F1. exact o_trains.
Qed.
