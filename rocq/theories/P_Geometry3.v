(** C111: KernelPLS and the coordinate system of the responses. *)
From Coq Require Import List ZArith Lia Bool Arith Reals Lra.
From Verif Require Import Base Num Mat M_Matrix M_Factory M_Helper M_Loop M_Utils M_Linalg M_Transform M_Kernel M_PLSBase M_PLS M_PLS2.
From Verif Require Import S_Matrix P_Helper L_Base L_Mat L_Matrix L_MatR L_Alg L_Stats L_Transform P_Transform P_Kernel P_PLSPrep L_Public L_Batch L_Perm P_KernelPLS P_KernelPLS2 P_Geometry P_Units P_Units2 P_Geometry2.
Import ListNotations.
Local Open Scope R_scope.

(** Q Q^T = h I: rotations, reflections and permutations, a common change of the unit, and copies of all
    responses in further columns *)
Definition similarity (Q : mat R) (h : R) : Prop := 0 < h /\
  forall l m, (l < nr Q)%nat -> (m < nr Q)%nat -> Rsum (nc Q) (fun j => entry Q l j * entry Q m j) = if (l =? m)%nat then h else 0.

Section Responses.
Variables (Q : mat R) (h : R).
Hypothesis HQ : similarity Q h.
Let q := nr Q.
Let p := nc Q.
(** rows in the new coordinates; columns in the new coordinates *)
Definition rq (A B : mat R) : Prop := nc A = q /\ B = mk (nr A) p (fun i j => sumn q (fun l => entry A i l * entry Q l j)).
Definition cq (A B : mat R) : Prop := nr A = q /\ B = mk p (nc A) (fun j c => sumn q (fun l => entry A l c * entry Q l j)).
Lemma iso_h (u v : nat -> R) : sumn p (fun j => sumn q (fun l => u l * entry Q l j) * sumn q (fun m => v m * entry Q m j)) = h * sumn q (fun l => u l * v l).
Proof.
  destruct HQ as (_ & H). rewrite (sumn_ext p _ (fun j => sumn q (fun l => sumn q (fun m => u l * v m * (entry Q l j * entry Q m j))))).
  2:{ intros j Hj. rewrite <- sumR_scal_r. apply sumn_ext. intros l Hl. rewrite <- sumR_scal. apply sumn_ext. intros m Hm. ring. }
  rewrite sumR_swap. rewrite <- sumR_scal. apply sumn_ext. intros l Hl. rewrite sumR_swap. rewrite (sumR_single q l); [|assumption|].
  - rewrite sumR_scal, <- Rsum_sumn. unfold p. rewrite H, Nat.eqb_refl by assumption. ring.
  - intros m Hm Hne. rewrite sumR_scal, <- Rsum_sumn. unfold p. rewrite H by assumption. destruct (Nat.eqb_spec l m); [congruence|ring].
Qed.
Lemma rq_tmul Y Y2 t : rq Y Y2 -> rrel (fun a b => cq a b /\ nc a = nc t) (mul (transpose Y) t) (mul (transpose Y2) t).
Proof.
  intros (C & ->). unfold mul, is_multiplicable_with. cbn [transpose nr nc mk]. destruct (nr Y =? nr t); cbn [negb rrel]; [|reflexivity]. split; [|reflexivity]. split; [exact C|]. unfold matmul. cbn [transpose nr nc mk]. apply mk_ext. intros j c Hj Hc.
  rewrite (sumn_ext (nr Y) _ (fun i => sumn q (fun l => entry Q l j * (entry Y i l * entry t i c)))).
  - rewrite sumR_swap. apply sumn_ext. intros l Hl. rewrite entry_mk by lia. cbn [nmul NumR]. rewrite sumR_scal, Rmult_comm. f_equal. apply sumn_ext. intros i Hi. unfold transpose. rewrite entry_mk by lia. reflexivity.
  - intros i Hi. unfold transpose. cbn [nr nc mk]. rewrite entry_mk by lia. fold (mk (nr Y) p (fun i j => sumn q (fun l => entry Y i l * entry Q l j))). rewrite entry_mk by lia. cbn [nmul NumR]. rewrite <- sumR_scal_r. apply sumn_ext. intros; ring.
Qed.
Lemma rq_mul_cq Y Y2 v v2 : rq Y Y2 -> cq v v2 -> rrel (fun a b => scr h a b /\ nc a = nc v) (mul Y v) (mul Y2 v2).
Proof.
  intros (C & ->) (E & ->). unfold mul, is_multiplicable_with. cbn [nr nc mk]. rewrite C, E, !Nat.eqb_refl. cbn [negb rrel]. split; [|reflexivity]. split; [apply matmul_wf|]. unfold matmul, sc. cbn [nr nc mk]. apply mk_ext. intros i c Hi Hc. fold (mk (nr Y) (nc v) (fun i j => sumn (nc Y) (fun k => nmul (entry Y i k) (entry v k j)))). rewrite entry_mk by assumption.
  rewrite C. cbn [nmul NumR]. rewrite <- iso_h. apply sumn_ext. intros j Hj. fold (mk (nr Y) p (fun i j => sumn q (fun l => entry Y i l * entry Q l j))). rewrite !entry_mk by assumption. reflexivity.
Qed.
Lemma norm_sc m m2 : scr h m m2 -> normalized m2 0 = normalized m 0.
Proof.
  destruct HQ as (Hh & _). intros (W & ->). rewrite (wf_mk m W) at 2. unfold sc. rewrite !normalized0_mk. f_equal. apply mk_ext. intros i j Hi Hj. cbn [ndiv nmul nsqrt NumR].
  rewrite (sumn_ext (nr m) (fun k => h * entry m k j * (h * entry m k j)) (fun k => h * h * (entry m k j * entry m k j))) by (intros; ring). rewrite sumR_scal. set (v := sumn (nr m) (fun k => entry m k j * entry m k j)). rewrite sqrt_mult_alt by nra. rewrite sqrt_square by lra.
  destruct (Req_dec (sqrt v) 0) as [E|E]; [|field; lra]. assert (Ev : v = 0). { apply sqrt_eq_0; [|exact E]. apply sumR_nonneg. intros. nra. }
  assert (E0 : entry m i j = 0). { assert (P : entry m i j * entry m i j = 0); [|nra]. apply (sumR_nonneg_0 (nr m) (fun k => entry m k j * entry m k j)); [intros; nra|exact Ev|exact Hi]. } rewrite E0. unfold Rdiv. ring.
Qed.
Lemma mul_cqT t v v2 : cq v v2 -> rrel rq (mul t (transpose v)) (mul t (transpose v2)).
Proof.
  intros (E & ->). unfold mul, is_multiplicable_with. cbn [transpose nr nc mk]. destruct (Nat.eqb_spec (nc t) (nc v)) as [Ec|]; cbn [negb rrel]; [|reflexivity]. split; [exact E|]. unfold matmul. cbn [transpose nr nc mk]. rewrite E. apply mk_ext. intros i j Hi Hj.
  rewrite (sumn_ext (nc t) _ (fun c => sumn q (fun l => entry t i c * entry v l c * entry Q l j))).
  - rewrite sumR_swap. apply sumn_ext. intros l Hl. rewrite entry_mk by lia. rewrite sumR_scal_r. f_equal. apply sumn_ext. intros c Hc. unfold transpose. rewrite entry_mk by lia. reflexivity.
  - intros c Hc. unfold transpose. cbn [nr nc mk]. rewrite entry_mk by lia. fold (mk p (nc v) (fun j c => sumn q (fun l => entry v l c * entry Q l j))). rewrite entry_mk by lia. cbn [nmul NumR]. rewrite <- sumR_scal. apply sumn_ext. intros; ring.
Qed.
Lemma rq_mul_l M A A2 : rq A A2 -> rrel rq (mul M A) (mul M A2).
Proof.
  intros (C & ->). unfold mul, is_multiplicable_with. cbn [nr nc mk]. destruct (Nat.eqb_spec (nc M) (nr A)) as [E|]; cbn [negb rrel]; [|reflexivity]. split; [exact C|]. unfold matmul. cbn [nr nc mk]. apply mk_ext. intros i j Hi Hj.
  rewrite (sumn_ext (nc M) _ (fun k => sumn q (fun l => entry M i k * entry A k l * entry Q l j))).
  - rewrite sumR_swap. apply sumn_ext. intros l Hl. rewrite entry_mk by lia. now rewrite sumR_scal_r.
  - intros k Hk. fold (mk (nr A) p (fun i j => sumn q (fun l => entry A i l * entry Q l j))). rewrite entry_mk by lia. cbn [nmul NumR]. rewrite <- sumR_scal. apply sumn_ext. intros; ring.
Qed.
Lemma rq_sub A A2 B B2 : rq A A2 -> rq B B2 -> rrel rq (sub A B) (sub A2 B2).
Proof.
  intros (C & ->) (D & ->). unfold sub. rewrite !must_be_same_shape_eq. unfold same_shape_as. cbn [nr nc mk]. rewrite C, D, !Nat.eqb_refl. destruct (Nat.eqb_spec (nr A) (nr B)) as [E|]; cbn [andb bind rrel]; [|reflexivity]. split; [exact C|]. unfold map2_mat. cbn [nr nc mk]. apply mk_ext. intros i j Hi Hj.
  fold (mk (nr A) p (fun i j => sumn q (fun l => entry A i l * entry Q l j))) (mk (nr B) p (fun i j => sumn q (fun l => entry B i l * entry Q l j))). rewrite !entry_mk by lia. cbn [nsub NumR]. rewrite <- sumR_minus. apply sumn_ext. intros l Hl. rewrite entry_mk by lia. ring.
Qed.
Lemma cq_set_column M M2 v v2 k : cq M M2 -> cq v v2 -> nc v = 1%nat -> rrel cq (set_column M k v) (set_column M2 k v2).
Proof.
  intros (E & ->) (F & ->) C. assert (HV : forall z (w : mat R), nr w = z -> nc w = 1%nat -> forall N : mat R, nr N = z -> set_column N k w = do j <- npidx (nc N) k; Ok (mk z (nc N) (fun r c => if (c =? j) then entry w r 0 else entry N r c))).
  { intros z w Rw Cw N RN. unfold set_column, must_be_vector. assert (V : is_vector w = true) by (apply is_vector_iff; now right). rewrite V. cbn [bind]. destruct (npidx (nc N) k) as [j|e]; [|reflexivity]. cbn [bind]. rewrite RN. f_equal. apply mk_ext. intros r c Hr Hc. unfold is_row_vector. destruct (Nat.eqb_spec (nr w) 1) as [E1|E1].
    - rewrite V. cbn [andb transpose nr mk]. rewrite Cw. assert (r = 0)%nat by lia. subst r. destruct (Nat.ltb_spec 0 (Nat.min 1 z)) as [_|]; [|lia]. rewrite andb_true_r. destruct (c =? j); [|reflexivity]. fold (transpose w). unfold transpose. rewrite entry_mk by lia. reflexivity.
    - rewrite V. cbn [andb]. rewrite Rw, Nat.min_id. destruct (Nat.ltb_spec r z); [|lia]. now rewrite andb_true_r. }
  rewrite (HV q v F C M E). rewrite (HV p); [|reflexivity|exact C|reflexivity]. cbn [nc mk]. destruct (npidx (nc M) k) as [j|e]; cbn [bind rrel]; [|reflexivity]. split; [reflexivity|]. cbn [nc mk]. apply mk_ext. intros r c Hr Hc. fold (mk p (nc v) (fun j c => sumn q (fun l => entry v l c * entry Q l j))) (mk p (nc M) (fun j c => sumn q (fun l => entry M l c * entry Q l j))). rewrite !entry_mk by lia.
  destruct (Nat.eqb_spec c j) as [->|Ne]; [apply sumn_ext; intros l Hl; rewrite entry_mk by lia; now rewrite Nat.eqb_refl|]. apply sumn_ext. intros l Hl. rewrite entry_mk by lia. destruct (Nat.eqb_spec c j); [congruence|reflexivity].
Qed.
Lemma zeros_eq a c : a <> 0%nat -> (0 <= c)%Z -> zeros (T:=R) (zn a) c = mk a (rlen c) (fun _ _ => 0).
Proof.
  intros Ha Hc. unfold zeros, create. destruct (Z.eqb_spec c (-1)); [lia|]. assert (Er : rlen (zn a) = a) by (unfold rlen, zn; now rewrite Nat2Z.id). rewrite Er. now rewrite np_array2_tab by assumption.
Qed.
Lemma p_pos : q <> 0%nat -> p <> 0%nat.
Proof. destruct HQ as (Hh & H). intros Hq Hp. specialize (H 0%nat 0%nat). fold q p in H. rewrite Hp in H. cbn in H. unfold Rsum in H. cbn in H. specialize (H ltac:(lia) ltac:(lia)). lra. Qed.
Lemma cq_zeros c : q <> 0%nat -> (0 <= c)%Z -> cq (zeros (zn q) c) (zeros (zn p) c).
Proof.
  intros Hq Hc. pose proof (p_pos Hq). rewrite !zeros_eq by assumption. split; [reflexivity|]. cbn [nc mk]. apply mk_ext. intros i j Hi Hj. symmetry. apply sumR_zero. intros l Hl. rewrite entry_mk by assumption. ring.
Qed.

(** * The inner loop and one component *)
Definition wrel (a b : mat R * mat R * mat R * mat R) : Prop := let '(t, w, v, u) := a in let '(t2, w2, v2, u2) := b in t2 = t /\ w2 = w /\ u2 = u /\ cq v v2 /\ nc v = 1%nat.
Lemma while_moved fuel tol mi Kd Y Y2 t w v v2 u ch it : rq Y Y2 -> cq v v2 -> nc v = 1%nat -> nc u = 1%nat -> rrel wrel (kpls_while fuel tol mi Kd Y t w v u ch it) (kpls_while fuel tol mi Kd Y2 t w v2 u ch it).
Proof.
  intros HY. revert t w v v2 u ch it. induction fuel as [|fuel IH]; intros t w v v2 u ch it Hv Cv Cu; cbn [kpls_while]; destruct (nltb tol ch && (it <? mi)%Z); try (cbn [rrel wrel]; auto; fail).
  destruct (mul Kd u) as [ku|] eqn:Eku; cbn [bind]; [|reflexivity]. assert (Ck : nc ku = 1%nat). { unfold mul in Eku. destruct (negb _); [discriminate|]. injection Eku as <-. exact Cu. }
  destruct (normalized ku 0) as [t'|] eqn:Et; cbn [bind]; [|reflexivity]. assert (Ct : nc t' = 1%nat). { unfold normalized in Et. cbn [Z.eqb orb] in Et. injection Et as <-. exact Ck. }
  eapply rrel_bind; [apply rq_tmul; exact HY|]. intros a b (Hab & Ca). eapply rrel_bind; [apply rq_mul_cq; [exact HY|exact Hab]|]. intros y y2 (Hy & Cy). rewrite (norm_sc y y2 Hy). destruct (normalized y 0) as [u'|] eqn:Eu; cbn [bind]; [|reflexivity]. assert (Cu' : nc u' = 1%nat). { unfold normalized in Eu. cbn [Z.eqb orb] in Eu. injection Eu as <-. cbn [nc mk]. congruence. }
  destruct (sub u' u) as [dd|]; cbn [bind]; [|reflexivity]. apply IH; [exact Hab|congruence|exact Cu'].
Qed.
Definition krel (a b : kpls_state) : Prop := let '((Kd, Y), (t, w, v), (Tm, U, P, Qm)) := a in let '((Kd2, Y2), (t2, w2, v2), (Tm2, U2, P2, Qm2)) := b in
  Kd2 = Kd /\ rq Y Y2 /\ t2 = t /\ w2 = w /\ cq v v2 /\ nc v = 1%nat /\ Tm2 = Tm /\ U2 = U /\ P2 = P /\ cq Qm Qm2.
Lemma step_moved rnd tol mi rows Id a b k : column_source rnd -> krel a b -> rrel krel (kpls_step rnd tol mi rows Id a k) (kpls_step rnd tol mi rows Id b k).
Proof.
  intros Hr. destruct a as [[[Kd Y] [[t w] v]] [[[Tm U] P] Qm]], b as [[[Kd2 Y2] [[t2 w2] v2]] [[[Tm2 U2] P2] Qm2]]. intros (-> & HY & -> & -> & Hv & Cv & -> & -> & -> & HM). unfold kpls_step.
  eapply rrel_bind; [apply while_moved; auto; destruct (Hr (zn k) rows) as (f & ->); reflexivity|]. intros [[[t1 w1] v1] u1] [[[t1' w1'] v1'] u1'] (-> & -> & -> & Hv1 & Cv1).
  destruct (mul t1 (transpose t1)) as [tt'|]; cbn [bind]; [|reflexivity]. destruct (sub Id tt') as [part|]; cbn [bind]; [|reflexivity]. destruct (mul part Kd) as [pk|]; cbn [bind]; [|reflexivity]. destruct (mul pk part) as [Kd'|]; cbn [bind]; [|reflexivity].
  eapply rrel_bind; [apply mul_cqT; exact Hv1|]. intros tq tq2 Htq. eapply rrel_bind; [apply rq_sub; [exact HY|exact Htq]|]. intros Y' Y2' HY'.
  destruct (mul (transpose Kd') w1) as [kw|]; cbn [bind]; [|reflexivity]. destruct (mul (transpose w1) w1) as [ww|]; cbn [bind]; [|reflexivity]. destruct (as_real ww) as [wr|]; cbn [bind]; [|reflexivity]. cbv zeta.
  destruct (set_column Tm (zn k) t1) as [Tm'|]; cbn [bind]; [|reflexivity]. destruct (set_column U (zn k) u1) as [U'|]; cbn [bind]; [|reflexivity]. eapply rrel_bind; [apply cq_set_column; [exact HM|exact Hv1|exact Cv1]|]. intros M M2 HM'.
  destruct (set_column P (zn k) _) as [P'|]; cbn [bind rrel]; [|reflexivity]. cbn [krel]. auto 12.
Qed.
Definition mrel (m m2 : @kpls_model R) : Prop := km_K_orig m2 = km_K_orig m /\ km_K_deflated m2 = km_K_deflated m /\ km_T m2 = km_T m /\ km_U m2 = km_U m /\ km_P m2 = km_P m /\ km_X m2 = km_X m /\ cq (km_Q m) (km_Q m2) /\ rq (km_B_RHS m) (km_B_RHS m2).
Lemma fit_responses {KS} lstsq rnd (kapply : KS -> mat R -> option (mat R) -> KS * res (mat R)) n ks tol mi X Y Y2 : column_source rnd -> q <> 0%nat -> (0 <= n)%Z -> rq Y Y2 ->
  fst (kpls_fit lstsq rnd kapply n ks tol mi X Y2) = fst (kpls_fit lstsq rnd kapply n ks tol mi X Y) /\ rrel mrel (snd (kpls_fit lstsq rnd kapply n ks tol mi X Y)) (snd (kpls_fit lstsq rnd kapply n ks tol mi X Y2)).
Proof.
  intros Hr Hq Hn HY. pose proof HY as (C & E2). unfold kpls_fit. destruct (eye (zn (nr X)) (zn (nr X))) as [Id|e]; [|split; reflexivity]. destruct (kapply ks X None) as [ks' rK]. cbn [fst snd]. split; [reflexivity|]. destruct rK as [K|e]; cbn [bind]; [|reflexivity]. destruct (centralize_train (nr X) K) as [Ko|e]; cbn [bind]; [|reflexivity].
  assert (C2 : nc Y2 = p) by (rewrite E2; reflexivity). rewrite C, C2. eapply rrel_bind.
  - apply (rrel_range krel); [|intros x y i Hxy; now apply step_moved]. cbn [krel]. pose proof (cq_zeros 1 Hq ltac:(lia)) as Z1. pose proof (cq_zeros n Hq Hn) as Zn. assert (C1 : nc (zeros (T:=R) (zn q) 1) = 1%nat) by (rewrite zeros_eq by (assumption || lia); reflexivity). auto 12.
  - intros [[[Kd Y1] [[t w] v]] [[[Tm U] P] Qm]] [[[Kd2 Y12] [[t2 w2] v2]] [[[Tm2 U2] P2] Qm2]] (-> & _ & -> & -> & _ & _ & -> & -> & -> & HM).
    destruct (mul (transpose Tm) Ko) as [tk|]; cbn [bind]; [|reflexivity]. destruct (mul tk U) as [tku|]; cbn [bind]; [|reflexivity]. destruct (minverse lstsq tku) as [iv|]; cbn [bind]; [|reflexivity]. eapply rrel_bind; [apply mul_cqT; exact HM|]. intros B B2 HB. cbn [rrel mrel km_K_orig km_K_deflated km_T km_U km_P km_X km_Q km_B_RHS]. unfold mrel. cbn [km_K_orig km_K_deflated km_T km_U km_P km_X km_Q km_B_RHS]. auto 12.
Qed.

(** * Centring, training and answering *)
Variable d : nat -> R.
Lemma centred_rq Y Y2 : nc Y = q -> nr Y <> 0%nat -> moved Q d Y Y2 -> rq (centred Y Y) (centred Y2 Y2).
Proof.
  intros C N HM. pose proof HM as (_ & R2 & C2 & H). split; [exact C|]. unfold centred at 1. cbn [nr nc mk centred]. rewrite R2, C2. apply mk_ext. intros i j Hi Hj. rewrite <- R2 at 1. rewrite <- Rmean_np. rewrite (moved_mean Q d Y Y2 HM N j Hj), H, Rsum_sumn by assumption. rewrite C.
  rewrite (sumn_ext q (fun l => entry (centred Y Y) i l * entry Q l j) (fun l => entry Y i l * entry Q l j - Rmean (nr Y) (fun k => entry Y k l) * entry Q l j)).
  - rewrite sumR_minus. cbn [nsub NumR]. ring.
  - intros l Hl. unfold centred. rewrite entry_mk by lia. rewrite <- Rmean_np. cbn [nsub NumR]. ring.
Qed.
Lemma undo_rq Y Y2 V V2 : nc Y = q -> nr Y <> 0%nat -> moved Q d Y Y2 -> rq V V2 -> rrel (moved Q d) (snd (t_inverse center (center_conf Y) V)) (snd (t_inverse center (center_conf Y2) V2)).
Proof.
  intros C N HM (CV & ->). pose proof HM as (_ & R2 & C2 & H). unfold t_inverse. cbn [t_configured center ce_configured center_conf negb snd]. fold (center (T:=R)) (center_conf Y) (center_conf Y2). rewrite !center_undo. cbn [nr nc mk]. rewrite CV, C, C2. unfold p. rewrite !Nat.eqb_refl. cbn [rrel]. unfold moved. cbn [nr nc mk]. split; [apply mk_wf|]. split; [reflexivity|]. split; [reflexivity|]. intros i j Hi Hj.
  fold (mk (nr V) (nc Q) (fun i j => sumn q (fun l => entry V i l * entry Q l j))). rewrite !entry_mk by assumption. rewrite <- Rmean_np, (moved_mean Q d Y Y2 HM N j Hj), Rsum_sumn, C. cbn [nadd NumR].
  rewrite (sumn_ext q (fun l => entry (mk _ _ _) i l * entry Q l j) (fun l => entry V i l * entry Q l j + Rmean (nr Y) (fun k => entry Y k l) * entry Q l j)).
  - rewrite sumR_plus. ring.
  - intros l Hl. rewrite entry_mk by lia. rewrite <- Rmean_np. cbn [nadd NumR]. ring.
Qed.
End Responses.

Section Answers.
Context {KS : Type} (lstsq : mat R -> mat R -> res (mat R)) (rnd : Z -> nat -> mat R) (k0 : KS) (kapply : KS -> mat R -> option (mat R) -> KS * res (mat R)).
Variables (Q : mat R) (h : R) (d : nat -> R).
Hypotheses (HQ : similarity Q h) (HR : column_source rnd).
Definition twins_Y (Y Y2 : mat R) (o o2 : kpls_st (T:=R) (KS:=KS)) : Prop := exists m m2, mrel Q m m2 /\ exists ks tol mi cx, o = Kpls ks tol mi cx (center_conf Y) (Some m) /\ o2 = Kpls ks tol mi cx (center_conf Y2) (Some m2).
Lemma train_Y n a X Y Y2 : (0 <= n)%Z -> nr Q = nc Y -> nr Q <> 0%nat -> nr Y <> 0%nat -> moved Q d Y Y2 -> kp_center_Y a = t_new center ->
  let p := kpls_train lstsq rnd kapply n a X Y in let p2 := kpls_train lstsq rnd kapply n a X Y2 in
  snd p2 = snd p /\ (snd p = Ok None -> twins_Y Y Y2 (fst p) (fst p2)).
Proof.
  intros Hn RQ Nq NY HM Ha. cbv zeta. unfold kpls_train. destruct (t_transform center (kp_center_X a) X) as [cx [Xc|e]]; [|split; [reflexivity|discriminate]]. rewrite Ha, !centre_new.
  destruct (fit_responses Q h HQ lstsq rnd kapply n (kp_kernel a) (kp_tol a) (kp_max_iter a) Xc _ _ HR Nq Hn (centred_rq Q d Y Y2 (eq_sym RQ) NY HM)) as (E & Em).
  destruct (kpls_fit _ _ _ _ _ _ _ Xc (centred Y Y)) as [ks [m|e]], (kpls_fit _ _ _ _ _ _ _ Xc (centred Y2 Y2)) as [ks2 [m2|e2]]; cbn [fst snd rrel] in *; try contradiction; subst ks2.
  - split; [reflexivity|]. intros _. exists m, m2. split; [exact Em|]. now exists ks, (kp_tol a), (kp_max_iter a), cx.
  - subst e2. split; [reflexivity|discriminate].
Qed.
Lemma transform_Y Y Y2 o o2 Z : twins_Y Y Y2 o o2 -> snd (kpls_transform kapply o2 Z) = snd (kpls_transform kapply o Z) /\ twins_Y Y Y2 (fst (kpls_transform kapply o Z)) (fst (kpls_transform kapply o2 Z)).
Proof.
  intros (m & m2 & Hm & ks & tol & mi & cx & -> & ->). pose proof Hm as (E1 & _ & _ & E4 & _ & E6 & _). unfold kpls_transform. cbn [kp_kernel kp_tol kp_max_iter kp_center_X kp_center_Y kp_model]. destruct (t_transform center cx Z) as [cx' [Zc|e]].
  - rewrite E1, E4, E6. destruct (kapply ks Zc (Some (km_X m))) as [ks' rK]. cbn [fst snd]. split; [reflexivity|]. exists m, m2. split; [exact Hm|]. now exists ks', tol, mi, cx'.
  - split; [reflexivity|]. exists m, m2. split; [exact Hm|]. now exists ks, tol, mi, cx'.
Qed.
Lemma predict_Y Y Y2 o o2 Z : nr Q = nc Y -> nr Y <> 0%nat -> moved Q d Y Y2 -> twins_Y Y Y2 o o2 -> rrel (moved Q d) (snd (kpls_predict kapply o Z)) (snd (kpls_predict kapply o2 Z)).
Proof.
  intros RQ NY HM Ho. destruct (transform_Y Y Y2 o o2 Z Ho) as (E & Ht). unfold kpls_predict. destruct (kpls_transform kapply o Z) as [a r], (kpls_transform kapply o2 Z) as [a2 r2]. cbn [fst snd] in *. subst r2. destruct Ht as (m & m2 & Hm & ks & tol & mi & cx & -> & ->). pose proof Hm as (_ & _ & _ & _ & _ & _ & _ & HB).
  destruct r as [K|e]; cbn [bind need kp_model kp_center_Y]; [|reflexivity]. pose proof (rq_mul_l Q K _ _ HB) as HV. destruct (mul K (km_B_RHS m)) as [V|e], (mul K (km_B_RHS m2)) as [V2|e2]; cbn [rrel] in HV; try contradiction; [|exact HV].
  pose proof (undo_rq Q d Y Y2 V V2 (eq_sym RQ) NY HM HV) as HU. destruct (t_inverse center (center_conf Y) V), (t_inverse center (center_conf Y2) V2). exact HU.
Qed.
End Answers.

(** * The claim *)
Theorem C111_kernel_pls {KS} lstsq rnd (k0 : KS) kapply (s : pls_st (kpls_st (T:=R) (KS:=KS)) R) (X Y Q Y2 : mat R) (h : R) (d : nat -> R) :
  let cl := kernel_pls lstsq rnd k0 kapply in
  column_source rnd -> p_preprocessing s = PP_NONE -> (0 <= p_num_components s)%Z -> nr Y <> 0%nat -> nc Y <> 0%nat -> nr Q = nc Y -> similarity Q h -> moved Q d Y Y2 ->
  let t := fst (initialize cl s (Some X) (Some Y)) in let t2 := fst (initialize cl s (Some X) (Some Y2)) in
  snd (initialize cl s (Some X) (Some Y2)) = snd (initialize cl s (Some X) (Some Y)) /\
  forall Z, snd (transform cl t2 Z) = snd (transform cl t Z) /\
    match snd (predict cl t Z), snd (predict cl t2 Z) with Ok V, Ok V2 => moved Q d V V2 | Err e, Err e2 => e = e2 | _, _ => False end.
Proof.
  intros cl HR Hpp Hn NR NY RQ HQ HM. pose proof HM as (_ & _ & C2 & _). assert (N2 : nc Q <> 0%nat) by (apply (p_pos Q h HQ); congruence).
  pose proof (init_none cl s X Y Hpp NY) as I1. pose proof (init_none cl s X Y2 Hpp ltac:(congruence)) as I2.
  assert (D1 : check_data cl Y = None). { unfold check_data, cl. cbn [c_arity kernel_pls Z.eqb negb andb]. destruct (Z.ltb_spec (Z.of_nat (nc Y)) 1); [lia|reflexivity]. }
  assert (D2 : check_data cl Y2 = None). { unfold check_data, cl. cbn [c_arity kernel_pls Z.eqb negb andb]. destruct (Z.ltb_spec (Z.of_nat (nc Y2)) 1); [lia|reflexivity]. }
  rewrite D1 in I1. rewrite D2 in I2. cbv zeta. change (c_train cl) with (kpls_train lstsq rnd kapply) in I1, I2.
  pose proof (train_Y lstsq rnd kapply Q h d HQ HR (p_num_components s) (c_reset cl (p_own s)) X Y Y2 Hn RQ ltac:(congruence) NR HM eq_refl) as (T1 & T2). cbv zeta in T1, T2.
  destruct (kpls_train lstsq rnd kapply (p_num_components s) (c_reset cl (p_own s)) X Y) as [o r], (kpls_train lstsq rnd kapply (p_num_components s) (c_reset cl (p_own s)) X Y2) as [o2 r2]. cbn [fst snd] in *. subst r2.
  destruct I1 as (A1 & A2 & A3), I2 as (B1 & B2 & B3). split; [congruence|]. intros Z. rewrite A2, A3, B2, B3. destruct r as [[m|]|e]; [split; reflexivity| |split; reflexivity].
  specialize (T2 eq_refl). split; [apply (transform_Y kapply Q Y Y2 o o2 Z T2)|]. exact (predict_Y kapply Q d Y Y2 o o2 Z RQ NR HM T2).
Qed.
Print Assumptions C111_kernel_pls.

(** The training data of C72 with the response y replaced by the two responses 3 y + 1 and 4 y + 2:
    Q = (3 4) with Q Q^T = 25.  Training works, and so do predictions, in the new coordinates. *)
Example C111_ex : let Q := Mat 1 2 [[3; 4]] in let d := fun j => INR j + 1 in let Y2 := Mat 3 2 [[10; 14]; [4; 6]; [-2; -2]] in exists s s2 V V2,
  similarity Q 25 /\ moved Q d kY Y2 /\ initialize kpl k_start (Some kX) (Some kY) = (s, Ok None) /\ initialize kpl k_start (Some kX) (Some Y2) = (s2, Ok None) /\
  snd (predict kpl s kX) = Ok V /\ snd (predict kpl s2 kX) = Ok V2 /\ moved Q d V V2 /\ nc V2 = 2%nat.
Proof.
  intros Q d Y2. destruct k_run as (s & s' & Ei & _ & H). destruct (H kX) as (V & HV & _); [apply kX_wf|reflexivity|discriminate|].
  assert (HS : similarity Q 25). { split; [lra|]. intros l m Hl Hm. change (nr Q) with 1%nat in *. assert (l = 0)%nat by lia. assert (m = 0)%nat by lia. subst. unfold Rsum. cbn. ring. }
  assert (HM : moved Q d kY Y2). { split; [split; [reflexivity|repeat constructor]|]. split; [reflexivity|]. split; [reflexivity|]. intros i j Hi Hj. change (nr kY) with 3%nat in Hi. change (nc Q) with 2%nat in Hj. destruct i as [|[|[|i]]]; try lia; destruct j as [|[|j]]; try lia; unfold Rsum, Q, d, Y2, kY, entry; cbn; ring. }
  destruct (C111_kernel_pls no_ls krnd tt lin k_start kX kY Q Y2 25 d krnd_col eq_refl) as (E1 & E2); [discriminate|discriminate|discriminate|reflexivity|exact HS|exact HM|].
  change (kernel_pls no_ls krnd tt lin) with kpl in *. rewrite Ei in E1, E2. destruct (initialize kpl k_start (Some kX) (Some Y2)) as [s2 r]. cbn [fst snd] in *. subst r. destruct (E2 kX) as (_ & Ep). rewrite HV in Ep. destruct (snd (predict kpl s2 kX)) as [V2|e] eqn:E; [|contradiction].
  exists s, s2, V, V2. do 6 (split; [assumption || reflexivity|]). split; [exact Ep|]. destruct Ep as (_ & _ & C & _). exact C.
Qed.
