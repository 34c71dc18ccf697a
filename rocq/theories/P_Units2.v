(** C99: PLS1 and the unit of the response. *)
From Coq Require Import List ZArith Lia Bool Arith Reals Lra.
From Verif Require Import Base Num Mat M_Matrix M_Factory M_Helper M_Loop M_Utils M_Linalg M_Transform M_PLSBase M_PLS M_PLS2.
From Verif Require Import S_Matrix P_Helper L_Base L_Mat L_Matrix L_MatR L_Alg L_Stats L_Transform P_Transform P_PLSPrep L_Public P_NIPALS2 L_Perm P_KernelPLS2 P_Units.
Import ListNotations.
Local Open Scope R_scope.

(** * Matrices multiplied by g *)
Definition sc (g : R) (m : mat R) : mat R := mk (nr m) (nc m) (fun i j => g * entry m i j).
Definition scr (g : R) (m m' : mat R) : Prop := wf m /\ m' = sc g m.
Section Scaled.
Variable g : R.
Hypothesis Hg : 0 < g.
Lemma sc_entry m i j : (i < nr m)%nat -> (j < nc m)%nat -> entry (sc g m) i j = g * entry m i j.
Proof. intros. unfold sc. now rewrite entry_mk. Qed.
Lemma mul_sc A m m' : scr g m m' -> rrel (scr g) (mul A m) (mul A m').
Proof.
  intros (W & ->). unfold mul, is_multiplicable_with. cbn [nr sc mk]. destruct (nc A =? nr m) eqn:E; cbn [negb rrel]; [|reflexivity]. apply Nat.eqb_eq in E. split; [apply mk_wf|]. unfold matmul, sc. cbn [nr nc mk]. apply mk_ext. intros i j Hi Hj.
  fold (sc g m). rewrite entry_mk by lia. cbn [nmul NumR]. rewrite <- sumR_scal. apply sumn_ext. intros k Hk. rewrite sc_entry by lia. cbn [nmul NumR]. ring.
Qed.
Lemma weights_sc X y y' : scr g y y' -> rrel eq (pls1_weights X y) (pls1_weights X y').
Proof.
  intros Hy. unfold pls1_weights. eapply rrel_bind; [apply mul_sc; exact Hy|]. intros m m' (W & ->). rewrite (wf_mk m W) at 1. unfold sc. rewrite !normalized0_mk. cbn [rrel]. apply mk_ext. intros i j Hi Hj. cbn [ndiv nmul nsqrt NumR].
  rewrite (sumn_ext (nr m) (fun k => g * entry m k j * (g * entry m k j)) (fun k => g * g * (entry m k j * entry m k j))) by (intros; ring). rewrite sumR_scal. set (v := sumn (nr m) (fun k => entry m k j * entry m k j)). rewrite sqrt_mult_alt by nra. rewrite sqrt_square by lra.
  destruct (Req_dec (sqrt v) 0) as [E|E]; [|field; lra]. assert (Ev : v = 0). { apply sqrt_eq_0; [|exact E]. apply sumR_nonneg. intros. nra. }
  assert (E0 : entry m i j = 0). { assert (Q : entry m i j * entry m i j = 0); [|nra]. apply (sumR_nonneg_0 (nr m) (fun k => entry m k j * entry m k j)); [intros; nra|exact Ev|exact Hi]. } rewrite E0. unfold Rdiv. ring.
Qed.
Lemma dot_sc t y y' : scr g y y' -> rrel (fun u u' => u' = g * u) (vector_dot t y) (vector_dot t y').
Proof.
  intros (W & ->). unfold vector_dot. change (is_vector (sc g y)) with (is_vector y). change (num_elements (sc g y)) with (num_elements y). destruct (negb (is_vector t) || negb (is_vector y)) eqn:Ev; [reflexivity|]. destruct (num_elements t =? num_elements y) eqn:En; cbn [negb rrel]; [|reflexivity].
  apply orb_false_iff in Ev as (_ & Ev). apply negb_false_iff in Ev. apply Nat.eqb_eq in En. rewrite <- sumR_scal. apply sumn_ext. intros k Hk. rewrite En in Hk. cbn [nmul NumR]. replace (vec_entry (sc g y) k) with (g * vec_entry y k); [ring|]. symmetry.
  unfold vec_entry. change (is_column_vector (sc g y)) with (is_column_vector y). unfold num_elements in *. rewrite is_column_vector_eqb. unfold is_vector, is_row_vector in Ev. destruct (Nat.eqb_spec (nc y) 1) as [E2|E2].
  - apply sc_entry; nia.
  - destruct (Nat.eqb_spec (nr y) 1) as [E1|E1]; [apply sc_entry; nia|discriminate].
Qed.
Lemma set_sc b b' z w x x' : scr g b b' -> x' = g * x -> rrel (scr g) (set b z w x) (set b' z w x').
Proof.
  intros (W & ->) ->. unfold set. change (nr (sc g b)) with (nr b). change (nc (sc g b)) with (nc b). destruct (npidx (nr b) z) as [i|] eqn:Ei; cbn [bind rrel]; [|reflexivity]. destruct (npidx (nc b) w) as [j|] eqn:Ej; cbn [bind rrel]; [|reflexivity].
  apply npidx_addr in Ei, Ej. assert (Hi : (i < nr b)%nat) by (unfold addr in Ei; lia). assert (Hj : (j < nc b)%nat) by (unfold addr in Ej; lia). assert (Ws : wf (sc g b)) by apply mk_wf.
  split; [now apply set_entry_wf|]. rewrite (wf_mk (set_entry (sc g b) i j (g * x)) (set_entry_wf _ _ _ _ Ws)). unfold sc at 3. cbn [set_entry nr nc sc mk]. apply mk_ext. intros r c Hr Hc.
  change (entry (set_entry (sc g b) i j (g * x)) r c = g * entry (set_entry b i j x) r c). rewrite !set_entry_entry by assumption. destruct (_ && _); [reflexivity|]. now apply sc_entry.
Qed.
Lemma zeros_table r c : exists a b, zeros (T:=R) r c = mk a b (fun _ _ => n0).
Proof.
  unfold zeros, create. set (q := rlen (if (c =? -1)%Z then r else c)). destruct (Nat.eq_dec (rlen r) 0) as [E|E]; [exists 1%nat, 0%nat; rewrite E; reflexivity|]. exists (rlen r), q. now apply np_array2_tab.
Qed.
Lemma zeros_sc r c : scr g (zeros r c) (zeros r c).
Proof.
  destruct (zeros_table r c) as (a & b & ->). split; [apply mk_wf|]. unfold sc. cbn [nr nc mk]. apply mk_ext. intros i j Hi Hj. fold (mk a b (fun _ _ : nat => n0 (T:=R))). rewrite entry_mk by assumption. cbn [n0 NumR]. ring.
Qed.
Lemma as_real_sc m m' : scr g m m' -> rrel (fun u u' => u' = g * u) (as_real m) (as_real m').
Proof.
  intros (W & ->). unfold as_real. change (nr (sc g m)) with (nr m). change (nc (sc g m)) with (nc m). destruct (Nat.eqb_spec (nr m) 1) as [E1|]; [|reflexivity]. destruct (Nat.eqb_spec (nc m) 1) as [E2|]; [|reflexivity]. cbn [negb orb]. unfold get. change (nr (sc g m)) with (nr m). change (nc (sc g m)) with (nc m). rewrite E1, E2. cbn [npidx]. cbn. apply sc_entry; lia.
Qed.
End Scaled.

(** * Training and predicting *)
Section Pls1.
Variable lstsq : mat R -> mat R -> res (mat R).
Variable g : R.
Hypothesis Hg : 0 < g.
Definition own_sc (o o' : pls1_st R) : Prop := o_P o' = o_P o /\ o_W o' = o_W o /\ exists B, o_b_hat o = Some B /\ o_b_hat o' = Some (sc g B) /\ wf B.
Lemma pls1_fit_sc k X y y' : scr g y y' -> rrel own_sc (pls1_fit lstsq pls1_weights k X y) (pls1_fit lstsq pls1_weights k X y').
Proof.
  intros Hy. unfold pls1_fit. eapply (rrel_bind (fun st st' => let '(X, W, P, Ts, b) := st in let '(X', W', P', Ts', b') := st' in X = X' /\ W = W' /\ P = P' /\ Ts = Ts' /\ scr g b b')).
  - unfold pls1_loop. apply rrel_range; [repeat (split; [reflexivity|]); apply zeros_sc|].
    intros [[[[x w] q] t] b] [[[[x' w'] q'] t'] b'] i (<- & <- & <- & <- & Hb). unfold pls1_step. eapply rrel_bind; [apply (weights_sc g Hg); exact Hy|]. intros a a' <-.
    do 4 (apply (rrel_bind eq); [apply rrel_refl|]; intros ? ? <-). eapply rrel_bind; [apply (dot_sc g); exact Hy|]. intros u u' Eu. eapply rrel_bind; [apply (set_sc g); [exact Hb|rewrite Eu; cbn [ndiv NumR]; unfold Rdiv; apply Rmult_assoc]|]. intros B B' HB.
    do 4 (apply (rrel_bind eq); [apply rrel_refl|]; intros ? ? <-). cbn [rrel]. auto.
  - intros [[[[x w] q] t] b] [[[[x' w'] q'] t'] b'] (<- & <- & <- & <- & Hb). do 3 (apply (rrel_bind eq); [apply rrel_refl|]; intros ? ? <-). eapply rrel_bind; [apply (mul_sc g); exact Hb|]. intros r r' Hr. cbn [rrel]. destruct Hb as (Wb & ->). split; [reflexivity|]. split; [reflexivity|]. exists b. auto.
Qed.
Lemma pls1_row_sc k o o' x : own_sc o o' -> pls1_row k o' x = pls1_row k o x.
Proof. intros (E1 & E2 & _). unfold pls1_row. now rewrite E1, E2. Qed.
Lemma pls1_transform_sc k o o' Z : own_sc o o' -> pls1_transform k o' Z = pls1_transform k o Z.
Proof. intros H. unfold pls1_transform. apply for_range_ext. intros r i. destruct (row_as_vector Z _); cbn [bind]; [|reflexivity]. now rewrite (pls1_row_sc k o o' _ H). Qed.
Lemma pls1_predict_sc k o o' Z : own_sc o o' -> rrel (scr g) (pls1_predict k o Z) (pls1_predict k o' Z).
Proof.
  intros H. unfold pls1_predict. apply rrel_range; [apply zeros_sc|]. intros r r' i Hr. apply (rrel_bind eq); [apply rrel_refl|]. intros x ? <-. rewrite (pls1_row_sc k o o' x H). apply (rrel_bind eq); [apply rrel_refl|]. intros t ? <-.
  destruct H as (_ & _ & B & -> & -> & WB). cbn [need bind]. eapply rrel_bind; [apply (mul_sc g); split; [exact WB|reflexivity]|]. intros tb tb' Htb. eapply rrel_bind; [apply (as_real_sc g); exact Htb|]. intros u u' Hu. now apply (set_sc g).
Qed.
End Pls1.

(** * From the class to the object *)
Lemma init_single {A K} (cl : pls_class A K R) (s : pls_st A R) X Y pp : c_arity cl = Single -> p_preprocessing s = pp -> wf X -> wf Y -> nr X = nr Y -> nc X <> 0%nat -> nc Y = 1%nat -> preparable pp X -> preparable pp Y ->
  snd (initialize cl s (Some X) (Some Y)) = snd (c_train cl (p_num_components s) (c_reset cl (p_own s)) (mk (nr X) (nc X) (prepared pp X)) (mk (nr X) 1 (fun i _ => prepared pp Y i 0))).
Proof.
  intros Ha Hpp WX WY Hrows HcX HcY HpX HpY.
  assert (Hprep : exists mean std, prep_single pp Y = Ok (mean, std,
     match pp with PP_CENTER => Some (PTCenter (t_new center)) | PP_STANDARDIZE => Some (PTStandardize (t_new standardize)) | _ => None end,
     match pp with PP_CENTER => Some (PTCenter (t_new center)) | PP_STANDARDIZE => Some (PTStandardize (t_new standardize)) | _ => None end)).
  { destruct pp; cbn [preparable] in HpY; [eexists; eexists; reflexivity| | |now elim HpY].
    - destruct (stats_of Y HpY ltac:(lia)) as [Em Es]. cbn [prep_single]. rewrite Em. cbn [bind]. eexists. eexists. reflexivity.
    - destruct HpY as [HpY _]. destruct (stats_of Y HpY ltac:(lia)) as [Em Es]. cbn [prep_single]. rewrite Em, Es. cbn [bind]. eexists. eexists. reflexivity. }
  destruct Hprep as (mean & std & Hprep).
  destruct (fit_prepared pp X _ WX HcX HpX eq_refl) as (tp' & EX & NX). destruct (fit_prepared pp Y _ WY ltac:(lia) HpY eq_refl) as (tr' & EY & NY).
  assert (EY' : mk (nr Y) (nc Y) (prepared pp Y) = mk (nr X) 1 (fun i _ => prepared pp Y i 0)).
  { rewrite HcY, <- Hrows. apply mk_ext. intros i j Hi Hj. assert (j = 0%nat) by lia. now subst. }
  rewrite EY' in EY. unfold initialize, check_data. rewrite Ha, HcY. cbn [Nat.eqb negb]. unfold do_initialize. cbn [reset p_preprocessing]. rewrite Hpp. unfold prepare. rewrite Ha, Hprep, EX, EY.
  cbn [set_prep p_num_components p_own reset]. destruct (c_train cl _ _ _ _) as [own [[m|]|e]]; reflexivity.
Qed.

Lemma init_keeps {A K} (cl : pls_class A K R) (s : pls_st A R) X Y : p_num_components (fst (initialize cl s (Some X) (Some Y))) = p_num_components s.
Proof.
  unfold initialize. destruct (check_data cl Y); [reflexivity|]. unfold do_initialize. destruct (prepare cl _ Y) as [[[[mean std] tp] tr]|e]; [|reflexivity]. destruct (pt_fit tp X) as [tp' [X'|e]]; [|reflexivity]. destruct (pt_fit tr Y) as [tr' [Y'|e]]; [|reflexivity].
  destruct (c_train cl _ _ X' Y') as [own [[m|]|e]]; reflexivity.
Qed.
Lemma pls1_predict_nc k (o : pls1_st R) Z V : nr Z <> 0%nat -> pls1_predict k o Z = Ok V -> nc V = 1%nat.
Proof.
  intros NZ E. assert (Q : rrel (fun x y : mat R => x = y /\ nc x = 1%nat) (pls1_predict k o Z) (pls1_predict k o Z)); [|rewrite E in Q; apply Q].
  unfold pls1_predict. apply rrel_range.
  - split; [reflexivity|]. change (zeros (zn (nr Z)) 1) with (zeros (T:=R) (Z.of_nat (nr Z)) (Z.of_nat 1)). now rewrite zeros_mk.
  - intros r ? i (<- & Hr). do 5 (apply (rrel_bind eq); [apply rrel_refl|]; intros ? ? <-). unfold set. destruct (npidx (nr r) _); cbn [bind rrel]; [|reflexivity]. destruct (npidx (nc r) _); cbn [bind rrel]; [|reflexivity]. split; [reflexivity|exact Hr].
Qed.

(** * C99 *)
Theorem C99_pls1 lstsq (s s1 : pls_st (pls1_st R) R) (X Y Y' : mat R) (a b : R) : let c := pls1 lstsq in let pp := p_preprocessing s in
  0 < a -> units (fun _ => a) (fun _ => b) Y Y' -> (pp = PP_NONE -> b = 0) -> wf X -> nr X = nr Y -> nc X <> 0%nat -> preparable pp X -> preparable pp Y ->
  initialize c s (Some X) (Some Y) = (s1, Ok None) ->
  exists s2, initialize c s (Some X) (Some Y') = (s2, Ok None) /\
    forall Z, nr Z <> 0%nat -> snd (transform c s2 Z) = snd (transform c s1 Z) /\
      forall V, snd (predict c s1 Z) = Ok V -> exists V', snd (predict c s2 Z) = Ok V' /\ units (fun _ => a) (fun _ => b) V V'.
Proof.
  intros c pp Ha HY Hb WX Hrows NX PX PY Ei. pose proof HY as (WY & WY' & R' & C' & HE).
  assert (CY : nc Y = 1%nat). { unfold initialize, check_data in Ei. cbn [c pls1 c_arity] in Ei. destruct (Nat.eqb_spec (nc Y) 1) as [E|E]; [exact E|discriminate]. }
  pose proof (init_single c s X Y pp eq_refl eq_refl WX WY Hrows NX CY PX PY) as I1. rewrite Ei in I1. cbn [snd c pls1 c_train c_reset] in I1.
  assert (PY' : preparable pp Y'). { destruct pp; cbn [preparable] in PY |- *; [exact I|lia| |exact PY]. apply (units_preparable (fun _ => a) (fun _ => b) Y); auto. }
  set (g := match pp with PP_STANDARDIZE => 1 | _ => a end). assert (Hg : 0 < g) by (unfold g; destruct pp; lra).
  assert (Hsc : scr g (mk (nr X) 1 (fun i _ => prepared pp Y i 0)) (mk (nr X) 1 (fun i _ => prepared pp Y' i 0))).
  { split; [apply mk_wf|]. unfold sc. cbn [nr nc mk]. apply mk_ext. intros i j Hi Hj. fold (mk (nr X) 1 (fun i (_ : nat) => prepared pp Y i 0)). rewrite entry_mk by (assumption || lia). unfold g. destruct pp eqn:Epp; cbn [prepared preparable] in *.
    - rewrite HE by lia. rewrite (Hb eq_refl). ring.
    - rewrite R', HE by lia. rewrite (Rmean_units (nr Y) (fun k => entry Y k 0) (fun k => entry Y' k 0) a b) by (lia || (intros; apply HE; lia)). ring.
    - pose proof (standardised_units (fun _ => a) (fun _ => b) Y Y' (fun _ => Ha) HY PY Y Y' i 0%nat HY eq_refl ltac:(lia) ltac:(lia)) as Q. unfold standardised_by in Q. rewrite Q. ring.
    - contradiction. }
  pose proof (pls1_fit_sc lstsq g Hg (p_num_components s) (mk (nr X) (nc X) (prepared pp X)) _ _ Hsc) as Q.
  destruct (pls1_fit lstsq pls1_weights (p_num_components s) _ (mk (nr X) 1 (fun i _ => prepared pp Y i 0))) as [o|e] eqn:E1; [|discriminate]. destruct (pls1_fit lstsq pls1_weights (p_num_components s) _ (mk (nr X) 1 (fun i _ => prepared pp Y' i 0))) as [o'|e] eqn:E2; [|contradiction]. cbn [rrel] in Q.
  destruct (single_training c s X Y o pp) as (s1' & Ei1 & Eo & T1 & P1); auto; [cbn [c pls1 c_train c_reset]; now rewrite E1|]. rewrite Ei in Ei1. injection Ei1 as <-.
  destruct (single_training c s X Y' o' pp) as (s2 & Ei2 & _ & T2 & P2); auto; [congruence|congruence|cbn [c pls1 c_train c_reset]; now rewrite E2|]. exists s2. split; [exact Ei2|]. intros Z NZ. split.
  - rewrite T1, T2. cbn [c pls1 c_transform snd]. exact (pls1_transform_sc g _ _ _ Z Q).
  - intros V EV. pose proof (pls1_predict_sc g (p_num_components s) o o' Z Q) as Qp. specialize (P1 Z). specialize (P2 Z). cbn [c pls1 c_predict snd] in P1, P2.
    assert (Hraw : exists raw, pls1_predict (p_num_components s) o Z = Ok raw).
    { destruct (pls1_predict (p_num_components s) o Z) as [raw|e] eqn:Er; [now exists raw|]. exfalso. unfold predict in EV. destruct (negb (p_initialised s1)); [discriminate|]. unfold do_predict in EV.
      assert (En : p_num_components s1 = p_num_components s) by (rewrite <- (init_keeps c s X Y), Ei; reflexivity). rewrite Eo, En in EV. cbn [c pls1 c_predict] in EV. rewrite Er in EV. discriminate. }
    destruct Hraw as (raw & Er). rewrite Er in Qp, P1. destruct (pls1_predict (p_num_components s) o' Z) as [raw'|] eqn:Er'; [|contradiction]. cbn [rrel] in Qp. destruct Qp as (Wr & ->).
    assert (Cr : nc raw = 1%nat) by exact (pls1_predict_nc _ _ _ _ NZ Er).
    rewrite (P1 raw eq_refl Wr Cr) in EV. injection EV as <-. eexists. split; [apply P2; [reflexivity|apply mk_wf|exact Cr]|]. split; [apply mk_wf|]. split; [apply mk_wf|]. split; [reflexivity|]. split; [reflexivity|]. intros i j Hi Hj. cbn [nr nc mk sc] in Hi, Hj |- *.
    assert (j = 0)%nat by lia. subst j. rewrite !entry_mk by (assumption || lia). unfold g. destruct pp eqn:Epp; cbn [own_sd back_mean preparable] in *; unfold own_mean.
    + rewrite sc_entry by (assumption || lia). rewrite (Hb eq_refl). ring.
    + rewrite sc_entry by (assumption || lia). rewrite R'. rewrite (Rmean_units (nr Y) (fun k => entry Y k 0) (fun k => entry Y' k 0) a b) by (lia || (intros; apply HE; lia)). ring.
    + rewrite sc_entry by (assumption || lia). rewrite (units_mean (fun _ => a) (fun _ => b) Y Y' HY PY 0%nat), (units_sd (fun _ => a) (fun _ => b) Y Y' (fun _ => Ha) HY PY 0%nat) by lia. ring.
    + contradiction.
Qed.
(** Three rows, two features, centred, the response in other units (3 y + 1): training still works
    and the predictions are 3 v + 1. *)
Example C99_ex : let Y' := mk 3 1 (fun i j => (3 * entry kY i j + 1)%R) in exists s s' V V',
  initialize (pls1 no_ls) p_start (Some kX) (Some kY) = (s, Ok None) /\ initialize (pls1 no_ls) p_start (Some kX) (Some Y') = (s', Ok None) /\
  snd (predict (pls1 no_ls) s kX) = Ok V /\ snd (predict (pls1 no_ls) s' kX) = Ok V' /\ units (fun _ => 3) (fun _ => 1) V V'.
Proof.
  intros Y'. destruct k_run as (sk & s & _ & Ei & H). destruct (H (mk 3 2 (fun i j => entry kX i j + Rmean 3 (fun k => entry kX k j))%R)) as (V & _ & HV); [apply mk_wf|reflexivity|discriminate|].
  match type of HV with snd (predict _ _ ?m) = _ => replace m with kX in HV end.
  2: { assert (W : wf kX) by apply kX_wf. rewrite (wf_mk kX W) at 1. apply mk_ext. intros i j Hi Hj. rewrite entry_mk by assumption. ring. }
  destruct (C99_pls1 no_ls p_start s kX kY Y' 3 1) as (s' & Ei' & HZ); [lra| |discriminate|apply kX_wf|reflexivity|discriminate|cbn; lia|cbn; lia|exact Ei|].
  - split; [apply kX_wf|]. split; [apply mk_wf|]. split; [reflexivity|]. split; [reflexivity|]. intros i j Hi Hj. unfold Y'. rewrite entry_mk by assumption. reflexivity.
  - destruct (HZ kX ltac:(discriminate)) as (_ & HP). destruct (HP V HV) as (V' & E' & U). exists s, s', V, V'. auto.
Qed.
Print Assumptions C99_pls1.
