(** C86: PRM's final weights, over the reals. *)
From Coq Require Import List ZArith Lia Bool Arith Reals Lra Permutation Sorted.
From Verif Require Import Base Num Mat M_Matrix M_Factory M_Helper M_Loop M_Transform M_PLSBase M_PLS M_PLS2
  S_Matrix L_Base L_Mat L_MatR L_Matrix L_Alg L_Krylov L_Public P_PLS1 P_SIMPLS2 L_DIPLS P_DIPLS P_PRM P_Sparse P_Median L_PRM P_PRM2.
Import ListNotations.
Local Open Scope R_scope.

(** * C86: the final weights *)
(** The claim: residual weights are the Fair weights of y - prediction over its median absolute
    deviation, leverage weights those of the distances of the scores. *)
Definition robust_residuals (C : R) (Y V W_r : mat R) : Prop := residual_rule C (nr Y) (fun i => entry Y i 0 - entry V i 0) (fun i => entry W_r i 0).
(** What holds of the residual weights: y_i is multiplied by the root of the weight w_i the row had
    in the last pass, the prediction is not.  The claim on the leverage weights holds. *)
Theorem C86_weights_partial eig svd (s0 s : pls_st (prm_st (T:=R)) R) (X Y : mat R) (a : nat) :
  let ps := p_own s0 in let n := nr X in
  p_preprocessing s0 = PP_NONE -> p_num_components s0 = Z.of_nat a -> wf X -> wf Y -> (2 <= n)%nat -> nc X <> 0%nat -> (nc X <= n)%nat -> nr Y = n ->
  initialize (prm eig svd) s0 (Some X) (Some Y) = (s, Ok None) ->
  exists m T V w, pr_model (p_own s) = Some m /\ snd (transform (prm eig svd) s X) = Ok T /\ snd (predict (prm eig svd) s X) = Ok V /\
    (forall i, (i < n)%nat -> 0 < w i <= 1) /\
    residual_rule (pr_C ps) n (fun i => sqrt (w i) * entry Y i 0 - entry V i 0) (fun i => entry (pm_W_r m) i 0) /\
    leverage (pr_C ps) (pr_tol ps) (pr_max_iter ps) n a (entry T) (fun i => entry (pm_W_x m) i 0) /\
    ((forall i, (i < n)%nat -> w i = 1) -> robust_residuals (pr_C ps) Y V (pm_W_r m)).
Proof.
  intros ps n Hpp Ha WX WY Hn Hp Hw HY Ei.
  destruct (C85_prm eig svd s0 s X Y a Hpp Ha WX WY Hn Hp Hw HY Ei) as (CY & K & wr & wx & sim & med & m & _ & _ & Rr & Rx & Hps & Em & (_ & _ & _ & Er) & (_ & _ & _ & Ex) & HP & HT).
  assert (Hin : forall k, (k <= K)%nat -> forall i, (i < n)%nat -> in_01 (wr k i) /\ in_01 (wx k i)).
  { intros [|k] Hk i Hi; [split; [exact (residual_rule_01 _ _ _ _ Rr i Hi)|exact (leverage_rule_01 _ _ _ _ _ _ _ Rx i Hi)]|].
    destruct (Hps k ltac:(lia)) as (_ & T & V & _ & _ & _ & _ & _ & _ & R1 & R2). split; [exact (residual_rule_01 _ _ _ _ R1 i Hi)|exact (leverage_rule_01 _ _ _ _ _ _ _ R2 i Hi)]. }
  destruct (Hps K ltac:(lia)) as (_ & T & V & ET & EV & _ & _ & _ & _ & R1 & R2).
  assert (R1' : residual_rule (pr_C ps) n (fun i => sqrt (wr K i * wx K i) * entry Y i 0 - entry V i 0) (fun i => entry (pm_W_r m) i 0)).
  { destruct R1 as (sc & Hs & H1). exists sc. split; [exact Hs|]. intros i Hi. rewrite (Er i 0%nat Hi) by lia. now apply H1. }
  exists m, T, V, (fun i => wr K i * wx K i). rewrite HT, HP. split; [exact Em|]. split; [exact ET|]. split; [exact EV|]. split.
  { intros i Hi. destruct (Hin K (le_n K) i Hi) as [H1 H2]. unfold in_01 in *. split; [apply Rmult_lt_0_compat; lra|]. rewrite <- (Rmult_1_l 1). apply Rmult_le_compat; lra. }
  split; [exact R1'|]. split.
  - destruct R2 as (k & sc & H1 & H2 & H3). exists k, sc. split; [exact H1|]. split; [exact H2|]. intros i Hi. rewrite (Ex i 0%nat Hi) by lia. now apply H3.
  - intros Hw1. unfold robust_residuals. rewrite HY. eapply residual_rule_ext; [|exact R1']. intros i Hi. cbv beta. rewrite Hw1 by exact Hi. rewrite sqrt_1. ring.
Qed.

(** * One predictor, one component *)
Lemma simpls_one eig coef n (x y : nat -> R) : eig_one eig -> (coef <= 0)%Z -> n <> 0%nat -> sumn n (fun i => x i * y i) <> 0 ->
  exists s, initialize (simpls eig) (new_simpls eig coef 1) (Some (mk n 1 (fun i _ => x i))) (Some (mk n 1 (fun i _ => y i))) = (s, Ok None) /\
    forall m z, snd (predict (simpls eig) s (mk m 1 (fun i _ => z i))) = Ok (mk m 1 (fun i _ => z i * (sumn n (fun i => x i * y i) / sumn n (fun i => x i * x i)))).
Proof.
  intros Heig Hco Hn Hne. set (c := sumn n (fun i => x i * y i)) in *.
  assert (Hc : cov n (fun i _ => x i) y 0 = c) by (unfold cov; rewrite Rsum_sumn; reflexivity).
  assert (Hnb : no_breakdown n 1 (fun i _ => x i) y 1). { intros k Hk. replace k with 0%nat by lia. exists 0%nat. split; [lia|]. cbn [residual]. now rewrite Hc. }
  destruct (simpls_run eig n 1 1 (fun i _ => x i) y Heig Hn ltac:(discriminate) ltac:(discriminate) Hnb (Simpls coef None None None) Hco) as (own & eps & _ & Et & Hnew).
  destruct (single_none (simpls eig) (new_simpls eig coef 1) (mk n 1 (fun i _ => x i)) (mk n 1 (fun i _ => y i)) own _ eq_refl eq_refl eq_refl Et) as (_ & Hs). destruct (Hs eq_refl) as (s & Ei & _ & _ & HP).
  exists s. split; [exact Ei|]. intros m z. rewrite HP. change (p_num_components (new_simpls eig coef 1)) with (Z.of_nat 1). rewrite (proj2 (Hnew m (fun i _ => z i))). f_equal. apply mk_ext. intros i j Hi Hj.
  pose proof (tau_pos n 1 1 (fun i _ => x i) y Hnb 0 ltac:(lia)) as Htau.
  assert (EG : gsq n 1 (fun i _ => x i) y 0 = c * c) by (unfold gsq; cbn [sumn residual]; rewrite Hc; cbn [n0 nadd NumR]; ring).
  assert (ED : dir n 1 (fun i _ => x i) y 0 0 = / c) by (unfold dir; cbn [sumn residual]; rewrite EG, Hc; cbn [n0 nadd NumR]; field; exact Hne).
  assert (Et' : tau n 1 (fun i _ => x i) y 0 = sumn n (fun i => x i * x i)).
  { unfold tau. apply sumn_ext. intros k Hk. cbn [residual]. unfold scores_of, unit_cov. rewrite !Rsum_sumn. cbn [sumn]. rewrite !Hc. cbn [n0 nadd NumR].
    assert (Hs2 : 0 < 0 + c * c) by (pose proof (Rsqr_pos_lt c Hne) as Q; unfold Rsqr in Q; lra). pose proof (sqrt_lt_R0 _ Hs2) as Hs0. pose proof (sqrt_sqrt (0 + c * c) ltac:(lra)) as Hs1. rewrite !Rplus_0_l in *.
    replace (x k * (c / sqrt (c * c)) * (x k * (c / sqrt (c * c)))) with (x k * x k * (c * c / (sqrt (c * c) * sqrt (c * c)))) by (field; lra). rewrite Hs1. field. exact Hne. }
  cbn [sumn]. rewrite ED, EG, Et'. rewrite Et' in Htau. cbn [n0 nadd NumR]. field. split; [lra|exact Hne].
Qed.

(** * The witness: X = (1,2,3), y = (0,1,3), C = 1, no iteration of the geometric median (max_iter = 0) *)
Lemma med3 (f : nat -> R) i j k m : Permutation [0;1;2]%nat [i;j;k] -> f i <= f j -> f j <= f k -> m = f j -> med_of 3 f m.
Proof.
  intros HP H1 H2 ->. exists (map f [i;j;k]). split; [apply (Permutation_map f HP)|]. split; [cbn; repeat (apply SSorted_cons || apply SSorted_nil || apply Forall_cons || apply Forall_nil); lra|]. split; [discriminate|]. reflexivity.
Qed.
Lemma P102 : Permutation [0;1;2]%nat [1;0;2]%nat. Proof. apply perm_swap. Qed.
Lemma P021 : Permutation [0;1;2]%nat [0;2;1]%nat. Proof. apply perm_skip, perm_swap. Qed.
Lemma P210 : Permutation [0;1;2]%nat [2;0;1]%nat. Proof. transitivity [0;2;1]%nat; [apply P021|apply perm_swap]. Qed.
Definition eX : mat R := Mat 3 1 [[1];[2];[3]].
Definition eY : mat R := Mat 3 1 [[0];[1];[3]].
Definition nosvd : mat R -> res (mat R * list R * mat R) := fun _ => Err LinAlgError.
Definition eps0 : prm_st (T:=R) := Prm 1 0 1 (-1) None.
Definition eS : pls_st (prm_st (T:=R)) R := PlsSt 1 PP_NONE false [] [] None None eps0.
Lemma e_simpls w : (forall i, (i < 3)%nat -> 0 < w i <= 1) ->
  exists s, initialize (simpls eig_1x1) (new_simpls eig_1x1 (-1) 1) (Some (weighted w eX)) (Some (weighted w eY)) = (s, Ok None) /\
  snd (predict (simpls eig_1x1) s eX) = Ok (mk 3 1 (fun i _ => entry eX i 0 * ((2 * w 1%nat + 9 * w 2%nat) / (w 0%nat + 4 * w 1%nat + 9 * w 2%nat)))).
Proof.
  intros Hw. pose proof (Hw 0%nat ltac:(lia)) as H0. pose proof (Hw 1%nat ltac:(lia)) as H1. pose proof (Hw 2%nat ltac:(lia)) as H2.
  assert (Sq : forall i, (i < 3)%nat -> sqrt (w i) * sqrt (w i) = w i) by (intros i Hi; apply sqrt_sqrt; destruct (Hw i Hi); lra).
  assert (Exy : sumn 3 (fun i => sqrt (w i) * entry eX i 0 * (sqrt (w i) * entry eY i 0)) = 2 * w 1%nat + 9 * w 2%nat).
  { rewrite <- (Sq 1%nat), <- (Sq 2%nat) by lia. cbn. ring. }
  assert (Exx : sumn 3 (fun i => sqrt (w i) * entry eX i 0 * (sqrt (w i) * entry eX i 0)) = w 0%nat + 4 * w 1%nat + 9 * w 2%nat).
  { rewrite <- (Sq 0%nat), <- (Sq 1%nat), <- (Sq 2%nat) by lia. cbn. ring. }
  destruct (simpls_one eig_1x1 (-1) 3 (fun i => sqrt (w i) * entry eX i 0) (fun i => sqrt (w i) * entry eY i 0) eig_1x1_one) as (s & Es & HP); [lia|discriminate|rewrite Exy; lra|].
  exists s. split; [exact Es|]. rewrite Exy, Exx in HP. exact (HP 3%nat (fun i => entry eX i 0)).
Qed.
Lemma e_trains : exists s, initialize (prm eig_1x1 nosvd) eS (Some eX) (Some eY) = (s, Ok None).
Proof.
  apply (C85_trains eig_1x1 nosvd eS eX eY 1); try reflexivity; try (cbn; lia); try (split; [reflexivity|repeat constructor]).
  intros w Hw. destruct (e_simpls w Hw) as (s & E & _). now exists s.
Qed.
Theorem C86_refuted : exists s m V, initialize (prm eig_1x1 nosvd) eS (Some eX) (Some eY) = (s, Ok None) /\
  pr_model (p_own s) = Some m /\ snd (predict (prm eig_1x1 nosvd) s eX) = Ok V /\ ~ robust_residuals 1 eY V (pm_W_r m) /\
  entry (pm_W_r m) 2 0 = (22 / 71) * (22 / 71) /\ (forall W, robust_residuals 1 eY V W -> entry W 2 0 = 1 / 16).
Proof.
  destruct e_trains as (s & Ei). exists s.
  destruct (C85_prm eig_1x1 nosvd eS s eX eY 1) as (_ & K & wr & wx & sim & med & m & HK & Hm & Rr & Rx & Hps & Em & (_ & _ & _ & Er) & _ & HP & _); try reflexivity; try (cbn; lia); try (split; [reflexivity|repeat constructor]); [exact Ei|].
  cbn [eS p_own eps0 pr_max_iter pr_C pr_tol] in *. replace K with 0%nat in * by lia.
  assert (Em1 : med = 1). { apply (med_unique 3 (fun i => entry eY i 0)); [exact Hm|]. apply (med3 _ 0 1 2); [reflexivity|cbn; lra|cbn; lra|reflexivity]. } subst med.
  assert (Ew0 : wr 0%nat 0%nat = 1/4 /\ wr 0%nat 1%nat = 1 /\ wr 0%nat 2%nat = 1/9).
  { destruct Rr as (sc & Hs & Hw). assert (sc = 1). { apply (mad_unique 3 (fun i => entry eY i 0 - 1)); [exact Hs|]. exists 0. split; [apply (med3 _ 0 1 2); [reflexivity|cbn; lra|cbn; lra|cbn; lra]|].
      apply (med3 _ 1 0 2); [exact P102| | |]; cbn; unfold Rabs; repeat destruct Rcase_abs; lra. } subst sc.
    rewrite !Hw by (cbn; lia). unfold fairw. cbn. unfold Rabs. repeat destruct Rcase_abs; try lra; repeat split; field. }
  assert (Ex0 : wx 0%nat 0%nat = 1/4 /\ wx 0%nat 1%nat = 1 /\ wx 0%nat 2%nat = 1/4).
  { change (leverage 1 1 0 3 1 (entry eX) (wx 0%nat)) in Rx. destruct Rx as (k & sc & (Hk & _) & Hs & Hw). replace k with 0%nat in * by lia.
    assert (Hd : dist 1 (entry eX) (iterate 3 1 (entry eX) 0) 0 = 1 /\ dist 1 (entry eX) (iterate 3 1 (entry eX) 0) 1 = 0 /\ dist 1 (entry eX) (iterate 3 1 (entry eX) 0) 2 = 1).
    { unfold dist. cbn [iterate Rsum sumn]. cbn [entry eX rws nth nadd n0 NumR INR].
      split; [|split]; [transitivity (sqrt 1); [f_equal; field|apply sqrt_1]|transitivity (sqrt 0); [f_equal; field|apply sqrt_0]|transitivity (sqrt 1); [f_equal; field|apply sqrt_1]]. }
    destruct Hd as (D0 & D1 & D2).
    assert (sc = 1). { apply (med_unique 3 (dist 1 (entry eX) (iterate 3 1 (entry eX) 0))); [exact Hs|]. apply (med3 _ 1 0 2); [exact P102| | |]; rewrite ?D0, ?D1, ?D2; lra. } subst sc.
    rewrite !Hw by (cbn; lia). rewrite D0, D1, D2. unfold fairw, Rabs. repeat destruct Rcase_abs; try lra; repeat split; field. }
  destruct Ew0 as (R0 & R1 & R2). destruct Ex0 as (X0 & X1 & X2).
  destruct (Hps 0%nat ltac:(lia)) as (Es & T & V & _ & EV & _ & _ & _ & _ & HR & _). cbv beta zeta in *.
  destruct (e_simpls (fun i => wr 0%nat i * wx 0%nat i)) as (s1 & E1 & EP). { intros i Hi. destruct i as [|[|[|]]]; rewrite ?R0, ?R1, ?R2, ?X0, ?X1, ?X2; try lra; lia. }
  pose proof (eq_trans (eq_sym Es) E1) as Q. injection Q as Q. rewrite Q in *. rewrite EV in EP.
  assert (EV' : V = mk 3 1 (fun i _ => entry eX i 0 * (12 / 23))). { injection EP as EP. rewrite EP. apply mk_ext. intros i j Hi Hj. rewrite R0, R1, R2, X0, X1, X2. f_equal. field. } clear EP.
  assert (V0 : entry V 0 0 = 12/23) by (rewrite EV', entry_mk by lia; cbn; lra). assert (V1 : entry V 1 0 = 24/23) by (rewrite EV', entry_mk by lia; cbn; lra). assert (V2 : entry V 2 0 = 36/23) by (rewrite EV', entry_mk by lia; cbn; lra).
  assert (S1 : sqrt (1/16) = 1/4) by (replace (1/16) with ((1/4)*(1/4)) by field; apply sqrt_square; lra). assert (S2 : sqrt (1/36) = 1/6) by (replace (1/36) with ((1/6)*(1/6)) by field; apply sqrt_square; lra).
  exists m, V. rewrite HP. split; [exact Ei|]. split; [exact Em|]. split; [exact EV|].
  assert (HW : forall W, robust_residuals 1 eY V W -> entry W 2 0 = 1 / 16).
  { intros W (sc & Hs & Hw). assert (sc = 11/23). { apply (mad_unique 3 (fun i => entry eY i 0 - entry V i 0)); [exact Hs|]. exists (-1/23). split.
      - apply (med3 _ 0 1 2); [reflexivity| | |]; rewrite ?V0, ?V1, ?V2; cbn; lra.
      - apply (med3 _ 1 0 2); [exact P102| | |]; rewrite ?V0, ?V1, ?V2; cbn; unfold Rabs; repeat destruct Rcase_abs; lra. } subst sc.
    rewrite (Hw 2%nat) by (cbn; lia). rewrite V2. cbn. unfold fairw. replace ((3 - 36/23) / (11/23) / 1) with 3 by field. rewrite Rabs_pos_eq by lra. field. }
  assert (HC : entry (pm_W_r m) 2 0 = (22 / 71) * (22 / 71)).
  { rewrite (Er 2%nat 0%nat) by (cbn; lia). destruct HR as (sc & Hs & Hw). set (r := fun i => sqrt (wr 0%nat i * wx 0%nat i) * entry eY i 0 - entry V i 0) in *.
    assert (Q0 : r 0%nat = -12/23) by (unfold r; rewrite V0; cbn; lra).
    assert (Q1 : r 1%nat = -1/23) by (unfold r; rewrite V1, R1, X1; replace (1 * 1) with 1 by ring; rewrite sqrt_1; cbn; lra).
    assert (Q2 : r 2%nat = -49/46) by (unfold r; rewrite V2, R2, X2; replace (1/9 * (1/4)) with (1/36) by field; rewrite S2; cbn; lra).
    assert (sc = 11/23). { apply (mad_unique 3 r); [exact Hs|]. exists (-12/23). split.
      - apply (med3 _ 2 0 1); [exact P210| | |]; rewrite ?Q0, ?Q1, ?Q2; lra.
      - apply (med3 _ 0 1 2); [reflexivity| | |]; rewrite ?Q0, ?Q1, ?Q2; unfold Rabs; repeat destruct Rcase_abs; lra. } subst sc.
    rewrite (Hw 2%nat) by (cbn; lia). change (fairw 1 (r 2%nat / (11/23)) = 22 / 71 * (22 / 71)). rewrite Q2. unfold fairw. replace (-49/46 / (11/23) / 1) with (- (49/22)) by field. rewrite Rabs_Ropp, Rabs_pos_eq by lra. field. }
  split; [|split; [exact HC|exact HW]]. intros H. apply HW in H. rewrite HC in H. lra.
Qed.
(** The hypotheses of C85 and C86 hold on the witness. *)
Example C85_ex : exists s, initialize (prm eig_1x1 nosvd) eS (Some eX) (Some eY) = (s, Ok None) /\ p_preprocessing eS = PP_NONE /\ p_num_components eS = Z.of_nat 1 /\ wf eX /\ wf eY /\ (2 <= nr eX)%nat /\ (nc eX <= nr eX)%nat.
Proof. destruct e_trains as (s & E). exists s. repeat split; try exact E; try (cbn; lia); repeat constructor. Qed.
Example C86_ex : exists s m T V w, initialize (prm eig_1x1 nosvd) eS (Some eX) (Some eY) = (s, Ok None) /\ pr_model (p_own s) = Some m /\ snd (transform (prm eig_1x1 nosvd) s eX) = Ok T /\ snd (predict (prm eig_1x1 nosvd) s eX) = Ok V /\
  residual_rule 1 3 (fun i => sqrt (w i) * entry eY i 0 - entry V i 0) (fun i => entry (pm_W_r m) i 0).
Proof.
  destruct e_trains as (s & E). destruct (C86_weights_partial eig_1x1 nosvd eS s eX eY 1) as (m & T & V & w & Em & ET & EV & _ & HR & _); try reflexivity; try (cbn; lia); try (split; [reflexivity|repeat constructor]); [exact E|].
  exists s, m, T, V, w. auto.
Qed.
Print Assumptions C86_weights_partial.
Print Assumptions C86_refuted.
