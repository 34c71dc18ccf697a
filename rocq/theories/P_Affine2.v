(** C107: filters and configured transformations are affine in the data; SavitzkyGolay, Downsample and
    Equidistance and the GLSW family are linear. *)
From Coq Require Import List ZArith Lia Bool Arith Reals Lra.
From Verif Require Import Base Num Mat M_Matrix M_Factory M_Helper M_Loop M_Utils M_Linalg M_Transform M_SavGol M_GLSW M_CCAFilter.
From Verif Require Import S_Matrix L_Base L_Mat L_MatR L_Matrix L_Alg L_Stats L_Transform L_SavGol P_Filter P_SavGol P_Transform L_Batch P_Batch P_Batch2 L_Affine P_Affine.
Import ListNotations.
Local Open Scope nat_scope.

(** X1 * a + X2 * b, with the library's own operations *)
Definition linear_comb (a b : R) (A B : mat R) : res (mat R) := add (mul_scalar A a) (mul_scalar B b).
Definition is_linear (m : mat R -> res (mat R)) : Prop := forall a b X1 X2 R1 R2, wf X1 -> wf X2 -> nr X1 <> 0 -> nc X1 <> 0 -> nr X2 = nr X1 -> nc X2 = nc X1 -> m X1 = Ok R1 -> m X2 = Ok R2 ->
  exists X R, linear_comb a b X1 X2 = Ok X /\ linear_comb a b R1 R2 = Ok R /\ m X = Ok R.

(** every row of the result is a linear function of the same row of the argument *)
Section Local.
Variables (f : mat R -> res (mat R)) (w : nat -> nat) (F : nat -> (nat -> R) -> nat -> R).
Hypothesis HF : forall p u v j, p <> 0 -> (forall q, q < p -> u q = v q) -> j < w p -> F p u j = F p v j.
Hypothesis HL : forall p a b u v j, F p (fun q => a * u q + b * v q)%R j = (a * F p u j + b * F p v j)%R.
Hypothesis Hf : forall X R, wf X -> nr X <> 0 -> nc X <> 0 -> f X = Ok R -> forall X', wf X' -> nr X' <> 0 -> nc X' = nc X -> f X' = Ok (mk (nr X') (w (nc X')) (fun i j => F (nc X') (entry X' i) j)).
Lemma linear_comb_mk a b r c x y : linear_comb a b (mk r c x) (mk r c y) = Ok (mk r c (fun i j => a * x i j + b * y i j)%R).
Proof. unfold linear_comb, mul_scalar. rewrite !map_mk, add_mk. f_equal. apply mk_ext. intros i j _ _. cbn. ring. Qed.
Lemma local_linear : is_linear f.
Proof.
  intros a b X1 X2 R1 R2 W1 W2 N C ER EC E1 E2. pose proof (Hf X1 R1 W1 N C E1) as Q. rewrite (Q X1 W1 N eq_refl) in E1. rewrite (Q X2 W2 ltac:(lia) EC) in E2. injection E1 as <-. injection E2 as <-.
  set (X := mk (nr X1) (nc X1) (fun i j => a * entry X1 i j + b * entry X2 i j)%R). exists X. eexists. split; [|split].
  - rewrite <- (mk_entry X1 W1) at 1. rewrite <- (mk_entry X2 W2) at 1. rewrite ER, EC. apply linear_comb_mk.
  - rewrite ER, EC. apply linear_comb_mk.
  - rewrite (Q X (mk_wf _ _ _) N eq_refl). apply f_equal. unfold X at 1 2. cbn [nr nc mk]. apply mk_ext. intros i j Hi Hj. rewrite <- HL. apply HF; [exact C| |exact Hj]. intros q Hq. unfold X. cbn [nc mk]. now rewrite entry_mk.
Qed.
End Local.
Lemma linear_mul G : is_linear (fun X => mul X G).
Proof.
  apply (local_linear _ (fun _ => nc G) (fun p u j => sumn p (fun k => nmul (u k) (entry G k j)))).
  - intros p u v j Hp Huv Hj. apply sumn_ext. intros k Hk. now rewrite Huv.
  - intros p a b u v j. rewrite <- !sumR_scal, <- sumR_plus. apply sumn_ext. intros k Hk. cbn. ring.
  - intros X R W N C E X' W' N' C'. unfold mul, is_multiplicable_with in *. rewrite C'. destruct (nc X =? nr G); [|discriminate]. cbn [negb]. unfold matmul. now rewrite C'.
Qed.

Theorem C107_center h : let s := t_run (center (T:=R)) (t_new center) h in t_configured center s = true ->
  is_affine (fun X => snd (t_transform center s X)) /\ is_affine (fun X => snd (t_inverse center s X)).
Proof.
  intros s Hc. pose proof (center_run_ok h) as Q. fold s in Q. split; apply affine_is_affine; [apply (affine_ext (t_do center s))|apply (affine_ext (t_undo center s))]; try (apply affine_center; exact Q); intros X; unfold t_transform, t_inverse; now rewrite Hc.
Qed.
Lemma affine_standardize_undo s : std_ok s -> affine (t_undo standardize s).
Proof.
  intros (Hm & Hd). cbn [t_undo standardize]. apply affine_const. intros sd E. destruct (st_devs s) as [sd'|] eqn:Ed; [|discriminate]. injection E as <-.
  apply (affine_bind (fun X => mul_by_vector_modify X sd')); [apply affine_vector; [now apply Hd|apply op_mul]|]. apply affine_const. intros mu E. destruct (st_means s) as [mu'|] eqn:Em; [|discriminate]. injection E as <-. apply affine_vector; [now apply Hm|apply op_add].
Qed.
Theorem C107_standardize h : let s := t_run (standardize (T:=R)) (t_new standardize) h in t_configured standardize s = true ->
  is_affine (fun X => snd (t_transform standardize s X)) /\ is_affine (fun X => snd (t_inverse standardize s X)).
Proof.
  intros s Hc. pose proof (std_run_ok h) as Q. fold s in Q. split; apply affine_is_affine; [apply (affine_ext (t_do standardize s)); [|apply affine_standardize; apply Q]|apply (affine_ext (t_undo standardize s)); [|apply affine_standardize_undo; exact Q]]; intros X; unfold t_transform, t_inverse; now rewrite Hc.
Qed.
(** SavitzkyGolay: any sequence of calls and assignments before *)
Theorem C107_savitzky_golay (h : list (sg_op R)) : is_linear (fun X => snd (t_transform savitzky_golay (sg_run h) X)).
Proof.
  destruct (determine_coefficients (T:=R) (sg_get NumPointsLeft (sg_run h)) (sg_get NumPointsRight (sg_run h)) (sg_get PolynomialOrder (sg_run h)) (sg_get DerivativeOrder (sg_run h))) as [c|e] eqn:Ec.
  - set (l := sg_get NumPointsLeft (sg_run h)) in *. set (r := sg_get NumPointsRight (sg_run h)) in *.
    pose proof (fun X => proj2 (C40_window h X l r _ _ (sg_run_param NumPointsLeft h) (sg_run_param NumPointsRight h) (sg_run_param PolynomialOrder h) (sg_run_param DerivativeOrder h)) c Ec) as Q.
    apply (local_linear _ (fun p => p - Z.to_nat (l + r)) (fun p u j => sumn (length c) (fun t => nmul (u (j + t)) (nth t c n0)))).
    + intros p u v j Hp Huv Hj. apply sumn_ext. intros t Ht. rewrite Huv; [reflexivity|]. destruct (Q (mk 1 1 (fun _ _ => n0))) as (L & _). rewrite L in Ht. lia.
    + intros p a b u v j. rewrite <- !sumR_scal, <- sumR_plus. apply sumn_ext. intros k Hk. cbn. ring.
    + intros X R W N C E X' W' N' C'. destruct (Q X) as (_ & Q1 & _). destruct (Z.ltb_spec (Z.of_nat (nc X)) (l + r + 1)) as [Hlt|Hge]; [rewrite (Q1 Hlt) in E; discriminate|].
      destruct (Q X') as (_ & _ & Q2). rewrite C' in Q2. destruct (Q2 Hge) as (y & -> & Hy). apply f_equal. rewrite C'. exact (is_mat_eq_mk _ _ _ _ Hy).
  - intros a b X1 X2 R1 R2 W1 W2 N C ER EC E1. destruct (C40_window h X1 _ _ _ _ (sg_run_param NumPointsLeft h) (sg_run_param NumPointsRight h) (sg_run_param PolynomialOrder h) (sg_run_param DerivativeOrder h)) as (Q & _). rewrite (Q e Ec) in E1. discriminate.
Qed.
Theorem C107_downsample start step : is_linear (downsample (T:=R) start step).
Proof.
  apply (local_linear _ (fun p => length (pyrange start (Z.of_nat p) step)) (fun p u j => match mapM (npidx p) (pyrange start (Z.of_nat p) step) with Ok l => u (nth j l 0) | Err _ => 0%R end)).
  - intros p u v j Hp Huv Hj. destruct (mapM (npidx p) (pyrange start (Z.of_nat p) step)) as [l|e] eqn:El; [|reflexivity]. apply Huv.
    apply mapM_ok in El. pose proof (Forall2_nth' _ _ _ 0%Z 0 j El Hj) as Q. cbv beta in Q. apply npidx_addr in Q. unfold addr in Q. lia.
  - intros p a b u v j. destruct (mapM _ _); [reflexivity|ring].
  - intros X R W N C E X' W' N' C'. rewrite C'. unfold downsample in *. rewrite C'. destruct (step =? 0)%Z; [discriminate|]. unfold get_columns, get_sub_matrix in *. cbn [sel_indices] in *. rewrite !pyrange_0n, !map_length, !seq_length in *.
    destruct (Nat.eqb_spec (nr X) 0); [contradiction|]. destruct (Nat.eqb_spec (nr X') 0); [contradiction|]. cbn [orb] in *. rewrite !mapM_npidx_seq in * by lia. cbn [bind] in *. rewrite C'.
    set (l := pyrange start (Z.of_nat (nc X)) step) in *. destruct (Nat.eqb_spec (length l) 0) as [E0|E0].
    + apply f_equal. rewrite E0. unfold mk, tab. cbn [seq map]. apply f_equal. rewrite map_map. reflexivity.
    + destruct (mapM (npidx (nc X)) l) as [cs|] eqn:El; [|discriminate]. cbn [bind]. apply f_equal. unfold mk, tab. apply f_equal. apply map_ext. intros i. apply mapM_ok, Forall2_length' in El. rewrite El. now rewrite (map_by_index _ cs 0).
Qed.
Theorem C107_equidistance n : 2 <= n -> is_linear (equidistance (T:=R) (Z.of_nat n)).
Proof.
  intros Hn. apply (local_linear _ (fun _ => n) (fun p u k => let q := k * (p - 1) / (n - 1) in let m := (k * (p - 1)) mod (n - 1) in
     if m =? 0 then u q else let t := ndiv (nofZ (Z.of_nat m)) (nofZ (Z.of_nat (n - 1))) in nadd (nmul (u q) (nsub n1 t)) (nmul (u (if q + 1 <? p then q + 1 else q)) t))).
  - intros p u v j Hp Huv Hj. cbv zeta. assert (Hq : j * (p - 1) / (n - 1) < p).
    { apply Nat.le_lt_trans with (p - 1); [|lia]. apply Nat.div_le_upper_bound; [lia|]. apply Nat.mul_le_mono_r. lia. }
    rewrite (Huv _ Hq). destruct (_ mod _ =? 0); [reflexivity|]. destruct (Nat.ltb_spec (j * (p - 1) / (n - 1) + 1) p); now rewrite Huv.
  - intros p a b u v j. cbv zeta. destruct (_ mod _ =? 0); [reflexivity|]. cbn. ring.
  - intros X R W N C _ X' W' N' C'. destruct (C33_total X' n N' ltac:(lia) Hn) as (r & -> & Wr & Nr & Cr & He). apply f_equal. apply is_mat_eq_mk. split; [exact Wr|]. split; [exact Nr|]. split; [exact Cr|]. intros i k Hi Hk.
    destruct (He i k Hi Hk) as (q & m & E & Hm & Hq & Hq' & ->). rewrite <- (Nat.div_unique _ (n - 1) q m Hm) by lia. rewrite <- (Nat.mod_unique _ (n - 1) q m Hm) by lia. cbv zeta. destruct (Nat.eqb_spec m 0) as [|Nm]; [reflexivity|]. rewrite (proj2 (Nat.ltb_lt _ _) (Hq' Nm)). reflexivity.
Qed.
(** GLSW, EPO and the y-gradient variants *)
Theorem C107_glsw kind eig svd lstsq (pow2 : R -> R) h : is_linear (glsw_transform (glsw_run kind eig svd lstsq pow2 h)).
Proof.
  unfold glsw_transform. destruct (negb _); [intros a b X1 X2 R1 R2 W1 W2 N C ER EC E1; discriminate|]. destruct (need _) as [G|e]; [apply linear_mul|]. intros a b X1 X2 R1 R2 W1 W2 N C ER EC E1. discriminate.
Qed.
Theorem C107_cca_filter eig svd lstsq h : let s := cca_run (T:=R) eig svd lstsq h in is_affine (fun X => snd (cca_transform s X)) /\ is_affine (fun Y => snd (cca_transform_response s Y)).
Proof.
  intros s. assert (Q : cca_ok s).
  { unfold s, cca_run. assert (H0 : cca_ok (cca_new (T:=R))) by (split; [apply center_new_ok|split; [apply center_new_ok|discriminate]]). revert H0. generalize (cca_new (T:=R)) as s0. induction h as [|o h IH]; intros s0 H0; [exact H0|]. cbn [fold_left]. now apply IH, cca_step_ok. }
  destruct Q as (H1 & H2 & H3). clearbody s. split; apply affine_is_affine.
  - unfold cca_transform. destruct (cc_initialised s); cbn [negb]; [|apply affine_err]. destruct (H3 eq_refl) as (C1 & C2). apply (affine_ext (fun X => do p <- t_do center (cc_center_X s) X; do P <- need (cc_proj_X s); mul p P)); [intros X; now rewrite center_transform_conf|].
    apply (affine_bind (t_do center (cc_center_X s)) (fun p => do P <- need (cc_proj_X s); mul p P)); [now apply affine_center|]. apply affine_const. intros P _. apply affine_mul.
  - unfold cca_transform_response. destruct (cc_initialised s); cbn [negb]; [|apply affine_err]. destruct (H3 eq_refl) as (C1 & C2). apply (affine_ext (fun X => do p <- t_do center (cc_center_Y s) X; do P <- need (cc_proj_Y s); mul p P)); [intros X; now rewrite center_transform_conf|].
    apply (affine_bind (t_do center (cc_center_Y s)) (fun p => do P <- need (cc_proj_Y s); mul p P)); [now apply affine_center|]. apply affine_const. intros P _. apply affine_mul.
Qed.
(** Center configured with two rows, and Downsample and Equidistance on rows of three *)
Example C107_ex : let s := t_run (center (T:=R)) (t_new center) [OTransform (Mat 2 1 [[1];[3]]%R)] in t_configured center s = true /\
  exists R1 R2, snd (t_transform center s (Mat 1 1 [[5%R]])) = Ok R1 /\ snd (t_transform center s (Mat 1 1 [[7%R]])) = Ok R2 /\ (entry R1 0 0 = 3 /\ entry R2 0 0 = 5)%R.
Proof. split; [reflexivity|]. do 2 eexists. split; [reflexivity|]. split; [reflexivity|]. cbn. unfold tab. cbn. unfold tab. cbn. split; field. Qed.
Example C107_ex_filters : exists R1 R2, downsample 1 2 (Mat 1 4 [[1;2;3;4]]%R) = Ok R1 /\ downsample 1 2 (Mat 1 4 [[0;5;0;6]]%R) = Ok R2 /\ R1 = Mat 1 2 [[2;4]]%R /\ R2 = Mat 1 2 [[5;6]]%R /\
  is_linear (downsample (T:=R) 1 2) /\ is_linear (equidistance (T:=R) 5).
Proof.
  do 2 eexists. split; [reflexivity|]. split; [reflexivity|]. split; [reflexivity|]. split; [reflexivity|]. split; [apply C107_downsample|]. apply (C107_equidistance 5). lia.
Qed.
Print Assumptions C107_center.
Print Assumptions C107_standardize.
Print Assumptions C107_savitzky_golay.
Print Assumptions C107_downsample.
Print Assumptions C107_equidistance.
Print Assumptions C107_glsw.
Print Assumptions C107_cca_filter.
