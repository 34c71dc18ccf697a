(** C93: filters and transformations treat each row on its own. *)
From Coq Require Import List ZArith Lia Bool Arith Reals Lra.
From Verif Require Import Base Num Mat M_Matrix M_Factory M_Helper M_Loop M_Utils M_Linalg M_Transform M_SavGol M_GLSW M_CCAFilter.
From Verif Require Import S_Matrix L_Base L_Mat L_MatR L_Matrix L_Alg L_Stats L_Transform L_SavGol P_Filter P_SavGol P_Transform L_Batch P_Batch.
Import ListNotations.
Local Open Scope nat_scope.

(** A function that computes every row of the result from the same row of its argument *)
Section Local.
Context {T : Type} `{Num T}.
Variables (f : mat T -> res (mat T)) (w : nat -> nat) (F : nat -> (nat -> T) -> nat -> T).
Hypothesis HF : forall p u v j, p <> 0 -> (forall q, q < p -> u q = v q) -> j < w p -> F p u j = F p v j.
Hypothesis Hf : forall X R, wf X -> nr X <> 0 -> nc X <> 0 -> f X = Ok R -> forall X', wf X' -> nr X' <> 0 -> nc X' = nc X -> f X' = Ok (mk (nr X') (w (nc X')) (fun i j => F (nc X') (entry X' i) j)).
Lemma local_row_independent : row_independent f.
Proof.
  intros X R l Xl W N C E Hl Eg. pose proof (Hf X R W N C E) as Q. pose proof (Q X W N eq_refl) as E'. rewrite E in E'. injection E' as ->.
  split; [reflexivity|]. destruct (mapM (npidx (nr X)) l) as [ks|e] eqn:Ek.
  - rewrite (get_rows_take X l ks Ek Hl) in Eg. injection Eg as <-. pose proof Ek as Ek'. apply mapM_ok in Ek'. pose proof (Forall2_length' _ _ _ Ek') as Len.
    assert (Hk : ks <> []) by (intros ->; destruct l; [contradiction|discriminate]). assert (Hi : forall i, In i ks -> i < nr X).
    { intros i Hi. destruct (In_nth _ _ 0 Hi) as (k & Hk' & <-). pose proof (Forall2_nth' _ _ _ 0%Z 0 k Ek' ltac:(lia)) as Q'. cbv beta in Q'. apply npidx_addr in Q'. unfold addr in Q'. lia. }
    exists (take_rows ks (mk (nr X) (w (nc X)) (fun i j => F (nc X) (entry X i) j))). split; [now apply get_rows_take|].
    rewrite (Q (take_rows ks X)); [|apply take_wf|now apply len_nil|reflexivity]. rewrite take_mk by exact Hi. apply f_equal, mk_ext. intros i j H1 H2. cbn [nr nc take_rows mk] in *. apply HF; [exact C| |exact H2].
    intros q Hq. now rewrite take_entry.
  - exfalso. unfold get_rows, get_sub_matrix in Eg. cbn [sel_indices] in Eg. rewrite pyrange_0n, map_length, seq_length, Ek in Eg. destruct (Nat.eqb_spec (length l) 0) as [E0|_]; [destruct l; [contradiction|discriminate]|].
    destruct (Nat.eqb_spec (nc X) 0); [contradiction|]. discriminate.
Qed.
End Local.

(** * Transformations that keep a Center or Standardize state *)
Section Configured.
Context {T : Type} `{Num T}.
Lemma center_run_ok (h : list (t_op T)) : center_ok (t_run center (t_new center) h).
Proof.
  assert (G : forall s, center_ok s -> center_ok (t_run center s h)); [|apply G, center_new_ok]. induction h as [|o h IH]; intros s Hs; [exact Hs|]. cbn [t_run fold_left]. apply IH. destruct o as [m|m|m|]; cbn [t_step].
  - now apply center_step.
  - now apply center_undo_step.
  - intros q [= <-]. reflexivity.
  - exact center_new_ok.
Qed.
Lemma std_run_ok (h : list (t_op T)) : std_ok (t_run standardize (t_new standardize) h).
Proof.
  assert (G : forall s, std_ok s -> std_ok (t_run standardize s h)); [|apply G, std_new_ok].
  assert (C : forall s m, std_ok s -> std_ok (fst (t_configure standardize s m))).
  { intros s m Hs. cbn [t_configure standardize]. destruct (zero_guard (column_stdevs m)) as [sd|e] eqn:Ez; cbn [fst]; split; intros q [= <-]; try reflexivity. now rewrite (zero_guard_shape _ _ Ez). }
  induction h as [|o h IH]; intros s Hs; [exact Hs|]. cbn [t_run fold_left]. apply IH. destruct o as [m|m|m|]; cbn [t_step].
  - now apply std_step.
  - unfold t_inverse. destruct (negb _); [|exact Hs]. specialize (C s m Hs). destruct (t_configure standardize s m) as [s' [u|e]]; exact C.
  - now apply C.
  - exact std_new_ok.
Qed.
Lemma rowwise_standardize_undo s : std_ok s -> rowwise (t_undo (T:=T) standardize s).
Proof.
  intros (Hm & Hd). cbn [t_undo standardize]. apply rowwise_const. intros sd E. destruct (st_devs s) as [sd'|] eqn:Ed; [|discriminate]. injection E as <-.
  apply (rowwise_bind (fun X => mul_by_vector_modify X sd')); [apply rowwise_vector; now apply Hd|]. apply rowwise_const. intros mu E. destruct (st_means s) as [mu'|] eqn:Em; [|discriminate]. injection E as <-. apply rowwise_vector. now apply Hm.
Qed.
Theorem C93_center h : let s := t_run center (t_new center) h in t_configured center s = true ->
  row_independent (fun X : mat T => snd (t_transform center s X)) /\ row_independent (fun X : mat T => snd (t_inverse center s X)).
Proof.
  intros s Hc. pose proof (center_run_ok h) as Q. fold s in Q. split; apply rowwise_row_independent; [apply (rowwise_ext (t_do center s))|apply (rowwise_ext (t_undo center s))]; try (apply rowwise_center; exact Q); intros X; unfold t_transform, t_inverse; now rewrite Hc.
Qed.
Theorem C93_standardize h : let s := t_run standardize (t_new standardize) h in t_configured standardize s = true ->
  row_independent (fun X : mat T => snd (t_transform standardize s X)) /\ row_independent (fun X : mat T => snd (t_inverse standardize s X)).
Proof.
  intros s Hc. pose proof (std_run_ok h) as Q. fold s in Q. split; apply rowwise_row_independent; [apply (rowwise_ext (t_do standardize s)); [|apply rowwise_standardize; apply Q]|apply (rowwise_ext (t_undo standardize s)); [|apply rowwise_standardize_undo; exact Q]]; intros X; unfold t_transform, t_inverse; now rewrite Hc.
Qed.
Theorem C93_pass_through (h : list (t_op T)) : let s := t_run (pass_through (T:=T)) (t_new (pass_through (T:=T))) h in
  row_independent (fun X : mat T => snd (t_transform pass_through s X)) /\ row_independent (fun X : mat T => snd (t_inverse pass_through s X)).
Proof. intros s. split; apply rowwise_row_independent, (rowwise_ext Ok); try apply rowwise_id; intros X; unfold t_transform, t_inverse; now destruct (negb _). Qed.

(** RowNorm works on the rows of each batch until inverse_transform is called *)
Definition no_inverse (o : t_op T) : Prop := match o with OInverse _ => False | _ => True end.
Theorem C93_rownorm (h : list (t_op T)) : Forall no_inverse h -> let s := t_run rownorm (t_new rownorm) h in row_independent (fun X : mat T => snd (t_transform rownorm s X)).
Proof.
  intros Hh s. assert (E : st_configured s = false).
  { unfold s. assert (G : forall s : std_st T, st_configured s = false -> st_configured (t_run rownorm s h) = false); [|now apply G]. clear s. induction Hh as [|o h Ho Hh IH]; intros s Hs; [exact Hs|]. cbn [t_run fold_left]. apply IH. destruct o as [m|m|m|]; cbn [t_step]; [| contradiction | |reflexivity].
    - unfold t_transform. cbn [t_configured rownorm]. rewrite Hs. cbn [negb t_configure rownorm]. destruct (zero_guard (row_stdevs m)); exact Hs.
    - cbn [t_configure rownorm]. destruct (zero_guard (row_stdevs m)); exact Hs. }
  clearbody s. clear Hh h.
  apply (local_row_independent _ (fun p => p) (fun p u j => let sd := np_std p u in ndiv (nsub (u j) (np_mean p u)) (if neqb sd n0 then nofZ 1 else sd))).
  - intros p u v j Hp Huv Hj. cbv zeta. assert (M : np_mean p u = np_mean p v) by (unfold np_mean; f_equal; now apply sumn_ext). assert (S0 : np_std p u = np_std p v).
    { unfold np_std. rewrite M. f_equal. f_equal. apply sumn_ext. intros i Hi. now rewrite Huv. } now rewrite M, S0, Huv.
  - intros X R W N C _ X' W' N' C'. unfold t_transform. cbn [t_configured rownorm]. rewrite E. cbn [negb t_configure rownorm]. rewrite zero_guard_eq by (apply row_stdevs_wf || (left; cbn; discriminate)). cbn [snd t_do rownorm st_means st_devs need bind].
    unfold np_inplace. cbn [nr nc row_means row_stdevs transpose mk broadcast_op]. rewrite !Nat.eqb_refl, !orb_true_r. cbn [orb andb bind nr nc mk broadcast_op]. rewrite !Nat.eqb_refl, !orb_true_r. cbn [orb andb].
    apply f_equal. unfold broadcast_op. cbn [nr nc mk]. apply mk_ext. intros i j Hi Hj. rewrite !entry_mk by assumption. unfold row_means, row_stdevs, transpose. cbn [nr nc mk].
    assert (B : (if nr X' =? 1 then 0 else i) = i) by (destruct (Nat.eqb_spec (nr X') 1); lia). rewrite B. cbn [Nat.eqb]. rewrite !entry_mk by lia. unfold guarded. cbn [Nat.eqb andb]. rewrite !entry_mk by (cbn; lia). reflexivity.
Qed.

(** * SavitzkyGolay: any sequence of calls and assignments before *)
Theorem C93_savitzky_golay (h : list (sg_op T)) : row_independent (fun X => snd (t_transform savitzky_golay (sg_run h) X)).
Proof.
  destruct (determine_coefficients (T:=T) (sg_get NumPointsLeft (sg_run h)) (sg_get NumPointsRight (sg_run h)) (sg_get PolynomialOrder (sg_run h)) (sg_get DerivativeOrder (sg_run h))) as [c|e] eqn:Ec.
  - set (l := sg_get NumPointsLeft (sg_run h)) in *. set (r := sg_get NumPointsRight (sg_run h)) in *.
    pose proof (fun X => proj2 (C40_window h X l r _ _ (sg_run_param NumPointsLeft h) (sg_run_param NumPointsRight h) (sg_run_param PolynomialOrder h) (sg_run_param DerivativeOrder h)) c Ec) as Q.
    apply (local_row_independent _ (fun p => p - Z.to_nat (l + r)) (fun p u j => sumn (length c) (fun t => nmul (u (j + t)) (nth t c n0)))).
    + intros p u v j Hp Huv Hj. apply sumn_ext. intros t Ht. rewrite Huv; [reflexivity|]. destruct (Q (mk 1 1 (fun _ _ => n0))) as (L & _).
      rewrite L in Ht. lia.
    + intros X R W N C E X' W' N' C'. destruct (Q X) as (_ & Q1 & _). destruct (Z.ltb_spec (Z.of_nat (nc X)) (l + r + 1)) as [Hlt|Hge]; [rewrite (Q1 Hlt) in E; discriminate|].
      destruct (Q X') as (_ & _ & Q2). rewrite C' in Q2. destruct (Q2 Hge) as (y & -> & Hy). apply f_equal. rewrite C'. exact (is_mat_eq_mk _ _ _ _ Hy).
  - intros X R k Xl W N C E. destruct (C40_window h X _ _ _ _ (sg_run_param NumPointsLeft h) (sg_run_param NumPointsRight h) (sg_run_param PolynomialOrder h) (sg_run_param DerivativeOrder h)) as (Q & _). rewrite (Q e Ec) in E. discriminate.
Qed.

(** * Downsample and Equidistance *)
Theorem C93_downsample start step : row_independent (downsample (T:=T) start step).
Proof.
  apply (local_row_independent _ (fun p => length (pyrange start (Z.of_nat p) step)) (fun p u j => match mapM (npidx p) (pyrange start (Z.of_nat p) step) with Ok l => u (nth j l 0) | Err _ => n0 end)).
  - intros p u v j Hp Huv Hj. destruct (mapM (npidx p) (pyrange start (Z.of_nat p) step)) as [l|e] eqn:El; [|reflexivity]. apply Huv.
    apply mapM_ok in El. pose proof (Forall2_nth' _ _ _ 0%Z 0 j El Hj) as Q. cbv beta in Q. apply npidx_addr in Q. unfold addr in Q. lia.
  - intros X R W N C E X' W' N' C'. rewrite C'. unfold downsample in *. rewrite C'. destruct (step =? 0)%Z; [discriminate|]. unfold get_columns, get_sub_matrix in *. cbn [sel_indices] in *. rewrite !pyrange_0n, !map_length, !seq_length in *.
    destruct (Nat.eqb_spec (nr X) 0); [contradiction|]. destruct (Nat.eqb_spec (nr X') 0); [contradiction|]. cbn [orb] in *. rewrite !mapM_npidx_seq in * by lia. cbn [bind] in *. rewrite C'.
    set (l := pyrange start (Z.of_nat (nc X)) step) in *. destruct (Nat.eqb_spec (length l) 0) as [E0|E0].
    + apply f_equal. rewrite E0. unfold mk, tab. cbn [seq map]. apply f_equal. rewrite map_map. reflexivity.
    + destruct (mapM (npidx (nc X)) l) as [cs|] eqn:El; [|discriminate]. cbn [bind]. apply f_equal. unfold mk, tab. apply f_equal. apply map_ext. intros i. apply mapM_ok, Forall2_length' in El. rewrite El. now rewrite (map_by_index _ cs 0).
Qed.
Theorem C93_equidistance n : 2 <= n -> row_independent (equidistance (T:=T) (Z.of_nat n)).
Proof.
  intros Hn. apply (local_row_independent _ (fun _ => n) (fun p u k => let q := k * (p - 1) / (n - 1) in let m := (k * (p - 1)) mod (n - 1) in
     if m =? 0 then u q else let t := ndiv (nofZ (Z.of_nat m)) (nofZ (Z.of_nat (n - 1))) in nadd (nmul (u q) (nsub n1 t)) (nmul (u (if q + 1 <? p then q + 1 else q)) t))).
  - intros p u v j Hp Huv Hj. cbv zeta. assert (Hq : j * (p - 1) / (n - 1) < p).
    { apply Nat.le_lt_trans with (p - 1); [|lia]. apply Nat.div_le_upper_bound; [lia|]. apply Nat.mul_le_mono_r. lia. }
    rewrite (Huv _ Hq). destruct (_ mod _ =? 0); [reflexivity|]. destruct (Nat.ltb_spec (j * (p - 1) / (n - 1) + 1) p); now rewrite Huv.
  - intros X R W N C _ X' W' N' C'. destruct (C33_total X' n N' ltac:(lia) Hn) as (r & -> & Wr & Nr & Cr & He). apply f_equal. apply is_mat_eq_mk. split; [exact Wr|]. split; [exact Nr|]. split; [exact Cr|]. intros i k Hi Hk.
    destruct (He i k Hi Hk) as (q & m & E & Hm & Hq & Hq' & ->). rewrite <- (Nat.div_unique _ (n - 1) q m Hm) by lia. rewrite <- (Nat.mod_unique _ (n - 1) q m Hm) by lia. cbv zeta. destruct (Nat.eqb_spec m 0) as [|Nm]; [reflexivity|]. rewrite (proj2 (Nat.ltb_lt _ _) (Hq' Nm)). reflexivity.
Qed.

(** * GLSW, EPO and the y-gradient variants, CCAFilter *)
Theorem C93_glsw kind eig svd lstsq (pow2 : T -> T) h : row_independent (glsw_transform (glsw_run kind eig svd lstsq pow2 h)).
Proof.
  apply rowwise_row_independent. unfold glsw_transform. destruct (negb _); [apply rowwise_err|]. apply rowwise_const. intros G _. apply rowwise_mul.
Qed.
Section CCA.
Variables (eig : mat T -> res (list T * mat T)) (svd : mat T -> res (mat T * list T * mat T)) (lstsq : mat T -> mat T -> res (mat T)).
Definition cca_ok (s : cca_st T) : Prop := center_ok (cc_center_X s) /\ center_ok (cc_center_Y s) /\
  (cc_initialised s = true -> ce_configured (cc_center_X s) = true /\ ce_configured (cc_center_Y s) = true).
Lemma cca_step_ok s o : cca_ok s -> cca_ok (cca_step eig svd lstsq s o).
Proof.
  intros (H1 & H2 & H3). destruct o as [x y|x|y| |k]; cbn [cca_step].
  - assert (H0 : cca_ok cca_new) by (split; [apply center_new_ok|split; [apply center_new_ok|discriminate]]). unfold cca_initialize. destruct x as [x|], y as [y|]; try exact H0. unfold cca_do_initialize. cbn [cca_reset cc_kcca cc_center_X cc_center_Y].
    destruct (_ <? _)%Z; [split; [exact H1|split; [exact H2|discriminate]]|]. pose proof (center_step (cc_center_X s) x H1) as (A1 & A2). destruct (t_transform center (cc_center_X s) x) as [cx [X'|e]]; cbn [fst] in *; [|split; [exact A1|split; [exact H2|discriminate]]].
    pose proof (center_step (cc_center_Y s) y H2) as (B1 & B2). destruct (t_transform center (cc_center_Y s) y) as [cy [Y'|e]]; cbn [fst] in *; [|split; [exact A1|split; [exact B1|discriminate]]].
    destruct (cca_project _ _ _ _ _ _) as [px [py|e]]; (split; [exact A1|split; [exact B1|]]); [auto|discriminate].
  - unfold cca_transform. destruct (cc_initialised s) eqn:Ei; cbn [negb]; [|cbn [fst]; split; [exact H1|split; [exact H2|rewrite Ei; discriminate]]]. destruct (H3 eq_refl) as (C1 & C2). rewrite center_transform_conf by exact C1. split; [exact H1|split; [exact H2|auto]].
  - unfold cca_transform_response. destruct (cc_initialised s) eqn:Ei; cbn [negb]; [|cbn [fst]; split; [exact H1|split; [exact H2|rewrite Ei; discriminate]]]. destruct (H3 eq_refl) as (C1 & C2). rewrite center_transform_conf by exact C2. split; [exact H1|split; [exact H2|auto]].
  - split; [exact H1|split; [exact H2|discriminate]].
  - unfold cca_set. destruct (cca_valid k); [|exact (conj H1 (conj H2 H3))]. destruct k; (split; [exact H1|split; [exact H2|discriminate]]).
Qed.
Theorem C93_cca_filter h : let s := cca_run eig svd lstsq h in row_independent (fun X => snd (cca_transform s X)) /\ row_independent (fun Y => snd (cca_transform_response s Y)).
Proof.
  intros s. assert (Q : cca_ok s).
  { unfold s, cca_run. assert (H0 : cca_ok cca_new) by (split; [apply center_new_ok|split; [apply center_new_ok|discriminate]]). revert H0. generalize (cca_new (T:=T)) as s0. induction h as [|o h IH]; intros s0 H0; [exact H0|]. cbn [fold_left]. now apply IH, cca_step_ok. }
  destruct Q as (H1 & H2 & H3). clearbody s. split; apply rowwise_row_independent.
  - unfold cca_transform. destruct (cc_initialised s); cbn [negb]; [|apply rowwise_err]. destruct (H3 eq_refl) as (C1 & C2). apply (rowwise_ext (fun X => do p <- t_do center (cc_center_X s) X; do P <- need (cc_proj_X s); mul p P)); [intros X; now rewrite center_transform_conf|].
    apply (rowwise_bind (t_do center (cc_center_X s)) (fun p => do P <- need (cc_proj_X s); mul p P)); [now apply rowwise_center|]. apply rowwise_const. intros P _. apply rowwise_mul.
  - unfold cca_transform_response. destruct (cc_initialised s); cbn [negb]; [|apply rowwise_err]. destruct (H3 eq_refl) as (C1 & C2). apply (rowwise_ext (fun X => do p <- t_do center (cc_center_Y s) X; do P <- need (cc_proj_Y s); mul p P)); [intros X; now rewrite center_transform_conf|].
    apply (rowwise_bind (t_do center (cc_center_Y s)) (fun p => do P <- need (cc_proj_Y s); mul p P)); [now apply rowwise_center|]. apply rowwise_const. intros P _. apply rowwise_mul.
Qed.
End CCA.
End Configured.

(** * Log: real numbers, any base and offset *)
Theorem C93_log (s : log_st) : row_independent (fun X => snd (t_transform log_transformation s X)) /\ row_independent (fun X => snd (t_inverse log_transformation s X)).
Proof.
  assert (D : forall s, rowwise (t_do log_transformation s)).
  { clear s. intros s X R W N. cbn [t_do log_transformation]. destruct (any (add_scalar X (lg_offset s)) (fun x => Rleb x 0)) eqn:Ea; [discriminate|]. intros [= <-].
    split; [apply mk_wf|]. split; [reflexivity|]. intros l L1 L2. assert (Eb : any (add_scalar (take_rows l X) (lg_offset s)) (fun x => Rleb x 0) = false).
    { destruct (any (add_scalar (take_rows l X) (lg_offset s)) (fun x => Rleb x 0)) eqn:Eb; [|reflexivity]. rewrite <- Ea. symmetry. unfold any in *. apply existsb_exists in Eb as (i & Hi & Eb). apply existsb_exists in Eb as (j & Hj & Eb). apply in_seq in Hi, Hj. cbn in Hi, Hj.
      unfold add_scalar in Eb; rewrite entry_map_mat in Eb by (cbn; lia); rewrite take_entry in Eb by (cbn; lia). apply existsb_exists. exists (nth i l 0). assert (In (nth i l 0) l) by (apply nth_In; lia). split; [apply in_seq; cbn; specialize (L2 _ H); lia|]. apply existsb_exists. exists j. split; [apply in_seq; cbn; lia|]. unfold add_scalar; rewrite entry_map_mat by (solve [apply L2; assumption|lia]). exact Eb. }
    rewrite Eb. apply f_equal. unfold mul_scalar, map_mat, add_scalar. unfold take_rows at 3. cbn [nr nc take_rows mk]. apply mk_ext. intros i j Hi Hj. cbn [nr nc take_rows map_mat mk] in *.
    assert (In (nth i l 0) l) by (apply nth_In; lia). unfold map_mat. rewrite !entry_mk by (try apply L2; assumption). rewrite take_entry by assumption. reflexivity. }
  assert (U : forall s, rowwise (t_undo log_transformation s)).
  { clear s. intros s. cbn [t_undo log_transformation]. apply (rowwise_bind (fun X => Ok (map_mat _ X)) (fun Y => Ok (sub_scalar (map_mat exp Y) (lg_offset s)))); [apply rowwise_map|].
    apply (rowwise_bind (fun X => Ok (map_mat exp X)) (fun Y => Ok (sub_scalar Y (lg_offset s)))); apply rowwise_map. }
  split; apply rowwise_row_independent.
  - unfold t_transform. destruct (negb _); cbn [t_configure log_transformation snd]; apply D.
  - unfold t_inverse. destruct (negb _); cbn [t_configure log_transformation snd]; apply U.
Qed.

(** Standardize and the two filters in binary64: a batch, and two of its rows backwards *)
Definition e93_X : mat f64 := Mat 3 2 [[fz 1; fz 2]; [fz 3; fz 6]; [fz 5; fz 13]].
Definition e93_s := t_run (standardize (T:=f64)) (t_new standardize) [OTransform e93_X].
Example C93_ex : t_configured standardize e93_s = true /\ exists x V v, get_rows e93_X (SList [-1; 0]%Z) = Ok x /\
  snd (t_transform standardize e93_s e93_X) = Ok V /\ snd (t_transform standardize e93_s x) = Ok v /\ get_rows V (SList [-1; 0]%Z) = Ok v /\ nltb (fz 1) (nsub (entry V 2 0) (entry V 0 0)) = true.
Proof. split; [reflexivity|]. do 3 eexists. split; [vm_compute; reflexivity|]. split; [vm_compute; reflexivity|]. split; [vm_compute; reflexivity|]. split; vm_compute; reflexivity. Qed.
Example C93_ex_filters : exists x V v V' v', get_rows e93_X (SList [-1; 0]%Z) = Ok x /\
  downsample 1 2 e93_X = Ok V /\ downsample 1 2 x = Ok v /\ get_rows V (SList [-1; 0]%Z) = Ok v /\ entry v 0 0 = fz 13 /\
  equidistance 3 e93_X = Ok V' /\ equidistance 3 x = Ok v' /\ get_rows V' (SList [-1; 0]%Z) = Ok v' /\ entry v' 0 1 = fz 9.
Proof. do 5 eexists. split; [vm_compute; reflexivity|]. split; [vm_compute; reflexivity|]. split; [vm_compute; reflexivity|]. split; [vm_compute; reflexivity|]. split; [vm_compute; reflexivity|]. split; [vm_compute; reflexivity|]. split; [vm_compute; reflexivity|]. split; vm_compute; reflexivity. Qed.
Print Assumptions C93_center.
Print Assumptions C93_standardize.
Print Assumptions C93_pass_through.
Print Assumptions C93_rownorm.
Print Assumptions C93_savitzky_golay.
Print Assumptions C93_downsample.
Print Assumptions C93_equidistance.
Print Assumptions C93_glsw.
Print Assumptions C93_cca_filter.
Print Assumptions C93_log.
