(** C91, C92: predictions and scores of a row do not depend on the other rows of the batch. *)
From Coq Require Import List ZArith Lia Bool Arith Reals Lra.
From Verif Require Import Base Num Mat M_Matrix M_Factory M_Helper M_Loop M_Utils M_Transform M_PLSBase M_PLS M_PLS2 M_Kernel.
From Verif Require Import S_Matrix L_Base L_Mat L_MatR L_Matrix L_Alg L_Stats L_Transform P_PLSPrep L_Public P_NIPALS2 P_Sparse2 L_Batch.
Import ListNotations.
Local Open Scope nat_scope.

(** m(X).get_rows(l) = m(X.get_rows(l)) for every list of row indices, negative ones included;
    in particular for permutations and for single rows. *)
Definition row_independent {T} `{Num T} (m : mat T -> res (mat T)) : Prop := forall X R l Xl, wf X -> nr X <> 0 -> nc X <> 0 -> m X = Ok R ->
  l <> [] -> get_rows X (SList l) = Ok Xl -> nr R = nr X /\ exists Rl, get_rows R (SList l) = Ok Rl /\ m Xl = Ok Rl.

Section Generic.
Context {T : Type} `{Num T}.
Lemma map_by_index {A B} (f : A -> B) l d : map f l = map (fun i => f (nth i l d)) (seq 0 (length l)).
Proof. induction l as [|a l IH]; [reflexivity|]. cbn [map length seq nth]. f_equal. now rewrite <- seq_shift, map_map. Qed.
Lemma mapM_npidx_seq n k a : a + k <= n -> mapM (npidx n) (map Z.of_nat (seq a k)) = Ok (seq a k).
Proof. revert a. induction k as [|k IH]; intros a Hk; [reflexivity|]. cbn [seq map mapM]. rewrite npidx_nat by lia. cbn [bind]. now rewrite IH by lia. Qed.
Lemma get_rows_take (X : mat T) l ks : mapM (npidx (nr X)) l = Ok ks -> l <> [] -> get_rows X (SList l) = Ok (take_rows ks X).
Proof.
  intros E Hl. assert (Len : length ks = length l) by (apply mapM_ok in E; symmetry; exact (Forall2_length' _ _ _ E)). assert (Hi : forall i, In i ks -> i < nr X).
  { apply mapM_ok in E. intros i Hi. destruct (In_nth _ _ 0 Hi) as (k & Hk & <-). pose proof (Forall2_nth' _ _ _ 0%Z 0 k E ltac:(lia)) as Q. cbv beta in Q. apply npidx_addr in Q. unfold addr in Q. lia. }
  unfold get_rows, get_sub_matrix. cbn [sel_indices]. destruct (Nat.eqb_spec (length l) 0) as [E0|_]; [destruct l; [contradiction|discriminate]|]. cbn [orb].
  rewrite pyrange_0n, map_length, seq_length. unfold take_rows, mk, tab. rewrite <- Len. destruct (Nat.eqb_spec (nc X) 0) as [E0|E0].
  - rewrite E0. cbn [seq map]. now rewrite (map_by_index _ l 0%Z), Len.
  - rewrite E, mapM_npidx_seq by lia. cbn [bind]. now rewrite (map_by_index _ ks 0).
Qed.
Lemma rowwise_row_independent (m : mat T -> res (mat T)) : rowwise m -> row_independent m.
Proof.
  intros Hm X R l Xl W N C E Hl Eg. destruct (Hm X R W N E) as (WR & NR & LR). split; [exact NR|].
  destruct (mapM (npidx (nr X)) l) as [ks|e] eqn:Ek.
  - rewrite (get_rows_take X l ks Ek Hl) in Eg. injection Eg as <-. rewrite <- NR in Ek. exists (take_rows ks R). split; [now apply get_rows_take|]. apply mapM_ok in Ek. pose proof (Forall2_length' _ _ _ Ek) as Len. apply LR.
    + intros ->. destruct l; [contradiction|discriminate].
    + intros i Hi. destruct (In_nth _ _ 0 Hi) as (k & Hk & <-). pose proof (Forall2_nth' _ _ _ 0%Z 0 k Ek ltac:(lia)) as Q. cbv beta in Q. apply npidx_addr in Q. unfold addr in Q. lia.
  - exfalso. unfold get_rows, get_sub_matrix in Eg. cbn [sel_indices] in Eg. rewrite pyrange_0n, map_length, seq_length, Ek in Eg. destruct (Nat.eqb_spec (length l) 0) as [E0|_]; [destruct l; [contradiction|discriminate]|].
    destruct (Nat.eqb_spec (nc X) 0); [contradiction|]. discriminate.
Qed.
End Generic.

(** * Facts that hold of every object a user can reach *)
Section Reach.
Context {T : Type} `{Num T} {A K : Type} (c : pls_class A K T) (Q Tr : A -> Prop).
(** Q: always; Tr: while trained *)
Record reach_laws : Prop := {
  iv_new : Q (c_new c);
  iv_fresh : forall a, Q a -> Q (c_fresh c a);
  iv_assign : forall k a, Q a -> Q (c_assign c k a);
  iv_reset : forall a, Q a -> Q (c_reset c a);
  iv_train : forall n a X Y, Q a -> Q (fst (c_train c n a X Y)) /\ (snd (c_train c n a X Y) = Ok None -> Tr (fst (c_train c n a X Y)));
  iv_keep : forall k a, c_valid c k = None -> Tr a -> Tr (c_assign c k a);
  iv_predict : forall n a X, Q a -> Tr a -> Q (fst (c_predict c n a X)) /\ Tr (fst (c_predict c n a X));
  iv_transform : forall n a X, Q a -> Tr a -> Q (fst (c_transform c n a X)) /\ Tr (fst (c_transform c n a X)) }.
Hypothesis L : reach_laws.
Definition reach_ok (s : pls_st A T) : Prop := Q (p_own s) /\ (p_initialised s = true -> Tr (p_own s)).
Lemma setattr_ok s k : reach_ok s -> reach_ok (fst (setattr c s k)).
Proof.
  intros (HQ & HT). unfold setattr, reach_ok. destruct (a_valid c k) as [[|]|] eqn:Ev; cbn [fst]; [|auto|].
  - destruct k as [v|v|k]; cbn; (split; [|discriminate]); try apply (iv_reset L _ HQ). apply (iv_assign L), (iv_reset L _ HQ).
  - destruct k as [v|v|k]; cbn in *; try discriminate. split; [apply (iv_assign L _ _ HQ)|]. intros Hi. apply (iv_keep L _ _ Ev), HT, Hi.
Qed.
Lemma members_ok s : reach_ok s -> Q (p_own (initialize_members c s)).
Proof.
  intros Hs. unfold initialize_members. cbn [set_own p_own]. apply (iv_fresh L). apply setattr_ok with (k := ANumComponents 5) in Hs. apply setattr_ok with (k := APreprocessing PP_NONE) in Hs.
  revert Hs. generalize (fst (setattr c (fst (setattr c s (ANumComponents 5))) (APreprocessing PP_NONE))) as s'. induction (c_defaults c) as [|k ks IH]; intros s' Hs; [apply Hs|]. cbn [fold_left]. apply IH, setattr_ok, Hs.
Qed.
Lemma members_not_initialised s : p_initialised (initialize_members c s) = false.
Proof.
  unfold initialize_members. cbn [set_own p_initialised]. cbn [setattr a_valid fst]. match goal with |- p_initialised (fold_left _ _ ?x) = _ => assert (E : p_initialised x = false) by reflexivity; revert E; generalize x end.
  induction (c_defaults c) as [|k ks IH]; intros s' E; [exact E|]. cbn [fold_left]. apply IH. unfold setattr. destruct (a_valid c (AOwn k)) as [[|]|]; cbn; auto.
Qed.
Lemma reach_run h : reach_ok (pls_run c h).
Proof.
  unfold pls_run. assert (H0 : reach_ok (construct c)).
  { unfold construct, reach_ok. cbn [reset p_own p_initialised]. split; [|discriminate]. apply (iv_reset L). apply members_ok. split; [apply (iv_new L)|discriminate]. }
  revert H0. generalize (construct c) as s. induction h as [|o h IH]; intros s Hs; [exact Hs|]. cbn [fold_left]. apply IH. clear IH. destruct o as [X Y|k| |X|X]; cbn [pls_step].
  - unfold initialize. destruct X as [X|], Y as [Y|]; cbn [fst]; try exact Hs.
    + destruct Hs as (HQ & _). assert (Q0 : Q (p_own (reset c s))) by apply (iv_reset L _ HQ). assert (I0 : p_initialised (reset c s) = false) by reflexivity.
      revert Q0 I0. generalize (reset c s) as s0. intros s0 Q0 I0. destruct (check_data c Y) as [m|]; [cbn; split; [exact Q0|now rewrite I0]|].
      unfold do_initialize. destruct (prepare c (p_preprocessing s0) Y) as [[[[mean std] tp] tr]|e]; [|cbn; split; [exact Q0|now rewrite I0]].
      destruct (pt_fit tp X) as [tp' [X'|e]]; [|cbn; split; [exact Q0|cbn; now rewrite I0]]. destruct (pt_fit tr Y) as [tr' [Y'|e]]; [|cbn; split; [exact Q0|cbn; now rewrite I0]].
      cbn [set_prep p_num_components p_own]. pose proof (iv_train L (p_num_components s0) (p_own s0) X' Y' Q0) as (Q1 & T1). destruct (c_train c (p_num_components s0) (p_own s0) X' Y') as [a r]. cbn [fst snd] in *.
      destruct r as [[m|]|e]; cbn; (split; [exact Q1|]); cbn; try discriminate; [auto|]. now rewrite I0.
    + split; [now apply members_ok|]. rewrite members_not_initialised. discriminate.
  - now apply setattr_ok.
  - split; [apply (iv_reset L), Hs|discriminate].
  - unfold predict. destruct (p_initialised s) eqn:Ei; cbn [negb]; [|exact Hs]. destruct Hs as (HQ & HT). specialize (HT Ei). unfold do_predict. pose proof (iv_predict L (p_num_components s) (p_own s) X HQ HT) as (Q1 & T1).
    destruct (c_predict c _ _ X) as [a r]. split; cbn; auto.
  - unfold transform. destruct (p_initialised s) eqn:Ei; cbn [negb]; [|exact Hs]. destruct Hs as (HQ & HT). specialize (HT Ei). pose proof (iv_transform L (p_num_components s) (p_own s) X HQ HT) as (Q1 & T1).
    destruct (c_transform c _ _ X) as [a r]. split; cbn; auto.
Qed.
End Reach.
Lemma laws_trivial {T} `{Num T} {A K} (c : pls_class A K T) : reach_laws c (fun _ => True) (fun _ => True).
Proof. split; auto. Qed.

Section Lift.
Context {T : Type} `{Num T} {A K : Type} (c : pls_class A K T).
Lemma rowwise_predict s : (p_initialised s = true -> rowwise (fun X => snd (c_predict c (p_num_components s) (p_own s) X))) -> rowwise (fun X => snd (predict c s X)).
Proof.
  intros Hc. unfold predict. destruct (p_initialised s); cbn [negb]; [|apply rowwise_err]. unfold do_predict.
  apply (rowwise_ext (fun X => do result <- snd (c_predict c (p_num_components s) (p_own s) X); match p_trans_response s with None => Ok result | Some _ => denormalise c (p_class_mean s) (p_class_std_dev s) result end)).
  - intros X. now destruct (c_predict c _ _ X).
  - apply (rowwise_bind (fun X => snd (c_predict c (p_num_components s) (p_own s) X))); [now apply Hc|]. destruct (p_trans_response s); [apply rowwise_denormalise|apply rowwise_id].
Qed.
Lemma rowwise_transform s : (p_initialised s = true -> rowwise (fun X => snd (c_transform c (p_num_components s) (p_own s) X))) -> rowwise (fun X => snd (transform c s X)).
Proof.
  intros Hc. unfold transform. destruct (p_initialised s); cbn [negb]; [|apply rowwise_err].
  apply (rowwise_ext (fun X => snd (c_transform c (p_num_components s) (p_own s) X))); [|now apply Hc]. intros X. now destruct (c_transform c _ _ X).
Qed.
End Lift.

(** * The classes *)
Section Classes.
Context {T : Type} `{Num T}.
Variables (lstsq : mat T -> mat T -> res (mat T)) (eig : mat T -> res (list T * mat T)) (pinv : mat T -> res (mat T)) (svd : mat T -> res (mat T * list T * mat T)).

(** PLS1, VCPLS, SIMPLS, PRM: every object, also one not reachable *)
Lemma pls1_rows s : rowwise (fun X => snd (predict (pls1 lstsq) s X)) /\ (p_num_components s <> (-1)%Z -> rowwise (fun X => snd (transform (pls1 lstsq) s X))).
Proof. split; [apply rowwise_predict; intros _; cbn; apply rowwise_pls1_predict|intros Hn; apply rowwise_transform; intros _; cbn; now apply rowwise_pls1_transform]. Qed.
Lemma vcpls_rows s : rowwise (fun X => snd (predict (vcpls lstsq eig) s X)) /\ (p_num_components s <> (-1)%Z -> rowwise (fun X => snd (transform (vcpls lstsq eig) s X))).
Proof. split; [apply rowwise_predict; intros _; cbn; apply rowwise_pls1_predict|intros Hn; apply rowwise_transform; intros _; cbn; now apply rowwise_pls1_transform]. Qed.
Lemma simpls_rows s : rowwise (fun X => snd (predict (simpls eig) s X)) /\ rowwise (fun X => snd (transform (simpls eig) s X)).
Proof. split; [apply rowwise_predict|apply rowwise_transform]; intros _; cbn; apply rowwise_const; intros B _; apply rowwise_mul. Qed.
Lemma prm_rows s : rowwise (fun X => snd (predict (prm eig svd) s X)) /\ rowwise (fun X => snd (transform (prm eig svd) s X)).
Proof. split; [apply rowwise_predict|apply rowwise_transform]; intros _; cbn; apply rowwise_const; intros B _; [apply rowwise_mul|]. apply rowwise_const; intros W _; apply rowwise_mul. Qed.

(** OPLS, over a base class of which the same is known *)
Lemma rowwise_opls W P : rowwise (opls_transform (T:=T) W P).
Proof.
  unfold opls_transform. apply rowwise_const. intros W' _. destruct P as [P'|]; cbn [need].
  - apply (rowwise_ext (fun X => do A <- Ok X; do B <- (do Ts <- mul X W'; mul Ts (transpose P')); sub A B)).
    + intros X. cbn [bind]. destruct (mul X W') as [Ts|]; [|reflexivity]. cbn [bind]. destruct (mul Ts (transpose P')); reflexivity.
    + apply (rowwise_sub Ok (fun X => do Ts <- mul X W'; mul Ts (transpose P'))); [apply rowwise_id|]. apply (rowwise_bind (fun X => mul X W')); apply rowwise_mul.
  - intros X R WX N. destruct (mul X W'); discriminate.
Qed.
Section OPLS.
Context {AB KB : Type} (base : pls_class AB KB T).
Hypothesis Hbase : forall s, rowwise (fun X => snd (predict base s X)).
Lemma opls_rows s : rowwise (fun X => snd (predict (opls base) s X)) /\ rowwise (fun X => snd (transform (opls base) s X)).
Proof.
  split; [apply rowwise_predict|apply rowwise_transform]; intros _; cbn [c_predict c_transform opls snd]; [|apply rowwise_opls].
  apply (rowwise_ext (fun X => do X' <- opls_transform (op_W (p_own s)) (op_P (p_own s)) X; snd (predict base (op_base (p_own s)) X'))).
  - intros X. unfold opls_predict. destruct (opls_transform _ _ X) as [X'|]; [|reflexivity]. cbn [bind]. now destruct (predict base _ X').
  - apply (rowwise_bind (opls_transform (op_W (p_own s)) (op_P (p_own s))) (fun X' => snd (predict base (op_base (p_own s)) X'))); [apply rowwise_opls|apply Hbase].
Qed.
End OPLS.

(** NIPALS and CCARegression *)
Definition ni_ok (a : nipals_st T) : Prop := std_ok (ni_standardize_X a) /\ std_ok (ni_standardize_Y a).
Definition ni_trained (a : nipals_st T) : Prop := st_configured (ni_standardize_X a) = true.
Lemma std_new_ok : std_ok (t_new (T:=T) standardize).
Proof. split; intros m [=]. Qed.
Lemma std_transform_conf s (X : mat T) : st_configured s = true -> t_transform standardize s X = (s, t_do standardize s X).
Proof. intros E. unfold t_transform. cbn [t_configured standardize]. now rewrite E. Qed.
Lemma center_transform_conf s (X : mat T) : ce_configured s = true -> t_transform center s X = (s, t_do center s X).
Proof. intros E. unfold t_transform. cbn [t_configured center]. now rewrite E. Qed.
Lemma nipals_laws mode def0 assign : reach_laws (nipals_class lstsq pinv mode def0 assign) ni_ok ni_trained.
Proof.
  pose proof std_new_ok as N0. split; cbn [c_new c_fresh c_assign c_reset c_valid c_predict c_transform nipals_class].
  - split; exact N0.
  - intros a _. split; exact N0.
  - intros k a Ha. destruct k; exact Ha.
  - intros a _. split; exact N0.
  - intros n a X Y (HX & HY). cbn [c_train nipals_class]. unfold nipals_train. pose proof (std_step (ni_standardize_X a) X HX) as (H1 & H2). destruct (t_transform standardize (ni_standardize_X a) X) as [sx [X'|e]]; cbn [fst snd] in *; [|split; [split; assumption|discriminate]].
    cbn [ni_standardize_Y]. pose proof (std_step (ni_standardize_Y a) Y HY) as (H3 & _). destruct (t_transform standardize (ni_standardize_Y a) Y) as [sy [Y'|e]]; cbn [fst snd] in *; [|split; [split; assumption|discriminate]].
    destruct (nipals_fit _ _ _ _ _ _ _ _); cbn [fst snd]; (split; [split; assumption|]); [|discriminate]. intros _. destruct H2 as [H2|(e & H2)]; [exact H2|discriminate].
  - intros k a Hk Ha. destruct k; exact Ha.
  - intros n a X (HX & HY) Ha. unfold nipals_predict, nipals_apply. rewrite std_transform_conf by exact Ha. split; [split; assumption|exact Ha].
  - intros n a X (HX & HY) Ha. unfold nipals_transform, nipals_apply. rewrite std_transform_conf by exact Ha. split; [split; assumption|exact Ha].
Qed.
Lemma nipals_rows mode def0 assign h : let c := nipals_class lstsq pinv mode def0 assign in
  rowwise (fun X => snd (predict c (pls_run c h) X)) /\ rowwise (fun X => snd (transform c (pls_run c h) X)).
Proof.
  intros c. destruct (reach_run c _ _ (nipals_laws mode def0 assign) h) as ((HX & HY) & Ht). revert HX HY Ht. generalize (pls_run c h) as s. intros s (M1 & D1) (M2 & D2) Ht.
  split; [apply rowwise_predict|apply rowwise_transform]; intros Hi; specialize (Ht Hi); cbn [c_predict c_transform c nipals_class]; unfold nipals_predict, nipals_transform, nipals_apply.
  - apply (rowwise_ext (fun X => do X' <- t_do standardize (ni_standardize_X (p_own s)) X; (do m <- need (ni_model (p_own s)); do xc <- mul X' (nm_coef m); do mu <- need (st_means (ni_standardize_Y (p_own s))); add_by_vector xc mu))).
    + intros X. rewrite std_transform_conf by exact Ht. reflexivity.
    + apply (rowwise_bind (t_do standardize (ni_standardize_X (p_own s))) (fun X' => do m <- need (ni_model (p_own s)); do xc <- mul X' (nm_coef m); do mu <- need (st_means (ni_standardize_Y (p_own s))); add_by_vector xc mu)); [now apply rowwise_standardize|].
      apply rowwise_const. intros m _. apply (rowwise_bind (fun X => mul X (nm_coef m)) (fun xc => do mu <- need (st_means (ni_standardize_Y (p_own s))); add_by_vector xc mu)); [apply rowwise_mul|]. apply rowwise_const. intros mu E.
      destruct (st_means (ni_standardize_Y (p_own s))) as [mu'|] eqn:Em; [|discriminate]. injection E as <-. apply rowwise_vector. now apply M2.
  - apply (rowwise_ext (fun X => do X' <- t_do standardize (ni_standardize_X (p_own s)) X; (do m <- need (ni_model (p_own s)); mul X' (nm_X_rotations m)))).
    + intros X. rewrite std_transform_conf by exact Ht. reflexivity.
    + apply (rowwise_bind (t_do standardize (ni_standardize_X (p_own s))) (fun X' => do m <- need (ni_model (p_own s)); mul X' (nm_X_rotations m))); [now apply rowwise_standardize|]. apply rowwise_const. intros m _. apply rowwise_mul.
Qed.

(** KernelPLS with a kernel that treats rows on their own *)
Section KPLS.
Context {KS : Type} (rnd : Z -> nat -> mat T) (kernel0 : KS) (kapply : KS -> mat T -> option (mat T) -> KS * res (mat T)).
Notation kp := (kernel_pls lstsq rnd kernel0 kapply).
Definition kp_ok (a : @kpls_st T KS) : Prop := center_ok (kp_center_X a) /\ center_ok (kp_center_Y a).
Definition kp_trained (a : @kpls_st T KS) : Prop := ce_configured (kp_center_X a) = true /\ ce_configured (kp_center_Y a) = true.
Lemma center_new_ok : center_ok (t_new (T:=T) center).
Proof. intros m [=]. Qed.
Lemma kpls_transform_state a X : kp_trained a -> exists ks, fst (kpls_transform kapply a X) = Kpls ks (kp_tol a) (kp_max_iter a) (kp_center_X a) (kp_center_Y a) (kp_model a).
Proof.
  intros (H1 & H2). unfold kpls_transform. rewrite center_transform_conf by exact H1. destruct (t_do center (kp_center_X a) X) as [X'|e]; [|cbn; now exists (kp_kernel a)]. cbn [kp_model]. destruct (kp_model a) as [m|] eqn:Em; [|cbn; now exists (kp_kernel a)].
  cbn [kp_kernel]. destruct (kapply (kp_kernel a) X' (Some (km_X m))) as [ks rK]. cbn. now exists ks.
Qed.
Lemma kpls_laws : reach_laws kp kp_ok kp_trained.
Proof.
  pose proof center_new_ok as N0. split; cbn [c_new c_fresh c_assign c_reset c_valid c_predict c_transform kernel_pls].
  - split; exact N0.
  - intros a _. split; exact N0.
  - intros k a Ha. destruct k; exact Ha.
  - intros a _. split; exact N0.
  - intros n a X Y (HX & HY). cbn [c_train kernel_pls]. unfold kpls_train. pose proof (center_step (kp_center_X a) X HX) as (H1 & H2). destruct (t_transform center (kp_center_X a) X) as [cx [X'|e]]; cbn [fst snd] in *; [|split; [split; assumption|discriminate]].
    pose proof (center_step (kp_center_Y a) Y HY) as (H3 & H4). destruct (t_transform center (kp_center_Y a) Y) as [cy [Y'|e]]; cbn [fst snd] in *; [|split; [split; assumption|discriminate]].
    destruct (kpls_fit _ _ _ _ _ _ _ _ _) as [ks [m|e]]; cbn [fst snd]; (split; [split; assumption|]); [|discriminate]. intros _. split; assumption.
  - intros k a Hk Ha. destruct k; exact Ha.
  - intros n a X Ha Ht. unfold kpls_predict. destruct (kpls_transform_state a X Ht) as (ks & E). destruct (kpls_transform kapply a X) as [a' r]. cbn [fst] in E. subst a'. destruct (do K_t <- r; _) as [Y'|e]; [|split; [exact Ha|exact Ht]].
    cbn [kp_center_Y]. pose proof (center_undo_step (kp_center_Y a) Y' (proj2 Ha)) as (H1 & H2). destruct (t_inverse center (kp_center_Y a) Y') as [cy r']. cbn [fst] in *. split; (split; [apply Ha || apply Ht|assumption]).
  - intros n a X Ha Ht. destruct (kpls_transform_state a X Ht) as (ks & ->). split; [exact Ha|exact Ht].
Qed.
Lemma kpls_rows h : kernel_rows kapply -> rowwise (fun X => snd (predict kp (pls_run kp h) X)) /\ rowwise (fun X => snd (transform kp (pls_run kp h) X)).
Proof.
  intros Hk. destruct (reach_run kp _ _ kpls_laws h) as ((HX & HY) & Ht). revert HX HY Ht. generalize (pls_run kp h) as s. intros s HX HY Ht.
  assert (Tr : p_initialised s = true -> rowwise (fun X => snd (kpls_transform kapply (p_own s) X))).
  { intros Hi. specialize (Ht Hi). destruct Ht as (T1 & T2). set (a := p_own s) in *.
    apply (rowwise_ext (fun X => do X' <- t_do center (kp_center_X a) X; (do m <- need (kp_model a); do K <- snd (kapply (kp_kernel a) X' (Some (km_X m))); do K <- centralize_test (nr (km_X m)) (km_K_orig m) K; mul K (km_U m)))).
    - intros X. unfold kpls_transform. rewrite center_transform_conf by exact T1. destruct (t_do center (kp_center_X a) X) as [X'|]; [|reflexivity]. cbn [bind kp_model kp_kernel]. destruct (kp_model a) as [m|]; [|reflexivity]. cbn [need bind].
      destruct (kapply (kp_kernel a) X' (Some (km_X m))) as [ks rK]. reflexivity.
    - apply (rowwise_bind (t_do center (kp_center_X a)) (fun X' => do m <- need (kp_model a); do K <- snd (kapply (kp_kernel a) X' (Some (km_X m))); do K <- centralize_test (nr (km_X m)) (km_K_orig m) K; mul K (km_U m))); [now apply rowwise_center|].
      apply rowwise_const. intros m _. apply (rowwise_bind (fun X' => snd (kapply (kp_kernel a) X' (Some (km_X m)))) (fun K => do K <- centralize_test (nr (km_X m)) (km_K_orig m) K; mul K (km_U m))); [apply Hk|].
      apply (rowwise_bind (centralize_test (nr (km_X m)) (km_K_orig m))); [apply rowwise_centralize|apply rowwise_mul]. }
  split; [apply rowwise_predict|apply rowwise_transform]; intros Hi; cbn [c_predict c_transform kernel_pls]; [|now apply Tr]. specialize (Tr Hi). destruct (Ht Hi) as (T1 & T2). set (a := p_own s) in *.
  apply (rowwise_ext (fun X => do K <- snd (kpls_transform kapply a X); (do m <- need (kp_model a); do V <- mul K (km_B_RHS m); t_undo center (kp_center_Y a) V))).
  - intros X. unfold kpls_predict. destruct (kpls_transform_state a X (conj T1 T2)) as (ks & E). destruct (kpls_transform kapply a X) as [a' r]. cbn [fst snd] in *. subst a'. destruct r as [K|]; [|reflexivity]. cbn [bind kp_model].
    destruct (need (kp_model a)) as [m|]; [|reflexivity]. cbn [bind]. destruct (mul K (km_B_RHS m)) as [V|]; [|reflexivity]. cbn [kp_center_Y bind]. unfold t_inverse. cbn [t_configured center]. rewrite T2. reflexivity.
  - apply (rowwise_bind (fun X => snd (kpls_transform kapply a X)) (fun K => do m <- need (kp_model a); do V <- mul K (km_B_RHS m); t_undo center (kp_center_Y a) V)); [exact Tr|]. apply rowwise_const. intros m _.
    apply (rowwise_bind (fun K => mul K (km_B_RHS m)) (t_undo center (kp_center_Y a))); [apply rowwise_mul|now apply rowwise_center].
Qed.
End KPLS.

(** DIPLS *)
Definition di_ok (a : @dipls_st T) : Prop := center_ok (di_X_center a) /\ center_ok (di_X_t_center a).
Definition di_trained (a : @dipls_st T) : Prop := ce_configured (di_X_center a) = true /\ ce_configured (di_X_t_center a) = true.
Lemma dipls_laws : reach_laws (dipls lstsq) di_ok di_trained.
Proof.
  pose proof center_new_ok as N0. split; cbn [c_new c_fresh c_assign c_reset c_valid c_predict c_transform dipls].
  - split; exact N0.
  - intros a _. split; exact N0.
  - intros k a Ha. destruct k; exact Ha.
  - intros a Ha. exact Ha.
  - intros n a X Y (HX & HY). cbn [c_train dipls]. unfold dipls_train. destruct (eye _ _) as [Id|e]; [|split; [split; assumption|discriminate]]. destruct ((di_ns a =? 0) || (di_nt a =? 0))%Z; [split; [split; assumption|discriminate]|].
    destruct ((di_ns a =? 1) || (di_nt a =? 1))%Z; [split; [split; assumption|discriminate]|].
    match goal with |- context [match ?m with Ok _ => _ | Err _ => _ end] => destruct m as [[[Xl Xs] Xt]|e]; [|split; [split; assumption|discriminate]] end.
    pose proof (center_step (di_X_center a) Xl HX) as (H1 & H2). destruct (t_transform center (di_X_center a) Xl) as [cx rX]. cbn [fst] in *. destruct rX as [Xl'|e]; [|split; [split; assumption|discriminate]].
    destruct (t_transform center (di_X_s_center a) Xs) as [cs rS]. destruct rS as [Xs'|e]; [|split; [split; assumption|discriminate]].
    pose proof (center_step (di_X_t_center a) Xt HY) as (H3 & H4). destruct (t_transform center (di_X_t_center a) Xt) as [ct rT]. cbn [fst] in *.
    match goal with |- context [match ?m with Ok _ => _ | Err _ => _ end] => destruct m as [[Xt' b0]|e]; [|split; [split; assumption|discriminate]] end.
    match goal with |- context [match ?m with Ok _ => _ | Err _ => _ end] => destruct m as [m'|e]; [|split; [split; assumption|discriminate]] end.
    split; [split; assumption|]. intros _. split; assumption.
  - intros k a Hk Ha. destruct k; exact Ha.
  - intros n a X Ha (T1 & T2). unfold dipls_predict. rewrite !center_transform_conf by assumption. destruct (di_strategy a); split; try exact Ha; split; assumption.
  - intros n a X Ha (T1 & T2). unfold dipls_transform. rewrite !center_transform_conf by assumption. split; [exact Ha|split; assumption].
Qed.
Lemma dipls_rows h : let c := dipls lstsq in rowwise (fun X => snd (predict c (pls_run c h) X)) /\ rowwise (fun X => snd (transform c (pls_run c h) X)).
Proof.
  intros c. destruct (reach_run c _ _ dipls_laws h) as ((HX & HY) & Ht). revert HX HY Ht. generalize (pls_run c h) as s. intros s HX HY Ht.
  assert (F : forall ce, center_ok ce -> rowwise (fun X => do X <- t_do center ce X; do m <- need (di_model (p_own s)); do g <- mul X (dm_b m); match di_b_0 (p_own s) with Some b0 => Ok (add_scalar g b0) | None => Ok (add_scalar g (ndiv n0 n0)) end)).
  { intros ce Hce. apply (rowwise_bind (t_do center ce) (fun X => do m <- need (di_model (p_own s)); do g <- mul X (dm_b m); match di_b_0 (p_own s) with Some b0 => Ok (add_scalar g b0) | None => Ok (add_scalar g (ndiv n0 n0)) end)); [now apply rowwise_center|].
    apply rowwise_const. intros m _. apply (rowwise_bind (fun X => mul X (dm_b m))); [apply rowwise_mul|]. destruct (di_b_0 (p_own s)); apply rowwise_map. }
  split; [apply rowwise_predict|apply rowwise_transform]; intros Hi; destruct (Ht Hi) as (T1 & T2); cbn [c_predict c_transform c dipls]; unfold dipls_predict, dipls_transform.
  - destruct (di_strategy (p_own s)); (eapply rowwise_ext; [intros X; rewrite center_transform_conf by assumption; cbn [snd]; reflexivity|now apply F]).
  - eapply rowwise_ext; [intros X; rewrite center_transform_conf by assumption; cbn [snd]; reflexivity|].
    apply (rowwise_bind (t_do center (di_X_center (p_own s))) (fun X => do m <- need (di_model (p_own s)); mul X (dm_W m))); [now apply rowwise_center|]. apply rowwise_const. intros m _. apply rowwise_mul.
Qed.

(** SparsePLS: predictions *)
Definition sp_ok (a : @sparse_st T) : Prop := std_ok (sp_standardize_X a) /\ std_ok (sp_standardize_Y a).
Definition sp_trained (a : @sparse_st T) : Prop := st_configured (sp_standardize_X a) = true.
Lemma sparse_laws : reach_laws (sparse_pls lstsq pinv) sp_ok sp_trained.
Proof.
  pose proof std_new_ok as N0. split; cbn [c_new c_fresh c_assign c_reset c_valid c_predict c_transform sparse_pls].
  - split; exact N0.
  - intros a _. split; exact N0.
  - intros k a Ha. destruct k; exact Ha.
  - intros a _. split; exact N0.
  - intros n a X Y (HX & HY). cbn [c_train sparse_pls]. unfold sparse_train. pose proof (std_step (sp_standardize_X a) X HX) as (H1 & H2). destruct (t_transform standardize (sp_standardize_X a) X) as [sx [X'|e]]; cbn [fst snd] in *; [|split; [split; assumption|discriminate]].
    pose proof (std_step (sp_standardize_Y a) Y HY) as (H3 & _). destruct (t_transform standardize (sp_standardize_Y a) Y) as [sy [Y'|e]]; cbn [fst snd] in *; [|split; [split; assumption|discriminate]].
    destruct (sparse_fit _ _ _ _ _ _) as [[[[A B] W] y']|e]; cbn [fst snd]; (split; [split; assumption|]); [|discriminate]. intros _. destruct H2 as [H2|(e & H2)]; [exact H2|discriminate].
  - intros k a Hk Ha. destruct k; exact Ha.
  - intros n a X Ha Ht. unfold sparse_predict. rewrite std_transform_conf by exact Ht. split; [exact Ha|exact Ht].
  - intros n a X Ha Ht. split; [exact Ha|exact Ht].
Qed.
Lemma sparse_rows_predict h : let c := sparse_pls lstsq pinv in rowwise (fun X => snd (predict c (pls_run c h) X)).
Proof.
  intros c. destruct (reach_run c _ _ sparse_laws h) as ((HX & HY) & Ht). revert HX HY Ht. generalize (pls_run c h) as s. intros s (M1 & D1) (M2 & D2) Ht.
  apply rowwise_predict. intros Hi. specialize (Ht Hi). cbn [c_predict c sparse_pls]. unfold sparse_predict. eapply rowwise_ext; [intros X; rewrite std_transform_conf by exact Ht; cbn [snd sp_A sp_B sp_standardize_Y]; reflexivity|].
  apply (rowwise_bind (t_do standardize (sp_standardize_X (p_own s)))); [now apply rowwise_standardize|]. apply rowwise_const. intros A _. apply (rowwise_bind (sparse_columns A)); [apply rowwise_sparse_columns|].
  apply rowwise_const. intros B _. apply rowwise_const. intros BA _. apply (rowwise_bind (fun X => mul X BA)); [apply rowwise_mul|]. apply rowwise_const. intros sd _.
  apply (rowwise_bind (fun xb => scale_by_row_vector xb sd)); [apply rowwise_scale|]. apply rowwise_const. intros mu E. destruct (st_means (sp_standardize_Y (p_own s))) as [mu'|] eqn:Em; [|discriminate]. injection E as <-. apply rowwise_vector. now apply M2.
Qed.
End Classes.

(** * C91: every class, every number type, every solver, every sequence of calls before *)
Section C91.
Context {T : Type} `{Num T}.
Variables (lstsq : mat T -> mat T -> res (mat T)) (eig : mat T -> res (list T * mat T)) (pinv : mat T -> res (mat T)) (svd : mat T -> res (mat T * list T * mat T)).
Theorem C91_pls1 h : row_independent (fun X => snd (predict (pls1 lstsq) (pls_run (pls1 lstsq) h) X)).
Proof. apply rowwise_row_independent, pls1_rows. Qed.
Theorem C91_vcpls h : row_independent (fun X => snd (predict (vcpls lstsq eig) (pls_run (vcpls lstsq eig) h) X)).
Proof. apply rowwise_row_independent, vcpls_rows. Qed.
Theorem C91_simpls h : row_independent (fun X => snd (predict (simpls eig) (pls_run (simpls eig) h) X)).
Proof. apply rowwise_row_independent, simpls_rows. Qed.
Theorem C91_prm h : row_independent (fun X => snd (predict (prm eig svd) (pls_run (prm eig svd) h) X)).
Proof. apply rowwise_row_independent, prm_rows. Qed.
(** over its default base class *)
Theorem C91_opls h : row_independent (fun X => snd (predict (opls (pls1 lstsq)) (pls_run (opls (pls1 lstsq)) h) X)).
Proof. apply rowwise_row_independent, opls_rows. intros s. apply pls1_rows. Qed.
Theorem C91_nipals h : row_independent (fun X => snd (predict (nipals lstsq pinv) (pls_run (nipals lstsq pinv) h) X)).
Proof. apply rowwise_row_independent. exact (proj1 (nipals_rows lstsq pinv _ _ _ h)). Qed.
Theorem C91_cca_regression h : row_independent (fun X => snd (predict (cca_regression lstsq pinv) (pls_run (cca_regression lstsq pinv) h) X)).
Proof. apply rowwise_row_independent. exact (proj1 (nipals_rows lstsq pinv _ _ _ h)). Qed.
Theorem C91_dipls h : row_independent (fun X => snd (predict (dipls lstsq) (pls_run (dipls lstsq) h) X)).
Proof. apply rowwise_row_independent, dipls_rows. Qed.
Theorem C91_sparse_pls h : row_independent (fun X => snd (predict (sparse_pls lstsq pinv) (pls_run (sparse_pls lstsq pinv) h) X)).
Proof. apply rowwise_row_independent, sparse_rows_predict. Qed.
(** each of the kernels, whatever one has done to the kernel object before handing it over *)
Section Kernels.
Variables (rnd : Z -> nat -> mat T) (npow : T -> Z -> T) (nexp : T -> T).
Theorem C91_kernel_pls_linear h : let c := kernel_pls lstsq rnd tt (fun ks X Y => (ks, linear_apply_matrix X Y)) in row_independent (fun X => snd (predict c (pls_run c h) X)).
Proof. apply rowwise_row_independent, kpls_rows, linear_rows. Qed.
Theorem C91_kernel_pls_poly k0 h : let c := kernel_pls lstsq rnd k0 (poly_apply_matrix npow) in row_independent (fun X => snd (predict c (pls_run c h) X)).
Proof. apply rowwise_row_independent, kpls_rows, poly_rows. Qed.
Theorem C91_kernel_pls_rbf k0 h : let c := kernel_pls lstsq rnd k0 (rbf_at nexp) in row_independent (fun X => snd (predict c (pls_run c h) X)).
Proof. apply rowwise_row_independent, kpls_rows, rbf_rows. Qed.

(** * C92: scores.  SparsePLS is the exception, below *)
Theorem C92_pls1_partial h : p_num_components (pls_run (pls1 lstsq) h) <> (-1)%Z -> row_independent (fun X => snd (transform (pls1 lstsq) (pls_run (pls1 lstsq) h) X)).
Proof. intros Hn. apply rowwise_row_independent. now apply pls1_rows. Qed.
Theorem C92_vcpls_partial h : p_num_components (pls_run (vcpls lstsq eig) h) <> (-1)%Z -> row_independent (fun X => snd (transform (vcpls lstsq eig) (pls_run (vcpls lstsq eig) h) X)).
Proof. intros Hn. apply rowwise_row_independent. now apply vcpls_rows. Qed.
Theorem C92_simpls_partial h : row_independent (fun X => snd (transform (simpls eig) (pls_run (simpls eig) h) X)).
Proof. apply rowwise_row_independent, simpls_rows. Qed.
Theorem C92_prm_partial h : row_independent (fun X => snd (transform (prm eig svd) (pls_run (prm eig svd) h) X)).
Proof. apply rowwise_row_independent, prm_rows. Qed.
(** whatever the base class *)
Theorem C92_opls_partial {AB KB} (base : pls_class AB KB T) h : row_independent (fun X => snd (transform (opls base) (pls_run (opls base) h) X)).
Proof. apply rowwise_row_independent, rowwise_transform. intros _. apply rowwise_opls. Qed.
Theorem C92_nipals_partial h : row_independent (fun X => snd (transform (nipals lstsq pinv) (pls_run (nipals lstsq pinv) h) X)).
Proof. apply rowwise_row_independent. exact (proj2 (nipals_rows lstsq pinv _ _ _ h)). Qed.
Theorem C92_cca_regression_partial h : row_independent (fun X => snd (transform (cca_regression lstsq pinv) (pls_run (cca_regression lstsq pinv) h) X)).
Proof. apply rowwise_row_independent. exact (proj2 (nipals_rows lstsq pinv _ _ _ h)). Qed.
Theorem C92_dipls_partial h : row_independent (fun X => snd (transform (dipls lstsq) (pls_run (dipls lstsq) h) X)).
Proof. apply rowwise_row_independent, dipls_rows. Qed.
Theorem C92_kernel_pls_linear_partial h : let c := kernel_pls lstsq rnd tt (fun ks X Y => (ks, linear_apply_matrix X Y)) in row_independent (fun X => snd (transform c (pls_run c h) X)).
Proof. apply rowwise_row_independent, kpls_rows, linear_rows. Qed.
Theorem C92_kernel_pls_poly_partial k0 h : let c := kernel_pls lstsq rnd k0 (poly_apply_matrix npow) in row_independent (fun X => snd (transform c (pls_run c h) X)).
Proof. apply rowwise_row_independent, kpls_rows, poly_rows. Qed.
Theorem C92_kernel_pls_rbf_partial k0 h : let c := kernel_pls lstsq rnd k0 (rbf_at nexp) in row_independent (fun X => snd (transform c (pls_run c h) X)).
Proof. apply rowwise_row_independent, kpls_rows, rbf_rows. Qed.
End Kernels.
End C91.

(** SparsePLS.transform removes from the batch what its own rows regress on their scores.  A row alone is
    regressed on its score without error, so nothing is left for the second component. *)
Section Sparse.
Local Open Scope R_scope.
Lemma Rsum_zero n : Rsum n (fun _ => 0) = 0.
Proof. induction n as [|n IH]; cbn [Rsum]; [reflexivity|rewrite IH; ring]. Qed.
Lemma left_over_row p W (z : nat -> nat -> R) k j : sscore 1 p W z 0 0 <> 0 -> left_over 1 p W z (S k) 0 j = 0.
Proof.
  intros Hs. revert j. induction k as [|k IH]; intros j.
  - cbn [left_over Rsum]. unfold sscore in Hs. cbn [left_over] in Hs. set (t := Rsum p (fun l => z 0%nat l * W 0%nat l)) in *. rewrite !Rplus_0_l. field. exact Hs.
  - cbn [left_over]. cbn [left_over] in IH. rewrite IH. rewrite (Rsum_ext p _ (fun _ => 0)); [|intros l Hl; rewrite IH; ring]. rewrite Rsum_zero. ring.
Qed.
Theorem C92_sparse_one_row lstsq pinv (s0 s : pls_st (sparse_st (T:=R)) R) (X Y x V : mat R) (a : nat) : let c := sparse_pls lstsq pinv in
  p_preprocessing s0 = PP_NONE -> p_num_components s0 = Z.of_nat (S a) -> wf X -> wf Y -> nc X <> 0%nat -> nr Y = nr X -> preparable PP_STANDARDIZE X -> preparable PP_STANDARDIZE Y ->
  initialize c s0 (Some X) (Some Y) = (s, Ok None) -> wf x -> nr x = 1%nat -> nc x = nc X -> snd (transform c s x) = Ok V ->
  nr V = 1%nat /\ nc V = S a /\ (entry V 0 0 <> 0 -> forall k, (0 < k <= a)%nat -> entry V 0 k = 0).
Proof.
  intros c Hpp Hnc WX WY Hp RY PX PY Ei Wx Rx Cx EV. destruct (C89_sparse_pls lstsq pinv s0 s X Y a Hpp Hnc WX WY Hp RY PX PY Ei) as (W & B & A & _ & _ & HT & _).
  fold c in HT. rewrite (HT x Wx Cx ltac:(lia)) in EV. injection EV as <-. rewrite Rx. split; [reflexivity|]. split; [reflexivity|]. intros H0 k Hk. rewrite entry_mk in * by lia. unfold sscore.
  rewrite (Rsum_ext _ _ (fun _ => 0)); [apply Rsum_zero|]. intros j Hj. destruct k as [|k]; [lia|]. rewrite left_over_row by exact H0. ring.
Qed.
End Sparse.

(** Two components, trained in binary64; pinv64 inverts matrices of at most two rows *)
Definition fz (z : Z) : f64 := nofZ z.
Definition pinv64 (m : mat f64) : res (mat f64) :=
  if nr m =? 1 then Ok (mk 1 1 (fun _ _ => ndiv (fz 1) (entry m 0 0)))
  else let d := nsub (nmul (entry m 0 0) (entry m 1 1)) (nmul (entry m 0 1) (entry m 1 0)) in
    Ok (Mat 2 2 [[ndiv (entry m 1 1) d; ndiv (nopp (entry m 0 1)) d]; [ndiv (nopp (entry m 1 0)) d; ndiv (entry m 0 0) d]]).
Definition w92_cls := sparse_pls (T:=f64) (fun _ _ => Err LinAlgError) pinv64.
Definition w92_h : list (pls_op (sparse_key (T:=f64)) f64) := [OSet (ANumComponents 2); OSet (AOwn (SpLambda (lit 1 1)));
  OInitialize (Some (Mat 4 2 [[fz 1; fz 0]; [fz 2; fz 1]; [fz 4; fz 0]; [fz 0; fz 3]])) (Some (Mat 4 1 [[fz 1]; [fz 2]; [fz 5]; [fz 3]]))].
Definition w92_X : mat f64 := Mat 2 2 [[fz 1; fz 2]; [fz 3; fz 1]].
Theorem C92_refuted : exists V x v, snd (transform w92_cls (pls_run w92_cls w92_h) w92_X) = Ok V /\
  get_rows w92_X (SList [0%Z]) = Ok x /\ snd (transform w92_cls (pls_run w92_cls w92_h) x) = Ok v /\
  entry v 0 0 = entry V 0 0 /\ entry v 0 1 = n0 /\ nltb (lit 5 1) (entry V 0 1) = true.
Proof. do 3 eexists. split; [vm_compute; reflexivity|]. split; [vm_compute; reflexivity|]. split; [vm_compute; reflexivity|]. vm_compute. auto. Qed.

(** The same object predicts alike for the batch and for its rows, also backwards *)
Example C91_ex : exists V x v, snd (predict w92_cls (pls_run w92_cls w92_h) w92_X) = Ok V /\ get_rows w92_X (SList [-1; 0]%Z) = Ok x /\
  snd (predict w92_cls (pls_run w92_cls w92_h) x) = Ok v /\ entry v 0 0 = entry V 1 0 /\ entry v 1 0 = entry V 0 0 /\ nltb (lit 5 1) (nabs (nsub (entry V 0 0) (entry V 1 0))) = true.
Proof. do 3 eexists. split; [vm_compute; reflexivity|]. split; [vm_compute; reflexivity|]. split; [vm_compute; reflexivity|]. vm_compute. auto. Qed.
(** NIPALS, trained with the same calls: scores of the batch and of its rows *)
Definition e92_cls := nipals (T:=f64) (fun _ _ => Err LinAlgError) pinv64.
Definition e92_h : list (pls_op (nipals_key f64) f64) := [OSet (ANumComponents 2);
  OInitialize (Some (Mat 4 2 [[fz 1; fz 0]; [fz 2; fz 1]; [fz 4; fz 0]; [fz 0; fz 3]])) (Some (Mat 4 1 [[fz 1]; [fz 2]; [fz 5]; [fz 3]]))].
Example C92_ex : exists V x v, snd (transform e92_cls (pls_run e92_cls e92_h) w92_X) = Ok V /\ get_rows w92_X (SList [-1; 0]%Z) = Ok x /\
  snd (transform e92_cls (pls_run e92_cls e92_h) x) = Ok v /\ get_rows V (SList [-1; 0]%Z) = Ok v /\ nltb (lit 5 1) (nabs (nsub (entry V 0 0) (entry V 1 0))) = true.
Proof. do 3 eexists. split; [vm_compute; reflexivity|]. split; [vm_compute; reflexivity|]. split; [vm_compute; reflexivity|]. vm_compute. auto. Qed.
Print Assumptions C91_pls1.
Print Assumptions C91_vcpls.
Print Assumptions C91_simpls.
Print Assumptions C91_prm.
Print Assumptions C91_opls.
Print Assumptions C91_nipals.
Print Assumptions C91_cca_regression.
Print Assumptions C91_dipls.
Print Assumptions C91_sparse_pls.
Print Assumptions C91_kernel_pls_linear.
Print Assumptions C91_kernel_pls_poly.
Print Assumptions C91_kernel_pls_rbf.
Print Assumptions C92_pls1_partial.
Print Assumptions C92_vcpls_partial.
Print Assumptions C92_simpls_partial.
Print Assumptions C92_prm_partial.
Print Assumptions C92_opls_partial.
Print Assumptions C92_nipals_partial.
Print Assumptions C92_cca_regression_partial.
Print Assumptions C92_dipls_partial.
Print Assumptions C92_kernel_pls_linear_partial.
Print Assumptions C92_kernel_pls_poly_partial.
Print Assumptions C92_kernel_pls_rbf_partial.
Print Assumptions C92_sparse_one_row.
Print Assumptions C92_refuted.
