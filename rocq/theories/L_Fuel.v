(** No modelled method runs out of fuel: every loop that carries a step budget ends within it. *)
From Coq Require Import List ZArith Lia Bool Arith.
From Verif Require Import Base Num Mat M_Matrix M_Factory M_Helper M_Loop M_Utils M_Linalg M_Transform M_PLSBase M_PLS M_PLS2.
Import ListNotations.

Notation fuelled r := (r <> Err OutOfFuel).
Lemma bind_fuel {A B} (x : res A) (f : A -> res B) : fuelled x -> (forall a, x = Ok a -> fuelled (f a)) -> fuelled (bind x f).
Proof. destruct x as [a|e]; cbn; intros Hx Hf; [now apply Hf|]. congruence. Qed.
Lemma for_each_fuel {A B} (l : list B) (body : A -> B -> res A) : (forall x b, fuelled (body x b)) -> forall a, fuelled (for_each l body a).
Proof. intros Hb. induction l as [|b l IH]; intros a; [discriminate|]. cbn [for_each]. apply bind_fuel; auto. Qed.
Lemma for_range_fuel {A} n (body : A -> nat -> res A) a : (forall x b, fuelled (body x b)) -> fuelled (for_range n body a).
Proof. intros. now apply for_each_fuel. Qed.
Lemma mapM_fuel {A B} (f : A -> res B) l : (forall a, fuelled (f a)) -> fuelled (mapM f l).
Proof. intros Hf. induction l as [|a l IH]; [discriminate|]. cbn [mapM]. apply bind_fuel; [apply Hf|]. intros. apply bind_fuel; [exact IH|discriminate]. Qed.
Lemma fold_fuel {A B} (f : A -> B -> res A) l : (forall a b, fuelled (f a b)) -> forall a, fuelled a -> fuelled (fold_left (fun acc b => bind acc (fun x => f x b)) l a).
Proof. intros Hf. induction l as [|b l IH]; intros a Ha; [exact Ha|]. cbn [fold_left]. apply IH. apply bind_fuel; auto. Qed.
Lemma Err_fuel {A} e : @Err A e <> Err OutOfFuel -> forall B, @Err B e <> Err OutOfFuel. Proof. intros Q B. congruence. Qed.

Create HintDb fuel.
Ltac head t := lazymatch t with ?f _ => head f | _ => t end.
Ltac fuel :=
  lazymatch goal with
  | |- Ok _ <> _ => discriminate
  | |- Err _ <> _ => first [discriminate | assumption]
  | |- bind _ _ <> _ => apply bind_fuel; [fuel | intros ? _; fuel]
  | |- for_range _ _ _ <> _ => apply for_range_fuel; intros; fuel
  | |- for_each _ _ _ <> _ => apply for_each_fuel; intros; fuel
  | |- mapM _ _ <> _ => apply mapM_fuel; intros; fuel
  | |- fold_left (fun acc b => bind acc _) _ _ <> _ => apply fold_fuel; [intros; fuel | fuel]
  | |- (match ?x with _ => _ end) <> _ => destruct x; fuel
  | |- ?t <> _ => first [solve [eauto 3 with fuel nocore] | let h := head t in unfold h; cbn beta zeta; fuel]
  end.

Section Fuel.
Context {T : Type} `{Num T}.
Lemma get_fuel (m : mat T) i j : fuelled (get m i j). Proof. fuel. Qed.
Lemma set_fuel (m : mat T) i j x : fuelled (set m i j x). Proof. fuel. Qed.
Lemma get_row_fuel (m : mat T) i : fuelled (get_row m i). Proof. fuel. Qed.
Lemma get_column_fuel (m : mat T) i : fuelled (get_column m i). Proof. fuel. Qed.
Lemma set_row_fuel (m : mat T) i x : fuelled (set_row m i x). Proof. fuel. Qed.
Lemma set_column_fuel (m : mat T) i x : fuelled (set_column m i x). Proof. fuel. Qed.
Lemma mul_fuel (m n : mat T) : fuelled (mul m n). Proof. fuel. Qed.
Lemma sub_fuel (m n : mat T) : fuelled (sub m n). Proof. fuel. Qed.
Lemma add_fuel (m n : mat T) : fuelled (add m n). Proof. fuel. Qed.
Lemma mul_elementwise_fuel (m n : mat T) : fuelled (mul_elementwise m n). Proof. fuel. Qed.
Lemma as_real_fuel (m : mat T) : fuelled (as_real m). Proof. fuel. Qed.
Lemma normalized_fuel (m : mat T) ax : fuelled (normalized m ax). Proof. fuel. Qed.
Lemma scale_by_column_vector_fuel (m v : mat T) : fuelled (scale_by_column_vector m v). Proof. fuel. Qed.
Lemma scale_by_row_vector_fuel (m v : mat T) : fuelled (scale_by_row_vector m v). Proof. fuel. Qed.
Lemma the_matrix_sum_fuel (m : mat T) ax : fuelled (the_matrix (sum m ax)). Proof. fuel. Qed.
Lemma the_matrix_mean_fuel (m : mat T) ax : fuelled (the_matrix (mean m ax)). Proof. fuel. Qed.
Lemma where_vector_fuel (m : mat T) f : fuelled (where_vector m f). Proof. fuel. Qed.
Lemma need_fuel {A} (x : option A) : fuelled (need x). Proof. fuel. Qed.
Lemma lget_fuel {A} (x : list A) z : fuelled (lget x z). Proof. fuel. Qed.
Lemma eye_fuel r c : fuelled (eye (T:=T) r c). Proof. fuel. Qed.
Lemma filled_fuel r c (x : T) : fuelled (filled r c x). Proof. fuel. Qed.
Lemma get_rows_fuel (m : mat T) s : fuelled (get_rows m s). Proof. fuel. Qed.
Lemma concat_along_columns_fuel (a b : mat T) : fuelled (concat_along_columns a b). Proof. fuel. Qed.
Lemma mmax_fuel (m : mat T) : fuelled (mmax m). Proof. fuel. Qed.
Lemma add_by_vector_fuel (m n : mat T) : fuelled (add_by_vector m n). Proof. fuel. Qed.
Lemma sub_by_vector_modify_fuel (m n : mat T) : fuelled (sub_by_vector_modify m n). Proof. fuel. Qed.
Lemma add_by_vector_modify_fuel (m n : mat T) : fuelled (add_by_vector_modify m n). Proof. fuel. Qed.
Lemma mul_by_vector_modify_fuel (m n : mat T) : fuelled (mul_by_vector_modify m n). Proof. fuel. Qed.
Lemma div_by_vector_modify_fuel (m n : mat T) : fuelled (div_by_vector_modify m n). Proof. fuel. Qed.
Hint Resolve get_fuel set_fuel get_row_fuel get_column_fuel set_row_fuel set_column_fuel mul_fuel sub_fuel add_fuel mul_elementwise_fuel
  as_real_fuel normalized_fuel scale_by_column_vector_fuel scale_by_row_vector_fuel the_matrix_sum_fuel the_matrix_mean_fuel where_vector_fuel
  need_fuel lget_fuel eye_fuel filled_fuel get_rows_fuel concat_along_columns_fuel mmax_fuel add_by_vector_fuel sub_by_vector_modify_fuel
  add_by_vector_modify_fuel mul_by_vector_modify_fuel div_by_vector_modify_fuel : fuel.

Lemma np_solve_fuel (a b : mat T) : fuelled (np_solve a b). Proof. fuel. Qed.
Lemma np_inv_fuel (a : mat T) : fuelled (np_inv a). Proof. fuel. Qed.
Hint Resolve np_solve_fuel np_inv_fuel : fuel.
Lemma zero_guard_fuel (m : mat T) : fuelled (zero_guard m).
Proof. unfold zero_guard. apply fold_fuel; [|discriminate]. intros. fuel. Qed.
Hint Resolve zero_guard_fuel : fuel.
Lemma center_fuel s (m : mat T) : fuelled (snd (t_transform center s m)).
Proof. unfold t_transform. cbn. destruct (ce_configured s); cbn; fuel. Qed.
Lemma center_undo_fuel s (m : mat T) : fuelled (snd (t_inverse center s m)).
Proof. unfold t_inverse. cbn. destruct (ce_configured s); cbn; fuel. Qed.
Lemma standardize_configure_fuel s (m : mat T) : fuelled (snd (t_configure standardize s m)).
Proof. cbn [t_configure standardize]. pose proof (zero_guard_fuel (column_stdevs m)). destruct (zero_guard _); cbn [snd]; [discriminate|]. eapply Err_fuel; eassumption. Qed.
Lemma standardize_fuel s (m : mat T) : fuelled (snd (t_transform standardize s m)).
Proof.
  assert (Hd : forall s m, fuelled (t_do standardize s m)) by (intros; cbn [t_do standardize]; fuel).
  unfold t_transform. destruct (negb _); [|apply Hd]. pose proof (standardize_configure_fuel s m). destruct (t_configure _ _ _) as [s' [u|e]]; cbn [snd] in *; [apply Hd|].
  eapply Err_fuel; eassumption.
Qed.

Variables (lstsq : mat T -> mat T -> res (mat T)) (pinv : mat T -> res (mat T))
          (eig : mat T -> res (list T * mat T)) (svd : mat T -> res (mat T * list T * mat T)) (rnd : Z -> nat -> mat T).
Hypotheses (Hlstsq : forall a b, fuelled (lstsq a b)) (Hpinv : forall a, fuelled (pinv a))
           (Heig : forall a, fuelled (eig a)) (Hsvd : forall a, fuelled (svd a)).
Hint Resolve Hlstsq Hpinv Heig Hsvd : fuel.
Lemma minverse_fuel m : fuelled (minverse lstsq m). Proof. fuel. Qed.
Hint Resolve minverse_fuel : fuel.

(** The three calls a class contributes. *)
Definition class_ends {A K} (c : pls_class A K T) : Prop :=
  (forall n a X Y, fuelled (snd (c_train c n a X Y))) /\ (forall n a X, fuelled (snd (c_predict c n a X))) /\
  (forall n a X, fuelled (snd (c_transform c n a X))).
Lemma prepare_fuel {A K} (c : pls_class A K T) pp Y : fuelled (prepare c pp Y).
Proof.
  assert (Hm : forall m i b, fuelled (helper_mean (T:=T) m i b)) by (intros; fuel).
  assert (Hs : forall m i b, fuelled (helper_stdev (T:=T) m i b)) by (intros; fuel).
  unfold prepare. destruct (c_arity c); [destruct pp; cbn [prep_single]; fuel|]. unfold prep_multi. apply for_range_fuel. intros [[[? ?] ?] ?] i. destruct pp; fuel.
Qed.
Lemma pt_fit_fuel t (X : mat T) : fuelled (snd (pt_fit t X)).
Proof.
  destruct t as [[s|s]|]; cbn [pt_fit pt_configure]; [| |discriminate].
  - cbn [t_configure center]. cbn [pt_transform]. pose proof (center_fuel (CenterSt true (Some (column_means X))) X) as Q. destruct (t_transform _ _ _) as [s' r]. exact Q.
  - pose proof (standardize_configure_fuel s X) as Q. destruct (t_configure _ _ _) as [s' [u|e]]; cbn [snd] in *; [|eapply Err_fuel; eassumption].
    cbn [pt_transform]. pose proof (standardize_fuel s' X) as Q'. destruct (t_transform _ _ _) as [s'' r]. exact Q'.
Qed.
Lemma initialize_fuel {A K} (c : pls_class A K T) : class_ends c -> forall s X Y, fuelled (snd (initialize c s X Y)).
Proof.
  intros (Ht & _ & _) s [X|] [Y|]; cbn [initialize]; try (cbn; discriminate). destruct (check_data c Y); [cbn; discriminate|].
  assert (Hd : fuelled (snd (do_initialize c (reset c s) X Y))).
  { unfold do_initialize. pose proof (prepare_fuel c (p_preprocessing (reset c s)) Y) as Q. destruct (prepare _ _ _) as [[[[? ?] tp] tr]|e]; [|exact (Err_fuel _ Q _)].
    pose proof (pt_fit_fuel tp X) as Q1. destruct (pt_fit tp X) as [tp' [X'|e]]; cbn [snd] in *; [|exact (Err_fuel _ Q1 _)].
    pose proof (pt_fit_fuel tr Y) as Q2. destruct (pt_fit tr Y) as [tr' [Y'|e]]; cbn [snd] in *; [|exact (Err_fuel _ Q2 _)].
    match goal with |- context [c_train c ?n ?a ?x ?y] => pose proof (Ht n a x y) as Q3; destruct (c_train c n a x y) as [a' r] end. exact Q3. }
  destruct (do_initialize c (reset c s) X Y) as [s' [[m|]|e]]; cbn [snd] in *; try discriminate. exact Hd.
Qed.
Lemma setattr_fuel {A K} (c : pls_class A K T) s k : fuelled (snd (setattr c s k)).
Proof. unfold setattr. destruct (a_valid c k) as [[|]|]; cbn; discriminate. Qed.
Lemma predict_fuel {A K} (c : pls_class A K T) : class_ends c -> forall s X, fuelled (snd (predict c s X)).
Proof.
  intros (_ & Hp & _) s X. unfold predict. destruct (negb _); [cbn; discriminate|]. unfold do_predict. match goal with |- context [c_predict c ?n ?a ?x] => pose proof (Hp n a x) as Q; destruct (c_predict c n a x) as [a' r] end. cbn [snd] in *.
  apply bind_fuel; [exact Q|]. intros y _. destruct (p_trans_response s); [|discriminate]. unfold denormalise. destruct (c_arity c); fuel.
Qed.
Lemma transform_fuel {A K} (c : pls_class A K T) : class_ends c -> forall s X, fuelled (snd (transform c s X)).
Proof.
  intros (_ & _ & Ht) s X. unfold transform. destruct (negb _); [cbn; discriminate|]. match goal with |- context [c_transform c ?n ?a ?x] => pose proof (Ht n a x) as Q; destruct (c_transform c n a x) as [a' r] end. exact Q.
Qed.

Hypothesis Hsort : forall l : list T, fuelled (sort true (S (length l)) l).
(** the end of a train method: the state is kept on an exception *)
Ltac train x := let Q := fresh "Q" in
  assert (Q : fuelled x); [|destruct x; cbn [snd]; [|exact (Err_fuel _ Q _)]].
Lemma dominant_fuel m : fuelled (dominant eig m). Proof. fuel. Qed.
Hint Resolve dominant_fuel : fuel.
Lemma pls1_fit_fuel w n X Y : (forall x y, fuelled (w x y)) -> fuelled (pls1_fit lstsq w n X Y).
Proof. intros Hw. fuel. Qed.
Lemma pls1_predict_fuel n a (X : mat T) : fuelled (pls1_predict n a X). Proof. fuel. Qed.
Lemma pls1_transform_fuel n a (X : mat T) : fuelled (pls1_transform n a X). Proof. fuel. Qed.
Hint Resolve pls1_predict_fuel pls1_transform_fuel : fuel.
Lemma pls1_ends : class_ends (pls1 lstsq).
Proof.
  split; [|split]; intros; cbn [pls1 c_train c_predict c_transform snd]; auto with fuel.
  match goal with |- context [match ?x with _ => _ end] => train x end; [|discriminate]. apply pls1_fit_fuel. intros. fuel.
Qed.
Lemma vcpls_ends : class_ends (vcpls lstsq eig).
Proof.
  split; [|split]; intros; cbn [vcpls c_train c_predict c_transform snd]; auto with fuel.
  match goal with |- context [match ?x with _ => _ end] => train x end; [|discriminate]. apply pls1_fit_fuel. intros. fuel.
Qed.
Lemma slim_fuel k (m : mat T) : fuelled (slim k m).
Proof.
  unfold slim. apply for_range_fuel. intros x i. unfold slim_column. apply bind_fuel; [fuel|]. intros l _. apply bind_fuel; [apply Hsort|]. intros srt _. fuel.
Qed.
Hint Resolve slim_fuel : fuel.
Lemma simpls_fit_fuel k n X Y : fuelled (simpls_fit eig k n X Y).
Proof.
  unfold simpls_fit. apply bind_fuel. { unfold simpls_loop. fuel. }
  intros [[[[[? ?] ?] ?] ?] ?] _. destruct (0 <? k)%Z; fuel.
Qed.
Lemma simpls_ends : class_ends (simpls eig).
Proof.
  split; [|split]; intros; cbn [simpls c_train c_predict c_transform snd]; try fuel.
  match goal with |- context [match ?x with _ => _ end] => train x end; [apply simpls_fit_fuel|]. destruct a0 as [[? ?] ?]. discriminate.
Qed.
(** NIPALS, CCARegression *)
Lemma nipals_weights_fuel mode nY X Y ys : fuelled (nipals_weights lstsq mode nY X Y ys).
Proof. unfold nipals_weights. apply bind_fuel; [destruct mode; fuel|]. intros. apply bind_fuel; [fuel|]. intros. apply bind_fuel; [destruct mode; fuel|discriminate]. Qed.
Lemma nipals_while_fuel mode nY tol max_iter X Y ys fuel : forall wold it,
  (Z.max 0 max_iter - it < Z.of_nat fuel)%Z -> (0 <= it)%Z -> (it <= Z.max 0 max_iter)%Z -> fuelled (nipals_while lstsq fuel mode nY tol max_iter X Y ys wold it).
Proof.
  induction fuel as [|fuel IH]; intros wold it H0 H1 H2; [lia|]. cbn [nipals_while]. apply bind_fuel; [apply nipals_weights_fuel|]. intros [w c] _.
  apply bind_fuel; [auto with fuel|]. intros yw _. apply bind_fuel; [auto with fuel|]. intros d _. destruct (_ || _); [discriminate|]. destruct (Z.leb_spec max_iter it); [discriminate|]. apply IH; lia.
Qed.
Lemma nipals_loop_fuel mode nY tol max_iter X Y : fuelled (nipals_loop lstsq mode nY tol max_iter X Y).
Proof. unfold nipals_loop. apply bind_fuel; [auto with fuel|]. intros. apply nipals_while_fuel; lia. Qed.
Hint Resolve nipals_loop_fuel : fuel.
Lemma nipals_fit_fuel mode n a X Y ys : fuelled (nipals_fit lstsq pinv mode n a X Y ys). Proof. fuel. Qed.
Lemma nipals_apply_fuel (a : nipals_st T) X f : (forall a X, fuelled (f a X)) -> fuelled (snd (nipals_apply a X f)).
Proof. intros Hf. unfold nipals_apply. pose proof (standardize_fuel (ni_standardize_X a) X) as Q. destruct (t_transform _ _ _) as [s r]. cbn [snd] in *. apply bind_fuel; [exact Q|auto]. Qed.
Lemma nipals_class_ends mode d f : class_ends (nipals_class lstsq pinv mode d f).
Proof.
  split; [|split]; intros; cbn [nipals_class c_train c_predict c_transform].
  - unfold nipals_train. pose proof (standardize_fuel (ni_standardize_X a) X) as Q1. destruct (t_transform _ _ X) as [sx [X'|e]]; cbn [snd] in *; [|exact (Err_fuel _ Q1 _)].
    cbn [ni_standardize_Y]. pose proof (standardize_fuel (ni_standardize_Y a) Y) as Q2. destruct (t_transform _ _ Y) as [sy [Y'|e]]; cbn [snd] in *; [|exact (Err_fuel _ Q2 _)].
    match goal with |- context [match ?x with _ => _ end] => train x end; [apply nipals_fit_fuel|discriminate].
  - unfold nipals_predict. apply nipals_apply_fuel. intros. fuel.
  - unfold nipals_transform. apply nipals_apply_fuel. intros. fuel.
Qed.
(** SparsePLS *)
Lemma sparse_regression_fuel max_iter tol X y k : fuelled (sparse_regression lstsq pinv max_iter tol X y k).
Proof.
  unfold sparse_regression.
  repeat match goal with
  | |- context [let (_, _) := setattr ?c ?s ?k in _] => let Q := fresh in pose proof (setattr_fuel c s k) as Q; destruct (setattr c s k) as [? ?]; cbn [snd] in Q; apply bind_fuel; [exact Q|intros ? _]
  | |- context [let (_, _) := initialize ?c ?s ?x ?y in _] => let Q := fresh in pose proof (initialize_fuel c (nipals_class_ends _ _ _) s x y) as Q; destruct (initialize c s x y) as [? ?]; cbn [snd] in Q; apply bind_fuel; [exact Q|intros ? _]
  end. discriminate.
Qed.
Hint Resolve sparse_regression_fuel : fuel.
Lemma sparse_fit_fuel n a X y : fuelled (sparse_fit lstsq pinv n a X y). Proof. fuel. Qed.
Lemma sparse_ends : class_ends (sparse_pls lstsq pinv).
Proof.
  split; [|split]; intros; cbn [sparse_pls c_train c_predict c_transform snd]; try fuel.
  - unfold sparse_train. pose proof (standardize_fuel (sp_standardize_X a) X) as Q1. destruct (t_transform _ _ X) as [sx [X'|e]]; cbn [snd] in *; [|exact (Err_fuel _ Q1 _)].
    pose proof (standardize_fuel (sp_standardize_Y a) Y) as Q2. destruct (t_transform _ _ Y) as [sy [Y'|e]]; cbn [snd] in *; [|exact (Err_fuel _ Q2 _)].
    match goal with |- context [match ?x with _ => _ end] => train x end; [apply sparse_fit_fuel|]. destruct a0 as [[[? ?] ?] ?]. discriminate.
  - unfold sparse_predict. pose proof (standardize_fuel (sp_standardize_X a) X) as Q1. destruct (t_transform _ _ X) as [sx r]; cbn [snd] in *. apply bind_fuel; [exact Q1|intros ? _]. fuel.
Qed.
(** KernelPLS *)
Section Kernel.
Context {KS : Type} (k0 : KS) (kapply : KS -> mat T -> option (mat T) -> KS * res (mat T)).
Hypothesis Hk : forall s a b, fuelled (snd (kapply s a b)).
Lemma kpls_while_fuel tol max_iter Kd Y fuel : forall t w q u change it,
  (max_iter - it <= Z.of_nat fuel)%Z -> fuelled (kpls_while fuel tol max_iter Kd Y t w q u change it).
Proof.
  induction fuel as [|fuel IH]; intros t w q u change it Hf; cbn [kpls_while]; destruct (nltb tol change); cbn [andb]; try discriminate; destruct (Z.ltb_spec it max_iter); try discriminate; [lia|].
  repeat (apply bind_fuel; [solve [auto with fuel]|intros ? _]). apply IH. lia.
Qed.
Lemma kpls_step_fuel tol max_iter rows Id st k : fuelled (kpls_step rnd tol max_iter rows Id st k).
Proof.
  unfold kpls_step. destruct st as [[[? ?] [[? ?] ?]] [[[? ?] ?] ?]]. apply bind_fuel; [apply kpls_while_fuel; lia|]. intros [[[? ?] ?] ?] _. fuel.
Qed.
Hint Resolve kpls_step_fuel : fuel.
Lemma kpls_ends : class_ends (kernel_pls lstsq rnd k0 kapply).
Proof.
  assert (Htr : forall a X, fuelled (snd (kpls_transform kapply a X))).
  { intros a X. unfold kpls_transform. pose proof (center_fuel (kp_center_X a) X) as Q. destruct (t_transform _ _ X) as [cx [X'|e]]; cbn [snd kp_model kp_kernel] in *; [|exact Q]. 
    destruct (kp_model a) as [m|]; [|cbn; discriminate]. match goal with |- context [kapply ?s ?x ?y] => pose proof (Hk s x y) as Q1; destruct (kapply s x y) as [ks rK] end. cbn [snd] in *. apply bind_fuel; [exact Q1|intros ? _]. fuel. }
  split; [|split]; intros; cbn [kernel_pls c_train c_predict c_transform]; [| |apply Htr].
  - unfold kpls_train. pose proof (center_fuel (kp_center_X a) X) as Q1. destruct (t_transform _ _ X) as [cx [X'|e]]; cbn [snd] in *; [|exact (Err_fuel _ Q1 _)].
    pose proof (center_fuel (kp_center_Y a) Y) as Q2. destruct (t_transform _ _ Y) as [cy [Y'|e]]; cbn [snd] in *; [|exact (Err_fuel _ Q2 _)].
    assert (Q : fuelled (snd (kpls_fit lstsq rnd kapply n (kp_kernel a) (kp_tol a) (kp_max_iter a) X' Y'))).
    { unfold kpls_fit. assert (Qe : fuelled (eye (T:=T) (zn (nr X')) (zn (nr X')))) by fuel. destruct (eye _ _) as [Id|e]; [|exact (Err_fuel _ Qe _)].
      match goal with |- context [kapply ?s ?x ?y] => pose proof (Hk s x y) as Q3; destruct (kapply s x y) as [ks rK] end. cbn [snd] in *. apply bind_fuel; [exact Q3|intros ? _]. fuel. }
    destruct (kpls_fit _ _ _ _ _ _ _ _ _) as [ks [m|e]]; cbn [snd] in *; [discriminate|exact (Err_fuel _ Q _)].
  - unfold kpls_predict. pose proof (Htr a X) as Q. destruct (kpls_transform _ _ _) as [a' r]. cbn [snd] in Q.
    assert (Q' : fuelled (do K_t <- r; do m <- need (kp_model a'); mul K_t (km_B_RHS m))) by (apply bind_fuel; [exact Q|intros ? _; fuel]).
    destruct (do K_t <- r; _) as [Y|e]; [|exact (Err_fuel _ Q' _)]. pose proof (center_undo_fuel (kp_center_Y a') Y) as Q2. destruct (t_inverse _ _ _) as [cy r']. exact Q2.
Qed.
End Kernel.
(** PRM *)
Lemma c_dist_fuel (X v : mat T) : fuelled (c_dist X v). Proof. fuel. Qed.
Hint Resolve c_dist_fuel : fuel.
Lemma geometric_loop_fuel tol max_iter X fuel : forall guess it, (max_iter - it <= Z.of_nat fuel)%Z -> fuelled (geometric_loop fuel tol max_iter X guess it).
Proof.
  induction fuel as [|fuel IH]; intros guess it Hf; cbn [geometric_loop]; destruct (Z.ltb_spec it max_iter); try discriminate; [lia|].
  repeat (apply bind_fuel; [solve [auto with fuel]|intros ? _]). destruct (nltb _ _); [discriminate|]. apply IH. lia.
Qed.
Lemma geometric_median_fuel a (X : mat T) : fuelled (geometric_median a X).
Proof. unfold geometric_median. apply bind_fuel; [auto with fuel|]. intros. apply geometric_loop_fuel. lia. Qed.
Hint Resolve geometric_median_fuel : fuel.
Lemma leverage_fuel a (X : mat T) : fuelled (leverage_weights a X). Proof. fuel. Qed.
Lemma residual_fuel a est (X y : mat T) : fuelled (residual_weights a est X y). Proof. fuel. Qed.
Hint Resolve leverage_fuel residual_fuel : fuel.
Lemma prm_pass_fuel a n X y W_r W_x : fuelled (prm_pass eig a n X y W_r W_x).
Proof.
  unfold prm_pass. apply bind_fuel; [fuel|intros X_p _]. apply bind_fuel; [fuel|intros y_p _]. apply bind_fuel.
  - unfold prm_simpls.
    repeat match goal with
    | |- context [let (_, _) := setattr ?c ?s ?k in _] => let Q := fresh in pose proof (setattr_fuel c s k) as Q; destruct (setattr c s k) as [? ?]; cbn [snd] in Q; apply bind_fuel; [exact Q|intros ? _]
    | |- context [let (_, _) := initialize ?c ?s ?x ?y in _] => let Q := fresh in pose proof (initialize_fuel c simpls_ends s x y) as Q; destruct (initialize c s x y) as [? ?]; cbn [snd] in Q; apply bind_fuel; [exact Q|intros ? _]
    end. discriminate.
  - intros s _. pose proof (transform_fuel (simpls eig) simpls_ends s X_p) as Q. destruct (transform _ _ _) as [s' rT]. cbn [snd] in Q. apply bind_fuel; [exact Q|intros ? _].
    fuel.
Qed.
Lemma prm_while_fuel a n X y fuel : forall W_r W_x gamma it, (Z.max 1 (pr_max_iter a) - it <= Z.of_nat fuel)%Z -> (0 <= it < Z.max 1 (pr_max_iter a))%Z ->
  fuelled (prm_while eig fuel a n X y W_r W_x gamma it).
Proof.
  induction fuel as [|fuel IH]; intros W_r W_x gamma it Hf Hi; [lia|]. cbn [prm_while]. apply bind_fuel; [apply prm_pass_fuel|]. intros [[[[? ?] ?] g] ?] _.
  apply bind_fuel; [unfold prm_again; fuel|]. intros again Ea. destruct again; [|discriminate]. apply IH; [lia|]. unfold prm_again in Ea. destruct (sub g gamma); cbn [bind] in Ea; [|discriminate].
  injection Ea as Ea. apply andb_prop in Ea as [_ Ea]. apply Z.ltb_lt in Ea. lia.
Qed.
Lemma prm_fit_fuel a n X y : fuelled (prm_fit eig svd a n X y).
Proof.
  unfold prm_fit. apply bind_fuel.
  - destruct (nr X <? nc X); [|discriminate]. assert (Hm : forall m, fuelled (make_svd svd m)) by (intros; fuel). fuel.
  - intros [X' U] _. apply bind_fuel; [fuel|intros ? _]. apply bind_fuel; [fuel|intros ? _]. apply bind_fuel; [apply prm_while_fuel; lia|]. intros [[[[[? ?] ?] ?] ?] ?] _. fuel.
Qed.
Lemma prm_ends : class_ends (prm eig svd).
Proof.
  split; [|split]; intros; cbn [prm c_train c_predict c_transform snd]; try fuel.
  match goal with |- context [match ?x with _ => _ end] => train x end; [apply prm_fit_fuel|]. destruct a0. discriminate.
Qed.
(** OPLS *)
Lemma opls_transform_fuel W P (X : mat T) : fuelled (opls_transform W P X). Proof. fuel. Qed.
Hint Resolve opls_transform_fuel : fuel.
Lemma opls_fit_fuel n (X Y : mat T) : fuelled (opls_fit n X Y). Proof. fuel. Qed.
Lemma opls_ends {A K} (base : pls_class A K T) : class_ends base -> class_ends (opls base).
Proof.
  intros Hb. split; [|split]; intros; cbn [opls c_train c_predict c_transform snd]; try fuel.
  - unfold opls_train. match goal with |- context [match ?x with _ => _ end] => train x end; [apply opls_fit_fuel|]. destruct a0 as [w [[[[? ?] ?] ?] ?]].
    match goal with |- context [match ?x with _ => _ end] => train x end; [fuel|]. match goal with |- context [initialize ?c ?s ?x ?y] => pose proof (initialize_fuel c Hb s x y) as Q1; destruct (initialize c s x y) as [b [r|e]] end; cbn [snd] in *; [discriminate|exact (Err_fuel _ Q1 _)].
  - unfold opls_predict. match goal with |- context [match ?x with _ => _ end] => train x end; [fuel|]. match goal with |- context [predict ?c ?s ?x] => pose proof (predict_fuel c Hb s x) as Q1; destruct (predict c s x) as [b r] end. exact Q1.
Qed.
(** DIPLS *)
Lemma dipls_step_fuel Id ns nt lambda st k : fuelled (dipls_step lstsq Id ns nt lambda st k).
Proof. unfold dipls_step. destruct st as [[[[? ?] ?] ?] ?]. fuel. Qed.
Hint Resolve dipls_step_fuel : fuel.
Lemma dipls_ends : class_ends (dipls lstsq).
Proof.
  split; [|split]; intros; cbn [dipls c_train c_predict c_transform].
  - unfold dipls_train. match goal with |- context [match ?x with _ => _ end] => train x end; [fuel|]. destruct (_ || _); [cbn; discriminate|]. destruct (_ || _); [cbn; discriminate|].
    match goal with |- context [match ?x with _ => _ end] => train x end; [fuel|]. destruct a1 as [[X' X_s] X_t].
    pose proof (center_fuel (di_X_center a) X') as Q1. destruct (t_transform _ _ X') as [cx [X''|e]]; cbn [snd] in *; [|exact (Err_fuel _ Q1 _)].
    pose proof (center_fuel (di_X_s_center a) X_s) as Q2. destruct (t_transform _ _ X_s) as [cs [X_s'|e]]; cbn [snd] in *; [|exact (Err_fuel _ Q2 _)].
    pose proof (center_fuel (di_X_t_center a) X_t) as Q3. destruct (t_transform _ _ X_t) as [ct rt]; cbn [snd] in *.
    match goal with |- context [match ?x with _ => _ end] => train x end; [apply bind_fuel; [exact Q3|intros ? _]; fuel|]. destruct a1 as [X_t' b0].
    match goal with |- context [match ?x with _ => _ end] => train x end; [|discriminate].
    apply bind_fuel; [apply for_range_fuel; intros; apply dipls_step_fuel|]. intros [? ms] _. cbn [snd].
    repeat match goal with |- fuelled (match ?x with _ => _ end) => destruct x; try discriminate end. fuel.
  - unfold dipls_predict. destruct (di_strategy a); match goal with |- context [t_transform center ?s ?x] => pose proof (center_fuel s x) as Q; destruct (t_transform center s x) as [? r] end; cbn [snd] in *; (apply bind_fuel; [exact Q|intros ? _]); fuel.
  - unfold dipls_transform. pose proof (center_fuel (di_X_center a) X) as Q. destruct (t_transform _ _ X) as [? r]. cbn [snd] in *. apply bind_fuel; [exact Q|intros ? _]. fuel.
Qed.
End Fuel.
