(** C53 (response column checks), C54 (the inner NIPALS loop). *)
From Coq Require Import List ZArith Lia Bool Arith Reals Lra SpecFloat.
From Verif Require Import Base Num Mat M_Matrix M_Factory M_Helper M_Loop M_Utils M_Linalg M_Transform M_PLSBase M_PLS M_PLS2
  S_Matrix L_Base L_Mat L_Matrix L_MatR L_Transform L_Alg P_PLSBase P_PLSPrep.
Import ListNotations.
Local Open Scope nat_scope.

(** * C53 *)
(** A message about the number of response columns. *)
Definition about_columns (m : msg) : Prop :=
  match m with MsgExactlyOne _ | MsgAtLeast _ _ | MsgAtMost _ _ => True | _ => False end.
(** The number of response columns a class is declared to accept; -1: no upper bound. *)
Definition declared (ar : arity) (q : nat) : Prop :=
  match ar with
  | Single => q = 1
  | Multi lo hi => (lo <= Z.of_nat q)%Z /\ (hi = (-1)%Z \/ Z.of_nat q <= hi)%Z
  end.
(** The class's own training never complains about columns. *)
Definition trains_quietly {A K T} (c : pls_class A K T) : Prop :=
  forall n a X Y m, snd (c_train c n a X Y) = Ok (Some m) -> ~ about_columns m.

Section Check.
Context {A K T : Type} `{Num T} (c : pls_class A K T).
Theorem C53_check (Hq : trains_quietly c) (s s' : pls_st A T) (X Y : mat T) r :
  initialize c s (Some X) (Some Y) = (s', r) ->
  (declared (c_arity c) (nc Y) -> forall m, r = Ok (Some m) -> ~ about_columns m) /\
  (~ declared (c_arity c) (nc Y) ->
     p_initialised s' = false /\
     exists m, r = Ok (Some m) /\ about_columns m /\
       (c_arity c = Single -> m = MsgExactlyOne (nc Y)) /\
       (forall lo hi, c_arity c = Multi lo hi -> m = if (Z.of_nat (nc Y) <? lo)%Z then MsgAtLeast lo (nc Y) else MsgAtMost hi (nc Y))).
Proof.
  intros Ei. unfold initialize in Ei.
  assert (Hck : match check_data c Y with
                | None => declared (c_arity c) (nc Y)
                | Some m => ~ declared (c_arity c) (nc Y) /\ about_columns m /\ (c_arity c = Single -> m = MsgExactlyOne (nc Y)) /\
                    (forall lo hi, c_arity c = Multi lo hi -> m = if (Z.of_nat (nc Y) <? lo)%Z then MsgAtLeast lo (nc Y) else MsgAtMost hi (nc Y))
                end).
  { unfold check_data. destruct (c_arity c) as [|lo hi]; cbn [declared].
    - destruct (Nat.eqb_spec (nc Y) 1); cbn [negb]; [assumption|]. split; [assumption|]. split; [exact Logic.I|]. split; [reflexivity|]. discriminate.
    - destruct (Z.ltb_spec (Z.of_nat (nc Y)) lo) as [Hl|Hl].
      + split; [lia|]. split; [exact Logic.I|]. split; [discriminate|]. intros ? ? [= <- <-]. now rewrite (proj2 (Z.ltb_lt _ _) Hl).
      + destruct (Z.eqb_spec hi (-1)) as [He|He]; cbn [negb andb]; [split; [assumption|now left]|].
        destruct (Z.ltb_spec hi (Z.of_nat (nc Y))) as [Hh|Hh].
        * split; [lia|]. split; [exact Logic.I|]. split; [discriminate|]. intros ? ? [= <- <-]. now rewrite (proj2 (Z.ltb_ge _ _) Hl).
        * split; [assumption|]. right. lia. }
  destruct (check_data c Y) as [m|].
  - destruct Hck as (Hd & Hm & H1 & H2). injection Ei as <- <-. split; [contradiction|]. intros _. split; [reflexivity|]. exists m. auto.
  - split; [|contradiction]. intros _ m Hm. subst r. unfold do_initialize in Ei. cbn [reset p_preprocessing] in Ei.
    destruct (prepare c (p_preprocessing s) Y) as [[[[mean std] tp] tr]|e]; [|discriminate].
    destruct (pt_fit tp X) as [tp' [X'|e]]; [|discriminate]. destruct (pt_fit tr Y) as [tr' [Y'|e]]; [|discriminate].
    destruct (c_train c _ _ X' Y') as [a [[m'|]|e]] eqn:Et; try discriminate. injection Ei as _ <-. eapply Hq. rewrite Et. reflexivity.
Qed.
End Check.

(** What the ten classes declare. *)
Section Classes.
Context {T : Type} `{Num T} (lstsq : mat T -> mat T -> res (mat T)) (pinv : mat T -> res (mat T)) (eig : mat T -> res (list T * mat T))
  (svd : mat T -> res (mat T * list T * mat T)).
Theorem C53_declarations :
  c_arity (pls1 lstsq) = Single /\ c_arity (vcpls lstsq eig) = Single /\ c_arity (simpls eig) = Single /\ c_arity (sparse_pls lstsq pinv) = Single /\
  c_arity (dipls lstsq) = Single /\ c_arity (nipals lstsq pinv) = Multi 1 (-1) /\ c_arity (cca_regression lstsq pinv) = Multi 1 (-1) /\
  trains_quietly (pls1 lstsq) /\ trains_quietly (vcpls lstsq eig) /\ trains_quietly (simpls eig) /\ trains_quietly (sparse_pls lstsq pinv) /\
  trains_quietly (dipls lstsq) /\ trains_quietly (nipals lstsq pinv) /\ trains_quietly (cca_regression lstsq pinv).
Proof.
  repeat (split; [reflexivity|]).
  assert (Hn : forall mode n a X Y m, snd (nipals_train lstsq pinv mode n a X Y) = Ok (Some m) -> ~ about_columns m).
  { intros mode n a X Y m. unfold nipals_train. destruct (t_transform standardize (ni_standardize_X a) X) as [sx [X'|e]]; [|discriminate].
    match goal with |- context [t_transform standardize ?z Y] => destruct (t_transform standardize z Y) as [sy [Y'|e]] end; [|discriminate].
    destruct (nipals_fit lstsq pinv mode n _ X' Y' _); discriminate. }
  split; [|split; [|split; [|split; [|split; [|split]]]]].
  - intros n a X Y m. cbn [pls1 c_train]. destruct (pls1_fit lstsq pls1_weights n X Y); discriminate.
  - intros n a X Y m. cbn [vcpls c_train]. destruct (pls1_fit lstsq (vcpls_weights lstsq eig (vc_lambda a)) n X Y); discriminate.
  - intros n a X Y m. cbn [simpls c_train]. destruct (simpls_fit eig (si_coef a) n X Y) as [[[? ?] ?]|]; discriminate.
  - intros n a X Y m. cbn [sparse_pls c_train]. unfold sparse_train. 
    repeat match goal with |- context [match ?z with _ => _ end] => destruct z end; try discriminate; intros [= <-]; cbn; auto.
  - intros n a X Y m. cbn [dipls c_train]. unfold dipls_train. destruct (eye _ _) as [Id|e]; [|discriminate].
    destruct (_ || _); [intros [= <-]; exact (fun h => h)|]. destruct (_ || _); [intros [= <-]; exact (fun h => h)|].
    match goal with |- context [match ?z with Ok _ => _ | Err _ => _ end] => destruct z as [[[X1 X2] X3]|e] end; [|discriminate].
    destruct (t_transform center (di_X_center a) X1) as [cx [?|?]]; [|discriminate].
    destruct (t_transform center (di_X_s_center a) X2) as [cs [?|?]]; [|discriminate].
    destruct (t_transform center (di_X_t_center a) X3) as [ct rT].
    match goal with |- context [match ?z with Ok _ => _ | Err _ => _ end] => destruct z as [[? ?]|e] end; [|discriminate].
    match goal with |- context [match ?z with Ok _ => _ | Err _ => _ end] => destruct z as [?|e] end; discriminate.
  - exact (Hn WM_PLS).
  - exact (Hn WM_CCA).
Qed.

(** NIPALS and CCARegression never train on two or more response columns (line 157 insists on a
    column vector of deviations but gets a row): the property's last clause fails for all data. *)
Lemma standardised (D Y : mat T) sy : nc D <> 0 -> t_transform standardize (t_new standardize) D = (sy, Ok Y) ->
  exists sd, st_devs sy = Some sd /\ nr sd = 1 /\ nc sd = nc D.
Proof.
  intros E0. unfold t_transform. change (t_configured standardize (t_new (standardize (T:=T)))) with false. cbn [negb]. rewrite (standardize_configure D _ E0).
  intros Q. injection Q as <- _. eexists. split; [reflexivity|]. split; reflexivity.
Qed.

Lemma nipals_fit_fails mode n a X Y sd : nr sd = 1 -> 2 <= nc sd -> forall m, nipals_fit lstsq pinv mode n a X Y (Some sd) <> Ok m.
Proof.
  intros R1 C1 m. unfold nipals_fit.
  destruct (for_range _ _ _) as [[[b [X' Y']] [[[[[XS YS] XL] YL] XW] YW]]|e]; cbn [bind]; [|discriminate].
  destruct (mul (transpose XL) XW) as [pw|e]; cbn [bind]; [|discriminate]. destruct (pinv pw) as [pwi|e]; cbn [bind]; [|discriminate].
  destruct (mul XW pwi) as [xr|e]; cbn [bind]; [|discriminate].
  match goal with |- bind ?z _ <> _ => destruct z as [yr|e]; cbn [bind]; [|discriminate] end.
  destruct (mul xr (transpose YL)) as [xq|e]; cbn [bind]; [|discriminate]. unfold scale_by_row_vector, must_be_column_vector, is_column_vector.
  destruct (Nat.eqb_spec (nc sd) 1); [lia|]. rewrite ?andb_false_r, ?andb_false_l. cbn [negb bind]. discriminate.
Qed.
Theorem C53_nipals_refuted (s s' : pls_st (nipals_st T) T) (X Y : mat T) r : 2 <= nc Y ->
  (initialize (nipals lstsq pinv) s (Some X) (Some Y) = (s', r) \/ initialize (cca_regression lstsq pinv) s (Some X) (Some Y) = (s', r)) ->
  p_initialised s' = false /\ exists e, r = Err e.
Proof.
  intros Hq Hor.
  assert (Hgen : forall mode d0 asg, initialize (nipals_class lstsq pinv mode d0 asg) s (Some X) (Some Y) = (s', r) -> p_initialised s' = false /\ exists e, r = Err e).
  { clear Hor. intros mode d0 asg Ei. unfold initialize, check_data in Ei. cbn [nipals_class c_arity] in Ei. fold (nipals_class lstsq pinv mode d0 asg) in Ei.
    destruct (Z.ltb_spec (Z.of_nat (nc Y)) 1); [lia|]. change (negb (-1 =? -1)%Z) with false in Ei. cbn [andb] in Ei.
    unfold do_initialize in Ei. cbn [reset p_preprocessing] in Ei.
    destruct (prepare (nipals_class lstsq pinv mode d0 asg) (p_preprocessing s) Y) as [[[[mean std] tp] tr]|e] eqn:Ep; [|injection Ei as <- <-; cbn; eauto].
    destruct (pt_fit tp X) as [tp' [X'|e]]; [|injection Ei as <- <-; cbn; eauto].
    destruct (pt_fit tr Y) as [tr' [Y'|e]] eqn:Ef; [|injection Ei as <- <-; cbn; eauto].
    assert (HY' : nc Y' = nc Y).
    { unfold prepare in Ep. cbn [nipals_class c_arity] in Ep.
      destruct (prep_multi_spec Y ltac:(lia)) as (P1 & P2 & P3). destruct (p_preprocessing s).
      - rewrite P1 in Ep. injection Ep as <- <- <- <-. cbn [pt_fit] in Ef. injection Ef as <- <-. reflexivity.
      - rewrite P2 in Ep. destruct (helper_mean Y 0 true); cbn [bind] in Ep; [|discriminate]. assert (Etr : tr = Some (PTCenter (t_new center))) by congruence. rewrite Etr, pt_fit_center in Ef. injection Ef as <- <-. reflexivity.
      - rewrite P3 in Ep. destruct (helper_mean Y 0 true); cbn [bind] in Ep; [|discriminate]. destruct (helper_stdev Y 0 true); cbn [bind] in Ep; [|discriminate]. assert (Etr : tr = Some (PTStandardize (t_new standardize))) by congruence.
        rewrite Etr, pt_fit_standardize in Ef by lia. injection Ef as <- <-. reflexivity.
      - exfalso. unfold prep_multi in Ep. destruct (nc Y) as [|q]; [lia|]. unfold for_range in Ep. cbn in Ep. discriminate. }
    cbn [set_prep p_num_components p_own c_train nipals_class reset c_reset] in Ei. unfold nipals_train in Ei. cbn [ni_standardize_X ni_standardize_Y] in Ei.
    destruct (t_transform standardize (t_new standardize) X') as [sx [X''|e]]; [|injection Ei as <- <-; cbn; eauto].
    destruct (t_transform standardize (t_new standardize) Y') as [sy [Y''|e]] eqn:EY; [|injection Ei as <- <-; cbn; eauto].
    destruct (standardised Y' Y'' sy ltac:(lia) EY) as (sd & Esd & R1 & C1). cbn [ni_standardize_Y] in Ei. rewrite Esd in Ei.
    match type of Ei with context [nipals_fit lstsq pinv mode ?n ?a ?x ?y _] => pose proof (nipals_fit_fails mode n a x y sd R1 ltac:(lia)) as Hf; destruct (nipals_fit lstsq pinv mode n a x y (Some sd)) as [m|e] end.
    - now elim (Hf m).
    - injection Ei as <- <-. cbn. eauto. }
  destruct Hor as [E1|E1]; [exact (Hgen _ _ _ E1)|exact (Hgen _ _ _ E1)].
Qed.
End Classes.

Theorem C53_declarations_more {T} `{Num T} lstsq eig svd rnd :
  (forall KS (k0 : KS) kapply, c_arity (kernel_pls lstsq rnd k0 kapply) = Multi 1 (-1) /\ trains_quietly (kernel_pls (T:=T) lstsq rnd k0 kapply)) /\
  (c_arity (prm (T:=T) eig svd) = Single /\ trains_quietly (prm (T:=T) eig svd)) /\
  (forall AB KB (base : pls_class AB KB T), c_arity (opls base) = Single /\ trains_quietly (opls base)).
Proof.
  split; [|split].
  - intros KS k0 kapply. split; [reflexivity|]. intros n a X Y m. cbn [kernel_pls c_train]. unfold kpls_train. destruct (t_transform center (kp_center_X a) X) as [cx [X'|e]]; [|discriminate].
    destruct (t_transform center (kp_center_Y a) Y) as [cy [Y'|e]]; [|discriminate]. destruct (kpls_fit _ _ _ _ _ _ _ _ _) as [ks [?|?]]; discriminate.
  - split; [reflexivity|]. intros n a X Y m. cbn [prm c_train]. destruct (prm_fit eig svd a n X Y) as [[? ?]|]; discriminate.
  - intros AB KB base. split; [reflexivity|]. intros n a X Y m. cbn [opls c_train]. unfold opls_train. destruct (opls_fit n X Y) as [[w [[[[X' Xt] W] P] Tm]]|e]; [|discriminate].
    destruct (opls_transform _ _ X) as [cl|e]; [|discriminate]. destruct (initialize base _ _ _) as [b [?|?]]; discriminate.
Qed.
Print Assumptions C53_check.
Print Assumptions C53_declarations.
Print Assumptions C53_declarations_more.
Print Assumptions C53_nipals_refuted.

(** * C54 *)
Section Loop.
Context {T : Type} `{Num T} (lstsq : mat T -> mat T -> res (mat T)).
Notation fuelled r := (r <> Err OutOfFuel).
Lemma bind_fuel {A B} (x : res A) (f : A -> res B) : fuelled x -> (forall a, x = Ok a -> fuelled (f a)) -> fuelled (bind x f).
Proof. destruct x as [a|e]; cbn; intros Hx Hf; [now apply Hf|]. congruence. Qed.
Lemma mul_fuel (a b : mat T) : fuelled (mul a b). Proof. unfold mul. destruct (is_multiplicable_with a b); discriminate. Qed.
Lemma sub_fuel (a b : mat T) : fuelled (sub a b).
Proof. unfold sub. rewrite must_be_same_shape_eq. destruct (same_shape_as a b); cbn; discriminate. Qed.
Lemma minverse_fuel (Hl : forall a b, fuelled (lstsq a b)) (m : mat T) : fuelled (minverse lstsq m).
Proof.
  unfold minverse, inverse. destruct (is_square m); [|apply Hl]. unfold np_inv. destruct (negb (nr m =? nc m)); [discriminate|].
  unfold np_solve. repeat match goal with |- context [if ?b then _ else _] => destruct b end; try discriminate.
Qed.
Lemma weights_fuel (Hl : forall a b, fuelled (lstsq a b)) mode nY (X Y ys : mat T) : fuelled (nipals_weights lstsq mode nY X Y ys).
Proof.
  unfold nipals_weights. apply bind_fuel.
  - destruct mode; (apply bind_fuel; [apply mul_fuel || now apply minverse_fuel|]); intros; (discriminate || apply mul_fuel).
  - intros xw _. apply bind_fuel; [apply mul_fuel|]. intros xs _. apply bind_fuel; [|discriminate].
    destruct mode; (apply bind_fuel; [apply mul_fuel || now apply minverse_fuel|]); intros; (discriminate || apply mul_fuel).
Qed.

(** The loop as specified by its exits. *)
Lemma while_spec (Hl : forall a b, fuelled (lstsq a b)) mode nY tol max_iter (X Y ys : mat T) fuel : forall wold it,
  (0 <= it)%Z -> (it <= Z.max 0 max_iter)%Z -> (Z.max 0 max_iter - it < Z.of_nat fuel)%Z ->
  let r := nipals_while lstsq fuel mode nY tol max_iter X Y ys wold it in
  fuelled r /\ forall w c it', r = Ok (w, c, it') ->
    (it <= it' <= Z.max 0 max_iter)%Z /\ nipals_weights lstsq mode nY X Y ys = Ok (w, c) /\
    ((it' < max_iter)%Z -> nc Y <> 1 -> exists d, sub w (if (it' =? it)%Z then wold else w) = Ok d /\ nltb (norm2_squared d) tol = true).
Proof.
  induction fuel as [|fuel IH]; intros wold it H0 H1 H2; [lia|]. cbn [nipals_while].
  destruct (nipals_weights lstsq mode nY X Y ys) as [[w c]|e] eqn:Ew; cbn [bind].
  2:{ cbv zeta. split; [|discriminate]. intros Q. injection Q as Q; subst e. eapply (weights_fuel Hl); eassumption. }
  destruct (mul Y c) as [yw|e] eqn:Ey; cbn [bind].
  2:{ cbv zeta. split; [|discriminate]. intros Q. injection Q as Q; subst e. eapply mul_fuel; eassumption. }
  destruct (sub w wold) as [d|e] eqn:Ed; cbn [bind].
  2:{ cbv zeta. split; [|discriminate]. intros Q. injection Q as Q; subst e. eapply sub_fuel; eassumption. }
  destruct (nltb (norm2_squared d) tol || (nc Y =? 1)) eqn:Es; cbv zeta.
  - split; [discriminate|]. intros w' c' it' [= <- <- <-]. split; [lia|]. split; [reflexivity|]. intros _ Hq. rewrite Z.eqb_refl. exists d. split; [assumption|].
    apply orb_prop in Es as [Es|Es]; [assumption|]. apply Nat.eqb_eq in Es. contradiction.
  - destruct (Z.leb_spec max_iter it) as [Hm|Hm].
    + split; [discriminate|]. intros w' c' it' [= <- <- <-]. split; [lia|]. split; [reflexivity|]. intros; lia.
    + specialize (IH w (it + 1)%Z ltac:(lia) ltac:(lia) ltac:(lia)). cbv zeta in IH. destruct IH as [If IH]. split; [exact If|]. intros w' c' it' Er. destruct (IH _ _ _ Er) as (Hb & Hw & Hs).
      injection Hw as <- <-. split; [lia|]. split; [reflexivity|]. intros Hlt Hq. destruct (Hs Hlt Hq) as (d' & E1 & E2). exists d'. split; [|assumption].
      destruct (Z.eqb_spec it' it); [lia|]. destruct (Z.eqb_spec it' (it + 1)); exact E1.
Qed.
(** Termination within max_iter iterations; the weights returned are those of the response's first
    column (y_score is never updated), and a stop before max_iter is a stop by tolerance (with one
    response column the loop stops at once). *)
Theorem C54_terminates_partial (Hl : forall a b, fuelled (lstsq a b)) mode nY tol max_iter (X Y : mat T) : (0 <= max_iter)%Z ->
  fuelled (nipals_loop lstsq mode nY tol max_iter X Y) /\
  forall w c it, nipals_loop lstsq mode nY tol max_iter X Y = Ok (w, c, it) ->
    (0 <= it <= max_iter)%Z /\
    (exists y0, get_column Y 0 = Ok y0 /\ nipals_weights lstsq mode nY X Y y0 = Ok (w, c)) /\
    ((it < max_iter)%Z -> nc Y <> 1 ->
       exists d, sub w (if (it =? 0)%Z then zeros (zn (nc X)) 1 else w) = Ok d /\ nltb (norm2_squared d) tol = true).
Proof.
  intros Hm. unfold nipals_loop. destruct (get_column Y 0) as [y0|e] eqn:Ey; cbn [bind].
  2:{ split; [|discriminate]. intros Q. injection Q as Q; subst e. unfold get_column in Ey. unfold npidx in Ey. repeat match type of Ey with context [if ?b then _ else _] => destruct b end; discriminate. }
  destruct (while_spec Hl mode nY tol max_iter X Y y0 (S (Z.to_nat max_iter)) (zeros (zn (nc X)) 1) 0 ltac:(lia) ltac:(lia) ltac:(lia)) as [Hf Hr]. split; [exact Hf|].
  intros w c it E. destruct (Hr _ _ _ E) as (Hb & Hw & Hs). split; [lia|]. split; [exists y0; auto|exact Hs].
Qed.
End Loop.
(** Over the reals with a positive tolerance: at most one repetition, and it changes nothing. *)
Theorem C54_one_repetition_partial lstsq mode nY (tol : R) max_iter (X Y w c : mat R) it :
  (forall a b, lstsq a b <> Err OutOfFuel) -> (0 <= max_iter)%Z -> (0 < tol)%R ->
  nipals_loop lstsq mode nY tol max_iter X Y = Ok (w, c, it) -> (it <= 1)%Z.
Proof.
  intros Hl Hm Ht. unfold nipals_loop. destruct (get_column Y 0) as [y0|e] eqn:Ey; cbn [bind]; [|discriminate].
  assert (Hgen : forall fuel wold it0 w c it, nipals_while lstsq fuel mode nY tol max_iter X Y y0 wold it0 = Ok (w, c, it) ->
     nipals_weights lstsq mode nY X Y y0 = Ok (wold, c) -> it = it0).
  { intros [|fuel] wold it0 w' c' it'; [discriminate|]. cbn [nipals_while]. intros E1 E2. rewrite E2 in E1. cbn [bind] in E1.
    destruct (mul Y c'); cbn [bind] in E1; [|discriminate]. assert (Es : sub wold wold = Ok (mk (nr wold) (nc wold) (fun _ _ => 0%R))).
    { unfold sub. rewrite must_be_same_shape_eq. unfold same_shape_as. rewrite !Nat.eqb_refl. cbn [andb bind]. f_equal. unfold map2_mat. apply mk_ext. intros. cbn. ring. }
    rewrite Es in E1. cbn [bind] in E1.
    assert (Hz : nltb (norm2_squared (mk (nr wold) (nc wold) (fun _ _ => 0%R))) tol = true).
    { apply Rltb_true. assert (Hf : frobenius (mk (nr wold) (nc wold) (fun _ _ => 0%R)) = 0%R).
      { rewrite frobenius_sumsq. apply eq_trans with (sqrt 0); [f_equal|apply sqrt_0]. unfold sumsq. apply sumR_zero. intros i Hi. apply sumR_zero. intros j Hj. cbn [nr nc mk] in Hi, Hj. rewrite entry_mk by assumption. ring. }
      unfold norm2_squared, norm2. rewrite Hf. destruct (is_vector _); cbn [nmul ndiv NumR]; unfold Rdiv; rewrite ?Rmult_0_l; exact Ht. }
    rewrite Hz in E1. cbn [orb] in E1. congruence. }
  cbn [nipals_while]. destruct (nipals_weights lstsq mode nY X Y y0) as [[w1 c1]|e] eqn:Ew; cbn [bind]; [|discriminate].
  destruct (mul Y c1); cbn [bind]; [|discriminate]. destruct (sub w1 _); cbn [bind]; [|discriminate].
  destruct (_ || _); [intros [= <- <- <-]; lia|]. destruct (Z.leb_spec max_iter 0); [intros [= <- <- <-]; lia|]. intros E.
  assert (Hc : nipals_weights lstsq mode nY X Y y0 = Ok (w1, c)).
  { destruct (while_spec lstsq Hl mode nY tol max_iter X Y y0 (Z.to_nat max_iter) w1 (0 + 1) ltac:(lia) ltac:(lia) ltac:(lia)) as [_ Hr]. destruct (Hr _ _ _ E) as (_ & Hw & _). rewrite Ew in Hw. congruence. }
  rewrite Ew in Hc. rewrite (Hgen _ _ _ _ _ _ E Hc). lia.
Qed.

(** The alternating update: from a Y score to the X weights, and on to the next Y score (lines
    181-211 followed by step 4). *)
Definition next_score {T} `{Num T} lstsq (mode : weight_mode) nY (X Y u : mat T) : res (mat T) :=
  do ws <- nipals_weights lstsq mode nY X Y u;
  do yw <- mul Y (snd ws);
  Ok (div_scalar yw (nadd (norm2_squared (snd ws)) (lit 1 16))).
Definition exF (z : Z) : f64 := nofZ z.
Definition exX : mat f64 := Mat 3 2 [[exF 1; exF 0]; [exF 0; exF 1]; [exF 0; exF 0]].
Definition exY : mat f64 := Mat 3 2 [[exF 1; exF 0]; [exF 1; exF 3]; [exF 0; exF 0]].
Definition no_solver (a b : mat f64) : res (mat f64) := Err LinAlgError.
(** Default tolerance 1e-6 and 500 iterations: the loop stops by tolerance after one repetition,
    but the weights are far from those of the updated score (squared distance > 0.1). *)
Theorem C54_refuted : exists w c y0 u1 w1 c1 d,
  nipals_loop no_solver WM_PLS false (lit 1 6) 500 exX exY = Ok (w, c, 1%Z) /\
  get_column exY 0 = Ok y0 /\ next_score no_solver WM_PLS false exX exY y0 = Ok u1 /\
  nipals_weights no_solver WM_PLS false exX exY u1 = Ok (w1, c1) /\
  sub w1 w = Ok d /\ nltb (lit 1 1) (norm2_squared d) = true.
Proof.
  do 7 eexists. split; [vm_compute; reflexivity|]. split; [vm_compute; reflexivity|]. split; [vm_compute; reflexivity|]. split; [vm_compute; reflexivity|].
  split; [vm_compute; reflexivity|]. vm_compute. reflexivity.
Qed.
Example C54_ex : exists w c, nipals_loop no_solver WM_PLS false (lit 1 6) 500 exX (Mat 3 1 [[exF 1]; [exF 2]; [exF 5]]) = Ok (w, c, 0%Z).
Proof. do 2 eexists. vm_compute. reflexivity. Qed.
(** Refusals and acceptance by width. *)
Example C53_ex : 
  snd (initialize (pls1 no_solver) (construct (pls1 no_solver)) (Some exX) (Some exY)) = Ok (Some (MsgExactlyOne 2)) /\
  snd (initialize (nipals no_solver (fun _ => Err LinAlgError)) (construct (nipals no_solver (fun _ => Err LinAlgError))) (Some exX) (Some (Mat 3 0 [[];[];[]]))) = Ok (Some (MsgAtLeast 1 0)) /\
  snd (initialize (nipals no_solver (fun _ => Ok (mk 1 1 (fun _ _ => exF 1)))) (fst (setattr (nipals no_solver (fun _ => Ok (mk 1 1 (fun _ _ => exF 1)))) (construct (nipals no_solver (fun _ => Ok (mk 1 1 (fun _ _ => exF 1))))) (ANumComponents 1)))
    (Some exX) (Some (Mat 3 1 [[exF 1]; [exF 2]; [exF 5]]))) = Ok None.
Proof. split; [vm_compute; reflexivity|]. split; [vm_compute; reflexivity|]. vm_compute. reflexivity. Qed.
Print Assumptions C54_terminates_partial.
Print Assumptions C54_one_repetition_partial.
Print Assumptions C54_refuted.
