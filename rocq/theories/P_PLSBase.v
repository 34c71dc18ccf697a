(** C46, C47, C48: parameters and life cycle of the PLS algorithms, over all call histories.
    Everything up to the instances is proved for every class description [c] (M_PLSBase). *)
From Coq Require Import List ZArith Lia Bool Arith.
From Verif Require Import Base Num Mat M_Matrix M_Factory M_Helper M_Loop M_Utils M_Linalg M_Transform M_PLSBase M_PLS M_PLS2 M_Kernel.
Import ListNotations.
Local Open Scope nat_scope.

(** * What the class descriptions have to satisfy, and do (instances below).
    [P a]: the parameters in the attributes a; [V]: of these, the validated ones. *)
Record keeps {A K T E F : Type} (c : pls_class A K T) (P : A -> E) (V : E -> F) : Prop := Keeps {
  lw_reset : forall a, P (c_reset c a) = P a;
  lw_train_P : forall n a X Y, P (fst (c_train c n a X Y)) = P a;
  lw_predict_P : forall n a X, P (fst (c_predict c n a X)) = P a;
  lw_transform_P : forall n a X, P (fst (c_transform c n a X)) = P a;
  lw_unvalidated : forall k a, c_valid c k = None -> V (P (c_assign c k a)) = V (P a) }.
(** Training after reset depends on the parameters only; [sim]: the same learnt state. *)
Record forgets {A K T E : Type} (c : pls_class A K T) (P : A -> E) (sim : A -> A -> Prop) : Prop := Forgets {
  lw_train : forall n a b X Y, P a = P b ->
    snd (c_train c n (c_reset c a) X Y) = snd (c_train c n (c_reset c b) X Y) /\
    (snd (c_train c n (c_reset c a) X Y) = Ok None ->
     sim (fst (c_train c n (c_reset c a) X Y)) (fst (c_train c n (c_reset c b) X Y)));
  lw_predict : forall n a b X, sim a b ->
    snd (c_predict c n a X) = snd (c_predict c n b X) /\ sim (fst (c_predict c n a X)) (fst (c_predict c n b X));
  lw_transform : forall n a b X, sim a b ->
    snd (c_transform c n a X) = snd (c_transform c n b X) /\ sim (fst (c_transform c n a X)) (fst (c_transform c n b X)) }.
Definition lawful {A K T E F : Type} (c : pls_class A K T) (P : A -> E) (V : E -> F) (sim : A -> A -> Prop) : Prop :=
  keeps c P V /\ forgets c P sim.

Section Life.
Context {A K T : Type} `{Num T} (c : pls_class A K T).
Notation st := (pls_st A T).
Notation op := (pls_op K T).

(** * C46 *)
(** An invalid value: ValueError, and the object is the same as before in every attribute.  A valid
    one: stored, everything learnt is gone.  An attribute without validator is just stored. *)
Theorem C46_assignment (s : st) (k : assignment K) :
  (a_valid c k = Some false -> setattr c s k = (s, Err ValueError)) /\
  (a_valid c k = Some true ->
     snd (setattr c s k) = Ok tt /\
     let s' := fst (setattr c s k) in
     p_initialised s' = false /\ p_class_mean s' = [] /\ p_class_std_dev s' = [] /\
     p_trans_predictors s' = None /\ p_trans_response s' = None /\
     match k with
     | ANumComponents v => p_num_components s' = v /\ p_preprocessing s' = p_preprocessing s /\ p_own s' = c_reset c (p_own s)
     | APreprocessing v => p_preprocessing s' = v /\ p_num_components s' = p_num_components s /\ p_own s' = c_reset c (p_own s)
     | AOwn k => p_num_components s' = p_num_components s /\ p_preprocessing s' = p_preprocessing s /\
                 p_own s' = c_assign c k (c_reset c (p_own s))
     end) /\
  (a_valid c k = None -> snd (setattr c s k) = Ok tt /\ p_initialised (fst (setattr c s k)) = p_initialised s).
Proof.
  unfold setattr. destruct (a_valid c k) as [[|]|] eqn:E.
  - split; [discriminate|]. split; [|discriminate]. intros _. destruct k; cbn; auto 10.
  - split; [reflexivity|]. split; discriminate.
  - split; [discriminate|]. split; [discriminate|]. intros _. destruct k; cbn; auto.
Qed.

(** * C47 *)
(** Calls after which a trained object is still trained: queries, refused and unvalidated
    assignments, and initialize with exactly one of the two matrices missing. *)
Definition harmless (o : op) : Prop :=
  match o with
  | OInitialize None (Some _) | OInitialize (Some _) None => True
  | OInitialize _ _ => False
  | OSet k => a_valid c k <> Some true
  | OResetPls => False
  | OPredict _ | OTransformPls _ => True
  end.

Lemma reset_untrained (s : st) : p_initialised (reset c s) = false. Proof. reflexivity. Qed.
Lemma setattr_untrained (s : st) k : p_initialised s = false -> p_initialised (fst (setattr c s k)) = false.
Proof. intros Hs. unfold setattr. destruct (a_valid c k) as [[|]|]; destruct k; cbn; auto. Qed.
Lemma members_untrained (s : st) : p_initialised (initialize_members c s) = false.
Proof.
  unfold initialize_members. set (s2 := fst (setattr c (fst (setattr c s (ANumComponents 5))) (APreprocessing PP_NONE))).
  assert (p_initialised s2 = false) as H2 by reflexivity. clearbody s2. cbn [set_own p_initialised].
  revert s2 H2. induction (c_defaults c) as [|k l IH]; intros s2 H2; [assumption|]. cbn [fold_left]. apply IH, setattr_untrained, H2.
Qed.
Lemma construct_untrained : p_initialised (construct c) = false. Proof. reflexivity. Qed.
Lemma do_initialize_untrained (s : st) X Y : p_initialised (fst (do_initialize c s X Y)) = p_initialised s.
Proof.
  unfold do_initialize. destruct (prepare c (p_preprocessing s) Y) as [[[[mean std] tp] tr]|e]; [|reflexivity].
  destruct (pt_fit tp X) as [tp' [X'|e]]; [|reflexivity]. destruct (pt_fit tr Y) as [tr' [Y'|e]]; [|reflexivity].
  cbn zeta. destruct (c_train c _ _ X' Y'); reflexivity.
Qed.
Lemma initialize_trained_iff (s : st) X Y :
  p_initialised (fst (initialize c s (Some X) (Some Y))) = true <-> snd (initialize c s (Some X) (Some Y)) = Ok None.
Proof.
  unfold initialize. destruct (check_data c Y) as [m|]; [cbn; split; discriminate|].
  pose proof (do_initialize_untrained (reset c s) X Y) as Hd.
  destruct (do_initialize c (reset c s) X Y) as [s' [[m|]|e]]; cbn in *; [split; discriminate|split; reflexivity|].
  rewrite Hd. split; discriminate.
Qed.
Lemma predict_trained (s : st) X : p_initialised (fst (predict c s X)) = p_initialised s.
Proof. unfold predict. destruct (p_initialised s) eqn:E; cbn [negb]; [|exact E]. unfold do_predict. destruct (c_predict c _ _ X). exact E. Qed.
Lemma transform_trained (s : st) X : p_initialised (fst (transform c s X)) = p_initialised s.
Proof. unfold transform. destruct (p_initialised s) eqn:E; cbn [negb]; [|exact E]. destruct (c_transform c _ _ X). exact E. Qed.

(** One call: what it does to being trained. *)
Lemma step_trained (s : st) (o : op) :
  p_initialised (pls_step c s o) =
  match o with
  | OInitialize (Some X) (Some Y) => match snd (initialize c s (Some X) (Some Y)) with Ok None => true | _ => false end
  | OInitialize None None | OResetPls => false
  | OSet k => match a_valid c k with Some true => false | _ => p_initialised s end
  | _ => p_initialised s
  end.
Proof.
  destruct o as [x y|k| |x|x]; cbn [pls_step].
  - destruct x as [X|], y as [Y|]; cbn [initialize fst]; try reflexivity.
    + pose proof (initialize_trained_iff s X Y) as Hi. fold (initialize c s (Some X) (Some Y)).
      destruct (snd (initialize c s (Some X) (Some Y))) as [[m|]|e].
      * destruct (p_initialised _); [|reflexivity]. destruct Hi as [Hi _]. specialize (Hi eq_refl). discriminate.
      * now apply Hi.
      * destruct (p_initialised _); [|reflexivity]. destruct Hi as [Hi _]. specialize (Hi eq_refl). discriminate.
    + apply members_untrained.
  - unfold setattr. destruct (a_valid c k) as [[|]|]; destruct k; reflexivity.
  - reflexivity.
  - apply predict_trained.
  - apply transform_trained.
Qed.

(** After any history, the object is trained iff the last call that decides about training was an
    initialize(X, Y) that succeeded. *)
Theorem C47_trained_iff (h : list op) :
  p_initialised (pls_run c h) = true <->
  exists pre X Y post, h = pre ++ OInitialize (Some X) (Some Y) :: post /\
    snd (initialize c (pls_run c pre) (Some X) (Some Y)) = Ok None /\ Forall harmless post.
Proof.
  induction h as [|o h IH] using rev_ind.
  - split; [cbn; discriminate|]. intros (pre & X & Y & post & E & _). now destruct pre.
  - assert (Hrun : pls_run c (h ++ [o]) = pls_step c (pls_run c h) o) by (unfold pls_run; now rewrite fold_left_app).
    rewrite Hrun, step_trained. clear Hrun.
    assert (Hsplit : forall pre X Y post, h ++ [o] = pre ++ OInitialize (Some X) (Some Y) :: post ->
              (post = [] /\ h = pre /\ o = OInitialize (Some X) (Some Y)) \/
              (exists post', post = post' ++ [o] /\ h = pre ++ OInitialize (Some X) (Some Y) :: post')).
    { intros pre X Y post E. destruct post as [|q post' _] using rev_ind.
      - apply app_inj_tail in E. left. tauto.
      - right. rewrite app_comm_cons, app_assoc in E. apply app_inj_tail in E. destruct E as [E1 E2]. subst. exists post'. tauto. }
    assert (Hkeep : harmless o ->
              ((exists pre X Y post, h ++ [o] = pre ++ OInitialize (Some X) (Some Y) :: post /\
                  snd (initialize c (pls_run c pre) (Some X) (Some Y)) = Ok None /\ Forall harmless post) <-> p_initialised (pls_run c h) = true)).
    { intros Ho. rewrite IH. split.
      - intros (pre & X & Y & post & E & Hi & Hp). destruct (Hsplit _ _ _ _ E) as [(-> & -> & ->)|(post' & -> & ->)]; [destruct Ho|].
        apply Forall_app in Hp. exists pre, X, Y, post'. tauto.
      - intros (pre & X & Y & post & -> & Hi & Hp). exists pre, X, Y, (post ++ [o]). rewrite <- app_assoc. cbn [app].
        split; [reflexivity|]. split; [assumption|]. apply Forall_app. split; [assumption|]. now constructor. }
    assert (Hno : ~ harmless o -> (forall X Y, o <> OInitialize (Some X) (Some Y)) ->
              ~ (exists pre X Y post, h ++ [o] = pre ++ OInitialize (Some X) (Some Y) :: post /\
                  snd (initialize c (pls_run c pre) (Some X) (Some Y)) = Ok None /\ Forall harmless post)).
    { intros Hh Hn (pre & X & Y & post & E & Hi & Hp). destruct (Hsplit _ _ _ _ E) as [(-> & -> & ->)|(post' & -> & ->)]; [eapply Hn; reflexivity|].
      apply Forall_app in Hp. destruct Hp as [_ Hp]. inversion Hp; subst. contradiction. }
    destruct o as [[X|] [Y|]|k| |X|X].
    + clear Hkeep Hno. split.
      * intros Hi. exists h, X, Y, []. split; [reflexivity|]. split; [|constructor].
        destruct (snd (initialize c (pls_run c h) (Some X) (Some Y))) as [[m|]|e]; try discriminate; reflexivity.
      * intros (pre & X' & Y' & post & E & Hi & Hp). destruct (Hsplit _ _ _ _ E) as [(-> & -> & E')|(post' & -> & ->)].
        -- injection E' as -> ->. now rewrite Hi.
        -- apply Forall_app in Hp. destruct Hp as [_ Hp]. inversion Hp; subst. contradiction.
    + symmetry. now apply Hkeep.
    + symmetry. now apply Hkeep.
    + split; [discriminate|]. intros Hx. exfalso. revert Hx. apply Hno; [exact (fun f => f)|discriminate].
    + destruct (a_valid c k) as [[|]|] eqn:Ek.
      * split; [discriminate|]. intros Hx. exfalso. revert Hx. apply Hno; [cbn; rewrite Ek; auto|discriminate].
      * symmetry. apply Hkeep. cbn. rewrite Ek. discriminate.
      * symmetry. apply Hkeep. cbn. rewrite Ek. discriminate.
    + split; [discriminate|]. intros Hx. exfalso. revert Hx. apply Hno; [exact (fun f => f)|discriminate].
    + symmetry. now apply Hkeep.
    + symmetry. now apply Hkeep.
Qed.

(** predict and transform on an object that is not trained: RuntimeError, nothing changes. *)
Theorem C47_untrained_raises (h : list op) (X : mat T) :
  ~ (exists pre X Y post, h = pre ++ OInitialize (Some X) (Some Y) :: post /\
      snd (initialize c (pls_run c pre) (Some X) (Some Y)) = Ok None /\ Forall harmless post) ->
  predict c (pls_run c h) X = (pls_run c h, Err RuntimeError) /\ transform c (pls_run c h) X = (pls_run c h, Err RuntimeError).
Proof.
  rewrite <- C47_trained_iff. intros Hn. unfold predict, transform. destruct (p_initialised (pls_run c h)); [now elim Hn|]. split; reflexivity.
Qed.

(** An initialize(X, Y) that is refused or raises leaves the object untrained, whatever it was before. *)
Theorem C47_failed_initialize (h : list op) (X Y X' : mat T) :
  snd (initialize c (pls_run c h) (Some X) (Some Y)) <> Ok None ->
  let s := pls_run c (h ++ [OInitialize (Some X) (Some Y)]) in
  predict c s X' = (s, Err RuntimeError) /\ transform c s X' = (s, Err RuntimeError).
Proof.
  intros Hn s. assert (p_initialised s = false) as Hs.
  { unfold s, pls_run. rewrite fold_left_app. cbn [fold_left pls_step]. fold (pls_run c h).
    destruct (p_initialised _) eqn:E; [|reflexivity]. apply initialize_trained_iff in E. contradiction. }
  unfold predict, transform. rewrite Hs. split; reflexivity.
Qed.

(** The exception: with exactly one matrix missing initialize raises AttributeError before it
    resets, so the object is as it was - in particular still trained if it was. *)
Theorem C47_half_missing (s : st) (X : mat T) :
  initialize c s (Some X) None = (s, Err AttributeError) /\ initialize c s None (Some X) = (s, Err AttributeError).
Proof. split; reflexivity. Qed.

(** * C46, C48: laws *)
Section Laws.
Context {E F : Type} (P : A -> E) (V : E -> F) (sim : A -> A -> Prop) (Lk : keeps c P V) (Lf : forgets c P sim).

Definition params (s : st) : Z * preproc * E := (p_num_components s, p_preprocessing s, P (p_own s)).
Definition validated (s : st) : Z * preproc * F := (p_num_components s, p_preprocessing s, V (P (p_own s))).

Lemma params_reset s : params (reset c s) = params s.
Proof. unfold params. cbn. now rewrite (lw_reset _ _ _ Lk). Qed.
Lemma params_do_initialize s X Y : params (fst (do_initialize c s X Y)) = params s.
Proof.
  unfold do_initialize. destruct (prepare c (p_preprocessing s) Y) as [[[[mean std] tp] tr]|e]; [|reflexivity].
  destruct (pt_fit tp X) as [tp' [X'|e]]; [|reflexivity]. destruct (pt_fit tr Y) as [tr' [Y'|e]]; [|reflexivity].
  cbn zeta. set (s1 := set_prep s mean std tp' tr'). pose proof (lw_train_P _ _ _ Lk (p_num_components s1) (p_own s1) X' Y') as Hp.
  destruct (c_train c (p_num_components s1) (p_own s1) X' Y') as [a r]. unfold params. cbn in *. now rewrite Hp.
Qed.
Lemma params_initialize s X Y : params (fst (initialize c s (Some X) (Some Y))) = params s.
Proof.
  unfold initialize. destruct (check_data c Y) as [m|]; [apply params_reset|].
  pose proof (params_do_initialize (reset c s) X Y) as Hd. rewrite params_reset in Hd.
  destruct (do_initialize c (reset c s) X Y) as [s' [[m|]|e]]; exact Hd.
Qed.
Lemma params_predict s X : params (fst (predict c s X)) = params s.
Proof.
  unfold predict. destruct (negb _); [reflexivity|]. unfold do_predict.
  pose proof (lw_predict_P _ _ _ Lk (p_num_components s) (p_own s) X) as Hp. destruct (c_predict c _ _ X) as [a r].
  unfold params. cbn in *. now rewrite Hp.
Qed.
Lemma params_transform s X : params (fst (transform c s X)) = params s.
Proof.
  unfold transform. destruct (negb _); [reflexivity|].
  pose proof (lw_transform_P _ _ _ Lk (p_num_components s) (p_own s) X) as Hp. destruct (c_transform c _ _ X) as [a r].
  unfold params. cbn in *. now rewrite Hp.
Qed.

Lemma params_validated s t : params s = params t -> validated s = validated t.
Proof. intros Hab. unfold params in Hab. injection Hab as E1 E2 E3. unfold validated. now rewrite E1, E2, E3. Qed.
Lemma harmless_validated s o : harmless o -> validated (pls_step c s o) = validated s.
Proof.
  destruct o as [x y|k| |X|X]; cbn [harmless pls_step].
  - destruct x, y; try contradiction; reflexivity.
  - intros Hk. unfold setattr. destruct (a_valid c k) as [[|]|] eqn:Ek; [now elim Hk|reflexivity|].
    destruct k as [v|v|k]; cbn in Ek; try discriminate. unfold validated. cbn. now rewrite (lw_unvalidated _ _ _ Lk _ _ Ek).
  - intros [].
  - intros _. apply params_validated, params_predict.
  - intros _. apply params_validated, params_transform.
Qed.

(** A trained object's validated parameters are the ones it had when it was trained. *)
Theorem C46_parameters_of_trained (h : list op) :
  p_initialised (pls_run c h) = true ->
  exists pre X Y post, h = pre ++ OInitialize (Some X) (Some Y) :: post /\
    snd (initialize c (pls_run c pre) (Some X) (Some Y)) = Ok None /\
    validated (pls_run c h) = validated (pls_run c pre).
Proof.
  intros Ht. destruct (proj1 (C47_trained_iff h) Ht) as (pre & X & Y & post & -> & Hi & Hp).
  exists pre, X, Y, post. split; [reflexivity|]. split; [exact Hi|].
  unfold pls_run. rewrite fold_left_app. cbn [fold_left pls_step]. fold (pls_run c pre).
  transitivity (validated (fst (initialize c (pls_run c pre) (Some X) (Some Y)))).
  - generalize (fst (initialize c (pls_run c pre) (Some X) (Some Y))). clear - Hp Lk.
    induction Hp as [|o l Ho Hl IH]; intros s; [reflexivity|]. cbn [fold_left]. rewrite IH. now apply harmless_validated.
  - apply params_validated, params_initialize.
Qed.

(** * C48 *)
Inductive query : Type := QPredict (X : mat T) | QTransform (X : mat T).
Definition ask (s : st) (q : query) : st * res (mat T) :=
  match q with QPredict X => predict c s X | QTransform X => transform c s X end.
(** the answers to a sequence of queries put to one object *)
Fixpoint answers (s : st) (qs : list query) : list (res (mat T)) :=
  match qs with [] => [] | q :: qs => snd (ask s q) :: answers (fst (ask s q)) qs end.

Definition same_model (s t : st) : Prop :=
  p_num_components s = p_num_components t /\ p_preprocessing s = p_preprocessing t /\ p_initialised s = p_initialised t /\
  p_class_mean s = p_class_mean t /\ p_class_std_dev s = p_class_std_dev t /\
  p_trans_predictors s = p_trans_predictors t /\ p_trans_response s = p_trans_response t /\ sim (p_own s) (p_own t).
Definition alike (s t : st) : Prop := same_model s t \/ (p_initialised s = false /\ p_initialised t = false).

Lemma alike_ask s t q : alike s t -> snd (ask s q) = snd (ask t q) /\ alike (fst (ask s q)) (fst (ask t q)).
Proof.
  intros [Hst|[Hs Ht]].
  - pose proof Hst as (E1 & E2 & E3 & E4 & E5 & E6 & E7 & Ho).
    destruct q as [X|X]; cbn [ask].
    + unfold predict. rewrite <- E3. destruct (p_initialised s) eqn:Ei; cbn [negb]; [|split; [reflexivity|left; exact Hst]].
      unfold do_predict. rewrite <- E1, <- E4, <- E5, <- E7.
      destruct (lw_predict _ _ _ Lf (p_num_components s) _ _ X Ho) as [Hr Hn].
      destruct (c_predict c (p_num_components s) (p_own s) X) as [a r], (c_predict c (p_num_components s) (p_own t) X) as [b r'].
      cbn in *. subst r'. split; [reflexivity|]. left. unfold same_model. cbn. repeat (split; [congruence|]). assumption.
    + unfold transform. rewrite <- E3. destruct (p_initialised s) eqn:Ei; cbn [negb]; [|split; [reflexivity|left; exact Hst]].
      rewrite <- E1. destruct (lw_transform _ _ _ Lf (p_num_components s) _ _ X Ho) as [Hr Hn].
      destruct (c_transform c (p_num_components s) (p_own s) X) as [a r], (c_transform c (p_num_components s) (p_own t) X) as [b r'].
      cbn in *. subst r'. split; [reflexivity|]. left. unfold same_model. cbn. repeat (split; [congruence|]). assumption.
  - destruct q as [X|X]; cbn [ask]; unfold predict, transform; rewrite Hs, Ht; cbn; (split; [reflexivity|right; auto]).
Qed.
Lemma alike_answers s t qs : alike s t -> answers s qs = answers t qs.
Proof.
  revert s t. induction qs as [|q qs IH]; intros s t Hst; [reflexivity|]. cbn [answers].
  destruct (alike_ask s t q Hst) as [-> Hn]. f_equal. now apply IH.
Qed.
Lemma initialize_alike s t X Y : params s = params t ->
  snd (initialize c s (Some X) (Some Y)) = snd (initialize c t (Some X) (Some Y)) /\
  alike (fst (initialize c s (Some X) (Some Y))) (fst (initialize c t (Some X) (Some Y))).
Proof.
  intros Hp. unfold params in Hp. injection Hp as E1 E2 E3.
  unfold initialize. destruct (check_data c Y) as [m|]; [split; [reflexivity|]; right; split; reflexivity|].
  unfold do_initialize. cbn [reset p_preprocessing]. rewrite <- E2.
  destruct (prepare c (p_preprocessing s) Y) as [[[[mean std] tp] tr]|e]; [|split; [reflexivity|]; right; split; reflexivity].
  destruct (pt_fit tp X) as [tp' [X'|e]]; [|split; [reflexivity|]; right; split; reflexivity].
  destruct (pt_fit tr Y) as [tr' [Y'|e]]; [|split; [reflexivity|]; right; split; reflexivity].
  cbn [set_prep reset p_num_components p_own]. rewrite <- E1.
  destruct (lw_train _ _ _ Lf (p_num_components s) _ _ X' Y' E3) as [Hr Hs].
  destruct (c_train c (p_num_components s) (c_reset c (p_own s)) X' Y') as [a r],
           (c_train c (p_num_components s) (c_reset c (p_own t)) X' Y') as [b r']. cbn [fst snd] in Hr, Hs. subst r'.
  destruct r as [[m|]|e].
  - split; [reflexivity|]. right. split; reflexivity.
  - split; [reflexivity|]. left. unfold same_model. cbn. repeat (split; [congruence|]). apply Hs. reflexivity.
  - split; [reflexivity|]. right. split; reflexivity.
Qed.

(** Two objects with equal parameters and arbitrary pasts, trained on the same data: same outcome,
    same answers to every sequence of queries. *)
Theorem C48_same_parameters (h1 h2 : list op) (X Y : mat T) (qs : list query) :
  params (pls_run c h1) = params (pls_run c h2) ->
  snd (initialize c (pls_run c h1) (Some X) (Some Y)) = snd (initialize c (pls_run c h2) (Some X) (Some Y)) /\
  answers (pls_run c (h1 ++ [OInitialize (Some X) (Some Y)])) qs = answers (pls_run c (h2 ++ [OInitialize (Some X) (Some Y)])) qs.
Proof.
  intros Hp. destruct (initialize_alike _ _ X Y Hp) as [Hr Ha]. split; [exact Hr|].
  unfold pls_run in *. rewrite !fold_left_app. cbn [fold_left pls_step]. now apply alike_answers.
Qed.

(** The property as stated: an object with an arbitrary past of training and use, trained on
    (X, Y), behaves as a new instance trained on (X, Y). *)
Definition no_assignment (o : op) : Prop :=
  match o with OSet _ => False | OInitialize None None => False | _ => True end.
Theorem C48_retraining (assignments : list (assignment K)) (past : list op) (X Y : mat T) (qs : list query) :
  Forall no_assignment past ->
  let used := pls_run c (map OSet assignments ++ past) in
  let fresh := pls_run c (map OSet assignments) in
  snd (initialize c used (Some X) (Some Y)) = snd (initialize c fresh (Some X) (Some Y)) /\
  answers (fst (initialize c used (Some X) (Some Y))) qs = answers (fst (initialize c fresh (Some X) (Some Y))) qs.
Proof.
  intros Hp used fresh. assert (params used = params fresh) as E0.
  { unfold used, fresh, pls_run. rewrite fold_left_app. generalize (fold_left (pls_step c) (map OSet assignments) (construct c)).
    induction Hp as [|o l Ho Hl IH]; intros s; [reflexivity|]. cbn [fold_left]. rewrite IH.
    destruct o as [[x|] [y|]|k| |x|x]; cbn in Ho; try contradiction; cbn [pls_step].
    - apply params_initialize.
    - reflexivity.
    - reflexivity.
    - apply params_reset.
    - apply params_predict.
    - apply params_transform. }
  destruct (initialize_alike _ _ X Y E0) as [Hr Ha]. split; [exact Hr|]. now apply alike_answers.
Qed.
End Laws.
End Life.
Print Assumptions C46_assignment.
Print Assumptions C47_trained_iff.
Print Assumptions C47_untrained_raises.
Print Assumptions C47_failed_initialize.
Print Assumptions C46_parameters_of_trained.
Print Assumptions C48_same_parameters.
Print Assumptions C48_retraining.
