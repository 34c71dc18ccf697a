(** C19: decomposition cache.  C20: frame property of the matrix API over histories.
    C63: method calls compute, from the current contents, what the pure functions say. *)
From Coq Require Import List ZArith Lia Bool Arith Permutation Reals Lra.
From Verif Require Import Base Num Mat M_Matrix M_Helper L_Eigen M_Heap S_Matrix L_Base L_Mat L_Matrix L_Heap P_Eigen.
Import ListNotations.
Local Open Scope nat_scope.

Section P.
Context {T : Type} `{Num T}.
Variable eig : mat T -> res (list T * mat T).
Variable svd : mat T -> res (mat T * list T * mat T).
Variable nexp ntanh : T -> T.
Variable npow : T -> T -> T.
Variable inv pinv : mat T -> res (mat T).
Variable lstsq : mat T -> mat T -> res (mat T).
Variable amax amedian : mat T -> res T.
Variable nan : T.
Notation heap := (@heap T).
Notation value := (@value T).
Notation call := (@call T).
Notation state := (@state T).
Notation run := (run eig svd nexp ntanh npow inv pinv lstsq amax amedian nan).
Notation step := (step eig svd nexp ntanh npow inv pinv lstsq amax amedian nan).
Notation exec := (exec eig svd nexp ntanh npow inv pinv lstsq amax amedian nan).
Notation unary_val := (unary_val nexp ntanh npow inv pinv lstsq).
Notation query_val := (query_val amax amedian nan).

(** the object a call is documented to change, if any *)
Definition mutated (c : call) : option nat :=
  match c with
  | K_set o _ _ _ | K_set_row o _ _ | K_set_column o _ _ | K_vector_op_modify _ o _ | K_fill_diagonal o _ => Some o
  | _ => None
  end.
Definition hands_out_V (c : call) : bool := match c with K_get_eig_V _ => true | _ => false end.
(** in-place operations that do not drop the cache *)
Definition writes_under_cache (c : call) : option nat :=
  match c with K_vector_op_modify _ o _ | K_fill_diagonal o _ => Some o | _ => None end.

(** What the call returns according to the pure functions of M_Matrix, given the
    contents of the matrices. *)
Definition pure_result (f : nat -> mat T) (c : call) : option (res (mat T + value)) :=
  let mat_ (r : res (mat T)) := Some (map_res inl r) in
  let val (r : res value) := Some (map_res inr r) in
  match c with
  | K_create m => mat_ (Ok m)
  | K_transpose o => mat_ (Ok (transpose (f o)))
  | K_copy o => mat_ (Ok (f o))
  | K_get_sub_matrix o r c => mat_ (get_sub_matrix (f o) r c)
  | K_get_rows o r => mat_ (get_rows (f o) r)
  | K_get_columns o c => mat_ (get_columns (f o) c)
  | K_get_row o i => mat_ (get_row (f o) i)
  | K_get_column o j => mat_ (get_column (f o) j)
  | K_head o n => mat_ (Ok (head (f o) n))
  | K_vector_op op o v => mat_ (vector_op op (f o) (f v))
  | K_scale_by_row_vector o v => mat_ (scale_by_row_vector (f o) (f v))
  | K_scale_by_column_vector o v => mat_ (scale_by_column_vector (f o) (f v))
  | K_apply_elementwise o b => mat_ (Ok (apply_elementwise (f o) b))
  | K_clip o l u => mat_ (clip (f o) l u)
  | K_svd_U o => mat_ (svd_U svd (f o))
  | K_svd_V o => mat_ (svd_V svd (f o))
  | K_svd_S o => mat_ (svd_S svd (f o))
  | K_unary u o => mat_ (unary_val u (f o))
  | K_binary b o p => mat_ (binary_val b (f o) (f p))
  | K_query q o => val (query_val q (f o))
  | K_vector_dot o p => val (map_res VNum (vector_dot (f o) (f p)))
  | K_same_shape_as o p => val (Ok (VBool (same_shape_as (f o) (f p))))
  | K_eq o p => val (if o =? p then Ok (VBool true) else map_res VBool (eq_mat (f o) (f p)))
  | _ => None
  end.
(** ... and what an in-place call leaves in its receiver. *)
Definition pure_effect (f : nat -> mat T) (c : call) : option (nat * res (mat T)) :=
  match c with
  | K_set o r c x => Some (o, set (f o) r c x)
  | K_set_row o i p => Some (o, set_row (f o) i (f p))
  | K_set_column o j p => Some (o, set_column (f o) j (f p))
  | K_vector_op_modify op o p => Some (o, vector_op_modify op (f o) (f p))
  | K_fill_diagonal o x => Some (o, Ok (fill_diagonal (f o) x))
  | _ => None
  end.
(** What a decomposition call on a matrix with contents m should report. *)
Definition decomposition (m : mat T) (c : call) : option (res (mat T)) :=
  match c with
  | K_get_eigenvectors _ s => Some (do p <- make_eig eig m; if s then get_eigenvectors_sorted (nr m) p false else Ok (snd p))
  | K_get_eig_V _ => Some (do p <- make_eig eig m; Ok (snd p))
  | K_get_eig_D _ => Some (do p <- make_eig eig m; vector_to_diagonal (fst p))
  | K_get_eigenvalues _ => Some (do p <- make_eig eig m; Ok (fst p))
  | K_get_eigenvalues_sorted _ a => Some (do p <- make_eig eig m; Ok (get_eigenvalues_sorted p a))
  | K_get_eigenvectors_sorted _ a => Some (do p <- make_eig eig m; get_eigenvectors_sorted (nr m) p a)
  | K_get_dominant_eigenvector _ => Some (do p <- make_eig eig m; get_dominant_eigenvector (nr m) p)
  | _ => None
  end.

(** the value returned is the matrix / value r *)
Definition returns (h : heap) (r : res value) (e : res (mat T + value)) : Prop :=
  match r, e with
  | Ok (VMat o), Ok (inl m) => is_mat (contents h o) (nr m) (nc m) (entry m)
  | Ok v, Ok (inr v') => v = v'
  | Err x, Err y => x = y
  | _, _ => False
  end.

(* ------------------------------------------------------------ master lemma *)
Definition Bof (h : heap) (c : call) : nat -> Prop :=
  match mutated c with Some o => eq (vbuf (o_data (the_obj h o))) | None => nobody end.
Definition eig_report (h : heap) (o : nat) (c : call) : option (res (mat T)) :=
  let nr_ := nr (contents h o) in
  match c with
  | K_get_eigenvectors _ s => Some (do p <- eig_val eig h o; if s then get_eigenvectors_sorted nr_ p false else Ok (snd p))
  | K_get_eig_V _ => Some (do p <- eig_val eig h o; Ok (snd p))
  | K_get_eig_D _ => Some (do p <- eig_val eig h o; vector_to_diagonal (fst p))
  | K_get_eigenvalues _ => Some (do p <- eig_val eig h o; Ok (fst p))
  | K_get_eigenvalues_sorted _ a => Some (do p <- eig_val eig h o; Ok (get_eigenvalues_sorted p a))
  | K_get_eigenvectors_sorted _ a => Some (do p <- eig_val eig h o; get_eigenvectors_sorted nr_ p a)
  | K_get_dominant_eigenvector _ => Some (do p <- eig_val eig h o; do w <- get_eigenvectors_sorted nr_ p false; get_column (norm_mat w) 0)
  | K_get_singular_values _ => Some (sv_val h o)
  | _ => None
  end.
Record good (h : heap) (c : call) (h' : heap) (r : res value) : Prop := {
  G_inv : Inv h';
  G_fr : fr (Bof h c) (fun o => In o (call_objs c)) h h';
  G_new : forall o, r = Ok (VMat o) -> o < length (objs h') /\
     ((length (objs h) <= o /\ length (bufs h) <= vbuf (o_data (the_obj h' o)) /\ uncached h' o /\ cached (the_obj h' o) = []) \/
      (exists p, c = K_get_eig_V p /\ In o (cached (the_obj h' p)) /\ p < length (objs h)));
  G_ok : forall o, o < length (objs h) -> writes_under_cache c <> Some o ->
     (forall p, mutated c = Some p -> ~ In p (cached (the_obj h o))) ->
     (eig_ok eig h o -> eig_ok eig h' o) /\ (svd_ok svd h o -> svd_ok svd h' o);
  G_pure : forall e, pure_result (contents h) c = Some e -> returns h' r e;
  G_eff : forall o e, pure_effect (contents h) c = Some (o, e) ->
     match r, e with
     | Ok _, Ok m => contents h' o = norm_mat m
     | Err x, Err y => x = y /\ contents h' o = contents h o
     | _, _ => False
     end;
  G_eig : forall o e, call_objs c = [o] -> eig_report h o c = Some e -> returns h' r (map_res inl e)
}.

Lemma norm_is_mat (A m : mat T) : A = norm_mat m -> is_mat A (nr m) (nc m) (entry m).
Proof. intros ->. apply is_mat_mk. Qed.

Lemma good_makes c x h val (X : nat -> Prop) : Inv h -> makes x X h val -> run c = vmat x -> mutated c = None -> writes_under_cache c = None ->
  (forall o, X o -> In o (call_objs c)) ->
  (forall o, o < length (objs h) -> X o -> (eig_ok eig h o -> eig_ok eig (fst (x h)) o) /\ (svd_ok svd h o -> svd_ok svd (fst (x h)) o)) ->
  (forall e, pure_result (contents h) c = Some e -> e = map_res inl val) ->
  pure_effect (contents h) c = None ->
  (forall o e, call_objs c = [o] -> eig_report h o c = Some e -> e = val) ->
  (forall o, {X o} + {~ X o}) ->
  good h c (fst (run c h)) (snd (run c h)).
Proof.
  intros I Hm Er Hmut Hw HX Hok Hp He Hg Hd. rewrite Er. unfold vmat, bindM, ret. unfold makes in Hm. destruct (x h) as [h1 r] eqn:Ex.
  destruct Hm as (I1 & F1 & Hv). cbn [fst] in Hok.
  assert (Fr : fr (Bof h c) (fun o => In o (call_objs c)) h h1).
  { unfold Bof. rewrite Hmut. eapply fr_weaken; [| |exact F1]; auto. }
  assert (Kk : forall o, o < length (objs h) -> (eig_ok eig h o -> eig_ok eig h1 o) /\ (svd_ok svd h o -> svd_ok svd h1 o)).
  { intros o Ho. destruct (Hd o) as [HXo|HXo]; [now apply Hok|].
    assert (Fn : forall a, a < length (objs h) -> contents h1 a = contents h a) by (intros a Ha; now apply (contents_fr0 X)).
    destruct (F_cache _ _ _ _ F1 o Ho HXo) as [Ee Es].
    split.
    - intros Hk a b E. rewrite Ee in E. rewrite !Fn by (auto; apply (I_cache _ I o); auto; unfold cached; rewrite E; apply in_or_app; left; cbn; auto). now apply Hk.
    - intros Hk a b d E. rewrite Es in E. rewrite !Fn by (auto; apply (I_cache _ I o); auto; unfold cached; rewrite E; apply in_or_app; right; cbn; auto). now apply Hk. }
  destruct r as [o1|e1], val as [m|e2]; try contradiction.
  - destruct Hv as (V1 & V2 & V3 & V4 & V5 & V6). cbn [fst snd]. split; auto.
    + intros o [= <-]. split; [assumption|]. left. auto.
    + intros e E. rewrite (Hp e E). cbn. now apply norm_is_mat.
    + intros o e E. rewrite He in E. discriminate.
    + intros o e E1 E2. rewrite (Hg o e E1 E2). cbn. now apply norm_is_mat.
  - subst e2. cbn [fst snd]. split; auto.
    + discriminate.
    + intros e E. rewrite (Hp e E). reflexivity.
    + intros o e E. rewrite He in E. discriminate.
    + intros o e E1 E2. rewrite (Hg o e E1 E2). reflexivity.
Qed.

Lemma good_query c h r : Inv h -> run c h = (h, r) -> mutated c = None -> (forall o, r <> Ok (VMat o)) ->
  (forall e, pure_result (contents h) c = Some e -> returns h r e) -> pure_effect (contents h) c = None ->
  (forall o, eig_report h o c = None) -> good h c (fst (run c h)) (snd (run c h)).
Proof.
  intros I Er Hm Hn Hp He Hg. rewrite Er. cbn [fst snd]. split; auto.
  - apply fr_refl.
  - intros o E. now destruct (Hn o).
  - intros o e E. rewrite He in E. discriminate.
  - intros o e _ E. rewrite Hg in E. discriminate.
Qed.

Lemma good_mutates c x o h val : Inv h -> o < length (objs h) -> mutates x o (eq o) h val -> run c = vnone x -> mutated c = Some o ->
  In o (call_objs c) ->
  (writes_under_cache c = Some o \/ resets x o h) ->
  pure_result (contents h) c = None -> pure_effect (contents h) c = Some (o, val) -> (forall p, eig_report h p c = None) ->
  good h c (fst (run c h)) (snd (run c h)).
Proof.
  intros I Ho Hm Er Hmut Hin Hw Hp He Hg. rewrite Er. unfold vnone, bindM, ret. unfold mutates, resets in *.
  destruct (x h) as [h1 r] eqn:Ex. destruct Hm as (I1 & F1 & Hv). cbn [fst] in *.
  assert (Fr : fr (Bof h c) (fun o => In o (call_objs c)) h h1).
  { unfold Bof. rewrite Hmut. eapply fr_weaken; [| |exact F1]; auto. intros k _ <-. exact Hin. }
  assert (Kk : forall o', o' < length (objs h) -> writes_under_cache c <> Some o' -> (forall p, mutated c = Some p -> ~ In p (cached (the_obj h o'))) ->
     (eig_ok eig h o' -> eig_ok eig h1 o') /\ (svd_ok svd h o' -> svd_ok svd h1 o')).
  { intros o' Ho' Hn Hc. specialize (Hc o Hmut). destruct (Nat.eq_dec o' o) as [->|Hne].
    - destruct Hw as [Hw|[[e Hw]|Hw]]; [congruence| |].
      + injection Hw as -> _. auto.
      + split; intros _; [intros a b E|intros a b d E]; unfold cached in Hw; rewrite E in Hw.
        * discriminate.
        * destruct (match o_eig (the_obj h1 o) with Some (a', b') => [a'; b'] | None => [] end); discriminate.
    - assert (Fn : forall a, a < length (objs h) -> a <> o -> contents h1 a = contents h a).
      { intros a Ha Hao. apply (contents_fr (eq (vbuf (o_data (the_obj h o)))) (eq o)); auto. intros E. now apply (I_sep _ I o a); auto. }
      destruct (F_cache _ _ _ _ F1 o' Ho' ltac:(congruence)) as [Ee Es].
      assert (Hca : forall p, In p (cached (the_obj h o')) -> contents h1 p = contents h p).
      { intros p Hpp. apply Fn; [now apply (I_cache _ I o')|]. intros ->. now apply Hc. }
      split.
      + intros Hk a b E. rewrite Ee in E. rewrite (Fn o' Ho' Hne), (Hca a), (Hca b) by (unfold cached; rewrite E; apply in_or_app; left; cbn; auto). now apply Hk.
      + intros Hk a b d E. rewrite Es in E. rewrite (Fn o' Ho' Hne), (Hca a), (Hca b), (Hca d) by (unfold cached; rewrite E; apply in_or_app; right; cbn; auto). now apply Hk. }
  destruct r as [u|e1]; cbn [fst snd]; split; auto; try discriminate.
  - intros e E. rewrite Hp in E. discriminate.
  - intros o' e E. rewrite He in E. injection E as <- <-. destruct val; [assumption|contradiction].
  - intros o' e _ E. rewrite Hg in E. discriminate.
  - intros e E. rewrite Hp in E. discriminate.
  - intros o' e E. rewrite He in E. injection E as <- <-. destruct val; [contradiction|assumption].
  - intros o' e _ E. rewrite Hg in E. discriminate.
Qed.

Lemma never_dec (o : nat) : {nobody o} + {~ nobody o}.
Proof. right. intros []. Qed.
Lemma mutates_weaken x o h val : mutates x o nobody h val -> mutates x o (eq o) h val.
Proof.
  unfold mutates. destruct (x h) as [h1 r]. intros (I1 & F1 & Hv). split; [assumption|]. split; [|assumption].
  eapply fr_weaken; [| |exact F1]; unfold nobody; tauto.
Qed.

Lemma eig_ok_same h h' o : Inv h -> o < length (objs h) -> fr nobody (eq o) h h' -> o_eig (the_obj h' o) = o_eig (the_obj h o) -> eig_ok eig h o -> eig_ok eig h' o.
Proof.
  intros I Ho F E Hk a b Es. rewrite E in Es.
  assert (Ha : forall p, In p [a; b] -> contents h' p = contents h p).
  { intros p Hp. apply (contents_fr0 (eq o)); auto. apply (I_cache _ I o p Ho). unfold cached. rewrite Es. apply in_or_app. now left. }
  rewrite (contents_fr0 (eq o) h h' o) by assumption. rewrite (Ha a), (Ha b) by (cbn; auto). now apply Hk.
Qed.

Lemma svd_of_make m : svd_of svd m = make_svd svd m.
Proof.
  unfold svd_of, make_svd. destruct (svd m) as [[[u s] v]|e]; [|reflexivity]. cbn [bind fst snd]. unfold mul_scalar, map_mat. rewrite !norm_mk. reflexivity.
Qed.

Lemma fr_others h h' o : Inv h -> fr nobody (eq o) h h' -> forall o', o' < length (objs h) -> o' <> o ->
  (eig_ok eig h o' -> eig_ok eig h' o') /\ (svd_ok svd h o' -> svd_ok svd h' o').
Proof.
  intros I F1 o' Ho Hn. 
  assert (Fn : forall a, a < length (objs h) -> contents h' a = contents h a) by (intros a Ha; now apply (contents_fr0 (eq o))).
  destruct (F_cache _ _ _ _ F1 o' Ho ltac:(congruence)) as [Ee Es].
  split.
  - intros Hk a b E. rewrite Ee in E. rewrite !Fn by (auto; apply (I_cache _ I o'); auto; unfold cached; rewrite E; apply in_or_app; left; cbn; auto). now apply Hk.
  - intros Hk a b d E. rewrite Es in E. rewrite !Fn by (auto; apply (I_cache _ I o'); auto; unfold cached; rewrite E; apply in_or_app; right; cbn; auto). now apply Hk.
Qed.

Lemma good_E c x o h val : Inv h -> o < length (objs h) -> makesE eig x o h val -> run c = vmat x -> call_objs c = [o] -> mutated c = None -> writes_under_cache c = None ->
  pure_result (contents h) c = None -> pure_effect (contents h) c = None -> (forall e, eig_report h o c = Some e -> e = val) ->
  good h c (fst (run c h)) (snd (run c h)).
Proof.
  intros I Ho (Hm & Hk & Hs) Er Ec Hmut Hw Hp He Hg. pose proof Hm as Hm0. unfold makes in Hm0. destruct (x h) as [h1 r] eqn:Ex. destruct Hm0 as (I1 & F1 & _). cbn [fst] in *.
  eapply good_makes; eauto; rewrite ?Ex.
  - rewrite Ec. intros o' <-. now left.
  - cbn [fst]. intros o' Ho' <-. split; [exact Hk|]. now apply svd_ok_same.
  - intros e E. rewrite Hp in E. discriminate.
  - intros o' e E. rewrite Ec in E. injection E as <-. apply Hg.
  - apply Nat.eq_dec.
Qed.
Lemma good_S c x o h val : Inv h -> o < length (objs h) -> makesS svd x o h val -> run c = vmat x -> call_objs c = [o] -> mutated c = None -> writes_under_cache c = None ->
  (forall e, pure_result (contents h) c = Some e -> e = map_res inl val) -> pure_effect (contents h) c = None -> eig_report h o c = None ->
  good h c (fst (run c h)) (snd (run c h)).
Proof.
  intros I Ho (Hm & Hk & Hs) Er Ec Hmut Hw Hp He Hg. pose proof Hm as Hm0. unfold makes in Hm0. destruct (x h) as [h1 r] eqn:Ex. destruct Hm0 as (I1 & F1 & _). cbn [fst] in *.
  eapply good_makes; eauto; rewrite ?Ex.
  - rewrite Ec. intros o' <-. now left.
  - cbn [fst]. intros o' Ho' <-. split; [|exact Hk]. now apply eig_ok_same.
  - intros o' e E. rewrite Ec in E. injection E as <-. rewrite Hg. discriminate.
  - apply Nat.eq_dec.
Qed.

Ltac simple_makes I L := eapply (good_makes _ _ _ _ nobody I L); try reflexivity;
  [now intros ? []|now intros ? _ []|try (intros e [= <-]; reflexivity)|try discriminate|exact never_dec].

Lemma run_good c h : Inv h -> (forall o, In o (call_objs c) -> o < length (objs h)) -> good h c (fst (run c h)) (snd (run c h)).
Proof.
  intros I Hc. destruct c; cbn [call_objs] in Hc.
  - simple_makes I (makes_fresh nobody h (Ok m) I).
  - simple_makes I (makes_transpose o nobody h I).
  - simple_makes I (makes_m_copy o nobody h I).
  - simple_makes I (makes_sub_matrix o rows columns nobody h I).
  - assert (Hm : makes (bindM (m_contents o) (fun m => m_get_sub_matrix o rows (STuple 0 (Z.of_nat (nc m))))) nobody h (get_rows (contents h o) rows))
      by exact (makes_sub_matrix o rows _ nobody h I). simple_makes I Hm.
  - assert (Hm : makes (bindM (m_contents o) (fun m => m_get_sub_matrix o (STuple 0 (Z.of_nat (nr m))) columns)) nobody h (get_columns (contents h o) columns))
      by exact (makes_sub_matrix o _ columns nobody h I). simple_makes I Hm.
  - simple_makes I (makes_get_row o i nobody h I).
  - simple_makes I (makes_get_column o j nobody h I).
  - simple_makes I (makes_head o n nobody h I).
  - pose proof (Hc o (or_introl eq_refl)) as Ho. destruct (mutates_set o row column x h I (Hc o (or_introl eq_refl))) as [Hm Hk].
    eapply good_mutates; eauto; try reflexivity; [now left|]. right. now right.
  - pose proof (Hc o (or_introl eq_refl)) as Ho. destruct (mutates_set_row o i row h I (Hc o (or_introl eq_refl)) (Hc row (or_intror (or_introl eq_refl)))) as [Hm Hk].
    eapply good_mutates; eauto; try reflexivity. now left.
  - pose proof (Hc o (or_introl eq_refl)) as Ho. destruct (mutates_set_column o j column h I (Hc o (or_introl eq_refl)) (Hc column (or_intror (or_introl eq_refl)))) as [Hm Hk].
    eapply good_mutates; eauto; try reflexivity. now left.
  - pose proof (Hc o (or_introl eq_refl)) as Ho. pose proof (mutates_weaken _ _ _ _ (mutates_modify op o vec h I (Hc o (or_introl eq_refl)))) as Hm.
    eapply good_mutates; eauto; try reflexivity; now left.
  - pose proof (Hc o (or_introl eq_refl)) as Ho. pose proof (mutates_weaken _ _ _ _ (mutates_fill o x h I (Hc o (or_introl eq_refl)))) as Hm.
    eapply good_mutates; eauto; try reflexivity; now left.
  - simple_makes I (makes_vector_op op o vec nobody h I (Hc vec (or_intror (or_introl eq_refl)))).
  - simple_makes I (makes_scale_row o vec nobody h I (Hc o (or_introl eq_refl)) (Hc vec (or_intror (or_introl eq_refl)))).
  - simple_makes I (makes_scale_col o vec nobody h I (Hc vec (or_intror (or_introl eq_refl)))).
  - simple_makes I (makes_apply_elementwise body o nobody h I).
  - simple_makes I (makes_clip lower upper o nobody h I).
  - (* reset_cache *)
    pose proof (Hc o (or_introl eq_refl)) as Ho. destruct (reset_cache_spec o h I Ho) as (h1 & E1 & I1 & F1 & B1 & L1 & O1).
    assert (Er : run (K_reset_cache o) h = (h1, Ok VNone)) by (cbn [M_Heap.run]; unfold vnone, bindM, ret; now rewrite E1).
    rewrite Er. cbn [fst snd]. split; auto; try discriminate.
    + eapply fr_weaken; [| |exact F1]; [unfold nobody; tauto|]. intros k _ <-. now left.
    + intros o' Ho' _ _. destruct (Nat.eq_dec o' o) as [->|Hn]; [|now apply (fr_others h h1 o I F1)].
      split; intros _; [intros a b E|intros a b d E]; rewrite O1 in E; discriminate.
  - (* get_eigenvectors *)
    pose proof (Hc o (or_introl eq_refl)) as Ho. destruct sort_dominance.
    + eapply (good_E _ _ o h _ I Ho (makes_get_eigenvectors_sorted eig o false h I Ho)); try reflexivity. intros e [= <-]. reflexivity.
    + eapply (good_E _ _ o h _ I Ho (makes_get_eigenvectors eig o h I Ho)); try reflexivity. intros e [= <-]. reflexivity.
  - (* get_eig_V *)
    pose proof (Hc o (or_introl eq_refl)) as Ho. pose proof (m_make_eig_spec eig o h I Ho) as Hm.
    cbn [M_Heap.run]. unfold vmat, m_get_eig_V, bindM, ret.
    assert (Hfr : forall h1, fr nobody (eq o) h h1 -> fr (Bof h (K_get_eig_V o)) (fun p => In p (call_objs (K_get_eig_V o : call))) h h1).
    { intros h1 F1. eapply fr_weaken; [| |exact F1]; [unfold nobody; tauto|]. intros k _ <-. now left. }
    destruct (m_make_eig eig o h) as [h1 [[a b]|e]].
    + destruct Hm as (I1 & F1 & Sv & Hm). destruct (eig_val eig h o) as [[l w]|e] eqn:Ev; [|contradiction].
      destruct Hm as (A1 & A2 & A3 & A4 & A5 & A6 & A7). cbn [fst snd]. split; auto; try discriminate.
      * intros o' [= <-]. split; [assumption|]. right. exists o. split; [reflexivity|]. split; [|assumption].
        unfold cached. rewrite A5. apply in_or_app. left. right. now left.
      * intros o' Ho' _ _. destruct (Nat.eq_dec o' o) as [->|Hn]; [|now apply (fr_others h h1 o I F1)].
        split; [|now apply svd_ok_same]. intros Hk a' b' E. rewrite A5 in E. injection E as <- <-.
        rewrite (contents_fr0 (eq o) h h1 o F1 I Ho), A3, A4, <- Ev. symmetry. now apply eig_ok_val.
      * intros o' e [= <-] E. cbn [eig_report] in E. rewrite Ev in E. injection E as <-. cbn [bind snd map_res returns]. rewrite A4.
        rewrite <- A4. apply is_mat_self. apply contents_wf.
    + destruct Hm as (I1 & F1 & Sv & Hm). destruct (eig_val eig h o) as [[l w]|e'] eqn:Ev; [contradiction|]. destruct Hm as [-> Hn].
      cbn [fst snd]. split; auto; try discriminate.
      * intros o' Ho' _ _. destruct (Nat.eq_dec o' o) as [->|Hne]; [|now apply (fr_others h h1 o I F1)].
        split; [|now apply svd_ok_same]. intros Hk a' b' E. congruence.
      * intros o' e [= <-] E. cbn [eig_report] in E. rewrite Ev in E. injection E as <-. reflexivity.
  - pose proof (Hc o (or_introl eq_refl)) as Ho.
    eapply (good_E _ _ o h _ I Ho (makes_get_eig_D eig o h I Ho)); try reflexivity. intros e [= <-]. reflexivity.
  - pose proof (Hc o (or_introl eq_refl)) as Ho.
    eapply (good_E _ _ o h _ I Ho (makes_get_eigenvalues eig o h I Ho)); try reflexivity. intros e [= <-]. reflexivity.
  - pose proof (Hc o (or_introl eq_refl)) as Ho.
    eapply (good_E _ _ o h _ I Ho (makes_get_eigenvalues_sorted eig o ascending h I Ho)); try reflexivity. intros e [= <-]. reflexivity.
  - pose proof (Hc o (or_introl eq_refl)) as Ho.
    eapply (good_E _ _ o h _ I Ho (makes_get_eigenvectors_sorted eig o ascending h I Ho)); try reflexivity. intros e [= <-]. reflexivity.
  - pose proof (Hc o (or_introl eq_refl)) as Ho.
    eapply (good_E _ _ o h _ I Ho (makes_dominant eig o h I Ho)); try reflexivity. intros e [= <-]. reflexivity.
  - (* make_eig *)
    pose proof (Hc o (or_introl eq_refl)) as Ho. pose proof (m_make_eig_spec eig o h I Ho) as Hm.
    cbn [M_Heap.run]. unfold vnone, bindM, ret.
    assert (Hfr : forall h1, fr nobody (eq o) h h1 -> fr (Bof h (K_make_eig o)) (fun p => In p (call_objs (K_make_eig o : call))) h h1).
    { intros h1 F1. eapply fr_weaken; [| |exact F1]; [unfold nobody; tauto|]. intros k _ <-. now left. }
    destruct (m_make_eig eig o h) as [h1 [[a b]|e]].
    + destruct Hm as (I1 & F1 & Sv & Hm). destruct (eig_val eig h o) as [[l w]|e] eqn:Ev; [|contradiction].
      destruct Hm as (A1 & A2 & A3 & A4 & A5 & A6 & A7). cbn [fst snd]. split; auto; try discriminate.
      intros o' Ho' _ _. destruct (Nat.eq_dec o' o) as [->|Hn]; [|now apply (fr_others h h1 o I F1)].
      split; [|now apply svd_ok_same]. intros Hk a' b' E. rewrite A5 in E. injection E as <- <-.
      rewrite (contents_fr0 (eq o) h h1 o F1 I Ho), A3, A4, <- Ev. symmetry. now apply eig_ok_val.
    + destruct Hm as (I1 & F1 & Sv & Hm). destruct (eig_val eig h o) as [[l w]|e'] eqn:Ev; [contradiction|]. destruct Hm as [-> Hn].
      cbn [fst snd]. split; auto; try discriminate.
      intros o' Ho' _ _. destruct (Nat.eq_dec o' o) as [->|Hne]; [|now apply (fr_others h h1 o I F1)].
      split; [|now apply svd_ok_same]. intros Hk a' b' E. congruence.
  - (* make_svd *)
    pose proof (Hc o (or_introl eq_refl)) as Ho. pose proof (m_make_svd_spec svd o h I Ho) as Hm.
    cbn [M_Heap.run]. unfold vnone, bindM, ret.
    assert (Hfr : forall h1, fr nobody (eq o) h h1 -> fr (Bof h (K_make_svd o)) (fun p => In p (call_objs (K_make_svd o : call))) h h1).
    { intros h1 F1. eapply fr_weaken; [| |exact F1]; [unfold nobody; tauto|]. intros k _ <-. now left. }
    destruct (m_make_svd svd o h) as [h1 [[[a b] d]|e]].
    + destruct Hm as (I1 & F1 & Sv & Hm). destruct (svd_of svd (contents h o)) as [[[u s] w]|e] eqn:Ev; [|contradiction].
      destruct Hm as (A1 & A2 & A3 & _ & _ & _ & A4 & A5 & A6 & A7). cbn [fst snd]. split; auto; try discriminate.
      intros o' Ho' _ _. destruct (Nat.eq_dec o' o) as [->|Hn]; [|now apply (fr_others h h1 o I F1)].
      split; [now apply eig_ok_same|]. intros Hk a' b' d' E. rewrite A7 in E. injection E as <- <- <-.
      rewrite (contents_fr0 (eq o) h h1 o F1 I Ho), A4, A5, A6, <- Ev. reflexivity.
    + destruct Hm as (I1 & F1 & Sv & Hm). destruct (svd_of svd (contents h o)) as [[[u s] w]|e'] eqn:Ev; [contradiction|]. destruct Hm as [-> Hn].
      cbn [fst snd]. split; auto; try discriminate.
      intros o' Ho' _ _. destruct (Nat.eq_dec o' o) as [->|Hne]; [|now apply (fr_others h h1 o I F1)].
      split; [now apply eig_ok_same|now apply svd_ok_same].
  - pose proof (Hc o (or_introl eq_refl)) as Ho.
    eapply (good_S _ _ o h _ I Ho (makes_svd_U svd o h I Ho)); try reflexivity. intros e [= <-]. unfold svd_U. now rewrite svd_of_make.
  - pose proof (Hc o (or_introl eq_refl)) as Ho.
    eapply (good_S _ _ o h _ I Ho (makes_svd_V svd o h I Ho)); try reflexivity. intros e [= <-]. unfold svd_V. now rewrite svd_of_make.
  - pose proof (Hc o (or_introl eq_refl)) as Ho.
    eapply (good_S _ _ o h _ I Ho (makes_svd_S svd o h I Ho)); try reflexivity. intros e [= <-]. unfold svd_S. now rewrite svd_of_make.
  - eapply (good_makes _ _ _ _ nobody I (makes_get_singular_values o nobody h I)); try reflexivity;
      [now intros ? []|now intros ? _ []|discriminate|now intros o' e [= <-] [= <-]|exact never_dec].
  - simple_makes I (makes_unary o (unary_val u) nobody h I).
  - simple_makes I (makes_binary o p (binary_val b) nobody h I).
  - eapply good_query; try reflexivity; try assumption.
    + intros o'. destruct q; cbn; unfold map_res, num_of, bind; repeat match goal with |- context [match ?x with _ => _ end] => destruct x end; discriminate.
    + intros e [= <-]. unfold returns. destruct q; cbn; unfold map_res, num_of, bind; repeat match goal with |- context [match ?x with _ => _ end] => destruct x end; reflexivity.
  - eapply good_query; try reflexivity; try assumption.
    + intros o'. unfold map_res. destruct (vector_dot _ _); discriminate.
    + intros e [= <-]. unfold returns, map_res. destruct (vector_dot _ _); reflexivity.
  - eapply good_query; try reflexivity; try assumption.
    + discriminate.
    + intros e [= <-]. reflexivity.
  - eapply (good_query _ _ (if o =? p then Ok (VBool true) else map_res VBool (eq_mat (contents h o) (contents h p)))); try reflexivity; try assumption.
    + cbn [M_Heap.run]. destruct (o =? p); reflexivity.
    + intros o'. destruct (o =? p); [discriminate|]. unfold map_res. destruct (eq_mat _ _); discriminate.
    + intros e [= <-]. unfold returns. destruct (o =? p); [reflexivity|]. unfold map_res. destruct (eq_mat _ _); reflexivity.
Qed.

(* ------------------------------------------------------------ histories *)
Definition SInv (s : state) : Prop := Inv (hp s) /\ forall o, In o (env s) -> o < length (objs (hp s)).
Lemma start_inv : SInv (@start T).
Proof.
  split; [|intros o []]. split; cbn; try (intros; lia).
Qed.
Lemma step_good (s : state) c : SInv s ->
  (step s c = (s, Err AttributeError) /\ exists o, In o (call_objs c) /\ ~ In o (env s)) \/
  (good (hp s) c (hp (fst (step s c))) (snd (step s c)) /\ (forall o, In o (call_objs c) -> In o (env s)) /\
   env (fst (step s c)) = match snd (step s c) with Ok (VMat o) => env s ++ [o] | _ => env s end).
Proof.
  intros [I He]. unfold M_Heap.step. destruct (forallb _ (call_objs c)) eqn:E.
  - right. rewrite forallb_forall in E.
    assert (Hin : forall o, In o (call_objs c) -> In o (env s)).
    { intros o Ho. specialize (E o Ho). apply existsb_exists in E as (o' & Ho' & Eo). apply Nat.eqb_eq in Eo. now subst. }
    pose proof (run_good c (hp s) I (fun o Ho => He o (Hin o Ho))) as G. destruct (run c (hp s)) as [h r]. cbn [fst snd hp env] in *. auto.
  - left. split; [reflexivity|]. assert (Hx : ~ forall o, In o (call_objs c) -> existsb (Nat.eqb o) (env s) = true).
    { intros Hx. rewrite <- forallb_forall in Hx. congruence. }
    revert Hx. clear. induction (call_objs c) as [|o l IH]; intros Hx.
    + destruct Hx. intros o [].
    + destruct (existsb (Nat.eqb o) (env s)) eqn:E.
      * destruct IH as (o' & H1 & H2). { intros Hy. apply Hx. intros o' [<-|Ho']; auto. } exists o'. split; [now right|assumption].
      * exists o. split; [now left|]. intros Hin. assert (existsb (Nat.eqb o) (env s) = true); [|congruence].
        apply existsb_exists. exists o. split; [assumption|apply Nat.eqb_refl].
Qed.
Lemma step_inv s c : SInv s -> SInv (fst (step s c)).
Proof.
  intros Hs. destruct (step_good s c Hs) as [[E _]|(G & Hin & Ee)]; [now rewrite E|].
  destruct Hs as [I He]. split; [apply G|]. rewrite Ee. pose proof (F_no _ _ _ _ (G_fr _ _ _ _ G)).
  destruct (snd (step s c)) as [[]|] eqn:Er; try (intros o' Ho'; specialize (He o' Ho'); lia).
  intros o' Ho'. apply in_app_or in Ho' as [Ho'|[<-|[]]]; [specialize (He o' Ho'); lia|]. now apply (G_new _ _ _ _ G).
Qed.
Lemma exec_inv cs : forall s, SInv s -> SInv (exec s cs).
Proof. induction cs as [|c cs IH]; intros s Hs; cbn [M_Heap.exec]; [assumption|]. apply IH. now apply step_inv. Qed.
Lemma reach_inv cs : SInv (exec start cs).
Proof. apply exec_inv, start_inv. Qed.
Lemma exec_app cs ds : forall s, exec s (cs ++ ds) = exec (exec s cs) ds.
Proof. induction cs as [|c cs IH]; intros s; [reflexivity|]. cbn [app M_Heap.exec]. apply IH. Qed.
Lemma step_env_mono s c o : In o (env s) -> In o (env (fst (step s c))).
Proof.
  unfold M_Heap.step. destruct (forallb _ _); [|auto]. destruct (run c (hp s)) as [h r]. cbn [fst env]. intros Ho.
  destruct r as [[]|]; auto. apply in_or_app. now left.
Qed.

(** C20, one call, after any history: an existing matrix changes only if it is the
    receiver of set, set_row, set_column, *_modify or fill_diagonal. *)
Theorem C20_frame (cs : list call) (c : call) (o : nat) :
  let s := exec start cs in
  In o (env s) -> mutated c <> Some o ->
  contents (hp (fst (step s c))) o = contents (hp s) o.
Proof.
  cbv zeta. intros Ho Hm. pose proof (reach_inv cs) as Hs. destruct (step_good _ c Hs) as [[E _]|(G & Hin & _)]; [now rewrite E|].
  destruct Hs as [I He]. apply (contents_fr _ _ _ _ o (G_fr _ _ _ _ G) I (He o Ho)). unfold Bof.
  destruct (mutated c) as [p|] eqn:Ep; [|intros []]. intros E.
  assert (Hp : In p (env (exec start cs))). { apply Hin. destruct c; cbn in Ep; try discriminate; injection Ep as ->; now left. }
  apply (I_sep _ I p o); auto; congruence.
Qed.

(** ... and over whole histories: however long the history [ds], with any aliasing
    among the arguments, a matrix not mutated by it keeps its contents. *)
Theorem C20_history (cs ds : list call) (o : nat) :
  In o (env (exec start cs)) -> (forall c, In c ds -> mutated c <> Some o) ->
  contents (hp (exec start (cs ++ ds))) o = contents (hp (exec start cs)) o.
Proof.
  revert cs. induction ds as [|c ds IH]; intros cs Ho Hd; [now rewrite app_nil_r|].
  replace (cs ++ c :: ds) with ((cs ++ [c]) ++ ds) by now rewrite <- app_assoc.
  assert (E1 : exec start (cs ++ [c]) = fst (step (exec start cs) c)) by (rewrite exec_app; reflexivity).
  rewrite IH.
  - rewrite E1. apply C20_frame; [assumption|]. apply Hd. now left.
  - rewrite E1. now apply step_env_mono.
  - intros c' Hc'. apply Hd. now right.
Qed.

(** Every call except get_eigenvalue_decomposition_V that returns a matrix returns a
    new object, and no two matrices a client holds share storage. *)
Theorem C20_results_are_new (cs : list call) (c : call) (o : nat) :
  let s := exec start cs in
  snd (step s c) = Ok (VMat o) -> hands_out_V c = false ->
  ~ In o (env s) /\ In o (env (fst (step s c))).
Proof.
  cbv zeta. intros Er Hv. pose proof (reach_inv cs) as Hs. destruct (step_good _ c Hs) as [[E _]|(G & Hin & Ee)].
  { rewrite E in Er. discriminate. }
  destruct Hs as [I He]. destruct (G_new _ _ _ _ G o Er) as [Ho [(N1 & N2 & _)|(p & -> & _)]]; [|discriminate].
  split. { intros Hx. specialize (He o Hx). lia. }
  rewrite Ee, Er. apply in_or_app. right. now left.
Qed.
Theorem C20_no_shared_storage (cs : list call) (o o' : nat) :
  let s := exec start cs in
  In o (env s) -> In o' (env s) -> o <> o' ->
  vbuf (o_data (the_obj (hp s) o)) <> vbuf (o_data (the_obj (hp s) o')).
Proof. cbv zeta. intros Ho Ho' Hn. destruct (reach_inv cs) as [I He]. apply (I_sep _ I); auto. Qed.

(** C63: results and effects are those of the pure functions, after any history. *)
Theorem C63_results (cs : list call) (c : call) e :
  let s := exec start cs in
  (forall o, In o (call_objs c) -> In o (env s)) ->
  pure_result (contents (hp s)) c = Some e ->
  returns (hp (fst (step s c))) (snd (step s c)) e.
Proof.
  cbv zeta. intros Hin He. destruct (step_good _ c (reach_inv cs)) as [[_ (o & H1 & H2)]|(G & _ & _)]; [destruct (H2 (Hin o H1))|].
  now apply (G_pure _ _ _ _ G).
Qed.
Theorem C63_effects (cs : list call) (c : call) o e :
  let s := exec start cs in
  (forall o, In o (call_objs c) -> In o (env s)) ->
  pure_effect (contents (hp s)) c = Some (o, e) ->
  match snd (step s c), e with
  | Ok v, Ok m => v = VNone /\ is_mat (contents (hp (fst (step s c))) o) (nr m) (nc m) (entry m)
  | Err x, Err y => x = y /\ contents (hp (fst (step s c))) o = contents (hp s) o
  | _, _ => False
  end.
Proof.
  cbv zeta. intros Hin He. destruct (step_good _ c (reach_inv cs)) as [[_ (o' & H1 & H2)]|(G & Hi & _)]; [destruct (H2 (Hin o' H1))|].
  pose proof (G_eff _ _ _ _ G o e He) as Hg.
  assert (Hn : forall v, snd (step (exec start cs) c) = Ok v -> v = VNone).
  { intros v. unfold M_Heap.step. destruct (forallb _ _); [|discriminate].
    destruct c; try discriminate He; cbn [M_Heap.run]; unfold vnone, bindM at 1, ret;
    match goal with |- context [match ?x (hp ?s) with _ => _ end] => destruct (x (hp s)) as [h1 [u|e1]] end; cbn [snd]; congruence. }
  destruct (snd (step (exec start cs) c)) as [v|x], e as [m|y]; try contradiction; [|assumption].
  split; [now apply Hn|]. now apply norm_is_mat.
Qed.

(* ------------------------------------------------------------ C19 *)
(** Calls that leave o without a stale cache: successful set, set_row, set_column,
    reset_cache on o, or the call that created o. *)
Definition refreshes (c : call) (r : res value) (o : nat) : Prop :=
  match c with
  | K_set o' _ _ _ | K_set_row o' _ _ | K_set_column o' _ _ | K_reset_cache o' => o' = o /\ exists v, r = Ok v
  | K_get_eig_V _ => False
  | _ => r = Ok (VMat o)
  end.
(** A history in which o is not written behind the cache's back: no *_modify or
    fill_diagonal on o, and no in-place call on a matrix that
    get_eigenvalue_decomposition_V(o) has handed out. *)
Definition handed_after (c : call) (r : res value) (o : nat) (handed : list nat) : list nat :=
  match c, r with
  | K_get_eig_V o', Ok (VMat p) => if o' =? o then p :: handed else handed
  | _, _ => handed
  end.
Fixpoint undisturbed (s : state) (o : nat) (handed : list nat) (ds : list call) : Prop :=
  match ds with
  | [] => True
  | c :: ds' =>
      writes_under_cache c <> Some o /\ (forall p, mutated c = Some p -> ~ In p handed) /\
      undisturbed (fst (step s c)) o (handed_after c (snd (step s c)) o handed) ds'
  end.
Record J (s : state) (o : nat) (handed : list nat) : Prop := {
  J_inv : SInv s;
  J_in : In o (env s);
  J_handed : forall p, In p (cached (the_obj (hp s) o)) -> In p (env s) -> In p handed;
  J_eig : eig_ok eig (hp s) o;
  J_svd : svd_ok svd (hp s) o
}.

Lemma J_step s o handed c : J s o handed -> writes_under_cache c <> Some o -> (forall p, mutated c = Some p -> ~ In p handed) ->
  J (fst (step s c)) o (handed_after c (snd (step s c)) o handed).
Proof.
  intros [Hs Hin Hh He Hv] Hw Hm. pose proof (step_inv s c Hs) as Hs'. pose proof (step_env_mono s c o Hin) as Hin'.
  destruct (step_good s c Hs) as [[E _]|(G & Hi & Ee)].
  { rewrite E. cbn [fst snd]. assert (Hj : J s o handed) by (split; assumption). destruct c; exact Hj. }
  destruct Hs as [I Hl].
  destruct (G_ok _ _ _ _ G o (Hl o Hin) Hw) as [K1 K2].
  { intros p Hp Hc. apply (Hm p Hp). apply Hh; [assumption|]. apply Hi. destruct c; cbn in Hp; try discriminate; injection Hp as ->; now left. }
  split; auto. intros p Hp Hpe. destruct Hs' as [I' Hl'].
  assert (Hmono : forall r l, In p l -> In p (handed_after c r o l)).
  { intros r l Hpl. destruct c; auto. destruct r as [[]|]; auto. cbn. destruct (_ =? _); [now right|assumption]. }
  rewrite Ee in Hpe.
  destruct (F_new _ _ _ _ (G_fr _ _ _ _ G) o p (Hl' o Hin') Hp) as [Hnew|[_ Hold]].
  - (* a new cached object: it is in env only if this call handed it out *)
    destruct (snd (step s c)) as [v|e] eqn:Er; [|specialize (Hl p Hpe); lia].
    destruct v; try (specialize (Hl p Hpe); lia). apply in_app_or in Hpe as [Hpe|[<-|[]]]; [specialize (Hl p Hpe); lia|].
    destruct (G_new _ _ _ _ G o0 eq_refl) as [_ [(_ & _ & U & _)|(q & -> & Hq & Hql)]].
    + destruct (U o (Hl' o Hin') Hp).
    + assert (q = o). { apply (I_own _ I' q o o0); auto. pose proof (F_no _ _ _ _ (G_fr _ _ _ _ G)). lia. }
      subst q. cbn [handed_after]. rewrite Nat.eqb_refl. now left.
  - destruct (snd (step s c)) as [v|e] eqn:Er; [|now apply Hmono, Hh].
    destruct v; try (now apply Hmono, Hh). apply in_app_or in Hpe as [Hpe|[<-|[]]]; [now apply Hmono, Hh|].
    destruct (G_new _ _ _ _ G o0 eq_refl) as [_ [(_ & _ & U & _)|(q & -> & Hq & Hql)]].
    + destruct (U o (Hl' o Hin') Hp).
    + assert (q = o). { apply (I_own _ I' q o o0); auto. pose proof (F_no _ _ _ _ (G_fr _ _ _ _ G)). lia. }
      subst q. cbn [handed_after]. rewrite Nat.eqb_refl. now left.
Qed.
Lemma J_exec ds : forall s o handed, J s o handed -> undisturbed s o handed ds -> exists handed', J (exec s ds) o handed'.
Proof.
  induction ds as [|c ds IH]; intros s o handed Hj Hu; cbn [M_Heap.exec]; [eauto|]. cbn [undisturbed] in Hu. destruct Hu as (U1 & U2 & U3).
  eapply IH; [|exact U3]. now apply J_step.
Qed.
Lemma refreshed_J s w o : SInv s -> refreshes w (snd (step s w)) o -> J (fst (step s w)) o [].
Proof.
  intros Hs Hr. pose proof (step_inv s w Hs) as Hs'. destruct (step_good s w Hs) as [[E _]|(G & Hi & Ee)].
  { exfalso. rewrite E in Hr. cbn [snd] in Hr. destruct w; cbn in Hr; try discriminate; try contradiction; destruct Hr as (_ & v & Hr); discriminate. }
  assert (Hc : cached (the_obj (hp (fst (step s w))) o) = [] /\ In o (env (fst (step s w)))).
  { assert (Hnew : hands_out_V w = false -> snd (step s w) = Ok (VMat o) -> cached (the_obj (hp (fst (step s w))) o) = [] /\ In o (env (fst (step s w)))).
    { intros Hv E. rewrite Ee, E. destruct (G_new _ _ _ _ G o E) as [_ [(_ & _ & _ & Q)|(p & -> & _)]]; [|discriminate].
      split; [assumption|]. apply in_or_app. right. now left. }
    destruct Hs as [I Hl].
    assert (Hres : forall x : M unit, (exists v, snd (step s w) = Ok v) -> run w = vnone x -> In o (call_objs w) -> 
              ((exists e, x (hp s) = (hp s, Err e)) \/ cached (the_obj (fst (x (hp s))) o) = []) ->
              cached (the_obj (hp (fst (step s w))) o) = [] /\ In o (env (fst (step s w)))).
    { intros x (v & Ev) Ex Ho Hx. split; [|apply step_env_mono, Hi, Ho].
      revert Ev. unfold M_Heap.step. destruct (forallb _ _); [|discriminate]. rewrite Ex. unfold vnone, bindM, ret.
      destruct (x (hp s)) as [h1 [u|e]] eqn:E1; cbn [fst snd hp]; [|discriminate]. intros _. destruct Hx as [[e Hx]|Hx]; [discriminate|exact Hx]. }
    destruct w; cbn [refreshes] in Hr; try (now apply Hnew); try contradiction; destruct Hr as [-> Hr].
    - apply (Hres (m_set o row column x) Hr eq_refl (or_introl eq_refl)). right. apply mutates_set; [assumption|]. apply Hl, Hi. now left.
    - apply (Hres (m_set_row o i row) Hr eq_refl (or_introl eq_refl)). apply (mutates_set_row o i row); [assumption|apply Hl, Hi; now left|apply Hl, Hi; right; now left].
    - apply (Hres (m_set_column o j column) Hr eq_refl (or_introl eq_refl)). apply (mutates_set_column o j column); [assumption|apply Hl, Hi; now left|apply Hl, Hi; right; now left].
    - apply (Hres (reset_cache o) Hr eq_refl (or_introl eq_refl)). right.
      destruct (reset_cache_spec o (hp s) I (Hl o (Hi o (or_introl eq_refl)))) as (h1 & E1 & _ & _ & _ & _ & O1). rewrite E1. cbn [fst]. rewrite O1. reflexivity. }
  destruct Hc as [Hc Hin]. split; auto.
  - rewrite Hc. intros p [].
  - intros a b E. unfold cached in Hc. rewrite E in Hc. discriminate.
  - intros a b d E. unfold cached in Hc. rewrite E in Hc. destruct (match o_eig _ with Some _ => _ | None => _ end); discriminate.
Qed.

Lemma get_column_norm (m : mat T) j : get_column (norm_mat m) j = get_column m j.
Proof.
  unfold get_column, norm_mat. rewrite nc_mk, nr_mk. destruct (npidx (nc m) j) as [k|e] eqn:E; [|reflexivity]. cbn [bind]. f_equal. f_equal.
  apply npidx_lt in E. apply mk_ext. intros a b Ha Hb. now apply entry_mk.
Qed.

(** C19, the part that holds.  Take any history [pre], any call [w] that creates o or
    writes it through set, set_row or set_column (or reset_cache), and any further
    history [ds] that does not write o behind the cache's back.  Then every
    eigen-decomposition report is that of the current contents, and
    get_singular_values reports the current singular values or raises TypeError. *)
Theorem C19_eigen_current_partial (pre : list call) (w : call) (o : nat) (ds : list call) (c : call) e :
  (forall m l v, eig m = Ok (l, v) -> wf v) ->
  let s0 := exec start pre in
  refreshes w (snd (step s0 w)) o ->
  undisturbed (fst (step s0 w)) o [] ds ->
  let s := exec start (pre ++ w :: ds) in
  call_objs c = [o] -> decomposition (contents (hp s) o) c = Some e ->
  returns (hp (fst (step s c))) (snd (step s c)) (map_res inl e).
Proof.
  intros Hwf. cbv zeta. intros Hr Hu Hc He. rewrite exec_app in *. cbn [M_Heap.exec] in *.
  pose proof (refreshed_J _ w o (reach_inv pre) Hr) as Hj. destruct (J_exec ds _ o [] Hj Hu) as (hd & Hj').
  set (s := exec (fst (step (exec start pre) w)) ds) in *. destruct Hj' as [Hs Hin _ Hok _].
  destruct (step_good s c Hs) as [[_ (o' & H1 & H2)]|(G & _ & _)].
  { rewrite Hc in H1. destruct H1 as [<-|[]]. contradiction. }
  apply (G_eig _ _ _ _ G o e Hc).
  assert (Em : eig_of eig (contents (hp s) o) = make_eig eig (contents (hp s) o)).
  { unfold eig_of, make_eig, row_of_list. destruct (eig (contents (hp s) o)) as [[l v]|x] eqn:Ee; [|reflexivity]. cbn [bind fst snd].
    rewrite norm_wf; [reflexivity|]. eapply Hwf; eauto. }
  rewrite <- He. unfold eig_report, decomposition. rewrite (eig_ok_val eig _ _ Hok), Em.
  destruct c; try discriminate He; try reflexivity.
  f_equal. destruct (make_eig eig (contents (hp s) o)) as [p|x]; [|reflexivity]. cbn [bind]. unfold get_dominant_eigenvector.
  destruct (get_eigenvectors_sorted _ p false); [|reflexivity]. cbn [bind]. apply get_column_norm.
Qed.
Theorem C19_singular_current_partial (pre : list call) (w : call) (o : nat) (ds : list call) :
  let s0 := exec start pre in
  refreshes w (snd (step s0 w)) o ->
  undisturbed (fst (step s0 w)) o [] ds ->
  let s := exec start (pre ++ w :: ds) in
  let r := snd (step s (K_get_singular_values o)) in
  r = Err TypeError \/
  exists u l v o', svd (contents (hp s) o) = Ok (u, l, v) /\ r = Ok (VMat o') /\
    is_mat (contents (hp (fst (step s (K_get_singular_values o)))) o') (length l) 1 (fun i _ => nth i l n0).
Proof.
  cbv zeta. intros Hr Hu. rewrite exec_app in *. cbn [M_Heap.exec] in *.
  pose proof (refreshed_J _ w o (reach_inv pre) Hr) as Hj. destruct (J_exec ds _ o [] Hj Hu) as (hd & Hj').
  set (s := exec (fst (step (exec start pre) w)) ds) in *. destruct Hj' as [Hs Hin _ _ Hok].
  destruct (step_good s (K_get_singular_values o) Hs) as [[_ (o' & H1 & H2)]|(G & _ & _)].
  { destruct H1 as [<-|[]]. contradiction. }
  pose proof (G_eig _ _ _ _ G o (sv_val (hp s) o) eq_refl eq_refl) as Hg. unfold sv_val in Hg.
  destruct (o_svd (the_obj (hp s) o)) as [[[a b] d]|] eqn:Eo.
  - right. specialize (Hok a b d Eo). unfold svd_of in Hok. destruct (svd (contents (hp s) o)) as [[[u l] v]|x]; [|discriminate].
    cbn [bind fst snd] in Hok. assert (Hb : row_of_list l = contents (hp s) b) by congruence. rewrite <- Hb in Hg. cbn [map_res] in Hg. unfold returns in Hg.
    destruct (snd (step s (K_get_singular_values o))) as [[]|]; try contradiction. exists u, l, v, o0. split; [reflexivity|]. split; [reflexivity|].
    unfold row_of_list in Hg. rewrite transpose_nr, transpose_nc in Hg. cbn [nr nc] in Hg.
    eapply is_mat_fun_ext; [exact Hg|]. intros i j Hi Hj'. rewrite transpose_entry by (cbn; lia). assert (j = 0) by lia. subst j. reflexivity.
  - left. cbn [map_res] in Hg. unfold returns in Hg. destruct (snd (step s (K_get_singular_values o))) as [[]|]; try contradiction. now subst.
Qed.
End P.
Print Assumptions C20_frame.
Print Assumptions C20_history.
Print Assumptions C20_results_are_new.
Print Assumptions C20_no_shared_storage.
Print Assumptions C63_results.
Print Assumptions C63_effects.
Print Assumptions C19_eigen_current_partial.
Print Assumptions C19_singular_current_partial.

(* ------------------------------------------------------------ concrete runs *)
(** Solvers that are right for every 1 x 1 matrix (and refuse the others). *)
Definition eig1 (m : mat R) : res (list R * mat R) :=
  if (nr m =? 1) && (nc m =? 1) then Ok ([entry m 0 0], Mat 1 1 [[1%R]]) else Err LinAlgError.
Definition svd1 (m : mat R) : res (mat R * list R * mat R) :=
  if (nr m =? 1) && (nc m =? 1)
  then Ok (Mat 1 1 [[if Rlt_dec (entry m 0 0) 0 then -1 else 1]]%R, [Rabs (entry m 0 0)], Mat 1 1 [[1%R]])
  else Err LinAlgError.
Lemma eig1_correct m l v : eig1 m = Ok (l, v) -> eig_answer m l v /\ wf v.
Proof.
  unfold eig1. destruct (Nat.eqb_spec (nr m) 1) as [E1|]; [|discriminate]. destruct (Nat.eqb_spec (nc m) 1) as [E2|]; [|discriminate].
  cbn [andb]. intros [= <- <-]. assert (W : wf (Mat 1 1 [[1%R]])) by (split; repeat constructor). split; [|exact W].
  unfold eig_answer. rewrite E1. repeat split; try apply W. intros k i Hk Hi. assert (k = 0) by lia. assert (i = 0) by lia. subst. cbn. lra.
Qed.
Lemma svd1_correct m u l v : svd1 m = Ok (u, l, v) -> svd_answer m u l v /\ orthonormal_factors u (length l) v /\ Forall (fun x => 0 <= x)%R l.
Proof.
  unfold svd1. destruct (Nat.eqb_spec (nr m) 1) as [E1|]; [|discriminate]. destruct (Nat.eqb_spec (nc m) 1) as [E2|]; [|discriminate].
  cbn [andb]. intros [= <- <- <-]. unfold svd_answer, orthonormal_factors. cbn [length nr nc]. rewrite E1, E2.
  split; [|split; [|constructor; [apply Rabs_pos|constructor]]];
  repeat split; try (repeat constructor); cbn; intros; repeat match goal with Hx : ?x < 1 |- _ => assert (x = 0) by lia; subst x; clear Hx end; cbn.
  - unfold Rabs. destruct (Rlt_dec _ _), (Rcase_abs _); lra.
  - destruct (Rlt_dec _ _); lra.
  - lra.
Qed.
Definition ff (x : R) : R := x.
Definition gg (x y : R) : R := x.
Definition mm (m : mat R) : res (mat R) := Ok m.
Definition mm2 (m n : mat R) : res (mat R) := Ok m.
Definition m1 (m : mat R) : res R := Ok 0%R.
Notation step1 := (step eig1 svd1 ff ff gg mm mm mm2 m1 m1 0%R).
Notation exec1 := (exec eig1 svd1 ff ff gg mm mm mm2 m1 m1 0%R).
Definition cell (x : R) : mat R := Mat 1 1 [[x]].

(** C19 is false of the code as it stands: *)
(** (a) fill_diagonal after a decomposition: the matrix is [[3]], the eigenvalue
    reported is 2; (b) add_by_vector_modify, likewise; (c) zeroing the matrix handed
    out by get_eigenvalue_decomposition_V makes the zero vector the reported
    eigenvector of [[2]]; (d) get_singular_values reports 2 for [[3]]. *)
Theorem C19_refuted :
  (forall m l v, eig1 m = Ok (l, v) -> eig_answer m l v) /\
  (forall m u l v, svd1 m = Ok (u, l, v) -> svd_answer m u l v /\ orthonormal_factors u (length l) v) /\
  (exists cs o p, let s := exec1 start cs in
     contents (hp s) o = cell 3 /\
     snd (step1 s (K_get_eigenvalues o)) = Ok (VMat p) /\
     contents (hp (fst (step1 s (K_get_eigenvalues o)))) p = cell 2) /\
  (exists cs o p, let s := exec1 start cs in
     contents (hp s) o = cell (2 + 1) /\
     snd (step1 s (K_get_eigenvalues o)) = Ok (VMat p) /\
     contents (hp (fst (step1 s (K_get_eigenvalues o)))) p = cell 2) /\
  (exists cs o p, let s := exec1 start cs in
     contents (hp s) o = cell 2 /\
     snd (step1 s (K_get_eigenvectors o false)) = Ok (VMat p) /\
     contents (hp (fst (step1 s (K_get_eigenvectors o false)))) p = cell 0) /\
  (exists cs o p, let s := exec1 start cs in
     contents (hp s) o = cell 3 /\
     snd (step1 s (K_get_singular_values o)) = Ok (VMat p) /\
     contents (hp (fst (step1 s (K_get_singular_values o)))) p = cell (Rabs 2)).
Proof.
  split; [intros m l v E; apply (eig1_correct m l v E)|].
  split; [intros m u l v E; destruct (svd1_correct m u l v E) as (H1 & H2 & _); auto|].
  split; [|split; [|split]].
  - exists [K_create (cell 2); K_get_eigenvalues 0; K_fill_diagonal 0 3%R], 0, 5. cbv zeta. repeat split; vm_compute; reflexivity.
  - exists [K_create (cell 2); K_create (cell 1); K_get_eigenvalues 0; K_vector_op_modify Rplus 0 1], 0, 6. cbv zeta. repeat split; vm_compute; reflexivity.
  - exists [K_create (cell 2); K_get_eig_V 0; K_set 3 0 0 0%R], 0, 4. cbv zeta. repeat split; vm_compute; reflexivity.
  - exists [K_create (cell 2); K_make_svd 0; K_fill_diagonal 0 3%R], 0, 4. cbv zeta. repeat split; vm_compute; reflexivity.
Qed.
Print Assumptions C19_refuted.

(** Non-vacuity.  A history with a decomposition, a write, a handed-out V and an
    in-place change of another matrix; the reports are then those of [[7]]. *)
Definition ex19_pre : list (call (T:=R)) := [K_create (cell 2); K_get_eigenvalues 0; K_fill_diagonal 0 3%R].
Definition ex19_ds : list (call (T:=R)) := [K_get_eig_V 0; K_make_svd 0; K_create (cell 5); K_fill_diagonal 11 6%R].
Example C19_ex : 
  let s := exec1 start (ex19_pre ++ K_set 0 0 0 7%R :: ex19_ds) in
  contents (hp s) 0 = cell 7 /\
  returns (hp (fst (step1 s (K_get_eigenvalues 0)))) (snd (step1 s (K_get_eigenvalues 0))) (Ok (inl (cell 7))) /\
  exists o', snd (step1 s (K_get_singular_values 0)) = Ok (VMat o').
Proof.
  cbv zeta. split; [vm_compute; reflexivity|]. split.
  - refine (C19_eigen_current_partial eig1 svd1 ff ff gg mm mm mm2 m1 m1 0%R ex19_pre (K_set 0 0 0 7%R) 0 ex19_ds (K_get_eigenvalues 0) (Ok (cell 7)) _ _ _ _ _).
    + intros m l v E. now apply (eig1_correct m l v).
    + split; [reflexivity|]. exists VNone. vm_compute. reflexivity.
    + cbn [undisturbed ex19_ds].
      split; [discriminate|]. split; [intros p Hp; discriminate Hp|]. split; [discriminate|]. split; [intros p Hp; discriminate Hp|].
      split; [discriminate|]. split; [intros p Hp; discriminate Hp|]. split; [discriminate|]. split; [|exact Logic.I].
      intros p Hp. injection Hp as <-. vm_compute. intros [Hx|[]]. discriminate.
    + reflexivity.
    + vm_compute. reflexivity.
  - exists 12. vm_compute. reflexivity.
Qed.
Definition ex20_cs : list (call (T:=R)) :=
  [K_create (Mat 2 2 [[1;2];[3;4]])%R; K_transpose 0; K_binary B_mul 0 1; K_get_row 0 1; K_binary B_add 0 0].
Definition ex20_ds : list (call (T:=R)) :=
  [K_set 1 0 0 9%R; K_set_row 2 0 3; K_vector_op_modify Rmult 3 3; K_fill_diagonal 4 0%R].
Example C20_ex : contents (hp (exec1 start (ex20_cs ++ ex20_ds))) 0 = Mat 2 2 [[1;2];[3;4]]%R /\
  contents (hp (exec1 start (ex20_cs ++ ex20_ds))) 3 = Mat 1 2 [[3*3;4*4]]%R.
Proof.
  split; [|vm_compute; reflexivity].
  transitivity (contents (hp (exec1 start ex20_cs)) 0); [|vm_compute; reflexivity].
  apply C20_history; [vm_compute; tauto|]. intros c [<-|[<-|[<-|[<-|[]]]]]; discriminate.
Qed.
Example C63_ex : let s := exec1 start (ex20_cs ++ ex20_ds) in
  returns (hp (fst (step1 s (K_transpose 1)))) (snd (step1 s (K_transpose 1))) (Ok (inl (Mat 2 2 [[9;2];[3;4]]%R))).
Proof.
  refine (C63_results eig1 svd1 ff ff gg mm mm mm2 m1 m1 0%R (ex20_cs ++ ex20_ds) (K_transpose 1) _ _ _); [|vm_compute; reflexivity].
  intros o [<-|[]]. vm_compute. tauto.
Qed.
