(** Invariants and frame rules for the heap model. *)
From Coq Require Import List ZArith Lia Bool Arith Permutation.
From Verif Require Import Base Num Mat M_Matrix M_Helper L_Eigen M_Heap S_Matrix L_Base L_Mat L_Matrix.
Import ListNotations.
Local Open Scope nat_scope.

Lemma nth_upd_if {A} (l : list A) i x d j : i < length l -> nth j (upd l i x) d = if j =? i then x else nth j l d.
Proof.
  intros Hi. destruct (Nat.eqb_spec j i) as [->|Hn]; [now apply nth_upd_same|now apply nth_upd_other].
Qed.

Section G.
Context {T : Type} `{Num T}.
Notation heap := (@heap T). Notation obj := (@obj).

Definition cached (x : obj) : list nat :=
  (match o_eig x with Some (a, b) => [a; b] | None => [] end) ++
  (match o_svd x with Some (a, b, c) => [a; b; c] | None => [] end).

Definition good_view (h : heap) (v : view) : Prop :=
  vbuf v < length (bufs h) /\
  (forall i j, i < vrows v -> j < vcols v -> fst (vidx v i j) < nr (buf h (vbuf v)) /\ snd (vidx v i j) < nc (buf h (vbuf v))) /\
  (forall i j i' j', i < vrows v -> j < vcols v -> i' < vrows v -> j' < vcols v -> vidx v i j = vidx v i' j' -> i = i' /\ j = j').

Record Inv (h : heap) : Prop := {
  I_view : forall o, o < length (objs h) -> good_view h (o_data (the_obj h o));
  I_wf : forall k, k < length (bufs h) -> wf (buf h k);
  I_sep : forall o o', o < length (objs h) -> o' < length (objs h) -> o <> o' ->
            vbuf (o_data (the_obj h o)) <> vbuf (o_data (the_obj h o'));
  I_cache : forall o p, o < length (objs h) -> In p (cached (the_obj h o)) -> p < length (objs h);
  I_own : forall o o' p, o < length (objs h) -> o' < length (objs h) ->
            In p (cached (the_obj h o)) -> In p (cached (the_obj h o')) -> o = o';
  I_col : forall o a b, o < length (objs h) -> o_eig (the_obj h o) = Some (a, b) -> vcols (o_data (the_obj h a)) = 1 }.

(** h' differs from h only in new buffers and objects, the buffers in B, and the
    caches of the objects in X. *)
Record fr (B X : nat -> Prop) (h h' : heap) : Prop := {
  F_nb : length (bufs h) <= length (bufs h');
  F_no : length (objs h) <= length (objs h');
  F_buf : forall k, k < length (bufs h) -> ~ B k -> buf h' k = buf h k;
  F_shape : forall k, k < length (bufs h) -> nr (buf h' k) = nr (buf h k) /\ nc (buf h' k) = nc (buf h k);
  F_data : forall o, o < length (objs h) -> o_data (the_obj h' o) = o_data (the_obj h o);
  F_cache : forall o, o < length (objs h) -> ~ X o ->
      o_eig (the_obj h' o) = o_eig (the_obj h o) /\ o_svd (the_obj h' o) = o_svd (the_obj h o);
  F_new : forall o p, o < length (objs h') -> In p (cached (the_obj h' o)) ->
      length (objs h) <= p \/ (o < length (objs h) /\ In p (cached (the_obj h o))) }.

(** nobody owns a buffer / caches an object *)
Definition unowned (h : heap) (k : nat) : Prop := forall o, o < length (objs h) -> vbuf (o_data (the_obj h o)) <> k.
Definition uncached (h : heap) (p : nat) : Prop := forall o, o < length (objs h) -> ~ In p (cached (the_obj h o)).

Definition nobody : nat -> Prop := fun _ => False.

Lemma fr_refl B X h : fr B X h h.
Proof. split; auto. Qed.
Lemma fr_new_trans (h h1 h2 : heap) :
  (forall o p, o < length (objs h1) -> In p (cached (the_obj h1 o)) -> length (objs h) <= p \/ (o < length (objs h) /\ In p (cached (the_obj h o)))) ->
  (forall o p, o < length (objs h2) -> In p (cached (the_obj h2 o)) -> length (objs h1) <= p \/ (o < length (objs h1) /\ In p (cached (the_obj h1 o)))) ->
  length (objs h) <= length (objs h1) ->
  forall o p, o < length (objs h2) -> In p (cached (the_obj h2 o)) -> length (objs h) <= p \/ (o < length (objs h) /\ In p (cached (the_obj h o))).
Proof. intros A1 A2 A3 o p Ho Hp. destruct (A2 o p Ho Hp) as [Q|[Q1 Q2]]; [left; lia|]. now apply A1. Qed.
Lemma fr_trans B X h h1 h2 : fr B X h h1 -> fr B X h1 h2 -> fr B X h h2.
Proof.
  intros [a1 a2 a3 a4 a5 a6 a7] [b1 b2 b3 b4 b5 b6 b7]. split; try lia; [ | | | |now apply (fr_new_trans h h1 h2)].
  - intros k Hk HB. rewrite b3 by (auto; lia). auto.
  - intros k Hk. destruct (b4 k ltac:(lia)) as [-> ->]. auto.
  - intros o Ho. rewrite b5 by lia. auto.
  - intros o Ho HX. destruct (b6 o ltac:(lia) HX) as [-> ->]. auto.
Qed.
Lemma fr_weaken (B X B' X' : nat -> Prop) h h' : (forall k, k < length (bufs h) -> B k -> B' k) -> (forall k, k < length (objs h) -> X k -> X' k) -> fr B X h h' -> fr B' X' h h'.
Proof.
  intros HB HX [a1 a2 a3 a4 a5 a6 a7]. split; try assumption; intros o Ho Hn.
  - apply a3; [assumption|]. intros Hc. apply Hn. now apply HB.
  - apply a6; [assumption|]. intros Hc. apply Hn. now apply HX.
Qed.
Lemma fr_none B X h h' : fr nobody nobody h h' -> fr B X h h'.
Proof. apply fr_weaken; unfold nobody; tauto. Qed.

Lemma read_ext h h' v : buf h' (vbuf v) = buf h (vbuf v) -> read h' v = read h v.
Proof. intros E. unfold read. now rewrite E. Qed.
Lemma contents_fr B X h h' o : fr B X h h' -> Inv h -> o < length (objs h) -> ~ B (vbuf (o_data (the_obj h o))) ->
  contents h' o = contents h o.
Proof.
  intros F I Ho HB. unfold contents. rewrite (F_data _ _ _ _ F o Ho). apply read_ext.
  apply (F_buf _ _ _ _ F); [|assumption]. apply (I_view _ I o Ho).
Qed.
Lemma contents_fr0 X h h' o : fr nobody X h h' -> Inv h -> o < length (objs h) -> contents h' o = contents h o.
Proof. intros F I Ho. apply (contents_fr nobody X); auto. Qed.
Lemma good_view_fr B X h h' v : fr B X h h' -> good_view h v -> good_view h' v.
Proof.
  intros F (H1 & H2 & H3). pose proof (F_nb _ _ _ _ F). split; [lia|]. split; [|assumption].
  intros i j Hi Hj. destruct (F_shape _ _ _ _ F (vbuf v) H1) as [-> ->]. auto.
Qed.
Lemma uncached_fr B X h h' c : fr B X h h' -> c < length (objs h) -> uncached h c -> uncached h' c.
Proof. intros F Hc U o Ho Hin. destruct (F_new _ _ _ _ F o c Ho Hin) as [Q|[Q1 Q2]]; [lia|]. now apply (U o). Qed.
Lemma contents_wf (h : heap) o : wf (contents h o).
Proof. apply mk_wf. Qed.


(** ---- primitive steps ---- *)
Lemma the_obj_snoc (h : heap) x (bs : list (mat T)) : forall o, o < length (objs h) -> the_obj (Heap bs (objs h ++ [x])) o = the_obj h o.
Proof. intros o Ho. unfold the_obj. cbn [objs]. now apply app_nth1. Qed.
Lemma the_obj_snoc_new (h : heap) x (bs : list (mat T)) : the_obj (Heap bs (objs h ++ [x])) (length (objs h)) = x.
Proof. unfold the_obj. cbn [objs]. rewrite app_nth2, Nat.sub_diag by lia. reflexivity. Qed.
Lemma the_obj_bufs (h : heap) (bs : list (mat T)) o : the_obj (Heap bs (objs h)) o = the_obj h o.
Proof. reflexivity. Qed.
Lemma buf_snoc (h : heap) m os : forall k, k < length (bufs h) -> buf (Heap (bufs h ++ [m]) os) k = buf h k.
Proof. intros k Hk. unfold buf. cbn [bufs]. now apply app_nth1. Qed.
Lemma buf_snoc_new (h : heap) m os : buf (Heap (bufs h ++ [m]) os) (length (bufs h)) = m.
Proof. unfold buf. cbn [bufs]. rewrite app_nth2, Nat.sub_diag by lia. reflexivity. Qed.

Definition new_view (h : heap) (m : mat T) : view := View (length (bufs h)) (nr m) (nc m) (fun i j => (i, j)).

Lemma np_new_spec m h : Inv h -> exists h', np_new m h = (h', Ok (new_view h m)) /\ Inv h' /\ fr nobody nobody h h' /\
  good_view h' (new_view h m) /\ unowned h' (length (bufs h)) /\ read h' (new_view h m) = norm_mat m /\
  objs h' = objs h /\ length (bufs h') = S (length (bufs h)).
Proof.
  intros I. eexists. split; [reflexivity|].
  assert (Fr : fr nobody nobody h (Heap (bufs h ++ [norm_mat m]) (objs h))).
  { split; cbn [bufs objs]; rewrite ?app_length; try (cbn; lia); auto.
    - intros k Hk _. now apply buf_snoc.
    - intros k Hk. rewrite buf_snoc by assumption. auto. }
  assert (Un : unowned (Heap (bufs h ++ [norm_mat m]) (objs h)) (length (bufs h))).
  { intros o Ho. cbn [objs] in Ho. rewrite the_obj_bufs. destruct (I_view _ I o Ho) as (Hv & _). lia. }
  split; [|split; [exact Fr|split; [|split; [exact Un|split; [|split; [reflexivity|]]]]]].
  - split.
    + intros o Ho. rewrite the_obj_bufs. eapply good_view_fr; [exact Fr|]. now apply (I_view _ I).
    + cbn [bufs]. rewrite app_length. cbn. intros k Hk. destruct (Nat.eq_dec k (length (bufs h))) as [->|Hn].
      * rewrite buf_snoc_new. apply mk_wf.
      * rewrite buf_snoc by lia. apply (I_wf _ I). lia.
    + intros o o'. apply (I_sep _ I).
    + intros o p. apply (I_cache _ I).
    + intros o o' p. apply (I_own _ I).
    + intros o a b. apply (I_col _ I).
  - split; [cbn; rewrite app_length; cbn; lia|]. cbn [vrows vcols vidx new_view vbuf fst snd]. rewrite buf_snoc_new. split.
    + intros; auto.
    + intros * _ _ _ _ E. now injection E.
  - unfold read. cbn [vrows vcols vidx new_view vbuf fst snd]. rewrite buf_snoc_new. apply mk_ext. intros i j Hi Hj.
    unfold norm_mat. now rewrite entry_mk.
  - cbn [bufs]. rewrite app_length. cbn. lia.
Qed.

Lemma norm_mk r c f : norm_mat (mk r c f) = mk r c f.
Proof. unfold norm_mat. rewrite nr_mk, nc_mk. apply mk_ext. intros. now apply entry_mk. Qed.
Lemma norm_wf m : wf m -> norm_mat m = m.
Proof. apply mk_entry. Qed.

Lemma matrix_of_spec v h : Inv h -> good_view h v -> unowned h (vbuf v) ->
  exists h', matrix_of v h = (h', Ok (length (objs h))) /\ Inv h' /\ fr nobody nobody h h' /\ bufs h' = bufs h /\
   length (objs h') = S (length (objs h)) /\ o_data (the_obj h' (length (objs h))) = v /\
   contents h' (length (objs h)) = read h v /\ cached (the_obj h' (length (objs h))) = [] /\ uncached h' (length (objs h)).
Proof.
  intros I Gv Un. eexists. split; [reflexivity|].
  set (x := Obj v None None).
  assert (Fr : fr nobody nobody h (Heap (bufs h) (objs h ++ [x]))).
  { split; cbn [bufs objs]; rewrite ?app_length; try (cbn; lia); auto.
    - intros o Ho. now rewrite the_obj_snoc.
    - intros o Ho _. rewrite the_obj_snoc by assumption. auto.
    - intros o p Ho. cbn [length] in Ho. destruct (Nat.eq_dec o (length (objs h))) as [->|Hn].
      + rewrite the_obj_snoc_new. intros [].
      + rewrite the_obj_snoc by lia. intros Hp. right. split; [lia|assumption]. }
  split; [|split; [exact Fr|split; [reflexivity|]]].
  - assert (Hc : forall o, o < S (length (objs h)) -> o < length (objs h) \/ o = length (objs h)) by (intros; lia).
    split.
    + cbn [objs]. rewrite app_length. cbn. intros o Ho. destruct (Hc o ltac:(lia)) as [Ho'| ->].
      * rewrite the_obj_snoc by assumption. eapply good_view_fr; [exact Fr|]. now apply (I_view _ I).
      * rewrite the_obj_snoc_new. exact Gv.
    + intros k Hk. apply (I_wf _ I k Hk).
    + cbn [objs]. rewrite app_length. cbn. intros o o' Ho Ho' Hn.
      destruct (Hc o ltac:(lia)) as [Ho1| ->], (Hc o' ltac:(lia)) as [Ho2| ->]; rewrite ?the_obj_snoc_new, ?the_obj_snoc by assumption.
      * now apply (I_sep _ I).
      * apply Un; assumption.
      * intros E. apply (Un o' Ho2). now symmetry.
      * lia.
    + cbn [objs]. rewrite app_length. cbn. intros o p Ho. destruct (Hc o ltac:(lia)) as [Ho1| ->]; rewrite ?the_obj_snoc_new, ?the_obj_snoc by assumption.
      * intros Hp. pose proof (I_cache _ I o p Ho1 Hp). lia.
      * intros [].
    + cbn [objs]. rewrite app_length. cbn. intros o o' p Ho Ho'.
      destruct (Hc o ltac:(lia)) as [Ho1| ->], (Hc o' ltac:(lia)) as [Ho2| ->]; rewrite ?the_obj_snoc_new, ?the_obj_snoc by assumption; cbn; try tauto.
      now apply (I_own _ I).
    + cbn [objs]. rewrite app_length. cbn. intros o a b Ho. destruct (Hc o ltac:(lia)) as [Ho1| ->]; rewrite ?the_obj_snoc_new; [|discriminate].
      rewrite (the_obj_snoc h x (bufs h) o) by assumption. intros E.
      assert (Ha : a < length (objs h)) by (apply (I_cache _ I o a Ho1); unfold cached; rewrite E; now left).
      rewrite the_obj_snoc by assumption. now apply (I_col _ I o a b).
  - cbn [objs]. rewrite app_length, !the_obj_snoc_new. cbn [length]. split; [lia|]. split; [reflexivity|]. split.
    + unfold contents. rewrite the_obj_snoc_new. reflexivity.
    + split; [reflexivity|]. intros o. cbn [objs]. rewrite app_length. cbn. intros Ho. destruct (Nat.eq_dec o (length (objs h))) as [->|Hn].
      * rewrite the_obj_snoc_new. intros [].
      * rewrite the_obj_snoc by lia. intros Hp. pose proof (I_cache _ I o _ ltac:(lia) Hp). lia.
Qed.

(** ---- writing through a view ---- *)
Lemma In_cells r c i j : In (i, j) (cells r c) <-> i < r /\ j < c.
Proof.
  unfold cells. rewrite in_flat_map. split.
  - intros (x & Hx & Hy). apply in_seq in Hx. apply in_map_iff in Hy as (y & E & Hy). apply in_seq in Hy. injection E as -> ->. lia.
  - intros [Hi Hj]. exists i. split; [apply in_seq; lia|]. apply in_map_iff. exists j. split; [reflexivity|]. apply in_seq. lia.
Qed.
Lemma overlay_spec v m b : wf b ->
  (forall i j, i < vrows v -> j < vcols v -> fst (vidx v i j) < nr b /\ snd (vidx v i j) < nc b) ->
  (forall i j i' j', i < vrows v -> j < vcols v -> i' < vrows v -> j' < vcols v -> vidx v i j = vidx v i' j' -> i = i' /\ j = j') ->
  wf (overlay v m b) /\ nr (overlay v m b) = nr b /\ nc (overlay v m b) = nc b /\
  forall i j, i < vrows v -> j < vcols v -> entry (overlay v m b) (fst (vidx v i j)) (snd (vidx v i j)) = entry m i j.
Proof.
  intros Hb Hr Hi. unfold overlay.
  set (f := fun (b : mat T) (p : nat * nat) => set_entry b (fst (vidx v (fst p) (snd p))) (snd (vidx v (fst p) (snd p))) (entry m (fst p) (snd p))).
  assert (K : forall l (b0 : mat T), wf b0 -> nr b0 = nr b -> nc b0 = nc b -> (forall p, In p l -> fst p < vrows v /\ snd p < vcols v) ->
      wf (fold_left f l b0) /\ nr (fold_left f l b0) = nr b /\ nc (fold_left f l b0) = nc b /\
      forall i j, i < vrows v -> j < vcols v ->
        (In (i, j) l -> entry (fold_left f l b0) (fst (vidx v i j)) (snd (vidx v i j)) = entry m i j) /\
        (~ In (i, j) l -> entry (fold_left f l b0) (fst (vidx v i j)) (snd (vidx v i j)) = entry b0 (fst (vidx v i j)) (snd (vidx v i j)))).
  { induction l as [|[a c] l IH]; intros b0 W0 R0 C0 Hl; cbn [fold_left].
    - repeat (split; [assumption|]). intros i j _ _. split; [intros []|reflexivity].
    - destruct (Hl (a, c) (or_introl eq_refl)) as [Ha Hc]. cbn [fst snd] in Ha, Hc. destruct (Hr a c Ha Hc) as [Hra Hrc].
      destruct (IH (f b0 (a, c))) as (I1 & I2 & I3 & I4).
      + apply set_entry_wf. assumption.
      + exact R0.
      + exact C0.
      + intros p Hp. apply Hl. now right.
      + repeat (split; [assumption|]). intros i j Hi' Hj'. destruct (I4 i j Hi' Hj') as [Q1 Q2].
        destruct (in_dec (fun p q : nat * nat => ltac:(decide equality; apply Nat.eq_dec) : {p = q} + {p <> q}) (i, j) l) as [Hin|Hout].
        * split; [auto|]. intros Hn. exfalso. apply Hn. now right.
        * rewrite (Q2 Hout). unfold f. cbn [fst snd]. rewrite set_entry_entry by (assumption || lia).
          destruct (andb (fst (vidx v i j) =? fst (vidx v a c)) (snd (vidx v i j) =? snd (vidx v a c))) eqn:E.
          -- apply andb_true_iff in E as [E1 E2]. apply Nat.eqb_eq in E1, E2.
             destruct (Hi i j a c Hi' Hj' Ha Hc) as [-> ->]; [now apply injective_projections|]. split; [reflexivity|].
             intros Hn. exfalso. apply Hn. now left.
          -- split; [|reflexivity]. intros [[= -> ->]|Hin]; [|contradiction]. rewrite !Nat.eqb_refl in E. discriminate. }
  destruct (K (cells (vrows v) (vcols v)) b Hb eq_refl eq_refl) as (K1 & K2 & K3 & K4).
  { intros [i j] Hp. apply In_cells in Hp. exact Hp. }
  repeat (split; [assumption|]). intros i j Hi' Hj'. apply (K4 i j Hi' Hj'). now apply In_cells.
Qed.

Lemma m_store_spec v m h : Inv h -> good_view h v -> exists h', m_store v m h = (h', Ok tt) /\ Inv h' /\
  fr (eq (vbuf v)) nobody h h' /\ objs h' = objs h /\ length (bufs h') = length (bufs h) /\
  read h' v = mk (vrows v) (vcols v) (entry m) /\ (forall k, k <> vbuf v -> buf h' k = buf h k).
Proof.
  intros I (G1 & G2 & G3). eexists. split; [reflexivity|].
  destruct (overlay_spec v m (buf h (vbuf v)) (I_wf _ I _ G1) G2 G3) as (O1 & O2 & O3 & O4).
  set (b' := overlay v m (buf h (vbuf v))) in *.
  assert (Hb : forall k, buf (Heap (upd (bufs h) (vbuf v) b') (objs h)) k = if k =? vbuf v then b' else buf h k).
  { intros k. unfold buf. cbn [bufs]. now apply nth_upd_if. }
  assert (Fr : fr (eq (vbuf v)) nobody h (Heap (upd (bufs h) (vbuf v) b') (objs h))).
  { split; cbn [bufs objs]; rewrite ?upd_length; auto.
    - intros k Hk Hn. rewrite Hb. destruct (Nat.eqb_spec k (vbuf v)) as [->|]; [exfalso; now apply Hn|reflexivity].
    - intros k Hk. rewrite Hb. destruct (Nat.eqb_spec k (vbuf v)) as [->|]; auto. }
  split; [|split; [exact Fr|split; [reflexivity|split; [cbn; now rewrite upd_length|split]]]].
  - split.
    + intros o Ho. rewrite the_obj_bufs. eapply good_view_fr; [exact Fr|]. now apply (I_view _ I).
    + cbn [bufs]. rewrite upd_length. intros k Hk. rewrite Hb. destruct (k =? vbuf v); [assumption|now apply (I_wf _ I)].
    + intros o o'. apply (I_sep _ I).
    + intros o p. apply (I_cache _ I).
    + intros o o' p. apply (I_own _ I).
    + intros o a b. apply (I_col _ I).
  - unfold read. rewrite Hb, Nat.eqb_refl. apply mk_ext. intros i j Hi Hj. now apply O4.
  - intros k Hk. rewrite Hb. destruct (Nat.eqb_spec k (vbuf v)); [contradiction|reflexivity].
Qed.

(** ---- changing an object's caches ---- *)
Lemma set_caches_spec o e s h0 h : Inv h -> fr nobody (eq o) h0 h -> o < length (objs h0) ->
  let x := Obj (o_data (the_obj h o)) e s in
  (forall p, In p (cached x) -> p < length (objs h)) ->
  (forall p o', In p (cached x) -> o' < length (objs h) -> o' <> o -> ~ In p (cached (the_obj h o'))) ->
  (forall a b, e = Some (a, b) -> vcols (o_data (the_obj h a)) = 1) ->
  (forall p, In p (cached x) -> length (objs h0) <= p \/ In p (cached (the_obj h0 o))) ->
  exists h', set_obj o x h = (h', Ok tt) /\ Inv h' /\ fr nobody (eq o) h0 h' /\ bufs h' = bufs h /\
    length (objs h') = length (objs h) /\ the_obj h' o = x /\ (forall o', o' <> o -> the_obj h' o' = the_obj h o').
Proof.
  intros I [a1 a2 a3 a4 a5 a6 a7] Ho0 x Hc Hown Hcol Hnew. eexists. split; [reflexivity|].
  assert (Ho : o < length (objs h)) by lia.
  assert (Hx : forall o', the_obj (Heap (bufs h) (upd (objs h) o x)) o' = if o' =? o then x else the_obj h o').
  { intros o'. unfold the_obj. cbn [objs]. now apply nth_upd_if. }
  assert (Fr : fr nobody (eq o) h0 (Heap (bufs h) (upd (objs h) o x))).
  { split; cbn [bufs objs]; rewrite ?upd_length; try assumption.
    - intros o' Ho'. rewrite Hx. destruct (Nat.eqb_spec o' o) as [->|]; now apply a5.
    - intros o' Ho' Hn. rewrite Hx. destruct (Nat.eqb_spec o' o) as [->|]; [exfalso; now apply Hn|auto].
    - intros o' p Ho'. rewrite Hx. destruct (Nat.eqb_spec o' o) as [->|]; [|now apply a7].
      intros Hp. destruct (Hnew p Hp); auto. }
  split; [|split; [exact Fr|split; [reflexivity|split; [cbn; now rewrite upd_length|split]]]].
  - assert (Hd : forall o', o_data (the_obj (Heap (bufs h) (upd (objs h) o x)) o') = o_data (the_obj h o')).
    { intros o'. rewrite Hx. destruct (Nat.eqb_spec o' o) as [->|]; reflexivity. }
    split; cbn [bufs objs]; rewrite ?upd_length.
    + intros o' Ho'. rewrite Hd. exact (I_view _ I o' Ho').
    + intros k Hk. apply (I_wf _ I k Hk).
    + intros o1 o2. rewrite !Hd. apply (I_sep _ I).
    + intros o' p Ho'. rewrite Hx. destruct (o' =? o); [apply Hc|now apply (I_cache _ I)].
    + intros o1 o2 p H1 H2. rewrite !Hx. destruct (Nat.eqb_spec o1 o) as [->|N1], (Nat.eqb_spec o2 o) as [->|N2]; intros P1 P2; try reflexivity.
      * exfalso. now apply (Hown p o2).
      * exfalso. now apply (Hown p o1).
      * now apply (I_own _ I o1 o2 p).
    + intros o' a b Ho'. rewrite Hd, Hx. destruct (Nat.eqb_spec o' o) as [->|]; [apply Hcol|now apply (I_col _ I)].
  - rewrite Hx, Nat.eqb_refl. reflexivity.
  - intros o' Hn. rewrite Hx. destruct (Nat.eqb_spec o' o); [contradiction|reflexivity].
Qed.

(** ---- methods returning a new matrix ---- *)
Definition makes (x : M nat) (X : nat -> Prop) (h : heap) (val : res (mat T)) : Prop :=
  let '(h', r) := x h in
  Inv h' /\ fr nobody X h h' /\
  match r, val with
  | Ok o, Ok m => length (objs h) <= o /\ o < length (objs h') /\ length (bufs h) <= vbuf (o_data (the_obj h' o)) /\
                  contents h' o = norm_mat m /\ cached (the_obj h' o) = [] /\ uncached h' o
  | Err e, Err e' => e = e'
  | _, _ => False
  end.

Lemma makes_fresh X h r : Inv h -> makes (fresh r) X h r.
Proof.
  intros I. unfold makes, fresh, bindM, lift. destruct r as [m|e].
  2:{ split; [assumption|]. split; [apply fr_refl|reflexivity]. }
  destruct (np_new_spec m h I) as (h1 & E1 & I1 & F1 & G1 & U1 & R1 & O1 & L1). rewrite E1.
  destruct (matrix_of_spec (new_view h m) h1 I1 G1 U1) as (h2 & E2 & I2 & F2 & B2 & L2 & D2 & C2 & K2 & N2). rewrite E2.
  split; [exact I2|]. split; [apply fr_none; eapply fr_trans; eauto|]. rewrite D2. cbn [vbuf new_view]. rewrite O1 in *.
  repeat split; auto; try lia. now rewrite C2, R1.
Qed.


Lemma makes_bind x f X h val k : makes x X h val ->
  (forall m h1 o, val = Ok m -> Inv h1 -> fr nobody X h h1 -> length (objs h) <= o -> o < length (objs h1) ->
     length (bufs h) <= vbuf (o_data (the_obj h1 o)) -> contents h1 o = norm_mat m -> cached (the_obj h1 o) = [] -> uncached h1 o ->
     makes (f o) X h1 (k m)) ->
  makes (bindM x f) X h (do m <- val; k m).
Proof.
  unfold makes, bindM. intros Hx Hf. destruct (x h) as [h1 [o|e]].
  - destruct Hx as (I1 & F1 & Hv). destruct val as [m|e']; [|contradiction]. cbn [bind].
    destruct Hv as (V1 & V2 & V3 & V4 & V5 & V6).
    specialize (Hf m h1 o eq_refl I1 F1 V1 V2 V3 V4 V5 V6). destruct (f o h1) as [h2 [o2|e2]].
    + destruct Hf as (I2 & F2 & Hv2). split; [exact I2|]. split; [eapply fr_trans; eauto|].
      destruct (k m); [|contradiction]. pose proof (F_nb _ _ _ _ F1). pose proof (F_no _ _ _ _ F1).
      destruct Hv2 as (? & ? & ? & ? & ? & ?). repeat split; auto; lia.
    + destruct Hf as (I2 & F2 & Hv2). split; [exact I2|]. split; [eapply fr_trans; eauto|exact Hv2].
  - destruct Hx as (I1 & F1 & Hv). destruct val as [m|e']; [contradiction|]. cbn [bind]. auto.
Qed.
Lemma makes_ext x X h val val' : val = val' -> makes x X h val -> makes x X h val'.
Proof. now intros ->. Qed.

Lemma makes_copy_view v X h : Inv h -> makes (bindM (np_copy v) matrix_of) X h (Ok (read h v)).
Proof. intros I. pose proof (makes_fresh X h (Ok (read h v)) I) as Hm. unfold makes, fresh, bindM, lift, np_copy in *. exact Hm. Qed.
Lemma makes_copy_view_1d v X h : Inv h -> makes (bindM (np_copy v) matrix_of_1d) X h (Ok (read h v)).
Proof.
  intros I. unfold makes, bindM, np_copy.
  destruct (np_new_spec (read h v) h I) as (h1 & E1 & I1 & F1 & G1 & U1 & R1 & O1 & L1). rewrite E1.
  unfold matrix_of_1d, bindM, np_copy.
  pose proof (makes_copy_view (new_view h (read h v)) X h1 I1) as Hm. unfold makes, bindM, np_copy in Hm.
  destruct (np_new (read h1 (new_view h (read h v))) h1) as [h2 [w|e]]; [|destruct Hm as (_ & _ & []) ].
  destruct (matrix_of w h2) as [h3 [o|e]]; [|destruct Hm as (_ & _ & []) ].
  destruct Hm as (I3 & F3 & V1 & V2 & V3 & V4 & V5 & V6). split; [exact I3|]. split; [eapply fr_trans; [apply fr_none; exact F1|exact F3]|].
  rewrite O1 in *. rewrite V4, R1. repeat split; auto; try lia.
  unfold read. rewrite !norm_mk. reflexivity.
Qed.

Lemma transpose_mk r c (f : nat -> nat -> T) : transpose (mk r c f) = mk c r (fun i j => f j i).
Proof. unfold transpose. rewrite nr_mk, nc_mk. apply mk_ext. intros. now apply entry_mk. Qed.
Lemma makes_transpose o X h : Inv h -> makes (m_transpose o) X h (Ok (transpose (contents h o))).
Proof.
  intros I. unfold contents, read. rewrite transpose_mk. pose proof (makes_copy_view (view_T (o_data (the_obj h o))) X h I) as Hm.
  unfold makes, m_transpose, bindM, m_data, np_copy in *. exact Hm.
Qed.
Lemma makes_m_copy o X h : Inv h -> makes (m_copy o) X h (Ok (contents h o)).
Proof. intros I. pose proof (makes_copy_view (o_data (the_obj h o)) X h I) as Hm. unfold makes, m_copy, bindM, m_data, np_copy, contents in *. exact Hm. Qed.

Lemma makes_sub_matrix o r c X h : Inv h -> makes (m_get_sub_matrix o r c) X h (get_sub_matrix (contents h o) r c).
Proof.
  intros I. unfold makes, m_get_sub_matrix, bindM, m_contents, lift.
  destruct (get_sub_matrix (contents h o) r c) as [m|e].
  2:{ split; [assumption|]. split; [apply fr_refl|reflexivity]. }
  destruct (np_new_spec m h I) as (h1 & E1 & I1 & F1 & G1 & U1 & R1 & O1 & L1). rewrite E1.
  pose proof (makes_copy_view (new_view h m) X h1 I1) as Hm. unfold makes, bindM, np_copy in Hm.
  unfold np_copy. destruct (np_new (read h1 (new_view h m)) h1) as [h2 [w|e]]; [|destruct Hm as (_ & _ & []) ].
  destruct (matrix_of w h2) as [h3 [o3|e]]; [|destruct Hm as (_ & _ & []) ].
  destruct Hm as (I3 & F3 & V1 & V2 & V3 & V4 & V5 & V6). split; [exact I3|]. split; [eapply fr_trans; [apply fr_none; exact F1|exact F3]|].
  rewrite O1 in *. rewrite V4, R1. repeat split; auto; try lia. unfold norm_mat. rewrite nr_mk, nc_mk. apply mk_ext. intros. now apply entry_mk.
Qed.
Lemma makes_get_row o i X h : Inv h -> makes (m_get_row o i) X h (get_row (contents h o) i).
Proof.
  intros I. unfold makes, m_get_row, bindM, m_data, lift. unfold get_row.
  change (nr (contents h o)) with (vrows (o_data (the_obj h o))).
  destruct (npidx (vrows (o_data (the_obj h o))) i) as [k|e] eqn:E.
  2:{ split; [assumption|]. split; [apply fr_refl|reflexivity]. }
  pose proof (makes_copy_view_1d (view_row (o_data (the_obj h o)) k) X h I) as Hm.
  apply npidx_lt in E. cbn [bind]. unfold makes, bindM in Hm.
  assert (Er : mk 1 (nc (contents h o)) (fun _ j => entry (contents h o) k j) = read h (view_row (o_data (the_obj h o)) k)); [|rewrite Er; exact Hm]. unfold read, contents, read. cbn [view_row vrows vcols vidx vbuf].
  rewrite nc_mk. apply mk_ext. intros a b Ha Hb. now rewrite entry_mk.
Qed.
Lemma makes_get_column o i X h : Inv h -> makes (m_get_column o i) X h (get_column (contents h o) i).
Proof.
  intros I. unfold makes, m_get_column, bindM, m_data, lift. unfold get_column.
  change (nc (contents h o)) with (vcols (o_data (the_obj h o))).
  destruct (npidx (vcols (o_data (the_obj h o))) i) as [k|e] eqn:E.
  2:{ split; [assumption|]. split; [apply fr_refl|reflexivity]. }
  apply npidx_lt in E. cbn [bind].
  assert (Hm : makes (bindM (bindM (np_copy (view_col (o_data (the_obj h o)) k)) matrix_of_1d) m_transpose) X h
     (do m <- Ok (read h (view_col (o_data (the_obj h o)) k)); Ok (transpose m))).
  { apply (makes_bind _ _ X h _ (fun m => Ok (transpose m))); [now apply makes_copy_view_1d|].
    intros m h1 o1 [= <-] I1 F1 _ _ _ C1 _ _. eapply makes_ext; [|apply makes_transpose; exact I1]. rewrite C1. unfold read. now rewrite norm_mk. }
  cbn [bind] in Hm. unfold makes, bindM in Hm. unfold bindM in *.
  destruct (np_copy (view_col (o_data (the_obj h o)) k) h) as [h2 [w|e]].
  2: exact Hm.
  destruct (matrix_of_1d w h2) as [h3 [t|e]]; [|destruct Hm as (_ & _ & []) ].
  destruct (m_transpose t h3) as [h4 [t4|e]]; [|destruct Hm as (_ & _ & []) ].
  destruct Hm as (I3 & F3 & V1 & V2 & V3 & V4 & V5 & V6). repeat (split; [assumption|]). split; [|split; assumption].
  rewrite V4. f_equal. f_equal. unfold read, contents, read. cbn [view_col vrows vcols vidx vbuf]. rewrite nr_mk. apply mk_ext.
  intros a b Ha Hb. now rewrite entry_mk.
Qed.
Lemma head_len_le r n : head_len r n <= r.
Proof. unfold head_len. destruct (0 <=? n)%Z eqn:E; [lia|]. apply Z.leb_gt in E. lia. Qed.
Lemma makes_head o n X h : Inv h -> makes (m_head o n) X h (Ok (head (contents h o) n)).
Proof.
  intros I. pose proof (makes_copy_view (view_head (o_data (the_obj h o)) (head_len (vrows (o_data (the_obj h o))) n)) X h I) as Hm.
  unfold makes, m_head, bindM, m_data in *.
  assert (Er : head (contents h o) n = read h (view_head (o_data (the_obj h o)) (head_len (vrows (o_data (the_obj h o))) n))); [|rewrite Er; exact Hm]. unfold read, head, contents, read. cbn [view_head vrows vcols vidx vbuf]. rewrite nr_mk, nc_mk. apply mk_ext.
  intros a b Ha Hb. pose proof (head_len_le (vrows (o_data (the_obj h o))) n). rewrite entry_mk by lia. reflexivity.
Qed.

(** ---- in-place methods ---- *)
(** [X]: objects whose cache may change; with [rs], the receiver's cache is dropped on success. *)
Definition mutates (x : M unit) (o : nat) (X : nat -> Prop) (h : heap) (val : res (mat T)) : Prop :=
  let '(h', r) := x h in
  Inv h' /\ fr (eq (vbuf (o_data (the_obj h o)))) X h h' /\
  match r, val with
  | Ok _, Ok m => contents h' o = norm_mat m
  | Err e, Err e' => e = e' /\ contents h' o = contents h o
  | _, _ => False
  end.

Lemma store_self o m h : Inv h -> o < length (objs h) -> nr m = nr (contents h o) -> nc m = nc (contents h o) ->
  mutates (m_store (o_data (the_obj h o)) m) o nobody h (Ok m).
Proof.
  intros I Ho Hr Hc. unfold mutates.
  destruct (m_store_spec (o_data (the_obj h o)) m h I (I_view _ I o Ho)) as (h' & E & I' & F' & O' & L' & R' & _). rewrite E.
  split; [exact I'|]. split; [exact F'|]. unfold contents. unfold the_obj at 1. rewrite O'. fold (the_obj h o). rewrite R'.
  unfold norm_mat. rewrite Hr, Hc. reflexivity.
Qed.
Lemma mutates_modify op o vec h : Inv h -> o < length (objs h) ->
  mutates (m_vector_op_modify op o vec) o nobody h (vector_op_modify op (contents h o) (contents h vec)).
Proof.
  intros I Ho. unfold mutates, m_vector_op_modify, bindM, m_data, m_read, m_contents, lift. fold (contents h o).
  destruct (vector_op_modify op (contents h o) (contents h vec)) as [m|e] eqn:E.
  - apply (store_self o m h I Ho); unfold vector_op_modify, must_be_vector in E;
      destruct (is_vector (contents h vec)); try discriminate; cbn [bind] in E;
      destruct (negb (vector_size_matches (contents h o) (contents h vec))); try discriminate; injection E as <-; reflexivity.
  - split; [assumption|]. split; [apply fr_refl|]. auto.
Qed.
Lemma fill_diagonal_shape (m : mat T) x : nr (fill_diagonal m x) = nr m /\ nc (fill_diagonal m x) = nc m.
Proof.
  unfold fill_diagonal. generalize (seq 0 (Nat.min (nr m) (nc m))). intros l.
  assert (K : forall b : mat T, nr (fold_left (fun acc i => set_entry acc i i x) l b) = nr b /\ nc (fold_left (fun acc i => set_entry acc i i x) l b) = nc b).
  { induction l as [|a l IH]; intros b; [split; reflexivity|]. cbn [fold_left]. apply (IH (set_entry b a a x)). }
  apply K.
Qed.
Lemma mutates_fill o x h : Inv h -> o < length (objs h) ->
  mutates (m_fill_diagonal o x) o nobody h (Ok (fill_diagonal (contents h o) x)).
Proof.
  intros I Ho. unfold m_fill_diagonal, mutates, bindM, m_data, m_read. fold (contents h o).
  apply (store_self o _ h I Ho); apply fill_diagonal_shape.
Qed.

Lemma reset_cache_spec o h : Inv h -> o < length (objs h) -> exists h', reset_cache o h = (h', Ok tt) /\ Inv h' /\ fr nobody (eq o) h h' /\
  bufs h' = bufs h /\ length (objs h') = length (objs h) /\ the_obj h' o = Obj (o_data (the_obj h o)) None None.
Proof.
  intros I Ho. destruct (set_caches_spec o None None h h I (fr_refl _ _ _) Ho) as (h' & E & I' & F' & B' & L' & O' & _).
  - intros p [].
  - intros p o' [].
  - discriminate.
  - intros p [].
  - exists h'. unfold reset_cache. rewrite E. repeat (split; [assumption || reflexivity|]). assumption.
Qed.

Lemma fr_trans_B B X h h1 h2 : fr nobody X h h1 -> fr B X h1 h2 -> fr B X h h2.
Proof. intros F1 F2. eapply fr_trans; [|exact F2]. eapply fr_weaken; [| |exact F1]; unfold nobody; tauto. Qed.

(** reset the cache, then write what [f] computes from the contents *)
Lemma mutates_reset o f h : Inv h -> o < length (objs h) ->
  (forall m m', f m = Ok m' -> nr m' = nr m /\ nc m' = nc m) ->
  let x := bindM (reset_cache o) (fun _ => bindM (m_data o) (fun v => bindM (m_read v) (fun m => bindM (lift (f m)) (fun m' => m_store v m')))) in
  mutates x o (eq o) h (f (contents h o)) /\ cached (the_obj (fst (x h)) o) = [].
Proof.
  intros I Ho Hf x. unfold x, mutates, bindM, m_data, m_read, lift.
  destruct (reset_cache_spec o h I Ho) as (h1 & E1 & I1 & F1 & B1 & L1 & O1). rewrite E1.
  assert (C1 : contents h1 o = contents h o) by (apply (contents_fr0 (eq o)); assumption).
  fold (contents h1 o). rewrite C1.
  destruct (f (contents h o)) as [m'|e] eqn:Ef.
  - destruct (Hf _ _ Ef) as [Hr Hc]. rewrite <- C1 in Hr, Hc.
    pose proof (store_self o m' h1 I1 ltac:(lia) Hr Hc) as Hs. unfold mutates in Hs.
    destruct (m_store (o_data (the_obj h1 o)) m' h1) as [h2 [u|e]]; [|destruct Hs as (_ & _ & [])]. destruct Hs as (I2 & F2 & V2).
    rewrite O1 in F2. cbn [o_data] in F2. split; [split; [exact I2|split; [|exact V2]]|].
    + eapply fr_trans_B; [exact F1|]. eapply fr_weaken; [| |exact F2]; unfold nobody; tauto.
    + cbn [fst]. unfold cached. destruct (F_cache _ _ _ _ F2 o ltac:(lia) (fun x => x)) as [-> ->]. now rewrite O1.
  - split; [split; [exact I1|split; [|split; [reflexivity|exact C1]]]|].
    + eapply fr_weaken; [| |exact F1]; unfold nobody; tauto.
    + cbn [fst]. now rewrite O1.
Qed.
Lemma set_shape (m m' : mat T) r c x : set m r c x = Ok m' -> nr m' = nr m /\ nc m' = nc m.
Proof. unfold set. destruct (npidx (nr m) r); [|discriminate]. cbn [bind]. destruct (npidx (nc m) c); [|discriminate]. cbn [bind]. intros [= <-]. split; reflexivity. Qed.
Lemma set_row_shape (m m' v : mat T) i : set_row m i v = Ok m' -> nr m' = nr m /\ nc m' = nc m.
Proof. unfold set_row. destruct (must_be_vector v); [|discriminate]. cbn [bind]. destruct (npidx (nr m) i); [|discriminate]. cbn [bind]. intros [= <-]. split; reflexivity. Qed.
Lemma set_column_shape (m m' v : mat T) i : set_column m i v = Ok m' -> nr m' = nr m /\ nc m' = nc m.
Proof. unfold set_column. destruct (must_be_vector v); [|discriminate]. cbn [bind]. destruct (npidx (nc m) i); [|discriminate]. cbn [bind]. intros [= <-]. split; reflexivity. Qed.

Lemma mutates_set o r c x h : Inv h -> o < length (objs h) ->
  mutates (m_set o r c x) o (eq o) h (set (contents h o) r c x) /\ cached (the_obj (fst (m_set o r c x h)) o) = [].
Proof. intros I Ho. apply (mutates_reset o (fun m => set m r c x) h I Ho). intros m m'. apply set_shape. Qed.


Lemma set_row_transpose (m r : mat T) i : wf r -> is_column_vector r = true -> set_row m i (transpose r) = set_row m i r.
Proof.
  intros Hr Hc. unfold set_row, must_be_vector. rewrite Hc. rewrite is_column_vector_eqb in Hc. apply Nat.eqb_eq in Hc.
  assert (Hv : is_vector r = true) by (apply is_vector_iff; now right).
  assert (Hv' : is_vector (transpose r) = true) by (apply is_vector_iff; left; now rewrite transpose_nr).
  rewrite Hv, Hv'. cbn [bind]. rewrite is_column_vector_eqb, transpose_nc.
  destruct (Nat.eqb_spec (nr r) 1) as [E|E]; [|reflexivity]. rewrite transpose_transpose by assumption.
  assert (Et : transpose r = r); [|rewrite Et; now rewrite ?transpose_nr, ?transpose_nc, ?Et, ?Hc, ?E].
  apply mat_ext; [apply transpose_wf|assumption|rewrite transpose_nr; lia|rewrite transpose_nc; lia|].
  rewrite transpose_nr, transpose_nc. intros a b Ha Hb. rewrite transpose_entry by lia. f_equal; lia.
Qed.
Lemma set_column_transpose (m r : mat T) i : wf r -> is_row_vector r = true -> set_column m i (transpose r) = set_column m i r.
Proof.
  intros Hr Hc. unfold set_column, must_be_vector. rewrite Hc. rewrite is_row_vector_eqb in Hc. apply Nat.eqb_eq in Hc.
  assert (Hv : is_vector r = true) by (apply is_vector_iff; now left).
  assert (Hv' : is_vector (transpose r) = true) by (apply is_vector_iff; right; now rewrite transpose_nc).
  rewrite Hv, Hv'. cbn [bind]. rewrite is_row_vector_eqb, transpose_nr.
  destruct (Nat.eqb_spec (nc r) 1) as [E|E]; [|reflexivity]. rewrite transpose_transpose by assumption.
  assert (Et : transpose r = r); [|rewrite Et; now rewrite ?transpose_nr, ?transpose_nc, ?Et, ?Hc, ?E].
  apply mat_ext; [apply transpose_wf|assumption|rewrite transpose_nr; lia|rewrite transpose_nc; lia|].
  rewrite transpose_nr, transpose_nc. intros a b Ha Hb. rewrite transpose_entry by lia. f_equal; lia.
Qed.

(** the common part of set_row / set_column once the operand object is fixed *)
Lemma mutates_set_with o p f h h1 : Inv h -> fr nobody nobody h h1 -> Inv h1 -> o < length (objs h) -> p < length (objs h1) ->
  (forall m m' r, f m r = Ok m' -> nr m' = nr m /\ nc m' = nc m) ->
  let x := bindM (reset_cache o) (fun _ => bindM (m_data o) (fun v => bindM (m_read v) (fun m => bindM (m_contents p) (fun r => bindM (lift (f m r)) (fun m' => m_store v m'))))) in
  mutates (fun _ => x h1) o (eq o) h (f (contents h o) (contents h1 p)) /\ cached (the_obj (fst (x h1)) o) = [].
Proof.
  intros I F01 I1 Ho Hp Hf x. pose proof (F_no _ _ _ _ F01) as Hno.
  pose proof (mutates_reset o (fun m => f m (contents h1 p)) h1 I1 ltac:(lia) (fun m m' => Hf m m' _)) as Hm. cbv zeta in Hm.
  assert (Ex : x h1 = bindM (reset_cache o) (fun _ => bindM (m_data o) (fun v => bindM (m_read v) (fun m => bindM (lift (f m (contents h1 p))) (fun m' => m_store v m')))) h1).
  { unfold x, bindM, m_data, m_read, m_contents, lift. destruct (reset_cache_spec o h1 I1 ltac:(lia)) as (h2 & E2 & I2 & F2 & _). rewrite E2.
    rewrite (contents_fr0 (eq o) h1 h2 p F2 I1 Hp). reflexivity. }
  unfold mutates in *. rewrite Ex. clear Ex x.
  assert (C1 : contents h1 o = contents h o) by (apply (contents_fr0 nobody); assumption). rewrite C1 in Hm.
  destruct (bindM _ _ h1) as [h2 r]. destruct Hm as ((I2 & F2 & V2) & K2). split; [|exact K2].
  split; [exact I2|]. rewrite (F_data _ _ _ _ F01 o Ho) in F2. split; [|exact V2].
  eapply fr_trans_B; [apply fr_none; exact F01|exact F2].
Qed.

Definition resets (x : M unit) (o : nat) (h : heap) : Prop :=
  (exists e, x h = (h, Err e)) \/ cached (the_obj (fst (x h)) o) = [].

Lemma mutates_set_row o i p h : Inv h -> o < length (objs h) -> p < length (objs h) ->
  mutates (m_set_row o i p) o (eq o) h (set_row (contents h o) i (contents h p)) /\ resets (m_set_row o i p) o h.
Proof.
  intros I Ho Hp. unfold resets.
  destruct (must_be_vector (contents h p)) as [u|e] eqn:Ev.
  2:{ assert (Ex : m_set_row o i p h = (h, Err e)) by (unfold m_set_row, bindM, m_contents, lift; now rewrite Ev).
      unfold mutates. rewrite Ex. cbn [fst snd]. split; [|left; eauto].
      split; [assumption|]. split; [apply fr_refl|]. unfold set_row. rewrite Ev. cbn [bind]. auto. }
  destruct (is_column_vector (contents h p)) eqn:Ec.
  - pose proof (makes_transpose p nobody h I) as Ht. unfold makes in Ht. destruct (m_transpose p h) as [h1 [t|e]] eqn:Et; [|destruct Ht as (_ & _ & [])].
    destruct Ht as (I1 & F1 & V1 & V2 & V3 & V4 & _ & _).
    pose proof (mutates_set_with o t (fun m r => set_row m i r) h h1 I F1 I1 Ho V2 (fun m m' r => set_row_shape m m' r i)) as [Hm Hk].
    rewrite V4, norm_wf, set_row_transpose in Hm by (apply contents_wf || apply transpose_wf || assumption).
    assert (Ex : m_set_row o i p h = bindM (reset_cache o) (fun _ => bindM (m_data o) (fun v => bindM (m_read v) (fun m => bindM (m_contents t) (fun r => bindM (lift (set_row m i r)) (fun m' => m_store v m'))))) h1).
    { unfold m_set_row, bindM at 1, m_contents at 1. unfold bindM at 1, lift at 1. rewrite Ev, Ec. unfold bindM at 1. rewrite Et. reflexivity. }
    unfold mutates in *. rewrite Ex. split; [exact Hm|]. right. exact Hk.
  - pose proof (mutates_set_with o p (fun m r => set_row m i r) h h I (fr_refl _ _ _) I Ho Hp (fun m m' r => set_row_shape m m' r i)) as [Hm Hk].
    assert (Ex : m_set_row o i p h = bindM (reset_cache o) (fun _ => bindM (m_data o) (fun v => bindM (m_read v) (fun m => bindM (m_contents p) (fun r => bindM (lift (set_row m i r)) (fun m' => m_store v m'))))) h).
    { unfold m_set_row, bindM at 1, m_contents at 1. unfold bindM at 1, lift at 1. rewrite Ev, Ec. reflexivity. }
    unfold mutates in *. rewrite Ex. split; [exact Hm|]. right. exact Hk.
Qed.
Lemma mutates_set_column o i p h : Inv h -> o < length (objs h) -> p < length (objs h) ->
  mutates (m_set_column o i p) o (eq o) h (set_column (contents h o) i (contents h p)) /\ resets (m_set_column o i p) o h.
Proof.
  intros I Ho Hp. unfold resets.
  destruct (must_be_vector (contents h p)) as [u|e] eqn:Ev.
  2:{ assert (Ex : m_set_column o i p h = (h, Err e)) by (unfold m_set_column, bindM, m_contents, lift; now rewrite Ev).
      unfold mutates. rewrite Ex. cbn [fst snd]. split; [|left; eauto].
      split; [assumption|]. split; [apply fr_refl|]. unfold set_column. rewrite Ev. cbn [bind]. auto. }
  destruct (is_row_vector (contents h p)) eqn:Ec.
  - pose proof (makes_transpose p nobody h I) as Ht. unfold makes in Ht. destruct (m_transpose p h) as [h1 [t|e]] eqn:Et; [|destruct Ht as (_ & _ & [])].
    destruct Ht as (I1 & F1 & V1 & V2 & V3 & V4 & _ & _).
    pose proof (mutates_set_with o t (fun m r => set_column m i r) h h1 I F1 I1 Ho V2 (fun m m' r => set_column_shape m m' r i)) as [Hm Hk].
    rewrite V4, norm_wf, set_column_transpose in Hm by (apply contents_wf || apply transpose_wf || assumption).
    assert (Ex : m_set_column o i p h = bindM (reset_cache o) (fun _ => bindM (m_data o) (fun v => bindM (m_read v) (fun m => bindM (m_contents t) (fun r => bindM (lift (set_column m i r)) (fun m' => m_store v m'))))) h1).
    { unfold m_set_column, bindM at 1, m_contents at 1. unfold bindM at 1, lift at 1. rewrite Ev, Ec. unfold bindM at 1. rewrite Et. reflexivity. }
    unfold mutates in *. rewrite Ex. split; [exact Hm|]. right. exact Hk.
  - pose proof (mutates_set_with o p (fun m r => set_column m i r) h h I (fr_refl _ _ _) I Ho Hp (fun m m' r => set_column_shape m m' r i)) as [Hm Hk].
    assert (Ex : m_set_column o i p h = bindM (reset_cache o) (fun _ => bindM (m_data o) (fun v => bindM (m_read v) (fun m => bindM (m_contents p) (fun r => bindM (lift (set_column m i r)) (fun m' => m_store v m'))))) h).
    { unfold m_set_column, bindM at 1, m_contents at 1. unfold bindM at 1, lift at 1. rewrite Ev, Ec. reflexivity. }
    unfold mutates in *. rewrite Ex. split; [exact Hm|]. right. exact Hk.
Qed.

(** ---- in-place on a fresh copy ---- *)
Lemma fr_trans_new k X h h1 h2 : fr nobody X h h1 -> fr (eq k) nobody h1 h2 -> length (bufs h) <= k -> fr nobody X h h2.
Proof.
  intros [a1 a2 a3 a4 a5 a6 a7] [b1 b2 b3 b4 b5 b6 b7] Hk. split; try lia; [ | | | |now apply (fr_new_trans h h1 h2)].
  - intros q Hq HB. rewrite b3 by lia. auto.
  - intros q Hq. destruct (b4 q ltac:(lia)) as [-> ->]. auto.
  - intros o Ho. rewrite b5 by lia. auto.
  - intros o Ho HX. destruct (b6 o ltac:(lia) (fun x => x)) as [-> ->]. auto.
Qed.

(** copy, mutate the copy, return it *)
Lemma makes_on_copy (mut : nat -> M unit) (f : mat T -> res (mat T)) o X h : Inv h ->
  (forall c h1, Inv h1 -> fr nobody nobody h h1 -> c < length (objs h1) -> contents h1 c = contents h o ->
     mutates (mut c) c nobody h1 (f (contents h1 c))) ->
  makes (bindM (m_copy o) (fun c => bindM (mut c) (fun _ => ret c))) X h (f (contents h o)).
Proof.
  intros I Hm. pose proof (makes_m_copy o nobody h I) as Hc. unfold makes, bindM in *.
  destruct (m_copy o h) as [h1 [c|e]]; [|destruct Hc as (_ & _ & [])]. destruct Hc as (I1 & F1 & V1 & V2 & V3 & V4 & V5 & V6).
  rewrite norm_wf in V4 by apply contents_wf.
  specialize (Hm c h1 I1 F1 V2 V4). unfold mutates in Hm. destruct (mut c h1) as [h2 [u|e]].
  - destruct Hm as (I2 & F2 & Hv). rewrite V4 in Hv. destruct (f (contents h o)) as [m|]; [|contradiction]. unfold ret.
    split; [exact I2|]. split; [eapply fr_trans_new; [apply fr_none; exact F1|exact F2|exact V3]|].
    pose proof (F_no _ _ _ _ F2). rewrite (F_data _ _ _ _ F2 c V2). destruct (F_cache _ _ _ _ F2 c V2 (fun x => x)) as [E1 E2].
    repeat split; auto; try lia.
    + unfold cached. rewrite E1, E2. exact V5.
    + eapply uncached_fr; eauto.
  - destruct Hm as (I2 & F2 & Hv). rewrite V4 in Hv. destruct (f (contents h o)) as [m|]; [contradiction|]. destruct Hv as [Hv _].
    split; [exact I2|]. split; [eapply fr_trans_new; [apply fr_none; exact F1|exact F2|exact V3]|]. exact Hv.
Qed.


Lemma makes_vector_op op o vec X h : Inv h -> vec < length (objs h) ->
  makes (m_vector_op op o vec) X h (vector_op op (contents h o) (contents h vec)).
Proof.
  intros I Hv. apply (makes_on_copy (fun c => m_vector_op_modify op c vec) (fun m => vector_op op m (contents h vec)) o X h I).
  intros c h1 I1 F1 Hc Ec. rewrite vector_op_modify_eq. rewrite <- (contents_fr0 nobody h h1 vec F1 I Hv). now apply mutates_modify.
Qed.
Lemma makes_apply_elementwise body o X h : Inv h ->
  makes (m_apply_elementwise o body) X h (Ok (apply_elementwise (contents h o) body)).
Proof.
  intros I.
  pose proof (makes_on_copy (fun c => bindM (m_data c) (fun v => bindM (m_read v) (fun m => m_store v (apply_elementwise m body))))
    (fun m => Ok (apply_elementwise m body)) o X h I) as Hm.
  unfold makes in *.
  assert (Ex : m_apply_elementwise o body h = bindM (m_copy o) (fun c => bindM (bindM (m_data c) (fun v => bindM (m_read v) (fun m => m_store v (apply_elementwise m body)))) (fun _ => ret c)) h).
  { unfold m_apply_elementwise, bindM. destruct (m_copy o h) as [h1 [c|e]]; reflexivity. }
  rewrite Ex. apply Hm. intros c h1 I1 F1 Hc Ec. unfold mutates, bindM, m_data, m_read. fold (contents h1 c).
  apply (store_self c _ h1 I1 Hc); reflexivity.
Qed.
Lemma makes_err x X h e : Inv h -> x h = (h, Err e) -> makes x X h (Err e).
Proof. intros I E. unfold makes. rewrite E. split; [assumption|]. split; [apply fr_refl|reflexivity]. Qed.
Lemma makes_clip l u o X h : Inv h -> makes (m_clip o l u) X h (clip (contents h o) l u).
Proof.
  intros I. unfold m_clip, clip. destruct (nltb u l); [now apply makes_err|]. now apply makes_apply_elementwise.
Qed.
Lemma makes_eqM x y X h val : x h = y h -> makes y X h val -> makes x X h val.
Proof. unfold makes. now intros ->. Qed.
Lemma makes_scale_col o vec X h : Inv h -> vec < length (objs h) ->
  makes (m_scale_by_column_vector o vec) X h (scale_by_column_vector (contents h o) (contents h vec)).
Proof.
  intros I Hv. unfold scale_by_column_vector. 
  destruct (must_be_column_vector (contents h vec)) as [[]|e] eqn:E1; cbn [bind].
  2:{ apply makes_err; [assumption|]. unfold m_scale_by_column_vector, bindM, m_contents, lift. now rewrite E1. }
  destruct (dimensions_must_match true false false false (contents h o) (contents h vec)) as [[]|e] eqn:E2; cbn [bind].
  2:{ apply makes_err; [assumption|]. unfold m_scale_by_column_vector, bindM, m_contents, lift. now rewrite E1, E2. }
  apply (makes_eqM _ (m_vector_op nmul o vec)); [|now apply makes_vector_op].
  unfold m_scale_by_column_vector, bindM, m_contents, lift. now rewrite E1, E2.
Qed.
Lemma makes_scale_row o vec X h : Inv h -> o < length (objs h) -> vec < length (objs h) ->
  makes (m_scale_by_row_vector o vec) X h (scale_by_row_vector (contents h o) (contents h vec)).
Proof.
  intros I Ho Hv. unfold scale_by_row_vector. 
  destruct (must_be_column_vector (contents h vec)) as [[]|e] eqn:E1; cbn [bind].
  2:{ apply makes_err; [assumption|]. unfold m_scale_by_row_vector, bindM, m_contents, lift. now rewrite E1. }
  destruct (dimensions_must_match false false true false (contents h o) (contents h vec)) as [[]|e] eqn:E2; cbn [bind].
  2:{ apply makes_err; [assumption|]. unfold m_scale_by_row_vector, bindM, m_contents, lift. now rewrite E1, E2. }
  apply (makes_eqM _ (bindM (m_transpose vec) (fun t => m_vector_op nmul o t))).
  { unfold m_scale_by_row_vector, bindM, m_contents, lift. now rewrite E1, E2. }
  apply (makes_ext _ _ _ (do t <- Ok (transpose (contents h vec)); mul_by_vector (contents h o) t)); [reflexivity|].
  apply makes_bind; [now apply makes_transpose|]. intros m h1 t [= <-] I1 F1 V1 V2 V3 V4 _ _.
  rewrite norm_wf in V4 by apply transpose_wf. rewrite <- V4, <- (contents_fr0 X h h1 o F1 I Ho). now apply makes_vector_op.
Qed.
Lemma makes_unary o f X h : Inv h -> makes (bindM (m_contents o) (fun m => fresh (f m))) X h (f (contents h o)).
Proof. intros I. apply (makes_eqM _ (fresh (f (contents h o)))); [reflexivity|now apply makes_fresh]. Qed.
Lemma makes_binary o p f X h : Inv h -> makes (bindM (m_contents o) (fun m => bindM (m_contents p) (fun n => fresh (f m n)))) X h (f (contents h o) (contents h p)).
Proof. intros I. apply (makes_eqM _ (fresh (f (contents h o) (contents h p)))); [reflexivity|now apply makes_fresh]. Qed.

(** ---- eigenvalue decomposition ---- *)
Section E.
Variable eig : mat T -> res (list T * mat T).
Definition row_of_list (l : list T) : mat T := Mat 1 (length l) [l].
Lemma row_of_list_wf l : wf (row_of_list l).
Proof. split; [reflexivity|]. repeat constructor. Qed.
(** what a correct decomposition of the contents m would be *)
Definition eig_of (m : mat T) : res (mat T * mat T) :=
  do lv <- eig m; Ok (transpose (row_of_list (fst lv)), norm_mat (snd lv)).
(** what the object will report *)
Definition eig_val (h : heap) (o : nat) : res (mat T * mat T) :=
  match o_eig (the_obj h o) with
  | Some (a, b) => Ok (contents h a, contents h b)
  | None => eig_of (contents h o)
  end.

Lemma m_make_eig_spec o h : Inv h -> o < length (objs h) ->
  let '(h', r) := m_make_eig eig o h in
  Inv h' /\ fr nobody (eq o) h h' /\ o_svd (the_obj h' o) = o_svd (the_obj h o) /\
  match r, eig_val h o with
  | Ok (a, b), Ok (l, w) => a < length (objs h') /\ b < length (objs h') /\ contents h' a = l /\ contents h' b = w /\
       o_eig (the_obj h' o) = Some (a, b) /\ vcols (o_data (the_obj h' a)) = 1 /\
       (o_eig (the_obj h o) = Some (a, b) \/ (o_eig (the_obj h o) = None /\ length (objs h) <= a /\ length (objs h) <= b))
  | Err e, Err e' => e = e' /\ o_eig (the_obj h' o) = None
  | _, _ => False
  end.
Proof.
  intros I Ho. unfold m_make_eig, bindM at 1, get_eig, eig_val. destruct (o_eig (the_obj h o)) as [[a b]|] eqn:Ee.
  - unfold ret. split; [assumption|]. split; [apply fr_refl|]. split; [reflexivity|].
    assert (Hin : forall p, In p [a; b] -> p < length (objs h)).
    { intros p Hp. apply (I_cache _ I o p Ho). unfold cached. rewrite Ee. apply in_or_app. now left. }
    split; [apply Hin; now left|]. split; [apply Hin; right; now left|]. split; [reflexivity|]. split; [reflexivity|]. split; [assumption|].
    split; [now apply (I_col _ I o a b)|]. now left.
  - unfold bindM at 1, m_contents, bindM at 1, lift, eig_of. destruct (eig (contents h o)) as [[l w]|e]; cbn [bind fst snd].
    2:{ split; [assumption|]. split; [apply fr_refl|]. auto. }
    fold (row_of_list l).
    destruct (np_new_spec (row_of_list l) h I) as (h1 & E1 & I1 & F1 & G1 & U1 & R1 & O1 & L1).
    unfold bindM at 1. rewrite E1. unfold bindM at 1.
    assert (Ha : makes (matrix_of_1d (new_view h (row_of_list l))) nobody h1 (Ok (row_of_list l))).
    { pose proof (makes_copy_view (new_view h (row_of_list l)) nobody h1 I1) as Hm. rewrite R1 in Hm.
      rewrite norm_wf in Hm by apply row_of_list_wf. exact Hm. }
    unfold makes in Ha. destruct (matrix_of_1d (new_view h (row_of_list l)) h1) as [h2 [a|e]]; [|destruct Ha as (_ & _ & [])].
    destruct Ha as (I2 & F2 & A1 & A2 & A3 & A4 & A5 & A6). rewrite norm_wf in A4 by apply row_of_list_wf.
    unfold bindM at 1. pose proof (makes_transpose a nobody h2 I2) as Ht. unfold makes in Ht.
    destruct (m_transpose a h2) as [h3 [t|e]]; [|destruct Ht as (_ & _ & [])].
    destruct Ht as (I3 & F3 & T1 & T2 & T3 & T4 & T5 & T6). rewrite A4, norm_wf in T4 by apply transpose_wf.
    pose proof (makes_fresh nobody h3 (Ok w) I3) as Hb. unfold makes, fresh, bindM, lift in Hb. unfold bindM at 1.
    destruct (np_new w h3) as [h4' [v|e]]; [|destruct Hb as (_ & _ & [])]. unfold bindM at 1.
    destruct (matrix_of v h4') as [h4 [b|e]]; [|destruct Hb as (_ & _ & [])]. clear h4'.
    destruct Hb as (I4 & F4 & B1 & B2 & B3 & B4 & B5 & B6).
    assert (F04 : fr nobody nobody h h4) by (eapply fr_trans; [exact F1|]; eapply fr_trans; [exact F2|]; eapply fr_trans; [exact F3|exact F4]).
    pose proof (F_no _ _ _ _ F2) as N2. pose proof (F_no _ _ _ _ F3) as N3. pose proof (F_no _ _ _ _ F4) as N4. pose proof (F_no _ _ _ _ F04) as N04. rewrite O1 in *.
    assert (U4t : uncached h4 t) by (eapply uncached_fr; [exact F4|exact T2|exact T6]).
    assert (Hvc : vcols (o_data (the_obj h4 t)) = 1).
    { rewrite (F_data _ _ _ _ F4 t T2). change (vcols (o_data (the_obj h3 t))) with (nc (contents h3 t)). rewrite T4. reflexivity. }
    destruct (F_cache _ _ _ _ F04 o Ho (fun x => x)) as [Ce Cs].
    unfold bindM, set_eig.
    destruct (set_caches_spec o (Some (t, b)) (o_svd (the_obj h4 o)) h h4 I4) as (h5 & E5 & I5 & F5 & Bu5 & L5 & O5 & Oo5).
    + eapply fr_weaken; [| |exact F04]; unfold nobody; tauto.
    + exact Ho.
    + intros p Hp. unfold cached in Hp. cbn [o_eig o_svd] in Hp. apply in_app_or in Hp as [[<-|[<-|[]]]|Hp]; [lia|lia|].
      apply (I_cache _ I4 o p); [lia|]. unfold cached. apply in_or_app. now right.
    + intros p o' Hp Ho' Hn. unfold cached in Hp. cbn [o_eig o_svd] in Hp. apply in_app_or in Hp as [[<-|[<-|[]]]|Hp]; [now apply U4t|now apply B6|].
      intros Hc. apply Hn. apply (I_own _ I4 o' o p); auto; [lia|]. unfold cached. apply in_or_app. now right.
    + intros a' b' [= <- <-]. exact Hvc.
    + intros p Hp. unfold cached in Hp. cbn [o_eig o_svd] in Hp. apply in_app_or in Hp as [[<-|[<-|[]]]|Hp]; [left; lia|left; lia|].
      right. rewrite Cs in Hp. unfold cached. apply in_or_app. now right.
    + rewrite E5. unfold ret. split; [exact I5|]. split; [exact F5|]. rewrite O5. cbn [o_eig o_svd]. split; [exact Cs|].
      assert (C5 : forall p, contents h5 p = read h4 (o_data (the_obj h5 p))) by (intros p; unfold contents, read, buf; rewrite Bu5; reflexivity).
      assert (Ot : t <> o) by lia. assert (Ob : b <> o) by lia.
      split; [lia|]. split; [lia|]. rewrite !C5, (Oo5 t Ot), (Oo5 b Ob). fold (contents h4 t) (contents h4 b).
      split; [rewrite (contents_fr0 nobody h3 h4 t F4 I3 T2); exact T4|]. split; [exact B4|]. split; [reflexivity|].
      split; [exact Hvc|]. right. split; [reflexivity|]. lia.
Qed.

(** the cached decomposition, if any, is that of the current contents *)
Definition eig_ok (h : heap) (o : nat) : Prop :=
  forall a b, o_eig (the_obj h o) = Some (a, b) -> eig_of (contents h o) = Ok (contents h a, contents h b).
Lemma eig_ok_val h o : eig_ok h o -> eig_val h o = eig_of (contents h o).
Proof. unfold eig_ok, eig_val. destruct (o_eig (the_obj h o)) as [[a b]|]; [|reflexivity]. intros E. symmetry. now apply E. Qed.
Lemma eig_ok_fr B h h' o : Inv h -> o < length (objs h) -> fr B nobody h h' -> ~ B (vbuf (o_data (the_obj h o))) ->
  (forall p, In p (cached (the_obj h o)) -> ~ B (vbuf (o_data (the_obj h p)))) -> eig_ok h o -> eig_ok h' o.
Proof.
  intros I Ho F HB HC Hk a b E. destruct (F_cache _ _ _ _ F o Ho (fun x => x)) as [Ee _]. rewrite Ee in E.
  assert (Ha : In a (cached (the_obj h o)) /\ In b (cached (the_obj h o))).
  { unfold cached. rewrite E. split; apply in_or_app; left; [now left|right; now left]. }
  destruct Ha as [Ha Hb]. rewrite (contents_fr B nobody h h' o F I Ho HB).
  rewrite (contents_fr B nobody h h' a F I (I_cache _ I o a Ho Ha) (HC a Ha)).
  rewrite (contents_fr B nobody h h' b F I (I_cache _ I o b Ho Hb) (HC b Hb)). now apply Hk.
Qed.

Lemma makes_after_eig o f k h : Inv h -> o < length (objs h) ->
  (forall h1 a b l w, eig_val h o = Ok (l, w) -> Inv h1 -> fr nobody (eq o) h h1 -> a < length (objs h1) -> b < length (objs h1) ->
     contents h1 a = l -> contents h1 b = w -> vcols (o_data (the_obj h1 a)) = 1 -> makes (f (a, b)) nobody h1 (k (l, w))) ->
  let x := bindM (m_make_eig eig o) f in
  makes x (eq o) h (do p <- eig_val h o; k p) /\
  (eig_ok h o -> eig_ok (fst (x h)) o) /\ o_svd (the_obj (fst (x h)) o) = o_svd (the_obj h o).
Proof.
  intros I Ho Hf. pose proof (m_make_eig_spec o h I Ho) as Hm. unfold makes, bindM. destruct (m_make_eig eig o h) as [h1 [[a b]|e]].
  - destruct Hm as (I1 & F1 & Sv & Hm). unfold eig_ok. destruct (eig_val h o) as [[l w]|e] eqn:Ev; [|contradiction]. destruct Hm as (A1 & A2 & A3 & A4 & A6 & A5 & _).
    cbn [bind]. specialize (Hf h1 a b l w eq_refl I1 F1 A1 A2 A3 A4 A5). unfold makes in Hf. destruct (f (a, b) h1) as [h2 r].
    destruct Hf as (I2 & F2 & Hv). cbn [fst].
    pose proof (F_nb _ _ _ _ F1). pose proof (F_no _ _ _ _ F1). pose proof (F_no _ _ _ _ F2).
    split; [|split].
    + split; [exact I2|]. split; [eapply fr_trans; [exact F1|now apply fr_none]|].
      destruct r as [o2|e], (k (l, w)); try contradiction; [|assumption]. destruct Hv as (? & ? & ? & ? & ? & ?). repeat split; auto; lia.
    + intros Hok a' b' E. destruct (F_cache _ _ _ _ F2 o ltac:(lia) (fun x => x)) as [Ee _]. rewrite Ee, A6 in E. injection E as <- <-.
      rewrite (contents_fr0 nobody h1 h2 a F2 I1 A1), (contents_fr0 nobody h1 h2 b F2 I1 A2), (contents_fr0 nobody h1 h2 o F2 I1 ltac:(lia)), (contents_fr0 _ h h1 o F1 I Ho).
      rewrite A3, A4, <- Ev. symmetry. apply eig_ok_val. exact Hok.
    + destruct (F_cache _ _ _ _ F2 o ltac:(lia) (fun x => x)) as [_ Es]. now rewrite Es.
  - destruct Hm as (I1 & F1 & Sv & Hm). destruct (eig_val h o) as [[l w]|e']; [contradiction|]. destruct Hm as [Hm Hn]. cbn [bind fst].
    split; [auto|]. split; [|exact Sv]. intros _ a' b' E. congruence.
Qed.
Definition makesE (x : M nat) (o : nat) (h : heap) (val : res (mat T)) : Prop :=
  makes x (eq o) h val /\ (eig_ok h o -> eig_ok (fst (x h)) o) /\ o_svd (the_obj (fst (x h)) o) = o_svd (the_obj h o).
Lemma makes_get_eigenvectors o h : Inv h -> o < length (objs h) ->
  makesE (m_get_eigenvectors eig o) o h (do p <- eig_val h o; Ok (snd p)).
Proof.
  intros I Ho. apply makes_after_eig; auto. intros h1 a b l w _ I1 F1 Ha Hb Ca Cb _. cbn [snd]. rewrite <- Cb. now apply makes_m_copy.
Qed.
Lemma makes_get_eigenvalues o h : Inv h -> o < length (objs h) ->
  makesE (m_get_eigenvalues eig o) o h (do p <- eig_val h o; Ok (fst p)).
Proof.
  intros I Ho. apply makes_after_eig; auto. intros h1 a b l w _ I1 F1 Ha Hb Ca Cb _. cbn [fst]. rewrite <- Ca. now apply makes_m_copy.
Qed.
Lemma makes_get_eig_D o h : Inv h -> o < length (objs h) ->
  makesE (m_get_eig_D eig o) o h (do p <- eig_val h o; vector_to_diagonal (fst p)).
Proof.
  intros I Ho. apply makes_after_eig; auto. intros h1 a b l w _ I1 F1 Ha Hb Ca Cb _. cbn [fst]. rewrite <- Ca. now apply (makes_unary a).
Qed.
Lemma makes_get_eigenvectors_sorted o asc h : Inv h -> o < length (objs h) ->
  makesE (m_get_eigenvectors_sorted eig o asc) o h (do p <- eig_val h o; get_eigenvectors_sorted (nr (contents h o)) p asc).
Proof.
  intros I Ho. apply makes_after_eig; auto. intros h1 a b l w _ I1 F1 Ha Hb Ca Cb _. cbn [fst snd].
  apply (makes_eqM _ (fresh (get_eigenvectors_sorted (nr (contents h o)) (l, w) asc))); [|now apply makes_fresh].
  unfold bindM, m_contents. rewrite Ca, Cb, (contents_fr0 (eq o) h h1 o F1 I Ho). reflexivity.
Qed.
Lemma makesE_eq x y o h val : x h = y h -> makesE y o h val -> makesE x o h val.
Proof. unfold makesE, makes. now intros ->. Qed.
Lemma makesE_ext x o h val val' : val = val' -> makesE x o h val -> makesE x o h val'.
Proof. now intros ->. Qed.
Lemma bindM_assoc {A B C} (x : M A) (f : A -> M B) (g : B -> M C) (h : heap) : bindM (bindM x f) g h = bindM x (fun a => bindM (f a) g) h.
Proof. unfold bindM. destruct (x h) as [h1 [a|e]]; reflexivity. Qed.
Lemma makes_dominant o h : Inv h -> o < length (objs h) ->
  makesE (m_get_dominant_eigenvector eig o) o h (do p <- eig_val h o; do w <- get_eigenvectors_sorted (nr (contents h o)) p false; get_column (norm_mat w) 0).
Proof.
  intros I Ho. unfold m_get_dominant_eigenvector, m_get_eigenvectors_sorted.
  eapply makesE_eq; [apply bindM_assoc|]. 
  apply makes_after_eig; auto. intros h1 a b l w _ I1 F1 Ha Hb Ca Cb _. cbn [fst snd].
  apply makes_bind.
  - apply (makes_eqM _ (fresh (get_eigenvectors_sorted (nr (contents h o)) (l, w) false))); [|now apply makes_fresh].
    unfold bindM, m_contents. rewrite Ca, Cb, (contents_fr0 (eq o) h h1 o F1 I Ho). reflexivity.
  - intros m h2 c _ I2 F2 _ _ _ Cc _ _. rewrite <- Cc. now apply makes_get_column.
Qed.

(** replacing the data attribute by the flipped view *)
Lemma set_data_spec c h : Inv h -> c < length (objs h) ->
  exists h', set_data c (view_flip (o_data (the_obj h c))) h = (h', Ok tt) /\ Inv h' /\ bufs h' = bufs h /\
    length (objs h') = length (objs h) /\ (forall o', o' <> c -> the_obj h' o' = the_obj h o') /\
    the_obj h' c = Obj (view_flip (o_data (the_obj h c))) (o_eig (the_obj h c)) (o_svd (the_obj h c)).
Proof.
  intros I Hc. set (x := Obj (view_flip (o_data (the_obj h c))) (o_eig (the_obj h c)) (o_svd (the_obj h c))).
  exists (Heap (bufs h) (upd (objs h) c x)). split; [reflexivity|]. cbn [bufs objs].
  assert (Ho : forall o', the_obj (Heap (bufs h) (upd (objs h) c x)) o' = if o' =? c then x else the_obj h o').
  { intros o'. unfold the_obj. cbn [objs]. now apply nth_upd_if. }
  assert (Hl : length (upd (objs h) c x) = length (objs h)) by apply upd_length.
  assert (Hca : forall o', cached (the_obj (Heap (bufs h) (upd (objs h) c x)) o') = cached (the_obj h o')).
  { intros o'. rewrite Ho. destruct (Nat.eqb_spec o' c) as [->|]; reflexivity. }
  assert (Hvb : forall o', vbuf (o_data (the_obj (Heap (bufs h) (upd (objs h) c x)) o')) = vbuf (o_data (the_obj h o'))).
  { intros o'. rewrite Ho. destruct (Nat.eqb_spec o' c) as [->|]; reflexivity. }
  split; [|split; [reflexivity|split; [exact Hl|split]]].
  - split; cbn [bufs objs]; rewrite ?Hl.
    + intros o' Ho'. rewrite Ho. destruct (Nat.eqb_spec o' c) as [->|].
      2:{ apply (I_view _ I o' Ho'). }
      destruct (I_view _ I c Hc) as (G1 & G2 & G3). unfold x. cbn [o_data]. split; [exact G1|].
      cbn [view_flip vrows vcols vidx vbuf]. split.
      * intros i j Hi Hj. apply G2; lia.
      * intros i j i' j' Hi Hj Hi' Hj' E. apply G3 in E; lia.
    + apply (I_wf _ I).
    + intros o1 o2 H1 H2 Hn. rewrite !Hvb. now apply (I_sep _ I).
    + intros o1 p H1. rewrite Hca. now apply (I_cache _ I).
    + intros o1 o2 p H1 H2. rewrite !Hca. now apply (I_own _ I).
    + intros o1 a b H1 E. assert (E' : o_eig (the_obj h o1) = Some (a, b)).
      { rewrite Ho in E. destruct (Nat.eqb_spec o1 c) as [->|]; exact E. }
      rewrite Ho. pose proof (I_col _ I o1 a b H1 E') as Hv. destruct (Nat.eqb_spec a c) as [->|]; exact Hv.
  - intros o' Hn. rewrite Ho. now rewrite (proj2 (Nat.eqb_neq _ _) Hn).
  - rewrite Ho, Nat.eqb_refl. reflexivity.
Qed.

Lemma get_eigenvalues_sorted_wf (m n : mat T) asc : wf (get_eigenvalues_sorted (m, n) asc).
Proof.
  unfold get_eigenvalues_sorted. cbn [fst]. split; cbn.
  - rewrite map_length. destruct asc; [|rewrite rev_length]; rewrite <- (Permutation_length (stable_sort_perm _ _)), map_length, seq_length; reflexivity.
  - apply Forall_forall. intros x Hx. apply in_map_iff in Hx as (y & <- & _). reflexivity.
Qed.
Lemma get_eigenvalues_sorted_flip (m n n' : mat T) :
  get_eigenvalues_sorted (m, n) false =
  mk (nr m) 1 (fun i j => entry (get_eigenvalues_sorted (m, n') true) (nr m - 1 - i) (1 - 1 - j)).
Proof.
  apply mat_ext; [apply get_eigenvalues_sorted_wf|apply mk_wf|reflexivity|reflexivity|].
  change (nr (get_eigenvalues_sorted (m, n) false)) with (nr m). change (nc (get_eigenvalues_sorted (m, n) false)) with 1.
  intros i j Hi Hj. rewrite entry_mk by assumption. assert (j = 0) by lia. subst j.
  unfold get_eigenvalues_sorted, entry. cbn [fst rws].
  set (l := stable_sort (fun a b => nleb a b) (map (fun i0 => entry m i0 0) (seq 0 (nr m)))).
  fold (entry (T:=T)).
  assert (Hl : length l = nr m).
  { unfold l. rewrite <- (Permutation_length (stable_sort_perm _ _)), map_length. apply seq_length. }
  change (1 - 1 - 0) with 0.
  rewrite (nth_map' _ (rev l) i _ n0) by (rewrite rev_length; lia). rewrite (nth_map' _ l (nr m - 1 - i) _ n0) by lia.
  rewrite rev_nth by lia. cbn [nth]. f_equal. lia.
Qed.
Lemma makes_get_eigenvalues_sorted o asc h : Inv h -> o < length (objs h) ->
  makesE (m_get_eigenvalues_sorted eig o asc) o h (do p <- eig_val h o; Ok (get_eigenvalues_sorted p asc)).
Proof.
  intros I Ho. unfold m_get_eigenvalues_sorted, m_get_eigenvalues.
  eapply makesE_eq; [apply bindM_assoc|]. 
  apply makes_after_eig; auto. intros h1 a b l w _ I1 F1 Ha Hb Ca Cb Hone. cbn [fst snd].
  assert (Hl1 : nc l = 1) by (rewrite <- Ca; exact Hone).
  assert (Hlw : wf l) by (rewrite <- Ca; apply contents_wf).
  pose proof (makes_m_copy a nobody h1 I1) as Hm. unfold makes, bindM in *. destruct (m_copy a h1) as [h2 [c|e]]; [|destruct Hm as (_ & _ & [])].
  destruct Hm as (I2 & F2 & V1 & V2 & V3 & V4 & V5 & V6). rewrite Ca, norm_wf in V4 by assumption.
  unfold m_data, m_read. fold (contents h2 c). rewrite V4.
  pose proof (store_self c (get_eigenvalues_sorted (l, l) true) h2 I2 V2) as Hs. rewrite V4 in Hs. specialize (Hs eq_refl ltac:(now rewrite Hl1)).
  unfold mutates in Hs. 
  destruct (m_store (o_data (the_obj h2 c)) (get_eigenvalues_sorted (l, l) true) h2) as [h3 [u|e]]; [|destruct Hs as (_ & _ & [])].
  destruct Hs as (I3 & F3 & C3). pose proof (F_no _ _ _ _ F3) as N3.
  assert (F13 : fr nobody nobody h1 h3) by (eapply fr_trans_new; eauto).
  assert (D3 : o_data (the_obj h3 c) = o_data (the_obj h2 c)) by (apply (F_data _ _ _ _ F3); assumption).
  assert (K3 : cached (the_obj h3 c) = []).
  { destruct (F_cache _ _ _ _ F3 c V2 (fun x => x)) as [E1 E2]. unfold cached in *. now rewrite E1, E2. }
  assert (U3 : uncached h3 c) by exact (uncached_fr _ _ h2 h3 c F3 V2 V6).
  rewrite norm_wf in C3 by apply get_eigenvalues_sorted_wf.
  destruct asc; unfold ret.
  - split; [exact I3|]. split; [exact F13|]. rewrite D3. repeat split; auto; try lia.
    rewrite C3. rewrite norm_wf by apply get_eigenvalues_sorted_wf. reflexivity.
  - rewrite <- D3. destruct (set_data_spec c h3 I3 ltac:(lia)) as (h4 & E4 & I4 & B4 & L4 & O4 & Oc4). rewrite E4.
    assert (Hbf : forall k, buf h4 k = buf h3 k) by (intros k; unfold buf; now rewrite B4).
    split; [exact I4|]. split; [|split; [lia|split; [lia|]]].
    + split; rewrite ?B4, ?L4; try apply F13.
      * intros k Hk Hn. rewrite Hbf. now apply (F_buf _ _ _ _ F13).
      * intros k Hk. rewrite Hbf. now apply (F_shape _ _ _ _ F13).
      * intros o' Ho'. rewrite O4 by lia. now apply (F_data _ _ _ _ F13).
      * intros o' Ho' Hn. rewrite O4 by lia. now apply (F_cache _ _ _ _ F13).
      * intros o' p Ho' Hp. destruct (Nat.eq_dec o' c) as [->|Hn].
        -- exfalso. rewrite Oc4 in Hp. unfold cached in *. cbn [o_eig o_svd] in Hp. rewrite K3 in Hp. exact Hp.
        -- rewrite O4 in Hp by assumption. now apply (F_new _ _ _ _ F13).
    + rewrite Oc4. cbn [o_data view_flip vbuf]. rewrite D3. split; [exact V3|]. split; [|split].
      * unfold contents. rewrite Oc4. cbn [o_data]. rewrite norm_wf by apply get_eigenvalues_sorted_wf.
        rewrite (get_eigenvalues_sorted_flip l w l).
        assert (Hvr : vrows (o_data (the_obj h3 c)) = nr l) by (change (vrows (o_data (the_obj h3 c))) with (nr (contents h3 c)); now rewrite C3).
        assert (Hvc : vcols (o_data (the_obj h3 c)) = 1) by (change (vcols (o_data (the_obj h3 c))) with (nc (contents h3 c)); now rewrite C3).
        rewrite <- C3. unfold read. cbn [view_flip vrows vcols vidx vbuf]. rewrite Hvr, Hvc. apply mk_ext. intros i j Hi Hj.
        unfold contents, read. rewrite Hbf, Hvr, Hvc. rewrite entry_mk by lia. reflexivity.
      * unfold cached in *. exact K3.
      * intros o' Ho'. rewrite L4 in Ho'. destruct (Nat.eq_dec o' c) as [->|Hn]; [rewrite Oc4|rewrite O4 by assumption].
        -- unfold cached in *. cbn [o_eig o_svd]. rewrite K3. intros [].
        -- now apply U3.
Qed.
End E.


(** ---- singular value decomposition ---- *)
Section V.
Variable svd : mat T -> res (mat T * list T * mat T).
Definition svd_of (m : mat T) : res (mat T * mat T * mat T) :=
  do usv <- svd m; Ok (norm_mat (mul_scalar (fst (fst usv)) (nofZ (-1))), row_of_list (snd (fst usv)), norm_mat (mul_scalar (snd usv) (nofZ (-1)))).
Definition svd_ok (h : heap) (o : nat) : Prop :=
  forall a b c, o_svd (the_obj h o) = Some (a, b, c) -> svd_of (contents h o) = Ok (contents h a, contents h b, contents h c).
Lemma svd_ok_fr B h h' o : Inv h -> o < length (objs h) -> fr B nobody h h' -> ~ B (vbuf (o_data (the_obj h o))) ->
  (forall p, In p (cached (the_obj h o)) -> ~ B (vbuf (o_data (the_obj h p)))) -> svd_ok h o -> svd_ok h' o.
Proof.
  intros I Ho F HB HC Hk a b c E. destruct (F_cache _ _ _ _ F o Ho (fun x => x)) as [_ Ee]. rewrite Ee in E.
  assert (Ha : forall p, In p [a; b; c] -> In p (cached (the_obj h o))).
  { intros p Hp. unfold cached. rewrite E. apply in_or_app. now right. }
  rewrite (contents_fr B nobody h h' o F I Ho HB).
  assert (Hc : forall p, In p [a; b; c] -> contents h' p = contents h p).
  { intros p Hp. apply (contents_fr B nobody h h' p F I (I_cache _ I o p Ho (Ha p Hp)) (HC p (Ha p Hp))). }
  rewrite (Hc a), (Hc b), (Hc c) by (cbn; auto). now apply Hk.
Qed.

Lemma m_make_svd_spec o h : Inv h -> o < length (objs h) ->
  let '(h', r) := m_make_svd svd o h in
  Inv h' /\ fr nobody (eq o) h h' /\ o_eig (the_obj h' o) = o_eig (the_obj h o) /\
  match r, svd_of (contents h o) with
  | Ok (a, b, c), Ok (u, s, v) => a < length (objs h') /\ b < length (objs h') /\ c < length (objs h') /\
       length (objs h) <= a /\ length (objs h) <= b /\ length (objs h) <= c /\
       contents h' a = u /\ contents h' b = s /\ contents h' c = v /\ o_svd (the_obj h' o) = Some (a, b, c)
  | Err e, Err e' => e = e' /\ o_svd (the_obj h' o) = o_svd (the_obj h o)
  | _, _ => False
  end.
Proof.
  intros I Ho. unfold m_make_svd, bindM at 1, m_contents, bindM at 1, lift at 1, svd_of. destruct (svd (contents h o)) as [[[u s] w]|e]; cbn [bind fst snd].
  2:{ split; [assumption|]. split; [apply fr_refl|]. auto. }
  fold (row_of_list s).
  pose proof (makes_fresh nobody h (Ok (mul_scalar u (nofZ (-1)))) I) as Ha. unfold makes in Ha. unfold bindM at 1.
  destruct (fresh (Ok (mul_scalar u (nofZ (-1)))) h) as [h1 [a|e]]; [|destruct Ha as (_ & _ & [])].
  destruct Ha as (I1 & F1 & A1 & A2 & A3 & A4 & A5 & A6).
  destruct (np_new_spec (row_of_list s) h1 I1) as (h2 & E2 & I2 & F2 & G2 & U2 & R2 & O2 & L2).
  unfold bindM at 1. rewrite E2. unfold bindM at 1.
  assert (Hb : makes (matrix_of_1d (new_view h1 (row_of_list s))) nobody h2 (Ok (row_of_list s))).
  { pose proof (makes_copy_view (new_view h1 (row_of_list s)) nobody h2 I2) as Hm. rewrite R2 in Hm.
    rewrite norm_wf in Hm by apply row_of_list_wf. exact Hm. }
  unfold makes in Hb. destruct (matrix_of_1d (new_view h1 (row_of_list s)) h2) as [h3 [b|e]]; [|destruct Hb as (_ & _ & [])].
  destruct Hb as (I3 & F3 & B1 & B2 & B3 & B4 & B5 & B6). rewrite norm_wf in B4 by apply row_of_list_wf.
  pose proof (makes_fresh nobody h3 (Ok (mul_scalar w (nofZ (-1)))) I3) as Hc. unfold makes in Hc. unfold bindM at 1.
  destruct (fresh (Ok (mul_scalar w (nofZ (-1)))) h3) as [h4 [c|e]]; [|destruct Hc as (_ & _ & [])].
  destruct Hc as (I4 & F4 & C1 & C2 & C3 & C4 & C5 & C6).
  assert (F14 : fr nobody nobody h1 h4) by (eapply fr_trans; [exact F2|]; eapply fr_trans; [exact F3|exact F4]).
  assert (F04 : fr nobody nobody h h4) by (eapply fr_trans; [exact F1|exact F14]).
  pose proof (F_no _ _ _ _ F1) as N1. pose proof (F_no _ _ _ _ F3) as N3. pose proof (F_no _ _ _ _ F4) as N4. rewrite O2 in *.
  assert (Ua : uncached h4 a) by exact (uncached_fr _ _ h1 h4 a F14 A2 A6).
  assert (Ub : uncached h4 b) by exact (uncached_fr _ _ h3 h4 b F4 B2 B6).
  destruct (F_cache _ _ _ _ F04 o Ho (fun x => x)) as [Ce Cs].
  unfold bindM, set_svd.
  destruct (set_caches_spec o (o_eig (the_obj h4 o)) (Some (a, b, c)) h h4 I4) as (h5 & E5 & I5 & F5 & Bu5 & L5 & O5 & Oo5).
  - eapply fr_weaken; [| |exact F04]; unfold nobody; tauto.
  - exact Ho.
  - intros p Hp. unfold cached in Hp. cbn [o_eig o_svd] in Hp. apply in_app_or in Hp as [Hp|[<-|[<-|[<-|[]]]]]; [|lia|lia|lia].
    apply (I_cache _ I4 o p); [lia|]. unfold cached. apply in_or_app. now left.
  - intros p o' Hp Ho' Hn. unfold cached in Hp. cbn [o_eig o_svd] in Hp. apply in_app_or in Hp as [Hp|[<-|[<-|[<-|[]]]]]; [|now apply Ua|now apply Ub|now apply C6].
    intros Hc. apply Hn. apply (I_own _ I4 o' o p); auto; [lia|]. unfold cached. apply in_or_app. now left.
  - intros a' b' E. apply (I_col _ I4 o a' b'); [lia|assumption].
  - intros p Hp. unfold cached in Hp. cbn [o_eig o_svd] in Hp. apply in_app_or in Hp as [Hp|[<-|[<-|[<-|[]]]]]; [|left; lia|left; lia|left; lia].
    right. rewrite Ce in Hp. unfold cached. apply in_or_app. now left.
  - rewrite E5. unfold ret. split; [exact I5|]. split; [exact F5|]. rewrite O5. cbn [o_eig o_svd]. split; [exact Ce|].
    assert (C5' : forall p, contents h5 p = read h4 (o_data (the_obj h5 p))) by (intros p; unfold contents, read, buf; rewrite Bu5; reflexivity).
    assert (Oa : a <> o) by lia. assert (Ob : b <> o) by lia. assert (Oc : c <> o) by lia.
    split; [lia|]. split; [lia|]. split; [lia|]. split; [lia|]. split; [lia|]. split; [lia|].
    rewrite !C5', (Oo5 a Oa), (Oo5 b Ob), (Oo5 c Oc). fold (contents h4 a) (contents h4 b) (contents h4 c).
    split; [rewrite (contents_fr0 nobody h1 h4 a F14 I1 A2); exact A4|].
    split; [rewrite (contents_fr0 nobody h3 h4 b F4 I3 B2); exact B4|]. split; [exact C4|reflexivity].
Qed.
Definition makesS (x : M nat) (o : nat) (h : heap) (val : res (mat T)) : Prop :=
  makes x (eq o) h val /\ (svd_ok h o -> svd_ok (fst (x h)) o) /\ o_eig (the_obj (fst (x h)) o) = o_eig (the_obj h o).
Lemma svd_ok_same h h' o : Inv h -> o < length (objs h) -> fr nobody (eq o) h h' -> o_svd (the_obj h' o) = o_svd (the_obj h o) -> svd_ok h o -> svd_ok h' o.
Proof.
  intros I Ho F E Hk a b c Es. rewrite E in Es.
  assert (Ha : forall p, In p [a; b; c] -> contents h' p = contents h p).
  { intros p Hp. apply (contents_fr0 (eq o)); auto. apply (I_cache _ I o p Ho). unfold cached. rewrite Es. apply in_or_app. now right. }
  rewrite (contents_fr0 (eq o) h h' o) by assumption. rewrite (Ha a), (Ha b), (Ha c) by (cbn; auto). now apply Hk.
Qed.
Lemma makes_after_svd o f k h : Inv h -> o < length (objs h) ->
  (forall h1 a b c u s v, svd_of (contents h o) = Ok (u, s, v) -> Inv h1 -> fr nobody (eq o) h h1 -> a < length (objs h1) -> b < length (objs h1) -> c < length (objs h1) ->
     contents h1 a = u -> contents h1 b = s -> contents h1 c = v -> makes (f (a, b, c)) nobody h1 (k (u, s, v))) ->
  makesS (bindM (m_make_svd svd o) f) o h (do p <- svd_of (contents h o); k p).
Proof.
  intros I Ho Hf. pose proof (m_make_svd_spec o h I Ho) as Hm. unfold makesS, makes, bindM. destruct (m_make_svd svd o h) as [h1 [[[a b] c]|e]].
  - destruct Hm as (I1 & F1 & Sv & Hm). unfold svd_ok. destruct (svd_of (contents h o)) as [[[u s] v]|e] eqn:Ev; [|contradiction].
    destruct Hm as (A1 & A2 & A3 & A4 & A5 & A6 & A7 & A8 & A9 & A10).
    cbn [bind]. specialize (Hf h1 a b c u s v eq_refl I1 F1 A1 A2 A3 A7 A8 A9). unfold makes in Hf. destruct (f (a, b, c) h1) as [h2 r].
    destruct Hf as (I2 & F2 & Hv). cbn [fst].
    pose proof (F_nb _ _ _ _ F1). pose proof (F_no _ _ _ _ F1). pose proof (F_no _ _ _ _ F2).
    split; [|split].
    + split; [exact I2|]. split; [eapply fr_trans; [exact F1|now apply fr_none]|].
      destruct r as [o2|e], (k (u, s, v)); try contradiction; [|assumption]. destruct Hv as (? & ? & ? & ? & ? & ?). repeat split; auto; lia.
    + intros Hok a' b' c' E. destruct (F_cache _ _ _ _ F2 o ltac:(lia) (fun x => x)) as [_ Ee]. rewrite Ee, A10 in E. injection E as <- <- <-.
      rewrite (contents_fr0 nobody h1 h2 a F2 I1 A1), (contents_fr0 nobody h1 h2 b F2 I1 A2), (contents_fr0 nobody h1 h2 c F2 I1 A3), (contents_fr0 nobody h1 h2 o F2 I1 ltac:(lia)), (contents_fr0 _ h h1 o F1 I Ho).
      rewrite A7, A8, A9, <- Ev. reflexivity.
    + destruct (F_cache _ _ _ _ F2 o ltac:(lia) (fun x => x)) as [Es _]. now rewrite Es.
  - destruct Hm as (I1 & F1 & Sv & Hm). destruct (svd_of (contents h o)) as [[l w]|e']; [destruct l; contradiction|]. destruct Hm as [Hm Hn]. cbn [bind fst].
    split; [auto|]. split; [|exact Sv]. intros Hk. apply (svd_ok_same h h1 o I Ho F1 Hn Hk).
Qed.
Lemma makes_svd_U o h : Inv h -> o < length (objs h) -> makesS (m_svd_U svd o) o h (do p <- svd_of (contents h o); Ok (fst (fst p))).
Proof. intros I Ho. apply makes_after_svd; auto. intros h1 a b c u s v _ I1 F1 Ha Hb Hc Ca Cb Cc. cbn [fst snd]. rewrite <- Ca. now apply makes_m_copy. Qed.
Lemma makes_svd_V o h : Inv h -> o < length (objs h) -> makesS (m_svd_V svd o) o h (do p <- svd_of (contents h o); Ok (snd p)).
Proof. intros I Ho. apply makes_after_svd; auto. intros h1 a b c u s v _ I1 F1 Ha Hb Hc Ca Cb Cc. cbn [fst snd]. rewrite <- Cc. now apply makes_m_copy. Qed.
Definition svd_S_val (s : mat T) : mat T :=
  np_array2 (tab (num_elements s) (fun j => tab (num_elements s) (fun i => if i =? j then entry s 0 i else n0))).
Lemma makes_svd_S o h : Inv h -> o < length (objs h) -> makesS (m_svd_S svd o) o h (do p <- svd_of (contents h o); Ok (svd_S_val (snd (fst p)))).
Proof.
  intros I Ho. apply makes_after_svd; auto. intros h1 a b c u s v _ I1 F1 Ha Hb Hc Ca Cb Cc. cbn [fst snd]. rewrite <- Cb.
  apply (makes_eqM _ (fresh (Ok (svd_S_val (contents h1 b))))); [reflexivity|now apply makes_fresh].
Qed.
(** what get_singular_values reports *)
Definition sv_val (h : heap) (o : nat) : res (mat T) :=
  match o_svd (the_obj h o) with None => Err TypeError | Some (_, b, _) => Ok (transpose (contents h b)) end.
Lemma makes_get_singular_values o X h : Inv h -> makes (m_get_singular_values o) X h (sv_val h o).
Proof.
  intros I. unfold m_get_singular_values, sv_val, makes. destruct (o_svd (the_obj h o)) as [[[a b] c]|] eqn:E.
  - cbn [fst snd]. now apply makes_transpose.
  - split; [assumption|]. split; [apply fr_refl|reflexivity].
Qed.
End V.

End G.
