(** Proofs about M_Matrix.v for arbitrary element types. *)
From Coq Require Import List ZArith Lia Bool Arith Permutation Sorted.
From Verif Require Import Base Num Mat M_Matrix S_Matrix L_Base L_Mat.
Import ListNotations.

Section G.
Context {T : Type} `{Num T}.
Implicit Types m a b v : mat T.

Lemma is_mat_mk r c f : is_mat (mk r c f) r c f.
Proof. repeat split; try apply mk_wf. intros; now apply entry_mk. Qed.

Lemma is_mat_mk_ext r c (f g : nat -> nat -> T) :
  (forall i j, i < r -> j < c -> f i j = g i j) -> is_mat (mk r c f) r c g.
Proof. intros He. rewrite (mk_ext r c f g He). apply is_mat_mk. Qed.

Lemma is_mat_ext m m' r c f : is_mat m r c f -> is_mat m' r c f -> m = m'.
Proof.
  intros (H1 & H2 & H3 & H4) (H5 & H6 & H7 & H8).
  apply mat_ext; auto; try congruence. intros i j Hi Hj.
  rewrite H4, H8 by congruence. reflexivity.
Qed.

Lemma is_mat_fun_ext m r c (f g : nat -> nat -> T) : is_mat m r c f -> (forall i j, i < r -> j < c -> f i j = g i j) -> is_mat m r c g.
Proof. intros (H1 & H2 & H3 & H4) Hfg. split; [exact H1|]. split; [exact H2|]. split; [exact H3|]. intros i j Hi Hj. rewrite H4 by assumption. now apply Hfg. Qed.
Lemma is_mat_self m : wf m -> is_mat m (nr m) (nc m) (entry m).
Proof. intros Hm. repeat split; try apply Hm; auto. Qed.

Lemma is_mat_eq_mk m r c f : is_mat m r c f -> m = mk r c f.
Proof. intros Hm. eapply is_mat_ext; [exact Hm | apply is_mat_mk]. Qed.

(** selectors *)
Lemma sel_indices_denotes s : denotes s (sel_indices s).
Proof.
  destruct s as [l|a b]; cbn; [reflexivity|].
  unfold pyrange. rewrite range_len_1, tab_length. split; [reflexivity|].
  intros k Hk. rewrite nth_tab by assumption. lia.
Qed.

Lemma denotes_unique s l l' : denotes s l -> denotes s l' -> l = l'.
Proof.
  destruct s as [l0|a b]; cbn; [congruence|].
  intros (H1 & H2) (H3 & H4). apply (list_ext 0%Z); [congruence|].
  intros i Hi. rewrite H2, H4 by congruence. reflexivity.
Qed.

Lemma npidx_addr n z k : npidx n z = Ok k <-> addr n z k.
Proof. apply npidx_ok. Qed.

Lemma npidx_oor n z e : npidx n z = Err e <-> e = IndexError /\ out_of_range n z.
Proof. rewrite npidx_err. unfold out_of_range. intuition lia. Qed.

Lemma npidx_cases n z : (exists k, npidx n z = Ok k /\ addr n z k) \/ (npidx n z = Err IndexError /\ out_of_range n z).
Proof.
  destruct (npidx n z) as [k|e] eqn:E.
  - left. exists k. split; [reflexivity|]. now apply npidx_addr.
  - right. apply npidx_oor in E as [-> E]. auto.
Qed.

Lemma get_sub_matrix_ok m rs cs rl cl m' :
  denotes rs rl -> denotes cs cl -> get_sub_matrix m rs cs = Ok m' ->
  wf m' /\ nr m' = length rl /\ nc m' = length cl /\
  forall i j, i < length rl -> j < length cl ->
    exists r c, addr (nr m) (nth i rl 0%Z) r /\ addr (nc m) (nth j cl 0%Z) c /\
                entry m' i j = entry m r c.
Proof.
  intros Hr Hc.
  rewrite <- (denotes_unique _ _ _ (sel_indices_denotes rs) Hr).
  rewrite <- (denotes_unique _ _ _ (sel_indices_denotes cs) Hc).
  clear Hr Hc rl cl. set (rl := sel_indices rs). set (cl := sel_indices cs).
  unfold get_sub_matrix. fold rl cl.
  destruct ((length rl =? 0) || (length cl =? 0)) eqn:E0.
  - intros [= <-]. apply orb_true_iff in E0. rewrite !Nat.eqb_eq in E0. cbn.
    split; [|split; [reflexivity|split; [reflexivity|intros; lia]]].
    split; cbn; [apply map_length|]. apply Forall_forall. intros x Hx.
    apply in_map_iff in Hx as (z & <- & Hz). cbn.
    destruct E0 as [E0|E0]; [|lia]. destruct rl; [contradiction|discriminate].
  - apply orb_false_iff in E0 as [_ _].
    destruct (mapM (npidx (nr m)) rl) as [ri|e] eqn:Er; cbn; [|discriminate].
    destruct (mapM (npidx (nc m)) cl) as [ci|e] eqn:Ec; cbn; [|discriminate].
    intros [= <-]. cbn. apply mapM_ok in Er, Ec.
    pose proof (Forall2_length' _ _ _ Er) as Lr. pose proof (Forall2_length' _ _ _ Ec) as Lc.
    split; [|split; [reflexivity|split; [reflexivity|]]].
    + split; cbn; [rewrite map_length; congruence|].
      apply Forall_forall. intros x Hx. apply in_map_iff in Hx as (z & <- & Hz).
      rewrite map_length. congruence.
    + intros i j Hi Hj.
      exists (nth i ri 0), (nth j ci 0).
      pose proof (Forall2_nth' _ _ _ 0%Z 0 _ Er Hi) as H1.
      pose proof (Forall2_nth' _ _ _ 0%Z 0 _ Ec Hj) as H2. cbn in H1, H2.
      apply npidx_addr in H1, H2. split; [assumption|split; [assumption|]].
      unfold entry at 1; cbn.
      rewrite (nth_map' _ ri i _ 0) by lia. rewrite (nth_map' _ ci j _ 0) by lia. reflexivity.
Qed.

Lemma get_sub_matrix_err m rs cs rl cl e :
  denotes rs rl -> denotes cs cl ->
  (get_sub_matrix m rs cs = Err e <->
   e = IndexError /\ rl <> [] /\ cl <> [] /\
   (Exists (out_of_range (nr m)) rl \/ Exists (out_of_range (nc m)) cl)).
Proof.
  intros Hr Hc.
  rewrite <- (denotes_unique _ _ _ (sel_indices_denotes rs) Hr).
  rewrite <- (denotes_unique _ _ _ (sel_indices_denotes cs) Hc).
  clear Hr Hc rl cl. set (rl := sel_indices rs). set (cl := sel_indices cs).
  unfold get_sub_matrix. fold rl cl.
  assert (Hm : forall n l, (exists e, mapM (npidx n) l = Err e) <-> Exists (out_of_range n) l).
  { intros n l. rewrite mapM_err_iff, Exists_exists. split.
    - intros (z & e' & H1 & H2). apply npidx_oor in H2 as [_ H2]. eauto.
    - intros (z & H1 & H2). exists z, IndexError. split; [assumption|]. now apply npidx_oor. }
  assert (Hie : forall n l e, mapM (npidx n) l = Err e -> e = IndexError).
  { intros n l e' He. apply mapM_err in He as (z & _ & He). now apply npidx_oor in He. }
  destruct ((length rl =? 0) || (length cl =? 0)) eqn:E0.
  - apply orb_true_iff in E0. rewrite !Nat.eqb_eq, !length_zero_iff_nil in E0.
    split; [discriminate|]. intuition.
  - apply orb_false_iff in E0 as [E1 E2].
    assert (rl <> []) by (intros ->; discriminate).
    assert (cl <> []) by (intros ->; discriminate).
    rewrite <- !Hm.
    destruct (mapM (npidx (nr m)) rl) as [ri|e1] eqn:Er; cbn.
    + destruct (mapM (npidx (nc m)) cl) as [ci|e2] eqn:Ec; cbn.
      * split; [discriminate|]. intros (_ & _ & _ & [(? & ?)|(? & ?)]); discriminate.
      * apply Hie in Ec as He. subst e2. split.
        -- intros [= <-]. repeat split; auto. right. eauto.
        -- intros (-> & _); reflexivity.
    + apply Hie in Er as He. subst e1. split.
      * intros [= <-]. repeat split; auto. left. eauto.
      * intros (-> & _); reflexivity.
Qed.

Lemma get_spec m r c x :
  get m r c = Ok x <-> exists i j, addr (nr m) r i /\ addr (nc m) c j /\ x = entry m i j.
Proof.
  unfold get. destruct (npidx_cases (nr m) r) as [(i & Hi & Hi')|[Hi Hi']]; rewrite Hi; cbn.
  - destruct (npidx_cases (nc m) c) as [(j & Hj & Hj')|[Hj Hj']]; rewrite Hj; cbn.
    + split.
      * intros [= <-]. eauto.
      * intros (i' & j' & H1 & H2 & ->).
        apply npidx_addr in H1, H2. congruence.
    + split; [discriminate|]. intros (i' & j' & H1 & H2 & ->). apply npidx_addr in H2. congruence.
  - split; [discriminate|]. intros (i' & j' & H1 & H2 & ->). apply npidx_addr in H1. congruence.
Qed.

Lemma get_err m r c e :
  get m r c = Err e <-> e = IndexError /\ (out_of_range (nr m) r \/ out_of_range (nc m) c).
Proof.
  unfold get. destruct (npidx_cases (nr m) r) as [(i & Hi & Hi')|[Hi Hi']]; rewrite Hi; cbn.
  - destruct (npidx_cases (nc m) c) as [(j & Hj & Hj')|[Hj Hj']]; rewrite Hj; cbn.
    + split; [discriminate|]. unfold addr, out_of_range in *. lia.
    + split; [intros [= <-]; auto | intros [-> _]; reflexivity].
  - split; [intros [= <-]; auto | intros [-> _]; reflexivity].
Qed.

Lemma get_nat m i j : i < nr m -> j < nc m -> get m (Z.of_nat i) (Z.of_nat j) = Ok (entry m i j).
Proof. intros Hi Hj. unfold get. rewrite !npidx_nat by assumption. reflexivity. Qed.

(** transpose *)
Lemma transpose_wf m : wf (transpose m).
Proof. apply mk_wf. Qed.
Lemma transpose_nr m : nr (transpose m) = nc m. Proof. reflexivity. Qed.
Lemma transpose_nc m : nc (transpose m) = nr m. Proof. reflexivity. Qed.
Lemma transpose_entry m i j : i < nc m -> j < nr m -> entry (transpose m) i j = entry m j i.
Proof. intros. unfold transpose. now rewrite entry_mk. Qed.
Lemma transpose_is_mat m : is_mat (transpose m) (nc m) (nr m) (fun i j => entry m j i).
Proof. apply is_mat_mk. Qed.
Lemma transpose_transpose m : wf m -> transpose (transpose m) = m.
Proof.
  intros Hm. apply mat_ext; auto using transpose_wf.
  intros i j Hi Hj. cbn in Hi, Hj. rewrite !transpose_entry; auto.
Qed.
Lemma transpose_inj a b : wf a -> wf b -> transpose a = transpose b -> a = b.
Proof. intros Ha Hb He. rewrite <- (transpose_transpose a), <- (transpose_transpose b), He; auto. Qed.

Lemma get_row_spec m z :
  (forall r, get_row m z = Ok r -> exists k, addr (nr m) z k /\ is_mat r 1 (nc m) (fun _ j => entry m k j)) /\
  (forall e, get_row m z = Err e <-> e = IndexError /\ out_of_range (nr m) z).
Proof.
  unfold get_row. destruct (npidx_cases (nr m) z) as [(k & Hk & Hk')|[Hk Hk']]; rewrite Hk; cbn; split.
  - intros r [= <-]. exists k. split; [assumption|]. apply is_mat_mk.
  - intros e. split; [discriminate|]. unfold addr, out_of_range in *. lia.
  - discriminate.
  - intros e. split; [intros [= <-]; auto | intros [-> _]; reflexivity].
Qed.

Lemma get_column_spec m z :
  (forall r, get_column m z = Ok r -> exists k, addr (nc m) z k /\ is_mat r (nr m) 1 (fun i _ => entry m i k)) /\
  (forall e, get_column m z = Err e <-> e = IndexError /\ out_of_range (nc m) z).
Proof.
  unfold get_column. destruct (npidx_cases (nc m) z) as [(k & Hk & Hk')|[Hk Hk']]; rewrite Hk; cbn; split.
  - intros r [= <-]. exists k. split; [assumption|].
    split; [apply transpose_wf|]. split; [reflexivity|]. split; [reflexivity|].
    intros i j Hi Hj. rewrite transpose_entry by (cbn; lia). now rewrite entry_mk by (cbn; lia).
  - intros e. split; [discriminate|]. unfold addr, out_of_range in *. lia.
  - discriminate.
  - intros e. split; [intros [= <-]; auto | intros [-> _]; reflexivity].
Qed.

Lemma get_column_nat m k : k < nc m ->
  get_column m (Z.of_nat k) = Ok (mk (nr m) 1 (fun i _ => entry m i k)).
Proof.
  intros Hk. unfold get_column. rewrite npidx_nat by assumption. cbn. f_equal.
  apply (is_mat_ext _ _ (nr m) 1 (fun i _ => entry m i k)); [|apply is_mat_mk].
  split; [apply transpose_wf|]. split; [reflexivity|]. split; [reflexivity|].
  intros i j Hi Hj. rewrite transpose_entry by (cbn; lia). now rewrite entry_mk by (cbn; lia).
Qed.

Lemma get_row_nat m k : k < nr m ->
  get_row m (Z.of_nat k) = Ok (mk 1 (nc m) (fun _ j => entry m k j)).
Proof. intros Hk. unfold get_row. rewrite npidx_nat by assumption. reflexivity. Qed.

Lemma head_spec m n :
  is_mat (head m n) (if (0 <=? n)%Z then Nat.min (nr m) (Z.to_nat n) else nr m - Z.to_nat (- n))
         (nc m) (fun i j => entry m i j).
Proof.
  unfold head, head_len.
  replace (if (0 <=? n)%Z then Nat.min (nr m) (Z.to_nat n) else nr m - Z.to_nat (- n))
    with (if (0 <=? n)%Z then Nat.min (nr m) (Z.to_nat n) else Z.to_nat (Z.of_nat (nr m) + n)).
  - apply is_mat_mk.
  - destruct (0 <=? n)%Z eqn:E; [reflexivity|lia].
Qed.

(** boolean shape predicates *)
Lemma is_vector_iff v : is_vector v = true <-> vector_shaped v.
Proof. unfold is_vector, vector_shaped. rewrite orb_true_iff, !Nat.eqb_eq. tauto. Qed.
Lemma is_row_vector_iff v : is_row_vector v = true <-> row_shaped v.
Proof. unfold is_row_vector, is_vector, row_shaped. rewrite andb_true_iff, orb_true_iff, !Nat.eqb_eq. tauto. Qed.
Lemma is_column_vector_iff v : is_column_vector v = true <-> col_shaped v.
Proof. unfold is_column_vector, is_vector, col_shaped. rewrite andb_true_iff, orb_true_iff, !Nat.eqb_eq. tauto. Qed.
Lemma is_row_vector_eqb v : is_row_vector v = (nr v =? 1).
Proof. unfold is_row_vector, is_vector. destruct (nr v =? 1), (nc v =? 1); reflexivity. Qed.
Lemma is_column_vector_eqb v : is_column_vector v = (nc v =? 1).
Proof. unfold is_column_vector, is_vector. destruct (nr v =? 1), (nc v =? 1); reflexivity. Qed.

(** element-wise operations *)
Lemma map_mat_is_mat f a : is_mat (map_mat f a) (nr a) (nc a) (fun i j => f (entry a i j)).
Proof. apply is_mat_mk. Qed.
Lemma map2_mat_is_mat f a b : is_mat (map2_mat f a b) (nr a) (nc a) (fun i j => f (entry a i j) (entry b i j)).
Proof. apply is_mat_mk. Qed.

Lemma same_shape_as_iff a b : same_shape_as a b = true <-> same_shape a b.
Proof. unfold same_shape_as, same_shape. now rewrite andb_true_iff, !Nat.eqb_eq. Qed.
Lemma must_be_same_shape_eq a b :
  must_be_same_shape a b = if same_shape_as a b then Ok tt else Err InvalidShapeError.
Proof.
  unfold must_be_same_shape, dimensions_must_match, same_shape_as. cbn.
  rewrite !andb_true_r. reflexivity.
Qed.

Lemma add_spec a b :
  (same_shape a b -> exists m, add a b = Ok m /\ is_mat m (nr a) (nc a) (fun i j => nadd (entry a i j) (entry b i j))) /\
  (~ same_shape a b -> add a b = Err InvalidShapeError).
Proof.
  unfold add. rewrite must_be_same_shape_eq. split; intros Hs.
  - apply same_shape_as_iff in Hs. rewrite Hs. cbn. eexists; split; [reflexivity|]. apply map2_mat_is_mat.
  - destruct (same_shape_as a b) eqn:E; [apply same_shape_as_iff in E; contradiction|reflexivity].
Qed.
Lemma sub_spec a b :
  (same_shape a b -> exists m, sub a b = Ok m /\ is_mat m (nr a) (nc a) (fun i j => nsub (entry a i j) (entry b i j))) /\
  (~ same_shape a b -> sub a b = Err InvalidShapeError).
Proof.
  unfold sub. rewrite must_be_same_shape_eq. split; intros Hs.
  - apply same_shape_as_iff in Hs. rewrite Hs. cbn. eexists; split; [reflexivity|]. apply map2_mat_is_mat.
  - destruct (same_shape_as a b) eqn:E; [apply same_shape_as_iff in E; contradiction|reflexivity].
Qed.
Lemma mul_elementwise_spec a b :
  (same_shape a b -> exists m, mul_elementwise a b = Ok m /\ is_mat m (nr a) (nc a) (fun i j => nmul (entry a i j) (entry b i j))) /\
  (~ same_shape a b -> mul_elementwise a b = Err InvalidShapeError).
Proof.
  unfold mul_elementwise. split; intros Hs.
  - apply same_shape_as_iff in Hs. rewrite Hs. cbn. eexists; split; [reflexivity|]. apply map2_mat_is_mat.
  - destruct (same_shape_as a b) eqn:E; [apply same_shape_as_iff in E; contradiction|reflexivity].
Qed.
Lemma div_elementwise_spec a b :
  (same_shape a b -> exists m, div_elementwise a b = Ok m /\ is_mat m (nr a) (nc a) (fun i j => ndiv (entry a i j) (entry b i j))) /\
  (~ same_shape a b -> div_elementwise a b = Err InvalidShapeError).
Proof.
  unfold div_elementwise. split; intros Hs.
  - apply same_shape_as_iff in Hs. rewrite Hs. cbn. eexists; split; [reflexivity|]. apply map2_mat_is_mat.
  - destruct (same_shape_as a b) eqn:E; [apply same_shape_as_iff in E; contradiction|reflexivity].
Qed.

(** matrix product *)
Lemma matmul_is_mat a b :
  is_mat (matmul a b) (nr a) (nc b) (fun i j => sumn (nc a) (fun k => nmul (entry a i k) (entry b k j))).
Proof. apply is_mat_mk. Qed.

Lemma mul_spec a b :
  (nc a = nr b -> mul a b = Ok (matmul a b)) /\ (nc a <> nr b -> mul a b = Err ValueError).
Proof.
  unfold mul, is_multiplicable_with. split; intros Hs.
  - apply Nat.eqb_eq in Hs. now rewrite Hs.
  - apply Nat.eqb_neq in Hs. now rewrite Hs.
Qed.

(** vector operations *)
Lemma vector_op_spec op m v :
  (row_shaped v -> nc v = nc m -> exists m', vector_op op m v = Ok m' /\
      is_mat m' (nr m) (nc m) (fun i j => op (entry m i j) (entry v 0 j))) /\
  (col_shaped v -> ~ row_shaped v -> nr v = nr m -> exists m', vector_op op m v = Ok m' /\
      is_mat m' (nr m) (nc m) (fun i j => op (entry m i j) (entry v i 0))) /\
  (~ (row_shaped v /\ nc v = nc m) -> ~ (col_shaped v /\ ~ row_shaped v /\ nr v = nr m) ->
     vector_op op m v = Err ValueError).
Proof.
  unfold vector_op, vector_op_modify, must_be_vector, vector_size_matches, copy.
  rewrite is_row_vector_eqb. unfold is_vector, row_shaped, col_shaped.
  split; [|split].
  - intros Hr Hc. rewrite Hr. cbn. rewrite Hc, Nat.eqb_refl. cbn.
    eexists; split; [reflexivity|]. unfold broadcast_op. rewrite Hr; cbn.
    apply is_mat_mk_ext. intros i j Hi Hj. f_equal. f_equal.
    destruct (nc v =? 1) eqn:E; [|reflexivity]. apply Nat.eqb_eq in E. lia.
  - intros Hc Hr Hn. apply Nat.eqb_neq in Hr. rewrite Hr, Hc. cbn. rewrite Hn, Nat.eqb_refl. cbn.
    eexists; split; [reflexivity|]. unfold broadcast_op. rewrite Hr, Hc; cbn. apply is_mat_mk.
  - intros H1 H2. destruct (nr v =? 1) eqn:Er; cbn.
    + apply Nat.eqb_eq in Er. destruct (nc m =? nc v) eqn:Ec; [|reflexivity].
      apply Nat.eqb_eq in Ec. exfalso. apply H1. auto.
    + apply Nat.eqb_neq in Er. destruct (nc v =? 1) eqn:Ec; cbn; [|reflexivity].
      apply Nat.eqb_eq in Ec. destruct (nr m =? nr v) eqn:En; [|reflexivity].
      apply Nat.eqb_eq in En. exfalso. apply H2. auto.
Qed.

Lemma vector_op_row op m v : nr v = 1 -> nc v = nc m ->
  vector_op op m v = Ok (mk (nr m) (nc m) (fun i j => op (entry m i j) (entry v 0 j))).
Proof.
  intros Hr Hc. destruct (vector_op_spec op m v) as (H1 & _ & _).
  destruct (H1 Hr Hc) as (m' & -> & Hm). f_equal. now apply is_mat_eq_mk.
Qed.

Lemma vector_op_col op m v : nc v = 1 -> nr v <> 1 -> nr v = nr m ->
  vector_op op m v = Ok (mk (nr m) (nc m) (fun i j => op (entry m i j) (entry v i 0))).
Proof.
  intros Hr Hc Hn. destruct (vector_op_spec op m v) as (_ & H1 & _).
  destruct (H1 Hr Hc Hn) as (m' & -> & Hm). f_equal. now apply is_mat_eq_mk.
Qed.

Lemma vector_op_modify_eq op m v : vector_op op m v = vector_op_modify op m v.
Proof. reflexivity. Qed.

Lemma scale_by_row_vector_spec m v :
  (~ col_shaped v -> scale_by_row_vector m v = Err ValueError) /\
  (col_shaped v -> nc m <> nr v -> scale_by_row_vector m v = Err InvalidShapeError) /\
  (col_shaped v -> nc m = nr v -> exists m', scale_by_row_vector m v = Ok m' /\
     is_mat m' (nr m) (nc m) (fun i j => nmul (entry m i j) (entry v j 0))).
Proof.
  unfold scale_by_row_vector, must_be_column_vector. rewrite is_column_vector_eqb.
  unfold col_shaped, dimensions_must_match. cbn [negb orb andb]. split; [|split].
  - intros Hc. apply Nat.eqb_neq in Hc. now rewrite Hc.
  - intros Hc Hn. apply Nat.eqb_eq in Hc. apply Nat.eqb_neq in Hn. rewrite Hc. cbn. now rewrite Hn.
  - intros Hc Hn. pose proof Hc as Hc'. apply Nat.eqb_eq in Hc'. rewrite Hc'. cbn.
    pose proof Hn as Hn'. apply Nat.eqb_eq in Hn'. rewrite Hn'. cbn.
    unfold mul_by_vector. rewrite vector_op_row by (cbn; congruence).
    eexists; split; [reflexivity|].
    apply is_mat_mk_ext. intros i j Hi Hj.
    rewrite transpose_entry by (cbn; lia). reflexivity.
Qed.

Lemma scale_by_column_vector_spec m v :
  (~ col_shaped v -> scale_by_column_vector m v = Err ValueError) /\
  (col_shaped v -> nr m <> nr v -> scale_by_column_vector m v = Err InvalidShapeError) /\
  (col_shaped v -> nr m = nr v -> nr v <> 1 \/ nc m = 1 -> exists m', scale_by_column_vector m v = Ok m' /\
     is_mat m' (nr m) (nc m) (fun i j => nmul (entry m i j) (entry v i 0))) /\
  (col_shaped v -> nr m = nr v -> nr v = 1 -> nc m <> 1 -> scale_by_column_vector m v = Err ValueError).
Proof.
  unfold scale_by_column_vector, must_be_column_vector. rewrite is_column_vector_eqb.
  unfold col_shaped, dimensions_must_match. cbn [negb orb andb]. rewrite !andb_true_r.
  split; [|split; [|split]].
  - intros Hc. apply Nat.eqb_neq in Hc. now rewrite Hc.
  - intros Hc Hn. apply Nat.eqb_eq in Hc. apply Nat.eqb_neq in Hn. rewrite Hc. cbn. now rewrite Hn.
  - intros Hc Hn Hor. pose proof Hc as Hc'. apply Nat.eqb_eq in Hc'. rewrite Hc'. cbn.
    pose proof Hn as Hn'. apply Nat.eqb_eq in Hn'. rewrite Hn'. cbn.
    unfold mul_by_vector. destruct (Nat.eq_dec (nr v) 1) as [E|E].
    + rewrite vector_op_row by (auto; lia). eexists; split; [reflexivity|].
      apply is_mat_mk_ext. intros i j Hi Hj.
      do 2 f_equal; lia.
    + rewrite vector_op_col by (auto; lia). eexists; split; [reflexivity|]. apply is_mat_mk.
  - intros Hc Hn H1 H2. pose proof Hc as Hc'. apply Nat.eqb_eq in Hc'. rewrite Hc'. cbn.
    pose proof Hn as Hn'. apply Nat.eqb_eq in Hn'. rewrite Hn'. cbn.
    destruct (vector_op_spec nmul m v) as (_ & _ & H3). unfold mul_by_vector. apply H3.
    + unfold row_shaped. intros (_ & HH). congruence.
    + unfold row_shaped. tauto.
Qed.

(** writes *)
Lemma set_entry_wf m i j x : wf m -> wf (set_entry m i j x).
Proof.
  intros [H1 H2]. split; cbn; [now rewrite upd_length|].
  apply Forall_forall. intros r Hr.
  apply (In_nth _ _ []) in Hr as (k & Hk & <-). rewrite upd_length in Hk.
  rewrite nth_upd. destruct ((k =? i) && (k <? length (rws m))) eqn:E.
  - apply andb_true_iff in E as [E _]. apply Nat.eqb_eq in E. subst k.
    rewrite upd_length. now apply (Forall_nth' (fun r => length r = nc m)).
  - now apply (Forall_nth' (fun r => length r = nc m)).
Qed.

Lemma set_entry_entry m i j x r c : wf m -> i < nr m -> j < nc m ->
  entry (set_entry m i j x) r c = if (r =? i) && (c =? j) then x else entry m r c.
Proof.
  intros Hm Hi Hj. unfold entry, set_entry; cbn. rewrite nth_upd.
  destruct (r =? i) eqn:Er; cbn; [|reflexivity].
  apply Nat.eqb_eq in Er. subst r.
  destruct Hm as [H1 H2]. rewrite H1. apply Nat.ltb_lt in Hi as Hi'. rewrite Hi'.
  rewrite nth_upd. rewrite (Forall_nth' (fun r => length r = nc m)) by (auto; lia).
  destruct (c =? j) eqn:Ec; cbn; [|reflexivity].
  apply Nat.eqb_eq in Ec. subst c. apply Nat.ltb_lt in Hj as Hj'. now rewrite Hj'.
Qed.

Lemma set_spec m z w x : wf m ->
  (forall m', set m z w x = Ok m' -> exists i j, addr (nr m) z i /\ addr (nc m) w j /\
     is_mat m' (nr m) (nc m) (fun r c => if (r =? i) && (c =? j) then x else entry m r c)) /\
  (forall e, set m z w x = Err e <-> e = IndexError /\ (out_of_range (nr m) z \/ out_of_range (nc m) w)).
Proof.
  intros Hm. unfold set.
  destruct (npidx_cases (nr m) z) as [(i & Hi & Hi')|[Hi Hi']]; rewrite Hi; cbn.
  - destruct (npidx_cases (nc m) w) as [(j & Hj & Hj')|[Hj Hj']]; rewrite Hj; cbn; split.
    + intros m' [= <-]. exists i, j. split; [assumption|split; [assumption|]].
      split; [now apply set_entry_wf|]. split; [reflexivity|]. split; [reflexivity|].
      intros r c Hr Hc. apply set_entry_entry; [assumption|apply Hi'|apply Hj'].
    + intros e. split; [discriminate|]. unfold addr, out_of_range in *. lia.
    + discriminate.
    + intros e. split; [intros [= <-]; auto | intros [-> _]; reflexivity].
  - split; [discriminate|].
    intros e. split; [intros [= <-]; auto | intros [-> _]; reflexivity].
Qed.


Lemma set_row_spec m z v : wf v ->
  (forall m', set_row m z v = Ok m' -> vector_shaped v /\ exists i, addr (nr m) z i /\
     is_mat m' (nr m) (nc m) (fun r c =>
       if (r =? i) && (c <? vec_len v) then vec_at v c else entry m r c)) /\
  (forall e, set_row m z v = Err e <->
     (e = ValueError /\ ~ vector_shaped v) \/ (e = IndexError /\ vector_shaped v /\ out_of_range (nr m) z)).
Proof.
  intros Hv. unfold set_row, must_be_vector.
  destruct (is_vector v) eqn:Ev; cbn.
  - apply is_vector_iff in Ev.
    destruct (npidx_cases (nr m) z) as [(i & Hi & Hi')|[Hi Hi']]; rewrite Hi; cbn; split.
    + intros m' [= <-]. split; [assumption|]. exists i. split; [assumption|].
      apply is_mat_mk_ext. intros r c Hr Hc.
      destruct (r =? i) eqn:Er; cbn [andb]; [|reflexivity].
      rewrite is_column_vector_eqb. unfold vec_len, vec_at.
      destruct Ev as [Ev|Ev].
      * rewrite Ev. cbn. destruct (nc v =? 1) eqn:Ec.
        -- apply Nat.eqb_eq in Ec. cbn [transpose mk nc]. rewrite Ec, Ev.
           destruct (c <? 1) eqn:E1.
           ++ apply Nat.ltb_lt in E1. replace c with 0 by lia. 
              replace (0 <? Nat.min 1 (nc m)) with true by (symmetry; apply Nat.ltb_lt; lia).
              rewrite transpose_entry by lia. reflexivity.
           ++ apply Nat.ltb_ge in E1.
              replace (c <? Nat.min 1 (nc m)) with false by (symmetry; apply Nat.ltb_ge; lia). reflexivity.
        -- destruct (c <? nc v) eqn:E1.
           ++ apply Nat.ltb_lt in E1.
              replace (c <? Nat.min (nc v) (nc m)) with true by (symmetry; apply Nat.ltb_lt; lia). reflexivity.
           ++ apply Nat.ltb_ge in E1.
              replace (c <? Nat.min (nc v) (nc m)) with false by (symmetry; apply Nat.ltb_ge; lia). reflexivity.
      * rewrite Ev. cbn [Nat.eqb]. cbn [transpose mk nc].
        destruct (nr v =? 1) eqn:En.
        -- apply Nat.eqb_eq in En. rewrite En.
           destruct (c <? 1) eqn:E1.
           ++ apply Nat.ltb_lt in E1. replace c with 0 by lia. 
              replace (0 <? Nat.min 1 (nc m)) with true by (symmetry; apply Nat.ltb_lt; lia).
              rewrite transpose_entry by lia. reflexivity.
           ++ apply Nat.ltb_ge in E1.
              replace (c <? Nat.min 1 (nc m)) with false by (symmetry; apply Nat.ltb_ge; lia). reflexivity.
        -- destruct (c <? nr v) eqn:E1.
           ++ apply Nat.ltb_lt in E1.
              replace (c <? Nat.min (nr v) (nc m)) with true by (symmetry; apply Nat.ltb_lt; lia).
              rewrite transpose_entry by lia. reflexivity.
           ++ apply Nat.ltb_ge in E1.
              replace (c <? Nat.min (nr v) (nc m)) with false by (symmetry; apply Nat.ltb_ge; lia). reflexivity.
    + intros e. split; [discriminate|]. intros [[_ H1]|[_ [_ H1]]]; [contradiction|].
      unfold addr, out_of_range in *. lia.
    + discriminate.
    + intros e. split.
      * intros [= <-]. right. auto.
      * intros [[_ H1]|[-> _]]; [contradiction|reflexivity].
  - assert (Hn : ~ vector_shaped v) by (intros Hs; apply is_vector_iff in Hs; congruence).
    split; [discriminate|]. intros e. split.
    + intros [= <-]. left. auto.
    + intros [[-> _]|[_ [H1 _]]]; [reflexivity|contradiction].
Qed.


Lemma set_column_spec m z v : wf v ->
  (forall m', set_column m z v = Ok m' -> vector_shaped v /\ exists j, addr (nc m) z j /\
     is_mat m' (nr m) (nc m) (fun r c =>
       if (c =? j) && (r <? vec_len_c v) then vec_at_c v r else entry m r c)) /\
  (forall e, set_column m z v = Err e <->
     (e = ValueError /\ ~ vector_shaped v) \/ (e = IndexError /\ vector_shaped v /\ out_of_range (nc m) z)).
Proof.
  intros Hv. unfold set_column, must_be_vector.
  destruct (is_vector v) eqn:Ev; cbn.
  - apply is_vector_iff in Ev.
    destruct (npidx_cases (nc m) z) as [(i & Hi & Hi')|[Hi Hi']]; rewrite Hi; cbn; split.
    + intros m' [= <-]. split; [assumption|]. exists i. split; [assumption|].
      apply is_mat_mk_ext. intros r c Hr Hc.
      destruct (c =? i) eqn:Er; cbn [andb]; [|reflexivity].
      rewrite is_row_vector_eqb. unfold vec_len_c, vec_at_c.
      destruct (nr v =? 1) eqn:En; cbn [transpose mk nr].
      * apply Nat.eqb_eq in En. 
        destruct (nc v =? 1) eqn:Ec; [apply Nat.eqb_eq in Ec; rewrite Ec, En|].
        -- destruct (r <? 1) eqn:E1.
           ++ apply Nat.ltb_lt in E1. replace r with 0 by lia. 
              replace (0 <? Nat.min 1 (nr m)) with true by (symmetry; apply Nat.ltb_lt; lia).
              rewrite transpose_entry by lia. reflexivity.
           ++ apply Nat.ltb_ge in E1.
              replace (r <? Nat.min 1 (nr m)) with false by (symmetry; apply Nat.ltb_ge; lia). reflexivity.
        -- destruct (r <? nc v) eqn:E1.
           ++ apply Nat.ltb_lt in E1.
              replace (r <? Nat.min (nc v) (nr m)) with true by (symmetry; apply Nat.ltb_lt; lia).
              rewrite transpose_entry by lia. reflexivity.
           ++ apply Nat.ltb_ge in E1.
              replace (r <? Nat.min (nc v) (nr m)) with false by (symmetry; apply Nat.ltb_ge; lia). reflexivity.
      * apply Nat.eqb_neq in En. destruct Ev as [Ev|Ev]; [contradiction|]. rewrite Ev. cbn [Nat.eqb].
        destruct (r <? nr v) eqn:E1.
        -- apply Nat.ltb_lt in E1.
           replace (r <? Nat.min (nr v) (nr m)) with true by (symmetry; apply Nat.ltb_lt; lia). reflexivity.
        -- apply Nat.ltb_ge in E1.
           replace (r <? Nat.min (nr v) (nr m)) with false by (symmetry; apply Nat.ltb_ge; lia). reflexivity.
    + intros e. split; [discriminate|]. intros [[_ H1]|[_ [_ H1]]]; [contradiction|].
      unfold addr, out_of_range in *. lia.
    + discriminate.
    + intros e. split.
      * intros [= <-]. right. auto.
      * intros [[_ H1]|[-> _]]; [contradiction|reflexivity].
  - assert (Hn : ~ vector_shaped v) by (intros Hs; apply is_vector_iff in Hs; congruence).
    split; [discriminate|]. intros e. split.
    + intros [= <-]. left. auto.
    + intros [[-> _]|[_ [H1 _]]]; [reflexivity|contradiction].
Qed.

(** concatenation *)
Lemma concat_columns_ok a b : wf a -> wf b -> nr a = nr b ->
  exists m, concat_along_columns a b = Ok m /\
    is_mat m (nr a) (nc a + nc b) (fun i j => if j <? nc a then entry a i j else entry b i (j - nc a)).
Proof.
  intros Ha Hb Hn. unfold concat_along_columns, concat, concat_columns. cbn.
  rewrite Hn, Nat.eqb_refl. eexists; split; [reflexivity|].
  pose proof Ha as [La _]. pose proof Hb as [Lb _].
  assert (Hnth : forall i, i < nr b -> nth i (map (fun p => fst p ++ snd p) (combine (rws a) (rws b))) [] =
                           nth i (rws a) [] ++ nth i (rws b) []).
  { intros i Hi. change (@nil T) with ((fun p : list T * list T => fst p ++ snd p) ([], [])) at 1.
    rewrite map_nth, combine_nth by congruence. reflexivity. }
  split; [split|split; [|split]]; cbn; auto.
  - rewrite map_length, combine_length. lia.
  - apply Forall_forall. intros x Hx. apply (In_nth _ _ []) in Hx as (k & Hk & <-).
    rewrite map_length, combine_length in Hk. rewrite Hnth by lia.
    rewrite app_length, !wf_row_length by (auto; lia). reflexivity.
  - intros i j Hi Hj. unfold entry at 1; cbn. rewrite Hnth by assumption.
    destruct (j <? nc a) eqn:E.
    + apply Nat.ltb_lt in E. apply app_nth1. rewrite wf_row_length; auto; lia.
    + apply Nat.ltb_ge in E. rewrite app_nth2; rewrite wf_row_length; auto; try lia. 
Qed.

Lemma concat_columns_err a b : nr a <> nr b -> concat_along_columns a b = Err ValueError.
Proof.
  intros Hn. unfold concat_along_columns, concat, concat_columns. cbn.
  apply Nat.eqb_neq in Hn. now rewrite Hn.
Qed.

Lemma concat_rows_ok a b : wf a -> wf b -> nc a = nc b ->
  exists m, concat_along_rows a b = Ok m /\
    is_mat m (nr a + nr b) (nc a) (fun i j => if i <? nr a then entry a i j else entry b (i - nr a) j).
Proof.
  intros [La Fa] [Lb Fb] Hn. unfold concat_along_rows, concat, concat_rows. cbn.
  rewrite Hn, Nat.eqb_refl. eexists; split; [reflexivity|].
  split; [split|split; [|split]]; cbn; auto.
  - rewrite app_length. congruence.
  - apply Forall_app. split; [rewrite <- Hn|]; assumption.
  - intros i j Hi Hj. unfold entry; cbn. destruct (i <? nr a) eqn:E.
    + apply Nat.ltb_lt in E. rewrite app_nth1; [reflexivity|lia].
    + apply Nat.ltb_ge in E. rewrite app_nth2 by lia. do 2 f_equal. lia.
Qed.

Lemma concat_rows_err a b : nc a <> nc b -> concat_along_rows a b = Err ValueError.
Proof.
  intros Hn. unfold concat_along_rows, concat, concat_rows. cbn.
  apply Nat.eqb_neq in Hn. now rewrite Hn.
Qed.

(** sub-matrix by contiguous ranges *)
Lemma get_sub_matrix_range m r0 r1 c0 c1 :
  r0 <= r1 <= nr m -> c0 <= c1 <= nc m ->
  get_sub_matrix m (STuple (Z.of_nat r0) (Z.of_nat r1)) (STuple (Z.of_nat c0) (Z.of_nat c1)) =
  Ok (mk (r1 - r0) (c1 - c0) (fun i j => entry m (r0 + i) (c0 + j))).
Proof.
  intros Hr Hc.
  set (rs := STuple (Z.of_nat r0) (Z.of_nat r1)). set (cs := STuple (Z.of_nat c0) (Z.of_nat c1)).
  pose proof (sel_indices_denotes rs) as Dr. pose proof (sel_indices_denotes cs) as Dc.
  destruct (get_sub_matrix m rs cs) as [m'|e] eqn:E.
  - f_equal. pose proof (get_sub_matrix_ok _ _ _ _ _ _ Dr Dc E) as (H1 & H2 & H3 & H4).
    pose proof Dr as (Lr & Er). pose proof Dc as (Lc & Ec).
    assert (L1 : length (sel_indices rs) = r1 - r0) by (rewrite Lr; lia).
    assert (L2 : length (sel_indices cs) = c1 - c0) by (rewrite Lc; lia).
    apply mat_eq_mk; [assumption|congruence|congruence|].
    intros i j Hi Hj. destruct (H4 i j) as (r & c & A1 & A2 & ->); [congruence|congruence|].
    rewrite Er in A1 by congruence. rewrite Ec in A2 by congruence.
    destruct A1 as (B1 & B2), A2 as (B3 & B4). f_equal; lia.
  - exfalso. apply (get_sub_matrix_err _ _ _ _ _ _ Dr Dc) in E as (_ & _ & _ & E).
    pose proof Dr as (Lr & Er). pose proof Dc as (Lc & Ec).
    destruct E as [E|E]; apply Exists_exists in E as (z & Hz & Ho);
      apply (In_nth _ _ 0%Z) in Hz as (k & Hk & <-).
    + rewrite Er in Ho by assumption. unfold out_of_range in Ho. lia.
    + rewrite Ec in Ho by assumption. unfold out_of_range in Ho. lia.
Qed.

Lemma get_columns_range m c0 c1 : c0 <= c1 <= nc m ->
  get_columns m (STuple (Z.of_nat c0) (Z.of_nat c1)) =
  Ok (mk (nr m) (c1 - c0) (fun i j => entry m i (c0 + j))).
Proof.
  intros Hc. unfold get_columns. change 0%Z with (Z.of_nat 0).
  rewrite get_sub_matrix_range by lia. f_equal. rewrite Nat.sub_0_r. reflexivity.
Qed.
Lemma get_rows_range m r0 r1 : r0 <= r1 <= nr m ->
  get_rows m (STuple (Z.of_nat r0) (Z.of_nat r1)) =
  Ok (mk (r1 - r0) (nc m) (fun i j => entry m (r0 + i) j)).
Proof.
  intros Hc. unfold get_rows. change 0%Z with (Z.of_nat 0).
  rewrite get_sub_matrix_range by lia. f_equal. rewrite Nat.sub_0_r. reflexivity.
Qed.

Lemma concat_columns_split a b m : wf a -> wf b -> concat_along_columns a b = Ok m ->
  get_columns m (STuple 0 (Z.of_nat (nc a))) = Ok a /\
  get_columns m (STuple (Z.of_nat (nc a)) (Z.of_nat (nc a + nc b))) = Ok b.
Proof.
  intros Ha Hb E. destruct (Nat.eq_dec (nr a) (nr b)) as [Hn|Hn];
    [|rewrite concat_columns_err in E by assumption; discriminate].
  destruct (concat_columns_ok a b Ha Hb Hn) as (m' & E' & Hm).
  rewrite E in E'. injection E' as <-. destruct Hm as (H1 & H2 & H3 & H4).
  change 0%Z with (Z.of_nat 0). rewrite !get_columns_range by lia. split; f_equal.
  - symmetry. apply mat_eq_mk; auto; try lia. intros i j Hi Hj.
    rewrite H4 by lia. replace (0 + j <? nc a) with true by (symmetry; apply Nat.ltb_lt; lia). reflexivity.
  - symmetry. apply mat_eq_mk; auto; try lia. intros i j Hi Hj.
    rewrite H4 by lia. replace (nc a + j <? nc a) with false by (symmetry; apply Nat.ltb_ge; lia).
    f_equal. lia.
Qed.

Lemma concat_rows_split a b m : wf a -> wf b -> concat_along_rows a b = Ok m ->
  get_rows m (STuple 0 (Z.of_nat (nr a))) = Ok a /\
  get_rows m (STuple (Z.of_nat (nr a)) (Z.of_nat (nr a + nr b))) = Ok b.
Proof.
  intros Ha Hb E. destruct (Nat.eq_dec (nc a) (nc b)) as [Hn|Hn];
    [|rewrite concat_rows_err in E by assumption; discriminate].
  destruct (concat_rows_ok a b Ha Hb Hn) as (m' & E' & Hm).
  rewrite E in E'. injection E' as <-. destruct Hm as (H1 & H2 & H3 & H4).
  change 0%Z with (Z.of_nat 0). rewrite !get_rows_range by lia. split; f_equal.
  - symmetry. apply mat_eq_mk; auto; try lia. intros i j Hi Hj.
    rewrite H4 by lia. replace (0 + i <? nr a) with true by (symmetry; apply Nat.ltb_lt; lia). reflexivity.
  - symmetry. apply mat_eq_mk; auto; try lia. intros i j Hi Hj.
    rewrite H4 by lia. replace (nr a + i <? nr a) with false by (symmetry; apply Nat.ltb_ge; lia).
    f_equal. lia.
Qed.

Lemma split_concat_columns m k : wf m -> k <= nc m ->
  exists a b, get_columns m (STuple 0 (Z.of_nat k)) = Ok a /\
              get_columns m (STuple (Z.of_nat k) (Z.of_nat (nc m))) = Ok b /\
              concat_along_columns a b = Ok m.
Proof.
  intros Hm Hk. change 0%Z with (Z.of_nat 0). rewrite !get_columns_range by lia.
  do 2 eexists. split; [reflexivity|]. split; [reflexivity|].
  edestruct concat_columns_ok as (m' & -> & H1 & H2 & H3 & H4); [| | |f_equal].
  4:{ rewrite ?nr_mk, ?nc_mk in *. apply mat_ext; auto; try lia. intros i j Hi Hj. rewrite H4 by lia.
      destruct (j <? k - 0) eqn:E.
      - apply Nat.ltb_lt in E. rewrite entry_mk by lia. reflexivity.
      - apply Nat.ltb_ge in E. rewrite entry_mk by lia. f_equal. lia. }
  all: try apply mk_wf. reflexivity.
Qed.

Lemma concat_columns_assoc a b c x y : wf a -> wf b -> wf c ->
  concat_along_columns a b = Ok x -> concat_along_columns b c = Ok y ->
  concat_along_columns x c = concat_along_columns a y.
Proof.
  unfold concat_along_columns, concat, concat_columns; cbn.
  intros [La Fa] [Lb Fb] [Lc Fc].
  destruct (nr a =? nr b) eqn:E1; [|discriminate]. intros [= <-].
  destruct (nr b =? nr c) eqn:E2; [|discriminate]. intros [= <-]. cbn.
  apply Nat.eqb_eq in E1, E2. rewrite E1, E2, Nat.eqb_refl. f_equal. f_equal; [lia|].
  assert (Hl : length (rws a) = length (rws b)) by congruence.
  assert (Hl2 : length (rws b) = length (rws c)) by congruence.
  clear - Hl Hl2. revert Hl Hl2. generalize (rws a) as u, (rws b) as v, (rws c) as w.
  induction u as [|x u IH]; intros [|y v] [|z w]; cbn; intros H1 H2; try discriminate; auto.
  f_equal; [now rewrite app_assoc|]. apply IH; lia.
Qed.

Lemma concat_rows_assoc a b c x y :
  concat_along_rows a b = Ok x -> concat_along_rows b c = Ok y ->
  concat_along_rows x c = concat_along_rows a y.
Proof.
  unfold concat_along_rows, concat, concat_rows; cbn.
  destruct (nc a =? nc b) eqn:E1; [|discriminate]. intros [= <-].
  destruct (nc b =? nc c) eqn:E2; [|discriminate]. intros [= <-]. cbn.
  apply Nat.eqb_eq in E1, E2. rewrite E1, E2, Nat.eqb_refl. f_equal. f_equal; [lia|].
  now rewrite app_assoc.
Qed.

(** flattening *)
Lemma flat_map_tab_length {A} (n k : nat) (f : nat -> nat -> A) :
  length (flat_map (fun c => map (f c) (seq 0 k)) (seq 0 n)) = n * k.
Proof.
  induction n as [|n IH]; [reflexivity|].
  rewrite seq_S, flat_map_app, app_length, IH. cbn. rewrite app_nil_r, map_length, seq_length. lia.
Qed.

Lemma flat_map_tab_nth {A} (n k : nat) (f : nat -> nat -> A) d c r : c < n -> r < k ->
  nth (c * k + r) (flat_map (fun c => map (f c) (seq 0 k)) (seq 0 n)) d = f c r.
Proof.
  revert c; induction n as [|n IH]; intros c Hc Hr; [lia|].
  rewrite seq_S, flat_map_app. cbn. rewrite app_nil_r.
  destruct (Nat.eq_dec c n) as [->|Hne].
  - rewrite app_nth2; rewrite flat_map_tab_length; [|lia].
    replace (n * k + r - n * k) with r by lia. change (map (f n) (seq 0 k)) with (tab k (f n)).
    now apply nth_tab.
  - rewrite app_nth1; [apply IH; lia|]. rewrite flat_map_tab_length. nia.
Qed.

Lemma to_raw_copy_1D_length m : length (to_raw_copy_1D m) = nr m * nc m.
Proof. unfold to_raw_copy_1D. rewrite (flat_map_tab_length (nc m) (nr m) (fun c r => entry m r c)). lia. Qed.

Lemma to_raw_copy_1D_nth m d r c : r < nr m -> c < nc m ->
  nth (c * nr m + r) (to_raw_copy_1D m) d = entry m r c.
Proof. intros. unfold to_raw_copy_1D. now rewrite (flat_map_tab_nth (nc m) (nr m) (fun c r => entry m r c)). Qed.

Lemma to_raw_copy_2D_rows m : wf m -> to_raw_copy_2D m = rws m.
Proof.
  intros Hm. change (to_raw_copy_2D m) with (rws (mk (nr m) (nc m) (entry m))).
  now rewrite mk_entry.
Qed.

Lemma np_array2_rows m : wf m -> nr m <> 0 -> np_array2 (rws m) = m.
Proof.
  intros [H1 H2] Hn. destruct m as [r c w]; cbn in *. destruct w as [|x w]; [cbn in *; lia|].
  unfold np_array2. inversion H2; subst. reflexivity.
Qed.

Lemma np_array2_0 m : wf m -> nr m = 0 -> np_array2 (rws m) = Mat 1 0 [[]].
Proof. intros [H1 H2] Hn. destruct (rws m); [reflexivity|cbn in *; lia]. Qed.

Lemma np_array2_tab r c (f : nat -> nat -> T) : r <> 0 ->
  np_array2 (tab r (fun i => tab c (f i))) = mk r c f.
Proof. intros Hr. apply (np_array2_rows (mk r c f)); [apply mk_wf|assumption]. Qed.

(** predicates *)
Lemma which_In m f i j : In (i, j) (which m f) <-> i < nr m /\ j < nc m /\ f (entry m i j) = true.
Proof.
  unfold which. rewrite in_flat_map. split.
  - intros (r & Hr & Hin). apply in_map_iff in Hin as (c & [= <- <-] & Hin).
    apply filter_In in Hin as [Hin Hf]. apply in_seq in Hr, Hin. repeat split; auto; lia.
  - intros (Hi & Hj & Hf). exists i. split; [apply in_seq; lia|].
    apply in_map_iff. exists j. split; [reflexivity|]. apply filter_In. split; [apply in_seq; lia|assumption].
Qed.

Lemma any_iff m f : any m f = true <-> exists i j, i < nr m /\ j < nc m /\ f (entry m i j) = true.
Proof.
  unfold any. rewrite existsb_exists. split.
  - intros (r & Hr & Hin). apply existsb_exists in Hin as (c & Hc & Hf).
    apply in_seq in Hr, Hc. exists r, c. repeat split; auto; lia.
  - intros (i & j & Hi & Hj & Hf). exists i. split; [apply in_seq; lia|].
    apply existsb_exists. exists j. split; [apply in_seq; lia|assumption].
Qed.

Lemma all_iff m f : all m f = true <-> forall i j, i < nr m -> j < nc m -> f (entry m i j) = true.
Proof.
  unfold all. rewrite negb_true_iff. split.
  - intros Hn i j Hi Hj. destruct (f (entry m i j)) eqn:E; [reflexivity|].
    assert (any m (fun el => negb (f el)) = true); [|congruence].
    apply any_iff. exists i, j. rewrite E. auto.
  - intros Hf. destruct (any m (fun el => negb (f el))) eqn:E; [|reflexivity].
    apply any_iff in E as (i & j & Hi & Hj & E). rewrite Hf in E by assumption. discriminate.
Qed.

(** row-major order on positions *)

Lemma filter_seq_sorted (g : nat -> bool) (a n : nat) : StronglySorted lt (filter g (seq a n)).
Proof.
  revert a; induction n as [|n IH]; intros a; cbn; [constructor|].
  destruct (g a); [|apply IH]. constructor; [apply IH|].
  apply Forall_forall. intros x Hx. apply filter_In in Hx as [Hx _]. apply in_seq in Hx. lia.
Qed.

Lemma StronglySorted_app {A} (R : A -> A -> Prop) l l' :
  StronglySorted R l -> StronglySorted R l' -> (forall x y, In x l -> In y l' -> R x y) ->
  StronglySorted R (l ++ l').
Proof.
  induction l as [|a l IH]; cbn; intros H1 H2 H3; [assumption|].
  inversion H1; subst. constructor; [apply IH; auto|].
  apply Forall_app. split; [assumption|]. apply Forall_forall. auto.
Qed.

Lemma which_sorted m f : StronglySorted rm_lt (which m f).
Proof.
  unfold which.
  enough (Hg : forall n a : nat, StronglySorted rm_lt (flat_map (fun row => map (fun col => (row, col))
              (filter (fun col => f (entry m row col)) (seq 0 (nc m)))) (seq a n))) by apply Hg.
  induction n as [|n IH]; intros a; cbn; [constructor|].
  apply StronglySorted_app; [|apply IH|].
  - generalize (filter_seq_sorted (fun col => f (entry m a col)) 0 (nc m)).
    generalize (filter (fun col => f (entry m a col)) (seq 0 (nc m))) as l.
    induction l as [|x l IHl]; cbn; intros Hs; [constructor|].
    inversion Hs; subst. constructor; [now apply IHl|].
    apply Forall_forall. intros y Hy. apply in_map_iff in Hy as (z & <- & Hz).
    right. cbn. split; [reflexivity|]. rewrite Forall_forall in H3. now apply H3.
  - intros x y Hx Hy. apply in_map_iff in Hx as (z & <- & _).
    apply in_flat_map in Hy as (r & Hr & Hy). apply in_map_iff in Hy as (w & <- & _).
    apply in_seq in Hr. left. cbn. lia.
Qed.

Lemma where_vector_ok m f l : where_vector m f = Ok l ->
  vector_shaped m /\ StronglySorted lt l /\
  forall k, In k l <-> k < vec_len m /\ f (vec_at m k) = true.
Proof.
  unfold where_vector, must_be_vector. destruct (is_vector m) eqn:E; cbn; [|discriminate].
  apply is_vector_iff in E. rewrite is_row_vector_eqb. unfold vec_len, vec_at.
  destruct (nr m =? 1); intros [= <-]; (split; [assumption|]); (split; [apply filter_seq_sorted|]);
    intros k; rewrite filter_In, in_seq; intuition lia.
Qed.
Lemma where_vector_err m f e : where_vector m f = Err e <-> e = ValueError /\ ~ vector_shaped m.
Proof.
  unfold where_vector, must_be_vector. rewrite <- is_vector_iff.
  destruct (is_vector m) eqn:E; cbn.
  - destruct (is_row_vector m); split; try discriminate; intros [_ HH]; congruence.
  - split; [intros [= <-]; auto|intros [-> _]; reflexivity].
Qed.

End G.

(** Shapes of results, as a rewriting base. *)
Lemma nr_transpose' {T} `{Num T} (m : mat T) : nr (transpose m) = nc m. Proof. reflexivity. Qed.
Lemma nc_transpose' {T} `{Num T} (m : mat T) : nc (transpose m) = nr m. Proof. reflexivity. Qed.
Lemma nr_map_mat {T} `{Num T} f (m : mat T) : nr (map_mat f m) = nr m. Proof. reflexivity. Qed.
Lemma nc_map_mat {T} `{Num T} f (m : mat T) : nc (map_mat f m) = nc m. Proof. reflexivity. Qed.
Lemma nr_map2_mat {T} `{Num T} f (m m' : mat T) : nr (map2_mat f m m') = nr m. Proof. reflexivity. Qed.
Lemma nc_map2_mat {T} `{Num T} f (m m' : mat T) : nc (map2_mat f m m') = nc m. Proof. reflexivity. Qed.
Lemma nr_matmul {T} `{Num T} (m m' : mat T) : nr (matmul m m') = nr m. Proof. reflexivity. Qed.
Lemma nc_matmul {T} `{Num T} (m m' : mat T) : nc (matmul m m') = nc m'. Proof. reflexivity. Qed.
Lemma nr_mul_scalar {T} `{Num T} (m : mat T) s : nr (mul_scalar m s) = nr m. Proof. reflexivity. Qed.
Lemma nc_mul_scalar {T} `{Num T} (m : mat T) s : nc (mul_scalar m s) = nc m. Proof. reflexivity. Qed.
Lemma nr_div_scalar {T} `{Num T} (m : mat T) s : nr (div_scalar m s) = nr m. Proof. reflexivity. Qed.
Lemma nc_div_scalar {T} `{Num T} (m : mat T) s : nc (div_scalar m s) = nc m. Proof. reflexivity. Qed.
#[global] Hint Rewrite @nr_mk @nc_mk @nr_transpose' @nc_transpose' @nr_map_mat @nc_map_mat @nr_map2_mat @nc_map2_mat
  @nr_matmul @nc_matmul @nr_mul_scalar @nc_mul_scalar @nr_div_scalar @nc_div_scalar : sh.
Lemma entry_map_mat {T} `{Num T} f (m : mat T) i j : i < nr m -> j < nc m -> entry (map_mat f m) i j = f (entry m i j).
Proof. intros. unfold map_mat. now rewrite entry_mk. Qed.
Lemma entry_map2_mat {T} `{Num T} f (m m' : mat T) i j : i < nr m -> j < nc m ->
  entry (map2_mat f m m') i j = f (entry m i j) (entry m' i j).
Proof. intros. unfold map2_mat. now rewrite entry_mk. Qed.
Lemma entry_mul_scalar {T} `{Num T} s (m : mat T) i j : i < nr m -> j < nc m -> entry (mul_scalar m s) i j = nmul (entry m i j) s.
Proof. intros. unfold mul_scalar. now rewrite entry_map_mat. Qed.
Lemma entry_div_scalar {T} `{Num T} s (m : mat T) i j : i < nr m -> j < nc m -> entry (div_scalar m s) i j = ndiv (entry m i j) s.
Proof. intros. unfold div_scalar. now rewrite entry_map_mat. Qed.
