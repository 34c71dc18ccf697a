(** C56: PCA component selection, scores and loadings.  C48 for PCA. *)
From Coq Require Import List ZArith Lia Bool Arith Reals Lra Permutation Sorted.
From Verif Require Import Base Num Mat M_Matrix M_Factory M_Helper M_Loop M_Utils M_Linalg M_Transform M_PLSBase M_PLS M_PCA
  S_Matrix L_Base L_Mat L_Matrix L_MatR L_Linalg L_Alg L_Sort L_Stats L_Transform P_Matrix P_Helper P_Linalg P_Eigen P_Transform P_OPLS P_GLSW P_Utils P_Kernel.
Import ListNotations.
Local Open Scope nat_scope.

(** * List and table lemmas *)
Lemma mapM_npidx n (l : list nat) : (forall i, In i l -> i < n) -> mapM (npidx n) (map Z.of_nat l) = Ok l.
Proof.
  induction l as [|a l IH]; intros Hl; [reflexivity|]. cbn [map mapM]. rewrite npidx_nat by (apply Hl; now left). cbn [bind].
  rewrite IH by (intros; apply Hl; now right). reflexivity.
Qed.
Lemma map_tab_nth {A B} (f : A -> B) (l : list A) d : map f l = tab (length l) (fun i => f (nth i l d)).
Proof.
  unfold tab. rewrite <- (map_map (fun i => nth i l d) f). f_equal. symmetry. change (map (fun i => nth i l d) (seq 0 (length l))) with (tab (length l) (fun i => nth i l d)).
  apply tab_nth; reflexivity.
Qed.
Lemma get_sub_matrix_lists {T} `{Num T} (m : mat T) (rl cl : list nat) :
  rl <> [] -> cl <> [] -> (forall i, In i rl -> i < nr m) -> (forall j, In j cl -> j < nc m) ->
  get_sub_matrix m (SList (map Z.of_nat rl)) (SList (map Z.of_nat cl)) =
  Ok (mk (length rl) (length cl) (fun i j => entry m (nth i rl 0) (nth j cl 0))).
Proof.
  intros Hr Hc Hrl Hcl. unfold get_sub_matrix. cbn [sel_indices]. rewrite !map_length.
  destruct rl as [|r0 rl']; [congruence|]. destruct cl as [|c0 cl']; [congruence|]. cbn [length Nat.eqb orb].
  rewrite !mapM_npidx by assumption. cbn [bind]. f_equal. unfold mk. f_equal.
  rewrite (map_tab_nth _ (r0 :: rl') 0). apply tab_ext. intros i Hi. apply (map_tab_nth (fun j => entry m _ j) (c0 :: cl') 0).
Qed.
Lemma filter_full {A} (f : A -> bool) l : length (filter f l) = length l -> filter f l = l.
Proof.
  induction l as [|a l IH]; [reflexivity|]. cbn [filter]. destruct (f a); cbn [length]; intros E.
  - f_equal. apply IH. lia.
  - assert (length (filter f l) <= length l); [|lia]. clear. induction l as [|b l IH]; [reflexivity|]. cbn [filter length]. destruct (f b); cbn [length]; lia.
Qed.
Lemma filter_seq_sorted f a n : StronglySorted lt (filter f (seq a n)).
Proof.
  revert a. induction n as [|n IH]; intros a; cbn [seq filter]; [constructor|].
  destruct (f a); [|apply IH]. constructor; [apply IH|]. apply Forall_forall. intros x Hx. apply filter_In in Hx as [Hx _]. apply in_seq in Hx. lia.
Qed.

(** * The columns that are kept *)
Definition varies (X : mat R) (j : nat) : Prop := exists i k, i < nr X /\ k < nr X /\ entry X i j <> entry X k j.
Lemma varies_iff (X : mat R) j :
  existsb (fun i => negb (neqb (entry X i j) (entry X 0 j))) (seq 1 (nr X - 1)) = true <-> varies X j.
Proof.
  rewrite existsb_exists. split.
  - intros (i & Hi & E). apply in_seq in Hi. exists i, 0. split; [lia|]. split; [lia|]. cbn [neqb NumR] in E. apply negb_true_iff, Reqb_false in E. exact E.
  - intros (i & k & Hi & Hk & Hne). destruct (Req_dec (entry X i j) (entry X 0 j)) as [E|E].
    + exists k. split; [apply in_seq; destruct k; [congruence|lia]|]. cbn [neqb NumR]. apply negb_true_iff, Reqb_false. congruence.
    + exists i. split; [apply in_seq; destruct i; [congruence|lia]|]. cbn [neqb NumR]. apply negb_true_iff, Reqb_false. exact E.
Qed.
(** [keep] lists, in increasing order, the columns of X with at least two different values *)
Definition varying_columns (X : mat R) (keep : list nat) : Prop :=
  StronglySorted lt keep /\ forall j, In j keep <-> j < nc X /\ varies X j.
Lemma pca_keep_spec (X : mat R) : varying_columns X (pca_keep X).
Proof.
  split; [apply filter_seq_sorted|]. intros j. unfold pca_keep. rewrite filter_In, in_seq, varies_iff. intuition lia.
Qed.
Lemma pca_remove_spec (X : mat R) : wf X -> pca_keep X <> [] ->
  pca_remove (pca_keep X) X = Ok (mk (nr X) (length (pca_keep X)) (fun i j => entry X i (nth j (pca_keep X) 0))).
Proof.
  intros W Hk. unfold pca_remove. destruct (Nat.eqb_spec (length (pca_keep X)) (nc X)) as [E|E].
  - f_equal. assert (Es : pca_keep X = seq 0 (nc X)). { unfold pca_keep in *. apply filter_full. rewrite seq_length. exact E. }
    rewrite (wf_mk X W) at 1. rewrite Es, seq_length. apply mk_ext. intros i j Hi Hj. now rewrite seq_nth.
  - assert (Hr : nr X <> 0). { destruct (pca_keep X) as [|j l] eqn:EK; [congruence|]. destruct (pca_keep_spec X) as (_ & Hs). 
      destruct (proj1 (Hs j)) as (_ & i & k & Hi & _); [rewrite EK; now left|lia]. }
    rewrite get_sub_matrix_lists.
    + rewrite seq_length. f_equal. apply mk_ext. intros i j Hi Hj. now rewrite seq_nth.
    + destruct (nr X); [congruence|discriminate].
    + exact Hk.
    + intros i Hi. apply in_seq in Hi. lia.
    + intros j Hj. destruct (pca_keep_spec X) as (_ & Hs). now apply Hs in Hj as [Hj _].
Qed.

(** * fill_correlation *)
Lemma for_range_sum (n : nat) (f : nat -> R) (body : R -> nat -> res R) :
  (forall c k, k < n -> body c k = Ok (c + f k)%R) -> for_range n body 0%R = Ok (sumn n f).
Proof.
  intros Hb. destruct (for_range_inv (fun k c => c = sumn k f) body n 0%R) as (a & E & ->).
  - now rewrite sumR_0.
  - intros k c Hk ->. rewrite Hb by assumption. eexists. split; [reflexivity|]. now rewrite sumR_S.
  - exact E.
Qed.
(** entry (i,j) of the covariance of the columns of Z *)
Definition cov_of (rows : nat) (Z : nat -> nat -> R) (i j : nat) : R := (Rsum rows (fun r => Z r i * Z r j) / (INR rows - 1))%R.
Lemma cov_of_sym rows Z i j : cov_of rows Z i j = cov_of rows Z j i.
Proof. unfold cov_of. f_equal. apply Rsum_ext. intros. ring. Qed.
Lemma pca_correlation_spec rows n (Z : nat -> nat -> R) : n <> 0 ->
  pca_correlation n (mk rows n Z) = Ok (mk n n (cov_of rows Z)).
Proof.
  intros Hn. set (k := cov_of rows Z). assert (Hsym : forall i j, k i j = k j i) by (intros; apply cov_of_sym).
  unfold pca_correlation. cbn [nr mk]. fold (mk rows n Z).
  match goal with |- for_range n ?b ?a = _ => destruct (for_range_inv
    (fun p M => is_mat M n n (fun i j => if (i <? p) || (j <? p) then k i j else 0%R)) b n a) as (K & E & HK) end.
  - apply (zeros_is_mat n n Hn).
  - intros p M0 Hp HM. match goal with |- context[for_each (seq p (n - p)) ?b ?a] => destruct (for_seq_inv
     (fun q M => is_mat M n n (fun i j => if (i <? p) || (j <? p) || (i =? p) && (j <? q) || (j =? p) && (i <? q) then k i j else 0%R)) b p (n - p) a) as (M' & E' & HM') end.
    + eapply is_mat_fun_ext; [exact HM|]. intros i j Hi Hj. cbv beta.
      replace ((i <? p) || (j <? p) || (i =? p) && (j <? p) || (j =? p) && (i <? p)) with ((i <? p) || (j <? p)); [reflexivity|].
      destruct (i <? p), (j <? p), (i =? p), (j =? p); reflexivity.
    + intros q M Hq HMq. rewrite (for_range_sum rows (fun r => Z r p * Z r q)%R).
      2:{ intros c r Hr. rewrite !get_mk by lia. reflexivity. }
      cbn [bind]. cbn [ndiv nofZ NumR]. rewrite minus_IZR, <- INR_IZR_INZ, <- Rsum_sumn. fold (cov_of rows Z p q). fold k.
      destruct (set_nat M p q (k p q) _ _ _ HMq ltac:(lia) ltac:(lia)) as (M1 & E1 & HM1). rewrite E1. cbn [bind].
      destruct (set_nat M1 q p (k p q) _ _ _ HM1 ltac:(lia) ltac:(lia)) as (M2 & E2 & HM2). rewrite E2. eexists. split; [reflexivity|].
      eapply is_mat_fun_ext; [exact HM2|]. intros i j Hi Hj. cbv beta.
      destruct (Nat.eqb_spec i q) as [->|Hiq], (Nat.eqb_spec j p) as [->|Hjp]; cbn [andb].
      * destruct (Nat.ltb_spec q (S q)); [|lia]. rewrite orb_true_r. apply Hsym.
      * destruct (Nat.eqb_spec q p) as [->|Hqp]; cbn [andb].
        -- destruct (Nat.eqb_spec j p); [contradiction|]. replace (j <? S p) with (j <? p); [reflexivity|]. apply Bool.eq_true_iff_eq. rewrite !Nat.ltb_lt. lia.
        -- rewrite !orb_false_r. reflexivity.
      * destruct (Nat.eqb_spec i p) as [->|Hip]; cbn [andb].
        -- destruct (Nat.eqb_spec p q); [congruence|]. replace (p <? S q) with (p <? q) by (apply Bool.eq_true_iff_eq; rewrite !Nat.ltb_lt; lia). 
           replace (p <? q) with true by (symmetry; apply Nat.ltb_lt; lia). replace (p <? S q) with true by (symmetry; apply Nat.ltb_lt; lia). rewrite !orb_true_r. reflexivity.
        -- replace (i <? S q) with (i <? q); [reflexivity|]. apply Bool.eq_true_iff_eq. rewrite !Nat.ltb_lt. lia.
      * destruct (Nat.eqb_spec i p) as [->|Hip]; cbn [andb].
        -- destruct (Nat.eqb_spec j q) as [->|Hjq]; cbn [andb].
           ++ destruct (Nat.ltb_spec q (S q)); [|lia]. rewrite !orb_true_r. reflexivity.
           ++ replace (j <? S q) with (j <? q); [reflexivity|]. apply Bool.eq_true_iff_eq. rewrite !Nat.ltb_lt. lia.
        -- reflexivity.
    + exists M'. split; [exact E'|]. eapply is_mat_fun_ext; [exact HM'|]. intros i j Hi Hj. cbv beta.
      replace (p + (n - p)) with n by lia. destruct (Nat.ltb_spec j n), (Nat.ltb_spec i n); try lia. rewrite !andb_true_r.
      replace ((i <? p) || (j <? p) || (i =? p) || (j =? p)) with ((i <? S p) || (j <? S p)); [reflexivity|].
      apply Bool.eq_true_iff_eq. rewrite !orb_true_iff, !Nat.ltb_lt, !Nat.eqb_eq. lia.
  - etransitivity; [exact E|]. f_equal. apply is_mat_eq_mk. eapply is_mat_fun_ext; [exact HK|]. intros i j Hi Hj. cbv beta. destruct (Nat.ltb_spec i n); [reflexivity|lia].
Qed.

(** * Preprocessing *)
(** Row r of the j-th kept column, centred and, unless only centring is asked for, divided by the
    standard deviation of the column *)
Definition prepared (only_center : bool) (X : mat R) (keep : list nat) (r j : nat) : R :=
  let col := fun k => entry X k (nth j keep 0) in
  let d := (col r - Rmean (nr X) col)%R in
  if only_center then d else (d / sqrt (Rvar (nr X) col))%R.

Lemma Rmean_ext n f g : (forall i, i < n -> f i = g i) -> Rmean n f = Rmean n g.
Proof. intros Hf. unfold Rmean. f_equal. now apply Rsum_ext. Qed.
Lemma Rvar_ext n f g : (forall i, i < n -> f i = g i) -> Rvar n f = Rvar n g.
Proof. intros Hf. unfold Rvar. f_equal. apply Rsum_ext. intros i Hi. now rewrite Hf, (Rmean_ext n f g) by assumption. Qed.
Lemma nonconstant_rows (X : mat R) j : varies X j -> 2 <= nr X /\ ~ constant_column X j.
Proof.
  intros (i & k & Hi & Hk & Hne). split.
  - destruct (Nat.eq_dec i k); [subst; congruence|lia].
  - intros Hc. apply Hne. now apply Hc.
Qed.
Lemma prep_spec (b : bool) (X : mat R) : pca_keep X <> [] ->
  let D := mk (nr X) (length (pca_keep X)) (fun i j => entry X i (nth j (pca_keep X) 0)) in
  let P := mk (nr X) (length (pca_keep X)) (prepared b X (pca_keep X)) in
  let t0 := if b then PTCenter (t_new center) else PTStandardize (t_new standardize) in
  exists t, pt_transform t0 D = (t, Ok P) /\ pt_transform t D = (t, Ok P).
Proof.
  intros Hk D P t0. destruct (pca_keep_spec X) as (_ & Hs).
  assert (Hn : nc D <> 0). { cbn. destruct (pca_keep X); [congruence|discriminate]. }
  assert (Hv : forall j, j < nc D -> varies X (nth j (pca_keep X) 0)). { intros j Hj. apply (Hs (nth j (pca_keep X) 0)). apply nth_In. exact Hj. }
  assert (Hext : forall j, j < nc D -> forall k, k < nr X -> entry D k j = entry X k (nth j (pca_keep X) 0)). { intros j Hj k Hkr. unfold D. rewrite entry_mk by assumption. reflexivity. }
  destruct b.
  - exists (PTCenter (center_conf D)). assert (E : t_do center (center_conf D) D = Ok P).
    { rewrite center_do, Nat.eqb_refl. f_equal. apply mk_ext. intros i j Hi Hj. cbn [nsub NumR]. rewrite <- Rmean_np. unfold prepared. cbv zeta.
      rewrite Hext by assumption. f_equal. change (nr D) with (nr X). apply Rmean_ext. intros k Hk'. now apply Hext. }
    unfold t0, pt_transform, t_transform. split.
    + change (t_configured center (t_new center)) with false. cbn [negb]. change (t_configure center (t_new center) D) with (center_conf D, Ok tt). cbv iota beta. now rewrite E.
    + change (t_configured center (center_conf D)) with true. cbn [negb]. now rewrite E.
  - exists (PTStandardize (std_conf D)). assert (E : t_do standardize (std_conf D) D = Ok P).
    { rewrite standardize_do, Nat.eqb_refl. f_equal. apply mk_ext. intros i j Hi Hj. cbn [nsub ndiv NumR]. rewrite <- Rmean_np. unfold prepared. cbv zeta.
      rewrite Hext by assumption. destruct (nonconstant_rows _ _ (Hv j Hj)) as (H2 & Hc).
      destruct (proj1 (sd_used_R D j H2)) as (-> & _).
      { intros Q. apply Hc. intros a c Ha Hc'. specialize (Q a c Ha Hc'). rewrite !Hext in Q by assumption. exact Q. }
      change (nr D) with (nr X). f_equal; [f_equal; apply Rmean_ext|f_equal; apply Rvar_ext]; intros k Hk'; now apply Hext. }
    unfold t0, pt_transform, t_transform. split.
    + change (t_configured standardize (t_new standardize)) with false. cbn [negb]. rewrite standardize_configure by exact Hn. now rewrite E.
    + change (t_configured standardize (std_conf D)) with true. cbn [negb]. now rewrite E.
Qed.

(** * The loop over the components *)
Lemma get_from_vector_col n (f : nat -> R) k : k < n -> get_from_vector (mk n 1 (fun i _ => f i)) (Z.of_nat k) = Ok (f k).
Proof.
  intros Hk. unfold get_from_vector, must_be_vector. rewrite is_vector_col. cbn [bind]. destruct (is_row_vector _) eqn:E.
  - unfold is_row_vector in E. cbn in E. apply andb_prop in E as [_ E]. apply Nat.eqb_eq in E. subst n. assert (k = 0) by lia. subst k.
    change 0%Z with (Z.of_nat 0). now rewrite get_mk by lia.
  - change 0%Z with (Z.of_nat 0). now rewrite get_mk by lia.
Qed.
Section Select.
Variables (s : pca_st R) (n : nat) (v : nat -> nat -> R) (lam : nat -> R) (so : list nat).
Definition shown c := nth (n - 1 - c) so 0.
Definition cum c := sumn c (fun k => lam (shown k)).
Fixpoint stop (k c0 : nat) : nat :=
  match k with 0 => c0 | S k => if pca_enough s (cum (S c0)) then S c0 else stop k (S c0) end.
Lemma stop_le k : forall c0, stop k c0 <= c0 + k.
Proof. induction k as [|k IH]; intros c0; cbn [stop]; [lia|]. destruct (pca_enough _ _); [lia|]. specialize (IH (S c0)). lia. Qed.
Lemma stop_ge k : forall c0, c0 <= stop k c0.
Proof. induction k as [|k IH]; intros c0; cbn [stop]; [lia|]. destruct (pca_enough _ _); [lia|]. specialize (IH (S c0)). lia. Qed.
Lemma stop_gt k c0 : k <> 0 -> c0 < stop k c0.
Proof. destruct k as [|k]; [congruence|]. intros _. cbn [stop]. destruct (pca_enough _ _); [lia|]. pose proof (stop_ge k (S c0)). lia. Qed.
Lemma stop_before k : forall c0 c, c0 < c < stop k c0 -> pca_enough s (cum c) = false.
Proof.
  induction k as [|k IH]; intros c0 c Hc; cbn [stop] in Hc; [lia|]. destruct (pca_enough s (cum (S c0))) eqn:E; [lia|].
  destruct (Nat.eq_dec c (S c0)) as [->|]; [exact E|]. apply (IH (S c0)). lia.
Qed.
Lemma stop_end k : forall c0, stop k c0 = c0 + k \/ pca_enough s (cum (stop k c0)) = true.
Proof.
  induction k as [|k IH]; intros c0; cbn [stop]; [left; lia|]. destruct (pca_enough s (cum (S c0))) eqn:E; [now right|].
  destruct (IH (S c0)) as [->|]; [left; lia|now right].
Qed.
(** the number of components at most shown *)
Definition cap : nat := if (0 <? pc_max_columns s)%Z then Nat.min n (Z.to_nat (pc_max_columns s)) else n.
Lemma rev_seq_map m : forall a, rev (seq a m) = map (fun c => a + m - 1 - c) (seq 0 m).
Proof.
  induction m as [|m IH]; intros a; [reflexivity|]. cbn [seq rev]. rewrite IH, <- seq_shift, map_cons, map_map.
  change [a] with (map (fun _ : nat => a) (seq 0 1)).
  replace (map (fun c => S a + m - 1 - c) (seq 0 m) ++ map (fun _ => a) (seq 0 1)) with (map (fun c => a + m - c) (seq 0 (m + 1))).
  - rewrite Nat.add_1_r. cbn [seq]. rewrite map_cons, <- seq_shift, map_map. f_equal; [lia|]. apply map_ext. intros; lia.
  - rewrite seq_app, map_app. f_equal; [apply map_ext; intros; lia|]. cbn. f_equal. lia.
Qed.
Lemma pca_order_spec : pc_num_cols s = n -> pca_order s = map (fun c => n - 1 - c) (seq 0 cap).
Proof.
  intros Hn. unfold pca_order, pca_lower, cap. rewrite Hn, rev_seq_map. destruct (Z.ltb_spec 0 (pc_max_columns s)).
  - replace (n - Z.to_nat (Z.of_nat n - pc_max_columns s)) with (Nat.min n (Z.to_nat (pc_max_columns s))) by lia.
    apply map_ext_in. intros c Hc. apply in_seq in Hc. lia.
  - rewrite Nat.sub_0_r. apply map_ext. intros; lia.
Qed.
Hypothesis Hn : pc_num_cols s = n.
Hypothesis HV : pc_eigenvectors s = Some (mk n n v).
Hypothesis HL : pc_eigenvalues s = Some (mk n 1 (fun i _ => lam i)).
Hypothesis HS : pc_sorted s = so.
Hypothesis Hlen : length so = n.
Hypothesis Hin : forall k, In k so -> k < n.
Lemma shown_lt c : c < n -> shown c < n.
Proof. intros Hc. apply Hin, nth_In. lia. Qed.
Definition score (z : nat -> nat -> R) r c := sumn n (fun j => v j (shown c) * z r j)%R.
Lemma pca_row_spec rows z r : r < rows -> forall k c0 vals, c0 + k <= n -> c0 + k <= length vals ->
  exists vals', pca_row s (mk rows n z) r (map (fun c => n - 1 - c) (seq c0 k)) vals (cum c0) c0 = Ok (vals', stop k c0) /\
    length vals' = length vals /\
    (forall c, c0 <= c < stop k c0 -> nth c vals' 0%R = score z r c) /\
    (forall c, c < c0 -> nth c vals' 0%R = nth c vals 0%R).
Proof.
  intros Hr. induction k as [|k IH]; intros c0 vals Hk Hv.
  - exists vals. repeat split; auto. cbn [stop]. intros; lia.
  - cbn [seq map pca_row]. rewrite Hn, HV, HL, HS. cbn [need bind].
    assert (Hc : c0 < n) by lia. assert (Hi : n - 1 - c0 < length so) by lia.
    rewrite (for_range_sum n (fun j => v j (shown c0) * z r j)%R).
    2:{ intros val j Hj. rewrite get_row_mk by assumption. cbn [bind]. rewrite (lget_nat so _ 0 Hi). cbn [bind]. fold (shown c0).
        change 0%Z with (Z.of_nat 0). rewrite get_mk by (try apply shown_lt; lia). cbn [bind]. rewrite get_mk by assumption. reflexivity. }
    cbn [bind]. replace (Z.of_nat n - Z.of_nat (n - 1 - c0) - 1)%Z with (Z.of_nat c0) by lia.
    rewrite lset_nat by lia. cbn [bind]. rewrite (lget_nat so _ 0 Hi). cbn [bind]. fold (shown c0).
    rewrite get_from_vector_col by (apply shown_lt; lia). cbn [bind]. change (nadd (cum c0) (lam (shown c0))) with (cum c0 + lam (shown c0))%R.
    assert (Ec : (cum c0 + lam (shown c0))%R = cum (S c0)). { unfold cum. now rewrite sumR_S. }
    rewrite Ec. cbn [stop]. set (vals1 := upd vals c0 _).
    assert (H1 : nth c0 vals1 0%R = score z r c0). { unfold vals1. rewrite nth_upd_same by lia. reflexivity. }
    assert (H2 : forall c, c < c0 -> nth c vals1 0%R = nth c vals 0%R). { intros c Hcc. unfold vals1. apply nth_upd_other. lia. }
    assert (L1 : length vals1 = length vals) by apply upd_length.
    destruct (pca_enough s (cum (S c0))) eqn:E.
    + exists vals1. split; [reflexivity|]. split; [exact L1|]. split; [|exact H2]. intros c Hcc. assert (c = c0) by lia. now subst.
    + destruct (IH (S c0) vals1) as (vals' & E' & L' & S' & P'); [lia|rewrite L1; lia|]. exists vals'. split; [exact E'|]. split; [congruence|]. split.
      * intros c Hcc. destruct (Nat.eq_dec c c0) as [->|]; [rewrite P' by lia; exact H1|apply S'; lia].
      * intros c Hcc. rewrite P' by lia. now apply H2.
Qed.
Lemma pca_coefficients_spec : forall k c0, c0 + k <= n ->
  pca_coefficients s (mk n n v) (mk n 1 (fun i _ => lam i)) (map (fun c => n - 1 - c) (seq c0 k)) (cum c0) =
  Ok (map (fun c => tab n (fun j => v j (shown c))) (seq c0 (stop k c0 - c0))).
Proof.
  induction k as [|k IH]; intros c0 Hk.
  - cbn [stop]. now rewrite Nat.sub_diag.
  - cbn [seq map pca_coefficients]. rewrite Hn, HS. assert (Hc : c0 < n) by lia. assert (Hi : n - 1 - c0 < length so) by lia.
    rewrite (mapM_total _ (fun j => v j (shown c0))).
    2:{ intros j Hj. apply in_seq in Hj. rewrite (lget_nat so _ 0 Hi). cbn [bind]. fold (shown c0). rewrite get_mk by (try apply shown_lt; lia). reflexivity. }
    cbn [bind]. rewrite (lget_nat so _ 0 Hi). cbn [bind]. fold (shown c0). rewrite get_from_vector_col by (apply shown_lt; lia). cbn [bind].
    change (nadd (cum c0) (lam (shown c0))) with (cum c0 + lam (shown c0))%R.
    assert (Ec : (cum c0 + lam (shown c0))%R = cum (S c0)). { unfold cum. now rewrite sumR_S. }
    rewrite Ec. cbn [stop]. destruct (pca_enough s (cum (S c0))) eqn:E.
    + replace (S c0 - c0) with 1 by lia. reflexivity.
    + rewrite IH by lia. cbn [bind]. pose proof (stop_ge k (S c0)). replace (stop k (S c0) - c0) with (S (stop k (S c0) - S c0)) by lia. reflexivity.
Qed.
End Select.

(** * Writing loops *)
Lemma fill_rows r c (f : nat -> nat -> R) (len : nat -> nat) : r <> 0 -> (forall p, p < r -> len p = c) ->
  for_range r (fun M p => for_range (len p) (fun M q => set M (Z.of_nat p) (Z.of_nat q) (f p q)) M) (zeros (Z.of_nat r) (Z.of_nat c)) = Ok (mk r c f).
Proof.
  intros Hr Hl. match goal with |- for_range r ?b ?a = _ => destruct (for_range_inv
    (fun p M => is_mat M r c (fun i j => if i <? p then f i j else 0%R)) b r a) as (K & E & HK) end.
  - eapply is_mat_fun_ext; [apply (zeros_is_mat r c Hr)|]. reflexivity.
  - intros p M Hp HM. rewrite Hl by assumption. match goal with |- context[for_range c ?b ?a] => destruct (for_range_inv
      (fun q M => is_mat M r c (fun i j => if (i <? p) || (i =? p) && (j <? q) then f i j else 0%R)) b c a) as (M' & E' & HM') end.
    + eapply is_mat_fun_ext; [exact HM|]. intros i j Hi Hj. cbv beta. rewrite andb_false_r, orb_false_r. reflexivity.
    + intros q M1 Hq HM1. destruct (set_nat M1 p q (f p q) _ _ _ HM1 Hp Hq) as (M2 & E2 & HM2). exists M2. split; [exact E2|].
      eapply is_mat_fun_ext; [exact HM2|]. intros i j Hi Hj. cbv beta. destruct (Nat.eqb_spec i p) as [->|Hip]; cbn [andb].
      * destruct (Nat.eqb_spec j q) as [->|Hjq]; [destruct (Nat.ltb_spec q (S q)); [|lia]; now rewrite orb_true_r|].
        replace (j <? S q) with (j <? q); [reflexivity|]. apply Bool.eq_true_iff_eq. rewrite !Nat.ltb_lt. lia.
      * reflexivity.
    + exists M'. split; [exact E'|]. eapply is_mat_fun_ext; [exact HM'|]. intros i j Hi Hj. cbv beta. destruct (Nat.ltb_spec j c); [|lia]. rewrite andb_true_r.
      replace ((i <? p) || (i =? p)) with (i <? S p); [reflexivity|]. apply Bool.eq_true_iff_eq. rewrite orb_true_iff, !Nat.ltb_lt, Nat.eqb_eq. lia.
  - etransitivity; [exact E|]. f_equal. apply is_mat_eq_mk. eapply is_mat_fun_ext; [exact HK|]. intros i j Hi Hj. cbv beta. destruct (Nat.ltb_spec i r); [reflexivity|lia].
Qed.
(** column by column into the first w columns of a matrix *)
Lemma fill_columns r c w (g f : nat -> nat -> R) : w <= c ->
  for_range w (fun M q => for_range r (fun M p => set M (Z.of_nat p) (Z.of_nat q) (f p q)) M) (mk r c g) =
  Ok (mk r c (fun i j => if j <? w then f i j else g i j)).
Proof.
  intros Hw. match goal with |- for_range w ?b ?a = _ => destruct (for_range_inv
    (fun q M => M = mk r c (fun i j => if j <? q then f i j else g i j)) b w a) as (K & E & HK) end.
  - reflexivity.
  - intros q M Hq ->. eexists. split; [|reflexivity]. match goal with |- for_range r ?b ?a = _ => destruct (for_range_inv
      (fun p M => M = mk r c (fun i j => if (j <? q) || (j =? q) && (i <? p) then f i j else g i j)) b r a) as (M' & E' & HM') end.
    + apply mk_ext. intros i j Hi Hj. rewrite andb_false_r, orb_false_r. reflexivity.
    + intros p M1 Hp ->. eexists. split; [|reflexivity]. rewrite set_mk by lia. f_equal. apply mk_ext. intros i j Hi Hj.
      destruct (Nat.eqb_spec j q) as [->|Hjq]; cbn [andb].
      * destruct (Nat.eqb_spec i p) as [->|Hip]; cbn [andb]; [destruct (Nat.ltb_spec p (S p)); [|lia]; now rewrite orb_true_r|].
        replace (i <? S p) with (i <? p); [reflexivity|]. apply Bool.eq_true_iff_eq. rewrite !Nat.ltb_lt. lia.
      * rewrite andb_false_r. reflexivity.
    + etransitivity; [exact E'|]. rewrite HM'. f_equal. apply mk_ext. intros i j Hi Hj. destruct (Nat.ltb_spec i r); [|lia]. rewrite andb_true_r.
      replace ((j <? q) || (j =? q)) with (j <? S q); [reflexivity|]. apply Bool.eq_true_iff_eq. rewrite orb_true_iff, !Nat.ltb_lt, Nat.eqb_eq. lia.
  - etransitivity; [exact E|]. now rewrite HK.
Qed.

(** * Orthonormal eigenvectors *)
Lemma sum_delta n k (f : nat -> R) : k < n -> sumn n (fun i => f i * delta i k)%R = f k.
Proof.
  intros Hk. rewrite (sumR_single _ k); [|assumption|].
  - unfold delta. rewrite Nat.eqb_refl. ring.
  - intros i Hi Hne. unfold delta. destruct (Nat.eqb_spec i k); [contradiction|ring].
Qed.
Lemma delta_sym a b : delta a b = delta b a.
Proof. unfold delta. now rewrite Nat.eqb_sym. Qed.
Lemma orthonormal_rows (V : mat R) n : orthonormal_columns V n ->
  forall i j, i < n -> j < n -> sumn n (fun k => entry V i k * entry V j k)%R = delta i j.
Proof.
  intros Ho i j Hi Hj. set (v := entry V) in *. set (A := mk n n v).
  assert (Hv : forall a b, a < n -> b < n -> sumn n (fun i => v i a * v i b)%R = delta a b). { intros a b Ha Hb. rewrite <- Rsum_sumn. now apply Ho. }
  destruct (C61_inverse (fun _ _ => Err LinAlgError) A (mk_wf _ _ _) eq_refl) as (_ & Hx). change (nr A) with n in Hx. change (nc A) with n in Hx.
  destruct Hx as (x & _ & _ & _ & _ & Hx).
  - intros (w & (k & Hk & Hw) & Hz). change (nc A) with n in *. change (nr A) with n in *. apply Hw.
    transitivity (sumn n (fun a => v a k * sumn n (fun b => v a b * w b)))%R.
    + rewrite (sumn_ext _ _ (fun a => sumn n (fun b => w b * (v a b * v a k)))%R) by (intros a Ha; rewrite <- sumR_scal; apply sumn_ext; intros; ring).
      rewrite sumR_swap, (sumn_ext _ _ (fun b => w b * delta b k)%R) by (intros b Hb; rewrite sumR_scal, Hv by assumption; reflexivity).
      symmetry. now apply sum_delta.
    + apply sumR_zero. intros a Ha. specialize (Hz a Ha). rewrite Rsum_sumn in Hz.
      rewrite (sumn_ext _ _ (fun k0 => entry A a k0 * w k0)%R), Hz by (intros b Hb; unfold A; now rewrite entry_mk). ring.
  - assert (Ex : forall a b, a < n -> b < n -> entry x a b = v b a).
    { intros a b Ha Hb. transitivity (sumn n (fun t => v t a * sumn n (fun s => v t s * entry x s b)))%R.
      - rewrite (sumn_ext _ _ (fun t => sumn n (fun s => entry x s b * (v t s * v t a)))%R) by (intros t Ht; rewrite <- sumR_scal; apply sumn_ext; intros; ring).
        rewrite sumR_swap, (sumn_ext _ _ (fun s => entry x s b * delta s a)%R) by (intros s Hs; rewrite sumR_scal, Hv by assumption; reflexivity).
        symmetry. now apply (sum_delta n a (fun s => entry x s b)).
      - rewrite (sumn_ext _ _ (fun t => v t a * delta t b)%R); [now apply (sum_delta n b (fun t => v t a))|].
        intros t Ht. f_equal. destruct (Hx t b Ht Hb) as (E & _). rewrite Rsum_sumn in E. unfold delta. rewrite <- E. apply sumn_ext. intros s Hs. unfold A. now rewrite entry_mk. }
    destruct (Hx i j Hi Hj) as (E & _). rewrite Rsum_sumn in E. unfold delta. rewrite <- E. apply sumn_ext. intros k Hk. unfold A. rewrite entry_mk by assumption. now rewrite Ex.
Qed.
Lemma eigenvalues_trace n (A V : mat R) (l : list R) : nr A = n -> eig_answer A l V -> orthonormal_columns V n ->
  sumn n (fun k => nth k l 0%R) = sumn n (fun i => entry A i i).
Proof.
  intros HA (_ & _ & _ & _ & Ha) Ho. rewrite HA in Ha. pose proof (orthonormal_rows V n Ho) as Hr. symmetry.
  transitivity (sumn n (fun i => sumn n (fun k => nth k l 0%R * (entry V i k * entry V i k))))%R.
  - apply sumn_ext. intros i Hi. transitivity (sumn n (fun j => entry A i j * sumn n (fun k => entry V j k * entry V i k)))%R.
    + rewrite (sumn_ext _ (fun j => entry A i j * _)%R (fun j => entry A i j * delta j i)%R) by (intros j Hj; now rewrite Hr).
      symmetry. now apply (sum_delta n i (fun j => entry A i j)).
    + rewrite (sumn_ext _ _ (fun j => sumn n (fun k => entry V i k * (entry A i j * entry V j k)))%R) by (intros j Hj; rewrite <- sumR_scal; apply sumn_ext; intros; ring).
      rewrite sumR_swap. apply sumn_ext. intros k Hk. rewrite sumR_scal, <- Rsum_sumn, Ha by assumption. ring.
  - rewrite sumR_swap. apply sumn_ext. intros k Hk. rewrite sumR_scal, <- (Rsum_sumn n (fun j => entry V j k * entry V j k)%R), (Ho k k Hk Hk). unfold delta. rewrite Nat.eqb_refl. ring.
Qed.
(** * The total is positive *)
Lemma INR_pred n : 1 <= n -> INR (n - 1) = (INR n - 1)%R.
Proof. intros Hn. rewrite minus_INR by lia. reflexivity. Qed.
Lemma cov_diag_pos b (X : mat R) keep j : varies X (nth j keep 0) -> (0 < cov_of (nr X) (prepared b X keep) j j)%R.
Proof.
  intros Hv. destruct (nonconstant_rows _ _ Hv) as (H2 & Hc). set (col := fun k => entry X k (nth j keep 0)).
  destruct (proj1 (sd_used_R X (nth j keep 0) H2) Hc) as (Es & Hs). rewrite Es in Hs. fold col in Hs.
  assert (Hp : (0 < Rvar (nr X) col)%R).
  { destruct (Rle_or_lt (Rvar (nr X) col) 0) as [Hle|]; [|assumption]. exfalso. apply Hs. now apply sqrt_neg_0. }
  assert (E : cov_of (nr X) (prepared true X keep) j j = Rvar (nr X) col). { unfold cov_of, Rvar. rewrite INR_pred by lia. reflexivity. }
  destruct b; [now rewrite E|].
  assert (E2 : cov_of (nr X) (prepared false X keep) j j = (cov_of (nr X) (prepared true X keep) j j / Rvar (nr X) col)%R).
  { unfold cov_of. transitivity (Rsum (nr X) (fun r => prepared true X keep r j * prepared true X keep r j) * / Rvar (nr X) col / (INR (nr X) - 1))%R.
    2:{ unfold Rdiv. ring. } f_equal. rewrite !Rsum_sumn.
    rewrite <- sumR_scal_r. apply sumn_ext. intros r Hr. unfold prepared. cbv zeta. fold col.
    rewrite <- (sqrt_sqrt (Rvar (nr X) col)) at 3 by lra. field. exact Hs. }
  rewrite E2, E. unfold Rdiv. rewrite Rinv_r by lra. lra.
Qed.
Definition Lsum (l : list R) : R := fold_right Rplus 0%R l.
Lemma Lsum_perm l l' : Permutation l l' -> Lsum l = Lsum l'.
Proof. unfold Lsum. induction 1; cbn [fold_right]; lra. Qed.
Lemma Lsum_app l l' : Lsum (l ++ l') = (Lsum l + Lsum l')%R.
Proof. unfold Lsum. induction l as [|a l IH]; cbn [fold_right app]; [lra|]. rewrite IH. lra. Qed.
Lemma Lsum_tab n (f : nat -> R) : Lsum (tab n f) = sumn n f.
Proof. induction n as [|n IH]; [reflexivity|]. rewrite tab_S, Lsum_app, IH, sumR_S. cbn. lra. Qed.
Lemma sum_permuted n so (f : nat -> R) : Permutation so (seq 0 n) -> sumn n (fun c => f (nth (n - 1 - c) so 0)) = sumn n f.
Proof.
  intros Hp. rewrite (sumR_rev n (fun c => f (nth c so 0))), <- !Lsum_tab. assert (Hl : length so = n) by (rewrite (Permutation_length Hp); apply seq_length).
  unfold tab at 2. rewrite <- (Lsum_perm _ _ (Permutation_map f Hp)). rewrite (map_tab_nth f so 0), Hl. reflexivity.
Qed.

(** * Training and transforming *)
Lemma sorted_unique (a b : list nat) : StronglySorted lt a -> StronglySorted lt b -> (forall x, In x a <-> In x b) -> a = b.
Proof.
  revert b. induction a as [|x a IH]; intros [|y b] Ha Hb Hx; [reflexivity| | |].
  - exfalso. apply (proj2 (Hx y)). now left.
  - exfalso. apply (proj1 (Hx x)). now left.
  - inversion Ha as [|? ? Sa Fa]. inversion Hb as [|? ? Sb Fb]. subst. rewrite Forall_forall in Fa, Fb.
    assert (x = y).
    { destruct (proj1 (Hx x) (or_introl eq_refl)) as [->|H1]; [reflexivity|]. destruct (proj2 (Hx y) (or_introl eq_refl)) as [->|H2]; [reflexivity|].
      specialize (Fa _ H2). specialize (Fb _ H1). lia. }
    subst y. f_equal. apply IH; auto. intros z. split; intros Hz.
    + destruct (proj1 (Hx z) (or_intror Hz)) as [->|]; [|assumption]. specialize (Fa _ Hz). lia.
    + destruct (proj2 (Hx z) (or_intror Hz)) as [->|]; [|assumption]. specialize (Fb _ Hz). lia.
Qed.
Lemma varying_unique X keep : varying_columns X keep -> keep = pca_keep X.
Proof.
  intros (S1 & H1). destruct (pca_keep_spec X) as (S2 & H2). apply sorted_unique; auto. intros x. now rewrite H1, H2.
Qed.
Lemma to_raw_col n (f : nat -> R) : to_raw_copy_1D (mk n 1 (fun i _ => f i)) = tab n f.
Proof.
  unfold to_raw_copy_1D. cbn [nr nc mk seq flat_map]. fold (mk n 1 (fun i (_ : nat) => f i)). rewrite app_nil_r. apply tab_ext. intros i Hi. rewrite entry_mk by lia. reflexivity.
Qed.
Lemma eig_values (l : list R) : apply_elementwise (transpose (Mat 1 (length l) [l])) pca_clip = mk (length l) 1 (fun i _ => Rmax 0 (nth i l 0%R)).
Proof.
  unfold apply_elementwise, map_mat. apply mk_ext. cbn [nr nc transpose mk]. intros i j Hi Hj.
  rewrite transpose_entry by (cbn; lia). assert (j = 0) by lia. subst j. unfold entry. cbn [rws nth]. change (@n0 R NumR) with 0%R. unfold pca_clip. cbn [nltb n0 NumR].
  unfold Rltb. unfold Rmax. destruct (Rlt_dec _ _), (Rle_dec _ _); lra.
Qed.
Section Transform.
Variables (eig : mat R -> res (list R * mat R)) (argsort : list R -> list nat) (s : pca_st R) (X : mat R).
Hypothesis Wx : wf X.
Hypothesis Hk : pca_keep X <> [].
Local Notation keep := (pca_keep X).
Local Notation n := (length (pca_keep X)).
Local Notation Z := (prepared (pc_center s) X (pca_keep X)).
Local Notation A := (mk n n (cov_of (nr X) Z)).
Variables (l : list R) (V : mat R).
Hypothesis He : eig A = Ok (l, V).
Hypothesis Ha : eig_answer A l V.
Local Notation lam := (fun i => Rmax 0 (nth i l 0%R)).
Lemma n_pos : n <> 0.
Proof. destruct (pca_keep X); [congruence|discriminate]. Qed.
Lemma rows_pos : nr X <> 0.
Proof.
  destruct (pca_keep_spec X) as (_ & Hs). destruct (pca_keep X) as [|j k] eqn:E; [congruence|]. destruct (proj1 (Hs j)) as (_ & i & ? & ? & _); [now left|lia].
Qed.
Lemma pca_configure_spec : exists t,
  pca_configure eig argsort s X = (Pca (pc_variance s) (pc_max_columns s) (pc_center s) (pc_loadings s) (pc_scores s)
    (Some A) (Some V) (Some (mk n 1 (fun i _ => lam i))) (argsort (tab n lam)) (sumn n lam) n (nr X) keep (Some t), Ok tt) /\
  pt_transform t (mk (nr X) n (fun i j => entry X i (nth j keep 0))) = (t, Ok (mk (nr X) n Z)).
Proof.
  destruct (prep_spec (pc_center s) X Hk) as (t & E1 & E2). exists t. split; [|exact E2].
  unfold pca_configure. rewrite pca_remove_spec by assumption. rewrite E1. cbn [nr nc mk]. fold (mk (nr X) n Z). rewrite pca_correlation_spec by exact n_pos.
  unfold make_eig. rewrite He, bind_Ok. cbn [fst snd]. rewrite eig_values. destruct Ha as (Hl & _). cbn [nr mk] in Hl. rewrite Hl, to_raw_col, pysum_tab. reflexivity.
Qed.
Local Notation so := (argsort (tab n lam)).
Variable st : pca_st R.
Variable t : ptrans R.
Variables (lo sc : option (mat R)).
Hypothesis Est : st = Pca (pc_variance s) (pc_max_columns s) (pc_center s) lo sc
    (Some A) (Some V) (Some (mk n 1 (fun i _ => lam i))) so (sumn n lam) n (nr X) keep (Some t).
Hypothesis Et : pt_transform t (mk (nr X) n (fun i j => entry X i (nth j keep 0))) = (t, Ok (mk (nr X) n Z)).
Hypothesis Hso : Permutation so (seq 0 n).
Local Notation m := (stop st n lam so (cap st n) 0).
Lemma so_len : length so = n. Proof. rewrite (Permutation_length Hso). apply seq_length. Qed.
Lemma so_in : forall k, In k so -> k < n. Proof. intros k Hi. apply (Permutation_in _ Hso) in Hi. apply in_seq in Hi. lia. Qed.
Lemma V_mk : V = mk n n (entry V).
Proof. destruct Ha as (_ & W & R1 & C1 & _). rewrite (wf_mk V W) at 1. cbn [nr mk] in R1, C1. now rewrite R1, C1. Qed.
Lemma st_V : pc_eigenvectors st = Some (mk n n (entry V)). Proof. rewrite Est. cbn [pc_eigenvectors]. now rewrite <- V_mk. Qed.
Lemma cap_le : cap st n <= n. Proof. unfold cap. destruct (_ <? _)%Z; lia. Qed.
Lemma cap_pos : cap st n <> 0. Proof. pose proof n_pos. unfold cap. destruct (Z.ltb_spec 0 (pc_max_columns st)); lia. Qed.
Lemma pca_do_transform_spec :
  pca_do_transform st X = (st, Ok (mk (nr X) m (fun r c => score n (entry V) so Z r c))).
Proof.
  pose proof n_pos as Hn. pose proof rows_pos as Hr. pose proof cap_pos as Hc. pose proof cap_le as Hcl.
  unfold pca_do_transform. replace (pc_keep st) with keep by (rewrite Est; reflexivity). rewrite pca_remove_spec by assumption.
  replace (pc_trans st) with (Some t) by (rewrite Est; reflexivity). rewrite Et. apply (f_equal2 pair); [rewrite Est; reflexivity|].
  rewrite bind_Ok. cbn [nr mk]. fold (mk (nr X) n Z).
  set (N := if (0 <? pc_max_columns st)%Z then Z.to_nat (pc_max_columns st) else pc_num_cols st).
  assert (HN : cap st n <= N). { unfold cap, N. destruct (0 <? pc_max_columns st)%Z; [lia|]. rewrite Est. cbn [pc_num_cols]. lia. }
  rewrite (pca_order_spec st n) by (rewrite Est; reflexivity).
  assert (Hrow : forall r, r < nr X -> exists vals', pca_row st (mk (nr X) n Z) r (map (fun c => n - 1 - c) (seq 0 (cap st n))) (repeat 0%R N) 0%R 0 = Ok (vals', m) /\
     length vals' = N /\ forall c, c < m -> nth c vals' 0%R = score n (entry V) so Z r c).
  { intros r Hr'. destruct (pca_row_spec st n (entry V) lam so) with (rows := nr X) (z := Z) (r := r) (k := cap st n) (c0 := 0) (vals := repeat 0%R N) as (vals' & E & L & S1 & _).
    - rewrite Est; reflexivity.
    - exact st_V.
    - rewrite Est; reflexivity.
    - rewrite Est; reflexivity.
    - exact so_len.
    - exact so_in.
    - exact Hr'.
    - lia.
    - rewrite repeat_length. lia.
    - exists vals'. split; [exact E|]. split; [now rewrite L, repeat_length|]. intros c Hcm. apply S1. lia. }
  match goal with |- context[for_range (nr X) ?b ([], 0)] => destruct (for_range_inv
    (fun p sr => length (fst sr) = p /\ snd sr = (if p =? 0 then 0 else m) /\ forall r, r < p -> length (nth r (fst sr) []) = N /\ forall c, c < m -> nth c (nth r (fst sr) []) 0%R = score n (entry V) so Z r c)
    b (nr X) ([], 0)) as ((values & act) & E & (L & Ea & Hv)) end.
  - cbn [fst snd length]. split; [reflexivity|]. split; [reflexivity|]. intros; lia.
  - intros p (vs & ac) Hp (L & Ea & Hv). cbn [fst snd] in *. destruct (Hrow p Hp) as (vals' & E & L' & S'). change (@n0 R NumR) with 0%R. rewrite E, bind_Ok. eexists. split; [reflexivity|]. cbn [fst snd].
    split; [rewrite app_length; cbn; lia|]. split; [rewrite Ea; cbn [Nat.eqb]; destruct (p =? 0); lia|]. intros r Hr'. destruct (Nat.eq_dec r p) as [->|].
    + rewrite app_nth2, L, Nat.sub_diag by lia. cbn [nth]. auto.
    + rewrite app_nth1 by lia. apply Hv. lia.
  - rewrite E, bind_Ok. cbn [fst snd] in *. assert (Ea' : act = m). { rewrite Ea. destruct (Nat.eqb_spec (nr X) 0); [contradiction|reflexivity]. }
    rewrite L, Ea'. assert (Hm : m <= N). { pose proof (stop_le st n lam so (cap st n) 0). lia. }
    etransitivity; [apply (fill_rows (nr X) m (fun p q => nth q (nth p values []) 0%R) (fun p => Nat.min (length (nth p values [])) m) Hr)|].
    + intros p Hp. destruct (Hv p Hp) as (-> & _). lia.
    + f_equal. apply mk_ext. intros i j Hi Hj. now apply Hv.
Qed.
Definition loading_of (keep : list nat) (V : nat -> nat -> R) (o : nat -> nat) (w r c : nat) : R :=
  if c <? w then (if existsb (Nat.eqb r) keep then V (index_of r keep) (o c) else 0%R) else (INR r + 1)%R.
Lemma index_lt (l0 : list nat) x : In x l0 -> index_of x l0 < length l0.
Proof. induction l0 as [|y l0 IH]; intros Hx; [destruct Hx|]. cbn [index_of length]. destruct (Nat.eqb_spec y x); [lia|]. destruct Hx as [->|Hx]; [congruence|]. specialize (IH Hx). lia. Qed.
Lemma pca_loadings_spec : pca_extract_loadings st = Ok (mk n (m + 1) (loading_of keep (entry V) (shown n so) m)).
Proof.
  pose proof n_pos as Hn. pose proof cap_le as Hcl. unfold pca_extract_loadings, pca_get_coefficients.
  replace (pc_eigenvalues st) with (Some (mk n 1 (fun i _ => lam i))) by (rewrite Est; reflexivity). rewrite st_V. cbn [need]. rewrite bind_Ok.
  rewrite (pca_order_spec st n) by (rewrite Est; reflexivity).
  rewrite (pca_coefficients_spec st n (entry V) lam so ltac:(rewrite Est; reflexivity) ltac:(rewrite Est; reflexivity) so_len so_in (cap st n) 0) by lia.
  rewrite Nat.sub_0_r. cbn [map_res]. rewrite bind_Ok. rewrite map_length, seq_length. replace (pc_num_cols st) with n by (rewrite Est; reflexivity). replace (pc_keep st) with keep by (rewrite Est; reflexivity).
  match goal with |- context[for_range n ?b (zeros ?x ?y)] => destruct (for_range_inv
    (fun p M => M = mk n (m + 1) (fun i j => if (j =? m) && (i <? p) then INR i + 1 else 0)%R) b n (zeros x y)) as (K & E & HK) end.
  - apply is_mat_eq_mk. eapply is_mat_fun_ext; [apply (zeros_is_mat n (m + 1) Hn)|]. intros i j Hi Hj. cbv beta. now rewrite andb_false_r.
  - intros p M Hp ->. eexists. split; [|reflexivity]. cbn [nc mk]. fold (mk n (m + 1) (fun i j => if (j =? m) && (i <? p) then INR i + 1 else 0)%R).
    replace (Z.of_nat (m + 1) - 1)%Z with (Z.of_nat m) by lia. rewrite set_mk by lia. f_equal. apply mk_ext. intros i j Hi Hj. cbn [nofZ NumR].
    destruct (Nat.eqb_spec j m) as [->|]; cbn [andb]; [|now rewrite andb_false_r]. rewrite andb_true_r. destruct (Nat.eqb_spec i p) as [->|].
    + destruct (Nat.ltb_spec p (S p)); [|lia]. now rewrite plus_IZR, <- INR_IZR_INZ.
    + replace (i <? S p) with (i <? p); [reflexivity|]. apply Bool.eq_true_iff_eq. rewrite !Nat.ltb_lt. lia.
  - rewrite E, bind_Ok. rewrite HK. etransitivity; [apply (fill_columns n (m + 1) m); lia|]. f_equal. apply mk_ext. intros i j Hi Hj. unfold loading_of.
    destruct (Nat.ltb_spec j m) as [Hj'|Hj'].
    + rewrite (nth_map' _ _ _ _ 0) by (now rewrite seq_length). rewrite seq_nth by assumption. cbn [plus]. rewrite tab_length.
      destruct (existsb (Nat.eqb i) keep) eqn:Ei; [|reflexivity]. apply existsb_exists in Ei as (i' & Hi' & Eq). apply Nat.eqb_eq in Eq. subst i'.
      pose proof (index_lt _ _ Hi') as Hx. apply Nat.ltb_lt in Hx as Hx'. rewrite Hx'. now rewrite nth_tab by assumption.
    + assert (j = m) by lia. subst j. rewrite Nat.eqb_refl. cbn [andb]. destruct (Nat.ltb_spec i n); [reflexivity|lia].
Qed.
End Transform.

(** * C56 *)
(** np.argsort: a permutation of the positions that lists the values in ascending order (ties in any order) *)
Definition sorts (argsort : list R -> list nat) : Prop := forall l : list R,
  Permutation (argsort l) (seq 0 (length l)) /\
  forall a b, a <= b < length l -> (nth (nth a (argsort l) 0%nat) l 0 <= nth (nth b (argsort l) 0%nat) l 0)%R.
(** The number of components that may be shown *)
Definition limit (max_columns : Z) (n : nat) : nat := if (0 <? max_columns)%Z then Nat.min n (Z.to_nat max_columns) else n.
(** [o] puts the n components in an order of decreasing eigenvalue *)
Definition by_decreasing (n : nat) (l : list R) (o : nat -> nat) : Prop :=
  (forall c, c < n -> o c < n) /\ (forall c d, c < n -> d < n -> o c = o d -> c = d) /\
  (forall c d, c <= d < n -> (nth (o d) l 0 <= nth (o c) l 0)%R).
(** Share of the total variance explained by the first k components *)
Definition share (n : nat) (l : list R) (o : nat -> nat) (k : nat) : R :=
  (Rsum k (fun c => nth (o c) l 0) / Rsum n (fun i => nth i l 0))%R.

Section Algebra.
Variables (n rows : nat) (z : nat -> nat -> R) (l : list R) (V : mat R).
Hypothesis Hrows : 2 <= rows.
Local Notation A := (mk n n (cov_of rows z)).
Hypothesis Ha : eig_answer A l V.
Hypothesis Ho : orthonormal_columns V n.
Local Notation sc := (fun k r => sumn n (fun j => entry V j k * z r j)%R).
Lemma rows1 : (0 < INR rows - 1)%R.
Proof. apply le_INR in Hrows. cbn in Hrows. lra. Qed.
(** V^T A V = diag l, and V^T A V is the covariance of the scores *)
Lemma score_products a b : a < n -> b < n -> sumn rows (fun r => sc a r * sc b r)%R = ((INR rows - 1) * (nth a l 0%R * delta a b))%R.
Proof.
  intros Ha' Hb'. pose proof rows1 as H1. destruct Ha as (_ & _ & _ & _ & He). cbn [nr mk] in He.
  transitivity ((INR rows - 1) * sumn n (fun i => entry V i b * sumn n (fun j => entry A i j * entry V j a)))%R.
  - rewrite <- sumR_scal. rewrite (sumn_ext rows _ (fun r => sumn n (fun i => entry V i b * z r i * sumn n (fun j => entry V j a * z r j)))%R).
    2:{ intros r Hr. rewrite Rmult_comm, <- sumR_scal_r. reflexivity. }
    rewrite sumR_swap. apply sumn_ext. intros i Hi. rewrite <- Rmult_assoc, (Rmult_comm _ (entry V i b)), Rmult_assoc, <- sumR_scal.
    rewrite (sumn_ext rows _ (fun r => entry V i b * sumn n (fun j => z r i * (entry V j a * z r j)))%R) by (intros r Hr; rewrite sumR_scal; ring).
    rewrite sumR_scal. f_equal. rewrite sumR_swap. apply sumn_ext. intros j Hj. rewrite entry_mk by assumption. unfold cov_of. rewrite Rsum_sumn.
    rewrite (sumn_ext rows _ (fun r => entry V j a * (z r i * z r j))%R) by (intros; ring). rewrite sumR_scal. field. lra.
  - f_equal. rewrite (sumn_ext n _ (fun i => nth a l 0%R * (entry V i a * entry V i b))%R).
    + rewrite sumR_scal. f_equal. rewrite <- Rsum_sumn. now apply Ho.
    + intros i Hi. rewrite <- Rsum_sumn, He by assumption. ring.
Qed.
Lemma eigenvalue_nonneg a : a < n -> (0 <= nth a l 0)%R.
Proof.
  intros Ha'. pose proof rows1 as H1. pose proof (score_products a a Ha' Ha') as E. unfold delta in E. rewrite Nat.eqb_refl, Rmult_1_r in E.
  assert (0 <= sumn rows (fun r => sc a r * sc a r))%R by (apply sumR_nonneg; intros; nra). nra.
Qed.
End Algebra.

Lemma index_nth (l0 : list nat) p : StronglySorted lt l0 -> p < length l0 -> index_of (nth p l0 0) l0 = p.
Proof.
  intros Hs. revert p. induction Hs as [|x q Hs IH Hx]; intros p Hp; [cbn in Hp; lia|]. destruct p as [|p]; cbn [nth index_of length] in *; [now rewrite Nat.eqb_refl|].
  rewrite Forall_forall in Hx. assert (Hi : In (nth p q 0) q) by (apply nth_In; lia). specialize (Hx _ Hi). destruct (Nat.eqb_spec x (nth p q 0)); [lia|]. f_equal. apply IH. lia.
Qed.
Lemma argsort_ext_order (argsort : list R -> list nat) l n : sorts argsort -> length l = n ->
  let so := argsort l in let o := fun c => nth (n - 1 - c) so 0 in Permutation so (seq 0 n) /\ by_decreasing n l o.
Proof.
  intros Hs Hl so o. destruct (Hs l) as (Hp & Hasc). fold so in Hp, Hasc. rewrite Hl in Hp, Hasc. split; [exact Hp|].
  assert (Hlen : length so = n) by (rewrite (Permutation_length Hp); apply seq_length). split; [|split].
  - intros c Hc. assert (Hi : In (o c) so) by (apply nth_In; lia). apply (Permutation_in _ Hp) in Hi. apply in_seq in Hi. lia.
  - intros c d Hc Hd E. assert (Hnd : NoDup so) by (apply (Permutation_NoDup (Permutation_sym Hp)), seq_NoDup).
    apply (proj1 (NoDup_nth so 0) Hnd) in E; lia.
  - intros c d Hcd. apply Hasc. lia.
Qed.

(** For every state of the object (the result never depends on its earlier history), all data with at
    least one varying column and every eigen-decomposition of the covariance matrix with orthonormal
    eigenvectors. *)
Theorem C56_selection (eig : mat R -> res (list R * mat R)) (argsort : list R -> list nat) (s : pca_st R) (X : mat R) (keep : list nat) (l : list R) (V : mat R) :
  wf X -> varying_columns X keep -> keep <> [] -> sorts argsort ->
  let n := length keep in
  let z := prepared (pc_center s) X keep in
  let A := mk n n (cov_of (nr X) z) in
  eig A = Ok (l, V) -> eig_answer A l V -> orthonormal_columns V n ->
  exists s' S L m o,
    pca_transform eig argsort s X = (s', Ok S) /\ pc_scores s' = Some S /\ pc_loadings s' = Some L /\
    by_decreasing n l o /\ (forall k, k < n -> (0 <= nth k l 0)%R) /\ (0 < Rsum n (fun i => nth i l 0))%R /\
    (* the number of components: the first at which the share reaches the threshold, at most the limit *)
    1 <= m <= limit (pc_max_columns s) n /\
    (forall k, 1 <= k < m -> (share n l o k < pc_variance s)%R) /\
    (m = limit (pc_max_columns s) n \/ (pc_variance s <= share n l o m)%R) /\
    ((pc_max_columns s <= 0)%Z -> (pc_variance s <= 1)%R -> (pc_variance s <= share n l o m)%R) /\
    (* one column of scores for each *)
    is_mat S (nr X) m (fun r c => Rsum n (fun j => entry V j (o c) * z r j)%R) /\
    (* the loadings: n rows whatever the number of original columns, the last column numbers them *)
    wf L /\ nr L = n /\ nc L = m + 1 /\
    (forall r, r < n -> entry L r m = (INR r + 1)%R) /\
    (forall p c, p < n -> c < m -> nth p keep 0 < n -> entry L (nth p keep 0) c = entry V p (o c)) /\
    (forall r c, r < n -> c < m -> ~ In r keep -> entry L r c = 0%R).
Proof.
  intros Wx Hv Hk Hsort n z A He Ha Ho. pose proof (varying_unique X keep Hv) as Ek. subst keep.
  assert (Hn : n <> 0) by (unfold n; destruct (pca_keep X); [congruence|discriminate]).
  assert (Hvar : forall j, j < n -> varies X (nth j (pca_keep X) 0)). { intros j Hj. apply (proj2 Hv). now apply nth_In. }
  assert (H2 : 2 <= nr X) by (apply (nonconstant_rows X (nth 0 (pca_keep X) 0)), Hvar; lia).
  assert (Hll : length l = n) by exact (proj1 Ha).
  pose proof (eigenvalue_nonneg n (nr X) z l V H2 Ha Ho) as Hnn.
  assert (El : forall i, i < n -> Rmax 0 (nth i l 0%R) = nth i l 0%R). { intros i Hi. apply Rmax_right. auto. }
  assert (Htot : (0 < Rsum n (fun i => nth i l 0))%R).
  { rewrite Rsum_sumn, (eigenvalues_trace n A V l eq_refl Ha Ho).
    apply Rlt_le_trans with (entry A 0 0); [unfold A; rewrite entry_mk by lia; apply cov_diag_pos, Hvar; lia|].
    replace n with (1 + (n - 1)) at 1 by lia. rewrite sumR_split, sumR_S, sumR_0.
    assert (0 <= sumn (n - 1) (fun i => entry A (1 + i) (1 + i)))%R; [|cbn [plus] in *; lra].
    apply sumR_nonneg. intros i Hi. unfold A. rewrite entry_mk by lia. left. apply cov_diag_pos, Hvar. lia. }
  assert (Etab : tab n (fun i => Rmax 0 (nth i l 0%R)) = l). { rewrite (tab_ext _ _ (fun i => nth i l 0%R)) by (intros; now apply El). now apply tab_nth. }
  set (lam := fun i => Rmax 0 (nth i l 0%R)) in *.
  destruct (argsort_ext_order argsort l n Hsort Hll) as (Hp & Hdec). cbv zeta in Hdec. set (o := fun c => nth (n - 1 - c) (argsort l) 0) in *.
  destruct (pca_configure_spec eig argsort (pca_reset s) X Wx Hk l V He Ha) as (t & E1 & Et). cbn [pca_reset pc_variance pc_max_columns pc_center pc_loadings pc_scores] in E1, Et. fold n in E1. fold lam in E1.
  assert (Hp' : Permutation (argsort (tab n lam)) (seq 0 n)) by (now rewrite Etab).
  match type of E1 with _ = (?st, _) => set (st0 := st) in * end.
  pose proof (pca_do_transform_spec eig argsort s X Wx Hk l V He Ha st0 t None None eq_refl Et Hp') as E2.
  pose proof (pca_loadings_spec eig argsort s X Hk l V He Ha st0 t None None eq_refl Hp') as E3. fold n in E2, E3. fold lam in E2, E3.
  rewrite Etab in E2, E3. set (m := stop st0 n lam (argsort l) (cap st0 n) 0) in *.
  assert (Hcap : cap st0 n = limit (pc_max_columns s) n) by reflexivity.
  assert (Hlim : 1 <= limit (pc_max_columns s) n <= n). { unfold limit. destruct (Z.ltb_spec 0 (pc_max_columns s)); lia. }
  assert (Hcum : forall k, k <= n -> (cum n lam (argsort l) k / sumn n lam)%R = share n l o k).
  { intros k Hkn. unfold share, cum. rewrite !Rsum_sumn. rewrite (sumn_ext n lam (fun i => nth i l 0%R)) by (intros; now apply El).
    rewrite (sumn_ext k _ (fun c => nth (o c) l 0%R)); [reflexivity|]. intros c Hc. apply El. apply (proj1 Hdec). lia. }
  assert (Henough : forall k, k <= n -> pca_enough st0 (cum n lam (argsort l) k) = Rleb (pc_variance s) (share n l o k)).
  { intros k Hkn. unfold pca_enough. cbn [nleb ndiv NumR]. replace (pc_sum st0) with (sumn n lam) by reflexivity. now rewrite Hcum. }
  pose proof (stop_le st0 n lam (argsort l) (cap st0 n) 0) as Hm1. pose proof (stop_gt st0 n lam (argsort l) (cap st0 n) 0 ltac:(rewrite Hcap; lia)) as Hm2. fold m in Hm1, Hm2.
  assert (Hend : m = limit (pc_max_columns s) n \/ (pc_variance s <= share n l o m)%R).
  { destruct (stop_end st0 n lam (argsort l) (cap st0 n) 0) as [E|E]; fold m in E.
    - left. rewrite E. exact Hcap.
    - right. rewrite Henough in E by lia. now apply Rleb_true in E. }
  unfold pca_transform. rewrite E1. cbv iota beta. rewrite E2. cbv iota beta. rewrite E3.
  eexists. eexists. eexists. exists m, o. split; [reflexivity|]. split; [reflexivity|]. split; [reflexivity|]. split; [exact Hdec|]. split; [exact Hnn|]. split; [exact Htot|].
  split; [lia|]. split.
  { intros k Hkm. pose proof (stop_before st0 n lam (argsort l) (cap st0 n) 0 k ltac:(fold m; lia)) as E. rewrite Henough in E by lia. now apply Rleb_false in E. }
  split; [exact Hend|]. split.
  { intros Hmax Hle. destruct Hend as [E|E]; [|exact E]. assert (Em : m = n). { rewrite E. unfold limit. destruct (Z.ltb_spec 0 (pc_max_columns s)); [lia|reflexivity]. }
    rewrite Em. unfold share. rewrite !Rsum_sumn. rewrite <- (sum_permuted n (argsort l) (fun i => nth i l 0%R) Hp). fold o.
    rewrite Rsum_sumn, <- (sum_permuted n (argsort l) (fun i => nth i l 0%R) Hp) in Htot. unfold Rdiv. rewrite Rinv_r by (apply Rgt_not_eq; exact Htot). exact Hle. }
  split.
  - apply is_mat_mk_ext. intros r c Hr Hc. unfold score. rewrite Rsum_sumn. reflexivity.
  - split; [apply mk_wf|]. split; [reflexivity|]. split; [reflexivity|]. split; [|split].
    + intros r Hr. rewrite entry_mk by (lia || assumption). unfold loading_of. now rewrite Nat.ltb_irrefl.
    + intros p c Hpn Hc Hq. rewrite entry_mk by (lia || assumption). unfold loading_of. apply Nat.ltb_lt in Hc as ->.
      rewrite index_nth by (try exact (proj1 Hv); exact Hpn). assert (Hex : existsb (Nat.eqb (nth p (pca_keep X) 0)) (pca_keep X) = true); [|now rewrite Hex].
      apply existsb_exists. exists (nth p (pca_keep X) 0). split; [now apply nth_In|apply Nat.eqb_refl].
    + intros r c Hr Hc Hi. rewrite entry_mk by (lia || assumption). unfold loading_of. apply Nat.ltb_lt in Hc as ->.
      destruct (existsb (Nat.eqb r) (pca_keep X)) eqn:Ei; [|reflexivity]. apply existsb_exists in Ei as (i & Hii & Ei). apply Nat.eqb_eq in Ei. now subst i.
Qed.
Print Assumptions C56_selection.

(** The scores have mean zero and are uncorrelated; their sums of squares are (rows - 1) times the eigenvalues. *)
Theorem C56_scores (eig : mat R -> res (list R * mat R)) (argsort : list R -> list nat) (s : pca_st R) (X : mat R) (keep : list nat) (l : list R) (V : mat R) :
  wf X -> varying_columns X keep -> keep <> [] -> sorts argsort ->
  let n := length keep in
  let z := prepared (pc_center s) X keep in
  let A := mk n n (cov_of (nr X) z) in
  eig A = Ok (l, V) -> eig_answer A l V -> orthonormal_columns V n ->
  exists s' S o, pca_transform eig argsort s X = (s', Ok S) /\ nr S = nr X /\ 1 <= nc S <= n /\ by_decreasing n l o /\
    (forall c, c < nc S -> Rsum (nr X) (fun r => entry S r c) = 0%R) /\
    (forall c d, c < nc S -> d < nc S -> c <> d -> Rsum (nr X) (fun r => entry S r c * entry S r d)%R = 0%R) /\
    (forall c, c < nc S -> Rsum (nr X) (fun r => entry S r c * entry S r c)%R = ((INR (nr X) - 1) * nth (o c) l 0)%R).
Proof.
  intros Wx Hv Hk Hsort n z A He Ha Ho.
  destruct (C56_selection eig argsort s X keep l V Wx Hv Hk Hsort He Ha Ho) as (s' & S & L & m & o & E & _ & _ & Hdec & _ & _ & Hm & _ & _ & _ & (WS & R1 & C1 & N1) & _).
  fold n in Hm, Hdec, N1. fold z in N1.
  assert (Hmn : m <= n). { unfold limit in Hm. destruct (0 <? pc_max_columns s)%Z; lia. }
  assert (Hn0 : n <> 0) by lia.
  assert (H2 : 2 <= nr X). { apply (nonconstant_rows X (nth 0 keep 0)). apply (proj2 Hv). apply nth_In. fold n. lia. }
  exists s', S, o. split; [exact E|]. split; [exact R1|]. split; [lia|]. split; [exact Hdec|]. rewrite C1. split; [|split].
  - intros c Hc. rewrite (Rsum_ext _ _ (fun r => sumn n (fun j => entry V j (o c) * z r j))%R) by (intros r Hr; rewrite N1 by assumption; apply Rsum_sumn).
    rewrite Rsum_sumn, sumR_swap. apply sumR_zero. intros j Hj. rewrite sumR_scal.
    assert (Ez : sumn (nr X) (fun r => z r j) = 0%R); [|rewrite Ez; ring].
    assert (Hc0 : sumn (nr X) (fun r => entry X r (nth j keep 0%nat) - Rmean (nr X) (fun k => entry X k (nth j keep 0%nat)))%R = 0%R).
    { rewrite sumR_minus, sumR_const. unfold Rmean. rewrite Rsum_sumn. field. apply not_0_INR. lia. }
    unfold z, prepared. cbv zeta. destruct (pc_center s); [exact Hc0|]. unfold Rdiv. rewrite sumR_scal_r, Hc0. ring.
  - intros c d Hc Hd Hcd. rewrite (Rsum_ext _ _ (fun r => sumn n (fun j => entry V j (o c) * z r j) * sumn n (fun j => entry V j (o d) * z r j))%R) by (intros r Hr; rewrite !N1 by assumption; now rewrite !Rsum_sumn).
    rewrite Rsum_sumn, (score_products n (nr X) z l V H2 Ha Ho) by (apply (proj1 Hdec); lia). unfold delta. destruct (Nat.eqb_spec (o c) (o d)) as [Eo|]; [|ring].
    exfalso. apply Hcd. apply (proj1 (proj2 Hdec)); [lia|lia|exact Eo].
  - intros c Hc. rewrite (Rsum_ext _ _ (fun r => sumn n (fun j => entry V j (o c) * z r j) * sumn n (fun j => entry V j (o c) * z r j))%R) by (intros r Hr; rewrite !N1 by assumption; now rewrite !Rsum_sumn).
    rewrite Rsum_sumn, (score_products n (nr X) z l V H2 Ha Ho) by (apply (proj1 Hdec); lia). unfold delta. rewrite Nat.eqb_refl. ring.
Qed.
Print Assumptions C56_scores.

(** * A worked example, and the loadings that get lost *)
Definition argsort_R (l : list R) : list nat := sigma l true (length l).
Lemma argsort_R_sorts : sorts argsort_R.
Proof.
  intros l. split; [apply Permutation_sym, sigma_perm|]. intros a b Hab. unfold argsort_R.
  pose proof (sigma_sorted l true (length l)) as Hs. assert (Hl : length (sigma l true (length l)) = length l) by (rewrite <- (Permutation_length (sigma_perm l true (length l))); apply seq_length).
  destruct (Nat.eq_dec a b) as [->|]; [lra|].
  assert (G : forall (q : list R), StronglySorted (ordered true) q -> forall a b, a < b < length q -> (nth a q 0 <= nth b q 0)%R).
  { induction 1 as [|x q Sq IH Fq]; intros a' b' H'; [cbn in H'; lia|]. destruct b' as [|b']; [lia|]. cbn [nth length] in *. destruct a' as [|a']; [|apply IH; lia].
    rewrite Forall_forall in Fq. apply Fq. apply nth_In. lia. }
  specialize (G _ Hs a b ltac:(rewrite map_length; lia)). rewrite !(nth_map' _ _ _ _ 0) in G by lia. exact G.
Qed.
Definition X56 : mat R := Mat 4 3 [[5; 1; 0]; [5; -1; 0]; [5; 0; 2]; [5; 0; -2]]%R.
Definition l56 : list R := [2/3; 8/3]%R.
Definition V56 : mat R := Mat 2 2 [[1; 0]; [0; 1]]%R.
Definition s56 : pca_st R := pca_store (PcCenter true) pca_new.
Lemma wf56 : wf X56. Proof. split; repeat constructor. Qed.
Lemma keep56 : varying_columns X56 [1; 2].
Proof.
  split; [repeat constructor|]. intros j. split.
  - intros [<-|[<-|[]]]; (split; [cbn; lia|]).
    + exists 0, 1. cbn. repeat split; try lia. unfold entry. cbn. lra.
    + exists 2, 3. cbn. repeat split; try lia. unfold entry. cbn. lra.
  - intros (Hj & i & k & Hi & Hk & Hne). cbn in Hj, Hi, Hk. destruct j as [|[|[|j]]]; [|now left|right; now left|lia]. exfalso. apply Hne.
    destruct i as [|[|[|[|i]]]]; try lia; destruct k as [|[|[|[|k]]]]; try lia; reflexivity.
Qed.
Lemma cov56 i j : i < 2 -> j < 2 -> cov_of 4 (prepared true X56 [1; 2]) i j = if i =? j then nth i l56 0%R else 0%R.
Proof.
  intros Hi Hj. unfold cov_of, prepared. cbv zeta. change (nr X56) with 4. unfold Rmean. cbn [Rsum].
  destruct i as [|[|i]]; try lia; destruct j as [|[|j]]; try lia; unfold entry, X56, l56; cbn [nth rws Nat.eqb]; replace (INR 4) with 4%R by (cbn; lra); field.
Qed.
Lemma eig56 : let A := mk 2 2 (cov_of (nr X56) (prepared (pc_center s56) X56 [1; 2])) in eig_answer A l56 V56 /\ orthonormal_columns V56 2.
Proof.
  intros A. split.
  - split; [reflexivity|]. split; [split; repeat constructor|]. split; [reflexivity|]. split; [reflexivity|]. intros k i Hk Hi. change (nr A) with 2 in *. cbn [Rsum]. unfold A. rewrite !entry_mk by lia.
    change (nr X56) with 4. change (pc_center s56) with true. rewrite !cov56 by lia. destruct k as [|[|k]]; try lia; destruct i as [|[|i]]; try lia; unfold entry, V56, l56; cbn; lra.
  - intros a b Ha Hb. cbn [Rsum]. destruct a as [|[|a]]; try lia; destruct b as [|[|b]]; try lia; unfold entry, V56, delta; cbn; lra.
Qed.
(** All hypotheses of the two theorems are met; two components are shown, the first with the third column of the data as its scores *)
Example C56_ex : exists s' S, pca_transform (fun _ => Ok (l56, V56)) argsort_R s56 X56 = (s', Ok S) /\ nr S = 4 /\ nc S = 2 /\ entry S 2 0 = 2%R /\ entry S 0 1 = 1%R.
Proof.
  destruct eig56 as (Ha & Ho).
  destruct (C56_selection (fun _ => Ok (l56, V56)) argsort_R s56 X56 [1; 2] l56 V56 wf56 keep56 ltac:(discriminate) argsort_R_sorts eq_refl Ha Ho)
    as (s' & S & L & m & o & E & _ & _ & (D1 & D2 & D3) & _ & _ & Hm & _ & Hend & _ & (WS & R1 & C1 & N1) & _).
  change (length [1; 2]) with 2 in *. assert (Ho0 : o 0 = 1).
  { pose proof (D1 0 ltac:(lia)). pose proof (D1 1 ltac:(lia)). specialize (D2 0 1 ltac:(lia) ltac:(lia)). specialize (D3 0 1 ltac:(lia)).
    destruct (o 0) as [|[|]]; [|reflexivity|lia]. destruct (o 1) as [|[|]]; [specialize (D2 eq_refl); lia| |lia]. unfold l56 in D3. cbn [nth] in D3. lra. }
  assert (Ho1 : o 1 = 0). { pose proof (D1 1 ltac:(lia)). specialize (D2 0 1 ltac:(lia) ltac:(lia)). destruct (o 1) as [|[|]]; [reflexivity| |lia]. exfalso. rewrite Ho0 in D2. specialize (D2 eq_refl). lia. }
  change (limit (pc_max_columns s56) 2) with 2 in *. assert (Em : m = 2).
  { destruct Hend as [->|Hle]; [reflexivity|]. destruct (Nat.eq_dec m 1) as [->|]; [|lia]. exfalso. unfold share in Hle. cbn [Rsum] in Hle. rewrite Ho0 in Hle. unfold l56, s56, pca_new, pca_store, lit in Hle. cbn in Hle. lra. }
  rewrite Em in *. exists s', S. split; [exact E|]. split; [exact R1|]. split; [exact C1|]. change (pc_center s56) with true in N1. change (nr X56) with 4 in *.
  rewrite !N1 by lia. rewrite Ho0, Ho1. cbn [Rsum]. unfold prepared. cbv zeta. unfold Rmean. change (nr X56) with 4. cbn [Rsum]. unfold entry, V56, X56. cbn [nth rws]. replace (INR 4) with 4%R by (cbn; lra). split; field.
Qed.
(** The loadings do not refer to the original columns: with a constant first column the matrix has a row too
    few and the first component's loadings are all zero although its scores are not. *)
Theorem C56_loadings_refuted : exists s' S L, wf X56 /\ pca_transform (fun _ => Ok (l56, V56)) argsort_R s56 X56 = (s', Ok S) /\ pc_loadings s' = Some L /\
  nr L = 2 /\ nc X56 = 3 /\ entry L 0 0 = 0%R /\ entry L 1 0 = 0%R /\ entry S 2 0 <> 0%R.
Proof.
  destruct eig56 as (Ha & Ho). destruct C56_ex as (s2 & S2 & Es & _ & C2 & Hs & _).
  destruct (C56_selection (fun _ => Ok (l56, V56)) argsort_R s56 X56 [1; 2] l56 V56 wf56 keep56 ltac:(discriminate) argsort_R_sorts eq_refl Ha Ho)
    as (s' & S & L & m & o & E & _ & EL & (D1 & D2 & D3) & _ & _ & Hm & _ & _ & _ & (WS & R1 & C1 & N1) & (WL & RL & CL & _ & L1 & L2)).
  change (length [1; 2]) with 2 in *. rewrite Es in E. injection E as <- <-. exists s2, S2, L. split; [exact wf56|]. split; [exact Es|]. split; [exact EL|]. split; [exact RL|]. split; [reflexivity|].
  split; [apply L2; try lia; cbn; lia|]. split; [|rewrite Hs; lra].
  assert (Ho0 : o 0 = 1).
  { pose proof (D1 0 ltac:(lia)). pose proof (D1 1 ltac:(lia)). specialize (D2 0 1 ltac:(lia) ltac:(lia)). specialize (D3 0 1 ltac:(lia)).
    destruct (o 0) as [|[|]]; [|reflexivity|lia]. destruct (o 1) as [|[|]]; [specialize (D2 eq_refl); lia| |lia]. unfold l56 in D3. cbn [nth] in D3. lra. }
  pose proof (L1 0 0 ltac:(lia) ltac:(lia) ltac:(cbn; lia)) as E1. cbn [nth] in E1. rewrite E1, Ho0. reflexivity.
Qed.
Print Assumptions C56_loadings_refuted.

(** * C48 for PCA *)
Section Retrain.
Context {T : Type} `{Num T}.
Variable eig : mat T -> res (list T * mat T).
Variable argsort : list T -> list nat.
Definition same_settings (a b : pca_st T) : Prop :=
  pc_variance a = pc_variance b /\ pc_max_columns a = pc_max_columns b /\ pc_center a = pc_center b.
Lemma pca_configure_settings (s : pca_st T) x : same_settings (fst (pca_configure eig argsort s x)) s.
Proof.
  unfold pca_configure. destruct (pca_remove _ x) as [tr|e]; [|repeat split]. destruct (pt_transform _ tr) as [t [d|e]]; [|repeat split].
  destruct (pca_correlation _ d) as [C|e]; [|repeat split]. destruct (make_eig eig C) as [[va ve]|e]; repeat split.
Qed.
Lemma pca_do_transform_settings (s : pca_st T) x : same_settings (fst (pca_do_transform s x)) s.
Proof.
  unfold pca_do_transform. destruct (pca_remove _ x) as [tr|e]; [|repeat split]. destruct (pc_trans s) as [t|]; [|repeat split]. destruct (pt_transform t tr) as [t' r]. repeat split.
Qed.
Lemma same_trans a b c : same_settings a b -> same_settings b c -> same_settings a c.
Proof. unfold same_settings. intuition congruence. Qed.
Lemma pca_transform_settings (s : pca_st T) x : same_settings (fst (pca_transform eig argsort s x)) s.
Proof.
  unfold pca_transform. pose proof (pca_configure_settings (pca_reset s) x) as H1. destruct (pca_configure eig argsort (pca_reset s) x) as [s1 [u|e]]; cbn [fst] in H1.
  - pose proof (pca_do_transform_settings s1 x) as H2. destruct (pca_do_transform s1 x) as [s2 [r|e]]; cbn [fst] in H2.
    + assert (H3 : same_settings s2 s). { eapply same_trans; [exact H2|]. exact H1. } destruct (pca_extract_loadings s2); exact H3.
    + eapply same_trans; [exact H2|]. exact H1.
  - exact H1.
Qed.
(** configure overwrites everything but the settings, the loadings and the scores *)
Lemma pca_configure_same (a b : pca_st T) x : same_settings a b ->
  snd (pca_configure eig argsort (pca_reset a) x) = snd (pca_configure eig argsort (pca_reset b) x) /\
  (snd (pca_configure eig argsort (pca_reset a) x) = Ok tt -> pca_configure eig argsort (pca_reset a) x = pca_configure eig argsort (pca_reset b) x).
Proof.
  intros (E1 & E2 & E3). unfold pca_configure, pca_reset. cbn [pc_variance pc_max_columns pc_center pc_loadings pc_scores pc_correlation pc_eigenvectors pc_eigenvalues pc_sorted pc_sum pc_num_cols pc_num_rows pc_keep pc_trans].
  rewrite E1, E2, E3. destruct (pca_remove _ x) as [tr|e]; [|split; [reflexivity|discriminate]]. destruct (pt_transform _ tr) as [t [d|e]]; [|split; [reflexivity|discriminate]].
  destruct (pca_correlation _ d) as [C|e]; [|split; [reflexivity|discriminate]]. destruct (make_eig eig C) as [[va ve]|e]; [split; reflexivity|split; [reflexivity|discriminate]].
Qed.
Lemma pca_transform_same (a b : pca_st T) x : same_settings a b ->
  snd (pca_transform eig argsort a x) = snd (pca_transform eig argsort b x) /\
  (forall r, snd (pca_transform eig argsort a x) = Ok r -> fst (pca_transform eig argsort a x) = fst (pca_transform eig argsort b x)).
Proof.
  intros Hs. destruct (pca_configure_same a b x Hs) as (E1 & E2). unfold pca_transform.
  destruct (pca_configure eig argsort (pca_reset a) x) as [s1 [u|e]]; cbn [snd] in E1, E2.
  - destruct u. rewrite <- (E2 eq_refl). split; reflexivity.
  - destruct (pca_configure eig argsort (pca_reset b) x) as [s2 [u|e2]]; cbn [snd] in E1; [discriminate|]. injection E1 as <-. split; [reflexivity|discriminate].
Qed.
Definition only_settings (h : list (pca_op T)) : list (pca_op T) := filter (fun o => match o with PcSet _ => true | _ => false end) h.
Lemma pca_step_set (a b : pca_st T) k : same_settings a b -> same_settings (pca_step eig argsort a (PcSet k)) (pca_step eig argsort b (PcSet k)).
Proof.
  intros (E1 & E2 & E3). cbn [pca_step]. unfold pca_set. destruct (pca_valid k); [|repeat split; assumption]. cbn [fst]. destruct k; repeat split; cbn; congruence.
Qed.
Lemma pca_run_settings h : forall a b : pca_st T, same_settings a b ->
  same_settings (fold_left (pca_step eig argsort) h a) (fold_left (pca_step eig argsort) (only_settings h) b).
Proof.
  induction h as [|o h IH]; intros a b Hs; [exact Hs|]. cbn [fold_left only_settings filter]. destruct o as [x|k| |x|x]; cbn [fold_left]; apply IH.
  - eapply same_trans; [apply pca_transform_settings|exact Hs].
  - now apply pca_step_set.
  - exact Hs.
  - eapply same_trans; [apply pca_configure_settings|exact Hs].
  - eapply same_trans; [apply pca_do_transform_settings|exact Hs].
Qed.
(** Whatever was done with the object before, transform gives what a new object gives that only received the
    same parameter assignments; and if it succeeds, the whole object is the same afterwards. *)
Theorem C48_pca (h : list (pca_op T)) (x : mat T) :
  let used := pca_run eig argsort h in let fresh := pca_run eig argsort (only_settings h) in
  snd (pca_transform eig argsort used x) = snd (pca_transform eig argsort fresh x) /\
  (forall r, snd (pca_transform eig argsort used x) = Ok r -> fst (pca_transform eig argsort used x) = fst (pca_transform eig argsort fresh x)).
Proof. apply pca_transform_same, pca_run_settings. repeat split. Qed.
(** The parameters of every reachable object satisfy the documented ranges, provided the defaults do. *)
Theorem C46_pca (h : list (pca_op T)) : pca_valid (PcVariance (lit 95 2 : T)) = true ->
  let s := pca_run eig argsort h in
  nltb n0 (pc_variance s) = true /\ nltb (pc_variance s) n1 = true /\ (pc_max_columns s = -1 \/ 0 < pc_max_columns s)%Z.
Proof.
  intros Hd s. set (good := fun a : pca_st T => nltb n0 (pc_variance a) = true /\ nltb (pc_variance a) n1 = true /\ (pc_max_columns a = -1 \/ 0 < pc_max_columns a)%Z).
  assert (Hgood : forall a b, same_settings a b -> good b -> good a). { unfold good. intros a b (-> & -> & _). auto. }
  cbn [pca_valid] in Hd. apply andb_prop in Hd as (Hd1 & Hd2).
  apply (fold_left_inv good); [repeat split; auto|]. intros a o _ Ha. destruct o as [y|k| |y|y]; cbn [pca_step].
  - eapply Hgood; [apply pca_transform_settings|exact Ha].
  - unfold pca_set. destruct (pca_valid k) eqn:Ek; cbn [fst]; [|exact Ha]. destruct k as [v|v|v]; cbn [pca_valid] in Ek; unfold good in *; cbn.
    + apply andb_prop in Ek as (-> & ->). tauto.
    + apply orb_prop in Ek. rewrite Z.eqb_eq, Z.ltb_lt in Ek. tauto.
    + tauto.
  - exact Ha.
  - eapply Hgood; [apply pca_configure_settings|exact Ha].
  - eapply Hgood; [apply pca_do_transform_settings|exact Ha].
Qed.
(** A rejected assignment changes nothing; an accepted one forgets scores, loadings and the decomposition. *)
Theorem C46_pca_assignment (s : pca_st T) (k : pca_key T) :
  (pca_valid k = false -> pca_set s k = (s, Err ValueError)) /\
  (pca_valid k = true -> exists s', pca_set s k = (s', Ok tt) /\ pc_scores s' = None /\ pc_loadings s' = None /\ pc_correlation s' = None /\
     pc_eigenvectors s' = None /\ pc_eigenvalues s' = None /\ pc_trans s' = None /\
     match k with PcVariance v => pc_variance s' = v | PcMaxColumns v => pc_max_columns s' = v | PcCenter v => pc_center s' = v end).
Proof.
  unfold pca_set. split; intros ->; [reflexivity|]. eexists. split; [reflexivity|]. destruct k; repeat split.
Qed.
End Retrain.
Example C48_pca_ex : exists x, pca_transform (fun _ => Ok (l56, V56)) argsort_R (pca_run (fun _ => Ok (l56, V56)) argsort_R [PcTransform V56; PcSet (PcCenter true)]) X56 = (fst x, Ok (snd x)).
Proof.
  pose proof (C48_pca (fun _ => Ok (l56, V56)) argsort_R [PcTransform V56; PcSet (PcCenter true)] X56) as H. cbv zeta in H. destruct H as (E & _).
  destruct C56_ex as (s' & S & Es & _). change (pca_run (fun _ => Ok (l56, V56)) argsort_R (only_settings [PcTransform V56; PcSet (PcCenter true)])) with s56 in E.
  rewrite Es in E. cbn [snd] in E. destruct (pca_transform _ _ (pca_run _ _ _) X56) as [s1 r1]. cbn [snd] in E. subst r1. exists (s1, S). reflexivity.
Qed.
Print Assumptions C48_pca.
Print Assumptions C46_pca.
Print Assumptions C46_pca_assignment.
