(** C84: the median and the largest entry of a matrix. *)
From Coq Require Import List ZArith Lia Bool Arith Reals Lra SpecFloat Permutation Sorted.
From Verif Require Import Base Num Mat M_Matrix M_Factory M_Loop M_Transform M_PLSBase M_PLS M_PLS2
  S_Matrix L_Base L_Mat L_MatR L_Matrix L_Eigen L_Alg P_Matrix P_Eigen.
Import ListNotations.
Local Open Scope R_scope.

(** The middle value of the numbers in l, the mean of the two middle ones if their number is even *)
Definition is_median (l : list R) (v : R) : Prop := exists s, Permutation l s /\ StronglySorted Rle s /\ l <> [] /\
  v = if Nat.even (length l) then (nth (length l / 2 - 1) s 0 + nth (length l / 2) s 0) / 2 else nth (length l / 2) s 0.
(** All entries of a matrix, row by row *)
Definition entries {T} `{Num T} (M : mat T) : list T := flat_map (fun i => map (entry M i) (seq 0 (nc M))) (seq 0 (nr M)).

Lemma is_median_unique l v v' : is_median l v -> is_median l v' -> v = v'.
Proof.
  intros (s & P & S & _ & E) (s' & P' & S' & _ & E'). assert (s = s').
  { apply (sorted_perm_unique Rle); [intros; lra|assumption|assumption|]. now rewrite <- P. }
  now subst.
Qed.
Lemma is_median_perm l l' v : Permutation l l' -> is_median l v -> is_median l' v.
Proof.
  intros P (s & Ps & S & Hn & E). exists s. rewrite <- (Permutation_length P). split; [now rewrite <- P|]. split; [exact S|]. split; [|exact E].
  intros ->. apply Permutation_sym, Permutation_nil in P. contradiction.
Qed.
Lemma np_median_spec (l : list R) : l <> [] -> is_median l (np_median l).
Proof.
  intros Hl. unfold np_median. replace (existsb _ l) with false.
  2: { symmetry. rewrite <- not_true_iff_false, existsb_exists. intros (x & _ & Hx). cbn [neqb NumR] in Hx. unfold Reqb in Hx. destruct (Req_EM_T x x); [discriminate|contradiction]. }
  exists (stable_sort (fun a b : R => nleb a b) l). assert (Pm := stable_sort_perm (fun a b : R => nleb a b) l). rewrite <- (Permutation_length Pm).
  split; [exact Pm|]. split.
  - eapply StronglySorted_impl; [|apply stable_sort_sorted]; cbn; intros *; rewrite ?Rleb_true; lra.
  - split; [exact Hl|]. destruct (Nat.eqb_spec (length l) 0) as [Q|_]; [destruct l; [contradiction|discriminate]|]. destruct (Nat.even (length l)); reflexivity.
Qed.
Lemma flat_map_swap {A B C} (f : A -> B -> C) (la : list A) (lb : list B) :
  Permutation (flat_map (fun a => map (f a) lb) la) (flat_map (fun b => map (fun a => f a b) la) lb).
Proof.
  induction la as [|a la IH]; cbn.
  - induction lb; cbn; auto.
  - rewrite IH. clear IH. induction lb as [|b lb IH]; cbn; [reflexivity|]. constructor. rewrite <- IH. rewrite !app_assoc. apply Permutation_app_tail. apply Permutation_app_comm.
Qed.
Lemma raw_entries {T} `{Num T} (M : mat T) : Permutation (to_raw_copy_1D M) (entries M).
Proof. unfold to_raw_copy_1D, entries. apply (flat_map_swap (fun c r => entry M r c)). Qed.
Lemma entries_length {T} `{Num T} (M : mat T) : length (entries M) = (nr M * nc M)%nat.
Proof. rewrite <- (Permutation_length (raw_entries M)). apply to_raw_copy_1D_length. Qed.
Lemma entries_in {T} `{Num T} (M : mat T) x : In x (entries M) <-> exists i j, (i < nr M)%nat /\ (j < nc M)%nat /\ x = entry M i j.
Proof.
  unfold entries. rewrite in_flat_map. split.
  - intros (i & Hi & Hx). apply in_map_iff in Hx as (j & <- & Hj). apply in_seq in Hi, Hj. exists i, j. repeat split; lia.
  - intros (i & j & Hi & Hj & ->). exists i. split; [apply in_seq; lia|]. apply in_map, in_seq. lia.
Qed.

(** median() is the median of all entries *)
Theorem C84_median (M : mat R) : nr M <> 0%nat -> nc M <> 0%nat -> is_median (entries M) (median M).
Proof.
  intros Hr Hc. apply (is_median_perm (to_raw_copy_1D M)); [apply raw_entries|]. apply np_median_spec. intros Q. pose proof (to_raw_copy_1D_length M) as L. rewrite Q in L. cbn in L. destruct (nr M), (nc M); lia.
Qed.
(** Number of elements with a property *)
Fixpoint count (p : R -> Prop) (dec : forall x, {p x} + {~ p x}) (l : list R) : nat :=
  match l with [] => 0 | x :: l => (if dec x then 1 else 0) + count p dec l end.
Lemma count_perm p dec l l' : Permutation l l' -> count p dec l = count p dec l'.
Proof. induction 1; cbn; lia. Qed.
Lemma count_app p dec l l' : count p dec (l ++ l') = (count p dec l + count p dec l')%nat.
Proof. induction l; cbn; lia. Qed.
Lemma count_all p dec l : Forall p l -> count p dec l = length l.
Proof. induction 1; cbn; [reflexivity|]. destruct (dec x); [lia|contradiction]. Qed.
Lemma sorted_nth s i j : StronglySorted Rle s -> (i <= j < length s)%nat -> nth i s 0 <= nth j s 0.
Proof.
  intros S. revert i j. induction S as [|x s S IH Hx]; intros i j Hij; cbn in Hij; [lia|]. destruct i as [|i], j as [|j]; cbn; try lra; try lia.
  - rewrite Forall_forall in Hx. apply Hx, nth_In. lia.
  - apply IH. lia.
Qed.
Lemma median_between s n : StronglySorted Rle s -> length s = n -> n <> 0%nat ->
  let v := if Nat.even n then (nth (n / 2 - 1) s 0 + nth (n / 2) s 0) / 2 else nth (n / 2) s 0 in
  nth ((n - 1) / 2) s 0 <= v <= nth (n / 2) s 0 /\ v - nth ((n - 1) / 2) s 0 = nth (n / 2) s 0 - v.
Proof.
  intros S L Hn v. subst v. destruct (Nat.even n) eqn:Ev.
  - apply Nat.even_spec in Ev as (m & ->). replace ((2 * m - 1) / 2)%nat with (m - 1)%nat by (apply (Nat.div_unique _ _ _ 1); lia). replace (2 * m / 2)%nat with m by (symmetry; rewrite Nat.mul_comm; now apply Nat.div_mul).
    pose proof (sorted_nth s (m - 1) m S ltac:(lia)). lra.
  - assert (Od : Nat.odd n = true) by (now rewrite <- Nat.negb_even, Ev). apply Nat.odd_spec in Od as (m & ->). replace ((2 * m + 1 - 1) / 2)%nat with m by (replace (2 * m + 1 - 1)%nat with (m * 2)%nat by lia; symmetry; now apply Nat.div_mul).
    replace ((2 * m + 1) / 2)%nat with m by (apply (Nat.div_unique _ _ _ 1); lia). lra.
Qed.
(** At least half of the entries are not larger and at least half are not smaller; the distances to the
    entries sum up to the least possible value. *)
Theorem C84_median_splits (M : mat R) : nr M <> 0%nat -> nc M <> 0%nat ->
  (length (entries M) <= 2 * count (fun x => (x <= median M)%R) (fun x => Rle_dec x (median M)) (entries M))%nat /\
  (length (entries M) <= 2 * count (fun x => (median M <= x)%R) (fun x => Rle_dec (median M) x) (entries M))%nat.
Proof.
  intros Hr Hc. destruct (C84_median M Hr Hc) as (s & P & S & Hne & E). set (v := median M) in *. set (n := length (entries M)) in *.
  assert (L : length s = n) by (symmetry; apply (Permutation_length P)). assert (Hn : n <> 0%nat) by (unfold n; destruct (entries M); [contradiction|discriminate]).
  destruct (median_between s n S L Hn) as ((B1 & B2) & _). rewrite <- E in B1, B2. rewrite !(count_perm _ _ _ _ P).
  pose proof (Nat.div_mod n 2 ltac:(lia)) as D. pose proof (Nat.mod_upper_bound n 2 ltac:(lia)).
  assert (D' : ((n - 1) / 2 = n - 1 - n / 2)%nat).
  { destruct (Nat.eq_dec (n mod 2) 0) as [Q|Q]; symmetry; [apply (Nat.div_unique _ _ _ 1)|apply (Nat.div_unique _ _ _ 0)]; lia. }
  split.
  - rewrite <- (firstn_skipn (1 + (n - 1) / 2) s), count_app, count_all.
    + rewrite firstn_length, L. lia.
    + apply Forall_forall. intros x Hx. apply (In_nth _ _ 0) in Hx as (i & Hi & <-). rewrite firstn_length, L in Hi.
      rewrite <- (firstn_skipn (1 + (n - 1) / 2) s) in B1. rewrite app_nth1 in B1 by (rewrite firstn_length; lia). eapply Rle_trans; [|exact B1].
      pose proof (sorted_nth s i ((n - 1) / 2) S ltac:(lia)) as Q. rewrite <- (firstn_skipn (1 + (n - 1) / 2) s) in Q. rewrite !app_nth1 in Q by (rewrite firstn_length; lia). exact Q.
  - rewrite <- (firstn_skipn (n / 2) s), count_app, (count_all _ _ (skipn (n / 2) s)).
    + rewrite skipn_length, L. lia.
    + apply Forall_forall. intros x Hx. apply (In_nth _ _ 0) in Hx as (i & Hi & <-). rewrite skipn_length, L in Hi. eapply Rle_trans; [exact B2|].
      pose proof (sorted_nth s (n / 2) (n / 2 + i) S ltac:(lia)) as Q.
      replace (nth (n / 2 + i) s 0) with (nth i (skipn (n / 2) s) 0) in Q; [exact Q|]. rewrite <- (firstn_skipn (n / 2) s) at 2. rewrite app_nth2; rewrite firstn_length, Nat.min_l by lia; [f_equal; lia|lia].
Qed.
Definition total_distance (l : list R) (c : R) : R := fold_right (fun x acc => Rabs (x - c) + acc) 0 l.
Lemma total_perm l l' c : Permutation l l' -> total_distance l c = total_distance l' c.
Proof. unfold total_distance. induction 1; cbn; lra. Qed.
Lemma total_sum l c : total_distance l c = Rsum (length l) (fun i => Rabs (nth i l 0 - c)).
Proof.
  unfold total_distance. rewrite Rsum_sumn. induction l as [|x l IH]; cbn [fold_right length]; [reflexivity|]. rewrite IH. rewrite sumR_S_hd. reflexivity.
Qed.
Theorem C84_median_minimises (M : mat R) c : nr M <> 0%nat -> nc M <> 0%nat -> total_distance (entries M) (median M) <= total_distance (entries M) c.
Proof.
  intros Hr Hc. destruct (C84_median M Hr Hc) as (s & P & S & Hne & E). set (v := median M) in *. set (n := length (entries M)) in *.
  assert (L : length s = n) by (symmetry; apply (Permutation_length P)). assert (Hn : n <> 0%nat) by (unfold n; destruct (entries M); [contradiction|discriminate]).
  destruct (median_between s n S L Hn) as ((B1 & B2) & _). rewrite <- E in B1, B2. rewrite !(total_perm _ _ _ P), !total_sum, L.
  assert (Hs : forall c, 2 * Rsum n (fun i => Rabs (nth i s 0 - c)) = Rsum n (fun i => Rabs (nth i s 0 - c) + Rabs (nth (n - 1 - i) s 0 - c))).
  { intros c0. rewrite !Rsum_sumn, sumR_plus. rewrite (sumR_rev n (fun i => Rabs (nth i s 0 - c0))). lra. }
  assert (Q : Rsum n (fun i => Rabs (nth i s 0 - v) + Rabs (nth (n - 1 - i) s 0 - v)) <= Rsum n (fun i => Rabs (nth i s 0 - c) + Rabs (nth (n - 1 - i) s 0 - c))).
  { rewrite !Rsum_sumn. apply sumR_le. intros i Hi.
    pose proof (Nat.div_mod n 2 ltac:(lia)) as D. pose proof (Nat.mod_upper_bound n 2 ltac:(lia)).
    assert (D' : ((n - 1) / 2 = n - 1 - n / 2)%nat).
    { destruct (Nat.eq_dec (n mod 2) 0) as [Q|Q]; symmetry; [apply (Nat.div_unique _ _ _ 1)|apply (Nat.div_unique _ _ _ 0)]; lia. }
    destruct (Nat.le_gt_cases i ((n - 1) / 2)) as [C1|C1].
    - pose proof (sorted_nth s i ((n - 1) / 2) S ltac:(lia)). pose proof (sorted_nth s (n / 2) (n - 1 - i) S ltac:(lia)). split_Rabs; lra.
    - pose proof (sorted_nth s (n / 2) i S ltac:(lia)). pose proof (sorted_nth s (n - 1 - i) ((n - 1) / 2) S ltac:(lia)). split_Rabs; lra. }
  rewrite <- !Hs in Q. lra.
Qed.
(** The order of the entries does not matter *)
Theorem C84_median_order (M M' : mat R) : Permutation (entries M) (entries M') -> nr M <> 0%nat -> nc M <> 0%nat -> nr M' <> 0%nat -> nc M' <> 0%nat -> median M = median M'.
Proof. intros P H1 H2 H3 H4. apply (is_median_unique (entries M')); [|now apply C84_median]. apply (is_median_perm (entries M)); [exact P|now apply C84_median]. Qed.
(** A NaN anywhere, or no entry at all, gives NaN *)
Theorem C84_median_nan (M : mat f64) : (nr M = 0%nat \/ nc M = 0%nat \/ exists i j, (i < nr M)%nat /\ (j < nc M)%nat /\ entry M i j = S754_nan) -> median M = S754_nan.
Proof.
  intros HM. unfold median, np_median.
  destruct (existsb (fun x => negb (neqb x x)) (to_raw_copy_1D M)) eqn:Ex; [reflexivity|].
  assert (Hno : to_raw_copy_1D M = []).
  { assert (HL := to_raw_copy_1D_length M). destruct HM as [Q|[Q|(i & j & Hi & Hj & Q)]]; [rewrite Q in HL|rewrite Q, Nat.mul_0_r in HL|]; try (destruct (to_raw_copy_1D M); [reflexivity|discriminate]).
    assert (Hin : In S754_nan (to_raw_copy_1D M)) by (eapply Permutation_in; [apply Permutation_sym, raw_entries|]; apply entries_in; now exists i, j).
    assert (Q' : existsb (fun x => negb (neqb x x)) (to_raw_copy_1D M) = true) by (apply existsb_exists; exists S754_nan; split; [exact Hin|reflexivity]). congruence. }
  rewrite Hno. reflexivity.
Qed.
(** max() is the largest entry; an empty matrix has none *)
Theorem C84_max (M : mat R) : (nr M = 0%nat \/ nc M = 0%nat -> mmax M = Err ValueError) /\
  (nr M <> 0%nat -> nc M <> 0%nat -> exists v, mmax M = Ok v /\ (exists i j, (i < nr M)%nat /\ (j < nc M)%nat /\ v = entry M i j) /\ forall i j, (i < nr M)%nat -> (j < nc M)%nat -> entry M i j <= v).
Proof.
  assert (HL := to_raw_copy_1D_length M). unfold mmax. split.
  - intros Q. assert (Hz : (nr M * nc M = 0)%nat) by (destruct Q as [-> | ->]; lia). rewrite Hz in HL. destruct (to_raw_copy_1D M); [reflexivity|discriminate].
  - intros Hr Hc. assert (HP := raw_entries M). destruct (to_raw_copy_1D M) as [|x l]; [cbn in HL; destruct (nr M), (nc M); lia|].
    assert (G : forall l a, In (fold_left (fun a b : R => if negb (neqb a a) then a else if nleb b a then a else b) l a) (a :: l) /\
      forall b, In b (a :: l) -> b <= fold_left (fun a b : R => if negb (neqb a a) then a else if nleb b a then a else b) l a).
    { clear. induction l as [|b l IH]; intros a; cbn [fold_left].
      - split; [now left|]. intros b [->|[]]. lra.
      - replace (negb (neqb a a)) with false by (cbn [neqb NumR]; unfold Reqb; destruct (Req_EM_T a a); [reflexivity|contradiction]).
        cbn [nleb NumR]. destruct (Rleb b a) eqn:Hb.
        + apply Rleb_true in Hb. destruct (IH a) as (I1 & I2). split; [destruct I1 as [I1|I1]; [now left|right; now right]|]. intros c [->|[->|Hc]]; [apply I2; now left| |apply I2; now right]. eapply Rle_trans; [exact Hb|apply I2; now left].
        + assert (Hb' : a < b) by (apply Rnot_le_lt; intros Q; apply Rleb_true in Q; congruence). destruct (IH b) as (I1 & I2). split; [right; exact I1|]. intros c [->|Hc]; [|now apply I2]. apply Rle_trans with b; [lra|apply I2; now left]. }
    destruct (G l x) as (G1 & G2). eexists. split; [reflexivity|]. split.
    + apply entries_in. eapply Permutation_in; [exact HP|exact G1].
    + intros i j Hi Hj. apply G2. eapply Permutation_in; [apply Permutation_sym; exact HP|]. apply entries_in. now exists i, j.
Qed.
Print Assumptions C84_median.
Print Assumptions C84_median_splits.
Print Assumptions C84_median_minimises.
Print Assumptions C84_median_order.
Print Assumptions C84_median_nan.
Print Assumptions C84_max.
Definition C84_m : mat R := Mat 2 2 [[7; 1];[2; 4]].
Example C84_ex : median C84_m = 3 /\ median (Mat 1 3 [[5;1;2]]) = 2 /\ mmax C84_m = Ok 7.
Proof.
  split; [|split].
  - apply (is_median_unique (entries C84_m)); [apply C84_median; discriminate|]. exists [1;2;4;7]. split.
    + cbn. change [7;1;2;4] with ([7] ++ [1;2;4]). rewrite (Permutation_app_comm [7]). cbn. apply perm_skip, perm_skip. reflexivity.
    + split; [repeat constructor; lra|]. split; [discriminate|]. cbn. lra.
  - apply (is_median_unique (entries (Mat 1 3 [[5;1;2]]))); [apply C84_median; discriminate|]. exists [1;2;5]. split.
    + cbn. change [5;1;2] with ([5] ++ [1;2]). rewrite (Permutation_app_comm [5]). reflexivity.
    + split; [repeat constructor; lra|]. split; [discriminate|]. reflexivity.
  - destruct (C84_max C84_m) as (_ & Hm). destruct (Hm ltac:(discriminate) ltac:(discriminate)) as (v & -> & (i & j & Hi & Hj & Hv) & Hle). specialize (Hle 0%nat 0%nat ltac:(cbn; lia) ltac:(cbn; lia)). cbn in Hi, Hj, Hle. apply f_equal.
    assert (Hi' : i = 0%nat \/ i = 1%nat) by lia. assert (Hj' : j = 0%nat \/ j = 1%nat) by lia. destruct Hi' as [-> | ->], Hj' as [-> | ->]; cbn in Hv; lra.
Qed.
