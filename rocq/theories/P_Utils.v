(** Properties C28-C31: utils.sort, linear_regression, max_index. *)
From Coq Require Import List ZArith Lia Bool Arith Reals Lra Permutation SpecFloat.
From Verif Require Import Base Num Mat M_Matrix M_Helper M_Utils S_Matrix L_Base L_Mat L_MatR L_Order L_Stats L_Sort L_Sort2 P_Matrix.
Import ListNotations.
Local Open Scope nat_scope.

(** p rearranges 0..n-1, and the array read through p is ascending. *)
Definition sorting_permutation {T} `{Num T} (a : list T) (p : list nat) : Prop :=
  Permutation p (seq 0 (length a)) /\
  forall i j, i < j -> j < length a -> nleb (nth (nth i p 0) a n0) (nth (nth j p 0) a n0) = true.

(** * C28 *)
Lemma initial_valid {T} `{Num T} (a : list T) : valid a (seq 0 (length a)).
Proof. split; [apply seq_length|]. apply Forall_forall. intros x Hx. apply in_seq in Hx. lia. Qed.

Theorem C28_sort {T} `{Num T} (D : T -> Prop) `{OL : !OrdLaws D} (a : list T) (fuel : nat) :
  Forall D a -> length a < fuel ->
  exists p, sort true fuel a = Ok p /\ sorting_permutation a p.
Proof.
  intros Da Hf. unfold sort. destruct (Nat.ltb_spec 1 (length a)) as [Hn|Hn].
  - change 0%Z with (Z.of_nat 0). replace (Z.of_nat (length a) - 1)%Z with (Z.of_nat (length a - 1)) by lia.
    destruct (quick_sort_spec D a Da fuel Hf fuel (initial_index (length a)) 0 (length a - 1)) as (p & E & (Hp & _) & Hs); try lia.
    { apply initial_valid. }
    exists p. split; [exact E|]. split; [now apply Permutation_sym|]. intros i j Hij Hj. apply Hs; lia.
  - eexists. split; [reflexivity|]. split; [apply Permutation_refl|]. intros; lia.
Qed.
(** The two kinds of numbers. *)
Theorem C28_sort_float64 (a : list f64) (fuel : nat) : Forall (fun x => x <> S754_nan) a -> length a < fuel ->
  exists p, sort true fuel a = Ok p /\ sorting_permutation a p.
Proof. intros Ha Hf. exact (C28_sort not_nan a fuel Ha Hf). Qed.
Theorem C28_sort_reals (a : list R) (fuel : nat) : length a < fuel ->
  exists p, sort true fuel a = Ok p /\ sorting_permutation a p.
Proof. intros Hf. apply (C28_sort (fun _ : R => True) a fuel); auto. now apply Forall_forall. Qed.
(** With NaN in the array the order is lost, but the call still ends, stays in range and permutes. *)
Theorem C28_sort_nan (a : list f64) (fuel : nat) : length a < fuel ->
  exists p, sort true fuel a = Ok p /\ Permutation p (seq 0 (length a)).
Proof. apply (sort_weak strict_F). Qed.
Example C28_ex : sort true 20 (map exF [5; 3; 9; 3; 1; 7; 3]%Z) = Ok [4; 3; 6; 1; 0; 5; 2] /\
  Forall (fun x => x <> S754_nan) (map exF [5; 3; 9; 3; 1; 7; 3]%Z).
Proof. split; [vm_compute; reflexivity|]. repeat (constructor; [vm_compute; discriminate|]). constructor. Qed.
Print Assumptions C28_sort.
Print Assumptions C28_sort_float64.
Print Assumptions C28_sort_reals.
Print Assumptions C28_sort_nan.

(** * C29 *)
Lemma lget_addr {A} (l : list A) z x : lget l z = Ok x -> exists k, npidx (length l) z = Ok k /\ k < length l /\ forall d, nth k l d = x.
Proof.
  unfold lget. destruct (npidx (length l) z) as [k|e] eqn:E; [|discriminate]. cbn [bind]. intros Q. exists k. split; auto.
  pose proof (npidx_lt _ _ _ E) as Hk. split; auto. intros d. rewrite (nth_error_nth' l d Hk) in Q. congruence.
Qed.
Lemma swap_perm l i j l' : swap l i j = Ok l' -> Permutation l l'.
Proof.
  unfold swap. destruct (lget l i) as [h|] eqn:E1; [|discriminate]. destruct (lget l j) as [x|] eqn:E2; [|discriminate]. cbn [bind].
  destruct (lget_addr _ _ _ E1) as (ki & A1 & B1 & C1). destruct (lget_addr _ _ _ E2) as (kj & A2 & B2 & C2).
  unfold lset. rewrite A1. cbn [bind]. rewrite upd_length, A2. cbn [bind]. intros [= <-].
  replace h with (nth ki l 0) by apply C1. replace x with (nth kj l 0) by apply C2. apply (swapped_perm l ki kj); assumption.
Qed.
Ltac inv_bind H := match type of H with bind ?x _ = Ok _ => let E := fresh "E" in destruct x eqn:E; [cbn [bind] in H|discriminate H] end.
Section Perm.
Context {T : Type} `{Num T}.
Lemma cswap_perm (a : list T) l i j l' : conditional_swap a l i j = Ok l' -> Permutation l l'.
Proof. unfold conditional_swap. intros Q. inv_bind Q. inv_bind Q. destruct nltb; [eapply swap_perm; eauto|]. injection Q as <-. apply Permutation_refl. Qed.
Lemma part_real_perm (a : list T) F p fuel : forall l i j l' c, partition_real_loop fuel F a l p i j = Ok (l', c) -> Permutation l l'.
Proof.
  induction fuel as [|f IH]; intros l i j l' c Q; [discriminate|]. cbn [partition_real_loop] in Q. inv_bind Q. inv_bind Q.
  destruct (_ <=? _)%Z in Q; [injection Q as <- _; apply Permutation_refl|]. inv_bind Q.
  eapply Permutation_trans; [eapply swap_perm; eauto|eapply IH; eauto].
Qed.
Lemma part_int_loop_perm (a : list T) F p fuel : forall l i j l' x y, partition_int_loop fuel F a l p i j = Ok (l', x, y) -> Permutation l l'.
Proof.
  induction fuel as [|f IH]; intros l i j l' x y Q; [discriminate|]. cbn [partition_int_loop] in Q.
  destruct (i <? j)%Z; [|injection Q as <- _ _; apply Permutation_refl]. inv_bind Q. inv_bind Q.
  destruct (_ <? _)%Z in Q; [|eapply IH; eauto]. inv_bind Q.
  eapply Permutation_trans; [eapply swap_perm; eauto|eapply IH; eauto].
Qed.
Lemma partition_perm b (a : list T) F p l i j l' c : partition b F a l i j p = Ok (l', c) -> Permutation l l'.
Proof.
  unfold partition. intros Q. inv_bind Q. destruct b; [eapply part_real_perm; eauto|]. unfold partition_int in Q.
  inv_bind Q. inv_bind Q. destruct a2 as [[l2 x] y]. apply part_int_loop_perm in E1.
  destruct (x =? y)%Z; [inv_bind Q|]; injection Q as <- _; assumption.
Qed.
Lemma quick_sort_perm b (a : list T) F fuel : forall l i j l', quick_sort b fuel F a l i j = Ok l' -> Permutation l l'.
Proof.
  induction fuel as [|f IH]; intros l i j l' Q; [discriminate|]. cbn [quick_sort] in Q.
  destruct (_ =? 0)%Z in Q; [injection Q as <-; apply Permutation_refl|].
  destruct (_ =? 1)%Z in Q; [eapply cswap_perm; eauto|].
  destruct (_ =? 2)%Z in Q.
  - inv_bind Q. inv_bind Q. apply cswap_perm in E, E0, Q. eapply Permutation_trans; [eassumption|]. eapply Permutation_trans; eassumption.
  - inv_bind Q. destruct a0 as [l1 pl]. unfold sort_left_right_and_center in E. inv_bind E. inv_bind E. inv_bind E.
    injection E as <- _. inv_bind Q. inv_bind Q. inv_bind Q. match type of Q with context[let (_, _) := ?q in _] => destruct q as [l3 ctr] end. inv_bind Q. inv_bind Q.
    repeat match goal with
    | H : conditional_swap _ _ _ _ = Ok _ |- _ => apply cswap_perm in H
    | H : swap _ _ _ = Ok _ |- _ => apply swap_perm in H
    | H : partition _ _ _ _ _ _ _ = Ok _ |- _ => apply partition_perm in H
    | H : quick_sort _ _ _ _ _ _ _ = Ok _ |- _ => apply IH in H
    end.
    repeat (eapply Permutation_trans; [eassumption|]). apply Permutation_refl.
Qed.
End Perm.

(** Both branches: whatever is returned is a rearrangement of 0..n-1 ... *)
Theorem C29_returns_permutation {T} `{Num T} (isreal : bool) (fuel : nat) (a : list T) (p : list nat) :
  sort isreal fuel a = Ok p -> Permutation p (seq 0 (length a)).
Proof.
  unfold sort. destruct (1 <? length a)%nat; intros Q; [|injection Q as <-; apply Permutation_refl].
  apply quick_sort_perm in Q. now apply Permutation_sym.
Qed.
(** ... and arrays of at most three elements are sorted by either branch ... *)
Theorem C29_short_partial {T} `{Num T} (D : T -> Prop) `{OL : !OrdLaws D} (a : list T) (fuel : nat) :
  Forall D a -> length a <= 3 -> length a < fuel ->
  exists p, sort false fuel a = Ok p /\ sorting_permutation a p.
Proof.
  intros Da H3 Hf. destruct (C28_sort D a fuel Da Hf) as (p & E & Hp). exists p. split; [|exact Hp]. rewrite <- E.
  unfold sort. destruct fuel as [|fuel]; [lia|]. destruct (Nat.ltb_spec 1 (length a)); [|reflexivity].
  cbn [quick_sort]. assert (Hd : (Z.of_nat (length a) - 1 - 0 = 1 \/ Z.of_nat (length a) - 1 - 0 = 2)%Z) by lia.
  destruct Hd as [-> | ->]; reflexivity.
Qed.
(** ... but the integer branch does not sort: an already sorted array comes out
    unsorted, and others raise IndexError. *)
Theorem C29_refuted :
  (exists p, sort false 50 [1; 2; 3; 4]%Z = Ok p /\ ~ sorting_permutation [1; 2; 3; 4]%Z p) /\
  sort false 50 [2; 3; 1; 4]%Z = Err IndexError.
Proof.
  split; [|vm_compute; reflexivity]. eexists. split; [vm_compute; reflexivity|].
  intros [_ Hs]. specialize (Hs 1 2 ltac:(lia) ltac:(cbn; lia)). vm_compute in Hs. discriminate.
Qed.
(** Python floats are not np.float64 instances, so lists of them take the same branch. *)
Theorem C29_refuted_python_floats :
  Forall (fun x => x <> S754_nan) (map exF [2; 3; 1; 4]%Z) /\ sort false 50 (map exF [2; 3; 1; 4]%Z) = Err IndexError.
Proof. split; [|vm_compute; reflexivity]. repeat (constructor; [vm_compute; discriminate|]). constructor. Qed.
#[local] Instance OrdZ : OrdLaws (fun _ : Z => True).
Proof. constructor; cbn; intros; lia. Qed.
Example C29_ex : exists p, sort false 9 [7; 5; 6]%Z = Ok p /\ sorting_permutation [7; 5; 6]%Z p.
Proof. apply (C29_short_partial (fun _ : Z => True)); cbn; auto; lia. Qed.
Print Assumptions C29_returns_permutation.
Print Assumptions C29_short_partial.
Print Assumptions C29_refuted.
Print Assumptions C29_refuted_python_floats.

(** * C30 *)
Local Open Scope R_scope.
Definition nthR (l : list R) (i : nat) : R := nth i l 0.
(** Sum of squared residuals of the line  intercept a, slope b. *)
Definition sse (x y : list R) (a b : R) : R :=
  Rsum (length x) (fun i => (nthR y i - (a + b * nthR x i)) * (nthR y i - (a + b * nthR x i))).

Lemma pysum_app (l1 : list R) a : pysum (l1 ++ [a]) = pysum l1 + a.
Proof. unfold pysum. rewrite fold_left_app. reflexivity. Qed.
Lemma pysum_tab n (f : nat -> R) : pysum (tab n f) = sumn n f.
Proof. induction n as [|n IH]; [reflexivity|]. rewrite tab_S, pysum_app, IH. reflexivity. Qed.
Lemma pysum_nth (l : list R) : pysum l = sumn (length l) (nthR l).
Proof. rewrite <- pysum_tab. f_equal. symmetry. now apply tab_nth. Qed.
Lemma sum_of_squares_nth (l : list R) : sum_of_squares l = sumn (length l) (fun i => nthR l i * nthR l i).
Proof.
  unfold sum_of_squares. rewrite pysum_nth, map_length. apply sumn_ext. intros i Hi. unfold nthR.
  rewrite (nth_map' _ _ _ _ 0) by assumption. reflexivity.
Qed.
Lemma xy_nth (x y : list R) : length x = length y ->
  pysum (map (fun p => nmul (fst p) (snd p)) (combine x y)) = sumn (length x) (fun i => nthR x i * nthR y i).
Proof.
  intros Hl. rewrite pysum_nth, map_length, combine_length, <- Hl, Nat.min_id. apply sumn_ext. intros i Hi. unfold nthR.
  rewrite (nth_map' _ _ _ _ (0, 0)) by (rewrite combine_length; lia). rewrite combine_nth by assumption. reflexivity.
Qed.
Lemma det_sumsqdev n (f : nat -> R) : n <> 0%nat ->
  INR n * sumn n (fun i => f i * f i) - sumn n f * sumn n f = INR n * sumsqdev n f.
Proof.
  intros Hn. unfold sumsqdev. set (mu := np_mean n f).
  rewrite (sumn_ext n (fun i => (f i - mu) * (f i - mu)) (fun i => (f i * f i - 2 * mu * f i) + mu * mu)) by (intros; ring).
  rewrite sumR_plus, sumR_minus, sumR_scal, sumR_const. unfold mu. rewrite np_mean_R. field. now apply INR_ne0.
Qed.

Theorem C30_least_squares (x y : list R) (a b : R) :
  length x = length y ->
  (exists i j, (i < length x)%nat /\ (j < length x)%nat /\ nthR x i <> nthR x j) ->
  linear_regression x y = (a, b) ->
  (forall a' b', sse x y a b <= sse x y a' b') /\
  (forall a' b', sse x y a' b' = sse x y a b -> a' = a /\ b' = b).
Proof.
  intros Hl (i0 & j0 & Hi0 & Hj0 & Hne) E.
  set (n := length x) in *. assert (Hn : n <> 0%nat) by lia. assert (Hn2 : (2 <= n)%nat).
  { destruct (le_lt_dec 2 n); auto. assert (i0 = 0%nat) by lia. assert (j0 = 0%nat) by lia. congruence. }
  set (f := nthR x) in *. set (g := nthR y) in *.
  set (Sx := sumn n f). set (Sy := sumn n g). set (Sxx := sumn n (fun i => f i * f i)). set (Sxy := sumn n (fun i => f i * g i)).
  set (N := INR n). set (den := N * Sxx - Sx * Sx).
  assert (Hdev : 0 < sumsqdev n f).
  { pose proof (sumsqdev_nonneg n f). destruct (Req_dec (sumsqdev n f) 0) as [Q|Q]; [|lra]. exfalso. apply Hne.
    apply (proj1 (np_std_zero n f Hn2)); auto. rewrite np_std_R, Q. unfold Rdiv. rewrite Rmult_0_l. apply sqrt_0. }
  assert (Hden : 0 < den).
  { unfold den, N, Sxx, Sx. rewrite det_sumsqdev by assumption. apply Rmult_lt_0_compat; auto. now apply INR_pos. }
  assert (Ea : a = (Sy * Sxx - Sx * Sxy) / den /\ b = (N * Sxy - Sx * Sy) / den).
  { unfold linear_regression in E. rewrite (xy_nth x y Hl), !pysum_nth, sum_of_squares_nth in E. rewrite <- Hl in E.
    cbn [ndiv nsub nmul nofZ NumR] in E. rewrite IZR_of_nat in E. injection E as <- <-. split; reflexivity. }
  destruct Ea as [Ea Eb].
  (* normal equations *)
  assert (N1 : N * a + Sx * b = Sy) by (rewrite Ea, Eb; unfold den; field; unfold den in Hden; lra).
  assert (N2 : Sx * a + Sxx * b = Sxy) by (rewrite Ea, Eb; unfold den; field; unfold den in Hden; lra).
  assert (Hdiff : forall a' b', sse x y a' b' - sse x y a b =
     sumn n (fun i => ((a' - a) + (b' - b) * f i) * ((a' - a) + (b' - b) * f i))).
  { intros a' b'. unfold sse. fold n f g. rewrite !Rsum_sumn, <- sumR_minus.
    rewrite (sumn_ext n _ (fun i => ((a' - a) + (b' - b) * f i) * ((a' - a) + (b' - b) * f i)
        - 2 * ((a' - a) * (g i - a - b * f i) + (b' - b) * (f i * g i - a * f i - b * (f i * f i))))) by (intros; ring).
    rewrite sumR_minus, sumR_scal, sumR_plus, !sumR_scal, !sumR_minus, !sumR_scal, sumR_const.
    fold Sx Sy Sxx Sxy N. replace (Sy - N * a - b * Sx) with 0 by lra. replace (Sxy - a * Sx - b * Sxx) with 0 by lra. ring. }
  split; intros a' b'.
  - assert (0 <= sse x y a' b' - sse x y a b); [|lra]. rewrite Hdiff. apply sumR_nonneg. intros. apply Rle_0_sqr.
  - intros Q. assert (Z : sumn n (fun i => ((a' - a) + (b' - b) * f i) * ((a' - a) + (b' - b) * f i)) = 0) by (rewrite <- Hdiff; lra).
    assert (Hz : forall i, (i < n)%nat -> (a' - a) + (b' - b) * f i = 0).
    { intros i Hi. pose proof (sumR_nonneg_0 n _ (fun i _ => Rle_0_sqr ((a' - a) + (b' - b) * f i)) Z i Hi) as Q2. cbn in Q2. apply Rsqr_0_uniq. exact Q2. }
    pose proof (Hz i0 Hi0) as Z1. pose proof (Hz j0 Hj0) as Z2.
    assert (Hb : (b' - b) * (f i0 - f j0) = 0) by lra. apply Rmult_integral in Hb. destruct Hb as [Hb|Hb]; [|exfalso; apply Hne; lra].
    rewrite Hb in Z1. lra.
Qed.
(** Exact on collinear data. *)
Theorem C30_collinear (x : list R) (a b : R) :
  (exists i j, (i < length x)%nat /\ (j < length x)%nat /\ nthR x i <> nthR x j) ->
  linear_regression x (map (fun t => a + b * t) x) = (a, b).
Proof.
  intros Hd. destruct (linear_regression x (map (fun t => a + b * t) x)) as [a' b'] eqn:E.
  assert (Hl : length x = length (map (fun t => a + b * t) x)) by now rewrite map_length.
  destruct (C30_least_squares _ _ _ _ Hl Hd E) as [Hmin Huniq].
  assert (Hz : sse x (map (fun t => a + b * t) x) a b = 0).
  { unfold sse. rewrite Rsum_sumn. apply sumR_zero. intros i Hi. unfold nthR. rewrite (nth_map' _ _ _ _ 0) by assumption. ring. }
  destruct (Huniq a b) as [-> ->]; auto. apply Rle_antisym; [|apply Hmin]. rewrite Hz. unfold sse. rewrite Rsum_sumn.
  apply sumR_nonneg. intros. apply Rle_0_sqr.
Qed.
Example C30_ex : (exists i j, (i < length [1;2;4])%nat /\ (j < length [1;2;4])%nat /\ nthR [1;2;4] i <> nthR [1;2;4] j) /\
  linear_regression [1;2;4] [3;5;9] = (1, 2).
Proof.
  split.
  - exists 0%nat, 1%nat. cbn. repeat split; try lia. lra.
  - replace [3;5;9] with (map (fun t => 1 + 2 * t) [1;2;4]) by (cbn; repeat f_equal; lra). apply C30_collinear.
    exists 0%nat, 1%nat. cbn. repeat split; try lia. lra.
Qed.
(** Constant abscissae in binary64: NaN, no exception. *)
Example C30_degenerate : linear_regression (map exF [2;2]%Z) (map exF [1;1]%Z) = (f_nan, f_nan).
Proof. vm_compute. reflexivity. Qed.
Print Assumptions C30_least_squares.
Print Assumptions C30_collinear.

(** * C31 *)
Local Open Scope nat_scope.
Theorem C31_always_one {T} `{Num T} (l : list T) : max_index l = if length l =? 0 then 0 else 1.
Proof.
  unfold max_index. destruct l as [|x l]; [reflexivity|]. cbn [length seq fold_left Nat.eqb orb].
  set (F := fun (acc : T * nat) i => _). cbn [nth].
  assert (G : forall s acc, snd acc = 1 -> snd (fold_left F s acc) = 1).
  { induction s as [|i s IH]; intros acc Ha; auto. cbn [fold_left]. apply IH. unfold F.
    destruct ((i =? 0) || nltb (fst acc) (nth i (x :: l) n0)); auto. }
  now apply G.
Qed.
Definition is_max_index {T} `{Num T} (l : list T) (k : nat) : Prop :=
  k < length l /\ forall i, i < length l -> nleb (nth i l n0) (nth k l n0) = true.
(** Right exactly when the element at index 1 exists and is a maximum. *)
Theorem C31_characterisation_partial {T} `{Num T} (l : list T) : l <> [] ->
  (is_max_index l (max_index l) <-> 2 <= length l /\ forall i, i < length l -> nleb (nth i l n0) (nth 1 l n0) = true).
Proof.
  intros Hl. rewrite C31_always_one. destruct l as [|x l]; [congruence|]. cbn [length Nat.eqb]. unfold is_max_index. cbn [length]. intuition lia.
Qed.
Theorem C31_refuted : ~ is_max_index [3; 1; 2]%Z (max_index [3; 1; 2]%Z) /\ ~ is_max_index [5]%Z (max_index [5]%Z).
Proof.
  split; intros [A B].
  - specialize (B 0 ltac:(cbn; lia)). vm_compute in B. discriminate.
  - cbn in A. lia.
Qed.
Example C31_ex : is_max_index [1; 9; 2]%Z (max_index [1; 9; 2]%Z).
Proof. apply C31_characterisation_partial; [discriminate|]. split; [cbn; lia|]. intros [|[|[|i]]] Hi; try reflexivity. cbn in Hi. lia. Qed.
Print Assumptions C31_always_one.
Print Assumptions C31_characterisation_partial.
Print Assumptions C31_refuted.
