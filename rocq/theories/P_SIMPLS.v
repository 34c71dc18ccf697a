(** C52: slimming of the SIMPLS weights. *)
From Coq Require Import List ZArith Lia Bool Arith Reals Lra Permutation SpecFloat.
From Verif Require Import Base Num Mat M_Matrix M_Factory M_Helper M_Loop M_Utils M_Linalg M_Transform M_PLSBase M_PLS
  S_Matrix L_Base L_Mat L_Matrix L_MatR L_Order L_Sort L_Alg P_Utils.
Import ListNotations.
Local Open Scope nat_scope.

(** How many of a 0 .. a (n-1) are strictly greater than x. *)
Definition larger {T} `{Num T} (n : nat) (a : nat -> T) (x : T) : nat := length (filter (fun s => nltb x (a s)) (seq 0 n)).

Lemma perm_filter_length {A} (f : A -> bool) l l' : Permutation l l' -> length (filter f l) = length (filter f l').
Proof. induction 1; cbn; try congruence; repeat match goal with |- context [f ?z] => destruct (f z) end; cbn; congruence. Qed.
Lemma filter_none {A} (f : A -> bool) l : (forall x, In x l -> f x = false) -> filter f l = [].
Proof. induction l as [|x l IH]; cbn; intros Hf; [reflexivity|]. rewrite Hf by auto. apply IH. auto. Qed.
Lemma filter_all {A} (f : A -> bool) l : (forall x, In x l -> f x = true) -> filter f l = l.
Proof. induction l as [|x l IH]; cbn; intros Hf; [reflexivity|]. rewrite Hf by auto. f_equal. apply IH. auto. Qed.
Lemma filter_length_le' {A} (f : A -> bool) l : length (filter f l) <= length l.
Proof. induction l as [|x l IH]; cbn; [lia|]. destruct (f x); cbn; lia. Qed.

Section Sorted.
Context {T : Type} `{Num T} (D : T -> Prop) `{OL : !OrdLaws D}.
Variables (a : list T) (p : list nat).
Hypothesis Da : Forall D a.
Hypothesis Hp : sorting_permutation a p.
Let n := length a.
Let av i := nth i a n0.
Lemma plen : length p = n. Proof. destruct Hp as [Q _]. apply Permutation_length in Q. now rewrite seq_length in Q. Qed.
Lemma pbound i : i < n -> nth i p 0 < n.
Proof. intros Hi. destruct Hp as [Q _]. assert (In (nth i p 0) (seq 0 n)) by (eapply Permutation_in; [exact Q|]; apply nth_In; rewrite plen; assumption). apply in_seq in H0. lia. Qed.
Lemma Dav i : i < n -> D (av i).
Proof. intros Hi. apply (proj1 (Forall_forall D a) Da). now apply nth_In. Qed.
Lemma sorted_le i j : i <= j -> j < n -> nleb (av (nth i p 0)) (av (nth j p 0)) = true.
Proof.
  intros Hij Hj. destruct (Nat.eq_dec i j) as [->|Hne]; [apply ol_refl, Dav, pbound; assumption|]. apply Hp; unfold n in *; lia.
Qed.
(** with v = a[p[j]]: x < v iff more than n-1-j elements exceed x, for any element x *)
Lemma below_iff j x : j < n -> D x -> (nltb x (av (nth j p 0)) = true -> n - j <= larger n av x) /\ (nltb x (av (nth j p 0)) = false -> larger n av x <= n - 1 - j).
Proof.
  intros Hj Dx. unfold larger. rewrite <- (perm_filter_length _ _ _ (proj1 Hp)). split; intros Hlt.
  - rewrite <- (firstn_skipn j p), filter_app, app_length. rewrite (filter_all _ (skipn j p)); [rewrite skipn_length, plen; lia|].
    intros i Hi. apply (In_nth _ _ 0) in Hi. destruct Hi as (k & Hk & <-). rewrite skipn_length, plen in Hk.
    assert (Hnth : nth k (skipn j p) 0 = nth (j + k) p 0).
    { rewrite <- (firstn_skipn j p) at 2. rewrite app_nth2; rewrite firstn_length, plen; [f_equal; lia|lia]. }
    rewrite Hnth. assert (Dj := Dav _ (pbound j Hj)). assert (Djk := Dav _ (pbound (j + k) ltac:(lia))).
    rewrite ol_lt in Hlt |- * by assumption. apply negb_true_iff in Hlt. apply negb_true_iff. destruct (nleb (av (nth (j + k) p 0)) x) eqn:Q; [|reflexivity].
    exfalso. assert (QQ : nleb (av (nth j p 0)) x = true); [|congruence]. apply (ol_trans _ (av (nth (j + k) p 0)) _); auto. apply sorted_le; lia.
  - rewrite <- (firstn_skipn (S j) p), filter_app, app_length. rewrite (filter_none _ (firstn (S j) p)).
    + cbn [length]. etransitivity; [apply filter_length_le'|]. rewrite skipn_length, plen. lia.
    + intros i Hi. apply (In_nth _ _ 0) in Hi. destruct Hi as (k & Hk & <-). rewrite firstn_length, plen in Hk.
      assert (Hnth : nth k (firstn (S j) p) 0 = nth k p 0).
      { rewrite <- (firstn_skipn (S j) p) at 2. rewrite app_nth1; [reflexivity|]. rewrite firstn_length, plen; lia. }
      rewrite Hnth. assert (Dj := Dav _ (pbound j Hj)). assert (Dk := Dav _ (pbound k ltac:(lia))).
      rewrite ol_lt in Hlt |- * by assumption. apply negb_false_iff in Hlt. apply negb_false_iff. apply (ol_trans _ (av (nth j p 0)) _); auto. apply sorted_le; lia.
Qed.
End Sorted.

Section Slim.
Context {T : Type} `{Num T} (D : T -> Prop) `{OL : !OrdLaws D}.

(** The value an entry of row r, column i keeps when k coefficients are asked for. *)
Definition slimmed (k n : nat) (b : nat -> nat -> T) (r i : nat) : T :=
  if larger n (fun s => nabs (b s i)) (nabs (b r i)) <=? k then b r i else nofZ 0.

Lemma raw1_mk n (f : nat -> nat -> T) : to_raw_copy_1D (mk n 1 f) = map (fun r => f r 0) (seq 0 n).
Proof.
  unfold to_raw_copy_1D. cbn [nc nr mk seq flat_map]. fold (mk n 1 f). rewrite app_nil_r. apply map_ext_in. intros r Hr. apply in_seq in Hr. now rewrite entry_mk by lia.
Qed.
Lemma slim_column_run k n c (b f : nat -> nat -> T) i : n <> 0 -> i < c -> (forall r, r < n -> f r i = b r i) -> (forall r, r < n -> D (nabs (b r i))) ->
  slim_column (Z.of_nat k) (map (fun row => map (fun col => b row col) (seq 0 c)) (seq 0 n)) (mk n c f) i =
  Ok (mk n c (fun r j => if j =? i then slimmed k n b r i else f r j)).
Proof.
  intros Hn Hi Hf HD. unfold slim_column, zn. rewrite get_column_mk by assumption. cbn [bind]. rewrite raw1_mk, map_map. rewrite map_length, seq_length.
  set (ld := map (fun r => nabs (f r i)) (seq 0 n)). assert (Ll : length ld = n) by (unfold ld; now rewrite map_length, seq_length).
  assert (Hld : forall s, s < n -> nth s ld n0 = nabs (b s i)).
  { intros s Hs. unfold ld. rewrite (nth_indep _ n0 (nabs (f 0 i))) by now rewrite map_length, seq_length. rewrite (map_nth (fun r => nabs (f r i)) (seq 0 n) 0 s). rewrite seq_nth by assumption. cbn. now rewrite Hf. }
  assert (Dl : Forall D ld). { apply Forall_forall. intros x Hx. apply (In_nth _ _ n0) in Hx. destruct Hx as (s & Hs & <-). rewrite Ll in Hs. rewrite Hld by assumption. auto. }
  destruct (C28_sort D ld (S n) Dl ltac:(lia)) as (srt & Es & Hsrt). rewrite Es. cbn [bind]. pose proof (plen ld srt Hsrt) as Ls. rewrite Ll in Ls. rewrite Ls.
  set (j := n - 1 - k). replace (Z.max (Z.of_nat n - 1 - Z.of_nat k) 0) with (Z.of_nat j) by lia.
  assert (Hj : j < n) by lia. rewrite (lget_nat srt j 0) by lia. cbn [bind]. pose proof (pbound ld srt Hsrt j) as Hb. rewrite Ll in Hb. specialize (Hb Hj).
  rewrite (lget_nat ld (nth j srt 0) n0) by lia. cbn [bind]. set (v := nth (nth j srt 0) ld n0).
  (* the comparison decides [larger] *)
  assert (Hcmp : forall r, r < n -> nltb (nabs (b r i)) v = negb (larger n (fun s => nabs (b s i)) (nabs (b r i)) <=? k)).
  { intros r Hr. destruct (below_iff D ld srt Dl Hsrt j (nabs (b r i))) as [H1 H2]; [lia|auto|]. rewrite Ll in H1, H2.
    assert (El : larger n (fun s => nth s ld n0) (nabs (b r i)) = larger n (fun s => nabs (b s i)) (nabs (b r i))).
    { unfold larger. f_equal. apply filter_ext_in. intros s Hs. apply in_seq in Hs. now rewrite Hld by lia. }
    rewrite El in H1, H2. unfold v. destruct (nltb (nabs (b r i)) (nth (nth j srt 0) ld n0)) eqn:Q.
    - specialize (H1 eq_refl). destruct (Nat.leb_spec (larger n (fun s => nabs (b s i)) (nabs (b r i))) k) as [Hle|]; [|reflexivity]. exfalso.
      (* n - j <= larger <= n - 1 since r itself is not larger *)
      assert (Hself : larger n (fun s => nabs (b s i)) (nabs (b r i)) <= n - 1).
      { unfold larger. replace n with (r + S (n - 1 - r)) at 1 by lia. rewrite seq_app, filter_app, app_length. cbn [seq filter plus].
        rewrite ol_lt by auto. rewrite ol_refl by auto. cbn [negb].
        pose proof (filter_length_le' (fun s => nltb (nabs (b r i)) (nabs (b s i))) (seq 0 r)). pose proof (filter_length_le' (fun s => nltb (nabs (b r i)) (nabs (b s i))) (seq (S r) (n - 1 - r))).
        rewrite seq_length in *. lia. }
      lia.
    - specialize (H2 eq_refl). destruct (Nat.leb_spec (larger n (fun s => nabs (b s i)) (nabs (b r i))) k) as [Hle|]; [reflexivity|]. lia. }
  cbn [nr mk]. fold (mk n c f).
  match goal with |- for_range n ?body ?init = _ =>
    destruct (for_range_inv (fun r x => x = mk n c (fun r' j' => if (r' <? r) && (j' =? i) then slimmed k n b r' i else f r' j')) body n init) as (x & Ex & ->) end.
  - apply mk_ext. reflexivity.
  - intros r x Hr ->. rewrite (lget_nat _ r []) by now rewrite map_length, seq_length. cbn [bind].
    rewrite (nth_indep _ [] (map (fun col => b 0 col) (seq 0 c))) by now rewrite map_length, seq_length.
    rewrite (map_nth (fun row => map (fun col => b row col) (seq 0 c)) (seq 0 n) 0 r), seq_nth by assumption. cbn [plus].
    rewrite (lget_nat _ i n0) by now rewrite map_length, seq_length. cbn [bind].
    rewrite (nth_indep _ n0 (b r 0)) by now rewrite map_length, seq_length. rewrite (map_nth (fun col => b r col) (seq 0 c) 0 i), seq_nth by assumption. cbn [plus].
    rewrite Hcmp by assumption. destruct (larger n (fun s => nabs (b s i)) (nabs (b r i)) <=? k) eqn:Q; cbn [negb].
    + eexists. split; [reflexivity|]. apply mk_ext. intros r' j' Hr' Hj'. destruct (Nat.eqb_spec j' i) as [->|]; [|now rewrite !andb_false_r]. rewrite !andb_true_r.
      destruct (Nat.ltb_spec r' r), (Nat.ltb_spec r' (S r)); try lia; try reflexivity. replace r' with r by lia. unfold slimmed. rewrite Q. now apply Hf.
    + rewrite set_mk by assumption. eexists. split; [reflexivity|]. apply mk_ext. intros r' j' Hr' Hj'. destruct (Nat.eqb_spec j' i) as [->|]; [|now rewrite !andb_false_r]. rewrite !andb_true_r.
      destruct (Nat.eqb_spec r' r) as [->|]; [|destruct (Nat.ltb_spec r' r), (Nat.ltb_spec r' (S r)); try lia; reflexivity].
      rewrite (proj2 (Nat.ltb_lt r (S r))) by lia. unfold slimmed. now rewrite Q.
  - rewrite Ex. f_equal. apply mk_ext. intros r j' Hr Hj'. now rewrite (proj2 (Nat.ltb_lt r n) Hr).
Qed.

(** slim: an entry is kept iff at most k entries of its column are larger in magnitude.
    So k + 1 coefficients survive where the property asks for k (C52_refuted).
    Missing from the full property: the bound k itself. *)
Theorem C52_slim_partial (k : nat) (m : mat T) : wf m -> nr m <> 0 -> (forall r i, r < nr m -> i < nc m -> D (nabs (entry m r i))) ->
  exists m', slim (Z.of_nat k) m = Ok m' /\ is_mat m' (nr m) (nc m) (fun r i =>
    if larger (nr m) (fun s => nabs (entry m s i)) (nabs (entry m r i)) <=? k then entry m r i else nofZ 0).
Proof.
  intros W Hn HD. exists (mk (nr m) (nc m) (slimmed k (nr m) (entry m))). split; [|apply is_mat_mk]. unfold slim.
  assert (EB : to_raw_copy_2D m = map (fun row => map (fun col => entry m row col) (seq 0 (nc m))) (seq 0 (nr m))) by reflexivity. rewrite EB.
  match goal with |- for_range ?c ?body ?init = _ =>
    destruct (for_range_inv (fun i x => x = mk (nr m) (nc m) (fun r j => if j <? i then slimmed k (nr m) (entry m) r j else entry m r j)) body c init) as (x & Ex & ->) end.
  - rewrite (wf_mk m W) at 1. apply mk_ext. reflexivity.
  - intros i x Hi ->. rewrite slim_column_run; auto.
    + eexists. split; [reflexivity|]. apply mk_ext. intros r j Hr Hj. destruct (Nat.eqb_spec j i) as [->|].
      * now rewrite (proj2 (Nat.ltb_lt i (S i))) by lia.
      * destruct (Nat.ltb_spec j i), (Nat.ltb_spec j (S i)); try lia; reflexivity.
    + intros r Hr. now rewrite Nat.ltb_irrefl.
  - rewrite Ex. f_equal. apply mk_ext. intros r j Hr Hj. now rewrite (proj2 (Nat.ltb_lt j (nc m)) Hj).
Qed.

(** Training: k <= 0 keeps every coefficient; k > 0 gives the same model with slimmed weights. *)
Theorem C52_training (eig : mat T -> res (list T * mat T)) (k : Z) (n : Z) (X Y W B Q : mat T) :
  simpls_fit eig 0 n X Y = Ok (W, B, Q) ->
  ((k <= 0)%Z -> simpls_fit eig k n X Y = Ok (W, B, Q)) /\
  ((0 < k)%Z -> simpls_fit eig k n X Y = (do W' <- slim k W; do B' <- mul W' (transpose Q); Ok (W', B', Q))).
Proof.
  unfold simpls_fit. destruct (simpls_loop eig n X Y) as [[[[[[A M] C] W0] P] Q0]|e]; cbn [bind]; [|discriminate]. change (0 <? 0)%Z with false. cbv iota. cbn [bind].
  destruct (mul W0 (transpose Q0)) as [B0|e] eqn:EB; cbn [bind]; [|discriminate]. intros [= <- <- <-]. split; intros Hk.
  - destruct (Z.ltb_spec 0 k); [lia|]. cbn [bind]. rewrite EB. reflexivity.
  - destruct (Z.ltb_spec 0 k); [|lia]. reflexivity.
Qed.
End Slim.

(** What is kept is at least as large in magnitude as what is dropped (reals). *)
Theorem C52_largest (k : nat) (m m' : mat R) : wf m -> nr m <> 0 -> slim (Z.of_nat k) m = Ok m' ->
  forall i r s, i < nc m -> r < nr m -> s < nr m -> entry m' r i <> 0%R -> entry m' s i <> entry m s i ->
    (Rabs (entry m s i) <= Rabs (entry m r i))%R.
Proof.
  intros W Hn E i r s Hi Hr Hs Kr Ks. destruct (C52_slim_partial (fun _ : R => True) k m W Hn) as (m0 & E0 & _ & _ & _ & Hm); [auto|]. rewrite E in E0. injection E0 as <-.
  rewrite Hm in Kr by assumption. rewrite Hm in Ks by assumption.
  destruct (Nat.leb_spec (larger (nr m) (fun s => nabs (entry m s i)) (nabs (entry m r i))) k) as [Lr|Lr]; [|exfalso; apply Kr; reflexivity].
  destruct (Nat.leb_spec (larger (nr m) (fun s => nabs (entry m s i)) (nabs (entry m s i))) k) as [Ls|Ls]; [now elim Ks|].
  destruct (Rle_lt_dec (Rabs (entry m s i)) (Rabs (entry m r i))) as [|Hlt]; [assumption|exfalso].
  assert (larger (nr m) (fun s => nabs (entry m s i)) (nabs (entry m s i)) <= larger (nr m) (fun s => nabs (entry m s i)) (nabs (entry m r i))); [|lia].
  unfold larger. apply NoDup_incl_length; [apply NoDup_filter, seq_NoDup|]. intros z Hz. apply filter_In in Hz as [Hz1 Hz2]. apply filter_In. split; [assumption|].
  cbn [nltb nabs NumR] in *. apply Rltb_true in Hz2. apply Rltb_true. lra.
Qed.

(** The off-by-one, for every matrix: a column with at least k+1 non-zero coefficients keeps at
    least k+1 of them. *)
Theorem C52_refuted_always (k : nat) (m m' : mat R) (i : nat) (l : list nat) : wf m -> nr m <> 0 -> i < nc m ->
  slim (Z.of_nat k) m = Ok m' ->
  NoDup l -> length l = k + 1 -> (forall r, In r l -> r < nr m /\ entry m r i <> 0%R) ->
  exists l', NoDup l' /\ length l' = k + 1 /\ forall r, In r l' -> r < nr m /\ entry m' r i = entry m r i /\ entry m' r i <> 0%R.
Proof.
  intros W Hn Hi E Nl Ll Hl. destruct (C52_slim_partial (fun _ : R => True) k m W Hn) as (m0 & E0 & _ & _ & _ & Hm); [auto|]. rewrite E in E0. injection E0 as <-.
  set (n := nr m) in *. set (ld := map (fun s => Rabs (entry m s i)) (seq 0 n)).
  assert (Lld : length ld = n) by (unfold ld; now rewrite map_length, seq_length).
  assert (Hld : forall s, s < n -> nth s ld n0 = Rabs (entry m s i)).
  { intros s Hs. unfold ld. rewrite (nth_indep _ n0 (Rabs (entry m 0 i))) by now rewrite map_length, seq_length. rewrite (map_nth (fun s => Rabs (entry m s i)) (seq 0 n) 0 s). now rewrite seq_nth. }
  assert (Dl : Forall (fun _ : R => True) ld) by now apply Forall_forall.
  assert (Hkn : k + 1 <= n).
  { rewrite <- Ll. rewrite <- (seq_length n 0). apply NoDup_incl_length; [assumption|]. intros r Hr. apply in_seq. specialize (Hl r Hr). lia. }
  destruct (C28_sort (fun _ : R => True) ld (S n) Dl ltac:(lia)) as (srt & _ & Hsrt). pose proof (plen ld srt Hsrt) as Ls. rewrite Lld in Ls.
  assert (El : forall x, larger n (fun s => nth s ld n0) x = larger n (fun s => nabs (entry m s i)) x).
  { intros x. unfold larger. f_equal. apply filter_ext_in. intros s Hs. apply in_seq in Hs. now rewrite Hld by lia. }
  set (j := n - 1 - k). assert (Hj : j < n) by lia.
  assert (Hv : (0 < nth (nth j srt 0%nat) ld n0)%R).
  { destruct (below_iff (fun _ : R => True) ld srt Dl Hsrt j 0%R ltac:(lia) Logic.I) as [_ H2]. rewrite Lld in H2.
    destruct (nltb 0%R (nth (nth j srt 0) ld n0)) eqn:Q; [now apply Rltb_true in Q|exfalso]. specialize (H2 eq_refl). rewrite El in H2.
    assert (length l <= larger n (fun s => nabs (entry m s i)) 0%R); [|lia]. unfold larger. apply NoDup_incl_length; [assumption|]. intros r Hr. apply filter_In. destruct (Hl r Hr).
    split; [apply in_seq; lia|]. cbn [nltb nabs NumR]. apply Rltb_true. now apply Rabs_pos_lt. }
  exists (skipn j srt). split; [|split].
  - assert (ND : NoDup srt) by (eapply Permutation_NoDup; [apply Permutation_sym, (proj1 Hsrt)|apply seq_NoDup]).
    rewrite <- (firstn_skipn j srt) in ND. revert ND. generalize (skipn j srt). induction (firstn j srt) as [|z u IH]; cbn [app]; intros v0 ND; [exact ND|]. inversion ND; auto.
  - rewrite skipn_length. lia.
  - intros r Hr. apply (In_nth _ _ 0) in Hr. destruct Hr as (q & Hq & Er). rewrite skipn_length, Ls in Hq.
    assert (Hnth : nth q (skipn j srt) 0 = nth (j + q) srt 0).
    { rewrite <- (firstn_skipn j srt) at 2. rewrite app_nth2; rewrite firstn_length, Ls; [f_equal; lia|lia]. }
    rewrite Hnth in Er. pose proof (pbound ld srt Hsrt (j + q)) as Hb. rewrite Lld in Hb. specialize (Hb ltac:(lia)). rewrite Er in Hb.
    assert (Hge : (nth (nth j srt 0%nat) ld n0 <= Rabs (entry m r i))%R).
    { rewrite <- Hld, <- Er by assumption. apply Rleb_true. apply (sorted_le (fun _ : R => True) ld srt Dl Hsrt); lia. }
    assert (Hkeep : larger n (fun s => nabs (entry m s i)) (nabs (entry m r i)) <= k).
    { destruct (below_iff (fun _ : R => True) ld srt Dl Hsrt j (Rabs (entry m r i)) ltac:(lia) Logic.I) as [_ H2]. rewrite Lld, El in H2.
      assert (nltb (Rabs (entry m r i)) (nth (nth j srt 0) ld n0) = false) as Q by (apply Rltb_false; lra). specialize (H2 Q). cbn [nabs NumR] in *. lia. }
    rewrite Hm by assumption. rewrite (proj2 (Nat.leb_le _ _) Hkeep). split; [assumption|]. split; [reflexivity|]. intros Q0. rewrite Q0, Rabs_R0 in Hge. lra.
Qed.

(** One coefficient asked for, two kept. *)
Definition exF (z : Z) : f64 := nofZ z.
Theorem C52_refuted : slim 1 (Mat 3 1 [[exF 1]; [exF (-3)]; [exF 2]]) = Ok (Mat 3 1 [[exF 0]; [exF (-3)]; [exF 2]]).
Proof. vm_compute. reflexivity. Qed.
Example C52_ex : wf (Mat 3 1 [[exF 1]; [exF (-3)]; [exF 2]]) /\ (forall r i, r < 3 -> i < 1 -> not_nan (nabs (entry (Mat 3 1 [[exF 1]; [exF (-3)]; [exF 2]]) r i))).
Proof. split; [vm_compute; split; repeat constructor|]. intros r i Hr Hi. assert (i = 0) by lia. subst. destruct r as [|[|[|r]]]; try lia; vm_compute; discriminate. Qed.
Example C52_ex_training : exists W B Q,
  simpls_fit (fun m => Ok ([exF 1], Mat 1 1 [[exF 1]])) 0 1 (Mat 3 3 [[exF 1; exF 0; exF 0]; [exF 0; exF 2; exF 0]; [exF 0; exF 0; exF 3]]) (Mat 3 1 [[exF 1]; [exF 1]; [exF 1]]) = Ok (W, B, Q) /\
  simpls_fit (fun m => Ok ([exF 1], Mat 1 1 [[exF 1]])) 1 1 (Mat 3 3 [[exF 1; exF 0; exF 0]; [exF 0; exF 2; exF 0]; [exF 0; exF 0; exF 3]]) (Mat 3 1 [[exF 1]; [exF 1]; [exF 1]]) <> Ok (W, B, Q).
Proof. eexists. eexists. eexists. split; [vm_compute; reflexivity|]. vm_compute. discriminate. Qed.
Print Assumptions C52_slim_partial.
Print Assumptions C52_training.
Print Assumptions C52_largest.
Print Assumptions C52_refuted_always.
Print Assumptions C52_refuted.
