(** Properties C09-C14 and C62: reductions, predicates, element functions,
    NaN detection, equality, tolerance comparison, norms. *)
From Coq Require Import List ZArith Lia Bool Arith Reals Lra Sorted SpecFloat.
From Verif Require Import Base Num Mat M_Matrix M_Factory M_Helper S_Matrix L_Base L_Mat L_Matrix L_MatR L_Order L_Float P_Matrix.
Import ListNotations.
Local Open Scope nat_scope.

(** * C09 *)
Definition total (m : mat R) : R := Rsum (nr m) (fun i => Rsum (nc m) (fun j => entry m i j)).

Lemma total_sumn m : total m = sumn (nr m) (fun i => sumn (nc m) (fun j => entry m i j)).
Proof. unfold total. rewrite Rsum_sumn. apply sumn_ext. intros. now rewrite Rsum_sumn. Qed.

Theorem C09_sum (m : mat R) :
  sum m None = Ok (inl (total m)) /\
  sum m (Some (-1)%Z) = Ok (inr (Mat 1 1 [[total m]])) /\
  (exists s0, sum m (Some 0%Z) = Ok (inr s0) /\
     is_mat s0 1 (nc m) (fun _ j => Rsum (nr m) (fun i => entry m i j)) /\ total s0 = total m) /\
  (exists s1, sum m (Some 1%Z) = Ok (inr s1) /\
     is_mat s1 (nr m) 1 (fun i _ => Rsum (nc m) (fun j => entry m i j)) /\ total s1 = total m) /\
  (forall a, a <> (-1)%Z -> a <> 0%Z -> a <> 1%Z -> sum m (Some a) = Err ValueError).
Proof.
  assert (E : sum_all m = total m) by (rewrite total_sumn; apply sum_all_swap).
  repeat split.
  - cbn. now rewrite E.
  - cbn. now rewrite E.
  - exists (sum_axis0 m). split; [reflexivity|]. split.
    + apply is_mat_mk_ext. intros. now rewrite Rsum_sumn.
    + rewrite !total_sumn. unfold sum_axis0. autorewrite with sh. cbn [sumn]. cbn [nadd n0 NumR]. rewrite Rplus_0_l.
      rewrite sumR_swap. apply sumn_ext. intros j Hj. now rewrite entry_mk by lia.
  - exists (sum_axis1 m). split; [reflexivity|]. split.
    + unfold sum_axis1, transpose. autorewrite with sh. apply is_mat_mk_ext. intros. rewrite entry_mk by lia. now rewrite Rsum_sumn.
    + rewrite !total_sumn. unfold sum_axis1. autorewrite with sh. apply sumn_ext. intros i Hi.
      cbn [sumn]. cbn [nadd n0 NumR]. rewrite Rplus_0_l. rewrite transpose_entry by (autorewrite with sh; lia).
      now rewrite entry_mk by lia.
  - intros a H1 H2 H3. unfold sum. apply Z.eqb_neq in H1, H2, H3. now rewrite H1, H2, H3.
Qed.

Theorem C09_mean (m : mat R) : nr m <> 0 -> nc m <> 0 ->
  mean m None = Ok (inl (total m / INR (nr m * nc m)))%R /\
  mean m (Some (-1)%Z) = Ok (inr (Mat 1 1 [[(total m / INR (nr m * nc m))%R]])) /\
  (exists s0, mean m (Some 0%Z) = Ok (inr s0) /\
     is_mat s0 1 (nc m) (fun _ j => (Rsum (nr m) (fun i => entry m i j) / INR (nr m))%R)) /\
  (exists s1, mean m (Some 1%Z) = Ok (inr s1) /\
     is_mat s1 (nr m) 1 (fun i _ => (Rsum (nc m) (fun j => entry m i j) / INR (nc m))%R)) /\
  (forall a, a <> (-1)%Z -> a <> 0%Z -> a <> 1%Z -> mean m (Some a) = Err InvalidAxisError).
Proof.
  intros _ _. unfold mean. cbn [Z.eqb Pos.eqb]. rewrite total_sumn. cbn [ndiv NumR nofZ]. rewrite <- INR_IZR_INZ.
  repeat split; auto.
  - eexists. split; [reflexivity|]. apply is_mat_mk_ext. intros. now rewrite Rsum_sumn, <- INR_IZR_INZ.
  - eexists. split; [reflexivity|]. unfold transpose. autorewrite with sh. apply is_mat_mk_ext.
    intros. rewrite entry_mk by lia. now rewrite Rsum_sumn, <- INR_IZR_INZ.
  - intros a H1 H2 H3. apply Z.eqb_neq in H1, H2, H3. now rewrite H1, H2, H3.
Qed.

Theorem C09_trace (m : mat R) :
  trace m = Rsum (Nat.min (nr m) (nc m)) (fun i => entry m i i) /\
  trace (transpose m) = trace m /\
  (forall b mb bm, mul m b = Ok mb -> mul b m = Ok bm -> trace mb = trace bm).
Proof.
  split; [rewrite Rsum_sumn; apply trace_sum|]. split; [apply trace_transpose|].
  unfold mul, is_multiplicable_with. intros b mb bm.
  destruct (Nat.eqb_spec (nc m) (nr b)); [|discriminate]. destruct (Nat.eqb_spec (nc b) (nr m)); [|discriminate].
  cbn [negb]. intros [= <-] [= <-]. now apply trace_matmul_comm.
Qed.

Example C09_ex : sum exA (Some 0%Z) = Ok (inr (Mat 1 3 [[exF 5; exF 7; exF 9]])) /\
  sum exA (Some 1%Z) = Ok (inr (Mat 2 1 [[exF 6]; [exF 15]])) /\ sum exA None = Ok (inl (exF 21)) /\
  sum exA (Some 2%Z) = Err ValueError /\ trace exA = exF 6.
Proof. repeat split; vm_compute; reflexivity. Qed.
Print Assumptions C09_sum.
Print Assumptions C09_mean.
Print Assumptions C09_trace.

(** * C10 *)
Theorem C10_which {T} `{Num T} (m : mat T) (f : T -> bool) :
  (forall i j, In (i, j) (which m f) <-> i < nr m /\ j < nc m /\ f (entry m i j) = true) /\
  StronglySorted rm_lt (which m f) /\ NoDup (which m f) /\
  (any m f = true <-> which m f <> []) /\
  (all m f = true <-> which m (fun x => negb (f x)) = []) /\
  (any m f = true <-> exists i j, i < nr m /\ j < nc m /\ f (entry m i j) = true) /\
  (all m f = true <-> forall i j, i < nr m -> j < nc m -> f (entry m i j) = true).
Proof.
  assert (HA : any m f = true <-> which m f <> []).
  { rewrite any_iff. split.
    - intros (i & j & Hij) He. apply which_In in Hij. rewrite He in Hij. destruct Hij.
    - intros Hn. destruct (which m f) as [|[i j] l] eqn:E; [congruence|]. exists i, j. apply which_In. rewrite E. now left. }
  split; [intros; apply which_In|]. split; [apply which_sorted|]. split.
  { pose proof (which_sorted m f) as Hs. clear HA. induction Hs as [|p l Hs IH Hp]; constructor; auto.
    intros Hin. rewrite Forall_forall in Hp. specialize (Hp _ Hin). unfold rm_lt in Hp. lia. }
  split; [exact HA|]. split; [|split; [apply any_iff | apply all_iff]].
  rewrite all_iff. split.
  - intros Hall. destruct (which m (fun x => negb (f x))) as [|[i j] l] eqn:E; auto.
    assert (Hin : In (i, j) (which m (fun x => negb (f x)))) by (rewrite E; now left).
    apply which_In in Hin. destruct Hin as (Hi & Hj & Hf). now rewrite Hall in Hf.
  - intros Hn i j Hi Hj. destruct (f (entry m i j)) eqn:E; auto.
    assert (Hin : In (i, j) (which m (fun x => negb (f x)))) by (apply which_In; rewrite E; auto).
    rewrite Hn in Hin. destruct Hin.
Qed.

Theorem C10_where_vector {T} `{Num T} (m : mat T) (f : T -> bool) :
  (forall l, where_vector m f = Ok l ->
     vector_shaped m /\ StronglySorted lt l /\ forall k, In k l <-> k < vec_len m /\ f (vec_at m k) = true) /\
  (forall e, where_vector m f = Err e <-> e = ValueError /\ ~ vector_shaped m).
Proof. split; intros; [now apply where_vector_ok | apply where_vector_err]. Qed.

Example C10_ex : which exA (fun x => SFltb (exF 2) x) = [(0, 2); (1, 0); (1, 1); (1, 2)] /\
  where_vector (Mat 1 3 [[exF 3; exF 1; exF 2]]) (fun x => SFltb (exF 1) x) = Ok [0; 2] /\
  where_vector exA (fun _ => true) = Err ValueError.
Proof. repeat split; vm_compute; reflexivity. Qed.
Print Assumptions C10_which.
Print Assumptions C10_where_vector.

(** * C11 *)
Lemma clip_el_idem {T} `{Num T} (D : T -> Prop) {OL : OrdLaws D} lo hi x : D lo -> D hi -> nltb hi lo = false ->
  clip_el lo hi (clip_el lo hi x) = clip_el lo hi x.
Proof.
  intros Dl Dh Hb. unfold clip_el. destruct (nltb x lo) eqn:E1; [|destruct (nltb hi x) eqn:E2].
  - rewrite (ol_lt_irrefl D) by assumption. now rewrite Hb.
  - now rewrite Hb, (ol_lt_irrefl D) by assumption.
  - now rewrite E1, E2.
Qed.

(** For exact reals (D = everything) and for binary64 (D = everything but NaN). *)
Theorem C11_clip {T} `{Num T} (D : T -> Prop) {OL : OrdLaws D} (m : mat T) (lo hi : T) : D lo -> D hi ->
  (nltb hi lo = true -> clip m lo hi = Err MatrixAlgorithmsError) /\
  (nleb lo hi = true -> exists m', clip m lo hi = Ok m' /\ wf m' /\ nr m' = nr m /\ nc m' = nc m /\
     (forall i j, i < nr m -> j < nc m -> D (entry m i j) ->
        nleb lo (entry m' i j) = true /\ nleb (entry m' i j) hi = true /\
        (entry m' i j = entry m i j \/ (entry m' i j = lo /\ nltb (entry m i j) lo = true)
                                     \/ (entry m' i j = hi /\ nltb hi (entry m i j) = true)) /\
        (nleb lo (entry m i j) = true -> nleb (entry m i j) hi = true -> entry m' i j = entry m i j)) /\
     clip m' lo hi = Ok m').
Proof.
  intros Dl Dh. split; [intros Hb; unfold clip; now rewrite Hb|]. intros Hle.
  assert (Hb : nltb hi lo = false) by (apply (ol_le_nlt D); assumption).
  exists (apply_elementwise m (clip_el lo hi)). unfold clip. rewrite Hb. split; [reflexivity|].
  split; [apply mk_wf|]. split; [reflexivity|]. split; [reflexivity|]. split.
  - intros i j Hi Hj Dx. unfold apply_elementwise. rewrite entry_map_mat by assumption.
    set (x := entry m i j) in *. unfold clip_el.
    destruct (nltb x lo) eqn:E1; [|destruct (nltb hi x) eqn:E2].
    + repeat split; auto. { now apply ol_refl. }
      intros Q. rewrite (ol_lt (D:=D)) in E1 by assumption. now rewrite Q in E1.
    + repeat split; auto. { now apply ol_refl. }
      intros _ Q. rewrite (ol_lt (D:=D)) in E2 by assumption. now rewrite Q in E2.
    + repeat split; auto; apply (ol_nlt_le D); assumption.
  - f_equal. unfold apply_elementwise. apply mat_ext; try apply mk_wf; try reflexivity.
    intros i j Hi Hj. autorewrite with sh in Hi, Hj. rewrite !entry_map_mat by (autorewrite with sh; assumption).
    now apply (clip_el_idem D).
Qed.
Theorem C11_clip_real (m : mat R) (lo hi : R) :
  ((hi < lo)%R -> clip m lo hi = Err MatrixAlgorithmsError) /\
  ((lo <= hi)%R -> exists m', clip m lo hi = Ok m' /\
     is_mat m' (nr m) (nc m) (fun i j => Rmax lo (Rmin hi (entry m i j))) /\ clip m' lo hi = Ok m').
Proof.
  destruct (C11_clip (fun _ => True) m lo hi I I) as [H1 H2]. split.
  - intros Hb. apply H1. now apply Rltb_true.
  - intros Hb. destruct H2 as (m' & E & W & N1 & N2 & Hent & Hid); [now apply Rleb_true|].
    exists m'. split; auto. split; auto. repeat split; try apply W; auto. intros i j Hi Hj.
    destruct (Hent i j Hi Hj I) as (A1 & A2 & A3 & A4). cbn in *. rewrite !Rleb_true, !Rltb_true in *.
    unfold Rmax, Rmin. destruct (Rle_dec hi (entry m i j)), (Rle_dec lo _); destruct A3 as [A3|[[A3 ?]|[A3 ?]]]; lra.
Qed.

(** One-sided clipping in binary64, where the other bound is an infinity. *)
Theorem C11_clip_one_sided (m : mat f64) (b : f64) : not_nan b ->
  (exists m', clip_lower f_inf m b = Ok m' /\ nr m' = nr m /\ nc m' = nc m /\
     forall i j, i < nr m -> j < nc m -> not_nan (entry m i j) ->
       nleb b (entry m' i j) = true /\ (nleb b (entry m i j) = true -> entry m' i j = entry m i j)) /\
  (exists m', clip_upper f_ninf m b = Ok m' /\ nr m' = nr m /\ nc m' = nc m /\
     forall i j, i < nr m -> j < nc m -> not_nan (entry m i j) ->
       nleb (entry m' i j) b = true /\ (nleb (entry m i j) b = true -> entry m' i j = entry m i j)).
Proof.
  intros Hb. assert (Hinf : forall x, not_nan x -> SFleb x f_inf = true).
  { intros [[]|[]| |[] ? ?] Hx; cbn; auto; now destruct Hx. }
  assert (Hninf : forall x, not_nan x -> SFleb f_ninf x = true).
  { intros [[]|[]| |[] ? ?] Hx; cbn; auto; now destruct Hx. }
  split.
  - destruct (C11_clip not_nan m b f_inf Hb ltac:(discriminate)) as [_ H2].
    destruct H2 as (m' & E & W & N1 & N2 & Hent & _); [now apply Hinf|]. exists m'. split; auto. split; auto. split; auto.
    intros i j Hi Hj Hn. destruct (Hent i j Hi Hj Hn) as (Q1 & Q2 & _ & Q3). split; auto.
  - destruct (C11_clip not_nan m f_ninf b ltac:(discriminate) Hb) as [_ H2].
    destruct H2 as (m' & E & W & N1 & N2 & Hent & _); [now apply Hninf|]. exists m'. split; auto. split; auto. split; auto.
    intros i j Hi Hj Hn. destruct (Hent i j Hi Hj Hn) as (Q1 & Q2 & _ & Q3). split; auto.
Qed.

(** NaN entries survive clipping with any bounds and become 0 under sign. *)
Theorem C11_nan (m : mat f64) (lo hi : f64) (i j : nat) : i < nr m -> j < nc m -> entry m i j = S754_nan ->
  (forall m', clip m lo hi = Ok m' -> entry m' i j = S754_nan) /\
  entry (sign m) i j = S754_zero false /\ entry (abs m) i j = S754_nan.
Proof.
  intros Hi Hj He. split.
  - intros m'. unfold clip. destruct (nltb hi lo); [discriminate|]. intros [= <-].
    unfold apply_elementwise. rewrite entry_map_mat by assumption. rewrite He. unfold clip_el. cbn [nltb NumF].
    destruct (nan_cmp lo) as (E & _). destruct (nan_cmp hi) as (_ & E' & _). unfold f_nan in *. now rewrite E, E'.
  - unfold sign, abs, apply_elementwise. rewrite !entry_map_mat by assumption. rewrite He. split; reflexivity.
Qed.

Theorem C11_sign_abs (m : mat R) :
  is_mat (abs m) (nr m) (nc m) (fun i j => Rabs (entry m i j)) /\
  (exists m', mul_elementwise (sign m) (abs m) = Ok m' /\ is_mat m' (nr m) (nc m) (entry m)) /\
  (forall i j, i < nr m -> j < nc m ->
     (entry (sign m) i j = 1%R <-> (entry m i j > 0)%R) /\ (entry (sign m) i j = (-1)%R <-> (entry m i j < 0)%R) /\
     (entry (sign m) i j = 0%R <-> entry m i j = 0%R)).
Proof.
  assert (Habs : forall x, abs_el x = Rabs x).
  { intros x. unfold abs_el. cbn. unfold Rltb. destruct (Rlt_dec x 0); [rewrite Rabs_left|rewrite Rabs_right]; lra. }
  assert (Hsg : forall x, (x < 0 /\ sign_el x = -1 \/ x = 0 /\ sign_el x = 0 \/ x > 0 /\ sign_el x = 1)%R).
  { intros x. unfold sign_el. cbn. unfold Rltb. destruct (Rlt_dec x 0), (Rlt_dec 0 x); auto. right; left. split; lra. }
  split; [|split].
  - apply is_mat_mk_ext. intros. apply Habs.
  - destruct (mul_elementwise_spec (sign m) (abs m)) as [HS _].
    destruct HS as (m' & E & HM); [split; reflexivity|]. exists m'. split; auto.
    destruct HM as (W & N1 & N2 & HM). repeat split; try apply W; auto. intros i j Hi Hj.
    rewrite HM by assumption. unfold sign, abs, apply_elementwise. rewrite !entry_map_mat by assumption.
    rewrite Habs. cbn. destruct (Hsg (entry m i j)) as [[Q ->]|[[Q ->]|[Q ->]]];
      [rewrite Rabs_left by lra|rewrite Q|rewrite Rabs_right by lra]; lra.
  - intros i j Hi Hj. unfold sign, apply_elementwise. rewrite entry_map_mat by assumption.
    destruct (Hsg (entry m i j)) as [[Q ->]|[[Q ->]|[Q ->]]]; lra.
Qed.

Example C11_ex : clip exA (exF 2) (exF 4) = Ok (Mat 2 3 [[exF 2; exF 2; exF 3]; [exF 4; exF 4; exF 4]]) /\
  clip exA (exF 4) (exF 2) = Err MatrixAlgorithmsError /\ not_nan (exF 2) /\
  sign (Mat 1 3 [[exF (-3); f_nan; exF 7]]) = Mat 1 3 [[exF (-1); exF 0; exF 1]].
Proof. repeat split; try (vm_compute; reflexivity). vm_compute. discriminate. Qed.
Print Assumptions C11_clip.
Print Assumptions C11_clip_real.
Print Assumptions C11_clip_one_sided.
Print Assumptions C11_nan.
Print Assumptions C11_sign_abs.

(** * C12: refuted.  contains_NaN is false for every matrix. *)
Theorem C12_contains_NaN_always_false (m : mat f64) : contains_NaN f_nan m = false.
Proof.
  destruct (contains_NaN f_nan m) eqn:E; auto. apply any_iff in E. destruct E as (i & j & _ & _ & E).
  cbn in E. destruct (nan_cmp (entry m i j)) as (_ & _ & _ & _ & Q & _). congruence.
Qed.
(** The property holds exactly for the matrices without NaN. *)
Theorem C12_characterisation (m : mat f64) :
  (contains_NaN f_nan m = true <-> exists i j, i < nr m /\ j < nc m /\ entry m i j = S754_nan) <->
  (forall i j, i < nr m -> j < nc m -> entry m i j <> S754_nan).
Proof.
  rewrite C12_contains_NaN_always_false. split.
  - intros Hiff i j Hi Hj He. destruct Hiff as [_ H2]. discriminate H2. eauto.
  - intros Hn. split; [discriminate|]. intros (i & j & Hi & Hj & He). now apply Hn in He.
Qed.
Theorem C12_refuted :
  ~ (forall m : mat f64, wf m ->
       (contains_NaN f_nan m = true <-> exists i j, i < nr m /\ j < nc m /\ entry m i j = S754_nan)).
Proof.
  intros Hall. specialize (Hall (Mat 1 1 [[f_nan]])). destruct Hall as [_ H2]; [now apply wfb_wf|].
  discriminate H2. exists 0, 0. cbn. auto.
Qed.
Print Assumptions C12_refuted.
Print Assumptions C12_characterisation.

(** * C13 *)
(** Every outcome of ==, on binary64 matrices (valid bit patterns): it raises
    InvalidShapeError exactly when the shapes differ, and is true exactly when every
    pair of entries is finite and has the same value (so +0 = -0). *)
Definition valid_mat (m : mat f64) : Prop := wf m /\ forall i j, i < nr m -> j < nc m -> valid_f (entry m i j).

Lemma existsb_rows {T} `{Num T} (m : mat T) (f : T -> bool) : wf m ->
  (existsb (existsb f) (rws m) = true <-> exists i j, i < nr m /\ j < nc m /\ f (entry m i j) = true).
Proof.
  intros Hw. destruct Hw as [W1 W2]. rewrite existsb_exists. split.
  - intros (r & Hr & Hx). apply existsb_exists in Hx. destruct Hx as (x & Hx & Hf).
    apply (In_nth _ _ []) in Hr. destruct Hr as (i & Hi & <-).
    apply (In_nth _ _ n0) in Hx. destruct Hx as (j & Hj & <-).
    pose proof (Forall_nth' _ _ [] i W2 Hi) as Hl. cbn beta in Hl.
    exists i, j. unfold entry. repeat split; auto; lia.
  - intros (i & j & Hi & Hj & Hf). assert (Hi' : i < length (rws m)) by lia.
    pose proof (Forall_nth' _ _ [] i W2 Hi') as Hl. cbn beta in Hl.
    exists (nth i (rws m) []). split; [now apply nth_In|]. apply existsb_exists.
    exists (entry m i j). split; auto. apply nth_In. lia.
Qed.

Lemma eq_mat_true {T} `{Num T} (a b : mat T) :
  (~ same_shape a b -> eq_mat a b = Err InvalidShapeError) /\
  (same_shape a b -> exists r, eq_mat a b = Ok r /\
     (r = true <-> forall i j, i < nr a -> j < nc a -> neqb (nsub (entry a i j) (entry b i j)) n0 = true)).
Proof.
  unfold eq_mat. destruct (sub_spec a b) as [S1 S2]. split.
  - intros Hs. now rewrite S2.
  - intros Hs. destruct (S1 Hs) as (d & E & W & N1 & N2 & Hd). rewrite E. cbn [bind]. eexists. split; [reflexivity|].
    rewrite negb_true_iff. split.
    + intros Hn i j Hi Hj. destruct (neqb (nsub (entry a i j) (entry b i j)) n0) eqn:Q; auto.
      assert (existsb (existsb truthy) (rws d) = true); [|congruence].
      apply existsb_rows; auto. exists i, j. rewrite N1, N2. repeat split; auto. unfold truthy. now rewrite Hd, Q.
    + intros Hall. destruct (existsb (existsb truthy) (rws d)) eqn:Q; auto.
      apply existsb_rows in Q; auto. destruct Q as (i & j & Hi & Hj & Hf). rewrite N1 in Hi. rewrite N2 in Hj.
      rewrite Hd in Hf by assumption. unfold truthy in Hf. now rewrite Hall in Hf.
Qed.

Theorem C13_eq (a b : mat f64) : valid_mat a -> valid_mat b ->
  (eq_mat a b = Err InvalidShapeError <-> ~ same_shape a b) /\
  (forall e, eq_mat a b = Err e -> e = InvalidShapeError) /\
  (eq_mat a b = Ok true <-> same_shape a b /\ forall i j, i < nr a -> j < nc a ->
     finite_f (entry a i j) /\ finite_f (entry b i j) /\ f2r (entry a i j) = f2r (entry b i j)).
Proof.
  intros [Wa Va] [Wb Vb]. destruct (eq_mat_true a b) as [E1 E2].
  assert (Hdec : same_shape a b \/ ~ same_shape a b) by (unfold same_shape; lia).
  destruct Hdec as [Hs|Hs].
  - destruct (E2 Hs) as (r & -> & Hr). split; [|split].
    + split; [discriminate|tauto].
    + discriminate.
    + split.
      * intros [= ->]. split; auto. intros i j Hi Hj. pose proof (proj1 Hr eq_refl i j Hi Hj) as Q.
        cbn in Q. destruct Hs as [S1 S2].
        assert (F : finite_f (entry a i j) /\ finite_f (entry b i j)).
        { destruct (entry a i j) eqn:Ea, (entry b i j) eqn:Eb; cbn [finite_f]; auto;
            exfalso; rewrite SFsub_nonfinite in Q; try discriminate; cbn; auto. }
        destruct F as [F1 F2]. split; auto. split; auto.
        apply SFsub_zero_iff; auto. apply Vb; lia.
      * intros [_ Hall]. f_equal. apply Hr. intros i j Hi Hj. destruct (Hall i j Hi Hj) as (F1 & F2 & F3).
        destruct Hs as [S1 S2]. cbn. apply SFsub_zero_iff; auto. apply Vb; lia.
  - rewrite (E1 Hs). split; [tauto|]. split; [congruence|]. split; [discriminate|tauto].
Qed.

(** A matrix equals its copy exactly when all its entries are finite. *)
Theorem C13_copy (m : mat f64) : valid_mat m ->
  (eq_mat m (copy m) = Ok true <-> forall i j, i < nr m -> j < nc m -> finite_f (entry m i j)).
Proof.
  intros Hv. destruct (C13_eq m (copy m) Hv Hv) as (_ & _ & H3). rewrite H3. unfold copy. split.
  - intros [_ Hall] i j Hi Hj. now apply Hall.
  - intros Hall. split; [split; reflexivity|]. auto.
Qed.

(** Symmetry and transitivity of the relation "== returns True". *)
Theorem C13_sym_trans (a b c : mat f64) : valid_mat a -> valid_mat b -> valid_mat c ->
  eq_mat a b = eq_mat b a /\
  (eq_mat a b = Ok true -> eq_mat b c = Ok true -> eq_mat a c = Ok true).
Proof.
  intros Ha Hb Hc.
  destruct (C13_eq a b Ha Hb) as (A1 & A2 & A3). destruct (C13_eq b a Hb Ha) as (B1 & B2 & B3).
  destruct (C13_eq b c Hb Hc) as (_ & _ & C3). destruct (C13_eq a c Ha Hc) as (_ & _ & D3). split.
  - assert (Hsym : eq_mat a b = Ok true <-> eq_mat b a = Ok true).
    { rewrite A3, B3. split; intros [[S1 S2] Hall]; (split; [split; congruence|]); intros i j Hi Hj;
      destruct (Hall i j ltac:(lia) ltac:(lia)) as (Q1 & Q2 & Q3); auto. }
    destruct (eq_mat_true a b) as [E1 E2]. destruct (eq_mat_true b a) as [F1 F2].
    assert (Hdec : same_shape a b \/ ~ same_shape a b) by (unfold same_shape; lia). destruct Hdec as [Hs|Hs].
    + assert (Hs' : same_shape b a) by (destruct Hs; split; congruence).
      destruct (E2 Hs) as (r & Er & _). destruct (F2 Hs') as (r' & Er' & _). rewrite Er, Er' in *.
      destruct Hsym as [Q1 Q2]. destruct r, r'; auto; (discriminate (Q1 eq_refl) || discriminate (Q2 eq_refl)).
    + rewrite E1, F1; auto. intros [S1 S2]. apply Hs. split; congruence.
  - rewrite A3, C3, D3. intros [[S1 S2] X] [[S3 S4] Y]. split; [split; congruence|].
    intros i j Hi Hj. destruct (X i j Hi Hj) as (X1 & X2 & X3). destruct (Y i j ltac:(lia) ltac:(lia)) as (Y1 & Y2 & Y3).
    repeat split; auto. congruence.
Qed.

(** Over exact reals, "== returns True" is equality of matrices of one shape. *)
Theorem C13_real (a b : mat R) : wf a -> wf b -> same_shape a b ->
  (eq_mat a b = Ok true <-> a = b).
Proof.
  intros Ha Hb Hs. destruct (eq_mat_true a b) as [_ E]. destruct (E Hs) as (r & -> & Hr). destruct Hs as [S1 S2]. split.
  - intros [= ->]. apply mat_ext; auto. intros i j Hi Hj. pose proof (proj1 Hr eq_refl i j Hi Hj) as Q.
    cbn in Q. apply Reqb_true in Q. lra.
  - intros <-. f_equal. apply Hr. intros i j Hi Hj. cbn. apply Reqb_true. lra.
Qed.

(** The property as stated fails in two ways: comparing different shapes raises,
    and a matrix with a NaN or infinite entry differs from its own copy. *)
Theorem C13_refuted :
  (exists a b : mat f64, valid_mat a /\ valid_mat b /\ eq_mat a b = Err InvalidShapeError) /\
  (exists m : mat f64, valid_mat m /\ eq_mat m (copy m) = Ok false) /\
  (exists m : mat f64, valid_mat m /\ (forall i j, i < nr m -> j < nc m -> entry m i j <> S754_nan) /\ eq_mat m (copy m) = Ok false).
Proof.
  split; [|split].
  - exists (Mat 1 1 [[exF 1]]), (Mat 1 2 [[exF 1; exF 2]]).
    split; [|split; [|vm_compute; reflexivity]]; (split; [now apply wfb_wf|]); intros i j Hi Hj; cbn in *; 
      (destruct i; [|lia]); (destruct j as [|[|]]; try lia); vm_compute; reflexivity.
  - exists (Mat 1 1 [[f_nan]]). split; [|vm_compute; reflexivity]. split; [now apply wfb_wf|].
    intros i j Hi Hj; cbn in *. (destruct i; [|lia]); (destruct j; try lia). vm_compute; reflexivity.
  - exists (Mat 1 1 [[f_inf]]). split; [|split; [|vm_compute; reflexivity]].
    + split; [now apply wfb_wf|]. intros i j Hi Hj; cbn in *. (destruct i; [|lia]); (destruct j; try lia). vm_compute; reflexivity.
    + intros i j Hi Hj; cbn in *. (destruct i; [|lia]); (destruct j; try lia). discriminate.
Qed.
Example C13_ex : valid_mat exA /\ eq_mat exA (copy exA) = Ok true /\
  eq_mat (Mat 1 1 [[S754_zero true]]) (Mat 1 1 [[S754_zero false]]) = Ok true.
Proof.
  split; [|split; vm_compute; reflexivity]. split; [apply exA_wf|].
  intros i j Hi Hj. cbn in Hi, Hj. destruct i as [|[|]]; [| |lia]; (destruct j as [|[|[|]]]; [| | |lia]); vm_compute; reflexivity.
Qed.
Print Assumptions C13_eq.
Print Assumptions C13_sym_trans.
Print Assumptions C13_refuted.

(** * C14 *)
Lemma equal_iff {T} `{Num T} (a b : mat T) eps :
  equal a b eps = true <-> same_shape a b /\
    forall i j, i < nr a -> j < nc a -> nltb eps (nabs (nsub (entry a i j) (entry b i j))) = false.
Proof.
  unfold equal. destruct (same_shape_as a b) eqn:E; cbn [negb].
  - apply same_shape_as_iff in E. rewrite forallb_forall. split.
    + intros Hall. split; auto. intros i j Hi Hj. specialize (Hall i ltac:(apply in_seq; lia)).
      rewrite forallb_forall in Hall. specialize (Hall j ltac:(apply in_seq; lia)). now apply negb_true_iff in Hall.
    + intros [_ Hall] i Hi. apply forallb_forall. intros j Hj. apply in_seq in Hi, Hj. apply negb_true_iff. apply Hall; lia.
  - split; [discriminate|]. intros [Hs _]. apply same_shape_as_iff in Hs. congruence.
Qed.

Theorem C14_equal_real (a b : mat R) (eps : R) :
  (equal a b eps = true <-> same_shape a b /\
     forall i j, i < nr a -> j < nc a -> (Rabs (entry a i j - entry b i j) <= eps)%R) /\
  equal a b eps = equal b a eps /\
  ((0 <= eps)%R -> equal a a eps = true) /\
  (forall eps', (eps <= eps')%R -> equal a b eps = true -> equal a b eps' = true).
Proof.
  assert (HE : forall a b eps, equal a b eps = true <-> same_shape a b /\
     forall i j, i < nr a -> j < nc a -> (Rabs (entry a i j - entry b i j) <= eps)%R).
  { intros a' b' e'. rewrite equal_iff. cbn. split; intros [Hs Hall]; (split; [exact Hs|]); intros i j Hi Hj;
      specialize (Hall i j Hi Hj); [rewrite Rltb_false in Hall|rewrite Rltb_false]; exact Hall. }
  split; [apply HE|]. split; [|split].
  - apply eq_true_iff_eq. rewrite !HE. split; intros [[S1 S2] Hall]; (split; [split; congruence|]); intros i j Hi Hj;
      rewrite Rabs_minus_sym; apply Hall; lia.
  - intros Hp. apply HE. split; [split; reflexivity|]. intros. unfold Rminus. rewrite Rplus_opp_r, Rabs_R0. assumption.
  - intros e' Hle. rewrite !HE. intros [Hs Hall]. split; auto. intros i j Hi Hj. specialize (Hall i j Hi Hj). lra.
Qed.

(** Binary64: exact characterisation - the comparison |x-y| > eps must fail, which
    it also does when the difference is NaN; so NaN entries are equal to anything. *)
Theorem C14_equal_f64 (a b : mat f64) (eps : f64) : not_nan eps ->
  (equal a b eps = true <-> same_shape a b /\
     forall i j, i < nr a -> j < nc a ->
       let d := SFsub fprec femax (entry a i j) (entry b i j) in
       d = S754_nan \/ SFleb (SFabs d) eps = true).
Proof.
  intros He. rewrite equal_iff. cbn. split; intros [Hs Hall]; (split; [exact Hs|]); intros i j Hi Hj; specialize (Hall i j Hi Hj).
  - set (d := SFsub _ _ _ _) in *. destruct d eqn:Ed; auto; right; apply (@ol_nlt_le f64 NumF not_nan OrdF); auto; cbn; discriminate.
  - cbn in Hall. destruct Hall as [->|Hall]; [apply nan_cmp|]. set (d := SFsub _ _ _ _) in *.
    destruct d eqn:Ed; try (apply (@ol_le_nlt f64 NumF not_nan OrdF); auto; cbn; discriminate).
Qed.
Theorem C14_refuted :
  exists a b : mat f64, wf a /\ wf b /\ entry a 0 0 = S754_nan /\ entry b 0 0 = exF 5 /\
    equal a b (S754_zero false) = true.
Proof. exists (Mat 1 1 [[f_nan]]), (Mat 1 1 [[exF 5]]). repeat split; try (now apply wfb_wf); vm_compute; reflexivity. Qed.
Example C14_ex : equal exA exA (S754_zero false) = true /\ equal exA (transpose exA) (exF 100) = false /\
  equal exA (add_scalar exA (exF 1)) (S754_zero false) = false /\ equal exA (add_scalar exA (exF 1)) (exF 1) = true.
Proof. repeat split; vm_compute; reflexivity. Qed.
Print Assumptions C14_equal_real.
Print Assumptions C14_equal_f64.

(** * C62 *)
Theorem C62_norm1 (m : mat R) :
  norm1 m = Rsum (nc m) (fun j => Rsum (nr m) (fun i => Rabs (entry m i j))) /\
  (forall s, norm1 (mul_scalar m s) = Rabs s * norm1 m)%R /\
  (forall b s, add m b = Ok s -> norm1 s <= norm1 m + norm1 b)%R /\
  (norm1 m = 0%R <-> forall i j, i < nr m -> j < nc m -> entry m i j = 0%R).
Proof.
  assert (HN : forall m, norm1 m = sumn (nc m) (fun j => sumn (nr m) (fun i => Rabs (entry m i j)))) by apply norm1_sum.
  split; [|split; [|split]].
  - rewrite HN, Rsum_sumn. apply sumn_ext. intros. now rewrite Rsum_sumn.
  - intros s. rewrite !HN. autorewrite with sh. rewrite <- sumR_scal. apply sumn_ext. intros j Hj.
    rewrite <- sumR_scal. apply sumn_ext. intros i Hi. rewrite entry_mul_scalar by assumption. cbn. rewrite Rabs_mult. ring.
  - intros b s Hs. destruct (add_spec m b) as [A1 A2].
    assert (Hdec : same_shape m b \/ ~ same_shape m b) by (unfold same_shape; lia).
    destruct Hdec as [Hd|Hd]; [|rewrite A2 in Hs by assumption; discriminate].
    destruct (A1 Hd) as (s' & E & W & N1 & N2 & N3). rewrite E in Hs. injection Hs as <-. destruct Hd as [S1 S2].
    rewrite !HN, N1, N2, <- S1, <- S2. rewrite <- sumR_plus. apply sumR_le. intros j Hj. rewrite <- sumR_plus.
    apply sumR_le. intros i Hi. rewrite N3 by assumption. apply Rabs_triang.
  - rewrite HN. split.
    + intros Hz i j Hi Hj.
      assert (H1 := sumR_nonneg_0 _ _ (fun j (_ : j < nc m) => sumR_nonneg (nr m) (fun i => Rabs (entry m i j)) (fun _ _ => Rabs_pos _)) Hz j Hj).
      cbn beta in H1. assert (H2 := sumR_nonneg_0 _ _ (fun i (_ : i < nr m) => Rabs_pos (entry m i j)) H1 i Hi).
      cbn beta in H2. destruct (Req_dec (entry m i j) 0) as [|Hne]; auto. apply Rabs_no_R0 in Hne. contradiction.
    + intros Hz. apply sumR_zero. intros j Hj. apply sumR_zero. intros i Hi. rewrite Hz by assumption. apply Rabs_R0.
Qed.

(** sum of the squares of all entries *)
Definition square_sum (m : mat R) : R := Rsum (nr m) (fun i => Rsum (nc m) (fun j => (entry m i j * entry m i j)%R)).
Lemma square_sum_sumsq m : square_sum m = sumsq (nr m) (nc m) (entry m) (entry m).
Proof. unfold square_sum, sumsq. rewrite Rsum_sumn. apply sumn_ext. intros. now rewrite Rsum_sumn. Qed.

Theorem C62_norm2 (m : mat R) : nr m <> 0 -> nc m <> 0 ->
  (vector_shaped m -> norm2 m = sqrt (square_sum m)) /\
  (~ vector_shaped m -> norm2 m = sqrt (square_sum m) / sqrt (INR (Nat.min (nr m) (nc m))))%R /\
  norm2_squared m = (norm2 m * norm2 m)%R /\
  (vector_shaped m -> norm2_squared m = square_sum m) /\
  (0 <= norm2 m)%R /\
  (norm2 m = 0%R <-> forall i j, i < nr m -> j < nc m -> entry m i j = 0%R) /\
  (forall s, norm2 (mul_scalar m s) = Rabs s * norm2 m)%R /\
  (forall b s, add m b = Ok s -> norm2 s <= norm2 m + norm2 b)%R.
Proof.
  intros Hr Hc.
  assert (HF : forall m, frobenius m = sqrt (square_sum m)) by (intros; now rewrite square_sum_sumsq, frobenius_sumsq).
  set (k := Nat.min (nr m) (nc m)). assert (Hk : (0 < INR k)%R) by (apply lt_0_INR; unfold k; lia).
  assert (Hsk : (0 < sqrt (INR k))%R) by (now apply sqrt_lt_R0).
  assert (HV : forall b, same_shape m b -> is_vector b = is_vector m).
  { intros b [S1 S2]. unfold is_vector. now rewrite S1, S2. }
  assert (HN : forall b, same_shape m b -> norm2 b = (frobenius b / (if is_vector m then 1 else sqrt (INR k)))%R).
  { intros b Hs. unfold norm2. rewrite (HV b Hs). destruct Hs as [S1 S2]. destruct (is_vector m).
    - unfold Rdiv. rewrite Rinv_1. ring.
    - cbn. rewrite <- INR_IZR_INZ. unfold k. now rewrite S1, S2. }
  assert (Hss : same_shape m m) by (split; reflexivity).
  set (q := if is_vector m then 1%R else sqrt (INR k)) in *.
  assert (Hq : (0 < q)%R) by (unfold q; destruct (is_vector m); lra).
  assert (Hiq : (0 < / q)%R) by (now apply Rinv_0_lt_compat).
  repeat split.
  - intros Hv. apply is_vector_iff in Hv. unfold norm2. now rewrite Hv.
  - intros Hv. unfold norm2. destruct (is_vector m) eqn:E; [apply is_vector_iff in E; contradiction|].
    rewrite HF. cbn. now rewrite <- INR_IZR_INZ.
  - intros Hv. apply is_vector_iff in Hv. unfold norm2_squared, norm2. rewrite Hv. cbn [nmul NumR]. rewrite frobenius_sq. symmetry. apply square_sum_sumsq.
  - rewrite (HN m Hss). apply Rmult_le_pos; [apply frobenius_nonneg|lra].
  - rewrite (HN m Hss). intros Hz. apply frobenius_zero. unfold Rdiv in Hz. apply Rmult_integral in Hz. destruct Hz; lra.
  - intros Hz. rewrite (HN m Hss). apply frobenius_zero in Hz. rewrite Hz. unfold Rdiv. ring.
  - intros s. rewrite (HN m Hss), (HN (mul_scalar m s)) by (split; reflexivity). rewrite frobenius_scal. unfold Rdiv. ring.
  - intros b s Hs. destruct (add_spec m b) as [A1 A2].
    assert (Hdec : same_shape m b \/ ~ same_shape m b) by (unfold same_shape; lia).
    destruct Hdec as [Hd|Hd]; [|rewrite A2 in Hs by assumption; discriminate].
    unfold add in Hs. rewrite must_be_same_shape_eq in Hs. rewrite (proj2 (same_shape_as_iff m b) Hd) in Hs. cbn in Hs. injection Hs as <-.
    rewrite (HN m Hss), (HN b Hd), (HN (map2_mat Rplus m b)) by (split; reflexivity).
    unfold Rdiv. rewrite <- Rmult_plus_distr_r. apply Rmult_le_compat_r; [lra|]. apply frobenius_add; apply Hd.
Qed.

(** normalized(): every column that is not zero gets unit Euclidean length and keeps its direction. *)
Theorem C62_normalized (m : mat R) : exists m', normalized m 0 = Ok m' /\ wf m' /\ nr m' = nr m /\ nc m' = nc m /\
  forall j, j < nc m -> (exists i, i < nr m /\ entry m i j <> 0%R) ->
    Rsum (nr m) (fun i => (entry m' i j * entry m' i j)%R) = 1%R /\
    exists s, (0 < s)%R /\ forall i, i < nr m -> entry m i j = (s * entry m' i j)%R.
Proof.
  eexists. split; [reflexivity|]. split; [apply mk_wf|]. split; [reflexivity|]. split; [reflexivity|].
  intros j Hj (i0 & Hi0 & Hne). set (s2 := sumn (nr m) (fun k => (entry m k j * entry m k j)%R)).
  assert (Hs : (0 < s2)%R).
  { destruct (Rle_lt_or_eq_dec 0 s2) as [|E]; auto. { apply sumR_nonneg. intros. apply Rle_0_sqr. }
    exfalso. symmetry in E. assert (Q := sumR_nonneg_0 (nr m) _ (fun k _ => Rle_0_sqr (entry m k j)) E i0 Hi0).
    cbn beta in Q. apply Rsqr_0_uniq in Q. contradiction. }
  assert (Hsq : (0 < sqrt s2)%R) by now apply sqrt_lt_R0.
  assert (He : forall i, i < nr m -> entry (mk (nr m) (nc m) (fun i j => ndiv (entry m i j) (nsqrt (sumn (nr m) (fun k => nmul (entry m k j) (entry m k j)))))) i j
     = (entry m i j / sqrt s2)%R) by (intros; now rewrite entry_mk).
  split.
  - rewrite Rsum_sumn. transitivity (sumn (nr m) (fun i => (/ s2 * (entry m i j * entry m i j))%R)).
    + apply sumn_ext. intros i Hi. rewrite He by assumption.
      transitivity (entry m i j * entry m i j / (sqrt s2 * sqrt s2))%R; [field; lra|]. rewrite sqrt_sqrt by lra. unfold Rdiv. ring.
    + rewrite sumR_scal. fold s2. field. lra.
  - exists (sqrt s2). split; auto. intros i Hi. rewrite He by assumption. field. lra.
Qed.

(** hypotheses are met, e.g. by the matrix [3; 4] with norm 5 *)
Example C62_ex : norm2 (Mat 2 1 [[exF 3]; [exF 4]]) = exF 5 /\ norm1 (Mat 2 1 [[exF 3]; [exF (-4)]]) = exF 7.
Proof. split; vm_compute; reflexivity. Qed.
Example C62_ex_real : norm2 (Mat 2 1 [[3%R]; [4%R]]) = 5%R.
Proof.
  unfold norm2. cbn. unfold frobenius. cbn. replace (0 + (0 + 3 * 3) + (0 + 4 * 4))%R with (Rsqr 5) by (unfold Rsqr; ring).
  apply sqrt_Rsqr. lra.
Qed.
Print Assumptions C62_norm1.
Print Assumptions C62_norm2.
Print Assumptions C62_normalized.
