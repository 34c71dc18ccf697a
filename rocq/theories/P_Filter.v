(** Properties C32-C34: Downsample, Equidistance, MultiFilter. *)
From Coq Require Import List ZArith Lia Bool Arith Reals Lra.
From Verif Require Import Base Num Mat M_Matrix M_Factory M_Helper M_Transform S_Matrix L_Base L_Mat L_Matrix L_MatR L_Stats P_Matrix P_Helper.
Import ListNotations.
Local Open Scope nat_scope.

(** * C32 *)
Lemma get_columns_denotes {T} `{Num T} (m : mat T) l :
  denotes (STuple 0 (Z.of_nat (nr m))) (map Z.of_nat (seq 0 (nr m))) /\ denotes (SList l) l.
Proof.
  split; [|reflexivity]. cbn. rewrite map_length, seq_length. split; [lia|]. intros k Hk.
  rewrite (nth_map' _ _ _ _ 0) by (rewrite seq_length; lia). rewrite seq_nth by lia. lia.
Qed.
Lemma pyrange_nth a b s k : k < range_len a b s -> nth k (pyrange a b s) 0%Z = (a + Z.of_nat k * s)%Z.
Proof. intros Hk. unfold pyrange. now rewrite nth_tab. Qed.
Lemma range_len_pos_iff a b s k : (0 < s)%Z -> (k < range_len a b s <-> (a + Z.of_nat k * s < b)%Z).
Proof.
  intros Hs. unfold range_len. destruct (Z.ltb_spec 0 s); [|lia].
  set (q := ((b - a + s - 1) / s)%Z). assert (Hq : (s * q <= b - a + s - 1 < s * q + s)%Z).
  { unfold q. pose proof (Z.mul_div_le (b - a + s - 1) s Hs). pose proof (Z.mul_succ_div_gt (b - a + s - 1) s Hs). lia. }
  clearbody q. split; intros Hk.
  - assert (Z.of_nat k + 1 <= q)%Z by lia. nia.
  - assert (~ (q <= Z.of_nat k))%Z by nia. lia.
Qed.
Lemma range_len_neg_iff a b s k : (s < 0)%Z -> (k < range_len a b s <-> (b < a + Z.of_nat k * s)%Z).
Proof.
  intros Hs. unfold range_len. destruct (Z.ltb_spec 0 s); [lia|]. destruct (Z.ltb_spec s 0); [|lia].
  set (t := (- s)%Z) in *. assert (Ht : (0 < t)%Z) by lia. replace s with (- t)%Z by lia. clearbody t. replace (a - b - - t - 1)%Z with (a - b + t - 1)%Z by lia.
  set (q := ((a - b + t - 1) / t)%Z). assert (Hq : (t * q <= a - b + t - 1 < t * q + t)%Z).
  { unfold q. pose proof (Z.mul_div_le (a - b + t - 1) t Ht). pose proof (Z.mul_succ_div_gt (a - b + t - 1) t Ht). lia. }
  clearbody q. split; intros Hk.
  - assert (Z.of_nat k + 1 <= q)%Z by lia. nia.
  - assert (~ (q <= Z.of_nat k))%Z by nia. lia.
Qed.

Theorem C32_downsample {T} `{Num T} (m : mat T) (start step : Z) :
  (0 <= start)%Z -> (1 <= step)%Z ->
  exists r, downsample start step m = Ok r /\ wf r /\ nr r = nr m /\
    (forall k, k < nc r <-> (start + Z.of_nat k * step < Z.of_nat (nc m))%Z) /\
    (forall i k, i < nr m -> k < nc r -> entry r i k = entry m i (Z.to_nat (start + Z.of_nat k * step))).
Proof.
  intros H0 H1. unfold downsample. destruct (Z.eqb_spec step 0); [lia|].
  set (l := pyrange start (Z.of_nat (nc m)) step). destruct (get_columns_denotes m l) as [D1 D2].
  assert (Hl : forall k, k < length l <-> (start + Z.of_nat k * step < Z.of_nat (nc m))%Z).
  { intros k. unfold l. rewrite pyrange_length. apply range_len_pos_iff. lia. }
  assert (Hn : forall k, k < length l -> nth k l 0%Z = (start + Z.of_nat k * step)%Z).
  { intros k Hk. unfold l in *. rewrite pyrange_length in Hk. now apply pyrange_nth. }
  unfold get_columns.
  destruct (get_sub_matrix m (STuple 0 (Z.of_nat (nr m))) (SList l)) as [r|e] eqn:E.
  - exists r. destruct (get_sub_matrix_ok _ _ _ _ _ _ D1 D2 E) as (Hw & Hr & Hc & He).
    rewrite map_length, seq_length in Hr, He. split; [reflexivity|]. split; [assumption|]. split; [assumption|]. split.
    + intros k. now rewrite Hc.
    + intros i k Hi Hk. rewrite Hc in Hk. destruct (He i k Hi Hk) as (a & b & [A1 A2] & [B1 B2] & ->).
      rewrite (nth_map' _ _ _ _ 0), seq_nth in A2 by (rewrite ?seq_length; lia). rewrite Hn in B2 by assumption.
      apply Hl in Hk. f_equal; lia.
  - exfalso. apply (get_sub_matrix_err _ _ _ _ _ _ D1 D2) in E as (_ & _ & _ & [E|E]); apply Exists_exists in E as (z & Hz & Ho).
    + apply in_map_iff in Hz as (k & <- & Hk). apply in_seq in Hk. unfold out_of_range in Ho. lia.
    + apply (In_nth _ _ 0%Z) in Hz as (k & Hk & <-). rewrite Hn in Ho by assumption. apply Hl in Hk. unfold out_of_range in Ho. lia.
Qed.
(** Every other combination of start and step. *)
Theorem C32_other_parameters {T} `{Num T} (m : mat T) (start step : Z) :
  (step = 0%Z -> downsample start step m = Err ValueError) /\
  ((1 <= step)%Z -> (- Z.of_nat (nc m) <= start < 0)%Z ->
     exists r, downsample start step m = Ok r /\ nr r = nr m /\
       (forall k, k < nc r <-> (start + Z.of_nat k * step < Z.of_nat (nc m))%Z) /\
       (forall i k, i < nr m -> k < nc r ->
          entry r i k = entry m i (Z.to_nat ((start + Z.of_nat k * step) mod Z.of_nat (nc m))))) /\
  ((1 <= step)%Z -> (start < - Z.of_nat (nc m))%Z -> nr m <> 0 -> downsample start step m = Err IndexError) /\
  ((step < 0)%Z -> (start <= Z.of_nat (nc m))%Z -> exists r, downsample start step m = Ok r /\ nr r = nr m /\ nc r = 0) /\
  ((step < 0)%Z -> (Z.of_nat (nc m) < start)%Z -> nr m <> 0 -> downsample start step m = Err IndexError).
Proof.
  set (l := pyrange start (Z.of_nat (nc m)) step). destruct (get_columns_denotes m l) as [D1 D2].
  assert (Hlen : length l = range_len start (Z.of_nat (nc m)) step) by apply pyrange_length.
  assert (Hn : forall k, k < length l -> nth k l 0%Z = (start + Z.of_nat k * step)%Z).
  { intros k Hk. unfold l in *. rewrite pyrange_length in Hk. now apply pyrange_nth. }
  assert (Hrl : nr m <> 0 -> map Z.of_nat (seq 0 (nr m)) <> []) by (intros ? Q; apply map_eq_nil in Q; destruct (nr m); [lia|discriminate]).
  assert (Herr : nr m <> 0 -> 0 < length l -> out_of_range (nc m) start -> step <> 0%Z -> downsample start step m = Err IndexError).
  { intros Hr Hll Ho Hs. unfold downsample. destruct (Z.eqb_spec step 0); [lia|]. apply (get_sub_matrix_err _ _ _ _ _ _ D1 D2).
    split; [reflexivity|]. split; [auto|]. split; [destruct l; [cbn in Hll; lia|discriminate]|]. right. apply Exists_exists.
    exists (nth 0 l 0%Z). split; [apply nth_In; assumption|]. rewrite Hn by assumption. now replace (start + Z.of_nat 0 * step)%Z with start by lia. }
  split; [intros ->; reflexivity|]. split; [|split; [|split]].
  - intros Hs H0. unfold downsample. destruct (Z.eqb_spec step 0); [lia|]. fold l.
    assert (Hl : forall k, k < length l <-> (start + Z.of_nat k * step < Z.of_nat (nc m))%Z) by (intros k; rewrite Hlen; apply range_len_pos_iff; lia).
    unfold get_columns. destruct (get_sub_matrix m (STuple 0 (Z.of_nat (nr m))) (SList l)) as [r|e] eqn:E.
    + exists r. destruct (get_sub_matrix_ok _ _ _ _ _ _ D1 D2 E) as (Hw & Hr & Hc & He).
      rewrite map_length, seq_length in Hr, He. split; [reflexivity|]. split; [assumption|]. split.
      * intros k. now rewrite Hc.
      * intros i k Hi Hk. rewrite Hc in Hk. destruct (He i k Hi Hk) as (a & b & [A1 A2] & [B1 B2] & ->).
        rewrite (nth_map' _ _ _ _ 0), seq_nth in A2 by (rewrite ?seq_length; lia). rewrite Hn in B2 by assumption.
        apply Hl in Hk. f_equal; [lia|]. destruct B2 as [->| ->].
        -- rewrite Z.mod_small by lia. lia.
        -- rewrite <- (Z.mod_add _ 1) by lia. rewrite Z.mod_small by lia. lia.
    + exfalso. apply (get_sub_matrix_err _ _ _ _ _ _ D1 D2) in E as (_ & _ & _ & [E|E]); apply Exists_exists in E as (z & Hz & Ho).
      * apply in_map_iff in Hz as (k & <- & Hk). apply in_seq in Hk. unfold out_of_range in Ho. lia.
      * apply (In_nth _ _ 0%Z) in Hz as (k & Hk & <-). rewrite Hn in Ho by assumption. apply Hl in Hk. unfold out_of_range in Ho.
        assert (0 <= Z.of_nat k * step)%Z by nia. lia.
  - intros Hs H0 Hr. apply Herr; auto; [|unfold out_of_range; lia|lia]. rewrite Hlen. apply range_len_pos_iff; lia.
  - intros Hs H0. unfold downsample. destruct (Z.eqb_spec step 0); [lia|]. fold l.
    assert (length l = 0) as Hl0.
    { destruct (Nat.eq_dec (length l) 0); auto. exfalso. assert (Q : 0 < length l) by lia. rewrite Hlen in Q. apply range_len_neg_iff in Q; lia. }
    unfold get_columns. destruct (get_sub_matrix m (STuple 0 (Z.of_nat (nr m))) (SList l)) as [r|e] eqn:E.
    + exists r. destruct (get_sub_matrix_ok _ _ _ _ _ _ D1 D2 E) as (Hw & Hr & Hc & _).
      rewrite map_length, seq_length in Hr. split; [reflexivity|]. split; lia.
    + exfalso. apply (get_sub_matrix_err _ _ _ _ _ _ D1 D2) in E as (_ & _ & E & _). apply E. now apply length_zero_iff_nil.
  - intros Hs H0 Hr. apply Herr; auto; [|unfold out_of_range; lia|lia]. rewrite Hlen. apply range_len_neg_iff; lia.
Qed.
Example C32_ex : downsample 1 2 (Mat 2 6 [[1;2;3;4;5;6];[7;8;9;10;11;12]])%R = Ok (Mat 2 3 [[2;4;6];[8;10;12]])%R.
Proof. reflexivity. Qed.
Print Assumptions C32_downsample.
Print Assumptions C32_other_parameters.

(** * C33 *)
Lemma fill_columns {T} `{Num T} (z : mat T) n (col : nat -> res (mat T)) (v : nat -> mat T) :
  wf z -> nc z = n -> (forall k, k < n -> col k = Ok (v k) /\ wf (v k) /\ nr (v k) = nr z /\ nc (v k) = 1) ->
  exists r, fold_left (fun acc k => do r <- acc; do c <- col k; set_column r (Z.of_nat k) c) (seq 0 n) (Ok z) = Ok r /\
    is_mat r (nr z) n (fun i k => entry (v k) i 0).
Proof.
  intros Hz Hn Hv.
  assert (G : forall s, s <= n -> exists r, fold_left (fun acc k => do r <- acc; do c <- col k; set_column r (Z.of_nat k) c) (seq 0 s) (Ok z) = Ok r /\
     is_mat r (nr z) n (fun i k => if k <? s then entry (v k) i 0 else entry z i k)).
  { induction s as [|s IH]; intros Hs.
    - exists z. split; [reflexivity|]. split; auto.
    - destruct IH as (r & E & Hw & Hr1 & Hr2 & Hr3); [lia|]. rewrite seq_S, fold_left_app, E. cbn [fold_left bind plus].
      destruct (Hv s ltac:(lia)) as (-> & Wv & V1 & V2). cbn [bind].
      destruct (set_column_spec r (Z.of_nat s) (v s) Wv) as [S1 S2].
      destruct (set_column r (Z.of_nat s) (v s)) as [r'|e] eqn:E2.
      + destruct (S1 r' eq_refl) as (_ & j & [Hj1 Hj2] & Hm). exists r'. split; [reflexivity|].
        assert (j = s) by lia. subst j. destruct Hm as (A1 & A2 & A3 & A4). rewrite Hr1, Hr2 in *.
        split; [assumption|]. split; [assumption|]. split; [assumption|]. intros i k Hi Hk. rewrite A4 by assumption.
        unfold vec_len_c, vec_at_c. rewrite V2, V1. cbn [Nat.eqb]. apply Nat.ltb_lt in Hi as Hi'. rewrite Hi', andb_true_r.
        destruct (Nat.eqb_spec k s) as [->|Hne].
        * destruct (Nat.ltb_spec s (S s)); [reflexivity|lia].
        * rewrite Hr3 by assumption. destruct (Nat.ltb_spec k s), (Nat.ltb_spec k (S s)); try lia; reflexivity.
      + exfalso. destruct (proj1 (S2 e) eq_refl) as [[_ Q]|[_ [_ Q]]].
        * apply Q. right. assumption.
        * unfold out_of_range in Q. lia. }
  destruct (G n (Nat.le_refl n)) as (r & E & Hm). exists r. split; [exact E|]. destruct Hm as (A1 & A2 & A3 & A4).
  split; [assumption|]. split; [assumption|]. split; [assumption|]. intros i k Hi Hk. rewrite A4 by assumption.
  destruct (Nat.ltb_spec k n); [reflexivity|lia].
Qed.

(** For every element type: the result exists, has the requested width, copies
    the original column where the positions coincide and otherwise mixes the two
    neighbouring columns. *)
Theorem C33_total {T} `{Num T} (m : mat T) (n : nat) :
  nr m <> 0 -> nc m <> 0 -> 2 <= n ->
  exists r, equidistance (Z.of_nat n) m = Ok r /\ wf r /\ nr r = nr m /\ nc r = n /\
    forall i k, i < nr m -> k < n ->
      exists q p, k * (nc m - 1) = q * (n - 1) + p /\ p < n - 1 /\ q < nc m /\ (p <> 0 -> q + 1 < nc m) /\
        entry r i k = if p =? 0 then entry m i q
                      else let t := ndiv (nofZ (Z.of_nat p)) (nofZ (Z.of_nat (n - 1))) in
                           nadd (nmul (entry m i q) (nsub n1 t)) (nmul (entry m i (q + 1)) t).
Proof.
  intros Hr Hc Hn. unfold equidistance.
  set (q := fun k => (k * (nc m - 1)) / (n - 1)). set (p := fun k => (k * (nc m - 1)) mod (n - 1)).
  assert (Hqp : forall k, k * (nc m - 1) = q k * (n - 1) + p k /\ p k < n - 1).
  { intros k. unfold q, p. pose proof (Nat.div_mod (k * (nc m - 1)) (n - 1)). pose proof (Nat.mod_upper_bound (k * (nc m - 1)) (n - 1)). lia. }
  assert (Hq : forall k, k < n -> q k < nc m /\ (p k <> 0 -> q k + 1 < nc m)).
  { intros k Hk. destruct (Hqp k) as [E1 E2]. assert (k * (nc m - 1) <= (n - 1) * (nc m - 1)) by (apply Nat.mul_le_mono_r; lia).
    assert (q k <= nc m - 1) by (apply Nat.mul_le_mono_pos_r with (p := n - 1); nia). split; [lia|]. intros Hp.
    assert (q k <> nc m - 1); [|lia]. intros Q. rewrite Q in E1. nia. }
  set (v := fun k => mk (nr m) 1 (fun i _ => if p k =? 0 then entry m i (q k)
     else let t := ndiv (nofZ (Z.of_nat (p k))) (nofZ (Z.of_nat (n - 1))) in
          nadd (nmul (entry m i (q k)) (nsub n1 t)) (nmul (entry m i (q k + 1)) t))).
  rewrite Nat2Z.id. destruct (C23_zeros (T:=T) (Z.of_nat (nr m)) (Z.of_nat n)) as [Z1 _].
  destruct (Z.eqb_spec (Z.of_nat n) (-1)); [lia|]. rewrite !Nat2Z.id in Z1. destruct (Z1 ltac:(lia)) as (W1 & W2 & W3 & _). clear Z1.
  destruct (fill_columns (zeros (Z.of_nat (nr m)) (Z.of_nat n)) n (equidistance_column (Z.of_nat n) m) v W1 W3) as (r & E & Hm).
  { intros k Hk. rewrite W2. split; [|split; [apply mk_wf|split; reflexivity]]. unfold equidistance_column.
    destruct (Hqp k) as [E1 E2]. destruct (Hq k Hk) as [Q1 Q2].
    replace ((Z.of_nat (nc m) - 1) * Z.of_nat k)%Z with (Z.of_nat (k * (nc m - 1))) by nia.
    replace (Z.of_nat n - 1)%Z with (Z.of_nat (n - 1)) by lia.
    rewrite <- Nat2Z.inj_div, <- Nat2Z.inj_mod. fold (q k) (p k). unfold v.
    destruct (Z.eqb_spec (Z.of_nat (p k)) 0) as [Hp|Hp], (Nat.eqb_spec (p k) 0) as [Hp'|Hp']; try lia.
    - now rewrite get_column_nat.
    - replace (Z.of_nat (q k) + 1)%Z with (Z.of_nat (q k + 1)) by lia. rewrite !get_column_nat by auto. cbn [bind]. cbv zeta.
      unfold add. rewrite must_be_same_shape_eq. unfold same_shape_as. autorewrite with sh. rewrite !Nat.eqb_refl. cbn [andb bind].
      f_equal. unfold map2_mat. autorewrite with sh. apply mk_ext. intros i j Hi Hj.
      rewrite !entry_mul_scalar by (autorewrite with sh; assumption). now rewrite !entry_mk by assumption. }
  exists r. split; [exact E|]. rewrite W2 in Hm. destruct Hm as (A1 & A2 & A3 & A4). split; [assumption|]. split; [assumption|]. split; [assumption|].
  intros i k Hi Hk. exists (q k), (p k). destruct (Hqp k) as [E1 E2]. destruct (Hq k Hk) as [Q1 Q2]. repeat split; auto.
  rewrite A4 by assumption. unfold v. now rewrite entry_mk by (try assumption; lia).
Qed.
Theorem C33_rejected {T} `{Num T} (m : mat T) (num_samples : Z) :
  ((num_samples < 2)%Z <-> equidistance_set_num_samples num_samples = Err ValueError) /\
  ((2 <= num_samples)%Z -> equidistance_set_num_samples num_samples = Ok num_samples) /\
  ((2 <= num_samples)%Z -> nc m = 0 -> equidistance num_samples m = Err IndexError).
Proof.
  unfold equidistance_set_num_samples. split; [|split].
  - destruct (Z.ltb_spec num_samples 2); split; intros; auto; try lia; try discriminate.
  - intros Hn. destruct (Z.ltb_spec num_samples 2); [lia|reflexivity].
  - intros Hn Hc. unfold equidistance. replace (Z.to_nat num_samples) with (S (Z.to_nat num_samples - 1)) by lia. cbn [seq fold_left bind].
    assert (E : equidistance_column num_samples m 0 = Err IndexError).
    { unfold equidistance_column. rewrite Z.mul_0_r, Z.mod_0_l, Z.div_0_l by lia. cbn [Z.eqb]. unfold get_column. rewrite Hc. reflexivity. }
    rewrite E. cbn [bind]. generalize (seq 1 (Z.to_nat num_samples - 1)). intros l. induction l; auto.
Qed.

(** Over the reals: linear interpolation at the position k*(c-1)/(n-1). *)
Local Open Scope R_scope.
Theorem C33_interpolation (m : matR) (n : nat) : nr m <> 0%nat -> nc m <> 0%nat -> (2 <= n)%nat ->
  exists r, equidistance (Z.of_nat n) m = Ok r /\ wf r /\ nr r = nr m /\ nc r = n /\
    forall i k, (i < nr m)%nat -> (k < n)%nat ->
      exists (q : nat) (t : R), 0 <= t < 1 /\ INR q + t = INR k * INR (nc m - 1) / INR (n - 1) /\
        (q < nc m)%nat /\ (t <> 0 -> (q + 1 < nc m)%nat) /\
        entry r i k = (1 - t) * entry m i q + t * entry m i (q + 1)%nat.
Proof.
  intros Hr Hc Hn. destruct (C33_total m n Hr Hc Hn) as (r & E & Hw & H1 & H2 & H3).
  exists r. split; [exact E|]. split; [exact Hw|]. split; [exact H1|]. split; [exact H2|]. intros i k Hi Hk.
  destruct (H3 i k Hi Hk) as (q & p & E1 & E2 & Q1 & Q2 & Ee). assert (Hn0 : INR (n - 1) <> 0) by (apply INR_ne0; lia).
  assert (Hnp : 0 < INR (n - 1)) by (apply INR_pos; lia).
  exists q, (INR p / INR (n - 1)). assert (Hp0 : 0 <= INR p) by apply pos_INR. assert (Hp1 : INR p < INR (n - 1)) by now apply lt_INR.
  split; [|split; [|split; [|split]]].
  - split; [apply Rmult_le_pos; [assumption|left; now apply Rinv_0_lt_compat]|]. apply Rmult_lt_reg_r with (INR (n - 1)); [assumption|].
    unfold Rdiv. rewrite Rmult_assoc, Rinv_l by assumption. lra.
  - apply (f_equal INR) in E1. rewrite plus_INR, !mult_INR in E1. rewrite E1. field. assumption.
  - assumption.
  - intros Ht. apply Q2. intros ->. apply Ht. cbn. unfold Rdiv. ring.
  - rewrite Ee. destruct (Nat.eqb_spec p 0) as [->|Hp].
    + cbn [INR]. unfold Rdiv. rewrite Rmult_0_l. ring.
    + cbv zeta. cbn [nadd nmul nsub ndiv nofZ n1 NumR]. rewrite !IZR_of_nat. unfold n1. cbn. ring.
Qed.
(** Consequences named in the claim. *)
Theorem C33_consequences (m : matR) (n : nat) (r : matR) : wf m -> nr m <> 0%nat -> nc m <> 0%nat -> (2 <= n)%nat ->
  equidistance (Z.of_nat n) m = Ok r ->
  (* first and last columns *)
  (forall i, (i < nr m)%nat -> entry r i 0%nat = entry m i 0%nat /\ entry r i (n - 1)%nat = entry m i (nc m - 1)%nat) /\
  (* between bounds of the row *)
  (forall i k lo hi, (i < nr m)%nat -> (k < n)%nat -> (forall j, (j < nc m)%nat -> lo <= entry m i j <= hi) -> lo <= entry r i k <= hi) /\
  (* identity *)
  (n = nc m -> r = m) /\
  (* linear signals *)
  (forall i a b, (i < nr m)%nat -> (forall j, (j < nc m)%nat -> entry m i j = a + b * INR j) ->
     forall k, (k < n)%nat -> entry r i k = a + b * (INR k * INR (nc m - 1) / INR (n - 1))).
Proof.
  intros Wm Hr Hc Hn E. destruct (C33_total m n Hr Hc Hn) as (r' & E' & Hw & H1 & H2 & H3).
  destruct (C33_interpolation m n Hr Hc Hn) as (r'' & E'' & _ & _ & _ & H4).
  assert (r' = r) by congruence. assert (r'' = r) by congruence. subst r' r''.
  split; [|split; [|split]].
  - intros i Hi. split.
    + destruct (H3 i 0%nat Hi ltac:(lia)) as (q & p & E1 & E2 & Q1 & Q2 & ->).
      assert (q = 0)%nat by nia. assert (p = 0)%nat by nia. subst. reflexivity.
    + destruct (H3 i (n - 1)%nat Hi ltac:(lia)) as (q & p & E1 & E2 & Q1 & Q2 & ->).
      assert (q = nc m - 1)%nat by nia. assert (p = 0)%nat by nia. subst. reflexivity.
  - intros i k lo hi Hi Hk Hb. destruct (H4 i k Hi Hk) as (q & t & Ht & _ & Q1 & Q2 & ->).
    destruct (Req_dec t 0) as [->|Hne]; [specialize (Hb q Q1); lra|].
    pose proof (Hb q Q1). pose proof (Hb _ (Q2 Hne)). nra.
  - intros ->. apply mat_ext; auto. intros i k Hi Hk. rewrite H1 in Hi. rewrite H2 in Hk. destruct (H3 i k Hi Hk) as (q & p & E1 & E2 & Q1 & Q2 & ->).
    assert (q = k) by nia. assert (p = 0)%nat by nia. subst. reflexivity.
  - intros i a b Hi Hl k Hk. destruct (H4 i k Hi Hk) as (q & t & Ht & Ep & Q1 & Q2 & ->). rewrite <- Ep.
    rewrite (Hl q Q1). destruct (Req_dec t 0) as [->|Hne]; [ring|]. rewrite (Hl _ (Q2 Hne)), plus_INR. cbn [INR]. ring.
Qed.
Example C33_ex : exists r, equidistance 3 (Mat 1 2 [[0; 1]]) = Ok r /\ entry r 0 1%nat = / 2.
Proof.
  destruct (C33_interpolation (Mat 1 2 [[0;1]]) 3) as (r & E & Hw & H1 & H2 & _); try (cbn; lia). exists r. split; [exact E|].
  destruct (C33_consequences (Mat 1 2 [[0;1]]) 3 r) as (_ & _ & _ & H4); try (cbn; lia); auto.
  { repeat constructor. }
  rewrite (H4 0%nat 0 1); [cbn; lra|cbn; lia| |lia]. intros [|[|j]] Hj; cbn in *; try lia; unfold entry; cbn; lra.
Qed.
Print Assumptions C33_total.
Print Assumptions C33_rejected.
Print Assumptions C33_interpolation.
Print Assumptions C33_consequences.

(** * C34 *)
Local Open Scope nat_scope.
Section C34.
Context {G T : Type}.
Theorem C34_empty (g : G) (m : mat T) : multi_filter [] g m = (g, Ok m).
Proof. reflexivity. Qed.
Lemma multi_err (fs : list (filter_fn G T)) g e :
  fold_left (fun acc f => match acc with (g, Ok r) => f g r | (g, Err e) => (g, Err e) end) fs (g, Err e) = (g, Err e).
Proof. induction fs; auto. Qed.
(** Left to right; a failing filter ends the run, the later ones are not called. *)
Theorem C34_cons (f : filter_fn G T) (fs : list (filter_fn G T)) (g : G) (m : mat T) :
  (forall g' r, f g m = (g', Ok r) -> multi_filter (f :: fs) g m = multi_filter fs g' r) /\
  (forall g' e, f g m = (g', Err e) -> multi_filter (f :: fs) g m = (g', Err e)).
Proof.
  unfold multi_filter. cbn [fold_left]. split.
  - intros g' r ->. reflexivity.
  - intros g' e ->. apply multi_err.
Qed.
Lemma multi_two (a b : filter_fn G T) g m :
  multi_filter [a; b] g m = match a g m with (g', Ok r) => b g' r | (g', Err e) => (g', Err e) end.
Proof. reflexivity. Qed.
Theorem C34_nesting (fs gs : list (filter_fn G T)) (g : G) (m : mat T) :
  multi_filter (fs ++ gs) g m = multi_filter [multi_filter fs; multi_filter gs] g m.
Proof.
  rewrite multi_two. revert g m. induction fs as [|f fs IH]; intros g m; [reflexivity|]. cbn [app].
  destruct (C34_cons f (fs ++ gs) g m) as [A1 A2]. destruct (C34_cons f fs g m) as [B1 B2].
  destruct (f g m) as [g' [r|e]].
  - rewrite (A1 _ _ eq_refl), (B1 _ _ eq_refl). apply IH.
  - now rewrite (A2 _ _ eq_refl), (B2 _ _ eq_refl).
Qed.
Theorem C34_nesting_assoc (fs gs hs : list (filter_fn G T)) (g : G) (m : mat T) :
  multi_filter [multi_filter [multi_filter fs; multi_filter gs]; multi_filter hs] g m =
  multi_filter [multi_filter fs; multi_filter [multi_filter gs; multi_filter hs]] g m.
Proof.
  rewrite !multi_two. destruct (multi_filter fs g m) as [g' [r|e]]; [|reflexivity]. now rewrite multi_two.
Qed.
End C34.
(** Two filters over a counter of calls: the second one is not called after a failure. *)
Example C34_ex :
  let bad : filter_fn nat R := fun n _ => (S n, Err ValueError) in
  let good : filter_fn nat R := fun n m => (S n, Ok m) in
  multi_filter [good; bad; good] 0 (Mat 0 0 []) = (2, Err ValueError) /\
  multi_filter [good; good] 0 (Mat 0 0 []) = (2, Ok (Mat 0 0 [])).
Proof. split; reflexivity. Qed.
Print Assumptions C34_empty.
Print Assumptions C34_cons.
Print Assumptions C34_nesting.
Print Assumptions C34_nesting_assoc.
