(** C44, C58: multiplicative scatter correction and the five-point gradient filter. *)
From Coq Require Import List ZArith Lia Bool Arith Reals Lra.
From Verif Require Import Base Num Mat M_Matrix M_Factory M_Helper M_Utils M_Loop M_Transform M_MSC S_Matrix L_Base L_Mat L_Matrix L_MatR P_Matrix P_Helper P_Utils.
Import ListNotations.
Local Open Scope nat_scope.

(** A wave number lies in a closed range. *)
Definition within (range : R * R) (w : R) : Prop := (fst range <= w <= snd range)%R.
Lemma range_contains_within range w : range_contains range w = true <-> within range w.
Proof. unfold range_contains, within. cbn [nleb NumR]. rewrite andb_true_iff. unfold Rleb. destruct (Rle_dec (fst range) w), (Rle_dec w (snd range)); split; intros; intuition (try discriminate). Qed.
Lemma within_dec range w : {within range w} + {~ within range w}.
Proof. destruct (range_contains range w) eqn:E; [left; now apply range_contains_within|right]. intros Q. apply range_contains_within in Q. congruence. Qed.

Lemma gather_spec range (average filtered : mat R) : nr average = nr filtered -> 2 <= nc average -> 2 <= nc filtered ->
  let rows := filter (fun i => range_contains range (entry filtered i 0)) (seq 0 (nr filtered)) in
  gather range average filtered = Ok (map (fun i => entry average i 1) rows, map (fun i => entry filtered i 1) rows).
Proof.
  intros Hr Ha Hf. cbv zeta. unfold gather. rewrite Hr.
  destruct (for_range_inv (fun k xy => xy = (map (fun i => entry average i 1) (filter (fun i => range_contains range (entry filtered i 0)) (seq 0 k)),
     map (fun i => entry filtered i 1) (filter (fun i => range_contains range (entry filtered i 0)) (seq 0 k))))
   (fun xy i => do w <- get filtered (Z.of_nat i) 0;
    if range_contains range w then
      do y <- get filtered (Z.of_nat i) 1; do x <- get average (Z.of_nat i) 1; Ok (fst xy ++ [x], snd xy ++ [y])
    else Ok xy) (nr filtered) ([], [])) as (xy & E & Q).
  - reflexivity.
  - intros k x Hk ->. rewrite (get_nat filtered k 0) by lia. cbn [bind]. rewrite seq_S, filter_app, !map_app. cbn [plus filter].
    destruct (range_contains range (entry filtered k 0)).
    + rewrite (get_nat filtered k 1), (get_nat average k 1) by lia. cbn [bind fst snd map]. eexists. split; reflexivity.
    + cbn [map]. rewrite !app_nil_r. eexists. split; reflexivity.
  - rewrite E, Q. reflexivity.
Qed.
Lemma correct_rows_spec range inter slope (m : mat R) : wf m -> 2 <= nc m ->
  exists out, correct_rows range inter slope m = Ok out /\
    is_mat out (nr m) (nc m) (fun i j => if (j =? 1) && range_contains range (entry m i 0) then ((entry m i 1 - inter) / slope)%R else entry m i j).
Proof.
  intros Hw Hc. unfold correct_rows.
  destruct (for_range_inv (fun k r => is_mat r (nr m) (nc m) (fun i j => if (i <? k) && (j =? 1) && range_contains range (entry m i 0) then ((entry m i 1 - inter) / slope)%R else entry m i j))
    (fun r i => do w <- get r (Z.of_nat i) 0;
       if range_contains range w then do v <- get r (Z.of_nat i) 1; set r (Z.of_nat i) 1 (ndiv (nsub v inter) slope) else Ok r) (nr m) m) as (out & E & HI).
  - eapply (is_mat_fun_ext); [apply is_mat_self; exact Hw|]. intros i j _ _. reflexivity.
  - intros k r Hk (Wr & Rr & Cr & Er). rewrite (get_nat r k 0) by lia. cbn [bind]. rewrite Er by lia.
    destruct (Nat.ltb_spec k k) as [Q|_]; [lia|]. cbn [andb].
    destruct (range_contains range (entry m k 0)) eqn:Ec.
    + rewrite (get_nat r k 1) by lia. cbn [bind]. rewrite Er by lia. destruct (Nat.ltb_spec k k) as [Q|_]; [lia|]. cbn [andb].
      unfold set. rewrite npidx_nat by lia. cbn [bind]. change 1%Z with (Z.of_nat 1). rewrite npidx_nat by lia. cbn [bind]. eexists. split; [reflexivity|].
      split; [apply set_entry_wf; exact Wr|]. split; [exact Rr|]. split; [exact Cr|]. intros i j Hi Hj. rewrite set_entry_entry by (assumption || lia).
      destruct (Nat.eqb_spec i k) as [->|Hik]; cbn [andb].
      * destruct (Nat.eqb_spec j 1) as [->|Hj1].
        -- destruct (Nat.ltb_spec k (S k)) as [_|Q]; [|lia]. rewrite Ec. reflexivity.
        -- rewrite Er by lia. rewrite (proj2 (Nat.eqb_neq j 1) Hj1). rewrite !andb_false_r. reflexivity.
      * rewrite Er by lia. replace (i <? S k) with (i <? k); [reflexivity|]. apply Bool.eq_true_iff_eq. rewrite !Nat.ltb_lt. lia.
    + exists r. split; [reflexivity|]. split; [exact Wr|]. split; [exact Rr|]. split; [exact Cr|]. intros i j Hi Hj. rewrite Er by lia.
      destruct (Nat.eq_dec i k) as [->|Hik].
      * rewrite Ec, !andb_false_r. reflexivity.
      * replace (i <? S k) with (i <? k); [reflexivity|]. apply Bool.eq_true_iff_eq. rewrite !Nat.ltb_lt. lia.
  - exists out. split; [exact E|]. eapply is_mat_fun_ext; [exact HI|]. intros i j Hi Hj. cbv beta. destruct (Nat.ltb_spec i (nr m)); [reflexivity|lia].
Qed.

(** The regression data of one range: the spectrum is an affine image of the reference there. *)
Definition affine_on (range : R * R) (reference spectrum : mat R) : Prop :=
  exists a b, b <> 0%R /\
    (forall i, i < nr spectrum -> within range (entry spectrum i 0) -> entry spectrum i 1 = (a + b * entry reference i 1)%R) /\
    (exists i j, i < nr spectrum /\ j < nr spectrum /\ within range (entry spectrum i 0) /\ within range (entry spectrum j 0) /\ entry reference i 1 <> entry reference j 1).
Lemma filter_map_nth (P : nat -> bool) n (f : nat -> R) i : i < n -> P i = true -> exists k, k < length (map f (filter P (seq 0 n))) /\ nthR (map f (filter P (seq 0 n))) k = f i.
Proof.
  intros Hi HP. assert (HIn : In i (filter P (seq 0 n))) by (apply filter_In; split; [apply in_seq; lia|exact HP]).
  destruct (In_nth _ _ 0 HIn) as (k & Hk & Ek). exists k. rewrite map_length. split; [exact Hk|]. unfold nthR. rewrite (nth_map' f _ _ _ 0) by exact Hk. now rewrite Ek.
Qed.
Lemma regression_of_range range reference spectrum : nr reference = nr spectrum -> 2 <= nc reference -> 2 <= nc spectrum -> affine_on range reference spectrum ->
  exists a b xy, b <> 0%R /\ gather range reference spectrum = Ok xy /\ linear_regression (fst xy) (snd xy) = (a, b) /\
    (forall i, i < nr spectrum -> within range (entry spectrum i 0) -> entry spectrum i 1 = (a + b * entry reference i 1)%R).
Proof.
  intros Hr Hc1 Hc2 (a & b & Hb & Ha & i & j & Hi & Hj & Wi & Wj & Hne). exists a, b. eexists. split; [exact Hb|].
  split; [apply gather_spec; assumption|]. cbn [fst snd]. split; [|exact Ha].
  set (P := fun i => range_contains range (entry spectrum i 0)). set (rows := filter P (seq 0 (nr spectrum))).
  replace (map (fun i0 => entry spectrum i0 1) rows) with (map (fun t => (a + b * t)%R) (map (fun i0 => entry reference i0 1) rows)).
  - apply C30_collinear. destruct (filter_map_nth P (nr spectrum) (fun i => entry reference i 1) i Hi) as (k & Hk & Ek); [now apply range_contains_within|].
    destruct (filter_map_nth P (nr spectrum) (fun i => entry reference i 1) j Hj) as (l & Hl & El); [now apply range_contains_within|].
    exists k, l. split; [exact Hk|]. split; [exact Hl|]. unfold rows. rewrite Ek, El. exact Hne.
  - rewrite map_map. apply map_ext_in. intros r Hin. symmetry. apply filter_In in Hin. destruct Hin as [Hin HP]. apply in_seq in Hin. apply Ha; [lia|]. now apply range_contains_within.
Qed.
Definition covered (ranges : list (R * R)) (w : R) : Prop := exists range, In range ranges /\ within range w.
(** No row of the spectrum lies in two of the ranges. *)
Definition apart (spectrum : mat R) (r1 r2 : R * R) : Prop := forall i, i < nr spectrum -> within r1 (entry spectrum i 0) -> within r2 (entry spectrum i 0) -> False.

(** C44: every row in a range is corrected to the reference, everything else is untouched. *)
Theorem C44_correct (ranges : list (R * R)) (reference spectrum : mat R) :
  wf spectrum -> nr reference = nr spectrum -> 2 <= nc reference -> 2 <= nc spectrum ->
  ForallOrdPairs (apart spectrum) ranges -> Forall (fun range => affine_on range reference spectrum) ranges ->
  exists out, correct None ranges reference spectrum = Ok out /\ wf out /\ nr out = nr spectrum /\ nc out = nc spectrum /\
    (forall i, i < nr spectrum -> covered ranges (entry spectrum i 0) -> entry out i 1 = entry reference i 1) /\
    (forall i j, i < nr spectrum -> j < nc spectrum -> j <> 1 \/ ~ covered ranges (entry spectrum i 0) -> entry out i j = entry spectrum i j).
Proof.
  intros Hw Hr Hc1 Hc2 HA HF. unfold correct, copy. cbn [bind].
  assert (GEN : forall rs cur, ForallOrdPairs (apart spectrum) rs -> Forall (fun range => affine_on range reference spectrum) rs ->
     wf cur -> nr cur = nr spectrum -> nc cur = nc spectrum ->
     (forall i j, i < nr spectrum -> j < nc spectrum -> j <> 1 -> entry cur i j = entry spectrum i j) ->
     (forall i, i < nr spectrum -> covered rs (entry spectrum i 0) -> entry cur i 1 = entry spectrum i 1) ->
     exists out, for_each rs (fun result range => do xy <- gather range reference spectrum;
         let '(inter, slope) := linear_regression (fst xy) (snd xy) in correct_rows range inter slope result) cur = Ok out /\
       wf out /\ nr out = nr spectrum /\ nc out = nc spectrum /\
       (forall i j, i < nr spectrum -> j < nc spectrum -> j <> 1 -> entry out i j = entry spectrum i j) /\
       (forall i, i < nr spectrum -> covered rs (entry spectrum i 0) -> entry out i 1 = entry reference i 1) /\
       (forall i, i < nr spectrum -> ~ covered rs (entry spectrum i 0) -> entry out i 1 = entry cur i 1)).
  { induction rs as [|range rs IH]; intros cur HA' HF' Wc Rc Cc E1 E2.
    - exists cur. cbn [for_each]. split; [reflexivity|]. split; [exact Wc|]. split; [exact Rc|]. split; [exact Cc|]. split; [exact E1|]. split; [|reflexivity].
      intros i _ (r0 & [] & _).
    - inversion HA' as [|? ? HA1 HA2]; subst. inversion HF' as [|? ? HF1 HF2]; subst. cbn [for_each].
      destruct (regression_of_range range reference spectrum Hr Hc1 Hc2 HF1) as (a & b & xy & Hb & Eg & El & Hab). rewrite Eg. cbn [bind]. rewrite El.
      destruct (correct_rows_spec range a b cur Wc ltac:(lia)) as (c1 & Ec & (W1 & R1 & C1 & N1)). rewrite Ec. cbn [bind].
      rewrite Rc in R1, N1. rewrite Cc in C1, N1.
      destruct (IH c1 HA2 HF2 W1 R1 C1) as (out & Eo & Wo & Ro & Co & O1 & O2 & O3).
      + intros i j Hi Hj Hj1. rewrite N1 by assumption. destruct (Nat.eqb_spec j 1); [contradiction|]. cbn [andb]. now apply E1.
      + intros i Hi (r' & Hin & Hwi). rewrite N1 by lia. rewrite (E1 i 0) by lia. cbn [Nat.eqb andb].
        destruct (range_contains range (entry spectrum i 0)) eqn:Q.
        * exfalso. apply range_contains_within in Q. rewrite Forall_forall in HA1. exact (HA1 r' Hin i Hi Q Hwi).
        * apply E2; [assumption|]. exists r'. split; [now right|assumption].
      + exists out. split; [exact Eo|]. split; [exact Wo|]. split; [exact Ro|]. split; [exact Co|]. split; [exact O1|].
        assert (Hcov : forall i, i < nr spectrum -> {covered rs (entry spectrum i 0)} + {~ covered rs (entry spectrum i 0)}).
        { intros i Hi. destruct (Exists_dec (fun r => within r (entry spectrum i 0)) rs (fun r => within_dec r _)) as [Q|Q].
          - left. apply Exists_exists in Q. exact Q. - right. intros C. apply Q. apply Exists_exists. exact C. }
        split; intros i Hi HC.
        * destruct (Hcov i Hi) as [Q|Q]; [now apply O2|]. rewrite O3 by assumption. rewrite N1 by lia. rewrite (E1 i 0) by lia. cbn [Nat.eqb andb].
          destruct HC as (r' & [<-|Hin] & Hwi); [|exfalso; apply Q; exists r'; split; assumption].
          rewrite (proj2 (range_contains_within _ _) Hwi). rewrite E2; [|assumption|exists range; split; [now left|assumption]].
          rewrite (Hab i Hi Hwi). field. exact Hb.
        * rewrite O3; [|assumption|intros (r' & Hin & Hwi); apply HC; exists r'; split; [now right|assumption]].
          rewrite N1 by lia. rewrite (E1 i 0) by lia. cbn [Nat.eqb andb]. destruct (range_contains range (entry spectrum i 0)) eqn:Q; [|reflexivity].
          exfalso. apply HC. exists range. split; [now left|now apply range_contains_within]. }
  destruct (GEN ranges spectrum HA HF Hw eq_refl eq_refl) as (out & Eo & Wo & Ro & Co & O1 & O2 & O3); [reflexivity|reflexivity|].
  exists out. split; [exact Eo|]. split; [exact Wo|]. split; [exact Ro|]. split; [exact Co|]. split; [exact O2|].
  intros i j Hi Hj HC. destruct (Nat.eq_dec j 1) as [->|Hj1]; [|now apply O1]. destruct HC as [HC|HC]; [contradiction|]. now apply O3.
Qed.

(** The reference the object uses: wave numbers and row-wise mean amplitudes of the configuration data. *)
Theorem C44_reference (ranges : list (R * R)) (prefilter : option (mat R -> res (mat R))) (s : msc_st R) (data : mat R) : 2 <= nc data ->
  exists average, t_configure (msc prefilter ranges) s data = (MSC true (Some average), Ok tt) /\
    is_mat average (nr data) 2 (fun i j => if j =? 0 then entry data i 0 else Rmean (nc data - 1) (fun k => entry data i (1 + k))).
Proof.
  intros Hc. unfold t_configure, msc, msc_configure. rewrite (get_column_nat data 0) by lia. cbn [bind].
  change 0%Z with (Z.of_nat 0). change 1%Z with (Z.of_nat 1). rewrite get_sub_matrix_range by lia. cbn [bind]. unfold mean. change (Z.of_nat 1) with 1%Z. cbn [Z.eqb Pos.eqb bind].
  match goal with |- context[concat_along_columns ?a ?b] => destruct (concat_columns_ok a b) as (av & E & HI) end.
  - apply mk_wf. - apply transpose_wf. - autorewrite with sh. lia.
  - rewrite E. exists av. split; [reflexivity|]. autorewrite with sh in HI. replace (nr data - 0) with (nr data) in HI by lia. cbn [plus] in HI.
    eapply is_mat_fun_ext; [exact HI|]. intros i j Hi Hj. cbv beta. destruct j as [|j].
    + cbn [Nat.ltb Nat.leb Nat.eqb]. rewrite entry_mk by lia. reflexivity.
    + assert (j = 0) by lia. subst j. cbn [minus Nat.eqb]. change (1 <? 1) with false. cbv iota. rewrite transpose_entry by (autorewrite with sh; lia).
      rewrite entry_mk by lia. unfold Rmean. autorewrite with sh. rewrite Rsum_sumn. cbn [ndiv NumR nofZ]. rewrite <- INR_IZR_INZ.
      f_equal. apply sumn_ext. intros k Hk. rewrite entry_mk by lia. reflexivity.
Qed.
(** The whole object: configured on some spectra, then asked to transform a spectrum. *)
Theorem C44_transform (ranges : list (R * R)) (s : msc_st R) (training spectrum : mat R) :
  wf spectrum -> nr training = nr spectrum -> 2 <= nc training -> 2 <= nc spectrum ->
  let reference i := Rmean (nc training - 1) (fun k => entry training i (1 + k)) in
  ForallOrdPairs (apart spectrum) ranges ->
  Forall (fun range => affine_on range (mk (nr spectrum) 2 (fun i _ => reference i)) spectrum) ranges ->
  let s' := fst (t_configure (msc None ranges) s training) in
  exists out, t_transform (msc None ranges) s' spectrum = (s', Ok out) /\ nr out = nr spectrum /\ nc out = nc spectrum /\
    (forall i, i < nr spectrum -> covered ranges (entry spectrum i 0) -> entry out i 1 = reference i) /\
    (forall i j, i < nr spectrum -> j < nc spectrum -> j <> 1 \/ ~ covered ranges (entry spectrum i 0) -> entry out i j = entry spectrum i j).
Proof.
  intros Hw Hr Hc1 Hc2 reference HA HF s'. destruct (C44_reference ranges None s training Hc1) as (av & Ea & (Wa & Ra & Ca & Na)).
  unfold s'. rewrite Ea. cbn [fst]. unfold t_transform. cbn [t_configured msc m_configured negb t_do m_average need bind].
  destruct (C44_correct ranges av spectrum Hw ltac:(congruence) ltac:(lia) Hc2 HA) as (out & Eo & Wo & Ro & Co & O1 & O2).
  - eapply Forall_impl; [|exact HF]. intros r (a & b & Hb & H1 & i & j & Hi & Hj & Wi & Wj & Hne). exists a, b. split; [exact Hb|]. split.
    + intros k Hk Hwk. rewrite (H1 k Hk Hwk). rewrite entry_mk by lia. rewrite Na by lia. reflexivity.
    + exists i, j. split; [exact Hi|]. split; [exact Hj|]. split; [exact Wi|]. split; [exact Wj|]. rewrite !Na by lia. rewrite !entry_mk in Hne by lia. exact Hne.
  - exists out. split; [now rewrite Eo|]. split; [exact Ro|]. split; [exact Co|]. split; [|exact O2].
    intros i Hi HC. rewrite O1 by assumption. rewrite Na by lia. reflexivity.
Qed.
Theorem C44_no_inverse (ranges : list (R * R)) prefilter (s : msc_st R) (data : mat R) :
  t_undo (msc prefilter ranges) s data = Err NotImplementedError.
Proof. reflexivity. Qed.
Example C44_ex : let spectrum := mk 3 2 (fun i j => if j =? 0 then INR i else (1 + 2 * INR i)%R) in
  let reference := mk 3 2 (fun i j => INR i) in
  wf spectrum /\ ForallOrdPairs (apart spectrum) [(0, 1)%R] /\ Forall (fun range => affine_on range reference spectrum) [(0, 1)%R] /\
  covered [(0, 1)%R] (entry spectrum 1 0) /\ ~ covered [(0, 1)%R] (entry spectrum 2 0).
Proof.
  cbv zeta. split; [apply mk_wf|]. split; [constructor; constructor|]. split; [|split].
  - constructor; [|constructor]. exists 1%R, 2%R. split; [lra|]. split.
    + cbn [nr mk]. intros i Hi _. rewrite !entry_mk by lia. reflexivity.
    + exists 0, 1. cbn [nr mk]. split; [lia|]. split; [lia|]. unfold within. rewrite !entry_mk by lia. cbn [Nat.eqb fst snd INR]. lra.
  - exists (0, 1)%R. split; [now left|]. unfold within. rewrite entry_mk by lia. cbn [Nat.eqb fst snd INR]. lra.
  - intros (r & [<-|[]] & Hr). unfold within in Hr. rewrite entry_mk in Hr by lia. cbn [Nat.eqb fst snd INR] in Hr. lra.
Qed.

(** ** The gradient filter *)
Definition clamp (n : nat) (p : nat) : nat := if p <? 2 then 0 else if p <? n + 2 then p - 2 else n - 1.
Lemma extend_matrix_spec (data : mat R) : wf data -> nr data <> 0 ->
  exists e, extend_matrix data = Ok e /\ is_mat e (nr data + 4) (nc data) (fun p j => entry data (clamp (nr data) p) j).
Proof.
  intros Hw Hn. unfold extend_matrix. change 0%Z with (Z.of_nat 0). rewrite get_row_nat by lia. cbn [bind].
  replace (Z.of_nat (nr data) - 1)%Z with (Z.of_nat (nr data - 1)) by lia. rewrite get_row_nat by lia. cbn [bind].
  set (f := mk 1 (nc data) (fun _ j => entry data 0 j)). set (l := mk 1 (nc data) (fun _ j => entry data (nr data - 1) j)).
  destruct (concat_rows_ok f f (mk_wf _ _ _) (mk_wf _ _ _) eq_refl) as (a & Ea & (Wa & Ra & Ca & Na)). rewrite Ea. cbn [bind].
  change (nr f) with 1 in *. change (nc f) with (nc data) in *. change (1 + 1) with 2 in *.
  destruct (concat_rows_ok a data Wa Hw Ca) as (b & Eb & (Wb & Rb & Cb & Nb)). rewrite Eb. cbn [bind]. rewrite Ra, Ca in *.
  destruct (concat_rows_ok b l Wb (mk_wf _ _ _) Cb) as (c & Ec & (Wc & Rc & Cc & Nc)). rewrite Ec. cbn [bind]. rewrite Rb, Cb in *. change (nr l) with 1 in *.
  destruct (concat_rows_ok c l Wc (mk_wf _ _ _) Cc) as (d & Ed & (Wd & Rd & Cd & Nd)). rewrite Ed. exists d. split; [reflexivity|]. rewrite Rc, Cc in *. change (nr l) with 1 in *.
  split; [exact Wd|]. split; [lia|]. split; [exact Cd|]. intros p j Hp Hj. rewrite Nd by lia. unfold clamp.
  destruct (Nat.ltb_spec p 2) as [H2|H2].
  - destruct (Nat.ltb_spec p (2 + nr data + 1)); [|lia]. rewrite Nc by lia. destruct (Nat.ltb_spec p (2 + nr data)); [|lia]. rewrite Nb by lia.
    destruct (Nat.ltb_spec p 2); [|lia]. rewrite Na by lia. unfold f. destruct (Nat.ltb_spec p 1); rewrite entry_mk by lia; reflexivity.
  - destruct (Nat.ltb_spec p (nr data + 2)) as [H3|H3].
    + destruct (Nat.ltb_spec p (2 + nr data + 1)); [|lia]. rewrite Nc by lia. destruct (Nat.ltb_spec p (2 + nr data)); [|lia]. rewrite Nb by lia.
      destruct (Nat.ltb_spec p 2); [lia|]. reflexivity.
    + destruct (Nat.ltb_spec p (2 + nr data + 1)) as [H4|H4].
      * rewrite Nc by lia. destruct (Nat.ltb_spec p (2 + nr data)); [lia|]. unfold l. rewrite entry_mk by lia. reflexivity.
      * unfold l. rewrite entry_mk by lia. reflexivity.
Qed.
Lemma smooth_row_spec (e : mat R) (i : nat) : 2 <= i -> i + 2 < nr e ->
  exists r, smooth_row yg_coef (Z.of_nat i) e = Ok r /\
    is_mat r 1 (nc e) (fun _ j => (2 / 10 * entry e (i - 2) j + 1 / 10 * entry e (i - 1) j - 1 / 10 * entry e (i + 1) j - 2 / 10 * entry e (i + 2) j)%R).
Proof.
  intros Hi Hi2. unfold smooth_row, for_range. cbn [length yg_coef seq for_each].
  assert (HZ : is_mat (zeros (T:=R) 1 (Z.of_nat (nc e))) 1 (nc e) (fun _ _ => 0%R)).
  { unfold zeros. destruct (Z.eqb_spec (Z.of_nat (nc e)) (-1)); [lia|]. unfold rlen. rewrite Nat2Z.id. change (Z.to_nat 1) with 1. unfold create. rewrite np_array2_tab by lia. apply is_mat_mk. }
  assert (STEP : forall (res_ : mat R) g p c, is_mat res_ 1 (nc e) (fun _ j => g j) -> p < nr e ->
     exists res', (do row <- get_row e (Z.of_nat p); add res_ (mul_scalar row c)) = Ok res' /\ is_mat res' 1 (nc e) (fun _ j => (g j + entry e p j * c)%R)).
  { intros res_ g p c (W & Rr & Cr & Nr) Hp. rewrite get_row_nat by assumption. cbn [bind].
    unfold add. rewrite must_be_same_shape_eq. unfold same_shape_as. autorewrite with sh. rewrite Rr, Cr, !Nat.eqb_refl. cbn [andb bind]. eexists. split; [reflexivity|].
    unfold map2_mat. rewrite Rr, Cr. apply is_mat_mk_ext. intros r j Hr Hj. assert (r = 0) by lia. subst r. rewrite Nr by lia. rewrite entry_mul_scalar by (cbn; lia). rewrite entry_mk by lia. reflexivity. }
  replace (Z.of_nat i - (Z.of_nat 0 - 2))%Z with (Z.of_nat (i + 2)) by lia. replace (Z.of_nat i - (Z.of_nat 1 - 2))%Z with (Z.of_nat (i + 1)) by lia.
  replace (Z.of_nat i - (Z.of_nat 2 - 2))%Z with (Z.of_nat i) by lia. replace (Z.of_nat i - (Z.of_nat 3 - 2))%Z with (Z.of_nat (i - 1)) by lia.
  replace (Z.of_nat i - (Z.of_nat 4 - 2))%Z with (Z.of_nat (i - 2)) by lia.
  cbn [minus nth yg_coef].
  match goal with |- context[bind (get_row e (Z.of_nat ?p)) (fun row => add ?r (mul_scalar row ?c))] => destruct (STEP r _ p c HZ) as (r1 & E1 & H1); [lia|] end. rewrite E1. cbn [bind]. clear E1 HZ.
  match goal with |- context[bind (get_row e (Z.of_nat ?p)) (fun row => add ?r (mul_scalar row ?c))] => destruct (STEP r _ p c H1) as (r2 & E2 & H2); [lia|] end. rewrite E2. cbn [bind]. clear E2 H1.
  match goal with |- context[bind (get_row e (Z.of_nat ?p)) (fun row => add ?r (mul_scalar row ?c))] => destruct (STEP r _ p c H2) as (r3 & E3 & H3); [lia|] end. rewrite E3. cbn [bind]. clear E3 H2.
  match goal with |- context[bind (get_row e (Z.of_nat ?p)) (fun row => add ?r (mul_scalar row ?c))] => destruct (STEP r _ p c H3) as (r4 & E4 & H4); [lia|] end. rewrite E4. cbn [bind]. clear E4 H3.
  match goal with |- context[bind (get_row e (Z.of_nat ?p)) (fun row => add ?r (mul_scalar row ?c))] => destruct (STEP r _ p c H4) as (r5 & E5 & H5); [lia|] end. rewrite E5. cbn [bind]. clear E5 H4.
  exists r5. split; [reflexivity|]. eapply is_mat_fun_ext; [exact H5|]. intros r0 j _ _. cbn [ndiv NumR nofZ n1 n0 nopp]. field.
Qed.
(** exact output of the filter, rows beyond the ends being repetitions of the first / last row *)
Lemma yg_transform_spec (data : mat R) : wf data -> nr data <> 0 ->
  exists out, yg_transform data = Ok out /\
    is_mat out (nr data) (nc data) (fun i j =>
      (2 / 10 * entry data (clamp (nr data) i) j + 1 / 10 * entry data (clamp (nr data) (i + 1)) j
       - 1 / 10 * entry data (clamp (nr data) (i + 3)) j - 2 / 10 * entry data (clamp (nr data) (i + 4)) j)%R).
Proof.
  intros Hw Hn. unfold yg_transform. destruct (extend_matrix_spec data Hw Hn) as (e & Ee & (We & Re & Ce & Ne)). rewrite Ee. cbn [bind].
  set (g := fun p j => (2 / 10 * entry e (p - 2) j + 1 / 10 * entry e (p - 1) j - 1 / 10 * entry e (p + 1) j - 2 / 10 * entry e (p + 2) j)%R).
  destruct (for_seq_inv (fun k r => is_mat r (nr e) (nc e) (fun p j => if (2 <=? p) && (p <? k) then g p j else 0%R))
    (fun result i => do row_smoothed <- smooth_row yg_coef (Z.of_nat i) e; set_row result (Z.of_nat i) row_smoothed) 2 (nr e - 4) (zeros_like e)) as (r & Er & (Wr & Rr & Cr & Nr)).
  - unfold zeros_like, zeros. destruct (Z.eqb_spec (Z.of_nat (nc e)) (-1)); [lia|]. unfold rlen. rewrite !Nat2Z.id. unfold create. rewrite np_array2_tab by lia.
    apply is_mat_mk_ext. intros p j _ _. destruct (Nat.leb_spec 2 p), (Nat.ltb_spec p 2); try reflexivity. lia.
  - intros k x Hk (Wx & Rx & Cx & Nx). destruct (smooth_row_spec e k ltac:(lia) ltac:(lia)) as (s & Es & (Ws & Rs & Cs & Ns)). rewrite Es. cbn [bind].
    unfold set_row. unfold must_be_vector. assert (Hv : is_vector s = true) by (apply is_vector_iff; left; exact Rs). rewrite Hv. cbn [negb bind].
    rewrite is_column_vector_eqb. set (s' := if nc s =? 1 then transpose s else s).
    rewrite npidx_nat by lia. cbn [bind]. eexists. split; [reflexivity|].
    assert (Hs' : nc s' = nc e /\ forall j, j < nc e -> entry s' 0 j = g k j).
    { unfold s'. destruct (Nat.eqb_spec (nc s) 1) as [E1|E1].
      - split; [cbn; lia|]. intros j Hj. assert (j = 0) by lia. subst j. rewrite transpose_entry by lia. rewrite Ns by lia. reflexivity.
      - split; [exact Cs|]. intros j Hj. rewrite Ns by lia. reflexivity. }
    destruct Hs' as [Cs' Ns']. rewrite Rx, Cx. apply is_mat_mk_ext. intros p j Hp Hj. rewrite Cs'. rewrite Nat.min_id.
    destruct (Nat.eqb_spec p k) as [->|Hpk]; cbn [andb].
    + destruct (Nat.ltb_spec j (nc e)); [|lia]. rewrite Ns' by assumption. destruct (Nat.leb_spec 2 k), (Nat.ltb_spec k (S k)); try lia. reflexivity.
    + rewrite Nx by lia. replace (p <? S k) with (p <? k); [reflexivity|]. apply Bool.eq_true_iff_eq. rewrite !Nat.ltb_lt. lia.
  - rewrite Er. cbn [bind]. rewrite Rr, Cr. replace (Z.of_nat (nr e) - 2)%Z with (Z.of_nat (nr e - 2)) by lia. change 2%Z with (Z.of_nat 2). change 0%Z with (Z.of_nat 0).
    rewrite get_sub_matrix_range by lia. eexists. split; [reflexivity|]. rewrite Re, Ce in *. replace (nr data + 4 - 2 - 2) with (nr data) by lia. rewrite Nat.sub_0_r.
    apply is_mat_mk_ext. intros i j Hi Hj. rewrite Nr by lia. destruct (Nat.leb_spec 2 (2 + i)), (Nat.ltb_spec (2 + i) (2 + (nr data + 4 - 4))); try lia. cbn [andb]. unfold g.
    rewrite !Ne by lia. replace (2 + i - 2) with i by lia. replace (2 + i - 1) with (i + 1) by lia. replace (2 + i + 1) with (i + 3) by lia. replace (2 + i + 2) with (i + 4) by lia. reflexivity.
Qed.
(** C58 is false as stated: the filter returns the NEGATIVE derivative. *)
Theorem C58_derivative_partial (data : mat R) (α β γ : nat -> R) : wf data -> 5 <= nr data ->
  (forall i j, i < nr data -> j < nc data -> entry data i j = (α j + β j * INR i + γ j * (INR i * INR i))%R) ->
  exists out, yg_transform data = Ok out /\ wf out /\ nr out = nr data /\ nc out = nc data /\
    forall i j, 2 <= i -> i + 2 < nr data -> j < nc data -> entry out i j = (- (β j + 2 * γ j * INR i))%R.
Proof.
  intros Hw Hn Hq. destruct (yg_transform_spec data Hw ltac:(lia)) as (out & E & (W & R1 & C1 & N1)). exists out.
  split; [exact E|]. split; [exact W|]. split; [exact R1|]. split; [exact C1|]. intros i j Hi Hi2 Hj. rewrite N1 by lia. unfold clamp.
  destruct (Nat.ltb_spec i 2), (Nat.ltb_spec (i + 1) 2), (Nat.ltb_spec (i + 3) 2), (Nat.ltb_spec (i + 4) 2); try lia.
  destruct (Nat.ltb_spec i (nr data + 2)), (Nat.ltb_spec (i + 1) (nr data + 2)), (Nat.ltb_spec (i + 3) (nr data + 2)), (Nat.ltb_spec (i + 4) (nr data + 2)); try lia.
  rewrite !Hq by lia. rewrite (minus_INR i 2), (minus_INR (i + 1) 2), (minus_INR (i + 3) 2), (minus_INR (i + 4) 2) by lia. rewrite !plus_INR. cbn [INR]. field.
Qed.
Theorem C58_refuted : exists (data : mat R) out, wf data /\ nr data = 5 /\ nc data = 1 /\
  (forall i, i < 5 -> entry data i 0 = INR i) /\ yg_transform data = Ok out /\ entry out 2 0 = (-1)%R.
Proof.
  set (data := mk 5 1 (fun i _ => INR i)). destruct (C58_derivative_partial data (fun _ => 0%R) (fun _ => 1%R) (fun _ => 0%R) (mk_wf _ _ _) ltac:(cbn; lia)) as (out & E & _ & _ & _ & N).
  - intros i j Hi Hj. unfold data in *. cbn [nr nc mk] in *. rewrite entry_mk by assumption. ring.
  - exists data, out. split; [apply mk_wf|]. split; [reflexivity|]. split; [reflexivity|]. split; [intros i Hi; unfold data; now rewrite entry_mk by lia|]. split; [exact E|].
    rewrite N by (cbn; lia). ring.
Qed.
(** the number of rows is kept for every non-empty matrix; an empty one raises IndexError *)
Theorem C58_rows (data : mat R) : wf data ->
  (nr data <> 0 -> exists out, yg_transform data = Ok out /\ wf out /\ nr out = nr data /\ nc out = nc data) /\
  (nr data = 0 -> yg_transform data = Err IndexError).
Proof.
  intros Hw. split; intros Hn.
  - destruct (yg_transform_spec data Hw Hn) as (out & E & (W & R1 & C1 & _)). exists out. auto.
  - unfold yg_transform, extend_matrix, get_row. rewrite Hn. reflexivity.
Qed.
Example C58_ex : let data := mk 6 1 (fun i _ => (1 + 2 * INR i + 3 * (INR i * INR i))%R) in
  wf data /\ 5 <= nr data /\ (forall i j, i < nr data -> j < nc data -> entry data i j = (1 + 2 * INR i + 3 * (INR i * INR i))%R).
Proof. cbv zeta. split; [apply mk_wf|]. split; [cbn; lia|]. cbn [nr nc mk]. intros i j Hi Hj. now rewrite entry_mk by assumption. Qed.

Print Assumptions C44_correct.
Print Assumptions C44_reference.
Print Assumptions C44_transform.
Print Assumptions C44_no_inverse.
Print Assumptions C58_derivative_partial.
Print Assumptions C58_refuted.
Print Assumptions C58_rows.
