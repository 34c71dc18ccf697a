(** C42, C43: the Fourier transformation. *)
From Coq Require Import List ZArith Lia Bool Arith Reals Lra.
From Verif Require Import Base Num Mat M_Matrix M_FFT S_Matrix L_Base L_Mat L_Matrix L_MatR L_FFT.
Import ListNotations.
Local Open Scope nat_scope.

(** Independent specification: the Fourier coefficients of a vector of length n, optionally
    scaled to be orthonormal; F_k = Σ_j x_j e^(-2πi jk/n). *)
Definition F_scale (ortho : bool) (n : nat) : R := (if ortho then / sqrt (INR n) else 1)%R.
Definition F_re (ortho : bool) (n : nat) (x : nat -> R) (k : nat) : R :=
  (F_scale ortho n * Rsum n (fun j => x j * cos (2 * PI * INR j * INR k / INR n)))%R.
Definition F_im (ortho : bool) (n : nat) (x : nat -> R) (k : nat) : R :=
  (F_scale ortho n * - Rsum n (fun j => x j * sin (2 * PI * INR j * INR k / INR n)))%R.
Lemma F_re_dre ortho n x k : F_re ortho n x k = (F_scale ortho n * dre n x k)%R.
Proof. unfold F_re, dre. now rewrite Rsum_sumn. Qed.
Lemma F_im_dim ortho n x k : F_im ortho n x k = (F_scale ortho n * dim n x k)%R.
Proof. unfold F_im, dim. now rewrite Rsum_sumn. Qed.

(** A number θ is the phase of re + i im *)
Definition phase (re im θ : R) : Prop :=
  (- PI < θ <= PI /\ sqrt (re * re + im * im) * cos θ = re /\ sqrt (re * re + im * im) * sin θ = im)%R.
(** What each output mode shows in column c, given the Fourier coefficients of the row. *)
Definition shows (mode : output_mode) (n : nat) (re im : nat -> R) (c : nat) (v : R) : Prop :=
  match mode with
  | REAL_COMPONENT_ONLY => v = re c
  | IMAG_COMPONENT_ONLY => v = im c
  | AMPLITUDE_ONLY => v = sqrt (re c * re c + im c * im c)
  | PHASE_ANGLE_ONLY => phase (re c) (im c) v
  | REAL_AND_IMAG_PAIRS =>
      (c = 0 -> v = re 0) /\ (forall k, k <> 0 -> c = 2 * k - 1 -> v = re k) /\ (forall k, k <> 0 -> c = 2 * k -> v = im k)
  | AMPL_ANGLE_PAIRS =>
      (c = 0 -> v = re 0) /\
      (forall k, k <> 0 -> c = 2 * k - 1 -> v = if 2 * k =? n then re k else sqrt (re k * re k + im k * im k)) /\
      (forall k, k <> 0 -> c = 2 * k -> phase (re k) (im k) v)
  end.
Definition mode_columns (mode : output_mode) (n : nat) : nat :=
  match mode with REAL_AND_IMAG_PAIRS | AMPL_ANGLE_PAIRS => n | _ => n / 2 + 1 end.

Lemma packed_shows re im c :
  (c = 0 -> packed re im c = re 0) /\ (forall k, k <> 0 -> c = 2 * k - 1 -> packed re im c = re k) /\ (forall k, k <> 0 -> c = 2 * k -> packed re im c = im k).
Proof.
  split; [intros ->; reflexivity|]. split; intros k Hk ->.
  - rewrite <- (packed_re re im k). destruct (Nat.eqb_spec k 0); [lia|reflexivity].
  - now apply packed_im.
Qed.
Lemma phase_angle re im : phase re im (c_angle re im).
Proof. split; [apply angle_range|]. exact (polar re im). Qed.
Lemma even_double k : even (2 * k) = true.
Proof. unfold even. apply Nat.eqb_eq. replace (2 * k) with (0 + k * 2) by lia. rewrite Nat.mod_add by lia. reflexivity. Qed.
Lemma even_odd k : k <> 0 -> even (2 * k - 1) = false.
Proof. intros Hk. unfold even. apply Nat.eqb_neq. replace (2 * k - 1) with (1 + (k - 1) * 2) by lia. rewrite Nat.mod_add by lia. discriminate. Qed.

Lemma fft_internal ortho m : nc m <> 0 -> exists f, fft_ ortho m = Ok f /\
  is_mat (internal_format f) (nr m) (nc m)
    (fun r c => packed (fun k => F_scale ortho (nc m) * dre (nc m) (entry m (roll (nr m) (nr m / 2) r)) k)%R
                       (fun k => F_scale ortho (nc m) * dim (nc m) (entry m (roll (nr m) (nr m / 2) r)) k)%R c).
Proof.
  intros Hn. unfold fft_, np_fft. destruct (Nat.eqb_spec (nc m) 0) as [|_]; [contradiction|]. cbn [bind]. eexists. split; [reflexivity|].
  match goal with |- is_mat (internal_format (np_fftshift ?X)) _ _ _ => pose proof (internal_format_spec X Hn) as HI end.
  exact HI.
Qed.
Lemma format_shows mode a rows n re im : n <> 0 -> (forall r, r < rows -> im r 0 = 0%R) -> (forall r k, r < rows -> 2 * k = n -> im r k = 0%R) ->
  is_mat a rows n (fun r c => packed (re r) (im r) c) ->
  wf (format_output mode a) /\ nr (format_output mode a) = rows /\ nc (format_output mode a) = mode_columns mode n /\
  forall r c, r < rows -> c < mode_columns mode n -> shows mode n (re r) (im r) c (entry (format_output mode a) r c).
Proof.
  intros Hn I0 IN (Wa & Ra & Ca & Ea). assert (Hna : nc a <> 0) by congruence.
  assert (PR : forall r k, r < rows -> k <= n / 2 -> entry a r (if k =? 0 then 0 else 2 * k - 1) = re r k).
  { intros r k Hr Hk. rewrite Ea; [apply packed_re|assumption|]. pose proof (Nat.div_mod n 2 ltac:(lia)). destruct (Nat.eqb_spec k 0); lia. }
  assert (PI : forall r k, r < rows -> 2 * k < n -> k <> 0 -> entry a r (2 * k) = im r k) by (intros r k Hr Hk Hk0; rewrite Ea by lia; now apply packed_im).
  assert (P0 : forall r, r < rows -> entry a r 0 = re r 0) by (intros; apply (PR _ 0); lia).
  assert (PO : forall r k, r < rows -> k <> 0 -> 2 * k <= n -> entry a r (2 * k - 1) = re r k).
  { intros r k Hr Hk Hk'. rewrite <- (PR r k Hr). - destruct (Nat.eqb_spec k 0); [lia|reflexivity]. - apply Nat.div_le_lower_bound; lia. }
  pose proof (Nat.div_mod n 2 ltac:(lia)) as D. pose proof (Nat.mod_upper_bound n 2 ltac:(lia)) as D'.
  destruct mode; unfold mode_columns, shows.
  - destruct (real_format_spec a Hna) as (W & E1 & E2 & E3). rewrite Ra, Ca in *. split; [exact W|]. split; [exact E1|]. split; [exact E2|].
    intros r c Hr Hc. rewrite E3 by assumption. apply PR; lia.
  - pose proof (singles_format_spec a (fun i r => entry a r i) (fun _ => 0%R) (fun _ => 0%R) Hna) as HS.
    match type of HS with is_mat _ ?r ?c ?f => change (is_mat (format_output IMAG_COMPONENT_ONLY a) r c f) in HS end.
    destruct HS as (W & E1 & E2 & E3). rewrite Ra, Ca in *. split; [exact W|]. split; [exact E1|]. split; [exact E2|].
    intros r c Hr Hc. rewrite E3 by assumption. destruct (Nat.eqb_spec c 0) as [->|Hc0]; [now rewrite I0|].
    destruct (Nat.eqb_spec (2 * c) n) as [Q|Q]; [now rewrite IN|]. apply PI; lia.
  - split; [exact Wa|]. split; [exact Ra|]. split; [exact Ca|]. intros r c Hr Hc. cbn [format_output]. rewrite Ea by assumption. apply packed_shows.
  - pose proof (singles_format_spec a (fun i r => c_abs (entry a r (i - 1)) (entry a r i)) (fun r => c_abs (entry a r 0) 0) (fun r => c_abs (entry a r (nc a - 1)) 0) Hna) as HS.
    match type of HS with is_mat _ ?r ?c ?f => change (is_mat (format_output AMPLITUDE_ONLY a) r c f) in HS end.
    destruct HS as (W & E1 & E2 & E3). rewrite Ra, Ca in *. split; [exact W|]. split; [exact E1|]. split; [exact E2|].
    intros r c Hr Hc. rewrite E3 by assumption. destruct (Nat.eqb_spec c 0) as [->|Hc0]; [rewrite P0, I0 by assumption; reflexivity|].
    destruct (Nat.eqb_spec (2 * c) n) as [Q|Q].
    + rewrite IN by assumption. rewrite <- Q at 1. rewrite PO by lia. reflexivity.
    + rewrite PO, PI by lia. reflexivity.
  - pose proof (singles_format_spec a (fun i r => c_angle (entry a r (i - 1)) (entry a r i)) (fun r => c_angle (entry a r 0) 0) (fun r => c_angle (entry a r (nc a - 1)) 0) Hna) as HS.
    match type of HS with is_mat _ ?r ?c ?f => change (is_mat (format_output PHASE_ANGLE_ONLY a) r c f) in HS end.
    destruct HS as (W & E1 & E2 & E3). rewrite Ra, Ca in *. split; [exact W|]. split; [exact E1|]. split; [exact E2|].
    intros r c Hr Hc. rewrite E3 by assumption. destruct (Nat.eqb_spec c 0) as [->|Hc0]; [rewrite P0, I0 by assumption; apply phase_angle|].
    destruct (Nat.eqb_spec (2 * c) n) as [Q|Q].
    + rewrite IN by assumption. rewrite <- Q at 1. rewrite PO by lia. apply phase_angle.
    + rewrite PO, PI by lia. apply phase_angle.
  - pose proof (pairs_format_spec a (fun i r => c_abs (entry a r (i - 1)) (entry a r i)) (fun i r => c_angle (entry a r (i - 1)) (entry a r i))
       (fun r => entry a r 0) (fun r => entry a r (nc a - 1)) Hna) as HS.
    match type of HS with is_mat _ ?r ?c ?f => change (is_mat (format_output AMPL_ANGLE_PAIRS a) r c f) in HS end.
    destruct HS as (W & E1 & E2 & E3). rewrite Ra, Ca in *. split; [exact W|]. split; [exact E1|]. split; [exact E2|].
    intros r c Hr Hc. rewrite E3 by assumption. split; [intros ->; cbn [Nat.eqb]; now apply P0|]. split; intros k Hk ->.
    + destruct (Nat.eqb_spec (2 * k - 1) 0) as [Q|_]; [lia|]. rewrite even_odd by assumption. destruct (Nat.eqb_spec (2 * k) n) as [Q|Q].
      * assert (Ee : even n = true) by (rewrite <- Q; apply even_double). rewrite Ee. replace (2 * k - 1 =? n - 1) with true by (symmetry; apply Nat.eqb_eq; lia). cbn [andb].
        rewrite <- Q at 1. apply PO; lia.
      * replace (2 * k - 1 =? n - 1) with false by (symmetry; apply Nat.eqb_neq; lia). rewrite andb_false_r.
        replace (2 * k - 1 + 1) with (2 * k) by lia. assert (2 * k < n) by lia. rewrite PO, PI by lia. reflexivity.
    + destruct (Nat.eqb_spec (2 * k) 0) as [Q|_]; [lia|]. rewrite even_double.
      assert (Q : even n && (2 * k =? n - 1) = false).
      { apply andb_false_iff. destruct (even n) eqn:En; [right|now left]. apply even_true in En. apply Nat.eqb_neq. lia. }
      rewrite Q, PO, PI by lia. apply phase_angle.
Qed.

(** What is true: output row r shows the Fourier coefficients of input row (r - rows//2) mod rows,
    in every output mode, for any number of rows and columns. *)
Theorem C42_rows_partial (ortho : bool) (mode : output_mode) (m : mat R) : wf m -> nc m <> 0 ->
  exists out, fft_transform ortho mode m = Ok out /\ wf out /\ nr out = nr m /\ nc out = mode_columns mode (nc m) /\
    forall r c, r < nr m -> c < mode_columns mode (nc m) ->
      let source := (r + (nr m - nr m / 2)) mod nr m in
      shows mode (nc m) (F_re ortho (nc m) (entry m source)) (F_im ortho (nc m) (entry m source)) c (entry out r c).
Proof.
  intros Hw Hn. destruct (fft_internal ortho m Hn) as (f & Ef & HI). unfold fft_transform. rewrite Ef. cbn [bind]. eexists. split; [reflexivity|].
  set (src := fun r => entry m (roll (nr m) (nr m / 2) r)).
  assert (HI' : is_mat (internal_format f) (nr m) (nc m) (fun r c => packed (F_re ortho (nc m) (src r)) (F_im ortho (nc m) (src r)) c)).
  { eapply is_mat_fun_ext; [exact HI|]. intros r c Hr Hc. cbv beta. unfold packed, src. rewrite !F_re_dre, F_im_dim. reflexivity. }
  apply (format_shows mode (internal_format f) (nr m) (nc m) (fun r => F_re ortho (nc m) (src r)) (fun r => F_im ortho (nc m) (src r)) Hn); [| |exact HI'].
  - intros r _. rewrite F_im_dim, dim_0. ring.
  - intros r k _ Hk. rewrite F_im_dim, dim_nyquist by assumption. ring.
Qed.
(** The claim does hold for a single row. *)
Theorem C42_single_row (ortho : bool) (mode : output_mode) (m : mat R) : wf m -> nr m = 1 -> nc m <> 0 ->
  exists out, fft_transform ortho mode m = Ok out /\ wf out /\ nr out = 1 /\ nc out = mode_columns mode (nc m) /\
    forall c, c < mode_columns mode (nc m) ->
      shows mode (nc m) (F_re ortho (nc m) (entry m 0)) (F_im ortho (nc m) (entry m 0)) c (entry out 0 c).
Proof.
  intros Hw Hr Hn. destruct (C42_rows_partial ortho mode m Hw Hn) as (out & E & W & R1 & C1 & HS). exists out.
  split; [exact E|]. split; [exact W|]. split; [congruence|]. split; [exact C1|]. intros c Hc. specialize (HS 0 c ltac:(lia) Hc). cbv zeta in HS.
  rewrite Hr in HS. exact HS.
Qed.
(** C42 as stated is false: with two rows (here even of one column) the rows are exchanged. *)
Theorem C42_rows_refuted :
  exists (m : mat R) (out : mat R), wf m /\ nr m = 2 /\ fft_transform false AMPLITUDE_ONLY m = Ok out /\
    ~ shows AMPLITUDE_ONLY (nc m) (F_re false (nc m) (entry m 0)) (F_im false (nc m) (entry m 0)) 0 (entry out 0 0).
Proof.
  set (m := mk 2 1 (fun i _ => INR (i + 1))). destruct (C42_rows_partial false AMPLITUDE_ONLY m (mk_wf _ _ _) ltac:(discriminate)) as (out & E & W & R1 & C1 & HS).
  exists m, out. split; [apply mk_wf|]. split; [reflexivity|]. split; [exact E|]. specialize (HS 0 0 ltac:(cbn; lia) ltac:(cbn; lia)). cbv zeta in HS.
  change ((0 + (nr m - nr m / 2)) mod nr m) with 1 in HS. change (nc m) with 1 in *. unfold shows in *. rewrite HS.
  assert (FR : forall i, i < 2 -> F_re false 1 (entry m i) 0 = INR (i + 1)).
  { intros i Hi. unfold F_re, F_scale. cbn [Rsum]. unfold m. rewrite entry_mk by lia. cbn [INR]. replace (2 * PI * 0 * 0 / 1)%R with 0%R by field. rewrite cos_0. ring. }
  assert (FI : forall i, i < 2 -> F_im false 1 (entry m i) 0 = 0%R).
  { intros i Hi. rewrite F_im_dim, dim_0. ring. }
  rewrite !FR, !FI by lia. intros Q. apply sqrt_inj in Q; cbn [INR plus] in *; lra.
Qed.
Theorem C42_no_columns (ortho : bool) (mode : output_mode) (m : mat R) : nc m = 0 -> fft_transform ortho mode m = Err ValueError.
Proof. intros E. unfold fft_transform, fft_, np_fft. rewrite E. reflexivity. Qed.
Example C42_ex : let m := mk 1 3 (fun _ j => INR j) in wf m /\ nr m = 1 /\ nc m <> 0 /\ F_re false 3 (entry m 0) 0 = 3%R.
Proof.
  cbv zeta. split; [apply mk_wf|]. split; [reflexivity|]. split; [discriminate|]. unfold F_re, F_scale. cbn [Rsum]. rewrite !entry_mk by lia. cbn [INR].
  rewrite !Rmult_0_r. unfold Rdiv. rewrite !Rmult_0_l, cos_0. ring.
Qed.

(** C43: transform then inverse_transform gives the samples back (as complex numbers with
    imaginary part zero), for both pair modes, with or without orthonormalisation. *)
Definition invertible (mode : output_mode) : Prop := mode = REAL_AND_IMAG_PAIRS \/ mode = AMPL_ANGLE_PAIRS.
Theorem C43_round_trip (ortho : bool) (mode : output_mode) (m : mat R) : wf m -> nc m <> 0 -> invertible mode ->
  exists out back, fft_transform ortho mode m = Ok out /\ nr out = nr m /\ nc out = nc m /\
    fft_inverse ortho mode out = Ok back /\ c_nr back = nr m /\ c_nc back = nc m /\
    forall i j, i < nr m -> j < nc m -> c_re back i j = entry m i j /\ c_im back i j = 0%R.
Proof.
  intros Hw Hn Hmode. destruct (C42_rows_partial ortho mode m Hw Hn) as (out & E & W & R1 & C1 & _).
  assert (MC : mode_columns mode (nc m) = nc m) by (destruct Hmode as [->| ->]; reflexivity). rewrite MC in C1.
  exists out. unfold fft_transform in E. destruct (fft_internal ortho m Hn) as (f & Ef & HI). unfold fft_transform. rewrite Ef in *. cbn [bind] in *.
  assert (EI : inverse_format_output mode out = Ok (internal_format f)).
  { injection E as <-. destruct Hmode as [->| ->]; [reflexivity|]. apply ampl_angle_inverse; [apply HI|]. destruct HI as (_ & _ & E2 & _). congruence. }
  unfold fft_inverse. rewrite EI. cbn [bind]. pose proof HI as (Wf & Rf & Cf & _). rewrite Cf. destruct (Nat.eqb_spec (nc m) 0) as [|_]; [contradiction|].
  pose proof (unformat_spectrum (internal_format f) (nr m) (nc m) (fun r => entry m (roll (nr m) (nr m / 2) r)) (F_scale ortho (nc m)) Hn HI) as HS.
  destruct (internal_unformat_spec (internal_format f) ltac:(congruence)) as (U1 & U2 & _).
  unfold ifft_, np_ifft, np_ifftshift. cbn [c_nc c_nr c_re c_im]. rewrite U1, U2, Rf, Cf. destruct (Nat.eqb_spec (nc m) 0) as [|_]; [contradiction|].
  eexists. split; [exact E|]. split; [exact R1|]. split; [exact C1|]. split; [reflexivity|]. cbn [c_nc c_nr c_re c_im]. split; [reflexivity|]. split; [reflexivity|].
  intros i j Hi Hj. set (n := nc m) in *. set (s := F_scale ortho n) in *. set (s' := (if ortho then / sqrt (INR n) else / INR n)%R).
  assert (Hs : (s' * s * INR n = 1)%R).
  { unfold s, s', F_scale. assert (0 < INR n)%R by (apply lt_0_INR; lia). destruct ortho; [|field; lra].
    rewrite <- Rinv_mult. rewrite sqrt_sqrt by lra. field. lra. }
  assert (HR : forall k, k < n -> c_re (internal_unformat (internal_format f)) ((i + nr m / 2) mod nr m) ((k + n / 2) mod n) = (s * dre n (entry m i) k)%R /\
                                  c_im (internal_unformat (internal_format f)) ((i + nr m / 2) mod nr m) ((k + n / 2) mod n) = (s * dim n (entry m i) k)%R).
  { intros k Hk. destruct (HS ((i + nr m / 2) mod nr m) k) as [A B]; [apply Nat.mod_upper_bound; lia|assumption|].
    rewrite unroll in A, B by assumption. split; assumption. }
  split.
  - rewrite (sumn_ext n _ (fun k => s * (dre n (entry m i) k * cos (angle_step n j k) - dim n (entry m i) k * sin (angle_step n j k)))%R).
    + rewrite sumR_scal, dft_inverse_re by assumption. rewrite <- !Rmult_assoc, Hs. ring.
    + intros k Hk. destruct (HR k Hk) as [-> ->]. ring.
  - rewrite (sumn_ext n _ (fun k => s * (dre n (entry m i) k * sin (angle_step n j k) + dim n (entry m i) k * cos (angle_step n j k)))%R).
    + rewrite sumR_scal, dft_inverse_im by assumption. ring.
    + intros k Hk. destruct (HR k Hk) as [-> ->]. ring.
Qed.
Theorem C43_not_invertible (ortho : bool) (mode : output_mode) (data : mat R) : ~ invertible mode -> fft_inverse ortho mode data = Err ValueError.
Proof. intros H. unfold invertible in H. destruct mode; try reflexivity; exfalso; tauto. Qed.
(** the integer codes accepted by the output_mode attribute *)
Theorem C43_mode_codes (v : Z) : (exists mode, mode_of_int v = Ok mode) <-> In v [1; 2; 3; 4; 8; 12]%Z.
Proof.
  unfold mode_of_int. repeat match goal with |- context[(v =? ?c)%Z] => destruct (Z.eqb_spec v c) as [->|] end.
  all: split; intros H; try (cbn; tauto); try (eexists; reflexivity).
  - destruct H as (? & H). discriminate.
  - cbn in H. exfalso. intuition congruence.
Qed.
Example C43_ex : let m := mk 2 2 (fun i j => INR (i + 2 * j)) in wf m /\ nc m <> 0 /\ invertible REAL_AND_IMAG_PAIRS /\ ~ invertible AMPLITUDE_ONLY.
Proof. cbv zeta. split; [apply mk_wf|]. split; [discriminate|]. split; [now left|]. intros [H|H]; discriminate. Qed.

Print Assumptions C42_rows_partial.
Print Assumptions C42_single_row.
Print Assumptions C42_rows_refuted.
Print Assumptions C42_no_columns.
Print Assumptions C43_round_trip.
Print Assumptions C43_not_invertible.
Print Assumptions C43_mode_codes.
