(** C102: a parameter assigned to a RobustScaler, QuantileTransformer or PowerTransformer takes effect. *)
From Coq Require Import List ZArith Lia Bool String.
From Verif Require Import Base Num Mat M_Matrix M_Transform M_Wrappers M_Utils.
Import ListNotations.

Section Generic.
Context {T : Type} `{Num T} {P I : Type} (params0 : P) (fit : P -> mat T -> res I) (fwd bwd : I -> mat T -> res (mat T)).
Notation W := (wrapper params0 fit fwd bwd).
(** From now on the object answers like a new one that was given the parameters p before its first use. *)
Definition acts_like_new (s : @wrap_st P I) (p : P) : Prop := forall d,
  snd (t_transform W s d) = snd (t_transform (wrapper p fit fwd bwd) (t_new (wrapper p fit fwd bwd)) d) /\
  snd (t_inverse W s d) = snd (t_inverse (wrapper p fit fwd bwd) (t_new (wrapper p fit fwd bwd)) d).
(** It answers as before. *)
Definition acts_as_before (s s' : @wrap_st P I) : Prop := forall d, snd (t_transform W s' d) = snd (t_transform W s d) /\ snd (t_inverse W s' d) = snd (t_inverse W s d).
Lemma unconfigured_new s p : w_configured s = false -> w_params s = p -> acts_like_new s p.
Proof.
  intros E <- d. unfold t_transform, t_inverse. cbn [t_configured wrapper t_new w_configured]. rewrite E. cbn [negb t_configure wrapper w_params]. destruct (fit (w_params s) d) as [i|e]; split; reflexivity.
Qed.
Lemma setattr_valid v (p : P) (s : @wrap_st P I) : v p = true -> exists s', wrap_setattr (Some v) p s = (s', Ok tt) /\ w_params s' = p /\ acts_like_new s' p.
Proof. intros E. eexists. unfold wrap_setattr. rewrite E. split; [reflexivity|]. split; [reflexivity|]. now apply unconfigured_new. Qed.
Lemma setattr_invalid v (p : P) (s : @wrap_st P I) : v p = false -> wrap_setattr (Some v) p s = (s, Err ValueError).
Proof. intros E. unfold wrap_setattr. now rewrite E. Qed.
Lemma setattr_free (p : P) (s : @wrap_st P I) : exists s', wrap_setattr None p s = (s', Ok tt) /\ w_params s' = p /\
  (w_configured s = false -> acts_like_new s' p) /\ (w_configured s = true -> acts_as_before s s').
Proof.
  eexists. split; [reflexivity|]. split; [reflexivity|]. split; intros E; [now apply unconfigured_new|]. intros d. unfold t_transform, t_inverse. cbn [t_configured wrapper w_configured]. rewrite E. split; reflexivity.
Qed.
End Generic.

Section Classes.
Context {T : Type} `{Num T} {I : Type}.
(** RobustScaler, whatever scikit-learn computes and in every state: quantile_range takes effect or is
    refused and changes nothing; with_centering and with_scaling take effect as long as nothing has been
    configured, and are ignored by a configured object (missing from the full property). *)
Theorem C102_robust_scaler_partial (p0 : robust_params T) (fit : robust_params T -> mat T -> res I) fwd bwd (s : @wrap_st (robust_params T) I) :
  (forall lo hi, nltb n0 lo = true -> nltb lo hi = true -> nltb hi (nofZ 100) = true ->
     exists s', robust_setattr (RSRange lo hi) s = (s', Ok tt) /\ w_params s' = Robust (rs_centering (w_params s)) (rs_scaling (w_params s)) (lo, hi) /\ acts_like_new p0 fit fwd bwd s' (w_params s')) /\
  (forall lo hi, ~ (nltb n0 lo = true /\ nltb lo hi = true /\ nltb hi (nofZ 100) = true) -> robust_setattr (RSRange lo hi) s = (s, Err ValueError)) /\
  (forall b, exists s', robust_setattr (RSCentering b) s = (s', Ok tt) /\ w_params s' = Robust b (rs_scaling (w_params s)) (rs_range (w_params s)) /\
     (w_configured s = false -> acts_like_new p0 fit fwd bwd s' (w_params s')) /\ (w_configured s = true -> acts_as_before p0 fit fwd bwd s s')) /\
  (forall b, exists s', robust_setattr (RSScaling b) s = (s', Ok tt) /\ w_params s' = Robust (rs_centering (w_params s)) b (rs_range (w_params s)) /\
     (w_configured s = false -> acts_like_new p0 fit fwd bwd s' (w_params s')) /\ (w_configured s = true -> acts_as_before p0 fit fwd bwd s s')).
Proof.
  split; [|split; [|split]].
  - intros lo hi H1 H2 H3. unfold robust_setattr. cbn [robust_valid robust_put]. edestruct (setattr_valid p0 fit fwd bwd) as (s' & E & Ep & Ha); [|exists s'; split; [exact E|split; [exact Ep|rewrite Ep; exact Ha]]]. cbn [rs_range fst snd]. now rewrite H1, H2, H3.
  - intros lo hi Hn. unfold robust_setattr. cbn [robust_valid robust_put]. apply setattr_invalid. cbn [rs_range fst snd]. destruct (nltb n0 lo), (nltb lo hi), (nltb hi (nofZ 100)); try reflexivity. exfalso. apply Hn. auto.
  - intros b. unfold robust_setattr. cbn [robust_valid robust_put]. edestruct (setattr_free p0 fit fwd bwd) as (s' & E & Ep & Ha). exists s'. split; [exact E|]. rewrite Ep. auto.
  - intros b. unfold robust_setattr. cbn [robust_valid robust_put]. edestruct (setattr_free p0 fit fwd bwd) as (s' & E & Ep & Ha). exists s'. split; [exact E|]. rewrite Ep. auto.
Qed.
(** QuantileTransformer: only output_distribution takes effect at any time. *)
Theorem C102_quantile_transformer_partial (p0 : quantile_params) (fit : quantile_params -> mat T -> res I) fwd bwd (s : @wrap_st quantile_params I) : let q := w_params s in
  (forall v, v = "uniform"%string \/ v = "normal"%string ->
     exists s', quantile_setattr (QTDist v) s = (s', Ok tt) /\ w_params s' = Quantile (qt_n q) v (qt_zeroes q) (qt_subsample q) (qt_state q) /\ acts_like_new p0 fit fwd bwd s' (w_params s')) /\
  (forall v, v <> "uniform"%string -> v <> "normal"%string -> quantile_setattr (QTDist v) s = (s, Err ValueError)) /\
  (forall k p, (exists v, k = QTN v /\ p = Quantile v (qt_dist q) (qt_zeroes q) (qt_subsample q) (qt_state q)) \/ (exists v, k = QTZeroes v /\ p = Quantile (qt_n q) (qt_dist q) v (qt_subsample q) (qt_state q)) \/
     (exists v, k = QTSubsample v /\ p = Quantile (qt_n q) (qt_dist q) (qt_zeroes q) v (qt_state q)) \/ (exists v, k = QTState v /\ p = Quantile (qt_n q) (qt_dist q) (qt_zeroes q) (qt_subsample q) v) ->
     exists s', quantile_setattr k s = (s', Ok tt) /\ w_params s' = p /\
       (w_configured s = false -> acts_like_new p0 fit fwd bwd s' p) /\ (w_configured s = true -> acts_as_before p0 fit fwd bwd s s')).
Proof.
  intros q. split; [|split].
  - intros v Hv. unfold quantile_setattr. cbn [quantile_valid quantile_put]. edestruct (setattr_valid p0 fit fwd bwd) as (s' & E & Ep & Ha); [|exists s'; split; [exact E|split; [exact Ep|rewrite Ep; exact Ha]]]. cbn [qt_dist]. destruct Hv as [-> | ->]; reflexivity.
  - intros v N1 N2. unfold quantile_setattr. cbn [quantile_valid quantile_put]. apply setattr_invalid. cbn [qt_dist]. apply String.eqb_neq in N1, N2. now rewrite N1, N2.
  - intros k p Hk. assert (Hv : quantile_valid k = None /\ quantile_put k (w_params s) = p) by (destruct Hk as [(v & -> & ->)|[(v & -> & ->)|[(v & -> & ->)|(v & -> & ->)]]]; split; reflexivity). destruct Hv as [Hv Hp].
    unfold quantile_setattr. rewrite Hv, Hp. apply setattr_free.
Qed.
(** PowerTransformer: only method takes effect at any time. *)
Theorem C102_power_transformer_partial (p0 : power_params) (fit : power_params -> mat T -> res I) fwd bwd (s : @wrap_st power_params I) : let q := w_params s in
  (forall v, v = "yeo-johnson"%string \/ v = "box-cox"%string ->
     exists s', power_setattr (PWMethod v) s = (s', Ok tt) /\ w_params s' = Power v (pw_standardise q) /\ acts_like_new p0 fit fwd bwd s' (w_params s')) /\
  (forall v, v <> "yeo-johnson"%string -> v <> "box-cox"%string -> power_setattr (PWMethod v) s = (s, Err ValueError)) /\
  (forall b, exists s', power_setattr (PWStandardise b) s = (s', Ok tt) /\ w_params s' = Power (pw_method q) b /\
     (w_configured s = false -> acts_like_new p0 fit fwd bwd s' (w_params s')) /\ (w_configured s = true -> acts_as_before p0 fit fwd bwd s s')).
Proof.
  intros q. split; [|split].
  - intros v Hv. unfold power_setattr. cbn [power_valid power_put]. edestruct (setattr_valid p0 fit fwd bwd) as (s' & E & Ep & Ha); [|exists s'; split; [exact E|split; [exact Ep|rewrite Ep; exact Ha]]]. cbn [pw_method]. destruct Hv as [-> | ->]; reflexivity.
  - intros v N1 N2. unfold power_setattr. cbn [power_valid power_put]. apply setattr_invalid. cbn [pw_method]. apply String.eqb_neq in N1, N2. now rewrite N1, N2.
  - intros b. unfold power_setattr. cbn [power_valid power_put]. edestruct (setattr_free p0 fit fwd bwd) as (s' & E & Ep & Ha). exists s'. split; [exact E|]. rewrite Ep. auto.
Qed.
End Classes.

(** A scaler that only centres (by the first entry of the matrix it was fitted on). *)
Definition w102_fit (p : robust_params Z) (d : mat Z) : res (bool * Z) := Ok (rs_centering p, entry d 0 0).
Definition w102_fwd (i : bool * Z) (d : mat Z) : res (mat Z) := Ok (if fst i then sub_scalar d (snd i) else d).
Definition w102 := wrapper (robust_default (T:=Z)) w102_fit w102_fwd w102_fwd.
(** Transform, switch centering off, transform again: still centred.  A new object with centering
    off from the start does not centre. *)
Theorem C102_refuted : let d := Mat 2 1 [[5]; [7]]%Z in let s1 := fst (t_transform w102 (t_new w102) d) in let s2 := fst (robust_setattr (RSCentering false) s1) in
  snd (robust_setattr (RSCentering false) s1) = Ok tt /\ rs_centering (w_params s2) = false /\
  snd (t_transform w102 s2 d) = Ok (Mat 2 1 [[0]; [2]]%Z) /\
  snd (t_transform w102 (fst (robust_setattr (RSCentering false) (t_new w102))) d) = Ok d.
Proof. repeat split; reflexivity. Qed.
(** The states the theorem about every state covers are reached: configured and not configured,
    accepted and refused ranges. *)
Example C102_ex : let d := Mat 2 1 [[5]; [7]]%Z in let s1 := fst (t_transform w102 (t_new w102) d) in
  w_configured (t_new w102) = false /\ w_configured s1 = true /\ snd (robust_setattr (RSRange 10 90)%Z s1) = Ok tt /\ w_configured (fst (robust_setattr (RSRange 10 90)%Z s1)) = false /\
  robust_setattr (RSRange 90 10)%Z s1 = (s1, Err ValueError) /\ snd (t_transform w102 (fst (robust_setattr (RSRange 10 90)%Z s1)) (Mat 1 1 [[9]]%Z)) = Ok (Mat 1 1 [[0]]%Z).
Proof. repeat split; reflexivity. Qed.
Print Assumptions C102_robust_scaler_partial.
Print Assumptions C102_quantile_transformer_partial.
Print Assumptions C102_power_transformer_partial.
Print Assumptions C102_refuted.
