(** Binary64 facts, obtained from the Flocq library's correctness theorems:
    the difference of two finite numbers is a zero exactly when they are equal
    (no underflow to zero), although the subtraction itself is rounded. *)
From Coq Require Import ZArith Bool Reals Lra Lia SpecFloat.
From Flocq Require Import Core BinarySingleNaN Plus_error.
From Verif Require Import Base Num L_Order.

#[local] Instance Hprec : FLX.Prec_gt_0 fprec := eq_refl _.
#[local] Instance Hmax : Prec_lt_emax fprec femax := eq_refl _.

#[local] Instance Hvexp : Valid_exp (fexp fprec femax) := fexp_correct fprec femax Hprec.
#[local] Instance Hmono : Monotone_exp (fexp fprec femax) := fexp_monotone fprec femax.
#[local] Instance Hvrnd : Valid_rnd (round_mode mode_NE) := valid_rnd_round_mode mode_NE.

(** Bit patterns of float64: canonical mantissa/exponent pairs. *)
Definition valid_f (x : f64) : Prop := SpecFloat.valid_binary fprec femax x = true.
(** Neither NaN nor infinite. *)
Definition finite_f (x : f64) : Prop :=
  match x with S754_zero _ => True | S754_finite _ _ _ => True | _ => False end.

Lemma round_nearest_even_equiv s m l : round_nearest_even m l = choice_mode mode_NE s m l.
Proof. case l; [reflexivity|intro c]. case c; [ | reflexivity..]. now simpl; unfold Round.cond_incr; case Z.even. Qed.

Lemma binary_round_aux_equiv sx mx ex lx :
  SpecFloat.binary_round_aux fprec femax sx mx ex lx = binary_round_aux fprec femax mode_NE sx mx ex lx.
Proof.
  unfold SpecFloat.binary_round_aux, binary_round_aux.
  set (mrse' := shr_fexp _ _ _ _ _). case mrse'; intros mrs' e'; simpl.
  now rewrite (round_nearest_even_equiv sx).
Qed.

Lemma binary_round_equiv s m e :
  SpecFloat.binary_round fprec femax s m e = binary_round fprec femax mode_NE s m e.
Proof.
  unfold SpecFloat.binary_round, binary_round, shl_align_fexp.
  set (mez := shl_align _ _ _); case mez as [mz ez]. apply binary_round_aux_equiv.
Qed.

Lemma binary_normalize_equiv m e szero :
  SpecFloat.binary_normalize fprec femax m e szero
  = B2SF (binary_normalize fprec femax Hprec Hmax mode_NE m e szero).
Proof.
  case m as [ | p | p].
  - now simpl.
  - simpl; rewrite B2SF_SF2B; apply binary_round_equiv.
  - simpl; rewrite B2SF_SF2B; apply binary_round_equiv.
Qed.

Lemma SFsub_B (x y : binary_float fprec femax) : SFsub fprec femax (B2SF x) (B2SF y) = B2SF (Bminus mode_NE x y).
Proof.
  case x as [sx|sx| |sx mx ex Bx]; case y as [sy|sy| |sy my ey By];
    [now (trivial || simpl; case Bool.eqb).. | ].
  cbn -[SpecFloat.binary_normalize binary_normalize Z.min]. rewrite binary_normalize_equiv.
  do 2 f_equal. unfold Fplus_naive. rewrite cond_Zopp_negb. reflexivity.
Qed.

Lemma SFadd_B (x y : binary_float fprec femax) : SFadd fprec femax (B2SF x) (B2SF y) = B2SF (Bplus mode_NE x y).
Proof.
  case x as [sx|sx| |sx mx ex Bx]; case y as [sy|sy| |sy my ey By];
    [now (trivial || simpl; case Bool.eqb).. | ].
  cbn -[SpecFloat.binary_normalize binary_normalize Z.min]. apply binary_normalize_equiv.
Qed.

Lemma SFmul_B (x y : binary_float fprec femax) : SFmul fprec femax (B2SF x) (B2SF y) = B2SF (Bmult mode_NE x y).
Proof.
  case x as [sx|sx| |sx mx ex Bx]; case y as [sy|sy| |sy my ey By]; [now trivial.. | ].
  simpl. rewrite B2SF_SF2B. apply binary_round_aux_equiv.
Qed.

Lemma finite_B (x : binary_float fprec femax) : finite_f (B2SF x) <-> is_finite x = true.
Proof. destruct x; cbn; intuition discriminate. Qed.

(** value of a finite binary64 number *)
Definition f2r (x : f64) : R := SF2R radix2 x.

Lemma SFeqb_f2r x y : valid_f x -> valid_f y -> finite_f x -> finite_f y ->
  (SFeqb x y = true <-> f2r x = f2r y).
Proof.
  intros Vx Vy Fx Fy.
  rewrite <- (B2SF_SF2B _ _ x Vx), <- (B2SF_SF2B _ _ y Vy) in *.
  set (bx := SF2B x Vx) in *. set (by_ := SF2B y Vy) in *.
  unfold f2r. rewrite !SF2R_B2SF. rewrite finite_B in Fx, Fy.
  change (SFeqb (B2SF bx) (B2SF by_)) with (Beqb bx by_). rewrite Beqb_correct by assumption.
  destruct (Req_bool_spec (B2R bx) (B2R by_)); split; auto; discriminate.
Qed.

Lemma SFsub_zero_iff x y : valid_f x -> valid_f y -> finite_f x -> finite_f y ->
  (SFeqb (SFsub fprec femax x y) (S754_zero false) = true <-> f2r x = f2r y).
Proof.
  intros Vx Vy Fx Fy.
  rewrite <- (B2SF_SF2B _ _ x Vx), <- (B2SF_SF2B _ _ y Vy) in *.
  set (bx := SF2B x Vx) in *. set (by_ := SF2B y Vy) in *.
  rewrite SFsub_B. unfold f2r. rewrite !SF2R_B2SF. rewrite finite_B in Fx, Fy.
  pose proof (Bminus_correct fprec femax _ _ mode_NE bx by_ Fx Fy) as HM.
  set (d := Bminus mode_NE bx by_) in *.
  destruct (Rlt_bool_spec (Rabs (round radix2 (fexp fprec femax) (round_mode mode_NE) (B2R bx - B2R by_))) (bpow radix2 femax)) as [Hlt|Hge].
  - destruct HM as (HR & HF & _).
    change (SFeqb (B2SF d) (S754_zero false)) with (Beqb d (B754_zero false)).
    rewrite Beqb_correct by auto. cbn [B2R]. rewrite HR.
    destruct (Req_bool_spec (round radix2 (fexp fprec femax) (round_mode mode_NE) (B2R bx - B2R by_)) 0) as [E|E];
      split; intros HH; auto; try discriminate.
    + unfold Rminus in E. apply round_plus_eq_0 in E; auto with typeclass_instances.
      * lra.
      * apply generic_format_B2R.
      * apply generic_format_opp. apply generic_format_B2R.
    + exfalso. apply E. replace (B2R bx - B2R by_)%R with 0%R by lra. apply round_0. auto with typeclass_instances.
  - destruct HM as (HO & _). rewrite HO. cbn. split; [destruct (Bsign bx); cbn; discriminate|]. intros E.
    exfalso. replace (B2R bx - B2R by_)%R with 0%R in Hge by lra. rewrite round_0 in Hge by auto with typeclass_instances.
    rewrite Rabs_R0 in Hge. pose proof (bpow_gt_0 radix2 femax). lra.
Qed.

Lemma SFsub_eqb x y : valid_f x -> valid_f y -> finite_f x -> finite_f y ->
  SFeqb (SFsub fprec femax x y) (S754_zero false) = SFeqb x y.
Proof.
  intros Vx Vy Fx Fy. apply eq_true_iff_eq. rewrite SFsub_zero_iff, SFeqb_f2r by assumption. tauto.
Qed.

(** A NaN or infinite operand never yields a zero difference, except that finite - finite may. *)
Lemma SFsub_nonfinite x y : ~ finite_f x \/ ~ finite_f y -> SFeqb (SFsub fprec femax x y) (S754_zero false) = false.
Proof.
  destruct x as [sx|[]| |sx mx ex], y as [sy|[]| |sy my ey]; cbn; intuition.
Qed.
Print Assumptions SFsub_zero_iff.
