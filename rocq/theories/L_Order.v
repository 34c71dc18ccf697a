(** Order laws shared by exact reals and by binary64 values other than NaN, so
    that comparison-based code can be verified for both at once. *)
From Coq Require Import List ZArith Lia Bool Arith Reals Lra SpecFloat.
From Verif Require Import Base Num.

(** [OrdLaws D]: on the values satisfying D the Boolean comparisons form a total preorder. *)
Class OrdLaws {T} `{Num T} (D : T -> Prop) : Prop := {
  ol_refl : forall x, D x -> nleb x x = true;
  ol_trans : forall x y z, D x -> D y -> D z -> nleb x y = true -> nleb y z = true -> nleb x z = true;
  ol_lt : forall x y, D x -> D y -> nltb x y = negb (nleb y x);
  ol_total : forall x y, D x -> D y -> nleb x y = false -> nleb y x = true
}.

#[global] Instance OrdR : OrdLaws (fun _ : R => True).
Proof.
  constructor; cbn; intros.
  - apply Rleb_true; lra.
  - rewrite Rleb_true in *; lra.
  - unfold Rltb, Rleb. destruct (Rlt_dec x y), (Rle_dec y x); auto; lra.
  - rewrite Rleb_true; rewrite Rleb_false in *; lra.
Qed.

Definition not_nan (x : f64) : Prop := x <> S754_nan.

Lemma SFcompare_some x y : not_nan x -> not_nan y -> SFcompare x y <> None.
Proof. destruct x, y; cbn; unfold not_nan; try congruence. Qed.

Lemma SFcompare_refl x : not_nan x -> SFcompare x x = Some Eq.
Proof.
  destruct x as [s|s| |s m e]; cbn; unfold not_nan; try congruence; destruct s; auto;
    rewrite Z.compare_refl; change (Pos.compare_cont Eq m m) with (Pos.compare m m); now rewrite Pos.compare_refl.
Qed.

Lemma SFcompare_swap x y : SFcompare y x = match SFcompare x y with Some c => Some (CompOpp c) | None => None end.
Proof.
  destruct x as [[]|[]| |[] m e], y as [[]|[]| |[] m' e']; cbn; auto;
    rewrite (Z.compare_antisym e e'); destruct (Z.compare e e'); cbn; auto;
    change (Pos.compare_cont Eq) with Pos.compare; rewrite (Pos.compare_antisym m m'); destruct (Pos.compare m m'); reflexivity.
Qed.

(** Lexicographic key of a non-NaN value: comparing keys compares values. *)
Definition fkey (x : f64) : Z * Z * Z :=
  match x with
  | S754_nan => (0, 0, 0)
  | S754_zero _ => (0, 0, 0)
  | S754_infinity true => (-2, 0, 0)
  | S754_infinity false => (2, 0, 0)
  | S754_finite true m e => (-1, -e, Z.neg m)
  | S754_finite false m e => (1, e, Z.pos m)
  end%Z.
Definition keycmp (a b : Z * Z * Z) : comparison :=
  let '(a1, a2, a3) := a in let '(b1, b2, b3) := b in
  match Z.compare a1 b1 with Eq => match Z.compare a2 b2 with Eq => Z.compare a3 b3 | c => c end | c => c end.

Lemma SFcompare_key x y : not_nan x -> not_nan y -> SFcompare x y = Some (keycmp (fkey x) (fkey y)).
Proof.
  destruct x as [[]|[]| |[] m e], y as [[]|[]| |[] m' e']; cbn; unfold not_nan; try congruence; intros _ _; f_equal.
  assert (E : (- e ?= - e')%Z = CompOpp (e ?= e')%Z) by (rewrite <- Z.compare_antisym; apply Z.compare_opp).
  rewrite E. now destruct (Z.compare e e').
Qed.

Lemma keycmp_le_trans a b c : keycmp a b <> Gt -> keycmp b c <> Gt -> keycmp a c <> Gt.
Proof.
  destruct a as [[a1 a2] a3], b as [[b1 b2] b3], c as [[c1 c2] c3]. cbn.
  destruct (Z.compare_spec a1 b1), (Z.compare_spec b1 c1), (Z.compare_spec a1 c1); try congruence; try lia;
  destruct (Z.compare_spec a2 b2), (Z.compare_spec b2 c2), (Z.compare_spec a2 c2); try congruence; try lia;
  destruct (Z.compare_spec a3 b3), (Z.compare_spec b3 c3), (Z.compare_spec a3 c3); try congruence; try lia.
Qed.

Lemma SFleb_key x y : not_nan x -> not_nan y -> (SFleb x y = true <-> keycmp (fkey x) (fkey y) <> Gt).
Proof.
  intros Hx Hy. unfold SFleb. rewrite SFcompare_key by assumption.
  destruct keycmp; split; congruence.
Qed.

#[global] Instance OrdF : OrdLaws not_nan.
Proof.
  constructor; cbn; intros.
  - unfold SFleb. now rewrite SFcompare_refl.
  - rewrite SFleb_key in * by assumption. eapply keycmp_le_trans; eauto.
  - unfold SFltb, SFleb. rewrite (SFcompare_swap x y).
    pose proof (SFcompare_some x y H H0). destruct (SFcompare x y) as [[]|]; cbn; congruence.
  - unfold SFleb in *. rewrite (SFcompare_swap x y).
    pose proof (SFcompare_some x y H H0). destruct (SFcompare x y) as [[]|]; cbn in *; congruence.
Qed.

(** NaN never compares true. *)
Lemma nan_cmp x : SFltb f_nan x = false /\ SFltb x f_nan = false /\ SFleb f_nan x = false /\
  SFleb x f_nan = false /\ SFeqb x f_nan = false /\ SFeqb f_nan x = false.
Proof. destruct x; cbn; auto 10. Qed.

Section O.
Context {T} `{Num T} (D : T -> Prop) {OL : OrdLaws D}.

Lemma ol_lt_irrefl x : D x -> nltb x x = false.
Proof. intros. rewrite ol_lt by assumption. now rewrite ol_refl. Qed.
Lemma ol_lt_le x y : D x -> D y -> nltb x y = true -> nleb x y = true.
Proof.
  intros Hx Hy Hl. rewrite ol_lt in Hl by assumption. apply negb_true_iff in Hl.
  now apply ol_total.
Qed.
Lemma ol_nlt_le x y : D x -> D y -> nltb x y = false -> nleb y x = true.
Proof. intros Hx Hy Hl. rewrite ol_lt in Hl by assumption. now apply negb_false_iff in Hl. Qed.
Lemma ol_le_nlt x y : D x -> D y -> nleb x y = true -> nltb y x = false.
Proof. intros Hx Hy Hl. rewrite ol_lt by assumption. now rewrite Hl. Qed.
Lemma ol_lt_le_trans x y z : D x -> D y -> D z -> nltb x y = true -> nleb y z = true -> nltb x z = true.
Proof.
  intros Hx Hy Hz H1 H2. destruct (nltb x z) eqn:E; auto.
  rewrite ol_lt in H1 by assumption. apply negb_true_iff in H1.
  apply ol_nlt_le in E; auto. assert (nleb y x = true) by (apply (ol_trans y z x); auto). congruence.
Qed.
End O.
