(** Lemmas: the spectral theorem for real symmetric matrices (with respect to any scalar product) and the singular value
    decomposition, from the completeness of the reals.  They show that the contracts which the theorems on
    eigen-solvers and singular value solvers assume can be met for matrices of every size. *)
From Coq Require Import List ZArith Lia Bool Arith Reals Lra.
From Verif Require Import Base Num Mat M_Matrix S_Matrix L_Base L_Mat L_MatR L_Linalg P_Linalg.
Import ListNotations.
Local Open Scope R_scope.

(** * Lipschitz functions on a cube have a maximum *)
Definition cube (n : nat) (x : nat -> R) : Prop := forall j, (j < n)%nat -> -1 <= x j <= 1.
Definition upd (x : nat -> R) (k : nat) (t : R) : nat -> R := fun j => if (j =? k)%nat then t else x j.
Definition dist1 (n : nat) (x y : nat -> R) : R := sumn n (fun j => Rabs (x j - y j)).
Definition lip (n : nat) (L : R) (f : (nat -> R) -> R) : Prop :=
  forall x y, cube n x -> cube n y -> Rabs (f x - f y) <= L * dist1 n x y.
Definition clamp (t : R) : R := Rmax (-1) (Rmin 1 t).

Lemma clamp_range t : -1 <= clamp t <= 1.
Proof. unfold clamp. split; [apply Rmax_l|]. apply Rmax_lub; [lra|apply Rmin_l]. Qed.
Lemma clamp_id t : -1 <= t <= 1 -> clamp t = t.
Proof. intros H. unfold clamp. rewrite Rmin_right, Rmax_right; lra. Qed.
Lemma clamp_lip s t : Rabs (clamp s - clamp t) <= Rabs (s - t).
Proof.
  unfold clamp, Rmax, Rmin. destruct (Rle_dec 1 s), (Rle_dec 1 t);
  repeat match goal with |- context [Rle_dec ?a ?b] => destruct (Rle_dec a b) end; unfold Rabs; repeat destruct Rcase_abs; lra.
Qed.
Lemma dist1_refl n x : dist1 n x x = 0.
Proof. apply sumR_zero. intros j _. replace (x j - x j) with 0 by ring. apply Rabs_R0. Qed.
Lemma dist1_nonneg n x y : 0 <= dist1 n x y.
Proof. apply sumR_nonneg. intros; apply Rabs_pos. Qed.
Lemma upd_same x k t : upd x k t k = t.
Proof. unfold upd. now rewrite Nat.eqb_refl. Qed.
Lemma upd_other x k t j : j <> k -> upd x k t j = x j.
Proof. intros H. unfold upd. apply Nat.eqb_neq in H. now rewrite H. Qed.
Lemma lip_ext n L f x y : lip n L f -> cube n x -> cube n y -> (forall j, (j < n)%nat -> x j = y j) -> f x = f y.
Proof.
  intros Hf Hx Hy He. pose proof (Hf x y Hx Hy) as H. replace (dist1 n x y) with 0 in H.
  - rewrite Rmult_0_r in H. pose proof (Rabs_pos (f x - f y)). apply Rminus_diag_uniq. destruct (Req_dec (f x - f y) 0) as [|Q]; [assumption|]. apply Rabs_pos_lt in Q. lra.
  - symmetry. apply sumR_zero. intros j Hj. rewrite He by assumption. replace (y j - y j) with 0 by ring. apply Rabs_R0.
Qed.

Lemma cube_max n : forall L f, 0 <= L -> lip n L f -> exists x, cube n x /\ forall y, cube n y -> f y <= f x.
Proof.
  induction n as [|n IH]; intros L f HL Hf.
  { exists (fun _ => 0). split; [intros j Hj; lia|]. intros y Hy. right. apply (lip_ext 0 L); auto; intros j Hj; lia. }
  assert (Hc : forall x t, cube n x -> cube (S n) (upd x n (clamp t))).
  { intros x t Hx j Hj. destruct (Nat.eq_dec j n) as [->|Hd]; [rewrite upd_same; apply clamp_range|rewrite upd_other by assumption; apply Hx; lia]. }
  assert (HfL : forall t, lip n L (fun x => f (upd x n (clamp t)))).
  { intros t x y Hx Hy. eapply Rle_trans; [apply Hf; apply Hc; assumption|]. right. f_equal. unfold dist1. rewrite sumR_S, !upd_same. replace (clamp t - clamp t) with 0 by ring. rewrite Rabs_R0, Rplus_0_r.
    apply sumn_ext. intros j Hj. now rewrite !upd_other by lia. }
  pose (E := fun t v => exists x, cube n x /\ v = f (upd x n (clamp t))).
  assert (HE : forall t, exists v, E t v /\ forall w, E t w -> w <= v).
  { intros t. destruct (IH L _ HL (HfL t)) as (x & Hx & Hm). exists (f (upd x n (clamp t))). split; [exists x; auto|]. intros w (y & Hy & ->). now apply Hm. }
  assert (Hlub : forall t, {v | is_lub (E t) v}).
  { intros t. apply completeness; destruct (HE t) as (v & H1 & H2); [exists v; exact H2|exists v; exact H1]. }
  pose (g := fun t => proj1_sig (Hlub t)).
  assert (Hg : forall t, E t (g t) /\ forall w, E t w -> w <= g t).
  { intros t. unfold g. destruct (Hlub t) as (v & Hv1 & Hv2). cbn [proj1_sig]. destruct (HE t) as (w & H1 & H2). assert (v = w) as ->; [apply Rle_antisym; [apply Hv2; exact H2|apply Hv1; exact H1]|]. auto. }
  assert (HgL : forall s t, g s - g t <= L * Rabs (s - t)).
  { intros s t. destruct (Hg s) as ((x & Hx & E1) & _). destruct (Hg t) as (_ & H2). specialize (H2 (f (upd x n (clamp t))) ltac:(exists x; auto)).
    assert (Rabs (f (upd x n (clamp s)) - f (upd x n (clamp t))) <= L * Rabs (s - t)) as H3.
    { eapply Rle_trans; [apply Hf; now apply Hc|]. apply Rmult_le_compat_l; [assumption|]. unfold dist1. rewrite sumR_S, !upd_same. rewrite sumR_zero; [|intros j Hj; rewrite !upd_other by lia; replace (x j - x j) with 0 by ring; apply Rabs_R0].
      rewrite Rplus_0_l. apply clamp_lip. }
    pose proof (Rle_abs (f (upd x n (clamp s)) - f (upd x n (clamp t)))). lra. }
  assert (HgA : forall s t, Rabs (g s - g t) <= L * Rabs (s - t)).
  { intros s t. unfold Rabs at 1. destruct Rcase_abs; [|apply HgL]. rewrite Ropp_minus_distr, Rabs_minus_sym. apply HgL. }
  destruct (continuity_ab_maj g (-1) 1) as (t & Ht & Hr); [lra| |].
  { intros c Hc'. unfold continuity_pt, continue_in, limit1_in, limit_in. intros eps Heps. exists (eps / (L + 1)). split; [apply Rdiv_lt_0_compat; lra|].
    intros s (_ & Hs). cbn in *. unfold R_dist in *. eapply Rle_lt_trans; [apply HgA|].
    apply Rle_lt_trans with ((L + 1) * Rabs (s - c)); [apply Rmult_le_compat_r; [apply Rabs_pos|lra]|].
    replace eps with ((L + 1) * (eps / (L + 1))) by (field; lra). apply Rmult_lt_compat_l; [lra|exact Hs]. }
  destruct (Hg t) as ((x & Hx & E1) & _). exists (upd x n (clamp t)). split; [now apply Hc|]. intros y Hy. rewrite <- E1.
  assert (Hyn : -1 <= y n <= 1) by (apply Hy; lia). destruct (Hg (y n)) as (_ & H2). apply Rle_trans with (g (y n)); [|apply Ht; exact Hyn].
  apply H2. exists y. split; [intros j Hj; apply Hy; lia|]. apply (lip_ext (S n) L); auto; [apply Hc; intros j Hj; apply Hy; lia|].
  intros j Hj. rewrite clamp_id by assumption. destruct (Nat.eq_dec j n) as [->|Hd]; [now rewrite upd_same|now rewrite upd_other].
Qed.

(** * Quadratic forms *)
Definition form (p : nat) (A : nat -> nat -> R) (x y : nat -> R) : R := sumn p (fun i => sumn p (fun j => x i * A i j * y j)).
Definition applym (p : nat) (A : nat -> nat -> R) (x : nat -> R) (i : nat) : R := sumn p (fun j => A i j * x j).
Definition sym (p : nat) (A : nat -> nat -> R) : Prop := forall i j, (i < p)%nat -> (j < p)%nat -> A i j = A j i.
Definition nonzero (p : nat) (x : nat -> R) : Prop := exists j, (j < p)%nat /\ x j <> 0.
Definition posdef (p : nat) (B : nat -> nat -> R) : Prop := forall x, nonzero p x -> 0 < form p B x x.

Lemma form_apply p A x y : form p A x y = sumn p (fun i => x i * applym p A y i).
Proof. apply sumn_ext. intros i Hi. unfold applym. rewrite <- sumR_scal. apply sumn_ext. intros; ring. Qed.
Lemma form_sym p A x y : sym p A -> form p A x y = form p A y x.
Proof. intros Hs. unfold form. rewrite sumR_swap. apply sumn_ext. intros i Hi. apply sumn_ext. intros j Hj. rewrite (Hs i j) by assumption. ring. Qed.
Lemma form_ext p A A' x x' y y' : (forall i j, (i < p)%nat -> (j < p)%nat -> A i j = A' i j) -> (forall j, (j < p)%nat -> x j = x' j) -> (forall j, (j < p)%nat -> y j = y' j) ->
  form p A x y = form p A' x' y'.
Proof. intros HA Hx Hy. apply sumn_ext. intros i Hi. apply sumn_ext. intros j Hj. now rewrite HA, Hx, Hy. Qed.
Lemma form_add_r p A x y z s : form p A x (fun j => y j + s * z j) = form p A x y + s * form p A x z.
Proof.
  unfold form. rewrite <- sumR_scal, <- sumR_plus. apply sumn_ext. intros i Hi. rewrite <- sumR_scal, <- sumR_plus. apply sumn_ext. intros; ring.
Qed.
Lemma form_add_l p A x y z s : form p A (fun j => y j + s * z j) x = form p A y x + s * form p A z x.
Proof.
  unfold form. rewrite <- sumR_scal, <- sumR_plus. apply sumn_ext. intros i Hi. rewrite <- sumR_scal, <- sumR_plus. apply sumn_ext. intros; ring.
Qed.
Lemma form_scal p A x y s t : form p A (fun j => s * x j) (fun j => t * y j) = s * t * form p A x y.
Proof. unfold form. rewrite <- sumR_scal. apply sumn_ext. intros i Hi. rewrite <- sumR_scal. apply sumn_ext. intros; ring. Qed.
Lemma form_comb p A B s t x y : form p (fun i j => s * A i j + t * B i j) x y = s * form p A x y + t * form p B x y.
Proof. unfold form. rewrite <- !sumR_scal, <- sumR_plus. apply sumn_ext. intros i Hi. rewrite <- !sumR_scal, <- sumR_plus. apply sumn_ext. intros; ring. Qed.

Definition absum (p : nat) (A : nat -> nat -> R) : R := sumn p (fun i => sumn p (fun j => Rabs (A i j))).
Lemma absum_nonneg p A : 0 <= absum p A.
Proof. apply sumR_nonneg. intros; apply sumR_nonneg. intros; apply Rabs_pos. Qed.
Lemma coord_dist p x y j : (j < p)%nat -> Rabs (x j - y j) <= dist1 p x y.
Proof.
  intros Hj. unfold dist1. apply Rle_trans with (sumn p (fun k => if (k =? j)%nat then Rabs (x j - y j) else 0)).
  - right. rewrite (sumR_single p j) by (assumption || (intros i _ Hne; apply Nat.eqb_neq in Hne; now rewrite Hne)). now rewrite Nat.eqb_refl.
  - apply sumR_le. intros i Hi. destruct (Nat.eqb_spec i j) as [->|]; [lra|apply Rabs_pos].
Qed.
Lemma form_lip p A : lip p (2 * absum p A) (fun x => form p A x x).
Proof.
  intros x y Hx Hy. unfold form, absum. rewrite <- sumR_minus. eapply Rle_trans; [apply sumR_abs|]. rewrite Rmult_assoc, (Rmult_comm _ (dist1 p x y)), <- Rmult_assoc, <- sumR_scal. apply sumR_le. intros i Hi.
  rewrite <- sumR_minus. eapply Rle_trans; [apply sumR_abs|]. rewrite <- sumR_scal. apply sumR_le. intros j Hj.
  replace (x i * A i j * x j - y i * A i j * y j) with (((x i - y i) * x j + y i * (x j - y j)) * A i j) by ring. rewrite Rabs_mult. apply Rmult_le_compat_r; [apply Rabs_pos|].
  eapply Rle_trans; [apply Rabs_triang|]. rewrite !Rabs_mult. pose proof (coord_dist p x y i Hi). pose proof (coord_dist p x y j Hj).
  assert (Rabs (x j) <= 1) by (apply Rabs_le; specialize (Hx j Hj); lra). assert (Rabs (y i) <= 1) by (apply Rabs_le; specialize (Hy i Hi); lra).
  pose proof (Rabs_pos (x i - y i)). pose proof (Rabs_pos (x j - y j)). pose proof (Rabs_pos (x j)). pose proof (Rabs_pos (y i)). nra.
Qed.

Lemma zero_dec p (x : nat -> R) : nonzero p x \/ forall j, (j < p)%nat -> x j = 0.
Proof.
  induction p as [|p [ (j & Hj & Hne) | Hz ] ]; [right; lia|left; exists j; split; [lia|assumption]|].
  destruct (Req_dec (x p) 0) as [E|E]; [right|left; exists p; auto]. intros j Hj. destruct (Nat.eq_dec j p) as [->|Hd]; [assumption|apply Hz; lia].
Qed.
(** Points of the cube with a coordinate equal to 1: every direction has one. *)
Definition face (p : nat) (x : nat -> R) : Prop := cube p x /\ exists k, (k < p)%nat /\ x k = 1.
Lemma face_nonzero p x : face p x -> nonzero p x.
Proof. intros (_ & k & Hk & E). exists k. split; [assumption|lra]. Qed.
Lemma max_coord p (v : nat -> R) : p <> 0%nat -> exists k, (k < p)%nat /\ forall j, (j < p)%nat -> Rabs (v j) <= Rabs (v k).
Proof.
  induction p as [|p IH]; [congruence|]. intros _. destruct (Nat.eq_dec p 0) as [->|Hp].
  - exists 0%nat. split; [lia|]. intros j Hj. replace j with 0%nat by lia. lra.
  - destruct (IH Hp) as (k & Hk & Hm). destruct (Rle_dec (Rabs (v k)) (Rabs (v p))) as [H|H].
    + exists p. split; [lia|]. intros j Hj. destruct (Nat.eq_dec j p) as [->|Hd]; [lra|]. specialize (Hm j ltac:(lia)). lra.
    + exists k. split; [lia|]. intros j Hj. destruct (Nat.eq_dec j p) as [->|Hd]; [lra|]. apply Hm. lia.
Qed.
Lemma face_of p v : nonzero p v -> exists s x, s <> 0 /\ face p x /\ forall j, (j < p)%nat -> v j = s * x j.
Proof.
  intros (i & Hi & Hne). destruct (max_coord p v ltac:(lia)) as (k & Hk & Hm). assert (Hs : v k <> 0).
  { intros Q. specialize (Hm i Hi). rewrite Q, Rabs_R0 in Hm. apply Rabs_pos_lt in Hne. lra. }
  exists (v k), (fun j => v j / v k). split; [assumption|]. split.
  - split; [|exists k; split; [assumption|now field]]. intros j Hj. assert (Rabs (v j / v k) <= 1) as H.
    + unfold Rdiv. rewrite Rabs_mult, Rabs_inv. apply Rabs_pos_lt in Hs. apply (Rmult_le_reg_r (Rabs (v k))); [assumption|]. rewrite Rmult_assoc, Rinv_l, Rmult_1_l, Rmult_1_r by lra. now apply Hm.
    + split; [|eapply Rle_trans; [apply Rle_abs|exact H]]. pose proof (Rle_abs (- (v j / v k))) as H'. rewrite Rabs_Ropp in H'. lra.
  - intros j Hj. now field.
Qed.
(** the maximum of a form over these points *)
Lemma face_max p A : p <> 0%nat -> exists x, face p x /\ forall y, face p y -> form p A y y <= form p A x x.
Proof.
  intros Hp. pose (f := fun k x => form p A (upd x k 1) (upd x k 1)).
  assert (Hc : forall k x, cube p x -> cube p (upd x k 1)).
  { intros k x Hx j Hj. unfold upd. destruct (j =? k)%nat; [lra|now apply Hx]. }
  assert (H : forall k, (k < p)%nat -> exists x, cube p x /\ x k = 1 /\ forall y, cube p y -> y k = 1 -> form p A y y <= form p A x x).
  { intros k Hk. destruct (cube_max p (2 * absum p A) (f k)) as (x & Hx & Hm).
    - pose proof (absum_nonneg p A). lra.
    - intros x y Hx Hy. unfold f. eapply Rle_trans; [apply (form_lip p A); now apply Hc|]. apply Rmult_le_compat_l; [pose proof (absum_nonneg p A); lra|].
      apply sumR_le. intros j Hj. unfold upd. destruct (j =? k)%nat; [|lra]. replace (1 - 1) with 0 by ring. rewrite Rabs_R0. apply Rabs_pos.
    - exists (upd x k 1). split; [now apply Hc|]. split; [apply upd_same|]. intros y Hy E. specialize (Hm y Hy). unfold f in Hm. eapply Rle_trans; [|exact Hm]. right.
      apply form_ext; [reflexivity| |]; intros j Hj; unfold upd; destruct (Nat.eqb_spec j k) as [->|]; congruence. }
  assert (H2 : forall m, (m <= p)%nat -> m <> 0%nat -> exists x, face p x /\ forall y k, (k < m)%nat -> cube p y -> y k = 1 -> form p A y y <= form p A x x).
  { induction m as [|m IH]; [congruence|]. intros Hm _. destruct (H m ltac:(lia)) as (x & Hx & Ex & Hxm). assert (Hxf : face p x) by (split; [assumption|exists m; split; [lia|assumption]]).
    destruct (Nat.eq_dec m 0) as [->|Hm0].
    - exists x. split; [exact Hxf|]. intros y k Hk Hy Ey. replace k with 0%nat in Ey by lia. now apply Hxm.
    - destruct (IH ltac:(lia) Hm0) as (z & Hz & Hzm). destruct (Rle_dec (form p A z z) (form p A x x)) as [Q|Q].
      + exists x. split; [exact Hxf|]. intros y k Hk Hy Ey. destruct (Nat.eq_dec k m) as [->|Hd]; [now apply Hxm|]. eapply Rle_trans; [apply (Hzm y k); auto; lia|exact Q].
      + exists z. split; [exact Hz|]. intros y k Hk Hy Ey. destruct (Nat.eq_dec k m) as [->|Hd]; [specialize (Hxm y Hy Ey); lra|]. apply (Hzm y k); auto; lia. }
  destruct (H2 p ltac:(lia) Hp) as (x & Hx & Hm). exists x. split; [exact Hx|]. intros y (Hy & k & Hk & E). now apply (Hm y k).
Qed.
Lemma face_min p A : p <> 0%nat -> exists x, face p x /\ forall y, face p y -> form p A x x <= form p A y y.
Proof.
  intros Hp. destruct (face_max p (fun i j => (-1) * A i j + 0 * A i j) Hp) as (x & Hx & Hm). exists x. split; [exact Hx|]. intros y Hy. specialize (Hm y Hy). rewrite !form_comb in Hm. lra.
Qed.
Lemma face_everywhere p A : (forall x, face p x -> 0 <= form p A x x) -> forall v, 0 <= form p A v v.
Proof.
  intros H v. destruct (zero_dec p v) as [Hv|Hv].
  - destruct (face_of p v Hv) as (s & x & Hs & Hx & E). rewrite (form_ext p A A v (fun j => s * x j) v (fun j => s * x j)) by auto. rewrite form_scal. specialize (H x Hx). nra.
  - right. symmetry. apply sumR_zero. intros i Hi. apply sumR_zero. intros j Hj. rewrite Hv by assumption. ring.
Qed.

(** * The largest eigenvalue of a symmetric pencil *)
Lemma form_nonneg_kernel p C x : sym p C -> (forall v, 0 <= form p C v v) -> form p C x x = 0 -> forall i, (i < p)%nat -> applym p C x i = 0.
Proof.
  intros Hs Hn H0 i Hi. pose (d := fun j => applym p C x j).
  assert (H : forall s, 0 <= 2 * s * form p C d x + s * s * form p C d d).
  { intros s. specialize (Hn (fun j => x j + s * d j)). rewrite form_add_r, !form_add_l, H0, (form_sym p C x d Hs) in Hn. lra. }
  assert (Hd : form p C d x = sumn p (fun j => d j * d j)) by (rewrite form_apply; reflexivity).
  set (N := sumn p (fun j => d j * d j)) in *. assert (HN : 0 <= N) by (apply sumR_nonneg; intros; nra).
  assert (N = 0) as E.
  { destruct (Rle_lt_or_eq_dec 0 N HN) as [Q|]; [|congruence]. exfalso. rewrite Hd in H. set (F := form p C d d) in *. specialize (Hn d). fold F in Hn.
    specialize (H (- N / (F + N))). assert (0 < F + N) by lra. assert (H5 : 0 <= (2 * (- N / (F + N)) * N + - N / (F + N) * (- N / (F + N)) * F) * ((F + N) * (F + N))) by (apply Rmult_le_pos; [exact H|nra]).
    replace ((2 * (- N / (F + N)) * N + - N / (F + N) * (- N / (F + N)) * F) * ((F + N) * (F + N))) with (- (N * N * (F + 2 * N))) in H5 by (field; lra). assert (0 < N * N * (F + 2 * N)); [|lra]. apply Rmult_lt_0_compat; [nra|lra]. }
  apply Rsqr_0_uniq. unfold Rsqr. apply (sumR_nonneg_0 p (fun j => d j * d j)); [intros; nra|exact E|exact Hi].
Qed.
Lemma pencil_top p A B : p <> 0%nat -> sym p A -> sym p B -> posdef p B ->
  exists lam x, nonzero p x /\ (forall i, (i < p)%nat -> applym p A x i = lam * applym p B x i) /\ forall v, form p A v v <= lam * form p B v v.
Proof.
  intros Hp HA HB HP.
  destruct (face_max p A Hp) as (xa & _ & Ha). destruct (face_min p B Hp) as (xb & Fb & Hb). destruct (face_max p B Hp) as (xc & Fc & Hc).
  pose proof (HP xb (face_nonzero p xb Fb)) as Hb0. set (bm := form p B xb xb) in *. set (bM := form p B xc xc) in *. set (aM := form p A xa xa) in *.
  pose (E := fun r => exists x, face p x /\ r = form p A x x / form p B x x).
  destruct (completeness E) as (lam & Hl1 & Hl2).
  { exists (Rabs aM / bm). intros r (x & Hx & ->). specialize (Ha x Hx). specialize (Hb x Hx). apply Rmult_le_reg_r with (form p B x x); [lra|]. unfold Rdiv at 1. rewrite Rmult_assoc, Rinv_l, Rmult_1_r by lra.
    pose proof (Rle_abs aM). apply Rle_trans with (Rabs aM); [lra|]. pose proof (Rabs_pos aM). apply Rle_trans with (Rabs aM / bm * bm); [right; field; lra|]. apply Rmult_le_compat_l; [|lra]. apply Rmult_le_pos; [lra|]. left. now apply Rinv_0_lt_compat. }
  { exists (form p A xb xb / form p B xb xb). exists xb. auto. }
  pose (C := fun i j => lam * B i j + (-1) * A i j).
  assert (HC : forall x y, form p C x y = lam * form p B x y - form p A x y) by (intros; unfold C; rewrite form_comb; ring).
  assert (Hface : forall x, face p x -> 0 <= form p C x x).
  { intros x Hx. rewrite HC. specialize (Hl1 (form p A x x / form p B x x) ltac:(exists x; auto)). pose proof (HP x (face_nonzero p x Hx)).
    apply (Rmult_le_compat_r (form p B x x)) in Hl1; [|lra]. unfold Rdiv in Hl1. rewrite Rmult_assoc, Rinv_l in Hl1 by lra. lra. }
  destruct (face_min p C Hp) as (x & Fx & Hx).
  assert (H0 : form p C x x = 0).
  { destruct (Rle_lt_or_eq_dec 0 (form p C x x) (Hface x Fx)) as [Q|]; [|congruence]. exfalso. set (m := form p C x x) in *.
    assert (Hup : is_upper_bound E (lam - m / bM)).
    { intros r (y & Hy & ->). specialize (Hx y Hy). rewrite HC in Hx. specialize (Hc y Hy). specialize (Hb y Hy).
      apply Rmult_le_reg_r with (form p B y y); [lra|]. unfold Rdiv at 1. rewrite Rmult_assoc, Rinv_l, Rmult_1_r by lra.
      assert (m / bM * form p B y y <= m). { apply Rle_trans with (m / bM * bM); [|right; field; lra]. apply Rmult_le_compat_l; [|lra]. apply Rmult_le_pos; [lra|]. left. apply Rinv_0_lt_compat. lra. }
      lra. }
    apply Hl2 in Hup. assert (0 < m / bM); [|lra]. apply Rdiv_lt_0_compat; [exact Q|]. specialize (Hc xb Fb). fold bm in Hc. lra. }
  assert (HCs : sym p C) by (intros i j Hi Hj; unfold C; now rewrite (HA i j), (HB i j)).
  exists lam, x. split; [now apply face_nonzero|]. split.
  - intros i Hi. pose proof (form_nonneg_kernel p C x HCs (face_everywhere p C Hface) H0 i Hi) as Q. unfold applym, C in Q. unfold applym. rewrite <- sumR_scal.
    apply Rminus_diag_uniq. rewrite <- sumR_minus. apply Rmult_eq_reg_l with (-1); [|lra]. rewrite Rmult_0_r, <- sumR_scal, <- Q. apply sumn_ext. intros; ring.
  - intros v. pose proof (face_everywhere p C Hface v) as Q. rewrite HC in Q. lra.
Qed.

(** * Fewer equations than unknowns *)
Lemma under_kernel k p (a : nat -> nat -> R) : (k < p)%nat -> exists u, nonzero p u /\ forall i, (i < k)%nat -> sumn p (fun j => a i j * u j) = 0.
Proof.
  intros Hk. pose (M := mk p p (fun i j => if (i <? k)%nat then a i j else 0)).
  destruct (Kernel_trivial_dec M eq_refl) as [K|K].
  - exfalso. destruct (np_solve_ok M (mk p 1 (fun _ _ => 1)) eq_refl eq_refl K) as (x & _ & _ & _ & _ & H). specialize (H k 0%nat Hk ltac:(cbn; lia)).
    rewrite entry_mk in H by lia. change (nc M) with p in H. rewrite sumR_zero in H; [lra|]. intros j Hj. unfold M. rewrite entry_mk by assumption. rewrite Nat.ltb_irrefl. ring.
  - apply singular_kernel in K; [|reflexivity]. destruct K as (v & Hv & H). exists v. split; [exact Hv|]. intros i Hi. specialize (H i ltac:(cbn; lia)). rewrite Rsum_sumn in H. change (nc M) with p in H.
    rewrite <- H. apply sumn_ext. intros j Hj. unfold M. rewrite entry_mk by lia. apply Nat.ltb_lt in Hi. now rewrite Hi.
Qed.

(** * A basis of eigenvectors *)
Lemma apply_sum p B m (c : nat -> R) (v : nat -> nat -> R) i :
  applym p B (fun j => sumn m (fun k => c k * v k j)) i = sumn m (fun k => c k * applym p B (v k) i).
Proof.
  unfold applym. rewrite (sumn_ext p _ (fun j => sumn m (fun k => c k * (B i j * v k j)))) by (intros; rewrite <- sumR_scal; apply sumn_ext; intros; ring).
  rewrite sumR_swap. apply sumn_ext. intros k Hk. now rewrite sumR_scal.
Qed.
Lemma form_eig p A B x y lam : (forall i, (i < p)%nat -> applym p A y i = lam * applym p B y i) -> form p A x y = lam * form p B x y.
Proof. intros H. rewrite !form_apply, <- sumR_scal. apply sumn_ext. intros i Hi. rewrite H by assumption. ring. Qed.
Lemma unit_length p B x : posdef p B -> nonzero p x -> exists s, s <> 0 /\ form p B (fun j => s * x j) (fun j => s * x j) = 1.
Proof.
  intros HP Hx. pose proof (HP x Hx) as H. exists (/ sqrt (form p B x x)). pose proof (sqrt_lt_R0 _ H) as Hs. split; [apply Rinv_neq_0_compat; lra|].
  rewrite form_scal. rewrite <- (sqrt_sqrt (form p B x x)) at 3 by lra. field. lra.
Qed.

Lemma pencil_basis p A B : sym p A -> sym p B -> posdef p B -> forall k, (k <= p)%nat ->
  exists (v : nat -> nat -> R) (mu : nat -> R),
    (forall a i, (a < k)%nat -> (i < p)%nat -> applym p A (v a) i = mu a * applym p B (v a) i) /\
    (forall a b, (a < k)%nat -> (b < k)%nat -> form p B (v a) (v b) = delta a b) /\
    (forall a x, (a < k)%nat -> (forall b, (b < a)%nat -> form p B x (v b) = 0) -> form p A x x <= mu a * form p B x x).
Proof.
  intros HA HB HP. induction k as [|k IH]; intros Hk.
  { exists (fun _ _ => 0), (fun _ => 0). split; [|split]; intros; lia. }
  destruct (IH ltac:(lia)) as (v & mu & He & Ho & Hmax).
  destruct (pencil_top p (fun i j => (-1) * A i j + 0 * A i j) B ltac:(lia)) as (L' & _ & _ & _ & Hlow); auto.
  { intros i j Hi Hj. now rewrite (HA i j). }
  set (L := - L'). assert (HL : forall u, L * form p B u u <= form p A u u) by (intros u; specialize (Hlow u); rewrite form_comb in Hlow; unfold L; lra). clear Hlow.
  pose (c := fun a => mu a - L + 1). pose (bv := fun a i => applym p B (v a) i).
  pose (A' := fun i j => A i j - sumn k (fun a => c a * bv a i * bv a j)).
  assert (HA's : sym p A') by (intros i j Hi Hj; unfold A'; rewrite (HA i j) by assumption; f_equal; apply sumn_ext; intros; ring).
  assert (Hap : forall x i, applym p A' x i = applym p A x i - sumn k (fun a => c a * bv a i * form p B x (v a))).
  { intros x i. unfold applym at 1, A'. rewrite (sumn_ext p _ (fun j => A i j * x j - sumn k (fun a => c a * bv a i * bv a j) * x j)) by (intros; ring). rewrite sumR_minus. unfold applym. f_equal.
    rewrite (sumn_ext p _ (fun j => sumn k (fun a => c a * bv a i * (x j * bv a j)))) by (intros; rewrite <- sumR_scal_r; apply sumn_ext; intros; ring).
    rewrite sumR_swap. apply sumn_ext. intros a Ha. rewrite sumR_scal. f_equal. rewrite form_apply. reflexivity. }
  assert (Hv' : forall b i, (b < k)%nat -> (i < p)%nat -> applym p A' (v b) i = (L - 1) * applym p B (v b) i).
  { intros b i Hb Hi. rewrite Hap, He by assumption. rewrite (sumR_single k b).
    - rewrite Ho by assumption. unfold delta. rewrite Nat.eqb_refl. unfold c, bv. ring.
    - assumption.
    - intros a Ha Hne. rewrite Ho by assumption. unfold delta. assert (b <> a) as Q by congruence. apply Nat.eqb_neq in Q. rewrite Q. ring. }
  destruct (pencil_top p A' B ltac:(lia) HA's HB HP) as (lam & w & Hw & Hew & Htop).
  destruct (under_kernel k p (fun a j => bv a j) ltac:(lia)) as (u & Hu & Hub).
  assert (Hubf : forall a, (a < k)%nat -> form p B u (v a) = 0) by (intros a Ha; rewrite form_apply, <- (Hub a Ha); apply sumn_ext; intros; unfold bv; ring).
  assert (Hlam : L <= lam).
  { pose proof (Htop u) as Q. rewrite form_apply in Q. rewrite (sumn_ext p _ (fun i => u i * applym p A u i)) in Q.
    - rewrite <- form_apply in Q. pose proof (HL u). pose proof (HP u Hu). nra.
    - intros i Hi. rewrite Hap. rewrite sumR_zero; [ring|]. intros a Ha. rewrite Hubf by assumption. ring. }
  assert (Hwo : forall a, (a < k)%nat -> form p B w (v a) = 0).
  { intros a Ha. pose proof (form_eig p A' B w (v a) (L - 1) ltac:(intros; now apply Hv')) as E1. pose proof (form_eig p A' B (v a) w lam Hew) as E2.
    rewrite (form_sym p A'), (form_sym p B) in E2 by assumption. nra. }
  destruct (unit_length p B w HP Hw) as (s & Hs & Hunit).
  exists (fun a => if (a =? k)%nat then fun j => s * w j else v a), (fun a => if (a =? k)%nat then lam else mu a). split; [|split].
  - intros a i Ha Hi. destruct (Nat.eqb_spec a k) as [->|Hne]; [|apply He; lia].
    assert (Hsc : forall M, applym p M (fun j => s * w j) i = s * applym p M w i) by (intros M; unfold applym; rewrite <- sumR_scal; apply sumn_ext; intros; ring).
    rewrite !Hsc. specialize (Hew i Hi). rewrite Hap in Hew. rewrite sumR_zero in Hew; [rewrite <- Rmult_assoc, (Rmult_comm lam s), Rmult_assoc, <- Hew; ring|]. intros b Hb. rewrite Hwo by assumption. ring.
  - assert (Hx : forall a, (a < k)%nat -> form p B (fun j => s * w j) (v a) = 0).
    { intros a Ha. rewrite (form_ext p B B (fun j => s * w j) (fun j => s * w j) (v a) (fun j => 1 * v a j)) by (auto; intros; ring). rewrite form_scal, Hwo by assumption. ring. }
    intros a b Ha Hb. destruct (Nat.eqb_spec a k) as [->|Hna], (Nat.eqb_spec b k) as [->|Hnb].
    + unfold delta. now rewrite Nat.eqb_refl.
    + rewrite Hx by lia. unfold delta. assert (k <> b) as Q by congruence. apply Nat.eqb_neq in Q. now rewrite Q.
    + rewrite form_sym, Hx by (assumption || lia). unfold delta. apply Nat.eqb_neq in Hna. now rewrite Hna.
    + apply Ho; lia.
  - intros a x Ha Hx. destruct (Nat.eqb_spec a k) as [->|Hne].
    + pose proof (Htop x) as Q. rewrite form_apply in Q. rewrite (sumn_ext p _ (fun i => x i * applym p A x i)) in Q; [now rewrite <- form_apply in Q|].
      intros i Hi. rewrite Hap. rewrite sumR_zero; [ring|]. intros b Hb. specialize (Hx b Hb). destruct (Nat.eqb_spec b k); [lia|]. rewrite Hx. ring.
    + apply Hmax; [lia|]. intros b Hb. specialize (Hx b Hb). destruct (Nat.eqb_spec b k); [lia|exact Hx].
Qed.
Lemma pencil_decreasing p A B (v : nat -> nat -> R) (mu : nat -> R) :
  (forall a i, (a < p)%nat -> (i < p)%nat -> applym p A (v a) i = mu a * applym p B (v a) i) ->
  (forall a b, (a < p)%nat -> (b < p)%nat -> form p B (v a) (v b) = delta a b) ->
  (forall a x, (a < p)%nat -> (forall b, (b < a)%nat -> form p B x (v b) = 0) -> form p A x x <= mu a * form p B x x) ->
  forall a b, (a <= b)%nat -> (b < p)%nat -> mu b <= mu a.
Proof.
  intros He Ho Hm a b Hab Hb. specialize (Hm a (v b) ltac:(lia)). rewrite (form_eig p A B (v b) (v b) (mu b)) in Hm by (intros; now apply He).
  rewrite Ho in Hm by assumption. unfold delta in Hm. rewrite Nat.eqb_refl in Hm. rewrite !Rmult_1_r in Hm. apply Hm. intros c Hc. rewrite Ho by lia. unfold delta. assert (b <> c) as Q by lia. apply Nat.eqb_neq in Q. now rewrite Q.
Qed.
(** p vectors that are orthonormal for some scalar product span the space *)
Lemma orthonormal_span p B (v : nat -> nat -> R) : sym p B -> (forall a b, (a < p)%nat -> (b < p)%nat -> form p B (v a) (v b) = delta a b) ->
  forall x : nat -> R, exists c : nat -> R, forall j, (j < p)%nat -> x j = Rsum p (fun k => c k * v k j).
Proof.
  intros HB Ho x. pose (M := mk p p (fun j k => v k j)).
  assert (K : Kernel_trivial M).
  { intros c Hc k Hk. change (nc M) with p in *. change (nr M) with p in *.
    assert (Hz : forall j, (j < p)%nat -> sumn p (fun a => c a * v a j) = 0).
    { intros j Hj. rewrite <- (Hc j Hj). apply sumn_ext. intros a Ha. unfold M. rewrite entry_mk by assumption. ring. }
    assert (form p B (v k) (fun j => sumn p (fun a => c a * v a j)) = c k) as E.
    { rewrite form_apply. rewrite (sumn_ext p _ (fun i => sumn p (fun a => c a * (v k i * applym p B (v a) i)))) by (intros; rewrite apply_sum, <- sumR_scal; apply sumn_ext; intros; ring).
      rewrite sumR_swap. rewrite (sumn_ext p _ (fun a => c a * delta k a)) by (intros a Ha; rewrite sumR_scal, <- form_apply, Ho by assumption; reflexivity).
      rewrite (sumR_single p k); [unfold delta; rewrite Nat.eqb_refl; ring|assumption|]. intros a Ha Hne. unfold delta. assert (k <> a) as Q by congruence. apply Nat.eqb_neq in Q. rewrite Q. ring. }
    rewrite <- E. rewrite form_apply. apply sumR_zero. intros i Hi. unfold applym. rewrite (sumR_zero p); [ring|]. intros j Hj. rewrite Hz by assumption. ring. }
  destruct (np_solve_ok M (mk p 1 (fun j _ => x j)) eq_refl eq_refl K) as (z & _ & _ & _ & _ & H). exists (fun k => entry z k 0). intros j Hj. specialize (H j 0%nat Hj ltac:(cbn; lia)).
  rewrite entry_mk in H by lia. rewrite <- H, Rsum_sumn. apply sumn_ext. intros k Hk. unfold M. rewrite entry_mk by assumption. ring.
Qed.

(** * Orthonormal vectors for the usual scalar product *)
Definition dotp (p : nat) (x y : nat -> R) : R := sumn p (fun j => x j * y j).
Lemma form_delta p x y : form p delta x y = dotp p x y.
Proof.
  rewrite form_apply. apply sumn_ext. intros i Hi. f_equal. unfold applym. rewrite (sumR_single p i); [unfold delta; rewrite Nat.eqb_refl; ring|assumption|].
  intros j Hj Hne. unfold delta. assert (i <> j) as Q by congruence. apply Nat.eqb_neq in Q. rewrite Q. ring.
Qed.
Lemma dot_pos p x : nonzero p x -> 0 < dotp p x x.
Proof.
  intros (j & Hj & Hne). assert (0 <= dotp p x x) as H by (apply sumR_nonneg; intros; nra). destruct (Rle_lt_or_eq_dec _ _ H) as [|Q]; [assumption|]. exfalso. apply Hne. apply Rsqr_0_uniq. unfold Rsqr.
  apply (sumR_nonneg_0 p (fun j => x j * x j)); [intros; nra|now symmetry|exact Hj].
Qed.
Lemma delta_posdef p : posdef p delta.
Proof. intros x Hx. rewrite form_delta. now apply dot_pos. Qed.
Lemma delta_sym p : sym p delta.
Proof. intros i j _ _. unfold delta. now rewrite Nat.eqb_sym. Qed.
Lemma orthonormal_extend r (u : nat -> nat -> R) t : (forall a b, (a < t)%nat -> (b < t)%nat -> dotp r (u a) (u b) = delta a b) ->
  forall d, (t + d <= r)%nat -> exists w, (forall a, (a < t)%nat -> w a = u a) /\ forall a b, (a < t + d)%nat -> (b < t + d)%nat -> dotp r (w a) (w b) = delta a b.
Proof.
  intros Hu. induction d as [|d IH]; intros Hd; [exists u; split; [reflexivity|intros; apply Hu; lia]|].
  destruct (IH ltac:(lia)) as (w & Hw & Ho). destruct (under_kernel (t + d) r w ltac:(lia)) as (x & Hx & Hk).
  destruct (unit_length r delta x (delta_posdef r) Hx) as (s & Hs & H1). rewrite form_delta in H1.
  exists (fun a => if (a =? t + d)%nat then fun j => s * x j else w a). split.
  - intros a Ha. destruct (Nat.eqb_spec a (t + d)); [lia|]. now apply Hw.
  - assert (H0 : forall a, (a < t + d)%nat -> dotp r (w a) (fun j => s * x j) = 0).
    { intros a Ha. unfold dotp. rewrite (sumn_ext r _ (fun j => s * (w a j * x j))) by (intros; ring). rewrite sumR_scal, Hk by assumption. ring. }
    intros a b Ha Hb. destruct (Nat.eqb_spec a (t + d)) as [->|Hna], (Nat.eqb_spec b (t + d)) as [->|Hnb].
    + rewrite H1. unfold delta. now rewrite Nat.eqb_refl.
    + unfold dotp. rewrite (sumn_ext r _ (fun j => w b j * (s * x j))) by (intros; ring). fold (dotp r (w b) (fun j => s * x j)). rewrite H0 by lia. unfold delta. assert (t + d <> b)%nat as Q by congruence. apply Nat.eqb_neq in Q. now rewrite Q.
    + rewrite H0 by lia. unfold delta. apply Nat.eqb_neq in Hna. now rewrite Hna.
    + apply Ho; lia.
Qed.
Lemma orthonormal_expand p (v : nat -> nat -> R) : (forall a b, (a < p)%nat -> (b < p)%nat -> dotp p (v a) (v b) = delta a b) ->
  forall x j, (j < p)%nat -> x j = sumn p (fun k => dotp p x (v k) * v k j).
Proof.
  intros Ho x j Hj. destruct (orthonormal_span p delta v (delta_sym p) ltac:(intros; rewrite form_delta; auto) x) as (c & Hc). rewrite Hc by assumption. rewrite Rsum_sumn. apply sumn_ext. intros k Hk. f_equal.
  unfold dotp. rewrite (sumn_ext p _ (fun i => sumn p (fun a => c a * (v a i * v k i)))).
  - rewrite sumR_swap. rewrite (sumR_single p k); [rewrite sumR_scal; fold (dotp p (v k) (v k)); rewrite Ho by assumption; unfold delta; rewrite Nat.eqb_refl; ring|assumption|].
    intros a Ha Hne. rewrite sumR_scal. fold (dotp p (v a) (v k)). rewrite Ho by assumption. unfold delta. apply Nat.eqb_neq in Hne. rewrite Hne. ring.
  - intros i Hi. rewrite Hc by assumption. rewrite Rsum_sumn, <- sumR_scal_r. apply sumn_ext. intros; ring.
Qed.

(** * Singular values, for at least as many rows as columns *)
Lemma svd_tall r c (A : nat -> nat -> R) : (c <= r)%nat -> exists (u v : nat -> nat -> R) (s : nat -> R),
  (forall a b, (a < c)%nat -> (b < c)%nat -> dotp r (u a) (u b) = delta a b) /\ (forall a b, (a < c)%nat -> (b < c)%nat -> dotp c (v a) (v b) = delta a b) /\
  (forall a, (a < c)%nat -> 0 <= s a) /\ (forall a b, (a <= b)%nat -> (b < c)%nat -> s b <= s a) /\
  forall i j, (i < r)%nat -> (j < c)%nat -> A i j = sumn c (fun t => u t i * s t * v t j).
Proof.
  intros Hrc. pose (G := fun i j => sumn r (fun l => A l i * A l j)).
  assert (HG : sym c G) by (intros i j _ _; apply sumn_ext; intros; ring).
  destruct (pencil_basis c G delta HG (delta_sym c) (delta_posdef c) c (le_n c)) as (v & mu & He & Ho & Hm).
  pose proof (pencil_decreasing c G delta v mu He Ho Hm) as Hdec.
  assert (Hov : forall a b, (a < c)%nat -> (b < c)%nat -> dotp c (v a) (v b) = delta a b) by (intros; rewrite <- form_delta; auto).
  pose (Av := fun a i => sumn c (fun j => A i j * v a j)).
  assert (HAv : forall a b, (a < c)%nat -> (b < c)%nat -> dotp r (Av a) (Av b) = mu b * delta a b).
  { intros a b Ha Hb. rewrite <- Ho by assumption. rewrite <- (form_eig c G delta (v a) (v b) (mu b)) by (intros; now apply He). unfold dotp, form, G, Av.
    rewrite (sumn_ext r _ (fun l => sumn c (fun i => sumn c (fun j => A l i * v a i * (A l j * v b j))))) by (intros; rewrite sumR_mul; reflexivity).
    rewrite sumR_swap. apply sumn_ext. intros i Hi. rewrite sumR_swap. apply sumn_ext. intros j Hj. rewrite <- sumR_scal, <- sumR_scal_r. apply sumn_ext. intros; ring. }
  assert (Hmu : forall a, (a < c)%nat -> 0 <= mu a).
  { intros a Ha. pose proof (HAv a a Ha Ha) as Q. unfold delta in Q. rewrite Nat.eqb_refl, Rmult_1_r in Q. rewrite <- Q. apply sumR_nonneg. intros; nra. }
  assert (Ht : exists t, (t <= c)%nat /\ (forall a, (a < t)%nat -> 0 < mu a) /\ forall a, (t <= a)%nat -> (a < c)%nat -> mu a = 0).
  { clear - Hdec Hmu. assert (H : forall m, (m <= c)%nat -> (forall a, (a < m)%nat -> 0 < mu a) \/ exists t, (t <= c)%nat /\ (forall a, (a < t)%nat -> 0 < mu a) /\ forall a, (t <= a)%nat -> (a < c)%nat -> mu a = 0).
    { induction m as [|m IH]; intros Hmc; [left; lia|]. destruct (IH ltac:(lia)) as [Hl|Hr]; [|now right]. destruct (Rle_lt_or_eq_dec 0 (mu m) ltac:(apply Hmu; lia)) as [Q|Q].
      - left. intros a Ha. destruct (Nat.eq_dec a m) as [->|]; [assumption|apply Hl; lia].
      - right. exists m. split; [lia|]. split; [assumption|]. intros a H1 H2. specialize (Hdec m a H1 H2). specialize (Hmu a H2). lra. }
    destruct (H c (le_n c)) as [Hl|Hr]; [|exact Hr]. exists c. split; [lia|]. split; [assumption|]. intros; lia. }
  destruct Ht as (t & Htc & Hpos & Hzero).
  assert (Hsq : forall a, (a < t)%nat -> sqrt (mu a) <> 0) by (intros a Ha; pose proof (sqrt_lt_R0 _ (Hpos a Ha)); lra).
  destruct (orthonormal_extend r (fun a i => Av a i / sqrt (mu a)) t) with (d := (c - t)%nat) as (u & Hu1 & Hu2); [|lia|].
  { intros a b Ha Hb. unfold dotp. rewrite (sumn_ext r _ (fun i => / (sqrt (mu a) * sqrt (mu b)) * (Av a i * Av b i))) by (intros; field; split; now apply Hsq).
    rewrite sumR_scal. fold (dotp r (Av a) (Av b)). rewrite HAv by lia. unfold delta. destruct (Nat.eqb_spec a b) as [->|]; [|ring]. rewrite <- (sqrt_sqrt (mu b)) at 3 by (left; now apply Hpos). field. now apply Hsq. }
  replace (t + (c - t))%nat with c in Hu2 by lia.
  exists u, v, (fun a => sqrt (mu a)). split; [exact Hu2|]. split; [exact Hov|]. split; [intros; apply sqrt_pos|]. split.
  - intros a b Hab Hb. apply sqrt_le_1; [apply Hmu; lia|apply Hmu; lia|]. now apply Hdec.
  - intros i j Hi Hj. rewrite (orthonormal_expand c v Hov (A i) j Hj). apply sumn_ext. intros k Hk. change (dotp c (A i) (v k)) with (Av k i). f_equal.
    destruct (Nat.lt_ge_cases k t) as [Hlt|Hge].
    + rewrite Hu1 by assumption. field. now apply Hsq.
    + rewrite (Hzero k Hge Hk), sqrt_0, Rmult_0_r. pose proof (HAv k k Hk Hk) as Q. rewrite (Hzero k Hge Hk), Rmult_0_l in Q. apply Rsqr_0_uniq. unfold Rsqr.
      apply (sumR_nonneg_0 r (fun i => Av k i * Av k i)); [intros; nra|exact Q|exact Hi].
Qed.
