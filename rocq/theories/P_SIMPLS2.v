(** C68, C69: what SIMPLS computes - orthonormal scores, and the same predictions as PLS1. *)
From Coq Require Import List ZArith Lia Bool Arith Reals Lra.
From Verif Require Import Base Num Mat M_Matrix M_Factory M_Helper M_Loop M_Utils M_Linalg M_Transform M_PLSBase M_PLS
  S_Matrix L_Base L_Mat L_Matrix L_MatR L_Linalg L_Alg L_Deflate P_Matrix P_Linalg P_Helper P_PLSPrep P_PLS1 L_Krylov L_Public.
Import ListNotations.
Local Open Scope R_scope.

(** np.linalg.eig on a 1 x 1 matrix: one eigenvalue, a 1 x 1 matrix with a non-zero entry. *)
Definition eig_one (eig : mat R -> res (list R * mat R)) : Prop :=
  forall A, wf A -> nr A = 1%nat -> nc A = 1%nat -> exists l v, eig A = Ok ([l], Mat 1 1 [[v]]) /\ v <> 0.

Lemma dominant_one eig x : eig_one eig -> exists v, dominant eig (mk 1 1 (fun _ _ => x)) = Ok (mk 1 1 (fun _ _ => v)) /\ v <> 0.
Proof.
  intros He. destruct (He (mk 1 1 (fun _ _ => x)) ltac:(apply mk_wf) eq_refl eq_refl) as (l & v & E & Hv).
  exists v. split; [|exact Hv]. unfold dominant, make_eig. rewrite E. cbn [bind fst snd length]. reflexivity.
Qed.

(** v v^T of a normalised multiple of u *)
Lemma normalised_outer p (u : nat -> R) (s : R) i j : s <> 0 -> 0 < sumn p (fun l => u l * u l) ->
  (s * u i / sqrt (sumn p (fun l => s * u l * (s * u l)))) * (s * u j / sqrt (sumn p (fun l => s * u l * (s * u l)))) = u i * u j / sumn p (fun l => u l * u l).
Proof.
  intros Hs Hu. set (N := sumn p (fun l => u l * u l)) in *.
  assert (E : sumn p (fun l => s * u l * (s * u l)) = s * s * N). { unfold N. rewrite <- sumR_scal. apply sumn_ext. intros; ring. }
  rewrite E. assert (Hss : 0 < s * s) by (apply Rsqr_pos_lt in Hs; exact Hs).
  assert (HN : 0 < s * s * N) by now apply Rmult_lt_0_compat.
  assert (Hr : sqrt (s * s * N) <> 0) by (pose proof (sqrt_lt_R0 _ HN); lra).
  replace (s * u i / sqrt (s * s * N) * (s * u j / sqrt (s * s * N))) with (s * s * (u i * u j) / (sqrt (s * s * N) * sqrt (s * s * N))) by (field; exact Hr).
  rewrite sqrt_sqrt by lra. field. split; [lra|exact Hs].
Qed.

Section Loop.
Variables (eig : mat R -> res (list R * mat R)) (n p a : nat) (X : nat -> nat -> R) (y : nat -> R).
Hypotheses (Heig : eig_one eig) (Hp : p <> 0%nat) (Ha : a <> 0%nat) (Hnb : no_breakdown n p X y a).
Notation E := (residual n p X y).
Notation t := (fun k => scores_of p (E k) (unit_cov n p (E k) y)).
Notation q := (fun k => loadings_of n (E k) (t k)).
Notation g := (fun k j => cov n (E k) y j).
Notation G := (gsq n p X y).
Notation D := (dsq n p X y).
Notation d := (dir n p X y).
Notation tt := (tau n p X y).

Definition A_at (h j : nat) : R := d h j / D h.
Definition M_at (h j l : nat) : R := sumn n (fun i => X i j * X i l) - sumn h (fun m => tt m * (q m j * q m l)).
Definition C_ok (h : nat) (C : nat -> nat -> R) : Prop :=
  (forall k j, (h < k)%nat -> (k <= a)%nat -> (j < p)%nat -> sumn p (fun l => C j l * g k l) = g k j) /\
  (forall j, (j < p)%nat -> sumn p (fun l => C j l * d h l) = d h j) /\
  (forall j, (j < p)%nat -> sumn p (fun l => C j l * g h l) = d h j / D h).
Definition u_at (h j : nat) : R := d h j / D h - g (S h) j.

Lemma u_u h : (h < a)%nat -> sumn p (fun l => u_at h l * u_at h l) = / D h + G (S h).
Proof.
  intros Hh. pose proof (dsq_pos n p a X y Hnb h Hh) as HD.
  rewrite (sumn_ext p _ (fun l => / D h * / D h * (d h l * d h l) + ((-2) * / D h * (g (S h) l * d h l) + g (S h) l * g (S h) l))) by (intros; unfold u_at, Rdiv; ring).
  rewrite sumR_plus, sumR_plus, !sumR_scal. rewrite (g_dir n p a X y Hnb (S h) h) by lia. destruct (Nat.leb_spec (S h) h); [lia|]. fold (dsq n p X y h). fold (gsq n p X y (S h)). field. lra.
Qed.
Lemma u_pos h : (h < a)%nat -> 0 < sumn p (fun l => u_at h l * u_at h l).
Proof. intros Hh. rewrite u_u by assumption. pose proof (Rinv_0_lt_compat _ (dsq_pos n p a X y Hnb h Hh)). pose proof (gsq_nonneg n p X y (S h)). lra. Qed.
Lemma u_g h k : (h < k)%nat -> (k <= a)%nat -> sumn p (fun l => u_at h l * g k l) = if (k =? S h)%nat then - G (S h) else 0.
Proof.
  intros Hk Hka. rewrite (sumn_ext p _ (fun l => / D h * (g k l * d h l) - g (S h) l * g k l)) by (intros; unfold u_at, Rdiv; ring).
  rewrite sumR_minus, sumR_scal, (g_dir n p a X y Hnb k h) by lia. destruct (Nat.leb_spec k h); [lia|]. destruct (Nat.eqb_spec k (S h)) as [->|Hne].
  - fold (gsq n p X y (S h)). ring.
  - rewrite (g_perp n p a X y Hnb (S h) k) by lia. ring.
Qed.
Lemma u_d h : (h < a)%nat -> sumn p (fun l => u_at h l * d h l) = 1.
Proof.
  intros Hh. pose proof (dsq_pos n p a X y Hnb h Hh) as HD.
  rewrite (sumn_ext p _ (fun l => / D h * (d h l * d h l) - g (S h) l * d h l)) by (intros; unfold u_at, Rdiv; ring).
  rewrite sumR_minus, sumR_scal, (g_dir n p a X y Hnb (S h) h) by lia. destruct (Nat.leb_spec (S h) h); [lia|]. fold (dsq n p X y h). field. lra.
Qed.
(** one round keeps the conditions on C and advances A *)
Lemma C_apply h C (v : nat -> R) j : sumn p (fun l => (C j l - u_at h j * u_at h l / sumn p (fun l => u_at h l * u_at h l)) * v l) =
  sumn p (fun l => C j l * v l) - u_at h j * sumn p (fun l => u_at h l * v l) / sumn p (fun l => u_at h l * u_at h l).
Proof.
  set (N := sumn p (fun l => u_at h l * u_at h l)).
  rewrite (sumn_ext p _ (fun l => C j l * v l - u_at h j * / N * (u_at h l * v l))) by (intros; unfold Rdiv; ring).
  rewrite sumR_minus, sumR_scal. unfold Rdiv. ring.
Qed.
Lemma C_next h C : (S h < a)%nat -> C_ok h C -> C_ok (S h) (fun j l => C j l - u_at h j * u_at h l / sumn p (fun l => u_at h l * u_at h l)).
Proof.
  intros Hh (C1 & C2 & C3). pose proof (dsq_pos n p a X y Hnb h ltac:(lia)) as HD. pose proof (gsq_pos n p a X y Hnb (S h) Hh) as HG. pose proof (u_pos h ltac:(lia)) as Hu.
  pose proof (u_u h ltac:(lia)) as Euu.
  assert (HDG : 0 < 1 + D h * G (S h)) by (pose proof (Rmult_lt_0_compat _ _ HD HG); lra).
  split; [|split].
  - intros k j Hk Hka Hj. rewrite C_apply, C1, u_g by lia. destruct (Nat.eqb_spec k (S h)); [lia|]. unfold Rdiv. ring.
  - intros j Hj. rewrite C_apply.
    assert (Hz : sumn p (fun l => u_at h l * d (S h) l) = 0).
    { rewrite (sumn_ext p _ (fun l => u_at h l * d h l + / G (S h) * (u_at h l * g (S h) l))) by (intros; rewrite dir_S; unfold Rdiv; ring).
      rewrite sumR_plus, sumR_scal, u_d, u_g by lia. rewrite Nat.eqb_refl. field. lra. }
    rewrite Hz. rewrite (sumn_ext p _ (fun l => C j l * d h l + / G (S h) * (C j l * g (S h) l))) by (intros; rewrite dir_S; unfold Rdiv; ring).
    rewrite sumR_plus, sumR_scal, C2, C1 by lia. rewrite dir_S. unfold Rdiv. ring.
  - intros j Hj. rewrite C_apply, C1, u_g by lia. rewrite Nat.eqb_refl, Euu. rewrite (dir_dir n p a X y Hnb h Hh), dir_S. unfold u_at. field. repeat split; lra.
Qed.
Lemma A_next h C j : (S h < a)%nat -> C_ok h C -> (j < p)%nat ->
  sumn p (fun l => (C j l - u_at h j * u_at h l / sumn p (fun l => u_at h l * u_at h l)) * A_at h l) = A_at (S h) j.
Proof.
  intros Hh (C1 & C2 & C3) Hj. pose proof (dsq_pos n p a X y Hnb h ltac:(lia)) as HD. pose proof (gsq_pos n p a X y Hnb (S h) Hh) as HG. pose proof (u_pos h ltac:(lia)) as Hu.
  pose proof (u_u h ltac:(lia)) as Euu.
  assert (HDG : 0 < 1 + D h * G (S h)) by (pose proof (Rmult_lt_0_compat _ _ HD HG); lra).
  rewrite C_apply. unfold A_at.
  rewrite (sumn_ext p (fun l => C j l * (d h l / D h)) (fun l => / D h * (C j l * d h l))) by (intros; unfold Rdiv; ring).
  rewrite (sumn_ext p (fun l => u_at h l * (d h l / D h)) (fun l => / D h * (u_at h l * d h l))) by (intros; unfold Rdiv; ring).
  rewrite !sumR_scal, u_d, C2, Euu by lia. rewrite (dir_dir n p a X y Hnb h Hh), dir_S. unfold u_at. field. repeat split; lra.
Qed.
Lemma M_d h j : (h < a)%nat -> (j < p)%nat -> sumn p (fun l => M_at h j l * d h l) = tt h * q h j / sqrt (G h).
Proof.
  intros Hh Hj. unfold M_at.
  rewrite (sumn_ext p _ (fun l => sumn n (fun i => X i j * (X i l * d h l)) - sumn h (fun m => tt m * q m j * (q m l * d h l)))).
  2:{ intros l Hl. rewrite Rmult_minus_distr_r, <- !sumR_scal_r. f_equal; apply sumn_ext; intros; ring. }
  rewrite sumR_minus. rewrite (sumR_swap p n), (sumR_swap p h). rewrite (sumR_zero h).
  2:{ intros m Hm. rewrite sumR_scal, (q_dir n p a X y Hnb m h) by lia. destruct (Nat.eqb_spec m h); [lia|]. ring. }
  rewrite (sumn_ext n _ (fun i => X i j * t h i * / sqrt (G h))) by (intros; rewrite sumR_scal, (X_dir n p a X y Hnb) by assumption; unfold Rdiv; ring).
  rewrite sumR_scal_r, (X_t n p a X y Hnb h j) by assumption. unfold Rdiv. ring.
Qed.
Lemma M_quad h : (h < a)%nat -> sumn p (fun l => sumn p (fun j => d h j * M_at h j l) * d h l) = tt h / G h.
Proof.
  intros Hh. rewrite (sumn_ext p _ (fun l => sumn p (fun j => d h j * (M_at h j l * d h l)))) by (intros; rewrite <- sumR_scal_r; apply sumn_ext; intros; ring).
  rewrite sumR_swap. rewrite (sumn_ext p _ (fun j => tt h / sqrt (G h) * (q h j * d h j))).
  2:{ intros j Hj. rewrite sumR_scal, M_d by assumption. unfold Rdiv. ring. }
  rewrite sumR_scal, (q_dir n p a X y Hnb h h) by assumption. rewrite Nat.eqb_refl. pose proof (rt_pos n p a X y Hnb h Hh). rewrite <- (rt_rt n p X y h) at 3. field. lra.
Qed.

Definition W_at (eps : nat -> R) (k j : nat) : R := eps k * (sqrt (G k) / sqrt (tt k)) * d k j.
Definition Q_at (eps : nat -> R) (k : nat) : R := eps k * (sqrt (G k) / sqrt (tt k)).
Definition inv (h : nat) (st : simpls_state (T:=R)) : Prop :=
  exists A M C Pm eps, (forall k, (k < h)%nat -> eps k * eps k = 1) /\
    ((h < a)%nat -> C_ok h C /\ (forall j, (j < p)%nat -> A j = A_at h j) /\ (forall j l, (j < p)%nat -> (l < p)%nat -> M j l = M_at h j l)) /\
    st = (mk p 1 (fun j _ => A j), mk p p M, mk p p C, mk p a (fun j k => if (k <? h)%nat then W_at eps k j else 0), mk p a Pm, mk 1 a (fun _ k => if (k <? h)%nat then Q_at eps k else 0)).

Lemma step_inv h st : (h < a)%nat -> inv h st -> exists st', simpls_step eig st h = Ok st' /\ inv (S h) st'.
Proof.
  intros Hh (A & M & C & Pm & eps & Heps & Hst & ->). destruct (Hst Hh) as (HC & HA & HM). clear Hst.
  pose proof (dsq_pos n p a X y Hnb h Hh) as HD. pose proof (gsq_pos n p a X y Hnb h Hh) as HG. pose proof (tau_pos n p a X y Hnb h Hh) as Htau.
  pose proof (rt_pos n p a X y Hnb h Hh) as Hc. pose proof (sqrt_lt_R0 _ Htau) as Hst.
  unfold simpls_step, zn. cbv zeta. rewrite transpose_mk, mul_mk. cbn [bind].
  destruct (dominant_one eig (sumn p (fun k => nmul (A k) (A k))) Heig) as (v & Ed & Hv). rewrite Ed. cbn [bind]. rewrite mul_mk. cbn [bind].
  set (f := v / D h). assert (Hf : f <> 0) by (unfold f; apply Rmult_integral_contrapositive; split; [exact Hv|apply Rinv_neq_0_compat; lra]).
  assert (Ew : mk p 1 (fun i j : nat => sumn 1 (fun k : nat => nmul (A i) v)) = mk p 1 (fun j _ => f * d h j)).
  { apply mk_ext. intros i j Hi Hj. rewrite sum1. cbn [nmul NumR]. rewrite HA by assumption. unfold A_at, f, Rdiv. ring. }
  rewrite Ew. rewrite transpose_mk, mul_mk. cbn [bind]. rewrite mul_mk. cbn [bind]. rewrite as_real_mk. cbn [bind]. rewrite mul_scalar_mk.
  set (cr := sumn p (fun k => nmul (sumn p (fun k0 => nmul (f * d h k0) (M k0 k))) (f * d h k))).
  assert (Ecr : cr = f * f * (tt h / G h)).
  { unfold cr. rewrite <- (M_quad h Hh). rewrite <- sumR_scal. apply sumn_ext. intros l Hl. cbn [nmul NumR].
    rewrite (sumn_ext p _ (fun j => f * (d h j * M_at h j l))) by (intros; rewrite HM by assumption; ring). rewrite sumR_scal. ring. }
  assert (Hcr : 0 < cr). { rewrite Ecr. apply Rmult_lt_0_compat; [now apply Rsqr_pos_lt in Hf|now apply Rdiv_lt_0_compat]. }
  pose proof (sqrt_lt_R0 _ Hcr) as Hscr.
  set (e := f * (1 / sqrt cr) * (sqrt (tt h) / sqrt (G h))).
  assert (He : e * e = 1).
  { replace (e * e) with (f * f * (sqrt (tt h) * sqrt (tt h)) / ((sqrt cr * sqrt cr) * (sqrt (G h) * sqrt (G h)))) by (unfold e; field; split; lra).
    rewrite !sqrt_sqrt by lra. rewrite Ecr. field. repeat split; lra. }
  assert (Hee : e <> 0) by (intros Q; rewrite Q in He; lra).
  set (epsn := fun k => if (k =? h)%nat then e else eps k).
  assert (Een : epsn h = e) by (unfold epsn; now rewrite Nat.eqb_refl).
  assert (Ewn : mk p 1 (fun i j : nat => nmul (f * d h i) (ndiv n1 (nsqrt cr))) = mk p 1 (fun j _ => W_at epsn h j)).
  { apply mk_ext. intros i j Hi Hj. cbn [nmul ndiv n1 nsqrt NumR]. unfold W_at. rewrite Een. unfold e. field. repeat split; lra. }
  rewrite Ewn. rewrite set_column_mk by assumption. cbn [bind]. rewrite mul_mk. cbn [bind].
  assert (Ep : mk p 1 (fun i j : nat => sumn p (fun k : nat => nmul (M i k) (W_at epsn h k))) = mk p 1 (fun j _ => e * sqrt (tt h) * q h j)).
  { apply mk_ext. intros i j Hi Hj. cbn [nmul NumR]. rewrite (sumn_ext p _ (fun l => e * (sqrt (G h) / sqrt (tt h)) * (M_at h i l * d h l))) by (intros; rewrite HM by assumption; unfold W_at; rewrite Een; ring).
    rewrite sumR_scal, M_d by assumption. rewrite <- (sqrt_sqrt (tt h)) at 2 by lra. field. split; lra. }
  rewrite Ep. rewrite set_column_mk by assumption. cbn [bind]. rewrite mul_mk. cbn [bind].
  assert (Eq : mk 1 1 (fun i j : nat => sumn p (fun k : nat => nmul (A k) (W_at epsn h k))) = mk 1 1 (fun _ _ => Q_at epsn h)).
  { apply mk_ext. intros i j Hi Hj. cbn [nmul NumR]. rewrite (sumn_ext p _ (fun l => e * (sqrt (G h) / sqrt (tt h)) * / D h * (d h l * d h l))) by (intros; rewrite HA by assumption; unfold W_at, A_at; rewrite Een; unfold Rdiv; ring).
    rewrite sumR_scal. fold (dsq n p X y h). unfold Q_at. rewrite Een. field. split; lra. }
  rewrite Eq. rewrite set_column_mk by assumption. cbn [bind]. rewrite mul_mk. cbn [bind].
  set (s := e * sqrt (tt h) / sqrt (G h)).
  assert (Hs : s <> 0). { unfold s. apply Rmult_integral_contrapositive. split; [apply Rmult_integral_contrapositive; split; [exact Hee|lra]|apply Rinv_neq_0_compat; lra]. }
  assert (Ev : mk p 1 (fun i j : nat => sumn p (fun k : nat => nmul (C i k) (e * sqrt (tt h) * q h k))) = mk p 1 (fun j _ => s * u_at h j)).
  { destruct HC as (C1 & C2 & C3). apply mk_ext. intros i j Hi Hj. cbn [nmul NumR].
    rewrite (sumn_ext p _ (fun l => s * (C i l * g h l - C i l * g (S h) l))).
    2:{ intros l Hl. pose proof (q_g n p a X y Hnb h l Hh Hl) as Eql. cbv beta in Eql. rewrite Eql. unfold s, Rdiv. ring. }
    rewrite sumR_scal, sumR_minus, C3, C1 by (assumption || lia). reflexivity. }
  rewrite Ev. rewrite normalized0_mk. cbn [bind]. rewrite transpose_mk, mul_mk. cbn [bind]. rewrite sub_mk. cbn [bind].
  set (C' := fun j l => C j l - u_at h j * u_at h l / sumn p (fun l => u_at h l * u_at h l)).
  match goal with |- context [mul (mk p p ?F) (mk p 1 _)] => assert (EC : mk p p F = mk p p C') end.
  { apply mk_ext. intros i j Hi Hj. rewrite sum1. cbn [nmul nsub ndiv nsqrt NumR]. unfold C'. f_equal. now apply normalised_outer; [|apply u_pos]. }
  rewrite EC. rewrite transpose_mk, mul_mk. cbn [bind]. rewrite sub_mk. cbn [bind]. rewrite mul_mk. cbn [bind].
  eexists. split; [reflexivity|].
  exists (fun j => sumn p (fun l => C' j l * A l)), (M_at (S h)), C', (fun i j => if (j =? h)%nat then e * sqrt (tt h) * q h i else Pm i j), epsn. split; [|split].
  - intros k Hk. unfold epsn. destruct (Nat.eqb_spec k h) as [->|Hne]; [exact He|apply Heps; lia].
  - intros HSh. split; [now apply C_next|]. split; [|reflexivity]. intros j Hj. rewrite <- (A_next h C j HSh HC Hj). apply sumn_ext. intros l Hl. now rewrite HA.
  - apply f_equal2; [apply f_equal2; [apply f_equal2; [apply f_equal2; [apply f_equal2|]|]|]|]; try apply mk_ext; try (intros i j Hi Hj).
    + reflexivity.
    + rewrite sum1. cbn [nmul nsub NumR]. rewrite HM by assumption. unfold M_at. rewrite sumR_S.
      replace (e * sqrt (tt h) * q h i * (e * sqrt (tt h) * q h j)) with ((e * e) * (sqrt (tt h) * sqrt (tt h)) * (q h i * q h j)) by ring. rewrite He, sqrt_sqrt by lra. ring.
    + reflexivity.
    + rewrite <- (ifS h j 0 (fun k => W_at epsn k i)). destruct (Nat.eqb_spec j h); [reflexivity|]. destruct (Nat.ltb_spec j h); [|reflexivity]. unfold W_at, epsn. rewrite (proj2 (Nat.eqb_neq j h)) by lia. reflexivity.
    + reflexivity.
    + rewrite <- (ifS h j 0 (fun k => Q_at epsn k)). destruct (Nat.eqb_spec j h); [reflexivity|]. destruct (Nat.ltb_spec j h); [|reflexivity]. unfold Q_at, epsn. rewrite (proj2 (Nat.eqb_neq j h)) by lia. reflexivity.
Qed.

Lemma loop_simpls : n <> 0%nat -> exists A M C P eps, (forall k, (k < a)%nat -> eps k * eps k = 1) /\
  simpls_loop eig (Z.of_nat a) (mk n p X) (mk n 1 (fun i _ => y i)) =
    Ok (A, M, C, mk p a (fun j k => W_at eps k j), P, mk 1 a (fun _ k => Q_at eps k)).
Proof.
  intros Hn. unfold simpls_loop. cbn [nc mk]. fold (mk n p X). rewrite transpose_mk, !mul_mk. cbn [bind]. unfold zn.
  assert (Ee : eye (T:=R) (Z.of_nat p) (Z.of_nat p) = Ok (eyeR p)).
  { rewrite <- eye_eyeR. unfold eye. cbn [Z.eqb]. now replace (if (Z.of_nat p =? -1)%Z then Z.of_nat p else Z.of_nat p) with (Z.of_nat p) by (destruct (Z.of_nat p =? -1)%Z; reflexivity). }
  rewrite Ee. cbn [bind]. rewrite !zeros_mk by assumption. change 1%Z with (Z.of_nat 1). rewrite zeros_mk by lia. rewrite Nat2Z.id.
  match goal with |- context [for_range a ?body ?init] => destruct (for_range_inv inv body a init) as (st & Es & A & M & C & Pm & eps & Heps & _ & Hst) end.
  - pose proof (gsq_pos n p a X y Hnb 0 ltac:(lia)) as HG.
    assert (Hd0 : forall j, d 0 j = g 0%nat j / G 0) by (intros; unfold dir; rewrite sumR_S, sumR_0; ring).
    assert (HD0 : D 0 = / G 0) by (apply (dsq_0 n p a X y Hnb); lia).
    assert (Hdd : forall j, d 0 j / D 0 = g 0%nat j) by (intros; rewrite Hd0, HD0; field; lra).
    assert (HI : forall j (v : nat -> R), (j < p)%nat -> sumn p (fun l => (if (j =? l)%nat then 1 else 0) * v l) = v j).
    { intros j v Hj. rewrite (sumR_single p j); [now rewrite Nat.eqb_refl, Rmult_1_l|assumption|]. intros l Hl Hne. rewrite (proj2 (Nat.eqb_neq j l)) by lia. ring. }
    exists (fun j => g 0%nat j), (fun j l => sumn n (fun i => X i j * X i l)), (fun i j => if (i =? j)%nat then 1 else 0), (fun _ _ => 0), (fun _ => 1). split; [intros; lia|]. split.
    + intros _. split; [split; [|split]|split].
      * intros k j Hk Hka Hj. now rewrite HI.
      * intros j Hj. now rewrite HI.
      * intros j Hj. now rewrite HI, Hdd.
      * intros j Hj. unfold A_at. now rewrite Hdd.
      * intros j l Hj Hl. unfold M_at. rewrite sumR_0. ring.
    + apply f_equal2; [apply f_equal2; [apply f_equal2; [apply f_equal2; [apply f_equal2|]|]|]|]; try reflexivity; try apply mk_ext; try (intros i j Hi Hj). unfold cov. now rewrite Rsum_sumn.
  - intros k st Hk Hst. now apply step_inv.
  - exists (mk p 1 (fun j _ => A j)), (mk p p M), (mk p p C), (mk p a Pm), eps. split; [exact Heps|]. rewrite Es, Hst. apply (f_equal Ok).
    apply f_equal2; [apply f_equal2; [apply f_equal2|]|]; try reflexivity; try apply mk_ext; try (intros i j Hi Hj).
    + now rewrite (proj2 (Nat.ltb_lt j a) Hj).
    + now rewrite (proj2 (Nat.ltb_lt j a) Hj).
Qed.
End Loop.

(** ** PLS1 in terms of the directions *)
Section Pls1Run.
Variables (lstsq : mat R -> mat R -> res (mat R)) (n p a : nat) (X : nat -> nat -> R) (y : nat -> R).
Hypotheses (Hn : n <> 0%nat) (Hp : p <> 0%nat) (Ha : a <> 0%nat) (Hnb : no_breakdown n p X y a).
Notation G := (gsq n p X y).
Notation d := (dir n p X y).
Notation tt := (tau n p X y).
Lemma pls1_run own : exists s, c_train (pls1 lstsq) (Z.of_nat a) own (mk n p X) (mk n 1 (fun i _ => y i)) = (s, Ok None) /\
  forall m (z : nat -> nat -> R), m <> 0%nat ->
    pls1_transform (Z.of_nat a) s (mk m p z) = Ok (mk m a (fun i k => sqrt (G k) * sumn p (fun j => z i j * d k j))) /\
    pls1_predict (Z.of_nat a) s (mk m p z) = Ok (mk m 1 (fun i _ => sumn a (fun k => sumn p (fun j => z i j * d k j) * (G k / tt k)))).
Proof.
  pose proof (loop_run n p a X y Hn Hp Ha) as EL. cbv zeta in EL.
  set (w := fun k => unit_cov n p (residual n p X y k) y) in *.
  set (t := fun k => scores_of p (residual n p X y k) (w k)) in *.
  set (q := fun k => loadings_of n (residual n p X y k) (t k)) in *.
  set (b := fun k => Rsum n (fun i => t k i * y i) / Rsum n (fun i => t k i * t k i)) in *.
  assert (Hone : forall k, (k < a)%nat -> sumn p (fun j => q k j * w k j) = 1).
  { intros. apply (q_self n p a (residual n p X y) w t q); auto; [apply (Ht n p a X y)|apply (Hq n p a X y)|apply (Htau n p a X y Hnb)]. }
  assert (Hlow : forall k m, (k < m)%nat -> (m < a)%nat -> sumn p (fun j => q m j * w k j) = 0).
  { intros. apply (q_w_below n p a (residual n p X y) w t q); auto; [apply (Ht n p a X y)|apply (Hq n p a X y)|apply (Htau n p a X y Hnb)]. }
  destruct (fit_core lstsq p a w q b Hone Hlow _ _ _ _ _ EL) as (Iv & HIv & Ef).
  set (s := Pls1 _ _ _ _) in Ef. exists s. split; [cbn [pls1 c_train]; now rewrite Ef|].
  intros m z Hm. split.
  - rewrite (transform_run p a w q s Hp Ha eq_refl eq_refl m z Hm). f_equal. apply mk_ext. intros i k Hi Hk. apply (ss_dir n p a X y Hnb (z i) k Hk).
  - rewrite (predict_run p a w q s Hp Ha eq_refl eq_refl m z b Hm eq_refl). f_equal. apply mk_ext. intros i k0 Hi Hk0. rewrite Rsum_sumn. apply sumn_ext. intros k Hk.
    rewrite (ss_dir n p a X y Hnb (z i) k Hk : ss p w q (z i) k = _). unfold b. rewrite !Rsum_sumn. rewrite (t_y n p a X y Hnb k Hk : sumn n (fun i => t k i * y i) = _).
    change (sumn n (fun i0 => t k i0 * t k i0)) with (tt k). replace (G k / tt k) with (sqrt (G k) * sqrt (G k) / tt k) by now rewrite rt_rt. pose proof (tau_pos n p a X y Hnb k Hk). field. lra.
Qed.
End Pls1Run.

Section SimplsRun.
Variables (eig : mat R -> res (list R * mat R)) (n p a : nat) (X : nat -> nat -> R) (y : nat -> R).
Hypotheses (Heig : eig_one eig) (Hn : n <> 0%nat) (Hp : p <> 0%nat) (Ha : a <> 0%nat) (Hnb : no_breakdown n p X y a).
Notation G := (gsq n p X y).
Notation d := (dir n p X y).
Notation tt := (tau n p X y).
Lemma simpls_run own : (si_coef own <= 0)%Z -> exists s eps, (forall k, (k < a)%nat -> eps k * eps k = 1) /\
  c_train (simpls eig) (Z.of_nat a) own (mk n p X) (mk n 1 (fun i _ => y i)) = (s, Ok None) /\
  forall m (z : nat -> nat -> R),
    snd (c_transform (simpls eig) (Z.of_nat a) s (mk m p z)) = Ok (mk m a (fun i k => eps k * (sqrt (G k) / sqrt (tt k)) * sumn p (fun j => z i j * d k j))) /\
    snd (c_predict (simpls eig) (Z.of_nat a) s (mk m p z)) = Ok (mk m 1 (fun i _ => sumn a (fun k => sumn p (fun j => z i j * d k j) * (G k / tt k)))).
Proof.
  intros Hc. destruct (loop_simpls eig n p a X y Heig Hp Ha Hnb Hn) as (A & M & C & P & eps & Heps & EL).
  eexists. exists eps. split; [exact Heps|]. split.
  - cbn [simpls c_train]. unfold simpls_fit. rewrite EL. cbn [bind]. rewrite (proj2 (Z.ltb_ge 0 (si_coef own)) Hc). cbn [bind]. rewrite transpose_mk, mul_mk. cbn [bind]. reflexivity.
  - intros m z. cbn [simpls c_transform c_predict snd si_W si_B need bind]. rewrite !mul_mk. split; apply (f_equal Ok); apply mk_ext; intros i k Hi Hk.
    + cbn [nmul NumR]. rewrite <- sumR_scal. apply sumn_ext. intros j Hj. unfold W_at. ring.
    + cbn [nmul NumR]. rewrite (sumn_ext p _ (fun j => sumn a (fun k => z i j * d k j * (G k / tt k)))).
      * rewrite sumR_swap. apply sumn_ext. intros l Hl. now rewrite sumR_scal_r.
      * intros j Hj. rewrite <- sumR_scal. apply sumn_ext. intros l Hl. unfold W_at, Q_at.
        pose proof (tau_pos n p a X y Hnb l Hl) as Ht0. pose proof (sqrt_lt_R0 _ Ht0) as Hs0.
        replace (z i j * (eps l * (sqrt (G l) / sqrt (tt l)) * d l j * (eps l * (sqrt (G l) / sqrt (tt l)))))
          with (z i j * d l j * ((eps l * eps l) * (sqrt (G l) * sqrt (G l)) / (sqrt (tt l) * sqrt (tt l)))) by (field; lra).
        rewrite Heps, rt_rt, sqrt_sqrt by (assumption || lra). unfold Rdiv. ring.
Qed.
End SimplsRun.

(** C68.  SIMPLS without sparsity (num_coefficients <= 0), a >= 1 components and no breakdown of the
    textbook recursion on the preprocessed data: the scores of the (preprocessed) training data are
    orthonormal, and the training predictions are the orthogonal projection of the preprocessed
    response onto them, mapped back. *)
Theorem C68_simpls eig (s0 : pls_st (simpls_st R) R) (X Y : mat R) (a : nat) (pp : preproc) :
  let n := nr X in let p := nc X in
  let y := fun i => prepared pp Y i 0 in
  eig_one eig -> p_preprocessing s0 = pp -> p_num_components s0 = Z.of_nat a -> (si_coef (p_own s0) <= 0)%Z ->
  wf X -> wf Y -> n <> 0%nat -> p <> 0%nat -> nr Y = n -> nc Y = 1%nat -> a <> 0%nat -> preparable pp X -> preparable pp Y ->
  no_breakdown n p (prepared pp X) y a ->
  exists s, initialize (simpls eig) s0 (Some X) (Some Y) = (s, Ok None) /\
    forall Z, is_mat Z n p (prepared pp X) ->
      exists S V, snd (transform (simpls eig) s Z) = Ok S /\ snd (predict (simpls eig) s Z) = Ok V /\
        wf S /\ nr S = n /\ nc S = a /\
        (forall k l, (k < a)%nat -> (l < a)%nat -> Rsum n (fun i => entry S i k * entry S i l) = delta k l) /\
        is_mat V n 1 (fun i _ => Rsum a (fun k => entry S i k * Rsum n (fun l => entry S l k * y l)) * own_sd pp Y 0 + back_mean pp Y).
Proof.
  intros n p y Heig Hpp Hnc Hco WX WY Hn Hp RY CY Ha PX PY Hnb.
  destruct (simpls_run eig n p a (prepared pp X) y Heig Hn Hp Ha Hnb (c_reset (simpls eig) (p_own s0)) Hco) as (own & eps & Heps & Et & Hnew).
  destruct (single_training (simpls eig) s0 X Y own pp) as (s & Ei & _ & Etr & Epr); auto; [now rewrite Hnc|]. rewrite Hnc in Etr, Epr.
  exists s. split; [exact Ei|]. intros Z HZ. assert (EZ : Z = mk n p (prepared pp X)).
  { destruct HZ as (W & R1 & C1 & H1). rewrite (wf_mk Z W), R1, C1. now apply mk_ext. }
  subst Z. destruct (Hnew n (prepared pp X)) as [E1 E2]. rewrite Etr, E1. rewrite (Epr _ _ E2) by (try apply mk_wf; reflexivity).
  eexists. eexists. split; [reflexivity|]. split; [reflexivity|]. split; [apply mk_wf|]. split; [reflexivity|]. split; [reflexivity|].
  set (t := fun k => scores_of p (residual n p (prepared pp X) y k) (unit_cov n p (residual n p (prepared pp X) y k) y)).
  set (ta := tau n p (prepared pp X) y).
  assert (HS : forall i k, (i < n)%nat -> (k < a)%nat -> eps k * (sqrt (gsq n p (prepared pp X) y k) / sqrt (ta k)) * sumn p (fun j => prepared pp X i j * dir n p (prepared pp X) y k j) = eps k * t k i / sqrt (ta k)).
  { intros i k Hi Hk. rewrite (X_dir n p a (prepared pp X) y Hnb k i Hk Hi). fold (t k). pose proof (rt_pos n p a _ y Hnb k Hk). pose proof (sqrt_lt_R0 _ (tau_pos n p a _ y Hnb k Hk)) as Hs. fold ta in Hs. field. lra. }
  split.
  - intros k l Hk Hl. rewrite Rsum_sumn. rewrite (sumn_ext n _ (fun i => eps k * eps l / (sqrt (ta k) * sqrt (ta l)) * (t k i * t l i))).
    2:{ intros i Hi. rewrite !entry_mk by assumption. rewrite !HS by assumption. pose proof (sqrt_lt_R0 _ (tau_pos n p a _ y Hnb k Hk)) as H1. pose proof (sqrt_lt_R0 _ (tau_pos n p a _ y Hnb l Hl)) as H2. fold ta in H1, H2. field. lra. }
    rewrite sumR_scal. unfold delta. destruct (Nat.eqb_spec k l) as [<-|Hne].
    + rewrite Heps by assumption. change (sumn n (fun i => t k i * t k i)) with (ta k). pose proof (tau_pos n p a _ y Hnb k Hk) as H1. fold ta in H1. rewrite sqrt_sqrt by lra. field. lra.
    + rewrite (scores_orthogonal n p a (residual n p (prepared pp X) y) (fun k => unit_cov n p (residual n p (prepared pp X) y k) y) t (fun k => loadings_of n (residual n p (prepared pp X) y k) (t k))); auto; [ring| | |].
      * apply (Ht n p a (prepared pp X) y).
      * apply (Hq n p a (prepared pp X) y).
      * apply (Htau n p a (prepared pp X) y Hnb).
  - apply is_mat_mk_ext. intros i z Hi Hz. cbn [nr mk] in Hi. rewrite entry_mk by (assumption || lia). f_equal. f_equal. rewrite Rsum_sumn. apply sumn_ext. intros k Hk.
    rewrite entry_mk by assumption. rewrite HS by assumption.
    rewrite (Rsum_ext n _ (fun l => eps k / sqrt (ta k) * (t k l * y l))) by (intros l Hl; rewrite entry_mk, HS by assumption; unfold Rdiv; ring).
    rewrite Rsum_sumn, sumR_scal. rewrite (t_y n p a (prepared pp X) y Hnb k Hk : sumn n (fun l => t k l * y l) = _).
    rewrite (X_dir n p a (prepared pp X) y Hnb k i Hk Hi). fold (t k). pose proof (rt_pos n p a _ y Hnb k Hk) as H1. pose proof (tau_pos n p a _ y Hnb k Hk) as H2. fold ta in H2 |- *. pose proof (sqrt_lt_R0 _ H2) as H3.
    replace (eps k * t k i / sqrt (ta k) * (eps k / sqrt (ta k) * sqrt (gsq n p (prepared pp X) y k))) with ((eps k * eps k) * t k i * sqrt (gsq n p (prepared pp X) y k) / (sqrt (ta k) * sqrt (ta k))) by (field; lra).
    rewrite Heps, sqrt_sqrt by (assumption || lra). rewrite <- (rt_rt n p (prepared pp X) y k) at 2. field. lra.
Qed.
Print Assumptions C68_simpls.

(** C69.  PLS1 and SIMPLS trained on the same data with the same settings agree: equal predictions for
    every new data matrix; SIMPLS's scores are PLS1's divided by the norm of PLS1's training scores, up
    to the sign of the whole column. *)
Theorem C69_pls1_simpls lstsq eig (s0 : pls_st (pls1_st R) R) (s0' : pls_st (simpls_st R) R) (X Y : mat R) (a : nat) (pp : preproc) :
  let n := nr X in let p := nc X in
  eig_one eig -> p_preprocessing s0 = pp -> p_preprocessing s0' = pp -> p_num_components s0 = Z.of_nat a -> p_num_components s0' = Z.of_nat a -> (si_coef (p_own s0') <= 0)%Z ->
  wf X -> wf Y -> n <> 0%nat -> p <> 0%nat -> nr Y = n -> nc Y = 1%nat -> a <> 0%nat -> preparable pp X -> preparable pp Y ->
  no_breakdown n p (prepared pp X) (fun i => prepared pp Y i 0) a ->
  exists s s' eps, initialize (pls1 lstsq) s0 (Some X) (Some Y) = (s, Ok None) /\ initialize (simpls eig) s0' (Some X) (Some Y) = (s', Ok None) /\
    (forall k, (k < a)%nat -> eps k = 1 \/ eps k = -1) /\
    (forall Z, wf Z -> nc Z = p -> nr Z <> 0%nat ->
      (exists V, snd (predict (pls1 lstsq) s Z) = Ok V /\ snd (predict (simpls eig) s' Z) = Ok V) /\
      exists S S' T, snd (transform (pls1 lstsq) s Z) = Ok S /\ snd (transform (simpls eig) s' Z) = Ok S' /\
        snd (transform (pls1 lstsq) s (mk n p (prepared pp X))) = Ok T /\
        is_mat S' (nr Z) a (fun i k => eps k * entry S i k / sqrt (Rsum n (fun l => entry T l k * entry T l k)))).
Proof.
  intros n p Heig Hpp Hpp' Hnc Hnc' Hco WX WY Hn Hp RY CY Ha PX PY Hnb. set (y := fun i => prepared pp Y i 0) in *.
  destruct (simpls_run eig n p a (prepared pp X) y Heig Hn Hp Ha Hnb (c_reset (simpls eig) (p_own s0')) Hco) as (own' & eps & Heps & Et' & Hnew').
  destruct (pls1_run lstsq n p a (prepared pp X) y Hn Hp Ha Hnb (c_reset (pls1 lstsq) (p_own s0))) as (own & Et & Hnew).
  destruct (single_training (simpls eig) s0' X Y own' pp) as (s' & Ei' & _ & Etr' & Epr'); auto; [now rewrite Hnc'|]. rewrite Hnc' in Etr', Epr'.
  destruct (single_training (pls1 lstsq) s0 X Y own pp) as (s & Ei & _ & Etr & Epr); auto; [now rewrite Hnc|]. rewrite Hnc in Etr, Epr.
  exists s, s', eps. split; [exact Ei|]. split; [exact Ei'|]. split.
  { intros k Hk. specialize (Heps k Hk). assert (Hz : (eps k - 1) * (eps k + 1) = 0) by (ring_simplify; lra). apply Rmult_integral in Hz. lra. }
  intros Z WZ CZ RZ. assert (EZ : Z = mk (nr Z) p (entry Z)) by (rewrite <- CZ; now apply wf_mk).
  destruct (Hnew (nr Z) (entry Z) RZ) as [A1 A2]. destruct (Hnew' (nr Z) (entry Z)) as [B1 B2]. rewrite <- EZ in A1, A2, B1, B2. destruct (Hnew n (prepared pp X) Hn) as [T1 _].
  split.
  - eexists. split.
    + apply Epr; [cbn [pls1 c_predict snd]; exact A2|apply mk_wf|reflexivity].
    + apply Epr'; [exact B2|apply mk_wf|reflexivity].
  - eexists. eexists. eexists. rewrite !Etr, Etr'. cbn [pls1 c_transform snd]. rewrite A1, T1. split; [reflexivity|]. split; [exact B1|]. split; [reflexivity|].
    apply is_mat_mk_ext. intros i k Hi Hk. rewrite entry_mk by assumption.
    rewrite (Rsum_ext n _ (fun l => scores_of p (residual n p (prepared pp X) y k) (unit_cov n p (residual n p (prepared pp X) y k) y) l * scores_of p (residual n p (prepared pp X) y k) (unit_cov n p (residual n p (prepared pp X) y k) y) l)).
    2:{ intros l Hl. rewrite entry_mk by assumption. rewrite (X_dir n p a (prepared pp X) y Hnb k l Hk Hl). pose proof (rt_pos n p a _ y Hnb k Hk). field. lra. }
    rewrite Rsum_sumn. change (sumn n _) with (tau n p (prepared pp X) y k). unfold Rdiv. ring.
Qed.
Print Assumptions C69_pls1_simpls.
(** An eigen-solver for 1 x 1 matrices (numpy answers [[1.]]), and the two-component example of C51. *)
Definition eig_1x1 (A : mat R) : res (list R * mat R) := Ok ([entry A 0 0], Mat 1 1 [[1]]).
Lemma eig_1x1_one : eig_one eig_1x1.
Proof. intros A _ _ _. exists (entry A 0 0), 1. split; [reflexivity|lra]. Qed.
Example C68_ex : let X := Mat 2 2 [[3;0];[0;4]] in let Y := Mat 2 1 [[1];[1]] in
  let s0 := PlsSt 2 PP_NONE false [] [] None None (c_new (simpls eig_1x1)) in
  exists s S V, initialize (simpls eig_1x1) s0 (Some X) (Some Y) = (s, Ok None) /\
    snd (transform (simpls eig_1x1) s X) = Ok S /\ snd (predict (simpls eig_1x1) s X) = Ok V /\
    Rsum 2 (fun i => entry S i 0 * entry S i 1) = 0 /\ Rsum 2 (fun i => entry S i 1 * entry S i 1) = 1.
Proof.
  cbv zeta. destruct C51_ex as (WX & WY & Hnb).
  destruct (C68_simpls eig_1x1 (PlsSt 2 PP_NONE false [] [] None None (c_new (simpls eig_1x1))) (Mat 2 2 [[3;0];[0;4]]) (Mat 2 1 [[1];[1]]) 2 PP_NONE) as (s & Ei & HZ);
    try (exact eig_1x1_one || exact WX || exact WY || exact Hnb || exact I || reflexivity || (cbn; lia)).
  destruct (HZ (Mat 2 2 [[3;0];[0;4]])) as (S & V & ES & EV & _ & _ & _ & Ho & _).
  { split; [exact WX|]. split; [reflexivity|]. split; [reflexivity|]. reflexivity. }
  exists s, S, V. split; [exact Ei|]. split; [exact ES|]. split; [exact EV|]. split; [apply (Ho 0%nat 1%nat); lia|apply (Ho 1%nat 1%nat); lia].
Qed.
Example C69_ex : let X := Mat 2 2 [[3;0];[0;4]] in let Y := Mat 2 1 [[1];[1]] in
  let lstsq := fun _ _ => Err LinAlgError in
  let s0 := PlsSt 2 PP_NONE false [] [] None None (c_new (pls1 lstsq)) in
  let s0' := PlsSt 2 PP_NONE false [] [] None None (c_new (simpls eig_1x1)) in
  exists s s' V, initialize (pls1 lstsq) s0 (Some X) (Some Y) = (s, Ok None) /\ initialize (simpls eig_1x1) s0' (Some X) (Some Y) = (s', Ok None) /\
    snd (predict (pls1 lstsq) s (Mat 1 2 [[7;-2]])) = Ok V /\ snd (predict (simpls eig_1x1) s' (Mat 1 2 [[7;-2]])) = Ok V.
Proof.
  cbv zeta. destruct C51_ex as (WX & WY & Hnb).
  destruct (C69_pls1_simpls (fun _ _ => Err LinAlgError) eig_1x1 (PlsSt 2 PP_NONE false [] [] None None (c_new (pls1 (fun _ _ => Err LinAlgError))))
    (PlsSt 2 PP_NONE false [] [] None None (c_new (simpls eig_1x1))) (Mat 2 2 [[3;0];[0;4]]) (Mat 2 1 [[1];[1]]) 2 PP_NONE) as (s & s' & eps & Ei & Ei' & _ & HZ);
    try (exact eig_1x1_one || exact WX || exact WY || exact Hnb || exact I || reflexivity || (cbn; lia)).
  destruct (HZ (Mat 1 2 [[7;-2]])) as ((V & E1 & E2) & _); [split; [reflexivity|repeat constructor]|reflexivity|cbn; lia|].
  exists s, s', V. split; [exact Ei|]. split; [exact Ei'|]. split; [exact E1|exact E2].
Qed.
