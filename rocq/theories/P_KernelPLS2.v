(** C72: KernelPLS with the linear kernel on one response predicts what PLS1 does.
    C73-C75: findings about KernelPLS. *)
From Coq Require Import List ZArith Lia Bool Arith Reals Lra.
From Verif Require Import Base Num Mat M_Matrix M_Factory M_Helper M_Loop M_Utils M_Linalg M_Transform M_PLSBase M_PLS M_PLS2 M_Kernel
  S_Matrix L_Base L_Mat L_Matrix L_MatR L_Linalg L_Alg L_Transform L_Deflate P_Matrix P_Linalg P_Helper P_PLSPrep P_PLS1 L_Krylov L_Span L_Public P_CCAFilter P_SIMPLS2 P_NIPALS2 P_KernelPLS.
Import ListNotations.
Local Open Scope R_scope.

Definition sg (x : R) : R := x / Rabs x.
Lemma sg_sg x : x <> 0 -> sg x * sg x = 1.
Proof. intros Hx. unfold sg. pose proof (Rabs_pos_lt x Hx). replace (x / Rabs x * (x / Rabs x)) with (x * x / (Rabs x * Rabs x)) by (field; lra). rewrite <- Rabs_mult, (Rabs_right (x * x)) by (pose proof (Rle_0_sqr x); unfold Rsqr in *; lra). field. exact Hx. Qed.
Lemma sg_unit x s : 0 < x -> s * s = 1 -> sg (s * x) = s.
Proof.
  intros Hx Hs. assert (Hz : (s - 1) * (s + 1) = 0) by (ring_simplify; lra). apply Rmult_integral in Hz.
  unfold sg. destruct Hz as [Hz|Hz]; [replace s with 1 by lra|replace s with (-1) by lra].
  - rewrite Rabs_right by lra. field. lra.
  - rewrite Rabs_left by lra. field. lra.
Qed.
Lemma nrm_scal n s (v : nat -> R) i : s <> 0 -> nrm n (fun l => s * v l) i = sg s * nrm n v i.
Proof.
  intros Hs. unfold nrm, sg. rewrite (sumn_ext n (fun k => s * v k * (s * v k)) (fun k => s * s * (v k * v k))) by (intros; ring). rewrite sumR_scal.
  assert (H0 : 0 <= sumn n (fun k => v k * v k)) by (apply sumR_nonneg; intros; apply Rle_0_sqr).
  rewrite sqrt_mult by (exact H0 || apply Rle_0_sqr). change (s * s) with (Rsqr s). rewrite sqrt_Rsqr_abs. unfold Rdiv. rewrite Rinv_mult. ring.
Qed.
Lemma nrm_ext n (v v' : nat -> R) i : (forall l, (l < n)%nat -> v l = v' l) -> (i < n)%nat -> nrm n v i = nrm n v' i.
Proof. intros E Hi. unfold nrm. rewrite (E i Hi). do 2 f_equal. apply sumn_ext. intros l Hl. now rewrite (E l Hl). Qed.

Section Linear.
Variables (n p a : nat) (X : nat -> nat -> R) (y : nat -> R).
Hypotheses (Hn : n <> 0%nat) (Hp : p <> 0%nat) (Ha : a <> 0%nat) (Hnb : no_breakdown n p X y a).
Let E := residual n p X y.
Let w k := unit_cov n p (E k) y.
Let t k := scores_of p (E k) (w k).
Let q k := loadings_of n (E k) (t k).
Let g k j := cov n (E k) y j.
Let G := gsq n p X y.
Let ta := tau n p X y.
Let yl := y_left n p X y.
Let Y2 k := sumn n (fun i => yl k i * yl k i).
Definition KE (k i j : nat) : R := sumn p (fun l => E k i l * E k j l).

Lemma nb_le k : (k <= a)%nat -> no_breakdown n p X y k.
Proof. intros Hk l Hl. apply Hnb. lia. Qed.
Lemma E_yl' k j : (k < a)%nat -> (j < p)%nat -> sumn n (fun i => E k i j * yl k i) = g k j.
Proof. intros Hk Hj. exact (E_yl n p a X y Hn Hp Ha k Hk (nb_le k ltac:(lia)) j Hj). Qed.
Lemma E_g k i : (k < a)%nat -> (i < n)%nat -> sumn p (fun l => E k i l * g k l) = sqrt (G k) * t k i.
Proof.
  intros Hk Hi. rewrite (Ht n p a X y k i Hk Hi : t k i = sumn p (fun j => E k i j * w k j)). rewrite <- sumR_scal. apply sumn_ext. intros l Hl.
  rewrite (w_g n p X y k l : w k l = g k l / sqrt (G k)). pose proof (rt_pos n p a X y Hnb k Hk) as Q. fold G in Q. field. lra.
Qed.
Lemma t_yl' k : (k < a)%nat -> sumn n (fun i => yl k i * t k i) = sqrt (G k).
Proof.
  intros Hk. pose proof (rt_pos n p a X y Hnb k Hk) as Q. fold G in Q. apply (Rmult_eq_reg_l (sqrt (G k))); [|lra].
  rewrite (rt_rt n p X y k : sqrt (G k) * sqrt (G k) = G k). rewrite <- sumR_scal. rewrite (sumn_ext n _ (fun i => sumn p (fun l => E k i l * yl k i * g k l))).
  2:{ intros i Hi. rewrite <- Rmult_assoc, (Rmult_comm (sqrt (G k))), Rmult_assoc, <- E_g by assumption. rewrite <- sumR_scal. apply sumn_ext. intros; ring. }
  rewrite (sumR_swap n p). unfold G, gsq. apply sumn_ext. intros l Hl. rewrite sumR_scal_r. rewrite E_yl' by assumption. reflexivity.
Qed.
Lemma Y2_pos k : (k < a)%nat -> 0 < Y2 k.
Proof.
  intros Hk. destruct (Rle_lt_or_eq_dec 0 (Y2 k)) as [|E0]; [apply sumR_nonneg; intros; apply Rle_0_sqr|assumption|]. exfalso.
  pose proof (rt_pos n p a X y Hnb k Hk) as Q. fold G in Q. rewrite <- t_yl' in Q by exact Hk. rewrite sumR_zero in Q; [lra|]. intros i Hi. rewrite (sum_sq_0 n (yl k) i); [ring|symmetry; exact E0|exact Hi].
Qed.
Lemma KE_mul k (u : nat -> R) i : sumn n (fun j => KE k i j * u j) = sumn p (fun l => E k i l * cov n (E k) u l).
Proof.
  unfold KE. rewrite (sumn_ext n _ (fun j => sumn p (fun l => E k i l * (E k j l * u j)))). 2:{ intros j Hj. rewrite <- sumR_scal_r. apply sumn_ext. intros; ring. }
  rewrite (sumR_swap n p). apply sumn_ext. intros l Hl. unfold cov. now rewrite Rsum_sumn, sumR_scal.
Qed.
(* two passes of the inner loop *)
Definition start_ok (tol : R) (k : nat) (r : nat -> R) : Prop :=
  sumn p (fun j => g k j * cov n (E k) r j) <> 0 /\
  forall s, s = 1 \/ s = -1 -> tol < sqrt (sumn n (fun i => (s * (yl k i / sqrt (Y2 k)) - r i) * (s * (yl k i / sqrt (Y2 k)) - r i))).
Notation vec v := (mk n 1 (fun i _ => v i)).
Lemma two_passes k r tol max_iter t0 w0 q0 : (k < a)%nat -> 0 < tol -> (2 <= max_iter)%Z -> start_ok tol k r ->
  exists e, e * e = 1 /\
    kpls_while (Z.to_nat max_iter) tol max_iter (mk n n (KE k)) (mk n 1 (fun i _ => yl k i)) t0 w0 q0 (vec r) (nmul tol (nofZ 10)) 0 =
    Ok (vec (fun i => e * t k i / sqrt (ta k)), vec (fun i => e * t k i / sqrt (ta k)), mk 1 1 (fun _ _ => e * sqrt (G k) / sqrt (ta k)), vec (fun i => e * yl k i / sqrt (Y2 k))).
Proof.
  intros Hk Htol Hit (Hgen & Hfar). destruct (Z.to_nat max_iter) as [|[|fuel]] eqn:Ef; [lia|lia|].
  pose proof (Y2_pos k Hk) as HY2. pose proof (sqrt_lt_R0 _ HY2) as HsY. pose proof (rt_pos n p a X y Hnb k Hk) as HG. fold G in HG. pose proof (tau_pos n p a X y Hnb k Hk) as Hta. fold ta in Hta. pose proof (sqrt_lt_R0 _ Hta) as Hsta.
  set (v1 := fun i => sumn p (fun l => E k i l * cov n (E k) r l)).
  assert (Hyv : sumn n (fun i => yl k i * v1 i) = sumn p (fun j => g k j * cov n (E k) r j)).
  { unfold v1. rewrite (sumn_ext n _ (fun i => sumn p (fun l => E k i l * yl k i * cov n (E k) r l))). 2:{ intros i Hi. rewrite <- sumR_scal. apply sumn_ext. intros; ring. }
    rewrite (sumR_swap n p). apply sumn_ext. intros l Hl. rewrite sumR_scal_r, E_yl' by assumption. reflexivity. }
  set (N1 := sqrt (sumn n (fun i => v1 i * v1 i))).
  assert (HN1 : 0 < N1).
  { apply sqrt_lt_R0. destruct (Rle_lt_or_eq_dec 0 (sumn n (fun i => v1 i * v1 i))) as [|E0]; [apply sumR_nonneg; intros; apply Rle_0_sqr|assumption|]. exfalso. apply Hgen. rewrite <- Hyv. apply sumR_zero. intros i Hi.
    rewrite (sum_sq_0 n v1 i); [ring|symmetry; exact E0|exact Hi]. }
  set (q1 := sumn p (fun j => g k j * cov n (E k) r j) / N1).
  assert (Hq1 : q1 <> 0). { unfold q1, Rdiv. apply Rmult_integral_contrapositive_currified; [exact Hgen|]. apply Rinv_neq_0_compat. lra. }
  set (e := sg q1). assert (Hee : e * e = 1) by now apply sg_sg. exists e. split; [exact Hee|].
  assert (Hgo : nltb tol (nmul tol (nofZ 10)) = true). { cbn [nltb nmul nofZ NumR]. apply Rltb_true. lra. }
  rewrite while_pass. rewrite Hgo, (proj2 (Z.ltb_lt 0 max_iter)) by lia. cbn [andb]. cbv zeta.
  assert (Et1 : forall i, (i < n)%nat -> nrm n (fun l => sumn n (fun j => KE k l j * r j)) i = v1 i / N1).
  { intros i Hi. rewrite (nrm_ext n _ v1) by (exact Hi || (intros; apply KE_mul)). reflexivity. }
  assert (Eq1 : sumn n (fun i => yl k i * nrm n (fun l => sumn n (fun j => KE k l j * r j)) i) = q1).
  { rewrite (sumn_ext n _ (fun i => yl k i * v1 i * / N1)) by (intros i Hi; rewrite Et1 by exact Hi; unfold Rdiv; ring). rewrite sumR_scal_r, Hyv. reflexivity. }
  rewrite Eq1.
  assert (Eu : forall z i, (i < n)%nat -> z <> 0 -> nrm n (fun i => sumn 1 (fun _ => yl k i * z)) i = sg z * (yl k i / sqrt (Y2 k))).
  { intros z i Hi Hz. rewrite (nrm_ext n _ (fun i => z * yl k i)) by (exact Hi || (intros; rewrite sum1; ring)). rewrite nrm_scal by exact Hz. reflexivity. }
  set (u1 := nrm n (fun i => sumn 1 (fun _ => yl k i * q1))).
  assert (Hu1 : forall i, (i < n)%nat -> u1 i = e * (yl k i / sqrt (Y2 k))) by (intros i Hi; unfold u1; rewrite Eu by assumption; reflexivity).
  rewrite while_pass.
  assert (Hfar1 : nltb tol (sqrt (sumn n (fun i => (u1 i - r i) * (u1 i - r i)))) = true).
  { cbn [nltb NumR]. apply Rltb_true. rewrite (sumn_ext n _ (fun i => (e * (yl k i / sqrt (Y2 k)) - r i) * (e * (yl k i / sqrt (Y2 k)) - r i))) by (intros i Hi; now rewrite Hu1 by exact Hi).
    apply Hfar. assert (Hz : (e - 1) * (e + 1) = 0) by (ring_simplify; lra). apply Rmult_integral in Hz. lra. }
  rewrite Hfar1, (proj2 (Z.ltb_lt (0 + 1) max_iter)) by lia. cbn [andb]. cbv zeta.
  assert (Et2 : forall i, (i < n)%nat -> nrm n (fun l => sumn n (fun j => KE k l j * u1 j)) i = e * t k i / sqrt (ta k)).
  { intros i Hi. rewrite (nrm_ext n _ (fun i => e * (sqrt (G k) / sqrt (Y2 k)) * t k i)).
    - rewrite nrm_scal. 2:{ intros H0. assert (0 < sqrt (G k) / sqrt (Y2 k)) by now apply Rdiv_lt_0_compat. apply Rmult_integral in H0 as [H0|H0]; [rewrite H0 in Hee; lra|lra]. }
      rewrite sg_unit by (try exact Hee; now apply Rdiv_lt_0_compat). unfold nrm. change (sumn n (fun k0 => t k k0 * t k k0)) with (ta k). unfold Rdiv. ring.
    - intros l Hl. rewrite KE_mul. rewrite (sumn_ext p _ (fun m => e / sqrt (Y2 k) * (E k l m * g k m))).
      + rewrite sumR_scal, E_g by assumption. unfold Rdiv. ring.
      + intros m Hm. unfold cov at 1. rewrite Rsum_sumn. rewrite (sumn_ext n _ (fun i0 => e / sqrt (Y2 k) * (E k i0 m * yl k i0))) by (intros i0 Hi0; rewrite Hu1 by exact Hi0; unfold Rdiv; ring).
        rewrite sumR_scal, E_yl' by assumption. ring.
    - exact Hi. }
  set (t2 := nrm n (fun l => sumn n (fun j => KE k l j * u1 j))) in *.
  assert (Eq2 : sumn n (fun i => yl k i * t2 i) = e * sqrt (G k) / sqrt (ta k)).
  { rewrite (sumn_ext n _ (fun i => e / sqrt (ta k) * (yl k i * t k i))) by (intros i Hi; rewrite Et2 by exact Hi; unfold Rdiv; ring). rewrite sumR_scal, t_yl' by exact Hk. unfold Rdiv. ring. }
  rewrite Eq2. set (u2 := nrm n _).
  assert (Hu2 : forall i, (i < n)%nat -> u2 i = e * (yl k i / sqrt (Y2 k))).
  { intros i Hi. unfold u2. replace (e * sqrt (G k) / sqrt (ta k)) with (e * (sqrt (G k) / sqrt (ta k))) by (unfold Rdiv; ring). assert (0 < sqrt (G k) / sqrt (ta k)) by now apply Rdiv_lt_0_compat. rewrite Eu; [|exact Hi|].
    - now rewrite sg_unit.
    - intros H0. apply Rmult_integral in H0 as [H0|H0]; [rewrite H0 in Hee; lra|lra]. }
  assert (Estop : nltb tol (sqrt (sumn n (fun i => (u2 i - u1 i) * (u2 i - u1 i)))) = false).
  { cbn [nltb NumR]. rewrite sumR_zero; [rewrite sqrt_0; apply Rltb_false; lra|]. intros i Hi. rewrite Hu1, Hu2 by exact Hi. ring. }
  assert (Efin : forall f tm wm qm um it, kpls_while f tol max_iter (mk n n (KE k)) (mk n 1 (fun i _ => yl k i)) tm wm qm um (sqrt (sumn n (fun i => (u2 i - u1 i) * (u2 i - u1 i)))) it = Ok (tm, wm, qm, um)).
  { intros f tm wm qm um it. destruct f; cbn [kpls_while]; rewrite Estop; reflexivity. }
  rewrite Efin. apply f_equal. assert (ET : vec t2 = vec (fun i => e * t k i / sqrt (ta k))) by (apply mk_ext; intros; now apply Et2).
  rewrite ET. apply f_equal2; [reflexivity|]. apply mk_ext. intros i j Hi Hj. rewrite Hu2 by exact Hi. unfold Rdiv. ring.
Qed.

Lemma sandwich_gram (A B F : nat -> nat -> R) i j :
  sandwich n A (fun x z => sumn p (fun l => F x l * F z l)) B i j = sumn p (fun l => sumn n (fun x => A i x * F x l) * sumn n (fun z => F z l * B z j)).
Proof.
  unfold sandwich. rewrite (sumn_ext n _ (fun z => sumn p (fun l => sumn n (fun x => A i x * F x l) * (F z l * B z j)))).
  2:{ intros z Hz. rewrite (sumn_ext n _ (fun x => sumn p (fun l => A i x * F x l * F z l))). 2:{ intros x Hx. rewrite <- sumR_scal. apply sumn_ext. intros; ring. }
      rewrite (sumR_swap n p), <- sumR_scal_r. apply sumn_ext. intros l Hl. rewrite sumR_scal_r. ring. }
  rewrite (sumR_swap n p). apply sumn_ext. intros l Hl. now rewrite sumR_scal.
Qed.
Lemma KE_step k e i j : (k < a)%nat -> e * e = 1 -> (i < n)%nat -> (j < n)%nat ->
  sandwich n (proj (fun i => e * t k i / sqrt (ta k))) (KE k) (proj (fun i => e * t k i / sqrt (ta k))) i j = KE (S k) i j.
Proof.
  intros Hk He Hi Hj. pose proof (tau_pos n p a X y Hnb k Hk) as Hta. fold ta in Hta. pose proof (sqrt_lt_R0 _ Hta) as Hsta. unfold KE at 1. rewrite sandwich_gram. unfold KE. apply sumn_ext. intros l Hl.
  assert (Hs : sumn n (fun x => e * t k x / sqrt (ta k) * E k x l) = e * sqrt (ta k) * q k l).
  { rewrite (sumn_ext n _ (fun x => e / sqrt (ta k) * (E k x l * t k x))) by (intros; unfold Rdiv; ring). rewrite sumR_scal. rewrite (Hq n p a X y k l Hk Hl : q k l = sumn n (fun x => E k x l * t k x) / ta k).
    rewrite <- (sqrt_sqrt (ta k)) at 3 by lra. field. lra. }
  assert (HEl : forall x, (x < n)%nat -> E k x l - e * t k x / sqrt (ta k) * (e * sqrt (ta k) * q k l) = E (S k) x l).
  { intros x Hx. rewrite (HE n p a X y k x l Hk Hx Hl : E (S k) x l = E k x l - t k x * q k l). replace (e * t k x / sqrt (ta k) * (e * sqrt (ta k) * q k l)) with (e * e * (t k x * q k l)) by (field; lra). rewrite He. ring. }
  unfold proj. rewrite one_less_r, one_less_l by assumption. rewrite (sumn_ext n (fun x => E k x l * (e * t k x / sqrt (ta k))) (fun x => e * t k x / sqrt (ta k) * E k x l)) by (intros; ring).
  rewrite Hs, HEl by assumption. rewrite (Rmult_comm (e * sqrt (ta k) * q k l)), HEl by assumption. reflexivity.
Qed.
Lemma yl_step k e i : (k < a)%nat -> e * e = 1 -> yl k i - e * t k i / sqrt (ta k) * (e * sqrt (G k) / sqrt (ta k)) = yl (S k) i.
Proof.
  intros Hk He. pose proof (tau_pos n p a X y Hnb k Hk) as Hta. fold ta in Hta. pose proof (sqrt_lt_R0 _ Hta) as Hsta.
  unfold yl. rewrite !yl_sum, sumR_S. cbv beta. change (scores_of p (residual n p X y k) (unit_cov n p (residual n p X y k) y)) with (t k).
  rewrite (t_y n p a X y Hnb k Hk : sumn n (fun m => t k m * y m) = sqrt (G k)). change (sumn n (fun m => t k m * t k m)) with (ta k).
  replace (e * t k i / sqrt (ta k) * (e * sqrt (G k) / sqrt (ta k))) with (e * e * (t k i * sqrt (G k) / (sqrt (ta k) * sqrt (ta k)))) by (field; lra). rewrite He, sqrt_sqrt by lra. unfold Rdiv. ring.
Qed.

Variable (lstsq : mat R -> mat R -> res (mat R)) (rnd : Z -> nat -> mat R) (r : nat -> nat -> R) (tol : R) (max_iter : Z).
Hypothesis Hr : forall k, rnd (zn k) n = mk n 1 (fun i _ => r k i).
Hypotheses (Htol : 0 < tol) (Hit : (2 <= max_iter)%Z) (Hst : forall k, (k < a)%nat -> start_ok tol k (r k)).
Definition upto (k : nat) (f : nat -> nat -> R) (i l : nat) : R := if (l <? k)%nat then f i l else 0.
Definition reached (k : nat) (st : @kpls_state R) : Prop := exists e t0 w0 q0 P,
  (forall l, (l < k)%nat -> e l * e l = 1) /\
  st = ((mk n n (KE k), mk n 1 (fun i _ => yl k i)), (vec t0, vec w0, mk 1 1 (fun _ _ => q0)),
        (mk n a (upto k (fun i l => e l * t l i / sqrt (ta l))), mk n a (upto k (fun i l => e l * yl l i / sqrt (Y2 l))), mk n a P, mk 1 a (upto k (fun _ l => e l * sqrt (G l) / sqrt (ta l))))).
Lemma lin_step k st : (k < a)%nat -> reached k st -> exists st', kpls_step rnd tol max_iter n (mk n n dlt) st k = Ok st' /\ reached (S k) st'.
Proof.
  intros Hk (e & t0 & w0 & q0 & P & He & ->).
  destruct (two_passes k (r k) tol max_iter (vec t0) (vec w0) (mk 1 1 (fun _ _ => q0)) Hk Htol Hit (Hst k Hk)) as (ek & Hek & Ew).
  eexists. split.
  - unfold kpls_step. rewrite Hr, Ew, bind_Ok, transpose_mk, mul_mk, bind_Ok, sub_mk, bind_Ok, mul_mk, bind_Ok, mul_mk, bind_Ok, transpose_mk, mul_mk, bind_Ok, sub_mk, bind_Ok, transpose_mk, mul_mk, bind_Ok.
    rewrite mul_mk, bind_Ok, as_real_mk, bind_Ok, div_scalar_mk. unfold zn. do 4 (rewrite set_column_mk by exact Hk; rewrite bind_Ok). reflexivity.
  - exists (fun l => if (l =? k)%nat then ek else e l). eexists. eexists. eexists. eexists. split.
    { intros l Hl. destruct (Nat.eqb_spec l k); [exact Hek|apply He; lia]. }
    apply f_equal2; [apply f_equal2|]; [apply f_equal2| |].
    + apply mk_ext. intros i j Hi Hj. rewrite <- (KE_step k ek i j Hk Hek Hi Hj). unfold sandwich. apply sumn_ext. intros b Hb. cbn [nmul nsub NumR]. rewrite sum1. unfold proj, one_less. f_equal. apply sumn_ext. intros x Hx. now rewrite sum1.
    + apply mk_ext. intros i j Hi Hj. cbn [nmul nsub NumR]. rewrite sum1. now rewrite yl_step.
    + reflexivity.
    + apply f_equal2; [apply f_equal2; [apply f_equal2|]|].
      * apply mk_ext. intros i j Hi Hj. unfold upto. destruct (Nat.eqb_spec j k) as [->|Hne]; destruct (Nat.ltb_spec k (S k)); try lia; [reflexivity|].
        destruct (Nat.ltb_spec j k), (Nat.ltb_spec j (S k)); try lia; reflexivity.
      * apply mk_ext. intros i j Hi Hj. unfold upto. destruct (Nat.eqb_spec j k) as [->|Hne]; destruct (Nat.ltb_spec k (S k)); try lia; [reflexivity|].
        destruct (Nat.ltb_spec j k), (Nat.ltb_spec j (S k)); try lia; reflexivity.
      * reflexivity.
      * apply mk_ext. intros i j Hi Hj. unfold upto. destruct (Nat.eqb_spec j k) as [->|Hne]; destruct (Nat.ltb_spec k (S k)); try lia; [reflexivity|].
        destruct (Nat.ltb_spec j k), (Nat.ltb_spec j (S k)); try lia; reflexivity.
Qed.

Lemma X_yl l j : (l < a)%nat -> (j < p)%nat -> sumn n (fun i => X i j * yl l i) = g l j.
Proof.
  intros Hl Hj. rewrite <- E_yl' by assumption.
  assert (Hty : forall m, (m < l)%nat -> sumn n (fun i => t m i * yl l i) = 0).
  { intros m Hm. set (c := fun k => sumn n (fun i => t k i * y i) / ta k). rewrite (sumn_ext n _ (fun i => t m i * y i - sumn l (fun k => c k * (t m i * t k i)))).
    2:{ intros i Hi. unfold yl. rewrite yl_sum. cbv beta. rewrite Rmult_minus_distr_l. f_equal. rewrite <- sumR_scal. apply sumn_ext. intros k Hk. unfold c. unfold t, w, E, ta, tau. ring. }
    rewrite sumR_minus, (sumR_swap n l). rewrite (sumR_single l m (fun k => sumn n (fun i => c k * (t m i * t k i)))).
    - rewrite sumR_scal. change (sumn n (fun i => t m i * t m i)) with (ta m). unfold c. pose proof (tau_pos n p a X y Hnb m ltac:(lia)) as Q. fold ta in Q. field. lra.
    - exact Hm.
    - intros k Hk Hne. rewrite sumR_scal. rewrite (scores_orthogonal n p a E w t q (Ht n p a X y) (Hq n p a X y) (HE n p a X y) (Htau n p a X y Hnb) m k) by lia. ring. }
  rewrite (sumn_ext n _ (fun i => E l i j * yl l i + sumn l (fun m => q m j * (t m i * yl l i)))).
  2:{ intros i Hi. change (X i j) with (E 0%nat i j). rewrite (E_decompose n p a E t q (HE n p a X y) l i j) by (assumption || lia). rewrite Rmult_plus_distr_r, Rplus_comm, <- sumR_scal_r. f_equal. apply sumn_ext. intros; ring. }
  rewrite sumR_plus, (sumR_swap n l), (sumR_zero l); [ring|]. intros m Hm. rewrite sumR_scal, Hty by exact Hm. ring.
Qed.
Hypothesis HX0 : forall j, (j < p)%nat -> sumn n (fun i => X i j) = 0.
Definition XX (i j : nat) : R := sumn p (fun l => X i l * X j l).
Lemma kcentred_XX i j : (i < n)%nat -> (j < n)%nat -> kcentred n XX i j = XX i j.
Proof.
  intros Hi Hj. unfold kcentred, XX. rewrite sandwich_gram. apply sumn_ext. intros l Hl. unfold cen. rewrite one_less_r, one_less_l by assumption.
  rewrite (sumn_ext n (fun z => X z l * 1) (fun z => X z l)) by (intros; ring). rewrite (sumR_scal n (/ INR n) (fun z => X z l)), HX0 by exact Hl. ring.
Qed.
Definition lin {KS : Type} (ks : KS) (X : mat R) (Y : option (mat R)) : KS * res (mat R) := (ks, linear_apply_matrix X Y).
Lemma lin_fit {KS} (ks : KS) : exists K0 Kd Tm U P Q B,
  kpls_fit lstsq rnd lin (zn a) ks tol max_iter (mk n p X) (mk n 1 (fun i _ => y i)) =
    (ks, Ok (KplsModel (mk n n K0) Kd Tm (mk n a U) P Q (mk a 1 B) (mk n p X))) /\ sums_zero n K0 /\
  forall j, (j < p)%nat -> sumn a (fun l => sumn n (fun b => X b j * U b l) * B l 0%nat) = beta n p X y a j.
Proof.
  assert (HK0 : mk n n (kcentred n (entry (mk n n XX))) = mk n n (KE 0)).
  { apply mk_ext. intros i j Hi Hj. transitivity (kcentred n XX i j); [|rewrite kcentred_XX by assumption; reflexivity]. unfold kcentred, sandwich. apply sumn_ext. intros b Hb. f_equal. apply sumn_ext. intros x Hx. now rewrite entry_mk. }
  assert (Hinit : reached 0 ((mk n n (KE 0), mk n 1 (fun i _ => y i)), (mk n 1 (fun _ _ => 0), mk n 1 (fun _ _ => 0), mk 1 1 (fun _ _ => 0)), (mk n a (fun _ _ => 0), mk n a (fun _ _ => 0), mk n a (fun _ _ => 0), mk 1 a (fun _ _ => 0)))).
  { exists (fun _ => 1), (fun _ => 0), (fun _ => 0), 0, (fun _ _ => 0). split; [intros; lia|]. apply f_equal2; [apply f_equal2|]; [apply f_equal2| |]; try reflexivity.
    apply mk_ext. intros i j Hi Hj. unfold yl. rewrite yl_sum, sumR_0. ring. }
  destruct (for_range_inv reached (kpls_step rnd tol max_iter n (mk n n dlt)) a _ Hinit) as (st & Est & (e & t0 & w0 & q0 & P & He & ->)); [intros k st Hk Hs; now apply lin_step|].
  set (Tm := upto a (fun i l => e l * t l i / sqrt (ta l))) in *. set (U := upto a (fun i l => e l * yl l i / sqrt (Y2 l))) in *. set (Q := upto a (fun _ l => e l * sqrt (G l) / sqrt (ta l))) in *.
  set (M := fun k l => sumn n (fun j => sumn n (fun i => Tm i k * KE 0 i j) * U j l)).
  set (cf := fun l => e l / sqrt (Y2 l)).
  assert (HXU : forall l j, (l < a)%nat -> (j < p)%nat -> sumn n (fun b => X b j * U b l) = cf l * g l j).
  { intros l j Hl Hj. rewrite <- X_yl by assumption. rewrite <- sumR_scal. apply sumn_ext. intros b Hb. unfold U, upto, cf. rewrite (proj2 (Nat.ltb_lt l a) Hl). unfold Rdiv. ring. }
  assert (Hqg : forall k (v : nat -> R), (k < a)%nat -> sumn a (fun l => M k l * v l) = e k * sqrt (ta k) * sumn p (fun j => q k j * sumn a (fun l => v l * cf l * g l j))).
  { intros k v Hk. rewrite (sumn_ext a _ (fun l => e k * sqrt (ta k) * sumn p (fun j => q k j * (v l * cf l * g l j)))).
    - rewrite sumR_scal. f_equal. rewrite (sumR_swap a p). apply sumn_ext. intros j Hj. now rewrite sumR_scal.
    - intros l Hl. assert (EM : M k l = sumn p (fun j => e k * sqrt (ta k) * q k j * (cf l * g l j))).
      + unfold M, KE. rewrite (sumn_ext n _ (fun j => sumn p (fun m => sumn n (fun i => Tm i k * E 0 i m) * (X j m * U j l)))).
        * rewrite (sumR_swap n p). apply sumn_ext. intros m Hm. rewrite sumR_scal, HXU by assumption. f_equal.
          rewrite (sumn_ext n _ (fun i => e k / sqrt (ta k) * (X i m * t k i))). 2:{ intros i Hi. unfold Tm, upto. rewrite (proj2 (Nat.ltb_lt k a) Hk). change (E 0 i m) with (X i m). unfold Rdiv. ring. }
          rewrite sumR_scal. rewrite (X_t n p a X y Hnb k m Hk Hm : sumn n (fun i => X i m * t k i) = ta k * q k m). pose proof (tau_pos n p a X y Hnb k Hk) as Q1. fold ta in Q1. pose proof (sqrt_lt_R0 _ Q1).
          rewrite <- (sqrt_sqrt (ta k)) at 2 by lra. field. lra.
        * intros j Hj. rewrite (sumn_ext n _ (fun i => sumn p (fun m => Tm i k * E 0 i m * E 0 j m))). 2:{ intros i Hi. rewrite <- sumR_scal. apply sumn_ext. intros; ring. }
          rewrite (sumR_swap n p), <- sumR_scal_r. apply sumn_ext. intros m Hm. rewrite sumR_scal_r. change (X j m) with (E 0 j m). ring.
      + rewrite EM, <- sumR_scal_r, <- sumR_scal. apply sumn_ext. intros; ring. }
  assert (Hcf : forall l, (l < a)%nat -> cf l <> 0).
  { intros l Hl. unfold cf. pose proof (sqrt_lt_R0 _ (Y2_pos l Hl)). intros H0. assert (e l = 0) by (apply (Rmult_eq_reg_r (/ sqrt (Y2 l))); [unfold Rdiv in H0; rewrite H0; ring|apply Rinv_neq_0_compat; lra]). specialize (He l Hl). rewrite H1 in He. lra. }
  assert (Hek : forall k, (k < a)%nat -> e k * sqrt (ta k) <> 0).
  { intros k Hk H0. pose proof (sqrt_lt_R0 _ (tau_pos n p a X y Hnb k Hk)) as Q1. fold ta in Q1. specialize (He k Hk). apply Rmult_integral in H0 as [H0|H0]; [rewrite H0 in He; lra|lra]. }
  destruct (C61_inverse lstsq (mk a a M) (mk_wf _ _ _) eq_refl) as (_ & Hi). destruct Hi as (inv & Einv & Winv & R1 & C1 & HM).
  { intros Hs. apply singular_kernel in Hs; [|reflexivity]. apply Hs. intros v Hv k Hk. change (nc (mk a a M)) with a in *. change (nr (mk a a M)) with a in *.
    assert (Hz : forall j, (j < p)%nat -> sumn a (fun l => v l * cf l * g l j) = 0).
    { apply (span_zero n p a X y Hnb (fun l => v l * cf l)); [reflexivity|]. intros i Hi. specialize (Hv i Hi). rewrite (sumn_ext a _ (fun l => M i l * v l)) in Hv by (intros l Hl; now rewrite entry_mk). rewrite Hqg in Hv by exact Hi.
      apply Rmult_integral in Hv as [Hv|Hv]; [now elim (Hek i Hi)|exact Hv]. }
    assert (Hgk : sumn p (fun j => g k j * sumn a (fun l => v l * cf l * g l j)) = v k * cf k * G k).
    { rewrite (sumn_ext p _ (fun j => sumn a (fun l => v l * cf l * (g k j * g l j)))). 2:{ intros j Hj. rewrite <- sumR_scal. apply sumn_ext. intros; ring. }
      rewrite (sumR_swap p a). rewrite (sumR_single a k (fun l => sumn p (fun j => v l * cf l * (g k j * g l j)))).
      - now rewrite sumR_scal.
      - exact Hk.
      - intros l Hl Hne. rewrite sumR_scal. rewrite (g_perp n p a X y Hnb k l Hk ltac:(lia) ltac:(congruence) : sumn p (fun j => g k j * g l j) = 0). ring. }
    rewrite sumR_zero in Hgk by (intros j Hj; rewrite Hz by exact Hj; ring). pose proof (gsq_pos n p a X y Hnb k Hk) as Q1. fold G in Q1. symmetry in Hgk. apply Rmult_integral in Hgk as [Hgk|Hgk]; [|lra].
    apply Rmult_integral in Hgk as [Hgk|Hgk]; [exact Hgk|now elim (Hcf k Hk)]. }
  change (nr (mk a a M)) with a in *. change (nc (mk a a M)) with a in *.
  assert (Einv2 : inv = mk a a (entry inv)) by (rewrite (wf_mk inv Winv) at 1; now rewrite R1, C1).
  set (B := fun l (_ : nat) => sumn a (fun k => entry inv l k * Q 0%nat k)).
  exists (kcentred n (entry (mk n n XX))). eexists. eexists. exists U. eexists. eexists. exists B. split; [|split].
  - unfold kpls_fit. change (nr (mk n p X)) with n. change (nc (mk n 1 (fun i _ => y i))) with 1%nat. rewrite eye_nn. assert (EK : linear_apply_matrix (mk n p X) None = Ok (mk n n XX)) by (unfold linear_apply_matrix; rewrite transpose_mk, mul_mk; reflexivity).
    unfold lin. rewrite EK, bind_Ok. rewrite centralize_train_run by reflexivity. rewrite bind_Ok.
    f_equal. rewrite HK0. unfold zn at 1. rewrite Nat2Z.id. change 1%Z with (Z.of_nat 1). unfold zn. rewrite !zeros_mk by (assumption || lia). cbn [n0 NumR]. rewrite Est, bind_Ok. rewrite !transpose_mk, mul_mk, bind_Ok, mul_mk, bind_Ok.
    change (mk a a _) with (mk a a M). unfold minverse. rewrite Einv, bind_Ok, Einv2, mul_mk, bind_Ok. apply f_equal. f_equal.
  - intros j Hj. now apply kcentred_sums.
  - intros j Hj. rewrite (sumn_ext a _ (fun l => B l 0%nat * cf l * g l j)) by (intros l Hl; rewrite HXU by assumption; ring).
    revert j Hj. apply (beta_unique n p a X y Hnb (fun l => B l 0%nat * cf l)); [reflexivity|]. intros k Hk. fold (q k). apply (Rmult_eq_reg_l (e k * sqrt (ta k))); [|now apply Hek]. 
    etransitivity; [symmetry; exact (Hqg k (fun l => B l 0%nat) Hk)|]. unfold B. rewrite (sumn_ext a _ (fun l => sumn a (fun m => M k l * entry inv l m * Q 0%nat m))). 2:{ intros l Hl. rewrite <- sumR_scal. apply sumn_ext. intros; ring. }
    rewrite (sumR_swap a a). rewrite (sumn_ext a _ (fun m => dlt k m * Q 0%nat m)).
    2:{ intros m Hm. rewrite sumR_scal_r. f_equal. destruct (HM k m Hk Hm) as (HM1 & _). rewrite Rsum_sumn in HM1. unfold dlt. rewrite <- HM1. apply sumn_ext. intros l Hl. now rewrite entry_mk. }
    rewrite dlt_l by exact Hk. unfold Q, upto. rewrite (proj2 (Nat.ltb_lt k a) Hk). pose proof (tau_pos n p a X y Hnb k Hk) as Q1. fold ta in Q1. pose proof (sqrt_lt_R0 _ Q1). fold G ta. rewrite <- (sqrt_sqrt (ta k)) at 3 by lra. field. lra.
Qed.
End Linear.

(** * C72 *)
(** KernelPLS centres the data itself and PLS1's predict does not, hence the centred data on its side.
    The start vectors must not be orthogonal to the solution (as for every power iteration) nor be the
    solution itself up to [tol]; then the inner loop needs exactly two passes. *)
Theorem C72_linear_kernel {KS : Type} (kernel0 : KS) lstsq lstsq' rnd (s0 : pls_st (@kpls_st R KS) R) (s1 : pls_st (pls1_st R) R) (X Y : mat R) (a : nat) :
  let n := nr X in let p := nc X in let x := prepared PP_CENTER X in let y := fun i => prepared PP_CENTER Y i 0 in
  let kp := kernel_pls lstsq rnd kernel0 lin in
  column_source rnd -> p_preprocessing s0 = PP_NONE -> p_preprocessing s1 = PP_CENTER -> p_num_components s0 = Z.of_nat a -> p_num_components s1 = Z.of_nat a ->
  0 < kp_tol (p_own s0) -> (2 <= kp_max_iter (p_own s0))%Z ->
  wf X -> wf Y -> (2 <= n)%nat -> p <> 0%nat -> nr Y = n -> nc Y = 1%nat -> a <> 0%nat -> no_breakdown n p x y a ->
  (forall k, (k < a)%nat -> start_ok n p x y (kp_tol (p_own s0)) k (fun i => entry (rnd (Z.of_nat k) n) i 0)) ->
  exists s s', initialize kp s0 (Some X) (Some Y) = (s, Ok None) /\ initialize (pls1 lstsq') s1 (Some X) (Some Y) = (s', Ok None) /\
    forall Z, wf Z -> nc Z = p -> nr Z <> 0%nat -> exists V, snd (predict kp s Z) = Ok V /\
      snd (predict (pls1 lstsq') s' (mk (nr Z) p (fun i j => entry Z i j - Rmean n (fun k => entry X k j)))) = Ok V.
Proof.
  intros n p x y kp Hrnd Hpp Hpp1 Hnc Hnc1 Htol Hit WX WY Hn2 Hp RY CY Ha Hnb Hstart. assert (Hn : n <> 0%nat) by lia.
  assert (HX0 : forall j, (j < p)%nat -> sumn n (fun i => x i j) = 0).
  { intros j Hj. unfold x. cbn [prepared]. rewrite sumR_minus, sumR_const. fold n. unfold Rmean. rewrite Rsum_sumn. field. apply not_0_INR. exact Hn. }
  destruct (fun A B C D F => lin_fit n p a x y Hn Hp Ha Hnb lstsq rnd (fun k i => entry (rnd (Z.of_nat k) n) i 0) (kp_tol (p_own s0)) (kp_max_iter (p_own s0)) A B C D F (kp_kernel (p_own s0))) as (K0 & Kd & Tm & U & P & Q & B & Efit & HK0 & HB); auto.
  { intros k. destruct (Hrnd (zn k) n) as (f & Ef). unfold zn in *. rewrite Ef. apply mk_ext. intros i j Hi Hj. assert (j = 0%nat) by lia. subst j. now rewrite entry_mk by (exact Hi || lia). }
  set (own := Kpls (kp_kernel (p_own s0)) (kp_tol (p_own s0)) (kp_max_iter (p_own s0)) (center_conf X) (center_conf Y) (Some (KplsModel (mk n n K0) Kd Tm (mk n a U) P Q (mk a 1 B) (mk n p x)))).
  assert (Etr : c_train kp (p_num_components s0) (c_reset kp (p_own s0)) X Y = (own, Ok None)).
  { unfold kp. rewrite kpls_train_eq, Hnc. fold n p. change (mk n p (centred X)) with (mk n p x).
    assert (EY : mk (nr Y) (nc Y) (centred Y) = mk n 1 (fun i _ => y i)). { rewrite RY, CY. apply mk_ext. intros i j Hi Hj. assert (j = 0%nat) by lia. now subst. }
    rewrite EY. change (Z.of_nat a) with (zn a). rewrite Efit. reflexivity. }
  destruct (multi_training_none kp s0 X Y own 1 eq_refl ltac:(lia) Hpp ltac:(lia) Etr) as (s & Ei & Eown & _ & _ & Hpred).
  destruct (pls1_run lstsq' n p a x y Hn Hp Ha Hnb (c_reset (pls1 lstsq') (p_own s1))) as (own' & Etr' & Hnew).
  destruct (single_training (pls1 lstsq') s1 X Y own' PP_CENTER) as (s' & Ei' & _ & _ & Epr'); auto; [cbn [preparable]; lia|now rewrite Hnc1|]. rewrite Hnc1 in Epr'.
  exists s, s'. split; [exact Ei|]. split; [exact Ei'|]. intros Z WZ CZ RZ.
  set (z := fun i j => entry Z i j - Rmean n (fun k => entry X k j)).
  set (Kt := mk (nr Z) n (fun i b => sumn p (fun l => z i l * x b l))).
  assert (Ek : lin (kp_kernel (p_own s0)) (mk (nr Z) p z) (Some (mk n p x)) = (kp_kernel (p_own s0), Ok Kt)).
  { unfold lin, linear_apply_matrix. rewrite transpose_mk, mul_mk. reflexivity. }
  destruct (kpls_predict_run lin X Y Z n p 1 a (kp_kernel (p_own s0)) (kp_kernel (p_own s0)) (kp_tol (p_own s0)) (kp_max_iter (p_own s0)) K0 x U B Kd Tm P Q Kt Hn HK0 eq_refl CY CZ Ek eq_refl eq_refl) as (_ & Ep).
  eexists. split.
  - rewrite Hpred. unfold kp. cbn [kernel_pls c_predict]. exact Ep.
  - destruct (Hnew (nr Z) z RZ) as [_ T2]. change (mk (nr Z) p _) with (mk (nr Z) p z). rewrite (Epr' _ _ T2 (mk_wf _ _ _) eq_refl). apply (f_equal Ok). apply mk_ext. intros i j Hi Hj. assert (j = 0%nat) by lia. subst j.
    rewrite entry_mk by (assumption || lia). cbn [own_sd back_mean]. unfold own_mean. rewrite Rmult_1_r. f_equal. unfold score_predictions.
    assert (HKt : forall l, sumn n (fun b => sumn n (fun m => entry Kt i m * cen n m b) * U b l) = sumn p (fun m => z i m * sumn n (fun b => x b m * U b l))).
    { intros l. rewrite (sumn_ext n _ (fun b => sumn p (fun m => z i m * (x b m * U b l)))).
      - rewrite (sumR_swap n p). apply sumn_ext. intros m Hm. now rewrite sumR_scal.
      - intros b Hb. rewrite (cen_keep n (fun m => entry Kt i m) b Hb).
        + unfold Kt. rewrite entry_mk by assumption. rewrite <- sumR_scal_r. apply sumn_ext. intros; ring.
        + unfold Kt. rewrite (sumn_ext n _ (fun m => sumn p (fun l => z i l * x m l))) by (intros m Hm; now rewrite entry_mk). rewrite (sumR_swap n p). apply sumR_zero. intros m Hm. rewrite sumR_scal, HX0 by exact Hm. ring. }
    rewrite (sumn_ext a (fun l => sumn n _ * B l 0%nat) (fun l => sumn p (fun m => z i m * (sumn n (fun b => x b m * U b l) * B l 0%nat)))).
    2:{ intros l Hl. rewrite HKt, <- sumR_scal_r. apply sumn_ext. intros; ring. }
    rewrite (sumR_swap a p). rewrite (sumn_ext p _ (fun m => z i m * beta n p x y a m)). 2:{ intros m Hm. rewrite sumR_scal, HB by exact Hm. reflexivity. }
    unfold beta. rewrite (sumn_ext p _ (fun m => sumn a (fun k => z i m * dir n p x y k m * (gsq n p x y k / tau n p x y k)))). 2:{ intros m Hm. rewrite <- sumR_scal. apply sumn_ext. intros; ring. }
    rewrite (sumR_swap p a). apply sumn_ext. intros k Hk. now rewrite sumR_scal_r.
Qed.
Print Assumptions C72_linear_kernel.
(** Three samples, two predictors of different scale, one component. *)
Definition kX : mat R := Mat 3 2 [[2;5];[0;5];[1;2]].
Definition kY : mat R := Mat 3 1 [[3];[1];[-1]].
Definition krnd (_ : Z) (n : nat) : mat R := mk n 1 (fun i _ => 10 - 10 * INR i).
Definition no_ls (_ _ : mat R) : res (mat R) := Err LinAlgError.
Definition kpl := kernel_pls no_ls krnd tt lin.
Definition k_start : pls_st (@kpls_st R unit) R := PlsSt 1 PP_NONE false [] [] None None (Kpls tt (lit 1 6) 500 (t_new center) (t_new center) None).
Definition p_start : pls_st (pls1_st R) R := PlsSt 1 PP_CENTER false [] [] None None (c_new (pls1 no_ls)).
Lemma krnd_col : column_source krnd.
Proof. intros k n. eexists. reflexivity. Qed.
Lemma k_run : exists s s', initialize kpl k_start (Some kX) (Some kY) = (s, Ok None) /\ initialize (pls1 no_ls) p_start (Some kX) (Some kY) = (s', Ok None) /\
    forall Z, wf Z -> nc Z = 2%nat -> nr Z <> 0%nat -> exists V, snd (predict kpl s Z) = Ok V /\
      snd (predict (pls1 no_ls) s' (mk (nr Z) 2 (fun i j => entry Z i j - Rmean 3 (fun k => entry kX k j)))) = Ok V.
Proof.
  set (x := prepared PP_CENTER kX). set (y := fun i => prepared PP_CENTER kY i 0).
  assert (M0 : Rmean 3 (fun k => entry kX k 0) = 1) by (unfold Rmean, Rsum; cbn; field).
  assert (M1 : Rmean 3 (fun k => entry kX k 1) = 4) by (unfold Rmean, Rsum; cbn; field).
  assert (M2 : Rmean 3 (fun k => entry kY k 0) = 1) by (unfold Rmean, Rsum; cbn; field).
  assert (X0 : forall i, x i 0%nat = entry kX i 0 - 1) by (intros i; unfold x; cbn [prepared]; change (nr kX) with 3%nat; now rewrite M0).
  assert (X1 : forall i, x i 1%nat = entry kX i 1 - 4) by (intros i; unfold x; cbn [prepared]; change (nr kX) with 3%nat; now rewrite M1).
  assert (Y0 : forall i, y i = entry kY i 0 - 1) by (intros i; unfold y; cbn [prepared]; change (nr kY) with 3%nat; now rewrite M2).
  assert (C0 : cov 3 x y 0 = 2). { unfold cov. rewrite Rsum_sumn, !sumR_S, sumR_0, !X0, !Y0. cbn. ring. }
  assert (C1 : cov 3 x y 1 = 6). { unfold cov. rewrite Rsum_sumn, !sumR_S, sumR_0, !X1, !Y0. cbn. ring. }
  assert (Er : forall k i, (i < 3)%nat -> entry (krnd k 3) i 0 = 10 - 10 * INR i) by (intros k i Hi; unfold krnd; now rewrite entry_mk by lia).
  apply (C72_linear_kernel tt no_ls no_ls krnd k_start p_start kX kY 1); try reflexivity.
  - exact krnd_col.
  - cbn [k_start p_own kp_tol]. apply lit_pos. lia.
  - cbn [k_start p_own kp_max_iter]. lia.
  - split; [reflexivity|]. repeat constructor.
  - split; [reflexivity|]. repeat constructor.
  - cbn. lia.
  - cbn. lia.
  - lia.
  - intros k Hk. replace k with 0%nat by lia. exists 0%nat. split; [cbn; lia|]. cbn [residual]. change (cov 3 x y 0 <> 0). lra.
  - change (nr kX) with 3%nat. change (nc kX) with 2%nat. fold x y. intros k Hk. replace k with 0%nat by lia. split.
    + cbn [residual]. rewrite !sumR_S, sumR_0, C0, C1. unfold cov. rewrite !Rsum_sumn, !sumR_S, !sumR_0, !X0, !X1, !Er by lia. cbn. lra.
    + intros s Hs. assert (Hyl : forall i, y_left 3 2 x y 0 i = y i). { intros i. rewrite yl_sum, sumR_0. ring. }
      assert (HY2 : sumn 3 (fun i => y_left 3 2 x y 0 i * y_left 3 2 x y 0 i) = 8). { rewrite (sumn_ext 3 _ (fun i => y i * y i)) by (intros; now rewrite Hyl). rewrite !sumR_S, sumR_0, !Y0. cbn. ring. }
      rewrite HY2. set (z := sqrt 8). assert (Hz : 2 <= z). { unfold z. replace 2 with (sqrt (2 * 2)) by (apply sqrt_square; lra). apply sqrt_le_1; lra. }
      apply Rlt_le_trans with (sqrt (1 * 1)).
      * rewrite sqrt_square by lra. cbn [k_start p_own kp_tol]. unfold lit. change (1 * / 1000000 < 1). lra.
      * apply sqrt_le_1; [lra|apply sumR_nonneg; intros; apply Rle_0_sqr|]. rewrite !sumR_S, sumR_0. rewrite !Er by lia. rewrite !Hyl, !Y0. cbn [entry kY rws nth INR].
        set (u := s * ((3 - 1) / z)). assert (Hu : u <= 1).
        { unfold u. replace (3 - 1) with 2 by ring. assert (0 < 2 / z <= 1). { split; [apply Rdiv_lt_0_compat; lra|]. apply (Rmult_le_reg_r z); [lra|]. unfold Rdiv. rewrite Rmult_assoc, Rinv_l by lra. lra. } destruct Hs as [->| ->]; lra. }
        pose proof (Rle_0_sqr (s * ((1 - 1) / z) - (10 - 10 * 1))) as S1. pose proof (Rle_0_sqr (s * ((-1 - 1) / z) - (10 - 10 * (1 + 1)))) as S2. unfold Rsqr in S1, S2. assert (1 <= (u - (10 - 10 * 0)) * (u - (10 - 10 * 0))) by nra. lra.
Qed.
Example C72_ex : exists s s' V, initialize kpl k_start (Some kX) (Some kY) = (s, Ok None) /\ initialize (pls1 no_ls) p_start (Some kX) (Some kY) = (s', Ok None) /\
  snd (predict kpl s (Mat 1 2 [[7;-2]])) = Ok V /\ snd (predict (pls1 no_ls) s' (mk 1 2 (fun i j => entry (Mat 1 2 [[7;-2]]) i j - Rmean 3 (fun k => entry kX k j)))) = Ok V.
Proof.
  destruct k_run as (s & s' & Ei & Ei' & H). destruct (H (Mat 1 2 [[7;-2]])) as (V & V1 & V2); [split; [reflexivity|repeat constructor]|reflexivity|discriminate|]. exists s, s', V. auto.
Qed.
Lemma kX_wf : wf kX /\ wf kY. Proof. split; (split; [reflexivity|repeat constructor]). Qed.
(** The same run meets the hypotheses of C71. *)
Example C71_ex : exists s m V, initialize kpl k_start (Some kX) (Some kY) = (s, Ok None) /\ kp_model (p_own s) = Some m /\ snd (predict kpl s kX) = Ok V /\
  Rsum 3 (fun i => entry (km_T m) i 0 * entry (km_T m) i 0) = 1 /\ Rsum 3 (fun i => entry (km_T m) i 0 * (entry V i 0 - entry kY i 0)) = 0.
Proof.
  destruct k_run as (s & s' & Ei & _ & _). destruct kX_wf as (W1 & W2).
  destruct (C71_kernel_pls no_ls krnd tt lin krnd_col k_start s kX kY 1 W1 W2 eq_refl) as (m & Em & _ & H1 & _ & _ & _ & H2); try reflexivity; try discriminate; [exact Ei|].
  destruct H2 as (V & EV & _ & _ & _ & H2); [reflexivity|]. exists s, m, V. split; [exact Ei|]. split; [exact Em|]. split; [exact EV|]. split; [apply (H1 0%nat 0%nat); lia|apply H2; cbn; lia].
Qed.
