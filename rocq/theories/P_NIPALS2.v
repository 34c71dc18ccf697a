(** C70: NIPALS on one response is PLS1 on standardised data. *)
From Coq Require Import List ZArith Lia Bool Arith Reals Lra.
From Verif Require Import Base Num Mat M_Matrix M_Factory M_Helper M_Loop M_Utils M_Linalg M_Transform M_PLSBase M_PLS
  S_Matrix L_Base L_Mat L_Matrix L_MatR L_Linalg L_Transform L_Alg L_Deflate P_Matrix P_Linalg P_Helper P_Transform P_PLSPrep P_PLS1 L_Krylov L_Span L_Public P_SIMPLS2.
Import ListNotations.
Local Open Scope R_scope.

(** What the first k components leave of the response: y minus its least-squares fit on the scores. *)
Definition y_left (n p : nat) (X : nat -> nat -> R) (y : nat -> R) (k i : nat) : R :=
  y i - Rsum k (fun l => let t := scores_of p (residual n p X y l) (unit_cov n p (residual n p X y l) y) in
                         t i * (Rsum n (fun m => t m * y m) / Rsum n (fun m => t m * t m))).
Definition y_rest n p X y k : R := Rsum n (fun i => y_left n p X y k i * y_left n p X y k i).
(** squared norm of the covariances of the k-th residual with y *)
Definition cov_sq n p X y k : R := Rsum p (fun j => cov n (residual n p X y k) y j * cov n (residual n p X y k) y j).
(** The code divides the weights by their norm plus 1e-16, so they come out slightly short. *)
Definition shrink n p X y k : R := let N := sqrt (cov_sq n p X y k) / y_rest n p X y k in N / (N + lit 1 16).

Lemma bind_Ok {A B} (x : A) (f : A -> res B) : bind (Ok x) f = f x. Proof. reflexivity. Qed.
Lemma sum_cut h a (f : nat -> R) : (h <= a)%nat -> (forall l, (h <= l)%nat -> (l < a)%nat -> f l = 0) -> sumn a f = sumn h f.
Proof. intros Hh H0. replace a with (h + (a - h))%nat by lia. rewrite sumR_split, (sumR_zero (a - h)); [ring|]. intros l Hl. apply H0; lia. Qed.
Lemma lit_pos m : (0 <= m)%Z -> 0 < lit (T:=R) 1 m.
Proof. intros Hm. unfold lit. cbn [ndiv nofZ NumR]. apply Rdiv_lt_0_compat; [lra|]. apply IZR_lt. now apply Z.pow_pos_nonneg. Qed.
Lemma all_1 (x : R) f : all (mk 1 1 (fun _ _ => x)) f = f x.
Proof. unfold all, any. cbn [nr nc mk seq existsb]. fold (mk 1 1 (fun _ _ : nat => x)). rewrite entry_mk by lia. now destruct (f x). Qed.

Lemma scale_one p (f : nat -> nat -> R) sd : scale_by_row_vector (mk p 1 f) (mk 1 1 (fun _ _ => sd)) = Ok (mk p 1 (fun j k => f j k * sd)).
Proof.
  unfold scale_by_row_vector, mul_by_vector, vector_op, copy. rewrite transpose_mk. transitivity (vector_op_modify nmul (mk p 1 f) (mk 1 1 (fun _ _ => sd))).
  - unfold must_be_column_vector, dimensions_must_match. reflexivity.
  - rewrite vector_opm_row by reflexivity. cbn [nr nc mk]. fold (mk p 1 f). fold (mk 1 1 (fun _ _ : nat => sd)). apply (f_equal Ok). apply mk_ext. intros. rewrite !entry_mk by lia. reflexivity.
Qed.

Section Run.
Variables (lstsq : mat R -> mat R -> res (mat R)) (pinv : mat R -> res (mat R)) (n p a : nat) (X : nat -> nat -> R) (y : nat -> R).
Hypotheses (Hn : n <> 0%nat) (Hp : p <> 0%nat) (Ha : a <> 0%nat).
(** Whenever the rest of the response is not negligible, its covariances are not either. *)
Hypothesis Hstrong : forall k, (k < a)%nat -> lit 1 10 <= y_rest n p X y k -> lit 1 16 * (y_rest n p X y k * y_rest n p X y k) <= cov_sq n p X y k.
Let E := residual n p X y.
Let w k := unit_cov n p (E k) y.
Let t k := scores_of p (E k) (w k).
Let q k := loadings_of n (E k) (t k).
Let g k j := cov n (E k) y j.
Let G := gsq n p X y.
Let tt := tau n p X y.
Let yl := y_left n p X y.
Let Ys := y_rest n p X y.
Let s := shrink n p X y.
Definition negligible (h : nat) : Prop := Ys h < lit 1 10 \/ s h * s h * tt h < lit 1 10.

Lemma cov_sq_G k : cov_sq n p X y k = G k.
Proof. unfold cov_sq, G, gsq. now rewrite Rsum_sumn. Qed.
Section Comp.
Variable h : nat.
Hypotheses (Hh : (h < a)%nat) (Hnb : no_breakdown n p X y h) (HY : lit 1 10 <= Ys h).
Lemma Ys_pos : 0 < Ys h. Proof. pose proof (lit_pos 10 ltac:(lia)). lra. Qed.
Lemma G_big : lit 1 16 * (Ys h * Ys h) <= G h.
Proof. rewrite <- cov_sq_G. now apply Hstrong. Qed.
Lemma G_pos : 0 < G h.
Proof. eapply Rlt_le_trans; [|exact G_big]. pose proof Ys_pos. apply Rmult_lt_0_compat; [apply lit_pos; lia|]. nra. Qed.
Lemma rG_pos : 0 < sqrt (G h). Proof. apply sqrt_lt_R0, G_pos. Qed.
Lemma nb_S : no_breakdown n p X y (S h).
Proof.
  intros k Hk. destruct (Nat.eq_dec k h) as [->|]; [|apply Hnb; lia].
  destruct (Nat.eq_dec (length (filter (fun j => negb (Reqb (g h j) 0)) (seq 0 p))) 0) as [E0|E0].
  - exfalso. pose proof G_pos as Q. unfold G, gsq in Q. rewrite sumR_zero in Q; [lra|]. intros j Hj.
    destruct (Req_dec (g h j) 0) as [Ez|Ez]; [unfold g, E in Ez; rewrite Ez; ring|]. exfalso. apply length_zero_iff_nil in E0.
    assert (In j []); [|contradiction]. rewrite <- E0. apply filter_In. split; [apply in_seq; lia|]. apply Reqb_false in Ez. now rewrite Ez.
  - destruct (filter (fun j => negb (Reqb (g h j) 0)) (seq 0 p)) as [|j l] eqn:El; [now elim E0|]. exists j.
    assert (Hin : In j (j :: l)) by now left. rewrite <- El in Hin. apply filter_In in Hin as [H1 H2]. apply in_seq in H1. split; [lia|].
    apply negb_true_iff in H2. now apply Reqb_false.
Qed.
(* the scores are orthogonal to what is left of the response up to the response itself *)
Lemma yl_sum k i : yl k i = y i - sumn k (fun l => t l i * (sumn n (fun m => t l m * y m) / sumn n (fun m => t l m * t l m))).
Proof. unfold yl, y_left. rewrite Rsum_sumn. f_equal. apply sumn_ext. intros l Hl. cbv zeta. now rewrite !Rsum_sumn. Qed.
Lemma E_yl j : (j < p)%nat -> sumn n (fun i => E h i j * yl h i) = g h j.
Proof.
  intros Hj. unfold g, cov. rewrite Rsum_sumn.
  rewrite (sumn_ext n _ (fun i => E h i j * y i - sumn h (fun l => (sumn n (fun m => t l m * y m) / sumn n (fun m => t l m * t l m)) * (E h i j * t l i)))).
  2:{ intros i Hi. rewrite yl_sum, Rmult_minus_distr_l. f_equal. rewrite <- sumR_scal. apply sumn_ext. intros; ring. }
  rewrite sumR_minus, sumR_swap. rewrite (sumR_zero h); [unfold E; ring|]. intros l Hl. rewrite sumR_scal.
  rewrite (E_perp_t n p h E w t q (Ht n p h X y) (Hq n p h X y) (HE n p h X y) (Htau n p h X y Hnb) l h j) by (assumption || lia). ring.
Qed.
Lemma t_yl : sumn n (fun i => yl h i * t h i) = sqrt (G h).
Proof.
  transitivity (sumn p (fun j => sumn n (fun i => E h i j * yl h i) * w h j)).
  - rewrite (sumn_ext n _ (fun i => sumn p (fun j => E h i j * yl h i * w h j))).
    + rewrite sumR_swap. apply sumn_ext. intros. now rewrite sumR_scal_r.
    + intros i Hi. unfold t, scores_of. rewrite Rsum_sumn, <- sumR_scal. apply sumn_ext. intros; ring.
  - rewrite (sumn_ext p _ (fun j => / sqrt (G h) * (g h j * g h j))).
    + rewrite sumR_scal. fold (G h). change (sumn p (fun j => g h j * g h j)) with (G h). pose proof rG_pos. rewrite <- (rt_rt n p X y h : sqrt (G h) * sqrt (G h) = G h) at 2. field. lra.
    + intros j Hj. rewrite E_yl by assumption. rewrite (w_g n p X y h j : w h j = g h j / sqrt (G h)). unfold Rdiv. ring.
Qed.
Lemma t_y_h : sumn n (fun i => t h i * y i) = sqrt (G h).
Proof. exact (t_y n p (S h) X y nb_S h ltac:(lia)). Qed.
Lemma tt_pos : 0 < tt h. Proof. exact (tau_pos n p (S h) X y nb_S h ltac:(lia)). Qed.
Lemma s_pos : 0 < s h.
Proof.
  unfold s, shrink. cbv zeta. rewrite cov_sq_G. pose proof rG_pos. pose proof Ys_pos. fold (Ys h). pose proof (lit_pos 16 ltac:(lia)).
  assert (0 < sqrt (G h) / Ys h) by now apply Rdiv_lt_0_compat. apply Rdiv_lt_0_compat; lra.
Qed.

Lemma weights_step norm_Y : exists c, nipals_weights lstsq WM_PLS norm_Y (mk n p (E h)) (mk n 1 (fun i _ => yl h i)) (mk n 1 (fun i _ => yl h i)) =
  Ok (mk p 1 (fun j _ => s h * w h j), mk 1 1 (fun _ _ => c)) /\ (norm_Y = false -> c = sqrt (G h) / (s h * tt h)).
Proof.
  pose proof Ys_pos as HYp. pose proof rG_pos as HGp. pose proof (lit_pos 16 ltac:(lia)) as He.
  unfold nipals_weights. rewrite transpose_mk, mul_mk. cbn [bind]. rewrite norm2_squared_col, div_scalar_mk.
  assert (E1 : mk p 1 (fun i j : nat => ndiv (sumn n (fun k => nmul (E h k i) (yl h k))) (sumn n (fun k => yl h k * yl h k))) = mk p 1 (fun j _ => g h j / Ys h)).
  { apply mk_ext. intros i j Hi Hj. cbn [ndiv nmul NumR]. rewrite E_yl by assumption. unfold Ys, y_rest. now rewrite Rsum_sumn. }
  rewrite E1.
  assert (E2 : sumn p (fun k => g h k / Ys h * (g h k / Ys h)) = G h / (Ys h * Ys h)).
  { rewrite (sumn_ext p _ (fun k => / (Ys h * Ys h) * (g h k * g h k))) by (intros; field; lra). rewrite sumR_scal. change (sumn p (fun j => g h j * g h j)) with (G h). field. lra. }
  rewrite norm2_squared_col, E2.
  assert (E3 : nltb (G h / (Ys h * Ys h)) (lit 1 16) = false).
  { apply Rltb_false. pose proof G_big as Q. apply (Rmult_le_reg_r (Ys h * Ys h)); [nra|]. replace (G h / (Ys h * Ys h) * (Ys h * Ys h)) with (G h) by (field; lra). exact Q. }
  rewrite E3. rewrite norm2_col, E2.
  assert (E4 : sqrt (G h / (Ys h * Ys h)) = sqrt (G h) / Ys h). { rewrite sqrt_div by (pose proof G_pos; nra). f_equal. apply sqrt_square. lra. }
  rewrite E4, div_scalar_mk.
  assert (E5 : mk p 1 (fun i j : nat => ndiv (g h i / Ys h) (nadd (sqrt (G h) / Ys h) (lit 1 16))) = mk p 1 (fun j _ => s h * w h j)).
  { apply mk_ext. intros i j Hi Hj. cbn [ndiv nadd NumR]. rewrite (w_g n p X y h i : w h i = g h i / sqrt (G h)). unfold s, shrink. cbv zeta. rewrite cov_sq_G. fold (Ys h).
    assert (0 < sqrt (G h) / Ys h) by now apply Rdiv_lt_0_compat. assert (Hs : sqrt (G h) / Ys h + lit 1 16 <> 0) by lra.
    set (d := sqrt (G h) / Ys h + lit 1 16) in *. field. repeat split; lra. }
  rewrite E5, mul_mk. cbn [bind]. rewrite transpose_mk.
  assert (E6 : mk n 1 (fun i j : nat => sumn p (fun k => nmul (E h i k) (s h * w h k))) = mk n 1 (fun i _ => s h * t h i)).
  { apply mk_ext. intros i j Hi Hj. unfold t, scores_of. rewrite Rsum_sumn, <- sumR_scal. apply sumn_ext. intros. cbn [nmul NumR]. ring. }
  rewrite E6, mul_mk. cbn [bind]. rewrite norm2_squared_col, div_scalar_mk.
  assert (E7 : mk 1 1 (fun _ _ : nat => ndiv (sumn n (fun k => nmul (yl h k) (s h * t h k))) (sumn n (fun k => s h * t h k * (s h * t h k)))) = mk 1 1 (fun _ _ => sqrt (G h) / (s h * tt h))).
  { apply mk_ext. intros i j Hi Hj. cbn [ndiv nmul NumR]. rewrite (sumn_ext n _ (fun k => s h * (yl h k * t h k))) by (intros; ring). rewrite sumR_scal, t_yl.
    rewrite (sumn_ext n _ (fun k => s h * s h * (t h k * t h k))) by (intros; ring). rewrite sumR_scal. change (sumn n (fun k => t h k * t h k)) with (tt h). pose proof s_pos. pose proof tt_pos. field. lra. }
  rewrite E7. destruct norm_Y; [rewrite div_scalar_mk|]; eexists; (split; [reflexivity|]); [discriminate|reflexivity].
Qed.
Lemma loop_step norm_Y tol max_iter : exists c, nipals_loop lstsq WM_PLS norm_Y tol max_iter (mk n p (E h)) (mk n 1 (fun i _ => yl h i)) =
  Ok (mk p 1 (fun j _ => s h * w h j), mk 1 1 (fun _ _ => c), 0%Z) /\ (norm_Y = false -> c = sqrt (G h) / (s h * tt h)).
Proof.
  destruct (weights_step norm_Y) as (c & Ew & Hc). exists c. split; [|exact Hc].
  unfold nipals_loop. change 0%Z with (Z.of_nat 0) at 1; rewrite get_column_mk, bind_Ok by lia. cbn [nipals_while]. rewrite Ew, bind_Ok, mul_mk, bind_Ok.
  cbn [nc mk]. fold (mk n p (E h)). unfold zn. change 1%Z with (Z.of_nat 1). rewrite zeros_mk by assumption. rewrite sub_mk, bind_Ok. cbn [Nat.eqb]. rewrite orb_true_r. reflexivity.
Qed.
End Comp.

Variable own : nipals_st R.
Definition st_at (stop : bool) (h : nat) (yr : nat -> R) (ys : nat -> nat -> R) (yw : nat -> nat -> R) : nipals_state (T:=R) :=
  (stop, (mk n p (E h), mk n 1 (fun i _ => yr i)),
   (mk n a (fun i l => if (l <? h)%nat then s l * t l i else 0), mk n a ys,
    mk p a (fun j l => if (l <? h)%nat then q l j / s l else 0), mk 1 a (fun _ l => if (l <? h)%nat then sqrt (G l) / (s l * tt l) else 0),
    mk p a (fun j l => if (l <? h)%nat then s l * w l j else 0), mk 1 a yw)).
Definition reached (k : nat) (st : nipals_state (T:=R)) : Prop :=
  exists stop h ys yw, st = st_at stop h (yl h) ys yw /\ (h <= k)%nat /\ no_breakdown n p X y h /\ (forall l, (l < h)%nat -> ~ negligible l) /\ 
    (if stop then (h < a)%nat /\ negligible h else h = k).
Lemma step_run k st : ni_deflation own = REGRESSION -> (k < a)%nat -> reached k st -> exists st', nipals_step lstsq WM_PLS own st k = Ok st' /\ reached (S k) st'.
Proof.
  intros Hdef Hk (stop & h & ys & yw & -> & Hhk & Hnb & Hneg & Hstop). unfold st_at, nipals_step. destruct stop.
  { eexists. split; [reflexivity|]. exists true, h, ys, yw. split; [reflexivity|]. split; [lia|]. auto. }
  subst h. rewrite transpose_mk, mul_mk, bind_Ok.
  assert (E1 : mk 1 1 (fun i j : nat => sumn n (fun l => nmul (yl k l) (yl k l))) = mk 1 1 (fun _ _ => Ys k)).
  { apply mk_ext. intros. unfold Ys, y_rest. now rewrite Rsum_sumn. }
  rewrite E1, all_1. destruct (nltb (Ys k) (lit 1 10)) eqn:EY.
  { eexists. split; [reflexivity|]. exists true, k, ys, yw. split; [reflexivity|]. split; [lia|]. split; [assumption|]. split; [assumption|]. split; [assumption|]. left. now apply Rltb_true. }
  apply Rltb_false in EY.
  destruct (loop_step k Hk Hnb EY (ni_norm_Y_weights own) (ni_tol own) (ni_max_iter own)) as (c & EL & _). rewrite EL, bind_Ok. rewrite !mul_mk, !bind_Ok. rewrite div_scalar_mk.
  pose proof (s_pos k Hk EY) as Hs. pose proof (tt_pos k Hk Hnb EY) as Htt.
  assert (E6 : mk n 1 (fun i j : nat => sumn p (fun l => nmul (E k i l) (s k * w k l))) = mk n 1 (fun i _ => s k * t k i)).
  { apply mk_ext. intros i j Hi Hj. unfold t, scores_of. rewrite Rsum_sumn, <- sumR_scal. apply sumn_ext. intros. cbn [nmul NumR]. ring. }
  rewrite E6.
  assert (Etau : sumn n (fun l => s k * t k l * (s k * t k l)) = s k * s k * tt k).
  { rewrite (sumn_ext n _ (fun l => s k * s k * (t k l * t k l))) by (intros; ring). now rewrite sumR_scal. }
  rewrite (norm2_squared_col n (fun i _ => s k * t k i)), Etau. destruct (nltb (s k * s k * tt k) (lit 1 10)) eqn:ET.
  { eexists. split; [reflexivity|]. exists true, k, ys, yw. split; [reflexivity|]. split; [lia|]. split; [assumption|]. split; [assumption|]. split; [assumption|]. right. now apply Rltb_true. }
  apply Rltb_false in ET.
  rewrite transpose_mk, mul_mk, bind_Ok, div_scalar_mk.
  assert (E7 : mk p 1 (fun i j : nat => ndiv (sumn n (fun l => nmul (E k l i) (s k * t k l))) (s k * s k * tt k)) = mk p 1 (fun j _ => q k j / s k)).
  { apply mk_ext. intros i j Hi Hj. cbn [ndiv nmul NumR]. rewrite (sumn_ext n _ (fun l => s k * (E k l i * t k l))) by (intros; ring). rewrite sumR_scal.
    unfold q, loadings_of. rewrite !Rsum_sumn. change (sumn n (fun k0 => t k k0 * t k k0)) with (tt k). field. lra. }
  rewrite E7, transpose_mk, mul_mk, bind_Ok, sub_mk, bind_Ok, Hdef. rewrite mul_mk, bind_Ok, div_scalar_mk, transpose_mk.
  assert (E8 : mk 1 1 (fun _ _ : nat => ndiv (sumn n (fun l => nmul (yl k l) (s k * t k l))) (s k * s k * tt k)) = mk 1 1 (fun _ _ => sqrt (G k) / (s k * tt k))).
  { apply mk_ext. intros i j Hi Hj. cbn [ndiv nmul NumR]. rewrite (sumn_ext n _ (fun l => s k * (yl k l * t k l))) by (intros; ring). rewrite sumR_scal, (t_yl k Hk Hnb EY). field. lra. }
  assert (E9 : mk 1 1 (fun i j : nat => ndiv (sumn n (fun l => nmul (yl k l) (s k * t k l))) (s k * s k * tt k)) = mk 1 1 (fun _ _ => sqrt (G k) / (s k * tt k))) by exact E8.
  rewrite E9. rewrite mul_mk, bind_Ok, sub_mk, bind_Ok. unfold zn. rewrite !set_column_mk, !bind_Ok by assumption.
  rewrite set_column_mk, bind_Ok by assumption.
  eexists. split; [reflexivity|]. exists false, (S k). eexists. eexists. split; [|split; [lia|split; [exact (nb_S k Hk Hnb EY)|split; [|reflexivity]]]].
  2:{ intros l Hl. destruct (Nat.eq_dec l k) as [->|]; [intros [Q|Q]; lra|apply Hneg; lia]. }
  unfold st_at. apply f_equal2; [apply f_equal2; [reflexivity|apply f_equal2]|apply f_equal2; [apply f_equal2; [apply f_equal2; [apply f_equal2; [apply f_equal2|]|]|]|]]; try reflexivity; apply mk_ext; intros i j Hi Hj.
  - rewrite sum1. cbn [nsub nmul NumR]. change (E (S k) i j) with (E k i j - t k i * q k j). field. lra.
  - rewrite sum1. cbn [nsub nmul NumR]. rewrite !yl_sum, sumR_S. rewrite (t_y_h k Hk Hnb EY). change (sumn n (fun m => t k m * t k m)) with (tt k). field. lra.
  - apply (ifS k j 0 (fun l => s l * t l i)).
  - apply (ifS k j 0 (fun l => q l i / s l)).
  - apply (ifS k j 0 (fun l => sqrt (G l) / (s l * tt l))).
  - apply (ifS k j 0 (fun l => s l * w l i)).
Qed.

(** With canonical deflation one response is used up by the first component. *)
Definition reached1 (k : nat) (st : nipals_state (T:=R)) : Prop :=
  exists stop h yr ys yw, st = st_at stop h yr ys yw /\ no_breakdown n p X y h /\
    ((h = 0%nat /\ yr = yl 0 /\ (if stop then negligible 0 else k = 0%nat)) \/ (h = 1%nat /\ yr = (fun _ => 0) /\ ~ negligible 0)).
Lemma step_run1 k st : ni_deflation own = CANONICAL -> ni_norm_Y_weights own = false -> (k < a)%nat -> reached1 k st ->
  exists st', nipals_step lstsq WM_PLS own st k = Ok st' /\ reached1 (S k) st'.
Proof.
  intros Hdef HnY Hk (stop & h & yr & ys & yw & -> & Hnb & Hor). unfold st_at, nipals_step. destruct stop.
  { eexists. split; [reflexivity|]. exists true, h, yr, ys, yw. split; [reflexivity|]. split; [assumption|]. tauto. }
  rewrite transpose_mk, mul_mk, bind_Ok. destruct Hor as [(-> & -> & ->)|(-> & -> & Hne)].
  2:{ assert (E1 : mk 1 1 (fun i j : nat => sumn n (fun l => nmul 0 0)) = mk 1 1 (fun _ _ => 0)). { apply mk_ext. intros. apply sumR_zero. intros. cbn [nmul NumR]. ring. }
      rewrite E1, all_1. assert (E2 : nltb 0 (lit 1 10) = true) by (apply Rltb_true, lit_pos; lia). rewrite E2.
      eexists. split; [reflexivity|]. exists true, 1%nat. eexists. exists ys, yw. split; [reflexivity|]. split; [assumption|]. right. auto. }
  assert (E1 : mk 1 1 (fun i j : nat => sumn n (fun l => nmul (yl 0 l) (yl 0 l))) = mk 1 1 (fun _ _ => Ys 0)).
  { apply mk_ext. intros. unfold Ys, y_rest. now rewrite Rsum_sumn. }
  rewrite E1, all_1. destruct (nltb (Ys 0) (lit 1 10)) eqn:EY.
  { eexists. split; [reflexivity|]. exists true, 0%nat, (yl 0), ys, yw. split; [reflexivity|]. split; [assumption|]. left. split; [reflexivity|]. split; [reflexivity|]. left. now apply Rltb_true. }
  apply Rltb_false in EY.
  destruct (loop_step 0 Hk Hnb EY (ni_norm_Y_weights own) (ni_tol own) (ni_max_iter own)) as (c & EL & Hc). specialize (Hc HnY). rewrite EL, bind_Ok. rewrite !mul_mk, !bind_Ok. rewrite div_scalar_mk.
  pose proof (s_pos 0 Hk EY) as Hs. pose proof (tt_pos 0 Hk Hnb EY) as Htt. pose proof (rG_pos 0 Hk EY) as HG. pose proof (Ys_pos 0 Hk EY) as HYs.
  assert (E6 : mk n 1 (fun i j : nat => sumn p (fun l => nmul (E 0%nat i l) (s 0%nat * w 0%nat l))) = mk n 1 (fun i _ => s 0%nat * t 0%nat i)).
  { apply mk_ext. intros i j Hi Hj. unfold t, scores_of. rewrite Rsum_sumn, <- sumR_scal. apply sumn_ext. intros. cbn [nmul NumR]. ring. }
  rewrite E6.
  assert (Etau : sumn n (fun l => s 0%nat * t 0%nat l * (s 0%nat * t 0%nat l)) = s 0%nat * s 0%nat * tt 0%nat).
  { rewrite (sumn_ext n _ (fun l => s 0%nat * s 0%nat * (t 0%nat l * t 0%nat l))) by (intros; ring). now rewrite sumR_scal. }
  rewrite (norm2_squared_col n (fun i _ => s 0%nat * t 0%nat i)), Etau. destruct (nltb (s 0%nat * s 0%nat * tt 0%nat) (lit 1 10)) eqn:ET.
  { eexists. split; [reflexivity|]. exists true, 0%nat, (yl 0), ys, yw. split; [reflexivity|]. split; [assumption|]. left. split; [reflexivity|]. split; [reflexivity|]. right. now apply Rltb_true. }
  apply Rltb_false in ET.
  assert (Hcp : 0 < c). { rewrite Hc. apply Rdiv_lt_0_compat; [assumption|]. nra. }
  assert (E5 : mk n 1 (fun i j : nat => ndiv (sumn 1 (fun _ => nmul (yl 0 i) c)) (norm2_squared (mk 1 1 (fun _ _ : nat => c)))) = mk n 1 (fun i _ => yl 0 i / c)).
  { apply mk_ext. intros i j Hi Hj. rewrite norm2_squared_col, !sum1. cbn [ndiv nmul NumR]. field. lra. }
  rewrite E5. rewrite transpose_mk, mul_mk, bind_Ok, div_scalar_mk.
  assert (E7 : mk p 1 (fun i j : nat => ndiv (sumn n (fun l => nmul (E 0%nat l i) (s 0%nat * t 0%nat l))) (s 0%nat * s 0%nat * tt 0%nat)) = mk p 1 (fun j _ => q 0%nat j / s 0%nat)).
  { apply mk_ext. intros i j Hi Hj. cbn [ndiv nmul NumR]. rewrite (sumn_ext n _ (fun l => s 0%nat * (E 0%nat l i * t 0%nat l))) by (intros; ring). rewrite sumR_scal.
    unfold q, loadings_of. rewrite !Rsum_sumn. change (sumn n (fun k0 => t 0%nat k0 * t 0%nat k0)) with (tt 0%nat). field. lra. }
  rewrite E7, transpose_mk, mul_mk, bind_Ok, sub_mk, bind_Ok, Hdef. rewrite mul_mk, bind_Ok, norm2_squared_col, div_scalar_mk, transpose_mk.
  assert (E8 : mk 1 1 (fun i j : nat => ndiv (sumn n (fun l => nmul (yl 0 l) (yl 0 l / c))) (sumn n (fun l => yl 0 l / c * (yl 0 l / c)))) = mk 1 1 (fun _ _ => c)).
  { apply mk_ext. intros i j Hi Hj. cbn [ndiv nmul NumR]. assert (Ey : sumn n (fun l => yl 0 l * yl 0 l) = Ys 0%nat) by (unfold Ys, y_rest; now rewrite Rsum_sumn).
    rewrite (sumn_ext n _ (fun l => / c * (yl 0 l * yl 0 l))) by (intros; unfold Rdiv; ring). rewrite sumR_scal, Ey.
    rewrite (sumn_ext n _ (fun l => / c * / c * (yl 0 l * yl 0 l))) by (intros; unfold Rdiv; ring). rewrite sumR_scal, Ey. field. lra. }
  rewrite E8. rewrite mul_mk, bind_Ok, sub_mk, bind_Ok. unfold zn. rewrite !set_column_mk, !bind_Ok by assumption.
  rewrite set_column_mk, bind_Ok by assumption.
  eexists. split; [reflexivity|]. exists false, 1%nat, (fun _ => 0). eexists. eexists. split; [|split; [exact (nb_S 0 Hk Hnb EY)|right; split; [reflexivity|split; [reflexivity|intros [Q|Q]; lra]]]].
  unfold st_at. apply f_equal2; [apply f_equal2; [reflexivity|apply f_equal2]|apply f_equal2; [apply f_equal2; [apply f_equal2; [apply f_equal2; [apply f_equal2|]|]|]|]]; try reflexivity; apply mk_ext; intros i j Hi Hj.
  - rewrite sum1. cbn [nsub nmul NumR]. change (E 1%nat i j) with (E 0%nat i j - t 0%nat i * q 0%nat j). field. lra.
  - rewrite sum1. cbn [nsub nmul NumR]. field. lra.
  - apply (ifS 0 j 0 (fun l => s l * t l i)).
  - apply (ifS 0 j 0 (fun l => q l i / s l)).
  - rewrite <- (ifS 0 j 0 (fun l => sqrt (G l) / (s l * tt l))). destruct (j =? 0)%nat; [exact Hc|reflexivity].
  - apply (ifS 0 j 0 (fun l => s l * w l i)).
Qed.

Hypothesis Hpinv : ls_inverse pinv.
Let d := dir n p X y.
Let B := beta n p X y.
Lemma fit_run sd (Inv : nat -> nipals_state (T:=R) -> Prop) (Final : nat -> Prop) :
  Inv 0%nat (st_at false 0 (yl 0) (fun _ _ => 0) (fun _ _ => 0)) -> (forall k st, (k < a)%nat -> Inv k st -> exists st', nipals_step lstsq WM_PLS own st k = Ok st' /\ Inv (S k) st') ->
  (forall st, Inv a st -> exists stop h yr ys yw, st = st_at stop h yr ys yw /\ (h <= a)%nat /\ no_breakdown n p X y h /\ (forall l, (l < h)%nat -> ~ negligible l) /\ Final h) ->
  exists h m, (h <= a)%nat /\ no_breakdown n p X y h /\ (forall l, (l < h)%nat -> ~ negligible l) /\ Final h /\
  nipals_fit lstsq pinv WM_PLS (Z.of_nat a) own (mk n p X) (mk n 1 (fun i _ => y i)) (Some (mk 1 1 (fun _ _ => sd))) = Ok m /\
  nm_X_rotations m = mk p a (fun j k => if (k <? h)%nat then s k * (sqrt (G k) * d k j) else 0) /\
  nm_coef m = mk p 1 (fun j _ => B h j * sd) /\
  nm_X_scores m = mk n a (fun i k => if (k <? h)%nat then s k * t k i else 0).
Proof.
  intros HI0 HIS HIa. unfold nipals_fit. cbn [nr nc mk]. fold (mk n p X). fold (mk n 1 (fun i _ : nat => y i)). unfold zn. rewrite !zeros_mk by (assumption || lia). rewrite Nat2Z.id.
  match goal with |- context [for_range a _ ?i] => set (init := i) end.
  destruct (for_range_inv Inv (nipals_step lstsq WM_PLS own) a init) as (st & Est & Hst).
  { replace init with (st_at false 0 (yl 0) (fun _ _ => 0) (fun _ _ => 0)); [exact HI0|].
    unfold init, st_at. apply f_equal2; [apply f_equal2; [reflexivity|apply f_equal2; [reflexivity|]]|reflexivity]. apply mk_ext. intros. rewrite yl_sum, sumR_0. ring. }
  { intros. now apply HIS. }
  destruct (HIa st Hst) as (stop & h & yr & ys & yw & -> & Hh & Hnb & Hneg & Hfin). clear Hst.
  rewrite Est, bind_Ok. clear Est init. unfold st_at.
  assert (Hs : forall l, (l < h)%nat -> 0 < s l).
  { intros l Hl. apply s_pos; [lia|]. destruct (Rle_or_lt (lit 1 10) (Ys l)); [assumption|]. exfalso. apply (Hneg l Hl). now left. }
  rewrite transpose_mk, mul_mk, bind_Ok.
  set (A := fun i k => sumn p (fun l => nmul (if (i <? h)%nat then q i l / s i else 0) (if (k <? h)%nat then s k * w k l else 0))).
  assert (HA : forall i k, A i k = if ((i <? h) && (k <? h))%nat%bool then s k / s i * sumn p (fun l => q i l * w k l) else 0).
  { intros i k. unfold A. destruct (Nat.ltb_spec i h) as [Hi|Hi], (Nat.ltb_spec k h) as [Hk|Hk]; cbn [andb]; try (apply sumR_zero; intros; cbn [nmul NumR]; ring).
    rewrite <- sumR_scal. apply sumn_ext. intros. cbn [nmul NumR]. unfold Rdiv. ring. }
  destruct (Hpinv (mk a a A) (mk_wf _ _ _)) as (C & EC & WC & RC & CC & H1 & H3). cbn [nr nc mk] in RC, CC, H1, H3. fold (mk a a A) in H1, H3.
  rewrite EC, bind_Ok. rewrite (wf_mk C WC), RC, CC, mul_mk, bind_Ok. change (1 <? nc (mk n 1 (fun i _ : nat => yr i)))%nat with false. cbv iota.
  rewrite (filled_mk 1 1 n1 : filled 1 1 n1 = _), bind_Ok, bind_Ok, transpose_mk, mul_mk, bind_Ok.
  set (c := entry C) in *.
  (* facts about the deflation *)
  assert (Hone : forall k, (k < h)%nat -> sumn p (fun j => q k j * w k j) = 1) by (intros; apply (q_self n p h E w t q (Ht n p h X y) (Hq n p h X y) (Htau n p h X y Hnb)); auto).
  assert (Hlow : forall k m, (k < m)%nat -> (m < h)%nat -> sumn p (fun j => q m j * w k j) = 0) by (intros; apply (q_w_below n p h E w t q (Ht n p h X y) (Hq n p h X y) (HE n p h X y) (Htau n p h X y Hnb)); auto).
  assert (H1' : forall i j, (i < a)%nat -> (j < a)%nat -> sumn a (fun k => A i k * sumn a (fun l => c k l * A l j)) = A i j).
  { intros i j Hi Hj. transitivity (entry (mk a a A) i j); [|now apply entry_mk]. rewrite <- H1 by assumption. rewrite Rsum_sumn. apply sumn_ext. intros k Hk. rewrite entry_mk by assumption. f_equal.
    rewrite Rsum_sumn. apply sumn_ext. intros l Hl. now rewrite entry_mk. }
  assert (H3' : forall i j, (i < a)%nat -> (j < a)%nat -> sumn a (fun k => A i k * c k j) = sumn a (fun k => A j k * c k i)).
  { intros i j Hi Hj. pose proof (H3 i j Hi Hj) as Q. rewrite !Rsum_sumn in Q. rewrite (sumn_ext a _ (fun k => A i k * c k j)) in Q by (intros; now rewrite entry_mk). rewrite Q. apply sumn_ext. intros. now rewrite entry_mk. }
  (* A c = identity on the first h rows and columns *)
  assert (Hz : forall i k, (h <= i)%nat -> A i k = 0). { intros i k Hi. rewrite HA. destruct (Nat.ltb_spec i h); [lia|reflexivity]. }
  assert (HAc0 : forall i j, (i < a)%nat -> (j < a)%nat -> (h <= j)%nat -> sumn a (fun k => A i k * c k j) = 0).
  { intros i j Hi Hj Hhj. rewrite H3' by assumption. apply sumR_zero. intros k Hk. rewrite Hz by assumption. ring. }
  assert (HAc : forall i j, (i < h)%nat -> (j < h)%nat -> sumn a (fun k => A i k * c k j) = if (i =? j)%nat then 1 else 0).
  { set (D := fun i j => sumn a (fun k => A i k * c k j) - if (i =? j)%nat then 1 else 0).
    assert (HD : forall i j, (i < h)%nat -> (j < a)%nat -> sumn h (fun l => D i l * A l j) = 0).
    { intros i j Hi Hj. unfold D. rewrite (sumn_ext h _ (fun l => sumn a (fun k => A i k * c k l) * A l j - (if (i =? l)%nat then 1 else 0) * A l j)) by (intros; ring). rewrite sumR_minus.
      rewrite (sumR_single h i (fun l => (if (i =? l)%nat then 1 else 0) * A l j)); [|assumption|intros l Hl Hne; destruct (Nat.eqb_spec i l); [lia|ring]]. rewrite Nat.eqb_refl.
      rewrite <- (H1' i j) by lia. rewrite Rmult_1_l.
      transitivity (sumn a (fun l => sumn a (fun k => A i k * c k l) * A l j) - sumn a (fun k => A i k * sumn a (fun l => c k l * A l j))).
      - f_equal. symmetry. apply sum_cut; [assumption|]. intros l Hl _. rewrite Hz by lia. ring.
      - rewrite (sumn_ext a _ (fun l => sumn a (fun k => A i k * (c k l * A l j)))) by (intros; rewrite <- sumR_scal_r; apply sumn_ext; intros; ring).
        rewrite sumR_swap. rewrite (sumn_ext a _ (fun k => A i k * sumn a (fun l => c k l * A l j))) by (intros; now rewrite sumR_scal). ring. }
    assert (HDz : forall i j, (i < h)%nat -> (j < h)%nat -> D i j = 0).
    { intros i j Hi. induction j as [j IH] using lt_wf_ind. intros Hj.
      specialize (HD i j Hi ltac:(lia)). rewrite (sumR_single h j) in HD.
      - rewrite HA in HD. rewrite (proj2 (Nat.ltb_lt j h) Hj) in HD. cbn [andb] in HD. rewrite Hone in HD by assumption. pose proof (Hs j Hj). replace (D i j * (s j / s j * 1)) with (D i j) in HD by (field; lra). exact HD.
      - assumption.
      - intros l Hl Hne. destruct (Nat.lt_ge_cases l j) as [Hlt|Hge]; [rewrite IH by assumption; ring|]. rewrite HA. rewrite (proj2 (Nat.ltb_lt l h) Hl), (proj2 (Nat.ltb_lt j h) Hj). cbn [andb]. rewrite (Hlow j l) by lia. ring. }
    intros i j Hi Hj. specialize (HDz i j Hi Hj). unfold D in HDz. lra. }
  (* the rotations *)
  set (r := fun (j k : nat) => sumn a (fun l => nmul (if (l <? h)%nat then s l * w l j else 0) (c l k))).
  assert (Hr : forall j k, r j k = sumn h (fun l => s l * w l j * c l k)).
  { intros j k. unfold r. rewrite (sum_cut h a).
    - apply sumn_ext. intros l Hl. rewrite (proj2 (Nat.ltb_lt l h) Hl). reflexivity.
    - assumption.
    - intros l Hl _. destruct (Nat.ltb_spec l h); [lia|]. cbn [nmul NumR]. ring. }
  assert (Hqr : forall i k, (i < h)%nat -> (k < a)%nat -> sumn p (fun j => q i j * r j k) = if (i =? k)%nat then s k else 0).
  { intros i k Hi Hk. rewrite (sumn_ext p _ (fun j => sumn h (fun l => s l * c l k * (q i j * w l j)))) by (intros; rewrite Hr, <- sumR_scal; apply sumn_ext; intros; ring).
    rewrite sumR_swap. transitivity (s i * sumn a (fun l => A i l * c l k)).
    - rewrite <- sumR_scal. rewrite (sum_cut h a).
      + apply sumn_ext. intros l Hl. rewrite sumR_scal, HA. rewrite (proj2 (Nat.ltb_lt l h) Hl), (proj2 (Nat.ltb_lt i h) Hi). cbn [andb]. pose proof (Hs i Hi). field. lra.
      + assumption.
      + intros l Hl _. rewrite HA. destruct (Nat.ltb_spec l h); [lia|]. rewrite andb_false_r. ring.
    - destruct (Nat.lt_ge_cases k h) as [Hkh|Hkh].
      + rewrite HAc by assumption. destruct (Nat.eqb_spec i k); [subst|]; ring.
      + rewrite HAc0 by lia. destruct (Nat.eqb_spec i k); [lia|ring]. }
  assert (Hspan : forall j k, (j < p)%nat -> r j k = sumn h (fun l => s l * c l k / sqrt (G l) * g l j)).
  { intros j k Hj. rewrite Hr. apply sumn_ext. intros l Hl. rewrite (w_g n p X y l j : w l j = g l j / sqrt (G l)). unfold Rdiv. ring. }
  assert (Er : mk p a r = mk p a (fun j k => if (k <? h)%nat then s k * (sqrt (G k) * d k j) else 0)).
  { apply mk_ext. intros j k Hj Hk. destruct (Nat.ltb_spec k h) as [Hkh|Hkh].
    - apply (dir_unique n p h X y Hnb k (fun l => s l * c l k / sqrt (G l)) (fun j => r j k) (s k) Hkh); [intros; now apply Hspan|intros; now apply Hqr|assumption].
    - apply (span_zero n p h X y Hnb (fun l => s l * c l k / sqrt (G l)) (fun j => r j k)); [intros; now apply Hspan| |assumption]. intros i Hi. transitivity (if (i =? k)%nat then s k else 0); [now apply Hqr|]. destruct (Nat.eqb_spec i k); [lia|reflexivity]. }
  assert (Ec : mk p 1 (fun i j : nat => sumn a (fun k => nmul (r i k) (if (k <? h)%nat then sqrt (G k) / (s k * tt k) else 0))) = mk p 1 (fun j _ => B h j)).
  { apply mk_ext. intros j j0 Hj Hj0. unfold B, beta. rewrite (sum_cut h a).
    - apply sumn_ext. intros k Hk. rewrite (proj2 (Nat.ltb_lt k h) Hk). cbn [nmul NumR].
      pose proof (mk_inj_entry _ _ _ _ Er j k Hj ltac:(lia)) as Q. rewrite Q, (proj2 (Nat.ltb_lt k h) Hk). fold d G tt. rewrite <- (rt_rt n p X y k : sqrt (G k) * sqrt (G k) = G k) at 3.
      pose proof (Hs k Hk). pose proof (tau_pos n p h X y Hnb k Hk) as Q2. fold tt in Q2. field. lra.
    - assumption.
    - intros k Hk _. destruct (Nat.ltb_spec k h); [lia|]. cbn [nmul NumR]. ring. }
  change (mk p 1 (fun i j : nat => sumn a (fun k => nmul (sumn a (fun k0 => nmul (if (k0 <? h)%nat then s k0 * w k0 i else 0) (c k0 k))) (if (k <? h)%nat then sqrt (G k) / (s k * tt k) else 0))))
    with (mk p 1 (fun i j : nat => sumn a (fun k => nmul (r i k) (if (k <? h)%nat then sqrt (G k) / (s k * tt k) else 0)))).
  rewrite Ec, scale_one, bind_Ok.
  exists h. eexists. split; [assumption|]. split; [assumption|]. split; [assumption|]. split; [assumption|]. split; [reflexivity|].
  cbn [nm_X_rotations nm_coef nm_X_scores]. split; [exact Er|]. split; reflexivity.
Qed.
(** The two deflation modes *)
Definition final (h : nat) : Prop := match ni_deflation own with REGRESSION => (h < a)%nat -> negligible h | CANONICAL => h = 1%nat \/ (h = 0%nat /\ negligible 0) end.
Lemma fit_both sd : (ni_deflation own = CANONICAL -> ni_norm_Y_weights own = false) ->
  exists h m, (h <= a)%nat /\ no_breakdown n p X y h /\ (forall l, (l < h)%nat -> ~ negligible l) /\ final h /\
  nipals_fit lstsq pinv WM_PLS (Z.of_nat a) own (mk n p X) (mk n 1 (fun i _ => y i)) (Some (mk 1 1 (fun _ _ => sd))) = Ok m /\
  nm_X_rotations m = mk p a (fun j k => if (k <? h)%nat then s k * (sqrt (G k) * d k j) else 0) /\
  nm_coef m = mk p 1 (fun j _ => B h j * sd) /\
  nm_X_scores m = mk n a (fun i k => if (k <? h)%nat then s k * t k i else 0).
Proof.
  intros Hcan. assert (Hnb0 : no_breakdown n p X y 0) by (intros k Hk; lia).
  destruct (ni_deflation own) eqn:Hdef.
  - apply (fit_run sd reached1).
    + exists false, 0%nat, (yl 0), (fun _ _ => 0), (fun _ _ => 0). split; [reflexivity|]. split; [assumption|]. left. auto.
    + intros k st Hk Hst. apply step_run1; auto.
    + intros st (stop & h & yr & ys & yw & -> & Hnb & Hor). exists stop, h, yr, ys, yw. split; [reflexivity|]. unfold final. rewrite Hdef.
      destruct Hor as [(-> & -> & Hs)|(-> & -> & Hne)].
      * split; [lia|]. split; [assumption|]. split; [intros; lia|]. right. split; [reflexivity|]. destruct stop; [assumption|lia].
      * split; [lia|]. split; [assumption|]. split; [intros l Hl; now replace l with 0%nat by lia|]. now left.
  - apply (fit_run sd reached).
    + exists false, 0%nat, (fun _ _ => 0), (fun _ _ => 0). split; [reflexivity|]. split; [lia|]. split; [assumption|]. split; [intros; lia|reflexivity].
    + intros k st Hk Hst. now apply step_run.
    + intros st (stop & h & ys & yw & -> & Hh & Hnb & Hneg & Hs). exists stop, h, (yl h), ys, yw. split; [reflexivity|]. unfold final. rewrite Hdef. split; [assumption|]. split; [assumption|]. split; [assumption|].
      destruct stop; [tauto|intros; lia].
Qed.
End Run.

(** * C70 *)
(** A matrix standardised with the statistics of X. *)
Definition standardised_by (X Z : mat R) (i j : nat) : R :=
  (entry Z i j - Rmean (nr X) (fun k => entry X k j)) / sqrt (Rvar (nr X) (fun k => entry X k j)).
Lemma standardize_new (X : mat R) : wf X -> nc X <> 0%nat -> preparable PP_STANDARDIZE X ->
  t_transform standardize (t_new standardize) X = (std_conf X, Ok (mk (nr X) (nc X) (prepared PP_STANDARDIZE X))).
Proof.
  intros W Hc [Hr Hn]. unfold t_transform. cbn [t_configured t_new standardize st_configured negb]. rewrite standardize_configure by assumption. rewrite standardize_do, Nat.eqb_refl.
  apply f_equal2; [reflexivity|]. apply (f_equal Ok). apply mk_ext. intros i j Hi Hj. cbn [prepared nsub ndiv NumR]. rewrite Rmean_np. destruct (sd_used_R X j Hr) as [A _]. destruct (A (Hn j Hj)) as [-> _]. reflexivity.
Qed.
Lemma standardize_again (X Z : mat R) : nc Z = nc X -> preparable PP_STANDARDIZE X ->
  t_transform standardize (std_conf X) Z = (std_conf X, Ok (mk (nr Z) (nc X) (standardised_by X Z))).
Proof.
  intros Hc [Hr Hn]. unfold t_transform. cbn [t_configured standardize st_configured std_conf negb]. rewrite standardize_do, Hc, Nat.eqb_refl. apply f_equal2; [reflexivity|]. apply (f_equal Ok). apply mk_ext. intros i j Hi Hj.
  cbn [nsub ndiv NumR]. unfold standardised_by. rewrite Rmean_np. destruct (sd_used_R X j Hr) as [A _]. destruct (A (Hn j Hj)) as [-> _]. reflexivity.
Qed.

(** NIPALS on one response: there is a number h <= a of components it really uses - with regression
    deflation all of them unless what is left becomes negligible, with canonical deflation never more
    than one - and from then on it is PLS1 with h components on standardised data: same predictions,
    scores shortened by the factor [shrink]. *)
Theorem C70_nipals lstsq lstsq' pinv (s0 : pls_st (nipals_st R) R) (X Y : mat R) (a : nat) :
  let n := nr X in let p := nc X in let x := prepared PP_STANDARDIZE X in let y := fun i => prepared PP_STANDARDIZE Y i 0 in
  ls_inverse pinv -> p_preprocessing s0 = PP_NONE -> p_num_components s0 = Z.of_nat a -> (ni_deflation (p_own s0) = CANONICAL -> ni_norm_Y_weights (p_own s0) = false) ->
  wf X -> wf Y -> p <> 0%nat -> nr Y = n -> nc Y = 1%nat -> a <> 0%nat -> preparable PP_STANDARDIZE X -> preparable PP_STANDARDIZE Y ->
  (forall k, (k < a)%nat -> lit 1 10 <= y_rest n p x y k -> lit 1 16 * (y_rest n p x y k * y_rest n p x y k) <= cov_sq n p x y k) ->
  exists s h, initialize (nipals lstsq pinv) s0 (Some X) (Some Y) = (s, Ok None) /\ (h <= a)%nat /\
    (forall k, (k < h)%nat -> ~ negligible n p x y k) /\ (match ni_deflation (p_own s0) with REGRESSION => (h < a)%nat -> negligible n p x y h | CANONICAL => h = 1%nat \/ (h = 0%nat /\ negligible n p x y 0) end) /\
    forall Z, wf Z -> nc Z = p -> nr Z <> 0%nat ->
      (h = 0%nat -> snd (predict (nipals lstsq pinv) s Z) = Ok (mk (nr Z) 1 (fun _ _ => Rmean n (fun k => entry Y k 0)))) /\
      (h <> 0%nat -> forall s1 : pls_st (pls1_st R) R, p_preprocessing s1 = PP_STANDARDIZE -> p_num_components s1 = Z.of_nat h ->
         exists s', initialize (pls1 lstsq') s1 (Some X) (Some Y) = (s', Ok None) /\
           (exists V, snd (predict (nipals lstsq pinv) s Z) = Ok V /\ snd (predict (pls1 lstsq') s' (mk (nr Z) p (standardised_by X Z))) = Ok V) /\
           (exists T S, snd (transform (nipals lstsq pinv) s Z) = Ok T /\ snd (transform (pls1 lstsq') s' (mk (nr Z) p (standardised_by X Z))) = Ok S /\
              is_mat T (nr Z) a (fun i k => if (k <? h)%nat then shrink n p x y k * entry S i k else 0))).
Proof.
  intros n p x y Hpinv Hpp Hnc Hdef WX WY Hp RY CY Ha PX PY Hstrong.
  assert (Hn : n <> 0%nat) by (destruct PX; unfold n; lia).
  set (own0 := Nipals (ni_tol (p_own s0)) (ni_max_iter (p_own s0)) (ni_norm_Y_weights (p_own s0)) (ni_deflation (p_own s0)) (std_conf X) (std_conf Y) (@None (nipals_model R))).
  destruct (fit_both lstsq pinv n p a x y Hn Hp Ha Hstrong own0 Hpinv (sqrt (Rvar n (fun k => entry Y k 0%nat))) Hdef) as (h & m & Hh & Hnb & Hneg & Hlast & Ef & Erot & Eco & _).
  set (own := Nipals (ni_tol (p_own s0)) (ni_max_iter (p_own s0)) (ni_norm_Y_weights (p_own s0)) (ni_deflation (p_own s0)) (std_conf X) (std_conf Y) (Some m)).
  assert (Etr : c_train (nipals lstsq pinv) (p_num_components s0) (c_reset (nipals lstsq pinv) (p_own s0)) X Y = (own, Ok None)).
  { cbn [nipals nipals_class c_train c_reset]. unfold nipals_train. cbn [ni_standardize_X]. rewrite standardize_new by assumption.
    cbn [ni_standardize_Y ni_tol ni_max_iter ni_norm_Y_weights ni_deflation ni_standardize_X ni_model]. rewrite standardize_new by (assumption || lia). cbn [ni_standardize_Y ni_tol ni_max_iter ni_norm_Y_weights ni_deflation ni_standardize_X ni_model].
    rewrite Hnc. fold own0.
    assert (EY : mk (nr Y) (nc Y) (prepared PP_STANDARDIZE Y) = mk n 1 (fun i _ => y i)). { rewrite RY, CY. apply mk_ext. intros i j Hi Hj. assert (j = 0%nat) by lia. now subst. }
    assert (Esd : st_devs (std_conf Y) = Some (mk 1 1 (fun _ _ => sqrt (Rvar n (fun k => entry Y k 0%nat))))).
    { cbn [std_conf st_devs]. rewrite CY. f_equal. apply mk_ext. intros i j Hi Hj. assert (j = 0%nat) by lia. subst. destruct PY as [P1 P2]. destruct (sd_used_R Y 0 P1) as [A _]. destruct (A (P2 0%nat ltac:(lia))) as [-> _]. now rewrite RY. }
    rewrite EY. change (ni_standardize_Y own0) with (std_conf Y). rewrite Esd.
    match goal with |- context [nipals_fit lstsq pinv WM_PLS ?u ?v ?X1 ?Y1 ?sd1] => replace (nipals_fit lstsq pinv WM_PLS u v X1 Y1 sd1) with (Ok m) by (symmetry; exact Ef) end. reflexivity. }
  destruct (multi_training_none (nipals lstsq pinv) s0 X Y own 1) as (s & Ei & _ & _ & Et & Epr); auto; [lia|lia|].
  exists s, h. split; [exact Ei|]. split; [exact Hh|]. split; [exact Hneg|]. split; [exact Hlast|].
  intros Z WZ CZ RZ.
  assert (EP : snd (predict (nipals lstsq pinv) s Z) = Ok (mk (nr Z) 1 (fun i _ => sumn p (fun j => standardised_by X Z i j * beta n p x y h j) * sqrt (Rvar n (fun k => entry Y k 0%nat)) + Rmean n (fun k => entry Y k 0)))).
  { rewrite Epr. cbn [nipals nipals_class c_predict]. unfold nipals_predict, nipals_apply. cbn [own ni_standardize_X]. rewrite (standardize_again X Z CZ PX). cbn [snd bind own ni_standardize_Y ni_model need]. rewrite Eco.
    fold p. rewrite mul_mk. cbn [bind ni_standardize_Y std_conf st_means need]. unfold add_by_vector, vector_op, copy. rewrite vector_opm_row by (cbn [nr nc mk column_means]; congruence).
    cbn [nr nc mk]. apply (f_equal Ok). apply mk_ext. intros i j Hi Hj. assert (j = 0%nat) by lia. subst j. fold (mk (nr Z) 1 (fun i _ => sumn p (fun k => nmul (standardised_by X Z i k) (beta n p x y h k * sqrt (Rvar n (fun k0 => entry Y k0 0%nat)))))). rewrite entry_mk by lia. unfold column_means.
    rewrite entry_mk by lia. cbn [nadd nmul NumR]. rewrite Rmean_np, RY. f_equal. rewrite <- sumR_scal_r. apply sumn_ext. intros; ring. }
  split.
  - intros ->. rewrite EP. apply (f_equal Ok). apply mk_ext. intros i j Hi Hj. rewrite sumR_zero; [ring|]. intros k Hk. unfold beta. rewrite sumR_0. ring.
  - intros Hh0 s1 Hpp1 Hnc1.
    destruct (pls1_run lstsq' n p h x y Hn Hp Hh0 Hnb (c_reset (pls1 lstsq') (p_own s1))) as (own' & Etr' & Hnew).
    destruct (single_training (pls1 lstsq') s1 X Y own' PP_STANDARDIZE) as (s' & Ei' & _ & Et' & Epr'); auto; [now rewrite Hnc1|]. rewrite Hnc1 in Et', Epr'.
    exists s'. split; [exact Ei'|]. destruct (Hnew (nr Z) (standardised_by X Z) RZ) as [T1 T2]. split.
    + eexists. split; [exact EP|]. rewrite (Epr' _ _ T2 (mk_wf _ _ _) eq_refl). cbn [nr mk]. apply (f_equal Ok). apply mk_ext. intros i j Hi Hj. rewrite entry_mk by (assumption || lia). cbn [own_sd back_mean]. unfold own_mean. rewrite RY. fold n. f_equal. f_equal.
      unfold beta. rewrite (sumn_ext p _ (fun j => sumn h (fun k => standardised_by X Z i j * dir n p x y k j * (gsq n p x y k / tau n p x y k)))) by (intros; rewrite <- sumR_scal; apply sumn_ext; intros; ring).
      rewrite sumR_swap. apply sumn_ext. intros k Hk. now rewrite sumR_scal_r.
    + eexists. eexists. rewrite Et, Et'. cbn [pls1 c_transform snd]. rewrite T1. split; [|split; [reflexivity|]].
      * cbn [nipals nipals_class c_transform]. unfold nipals_transform, nipals_apply. cbn [own ni_standardize_X]. rewrite (standardize_again X Z CZ PX). cbn [snd bind own ni_standardize_Y ni_model need]. rewrite Erot. fold p. rewrite mul_mk. reflexivity.
      * apply is_mat_mk_ext. intros i k Hi Hk. destruct (Nat.ltb_spec k h) as [Hkh|Hkh].
        -- rewrite entry_mk by assumption. rewrite <- !sumR_scal. apply sumn_ext. intros j Hj. cbn [nmul NumR]. ring.
        -- apply sumR_zero. intros j Hj. cbn [nmul NumR]. ring.
Qed.
Print Assumptions C70_nipals.
(** Two orthogonal predictors and a response in their span: with two components requested NIPALS
    stops after at most one. *)
Definition exX : mat R := Mat 4 2 [[1;1];[1;-1];[-1;1];[-1;-1]].
Definition exY : mat R := Mat 4 1 [[3];[1];[-1];[-3]].
Lemma ex_prep : preparable PP_STANDARDIZE exX /\ preparable PP_STANDARDIZE exY.
Proof.
  split; (split; [cbn; lia|]); intros j Hj Hc; cbn in Hj.
  - destruct j as [|[|]]; [specialize (Hc 0%nat 2%nat)|specialize (Hc 0%nat 1%nat)|lia]; cbn in Hc; specialize (Hc ltac:(lia) ltac:(lia)); lra.
  - destruct j as [|]; [specialize (Hc 0%nat 2%nat)|lia]; cbn in Hc; specialize (Hc ltac:(lia) ltac:(lia)); lra.
Qed.
Example C70_ex : exists s h, initialize (nipals (fun _ _ => Err LinAlgError) pinv_R) (PlsSt 2 PP_NONE false [] [] None None (c_new (nipals (fun _ _ => Err LinAlgError) pinv_R))) (Some exX) (Some exY) = (s, Ok None) /\ (h <= 1)%nat /\
  (h = 1%nat -> exists s' V, initialize (pls1 (fun _ _ => Err LinAlgError)) (PlsSt 1 PP_STANDARDIZE false [] [] None None (c_new (pls1 (fun _ _ => Err LinAlgError)))) (Some exX) (Some exY) = (s', Ok None) /\
     snd (predict (nipals (fun _ _ => Err LinAlgError) pinv_R) s (Mat 1 2 [[5;7]])) = Ok V /\
     snd (predict (pls1 (fun _ _ => Err LinAlgError)) s' (mk 1 2 (standardised_by exX (Mat 1 2 [[5;7]])))) = Ok V).
Proof.
  set (x := prepared PP_STANDARDIZE exX). set (y := fun i => prepared PP_STANDARDIZE exY i 0).
  assert (V0 : Rvar 4 (fun k => entry exX k 0) = 4/3) by (unfold Rvar, Rmean, Rsum; cbn; field).
  assert (V1 : Rvar 4 (fun k => entry exX k 1) = 4/3) by (unfold Rvar, Rmean, Rsum; cbn; field).
  assert (V2 : Rvar 4 (fun k => entry exY k 0) = 20/3) by (unfold Rvar, Rmean, Rsum; cbn; field).
  assert (M0 : Rmean 4 (fun k => entry exX k 0) = 0) by (unfold Rmean, Rsum; cbn; field).
  assert (M1 : Rmean 4 (fun k => entry exX k 1) = 0) by (unfold Rmean, Rsum; cbn; field).
  assert (M2 : Rmean 4 (fun k => entry exY k 0) = 0) by (unfold Rmean, Rsum; cbn; field).
  set (u := / sqrt (4/3)). set (v := / sqrt (20/3)).
  assert (Hu : u * u = 3/4). { unfold u. rewrite <- Rinv_mult, sqrt_sqrt by lra. field. }
  assert (Hv : v * v = 3/20). { unfold v. rewrite <- Rinv_mult, sqrt_sqrt by lra. field. }
  assert (Hu0 : 0 < u) by (apply Rinv_0_lt_compat, sqrt_lt_R0; lra). assert (Hv0 : 0 < v) by (apply Rinv_0_lt_compat, sqrt_lt_R0; lra).
  assert (X0 : forall i, x i 0%nat = entry exX i 0 * u). { intros i. unfold x. cbn [prepared]. change (nr exX) with 4%nat. rewrite V0, M0. unfold u. field. apply Rgt_not_eq, sqrt_lt_R0. lra. }
  assert (X1 : forall i, x i 1%nat = entry exX i 1 * u). { intros i. unfold x. cbn [prepared]. change (nr exX) with 4%nat. rewrite V1, M1. unfold u. field. apply Rgt_not_eq, sqrt_lt_R0. lra. }
  assert (Y0 : forall i, y i = entry exY i 0 * v). { intros i. unfold y. cbn [prepared]. change (nr exY) with 4%nat. rewrite V2, M2. unfold v. field. apply Rgt_not_eq, sqrt_lt_R0. lra. }
  (* component 0 *)
  assert (C0 : cov 4 x y 0 = 8 * u * v). { unfold cov. rewrite Rsum_sumn, !sumR_S, sumR_0, !X0, !Y0. cbn. ring. }
  assert (C1 : cov 4 x y 1 = 4 * u * v). { unfold cov. rewrite Rsum_sumn, !sumR_S, sumR_0, !X1, !Y0. cbn. ring. }
  assert (CS : cov_sq 4 2 x y 0 = 9). { unfold cov_sq. cbn [residual]. rewrite Rsum_sumn, !sumR_S, sumR_0, C0, C1. replace (0 + 8 * u * v * (8 * u * v) + 4 * u * v * (4 * u * v)) with (80 * (u * u) * (v * v)) by ring. rewrite Hu, Hv. field. }
  assert (W : forall j, unit_cov 4 2 x y j = cov 4 x y j / 3). { intros j. unfold unit_cov. change (Rsum 2 (fun l => cov 4 x y l * cov 4 x y l)) with (cov_sq 4 2 x y 0). rewrite CS. f_equal. replace 9 with (3 * 3) by ring. apply sqrt_square. lra. }
  assert (T0 : forall i, (i < 4)%nat -> scores_of 2 x (unit_cov 4 2 x y) i = y i).
  { intros i Hi. unfold scores_of. rewrite Rsum_sumn, !sumR_S, sumR_0, !W, C0, C1, X0, X1, Y0. replace (0 + entry exX i 0 * u * (8 * u * v / 3) + entry exX i 1 * u * (4 * u * v / 3)) with ((8 * entry exX i 0 + 4 * entry exX i 1) * (u * u) * v / 3) by field.
    rewrite Hu. destruct i as [|[|[|[|]]]]; try lia; cbn; field. }
  assert (R0 : y_rest 4 2 x y 0 = 3).
  { unfold y_rest. rewrite (Rsum_ext 4 _ (fun i => y i * y i)). - rewrite Rsum_sumn, !sumR_S, sumR_0, !Y0. cbn [entry exY rws nth]. transitivity (20 * (v * v)); [ring|]. rewrite Hv. field.
    - intros i Hi. unfold y_left. replace (Rsum 0 _) with 0 by reflexivity. ring. }
  assert (R1 : y_rest 4 2 x y 1 = 0).
  { unfold y_rest. rewrite Rsum_sumn. apply sumR_zero. intros i Hi. assert (Z : y_left 4 2 x y 1 i = 0); [|rewrite Z; ring]. unfold y_left. rewrite Rsum_sumn, sumR_S, sumR_0. cbv zeta. cbn [residual].
    rewrite T0 by assumption. rewrite (Rsum_ext 4 (fun m => scores_of 2 x (unit_cov 4 2 x y) m * y m) (fun m => y m * y m)) by (intros; now rewrite T0).
    rewrite (Rsum_ext 4 (fun m => scores_of 2 x (unit_cov 4 2 x y) m * scores_of 2 x (unit_cov 4 2 x y) m) (fun m => y m * y m)) by (intros; now rewrite !T0).
    assert (Q : Rsum 4 (fun m => y m * y m) = 3). { rewrite <- R0. unfold y_rest. apply Rsum_ext. intros m Hm. unfold y_left. replace (Rsum 0 _) with 0 by reflexivity. ring. }
    rewrite Q. field. }
  destruct ex_prep as [PX PY].
  destruct (C70_nipals (fun _ _ => Err LinAlgError) (fun _ _ => Err LinAlgError) pinv_R (PlsSt 2 PP_NONE false [] [] None None (c_new (nipals (fun _ _ => Err LinAlgError) pinv_R))) exX exY 2) as (s & h & Ei & Hh & Hneg & _ & HZ);
    try (exact pinv_R_ls || exact PX || exact PY || reflexivity || (cbn; lia) || discriminate).
  - split; [reflexivity|repeat constructor].
  - split; [reflexivity|repeat constructor].
  - intros k Hk. fold x y. change (nr exX) with 4%nat. change (nc exX) with 2%nat. destruct k as [|[|]]; [| |lia].
    + intros _. rewrite R0, CS. unfold lit. cbn [ndiv nofZ NumR]. change (10 ^ 16)%Z with 10000000000000000%Z. lra.
    + rewrite R1. pose proof (lit_pos 10 ltac:(lia)). lra.
  - exists s, h. split; [exact Ei|].
    assert (Hh1 : (h <= 1)%nat).
    { destruct (Nat.le_gt_cases h 1) as [|Hgt]; [assumption|]. exfalso. apply (Hneg 1%nat ltac:(lia)). left. fold x y. change (nr exX) with 4%nat. change (nc exX) with 2%nat. rewrite R1. apply lit_pos. lia. }
    split; [assumption|]. intros ->.
    destruct (HZ (Mat 1 2 [[5;7]])) as [_ H1]; [split; [reflexivity|repeat constructor]|reflexivity|cbn; lia|].
    destruct (H1 ltac:(lia) (PlsSt 1 PP_STANDARDIZE false [] [] None None (c_new (pls1 (fun _ _ => Err LinAlgError)))) eq_refl eq_refl) as (s' & Ei' & (V & P1 & P2) & _).
    exists s', V. split; [exact Ei'|]. split; [exact P1|exact P2].
Qed.
