(** C87: the L1 median of PRM's leverage weights. *)
From Coq Require Import List ZArith Lia Bool Arith Reals Lra.
From Verif Require Import Base Num Mat M_Matrix M_Factory M_Helper M_Loop M_Transform M_PLSBase M_PLS M_PLS2
  S_Matrix L_Base L_Mat L_MatR L_Matrix L_Alg L_PRM.
Import ListNotations.
Local Open Scope R_scope.

(** Sum of the distances of all rows from g *)
Definition spread (n q : nat) (X : nat -> nat -> R) (g : nat -> R) : R := Rsum n (fun i => dist q X g i).
Definition len (q : nat) (v : nat -> R) : R := sqrt (Rsum q (fun j => v j * v j)).
Lemma dot_len q (u v : nat -> R) : Rsum q (fun j => u j * v j) <= len q u * len q v.
Proof.
  pose proof (cauchy_schwarz 1 q (fun _ => u) (fun _ => v)) as Q. unfold sumsq in Q. rewrite !sum1 in Q. rewrite <- !Rsum_sumn in Q.
  assert (P1 : 0 <= Rsum q (fun j => u j * u j)) by (rewrite Rsum_sumn; apply sumR_nonneg; intros; nra). assert (P2 : 0 <= Rsum q (fun j => v j * v j)) by (rewrite Rsum_sumn; apply sumR_nonneg; intros; nra).
  unfold len. rewrite <- sqrt_mult by assumption. set (s := Rsum q (fun j => u j * v j)) in *. apply Rle_trans with (Rabs s); [apply Rle_abs|]. rewrite <- sqrt_Rsqr_abs. apply sqrt_le_1_alt. unfold Rsqr. exact Q.
Qed.
Lemma dist_sqr q X g i : dist q X g i * dist q X g i = Rsum q (fun j => (X i j - g j) * (X i j - g j)).
Proof. unfold dist. apply sqrt_sqrt. rewrite Rsum_sumn. apply sumR_nonneg. intros. apply Rle_0_sqr. Qed.
Section Step.
Variables (n q : nat) (X : nat -> nat -> R) (g : nat -> R).
Hypothesis Hn : n <> 0%nat.
Hypothesis far : forall i, (i < n)%nat -> / 10 ^ 10 <= dist q X g i.
Let w i := guarded (dist q X g i).
Let W := Rsum n w.
Lemma far_w i : (i < n)%nat -> w i = / dist q X g i /\ 0 < dist q X g i.
Proof.
  intros Hi. pose proof (far i Hi) as F. unfold w, guarded. assert (0 < / 10 ^ 10) by (apply Rinv_0_lt_compat; lra). destruct (Rlt_dec (dist q X g i) (/ 10 ^ 10)); [lra|]. split; [reflexivity|lra].
Qed.
Lemma W_pos : 0 < W.
Proof.
  unfold W. rewrite Rsum_sumn. destruct n as [|m]; [contradiction|]. rewrite sumR_S. pose proof (guarded_pos (dist q X g m) (dist_pos _ _ _ _)) as P1. assert (P2 : 0 <= sumn m w) by (apply sumR_nonneg; intros; apply Rlt_le, guarded_pos, dist_pos). unfold w at 2. lra.
Qed.
(** The weighted mean has the least weighted squared distance *)
Lemma weighted_mean j : let m := weiszfeld n q X g j in
  Rsum n (fun i => w i * ((X i j - m) * (X i j - m))) <= Rsum n (fun i => w i * ((X i j - g j) * (X i j - g j))).
Proof.
  intros m. assert (Em : Rsum n (fun i => X i j * w i) = m * W) by (unfold m; change (weiszfeld n q X g j) with (Rsum n (fun i => X i j * w i) / W); field; pose proof W_pos; lra).
  assert (E : Rsum n (fun i => w i * ((X i j - g j) * (X i j - g j))) = Rsum n (fun i => w i * ((X i j - m) * (X i j - m))) + W * ((m - g j) * (m - g j))).
  { apply Rminus_diag_uniq. rewrite !Rsum_sumn in *.
    transitivity (2 * (m - g j) * (sumn n (fun i => X i j * w i) - m * W)); [|rewrite Em; ring]. unfold W. rewrite Rsum_sumn.
    rewrite <- !sumR_scal, <- !sumR_scal_r, <- sumR_minus. rewrite <- sumR_plus, <- sumR_minus. rewrite <- sumR_scal. apply sumn_ext. intros i Hi. ring. }
  rewrite E. pose proof (Rmult_le_pos _ _ (Rlt_le _ _ W_pos) (Rle_0_sqr (m - g j))) as Q. unfold Rsqr in Q. lra.
Qed.
Lemma descent : spread n q X (weiszfeld n q X g) <= spread n q X g.
Proof.
  set (g' := weiszfeld n q X g). unfold spread.
  assert (A : Rsum n (fun i => w i * (dist q X g' i * dist q X g' i)) <= Rsum n (fun i => w i * (dist q X g i * dist q X g i))).
  { assert (Ex : forall z, Rsum n (fun i => w i * (dist q X z i * dist q X z i)) = Rsum q (fun j => Rsum n (fun i => w i * ((X i j - z j) * (X i j - z j))))).
    { intros z. rewrite !Rsum_sumn. rewrite (sumn_ext n _ (fun i => sumn q (fun j => w i * ((X i j - z j) * (X i j - z j))))) by (intros i Hi; rewrite dist_sqr, Rsum_sumn, sumR_scal; reflexivity).
      rewrite sumR_swap. apply sumn_ext. intros; now rewrite Rsum_sumn. }
    rewrite !Ex. rewrite !Rsum_sumn. apply sumR_le. intros j Hj. apply weighted_mean. }
  assert (B : Rsum n (fun i => w i * (dist q X g i * dist q X g i)) = Rsum n (fun i => dist q X g i)).
  { rewrite !Rsum_sumn. apply sumn_ext. intros i Hi. destruct (far_w i Hi) as (-> & Hp). field. lra. }
  assert (C : 2 * Rsum n (fun i => dist q X g' i) <= Rsum n (fun i => w i * (dist q X g' i * dist q X g' i)) + Rsum n (fun i => dist q X g i)).
  { rewrite !Rsum_sumn, <- sumR_scal, <- sumR_plus. apply sumR_le. intros i Hi. destruct (far_w i Hi) as (-> & Hp). set (d := dist q X g i) in *. set (d' := dist q X g' i).
    apply Rmult_le_reg_r with d; [exact Hp|]. replace ((/ d * (d' * d') + d) * d) with (d' * d' + d * d) by (field; lra). pose proof (Rle_0_sqr (d' - d)) as Q. unfold Rsqr in Q. lra. }
  lra.
Qed.
(** How far from the optimum a point is whose next step is short *)
Lemma near_optimal z : spread n q X g <= spread n q X z + W * len q (fun j => weiszfeld n q X g j - g j) * len q (fun j => g j - z j).
Proof.
  set (g' := weiszfeld n q X g).
  assert (Em : forall j, Rsum n (fun i => w i * (X i j - g j)) = W * (g' j - g j)).
  { intros j. unfold g'. change (weiszfeld n q X g j) with (Rsum n (fun i => X i j * w i) / W). pose proof W_pos as HW. transitivity (Rsum n (fun i => X i j * w i) - W * g j); [|field; lra].
    unfold W. rewrite !Rsum_sumn, <- sumR_scal_r, <- sumR_minus. apply sumn_ext. intros; ring. }
  (* d_i <= |x_i - z| + w_i <x_i - g, z - g> *)
  assert (A : forall i, (i < n)%nat -> dist q X g i <= dist q X z i + w i * Rsum q (fun j => (X i j - g j) * (z j - g j))).
  { intros i Hi. destruct (far_w i Hi) as (-> & Hp). set (d := dist q X g i) in *. apply Rmult_le_reg_l with d; [exact Hp|]. rewrite Rmult_plus_distr_l, <- Rmult_assoc, Rinv_r, Rmult_1_l by lra.
    unfold d at 1 2. rewrite dist_sqr. pose proof (dot_len q (fun j => X i j - g j) (fun j => X i j - z j)) as Q. unfold len in Q. fold (dist q X g i) (dist q X z i) in Q. fold d in Q.
    replace (Rsum q (fun j => (X i j - g j) * (X i j - g j))) with (Rsum q (fun j => (X i j - g j) * (X i j - z j)) + Rsum q (fun j => (X i j - g j) * (z j - g j))); [lra|].
    rewrite !Rsum_sumn, <- sumR_plus. apply sumn_ext. intros; ring. }
  assert (B : spread n q X g <= spread n q X z + Rsum q (fun j => W * (g' j - g j) * (z j - g j))).
  { unfold spread. replace (Rsum q (fun j => W * (g' j - g j) * (z j - g j))) with (Rsum n (fun i => w i * Rsum q (fun j => (X i j - g j) * (z j - g j)))).
    - rewrite !Rsum_sumn, <- sumR_plus. apply sumR_le. exact A.
    - rewrite !Rsum_sumn. rewrite (sumn_ext n _ (fun i => sumn q (fun j => w i * (X i j - g j) * (z j - g j)))) by (intros; rewrite Rsum_sumn, <- sumR_scal; apply sumn_ext; intros; ring).
      rewrite sumR_swap. apply sumn_ext. intros j Hj. rewrite sumR_scal_r, <- Em, Rsum_sumn. reflexivity. }
  eapply Rle_trans; [exact B|]. apply Rplus_le_compat_l.
  replace (Rsum q (fun j => W * (g' j - g j) * (z j - g j))) with (W * Rsum q (fun j => (g' j - g j) * (z j - g j))) by (rewrite !Rsum_sumn, <- sumR_scal; apply sumn_ext; intros; ring).
  rewrite Rmult_assoc. apply Rmult_le_compat_l; [apply Rlt_le, W_pos|]. eapply Rle_trans; [apply (dot_len q (fun j => g' j - g j) (fun j => z j - g j))|]. apply Req_le. f_equal.
  unfold len. f_equal. apply Rsum_ext. intros; ring.
Qed.
End Step.

(** Through PRM.geometric_median: if no iterate comes closer than 1e-10 to a row, the result is at least as good
    as the mean, and if the iteration stopped because of tol, it is optimal up to a multiple of sqrt(tol). *)
Theorem C87_descent_partial (a : prm_st (T:=R)) (X : mat R) : wf X -> (2 <= nr X)%nat ->
  (forall k i, (i < nr X)%nat -> / 10 ^ 10 <= dist (nc X) (entry X) (iterate (nr X) (nc X) (entry X) k) i) ->
  exists G, geometric_median a X = Ok G /\ nr G = 1%nat /\ nc G = nc X /\
    spread (nr X) (nc X) (entry X) (entry G 0) <= spread (nr X) (nc X) (entry X) (fun j => Rsum (nr X) (fun i => entry X i j) / INR (nr X)) /\
    ((forall k, (Z.of_nat k < pr_max_iter a)%Z -> pr_tol a <= step_length (nr X) (nc X) (entry X) k) \/
     exists last : nat -> R, forall z, spread (nr X) (nc X) (entry X) (entry G 0) <=
       spread (nr X) (nc X) (entry X) z + Rsum (nr X) (fun i => / dist (nc X) (entry X) last i) * sqrt (pr_tol a) * len (nc X) (fun j => last j - z j)).
Proof.
  intros WX Hn Hf. set (n := nr X) in *. set (q := nc X) in *. destruct (geometric_run a n q (entry X) Hn) as (m & E & (Hm & Hs & He)). rewrite (wf_mk X WX). fold n q. rewrite E. eexists. split; [reflexivity|]. split; [reflexivity|]. split; [reflexivity|].
  assert (ES : spread n q (entry X) (entry (mk 1 q (fun _ j => iterate n q (entry X) m j)) 0) = spread n q (entry X) (iterate n q (entry X) m)).
  { unfold spread. apply Rsum_ext. intros i Hi. unfold dist. f_equal. apply Rsum_ext. intros j Hj. now rewrite entry_mk by lia. }
  assert (EX : forall z, spread n q (entry (mk n q (entry X))) z = spread n q (entry X) z).
  { intros z. unfold spread. apply Rsum_ext. intros i Hi. unfold dist. f_equal. apply Rsum_ext. intros j Hj. now rewrite entry_mk by lia. }
  assert (D : forall k, spread n q (entry X) (iterate n q (entry X) (S k)) <= spread n q (entry X) (iterate n q (entry X) k)) by (intros k; apply descent; [lia|intros; now apply Hf]).
  assert (D0 : forall k, spread n q (entry X) (iterate n q (entry X) k) <= spread n q (entry X) (iterate n q (entry X) 0)).
  { induction k as [|k IH]; [lra|]. eapply Rle_trans; [apply D|exact IH]. }
  assert (Ap : forall k z, step_length n q (entry X) k < pr_tol a -> spread n q (entry X) (iterate n q (entry X) (S k)) <=
    spread n q (entry X) z + Rsum n (fun i => / dist q (entry X) (iterate n q (entry X) k) i) * sqrt (pr_tol a) * len q (fun j => iterate n q (entry X) k j - z j)).
  { intros k z Hk. eapply Rle_trans; [apply D|]. eapply Rle_trans; [apply near_optimal; [lia|intros; now apply Hf]|]. apply Rplus_le_compat_l.
    apply Rmult_le_compat_r; [apply sqrt_pos|].
    assert (EW : Rsum n (fun i => guarded (dist q (entry X) (iterate n q (entry X) k) i)) = Rsum n (fun i => / dist q (entry X) (iterate n q (entry X) k) i)) by (apply Rsum_ext; intros i Hi; apply (far_w n q (entry X) (iterate n q (entry X) k)); [intros; now apply Hf|exact Hi]).
    rewrite EW. apply Rmult_le_compat_l.
    - rewrite Rsum_sumn. apply sumR_nonneg. intros i Hi. apply Rlt_le, Rinv_0_lt_compat. apply Rlt_le_trans with (/ 10 ^ 10); [apply Rinv_0_lt_compat; lra|now apply Hf].
    - unfold len. apply sqrt_le_1_alt. apply Rlt_le. exact Hk. }
  rewrite <- (wf_mk X WX). rewrite ES. split; [apply (D0 m)|].
  destruct He as [He|(k & -> & Hk)]; [destruct m as [|k]; [left; intros k Hk; lia|destruct (Rlt_dec (step_length n q (entry X) k) (pr_tol a)) as [Hk|Hge]]|].
  - right. exists (iterate n q (entry X) k). intros z. now apply Ap.
  - left. intros l Hl. destruct (Nat.eq_dec l k) as [->|]; [lra|apply Hs; lia].
  - right. exists (iterate n q (entry X) k). intros z. now apply Ap.
Qed.
(** Wrong in general: near a row the weight 1/d is replaced by 10, and the result can be worse than the mean. *)
Definition w87 (i j : nat) : R := match i with 2 => 3 | 3 => -1 | 4 => -2 | _ => 0 end.
Definition a87 (max_iter : Z) : prm_st (T:=R) := Prm (/ 10 ^ 6) max_iter 4 (-1) None.
Lemma dist1 X g i : dist 1 X g i = Rabs (X i 0%nat - g 0%nat).
Proof. unfold dist. cbn [Rsum]. rewrite Rplus_0_l. apply sqrt_Rsqr_abs. Qed.
Lemma w87_0 : iterate 5 1 w87 0 0%nat = 0.
Proof. cbn. field. Qed.
Lemma w87_1 : iterate 5 1 w87 1 0%nat = - 6 / 131.
Proof.
  cbn [iterate]. unfold weiszfeld.
  assert (D : forall i, dist 1 w87 (fun j => Rsum 5 (fun i => w87 i j) / INR 5) i = Rabs (w87 i 0%nat)) by (intros i; rewrite dist1; f_equal; cbn; field).
  cbn [Rsum]. rewrite !D. unfold w87. assert (A : Rabs 0 = 0) by apply Rabs_R0. assert (A3 : Rabs 3 = 3) by (apply Rabs_pos_eq; lra). assert (A1 : Rabs (-1) = 1) by (rewrite Rabs_left; lra). assert (A2 : Rabs (-2) = 2) by (rewrite Rabs_left; lra).
  rewrite A, A1, A2, A3. unfold guarded. assert (S1 : / 10 ^ 10 < 1) by (rewrite <- Rinv_1; apply Rinv_lt_contravar; lra). assert (S0 : 0 < / 10 ^ 10) by (apply Rinv_0_lt_compat; lra).
  destruct (Rlt_dec 0 (/ 10 ^ 10)); [|lra]. destruct (Rlt_dec 3 (/ 10 ^ 10)); [lra|]. destruct (Rlt_dec 1 (/ 10 ^ 10)); [lra|]. destruct (Rlt_dec 2 (/ 10 ^ 10)); [lra|]. field.
Qed.
Theorem C87_refuted : ~ (forall (a : prm_st (T:=R)) (X G : mat R), wf X -> (2 <= nr X)%nat -> geometric_median a X = Ok G ->
  spread (nr X) (nc X) (entry X) (entry G 0) <= spread (nr X) (nc X) (entry X) (fun j => Rsum (nr X) (fun i => entry X i j) / INR (nr X))).
Proof.
  intros H. destruct (geometric_run (a87 1) 5 1 w87 ltac:(lia)) as (m & E & (Hm & _ & He)). cbn [a87 pr_max_iter pr_tol] in *.
  assert (Em : m = 1%nat) by (destruct He as [He|(k & -> & _)]; lia). subst m.
  specialize (H (a87 1) (mk 5 1 w87) _ (mk_wf _ _ _) ltac:(cbn; lia) E). cbn [nr nc mk] in H. unfold spread in H. cbn [Rsum] in H. rewrite !dist1, !entry_mk in H by lia. rewrite w87_1 in H. unfold w87 in H. cbn [INR] in H.
  split_Rabs; lra.
Qed.
Print Assumptions C87_descent_partial.
Print Assumptions C87_refuted.
(** A run that satisfies the hypothesis *)
Definition e87 : mat R := Mat 4 2 [[1; 2]; [-1; -2]; [2; -1]; [-2; 1]].
Lemma e87_0 k : iterate 4 2 (entry e87) k 0 = 0 /\ iterate 4 2 (entry e87) k 1 = 0.
Proof.
  induction k as [|k (I0 & I1)]; [cbn; split; field|]. cbn [iterate].
  assert (D : forall i, (i < 4)%nat -> dist 2 (entry e87) (iterate 4 2 (entry e87) k) i = sqrt 5).
  { intros i Hi. unfold dist. f_equal. cbn [Rsum]. rewrite I0, I1. destruct i as [|[|[|[|i]]]]; try lia; cbn; ring. }
  unfold weiszfeld. cbn [Rsum]. rewrite !D by lia. cbn. pose proof (guarded_pos (sqrt 5) (sqrt_pos 5)). split; field; lra.
Qed.
Example C87_ex : forall k i, (i < nr e87)%nat -> / 10 ^ 10 <= dist (nc e87) (entry e87) (iterate (nr e87) (nc e87) (entry e87) k) i.
Proof.
  intros k i Hi. destruct (e87_0 k) as (I0 & I1). unfold dist. change (nc e87) with 2%nat. change (nr e87) with 4%nat. cbn [Rsum]. rewrite I0, I1.
  match goal with |- _ <= sqrt ?z => assert (E : z = 5) by (cbn in Hi; destruct i as [|[|[|[|i]]]]; try lia; cbn; ring) end. rewrite E.
  apply Rle_trans with 1; [rewrite <- Rinv_1; apply Rinv_le_contravar; lra|]. rewrite <- sqrt_1. apply sqrt_le_1_alt. lra.
Qed.
