(** Real-number matrix algebra over the model's operations. *)
From Coq Require Import List ZArith Lia Bool Arith Reals Lra.
From Verif Require Import Base Num Mat M_Matrix M_Factory S_Matrix L_Base L_Mat L_Matrix.
Import ListNotations.
Open Scope R_scope.

Notation matR := (mat R).

Lemma Rsum_sumn n f : Rsum n f = sumn n f.
Proof. induction n as [|n IH]; cbn; [reflexivity|]. now rewrite IH. Qed.

Lemma Rsum_ext n f g : (forall i, (i < n)%nat -> f i = g i) -> Rsum n f = Rsum n g.
Proof. intros H. rewrite !Rsum_sumn. now apply sumn_ext. Qed.

Lemma matmul_entry (a b : matR) i j : (i < nr a)%nat -> (j < nc b)%nat ->
  entry (matmul a b) i j = sumn (nc a) (fun k => entry a i k * entry b k j).
Proof. intros. unfold matmul. now rewrite entry_mk. Qed.

Lemma matmul_wf (a b : matR) : wf (matmul a b).
Proof. apply mk_wf. Qed.

Lemma matmul_assoc (a b c : matR) : nc a = nr b -> nc b = nr c ->
  matmul (matmul a b) c = matmul a (matmul b c).
Proof.
  intros Hab Hbc. apply mat_ext; try apply mk_wf; try reflexivity.
  intros i j Hi Hj. change (nr (matmul (matmul a b) c)) with (nr a) in Hi.
  change (nc (matmul (matmul a b) c)) with (nc c) in Hj.
  rewrite matmul_entry by assumption. rewrite (matmul_entry a) by assumption.
  change (nc (matmul a b)) with (nc b).
  transitivity (sumn (nc b) (fun k => sumn (nc a) (fun l => entry a i l * entry b l k * entry c k j))).
  - apply sumn_ext. intros k Hk. rewrite matmul_entry by assumption.
    rewrite <- sumR_scal_r. reflexivity.
  - rewrite sumR_swap. apply sumn_ext. intros l Hl.
    rewrite matmul_entry by (auto; lia). rewrite <- sumR_scal. apply sumn_ext. intros; ring.
Qed.

Lemma matmul_add_r (a b c : matR) : nc a = nr b -> nr b = nr c -> nc b = nc c ->
  matmul a (map2_mat Rplus b c) = map2_mat Rplus (matmul a b) (matmul a c).
Proof.
  intros H1 H2 H3. apply mat_ext; try apply mk_wf; try reflexivity.
  intros i j Hi Hj. cbn [matmul map2_mat mk nr nc] in Hi, Hj.
  rewrite matmul_entry by assumption. unfold map2_mat at 2. rewrite entry_mk by assumption.
  rewrite !matmul_entry by (auto; lia). rewrite <- sumR_plus.
  apply sumn_ext. intros k Hk. unfold map2_mat. rewrite entry_mk by (auto; lia). ring.
Qed.

Lemma matmul_add_l (a b c : matR) : nr a = nr b -> nc a = nc b -> nc a = nr c ->
  matmul (map2_mat Rplus a b) c = map2_mat Rplus (matmul a c) (matmul b c).
Proof.
  intros H1 H2 H3. apply mat_ext; try apply mk_wf; try reflexivity.
  intros i j Hi Hj. cbn [matmul map2_mat mk nr nc] in Hi, Hj.
  rewrite matmul_entry by assumption. unfold map2_mat at 3. rewrite entry_mk by assumption.
  rewrite !matmul_entry by (auto; lia). change (nc (map2_mat Rplus a b)) with (nc a). rewrite <- H2.
  rewrite <- sumR_plus.
  apply sumn_ext. intros k Hk. unfold map2_mat. rewrite entry_mk by (auto; lia). ring.
Qed.

Lemma transpose_matmul (a b : matR) : nc a = nr b ->
  transpose (matmul a b) = matmul (transpose b) (transpose a).
Proof.
  intros Hab. apply mat_ext; try apply mk_wf; try reflexivity.
  intros i j Hi Hj. cbn [transpose matmul mk nr nc] in Hi, Hj.
  rewrite transpose_entry by assumption. rewrite !matmul_entry by assumption.
  change (nc (transpose b)) with (nr b). rewrite Hab. apply sumn_ext. intros k Hk.
  rewrite !transpose_entry by (auto; lia). ring.
Qed.

Definition eyeR (n : nat) : matR := mk n n (fun i j => if (i =? j)%nat then 1 else 0).

Lemma matmul_eye_l (a : matR) : wf a -> matmul (eyeR (nr a)) a = a.
Proof.
  intros Ha. apply mat_ext; auto; try apply mk_wf.
  intros i j Hi Hj. cbn [matmul mk nr nc eyeR] in Hi, Hj. rewrite matmul_entry by assumption.
  cbn [eyeR mk nc]. rewrite (sumR_single _ i); auto.
  - unfold eyeR. rewrite entry_mk, Nat.eqb_refl by assumption. ring.
  - intros k Hk Hne. unfold eyeR. rewrite entry_mk by assumption.
    replace (i =? k)%nat with false; [ring|]. symmetry. apply Nat.eqb_neq. auto.
Qed.

Lemma matmul_eye_r (a : matR) : wf a -> matmul a (eyeR (nc a)) = a.
Proof.
  intros Ha. apply mat_ext; auto; try apply mk_wf.
  intros i j Hi Hj. cbn [matmul mk nr nc eyeR] in Hi, Hj. rewrite matmul_entry by assumption.
  rewrite (sumR_single _ j); auto.
  - unfold eyeR. rewrite entry_mk, Nat.eqb_refl by assumption. ring.
  - intros k Hk Hne. unfold eyeR. rewrite entry_mk by assumption.
    replace (k =? j)%nat with false; [ring|]. symmetry. apply Nat.eqb_neq. auto.
Qed.

Lemma eye_eyeR n : eye (T:=R) (Z.of_nat n) (-1) = Ok (eyeR n).
Proof.
  unfold eye. change (-1 =? -1)%Z with true. cbv iota.
  assert (E : (Z.of_nat n <? 0)%Z = false) by (apply Z.ltb_ge; lia).
  rewrite E, Nat2Z.id. reflexivity.
Qed.

Lemma transpose_eyeR n : transpose (eyeR n) = eyeR n.
Proof.
  unfold transpose, eyeR. autorewrite with sh. apply mk_ext. intros i j Hi Hj.
  rewrite entry_mk by assumption. now rewrite Nat.eqb_sym.
Qed.

Lemma matmul_scal_l (a b : matR) s : nc a = nr b -> matmul (mul_scalar a s) b = mul_scalar (matmul a b) s.
Proof.
  intros Hab. apply mat_ext; try apply mk_wf; try reflexivity.
  intros i j Hi Hj. cbn [matmul mul_scalar map_mat mk nr nc] in Hi, Hj.
  rewrite matmul_entry by assumption. rewrite entry_mul_scalar by assumption.
  rewrite matmul_entry by assumption. cbn [nmul NumR]. rewrite <- sumR_scal_r.
  apply sumn_ext. intros k Hk. rewrite entry_mul_scalar by assumption. cbn [nmul NumR]. ring.
Qed.

(** reductions *)
Lemma sum_all_swap (m : matR) : sum_all m = sumn (nr m) (fun i => sumn (nc m) (fun j => entry m i j)).
Proof. unfold sum_all. apply sumR_swap. Qed.

Lemma diag_nonempty (m : matR) : Nat.min (nr m) (nc m) <> 0%nat ->
  diag m = mk (Nat.min (nr m) (nc m)) 1 (fun i _ => entry m i i).
Proof.
  intros Hn. unfold diag. 
  rewrite <- (np_array2_tab _ 1 (fun i _ => entry m i i) Hn). reflexivity.
Qed.

Lemma trace_sum (m : matR) : trace m = sumn (Nat.min (nr m) (nc m)) (fun i => entry m i i).
Proof.
  unfold trace. destruct (Nat.eq_dec (Nat.min (nr m) (nc m)) 0) as [E|E].
  - unfold diag. rewrite E. reflexivity.
  - rewrite diag_nonempty by assumption. unfold sum_all. autorewrite with sh.
    cbn [sumn]. cbn [nadd n0 NumR]. rewrite Rplus_0_l. apply sumn_ext. intros i Hi. rewrite entry_mk by lia. reflexivity.
Qed.

Lemma trace_transpose (m : matR) : trace (transpose m) = trace m.
Proof.
  rewrite !trace_sum. autorewrite with sh. rewrite (Nat.min_comm (nc m)).
  apply sumn_ext. intros i Hi. rewrite transpose_entry by lia. reflexivity.
Qed.

Lemma trace_matmul_comm (a b : matR) : nc a = nr b -> nc b = nr a ->
  trace (matmul a b) = trace (matmul b a).
Proof.
  intros H1 H2. rewrite !trace_sum. autorewrite with sh.
  rewrite H2, <- H1, !Nat.min_id.
  transitivity (sumn (nr a) (fun i => sumn (nc a) (fun k => entry a i k * entry b k i))).
  - apply sumn_ext. intros i Hi. rewrite matmul_entry by lia. reflexivity.
  - rewrite sumR_swap. apply sumn_ext. intros k Hk. rewrite matmul_entry by lia. rewrite H2.
    apply sumn_ext. intros. ring.
Qed.

(** norms *)
Lemma disc_neg (A B C : R) : (forall t, 0 <= A + 2 * t * B + t * t * C) -> 0 <= C -> B * B <= A * C.
Proof.
  intros Hq HC. destruct (Req_dec C 0) as [->|Hne].
  - destruct (Req_dec B 0) as [->|HB]; [lra|].
    exfalso. specialize (Hq (- (A + 1) / (2 * B))).
    assert (H1 : A + 2 * (- (A + 1) / (2 * B)) * B + - (A + 1) / (2 * B) * (- (A + 1) / (2 * B)) * 0 = -1) by (field; assumption).
    lra.
  - specialize (Hq (- B / C)).
    assert (H1 : A + 2 * (- B / C) * B + - B / C * (- B / C) * C = (A * C - B * B) / C) by (field; assumption).
    rewrite H1 in Hq.
    assert (HC' : 0 < C) by lra.
    apply (Rmult_le_compat_r C) in Hq; [|lra].
    rewrite Rmult_0_l in Hq. unfold Rdiv in Hq. rewrite Rmult_assoc, Rinv_l, Rmult_1_r in Hq by assumption. lra.
Qed.

Definition sumsq (r c : nat) (f g : nat -> nat -> R) : R :=
  sumn r (fun i => sumn c (fun j => f i j * g i j)).

Lemma sumsq_nonneg r c f : 0 <= sumsq r c f f.
Proof. apply sumR_nonneg. intros. apply sumR_nonneg. intros. apply Rle_0_sqr. Qed.

Lemma sumsq_add r c f g t :
  sumsq r c (fun i j => f i j + t * g i j) (fun i j => f i j + t * g i j) =
  sumsq r c f f + 2 * t * sumsq r c f g + t * t * sumsq r c g g.
Proof.
  unfold sumsq. rewrite <- !sumR_scal, <- !sumR_plus. apply sumn_ext. intros i _.
  rewrite <- !sumR_scal, <- !sumR_plus. apply sumn_ext. intros; ring.
Qed.

Lemma cauchy_schwarz r c f g : sumsq r c f g * sumsq r c f g <= sumsq r c f f * sumsq r c g g.
Proof.
  apply disc_neg; [|apply sumsq_nonneg].
  intros t. rewrite <- sumsq_add. apply sumsq_nonneg.
Qed.

Lemma sumsq_triangle r c f g :
  sqrt (sumsq r c (fun i j => f i j + g i j) (fun i j => f i j + g i j)) <=
  sqrt (sumsq r c f f) + sqrt (sumsq r c g g).
Proof.
  set (A := sumsq r c f f). set (C := sumsq r c g g). set (B := sumsq r c f g).
  assert (E : sumsq r c (fun i j => f i j + g i j) (fun i j => f i j + g i j) = A + 2 * B + C).
  { transitivity (sumsq r c (fun i j => f i j + 1 * g i j) (fun i j => f i j + 1 * g i j)).
    - unfold sumsq. apply sumn_ext; intros; apply sumn_ext; intros; ring.
    - rewrite sumsq_add. fold A B C. ring. }
  rewrite E.
  assert (HA : 0 <= A) by apply sumsq_nonneg. assert (HC : 0 <= C) by apply sumsq_nonneg.
  assert (HB : B * B <= A * C) by apply cauchy_schwarz.
  assert (Hsa := sqrt_pos A). assert (Hsc := sqrt_pos C).
  assert (Ha2 := sqrt_sqrt A HA). assert (Hc2 := sqrt_sqrt C HC).
  assert (HBle : B <= sqrt A * sqrt C).
  { destruct (Rle_dec B 0) as [Hn|Hp]; [nra|].
    apply Rsqr_incr_0_var; [|nra]. unfold Rsqr. nra. }
  apply Rsqr_incr_0_var; [|lra]. unfold Rsqr. rewrite sqrt_sqrt.
  - nra.
  - assert (0 <= sumsq r c (fun i j => f i j + g i j) (fun i j => f i j + g i j)) by apply sumsq_nonneg. lra.
Qed.

Lemma frobenius_sumsq (m : matR) : frobenius m = sqrt (sumsq (nr m) (nc m) (entry m) (entry m)).
Proof. reflexivity. Qed.

Lemma frobenius_sq (m : matR) : frobenius m * frobenius m = sumsq (nr m) (nc m) (entry m) (entry m).
Proof. rewrite frobenius_sumsq. apply sqrt_sqrt. apply sumsq_nonneg. Qed.

Lemma frobenius_nonneg (m : matR) : 0 <= frobenius m.
Proof. apply sqrt_pos. Qed.

Lemma frobenius_zero (m : matR) : frobenius m = 0 <-> forall i j, (i < nr m)%nat -> (j < nc m)%nat -> entry m i j = 0.
Proof.
  rewrite frobenius_sumsq. split.
  - intros Hz i j Hi Hj. apply sqrt_eq_0 in Hz; [|apply sumsq_nonneg].
    unfold sumsq in Hz.
    assert (H1 := sumR_nonneg_0 _ _ (fun i (_ : (i < nr m)%nat) => sumR_nonneg (nc m) (fun j => entry m i j * entry m i j) (fun j _ => Rle_0_sqr _)) Hz i Hi).
    cbn beta in H1.
    assert (H2 := sumR_nonneg_0 _ _ (fun j (_ : (j < nc m)%nat) => Rle_0_sqr (entry m i j)) H1 j Hj).
    unfold Rsqr in H2. cbn beta in H2. nra.
  - intros Hz. replace (sumsq (nr m) (nc m) (entry m) (entry m)) with 0; [apply sqrt_0|].
    symmetry. apply sumR_zero. intros i Hi. apply sumR_zero. intros j Hj. rewrite Hz by assumption. ring.
Qed.

Lemma frobenius_scal (m : matR) s : frobenius (mul_scalar m s) = Rabs s * frobenius m.
Proof.
  rewrite !frobenius_sumsq. rewrite <- sqrt_Rsqr_abs. rewrite <- sqrt_mult_alt by apply Rle_0_sqr.
  f_equal. unfold sumsq. autorewrite with sh. rewrite <- sumR_scal. apply sumn_ext. intros i Hi.
  rewrite <- sumR_scal. apply sumn_ext. intros j Hj. 
  unfold mul_scalar, map_mat. rewrite !entry_mk by assumption. cbn [nmul NumR]. unfold Rsqr. ring.
Qed.

Lemma frobenius_add (a b : matR) : nr a = nr b -> nc a = nc b ->
  frobenius (map2_mat Rplus a b) <= frobenius a + frobenius b.
Proof.
  intros H1 H2. rewrite !frobenius_sumsq. rewrite <- H1, <- H2.
  autorewrite with sh.
  eapply Rle_trans; [|apply sumsq_triangle]. right. f_equal.
  unfold sumsq. apply sumn_ext. intros i Hi. apply sumn_ext. intros j Hj.
  unfold map2_mat. rewrite !entry_mk by assumption. reflexivity.
Qed.

Lemma sumR_abs n (f : nat -> R) : Rabs (sumn n f) <= sumn n (fun i => Rabs (f i)).
Proof.
  induction n as [|n IH]; [cbn; rewrite Rabs_R0; lra|]. rewrite !sumR_S.
  eapply Rle_trans; [apply Rabs_triang|]. lra.
Qed.

Lemma norm1_sum (m : matR) : norm1 m = sumn (nc m) (fun j => sumn (nr m) (fun i => Rabs (entry m i j))).
Proof.
  unfold norm1. apply sumn_ext. intros j Hj. cbn [nabs NumR]. apply Rabs_right.
  apply Rle_ge. apply sumR_nonneg. intros. apply Rabs_pos.
Qed.
