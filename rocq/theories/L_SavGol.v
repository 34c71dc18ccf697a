(** Lemmas about the Savitzky-Golay model. *)
From Coq Require Import List ZArith Lia Bool Arith Reals Lra.
From Verif Require Import Base Num Mat M_Matrix M_Factory M_Helper M_Linalg M_Transform M_SavGol S_Matrix L_Base L_Mat L_Matrix L_MatR L_Transform L_Linalg L_Poly P_Matrix P_Helper.
Import ListNotations.
Local Open Scope nat_scope.

Section Gen.
Context {T : Type} `{Num T}.
Lemma mapM_tab {A B} (f : A -> res B) n (g : nat -> A) (h : nat -> B) : (forall i, i < n -> f (g i) = Ok (h i)) -> mapM f (tab n g) = Ok (tab n h).
Proof.
  revert g h. induction n as [|n IH]; intros g h Hi; [reflexivity|].
  rewrite !tab_S_hd. cbn [mapM]. rewrite Hi by lia. cbn [bind]. rewrite (IH (fun i => g (S i)) (fun i => h (S i))) by (intros; apply Hi; lia). reflexivity.
Qed.
Lemma multi_concat_columns r k (f : nat -> nat -> T) : k <> 0 ->
  multi_concat 1 (tab k (fun j => mk r 1 (fun i _ => f i j))) = Ok (mk r k f).
Proof.
  induction k as [|k IH]; intros Hk; [lia|]. destruct (Nat.eq_dec k 0) as [->|Hk0].
  - rewrite tab_S, tab_0. cbn [app multi_concat fold_left]. reflexivity.
  - rewrite tab_S, multi_concat_snoc.
    2:{ intros Q. apply (f_equal (@length _)) in Q. rewrite tab_length in Q. cbn in Q. lia. }
    rewrite IH by assumption. cbn [bind].
    destruct (concat_columns_ok (mk r k f) (mk r 1 (fun i _ => f i k)) (mk_wf _ _ _) (mk_wf _ _ _) eq_refl) as (m & E & Hm).
    unfold concat_along_columns in E. rewrite E. f_equal. apply (is_mat_ext m _ (nr (mk r k f)) (nc (mk r k f) + nc (mk r 1 (fun i _ => f i k))) _ Hm).
    cbn [nr nc mk]. replace (k + 1) with (S k) by lia. apply is_mat_mk_ext. intros i j Hi Hj. destruct (Nat.ltb_spec j k) as [Hl|Hl].
    + now rewrite entry_mk.
    + rewrite entry_mk by lia. f_equal. lia.
Qed.
(** do_transform: sliding scalar products, or ValueError when there is not a single window *)
Lemma sg_apply_spec (c data : mat T) : nr c = 1 -> nc c <> 0 ->
  sg_apply c data = if nc c <=? nc data
    then Ok (mk (nr data) (nc data - nc c + 1) (fun i j => sumn (nc c) (fun t => nmul (entry data i (j + t)) (entry c 0 t))))
    else Err ValueError.
Proof.
  intros Hr Hc. unfold sg_apply. cbv zeta. unfold pyrange. rewrite range_len_1. destruct (Nat.leb_spec (nc c) (nc data)) as [Hl|Hl].
  - replace (Z.to_nat (Z.of_nat (nc data) - Z.of_nat (nc c) + 1 - 0)) with (nc data - nc c + 1) by lia.
    rewrite (mapM_tab _ _ _ (fun j => mk (nr data) 1 (fun i _ => sumn (nc c) (fun t => nmul (entry data i (j + t)) (entry c 0 t))))).
    + cbn [bind]. apply multi_concat_columns. lia.
    + intros j Hj. replace (0 + Z.of_nat j * 1)%Z with (Z.of_nat j) by lia. rewrite <- Nat2Z.inj_add. change 0%Z with (Z.of_nat 0).
      rewrite get_sub_matrix_range by lia. cbn [bind]. unfold mul_by_vector_modify. rewrite vector_opm_row by (cbn; auto; lia). cbn [bind nr nc mk].
      f_equal. unfold sum_axis1, transpose. cbn [nr nc mk]. rewrite Nat.sub_0_r. apply mk_ext. intros i q Hi Hq. rewrite entry_mk by assumption.
      replace (j + nc c - j) with (nc c) by lia. apply sumn_ext. intros t Ht. rewrite !entry_mk by lia. reflexivity.
  - replace (Z.to_nat (Z.of_nat (nc data) - Z.of_nat (nc c) + 1 - 0)) with 0 by lia. reflexivity.
Qed.
Lemma create_row (l : list T) : nr (create [l]) = 1 /\ nc (create [l]) = length l /\ forall t, entry (create [l]) 0 t = nth t l n0.
Proof. repeat split. Qed.
Lemma determine_length (L R p d : Z) (l : list T) : determine_coefficients L R p d = Ok l -> (0 <= L)%Z -> (0 <= R)%Z -> length l = Z.to_nat (L + R + 1).
Proof.
  unfold determine_coefficients. destruct (Nat.eqb_spec (Z.to_nat (L + R + 1)) 1) as [E|E].
  - intros [= <-] _ _. rewrite E. reflexivity.
  - intros Q HL HR. destruct (set _ _ _ _); [|discriminate]. cbn [bind] in Q. destruct (solve _ _); [|discriminate]. cbn [bind] in Q. injection Q as <-. apply tab_length.
Qed.
End Gen.

(** ** The coefficients over the reals *)
Section Coefs.
Variables (L Q p d : Z).
Hypotheses (HL : (0 <= L)%Z) (HR : (0 <= Q)%Z) (Hp : (0 <= p)%Z) (Hd : (0 <= d)%Z).
Let w := Z.to_nat (L + Q + 1).
Let N := Z.to_nat p.
Let point (t : nat) : R := IZR (Z.of_nat t - L).
Let A := mk (S N) (S N) (fun i j => sumn w (fun t => point t ^ (i + j))%R).
Open Scope R_scope.

Lemma IZR_pow z k : IZR (z ^ Z.of_nat k) = IZR z ^ k.
Proof. symmetry. apply pow_IZR. Qed.
Lemma point_inj i j : i <> j -> point i <> point j.
Proof. intros Hne E. apply eq_IZR in E. lia. Qed.
Lemma A_mult (v : nat -> R) i : (i < S N)%nat ->
  sumn (nc A) (fun j => entry A i j * v j) = sumn w (fun t => point t ^ i * psum (S N) v (point t)).
Proof.
  intros Hi. cbn [nc A mk]. unfold psum. transitivity (sumn (S N) (fun j => sumn w (fun t => point t ^ i * (v j * point t ^ j)))).
  - apply sumn_ext. intros j Hj. unfold A. rewrite entry_mk by assumption. rewrite <- sumR_scal_r. apply sumn_ext. intros t Ht. rewrite pow_add. ring.
  - rewrite sumR_swap. apply sumn_ext. intros t Ht. now rewrite sumR_scal.
Qed.
Lemma A_kernel_trivial : (N < w)%nat -> Kernel_trivial A.
Proof.
  intros Hw v Hv k Hk. change (nc A) with (S N) in Hk. change (nr A) with (S N) in Hv.
  assert (Hq : sumn w (fun t => psum (S N) v (point t) * psum (S N) v (point t)) = 0).
  { transitivity (sumn (S N) (fun i => v i * sumn (nc A) (fun j => entry A i j * v j))).
    - transitivity (sumn (S N) (fun i => sumn w (fun t => v i * point t ^ i * psum (S N) v (point t)))).
      + rewrite sumR_swap. apply sumn_ext. intros t Ht. rewrite sumR_scal_r. reflexivity.
      + apply sumn_ext. intros i Hi. rewrite A_mult by assumption. rewrite <- sumR_scal. apply sumn_ext. intros t Ht. ring.
    - apply sumR_zero. intros i Hi. rewrite Hv by assumption. ring. }
  assert (Hz : forall t, (t < w)%nat -> psum (S N) v (point t) = 0).
  { intros t Ht. pose proof (sumR_nonneg_0 w (fun t => psum (S N) v (point t) * psum (S N) v (point t)) (fun i _ => Rle_0_sqr _) Hq t Ht) as G. cbv beta in G. now apply Rmult_integral in G as [G|G]. }
  apply (roots_zero (S N) v point); [intros; now apply point_inj| |assumption]. intros t Ht. apply Hz. lia.
Qed.
Lemma A_singular : (w <= N)%nat -> ~ Kernel_trivial A.
Proof.
  intros Hw K. specialize (K (proots w point)). cbn [nr nc A mk] in K.
  assert (E : proots w point w = 0).
  { apply K; [|lia]. intros i Hi. change (S N) with (nc A) at 1. rewrite A_mult by assumption. apply sumR_zero. intros t Ht.
    rewrite (psum_extend (S w) (S N)) by (try lia; intros m Hm; apply proots_top; lia). rewrite proots_roots by assumption. ring. }
  rewrite (proj1 (proots_top w point)) in E. lra.
Qed.
Lemma set_unit : set (T:=R) (zeros (p + 1) 1) d 0 1 =
  if (Z.to_nat d <=? N)%nat then Ok (mk (S N) 1 (fun i _ => if (i =? Z.to_nat d)%nat then 1 else 0)) else Err IndexError.
Proof.
  assert (Ez : zeros (T:=R) (p + 1) 1 = mk (S N) 1 (fun _ _ => 0)).
  { unfold zeros, create. change (1 =? -1)%Z with false. cbv iota. unfold rlen. replace (Z.to_nat (p + 1)) with (S N) by (unfold N; lia). rewrite np_array2_tab by lia. reflexivity. }
  rewrite Ez. unfold set. cbn [nr nc mk]. destruct (Nat.leb_spec (Z.to_nat d) N) as [Hle|Hgt].
  - assert (E : npidx (S N) d = Ok (Z.to_nat d)). { unfold npidx. replace (0 <=? d)%Z with true by (symmetry; apply Z.leb_le; lia). replace (d <? Z.of_nat (S N))%Z with true by (symmetry; apply Z.ltb_lt; lia). reflexivity. }
    rewrite E. cbn [bind]. change (npidx 1 0) with (Ok 0%nat). cbn [bind]. f_equal. apply mat_eq_mk; [apply set_entry_wf, mk_wf|reflexivity|reflexivity|]. intros i j Hi Hj. rewrite set_entry_entry by (try apply mk_wf; cbn; lia).
    assert (j = 0)%nat as -> by lia. rewrite Nat.eqb_refl, andb_true_r. destruct (Nat.eqb_spec i (Z.to_nat d)); [reflexivity|]. now rewrite entry_mk.
  - assert (E : npidx (S N) d = Err IndexError). { unfold npidx. replace (d <? Z.of_nat (S N))%Z with false by (symmetry; apply Z.ltb_ge; lia). replace (d <? 0)%Z with false by (symmetry; apply Z.ltb_ge; lia). now rewrite !andb_false_r. }
    rewrite E. reflexivity.
Qed.
Lemma determine_R : w <> 1%nat -> determine_coefficients (T:=R) L Q p d =
  if (Z.to_nat d <=? N)%nat then
    do s <- solve A (mk (S N) 1 (fun i _ => if (i =? Z.to_nat d)%nat then 1 else 0));
    Ok (tab w (fun t => sumn (S N) (fun j => entry s j 0 * point t ^ j)))
  else Err IndexError.
Proof.
  intros Hw. unfold determine_coefficients. fold w. apply Nat.eqb_neq in Hw. rewrite Hw. cbn [n1 NumR]. rewrite set_unit.
  destruct (Z.to_nat d <=? N)%nat; [|reflexivity]. cbn [bind]. replace (Z.to_nat (p + 1)) with (S N) by (unfold N; lia).
  assert (E : mk (S N) (S N) (fun i j => sumn w (fun t => nofZ ((Z.of_nat t - L) ^ Z.of_nat (i + j)))) = A).
  { apply mk_ext. intros i j Hi Hj. apply sumn_ext. intros t Ht. apply IZR_pow. }
  rewrite E. destruct (solve A _) as [s|e]; [|reflexivity]. cbn [bind]. f_equal. apply tab_ext. intros t Ht. apply sumn_ext. intros j Hj.
  cbn [nmul nofZ NumR]. now rewrite IZR_pow.
Qed.
Lemma determine_ok : w <> 1%nat -> (Z.to_nat d <= N)%nat -> (N < w)%nat ->
  exists l, determine_coefficients (T:=R) L Q p d = Ok l /\ length l = w /\
    forall m, (m <= N)%nat -> sumn w (fun t => nth t l 0 * point t ^ m) = if (m =? Z.to_nat d)%nat then 1 else 0.
Proof.
  intros Hw Hdn HN. rewrite determine_R by assumption. apply Nat.leb_le in Hdn. rewrite Hdn. unfold solve.
  destruct (np_solve_ok A (mk (S N) 1 (fun i _ => if (i =? Z.to_nat d)%nat then 1 else 0)) eq_refl eq_refl (A_kernel_trivial HN)) as (s & E & _ & _ & _ & Hs).
  rewrite E. cbn [bind]. eexists. split; [reflexivity|]. split; [apply tab_length|]. intros m Hm.
  rewrite (sumn_ext _ _ (fun t => point t ^ m * psum (S N) (fun j => entry s j 0%nat) (point t))).
  2:{ intros t Ht. rewrite nth_tab by assumption. unfold psum. ring. }
  rewrite <- A_mult by lia. rewrite Hs by (cbn; lia). rewrite entry_mk by lia. reflexivity.
Qed.
Lemma determine_singular : w <> 1%nat -> (Z.to_nat d <= N)%nat -> (w <= N)%nat -> determine_coefficients (T:=R) L Q p d = Err LinAlgError.
Proof.
  intros Hw Hdn HN. rewrite determine_R by assumption. apply Nat.leb_le in Hdn. rewrite Hdn. unfold solve.
  rewrite np_solve_singular by (try reflexivity; now apply A_singular). reflexivity.
Qed.
Lemma determine_index : w <> 1%nat -> (N < Z.to_nat d)%nat -> determine_coefficients (T:=R) L Q p d = Err IndexError.
Proof. intros Hw Hdn. rewrite determine_R by assumption. destruct (Nat.leb_spec (Z.to_nat d) N); [lia|reflexivity]. Qed.
End Coefs.
