(** C76, C77: the covariance matrix of YGradientGLSW and YGradientEPO. *)
From Coq Require Import List ZArith Lia Bool Arith Reals Lra Permutation Sorted.
From Verif Require Import Base Num Mat M_Matrix M_Factory M_Helper M_Loop M_Utils M_Linalg M_Transform M_MSC M_PLSBase M_PLS M_PLS2 M_GLSW
  S_Matrix L_Base L_Mat L_Matrix L_MatR L_Linalg L_Alg L_Eigen L_Transform P_Matrix P_Helper P_Linalg P_MSC P_GLSW P_PCA.
Import ListNotations.
Local Open Scope R_scope.

(** The five-point gradient of a sequence of n values, the first and the last being repeated beyond the ends *)
Definition at_end (n : nat) (k : Z) : nat := Z.to_nat (Z.max 0 (Z.min k (Z.of_nat n - 1))).
Definition gradient (n : nat) (f : nat -> R) (i : nat) : R :=
  let g k := f (at_end n (Z.of_nat i + k)) in (2 * g 2%Z + g 1%Z - g (-1)%Z - 2 * g (-2)%Z) / 10.
(** [p] lists the samples in increasing order of y, equal ones in their original order *)
Definition sorts (n : nat) (y : nat -> R) (p : nat -> nat) : Prop :=
  (forall i, (i < n)%nat -> (p i < n)%nat) /\
  forall i j, (i < j < n)%nat -> y (p i) < y (p j) \/ (y (p i) = y (p j) /\ (p i < p j)%nat).

Lemma clamp_end n p : n <> 0%nat -> clamp n p = at_end n (Z.of_nat p - 2).
Proof. intros Hn. unfold clamp, at_end. destruct (Nat.ltb_spec p 2); [lia|]. destruct (Nat.ltb_spec p (n + 2)); lia. Qed.
Lemma yg_mk n c (f : nat -> nat -> R) : n <> 0%nat -> yg_transform (mk n c f) = Ok (mk n c (fun i j => - gradient n (fun k => f k j) i)).
Proof.
  intros Hn. destruct (yg_transform_spec (mk n c f) (mk_wf _ _ _) Hn) as (out & E & H). rewrite E. f_equal. cbn [nr nc mk] in H.
  destruct H as (W & R1 & C1 & N1). apply mat_eq_mk; auto. intros i j Hi Hj. rewrite N1 by assumption.
  assert (Hb : forall k, (at_end n k < n)%nat) by (intros k; unfold at_end; lia).
  rewrite !clamp_end by assumption. rewrite !entry_mk by auto. unfold gradient. cbv zeta.
  replace (Z.of_nat i - 2)%Z with (Z.of_nat i + -2)%Z by lia. replace (Z.of_nat (i + 1) - 2)%Z with (Z.of_nat i + -1)%Z by lia.
  replace (Z.of_nat (i + 3) - 2)%Z with (Z.of_nat i + 1)%Z by lia. replace (Z.of_nat (i + 4) - 2)%Z with (Z.of_nat i + 2)%Z by lia. field.
Qed.

(** Insertion of an element smaller (in position) than all others keeps the lexicographic order *)
Definition before (y : nat -> R) (a b : nat) : Prop := y a < y b \/ (y a = y b /\ (a < b)%nat).
Lemma insert_before (y : nat -> R) (le : nat -> nat -> bool) x l : (forall a b, le a b = true <-> y a <= y b) -> Forall (fun b => (x < b)%nat) l ->
  StronglySorted (before y) l -> StronglySorted (before y) (insert_by le x l).
Proof.
  intros Hle Hx Hs. revert Hx. induction Hs as [|b l Hl IH Hb]; intros Hx; cbn [insert_by]; [repeat constructor|]. inversion Hx as [|? ? Hxb Hxl]; subst.
  destruct (le x b) eqn:E.
  - apply Hle in E. assert (Bxb : before y x b) by (destruct E as [E|E]; [left|right]; auto). constructor; [constructor; assumption|]. constructor; [exact Bxb|].
    eapply Forall_impl; [|exact Hb]. intros z Hz. unfold before in *. destruct Bxb as [?|[? ?]], Hz as [?|[? ?]]; [left; lra|left; lra|left; lra|right; split; [lra|lia]].
  - constructor; [now apply IH|]. eapply Permutation_Forall; [apply insert_by_perm|]. constructor; [|assumption]. left. apply Rnot_le_lt. intros Q. apply Hle in Q. congruence.
Qed.
Lemma sort_before (y : nat -> R) le a n : (forall a b, le a b = true <-> y a <= y b) -> StronglySorted (before y) (stable_sort le (seq a n)).
Proof.
  intros Hle. revert a. induction n as [|n IH]; intros a; cbn [seq stable_sort fold_right]; [constructor|]. apply insert_before; [exact Hle| |apply IH].
  eapply Permutation_Forall; [apply stable_sort_perm|]. apply Forall_forall. intros b Hb. apply in_seq in Hb. lia.
Qed.
Lemma sorted_nth {A} (P : A -> A -> Prop) l d : StronglySorted P l -> forall i j, (i < j < length l)%nat -> P (nth i l d) (nth j l d).
Proof.
  induction 1 as [|x l Hl IH Hx]; intros i j Hij; cbn [length] in *; [lia|]. destruct j as [|j]; [lia|]. destruct i as [|i]; cbn [nth].
  - rewrite Forall_forall in Hx. apply Hx, nth_In. lia.
  - apply IH. lia.
Qed.
Lemma nth_sorted {A} (P : A -> A -> Prop) l d : (forall i j, (i < j < length l)%nat -> P (nth i l d) (nth j l d)) -> StronglySorted P l.
Proof.
  induction l as [|x l IH]; intros Hs; [constructor|]. constructor.
  - apply IH. intros i j Hij. apply (Hs (S i) (S j)). cbn [length]. lia.
  - apply Forall_forall. intros z Hz. apply (In_nth _ _ d) in Hz as (k & Hk & <-). apply (Hs 0%nat (S k)). cbn [length]. lia.
Qed.
(** at most one ordering sorts *)
Lemma sorts_unique n y p q : sorts n y p -> sorts n y q -> forall i, (i < n)%nat -> p i = q i.
Proof.
  intros (P1 & P2) (Q1 & Q2).
  assert (HP : forall r, (forall i, (i < n)%nat -> (r i < n)%nat) -> (forall i j, (i < j < n)%nat -> before y (r i) (r j)) -> StronglySorted (before y) (map r (seq 0 n)) /\ Permutation (map r (seq 0 n)) (seq 0 n)).
  { intros r R1 R2.
    assert (Hnth : forall i, (i < n)%nat -> nth i (map r (seq 0 n)) 0%nat = r i).
    { intros i Hi. rewrite (nth_indep _ 0%nat (r 0%nat)) by (rewrite map_length, seq_length; exact Hi). rewrite map_nth. now rewrite seq_nth. }
    split; [apply (nth_sorted _ _ 0%nat); intros i j Hij; rewrite map_length, seq_length in Hij; rewrite !Hnth by lia; auto|].
    apply NoDup_Permutation_bis; [|rewrite map_length; reflexivity|intros z Hz; apply in_map_iff in Hz as (i & <- & Hi); apply in_seq in Hi; apply in_seq; split; [lia|apply R1; lia]].
    apply (NoDup_nth _ 0%nat). rewrite map_length, seq_length. intros i j Hi Hj E. rewrite !Hnth in E by assumption.
    destruct (Nat.lt_total i j) as [H|[H|H]]; [|exact H|]; exfalso; [specialize (R2 i j)|specialize (R2 j i)]; rewrite E in R2; destruct R2 as [R2|[_ R2]]; try lia; lra. }
  destruct (HP p P1 P2) as (S1 & M1). destruct (HP q Q1 Q2) as (S2 & M2).
  assert (E : map p (seq 0 n) = map q (seq 0 n)).
  { apply (sorted_perm_unique (before y)); [|exact S1|exact S2|rewrite M1, M2; reflexivity]. intros a b [?|[? ?]] [?|[? ?]]; try lra; lia. }
  intros i Hi. apply (f_equal (fun l => nth i l (p 0%nat))) in E. rewrite map_nth in E. rewrite (nth_indep (map q _) (p 0%nat) (q 0%nat)) in E by (rewrite map_length, seq_length; exact Hi). rewrite map_nth in E. now rewrite !seq_nth in E.
Qed.

Lemma bind_Ok {A B} (x : A) (f : A -> res B) : bind (Ok x) f = f x. Proof. reflexivity. Qed.
Section Covariance.
Variable pow2 : R -> R.
(** weight of sample i of the sorted sequence: pow(2, y'_i / s), s the standard deviation of the gradient y' *)
Definition ygrad_weight (n : nat) (y : nat -> R) (i : nat) : R := pow2 (gradient n y i / sqrt (Rvar n (gradient n y))).
Lemma Rvar_opp n f : Rvar n (fun i => - f i) = Rvar n f.
Proof.
  unfold Rvar. assert (E : Rmean n (fun i => - f i) = - Rmean n f) by (unfold Rmean; rewrite !Rsum_sumn, sumR_opp; unfold Rdiv; ring).
  rewrite E. f_equal. apply Rsum_ext. intros i Hi. ring.
Qed.
Lemma ygrad_run (X y : mat R) : wf X -> wf y -> nr X = nr y -> nc y = 1%nat -> (2 <= nr X)%nat -> nc X <> 0%nat ->
  let n := nr X in
  exists p, sorts n (fun i => entry y i 0) p /\ Permutation (map p (seq 0 n)) (seq 0 n) /\
    ygrad_covariance pow2 X y = Ok (mk (nc X) (nc X) (fun j l => sumn n (fun i =>
      let w := ygrad_weight n (fun k => entry y (p k) 0) i in
      w * w * gradient n (fun k => entry X (p k) j) i * gradient n (fun k => entry X (p k) l) i))).
Proof.
  intros WX Wy Hrows Hc Hn Hp n. fold n in Hrows, Hn. set (yv := fun i => entry y i 0).
  assert (Hraw : forall i, (i < n)%nat -> nth i (to_raw_copy_1D y) n0 = yv i).
  { intros i Hi. unfold yv. rewrite <- (to_raw_copy_1D_nth y n0 i 0) by lia. reflexivity. }
  set (le := fun a b => nleb (nth a (to_raw_copy_1D y) n0) (nth b (to_raw_copy_1D y) n0)).
  set (so := stable_sort le (seq 0 n)).
  set (yn := fun i => nth i (to_raw_copy_1D y) n0).
  assert (Hperm : Permutation so (seq 0 n)) by (apply Permutation_sym, stable_sort_perm).
  assert (Hlen : length so = n) by (rewrite (Permutation_length Hperm); apply seq_length).
  assert (Hlt : forall i, In i so -> (i < n)%nat) by (intros i Hi; apply (Permutation_in _ Hperm) in Hi; apply in_seq in Hi; lia).
  set (p := fun i => nth i so 0%nat). exists p.
  assert (Hpn : forall i, (i < n)%nat -> (p i < n)%nat) by (intros i Hi; apply Hlt, nth_In; rewrite Hlen; exact Hi).
  split; [|split].
  - split; [exact Hpn|]. intros i j Hij. assert (Hs : StronglySorted (before yn) so) by (apply sort_before; intros a b; unfold le; apply Rleb_true).
    pose proof (sorted_nth _ _ 0%nat Hs i j ltac:(lia)) as B. unfold before, yn in B. fold (p i) (p j) in B. now rewrite !Hraw in B by (apply Hpn; lia).
  - replace (map p (seq 0 n)) with so; [exact Hperm|]. unfold p. rewrite <- Hlen. symmetry. change (tab (length so) (fun i => nth i so 0%nat) = so). apply tab_nth; reflexivity.
  - unfold ygrad_covariance. rewrite to_raw_copy_1D_length, Hc, Nat.mul_1_r, <- Hrows. fold le. fold so.
    assert (Hso : so <> []) by (intros E; rewrite E in Hlen; cbn in Hlen; lia).
    rewrite get_sub_matrix_lists; [|exact Hso|intros E; apply (f_equal (@length nat)) in E; rewrite seq_length in E; cbn in E; lia|exact Hlt|intros j Hj; apply in_seq in Hj; lia].
    rewrite bind_Ok. change [0%Z] with (map Z.of_nat [0%nat]). rewrite get_sub_matrix_lists; [|exact Hso|discriminate|rewrite <- Hrows; exact Hlt|intros j [<-|[]]; lia].
    rewrite bind_Ok, !yg_mk by lia. rewrite !bind_Ok. rewrite Hlen, seq_length. change (length [0%nat]) with 1%nat.
    assert (EX : forall j, (j < nc X)%nat -> nth j (seq 0 (nc X)) 0%nat = j) by (intros j Hj; now rewrite seq_nth).
    set (dy := gradient n (fun k => yv (p k))).
    set (ys := mk n 1 _). assert (Eys : ys = mk n 1 (fun i _ => - dy i)).
    { apply mk_ext. intros i j Hi Hj. assert (j = 0%nat) by lia. subst j. reflexivity. }
    rewrite Eys. unfold mean. change (nr (mk n 1 (fun i _ => - dy i))) with n. change (nc (mk n 1 (fun i _ => - dy i))) with 1%nat. cbn [Z.eqb Pos.eqb the_matrix bind].
    set (mu := ndiv _ _). change (as_real (Mat 1 1 [[mu]])) with (@Ok R mu). rewrite bind_Ok.
    assert (Emu : mu = Rmean n (fun i => - dy i)).
    { unfold mu, Rmean. cbn [ndiv nofZ NumR]. rewrite Nat.mul_1_r, <- INR_IZR_INZ, Rsum_sumn. f_equal. apply sumn_ext. intros i Hi. rewrite sum1. now rewrite entry_mk by (exact Hi || lia). }
    unfold sum. cbn [Z.eqb Pos.eqb the_matrix bind]. set (ss := sum_all _).
    assert (Ess : ss = sumn n (fun i => (- dy i - mu) * (- dy i - mu))).
    { unfold ss, sum_all, squares, sub_scalar. rewrite !map_mk. change (nr (mk n 1 _)) with n. change (nc (mk n 1 _)) with 1%nat. rewrite sum1. apply sumn_ext. intros i Hi. rewrite entry_mk by (exact Hi || lia). reflexivity. }
    unfold sqrt_mat, div_scalar. change (as_real (map_mat nsqrt (map_mat (fun x => ndiv x (nofZ (Z.of_nat n - 1))) (Mat 1 1 [[ss]])))) with (@Ok R (sqrt (ss / IZR (Z.of_nat n - 1)))).
    rewrite bind_Ok. set (syd := sqrt _). assert (Esyd : syd = sqrt (Rvar n dy)).
    { unfold syd. f_equal. rewrite Ess, Emu, <- Rvar_opp. unfold Rvar. rewrite Rsum_sumn. f_equal. rewrite INR_IZR_INZ. f_equal. lia. }
    rewrite zeros_mk by lia.
    destruct (for_range_inv (fun k W => W = mk n n (fun a b => if (a =? b)%nat && (a <? k)%nat then pow2 (dy a / syd) else 0))
      (fun W i => do ydi <- get (mk n 1 (fun i _ => - dy i)) (Z.of_nat i) 0; set W (Z.of_nat i) (Z.of_nat i) (pow2 (ndiv (nmul (nofZ (-1)) ydi) syd))) n (mk n n (fun _ _ => n0))) as (W & EW & HW).
    + apply mk_ext. intros a b _ _. now rewrite andb_false_r.
    + intros k W Hk ->. change 0%Z with (Z.of_nat 0). rewrite get_mk by lia. rewrite bind_Ok, set_mk by lia. eexists. split; [reflexivity|]. apply mk_ext. intros a b Ha Hb.
      replace (ndiv (nmul (nofZ (-1)) (- dy k)) syd) with (dy k / syd) by (cbn [ndiv nmul nofZ NumR]; unfold Rdiv; ring).
      destruct (Nat.eqb_spec a k) as [->|Hak]; cbn [andb].
      * rewrite Nat.eqb_sym. destruct (Nat.eqb_spec k b) as [->|Hbk]; cbn [andb]; [|reflexivity]. destruct (Nat.ltb_spec b (S b)); [reflexivity|lia].
      * destruct (Nat.eqb_spec a b) as [->|Hab]; cbn [andb]; [|reflexivity]. destruct (Nat.ltb_spec b k), (Nat.ltb_spec b (S k)); try reflexivity; lia.
    + rewrite EW, bind_Ok. rewrite HW, mul_mk, bind_Ok, transpose_mk, mul_mk, bind_Ok, mul_mk. f_equal. apply mk_ext. intros j l Hj Hl.
      apply sumn_ext. intros i Hi. cbn [nmul NumR]. set (w := ygrad_weight n _ i). assert (Ew : w = pow2 (dy i / syd)) by (unfold w, ygrad_weight; now rewrite Esyd).
      rewrite (sumR_single n i); [|exact Hi|].
      * rewrite (sumR_single n i); [|exact Hi|].
        -- rewrite Nat.eqb_refl. destruct (Nat.ltb_spec i n); [|lia]. cbn [andb]. rewrite !EX by assumption. rewrite Ew. unfold p. ring.
        -- intros a Ha Hne. rewrite (proj2 (Nat.eqb_neq i a)) by congruence. cbn [andb]. ring.
      * intros b Hb Hne. rewrite (sumn_ext n _ (fun _ => 0)); [rewrite (sumR_zero n) by reflexivity; ring|]. intros a Ha.
        destruct (Nat.eqb_spec b a) as [->|Hba]; cbn [andb]; [|ring]. rewrite (proj2 (Nat.eqb_neq a i)) by congruence. cbn [andb]. ring.
Qed.
End Covariance.

(** * C76: the claimed covariance weighs sample i with 2^(-y'_i / s).  What the code computes is the same
    sum with weights 2^(+y'_i / s) (its gradient has the wrong sign, see C58). *)
Definition sample_weight (sign : R) (n : nat) (y : nat -> R) (i : nat) : R := Rpower 2 (sign * gradient n y i / sqrt (Rvar n (gradient n y))).
Definition weighted_covariance (sign : R) (n : nat) (X : nat -> nat -> R) (y : nat -> R) (p : nat -> nat) (j l : nat) : R :=
  Rsum n (fun i => let w := sample_weight sign n (fun k => y (p k)) i in
    w * w * gradient n (fun k => X (p k) j) i * gradient n (fun k => X (p k) l) i).
Theorem C76_covariance_partial (X y : mat R) : wf X -> wf y -> nr X = nr y -> nc y = 1%nat -> (2 <= nr X)%nat -> nc X <> 0%nat ->
  let n := nr X in
  exists p C, sorts n (fun i => entry y i 0) p /\ (forall k, (k < n)%nat -> exists i, (i < n)%nat /\ p i = k) /\
    ygrad_covariance (Rpower 2) X y = Ok C /\ wf C /\ nr C = nc X /\ nc C = nc X /\
    (Rvar n (gradient n (fun k => entry y (p k) 0)) <> 0 -> forall j l, (j < nc X)%nat -> (l < nc X)%nat ->
       entry C j l = weighted_covariance 1 n (entry X) (fun i => entry y i 0) p j l).
Proof.
  intros WX Wy Hrows Hc Hn Hp n. destruct (ygrad_run (Rpower 2) X y WX Wy Hrows Hc Hn Hp) as (p & Hs & Hperm & E). fold n in Hs, Hperm, E. exists p. eexists. split; [exact Hs|]. split.
  - intros k Hk. assert (Hin : In k (map p (seq 0 n))) by (eapply Permutation_in; [apply Permutation_sym; exact Hperm|apply in_seq; lia]). apply in_map_iff in Hin as (i & Ei & Hi). apply in_seq in Hi. exists i. split; [lia|exact Ei].
  - split; [exact E|]. split; [apply mk_wf|]. split; [reflexivity|]. split; [reflexivity|]. intros _ j l Hj Hl. rewrite entry_mk by assumption. unfold weighted_covariance. rewrite Rsum_sumn. apply sumn_ext. intros i Hi. cbv zeta. unfold sample_weight. now rewrite Rmult_1_l.
Qed.
Lemma Rpower_nat x n : 0 < x -> Rpower x (INR n) = x ^ n. Proof. apply Rpower_pow. Qed.
(** y = 0, 1, 3 and X = y: gradients 0.7, 0.9, 0.8, s = 0.1 *)
Theorem C76_refuted : exists (X y C : mat R) (p : nat -> nat), wf X /\ wf y /\ nr X = 3%nat /\ nr y = 3%nat /\ nc y = 1%nat /\ nc X = 1%nat /\
  sorts 3 (fun i => entry y i 0) p /\ Rvar 3 (gradient 3 (fun k => entry y (p k) 0)) = 1 / 100 /\
  ygrad_covariance (Rpower 2) X y = Ok C /\ 100000 < entry C 0 0 /\ weighted_covariance (-1) 3 (entry X) (fun i => entry y i 0) p 0 0 < 1.
Proof.
  set (y := Mat 3 1 [[0];[1];[3]]). assert (Wy : wf y) by (split; [reflexivity|repeat constructor]).
  destruct (C76_covariance_partial y y Wy Wy eq_refl eq_refl ltac:(cbn; lia) ltac:(discriminate)) as (p & C & Hs & _ & E & _ & _ & _ & HC). change (nr y) with 3%nat in *.
  assert (Hid : forall i, (i < 3)%nat -> p i = i).
  { apply (sorts_unique 3 (fun i => entry y i 0) p (fun i => i) Hs). split; [auto|]. intros i j Hij. left. assert (Hc : ((i = 0 /\ j = 1) \/ (i = 0 /\ j = 2) \/ (i = 1 /\ j = 2))%nat) by lia. destruct Hc as [(-> & ->)|[(-> & ->)|(-> & ->)]]; cbn; lra. }
  assert (G : forall f, (forall i, (i < 3)%nat -> f i = entry y i 0) -> gradient 3 f 0 = 7 / 10 /\ gradient 3 f 1 = 9 / 10 /\ gradient 3 f 2 = 8 / 10).
  { intros f Hf. unfold gradient. cbv zeta. change (Z.of_nat 0) with 0%Z. change (Z.of_nat 1) with 1%Z. change (Z.of_nat 2) with 2%Z. cbn [Z.add Pos.add Z.pos_sub Pos.pred_double Z.succ_double Z.pred_double Z.double]. change (at_end 3 2) with 2%nat. change (at_end 3 1) with 1%nat. change (at_end 3 (-1)) with 0%nat. change (at_end 3 (-2)) with 0%nat. change (at_end 3 3) with 2%nat. change (at_end 3 0) with 0%nat. change (at_end 3 4) with 2%nat.
    rewrite !Hf by lia. cbn. repeat split; field. }
  set (f := fun k => entry y (p k) 0) in *. destruct (G f) as (G0 & G1 & G2); [intros i Hi; unfold f; now rewrite Hid|].
  assert (V : Rvar 3 (gradient 3 f) = 1 / 100).
  { unfold Rvar, Rmean. rewrite !Rsum_sumn. rewrite !sumR_S, !sumR_0, G0, G1, G2. cbn [INR Nat.sub]. field. }
  assert (S : sqrt (1 / 100) = 1 / 10). { replace (1 / 100) with (1 / 10 * (1 / 10)) by field. apply sqrt_square. lra. }
  exists y, y, C, p. split; [exact Wy|]. split; [exact Wy|]. do 4 (split; [reflexivity|]). split; [exact Hs|]. split; [exact V|]. split; [exact E|].
  assert (P7 : Rpower 2 7 = 128). { replace 7 with (INR 7) by (cbn; ring). rewrite Rpower_pow by lra. ring. }
  assert (P9 : Rpower 2 9 = 512). { replace 9 with (INR 9) by (cbn; ring). rewrite Rpower_pow by lra. ring. }
  assert (P8 : Rpower 2 8 = 256). { replace 8 with (INR 8) by (cbn; ring). rewrite Rpower_pow by lra. ring. }
  split.
  - rewrite HC; [|rewrite V; lra|cbn; lia|cbn; lia]. unfold weighted_covariance. rewrite Rsum_sumn, !sumR_S, sumR_0. cbv zeta. fold f. unfold sample_weight. rewrite V, S, G0, G1, G2.
    replace (1 * (7 / 10) / (1 / 10)) with 7 by field. replace (1 * (9 / 10) / (1 / 10)) with 9 by field. replace (1 * (8 / 10) / (1 / 10)) with 8 by field. rewrite P7, P8, P9. lra.
  - unfold weighted_covariance. rewrite Rsum_sumn, !sumR_S, sumR_0. cbv zeta. fold f. unfold sample_weight. rewrite V, S, G0, G1, G2.
    replace (-1 * (7 / 10) / (1 / 10)) with (- (7)) by field. replace (-1 * (9 / 10) / (1 / 10)) with (- (9)) by field. replace (-1 * (8 / 10) / (1 / 10)) with (- (8)) by field.
    rewrite !Rpower_Ropp, P7, P8, P9. lra.
Qed.

(** * C77: the order in which the samples are given does not matter when their responses differ. *)
Theorem C77_sample_order kind eig svd lstsq (pow2 : R -> R) (s : glsw_st R) (X y : mat R) (q q' : nat -> nat) :
  is_ygrad kind = true -> wf X -> wf y -> nr X = nr y -> nc y = 1%nat -> (2 <= nr X)%nat -> nc X <> 0%nat ->
  (forall i j, (i < nr y)%nat -> (j < nr y)%nat -> i <> j -> entry y i 0 <> entry y j 0) ->
  (forall i, (i < nr X)%nat -> (q i < nr X)%nat /\ (q' i < nr X)%nat /\ q (q' i) = i /\ q' (q i) = i) ->
  glsw_initialize kind eig svd lstsq pow2 s (Some (mk (nr X) (nc X) (fun i j => entry X (q i) j))) (Some (mk (nr y) 1 (fun i j => entry y (q i) j))) =
  glsw_initialize kind eig svd lstsq pow2 s (Some X) (Some y).
Proof.
  intros Hk WX Wy Hrows Hc Hn Hp Hdis Hq. set (n := nr X) in *. rewrite <- Hrows in *. set (X' := mk n (nc X) _). set (y' := mk n 1 _).
  assert (EC : ygrad_covariance pow2 X' y' = ygrad_covariance pow2 X y).
  { destruct (ygrad_run pow2 X y WX Wy Hrows Hc Hn Hp) as (p & Hs & _ & E). destruct (ygrad_run pow2 X' y' (mk_wf _ _ _) (mk_wf _ _ _) eq_refl eq_refl Hn Hp) as (p' & (P1 & P2) & _ & E'). fold n in Hs, E.
    change (nr X') with n in *. change (nc X') with (nc X) in *. rewrite E, E'. f_equal.
    assert (Ey : forall i, (i < n)%nat -> entry y' i 0 = entry y (q i) 0) by (intros i Hi; unfold y'; now rewrite entry_mk by lia).
    assert (Hpq : forall i, (i < n)%nat -> q (p' i) = p i).
    { apply (sorts_unique n (fun i => entry y i 0) (fun i => q (p' i)) p); [|exact Hs]. split; [intros i Hi; now apply Hq, P1|].
      intros i j Hij. left. destruct (P2 i j Hij) as [Q|[Q1 Q2]]; rewrite !Ey in * by (apply P1; lia); [exact Q|]. exfalso.
      assert (A1 : (p' i < n)%nat) by (apply P1; lia). assert (A2 : (p' j < n)%nat) by (apply P1; lia).
      apply (Hdis (q (p' i)) (q (p' j))); [now apply Hq|now apply Hq| |exact Q1]. intros Q. assert (p' i = p' j); [|lia]. rewrite <- (proj2 (proj2 (proj2 (Hq _ A1)))), <- (proj2 (proj2 (proj2 (Hq _ A2)))). now rewrite Q. }
    assert (Hg : forall f g i, (forall k, (k < n)%nat -> f k = g k) -> gradient n f i = gradient n g i).
    { intros f g i Hfg. unfold gradient. cbv zeta. assert (Hb : forall k, (at_end n k < n)%nat) by (intros k; unfold at_end; lia). now rewrite !Hfg by apply Hb. }
    apply mk_ext. intros j l Hj Hl. apply sumn_ext. intros i Hi. cbv zeta.
    assert (EX : forall j, (j < nc X)%nat -> gradient n (fun k => entry X' (p' k) j) i = gradient n (fun k => entry X (p k) j) i).
    { intros j' Hj'. apply Hg. intros k Hk'. unfold X'. rewrite entry_mk by auto. now rewrite Hpq. }
    rewrite !EX by assumption. do 2 f_equal. unfold ygrad_weight.
    assert (Ed : forall i, gradient n (fun k => entry y' (p' k) 0) i = gradient n (fun k => entry y (p k) 0) i).
    { intros i'. apply Hg. intros k Hk'. rewrite Ey by auto. now rewrite Hpq. }
    assert (Ev : Rvar n (gradient n (fun k => entry y' (p' k) 0)) = Rvar n (gradient n (fun k => entry y (p k) 0))).
    { unfold Rvar, Rmean. rewrite (Rsum_ext n (gradient n (fun k => entry y' (p' k) 0)) (gradient n (fun k => entry y (p k) 0))) by auto. f_equal. apply Rsum_ext. intros a _. now rewrite Ed. }
    rewrite Ed, Ev. reflexivity. }
  unfold glsw_initialize, glsw_check, glsw_matrix, covariance. rewrite Hk, EC. change (nr X') with n. change (nr y') with n. fold n. rewrite <- Hrows. reflexivity.
Qed.
(** samples given in the reverse order *)
Example C77_ex : let X := mk 3 2 (fun i j => INR (i * i + j)) in let y := mk 3 1 (fun i _ => INR (i * i)) in let q i := (2 - i)%nat in
  wf X /\ wf y /\ (forall i j, (i < nr y)%nat -> (j < nr y)%nat -> i <> j -> entry y i 0 <> entry y j 0) /\
  (forall i, (i < nr X)%nat -> (q i < nr X)%nat /\ (q i < nr X)%nat /\ q (q i) = i /\ q (q i) = i) /\
  entry (mk 3 1 (fun i j => entry y (q i) j)) 0 0 = 4.
Proof.
  cbv zeta. split; [apply mk_wf|]. split; [apply mk_wf|]. cbn [nr mk]. split; [|split].
  - intros i j Hi Hj Hne E. rewrite !entry_mk in E by lia. apply INR_eq in E. nia.
  - intros i Hi. lia.
  - rewrite !entry_mk by lia. cbn. ring.
Qed.
Example C76_ex : let y := Mat 3 1 [[0];[1];[3]] in wf y /\ sorts 3 (fun i => entry y i 0) (fun i => i) /\ gradient 3 (fun i => entry y i 0) 1 = 9 / 10.
Proof.
  split; [split; [reflexivity|repeat constructor]|]. split.
  - split; [auto|]. intros i j Hij. left. assert (Hc : ((i = 0 /\ j = 1) \/ (i = 0 /\ j = 2) \/ (i = 1 /\ j = 2))%nat) by lia. destruct Hc as [(-> & ->)|[(-> & ->)|(-> & ->)]]; cbn; lra.
  - unfold gradient. cbv zeta. change (at_end 3 (Z.of_nat 1 + 2)) with 2%nat. change (at_end 3 (Z.of_nat 1 + 1)) with 2%nat. change (at_end 3 (Z.of_nat 1 + -1)) with 0%nat. change (at_end 3 (Z.of_nat 1 + -2)) with 0%nat. cbn. field.
Qed.
Print Assumptions C76_covariance_partial.
Print Assumptions C76_refuted.
Print Assumptions C77_sample_order.
