(** PRM over the reals: robustness weights and Weiszfeld's iteration on tables. *)
From Coq Require Import List ZArith Lia Bool Arith Reals Lra Permutation Sorted.
From Verif Require Import Base Num Mat M_Matrix M_Factory M_Helper M_Loop M_Transform M_PLSBase M_PLS M_PLS2
  S_Matrix L_Base L_Mat L_MatR L_Matrix L_Alg P_PRM P_Sparse P_Median.
Import ListNotations.
Local Open Scope R_scope.

(** Euclidean distance of row i from g *)
Definition dist (q : nat) (X : nat -> nat -> R) (g : nat -> R) (i : nat) : R := sqrt (Rsum q (fun j => (X i j - g j) * (X i j - g j))).
(** 1/d, and 10 for distances below 1e-10 *)
Definition guarded (d : R) : R := if Rlt_dec d (/ 10 ^ 10) then 10 else / d.
(** One step of the iteration *)
Definition weiszfeld (n q : nat) (X : nat -> nat -> R) (g : nat -> R) (j : nat) : R :=
  Rsum n (fun i => X i j * guarded (dist q X g i)) / Rsum n (fun i => guarded (dist q X g i)).
Fixpoint iterate (n q : nat) (X : nat -> nat -> R) (k : nat) : nat -> R :=
  match k with O => fun j => Rsum n (fun i => X i j) / INR n | S k => weiszfeld n q X (iterate n q X k) end.
(** Squared length of the k-th step *)
Definition step_length (n q : nat) (X : nat -> nat -> R) (k : nat) : R :=
  Rsum q (fun j => (iterate n q X (S k) j - iterate n q X k j) * (iterate n q X (S k) j - iterate n q X k j)).
(** The Fair weight function *)
Definition fairw (C z : R) : R := / ((1 + Rabs (z / C)) * (1 + Rabs (z / C))).

Lemma fair_fairw z c : fair z c = fairw c z.
Proof. unfold fair, fairw. cbn [nadd nmul ndiv nabs n1 NumR]. unfold Rdiv at 1. ring. Qed.
Lemma lit_small : lit (T:=R) 1 10 = / 10 ^ 10.
Proof. unfold lit. cbn [ndiv nofZ NumR]. replace (10 ^ 10)%Z with 10000000000%Z by reflexivity. replace (10 ^ 10) with 10000000000 by lra. unfold Rdiv. ring. Qed.
Lemma dist_pos q X g i : 0 <= dist q X g i.
Proof. apply sqrt_pos. Qed.
Lemma safe_guarded d : 0 <= d -> safe_inverse (T:=R) d = guarded d.
Proof.
  intros Hd. unfold safe_inverse, guarded. rewrite lit_small. cbn [nltb nabs ndiv n1 NumR]. unfold Rltb. rewrite Rabs_pos_eq by exact Hd. unfold lit. cbn [ndiv nofZ NumR]. change (10 ^ 1)%Z with 10%Z.
  destruct (Rlt_dec d (/ 10 ^ 10)); [field|unfold Rdiv; ring].
Qed.
Lemma guarded_pos d : 0 <= d -> 0 < guarded d.
Proof. intros Hd. unfold guarded. assert (0 < / 10 ^ 10) by (apply Rinv_0_lt_compat; lra). destruct (Rlt_dec d (/ 10 ^ 10)); [lra|]. apply Rinv_0_lt_compat. lra. Qed.
Lemma norm2_row q (f : nat -> nat -> R) : norm2 (mk 1 q f) = sqrt (sumn q (fun j => f 0%nat j * f 0%nat j)).
Proof.
  unfold norm2. rewrite is_vector_row. rewrite frobenius_sumsq. f_equal. unfold sumsq. cbn [nr nc mk]. rewrite sum1. apply sumn_ext. intros j Hj. now rewrite entry_mk by lia.
Qed.
Lemma norm2_squared_row q (f : nat -> nat -> R) : norm2_squared (mk 1 q f) = sumn q (fun j => f 0%nat j * f 0%nat j).
Proof. unfold norm2_squared. rewrite norm2_row. cbn [nmul NumR]. apply sqrt_sqrt. apply sumR_nonneg. intros. nra. Qed.
Lemma fill_run n (g : nat -> res R) (f : nat -> R) : n <> 0%nat -> (forall i, (i < n)%nat -> g i = Ok (f i)) ->
  for_range n (fun W i => do w <- g i; set W (zn i) 0 w) (zeros (zn n) 1) = Ok (mk n 1 (fun i _ => f i)).
Proof.
  intros Hn Hg. change (zeros (zn n) 1) with (zeros (Z.of_nat n) (Z.of_nat 1) : mat R). rewrite zeros_mk by exact Hn.
  match goal with |- for_range n ?b ?a = _ => destruct (for_range_inv (fun k M => M = mk n 1 (fun i _ => if (i <? k)%nat then f i else 0)) b n a) as (K & E & HK) end.
  - apply mk_ext. intros i j _ _. reflexivity.
  - intros k M Hk ->. rewrite Hg by exact Hk. cbn [bind]. rewrite set_mk_0 by lia. eexists. split; [reflexivity|]. apply mk_ext. intros i j Hi Hj. replace j with 0%nat by lia.
    rewrite andb_true_r. destruct (Nat.eqb_spec i k) as [->|Hne]; [rewrite (proj2 (Nat.ltb_lt k (S k))) by lia; reflexivity|]. destruct (Nat.ltb_spec i k), (Nat.ltb_spec i (S k)); try lia; reflexivity.
  - rewrite E, HK. f_equal. apply mk_ext. intros i j Hi _. now rewrite (proj2 (Nat.ltb_lt i n) Hi).
Qed.
Lemma c_dist_run n q X g : n <> 0%nat -> c_dist (mk n q X) (mk 1 q (fun _ j => g j)) = Ok (mk n 1 (fun i _ => dist q X g i)).
Proof.
  intros Hn. unfold c_dist. cbn [nr mk]. rewrite <- (fill_run n (fun i => Ok (dist q X g i)) (dist q X g) Hn) by reflexivity.
  apply for_each_ext. intros M i Hi. apply in_seq in Hi. unfold zn at 1. rewrite get_row_mk by lia. cbn [bind]. rewrite sub_mk. cbn [bind]. rewrite norm2_row. unfold dist. rewrite Rsum_sumn. reflexivity.
Qed.
Lemma scale_col_run n q (X : nat -> nat -> R) (w : nat -> R) : (2 <= n)%nat -> scale_by_column_vector (mk n q X) (mk n 1 (fun i _ => w i)) = Ok (mk n q (fun i j => X i j * w i)).
Proof.
  intros Hn. destruct (proj1 (proj2 (proj2 (scale_by_column_vector_spec (mk n q X) (mk n 1 (fun i _ => w i)))))) as (m' & -> & W & R1 & C1 & H1); try reflexivity; [left; cbn; lia|].
  f_equal. rewrite (wf_mk m' W), R1, C1. cbn [nr nc mk] in *. apply mk_ext. intros i j Hi Hj. rewrite H1 by assumption. now rewrite !entry_mk by lia.
Qed.
Lemma step_run n q X g : (2 <= n)%nat ->
  (do dists <- c_dist (mk n q X) (mk 1 q (fun _ j => g j));
   let dists := apply_elementwise dists safe_inverse in
   do sc <- scale_by_column_vector (mk n q X) dists;
   do nom <- the_matrix (sum sc (Some 0%Z));
   do ds <- the_matrix (sum dists (Some 0%Z));
   do denom <- as_real ds;
   Ok (div_scalar nom denom)) = Ok (mk 1 q (fun _ j => weiszfeld n q X g j)).
Proof.
  intros Hn. rewrite c_dist_run by lia. cbn [bind]. cbv zeta. unfold apply_elementwise. rewrite map_mk.
  rewrite (mk_ext n 1 (fun i j => safe_inverse (dist q X g i)) (fun i _ => guarded (dist q X g i))) by (intros; apply safe_guarded, dist_pos).
  rewrite scale_col_run by exact Hn. cbn [bind sum the_matrix Z.eqb]. unfold sum_axis0. cbn [nr nc mk]. rewrite as_real_mk. cbn [bind]. rewrite div_scalar_mk. f_equal. apply mk_ext. intros i j _ Hj.
  unfold weiszfeld. cbn [ndiv NumR]. rewrite !Rsum_sumn. f_equal; apply sumn_ext; intros k Hk; now rewrite entry_mk by lia.
Qed.
(** The iteration stops after max_iter steps or after the first step whose squared length is below tol. *)
Definition stops_at (n q : nat) (X : nat -> nat -> R) (tol : R) (max_iter : Z) (m : nat) : Prop :=
  (Z.of_nat m <= Z.max 0 max_iter)%Z /\ (forall k, (S k < m)%nat -> tol <= step_length n q X k) /\
  ((max_iter <= Z.of_nat m)%Z \/ exists k, m = S k /\ step_length n q X k < tol).
Lemma geometric_loop_run n q X tol max_iter : (2 <= n)%nat -> forall fuel k, (max_iter <= Z.of_nat k + Z.of_nat fuel)%Z -> (Z.of_nat k <= Z.max 0 max_iter)%Z -> (forall l, (l < k)%nat -> tol <= step_length n q X l) ->
  exists m, geometric_loop fuel tol max_iter (mk n q X) (mk 1 q (fun _ j => iterate n q X k j)) (Z.of_nat k) = Ok (mk 1 q (fun _ j => iterate n q X m j)) /\ stops_at n q X tol max_iter m.
Proof.
  intros Hn. induction fuel as [|fuel IH]; intros k Hf Hk Hl; cbn [geometric_loop].
  - destruct (Z.ltb_spec (Z.of_nat k) max_iter); [lia|]. exists k. split; [reflexivity|]. split; [exact Hk|]. split; [intros; apply Hl; lia|left; lia].
  - destruct (Z.ltb_spec (Z.of_nat k) max_iter) as [Hlt|Hge]; [|exists k; split; [reflexivity|]; split; [exact Hk|]; split; [intros; apply Hl; lia|left; lia]].
    pose proof (step_run n q X (iterate n q X k) Hn) as Est. cbv zeta in Est.
    destruct (c_dist _ _) as [ds|]; cbn [bind] in Est |- *; [|discriminate]. cbv zeta. destruct (scale_by_column_vector _ _) as [sc|]; cbn [bind] in Est |- *; [|discriminate].
    destruct (the_matrix (sum sc _)) as [nom|]; cbn [bind] in Est |- *; [|discriminate]. destruct (the_matrix (sum (apply_elementwise ds safe_inverse) _)) as [dsm|]; cbn [bind] in Est |- *; [|discriminate].
    destruct (as_real dsm) as [den|]; cbn [bind] in Est |- *; [|discriminate]. assert (Est' : div_scalar nom den = mk 1 q (fun _ j => weiszfeld n q X (iterate n q X k) j)) by congruence. rewrite Est'. rewrite sub_mk. cbn [bind]. rewrite norm2_squared_row.
    match goal with |- context [nltb ?a tol] => assert (Es : a = step_length n q X k) by (unfold step_length; rewrite Rsum_sumn; reflexivity); rewrite Es end.
    cbn [nltb NumR]. unfold Rltb. destruct (Rlt_dec (step_length n q X k) tol) as [Hs|Hs].
    + exists (S k). split; [reflexivity|]. split; [lia|]. split; [intros l Hll; apply Hl; lia|]. right. now exists k.
    + replace (Z.of_nat k + 1)%Z with (Z.of_nat (S k)) by lia. apply (IH (S k)); try lia. intros l Hll. destruct (Nat.eq_dec l k) as [->|]; [lra|apply Hl; lia].
Qed.
Lemma geometric_run (a : prm_st (T:=R)) n q X : (2 <= n)%nat ->
  exists m, geometric_median a (mk n q X) = Ok (mk 1 q (fun _ j => iterate n q X m j)) /\ stops_at n q X (pr_tol a) (pr_max_iter a) m.
Proof.
  intros Hn. unfold geometric_median. cbn [mean Z.eqb the_matrix bind].
  destruct (geometric_loop_run n q X (pr_tol a) (pr_max_iter a) Hn (Z.to_nat (pr_max_iter a)) 0) as (m & E & H); try lia.
  exists m. split; [|exact H]. change 0%Z with (Z.of_nat 0). rewrite <- E. f_equal. cbn [nr nc mk]. apply mk_ext. intros i j _ Hj. cbn [iterate]. cbn [ndiv nofZ NumR]. rewrite Rsum_sumn, INR_IZR_INZ. f_equal. apply sumn_ext. intros k Hk. now rewrite entry_mk.
Qed.

(** Median of f 0 .. f (n-1), and of the absolute deviations from it *)
Definition med_of (n : nat) (f : nat -> R) (m : R) : Prop := is_median (map f (seq 0 n)) m.
Definition mad_of (n : nat) (f : nat -> R) (v : R) : Prop := exists m, med_of n f m /\ med_of n (fun i => Rabs (f i - m)) v.
Lemma med_ext n f g m : (forall i, (i < n)%nat -> f i = g i) -> med_of n f m -> med_of n g m.
Proof. intros H. unfold med_of. replace (map g (seq 0 n)) with (map f (seq 0 n)); [auto|]. apply map_ext_in. intros i Hi. apply in_seq in Hi. apply H. lia. Qed.
Lemma med_unique n f m m' : med_of n f m -> med_of n f m' -> m = m'.
Proof. apply is_median_unique. Qed.
Lemma mad_unique n f m m' : mad_of n f m -> mad_of n f m' -> m = m'.
Proof. intros (a & A1 & A2) (b & B1 & B2). rewrite (med_unique n f b a B1 A1) in B2. now apply (med_unique n (fun i => Rabs (f i - a))). Qed.
Lemma median_col n (f : nat -> nat -> R) : n <> 0%nat -> med_of n (fun i => f i 0%nat) (median (mk n 1 f)).
Proof.
  intros Hn. unfold med_of. replace (map (fun i => f i 0%nat) (seq 0 n)) with (entries (mk n 1 f)); [apply C84_median; cbn; lia|].
  unfold entries. cbn [nr nc mk]. assert (G : forall l, (forall i, In i l -> (i < n)%nat) -> flat_map (fun i => map (entry (mk n 1 f) i) (seq 0 1)) l = map (fun i => f i 0%nat) l).
  { induction l as [|i l IH]; intros Hl; [reflexivity|]. cbn [flat_map seq map app]. rewrite entry_mk by (try apply Hl; try (now left); lia). f_equal. apply IH. intros; apply Hl. now right. }
  apply G. intros i Hi. apply in_seq in Hi. lia.
Qed.
Lemma mad_col n (f : nat -> nat -> R) : n <> 0%nat -> mad_of n (fun i => f i 0%nat) (mad (mk n 1 f)).
Proof.
  intros Hn. unfold mad. rewrite sub_scalar_mk. unfold abs, apply_elementwise. rewrite map_mk. exists (median (mk n 1 f)). split; [now apply median_col|].
  eapply med_ext; [|apply median_col; exact Hn]. intros i Hi. cbn beta. rewrite abs_el_R. reflexivity.
Qed.
(** update_leverage_weights *)
Definition leverage (C tol : R) (max_iter : Z) (n q : nat) (X : nat -> nat -> R) (w : nat -> R) : Prop :=
  exists m sc, stops_at n q X tol max_iter m /\ med_of n (dist q X (iterate n q X m)) sc /\ forall i, (i < n)%nat -> w i = fairw C (dist q X (iterate n q X m) i / sc).
Lemma leverage_run (a : prm_st (T:=R)) n q X : (2 <= n)%nat ->
  exists w, leverage_weights a (mk n q X) = Ok (mk n 1 (fun i _ => w i)) /\ leverage (pr_C a) (pr_tol a) (pr_max_iter a) n q X w.
Proof.
  intros Hn. destruct (geometric_run a n q X Hn) as (m & E & Hm). unfold leverage_weights. cbn [nr mk]. rewrite E. cbn [bind]. rewrite c_dist_run by lia. cbn [bind]. cbv zeta.
  set (sc := median _). exists (fun i => fairw (pr_C a) (dist q X (iterate n q X m) i / sc)). split.
  - rewrite <- (fill_run n (fun i => Ok (fairw (pr_C a) (dist q X (iterate n q X m) i / sc)))) by (try lia; reflexivity). apply for_each_ext. intros M i Hi. apply in_seq in Hi. unfold zn at 1. rewrite get_mk_0 by lia. cbn [bind]. rewrite fair_fairw. reflexivity.
  - exists m, sc. split; [exact Hm|]. split; [|reflexivity]. apply (median_col n (fun i _ => dist q X (iterate n q X m) i)). lia.
Qed.
(** update_residual_weights *)
Definition residual_rule (C : R) (n : nat) (r : nat -> R) (w : nat -> R) : Prop :=
  exists sc, mad_of n r sc /\ forall i, (i < n)%nat -> w i = fairw C (r i / sc).
Lemma residual_run (a : prm_st (T:=R)) est n q X (y r : nat -> R) : n <> 0%nat ->
  (forall i, (i < n)%nat -> (do y_hat <- match est with
                  | None => Ok (median (mk n 1 (fun i _ => y i)))
                  | Some (Ts, gamma) => do row <- get_row Ts (zn i); do tg <- mul row gamma; as_real tg
                  end; Ok (y i - y_hat)) = Ok (r i)) ->
  exists w, residual_weights a est (mk n q X) (mk n 1 (fun i _ => y i)) = Ok (mk n 1 (fun i _ => w i)) /\ residual_rule (pr_C a) n r w.
Proof.
  intros Hn Hr. unfold residual_weights. cbn [nr mk]. cbv zeta.
  match goal with |- context [bind ?x _] => assert (E : x = Ok (mk n 1 (fun i _ => r i))) end.
  { rewrite <- (fill_run n (fun i => do y_hat <- match est with
                  | None => Ok (median (mk n 1 (fun i _ => y i)))
                  | Some (Ts, gamma) => do row <- get_row Ts (zn i); do tg <- mul row gamma; as_real tg
                  end; Ok (y i - y_hat)) r Hn Hr). apply for_each_ext. intros M i Hi. apply in_seq in Hi.
    match goal with |- bind ?x _ = _ => destruct x end; cbn [bind]; [|reflexivity]. unfold zn at 1. rewrite get_mk_0 by lia. reflexivity. }
  rewrite E. cbn [bind]. set (sc := mad _). rewrite div_scalar_mk. exists (fun i => fairw (pr_C a) (r i / sc)). split.
  - rewrite <- (fill_run n (fun i => Ok (fairw (pr_C a) (r i / sc)))) by (try lia; reflexivity). apply for_each_ext. intros M i Hi. apply in_seq in Hi. unfold zn at 1. rewrite get_mk_0 by lia. cbn [bind]. rewrite fair_fairw. reflexivity.
  - exists sc. split; [|reflexivity]. apply (mad_col n (fun i _ => r i) Hn).
Qed.
