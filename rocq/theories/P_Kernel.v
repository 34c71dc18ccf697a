(** C45: kernel matrices. *)
From Coq Require Import List ZArith Lia Bool Arith Reals Lra.
From Verif Require Import Base Num Mat M_Matrix M_Factory M_Loop M_Kernel S_Matrix L_Base L_Mat L_Matrix L_MatR P_Matrix.
Import ListNotations.
Local Open Scope nat_scope.

(** Independent reading: scalar product and distance of two rows. *)
Definition dot (n : nat) (x y : nat -> R) : R := Rsum n (fun k => x k * y k)%R.
Definition dist (n : nat) (x y : nat -> R) : R := sqrt (Rsum n (fun k => (x k - y k) * (x k - y k))%R).
Definition Rpow (x : R) (d : Z) : R := powerRZ x d.

Definition row_of (X : mat R) (i : nat) : mat R := mk 1 (nc X) (fun _ k => entry X i k).
Lemma vector_dot_rows X Y i j : nc X = nc Y -> vector_dot (row_of X i) (row_of Y j) = Ok (dot (nc X) (entry X i) (entry Y j)).
Proof.
  intros Hc. unfold vector_dot, row_of. assert (V : forall (f : nat -> nat -> R), is_vector (mk 1 (nc X) f) = true) by (intros; apply is_vector_iff; now left).
  rewrite <- Hc, !V. cbn [negb orb]. unfold num_elements. cbn [nr nc mk]. rewrite Nat.eqb_refl. cbn [negb]. f_equal. unfold dot. rewrite Rsum_sumn, Nat.mul_1_l. apply sumn_ext.
  intros k Hk. unfold vec_entry. rewrite !is_column_vector_eqb. cbn [nc mk]. destruct (Nat.eqb_spec (nc X) 1) as [E|E].
  - assert (k = 0) by lia. subst k. rewrite !entry_mk by lia. reflexivity.
  - rewrite !entry_mk by lia. reflexivity.
Qed.
Lemma mul_transpose_spec (X Y : mat R) : nc X = nc Y -> exists K, mul X (transpose Y) = Ok K /\ is_mat K (nr X) (nr Y) (fun i j => dot (nc X) (entry X i) (entry Y j)).
Proof.
  intros Hc. unfold mul, is_multiplicable_with. autorewrite with sh. rewrite Hc, Nat.eqb_refl. cbn [negb]. eexists. split; [reflexivity|].
  unfold matmul. autorewrite with sh. apply is_mat_mk_ext. intros i j Hi Hj. unfold dot. rewrite Rsum_sumn. rewrite <- Hc. apply sumn_ext. intros k Hk. rewrite transpose_entry by lia. reflexivity.
Qed.
Lemma dot_comm n x y : dot n x y = dot n y x.
Proof. unfold dot. apply Rsum_ext. intros. ring. Qed.
Lemma dist_comm n x y : dist n x y = dist n y x.
Proof. unfold dist. f_equal. apply Rsum_ext. intros. ring. Qed.

(** ** Linear kernel *)
Theorem C45_linear (X Y : mat R) : wf X -> wf Y -> nc X = nc Y ->
  exists K, linear_apply_matrix X (Some Y) = Ok K /\ wf K /\ nr K = nr X /\ nc K = nr Y /\
    forall i j, i < nr X -> j < nr Y -> exists x y, get_row X (Z.of_nat i) = Ok x /\ get_row Y (Z.of_nat j) = Ok y /\
      linear_apply_vector x y = Ok (entry K i j) /\ entry K i j = dot (nc X) (entry X i) (entry Y j).
Proof.
  intros WX WY Hc. unfold linear_apply_matrix. destruct (mul_transpose_spec X Y Hc) as (K & E & (W & R1 & C1 & N1)). exists K.
  split; [exact E|]. split; [exact W|]. split; [exact R1|]. split; [exact C1|]. intros i j Hi Hj. rewrite !get_row_nat by assumption. do 2 eexists.
  split; [reflexivity|]. split; [reflexivity|]. rewrite N1 by assumption. split; [|reflexivity]. apply (vector_dot_rows X Y i j Hc).
Qed.

(** ** Polynomial kernel: gamma defaults to 1 / columns on first use *)
Definition gamma_of (gamma : option R) (columns : nat) : R := match gamma with Some g => g | None => (1 / INR columns)%R end.
Lemma latch_gamma g n : latch g n = gamma_of g n.
Proof. destruct g; [reflexivity|]. unfold latch, gamma_of. cbn [ndiv NumR n1 nofZ]. now rewrite <- INR_IZR_INZ. Qed.
Theorem C45_poly (s : poly_st R) (X Y : mat R) : wf X -> wf Y -> nc X = nc Y ->
  exists K, poly_apply_matrix Rpow s X (Some Y) = (poly_set_gamma s (Some (gamma_of (p_gamma s) (nc X))), Ok K) /\ wf K /\ nr K = nr X /\ nc K = nr Y /\
    forall i j, i < nr X -> j < nr Y -> exists x y, get_row X (Z.of_nat i) = Ok x /\ get_row Y (Z.of_nat j) = Ok y /\
      snd (poly_apply_vector Rpow s x y) = Ok (entry K i j) /\
      entry K i j = Rpow (gamma_of (p_gamma s) (nc X) * dot (nc X) (entry X i) (entry Y j) + p_coef s)%R (p_degree s).
Proof.
  intros WX WY Hc. unfold poly_apply_matrix. destruct (mul_transpose_spec X Y Hc) as (K & E & (W & R1 & C1 & N1)). rewrite E. cbn [bind]. rewrite latch_gamma.
  eexists. split; [reflexivity|]. split; [apply mk_wf|]. split; [exact R1|]. split; [exact C1|]. intros i j Hi Hj. rewrite !get_row_nat by assumption. do 2 eexists.
  split; [reflexivity|]. split; [reflexivity|].
  rewrite entry_map_mat by (cbn; congruence). unfold add_scalar, mul_scalar. rewrite !entry_map_mat by (cbn; congruence). rewrite N1 by assumption. cbn [nmul nadd NumR].
  change (mk 1 (nc X) (fun _ j => entry X i j)) with (row_of X i). change (mk 1 (nc Y) (fun _ j0 => entry Y j j0)) with (row_of Y j).
  unfold poly_apply_vector. rewrite (vector_dot_rows X Y i j Hc). cbn [snd nc mk row_of]. rewrite latch_gamma. cbn [nmul nadd NumR].
  rewrite (Rmult_comm (dot _ _ _)). split; reflexivity.
Qed.

(** ** RBF kernel *)
Lemma sub_rows X Y i j : nc X = nc Y -> exists d, sub (row_of X i) (row_of Y j) = Ok d /\ norm2 d = dist (nc X) (entry X i) (entry Y j).
Proof.
  intros Hc. unfold sub. rewrite must_be_same_shape_eq. unfold same_shape_as. cbn [nr nc mk row_of]. rewrite Hc, !Nat.eqb_refl. cbn [andb bind]. eexists. split; [reflexivity|].
  unfold norm2. assert (V : is_vector (map2_mat nsub (row_of X i) (row_of Y j)) = true) by (apply is_vector_iff; now left). rewrite V. unfold frobenius, dist. cbn [nsqrt NumR].
  f_equal. rewrite Rsum_sumn. autorewrite with sh. cbn [nr nc mk row_of]. rewrite sumR_S, sumR_0, Hc, Rplus_0_l. apply sumn_ext. intros k Hk.
  unfold row_of. rewrite entry_map2_mat by (cbn [nr nc mk]; lia). rewrite !entry_mk by lia. reflexivity.
Qed.
Lemma rbf_vector g X Y i j : nc X = nc Y ->
  rbf_apply_vector exp g (row_of X i) (row_of Y j) = (Some (gamma_of g (nc X)), Ok (exp (- gamma_of g (nc X) * dist (nc X) (entry X i) (entry Y j)))%R).
Proof.
  intros Hc. unfold rbf_apply_vector. destruct (sub_rows X Y i j Hc) as (d & E & Hd). rewrite E, Hd, latch_gamma. cbn [nc mk row_of nmul nopp n1 NumR].
  do 3 f_equal. ring.
Qed.
Lemma zeros_is_mat n m : n <> 0 -> is_mat (zeros (T:=R) (Z.of_nat n) (Z.of_nat m)) n m (fun _ _ => 0%R).
Proof.
  intros Hn. unfold zeros. destruct (Z.eqb_spec (Z.of_nat m) (-1)); [lia|]. unfold rlen. rewrite !Nat2Z.id. unfold create. rewrite np_array2_tab by assumption. apply is_mat_mk.
Qed.
Lemma set_nat (m : mat R) i j x r c f : is_mat m r c f -> i < r -> j < c ->
  exists m', set m (Z.of_nat i) (Z.of_nat j) x = Ok m' /\ is_mat m' r c (fun a b => if (a =? i) && (b =? j) then x else f a b).
Proof.
  intros (W & R1 & C1 & N1) Hi Hj. unfold set. rewrite !npidx_nat by lia. cbn [bind]. eexists. split; [reflexivity|].
  split; [now apply set_entry_wf|]. split; [exact R1|]. split; [exact C1|]. intros a b Ha Hb. rewrite set_entry_entry by (assumption || lia).
  destruct ((a =? i) && (b =? j)); [reflexivity|]. now apply N1.
Qed.
Section Loops.
Context (g : option R) (X Y : mat R) (Hc : nc X = nc Y).
Let γ := gamma_of g (nc X).
Let k i j := exp (- γ * dist (nc X) (entry X i) (entry Y j))%R.
(** the state is either untouched or latched; either way the kernel computes with γ *)
Let good (h : option R) := gamma_of h (nc X) = γ.
Lemma rbf_two_spec : nr X <> 0 ->
  exists h K, abstract_two (rbf_apply_vector exp) g X Y = Ok (h, K) /\ good h /\ is_mat K (nr X) (nr Y) k.
Proof.
  intros Hn. unfold abstract_two.
  match goal with |- context[for_range (nr X) ?b ?a] => destruct (for_range_inv
    (fun p sr => good (fst sr) /\ is_mat (snd sr) (nr X) (nr Y) (fun i j => if i <? p then k i j else 0%R)) b (nr X) a) as ((h & K) & E & (G & HK)) end.
  - split; [reflexivity|]. cbn [snd]. apply (zeros_is_mat (nr X) (nr Y) Hn).
  - intros p sr Hp (G & HM). match goal with |- context[for_range (nr Y) ?b ?a] => destruct (for_range_inv
     (fun q sr => good (fst sr) /\ is_mat (snd sr) (nr X) (nr Y) (fun i j => if (i <? p) || (i =? p) && (j <? q) then k i j else 0%R)) b (nr Y) a) as (sr' & E' & (G' & HM')) end.
    + split; [exact G|]. eapply is_mat_fun_ext; [exact HM|]. intros i j Hi Hj. cbv beta. destruct (Nat.ltb_spec j 0); [lia|]. rewrite andb_false_r, orb_false_r. reflexivity.
    + intros q (h & M) Hq (Gh & HMq). cbn [fst snd] in *. rewrite !get_row_nat by assumption. cbn [bind]. change (mk 1 (nc X) (fun _ j => entry X p j)) with (row_of X p). change (mk 1 (nc Y) (fun _ j => entry Y q j)) with (row_of Y q).
      rewrite (rbf_vector h X Y p q Hc). cbn [bind]. unfold good in Gh. rewrite Gh. fold (k p q).
      destruct (set_nat M p q (k p q) _ _ _ HMq Hp Hq) as (M' & Es & HM'). rewrite Es. cbn [bind]. eexists. split; [reflexivity|]. cbn [fst snd]. split; [reflexivity|].
      eapply is_mat_fun_ext; [exact HM'|]. intros i j Hi Hj. cbv beta.
      destruct (Nat.eqb_spec i p) as [->|Hip]; cbn [andb].
      * destruct (Nat.eqb_spec j q) as [->|Hjq].
        -- destruct (Nat.ltb_spec q (S q)); [|lia]. now rewrite orb_true_r.
        -- replace (j <? S q) with (j <? q); [reflexivity|]. apply Bool.eq_true_iff_eq. rewrite !Nat.ltb_lt. lia.
      * reflexivity.
    + exists sr'. split; [exact E'|]. split; [exact G'|]. eapply is_mat_fun_ext; [exact HM'|]. intros i j Hi Hj. cbv beta.
      destruct (Nat.ltb_spec j (nr Y)); [|lia]. rewrite andb_true_r. replace (i <? S p) with ((i <? p) || (i =? p)); [reflexivity|].
      apply Bool.eq_true_iff_eq. rewrite orb_true_iff, !Nat.ltb_lt, Nat.eqb_eq. lia.
  - exists h, K. split; [exact E|]. split; [exact G|]. eapply is_mat_fun_ext; [exact HK|]. intros i j Hi Hj. cbv beta. destruct (Nat.ltb_spec i (nr X)); [reflexivity|lia].
Qed.
End Loops.
Lemma rbf_one_spec (g : option R) (X : mat R) : nr X <> 0 ->
  let γ := gamma_of g (nc X) in
  exists h K, abstract_one (rbf_apply_vector exp) g X = Ok (h, K) /\ gamma_of h (nc X) = γ /\
    is_mat K (nr X) (nr X) (fun i j => exp (- γ * dist (nc X) (entry X i) (entry X j))%R).
Proof.
  intros Hn γ. set (k := fun i j => exp (- γ * dist (nc X) (entry X i) (entry X j))%R). set (n := nr X) in *.
  assert (Hsym : forall i j, k i j = k j i) by (intros; unfold k; now rewrite dist_comm).
  unfold abstract_one. fold n.
  match goal with |- context[for_range n ?b ?a] => destruct (for_range_inv
    (fun p sr => gamma_of (fst sr) (nc X) = γ /\ is_mat (snd sr) n n (fun i j => if (i <? p) || (j <? p) then k i j else 0%R)) b n a) as ((h & K) & E & (G & HK)) end.
  - split; [reflexivity|]. cbn [snd]. apply (zeros_is_mat n n Hn).
  - intros p sr Hp (G & HM). match goal with |- context[for_each (seq p (n - p)) ?b ?a] => destruct (for_seq_inv
     (fun q sr => gamma_of (fst sr) (nc X) = γ /\ is_mat (snd sr) n n (fun i j => if (i <? p) || (j <? p) || (i =? p) && (j <? q) || (j =? p) && (i <? q) then k i j else 0%R)) b p (n - p) a) as (sr' & E' & (G' & HM')) end.
    + split; [exact G|]. eapply is_mat_fun_ext; [exact HM|]. intros i j Hi Hj. cbv beta.
      replace ((i <? p) || (j <? p) || (i =? p) && (j <? p) || (j =? p) && (i <? p)) with ((i <? p) || (j <? p)); [reflexivity|].
      destruct (i <? p), (j <? p), (i =? p), (j =? p); reflexivity.
    + intros q (h & M) Hq (Gh & HMq). cbn [fst snd] in *. rewrite !get_row_nat by (unfold n in *; lia). cbn [bind]. change (mk 1 (nc X) (fun _ j => entry X p j)) with (row_of X p). change (mk 1 (nc X) (fun _ j => entry X q j)) with (row_of X q).
      rewrite (rbf_vector h X X p q eq_refl). cbn [bind]. rewrite Gh. fold (k p q).
      destruct (set_nat M p q (k p q) _ _ _ HMq ltac:(lia) ltac:(lia)) as (M1 & E1 & HM1). rewrite E1. cbn [bind].
      destruct (set_nat M1 q p (k p q) _ _ _ HM1 ltac:(lia) ltac:(lia)) as (M2 & E2 & HM2). rewrite E2. cbn [bind]. eexists. split; [reflexivity|]. cbn [fst snd]. split; [reflexivity|].
      eapply is_mat_fun_ext; [exact HM2|]. intros i j Hi Hj. cbv beta.
      destruct (Nat.eqb_spec i q) as [->|Hiq], (Nat.eqb_spec j p) as [->|Hjp]; cbn [andb].
      * destruct (Nat.ltb_spec q (S q)); [|lia]. rewrite orb_true_r. apply Hsym.
      * destruct (Nat.eqb_spec q p) as [->|Hqp]; cbn [andb].
        -- destruct (Nat.eqb_spec j p); [contradiction|]. replace (j <? S p) with (j <? p); [reflexivity|]. apply Bool.eq_true_iff_eq. rewrite !Nat.ltb_lt. lia.
        -- rewrite !orb_false_r. reflexivity.
      * destruct (Nat.eqb_spec i p) as [->|Hip]; cbn [andb].
        -- destruct (Nat.eqb_spec p q); [congruence|]. replace (p <? S q) with (p <? q) by (apply Bool.eq_true_iff_eq; rewrite !Nat.ltb_lt; lia). 
           replace (p <? q) with true by (symmetry; apply Nat.ltb_lt; lia). replace (p <? S q) with true by (symmetry; apply Nat.ltb_lt; lia). rewrite !orb_true_r. reflexivity.
        -- replace (i <? S q) with (i <? q); [reflexivity|]. apply Bool.eq_true_iff_eq. rewrite !Nat.ltb_lt. lia.
      * destruct (Nat.eqb_spec i p) as [->|Hip]; cbn [andb].
        -- destruct (Nat.eqb_spec j q) as [->|Hjq]; cbn [andb].
           ++ destruct (Nat.ltb_spec q (S q)); [|lia]. rewrite !orb_true_r. reflexivity.
           ++ replace (j <? S q) with (j <? q); [reflexivity|]. apply Bool.eq_true_iff_eq. rewrite !Nat.ltb_lt. lia.
        -- reflexivity.
    + exists sr'. split; [exact E'|]. split; [exact G'|]. eapply is_mat_fun_ext; [exact HM'|]. intros i j Hi Hj. cbv beta.
      replace (p + (n - p)) with n by lia. destruct (Nat.ltb_spec j n), (Nat.ltb_spec i n); try lia. rewrite !andb_true_r.
      replace ((i <? p) || (j <? p) || (i =? p) || (j =? p)) with ((i <? S p) || (j <? S p)); [reflexivity|].
      apply Bool.eq_true_iff_eq. rewrite !orb_true_iff, !Nat.ltb_lt, !Nat.eqb_eq. lia.
  - exists h, K. split; [exact E|]. split; [exact G|]. eapply is_mat_fun_ext; [exact HK|]. intros i j Hi Hj. cbv beta. destruct (Nat.ltb_spec i n); [reflexivity|lia].
Qed.

(** For every kernel state and X, Y of equal width with at least one row in X *)
Theorem C45_rbf (g : option R) (X Y : mat R) : wf X -> wf Y -> nc X = nc Y -> nr X <> 0 ->
  exists h K, rbf_apply_matrix exp g X (Some Y) = Ok (h, K) /\ gamma_of h (nc X) = gamma_of g (nc X) /\ wf K /\ nr K = nr X /\ nc K = nr Y /\
    forall i j, i < nr X -> j < nr Y -> exists x y, get_row X (Z.of_nat i) = Ok x /\ get_row Y (Z.of_nat j) = Ok y /\
      snd (rbf_apply_vector exp g x y) = Ok (entry K i j) /\
      entry K i j = exp (- gamma_of g (nc X) * dist (nc X) (entry X i) (entry Y j))%R.
Proof.
  intros WX WY Hc Hn. unfold rbf_apply_matrix, abstract_apply_matrix. destruct (rbf_two_spec g X Y Hc Hn) as (h & K & E & G & (W & R1 & C1 & N1)).
  exists h, K. split; [exact E|]. split; [exact G|]. split; [exact W|]. split; [exact R1|]. split; [exact C1|]. intros i j Hi Hj. rewrite !get_row_nat by assumption. do 2 eexists.
  split; [reflexivity|]. split; [reflexivity|]. rewrite N1 by assumption. split; [|reflexivity]. exact (f_equal snd (rbf_vector g X Y i j Hc)).
Qed.
(** One argument stands for both, and the matrix is symmetric. *)
Definition symmetric (K : mat R) : Prop := nr K = nc K /\ forall i j, i < nr K -> j < nr K -> entry K i j = entry K j i.
Theorem C45_single_argument (s : poly_st R) (g : option R) (X : mat R) : wf X -> nr X <> 0 ->
  (exists K, linear_apply_matrix X None = Ok K /\ linear_apply_matrix X (Some X) = Ok K /\ symmetric K) /\
  (exists K, snd (poly_apply_matrix Rpow s X None) = Ok K /\ snd (poly_apply_matrix Rpow s X (Some X)) = Ok K /\ symmetric K) /\
  (exists h h' K, rbf_apply_matrix exp g X None = Ok (h, K) /\ rbf_apply_matrix exp g X (Some X) = Ok (h', K) /\ symmetric K).
Proof.
  intros WX Hn. split; [|split].
  - destruct (C45_linear X X WX WX eq_refl) as (K & E & W & R1 & C1 & N1). exists K. split; [exact E|]. split; [exact E|]. split; [congruence|].
    rewrite R1. intros i j Hi Hj. destruct (N1 i j Hi Hj) as (? & ? & _ & _ & _ & ->). destruct (N1 j i Hj Hi) as (? & ? & _ & _ & _ & ->). apply dot_comm.
  - destruct (C45_poly s X X WX WX eq_refl) as (K & E & W & R1 & C1 & N1). exists K. split; [exact (f_equal snd E)|]. split; [exact (f_equal snd E)|]. split; [congruence|].
    rewrite R1. intros i j Hi Hj. destruct (N1 i j Hi Hj) as (? & ? & _ & _ & _ & ->). destruct (N1 j i Hj Hi) as (? & ? & _ & _ & _ & ->). now rewrite dot_comm.
  - destruct (C45_rbf g X X WX WX eq_refl Hn) as (h' & K & E & _ & W & R1 & C1 & N1). destruct (rbf_one_spec g X Hn) as (h & K' & E' & _ & HK').
    assert (K' = K).
    { apply (is_mat_ext _ _ _ _ _ HK'). split; [exact W|]. split; [exact R1|]. split; [exact C1|]. intros i j Hi Hj. destruct (N1 i j Hi Hj) as (? & ? & _ & _ & _ & ->). reflexivity. }
    subst K'. exists h, h', K. split; [exact E'|]. split; [exact E|]. split; [congruence|].
    rewrite R1. intros i j Hi Hj. destruct (N1 i j Hi Hj) as (? & ? & _ & _ & _ & ->). destruct (N1 j i Hj Hi) as (? & ? & _ & _ & _ & ->). now rewrite dist_comm.
Qed.
(** Unit diagonal; entries in (0,1] for a non-negative gamma. *)
Theorem C45_rbf_range (g : option R) (X Y : mat R) h K : wf X -> wf Y -> nc X = nc Y -> nr X <> 0 ->
  rbf_apply_matrix exp g X (Some Y) = Ok (h, K) ->
  (forall i j, i < nr X -> j < nr Y -> (forall k, k < nc X -> entry X i k = entry Y j k) -> entry K i j = 1%R) /\
  ((0 <= gamma_of g (nc X))%R -> forall i j, i < nr X -> j < nr Y -> (0 < entry K i j <= 1)%R).
Proof.
  intros WX WY Hc Hn E. destruct (C45_rbf g X Y WX WY Hc Hn) as (h' & K' & E' & _ & W & R1 & C1 & N1). rewrite E in E'. injection E' as <- <-. split.
  - intros i j Hi Hj Hk. destruct (N1 i j Hi Hj) as (? & ? & _ & _ & _ & ->). replace (dist (nc X) (entry X i) (entry Y j)) with 0%R; [rewrite Rmult_0_r; apply exp_0|].
    unfold dist. rewrite (Rsum_ext _ _ (fun _ => 0%R)) by (intros k Hk'; rewrite Hk by assumption; ring). rewrite Rsum_sumn, sumR_const, Rmult_0_r. symmetry. apply sqrt_0.
  - intros Hg i j Hi Hj. destruct (N1 i j Hi Hj) as (? & ? & _ & _ & _ & ->). split; [apply exp_pos|]. rewrite <- exp_0.
    assert (0 <= dist (nc X) (entry X i) (entry Y j))%R by apply sqrt_pos. assert (- gamma_of g (nc X) * dist (nc X) (entry X i) (entry Y j) <= 0)%R by nra.
    destruct H0 as [H0|H0]; [left; now apply exp_increasing|right; now rewrite H0].
Qed.
(** The documented formula uses the squared distance; the code does not square. *)
Theorem C45_rbf_formula_refuted : exists (X Y : mat R) h K, wf X /\ wf Y /\ rbf_apply_matrix exp (Some 1%R) X (Some Y) = Ok (h, K) /\
  entry K 0 0 <> exp (- 1 * (dist (nc X) (entry X 0) (entry Y 0) * dist (nc X) (entry X 0) (entry Y 0)))%R.
Proof.
  set (X := mk 1 1 (fun _ _ => 2%R)). set (Y := mk 1 1 (fun _ _ => 0%R)).
  destruct (C45_rbf (Some 1%R) X Y (mk_wf _ _ _) (mk_wf _ _ _) eq_refl ltac:(discriminate)) as (h & K & E & _ & _ & _ & _ & N1).
  exists X, Y, h, K. split; [apply mk_wf|]. split; [apply mk_wf|]. split; [exact E|].
  destruct (N1 0 0 ltac:(cbn; lia) ltac:(cbn; lia)) as (? & ? & _ & _ & _ & ->).
  assert (D : dist (nc X) (entry X 0) (entry Y 0) = 2%R).
  { unfold dist. change (nc X) with 1. cbn [Rsum]. unfold X, Y. rewrite !entry_mk by lia. replace (0 + (2 - 0) * (2 - 0))%R with (Rsqr 2) by (unfold Rsqr; ring). apply sqrt_Rsqr. lra. }
  rewrite D. cbn [gamma_of]. intros Q. apply exp_inv in Q. lra.
Qed.
(** gamma: an unset one becomes 1 / columns at the first use and stays; the degree setter ignores non-positive values. *)
Theorem C45_gamma_latched (s : poly_st R) (X Y : mat R) : nc X = nc Y ->
  let s' := fst (poly_apply_matrix Rpow s X (Some Y)) in
  p_gamma s' = Some (gamma_of (p_gamma s) (nc X)) /\ p_degree s' = p_degree s /\ p_coef s' = p_coef s /\
  forall X' Y', poly_apply_matrix Rpow s' X' (Some Y') = poly_apply_matrix Rpow (poly_set_gamma s (Some (gamma_of (p_gamma s) (nc X)))) X' (Some Y').
Proof. intros Hc. unfold poly_apply_matrix at 1. cbn [fst]. rewrite latch_gamma. cbn [poly_set_gamma p_gamma p_degree p_coef]. auto. Qed.
Theorem C45_degree (s : poly_st R) (values : list Z) : (0 < p_degree s)%Z -> (0 < p_degree (fold_left poly_set_degree values s))%Z.
Proof.
  revert s. induction values as [|v l IH]; intros s Hs; [exact Hs|]. cbn [fold_left]. apply IH. unfold poly_set_degree. destruct (Z.leb_spec v 0); [exact Hs|exact H].
Qed.
(** Unequal widths raise. *)
Theorem C45_width (s : poly_st R) (X Y : mat R) : nc X <> nc Y ->
  linear_apply_matrix X (Some Y) = Err ValueError /\ snd (poly_apply_matrix Rpow s X (Some Y)) = Err ValueError.
Proof.
  intros Hc. assert (E : mul X (transpose Y) = Err ValueError).
  { unfold mul, is_multiplicable_with. autorewrite with sh. rewrite (proj2 (Nat.eqb_neq _ _) Hc). reflexivity. }
  split; [exact E|]. unfold poly_apply_matrix. cbn [snd]. now rewrite E.
Qed.
Example C45_ex : let X := mk 2 2 (fun i j => INR (i + j)) in wf X /\ nr X <> 0 /\ (0 <= gamma_of None (nc X))%R /\ (0 < p_degree (poly_new (T:=R)))%Z /\
  dot 2 (entry X 0) (entry X 1) = 2%R.
Proof.
  cbv zeta. split; [apply mk_wf|]. split; [discriminate|]. split; [cbn; lra|]. split; [reflexivity|]. unfold dot. cbn [Rsum]. rewrite !entry_mk by lia. cbn [INR plus]. ring.
Qed.

Print Assumptions C45_linear.
Print Assumptions C45_poly.
Print Assumptions C45_rbf.
Print Assumptions C45_single_argument.
Print Assumptions C45_rbf_range.
Print Assumptions C45_rbf_formula_refuted.
Print Assumptions C45_gamma_latched.
Print Assumptions C45_degree.
Print Assumptions C45_width.
