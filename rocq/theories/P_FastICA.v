(** C67: independent component analysis.  C48 and C46 for FastICA. *)
From Coq Require Import List ZArith Lia Bool Arith Reals Lra Permutation SpecFloat.
From Verif Require Import Base Num Mat M_Matrix M_Factory M_Helper M_Loop M_Utils M_Linalg M_Transform M_PLSBase M_PLS M_PLS2 M_GLSW M_FastICA
  S_Matrix L_Base L_Mat L_Matrix L_MatR L_Linalg L_Alg L_Eigen L_Transform P_Matrix P_Helper P_Linalg P_Eigen P_OPLS P_GLSW P_PCA P_PLSRefute P_CCAFilter.
Import ListNotations.
Local Open Scope nat_scope.

(** * Table forms *)
Section Tables.
Context {T : Type} `{Num T}.
Lemma scale_row_mk r c (f g : nat -> nat -> T) : scale_by_row_vector (mk r c f) (mk c 1 g) = Ok (mk r c (fun i j => nmul (f i j) (g j 0))).
Proof.
  unfold scale_by_row_vector, must_be_column_vector.
  assert (Hc : is_column_vector (mk c 1 g) = true) by (unfold is_column_vector; now rewrite is_vector_col).
  rewrite Hc, bind_Ok. unfold dimensions_must_match. cbn [nr nc mk negb orb andb]. fold (mk r c f) (mk c 1 g). rewrite Nat.eqb_refl. cbn [andb]. rewrite bind_Ok, transpose_mk.
  unfold mul_by_vector, vector_op, vector_op_modify, must_be_vector, copy. rewrite is_vector_row, bind_Ok. unfold vector_size_matches. rewrite is_vector_row. cbn [negb].
  assert (Hr : is_row_vector (mk 1 c (fun i j => g j i)) = true) by (unfold is_row_vector; now rewrite is_vector_row).
  rewrite Hr. cbn [nc mk]. rewrite Nat.eqb_refl. cbn [negb]. f_equal. unfold broadcast_op. cbn [nr nc mk Nat.eqb].
  fold (mk r c f) (mk 1 c (fun i j => g j i)). apply mk_ext. intros i j Hi Hj. rewrite entry_mk by assumption. f_equal.
  destruct (Nat.eqb_spec c 1) as [->|]; rewrite entry_mk by lia; [now replace j with 0 by lia|reflexivity].
Qed.
Lemma mean1_mk r c (f : nat -> nat -> T) : the_matrix (mean (mk r c f) (Some 1%Z)) = Ok (mk r 1 (fun i _ => ndiv (sumn c (fun j => f i j)) (nofZ (Z.of_nat c)))).
Proof.
  unfold the_matrix, mean. cbn [Z.eqb Pos.eqb bind nr nc mk]. fold (mk r c f). rewrite transpose_mk. f_equal. apply mk_ext. intros i j Hi Hj. f_equal.
  apply sumn_ext. intros k Hk. now rewrite entry_mk.
Qed.
Lemma mean_all_mk r c (f : nat -> nat -> T) : exists x, the_real (mean (mk r c f) None) = Ok x.
Proof. unfold the_real, mean. eexists. reflexivity. Qed.
Lemma mul_el_mk r c (f g : nat -> nat -> T) : mul_elementwise (mk r c f) (mk r c g) = Ok (mk r c (fun i j => nmul (f i j) (g i j))).
Proof.
  unfold mul_elementwise, same_shape_as. cbn [nr nc mk]. rewrite !Nat.eqb_refl. cbn [andb negb]. fold (mk r c f) (mk r c g). now rewrite map2_mk.
Qed.
Lemma squares_mk r c (f : nat -> nat -> T) : squares (mk r c f) = mk r c (fun i j => nmul (f i j) (f i j)).
Proof. apply map_mk. Qed.
Lemma sum_col_mk n (f : nat -> nat -> T) : the_matrix (sum (mk n 1 f) (Some (-1)%Z)) = Ok (mk 1 1 (fun _ _ => sumn 1 (fun _ => sumn n (fun i => f i 0)))).
Proof.
  unfold the_matrix, sum. cbn [Z.eqb Pos.eqb bind]. unfold sum_all. cbn [nr nc mk]. fold (mk n 1 f). f_equal. unfold mk, tab. cbn [seq map]. do 3 f_equal.
  apply sumn_ext. intros j Hj. apply sumn_ext. intros i Hi. assert (j = 0) by lia. subst j. change (entry (mk n 1 f) i 0 = f i 0). now rewrite entry_mk by lia.
Qed.
Lemma abs_mk r c (f : nat -> nat -> T) : abs (mk r c f) = mk r c (fun i j => abs_el (f i j)).
Proof. apply map_mk. Qed.
Lemma sqrt_mk r c (f : nat -> nat -> T) : sqrt_mat (mk r c f) = mk r c (fun i j => nsqrt (f i j)).
Proof. apply map_mk. Qed.
Lemma set_row_col_mk r c (f g : nat -> nat -> T) k : k < r ->
  set_row (mk r c f) (Z.of_nat k) (mk c 1 g) = Ok (mk r c (fun i j => if i =? k then g j 0 else f i j)).
Proof.
  intros Hk. unfold set_row, must_be_vector. rewrite is_vector_col. cbn [bind nr mk]. fold (mk r c f). rewrite npidx_nat by assumption. cbn [bind].
  assert (Hc : is_column_vector (mk c 1 g) = true) by (unfold is_column_vector; now rewrite is_vector_col). rewrite Hc, transpose_mk. cbn [nc mk]. rewrite Nat.min_id. f_equal. apply mk_ext. intros i j Hi Hj.
  rewrite (proj2 (Nat.ltb_lt j c) Hj), andb_true_r. fold (mk 1 c (fun i j => g j i)) (mk r c f). destruct (i =? k); rewrite entry_mk by lia; reflexivity.
Qed.
Lemma first_rows_mk r c (f : nat -> nat -> T) k : k <= r -> get_rows (mk r c f) (STuple 0 (Z.of_nat k)) = Ok (mk k c f).
Proof.
  intros Hk. unfold get_rows. cbn [nc mk]. fold (mk r c f). change 0%Z with (Z.of_nat 0). rewrite get_sub_matrix_range by (cbn; lia). rewrite !Nat.sub_0_r. f_equal.
  apply mk_ext. intros i j Hi Hj. cbn [Nat.add]. now rewrite entry_mk by lia.
Qed.
End Tables.

Section Deflation.
Variable nexp ntanh cube : R -> R.
(** the approximation functions answer on every matrix: g of every entry, and one derivative mean per row *)
Lemma fun_apply_mk (f : negfun R) r c (g : nat -> nat -> R) : r <> 0 ->
  exists gx g_x, fun_apply nexp ntanh cube f (mk r c g) = Ok (mk r c gx, mk r 1 g_x).
Proof.
  intros Hr. destruct f as [| |alpha]; cbn [fun_apply].
  - unfold cube_apply. rewrite squares_mk, mul_scalar_mk, mean1_mk, map_mk, bind_Ok. do 2 eexists. reflexivity.
  - unfold exponential_apply. rewrite squares_mk, div_scalar_mk, mul_scalar_mk, map_mk, mul_el_mk, bind_Ok.
    unfold filled_like. cbn [nr nc mk]. rewrite filled_mk, bind_Ok, sub_mk, bind_Ok, mul_el_mk, bind_Ok, mean1_mk, bind_Ok. do 2 eexists. reflexivity.
  - unfold logcosh_apply. rewrite mul_scalar_mk, map_mk. cbn [nr nc mk]. fold (mk r c (fun i j => ntanh (nmul (g i j) alpha))).
    change 1%Z with (Z.of_nat 1). rewrite filled_mk, bind_Ok, zeros_mk by assumption.
    match goal with |- context [for_range r ?body ?a] => destruct (for_range_inv (fun _ m => exists h, m = mk r 1 h) body r a) as (m & Em & h & ->) end.
    { eexists. reflexivity. }
    { intros k m Hk (h & ->). rewrite get_row_mk, bind_Ok by assumption. rewrite squares_mk, sub_mk, bind_Ok, mul_scalar_mk.
      destruct (mean_all_mk 1 c (fun _ j => nmul (nsub n1 (nmul (ntanh (nmul (g k j) alpha)) (ntanh (nmul (g k j) alpha)))) alpha)) as (x & Ex). rewrite Ex, bind_Ok.
      rewrite set_mk_0 by lia. eexists. split; [reflexivity|]. eexists. reflexivity. }
    rewrite Em, bind_Ok. do 2 eexists. reflexivity.
Qed.

Definition dot (n : nat) (f g : nat -> R) : R := Rsum n (fun k => f k * g k)%R.
Lemma dot_sumn n f g : dot n f g = sumn n (fun k => f k * g k)%R. Proof. apply Rsum_sumn. Qed.

Lemma length_of_mk n (f : nat -> nat -> R) : length_of (mk n 1 f) = Ok (sqrt (dot n (fun i => f i 0) (fun i => f i 0))).
Proof. unfold length_of. rewrite squares_mk, sum_col_mk, bind_Ok, sqrt_mk, as_real_mk, sum1, dot_sumn. reflexivity. Qed.
(** v / |v| has length 1 or, in exact arithmetic with x / 0 = 0, is the zero vector *)
Lemma unit_or_zero n (v : nat -> R) : let u i := (v i / sqrt (dot n v v))%R in
  dot n u u = 1%R \/ (forall i, u i = 0%R).
Proof.
  intros u. pose proof (sqrt_pos (dot n v v)) as Hp. destruct (Req_dec (sqrt (dot n v v)) 0) as [E|E].
  - right. intros i. unfold u. rewrite E. unfold Rdiv. rewrite Rinv_0. ring.
  - left. assert (Hv : (dot n v v = sqrt (dot n v v) * sqrt (dot n v v))%R).
    { symmetry. apply sqrt_sqrt. rewrite dot_sumn. apply sumR_nonneg. intros i _. apply Rle_0_sqr. }
    rewrite dot_sumn. transitivity (sumn n (fun k => / sqrt (dot n v v) * / sqrt (dot n v v) * (v k * v k)))%R.
    { apply sumn_ext. intros k _. unfold u. field. exact E. }
    rewrite sumR_scal, <- dot_sumn. rewrite Hv at 3. field. exact E.
Qed.

(** rows below j are orthogonal to each other and have length 1 or 0 *)
Definition good_rows (n j : nat) (W : nat -> nat -> R) : Prop :=
  forall a b, a < j -> b < j -> (a <> b -> dot n (W a) (W b) = 0%R) /\ (dot n (W a) (W a) = 1%R \/ (forall k, k < n -> W a k = 0%R)).

Lemma decorrelate_mk n (w W : nat -> nat -> R) j : j <= n -> good_rows n j W ->
  exists v, decorrelate (mk n 1 w) (mk n n W) j = Ok (mk n 1 (fun i _ => v i)) /\ forall a, a < j -> dot n v (W a) = 0%R.
Proof.
  intros Hj Hg. unfold decorrelate. destruct (Nat.eqb_spec j 0) as [->|Hj0].
  - exists (fun i => w i 0). split; [|intros a Ha; lia]. apply (f_equal Ok). apply mk_ext. intros i k _ Hk. now replace k with 0 by lia.
  - rewrite first_rows_mk, bind_Ok, !transpose_mk, mul_mk, bind_Ok, mul_mk, bind_Ok, transpose_mk, sub_mk by assumption.
    exists (fun i => w i 0%nat - sumn j (fun a => sumn n (fun k => w k 0%nat * W a k) * W a i))%R. split.
    + apply (f_equal Ok). apply mk_ext. intros i k Hi Hk. now replace k with 0 by lia.
    + intros a Ha. rewrite dot_sumn.
      rewrite (sumn_ext n _ (fun i => w i 0%nat * W a i - sumn j (fun b => sumn n (fun k => w k 0%nat * W b k) * (W b i * W a i))))%R.
      2:{ intros i Hi. rewrite Rmult_minus_distr_r. f_equal. rewrite <- sumR_scal_r. apply sumn_ext. intros; ring. }
      rewrite sumR_minus, sumR_swap.
      rewrite (sumR_single j a); [|exact Ha|].
      * rewrite sumR_scal. destruct (Hg a a Ha Ha) as (_ & [H1|H0]).
        -- rewrite dot_sumn in H1. rewrite H1. ring.
        -- rewrite (sumn_ext n (fun k => w k 0%nat * W a k)%R (fun _ => 0%R)) by (intros k Hk; rewrite H0 by assumption; ring). rewrite (sumR_zero n) by reflexivity. ring.
      * intros b Hb Hne. rewrite sumR_scal. destruct (Hg b a Hb Ha) as (H0 & _). specialize (H0 Hne). rewrite dot_sumn in H0. rewrite H0. ring.
Qed.

Lemma deflation_step_mk f n p (x W w : nat -> nat -> R) j : p <> 0 -> j <= n -> good_rows n j W ->
  exists v lim, deflation_step nexp ntanh cube f (mk n p x) (mk n n W) j (mk n 1 w) = Ok (mk n 1 (fun i _ => v i), lim) /\
    (forall a, a < j -> dot n v (W a) = 0%R) /\ (dot n v v = 1%R \/ (forall k, v k = 0%R)).
Proof.
  intros Hp Hj Hg. unfold deflation_step. rewrite transpose_mk, mul_mk, bind_Ok, transpose_mk.
  destruct (fun_apply_mk f p 1 (fun i j0 => sumn n (fun k => nmul (w k j0) (x k i))) Hp) as (gx & g_x & Ef). rewrite Ef, bind_Ok.
  rewrite scale_row_mk, bind_Ok, mean1_mk, bind_Ok. destruct (mean_all_mk p 1 g_x) as (gm & Eg). rewrite Eg, bind_Ok, mul_scalar_mk, sub_mk, bind_Ok.
  match goal with |- context [decorrelate (mk n 1 ?w0) _ _] => destruct (decorrelate_mk n w0 W j Hj Hg) as (u & Eu & Hu) end.
  rewrite Eu, bind_Ok, length_of_mk, bind_Ok, div_scalar_mk, mul_el_mk, bind_Ok, sum_col_mk, bind_Ok, abs_mk, sub_scalar_mk, abs_mk, as_real_mk, bind_Ok.
  exists (fun i => u i / sqrt (dot n u u))%R. eexists. split; [reflexivity|]. split; [|apply (unit_or_zero n u)].
  intros a Ha. specialize (Hu a Ha). rewrite dot_sumn in *.
  transitivity (sumn n (fun k => / sqrt (dot n u u) * (u k * W a k)))%R; [apply sumn_ext; intros; unfold Rdiv; ring|]. rewrite sumR_scal, Hu. ring.
Qed.
Lemma deflation_loop_mk f n p (x W : nat -> nat -> R) j tol m : p <> 0 -> j <= n -> good_rows n j W -> forall w,
  exists v, deflation_loop nexp ntanh cube f (mk n p x) (mk n n W) j tol (S m) (mk n 1 w) = Ok (mk n 1 (fun i _ => v i)) /\
    (forall a, a < j -> dot n v (W a) = 0%R) /\ (dot n v v = 1%R \/ (forall k, v k = 0%R)).
Proof.
  intros Hp Hj Hg. induction m as [|m IH]; intros w; cbn [deflation_loop];
    destruct (deflation_step_mk f n p x W w j Hp Hj Hg) as (v & lim & Es & H1 & H2); rewrite Es, bind_Ok.
  - exists v. destruct (nltb lim tol); auto.
  - destruct (nltb lim tol); [exists v; auto|]. apply (IH (fun i _ => v i)).
Qed.
End Deflation.

Lemma dot_comm n f g : dot n f g = dot n g f. Proof. rewrite !dot_sumn. apply sumn_ext. intros; ring. Qed.

(** C67, deflation.  For every starting matrix, every approximation function, every tolerance deflation
    terminates without an exception and returns a square matrix.  With at least one iteration its rows are
    pairwise orthogonal, each of length 1.  (A row can only be zero if a zero vector had to be normalised: in
    exact arithmetic x / 0 is 0; the code gets NaN there.) *)
Theorem C67_deflation nexp ntanh cube (s : ica_st R) (X Winit : mat R) :
  let n := Z.to_nat (ic_num_components s) in
  n <> 0 -> wf X -> nr X = n -> nc X <> 0 -> wf Winit -> nr Winit = n -> nc Winit = n ->
  exists W, deflation nexp ntanh cube s X Winit = Ok W /\ wf W /\ nr W = n /\ nc W = n /\
    ((0 < ic_max_iter s)%Z -> forall i j, i < n -> j < n ->
      (i <> j -> Rsum n (fun k => entry W i k * entry W j k)%R = 0%R) /\
      (Rsum n (fun k => entry W i k * entry W i k)%R = 1%R \/ (forall k, k < n -> entry W i k = 0%R))).
Proof.
  intros n Hn HX HrX HcX HW HrW HcW. apply wf_mk in HX, HW. rewrite HrX in HX. rewrite HrW, HcW in HW. rewrite HX, HW. clear HX HW.
  unfold deflation. fold n. rewrite zeros_mk by assumption.
  match goal with |- context [for_range n ?body ?a] => destruct (for_range_inv (fun j m => exists W, m = mk n n W /\ ((0 < ic_max_iter s)%Z -> good_rows n j W)) body n a) as (m & Em & W & -> & Hg) end.
  - eexists. split; [reflexivity|]. intros _ a b Ha; lia.
  - intros j m Hj (W & -> & Hg). rewrite get_row_mk, bind_Ok, transpose_mk, length_of_mk, bind_Ok, div_scalar_mk by assumption.
    destruct (Z.to_nat (ic_max_iter s)) as [|mi] eqn:Emi.
    { cbn [deflation_loop]. rewrite bind_Ok, set_row_col_mk by assumption. eexists. split; [reflexivity|]. eexists. split; [reflexivity|]. lia. }
    specialize (Hg ltac:(lia)).
    match goal with |- context [deflation_loop _ _ _ ?f _ _ _ ?tol _ (mk n 1 ?w)] =>
      destruct (deflation_loop_mk nexp ntanh cube f n (nc X) (entry X) W j tol mi HcX ltac:(lia) Hg w) as (v & Ev & Ho & Hu) end.
    rewrite Ev, bind_Ok, set_row_col_mk by assumption. eexists. split; [reflexivity|]. eexists. split; [reflexivity|]. intros _.
    intros a b Ha Hb. cbn beta. destruct (Nat.eqb_spec a j) as [->|Na]; destruct (Nat.eqb_spec b j) as [->|Nb].
    + split; [congruence|]. destruct Hu as [Hu|Hu]; [left; exact Hu|right; auto].
    + split; [intros _; apply Ho; lia|]. destruct Hu as [Hu|Hu]; [left; exact Hu|right; auto].
    + split; [intros _; rewrite dot_comm; apply Ho; lia|]. apply (Hg a a); lia.
    + apply Hg; lia.
  - rewrite Em. exists (mk n n W). split; [reflexivity|]. split; [apply mk_wf|]. split; [reflexivity|]. split; [reflexivity|].
    intros Hm i j Hi Hj. destruct (Hg Hm i j Hi Hj) as (H1 & H2). split.
    + intros Hne. rewrite <- (H1 Hne). apply Rsum_ext. intros k Hk. now rewrite !entry_mk.
    + destruct H2 as [H2|H2]; [left|right; intros k Hk; rewrite entry_mk by assumption; auto].
      rewrite <- H2. apply Rsum_ext. intros k Hk. now rewrite !entry_mk.
Qed.
Print Assumptions C67_deflation.

(** * Symmetric decorrelation *)
Definition independent_rows (n m : nat) (D : nat -> nat -> R) : Prop :=
  forall y, (forall k, k < m -> Rsum n (fun i => y i * D i k)%R = 0%R) -> forall i, i < n -> y i = 0%R.
Definition gram (W : mat R) : mat R := mk (nr W) (nr W) (fun i j => Rsum (nc W) (fun k => entry W i k * entry W j k)%R).

Lemma symmetric_decorrelation_mk eig n m (w : nat -> nat -> R) l V :
  n <> 0 -> eig (gram (mk n m w)) = Ok (l, V) -> eig_answer (gram (mk n m w)) l V ->
  symmetric_decorrelation eig (mk n m w) = Ok (mk n m (fun i j => sumn n (fun a => entry (inv_sqrt n l V) i a * w a j)%R)).
Proof.
  intros Hn He Ha. unfold symmetric_decorrelation. rewrite transpose_mk, mul_mk, bind_Ok.
  replace (mk n n (fun i j => sumn m (fun k => nmul (w i k) (w j k)))) with (gram (mk n m w)).
  2:{ unfold gram. cbn [nr nc mk]. fold (mk n m w). apply mk_ext. intros i j Hi Hj. rewrite Rsum_sumn. apply sumn_ext. intros k Hk. now rewrite !entry_mk. }
  set (A := gram (mk n m w)) in *. assert (HA : nr A = n) by reflexivity.
  unfold make_eig. rewrite He, !bind_Ok. cbn [fst snd]. destruct (vectors_sorted A l V true ltac:(lia) Ha) as (U & EU & HU). rewrite EU, bind_Ok, values_sorted. rewrite HA in *.
  destruct Ha as (Hl & _). rewrite Hl, HA. set (so := sigma l true n) in *.
  assert (Hs : Permutation so (seq 0 n)) by (apply Permutation_sym, sigma_perm).
  assert (Hso : length so = n) by (rewrite (Permutation_length Hs); apply seq_length).
  assert (Ev : Mat n 1 (map (fun i => [nth i l 0%R]) so) = mk n 1 (fun k _ => nth (nth k so 0) l 0%R)).
  { apply mat_eq_mk; [split; [cbn; rewrite map_length; exact Hso|cbn; apply Forall_forall; intros r Hr; apply in_map_iff in Hr as (i & <- & _); reflexivity]|reflexivity|reflexivity|].
    intros k j Hk Hj. replace j with 0 by lia. unfold entry. cbn [rws]. rewrite (nth_map' _ so k _ 0) by lia. reflexivity. }
  rewrite Ev, sqrt_mk. unfold apply_elementwise. rewrite map_mk. apply is_mat_eq_mk in HU. rewrite HU, scale_row_mk, bind_Ok, transpose_mk, mul_mk, bind_Ok, mul_mk.
  apply (f_equal Ok). apply mk_ext. intros i j Hi Hj. apply sumn_ext. intros a Ha. cbn [nmul NumR]. f_equal.
  unfold inv_sqrt. rewrite entry_mk by assumption. rewrite Rsum_sumn.
  rewrite <- (sum_perm_nth n so (fun k => entry V i k * / sqrt (nth k l 0) * entry V a k)%R Hs).
  apply sumn_ext. intros k Hk. cbn [ndiv nsqrt n1 NumR]. unfold Rdiv. rewrite Rmult_1_l. reflexivity.
Qed.

(** eigenvalues of W W^T are squared lengths *)
Lemma gram_value W l V k : eig_answer (gram W) l V -> orthonormal_columns V (nr W) -> k < nr W ->
  nth k l 0%R = sumn (nc W) (fun t => sumn (nr W) (fun i => entry V i k * entry W i t) * sumn (nr W) (fun i => entry V i k * entry W i t))%R.
Proof.
  intros (_ & _ & _ & _ & Ha) Ho Hk. change (nr (gram W)) with (nr W) in Ha. set (n := nr W) in *.
  transitivity (sumn n (fun a => entry V a k * (nth k l 0 * entry V a k)))%R.
  { rewrite (sumn_ext _ _ (fun a => nth k l 0 * (entry V a k * entry V a k))%R) by (intros; ring). rewrite sumR_scal.
    rewrite <- (Rsum_sumn n (fun i => entry V i k * entry V i k)%R), Ho by assumption. unfold delta. rewrite Nat.eqb_refl. ring. }
  rewrite (sumn_ext n _ (fun a => sumn (nc W) (fun t => (entry V a k * entry W a t) * sumn n (fun b => entry V b k * entry W b t))))%R.
  - rewrite sumR_swap. apply sumn_ext. intros t Ht. now rewrite sumR_scal_r.
  - intros a Ha'. rewrite <- Ha by assumption. rewrite Rsum_sumn, <- sumR_scal.
    rewrite (sumn_ext n _ (fun b => sumn (nc W) (fun t => (entry V a k * entry W a t) * (entry V b k * entry W b t))))%R.
    + rewrite sumR_swap. apply sumn_ext. intros t Ht. now rewrite sumR_scal.
    + intros b Hb. unfold gram. fold n. rewrite entry_mk by assumption. rewrite Rsum_sumn, <- sumR_scal_r, <- sumR_scal. apply sumn_ext. intros; ring.
Qed.
Lemma gram_value_zero W l V k : eig_answer (gram W) l V -> orthonormal_columns V (nr W) -> k < nr W -> ~ (0 < nth k l 0)%R ->
  nth k l 0%R = 0%R /\ forall t, t < nc W -> sumn (nr W) (fun i => entry V i k * entry W i t)%R = 0%R.
Proof.
  intros Ha Ho Hk Hn. pose proof (gram_value W l V k Ha Ho Hk) as E.
  assert (H0 : (0 <= nth k l 0)%R). { rewrite E. apply sumR_nonneg. intros t _. apply Rle_0_sqr. }
  assert (Ez : nth k l 0%R = 0%R) by lra. split; [exact Ez|]. rewrite Ez in E. intros t Ht.
  assert (Hz := sumR_nonneg_0 _ _ (fun t _ => Rle_0_sqr _) (eq_sym E) t Ht). cbn beta in Hz. unfold Rsqr in Hz. nra.
Qed.

(** C67, symmetric decorrelation.  For every correct answer of the solver for W W^T (orthonormal vectors), the
    result D is M W for a symmetric M, and its rows are orthonormal whenever the rows of W, or those of D, are
    linearly independent (that is: unless 1/0 was computed). *)
Theorem C67_symmetric_decorrelation eig (W : mat R) l V :
  let n := nr W in let m := nc W in
  n <> 0 -> wf W -> eig (gram W) = Ok (l, V) -> eig_answer (gram W) l V -> orthonormal_columns V n ->
  exists D M, symmetric_decorrelation eig W = Ok D /\ symmetric M /\
    is_mat D n m (fun i j => Rsum n (fun a => entry M i a * entry W a j)%R) /\
    (independent_rows n m (entry W) \/ independent_rows n m (entry D) ->
     forall i j, i < n -> j < n -> Rsum m (fun k => entry D i k * entry D j k)%R = delta i j).
Proof.
  intros n m Hn HW He Ha Ho. set (M := inv_sqrt n l V).
  set (D := mk n m (fun i j => sumn n (fun a => entry M i a * entry W a j)%R)). exists D, M.
  pose proof (wf_mk W HW) as EW. fold n m in EW.
  split. { rewrite EW. apply symmetric_decorrelation_mk; [exact Hn|now rewrite <- EW|now rewrite <- EW]. }
  split. { unfold M, inv_sqrt. eapply (eq_ind _ symmetric). { apply (sandwich_sym n n (entry V) (fun k => / sqrt (nth k l 0))%R). } apply mk_ext. intros i j Hi Hj. now rewrite Rsum_sumn. }
  split. { unfold D. apply is_mat_mk_ext. intros i j Hi Hj. now rewrite Rsum_sumn. }
  intros Hind.
  assert (Hpos : forall k, k < n -> (0 < nth k l 0)%R).
  { intros k Hk. destruct (Rlt_dec 0 (nth k l 0%R)) as [|Hz]; [assumption|exfalso].
    destruct (gram_value_zero W l V k Ha Ho Hk Hz) as (Hl & Ht).
    assert (Hv : forall i, i < n -> entry V i k = 0%R).
    { destruct Hind as [Hind|Hind]; apply Hind; intros t Htm; rewrite Rsum_sumn.
      - now apply Ht.
      - rewrite (sumn_ext n _ (fun i => sumn n (fun a => entry V i k * entry M i a * entry W a t)))%R.
        2:{ intros i Hi. unfold D. rewrite entry_mk by assumption. rewrite <- sumR_scal. apply sumn_ext. intros; ring. }
        rewrite sumR_swap. apply sumR_zero. intros a Ha'. rewrite sumR_scal_r.
        replace (sumn n (fun i => entry V i k * entry M i a)%R) with 0%R; [ring|]. symmetry.
        transitivity (sumn n (fun i => sumn n (fun q => / sqrt (nth q l 0) * entry V a q * (entry V i k * entry V i q))))%R.
        { apply sumn_ext. intros i Hi. unfold M, inv_sqrt. rewrite entry_mk by assumption. rewrite Rsum_sumn, <- sumR_scal. apply sumn_ext. intros; ring. }
        rewrite sumR_swap. apply sumR_zero. intros q Hq. rewrite sumR_scal, <- Rsum_sumn, Ho by assumption. unfold delta. destruct (Nat.eqb_spec k q) as [<-|]; [|ring].
        rewrite Hl, sqrt_0, Rinv_0. ring. }
    assert (E := Ho k k Hk Hk). unfold delta in E. rewrite Nat.eqb_refl, Rsum_sumn, sumR_zero in E; [lra|]. intros i Hi. rewrite (Hv i Hi). ring. }
  intros i j Hi Hj. rewrite <- (inv_sqrt_quad (gram W) n l V eq_refl Ha Ho Hpos i j Hi Hj). fold M. rewrite Rsum_sumn.
  rewrite (sumn_ext m _ (fun k => sumn n (fun a => sumn n (fun b => entry M i a * (entry W a k * entry W b k) * entry M b j))))%R.
  2:{ intros k Hk. unfold D. rewrite !entry_mk by assumption. rewrite <- sumR_scal_r. apply sumn_ext. intros a Ha'. rewrite <- sumR_scal. apply sumn_ext. intros b Hb.
      unfold M. rewrite (inv_sqrt_sym n l V j b) by assumption. ring. }
  rewrite sumR_swap. apply sumn_ext. intros a Ha'. rewrite sumR_swap. apply sumn_ext. intros b Hb. rewrite sumR_scal_r, sumR_scal. do 2 f_equal.
  unfold gram. fold n m. rewrite entry_mk by assumption. now rewrite Rsum_sumn.
Qed.
Print Assumptions C67_symmetric_decorrelation.

(** * The parallel algorithm *)
Lemma scale_col_mk {T} `{Num T} n (f g : nat -> nat -> T) : scale_by_column_vector (mk n n f) (mk n 1 g) = Ok (mk n n (fun i j => nmul (f i j) (g i 0))).
Proof.
  unfold scale_by_column_vector, must_be_column_vector.
  assert (Hc : is_column_vector (mk n 1 g) = true) by (unfold is_column_vector; now rewrite is_vector_col).
  rewrite Hc, bind_Ok. unfold dimensions_must_match. cbn [nr nc mk negb orb andb]. fold (mk n n f) (mk n 1 g). rewrite Nat.eqb_refl. cbn [andb]. rewrite bind_Ok.
  unfold mul_by_vector, vector_op, vector_op_modify, must_be_vector, copy. rewrite is_vector_col, bind_Ok. unfold vector_size_matches. rewrite is_vector_col. cbn [negb].
  replace (if is_row_vector (mk n 1 g) then nc (mk n n f) =? nc (mk n 1 g) else nr (mk n n f) =? nr (mk n 1 g)) with true.
  2:{ unfold is_row_vector. rewrite is_vector_col. cbn [nr nc mk andb]. destruct (Nat.eqb_spec n 1) as [->|]; [reflexivity|]. symmetry. apply Nat.eqb_refl. }
  cbn [negb]. apply (f_equal Ok). unfold broadcast_op. cbn [nr nc mk Nat.eqb]. fold (mk n n f) (mk n 1 g). apply mk_ext. intros i j Hi Hj. rewrite entry_mk by assumption. f_equal.
  destruct (Nat.eqb_spec n 1) as [->|]; rewrite entry_mk by lia; [now replace i with 0 by lia|reflexivity].
Qed.

Section Parallel.
Variable nexp ntanh cube : R -> R.
Variable eig : mat R -> res (list R * mat R).
(** the solver's answers for symmetric matrices of size n are correct and orthonormal *)
Definition eig_contract (n : nat) : Prop :=
  forall A l V, symmetric A -> nr A = n -> eig A = Ok (l, V) -> eig_answer A l V /\ orthonormal_columns V n.
Definition orthonormal_if_independent (n m : nat) (D : mat R) : Prop :=
  wf D /\ nr D = n /\ nc D = m /\
  (independent_rows n m (entry D) -> forall i j, i < n -> j < n -> Rsum m (fun k => entry D i k * entry D j k)%R = delta i j).
Lemma gram_symmetric W : symmetric (gram W).
Proof.
  split; [apply mk_wf|]. split; [reflexivity|]. intros i j Hi Hj. change (nr (gram W)) with (nr W) in *. unfold gram. rewrite !entry_mk by assumption.
  apply Rsum_ext. intros; ring.
Qed.
Lemma decorrelated n m (w : nat -> nat -> R) D : n <> 0 -> eig_contract n ->
  symmetric_decorrelation eig (mk n m w) = Ok D -> orthonormal_if_independent n m D.
Proof.
  intros Hn Hc Hd. destruct (eig (gram (mk n m w))) as [(l, V)|e] eqn:Ee.
  - destruct (Hc _ _ _ (gram_symmetric (mk n m w)) eq_refl Ee) as (Ha & Ho).
    destruct (C67_symmetric_decorrelation eig (mk n m w) l V Hn (mk_wf _ _ _) Ee Ha Ho) as (D' & M & ED & _ & (H1 & H2 & H3 & _) & HD). cbn [nr nc mk] in *.
    rewrite Hd in ED. injection ED as <-. repeat (split; [assumption|]). intros Hi. apply HD. now right.
  - exfalso. unfold symmetric_decorrelation in Hd. rewrite transpose_mk, mul_mk, bind_Ok in Hd. unfold make_eig in Hd.
    replace (mk n n (fun i j => sumn m (fun k => nmul (w i k) (w j k)))) with (gram (mk n m w)) in Hd; [rewrite Ee in Hd; discriminate|].
    unfold gram. cbn [nr nc mk]. fold (mk n m w). apply mk_ext. intros i j Hi Hj. rewrite Rsum_sumn. apply sumn_ext. intros k Hk. now rewrite !entry_mk.
Qed.
Lemma parallel_loop_ok f n (X : mat R) tol mi : n <> 0 -> wf X -> nr X = n -> eig_contract n ->
  forall W0, orthonormal_if_independent n n W0 -> forall W, parallel_loop eig nexp ntanh cube f X tol mi W0 = Ok W -> orthonormal_if_independent n n W.
Proof.
  intros Hn HX Hr Hc. apply wf_mk in HX. rewrite Hr in HX. set (p := nc X) in *.
  induction mi as [|mi IH]; intros W0 H0 W; cbn [parallel_loop]; [now intros [= <-]|].
  destruct (parallel_step _ _ _ _ f X W0) as [(W1, lim)|e] eqn:Es; cbn [bind]; [|discriminate].
  assert (H1 : orthonormal_if_independent n n W1).
  { destruct H0 as (Hw & Hwr & Hwc & _). apply wf_mk in Hw. rewrite Hwr, Hwc in Hw. unfold parallel_step in Es. rewrite Hw, HX in Es. cbn [nc mk] in Es.
    fold (mk n p (entry X)) (mk n n (entry W0)) in Es. rewrite transpose_mk, mul_mk, bind_Ok in Es.
    destruct (fun_apply_mk nexp ntanh cube f n p (fun i j => sumn n (fun k => nmul (entry W0 k i) (entry X k j))) Hn) as (gx & g_x & Ef).
    rewrite Ef, bind_Ok, transpose_mk, mul_mk, bind_Ok, scale_col_mk, bind_Ok, div_scalar_mk, sub_mk, bind_Ok in Es.
    match type of Es with context [symmetric_decorrelation eig ?a] => destruct (symmetric_decorrelation eig a) as [D|e] eqn:Ed; cbn [bind] in Es; [|discriminate] end.
    apply decorrelated in Ed; [|assumption|assumption].
    destruct (mul D _) as [ww|]; cbn [bind] in Es; [|discriminate]. destruct (mmax _); cbn [bind] in Es; [|discriminate]. now injection Es as <- <-. }
  destruct (nltb lim tol); [now intros [= <-]|]. now apply IH.
Qed.
End Parallel.

(** C67, parallel.  Whatever the number of iterations, the rows of the answer are orthonormal, provided they
    are linearly independent. *)
Theorem C67_parallel nexp ntanh cube eig (s : ica_st R) (X Winit W : mat R) n :
  n <> 0 -> wf X -> nr X = n -> wf Winit -> nr Winit = n -> nc Winit = n -> eig_contract eig n ->
  parallel eig nexp ntanh cube s X Winit = Ok W ->
  wf W /\ nr W = n /\ nc W = n /\
  (independent_rows n n (entry W) -> forall i j, i < n -> j < n -> Rsum n (fun k => entry W i k * entry W j k)%R = delta i j).
Proof.
  intros Hn HX HrX Hw H1 H2 Hc. unfold parallel. apply wf_mk in Hw. rewrite H1, H2 in Hw. rewrite Hw.
  destruct (symmetric_decorrelation eig _) as [D|e] eqn:Ed; cbn [bind]; [|discriminate]. apply decorrelated in Ed; [|assumption|assumption].
  intros Hl. apply (parallel_loop_ok nexp ntanh cube eig _ n X _ _ Hn HX HrX Hc D Ed W Hl).
Qed.
Print Assumptions C67_parallel.

(** * Training with whitening *)
Definition ica_kept (s : ica_st R) (X : mat R) : nat := Nat.min (Z.to_nat (ic_num_components s)) (Nat.min (nc X) (nr X)).
Lemma kept_pos s X : (1 <= ic_num_components s)%Z -> nc X <> 0 -> nr X <> 0 -> ica_kept s X <> 0. Proof. unfold ica_kept. lia. Qed.
Lemma kept_le s X : ica_kept s X <= Nat.min (nc X) (nr X). Proof. unfold ica_kept. lia. Qed.
(** the centred data, features in rows *)
Definition features (X : mat R) : mat R := mk (nc X) (nr X) (fun j i => centred X i j).
Definition kept_state (s : ica_st R) (X : mat R) : ica_st R :=
  Ica (Z.of_nat (ica_kept s X)) true (ic_fun s) (ic_max_iter s) (ic_tol s) (ic_algorithm s) false (center_conf X) None (ic_sources s) None None.

Lemma ica_limit_spec (s : ica_st R) n p : ic_whiten s = true -> (1 <= ic_num_components s)%Z -> n <> 0 -> p <> 0 ->
  ic_initialised s = false -> ic_components s = None -> ic_whitening s = None -> ic_mixing s = None ->
  ica_limit s n p = (Ica (Z.of_nat (Nat.min (Z.to_nat (ic_num_components s)) (Nat.min n p))) true (ic_fun s) (ic_max_iter s) (ic_tol s) (ic_algorithm s) false
     (ic_center s) None (ic_sources s) None None, Ok tt).
Proof.
  intros Hw Hk Hn Hp H1 H2 H3 H4. unfold ica_limit. rewrite Hw. cbn [negb].
  destruct s as [k w f mi tol al b c co so wh mx]. cbn [ic_whiten ic_num_components ic_initialised ic_components ic_whitening ic_mixing ic_fun ic_max_iter ic_tol ic_algorithm ic_center ic_sources] in *. subst.
  destruct (Z.ltb_spec (Z.of_nat (Nat.min n p)) k) as [L|L].
  - unfold ica_set, ica_valid, ica_validated. destruct (Z.leb_spec 1 (Z.of_nat (Nat.min n p))); [|lia]. replace (Nat.min (Z.to_nat k) (Nat.min n p)) with (Nat.min n p) by lia. reflexivity.
  - replace (Z.of_nat (Nat.min (Z.to_nat k) (Nat.min n p))) with k by lia. reflexivity.
Qed.

Section Train.
Variable nexp ntanh cube : R -> R.
Variable eig : mat R -> res (list R * mat R).
Variable svd : mat R -> res (mat R * list R * mat R).
Variable lstsq : mat R -> mat R -> res (mat R).
Variable rnd : Z -> Z -> mat R.
Variable s : ica_st R.
Variable X : mat R.
Variables (u : mat R) (sv : list R) (vh : mat R).
Local Notation n := (nc X).
Local Notation p := (nr X).
Local Notation k := (ica_kept s X).
Hypothesis Hcenter : ic_center s = t_new center.
Hypothesis Hwhiten : ic_whiten s = true.
Hypothesis Hcomp : (1 <= ic_num_components s)%Z.
Hypothesis Hn : n <> 0.
Hypothesis Hp : p <> 0.
Hypothesis Hsvd : svd (features X) = Ok (u, sv, vh).
Hypothesis Hlen : length sv = Nat.min n p.
Hypothesis Hans : svd_answer (features X) u sv vh.
Hypothesis Horth : orthonormal_factors u (Nat.min n p) vh.
Hypothesis Hrank : forall a, a < k -> nth a sv 0%R <> 0%R.

Definition whitening_matrix : mat R := mk k n (fun a j => (- entry u j a) * / nth a sv 0)%R.
Lemma whiten_spec (s1 : ica_st R) : ic_num_components s1 = Z.of_nat k -> ica_whiten_matrix svd s1 (features X) = Ok whitening_matrix.
Proof.
  intros Hk. pose proof (kept_le s X) as Hle. unfold ica_whiten_matrix. change (nr (features X)) with n. change (nc (features X)) with p.
  unfold make_svd. rewrite Hsvd, !bind_Ok. destruct Hans as (Wu & U1 & U2 & _). change (nr (features X)) with n in U1. rewrite Hlen in *. cbn beta iota.
  replace (transpose (Mat 1 (Nat.min n p) [sv])) with (mk (Nat.min n p) 1 (fun a _ => nth a sv 0%R)).
  2:{ unfold transpose. cbn [nr nc]. apply mk_ext. intros a b Ha Hb. replace b with 0 by lia. reflexivity. }
  rewrite first_rows_mk, bind_Ok by lia. unfold apply_elementwise. rewrite map_mk. unfold mul_scalar, map_mat. rewrite U1, U2.
  rewrite scale_row_mk, bind_Ok, transpose_mk, Hk. cbn [nr mk].
  replace (Z.min (Z.of_nat (Nat.min n p)) (Z.of_nat k)) with (Z.of_nat k) by lia.
  fold (mk (Nat.min n p) n (fun i j : nat => nmul (nmul (entry u j i) (nofZ (-1))) (ndiv n1 (nth i sv 0%R)))).
  rewrite first_rows_mk by lia. apply (f_equal Ok). unfold whitening_matrix. apply mk_ext. intros a j Ha Hj. cbn [nmul ndiv n1 nofZ NumR]. unfold Rdiv. rewrite Rmult_1_l. f_equal.
  cbn. ring.
Qed.

(** whitening x features = - the first right singular vectors *)
Lemma whitened a i : a < k -> i < p -> sumn n (fun j => entry whitening_matrix a j * centred X i j)%R = (- entry vh a i)%R.
Proof.
  intros Ha Hi. pose proof (kept_le s X) as Hle. pose proof (Hrank a Ha) as Hz. destruct Hans as (_ & U1 & _ & _ & _ & _ & HS). rewrite Hlen in HS. destruct Horth as (Ou & _). rewrite U1 in Ou.
  change (nr (features X)) with n in *. change (nc (features X)) with p in HS.
  rewrite (sumn_ext n _ (fun j => sumn (Nat.min n p) (fun t => (- / nth a sv 0 * nth t sv 0 * entry vh t i) * (entry u j a * entry u j t))))%R.
  2:{ intros j Hj. specialize (HS j i Hj Hi). unfold features in HS. rewrite entry_mk in HS by assumption. rewrite HS, Rsum_sumn, <- sumR_scal.
      apply sumn_ext. intros t Ht. unfold whitening_matrix. rewrite entry_mk by assumption. ring. }
  rewrite sumR_swap. rewrite (sumR_single _ a); [| lia |].
  - rewrite sumR_scal, <- Rsum_sumn, Ou by lia. unfold delta. rewrite Nat.eqb_refl. field. exact Hz.
  - intros t Ht Hne. rewrite sumR_scal, <- Rsum_sumn, Ou by lia. unfold delta. rewrite (proj2 (Nat.eqb_neq a t)) by congruence. ring.
Qed.

Definition X1 : mat R := mk k p (fun a i => - entry vh a i * sqrt (INR p))%R.

Lemma configure_spec :
  ica_configure eig svd lstsq rnd nexp ntanh cube (ica_reset s) X =
  match ica_unmixing eig rnd nexp ntanh cube (ica_put (kept_state s X) (center_conf X) None (ic_sources s) (Some whitening_matrix) None false) X1 with
  | Err e => (ica_put (kept_state s X) (center_conf X) None (ic_sources s) (Some whitening_matrix) None false, Err e)
  | Ok U => ica_finish lstsq (ica_put (kept_state s X) (center_conf X) None (ic_sources s) (Some whitening_matrix) None false) (Some whitening_matrix) (features X) U
  end.
Proof.
  unfold ica_configure. rewrite ica_limit_spec by (auto || reflexivity). cbn [ic_whiten]. cbn [ica_reset ic_center ic_num_components ic_fun ic_max_iter ic_tol ic_algorithm ic_sources]. rewrite Hcenter, center_first.
  unfold ica_put at 1 2 3 4 5. cbn [ic_num_components ic_whiten ic_fun ic_max_iter ic_tol ic_algorithm ic_center ic_sources].
  change (Nat.min (Z.to_nat (ic_num_components s)) (Nat.min n p)) with k. rewrite transpose_mk. fold (features X). 
  rewrite whiten_spec by reflexivity.
  assert (Em : mul whitening_matrix (features X) = Ok (mk k p (fun a i => sumn n (fun j => nmul (- entry u j a * / nth a sv 0)%R (centred X i j))))) by (unfold whitening_matrix, features; apply mul_mk).
  rewrite Em, bind_Ok, mul_scalar_mk.
  rewrite (mk_ext k p _ (fun a i => - entry vh a i * sqrt (INR p)))%R.
  2:{ intros a i Ha Hi. cbn [nmul nsqrt nofZ NumR]. rewrite <- INR_IZR_INZ. f_equal. rewrite <- whitened by assumption. apply sumn_ext. intros j Hj. unfold whitening_matrix. now rewrite entry_mk. }
  fold X1. unfold kept_state, ica_put. cbn [ic_num_components ic_whiten ic_fun ic_max_iter ic_tol ic_algorithm ic_center ic_sources]. reflexivity.
Qed.
End Train.

Lemma centred_sum (X : mat R) j : nr X <> 0 -> sumn (nr X) (fun i => centred X i j) = 0%R.
Proof.
  intros Hp. unfold centred. rewrite sumR_minus, sumR_const. unfold Rmean. rewrite Rsum_sumn. field. now apply not_0_INR.
Qed.

(** C67.  For every object whose center is unused (a new one, for instance) with whiten on, every data matrix
    whose leading singular values are not zero, every correct answer of the solvers, every starting matrix and
    every approximation function: if transform succeeds, then
    - the sources are the centred data times the components: S[i,a] = sum_j (x_ij - mean_j) C[a,j];
    - every source has mean 0;
    - the sources are white: S^T S = I (as many sources as min(num_components, features, samples)), with
      DEFLATION after at least one iteration, with PARALLEL after any number, unless a source vanished
      (resp. the sources are dependent), which takes a division by zero in the algorithm;
    - if as many components as features are kept, the sources and the mixing matrix give back the centred data. *)
Theorem C67_sources nexp ntanh cube eig svd lstsq rnd (s s' : ica_st R) (X S u : mat R) (sv : list R) (vh : mat R) :
  let n := nc X in let p := nr X in let k := ica_kept s X in
  ic_center s = t_new center -> ic_whiten s = true -> (1 <= ic_num_components s)%Z -> n <> 0 -> p <> 0 ->
  svd (features X) = Ok (u, sv, vh) -> length sv = Nat.min n p -> svd_answer (features X) u sv vh ->
  orthonormal_factors u (Nat.min n p) vh -> (forall a, a < k -> nth a sv 0%R <> 0%R) ->
  wf (rnd (Z.of_nat k) (Z.of_nat k)) -> nr (rnd (Z.of_nat k) (Z.of_nat k)) = k -> nc (rnd (Z.of_nat k) (Z.of_nat k)) = k ->
  (ic_algorithm s = PARALLEL -> eig_contract eig k) ->
  ica_transform eig svd lstsq rnd nexp ntanh cube s X = (s', Ok S) ->
  exists C M, ic_components s' = Some C /\ ic_sources s' = Some S /\ ic_mixing s' = Some M /\ ic_initialised s' = true /\
    wf C /\ nr C = k /\ nc C = n /\
    is_mat S p k (fun i a => Rsum n (fun j => centred X i j * entry C a j)%R) /\
    (forall a, a < k -> Rsum p (fun i => entry S i a) = 0%R) /\
    (ic_algorithm s = DEFLATION -> (0 < ic_max_iter s)%Z -> forall a b, a < k -> b < k ->
       (a <> b -> Rsum p (fun i => entry S i a * entry S i b)%R = 0%R) /\
       (Rsum p (fun i => entry S i a * entry S i a)%R = 1%R \/ forall i, i < p -> entry S i a = 0%R)) /\
    (ic_algorithm s = PARALLEL -> independent_rows k p (fun a i => entry S i a) ->
       forall a b, a < k -> b < k -> Rsum p (fun i => entry S i a * entry S i b)%R = delta a b) /\
    (k = n -> forall i j, i < p -> j < n -> Rsum n (fun a => entry S i a * entry M j a)%R = centred X i j).
Proof.
  intros n p k Hc Hw Hnc Hn Hp Es Hl Ha Ho Hr R1 R2 R3 Hpar. unfold ica_transform.
  rewrite (configure_spec nexp ntanh cube eig svd lstsq rnd s X u sv vh Hc Hw Hnc Hn Hp Es Hl Ha Ho Hr).
  pose proof (kept_pos s X Hnc Hn Hp) as Hk0. pose proof (kept_le s X) as Hkle. fold k in Hk0, Hkle. fold n p in Hkle.
  pose proof (fun a i => whitened s X u sv vh Hn Hp Hl Ha Ho Hr a i) as HWX. fold n p k in HWX.
  set (Wh := whitening_matrix s X u sv) in *. set (s1 := ica_put _ _ _ _ _ _ _).
  assert (Hvh : forall a b, a < k -> b < k -> sumn p (fun i => entry vh a i * entry vh b i)%R = delta a b).
  { destruct Ho as (_ & Ov). destruct Ha as (_ & _ & _ & _ & _ & V2 & _). change (nc (features X)) with p in V2. rewrite V2 in Ov. intros a b Hak Hbk. rewrite <- Rsum_sumn. apply Ov; lia. }
  destruct (ica_unmixing eig rnd nexp ntanh cube s1 (X1 s X vh)) as [U|e] eqn:EU; [|discriminate].
  assert (HU : wf U /\ nr U = k /\ nc U = k /\
     (ic_algorithm s = DEFLATION -> (0 < ic_max_iter s)%Z -> forall i j, i < k -> j < k ->
        (i <> j -> Rsum k (fun t => entry U i t * entry U j t)%R = 0%R) /\
        (Rsum k (fun t => entry U i t * entry U i t)%R = 1%R \/ (forall t, t < k -> entry U i t = 0%R))) /\
     (ic_algorithm s = PARALLEL -> independent_rows k k (entry U) -> forall i j, i < k -> j < k -> Rsum k (fun t => entry U i t * entry U j t)%R = delta i j)).
  { unfold ica_unmixing in EU. assert (Es1 : ic_num_components s1 = Z.of_nat k) by reflexivity. rewrite Es1 in EU. change (ic_algorithm s1) with (ic_algorithm s) in EU.
    destruct (ic_algorithm s) eqn:Eal.
    - destruct (C67_parallel nexp ntanh cube eig s1 (X1 s X vh) _ U k Hk0 (mk_wf _ _ _) eq_refl R1 R2 R3 (Hpar eq_refl) EU) as (U1 & U2 & U3 & U4).
      repeat (split; [assumption|]). split; [discriminate|]. intros _. exact U4.
    - assert (En : Z.to_nat (ic_num_components s1) = k) by (rewrite Es1; apply Nat2Z.id).
      pose proof (C67_deflation nexp ntanh cube s1 (X1 s X vh) (rnd (Z.of_nat k) (Z.of_nat k))) as HD. cbv zeta in HD. rewrite En in HD.
      destruct (HD Hk0 (mk_wf _ _ _) eq_refl Hp R1 R2 R3) as (U' & EU' & U1 & U2 & U3 & U4). rewrite EU in EU'. injection EU' as <-.
      repeat (split; [assumption|]). split; [|discriminate]. intros _. exact U4. }
  clear EU. destruct HU as (WU & U1 & U2 & HUd & HUp). apply wf_mk in WU. rewrite U1, U2 in WU.
  unfold ica_finish. set (C := mk k n (fun a j => sumn k (fun t => entry U a t * entry Wh t j)%R)).
  assert (EC : mul U Wh = Ok C).
  { rewrite WU. unfold Wh, whitening_matrix. fold n k. rewrite mul_mk. apply (f_equal Ok). unfold C. apply mk_ext. intros a j Hak Hj. apply sumn_ext. intros t Ht. cbn [nmul NumR]. f_equal. unfold Wh, whitening_matrix. now rewrite entry_mk. }
  rewrite EC, bind_Ok. unfold C at 1, features at 1. fold n p. rewrite mul_mk, bind_Ok, transpose_mk. 
  set (S0 := mk p k _). fold C.
  assert (HS0 : forall i a, i < p -> a < k -> entry S0 i a = sumn n (fun j => centred X i j * entry C a j)%R).
  { intros i a Hi Hak. unfold S0. rewrite entry_mk by assumption. apply sumn_ext. intros j Hj. unfold C. rewrite entry_mk by assumption. cbn [nmul NumR]. ring. }
  assert (HS1 : forall i a, i < p -> a < k -> entry S0 i a = (- sumn k (fun t => entry U a t * entry vh t i))%R).
  { intros i a Hi Hak. rewrite HS0 by assumption.
    rewrite (sumn_ext n _ (fun j => sumn k (fun t => entry U a t * (entry Wh t j * centred X i j))))%R.
    2:{ intros j Hj. unfold C. rewrite entry_mk by assumption. rewrite <- sumR_scal. apply sumn_ext. intros; ring. }
    rewrite sumR_swap, <- sumR_opp. apply sumn_ext. intros t Ht. rewrite sumR_scal, HWX by assumption. ring. }
  assert (HSS : forall a b, a < k -> b < k -> Rsum p (fun i => entry S0 i a * entry S0 i b)%R = Rsum k (fun t => entry U a t * entry U b t)%R).
  { intros a b Hak Hbk. rewrite !Rsum_sumn.
    rewrite (sumn_ext p _ (fun i => sumn k (fun t => sumn k (fun r => entry U a t * entry U b r * (entry vh t i * entry vh r i)))))%R.
    2:{ intros i Hi. rewrite !HS1 by assumption. rewrite Rmult_opp_opp, <- sumR_scal_r. apply sumn_ext. intros t Ht. rewrite <- sumR_scal. apply sumn_ext. intros; ring. }
    rewrite sumR_swap. apply sumn_ext. intros t Ht. rewrite sumR_swap. rewrite (sumR_single _ t); [|exact Ht|].
    - rewrite sumR_scal, Hvh by assumption. unfold delta. rewrite Nat.eqb_refl. ring.
    - intros r Hrk Hne. rewrite sumR_scal, Hvh by assumption. unfold delta. rewrite (proj2 (Nat.eqb_neq t r)) by congruence. ring. }
  destruct (inverse np_inv lstsq C) as [M|e] eqn:EM; [|discriminate]. cbn [ica_put ic_sources need]. intros E. injection E as <- ES. subst S.
  exists C, M. split; [reflexivity|]. split; [reflexivity|]. split; [reflexivity|]. split; [reflexivity|]. split; [apply mk_wf|]. split; [reflexivity|]. split; [reflexivity|].
  split. { split; [apply mk_wf|]. split; [reflexivity|]. split; [reflexivity|]. intros i a Hi Hak. rewrite Rsum_sumn. now apply HS0. }
  split. { intros a Hak. rewrite Rsum_sumn. rewrite (sumn_ext p _ (fun i => sumn n (fun j => centred X i j * entry C a j)))%R by (intros; now apply HS0).
    rewrite sumR_swap. apply sumR_zero. intros j Hj. rewrite sumR_scal_r. unfold p. rewrite centred_sum by assumption. ring. }
  split. { intros Hd Hm a b Hak Hbk. rewrite !HSS by assumption. destruct (HUd Hd Hm a b Hak Hbk) as (H1 & H2). split; [exact H1|]. destruct H2 as [H2|H2]; [now left|right].
    intros i Hi. rewrite HS1 by assumption. rewrite sumR_zero; [ring|]. intros t Ht. rewrite H2 by assumption. ring. }
  split. { intros Hd Hi a b Hak Hbk. rewrite HSS by assumption. apply (HUp Hd); [|assumption|assumption]. intros y Hy. apply Hi. intros i Hip. rewrite Rsum_sumn.
    rewrite (sumn_ext k _ (fun a => sumn k (fun t => - entry vh t i * (y a * entry U a t))))%R.
    2:{ intros c Hck. rewrite HS1 by assumption. rewrite <- sumR_opp, <- sumR_scal. apply sumn_ext. intros; ring. }
    rewrite sumR_swap. apply sumR_zero. intros t Ht. rewrite sumR_scal, <- Rsum_sumn, Hy by assumption. ring. }
  intros Hkn i j Hi Hj.
  destruct (C61_inverse lstsq C (mk_wf _ _ _) Hkn) as (I1 & I2).
  destruct I2 as (M' & EM' & WM & M1 & M2 & HM). { intros Hsing. rewrite (I1 Hsing) in EM. discriminate. }
  rewrite EM in EM'. injection EM' as <-. change (nr C) with k in *. rewrite Rsum_sumn.
  rewrite (sumn_ext n _ (fun a => sumn n (fun l => centred X i l * (entry M j a * entry C a l))))%R.
  2:{ intros a Han. rewrite HS0 by lia. rewrite <- sumR_scal_r. apply sumn_ext. intros; ring. }
  rewrite sumR_swap. rewrite (sumR_single _ j); [|exact Hj|].
  - destruct (HM j j ltac:(lia) ltac:(lia)) as (_ & HM2). rewrite Nat.eqb_refl, Rsum_sumn in HM2. rewrite sumR_scal, <- Hkn, HM2. ring.
  - intros l Hln Hne. destruct (HM j l ltac:(lia) ltac:(lia)) as (_ & HM2). rewrite (proj2 (Nat.eqb_neq j l)), Rsum_sumn in HM2 by congruence. rewrite sumR_scal, <- Hkn, HM2. ring.
Qed.
Print Assumptions C67_sources.

(** * Life cycle *)
Section Life.
Context {T : Type} `{Num T}.
Variable eig : mat T -> res (list T * mat T).
Variable svd : mat T -> res (mat T * list T * mat T).
Variable lstsq : mat T -> mat T -> res (mat T).
Variable rnd : Z -> Z -> mat T.
Variable nexp ntanh cube : T -> T.
Local Notation configure := (ica_configure eig svd lstsq rnd nexp ntanh cube).
Local Notation transform := (ica_transform eig svd lstsq rnd nexp ntanh cube).
Local Notation run := (ica_run eig svd lstsq rnd nexp ntanh cube).

Definition ica_trained (s : ica_st T) (n p : nat) : Prop :=
  exists C S M, ic_components s = Some C /\ ic_sources s = Some S /\ ic_mixing s = Some M /\ nc C = n /\ nr S = p /\
    (ic_whiten s = true -> exists d, ic_center s = center_conf d /\ nc d = n).
Definition same_settings (s s' : ica_st T) : Prop :=
  ic_whiten s' = ic_whiten s /\ ic_fun s' = ic_fun s /\ ic_max_iter s' = ic_max_iter s /\ ic_tol s' = ic_tol s /\ ic_algorithm s' = ic_algorithm s.
Definition ica_inv (s : ica_st T) : Prop :=
  (1 <= ic_num_components s)%Z /\ (0 <= ic_max_iter s)%Z /\ center_ok (ic_center s) /\
  (ic_initialised s = true -> exists n p, ica_trained s n p).

Lemma ica_limit_inv s n p s' r : (1 <= ic_num_components s)%Z -> ic_initialised s = false -> ica_limit s n p = (s', r) ->
  same_settings s s' /\ ic_center s' = ic_center s /\ ic_initialised s' = false /\ ic_sources s' = ic_sources s /\
  (1 <= ic_num_components s')%Z /\ (ic_whiten s = true -> (ic_num_components s' <= ic_num_components s)%Z) /\
  (r = Ok tt -> (ic_num_components s' <= Z.of_nat (Nat.min n p))%Z) /\ (n <> 0 -> p <> 0 -> r = Ok tt).
Proof.
  intros Hk Hi. unfold ica_limit, ica_set, ica_valid, ica_validated.
  destruct (ic_whiten s) eqn:Ew; cbn [negb].
  - destruct (Z.ltb_spec (Z.of_nat (Nat.min n p)) (ic_num_components s)) as [L|L].
    + destruct (Z.leb_spec 1 (Z.of_nat (Nat.min n p))) as [L1|L1]; intros [= <- <-]; unfold same_settings; cbn; repeat split; auto; try lia; try discriminate.
    + intros [= <- <-]; unfold same_settings; repeat split; auto; lia.
  - destruct (Z.leb_spec 1 (Z.of_nat (Nat.min n p))) as [L1|L1].
    + cbn [ica_store ic_num_components ica_reset]. rewrite (proj2 (Z.ltb_ge _ _)) by lia. intros [= <- <-]; unfold same_settings; cbn; repeat split; auto; try lia; discriminate.
    + intros [= <- <-]; unfold same_settings; repeat split; auto; try lia; discriminate.
Qed.

Lemma ica_finish_inv s wh Xt U s' r : ica_finish lstsq s wh Xt U = (s', r) ->
  same_settings s s' /\ ic_center s' = ic_center s /\ ic_num_components s' = ic_num_components s /\
  (r = Ok tt /\ ic_initialised s' = true /\ (exists C S M, ic_components s' = Some C /\ ic_sources s' = Some S /\ ic_mixing s' = Some M /\ nc C = nr Xt /\ nr S = nc Xt) \/
   (exists e, r = Err e) /\ ic_initialised s' = false).
Proof.
  unfold ica_finish. destruct (match wh with Some w => mul U w | None => Ok U end) as [C|e]; cbn [bind].
  2:{ intros [= <- <-]. unfold same_settings. cbn. repeat split; auto. right. split; [eexists; reflexivity|reflexivity]. }
  destruct (mul C Xt) as [sx|e] eqn:Em; cbn [bind].
  2:{ intros [= <- <-]. unfold same_settings. cbn. repeat split; auto. right. split; [eexists; reflexivity|reflexivity]. }
  apply mul_inv in Em as [E1 ->].
  destruct (inverse _ _ C) as [M|e]; intros [= <- <-]; unfold same_settings; cbn; repeat split; auto.
  - left. split; [reflexivity|]. split; [reflexivity|]. exists C, (transpose (matmul C Xt)), M. rewrite transpose_nr, nc_matmul. auto.
  - right. split; [eexists; reflexivity|reflexivity].
Qed.

Lemma configure_inv s X s' r : (1 <= ic_num_components s)%Z -> ic_initialised s = false -> center_ok (ic_center s) -> configure s X = (s', r) ->
  same_settings s s' /\ (1 <= ic_num_components s')%Z /\ (ic_whiten s = true -> (ic_num_components s' <= ic_num_components s)%Z) /\ center_ok (ic_center s') /\
  (r = Ok tt /\ ic_initialised s' = true /\ ica_trained s' (nc X) (nr X) /\ (ic_num_components s' <= Z.of_nat (Nat.min (nc X) (nr X)))%Z \/
   (exists e, r = Err e) /\ ic_initialised s' = false).
Proof.
  intros Hk Hi Hc. unfold ica_configure. destruct (ica_limit s (nc X) (nr X)) as [s1 r1] eqn:El.
  destruct (ica_limit_inv _ _ _ _ _ Hk Hi El) as (Hs & Hc1 & Hi1 & Hso & Hk1 & Hk2 & Hk3 & _). destruct Hs as (S1 & S2 & S3 & S4 & S5).
  destruct r1 as [[]|e]. 2:{ intros [= <- <-]. unfold same_settings. rewrite Hc1. repeat split; auto. right. split; [eexists; reflexivity|assumption]. }
  specialize (Hk3 eq_refl). destruct (ic_whiten s1) eqn:Ew.
  - rewrite <- Hc1 in Hc. destruct (center_step (ic_center s1) X Hc) as (d & Ed & _ & _ & Hd2).
    destruct (t_transform center (ic_center s1) X) as [c [Xc|e]] eqn:Et; cbn [fst snd] in *; subst c.
    2:{ intros [= <- <-]. unfold same_settings. cbn. rewrite Ew, S1. repeat split; auto; [right; exists d; reflexivity|right; split; [eexists; reflexivity|reflexivity]]. }
    assert (Hd : nc d = nc X /\ nr Xc = nr X /\ nc Xc = nc X). { destruct (Nat.eqb_spec (nc X) (nc d)) as [E|E]; [|discriminate]. injection Hd2 as ->. auto. }
    destruct Hd as (Hd & Hx1 & Hx2).
    destruct (ica_whiten_matrix _ _ _) as [wh|e].
    2:{ intros [= <- <-]. unfold same_settings. cbn. rewrite Ew, S1. repeat split; auto; [right; exists d; reflexivity|right; split; [eexists; reflexivity|reflexivity]]. }
    destruct (bind (mul wh _) _) as [U|e].
    2:{ intros [= <- <-]. unfold same_settings. cbn. rewrite Ew, S1. repeat split; auto; [right; exists d; reflexivity|right; split; [eexists; reflexivity|reflexivity]]. }
    intros Ef. destruct (ica_finish_inv _ _ _ _ _ _ Ef) as ((F1 & F2 & F3 & F4 & F5) & Fc & Fk & F). cbn in F1, F2, F3, F4, F5, Fc, Fk.
    split. { unfold same_settings. repeat split; congruence. }
    split; [congruence|]. split; [intros Q; rewrite Fk; auto|]. split; [rewrite Fc; right; exists d; reflexivity|].
    destruct F as [(-> & Fi & C & S & M & E1 & E2 & E3 & E4 & E5)|F]; [left|right; exact F].
    split; [reflexivity|]. split; [exact Fi|]. split; [|rewrite Fk; exact Hk3]. exists C, S, M. rewrite transpose_nr in E4. rewrite transpose_nc in E5.
    repeat (split; [assumption || congruence|]). intros _. exists d. auto.
  - destruct (ica_unmixing _ _ _ _ _ _ _) as [U|e].
    2:{ intros [= <- <-]. unfold same_settings. rewrite Hc1. repeat split; auto; try congruence. right. split; [eexists; reflexivity|assumption]. }
    intros Ef. destruct (ica_finish_inv _ _ _ _ _ _ Ef) as ((F1 & F2 & F3 & F4 & F5) & Fc & Fk & F).
    split. { unfold same_settings. repeat split; congruence. }
    split; [congruence|]. split; [intros Q; rewrite Fk; auto|]. split; [rewrite Fc, Hc1; exact Hc|].
    destruct F as [(-> & Fi & C & S & M & E1 & E2 & E3 & E4 & E5)|F]; [left|right; exact F].
    split; [reflexivity|]. split; [exact Fi|]. split; [|rewrite Fk; exact Hk3]. exists C, S, M. rewrite transpose_nr in E4. rewrite transpose_nc in E5.
    repeat (split; [assumption|]). congruence.
Qed.

Lemma transform_inv s X : ica_inv s -> let r := transform s X in
  ica_inv (fst r) /\ same_settings s (fst r) /\ (ic_whiten s = true -> (ic_num_components (fst r) <= ic_num_components s)%Z) /\
  ((exists S, snd r = Ok S /\ ic_sources (fst r) = Some S /\ nr S = nr X) /\ ic_initialised (fst r) = true /\ ica_trained (fst r) (nc X) (nr X) /\ (ic_num_components (fst r) <= Z.of_nat (Nat.min (nc X) (nr X)))%Z \/
   (exists e, snd r = Err e) /\ ic_initialised (fst r) = false).
Proof.
  intros (Hk & Hm & Hc & _). unfold ica_transform. destruct (configure (ica_reset s) X) as [s' r] eqn:E.
  destruct (configure_inv (ica_reset s) X s' r Hk eq_refl Hc E) as (Hs & Hk' & Hk2 & Hc' & F).
  assert (Hm' : (0 <= ic_max_iter s')%Z) by (destruct Hs as (_ & _ & -> & _); exact Hm).
  destruct F as [(-> & Hi & Ht & Hl)|((e & ->) & Hi)]; cbn [fst snd].
  - split. { split; [exact Hk'|]. split; [exact Hm'|]. split; [exact Hc'|]. intros _. exists (nc X), (nr X). exact Ht. }
    split; [exact Hs|]. split; [exact Hk2|]. left. split; [|auto]. destruct Ht as (C & S & M & _ & E2 & _ & _ & E5 & _). exists S. rewrite E2. auto.
  - split. { split; [exact Hk'|]. split; [exact Hm'|]. split; [exact Hc'|]. congruence. }
    split; [exact Hs|]. split; [exact Hk2|]. right. split; [exists e; reflexivity|exact Hi].
Qed.

Lemma reconstruct_fst s : ica_inv s -> exists c, fst (ica_reconstruct s) = ica_put s c (ic_components s) (ic_sources s) (ic_whitening s) (ic_mixing s) (ic_initialised s) /\
  center_ok c /\ (t_configured center (ic_center s) = true -> c = ic_center s).
Proof.
  intros (_ & _ & Hc & _).
  assert (Hself : exists c, s = ica_put s c (ic_components s) (ic_sources s) (ic_whitening s) (ic_mixing s) (ic_initialised s) /\ center_ok c /\ (t_configured center (ic_center s) = true -> c = ic_center s)).
  { exists (ic_center s). split; [destruct s; reflexivity|auto]. }
  unfold ica_reconstruct. destruct (ic_initialised s) eqn:E; [|cbn [fst]; exact Hself].
  destruct (bind _ _) as [m|e]; [|cbn [fst]; exact Hself]. unfold t_inverse. destruct (t_configured center (ic_center s)) eqn:Ec; cbn [negb fst].
  - exact (ex_intro _ (ic_center s) (conj eq_refl (conj Hc (fun _ => eq_refl)))).
  - eexists. split; [reflexivity|]. split; [right; eexists; reflexivity|discriminate].
Qed.

Lemma ica_run_inv h : ica_inv (run h).
Proof.
  unfold ica_run. assert (H0 : ica_inv (@ica_new T _)). { split; [cbn; lia|]. split; [cbn; lia|]. split; [left; reflexivity|]. discriminate. }
  revert H0. generalize (@ica_new T _). induction h as [|o l IH]; intros s Hs; cbn [fold_left]; [exact Hs|]. apply IH.
  destruct o as [x| | | |k]; cbn [ica_step].
  - exact (proj1 (transform_inv s x Hs)).
  - destruct (reconstruct_fst s Hs) as (c & -> & Hc & Hcc). destruct Hs as (Hk & Hm & Hc0 & Hi). split; [exact Hk|]. split; [exact Hm|]. split; [exact Hc|].
    intros Hi'. destruct (Hi Hi') as (n & p & C & S & M & E1 & E2 & E3 & E4 & E5 & E6). exists n, p, C, S, M. cbn. repeat (split; [assumption|]).
    intros Hw. destruct (E6 Hw) as (d & Ed & Hd). exists d. split; [|exact Hd]. rewrite Hcc; [exact Ed|]. rewrite Ed. reflexivity.
  - split; [cbn; lia|]. split; [cbn; lia|]. split; [left; reflexivity|]. discriminate.
  - destruct Hs as (Hk & Hm & Hc & _). split; [exact Hk|]. split; [exact Hm|]. split; [exact Hc|]. discriminate.
  - destruct Hs as (Hk & Hm & Hc & Hi). unfold ica_set. destruct (ica_valid k) eqn:E; [|cbn [fst]; split; [exact Hk|]; split; [exact Hm|]; split; [exact Hc|]; exact Hi].
    destruct k as [v|v|v|v|v|v]; cbn in E; cbn [fst ica_validated]; (split; [cbn; try apply Z.leb_le in E; assumption|]);
      (split; [cbn; try apply Z.leb_le in E; assumption|]); (split; [exact Hc|]); first [discriminate|exact Hi].
Qed.
End Life.

(** C67, life cycle.  After every history of transforms (succeeding or raising), reconstructions, assignments,
    resets and initialisations, for every number type and all solvers: at least one component is asked for;
    reconstruct is refused with MatrixAlgorithmsError, and changes nothing, until a transform has succeeded and
    again after every failed transform, reset and assignment of a validated parameter (C46_fastica); a trained
    object has components, sources and a mixing matrix; transform marks the object as trained exactly if it
    returns, the value returned being the sources attribute with one row per sample; apart from lowering
    num_components to min(features, samples) it changes no parameter. *)
Theorem C67_life_cycle {T} `{Num T} eig svd lstsq rnd nexp ntanh cube (h : list (ica_op T)) :
  let s := ica_run eig svd lstsq rnd nexp ntanh cube h in
  (1 <= ic_num_components s)%Z /\ (0 <= ic_max_iter s)%Z /\
  (ic_initialised s = false -> ica_reconstruct s = (s, Err MatrixAlgorithmsError)) /\
  (ic_initialised s = true -> exists C S M, ic_components s = Some C /\ ic_sources s = Some S /\ ic_mixing s = Some M) /\
  forall X, let r := ica_transform eig svd lstsq rnd nexp ntanh cube s X in
    same_settings s (fst r) /\ (1 <= ic_num_components (fst r))%Z /\
    (ic_whiten s = true -> (ic_num_components (fst r) <= ic_num_components s)%Z) /\
    match snd r with
    | Ok src => ic_initialised (fst r) = true /\ ic_sources (fst r) = Some src /\ nr src = nr X /\ (ic_num_components (fst r) <= Z.of_nat (Nat.min (nc X) (nr X)))%Z
    | Err _ => ic_initialised (fst r) = false
    end.
Proof.
  intros s. pose proof (ica_run_inv eig svd lstsq rnd nexp ntanh cube h) as Hs. fold s in Hs. clearbody s. clear h.
  split; [apply Hs|]. split; [apply Hs|]. split. { intros E. unfold ica_reconstruct. now rewrite E. }
  split. { intros E. destruct Hs as (_ & _ & _ & Hi). destruct (Hi E) as (n & p & C & S & M & E1 & E2 & E3 & _). exists C, S, M. auto. }
  intros X. pose proof (transform_inv eig svd lstsq rnd nexp ntanh cube s X Hs) as HT. cbv zeta in HT |- *.
  destruct (ica_transform eig svd lstsq rnd nexp ntanh cube s X) as [s' r]. cbn [fst snd] in *. destruct HT as ((K & _) & Ss & Kw & F).
  split; [exact Ss|]. split; [exact K|]. split; [exact Kw|]. destruct F as [((S & -> & E1 & E2) & E3 & _ & E4)|((e & ->) & E)]; auto.
Qed.
Print Assumptions C67_life_cycle.

(** C67 refuted: reconstruct.  With whitening it never returns when the numbers of samples and features
    differ, after any history, for every number type and all solvers: the feature means are added to a
    matrix that has the samples in its columns. *)
Theorem C67_reconstruct_refuted {T} `{Num T} eig svd lstsq rnd nexp ntanh cube (h : list (ica_op T)) C S :
  let s := ica_run eig svd lstsq rnd nexp ntanh cube h in
  ic_initialised s = true -> ic_whiten s = true -> ic_components s = Some C -> ic_sources s = Some S -> nr S <> nc C ->
  snd (ica_reconstruct s) = Err ValueError.
Proof.
  intros s Hi Hw HC HS Hne. destruct (ica_run_inv eig svd lstsq rnd nexp ntanh cube h) as (_ & _ & _ & Hinv). fold s in Hinv.
  destruct (Hinv Hi) as (n & p & C' & S' & M & E1 & E2 & E3 & E4 & E5 & E6). destruct (E6 Hw) as (d & Ed & Hd). clearbody s.
  assert (C' = C) by congruence. assert (S' = S) by congruence. subst C' S'.
  unfold ica_reconstruct. rewrite Hi, HS, E3, Ed. cbn [need bind].
  unfold mul, is_multiplicable_with. destruct (negb _); [reflexivity|]. unfold t_inverse. change (t_configured center (center_conf d)) with true. cbn [negb snd].
  rewrite center_undo, transpose_nc, nr_matmul. destruct (Nat.eqb_spec (nr S) (nc d)); [congruence|]. reflexivity.
Qed.
Print Assumptions C67_reconstruct_refuted.

(** C46 for FastICA *)
Theorem C46_fastica {T} `{Num T} (s : ica_st T) (k : ica_key T) :
  (ica_valid k = false -> ica_set s k = (s, Err ValueError)) /\
  (ica_valid k = true -> let s' := fst (ica_set s k) in snd (ica_set s k) = Ok tt /\
     (ic_num_components s', ic_whiten s', ic_fun s', ic_max_iter s', ic_tol s', ic_algorithm s') =
       match k with
       | IcNumComponents v => (v, ic_whiten s, ic_fun s, ic_max_iter s, ic_tol s, ic_algorithm s)
       | IcWhiten v => (ic_num_components s, v, ic_fun s, ic_max_iter s, ic_tol s, ic_algorithm s)
       | IcFun v => (ic_num_components s, ic_whiten s, v, ic_max_iter s, ic_tol s, ic_algorithm s)
       | IcMaxIter v => (ic_num_components s, ic_whiten s, ic_fun s, v, ic_tol s, ic_algorithm s)
       | IcTol v => (ic_num_components s, ic_whiten s, ic_fun s, ic_max_iter s, v, ic_algorithm s)
       | IcAlgorithm v => (ic_num_components s, ic_whiten s, ic_fun s, ic_max_iter s, ic_tol s, v)
       end /\ ic_center s' = ic_center s /\ ic_sources s' = ic_sources s /\
     match k with
     | IcFun _ | IcAlgorithm _ => ic_initialised s' = ic_initialised s /\ ic_components s' = ic_components s /\ ic_mixing s' = ic_mixing s /\ ic_whitening s' = ic_whitening s
     | _ => ic_initialised s' = false /\ ic_components s' = None /\ ic_mixing s' = None /\ ic_whitening s' = None
     end).
Proof. unfold ica_set. split; intros ->; [reflexivity|]. destruct k; repeat split. Qed.
Print Assumptions C46_fastica.

(** C67 refuted without whitening.  For all data with at most as many features as samples: when transform of a
    fresh object succeeds, reconstruct does not return the data but adds to every entry the mean of its
    sample; *)
Theorem C67_unwhitened_refuted nexp ntanh cube eig svd lstsq rnd (s s' : ica_st R) (X S : mat R) :
  let n := nc X in let p := nr X in
  ic_center s = t_new center -> ic_whiten s = false -> n <> 0 -> n <= p -> wf X ->
  wf (rnd (Z.of_nat n) (Z.of_nat n)) -> nr (rnd (Z.of_nat n) (Z.of_nat n)) = n -> nc (rnd (Z.of_nat n) (Z.of_nat n)) = n ->
  (ic_algorithm s = PARALLEL -> eig_contract eig n) ->
  ica_transform eig svd lstsq rnd nexp ntanh cube s X = (s', Ok S) ->
  exists C y, ic_components s' = Some C /\ is_mat S p n (fun i a => Rsum n (fun j => entry X i j * entry C a j)%R) /\
    snd (ica_reconstruct s') = Ok y /\ is_mat y p n (fun i j => entry X i j + Rmean n (fun l => entry X i l))%R.
Proof.
  intros n p Hc Hw Hn Hnp WX R1 R2 R3 Hpar. unfold ica_transform, ica_configure. fold n p.
  assert (El : ica_limit (ica_reset s) n p = (ica_store (IcNumComponents (Z.of_nat n)) (ica_reset (ica_reset s)), Ok tt)).
  { unfold ica_limit. cbn [ica_reset ic_whiten]. rewrite Hw. cbn [negb].
    rewrite Nat.min_l by assumption. unfold ica_set, ica_valid, ica_validated. destruct (Z.leb_spec 1 (Z.of_nat n)); [|lia].
    cbn [ica_store ica_reset ic_num_components]. rewrite Z.ltb_irrefl. reflexivity. }
  rewrite El. set (s1 := ica_store _ _). cbv beta iota.
  assert (Ew : ic_whiten s1 = false) by exact Hw. rewrite Ew. cbv zeta.
  apply wf_mk in WX. fold n p in WX.
  assert (EX : transpose X = mk n p (fun j i => entry X i j)) by (rewrite WX at 1; apply transpose_mk). rewrite EX.
  destruct (ica_unmixing eig rnd nexp ntanh cube s1 _) as [U|e] eqn:EU; [|discriminate].
  assert (HU : wf U /\ nr U = n /\ nc U = n).
  { unfold ica_unmixing in EU. assert (Es1 : ic_num_components s1 = Z.of_nat n) by reflexivity. rewrite Es1 in EU. change (ic_algorithm s1) with (ic_algorithm s) in EU.
    destruct (ic_algorithm s) eqn:Eal.
    - destruct (C67_parallel nexp ntanh cube eig s1 _ _ U n Hn (mk_wf _ _ _) eq_refl R1 R2 R3 (Hpar eq_refl) EU) as (U1 & U2 & U3 & _). auto.
    - assert (En : Z.to_nat (ic_num_components s1) = n) by (rewrite Es1; apply Nat2Z.id).
      pose proof (C67_deflation nexp ntanh cube s1 (mk n p (fun j i => entry X i j)) (rnd (Z.of_nat n) (Z.of_nat n))) as HD. cbv zeta in HD. rewrite En in HD.
      destruct (HD Hn (mk_wf _ _ _) eq_refl ltac:(cbn; lia) R1 R2 R3) as (U' & EU' & U1 & U2 & U3 & _). rewrite EU in EU'. injection EU' as <-. auto. }
  destruct HU as (WU & U1 & U2). pose proof (wf_mk U WU) as EUm. rewrite U1, U2 in EUm.
  unfold ica_finish. rewrite bind_Ok. rewrite EUm at 1. rewrite mul_mk, bind_Ok, transpose_mk. set (S0 := mk p n _).
  destruct (inverse np_inv lstsq U) as [M|e] eqn:EM; [|discriminate]. cbn [ica_put ic_sources need]. intros E. injection E as <- ES. subst S.
  destruct (C61_inverse lstsq U WU ltac:(congruence)) as (I1 & I2).
  destruct I2 as (M' & EM' & WM & M1 & M2 & HM). { intros Hsing. rewrite (I1 Hsing) in EM. discriminate. }
  rewrite EM in EM'. injection EM' as <-. rewrite U1 in HM, M1. rewrite U2 in M2. pose proof (wf_mk M WM) as EMm. rewrite M1, M2 in EMm.
  assert (HS0 : forall i a, i < p -> a < n -> entry S0 i a = sumn n (fun j => entry X i j * entry U a j)%R).
  { intros i a Hi Ha. unfold S0. rewrite entry_mk by assumption. apply sumn_ext. intros j Hj. cbn [nmul NumR]. ring. }
  assert (HSM : forall i j, i < p -> j < n -> sumn n (fun a => entry S0 i a * entry M j a)%R = entry X i j).
  { intros i j Hi Hj. rewrite (sumn_ext n _ (fun a => sumn n (fun l => entry X i l * (entry M j a * entry U a l))))%R.
    2:{ intros a Ha. rewrite HS0 by lia. rewrite <- sumR_scal_r. apply sumn_ext. intros; ring. }
    rewrite sumR_swap. rewrite (sumR_single _ j); [|exact Hj|].
    - destruct (HM j j Hj Hj) as (_ & HM2). rewrite Nat.eqb_refl, Rsum_sumn in HM2. rewrite sumR_scal, HM2. ring.
    - intros l Hl Hne. destruct (HM j l Hj Hl) as (_ & HM2). rewrite (proj2 (Nat.eqb_neq j l)), Rsum_sumn in HM2 by congruence. rewrite sumR_scal, HM2. ring. }
  exists U. eexists. split; [reflexivity|]. split. { split; [apply mk_wf|]. split; [reflexivity|]. split; [reflexivity|]. intros i a Hi Ha. rewrite Rsum_sumn. now apply HS0. }
  unfold ica_reconstruct. cbn [ica_put ic_initialised ic_sources ic_mixing need bind].
  assert (Em : mul S0 (transpose M) = Ok (mk p n (fun i j => entry X i j))).
  { rewrite EMm, transpose_mk. unfold S0. rewrite mul_mk. apply (f_equal Ok). apply mk_ext. intros i j Hi Hj. rewrite <- HSM by assumption. apply sumn_ext. intros a Ha. cbn [nmul NumR]. f_equal. unfold S0. now rewrite entry_mk. }
  rewrite Em, transpose_mk. cbn [ica_put ic_center]. change (ic_center s1) with (ic_center s). rewrite Hc.
  set (Xt := mk n p (fun i j => entry X j i)).
  assert (Ei : t_inverse center (t_new center) Xt = (center_conf Xt, t_undo center (center_conf Xt) Xt)) by reflexivity. rewrite Ei. cbv beta iota. cbn [snd].
  rewrite center_undo, Nat.eqb_refl, bind_Ok. split; [reflexivity|]. rewrite transpose_mk. cbn [nr nc]. unfold Xt. cbn [nr nc mk]. apply is_mat_mk_ext. intros i j Hi Hj.
  rewrite entry_mk by assumption. cbn [nadd NumR]. f_equal. rewrite <- Rmean_np. unfold Rmean. apply (f_equal (fun q => q / INR n)%R). apply Rsum_ext. intros l Hl. now rewrite entry_mk.
Qed.
Print Assumptions C67_unwhitened_refuted.

(** * C48 for FastICA *)
(** Whatever happens in between, short of initialize(): once a whitening transform of x1 has been attempted, all
    later whitening transforms, of any data, subtract the means of x1; they raise ValueError for data with
    another number of columns. *)
Definition ica_keeps_center {T} (o : ica_op T) : Prop := match o with IcInitialize => False | _ => True end.
Lemma ica_limit_center {T} `{Num T} (s : ica_st T) n p : ic_center (fst (ica_limit s n p)) = ic_center s /\ ic_whiten (fst (ica_limit s n p)) = ic_whiten s.
Proof.
  unfold ica_limit, ica_set, ica_valid, ica_validated. destruct (ic_whiten s) eqn:Ew; cbn [negb].
  - destruct (_ <? _)%Z; [|cbn; auto]. destruct (1 <=? _)%Z; cbn; auto.
  - destruct (1 <=? _)%Z; [|cbn; auto]. cbn [fst snd]. destruct (_ <? _)%Z; cbn; auto.
Qed.
Lemma ica_finish_center {T} `{Num T} lstsq (s : ica_st T) wh X U : ic_center (fst (ica_finish lstsq s wh X U)) = ic_center s.
Proof. unfold ica_finish. destruct (bind _ _) as [[C S]|e]; [|reflexivity]. destruct (inverse _ _ _); reflexivity. Qed.
Lemma ica_keeps {T} `{Num T} eig svd lstsq rnd nexp ntanh cube (s : ica_st T) o d : ic_center s = center_conf d -> ica_keeps_center o ->
  ic_center (ica_step eig svd lstsq rnd nexp ntanh cube s o) = center_conf d.
Proof.
  intros Hc Ho. destruct o as [x| | | |k]; [| |contradiction|exact Hc|]; cbn [ica_step].
  - unfold ica_transform, ica_configure. pose proof (ica_limit_center (ica_reset s) (nc x) (nr x)) as (L1 & _).
    destruct (ica_limit (ica_reset s) (nc x) (nr x)) as [s1 [[]|e]]; cbn [fst] in L1; change (ic_center (ica_reset s)) with (ic_center s) in L1; rewrite Hc in L1; [|exact L1].
    destruct (ic_whiten s1).
    + rewrite L1, t_transform_center_conf. destruct (t_do center (center_conf d) x) as [Xc|e]; [|reflexivity].
      destruct (ica_whiten_matrix _ _ _) as [wh|e]; [|reflexivity]. destruct (bind _ _) as [U|e]; [|reflexivity].
      match goal with |- context [ica_finish lstsq ?s ?w ?a ?u] => pose proof (ica_finish_center lstsq s w a u) as F; destruct (ica_finish lstsq s w a u) as [s2 [[]|e]] end; exact F.
    + destruct (ica_unmixing _ _ _ _ _ _ _) as [U|e]; [|exact L1].
      match goal with |- context [ica_finish lstsq ?s ?w ?a ?u] => pose proof (ica_finish_center lstsq s w a u) as F; destruct (ica_finish lstsq s w a u) as [s2 [[]|e]] end; cbn [fst] in *; congruence.
  - unfold ica_reconstruct. destruct (ic_initialised s); [|exact Hc]. destruct (bind _ _) as [m|e]; [|exact Hc]. rewrite Hc. reflexivity.
  - unfold ica_set. destruct (ica_valid k); [|exact Hc]. destruct k; exact Hc.
Qed.
Theorem C48_fastica_stale_partial {T} `{Num T} eig svd lstsq rnd nexp ntanh cube (x1 : mat T) (before after : list (ica_op T)) :
  let run := ica_run eig svd lstsq rnd nexp ntanh cube in
  ic_center (run before) = t_new center -> ic_whiten (run before) = true -> nc x1 <> 0 -> nr x1 <> 0 -> Forall ica_keeps_center after ->
  let s := run (before ++ IcTransform x1 :: after) in
  ic_center s = center_conf x1 /\
  forall X, ic_whiten s = true -> nc X <> 0 -> nr X <> 0 -> nc X <> nc x1 ->
    snd (ica_transform eig svd lstsq rnd nexp ntanh cube s X) = Err ValueError.
Proof.
  intros run Hc Hw Hn1 Hp1 Ha s.
  assert (Hs : ic_center s = center_conf x1).
  { unfold s, run, ica_run. rewrite fold_left_app. cbn [fold_left]. change (fold_left _ before ica_new) with (run before).
    pose proof (ica_run_inv eig svd lstsq rnd nexp ntanh cube before) as (Hk & _ & _ & _). change (ica_run eig svd lstsq rnd nexp ntanh cube before) with (run before) in Hk.
    set (s1 := ica_step _ _ _ _ _ _ _ (run before) (IcTransform x1)).
    assert (H1 : ic_center s1 = center_conf x1).
    { unfold s1. cbn [ica_step]. unfold ica_transform, ica_configure. pose proof (ica_limit_center (ica_reset (run before)) (nc x1) (nr x1)) as (L1 & L2).
      destruct (ica_limit (ica_reset (run before)) (nc x1) (nr x1)) as [s2 r] eqn:El. pose proof (ica_limit_inv (ica_reset (run before)) _ _ _ _ Hk eq_refl El) as (_ & _ & _ & _ & _ & _ & _ & Hok).
      rewrite (Hok Hn1 Hp1). cbn [fst] in L1, L2. cbn [ica_reset ic_center ic_whiten] in L1, L2. rewrite L2, Hw, L1, Hc.
      pose proof (center_first_any x1) as F1. destruct (t_transform center (t_new center) x1) as [cx [Xc|e]]; cbn [fst] in F1; subst cx; [|reflexivity].
      destruct (ica_whiten_matrix _ _ _) as [wh|e]; [|reflexivity]. destruct (bind _ _) as [U|e]; [|reflexivity].
      match goal with |- context [ica_finish lstsq ?s ?w ?a ?u] => pose proof (ica_finish_center lstsq s w a u) as F; destruct (ica_finish lstsq s w a u) as [s3 [[]|e]] end; exact F. }
    clearbody s1. clear -H1 Ha. revert s1 H1. induction Ha as [|o l Ho Hl IH]; intros s1 H1; cbn [fold_left]; [exact H1|]. apply IH. now apply ica_keeps. }
  split; [exact Hs|]. intros X Hw' Hn Hp Hne. pose proof (ica_run_inv eig svd lstsq rnd nexp ntanh cube (before ++ IcTransform x1 :: after)) as (Hk & _). fold run in Hk. fold s in Hk. clearbody s.
  unfold ica_transform, ica_configure. pose proof (ica_limit_center (ica_reset s) (nc X) (nr X)) as (L1 & L2). destruct (ica_limit (ica_reset s) (nc X) (nr X)) as [s2 r] eqn:El.
  pose proof (ica_limit_inv (ica_reset s) _ _ _ _ Hk eq_refl El) as (_ & _ & _ & _ & _ & _ & _ & Hok). rewrite (Hok Hn Hp). cbn [fst ica_reset ic_center ic_whiten] in L1, L2. rewrite L2, Hw', L1, Hs, t_transform_center_conf, center_do.
  destruct (Nat.eqb_spec (nc X) (nc x1)); [contradiction|]. reflexivity.
Qed.
Print Assumptions C48_fastica_stale_partial.

(** initialize(), in contrast, makes the object like a new one: everything that transform and reconstruct return
    afterwards, over all continuations, is what a new object would return. *)
Definition ica_like {T} (s t : ica_st T) : Prop :=
  exists src, t = Ica (ic_num_components s) (ic_whiten s) (ic_fun s) (ic_max_iter s) (ic_tol s) (ic_algorithm s) (ic_initialised s) (ic_center s) (ic_components s) src (ic_whitening s) (ic_mixing s) /\
    (ic_initialised s = true -> src = ic_sources s).
Theorem C48_fastica_initialize {T} `{Num T} eig svd lstsq rnd nexp ntanh cube (past after : list (ica_op T)) :
  let run := ica_run eig svd lstsq rnd nexp ntanh cube in
  let s := run (past ++ IcInitialize :: after) in let t := run after in
  (forall X, snd (ica_transform eig svd lstsq rnd nexp ntanh cube s X) = snd (ica_transform eig svd lstsq rnd nexp ntanh cube t X)) /\
  snd (ica_reconstruct s) = snd (ica_reconstruct t).
Proof.
  assert (HT : forall s t X, ica_like s t -> let r := ica_transform eig svd lstsq rnd nexp ntanh cube s X in let r' := ica_transform eig svd lstsq rnd nexp ntanh cube t X in
     ica_like (fst r) (fst r') /\ snd r = snd r').
  { intros s t X (src & -> & _). destruct s as [a b c d e f i ce co so wh mi].
    cbv zeta. unfold ica_transform, ica_configure, ica_reset. cbn [ic_num_components ic_whiten ic_fun ic_max_iter ic_tol ic_algorithm ic_initialised ic_center ic_components ic_sources ic_whitening ic_mixing].
    assert (HL : exists k r0, forall so, ica_limit (Ica a b c d e f false ce None so None None) (nc X) (nr X) = (Ica k b c d e f false ce None so None None, r0)).
    { set (m := Z.of_nat (Nat.min (nc X) (nr X))). exists (if b then (if (m <? a)%Z then (if (1 <=? m)%Z then m else a) else a) else (if (1 <=? m)%Z then m else a)). eexists (if b then (if (m <? a)%Z then (if (1 <=? m)%Z then Ok tt else Err ValueError) else Ok tt) else (if (1 <=? m)%Z then Ok tt else Err ValueError)). intros so0.
      unfold ica_limit. fold m. destruct b; cbn [negb ic_whiten ic_num_components].
      - unfold ica_set, ica_valid, ica_validated. destruct (m <? a)%Z; [|reflexivity]. destruct (1 <=? m)%Z; reflexivity.
      - unfold ica_set, ica_valid, ica_validated. destruct (1 <=? m)%Z; [|reflexivity]. cbn [ica_store ica_reset ic_num_components]. rewrite Z.ltb_irrefl. reflexivity. }
    destruct HL as (k & r0 & HL). rewrite !HL. destruct r0 as [[]|err]. 2:{ split; [|reflexivity]. exists src. split; [reflexivity|discriminate]. }
    assert (HF : forall ce' wh' Xt U so1 so2, let r := ica_finish lstsq (Ica k b c d e f false ce' None so1 wh' None) wh' Xt U in let r' := ica_finish lstsq (Ica k b c d e f false ce' None so2 wh' None) wh' Xt U in
      ica_like (fst r) (fst r') /\ snd r = snd r' /\ (snd r = Ok tt -> ic_sources (fst r) = ic_sources (fst r'))).
    { intros ce' wh' Xt U so1 so2. cbv zeta. unfold ica_finish. destruct (bind _ _) as [[C S]|err].
      - destruct (inverse _ _ _); (split; [eexists; split; [reflexivity|reflexivity]|]); split; reflexivity.
      - split; [eexists; split; [reflexivity|discriminate]|]. split; [reflexivity|discriminate]. }
    cbn [ic_whiten ic_center ic_sources ica_put]. destruct b.
    - destruct (t_transform center ce X) as [c' [Xc|err]]. 2:{ split; [eexists; split; [reflexivity|discriminate]|reflexivity]. }
      unfold ica_put. cbn [ic_num_components ic_whiten ic_fun ic_max_iter ic_tol ic_algorithm].
      change (ica_whiten_matrix svd (Ica k true c d e f false c' None src None None)) with (ica_whiten_matrix svd (Ica k true c d e f false c' None so None None)).
      destruct (ica_whiten_matrix _ _ _) as [w|err]. 2:{ split; [eexists; split; [reflexivity|discriminate]|reflexivity]. }
      change (ica_unmixing eig rnd nexp ntanh cube (Ica k true c d e f false c' None src (Some w) None)) with (ica_unmixing eig rnd nexp ntanh cube (Ica k true c d e f false c' None so (Some w) None)).
      destruct (bind _ _) as [U|err]. 2:{ split; [eexists; split; [reflexivity|discriminate]|reflexivity]. }
      destruct (HF c' (Some w) (transpose Xc) U so src) as (F1 & F2 & F3).
      destruct (ica_finish lstsq (Ica k true c d e f false c' None so (Some w) None) _ _ _) as [s1 [[]|e1]], (ica_finish lstsq (Ica k true c d e f false c' None src (Some w) None) _ _ _) as [s2 [[]|e2]]; cbn [fst snd] in *; try discriminate; split; try assumption.
      + now rewrite F3.
      + now injection F2 as <-.
    - change (ica_unmixing eig rnd nexp ntanh cube (Ica k false c d e f false ce None src None None)) with (ica_unmixing eig rnd nexp ntanh cube (Ica k false c d e f false ce None so None None)).
      destruct (ica_unmixing _ _ _ _ _ _ _) as [U|err]. 2:{ split; [eexists; split; [reflexivity|discriminate]|reflexivity]. }
      destruct (HF ce None (transpose X) U so src) as (F1 & F2 & F3).
      destruct (ica_finish lstsq (Ica k false c d e f false ce None so None None) _ _ _) as [s1 [[]|e1]], (ica_finish lstsq (Ica k false c d e f false ce None src None None) _ _ _) as [s2 [[]|e2]]; cbn [fst snd] in *; try discriminate; split; try assumption.
      + now rewrite F3.
      + now injection F2 as <-. }
  assert (HR : forall s t, ica_like s t -> ica_like (fst (ica_reconstruct s)) (fst (ica_reconstruct t)) /\ snd (ica_reconstruct s) = snd (ica_reconstruct t)).
  { intros s t (src & -> & Hsrc). unfold ica_reconstruct. cbn [ic_initialised ic_sources ic_mixing ic_center]. destruct (ic_initialised s) eqn:Ei.
    - rewrite (Hsrc eq_refl). destruct (bind _ _) as [m|err]; [|split; [|reflexivity]; cbn [fst]; exists (ic_sources s); rewrite Ei; auto].
      destruct (t_inverse _ _ _) as [c' r]. split; [|reflexivity]. exists (ic_sources s). split; reflexivity.
    - split; [|reflexivity]. cbn [fst]. exists src. rewrite Ei. split; [reflexivity|discriminate]. }
  intros run s t. assert (Hst : ica_like s t).
  { unfold s, t, run, ica_run. rewrite fold_left_app. cbn [fold_left ica_step]. generalize (fold_left (ica_step eig svd lstsq rnd nexp ntanh cube) past ica_new). intros s0.
    assert (H0 : ica_like (ica_initialize s0) ica_new) by (exists None; split; [reflexivity|discriminate]). revert H0. generalize (ica_initialize s0) (@ica_new T _). clear s0 s t.
    induction after as [|o l IH]; intros s t Hst; cbn [fold_left]; [exact Hst|]. apply IH. destruct o as [x| | | |k]; cbn [ica_step].
    - exact (proj1 (HT s t x Hst)).
    - exact (proj1 (HR s t Hst)).
    - destruct Hst as (src & -> & _). exists src. split; [reflexivity|discriminate].
    - destruct Hst as (src & -> & _). exists src. split; [reflexivity|discriminate].
    - destruct Hst as (src & -> & Hs). unfold ica_set. destruct (ica_valid k); [|exists src; auto]. destruct k; cbn [ica_validated fst]; exists src; (split; [reflexivity|]); first [discriminate|exact Hs]. }
  split; [intros X; exact (proj2 (HT s t X Hst))|exact (proj2 (HR s t Hst))].
Qed.
Print Assumptions C48_fastica_initialize.

(** C48 refuted for FastICA, in binary64, one feature, with an exact solver for matrices with one row: the
    sources of [10;12] have opposite signs for a new object, but the same sign after an earlier transform of
    [0;2]. *)
Definition w67_nat (x : f64) : f64 := x.
Definition w67_svd1 (A : mat f64) : res (mat f64 * list f64 * mat f64) :=
  let d := nsqrt (sumn (nc A) (fun j => nmul (entry A 0 j) (entry A 0 j))) in Ok (rows64 [[1]]%Z, [d], mk 1 (nc A) (fun _ j => ndiv (entry A 0 j) d)).
Definition w67_cube (x : f64) : f64 := nmul x (nmul x x).
Definition w67_transform (s : ica_st f64) (X : mat f64) :=
  ica_transform (fun _ => Err LinAlgError) w67_svd1 (fun _ _ => Err LinAlgError) (fun _ _ => rows64 [[1]]%Z) w67_nat w67_nat w67_cube s X.
Definition w67_run (h : list (ica_op f64)) : ica_st f64 :=
  ica_run (fun _ => Err LinAlgError) w67_svd1 (fun _ _ => Err LinAlgError) (fun _ _ => rows64 [[1]]%Z) w67_nat w67_nat w67_cube h.
Definition w67_1 : mat f64 := rows64 [[0];[2]]%Z.
Definition w67_2 : mat f64 := rows64 [[10];[12]]%Z.
Theorem C48_fastica_refuted : exists S S',
  snd (w67_transform (w67_run [IcSet (IcFun FCube)]) w67_2) = Ok S /\
  snd (w67_transform (w67_run [IcSet (IcFun FCube); IcTransform w67_1]) w67_2) = Ok S' /\
  nltb (nmul (entry S 0 0) (entry S 1 0)) (nofZ 0 : f64) = true /\ nltb (nofZ 0 : f64) (nmul (entry S' 0 0) (entry S' 1 0)) = true.
Proof. do 2 eexists. split; [vm_compute; reflexivity|]. split; [vm_compute; reflexivity|]. split; vm_compute; reflexivity. Qed.
Print Assumptions C48_fastica_refuted.

(** The number of components stays lowered: after a transform of data with one feature the object extracts
    one source from data with two features. *)
Theorem C48_fastica_num_components_partial {T} `{Num T} eig svd lstsq rnd nexp ntanh cube (h : list (ica_op T)) X S :
  let run := ica_run eig svd lstsq rnd nexp ntanh cube in
  snd (ica_transform eig svd lstsq rnd nexp ntanh cube (run h) X) = Ok S ->
  (ic_num_components (run (h ++ [IcTransform X])) <= Z.of_nat (Nat.min (nc X) (nr X)))%Z /\
  forall X' S', ic_whiten (run (h ++ [IcTransform X])) = true ->
    snd (ica_transform eig svd lstsq rnd nexp ntanh cube (run (h ++ [IcTransform X])) X') = Ok S' ->
    (ic_num_components (run (h ++ [IcTransform X; IcTransform X'])) <= Z.of_nat (Nat.min (nc X) (nr X)))%Z.
Proof.
  intros run HS. assert (E1 : run (h ++ [IcTransform X]) = fst (ica_transform eig svd lstsq rnd nexp ntanh cube (run h) X)) by (unfold run, ica_run; now rewrite fold_left_app).
  destruct (C67_life_cycle eig svd lstsq rnd nexp ntanh cube h) as (_ & _ & _ & _ & HT). specialize (HT X). fold run in HT. cbv zeta in HT. rewrite HS in HT. destruct HT as (_ & _ & _ & _ & _ & _ & HT).
  split; [now rewrite E1|]. intros X' S' Hw HS'.
  destruct (C67_life_cycle eig svd lstsq rnd nexp ntanh cube (h ++ [IcTransform X])) as (_ & _ & _ & _ & HT'). specialize (HT' X'). fold run in HT'. cbv zeta in HT'. destruct HT' as (_ & _ & HT' & _). specialize (HT' Hw).
  assert (E2 : run (h ++ [IcTransform X; IcTransform X']) = fst (ica_transform eig svd lstsq rnd nexp ntanh cube (run (h ++ [IcTransform X])) X')) by (unfold run, ica_run; now rewrite !fold_left_app).
  rewrite E2. rewrite E1 in HT' at 2. lia.
Qed.
Print Assumptions C48_fastica_num_components_partial.

(** * Further results on C67 *)
(** C67 refuted for max_iter = 0, a value the validator accepts: DEFLATION then returns the normalised rows of
    the starting matrix; the two sources of the corners of a square are correlated.  (Binary64; exact answer
    of the singular value decomposition.) *)
Definition half64 (z : Z) : f64 := ndiv (nofZ z) (nofZ 2).
Definition w67_X : mat f64 := rows64 [[1;1];[1;-1];[-1;1];[-1;-1]]%Z.
Definition w67_svd2 (A : mat f64) : res (mat f64 * list f64 * mat f64) :=
  Ok (rows64 [[1;0];[0;1]]%Z, [nofZ 2; nofZ 2], mk 2 4 (fun i j => half64 (nth j (nth i [[1;1;-1;-1];[1;-1;1;-1]]%Z []) 0%Z))).
Definition w67_transform2 (mi : Z) : res (mat f64) :=
  let f := ica_transform (fun _ => Err LinAlgError) w67_svd2 (fun _ _ => Err LinAlgError) (fun _ _ => rows64 [[1;0];[1;1]]%Z) w67_nat w67_nat w67_cube in
  snd (f (ica_run (fun _ => Err LinAlgError) w67_svd2 (fun _ _ => Err LinAlgError) (fun _ _ => rows64 [[1;0];[1;1]]%Z) w67_nat w67_nat w67_cube [IcSet (IcFun FCube); IcSet (IcMaxIter mi)]) w67_X).
Theorem C67_max_iter_refuted : exists S, w67_transform2 0 = Ok S /\
  nltb (half64 1) (sumn 4 (fun i => nmul (entry S i 0) (entry S i 1))) = true.
Proof. eexists. split; [vm_compute; reflexivity|]. vm_compute; reflexivity. Qed.
Print Assumptions C67_max_iter_refuted.
Example C67_ex_two : exists S, w67_transform2 1 = Ok S /\ nltb (nabs (sumn 4 (fun i => nmul (entry S i 0) (entry S i 1)))) (lit 1 10) = true /\ nltb (half64 1) (sumn 4 (fun i => nmul (entry S i 0) (entry S i 0))) = true
  /\ nltb (half64 1) (sumn 4 (fun i => nmul (entry S i 1) (entry S i 1))) = true.
Proof. eexists. split; [vm_compute; reflexivity|]. split; [|split]; vm_compute; reflexivity. Qed.

(** transform with DEFLATION always returns if fewer components than features are kept and the least squares
    solver answers. *)
Theorem C67_succeeds nexp ntanh cube eig svd lstsq rnd (s : ica_st R) (X u : mat R) (sv : list R) (vh : mat R) :
  let n := nc X in let p := nr X in let k := ica_kept s X in
  ic_center s = t_new center -> ic_whiten s = true -> (1 <= ic_num_components s)%Z -> n <> 0 -> p <> 0 ->
  svd (features X) = Ok (u, sv, vh) -> length sv = Nat.min n p -> svd_answer (features X) u sv vh ->
  orthonormal_factors u (Nat.min n p) vh -> (forall a, a < k -> nth a sv 0%R <> 0%R) ->
  wf (rnd (Z.of_nat k) (Z.of_nat k)) -> nr (rnd (Z.of_nat k) (Z.of_nat k)) = k -> nc (rnd (Z.of_nat k) (Z.of_nat k)) = k ->
  ic_algorithm s = DEFLATION -> k < n -> (forall A B, exists M, lstsq A B = Ok M) ->
  exists s' S, ica_transform eig svd lstsq rnd nexp ntanh cube s X = (s', Ok S).
Proof.
  intros n p k Hc Hw Hnc Hn Hp Es Hl Ha Ho Hr R1 R2 R3 Hdef Hkn Hls. unfold ica_transform.
  rewrite (configure_spec nexp ntanh cube eig svd lstsq rnd s X u sv vh Hc Hw Hnc Hn Hp Es Hl Ha Ho Hr).
  pose proof (kept_pos s X Hnc Hn Hp) as Hk0. fold k in Hk0.
  set (s1 := ica_put _ _ _ _ _ _ _). unfold ica_unmixing. change (ic_algorithm s1) with (ic_algorithm s). rewrite Hdef.
  assert (Es1 : ic_num_components s1 = Z.of_nat k) by reflexivity. rewrite Es1.
  assert (En : Z.to_nat (ic_num_components s1) = k) by (rewrite Es1; apply Nat2Z.id).
  pose proof (C67_deflation nexp ntanh cube s1 (X1 s X vh) (rnd (Z.of_nat k) (Z.of_nat k))) as HD. cbv zeta in HD. rewrite En in HD.
  destruct (HD Hk0 (mk_wf _ _ _) eq_refl Hp R1 R2 R3) as (U & -> & U1 & U2 & U3 & _). apply wf_mk in U1. rewrite U2, U3 in U1. rewrite U1.
  unfold ica_finish. unfold whitening_matrix at 1. fold k n. rewrite mul_mk, bind_Ok. unfold features at 1. fold n p. rewrite mul_mk, bind_Ok, transpose_mk.
  unfold inverse, is_square. cbn [nr nc mk]. rewrite (proj2 (Nat.eqb_neq k n)) by lia.
  match goal with |- context [lstsq ?a ?b] => destruct (Hls a b) as (M & ->) end. do 2 eexists. reflexivity.
Qed.
Print Assumptions C67_succeeds.

(** All hypotheses of C67_sources can be met: the corners of a square, one component of two. *)
Definition c67_X : mat R := Mat 4 2 [[1;1];[1;-1];[-1;1];[-1;-1]]%R.
Definition c67_u : mat R := Mat 2 2 [[1;0];[0;1]]%R.
Definition c67_vh : mat R := Mat 2 4 [[/2;/2;-/2;-/2];[/2;-/2;/2;-/2]]%R.
Definition c67_s : ica_st R := fst (ica_set (@ica_new R _) (IcNumComponents 1)).
Example C67_ex : exists s' S C, let r := ica_transform (fun _ => Err LinAlgError) (fun _ => Ok (c67_u, [2; 2]%R, c67_vh)) (fun A B => Ok B) (fun _ _ => Mat 1 1 [[1%R]]) exp tanh (fun x => (x * x * x)%R) c67_s c67_X in
  r = (s', Ok S) /\ is_mat S 4 1 (fun i a => Rsum 2 (fun j => entry c67_X i j * entry C a j)%R) /\
  Rsum 4 (fun i => entry S i 0) = 0%R /\ (Rsum 4 (fun i => entry S i 0 * entry S i 0)%R = 1%R \/ forall i, i < 4 -> entry S i 0 = 0%R).
Proof.
  assert (Hcen : forall i j, i < 4 -> j < 2 -> centred c67_X i j = entry c67_X i j).
  { intros i j Hi Hj. unfold centred, Rmean. destruct j as [|[|]]; [| |lia]; cbn [Rsum nr c67_X entry rws nth]; field_simplify; try lra; cbn; lra. }
  assert (Hans : svd_answer (features c67_X) c67_u [2;2]%R c67_vh).
  { split; [split; repeat constructor|]. split; [reflexivity|]. split; [reflexivity|]. split; [split; repeat constructor|]. split; [reflexivity|]. split; [reflexivity|].
    intros i j Hi Hj. change (nr (features c67_X)) with 2 in Hi. change (nc (features c67_X)) with 4 in Hj. unfold features. change (nc c67_X) with 2. change (nr c67_X) with 4. rewrite entry_mk, Hcen by assumption.
    destruct i as [|[|]]; [| |lia]; destruct j as [|[|[|[|]]]]; try lia; cbn; lra. }
  assert (Horth : orthonormal_factors c67_u 2 c67_vh).
  { split; intros a b Ha Hb; destruct a as [|[|]]; try lia; destruct b as [|[|]]; try lia; cbn; lra. }
  assert (Hkept : ica_kept c67_s c67_X = 1) by reflexivity.
  assert (Hrank : forall a, a < ica_kept c67_s c67_X -> nth a [2;2]%R 0%R <> 0%R). { rewrite Hkept. intros a Ha. destruct a; [cbn; lra|lia]. }
  destruct (C67_succeeds exp tanh (fun x => (x * x * x)%R) (fun _ => Err LinAlgError) (fun _ => Ok (c67_u, [2; 2]%R, c67_vh)) (fun A B => Ok B) (fun _ _ => Mat 1 1 [[1%R]]) c67_s c67_X c67_u [2;2]%R c67_vh) as (s' & S & E); try reflexivity; try assumption; try (cbn; lia).
  { split; repeat constructor. }
  { intros A B. exists B. reflexivity. }
  destruct (C67_sources exp tanh (fun x => (x * x * x)%R) (fun _ => Err LinAlgError) (fun _ => Ok (c67_u, [2; 2]%R, c67_vh)) (fun A B => Ok B) (fun _ _ => Mat 1 1 [[1%R]]) c67_s s' c67_X S c67_u [2;2]%R c67_vh) as (C & M & H1 & H2 & H3 & H4 & H5 & H6 & H7 & H8 & H9 & H10 & _); try reflexivity; try assumption; try (cbn; lia).
  { split; repeat constructor. }
  { discriminate. }
  exists s', S, C. cbv zeta. split; [exact E|]. rewrite Hkept in *. change (nr c67_X) with 4 in *. change (nc c67_X) with 2 in *.
  split. { destruct H8 as (W & A1 & A2 & A3). split; [exact W|]. split; [exact A1|]. split; [exact A2|]. intros i a Hi Ha'. rewrite A3 by assumption. apply Rsum_ext. intros j Hj. now rewrite Hcen. }
  split; [apply H9; lia|]. destruct (H10 eq_refl ltac:(cbn; lia) 0 0 ltac:(lia) ltac:(lia)) as (_ & Hx). exact Hx.
Qed.
(** the effect of C67_unwhitened_refuted in binary64: (1,3), (2,4) come back as (3,5), (5,7) *)
Example C67_ex_unwhitened :
  let run := ica_run (fun _ => Err LinAlgError) w67_svd2 (fun _ _ => Err LinAlgError) (fun _ _ => rows64 [[1;0];[0;1]]%Z) w67_nat w67_nat w67_cube in
  snd (ica_reconstruct (run [IcSet (IcWhiten false); IcSet (IcMaxIter 0); IcTransform (rows64 [[1;3];[2;4]]%Z)])) = Ok (rows64 [[3;5];[5;7]]%Z).
Proof. vm_compute. reflexivity. Qed.
