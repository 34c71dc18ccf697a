(** C21: sorted eigen-decomposition.  C22: singular value factors. *)
From Coq Require Import List ZArith Lia Bool Arith Permutation Sorted Reals Lra.
From Verif Require Import Base Num Mat M_Matrix S_Matrix L_Base L_Mat L_MatR L_Matrix L_Eigen.
Import ListNotations.
Local Open Scope nat_scope.

(** What a correct answer of np.linalg.eig with real eigenvalues is: as many
    eigenvalues as rows, and column k of V satisfies A v = lambda_k v. *)
Definition eig_answer (A : mat R) (l : list R) (V : mat R) : Prop :=
  length l = nr A /\ wf V /\ nr V = nr A /\ nc V = nr A /\
  forall k i, k < nr A -> i < nr A ->
    Rsum (nr A) (fun j => entry A i j * entry V j k)%R = (nth k l 0 * entry V i k)%R.

Definition ordered (asc : bool) (x y : R) : Prop := if asc then (x <= y)%R else (y <= x)%R.

Definition le_idx (l : list R) (asc : bool) (a b : nat) : bool :=
  if asc then nleb (nth a l 0%R) (nth b l 0%R) else nleb (nth b l 0%R) (nth a l 0%R).
Definition sigma (l : list R) (asc : bool) (n : nat) : list nat := stable_sort (le_idx l asc) (seq 0 n).

Lemma le_idx_iff l asc a b : le_idx l asc a b = true <-> ordered asc (nth a l 0%R) (nth b l 0%R).
Proof. unfold le_idx. destruct asc; cbn; apply Rleb_true. Qed.
Lemma sigma_perm l asc n : Permutation (seq 0 n) (sigma l asc n).
Proof. apply stable_sort_perm. Qed.
Lemma sigma_sorted l asc n : StronglySorted (ordered asc) (map (fun i => nth i l 0%R) (sigma l asc n)).
Proof.
  assert (Hs : StronglySorted (fun a b => le_idx l asc a b = true) (sigma l asc n)).
  { apply stable_sort_sorted.
    - intros x y. rewrite !le_idx_iff. unfold ordered. destruct asc; lra.
    - intros x y z. rewrite !le_idx_iff. unfold ordered. destruct asc; lra. }
  induction Hs as [|x s Hs IH Hx]; cbn; constructor; [assumption|].
  rewrite Forall_forall in *. intros y Hy. apply in_map_iff in Hy as (z & <- & Hz). apply le_idx_iff. now apply Hx.
Qed.

Lemma values_sorted l V asc : 
  get_eigenvalues_sorted (transpose (Mat 1 (length l) [l]), V) asc =
  Mat (length l) 1 (map (fun i => [nth i l 0%R]) (sigma l asc (length l))).
Proof.
  unfold get_eigenvalues_sorted. cbn [fst]. rewrite transpose_nr. cbn [nc]. f_equal.
  assert (El : map (fun i => entry (transpose (Mat 1 (length l) [l])) i 0) (seq 0 (length l)) = l).
  { transitivity (tab (length l) (fun i => nth i l 0%R)); [|now apply tab_nth].
    apply tab_ext. intros i Hi. rewrite transpose_entry by (cbn; lia). reflexivity. }
  rewrite El.
  rewrite <- (map_map (fun i => nth i l 0%R) (fun x => [x])). f_equal.
  assert (P0 : Permutation l (map (fun i => nth i l 0%R) (sigma l asc (length l)))).
  { rewrite <- (sigma_perm l asc (length l)). change (map (fun i => nth i l 0%R) (seq 0 (length l))) with (tab (length l) (fun i => nth i l 0%R)).
    now rewrite (tab_nth 0%R l). }
  assert (S0 : StronglySorted (fun a b : R => nleb a b = true) (stable_sort (fun a b : R => nleb a b) l)).
  { apply stable_sort_sorted; cbn; intros *; rewrite !Rleb_true; lra. }
  apply (sorted_perm_unique (ordered asc)).
  - unfold ordered. destruct asc; intros; lra.
  - destruct asc.
    + eapply StronglySorted_impl; [|exact S0]. cbn. intros a b. apply Rleb_true.
    + apply sorted_rev in S0. eapply StronglySorted_impl; [|exact S0]. cbn. intros a b. apply Rleb_true.
  - apply sigma_sorted.
  - rewrite <- P0. destruct asc; [|rewrite <- Permutation_rev]; apply Permutation_sym, stable_sort_perm.
Qed.

Lemma vectors_sorted (A : mat R) l V asc : 0 < nr A -> eig_answer A l V ->
  exists W, get_eigenvectors_sorted (nr A) (transpose (Mat 1 (length l) [l]), V) asc = Ok W /\
    is_mat W (nr A) (nr A) (fun i k => entry V i (nth k (sigma l asc (nr A)) 0)).
Proof.
  intros Hn (Hl & HV & Hr & Hc & _). unfold get_eigenvectors_sorted. cbn [fst snd].
  set (n := nr A) in *.
  assert (Ep : mapM (fun i => do x <- get_from_vector (transpose (Mat 1 (length l) [l])) (Z.of_nat i);
                             do v <- get_column V (Z.of_nat i); Ok (x, v)) (seq 0 n) =
          Ok (map (fun i => (nth i l 0%R, mk n 1 (fun r _ => entry V r i))) (seq 0 n))).
  { apply mapM_total. intros i Hi. apply in_seq in Hi.
    assert (E1 : get_from_vector (transpose (Mat 1 (length l) [l])) (Z.of_nat i) = Ok (nth i l 0%R)).
    { unfold get_from_vector, must_be_vector. 
      assert (Hv : is_vector (transpose (Mat 1 (length l) [l])) = true) by (apply is_vector_iff; right; reflexivity).
      rewrite Hv. cbn [bind]. rewrite is_row_vector_eqb, transpose_nr. cbn [nc].
      destruct (Nat.eqb_spec (length l) 1) as [E|E].
      - assert (i = 0) by lia. subst i. rewrite (get_nat _ 0 0) by (rewrite ?transpose_nr, ?transpose_nc; cbn; lia).
        rewrite transpose_entry by (cbn; lia). reflexivity.
      - rewrite (get_nat _ i 0) by (rewrite ?transpose_nr, ?transpose_nc; cbn; lia).
        rewrite transpose_entry by (cbn; lia). reflexivity. }
    rewrite E1. cbn [bind]. rewrite get_column_nat by lia. cbn [bind]. rewrite Hr. reflexivity. }
  rewrite Ep. cbn [bind]. rewrite stable_sort_map.
  change (stable_sort _ (seq 0 n)) with (sigma l asc n).
  pose proof (Permutation_length (sigma_perm l asc n)) as Hlen. rewrite seq_length in Hlen.
  destruct (sigma l asc n) as [|s0 s] eqn:Es; [cbn in Hlen; lia|]. cbn [map].
  destruct (concat_cols_loop n (mk n 1 (fun r _ => entry V r s0)) 1 (fun r _ => entry V r s0) (map (fun i r => entry V r i) s)) as (W & EW & HW).
  { apply is_mat_mk. }
  exists W. split.
  - rewrite map_map in EW. rewrite <- EW. cbn [snd]. clear.
    generalize (Ok (mk n 1 (fun r _ : nat => entry V r s0))). induction s as [|x s IH]; intros a; cbn [map fold_left]; [reflexivity|].
    apply IH.
  - rewrite map_length in HW. cbn in Hlen. replace n with (1 + length s) at 2 by lia.
    eapply is_mat_fun_ext; [exact HW|]. cbv beta. intros i j Hi Hj. destruct j as [|j]; [reflexivity|].
    change (S j <? 1) with false. cbv iota. replace (S j - 1) with j by lia.
    rewrite (nth_map' _ s j _ 0) by lia. reflexivity.
Qed.

(** C21.  For every square matrix, every correct answer of the eigen-solver
    (any order, repeated eigenvalues included) and both directions:
    the k-th sorted value and the k-th sorted vector come from the same original
    pair, every original pair is used exactly once, A w_k = lambda_k w_k, and the
    values are monotone. *)
Theorem C21_sorted_pairs eig (A : mat R) l V asc :
  wf A -> nc A = nr A -> 0 < nr A -> eig A = Ok (l, V) -> eig_answer A l V ->
  exists d W s, make_eig eig A = Ok d /\
    let lam := get_eigenvalues_sorted d asc in
    get_eigenvectors_sorted (nr A) d asc = Ok W /\
    wf lam /\ nr lam = nr A /\ nc lam = 1 /\
    wf W /\ nr W = nr A /\ nc W = nr A /\
    Permutation (seq 0 (nr A)) s /\
    (forall k, k < nr A -> entry lam k 0 = nth (nth k s 0) l 0%R /\
       forall i, i < nr A -> entry W i k = entry V i (nth k s 0)) /\
    (forall k i, k < nr A -> i < nr A ->
       Rsum (nr A) (fun j => entry A i j * entry W j k)%R = (entry lam k 0 * entry W i k)%R) /\
    (forall i j, i <= j -> j < nr A ->
       if asc then (entry lam i 0%nat <= entry lam j 0%nat)%R else (entry lam j 0%nat <= entry lam i 0%nat)%R).
Proof.
  intros HA Hsq Hn He Ha. destruct (vectors_sorted A l V asc Hn Ha) as (W & EW & HW).
  destruct Ha as (Hl & HV & Hr & Hc & Heq).
  exists (transpose (Mat 1 (length l) [l]), V), W, (sigma l asc (nr A)).
  split. { unfold make_eig. rewrite He. reflexivity. }
  cbv zeta. split; [exact EW|]. rewrite values_sorted, Hl.
  pose proof (Permutation_length (sigma_perm l asc (nr A))) as Hlen. rewrite seq_length in Hlen.
  assert (Hin : forall k, k < nr A -> nth k (sigma l asc (nr A)) 0 < nr A).
  { intros k Hk. assert (In (nth k (sigma l asc (nr A)) 0) (seq 0 (nr A))) as Hi.
    { eapply Permutation_in; [apply Permutation_sym, sigma_perm|]. apply nth_In. lia. }
    apply in_seq in Hi. lia. }
  assert (Hlam : forall k, k < nr A -> entry (Mat (nr A) 1 (map (fun i => [nth i l 0%R]) (sigma l asc (nr A)))) k 0 = nth (nth k (sigma l asc (nr A)) 0) l 0%R).
  { intros k Hk. unfold entry. cbn [rws]. rewrite (nth_map' _ (sigma l asc (nr A)) k _ 0) by lia. reflexivity. }
  destruct HW as (W1 & W2 & W3 & W4).
  split; [|split; [reflexivity|split; [reflexivity|split; [exact W1|split; [exact W2|split; [exact W3|]]]]]].
  { split; cbn; [rewrite map_length; lia|]. apply Forall_forall. intros x Hx. apply in_map_iff in Hx as (z & <- & _). reflexivity. }
  split; [apply sigma_perm|]. split; [|split].
  - intros k Hk. split; [now apply Hlam|]. intros i Hi. now apply W4.
  - intros k i Hk Hi. rewrite Hlam by assumption. rewrite W4 by assumption.
    rewrite <- Heq by auto. apply Rsum_ext. intros j Hj. now rewrite W4.
  - intros i j Hij Hj. rewrite !Hlam by lia.
    pose proof (sorted_nth (ordered asc) ltac:(intros; unfold ordered; destruct asc; lra) 0%R _ i j (sigma_sorted l asc (nr A)) Hij) as Hs.
    rewrite map_length in Hs. specialize (Hs ltac:(lia)).
    rewrite !(nth_map' _ (sigma l asc (nr A)) _ _ 0) in Hs by lia. exact Hs.
Qed.
Print Assumptions C21_sorted_pairs.

(** The dominant eigenvector belongs to the largest of the reported eigenvalues. *)
Theorem C21_dominant eig (A : mat R) l V :
  wf A -> nc A = nr A -> 0 < nr A -> eig A = Ok (l, V) -> eig_answer A l V ->
  exists d v p, make_eig eig A = Ok d /\ get_dominant_eigenvector (nr A) d = Ok v /\
    wf v /\ nr v = nr A /\ nc v = 1 /\
    p < length l /\ (forall q, q < length l -> (nth q l 0 <= nth p l 0)%R) /\
    (forall i, i < nr A -> entry v i 0 = entry V i p) /\
    (forall i, i < nr A -> Rsum (nr A) (fun j => entry A i j * entry v j 0)%R = (nth p l 0 * entry v i 0%nat)%R).
Proof.
  intros HA Hsq Hn He Ha. pose proof Ha as (Hl & _ & _ & _ & Heq).
  destruct (C21_sorted_pairs eig A l V false HA Hsq Hn He Ha) as (d & W & s & Ed & EW & _ & _ & _ & W1 & W2 & W3 & Hp & Hk & _ & Hmon).
  pose proof (Permutation_length Hp) as Hlen. rewrite seq_length in Hlen.
  assert (Hin : nth 0 s 0 < nr A).
  { assert (In (nth 0 s 0) (seq 0 (nr A))) as Hi. { eapply Permutation_in; [apply Permutation_sym; exact Hp|]. apply nth_In. lia. }
    apply in_seq in Hi. lia. }
  exists d, (mk (nr W) 1 (fun i _ => entry W i 0)), (nth 0 s 0).
  split; [exact Ed|]. split. { unfold get_dominant_eigenvector. rewrite EW. cbn [bind]. apply (get_column_nat W 0). lia. }
  split; [apply mk_wf|]. split; [now rewrite nr_mk|]. split; [reflexivity|]. split; [lia|].
  rewrite W2. destruct (Hk 0 Hn) as (Hk0 & Hv0). split; [|split].
  - intros q Hq. assert (In q s) as Hs. { eapply Permutation_in; [exact Hp|]. apply in_seq. lia. }
    apply (In_nth _ _ 0) in Hs as (j & Hj & Ej). specialize (Hmon 0 j ltac:(lia) ltac:(lia)). cbv beta iota in Hmon.
    rewrite (proj1 (Hk j ltac:(lia))), Hk0, Ej in Hmon. exact Hmon.
  - intros i Hi. rewrite entry_mk by lia. now apply Hv0.
  - intros i Hi. rewrite entry_mk by lia. rewrite Hv0 by assumption. rewrite <- Heq by auto. apply Rsum_ext. intros j Hj.
    rewrite entry_mk by lia. now rewrite Hv0.
Qed.
Print Assumptions C21_dominant.

(** A zero-row matrix has no first eigenpair: indexing the empty list raises. *)
Theorem C21_empty (d : eig_pair (T:=R)) asc : get_eigenvectors_sorted 0 d asc = Err IndexError.
Proof. reflexivity. Qed.

(** Concrete instance: diag(2, 5, 2), with the repeated eigenvalue 2. *)
Definition ex21_A : mat R := Mat 3 3 [[2;0;0];[0;5;0];[0;0;2]]%R.
Definition ex21_V : mat R := Mat 3 3 [[1;0;0];[0;1;0];[0;0;1]]%R.
Example C21_ex : exists d W s,
  make_eig (fun _ => Ok ([2;5;2]%R, ex21_V)) ex21_A = Ok d /\
  get_eigenvectors_sorted 3 d false = Ok W /\ Permutation (seq 0 3) s /\ (entry (get_eigenvalues_sorted d false) 0 0 >= entry (get_eigenvalues_sorted d false) 2 0)%R.
Proof.
  destruct (C21_sorted_pairs (fun _ => Ok ([2;5;2]%R, ex21_V)) ex21_A [2;5;2]%R ex21_V false) as (d & W & s & H1 & H2 & _ & _ & _ & _ & _ & _ & H3 & _ & _ & H4).
  - split; repeat constructor.
  - reflexivity.
  - cbn; lia.
  - reflexivity.
  - split; [reflexivity|]. split; [split; repeat constructor|]. split; [reflexivity|]. split; [reflexivity|].
    cbn [nr ex21_A]. intros k i Hk Hi.
    destruct k as [|[|[|k]]]; [| | |lia]; (destruct i as [|[|[|i]]]; [| | |lia]); cbn; lra.
  - exists d, W, s. repeat split; auto. specialize (H4 0 2 ltac:(lia) ltac:(cbn; lia)). cbn beta iota in H4. apply Rle_ge. exact H4.
Qed.

(** ------------------------------------------------------------------ C22 *)
(** What a correct answer of np.linalg.svd(A, full_matrices=False) is. *)
Definition svd_answer (A u : mat R) (s : list R) (vh : mat R) : Prop :=
  let k := length s in
  wf u /\ nr u = nr A /\ nc u = k /\ wf vh /\ nr vh = k /\ nc vh = nc A /\
  forall i j, i < nr A -> j < nc A ->
    entry A i j = Rsum k (fun t => entry u i t * nth t s 0 * entry vh t j)%R.
(** ... with orthonormal factors *)
Definition orthonormal_factors (u : mat R) (k : nat) (vh : mat R) : Prop :=
  (forall a b, a < k -> b < k -> Rsum (nr u) (fun i => entry u i a * entry u i b)%R = delta a b) /\
  (forall a b, a < k -> b < k -> Rsum (nc vh) (fun j => entry vh a j * entry vh b j)%R = delta a b).

Lemma svd_parts svd (A u : mat R) s vh : svd A = Ok (u, s, vh) -> length s <> 0 ->
  svd_U svd A = Ok (mul_scalar u (-1)%R) /\ svd_V svd A = Ok (mul_scalar vh (-1)%R) /\
  svd_S svd A = Ok (mk (length s) (length s) (fun j i => if i =? j then nth i s 0%R else 0%R)).
Proof.
  intros E Hs. unfold svd_U, svd_V, svd_S, make_svd. rewrite E. cbn [bind fst snd].
  split; [reflexivity|]. split; [reflexivity|]. unfold num_elements. cbn [nr nc]. rewrite Nat.mul_1_l.
  f_equal. rewrite np_array2_tab by assumption. reflexivity.
Qed.

(** C22.  U * S * V (V taken as svd_V returns it) is the matrix. *)
Theorem C22_recombine svd (A u : mat R) s vh :
  wf A -> nr A <> 0 -> nc A <> 0 -> length s = Nat.min (nr A) (nc A) ->
  svd A = Ok (u, s, vh) -> svd_answer A u s vh ->
  exists U S V US, svd_U svd A = Ok U /\ svd_S svd A = Ok S /\ svd_V svd A = Ok V /\
    mul U S = Ok US /\ mul US V = Ok A.
Proof.
  intros HA Hr Hc Hs E (Hu & Hur & Huc & Hv & Hvr & Hvc & Heq).
  assert (Hk : length s <> 0) by (rewrite Hs; destruct (nr A), (nc A); cbn; lia).
  destruct (svd_parts svd A u s vh E Hk) as (EU & EV & ES).
  set (Sm := mk (length s) (length s) (fun j i => if i =? j then nth i s 0%R else 0%R)) in *.
  exists (mul_scalar u (-1)%R), Sm, (mul_scalar vh (-1)%R), (matmul (mul_scalar u (-1)%R) Sm).
  split; [exact EU|]. split; [exact ES|]. split; [exact EV|].
  assert (D1 : nc (mul_scalar u (-1)%R) = nr Sm) by (rewrite nc_mul_scalar; exact Huc).
  split. { unfold mul, is_multiplicable_with. rewrite D1, Nat.eqb_refl. reflexivity. }
  unfold mul, is_multiplicable_with. rewrite nc_matmul, nr_mul_scalar, Hvr. unfold Sm at 1. rewrite nc_mk, Nat.eqb_refl. cbn [negb].
  f_equal. apply mat_ext; [apply matmul_wf|assumption|rewrite !nr_matmul, nr_mul_scalar; assumption|rewrite nc_matmul, nc_mul_scalar; assumption|].
  rewrite !nr_matmul, nr_mul_scalar, nc_matmul, nc_mul_scalar, Hur, Hvc. intros i j Hi Hj.
  rewrite matmul_entry by (rewrite ?nr_matmul, ?nr_mul_scalar, ?nc_mul_scalar; lia).
  rewrite nc_matmul. unfold Sm at 1. rewrite nc_mk. rewrite Heq by assumption. rewrite Rsum_sumn.
  apply sumn_ext. intros t Ht. rewrite entry_mul_scalar by lia.
  rewrite matmul_entry by (rewrite ?nr_mul_scalar; unfold Sm; rewrite ?nc_mk; lia). rewrite nc_mul_scalar, Huc.
  rewrite (sumR_single _ t); [|assumption|].
  - rewrite entry_mul_scalar by lia. unfold Sm. rewrite entry_mk by lia. rewrite Nat.eqb_refl. cbn. ring.
  - intros q Hq Hqt. unfold Sm. rewrite entry_mk by lia. destruct (Nat.eqb_spec t q); [congruence|]. cbn. ring.
Qed.
Print Assumptions C22_recombine.

(** The rows of svd_V are the right singular vectors: A^T A w = s^2 w for w the
    transposed t-th row of V. *)
Theorem C22_rows_are_singular_vectors svd (A u : mat R) s vh :
  wf A -> nr A <> 0 -> nc A <> 0 -> length s = Nat.min (nr A) (nc A) ->
  svd A = Ok (u, s, vh) -> svd_answer A u s vh -> orthonormal_factors u (length s) vh ->
  exists V, svd_V svd A = Ok V /\ nr V = length s /\ nc V = nc A /\
   forall t a, t < length s -> a < nc A ->
     Rsum (nc A) (fun b => Rsum (nr A) (fun i => entry A i a * entry A i b) * entry V t b)%R
     = (nth t s 0 * nth t s 0 * entry V t a)%R.
Proof.
  intros HA Hr Hc Hs E (Hu & Hur & Huc & Hv & Hvr & Hvc & Heq) (Ou & Ov).
  assert (Hk : length s <> 0) by (rewrite Hs; destruct (nr A), (nc A); cbn; lia).
  destruct (svd_parts svd A u s vh E Hk) as (EU & EV & ES).
  exists (mul_scalar vh (-1)%R). split; [exact EV|]. split; [exact Hvr|]. split; [exact Hvc|].
  intros t a Ht Ha.
  assert (Av : forall i, i < nr A -> Rsum (nc A) (fun b => entry A i b * entry vh t b)%R = (entry u i t * nth t s 0)%R).
  { intros i Hi.
    transitivity (Rsum (nc A) (fun b => Rsum (length s) (fun q => (entry u i q * nth q s 0) * (entry vh q b * entry vh t b)))%R).
    { apply Rsum_ext. intros b Hb. rewrite Heq by assumption. rewrite !Rsum_sumn.
      change (sumn (length s) (fun t0 => entry u i t0 * nth t0 s 0 * entry vh t0 b)%R * entry vh t b)%R with (sumn (length s) (fun t0 => entry u i t0 * nth t0 s 0 * entry vh t0 b)%R * entry vh t b)%R.
      rewrite <- sumR_scal_r. apply sumn_ext. intros; ring. }
    rewrite Rsum_sumn. rewrite (sumn_ext (nc A) _ (fun b => sumn (length s) (fun q => entry u i q * nth q s 0 * (entry vh q b * entry vh t b))%R)) by (intros; apply Rsum_sumn).
    rewrite sumR_swap. rewrite (sumR_single _ t); [|assumption|].
    - rewrite sumR_scal, <- Rsum_sumn. rewrite <- Hvc, Ov by assumption. unfold delta. rewrite Nat.eqb_refl. ring.
    - intros q Hq Hqt. rewrite sumR_scal, <- Rsum_sumn. rewrite <- Hvc, Ov by assumption. unfold delta.
      destruct (Nat.eqb_spec q t); [congruence|]. ring. }
  transitivity (- Rsum (nr A) (fun i => entry A i a * (entry u i t * nth t s 0)))%R.
  { rewrite !Rsum_sumn, <- sumR_opp.
    rewrite (sumn_ext (nc A) _ (fun b => sumn (nr A) (fun i => - (entry A i a * (entry A i b * entry vh t b))))%R).
    2:{ intros b Hb. rewrite Rsum_sumn, <- sumR_scal_r. apply sumn_ext. intros i Hi. rewrite entry_mul_scalar by lia. cbn. ring. }
    rewrite sumR_swap. apply sumn_ext. intros i Hi. rewrite sumR_opp, sumR_scal, <- Rsum_sumn, Av by assumption. reflexivity. }
  rewrite entry_mul_scalar by lia. cbn [nmul NumR].
  assert (Q : Rsum (nr A) (fun i => entry A i a * (entry u i t * nth t s 0))%R = (nth t s 0 * nth t s 0 * entry vh t a)%R).
  { rewrite Rsum_sumn. rewrite (sumn_ext (nr A) _ (fun i => sumn (length s) (fun q => (nth q s 0 * entry vh q a * nth t s 0) * (entry u i q * entry u i t))%R)).
    2:{ intros i Hi. rewrite Heq by assumption. rewrite Rsum_sumn, <- sumR_scal_r. apply sumn_ext. intros; ring. }
    rewrite sumR_swap. rewrite (sumR_single _ t); [|assumption|].
    - rewrite sumR_scal, <- Rsum_sumn. rewrite <- Hur, Ou by assumption. unfold delta. rewrite Nat.eqb_refl. ring.
    - intros q Hq Hqt. rewrite sumR_scal, <- Rsum_sumn. rewrite <- Hur, Ou by assumption. unfold delta.
      destruct (Nat.eqb_spec q t); [congruence|]. ring. }
  rewrite Q. ring.
Qed.
Print Assumptions C22_rows_are_singular_vectors.

(** U * S * V^T is not the matrix in general, with a fully correct solver answer:
    A = [[0,1],[0,0]] = e1 * 1 * e2^T. *)
Definition ex22_A : mat R := Mat 2 2 [[0;1];[0;0]]%R.
Definition ex22_u : mat R := Mat 2 2 [[1;0];[0;1]]%R.
Definition ex22_s : list R := [1;0]%R.
Definition ex22_vh : mat R := Mat 2 2 [[0;1];[-1;0]]%R.
Definition ex22_svd (_ : mat R) : res (mat R * list R * mat R) := Ok (ex22_u, ex22_s, ex22_vh).
Lemma ex22_answer : svd_answer ex22_A ex22_u ex22_s ex22_vh /\ orthonormal_factors ex22_u 2 ex22_vh.
Proof.
  split.
  - split; [split; repeat constructor|]. split; [reflexivity|]. split; [reflexivity|]. split; [split; repeat constructor|].
    split; [reflexivity|]. split; [reflexivity|]. cbn [nr nc ex22_A]. intros i j Hi Hj.
    destruct i as [|[|i]]; [| |lia]; (destruct j as [|[|j]]; [| |lia]); cbn; lra.
  - split; intros a b Ha Hb; (destruct a as [|[|a]]; [| |lia]); (destruct b as [|[|b]]; [| |lia]); cbn; lra.
Qed.
Example C22_ex : exists U S V US, svd_U ex22_svd ex22_A = Ok U /\ svd_S ex22_svd ex22_A = Ok S /\ svd_V ex22_svd ex22_A = Ok V /\
    mul U S = Ok US /\ mul US V = Ok ex22_A.
Proof.
  apply (C22_recombine ex22_svd ex22_A ex22_u ex22_s ex22_vh); try (cbn; congruence); try reflexivity.
  - split; repeat constructor.
  - apply ex22_answer.
Qed.
Theorem C22_transposed_product_differs : exists svd A u s vh U S V US P,
  svd A = Ok (u, s, vh) /\ svd_answer A u s vh /\ orthonormal_factors u (length s) vh /\
  svd_U svd A = Ok U /\ svd_S svd A = Ok S /\ svd_V svd A = Ok V /\
  mul U S = Ok US /\ mul US (transpose V) = Ok P /\ P <> A.
Proof.
  destruct (svd_parts ex22_svd ex22_A ex22_u ex22_s ex22_vh eq_refl ltac:(cbn; lia)) as (EU & EV & ES).
  exists ex22_svd, ex22_A, ex22_u, ex22_s, ex22_vh. do 5 eexists.
  split; [reflexivity|]. split; [apply ex22_answer|]. split; [apply ex22_answer|].
  split; [exact EU|]. split; [exact ES|]. split; [exact EV|]. split; [reflexivity|]. split; [reflexivity|].
  intros H. apply (f_equal (fun m => entry m 0 1)) in H. revert H. unfold mul_scalar, map_mat, entry, mk, tab. cbn. unfold tab. cbn. lra.
Qed.
Print Assumptions C22_transposed_product_differs.

(** Without rows or columns svd_S is 1 x 0 (np.array([]) is one-dimensional) and
    the product is refused. *)
Theorem C22_empty svd (A u vh : mat R) : svd A = Ok (u, [], vh) -> nc u = 0 ->
  exists U S, svd_U svd A = Ok U /\ svd_S svd A = Ok S /\ mul U S = Err ValueError.
Proof.
  intros E Hu. unfold svd_U, svd_S, make_svd. rewrite E. cbn [bind fst snd]. do 2 eexists.
  split; [reflexivity|]. split; [reflexivity|]. unfold mul, is_multiplicable_with. rewrite nc_mul_scalar, Hu. reflexivity.
Qed.
