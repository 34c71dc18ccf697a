(** C100: pairwise distances.  C101: the configuration matrix of multiplicative scatter correction.
    Further parts of C18, C21, C23, C24, C45 and C58. *)
From Coq Require Import List ZArith Lia Bool Arith Reals Lra.
From Verif Require Import Base Num Mat M_Matrix M_Factory M_Helper M_Distance M_Transform M_MSC M_Kernel M_Serial S_Matrix S_Serial
  L_Base L_Mat L_Matrix L_MatR L_Serial P_Matrix P_Matrix2 P_Eigen P_Serial P_Kernel P_Transform P_MSC.
Import ListNotations.
Local Open Scope nat_scope.

(** * C100 *)
(** What a table of pairwise distances is. *)
Definition sqdist (x y : mat R) (i j : nat) : R :=
  Rsum (nc x) (fun k => (entry x i k - entry y j k) * (entry x i k - entry y j k))%R.
Definition is_distances (x y : mat R) (squared : bool) (d : mat R) : Prop :=
  is_mat d (nr x) (nr y) (fun i j => if squared then sqdist x y i j else sqrt (sqdist x y i j)).

Theorem C100_refuted (x y : mat R) same squared :
  M_Distance.euclidean_distance x y same squared = Err NotImplementedError.
Proof. reflexivity. Qed.

(** A missing row_norms is not the only fault: with any implementation of it that answers with one squared
    norm per row, as a column, the rest of the function works for two single rows only. *)
Definition norms_column (norms : mat R -> bool -> res (mat R)) : Prop :=
  forall m, norms m true = Ok (mk (nr m) 1 (fun i _ => Rsum (nc m) (fun k => entry m i k * entry m i k)%R)).

Lemma Rsum_dist n (f g : nat -> R) : (Rsum n (fun k => f k * g k) * -2 + Rsum n (fun k => f k * f k) + Rsum n (fun k => g k * g k))%R =
  Rsum n (fun k => (f k - g k) * (f k - g k))%R.
Proof. rewrite !Rsum_sumn. induction n as [|n IH]; cbn in *; [ring|]. rewrite <- IH. ring. Qed.

Lemma one_by_one (d : mat R) (f : nat -> nat -> R) : nr d = 1 -> nc d = 1 -> wf d -> entry d 0 0 = f 0 0 -> is_mat d 1 1 f.
Proof. intros. repeat split; auto; try apply H1. intros i j Hi Hj. replace i with 0 by lia. now replace j with 0 by lia. Qed.

Theorem C100_body_partial norms (x y : mat R) same squared : norms_column norms -> wf x -> wf y -> nc x = nc y ->
  (same = true -> x = y) ->
  (nr x = 1 -> nr y = 1 -> exists d, euclidean_with norms x y same squared = Ok d /\ is_distances x y squared d) /\
  (~ (nr x = 1 /\ nr y = 1) -> euclidean_with norms x y same squared = Err InvalidShapeError).
Proof.
  intros Hn Wx Wy Hc Hsame. unfold euclidean_with. rewrite !Hn. cbn [bind].
  rewrite (proj1 (mul_spec x (transpose y))) by exact Hc. cbn [bind].
  set (D := mul_scalar (matmul x (transpose y)) (nofZ (-2))).
  assert (D1 : nr D = nr x) by reflexivity. assert (D2 : nc D = nr y) by reflexivity.
  match goal with |- context [add D ?a] => set (xx := a) end.
  match goal with |- context [add _ (mk (nr y) 1 ?f)] => set (yy := mk (nr y) 1 f) end.
  split.
  - intros R1 R2.
    destruct (proj1 (add_spec D xx)) as (d1 & E1 & I1); [split; [reflexivity | exact R2]|]. rewrite E1. cbn [bind].
    destruct (proj1 (add_spec d1 yy)) as (d2 & E2 & I2).
    { destruct I1 as (_ & A & B & _). split; rewrite ?A, ?B, ?D1, ?D2; [now rewrite R1, <- R2 | exact R2]. }
    rewrite E2. cbn [bind].
    destruct I1 as (W1 & A1 & A2 & A3). destruct I2 as (W2 & B1 & B2 & B3).
    rewrite D1 in *. rewrite D2 in *. rewrite R1 in *. rewrite R2 in *.
    assert (Hv : entry d2 0 0 = sqdist x y 0 0).
    { rewrite B3, A3 by lia. unfold D, xx, yy. rewrite entry_mul_scalar by (cbn; lia). rewrite !entry_mk by lia.
      unfold sqdist. rewrite <- Rsum_dist. unfold matmul. rewrite entry_mk by (cbn; lia). cbn [nadd nmul NumR nofZ].
      rewrite <- Hc. f_equal. f_equal. f_equal. rewrite Rsum_sumn. apply sumn_ext. intros k Hk. rewrite transpose_entry by lia. reflexivity. }
    assert (He : exists e, (if same then Ok true else eq_mat x y) = Ok e /\ (e = true -> x = y)).
    { destruct same; [exists true; auto|].
      destruct (eq_mat_true x y) as [_ Q]. destruct Q as (r & Er & _); [split; congruence|]. exists r. split; [exact Er|].
      intros ->. apply (C13_real x y); auto. split; congruence. }
    destruct He as (e & -> & He). cbn [bind].
    set (d3 := if e then fill_diagonal d2 n0 else d2).
    assert (I3 : nr d3 = 1 /\ nc d3 = 1 /\ wf d3 /\ entry d3 0 0 = sqdist x y 0 0).
    { unfold d3. destruct e; [|split; [congruence|split; [congruence|split; [exact W2|exact Hv]]]].
      specialize (He eq_refl). subst y. clear - B1 B2 W2 A1 A2 R1.
      unfold fill_diagonal. rewrite B1, B2, A1, A2. cbn [Nat.min seq fold_left].
      assert (Z0 : sqdist x x 0 0 = 0%R).
      { unfold sqdist. rewrite Rsum_sumn. generalize (nc x). intros n. induction n as [|n IH]; cbn in *; [reflexivity|]. rewrite IH. ring. }
      rewrite Z0. split; [cbn; congruence|]. split; [cbn; congruence|]. split; [now apply set_entry_wf|].
      rewrite set_entry_entry by (auto; lia). reflexivity. }
    destruct I3 as (C1 & C2 & C3 & C4). unfold is_distances. rewrite R1, R2.
    destruct squared; eexists; (split; [reflexivity|]); apply one_by_one; auto; try apply mk_wf.
    rewrite entry_map_mat by lia. cbn. now rewrite C4.
  - intros Hno. destruct (Nat.eq_dec (nr y) 1) as [R2|R2].
    + destruct (proj1 (add_spec D xx)) as (d1 & E1 & I1); [split; [reflexivity | exact R2]|]. rewrite E1. cbn [bind].
      destruct I1 as (W1 & A1 & A2 & A3). rewrite (proj2 (add_spec d1 yy)); [reflexivity|].
      intros [Q _]. rewrite A1, D1 in Q. unfold yy in Q. rewrite nr_mk in Q. apply Hno. lia.
    + rewrite (proj2 (add_spec D xx)); [reflexivity|]. intros [_ Q]. apply R2. exact Q.
Qed.

Definition norms_R (m : mat R) (_ : bool) : res (mat R) :=
  Ok (mk (nr m) 1 (fun i _ => Rsum (nc m) (fun k => entry m i k * entry m i k)%R)).
Example C100_ex : norms_column norms_R /\
  (exists d, euclidean_with norms_R (Mat 1 2 [[3; 4]]%R) (Mat 1 2 [[0; 0]]%R) false false = Ok d /\ entry d 0 0 = 5%R) /\
  euclidean_with norms_R (Mat 2 1 [[3]; [4]]%R) (Mat 1 1 [[0]]%R) false true = Err InvalidShapeError.
Proof.
  assert (Hn : norms_column norms_R) by (intro; reflexivity). split; [exact Hn|].
  assert (W : forall a b : R, wf (Mat 1 2 [[a; b]])) by (intros; split; [reflexivity | constructor; [reflexivity | constructor]]).
  split.
  - destruct (C100_body_partial norms_R (Mat 1 2 [[3; 4]]%R) (Mat 1 2 [[0; 0]]%R) false false) as [Q _]; auto; [discriminate|].
    destruct Q as (d & E & _ & _ & _ & Hd); try reflexivity. exists d. split; [exact E|]. rewrite Hd by (cbn; lia). cbv beta iota.
    replace (sqdist _ _ 0 0) with (5 * 5)%R by (unfold sqdist; cbn; ring). apply sqrt_square. lra.
  - destruct (C100_body_partial norms_R (Mat 2 1 [[3]; [4]]%R) (Mat 1 1 [[0]]%R) false true) as [_ Q]; auto;
      try (split; [reflexivity | repeat constructor]); try discriminate.
Qed.

(** * C101 *)
Section Config.
Context {T : Type} `{Num T}.
Lemma fold_concat_ok (cols : list (mat T)) : forall acc : mat T, wf acc ->
  Forall (fun c => wf c /\ nr c = nr acc /\ nc c = 1) cols ->
  exists m, fold_left (fun a x => do a <- a; concat a x 1) cols (Ok acc) = Ok m /\
    is_mat m (nr acc) (nc acc + length cols) (fun i j => if j <? nc acc then entry acc i j else entry (nth (j - nc acc) cols acc) i 0).
Proof.
  induction cols as [|c cols IH]; intros acc Wa Hc; cbn [fold_left].
  - exists acc. split; [reflexivity|]. eapply is_mat_fun_ext; [cbn; rewrite Nat.add_0_r; now apply is_mat_self|].
    intros i j Hi Hj. cbn in Hj. destruct (Nat.ltb_spec j (nc acc)); [reflexivity|lia].
  - inversion Hc as [|? ? (Wc & R1 & R2) Hc']; subst.
    destruct (concat_columns_ok acc c Wa Wc) as (m1 & E1 & I1); [congruence|]. cbn [bind].
    change (concat acc c 1) with (concat_along_columns acc c). rewrite E1. destruct I1 as (W1 & A1 & A2 & A3).
    destruct (IH m1 W1) as (m & E & I).
    { revert Hc'. apply Forall_impl. intros a (? & ? & ?). split; [assumption|split; congruence]. }
    exists m. split; [exact E|]. rewrite A1, A2, R2 in I. destruct I as (B0 & B1 & B2 & B3).
    repeat split; try apply B0; auto; [cbn; lia|]. intros i j Hi Hj. cbn in Hj. rewrite B3 by lia.
    rewrite R2 in A3.
    destruct (Nat.ltb_spec j (nc acc)); destruct (Nat.ltb_spec j (nc acc + 1)); try lia.
    + rewrite A3 by lia. destruct (Nat.ltb_spec j (nc acc)); [reflexivity|lia].
    + rewrite A3 by lia. destruct (Nat.ltb_spec j (nc acc)); [lia|]. replace (j - nc acc) with 0 by lia. reflexivity.
    + replace (j - nc acc) with (S (j - (nc acc + 1))) by lia. cbn [nth]. f_equal. apply nth_indep. lia.
Qed.
Lemma fold_concat_err (cols : list (mat T)) : forall e, fold_left (fun a x => do a <- a; concat a x 1) cols (Err e : res (mat T)) = Err e.
Proof. induction cols; intros; cbn; auto. Qed.
Lemma fold_concat_bad (cols : list (mat T)) : forall acc : mat T, Forall (fun c => wf c /\ nc c = 1) cols -> wf acc ->
  Exists (fun c => nr c <> nr acc) cols ->
  fold_left (fun a x => do a <- a; concat a x 1) cols (Ok acc) = Err ValueError.
Proof.
  induction cols as [|c cols IH]; intros acc Hc Wa He; [inversion He|]. cbn [fold_left bind].
  inversion Hc as [|? ? (Wc & R2) Hc']; subst. change (concat acc c 1) with (concat_along_columns acc c).
  destruct (Nat.eq_dec (nr acc) (nr c)) as [R1|R1].
  - destruct (concat_columns_ok acc c Wa Wc R1) as (m1 & -> & W1 & A1 & A2 & A3). apply IH; auto.
    inversion He as [? ? Q|? ? Q]; subst; [congruence|]. revert Q. apply Exists_impl. intros a Ha. congruence.
  - rewrite concat_columns_err by assumption. apply fold_concat_err.
Qed.

(** All spectra measured at as many points as the first: the wave numbers of the first, then the
    amplitudes of every spectrum in the order given. *)
Theorem C101_matrix (spectra : list (mat T)) s0 : spectra <> [] -> s0 = hd s0 spectra ->
  Forall (fun s => wf s /\ 2 <= nc s /\ nr s = nr s0) spectra ->
  exists m, create_configuration_matrix spectra = Ok m /\
    is_mat m (nr s0) (1 + length spectra) (fun i j => match j with O => entry s0 i 0 | S k => entry (nth k spectra s0) i 1 end).
Proof.
  intros Hne Hs Hall. destruct spectra as [|s rest]; [congruence|]. cbn in Hs. subst s0. unfold create_configuration_matrix.
  inversion Hall as [|? ? (W0 & C0 & _) _]; subst.
  change 0%Z with (Z.of_nat 0). rewrite get_column_nat by lia. cbn [bind].
  rewrite (mapM_total (fun s => get_column s 1) (fun s => mk (nr s) 1 (fun i _ => entry s i 1))).
  2:{ intros a Ha. rewrite Forall_forall in Hall. destruct (Hall a Ha) as (_ & Q & _). change 1%Z with (Z.of_nat 1). apply get_column_nat. lia. }
  cbn [bind]. unfold multi_concat. cbn [Z.eqb Pos.eqb orb].
  destruct (fold_concat_ok (map (fun s => mk (nr s) 1 (fun i _ => entry s i 1)) (s :: rest)) (mk (nr s) 1 (fun i _ => entry s i 0)))
    as (m & E & I); [apply mk_wf| |].
  - rewrite Forall_map. revert Hall. apply Forall_impl. intros a (? & ? & ?). split; [apply mk_wf|]. split; [now rewrite !nr_mk | reflexivity].
  - exists m. split; [exact E|]. rewrite nr_mk, nc_mk, map_length in I.
    eapply is_mat_fun_ext; [exact I|]. intros i [|k] Hi Hj.
    + change (0 <? 1) with true. cbv iota. now rewrite entry_mk by lia.
    + change (S k <? 1) with false. cbv iota. cbn [Nat.sub]. rewrite Nat.sub_0_r. rewrite (nth_map' _ _ _ _ s) by lia.
      rewrite Forall_forall in Hall. destruct (Hall (nth k (s :: rest) s)) as (_ & _ & Q); [apply nth_In; lia|]. rewrite entry_mk by (rewrite ?Q; auto). reflexivity.
Qed.

Theorem C101_rejected (spectra : list (mat T)) s0 : s0 = hd s0 spectra ->
  (spectra = [] -> create_configuration_matrix spectra = Err ValueError) /\
  (Exists (fun s => nc s < 2) spectra -> create_configuration_matrix spectra = Err IndexError) /\
  (Forall (fun s => wf s /\ 2 <= nc s) spectra -> Exists (fun s => nr s <> nr s0) spectra ->
     create_configuration_matrix spectra = Err ValueError).
Proof.
  intros Hs. split; [intros ->; reflexivity|]. split.
  - intros He. destruct spectra as [|s rest]; [inversion He|]. unfold create_configuration_matrix.
    destruct (get_column s 0) as [w|e] eqn:Ew; cbn [bind].
    2:{ apply (proj2 (get_column_spec s 0)) in Ew. destruct Ew as [-> _]. reflexivity. }
    destruct (mapM (fun s1 => get_column s1 1) (s :: rest)) as [l|e] eqn:Em.
    + exfalso. apply mapM_ok in Em. apply Exists_exists in He. destruct He as (a & Ha & Hc).
      assert (exists b, get_column a 1 = Ok b) as (b & Eb).
      { clear - Em Ha. revert Em Ha. generalize (s :: rest). intros l0 Em Ha. induction Em; [destruct Ha|destruct Ha as [<-|Ha]; eauto]. }
      apply (proj1 (get_column_spec a 1)) in Eb. destruct Eb as (k & Hk & _). unfold addr in Hk. lia.
    + cbn [bind]. apply mapM_err in Em. destruct Em as (a & _ & Ea). apply (proj2 (get_column_spec a 1)) in Ea. now destruct Ea as [-> _].
  - intros Hall He. destruct spectra as [|s rest]; [inversion He|]. cbn in Hs. subst s0. unfold create_configuration_matrix.
    inversion Hall as [|? ? (W0 & C0) _]; subst.
    change 0%Z with (Z.of_nat 0). rewrite get_column_nat by lia. cbn [bind].
    rewrite (mapM_total (fun s => get_column s 1) (fun s => mk (nr s) 1 (fun i _ => entry s i 1))).
    2:{ intros a Ha. rewrite Forall_forall in Hall. destruct (Hall a Ha) as (_ & Q). change 1%Z with (Z.of_nat 1). apply get_column_nat. lia. }
    cbn [bind]. unfold multi_concat. cbn [Z.eqb Pos.eqb orb]. apply fold_concat_bad.
    + rewrite Forall_map. apply Forall_forall. intros a _. split; [apply mk_wf | reflexivity].
    + apply mk_wf.
    + rewrite Exists_map. exact He.
Qed.
End Config.

Definition exS1 : mat R := Mat 2 2 [[10; 1]; [20; 2]]%R.
Definition exS2 : mat R := Mat 2 3 [[30; 3; 7]; [40; 4; 7]]%R.
Example C101_ex : create_configuration_matrix [exS1; exS2] = Ok (Mat 2 3 [[10; 1; 3]; [20; 2; 4]]%R) /\
  create_configuration_matrix [exS1; Mat 1 2 [[1; 2]]%R] = Err ValueError /\
  create_configuration_matrix [exS1; Mat 2 1 [[1]; [2]]%R] = Err IndexError.
Proof. repeat split; reflexivity. Qed.

(** * Constructor of Matrix: what every accepted array becomes (C23) *)
Theorem C23_constructor {T} `{Num T} (a : ndarray T) :
  match a with
  | Nd0 x => exists m, matrix_init a = Ok m /\ is_mat m 1 1 (fun _ _ => x)
  | Nd1 l => exists m, matrix_init a = Ok m /\ is_mat m 1 (length l) (fun _ j => nth j l n0)
  | Nd2 m => matrix_init a = Ok m
  | NdMore => matrix_init a = Err ValueError
  end.
Proof.
  destruct a as [x|l|m|]; try reflexivity; (eexists; split; [reflexivity|]).
  - repeat split; cbn; auto. intros [|i] [|j] Hi Hj; try lia. reflexivity.
  - repeat split; cbn; auto. intros [|i] j Hi Hj; [reflexivity|lia].
Qed.

(** rand_like / randn_like draw a matrix of the shape of their argument, and nothing else of it matters (C24) *)
Theorem C24_like {T G} `{Num T} (seed_fn : Z -> G) (draw : G -> nat -> nat -> mat T * G) (g : G) (m : mat T) (seed : Z) (mean std : T) :
  (forall s r c, nr (fst (draw s r c)) = r /\ nc (fst (draw s r c)) = c) ->
  nr (fst (rand_like seed_fn draw g m seed)) = nr m /\ nc (fst (rand_like seed_fn draw g m seed)) = nc m /\
  nr (fst (randn_like seed_fn draw g m seed mean std)) = nr m /\ nc (fst (randn_like seed_fn draw g m seed mean std)) = nc m /\
  forall g' m', same_shape m m' ->
    rand_like seed_fn draw g m seed = rand_like seed_fn draw g' m' seed /\
    randn_like seed_fn draw g m seed mean std = randn_like seed_fn draw g' m' seed mean std.
Proof.
  intros Hd. destruct (Hd (seed_fn seed) (nr m) (nc m)) as [D1 D2].
  assert (E1 : fst (rand_like seed_fn draw g m seed) = fst (draw (seed_fn seed) (nr m) (nc m))) by reflexivity.
  assert (E2 : fst (randn_like seed_fn draw g m seed mean std) = fst (draw (seed_fn seed) (nr m) (nc m))).
  { unfold randn_like, randn. destruct (draw _ _ _); reflexivity. }
  rewrite E1, E2. repeat split; auto; destruct H0 as [Q1 Q2]; unfold rand_like, randn_like, rand, randn; now rewrite Q1, Q2.
Qed.

(** get_eigenvalue_decomposition_D: the diagonal matrix of the eigenvalues in the solver's order, so that
    A V = V D (C21) *)
Theorem C21_diagonal eig (A : mat R) l V d D : nr A <> 0 -> eig A = Ok (l, V) -> eig_answer A l V ->
  make_eig eig A = Ok d -> get_eigenvalue_decomposition_D d = Ok D ->
  is_mat D (nr A) (nr A) (fun i j => if i =? j then nth i l 0%R else 0%R) /\
  (nc A = nr A -> mul A V = mul V D).
Proof.
  intros Hn Ee (L & WV & V1 & V2 & HV) Em ED. unfold make_eig in Em. rewrite Ee in Em. cbn [bind fst snd] in Em.
  injection Em as <-. unfold get_eigenvalue_decomposition_D in ED. cbn [fst] in ED. rewrite L in ED.
  set (v := transpose (Mat 1 (nr A) [l])) in ED.
  assert (N1 : nr v = nr A) by reflexivity. assert (N2 : nc v = 1) by reflexivity.
  assert (Hv : forall i, i < nr A -> entry v i 0 = nth i l 0%R) by (intros i Hi; unfold v; rewrite transpose_entry by (cbn; lia); reflexivity).
  assert (HD : is_mat D (nr A) (nr A) (fun i j => if i =? j then nth i l 0%R else 0%R)).
  { unfold vector_to_diagonal, must_be_vector, is_vector, is_row_vector, is_column_vector, num_elements in ED.
    rewrite N1, N2, Nat.mul_1_r in ED. change (1 =? 1) with true in ED. rewrite ?orb_true_r in ED. cbn [orb bind] in ED.
    injection ED as <-. rewrite np_array2_tab by assumption. apply is_mat_mk_ext. intros i j Hi Hj. rewrite (Nat.eqb_sym j i).
    destruct (Nat.eqb_spec i j) as [->|]; [|reflexivity].
    destruct (Nat.eqb_spec (nr A) 1) as [Q|Q]; [replace j with 0 by lia; rewrite andb_true_r; destruct (is_vector v)|rewrite andb_false_r]; apply Hv; lia. }
  split; [exact HD|]. intros Hsq. destruct HD as (WD & D1 & D2 & D3).
  rewrite (proj1 (mul_spec A V)), (proj1 (mul_spec V D)) by congruence. f_equal.
  apply mat_ext; try apply mk_wf; try (cbn; congruence). unfold matmul. rewrite nr_mk, nc_mk. intros i k Hi Hk.
  rewrite !entry_mk by congruence. rewrite V2 in Hk. rewrite Hsq, V2. specialize (HV k i Hk Hi). rewrite Rsum_sumn in HV.
  cbn [nmul NumR]. rewrite HV.
  transitivity (Rsum (nr A) (fun j => if j =? k then (nth k l 0 * entry V i k)%R else 0%R)).
  - clear - Hk. rewrite Rsum_sumn. revert Hk. generalize (nth k l 0 * entry V i k)%R. intros r.
    generalize (nr A). intros n Hk. 
    assert (Q : forall n, sumn n (fun j => if j =? k then r else 0%R) = if k <? n then r else 0%R).
    { clear. induction n as [|n IH]; [reflexivity|]. cbn [sumn]. rewrite IH. cbn [nadd NumR].
      destruct (Nat.ltb_spec k n), (Nat.ltb_spec k (S n)), (Nat.eqb_spec n k); try lia; try lra. }
    rewrite Q. destruct (Nat.ltb_spec k n); [reflexivity|lia].
  - rewrite Rsum_sumn. apply sumn_ext. intros j Hj. cbn [nmul NumR]. rewrite D3 by lia.
    destruct (Nat.eqb_spec j k) as [->|]; ring.
Qed.

(** The two checks of vector shape (C10): each raises on exactly the other shapes. *)
Theorem C10_row_check {T} `{Num T} (v : mat T) :
  (must_be_row_vector v = Ok tt <-> nr v = 1) /\ (must_be_row_vector v = Err ValueError <-> nr v <> 1) /\
  (must_be_column_vector v = Ok tt <-> nc v = 1) /\ (must_be_column_vector v = Err ValueError <-> nc v <> 1).
Proof.
  unfold must_be_row_vector, must_be_column_vector, is_row_vector, is_column_vector, is_vector.
  destruct (Nat.eqb_spec (nr v) 1), (Nat.eqb_spec (nc v) 1); repeat split; intros; try discriminate; try congruence; auto.
Qed.

(** The state of a Log transformation (C18): base, factor and offset, eight bytes each when they are floats,
    so that a reader gets all three back; an int parameter takes four bytes, and a parameter that is neither raises
    after the ones before it were written. *)
Theorem C18_log_state (b f o : Z) : (0 <= b < 2 ^ 64)%Z -> (0 <= f < 2 ^ 64)%Z -> (0 <= o < 2 ^ 64)%Z ->
  let w := log_state (PFloat b) (PFloat f) (PFloat o) in
  snd w = Ok tt /\ length (written w) = 24 /\ dec_many dec_u64 3 (written w) = Some ([b; f; o], []).
Proof.
  intros Hb Hf Ho w. split; [reflexivity|].
  assert (E : written w = le_bytes 8 b ++ le_bytes 8 f ++ le_bytes 8 o ++ []) by reflexivity. rewrite E. split.
  - rewrite !app_length, !le_bytes_length. reflexivity.
  - cbn [dec_many]. rewrite !dec_u64_app by assumption. reflexivity.
Qed.
Theorem C18_log_state_fails (b f o : pyval) e :
  (serialise_to_bytes b = Err e -> log_state b f o = ([], Err e)) /\
  (forall bb, serialise_to_bytes b = Ok bb -> serialise_to_bytes f = Err e -> written (log_state b f o) = bb /\ snd (log_state b f o) = Err e) /\
  (forall bb ff, serialise_to_bytes b = Ok bb -> serialise_to_bytes f = Ok ff -> serialise_to_bytes o = Err e ->
     written (log_state b f o) = bb ++ ff /\ snd (log_state b f o) = Err e).
Proof.
  unfold log_state. repeat split; intros; rewrite ?H, ?H0, ?H1; unfold written; cbn; rewrite ?app_nil_r; reflexivity.
Qed.

(** YGradientGLSW's filter and the polynomial kernel's remaining accessors (C58, C45). *)
Theorem C58_no_inverse (data : mat R) : yg_inverse data = Err MatrixAlgorithmsError.
Proof. reflexivity. Qed.
Theorem C45_fresh (coef : R) (X Y : mat R) : wf X -> wf Y -> nc X = nc Y ->
  (exists s K, poly_apply_matrix Rpow (poly_set_coef poly_new coef) X (Some Y) = (s, Ok K) /\ wf K /\ nr K = nr X /\ nc K = nr Y /\
     forall i j, i < nr X -> j < nr Y -> entry K i j = Rpow (1 / INR (nc X) * dot (nc X) (entry X i) (entry Y j) + coef)%R 3) /\
  (nr X <> 0 -> exists h K, rbf_apply_matrix exp rbf_new X (Some Y) = Ok (h, K) /\ wf K /\ nr K = nr X /\ nc K = nr Y /\
     forall i j, i < nr X -> j < nr Y -> entry K i j = exp (- dist (nc X) (entry X i) (entry Y j))%R).
Proof.
  intros WX WY Hc. split.
  - destruct (C45_poly (poly_set_coef poly_new coef) X Y WX WY Hc) as (K & E & W & R1 & C1 & HK).
    do 2 eexists. split; [exact E|]. repeat split; auto; try apply W. intros i j Hi Hj.
    destruct (HK i j Hi Hj) as (? & ? & _ & _ & _ & ->). reflexivity.
  - intros Hn. destruct (C45_rbf rbf_new X Y WX WY Hc Hn) as (h & K & E & _ & W & R1 & C1 & HK).
    exists h, K. split; [exact E|]. repeat split; auto; try apply W. intros i j Hi Hj.
    destruct (HK i j Hi Hj) as (? & ? & _ & _ & _ & ->). f_equal. cbn. ring.
Qed.

(** MultiplicativeScatterCorrection is one more transformation that is configured by the first matrix it sees (C35);
    a matrix with wave numbers and at least one spectrum can be configured with.  Reset keeps the old average, which no
    call can see. *)
Theorem C35_msc (prefilter : option (mat R -> res (mat R))) (ranges : list (R * R)) (h : list (t_op R)) :
  Forall (op_ok (fun m => 2 <= nc m)) h -> amounts_to (msc prefilter ranges) h.
Proof.
  intros Hh. set (c := msc prefilter ranges).
  assert (C : forall d, 2 <= nc d -> exists a, forall s, t_configure c s d = (MSC true (Some a), Ok tt)).
  { intros d Hd. destruct (C44_reference ranges prefilter (t_new c) d Hd) as (a & E & _). exists a. intros s. revert E. unfold c. cbn [t_configure msc]. destruct (msc_configure d); [|discriminate]. intros [= ->]. reflexivity. }
  assert (G : let s := t_run c (t_new c) h in match effective h with None => m_configured s = false | Some d => 2 <= nc d /\ forall s0, s = fst (t_configure c s0 d) end).
  { unfold t_run, effective. revert Hh. rewrite <- (rev_involutive h). generalize (rev h). clear h. intros h. induction h as [|o h IH]; intros Hh; [reflexivity|].
    cbn [rev] in *. rewrite !fold_left_app. apply Forall_app in Hh as [Hh Ho]. specialize (IH Hh). inversion_clear Ho as [|? ? Po _]. cbn [fold_left]. cbv zeta in IH |- *.
    set (s := fold_left _ _ (t_new c)) in *. set (e := fold_left effective_step (rev h) None) in *. clearbody s e. destruct e as [d|], o as [m|m|m|]; cbn [t_step effective_step op_ok] in *; try reflexivity;
      try (destruct (C m Po) as (a & E)); try match type of IH with _ /\ _ => destruct IH as [Hd IH]; destruct (C d Hd) as (b & F) end.
    - rewrite (IH s). rewrite F. cbn [fst]. split; [exact Hd|]. intros s0. rewrite F. reflexivity.
    - rewrite (IH s). rewrite F. cbn [fst]. split; [exact Hd|]. intros s0. rewrite F. reflexivity.
    - rewrite E. split; [exact Po|]. intros s0. now rewrite E.
    - split; [exact Po|]. intros s0. unfold t_transform. cbn [t_configured c msc]. rewrite IH. cbn [negb]. fold c. rewrite !E. reflexivity.
    - split; [exact Po|]. intros s0. unfold t_inverse. cbn [t_configured c msc]. rewrite IH. cbn [negb]. fold c. rewrite !E. reflexivity.
    - split; [exact Po|]. intros s0. now rewrite !E. }
  intros x canonical. cbv zeta in G. unfold canonical. destruct (effective h) as [d|]; cbn [t_run fold_left t_step].
  - destruct G as [_ G]. rewrite (G (t_new c)). split; reflexivity.
  - unfold t_transform, t_inverse. replace (t_configured c (t_run c (t_new c) h)) with false by (symmetry; exact G). change (t_configured c (t_new c)) with false.
    cbn [negb]. destruct (t_run c (t_new c) h) as [b o]. unfold c. cbn [t_configure msc]. destruct (msc_configure x); split; reflexivity.
Qed.
(** A new object takes the first matrix as its reference data. *)
Example C35_msc_ex : let d := Mat 2 2 [[1; 5]; [2; 7]]%R in let c := msc None [(0, 10)]%R in
  Forall (op_ok (fun m => 2 <= nc m)) [OTransform d] /\ m_average (t_run c (t_new c) [OTransform d]) = m_average (t_run c (t_new c) [OConfigure d]) /\ m_average (t_new c) = None /\
  exists a, m_average (t_run c (t_new c) [OTransform d]) = Some a.
Proof.
  cbv zeta. split; [constructor; [cbn; lia|constructor]|]. destruct (C44_reference [(0, 10)]%R None (t_new (msc None [(0, 10)]%R)) (Mat 2 2 [[1; 5]; [2; 7]]%R) ltac:(cbn; lia)) as (a & E & _).
  assert (E1 : t_run (msc None [(0, 10)]%R) (t_new (msc None [(0, 10)]%R)) [OTransform (Mat 2 2 [[1; 5]; [2; 7]]%R)] = MSC true (Some a)).
  { cbn [t_run fold_left t_step]. unfold t_transform. change (t_configured (msc None [(0, 10)]%R) (t_new (msc None [(0, 10)]%R))) with false. cbn [negb]. rewrite E. reflexivity. }
  rewrite E1. cbn [t_run fold_left t_step]. rewrite E. split; [reflexivity|]. split; [reflexivity|]. now exists a.
Qed.

Print Assumptions C100_refuted.
Print Assumptions C100_body_partial.
Print Assumptions C101_matrix.
Print Assumptions C101_rejected.
Print Assumptions C23_constructor.
Print Assumptions C24_like.
Print Assumptions C21_diagonal.
Print Assumptions C10_row_check.
Print Assumptions C18_log_state.
Print Assumptions C18_log_state_fails.
Print Assumptions C45_fresh.
Print Assumptions C35_msc.
