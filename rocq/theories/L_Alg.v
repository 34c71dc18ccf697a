(** Symbolic execution of matrix code: every operation applied to matrices given as tables [mk r c f]
    yields a table. *)
From Coq Require Import List ZArith Lia Bool Arith Reals Lra.
From Verif Require Import Base Num Mat M_Matrix M_Factory M_Helper M_Loop M_Utils S_Matrix L_Base L_Mat L_Matrix L_MatR.
Import ListNotations.
Local Open Scope nat_scope.

Section Tables.
Context {T : Type} `{Num T}.

Lemma mul_mk r n c (f g : nat -> nat -> T) :
  mul (mk r n f) (mk n c g) = Ok (mk r c (fun i j => sumn n (fun k => nmul (f i k) (g k j)))).
Proof.
  unfold mul, is_multiplicable_with. cbn [nc nr mk]. rewrite Nat.eqb_refl. cbn [negb]. f_equal. unfold matmul. cbn [nc nr mk]. fold (mk r n f). fold (mk n c g).
  apply mk_ext. intros i j Hi Hj. apply sumn_ext. intros k Hk. now rewrite !entry_mk.
Qed.
Lemma mul_mk_err r n n' c (f g : nat -> nat -> T) : n <> n' -> mul (mk r n f) (mk n' c g) = Err ValueError.
Proof. intros Hn. unfold mul, is_multiplicable_with. cbn [nc nr mk]. now rewrite (proj2 (Nat.eqb_neq _ _) Hn). Qed.
Lemma transpose_mk r c (f : nat -> nat -> T) : transpose (mk r c f) = mk c r (fun i j => f j i).
Proof. unfold transpose. cbn [nc nr mk]. fold (mk r c f). apply mk_ext. intros i j Hi Hj. now rewrite entry_mk. Qed.
Lemma map_mk op r c (f : nat -> nat -> T) : map_mat op (mk r c f) = mk r c (fun i j => op (f i j)).
Proof. unfold map_mat. cbn [nc nr mk]. fold (mk r c f). apply mk_ext. intros i j Hi Hj. now rewrite entry_mk. Qed.
Lemma map2_mk op r c (f g : nat -> nat -> T) : map2_mat op (mk r c f) (mk r c g) = mk r c (fun i j => op (f i j) (g i j)).
Proof. unfold map2_mat. cbn [nc nr mk]. fold (mk r c f). fold (mk r c g). apply mk_ext. intros i j Hi Hj. now rewrite !entry_mk. Qed.
Lemma div_scalar_mk r c (f : nat -> nat -> T) s : div_scalar (mk r c f) s = mk r c (fun i j => ndiv (f i j) s).
Proof. apply map_mk. Qed.
Lemma mul_scalar_mk r c (f : nat -> nat -> T) s : mul_scalar (mk r c f) s = mk r c (fun i j => nmul (f i j) s).
Proof. apply map_mk. Qed.
Lemma sub_scalar_mk r c (f : nat -> nat -> T) s : sub_scalar (mk r c f) s = mk r c (fun i j => nsub (f i j) s).
Proof. apply map_mk. Qed.
Lemma add_scalar_mk r c (f : nat -> nat -> T) s : add_scalar (mk r c f) s = mk r c (fun i j => nadd (f i j) s).
Proof. apply map_mk. Qed.
Lemma sub_mk r c (f g : nat -> nat -> T) : sub (mk r c f) (mk r c g) = Ok (mk r c (fun i j => nsub (f i j) (g i j))).
Proof. unfold sub. rewrite must_be_same_shape_eq. unfold same_shape_as. cbn [nr nc mk]. rewrite !Nat.eqb_refl. cbn [andb bind]. fold (mk r c f). fold (mk r c g). now rewrite map2_mk. Qed.
Lemma add_mk r c (f g : nat -> nat -> T) : add (mk r c f) (mk r c g) = Ok (mk r c (fun i j => nadd (f i j) (g i j))).
Proof. unfold add. rewrite must_be_same_shape_eq. unfold same_shape_as. cbn [nr nc mk]. rewrite !Nat.eqb_refl. cbn [andb bind]. fold (mk r c f). fold (mk r c g). now rewrite map2_mk. Qed.
Lemma normalized0_mk r c (f : nat -> nat -> T) :
  normalized (mk r c f) 0 = Ok (mk r c (fun i j => ndiv (f i j) (nsqrt (sumn r (fun k => nmul (f k j) (f k j)))))).
Proof.
  unfold normalized. cbn [Z.eqb orb nr nc mk]. fold (mk r c f). f_equal. apply mk_ext. intros i j Hi Hj. rewrite entry_mk by assumption. do 2 f_equal.
  apply sumn_ext. intros k Hk. now rewrite entry_mk.
Qed.
Lemma is_vector_col r (f : nat -> nat -> T) : is_vector (mk r 1 f) = true.
Proof. unfold is_vector. cbn. apply orb_true_r. Qed.
Lemma is_vector_row c (f : nat -> nat -> T) : is_vector (mk 1 c f) = true.
Proof. reflexivity. Qed.
Lemma set_column_mk r c (f g : nat -> nat -> T) k : k < c ->
  set_column (mk r c f) (Z.of_nat k) (mk r 1 g) = Ok (mk r c (fun i j => if j =? k then g i 0 else f i j)).
Proof.
  intros Hk. unfold set_column, must_be_vector. rewrite is_vector_col. cbn [bind nc mk]. fold (mk r c f). rewrite npidx_nat by assumption. cbn [bind].
  set (v := if is_row_vector (mk r 1 g) then transpose (mk r 1 g) else mk r 1 g).
  assert (Hv : v = mk r 1 g).
  { unfold v. destruct (is_row_vector (mk r 1 g)) eqn:E; [|reflexivity]. unfold is_row_vector in E. cbn in E. apply andb_prop in E. destruct E as [_ E].
    apply Nat.eqb_eq in E. subst r. rewrite transpose_mk. apply mk_ext. intros i j Hi Hj. assert (i = 0) by lia. assert (j = 0) by lia. now subst. }
  rewrite Hv. cbn [nr mk]. fold (mk r 1 g). rewrite Nat.min_id. f_equal. apply mk_ext. intros i j Hi Hj.
  rewrite (proj2 (Nat.ltb_lt i r) Hi), andb_true_r. destruct (j =? k); rewrite entry_mk by lia; reflexivity.
Qed.
Lemma set_row_mk r c (f g : nat -> nat -> T) k : k < r -> 
  set_row (mk r c f) (Z.of_nat k) (mk 1 c g) = Ok (mk r c (fun i j => if i =? k then g 0 j else f i j)).
Proof.
  intros Hk. unfold set_row, must_be_vector. rewrite is_vector_row. cbn [bind nr mk]. fold (mk r c f). rewrite npidx_nat by assumption. cbn [bind].
  set (v := if is_column_vector (mk 1 c g) then transpose (mk 1 c g) else mk 1 c g).
  assert (Hv : v = mk 1 c g).
  { unfold v. destruct (is_column_vector (mk 1 c g)) eqn:E; [|reflexivity]. unfold is_column_vector in E. cbn in E.
    apply Nat.eqb_eq in E. subst c. rewrite transpose_mk. apply mk_ext. intros i j Hi Hj. assert (i = 0) by lia. assert (j = 0) by lia. now subst. }
  rewrite Hv. cbn [nc mk]. fold (mk 1 c g). rewrite Nat.min_id. f_equal. apply mk_ext. intros i j Hi Hj.
  rewrite (proj2 (Nat.ltb_lt j c) Hj), andb_true_r. destruct (i =? k); rewrite entry_mk by lia; reflexivity.
Qed.
Lemma get_column_mk r c (f : nat -> nat -> T) k : k < c -> get_column (mk r c f) (Z.of_nat k) = Ok (mk r 1 (fun i _ => f i k)).
Proof.
  intros Hk. unfold get_column. cbn [nc mk]. fold (mk r c f). rewrite npidx_nat by assumption. cbn [bind nr mk]. fold (mk r c f). rewrite transpose_mk. f_equal. apply mk_ext.
  intros i j Hi Hj. now rewrite entry_mk.
Qed.
Lemma get_row_mk r c (f : nat -> nat -> T) k : k < r -> get_row (mk r c f) (Z.of_nat k) = Ok (mk 1 c (fun _ j => f k j)).
Proof.
  intros Hk. unfold get_row. cbn [nr mk]. fold (mk r c f). rewrite npidx_nat by assumption. cbn [bind nc mk]. fold (mk r c f). f_equal. apply mk_ext.
  intros i j Hi Hj. now rewrite entry_mk.
Qed.
Lemma get_mk r c (f : nat -> nat -> T) i j : i < r -> j < c -> get (mk r c f) (Z.of_nat i) (Z.of_nat j) = Ok (f i j).
Proof. intros Hi Hj. rewrite get_nat by assumption. now rewrite entry_mk. Qed.
Lemma get_mk_0 r c (f : nat -> nat -> T) i : i < r -> 0 < c -> get (mk r c f) (Z.of_nat i) 0 = Ok (f i 0).
Proof. apply (get_mk r c f i 0). Qed.
Lemma set_mk r c (f : nat -> nat -> T) i j x : i < r -> j < c ->
  set (mk r c f) (Z.of_nat i) (Z.of_nat j) x = Ok (mk r c (fun a b => if (a =? i) && (b =? j) then x else f a b)).
Proof.
  intros Hi Hj. unfold set. cbn [nr nc mk]. fold (mk r c f). rewrite !npidx_nat by assumption. cbn [bind]. f_equal.
  apply mat_eq_mk; [apply set_entry_wf, mk_wf|reflexivity|reflexivity|]. intros a b Ha Hb. rewrite set_entry_entry by (assumption || apply mk_wf). now rewrite entry_mk.
Qed.
Lemma set_mk_0 r c (f : nat -> nat -> T) i x : i < r -> 0 < c ->
  set (mk r c f) (Z.of_nat i) 0 x = Ok (mk r c (fun a b => if (a =? i) && (b =? 0) then x else f a b)).
Proof. apply (set_mk r c f i 0). Qed.
Lemma as_real_mk (f : nat -> nat -> T) : as_real (mk 1 1 f) = Ok (f 0 0).
Proof. unfold as_real. cbn [nr nc mk Nat.eqb negb orb]. fold (mk 1 1 f). apply (get_mk 1 1 f 0 0); lia. Qed.
Lemma vector_dot_mk n (f g : nat -> nat -> T) : vector_dot (mk n 1 f) (mk n 1 g) = Ok (sumn n (fun k => nmul (f k 0) (g k 0))).
Proof.
  unfold vector_dot. rewrite !is_vector_col. unfold num_elements. cbn [nr nc mk negb orb]. fold (mk n 1 f). fold (mk n 1 g). rewrite !Nat.mul_1_r, Nat.eqb_refl. cbn [negb]. f_equal.
  apply sumn_ext. intros k Hk. unfold vec_entry. unfold is_column_vector. rewrite !is_vector_col. cbn [nc mk Nat.eqb andb]. fold (mk n 1 f). fold (mk n 1 g). now rewrite !entry_mk by lia.
Qed.
Lemma zeros_mk n m : n <> 0 -> zeros (T:=T) (Z.of_nat n) (Z.of_nat m) = mk n m (fun _ _ => n0).
Proof.
  intros Hn. unfold zeros. destruct (Z.eqb_spec (Z.of_nat m) (-1)); [lia|]. unfold rlen. rewrite !Nat2Z.id. unfold create. now rewrite np_array2_tab.
Qed.
Lemma filled_mk n m (x : T) : filled (Z.of_nat n) (Z.of_nat m) x = Ok (mk n m (fun _ _ => x)).
Proof.
  unfold filled. destruct (Z.ltb_spec (Z.of_nat n) 0); [lia|]. destruct (Z.ltb_spec (Z.of_nat m) 0); [lia|]. cbn [orb]. now rewrite !Nat2Z.id.
Qed.
Lemma wf_mk (m : mat T) : wf m -> m = mk (nr m) (nc m) (entry m).
Proof. intros W. symmetry. now apply mk_entry. Qed.
Lemma mk_inj_entry r c (f g : nat -> nat -> T) : mk r c f = mk r c g -> forall i j, i < r -> j < c -> f i j = g i j.
Proof. intros E i j Hi Hj. rewrite <- (entry_mk r c f i j), <- (entry_mk r c g i j) by assumption. now rewrite E. Qed.
Lemma num_elements_mk r c (f : nat -> nat -> T) : num_elements (mk r c f) = r * c. Proof. reflexivity. Qed.
End Tables.

(** Over the reals: norms of columns *)
Lemma norm2_squared_col n (f : nat -> nat -> R) : norm2_squared (mk n 1 f) = sumn n (fun k => (f k 0%nat * f k 0%nat)%R).
Proof.
  unfold norm2_squared, norm2. rewrite is_vector_col. rewrite frobenius_sumsq. cbn [nmul NumR]. rewrite sqrt_sqrt by apply sumsq_nonneg. unfold sumsq. cbn [nr nc mk].
  apply sumn_ext. intros i Hi. change 1 with (S 0). rewrite sumR_S, sumR_0, Rplus_0_l. now rewrite entry_mk by lia.
Qed.
Lemma norm2_col n (f : nat -> nat -> R) : norm2 (mk n 1 f) = sqrt (sumn n (fun k => (f k 0%nat * f k 0%nat)%R)).
Proof.
  rewrite <- norm2_squared_col. unfold norm2_squared. symmetry. apply sqrt_square. unfold norm2. rewrite is_vector_col. apply frobenius_nonneg.
Qed.
Lemma sum1 (f : nat -> R) : sumn 1 f = f 0. Proof. rewrite sumR_S, sumR_0. ring. Qed.
