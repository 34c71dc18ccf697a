(** Properties C01-C08: selection, transposition, products, element-wise
    operations, broadcasting, writes, concatenation, flattening. *)
From Coq Require Import List ZArith Lia Bool Arith Reals Lra.
From Verif Require Import Base Num Mat M_Matrix M_Factory M_Helper S_Matrix L_Base L_Mat L_Matrix L_MatR.
Import ListNotations.
Local Open Scope nat_scope.

(** A concrete 2 x 3 matrix of binary64 numbers used by the examples. *)
Definition exF (z : Z) : f64 := f_of_Z z.
Definition exA : mat f64 := Mat 2 3 [[exF 1; exF 2; exF 3]; [exF 4; exF 5; exF 6]].
Lemma exA_wf : wf exA. Proof. now apply wfb_wf. Qed.

(** * C01 *)
Theorem C01_get_sub_matrix {T} `{Num T} (m : mat T) (rows columns : sel) (rl cl : list Z) :
  denotes rows rl -> denotes columns cl ->
  (forall m', get_sub_matrix m rows columns = Ok m' ->
     wf m' /\ nr m' = length rl /\ nc m' = length cl /\
     forall i j, i < length rl -> j < length cl ->
       exists r c, addr (nr m) (nth i rl 0%Z) r /\ addr (nc m) (nth j cl 0%Z) c /\ entry m' i j = entry m r c) /\
  (forall e, get_sub_matrix m rows columns = Err e <->
     e = IndexError /\ rl <> [] /\ cl <> [] /\
     (Exists (out_of_range (nr m)) rl \/ Exists (out_of_range (nc m)) cl)).
Proof.
  intros Hr Hc. split.
  - intros m' Hm. eapply get_sub_matrix_ok; eauto.
  - intros e. apply get_sub_matrix_err; auto.
Qed.

(** get_rows / get_columns are the selections of all columns / rows. *)
Theorem C01_get_rows {T} `{Num T} (m : mat T) (rows : sel) (rl : list Z) :
  denotes rows rl ->
  (forall m', get_rows m rows = Ok m' ->
     wf m' /\ nr m' = length rl /\ nc m' = nc m /\
     forall i j, i < length rl -> j < nc m ->
       exists r, addr (nr m) (nth i rl 0%Z) r /\ entry m' i j = entry m r j) /\
  (forall e, get_rows m rows = Err e <->
     e = IndexError /\ rl <> [] /\ nc m <> 0 /\ Exists (out_of_range (nr m)) rl).
Proof.
  intros Hr. set (cl := pyrange 0 (Z.of_nat (nc m)) 1).
  assert (Hc : denotes (STuple 0 (Z.of_nat (nc m))) cl) by (apply (sel_indices_denotes (STuple 0 (Z.of_nat (nc m))))).
  assert (Hl : length cl = nc m) by (destruct Hc as [Hc _]; lia).
  destruct (C01_get_sub_matrix m rows _ rl cl Hr Hc) as [H1 H2]. destruct Hc as [_ Hn]. split.
  - intros m' Hm. destruct (H1 m' Hm) as (A & B & C & E). rewrite Hl in *. repeat split; try apply A; auto.
    intros i j Hi Hj. destruct (E i j Hi Hj) as (r & c & E1 & E2 & E3). exists r. split; auto.
    rewrite Hn in E2 by lia. destruct E2 as [E2 E4]. assert (j = c) by lia. subst c. exact E3.
  - intros e. unfold get_rows. rewrite H2. split; intros (E1 & E2 & E3 & E4).
    + repeat split; auto. { intro. apply E3. apply length_zero_iff_nil. lia. }
      destruct E4 as [E4|E4]; auto. exfalso. apply Exists_nth in E4. destruct E4 as (k & d & Hk & E4).
      rewrite (nth_indep _ d 0%Z) in E4 by assumption. rewrite Hn in E4 by lia. unfold out_of_range in E4. lia.
    + repeat split; auto. intros ->. cbn in Hl. lia.
Qed.

Theorem C01_get_columns {T} `{Num T} (m : mat T) (columns : sel) (cl : list Z) :
  denotes columns cl ->
  (forall m', get_columns m columns = Ok m' ->
     wf m' /\ nr m' = nr m /\ nc m' = length cl /\
     forall i j, i < nr m -> j < length cl ->
       exists c, addr (nc m) (nth j cl 0%Z) c /\ entry m' i j = entry m i c) /\
  (forall e, get_columns m columns = Err e <->
     e = IndexError /\ cl <> [] /\ nr m <> 0 /\ Exists (out_of_range (nc m)) cl).
Proof.
  intros Hc. set (rl := pyrange 0 (Z.of_nat (nr m)) 1).
  assert (Hr : denotes (STuple 0 (Z.of_nat (nr m))) rl) by (apply (sel_indices_denotes (STuple 0 (Z.of_nat (nr m))))).
  assert (Hl : length rl = nr m) by (destruct Hr as [Hr _]; lia).
  destruct (C01_get_sub_matrix m _ columns rl cl Hr Hc) as [H1 H2]. destruct Hr as [_ Hn]. split.
  - intros m' Hm. destruct (H1 m' Hm) as (A & B & C & E). rewrite Hl in *. repeat split; try apply A; auto.
    intros i j Hi Hj. destruct (E i j Hi Hj) as (r & c & E1 & E2 & E3). exists c. split; auto.
    rewrite Hn in E1 by lia. destruct E1 as [E1 E4]. assert (i = r) by lia. subst r. exact E3.
  - intros e. unfold get_columns. rewrite H2. split; intros (E1 & E2 & E3 & E4).
    + repeat split; auto. { intro. apply E2. apply length_zero_iff_nil. lia. }
      destruct E4 as [E4|E4]; auto. exfalso. apply Exists_nth in E4. destruct E4 as (k & d & Hk & E4).
      rewrite (nth_indep _ d 0%Z) in E4 by assumption. rewrite Hn in E4 by lia. unfold out_of_range in E4. lia.
    + repeat split; auto. intros ->. cbn in Hl. lia.
Qed.

Theorem C01_get_row_column {T} `{Num T} (m : mat T) (z : Z) :
  ((forall r, get_row m z = Ok r -> exists k, addr (nr m) z k /\ is_mat r 1 (nc m) (fun _ j => entry m k j)) /\
   (forall e, get_row m z = Err e <-> e = IndexError /\ out_of_range (nr m) z)) /\
  ((forall r, get_column m z = Ok r -> exists k, addr (nc m) z k /\ is_mat r (nr m) 1 (fun i _ => entry m i k)) /\
   (forall e, get_column m z = Err e <-> e = IndexError /\ out_of_range (nc m) z)).
Proof. split; [apply get_row_spec | apply get_column_spec]. Qed.

Theorem C01_get {T} `{Num T} (m : mat T) (row column : Z) :
  (forall x, get m row column = Ok x <->
     exists i j, addr (nr m) row i /\ addr (nc m) column j /\ x = entry m i j) /\
  (forall e, get m row column = Err e <->
     e = IndexError /\ (out_of_range (nr m) row \/ out_of_range (nc m) column)).
Proof. split; intros; [apply get_spec | apply get_err]. Qed.

(** head(n) keeps the first n rows (all but the last -n when n is negative). *)
Theorem C01_head {T} `{Num T} (m : mat T) (n : Z) :
  is_mat (head m n) (if (0 <=? n)%Z then Nat.min (nr m) (Z.to_nat n) else nr m - Z.to_nat (- n))
         (nc m) (entry m).
Proof. apply head_spec. Qed.

Example C01_ex_ok :
  get_sub_matrix exA (SList [-1; 0; 0]%Z) (STuple 1 3) =
  Ok (Mat 3 2 [[exF 5; exF 6]; [exF 2; exF 3]; [exF 2; exF 3]]).
Proof. vm_compute. reflexivity. Qed.
Example C01_ex_err : get_sub_matrix exA (SList [2]%Z) (STuple 0 3) = Err IndexError /\
  get_sub_matrix exA (SList [2]%Z) (STuple 0 0) = Ok (Mat 1 0 [[]]).
Proof. split; vm_compute; reflexivity. Qed.
Example C01_ex_denotes : denotes (STuple 1 3) [1; 2]%Z /\ denotes (SList [-1; 0; 0]%Z) [-1; 0; 0]%Z.
Proof. split; [split; [reflexivity|] | reflexivity]. intros [|[|k]] Hk; cbn in *; lia. Qed.
Print Assumptions C01_get_sub_matrix.
Print Assumptions C01_get_rows.
Print Assumptions C01_get_columns.

(** * C02 *)
Theorem C02_transpose {T} `{Num T} (m : mat T) : wf m ->
  is_mat (transpose m) (nc m) (nr m) (fun i j => entry m j i) /\
  transpose (transpose m) = m /\
  (forall s, get_rows (transpose m) s = map_res transpose (get_columns m s)).
Proof.
  intros Hm. split; [apply transpose_is_mat|]. split; [now apply transpose_transpose|].
  intros s.
  pose proof (sel_indices_denotes s) as Hs. set (l := sel_indices s) in *.
  destruct (C01_get_rows (transpose m) s l Hs) as [R1 R2].
  destruct (C01_get_columns m s l Hs) as [K1 K2]. 
  destruct (get_columns m s) as [a|e] eqn:Ea; cbn [map_res].
  - destruct (get_rows (transpose m) s) as [b|e] eqn:Eb.
    + f_equal. destruct (R1 b eq_refl) as (W1 & A1 & A2 & A3). destruct (K1 a eq_refl) as (W2 & B1 & B2 & B3).
      autorewrite with sh in *. rewrite <- (transpose_transpose b) by assumption. f_equal.
      apply mat_ext; auto using transpose_wf; autorewrite with sh; try lia.
      intros i j Hi Hj. rewrite transpose_entry by (autorewrite with sh in *; lia). rewrite A2 in Hi. rewrite A1 in Hj.
      destruct (A3 j i Hj Hi) as (r & E1 & E2). destruct (B3 i j Hi Hj) as (c & E3 & E4).
      assert (r = c) by (destruct E1, E3; lia). subst c.
      rewrite E2, E4. destruct E1 as [E1 _]. apply transpose_entry; lia.
    + exfalso. destruct (R2 e) as [R3 _]. destruct (R3 eq_refl) as (Q1 & Q2 & Q3 & Q4).
      destruct (K2 e) as [_ K3]. discriminate K3. autorewrite with sh in *. auto.
  - destruct (K2 e) as [K3 _]. destruct (K3 eq_refl) as (Q1 & Q2 & Q3 & Q4).
    apply R2. autorewrite with sh. auto.
Qed.

Example C02_ex : wf exA /\ transpose exA = Mat 3 2 [[exF 1; exF 4]; [exF 2; exF 5]; [exF 3; exF 6]].
Proof. split; [exact exA_wf | vm_compute; reflexivity]. Qed.
Print Assumptions C02_transpose.

(** * C03 *)
(** For every element type: guard and entries. *)
Theorem C03_mul {T} `{Num T} (a b : mat T) :
  (nc a <> nr b -> mul a b = Err ValueError) /\
  (nc a = nr b -> exists m, mul a b = Ok m /\
     is_mat m (nr a) (nc b) (fun i j => sumn (nc a) (fun k => nmul (entry a i k) (entry b k j)))).
Proof.
  split; [apply mul_spec|]. intros Hs. exists (matmul a b). split; [now apply mul_spec | apply matmul_is_mat].
Qed.

(** Exact arithmetic: the entries are the sums, and the ring laws hold, including
    the error behaviour (both sides raise for the same inputs). *)
Theorem C03_mul_real (a b : mat R) : nc a = nr b ->
  exists m, mul a b = Ok m /\
    is_mat m (nr a) (nc b) (fun i j => Rsum (nc a) (fun k => (entry a i k * entry b k j)%R)).
Proof.
  intros Hs. exists (matmul a b). split; [now apply mul_spec|].
  apply is_mat_mk_ext. intros. now rewrite Rsum_sumn.
Qed.

Theorem C03_assoc (a b c ab bc : mat R) : mul a b = Ok ab -> mul b c = Ok bc ->
  exists m, mul ab c = Ok m /\ mul a bc = Ok m.
Proof.
  unfold mul, is_multiplicable_with. intros H1 H2.
  destruct (Nat.eqb_spec (nc a) (nr b)); [|discriminate]. destruct (Nat.eqb_spec (nc b) (nr c)); [|discriminate].
  cbn in H1, H2. injection H1 as <-. injection H2 as <-. exists (matmul (matmul a b) c).
  autorewrite with sh. rewrite e, e0, !Nat.eqb_refl. cbn. split; auto. f_equal. symmetry. now apply matmul_assoc.
Qed.

Theorem C03_distr (a b c d : mat R) : same_shape b c -> nc a = nr b -> nc b = nr d ->
  (exists s ab ac, add b c = Ok s /\ mul a b = Ok ab /\ mul a c = Ok ac /\
     exists m, mul a s = Ok m /\ add ab ac = Ok m) /\
  (exists s bd cd, add b c = Ok s /\ mul b d = Ok bd /\ mul c d = Ok cd /\
     exists m, mul s d = Ok m /\ add bd cd = Ok m).
Proof.
  intros [S1 S2] Ha Hd. unfold add, mul, is_multiplicable_with. rewrite !must_be_same_shape_eq.
  unfold same_shape_as. rewrite S1, S2, !Nat.eqb_refl. cbn [andb bind]. split.
  - exists (map2_mat nadd b c), (matmul a b), (matmul a c). rewrite Ha, S1, Nat.eqb_refl. cbn [negb].
    repeat split; auto. autorewrite with sh. rewrite S1, Nat.eqb_refl. cbn [negb].
    rewrite must_be_same_shape_eq. unfold same_shape_as. autorewrite with sh. rewrite S2, !Nat.eqb_refl. cbn [andb bind].
    eexists. split; [reflexivity|]. f_equal. symmetry. apply matmul_add_r; lia.
  - exists (map2_mat nadd b c), (matmul b d), (matmul c d). rewrite <- S2, Hd, Nat.eqb_refl. cbn [negb].
    repeat split; auto. autorewrite with sh. rewrite Hd, Nat.eqb_refl. cbn [negb].
    rewrite must_be_same_shape_eq. unfold same_shape_as. autorewrite with sh. rewrite S1, !Nat.eqb_refl. cbn [andb bind].
    eexists. split; [reflexivity|]. f_equal. symmetry. apply matmul_add_l; lia.
Qed.

Theorem C03_unit (a il ir : mat R) : wf a ->
  eye (Z.of_nat (nr a)) (-1) = Ok il -> eye (Z.of_nat (nc a)) (-1) = Ok ir ->
  mul il a = Ok a /\ mul a ir = Ok a.
Proof.
  intros Ha. rewrite !eye_eyeR. intros [= <-] [= <-]. unfold mul, is_multiplicable_with.
  change (nc (eyeR (nr a))) with (nr a). change (nr (eyeR (nc a))) with (nc a). rewrite !Nat.eqb_refl. cbn [negb].
  now rewrite matmul_eye_l, matmul_eye_r.
Qed.

Theorem C03_transpose (a b m : mat R) : mul a b = Ok m ->
  mul (transpose b) (transpose a) = Ok (transpose m).
Proof.
  unfold mul, is_multiplicable_with. destruct (Nat.eqb_spec (nc a) (nr b)); [|discriminate]. cbn [negb].
  intros [= <-]. autorewrite with sh. rewrite e, Nat.eqb_refl. cbn [negb]. f_equal. symmetry. now apply transpose_matmul.
Qed.

Theorem C03_scalar {T} `{Num T} (a : mat T) (s : T) :
  is_mat (mul_scalar a s) (nr a) (nc a) (fun i j => nmul (entry a i j) s).
Proof. apply is_mat_mk. Qed.

Example C03_ex : mul exA (transpose exA) = Ok (Mat 2 2 [[exF 14; exF 32]; [exF 32; exF 77]]) /\ mul exA exA = Err ValueError.
Proof. split; vm_compute; reflexivity. Qed.
Print Assumptions C03_mul.
Print Assumptions C03_mul_real.
Print Assumptions C03_assoc.
Print Assumptions C03_distr.
Print Assumptions C03_unit.
Print Assumptions C03_transpose.

(** * C04 *)
Theorem C04_elementwise {T} `{Num T} (a b : mat T) :
  (same_shape a b ->
     (exists m, add a b = Ok m /\ is_mat m (nr a) (nc a) (fun i j => nadd (entry a i j) (entry b i j))) /\
     (exists m, sub a b = Ok m /\ is_mat m (nr a) (nc a) (fun i j => nsub (entry a i j) (entry b i j))) /\
     (exists m, mul_elementwise a b = Ok m /\ is_mat m (nr a) (nc a) (fun i j => nmul (entry a i j) (entry b i j))) /\
     (exists m, div_elementwise a b = Ok m /\ is_mat m (nr a) (nc a) (fun i j => ndiv (entry a i j) (entry b i j)))) /\
  (~ same_shape a b ->
     add a b = Err InvalidShapeError /\ sub a b = Err InvalidShapeError /\
     mul_elementwise a b = Err InvalidShapeError /\ div_elementwise a b = Err InvalidShapeError).
Proof.
  split.
  - intros Hs. repeat split.
    + now apply add_spec. + now apply sub_spec. + now apply mul_elementwise_spec. + now apply div_elementwise_spec.
  - intros Hs. repeat split.
    + now apply add_spec. + now apply sub_spec. + now apply mul_elementwise_spec. + now apply div_elementwise_spec.
Qed.

Theorem C04_scalar {T} `{Num T} (a : mat T) (s : T) :
  is_mat (add_scalar a s) (nr a) (nc a) (fun i j => nadd (entry a i j) s) /\
  is_mat (sub_scalar a s) (nr a) (nc a) (fun i j => nsub (entry a i j) s) /\
  is_mat (mul_scalar a s) (nr a) (nc a) (fun i j => nmul (entry a i j) s) /\
  is_mat (div_scalar a s) (nr a) (nc a) (fun i j => ndiv (entry a i j) s) /\
  is_mat (sqrt_mat a) (nr a) (nc a) (fun i j => nsqrt (entry a i j)).
Proof. repeat (split; [apply is_mat_mk|]). apply is_mat_mk. Qed.

Example C04_ex : add exA exA = Ok (Mat 2 3 [[exF 2; exF 4; exF 6]; [exF 8; exF 10; exF 12]]) /\
  add exA (Mat 1 3 [[exF 1; exF 2; exF 3]]) = Err InvalidShapeError.
Proof. split; vm_compute; reflexivity. Qed.
Print Assumptions C04_elementwise.

(** * C05 *)
Theorem C05_by_vector {T} `{Num T} (m v : mat T) (op : T -> T -> T) (f : mat T -> mat T -> res (mat T)) :
  In (op, f) [(nadd, add_by_vector); (nsub, sub_by_vector); (nmul, mul_by_vector);
              (nadd, add_by_vector_modify); (nsub, sub_by_vector_modify);
              (nmul, mul_by_vector_modify); (ndiv, div_by_vector_modify)] ->
  (row_shaped v -> nc v = nc m -> exists m', f m v = Ok m' /\
      is_mat m' (nr m) (nc m) (fun i j => op (entry m i j) (entry v 0 j))) /\
  (col_shaped v -> ~ row_shaped v -> nr v = nr m -> exists m', f m v = Ok m' /\
      is_mat m' (nr m) (nc m) (fun i j => op (entry m i j) (entry v i 0))) /\
  (~ (row_shaped v /\ nc v = nc m) -> ~ (col_shaped v /\ ~ row_shaped v /\ nr v = nr m) ->
     f m v = Err ValueError).
Proof.
  cbn [In]. intros Hin. repeat destruct Hin as [Hin|Hin]; try contradiction; injection Hin as <- <-; apply vector_op_spec.
Qed.

Theorem C05_scale_by_row_vector {T} `{Num T} (m v : mat T) :
  (~ col_shaped v -> scale_by_row_vector m v = Err ValueError) /\
  (col_shaped v -> nc m <> nr v -> scale_by_row_vector m v = Err InvalidShapeError) /\
  (col_shaped v -> nc m = nr v -> exists m', scale_by_row_vector m v = Ok m' /\
     is_mat m' (nr m) (nc m) (fun i j => nmul (entry m i j) (entry v j 0))).
Proof. apply scale_by_row_vector_spec. Qed.

(** scale_by_column_vector refuses one legitimate shape: a 1 x 1 vector for a
    matrix with one row and several columns. *)
Theorem C05_scale_by_column_vector {T} `{Num T} (m v : mat T) :
  (~ col_shaped v -> scale_by_column_vector m v = Err ValueError) /\
  (col_shaped v -> nr m <> nr v -> scale_by_column_vector m v = Err InvalidShapeError) /\
  (col_shaped v -> nr m = nr v -> nr v <> 1 \/ nc m = 1 -> exists m', scale_by_column_vector m v = Ok m' /\
     is_mat m' (nr m) (nc m) (fun i j => nmul (entry m i j) (entry v i 0))) /\
  (col_shaped v -> nr m = nr v -> nr v = 1 -> nc m <> 1 -> scale_by_column_vector m v = Err ValueError).
Proof. apply scale_by_column_vector_spec. Qed.

Example C05_ex :
  sub_by_vector exA (Mat 1 3 [[exF 1; exF 1; exF 1]]) = Ok (Mat 2 3 [[exF 0; exF 1; exF 2]; [exF 3; exF 4; exF 5]]) /\
  sub_by_vector exA (Mat 2 1 [[exF 1]; [exF 2]]) = Ok (Mat 2 3 [[exF 0; exF 1; exF 2]; [exF 2; exF 3; exF 4]]) /\
  sub_by_vector exA (Mat 1 1 [[exF 1]]) = Err ValueError.
Proof. repeat split; vm_compute; reflexivity. Qed.
Print Assumptions C05_by_vector.
Print Assumptions C05_scale_by_row_vector.
Print Assumptions C05_scale_by_column_vector.

(** * C06 *)
Theorem C06_set {T} `{Num T} (m : mat T) (row column : Z) (x : T) : wf m ->
  (forall m', set m row column x = Ok m' ->
     get m' row column = Ok x /\
     exists i j, addr (nr m) row i /\ addr (nc m) column j /\
       is_mat m' (nr m) (nc m) (fun r c => if (r =? i) && (c =? j) then x else entry m r c)) /\
  (forall e, set m row column x = Err e <->
     e = IndexError /\ (out_of_range (nr m) row \/ out_of_range (nc m) column)).
Proof.
  intros Hm. destruct (set_spec m row column x Hm) as [S1 S2]. split; auto.
  intros m' Hs. destruct (S1 m' Hs) as (i & j & A1 & A2 & A3). split; [|eauto 6].
  destruct A3 as (W & B1 & B2 & B3). apply get_spec. exists i, j. rewrite B1, B2. repeat split; try apply A1; try apply A2.
  rewrite B3 by (apply A1 || apply A2). now rewrite !Nat.eqb_refl.
Qed.

Theorem C06_set_row {T} `{Num T} (m v : mat T) (row : Z) : wf v ->
  (forall m', set_row m row v = Ok m' -> vector_shaped v /\ exists i, addr (nr m) row i /\
     is_mat m' (nr m) (nc m) (fun r c =>
       if (r =? i) && (c <? vec_len v) then vec_at v c else entry m r c)) /\
  (forall e, set_row m row v = Err e <->
     (e = ValueError /\ ~ vector_shaped v) \/ (e = IndexError /\ vector_shaped v /\ out_of_range (nr m) row)).
Proof. apply set_row_spec. Qed.

Theorem C06_set_column {T} `{Num T} (m v : mat T) (column : Z) : wf v ->
  (forall m', set_column m column v = Ok m' -> vector_shaped v /\ exists j, addr (nc m) column j /\
     is_mat m' (nr m) (nc m) (fun r c =>
       if (c =? j) && (r <? vec_len v) then vec_at v r else entry m r c)) /\
  (forall e, set_column m column v = Err e <->
     (e = ValueError /\ ~ vector_shaped v) \/ (e = IndexError /\ vector_shaped v /\ out_of_range (nc m) column)).
Proof.
  intros Hv. destruct (set_column_spec m column v Hv) as [S1 S2]. split; auto.
  intros m' Hs. destruct (S1 m' Hs) as (V & j & A & B). split; auto. exists j. split; auto.
  destruct B as (W & B1 & B2 & B3). repeat split; try apply W; auto.
  intros r c Hr Hc. rewrite B3 by assumption. unfold vec_len_c, vec_at_c, vec_len, vec_at.
  unfold vector_shaped in V.
  destruct (Nat.eqb_spec (nc v) 1) as [E|E], (Nat.eqb_spec (nr v) 1) as [E'|E']; try lia; auto.
  rewrite E, E'. destruct (c =? j); cbn [andb]; auto. destruct (Nat.ltb_spec r 1); auto. now replace r with 0 by lia.
Qed.

(** Every history of writes: a write either succeeds or raises and changes
    nothing; the final matrix has the initial shape, and every cell holds the
    value of the last successful write that addressed it. *)
Inductive write_op {T} : Type :=
| WSet (row column : Z) (x : T)
| WSetRow (row : Z) (v : mat T)
| WSetCol (column : Z) (v : mat T).
Arguments write_op T : clear implicits.
Definition run_write {T} `{Num T} (m : mat T) (w : write_op T) : mat T :=
  match (match w with
         | WSet r c x => set m r c x
         | WSetRow r v => set_row m r v
         | WSetCol c v => set_column m c v
         end) with Ok m' => m' | Err _ => m end.
(** What a write does to cell (i,j) of an R x C matrix: None = does not touch it. *)
Definition touches {T} `{Num T} (R C : nat) (w : write_op T) (i j : nat) (x : option T) : Prop :=
  match w with
  | WSet r c y => (addr R r i /\ addr C c j /\ x = Some y) \/ (~ (addr R r i /\ addr C c j) /\ x = None)
  | WSetRow r v => (vector_shaped v /\ addr R r i /\ j < vec_len v /\ x = Some (vec_at v j)) \/
                   (~ (vector_shaped v /\ addr R r i /\ j < vec_len v) /\ x = None)
  | WSetCol c v => (vector_shaped v /\ addr C c j /\ i < vec_len v /\ x = Some (vec_at v i)) \/
                   (~ (vector_shaped v /\ addr C c j /\ i < vec_len v) /\ x = None)
  end.
(** Value of cell (i,j) after a history, starting from x0. *)
Inductive last_written {T} `{Num T} (R C i j : nat) (x0 : T) : list (write_op T) -> T -> Prop :=
| lw_nil : last_written R C i j x0 [] x0
| lw_hit ws w x y : last_written R C i j x0 ws x -> touches R C w i j (Some y) -> last_written R C i j x0 (ws ++ [w]) y
| lw_miss ws w x : last_written R C i j x0 ws x -> touches R C w i j None -> last_written R C i j x0 (ws ++ [w]) x.

Definition op_wf {T} (w : write_op T) : Prop :=
  match w with WSet _ _ _ => True | WSetRow _ v => wf v | WSetCol _ v => wf v end.

Lemma addr_dec n z k : {addr n z k} + {~ addr n z k}.
Proof.
  unfold addr. destruct (lt_dec k n), (Z.eq_dec z (Z.of_nat k)), (Z.eq_dec z (Z.of_nat k - Z.of_nat n));
    ((left; intuition; fail) || (right; intuition lia)).
Qed.
Lemma addr_fun n z k k' : addr n z k -> addr n z k' -> k = k'.
Proof. unfold addr. lia. Qed.
Lemma addr_oor n z k : addr n z k -> out_of_range n z -> False.
Proof. unfold addr, out_of_range. lia. Qed.
Lemma vector_shaped_dec {T} (v : mat T) : {vector_shaped v} + {~ vector_shaped v}.
Proof.
  unfold vector_shaped. destruct (Nat.eq_dec (nr v) 1), (Nat.eq_dec (nc v) 1); ((left; tauto) || (right; tauto)).
Qed.

Lemma run_write_step {T} `{Num T} (m : mat T) w : wf m -> op_wf w ->
  wf (run_write m w) /\ nr (run_write m w) = nr m /\ nc (run_write m w) = nc m /\
  forall i j, i < nr m -> j < nc m ->
    exists o, touches (nr m) (nc m) w i j o /\
      entry (run_write m w) i j = match o with Some y => y | None => entry m i j end.
Proof.
  intros Hm Hw. destruct w as [r c x|r v|c v]; unfold run_write; cbn [op_wf touches] in *.
  - destruct (C06_set m r c x Hm) as [S1 S2].
    destruct (set m r c x) as [m'|e] eqn:E.
    + destruct (S1 m' eq_refl) as (_ & i0 & j0 & A1 & A2 & W & B1 & B2 & B3).
      repeat split; try apply W; auto. intros i j Hi Hj. rewrite B3 by assumption.
      destruct (Nat.eqb_spec i i0) as [->|Ni], (Nat.eqb_spec j j0) as [->|Nj]; cbn [andb].
      * exists (Some x). split; [left|]; auto.
      * exists None. split; [right; split|]; auto. intros [_ Q]. now apply Nj, (addr_fun _ _ _ _ Q A2).
      * exists None. split; [right; split|]; auto. intros [Q _]. now apply Ni, (addr_fun _ _ _ _ Q A1).
      * exists None. split; [right; split|]; auto. intros [Q _]. now apply Ni, (addr_fun _ _ _ _ Q A1).
    + destruct (proj1 (S2 e) eq_refl) as [_ Ho]. repeat split; try apply Hm; auto. intros i j Hi Hj.
      exists None. split; auto. right. split; auto. intros [Q1 Q2].
      destruct Ho as [Ho|Ho]; [apply (addr_oor _ _ _ Q1 Ho)|apply (addr_oor _ _ _ Q2 Ho)].
  - destruct (C06_set_row m v r Hw) as [S1 S2].
    destruct (set_row m r v) as [m'|e] eqn:E.
    + destruct (S1 m' eq_refl) as (V & i0 & A1 & W & B1 & B2 & B3).
      repeat split; try apply W; auto. intros i j Hi Hj. rewrite B3 by assumption.
      destruct (Nat.eqb_spec i i0) as [->|Ni], (Nat.ltb_spec j (vec_len v)); cbn [andb].
      * exists (Some (vec_at v j)). split; [left|]; auto.
      * exists None. split; [right; split|]; auto. intros (_ & _ & Q). lia.
      * exists None. split; [right; split|]; auto. intros (_ & Q & _). now apply Ni, (addr_fun _ _ _ _ Q A1).
      * exists None. split; [right; split|]; auto. intros (_ & Q & _). now apply Ni, (addr_fun _ _ _ _ Q A1).
    + pose proof (proj1 (S2 e) eq_refl) as Ho. repeat split; try apply Hm; auto. intros i j Hi Hj.
      exists None. split; auto. right. split; auto. intros (Q0 & Q1 & Q2).
      destruct Ho as [[_ Ho]|(_ & _ & Ho)]; [now apply Ho|apply (addr_oor _ _ _ Q1 Ho)].
  - destruct (C06_set_column m v c Hw) as [S1 S2].
    destruct (set_column m c v) as [m'|e] eqn:E.
    + destruct (S1 m' eq_refl) as (V & j0 & A1 & W & B1 & B2 & B3).
      repeat split; try apply W; auto. intros i j Hi Hj. rewrite B3 by assumption.
      destruct (Nat.eqb_spec j j0) as [->|Ni], (Nat.ltb_spec i (vec_len v)); cbn [andb].
      * exists (Some (vec_at v i)). split; [left|]; auto.
      * exists None. split; [right; split|]; auto. intros (_ & _ & Q). lia.
      * exists None. split; [right; split|]; auto. intros (_ & Q & _). now apply Ni, (addr_fun _ _ _ _ Q A1).
      * exists None. split; [right; split|]; auto. intros (_ & Q & _). now apply Ni, (addr_fun _ _ _ _ Q A1).
    + pose proof (proj1 (S2 e) eq_refl) as Ho. repeat split; try apply Hm; auto. intros i j Hi Hj.
      exists None. split; auto. right. split; auto. intros (Q0 & Q1 & Q2).
      destruct Ho as [[_ Ho]|(_ & _ & Ho)]; [now apply Ho|apply (addr_oor _ _ _ Q1 Ho)].
Qed.

Theorem C06_history {T} `{Num T} (m : mat T) (ws : list (write_op T)) :
  wf m -> Forall op_wf ws ->
  let m' := fold_left run_write ws m in
  wf m' /\ nr m' = nr m /\ nc m' = nc m /\
  forall i j, i < nr m -> j < nc m -> last_written (nr m) (nc m) i j (entry m i j) ws (entry m' i j).
Proof.
  intros Hm. induction ws as [|w ws IH] using rev_ind; intros Hws.
  - cbn. repeat split; try apply Hm; auto. intros. constructor.
  - apply Forall_app in Hws. destruct Hws as [H1 H2]. apply Forall_inv in H2.
    rewrite fold_left_app. cbn [fold_left]. destruct (IH H1) as (W & E1 & E2 & E3).
    set (m1 := fold_left run_write ws m) in *.
    destruct (run_write_step m1 w W H2) as (W' & F1 & F2 & F3).
    cbn zeta. repeat split; try apply W'; try congruence. intros i j Hi Hj.
    rewrite <- E1 in Hi. rewrite <- E2 in Hj. destruct (F3 i j Hi Hj) as ([y|] & G1 & G2); rewrite E1, E2 in *.
    + rewrite G2. eapply lw_hit; eauto.
    + rewrite G2. eapply lw_miss; eauto.
Qed.

Example C06_ex :
  fold_left run_write [WSet (-1) 0 (exF 9); WSetRow 0 (Mat 2 1 [[exF 7]; [exF 8]]);
                       WSet 5 0 (exF 1); WSetCol 2 (Mat 1 3 [[exF 0; exF 0; exF 0]])] exA =
  Mat 2 3 [[exF 7; exF 8; exF 0]; [exF 9; exF 5; exF 0]].
Proof. vm_compute. reflexivity. Qed.
Print Assumptions C06_set.
Print Assumptions C06_set_row.
Print Assumptions C06_set_column.
Print Assumptions C06_history.

(** * C07 *)
Theorem C07_concat_columns {T} `{Num T} (a b : mat T) : wf a -> wf b ->
  (nr a <> nr b -> concat_along_columns a b = Err ValueError) /\
  (nr a = nr b -> exists m, concat_along_columns a b = Ok m /\
     is_mat m (nr a) (nc a + nc b) (fun i j => if j <? nc a then entry a i j else entry b i (j - nc a)) /\
     get_columns m (STuple 0 (Z.of_nat (nc a))) = Ok a /\
     get_columns m (STuple (Z.of_nat (nc a)) (Z.of_nat (nc a + nc b))) = Ok b).
Proof.
  intros Ha Hb. split; [apply concat_columns_err|]. intros Hs.
  destruct (concat_columns_ok a b Ha Hb Hs) as (m & E1 & E2). exists m. split; auto. split; auto.
  now apply concat_columns_split.
Qed.

Theorem C07_concat_rows {T} `{Num T} (a b : mat T) : wf a -> wf b ->
  (nc a <> nc b -> concat_along_rows a b = Err ValueError) /\
  (nc a = nc b -> exists m, concat_along_rows a b = Ok m /\
     is_mat m (nr a + nr b) (nc a) (fun i j => if i <? nr a then entry a i j else entry b (i - nr a) j) /\
     get_rows m (STuple 0 (Z.of_nat (nr a))) = Ok a /\
     get_rows m (STuple (Z.of_nat (nr a)) (Z.of_nat (nr a + nr b))) = Ok b).
Proof.
  intros Ha Hb. split; [apply concat_rows_err|]. intros Hs.
  destruct (concat_rows_ok a b Ha Hb Hs) as (m & E1 & E2). exists m. split; auto. split; auto.
  now apply concat_rows_split.
Qed.

(** Splitting at any column and concatenating again gives back the matrix. *)
Theorem C07_split {T} `{Num T} (m : mat T) (k : nat) : wf m -> k <= nc m ->
  exists a b, get_columns m (STuple 0 (Z.of_nat k)) = Ok a /\
              get_columns m (STuple (Z.of_nat k) (Z.of_nat (nc m))) = Ok b /\
              concat_along_columns a b = Ok m.
Proof. apply split_concat_columns. Qed.

Theorem C07_assoc {T} `{Num T} (a b c : mat T) : wf a -> wf b -> wf c ->
  (forall x y, concat_along_columns a b = Ok x -> concat_along_columns b c = Ok y ->
     concat_along_columns x c = concat_along_columns a y) /\
  (forall x y, concat_along_rows a b = Ok x -> concat_along_rows b c = Ok y ->
     concat_along_rows x c = concat_along_rows a y).
Proof.
  intros Ha Hb Hc. split; intros x y H1 H2; [exact (concat_columns_assoc a b c x y Ha Hb Hc H1 H2) | exact (concat_rows_assoc a b c x y H1 H2)].
Qed.

(** multi_concat: the k-th argument occupies the columns after those of the
    arguments before it. *)
Definition widths {T} (l : list (mat T)) : nat := fold_right (fun m n => nc m + n) 0 l.
Lemma widths_app {T} (l l' : list (mat T)) : widths (l ++ l') = widths l + widths l'.
Proof. induction l as [|m l IH]; cbn; [reflexivity|]. unfold widths in *. rewrite IH. lia. Qed.

Lemma multi_concat_snoc {T} `{Num T} axis (l : list (mat T)) m : l <> [] ->
  multi_concat axis (l ++ [m]) = do a <- multi_concat axis l; concat a m axis.
Proof. destruct l as [|m0 l]; [congruence|]. intros _. cbn [multi_concat app]. now rewrite fold_left_app. Qed.

Theorem C07_multi_concat {T} `{Num T} (l : list (mat T)) (m : mat T) :
  Forall wf (m :: l) ->
  multi_concat 1 ([] : list (mat T)) = Err ValueError /\
  (Forall (fun x => nr x = nr m) l -> exists c, multi_concat 1 (m :: l) = Ok c /\
     wf c /\ nr c = nr m /\ nc c = widths (m :: l) /\
     forall pre x post, m :: l = pre ++ x :: post ->
       get_columns c (STuple (Z.of_nat (widths pre)) (Z.of_nat (widths pre + nc x))) = Ok x) /\
  (Exists (fun x => nr x <> nr m) l -> multi_concat 1 (m :: l) = Err ValueError).
Proof.
  intros Hl. split; [reflexivity|]. split.
  - intros Hs. induction l as [|y l IH] using rev_ind.
    + exists m. cbn [multi_concat fold_left Z.eqb orb]. inversion Hl; subst. split; auto. split; auto. split; auto.
      split; [cbn; lia|]. intros pre x post He.
      destruct pre as [|p pre]; [|destruct pre; discriminate He]. injection He as <- <-. cbn [widths fold_right].
      replace (Z.of_nat (0 + nc m)) with (Z.of_nat (nc m)) by (f_equal; lia).
      change (Z.of_nat 0) with 0%Z. 
      pose proof (get_columns_range m 0 (nc m)) as Hg. cbn [Z.of_nat] in Hg. rewrite Hg by lia.
      f_equal. rewrite Nat.sub_0_r. symmetry. apply mat_eq_mk; auto.
    + assert (Hl1 : Forall wf (m :: l)) by (apply Forall_app with (l1 := m :: l) (l2 := [y]) in Hl; apply Hl).
      assert (Hy : wf y) by (apply Forall_app with (l1 := m :: l) (l2 := [y]) in Hl; destruct Hl as [_ Hl]; now inversion Hl).
      apply Forall_app in Hs. destruct Hs as [Hs1 Hs2]. apply Forall_inv in Hs2.
      destruct (IH Hl1 Hs1) as (c & E & W & R1 & C1 & G).
      change (m :: l ++ [y]) with ((m :: l) ++ [y]). rewrite multi_concat_snoc by discriminate. rewrite E. cbn [bind].
      destruct (C07_concat_columns c y W Hy) as [_ HC]. destruct (HC ltac:(lia)) as (d & D1 & D2 & D3 & D4).
      exists d. split; [exact D1|]. destruct D2 as (Wd & N1 & N2 & N3).
      split; auto. split; [lia|]. split; [rewrite widths_app; rewrite N2, C1; cbn; lia|].
      intros pre x post He.
      destruct post as [|q post'] using rev_ind.
      * apply app_inj_tail in He. destruct He as [<- <-]. rewrite <- C1. exact D4.
      * clear IHpost'. rewrite app_comm_cons, app_assoc in He. apply app_inj_tail in He. destruct He as [He <-].
        specialize (G _ _ _ He). 
        assert (Hw : widths pre + nc x <= nc c).
        { rewrite C1, He, widths_app. cbn [widths fold_right]. unfold widths. lia. }
        rewrite get_columns_range by (rewrite N2; lia).
        rewrite get_columns_range in G by lia. injection G as G. f_equal. refine (eq_trans _ G). rewrite N1.
        apply mk_ext. intros i j Hi Hj. rewrite N3 by lia. destruct (Nat.ltb_spec (widths pre + j) (nc c)); [reflexivity|lia].
  - intros He.
    assert (Hf : forall k (acc : res (mat T)), (exists e, acc = Err e /\ e = ValueError) ->
       fold_left (fun acc x => do a <- acc; concat a x 1) k acc = Err ValueError).
    { intros k. induction k as [|z k IHk]; intros acc (e & -> & ->); cbn; [reflexivity|]. apply IHk. eauto. }
    cbn [multi_concat Z.eqb orb].
    assert (Hg : forall k (c : mat T), wf c -> nr c = nr m -> Forall wf k -> Exists (fun x => nr x <> nr m) k ->
      fold_left (fun acc x => do a <- acc; concat a x 1) k (Ok c) = Err ValueError).
    { intros k. induction k as [|z k IHk]; intros c Wc Hc Wk Hk; [inversion Hk|]. cbn [fold_left bind].
      inversion Wk; subst.
      destruct (C07_concat_columns c z Wc H2) as [Q1 Q2].
      destruct (Nat.eq_dec (nr z) (nr m)) as [Ez|Ez].
      - destruct (Q2 ltac:(lia)) as (d & D1 & (D2 & D2' & _) & _). change (concat c z 1) with (concat_along_columns c z). rewrite D1. apply IHk; auto; [lia|].
        inversion Hk; subst; auto. contradiction.
      - change (concat c z 1) with (concat_along_columns c z). rewrite Q1 by lia. apply Hf. eauto. }
    inversion Hl; subst. apply Hg; auto.
Qed.

Example C07_ex : concat_along_columns exA (Mat 2 1 [[exF 7]; [exF 8]]) =
    Ok (Mat 2 4 [[exF 1; exF 2; exF 3; exF 7]; [exF 4; exF 5; exF 6; exF 8]]) /\
  concat_along_columns exA (transpose exA) = Err ValueError /\
  multi_concat 1 [Mat 1 1 [[exF 1]]; Mat 1 0 [[]]; Mat 1 2 [[exF 2; exF 3]]] = Ok (Mat 1 3 [[exF 1; exF 2; exF 3]]).
Proof. repeat split; vm_compute; reflexivity. Qed.
Print Assumptions C07_concat_columns.
Print Assumptions C07_concat_rows.
Print Assumptions C07_split.
Print Assumptions C07_assoc.
Print Assumptions C07_multi_concat.

(** * C08 *)
Theorem C08_flatten {T} `{Num T} (m : mat T) : wf m ->
  length (to_raw_copy_1D m) = nr m * nc m /\
  (forall d r c, r < nr m -> c < nc m -> nth (c * nr m + r) (to_raw_copy_1D m) d = entry m r c) /\
  length (to_raw_copy_2D m) = nr m /\
  (forall r c, r < nr m -> c < nc m -> nth c (nth r (to_raw_copy_2D m) []) n0 = entry m r c) /\
  (nr m <> 0 -> create (to_raw_copy_2D m) = m) /\
  (nr m = 0 -> create (to_raw_copy_2D m) = Mat 1 0 [[]]).
Proof.
  intros Hm. split; [apply to_raw_copy_1D_length|]. split; [intros; now apply to_raw_copy_1D_nth|].
  rewrite to_raw_copy_2D_rows by assumption. split; [apply Hm|]. split; [reflexivity|].
  split; intros; unfold create; [now apply np_array2_rows | now apply np_array2_0].
Qed.
Example C08_ex : to_raw_copy_1D exA = map exF [1; 4; 2; 5; 3; 6]%Z /\ create (to_raw_copy_2D exA) = exA.
Proof. split; vm_compute; reflexivity. Qed.
Print Assumptions C08_flatten.
