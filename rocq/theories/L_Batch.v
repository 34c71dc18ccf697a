(** Functions of matrices that treat every row on its own. *)
From Coq Require Import List ZArith Lia Bool Arith.
From Verif Require Import Base Num Mat M_Matrix M_Factory M_Helper M_Loop M_Utils M_Transform M_PLSBase M_PLS M_PLS2 M_Kernel.
From Verif Require Import S_Matrix L_Base L_Mat L_Matrix L_Alg.
Import ListNotations.
Local Open Scope nat_scope.

Section Batch.
Context {T : Type} `{Num T}.

(** the rows with the indices l, in this order *)
Definition take_rows (l : list nat) (X : mat T) : mat T := mk (length l) (nc X) (fun i j => entry X (nth i l 0) j).
(** f keeps the number of rows, and selecting rows before or after f is the same *)
Definition rowwise (f : mat T -> res (mat T)) : Prop := forall X R, wf X -> nr X <> 0 -> f X = Ok R ->
  wf R /\ nr R = nr X /\ forall l, l <> [] -> (forall i, In i l -> i < nr X) -> f (take_rows l X) = Ok (take_rows l R).

Lemma take_mk l r c (f : nat -> nat -> T) : (forall i, In i l -> i < r) -> take_rows l (mk r c f) = mk (length l) c (fun i j => f (nth i l 0) j).
Proof. intros Hl. unfold take_rows. apply mk_ext. intros i j Hi Hj. cbn [nc mk] in Hj. rewrite entry_mk; [reflexivity| |exact Hj]. apply Hl, nth_In, Hi. Qed.
Lemma take_entry l X i j : i < length l -> j < nc X -> entry (take_rows l X) i j = entry X (nth i l 0) j.
Proof. intros Hi Hj. unfold take_rows. now rewrite entry_mk. Qed.
Lemma len_nil (l : list nat) : l <> [] -> length l <> 0. Proof. destruct l; [contradiction|discriminate]. Qed.
Lemma take_wf l X : wf (take_rows l X). Proof. apply mk_wf. Qed.

Lemma rowwise_ext f g : (forall X, f X = g X) -> rowwise f -> rowwise g.
Proof. intros E Hf X R W N Eg. rewrite <- E in Eg. destruct (Hf X R W N Eg) as (A & B & C). split; [exact A|]. split; [exact B|]. intros l L1 L2. rewrite <- E. now apply C. Qed.
Lemma rowwise_id : rowwise Ok.
Proof. intros X R W N E. injection E as <-. auto. Qed.
Lemma rowwise_err e : rowwise (fun _ => Err e).
Proof. intros X R W N E. discriminate. Qed.
Lemma rowwise_bind f g : rowwise f -> rowwise g -> rowwise (fun X => do Y <- f X; g Y).
Proof.
  intros Hf Hg X R W N E. destruct (f X) as [Y|] eqn:Ef; [|discriminate]. cbn [bind] in E. destruct (Hf X Y W N Ef) as (WY & NY & LY).
  destruct (Hg Y R WY ltac:(congruence) E) as (WR & NR & LR). split; [exact WR|]. split; [congruence|]. intros l L1 L2. rewrite LY by assumption. cbn [bind]. apply LR; [exact L1|]. now rewrite NY.
Qed.
(** a step that does not look at the rows *)
Lemma rowwise_const {A} (r : res A) f : (forall a, r = Ok a -> rowwise (f a)) -> rowwise (fun X => do a <- r; f a X).
Proof. intros Hf. destruct r as [a|e]; [apply (Hf a eq_refl)|apply rowwise_err]. Qed.
(** a pointwise result *)
Lemma rowwise_mul B : rowwise (fun X => mul X B).
Proof.
  intros X R W N. unfold mul, is_multiplicable_with. destruct (Nat.eqb_spec (nc X) (nr B)) as [E|]; [|discriminate]. intros [= <-].
  split; [apply mk_wf|]. split; [reflexivity|]. intros l L1 L2. cbn [nc mk take_rows]. rewrite E, Nat.eqb_refl. cbn [negb]. f_equal. unfold matmul. rewrite take_mk by exact L2.
  cbn [nr nc mk take_rows]. apply mk_ext. intros i j Hi Hj. apply sumn_ext. intros k Hk. now rewrite take_entry.
Qed.
Lemma rowwise_map op : rowwise (fun X => Ok (map_mat op X)).
Proof.
  intros X R W N [= <-]. split; [apply mk_wf|]. split; [reflexivity|]. intros l L1 L2. f_equal. unfold map_mat. rewrite take_mk by exact L2. cbn [nr nc mk take_rows].
  apply mk_ext. intros i j Hi Hj. now rewrite take_entry.
Qed.
(** a vector operation with a row vector *)
Lemma rowwise_vector op v : nr v = 1 -> rowwise (fun X => vector_op_modify op X v).
Proof.
  intros Hv X R W N. unfold vector_op_modify, must_be_vector, vector_size_matches, is_row_vector, is_vector. rewrite Hv. cbn [Nat.eqb orb andb negb bind].
  destruct (Nat.eqb_spec (nc X) (nc v)) as [E|]; [|discriminate]. cbn [negb]. intros [= <-]. split; [apply mk_wf|]. split; [reflexivity|]. intros l L1 L2.
  cbn [nc mk take_rows]. rewrite E, Nat.eqb_refl. cbn [negb]. f_equal. unfold broadcast_op. rewrite take_mk by exact L2. rewrite Hv. cbn [Nat.eqb nr nc mk take_rows].
  apply mk_ext. intros i j Hi Hj. now rewrite take_entry.
Qed.
Lemma rowwise_scale v : rowwise (fun X => scale_by_row_vector X v).
Proof.
  unfold scale_by_row_vector. intros X R W N. unfold must_be_column_vector, is_column_vector, is_vector. destruct (Nat.eqb_spec (nc v) 1) as [E|]; [|rewrite andb_false_r; discriminate].
  rewrite orb_true_r. cbn [andb bind]. unfold dimensions_must_match. cbn [negb orb andb]. rewrite !andb_true_r. destruct (Nat.eqb_spec (nc X) (nr v)) as [E'|]; [|discriminate]. cbn [bind]. intros ER.
  destruct (rowwise_vector nmul (transpose v) E X R W N ER) as (A & B & C). split; [exact A|]. split; [exact B|]. intros l L1 L2. cbn [nc mk take_rows]. rewrite E', Nat.eqb_refl. cbn [bind]. now apply C.
Qed.
(** two results combined entry by entry *)
Lemma rowwise_sub f g : rowwise f -> rowwise g -> rowwise (fun X => do A <- f X; do B <- g X; sub A B).
Proof.
  intros Hf Hg X R W N E. destruct (f X) as [A|] eqn:Ef; [|discriminate]. destruct (g X) as [B|] eqn:Eg; [|discriminate]. cbn [bind] in E.
  destruct (Hf X A W N Ef) as (WA & NA & LA). destruct (Hg X B W N Eg) as (WB & NB & LB).
  unfold sub, must_be_same_shape, dimensions_must_match in E. cbn [negb orb andb] in E. rewrite !andb_true_r in E. destruct (Nat.eqb_spec (nr A) (nr B)) as [E1|]; [|discriminate]. destruct (Nat.eqb_spec (nc A) (nc B)) as [E2|]; [|discriminate].
  cbn [andb bind] in E. injection E as <-. split; [apply mk_wf|]. split; [exact NA|]. intros l L1 L2. rewrite LA, LB by assumption. cbn [bind]. unfold take_rows. rewrite E2, sub_mk. f_equal.
  symmetry. unfold map2_mat. cbn [nc mk]. rewrite E2. apply mk_ext. intros i j Hi Hj. rewrite entry_mk; [reflexivity| |lia]. rewrite NA. apply L2, nth_In, Hi.
Qed.

(** for i in range(rows): replace row i by something computed from it *)
Section Loop.
Variables (r q : nat) (body : mat T -> nat -> res (mat T)) (phi : nat -> (nat -> T) -> res (nat -> T)).
Hypothesis Hbody : forall f i, i < r -> body (mk r q f) i = do g <- phi i (f i); Ok (mk r q (fun a b => if a =? i then g b else f a b)).
Definition loop_row (f : nat -> nat -> T) (i : nat) : nat -> T := match phi i (f i) with Ok g => g | Err _ => f i end.
Lemma rows_loop_ok f : (forall i, i < r -> phi i (f i) = Ok (loop_row f i)) -> for_range r body (mk r q f) = Ok (mk r q (loop_row f)).
Proof.
  intros Hg. destruct (for_range_inv (fun k M => M = mk r q (fun i j => if i <? k then loop_row f i j else f i j)) body r (mk r q f)) as (M & E & HM).
  - reflexivity.
  - intros k M Hk ->. rewrite Hbody by exact Hk. destruct (Nat.ltb_spec k k); [lia|]. change (fun j => f k j) with (f k). rewrite Hg by exact Hk. cbn [bind]. eexists. split; [reflexivity|].
    apply mk_ext. intros a b Ha Hb. destruct (Nat.eqb_spec a k) as [->|]; [destruct (Nat.ltb_spec k (S k)); [reflexivity|lia]|]. destruct (Nat.ltb_spec a k), (Nat.ltb_spec a (S k)); reflexivity || lia.
  - rewrite E, HM. f_equal. apply mk_ext. intros i j Hi Hj. destruct (Nat.ltb_spec i r); [reflexivity|lia].
Qed.
Lemma rows_loop_inv f k R : k <= r -> for_range k body (mk r q f) = Ok R ->
  (forall i, i < k -> phi i (f i) = Ok (loop_row f i)) /\ R = mk r q (fun i j => if i <? k then loop_row f i j else f i j).
Proof.
  revert R. induction k as [|k IH]; intros R Hk.
  - intros [= <-]. split; [intros; lia|reflexivity].
  - unfold for_range. rewrite seq_S, for_each_app. cbn [plus for_each]. fold (for_range k body (mk r q f)). destruct (for_range k body (mk r q f)) as [M|] eqn:E; [|discriminate]. cbn [bind].
    destruct (IH M ltac:(lia) eq_refl) as (Hg & ->). rewrite Hbody by lia. destruct (Nat.ltb_spec k k); [lia|]. change (fun j => f k j) with (f k).
    destruct (phi k (f k)) as [g|] eqn:Eg; [|discriminate]. cbn [bind]. intros [= <-]. split.
    + intros i Hi. destruct (Nat.eq_dec i k) as [->|]; [unfold loop_row; now rewrite Eg|apply Hg; lia].
    + apply mk_ext. intros a b Ha Hb. destruct (Nat.eqb_spec a k) as [->|].
      * destruct (Nat.ltb_spec k (S k)); [|lia]. unfold loop_row. now rewrite Eg.
      * destruct (Nat.ltb_spec a k), (Nat.ltb_spec a (S k)); reflexivity || lia.
Qed.
End Loop.

(** the loop over the rows of a matrix and over selected rows *)
Lemma rowwise_loop (body : mat T -> mat T -> nat -> res (mat T)) (init : mat T -> mat T) (q : mat T -> nat) (z : mat T -> nat -> nat -> T)
  (phi : mat T -> nat -> (nat -> T) -> res (nat -> T)) :
  (forall X, nr X <> 0 -> wf X -> init X = mk (nr X) (q X) (z X)) ->
  (forall X f i, wf X -> i < nr X -> body X (mk (nr X) (q X) f) i = do g <- phi X i (f i); Ok (mk (nr X) (q X) (fun a b => if a =? i then g b else f a b))) ->
  (forall X l, wf X -> l <> [] -> (forall i, In i l -> i < nr X) -> q (take_rows l X) = q X /\
     forall i g, i < length l -> phi X (nth i l 0) (z X (nth i l 0)) = Ok g ->
       exists g', phi (take_rows l X) i (z (take_rows l X) i) = Ok g' /\ forall j, j < q X -> g' j = g j) ->
  rowwise (fun X => for_range (nr X) (body X) (init X)).
Proof.
  intros Hi Hb Hs X R W N E. rewrite Hi in E by assumption. destruct (rows_loop_inv (nr X) (q X) (body X) (phi X) (fun f i => Hb X f i W) (z X) (nr X) R (le_n _) E) as (Hg & ->).
  split; [apply mk_wf|]. split; [reflexivity|]. intros l L1 L2. destruct (Hs X l W L1 L2) as (Eq & Ep). rewrite Hi by (try apply take_wf; cbn; now apply len_nil). rewrite take_mk by exact L2.
  rewrite (rows_loop_ok (nr (take_rows l X)) (q (take_rows l X)) (body (take_rows l X)) (phi (take_rows l X)) (fun f i => Hb (take_rows l X) f i (take_wf l X)) (z (take_rows l X))).
  - f_equal. rewrite Eq. cbn [nr mk take_rows]. apply mk_ext. intros i j Hi' Hj. assert (Hl : nth i l 0 < nr X) by (apply L2, nth_In, Hi'). destruct (Nat.ltb_spec (nth i l 0) (nr X)); [|lia].
    destruct (Ep i _ Hi' (Hg _ Hl)) as (g' & Eg' & Hg'). unfold loop_row at 1. rewrite Eg'. now apply Hg'.
  - intros i Hi'. unfold loop_row. cbn [nr mk take_rows] in Hi'. destruct (Ep i _ Hi' (Hg _ (L2 _ (nth_In _ _ Hi')))) as (g' & Eg' & _). now rewrite Eg'.
Qed.
End Batch.

(** * The predict and transform steps of the PLS classes *)
Section Steps.
Context {T : Type} `{Num T}.
Notation zn := Z.of_nat.

Lemma npidx_nat n i : i < n -> npidx n (Z.of_nat i) = Ok i.
Proof. intros Hi. apply npidx_addr. unfold addr. lia. Qed.
Lemma zeros_q r q : r <> 0 -> q <> (-1)%Z -> zeros (T:=T) (zn r) q = mk r (Z.to_nat q) (fun _ _ => n0).
Proof. intros Hr Hq. unfold zeros. destruct (Z.eqb_spec q (-1)); [contradiction|]. unfold rlen, create. rewrite Nat2Z.id. now rewrite np_array2_tab. Qed.
Lemma take_row l (X : mat T) i : i < length l -> mk 1 (nc (take_rows l X)) (fun _ j => entry (take_rows l X) i j) = mk 1 (nc X) (fun _ j => entry X (nth i l 0) j).
Proof. intros Hi. cbn [nc mk take_rows]. apply mk_ext. intros a j Ha Hj. now rewrite take_entry. Qed.

(** writing a row, and writing one number, into row i of a table *)
Definition put_row (v : mat T) (f : nat -> T) : nat -> T :=
  let row := if is_column_vector v then transpose v else v in fun j => if j <? nc row then entry row 0 j else f j.
Lemma set_row_gen r c f i (v : mat T) : i < r -> set_row (mk r c f) (zn i) v = do _ <- must_be_vector v; Ok (mk r c (fun a b => if a =? i then put_row v (f a) b else f a b)).
Proof.
  intros Hi. unfold set_row. destruct (must_be_vector v) as [u|]; [|reflexivity]. cbn [bind nr nc mk]. rewrite npidx_nat by exact Hi. cbn [bind]. apply f_equal, mk_ext. intros a0 b0 Ha Hb.
  unfold put_row. set (row := if is_column_vector v then transpose v else v). rewrite entry_mk by assumption. destruct (Nat.eqb_spec a0 i) as [->|]; [|reflexivity]. cbn [andb].
  destruct (Nat.ltb_spec b0 (Nat.min (nc row) c)), (Nat.ltb_spec b0 (nc row)); reflexivity || lia.
Qed.
Lemma set_gen r c f i j (x : T) : i < r -> set (mk r c f) (zn i) (zn j) x = do k <- npidx c (zn j); Ok (mk r c (fun a b => if a =? i then if b =? k then x else f a b else f a b)).
Proof.
  intros Hi. destruct (Nat.ltb_spec j c) as [Hj|Hj].
  - rewrite set_mk by assumption. rewrite npidx_nat by exact Hj. cbn [bind]. apply f_equal, mk_ext. intros a0 b0 Ha Hb. destruct (a0 =? i), (b0 =? j); reflexivity.
  - unfold set. cbn [nr nc mk]. rewrite npidx_nat by exact Hi. cbn [bind]. destruct (npidx c (zn j)) as [k|] eqn:E; [|reflexivity]. apply npidx_addr in E. unfold addr in E. lia.
Qed.
Lemma get_gen r c f i j : i < r -> get (T:=T) (mk r c f) (zn i) (zn j) = do k <- npidx c (zn j); Ok (f i k).
Proof.
  intros Hi. unfold get. cbn [nr nc mk]. rewrite npidx_nat by exact Hi. cbn [bind]. destruct (npidx c (zn j)) as [k|] eqn:E; [|reflexivity]. cbn [bind].
  apply npidx_addr in E. unfold addr in E. now rewrite entry_mk by lia.
Qed.

Lemma rowwise_pls1_transform n s : n <> (-1)%Z -> rowwise (pls1_transform (T:=T) n s).
Proof.
  intros Hn. unfold pls1_transform. eapply (rowwise_loop _ _ (fun _ => Z.to_nat n) (fun _ _ _ => n0)
    (fun X i f => do t <- pls1_row n s (mk 1 (nc X) (fun _ j => entry X i j)); do _ <- must_be_vector t; Ok (put_row t f))).
  - intros X HX _. now apply zeros_q.
  - intros X f i _ Hi. cbv beta. unfold row_as_vector. rewrite get_row_nat by exact Hi. cbn [bind]. destruct (pls1_row _ _ _) as [t|]; [|reflexivity]. cbn [bind]. rewrite set_row_gen by exact Hi.
    destruct (must_be_vector t); [|reflexivity]. cbn [bind]. apply f_equal, mk_ext. intros a0 b0 _ _. destruct (Nat.eqb_spec a0 i) as [->|]; reflexivity.
  - intros X l W L1 L2. split; [reflexivity|]. intros i g Hi. rewrite take_row by exact Hi. intros ->. now exists g.
Qed.
Lemma rowwise_pls1_predict n s : rowwise (pls1_predict (T:=T) n s).
Proof.
  unfold pls1_predict. eapply (rowwise_loop _ _ (fun _ => 1) (fun _ _ _ => n0)
    (fun X i f => do t <- pls1_row n s (mk 1 (nc X) (fun _ j => entry X i j)); do b <- need (o_b_hat s); do tb <- mul t b; do y <- as_real tb; Ok (fun j => if j =? 0 then y else f j))).
  - intros X HX _. change 1%Z with (zn 1). now apply zeros_mk.
  - intros X f i _ Hi. cbv beta. unfold row_as_vector. rewrite get_row_nat by exact Hi. cbn [bind]. destruct (pls1_row _ _ _) as [t|]; [|reflexivity]. cbn [bind].
    destruct (need _) as [b|]; [|reflexivity]. cbn [bind]. destruct (mul t b) as [tb|]; [|reflexivity]. cbn [bind]. destruct (as_real tb) as [y|]; [|reflexivity]. cbn [bind].
    change 0%Z with (zn 0). rewrite set_gen by exact Hi. rewrite npidx_nat by lia. cbn [bind]. apply f_equal, mk_ext. intros a0 c _ _. destruct (Nat.eqb_spec a0 i) as [->|]; reflexivity.
  - intros X l W L1 L2. split; [reflexivity|]. intros i g Hi. rewrite take_row by exact Hi. intros ->. now exists g.
Qed.

(** denormalise works row by row *)
Lemma rowwise_denormalise {A K} (c : pls_class A K T) mean std : rowwise (denormalise c mean std).
Proof.
  unfold denormalise. destruct (c_arity c) as [|lo hi].
  - apply (rowwise_loop (fun _ r i => do x <- get r (zn i) 0; do sd <- lget std 0; do m <- lget mean 0; set r (zn i) 0 (nadd (nmul x sd) m)) (fun X => X) nc entry
      (fun X i f => do k <- npidx (nc X) (zn 0); do sd <- lget std 0; do m <- lget mean 0; Ok (fun j => if j =? k then nadd (nmul (f k) sd) m else f j))).
    + intros X HX W. symmetry. now apply mk_entry.
    + intros X f i W Hi. cbv beta. change 0%Z with (zn 0). rewrite get_gen by exact Hi. destruct (npidx (nc X) (zn 0)) as [k|] eqn:Ek; [|reflexivity]. cbn [bind].
      destruct (lget std _) as [sd|]; [|reflexivity]. destruct (lget mean _) as [m|]; [|reflexivity]. cbn [bind]. rewrite set_gen, Ek by exact Hi. cbn [bind]. apply f_equal, mk_ext. intros a0 b0 Ha Hb.
      destruct (Nat.eqb_spec a0 i) as [->|]; reflexivity.
    + intros X l W L1 L2. split; [reflexivity|]. intros i g Hi. cbn [nc mk take_rows]. destruct (npidx (nc X) (zn 0)) as [k|] eqn:Ek; [|discriminate]. cbn [bind]. apply npidx_addr in Ek. unfold addr in Ek.
      destruct (lget std 0) as [sd|]; [|discriminate]. destruct (lget mean 0) as [m|]; [|discriminate]. cbn [bind]. intros [= <-]. eexists. split; [reflexivity|]. intros j Hj. cbv beta.
      rewrite !take_entry by lia. reflexivity.
  - pose (inner := fun (q : nat) (f : nat -> T) => for_range q (fun g j => do sd <- lget std (zn j); do m <- lget mean (zn j); Ok (fun b => if b =? j then nadd (nmul (g j) sd) m else g b)) f).
    assert (Hinner : forall r q f i k, i < r -> k <= q -> for_range k (fun r j => do x <- get r (zn i) (zn j); do sd <- lget std (zn j); do m <- lget mean (zn j); set r (zn i) (zn j) (nadd (nmul x sd) m)) (mk r q f)
       = do g <- inner k (f i); Ok (mk r q (fun a b => if a =? i then g b else f a b))).
    { intros r q f i k Hi. unfold inner. induction k as [|k IH]; intros Hk.
      - cbn [for_range seq for_each bind]. apply f_equal, mk_ext. intros a0 b0 _ _. destruct (Nat.eqb_spec a0 i) as [->|]; reflexivity.
      - unfold for_range in *. rewrite seq_S, !for_each_app. rewrite IH by lia. destruct (for_each (seq 0 k) _ (f i)) as [g|]; [|reflexivity]. cbn [bind plus for_each]. rewrite get_gen, npidx_nat by lia. cbn [bind].
        rewrite Nat.eqb_refl. destruct (lget std (zn k)) as [sd|]; [|reflexivity]. destruct (lget mean (zn k)) as [m|]; [|reflexivity]. cbn [bind]. rewrite set_gen, npidx_nat by lia. cbn [bind]. f_equal. apply mk_ext.
        intros a0 b0 _ _. destruct (Nat.eqb_spec a0 i) as [->|]; [|reflexivity]. reflexivity. }
    assert (Hext : forall k q f f' g, k <= q -> (forall j, j < q -> f' j = f j) -> inner k f = Ok g -> exists g', inner k f' = Ok g' /\ forall j, j < q -> g' j = g j).
    { intros k q f f'. unfold inner. induction k as [|k IH]; intros g Hk Hf.
      - intros [= <-]. exists f'. split; [reflexivity|exact Hf].
      - unfold for_range in *. rewrite seq_S, !for_each_app. destruct (for_each (seq 0 k) _ f) as [h|]; [|discriminate]. cbn [bind plus for_each]. destruct (IH h ltac:(lia) Hf eq_refl) as (h' & -> & Hh). cbn [bind].
        destruct (lget std (zn k)) as [sd|]; [|discriminate]. destruct (lget mean (zn k)) as [m|]; [|discriminate]. cbn [bind]. intros [= <-]. eexists. split; [reflexivity|]. intros j Hj. cbv beta. now rewrite !Hh by lia. }
    apply (rowwise_loop (fun X r i => for_range (nc X) (fun r j => do x <- get r (zn i) (zn j); do sd <- lget std (zn j); do m <- lget mean (zn j); set r (zn i) (zn j) (nadd (nmul x sd) m)) r) (fun X => X) nc entry
      (fun X i f => inner (nc X) f)).
    + intros X HX W. symmetry. now apply mk_entry.
    + intros X f i W Hi. cbv beta. now apply Hinner.
    + intros X l W L1 L2. split; [reflexivity|]. intros i g Hi Eg. apply (Hext (nc X) (nc X) _ _ _ (le_n _)) with (2 := Eg). intros j Hj. now rewrite take_entry.
Qed.

(** the selected columns of SparsePLS *)
Lemma columns_loop_gen n p x A : (forall j, In j A -> j < p) -> forall q c f, c + length A <= q ->
  for_each A (fun st i => do col <- get_column (mk n p x) (zn i); do m <- set_column (fst st) (zn (snd st)) col; Ok (m, S (snd st))) (mk n q f, c) =
  Ok (mk n q (fun i j => if (c <=? j) && (j <? c + length A) then x i (nth (j - c) A 0) else f i j : T), c + length A).
Proof.
  induction A as [|a A IH]; intros HA q c f Hq; cbn [for_each length].
  - rewrite Nat.add_0_r. apply f_equal. apply f_equal2; [|reflexivity]. apply mk_ext. intros i j Hi Hj. destruct (Nat.leb_spec c j), (Nat.ltb_spec j c); cbn [andb]; try reflexivity; lia.
  - cbn [fst snd length] in *. rewrite get_column_mk by (apply HA; now left). cbn [bind]. rewrite set_column_mk by lia. cbn [bind]. rewrite IH by (auto with datatypes || lia). apply f_equal. apply f_equal2; [|lia].
    apply mk_ext. intros i j Hi Hj. replace (S c + length A) with (c + S (length A)) by lia. destruct (Nat.eqb_spec j c) as [->|Hne].
    + rewrite Nat.sub_diag, Nat.leb_refl, (proj2 (Nat.leb_gt (S c) c)) by lia. cbn [andb nth]. rewrite (proj2 (Nat.ltb_lt c (c + S (length A)))) by lia. reflexivity.
    + destruct (Nat.leb_spec c j).
      * rewrite (proj2 (Nat.leb_le (S c) j)) by lia. cbn [andb]. destruct (j <? c + S (length A)); [|reflexivity]. destruct (j - c) as [|d] eqn:Ed; [lia|]. cbn [nth]. now replace (j - S c) with d by lia.
      * rewrite (proj2 (Nat.leb_gt (S c) j)) by lia. reflexivity.
Qed.
Lemma columns_loop_inv X A st R : for_each A (fun st i => do col <- get_column X (zn i); do m <- set_column (fst st) (zn (snd st)) col; Ok (m, S (snd st))) st = Ok R -> forall j, In j A -> j < nc X.
Proof.
  revert st. induction A as [|a A IH]; intros st; [intros _ j []|]. cbn [for_each]. destruct (get_column X (zn a)) as [col|] eqn:Ec; [|discriminate]. cbn [bind]. destruct (set_column _ _ col) as [m|]; [|discriminate]. cbn [bind].
  intros E j [->|Hj]; [|now apply (IH _ E)]. destruct (proj1 (get_column_spec X (zn j)) col Ec) as (k & Hk & _). unfold addr in Hk. lia.
Qed.
Lemma rowwise_sparse_columns A : rowwise (sparse_columns (T:=T) A).
Proof.
  assert (Hrun : forall X, wf X -> nr X <> 0 -> (forall j, In j A -> j < nc X) -> sparse_columns A X = Ok (mk (nr X) (length A) (fun i k => entry X i (nth k A 0)))).
  { intros X W N HA. unfold sparse_columns, M_PLS.zn. rewrite zeros_mk by exact N.
    pose proof (columns_loop_gen (nr X) (nc X) (entry X) A HA (length A) 0 (fun _ _ => n0) (le_n _)) as E. rewrite (mk_entry X W) in E. rewrite E. cbn [bind fst]. apply f_equal, mk_ext. intros i j Hi Hj.
    rewrite Nat.sub_0_r. destruct (Nat.leb_spec 0 j), (Nat.ltb_spec j (0 + length A)); cbn [andb]; try lia. reflexivity. }
  intros X R W N E. assert (HA : forall j, In j A -> j < nc X).
  { unfold sparse_columns in E. destruct (for_each A _ _) as [r|] eqn:Er; [|discriminate]. apply (columns_loop_inv _ _ _ _ Er). }
  rewrite Hrun in E by assumption. injection E as <-. split; [apply mk_wf|]. split; [reflexivity|]. intros l L1 L2. rewrite Hrun by (try apply take_wf; try exact HA; cbn; now apply len_nil).
  rewrite take_mk by exact L2. apply f_equal, mk_ext. intros i j Hi Hj. cbn [nr mk take_rows] in Hi. rewrite take_entry; [reflexivity|exact Hi|]. apply HA, nth_In, Hj.
Qed.

(** Center and Standardize, configured with one mean (and deviation) per column *)
Definition row_means_only (mu : option (mat T)) : Prop := forall m, mu = Some m -> nr m = 1.
Lemma rowwise_center s : row_means_only (ce_means s) -> rowwise (t_do center s) /\ rowwise (t_undo (T:=T) center s).
Proof.
  intros Hm. split; cbn [t_do t_undo center]; (apply rowwise_const; intros mu E; destruct (ce_means s) as [mu'|] eqn:Em; [|discriminate]; injection E as <-; apply rowwise_vector; now apply Hm).
Qed.
Lemma rowwise_standardize s : row_means_only (st_means s) -> row_means_only (st_devs s) -> rowwise (t_do (T:=T) standardize s).
Proof.
  intros Hm Hd. cbn [t_do standardize]. apply rowwise_const. intros mu E. destruct (st_means s) as [mu'|] eqn:Em; [|discriminate]. injection E as <-.
  apply (rowwise_bind (fun X => sub_by_vector_modify X mu')); [apply rowwise_vector; now apply Hm|]. apply rowwise_const. intros sd E. destruct (st_devs s) as [sd'|] eqn:Ed; [|discriminate]. injection E as <-. apply rowwise_vector. now apply Hd.
Qed.
Lemma zero_guard_shape (sd r : mat T) : zero_guard sd = Ok r -> nr r = nr sd.
Proof.
  unfold zero_guard. assert (G : forall l (acc : res (mat T)) r, fold_left (fun acc i => do s <- acc; do x <- get s (zn i) 0; if neqb x n0 then set s (zn i) 0 (nofZ 1) else Ok s) l acc = Ok r -> exists a, acc = Ok a /\ nr r = nr a).
  { induction l as [|i l IH]; intros acc r0 E; [exists r0; auto|]. cbn [fold_left] in E. apply IH in E. destruct E as (b & Eb & ->). destruct acc as [s|]; [|discriminate]. exists s. split; [reflexivity|]. cbn [bind] in Eb.
    destruct (get s (zn i) 0) as [x|]; [|discriminate]. cbn [bind] in Eb. destruct (neqb x n0); [|now injection Eb as <-]. unfold set in Eb. destruct (npidx (nr s) (zn i)) as [a|]; [|discriminate]. destruct (npidx (nc s) 0) as [b'|]; [|discriminate]. now injection Eb as <-. }
  intros E. apply G in E. destruct E as (a & [= <-] & E). exact E.
Qed.
Definition center_ok (s : center_st T) : Prop := row_means_only (ce_means s).
Definition std_ok (s : std_st T) : Prop := row_means_only (st_means s) /\ row_means_only (st_devs s).
Lemma center_step s (X : mat T) : center_ok s -> center_ok (fst (t_transform center s X)) /\ ce_configured (fst (t_transform center s X)) = true.
Proof. intros Hs. unfold t_transform. cbn [t_configured t_configure center]. destruct (ce_configured s) eqn:E; cbn; [auto|]. split; [|reflexivity]. intros m [= <-]. reflexivity. Qed.
Lemma center_undo_step s (X : mat T) : center_ok s -> center_ok (fst (t_inverse center s X)) /\ ce_configured (fst (t_inverse center s X)) = true.
Proof. intros Hs. unfold t_inverse. cbn [t_configured t_configure t_mark center]. destruct (ce_configured s) eqn:E; cbn; [auto|]. split; [|reflexivity]. intros m [= <-]. reflexivity. Qed.
Lemma std_step s (X : mat T) : std_ok s -> std_ok (fst (t_transform standardize s X)) /\ (st_configured (fst (t_transform standardize s X)) = true \/ exists e, snd (t_transform standardize s X) = Err e).
Proof.
  intros Hs. unfold t_transform. cbn [t_configured t_configure standardize]. destruct (st_configured s) eqn:E; cbn [negb]; [cbn; auto|]. destruct (zero_guard (column_stdevs X)) as [sd|e] eqn:Ez; cbn.
  - split; [|now left]. split; intros m [= <-]; [reflexivity|]. now rewrite (zero_guard_shape _ _ Ez).
  - split; [|right; now exists e]. split; intros m [= <-]; reflexivity.
Qed.


(** Kernels: every row of the first argument is compared with the rows of the second one *)
Definition kernel_rows {KS} (kapply : KS -> mat T -> option (mat T) -> KS * res (mat T)) : Prop := forall ks Y, rowwise (fun X => snd (kapply ks X (Some Y))).
Lemma linear_rows {KS} : kernel_rows (fun (ks : KS) X Y => (ks, linear_apply_matrix X Y)).
Proof. intros ks Y. cbn [snd]. unfold linear_apply_matrix. apply rowwise_mul. Qed.
Lemma poly_rows npow : kernel_rows (poly_apply_matrix (T:=T) npow).
Proof.
  intros s Y. unfold poly_apply_matrix. cbn [snd]. destruct (p_gamma s) as [g|]; cbn [latch].
  - apply (rowwise_bind (fun X => mul X (transpose Y)) (fun r => Ok (map_mat (fun x => npow x (p_degree s)) (add_scalar (mul_scalar r g) (p_coef s))))); [apply rowwise_mul|].
    apply (rowwise_bind (fun r => Ok (map_mat (fun x => nmul x g) r)) (fun r => Ok (map_mat (fun x => npow x (p_degree s)) (add_scalar r (p_coef s))))); [apply rowwise_map|].
    apply (rowwise_bind (fun r => Ok (map_mat (fun x => nadd x (p_coef s)) r)) (fun r => Ok (map_mat (fun x => npow x (p_degree s)) r))); apply rowwise_map.
  - intros X R W N. set (g := ndiv n1 (nofZ (zn (nc X)))).
    assert (Hg : rowwise (fun X => do r <- mul X (transpose Y); Ok (map_mat (fun x => npow x (p_degree s)) (add_scalar (mul_scalar r g) (p_coef s))))).
    { apply (rowwise_bind (fun X => mul X (transpose Y)) (fun r => Ok (map_mat (fun x => npow x (p_degree s)) (add_scalar (mul_scalar r g) (p_coef s))))); [apply rowwise_mul|].
      apply (rowwise_bind (fun r => Ok (map_mat (fun x => nmul x g) r)) (fun r => Ok (map_mat (fun x => npow x (p_degree s)) (add_scalar r (p_coef s))))); [apply rowwise_map|].
      apply (rowwise_bind (fun r => Ok (map_mat (fun x => nadd x (p_coef s)) r)) (fun r => Ok (map_mat (fun x => npow x (p_degree s)) r))); apply rowwise_map. }
    intros E. exact (Hg X R W N E).
Qed.
(** RBF: gamma is fixed by the first pair of rows, to a value that only depends on the width *)
Definition rbf_at (nexp : T -> T) (gamma : option T) (X : mat T) (Y : option (mat T)) : option T * res (mat T) :=
  match rbf_apply_matrix nexp gamma X Y with Ok (h, K) => (h, Ok K) | Err e => (gamma, Err e) end.
Section RBF.
Variables (nexp : T -> T) (X Y : mat T) (g : T).
Definition rbf_cell (r : mat T) (i j : nat) : res (mat T) :=
  do ri <- get_row X (zn i); do rj <- get_row Y (zn j); do d <- sub ri rj; set r (zn i) (zn j) (nexp (nmul (nmul (nopp n1) g) (norm2 d))).
Definition rbf_body (i : nat) (sr : option T * mat T) (j : nat) : res (option T * mat T) :=
  do ri <- get_row X (zn i); do rj <- get_row Y (zn j); let '(s', v) := rbf_apply_vector nexp (fst sr) ri rj in do value <- v; do r <- set (snd sr) (zn i) (zn j) value; Ok (s', r).
Lemma rbf_one_cell i j s r : latch s (nc X) = g -> exists s', latch s' (nc X) = g /\ rbf_body i (s, r) j = do r' <- rbf_cell r i j; Ok (s', r').
Proof.
  intros Hs. unfold rbf_body, rbf_cell. destruct (get_row X (zn i)) as [ri|] eqn:Ei; [|exists s; split; [exact Hs|reflexivity]]. cbn [bind]. destruct (get_row Y (zn j)) as [rj|]; [|exists s; split; [exact Hs|reflexivity]]. cbn [bind fst snd].
  assert (Hnc : nc ri = nc X). { unfold get_row in Ei. destruct (npidx (nr X) (zn i)); [|discriminate]. now injection Ei as <-. }
  unfold rbf_apply_vector. destruct (sub ri rj) as [d|]; [|exists s; split; [exact Hs|reflexivity]]. cbn [bind]. rewrite Hnc, Hs. exists (Some g). split; [reflexivity|]. now destruct (set r _ _ _).
Qed.
Lemma rbf_inner l i s r : latch s (nc X) = g -> exists s', latch s' (nc X) = g /\
  for_each l (rbf_body i) (s, r) = do r' <- for_each l (fun r j => rbf_cell r i j) r; Ok (s', r').
Proof.
  revert s r. induction l as [|j l IH]; intros s r Hs; [exists s; split; [exact Hs|reflexivity]|]. cbn [for_each]. destruct (rbf_one_cell i j s r Hs) as (s1 & H1 & ->).
  destruct (rbf_cell r i j) as [r1|]; [|exists s; split; [exact Hs|reflexivity]]. cbn [bind]. apply (IH s1 r1 H1).
Qed.
Lemma rbf_loops l s r : latch s (nc X) = g -> exists s', latch s' (nc X) = g /\
  for_each l (fun sr i => for_range (nr Y) (rbf_body i) sr) (s, r)
  = do r' <- for_each l (fun r i => for_range (nr Y) (fun r j => rbf_cell r i j) r) r; Ok (s', r').
Proof.
  revert s r. induction l as [|i l IH]; intros s r Hs; [exists s; split; [exact Hs|reflexivity]|]. cbn [for_each]. unfold for_range at 1 3. destruct (rbf_inner (seq 0 (nr Y)) i s r Hs) as (s1 & H1 & ->).
  destruct (for_each (seq 0 (nr Y)) _ r) as [r1|]; [|exists s; split; [exact Hs|reflexivity]]. cbn [bind]. apply (IH s1 r1 H1).
Qed.
End RBF.
Definition rbf_pure (nexp : T -> T) (Y : mat T) (g : T) (X : mat T) : res (mat T) :=
  for_range (nr X) (fun r i => for_range (nr Y) (fun r j => rbf_cell nexp X Y g r i j) r) (zeros (zn (nr X)) (zn (nr Y))).
Lemma rbf_pure_eq nexp gamma X Y : snd (rbf_at nexp gamma X (Some Y)) = rbf_pure nexp Y (latch gamma (nc X)) X.
Proof.
  unfold rbf_at, rbf_apply_matrix, abstract_apply_matrix, abstract_two, rbf_pure. unfold for_range at 1 3.
  destruct (rbf_loops nexp X Y (latch gamma (nc X)) (seq 0 (nr X)) gamma (zeros (zn (nr X)) (zn (nr Y))) eq_refl) as (s' & _ & E). unfold rbf_body in E. unfold for_range in *. rewrite E. clear E.
  destruct (for_each (seq 0 (nr X)) _ _); reflexivity.
Qed.
Lemma rowwise_rbf_pure nexp Y g : rowwise (rbf_pure nexp Y g).
Proof.
  pose (inner := fun (x : mat T) (k : nat) (f : nat -> T) => for_range k (fun h j => do rj <- get_row Y (zn j); do d <- sub x rj; do c <- npidx (nr Y) (zn j);
                    Ok (fun b => if b =? c then nexp (nmul (nmul (nopp n1) g) (norm2 d)) else h b)) f).
  apply (rowwise_loop _ _ (fun _ => nr Y) (fun _ _ _ => n0) (fun X i f => inner (mk 1 (nc X) (fun _ j => entry X i j)) (nr Y) f)).
  - intros X HX _. now apply zeros_mk.
  - intros X f i W Hi. cbv beta. unfold inner, for_range. generalize (seq 0 (nr Y)) as l. intros l. revert f. induction l as [|j l IH]; intros f.
    + cbn [for_each bind]. apply f_equal, mk_ext. intros a0 b0 _ _. destruct (Nat.eqb_spec a0 i) as [->|]; reflexivity.
    + cbn [for_each]. unfold rbf_cell at 1. rewrite get_row_nat by exact Hi. cbn [bind]. destruct (get_row Y (zn j)) as [rj|]; [|reflexivity]. cbn [bind]. destruct (sub _ rj) as [d|]; [|reflexivity]. cbn [bind].
      rewrite set_gen by exact Hi. destruct (npidx (nr Y) (zn j)) as [c|]; [|reflexivity]. cbn [bind]. rewrite IH. rewrite Nat.eqb_refl.
      destruct (for_each l _ _) as [h|]; [|reflexivity]. cbn [bind]. apply f_equal, mk_ext. intros a0 b0 _ _. destruct (a0 =? i); reflexivity.
  - intros X l W L1 L2. split; [reflexivity|]. intros i h Hi. rewrite take_row by exact Hi. intros E. now exists h.
Qed.
Lemma rbf_rows nexp : kernel_rows (rbf_at nexp).
Proof.
  intros gamma Y X R W N. rewrite rbf_pure_eq. intros E. destruct (rowwise_rbf_pure nexp Y _ X R W N E) as (A & B & C). split; [exact A|]. split; [exact B|]. intros l L1 L2. rewrite rbf_pure_eq. now apply C.
Qed.
Lemma rowwise_filled (n : nat) (w : T) : rowwise (fun X => filled (zn (nr X)) (zn n) w).
Proof.
  intros X R W N. rewrite filled_mk. intros [= <-]. split; [apply mk_wf|]. split; [reflexivity|]. intros l L1 L2. rewrite filled_mk, take_mk by exact L2. reflexivity.
Qed.
Lemma rowwise_centralize n (K0 : mat T) : rowwise (centralize_test n K0).
Proof.
  unfold centralize_test, M_PLS.zn. apply rowwise_const. intros Id _. cbv zeta. set (w := ndiv n1 (nofZ (zn n))).
  apply (rowwise_ext (fun K => do d <- (do A <- Ok K; do B <- (do o <- filled (zn (nr K)) (zn n) w; mul o K0); sub A B); do c <- sub Id (mk n n (fun _ _ => w)); mul d c)).
  - intros K. rewrite !filled_mk. cbn [bind]. destruct (mul _ K0); [|reflexivity]. reflexivity.
  - apply (rowwise_bind (fun K => do A <- Ok K; do B <- (do o <- filled (zn (nr K)) (zn n) w; mul o K0); sub A B)).
    + apply (rowwise_sub Ok (fun K => do o <- filled (zn (nr K)) (zn n) w; mul o K0)); [apply rowwise_id|]. apply (rowwise_bind (fun K => filled (zn (nr K)) (zn n) w)); [apply rowwise_filled|apply rowwise_mul].
    + apply rowwise_const. intros c _. apply rowwise_mul.
Qed.
End Steps.
