(** Functions of matrices, over R, that map weighted means of two batches to the weighted means of the results. *)
From Coq Require Import List ZArith Lia Bool Arith Reals Lra.
From Verif Require Import Base Num Mat M_Matrix M_Factory M_Helper M_Loop M_Utils M_Transform M_PLSBase M_PLS M_PLS2 M_Kernel.
From Verif Require Import S_Matrix L_Base L_Mat L_MatR L_Matrix L_Alg L_Batch.
Import ListNotations.
Local Open Scope nat_scope.
Notation zn := Z.of_nat.

(** l * A + (1 - l) * B, entry by entry *)
Definition lc (l a b : R) : R := (l * a + (1 - l) * b)%R.
Definition comb (l : R) (A B : mat R) : mat R := mk (nr A) (nc A) (fun i j => lc l (entry A i j) (entry B i j)).
Definition alike (A B : mat R) : Prop := wf A /\ wf B /\ nr B = nr A /\ nc B = nc A.
Definition affine (f : mat R -> res (mat R)) : Prop := forall l X1 X2 R1 R2, alike X1 X2 -> nr X1 <> 0 -> f X1 = Ok R1 -> f X2 = Ok R2 ->
  alike R1 R2 /\ nr R1 = nr X1 /\ f (comb l X1 X2) = Ok (comb l R1 R2).

Lemma comb_mk l r c f g : comb l (mk r c f) (mk r c g) = mk r c (fun i j => lc l (f i j) (g i j)).
Proof. unfold comb. cbn [nr nc mk]. apply mk_ext. intros i j Hi Hj. now rewrite !entry_mk. Qed.
Lemma comb_entry l A B i j : i < nr A -> j < nc A -> entry (comb l A B) i j = lc l (entry A i j) (entry B i j).
Proof. intros Hi Hj. unfold comb. now rewrite entry_mk. Qed.
Lemma comb_wf l A B : wf (comb l A B). Proof. apply mk_wf. Qed.
Lemma mk_alike r c f g : alike (mk r c f) (mk r c g).
Proof. split; [apply mk_wf|]. split; [apply mk_wf|]. split; reflexivity. Qed.
Lemma alike_comb l A B : alike A B -> nr (comb l A B) = nr A /\ nc (comb l A B) = nc A. Proof. split; reflexivity. Qed.
Lemma sum_lc l n (f g : nat -> R) : sumn n (fun k => lc l (f k) (g k)) = lc l (sumn n f) (sumn n g).
Proof. unfold lc. rewrite <- !sumR_scal, <- sumR_plus. reflexivity. Qed.

Lemma affine_ext f g : (forall X, f X = g X) -> affine f -> affine g.
Proof. intros E Hf l X1 X2 R1 R2 HX N E1 E2. rewrite <- E in E1, E2. rewrite <- E. exact (Hf l X1 X2 R1 R2 HX N E1 E2). Qed.
Lemma affine_id : affine Ok.
Proof. intros l X1 X2 R1 R2 HX N [= <-] [= <-]. auto. Qed.
Lemma affine_err e : affine (fun _ => Err e).
Proof. intros l X1 X2 R1 R2 HX N E. discriminate. Qed.
Lemma affine_bind f g : affine f -> affine g -> affine (fun X => do Y <- f X; g Y).
Proof.
  intros Hf Hg l X1 X2 R1 R2 HX N E1 E2. destruct (f X1) as [Y1|] eqn:F1; [|discriminate]. destruct (f X2) as [Y2|] eqn:F2; [|discriminate]. cbn [bind] in E1, E2.
  destruct (Hf l X1 X2 Y1 Y2 HX N F1 F2) as (HY & NY & ->). destruct (Hg l Y1 Y2 R1 R2 HY ltac:(congruence) E1 E2) as (HR & NR & EG). cbn [bind]. split; [exact HR|]. split; [congruence|exact EG].
Qed.
Lemma affine_const {A} (r : res A) f : (forall a, r = Ok a -> affine (f a)) -> affine (fun X => do a <- r; f a X).
Proof. intros Hf. destruct r as [a|e]; [apply (Hf a eq_refl)|apply affine_err]. Qed.
Lemma affine_mul B : affine (fun X => mul X B).
Proof.
  intros l X1 X2 R1 R2 (W1 & W2 & ER & EC) N. unfold mul, is_multiplicable_with. rewrite EC. destruct (Nat.eqb_spec (nc X1) (nr B)) as [E|]; [|discriminate]. cbn [negb]. intros [= <-] [= <-].
  unfold matmul. rewrite ER, EC. split; [apply mk_alike|]. split; [reflexivity|]. cbn [nc mk comb nr]. rewrite E, Nat.eqb_refl. cbn [negb]. f_equal. rewrite comb_mk. apply mk_ext. intros i j Hi Hj.
  rewrite <- sum_lc. apply sumn_ext. intros k Hk. rewrite comb_entry by lia. unfold lc. cbn. ring.
Qed.
(** x -> x * a + b *)
Lemma affine_map op a b : (forall x, op x = (x * a + b)%R) -> affine (fun X => Ok (map_mat op X)).
Proof.
  intros Hop l X1 X2 R1 R2 (W1 & W2 & ER & EC) N [= <-] [= <-]. unfold map_mat. rewrite ER, EC. split; [apply mk_alike|]. split; [reflexivity|]. f_equal. rewrite comb_mk. cbn [nr nc mk comb]. apply mk_ext. intros i j Hi Hj.
  rewrite comb_entry by assumption. rewrite !Hop. unfold lc. ring.
Qed.
Lemma affine_vector op v : nr v = 1 -> (forall y, exists a b, forall x, op x y = (x * a + b)%R) -> affine (fun X => vector_op_modify op X v).
Proof.
  intros Hv Hop l X1 X2 R1 R2 (W1 & W2 & ER & EC) N. unfold vector_op_modify, must_be_vector, vector_size_matches, is_row_vector, is_vector. rewrite Hv, EC. cbn [Nat.eqb orb andb negb bind].
  destruct (Nat.eqb_spec (nc X1) (nc v)) as [E|]; [|discriminate]. cbn [negb]. intros [= <-] [= <-]. unfold broadcast_op. rewrite ER, EC, Hv. cbn [Nat.eqb]. split; [apply mk_alike|]. split; [reflexivity|].
  cbn [nc mk comb]. rewrite E, Nat.eqb_refl. cbn [negb]. f_equal. rewrite comb_mk. cbn [nr mk comb]. apply mk_ext. intros i j Hi Hj. rewrite comb_entry by lia.
  destruct (Hop (entry v 0 (if nc v =? 1 then 0 else j))) as (a & b & Hab). rewrite !Hab. unfold lc. ring.
Qed.
Lemma op_add (y : R) : exists a b, forall x, nadd x y = (x * a + b)%R. Proof. exists 1%R, y. intros x. cbn. ring. Qed.
Lemma op_sub (y : R) : exists a b, forall x, nsub x y = (x * a + b)%R. Proof. exists 1%R, (- y)%R. intros x. cbn. ring. Qed.
Lemma op_mul (y : R) : exists a b, forall x, nmul x y = (x * a + b)%R. Proof. exists y, 0%R. intros x. cbn. ring. Qed.
Lemma op_div (y : R) : exists a b, forall x, ndiv x y = (x * a + b)%R. Proof. exists (/ y)%R, 0%R. intros x. cbn. unfold Rdiv. ring. Qed.
Lemma affine_scale v : affine (fun X => scale_by_row_vector X v).
Proof.
  unfold scale_by_row_vector. intros l X1 X2 R1 R2 HX N. unfold must_be_column_vector, is_column_vector, is_vector. destruct (Nat.eqb_spec (nc v) 1) as [E|]; [|rewrite andb_false_r; discriminate].
  rewrite orb_true_r. cbn [andb bind]. unfold dimensions_must_match. cbn [negb orb andb]. rewrite !andb_true_r. pose proof HX as (_ & _ & _ & EC). rewrite EC. destruct (Nat.eqb_spec (nc X1) (nr v)) as [E'|]; [|discriminate]. cbn [bind]. intros E1 E2.
  destruct (affine_vector nmul (transpose v) E op_mul l X1 X2 R1 R2 HX N E1 E2) as (A & B & C). split; [exact A|]. split; [exact B|]. cbn [nc mk comb]. rewrite E', Nat.eqb_refl. cbn [bind]. exact C.
Qed.
Lemma affine_sub f g : affine f -> affine g -> affine (fun X => do A <- f X; do B <- g X; sub A B).
Proof.
  intros Hf Hg l X1 X2 R1 R2 HX N E1 E2. destruct (f X1) as [A1|] eqn:F1; [|discriminate]. destruct (f X2) as [A2|] eqn:F2; [|discriminate]. cbn [bind] in E1, E2.
  destruct (g X1) as [B1|] eqn:G1; [|discriminate]. destruct (g X2) as [B2|] eqn:G2; [|discriminate]. cbn [bind] in E1, E2.
  destruct (Hf l X1 X2 A1 A2 HX N F1 F2) as ((_ & _ & RA & CA) & NA & ->). destruct (Hg l X1 X2 B1 B2 HX N G1 G2) as ((_ & _ & RB & CB) & NB & ->). cbn [bind].
  unfold sub, must_be_same_shape, dimensions_must_match in *. cbn [negb orb andb nr nc mk comb] in *. rewrite !andb_true_r in *. destruct (Nat.eqb_spec (nr A1) (nr B1)) as [E3|]; [|discriminate]. destruct (Nat.eqb_spec (nc A1) (nc B1)) as [E4|]; [|discriminate].
  cbn [andb bind] in *. injection E1 as <-. destruct ((nr A2 =? nr B2) && (nc A2 =? nc B2)); [|discriminate]. injection E2 as <-. unfold map2_mat. rewrite RA, CA. split; [apply mk_alike|]. split; [exact NA|].
  f_equal. rewrite comb_mk. cbn [nr nc mk comb]. apply mk_ext. intros i j Hi Hj. rewrite !comb_entry by lia. unfold lc. cbn. ring.
Qed.

(** for i in range(rows): replace row i by something computed from it *)
Lemma affine_loop (body : mat R -> mat R -> nat -> res (mat R)) (init : mat R -> mat R) (q : mat R -> nat) (z : mat R -> nat -> nat -> R)
  (phi : mat R -> nat -> (nat -> R) -> res (nat -> R)) :
  (forall X, nr X <> 0 -> wf X -> init X = mk (nr X) (q X) (z X)) ->
  (forall X f i, wf X -> i < nr X -> body X (mk (nr X) (q X) f) i = do g <- phi X i (f i); Ok (mk (nr X) (q X) (fun a b => if a =? i then g b else f a b))) ->
  (forall l X1 X2, alike X1 X2 -> q X2 = q X1 /\ q (comb l X1 X2) = q X1 /\
     forall i g1 g2, i < nr X1 -> phi X1 i (z X1 i) = Ok g1 -> phi X2 i (z X2 i) = Ok g2 ->
       exists g3, phi (comb l X1 X2) i (z (comb l X1 X2) i) = Ok g3 /\ forall j, j < q X1 -> g3 j = lc l (g1 j) (g2 j)) ->
  affine (fun X => for_range (nr X) (body X) (init X)).
Proof.
  intros Hi Hb Hs l X1 X2 R1 R2 HX N E1 E2. destruct (Hs l X1 X2 HX) as (Q2 & Q3 & Ep). pose proof HX as (W1 & W2 & ER & EC). rewrite Hi in E1, E2 by (assumption || lia).
  destruct (rows_loop_inv (nr X1) (q X1) (body X1) (phi X1) (fun f i => Hb X1 f i W1) (z X1) (nr X1) R1 (le_n _) E1) as (G1 & ->).
  destruct (rows_loop_inv (nr X2) (q X2) (body X2) (phi X2) (fun f i => Hb X2 f i W2) (z X2) (nr X2) R2 (le_n _) E2) as (G2 & ->). rewrite ER, Q2 in *.
  split; [apply mk_alike|]. split; [reflexivity|]. rewrite Hi by (try apply comb_wf; exact N). rewrite comb_mk.
  rewrite (rows_loop_ok (nr (comb l X1 X2)) (q (comb l X1 X2)) (body (comb l X1 X2)) (phi (comb l X1 X2)) (fun f i => Hb (comb l X1 X2) f i (comb_wf l X1 X2)) (z (comb l X1 X2))).
  - f_equal. rewrite Q3. cbn [nr mk comb]. apply mk_ext. intros i j Hi' Hj. destruct (Nat.ltb_spec i (nr X1)); [|lia].
    destruct (Ep i _ _ Hi' (G1 _ Hi') (G2 _ Hi')) as (g' & Eg' & Hg'). unfold loop_row at 1. rewrite Eg'. now apply Hg'.
  - intros i Hi'. unfold loop_row. cbn [nr mk comb] in Hi'. destruct (Ep i _ _ Hi' (G1 _ Hi') (G2 _ Hi')) as (g' & Eg' & _). now rewrite Eg'.
Qed.

(** one row through the components of PLS1 *)
Definition tri (l : R) (A1 A2 A3 : mat R) : Prop := alike A1 A2 /\ A3 = comb l A1 A2.
Lemma tri_mul l A1 A2 A3 M B1 B2 : tri l A1 A2 A3 -> mul A1 M = Ok B1 -> mul A2 M = Ok B2 -> exists B3, mul A3 M = Ok B3 /\ tri l B1 B2 B3.
Proof.
  intros ((W1 & W2 & ER & EC) & ->). unfold mul, is_multiplicable_with. rewrite EC. destruct (Nat.eqb_spec (nc A1) (nr M)) as [E|]; [|discriminate]. cbn [negb]. intros [= <-] [= <-].
  cbn [nc mk comb nr]. rewrite E, Nat.eqb_refl. cbn [negb]. eexists. split; [reflexivity|]. unfold matmul. rewrite ER, EC. split; [apply mk_alike|]. rewrite comb_mk. apply mk_ext. intros i j Hi Hj.
  rewrite <- sum_lc. cbn [nc mk comb]. apply sumn_ext. intros k Hk. rewrite comb_entry by assumption. unfold lc. cbn. ring.
Qed.
Lemma tri_set_column l A1 A2 A3 k v1 v2 v3 B1 B2 : tri l A1 A2 A3 -> tri l v1 v2 v3 -> set_column A1 k v1 = Ok B1 -> set_column A2 k v2 = Ok B2 -> exists B3, set_column A3 k v3 = Ok B3 /\ tri l B1 B2 B3.
Proof.
  intros ((W1 & W2 & ER & EC) & ->) ((V1 & V2 & FR & FC) & ->). unfold set_column, must_be_vector, is_row_vector, is_vector. rewrite ER, EC, FR, FC. cbn [nr nc mk comb].
  destruct ((nr v1 =? 1) || (nc v1 =? 1)) eqn:Ev; [|discriminate]. cbn [bind]. destruct (npidx (nc A1) k) as [m|]; [|discriminate]. cbn [bind]. intros [= <-] [= <-].
  eexists. split; [reflexivity|]. assert (ET : nr (if true && (nr v1 =? 1) then transpose v2 else v2) = nr (if true && (nr v1 =? 1) then transpose v1 else v1)) by (destruct (nr v1 =? 1); cbn; congruence).
  assert (ET3 : nr (if true && (nr v1 =? 1) then transpose (comb l v1 v2) else comb l v1 v2) = nr (if true && (nr v1 =? 1) then transpose v1 else v1)) by (destruct (nr v1 =? 1); cbn; congruence).
  cbn [andb] in ET, ET3 |- *.
  assert (EV : forall r, r < nr (if nr v1 =? 1 then transpose v1 else v1) -> entry (if nr v1 =? 1 then transpose (comb l v1 v2) else comb l v1 v2) r 0 = lc l (entry (if nr v1 =? 1 then transpose v1 else v1) r 0) (entry (if nr v1 =? 1 then transpose v2 else v2) r 0)).
  { intros r Hr. apply orb_true_iff in Ev. destruct (Nat.eqb_spec (nr v1) 1) as [E1|E1].
    - cbn [nr transpose mk] in Hr. unfold transpose. rewrite FC, FR. cbn [nr nc mk comb]. rewrite !entry_mk by lia. apply comb_entry; lia.
    - destruct Ev as [Ev|Ev]; [discriminate|]. apply Nat.eqb_eq in Ev. apply comb_entry; lia. }
  rewrite ET, ?ET3. split; [apply mk_alike|].
  rewrite comb_mk. cbn [nr nc mk comb]. apply mk_ext. intros i j Hi Hj. rewrite ?ET, ?ET3. destruct ((j =? m) && _) eqn:Ec; [|now apply comb_entry]. apply andb_true_iff in Ec. destruct Ec as (_ & Ec). apply Nat.ltb_lt in Ec. apply EV. lia.
Qed.
Lemma tri_sub l A1 A2 A3 B1 B2 B3 C1 C2 : tri l A1 A2 A3 -> tri l B1 B2 B3 -> sub A1 B1 = Ok C1 -> sub A2 B2 = Ok C2 -> exists C3, sub A3 B3 = Ok C3 /\ tri l C1 C2 C3.
Proof.
  intros ((W1 & W2 & RA & CA) & ->) ((V1 & V2 & RB & CB) & ->). unfold sub, must_be_same_shape, dimensions_must_match. cbn [negb orb andb nr nc mk comb]. rewrite !andb_true_r, RA, CA, RB, CB.
  destruct (Nat.eqb_spec (nr A1) (nr B1)) as [E3|]; [|discriminate]. destruct (Nat.eqb_spec (nc A1) (nc B1)) as [E4|]; [|discriminate]. cbn [andb bind]. intros [= <-] [= <-]. eexists. split; [reflexivity|].
  unfold map2_mat. rewrite RA, CA. split; [apply mk_alike|]. rewrite comb_mk. cbn [nr nc mk comb]. apply mk_ext. intros i j Hi Hj. rewrite !comb_entry by lia. unfold lc. cbn. ring.
Qed.
Lemma tri_scaled l p t1 t2 t3 : t3 = lc l t1 t2 -> tri l (mul_scalar p t1) (mul_scalar p t2) (mul_scalar p t3).
Proof. intros ->. split; [apply mk_alike|]. unfold mul_scalar, map_mat. rewrite comb_mk. apply mk_ext. intros i j Hi Hj. unfold lc. cbn. ring. Qed.
Lemma tri_as_real l A1 A2 A3 t1 t2 : tri l A1 A2 A3 -> as_real A1 = Ok t1 -> as_real A2 = Ok t2 -> as_real A3 = Ok (lc l t1 t2).
Proof.
  intros ((W1 & W2 & RA & CA) & ->). unfold as_real, get. cbn [nr nc mk comb]. rewrite RA, CA. destruct (Nat.eqb_spec (nr A1) 1) as [E1|]; [|discriminate]. destruct (Nat.eqb_spec (nc A1) 1) as [E2|]; [|discriminate].
  cbn [negb orb]. rewrite E1, E2. change (npidx 1 0) with (Ok 0). cbn [bind]. intros [= <-] [= <-]. f_equal. apply comb_entry; lia.
Qed.
Lemma pls1_row_tri n s l x1 x2 x3 t1 t2 : tri l x1 x2 x3 -> pls1_row n s x1 = Ok t1 -> pls1_row n s x2 = Ok t2 -> exists t3, pls1_row n s x3 = Ok t3 /\ tri l t1 t2 t3.
Proof.
  intros Hx. unfold pls1_row. match goal with |- context [for_range _ ?b _] => set (body := b) end.
  assert (Z0 : tri l (zeros (T:=R) 1 n) (zeros 1 n) (zeros 1 n)).
  { assert (E : exists c, zeros (T:=R) 1 n = mk 1 c (fun _ _ => 0%R)) by (unfold zeros, create, rlen; eexists; apply (np_array2_tab 1); lia). destruct E as (c & ->). split; [apply mk_alike|]. rewrite comb_mk.
    apply mk_ext. intros i j _ _. unfold lc. ring. }
  assert (G : forall k st1 st2 st3 r1 r2, tri l (fst (fst st1)) (fst (fst st2)) (fst (fst st3)) -> tri l (snd (fst st1)) (snd (fst st2)) (snd (fst st3)) -> tri l (snd st1) (snd st2) (snd st3) ->
     for_each k body st1 = Ok r1 -> for_each k body st2 = Ok r2 -> exists r3, for_each k body st3 = Ok r3 /\ tri l (snd r1) (snd r2) (snd r3)).
  { intros k. induction k as [|j k IH]; intros ((a1 & b1) & c1) ((a2 & b2) & c2) ((a3 & b3) & c3) r1 r2; cbn [fst snd for_each]; intros Ha Hb Hc.
    - intros [= <-] [= <-]. eexists. split; [reflexivity|exact Hc].
    - unfold body at 1 3 5. cbv beta iota.
      destruct (set_column b1 (M_PLS.zn j) a1) as [d1|] eqn:D1; [|discriminate]. destruct (set_column b2 (M_PLS.zn j) a2) as [d2|] eqn:D2; [|intros _; discriminate]. destruct (tri_set_column _ _ _ _ _ _ _ _ _ _ Hb Ha D1 D2) as (d3 & -> & Hd). cbn [bind].
      destruct (need (o_W s)) as [W|]; [|discriminate]. cbn [bind]. destruct (get_column W (M_PLS.zn j)) as [w|]; [|discriminate]. cbn [bind].
      destruct (mul a1 w) as [e1|] eqn:E1; [|discriminate]. destruct (mul a2 w) as [e2|] eqn:E2; [|intros _; discriminate]. destruct (tri_mul _ _ _ _ _ _ _ Ha E1 E2) as (e3 & -> & He). cbn [bind].
      destruct (set_column c1 (M_PLS.zn j) e1) as [f1|] eqn:F1; [|discriminate]. destruct (set_column c2 (M_PLS.zn j) e2) as [f2|] eqn:F2; [|intros _; discriminate]. destruct (tri_set_column _ _ _ _ _ _ _ _ _ _ Hc He F1 F2) as (f3 & -> & Hf). cbn [bind].
      destruct (need (o_P s)) as [P|]; [|discriminate]. cbn [bind]. destruct (get_column P (M_PLS.zn j)) as [p|]; [|discriminate]. cbn [bind].
      destruct (as_real e1) as [g1|] eqn:G1; [|discriminate]. destruct (as_real e2) as [g2|] eqn:G2; [|intros _; discriminate]. rewrite (tri_as_real _ _ _ _ _ _ He G1 G2). cbn [bind].
      destruct (sub a1 _) as [h1|] eqn:H1; [|discriminate]. destruct (sub a2 _) as [h2|] eqn:H2; [|intros _; discriminate].
      destruct (tri_sub _ _ _ _ _ _ _ _ _ Ha (tri_scaled l (transpose p) g1 g2 _ eq_refl) H1 H2) as (h3 & -> & Hh). cbn [bind]. now apply IH. }
  destruct (for_range _ body (x1, _, _)) as [r1|] eqn:E1; [|discriminate]. destruct (for_range _ body (x2, _, _)) as [r2|] eqn:E2; [|intros _; discriminate]. cbn [bind]. intros [= <-] [= <-].
  destruct (G (seq 0 (Z.to_nat n)) (x1, zeros 1 n, zeros 1 n) (x2, zeros 1 n, zeros 1 n) (x3, zeros 1 n, zeros 1 n) _ _ Hx Z0 Z0 E1 E2) as (r3 & E3 & H3). unfold for_range. rewrite E3. cbn [bind]. eexists. split; [reflexivity|exact H3].
Qed.

Lemma row_tri l (X1 X2 : mat R) i : alike X1 X2 -> i < nr X1 ->
  tri l (mk 1 (nc X1) (fun _ j => entry X1 i j)) (mk 1 (nc X2) (fun _ j => entry X2 i j)) (mk 1 (nc (comb l X1 X2)) (fun _ j => entry (comb l X1 X2) i j)).
Proof. intros (_ & _ & ER & EC) Hi. rewrite EC. split; [apply mk_alike|]. rewrite comb_mk. cbn [nc mk comb]. apply mk_ext. intros a j _ Hj. now apply comb_entry. Qed.
Lemma affine_pls1_transform n s : n <> (-1)%Z -> affine (pls1_transform n s).
Proof.
  intros Hn. unfold pls1_transform. eapply (affine_loop _ _ (fun _ => Z.to_nat n) (fun _ _ _ => n0)
    (fun X i f => do t <- pls1_row n s (mk 1 (nc X) (fun _ j => entry X i j)); do _ <- must_be_vector t; Ok (put_row t f))).
  - intros X HX _. now apply zeros_q.
  - intros X f i _ Hi. cbv beta. unfold row_as_vector. rewrite get_row_nat by exact Hi. cbn [bind]. destruct (pls1_row _ _ _) as [t|]; [|reflexivity]. cbn [bind]. unfold M_PLS.zn. rewrite set_row_gen by exact Hi.
    destruct (must_be_vector t); [|reflexivity]. cbn [bind]. apply f_equal, mk_ext. intros a0 b0 _ _. destruct (Nat.eqb_spec a0 i) as [->|]; reflexivity.
  - intros l X1 X2 HX. split; [reflexivity|]. split; [reflexivity|]. intros i g1 g2 Hi. pose proof (row_tri l X1 X2 i HX Hi) as Hx.
    destruct (pls1_row n s (mk 1 (nc X1) _)) as [t1|] eqn:E1; [|discriminate]. destruct (pls1_row n s (mk 1 (nc X2) _)) as [t2|] eqn:E2; [|intros _; discriminate].
    destruct (pls1_row_tri _ _ _ _ _ _ _ _ Hx E1 E2) as (t3 & -> & ((V1 & V2 & ER & EC) & ->)). cbn [bind]. unfold must_be_vector, is_vector. rewrite ER, EC. cbn [nr nc mk comb].
    destruct ((nr t1 =? 1) || (nc t1 =? 1)) eqn:Ev; [|discriminate]. cbn [bind]. intros [= <-] [= <-]. eexists. split; [reflexivity|]. intros j Hj. unfold put_row, is_column_vector, is_vector. rewrite ER, EC. cbn [nr nc mk comb]. rewrite Ev. cbn [andb].
    apply orb_true_iff in Ev. destruct (Nat.eqb_spec (nc t1) 1) as [Ec|Ec].
    + unfold transpose. rewrite ER, EC. cbn [nr nc mk comb]. destruct (Nat.ltb_spec j (nr t1)) as [Hl|Hl]; [|unfold lc; cbn; ring]. rewrite !entry_mk by lia. apply comb_entry; lia.
    + destruct Ev as [Ev|Ev]; [|discriminate]. apply Nat.eqb_eq in Ev. rewrite EC. cbn [nc mk comb]. destruct (Nat.ltb_spec j (nc t1)) as [Hl|Hl]; [|unfold lc; cbn; ring]. apply comb_entry; lia.
Qed.
Lemma affine_pls1_predict n s : affine (pls1_predict n s).
Proof.
  unfold pls1_predict. eapply (affine_loop _ _ (fun _ => 1) (fun _ _ _ => n0)
    (fun X i f => do t <- pls1_row n s (mk 1 (nc X) (fun _ j => entry X i j)); do b <- need (o_b_hat s); do tb <- mul t b; do y <- as_real tb; Ok (fun j => if j =? 0 then y else f j))).
  - intros X HX _. change 1%Z with (zn 1). now apply zeros_mk.
  - intros X f i _ Hi. cbv beta. unfold row_as_vector. rewrite get_row_nat by exact Hi. cbn [bind]. destruct (pls1_row _ _ _) as [t|]; [|reflexivity]. cbn [bind].
    destruct (need _) as [b|]; [|reflexivity]. cbn [bind]. destruct (mul t b) as [tb|]; [|reflexivity]. cbn [bind]. destruct (as_real tb) as [y|]; [|reflexivity]. cbn [bind].
    change 0%Z with (zn 0). unfold M_PLS.zn. rewrite set_gen by exact Hi. rewrite npidx_nat by lia. cbn [bind]. apply f_equal, mk_ext. intros a0 c _ _. destruct (Nat.eqb_spec a0 i) as [->|]; reflexivity.
  - intros l X1 X2 HX. split; [reflexivity|]. split; [reflexivity|]. intros i g1 g2 Hi. pose proof (row_tri l X1 X2 i HX Hi) as Hx.
    destruct (pls1_row n s (mk 1 (nc X1) _)) as [t1|] eqn:E1; [|discriminate]. destruct (pls1_row n s (mk 1 (nc X2) _)) as [t2|] eqn:E2; [|intros _; discriminate].
    destruct (pls1_row_tri _ _ _ _ _ _ _ _ Hx E1 E2) as (t3 & -> & Ht). cbn [bind]. destruct (need _) as [b|]; [|discriminate]. cbn [bind].
    destruct (mul t1 b) as [u1|] eqn:U1; [|discriminate]. destruct (mul t2 b) as [u2|] eqn:U2; [|intros _; discriminate]. destruct (tri_mul _ _ _ _ _ _ _ Ht U1 U2) as (u3 & -> & Hu). cbn [bind].
    destruct (as_real u1) as [y1|] eqn:Y1; [|discriminate]. destruct (as_real u2) as [y2|] eqn:Y2; [|intros _; discriminate]. rewrite (tri_as_real _ _ _ _ _ _ Hu Y1 Y2). cbn [bind].
    intros [= <-] [= <-]. eexists. split; [reflexivity|]. intros j Hj. cbv beta. destruct (j =? 0); [reflexivity|unfold lc; cbn; ring].
Qed.
(** denormalise *)
Lemma affine_denormalise {A K} (c : pls_class A K R) mean std : affine (denormalise c mean std).
Proof.
  unfold denormalise. destruct (c_arity c) as [|lo hi].
  - apply (affine_loop (fun _ r i => do x <- get r (zn i) 0; do sd <- lget std 0; do m <- lget mean 0; set r (zn i) 0 (nadd (nmul x sd) m)) (fun X => X) nc entry
      (fun X i f => do k <- npidx (nc X) (zn 0); do sd <- lget std 0; do m <- lget mean 0; Ok (fun j => if j =? k then nadd (nmul (f k) sd) m else f j))).
    + intros X HX W. symmetry. now apply mk_entry.
    + intros X f i W Hi. cbv beta. change 0%Z with (zn 0). rewrite get_gen by exact Hi. destruct (npidx (nc X) (zn 0)) as [k|] eqn:Ek; [|reflexivity]. cbn [bind].
      destruct (lget std _) as [sd|]; [|reflexivity]. destruct (lget mean _) as [m|]; [|reflexivity]. cbn [bind]. rewrite set_gen, Ek by exact Hi. cbn [bind]. apply f_equal, mk_ext. intros a0 b0 Ha Hb.
      destruct (Nat.eqb_spec a0 i) as [->|]; reflexivity.
    + intros l X1 X2 (W1 & W2 & ER & EC). split; [exact EC|]. split; [reflexivity|]. intros i g1 g2 Hi. rewrite EC. cbn [nc mk comb]. destruct (npidx (nc X1) (zn 0)) as [k|] eqn:Ek; [|discriminate]. cbn [bind]. apply npidx_addr in Ek. unfold addr in Ek.
      destruct (lget std 0) as [sd|]; [|discriminate]. destruct (lget mean 0) as [m|]; [|discriminate]. cbn [bind]. intros [= <-] [= <-]. eexists. split; [reflexivity|]. intros j Hj. cbv beta.
      rewrite !comb_entry by lia. destruct (j =? k); [|reflexivity]. unfold lc. cbn. ring.
  - pose (inner := fun (q : nat) (f : nat -> R) => for_range q (fun g j => do sd <- lget std (zn j); do m <- lget mean (zn j); Ok (fun b => if b =? j then nadd (nmul (g j) sd) m else g b)) f).
    assert (Hinner : forall r q f i k, i < r -> k <= q -> for_range k (fun r j => do x <- get r (zn i) (zn j); do sd <- lget std (zn j); do m <- lget mean (zn j); set r (zn i) (zn j) (nadd (nmul x sd) m)) (mk r q f)
       = do g <- inner k (f i); Ok (mk r q (fun a b => if a =? i then g b else f a b))).
    { intros r q f i k Hi. unfold inner. induction k as [|k IH]; intros Hk.
      - cbn [for_range seq for_each bind]. apply f_equal, mk_ext. intros a0 b0 _ _. destruct (Nat.eqb_spec a0 i) as [->|]; reflexivity.
      - unfold for_range in *. rewrite seq_S, !for_each_app. rewrite IH by lia. destruct (for_each (seq 0 k) _ (f i)) as [g|]; [|reflexivity]. cbn [bind plus for_each]. rewrite get_gen, npidx_nat by lia. cbn [bind].
        rewrite Nat.eqb_refl. destruct (lget std (zn k)) as [sd|]; [|reflexivity]. destruct (lget mean (zn k)) as [m|]; [|reflexivity]. cbn [bind]. rewrite set_gen, npidx_nat by lia. cbn [bind]. f_equal. apply mk_ext.
        intros a0 b0 _ _. destruct (Nat.eqb_spec a0 i) as [->|]; [|reflexivity]. reflexivity. }
    assert (Hext : forall l k q f1 f2 f3 g1 g2, k <= q -> (forall j, j < q -> f3 j = lc l (f1 j) (f2 j)) -> inner k f1 = Ok g1 -> inner k f2 = Ok g2 -> exists g3, inner k f3 = Ok g3 /\ forall j, j < q -> g3 j = lc l (g1 j) (g2 j)).
    { intros l k q f1 f2 f3. unfold inner. induction k as [|k IH]; intros g1 g2 Hk Hf.
      - intros [= <-] [= <-]. exists f3. split; [reflexivity|exact Hf].
      - unfold for_range in *. rewrite seq_S, !for_each_app. destruct (for_each (seq 0 k) _ f1) as [h1|]; [|discriminate]. destruct (for_each (seq 0 k) _ f2) as [h2|]; [|intros _; discriminate]. cbn [bind plus for_each].
        destruct (IH h1 h2 ltac:(lia) Hf eq_refl eq_refl) as (h' & -> & Hh). cbn [bind].
        destruct (lget std (zn k)) as [sd|]; [|discriminate]. destruct (lget mean (zn k)) as [m|]; [|discriminate]. cbn [bind]. intros [= <-] [= <-]. eexists. split; [reflexivity|]. intros j Hj. cbv beta. rewrite !Hh by lia.
        destruct (j =? k); [|reflexivity]. unfold lc. cbn. ring. }
    apply (affine_loop (fun X r i => for_range (nc X) (fun r j => do x <- get r (zn i) (zn j); do sd <- lget std (zn j); do m <- lget mean (zn j); set r (zn i) (zn j) (nadd (nmul x sd) m)) r) (fun X => X) nc entry
      (fun X i f => inner (nc X) f)).
    + intros X HX W. symmetry. now apply mk_entry.
    + intros X f i W Hi. cbv beta. now apply Hinner.
    + intros l X1 X2 (W1 & W2 & ER & EC). split; [exact EC|]. split; [reflexivity|]. intros i g1 g2 Hi. rewrite EC. cbn [nc mk comb]. apply Hext; [lia|]. intros j Hj. now apply comb_entry.
Qed.
Lemma affine_sparse_columns A : affine (sparse_columns A).
Proof.
  assert (Hrun : forall X, wf X -> nr X <> 0 -> (forall j, In j A -> j < nc X) -> sparse_columns A X = Ok (mk (nr X) (length A) (fun i k => entry X i (nth k A 0) : R))).
  { intros X W N HA. unfold sparse_columns, M_PLS.zn. rewrite zeros_mk by exact N.
    pose proof (columns_loop_gen (nr X) (nc X) (entry X) A HA (length A) 0 (fun _ _ => n0) (le_n _)) as E. rewrite (mk_entry X W) in E. rewrite E. cbn [bind fst]. apply f_equal, mk_ext. intros i j Hi Hj.
    rewrite Nat.sub_0_r. destruct (Nat.leb_spec 0 j), (Nat.ltb_spec j (0 + length A)); cbn [andb]; try lia. reflexivity. }
  intros l X1 X2 R1 R2 (W1 & W2 & ER & EC) N E1 E2. assert (HA : forall j, In j A -> j < nc X1).
  { unfold sparse_columns in E1. destruct (for_each A _ _) as [r|] eqn:Er; [|discriminate]. apply (columns_loop_inv _ _ _ _ Er). }
  rewrite Hrun in E1 by assumption. rewrite Hrun in E2 by (try assumption; rewrite ?ER, ?EC; assumption). injection E1 as <-. injection E2 as <-. rewrite ER. split; [apply mk_alike|]. split; [reflexivity|].
  rewrite Hrun by (try apply comb_wf; assumption). rewrite comb_mk. apply f_equal, mk_ext. intros i j Hi Hj. cbn [nr mk comb] in Hi. apply comb_entry; [exact Hi|]. apply HA, nth_In, Hj.
Qed.
Lemma affine_center s : row_means_only (ce_means s) -> affine (t_do center s) /\ affine (t_undo center s).
Proof.
  intros Hm. split; cbn [t_do t_undo center]; (apply affine_const; intros mu E; destruct (ce_means s) as [mu'|] eqn:Em; [|discriminate]; injection E as <-; apply affine_vector; [now apply Hm|apply op_sub || apply op_add]).
Qed.
Lemma affine_standardize s : row_means_only (st_means s) -> row_means_only (st_devs s) -> affine (t_do standardize s).
Proof.
  intros Hm Hd. cbn [t_do standardize]. apply affine_const. intros mu E. destruct (st_means s) as [mu'|] eqn:Em; [|discriminate]. injection E as <-.
  apply (affine_bind (fun X => sub_by_vector_modify X mu')); [apply affine_vector; [now apply Hm|apply op_sub]|]. apply affine_const. intros sd E. destruct (st_devs s) as [sd'|] eqn:Ed; [|discriminate]. injection E as <-. apply affine_vector; [now apply Hd|apply op_div].
Qed.
Lemma affine_filled (n : nat) (w : R) : affine (fun X => filled (zn (nr X)) (zn n) w).
Proof.
  intros l X1 X2 R1 R2 (W1 & W2 & ER & EC) N. rewrite !filled_mk, ER. intros [= <-] [= <-]. split; [apply mk_alike|]. split; [reflexivity|]. rewrite comb_mk. cbn [nr mk comb]. apply f_equal, mk_ext. intros i j _ _. unfold lc. ring.
Qed.
Lemma affine_centralize n (K0 : mat R) : affine (centralize_test n K0).
Proof.
  unfold centralize_test, M_PLS.zn. apply affine_const. intros Id _. cbv zeta. set (w := ndiv n1 (nofZ (zn n))).
  apply (affine_ext (fun K => do d <- (do A <- Ok K; do B <- (do o <- filled (zn (nr K)) (zn n) w; mul o K0); sub A B); do c <- sub Id (mk n n (fun _ _ => w)); mul d c)).
  - intros K. rewrite !filled_mk. cbn [bind]. destruct (mul _ K0); [|reflexivity]. reflexivity.
  - apply (affine_bind (fun K => do A <- Ok K; do B <- (do o <- filled (zn (nr K)) (zn n) w; mul o K0); sub A B)).
    + apply (affine_sub Ok (fun K => do o <- filled (zn (nr K)) (zn n) w; mul o K0)); [apply affine_id|]. apply (affine_bind (fun K => filled (zn (nr K)) (zn n) w)); [apply affine_filled|apply affine_mul].
    + apply affine_const. intros c _. apply affine_mul.
Qed.
Definition kernel_affine {KS} (kapply : KS -> mat R -> option (mat R) -> KS * res (mat R)) : Prop := forall ks Y, affine (fun X => snd (kapply ks X (Some Y))).
Lemma linear_affine {KS} : kernel_affine (fun (ks : KS) X Y => (ks, linear_apply_matrix X Y)).
Proof. intros ks Y. cbn [snd]. unfold linear_apply_matrix. apply affine_mul. Qed.
