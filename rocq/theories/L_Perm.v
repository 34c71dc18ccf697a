(** Computing with reordered rows: two runs of the same code, the second on reordered rows, over the reals. *)
From Coq Require Import List ZArith Lia Bool Arith Reals Lra Permutation.
From Verif Require Import Base Num Mat M_Matrix M_Factory M_Helper M_Loop M_Utils M_Linalg M_Transform M_PLSBase M_PLS.
From Verif Require Import S_Matrix L_Base L_Mat L_Matrix L_MatR L_Alg.
Import ListNotations.
Local Open Scope nat_scope.

(** Two results: both values, related, or the same exception *)
Definition rrel {A B} (Q : A -> B -> Prop) (x : res A) (y : res B) : Prop :=
  match x, y with Ok a, Ok b => Q a b | Err e, Err e' => e = e' | _, _ => False end.
Lemma rrel_bind {A B C D} (Q : A -> B -> Prop) (Q' : C -> D -> Prop) x y (f : A -> res C) (g : B -> res D) :
  rrel Q x y -> (forall a b, Q a b -> rrel Q' (f a) (g b)) -> rrel Q' (bind x f) (bind y g).
Proof. intros Hx Hf. destruct x, y; cbn in *; try contradiction; auto. Qed.
Lemma rrel_refl {A} (x : res A) : rrel eq x x.
Proof. now destruct x. Qed.
Lemma rrel_eq {A} (x y : res A) : rrel eq x y -> x = y.
Proof. destruct x, y; cbn; intros; subst; auto; contradiction. Qed.
Lemma rrel_range {A B} (Q : A -> B -> Prop) k (f : A -> nat -> res A) (g : B -> nat -> res B) a b :
  Q a b -> (forall x y i, Q x y -> rrel Q (f x i) (g y i)) -> rrel Q (for_range k f a) (for_range k g b).
Proof.
  intros Hab Hf. unfold for_range. revert a b Hab. induction (seq 0 k) as [|i l IH]; intros a b Hab; cbn [for_each]; [exact Hab|].
  apply (rrel_bind Q); [now apply Hf|]. intros. now apply IH.
Qed.

Definition lsumR (l : list R) : R := fold_right Rplus 0%R l.
Lemma lsumR_app l l' : lsumR (l ++ l') = (lsumR l + lsumR l')%R.
Proof. induction l as [|a l IH]; cbn [app]; [unfold lsumR; cbn; ring|]. cbn [lsumR fold_right]. change (fold_right Rplus 0%R (l ++ l')) with (lsumR (l ++ l')). rewrite IH. unfold lsumR. ring. Qed.
Lemma lsumR_perm l l' : Permutation l l' -> lsumR l = lsumR l'.
Proof. induction 1; cbn; try (unfold lsumR in *; lra); congruence. Qed.
Lemma sumn_lsum k (f : nat -> R) : sumn k f = lsumR (map f (seq 0 k)).
Proof. induction k as [|k IH]; [reflexivity|]. rewrite sumR_S, seq_S, map_app, lsumR_app, <- IH. cbn. lra. Qed.

Section Perm.
Variables (n : nat) (p : nat -> nat).
Hypothesis Hp : Permutation (map p (seq 0 n)) (seq 0 n).
Lemma p_lt i : i < n -> p i < n.
Proof. intros Hi. assert (In (p i) (seq 0 n)) as Q by (apply (Permutation_in _ Hp), in_map, in_seq; lia). apply in_seq in Q. lia. Qed.
Lemma sum_perm (f : nat -> R) : sumn n (fun i => f (p i)) = sumn n f.
Proof. rewrite !sumn_lsum. apply lsumR_perm. rewrite <- (map_map p f). now apply Permutation_map. Qed.

(** The rows of A in the order p *)
Definition pm (A : mat R) : mat R := mk n (nc A) (fun i j => entry A (p i) j).
Definition pr (A B : mat R) : Prop := nr A = n /\ B = pm A.

Lemma pr_mk c (f g : nat -> nat -> R) : (forall i j, i < n -> j < c -> g i j = f (p i) j) -> pr (mk n c f) (mk n c g).
Proof. intros E. split; [reflexivity|]. unfold pm. cbn [nc mk]. apply mk_ext. intros i j Hi Hj. rewrite entry_mk by (auto using p_lt). now apply E. Qed.
Lemma pr_mul A B M : pr A B -> rrel pr (mul A M) (mul B M).
Proof.
  intros (Hn & ->). unfold mul, is_multiplicable_with. cbn [pm nc mk]. destruct (nc A =? nr M); cbn [negb]; [|reflexivity]. cbn [rrel]. unfold matmul. cbn [pm nr nc mk]. rewrite Hn. apply pr_mk.
  intros i j Hi Hj. apply sumn_ext. intros k Hk. unfold pm. now rewrite entry_mk.
Qed.
Lemma pr_tmul A B C D : pr A B -> pr C D -> rrel eq (mul (transpose A) C) (mul (transpose B) D).
Proof.
  intros (Hn & ->) (Hm & ->). unfold mul, is_multiplicable_with, transpose. cbn [pm nc nr mk]. rewrite Hn, Hm, Nat.eqb_refl. cbn [negb rrel]. unfold matmul. cbn [pm nr nc mk]. rewrite <- Hm. apply mk_ext. intros i j Hi Hj. rewrite Hm.
  transitivity (sumn n (fun k => nmul (entry A k i) (entry C k j))); [apply sumn_ext; intros k Hk; now rewrite entry_mk by (assumption || lia)|]. rewrite <- (sum_perm (fun k => nmul (entry A k i) (entry C k j))). apply sumn_ext. intros k Hk. rewrite entry_mk by assumption. unfold pm. now rewrite !entry_mk.
Qed.
Lemma pr_map op A B : pr A B -> pr (map_mat op A) (map_mat op B).
Proof. intros (Hn & ->). unfold map_mat. cbn [pm nr nc mk]. rewrite Hn. apply pr_mk. intros i j Hi Hj. unfold pm. now rewrite entry_mk. Qed.
Lemma pr_shape op A B C D : pr A B -> pr C D -> rrel pr (do _ <- must_be_same_shape A C; Ok (map2_mat op A C)) (do _ <- must_be_same_shape B D; Ok (map2_mat op B D)).
Proof.
  intros (Hn & ->) (Hm & ->). rewrite !must_be_same_shape_eq. unfold same_shape_as. cbn [pm nr nc mk]. rewrite Hn, Hm, Nat.eqb_refl. destruct (Nat.eqb_spec (nc A) (nc C)) as [E|]; cbn [andb bind rrel]; [|reflexivity].
  unfold map2_mat. cbn [pm nr nc mk]. rewrite Hn. apply pr_mk. intros i j Hi Hj. unfold pm. rewrite !entry_mk by (assumption || lia). reflexivity.
Qed.
Lemma pr_sub A B C D : pr A B -> pr C D -> rrel pr (sub A C) (sub B D).
Proof. apply pr_shape. Qed.
Lemma pr_get_column A B k : pr A B -> rrel pr (get_column A k) (get_column B k).
Proof.
  intros (Hn & ->). unfold get_column. cbn [pm nc nr mk]. destruct (npidx (nc A) k) as [j|] eqn:Ej; cbn [bind rrel]; [|reflexivity]. rewrite Hn, !transpose_mk. apply pr_mk. intros i l Hi Hl.
  unfold pm. rewrite entry_mk; [reflexivity|exact Hi|]. eapply npidx_lt; eassumption.
Qed.
Lemma pr_set_column A B v w k : pr A B -> pr v w -> rrel pr (set_column A k v) (set_column B k w).
Proof.
  intros (Hn & ->) (Hm & ->). unfold set_column, must_be_vector, is_vector, is_row_vector, is_column_vector. cbn [pm nr nc mk]. rewrite Hm. match goal with |- context [if ?b then Ok tt else _] => destruct b eqn:Ev; cbn [bind rrel]; [|reflexivity] end.
  destruct (npidx (nc A) k) as [j|] eqn:Ej; cbn [bind rrel]; [|reflexivity]. rewrite Hn. apply pr_mk. intros i c Hi Hc.
  assert (Er : entry (pm A) i c = entry A (p i) c) by (unfold pm; now rewrite entry_mk).
  pose proof (p_lt i Hi) as Hpi. fold (pm A) (pm v). rewrite Er. destruct (Nat.eqb_spec n 1) as [E1|E1].
  - assert (V1 : is_vector v = true) by (unfold is_vector; now rewrite Hm, E1). assert (V2 : is_vector (pm v) = true) by (unfold is_vector; cbn [pm nr nc mk]; now rewrite E1). rewrite V1, V2.
    cbn [orb andb transpose nr mk pm nc]. assert (i = 0) by lia. assert (p i = 0) by lia. fold (pm v). destruct (nc v) as [|cv] eqn:Ec.
    + rewrite (proj2 (Nat.ltb_ge i _)), (proj2 (Nat.ltb_ge (p i) _)) by lia. now rewrite !andb_false_r.
    + assert (P0 : p 0 = 0) by congruence. replace i with 0 in * by lia. rewrite P0. rewrite !(proj2 (Nat.ltb_lt 0 _)) by lia. destruct (c =? j); cbn [andb]; [|reflexivity]. unfold transpose. cbn [pm nr nc mk]. fold (pm v). rewrite !entry_mk by lia. unfold pm. rewrite entry_mk by lia. now rewrite P0.
  - cbn [orb] in Ev. rewrite !andb_false_r. rewrite Hm. cbn [pm nr mk]. fold (pm v). rewrite Nat.min_id. rewrite !(proj2 (Nat.ltb_lt _ n)) by assumption. destruct (c =? j); cbn [andb]; [|reflexivity].
    apply Nat.eqb_eq in Ev. unfold pm. rewrite entry_mk by lia. reflexivity.
Qed.
Lemma pr_frobenius A B : pr A B -> frobenius A = frobenius B.
Proof.
  intros (Hn & ->). unfold frobenius. cbn [pm nr nc mk]. fold (pm A). rewrite Hn. f_equal. rewrite <- (sum_perm (fun i => sumn (nc A) (fun j => nmul (entry A i j) (entry A i j)))). apply sumn_ext. intros i Hi. apply sumn_ext. intros j Hj. unfold pm. now rewrite entry_mk.
Qed.
Lemma pr_norm2 A B : pr A B -> norm2 A = norm2 B.
Proof. intros HA. pose proof (pr_frobenius A B HA) as E. destruct HA as (Hn & ->). unfold norm2, is_vector. rewrite E. cbn [pm nr nc mk]. now rewrite Hn. Qed.
Lemma pr_norm2_squared A B : pr A B -> norm2_squared A = norm2_squared B.
Proof. intros HA. unfold norm2_squared. now rewrite (pr_norm2 A B HA). Qed.
Lemma pr_dot a b c d : pr a b -> pr c d -> nc a = 1 -> nc c = 1 -> rrel eq (vector_dot a c) (vector_dot b d).
Proof.
  intros (Hn & ->) (Hm & ->) C1 C2. unfold vector_dot, is_vector, num_elements. cbn [pm nr nc mk]. rewrite C1, C2, Hn, Hm, !orb_true_r, Nat.eqb_refl, Nat.mul_1_r. cbn [negb orb rrel].
  rewrite <- (sum_perm (fun k => nmul (vec_entry a k) (vec_entry c k))). apply sumn_ext. intros k Hk. pose proof (p_lt k Hk). unfold vec_entry, is_column_vector, is_vector. cbn [pm nr nc mk]. rewrite C1, C2, !orb_true_r. cbn [andb Nat.eqb]. unfold pm. rewrite C1, C2. rewrite !entry_mk by lia. reflexivity.
Qed.
Lemma pr_same A B i j : n = 1 -> pr A B -> i < nr A -> j < nc A -> entry B i j = entry A i j.
Proof. intros E1 (Hn & ->) Hi Hj. unfold pm. rewrite entry_mk by lia. f_equal. pose proof (p_lt i). lia. Qed.
Lemma pr_vector_dot a b c d : pr a b -> pr c d -> rrel eq (vector_dot a c) (vector_dot b d).
Proof.
  intros Ha Hc. destruct (Nat.eq_dec n 1) as [E1|E1].
  - assert (D : nr b = nr a /\ nc b = nc a /\ nr d = nr c /\ nc d = nc c) by (destruct Ha as (? & ->), Hc as (? & ->); cbn [pm nr nc mk]; auto). destruct D as (D1 & D2 & D3 & D4).
    unfold vector_dot, is_vector, num_elements. rewrite D1, D2, D3, D4. destruct (_ || _); [reflexivity|]. destruct (Nat.eqb_spec (nr a * nc a) (nr c * nc c)) as [En|]; cbn [negb rrel]; [|reflexivity].
    assert (N1 : nr a = 1) by (destruct Ha; lia). assert (N2 : nr c = 1) by (destruct Hc; lia). rewrite N1, N2 in *. apply sumn_ext. intros k Hk. unfold vec_entry, is_column_vector, is_vector. rewrite D1, D2, D3, D4, N1, N2. cbn [Nat.eqb orb andb].
    destruct (Nat.eqb_spec (nc a) 1) as [C1|C1], (Nat.eqb_spec (nc c) 1) as [C2|C2]; try lia; f_equal; symmetry; apply pr_same; auto; lia.
  - destruct (Nat.eq_dec (nc a) 1) as [C1|C1]; [destruct (Nat.eq_dec (nc c) 1) as [C2|C2]; [now apply pr_dot|] |]; destruct Ha as (Hn & ->), Hc as (Hm & ->); unfold vector_dot, is_vector; cbn [pm nr nc mk]; rewrite Hn, Hm, (proj2 (Nat.eqb_neq _ _) E1);
    try rewrite (proj2 (Nat.eqb_neq (nc a) 1) C1); try rewrite (proj2 (Nat.eqb_neq (nc c) 1) C2); cbn [orb negb rrel]; rewrite ?orb_true_r; reflexivity.
Qed.
Lemma pr_const c (x : R) : pr (mk n c (fun _ _ => x)) (mk n c (fun _ _ => x)).
Proof. apply pr_mk. reflexivity. Qed.
Lemma pr_zeros k : n <> 0 -> pr (zeros (zn n) k) (zeros (zn n) k).
Proof.
  intros Hn. unfold zeros. destruct (k =? -1)%Z; unfold create, rlen, zn; rewrite Nat2Z.id, np_array2_tab by exact Hn; apply pr_const.
Qed.
Lemma pr_means A B : pr A B -> column_means A = column_means B.
Proof.
  intros (Hn & ->). unfold column_means. cbn [pm nr nc mk]. fold (pm A). rewrite Hn. apply mk_ext. intros _ j _ Hj. unfold np_mean. f_equal. rewrite <- (sum_perm (fun i => entry A i j)). apply sumn_ext. intros i Hi. unfold pm. now rewrite entry_mk.
Qed.
Lemma pr_stdevs A B : pr A B -> column_stdevs A = column_stdevs B.
Proof.
  intros (Hn & ->). unfold column_stdevs. cbn [pm nr nc mk]. fold (pm A). rewrite Hn. apply mk_ext. intros _ j _ Hj. unfold np_std.
  assert (E : np_mean n (fun i => entry A i j) = np_mean n (fun i => entry (pm A) i j)).
  { unfold np_mean. f_equal. rewrite <- (sum_perm (fun i => entry A i j)). apply sumn_ext. intros i Hi. unfold pm. now rewrite entry_mk. }
  rewrite <- E. do 2 f_equal. rewrite <- (sum_perm (fun i => nmul (nsub (entry A i j) _) (nsub (entry A i j) _))). apply sumn_ext. intros i Hi. unfold pm. now rewrite entry_mk.
Qed.
(** broadcasting a row *)
Lemma pr_vector_op op A B v : pr A B -> nr v = 1 -> rrel pr (vector_op_modify op A v) (vector_op_modify op B v).
Proof.
  intros (Hn & ->) Hv. unfold vector_op_modify, must_be_vector, vector_size_matches, is_row_vector, is_vector. rewrite Hv. cbn [Nat.eqb orb andb negb bind pm nc mk]. destruct (nc A =? nc v); cbn [negb rrel]; [|reflexivity].
  unfold broadcast_op. cbn [pm nr nc mk]. fold (pm A). rewrite Hv, Hn. cbn [Nat.eqb]. apply pr_mk. intros i j Hi Hj. unfold pm. now rewrite entry_mk.
Qed.
(** Center and Standardize: the same state, the rows of the result reordered *)
Lemma pr_zero_guard A B : pr A B -> zero_guard (column_stdevs A) = zero_guard (column_stdevs B).
Proof. intros HA. now rewrite (pr_stdevs A B HA). Qed.
Definition trel {S} (x y : S * res (mat R)) : Prop := fst x = fst y /\ rrel pr (snd x) (snd y).
Lemma center_do s A B : pr A B -> (forall m, ce_means s = Some m -> nr m = 1) -> rrel pr (t_do center s A) (t_do center s B).
Proof. intros HA Hs. cbn [t_do center]. destruct (ce_means s) as [m|]; cbn [need bind]; [|reflexivity]. apply pr_vector_op; auto. Qed.
Lemma pr_center s A B : pr A B -> (forall m, ce_means s = Some m -> nr m = 1) -> trel (t_transform center s A) (t_transform center s B).
Proof.
  intros HA Hs. unfold t_transform. cbn [t_configured center]. destruct (ce_configured s); cbn [negb]; [split; [reflexivity|now apply center_do]|]. cbn [t_configure center t_mark]. rewrite (pr_means A B HA). split; [reflexivity|].
  apply center_do; [exact HA|]. intros m Em. cbn in Em. injection Em as <-. reflexivity.
Qed.
Lemma guard_rows l (m m' : mat R) : fold_left (fun acc i => do s <- acc; do x <- get s (Z.of_nat i) 0; if neqb x n0 then set s (Z.of_nat i) 0 (nofZ 1) else Ok s) l (Ok m) = Ok m' -> nr m' = nr m.
Proof.
  revert m. induction l as [|i l IH]; intros m E; cbn [fold_left] in E; [now injection E as <-|]. cbn [bind] in E. destruct (get m (Z.of_nat i) 0) as [x|e] eqn:Eg; cbn [bind] in E.
  - destruct (neqb x n0); [|exact (IH _ E)]. destruct (set m (Z.of_nat i) 0 (nofZ 1)) as [m1|e] eqn:Es.
    + rewrite (IH _ E). unfold set in Es. destruct (npidx (nr m) _); cbn [bind] in Es; [|discriminate]. destruct (npidx (nc m) _); cbn [bind] in Es; [|discriminate]. injection Es as <-. reflexivity.
    + exfalso. clear -E. induction l; cbn in E; [discriminate|auto].
  - exfalso. clear -E. induction l; cbn in E; [discriminate|auto].
Qed.
Lemma std_do s A B : pr A B -> (forall m, st_means s = Some m -> nr m = 1) -> (forall m, st_devs s = Some m -> nr m = 1) -> rrel pr (t_do standardize s A) (t_do standardize s B).
Proof.
  intros HA Hs Hd. cbn [t_do standardize]. destruct (st_means s) as [m|]; cbn [need bind]; [|reflexivity]. apply (rrel_bind pr); [apply pr_vector_op; auto|]. intros a b Hab. destruct (st_devs s) as [d|]; cbn [need bind]; [|reflexivity]. apply pr_vector_op; auto.
Qed.
Definition std_rows (s : std_st R) : Prop := (forall m, st_means s = Some m -> nr m = 1) /\ (forall m, st_devs s = Some m -> nr m = 1).
Lemma pr_standardize s A B : pr A B -> std_rows s -> trel (t_transform standardize s A) (t_transform standardize s B) /\ std_rows (fst (t_transform standardize s A)).
Proof.
  intros HA (Hs & Hd). unfold t_transform. cbn [t_configured standardize]. destruct (st_configured s); cbn [negb]; [split; [split; [reflexivity|now apply std_do]|now split]|]. cbn [t_configure standardize t_mark]. rewrite <- (pr_means A B HA), <- (pr_stdevs A B HA).
  destruct (zero_guard (column_stdevs A)) as [sd|e] eqn:Eg.
  - assert (N : nr sd = 1) by (apply (guard_rows _ _ _ Eg)). split; [|split; cbn; intros m [= <-]; [reflexivity|exact N] ]. split; [reflexivity|]. apply std_do; [exact HA| |]; cbn; intros m [= <-]; [reflexivity|exact N].
  - split; [split; reflexivity|split; cbn; intros m [= <-]; reflexivity].
Qed.
End Perm.
