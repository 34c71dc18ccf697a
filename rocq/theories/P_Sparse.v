(** C60: SparsePLS direction vectors, selected features and predictions. *)
From Coq Require Import List ZArith Lia Bool Arith Reals Lra SpecFloat.
From Verif Require Import Base Num Mat M_Matrix M_Factory M_Helper M_Loop M_Utils M_Linalg M_Transform M_PLSBase M_PLS M_PLS2
  S_Matrix L_Base L_Mat L_MatR L_Matrix L_Transform L_Alg.
Import ListNotations.
Local Open Scope nat_scope.

(** * Predictions read the selected columns only (every number type) *)
Section Select.
Context {T : Type} `{Num T} (lstsq : mat T -> mat T -> res (mat T)) (pinv : mat T -> res (mat T)).
(** Same shape, same values in the columns A. *)
Definition agree_on (A : list nat) (X X' : mat T) : Prop :=
  nr X = nr X' /\ nc X = nc X' /\ forall i j, i < nr X -> In j A -> j < nc X -> entry X i j = entry X' i j.
Lemma columns_agree A X X' : agree_on A X X' -> sparse_columns A X = sparse_columns A X'.
Proof.
  intros (Hr & Hc & He). unfold sparse_columns. rewrite <- Hr. erewrite for_each_ext; [reflexivity|]. intros x i Hi. cbv beta.
  replace (get_column X' (zn i)) with (get_column X (zn i)); [reflexivity|]. unfold get_column. rewrite <- Hc, <- Hr. unfold zn, npidx.
  destruct (Z.ltb_spec (Z.of_nat i) (Z.of_nat (nc X))) as [Hl|Hl]; destruct (Z.leb_spec 0 (Z.of_nat i)); try lia; cbn [andb bind].
  - rewrite Nat2Z.id. do 2 f_equal. apply mk_ext. intros a b _ Hb. apply He; [assumption|assumption|lia].
  - destruct (Z.ltb_spec (Z.of_nat i) 0); try lia. rewrite andb_false_r. reflexivity.
Qed.
(** standardisation works column by column *)
Lemma broadcast_agree A op X X' v : agree_on A X X' -> agree_on A (broadcast_op op X v) (broadcast_op op X' v).
Proof.
  intros (Hr & Hc & He). repeat split; try assumption. intros i j Hi Hj Hj'. cbn [nr nc broadcast_op mk] in Hi, Hj'. unfold broadcast_op. rewrite !entry_mk by congruence. f_equal. now apply He.
Qed.
Lemma op_agree A op X X' v : agree_on A X X' ->
  (exists Z Z', vector_op_modify op X v = Ok Z /\ vector_op_modify op X' v = Ok Z' /\ agree_on A Z Z') \/
  (exists e, vector_op_modify op X v = Err e /\ vector_op_modify op X' v = Err e).
Proof.
  intros Ha. destruct Ha as (Hr & Hc & He) eqn:E. clear E. unfold vector_op_modify. destruct (must_be_vector v) as [u|e]; cbn [bind]; [|right; eauto].
  unfold vector_size_matches. rewrite <- Hr, <- Hc. destruct (negb _); [right; eauto|]. left. exists (broadcast_op op X v), (broadcast_op op X' v). repeat split; try assumption.
  apply (broadcast_agree A op X X' v Ha).
Qed.
Lemma standardize_agree A s X X' : st_configured s = true -> agree_on A X X' ->
  (exists Z Z', t_transform standardize s X = (s, Ok Z) /\ t_transform standardize s X' = (s, Ok Z') /\ agree_on A Z Z') \/
  (exists e, t_transform standardize s X = (s, Err e) /\ t_transform standardize s X' = (s, Err e)).
Proof.
  intros Hs Ha. unfold t_transform. cbn [t_configured standardize t_do]. rewrite Hs. cbn [negb].
  destruct (need (st_means s)) as [mu|e]; cbn [bind]; [|right; eauto]. unfold sub_by_vector_modify, div_by_vector_modify.
  destruct (op_agree A nsub X X' mu Ha) as [(Z1 & Z2 & -> & -> & Hz)|(e & -> & ->)]; cbn [bind]; [|right; eauto].
  destruct (need (st_devs s)) as [sd|e]; cbn [bind]; [|right; eauto].
  destruct (op_agree A ndiv Z1 Z2 sd Hz) as [(Z3 & Z4 & -> & -> & Hz')|(e & -> & ->)]; [left; eauto 6|right; eauto].
Qed.
(** What a successful training leaves: a configured standardisation, the set A, and coefficients
    that vanish outside A. *)
Lemma set_row_entry (m v m' : mat T) k i j : set_row m (zn k) v = Ok m' -> i <> k -> i < nr m -> j < nc m -> entry m' i j = entry m i j.
Proof.
  unfold set_row. destruct (must_be_vector v); cbn [bind]; [|discriminate]. unfold zn. destruct (Nat.ltb_spec k (nr m)).
  - rewrite npidx_nat by assumption. cbn [bind]. intros [= <-] Hi Hr Hc. rewrite entry_mk by assumption. destruct (Nat.eqb_spec i k); [contradiction|]. reflexivity.
  - unfold npidx. destruct (Z.ltb_spec (Z.of_nat k) (Z.of_nat (nr m))); [lia|]. rewrite andb_false_r. destruct (Z.ltb_spec (Z.of_nat k) 0); [lia|]. rewrite andb_false_r. discriminate.
Qed.
Lemma set_row_dims (m v m' : mat T) k : set_row m k v = Ok m' -> nr m' = nr m /\ nc m' = nc m.
Proof.
  unfold set_row. destruct (must_be_vector v); cbn [bind]; [|discriminate]. destruct (npidx (nr m) k); cbn [bind]; [|discriminate]. intros [= <-]. split; reflexivity.
Qed.
Definition zero_outside (A : list nat) (B : mat T) : Prop := forall i j, i < nr B -> j < nc B -> ~ In i A -> entry B i j = n0.
Lemma fill_rows (BA : option (mat T)) A : forall L m c m' c', incl L A ->
  for_each L (fun st idx => do B <- need BA; do row <- get_row B (zn (snd st)); do m <- set_row (fst st) (zn idx) row; Ok (m, S (snd st))) (m, c) = Ok (m', c') ->
  zero_outside A m -> zero_outside A m'.
Proof.
  induction L as [|k L IH]; intros m c m' c' Hi E Hz; cbn [for_each] in E; [injection E as <- _; assumption|]. cbn [fst snd] in E.
  destruct (need BA) as [B|]; cbn [bind] in E; [|discriminate]. destruct (get_row B (zn c)) as [row|]; cbn [bind] in E; [|discriminate].
  destruct (set_row m (zn k) row) as [m1|] eqn:Es; cbn [bind] in E; [|discriminate].
  apply (IH m1 (S c) m' c'); [intros x Hx; apply Hi; now right|exact E|]. destruct (set_row_dims _ _ _ _ Es) as [H1 H2]. intros i j Hr Hc Hn. rewrite H1 in Hr. rewrite H2 in Hc.
  rewrite (set_row_entry _ _ _ _ _ _ Es); [now apply Hz| |assumption|assumption]. intros ->. apply Hn. apply Hi. now left.
Qed.
Lemma step_zero a X y st k A B W yj : nc X <> 0 -> sparse_step lstsq pinv a X y st k = Ok (A, B, W, yj) -> zero_outside A B.
Proof.
  intros HX. unfold sparse_step. destruct st as [[[A0 B0] W0] y0]. intros E.
  destruct (sparse_direction _ _ _) as [w|]; cbn [bind] in E; [|discriminate]. destruct (set_column W0 _ _) as [W1|]; cbn [bind] in E; [|discriminate].
  destruct (sparse_collect w B0) as [A1|]; cbn [bind] in E; [|discriminate]. destruct (sparse_columns A1 X) as [XA|]; cbn [bind] in E; [|discriminate].
  destruct (sparse_regression _ _ _ _ _ _ _) as [BA|]; cbn [bind] in E; [|discriminate]. destruct (for_each A1 _ _) as [[B1 c1]|] eqn:Ef; cbn [bind] in E; [|discriminate]. cbn [fst] in E.
  destruct (mul X B1); cbn [bind] in E; [|discriminate]. destruct (sub y _); cbn [bind] in E; [|discriminate]. injection E as <- <- _ _.
  eapply fill_rows; [apply incl_refl|exact Ef|]. intros i j Hi Hj _. change (zeros (zn (nc X)) (zn (nc y))) with (zeros (T:=T) (Z.of_nat (nc X)) (Z.of_nat (nc y))) in *.
  rewrite zeros_mk in * by assumption. cbn [nr nc mk] in Hi, Hj. now rewrite entry_mk.
Qed.
Lemma fit_zero n a X y A B W yj : nc X <> 0 -> (0 < n)%Z -> sparse_fit lstsq pinv n a X y = Ok (A, B, W, yj) -> zero_outside A B.
Proof.
  intros HX Hn. unfold sparse_fit, for_range. replace (Z.to_nat n) with (S (Z.to_nat n - 1)) by lia. rewrite seq_S, for_each_app. destruct (for_each (seq 0 _) _ _) as [st|]; cbn [bind]; [|discriminate].
  cbn [for_each]. destruct (sparse_step _ _ _ _ _ _ _) as [[[[A1 B1] W1] y1]|] eqn:Es; cbn [bind]; [|discriminate]. intros [= <- <- _ _]. eapply step_zero; eassumption.
Qed.
Notation cls := (sparse_pls lstsq pinv).
(** Training of a fresh or used object, any preprocessing. *)
Theorem C60_features s X Y s' : (0 < p_num_components s)%Z -> nc X <> 0 ->
  initialize cls s (Some X) (Some Y) = (s', Ok None) ->
  exists A B, sp_A (p_own s') = Some A /\ sp_B (p_own s') = Some B /\
    (** coefficients of the features that are not selected are zero *)
    zero_outside A B /\
    (** rows that differ in other features only get the same predictions *)
    (forall Z Z', agree_on A Z Z' -> predict cls s' Z = predict cls s' Z').
Proof.
  intros Hn HX E. cbn [initialize] in E. destruct (check_data cls Y); [discriminate|].
  destruct (do_initialize cls (reset cls s) X Y) as [s1 r] eqn:Ed. destruct r as [[m|]|e]; try discriminate. injection E as <-.
  unfold do_initialize in Ed. destruct (prepare _ _ _) as [[[[mean std] tp] tr]|e]; [|discriminate]. destruct (pt_fit tp X) as [tp' [X'|e]] eqn:EX; [|discriminate]. destruct (pt_fit tr Y) as [tr' [Y'|e]]; [|discriminate].
  cbv zeta in Ed. cbn [set_prep p_num_components p_own reset c_reset sparse_pls] in Ed. cbn [c_train sparse_pls] in Ed.
  assert (HX' : nc X' = nc X).
  { clear - EX. assert (Hop : forall op (m v r : mat T), vector_op_modify op m v = Ok r -> nc r = nc m).
    { intros op m v r. unfold vector_op_modify. destruct (must_be_vector v); cbn [bind]; [|discriminate]. destruct (negb _); [discriminate|]. now intros [= <-]. }
    unfold pt_fit in EX. destruct tp as [[t|t]|]; cbn [pt_configure] in EX; [| |injection EX as _ <-; reflexivity].
    - cbn [t_configure center] in EX. unfold pt_transform, t_transform in EX. cbn [t_configured center ce_configured negb t_do ce_means need bind] in EX. injection EX as _ EX. eapply Hop; eassumption.
    - destruct (t_configure standardize t X) as [t1 [u|e]] eqn:Et; [|discriminate]. cbn [t_configure standardize] in Et. destruct (zero_guard (column_stdevs X)) as [sd|e]; [|discriminate]. injection Et as <- _.
      unfold pt_transform, t_transform in EX. cbn [t_configured standardize st_configured negb t_do st_means st_devs need bind] in EX. injection EX as _ EX.
      destruct (sub_by_vector_modify X _) as [Z1|] eqn:E1; cbn [bind] in EX; [|discriminate]. apply Hop in E1. apply Hop in EX. congruence. }
  unfold sparse_train in Ed. cbn [sp_standardize_X sp_standardize_Y] in Ed.
  destruct (t_transform standardize (t_new standardize) X') as [sx [X1|e]] eqn:E1; [|discriminate].
  destruct (t_transform standardize (t_new standardize) Y') as [sy [Y1|e]]; [|discriminate].
  destruct (sparse_fit lstsq pinv _ _ X1 Y1) as [[[[A B] W] yj]|e] eqn:Ef; [|discriminate]. injection Ed as <-.
  assert (Hc : st_configured sx = true /\ nc X1 = nc X').
  { unfold t_transform in E1. change (t_configured standardize (t_new (standardize (T:=T)))) with false in E1. cbn [negb] in E1. rewrite standardize_configure in E1 by congruence.
    assert (Hs : sx = std_conf X') by congruence. assert (Ht : t_do standardize (std_conf X') X' = Ok X1) by congruence. rewrite Hs. split; [reflexivity|].
    rewrite standardize_do, Nat.eqb_refl in Ht. now injection Ht as <-. }
  destruct Hc as [Hc HX1]. exists A, B. cbn [p_own set_own set_initialised sp_A sp_B]. split; [reflexivity|]. split; [reflexivity|]. split.
  { eapply fit_zero; [|exact Hn|exact Ef]. congruence. }
  intros Z Z' Ha. unfold predict. cbn [p_initialised set_initialised negb]. unfold do_predict. cbn [c_predict sparse_pls p_own set_own set_initialised].
  unfold sparse_predict. cbn [sp_standardize_X sp_A sp_B sp_standardize_Y sp_tol sp_max_iter sp_lambda sp_W].
  destruct (standardize_agree A sx Z Z' Hc Ha) as [(Z1 & Z2 & -> & -> & Hz)|(e & -> & ->)]; [|reflexivity]. cbn [bind]. now rewrite (columns_agree A Z1 Z2 Hz).
Qed.
End Select.
Print Assumptions C60_features.

(** * Direction vectors, over the reals *)
Definition sgn (x : R) : R := if Rlt_dec x 0 then (-1)%R else if Rlt_dec 0 x then 1%R else 0%R.
Lemma abs_el_R x : abs_el x = Rabs x.
Proof. unfold abs_el. cbn [nltb n0 nopp NumR]. unfold Rltb, Rabs. destruct (Rlt_dec x 0); destruct (Rcase_abs x); lra. Qed.
Lemma sign_el_R x : sign_el x = sgn x.
Proof. unfold sign_el, sgn. cbn [nltb n0 nofZ NumR]. unfold Rltb. destruct (Rlt_dec x 0); [reflexivity|]. destruct (Rlt_dec 0 x); reflexivity. Qed.
Lemma raw1_col {T} `{Num T} p (f : nat -> nat -> T) : to_raw_copy_1D (mk p 1 f) = map (fun i => f i 0) (seq 0 p).
Proof.
  unfold to_raw_copy_1D. cbn [nr nc mk seq flat_map]. rewrite app_nil_r. fold (mk p 1 f). apply map_ext_in. intros i Hi. apply in_seq in Hi. now rewrite entry_mk by lia.
Qed.
Lemma max_step (a b : R) : (if negb (neqb a a) then a else if nleb b a then a else b) = if Rle_dec b a then a else b.
Proof. cbn [neqb nleb NumR]. unfold Reqb, Rleb. destruct (Req_EM_T a a); [|contradiction]. cbn [negb]. now destruct (Rle_dec b a). Qed.
Lemma fold_max (l : list R) : forall x,
  let M := fold_left (fun a b : R => if negb (neqb a a) then a else if nleb b a then a else b) l x in
  (In M (x :: l)) /\ forall z, In z (x :: l) -> (z <= M)%R.
Proof.
  induction l as [|b l IH]; intros x; cbn [fold_left].
  - split; [now left|]. intros z [->|[]]. lra.
  - rewrite max_step. destruct (Rle_dec b x) as [Hb|Hb].
    + specialize (IH x). cbv zeta in *. destruct IH as [I1 I2]. split; [destruct I1 as [I1|I1]; [now left|right; now right]|]. intros z [->|[->|Hz]]; [apply I2; now left| |apply I2; now right].
      apply Rle_trans with x; [exact Hb|]. apply I2. now left.
    + specialize (IH b). cbv zeta in *. destruct IH as [I1 I2]. split; [destruct I1 as [I1|I1]; [right; now left|right; now right]|]. intros z [->|[->|Hz]]; [|apply I2; now left|apply I2; now right].
      apply Rle_trans with b; [lra|]. apply I2. now left.
Qed.
Lemma mmax_col p (f : nat -> nat -> R) : p <> 0 -> exists M, mmax (mk p 1 f) = Ok M /\ (exists k, k < p /\ M = f k 0) /\ forall k, k < p -> (f k 0%nat <= M)%R.
Proof.
  intros Hp. unfold mmax. rewrite raw1_col. destruct p as [|p]; [contradiction|]. cbn [seq map]. destruct (fold_max (map (fun i => f i 0) (seq 1 p)) (f 0 0)) as [I1 I2].
  eexists. split; [reflexivity|]. change (f 0 0 :: map (fun i => f i 0) (seq 1 p)) with (map (fun i => f i 0) (seq 0 (S p))) in *. split.
  - apply in_map_iff in I1 as (k & E & Hk). apply in_seq in Hk. exists k. split; [lia|]. now rewrite E.
  - intros k Hk. apply I2. apply in_map_iff. exists k. split; [reflexivity|]. apply in_seq. lia.
Qed.
Lemma where_col {T} `{Num T} p (f : nat -> nat -> T) (q : T -> bool) : where_vector (mk p 1 f) q = Ok (filter (fun i => q (f i 0)) (seq 0 p)).
Proof.
  unfold where_vector, must_be_vector. rewrite is_vector_col. cbn [bind]. assert (E : forall i, i < p -> entry (mk p 1 f) i 0 = f i 0) by (intros; rewrite entry_mk by lia; reflexivity).
  destruct (is_row_vector (mk p 1 f)) eqn:Er.
  - unfold is_row_vector in Er. rewrite is_vector_col in Er. cbn [nr nc mk andb] in Er |- *. fold (mk p 1 f). apply Nat.eqb_eq in Er. subst p. cbn [seq filter]. now rewrite E by lia.
  - cbn [nr mk]. fold (mk p 1 f). f_equal. apply filter_ext_in. intros i Hi. apply in_seq in Hi. now rewrite E by lia.
Qed.
Lemma fill_at p (g : nat -> nat -> R) L : forall f, (forall i, In i L -> i < p) ->
  for_each L (fun c idx => do val <- get (mk p 1 g) (zn idx) 0; set c (zn idx) 0 val) (mk p 1 f) =
  Ok (mk p 1 (fun i j => if existsb (Nat.eqb i) L then g i 0 else f i j)).
Proof.
  induction L as [|k L IH]; intros f Hl; cbn [for_each].
  - reflexivity.
  - unfold zn. rewrite get_mk_0 by (auto with arith || apply Hl; now left). cbn [bind]. rewrite set_mk_0 by (auto with arith || apply Hl; now left). cbn [bind].
    rewrite IH by (intros; apply Hl; now right). f_equal. apply mk_ext. intros i j Hi Hj. cbn [existsb]. replace j with 0 by lia. rewrite andb_true_r.
    destruct (Nat.eqb_spec i k); cbn [orb]; [subst; destruct (existsb _ L); reflexivity|reflexivity].
Qed.

Section Direction.
Variables (lambda : R) (n p : nat) (x : nat -> nat -> R) (y : nat -> R).
(** covariance of feature j with the response *)
Definition gcov (j : nat) : R := Rsum n (fun k => (x k j * y k)%R).
(** soft thresholding of the covariances scaled by m, M their largest magnitude *)
Definition soft (m M : R) (j : nat) : R :=
  let z := (gcov j / m)%R in if Rle_dec 0 (Rabs z - lambda * M) then ((Rabs z - lambda * M) * sgn z)%R else 0%R.
Theorem C60_direction_partial : p <> 0 ->
  exists m M, m = np_median (map (fun j => Rabs (gcov j)) (seq 0 p)) /\
    (exists k, k < p /\ M = Rabs (gcov k / m)) /\ (forall k, k < p -> (Rabs (gcov k / m) <= M)%R) /\
    sparse_direction lambda (mk n p x) (mk n 1 (fun i _ => y i)) =
      Ok (mk p 1 (fun j _ => (soft m M j / Rsum p (fun k => soft m M k * soft m M k))%R)).
Proof.
  intros Hp. unfold sparse_direction. rewrite transpose_mk, mul_mk. cbn [bind].
  set (Zp := mk p 1 _). assert (EZ : Zp = mk p 1 (fun j _ => gcov j)).
  { unfold Zp. apply mk_ext. intros j c Hj Hc. unfold gcov. now rewrite Rsum_sumn. }
  rewrite EZ. clear Zp EZ. set (m := median (abs (mk p 1 (fun j _ => gcov j)))).
  assert (Em : m = np_median (map (fun j => Rabs (gcov j)) (seq 0 p))).
  { unfold m, median. f_equal. unfold abs, apply_elementwise, map_mat. cbn [nr nc mk]. rewrite raw1_col. apply map_ext_in. intros i Hi. apply in_seq in Hi. fold (mk p 1 (fun j _ : nat => gcov j)). rewrite entry_mk by lia. apply abs_el_R. }
  clearbody m. rewrite div_scalar_mk. unfold abs, sign, apply_elementwise, map_mat. cbn [nr nc mk]. fold (mk p 1 (fun j _ : nat => (gcov j / m)%R)).
  set (Ab := mk p 1 (fun i j => abs_el _)). assert (EA : Ab = mk p 1 (fun j _ => Rabs (gcov j / m))).
  { unfold Ab. apply mk_ext. intros i j Hi Hj. rewrite entry_mk by assumption. apply abs_el_R. }
  rewrite EA. clear Ab EA. destruct (mmax_col p (fun j _ => Rabs (gcov j / m)) Hp) as (M & EM & HM1 & HM2). exists m, M. split; [exact Em|]. split; [exact HM1|]. split; [exact HM2|].
  rewrite EM. cbn [bind]. rewrite sub_scalar_mk, where_col. cbn [bind].
  match goal with |- context [mul_elementwise (mk p 1 ?a) ?b] => assert (Eb : mul_elementwise (mk p 1 a) b = Ok (mk p 1 (fun j _ => ((Rabs (gcov j / m) - lambda * M) * sgn (gcov j / m))%R))) end.
  { unfold mul_elementwise, same_shape_as. cbn [nr nc mk]. rewrite !Nat.eqb_refl. cbn [andb negb]. f_equal. unfold map2_mat. cbn [nr nc mk]. apply mk_ext. intros i j Hi Hj.
    change (nmul (entry (mk p 1 (fun i _ : nat => nsub (Rabs (gcov i / m)) (nmul lambda M))) i j) (entry (mk p 1 (fun i j : nat => sign_el (entry (mk p 1 (fun i0 _ : nat => ndiv (gcov i0) m)) i j))) i j) = ((Rabs (gcov i / m) - lambda * M) * sgn (gcov i / m))%R). rewrite !entry_mk by assumption. rewrite sign_el_R. reflexivity. }
  rewrite Eb. cbn [bind]. clear Eb. change (zeros (zn p) 1) with (zeros (T:=R) (Z.of_nat p) (Z.of_nat 1)). rewrite zeros_mk by assumption.
  rewrite fill_at by (intros i Hi; apply filter_In in Hi as [Hi _]; apply in_seq in Hi; lia). cbn [bind]. f_equal.
  match goal with |- div_scalar (mk p 1 ?a) _ = _ => replace (mk p 1 a) with (mk p 1 (fun j _ => soft m M j)) end.
  2:{ apply mk_ext. intros i j Hi Hj. unfold soft. destruct (Rle_dec 0 (Rabs (gcov i / m) - lambda * M)) as [Hr|Hr].
      - assert (Q : existsb (Nat.eqb i) (filter (fun i => nleb n0 (nsub (Rabs (gcov i / m)) (nmul lambda M))) (seq 0 p)) = true).
        { apply existsb_exists. exists i. split; [|apply Nat.eqb_refl]. apply filter_In. split; [apply in_seq; lia|]. cbn [nleb nsub nmul n0 NumR]. unfold Rleb. destruct (Rle_dec 0 _); [reflexivity|contradiction]. }
        now rewrite Q.
      - destruct (existsb _ _) eqn:Q; [|reflexivity]. apply existsb_exists in Q as (k & Hk & Ek). apply Nat.eqb_eq in Ek. subst k. apply filter_In in Hk as [_ Hk]. cbn [nleb nsub nmul n0 NumR] in Hk. unfold Rleb in Hk. destruct (Rle_dec 0 _); [contradiction|discriminate]. }
  rewrite div_scalar_mk, norm2_squared_col. apply mk_ext. intros i j Hi Hj. cbn [ndiv NumR]. f_equal. symmetry. apply Rsum_sumn.
Qed.
(** The length of the direction vector is 1/|c| where c is the thresholded vector: it is a unit
    vector exactly when c is one. *)
Theorem C60_length_partial (c : nat -> R) : let w j := (c j / Rsum p (fun k => c k * c k))%R in
  Rsum p (fun k => (c k * c k)%R) <> 0%R ->
  (Rsum p (fun j => w j * w j) * Rsum p (fun k => c k * c k) = 1)%R /\
  (Rsum p (fun j => (w j * w j)%R) = 1%R <-> Rsum p (fun k => (c k * c k)%R) = 1%R).
Proof.
  intros w Hc. set (S := Rsum p (fun k => (c k * c k)%R)) in *. assert (E : Rsum p (fun j => (w j * w j)%R) = (/ S)%R).
  { assert (E1 : Rsum p (fun j => (w j * w j)%R) = Rsum p (fun j => (/ S * / S * (c j * c j))%R)) by (apply Rsum_ext; intros; unfold w, Rdiv; fold S; ring).
    rewrite E1, Rsum_sumn, sumR_scal, <- Rsum_sumn. fold S. field. exact Hc. }
  rewrite E. split; [field; exact Hc|]. split; intros Q; [|rewrite Q; field]. rewrite <- (Rinv_inv S), Q. field.
Qed.
End Direction.

(** Not a unit vector: covariances 1 and 3, lambda = 1/2 (the default); the vector is (0, 4/3),
    not of length 1. *)
Definition exF (z : Z) : f64 := nofZ z.
Theorem C60_refuted : exists w, sparse_direction (T:=f64) (lit 5 1) (Mat 2 2 [[exF 1; exF 0]; [exF 0; exF 1]]) (Mat 2 1 [[exF 1]; [exF 3]]) = Ok w /\
  nltb (nofZ 1) (norm2_squared w) = true.
Proof. eexists. split; [vm_compute; reflexivity|]. vm_compute. reflexivity. Qed.
(** A training that selects one of two features. *)
Definition ex_cls := sparse_pls (T:=f64) (fun _ _ => Err LinAlgError) (fun m => Ok (mk 1 1 (fun _ _ => ndiv (exF 1) (entry m 0 0)))).
Definition ex_s := fst (initialize ex_cls (fst (setattr ex_cls (construct ex_cls) (ANumComponents 1)))
    (Some (Mat 3 2 [[exF 1; exF 0]; [exF 2; exF 1]; [exF 4; exF 0]])) (Some (Mat 3 1 [[exF 1]; [exF 2]; [exF 5]]))).
Example C60_ex : p_initialised ex_s = true /\ sp_A (p_own ex_s) = Some [0].
Proof. split; vm_compute; reflexivity. Qed.
Print Assumptions C60_features.
Print Assumptions C60_direction_partial.
Print Assumptions C60_length_partial.
Print Assumptions C60_refuted.
