(** C57: GLSW / EPO filter matrices.  C65: GLSW weights and eigen-directions. *)
From Coq Require Import List ZArith Lia Bool Arith Reals Lra SpecFloat Permutation.
From Verif Require Import Base Num Mat M_Matrix M_Factory M_Helper M_Loop M_Utils M_Linalg M_Transform M_MSC M_PLSBase M_PLS M_PLS2 M_GLSW
  S_Matrix L_Base L_Mat L_Matrix L_MatR L_Linalg L_Alg L_Transform P_Matrix P_Helper P_Linalg P_Eigen P_PLSRefute P_OPLS.
Import ListNotations.
Local Open Scope nat_scope.

Definition symmetric (G : mat R) : Prop :=
  wf G /\ nc G = nr G /\ forall i j, i < nr G -> j < nr G -> entry G i j = entry G j i.

Lemma mul_inv {T} `{Num T} (a b c : mat T) : mul a b = Ok c -> nc a = nr b /\ c = matmul a b.
Proof. unfold mul, is_multiplicable_with. destruct (Nat.eqb_spec (nc a) (nr b)); cbn [negb]; intros E; [|discriminate]. split; [assumption|congruence]. Qed.

Lemma inverse_diag lstsq k (d : nat -> R) : (forall i, i < k -> d i <> 0%R) ->
  inverse np_inv lstsq (mk k k (fun i j => if i =? j then d i else 0%R)) = Ok (mk k k (fun i j => if i =? j then (/ d i)%R else 0%R)).
Proof.
  intros Hd. set (D := mk k k _). destruct (C61_inverse lstsq D (mk_wf _ _ _) eq_refl) as (_ & Hi).
  destruct Hi as (x & E & Wx & X1 & X2 & Hx).
  - intros Hs. apply singular_kernel in Hs; [|reflexivity]. apply Hs. intros v Hv i Hik. specialize (Hv i Hik).
    change (nc D) with k in *. rewrite (sumR_single _ i) in Hv; [|exact Hik|].
    + unfold D in Hv. rewrite entry_mk, Nat.eqb_refl in Hv by assumption. specialize (Hd i Hik). apply Rmult_integral in Hv. tauto.
    + intros j Hj Hne. unfold D. rewrite entry_mk by assumption. apply Nat.eqb_neq in Hne. rewrite Nat.eqb_sym, Hne. ring.
  - rewrite E. f_equal. change (nr D) with k in *. change (nc D) with k in *. apply mat_eq_mk; auto. intros i j Hi Hj. destruct (Hx i j Hi Hj) as (H1 & _).
    rewrite Rsum_sumn in H1. rewrite (sumR_single _ i) in H1; [|exact Hi|].
    + unfold D in H1. rewrite entry_mk, Nat.eqb_refl in H1 by assumption. specialize (Hd i Hi).
      apply (Rmult_eq_reg_l (d i)); [|exact Hd]. rewrite H1. destruct (i =? j); field; exact Hd.
    + intros l Hl Hne. unfold D. rewrite entry_mk by assumption. apply Nat.eqb_neq in Hne. rewrite Nat.eqb_sym, Hne. ring.
Qed.

(** V . diag(d) . V^T *)
Lemma sandwich (V : mat R) k (d : nat -> R) : nc V = k ->
  (do VD <- mul V (mk k k (fun i j => if i =? j then d i else 0%R)); mul VD (transpose V)) =
  Ok (mk (nr V) (nr V) (fun i j => sumn k (fun t => entry V i t * d t * entry V j t)%R)).
Proof.
  intros <-. unfold mul at 1, is_multiplicable_with. cbn [nr mk]. rewrite Nat.eqb_refl. cbn [negb]. rewrite bind_Ok.
  unfold mul, is_multiplicable_with. rewrite transpose_nr, nc_matmul. cbn [nc mk]. rewrite Nat.eqb_refl. cbn [negb]. f_equal.
  unfold matmul. cbn [nr nc mk]. fold (mk (nc V) (nc V) (fun i j => if i =? j then d i else 0%R)). rewrite transpose_nc. apply mk_ext. intros i j Hi Hj.
  apply sumn_ext. intros t Ht. rewrite transpose_entry by assumption. rewrite entry_mk by assumption. cbn [nmul NumR].
  rewrite (sumR_single _ t); [|exact Ht|].
  - rewrite entry_mk by assumption. rewrite Nat.eqb_refl. reflexivity.
  - intros l Hl Hne. rewrite entry_mk by assumption. apply Nat.eqb_neq in Hne. rewrite Hne. ring.
Qed.
Lemma sandwich_sym m k (v : nat -> nat -> R) (d : nat -> R) : symmetric (mk m m (fun i j => sumn k (fun t => v i t * d t * v j t)%R)).
Proof. split; [apply mk_wf|]. split; [reflexivity|]. cbn [nr mk]. fold (mk m m (fun i j => sumn k (fun t => v i t * d t * v j t)%R)).
  intros i j Hi Hj. rewrite !entry_mk by assumption. apply sumn_ext. intros; ring. Qed.

Lemma eye_pos (N : Z) : (0 < N)%Z -> eye (T:=R) N (-1) = Ok (mk (Z.to_nat N) (Z.to_nat N) (fun i j => if i =? j then 1%R else 0%R)).
Proof. intros HN. replace N with (Z.of_nat (Z.to_nat N)) at 1 by lia. apply eye_eyeR. Qed.

Section Laws.
Variable kind : glsw_kind.
Variable eig : mat R -> res (list R * mat R).
Variable svd : mat R -> res (mat R * list R * mat R).
Variable lstsq : mat R -> mat R -> res (mat R).
Variable pow2 : R -> R.

(** shape contracts of the two solvers: one row of eigenvectors per row, min(r, c) singular values *)
Definition solver_shapes : Prop :=
  (forall A l V, eig A = Ok (l, V) -> nr V = nr A) /\
  (forall A u s vh, svd A = Ok (u, s, vh) -> length s = Nat.min (nr A) (nc A)).

Lemma covariance_square x1 x2 C : covariance kind pow2 x1 x2 = Ok C -> nc C = nr C.
Proof.
  unfold covariance, ygrad_covariance, glsw_covariance. intros E. destruct (is_ygrad kind).
  all: repeat match type of E with bind ?r _ = Ok _ => destruct r as [?|] eqn:?; cbn [bind] in E; [|discriminate] end.
  all: repeat match goal with H : mul _ _ = Ok _ |- _ => apply mul_inv in H as [? ->] end.
  all: rewrite nc_matmul, !nr_matmul; reflexivity.
Qed.

Definition weight (a s : R) : R := sqrt (s * s / a + 1).
Lemma weight_pos a s : (0 < a)%R -> (0 < weight a s)%R.
Proof. intros Ha. apply sqrt_lt_R0. assert (0 <= s * s / a)%R; [|lra]. apply Rmult_le_pos; [nra|]. left. now apply Rinv_0_lt_compat. Qed.
Lemma weight_matrix_svd st C u s vh : is_epo kind = false -> (0 < gl_alpha st)%R -> svd C = Ok (u, s, vh) -> length s <> 0 ->
  weight_matrix kind svd st C = Ok (mk (length s) (length s) (fun i j => if i =? j then weight (gl_alpha st) (nth i s 0%R) else 0%R)).
Proof.
  intros Hk Ha E Hs. unfold weight_matrix. rewrite Hk. destruct (svd_parts svd C u s vh E Hs) as (_ & _ & ES). rewrite ES, bind_Ok.
  unfold squares. rewrite map_mk, div_scalar_mk. unfold eye_like. cbn [nr nc mk]. unfold eye.
  destruct (Z.eqb_spec (Z.of_nat (length s)) (-1)) as [Q|Q]; [lia|]. destruct (Z.ltb_spec (Z.of_nat (length s)) 0) as [Q'|Q']; [lia|]. cbn [orb]. rewrite bind_Ok.
  rewrite Nat2Z.id. fold (mk (length s) (length s) (fun j i : nat => ndiv (nmul (if i =? j then nth i s 0%R else 0%R) (if i =? j then nth i s 0%R else 0%R)) (gl_alpha st))).
  rewrite add_mk, bind_Ok. unfold sqrt_mat. rewrite map_mk. f_equal. apply mk_ext. intros i j Hi Hj. cbn [nsqrt nadd ndiv nmul n1 n0 NumR].
  rewrite (Nat.eqb_sym j i). destruct (Nat.eqb_spec i j) as [->|_]; [reflexivity|]. replace (0 * 0 / gl_alpha st + 0)%R with 0%R by (field; lra). apply sqrt_0.
Qed.

(** every G that training stores is symmetric *)
Lemma glsw_matrix_sym st x1 x2 G : solver_shapes -> (0 < gl_alpha st)%R -> (0 < gl_N st)%Z ->
  glsw_matrix kind eig svd lstsq pow2 st x1 x2 = Ok G -> symmetric G.
Proof.
  intros (He & Hs) Ha HN. unfold glsw_matrix. destruct (covariance kind pow2 x1 x2) as [C|] eqn:EC; cbn [bind]; [|discriminate].
  pose proof (covariance_square _ _ _ EC) as Hsq. destruct (eigenvector_matrix kind eig st C) as [V|] eqn:EV; cbn [bind]; [|discriminate].
  destruct (is_epo kind) eqn:Hk.
  - unfold weight_matrix. rewrite Hk. rewrite eye_pos by assumption. rewrite bind_Ok. set (k := Z.to_nat (gl_N st)).
    rewrite (inverse_diag lstsq k (fun _ => 1%R)) by (intros; lra). rewrite bind_Ok.
    intros E. assert (nc V = k). { destruct (mul V _) as [VD|] eqn:E1 in E; [|discriminate]. now apply mul_inv in E1 as [E1 _]. }
    rewrite (sandwich V k (fun _ => / 1)%R) in E by assumption. injection E as <-. apply sandwich_sym.
  - destruct (weight_matrix kind svd st C) as [D|] eqn:ED; cbn [bind]; [|discriminate].
    destruct (svd C) as [[[u s] vh]|] eqn:Esvd.
    2:{ unfold weight_matrix, svd_S, make_svd in ED. rewrite Hk, Esvd in ED. discriminate. }
    destruct (Nat.eq_dec (length s) 0) as [Z0|NZ].
    + assert (nr V = 0) as HV.
      { unfold eigenvector_matrix, make_eig in EV. rewrite Hk in EV. destruct (eig C) as [[l V']|] eqn:EE; [|discriminate]. cbn [bind] in EV. injection EV as <-.
        cbn [snd]. rewrite (He _ _ _ EE). specialize (Hs _ _ _ _ Esvd). rewrite Hsq, Nat.min_id in Hs. congruence. }
      destruct (inverse np_inv lstsq D) as [Di|]; cbn [bind]; [|discriminate]. destruct (mul V Di) as [VD|] eqn:E1; cbn [bind]; [|discriminate].
      intros E2. apply mul_inv in E1 as [_ ->]. apply mul_inv in E2 as [_ ->]. split; [apply matmul_wf|]. rewrite nc_matmul, !nr_matmul, transpose_nc.
      split; [reflexivity|]. rewrite HV. intros; lia.
    + rewrite (weight_matrix_svd st C u s vh) in ED by assumption. injection ED as <-.
      rewrite inverse_diag. 2:{ intros i _. pose proof (weight_pos (gl_alpha st) (nth i s 0%R) Ha). lra. } rewrite bind_Ok.
      intros E. assert (nc V = length s). { destruct (mul V _) as [VD|] eqn:E1 in E; [|discriminate]. now apply mul_inv in E1 as [E1 _]. }
      rewrite (sandwich V (length s) (fun i => / weight (gl_alpha st) (nth i s 0%R))%R) in E by assumption. injection E as <-. apply sandwich_sym.
Qed.
End Laws.

(** C57, life cycle and symmetry.  In every state reachable by any sequence of trainings (succeeding,
    failing, raising, with missing arguments), transforms, resets and parameter assignments, for each of
    the four classes and whatever the solvers answer (of the right shape): alpha and N are positive; the
    object is trained iff it holds a matrix G; G is symmetric; transform raises RuntimeError when untrained
    and otherwise gives X.G (ValueError when the number of columns differs). *)
Theorem C57_symmetric kind eig svd lstsq pow2 (h : list (glsw_op R)) : solver_shapes eig svd ->
  let s := glsw_run kind eig svd lstsq pow2 h in
  (0 < gl_alpha s)%R /\ (0 < gl_N s)%Z /\
  match gl_G s with
  | None => gl_initialised s = false /\ forall x, glsw_transform s x = Err RuntimeError
  | Some G => gl_initialised s = true /\ symmetric G /\
      forall x, (nc x <> nr G -> glsw_transform s x = Err ValueError) /\
        (nc x = nr G -> exists y, glsw_transform s x = Ok y /\
           is_mat y (nr x) (nr G) (fun i j => Rsum (nr G) (fun k => entry x i k * entry G k j)%R))
  end.
Proof.
  intros Hc. cbv zeta.
  assert (Inv : let s := glsw_run kind eig svd lstsq pow2 h in (0 < gl_alpha s)%R /\ (0 < gl_N s)%Z /\
    match gl_G s with None => gl_initialised s = false | Some G => gl_initialised s = true /\ symmetric G end).
  { cbv zeta. unfold glsw_run. 
    assert (H0 : (0 < gl_alpha (glsw_new (T:=R)))%R /\ (0 < gl_N (glsw_new (T:=R)))%Z /\
      match gl_G (glsw_new (T:=R)) with None => gl_initialised (glsw_new (T:=R)) = false | Some G => gl_initialised (glsw_new (T:=R)) = true /\ symmetric G end).
    { cbn. split; [|split; [lia|reflexivity]]. unfold lit. cbn. lra. }
    revert H0. generalize (glsw_new (T:=R)). induction h as [|o l IH]; intros s (I1 & I2 & I3); cbn [fold_left]; [auto|].
    apply IH. destruct o as [x1 x2|x| |a|n]; cbn [glsw_step].
    - destruct x1 as [x1|], x2 as [x2|]; cbn [glsw_initialize fst]; auto.
      + destruct (glsw_check kind x1 x2); [cbn; auto|]. destruct (glsw_matrix _ _ _ _ _ _ _ _) as [G|] eqn:E; cbn; [|auto].
        split; [auto|]. split; [auto|]. split; [reflexivity|]. eapply glsw_matrix_sym in E; eauto.
      + cbn. split; [unfold lit; cbn; lra|]. split; [destruct (is_epo kind); [lia|auto]|reflexivity].
    - auto.
    - cbn. auto.
    - unfold glsw_set_alpha. cbn [nltb n0 NumR]. destruct (Rltb 0 a) eqn:E; cbn [fst]; [|auto]. apply Rltb_true in E. cbn. auto.
    - unfold glsw_set_N. destruct (is_epo kind); cbn [fst]; [|auto]. destruct (Z.ltb_spec 0 n); cbn [fst]; [|auto]. cbn. auto. }
  cbv zeta in Inv. destruct (glsw_run kind eig svd lstsq pow2 h) as [a N G b]. cbn [gl_alpha gl_N gl_G gl_initialised] in *.
  destruct Inv as (I1 & I2 & I3). split; [exact I1|]. split; [exact I2|]. destruct G as [G|].
  - destruct I3 as (-> & Hs). split; [reflexivity|]. split; [exact Hs|]. destruct Hs as (W & Q & _). intros x. unfold glsw_transform. cbn [gl_initialised negb gl_G need]. rewrite bind_Ok.
    unfold mul, is_multiplicable_with. split; intros Hx.
    + apply Nat.eqb_neq in Hx. now rewrite Hx.
    + rewrite Hx, Nat.eqb_refl. eexists. split; [reflexivity|]. unfold matmul. rewrite Q, Hx. apply is_mat_mk_ext. intros i j Hi Hj. now rewrite Rsum_sumn.
  - rewrite I3. split; [reflexivity|]. intros x. reflexivity.
Qed.
Print Assumptions C57_symmetric.

(** C57, rejection, for every number type and every earlier state: with two data sets, GLSW and EPO reject
    unequal shapes, the gradient classes unequal row counts, with a message, untrained and without G;
    no other message is ever returned. *)
Theorem C57_rejects {T} `{Num T} kind eig svd lstsq (pow2 : T -> T) (s : glsw_st T) (x1 x2 : mat T) :
  let r := glsw_initialize kind eig svd lstsq pow2 s (Some x1) (Some x2) in
  let bad := if is_ygrad kind then nr x1 <> nr x2 else nr x1 <> nr x2 \/ nc x1 <> nc x2 in
  ((exists m, snd r = Ok (Some m)) <-> bad) /\
  (bad -> gl_initialised (fst r) = false /\ gl_G (fst r) = None) /\
  ((exists e, snd r = Err e) -> gl_initialised (fst r) = false /\ gl_G (fst r) = None) /\
  (snd r = Ok None -> gl_initialised (fst r) = true).
Proof.
  cbv zeta. cbn [glsw_initialize]. unfold glsw_check, same_shape_as.
  destruct (is_ygrad kind), (Nat.eqb_spec (nr x1) (nr x2)) as [E|E]; try destruct (Nat.eqb_spec (nc x1) (nc x2)) as [E'|E']; cbn [andb].
  all: try (destruct (glsw_matrix _ _ _ _ _ _ _ _)).
  all: cbn [fst snd gl_initialised gl_G glsw_reset]; (split; [split|split; [|split]]); intros Q; try (split; reflexivity); try reflexivity; try tauto; try (left; congruence); try (right; congruence); try (destruct Q; congruence); try congruence; eauto.
Qed.
Print Assumptions C57_rejects.

(** ---- what the matrix is, given the answers of the solvers ---- *)
(** the difference of the two centred data sets, and its Gram matrix *)
Definition cdiff (x1 x2 : mat R) (i a : nat) : R :=
  ((entry x2 i a - Rmean (nr x2) (fun k => entry x2 k a)) - (entry x1 i a - Rmean (nr x1) (fun k => entry x1 k a)))%R.
Definition gram (x1 x2 : mat R) : mat R :=
  mk (nc x1) (nc x1) (fun a b => Rsum (nr x1) (fun i => cdiff x1 x2 i a * cdiff x1 x2 i b)%R).

Lemma center_fresh (x : mat R) : snd (t_transform center (t_new center) x) =
  Ok (mk (nr x) (nc x) (fun i j => (entry x i j - Rmean (nr x) (fun k => entry x k j))%R)).
Proof.
  unfold t_transform. change (t_configured center (t_new center)) with false. cbn [negb].
  change (t_configure center (t_new center) x) with (center_conf x, Ok tt). cbn [snd]. rewrite center_do, Nat.eqb_refl.
  f_equal. apply mk_ext. intros i j Hi Hj. cbn [nsub NumR]. now rewrite Rmean_np.
Qed.
Lemma glsw_covariance_gram (x1 x2 : mat R) : nr x1 = nr x2 -> nc x1 = nc x2 -> glsw_covariance x1 x2 = Ok (gram x1 x2).
Proof.
  intros Hr Hc. unfold glsw_covariance. rewrite !center_fresh, !bind_Ok. rewrite <- Hr, <- Hc, sub_mk, bind_Ok, transpose_mk, mul_mk.
  f_equal. apply mk_ext. intros a b Ha Hb. rewrite Rsum_sumn. apply sumn_ext. intros i Hi. unfold cdiff. rewrite Hr. reflexivity.
Qed.

(** C57.  Training GLSW on two data sets of the same shape with p > 0 columns succeeds whatever the object
    did before, and G = V diag(1/sqrt(s_t^2/alpha + 1)) V^T for the solvers' answers on the Gram matrix of
    the difference of the centred data sets. *)
Theorem C57_glsw_matrix eig svd lstsq pow2 (st : glsw_st R) (x1 x2 : mat R) l V u s vh :
  let p := nc x1 in
  nr x1 = nr x2 -> nc x1 = nc x2 -> p <> 0 -> (0 < gl_alpha st)%R ->
  eig (gram x1 x2) = Ok (l, V) -> nr V = p -> nc V = p ->
  svd (gram x1 x2) = Ok (u, s, vh) -> length s = p ->
  exists G, glsw_initialize KGLSW eig svd lstsq pow2 st (Some x1) (Some x2) = (Glsw (gl_alpha st) (gl_N st) (Some G) true, Ok None) /\
    is_mat G p p (fun i j => Rsum p (fun t => entry V i t * / sqrt (nth t s 0 * nth t s 0 / gl_alpha st + 1) * entry V j t)%R).
Proof.
  intros p Hr Hc Hp Ha EE HV1 HV2 ES Hs. cbn [glsw_initialize]. unfold glsw_check. cbn [is_ygrad]. unfold same_shape_as. rewrite Hr, Hc, !Nat.eqb_refl. cbn [andb].
  unfold glsw_matrix, covariance. cbn [is_ygrad]. rewrite glsw_covariance_gram by assumption. rewrite bind_Ok.
  unfold eigenvector_matrix, make_eig. rewrite EE, bind_Ok. rewrite bind_Ok. cbn [is_epo snd]. rewrite bind_Ok.
  rewrite (weight_matrix_svd KGLSW svd (glsw_reset st) _ u s vh) by (auto; congruence). cbn [gl_alpha glsw_reset]. rewrite bind_Ok.
  rewrite inverse_diag. 2:{ intros i _. pose proof (weight_pos (gl_alpha st) (nth i s 0%R) Ha). lra. } rewrite bind_Ok.
  rewrite (sandwich V (length s) (fun i => / weight (gl_alpha st) (nth i s 0%R))%R) by congruence. cbv beta iota zeta.
  eexists. split; [reflexivity|]. rewrite HV1, Hs. apply is_mat_mk_ext. intros i j Hi Hj. rewrite Rsum_sumn. reflexivity.
Qed.
Print Assumptions C57_glsw_matrix.

Definition orthonormal_columns (V : mat R) (p : nat) : Prop :=
  forall a b, a < p -> b < p -> Rsum p (fun i => entry V i a * entry V i b)%R = delta a b.

Lemma sandwich_col p m (v : nat -> nat -> R) (d : nat -> R) i k : k < m ->
  (forall a b, a < m -> b < m -> sumn p (fun i => v i a * v i b)%R = delta a b) ->
  sumn p (fun j => sumn m (fun t => v i t * d t * v j t) * v j k)%R = (d k * v i k)%R.
Proof.
  intros Hk Hv. rewrite (sumn_ext _ _ (fun j => sumn m (fun t => v i t * d t * (v j t * v j k)))%R).
  2:{ intros j Hj. rewrite <- sumR_scal_r. apply sumn_ext. intros; ring. }
  rewrite sumR_swap. rewrite (sumn_ext _ _ (fun t => v i t * d t * delta t k)%R).
  2:{ intros t Ht. rewrite sumR_scal, Hv by assumption. reflexivity. }
  rewrite (sumR_single _ k); [|exact Hk|].
  - unfold delta. rewrite Nat.eqb_refl. ring.
  - intros t Ht Hne. unfold delta. apply Nat.eqb_neq in Hne. rewrite Hne. ring.
Qed.

(** C65.  The claim is that GLSW maps every eigenvector v (eigenvalue lambda) of the difference covariance
    to v / sqrt(lambda^2/alpha + 1).  What holds: the k-th reported eigenvector is scaled by the k-th
    singular value, so the claim holds exactly when |lambda_k| = s_k for every position k. *)
Theorem C65_weights_partial eig svd lstsq pow2 (st : glsw_st R) (x1 x2 : mat R) l V u s vh :
  let p := nc x1 in let al := gl_alpha st in
  nr x1 = nr x2 -> nc x1 = nc x2 -> p <> 0 -> (0 < al)%R ->
  eig (gram x1 x2) = Ok (l, V) -> eig_answer (gram x1 x2) l V -> orthonormal_columns V p ->
  svd (gram x1 x2) = Ok (u, s, vh) -> length s = p -> (forall k, k < p -> (0 <= nth k s 0)%R) ->
  exists G, glsw_initialize KGLSW eig svd lstsq pow2 st (Some x1) (Some x2) = (Glsw al (gl_N st) (Some G) true, Ok None) /\
    (forall i k, i < p -> k < p -> Rsum p (fun j => entry G i j * entry V j k)%R = (/ sqrt (nth k s 0 * nth k s 0 / al + 1) * entry V i k)%R) /\
    ((forall i k, i < p -> k < p -> Rsum p (fun j => entry G i j * entry V j k)%R = (/ sqrt (nth k l 0 * nth k l 0 / al + 1) * entry V i k)%R)
     <-> (forall k, k < p -> Rabs (nth k l 0%R) = nth k s 0%R)).
Proof.
  intros p al Hr Hc Hp Ha EE (_ & _ & HV1 & HV2 & _) Ho ES Hs Hpos.
  destruct (C57_glsw_matrix eig svd lstsq pow2 st x1 x2 l V u s vh Hr Hc Hp Ha EE HV1 HV2 ES Hs) as (G & EG & HG). fold p al in HG.
  exists G. split; [exact EG|].
  assert (H1 : forall i k, i < p -> k < p -> Rsum p (fun j => entry G i j * entry V j k)%R = (/ sqrt (nth k s 0 * nth k s 0 / al + 1) * entry V i k)%R).
  { intros i k Hi Hk. destruct HG as (_ & _ & _ & HG). rewrite Rsum_sumn.
    rewrite (sumn_ext _ _ (fun j => sumn p (fun t => entry V i t * (/ sqrt (nth t s 0 * nth t s 0 / al + 1)) * entry V j t) * entry V j k)%R).
    2:{ intros j Hj. rewrite HG by assumption. now rewrite Rsum_sumn. }
    apply (sandwich_col p p (entry V) (fun t => / sqrt (nth t s 0 * nth t s 0 / al + 1))%R i k Hk).
    intros a b Ha' Hb'. rewrite <- Rsum_sumn. now apply Ho. }
  split; [exact H1|]. split.
  - intros Hall k Hk.
    assert (Hne : exists i, i < p /\ entry V i k <> 0%R).
    { destruct (Classical_Prop.classic (exists i, i < p /\ entry V i k <> 0%R)) as [Q|Q]; [exact Q|]. exfalso.
      specialize (Ho k k Hk Hk). rewrite Rsum_sumn, sumR_zero in Ho.
      - unfold delta in Ho. rewrite Nat.eqb_refl in Ho. lra.
      - intros i Hi. destruct (Req_dec (entry V i k) 0) as [->|N]; [ring|]. exfalso. eauto. }
    destruct Hne as (i & Hi & Hne). specialize (Hall i k Hi Hk). rewrite H1 in Hall by assumption.
    apply Rmult_eq_reg_r in Hall; [|exact Hne].
    pose proof (weight_pos al (nth k s 0%R) Ha) as W1. pose proof (weight_pos al (nth k l 0%R) Ha) as W2. unfold weight in W1, W2.
    assert (Q : (sqrt (nth k s 0 * nth k s 0 / al + 1) = sqrt (nth k l 0 * nth k l 0 / al + 1))%R).
    { rewrite <- (Rinv_inv (sqrt (nth k s 0 * nth k s 0 / al + 1)%R)), Hall. now rewrite Rinv_inv. }
    apply sqrt_inj in Q.
    + assert (Q2 : (nth k s 0 * nth k s 0 = nth k l 0 * nth k l 0)%R). { apply (Rmult_eq_reg_r (/ al)); [unfold Rdiv in Q; lra|]. apply Rinv_neq_0_compat. lra. }
      specialize (Hpos k Hk). rewrite <- (Rabs_right (nth k s 0%R)) by lra. apply Rsqr_eq_abs_0. unfold Rsqr. now symmetry.
    + assert (0 <= nth k s 0 * nth k s 0 / al)%R; [|lra]. apply Rmult_le_pos; [nra|]. left. now apply Rinv_0_lt_compat.
    + assert (0 <= nth k l 0 * nth k l 0 / al)%R; [|lra]. apply Rmult_le_pos; [nra|]. left. now apply Rinv_0_lt_compat.
  - intros Hk i k Hi Hk'. rewrite H1 by assumption. rewrite <- (Hk k Hk'). do 5 f_equal. apply (Rsqr_abs (nth k l 0%R)) || (symmetry; apply (Rsqr_abs (nth k l 0%R))).
Qed.
Print Assumptions C65_weights_partial.

(** ---- EPO ---- *)
(** C57.  EPO with orthonormal eigenvectors: writing w_0, w_1, ... for the eigenvectors in order of decreasing
    eigenvalue, the transformed data keep their full component along each of the first N and lose every other
    component.  (The property claims the opposite for the first N, see C57_epo_refuted.) *)
Theorem C57_epo_partial eig svd lstsq pow2 (st : glsw_st R) (x1 x2 : mat R) l V :
  let p := nc x1 in let N := Z.to_nat (gl_N st) in
  let w i k := entry V i (nth k (sigma l false p) 0) in
  nr x1 = nr x2 -> nc x1 = nc x2 -> p <> 0 -> (0 < gl_N st)%Z -> N <= p ->
  eig (gram x1 x2) = Ok (l, V) -> eig_answer (gram x1 x2) l V -> orthonormal_columns V p ->
  exists G, glsw_initialize KEPO eig svd lstsq pow2 st (Some x1) (Some x2) = (Glsw (gl_alpha st) (gl_N st) (Some G) true, Ok None) /\
    forall x, nc x = p -> exists y, glsw_transform (Glsw (gl_alpha st) (gl_N st) (Some G) true) x = Ok y /\ nr y = nr x /\ nc y = p /\
      forall i k, i < nr x -> k < p ->
        Rsum p (fun j => entry y i j * w j k)%R = if k <? N then Rsum p (fun j => entry x i j * w j k)%R else 0%R.
Proof.
  intros p N w Hr Hc Hp HN HNp EE HA Ho. pose proof HA as (Hl & _ & HV1 & HV2 & _). cbn [glsw_initialize]. unfold glsw_check. cbn [is_ygrad]. unfold same_shape_as. rewrite Hr, Hc, !Nat.eqb_refl. cbn [andb].
  unfold glsw_matrix, covariance. cbn [is_ygrad]. rewrite glsw_covariance_gram by assumption. rewrite bind_Ok.
  unfold eigenvector_matrix, make_eig. rewrite EE, bind_Ok. rewrite bind_Ok. cbn [is_epo fst snd].
  destruct (vectors_sorted (gram x1 x2) l V false) as (W & EW & HW); [cbn [nr gram mk]; lia|exact HA|]. rewrite EW, bind_Ok.
  change (nr (gram x1 x2)) with p in *. destruct HW as (WW & W1 & W2 & W3). rewrite W1, W2. cbn [gl_N glsw_reset].
  replace (Z.min (Z.of_nat p) (gl_N st)) with (Z.of_nat N) by (unfold N; lia).
  rewrite (get_sub_matrix_range W 0 p 0 N) by lia. rewrite !Nat.sub_0_r, bind_Ok.
  unfold weight_matrix. cbn [is_epo gl_N glsw_reset]. rewrite eye_pos by assumption. rewrite bind_Ok. fold N.
  rewrite (inverse_diag lstsq N (fun _ => 1%R)) by (intros; lra). rewrite bind_Ok.
  rewrite (sandwich _ N (fun _ => / 1)%R) by reflexivity. cbn [nr mk]. fold (mk p N (fun i j => entry W (0 + i) (0 + j))).
  eexists. split; [reflexivity|]. intros x Hx. unfold glsw_transform. cbn [gl_initialised negb gl_G need]. rewrite bind_Ok.
  unfold mul, is_multiplicable_with. cbn [nr mk]. rewrite Hx, Nat.eqb_refl. cbn [negb]. eexists. split; [reflexivity|].
  split; [reflexivity|]. split; [reflexivity|]. intros i k Hi Hk. rewrite !Rsum_sumn.
  assert (Hw : forall a b, a < p -> b < p -> sumn p (fun i => w i a * w i b)%R = delta a b).
  { intros a b Ha Hb. pose proof (sigma_perm l false p) as P0. pose proof (Permutation_length P0) as Hlen. rewrite seq_length in Hlen.
    assert (Hin : forall k, k < p -> nth k (sigma l false p) 0 < p).
    { intros q Hq. assert (In (nth q (sigma l false p) 0) (seq 0 p)) as Hi'. { eapply Permutation_in; [apply Permutation_sym, P0|]. apply nth_In. lia. } apply in_seq in Hi'. lia. }
    rewrite <- Rsum_sumn. unfold w. rewrite Ho by auto. unfold delta. destruct (Nat.eqb_spec a b) as [->|Hne]; [now rewrite Nat.eqb_refl|].
    destruct (Nat.eqb_spec (nth a (sigma l false p) 0) (nth b (sigma l false p) 0)) as [E|E]; [|reflexivity].
    exfalso. apply Hne. apply (proj1 (NoDup_nth (sigma l false p) 0)); try lia. eapply Permutation_NoDup; [exact P0|apply seq_NoDup]. }
  set (G := mk p p _).
  rewrite (sumn_ext _ _ (fun j => sumn p (fun a => entry x i a * (entry G a j * w j k)))%R).
  2:{ intros j Hj. unfold matmul. rewrite entry_mk by (auto; cbn; lia). rewrite Hx. rewrite <- sumR_scal_r. apply sumn_ext. intros a Haa. cbn [nmul NumR]. ring. }
  rewrite sumR_swap. rewrite (sumn_ext _ _ (fun a => entry x i a * sumn p (fun j => sumn N (fun t => w a t * (/1) * w j t) * w j k))%R).
  2:{ intros a Haa. rewrite sumR_scal. f_equal. apply sumn_ext. intros j Hj. f_equal. unfold G. rewrite entry_mk by assumption. apply sumn_ext. intros t Ht.
      rewrite !entry_mk by lia. cbn [plus]. rewrite !W3 by lia. reflexivity. }
  destruct (Nat.ltb_spec k N) as [Q|Q].
  - apply sumn_ext. intros a Haa. rewrite (sandwich_col p N w (fun _ => / 1)%R a k Q) by (intros; apply Hw; lia). rewrite Rinv_1. ring.
  - apply sumR_zero. intros a Haa.
    rewrite (sumn_ext _ _ (fun j => sumn N (fun t => w a t * / 1 * (w j t * w j k)))%R).
    2:{ intros j Hj. rewrite <- sumR_scal_r. apply sumn_ext. intros; ring. }
    rewrite sumR_swap. rewrite sumR_zero; [ring|]. intros t Ht. rewrite sumR_scal, Hw by lia.
    unfold delta. destruct (Nat.eqb_spec t k); [lia|]. ring.
Qed.
Print Assumptions C57_epo_partial.

(** C57.  EPO asked for more components than there are columns raises ValueError and stays untrained. *)
Theorem C57_epo_too_many eig svd lstsq pow2 (st : glsw_st R) (x1 x2 : mat R) l V :
  let p := nc x1 in
  nr x1 = nr x2 -> nc x1 = nc x2 -> p <> 0 -> (Z.of_nat p < gl_N st)%Z ->
  eig (gram x1 x2) = Ok (l, V) -> eig_answer (gram x1 x2) l V ->
  glsw_initialize KEPO eig svd lstsq pow2 st (Some x1) (Some x2) = (Glsw (gl_alpha st) (gl_N st) None false, Err ValueError).
Proof.
  intros p Hr Hc Hp HN EE HA. cbn [glsw_initialize]. unfold glsw_check. cbn [is_ygrad]. unfold same_shape_as. rewrite Hr, Hc, !Nat.eqb_refl. cbn [andb].
  unfold glsw_matrix, covariance. cbn [is_ygrad]. rewrite glsw_covariance_gram by assumption. rewrite bind_Ok.
  unfold eigenvector_matrix, make_eig. rewrite EE, bind_Ok. rewrite bind_Ok. cbn [is_epo fst snd].
  destruct (vectors_sorted (gram x1 x2) l V false) as (W & EW & HW); [cbn [nr gram mk]; lia|exact HA|]. rewrite EW, bind_Ok.
  change (nr (gram x1 x2)) with p in *. destruct HW as (WW & W1 & W2 & W3). rewrite W1, W2. cbn [gl_N glsw_reset].
  replace (Z.min (Z.of_nat p) (gl_N st)) with (Z.of_nat p) by lia.
  rewrite (get_sub_matrix_range W 0 p 0 p) by lia. rewrite !Nat.sub_0_r, bind_Ok.
  unfold weight_matrix. cbn [is_epo gl_N glsw_reset]. rewrite eye_pos by lia. rewrite bind_Ok.
  rewrite (inverse_diag lstsq (Z.to_nat (gl_N st)) (fun _ => 1%R)) by (intros; lra). rewrite bind_Ok.
  rewrite mul_mk_err by lia. reflexivity.
Qed.
Print Assumptions C57_epo_too_many.

(** ---- witnesses in binary64 ---- *)
(** Solvers that are right for diagonal 2 x 2 matrices with non-negative entries: the eigenvalues in the order in
    which they stand on the diagonal, the singular values in decreasing order. *)
Definition I2 : mat f64 := rows64 [[1;0];[0;1]]%Z.
Definition eig_d2 (A : mat f64) : res (list f64 * mat f64) := Ok ([entry A 0 0; entry A 1 1], I2).
Definition svd_d2 (A : mat f64) : res (mat f64 * list f64 * mat f64) :=
  let J := rows64 [[0;1];[1;0]]%Z in
  if nleb (entry A 1 1) (entry A 0 0) then Ok (I2, [entry A 0 0; entry A 1 1], I2) else Ok (J, [entry A 1 1; entry A 0 0], J).
Definition lstsq_none (A B : mat f64) : res (mat f64) := Err LinAlgError.
Definition diag64 (l : list f64) : mat f64 := mk (length l) (length l) (fun i j => if i =? j then nth i l n0 else n0).
(** the answers on A are exact *)
Definition eig_exact (A : mat f64) : Prop :=
  exists l V, eig_d2 A = Ok (l, V) /\ mul A V = mul V (diag64 l) /\ mul (transpose V) V = Ok I2.
Definition svd_exact (A : mat f64) : Prop :=
  exists u s vh, svd_d2 A = Ok (u, s, vh) /\ (do us <- mul u (diag64 s); mul us vh) = Ok A /\
    mul (transpose u) u = Ok I2 /\ mul vh (transpose vh) = Ok I2 /\ nleb (nth 1 s n0) (nth 0 s n0) = true.
Definition zero2 : mat f64 := rows64 [[0;0];[0;0]]%Z.
Definition g_init kind N x1 x2 := glsw_initialize kind eig_d2 svd_d2 lstsq_none (fun x => x)
  (fst (glsw_set_N kind (glsw_new (T:=f64)) N)) (Some x1) (Some x2).

(** C57: EPO with N = 1 on data that differ only in the first column: the kept eigenvector (1, 0) belongs to
    the eigenvalue 2, and the filtered row (1, 1) is not orthogonal to it - it is exactly that direction. *)
Theorem C57_epo_refuted : exists x2 C s y,
  covariance KEPO (fun x => x) zero2 x2 = Ok C /\ eig_exact C /\
  eigenvector_matrix KEPO eig_d2 s C = Ok (rows64 [[1];[0]]%Z) /\
  g_init KEPO 1 zero2 x2 = (s, Ok None) /\ glsw_transform s (rows64 [[1;1]]%Z) = Ok y /\
  mul y (rows64 [[1];[0]]%Z) = Ok (rows64 [[1]]%Z).
Proof.
  exists (rows64 [[1;0];[-1;0]]%Z), (rows64 [[2;0];[0;0]]%Z). eexists. eexists.
  split; [vm_compute; reflexivity|]. split; [eexists; eexists; split; [reflexivity|]; split; vm_compute; reflexivity|].
  split; [|split; [vm_compute; reflexivity|split; [vm_compute; reflexivity|]]]; vm_compute; reflexivity.
Qed.
Print Assumptions C57_epo_refuted.

(** C65: the two data sets differ only in the second column; the eigenvalues of the difference covariance are
    0 for (1, 0) and 2 for (0, 1).  GLSW damps the direction without any difference by more than 50 and
    leaves the direction of the difference exactly as it is. *)
Theorem C65_refuted : exists x2 C s y1 y2,
  covariance KGLSW (fun x => x) zero2 x2 = Ok C /\ eig_exact C /\ svd_exact C /\
  mul C (rows64 [[1];[0]]%Z) = Ok (rows64 [[0];[0]]%Z) /\ mul C (rows64 [[0];[1]]%Z) = Ok (rows64 [[0];[2]]%Z) /\
  g_init KGLSW 1 zero2 x2 = (s, Ok None) /\
  glsw_transform s (rows64 [[1;0]]%Z) = Ok y1 /\ nltb (entry y1 0 0) (ndiv n1 (nofZ 50)) = true /\ entry y1 0 1 = n0 /\
  glsw_transform s (rows64 [[0;1]]%Z) = Ok y2 /\ y2 = rows64 [[0;1]]%Z.
Proof.
  exists (rows64 [[0;1];[0;-1]]%Z), (rows64 [[0;0];[0;2]]%Z). eexists. eexists. eexists.
  split; [vm_compute; reflexivity|]. split; [eexists; eexists; split; [reflexivity|]; split; vm_compute; reflexivity|].
  split; [eexists; eexists; eexists; split; [vm_compute; reflexivity|]; split; [vm_compute; reflexivity|]; split; [vm_compute; reflexivity|]; split; vm_compute; reflexivity|].
  split; [vm_compute; reflexivity|]. split; [vm_compute; reflexivity|]. split; [vm_compute; reflexivity|]. split; [vm_compute; reflexivity|].
  split; [vm_compute; reflexivity|]. split; [vm_compute; reflexivity|]. split; vm_compute; reflexivity.
Qed.
Print Assumptions C65_refuted.

(** A history through all outcomes: untrained, rejected, trained, retuned (untrained again), raising. *)
Example C57_ex :
  let run k h := glsw_run k eig_d2 svd_d2 lstsq_none (fun x => x) h in
  let d := rows64 [[1;0];[-1;0]]%Z in
  gl_initialised (run KGLSW [GInit (Some zero2) (Some (rows64 [[1;2]]%Z))]) = false /\
  gl_initialised (run KGLSW [GInit (Some zero2) (Some d)]) = true /\
  gl_initialised (run KGLSW [GInit (Some zero2) (Some d); GTransform d; GInit None (Some d)]) = true /\
  gl_initialised (run KGLSW [GInit (Some zero2) (Some d); GAlpha (nofZ 2)]) = false /\
  gl_initialised (run KGLSW [GInit (Some zero2) (Some d); GAlpha n0]) = true /\
  gl_initialised (run KEPO [GInit (Some zero2) (Some d)]) = false /\
  gl_initialised (run KEPO [GN 2; GInit (Some zero2) (Some d)]) = true /\
  gl_initialised (run KYGradientGLSW [GInit (Some d) (Some (rows64 [[1];[2]]%Z))]) = true.
Proof. cbv zeta. repeat (split; [vm_compute; reflexivity|]). vm_compute. reflexivity. Qed.

(** Real solvers meeting the contracts of C57_glsw_matrix, C57_epo_partial and C65_weights_partial on data
    with difference covariance diag(2, 0). *)
Example C57_ex_real :
  let x1 := mk 2 2 (fun _ _ => 0%R) in let x2 := mk 2 2 (fun i j => if j =? 0 then if i =? 0 then 1%R else (-1)%R else 0%R) in
  let V := Mat 2 2 [[1;0];[0;1]]%R in let l := [2; 0]%R in
  eig_answer (gram x1 x2) l V /\ orthonormal_columns V 2 /\ svd_answer (gram x1 x2) V l V /\
  (forall k, k < 2 -> Rabs (nth k l 0%R) = nth k l 0%R).
Proof.
  assert (Hg : gram (mk 2 2 (fun _ _ => 0%R)) (mk 2 2 (fun i j => if j =? 0 then if i =? 0 then 1%R else (-1)%R else 0%R)) =
    Mat 2 2 [[2;0];[0;0]]%R).
  { unfold gram, mk, tab, cdiff, Rmean, entry. cbn. repeat f_equal; field. }
  cbv zeta. rewrite Hg. clear Hg. split; [|split; [|split]].
  - split; [reflexivity|]. split; [split; repeat constructor|]. split; [reflexivity|]. split; [reflexivity|]. intros k i Hk Hi. cbn in Hk, Hi.
    destruct k as [|[|k]]; [| |lia]; (destruct i as [|[|i]]; [| |lia]); cbn; ring.
  - intros a b Ha Hb. destruct a as [|[|a]]; [| |lia]; (destruct b as [|[|b]]; [| |lia]); cbn; ring.
  - split; [split; repeat constructor|]. split; [reflexivity|]. split; [reflexivity|]. split; [split; repeat constructor|]. split; [reflexivity|]. split; [reflexivity|].
    intros i j Hi Hj. cbn in Hi, Hj. destruct i as [|[|i]]; [| |lia]; (destruct j as [|[|j]]; [| |lia]); cbn; ring.
  - intros k Hk. destruct k as [|[|k]]; [| |lia]; cbn; [apply Rabs_right; lra|apply Rabs_R0].
Qed.

(** C48 for this family: training forgets everything but the parameters. *)
Theorem C48_glsw {T} `{Num T} kind eig svd lstsq (pow2 : T -> T) (s s' : glsw_st T) (x1 x2 : mat T) :
  gl_alpha s = gl_alpha s' -> gl_N s = gl_N s' ->
  glsw_initialize kind eig svd lstsq pow2 s (Some x1) (Some x2) = glsw_initialize kind eig svd lstsq pow2 s' (Some x1) (Some x2).
Proof. intros E1 E2. cbn [glsw_initialize]. unfold glsw_reset. now rewrite E1, E2. Qed.
Print Assumptions C48_glsw.
