(** C66: canonical correlation filter.  C48 and C46 for CCAFilter. *)
From Coq Require Import List ZArith Lia Bool Arith Reals Lra Permutation SpecFloat.
From Verif Require Import Base Num Mat M_Matrix M_Factory M_Helper M_Loop M_Utils M_Linalg M_Transform M_PLSBase M_PLS M_CCAFilter
  S_Matrix L_Base L_Mat L_Matrix L_MatR L_Linalg L_Alg L_Eigen L_Transform P_Matrix P_Helper P_Linalg P_Eigen P_OPLS P_GLSW P_PCA P_PLSRefute.
Import ListNotations.
Local Open Scope nat_scope.

(** * A^(-1/2) *)
(** V diag(1/sqrt l) V^T *)
Definition inv_sqrt (n : nat) (l : list R) (V : mat R) : mat R :=
  mk n n (fun i j => Rsum n (fun k => entry V i k * / sqrt (nth k l 0) * entry V j k)%R).

Lemma sum_perm_nth n so (f : nat -> R) : Permutation so (seq 0 n) -> sumn n (fun c => f (nth c so 0)) = sumn n f.
Proof. intros Hp. rewrite <- (sum_permuted n so f Hp). symmetry. apply (sumR_rev n (fun c => f (nth c so 0))). Qed.

Lemma pow_minus_half_spec eig lstsq (A : mat R) n l V :
  nr A = n -> n <> 0 -> eig A = Ok (l, V) -> eig_answer A l V -> (forall k, k < n -> (0 < nth k l 0)%R) ->
  pow_minus_half eig lstsq A = Ok (inv_sqrt n l V).
Proof.
  intros HA Hn He Ha Hp. unfold pow_minus_half, make_eig. rewrite He. cbn [bind fst snd].
  destruct (vectors_sorted A l V false ltac:(lia) Ha) as (W & EW & HW). rewrite HA in *. rewrite EW, bind_Ok, values_sorted.
  destruct Ha as (Hl & _). rewrite Hl, HA. set (so := sigma l false n).
  assert (Hs : Permutation so (seq 0 n)) by (apply Permutation_sym, sigma_perm).
  assert (Hso : length so = n) by (rewrite (Permutation_length Hs); apply seq_length).
  destruct (C23_diag (Mat n 1 (map (fun i => [nth i l 0%R]) so)) ltac:(cbn; lia) ltac:(cbn; lia)) as (m & Em & Hm).
  rewrite Em, bind_Ok. cbn [nr] in Hm. apply is_mat_eq_mk in Hm. rewrite Hm. unfold sqrt_mat. rewrite map_mk.
  assert (HV : forall k, k < n -> entry (Mat n 1 (map (fun i => [nth i l 0%R]) so)) k 0 = nth (nth k so 0) l 0%R).
  { intros k Hk. unfold entry. cbn [rws]. rewrite (nth_map' _ so k _ 0) by lia. reflexivity. }
  assert (Hin : forall k, k < n -> nth k so 0 < n).
  { intros k Hk. assert (In (nth k so 0) (seq 0 n)) as Hi. { eapply Permutation_in; [exact Hs|]. apply nth_In. lia. } apply in_seq in Hi. lia. }
  rewrite (mk_ext _ _ _ (fun i j => if i =? j then sqrt (nth (nth i so 0) l 0%R) else 0%R)).
  2:{ intros i j Hi Hj. destruct (i =? j); [now rewrite HV|]. cbn [nsqrt NumR n0]. apply sqrt_0. }
  rewrite inverse_diag. 2:{ intros i Hi. pose proof (sqrt_lt_R0 _ (Hp _ (Hin i Hi))). lra. }
  rewrite bind_Ok. apply is_mat_eq_mk in HW. rewrite HW.
  etransitivity; [apply (sandwich _ n (fun i => / sqrt (nth (nth i so 0%nat) l 0))%R); reflexivity|]. cbn [nr mk]. fold (mk n n (fun i k => entry V i (nth k so 0))).
  unfold inv_sqrt. f_equal. apply mk_ext. intros i j Hi Hj. rewrite Rsum_sumn.
  rewrite <- (sum_perm_nth n so (fun k => entry V i k * / sqrt (nth k l 0) * entry V j k)%R Hs).
  apply sumn_ext. intros k Hk. rewrite !entry_mk by assumption. reflexivity.
Qed.

Lemma inv_sqrt_sym n l V i j : i < n -> j < n -> entry (inv_sqrt n l V) i j = entry (inv_sqrt n l V) j i.
Proof. intros Hi Hj. unfold inv_sqrt. rewrite !entry_mk by assumption. rewrite !Rsum_sumn. apply sumn_ext. intros; ring. Qed.

(** it is the inverse square root *)
Lemma inv_sqrt_quad (A : mat R) n l V : nr A = n -> eig_answer A l V -> orthonormal_columns V n -> (forall k, k < n -> (0 < nth k l 0)%R) ->
  forall i j, i < n -> j < n ->
  sumn n (fun a => sumn n (fun b => entry (inv_sqrt n l V) i a * entry A a b * entry (inv_sqrt n l V) b j))%R = delta i j.
Proof.
  intros HA (_ & _ & _ & _ & Ha) Ho Hp i j Hi Hj. rewrite HA in Ha. pose proof (orthonormal_rows V n Ho) as Hr.
  set (g := fun a b => sumn n (fun k => entry V a k * / sqrt (nth k l 0) * entry V b k)%R).
  assert (Hg : forall a b, a < n -> b < n -> entry (inv_sqrt n l V) a b = g a b).
  { intros a b Ha' Hb'. unfold inv_sqrt. rewrite entry_mk by assumption. apply Rsum_sumn. }
  rewrite <- Hr by assumption.
  transitivity (sumn n (fun a => g i a * sumn n (fun k => (/ sqrt (nth k l 0) * nth k l 0 * entry V j k) * entry V a k)))%R.
  - apply sumn_ext. intros a Ha'. 
    transitivity (g i a * sumn n (fun b => entry A a b * g b j))%R.
    { rewrite <- sumR_scal. apply sumn_ext. intros b Hb. rewrite !Hg by assumption. ring. }
    f_equal. unfold g. 
    rewrite (sumn_ext _ _ (fun b => sumn n (fun k => / sqrt (nth k l 0) * entry V j k * (entry A a b * entry V b k)))%R).
    2:{ intros b Hb. rewrite <- sumR_scal. apply sumn_ext. intros; ring. }
    rewrite sumR_swap. apply sumn_ext. intros k Hk. rewrite sumR_scal, <- Rsum_sumn, Ha by assumption. ring.
  - rewrite (sumn_ext _ _ (fun a => sumn n (fun k => (/ sqrt (nth k l 0) * nth k l 0 * entry V j k) * (g i a * entry V a k)))%R).
    2:{ intros a Ha'. rewrite <- sumR_scal. apply sumn_ext. intros; ring. }
    rewrite sumR_swap. apply sumn_ext. intros k Hk. rewrite sumR_scal. unfold g. 
    rewrite (sandwich_col n n (fun a k => entry V a k) (fun k => / sqrt (nth k l 0))%R i k Hk).
    2:{ intros a b Ha' Hb'. rewrite <- Rsum_sumn. now apply Ho. }
    pose proof (Hp k Hk) as Hl. pose proof (sqrt_lt_R0 _ Hl) as Hsq. rewrite <- (sqrt_sqrt (nth k l 0)%R) at 2 by lra. field. lra.
Qed.

(** * Regularised second moments *)
Definition centred (X : mat R) (i j : nat) : R := (entry X i j - Rmean (nr X) (fun k => entry X k j))%R.
Definition moment (X Y : mat R) (a b : nat) : R := Rsum (nr X) (fun i => centred X i a * centred Y i b)%R.
Definition reg_cov (lambda : R) (X : mat R) : mat R :=
  mk (nc X) (nc X) (fun a b => moment X X a b + (if a =? b then lambda else 0))%R.

Lemma reg_cov_positive lambda (X : mat R) l V : (0 < lambda)%R -> eig_answer (reg_cov lambda X) l V -> orthonormal_columns V (nc X) ->
  forall k, k < nc X -> (0 < nth k l 0)%R.
Proof.
  intros Hl (_ & _ & _ & _ & Ha) Ho k Hk. set (p := nc X) in *. change (nr (reg_cov lambda X)) with p in Ha.
  assert (E : nth k l 0%R = (sumn (nr X) (fun i => (sumn p (fun a => centred X i a * entry V a k)) * (sumn p (fun a => centred X i a * entry V a k))) + lambda)%R).
  { transitivity (sumn p (fun a => entry V a k * (nth k l 0 * entry V a k)))%R.
    { rewrite (sumn_ext _ _ (fun a => nth k l 0 * (entry V a k * entry V a k))%R) by (intros; ring). rewrite sumR_scal.
      rewrite <- (Rsum_sumn p (fun i => entry V i k * entry V i k)%R), Ho by assumption. unfold delta. rewrite Nat.eqb_refl. ring. }
    transitivity (sumn p (fun a => entry V a k * (sumn p (fun b => moment X X a b * entry V b k) + lambda * entry V a k)))%R.
    { apply sumn_ext. intros a Ha'. f_equal. rewrite <- Ha by assumption. rewrite Rsum_sumn.
      rewrite (sumn_ext p (fun j => entry (reg_cov lambda X) a j * entry V j k)%R (fun b => moment X X a b * entry V b k + lambda * (entry V b k * delta b a))%R).
      2:{ intros b Hb. unfold reg_cov. fold p. rewrite entry_mk by assumption. unfold delta. rewrite (Nat.eqb_sym b a). destruct (a =? b); ring. }
      rewrite sumR_plus. f_equal. rewrite sumR_scal. f_equal. now rewrite (sum_delta p a (fun b => entry V b k)). }
    rewrite (sumn_ext _ _ (fun a => entry V a k * sumn p (fun b => moment X X a b * entry V b k) + lambda * (entry V a k * entry V a k))%R) by (intros; ring).
    rewrite sumR_plus. f_equal.
    2:{ rewrite sumR_scal, <- (Rsum_sumn p (fun i => entry V i k * entry V i k)%R), Ho by assumption. unfold delta. rewrite Nat.eqb_refl. ring. }
    unfold moment. 
    rewrite (sumn_ext p _ (fun a => sumn (nr X) (fun i => (centred X i a * entry V a k) * sumn p (fun b => centred X i b * entry V b k)))%R).
    2:{ intros a Ha'. rewrite (sumn_ext p _ (fun b => sumn (nr X) (fun i => centred X i a * (centred X i b * entry V b k)))%R).
        2:{ intros b Hb. rewrite Rsum_sumn, <- sumR_scal_r. apply sumn_ext. intros; ring. }
        rewrite sumR_swap, <- sumR_scal. apply sumn_ext. intros i Hi. rewrite sumR_scal. ring. }
    rewrite sumR_swap. apply sumn_ext. intros i Hi. now rewrite sumR_scal_r. }
  rewrite E. apply Rle_lt_trans with (0 + 0)%R; [lra|]. apply Rplus_le_lt_compat; [|exact Hl]. apply sumR_nonneg. intros i _. apply Rle_0_sqr.
Qed.

Lemma quad_form p q m r (M C B N D : nat -> nat -> R) a b :
  sumn p (fun i => sumn q (fun j => sumn m (fun t => M i t * C t a) * B i j * sumn r (fun w => N j w * D w b)))%R =
  sumn m (fun t => sumn r (fun w => C t a * sumn p (fun i => sumn q (fun j => M i t * B i j * N j w)) * D w b))%R.
Proof.
  transitivity (sumn p (fun i => sumn q (fun j => sumn m (fun t => sumn r (fun w => C t a * (M i t * B i j * N j w) * D w b)))))%R.
  { apply sumn_ext. intros i Hi. apply sumn_ext. intros j Hj. rewrite Rmult_assoc, <- sumR_scal_r. apply sumn_ext. intros t Ht.
    rewrite <- (Rmult_assoc _ (B i j)), <- sumR_scal. apply sumn_ext. intros w Hw. ring. }
  rewrite (sumn_ext p _ (fun i => sumn m (fun t => sumn q (fun j => sumn r (fun w => C t a * (M i t * B i j * N j w) * D w b)))))%R by (intros; apply sumR_swap).
  rewrite sumR_swap. apply sumn_ext. intros t Ht.
  rewrite (sumn_ext p _ (fun i => sumn r (fun w => sumn q (fun j => C t a * (M i t * B i j * N j w) * D w b))))%R by (intros; apply sumR_swap).
  rewrite sumR_swap. apply sumn_ext. intros w Hw.
  rewrite <- sumR_scal, <- sumR_scal_r. apply sumn_ext. intros i Hi. rewrite <- sumR_scal, <- sumR_scal_r. reflexivity.
Qed.
Lemma quad_delta n (C D : nat -> nat -> R) (G : nat -> nat -> R) a b :
  (forall t w, t < n -> w < n -> G t w = delta t w) ->
  sumn n (fun t => sumn n (fun w => C t a * G t w * D w b))%R = sumn n (fun t => C t a * D t b)%R.
Proof.
  intros HG. apply sumn_ext. intros t Ht. rewrite (sumR_single _ t); [|exact Ht|].
  - rewrite HG by assumption. unfold delta. rewrite Nat.eqb_refl. ring.
  - intros w Hw Hne. rewrite HG by assumption. unfold delta. apply Nat.eqb_neq in Hne. rewrite Nat.eqb_sym, Hne. ring.
Qed.

Lemma center_first (x : mat R) : t_transform center (t_new center) x = (center_conf x, Ok (mk (nr x) (nc x) (centred x))).
Proof. pose proof (center_fresh x) as E. unfold t_transform in *. cbn [t_configured center t_new ce_configured negb t_configure snd] in *. unfold center_conf. now rewrite E. Qed.

Lemma cca_cov_reg lambda (X : mat R) : cca_cov lambda (mk (nr X) (nc X) (centred X)) = Ok (reg_cov lambda X).
Proof.
  unfold cca_cov. cbn [nc mk]. fold (mk (nr X) (nc X) (centred X)). rewrite eye_eyeR, bind_Ok, transpose_mk, mul_mk, bind_Ok. unfold eyeR. rewrite mul_scalar_mk, add_mk. f_equal. unfold reg_cov.
  apply mk_ext. intros a b Ha Hb. cbn [nadd nmul NumR]. unfold moment. rewrite Rsum_sumn. f_equal. destruct (a =? b); ring.
Qed.

Definition cca_omega (X Y Mx My : mat R) : mat R :=
  mk (nc X) (nc Y) (fun i j => Rsum (nc Y) (fun b => Rsum (nc X) (fun a => entry Mx i a * moment X Y a b) * entry My b j))%R.

Lemma normalized_unit r c (f : nat -> nat -> R) : (forall j, j < c -> sumn r (fun k => f k j * f k j)%R = 1%R) ->
  normalized (mk r c f) 0 = Ok (mk r c f).
Proof.
  intros H. rewrite normalized0_mk. f_equal. apply mk_ext. intros i j Hi Hj. cbn [ndiv nsqrt nmul NumR]. rewrite H by assumption. rewrite sqrt_1. field.
Qed.
Lemma first_columns (m : mat R) k : k <= nc m -> get_sub_matrix m (STuple 0 (Z.of_nat (nr m))) (STuple 0 (Z.of_nat k)) = Ok (mk (nr m) k (fun i j => entry m i j)).
Proof.
  intros Hk. change 0%Z with (Z.of_nat 0). rewrite get_sub_matrix_range by lia. rewrite !Nat.sub_0_r. reflexivity.
Qed.

(** C66.  Training a fresh filter (centers not yet used, any lambdas > 0, any kcca >= 1) on data with at
    least as many features as targets and kcca at most the number of targets succeeds, for every correct
    answer of the solvers (any order, any signs, repeated eigenvalues), and
    - the projected predictors are white: proj_X^T (X^T X + lambda_X I) proj_X = I, likewise for Y;
    - transform(x) = (x - mean of the training predictors) proj_X and leaves the object unchanged,
      transform_response likewise;
    - the cross products proj_X^T X^T Y proj_Y, which the claim wants to be the diagonal of the leading
      singular values, are s_a * (Vh Vh)[a,b], Vh being the right factor of the decomposition: its columns are
      used where its rows belong. *)
Theorem C66_projections_partial eig svd lstsq (s : cca_st R) (X Y : mat R) lx Vx ly Vy u sv vh :
  let p := nc X in let q := nc Y in let k := Z.to_nat (cc_kcca s) in
  let Cxx := reg_cov (cc_lambda_X s) X in let Cyy := reg_cov (cc_lambda_Y s) Y in
  let omega := cca_omega X Y (inv_sqrt p lx Vx) (inv_sqrt q ly Vy) in
  cc_center_X s = t_new center -> cc_center_Y s = t_new center ->
  (0 < cc_lambda_X s)%R -> (0 < cc_lambda_Y s)%R -> (0 < cc_kcca s)%Z ->
  nr Y = nr X -> k <= q -> q <= p ->
  eig Cxx = Ok (lx, Vx) -> eig_answer Cxx lx Vx -> orthonormal_columns Vx p ->
  eig Cyy = Ok (ly, Vy) -> eig_answer Cyy ly Vy -> orthonormal_columns Vy q ->
  svd omega = Ok (u, sv, vh) -> length sv = q -> svd_answer omega u sv vh -> orthonormal_factors u q vh ->
  exists s' PX PY,
    cca_initialize eig svd lstsq s (Some X) (Some Y) = (s', Ok None) /\ cc_initialised s' = true /\
    cc_proj_X s' = Some PX /\ cc_proj_Y s' = Some PY /\ wf PX /\ nr PX = p /\ nc PX = k /\ wf PY /\ nr PY = q /\ nc PY = k /\
    (forall a b, a < k -> b < k ->
       Rsum p (fun i => Rsum p (fun j => entry PX i a * entry Cxx i j * entry PX j b))%R = delta a b /\
       Rsum q (fun i => Rsum q (fun j => entry PY i a * entry Cyy i j * entry PY j b))%R = delta a b /\
       Rsum p (fun i => Rsum q (fun j => entry PX i a * moment X Y i j * entry PY j b))%R =
         (nth a sv 0 * Rsum q (fun t => entry vh a t * entry vh t b))%R) /\
    (forall x, fst (cca_transform s' x) = s' /\ fst (cca_transform_response s' x) = s' /\
       (nc x = p -> exists y, snd (cca_transform s' x) = Ok y /\
          is_mat y (nr x) k (fun i a => Rsum p (fun j => (entry x i j - Rmean (nr X) (fun r => entry X r j)) * entry PX j a))%R) /\
       (nc x = q -> exists y, snd (cca_transform_response s' x) = Ok y /\
          is_mat y (nr x) k (fun i a => Rsum q (fun j => (entry x i j - Rmean (nr Y) (fun r => entry Y r j)) * entry PY j a))%R)).
Proof.
  intros p q k Cxx Cyy omega HcX HcY HlX HlY Hk0 Hrows Hkq Hqp Ex Ax Ox Ey Ay Oy Es Hsv As Os.
  assert (Hk : cc_kcca s = Z.of_nat k) by (unfold k; lia). assert (k <> 0) by lia.
  pose proof (reg_cov_positive _ _ _ _ HlX Ax Ox) as Px. pose proof (reg_cov_positive _ _ _ _ HlY Ay Oy) as Py. fold p in Px. fold q in Py.
  set (Mx := inv_sqrt p lx Vx) in *. set (My := inv_sqrt q ly Vy) in *.
  pose proof (inv_sqrt_quad Cxx p lx Vx eq_refl Ax Ox Px) as Qx. pose proof (inv_sqrt_quad Cyy q ly Vy eq_refl Ay Oy Py) as Qy. fold Mx in Qx. fold My in Qy.
  destruct As as (Wu & U1 & U2 & Wv & V1 & V2 & HS). rewrite Hsv in U2, V1. change (nr omega) with p in *. change (nc omega) with q in *. destruct Os as (Ou & Ov).
  rewrite U1 in Ou. rewrite V2 in Ov.
  assert (Ov' : forall a b, a < q -> b < q -> sumn q (fun t => entry vh t a * entry vh t b)%R = delta a b).
  { intros a b Ha Hb. pose proof (orthonormal_rows (transpose vh) q) as HR. 
    rewrite <- HR; [| |exact Ha|exact Hb]. { apply sumn_ext. intros t Ht. rewrite !transpose_entry by lia. reflexivity. }
    intros a' b' Ha' Hb'. rewrite <- Ov by assumption. apply Rsum_ext. intros t Ht. rewrite !transpose_entry by lia. reflexivity. }
  set (C := fun t a => (- entry u t a)%R). set (D := fun t a => (- entry vh t a)%R).
  set (PX := mk p k (fun i a => sumn p (fun t => entry Mx i t * C t a)%R)). set (PY := mk q k (fun i a => sumn q (fun t => entry My i t * D t a)%R)).
  set (s' := Cca (cc_lambda_X s) (cc_lambda_Y s) (cc_kcca s) true (center_conf X) (center_conf Y) (Some PX) (Some PY)).
  exists s', PX, PY.
  assert (HPX : forall i a, i < p -> a < k -> entry PX i a = sumn p (fun t => entry Mx i t * C t a)%R) by (intros; unfold PX; now rewrite entry_mk).
  assert (HPY : forall i a, i < q -> a < k -> entry PY i a = sumn q (fun t => entry My i t * D t a)%R) by (intros; unfold PY; now rewrite entry_mk).
  assert (EPX : forall i a, i < p -> a < k -> sumn p (fun t => entry Mx i t * C t a)%R =
    sumn p (fun t => nmul (Rsum p (fun k0 => (entry Vx i k0 * / sqrt (nth k0 lx 0) * entry Vx t k0)%R)) (entry (mk p q C) t a))).
  { intros i a Hi Ha. apply sumn_ext. intros t Ht. unfold Mx, inv_sqrt. rewrite !entry_mk by lia. reflexivity. }
  assert (EPY : forall i a, i < q -> a < k -> sumn q (fun t => entry My i t * D t a)%R =
    sumn q (fun t => nmul (Rsum q (fun k0 => (entry Vy i k0 * / sqrt (nth k0 ly 0) * entry Vy t k0)%R)) (entry (mk q q D) t a))).
  { intros i a Hi Ha. apply sumn_ext. intros t Ht. unfold My, inv_sqrt. rewrite !entry_mk by lia. reflexivity. }
  split.
  { cbn [cca_initialize]. unfold cca_do_initialize. cbn [cca_reset cc_kcca cc_center_X cc_center_Y]. rewrite HcX, HcY. fold p q.
    destruct (Z.ltb_spec (Z.min (Z.of_nat p) (Z.of_nat q)) (cc_kcca s)) as [L|_]; [lia|]. rewrite !center_first.
    unfold cca_project. cbn [cca_put_centers cca_reset cc_lambda_X cc_lambda_Y cc_kcca]. rewrite !cca_cov_reg, !bind_Ok.
    rewrite Hrows, transpose_mk, mul_mk, bind_Ok. fold Cxx Cyy.
    rewrite (pow_minus_half_spec eig lstsq Cxx p lx Vx) by (auto; lia). rewrite (pow_minus_half_spec eig lstsq Cyy q ly Vy) by (auto; lia). rewrite !bind_Ok. fold Mx My.
    unfold Mx at 1, inv_sqrt. rewrite mul_mk, bind_Ok. unfold My at 1, inv_sqrt. rewrite mul_mk, bind_Ok.
    match goal with |- context [mk p q ?f] => replace (mk p q f) with omega end.
    2:{ unfold omega, cca_omega. fold p q. apply mk_ext. intros i j Hi Hj. rewrite Rsum_sumn. apply sumn_ext. intros b Hb. cbn [nmul NumR]. f_equal.
        - rewrite Rsum_sumn. apply sumn_ext. intros a Ha. f_equal; [|unfold moment; now rewrite Rsum_sumn].
          unfold Mx, inv_sqrt. now rewrite entry_mk.
        - unfold My, inv_sqrt. now rewrite entry_mk. }
    destruct (svd_parts svd omega u sv vh Es ltac:(lia)) as (EU & EV & _). rewrite EU, bind_Ok.
    replace (mul_scalar u (-1)%R) with (mk p q C).
    2:{ unfold mul_scalar, map_mat. rewrite U1, U2. apply mk_ext. intros i j _ _. unfold C. cbn. ring. }
    replace (mul_scalar vh (-1)%R) with (mk q q D) in EV.
    2:{ unfold mul_scalar, map_mat. rewrite V1, V2. apply mk_ext. intros i j _ _. unfold D. cbn. ring. }
    rewrite normalized_unit. 2:{ intros j Hj. transitivity (delta j j); [|unfold delta; now rewrite Nat.eqb_refl]. rewrite <- Ou by assumption. rewrite Rsum_sumn. apply sumn_ext. intros; unfold C; ring. }
    rewrite bind_Ok, EV, bind_Ok.
    rewrite normalized_unit. 2:{ intros j Hj. transitivity (delta j j); [|unfold delta; now rewrite Nat.eqb_refl]. rewrite <- Ov' by assumption. apply sumn_ext. intros; unfold D; ring. }
    rewrite bind_Ok, Hk. rewrite !first_columns by (cbn; lia). rewrite !bind_Ok. cbn [nr mk]. fold (mk p q C) (mk q q D).
    unfold Mx at 1, inv_sqrt. rewrite mul_mk, bind_Ok. unfold My, inv_sqrt. rewrite mul_mk.
    rewrite <- (mk_ext p k _ _ (fun i a Hi Ha => EPX i a Hi Ha)), <- (mk_ext q k _ _ (fun i a Hi Ha => EPY i a Hi Ha)). fold PX PY.
    unfold cca_put_proj, cca_put_centers. cbn [cca_reset cc_lambda_X cc_lambda_Y cc_kcca cc_initialised cc_center_X cc_center_Y]. reflexivity. }
  split; [reflexivity|]. split; [reflexivity|]. split; [reflexivity|]. split; [apply mk_wf|]. split; [reflexivity|]. split; [reflexivity|]. split; [apply mk_wf|]. split; [reflexivity|]. split; [reflexivity|].
  split.
  - intros a b Ha Hb. split; [|split].
    + transitivity (sumn p (fun i => sumn p (fun j => sumn p (fun t => entry Mx i t * C t a) * entry Cxx i j * sumn p (fun w => entry Mx j w * C w b))))%R.
      { rewrite Rsum_sumn. apply sumn_ext. intros i Hi. rewrite Rsum_sumn. apply sumn_ext. intros j Hj. now rewrite !HPX by assumption. }
      rewrite (quad_form p p p p (entry Mx) C (entry Cxx) (entry Mx) C).
      rewrite (quad_delta p C C (fun t w => sumn p (fun i => sumn p (fun j => entry Mx i t * entry Cxx i j * entry Mx j w)))%R).
      2:{ intros t w Ht Hw. rewrite <- Qx by assumption. apply sumn_ext. intros i Hi. apply sumn_ext. intros j Hj. unfold Mx. rewrite (inv_sqrt_sym p lx Vx i t) by assumption. reflexivity. }
      rewrite <- Ou by lia. rewrite Rsum_sumn. apply sumn_ext. intros; unfold C; ring.
    + transitivity (sumn q (fun i => sumn q (fun j => sumn q (fun t => entry My i t * D t a) * entry Cyy i j * sumn q (fun w => entry My j w * D w b))))%R.
      { rewrite Rsum_sumn. apply sumn_ext. intros i Hi. rewrite Rsum_sumn. apply sumn_ext. intros j Hj. now rewrite !HPY by assumption. }
      rewrite (quad_form q q q q (entry My) D (entry Cyy) (entry My) D).
      rewrite (quad_delta q D D (fun t w => sumn q (fun i => sumn q (fun j => entry My i t * entry Cyy i j * entry My j w)))%R).
      2:{ intros t w Ht Hw. rewrite <- Qy by assumption. apply sumn_ext. intros i Hi. apply sumn_ext. intros j Hj. unfold My. rewrite (inv_sqrt_sym q ly Vy i t) by assumption. reflexivity. }
      rewrite <- Ov' by lia. apply sumn_ext. intros; unfold D; ring.
    + transitivity (sumn p (fun i => sumn q (fun j => sumn p (fun t => entry Mx i t * C t a) * moment X Y i j * sumn q (fun w => entry My j w * D w b))))%R.
      { rewrite Rsum_sumn. apply sumn_ext. intros i Hi. rewrite Rsum_sumn. apply sumn_ext. intros j Hj. rewrite HPX, HPY by assumption. reflexivity. }
      rewrite (quad_form p q p q (entry Mx) C (moment X Y) (entry My) D).
      assert (Hom : forall t w, t < p -> w < q -> sumn p (fun i => sumn q (fun j => entry Mx i t * moment X Y i j * entry My j w))%R = sumn q (fun r => entry u t r * nth r sv 0 * entry vh r w)%R).
      { intros t w Ht Hw. pose proof (HS t w Ht Hw) as E. rewrite Hsv, !Rsum_sumn in E. rewrite <- E. unfold omega, cca_omega. fold p q. rewrite entry_mk by assumption. rewrite Rsum_sumn, sumR_swap.
        apply sumn_ext. intros j Hj. rewrite Rsum_sumn, <- sumR_scal_r. apply sumn_ext. intros i Hi. unfold Mx. rewrite (inv_sqrt_sym p lx Vx i t) by assumption. reflexivity. }
      transitivity (sumn p (fun t => sumn q (fun w => C t a * sumn q (fun r => entry u t r * nth r sv 0 * entry vh r w) * D w b)))%R.
      { apply sumn_ext. intros t Ht. apply sumn_ext. intros w Hw. now rewrite Hom. }
      transitivity (sumn q (fun w => nth a sv 0 * entry vh a w * entry vh w b))%R.
      2:{ rewrite Rsum_sumn, <- sumR_scal. apply sumn_ext. intros; ring. }
      rewrite sumR_swap. apply sumn_ext. intros w Hw.
      transitivity (sumn q (fun r => (nth r sv 0 * entry vh r w * entry vh w b) * delta a r))%R.
      { rewrite (sumn_ext p _ (fun t => sumn q (fun r => (nth r sv 0 * entry vh r w * entry vh w b) * (entry u t a * entry u t r))))%R.
        2:{ intros t Ht. rewrite <- sumR_scal, <- sumR_scal_r. apply sumn_ext. intros r Hr. unfold C, D. ring. }
        rewrite sumR_swap. apply sumn_ext. intros r Hr. rewrite sumR_scal. f_equal. rewrite <- Ou by lia. now rewrite Rsum_sumn. }
      rewrite (sumR_single _ a); [|lia|]. { unfold delta. rewrite Nat.eqb_refl. ring. }
      intros r Hr Hne. unfold delta. rewrite (proj2 (Nat.eqb_neq a r)) by congruence. ring.
  - intros x. assert (HT : forall d m : mat R, t_transform center (center_conf d) m = (center_conf d, t_do center (center_conf d) m)) by reflexivity.
    unfold cca_transform, cca_transform_response, s'. cbn [cc_initialised negb cc_center_X cc_center_Y cc_proj_X cc_proj_Y]. rewrite !HT. cbn [fst snd]. split; [reflexivity|]. split; [reflexivity|].
    rewrite !center_do. cbn [need]. split; intros Hx; unfold p, q in *; rewrite Hx, Nat.eqb_refl, !bind_Ok; [unfold PX|unfold PY]; rewrite mul_mk; (eexists; split; [reflexivity|]); apply is_mat_mk_ext; intros i j Hi Hj; rewrite Rsum_sumn; apply sumn_ext; intros t Ht; rewrite entry_mk by assumption; cbn [nmul nsub NumR]; now rewrite Rmean_np.
Qed.
Print Assumptions C66_projections_partial.

(** Witness: four samples, two features, two targets. *)
Definition w66_X : mat R := Mat 4 2 [[1;1];[1;-1];[-1;1];[-1;-1]]%R.
Definition w66_Y : mat R := Mat 4 2 [[7/10;79/40];[17/10;49/40];[-17/10;-49/40];[-7/10;-79/40]]%R.
Definition w66_Vy : mat R := Mat 2 2 [[3/5;-4/5];[4/5;3/5]]%R.
Definition w66_I : mat R := Mat 2 2 [[1;0];[0;1]]%R.
Definition w66_vh : mat R := Mat 2 2 [[3/5;4/5];[-4/5;3/5]]%R.
Definition w66_ly : list R := [25;169/16]%R.
Definition w66_sv : list R := [8/15;10/39]%R.
Definition w66_eig (A : mat R) : res (list R * mat R) :=
  if Req_EM_T (entry A 0 1) 0 then Ok ([9;9]%R, w66_I) else Ok (w66_ly, w66_Vy).
Definition w66_svd (A : mat R) : res (mat R * list R * mat R) := Ok (w66_I, w66_sv, w66_vh).
Definition w66_lstsq (A B : mat R) : res (mat R) := Err LinAlgError.
Definition w66_s : cca_st R := cca_run w66_eig w66_svd w66_lstsq [CcSet (CcLambdaX 5%R); CcSet (CcLambdaY 9%R); CcSet (CcKcca 2)].

Ltac two i := destruct i as [|[|i]]; [| |lia].
Ltac crunch := cbv [Rsum sumn Rmean centred moment reg_cov w66_X w66_Y w66_Vy w66_I w66_vh w66_ly w66_sv entry mk tab seq map nth rws nr nc Nat.eqb fold_left fold_right delta NumR nadd nmul n0 n1 INR].
Lemma w66_moment i j : i < 2 -> j < 2 -> moment w66_X w66_Y i j = (4 * entry (Mat 2 2 [[6/5;8/5];[-1/2;3/8]]) i j)%R.
Proof. intros Hi Hj. two i; two j; crunch; field. Qed.
Lemma w66_Cxx : reg_cov 5 w66_X = Mat 2 2 [[9;0];[0;9]]%R.
Proof. unfold reg_cov. symmetry. apply mat_eq_mk; [split; [reflexivity|repeat constructor]|reflexivity|reflexivity|]. intros i j Hi Hj. change (nc w66_X) with 2 in *. change (nc w66_Y) with 2 in *. two i; two j; crunch; field. Qed.
Lemma w66_Cyy : reg_cov 9 w66_Y = Mat 2 2 [[394/25;693/100];[693/100;7921/400]]%R.
Proof. unfold reg_cov. symmetry. apply mat_eq_mk; [split; [reflexivity|repeat constructor]|reflexivity|reflexivity|]. intros i j Hi Hj. change (nc w66_X) with 2 in *. change (nc w66_Y) with 2 in *. two i; two j; crunch; field. Qed.
Lemma sqrt_q a b : (0 <= b)%R -> a = (b * b)%R -> sqrt a = b.
Proof. intros Hb ->. now apply sqrt_square. Qed.
Lemma w66_Mx i j : i < 2 -> j < 2 -> entry (inv_sqrt 2 [9;9]%R w66_I) i j = (1/3 * delta i j)%R.
Proof.
  intros Hi Hj. unfold inv_sqrt. rewrite entry_mk by assumption. rewrite Rsum_sumn. cbn [sumn Nat.add nth]. rewrite (sqrt_q 9 3) by lra.
  two i; two j; crunch; field.
Qed.
Lemma w66_My i j : i < 2 -> j < 2 -> entry (inv_sqrt 2 w66_ly w66_Vy) i j =
  (1/5 * (entry w66_Vy i 0 * entry w66_Vy j 0) + 4/13 * (entry w66_Vy i 1 * entry w66_Vy j 1))%R.
Proof.
  intros Hi Hj. unfold inv_sqrt. rewrite entry_mk by assumption. rewrite Rsum_sumn. unfold w66_ly. cbn [sumn Nat.add nth]. rewrite (sqrt_q 25 5), (sqrt_q (169/16) (13/4)) by lra.
  two i; two j; crunch; field.
Qed.
Definition w66_omega : mat R := cca_omega w66_X w66_Y (inv_sqrt 2 [9;9]%R w66_I) (inv_sqrt 2 w66_ly w66_Vy).
Lemma w66_answers :
  eig_answer (reg_cov 5 w66_X) [9;9]%R w66_I /\ orthonormal_columns w66_I 2 /\
  eig_answer (reg_cov 9 w66_Y) w66_ly w66_Vy /\ orthonormal_columns w66_Vy 2 /\
  svd_answer w66_omega w66_I w66_sv w66_vh /\ orthonormal_factors w66_I 2 w66_vh.
Proof.
  rewrite w66_Cxx, w66_Cyy. unfold eig_answer, orthonormal_columns, svd_answer, orthonormal_factors.
  assert (W : forall a b c d : R, wf (Mat 2 2 [[a;b];[c;d]])) by (intros; split; [reflexivity|repeat constructor]).
  cbn [nr nc length w66_ly w66_sv w66_I w66_Vy w66_vh].
  repeat match goal with |- _ /\ _ => split end; try reflexivity; try apply W.
  all: try (intros a b Ha Hb; cbn [nr nc] in *; two a; two b; crunch; field).
  intros i j Hi Hj. unfold w66_omega, cca_omega. rewrite entry_mk by assumption. rewrite !Rsum_sumn. change (nc w66_Y) with 2. cbn [sumn]. rewrite !Rsum_sumn. change (nc w66_X) with 2. cbn [sumn].
  change (nr w66_omega) with 2 in Hi. change (nc w66_omega) with 2 in Hj.
  rewrite !w66_Mx, !w66_My, !w66_moment by (assumption || lia). two i; two j; crunch; field.
Qed.
Lemma w66_trained : exists s' PX PY,
    cca_initialize w66_eig w66_svd w66_lstsq w66_s (Some w66_X) (Some w66_Y) = (s', Ok None) /\ cc_initialised s' = true /\
    cc_proj_X s' = Some PX /\ cc_proj_Y s' = Some PY /\ nr PX = 2 /\ nc PX = 2 /\ nr PY = 2 /\ nc PY = 2 /\
    (forall a b, a < 2 -> b < 2 ->
       Rsum 2 (fun i => Rsum 2 (fun j => entry PX i a * moment w66_X w66_Y i j * entry PY j b))%R =
         (nth a w66_sv 0 * Rsum 2 (fun t => entry w66_vh a t * entry w66_vh t b))%R).
Proof.
  destruct w66_answers as (A1 & A2 & A3 & A4 & A5 & A6).
  assert (E1 : w66_eig (reg_cov 5 w66_X) = Ok ([9;9]%R, w66_I)).
  { rewrite w66_Cxx. unfold w66_eig. cbn. destruct (Req_EM_T 0 0); [reflexivity|lra]. }
  assert (E2 : w66_eig (reg_cov 9 w66_Y) = Ok (w66_ly, w66_Vy)).
  { rewrite w66_Cyy. unfold w66_eig. cbn. destruct (Req_EM_T (693/100) 0); [lra|reflexivity]. }
  destruct (C66_projections_partial w66_eig w66_svd w66_lstsq w66_s w66_X w66_Y _ _ _ _ _ _ _ eq_refl eq_refl
     ltac:(cbn; lra) ltac:(cbn; lra) ltac:(cbn; lia) eq_refl ltac:(cbn; lia) ltac:(cbn; lia) E1 A1 A2 E2 A3 A4 eq_refl eq_refl A5 A6)
     as (s' & PX & PY & H1 & H2 & H3 & H4 & _ & H5 & H6 & _ & H7 & H8 & H9 & _).
  exists s', PX, PY. repeat (split; [assumption|]). intros a b Ha Hb. apply (H9 a b Ha Hb).
Qed.

(** The hypotheses of C66_projections_partial hold for the witness (non-diagonal covariance, two different
    singular values, two components). *)
Example C66_ex : exists s' PX PY,
  cca_initialize w66_eig w66_svd w66_lstsq w66_s (Some w66_X) (Some w66_Y) = (s', Ok None) /\ cc_initialised s' = true /\
  cc_proj_X s' = Some PX /\ cc_proj_Y s' = Some PY /\ nr PX = 2 /\ nc PX = 2 /\ nr PY = 2 /\ nc PY = 2.
Proof. destruct w66_trained as (s' & PX & PY & H). exists s', PX, PY. tauto. Qed.

(** C66 refuted: the projected pairs are not the canonical pairs.  On the witness every solver answer is exact
    and the singular values are 8/15 and 10/39, so the first pair should have cross product 8/15 and pairs
    should be uncorrelated; the first pair has -7/25 * 8/15, and the first X score is correlated with the
    second Y score (24/25 * 8/15). *)
Theorem C66_canonical_refuted : exists eig svd lstsq (h : list (cca_op R)) X Y lx Vx ly Vy u sv vh s' PX PY,
  let s := cca_run eig svd lstsq h in
  let omega := cca_omega X Y (inv_sqrt 2 lx Vx) (inv_sqrt 2 ly Vy) in
  eig (reg_cov (cc_lambda_X s) X) = Ok (lx, Vx) /\ eig_answer (reg_cov (cc_lambda_X s) X) lx Vx /\ orthonormal_columns Vx 2 /\
  eig (reg_cov (cc_lambda_Y s) Y) = Ok (ly, Vy) /\ eig_answer (reg_cov (cc_lambda_Y s) Y) ly Vy /\ orthonormal_columns Vy 2 /\
  svd omega = Ok (u, sv, vh) /\ svd_answer omega u sv vh /\ orthonormal_factors u 2 vh /\
  sv = [8/15; 10/39]%R /\
  cca_initialize eig svd lstsq s (Some X) (Some Y) = (s', Ok None) /\ cc_proj_X s' = Some PX /\ cc_proj_Y s' = Some PY /\
  let cross a b := Rsum 2 (fun i => Rsum 2 (fun j => entry PX i a * moment X Y i j * entry PY j b))%R in
  cross 0 0 = (-7/25 * (8/15))%R /\ cross 0 1 = (24/25 * (8/15))%R.
Proof.
  destruct w66_trained as (s' & PX & PY & H1 & H2 & H3 & H4 & _ & _ & _ & _ & H9). destruct w66_answers as (A1 & A2 & A3 & A4 & A5 & A6).
  exists w66_eig, w66_svd, w66_lstsq, [CcSet (CcLambdaX 5%R); CcSet (CcLambdaY 9%R); CcSet (CcKcca 2)], w66_X, w66_Y, [9;9]%R, w66_I, w66_ly, w66_Vy, w66_I, w66_sv, w66_vh, s', PX, PY.
  cbv zeta. fold w66_s. change (cc_lambda_X w66_s) with 5%R. change (cc_lambda_Y w66_s) with 9%R. fold w66_omega.
  split. { rewrite w66_Cxx. unfold w66_eig. cbn. destruct (Req_EM_T 0 0); [reflexivity|lra]. }
  split; [exact A1|]. split; [exact A2|].
  split. { rewrite w66_Cyy. unfold w66_eig. cbn. destruct (Req_EM_T (693/100) 0); [lra|reflexivity]. }
  repeat (split; [assumption || reflexivity|]). split; rewrite H9 by lia; crunch; field.
Qed.
Print Assumptions C66_canonical_refuted.

(** * Life cycle, for every number type and whatever the solvers answer *)
Section Life.
Context {T : Type} `{Num T}.
Variable eig : mat T -> res (list T * mat T).
Variable svd : mat T -> res (mat T * list T * mat T).
Variable lstsq : mat T -> mat T -> res (mat T).
Local Notation initialize := (cca_initialize eig svd lstsq).
Local Notation run := (cca_run eig svd lstsq).

Definition center_ok (c : center_st T) : Prop := c = t_new center \/ exists d, c = center_conf d.
Lemma center_step (c : center_st T) x : center_ok c ->
  exists d, fst (t_transform center c x) = center_conf d /\ (c = t_new center -> d = x) /\ (forall e, c = center_conf e -> center_conf e = center_conf d) /\
    snd (t_transform center c x) =
      if nc x =? nc d then Ok (mk (nr x) (nc x) (fun i j => nsub (entry x i j) (np_mean (nr d) (fun k => entry d k j)))) else Err ValueError.
Proof.
  intros [->|(d & ->)].
  - exists x. unfold t_transform. change (t_configured center (t_new center)) with false. cbn [negb]. change (t_configure center (t_new center) x) with (center_conf x, @Ok unit tt).
    cbn [fst snd]. rewrite center_do. split; [reflexivity|]. split; [reflexivity|]. split; [discriminate|reflexivity].
  - exists d. unfold t_transform. change (t_configured center (center_conf d)) with true. cbn [negb fst snd]. rewrite center_do. split; [reflexivity|].
    split; [discriminate|]. split; [auto|reflexivity].
Qed.

(** the invariant of every reachable object *)
Definition cca_inv (s : cca_st T) : Prop :=
  (0 < cc_kcca s)%Z /\ center_ok (cc_center_X s) /\ center_ok (cc_center_Y s) /\
  (cc_initialised s = true -> exists PX PY dX dY, cc_proj_X s = Some PX /\ cc_proj_Y s = Some PY /\
     cc_center_X s = center_conf dX /\ cc_center_Y s = center_conf dY).

Lemma cca_transform_same s x : cca_inv s -> fst (cca_transform s x) = s /\ fst (cca_transform_response s x) = s.
Proof.
  intros (_ & _ & _ & Hi). unfold cca_transform, cca_transform_response. destruct (cc_initialised s) eqn:E; cbn [negb]; [|auto].
  destruct (Hi eq_refl) as (PX & PY & dX & dY & _ & _ & EX & EY).
  assert (HT : forall d m : mat T, t_transform center (center_conf d) m = (center_conf d, t_do center (center_conf d) m)) by reflexivity.
  rewrite EX, EY, !HT. cbn [fst]. destruct s as [a b k i cx cy px py]. unfold cca_put_centers. cbn [cc_lambda_X cc_lambda_Y cc_kcca cc_initialised cc_center_X cc_center_Y cc_proj_X cc_proj_Y] in *. now rewrite EX, EY.
Qed.

Lemma cca_initialize_inv s x y : cca_inv s -> cca_inv (fst (initialize s x y)).
Proof.
  intros (Hk & HX & HY & _). destruct x as [x|], y as [y|]; cbn [cca_initialize fst].
  2-4: (split; [cbn; lia|]; split; [left; reflexivity|]; split; [left; reflexivity|]; discriminate).
  unfold cca_do_initialize. cbn [cca_reset cc_kcca cc_center_X cc_center_Y].
  destruct (_ <? _)%Z. { cbn [fst]. split; [exact Hk|]. split; [exact HX|]. split; [exact HY|]. discriminate. }
  destruct (center_step (cc_center_X s) x HX) as (dX & EX & _ & _ & _). destruct (t_transform center (cc_center_X s) x) as [cx [X|e]]; cbn [fst] in EX; subst cx.
  2:{ cbn [fst]. split; [exact Hk|]. split; [right; exists dX; reflexivity|]. split; [exact HY|]. discriminate. }
  destruct (center_step (cc_center_Y s) y HY) as (dY & EY & _ & _ & _). destruct (t_transform center (cc_center_Y s) y) as [cy [Y|e]]; cbn [fst] in EY; subst cy.
  2:{ cbn [fst]. split; [exact Hk|]. split; [right; exists dX; reflexivity|]. split; [right; exists dY; reflexivity|]. discriminate. }
  unfold cca_project. destruct (bind _ _) as [[[px m] D]|e].
  2:{ cbn [fst]. split; [exact Hk|]. split; [right; exists dX; reflexivity|]. split; [right; exists dY; reflexivity|]. discriminate. }
  destruct (mul m D) as [py|e]; cbn [fst]; (split; [exact Hk|]; split; [right; exists dX; reflexivity|]; split; [right; exists dY; reflexivity|]); [|discriminate].
  intros _. exists px, py, dX, dY. repeat split.
Qed.

Lemma cca_run_inv h : cca_inv (run h).
Proof.
  unfold cca_run. assert (H0 : cca_inv cca_new). { split; [cbn; lia|]. split; [left; reflexivity|]. split; [left; reflexivity|]. discriminate. }
  revert H0. generalize (@cca_new T _). induction h as [|o l IH]; intros s Hs; cbn [fold_left]; [exact Hs|]. apply IH.
  destruct o as [x y|x|y| |k]; cbn [cca_step].
  - now apply cca_initialize_inv.
  - now rewrite (proj1 (cca_transform_same s x Hs)).
  - now rewrite (proj2 (cca_transform_same s y Hs)).
  - destruct Hs as (Hk & HX & HY & _). split; [exact Hk|]. split; [exact HX|]. split; [exact HY|]. discriminate.
  - destruct Hs as (Hk & HX & HY & Hi). unfold cca_set. destruct (cca_valid k) eqn:E; cbn [fst]; [|split; [exact Hk|]; split; [exact HX|]; split; [exact HY|]; exact Hi].
    destruct k as [v|v|v]; cbn in E; (split; [cbn; try apply Z.ltb_lt in E; assumption|]); (split; [exact HX|]; split; [exact HY|]; discriminate).
Qed.
End Life.

(** C66, life cycle.  After every history of trainings (succeeding, rejected, raising, with missing
    arguments), transforms, resets and assignments: kcca is positive; transform and transform_response never
    change the object; untrained they raise RuntimeError; trained they subtract the column means the object
    holds (ValueError when the number of columns is another one) and multiply by the stored projection. *)
Theorem C66_life_cycle {T} `{Num T} eig svd lstsq (h : list (cca_op T)) :
  let s := cca_run eig svd lstsq h in
  (0 < cc_kcca s)%Z /\
  (forall x, fst (cca_transform s x) = s /\ fst (cca_transform_response s x) = s) /\
  if cc_initialised s then
    exists PX PY dX dY, cc_proj_X s = Some PX /\ cc_proj_Y s = Some PY /\
      forall x,
        snd (cca_transform s x) =
          (if nc x =? nc dX then mul (mk (nr x) (nc x) (fun i j => nsub (entry x i j) (np_mean (nr dX) (fun k => entry dX k j)))) PX else Err ValueError) /\
        snd (cca_transform_response s x) =
          (if nc x =? nc dY then mul (mk (nr x) (nc x) (fun i j => nsub (entry x i j) (np_mean (nr dY) (fun k => entry dY k j)))) PY else Err ValueError)
  else forall x, snd (cca_transform s x) = Err RuntimeError /\ snd (cca_transform_response s x) = Err RuntimeError.
Proof.
  cbv zeta. pose proof (cca_run_inv eig svd lstsq h) as Hs. set (s := cca_run eig svd lstsq h) in *. clearbody s.
  split; [apply Hs|]. split. { intros x. now apply cca_transform_same. }
  destruct Hs as (_ & _ & _ & Hi). destruct (cc_initialised s) eqn:E.
  - destruct (Hi eq_refl) as (PX & PY & dX & dY & E1 & E2 & E3 & E4). exists PX, PY, dX, dY. split; [exact E1|]. split; [exact E2|]. intros x.
    assert (HT : forall d m : mat T, t_transform center (center_conf d) m = (center_conf d, t_do center (center_conf d) m)) by reflexivity.
    unfold cca_transform, cca_transform_response. rewrite E, E1, E2, E3, E4, !HT, !center_do. cbn [negb snd need].
    split; [destruct (nc x =? nc dX)|destruct (nc x =? nc dY)]; reflexivity.
  - intros x. unfold cca_transform, cca_transform_response. rewrite E. split; reflexivity.
Qed.
Print Assumptions C66_life_cycle.

(** C66, training.  From every state, with two data sets: the message is returned exactly when kcca exceeds
    the smaller number of columns; the object is trained iff nothing was reported or raised; with a missing
    argument nothing is reported, the object is untrained and has its initial attributes again. *)
Theorem C66_training {T} `{Num T} eig svd lstsq (s : cca_st T) (x y : mat T) :
  let r := cca_initialize eig svd lstsq s (Some x) (Some y) in
  (snd r = Ok (Some MsgDimension) <-> (Z.min (Z.of_nat (nc x)) (Z.of_nat (nc y)) < cc_kcca s)%Z) /\
  (cc_initialised (fst r) = true <-> snd r = Ok None) /\
  (cc_kcca (fst r) = cc_kcca s /\ cc_lambda_X (fst r) = cc_lambda_X s /\ cc_lambda_Y (fst r) = cc_lambda_Y s) /\
  (snd r = Ok (Some MsgDimension) -> fst r = cca_reset s) /\
  (forall o, cca_initialize eig svd lstsq s None o = (cca_new, Ok None) /\ cca_initialize eig svd lstsq s o None = (cca_new, Ok None)).
Proof.
  cbv zeta. cbn [cca_initialize]. unfold cca_do_initialize. cbn [cca_reset cc_kcca cc_center_X cc_center_Y].
  split; [|split; [|split; [|split]]].
  5:{ intros [o|]; split; reflexivity. }
  all: destruct (Z.ltb_spec (Z.min (Z.of_nat (nc x)) (Z.of_nat (nc y))) (cc_kcca s)) as [L|L].
  all: try (cbn; tauto); try (cbn; split; discriminate).
  all: destruct (t_transform center (cc_center_X s) x) as [cx [X|e]]; [destruct (t_transform center (cc_center_Y s) y) as [cy [Y|e]]|].
  all: try match goal with |- context [cca_project ?a ?b ?c ?d ?e ?f] => destruct (cca_project a b c d e f) as [px [py|e']] end.
  all: cbn; try tauto; try (split; [discriminate|lia]); try (split; discriminate); try discriminate; auto.
Qed.
Print Assumptions C66_training.

(** C46 for CCAFilter *)
Theorem C46_cca_filter {T} `{Num T} (s : cca_st T) (k : cca_key T) :
  (cca_valid k = false -> cca_set s k = (s, Err ValueError)) /\
  (cca_valid k = true -> let s' := fst (cca_set s k) in snd (cca_set s k) = Ok tt /\ cc_initialised s' = false /\
     cc_proj_X s' = None /\ cc_proj_Y s' = None /\ cc_center_X s' = cc_center_X s /\ cc_center_Y s' = cc_center_Y s /\
     (cc_kcca s', cc_lambda_X s', cc_lambda_Y s') =
       match k with CcKcca v => (v, cc_lambda_X s, cc_lambda_Y s) | CcLambdaX v => (cc_kcca s, v, cc_lambda_Y s) | CcLambdaY v => (cc_kcca s, cc_lambda_X s, v) end).
Proof. unfold cca_set. split; intros ->; [reflexivity|]. destruct k; repeat split. Qed.
Print Assumptions C46_cca_filter.

(** C66 refuted for more targets than features: training never succeeds, for every number type, every object
    and all data, as soon as the solvers answer in the shapes numpy documents (full_matrices=False): the
    right factor has one row per singular value, not one per target. *)
Definition solver_rows {T} (eig : mat T -> res (list T * mat T)) (svd : mat T -> res (mat T * list T * mat T)) : Prop :=
  (forall A l V, eig A = Ok (l, V) -> nr V = nr A) /\
  (forall A u s vh, svd A = Ok (u, s, vh) -> nr vh = Nat.min (nr A) (nc A)).

Section Targets.
Context {T : Type} `{Num T}.
Variable eig : mat T -> res (list T * mat T).
Variable svd : mat T -> res (mat T * list T * mat T).
Variable lstsq : mat T -> mat T -> res (mat T).
Hypothesis shapes : solver_rows eig svd.

Lemma center_shape c (x m : mat T) : snd (t_transform center c x) = Ok m -> nr m = nr x /\ nc m = nc x.
Proof.
  assert (Hop : forall v m, sub_by_vector_modify x v = Ok m -> nr m = nr x /\ nc m = nc x).
  { intros v m' Ev. unfold sub_by_vector_modify, vector_op_modify in Ev. destruct (must_be_vector v); cbn [bind] in Ev; [|discriminate]. destruct (negb _); [discriminate|]. injection Ev as <-.
    unfold broadcast_op. destruct (nr v =? 1); split; reflexivity. }
  unfold t_transform. destruct (negb (t_configured center c)).
  - cbn [center t_configure t_do snd need ce_means bind]. apply Hop.
  - cbn [center t_do snd]. destruct (need (ce_means c)) as [mu|]; cbn [bind]; [apply Hop|discriminate].
Qed.
Lemma sorted_vectors_rows r (d : eig_pair (T:=T)) asc W : get_eigenvectors_sorted r d asc = Ok W -> nr W = nr (snd d).
Proof.
  unfold get_eigenvectors_sorted. destruct (mapM _ _) as [pairs|] eqn:E; cbn [bind]; [|discriminate].
  assert (HP : Forall (fun p => nr (snd p) = nr (snd d)) pairs).
  { revert pairs E. induction (seq 0 r) as [|i l IH]; intros pairs E; cbn [mapM] in E; [injection E as <-; constructor|].
    destruct (get_from_vector _ _) as [v|]; cbn [bind] in E; [|discriminate]. destruct (get_column _ _) as [c|] eqn:Ec; cbn [bind] in E; [|discriminate].
    destruct (mapM _ l) as [ps|]; cbn [bind] in E; [|discriminate]. injection E as <-. constructor; [|now apply IH]. cbn [snd].
    unfold get_column in Ec. destruct (npidx _ _); cbn [bind] in Ec; [|discriminate]. injection Ec as <-. now rewrite transpose_nr. }
  set (so := stable_sort _ pairs). assert (HS : Forall (fun p => nr (snd p) = nr (snd d)) so).
  { rewrite Forall_forall in *. intros p Hp. apply HP. eapply Permutation_in; [apply Permutation_sym, stable_sort_perm|exact Hp]. }
  destruct so as [|p so]; [discriminate|]. inversion HS as [|? ? H1 H2]; subst. revert H1. generalize (snd p). clear HS p. revert H2.
  induction so as [|p so IH]; intros HS m Hm E1; cbn [fold_left] in E1; [congruence|]. inversion HS as [|? ? H1 H2]; subst.
  cbn [bind] in E1. destruct (concat_along_columns m (snd p)) as [m'|] eqn:Ec.
  - apply (IH H2 m'); [|exact E1]. unfold concat_along_columns, concat, concat_columns in Ec. cbn in Ec. destruct (_ =? _); [|discriminate]. injection Ec as <-. exact Hm.
  - exfalso. clear -E1. induction so as [|q so IH]; cbn in E1; [discriminate|auto].
Qed.
Lemma pow_minus_half_shape (A M : mat T) : pow_minus_half eig lstsq A = Ok M -> nr M = nr A /\ nc M = nr A.
Proof.
  unfold pow_minus_half, make_eig. destruct (eig A) as [[l V]|] eqn:E; cbn [bind fst snd]; [|discriminate]. apply (proj1 shapes) in E.
  destruct (get_eigenvectors_sorted _ _ _) as [W|] eqn:EW; cbn [bind]; [|discriminate]. apply sorted_vectors_rows in EW. cbn [snd] in EW.
  destruct (diag_factory _) as [D|]; cbn [bind]; [|discriminate]. destruct (inverse _ _ _) as [Di|]; cbn [bind]; [|discriminate].
  destruct (mul W Di) as [WD|] eqn:E1; cbn [bind]; [|discriminate]. intros E2. apply mul_inv in E1 as [_ ->]. apply mul_inv in E2 as [_ ->].
  rewrite nr_matmul, nc_matmul, transpose_nc, nr_matmul. split; congruence.
Qed.
End Targets.

Theorem C66_more_targets_refuted {T} `{Num T} eig svd lstsq (s : cca_st T) (x y : mat T) :
  solver_rows eig svd -> nc x < nc y ->
  let r := cca_initialize eig svd lstsq s (Some x) (Some y) in
  snd r <> Ok None /\ cc_initialised (fst r) = false.
Proof.
  intros Hsh Hlt. cbv zeta. destruct (C66_training eig svd lstsq s x y) as (_ & H2 & _). cbv zeta in H2.
  assert (HN : snd (cca_initialize eig svd lstsq s (Some x) (Some y)) <> Ok None).
  2:{ split; [exact HN|]. destruct (cc_initialised _) eqn:E; [|reflexivity]. exfalso. apply HN, H2. reflexivity. }
  clear H2. cbn [cca_initialize]. unfold cca_do_initialize. cbn [cca_reset cc_kcca cc_center_X cc_center_Y].
  destruct (_ <? _)%Z; [discriminate|].
  destruct (t_transform center (cc_center_X s) x) as [cx [X|e]] eqn:EX; [|discriminate]. destruct (t_transform center (cc_center_Y s) y) as [cy [Y|e]] eqn:EY; [|discriminate].
  pose proof (center_shape (cc_center_X s) x X ltac:(now rewrite EX)) as (_ & SX). pose proof (center_shape (cc_center_Y s) y Y ltac:(now rewrite EY)) as (_ & SY).
  unfold cca_project. cbn [cca_put_centers cca_reset cc_lambda_X cc_lambda_Y cc_kcca].
  destruct (cca_cov _ X) as [Cxx|] eqn:E1; cbn [bind]; [|discriminate]. destruct (cca_cov _ Y) as [Cyy|] eqn:E2; cbn [bind]; [|discriminate].
  destruct (mul _ Y) as [Cxy|] eqn:E3; cbn [bind]; [|discriminate].
  destruct (pow_minus_half eig lstsq Cxx) as [Mx|] eqn:E4; cbn [bind]; [|discriminate]. destruct (pow_minus_half eig lstsq Cyy) as [My|] eqn:E5; cbn [bind]; [|discriminate].
  destruct (mul Mx Cxy) as [O1|] eqn:E6; cbn [bind]; [|discriminate]. destruct (mul O1 My) as [om|] eqn:E7; cbn [bind]; [|discriminate].
  unfold svd_U, svd_V, make_svd. destruct (svd om) as [[[u sv] vh]|] eqn:E8; cbn [bind fst snd]; [|discriminate]. unfold normalized. cbn [Z.eqb orb bind].
  destruct (get_sub_matrix (mk (nr (mul_scalar u (nofZ (-1)))) _ _) _ _) as [C|]; cbn [bind]; [|discriminate].
  destruct (get_sub_matrix _ _ _) as [D|] eqn:E9; cbn [bind]; [|discriminate]. destruct (mul Mx C) as [px|]; cbn [bind]; [|discriminate].
  destruct (mul My D) as [py|] eqn:E10; [|discriminate]. intros _.
  assert (Hcov : forall la (A C : mat T), cca_cov la A = Ok C -> nr C = nc A).
  { intros la A C' E. unfold cca_cov in E. destruct (eye _ _); cbn [bind] in E; [|discriminate]. destruct (mul (transpose A) A) as [AA|] eqn:EA; cbn [bind] in E; [|discriminate].
    apply mul_inv in EA as [_ ->]. unfold add in E. destruct (must_be_same_shape _ _); cbn [bind] in E; [|discriminate]. injection E as <-. cbn. apply transpose_nr. }
  apply Hcov in E1. apply Hcov in E2. apply (pow_minus_half_shape eig svd lstsq Hsh) in E4 as [X1 X2]. apply (pow_minus_half_shape eig svd lstsq Hsh) in E5 as [Y1 Y2].
  apply mul_inv in E6 as [_ ->]. apply mul_inv in E7 as [_ ->]. apply (proj2 Hsh) in E8. rewrite nc_matmul, !nr_matmul in E8.
  apply mul_inv in E10 as [E10 _].
  assert (HD : nr D = nr vh).
  { unfold get_sub_matrix in E9. destruct (_ || _); [injection E9 as <-; cbn [nr]|].
    2:{ destruct (mapM _ _); cbn [bind] in E9; [|discriminate]. destruct (mapM _ _); cbn [bind] in E9; [|discriminate]. injection E9 as <-. cbn [nr]. 
        cbn [sel_indices]. unfold pyrange. rewrite tab_length, range_len_1. cbn. lia. }
    cbn [sel_indices]. unfold pyrange. rewrite tab_length, range_len_1. cbn. lia. }
  lia.
Qed.
Print Assumptions C66_more_targets_refuted.

(** * C48: what an earlier training leaves behind *)
(** The centers are only configured once: after a successful training on (x1, y1) of an object whose centers
    were unused, and any further assignments, resets, transforms and trainings with both arguments, the
    object still centres with the means of x1 and y1, *)
Definition keeps_centers {T} (o : cca_op T) : Prop := match o with CcInit None _ | CcInit _ None => False | _ => True end.
Lemma t_transform_center_conf {T} `{Num T} (d m : mat T) : t_transform center (center_conf d) m = (center_conf d, t_do center (center_conf d) m).
Proof. reflexivity. Qed.
Lemma center_first_any {T} `{Num T} (m : mat T) : fst (t_transform center (t_new center) m) = center_conf m.
Proof. reflexivity. Qed.
Theorem C48_cca_filter_stale_partial {T} `{Num T} eig svd lstsq (x1 y1 : mat T) (before after : list (cca_op T)) :
  let s0 := cca_run eig svd lstsq before in
  cc_center_X s0 = t_new center -> cc_center_Y s0 = t_new center ->
  cc_initialised (fst (cca_initialize eig svd lstsq s0 (Some x1) (Some y1))) = true ->
  Forall keeps_centers after ->
  let s := cca_run eig svd lstsq (before ++ CcInit (Some x1) (Some y1) :: after) in
  cc_center_X s = center_conf x1 /\ cc_center_Y s = center_conf y1 /\
  (cc_initialised s = true -> exists PX PY, cc_proj_X s = Some PX /\ cc_proj_Y s = Some PY /\ forall x,
     snd (cca_transform s x) =
       (if nc x =? nc x1 then mul (mk (nr x) (nc x) (fun i j => nsub (entry x i j) (np_mean (nr x1) (fun k => entry x1 k j)))) PX else Err ValueError) /\
     snd (cca_transform_response s x) =
       (if nc x =? nc y1 then mul (mk (nr x) (nc x) (fun i j => nsub (entry x i j) (np_mean (nr y1) (fun k => entry y1 k j)))) PY else Err ValueError)) /\
  (forall x2 y2, nc x2 <> nc x1 \/ nc y2 <> nc y1 -> (cc_kcca s <= Z.min (Z.of_nat (nc x2)) (Z.of_nat (nc y2)))%Z ->
     snd (cca_initialize eig svd lstsq s (Some x2) (Some y2)) = Err ValueError).
Proof.
  intros s0 HX HY Hi Ha s. pose proof (cca_run_inv eig svd lstsq (before ++ CcInit (Some x1) (Some y1) :: after)) as Hinv. fold s in Hinv.
  assert (HC : cc_center_X s = center_conf x1 /\ cc_center_Y s = center_conf y1).
  { unfold s, cca_run. rewrite fold_left_app. cbn [fold_left]. fold (cca_run eig svd lstsq before). fold s0.
    cbn [cca_step]. set (s1 := fst (cca_initialize eig svd lstsq s0 (Some x1) (Some y1))) in *.
    assert (H1 : cc_center_X s1 = center_conf x1 /\ cc_center_Y s1 = center_conf y1).
    { unfold s1 in *. cbn [cca_initialize] in *. unfold cca_do_initialize in *. cbn [cca_reset cc_kcca cc_center_X cc_center_Y] in *. rewrite HX, HY in *.
      destruct (_ <? _)%Z; [cbn in Hi; discriminate|]. 
      destruct (t_transform center (t_new center) x1) as [cx [X|e]] eqn:EX; [|cbn in Hi; discriminate].
      destruct (t_transform center (t_new center) y1) as [cy [Y|e]] eqn:EY; [|cbn in Hi; discriminate].
      pose proof (center_first_any x1) as F1. pose proof (center_first_any y1) as F2. rewrite EX in F1. rewrite EY in F2. cbn [fst] in F1, F2. subst cx cy.
      destruct (cca_project _ _ _ _ _ _) as [px [py|e]]; [|cbn in Hi; discriminate]. cbn. auto. }
    clear -H1 Ha. clearbody s1. revert s1 H1. induction Ha as [|o l Ho Hl IH]; intros s1 (C1 & C2); cbn [fold_left]; [auto|]. apply IH.
    destruct o as [[x|] [y|]|x|y| |k]; cbn [keeps_centers] in Ho; try contradiction; cbn [cca_step].
    - cbn [cca_initialize]. unfold cca_do_initialize. cbn [cca_reset cc_kcca cc_center_X cc_center_Y]. rewrite C1, C2, !t_transform_center_conf.
      destruct (_ <? _)%Z; [cbn; auto|]. destruct (t_do center (center_conf x1) x); [|cbn; auto]. destruct (t_do center (center_conf y1) y); [|cbn; auto].
      destruct (cca_project _ _ _ _ _ _) as [px [py|e]]; cbn; auto.
    - unfold cca_transform. destruct (negb _); [auto|]. rewrite C1, t_transform_center_conf. cbn. auto.
    - unfold cca_transform_response. destruct (negb _); [auto|]. rewrite C2, t_transform_center_conf. cbn. auto.
    - cbn. auto.
    - unfold cca_set. destruct (cca_valid k); [|auto]. destruct k; cbn; auto. }
  clearbody s. destruct HC as (C1 & C2). split; [exact C1|]. split; [exact C2|]. split.
  - intros Hs. destruct Hinv as (_ & _ & _ & Hv). destruct (Hv Hs) as (PX & PY & _ & _ & P1 & P2 & _ & _). exists PX, PY. split; [exact P1|]. split; [exact P2|]. intros x.
    unfold cca_transform, cca_transform_response. rewrite Hs, C1, C2, P1, P2, !t_transform_center_conf, !center_do. cbn [negb snd need].
    split; [destruct (nc x =? nc x1)|destruct (nc x =? nc y1)]; reflexivity.
  - intros x2 y2 Hne Hk. cbn [cca_initialize]. unfold cca_do_initialize. cbn [cca_reset cc_kcca cc_center_X cc_center_Y]. rewrite C1, C2, !t_transform_center_conf, !center_do.
    destruct (Z.ltb_spec (Z.min (Z.of_nat (nc x2)) (Z.of_nat (nc y2))) (cc_kcca s)); [lia|].
    destruct (Nat.eqb_spec (nc x2) (nc x1)) as [Q|Q]; [|reflexivity]. destruct (Nat.eqb_spec (nc y2) (nc y1)) as [Q'|Q']; [lia|]. reflexivity.
Qed.
Print Assumptions C48_cca_filter_stale_partial.

(** Restoring the defaults forgets everything. *)
Theorem C48_cca_filter_defaults {T} `{Num T} eig svd lstsq (before after : list (cca_op T)) (o : option (mat T)) :
  cca_run eig svd lstsq (before ++ CcInit None o :: after) = cca_run eig svd lstsq after /\
  cca_run eig svd lstsq (before ++ CcInit o None :: after) = cca_run eig svd lstsq after.
Proof.
  unfold cca_run. rewrite !fold_left_app. cbn [fold_left cca_step].
  destruct (C66_training eig svd lstsq (fold_left (cca_step eig svd lstsq) before cca_new) (mk 0 0 (fun _ _ => n0)) (mk 0 0 (fun _ _ => n0))) as (_ & _ & _ & _ & E).
  destruct (E o) as (-> & ->). split; reflexivity.
Qed.
Print Assumptions C48_cca_filter_defaults.

(** C48 refuted for CCAFilter, in binary64, one feature and one target, with exact solvers for 1x1 matrices:
    training on ([0;2],[0;2]) and then on ([10;12],[10;12]) is not the same as training on the latter only:
    the fresh filter maps the mean 11 to 0, the retrained one to a non-zero number. *)
Definition eig_1 (A : mat f64) : res (list f64 * mat f64) := Ok ([entry A 0 0], rows64 [[1]]%Z).
Definition svd_1 (A : mat f64) : res (mat f64 * list f64 * mat f64) :=
  let a := entry A 0 0 in Ok (rows64 [[1]]%Z, [nabs a], rows64 [[if nltb a n0 then -1 else 1]]%Z).
Definition w48_run (h : list (cca_op f64)) : cca_st f64 := cca_run eig_1 svd_1 (fun _ _ => Err LinAlgError) h.
Definition w48_1 : option (mat f64) := Some (rows64 [[0];[2]]%Z).
Definition w48_2 : option (mat f64) := Some (rows64 [[10];[12]]%Z).
Theorem C48_cca_filter_refuted : exists y,
  let once := w48_run [CcInit w48_2 w48_2] in let twice := w48_run [CcInit w48_1 w48_1; CcInit w48_2 w48_2] in
  cc_initialised once = true /\ cc_initialised twice = true /\
  snd (cca_transform once (rows64 [[11]]%Z)) = Ok (rows64 [[0]]%Z) /\
  snd (cca_transform twice (rows64 [[11]]%Z)) = Ok y /\ nltb (nofZ 0 : f64) (nabs (entry y 0 0)) = true.
Proof. eexists. cbv zeta. split; [vm_compute; reflexivity|]. split; [vm_compute; reflexivity|]. split; [vm_compute; reflexivity|]. split; vm_compute; reflexivity. Qed.
Print Assumptions C48_cca_filter_refuted.
