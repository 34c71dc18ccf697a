(** C59: OPLS - orthogonal weights and the correction of new data. *)
From Coq Require Import List ZArith Lia Bool Arith Reals Lra SpecFloat.
From Verif Require Import Base Num Mat M_Matrix M_Factory M_Helper M_Loop M_Utils M_Linalg M_Transform M_PLSBase M_PLS M_PLS2
  S_Matrix L_Base L_Mat L_Matrix L_MatR L_Linalg L_Alg L_Deflate P_Matrix P_Linalg P_PLS1 P_PLSRefute.
Import ListNotations.
Local Open Scope nat_scope.

Section Run.
Variables (n p a : nat) (X : nat -> nat -> R) (w : nat -> R).
Hypotheses (Hn : n <> 0) (Hp : p <> 0).
Local Open Scope R_scope.
Let iv m (f : nat -> R) : R := 1 / sumn m (fun i => f i * f i).
Definition o_t (E : nat -> nat -> R) (u : nat -> R) (i : nat) : R := sumn p (fun j => E i j * u j) * iv p u.
Definition o_p (E : nat -> nat -> R) (s : nat -> R) (j : nat) : R := sumn n (fun i => E i j * s i) * iv n s.
Definition o_raw (E : nat -> nat -> R) (j : nat) : R :=
  let q := o_p E (o_t E w) in q j - w j * (sumn p (fun l => w l * q l) * iv p w).
Definition o_w (E : nat -> nat -> R) (j : nat) : R := o_raw E j / sqrt (sumn p (fun l => o_raw E l * o_raw E l)).
Fixpoint o_E (k : nat) : nat -> nat -> R :=
  match k with
  | O => X
  | S k => let E := o_E k in fun i j => E i j - o_t E (o_w E) i * o_p E (o_t E (o_w E)) j
  end.
Definition wo k := o_w (o_E k).
Definition to k := o_t (o_E k) (wo k).
Definition po k := o_p (o_E k) (to k).
Local Open Scope nat_scope.

Lemma t_mk r m (E : nat -> nat -> R) (u : nat -> R) (f : nat -> R) : (forall i, f i = sumn m (fun l => E i l * u l) * (1 / sumn m (fun i => u i * u i)))%R ->
  mk r 1 (fun i _ : nat => nmul (sumn m (fun l => nmul (E i l) (u l))) (ndiv n1 (sumn m (fun i => (u i * u i)%R)))) = mk r 1 (fun i _ => f i).
Proof. intros Hf. apply mk_ext. intros. now rewrite Hf. Qed.
Lemma bind_Ok {A B} (x : A) (f : A -> res B) : bind (Ok x) f = f x. Proof. reflexivity. Qed.
Lemma step_run (E : nat -> nat -> R) (W P Tm : nat -> nat -> R) k : k < a ->
  opls_step (mk p 1 (fun j _ => w j)) (mk n p E, mk p n (fun j i => E i j), mk p a W, mk p a P, mk n a Tm) k =
  let u := o_w E in let s := o_t E u in let q := o_p E s in
  Ok (mk n p (fun i j => E i j - s i * q j)%R, mk p n (fun j i => E i j - s i * q j)%R,
      mk p a (fun j l => if l =? k then u j else W j l), mk p a (fun j l => if l =? k then q j else P j l),
      mk n a (fun i l => if l =? k then s i else Tm i l)).
Proof.
  intros Hk. unfold opls_step, zn, inv_L2_squared. rewrite mul_mk. rewrite bind_Ok.
  rewrite norm2_squared_col, mul_scalar_mk. rewrite (t_mk n p E w (o_t E w)) by reflexivity.
  rewrite norm2_squared_col, mul_mk. rewrite bind_Ok. rewrite mul_scalar_mk.
  rewrite (t_mk p n (fun j i => E i j) (o_t E w) (o_p E (o_t E w))) by reflexivity.
  rewrite transpose_mk, mul_mk. rewrite bind_Ok. rewrite mul_scalar_mk, as_real_mk. rewrite bind_Ok. rewrite mul_scalar_mk, sub_mk. rewrite bind_Ok.
  rewrite (mk_ext p 1 _ (fun j _ => o_raw E j)) by reflexivity.
  rewrite normalized0_mk. rewrite bind_Ok.
  rewrite (mk_ext p 1 _ (fun j _ => o_w E j)) by reflexivity. set (u := o_w E).
  rewrite norm2_squared_col, mul_mk. rewrite bind_Ok. rewrite mul_scalar_mk.
  rewrite (t_mk n p E u (o_t E u)) by reflexivity. set (s := o_t E u).
  rewrite norm2_squared_col, mul_mk. rewrite bind_Ok. rewrite mul_scalar_mk.
  rewrite (t_mk p n (fun j i => E i j) s (o_p E s)) by reflexivity. set (q := o_p E s).
  rewrite transpose_mk, mul_mk. rewrite bind_Ok. rewrite sub_mk. rewrite bind_Ok. rewrite transpose_mk.
  rewrite !set_column_mk by assumption. rewrite !bind_Ok. cbv zeta.
  rewrite (mk_ext n p _ (fun i j => E i j - s i * q j)%R) by (intros; now rewrite sum1).
  rewrite (mk_ext p n _ (fun j i => E i j - s i * q j)%R) by (intros; now rewrite sum1). reflexivity.
Qed.
Lemma opls_loop_run :
  for_range a (opls_step (mk p 1 (fun j _ => w j)))
    (mk n p X, transpose (mk n p X), mk p a (fun _ _ => 0%R), mk p a (fun _ _ => 0%R), mk n a (fun _ _ => 0%R)) =
  Ok (mk n p (o_E a), mk p n (fun j i => o_E a i j), mk p a (fun j k => wo k j), mk p a (fun j k => po k j), mk n a (fun i k => to k i)).
Proof.
  pose (st := fun k => (mk n p (o_E k), mk p n (fun j i => o_E k i j), mk p a (fun j l => if l <? k then wo l j else 0%R),
     mk p a (fun j l => if l <? k then po l j else 0%R), mk n a (fun i l => if l <? k then to l i else 0%R)) : opls_state (T:=R)).
  destruct (for_range_inv (fun k s => s = st k) (opls_step (mk p 1 (fun j _ => w j))) a (st 0)) as (s & Es & ->).
  - reflexivity.
  - intros k s Hk ->. unfold st at 1. rewrite step_run by assumption. eexists. split; [reflexivity|]. unfold st.
    change (o_w (o_E k)) with (wo k). change (o_t (o_E k) (wo k)) with (to k). change (o_p (o_E k) (to k)) with (po k).
    f_equal; [f_equal; [f_equal|]|]; apply mk_ext; intros i j Hi Hj.
    + apply (ifS k j 0%R (fun l => wo l i)).
    + apply (ifS k j 0%R (fun l => po l i)).
    + apply (ifS k j 0%R (fun l => to l i)).
  - rewrite transpose_mk. transitivity (Ok (st a)); [rewrite <- Es; reflexivity|]. f_equal. unfold st.
    assert (G : forall r (g : nat -> nat -> R), mk r a (fun i l => if l <? a then g l i else 0%R) = mk r a (fun i l => g l i)).
    { intros r g. apply mk_ext. intros i j Hi Hj. now rewrite (proj2 (Nat.ltb_lt j a) Hj). }
    now rewrite !G.
Qed.

(** the weights are orthogonal to w *)
Lemma wo_perp k : sumn p (fun j => (w j * wo k j)%R) = 0%R.
Proof.
  set (ww := sumn p (fun j => (w j * w j)%R)). unfold wo, o_w. set (E := o_E k). set (nrm := sqrt _).
  rewrite (sumn_ext p _ (fun j => (w j * o_raw E j * / nrm)%R)) by (intros; unfold Rdiv; ring).
  rewrite sumR_scal_r. replace (sumn p (fun j => (w j * o_raw E j)%R)) with 0%R; [ring|].
  unfold o_raw. set (q := o_p E (o_t E w)). set (d := sumn p (fun l => (w l * q l)%R)).
  destruct (Req_dec ww 0) as [Z|NZ].
  - symmetry. apply sumR_zero. intros j Hj. assert (w j * w j = 0)%R by (apply (sumR_nonneg_0 p (fun j => w j * w j)%R); auto; intros; apply Rle_0_sqr).
    assert (w j = 0)%R by nra. rewrite H0. ring.
  - rewrite (sumn_ext p _ (fun j => w j * q j - w j * w j * (d * iv p w))%R) by (intros; ring).
    rewrite sumR_minus, sumR_scal_r. fold d ww. unfold iv. fold ww. field. exact NZ.
Qed.
(** the training matrix is the filtered one plus what was removed *)
Lemma o_decompose i j : i < n -> j < p -> o_E a i j = (X i j - sumn a (fun k => to k i * po k j))%R.
Proof.
  intros Hi Hj. induction a as [|m IH].
  - rewrite sumR_0. cbn [o_E]. ring.
  - rewrite sumR_S. cbn [o_E]. rewrite IH. fold (wo m) (to m) (po m). unfold to, po, wo. ring.
Qed.
End Run.

(** The weight vector the corrections are kept orthogonal to. *)
Definition w_of (n p : nat) (X : nat -> nat -> R) (y : nat -> R) (j : nat) : R :=
  let c j := (sumn n (fun i => X i j * y i) * (1 / sumn n (fun i => y i * y i)))%R in
  (c j / sqrt (sumn p (fun l => c l * c l)))%R.
Lemma opls_fit_run n p a X y : n <> 0 -> p <> 0 ->
  opls_fit (Z.of_nat a) (mk n p X) (mk n 1 (fun i _ => y i)) =
  let w := w_of n p X y in
  Ok (mk p 1 (fun j _ => w j), (mk n p (o_E n p X w a), mk p n (fun j i => o_E n p X w a i j),
    mk p a (fun j k => wo n p X w k j), mk p a (fun j k => po n p X w k j), mk n a (fun i k => to n p X w k i))).
Proof.
  intros Hn Hp. unfold opls_fit. rewrite transpose_mk, mul_mk, bind_Ok. unfold inv_L2_squared. rewrite norm2_squared_col, mul_scalar_mk, normalized0_mk, bind_Ok.
  rewrite (mk_ext p 1 _ (fun j _ => w_of n p X y j)) by reflexivity. cbn [nr nc mk]. fold (mk n p X). unfold zn.
  rewrite !zeros_mk by assumption. rewrite Nat2Z.id. rewrite <- (transpose_mk n p X). rewrite opls_loop_run. reflexivity.
Qed.
(** W_orth is orthogonal to X^T y, the direction of covariance with the response. *)
Lemma w_perp n p X y k : sumn n (fun i => (y i * y i)%R) <> 0%R ->
  sumn p (fun j => (sumn n (fun i => X i j * y i) * wo n p X (w_of n p X y) k j)%R) = 0%R.
Proof.
  intros Hy. pose proof (wo_perp n p X (w_of n p X y) k) as Hw. set (u := wo n p X (w_of n p X y) k) in *.
  set (c := fun j => sumn n (fun i => (X i j * y i)%R)). set (yy := sumn n (fun i => (y i * y i)%R)) in *.
  set (s := sqrt (sumn p (fun l => (c l * (1 / yy)) * (c l * (1 / yy)))%R)).
  assert (Ew : forall j, w_of n p X y j = (c j * ((1 / yy) * / s))%R) by (intros j; unfold w_of; fold yy; unfold s, c, Rdiv; ring).
  destruct (Req_dec s 0) as [Z|NZ].
  - apply sumR_zero. intros j Hj. fold (c j).
    assert (Zs : sumn p (fun l => (c l * (1 / yy) * (c l * (1 / yy)))%R) = 0%R).
    { apply sqrt_eq_0; [|exact Z]. apply sumR_nonneg. intros; apply Rle_0_sqr. }
    pose proof (sumR_nonneg_0 p _ (fun i _ => Rle_0_sqr (c i * (1 / yy))) Zs j Hj) as Q. cbn beta in Q.
    apply Rmult_integral in Q. assert (Q' : (c j * (1 / yy) = 0)%R) by tauto. apply Rmult_integral in Q'. destruct Q' as [->|Q']; [ring|].
    exfalso. unfold Rdiv in Q'. rewrite Rmult_1_l in Q'. now apply Rinv_neq_0_compat in Q'.
  - rewrite (sumn_ext p _ (fun j => (c j * u j) * ((1 / yy) * / s))%R) in Hw by (intros; rewrite Ew; ring).
    rewrite sumR_scal_r in Hw. apply Rmult_integral in Hw. destruct Hw as [Q|Q]; [exact Q|].
    exfalso. apply Rmult_integral in Q. destruct Q as [Q|Q]; [unfold Rdiv in Q; rewrite Rmult_1_l in Q|]; now apply Rinv_neq_0_compat in Q.
Qed.
(** X w_k = t_k + what the earlier corrections had removed along w_k *)
Lemma raw_scores n p X w k i : i < n -> sumn p (fun j => (wo n p X w k j * wo n p X w k j)%R) = 1%R ->
  sumn p (fun l => (X i l * wo n p X w k l)%R) =
  (to n p X w k i + sumn k (fun m => to n p X w m i * sumn p (fun l => po n p X w m l * wo n p X w k l)))%R.
Proof.
  intros Hi Hu. set (u := wo n p X w k) in *.
  rewrite (sumn_ext p _ (fun l => o_E n p X w k i l * u l + sumn k (fun m => to n p X w m i * (po n p X w m l * u l)))%R).
  2:{ intros l Hl. rewrite (o_decompose n p k X w i l Hi Hl). rewrite (sumn_ext k (fun m => (to n p X w m i * (po n p X w m l * u l))%R) (fun m => (to n p X w m i * po n p X w m l) * u l)%R) by (intros; ring). rewrite sumR_scal_r. ring. }
  rewrite sumR_plus. f_equal.
  - unfold to, o_t. fold u. rewrite Hu. field.
  - rewrite sumR_swap. apply sumn_ext. intros m Hm. now rewrite sumR_scal.
Qed.

Section C59.
Context {A K : Type} (base : pls_class A K R).
Let ocl := opls base.
(** Any training call on an OPLS object (no preprocessing), whatever the base algorithm does:
    - every column of W_orth is orthogonal to X^T y;
    - X_osc is X with T_orth P_orth^T removed;
    - transform(Z) = Z - Z W_orth P_orth^T;
    - so, when the columns of W_orth have unit length, transform(X) differs from X_osc by the cross
      terms t_m (p_m . w_k) p_k^T, m < k. *)
Theorem C59_correction_partial (s0 s : pls_st (opls_st (T:=R)) R) (X Y : mat R) (a : nat) (r : res (option msg)) :
  let n := nr X in let p := nc X in
  p_preprocessing s0 = PP_NONE -> p_num_components s0 = Z.of_nat a ->
  wf X -> wf Y -> n <> 0 -> p <> 0 -> nr Y = n -> nc Y = 1 -> Rsum n (fun i => entry Y i 0 * entry Y i 0)%R <> 0%R ->
  initialize ocl s0 (Some X) (Some Y) = (s, r) ->
  exists W P Ts Xf,
    op_W (p_own s) = Some W /\ op_P (p_own s) = Some P /\ op_T (p_own s) = Some Ts /\ op_X_osc (p_own s) = Some Xf /\
    (forall k, k < a -> Rsum p (fun j => (Rsum n (fun i => entry X i j * entry Y i 0) * entry W j k)%R) = 0%R) /\
    is_mat Xf n p (fun i j => (entry X i j - Rsum a (fun k => entry Ts i k * entry P j k))%R) /\
    (r = Ok None -> forall Z, wf Z -> nc Z = p -> exists S, transform ocl s Z = (s, Ok S) /\
       is_mat S (nr Z) p (fun i j => (entry Z i j - Rsum a (fun k => Rsum p (fun l => entry Z i l * entry W l k) * entry P j k))%R)) /\
    (r = Ok None -> (forall k, k < a -> Rsum p (fun j => entry W j k * entry W j k)%R = 1%R) ->
       exists S, transform ocl s X = (s, Ok S) /\
       is_mat S n p (fun i j => (entry Xf i j -
          Rsum a (fun k => Rsum k (fun m => entry Ts i m * Rsum p (fun l => entry P l m * entry W l k)) * entry P j k))%R)).
Proof.
  intros n p Hpp Hnc WX WY Hn Hp RY CY Hy Hi.
  set (x := entry X). set (y := fun i => entry Y i 0). set (w := w_of n p x y).
  assert (EX : X = mk n p x) by (apply wf_mk; exact WX).
  assert (EY : Y = mk n 1 (fun i _ => y i)).
  { rewrite (wf_mk Y WY), RY, CY. apply mk_ext. intros i j Hi0 Hj. unfold y. now replace j with 0 by lia. }
  pose proof (opls_fit_run n p a x y Hn Hp) as Ef. rewrite <- EX, <- EY in Ef. cbv zeta in Ef. fold w in Ef.
  set (W := mk p a (fun j k => wo n p x w k j)) in *. set (P := mk p a (fun j k => po n p x w k j)) in *.
  set (Ts := mk n a (fun i k => to n p x w k i)) in *. set (Xf := mk n p (o_E n p x w a)) in *.
  assert (Etr : forall m z, opls_transform (Some W) (Some P) (mk m p z) =
     Ok (mk m p (fun i j => (z i j - sumn a (fun k => sumn p (fun l => z i l * wo n p x w k l) * po n p x w k j))%R))).
  { intros m z. unfold opls_transform, need. rewrite bind_Ok. unfold W at 1. rewrite mul_mk, !bind_Ok. unfold P at 1. rewrite transpose_mk, mul_mk, bind_Ok, sub_mk. reflexivity. }
  assert (Hs : op_W (p_own s) = Some W /\ op_P (p_own s) = Some P /\ op_T (p_own s) = Some Ts /\ op_X_osc (p_own s) = Some Xf /\ (r = Ok None -> p_initialised s = true)).
  { unfold initialize, check_data in Hi. unfold ocl at 1 in Hi. cbn [opls c_arity] in Hi. rewrite CY in Hi. cbn [Nat.eqb negb] in Hi.
    unfold do_initialize in Hi. cbn [reset p_preprocessing] in Hi. rewrite Hpp in Hi. unfold prepare in Hi. unfold ocl at 1 in Hi. cbn [opls c_arity prep_single pt_fit] in Hi.
    cbn [set_prep p_num_components p_own reset] in Hi. rewrite Hnc in Hi. unfold ocl at 1 in Hi. cbn [opls c_train] in Hi. unfold opls_train in Hi. rewrite Ef in Hi.
    rewrite EX in Hi at 1. rewrite Etr in Hi.
    destruct (initialize base _ _ _) as (b & rb). destruct rb as [m|e]; injection Hi as <- <-; cbn; repeat split; auto; discriminate. }
  destruct Hs as (HW & HP & HT & HX & Hini).
  assert (Htr : r = Ok None -> forall Z, transform ocl s Z = (s, opls_transform (Some W) (Some P) Z)).
  { intros Hr Z. unfold transform. rewrite (Hini Hr). cbn [negb]. unfold ocl at 1. cbn [opls c_transform]. rewrite HW, HP. f_equal. destruct s; reflexivity. }
  assert (GW : forall j k, j < p -> k < a -> entry W j k = wo n p x w k j) by (intros; unfold W; now rewrite entry_mk).
  assert (GP : forall j k, j < p -> k < a -> entry P j k = po n p x w k j) by (intros; unfold P; now rewrite entry_mk).
  assert (GT : forall i k, i < n -> k < a -> entry Ts i k = to n p x w k i) by (intros; unfold Ts; now rewrite entry_mk).
  exists W, P, Ts, Xf. split; [exact HW|]. split; [exact HP|]. split; [exact HT|]. split; [exact HX|]. split; [|split; [|split]].
  - intros k Hk. rewrite Rsum_sumn. etransitivity; [|apply (w_perp n p x y k)]; [|now rewrite Rsum_sumn in Hy].
    apply sumn_ext. intros j Hj. rewrite GW by assumption. now rewrite Rsum_sumn.
  - apply is_mat_mk_ext. intros i j Hi0 Hj. rewrite (o_decompose n p a x w i j Hi0 Hj). f_equal. rewrite Rsum_sumn. apply sumn_ext. intros k Hk. now rewrite GT, GP.
  - intros Hr Z WZ CZ. rewrite (Htr Hr). replace (opls_transform (Some W) (Some P) Z) with (opls_transform (Some W) (Some P) (mk (nr Z) p (entry Z))) by (rewrite <- CZ, <- wf_mk; auto). rewrite Etr. eexists. split; [reflexivity|].
    apply is_mat_mk_ext. intros i j Hi0 Hj. f_equal. rewrite Rsum_sumn. apply sumn_ext. intros k Hk. rewrite GP by assumption. f_equal. rewrite Rsum_sumn. apply sumn_ext. intros l Hl. now rewrite GW.
  - intros Hr Hu. rewrite (Htr Hr). replace (opls_transform (Some W) (Some P) X) with (opls_transform (Some W) (Some P) (mk n p x)) by now rewrite <- EX. rewrite Etr. eexists. split; [reflexivity|].
    apply is_mat_mk_ext. intros i j Hi0 Hj. unfold Xf. rewrite entry_mk by assumption. rewrite (o_decompose n p a x w i j Hi0 Hj). rewrite Rsum_sumn.
    unfold Rminus. rewrite Rplus_assoc. f_equal. rewrite <- Ropp_plus_distr. f_equal. rewrite <- sumR_plus. apply sumn_ext. intros k Hk.
    rewrite raw_scores by (auto; rewrite <- (Hu k Hk), Rsum_sumn; apply sumn_ext; intros; now rewrite GW).
    rewrite GP, Rsum_sumn by assumption. rewrite Rmult_plus_distr_r. f_equal. f_equal. apply sumn_ext. intros m Hm. rewrite GT by lia. f_equal.
    rewrite Rsum_sumn. apply sumn_ext. intros l Hl. rewrite GW by lia. rewrite GP by lia. reflexivity.
Qed.
(** One component: the transform of the training matrix is the filtered training matrix. *)
Theorem C59_one_component (s0 s : pls_st (opls_st (T:=R)) R) (X Y W Xf : mat R) :
  p_preprocessing s0 = PP_NONE -> p_num_components s0 = 1%Z ->
  wf X -> wf Y -> nr X <> 0 -> nc X <> 0 -> nr Y = nr X -> nc Y = 1 -> Rsum (nr X) (fun i => entry Y i 0 * entry Y i 0)%R <> 0%R ->
  initialize ocl s0 (Some X) (Some Y) = (s, Ok None) ->
  op_W (p_own s) = Some W -> Rsum (nc X) (fun j => entry W j 0 * entry W j 0)%R = 1%R -> op_X_osc (p_own s) = Some Xf ->
  transform ocl s X = (s, Ok Xf).
Proof.
  intros Hpp Hnc WX WY Hn Hp RY CY Hy Hi HW Hu HX.
  destruct (C59_correction_partial s0 s X Y 1 (Ok None) Hpp Hnc WX WY Hn Hp RY CY Hy Hi) as (W' & P & Ts & Xf' & E1 & _ & _ & E4 & _ & HXf & _ & H4).
  rewrite HW in E1. injection E1 as <-. rewrite HX in E4. injection E4 as <-.
  destruct (H4 eq_refl) as (S & ES & HS).
  { intros k Hk. assert (k = 0) by lia. subst. exact Hu. }
  rewrite ES. do 2 f_equal. destruct HXf as (WXf & RXf & CXf & _). destruct HS as (WS & RS & CS & HS).
  rewrite (wf_mk S WS), (wf_mk Xf WXf), RS, CS, RXf, CXf. apply mk_ext. intros i j Hi0 Hj. rewrite HS by assumption. cbn. ring.
Qed.
End C59.
(** With two components it is not: an OPLS object over PLS1 (5 samples, 4 variables, binary64) whose
    filtered training matrix and transform of the training matrix differ by more than 1/2. *)
Definition ocl64 := opls p1.
Definition rows64 (l : list (list Z)) : mat f64 := Mat (length l) (length (hd [] l)) (map (map nofZ) l).
Definition o_set (n : Z) := fst (setattr ocl64 (fst (setattr ocl64 (construct ocl64) (ANumComponents n)))
  (AOwn (fst (setattr p1 (construct p1) (ANumComponents 1))))).
Definition OX := rows64 [[1;2;0;1];[3;-1;1;0];[0;4;2;-2];[-2;1;5;3];[1;1;-1;2]]%Z.
Definition OY := rows64 [[1];[3];[2];[-4];[0]]%Z.
Definition o_run (n : Z) := initialize ocl64 (o_set n) (Some OX) (Some OY).
Theorem C59_refuted : exists Xf S, snd (o_run 2) = Ok None /\ op_X_osc (p_own (fst (o_run 2))) = Some Xf /\
  snd (transform ocl64 (fst (o_run 2)) OX) = Ok S /\ nltb (lit 5 1) (nsub (entry Xf 2 1) (entry S 2 1)) = true.
Proof.
  eexists. eexists. split; [vm_compute; reflexivity|]. split; [vm_compute; reflexivity|]. split; [vm_compute; reflexivity|]. vm_compute. reflexivity.
Qed.
(** The hypotheses of the other two are met, e.g. by this run (one component, weights of unit length up to rounding). *)
Example C59_ex : snd (o_run 1) = Ok None /\
  match op_W (p_own (fst (o_run 1))) with Some W => nltb (nabs (nsub (norm2_squared W) (nofZ 1))) (lit 1 15) | None => false end = true.
Proof. split; vm_compute; reflexivity. Qed.
Print Assumptions C59_refuted.
Print Assumptions C59_correction_partial.
Print Assumptions C59_one_component.
