(** What the training loop of DIPLS computes (for P_DIPLS.v). *)
From Coq Require Import List ZArith Lia Bool Arith Reals Lra FunctionalExtensionality.
From Verif Require Import Base Num Mat M_Matrix M_Factory M_Helper M_Loop M_Utils M_Linalg M_Transform M_PLSBase M_PLS M_PLS2
  S_Matrix L_Base L_Mat L_Matrix L_MatR L_Linalg L_Alg L_Transform L_Deflate P_Matrix P_Linalg P_Helper P_PLSPrep P_PLS1 L_Krylov L_Public P_CCAFilter P_NIPALS2 P_KernelPLS P_VCPLS.
Import ListNotations.
Local Open Scope R_scope.

(** * What is left of a matrix and of a response after k components *)
Definition left (X S P : nat -> nat -> R) (k i j : nat) : R := X i j - Rsum k (fun l => S i l * P j l).
Definition lefty (y : nat -> R) (S : nat -> nat -> R) (c : nat -> R) (k i : nat) : R := y i - Rsum k (fun l => S i l * c l).
(** Sum of the products of two columns *)
Definition gram (n : nat) (X : nat -> nat -> R) (i j : nat) : R := Rsum n (fun k => X k i * X k j).
(** The columns a training collects: c, T, Ts, Tt, P, Ps, Pt, W *)
Record cols : Type := Cols { kc : nat -> R; kT : nat -> nat -> R; kTs : nat -> nat -> R; kTt : nat -> nat -> R;
  kP : nat -> nat -> R; kPs : nat -> nat -> R; kPt : nat -> nat -> R; kW : nat -> nat -> R }.

Section Step.
Variables (lstsq : mat R -> mat R -> res (mat R)) (n ns nt p : nat) (zs zt : Z) (lambda : R).
Variables (X0 Xs0 Xt0 : nat -> nat -> R) (y0 : nat -> R).
Hypothesis Hp : p <> 0%nat.

Lemma inv1 x : x <> 0 -> minverse lstsq (mk 1 1 (fun _ _ => x)) = Ok (mk 1 1 (fun _ _ => / x)).
Proof.
  intros Hx. unfold minverse. destruct (C61_inverse lstsq (mk 1 1 (fun _ _ => x)) (mk_wf _ _ _) eq_refl) as [_ HI].
  change (nr (mk 1 1 (fun _ _ : nat => x))) with 1%nat in HI. change (nc (mk 1 1 (fun _ _ : nat => x))) with 1%nat in HI.
  destruct HI as (v & E & W & V1 & V2 & Hv).
  - intros (v & (k & Hk & Hv) & Hz). specialize (Hz 0%nat ltac:(cbn; lia)). rewrite Rsum_sumn in Hz. change (nc (mk 1 1 (fun _ _ : nat => x))) with 1%nat in Hz, Hk. rewrite sum1, entry_mk in Hz by lia.
    replace k with 0%nat in Hv by lia. apply Rmult_integral in Hz. tauto.
  - rewrite E. f_equal. rewrite (wf_mk v W), V1, V2. apply mk_ext. intros i j Hi Hj. replace i with 0%nat by lia. replace j with 0%nat by lia.
    destruct (Hv 0%nat 0%nat ltac:(lia) ltac:(lia)) as (Q & _). rewrite Rsum_sumn, sum1, entry_mk in Q by lia. cbn [Nat.eqb] in Q. apply (Rmult_eq_reg_l x); [|exact Hx]. rewrite Q. now field.
Qed.
Lemma inv1_zero : minverse lstsq (mk 1 1 (fun _ _ => 0)) = Err LinAlgError.
Proof.
  unfold minverse. destruct (C61_inverse lstsq (mk 1 1 (fun _ _ => 0)) (mk_wf _ _ _) eq_refl) as [HI _]. apply HI.
  exists (fun _ => 1). split; [exists 0%nat; split; [cbn; lia|lra]|]. intros i Hi. rewrite Rsum_sumn. change (nc (mk 1 1 (fun _ _ : nat => 0))) with 1%nat. change (nr (mk 1 1 (fun _ _ : nat => 0))) with 1%nat in Hi. rewrite sum1, entry_mk by lia. ring.
Qed.
Lemma minverse_cases (D : nat -> nat -> R) :
  minverse lstsq (mk p p D) = Err LinAlgError \/
  exists V, minverse lstsq (mk p p D) = Ok (mk p p V) /\ inverse_pair p D V.
Proof.
  unfold minverse. destruct (C61_inverse lstsq (mk p p D) (mk_wf _ _ _) eq_refl) as [H1 H2].
  destruct (Kernel_trivial_dec (mk p p D) eq_refl) as [K|K].
  - right. destruct H2 as (x & E & W & V1 & V2 & Hv). { intros Hs. apply singular_kernel in Hs; [|reflexivity]. contradiction. }
    exists (entry x). split; [rewrite E; f_equal; rewrite (wf_mk x W) at 1; rewrite V1, V2; reflexivity|].
    change (nr (mk p p D)) with p in Hv. intros k l Hk Hl. destruct (Hv k l Hk Hl) as (Q1 & Q2). unfold delta. split.
    + rewrite <- Q1. apply Rsum_ext. intros m Hm. now rewrite entry_mk.
    + rewrite <- Q2. apply Rsum_ext. intros m Hm. now rewrite entry_mk.
  - left. apply H1. now apply singular_kernel.
Qed.
Lemma score_run m (t : nat -> R) (X : nat -> nat -> R) : sumn m (fun i => t i * t i) <> 0 ->
  dipls_score lstsq (mk m 1 (fun i _ => t i)) (mk m p X) =
  Ok (mk 1 1 (fun _ _ => / sumn m (fun i => t i * t i)), mk 1 p (fun _ j => sumn m (fun i => X i j * t i) / sumn m (fun i => t i * t i))).
Proof.
  intros Ht. unfold dipls_score. rewrite transpose_mk, mul_mk, bind_Ok. rewrite inv1 by exact Ht. rewrite bind_Ok, mul_mk, bind_Ok, mul_mk, bind_Ok.
  f_equal. f_equal. apply mk_ext. intros i j Hi Hj. unfold Rdiv. rewrite <- sumR_scal_r. apply sumn_ext. intros k Hk. rewrite sum1. cbn [nmul NumR]. ring.
Qed.
Lemma score_fail m (t : nat -> R) (X : nat -> nat -> R) : sumn m (fun i => t i * t i) = 0 ->
  dipls_score lstsq (mk m 1 (fun i _ => t i)) (mk m p X) = Err LinAlgError.
Proof.
  intros Ht. unfold dipls_score. rewrite transpose_mk, mul_mk, bind_Ok. cbn [nmul NumR]. rewrite Ht. now rewrite inv1_zero.
Qed.

(** the columns collected so far *)
Definition tab (r k : nat) (f : nat -> nat -> R) : option (mat R) := match k with O => None | S _ => Some (mk r k f) end.
Definition snoc (f : nat -> nat -> R) (k : nat) (v : nat -> R) (i l : nat) : R := if (l <? k)%nat then f i l else v i.
Lemma tab_concat r k f v : r <> 0%nat -> dipls_concat (tab r k f) (mk r 1 (fun i _ => v i)) = Ok (tab r (S k) (snoc f k v)).
Proof.
  intros Hr. destruct k as [|k]; cbn [tab dipls_concat].
  - do 2 f_equal. 
  - destruct (concat_columns_ok (mk r (S k) f) (mk r 1 (fun i _ => v i)) (mk_wf _ _ _) (mk_wf _ _ _) eq_refl) as (m & E & W & M1 & M2 & Hm).
    rewrite E, bind_Ok. do 2 f_equal. rewrite (wf_mk m W), M1, M2. change (nr (mk r (S k) f)) with r. change (nc (mk r (S k) f)) with (S k). change (nc (mk r 1 (fun i _ => v i))) with 1%nat.
    replace (S k + 1)%nat with (S (S k)) by lia. apply mk_ext. intros i j Hi Hj. rewrite Hm by (cbn; lia). change (nc (mk r (S k) f)) with (S k). unfold snoc. destruct (Nat.ltb_spec j (S k)); rewrite entry_mk by lia; reflexivity.
Qed.
Definition state (k : nat) (C : cols) : dipls_state (T:=R) :=
  ((mk n p (left X0 (kT C) (kP C) k), mk ns p (left Xs0 (kTs C) (kPs C) k), mk nt p (left Xt0 (kTt C) (kPt C) k), mk n 1 (fun i _ => lefty y0 (kT C) (kc C) k i)),
   [tab 1 k (fun _ => kc C); tab n k (kT C); tab ns k (kTs C); tab nt k (kTt C); tab p k (kP C); tab p k (kPs C); tab p k (kPt C); tab p k (kW C)]).
Definition extend (k : nat) (C : cols) (w : nat -> R) : cols :=
  let X := left X0 (kT C) (kP C) k in let Xs := left Xs0 (kTs C) (kPs C) k in let Xt := left Xt0 (kTt C) (kPt C) k in
  let y := lefty y0 (kT C) (kc C) k in
  let t := scores_of p X w in let ts := scores_of p Xs w in let tt := scores_of p Xt w in
  Cols (fun l => if (l <? k)%nat then kc C l else Rsum n (fun i => y i * t i) / Rsum n (fun i => t i * t i))
    (snoc (kT C) k t) (snoc (kTs C) k ts) (snoc (kTt C) k tt)
    (snoc (kP C) k (loadings_of n X t)) (snoc (kPs C) k (loadings_of ns Xs ts)) (snoc (kPt C) k (loadings_of nt Xt tt)) (snoc (kW C) k w).
(** the matrix that is inverted *)
Definition shrink (y : nat -> R) (Xs Xt : nat -> nat -> R) (i j : nat) : R :=
  delta i j + lambda / (2 * Rsum n (fun k => y k * y k)) * (gram ns Xs i j / (IZR zs - 1) - gram nt Xt i j / (IZR zt - 1)).
Definition shrink_at (C : cols) (k : nat) : nat -> nat -> R :=
  shrink (lefty y0 (kT C) (kc C) k) (left Xs0 (kTs C) (kPs C) k) (left Xt0 (kTt C) (kPt C) k).
Definition unit (v : nat -> R) (j : nat) : R := v j / sqrt (Rsum p (fun l => v l * v l)).
Definition weight (C : cols) (k : nat) (V : nat -> nat -> R) : nat -> R :=
  let y := lefty y0 (kT C) (kc C) k in
  unit (fun j => Rsum p (fun l => cov n (left X0 (kT C) (kP C) k) y l / Rsum n (fun i => y i * y i) * V l j)).

Lemma snoc_sum (f g : nat -> nat -> R) k v u i j : Rsum (S k) (fun l => snoc f k v i l * snoc g k u j l) = Rsum k (fun l => f i l * g j l) + v i * u j.
Proof.
  rewrite !Rsum_sumn, sumR_S. unfold snoc at 3 4. rewrite Nat.ltb_irrefl. f_equal. apply sumn_ext. intros l Hl. unfold snoc. now rewrite (proj2 (Nat.ltb_lt l k) Hl).
Qed.
Lemma left_snoc X f g k v u i j : left X (snoc f k v) (snoc g k u) (S k) i j = left X f g k i j - v i * u j.
Proof. unfold left. rewrite snoc_sum. ring. Qed.

Hypotheses (Hn : n <> 0%nat) (Hns : ns <> 0%nat) (Hnt : nt <> 0%nat).
Notation Id := (mk p p dlt).
Notation step := (dipls_step lstsq Id zs zt lambda).
Lemma shrink_run k C : forall b, step (state k C) b =
    do rhs <- minverse lstsq (mk p p (shrink_at C k));
    do w0 <- mul (mk 1 p (fun _ l => cov n (left X0 (kT C) (kP C) k) (lefty y0 (kT C) (kc C) k) l / Rsum n (fun i => lefty y0 (kT C) (kc C) k i * lefty y0 (kT C) (kc C) k i))) rhs;
    do w <- normalized (transpose w0) 0;
    do t <- mul (mk n p (left X0 (kT C) (kP C) k)) w;
    do t_s <- mul (mk ns p (left Xs0 (kTs C) (kPs C) k)) w;
    do t_t <- mul (mk nt p (left Xt0 (kTt C) (kPt C) k)) w;
    do pp <- dipls_score lstsq t (mk n p (left X0 (kT C) (kP C) k));
    do p_s <- dipls_score lstsq t_s (mk ns p (left Xs0 (kTs C) (kPs C) k));
    do p_t <- dipls_score lstsq t_t (mk nt p (left Xt0 (kTt C) (kPt C) k));
    do iy <- mul (fst pp) (mk 1 n (fun _ i => lefty y0 (kT C) (kc C) k i));
    do ca <- mul iy t;
    do d <- mul t (snd pp); do X <- sub (mk n p (left X0 (kT C) (kP C) k)) d;
    do d <- mul t_s (snd p_s); do X_s <- sub (mk ns p (left Xs0 (kTs C) (kPs C) k)) d;
    do d <- mul t_t (snd p_t); do X_t <- sub (mk nt p (left Xt0 (kTt C) (kPt C) k)) d;
    do d <- mul t ca; do y <- sub (mk n 1 (fun i _ => lefty y0 (kT C) (kc C) k i)) d;
    do ms <- mapM (fun Aa => dipls_concat (fst Aa) (snd Aa))
               (combine (snd (state k C)) [ca; t; t_s; t_t; transpose (snd pp); transpose (snd p_s); transpose (snd p_t); w]);
    Ok ((X, X_s, X_t, y), ms).
Proof.
  intros b. set (r := snd (state k C)). unfold state, dipls_step. fold (state k C).
  rewrite norm2_squared_col, transpose_mk, mul_mk, bind_Ok, div_scalar_mk, transpose_mk, mul_mk, bind_Ok, mul_scalar_mk, transpose_mk, mul_mk, bind_Ok, mul_scalar_mk, sub_mk, bind_Ok, mul_scalar_mk, add_mk, bind_Ok.
  match goal with |- bind (minverse _ ?M) _ = bind (minverse _ ?N) _ => replace M with N end.
  2:{ apply mk_ext. intros i j Hi Hj. unfold shrink_at, shrink, gram. rewrite !Rsum_sumn. cbn [nadd nsub nmul ndiv nofZ n1 NumR]. unfold delta, dlt. unfold Rdiv. ring. }
  match goal with |- context [mul (mk 1 p ?f) _] => match goal with |- _ = bind _ (fun rhs => bind (mul ?N rhs) _) => replace (mk 1 p f) with N end end.
  2:{ apply mk_ext. intros i j Hi Hj. unfold cov. rewrite !Rsum_sumn. cbn [nadd nsub nmul ndiv nofZ NumR]. f_equal. apply sumn_ext. intros; ring. }
  reflexivity.
Qed.
Definition taus_at (C : cols) (k : nat) (w : nat -> R) : Prop :=
  Rsum n (fun i => scores_of p (left X0 (kT C) (kP C) k) w i * scores_of p (left X0 (kT C) (kP C) k) w i) <> 0 /\
  Rsum ns (fun i => scores_of p (left Xs0 (kTs C) (kPs C) k) w i * scores_of p (left Xs0 (kTs C) (kPs C) k) w i) <> 0 /\
  Rsum nt (fun i => scores_of p (left Xt0 (kTt C) (kPt C) k) w i * scores_of p (left Xt0 (kTt C) (kPt C) k) w i) <> 0.
Lemma step_run k C b V : minverse lstsq (mk p p (shrink_at C k)) = Ok (mk p p V) -> taus_at C k (weight C k V) ->
  step (state k C) b = Ok (state (S k) (extend k C (weight C k V))).
Proof.
  intros EV (H1 & H2 & H3). rewrite shrink_run, EV, bind_Ok, mul_mk, bind_Ok, transpose_mk, normalized0_mk, bind_Ok.
  match goal with |- context [mul _ (mk p 1 ?f)] => replace (mk p 1 f) with (mk p 1 (fun j _ => weight C k V j)) end.
  2:{ apply mk_ext. intros i j Hi Hj. unfold weight, unit. rewrite (Rsum_ext p (fun l => Rsum p _ * Rsum p _) (fun l => sumn p (fun l0 => cov n (left X0 (kT C) (kP C) k) (lefty y0 (kT C) (kc C) k) l0 / Rsum n (fun i0 => lefty y0 (kT C) (kc C) k i0 * lefty y0 (kT C) (kc C) k i0) * V l0 l) * sumn p (fun l0 => cov n (left X0 (kT C) (kP C) k) (lefty y0 (kT C) (kc C) k) l0 / Rsum n (fun i0 => lefty y0 (kT C) (kc C) k i0 * lefty y0 (kT C) (kc C) k i0) * V l0 l))) by (intros; now rewrite Rsum_sumn).
      rewrite !Rsum_sumn. reflexivity. }
  set (w := weight C k V) in *. rewrite mul_mk, bind_Ok, mul_mk, bind_Ok, mul_mk, bind_Ok.
  assert (Q : forall m (X : nat -> nat -> R), mk m 1 (fun i _ : nat => sumn p (fun k0 => nmul (X i k0) (w k0))) = mk m 1 (fun i _ => scores_of p X w i)) by (intros; apply mk_ext; intros; unfold scores_of; now rewrite Rsum_sumn).
  rewrite !Q. rewrite Rsum_sumn in H1, H2, H3. rewrite !score_run, !bind_Ok by assumption. cbn [fst snd].
  rewrite mul_mk, bind_Ok, mul_mk, bind_Ok, mul_mk, bind_Ok, sub_mk, bind_Ok, mul_mk, bind_Ok, sub_mk, bind_Ok, mul_mk, bind_Ok, sub_mk, bind_Ok, mul_mk, bind_Ok, sub_mk, bind_Ok.
  unfold state at 1. cbn [snd combine mapM fst]. rewrite !transpose_mk.
  rewrite (tab_concat 1 k (fun _ => kc C) (fun _ => sumn n (fun k1 => nmul (sumn 1 (fun _ => nmul (/ sumn n (fun i0 => scores_of p (left X0 (kT C) (kP C) k) w i0 * scores_of p (left X0 (kT C) (kP C) k) w i0)) (lefty y0 (kT C) (kc C) k k1))) (scores_of p (left X0 (kT C) (kP C) k) w k1)))) by lia.
  rewrite (tab_concat n k (kT C) (scores_of p (left X0 (kT C) (kP C) k) w)) by assumption.
  rewrite (tab_concat ns k (kTs C) (scores_of p (left Xs0 (kTs C) (kPs C) k) w)) by assumption.
  rewrite (tab_concat nt k (kTt C) (scores_of p (left Xt0 (kTt C) (kPt C) k) w)) by assumption.
  assert (QL : forall m (X : nat -> nat -> R) (t : nat -> R) j, sumn m (fun i => X i j * t i) / sumn m (fun i => t i * t i) = loadings_of m X t j) by (intros; unfold loadings_of; now rewrite !Rsum_sumn).
  rewrite (tab_concat p k (kP C) (fun j => sumn n (fun i => left X0 (kT C) (kP C) k i j * scores_of p (left X0 (kT C) (kP C) k) w i) / sumn n (fun i => scores_of p (left X0 (kT C) (kP C) k) w i * scores_of p (left X0 (kT C) (kP C) k) w i))) by assumption.
  rewrite (tab_concat p k (kPs C) (fun j => sumn ns (fun i => left Xs0 (kTs C) (kPs C) k i j * scores_of p (left Xs0 (kTs C) (kPs C) k) w i) / sumn ns (fun i => scores_of p (left Xs0 (kTs C) (kPs C) k) w i * scores_of p (left Xs0 (kTs C) (kPs C) k) w i))) by assumption.
  rewrite (tab_concat p k (kPt C) (fun j => sumn nt (fun i => left Xt0 (kTt C) (kPt C) k i j * scores_of p (left Xt0 (kTt C) (kPt C) k) w i) / sumn nt (fun i => scores_of p (left Xt0 (kTt C) (kPt C) k) w i * scores_of p (left Xt0 (kTt C) (kPt C) k) w i))) by assumption.
  rewrite (tab_concat p k (kW C) w) by assumption. rewrite !bind_Ok. unfold state, extend.
  cbn [kc kT kTs kTt kP kPs kPt kW].
  assert (QC : sumn n (fun k1 => nmul (sumn 1 (fun _ => nmul (/ sumn n (fun i0 => scores_of p (left X0 (kT C) (kP C) k) w i0 * scores_of p (left X0 (kT C) (kP C) k) w i0)) (lefty y0 (kT C) (kc C) k k1))) (scores_of p (left X0 (kT C) (kP C) k) w k1)) =
    Rsum n (fun i => lefty y0 (kT C) (kc C) k i * scores_of p (left X0 (kT C) (kP C) k) w i) / Rsum n (fun i => scores_of p (left X0 (kT C) (kP C) k) w i * scores_of p (left X0 (kT C) (kP C) k) w i)).
  { rewrite !Rsum_sumn. unfold Rdiv. rewrite <- sumR_scal_r. apply sumn_ext. intros i Hi. rewrite sum1. cbn [nmul NumR]. ring. }
  rewrite QC. apply f_equal. apply f_equal2; [apply f_equal2; [apply f_equal2; [apply f_equal2|]|]|].
  - apply mk_ext. intros i j Hi Hj. rewrite left_snoc, sum1. cbn [nsub nmul NumR]. now rewrite QL.
  - apply mk_ext. intros i j Hi Hj. rewrite left_snoc, sum1. cbn [nsub nmul NumR]. now rewrite QL.
  - apply mk_ext. intros i j Hi Hj. rewrite left_snoc, sum1. cbn [nsub nmul NumR]. now rewrite QL.
  - apply mk_ext. intros i j Hi Hj. rewrite sum1. cbn [nsub nmul NumR]. unfold lefty at 3. rewrite !Rsum_sumn, sumR_S. unfold snoc at 2. rewrite Nat.ltb_irrefl. rewrite <- !Rsum_sumn.
    unfold lefty at 1. rewrite (Rsum_ext k (fun l => snoc (kT C) k _ i l * _) (fun l => kT C i l * kc C l)); [rewrite !Rsum_sumn; ring|].
    intros l Hl. unfold snoc. now rewrite (proj2 (Nat.ltb_lt l k) Hl).
  - repeat (apply f_equal2; [cbn [tab]; apply f_equal; apply mk_ext; intros i j Hi Hj; unfold snoc; destruct (Nat.ltb j k); first [reflexivity | apply QL]|]). reflexivity.
Qed.
Lemma step_conv k C b st : step (state k C) b = Ok st ->
  exists V, minverse lstsq (mk p p (shrink_at C k)) = Ok (mk p p V) /\ inverse_pair p (shrink_at C k) V /\ taus_at C k (weight C k V).
Proof.
  intros E. destruct (minverse_cases (shrink_at C k)) as [Em|(V & Em & HV)].
  - rewrite shrink_run, Em in E. discriminate.
  - exists V. split; [exact Em|]. split; [exact HV|]. rewrite shrink_run, Em, bind_Ok, mul_mk, bind_Ok, transpose_mk, normalized0_mk, bind_Ok in E.
    match type of E with context [mul _ (mk p 1 ?f)] => replace (mk p 1 f) with (mk p 1 (fun j _ => weight C k V j)) in E end.
    2:{ apply mk_ext. intros i j Hi Hj. unfold weight, unit. rewrite (Rsum_ext p (fun l => Rsum p _ * Rsum p _) (fun l => sumn p (fun l0 => cov n (left X0 (kT C) (kP C) k) (lefty y0 (kT C) (kc C) k) l0 / Rsum n (fun i0 => lefty y0 (kT C) (kc C) k i0 * lefty y0 (kT C) (kc C) k i0) * V l0 l) * sumn p (fun l0 => cov n (left X0 (kT C) (kP C) k) (lefty y0 (kT C) (kc C) k) l0 / Rsum n (fun i0 => lefty y0 (kT C) (kc C) k i0 * lefty y0 (kT C) (kc C) k i0) * V l0 l))) by (intros; now rewrite Rsum_sumn).
      rewrite !Rsum_sumn. reflexivity. }
    set (w := weight C k V) in *. rewrite mul_mk, bind_Ok, mul_mk, bind_Ok, mul_mk, bind_Ok in E.
    assert (Q : forall m (X : nat -> nat -> R), mk m 1 (fun i _ : nat => sumn p (fun k0 => nmul (X i k0) (w k0))) = mk m 1 (fun i _ => scores_of p X w i)) by (intros; apply mk_ext; intros; unfold scores_of; now rewrite Rsum_sumn).
    rewrite !Q in E. unfold taus_at. rewrite !Rsum_sumn.
    destruct (Req_dec (sumn n (fun i => scores_of p (left X0 (kT C) (kP C) k) w i * scores_of p (left X0 (kT C) (kP C) k) w i)) 0) as [Z1|Z1]; [rewrite score_fail in E by exact Z1; discriminate|].
    destruct (Req_dec (sumn ns (fun i => scores_of p (left Xs0 (kTs C) (kPs C) k) w i * scores_of p (left Xs0 (kTs C) (kPs C) k) w i)) 0) as [Z2|Z2].
    { rewrite score_run, bind_Ok in E by exact Z1. rewrite score_fail in E by exact Z2. discriminate. }
    destruct (Req_dec (sumn nt (fun i => scores_of p (left Xt0 (kTt C) (kPt C) k) w i * scores_of p (left Xt0 (kTt C) (kPt C) k) w i)) 0) as [Z3|Z3].
    { rewrite score_run, bind_Ok in E by exact Z1. rewrite score_run, bind_Ok in E by exact Z2. rewrite score_fail in E by exact Z3. discriminate. }
    auto.
Qed.

(** * All components *)
(** Component l of C is what one pass computes from the earlier components *)
Definition component (C : cols) (l : nat) : Prop :=
  let X := left X0 (kT C) (kP C) l in let Xs := left Xs0 (kTs C) (kPs C) l in let Xt := left Xt0 (kTt C) (kPt C) l in
  (exists V, inverse_pair p (shrink_at C l) V /\ forall j, kW C j l = weight C l V j) /\
  (forall i, kT C i l = scores_of p X (fun j => kW C j l) i) /\ (forall i, kTs C i l = scores_of p Xs (fun j => kW C j l) i) /\ (forall i, kTt C i l = scores_of p Xt (fun j => kW C j l) i) /\
  (forall j, kP C j l = loadings_of n X (fun i => kT C i l) j) /\ (forall j, kPs C j l = loadings_of ns Xs (fun i => kTs C i l) j) /\ (forall j, kPt C j l = loadings_of nt Xt (fun i => kTt C i l) j) /\
  kc C l = Rsum n (fun i => lefty y0 (kT C) (kc C) l i * kT C i l) / Rsum n (fun i => kT C i l * kT C i l) /\
  Rsum n (fun i => kT C i l * kT C i l) <> 0 /\ Rsum ns (fun i => kTs C i l * kTs C i l) <> 0 /\ Rsum nt (fun i => kTt C i l * kTt C i l) <> 0.
Definition agree (k : nat) (C D : cols) : Prop := forall l, (l < k)%nat ->
  kc C l = kc D l /\ forall i, kT C i l = kT D i l /\ kTs C i l = kTs D i l /\ kTt C i l = kTt D i l /\ kP C i l = kP D i l /\ kPs C i l = kPs D i l /\ kPt C i l = kPt D i l /\ kW C i l = kW D i l.
Lemma left_agree X f g f' g' l : (forall i m, (m < l)%nat -> f i m = f' i m) -> (forall i m, (m < l)%nat -> g i m = g' i m) -> left X f g l = left X f' g' l.
Proof. intros Hf Hg. extensionality i. extensionality j. unfold left. f_equal. apply Rsum_ext. intros m Hm. now rewrite Hf, Hg. Qed.
Lemma lefty_agree y f g f' g' l : (forall i m, (m < l)%nat -> f i m = f' i m) -> (forall m, (m < l)%nat -> g m = g' m) -> lefty y f g l = lefty y f' g' l.
Proof. intros Hf Hg. extensionality i. unfold lefty. f_equal. apply Rsum_ext. intros m Hm. now rewrite Hf, Hg. Qed.
Lemma agree_left k C D l : agree k C D -> (l <= k)%nat ->
  left X0 (kT C) (kP C) l = left X0 (kT D) (kP D) l /\ left Xs0 (kTs C) (kPs C) l = left Xs0 (kTs D) (kPs D) l /\ left Xt0 (kTt C) (kPt C) l = left Xt0 (kTt D) (kPt D) l /\
  lefty y0 (kT C) (kc C) l = lefty y0 (kT D) (kc D) l /\ shrink_at C l = shrink_at D l /\ forall V, weight C l V = weight D l V.
Proof.
  intros H Hl.
  assert (E1 : left X0 (kT C) (kP C) l = left X0 (kT D) (kP D) l) by (apply left_agree; intros i m Hm; apply (H m); lia).
  assert (E2 : left Xs0 (kTs C) (kPs C) l = left Xs0 (kTs D) (kPs D) l) by (apply left_agree; intros i m Hm; apply (H m); lia).
  assert (E3 : left Xt0 (kTt C) (kPt C) l = left Xt0 (kTt D) (kPt D) l) by (apply left_agree; intros i m Hm; apply (H m); lia).
  assert (E4 : lefty y0 (kT C) (kc C) l = lefty y0 (kT D) (kc D) l) by (apply lefty_agree; intros; apply (H m); lia).
  unfold shrink_at, weight. rewrite E1, E2, E3, E4. repeat split.
Qed.
Lemma agree_component k C D l : agree k C D -> (l < k)%nat -> component C l -> component D l.
Proof.
  intros H Hl (HV & H1 & H2 & H3 & H4 & H5 & H6 & H7 & H8 & H9 & H10).
  destruct (agree_left k C D l H ltac:(lia)) as (E1 & E2 & E3 & E4 & E5 & E6).
  destruct (H l Hl) as (Ec & Ei).
  assert (ET : (fun i => kT D i l) = (fun i => kT C i l)) by (extensionality i; symmetry; apply Ei).
  assert (ETs : (fun i => kTs D i l) = (fun i => kTs C i l)) by (extensionality i; symmetry; apply Ei).
  assert (ETt : (fun i => kTt D i l) = (fun i => kTt C i l)) by (extensionality i; symmetry; apply Ei).
  assert (EW : (fun i => kW D i l) = (fun i => kW C i l)) by (extensionality i; symmetry; apply Ei).
  unfold component. rewrite <- E1, <- E2, <- E3, <- E4, <- E5, ET, ETs, ETt, EW.
  assert (Q : forall m (f g : nat -> R), (forall i, f i = g i) -> Rsum m (fun i => f i * f i) = Rsum m (fun i => g i * g i)) by (intros; apply Rsum_ext; intros; congruence).
  rewrite (Q n (fun i => kT D i l) (fun i => kT C i l)) by (intros; symmetry; apply Ei). rewrite (Q ns (fun i => kTs D i l) (fun i => kTs C i l)) by (intros; symmetry; apply Ei). rewrite (Q nt (fun i => kTt D i l) (fun i => kTt C i l)) by (intros; symmetry; apply Ei).
  repeat split; try assumption.
  - destruct HV as (V & HV & Hw). exists V. split; [exact HV|]. intros j. destruct (Ei j) as (_ & _ & _ & _ & _ & _ & Ej). rewrite <- Ej, Hw. now rewrite E6.
  - intros i. rewrite <- (proj1 (Ei i)). apply H1.
  - intros i. rewrite <- (proj1 (proj2 (Ei i))). apply H2.
  - intros i. rewrite <- (proj1 (proj2 (proj2 (Ei i)))). apply H3.
  - intros i. rewrite <- (proj1 (proj2 (proj2 (proj2 (Ei i))))). apply H4.
  - intros i. rewrite <- (proj1 (proj2 (proj2 (proj2 (proj2 (Ei i)))))). apply H5.
  - intros i. rewrite <- (proj1 (proj2 (proj2 (proj2 (proj2 (proj2 (Ei i))))))). apply H6.
  - rewrite <- Ec, H7. f_equal. apply Rsum_ext. intros i Hi. now rewrite <- (proj1 (Ei i)).
Qed.
Lemma extend_agree k C w : agree k C (extend k C w).
Proof. intros l Hl. unfold extend, snoc. cbn [kc kT kTs kTt kP kPs kPt kW]. rewrite (proj2 (Nat.ltb_lt l k) Hl). repeat split; reflexivity. Qed.
Lemma extend_component k C V : inverse_pair p (shrink_at C k) V -> taus_at C k (weight C k V) -> component (extend k C (weight C k V)) k.
Proof.
  intros HV (T1 & T2 & T3). destruct (agree_left k C (extend k C (weight C k V)) k (extend_agree k C _) (le_n k)) as (E1 & E2 & E3 & E4 & E5 & E6).
  unfold component. rewrite <- E1, <- E2, <- E3, <- E4, <- E5. unfold extend, snoc. cbn [kc kT kTs kTt kP kPs kPt kW]. rewrite Nat.ltb_irrefl.
  repeat split; try assumption; try reflexivity.
  exists V. split; [exact HV|]. intros j. now rewrite <- E6.
Qed.
Lemma state_agree k C D : agree k C D -> state k C = state k D.
Proof.
  intros H. destruct (agree_left k C D k H (le_n k)) as (E1 & E2 & E3 & E4 & _). unfold state. rewrite E1, E2, E3, E4. f_equal.
  assert (Q : forall r f g, (forall i l, (l < k)%nat -> f i l = g i l) -> tab r k f = tab r k g).
  { intros r f g Hfg. destruct k as [|k]; [reflexivity|]. cbn [tab]. f_equal. apply mk_ext. intros. now apply Hfg. }
  repeat (apply f_equal2; [apply Q; intros i l Hl; apply (H l Hl)|]). reflexivity.
Qed.
Lemma for_range_S {A} a (body : A -> nat -> res A) x : for_range (S a) body x = do y <- for_range a body x; body y a.
Proof. unfold for_range. rewrite seq_S, for_each_app. destruct (for_each (seq 0 a) body x) as [y|e]; [|reflexivity]. cbn [bind for_each Nat.add]. destruct (body y a); reflexivity. Qed.
Lemma loop_conv C0 a st : for_range a step (state 0 C0) = Ok st -> exists C, st = state a C /\ forall l, (l < a)%nat -> component C l.
Proof.
  revert st. induction a as [|a IH]; intros st E.
  - injection E as <-. exists C0. split; [reflexivity|lia].
  - rewrite for_range_S in E. destruct (for_range a step (state 0 C0)) as [st'|e]; [|discriminate]. destruct (IH st' eq_refl) as (C & -> & HC). cbn [bind] in E.
    destruct (step_conv a C a st E) as (V & EV & HV & HT). rewrite (step_run a C a V EV HT) in E. injection E as <-. eexists. split; [reflexivity|].
    intros l Hl. destruct (Nat.eq_dec l a) as [->|Hne]; [now apply extend_component|]. apply (agree_component a C); [apply extend_agree|lia|apply HC; lia].
Qed.
Lemma inverse_unique D V V' : inverse_pair p D V -> inverse_pair p D V' -> forall i j, (i < p)%nat -> (j < p)%nat -> V i j = V' i j.
Proof.
  intros H H' i j Hi Hj.
  assert (E1 : sumn p (fun k => V i k * sumn p (fun m => D k m * V' m j)) = V i j).
  { rewrite (sumR_single p j); [|exact Hj|].
    - rewrite <- Rsum_sumn. rewrite (proj1 (H' j j Hj Hj)). unfold delta. rewrite Nat.eqb_refl. ring.
    - intros k Hk Hne. rewrite <- Rsum_sumn, (proj1 (H' k j Hk Hj)). unfold delta. rewrite (proj2 (Nat.eqb_neq k j) Hne). ring. }
  assert (E2 : sumn p (fun m => sumn p (fun k => V i k * D k m) * V' m j) = V' i j).
  { rewrite (sumR_single p i); [|exact Hi|].
    - rewrite <- Rsum_sumn. rewrite (proj2 (H i i Hi Hi)). unfold delta. rewrite Nat.eqb_refl. ring.
    - intros k Hk Hne. rewrite <- Rsum_sumn, (proj2 (H i k Hi Hk)). unfold delta. rewrite (proj2 (Nat.eqb_neq i k)) by congruence. ring. }
  rewrite <- E1, <- E2. rewrite (sumn_ext p _ (fun k => sumn p (fun m => V i k * D k m * V' m j))) by (intros; rewrite <- sumR_scal; apply sumn_ext; intros; ring).
  rewrite sumR_swap. apply sumn_ext. intros m Hm. now rewrite sumR_scal_r.
Qed.
Lemma loop_fwd C a : (forall l, (l < a)%nat -> component C l) -> for_range a step (state 0 C) = Ok (state a C).
Proof.
  induction a as [|a IH]; intros HC; [reflexivity|]. rewrite for_range_S, IH by (intros; apply HC; lia). cbn [bind].
  pose proof (HC a ltac:(lia)) as ((V & HV & Hw) & H1 & H2 & H3 & H4 & H5 & H6 & H7 & H8 & H9 & H10).
  destruct (minverse_cases (shrink_at C a)) as [Em|(V' & Em & HV')].
  - exfalso. unfold minverse in Em. destruct (C61_inverse lstsq (mk p p (shrink_at C a)) (mk_wf _ _ _) eq_refl) as [_ HI]. destruct HI as (x & Ex & _); [|congruence].
    intros Hs. apply singular_kernel in Hs; [|reflexivity]. apply Hs. intros v Hv i Hi. change (nc (mk p p (shrink_at C a))) with p in *. change (nr (mk p p (shrink_at C a))) with p in *.
    assert (E : sumn p (fun m => sumn p (fun k => V i k * shrink_at C a k m) * v m) = v i).
    { rewrite (sumR_single p i); [|exact Hi|].
      - rewrite <- Rsum_sumn. rewrite (proj2 (HV i i Hi Hi)). unfold delta. rewrite Nat.eqb_refl. ring.
      - intros k Hk Hne. rewrite <- Rsum_sumn, (proj2 (HV i k Hi Hk)). unfold delta. rewrite (proj2 (Nat.eqb_neq i k)) by congruence. ring. }
    rewrite <- E. rewrite (sumn_ext p _ (fun m => sumn p (fun k => V i k * (shrink_at C a k m * v m)))) by (intros; rewrite <- sumR_scal_r; apply sumn_ext; intros; ring).
    rewrite sumR_swap. apply sumR_zero. intros k Hk. rewrite sumR_scal. specialize (Hv k Hk).
    rewrite (sumn_ext p _ (fun m => entry (mk p p (shrink_at C a)) k m * v m)) by (intros; now rewrite entry_mk). rewrite Hv. ring.
  - assert (EW : forall j, (j < p)%nat -> weight C a V' j = kW C j a).
    { intros j Hj. rewrite Hw. unfold weight, unit. f_equal.
      - apply Rsum_ext. intros l Hl. f_equal. now apply (inverse_unique (shrink_at C a)).
      - f_equal. apply Rsum_ext. intros l Hl. f_equal; apply Rsum_ext; intros m Hm; f_equal; now apply (inverse_unique (shrink_at C a)). }
    assert (ES : forall X, scores_of p X (weight C a V') = scores_of p X (fun j => kW C j a)).
    { intros X. extensionality i. unfold scores_of. apply Rsum_ext. intros j Hj. now rewrite EW. }
    assert (F1 : scores_of p (left X0 (kT C) (kP C) a) (fun j => kW C j a) = fun i => kT C i a) by (extensionality i; symmetry; apply H1).
    assert (F2 : scores_of p (left Xs0 (kTs C) (kPs C) a) (fun j => kW C j a) = fun i => kTs C i a) by (extensionality i; symmetry; apply H2).
    assert (F3 : scores_of p (left Xt0 (kTt C) (kPt C) a) (fun j => kW C j a) = fun i => kTt C i a) by (extensionality i; symmetry; apply H3).
    rewrite (step_run a C a V' Em). 2:{ unfold taus_at. rewrite !ES, F1, F2, F3. auto. }
    f_equal. unfold state. unfold extend. cbn [kc kT kTs kTt kP kPs kPt kW]. rewrite !ES, F1, F2, F3.
    assert (QS : forall (f : nat -> nat -> R) v, (forall i, v i = f i a) -> forall i m, (m < S a)%nat -> snoc f a v i m = f i m).
    { intros f v Hf i m Hm. unfold snoc. destruct (Nat.ltb_spec m a); [reflexivity|]. replace m with a by lia. apply Hf. }
    assert (QL : forall X (f g : nat -> nat -> R) v u, (forall i, v i = f i a) -> (forall i, u i = g i a) -> left X (snoc f a v) (snoc g a u) (S a) = left X f g (S a)).
    { intros X f g v u Hf Hg. apply left_agree; now apply QS. }
    assert (QT : forall r f g, (forall i l, (i < r)%nat -> (l < S a)%nat -> f i l = g i l) -> tab r (S a) f = tab r (S a) g).
    { intros r f g Hfg. cbn [tab]. f_equal. now apply mk_ext. }
    assert (Qc : forall l, (l < S a)%nat -> (if (l <? a)%nat then kc C l else Rsum n (fun i => lefty y0 (kT C) (kc C) a i * kT C i a) / Rsum n (fun i => kT C i a * kT C i a)) = kc C l).
    { intros l Hl. destruct (Nat.ltb_spec l a); [reflexivity|]. replace l with a by lia. now rewrite H7. }
    rewrite !QL by (intros; try reflexivity; symmetry; first [apply H4 | apply H5 | apply H6]).
    rewrite (lefty_agree y0 (snoc (kT C) a (fun i => kT C i a)) _ (kT C) (kc C) (S a) (QS _ _ (fun _ => eq_refl)) Qc).
    f_equal.
    apply f_equal2; [apply QT; intros i l _ Hl; now apply Qc|].
    repeat (apply f_equal2; [apply QT; intros i l Hi Hl; try (apply QS; [intros; first [reflexivity | symmetry; apply H4 | symmetry; apply H5 | symmetry; apply H6]|exact Hl])|]); [|reflexivity].
    unfold snoc. destruct (Nat.ltb_spec l a); [reflexivity|]. replace l with a by lia. now apply EW.
Qed.
End Step.

(** * Deflation of one block *)
Section Block.
Variables (m p a : nat) (X T P W : nat -> nat -> R).
Let E := left X T P.
Hypothesis HT : forall l i, (l < a)%nat -> T i l = scores_of p (E l) (fun j => W j l) i.
Hypothesis HP : forall l j, (l < a)%nat -> P j l = loadings_of m (E l) (fun i => T i l) j.
Hypothesis Htau : forall l, (l < a)%nat -> Rsum m (fun i => T i l * T i l) <> 0.

Let w k j := W j k. Let t k i := T i k. Let q k j := P j k.
Lemma b_t : forall k i, (k < a)%nat -> (i < m)%nat -> t k i = sumn p (fun j => E k i j * w k j).
Proof. intros k i Hk _. unfold t, w. rewrite HT by exact Hk. unfold scores_of. now rewrite Rsum_sumn. Qed.
Lemma b_q : forall k j, (k < a)%nat -> (j < p)%nat -> q k j = sumn m (fun i => E k i j * t k i) / sumn m (fun i => t k i * t k i).
Proof. intros k j Hk _. unfold q, t. rewrite HP by exact Hk. unfold loadings_of. now rewrite !Rsum_sumn. Qed.
Lemma b_E : forall k i j, (k < a)%nat -> (i < m)%nat -> (j < p)%nat -> E (S k) i j = E k i j - t k i * q k j.
Proof. intros k i j _ _ _. unfold E, left, t, q. rewrite !Rsum_sumn, sumR_S. ring. Qed.
Lemma b_tau : forall k, (k < a)%nat -> sumn m (fun i => t k i * t k i) <> 0.
Proof. intros k Hk. unfold t. rewrite <- Rsum_sumn. now apply Htau. Qed.

Lemma block_orthogonal k l : (k < a)%nat -> (l < a)%nat -> k <> l -> Rsum m (fun i => T i k * T i l) = 0.
Proof. intros. rewrite Rsum_sumn. now apply (scores_orthogonal m p a E w t q b_t b_q b_E b_tau). Qed.
Lemma block_perp k l j : (k < l)%nat -> (l <= a)%nat -> (j < p)%nat -> Rsum m (fun i => E l i j * T i k) = 0.
Proof. intros. rewrite Rsum_sumn. now apply (E_perp_t m p a E w t q b_t b_q b_E b_tau). Qed.
Lemma block_one k : (k < a)%nat -> Rsum p (fun j => P j k * W j k) = 1.
Proof. intros. rewrite Rsum_sumn. now apply (q_self m p a E w t q b_t b_q b_tau). Qed.
Lemma block_low k l : (l < k)%nat -> (k < a)%nat -> Rsum p (fun j => P j k * W j l) = 0.
Proof. intros. rewrite Rsum_sumn. now apply (q_w_below m p a E w t q b_t b_q b_E b_tau). Qed.
Lemma block_kill l i : (l < a)%nat -> (i < m)%nat -> Rsum p (fun j => E a i j * W j l) = 0.
Proof. intros. rewrite Rsum_sumn. apply (E_kills_w m p a E w t q b_t b_q b_E b_tau); lia. Qed.
(** the loadings are the regressions of the original columns on the scores *)
Lemma block_loading k j : (k < a)%nat -> (j < p)%nat -> P j k = Rsum m (fun i => T i k * X i j) / Rsum m (fun i => T i k * T i k).
Proof.
  intros Hk Hj. rewrite HP by exact Hk. unfold loadings_of. f_equal. rewrite !Rsum_sumn. unfold E, left.
  rewrite (sumn_ext m _ (fun i => T i k * X i j - sumn k (fun l => T i k * T i l * P j l))).
  2:{ intros i Hi. rewrite Rsum_sumn. rewrite Rmult_minus_distr_r, <- sumR_scal_r. f_equal; [ring|]. apply sumn_ext. intros; ring. }
  rewrite sumR_minus, sumR_swap. rewrite (sumR_zero k); [ring|]. intros l Hl. rewrite sumR_scal_r, <- Rsum_sumn, block_orthogonal by lia. ring.
Qed.
Lemma block_rest k i j : (k <= a)%nat -> (j < p)%nat -> E k i j = rest m X T k i j.
Proof. intros Hk Hj. unfold E, left, rest. f_equal. apply Rsum_ext. intros l Hl. rewrite block_loading by lia. reflexivity. Qed.
(** X W = T (P^T W) *)
Lemma block_scores i l : (l < a)%nat -> (i < m)%nat -> Rsum p (fun j => X i j * W j l) = Rsum a (fun k => T i k * Rsum p (fun j => P j k * W j l)).
Proof.
  intros Hl Hi. pose proof (block_kill l i Hl Hi) as Q. rewrite Rsum_sumn in Q. unfold E, left in Q.
  rewrite (sumn_ext p _ (fun j => X i j * W j l - sumn a (fun k => T i k * (P j k * W j l)))) in Q.
  2:{ intros j Hj. rewrite Rsum_sumn, Rmult_minus_distr_r, <- sumR_scal_r. f_equal. apply sumn_ext. intros; ring. }
  rewrite sumR_minus, sumR_swap in Q. rewrite !Rsum_sumn. rewrite (sumn_ext a (fun k => T i k * Rsum p _) (fun k => sumn p (fun j => T i k * (P j k * W j l)))) by (intros; rewrite Rsum_sumn, sumR_scal; reflexivity). lra.
Qed.
Lemma block_left_zero k : (k <= a)%nat -> (forall j, (j < p)%nat -> Rsum m (fun i => X i j) = 0) -> forall j, (j < p)%nat -> Rsum m (fun i => E k i j) = 0.
Proof.
  intros Hk HX. induction k as [|k IH]; intros j Hj.
  - rewrite <- (HX j Hj). apply Rsum_ext. intros i Hi. unfold E, left. cbn [Rsum]. ring.
  - specialize (IH ltac:(lia)). rewrite Rsum_sumn. rewrite (sumn_ext m _ (fun i => E k i j - t k i * q k j)) by (intros; apply b_E; lia). rewrite sumR_minus, sumR_scal_r, <- Rsum_sumn, IH by exact Hj.
    rewrite (sumn_ext m _ (fun i => sumn p (fun l => E k i l * w k l))) by (intros; apply b_t; lia). rewrite sumR_swap. rewrite (sumR_zero p); [ring|].
    intros l Hl. rewrite sumR_scal_r, <- Rsum_sumn, IH by exact Hl. ring.
Qed.
Lemma block_zero k : (k < a)%nat -> (forall j, (j < p)%nat -> Rsum m (fun i => X i j) = 0) -> Rsum m (fun i => T i k) = 0.
Proof.
  intros Hk HX. rewrite Rsum_sumn. rewrite (sumn_ext m _ (fun i => sumn p (fun l => E k i l * w k l))) by (intros; apply b_t; lia). rewrite sumR_swap. apply sumR_zero.
  intros l Hl. rewrite sumR_scal_r, <- Rsum_sumn, block_left_zero by (assumption || lia). ring.
Qed.
End Block.

(** * The statement *)
(** Scores and loadings of one block of rows: with X_k what is left of X after regressing its columns on the first
    k scores, t_k = X_k w_k; the scores are orthogonal and not zero; the loadings are the regression coefficients. *)
Definition di_block (m p a : nat) (X T P W : nat -> nat -> R) : Prop :=
  (forall i k, (i < m)%nat -> (k < a)%nat -> T i k = Rsum p (fun j => rest m X T k i j * W j k)) /\
  (forall k l, (k < a)%nat -> (l < a)%nat -> k <> l -> Rsum m (fun i => T i k * T i l) = 0) /\
  (forall k, (k < a)%nat -> Rsum m (fun i => T i k * T i k) <> 0) /\
  (forall j k, (j < p)%nat -> (k < a)%nat -> P j k = Rsum m (fun i => T i k * X i j) / Rsum m (fun i => T i k * T i k)).
(** the part of y not explained by the first k scores *)
Definition y_left (n : nat) (y : nat -> R) (T : nat -> nat -> R) (k i : nat) : R := rest n (fun i _ => y i) T k i 0%nat.
(** What DIPLS computes from the centred matrices X (labelled rows), Xs (source), Xt (target) and the centred
    response y, with the divisors zs - 1 and zt - 1 for the two covariance matrices. *)
Definition dipls_fit (n ns nt p a : nat) (zs zt : Z) (lambda : R) (X Xs Xt : nat -> nat -> R) (y : nat -> R) (m : dipls_model (T:=R)) (b : nat -> R) : Prop :=
  exists T Ts Tt P Ps Pt W : nat -> nat -> R,
    (is_mat (dm_T m) n a T /\ is_mat (dm_T_s m) ns a Ts /\ is_mat (dm_T_t m) nt a Tt /\ is_mat (dm_P m) p a P /\ is_mat (dm_P_s m) p a Ps /\ is_mat (dm_P_t m) p a Pt /\
     is_mat (dm_W m) p a W /\ is_mat (dm_b m) p 1 (fun j _ => b j)) /\
    di_block n p a X T P W /\ di_block ns p a Xs Ts Ps W /\ di_block nt p a Xt Tt Pt W /\
    (forall k, (k < a)%nat -> Rsum p (fun j => W j k * W j k) = 1) /\
    (forall k, (k < a)%nat -> Rsum n (fun i => y_left n y T k i * y_left n y T k i) <> 0 /\
       let D := shrink n ns nt zs zt lambda (y_left n y T k) (rest ns Xs Ts k) (rest nt Xt Tt k) in
       (exists V, inverse_pair p D V) /\
       exists g, 0 < g /\ forall j, (j < p)%nat -> Rsum p (fun i => W i k * D i j) = g * cov n (rest n X T k) y j) /\
    (exists g, forall j, (j < p)%nat -> b j = Rsum a (fun k => W j k * g k)) /\
    (forall i, (i < n)%nat -> Rsum p (fun j => X i j * b j) = Rsum a (fun k => T i k * (Rsum n (fun l => T l k * y l) / Rsum n (fun l => T l k * T l k)))).

Section Fit.
Variables (lstsq : mat R -> mat R -> res (mat R)) (n ns nt p a : nat) (zs zt : Z) (lambda : R).
Variables (X Xs Xt : nat -> nat -> R) (y : nat -> R) (C : cols).
Hypothesis HC : forall l, (l < a)%nat -> component n ns nt p zs zt lambda X Xs Xt y C l.
Let T := kT C. Let P := kP C. Let W := kW C.

Lemma f_T l i : (l < a)%nat -> T i l = scores_of p (left X T P l) (fun j => W j l) i.
Proof. intros Hl. apply (HC l Hl). Qed.
Lemma f_P l j : (l < a)%nat -> P j l = loadings_of n (left X T P l) (fun i => T i l) j.
Proof. intros Hl. apply (HC l Hl). Qed.
Lemma f_tau l : (l < a)%nat -> Rsum n (fun i => T i l * T i l) <> 0.
Proof. intros Hl. apply (HC l Hl). Qed.
Lemma block_of m X' T' P' : (forall l i, (l < a)%nat -> T' i l = scores_of p (left X' T' P' l) (fun j => W j l) i) ->
  (forall l j, (l < a)%nat -> P' j l = loadings_of m (left X' T' P' l) (fun i => T' i l) j) ->
  (forall l, (l < a)%nat -> Rsum m (fun i => T' i l * T' i l) <> 0) -> di_block m p a X' T' P' W.
Proof.
  intros H1 H2 H3. split; [|split; [|split]].
  - intros i k Hi Hk. rewrite H1 by exact Hk. unfold scores_of. apply Rsum_ext. intros j Hj. rewrite (block_rest m p a X' T' P' W H1 H2 H3) by lia. reflexivity.
  - intros k l Hk Hl Hne. now apply (block_orthogonal m p a X' T' P' W H1 H2 H3).
  - exact H3.
  - intros j k Hj Hk. now apply (block_loading m p a X' T' P' W H1 H2 H3).
Qed.
Lemma f_c l : (l < a)%nat -> kc C l = Rsum n (fun i => T i l * y i) / Rsum n (fun i => T i l * T i l).
Proof.
  intros Hl. destruct (HC l Hl) as (_ & _ & _ & _ & _ & _ & _ & E & _). rewrite E. f_equal. rewrite !Rsum_sumn. unfold lefty. fold T.
  rewrite (sumn_ext n _ (fun i => T i l * y i - sumn l (fun m => T i m * T i l * kc C m))).
  2:{ intros i Hi. rewrite Rsum_sumn, Rmult_minus_distr_r, <- sumR_scal_r. f_equal; [ring|]. apply sumn_ext. intros; ring. }
  rewrite sumR_minus, sumR_swap, (sumR_zero l); [ring|]. intros m Hm. rewrite sumR_scal_r, <- Rsum_sumn.
  rewrite (block_orthogonal n p a X T P W f_T f_P f_tau) by lia. ring.
Qed.
Lemma f_y k i : (k <= a)%nat -> lefty y T (kc C) k i = y_left n y T k i.
Proof. intros Hk. unfold lefty, y_left, rest. f_equal. apply Rsum_ext. intros l Hl. now rewrite f_c by lia. Qed.
Lemma f_cov k j : (k <= a)%nat -> (j < p)%nat -> cov n (left X T P k) (lefty y T (kc C) k) j = cov n (rest n X T k) y j.
Proof.
  intros Hk Hj. unfold cov. rewrite !Rsum_sumn. unfold lefty at 1.
  rewrite (sumn_ext n _ (fun i => left X T P k i j * y i - sumn k (fun l => left X T P k i j * T i l * kc C l))).
  2:{ intros i Hi. rewrite Rsum_sumn, Rmult_minus_distr_l, <- sumR_scal. f_equal. apply sumn_ext. intros; ring. }
  rewrite sumR_minus, sumR_swap, (sumR_zero k).
  - rewrite Rminus_0_r. apply sumn_ext. intros i Hi. now rewrite (block_rest n p a X T P W f_T f_P f_tau).
  - intros l Hl. rewrite sumR_scal_r, <- Rsum_sumn, (block_perp n p a X T P W f_T f_P f_tau) by lia. ring.
Qed.
Lemma gram_ext m (A B : nat -> nat -> R) i j : (forall k, (k < m)%nat -> A k i = B k i /\ A k j = B k j) -> gram m A i j = gram m B i j.
Proof. intros H. unfold gram. apply Rsum_ext. intros k Hk. destruct (H k Hk) as (-> & ->). reflexivity. Qed.
Lemma f_shrink k i j : (k < a)%nat -> (i < p)%nat -> (j < p)%nat ->
  shrink_at n ns nt zs zt lambda Xs Xt y C k i j = shrink n ns nt zs zt lambda (y_left n y T k) (rest ns Xs (kTs C) k) (rest nt Xt (kTt C) k) i j.
Proof.
  intros Hk Hi Hj. unfold shrink_at, shrink.
  assert (Es : gram ns (left Xs (kTs C) (kPs C) k) i j = gram ns (rest ns Xs (kTs C) k) i j).
  { apply gram_ext. intros l Hl. split; apply (block_rest ns p a Xs (kTs C) (kPs C) W); (try lia); intros; now apply HC. }
  assert (Et : gram nt (left Xt (kTt C) (kPt C) k) i j = gram nt (rest nt Xt (kTt C) k) i j).
  { apply gram_ext. intros l Hl. split; apply (block_rest nt p a Xt (kTt C) (kPt C) W); (try lia); intros; now apply HC. }
  rewrite Es, Et. do 2 f_equal. f_equal. f_equal. apply Rsum_ext. intros l Hl. rewrite f_y by lia. reflexivity.
Qed.
Lemma f_weight k : (k < a)%nat -> Rsum p (fun j => W j k * W j k) = 1 /\ Rsum n (fun i => y_left n y T k i * y_left n y T k i) <> 0 /\
  let D := shrink n ns nt zs zt lambda (y_left n y T k) (rest ns Xs (kTs C) k) (rest nt Xt (kTt C) k) in
  (exists V, inverse_pair p D V) /\ exists g, 0 < g /\ forall j, (j < p)%nat -> Rsum p (fun i => W i k * D i j) = g * cov n (rest n X T k) y j.
Proof.
  intros Hk. destruct (HC k Hk) as ((V & HV & Hw) & HT & _ & _ & _ & _ & _ & _ & Ht & _ & _).
  set (v := fun j => Rsum p (fun l => cov n (left X T P k) (lefty y T (kc C) k) l / Rsum n (fun i => lefty y T (kc C) k i * lefty y T (kc C) k i) * V l j)).
  assert (HW : forall j, W j k = v j / sqrt (Rsum p (fun l => v l * v l))) by (intros j; apply Hw).
  assert (Hnz : ~ forall j, (j < p)%nat -> W j k = 0).
  { intros Hz. apply Ht. rewrite Rsum_sumn. apply sumR_zero. intros i Hi. rewrite HT. unfold scores_of. rewrite Rsum_sumn, sumR_zero; [ring|]. intros j Hj. unfold W in Hz. rewrite Hz by exact Hj. ring. }
  pose proof (sumR_nonneg p (fun l => v l * v l) (fun l _ => Rle_0_sqr (v l))) as H0. cbv beta in H0.
  assert (Hpos : 0 < sumn p (fun l => v l * v l)).
  { destruct H0 as [H0|H0]; [exact H0|]. exfalso. apply Hnz. intros j Hj. rewrite HW, Rsum_sumn, <- H0, sqrt_0. unfold Rdiv. rewrite Rinv_0. ring. }
  assert (Hy : Rsum n (fun i => lefty y T (kc C) k i * lefty y T (kc C) k i) <> 0).
  { intros Ey. apply Hnz. intros j Hj. rewrite HW. unfold v at 1. rewrite Ey, Rsum_sumn, sumR_zero; [unfold Rdiv; ring|]. intros l Hl. unfold Rdiv. rewrite Rinv_0. ring. }
  assert (Ey : Rsum n (fun i => lefty y T (kc C) k i * lefty y T (kc C) k i) = Rsum n (fun i => y_left n y T k i * y_left n y T k i)) by (apply Rsum_ext; intros; now rewrite f_y by lia).
  split; [|split; [rewrite <- Ey; exact Hy|]].
  - rewrite Rsum_sumn. destruct (unit_or_zero p v) as [U|U].
    + rewrite <- U. apply sumn_ext. intros j Hj. rewrite HW, Rsum_sumn. reflexivity.
    + exfalso. apply Hnz. intros j Hj. rewrite HW, Rsum_sumn. now apply U.
  - intros D.
    assert (ED : forall i j, (i < p)%nat -> (j < p)%nat -> shrink_at n ns nt zs zt lambda Xs Xt y C k i j = D i j) by (intros; now apply f_shrink).
    split.
    + exists V. intros i j Hi Hj. destruct (HV i j Hi Hj) as (Q1 & Q2). split.
      * rewrite <- Q1. apply Rsum_ext. intros l Hl. now rewrite ED.
      * rewrite <- Q2. apply Rsum_ext. intros l Hl. now rewrite ED.
    + set (s := sqrt (sumn p (fun l => v l * v l))). pose proof (sqrt_lt_R0 _ Hpos) as Hs. fold s in Hs.
      set (y2 := Rsum n (fun i => lefty y T (kc C) k i * lefty y T (kc C) k i)) in *.
      assert (Hy2 : 0 < y2). { assert (0 <= y2) by (unfold y2; rewrite Rsum_sumn; apply sumR_nonneg; intros; apply Rle_0_sqr). lra. }
      exists (/ (y2 * s)). split; [apply Rinv_0_lt_compat, Rmult_lt_0_compat; assumption|]. intros j Hj.
      assert (EW : forall i, W i k = v i * / s) by (intros i; rewrite HW, Rsum_sumn; reflexivity).
      rewrite Rsum_sumn. rewrite (sumn_ext p _ (fun i => v i * D i j * / s)) by (intros; rewrite EW; ring). rewrite sumR_scal_r.
      assert (Ev : sumn p (fun i => v i * D i j) = cov n (rest n X T k) y j / y2).
      { unfold v. rewrite (sumn_ext p _ (fun i => sumn p (fun l => cov n (left X T P k) (lefty y T (kc C) k) l / y2 * (V l i * D i j)))).
        2:{ intros i Hi. rewrite Rsum_sumn, <- sumR_scal_r. apply sumn_ext. intros; unfold y2; ring. }
        rewrite sumR_swap. rewrite (sumR_single p j); [|exact Hj|].
        - rewrite sumR_scal. rewrite (sumn_ext p _ (fun m => V j m * shrink_at n ns nt zs zt lambda Xs Xt y C k m j)) by (intros; now rewrite ED). rewrite <- Rsum_sumn, (proj2 (HV j j Hj Hj)). unfold delta. rewrite Nat.eqb_refl, f_cov by lia. ring.
        - intros l Hl Hne. rewrite sumR_scal. rewrite (sumn_ext p _ (fun m => V l m * shrink_at n ns nt zs zt lambda Xs Xt y C k m j)) by (intros; now rewrite ED). rewrite <- Rsum_sumn, (proj2 (HV l j Hl Hj)). unfold delta. rewrite (proj2 (Nat.eqb_neq l j) Hne). ring. }
      rewrite Ev. field. lra.
Qed.

(** the regression coefficients *)
Definition coef (Iv : nat -> nat -> R) (j : nat) : R := sumn a (fun k => sumn a (fun l => W j l * Iv l k) * kc C k).
Definition fitted_model (Iv : nat -> nat -> R) : dipls_model :=
  DiplsModel (mk n a T) (mk ns a (kTs C)) (mk nt a (kTt C)) (mk p a P) (mk p a (kPs C)) (mk p a (kPt C)) (mk p a W) (mk p 1 (fun j _ => coef Iv j)).
Definition PW (k l : nat) : R := sumn p (fun j => P j k * W j l).
Lemma f_fit Iv : inverse_pair a PW Iv -> dipls_fit n ns nt p a zs zt lambda X Xs Xt y (fitted_model Iv) (coef Iv).
Proof.
  intros HIv. exists T, (kTs C), (kTt C), P, (kPs C), (kPt C), W. unfold fitted_model. cbn [dm_T dm_T_s dm_T_t dm_P dm_P_s dm_P_t dm_W dm_b].
  split; [repeat (split; [apply is_mat_mk_ext; reflexivity|]); apply is_mat_mk_ext; reflexivity|].
  split; [apply block_of; [exact f_T|exact f_P|exact f_tau]|].
  split; [apply block_of; intros; now apply HC|].
  split; [apply block_of; intros; now apply HC|].
  split; [intros k Hk; now apply f_weight|]. split; [intros k Hk; now apply f_weight|]. split.
  - exists (fun l => sumn a (fun k => Iv l k * kc C k)). intros j Hj. unfold coef. rewrite Rsum_sumn.
    rewrite (sumn_ext a _ (fun k => sumn a (fun l => W j l * (Iv l k * kc C k)))) by (intros; rewrite <- sumR_scal_r; apply sumn_ext; intros; ring).
    rewrite sumR_swap. apply sumn_ext. intros l Hl. now rewrite sumR_scal.
  - intros i Hi. unfold coef. rewrite !Rsum_sumn.
    rewrite (sumn_ext p _ (fun j => sumn a (fun k => sumn a (fun l => X i j * W j l * Iv l k) * kc C k))).
    2:{ intros j Hj. rewrite <- sumR_scal. apply sumn_ext. intros k Hk. rewrite <- Rmult_assoc, <- sumR_scal. f_equal. apply sumn_ext. intros; ring. }
    rewrite sumR_swap. apply sumn_ext. intros k Hk. rewrite sumR_scal_r, sumR_swap. rewrite f_c by exact Hk. f_equal.
    rewrite (sumn_ext a _ (fun l => sumn a (fun m => T i m * (PW m l * Iv l k)))).
    2:{ intros l Hl. rewrite sumR_scal_r, <- Rsum_sumn, (block_scores n p a X T P W f_T f_P f_tau i l Hl Hi), Rsum_sumn, <- sumR_scal_r. apply sumn_ext. intros m Hm. unfold PW. rewrite <- Rsum_sumn. ring. }
    rewrite sumR_swap. rewrite (sumR_single a k); [|exact Hk|].
    + rewrite sumR_scal, <- Rsum_sumn, (proj1 (HIv k k Hk Hk)). unfold delta. rewrite Nat.eqb_refl. ring.
    + intros m Hm Hne. rewrite sumR_scal, <- Rsum_sumn, (proj1 (HIv m k Hm Hk)). unfold delta. rewrite (proj2 (Nat.eqb_neq m k) Hne). ring.
Qed.
(** the end of training *)
Definition finish (ms : list (option (mat R))) : res dipls_model :=
  match ms with
  | [Some c; Some Tm; Some Ts; Some Tt; Some P; Some Ps; Some Pt; Some W] =>
      do pw <- mul (transpose P) W; do i <- minverse lstsq pw; do wi <- mul W i; do b <- mul wi (transpose c);
      Ok (DiplsModel Tm Ts Tt P Ps Pt W b)
  | _ => Err AttributeError
  end.
Lemma f_finish : a <> 0%nat -> exists Iv, inverse_pair a PW Iv /\ finish (snd (state n ns nt p X Xs Xt y a C)) = Ok (fitted_model Iv).
Proof.
  intros Ha. destruct (minverse_cases lstsq a PW) as [Em|(Iv & Em & HIv)].
  - exfalso. unfold minverse in Em. destruct (C61_inverse lstsq (mk a a PW) (mk_wf _ _ _) eq_refl) as [_ HI]. destruct HI as (x & Ex & _); [|congruence].
    intros Hs. apply singular_kernel in Hs; [|reflexivity]. apply Hs. intros v Hv k Hk. change (nc (mk a a PW)) with a in *. change (nr (mk a a PW)) with a in *.
    apply (unit_upper_kernel a PW v); [| | |exact Hk].
    + intros l Hl. unfold PW. rewrite <- Rsum_sumn. now apply (block_one n p a X T P W f_T f_P f_tau).
    + intros l m Hm Hl. unfold PW. rewrite <- Rsum_sumn. now apply (block_low n p a X T P W f_T f_P f_tau).
    + intros i Hi. rewrite <- (Hv i Hi). apply sumn_ext. intros l Hl. now rewrite entry_mk.
  - exists Iv. split; [exact HIv|]. unfold state. cbn [snd].
    assert (Et : forall r (f : nat -> nat -> R), tab r a f = Some (mk r a f)) by (intros; destruct a; [congruence|reflexivity]). rewrite !Et. cbn [finish]. rewrite !transpose_mk, mul_mk, bind_Ok.
    match goal with |- bind (minverse _ (mk _ _ ?f)) _ = _ => change f with PW end.
    rewrite Em, bind_Ok, mul_mk, bind_Ok, mul_mk, bind_Ok. reflexivity.
Qed.
End Fit.

(** * Training *)
Section Train.
Variable lstsq : mat R -> mat R -> res (mat R).
Definition fresh_centers (o : dipls_st (T:=R)) : Prop := di_X_center o = t_new center /\ di_X_s_center o = t_new center /\ di_X_t_center o = t_new center.
Definition trained (o : dipls_st (T:=R)) (X Xs Xt : mat R) (b0 : R) (m : option dipls_model) : dipls_st :=
  Dipls (di_strategy o) (di_ns o) (di_nt o) (di_lambda o) (center_conf X) (center_conf Xs) (center_conf Xt) (Some b0) m.
(** the labelled rows *)
Definition labelled (o : dipls_st (T:=R)) (PX Xs X : mat R) : Prop :=
  match di_strategy o with UNSUPERVISED => X = Xs | SUPERVISED => X = PX | SEMISUPERVISED => get_rows PX (STuple 0 (2 * di_ns o)) = Ok X end.
Lemma mean_col (Y : mat R) : nc Y = 1%nat -> (do m <- the_matrix (mean Y (Some (-1)%Z)); as_real m) = Ok (Rmean (nr Y) (fun i => entry Y i 0%nat)).
Proof.
  intros Hc. unfold mean. change (-1 =? -1)%Z with true. cbv iota. cbn [the_matrix bind]. match goal with |- as_real (Mat 1 1 [[?x]]) = _ => change (Mat 1 1 [[x]]) with (mk 1 1 (fun _ _ => x)) end. rewrite as_real_mk. f_equal. rewrite Hc, Nat.mul_1_r. unfold Rmean. rewrite Rsum_sumn. cbn [ndiv nofZ NumR]. rewrite <- INR_IZR_INZ. f_equal.
  apply sumn_ext. intros i Hi. now rewrite sum1.
Qed.
Lemma train_eq (a : nat) (o : dipls_st (T:=R)) (PX Y X Xs Xt : mat R) : fresh_centers o -> (di_ns o <> 0 /\ di_ns o <> 1 /\ di_nt o <> 0 /\ di_nt o <> 1)%Z ->
  nc Y = 1%nat -> get_rows PX (STuple 0 (di_ns o)) = Ok Xs -> get_rows PX (STuple (di_ns o) (zn (nr PX))) = Ok Xt -> labelled o PX Xs X ->
  nc X = nc PX -> nc Xs = nc PX -> nc Xt = nc PX ->
  let p := nc PX in let b0 := Rmean (nr Y) (fun i => entry Y i 0%nat) in
  dipls_train lstsq (Z.of_nat a) o PX Y =
  match (do st <- for_range a (dipls_step lstsq (mk p p dlt) (di_ns o) (di_nt o) (di_lambda o))
           ((mk (nr X) p (centred X), mk (nr Xs) p (centred Xs), mk (nr Xt) p (centred Xt), mk (nr Y) 1 (fun i _ => centred Y i 0%nat)), repeat None 8);
         finish lstsq (snd st)) with
  | Err e => (trained o X Xs Xt b0 (di_model o), Err e)
  | Ok m => (trained o X Xs Xt b0 (Some m), Ok None)
  end.
Proof.
  intros (F1 & F2 & F3) (Z1 & Z2 & Z3 & Z4) Hc Es Et El C1 C2 C3 p b0. unfold dipls_train. unfold zn at 1. rewrite eye_eyeR.
  rewrite (proj2 (Z.eqb_neq _ _) Z1), (proj2 (Z.eqb_neq _ _) Z2), (proj2 (Z.eqb_neq _ _) Z3), (proj2 (Z.eqb_neq _ _) Z4). cbn [orb].
  rewrite Es, bind_Ok, Et, bind_Ok.
  replace (match di_strategy o with UNSUPERVISED => Ok Xs | SUPERVISED => Ok PX | SEMISUPERVISED => get_rows PX (STuple 0 (2 * di_ns o)) end) with (Ok X) by (unfold labelled in El; destruct (di_strategy o); congruence).
  rewrite bind_Ok, F1, F2, F3, !center_first. rewrite bind_Ok.
  pose proof (mean_col Y Hc) as Em. destruct (the_matrix (mean Y (Some (-1)%Z))) as [mm|e]; [|discriminate]. rewrite bind_Ok in Em. rewrite ?bind_Ok, Em, bind_Ok.
  rewrite Nat2Z.id, C1, C2, C3. fold p.
  assert (EY : sub_scalar Y (Rmean (nr Y) (fun i => entry Y i 0%nat)) = mk (nr Y) 1 (fun i _ => centred Y i 0%nat)).
  { unfold sub_scalar, map_mat. rewrite Hc. apply mk_ext. intros i j Hi Hj. replace j with 0%nat by lia. reflexivity. }
  rewrite EY. reflexivity.
Qed.
Lemma state0 n ns nt p X Xs Xt y C : state n ns nt p X Xs Xt y 0 C = ((mk n p X, mk ns p Xs, mk nt p Xt, mk n 1 (fun i _ => y i)), repeat None 8).
Proof.
  unfold state. cbn [tab repeat]. f_equal. apply f_equal2; [apply f_equal2; [apply f_equal2|]|]; apply mk_ext; intros; unfold left, lefty; cbn [Rsum]; ring.
Qed.
Lemma fit_none (a : nat) Id zs zt lambda S0 m : (do st <- for_range a (dipls_step lstsq Id zs zt lambda) (S0, repeat None 8); finish lstsq (snd st)) = Ok m -> a <> 0%nat.
Proof. intros E ->. discriminate E. Qed.

Section Data.
Variables (a : nat) (o : dipls_st (T:=R)) (PX Y X Xs Xt : mat R).
Hypotheses (HF : fresh_centers o) (HZ : (di_ns o <> 0 /\ di_ns o <> 1 /\ di_nt o <> 0 /\ di_nt o <> 1)%Z).
Hypotheses (HY : nc Y = 1%nat) (HS : get_rows PX (STuple 0 (di_ns o)) = Ok Xs) (HT : get_rows PX (STuple (di_ns o) (zn (nr PX))) = Ok Xt) (HL : labelled o PX Xs X).
Hypotheses (C1 : nc X = nc PX) (C2 : nc Xs = nc PX) (C3 : nc Xt = nc PX).
Let p := nc PX. Let b0 := Rmean (nr Y) (fun i => entry Y i 0%nat).
Hypotheses (Hp : p <> 0%nat) (Hn : nr X <> 0%nat) (Hns : nr Xs <> 0%nat) (Hnt : nr Xt <> 0%nat).
Lemma train_cols o' : nr X = nr Y -> dipls_train lstsq (Z.of_nat a) o PX Y = (o', Ok None) ->
  a <> 0%nat /\ exists C Iv, o' = trained o X Xs Xt b0 (Some (fitted_model (nr X) (nr Xs) (nr Xt) p a C Iv)) /\ inverse_pair a (PW p C) Iv /\
    forall l, (l < a)%nat -> component (nr X) (nr Xs) (nr Xt) p (di_ns o) (di_nt o) (di_lambda o) (centred X) (centred Xs) (centred Xt) (fun i => centred Y i 0%nat) C l.
Proof.
  intros Hr E. rewrite (train_eq a o PX Y X Xs Xt) in E by assumption. fold p b0 in E. rewrite <- Hr in E.
  set (C0 := Cols (fun _ => 0) (fun _ _ => 0) (fun _ _ => 0) (fun _ _ => 0) (fun _ _ => 0) (fun _ _ => 0) (fun _ _ => 0) (fun _ _ => 0)).
  match type of E with match ?q with _ => _ end = _ => destruct q as [m|e] eqn:Ef; [|discriminate] end. injection E as <-.
  pose proof (fit_none _ _ _ _ _ _ _ Ef) as Ha. split; [exact Ha|].
  rewrite <- (state0 _ _ _ _ _ _ _ (fun i => centred Y i 0%nat) C0) in Ef.
  match type of Ef with bind ?q _ = _ => destruct q as [st|e] eqn:El; [|discriminate] end. apply loop_conv in El; try assumption. destruct El as (C & -> & HC). rewrite bind_Ok in Ef.
  destruct (f_finish lstsq _ _ _ _ a _ _ _ _ _ _ _ C HC Ha) as (Iv & HIv & Ef'). rewrite Ef in Ef'. injection Ef' as ->.
  exists C, Iv. split; [reflexivity|]. split; [exact HIv|exact HC].
Qed.
Lemma train_ok o' : nr X = nr Y -> dipls_train lstsq (Z.of_nat a) o PX Y = (o', Ok None) ->
  a <> 0%nat /\ exists m b, o' = trained o X Xs Xt b0 (Some m) /\
    dipls_fit (nr X) (nr Xs) (nr Xt) p a (di_ns o) (di_nt o) (di_lambda o) (centred X) (centred Xs) (centred Xt) (fun i => centred Y i 0%nat) m b.
Proof.
  intros Hr E. destruct (train_cols o' Hr E) as (Ha & C & Iv & -> & HIv & HC). split; [exact Ha|].
  eexists. eexists. split; [reflexivity|]. now apply f_fit.
Qed.
Lemma train_fwd C : nr X = nr Y -> a <> 0%nat ->
  (forall l, (l < a)%nat -> component (nr X) (nr Xs) (nr Xt) p (di_ns o) (di_nt o) (di_lambda o) (centred X) (centred Xs) (centred Xt) (fun i => centred Y i 0%nat) C l) ->
  exists Iv, inverse_pair a (PW p C) Iv /\ dipls_train lstsq (Z.of_nat a) o PX Y = (trained o X Xs Xt b0 (Some (fitted_model (nr X) (nr Xs) (nr Xt) p a C Iv)), Ok None).
Proof.
  intros Hr Ha HC. destruct (f_finish lstsq _ _ _ _ a _ _ _ _ _ _ _ C HC Ha) as (Iv & HIv & Ef). exists Iv. split; [exact HIv|].
  rewrite (train_eq a o PX Y X Xs Xt) by assumption. fold p b0. rewrite <- Hr.
  rewrite <- (state0 _ _ _ _ _ _ _ (fun i => centred Y i 0%nat) C). rewrite loop_fwd by assumption. rewrite bind_Ok, Ef. reflexivity.
Qed.
Lemma train_mismatch : nr X <> nr Y -> a <> 0%nat -> snd (dipls_train lstsq (Z.of_nat a) o PX Y) = Err ValueError.
Proof.
  intros Hr Ha. rewrite (train_eq a o PX Y X Xs Xt) by assumption. destruct a as [|a']; [congruence|].
  unfold for_range. cbn [seq for_each]. unfold dipls_step at 1. rewrite transpose_mk, mul_mk_err by congruence. reflexivity.
Qed.
End Data.
End Train.

(** * Public calls *)
Lemma single_none {A Key : Type} (cl : pls_class A Key R) (s0 : pls_st A R) (X Y : mat R) own r :
  c_arity cl = Single -> p_preprocessing s0 = PP_NONE -> nc Y = 1%nat ->
  c_train cl (p_num_components s0) (c_reset cl (p_own s0)) X Y = (own, r) ->
  snd (initialize cl s0 (Some X) (Some Y)) = r /\
  (r = Ok None -> exists s, initialize cl s0 (Some X) (Some Y) = (s, Ok None) /\ p_own s = own /\
     (forall Z, snd (transform cl s Z) = snd (c_transform cl (p_num_components s0) own Z)) /\
     (forall Z, snd (predict cl s Z) = snd (c_predict cl (p_num_components s0) own Z))).
Proof.
  intros Ha Hpp Hc Htr. unfold initialize, check_data. rewrite Ha, Hc. cbn [Nat.eqb negb]. unfold do_initialize. cbn [reset p_preprocessing]. rewrite Hpp. unfold prepare. rewrite Ha. cbn [prep_single pt_fit set_prep p_num_components p_own reset]. rewrite Htr.
  split; [destruct r as [[m|]|e]; reflexivity|]. intros ->. eexists. split; [reflexivity|]. split; [reflexivity|]. split.
  - intros Z. unfold transform. cbn [set_initialised set_own set_prep p_initialised negb p_own p_num_components reset]. destruct (c_transform cl _ own Z); reflexivity.
  - intros Z. unfold predict, do_predict. cbn [set_initialised set_own set_prep p_initialised negb p_own p_num_components reset p_trans_response]. destruct (c_predict cl _ own Z) as (a' & [r'|e]); reflexivity.
Qed.
