(** C71: what KernelPLS computes with any kernel - orthonormal scores, and training residuals orthogonal to them. *)
From Coq Require Import List ZArith Lia Bool Arith Reals Lra.
From Verif Require Import Base Num Mat M_Matrix M_Factory M_Helper M_Loop M_Utils M_Linalg M_Transform M_PLSBase M_PLS M_PLS2 M_Kernel
  S_Matrix L_Base L_Mat L_Matrix L_MatR L_Linalg L_Alg L_Transform L_Deflate P_Matrix P_Linalg P_Helper P_PLSPrep P_PLS1 L_Krylov L_Public P_CCAFilter P_NIPALS2.
Import ListNotations.
Local Open Scope R_scope.

Lemma sum0 n : sumn n (fun _ => 0) = 0. Proof. apply sumR_zero. reflexivity. Qed.
Lemma Ok4 {A B C D} (a a' : A) (b b' : B) (c c' : C) (d d' : D) : Ok (a, b, c, d) = Ok (a', b', c', d') -> a = a' /\ b = b' /\ c = c' /\ d = d'.
Proof. intros E. injection E. auto. Qed.
(** identity minus rank one *)
Definition dlt (i j : nat) : R := if (i =? j)%nat then 1 else 0.
Lemma dlt_l n i (f : nat -> R) : (i < n)%nat -> sumn n (fun k => dlt i k * f k) = f i.
Proof.
  intros Hi. rewrite (sumR_single n i (fun k => dlt i k * f k)); [|exact Hi|].
  - unfold dlt. rewrite Nat.eqb_refl. ring.
  - intros k Hk Hne. unfold dlt. rewrite (proj2 (Nat.eqb_neq i k)) by congruence. ring.
Qed.
Lemma dlt_r n i (f : nat -> R) : (i < n)%nat -> sumn n (fun k => f k * dlt k i) = f i.
Proof.
  intros Hi. rewrite (sumR_single n i (fun k => f k * dlt k i)); [|exact Hi|].
  - unfold dlt. rewrite Nat.eqb_refl. ring.
  - intros k Hk Hne. unfold dlt. rewrite (proj2 (Nat.eqb_neq k i)) by congruence. ring.
Qed.

(** the table  (I - a b^T)  *)
Definition one_less (a b : nat -> R) (i j : nat) : R := dlt i j - a i * b j.
Lemma one_less_l n a b (v : nat -> R) j : (j < n)%nat -> sumn n (fun i => v i * one_less a b i j) = v j - sumn n (fun i => v i * a i) * b j.
Proof.
  intros Hj. unfold one_less. rewrite (sumn_ext n _ (fun i => v i * dlt i j - v i * a i * b j)) by (intros; ring).
  rewrite sumR_minus, dlt_r, sumR_scal_r by exact Hj. reflexivity.
Qed.
Lemma one_less_r n a b (v : nat -> R) i : (i < n)%nat -> sumn n (fun j => one_less a b i j * v j) = v i - a i * sumn n (fun j => b j * v j).
Proof.
  intros Hi. unfold one_less. rewrite (sumn_ext n _ (fun j => dlt i j * v j - a i * (b j * v j))) by (intros; ring).
  rewrite sumR_minus, dlt_l, sumR_scal by exact Hi. reflexivity.
Qed.
(** the product of three tables, as the two calls of mul produce it *)
Definition sandwich (n : nat) (A K B : nat -> nat -> R) (i j : nat) : R := sumn n (fun b => sumn n (fun a => A i a * K a b) * B b j).
Lemma sandwich_l n A K B (v : nat -> R) j :
  sumn n (fun i => v i * sandwich n A K B i j) = sumn n (fun b => sumn n (fun a => sumn n (fun i => v i * A i a) * K a b) * B b j).
Proof.
  unfold sandwich. rewrite (sumn_ext n _ (fun i => sumn n (fun b => v i * sumn n (fun a => A i a * K a b) * B b j))).
  2:{ intros i Hi. rewrite <- sumR_scal. apply sumn_ext. intros; ring. }
  rewrite (sumR_swap n n). apply sumn_ext. intros b Hb. rewrite sumR_scal_r. f_equal.
  rewrite (sumn_ext n _ (fun i => sumn n (fun a => v i * A i a * K a b))).
  2:{ intros i Hi. rewrite <- sumR_scal. apply sumn_ext. intros; ring. }
  rewrite (sumR_swap n n). apply sumn_ext. intros a Ha. now rewrite sumR_scal_r.
Qed.
Lemma sandwich_r n A K B (v : nat -> R) i :
  sumn n (fun j => sandwich n A K B i j * v j) = sumn n (fun a => A i a * sumn n (fun b => K a b * sumn n (fun j => B b j * v j))).
Proof.
  unfold sandwich. rewrite (sumn_ext n _ (fun j => sumn n (fun b => sumn n (fun a => A i a * K a b) * (B b j * v j)))).
  2:{ intros j Hj. rewrite <- sumR_scal_r. apply sumn_ext. intros; ring. }
  rewrite (sumR_swap n n). rewrite (sumn_ext n _ (fun b => sumn n (fun a => A i a * (K a b * sumn n (fun j => B b j * v j))))).
  2:{ intros b Hb. rewrite sumR_scal, <- sumR_scal_r. apply sumn_ext. intros; ring. }
  rewrite (sumR_swap n n). apply sumn_ext. intros a Ha. now rewrite sumR_scal.
Qed.

Lemma eye_nn n : eye (T:=R) (zn n) (zn n) = Ok (mk n n dlt).
Proof.
  unfold eye, zn. destruct (Z.eqb_spec (Z.of_nat n) (-1)); [lia|]. destruct (Z.ltb_spec (Z.of_nat n) 0); [lia|]. cbn [orb]. rewrite !Nat2Z.id. reflexivity.
Qed.

(** a normalised vector has length 1 or is zero *)
Lemma unit_or_zero n (v : nat -> R) : let t i := v i / sqrt (sumn n (fun k => v k * v k)) in
  (sumn n (fun i => t i * t i) = 1) \/ (forall i, (i < n)%nat -> t i = 0).
Proof.
  intros t. pose proof (sumR_nonneg n (fun k => v k * v k) (fun k _ => Rle_0_sqr (v k))) as H0. cbv beta in H0.
  destruct (Rle_lt_or_eq_dec _ _ H0) as [Hp|Hz].
  - left. unfold t. pose proof (sqrt_lt_R0 _ Hp) as Hs. set (N := sqrt _) in *. rewrite (sumn_ext n _ (fun i => v i * v i * / (N * N))) by (intros; field; lra).
    rewrite sumR_scal_r. unfold N. rewrite sqrt_sqrt by lra. field. lra.
  - right. intros i Hi. unfold t. rewrite <- Hz, sqrt_0. unfold Rdiv. rewrite Rinv_0. ring.
Qed.

Section KPLS.
Variables (n c a : nat).
Hypothesis Hn : n <> 0%nat.
Hypothesis Hc : c <> 0%nat.
Variable (rnd : Z -> nat -> mat R) (tol : R) (max_iter : Z) (r : nat -> nat -> R).
Hypothesis Hr : forall k, rnd (zn k) n = mk n 1 (fun i _ => r k i).

Notation vec v := (mk n 1 (fun i _ => v i)).
Notation cvec v := (mk c 1 (fun i _ => v i)).

(** the vectors of one component come from the deflated kernel matrix *)
Definition nrm (v : nat -> R) (i : nat) : R := v i / sqrt (sumn n (fun k => v k * v k)).
Definition comp (K Y : nat -> nat -> R) (t w q : nat -> R) : Prop :=
  (exists u0 : nat -> R, forall i, (i < n)%nat -> t i = nrm (fun l => sumn n (fun j => K l j * u0 j)) i) /\
  (forall i, (i < n)%nat -> w i = t i) /\
  (forall j, (j < c)%nat -> q j = sumn n (fun i => Y i j * t i)).

Lemma while_pass fuel K Y t w q u ch it :
  kpls_while (S fuel) tol max_iter (mk n n K) (mk n c Y) t w q (vec u) ch it =
  if nltb tol ch && (it <? max_iter)%Z then
    let t' := nrm (fun l => sumn n (fun j => K l j * u j)) in
    let q' := fun j => sumn n (fun i => Y i j * t' i) in
    let u' := nrm (fun i => sumn c (fun j => Y i j * q' j)) in
    kpls_while fuel tol max_iter (mk n n K) (mk n c Y) (vec t') (vec t') (cvec q') (vec u') (sqrt (sumn n (fun i => (u' i - u i) * (u' i - u i)))) (it + 1)
  else Ok (t, w, q, vec u).
Proof.
  cbn [kpls_while]. destruct (nltb tol ch && (it <? max_iter)%Z); [|reflexivity].
  rewrite mul_mk, bind_Ok, normalized0_mk, bind_Ok, transpose_mk, mul_mk, bind_Ok, mul_mk, bind_Ok, normalized0_mk, bind_Ok, sub_mk, bind_Ok, norm2_col. reflexivity.
Qed.
Lemma while_run K Y : forall fuel t w q u ch it, (Z.to_nat (max_iter - it) <= fuel)%nat -> (0 <= it)%Z ->
  comp K Y t w q \/ nltb tol ch && (it <? max_iter)%Z = true ->
  exists t' w' q' u', kpls_while fuel tol max_iter (mk n n K) (mk n c Y) (vec t) (vec w) (cvec q) (vec u) ch it = Ok (vec t', vec w', cvec q', vec u') /\ comp K Y t' w' q'.
Proof.
  induction fuel as [|fuel IH]; intros t w q u ch it Hf Hit Hcase.
  - destruct (Z.ltb_spec it max_iter) as [Hlt|Hge]; [lia|]. exists t, w, q, u. split.
    + cbn [kpls_while]. rewrite (proj2 (Z.ltb_ge it max_iter)) by lia. rewrite andb_false_r. reflexivity.
    + destruct Hcase as [Hcase|Hcase]; [exact Hcase|]. rewrite andb_false_r in Hcase. discriminate.
  - rewrite while_pass. destruct (nltb tol ch && (it <? max_iter)%Z) eqn:E.
    + apply andb_true_iff in E as (_ & E). apply Z.ltb_lt in E. cbv zeta. apply IH; [lia|lia|]. left. split; [|split].
      * exists u. reflexivity.
      * reflexivity.
      * reflexivity.
    + exists t, w, q, u. split; [reflexivity|]. destruct Hcase as [Hcase|Hcase]; [exact Hcase|discriminate].
Qed.

Definition proj (t : nat -> R) := one_less t t.
Variable (K0 Yc : nat -> nat -> R).
Definition sums_zero (K : nat -> nat -> R) : Prop := forall j, (j < n)%nat -> sumn n (fun i => K i j) = 0.
Hypothesis HK0 : sums_zero K0.

(** the state before component k *)
Definition inv (k : nat) (st : @kpls_state R) : Prop :=
  exists K Y t w q Tm U Q,
    st = ((mk n n K, mk n c Y), (vec t, vec w, cvec q), (mk n a Tm, mk n a U, mk n a (fun _ _ => 0), mk c a Q)) /\
    (nltb tol (nmul tol (nofZ 10)) && (0 <? max_iter)%Z = false ->
      (forall i, (i < n)%nat -> t i = 0) /\ (forall i, (i < n)%nat -> w i = 0) /\ (forall j, (j < c)%nat -> q j = 0) /\
      (forall i l, (i < n)%nat -> (l < k)%nat -> Tm i l = 0)) /\
    sums_zero K /\
    (forall l, (l < k)%nat -> (sumn n (fun i => Tm i l * Tm i l) = 1 \/ forall i, (i < n)%nat -> Tm i l = 0)) /\
    (forall l m, (l < k)%nat -> (m < k)%nat -> l <> m -> sumn n (fun i => Tm i l * Tm i m) = 0) /\
    (forall l, (l < k)%nat -> sumn n (fun i => Tm i l) = 0) /\
    (forall l j, (l < k)%nat -> (j < n)%nat -> sumn n (fun i => Tm i l * K i j) = 0) /\
    (forall l i, (l < k)%nat -> (i < n)%nat -> sumn n (fun j => K i j * Tm j l) = 0) /\
    (forall l j, (l < k)%nat -> (j < c)%nat -> Q j l = sumn n (fun i => Yc i j * Tm i l)) /\
    (forall i j, (i < n)%nat -> (j < c)%nat -> Y i j = Yc i j - sumn k (fun l => Tm i l * Q j l)).

Lemma step_inv k st : (k < a)%nat -> inv k st -> exists st', kpls_step rnd tol max_iter n (mk n n dlt) st k = Ok st' /\ inv (S k) st'.
Proof.
  intros Hk (K & Y & t0 & w0 & q0 & Tm & U & Q & -> & Hidle & HK & Hun & Hor & Hts & HtK & HKt & HQ & HY).
  set (b := nltb tol (nmul tol (nofZ 10)) && (0 <? max_iter)%Z) in *.
  assert (Hgo : comp K Y t0 w0 q0 \/ b = true).
  { destruct b; [right; reflexivity|left]. destruct (Hidle eq_refl) as (H1 & H2 & H3 & _). split; [|split].
    - exists (fun _ => 0). intros i Hi. rewrite H1 by exact Hi. unfold nrm. rewrite (sumn_ext n (fun j => K i j * 0) (fun _ => 0)) by (intros; ring). rewrite sum0. unfold Rdiv. ring.
    - intros i Hi. now rewrite H1, H2.
    - intros j Hj. rewrite H3 by exact Hj. symmetry. rewrite (sumn_ext n _ (fun _ => 0)); [apply sum0|]. intros i Hi. rewrite H1 by exact Hi. ring. }
  destruct (while_run K Y (Z.to_nat max_iter) t0 w0 q0 (r k) (nmul tol (nofZ 10)) 0 ltac:(lia) ltac:(lia) Hgo) as (t & w & q & u & Ew & ((u0 & Ht) & Hw & Hq)).
  assert (Hid' : b = false -> (forall i, (i < n)%nat -> t i = 0) /\ (forall j, (j < c)%nat -> q j = 0)).
  { intros Eb. destruct (Hidle Eb) as (H1 & H2 & H3 & _). assert (E : kpls_while (Z.to_nat max_iter) tol max_iter (mk n n K) (mk n c Y) (vec t0) (vec w0) (cvec q0) (vec (r k)) (nmul tol (nofZ 10)) 0 = Ok (vec t0, vec w0, cvec q0, vec (r k))).
    { unfold b in Eb. destruct (Z.to_nat max_iter); cbn [kpls_while]; rewrite Eb; reflexivity. }
    rewrite Ew in E. apply Ok4 in E as (E1 & _ & E3 & _). split.
    - intros i Hi. pose proof (mk_inj_entry n 1 _ _ E1 i 0 Hi ltac:(lia)) as E'. cbv beta in E'. rewrite E'. now apply H1.
    - intros j Hj. pose proof (mk_inj_entry c 1 _ _ E3 j 0 Hj ltac:(lia)) as E'. cbv beta in E'. rewrite E'. now apply H3. }
  set (v := fun l => sumn n (fun j => K l j * u0 j)) in *.
  assert (Hperp : forall z : nat -> R, (forall j, (j < n)%nat -> sumn n (fun i => z i * K i j) = 0) -> sumn n (fun i => z i * t i) = 0).
  { intros z Hz. rewrite (sumn_ext n _ (fun i => sumn n (fun j => z i * K i j * u0 j * / sqrt (sumn n (fun l => v l * v l))))).
    2:{ intros i Hi. rewrite Ht by exact Hi. unfold nrm, v at 1, Rdiv. rewrite <- sumR_scal_r, <- sumR_scal. apply sumn_ext. intros; ring. }
    rewrite (sumR_swap n n). rewrite (sumn_ext n _ (fun _ => 0)); [apply sum0|]. intros j Hj. rewrite !sumR_scal_r, Hz by exact Hj. ring. }
  assert (Ht1 : sumn n (fun i => t i) = 0).
  { rewrite (sumn_ext n _ (fun i => 1 * t i)) by (intros; ring). apply Hperp. intros j Hj. rewrite (sumn_ext n _ (fun i => K i j)) by (intros; ring). now apply HK. }
  assert (Htt : sumn n (fun i => t i * t i) = 1 \/ forall i, (i < n)%nat -> t i = 0).
  { destruct (unit_or_zero n v) as [E|E].
    - left. rewrite <- E. apply sumn_ext. intros i Hi. rewrite Ht by exact Hi. reflexivity.
    - right. intros i Hi. rewrite Ht by exact Hi. apply (E i Hi). }
  assert (Hlt : forall l, (l < k)%nat -> sumn n (fun i => Tm i l * t i) = 0).
  { intros l Hl. apply Hperp. intros j Hj. now apply HtK. }
  set (K' := sandwich n (proj t) K (proj t)).
  assert (Hleft : forall z : nat -> R, sumn n (fun i => z i * t i) = 0 -> (forall j, (j < n)%nat -> sumn n (fun i => z i * K i j) = 0) -> forall j, sumn n (fun i => z i * K' i j) = 0).
  { intros z H1 H2 j. unfold K'. rewrite sandwich_l. rewrite (sumn_ext n _ (fun _ => 0)); [apply sum0|]. intros m Hm.
    rewrite (sumn_ext n _ (fun i => z i * K i m)). 2:{ intros i Hi. unfold proj. rewrite one_less_l by exact Hi. rewrite H1. ring. } rewrite H2 by exact Hm. ring. }
  assert (Hself : forall i, (i < n)%nat -> t i - sumn n (fun i => t i * t i) * t i = 0).
  { intros i Hi. destruct Htt as [E|E]; [rewrite E; ring|rewrite E by exact Hi; ring]. }
  assert (HtK' : forall j, sumn n (fun i => t i * K' i j) = 0).
  { intros j. unfold K'. rewrite sandwich_l. rewrite (sumn_ext n _ (fun _ => 0)); [apply sum0|]. intros m Hm. rewrite (sumn_ext n _ (fun _ => 0)); [rewrite sum0; ring|].
    intros i Hi. unfold proj. rewrite one_less_l by exact Hi. rewrite Hself by exact Hi. ring. }
  assert (HK't : forall i, (i < n)%nat -> sumn n (fun j => K' i j * t j) = 0).
  { intros i Hi. unfold K'. rewrite sandwich_r. rewrite (sumn_ext n _ (fun _ => 0)); [apply sum0|]. intros m Hm. rewrite (sumn_ext n _ (fun _ => 0)); [rewrite sum0; ring|].
    intros j Hj. unfold proj. rewrite one_less_r by exact Hj. rewrite (Rmult_comm (t j) (sumn n _)). rewrite Hself by exact Hj. ring. }
  assert (Eq : forall j, (j < c)%nat -> q j = sumn n (fun i => Yc i j * t i)).
  { intros j Hj. rewrite Hq by exact Hj. rewrite (sumn_ext n _ (fun i => Yc i j * t i - sumn k (fun l => Tm i l * t i * Q j l))).
    2:{ intros i Hi. rewrite HY by assumption. rewrite (sumn_ext k (fun l => Tm i l * t i * Q j l) (fun l => Tm i l * Q j l * t i)) by (intros; ring). rewrite sumR_scal_r. ring. }
    rewrite sumR_minus, (sumR_swap n k). rewrite (sumn_ext k _ (fun _ => 0)); [rewrite sum0; ring|]. intros l Hl. rewrite sumR_scal_r, Hlt by exact Hl. ring. }
  eexists. split.
  - unfold kpls_step. rewrite Hr, Ew, bind_Ok, transpose_mk, mul_mk, bind_Ok, sub_mk, bind_Ok, mul_mk, bind_Ok, mul_mk, bind_Ok, transpose_mk, mul_mk, bind_Ok, sub_mk, bind_Ok, transpose_mk, mul_mk, bind_Ok.
    rewrite transpose_mk, mul_mk, bind_Ok, as_real_mk, bind_Ok, div_scalar_mk. unfold zn. do 4 (rewrite set_column_mk by exact Hk; rewrite bind_Ok). reflexivity.
  - exists K', (fun i j => Y i j - t i * q j), t, w, q, (fun i j => if (j =? k)%nat then t i else Tm i j), (fun i j => if (j =? k)%nat then u i else U i j), (fun i j => if (j =? k)%nat then q i else Q i j).
    assert (EK : mk n n K' = mk n n (fun i j => sumn n (fun b => sumn n (fun a => (dlt i a - sumn 1 (fun k => t i * t a)) * K a b) * (dlt b j - sumn 1 (fun k => t b * t j))))).
    { apply mk_ext. intros i j Hi Hj. unfold K', sandwich. apply sumn_ext. intros m Hm. rewrite sum1. unfold proj, one_less. f_equal. apply sumn_ext. intros; now rewrite sum1. }
    split; [|].
    { apply f_equal2; [apply f_equal2; [apply f_equal2|]|].
      - rewrite EK. reflexivity.
      - apply mk_ext. intros i j Hi Hj. cbn [nsub nmul NumR]. rewrite sum1. reflexivity.
      - reflexivity.
      - apply f_equal2; [apply f_equal2; [apply f_equal2|]|]; try reflexivity.
        apply mk_ext. intros i j Hi Hj. destruct (j =? k)%nat; [|reflexivity]. cbn [nsub nmul ndiv nadd NumR].
        rewrite (sumn_ext n (fun k0 => sumn n _ * w k0) (fun i0 => t i0 * K' i0 i)).
        2:{ intros i0 Hi0. rewrite Hw by exact Hi0. rewrite (mk_inj_entry n n _ _ EK i0 i Hi0 Hi). cbn [nsub nmul NumR]. ring. }
        rewrite HtK'. unfold Rdiv. ring. }
    assert (Hcase : forall l, (l < S k)%nat -> ((l =? k)%nat = true /\ l = k) \/ ((l =? k)%nat = false /\ (l < k)%nat)).
    { intros l Hl. destruct (Nat.eqb_spec l k); [left; auto|right; split; [reflexivity|lia]]. }
    split; [|split; [|split; [|split; [|split; [|split; [|split; [|split]]]]]]].
    + intros Eb. destruct (Hid' Eb) as (H1 & H2). split; [exact H1|]. split; [|split; [exact H2|]].
      * intros i Hi. rewrite Hw by exact Hi. now apply H1.
      * intros i l Hi Hl. destruct (Hcase l Hl) as [(-> & _)|(-> & Hl')]; [now apply H1|]. now apply (Hidle Eb).
    + intros j Hj. rewrite (sumn_ext n _ (fun i => 1 * K' i j)) by (intros; ring). apply (Hleft (fun _ => 1)).
      * rewrite (sumn_ext n _ (fun i => t i)) by (intros; ring). exact Ht1.
      * intros m Hm. rewrite (sumn_ext n _ (fun i => K i m)) by (intros; ring). now apply HK.
    + intros l Hl. destruct (Hcase l Hl) as [(-> & _)|(-> & Hl')]; [exact Htt|now apply Hun].
    + intros l m Hl Hm Hne. destruct (Hcase l Hl) as [(-> & El)|(-> & Hl')], (Hcase m Hm) as [(-> & Em)|(-> & Hm')].
      * congruence.
      * rewrite (sumn_ext n _ (fun i => Tm i m * t i)) by (intros; ring). now apply Hlt.
      * now apply Hlt.
      * now apply Hor.
    + intros l Hl. destruct (Hcase l Hl) as [(-> & _)|(-> & Hl')]; [exact Ht1|now apply Hts].
    + intros l j Hl Hj. destruct (Hcase l Hl) as [(-> & _)|(-> & Hl')]; [apply HtK'|]. apply (Hleft (fun i => Tm i l)); [now apply Hlt|]. intros m Hm. now apply HtK.
    + intros l i Hl Hi. destruct (Hcase l Hl) as [(-> & _)|(-> & Hl')]; [now apply HK't|].
      unfold K'. rewrite sandwich_r. rewrite (sumn_ext n _ (fun _ => 0)); [apply sum0|]. intros m Hm.
      rewrite (sumn_ext n _ (fun j => K m j * Tm j l)). 2:{ intros j Hj. unfold proj. rewrite one_less_r by exact Hj. rewrite (sumn_ext n (fun j0 => t j0 * Tm j0 l) (fun j0 => Tm j0 l * t j0)) by (intros; ring). rewrite Hlt by exact Hl'. ring. }
      rewrite HKt by assumption. ring.
    + intros l j Hl Hj. destruct (Hcase l Hl) as [(-> & _)|(-> & Hl')]; [now apply Eq|now apply HQ].
    + intros i j Hi Hj. rewrite sumR_S, Nat.eqb_refl, HY by assumption. rewrite (sumn_ext k (fun l => (if (l =? k)%nat then t i else Tm i l) * (if (l =? k)%nat then q j else Q j l)) (fun l => Tm i l * Q j l)); [ring|].
      intros l Hl. rewrite (proj2 (Nat.eqb_neq l k)) by lia. reflexivity.
Qed.

Lemma loop_inv Y0 : (forall i j, (i < n)%nat -> (j < c)%nat -> Y0 i j = Yc i j) ->
  exists st, for_range a (kpls_step rnd tol max_iter n (mk n n dlt))
    ((mk n n K0, mk n c Y0), (vec (fun _ => 0), vec (fun _ => 0), cvec (fun _ => 0)), (mk n a (fun _ _ => 0), mk n a (fun _ _ => 0), mk n a (fun _ _ => 0), mk c a (fun _ _ => 0))) = Ok st /\ inv a st.
Proof.
  intros HY0. apply (for_range_inv inv).
  - exists K0, Y0, (fun _ => 0), (fun _ => 0), (fun _ => 0), (fun _ _ => 0), (fun _ _ => 0), (fun _ _ => 0). split; [reflexivity|].
    split; [repeat split; try reflexivity; intros; lia|]. split; [exact HK0|]. repeat (split; [intros; lia|]).
    intros i j Hi Hj. rewrite sumR_0, HY0 by assumption. ring.
  - intros k st Hk Hst. now apply step_inv.
Qed.
End KPLS.

(** Centring a kernel matrix from both sides *)
Definition cen (n : nat) : nat -> nat -> R := one_less (fun _ => 1) (fun _ => / INR n).
Lemma cen_sum n j : n <> 0%nat -> (j < n)%nat -> sumn n (fun i => cen n i j) = 0.
Proof.
  intros Hn Hj. rewrite (sumn_ext n _ (fun i => 1 * one_less (fun _ => 1) (fun _ => / INR n) i j)) by (intros; unfold cen; ring).
  rewrite (one_less_l n _ _ (fun _ => 1)) by exact Hj. rewrite (sumn_ext n _ (fun _ => 1)) by (intros; ring). rewrite sumR_const. apply not_0_INR in Hn. field. exact Hn.
Qed.
Lemma cen_keep n (v : nat -> R) j : (j < n)%nat -> sumn n (fun i => v i) = 0 -> sumn n (fun i => v i * cen n i j) = v j.
Proof.
  intros Hj Hv. unfold cen. rewrite one_less_l by exact Hj. rewrite (sumn_ext n _ (fun i => v i)) by (intros; ring). rewrite Hv. ring.
Qed.
Definition kcentred (n : nat) (K : nat -> nat -> R) : nat -> nat -> R := sandwich n (cen n) K (cen n).
Lemma kcentred_sums n K j : n <> 0%nat -> sumn n (fun i => kcentred n K i j) = 0.
Proof.
  intros Hn. rewrite (sumn_ext n _ (fun i => 1 * kcentred n K i j)) by (intros; ring). unfold kcentred. rewrite (sandwich_l n _ _ _ (fun _ => 1)).
  rewrite (sumn_ext n _ (fun _ => 0)); [apply sum0|]. intros b Hb. rewrite (sumn_ext n _ (fun _ => 0)); [rewrite sum0; ring|]. intros x Hx.
  rewrite (sumn_ext n _ (fun i => cen n i x)) by (intros; ring). rewrite cen_sum by assumption. ring.
Qed.
Lemma INR_nofZ n : nofZ (zn n) = INR n. Proof. cbn [nofZ NumR]. unfold zn. now rewrite <- INR_IZR_INZ. Qed.
(** centring fails on a matrix of another size *)
Lemma centralize_train_run n (K : mat R) : nr K = n -> nc K = n -> centralize_train n K = Ok (mk n n (kcentred n (entry K))).
Proof.
  intros H1 H2. unfold centralize_train. rewrite eye_nn, bind_Ok. change 1%Z with (Z.of_nat 1). unfold zn. rewrite filled_mk, bind_Ok, transpose_mk, mul_mk, bind_Ok, div_scalar_mk, sub_mk, bind_Ok.
  set (C := mk n n _). assert (EC : C = mk n n (cen n)).
  { apply mk_ext. intros i j Hi Hj. cbn [nmul nsub ndiv n1 NumR]. rewrite sum1. fold (zn n). rewrite INR_nofZ. unfold cen, one_less, Rdiv. ring. }
  rewrite EC. assert (EK : mul (mk n n (cen n)) K = Ok (mk n n (fun i j => sumn n (fun k => cen n i k * entry K k j)))).
  { unfold mul, is_multiplicable_with, matmul. change (nc (mk n n (cen n))) with n. change (nr (mk n n (cen n))) with n. rewrite H1, H2, Nat.eqb_refl. cbn [negb]. f_equal.
    apply mk_ext. intros i j Hi Hj. apply sumn_ext. intros k Hk. now rewrite entry_mk. }
  rewrite EK, bind_Ok, mul_mk. reflexivity.
Qed.
Lemma centralize_train_ok n (K K' : mat R) : centralize_train n K = Ok K' -> nr K = n /\ nc K = n.
Proof.
  unfold centralize_train. rewrite eye_nn, bind_Ok. change 1%Z with (Z.of_nat 1). unfold zn. rewrite filled_mk, bind_Ok, transpose_mk, mul_mk, bind_Ok, div_scalar_mk, sub_mk, bind_Ok.
  unfold mul at 1. unfold is_multiplicable_with. cbn [nc mk]. destruct (Nat.eqb_spec n (nr K)) as [E|E]; cbn [negb bind]; [|discriminate].
  unfold mul, is_multiplicable_with, matmul. cbn [nc nr mk]. destruct (Nat.eqb_spec (nc K) n) as [E'|E']; cbn [negb]; [|discriminate]. auto.
Qed.
(** the matrix subtracted from the kernel of the new data is zero: its columns sum an already centred matrix *)
Lemma centralize_test_run n m (K0 : nat -> nat -> R) (K : mat R) : n <> 0%nat -> sums_zero n K0 -> nr K = m -> nc K = n ->
  centralize_test n (mk n n K0) K = Ok (mk m n (fun i j => sumn n (fun b => entry K i b * cen n b j))).
Proof.
  intros Hn H0 H1 H2. unfold centralize_test. rewrite eye_nn, bind_Ok, H1. unfold zn. rewrite filled_mk, bind_Ok, filled_mk, bind_Ok, mul_mk, bind_Ok.
  assert (ES : sub K (mk m n (fun i j => sumn n (fun k => nmul (ndiv n1 (nofZ (Z.of_nat n))) (K0 k j)))) = Ok (mk m n (entry K))).
  { unfold sub. rewrite must_be_same_shape_eq. unfold same_shape_as. change (nr (mk m n _)) with m. change (nc (mk m n _)) with n. rewrite H1, H2, !Nat.eqb_refl. cbn [andb bind].
    f_equal. unfold map2_mat. rewrite H1, H2. apply mk_ext. intros i j Hi Hj. rewrite entry_mk by assumption. cbn [nmul nsub ndiv n1 NumR]. rewrite sumR_scal, (H0 j Hj). ring. }
  rewrite ES, bind_Ok, sub_mk, bind_Ok, mul_mk. f_equal. apply mk_ext. intros i j Hi Hj. apply sumn_ext. intros b Hb. cbn [nmul nsub ndiv n1 NumR]. f_equal. fold (zn n). rewrite INR_nofZ. unfold cen, one_less, Rdiv. ring.
Qed.
Lemma centralize_test_ok n (K0 K K' : mat R) : nr K0 = n -> nc K0 = n -> centralize_test n K0 K = Ok K' -> nc K = n.
Proof.
  intros H1 H2. unfold centralize_test. rewrite eye_nn, bind_Ok. unfold zn. rewrite filled_mk, bind_Ok, filled_mk, bind_Ok. unfold mul at 1, is_multiplicable_with. change (nc (mk (nr K) n _)) with n. rewrite H1, Nat.eqb_refl. cbn [negb]. rewrite bind_Ok.
  unfold sub at 1. rewrite must_be_same_shape_eq. unfold same_shape_as, matmul. cbn [nr nc mk]. rewrite H2. destruct (Nat.eqb_spec (nc K) n) as [E|E]; [auto|]. rewrite andb_false_r. discriminate.
Qed.

(** The trained model, when the kernel answers with an n x n matrix *)
Section Fit.
Context {KS : Type} (lstsq : mat R -> mat R -> res (mat R)) (rnd : Z -> nat -> mat R) (kernel0 : KS) (kapply : KS -> mat R -> option (mat R) -> KS * res (mat R)).
(** factory.randn(n, 1, seed) is an n x 1 matrix *)
Definition column_source : Prop := forall k n, exists f, rnd k n = mk n 1 f.
Hypothesis Hrnd : column_source.

Definition regression_matrix (n : nat) (K0 Tm U : nat -> nat -> R) (k l : nat) : R := sumn n (fun j => sumn n (fun i => Tm i k * K0 i j) * U j l).
Definition score_facts (n c a : nat) (tol : R) (max_iter : Z) (Yc Kd Tm Q : nat -> nat -> R) : Prop :=
  (nltb tol (nmul tol (nofZ 10)) && (0 <? max_iter)%Z = false -> forall i k, (i < n)%nat -> (k < a)%nat -> Tm i k = 0) /\
  (forall l, (l < a)%nat -> (sumn n (fun i => Tm i l * Tm i l) = 1 \/ forall i, (i < n)%nat -> Tm i l = 0)) /\
  (forall l m, (l < a)%nat -> (m < a)%nat -> l <> m -> sumn n (fun i => Tm i l * Tm i m) = 0) /\
  (forall l, (l < a)%nat -> sumn n (fun i => Tm i l) = 0) /\
  (forall l j, (l < a)%nat -> (j < n)%nat -> sumn n (fun i => Tm i l * Kd i j) = 0) /\
  (forall l i, (l < a)%nat -> (i < n)%nat -> sumn n (fun j => Kd i j * Tm j l) = 0) /\
  (forall l j, (l < a)%nat -> (j < c)%nat -> Q j l = sumn n (fun i => Yc i j * Tm i l)).
Lemma kpls_fit_run n p c a ks ks' (K : mat R) tol max_iter (Xc Yc : nat -> nat -> R) : n <> 0%nat -> c <> 0%nat ->
  kapply ks (mk n p Xc) None = (ks', Ok K) -> nr K = n -> nc K = n ->
  let K0 := kcentred n (entry K) in
  exists Kd Tm U Q, score_facts n c a tol max_iter Yc Kd Tm Q /\
    kpls_fit lstsq rnd kapply (zn a) ks tol max_iter (mk n p Xc) (mk n c Yc) =
    (ks', do inv <- minverse lstsq (mk a a (regression_matrix n K0 Tm U));
          do B_RHS <- mul inv (mk a c (fun k j => Q j k));
          Ok (KplsModel (mk n n K0) (mk n n Kd) (mk n a Tm) (mk n a U) (mk n a (fun _ _ => 0)) (mk c a Q) B_RHS (mk n p Xc))).
Proof.
  intros Hn Hc HK K1 K2 K0.
  assert (Hr : exists r : nat -> nat -> R, forall k, rnd (zn k) n = mk n 1 (fun i _ => r k i)).
  { exists (fun k i => entry (rnd (zn k) n) i 0). intros k. destruct (Hrnd (zn k) n) as (f & ->). apply mk_ext. intros i j Hi Hj. assert (j = 0%nat) by lia. subst j. now rewrite entry_mk by (exact Hi || lia). }
  destruct Hr as (r & Hr).
  assert (HK0 : sums_zero n K0) by (intros j Hj; now apply kcentred_sums).
  destruct (loop_inv n c a Hn Hc rnd tol max_iter r Hr K0 Yc HK0 Yc ltac:(reflexivity)) as (st & Est & (Kd & Y' & t & w & q & Tm & U & Q & -> & Hidle & _ & H1 & H2 & H3 & H4 & H5 & H6 & _)).
  exists Kd, Tm, U, Q. split.
  - split; [|repeat split; assumption]. intros E i k Hi Hk. now apply (Hidle E).
  - unfold kpls_fit. change (nr (mk n p Xc)) with n. change (nc (mk n c Yc)) with c. rewrite eye_nn, HK. f_equal. rewrite bind_Ok, centralize_train_run by assumption. rewrite bind_Ok. fold K0.
    unfold zn at 1. rewrite Nat2Z.id. change 1%Z with (Z.of_nat 1). unfold zn at 1 2 3 4 5 6 7 8 9 10 11. rewrite !zeros_mk by assumption. cbn [n0 NumR]. rewrite Est, bind_Ok. rewrite !transpose_mk, mul_mk, bind_Ok, mul_mk, bind_Ok. reflexivity.
Qed.

Lemma multi_training_result {A Key : Type} (cl : pls_class A Key R) (s0 : pls_st A R) (X Y : mat R) own r lo :
  c_arity cl = Multi lo (-1) -> (lo <= Z.of_nat (nc Y))%Z -> p_preprocessing s0 = PP_NONE -> nc Y <> 0%nat ->
  c_train cl (p_num_components s0) (c_reset cl (p_own s0)) X Y = (own, r) -> snd (initialize cl s0 (Some X) (Some Y)) = r.
Proof.
  intros Ha Hlo Hpp Hc Htr. unfold initialize, check_data. rewrite Ha. destruct (Z.ltb_spec (Z.of_nat (nc Y)) lo); [lia|]. cbn [Z.eqb negb andb]. unfold do_initialize. cbn [reset p_preprocessing]. rewrite Hpp. unfold prepare. rewrite Ha.
  rewrite (proj1 (prep_multi_spec Y Hc)). cbn [pt_fit]. cbn [set_prep p_num_components p_own reset]. rewrite Htr. destruct r as [[m|]|e]; reflexivity.
Qed.
Notation kp := (kernel_pls lstsq rnd kernel0 kapply).
Definition score_predictions (n c a m : nat) (Kt U B : nat -> nat -> R) (i j : nat) : R :=
  sumn a (fun l => sumn n (fun b => sumn n (fun x => Kt i x * cen n x b) * U b l) * B l j).
Lemma kpls_predict_run (X Y Z : mat R) n p c a ks ks' tol it (K0 Xc U B : nat -> nat -> R) Kd Tm P Q (Kt : mat R) :
  n <> 0%nat -> sums_zero n K0 -> nc X = p -> nc Y = c -> nc Z = p ->
  kapply ks (mk (nr Z) p (fun i j => entry Z i j - Rmean (nr X) (fun k => entry X k j))) (Some (mk n p Xc)) = (ks', Ok Kt) -> nr Kt = nr Z -> nc Kt = n ->
  let own := Kpls ks tol it (center_conf X) (center_conf Y) (Some (KplsModel (mk n n K0) Kd Tm (mk n a U) P Q (mk a c B) (mk n p Xc))) in
  snd (kpls_transform kapply own Z) = Ok (mk (nr Z) a (fun i l => sumn n (fun b => sumn n (fun x => entry Kt i x * cen n x b) * U b l))) /\
  snd (kpls_predict kapply own Z) = Ok (mk (nr Z) c (fun i j => score_predictions n c a (nr Z) (entry Kt) U B i j + Rmean (nr Y) (fun k => entry Y k j))).
Proof.
  intros Hn HK0 EX EY EZ Ek E1 E2 own. 
  assert (Et : kpls_transform kapply own Z = (Kpls ks' tol it (center_conf X) (center_conf Y) (kp_model own), Ok (mk (nr Z) a (fun i l => sumn n (fun b => sumn n (fun x => entry Kt i x * cen n x b) * U b l))))).
  { unfold kpls_transform, own. cbn [kp_center_X kp_center_Y kp_kernel kp_tol kp_max_iter kp_model km_X km_K_orig km_U]. rewrite t_transform_center_conf, center_do, EZ, EX, Nat.eqb_refl.
    set (Zc := mk (nr Z) p (fun i j => nsub (entry Z i j) _)). assert (EZc : Zc = mk (nr Z) p (fun i j => entry Z i j - Rmean (nr X) (fun k => entry X k j))).
    { apply mk_ext. intros i j Hi Hj. now rewrite Rmean_np. }
    rewrite EZc, Ek, bind_Ok. f_equal. change (nr (mk n p Xc)) with n. rewrite (centralize_test_run n (nr Z)) by assumption. rewrite bind_Ok, mul_mk. reflexivity. }
  rewrite Et. split; [reflexivity|]. unfold kpls_predict. rewrite Et. rewrite bind_Ok. cbn [kp_model own need bind km_B_RHS kp_center_Y]. rewrite mul_mk. unfold t_inverse. cbn [kp_center_Y t_configured center center_conf ce_configured negb].
  fold (center_conf (T:=R) Y). rewrite center_undo. change (nc (mk (nr Z) c _)) with c. change (nr (mk (nr Z) c _)) with (nr Z). rewrite EY, Nat.eqb_refl. cbn [snd]. f_equal. apply mk_ext. intros i j Hi Hj. rewrite entry_mk by assumption. rewrite Rmean_np. reflexivity.
Qed.

Lemma kpls_train_eq num (own : @kpls_st R KS) (X Y : mat R) :
  c_train kp num (c_reset kp own) X Y =
    (let (ks, r) := kpls_fit lstsq rnd kapply num (kp_kernel own) (kp_tol own) (kp_max_iter own) (mk (nr X) (nc X) (centred X)) (mk (nr Y) (nc Y) (centred Y)) in
     match r with
     | Err e => (Kpls ks (kp_tol own) (kp_max_iter own) (center_conf X) (center_conf Y) None, Err e)
     | Ok m => (Kpls ks (kp_tol own) (kp_max_iter own) (center_conf X) (center_conf Y) (Some m), Ok None)
     end).
Proof.
  cbn [kernel_pls c_train c_reset]. unfold kpls_train. cbn [kp_center_X kp_center_Y kp_kernel kp_tol kp_max_iter kp_model]. rewrite !center_first. reflexivity.
Qed.
Lemma kpls_fit_ok num ks tol it (X Y : mat R) ks' m : kpls_fit lstsq rnd kapply num ks tol it X Y = (ks', Ok m) ->
  exists K, kapply ks X None = (ks', Ok K) /\ nr K = nr X /\ nc K = nr X.
Proof.
  unfold kpls_fit. rewrite eye_nn. destruct (kapply ks X None) as (ks1 & [K|e]); cbn [bind]; intros E; [|discriminate]. injection E as -> E.
  destruct (centralize_train (nr X) K) as [K'|e] eqn:EC; [|discriminate]. destruct (centralize_train_ok _ _ _ EC). eauto.
Qed.
(** a zero score makes the matrix that is inverted singular *)
Lemma inverse_rows a (M inv : mat R) : wf M -> nr M = a -> nc M = a -> minverse lstsq M = Ok inv ->
  inv = mk a a (entry inv) /\ (forall i j, (i < a)%nat -> (j < a)%nat -> sumn a (fun k => entry M i k * entry inv k j) = dlt i j).
Proof.
  intros W R1 C1 E. unfold minverse in E. destruct (C61_inverse lstsq M W ltac:(congruence)) as (I1 & I2).
  destruct I2 as (M' & EM' & WM & M1 & M2 & HM). { intros Hsing. rewrite (I1 Hsing) in E. discriminate. }
  rewrite E in EM'. injection EM' as <-. rewrite R1 in *. rewrite C1 in *. split; [rewrite (wf_mk inv WM) at 1; now rewrite M1, M2|].
  intros i j Hi Hj. destruct (HM i j Hi Hj) as (H1 & _). now rewrite Rsum_sumn in H1.
Qed.

(** * C71: after any successful training KernelPLS's scores are orthonormal and sum to zero, the deflated kernel
    matrix is orthogonal to them from both sides, Q is Y^T T, and the predictions for the training data leave
    residuals orthogonal to every score.  Nothing is assumed about the kernel except that, for the last
    claim, apply_matrix(X, X) after training answers as apply_matrix(X) did.  (P is all zero, see C74.) *)
Theorem C71_kernel_pls (s0 s : pls_st (@kpls_st R KS) R) (X Y : mat R) (a : nat) : wf X -> wf Y -> nr X = nr Y -> nr X <> 0%nat -> nc Y <> 0%nat ->
  p_preprocessing s0 = PP_NONE -> p_num_components s0 = Z.of_nat a -> initialize kp s0 (Some X) (Some Y) = (s, Ok None) ->
  exists m, kp_model (p_own s) = Some m /\
    let n := nr X in let T := entry (km_T m) in let K := entry (km_K_deflated m) in
    (nr (km_T m) = n /\ nc (km_T m) = a /\ nr (km_K_deflated m) = n /\ nc (km_K_deflated m) = n /\ nr (km_Q m) = nc Y /\ nc (km_Q m) = a) /\
    (forall k l, (k < a)%nat -> (l < a)%nat -> Rsum n (fun i => T i k * T i l) = if (k =? l)%nat then 1 else 0) /\
    (forall k, (k < a)%nat -> Rsum n (fun i => T i k) = 0) /\
    (forall k j, (k < a)%nat -> (j < n)%nat -> Rsum n (fun i => T i k * K i j) = 0 /\ Rsum n (fun i => K j i * T i k) = 0) /\
    (forall j k, (j < nc Y)%nat -> (k < a)%nat -> entry (km_Q m) j k = Rsum n (fun i => entry Y i j * T i k)) /\
    (snd (kapply (kp_kernel (p_own s)) (mk n (nc X) (centred X)) (Some (mk n (nc X) (centred X)))) = snd (kapply (kp_kernel (p_own s0)) (mk n (nc X) (centred X)) None) ->
     exists V, snd (predict kp s X) = Ok V /\ wf V /\ nr V = n /\ nc V = nc Y /\
       forall k j, (k < a)%nat -> (j < nc Y)%nat -> Rsum n (fun i => T i k * (entry V i j - entry Y i j)) = 0).
Proof.
  intros WX WY Hrows Hn Hc Hpp Ha Hi. set (n := nr X) in *. set (p := nc X) in *. set (c := nc Y) in *.
  pose proof (kpls_train_eq (p_num_components s0) (p_own s0) X Y) as Etr. rewrite <- Hrows in Etr. fold n p c in Etr. rewrite Ha in Etr.
  destruct (kpls_fit lstsq rnd kapply (Z.of_nat a) (kp_kernel (p_own s0)) (kp_tol (p_own s0)) (kp_max_iter (p_own s0)) (mk n p (centred X)) (mk n c (centred Y))) as (ks & [m|e]) eqn:Ef.
  2:{ rewrite <- Ha in Etr. pose proof (multi_training_result kp s0 X Y _ _ 1 eq_refl ltac:(lia) Hpp Hc Etr) as E. rewrite Hi in E. discriminate. }
  destruct (kpls_fit_ok _ _ _ _ _ _ _ _ Ef) as (K & EK & K1 & K2). change (nr (mk n p (centred X))) with n in K1, K2.
  destruct (kpls_fit_run n p c a _ _ K (kp_tol (p_own s0)) (kp_max_iter (p_own s0)) (centred X) (centred Y) Hn Hc EK K1 K2) as (Kd & Tm & U & Q & (_ & H1 & H2 & H3 & H4 & H5 & H6) & Ef').
  change (zn a) with (Z.of_nat a) in Ef'. rewrite Ef in Ef'. injection Ef' as Em. set (K0 := kcentred n (entry K)) in *. set (M := regression_matrix n K0 Tm U) in *.
  destruct (minverse lstsq (mk a a M)) as [inv|e] eqn:Einv; [|discriminate]. cbn [bind] in Em.
  destruct (inverse_rows a (mk a a M) inv (mk_wf _ _ _) eq_refl eq_refl Einv) as (Einv' & Hinv).
  rewrite Einv' in Em. rewrite mul_mk in Em. cbn [bind] in Em. injection Em as Em.
  rewrite <- Ha in Etr.
  destruct (multi_training_none kp s0 X Y _ 1 eq_refl ltac:(lia) Hpp Hc Etr) as (s' & Ei' & Eown & _ & _ & Hpred). rewrite Hi in Ei'. injection Ei' as <-.
  assert (HK0 : sums_zero n K0) by (intros j Hj; now apply kcentred_sums).
  assert (Hun : forall k, (k < a)%nat -> sumn n (fun i => Tm i k * Tm i k) = 1).
  { intros k Hk. destruct (H1 k Hk) as [E|E]; [exact E|]. exfalso. specialize (Hinv k k Hk Hk). unfold dlt in Hinv. rewrite Nat.eqb_refl in Hinv.
    rewrite (sumn_ext a _ (fun _ => 0)) in Hinv; [rewrite sum0 in Hinv; lra|]. intros l Hl. rewrite entry_mk by assumption. unfold M, regression_matrix.
    rewrite (sumn_ext n _ (fun _ => 0)); [rewrite sum0; ring|]. intros j Hj. rewrite (sumn_ext n _ (fun _ => 0)); [rewrite sum0; ring|]. intros i Hin. rewrite E by exact Hin. ring. }
  assert (Hmean : forall j k, (k < a)%nat -> sumn n (fun i => centred Y i j * Tm i k) = sumn n (fun i => entry Y i j * Tm i k)).
  { intros j k Hk. rewrite (sumn_ext n _ (fun i => entry Y i j * Tm i k - Rmean (nr Y) (fun k => entry Y k j) * Tm i k)) by (intros; unfold centred; ring).
    rewrite sumR_minus, sumR_scal, H3 by exact Hk. ring. }
  exists m. rewrite Eown. split; [reflexivity|]. rewrite Em. cbn [km_T km_K_deflated km_Q]. cbv zeta.
  split; [repeat split|]. split; [|split; [|split; [|split]]].
  - intros k l Hk Hl. rewrite Rsum_sumn. rewrite (sumn_ext n _ (fun i => Tm i k * Tm i l)) by (intros i Hin; now rewrite !entry_mk).
    destruct (Nat.eqb_spec k l) as [->|Hne]; [now apply Hun|now apply H2].
  - intros k Hk. rewrite Rsum_sumn. rewrite (sumn_ext n _ (fun i => Tm i k)) by (intros i Hin; now rewrite !entry_mk). now apply H3.
  - intros k j Hk Hj. rewrite !Rsum_sumn. split.
    + rewrite (sumn_ext n _ (fun i => Tm i k * Kd i j)) by (intros i Hin; now rewrite !entry_mk). now apply H4.
    + rewrite (sumn_ext n _ (fun i => Kd j i * Tm i k)) by (intros i Hin; now rewrite !entry_mk). now apply H5.
  - intros j k Hj Hk. rewrite entry_mk by assumption. rewrite H6, Hmean, Rsum_sumn by assumption. apply sumn_ext. intros i Hin. now rewrite entry_mk.
  - intros Hk. cbn [kp_kernel] in Hk. rewrite EK in Hk. cbn [snd] in Hk.
    destruct (kapply ks (mk n p (centred X)) (Some (mk n p (centred X)))) as (ks' & rK) eqn:Ek2. cbn [snd] in Hk. subst rK.
    destruct (kpls_predict_run X Y X n p c a ks ks' (kp_tol (p_own s0)) (kp_max_iter (p_own s0)) K0 (centred X) U
      (fun l j => sumn a (fun k => nmul (entry inv l k) (Q j k))) (mk n n Kd) (mk n a Tm) (mk n a (fun _ _ => 0)) (mk c a Q) K Hn HK0 eq_refl eq_refl eq_refl Ek2 K1 K2) as (_ & Ep).
    exists (mk n c (fun i j => score_predictions n c a n (entry K) U (fun l j => sumn a (fun k => nmul (entry inv l k) (Q j k))) i j + Rmean (nr Y) (fun k => entry Y k j))).
    rewrite Hpred, Em. cbn [kernel_pls c_predict]. split; [exact Ep|]. split; [apply mk_wf|]. split; [reflexivity|]. split; [reflexivity|].
    intros k j Hk Hj. rewrite Rsum_sumn.
    rewrite (sumn_ext n _ (fun i => Tm i k * score_predictions n c a n (entry K) U (fun l j => sumn a (fun k => entry inv l k * Q j k)) i j - centred Y i j * Tm i k)).
    2:{ intros i Hin. rewrite !entry_mk by assumption. unfold centred. cbn [nmul NumR]. ring. }
    rewrite sumR_minus, <- H6 by assumption. unfold score_predictions.
    (* T^T K C = T^T K0 *)
    assert (HTK : forall b, (b < n)%nat -> sumn n (fun i => Tm i k * sumn n (fun x => entry K i x * cen n x b)) = sumn n (fun i => Tm i k * K0 i b)).
    { intros b Hb. unfold K0, kcentred. rewrite (sandwich_l n _ _ _ (fun i => Tm i k)).
      rewrite (sumn_ext n _ (fun i => sumn n (fun x => Tm i k * entry K i x * cen n x b))). 2:{ intros i Hin. rewrite <- sumR_scal. apply sumn_ext. intros; ring. }
      rewrite (sumR_swap n n). apply sumn_ext. intros x Hx. rewrite sumR_scal_r. f_equal. apply sumn_ext. intros i Hin. f_equal. symmetry. exact (cen_keep n (fun i => Tm i k) i Hin (H3 k Hk)). }
    rewrite (sumn_ext n _ (fun i => sumn a (fun l => Tm i k * sumn n (fun b => sumn n (fun x => entry K i x * cen n x b) * U b l) * sumn a (fun k => entry inv l k * Q j k)))).
    2:{ intros i Hin. rewrite <- sumR_scal. apply sumn_ext. intros; ring. }
    rewrite (sumR_swap n a). rewrite (sumn_ext a _ (fun l => sumn a (fun x => M k l * entry inv l x * Q j x))).
    2:{ intros l Hl. rewrite sumR_scal_r. rewrite (sumn_ext a (fun x => M k l * entry inv l x * Q j x) (fun x => M k l * (entry inv l x * Q j x))) by (intros; ring). rewrite sumR_scal. f_equal.
        unfold M, regression_matrix. rewrite (sumn_ext n _ (fun i => sumn n (fun b => Tm i k * sumn n (fun x => entry K i x * cen n x b) * U b l))). 2:{ intros i Hin. rewrite <- sumR_scal. apply sumn_ext. intros; ring. }
        rewrite (sumR_swap n n). apply sumn_ext. intros b Hb. rewrite sumR_scal_r, HTK by exact Hb. reflexivity. }
    rewrite (sumR_swap a a). rewrite (sumn_ext a _ (fun x => dlt k x * Q j x)).
    2:{ intros x Hx. rewrite sumR_scal_r. f_equal. rewrite <- (Hinv k x Hk Hx). apply sumn_ext. intros l Hl. now rewrite entry_mk. }
    rewrite dlt_l by exact Hk. ring.
Qed.
End Fit.
Print Assumptions C71_kernel_pls.
