(** Property C61: inverse and solve. *)
From Coq Require Import List ZArith Lia Bool Arith Reals Lra.
From Verif Require Import Base Num Mat M_Matrix M_Factory M_Linalg S_Matrix L_Base L_Mat L_Matrix L_MatR L_Linalg P_Matrix.
Import ListNotations.
Local Open Scope R_scope.

(** A square matrix is singular when some non-zero vector is mapped to zero. *)
Definition singular (a : matR) : Prop :=
  exists v : nat -> R, (exists k, (k < nc a)%nat /\ v k <> 0) /\
    forall i, (i < nr a)%nat -> Rsum (nc a) (fun k => entry a i k * v k) = 0.

Lemma singular_kernel (a : matR) : nr a = nc a -> (singular a <-> ~ Kernel_trivial a).
Proof.
  intros Hsq. split.
  - intros (v & (k & Hk & Hv) & Hz) Q. apply Hv. apply Q; [|assumption]. intros i Hi. rewrite <- Rsum_sumn. auto.
  - intros Hk. destruct (gauss (nc a) (equations a (fun _ => 0))) as [z|] eqn:G.
    + exfalso. apply Hk. apply (gauss_defined a (fun _ => 0) Hsq). eauto.
    + destruct (gauss_none _ _ (equations_shaped a _ Hsq) G) as (v & Lv & (x & Hx & Hx0) & Hv).
      pose proof (proj1 (kernel_list a _ v Hsq Lv) Hv) as Hv2. apply In_nth with (d := 0) in Hx as (k & Hkl & E).
      exists (fun k => nth k v 0). split; [exists k; split; [lia|congruence]|]. intros i Hi. rewrite Rsum_sumn. auto.
Qed.

(** helper.solve: the solution when there is one, else the documented errors. *)
Theorem C61_solve (a b : matR) :
  (nr a <> nc a -> solve a b = Err LinAlgError) /\
  (nr a = nc a -> nr b <> nr a -> solve a b = Err ValueError) /\
  (nr a = nc a -> nr b = nr a -> singular a -> solve a b = Err LinAlgError) /\
  (nr a = nc a -> nr b = nr a -> ~ singular a ->
     exists x, solve a b = Ok x /\ wf x /\ nr x = nc a /\ nc x = nc b /\
       (forall i j, (i < nr a)%nat -> (j < nc b)%nat -> Rsum (nc a) (fun k => entry a i k * entry x k j) = entry b i j) /\
       (forall y, wf y -> nr y = nc a -> nc y = nc b ->
          (forall i j, (i < nr a)%nat -> (j < nc b)%nat -> Rsum (nc a) (fun k => entry a i k * entry y k j) = entry b i j) -> y = x)).
Proof.
  unfold solve. split; [|split; [|split]].
  - intros Q. unfold np_solve. apply Nat.eqb_neq in Q. now rewrite Q.
  - intros Q1 Q2. unfold np_solve. apply Nat.eqb_eq in Q1. apply Nat.eqb_neq in Q2. now rewrite Q1, Q2.
  - intros Q1 Q2 Q3. apply np_solve_singular; auto. now apply singular_kernel.
  - intros Q1 Q2 Q3. assert (Hk : Kernel_trivial a).
    { destruct (Kernel_trivial_dec a Q1) as [K|K]; [exact K|]. exfalso. apply Q3. now apply singular_kernel. }
    destruct (np_solve_ok a b Q1 Q2 Hk) as (x & E & Wx & X1 & X2 & Hx). exists x. split; [exact E|]. split; [exact Wx|]. split; [exact X1|]. split; [exact X2|].
    split; [intros i j Hi Hj; rewrite Rsum_sumn; auto|]. intros y Wy Y1 Y2 Hy. apply mat_ext; auto; try congruence. intros i j Hi Hj.
    enough (entry y i j - entry x i j = 0) by lra. apply (Hk (fun k => entry y k j - entry x k j)); [|congruence]. intros r Hr.
    specialize (Hx r j Hr ltac:(congruence)). specialize (Hy r j Hr ltac:(congruence)). rewrite Rsum_sumn in Hy.
    rewrite (sumn_ext _ _ (fun k => entry a r k * entry y k j - entry a r k * entry x k j)) by (intros; ring). rewrite sumR_minus. rewrite Hx, Hy. ring.
Qed.
(** Matrix.inverse on square matrices, with numpy.linalg.inv as modelled. *)
Theorem C61_inverse (lstsq : matR -> matR -> res matR) (m : matR) : wf m -> nr m = nc m ->
  (singular m -> inverse np_inv lstsq m = Err LinAlgError) /\
  (~ singular m -> exists x, inverse np_inv lstsq m = Ok x /\ wf x /\ nr x = nr m /\ nc x = nc m /\
     forall i j, (i < nr m)%nat -> (j < nr m)%nat ->
       Rsum (nr m) (fun k => entry m i k * entry x k j) = (if (i =? j)%nat then 1 else 0) /\
       Rsum (nr m) (fun k => entry x i k * entry m k j) = (if (i =? j)%nat then 1 else 0)).
Proof.
  intros Wm Hsq. unfold inverse, is_square. rewrite Hsq, Nat.eqb_refl. unfold np_inv. rewrite Hsq, Nat.eqb_refl. cbn [negb].
  set (I := mk (nc m) (nc m) (fun i j => if (i =? j)%nat then n1 else n0)). split.
  - intros Hs. apply np_solve_singular; auto. now apply singular_kernel.
  - intros Hs. assert (Hk : Kernel_trivial m).
    { destruct (Kernel_trivial_dec m Hsq) as [K|K]; [exact K|]. exfalso. apply Hs. now apply singular_kernel. }
    destruct (np_solve_ok m I Hsq (eq_sym Hsq) Hk) as (x & E & Wx & X1 & X2 & Hx). exists x. split; [exact E|]. split; [exact Wx|]. split; [congruence|]. split; [exact X2|].
    intros i j Hi Hj. rewrite !Rsum_sumn. change (nc I) with (nc m) in *. split.
    + rewrite Hx by lia. unfold I. rewrite entry_mk by lia. reflexivity.
    + (* m (x m - 1) = 0 and m has a trivial kernel *)
      enough (sumn (nc m) (fun k => entry x i k * entry m k j) - (if (i =? j)%nat then 1 else 0) = 0) by lra.
      apply (Hk (fun i => sumn (nc m) (fun k => entry x i k * entry m k j) - (if (i =? j)%nat then 1 else 0))); [|lia]. intros r Hr. rewrite Hsq in Hr.
      rewrite (sumn_ext _ _ (fun l => sumn (nc m) (fun k => entry m r l * (entry x l k * entry m k j)) - entry m r l * (if (l =? j)%nat then 1 else 0))).
      2:{ intros l Hl. rewrite sumR_scal. ring. }
      rewrite sumR_minus, sumR_swap. rewrite (sumn_ext _ _ (fun k => (if (r =? k)%nat then 1 else 0) * entry m k j)).
      2:{ intros k Hkk. rewrite (sumn_ext _ _ (fun l => entry m r l * entry x l k * entry m k j)) by (intros; ring). rewrite sumR_scal_r, Hx by lia.
          unfold I. rewrite entry_mk by lia. reflexivity. }
      rewrite (sumR_single _ r) by (auto; intros k Hkk Hne; apply Nat.eqb_neq in Hne; rewrite Nat.eqb_sym, Hne; ring).
      rewrite (sumR_single _ j) by (auto; intros k Hkk Hne; apply Nat.eqb_neq in Hne; rewrite Hne; ring). rewrite !Nat.eqb_refl. ring.
Qed.
(** For non-square matrices inverse() is the least squares solver's answer for the identity. *)
Theorem C61_inverse_rectangular (inv : matR -> res matR) (lstsq : matR -> matR -> res matR) (m : matR) :
  nr m <> nc m -> nr m <> 0%nat ->
  exists rhs, is_mat rhs (nr m) (nr m) (fun i j => if (i =? j)%nat then 1 else 0) /\ inverse inv lstsq m = lstsq m rhs.
Proof.
  intros Hsq H0. unfold inverse, is_square. apply Nat.eqb_neq in Hsq. rewrite Hsq. eexists. split; [|reflexivity].
  rewrite np_array2_tab by assumption. apply is_mat_mk_ext. intros i j _ _. rewrite Nat.eqb_sym. reflexivity.
Qed.
Example C61_ex : exists x, solve (Mat 2 2 [[0; 2]; [1; 1]]) (Mat 2 1 [[4]; [3]]) = Ok x /\ entry x 0 0 = 1 /\ entry x 1 0 = 2.
Proof.
  destruct (C61_solve (Mat 2 2 [[0; 2]; [1; 1]]) (Mat 2 1 [[4]; [3]])) as (_ & _ & _ & H4).
  destruct H4 as (x & E & _ & _ & _ & Hx & _); try reflexivity.
  - intros (v & (k & Hk & Hv) & Hz). pose proof (Hz 0%nat ltac:(cbn; lia)) as Z0. pose proof (Hz 1%nat ltac:(cbn; lia)) as Z1.
    unfold entry in Z0, Z1. cbn in Z0, Z1, Hk. destruct k as [|[|k]]; [| |lia]; apply Hv; lra.
  - exists x. split; [exact E|]. pose proof (Hx 0%nat 0%nat ltac:(cbn; lia) ltac:(cbn; lia)) as Z0. pose proof (Hx 1%nat 0%nat ltac:(cbn; lia) ltac:(cbn; lia)) as Z1.
    cbn [nc Rsum] in Z0, Z1. change (entry (Mat 2 2 [[0;2];[1;1]]) 0 0) with 0 in Z0. change (entry (Mat 2 2 [[0;2];[1;1]]) 0 1) with 2 in Z0. change (entry (Mat 2 2 [[0;2];[1;1]]) 1 0) with 1 in Z1. change (entry (Mat 2 2 [[0;2];[1;1]]) 1 1) with 1 in Z1. change (entry (Mat 2 1 [[4]; [3]]) 0 0) with 4 in Z0. change (entry (Mat 2 1 [[4]; [3]]) 1 0) with 3 in Z1. lra.
Qed.
Example C61_ex_singular : solve (Mat 2 2 [[1; 2]; [2; 4]]) (Mat 2 1 [[1]; [1]]) = Err LinAlgError.
Proof.
  apply C61_solve; try reflexivity. exists (fun k => if (k =? 0)%nat then 2 else -1). split.
  - exists 0%nat. cbn. split; [lia|lra].
  - intros [|[|i]] Hi; unfold entry; cbn in *; try lra. lia.
Qed.
Print Assumptions C61_solve.
Print Assumptions C61_inverse.
Print Assumptions C61_inverse_rectangular.
