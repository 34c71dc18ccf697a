(** Stable insertion sort, and the concatenation loop of get_eigenvectors_sorted. *)
From Coq Require Import List ZArith Lia Bool Arith Permutation Sorted Reals Lra.
From Verif Require Import Base Num Mat M_Matrix S_Matrix L_Base L_Mat L_Matrix.
Import ListNotations.
Local Open Scope nat_scope.

Lemma insert_by_perm {A} (le : A -> A -> bool) x l : Permutation (x :: l) (insert_by le x l).
Proof.
  induction l as [|y l IH]; cbn; [reflexivity|]. destruct (le x y); [reflexivity|].
  rewrite perm_swap. now rewrite IH.
Qed.
Lemma stable_sort_perm {A} (le : A -> A -> bool) l : Permutation l (stable_sort le l).
Proof.
  induction l as [|x l IH]; cbn; [constructor|]. fold (stable_sort le l).
  rewrite <- insert_by_perm. now constructor.
Qed.
Lemma insert_by_map {A B} (f : A -> B) (le : B -> B -> bool) x l :
  insert_by le (f x) (map f l) = map f (insert_by (fun a b => le (f a) (f b)) x l).
Proof. induction l as [|y l IH]; cbn; [reflexivity|]. destruct (le (f x) (f y)); cbn; [reflexivity|]. now rewrite IH. Qed.
Lemma stable_sort_map {A B} (f : A -> B) (le : B -> B -> bool) l :
  stable_sort le (map f l) = map f (stable_sort (fun a b => le (f a) (f b)) l).
Proof.
  induction l as [|x l IH]; cbn; [reflexivity|]. fold (stable_sort le (map f l)). rewrite IH. apply insert_by_map.
Qed.
Section S.
Context {A : Type} (le : A -> A -> bool).
Hypothesis total : forall x y, le x y = true \/ le y x = true.
Hypothesis trans : forall x y z, le x y = true -> le y z = true -> le x z = true.
Lemma insert_by_sorted x l : StronglySorted (fun a b => le a b = true) l ->
  StronglySorted (fun a b => le a b = true) (insert_by le x l).
Proof.
  induction 1 as [|y l Hl IH Hy]; cbn; [repeat constructor|].
  destruct (le x y) eqn:E.
  - constructor; [now constructor|]. constructor; [assumption|].
    eapply Forall_impl; [|exact Hy]. cbn. intros z Hz. now apply trans with y.
  - constructor; [assumption|]. eapply Permutation_Forall; [apply insert_by_perm|].
    constructor; [|assumption]. destruct (total x y); congruence.
Qed.
Lemma stable_sort_sorted l : StronglySorted (fun a b => le a b = true) (stable_sort le l).
Proof. induction l as [|x l IH]; cbn; [constructor|]. now apply insert_by_sorted. Qed.
End S.

Lemma sorted_perm_unique {A} (P : A -> A -> Prop) (anti : forall x y, P x y -> P y x -> x = y) l l' :
  StronglySorted P l -> StronglySorted P l' -> Permutation l l' -> l = l'.
Proof.
  intros Hl. revert l'. induction Hl as [|x l Hl IH Hx]; intros l' Hl' Hp.
  - apply Permutation_nil in Hp. congruence.
  - destruct Hl' as [|y l' Hl' Hy]; [apply Permutation_sym, Permutation_nil in Hp; discriminate|].
    assert (E : x = y).
    { assert (Hx' : In x (y :: l')) by (eapply Permutation_in; [exact Hp|now left]).
      assert (Hy' : In y (x :: l)) by (eapply Permutation_in; [apply Permutation_sym; exact Hp|now left]).
      rewrite Forall_forall in Hx, Hy. destruct Hx' as [->|Hx']; [reflexivity|]. destruct Hy' as [->|Hy']; [reflexivity|].
      apply anti; auto. }
    subst y. f_equal. apply IH; [assumption|]. eapply Permutation_cons_inv; exact Hp.
Qed.
Lemma StronglySorted_impl {A} (P Q : A -> A -> Prop) l : (forall a b, P a b -> Q a b) -> StronglySorted P l -> StronglySorted Q l.
Proof. intros HPQ. induction 1 as [|x l Hl IH Hx]; constructor; [assumption|]. eapply Forall_impl; [|exact Hx]. apply HPQ. Qed.
Lemma sorted_rev {A} (P : A -> A -> Prop) l : StronglySorted P l -> StronglySorted (fun a b => P b a) (rev l).
Proof.
  induction 1 as [|x l Hl IH Hx]; cbn; [constructor|]. apply StronglySorted_app; auto.
  - repeat constructor.
  - intros a b Ha Hb. apply in_rev in Ha. rewrite Forall_forall in Hx. destruct Hb as [<-|[]]. now apply Hx.
Qed.
Lemma sorted_nth {A} (P : A -> A -> Prop) (refl : forall x, P x x) d l i j : StronglySorted P l -> i <= j -> j < length l -> P (nth i l d) (nth j l d).
Proof.
  intros Hl. revert i j. induction Hl as [|x l Hl IH Hx]; intros i j Hij Hj; [cbn in Hj; lia|].
  destruct j as [|j]; [assert (i = 0) by lia; subst; apply refl|]. cbn in Hj. destruct i as [|i].
  - cbn. rewrite Forall_forall in Hx. apply Hx, nth_In. lia.
  - cbn. apply IH; lia.
Qed.

Section G.
Context {T : Type} `{Num T}.
(** concatenating a list of n x 1 columns *)
Lemma concat_cols_loop (n : nat) (acc : mat T) (k : nat) f (cols : list (nat -> T)) :
  is_mat acc n k f ->
  exists m, fold_left (fun (acc : res (mat T)) p => do a <- acc; concat_along_columns a p)
              (map (fun g => mk n 1 (fun i _ => g i)) cols) (Ok acc) = Ok m /\
    is_mat m n (k + length cols) (fun i j => if j <? k then f i j else nth (j - k) cols (fun _ => n0) i).
Proof.
  revert acc k f. induction cols as [|g cols IH]; intros acc k f Ha; cbn [map fold_left length].
  - exists acc. split; [reflexivity|]. rewrite Nat.add_0_r. eapply is_mat_fun_ext; [exact Ha|].
    cbn. intros i j Hi Hj. destruct (Nat.ltb_spec j k); [reflexivity|lia].
  - destruct Ha as (Hw & Hr & Hc & He). cbn [bind].
    destruct (concat_columns_ok acc (mk n 1 (fun i _ => g i))) as (m1 & E1 & H1); [assumption|apply mk_wf|now rewrite nr_mk|].
    rewrite E1. destruct (IH m1 (k + 1) (fun i j => if j <? k then f i j else g i)) as (m & E & Hm).
    { destruct H1 as (W1 & R1 & C1 & V1). rewrite Hr in *. rewrite Hc, nc_mk in *. split; [assumption|]. split; [assumption|]. split; [lia|].
      intros i j Hi Hj. rewrite V1 by lia. destruct (Nat.ltb_spec j k); [apply He; lia|]. now rewrite entry_mk by lia. }
    exists m. split; [exact E|]. replace (k + S (length cols)) with (k + 1 + length cols) by lia.
    eapply is_mat_fun_ext; [exact Hm|]. cbv beta. intros i j Hi Hj.
    destruct (Nat.ltb_spec j k); destruct (Nat.ltb_spec j (k + 1)); try lia; try reflexivity.
    + replace (j - k) with 0 by lia. reflexivity.
    + replace (j - k) with (S (j - (k + 1))) by lia. reflexivity.
Qed.
End G.
