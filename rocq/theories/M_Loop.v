(** Python for-loops whose body may raise: the state is threaded, the first exception ends the loop. *)
From Coq Require Import List Lia Arith.
From Verif Require Import Base.
Import ListNotations.

Fixpoint for_each {A B} (l : list B) (body : A -> B -> res A) (a : A) : res A :=
  match l with [] => Ok a | b :: l' => do a' <- body a b; for_each l' body a' end.
Definition for_range {A} (n : nat) (body : A -> nat -> res A) (a : A) : res A := for_each (seq 0 n) body a.

Lemma for_each_app {A B} (l l' : list B) (body : A -> B -> res A) a :
  for_each (l ++ l') body a = do a' <- for_each l body a; for_each l' body a'.
Proof. revert a. induction l as [|b l IH]; intros a; [reflexivity|]. cbn [app for_each]. destruct (body a b); cbn [bind]; auto. Qed.
(** Hoare rule for  for k in range(n)  *)
Lemma for_range_inv {A} (I : nat -> A -> Prop) (body : A -> nat -> res A) n a :
  I 0 a -> (forall k x, k < n -> I k x -> exists x', body x k = Ok x' /\ I (S k) x') ->
  exists a', for_range n body a = Ok a' /\ I n a'.
Proof.
  intros H0 Hs. unfold for_range. induction n as [|n IH]; [exists a; split; [reflexivity|assumption]|].
  destruct IH as (a' & E & Ha'); [intros; apply Hs; [lia|assumption]|]. rewrite seq_S, for_each_app, E. cbn [bind].
  destruct (Hs n a' ltac:(lia) Ha') as (x' & E' & Hx'). exists x'. cbn [plus for_each]. rewrite E'. split; [reflexivity|assumption].
Qed.
(** the same for  for k in range(a, b)  *)
Lemma for_seq_inv {A} (I : nat -> A -> Prop) (body : A -> nat -> res A) s n a :
  I s a -> (forall k x, s <= k < s + n -> I k x -> exists x', body x k = Ok x' /\ I (S k) x') ->
  exists a', for_each (seq s n) body a = Ok a' /\ I (s + n) a'.
Proof.
  intros H0 Hs. induction n as [|n IH]; [exists a; split; [reflexivity|now rewrite Nat.add_0_r]|].
  destruct IH as (a' & E & Ha'); [intros; apply Hs; [lia|assumption]|]. rewrite seq_S, for_each_app, E. cbn [bind].
  destruct (Hs (s + n) a' ltac:(lia) Ha') as (x' & E' & Hx'). exists x'. cbn [for_each]. rewrite E'. split; [reflexivity|]. now rewrite Nat.add_succ_r.
Qed.
Lemma for_each_ext {A B} (l : list B) (f g : A -> B -> res A) a : (forall x b, In b l -> f x b = g x b) -> for_each l f a = for_each l g a.
Proof.
  revert a. induction l as [|b l IH]; intros a Hf; [reflexivity|]. cbn [for_each]. rewrite Hf by (left; reflexivity).
  destruct (g a b); cbn [bind]; [|reflexivity]. apply IH. intros; apply Hf; now right.
Qed.
(** a pure body: the loop is a left fold *)
Lemma for_each_pure {A B} (l : list B) (f : A -> B -> A) a : for_each l (fun x b => Ok (f x b)) a = Ok (fold_left f l a).
Proof. revert a. induction l as [|b l IH]; intros a; [reflexivity|]. cbn [for_each fold_left bind]. apply IH. Qed.
