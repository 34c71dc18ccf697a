(** Lemmas about tabulated lists, list update, index normalisation. *)
From Coq Require Import List ZArith Lia Bool Arith.
From Verif Require Import Base.
Import ListNotations.

Lemma tab_length {A} n (f : nat -> A) : length (tab n f) = n.
Proof. unfold tab; now rewrite map_length, seq_length. Qed.

Lemma nth_tab {A} n (f : nat -> A) i d : i < n -> nth i (tab n f) d = f i.
Proof.
  intros H. unfold tab.
  rewrite nth_indep with (d' := f 0) by now rewrite map_length, seq_length.
  rewrite map_nth with (d := 0), seq_nth by assumption. reflexivity.
Qed.

Lemma tab_ext {A} n (f g : nat -> A) : (forall i, i < n -> f i = g i) -> tab n f = tab n g.
Proof.
  intros H. unfold tab. apply map_ext_in. intros a Ha. apply in_seq in Ha. apply H. lia.
Qed.

Lemma tab_0 {A} (f : nat -> A) : tab 0 f = [].
Proof. reflexivity. Qed.

Lemma tab_S {A} n (f : nat -> A) : tab (S n) f = tab n f ++ [f n].
Proof. unfold tab. rewrite seq_S, map_app. reflexivity. Qed.

Lemma tab_S_hd {A} n (f : nat -> A) : tab (S n) f = f 0 :: tab n (fun i => f (S i)).
Proof. unfold tab. cbn [seq map]. rewrite <- seq_shift, map_map. reflexivity. Qed.

Lemma map_tab {A B} n (f : nat -> A) (g : A -> B) : map g (tab n f) = tab n (fun i => g (f i)).
Proof. unfold tab. now rewrite map_map. Qed.

Lemma In_tab {A} n (f : nat -> A) x : In x (tab n f) <-> exists i, i < n /\ f i = x.
Proof.
  unfold tab. rewrite in_map_iff. split.
  - intros (i & H1 & H2). apply in_seq in H2. exists i. split; [lia | assumption].
  - intros (i & H1 & H2). exists i. split; [assumption | apply in_seq; lia].
Qed.

Lemma list_ext {A} (d : A) (l l' : list A) :
  length l = length l' -> (forall i, i < length l -> nth i l d = nth i l' d) -> l = l'.
Proof.
  intros H1 H2. apply nth_ext with (d := d) (d' := d); auto.
Qed.

Lemma tab_nth {A} (d : A) (l : list A) n : length l = n -> tab n (fun i => nth i l d) = l.
Proof.
  intros H. apply (list_ext d).
  - now rewrite tab_length.
  - rewrite tab_length. intros i Hi. now rewrite nth_tab.
Qed.

Lemma tab_app {A} n m (f : nat -> A) : tab (n + m) f = tab n f ++ tab m (fun i => f (n + i)).
Proof.
  unfold tab. rewrite seq_app, map_app. f_equal. cbn.
  rewrite <- (Nat.add_0_r n) at 1. 
  generalize 0 as k. induction m as [|m IH]; intros k; [reflexivity|].
  cbn. f_equal. rewrite plus_n_Sm. apply IH.
Qed.

Lemma upd_length {A} (l : list A) i x : length (upd l i x) = length l.
Proof. revert i; induction l as [|a l IH]; intros [|i]; cbn; auto. Qed.

Lemma nth_upd {A} (l : list A) i x d j :
  nth j (upd l i x) d = if (j =? i) && (j <? length l) then x else nth j l d.
Proof.
  revert i j; induction l as [|a l IH]; intros [|i] [|j]; cbn; auto.
  - now rewrite andb_false_r.
  - apply IH.
Qed.

Lemma nth_upd_same {A} (l : list A) i x d : i < length l -> nth i (upd l i x) d = x.
Proof. intros H. rewrite nth_upd, Nat.eqb_refl. apply Nat.ltb_lt in H. rewrite H. reflexivity. Qed.

Lemma nth_upd_other {A} (l : list A) i x d j : j <> i -> nth j (upd l i x) d = nth j l d.
Proof. intros H. rewrite nth_upd. apply Nat.eqb_neq in H. now rewrite H. Qed.

Lemma Forall_nth' {A} (P : A -> Prop) (l : list A) d i : Forall P l -> i < length l -> P (nth i l d).
Proof. intros H Hi. rewrite Forall_forall in H. apply H. now apply nth_In. Qed.

Lemma Forall_tab {A} (P : A -> Prop) n (f : nat -> A) :
  (forall i, i < n -> P (f i)) -> Forall P (tab n f).
Proof. intros H. apply Forall_forall. intros x Hx. apply In_tab in Hx as (i & Hi & <-). auto. Qed.

(** numpy index normalisation. *)
Definition addresses (n : nat) (z : Z) (k : nat) : Prop :=
  (k < n)%nat /\ (z = Z.of_nat k \/ z = Z.of_nat k - Z.of_nat n)%Z.

Lemma npidx_ok n z k : npidx n z = Ok k <-> addresses n z k.
Proof.
  unfold npidx, addresses.
  destruct ((0 <=? z) && (z <? Z.of_nat n))%Z eqn:E1.
  - split.
    + intros [= <-]. lia.
    + intros (H1 & [H2|H2]); f_equal; lia.
  - destruct ((- Z.of_nat n <=? z) && (z <? 0))%Z eqn:E2.
    + split.
      * intros [= <-]. lia.
      * intros (H1 & [H2|H2]); f_equal; lia.
    + split; [discriminate|]. lia.
Qed.

Lemma npidx_err n z e : npidx n z = Err e <-> (e = IndexError /\ ~ (- Z.of_nat n <= z < Z.of_nat n)%Z).
Proof.
  unfold npidx.
  destruct ((0 <=? z) && (z <? Z.of_nat n))%Z eqn:E1; [split; [discriminate|lia]|].
  destruct ((- Z.of_nat n <=? z) && (z <? 0))%Z eqn:E2; [split; [discriminate|lia]|].
  split; [intros [= <-]; split; [reflexivity|lia] | intros [-> _]; reflexivity].
Qed.

Lemma npidx_nat n k : k < n -> npidx n (Z.of_nat k) = Ok k.
Proof. intros H. apply npidx_ok. unfold addresses. lia. Qed.

Lemma npidx_lt n z k : npidx n z = Ok k -> k < n.
Proof. intros H. apply npidx_ok in H. apply H. Qed.

(** mapM *)
Lemma mapM_ok {A B} (f : A -> res B) (l : list A) (r : list B) :
  mapM f l = Ok r <-> Forall2 (fun a b => f a = Ok b) l r.
Proof.
  revert r; induction l as [|a l IH]; intros r; cbn.
  - split; [intros [= <-]; constructor | intros H; inversion H; reflexivity].
  - destruct (f a) as [b|e] eqn:E; cbn.
    + destruct (mapM f l) as [bs|e] eqn:E2; cbn.
      * split.
        -- intros [= <-]. constructor; [assumption | now apply IH].
        -- intros H. inversion H as [|? b' ? bs' H1 H2]; subst. 
           apply IH in H2. congruence.
      * split; [discriminate|]. intros H. inversion H as [|? b' ? bs' H1 H2]; subst.
        apply IH in H2. discriminate.
    + split; [discriminate|]. intros H. inversion H; subst. congruence.
Qed.

Lemma mapM_err {A B} (f : A -> res B) (l : list A) e :
  mapM f l = Err e -> exists a, In a l /\ f a = Err e.
Proof.
  induction l as [|a l IH]; cbn; [discriminate|].
  destruct (f a) as [b|e'] eqn:E; cbn.
  - destruct (mapM f l) as [bs|e''] eqn:E2; cbn; [discriminate|].
    intros [= ->]. destruct (IH eq_refl) as (x & H1 & H2). exists x; auto.
  - intros [= ->]. exists a; auto.
Qed.

Lemma mapM_err_iff {A B} (f : A -> res B) (l : list A) :
  (exists e, mapM f l = Err e) <-> exists a e, In a l /\ f a = Err e.
Proof.
  induction l as [|a l IH]; cbn.
  - split; [intros (e & H); discriminate | intros (a & e & [] & _)].
  - destruct (f a) as [b|e'] eqn:E; cbn.
    + destruct (mapM f l) as [bs|e''] eqn:E2; cbn.
      * split; [intros (e & H); discriminate|].
        intros (x & e & [->|H1] & H2); [congruence|].
        destruct IH as [_ IH]. destruct IH as (e0 & H); [eauto|discriminate].
      * split; [|eauto].
        intros _. destruct IH as [IH _]. destruct IH as (x & e & H1 & H2); eauto.
    + split; eauto.
Qed.

Lemma mapM_total {A B} (f : A -> res B) (g : A -> B) (l : list A) :
  (forall a, In a l -> f a = Ok (g a)) -> mapM f l = Ok (map g l).
Proof.
  induction l as [|a l IH]; cbn; intros H; [reflexivity|].
  rewrite H by auto. cbn. rewrite IH by auto. reflexivity.
Qed.

Lemma Forall2_length' {A B} (R : A -> B -> Prop) l l' : Forall2 R l l' -> length l = length l'.
Proof. induction 1; cbn; congruence. Qed.

Lemma Forall2_nth' {A B} (R : A -> B -> Prop) l l' da db i :
  Forall2 R l l' -> i < length l -> R (nth i l da) (nth i l' db).
Proof.
  intros H. revert i. induction H as [|a b l l' H1 H2 IH]; intros [|i] Hi; cbn in *; try lia; auto.
  apply IH; lia.
Qed.

Lemma fold_left_inv {A B} (P : A -> Prop) (f : A -> B -> A) (l : list B) a :
  P a -> (forall a b, In b l -> P a -> P (f a b)) -> P (fold_left f l a).
Proof.
  revert a; induction l as [|b l IH]; intros a Ha Hf; cbn; auto.
  apply IH; [apply Hf; cbn; auto|]. intros; apply Hf; cbn; auto.
Qed.

Lemma pyrange_length a b s : length (pyrange a b s) = range_len a b s.
Proof. apply tab_length. Qed.

Lemma range_len_1 a b : range_len a b 1 = Z.to_nat (b - a).
Proof. unfold range_len. cbn. rewrite Z.div_1_r. f_equal. lia. Qed.

Lemma pyrange_0n n : pyrange 0 (Z.of_nat n) 1 = map Z.of_nat (seq 0 n).
Proof.
  unfold pyrange. rewrite range_len_1. unfold tab.
  replace (Z.to_nat (Z.of_nat n - 0)) with n by lia.
  apply map_ext. intros k. lia.
Qed.

Lemma nth_map' {A B} (f : A -> B) (l : list A) i d d0 :
  i < length l -> nth i (map f l) d = f (nth i l d0).
Proof.
  intros Hi. rewrite nth_indep with (d' := f d0) by now rewrite map_length.
  apply map_nth.
Qed.

(** Strictly sorted lists are determined by their elements. *)
From Coq Require Import Sorted.
Lemma sorted_lt_ext (l l' : list nat) : StronglySorted lt l -> StronglySorted lt l' ->
  (forall k, In k l <-> In k l') -> l = l'.
Proof.
  intros Hl. revert l'. induction Hl as [|a l Hl IH Ha]; intros l' Hl' He.
  - destruct l' as [|b l']; auto. exfalso. apply (He b). now left.
  - destruct Hl' as [|b l' Hl' Hb]; [exfalso; apply (He a); now left|].
    rewrite Forall_forall in Ha, Hb.
    assert (a = b).
    { destruct (proj1 (He a) (or_introl eq_refl)) as [|Q1]; auto.
      destruct (proj2 (He b) (or_introl eq_refl)) as [|Q2]; auto.
      specialize (Ha _ Q2). specialize (Hb _ Q1). lia. }
    subst b. f_equal. apply IH; auto. intros k. split; intros Hk.
    + destruct (proj1 (He k) (or_intror Hk)) as [Q|]; auto. subst k. specialize (Ha _ Hk). lia.
    + destruct (proj2 (He k) (or_intror Hk)) as [Q|]; auto. subst k. specialize (Hb _ Hk). lia.
Qed.
Lemma filter_seq_sorted_id a n : filter (fun _ => true) (seq a n) = seq a n.
Proof. induction (seq a n) as [|x l IH]; cbn; congruence. Qed.
