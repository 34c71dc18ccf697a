(** Lemmas about matrix values and finite sums. *)
From Coq Require Import List ZArith Lia Bool Arith Reals Lra.
From Verif Require Import Base Num Mat L_Base.
Import ListNotations.

Section Generic.
Context {T : Type} `{Num T}.

Lemma wfb_wf (m : mat T) : wfb m = true <-> wf m.
Proof.
  unfold wfb, wf. rewrite andb_true_iff, Nat.eqb_eq, forallb_forall, Forall_forall.
  split; intros [H1 H2]; (split; [assumption|]); intros x Hx; apply Nat.eqb_eq; auto.
Qed.

Lemma mk_wf r c (f : nat -> nat -> T) : wf (mk r c f).
Proof.
  split; cbn; [apply tab_length|]. apply Forall_tab. intros; apply tab_length.
Qed.

Lemma entry_mk r c (f : nat -> nat -> T) i j : i < r -> j < c -> entry (mk r c f) i j = f i j.
Proof.
  intros Hi Hj. unfold entry, mk; cbn. rewrite nth_tab by assumption. now rewrite nth_tab.
Qed.

Lemma nr_mk r c (f : nat -> nat -> T) : nr (mk r c f) = r. Proof. reflexivity. Qed.
Lemma nc_mk r c (f : nat -> nat -> T) : nc (mk r c f) = c. Proof. reflexivity. Qed.

Lemma wf_row_length (m : mat T) i : wf m -> i < nr m -> length (nth i (rws m) []) = nc m.
Proof.
  intros [H1 H2] Hi. apply (Forall_nth' (fun r => length r = nc m)); [assumption|lia].
Qed.

Lemma mat_ext (a b : mat T) :
  wf a -> wf b -> nr a = nr b -> nc a = nc b ->
  (forall i j, i < nr a -> j < nc a -> entry a i j = entry b i j) -> a = b.
Proof.
  intros Ha Hb Hr Hc He.
  assert (Hrw : rws a = rws b).
  { apply (list_ext []).
    - destruct Ha as [Ha _], Hb as [Hb _]. lia.
    - intros i Hi. assert (Hi' : i < nr a) by (destruct Ha as [Ha _]; lia).
      apply (list_ext n0).
      + rewrite !wf_row_length by (auto; lia). assumption.
      + rewrite wf_row_length by auto. intros j Hj. apply He; auto. }
  destruct a as [ra ca wa], b as [rb cb wb]; cbn in *. congruence.
Qed.

Lemma mk_ext r c (f g : nat -> nat -> T) :
  (forall i j, i < r -> j < c -> f i j = g i j) -> mk r c f = mk r c g.
Proof.
  intros He. unfold mk. f_equal. apply tab_ext. intros i Hi. apply tab_ext. auto.
Qed.

Lemma mk_entry (m : mat T) : wf m -> mk (nr m) (nc m) (entry m) = m.
Proof.
  intros Hm. apply mat_ext; auto using mk_wf.
  intros i j Hi Hj. now rewrite entry_mk.
Qed.

Lemma mat_eq_mk (m : mat T) r c f :
  wf m -> nr m = r -> nc m = c -> (forall i j, i < r -> j < c -> entry m i j = f i j) -> m = mk r c f.
Proof.
  intros Hm <- <- He. apply mat_ext; auto using mk_wf.
  intros i j Hi Hj. rewrite entry_mk by assumption. auto.
Qed.

Lemma sumn_ext n (f g : nat -> T) : (forall i, i < n -> f i = g i) -> sumn n f = sumn n g.
Proof.
  induction n as [|n IH]; cbn; intros He; [reflexivity|].
  rewrite He by lia. rewrite IH by (intros; apply He; lia). reflexivity.
Qed.

End Generic.

(** Real sums. *)
Section RealSums.
Open Scope R_scope.

Lemma sumR_S n (f : nat -> R) : sumn (S n) f = sumn n f + f n.
Proof. reflexivity. Qed.

Lemma sumR_0 (f : nat -> R) : sumn 0 f = 0.
Proof. reflexivity. Qed.

Lemma sumR_plus n (f g : nat -> R) : sumn n (fun i => f i + g i) = sumn n f + sumn n g.
Proof. induction n as [|n IH]; cbn; [lra|]. cbn in IH. rewrite IH. lra. Qed.

Lemma sumR_minus n (f g : nat -> R) : sumn n (fun i => f i - g i) = sumn n f - sumn n g.
Proof. induction n as [|n IH]; cbn; [lra|]. cbn in IH. rewrite IH. lra. Qed.

Lemma sumR_scal n c (f : nat -> R) : sumn n (fun i => c * f i) = c * sumn n f.
Proof. induction n as [|n IH]; cbn; [lra|]. cbn in IH. rewrite IH. lra. Qed.

Lemma sumR_scal_r n c (f : nat -> R) : sumn n (fun i => f i * c) = sumn n f * c.
Proof. induction n as [|n IH]; cbn; [lra|]. cbn in IH. rewrite IH. lra. Qed.

Lemma sumR_opp n (f : nat -> R) : sumn n (fun i => - f i) = - sumn n f.
Proof. induction n as [|n IH]; cbn; [lra|]. cbn in IH. rewrite IH. lra. Qed.

Lemma sumR_zero n (f : nat -> R) : (forall i, (i < n)%nat -> f i = 0) -> sumn n f = 0.
Proof.
  induction n as [|n IH]; cbn; intros Hf; [reflexivity|]. rewrite Hf by lia.
  cbn in IH. rewrite IH by (intros; apply Hf; lia). lra.
Qed.

Lemma sumR_const n c : sumn n (fun _ : nat => c) = INR n * c.
Proof. induction n as [|n IH]; [cbn; lra|]. rewrite sumR_S, IH, S_INR. lra. Qed.

Lemma sumR_swap n m (f : nat -> nat -> R) :
  sumn n (fun i => sumn m (fun j => f i j)) = sumn m (fun j => sumn n (fun i => f i j)).
Proof.
  induction n as [|n IH].
  - cbn. symmetry. apply sumR_zero. reflexivity.
  - rewrite sumR_S, IH. rewrite <- sumR_plus. apply sumn_ext. intros; reflexivity.
Qed.

Lemma sumR_single n k (f : nat -> R) :
  (k < n)%nat -> (forall i, (i < n)%nat -> i <> k -> f i = 0) -> sumn n f = f k.
Proof.
  induction n as [|n IH]; intros Hk Hf; [lia|].
  rewrite sumR_S. destruct (Nat.eq_dec k n) as [->|Hne].
  - rewrite sumR_zero; [lra|]. intros i Hi. apply Hf; lia.
  - rewrite IH; [|lia|intros; apply Hf; lia]. rewrite (Hf n) by lia. lra.
Qed.

Lemma sumR_split n m (f : nat -> R) : sumn (n + m) f = sumn n f + sumn m (fun i => f (n + i)%nat).
Proof.
  induction m as [|m IH].
  - rewrite Nat.add_0_r. cbn. lra.
  - rewrite Nat.add_succ_r, !sumR_S, IH. lra.
Qed.

Lemma sumR_S_hd n (f : nat -> R) : sumn (S n) f = f 0%nat + sumn n (fun i => f (S i)).
Proof. replace (S n) with (1 + n)%nat by lia. rewrite sumR_split. cbn. lra. Qed.

Lemma sumR_nonneg n (f : nat -> R) : (forall i, (i < n)%nat -> 0 <= f i) -> 0 <= sumn n f.
Proof.
  induction n as [|n IH]; cbn; intros Hf; [lra|].
  cbn in IH. specialize (Hf n (Nat.lt_succ_diag_r n)) as Hn.
  assert (0 <= @sumn R _ n f) by (apply IH; intros; apply Hf; lia). cbn in *. lra.
Qed.

Lemma sumR_le n (f g : nat -> R) : (forall i, (i < n)%nat -> f i <= g i) -> sumn n f <= sumn n g.
Proof.
  induction n as [|n IH]; intros Hf; [cbn; lra|]. rewrite !sumR_S.
  specialize (Hf n (Nat.lt_succ_diag_r n)) as Hn.
  assert (sumn n f <= sumn n g) by (apply IH; intros; apply Hf; lia). lra.
Qed.

Lemma sumR_nonneg_0 n (f : nat -> R) :
  (forall i, (i < n)%nat -> 0 <= f i) -> sumn n f = 0 -> forall i, (i < n)%nat -> f i = 0.
Proof.
  induction n as [|n IH]; intros Hf H0 i Hi; [lia|].
  rewrite sumR_S in H0.
  assert (Hn : 0 <= f n) by (apply Hf; lia).
  assert (Hs : 0 <= sumn n f) by (apply sumR_nonneg; intros; apply Hf; lia).
  destruct (Nat.eq_dec i n) as [->|Hne]; [lra|].
  apply IH; [intros; apply Hf; lia | lra | lia].
Qed.

Lemma sumR_mul n m (f g : nat -> R) :
  sumn n f * sumn m g = sumn n (fun i => sumn m (fun j => f i * g j)).
Proof.
  rewrite <- sumR_scal_r. apply sumn_ext. intros i _. now rewrite sumR_scal.
Qed.

Lemma sumR_rev n (f : nat -> R) : sumn n (fun i => f (n - 1 - i)%nat) = sumn n f.
Proof.
  induction n as [|n IH]; [reflexivity|].
  rewrite sumR_S_hd. replace (S n - 1 - 0)%nat with n by lia.
  rewrite sumR_S, <- IH. rewrite Rplus_comm. f_equal.
  apply sumn_ext. intros i Hi. f_equal. lia.
Qed.
End RealSums.
