(** The quicksort model on any strict partial order of values - in particular on binary64 with NaN:
    it ends and permutes its index, whether or not the comparisons are total. *)
From Coq Require Import List ZArith Lia Bool Arith Permutation Reals Lra SpecFloat.
From Verif Require Import Base Num M_Utils L_Base L_Order L_Sort.
Import ListNotations.
Local Open Scope nat_scope.

Definition strict_order (T : Type) `{Num T} : Prop :=
  (forall x : T, nltb x x = false) /\ (forall x y z : T, nltb x y = true -> nltb y z = true -> nltb x z = true).

Lemma strict_R : strict_order R.
Proof.
  split; cbn; intros.
  - apply Rltb_false. lra.
  - rewrite Rltb_true in *. lra.
Qed.
Lemma nltb_nan_l (x : f64) : nltb S754_nan x = false.
Proof. destruct x as [[]|[]| |[] ? ?]; reflexivity. Qed.
Lemma nltb_nan_r (x : f64) : nltb x S754_nan = false.
Proof. destruct x as [[]|[]| |[] ? ?]; reflexivity. Qed.
Lemma strict_F : strict_order f64.
Proof.
  assert (Dn : forall x : f64, x = S754_nan \/ not_nan x) by (intros [| | |]; [right|right|left|right]; unfold not_nan; congruence).
  split.
  - intros x. destruct (Dn x) as [->|Nx]; [reflexivity|]. apply (ol_lt_irrefl not_nan). exact Nx.
  - intros x y z H1 H2. destruct (Dn x) as [->|Nx]; [now rewrite nltb_nan_l in H1|]. destruct (Dn y) as [->|Ny]; [now rewrite nltb_nan_r in H1|].
    destruct (Dn z) as [->|Nz]; [now rewrite nltb_nan_r in H2|].
    destruct (nltb x z) eqn:E; [reflexivity|].
    apply (ol_nlt_le not_nan) in E; auto. pose proof (ol_lt_le not_nan _ _ Nx Ny H1) as L1.
    pose proof (ol_trans (D:=not_nan) z x y Nz Nx Ny E L1) as L2. rewrite (ol_lt (D:=not_nan)) in H2 by auto. rewrite L2 in H2. discriminate.
Qed.

Section P.
Context {T : Type} `{Num T} (SO : strict_order T).
Variable a : list T.
Local Notation v := (L_Sort.v a).
Local Notation valid := (L_Sort.valid a).

Lemma cswap_weak idx i j l r : valid idx -> l <= i <= r -> l <= j <= r -> r < length a ->
  exists idx', conditional_swap a idx (Z.of_nat i) (Z.of_nat j) = Ok idx' /\ seg l r idx idx' /\
    nltb (v idx' j) (v idx' i) = false /\
    (forall k, k <> i -> k <> j -> v idx' k = v idx k) /\
    ((v idx' i = v idx i /\ v idx' j = v idx j) \/ (nltb (v idx j) (v idx i) = true /\ v idx' i = v idx j /\ v idx' j = v idx i)).
Proof.
  intros Hv Hi Hj Hr. unfold conditional_swap. rewrite !aval_nat by (auto; lia). cbn [bind].
  destruct (nltb (v idx j) (v idx i)) eqn:E.
  - destruct Hv as [Hl Hf]. rewrite swap_nat by lia. eexists. split; [reflexivity|]. split; [now apply (seg_swapped a)|].
    rewrite !v_swapped by (try split; auto; lia). rewrite !Nat.eqb_refl.
    destruct (Nat.eqb_spec j i) as [->|Nij].
    + rewrite (proj1 SO) in E. discriminate.
    + split.
      { destruct (nltb (v idx i) (v idx j)) eqn:E2; [|reflexivity]. pose proof (proj2 SO _ _ _ E E2) as C. now rewrite (proj1 SO) in C. }
      split.
      * intros k Nk1 Nk2. rewrite v_swapped by (try split; auto; lia). destruct (Nat.eqb_spec k i); [congruence|]. destruct (Nat.eqb_spec k j); [congruence|]. reflexivity.
      * right. auto.
  - exists idx. split; [reflexivity|]. split; [apply seg_refl|]. split; [exact E|]. split; [reflexivity|]. left. auto.
Qed.

Lemma partition_weak L Rr p F : L + 3 <= Rr -> Rr < length a -> length a < F ->
  forall fuel idx l r, valid idx -> L <= l -> l < r -> r <= Rr - 1 -> r - l < fuel ->
  nltb p (v idx l) = false -> nltb (v idx r) p = false ->
  exists idx' c, partition_real_loop fuel F a idx p (Z.of_nat l) (Z.of_nat r) = Ok (idx', Z.of_nat c) /\
    seg L Rr idx idx' /\ L < c <= Rr - 1.
Proof.
  intros HLR HR HF. induction fuel as [|f IH]; intros idx l r Hv Hl Hlr Hr Hf Hlo Hhi; [lia|].
  cbn [partition_real_loop].
  replace (Z.of_nat l + 1)%Z with (Z.of_nat (S l)) by lia. replace (Z.of_nat r - 1)%Z with (Z.of_nat (r - 1)) by lia.
  destruct (scan_up_spec (fun _ : T => True) a idx p (S l) r F) as (l' & El & Bl & Nl & Al); auto; try lia.
  rewrite El. cbn [bind].
  destruct (scan_down_spec (fun _ : T => True) a idx p (r - 1) l F) as (r' & Er & Br & Nr & Ar); auto; try lia.
  rewrite Er. cbn [bind].
  destruct (Z.leb_spec (Z.of_nat r') (Z.of_nat l')) as [Hge|Hlt].
  - exists idx, l'. split; [reflexivity|]. split; [apply seg_refl|]. lia.
  - destruct Hv as [Hlen Hfa]. rewrite swap_nat by lia. cbn [bind].
    assert (Hsw : seg L Rr idx (swapped idx l' r')) by (apply (seg_swapped a); auto; lia).
    assert (Hv' : valid idx) by (split; auto).
    assert (Hvs : forall k, v (swapped idx l' r') k = if k =? l' then v idx r' else if k =? r' then v idx l' else v idx k)
      by (intros k; apply v_swapped; auto; lia).
    destruct (IH (swapped idx l' r') l' r') as (idx' & c & E & S1 & B); try lia.
    + eapply seg_valid; eauto.
    + rewrite Hvs, Nat.eqb_refl. exact Nr.
    + rewrite Hvs. destruct (Nat.eqb_spec r' l'); [lia|]. rewrite Nat.eqb_refl. exact Nl.
    + exists idx', c. split; [exact E|]. split; [eapply seg_trans; eauto|]. exact B.
Qed.

Lemma quick_sort_weak F : length a < F -> forall fuel idx l r, valid idx -> l <= r -> r < length a -> r - l < fuel ->
  exists idx', quick_sort true fuel F a idx (Z.of_nat l) (Z.of_nat r) = Ok idx' /\ seg l r idx idx'.
Proof.
  intros HF. induction fuel as [|f IH]; intros idx l r Hv Hlr Hr Hf; [lia|]. cbn [quick_sort].
  destruct (Z.eqb_spec (Z.of_nat r - Z.of_nat l) 0) as [E0|N0].
  { exists idx. split; [reflexivity|]. apply seg_refl. }
  destruct (Z.eqb_spec (Z.of_nat r - Z.of_nat l) 1) as [E1|N1].
  { destruct (cswap_weak idx l r l r) as (idx' & E & S1 & _); auto; try lia. exists idx'. split; [exact E|]. exact S1. }
  destruct (Z.eqb_spec (Z.of_nat r - Z.of_nat l) 2) as [E2|N2].
  { replace (Z.of_nat l + 1)%Z with (Z.of_nat (S l)) by lia.
    destruct (cswap_weak idx l (S l) l r) as (i1 & Q1 & S1 & _); auto; try lia. rewrite Q1. cbn [bind].
    assert (V1 : valid i1) by (eapply seg_valid; eauto).
    destruct (cswap_weak i1 l r l r) as (i2 & Q2 & S2 & _); auto; try lia. rewrite Q2. cbn [bind].
    assert (V2 : valid i2) by (eapply seg_valid; eauto).
    destruct (cswap_weak i2 (S l) r l r) as (i3 & Q3 & S3 & _); auto; try lia. rewrite Q3.
    exists i3. split; [reflexivity|]. eapply seg_trans; [eapply seg_trans|]; eauto. }
  assert (Hbig : l + 3 <= r) by lia. unfold sort_left_right_and_center.
  set (c := (l + r) / 2). assert (Hc : ((Z.of_nat l + Z.of_nat r) / 2 = Z.of_nat c)%Z).
  { unfold c. rewrite Nat2Z.inj_div, Nat2Z.inj_add. reflexivity. }
  rewrite Hc. clear Hc. assert (Hcb : l < c <= r - 1).
  { assert (2 * c <= l + r < 2 * c + 2) by (unfold c; pose proof (Nat.div_mod (l + r) 2); pose proof (Nat.mod_upper_bound (l + r) 2); lia). lia. }
  destruct (cswap_weak idx l c l r) as (i1 & Q1 & S1 & L1 & O1 & _); auto; try lia. rewrite Q1. cbn [bind].
  assert (V1 : valid i1) by (eapply seg_valid; eauto).
  destruct (cswap_weak i1 l r l r) as (i2 & Q2 & S2 & L2 & O2 & C2); auto; try lia. rewrite Q2. cbn [bind].
  assert (V2 : valid i2) by (eapply seg_valid; eauto).
  destruct (cswap_weak i2 c r l r) as (i3 & Q3 & S3 & L3 & O3 & C3); auto; try lia. rewrite Q3. cbn [bind].
  assert (V3 : valid i3) by (eapply seg_valid; eauto).
  assert (Hl2 : nltb (v i2 c) (v i2 l) = false).
  { rewrite (O2 c) by lia. destruct C2 as [[-> _]|(Q & -> & _)]; [exact L1|].
    destruct (nltb (v i1 c) (v i1 r)) eqn:E; [|reflexivity]. now rewrite (proj2 SO _ _ _ E Q) in L1. }
  assert (Hl3 : nltb (v i3 c) (v i3 l) = false).
  { rewrite (O3 l) by lia. destruct C3 as [[-> _]|(_ & -> & _)]; auto. }
  replace (Z.of_nat r - 1)%Z with (Z.of_nat (r - 1)) by lia.
  rewrite swap_nat by (destruct V3; lia). cbn [bind].
  set (i4 := swapped i3 c (r - 1)).
  assert (S4 : seg l r i3 i4) by (apply (seg_swapped a); [apply V3|lia..]).
  assert (V4 : valid i4) by (eapply seg_valid; eauto).
  rewrite aval_nat by (auto; lia). cbn [bind]. set (p := v i4 (r - 1)).
  assert (Hv4 : forall k, v i4 k = if k =? c then v i3 (r - 1) else if k =? r - 1 then v i3 c else v i3 k)
    by (intros; apply v_swapped; auto; lia).
  assert (Hp : p = v i3 c).
  { unfold p. rewrite Hv4. destruct (Nat.eqb_spec (r - 1) c) as [Q|]; [now rewrite Q|]. now rewrite Nat.eqb_refl. }
  unfold partition, partition_real. change 0%Z with (Z.of_nat 0). rewrite (lget_nat a 0 n0) by lia. cbn [bind].
  replace (Z.of_nat r - 1)%Z with (Z.of_nat (r - 1)) by lia.
  destruct (partition_weak l r p F Hbig Hr HF F i4 l (r - 1)) as (i5 & ctr & E5 & S5 & B5); auto; try lia.
  { rewrite Hv4. destruct (Nat.eqb_spec l c); [lia|]. destruct (Nat.eqb_spec l (r - 1)); [lia|]. now rewrite Hp. }
  { apply SO. }
  rewrite E5. cbn [bind]. assert (V5 : valid i5) by (eapply seg_valid; eauto).
  rewrite swap_nat by (destruct V5; lia). cbn [bind]. set (i6 := swapped i5 ctr (r - 1)).
  assert (S6 : seg l r i5 i6) by (apply (seg_swapped a); [apply V5|lia..]).
  assert (V6 : valid i6) by (eapply seg_valid; eauto).
  replace (Z.of_nat ctr - 1)%Z with (Z.of_nat (ctr - 1)) by lia. replace (Z.of_nat ctr + 1)%Z with (Z.of_nat (S ctr)) by lia.
  destruct (IH i6 l (ctr - 1) V6) as (i7 & E7 & S7); try lia. rewrite E7. cbn [bind].
  assert (S7' : seg l r i6 i7) by (eapply seg_mono; [| | |exact S7]; lia). assert (V7 : valid i7) by (eapply seg_valid; eauto).
  destruct (IH i7 (S ctr) r V7) as (i8 & E8 & S8); try lia. rewrite E8.
  assert (S8' : seg l r i7 i8) by (eapply seg_mono; [| | |exact S8]; lia).
  exists i8. split; [reflexivity|]. repeat (eapply seg_trans; [eassumption|]). apply seg_refl.
Qed.

Lemma sort_weak fuel : length a < fuel -> exists p, sort true fuel a = Ok p /\ Permutation p (seq 0 (length a)).
Proof.
  intros Hf. unfold sort, initial_index. destruct (Nat.ltb_spec 1 (length a)) as [L|L].
  - replace (Z.of_nat (length a) - 1)%Z with (Z.of_nat (length a - 1)) by lia. change 0%Z with (Z.of_nat 0).
    destruct (quick_sort_weak fuel Hf fuel (seq 0 (length a)) 0 (length a - 1)) as (i & E & S1); try lia.
    { split; [apply seq_length|]. apply Forall_forall. intros x Hx. apply in_seq in Hx. lia. }
    exists i. split; [exact E|]. apply Permutation_sym, S1.
  - exists (seq 0 (length a)). split; [reflexivity|apply Permutation_refl].
Qed.
End P.
