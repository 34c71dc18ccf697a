(** Correctness of the quicksort model. *)
From Coq Require Import List ZArith Lia Bool Arith Permutation.
From Verif Require Import Base Num M_Utils L_Base L_Order.
Import ListNotations.
Local Open Scope nat_scope.

Lemma lget_nat {A} (l : list A) k d : k < length l -> lget l (Z.of_nat k) = Ok (nth k l d).
Proof.
  intros Hk. unfold lget. rewrite npidx_nat by assumption. cbn [bind].
  rewrite (nth_error_nth' l d) by assumption. reflexivity.
Qed.
Lemma lset_nat {A} (l : list A) k x : k < length l -> lset l (Z.of_nat k) x = Ok (upd l k x).
Proof. intros Hk. unfold lset. now rewrite npidx_nat by assumption. Qed.

Definition swapped (l : list nat) (i j : nat) : list nat := upd (upd l i (nth j l 0)) j (nth i l 0).
Lemma swap_nat l i j : i < length l -> j < length l -> swap l (Z.of_nat i) (Z.of_nat j) = Ok (swapped l i j).
Proof.
  intros Hi Hj. unfold swap. rewrite (lget_nat l i 0), (lget_nat l j 0) by assumption. cbn [bind].
  rewrite lset_nat by assumption. cbn [bind]. rewrite lset_nat by (rewrite upd_length; assumption). reflexivity.
Qed.
Lemma swapped_length l i j : length (swapped l i j) = length l.
Proof. unfold swapped. now rewrite !upd_length. Qed.
Lemma nth_swapped l i j k : i < length l -> j < length l ->
  nth k (swapped l i j) 0 = if k =? i then nth j l 0 else if k =? j then nth i l 0 else nth k l 0.
Proof.
  intros Hi Hj. unfold swapped. destruct (Nat.eqb_spec k i) as [Ei|Ni], (Nat.eqb_spec k j) as [Ej|Nj]; subst.
  - now rewrite nth_upd_same by (rewrite upd_length; assumption).
  - rewrite nth_upd_other by assumption. now rewrite nth_upd_same.
  - now rewrite nth_upd_same by (rewrite upd_length; assumption).
  - rewrite !nth_upd_other by assumption. reflexivity.
Qed.
Lemma swapped_perm l i j : i < length l -> j < length l -> Permutation l (swapped l i j).
Proof.
  intros Hi Hj. apply (Permutation_nth l (swapped l i j) 0). split; [now rewrite swapped_length|].
  exists (fun k => if k =? i then j else if k =? j then i else k). split; [|split].
  - intros k Hk. destruct (k =? i), (k =? j); assumption.
  - intros x y Hx Hy E. destruct (Nat.eqb_spec x i), (Nat.eqb_spec x j), (Nat.eqb_spec y i), (Nat.eqb_spec y j); congruence.
  - intros k Hk. rewrite nth_swapped by assumption. destruct (Nat.eqb_spec k i), (Nat.eqb_spec k j); reflexivity.
Qed.

Section S.
Context {T : Type} `{Num T} (D : T -> Prop) {OL : OrdLaws D}.
Variable a : list T.
Hypothesis Da : Forall D a.

Definition valid (idx : list nat) : Prop := length idx = length a /\ Forall (fun i => i < length a) idx.
Definition v (idx : list nat) (k : nat) : T := nth (nth k idx 0) a n0.

Lemma Dv idx k : valid idx -> k < length a -> D (v idx k).
Proof.
  intros [Hl Hf] Hk. unfold v. rewrite Forall_forall in Da. apply Da, nth_In.
  apply (Forall_nth' _ idx 0 k Hf). lia.
Qed.
Lemma aval_nat idx k : valid idx -> k < length a -> aval a idx (Z.of_nat k) = Ok (v idx k).
Proof.
  intros [Hl Hf] Hk. unfold aval. rewrite (lget_nat idx k 0) by lia. cbn [bind].
  apply lget_nat. apply (Forall_nth' _ idx 0 k Hf). lia.
Qed.

(** idx' arises from idx by permuting positions l..r only. *)
Definition seg (l r : nat) (idx idx' : list nat) : Prop :=
  Permutation idx idx' /\
  (forall k, k < l \/ r < k -> nth k idx' 0 = nth k idx 0) /\
  (forall k, l <= k <= r -> exists k', l <= k' <= r /\ nth k idx' 0 = nth k' idx 0).

Lemma seg_refl l r idx : seg l r idx idx.
Proof. split; [apply Permutation_refl|]. split; [reflexivity|]. intros k Hk. exists k. auto. Qed.
Lemma seg_trans l r i1 i2 i3 : seg l r i1 i2 -> seg l r i2 i3 -> seg l r i1 i3.
Proof.
  intros (P1 & O1 & I1) (P2 & O2 & I2). split; [eapply Permutation_trans; eauto|]. split.
  - intros k Hk. rewrite O2, O1; auto.
  - intros k Hk. destruct (I2 k Hk) as (k2 & H2 & E2). destruct (I1 k2 H2) as (k1 & H1 & E1). exists k1. split; auto. congruence.
Qed.
Lemma seg_mono l r l' r' i1 i2 : l' <= l -> r <= r' -> l <= r -> seg l r i1 i2 -> seg l' r' i1 i2.
Proof.
  intros Hl Hr Hlr (P1 & O1 & I1). split; auto. split.
  - intros k Hk. apply O1. lia.
  - intros k Hk. destruct (le_lt_dec l k) as [Q|Q]; [destruct (le_lt_dec k r) as [Q2|Q2]|].
    + destruct (I1 k ltac:(lia)) as (k' & H1 & E). exists k'. split; [lia|auto].
    + exists k. split; auto.
    + exists k. split; auto.
Qed.
Lemma seg_valid l r i1 i2 : seg l r i1 i2 -> valid i1 -> valid i2.
Proof.
  intros (P1 & _) [Hl Hf]. split; [now rewrite <- (Permutation_length P1)|]. eapply Permutation_Forall; eauto.
Qed.
Lemma seg_swapped l r idx i j : length idx = length a -> l <= i <= r -> l <= j <= r -> r < length a -> seg l r idx (swapped idx i j).
Proof.
  intros Hl Hi Hj Hr. split; [apply swapped_perm; lia|]. split.
  - intros k Hk. rewrite nth_swapped by lia. destruct (Nat.eqb_spec k i); [lia|]. destruct (Nat.eqb_spec k j); [lia|]. reflexivity.
  - intros k Hk. rewrite nth_swapped by lia. destruct (Nat.eqb_spec k i); [exists j; auto|]. destruct (Nat.eqb_spec k j); [exists i; auto|]. exists k; auto.
Qed.
Lemma v_swapped idx i j k : valid idx -> i < length a -> j < length a ->
  v (swapped idx i j) k = if k =? i then v idx j else if k =? j then v idx i else v idx k.
Proof.
  intros [Hl _] Hi Hj. unfold v. rewrite nth_swapped by lia. destruct (k =? i), (k =? j); reflexivity.
Qed.

(** Order facts about a segment survive permuting it. *)
Lemma seg_bound_le l r idx idx' p : seg l r idx idx' -> (forall k, l <= k <= r -> nleb (v idx k) p = true) ->
  forall k, l <= k <= r -> nleb (v idx' k) p = true.
Proof. intros (_ & _ & I1) Hb k Hk. destruct (I1 k Hk) as (k' & H1 & E). unfold v. rewrite E. now apply Hb. Qed.
Lemma seg_bound_ge l r idx idx' p : seg l r idx idx' -> (forall k, l <= k <= r -> nleb p (v idx k) = true) ->
  forall k, l <= k <= r -> nleb p (v idx' k) = true.
Proof. intros (_ & _ & I1) Hb k Hk. destruct (I1 k Hk) as (k' & H1 & E). unfold v. rewrite E. now apply Hb. Qed.
Lemma seg_v_out l r idx idx' k : seg l r idx idx' -> k < l \/ r < k -> v idx' k = v idx k.
Proof. intros (_ & O1 & _) Hk. unfold v. now rewrite O1. Qed.

Lemma cswap_spec idx i j l r : valid idx -> l <= i <= r -> l <= j <= r -> r < length a ->
  exists idx', conditional_swap a idx (Z.of_nat i) (Z.of_nat j) = Ok idx' /\ seg l r idx idx' /\
    nleb (v idx' i) (v idx' j) = true /\
    (forall k, k <> i -> k <> j -> v idx' k = v idx k) /\
    ((v idx' i = v idx i /\ v idx' j = v idx j) \/ (nleb (v idx j) (v idx i) = true /\ v idx' i = v idx j /\ v idx' j = v idx i)).
Proof.
  intros Hv Hi Hj Hr. unfold conditional_swap. rewrite !aval_nat by (auto; lia). cbn [bind].
  assert (Di : D (v idx i)) by (apply Dv; auto; lia). assert (Dj : D (v idx j)) by (apply Dv; auto; lia).
  destruct (nltb (v idx j) (v idx i)) eqn:E.
  - destruct Hv as [Hl Hf]. rewrite swap_nat by lia. eexists. split; [reflexivity|]. split; [now apply seg_swapped|].
    rewrite !v_swapped by (try split; auto; lia). rewrite !Nat.eqb_refl.
    assert (Hle : nleb (v idx j) (v idx i) = true) by (apply (ol_lt_le D); auto).
    destruct (Nat.eqb_spec j i) as [->|Nij].
    + rewrite (ol_lt_irrefl D) in E by assumption. discriminate.
    + split; [exact Hle|]. split.
      * intros k Nk1 Nk2. rewrite v_swapped by (try split; auto; lia). destruct (Nat.eqb_spec k i); [congruence|]. destruct (Nat.eqb_spec k j); [congruence|]. reflexivity.
      * right. auto.
  - exists idx. split; [reflexivity|]. split; [apply seg_refl|]. split; [now apply (ol_nlt_le D)|]. split; [reflexivity|]. left. auto.
Qed.

(** scans *)
Lemma scan_up_spec idx p l stop fuel : valid idx -> D p -> l <= stop -> stop < length a -> stop - l < fuel ->
  nltb (v idx stop) p = false ->
  exists l', scan_up fuel a idx p (Z.of_nat l) = Ok (Z.of_nat l') /\ l <= l' <= stop /\
    nltb (v idx l') p = false /\ forall k, l <= k < l' -> nltb (v idx k) p = true.
Proof.
  revert l. induction fuel as [|f IH]; intros l Hv Dp Hl Hs Hf Hstop; [lia|]. cbn [scan_up].
  rewrite aval_nat by (auto; lia). cbn [bind]. destruct (nltb (v idx l) p) eqn:E.
  - assert (l <> stop) by congruence.
    replace (Z.of_nat l + 1)%Z with (Z.of_nat (S l)) by lia.
    destruct (IH (S l) Hv Dp) as (l' & E1 & B & N & A); auto; try lia.
    exists l'. split; [exact E1|]. split; [lia|]. split; [exact N|]. intros k Hk.
    destruct (Nat.eq_dec k l) as [->|]; [exact E|]. apply A. lia.
  - exists l. split; [reflexivity|]. split; [lia|]. split; [exact E|]. intros k Hk. lia.
Qed.
Lemma scan_down_spec idx p r stop fuel : valid idx -> D p -> stop <= r -> r < length a -> r - stop < fuel ->
  nltb p (v idx stop) = false ->
  exists r', scan_down fuel a idx p (Z.of_nat r) = Ok (Z.of_nat r') /\ stop <= r' <= r /\
    nltb p (v idx r') = false /\ forall k, r' < k <= r -> nltb p (v idx k) = true.
Proof.
  revert r. induction fuel as [|f IH]; intros r Hv Dp Hl Hs Hf Hstop; [lia|]. cbn [scan_down].
  rewrite aval_nat by (auto; lia). cbn [bind]. destruct (nltb p (v idx r)) eqn:E.
  - assert (r <> stop) by congruence.
    replace (Z.of_nat r - 1)%Z with (Z.of_nat (r - 1)) by lia.
    destruct (IH (r - 1) Hv Dp) as (r' & E1 & B & N & A); auto; try lia.
    exists r'. split; [exact E1|]. split; [lia|]. split; [exact N|]. intros k Hk.
    destruct (Nat.eq_dec k r) as [->|]; [exact E|]. apply A. lia.
  - exists r. split; [reflexivity|]. split; [lia|]. split; [exact E|]. intros k Hk. lia.
Qed.

(** partition loop on [L, R0] with the pivot stored at R0-1 *)
Lemma partition_loop_spec L Rr p F : D p -> L + 3 <= Rr -> Rr < length a -> length a < F ->
  forall fuel idx l r, valid idx -> L <= l -> l < r -> r <= Rr - 1 -> r - l < fuel ->
  (forall k, L <= k <= l -> nleb (v idx k) p = true) ->
  (forall k, r <= k <= Rr -> nleb p (v idx k) = true) ->
  nleb (v idx (Rr - 1)) p = true ->
  exists idx' c, partition_real_loop fuel F a idx p (Z.of_nat l) (Z.of_nat r) = Ok (idx', Z.of_nat c) /\
    seg L Rr idx idx' /\ L < c <= Rr - 1 /\
    (forall k, L <= k < c -> nleb (v idx' k) p = true) /\
    (forall k, c <= k <= Rr -> nleb p (v idx' k) = true) /\ nleb (v idx' (Rr - 1)) p = true.
Proof.
  intros Dp HLR HR HF. induction fuel as [|f IH]; intros idx l r Hv Hl Hlr Hr Hf Hlo Hhi Hpv; [lia|].
  cbn [partition_real_loop].
  replace (Z.of_nat l + 1)%Z with (Z.of_nat (S l)) by lia. replace (Z.of_nat r - 1)%Z with (Z.of_nat (r - 1)) by lia.
  destruct (scan_up_spec idx p (S l) r F) as (l' & El & Bl & Nl & Al); auto; try lia.
  { apply (ol_le_nlt D); auto; [apply Dv; auto; lia|]. apply Hhi. lia. }
  rewrite El. cbn [bind].
  destruct (scan_down_spec idx p (r - 1) l F) as (r' & Er & Br & Nr & Ar); auto; try lia.
  { apply (ol_le_nlt D); [apply Dv; auto; lia|exact Dp|apply Hlo; lia]. }
  rewrite Er. cbn [bind].
  assert (Hup : forall k, L <= k < l' -> nleb (v idx k) p = true).
  { intros k Hk. destruct (le_lt_dec k l); [apply Hlo; lia|]. apply (ol_lt_le D); auto; [apply Dv; auto; lia|]. apply Al. lia. }
  assert (Hdn : forall k, r' < k <= Rr -> nleb p (v idx k) = true).
  { intros k Hk. destruct (le_lt_dec r k); [apply Hhi; lia|]. apply (ol_lt_le D); auto; [apply Dv; auto; lia|]. apply Ar. lia. }
  assert (Hl'p : nleb p (v idx l') = true) by (apply (ol_nlt_le D); auto; apply Dv; auto; lia).
  assert (Hr'p : nleb (v idx r') p = true) by (apply (ol_nlt_le D); auto; apply Dv; auto; lia).
  destruct (Z.leb_spec (Z.of_nat r') (Z.of_nat l')) as [Hge|Hlt].
  - exists idx, l'. split; [reflexivity|]. split; [apply seg_refl|]. split; [lia|]. split; [exact Hup|]. split; [|exact Hpv].
    intros k Hk. destruct (Nat.eq_dec k l') as [->|]; [exact Hl'p|]. apply Hdn. lia.
  - destruct Hv as [Hlen Hfa]. rewrite swap_nat by lia. cbn [bind].
    assert (Hsw : seg L Rr idx (swapped idx l' r')) by (apply seg_swapped; auto; lia).
    assert (Hv' : valid idx) by (split; auto).
    assert (Hvs : forall k, v (swapped idx l' r') k = if k =? l' then v idx r' else if k =? r' then v idx l' else v idx k)
      by (intros k; apply v_swapped; auto; lia).
    destruct (IH (swapped idx l' r') l' r') as (idx' & c & E & S1 & B & A1 & A2 & A3); try lia.
    + eapply seg_valid; eauto.
    + intros k Hk. rewrite Hvs. destruct (Nat.eqb_spec k l'); [exact Hr'p|]. destruct (Nat.eqb_spec k r'); [lia|]. apply Hup. lia.
    + intros k Hk. rewrite Hvs. destruct (Nat.eqb_spec k l'); [lia|]. destruct (Nat.eqb_spec k r'); [exact Hl'p|]. apply Hdn. lia.
    + rewrite Hvs. destruct (Nat.eqb_spec (Rr - 1) l'); [lia|]. destruct (Nat.eqb_spec (Rr - 1) r'); [lia|]. exact Hpv.
    + exists idx', c. split; [exact E|]. split; [eapply seg_trans; eauto|]. auto.
Qed.

Definition sorted_on (idx : list nat) (l r : nat) : Prop :=
  forall i j, l <= i -> i < j -> j <= r -> nleb (v idx i) (v idx j) = true.

Lemma quick_sort_spec F : length a < F -> forall fuel idx l r, valid idx -> l <= r -> r < length a -> r - l < fuel ->
  exists idx', quick_sort true fuel F a idx (Z.of_nat l) (Z.of_nat r) = Ok idx' /\ seg l r idx idx' /\ sorted_on idx' l r.
Proof.
  intros HF. induction fuel as [|f IH]; intros idx l r Hv Hlr Hr Hf; [lia|]. cbn [quick_sort].
  destruct (Z.eqb_spec (Z.of_nat r - Z.of_nat l) 0) as [E0|N0].
  { exists idx. split; [reflexivity|]. split; [apply seg_refl|]. intros i j; lia. }
  destruct (Z.eqb_spec (Z.of_nat r - Z.of_nat l) 1) as [E1|N1].
  { destruct (cswap_spec idx l r l r) as (idx' & E & S1 & Le & _); auto; try lia. exists idx'. split; [exact E|]. split; [exact S1|].
    intros i j Hi Hj Hk. assert (i = l) by lia. assert (j = r) by lia. subst. exact Le. }
  destruct (Z.eqb_spec (Z.of_nat r - Z.of_nat l) 2) as [E2|N2].
  { replace (Z.of_nat l + 1)%Z with (Z.of_nat (S l)) by lia.
    destruct (cswap_spec idx l (S l) l r) as (i1 & Q1 & S1 & L1 & O1 & _); auto; try lia. rewrite Q1. cbn [bind].
    assert (V1 : valid i1) by (eapply seg_valid; eauto).
    destruct (cswap_spec i1 l r l r) as (i2 & Q2 & S2 & L2 & O2 & C2); auto; try lia. rewrite Q2. cbn [bind].
    assert (V2 : valid i2) by (eapply seg_valid; eauto).
    destruct (cswap_spec i2 (S l) r l r) as (i3 & Q3 & S3 & L3 & O3 & C3); auto; try lia. rewrite Q3.
    exists i3. split; [reflexivity|]. split; [eapply seg_trans; [eapply seg_trans|]; eauto|].
    assert (V3 : valid i3) by (eapply seg_valid; eauto).
    assert (Hl3 : v i3 l = v i2 l) by (apply O3; lia).
    assert (Hl2 : nleb (v i2 l) (v i2 (S l)) = true).
    { rewrite (O2 (S l)) by lia. destruct C2 as [[-> _]|(Q & -> & _)]; [exact L1|].
      apply (ol_trans (D:=D) (v i1 r) (v i1 l) (v i1 (S l))); auto; apply Dv; auto; lia. }
    assert (Ha : nleb (v i3 l) (v i3 (S l)) = true /\ nleb (v i3 l) (v i3 r) = true).
    { rewrite Hl3. destruct C3 as [[-> ->]|(_ & -> & ->)]; auto. }
    intros i j Hi Hj Hk.
    assert (Hij : (i = l /\ j = S l) \/ (i = l /\ j = r) \/ (i = S l /\ j = r)) by lia.
    destruct Hij as [[-> ->]|[[-> ->]|[-> ->]]]; tauto || exact L3. }
  (* general case *)
  assert (Hbig : l + 3 <= r) by lia. unfold sort_left_right_and_center.
  set (c := (l + r) / 2). assert (Hc : ((Z.of_nat l + Z.of_nat r) / 2 = Z.of_nat c)%Z).
  { unfold c. rewrite Nat2Z.inj_div, Nat2Z.inj_add. reflexivity. }
  rewrite Hc. clear Hc. assert (Hcb : l < c < r - 1 \/ (l < c /\ c = r - 1)).
  { assert (2 * c <= l + r < 2 * c + 2) by (unfold c; pose proof (Nat.div_mod (l + r) 2); pose proof (Nat.mod_upper_bound (l + r) 2); lia). lia. }
  destruct (cswap_spec idx l c l r) as (i1 & Q1 & S1 & L1 & O1 & _); auto; try lia. rewrite Q1. cbn [bind].
  assert (V1 : valid i1) by (eapply seg_valid; eauto).
  destruct (cswap_spec i1 l r l r) as (i2 & Q2 & S2 & L2 & O2 & C2); auto; try lia. rewrite Q2. cbn [bind].
  assert (V2 : valid i2) by (eapply seg_valid; eauto).
  destruct (cswap_spec i2 c r l r) as (i3 & Q3 & S3 & L3 & O3 & C3); auto; try lia. rewrite Q3. cbn [bind].
  assert (V3 : valid i3) by (eapply seg_valid; eauto).
  assert (Hl2 : nleb (v i2 l) (v i2 c) = true).
  { rewrite (O2 c) by lia. destruct C2 as [[-> _]|(Q & -> & _)]; [exact L1|].
    apply (ol_trans (D:=D) (v i1 r) (v i1 l) (v i1 c)); auto; apply Dv; auto; lia. }
  assert (Hl3 : nleb (v i3 l) (v i3 c) = true).
  { rewrite (O3 l) by lia. destruct C3 as [[-> _]|(_ & -> & _)]; auto. }
  replace (Z.of_nat r - 1)%Z with (Z.of_nat (r - 1)) by lia.
  rewrite swap_nat by (destruct V3; lia). cbn [bind].
  set (i4 := swapped i3 c (r - 1)).
  assert (S4 : seg l r i3 i4) by (apply seg_swapped; [apply V3|lia..]).
  assert (V4 : valid i4) by (eapply seg_valid; eauto).
  rewrite aval_nat by (auto; lia). cbn [bind]. set (p := v i4 (r - 1)).
  assert (Hv4 : forall k, v i4 k = if k =? c then v i3 (r - 1) else if k =? r - 1 then v i3 c else v i3 k)
    by (intros; apply v_swapped; auto; lia).
  assert (Hp : p = v i3 c).
  { unfold p. rewrite Hv4. destruct (Nat.eqb_spec (r - 1) c) as [Q|]; [now rewrite Q|]. now rewrite Nat.eqb_refl. }
  assert (Dp : D p) by (unfold p; apply Dv; auto; lia).
  unfold partition, partition_real. change 0%Z with (Z.of_nat 0). rewrite (lget_nat a 0 n0) by lia. cbn [bind].
  replace (Z.of_nat r - 1)%Z with (Z.of_nat (r - 1)) by lia.
  destruct (partition_loop_spec l r p F Dp Hbig Hr HF F i4 l (r - 1)) as (i5 & ctr & E5 & S5 & B5 & A5 & A6 & A7); auto; try lia.
  { intros k Hk. assert (k = l) by lia. subst k. rewrite Hv4. destruct (Nat.eqb_spec l c); [lia|]. destruct (Nat.eqb_spec l (r - 1)); [lia|]. now rewrite Hp. }
  { intros k Hk. assert (Hk2 : k = r - 1 \/ k = r) by lia. destruct Hk2 as [->| ->].
    - apply ol_refl. exact Dp.
    - rewrite Hv4. destruct (Nat.eqb_spec r c); [lia|]. destruct (Nat.eqb_spec r (r - 1)); [lia|]. now rewrite Hp. }
  { apply ol_refl. exact Dp. }
  rewrite E5. cbn [bind]. assert (V5 : valid i5) by (eapply seg_valid; eauto).
  rewrite swap_nat by (destruct V5; lia). cbn [bind]. set (i6 := swapped i5 ctr (r - 1)).
  assert (S6 : seg l r i5 i6) by (apply seg_swapped; [apply V5|lia..]).
  assert (V6 : valid i6) by (eapply seg_valid; eauto).
  assert (Hv6 : forall k, v i6 k = if k =? ctr then v i5 (r - 1) else if k =? r - 1 then v i5 ctr else v i5 k)
    by (intros; apply v_swapped; auto; lia).
  assert (Hlo6 : forall k, l <= k < ctr -> nleb (v i6 k) p = true).
  { intros k Hk. rewrite Hv6. destruct (Nat.eqb_spec k ctr); [lia|]. destruct (Nat.eqb_spec k (r - 1)); [lia|]. apply A5. lia. }
  assert (Hhi6 : forall k, ctr <= k <= r -> nleb p (v i6 k) = true).
  { intros k Hk. rewrite Hv6. destruct (Nat.eqb_spec k ctr); [apply A6; lia|]. destruct (Nat.eqb_spec k (r - 1)); apply A6; lia. }
  assert (Hc6 : nleb (v i6 ctr) p = true) by (rewrite Hv6, Nat.eqb_refl; exact A7).
  replace (Z.of_nat ctr - 1)%Z with (Z.of_nat (ctr - 1)) by lia. replace (Z.of_nat ctr + 1)%Z with (Z.of_nat (S ctr)) by lia.
  destruct (IH i6 l (ctr - 1) V6) as (i7 & E7 & S7 & So7); try lia. rewrite E7. cbn [bind].
  assert (S7' : seg l r i6 i7) by (eapply seg_mono; [| | |exact S7]; lia). assert (V7 : valid i7) by (eapply seg_valid; eauto).
  destruct (IH i7 (S ctr) r V7) as (i8 & E8 & S8 & So8); try lia. rewrite E8.
  assert (S8' : seg l r i7 i8) by (eapply seg_mono; [| | |exact S8]; lia). assert (V8 : valid i8) by (eapply seg_valid; eauto).
  exists i8. split; [reflexivity|]. split.
  { repeat (eapply seg_trans; [eassumption|]). apply seg_refl. }
  (* values in the final array *)
  assert (Hlo8 : forall k, l <= k < ctr -> nleb (v i8 k) p = true).
  { intros k Hk. rewrite (seg_v_out _ _ _ _ k S8) by lia. apply (seg_bound_le l (ctr - 1) i6 i7 p S7); [|lia]. intros; apply Hlo6; lia. }
  assert (Hce : v i8 ctr = v i6 ctr).
  { rewrite (seg_v_out _ _ _ _ ctr S8) by lia. apply (seg_v_out _ _ _ _ ctr S7). lia. }
  assert (Hhi8 : forall k, S ctr <= k <= r -> nleb p (v i8 k) = true).
  { apply (seg_bound_ge (S ctr) r i7 i8 p S8). intros k Hk. rewrite (seg_v_out _ _ _ _ k S7) by lia. apply Hhi6. lia. }
  assert (Hcp : nleb (v i8 ctr) p = true /\ nleb p (v i8 ctr) = true) by (rewrite Hce; split; [exact Hc6|apply Hhi6; lia]).
  assert (DD : forall k, k <= r -> D (v i8 k)) by (intros; apply Dv; auto; lia).
  intros i j Hi Hj Hk.
  destruct (lt_eq_lt_dec i ctr) as [[Qi|Qi]|Qi].
  - destruct (lt_dec j ctr) as [Qj|Qj].
    + rewrite !(seg_v_out _ _ _ _ _ S8) by lia. apply So7; lia.
    + apply (ol_trans (D:=D) _ p); [apply DD; lia|exact Dp|apply DD; lia|apply Hlo8; lia|]. destruct (Nat.eq_dec j ctr) as [Ec|]; [subst j; apply Hcp|]. apply Hhi8. lia.
  - subst i. apply (ol_trans (D:=D) _ p); [apply DD; lia|exact Dp|apply DD; lia|apply Hcp|]. apply Hhi8. lia.
  - apply So8; lia.
Qed.
End S.
