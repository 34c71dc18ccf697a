(** Lemmas about the CSV reader and writer of M_Helper.v. *)
From Coq Require Import List ZArith Lia Bool Arith.
From Verif Require Import Base Num Mat M_Matrix M_Factory M_Helper S_Matrix L_Base L_Mat L_Matrix.
Import ListNotations.

Section S.
Context {C : Type} (ceqb : C -> C -> bool) (nl : C).
Hypothesis ceqb_ok : forall a b, ceqb a b = true <-> a = b.

Lemma starts_with_app p s : starts_with ceqb p (p ++ s) = true.
Proof. induction p as [|a p IH]; cbn; auto. rewrite (proj2 (ceqb_ok a a) eq_refl). exact IH. Qed.
Lemma starts_with_true p s : starts_with ceqb p s = true -> exists r, s = p ++ r.
Proof.
  revert s; induction p as [|a p IH]; intros s Hs; [exists s; reflexivity|].
  destruct s as [|b s]; [discriminate|]. cbn in Hs. apply andb_true_iff in Hs. destruct Hs as [H1 H2].
  apply ceqb_ok in H1. subst b. destruct (IH s H2) as (r & ->). exists r. reflexivity.
Qed.

(** split is a left inverse of join: whatever it returns joins back to the input. *)
Lemma join_cons sep a (l : list (list C)) : l <> [] -> join sep (a :: l) = a ++ sep ++ join sep l.
Proof. destruct l; [congruence|reflexivity]. Qed.
Lemma split_aux_nonnil fuel sep s cur : split_aux ceqb fuel sep s cur <> [].
Proof.
  revert s cur; induction fuel as [|f IH]; intros s cur; cbn; [discriminate|].
  destruct s; [discriminate|]. destruct (starts_with ceqb sep (c :: s)); [discriminate|apply IH].
Qed.
Lemma join_split_aux fuel sep s cur : sep <> [] -> length s < fuel ->
  join sep (split_aux ceqb fuel sep s cur) = rev cur ++ s.
Proof.
  intros Hsep. revert s cur; induction fuel as [|f IH]; intros s cur Hf; [lia|].
  cbn [split_aux]. destruct s as [|c s]; [cbn; now rewrite app_nil_r|].
  destruct (starts_with ceqb sep (c :: s)) eqn:E.
  - apply starts_with_true in E. destruct E as (r & Er). rewrite Er.
    rewrite skipn_app, skipn_all, Nat.sub_diag, skipn_O, app_nil_l.
    rewrite join_cons by apply split_aux_nonnil. rewrite IH; [reflexivity|].
    apply (f_equal (@length C)) in Er. rewrite app_length in Er. destruct sep; [congruence|]. cbn in Er, Hf. lia.
  - rewrite IH by (cbn in Hf; lia). cbn [rev]. now rewrite <- app_assoc.
Qed.
Lemma join_split sep s : sep <> [] -> join sep (split ceqb sep s) = s.
Proof. intros. unfold split. rewrite join_split_aux; auto. Qed.

(** splitting a join whose pieces avoid the separator's first character *)
Lemma split_aux_free fuel h t s cur : ~ In h s -> length s < fuel ->
  split_aux ceqb fuel (h :: t) s cur = [rev cur ++ s].
Proof.
  revert s cur; induction fuel as [|f IH]; intros s cur Hn Hf; [lia|].
  cbn [split_aux]. destruct s as [|c s]; [now rewrite app_nil_r|].
  cbn [starts_with]. destruct (ceqb h c) eqn:E; [apply ceqb_ok in E; subst c; exfalso; apply Hn; now left|].
  cbn [andb]. rewrite IH; [cbn [rev]; now rewrite <- app_assoc|intros Q; apply Hn; now right|cbn in Hf; lia].
Qed.
Lemma split_aux_cell fuel h t s cur rest : ~ In h s -> length s < fuel ->
  split_aux ceqb fuel (h :: t) (s ++ (h :: t) ++ rest) cur =
  (rev cur ++ s) :: split_aux ceqb (fuel - length s - 1) (h :: t) rest [].
Proof.
  revert s cur; induction fuel as [|f IH]; intros s cur Hn Hf; [lia|].
  destruct s as [|c s].
  - cbn [app length]. rewrite app_nil_r. cbn [split_aux].
    assert (Hs : starts_with ceqb (h :: t) (h :: t ++ rest) = true) by (apply (starts_with_app (h :: t) rest)).
    rewrite Hs. cbn [length]. f_equal. replace (S f - 0 - 1) with f by lia. f_equal.
    cbn [skipn]. rewrite skipn_app, skipn_all, Nat.sub_diag, skipn_O. reflexivity.
  - cbn [app split_aux starts_with]. destruct (ceqb h c) eqn:E; [apply ceqb_ok in E; subst c; exfalso; apply Hn; now left|].
    cbn [andb]. change (s ++ h :: t ++ rest) with (s ++ (h :: t) ++ rest).
    rewrite IH; [|intros Q; apply Hn; now right|cbn in Hf; lia].
    cbn [length rev]. rewrite <- app_assoc. cbn [app]. f_equal.
Qed.
Lemma join_app_last sep (l : list (list C)) x y : join sep (l ++ [x ++ y]) = join sep (l ++ [x]) ++ y.
Proof.
  induction l as [|a l IH]; [reflexivity|]. cbn [app].
  rewrite !join_cons by (destruct l; discriminate). rewrite IH. now rewrite <- !app_assoc.
Qed.
Lemma split_aux_join h t (l : list (list C)) fuel : l <> [] -> Forall (fun c => ~ In h c) l ->
  length (join (h :: t) l) < fuel ->
  split_aux ceqb fuel (h :: t) (join (h :: t) l) [] = l.
Proof.
  revert fuel; induction l as [|a l IH]; intros fuel Hl Hf Hlen; [congruence|].
  inversion Hf; subst. destruct l as [|b l].
  - cbn [join] in *. rewrite split_aux_free by assumption. reflexivity.
  - rewrite join_cons in * by discriminate. rewrite !app_length in Hlen. cbn [length] in Hlen.
    rewrite split_aux_cell by (auto; lia). cbn [rev app]. f_equal. apply IH; [discriminate|assumption|].
    lia.
Qed.
Lemma split_join h t (l : list (list C)) : l <> [] -> Forall (fun c => ~ In h c) l ->
  split ceqb (h :: t) (join (h :: t) l) = l.
Proof. intros. unfold split. apply split_aux_join; auto. Qed.

(** lines of a file made of newline-terminated lines *)
Lemma lines_aux_line s cur rest : ~ In nl s ->
  lines_aux ceqb nl (s ++ nl :: rest) cur = (rev cur ++ s ++ [nl]) :: lines_aux ceqb nl rest [].
Proof.
  revert cur; induction s as [|c s IH]; intros cur Hn; cbn [app lines_aux].
  - rewrite (proj2 (ceqb_ok nl nl) eq_refl). reflexivity.
  - destruct (ceqb c nl) eqn:E; [apply ceqb_ok in E; subst c; exfalso; apply Hn; now left|].
    rewrite IH by (intros Q; apply Hn; now right). cbn [rev]. now rewrite <- !app_assoc.
Qed.
Lemma file_lines_concat (l : list (list C)) : Forall (fun s => ~ In nl s) l ->
  file_lines ceqb nl (List.concat (map (fun s => s ++ [nl]) l)) = map (fun s => s ++ [nl]) l.
Proof.
  unfold file_lines. induction l as [|s l IH]; intros Hf; [reflexivity|]. inversion Hf; subst.
  cbn [map List.concat]. rewrite <- app_assoc. cbn [app]. rewrite lines_aux_line by assumption.
  cbn [rev app]. f_equal. now apply IH.
Qed.
End S.

Section P.
Context {T : Type} `{Num T} {C : Type} (ceqb : C -> C -> bool) (parse : list C -> option T).

(** what one cell of the parsed file contributes *)
Definition cell_value (cells : list (list C)) (j : nat) : T :=
  if j <? length cells then match parse (nth j cells []) with Some x => x | None => n0 end else n0.

Lemma cell_value_spec (cells : list (list C)) (j : nat) :
  (j < length cells -> forall x, parse (nth j cells []) = Some x -> cell_value cells j = x) /\
  (j < length cells -> parse (nth j cells []) = None -> cell_value cells j = n0) /\
  (length cells <= j -> cell_value cells j = n0).
Proof.
  unfold cell_value. repeat split; intros Hl; (destruct (Nat.ltb_spec j (length cells)); [|try lia]); try lia.
  - intros x Hx. now rewrite Hx.
  - intros Hx. now rewrite Hx.
  - reflexivity.
Qed.

Lemma read_line_spec i sep line (m : mat T) : wf m -> i < nr m ->
  let m' := read_line ceqb parse i sep line m in
  wf m' /\ nr m' = nr m /\ nc m' = nc m /\
  forall r c, r < nr m -> c < nc m ->
    entry m' r c = if r =? i then (if c <? length (split ceqb sep line)
                                   then match parse (nth c (split ceqb sep line) []) with Some x => x | None => entry m r c end
                                   else entry m r c) else entry m r c.
Proof.
  intros Hm Hi. unfold read_line. set (cells := split ceqb sep line). set (k := Nat.min (length cells) (nc m)).
  assert (HG : forall n, n <= nc m -> n <= length cells ->
    let m' := fold_left (fun acc j => match parse (nth j cells []) with Some x => set_entry acc i j x | None => acc end) (seq 0 n) m in
    wf m' /\ nr m' = nr m /\ nc m' = nc m /\
    forall r c, r < nr m -> c < nc m ->
      entry m' r c = if (r =? i) && (c <? n) then match parse (nth c cells []) with Some x => x | None => entry m r c end else entry m r c).
  { induction n as [|n IH]; intros Hn Hl.
    - cbn. repeat split; try apply Hm; auto. intros r c _ _. destruct (Nat.ltb_spec c 0); [lia|]. now rewrite andb_false_r.
    - rewrite seq_S, fold_left_app. cbn [fold_left Nat.add]. destruct (IH ltac:(lia) ltac:(lia)) as (W & E1 & E2 & E3).
      set (m1 := fold_left _ (seq 0 n) m) in *. cbn zeta.
      destruct (parse (nth n cells [])) as [x|] eqn:Ex.
      + split; [now apply set_entry_wf|]. split; [exact E1|]. split; [exact E2|]. intros r c Hr Hc.
        rewrite set_entry_entry by (auto; lia). rewrite E3 by assumption.
        destruct (Nat.eqb_spec r i) as [->|Nr]; cbn [andb]; auto.
        destruct (Nat.eqb_spec c n) as [->|Nc].
        * destruct (Nat.ltb_spec n (S n)); [|lia]. now rewrite Ex.
        * destruct (Nat.ltb_spec c n), (Nat.ltb_spec c (S n)); auto; lia.
      + split; auto. split; auto. split; auto. intros r c Hr Hc. rewrite E3 by assumption.
        destruct (Nat.eqb_spec r i) as [->|Nr]; cbn [andb]; auto.
        destruct (Nat.ltb_spec c n), (Nat.ltb_spec c (S n)); auto; try lia.
        replace c with n by lia. now rewrite Ex. }
  destruct (HG k) as (W & E1 & E2 & E3); try (unfold k; lia).
  cbn zeta. split; auto. split; auto. split; auto. intros r c Hr Hc. rewrite E3 by assumption.
  destruct (r =? i); cbn [andb]; auto. unfold k.
  destruct (Nat.ltb_spec c (Nat.min (length cells) (nc m))), (Nat.ltb_spec c (length cells)); auto; lia.
Qed.

Lemma zeros_nat r c : r <> 0 -> zeros (T:=T) (Z.of_nat r) (Z.of_nat c) = mk r c (fun _ _ => n0).
Proof.
  intros Hr. unfold zeros, create, rlen. destruct (Z.eqb_spec (Z.of_nat c) (-1)); [lia|]. rewrite !Nat2Z.id.
  now apply np_array2_tab.
Qed.

Lemma read_lines_spec (lines : list (list C)) (header : bool) (sep : list C) : sep <> [] ->
  let data := if header then tl lines else lines in
  (data = [] -> read_lines ceqb parse lines header sep = Err RuntimeError) /\
  (forall l0 rest, data = l0 :: rest -> exists m,
     read_lines ceqb parse lines header sep = Ok m /\
     is_mat m (length data) (length (split ceqb sep l0))
       (fun i j => cell_value (split ceqb sep (nth i data [])) j)).
Proof.
  intros Hsep data.
  assert (HU : read_lines ceqb parse lines header sep = match data with [] => Err RuntimeError | l0 :: _ =>
     Ok (fold_left (fun acc i => read_line ceqb parse i sep (nth i data []) acc) (seq 0 (length data))
           (zeros (Z.of_nat (length data)) (Z.of_nat (length (split ceqb sep l0))))) end).
  { unfold read_lines, data. destruct sep as [|h t]; [congruence|]. destruct lines as [|l1 ls]; destruct header; reflexivity. }
  rewrite HU. clear HU. clearbody data. split.
  - intros Hd. now rewrite Hd.
  - intros l0 rest Hd. destruct data as [|l1 data']; [discriminate|]. injection Hd as -> ->. cbv iota.
    set (data := l0 :: rest).
    set (n := length data). set (k := length (split ceqb sep l0)).
    assert (Hn : n <> 0) by (unfold n, data; cbn; lia).
    rewrite (zeros_nat n k Hn). eexists. split; [reflexivity|].
    assert (HG : forall q, q <= n ->
      let m' := fold_left (fun acc i => read_line ceqb parse i sep (nth i data []) acc) (seq 0 q) (mk n k (fun _ _ => n0)) in
      wf m' /\ nr m' = n /\ nc m' = k /\
      forall i j, i < n -> j < k -> entry m' i j = if i <? q then cell_value (split ceqb sep (nth i data [])) j else n0).
    { induction q as [|q IH]; intros Hq.
      - cbn [seq fold_left]. cbv zeta. repeat split; try apply mk_wf. intros i j Hi Hj. now rewrite entry_mk.
      - rewrite seq_S, fold_left_app. cbn [fold_left Nat.add]. destruct (IH ltac:(lia)) as (W & E1 & E2 & E3).
        set (m1 := fold_left _ (seq 0 q) _) in *. cbn zeta.
        destruct (read_line_spec q sep (nth q data []) m1 W ltac:(lia)) as (W' & F1 & F2 & F3).
        split; auto. split; [lia|]. split; [lia|]. intros i j Hi Hj. rewrite F3 by lia. rewrite E3 by lia.
        destruct (Nat.eqb_spec i q) as [->|Ni].
        + destruct (Nat.ltb_spec q q), (Nat.ltb_spec q (S q)); try lia. unfold cell_value. reflexivity.
        + destruct (Nat.ltb_spec i q), (Nat.ltb_spec i (S q)); auto; lia. }
    destruct (HG n (le_n _)) as (W & E1 & E2 & E3). repeat split; try apply W; auto.
    intros i j Hi Hj. rewrite E3 by assumption. destruct (Nat.ltb_spec i n); [reflexivity|lia].
Qed.
End P.
