(** Properties C15-C18: serialisation. *)
From Coq Require Import List ZArith Lia Bool Arith SpecFloat.
From Verif Require Import Base Num Mat M_Matrix M_Serial S_Matrix S_Serial L_Base L_Mat L_Matrix L_Serial P_Matrix.
Import ListNotations.
Local Open Scope Z_scope.

(** * C15 *)
Definition fits31 (n : nat) : Prop := Z.of_nat n < 2 ^ 31.

Theorem C15_layout_and_decoding {T} `{Num T} (bits : T -> Z) (of_bits : Z -> T) (m : mat T) :
  wf m -> fits31 (nr m) -> fits31 (nc m) ->
  (forall i j, (i < nr m)%nat -> (j < nc m)%nat ->
     0 <= bits (entry m i j) < 2 ^ 64 /\ of_bits (bits (entry m i j)) = entry m i j) ->
  let w := matrix_state (fun x => PFloat (bits x)) m in
  let bs := written w in
  snd w = Ok tt /\ Forall is_byte bs /\ length bs = (8 + 8 * (nr m * nc m))%nat /\
  le_sval (firstn 4 bs) = Z.of_nat (nr m) /\ le_sval (firstn 4 (skipn 4 bs)) = Z.of_nat (nc m) /\
  (forall i j, (i < nr m)%nat -> (j < nc m)%nat ->
     le_val (firstn 8 (skipn (8 + 8 * (i * nc m + j)) bs)) = bits (entry m i j)) /\
  (forall rest, dec_matrix of_bits (bs ++ rest) = Some (m, rest)).
Proof.
  intros Hm Hr Hc Hb w bs. unfold fits31 in *.
  set (rowenc := fun i => List.concat (map (fun j => le_bytes 8 (bits (entry m i j))) (seq 0 (nc m)))).
  assert (Hrow : forall i, snd (wall (map (fun j => wchunk (serialise_to_bytes (PFloat (bits (entry m i j))))) (seq 0 (nc m)))) = Ok tt /\
     written (wall (map (fun j => wchunk (serialise_to_bytes (PFloat (bits (entry m i j))))) (seq 0 (nc m)))) = rowenc i).
  { intros i. apply (written_wall (fun j => wchunk (serialise_to_bytes (PFloat (bits (entry m i j)))))).
    intros j _. split; [reflexivity|]. unfold written. cbn. now rewrite app_nil_r. }
  destruct (written_wall (fun i => wall (map (fun j => wchunk (serialise_to_bytes (PFloat (bits (entry m i j))))) (seq 0 (nc m)))) rowenc (seq 0 (nr m)) (fun i _ => Hrow i)) as [B1 B2].
  destruct (proj2 (serialise_int_iff (Z.of_nat (nr m))) ltac:(lia)) as (br & Er).
  destruct (proj2 (serialise_int_iff (Z.of_nat (nc m))) ltac:(lia)) as (bc & Ec).
  set (body := List.concat (map rowenc (seq 0 (nr m)))) in *.
  assert (Hbs : snd w = Ok tt /\ bs = br ++ bc ++ body).
  { unfold bs, w, matrix_state. cbn [serialise_to_bytes] in *. rewrite Er, Ec.
    destruct (written_chunk (Ok br) br eq_refl) as [W1 W2]. destruct (written_chunk (Ok bc) bc eq_refl) as [W3 W4].
    match goal with |- _ /\ written (wseq _ (wseq _ ?x)) = _ => set (wb := x) in * end.
    destruct (written_seq (wchunk (Ok bc)) wb W4) as [Q1 Q2].
    destruct (written_seq (wchunk (Ok br)) (wseq (wchunk (Ok bc)) wb) W2) as [Q3 Q4].
    rewrite Q3, Q4, Q1, Q2, W1, W3. change (snd wb = Ok tt) in B1. change (written wb = body) in B2. now rewrite B1, B2. }
  destruct Hbs as [Hsnd Hbs].
  destruct (serialise_int_ok _ _ Er) as (Lr & Br & Vr). destruct (serialise_int_ok _ _ Ec) as (Lc & Bc & Vc).
  assert (Hrl : forall i, length (rowenc i) = (8 * nc m)%nat).
  { intros i. unfold rowenc. rewrite (length_concat_const 8).
    - rewrite map_length, seq_length. lia.
    - apply Forall_forall. intros x Hx. apply in_map_iff in Hx. destruct Hx as (j & <- & _). apply le_bytes_length. }
  assert (Hbl : length body = (8 * (nr m * nc m))%nat).
  { unfold body. rewrite (length_concat_const (8 * nc m)).
    - rewrite map_length, seq_length. lia.
    - apply Forall_forall. intros x Hx. apply in_map_iff in Hx. destruct Hx as (i & <- & _). apply Hrl. }
  split; [exact Hsnd|]. clearbody bs. clear B1 B2 Hsnd w. subst bs. split; [|split; [|split; [|split; [|split]]]].
  - apply Forall_app. split; auto. apply Forall_app. split; auto. unfold body. apply Forall_concat, Forall_forall.
    intros x Hx. apply in_map_iff in Hx. destruct Hx as (i & <- & _). unfold rowenc. apply Forall_concat, Forall_forall.
    intros y Hy. apply in_map_iff in Hy. destruct Hy as (j & <- & _). apply le_bytes_bytes.
  - rewrite !app_length, Lr, Lc, Hbl. lia.
  - rewrite firstn_app, Lr, Nat.sub_diag, <- Lr, firstn_all. cbn [firstn]. now rewrite app_nil_r.
  - rewrite skipn_app, Lr, Nat.sub_diag, <- Lr, skipn_all, Lr. cbn [skipn app].
    rewrite firstn_app, Lc, Nat.sub_diag, <- Lc, firstn_all. cbn [firstn]. now rewrite app_nil_r.
  - intros i j Hi Hj.
    replace (skipn (8 + 8 * (i * nc m + j)) (br ++ bc ++ body)) with (skipn (8 * (i * nc m + j)) body).
    2:{ rewrite app_assoc, skipn_app. rewrite (skipn_all2 (br ++ bc)) by (rewrite app_length; lia). cbn [app]. f_equal. rewrite app_length. lia. }
    unfold body. replace (8 * (i * nc m + j))%nat with (i * (8 * nc m) + 8 * j)%nat by lia.
    rewrite (skipn_concat_map (8 * nc m) rowenc (nr m) i (8 * j)) by (auto; lia).
    assert (Hr2 : skipn (8 * j) (rowenc i) = le_bytes 8 (bits (entry m i j)) ++
       List.concat (map (fun j => le_bytes 8 (bits (entry m i j))) (seq (S j) (nc m - S j)))).
    { unfold rowenc. replace (8 * j)%nat with (j * 8 + 0)%nat by lia.
      rewrite (skipn_concat_map 8 (fun j => le_bytes 8 (bits (entry m i j))) (nc m) j 0); [reflexivity|intros; apply le_bytes_length|assumption|lia]. }
    rewrite Hr2, <- app_assoc, firstn_app, le_bytes_length. rewrite Nat.sub_diag, firstn_O, app_nil_r.
    rewrite firstn_all2 by (rewrite le_bytes_length; lia).
    rewrite le_val_bytes, pow256. change (8 * Z.of_nat 8) with 64. apply Z.mod_small. now apply Hb.
  - intros rest. unfold dec_matrix. rewrite <- !app_assoc. rewrite (dec_int_app _ _ _ Er), (dec_int_app _ _ _ Ec).
    rewrite !Nat2Z.id. unfold body.
    rewrite <- (seq_length (nr m) 0) at 1.
    rewrite (dec_many_concat (dec_many dec_u64 (nc m)) rowenc (fun i => map (fun j => bits (entry m i j)) (seq 0 (nc m)))).
    + f_equal. f_equal. destruct Hm as [Hm1 Hm2]. destruct m as [r c rows]. cbn [nr nc rws] in *. f_equal.
      rewrite map_map. symmetry. rewrite <- (map_nth_seq' rows []) at 1. rewrite Hm1. apply map_ext_in. intros i Hi. apply in_seq in Hi.
      rewrite map_map. rewrite <- (map_nth_seq' (nth i rows []) n0) at 1.
      rewrite (Forall_nth_len c rows i) by (auto; lia).
      apply map_ext_in. intros j Hj. apply in_seq in Hj. symmetry. apply (Hb i j); lia.
    + intros i r Hi. apply in_seq in Hi. rewrite <- (seq_length (nc m) 0) at 1. unfold rowenc.
      apply (dec_many_concat dec_u64 (fun j => le_bytes 8 (bits (entry m i j))) (fun j => bits (entry m i j))).
      intros j r' Hj. apply in_seq in Hj. apply dec_u64_app. apply Hb; lia.
Qed.

(** For binary64 elements (every pattern of a number, infinities, NaN). *)
Definition valid_f64 (x : f64) : Prop := valid_binary fprec femax x = true.
Theorem C15_f64_round_trip (m : mat f64) (rest : list Z) :
  wf m -> fits31 (nr m) -> fits31 (nc m) ->
  (forall i j, (i < nr m)%nat -> (j < nc m)%nat -> valid_f64 (entry m i j)) ->
  snd (matrix_state pyv_f64 m) = Ok tt /\
  dec_matrix f_of_bits (written (matrix_state pyv_f64 m) ++ rest) = Some (m, rest).
Proof.
  intros Hm Hr Hc Hv. destruct (C15_layout_and_decoding f_bits f_of_bits m Hm Hr Hc) as (A & _ & _ & _ & _ & _ & B).
  - intros i j Hi Hj. split; [apply f_bits_range | apply f_of_bits_bits]; now apply Hv.
  - split; [exact A | apply B].
Qed.
(** Equal byte streams come from equal matrices, whatever follows. *)
Theorem C15_injective (m1 m2 : mat f64) (r1 r2 : list Z) :
  wf m1 -> wf m2 -> fits31 (nr m1) -> fits31 (nc m1) -> fits31 (nr m2) -> fits31 (nc m2) ->
  (forall i j, (i < nr m1)%nat -> (j < nc m1)%nat -> valid_f64 (entry m1 i j)) ->
  (forall i j, (i < nr m2)%nat -> (j < nc m2)%nat -> valid_f64 (entry m2 i j)) ->
  written (matrix_state pyv_f64 m1) ++ r1 = written (matrix_state pyv_f64 m2) ++ r2 -> m1 = m2 /\ r1 = r2.
Proof.
  intros. destruct (C15_f64_round_trip m1 r1) as [_ D1]; auto. destruct (C15_f64_round_trip m2 r2) as [_ D2]; auto.
  rewrite H7, D2 in D1. injection D1 as <- <-. auto.
Qed.
(** Which matrices cannot be written: too large a dimension, or elements that are not
    Python floats (integer arrays); what has been written by then. *)
Theorem C15_failures {T} `{Num T} (pyv : T -> pyval) (m : mat T) :
  (~ fits31 (nr m) -> matrix_state pyv m = ([], Err OverflowError)) /\
  (fits31 (nr m) -> ~ fits31 (nc m) -> snd (matrix_state pyv m) = Err OverflowError /\ length (written (matrix_state pyv m)) = 4%nat) /\
  (fits31 (nr m) -> fits31 (nc m) -> nr m <> 0%nat -> nc m <> 0%nat -> pyv (entry m 0 0) = POther ->
     snd (matrix_state pyv m) = Err TypeError /\ length (written (matrix_state pyv m)) = 8%nat).
Proof.
  unfold fits31. split; [|split].
  - intros Hr. unfold matrix_state. cbn [serialise_to_bytes].
    rewrite (proj2 (serialise_int_err _ OverflowError)); [reflexivity|]. split; auto. lia.
  - intros Hr Hc. unfold matrix_state. cbn [serialise_to_bytes].
    destruct (proj2 (serialise_int_iff (Z.of_nat (nr m))) ltac:(lia)) as (br & Er). rewrite Er.
    rewrite (proj2 (serialise_int_err (Z.of_nat (nc m)) OverflowError)) by (split; auto; lia).
    destruct (serialise_int_ok _ _ Er) as (Lr & _). unfold wseq, written. cbn. now rewrite app_nil_r.
  - intros Hr Hc Nr Nc Hp. unfold matrix_state. cbn [serialise_to_bytes].
    destruct (proj2 (serialise_int_iff (Z.of_nat (nr m))) ltac:(lia)) as (br & Er). rewrite Er.
    destruct (proj2 (serialise_int_iff (Z.of_nat (nc m))) ltac:(lia)) as (bc & Ec). rewrite Ec.
    destruct (serialise_int_ok _ _ Er) as (Lr & _). destruct (serialise_int_ok _ _ Ec) as (Lc & _).
    destruct (nr m) as [|r]; [lia|]. destruct (nc m) as [|c]; [lia|]. cbn [seq map wall fold_right]. rewrite Hp.
    unfold wseq, written. cbn. rewrite !app_nil_r, app_length. split; [reflexivity|lia].
Qed.
Example C15_ex : written (matrix_state pyv_f64 (Mat 1 2 [[exF 1; exF (-2)]])) =
   [1;0;0;0; 2;0;0;0; 0;0;0;0;0;0;240;63; 0;0;0;0;0;0;0;192] /\
  dec_matrix f_of_bits ([1;0;0;0; 2;0;0;0; 0;0;0;0;0;0;240;63; 0;0;0;0;0;0;0;192] ++ [7]) = Some (Mat 1 2 [[exF 1; exF (-2)]], [7]) /\
  (forall i j, (i < 1)%nat -> (j < 2)%nat -> valid_f64 (entry (Mat 1 2 [[exF 1; exF (-2)]]) i j)).
Proof.
  split; [vm_compute; reflexivity|]. split; [vm_compute; reflexivity|].
  intros [|i] [|[|j]] Hi Hj; try lia; vm_compute; reflexivity.
Qed.
Print Assumptions C15_layout_and_decoding.
Print Assumptions C15_f64_round_trip.
Print Assumptions C15_injective.
Print Assumptions C15_failures.

(** * C16 *)
Theorem C16_int (z : Z) :
  (- 2 ^ 31 <= z < 2 ^ 31 -> exists bs, serialise_to_bytes (PInt z) = Ok bs /\ length bs = 4%nat /\ Forall is_byte bs /\
     le_sval bs = z /\ forall rest, dec_int (bs ++ rest) = Some (z, rest)) /\
  (z < - 2 ^ 31 \/ 2 ^ 31 <= z -> serialise_to_bytes (PInt z) = Err OverflowError).
Proof.
  split; intros Hz; cbn [serialise_to_bytes].
  - destruct (proj2 (serialise_int_iff z) Hz) as (b & E). exists b. destruct (serialise_int_ok _ _ E) as (L & B & V).
    repeat split; auto. intros. now apply dec_int_app.
  - apply serialise_int_err. auto.
Qed.
Theorem C16_float (bits : Z) : 0 <= bits < 2 ^ 64 ->
  exists bs, serialise_to_bytes (PFloat bits) = Ok bs /\ length bs = 8%nat /\ Forall is_byte bs /\
    le_val bs = bits /\ forall rest, dec_u64 (bs ++ rest) = Some (bits, rest).
Proof.
  intros Hb. eexists. split; [reflexivity|]. split; [apply le_bytes_length|]. split; [apply le_bytes_bytes|]. split.
  - rewrite le_val_bytes, pow256. change (8 * Z.of_nat 8) with 64. now apply Z.mod_small.
  - intros. now apply dec_u64_app.
Qed.
Theorem C16_str (s : list Z) : Forall is_scalar s ->
  exists u, utf8 s = Ok u /\ Forall is_byte u /\ dec_utf8 (length u) u = Some s /\
    (Z.of_nat (length u) < 2 ^ 31 -> exists bs, serialise_to_bytes (PStr s) = Ok bs /\ Forall is_byte bs /\
       length bs = (4 + length u)%nat /\ forall rest, dec_bytes (bs ++ rest) = Some (u, rest)) /\
    (2 ^ 31 <= Z.of_nat (length u) -> serialise_to_bytes (PStr s) = Err OverflowError).
Proof.
  intros Hs. destruct (utf8_ok s Hs) as (u & E & B & _ & D). exists u. split; auto. split; auto. split; [now apply D|].
  cbn [serialise_to_bytes]. rewrite E. cbn [bind]. split; intros Hl.
  - destruct (proj2 (serialise_int_iff (Z.of_nat (length u))) ltac:(lia)) as (l & El). rewrite El. cbn [bind].
    destruct (serialise_int_ok _ _ El) as (Ll & Bl & _). eexists. split; [reflexivity|]. split; [apply Forall_app; auto|].
    split; [rewrite app_length; lia|]. intros rest. unfold dec_bytes. rewrite <- app_assoc, (dec_int_app _ _ _ El), Nat2Z.id.
    now apply take_app.
  - rewrite (proj2 (serialise_int_err _ OverflowError)); [reflexivity|]. split; auto.
Qed.
(** code points that UTF-8 cannot express *)
Theorem C16_str_surrogate (s1 s2 : list Z) (c : Z) : Forall is_scalar s1 -> 55296 <= c < 57344 ->
  serialise_to_bytes (PStr (s1 ++ c :: s2)) = Err ValueError.
Proof.
  intros H1 Hc. cbn [serialise_to_bytes]. replace (utf8 (s1 ++ c :: s2)) with (@Err (list Z) ValueError); [reflexivity|].
  symmetry. unfold utf8. induction H1 as [|a l Ha Hl IH]; cbn [app mapM].
  - rewrite (proj2 (utf8_char_err c ValueError ltac:(lia))) by auto. reflexivity.
  - destruct (utf8_char_ok a Ha) as (b & E & _). rewrite E. cbn [bind]. destruct (mapM utf8_char (l ++ c :: s2)) as [x|e]; cbn in *; congruence.
Qed.
Theorem C16_other : serialise_to_bytes POther = Err TypeError /\
  forall b, serialise_to_bytes (PBool b) = serialise_to_bytes (PInt (if b then 1 else 0)).
Proof. split; reflexivity. Qed.
(** Injective and self-delimiting per type. *)
Theorem C16_injective :
  (forall z1 z2 b1 b2 r1 r2, serialise_to_bytes (PInt z1) = Ok b1 -> serialise_to_bytes (PInt z2) = Ok b2 ->
     b1 ++ r1 = b2 ++ r2 -> z1 = z2 /\ r1 = r2) /\
  (forall x y b1 b2 r1 r2, 0 <= x < 2 ^ 64 -> 0 <= y < 2 ^ 64 -> serialise_to_bytes (PFloat x) = Ok b1 -> serialise_to_bytes (PFloat y) = Ok b2 ->
     b1 ++ r1 = b2 ++ r2 -> x = y /\ r1 = r2) /\
  (forall s1 s2 b1 b2 r1 r2, Forall is_scalar s1 -> Forall is_scalar s2 -> serialise_to_bytes (PStr s1) = Ok b1 -> serialise_to_bytes (PStr s2) = Ok b2 ->
     b1 ++ r1 = b2 ++ r2 -> s1 = s2 /\ r1 = r2).
Proof.
  split; [|split].
  - intros z1 z2 b1 b2 r1 r2 E1 E2 E. pose proof (dec_int_app _ _ r1 E1) as D1. rewrite E, (dec_int_app _ _ _ E2) in D1. now injection D1 as <- <-.
  - intros x y b1 b2 r1 r2 Hx Hy [= <-] [= <-] E. pose proof (dec_u64_app x r1 Hx) as D1. rewrite E, (dec_u64_app y _ Hy) in D1. now injection D1 as <- <-.
  - intros s1 s2 b1 b2 r1 r2 H1 H2 E1 E2 E.
    destruct (C16_str s1 H1) as (u1 & U1 & _ & D1 & G1 & B1). destruct (C16_str s2 H2) as (u2 & U2 & _ & D2 & G2 & B2).
    destruct (Z_lt_ge_dec (Z.of_nat (length u1)) (2 ^ 31)) as [L1|L1]; [|rewrite (B1 ltac:(lia)) in E1; discriminate].
    destruct (Z_lt_ge_dec (Z.of_nat (length u2)) (2 ^ 31)) as [L2|L2]; [|rewrite (B2 ltac:(lia)) in E2; discriminate].
    destruct (G1 L1) as (c1 & F1 & _ & _ & X1). destruct (G2 L2) as (c2 & F2 & _ & _ & X2).
    rewrite E1 in F1. rewrite E2 in F2. injection F1 as <-. injection F2 as <-.
    specialize (X1 r1). rewrite E, X2 in X1. injection X1 as <- <-. rewrite D1 in D2. injection D2 as <-. auto.
Qed.
Example C16_ex : serialise_to_bytes (PInt (-2)) = Ok [254;255;255;255] /\ serialise_to_bytes (PInt (2 ^ 31)) = Err OverflowError /\
  serialise_to_bytes (PStr [104; 233; 8364; 128512]) = Ok [10;0;0;0; 104; 195;169; 226;130;172; 240;159;152;128] /\
  Forall is_scalar [104; 233; 8364; 128512].
Proof. split; [|split; [|split]]; try (vm_compute; reflexivity). repeat constructor; unfold is_scalar; lia. Qed.
Print Assumptions C16_int.
Print Assumptions C16_float.
Print Assumptions C16_str.
Print Assumptions C16_str_surrogate.
Print Assumptions C16_injective.

(** * C17 *)
(** The integers that serialise_big_int rejects. *)
Definition needs_extra_byte (z : Z) : Prop :=
  exists k, 0 < k /\ (2 ^ (8 * k - 1) <= z < 2 ^ (8 * k) \/ - 2 ^ (8 * k) < z < - 2 ^ (8 * k - 1)).

Lemma bit_length_spec z : z <> 0 -> 0 < bit_length z /\ 2 ^ (bit_length z - 1) <= Z.abs z < 2 ^ (bit_length z).
Proof.
  intros Hz. unfold bit_length. destruct (Z.eqb_spec z 0); [lia|]. pose proof (Z.log2_nonneg (Z.abs z)).
  split; [lia|]. replace (Z.log2 (Z.abs z) + 1 - 1) with (Z.log2 (Z.abs z)) by ring. apply Z.log2_spec. lia.
Qed.
Lemma bit_length_unique z n : 2 ^ (n - 1) <= Z.abs z < 2 ^ n -> 0 < n -> bit_length z = n.
Proof.
  intros Hz Hn. unfold bit_length. assert (0 < 2 ^ (n - 1)) by (apply Z.pow_pos_nonneg; lia).
  destruct (Z.eqb_spec z 0); [lia|]. rewrite (Z.log2_unique (Z.abs z) (n - 1)); try lia.
  replace (Z.succ (n - 1)) with n by lia. lia.
Qed.

(** (below the size at which the 4-byte length prefix itself overflows) *)
Theorem C17_characterisation_partial (z : Z) : Z.log2 (Z.abs z) < 8 * (2 ^ 31 - 1) ->
  (needs_extra_byte z /\ serialise_big_int z = Err OverflowError) \/
  (~ needs_extra_byte z /\ exists bs, serialise_big_int z = Ok bs /\ Forall is_byte bs /\
      forall rest, dec_big (bs ++ rest) = Some (z, rest)).
Proof.
  intros Hbig. destruct (Z.eq_dec z 0) as [->|Hz].
  { right. split.
    - intros (k & Hk & [Q|Q]).
      + pose proof (Z.pow_pos_nonneg 2 (8 * k - 1)). lia.
      + pose proof (Z.pow_pos_nonneg 2 (8 * k - 1)). lia.
    - exists [0;0;0;0]. split; [reflexivity|]. split; [repeat constructor; unfold is_byte; lia|]. intros rest. reflexivity. }
  destruct (bit_length_spec z Hz) as (Hb0 & Hb). set (L := bit_length z) in *.
  assert (Hmax : L <= 8 * (2 ^ 31 - 1)).
  { unfold L, bit_length. destruct (Z.eqb_spec z 0); lia. }
  clear Hbig.
  assert (Hbyte : big_byte_length z = (L + 7) / 8).
  { unfold big_byte_length. fold L. destruct (Z.eqb_spec (L mod 8) 0); Z.div_mod_to_equations; lia. }
  set (n := (L + 7) / 8) in *. assert (Hn : 8 * n - 7 <= L <= 8 * n) by (unfold n; Z.div_mod_to_equations; lia).
  assert (Hn1 : 1 <= n < 2 ^ 31) by lia.
  destruct (proj2 (serialise_int_iff n) ltac:(lia)) as (p & Ep).
  assert (Hnat : Z.to_nat n <> 0%nat) by lia.
  assert (Htb : to_bytes (Z.to_nat n) z = if (- 2 ^ (8 * n - 1) <=? z) && (z <? 2 ^ (8 * n - 1)) then Ok (le_bytes (Z.to_nat n) z) else Err OverflowError).
  { unfold to_bytes. destruct (Z.to_nat n) as [|q] eqn:Eq; [lia|]. replace (Z.of_nat (S q)) with n by lia. reflexivity. }
  unfold serialise_big_int. rewrite Hbyte, Htb.
  assert (Hneb : needs_extra_byte z <-> ~ (- 2 ^ (8 * n - 1) <= z < 2 ^ (8 * n - 1))).
  { split.
    - intros (k & Hk & Q).
      assert (L = 8 * k) by (apply bit_length_unique; [|lia]; lia). assert (k = n) by lia. subst k. lia.
    - intros Q. exists n. split; [lia|].
      assert (2 ^ L <= 2 ^ (8 * n)) by (apply Z.pow_le_mono_r; lia). lia. }
  destruct (Z.leb_spec (- 2 ^ (8 * n - 1)) z), (Z.ltb_spec z (2 ^ (8 * n - 1))); cbn [andb bind];
    try (left; split; [apply Hneb; lia | reflexivity]).
  right. split; [intros Q; apply Hneb in Q; lia|]. rewrite Ep. cbn [bind]. eexists. split; [reflexivity|].
  split; [apply Forall_app; split; [now apply (serialise_int_ok n)|apply le_bytes_bytes]|].
  intros rest. unfold dec_big, dec_bytes. rewrite <- app_assoc, (dec_int_app _ _ _ Ep), take_app by apply le_bytes_length.
  rewrite le_sval_bytes; [reflexivity|lia|]. rewrite Z2Nat.id by lia. lia.
Qed.

(** Beyond it every integer is rejected. *)
Theorem C17_too_large (z : Z) : 8 * (2 ^ 31 - 1) <= Z.log2 (Z.abs z) -> serialise_big_int z = Err OverflowError.
Proof.
  intros Hz. assert (z <> 0) by (intros ->; cbn in Hz; lia).
  assert (Hb : 2 ^ 31 <= big_byte_length z).
  { unfold big_byte_length, bit_length. destruct (Z.eqb_spec z 0); [contradiction|].
    destruct (Z.eqb_spec ((Z.log2 (Z.abs z) + 1) mod 8) 0); Z.div_mod_to_equations; lia. }
  unfold serialise_big_int. destruct (to_bytes _ z) as [b|e] eqn:E; cbn [bind].
  - rewrite (proj2 (serialise_int_err _ OverflowError)); [reflexivity|]. split; auto.
  - unfold to_bytes in E. destruct (Z.to_nat (big_byte_length z)) in E;
      match type of E with (if ?c then _ else _) = _ => destruct c end; congruence.
Qed.
(** The property fails: there are rejected integers beyond every bound. *)
Theorem C17_refuted : forall B : Z, exists z, B <= z /\ serialise_big_int z = Err OverflowError.
Proof.
  intros B. set (k := Z.max 1 B). exists (2 ^ (8 * k - 1)). split.
  - apply Z.le_trans with (2 ^ k); [|apply Z.pow_le_mono_r; lia]. pose proof (Z.pow_gt_lin_r 2 k). lia.
  - destruct (Z_lt_ge_dec (Z.log2 (Z.abs (2 ^ (8 * k - 1)))) (8 * (2 ^ 31 - 1))) as [Hz|Hz].
    + destruct (C17_characterisation_partial _ Hz) as [[_ E]|[N _]]; auto. exfalso. apply N.
      exists k. split; [lia|]. left. split; [lia|]. apply Z.pow_lt_mono_r; lia.
    + apply C17_too_large. lia.
Qed.
Theorem C17_smallest_failures : serialise_big_int 128 = Err OverflowError /\ serialise_big_int (-129) = Err OverflowError /\
  serialise_big_int 255 = Err OverflowError /\ forall z, -128 <= z < 128 -> exists bs, serialise_big_int z = Ok bs.
Proof.
  repeat split. intros z Hz.
  assert (Hab : Z.log2 (Z.abs z) < 8 * (2 ^ 31 - 1)).
  { apply Z.le_lt_trans with (Z.log2 128); [apply Z.log2_le_mono; lia|]. vm_compute. reflexivity. }
  destruct (C17_characterisation_partial z Hab) as [[(k & Hk & Q) _]|(_ & bs & E & _)]; [|eauto].
  exfalso. assert (2 ^ 7 <= 2 ^ (8 * k - 1)) by (apply Z.pow_le_mono_r; lia). lia.
Qed.
Example C17_ex : serialise_big_int (2 ^ 40) = Ok [6;0;0;0; 0;0;0;0;0;1] /\ serialise_big_int (-128) = Ok [1;0;0;0;128].
Proof. split; vm_compute; reflexivity. Qed.
Print Assumptions C17_characterisation_partial.
Print Assumptions C17_too_large.
Print Assumptions C17_refuted.
Print Assumptions C17_smallest_failures.

(** * C18 *)
Lemma bio_run chunks : fold_left bio_write chunks bio_new = BytesIO (List.concat chunks) (length (List.concat chunks)).
Proof.
  induction chunks as [|b l IH] using rev_ind; [reflexivity|]. rewrite fold_left_app, IH. cbn [fold_left]. unfold bio_write. cbn [buf pos].
  rewrite firstn_all, skipn_all2 by lia. rewrite app_nil_r, concat_app. cbn. now rewrite app_nil_r, app_length.
Qed.
(** Whatever the object and its state: success returns the empty byte string. *)
Theorem C18_always_empty (w : writer) : get_serialised_state w = match snd w with Ok _ => Ok [] | Err e => Err e end.
Proof.
  unfold get_serialised_state. rewrite bio_run. destruct (snd w); [|reflexivity]. cbn. now rewrite skipn_all.
Qed.
(** So for every serialisable matrix the answer is wrong. *)
Theorem C18_refuted (m : mat f64) : snd (matrix_state pyv_f64 m) = Ok tt ->
  get_serialised_state (matrix_state pyv_f64 m) <> Ok (written (matrix_state pyv_f64 m)).
Proof.
  intros E. rewrite C18_always_empty, E. intros [= Q]. revert E Q. unfold matrix_state. cbn [serialise_to_bytes].
  destruct (serialise_int (Z.of_nat (nr m))) as [b|e] eqn:Eb; [|discriminate].
  destruct (serialise_int_ok _ _ Eb) as (L & _). unfold wseq, written. cbn. intros _ Q.
  apply (f_equal (@length Z)) in Q. cbn in Q. rewrite app_length in Q. lia.
Qed.
Theorem C18_characterisation_partial (w : writer) : snd w = Ok tt ->
  (get_serialised_state w = Ok (written w) <-> written w = []).
Proof. intros E. rewrite C18_always_empty, E. split; [intros [= <-]; reflexivity | intros ->; reflexivity]. Qed.

(** save_state: the file holds exactly the written bytes (the partial ones if
    serialise_state raises), other files are untouched; a bare file name fails. *)
Theorem C18_save_state {Path} (peqb : Path -> Path -> bool) (dirname : Path -> Path) (empty : Path) (s : fs) (w : writer) (f : Path) :
  (forall a b, peqb a b = true <-> a = b) ->
  (In (dirname f) (dirs s) \/ dirname f <> empty ->
     let (s', r) := save_state peqb dirname empty s w f in
     r = snd w /\ file_get peqb (files s') f = Some (written w) /\
     (forall g, g <> f -> file_get peqb (files s') g = file_get peqb (files s) g) /\
     (forall d, In d (dirs s') <-> In d (dirs s) \/ d = dirname f)) /\
  (dirname f = empty -> ~ In (dirname f) (dirs s) -> save_state peqb dirname empty s w f = (s, Err FileNotFoundError)).
Proof.
  intros Hp.
  assert (Hin : forall d l, existsb (peqb d) l = true <-> In d l).
  { intros d l. rewrite existsb_exists. split; [intros (x & Hx & E); apply Hp in E; now subst|]. intros Hd. exists d. split; auto. now apply Hp. }
  assert (Hrefl : forall d, peqb d d = true) by (intros; now apply Hp).
  assert (Hput : forall l b, file_get peqb (file_put peqb l f b) f = Some b).
  { intros. unfold file_get, file_put. cbn. now rewrite Hrefl. }
  assert (Hfr : forall l b g, g <> f -> file_get peqb (file_put peqb l f b) g = file_get peqb l g).
  { intros l b g Hg. unfold file_get, file_put. cbn [find fst].
    destruct (peqb f g) eqn:E; [apply Hp in E; congruence|]. f_equal.
    induction l as [|[a x] l IH]; [reflexivity|]. cbn [filter find fst]. destruct (peqb a f) eqn:Ea; cbn [negb].
    - apply Hp in Ea. subst a. now rewrite E.
    - cbn [find fst]. destruct (peqb a g); auto. }
  unfold save_state. split.
  - intros Hd. destruct (existsb (peqb (dirname f)) (dirs s)) eqn:E.
    + apply Hin in E. repeat split; cbn [files dirs]; auto. intros [Q| ->]; auto.
    + destruct (peqb (dirname f) empty) eqn:E2.
      * apply Hp in E2. destruct Hd as [Hd|Hd]; [apply Hin in Hd; congruence|congruence].
      * repeat split; cbn [files dirs]; auto.
        -- intros [<-|Q]; auto.
        -- intros [Q| ->]; [now right|now left].
  - intros Hd Hn. destruct (existsb (peqb (dirname f)) (dirs s)) eqn:E; [apply Hin in E; contradiction|].
    now rewrite (proj2 (Hp _ _) Hd).
Qed.
(** The other serialisable objects write their parameter matrices back to back, or raise
    when they have none yet (and then an existing file has already been truncated). *)
Theorem C18_parameter_states {T} `{Num T} (pyv : T -> pyval) (m1 m2 : mat T) :
  standardize_state pyv None = ([], Err RuntimeError) /\ one_matrix_state pyv None = ([], Err RuntimeError) /\
  one_matrix_state pyv (Some m1) = matrix_state pyv m1 /\
  (snd (matrix_state pyv m1) = Ok tt ->
     written (standardize_state pyv (Some (m1, m2))) = written (matrix_state pyv m1) ++ written (matrix_state pyv m2) /\
     snd (standardize_state pyv (Some (m1, m2))) = snd (matrix_state pyv m2)).
Proof. repeat split; auto; now apply written_seq. Qed.
Example C18_ex : get_serialised_state (matrix_state pyv_f64 exA) = Ok [] /\ length (written (matrix_state pyv_f64 exA)) = 56%nat.
Proof. split; vm_compute; reflexivity. Qed.
Print Assumptions C18_always_empty.
Print Assumptions C18_refuted.
Print Assumptions C18_save_state.
Print Assumptions C18_parameter_states.
