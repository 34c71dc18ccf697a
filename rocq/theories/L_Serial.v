(** Lemmas on byte encodings. *)
From Coq Require Import List ZArith Lia Bool Arith SpecFloat.
From Verif Require Import Base Num Mat M_Matrix M_Serial S_Matrix S_Serial L_Base L_Mat L_Matrix.
Import ListNotations.
Local Open Scope Z_scope.

Lemma le_bytes_S n z : le_bytes (S n) z = z mod 256 :: le_bytes n (z / 256).
Proof. reflexivity. Qed.
Lemma le_bytes_length n z : length (le_bytes n z) = n.
Proof. revert z. induction n as [|n IH]; intros z; [reflexivity|]. rewrite le_bytes_S. cbn [length]. now rewrite IH. Qed.
Lemma le_bytes_bytes n z : Forall is_byte (le_bytes n z).
Proof.
  revert z. induction n as [|n IH]; intros z; [constructor|]. rewrite le_bytes_S. constructor; [|apply IH].
  unfold is_byte. apply Z.mod_pos_bound. lia.
Qed.
Lemma le_val_bytes n z : le_val (le_bytes n z) = z mod 256 ^ Z.of_nat n.
Proof.
  revert z. induction n as [|n IH]; intros z.
  - cbn. now rewrite Z.mod_1_r.
  - rewrite le_bytes_S. cbn [le_val fold_right]. fold (le_val (le_bytes n (z / 256))). rewrite IH.
    rewrite Nat2Z.inj_succ, Z.pow_succ_r by lia. rewrite Z.rem_mul_r; [reflexivity| lia |]. apply Z.pow_pos_nonneg; lia.
Qed.
Lemma pow256 n : 256 ^ Z.of_nat n = 2 ^ (8 * Z.of_nat n).
Proof. change 256 with (2 ^ 8). rewrite <- Z.pow_mul_r by lia. reflexivity. Qed.
Lemma le_sval_bytes n z : (n <> 0)%nat -> - 2 ^ (8 * Z.of_nat n - 1) <= z < 2 ^ (8 * Z.of_nat n - 1) ->
  le_sval (le_bytes n z) = z.
Proof.
  intros Hn Hz. unfold le_sval. rewrite le_bytes_length, le_val_bytes, pow256.
  destruct (Z.ltb_spec 0 (Z.of_nat n)); [|lia]. cbn [andb].
  assert (H2 : 2 ^ (8 * Z.of_nat n) = 2 * 2 ^ (8 * Z.of_nat n - 1)).
  { rewrite <- Z.pow_succ_r by lia. f_equal. lia. }
  rewrite H2. set (p := 2 ^ (8 * Z.of_nat n - 1)) in *.
  assert (Hp : 0 < p) by (apply Z.pow_pos_nonneg; lia).
  destruct (Z_lt_ge_dec z 0).
  - replace (z mod (2 * p)) with (z + 2 * p).
    + destruct (Z.leb_spec p (z + 2 * p)); lia.
    + apply Zmod_unique with (q := -1); lia.
  - rewrite Z.mod_small by lia. destruct (Z.leb_spec p z); lia.
Qed.

Lemma to_bytes_ok n z b : to_bytes n z = Ok b -> length b = n /\ Forall is_byte b /\ le_sval b = z.
Proof.
  unfold to_bytes. destruct n as [|n].
  - destruct (Z.eqb_spec z 0); [|discriminate]. intros [= <-]. subst. repeat split. constructor.
  - destruct ((_ <=? z) && (z <? _)) eqn:E; [|discriminate]. intros [= <-]. apply andb_prop in E. destruct E as [E1 E2].
    split; [apply le_bytes_length|]. split; [apply le_bytes_bytes|]. apply le_sval_bytes; [lia|]. apply Z.leb_le in E1. apply Z.ltb_lt in E2. split; assumption.
Qed.
Lemma serialise_int_ok z b : serialise_int z = Ok b -> length b = 4%nat /\ Forall is_byte b /\ le_sval b = z.
Proof. apply to_bytes_ok. Qed.
Lemma serialise_int_iff z : (exists b, serialise_int z = Ok b) <-> - 2 ^ 31 <= z < 2 ^ 31.
Proof.
  unfold serialise_int, to_bytes. change (8 * Z.of_nat 4 - 1) with 31.
  destruct ((- 2 ^ 31 <=? z) && (z <? 2 ^ 31)) eqn:E.
  - apply andb_prop in E. split; [lia|]. eauto.
  - split; [intros (b & Hb); discriminate|]. intros Hz. rewrite (proj2 (Z.leb_le _ _)), (proj2 (Z.ltb_lt _ _)) in E by lia. discriminate.
Qed.
Lemma serialise_int_err z e : serialise_int z = Err e <-> e = OverflowError /\ (z < - 2 ^ 31 \/ 2 ^ 31 <= z).
Proof.
  unfold serialise_int, to_bytes. change (8 * Z.of_nat 4 - 1) with 31.
  destruct (Z.leb_spec (- 2 ^ 31) z), (Z.ltb_spec z (2 ^ 31)); cbn [andb]; split; try discriminate; intros Q;
    try (destruct Q as [-> ?]; try reflexivity; exfalso; lia); injection Q as <-; split; auto; lia.
Qed.

Lemma take_app n b r : length b = n -> take n (b ++ r) = Some (b, r).
Proof.
  intros <-. unfold take. rewrite app_length. destruct (Nat.leb_spec (length b) (length b + length r)); [|lia].
  rewrite firstn_app, skipn_app, Nat.sub_diag, firstn_all, skipn_all. cbn. now rewrite app_nil_r.
Qed.
Lemma dec_int_app z b r : serialise_int z = Ok b -> dec_int (b ++ r) = Some (z, r).
Proof. intros E. destruct (serialise_int_ok _ _ E) as (L & _ & V). unfold dec_int. rewrite take_app by assumption. now rewrite V. Qed.
Lemma dec_u64_app x r : 0 <= x < 2 ^ 64 -> dec_u64 (le_bytes 8 x ++ r) = Some (x, r).
Proof.
  intros Hx. unfold dec_u64. rewrite take_app by apply le_bytes_length. rewrite le_val_bytes, pow256.
  change (8 * Z.of_nat 8) with 64. now rewrite Z.mod_small.
Qed.

(** UTF-8 *)
Ltac zdm := Z.div_mod_to_equations; lia.
Lemma utf8_char_ok c : is_scalar c -> exists b, utf8_char c = Ok b /\ Forall is_byte b /\ b <> [] /\
  forall r, dec_char (b ++ r) = Some (c, r).
Proof.
  intros [Hc Hs]. unfold utf8_char.
  destruct (Z.ltb_spec c 128); [|destruct (Z.ltb_spec c 2048); [|destruct (Z.leb_spec 55296 c), (Z.ltb_spec c 57344); cbn [andb]; try lia]].
  - eexists. split; [reflexivity|]. split; [repeat constructor; unfold is_byte; lia|]. split; [discriminate|]. intros r. cbn.
    destruct (Z.ltb_spec c 128); [reflexivity|lia].
  - eexists. split; [reflexivity|]. split; [repeat constructor; unfold is_byte; zdm|]. split; [discriminate|].
    intros r. cbn [app dec_char]. destruct (Z.ltb_spec (192 + c / 64) 128); [zdm|]. destruct (Z.ltb_spec (192 + c / 64) 224); [|zdm].
    f_equal. f_equal. zdm.
  - destruct (Z.ltb_spec c 65536).
    + eexists. split; [reflexivity|]. split; [repeat constructor; unfold is_byte; zdm|]. split; [discriminate|].
      intros r. cbn [app dec_char]. destruct (Z.ltb_spec (224 + c / 4096) 128); [zdm|]. destruct (Z.ltb_spec (224 + c / 4096) 224); [zdm|].
      destruct (Z.ltb_spec (224 + c / 4096) 240); [|zdm]. f_equal. f_equal. zdm.
    + eexists. split; [reflexivity|]. split; [repeat constructor; unfold is_byte; zdm|]. split; [discriminate|].
      intros r. cbn [app dec_char]. destruct (Z.ltb_spec (240 + c / 262144) 128); [zdm|]. destruct (Z.ltb_spec (240 + c / 262144) 224); [zdm|].
      destruct (Z.ltb_spec (240 + c / 262144) 240); [zdm|]. f_equal. f_equal. zdm.
  - destruct (Z.ltb_spec c 65536); [|zdm]. eexists. split; [reflexivity|]. split; [repeat constructor; unfold is_byte; zdm|]. split; [discriminate|].
    intros r. cbn [app dec_char]. destruct (Z.ltb_spec (224 + c / 4096) 128); [zdm|]. destruct (Z.ltb_spec (224 + c / 4096) 224); [zdm|].
    destruct (Z.ltb_spec (224 + c / 4096) 240); [|zdm]. f_equal. f_equal. zdm.
Qed.
Lemma utf8_char_err c e : 0 <= c < 1114112 -> (utf8_char c = Err e <-> e = ValueError /\ 55296 <= c < 57344).
Proof.
  intros Hc. unfold utf8_char.
  destruct (Z.ltb_spec c 128), (Z.ltb_spec c 2048), (Z.leb_spec 55296 c), (Z.ltb_spec c 57344), (Z.ltb_spec c 65536);
  cbn [andb]; split; try discriminate; intros Q; try (destruct Q as [-> Q]; try reflexivity; lia); injection Q as <-; split; auto; lia.
Qed.

Lemma utf8_ok s : Forall is_scalar s -> exists b, utf8 s = Ok b /\ Forall is_byte b /\
  (length s <= length b)%nat /\ forall fuel, (length b <= fuel)%nat -> dec_utf8 fuel b = Some s.
Proof.
  induction s as [|c s IH]; intros Hs.
  - exists []. repeat split; auto. intros [|f] _; reflexivity.
  - inversion Hs as [|? ? Hc Hs']; subst. destruct (IH Hs') as (b & E & B & Ln & D). unfold utf8 in *. cbn [mapM bind].
    destruct (utf8_char_ok c Hc) as (bc & Ec & Bc & Nc & Dc). rewrite Ec. cbn [bind].
    destruct (mapM utf8_char s) as [bs|e]; [|discriminate]. cbn [bind map_res] in *. injection E as E.
    exists (bc ++ b). cbn [List.concat]. rewrite E. split; [reflexivity|]. split; [apply Forall_app; auto|].
    destruct bc as [|b0 bc']; [congruence|]. split; [cbn [length app]; rewrite app_length; lia|].
    intros [|fuel] Hf; [cbn in Hf; lia|]. cbn [app dec_utf8]. change (b0 :: bc' ++ b) with ((b0 :: bc') ++ b). rewrite Dc.
    rewrite D; [reflexivity|]. cbn in Hf. rewrite app_length in Hf. lia.
Qed.

(** Writers. *)
Lemma written_seq a b : snd a = Ok tt -> written (wseq a b) = written a ++ written b /\ snd (wseq a b) = snd b.
Proof. intros E. unfold wseq, written. rewrite E. cbn. now rewrite concat_app. Qed.
Lemma written_chunk r b : r = Ok b -> written (wchunk r) = b /\ snd (wchunk r) = Ok tt.
Proof. intros ->. unfold written, wchunk. cbn. now rewrite app_nil_r. Qed.
Lemma written_wall {A} (f : A -> writer) (g : A -> list Z) l :
  (forall a, In a l -> snd (f a) = Ok tt /\ written (f a) = g a) ->
  snd (wall (map f l)) = Ok tt /\ written (wall (map f l)) = List.concat (map g l).
Proof.
  induction l as [|a l IH]; intros Hl; [split; reflexivity|]. destruct IH as [I1 I2]; [intros; apply Hl; now right|].
  destruct (Hl a (or_introl eq_refl)) as [A1 A2]. cbn [map wall fold_right]. fold (wall (map f l)).
  destruct (written_seq (f a) (wall (map f l)) A1) as [W1 W2]. rewrite W1, W2, I1, I2, A2. split; reflexivity.
Qed.

Lemma dec_many_concat {A B} (d : list Z -> option (B * list Z)) (enc : A -> list Z) (val : A -> B) l rest :
  (forall a r, In a l -> d (enc a ++ r) = Some (val a, r)) ->
  dec_many d (length l) (List.concat (map enc l) ++ rest) = Some (map val l, rest).
Proof.
  induction l as [|a l IH]; intros Hl; [reflexivity|]. cbn [length dec_many map List.concat]. rewrite <- app_assoc.
  rewrite Hl by now left. rewrite IH; [reflexivity|]. intros; apply Hl; now right.
Qed.

(** binary64 patterns *)
Lemma digits2_bound p : 2 ^ (Z.pos (digits2_pos p) - 1) <= Z.pos p < 2 ^ (Z.pos (digits2_pos p)).
Proof.
  induction p as [p IH|p IH|]; cbn [digits2_pos]; [| |cbn; lia];
  rewrite Pos2Z.inj_succ; (replace (Z.succ (Z.pos (digits2_pos p)) - 1) with (Z.succ (Z.pos (digits2_pos p) - 1)) by lia);
  rewrite !Z.pow_succ_r by lia; lia.
Qed.
Lemma valid_finite s m e : valid_binary fprec femax (S754_finite s m e) = true ->
  (2 ^ 52 <= Z.pos m < 2 ^ 53 /\ -1074 <= e <= 971) \/ (Z.pos m < 2 ^ 52 /\ e = -1074).
Proof.
  cbn [valid_binary]. unfold bounded, canonical_mantissa, fexp, emin. change (3 - femax - fprec) with (-1074).
  change (femax - fprec) with 971. change fprec with 53. intros E. apply andb_prop in E. destruct E as [E1 E2].
  apply Zeq_bool_eq in E1. apply Z.leb_le in E2. pose proof (digits2_bound m) as [D1 D2].
  assert (Hd : Z.pos (digits2_pos m) <= 53) by lia.
  destruct (Z.eq_dec (Z.pos (digits2_pos m)) 53) as [E|N].
  - left. rewrite E in D1, D2. change (53 - 1) with 52 in D1. lia.
  - right. split; [|lia]. apply Z.lt_le_trans with (1 := D2). apply Z.pow_le_mono_r; lia.
Qed.
Lemma f_bits_range x : valid_binary fprec femax x = true -> 0 <= f_bits x < 2 ^ 64.
Proof.
  destruct x as [[|]|[|]| |s m e]; [intros _; split; vm_compute; congruence..|].
  intros V. apply valid_finite in V. unfold f_bits. destruct (Z.ltb_spec (Z.pos m) (2 ^ 52)), s; lia.
Qed.
Lemma f_of_bits_bits x : valid_binary fprec femax x = true -> f_of_bits (f_bits x) = x.
Proof.
  destruct x as [[|]|[|]| |s m e]; [intros _; vm_compute; reflexivity..|].
  intros V. apply valid_finite in V. unfold f_bits, f_of_bits.
  set (sg := if s then 2 ^ 63 else 0).
  assert (Hsg : exists k, sg = k * 2 ^ 11 * 2 ^ 52 /\ k = if s then 1 else 0) by (exists (if s then 1 else 0); destruct s; split; reflexivity).
  destruct Hsg as (k & Hk & Hks).
  destruct (Z.ltb_spec (Z.pos m) (2 ^ 52)) as [Hlt|Hge].
  - assert (e = -1074) by lia. subst e.
    assert (E0 : (sg + Z.pos m) mod 2 ^ 52 = Z.pos m).
    { rewrite Hk, Z.add_comm, Z.mod_add by lia. apply Z.mod_small. lia. }
    assert (E1 : ((sg + Z.pos m) / 2 ^ 52) mod 2 ^ 11 = 0).
    { rewrite Hk, Z.add_comm, Z.div_add by lia. rewrite Z.div_small by lia. cbn [Z.add]. now rewrite Z.mod_mul by lia. }
    rewrite E0, E1. cbn [Z.eqb]. f_equal. unfold sg. destruct s.
    + apply Z.leb_le. lia.
    + apply Z.leb_gt. lia.
  - assert (Hb : 2 ^ 52 <= Z.pos m < 2 ^ 53 /\ -1074 <= e <= 971) by lia. clear V. destruct Hb as [Hm He].
    set (q := (e + 1075) * 2 ^ 52 + (Z.pos m - 2 ^ 52)).
    assert (E0 : (sg + q) mod 2 ^ 52 = Z.pos m - 2 ^ 52).
    { rewrite Hk. unfold q. rewrite Z.add_comm, <- Z.add_assoc, Z.add_comm, <- Z.add_assoc.
      rewrite <- Z.mul_add_distr_r, Z.mod_add by lia. apply Z.mod_small. lia. }
    assert (E1 : ((sg + q) / 2 ^ 52) mod 2 ^ 11 = e + 1075).
    { rewrite Hk. unfold q. replace (k * 2 ^ 11 * 2 ^ 52 + ((e + 1075) * 2 ^ 52 + (Z.pos m - 2 ^ 52)))
        with ((Z.pos m - 2 ^ 52) + (k * 2 ^ 11 + (e + 1075)) * 2 ^ 52) by ring.
      rewrite Z.div_add, Z.div_small by lia. cbn [Z.add]. replace (k * 2 ^ 11 + (e + 1075)) with ((e + 1075) + k * 2 ^ 11) by ring.
      rewrite Z.mod_add by lia. apply Z.mod_small. lia. }
    rewrite E0, E1. destruct (Z.eqb_spec (e + 1075) 0); [lia|]. destruct (Z.eqb_spec (e + 1075) 2047); [lia|].
    replace (Z.pos m - 2 ^ 52 + 2 ^ 52) with (Z.pos m) by ring. cbv iota. f_equal; [|lia].
    unfold sg, q. destruct s; [apply Z.leb_le | apply Z.leb_gt]; nia.
Qed.

(** Concatenations of equally long blocks. *)
Lemma length_concat_const {A} k (l : list (list A)) : Forall (fun x => length x = k) l -> length (List.concat l) = (length l * k)%nat.
Proof. induction 1 as [|x l Hx _ IH]; [reflexivity|]. cbn. rewrite app_length. lia. Qed.
Lemma skipn_concat_map {A} k (f : nat -> list A) n i o : (forall i, length (f i) = k) -> (i < n)%nat -> (o <= k)%nat ->
  skipn (i * k + o) (List.concat (map f (seq 0 n))) = skipn o (f i) ++ List.concat (map f (seq (S i) (n - S i))).
Proof.
  intros Hf Hi Ho. replace n with (i + S (n - S i))%nat at 1 by lia. rewrite seq_app, map_app, concat_app.
  rewrite skipn_app, (length_concat_const k), map_length, seq_length.
  2:{ apply Forall_forall. intros x Hx. apply in_map_iff in Hx. destruct Hx as (j & <- & _). apply Hf. }
  rewrite skipn_all2.
  2:{ rewrite (length_concat_const k), map_length, seq_length; [lia|]. apply Forall_forall. intros x Hx. apply in_map_iff in Hx. destruct Hx as (j & <- & _). apply Hf. }
  replace (i * k + o - i * k)%nat with o by lia. cbn [app seq map List.concat Nat.add]. rewrite skipn_app.
  replace (o - length (f i))%nat with 0%nat by (rewrite Hf; lia). reflexivity.
Qed.
Lemma map_nth_seq' {A} (l : list A) d : map (fun i => nth i l d) (seq 0 (length l)) = l.
Proof.
  apply (list_ext d); rewrite map_length, seq_length; [reflexivity|]. intros i Hi.
  rewrite (nth_map' _ _ _ _ 0%nat) by (rewrite seq_length; assumption). now rewrite seq_nth.
Qed.
Lemma Forall_nth_len {A} c (l : list (list A)) i : Forall (fun r => length r = c) l -> (i < length l)%nat -> length (nth i l []) = c.
Proof. intros Hf Hi. rewrite Forall_forall in Hf. apply Hf. now apply nth_In. Qed.
