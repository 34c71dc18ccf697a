(** Properties C23-C27: factory constructors, random matrices, column deletion,
    CSV files, row and column statistics. *)
From Coq Require Import List ZArith Lia Bool Arith Reals Lra Sorted SpecFloat.
From Verif Require Import Base Num Mat M_Matrix M_Factory M_Helper S_Matrix L_Base L_Mat L_Matrix L_MatR L_Stats L_Text P_Matrix.
Import ListNotations.
Local Open Scope nat_scope.

(** * C23 *)
Theorem C23_zeros {T} `{Num T} (rows columns : Z) :
  ((1 <= rows)%Z -> is_mat (zeros rows columns) (Z.to_nat rows)
      (Z.to_nat (if (columns =? -1)%Z then rows else columns)) (fun _ _ => n0)) /\
  ((rows <= 0)%Z -> zeros (T:=T) rows columns = Mat 1 0 [[]]).
Proof.
  unfold zeros, create, rlen. split; intros Hr.
  - rewrite np_array2_tab by lia. apply is_mat_mk.
  - replace (Z.to_nat rows) with 0 by lia. reflexivity.
Qed.
Theorem C23_filled {T} `{Num T} (rows columns : Z) (x : T) :
  ((0 <= rows)%Z -> (0 <= columns)%Z -> exists m, filled rows columns x = Ok m /\
     is_mat m (Z.to_nat rows) (Z.to_nat columns) (fun _ _ => x)) /\
  ((rows < 0)%Z \/ (columns < 0)%Z -> filled rows columns x = Err ValueError).
Proof.
  unfold filled. split.
  - intros Hr Hc. destruct (Z.ltb_spec rows 0); [lia|]. destruct (Z.ltb_spec columns 0); [lia|]. cbn [orb].
    eexists. split; [reflexivity|]. apply is_mat_mk.
  - intros Hs. destruct (Z.ltb_spec rows 0); auto. destruct (Z.ltb_spec columns 0); auto. lia.
Qed.
Theorem C23_eye {T} `{Num T} (rows columns : Z) :
  let columns' := if (columns =? -1)%Z then rows else columns in
  ((0 <= rows)%Z -> (0 <= columns')%Z -> exists m, eye rows columns = Ok m /\
     is_mat m (Z.to_nat rows) (Z.to_nat columns') (fun i j => if Nat.eqb i j then n1 else n0)) /\
  ((rows < 0)%Z \/ (columns' < 0)%Z -> eye (T:=T) rows columns = Err ValueError).
Proof.
  intros c'. unfold eye. fold c'. split.
  - intros Hr Hc. destruct (Z.ltb_spec rows 0); [lia|]. destruct (Z.ltb_spec c' 0); [lia|]. cbn [orb].
    eexists. split; [reflexivity|]. apply is_mat_mk.
  - intros Hs. destruct (Z.ltb_spec rows 0); auto. destruct (Z.ltb_spec c' 0); auto. lia.
Qed.
Theorem C23_like {T} `{Num T} (m : mat T) (x : T) :
  (exists e, eye_like m = Ok e /\ is_mat e (nr m) (nc m) (fun i j => if Nat.eqb i j then n1 else n0)) /\
  (exists e, filled_like m x = Ok e /\ is_mat e (nr m) (nc m) (fun _ _ => x)) /\
  (nr m <> 0 -> is_mat (zeros_like m) (nr m) (nc m) (fun _ _ => n0)).
Proof.
  split; [|split].
  - unfold eye_like. destruct (C23_eye (T:=T) (Z.of_nat (nr m)) (Z.of_nat (nc m))) as [E _].
    cbn zeta in E. destruct (Z.eqb_spec (Z.of_nat (nc m)) (-1)); [lia|]. rewrite !Nat2Z.id in E. apply E; lia.
  - unfold filled_like. destruct (C23_filled (Z.of_nat (nr m)) (Z.of_nat (nc m)) x) as [E _].
    rewrite !Nat2Z.id in E. apply E; lia.
  - intros Hn. unfold zeros_like. destruct (C23_zeros (T:=T) (Z.of_nat (nr m)) (Z.of_nat (nc m))) as [E _].
    destruct (Z.eqb_spec (Z.of_nat (nc m)) (-1)); [lia|]. rewrite !Nat2Z.id in E. apply E; lia.
Qed.
Theorem C23_range {T} `{Num T} (rows columns start : Z) :
  (columns = 0%Z -> range_factory (T:=T) rows columns start = Err ValueError) /\
  ((1 <= rows)%Z -> (1 <= columns)%Z -> exists m, range_factory rows columns start = Ok m /\
     is_mat m (Z.to_nat rows) (Z.to_nat columns) (fun i j => nofZ (start + Z.of_nat i * columns + Z.of_nat j))) /\
  ((rows <= 0)%Z -> (1 <= columns)%Z -> range_factory (T:=T) rows columns start = Ok (Mat 1 0 [[]])).
Proof.
  unfold range_factory, create. split; [intros ->; reflexivity|].
  assert (Hlen : (1 <= columns)%Z -> range_len start (start + rows * columns) columns = Z.to_nat rows).
  { intros Hc. unfold range_len. destruct (Z.ltb_spec 0 columns); [|lia].
    replace (start + rows * columns - start + columns - 1)%Z with (rows * columns + (columns - 1))%Z by lia.
    rewrite Z.div_add_l by lia. rewrite Z.div_small by lia. f_equal. lia. }
  split; intros Hr Hc; specialize (Hlen Hc); (destruct (Z.eqb_spec columns 0); [lia|]).
  - eexists. split; [reflexivity|]. unfold pyrange at 2. rewrite Hlen, map_tab.
    assert (Hin : forall s, map nofZ (pyrange s (s + columns) 1) = tab (Z.to_nat columns) (fun j => nofZ (T:=T) (s + Z.of_nat j)%Z)).
    { intros s. unfold pyrange. rewrite range_len_1, map_tab. replace (s + columns - s)%Z with columns by lia.
      apply tab_ext. intros j Hj. f_equal. lia. }
    rewrite (tab_ext _ _ (fun i => tab (Z.to_nat columns) (fun j => nofZ (T:=T) (start + Z.of_nat i * columns + Z.of_nat j)%Z))).
    2:{ intros i Hi. apply Hin. }
    rewrite (np_array2_tab _ _ (fun i j => nofZ (T:=T) (start + Z.of_nat i * columns + Z.of_nat j)%Z)) by lia. apply is_mat_mk.
  - unfold pyrange at 2. rewrite Hlen. replace (Z.to_nat rows) with 0 by lia. reflexivity.
Qed.

Theorem C23_diag {T} `{Num T} (v : mat T) : nr v <> 0 -> nc v <> 0 ->
  exists m, diag_factory v = Ok m /\ is_mat m (nr v) (nr v) (fun i j => if Nat.eqb i j then entry v i 0 else n0).
Proof.
  intros Hr Hc. unfold diag_factory. rewrite zeros_nat by assumption.
  assert (HG : forall q, q <= nr v -> exists m,
    fold_left (fun acc i => do r <- acc; do x <- get v (Z.of_nat i) 0; set r (Z.of_nat i) (Z.of_nat i) x)
      (seq 0 q) (Ok (mk (nr v) (nr v) (fun _ _ => n0))) = Ok m /\
    is_mat m (nr v) (nr v) (fun i j => if (i =? j) && (i <? q) then entry v i 0 else n0)).
  { induction q as [|q IH]; intros Hq.
    - eexists. split; [reflexivity|]. apply is_mat_mk_ext. intros i j _ _. now rewrite andb_false_r.
    - destruct (IH ltac:(lia)) as (m & E & W & E1 & E2 & E3). rewrite seq_S, fold_left_app, E. cbn [fold_left bind Nat.add].
      change 0%Z with (Z.of_nat 0). rewrite get_nat by lia. cbn [bind]. unfold set. rewrite E1, E2, npidx_nat by lia. cbn [bind].
      eexists. split; [reflexivity|]. split; [now apply set_entry_wf|]. split; [exact E1|]. split; [exact E2|].
      intros i j Hi Hj. rewrite set_entry_entry by (auto; lia). rewrite E3 by assumption.
      destruct (Nat.eqb_spec i q) as [->|Ni], (Nat.eqb_spec j q) as [->|Nj]; cbn [andb].
      + rewrite Nat.eqb_refl. destruct (Nat.ltb_spec q (S q)); [reflexivity|lia].
      + destruct (Nat.eqb_spec q j); [lia|]. reflexivity.
      + destruct (Nat.eqb_spec i q); [lia|]. reflexivity.
      + destruct (Nat.eqb_spec i j) as [->|]; [|reflexivity]. cbn [andb].
        destruct (Nat.ltb_spec j q), (Nat.ltb_spec j (S q)); auto; lia. }
  destruct (HG (nr v) (le_n _)) as (m & E & W & E1 & E2 & E3). exists m. split; [exact E|].
  repeat split; try apply W; auto. intros i j Hi Hj. rewrite E3 by assumption.
  destruct (Nat.ltb_spec i (nr v)); [|lia]. now rewrite andb_true_r.
Qed.

Theorem C23_from_lists {T} `{Num T} (v w : list T) :
  is_mat (from_row v) 1 (length v) (fun _ j => nth j v n0) /\
  (v <> [] -> is_mat (from_column v) (length v) 1 (fun i _ => nth i v n0)) /\
  (v = [] -> from_column v = Mat 1 0 [[]]) /\
  (length v <> length w -> create_spectrum v w = Err ValueError) /\
  (length v = length w -> v <> [] -> exists m, create_spectrum v w = Ok m /\
     is_mat m (length v) 2 (fun i j => if Nat.eqb j 0 then nth i v n0 else nth i w n0)).
Proof.
  split; [|split; [|split; [|split]]].
  - repeat split; cbn; auto. intros [|i] j Hi Hj; [reflexivity|lia].
  - intros Hv. unfold from_column, create.
    replace (map (fun x => [x]) v) with (tab (length v) (fun i => tab 1 (fun _ => nth i v n0))).
    + rewrite np_array2_tab by (destruct v; cbn; congruence). apply is_mat_mk.
    + apply (list_ext []); rewrite tab_length, ?map_length; [reflexivity|]. intros i Hi. rewrite nth_tab by assumption.
      rewrite (nth_map' _ _ _ _ n0) by assumption. reflexivity.
  - intros ->. reflexivity.
  - intros Hn. unfold create_spectrum. apply Nat.eqb_neq in Hn. now rewrite Hn.
  - intros He Hv. unfold create_spectrum. rewrite He, Nat.eqb_refl. cbn [negb]. eexists. split; [reflexivity|].
    unfold create. replace (map (fun p => [fst p; snd p]) (combine v w))
      with (tab (length w) (fun i => tab 2 (fun j => if Nat.eqb j 0 then nth i v n0 else nth i w n0))).
    + rewrite (np_array2_tab _ _ (fun i j => if Nat.eqb j 0 then nth i v n0 else nth i w n0)) by (rewrite <- He; destruct v; cbn; congruence).
      apply is_mat_mk.
    + apply (list_ext []); rewrite tab_length, ?map_length, ?combine_length, ?He, ?Nat.min_id; [reflexivity|].
      intros i Hi. rewrite nth_tab by assumption.
      rewrite (nth_map' _ _ _ _ (n0, n0)) by (rewrite combine_length, He, Nat.min_id; assumption).
      rewrite combine_nth by assumption. reflexivity.
Qed.

Example C23_ex : range_factory 2 3 1 = Ok exA /\ zeros (T:=f64) 0 5 = Mat 1 0 [[]] /\
  diag_factory (Mat 2 1 [[exF 7]; [exF 8]]) = Ok (Mat 2 2 [[exF 7; exF 0]; [exF 0; exF 8]]) /\
  eye (T:=f64) 2 (-1) = Ok (Mat 2 2 [[exF 1; exF 0]; [exF 0; exF 1]]) /\ filled 1 (-1) (exF 1) = Err ValueError.
Proof. repeat split; vm_compute; reflexivity. Qed.
Print Assumptions C23_zeros.
Print Assumptions C23_filled.
Print Assumptions C23_eye.
Print Assumptions C23_range.
Print Assumptions C23_diag.
Print Assumptions C23_from_lists.

(** * C24 *)
(** Determinism: seeded draws do not depend on the generator's earlier state. *)
Theorem C24_seed_determines {T G} `{Num T} (seed_fn : Z -> G) (draw : G -> nat -> nat -> mat T * G)
  (g g' : G) (rows columns : nat) (seed : Z) (mean std : T) :
  rand seed_fn draw g rows columns seed = rand seed_fn draw g' rows columns seed /\
  randn seed_fn draw g rows columns seed mean std = randn seed_fn draw g' rows columns seed mean std.
Proof. split; reflexivity. Qed.

(** randn ignores mean and std altogether, for every generator ... *)
Theorem C24_randn_ignores_parameters {T G} `{Num T} (seed_fn : Z -> G) (draw : G -> nat -> nat -> mat T * G)
  (g : G) (rows columns : nat) (seed : Z) (mean std mean' std' : T) :
  randn seed_fn draw g rows columns seed mean std = randn seed_fn draw g rows columns seed mean' std'.
Proof. unfold randn. destruct (draw _ _ _). reflexivity. Qed.
(** ... so the property fails whenever a non-empty matrix is asked for. *)
Theorem C24_refuted {G} (seed_fn : Z -> G) (draw : G -> nat -> nat -> mat R * G) (g : G) (rows columns : nat) (seed : Z) :
  (forall s, nr (fst (draw s rows columns)) = rows /\ nc (fst (draw s rows columns)) = columns) ->
  rows <> 0 -> columns <> 0 ->
  ~ (forall mean std : R, fst (randn seed_fn draw g rows columns seed mean std) =
       add_scalar (mul_scalar (fst (randn seed_fn draw g rows columns seed 0%R 1%R)) std) mean).
Proof.
  intros Hd Hr Hc Hall. specialize (Hall 1%R 1%R). destruct (Hd (seed_fn seed)) as [D1 D2].
  unfold randn in Hall. destruct (draw (seed_fn seed) rows columns) as [d g'] eqn:Ed. cbn [fst] in *.
  assert (He : entry d 0 0 = entry (add_scalar (mul_scalar d 1%R) 1%R) 0 0) by (rewrite <- Hall; reflexivity).
  unfold add_scalar in He. rewrite entry_map_mat, entry_mul_scalar in He by (autorewrite with sh; lia). cbn in He. lra.
Qed.
(** The property holds exactly for the parameters of the standard distribution. *)
Theorem C24_characterisation {G} (seed_fn : Z -> G) (draw : G -> nat -> nat -> mat R * G) (g : G) (rows columns : nat) (seed : Z) :
  (forall s, wf (fst (draw s rows columns))) ->
  fst (randn seed_fn draw g rows columns seed 0%R 1%R) =
  add_scalar (mul_scalar (fst (randn seed_fn draw g rows columns seed 0%R 1%R)) 1%R) 0%R.
Proof.
  intros Hw. unfold randn. specialize (Hw (seed_fn seed)). destruct (draw _ _ _) as [d g']. cbn [fst] in *.
  apply mat_ext; auto; try apply mk_wf. intros i j Hi Hj. unfold add_scalar.
  rewrite entry_map_mat, entry_mul_scalar by (autorewrite with sh; assumption). cbn. ring.
Qed.
(** A generator meeting the shape hypothesis: the constant one. *)
Example C24_ex : forall s : unit,
  nr (fst ((fun (_ : unit) r c => (mk r c (fun _ _ => (1/2)%R), tt)) s 2 3)) = 2 /\
  nc (fst ((fun (_ : unit) r c => (mk r c (fun _ _ => (1/2)%R), tt)) s 2 3)) = 3.
Proof. intros; split; reflexivity. Qed.
Print Assumptions C24_seed_determines.
Print Assumptions C24_randn_ignores_parameters.
Print Assumptions C24_refuted.
Print Assumptions C24_characterisation.

(** * C25 *)
Theorem C25_delete_cols {T} `{Num T} (m : mat T) (cols : list Z) :
  exists m' ks, delete_cols m cols = Ok m' /\
    StronglySorted lt ks /\ (forall k, In k ks <-> k < nc m /\ ~ In (Z.of_nat k) cols) /\
    is_mat m' (nr m) (length ks) (fun i j => entry m i (nth j ks 0)).
Proof.
  set (ks := filter (fun k => negb (existsb (Z.eqb (Z.of_nat k)) cols)) (seq 0 (nc m))).
  assert (Hks : forall k, In k ks <-> k < nc m /\ ~ In (Z.of_nat k) cols).
  { intros k. unfold ks. rewrite filter_In, in_seq, negb_true_iff.
    assert (He : existsb (Z.eqb (Z.of_nat k)) cols = true <-> In (Z.of_nat k) cols).
    { rewrite existsb_exists. split; [intros (x & Hx & Hq); apply Z.eqb_eq in Hq; now subst|]. intros Hq. exists (Z.of_nat k). split; auto. apply Z.eqb_refl. }
    rewrite <- He. destruct (existsb _ cols); intuition (try lia; try congruence). }
  assert (Hkeep : filter (fun c => negb (existsb (Z.eqb c) cols)) (map Z.of_nat (seq 0 (nc m))) = map Z.of_nat ks).
  { unfold ks. clear Hks ks. induction (seq 0 (nc m)) as [|a l IH]; cbn; auto. destruct (existsb (Z.eqb (Z.of_nat a)) cols); cbn; now rewrite IH. }
  unfold delete_cols. rewrite Hkeep. change (get_sub_matrix m (STuple 0 (Z.of_nat (nr m))) (SList (map Z.of_nat ks))) with (get_columns m (SList (map Z.of_nat ks))).
  destruct (C01_get_columns m (SList (map Z.of_nat ks)) (map Z.of_nat ks) eq_refl) as [H1 H2].
  destruct (get_columns m (SList (map Z.of_nat ks))) as [m'|e] eqn:E.
  - exists m', ks. destruct (H1 m' eq_refl) as (W & N1 & N2 & N3). rewrite map_length in *. split; auto. split; [apply filter_seq_sorted|].
    split; [exact Hks|]. repeat split; try apply W; auto. intros i j Hi Hj. destruct (N3 i j Hi Hj) as (c & A & ->).
    rewrite (nth_map' _ _ _ _ 0) in A by assumption. f_equal. destruct A as [A1 A2].
    assert (Hlt : nth j ks 0 < nc m) by (apply Hks; now apply nth_In). lia.
  - exfalso. destruct (proj1 (H2 e) eq_refl) as (_ & _ & _ & Q). apply Exists_exists in Q. destruct Q as (z & Hz & Ho).
    apply in_map_iff in Hz. destruct Hz as (k & <- & Hk). apply Hks in Hk. unfold out_of_range in Ho. lia.
Qed.
Theorem C25_delete_col {T} `{Num T} (m : mat T) (c : nat) : wf m -> c < nc m ->
  exists m', delete_col m (Z.of_nat c) = Ok m' /\
    is_mat m' (nr m) (nc m - 1) (fun i j => entry m i (if j <? c then j else S j)).
Proof.
  intros Hm Hc. destruct (C25_delete_cols m [Z.of_nat c]) as (m' & ks & E & Hs & Hks & W & N1 & N2 & N3).
  assert (Hk : ks = seq 0 c ++ seq (S c) (nc m - S c)).
  { assert (Hs2 : StronglySorted lt (seq 0 c ++ seq (S c) (nc m - S c))).
    { apply StronglySorted_app.
      - rewrite <- (filter_seq_sorted_id 0 c). apply filter_seq_sorted.
      - rewrite <- (filter_seq_sorted_id (S c) (nc m - S c)). apply filter_seq_sorted.
      - intros x y Hx Hy. apply in_seq in Hx, Hy. lia. }
    apply (sorted_lt_ext _ _ Hs Hs2). intros k. rewrite Hks, in_app_iff, !in_seq. cbn [In]. intuition lia. }
  assert (Hl : length ks = nc m - 1) by (rewrite Hk, app_length, !seq_length; lia).
  exists m'. split; [exact E|]. rewrite Hl in *. repeat split; try apply W; auto. intros i j Hi Hj. rewrite N3 by assumption.
  f_equal. rewrite Hk. destruct (Nat.ltb_spec j c).
  - rewrite app_nth1 by (rewrite seq_length; lia). rewrite seq_nth; lia.
  - rewrite app_nth2 by (rewrite seq_length; lia). rewrite seq_length, seq_nth; lia.
Qed.
Example C25_ex : delete_cols exA [2; 0; 7; 2; -2]%Z = Ok (Mat 2 1 [[exF 2]; [exF 5]]) /\ delete_col exA 1 = Ok (Mat 2 2 [[exF 1; exF 3]; [exF 4; exF 6]]).
Proof. split; vm_compute; reflexivity. Qed.
Print Assumptions C25_delete_cols.
Print Assumptions C25_delete_col.

(** * C26 *)
Section Csv.
Context {T : Type} `{Num T} {C : Type} (ceqb : C -> C -> bool) (nl : C).
Context (fmt : T -> list C) (parse : list C -> option T) (header_cell : nat -> list C).

Theorem C26_round_trip (m : mat T) (header : bool) (h : C) (t : list C) :
  (forall a b, ceqb a b = true <-> a = b) ->
  wf m -> nr m <> 0 -> nc m <> 0 ->
  (** separator h :: t and number texts do not clash, and formatting round-trips
      (also with the line's trailing newline, which read leaves on the last cell) *)
  ~ In nl (h :: t) -> (forall j, ~ In nl (header_cell j)) ->
  (forall i j, i < nr m -> j < nc m ->
     ~ In h (fmt (entry m i j)) /\ ~ In nl (fmt (entry m i j)) /\
     parse (fmt (entry m i j)) = Some (entry m i j) /\
     parse (fmt (entry m i j) ++ [nl]) = Some (entry m i j)) ->
  read ceqb nl parse (write nl fmt header_cell m header (h :: t)) header (h :: t) = Ok m.
Proof.
  intros Hceq Hm Hr Hc Hsep Hhead Hcells. set (sep := h :: t) in *.
  set (cells := fun i => map (fun j => fmt (entry m i j)) (seq 0 (nc m))).
  assert (Hcn : forall i, cells i <> []) by (intros i Hq; apply (f_equal (@length _)) in Hq; unfold cells in Hq; rewrite map_length, seq_length in Hq; cbn in Hq; lia).
  assert (Hjoin : forall l, Forall (fun s => ~ In nl s) l -> ~ In nl (join sep l)).
  { induction l as [|a l IH]; intros Hf; [intros []|]. inversion Hf; subst. destruct l as [|b l]; [assumption|].
    rewrite join_cons by discriminate. rewrite !in_app_iff. intuition. }
  unfold read, write. rewrite file_lines_concat.
  2:{ exact Hceq. }
  2:{ unfold to_lines. apply Forall_app. split.
      - destruct header; constructor; auto. apply Hjoin. apply Forall_forall. intros s Hs. apply in_map_iff in Hs. destruct Hs as (j & <- & _). apply Hhead.
      - unfold data_lines. apply Forall_forall. intros s Hs. apply in_map_iff in Hs. destruct Hs as (i & <- & Hi). apply in_seq in Hi.
        apply Hjoin. apply Forall_forall. intros s Hs. apply in_map_iff in Hs. destruct Hs as (j & <- & Hj). apply in_seq in Hj. apply Hcells; lia. }
  set (lines := map (fun s => s ++ [nl]) (to_lines fmt header_cell m header sep)).
  destruct (read_lines_spec ceqb parse lines header sep ltac:(discriminate)) as [_ HR].
  set (data := if header then tl lines else lines) in *.
  assert (Hdata : data = tab (nr m) (fun i => join sep (cells i) ++ [nl])).
  { unfold data, lines, to_lines. destruct header; cbn [app map tl]; unfold data_lines; rewrite map_map; reflexivity. }
  assert (Hsplit : forall i, i < nr m -> split ceqb sep (nth i data []) =
     tab (nc m) (fun j => if S j =? nc m then fmt (entry m i j) ++ [nl] else fmt (entry m i j))).
  { intros i Hi. rewrite Hdata, nth_tab by assumption.
    set (pieces := tab (nc m) (fun j => if S j =? nc m then fmt (entry m i j) ++ [nl] else fmt (entry m i j))).
    assert (Hp : join sep (cells i) ++ [nl] = join sep pieces).
    { unfold cells, pieces. destruct (nc m) as [|k] eqn:Ek; [lia|]. rewrite seq_S, map_app. cbn [map Nat.add].
      rewrite tab_S. rewrite Nat.eqb_refl, join_app_last. f_equal. f_equal. f_equal.
      apply (tab_ext k (fun j => fmt (entry m i j))). intros j Hj. destruct (Nat.eqb_spec (S j) (S k)); [lia|reflexivity]. }
    rewrite Hp. apply split_join; auto.
    - unfold pieces. intros Hq. apply (f_equal (@length _)) in Hq. rewrite tab_length in Hq. cbn in Hq. lia.
    - apply Forall_tab. intros j Hj. destruct (Hcells i j Hi Hj) as (A & B & _). destruct (S j =? nc m); auto.
      rewrite in_app_iff. intros [Q|[Q|[]]]; auto. apply Hsep. subst. now left. }
  destruct data as [|l0 rest] eqn:Ed.
  { exfalso. apply (f_equal (@length _)) in Hdata. rewrite tab_length in Hdata. cbn in Hdata. lia. }
  rewrite <- Ed in *. destruct (HR l0 rest Ed) as (m' & E & HM).
  assert (Hlen : length data = nr m) by (rewrite Hdata; apply tab_length).
  assert (Hl0 : length (split ceqb sep l0) = nc m).
  { replace l0 with (nth 0 data []) by (rewrite Ed; reflexivity). rewrite Hsplit by lia. apply tab_length. }
  fold lines. unfold sep in *. rewrite E. f_equal.
  destruct HM as (W & N1 & N2 & N3). rewrite Hlen in *. rewrite Hl0 in *.
  apply mat_ext; auto. rewrite N1, N2. intros i j Hi Hj. rewrite N3 by assumption. unfold cell_value.
  rewrite (Hsplit i Hi), tab_length. destruct (Nat.ltb_spec j (nc m)); [|lia]. rewrite nth_tab by assumption.
  destruct (Hcells i j Hi Hj) as (_ & _ & P1 & P2). destruct (S j =? nc m); [now rewrite P2 | now rewrite P1].
Qed.

(** Any text: shape from the first data line, missing or unparseable cells are 0,
    surplus cells are dropped, no data lines raise. *)
Theorem C26_read_any (text : list C) (header : bool) (sep : list C) : sep <> [] ->
  let data := if header then tl (file_lines ceqb nl text) else file_lines ceqb nl text in
  (data = [] -> read ceqb nl parse text header sep = Err RuntimeError) /\
  (forall l0 rest, data = l0 :: rest -> exists m, read ceqb nl parse text header sep = Ok m /\
     wf m /\ nr m = length data /\ nc m = length (split ceqb sep l0) /\
     forall i j, i < nr m -> j < nc m ->
       let cells := split ceqb sep (nth i data []) in
       (j < length cells -> forall x, parse (nth j cells []) = Some x -> entry m i j = x) /\
       (j < length cells -> parse (nth j cells []) = None -> entry m i j = n0) /\
       (length cells <= j -> entry m i j = n0)).
Proof.
  intros Hsep data. destruct (read_lines_spec ceqb parse (file_lines ceqb nl text) header sep Hsep) as [R1 R2].
  match type of R1 with ?d = _ -> _ => change d with data in R1, R2 end. clearbody data. split; [exact R1|]. intros l0 rest Hd. destruct (R2 l0 rest Hd) as (m & E & W & N1 & N2 & N3).
  exists m. split; [exact E|]. split; auto. split; auto. split; auto. rewrite N1, N2. intros i j Hi Hj. cbn zeta.
  rewrite (N3 i j Hi Hj). apply cell_value_spec.
Qed.

(** The cells of a line are what str.split promises: joining them with the
    separator gives back the line. *)
Theorem C26_split_join (sep s : list C) : (forall a b, ceqb a b = true <-> a = b) -> sep <> [] ->
  join sep (split ceqb sep s) = s.
Proof. intros. now apply join_split. Qed.
End Csv.

(** Instance: characters and numbers are naturals written in unary with character 1,
    newline 0, separator 2. *)
#[local] Instance NumNat : Num nat := {
  n0 := 0; n1 := 1; nadd := Nat.add; nsub := Nat.sub; nmul := Nat.mul; ndiv := Nat.div; nopp := fun x => x;
  nabs := fun x => x; nsqrt := Nat.sqrt; nltb := Nat.ltb; nleb := Nat.leb; neqb := Nat.eqb; nofZ := Z.to_nat }.
Definition ex_fmt (n : nat) : list nat := repeat 1 n.
Definition ex_parse (s : list nat) : option nat := Some (length (filter (Nat.eqb 1) s)).
Lemma ex_parse_fmt n : ex_parse (ex_fmt n) = Some n /\ ex_parse (ex_fmt n ++ [0]) = Some n.
Proof.
  assert (E : filter (Nat.eqb 1) (repeat 1 n) = repeat 1 n) by (clear; induction n as [|n IH]; [reflexivity|]; cbn [repeat filter]; change (1 =? 1) with true; cbv iota; now rewrite IH).
  unfold ex_parse, ex_fmt. rewrite filter_app, E. cbn. rewrite app_nil_r, repeat_length. auto.
Qed.
Example C26_ex : forall m : mat nat, wf m -> nr m <> 0 -> nc m <> 0 ->
  read Nat.eqb 0 ex_parse (write 0 ex_fmt (fun _ => [3]) m true [2]) true [2] = Ok m.
Proof.
  intros m Hm Hr Hc. apply C26_round_trip; auto.
  - apply Nat.eqb_eq.
  - cbn. lia.
  - cbn. lia.
  - intros i j _ _. split; [|split]; try apply ex_parse_fmt.
    + intros Q. apply repeat_spec in Q. discriminate.
    + intros Q. apply repeat_spec in Q. discriminate.
Qed.
Example C26_ex_run : write 0 ex_fmt (fun _ => [3]) (Mat 2 2 [[1; 2]; [0; 3]]) true [2] = [3;2;3;0; 1;2;1;1;0; 2;1;1;1;0] /\
  read Nat.eqb 0 ex_parse [3;2;3;0; 1;2;1;1;0; 2;1;1;1;0] true [2] = Ok (Mat 2 2 [[1; 2]; [0; 3]]).
Proof. split; vm_compute; reflexivity. Qed.
Print Assumptions C26_round_trip.
Print Assumptions C26_read_any.
Print Assumptions C26_split_join.

(** * C27 *)
Definition Rmean (n : nat) (f : nat -> R) : R := (Rsum n f / INR n)%R.
(** sample variance with denominator n-1 *)
Definition Rvar (n : nat) (f : nat -> R) : R :=
  (Rsum n (fun i => (f i - Rmean n f) * (f i - Rmean n f)) / INR (n - 1))%R.

Lemma Rmean_np n f : Rmean n f = np_mean n f.
Proof. unfold Rmean. now rewrite np_mean_R, Rsum_sumn. Qed.
Lemma Rvar_np n f : sqrt (Rvar n f) = np_std n f.
Proof. rewrite np_std_R. unfold Rvar, sumsqdev. now rewrite Rsum_sumn, Rmean_np. Qed.

Theorem C27_means (m : mat R) :
  (nc m <> 0 -> is_mat (row_means m) (nr m) 1 (fun i _ => Rmean (nc m) (fun j => entry m i j))) /\
  (nr m <> 0 -> is_mat (column_means m) 1 (nc m) (fun _ j => Rmean (nr m) (fun i => entry m i j))) /\
  (2 <= nc m -> is_mat (row_stdevs m) (nr m) 1 (fun i _ => sqrt (Rvar (nc m) (fun j => entry m i j)))) /\
  (2 <= nr m -> is_mat (column_stdevs m) 1 (nc m) (fun _ j => sqrt (Rvar (nr m) (fun i => entry m i j)))).
Proof.
  repeat split; try apply mk_wf; intros.
  - unfold row_means. rewrite transpose_entry by (autorewrite with sh; lia). rewrite entry_mk by lia. now rewrite Rmean_np.
  - unfold column_means. rewrite entry_mk by lia. now rewrite Rmean_np.
  - unfold row_stdevs. rewrite transpose_entry by (autorewrite with sh; lia). rewrite entry_mk by lia. now rewrite Rvar_np.
  - unfold column_stdevs. rewrite entry_mk by lia. now rewrite Rvar_np.
Qed.

(** helper.mean / helper.stdev pick one of these, by orientation flag. *)
Theorem C27_mean_stdev (m : mat R) (i : nat) :
  (i < nr m -> nc m <> 0 -> helper_mean m (Z.of_nat i) false = Ok (Rmean (nc m) (fun j => entry m i j))) /\
  (i < nc m -> nr m <> 0 -> helper_mean m (Z.of_nat i) true = Ok (Rmean (nr m) (fun r => entry m r i))) /\
  (i < nr m -> 2 <= nc m -> helper_stdev m (Z.of_nat i) false = Ok (sqrt (Rvar (nc m) (fun j => entry m i j)))) /\
  (i < nc m -> 2 <= nr m -> helper_stdev m (Z.of_nat i) true = Ok (sqrt (Rvar (nr m) (fun r => entry m r i)))) /\
  (nr m <= i -> helper_mean m (Z.of_nat i) false = Err IndexError /\ helper_stdev m (Z.of_nat i) false = Err IndexError) /\
  (nc m <= i -> helper_mean m (Z.of_nat i) true = Err IndexError /\ helper_stdev m (Z.of_nat i) true = Err IndexError).
Proof.
  destruct (C27_means m) as (M1 & M2 & M3 & M4).
  unfold helper_mean, helper_stdev, column_mean, row_mean, column_stdev, row_stdev. change 0%Z with (Z.of_nat 0).
  split; [|split; [|split; [|split; [|split]]]].
  - intros Hi Hn. destruct (M1 Hn) as (W & N1 & N2 & N3). rewrite get_nat by lia. now rewrite N3 by lia.
  - intros Hi Hn. destruct (M2 Hn) as (W & N1 & N2 & N3). rewrite get_nat by lia. now rewrite N3 by lia.
  - intros Hi Hn. destruct (M3 Hn) as (W & N1 & N2 & N3). rewrite get_nat by lia. now rewrite N3 by lia.
  - intros Hi Hn. destruct (M4 Hn) as (W & N1 & N2 & N3). rewrite get_nat by lia. now rewrite N3 by lia.
  - intros Hi. split; apply get_err; split; auto; left; unfold out_of_range; cbn; lia.
  - intros Hi. split; apply get_err; split; auto; right; unfold out_of_range; cbn; lia.
Qed.

(** Shift, scale and degenerate behaviour of both statistics, for every data vector. *)
Theorem C27_laws (n : nat) (f : nat -> R) (a b : R) :
  (n <> 0 -> Rmean n (fun i => a + b * f i)%R = (a + b * Rmean n f)%R) /\
  (2 <= n -> sqrt (Rvar n (fun i => a + b * f i)%R) = (Rabs b * sqrt (Rvar n f))%R) /\
  (2 <= n -> (sqrt (Rvar n f) = 0%R <-> forall i j, i < n -> j < n -> f i = f j)).
Proof.
  rewrite !Rvar_np, !Rmean_np. split; [apply np_mean_affine|]. split; [apply np_std_affine | apply np_std_zero].
Qed.
Example C27_ex : row_means exA = Mat 2 1 [[exF 2]; [exF 5]].
Proof. vm_compute. reflexivity. Qed.
Example C27_ex_std : row_stdevs exA = Mat 2 1 [[exF 1]; [exF 1]].
Proof. vm_compute. reflexivity. Qed.
Print Assumptions C27_means.
Print Assumptions C27_mean_stdev.
Print Assumptions C27_laws.
