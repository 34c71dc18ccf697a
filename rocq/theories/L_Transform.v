(** Lemmas about the transformation models. *)
From Coq Require Import List ZArith Lia Bool Arith Reals Lra.
From Verif Require Import Base Num Mat M_Matrix M_Factory M_Helper M_Transform S_Matrix L_Base L_Mat L_Matrix L_MatR L_Stats.
Import ListNotations.
Local Open Scope nat_scope.

Section G.
Context {T : Type} `{Num T}.
Definition guarded (s : mat T) (i j : nat) : T := if (j =? 0) && neqb (entry s i 0) n0 then nofZ 1 else entry s i j.
Lemma zero_guard_spec (s : mat T) : wf s -> (nc s <> 0 \/ nr s = 0) ->
  exists r, zero_guard s = Ok r /\ is_mat r (nr s) (nc s) (guarded s).
Proof.
  intros Hw Hc. unfold zero_guard.
  set (F := fun (acc : res (mat T)) (i : nat) => _).
  assert (G : forall n, n <= nr s -> exists r, fold_left F (seq 0 n) (Ok s) = Ok r /\
    is_mat r (nr s) (nc s) (fun i j => if i <? n then guarded s i j else entry s i j)).
  { induction n as [|n IH]; intros Hn.
    - exists s. split; [reflexivity|]. split; auto.
    - destruct IH as (r & E & W & R1 & R2 & R3); [lia|]. rewrite seq_S, fold_left_app, E. cbn [fold_left plus]. unfold F at 1. cbn [bind].
      change 0%Z with (Z.of_nat 0). rewrite get_nat by lia. cbn [bind]. rewrite R3 by lia.
      destruct (Nat.ltb_spec n n); [lia|]. destruct (neqb (entry s n 0) n0) eqn:Eq.
      + unfold set. rewrite !npidx_nat by lia. cbn [bind]. eexists. split; [reflexivity|].
        split; [now apply set_entry_wf|]. split; [exact R1|]. split; [exact R2|]. intros i j Hi Hj.
        rewrite set_entry_entry by (auto; lia). rewrite R3 by assumption. unfold guarded.
        destruct (Nat.eqb_spec i n) as [->|Hne]; cbn [andb].
        * destruct (Nat.ltb_spec n n); [lia|]. destruct (Nat.ltb_spec n (S n)); [|lia]. rewrite Eq, andb_true_r. reflexivity.
        * destruct (Nat.ltb_spec i n), (Nat.ltb_spec i (S n)); try lia; reflexivity.
      + eexists. split; [reflexivity|]. split; [assumption|]. split; [assumption|]. split; [assumption|]. intros i j Hi Hj.
        rewrite R3 by assumption. destruct (Nat.ltb_spec i n), (Nat.ltb_spec i (S n)); try lia; try reflexivity.
        assert (i = n) by lia. subst i. unfold guarded. rewrite Eq, andb_false_r. reflexivity. }
  destruct (G (nr s) (Nat.le_refl _)) as (r & E & W & R1 & R2 & R3). exists r. split; [exact E|].
  split; [assumption|]. split; [assumption|]. split; [assumption|]. intros i j Hi Hj. rewrite R3 by assumption.
  destruct (Nat.ltb_spec i (nr s)); [reflexivity|lia].
Qed.
Lemma zero_guard_eq (s : mat T) : wf s -> (nc s <> 0 \/ nr s = 0) -> zero_guard s = Ok (mk (nr s) (nc s) (guarded s)).
Proof. intros W C. destruct (zero_guard_spec s W C) as (r & -> & M). f_equal. now apply is_mat_eq_mk. Qed.

Lemma column_means_wf (d : mat T) : wf (column_means d). Proof. apply mk_wf. Qed.
Lemma column_stdevs_wf (d : mat T) : wf (column_stdevs d). Proof. apply mk_wf. Qed.
Lemma row_stdevs_wf (d : mat T) : wf (row_stdevs d). Proof. apply transpose_wf. Qed.

(** Center after configuration on d *)
Definition center_conf (d : mat T) : center_st T := CenterSt true (Some (column_means d)).
Lemma vector_op_row_err op (m v : mat T) : nr v = 1 -> nc v <> nc m -> vector_op_modify op m v = Err ValueError.
Proof.
  intros Hr Hc. rewrite <- vector_op_modify_eq. apply (proj2 (proj2 (vector_op_spec op m v))); unfold row_shaped, col_shaped; lia.
Qed.
Lemma vector_opm_row op (m v : mat T) : nr v = 1 -> nc v = nc m ->
  vector_op_modify op m v = Ok (mk (nr m) (nc m) (fun i j => op (entry m i j) (entry v 0 j))).
Proof. apply vector_op_row. Qed.
Lemma center_do (d x : mat T) : t_do center (center_conf d) x =
  if nc x =? nc d then Ok (mk (nr x) (nc x) (fun i j => nsub (entry x i j) (np_mean (nr d) (fun k => entry d k j)))) else Err ValueError.
Proof.
  cbn [t_do center need center_conf ce_means bind]. unfold sub_by_vector_modify. destruct (Nat.eqb_spec (nc x) (nc d)) as [E|E].
  - rewrite vector_opm_row by (cbn; auto). f_equal. apply mk_ext. intros i j Hi Hj. unfold column_means. rewrite entry_mk by lia. reflexivity.
  - apply vector_op_row_err; cbn; auto.
Qed.
Lemma center_undo (d x : mat T) : t_undo center (center_conf d) x =
  if nc x =? nc d then Ok (mk (nr x) (nc x) (fun i j => nadd (entry x i j) (np_mean (nr d) (fun k => entry d k j)))) else Err ValueError.
Proof.
  cbn [t_undo center need center_conf ce_means bind]. unfold add_by_vector_modify. destruct (Nat.eqb_spec (nc x) (nc d)) as [E|E].
  - rewrite vector_opm_row by (cbn; auto). f_equal. apply mk_ext. intros i j Hi Hj. unfold column_means. rewrite entry_mk by lia. reflexivity.
  - apply vector_op_row_err; cbn; auto.
Qed.

(** Standardize after configuration on d *)
Definition sd_used (d : mat T) (j : nat) : T :=
  let s := np_std (nr d) (fun k => entry d k j) in if (j =? 0) && neqb s n0 then nofZ 1 else s.
Definition std_conf (d : mat T) : std_st T :=
  StdSt true (Some (column_means d)) (Some (mk 1 (nc d) (fun _ j => sd_used d j))).
Lemma standardize_configure (d : mat T) (s : std_st T) : nc d <> 0 -> t_configure standardize s d = (std_conf d, Ok tt).
Proof.
  intros Hc. cbn [t_configure standardize]. rewrite zero_guard_eq by (try apply column_stdevs_wf; cbn; auto).
  unfold std_conf. do 3 f_equal. cbn [nr nc column_stdevs mk]. apply mk_ext. intros i j Hi Hj. unfold guarded, column_stdevs, sd_used.
  rewrite !entry_mk by lia. cbv zeta. destruct (Nat.eqb_spec j 0) as [->|]; reflexivity.
Qed.
Lemma standardize_do (d x : mat T) : t_do standardize (std_conf d) x =
  if nc x =? nc d then Ok (mk (nr x) (nc x) (fun i j => ndiv (nsub (entry x i j) (np_mean (nr d) (fun k => entry d k j))) (sd_used d j))) else Err ValueError.
Proof.
  cbn [t_do standardize need std_conf st_means st_devs bind]. unfold sub_by_vector_modify, div_by_vector_modify. destruct (Nat.eqb_spec (nc x) (nc d)) as [E|E].
  - rewrite vector_opm_row by (cbn; auto). cbn [bind]. rewrite vector_opm_row by (cbn; auto). f_equal. cbn [nr nc mk].
    apply mk_ext. intros i j Hi Hj. unfold column_means. rewrite !entry_mk by lia. reflexivity.
  - rewrite vector_op_row_err by (cbn; auto). reflexivity.
Qed.
Lemma standardize_undo (d x : mat T) : t_undo standardize (std_conf d) x =
  if nc x =? nc d then Ok (mk (nr x) (nc x) (fun i j => nadd (nmul (entry x i j) (sd_used d j)) (np_mean (nr d) (fun k => entry d k j)))) else Err ValueError.
Proof.
  cbn [t_undo standardize need std_conf st_means st_devs bind]. unfold add_by_vector_modify, mul_by_vector_modify. destruct (Nat.eqb_spec (nc x) (nc d)) as [E|E].
  - rewrite vector_opm_row by (cbn; auto). cbn [bind]. rewrite vector_opm_row by (cbn; auto). f_equal. cbn [nr nc mk].
    apply mk_ext. intros i j Hi Hj. unfold column_means. rewrite !entry_mk by lia. reflexivity.
  - rewrite vector_op_row_err by (cbn; auto). reflexivity.
Qed.

(** RowNorm with the parameters of d *)
Definition rsd_used (d : mat T) (i : nat) : T :=
  let s := np_std (nc d) (fun k => entry d i k) in if neqb s n0 then nofZ 1 else s.
Definition rn_conf (b : bool) (d : mat T) : std_st T :=
  StdSt b (Some (row_means d)) (Some (mk (nr d) 1 (fun i _ => rsd_used d i))).
Lemma rownorm_configure (d : mat T) (s : std_st T) : t_configure rownorm s d = (rn_conf (st_configured s) d, Ok tt).
Proof.
  cbn [t_configure rownorm]. rewrite zero_guard_eq by (try apply row_stdevs_wf; cbn; auto).
  unfold rn_conf. do 3 f_equal. cbn [nr nc row_stdevs transpose mk]. apply mk_ext. intros i j Hi Hj. unfold guarded, row_stdevs, rsd_used.
  rewrite !transpose_entry by (cbn; lia). rewrite !entry_mk by lia. cbv zeta. assert (j = 0) by lia. subst j. reflexivity.
Qed.
Lemma np_inplace_col op (m v : mat T) : nr v = nr m -> nc v = 1 ->
  np_inplace op m v = Ok (mk (nr m) (nc m) (fun i j => op (entry m i j) (entry v i 0))).
Proof.
  intros Hr Hc. unfold np_inplace. rewrite Hr, Hc, Nat.eqb_refl, orb_true_r. cbn [andb Nat.eqb orb]. f_equal.
  unfold broadcast_op. apply mk_ext. intros i j Hi Hj. rewrite Hc. cbn [Nat.eqb]. destruct (Nat.eqb_spec (nr v) 1) as [E|E]; [|reflexivity].
  assert (i = 0) by lia. subst i. reflexivity.
Qed.
Lemma rownorm_do b (d x : mat T) : nr x = nr d -> t_do rownorm (rn_conf b d) x =
  Ok (mk (nr x) (nc x) (fun i j => ndiv (nsub (entry x i j) (np_mean (nc d) (fun k => entry d i k))) (rsd_used d i))).
Proof.
  intros E. cbn [t_do rownorm need rn_conf st_means st_devs bind].
  rewrite np_inplace_col by (cbn; auto). cbn [bind]. rewrite np_inplace_col by (cbn; auto). f_equal. cbn [nr nc mk].
  apply mk_ext. intros i j Hi Hj. unfold row_means. rewrite entry_mk by lia. rewrite transpose_entry by (cbn; lia). rewrite !entry_mk by lia. reflexivity.
Qed.
Lemma rownorm_undo b (d x : mat T) : nr x = nr d -> t_undo rownorm (rn_conf b d) x =
  Ok (mk (nr x) (nc x) (fun i j => nadd (nmul (entry x i j) (rsd_used d i)) (np_mean (nc d) (fun k => entry d i k)))).
Proof.
  intros E. cbn [t_undo rownorm need rn_conf st_means st_devs bind].
  rewrite np_inplace_col by (cbn; auto). cbn [bind]. rewrite np_inplace_col by (cbn; auto). f_equal. cbn [nr nc mk].
  apply mk_ext. intros i j Hi Hj. unfold row_means. rewrite entry_mk by lia. rewrite transpose_entry by (cbn; lia). rewrite !entry_mk by lia. reflexivity.
Qed.
End G.
