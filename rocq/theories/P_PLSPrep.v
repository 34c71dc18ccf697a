(** C49, C50: what preprocessing of the base classes does, for every algorithm [c]. *)
From Coq Require Import List ZArith Lia Bool Arith Reals Lra.
From Verif Require Import Base Num Mat M_Matrix M_Factory M_Helper M_Loop M_Utils M_Linalg M_Transform M_PLSBase M_PLS M_PLS2
  S_Matrix L_Base L_Mat L_Matrix L_MatR L_Sort L_Stats L_Transform L_Alg P_Helper P_PLSBase.
Import ListNotations.
Local Open Scope nat_scope.

(** * C49.  What holds: training does not see a shift of the predictor columns. *)
Lemma pt_fit_center {T} `{Num T} (X : mat T) : pt_fit (Some (PTCenter (t_new center))) X =
  (Some (PTCenter (center_conf X)), Ok (mk (nr X) (nc X) (fun i j => nsub (entry X i j) (np_mean (nr X) (fun k => entry X k j))))).
Proof.
  unfold pt_fit. cbn [pt_configure t_configure center]. fold (center (T:=T)). unfold pt_transform, t_transform. cbn [t_configured center ce_configured negb].
  fold (center (T:=T)). pose proof (center_do X X) as E. rewrite Nat.eqb_refl in E. unfold center_conf in E. cbn [t_do center] in *. now rewrite E.
Qed.
Lemma pt_fit_standardize {T} `{Num T} (X : mat T) : nc X <> 0 -> pt_fit (Some (PTStandardize (t_new standardize))) X =
  (Some (PTStandardize (std_conf X)), Ok (mk (nr X) (nc X) (fun i j => ndiv (nsub (entry X i j) (np_mean (nr X) (fun k => entry X k j))) (sd_used X j)))).
Proof.
  intros Hn. unfold pt_fit. cbn [pt_configure]. rewrite (standardize_configure X _ Hn). unfold pt_transform, t_transform. cbn [t_configured standardize st_configured std_conf negb].
  pose proof (standardize_do X X) as E. rewrite Nat.eqb_refl in E. unfold std_conf in E |- *. cbn [t_do standardize] in *. now rewrite E.
Qed.
Lemma fit_center_shift (X X' : mat R) (d : nat -> R) : nr X' = nr X -> nc X' = nc X -> nr X <> 0 ->
  (forall i j, i < nr X -> j < nc X -> entry X' i j = (entry X i j + d j)%R) ->
  snd (pt_fit (Some (PTCenter (t_new center))) X') = snd (pt_fit (Some (PTCenter (t_new center))) X).
Proof.
  intros E1 E2 Hn Hs. rewrite !pt_fit_center. cbn [snd]. f_equal. rewrite E1, E2. apply mk_ext. intros i j Hi Hj.
  rewrite (np_mean_ext _ _ (fun k => entry X k j + d j)%R) by (intros; now apply Hs).
  rewrite np_mean_shift by assumption. rewrite Hs by assumption. cbn [nsub NumR]. ring.
Qed.
Lemma fit_standardize_shift (X X' : mat R) (d : nat -> R) : nr X' = nr X -> nc X' = nc X -> 2 <= nr X -> nc X <> 0 ->
  (forall i j, i < nr X -> j < nc X -> entry X' i j = (entry X i j + d j)%R) ->
  snd (pt_fit (Some (PTStandardize (t_new standardize))) X') = snd (pt_fit (Some (PTStandardize (t_new standardize))) X).
Proof.
  intros E1 E2 Hn Hc Hs. rewrite !pt_fit_standardize by lia. cbn [snd]. f_equal. rewrite E1, E2. apply mk_ext. intros i j Hi Hj.
  rewrite (np_mean_ext _ _ (fun k => entry X k j + d j)%R) by (intros; now apply Hs).
  rewrite np_mean_shift by lia. rewrite Hs by assumption.
  assert (Hsd : np_std (nr X) (fun k => entry X' k j) = np_std (nr X) (fun k => entry X k j)).
  { rewrite (np_std_ext _ _ (fun k => d j + 1 * entry X k j)%R) by (intros; rewrite Hs by assumption; ring).
    rewrite np_std_affine by assumption. rewrite Rabs_R1. ring. }
  replace (sd_used X' j) with (sd_used X j) by (unfold sd_used; cbv zeta; now rewrite E1, Hsd).
  cbn [ndiv nsub NumR]. f_equal. ring.
Qed.


(** the loop of the multi-response class *)
Lemma upd_fill {B} (a z : B) k q : k < q -> upd (repeat a k ++ repeat z (q - k)) k a = repeat a (S k) ++ repeat z (q - S k).
Proof.
  intros Hk. replace (q - k) with (S (q - S k)) by lia. cbn [repeat].
  assert (forall l, upd (repeat a k ++ z :: l) k a = repeat a k ++ a :: l) as E by (intros l; clear; induction k; cbn; [reflexivity|]; now f_equal).
  rewrite E. change (repeat a (S k)) with (a :: repeat a k). rewrite repeat_cons, <- app_assoc. reflexivity.
Qed.
Lemma fill_loop {B C D} (f : (list B * list B * C * D) -> nat -> res (list B * list B * C * D)) (a b z : B) (x0 x : C) (y0 y : D) q :
  q <> 0 -> (forall mean std u v i, f (mean, std, u, v) i = Ok (upd mean i a, upd std i b, x, y)) ->
  for_range q f (repeat z q, repeat z q, x0, y0) = Ok (repeat a q, repeat b q, x, y).
Proof.
  intros Hq Hf. destruct (for_range_inv (fun k st => st = (repeat a k ++ repeat z (q - k), repeat b k ++ repeat z (q - k), if k =? 0 then x0 else x, if k =? 0 then y0 else y)) f q
    (repeat z q, repeat z q, x0, y0)) as (st & E & Hst).
  - cbn. now rewrite Nat.sub_0_r.
  - intros k st Hk ->. rewrite Hf. eexists. split; [reflexivity|]. now rewrite !upd_fill.
  - rewrite E, Hst, Nat.sub_diag. cbn [repeat]. rewrite !app_nil_r. destruct q; [now elim Hq|reflexivity].
Qed.
Lemma prep_multi_spec {T} `{Num T} (Y : mat T) : nc Y <> 0 ->
  prep_multi PP_NONE Y = Ok (repeat (nofZ 0) (nc Y), repeat (nofZ 1) (nc Y), None, None) /\
  prep_multi PP_CENTER Y = (do m <- helper_mean Y 0 true;
    Ok (repeat m (nc Y), repeat (nofZ 1) (nc Y), Some (PTCenter (t_new center)), Some (PTCenter (t_new center)))) /\
  prep_multi PP_STANDARDIZE Y = (do m <- helper_mean Y 0 true; do sd <- helper_stdev Y 0 true;
    Ok (repeat m (nc Y), repeat sd (nc Y), Some (PTStandardize (t_new standardize)), Some (PTStandardize (t_new standardize)))).
Proof.
  intros Hq. unfold prep_multi. split; [|split].
  - apply fill_loop; [assumption|reflexivity].
  - destruct (helper_mean Y 0 true) as [m|e]; cbn [bind].
    + apply fill_loop; [assumption|reflexivity].
    + destruct (nc Y) as [|q]; [now elim Hq|]. reflexivity.
  - destruct (helper_mean Y 0 true) as [m|e]; cbn [bind]; [|destruct (nc Y) as [|q]; [now elim Hq|]; reflexivity].
    destruct (helper_stdev Y 0 true) as [sd|e]; cbn [bind]; [|destruct (nc Y) as [|q]; [now elim Hq|]; reflexivity].
    apply fill_loop; [assumption|reflexivity].
Qed.

Section Shift.
Context {A K : Type} (c : pls_class A K R).
(** Training on X and on X with every column shifted by a constant: same outcome, same learnt
    state, same predictions and scores for the same new rows - although the property asks for the
    same predictions for correspondingly shifted rows (refuted: C49_refuted). *)
Theorem C49_training_partial (s : pls_st A R) (X X' Y : mat R) (d : nat -> R) :
  p_preprocessing s = PP_CENTER \/ p_preprocessing s = PP_STANDARDIZE ->
  nr X' = nr X -> nc X' = nc X -> 2 <= nr X -> nc X <> 0 -> nc Y <> 0 ->
  (forall i j, i < nr X -> j < nc X -> entry X' i j = (entry X i j + d j)%R) ->
  snd (initialize c s (Some X') (Some Y)) = snd (initialize c s (Some X) (Some Y)) /\
  p_own (fst (initialize c s (Some X') (Some Y))) = p_own (fst (initialize c s (Some X) (Some Y))) /\
  forall Z, snd (predict c (fst (initialize c s (Some X') (Some Y))) Z) = snd (predict c (fst (initialize c s (Some X) (Some Y))) Z) /\
            snd (transform c (fst (initialize c s (Some X') (Some Y))) Z) = snd (transform c (fst (initialize c s (Some X) (Some Y))) Z).
Proof.
  intros Hpp E1 E2 Hn Hc Hq Hs.
  (* the prepared transformation is one of the two, or preparing raises *)
  assert (Hprep : match prepare c (p_preprocessing s) Y with
                  | Ok (_, _, tp, _) => snd (pt_fit tp X') = snd (pt_fit tp X)
                  | Err _ => True end).
  { pose proof (fit_center_shift X X' d E1 E2 ltac:(lia) Hs) as Fc. pose proof (fit_standardize_shift X X' d E1 E2 Hn Hc Hs) as Fs.
    unfold prepare. destruct (c_arity c) as [|lo hi].
    - destruct Hpp as [-> | ->]; cbn [prep_single].
      + destruct (helper_mean Y 0 true); cbn [bind]; [exact Fc|exact I].
      + destruct (helper_mean Y 0 true); cbn [bind]; [|exact I]. destruct (helper_stdev Y 0 true); cbn [bind]; [exact Fs|exact I].
    - destruct (prep_multi_spec Y Hq) as (_ & Pc & Ps). destruct Hpp as [-> | ->].
      + rewrite Pc. destruct (helper_mean Y 0 true); cbn [bind]; [exact Fc|exact I].
      + rewrite Ps. destruct (helper_mean Y 0 true); cbn [bind]; [|exact I]. destruct (helper_stdev Y 0 true); cbn [bind]; [exact Fs|exact I]. }
  assert (Hall : snd (initialize c s (Some X') (Some Y)) = snd (initialize c s (Some X) (Some Y)) /\
    exists tp, fst (initialize c s (Some X') (Some Y)) =
      let t := fst (initialize c s (Some X) (Some Y)) in
      PlsSt (p_num_components t) (p_preprocessing t) (p_initialised t) (p_class_mean t) (p_class_std_dev t) tp (p_trans_response t) (p_own t)).
  { assert (Heta : forall t : pls_st A R, t = PlsSt (p_num_components t) (p_preprocessing t) (p_initialised t) (p_class_mean t) (p_class_std_dev t)
                     (p_trans_predictors t) (p_trans_response t) (p_own t)) by (intros []; reflexivity).
    unfold initialize. destruct (check_data c Y) as [m|]; [split; [reflexivity|]; eexists; apply Heta|].
    unfold do_initialize. cbn [reset p_preprocessing]. destruct (prepare c (p_preprocessing s) Y) as [[[[mean std] tp] tr]|e].
    2:{ split; [reflexivity|]. eexists. apply Heta. }
    destruct (pt_fit tp X') as [tp1 r1], (pt_fit tp X) as [tp2 r2]. cbn [snd] in Hprep. subst r2. destruct r1 as [Z|e].
    2:{ split; [reflexivity|]. eexists. reflexivity. }
    destruct (pt_fit tr Y) as [tr' [Y'|e]].
    2:{ split; [reflexivity|]. eexists. reflexivity. }
    cbn [set_prep reset p_num_components p_own].
    destruct (c_train c (p_num_components s) (c_reset c (p_own s)) Z Y') as [a [[m|]|e]]; (split; [reflexivity|]; eexists; reflexivity). }
  destruct Hall as [Hr (tp & Ht)]. split; [exact Hr|]. rewrite Ht. cbn zeta. split; [reflexivity|]. intros Z. clear.
  set (t := fst (initialize c s (Some X) (Some Y))). clearbody t. unfold predict, transform, do_predict. cbn [p_initialised p_num_components p_own p_trans_response p_class_mean p_class_std_dev].
  destruct (p_initialised t); cbn [negb]; [|split; reflexivity].
  destruct (c_predict c (p_num_components t) (p_own t) Z), (c_transform c (p_num_components t) (p_own t) Z). split; reflexivity.
Qed.
End Shift.
Print Assumptions C49_training_partial.

(** * C50 *)
Section Denormalise.
Context {A K : Type} (c : pls_class A K R).
Lemma denorm_multi lo hi (mean std : list R) (m : mat R) : c_arity c = Multi lo hi -> wf m -> nc m <= length mean -> nc m <= length std ->
  denormalise c mean std m = Ok (mk (nr m) (nc m) (fun i j => (entry m i j * nth j std 0 + nth j mean 0)%R)).
Proof.
  intros Ha W Hm Hs. unfold denormalise. rewrite Ha.
  set (g := fun i j => (entry m i j * nth j std 0 + nth j mean 0)%R).
  destruct (for_range_inv (fun k r => r = mk (nr m) (nc m) (fun i j => if i <? k then g i j else entry m i j))
    (fun r i => for_range (nc m) (fun r j =>
          do x <- get r (Z.of_nat i) (Z.of_nat j); do sd <- lget std (Z.of_nat j); do mm <- lget mean (Z.of_nat j);
          set r (Z.of_nat i) (Z.of_nat j) (nadd (nmul x sd) mm)) r) (nr m) (mk (nr m) (nc m) (entry m))) as (r & E & Hr).
  - apply mk_ext. reflexivity.
  - intros k r Hk ->.
    destruct (for_range_inv (fun l r => r = mk (nr m) (nc m) (fun i j => if (i <? k) || ((i =? k) && (j <? l)) then g i j else entry m i j))
      (fun r j => do x <- get r (Z.of_nat k) (Z.of_nat j); do sd <- lget std (Z.of_nat j); do mm <- lget mean (Z.of_nat j);
          set r (Z.of_nat k) (Z.of_nat j) (nadd (nmul x sd) mm)) (nc m) (mk (nr m) (nc m) (fun i j => if i <? k then g i j else entry m i j))) as (r & E & Hr).
    + apply mk_ext. intros i j Hi Hj. cbn. now rewrite andb_false_r, orb_false_r.
    + intros l r Hl ->. rewrite get_mk by assumption. cbn [bind]. rewrite (lget_nat std l 0%R), (lget_nat mean l 0%R) by lia. cbn [bind]. rewrite set_mk by assumption.
      eexists. split; [reflexivity|]. apply mk_ext. intros i j Hi Hj. rewrite Nat.ltb_irrefl. rewrite (Nat.eqb_refl k), Nat.ltb_irrefl. cbn [orb andb].
      destruct (Nat.eqb_spec i k) as [->|Nik]; cbn [andb].
      * rewrite Nat.ltb_irrefl. cbn [orb]. destruct (Nat.eqb_spec j l) as [->|Njl].
        -- rewrite (proj2 (Nat.ltb_lt l (S l))) by lia. reflexivity.
        -- destruct (Nat.ltb_spec j l), (Nat.ltb_spec j (S l)); try lia; reflexivity.
      * reflexivity.
    + exists r. split; [exact E|]. rewrite Hr. apply mk_ext. intros i j Hi Hj. rewrite (proj2 (Nat.ltb_lt j (nc m)) Hj), andb_true_r.
      destruct (Nat.ltb_spec i k), (Nat.eqb_spec i k), (Nat.ltb_spec i (S k)); try lia; reflexivity.
  - rewrite <- (wf_mk m W) in E. transitivity (Ok r); [exact E|]. f_equal. rewrite Hr. apply mk_ext. intros i j Hi Hj. now rewrite (proj2 (Nat.ltb_lt i (nr m)) Hi).
Qed.
Lemma denorm_single (mu sd : R) (m : mat R) : c_arity c = Single -> wf m -> nc m <> 0 ->
  denormalise c [mu] [sd] m = Ok (mk (nr m) (nc m) (fun i j => if j =? 0 then (entry m i j * sd + mu)%R else entry m i j)).
Proof.
  intros Ha W Hc. unfold denormalise. rewrite Ha.
  destruct (for_range_inv (fun k r => r = mk (nr m) (nc m) (fun i j => if (i <? k) && (j =? 0) then (entry m i j * sd + mu)%R else entry m i j))
    (fun r i => do x <- get r (Z.of_nat i) 0; do sd' <- lget [sd] 0; do mm <- lget [mu] 0; set r (Z.of_nat i) 0 (nadd (nmul x sd') mm)) (nr m) (mk (nr m) (nc m) (entry m))) as (r & E & Hr).
  - apply mk_ext. reflexivity.
  - intros k r Hk ->. rewrite get_mk_0 by lia. cbn [bind]. change (lget [sd] 0) with (Ok sd). change (lget [mu] 0) with (Ok mu). cbn [bind]. rewrite set_mk_0 by lia.
    eexists. split; [reflexivity|]. apply mk_ext. intros i j Hi Hj. rewrite Nat.ltb_irrefl. cbn [andb].
    destruct (Nat.eqb_spec i k) as [->|Nik]; cbn [andb].
    + rewrite Nat.ltb_irrefl. rewrite (proj2 (Nat.ltb_lt k (S k))) by lia. destruct (Nat.eqb_spec j 0) as [->|]; reflexivity.
    + destruct (Nat.ltb_spec i k), (Nat.ltb_spec i (S k)); try lia; reflexivity.
  - rewrite <- (wf_mk m W) in E. transitivity (Ok r); [exact E|]. f_equal. rewrite Hr. apply mk_ext. intros i j Hi Hj. now rewrite (proj2 (Nat.ltb_lt i (nr m)) Hi).
Qed.

(** Response column j's own statistics, as used for mapping back. *)
Definition own_mean (Y : mat R) (j : nat) : R := Rmean (nr Y) (fun i => entry Y i j).
Definition own_sd (pp : preproc) (Y : mat R) (j : nat) : R :=
  match pp with PP_STANDARDIZE => sqrt (Rvar (nr Y) (fun i => entry Y i j)) | _ => 1%R end.

Lemma stats_of (Y : mat R) : 2 <= nr Y -> nc Y <> 0 ->
  helper_mean Y 0 true = Ok (own_mean Y 0) /\ helper_stdev Y 0 true = Ok (own_sd PP_STANDARDIZE Y 0).
Proof.
  intros Hr Hc. destruct (C27_mean_stdev Y 0) as (_ & M & _ & S & _). split; [apply M|apply S]; lia.
Qed.

Lemma trained_statistics (s s' : pls_st A R) (X Y : mat R) :
  initialize c s (Some X) (Some Y) = (s', Ok None) -> 2 <= nr Y -> nc Y <> 0 ->
  p_preprocessing s = PP_CENTER \/ p_preprocessing s = PP_STANDARDIZE ->
  p_initialised s' = true /\ p_trans_response s' <> None /\
  match c_arity c with
  | Single => p_class_mean s' = [own_mean Y 0] /\ p_class_std_dev s' = [own_sd (p_preprocessing s) Y 0]
  | Multi _ _ => p_class_mean s' = repeat (own_mean Y 0) (nc Y) /\ p_class_std_dev s' = repeat (own_sd (p_preprocessing s) Y 0) (nc Y)
  end.
Proof.
  intros Hi Hr Hc Hpp. destruct (stats_of Y Hr Hc) as [Em Es]. destruct (prep_multi_spec Y Hc) as (_ & Pc & Ps). rewrite Em in Pc, Ps. rewrite Es in Ps. cbn [bind] in Pc, Ps.
  unfold initialize in Hi. destruct (check_data c Y) as [m|]; [discriminate|]. unfold do_initialize in Hi. cbn [reset p_preprocessing] in Hi.
  assert (Hp : exists tp tr, prepare c (p_preprocessing s) Y =
     Ok (match c_arity c with Single => [own_mean Y 0] | Multi _ _ => repeat (own_mean Y 0) (nc Y) end,
         match c_arity c with Single => [own_sd (p_preprocessing s) Y 0] | Multi _ _ => repeat (own_sd (p_preprocessing s) Y 0) (nc Y) end, Some tp, Some tr)).
  { unfold prepare. destruct (c_arity c) as [|lo hi]; destruct Hpp as [-> | ->].
    - cbn [prep_single]. rewrite Em. cbn [bind]. eexists. eexists. reflexivity.
    - cbn [prep_single]. rewrite Em, Es. cbn [bind]. eexists. eexists. reflexivity.
    - rewrite Pc. eexists. eexists. reflexivity.
    - rewrite Ps. eexists. eexists. reflexivity. }
  destruct Hp as (tp & tr & Hp). rewrite Hp in Hi.
  destruct (pt_fit (Some tp) X) as [tp' [X'|e]]; [|discriminate].
  assert (Htr : exists tr', fst (pt_fit (Some tr) Y) = Some tr').
  { unfold pt_fit. destruct (pt_configure tr Y) as [t1 [u|e]]; [|eexists; reflexivity]. destruct (pt_transform t1 Y) as [t2 r]. eexists. reflexivity. }
  destruct (pt_fit (Some tr) Y) as [tr' [Y'|e]]; [|discriminate]. cbn [fst] in Htr. destruct Htr as (tr'' & ->).
  cbn [set_prep reset p_num_components p_own] in Hi. destruct (c_train c _ _ X' Y') as [a [[m|]|e]]; try discriminate. injection Hi as <-.
  cbn. split; [reflexivity|]. split; [discriminate|]. destruct (c_arity c); split; reflexivity.
Qed.

(** Single response: mapped back with the response's own mean and standard deviation. *)
Theorem C50_single (s s' : pls_st A R) (X Y X' raw : mat R) :
  c_arity c = Single -> p_preprocessing s = PP_CENTER \/ p_preprocessing s = PP_STANDARDIZE -> 2 <= nr Y -> nc Y <> 0 ->
  initialize c s (Some X) (Some Y) = (s', Ok None) ->
  snd (c_predict c (p_num_components s') (p_own s') X') = Ok raw -> wf raw -> nc raw = 1 ->
  exists r, snd (predict c s' X') = Ok r /\
    is_mat r (nr raw) 1 (fun i _ => (entry raw i 0 * own_sd (p_preprocessing s) Y 0 + own_mean Y 0)%R).
Proof.
  intros Ha Hpp Hr Hc Hi Hraw W Hq. destruct (trained_statistics s s' X Y Hi Hr Hc Hpp) as (Ht & Hn & Hst). rewrite Ha in Hst. destruct Hst as [Hm Hs].
  unfold predict. rewrite Ht. cbn [negb]. unfold do_predict. destruct (c_predict c (p_num_components s') (p_own s') X') as [a r]. cbn [snd] in Hraw. subst r. cbn [snd bind].
  destruct (p_trans_response s') as [t|]; [|now elim Hn]. rewrite Hm, Hs. rewrite denorm_single by (auto; lia). eexists. split; [reflexivity|].
  rewrite Hq. apply is_mat_mk_ext. intros i j Hi' Hj. assert (j = 0) by lia. now subst.
Qed.
(** Several responses: every column is mapped back with the statistics of column 0 - right for
    column 0 (and for columns that happen to have the same statistics), wrong otherwise
    (C50_refuted).  Missing from the full property: columns j >= 1. *)
Theorem C50_multi_partial (s s' : pls_st A R) (X Y X' raw : mat R) lo hi :
  c_arity c = Multi lo hi -> p_preprocessing s = PP_CENTER \/ p_preprocessing s = PP_STANDARDIZE -> 2 <= nr Y -> nc Y <> 0 ->
  initialize c s (Some X) (Some Y) = (s', Ok None) ->
  snd (c_predict c (p_num_components s') (p_own s') X') = Ok raw -> wf raw -> nc raw = nc Y ->
  exists r, snd (predict c s' X') = Ok r /\
    is_mat r (nr raw) (nc Y) (fun i j => (entry raw i j * own_sd (p_preprocessing s) Y 0 + own_mean Y 0)%R) /\
    (forall i, i < nr raw -> entry r i 0 = (entry raw i 0 * own_sd (p_preprocessing s) Y 0 + own_mean Y 0)%R) /\
    (forall j, j < nc Y -> own_mean Y j = own_mean Y 0 -> own_sd (p_preprocessing s) Y j = own_sd (p_preprocessing s) Y 0 ->
       forall i, i < nr raw -> entry r i j = (entry raw i j * own_sd (p_preprocessing s) Y j + own_mean Y j)%R).
Proof.
  intros Ha Hpp Hr Hc Hi Hraw W Hq. destruct (trained_statistics s s' X Y Hi Hr Hc Hpp) as (Ht & Hn & Hst). rewrite Ha in Hst. destruct Hst as [Hm Hs].
  unfold predict. rewrite Ht. cbn [negb]. unfold do_predict. destruct (c_predict c (p_num_components s') (p_own s') X') as [a r]. cbn [snd] in Hraw. subst r. cbn [snd bind].
  destruct (p_trans_response s') as [t|]; [|now elim Hn]. rewrite Hm, Hs. rewrite (denorm_multi lo hi) by (auto; rewrite repeat_length; lia). eexists. split; [reflexivity|].
  assert (Hnth : forall (x : R) j, j < nc Y -> nth j (repeat x (nc Y)) 0%R = x).
  { intros x j Hj. rewrite (nth_indep _ 0%R x) by now rewrite repeat_length. apply nth_repeat. }
  rewrite Hq. split; [|split].
  - apply is_mat_mk_ext. intros i j Hi' Hj. now rewrite !Hnth.
  - intros i Hi'. rewrite entry_mk by lia. now rewrite !Hnth by lia.
  - intros j Hj E1 E2 i Hi'. rewrite entry_mk by lia. rewrite !Hnth by lia. now rewrite E1, E2.
Qed.
(** Without preprocessing nothing is mapped. *)
Theorem C50_no_preprocessing (s s' : pls_st A R) (X Y X' : mat R) :
  p_preprocessing s = PP_NONE -> nc Y <> 0 -> initialize c s (Some X) (Some Y) = (s', Ok None) ->
  snd (predict c s' X') = snd (c_predict c (p_num_components s') (p_own s') X').
Proof.
  intros Hpp Hc Hi. unfold initialize in Hi. destruct (check_data c Y) as [m|]; [discriminate|]. unfold do_initialize in Hi. cbn [reset p_preprocessing] in Hi. rewrite Hpp in Hi.
  assert (Hp : exists a b, prepare c PP_NONE Y = Ok (a, b, None, None)).
  { unfold prepare. destruct (c_arity c); [eexists; eexists; reflexivity|]. rewrite (proj1 (prep_multi_spec Y Hc)). eexists. eexists. reflexivity. }
  destruct Hp as (a & b & Hp). rewrite Hp in Hi. cbn [pt_fit set_prep reset p_num_components p_own] in Hi. destruct (c_train c _ _ X Y) as [w [[m|]|e]]; try discriminate. injection Hi as <-.
  unfold predict. cbn. unfold do_predict. cbn. destruct (c_predict c (p_num_components s) w X') as [a' [r|e]]; reflexivity.
Qed.
End Denormalise.
Print Assumptions C50_single.
Print Assumptions C50_multi_partial.
Print Assumptions C50_no_preprocessing.
