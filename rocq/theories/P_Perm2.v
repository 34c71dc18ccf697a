(** C97: the order of the rows a filter or transformation is configured with does not matter. *)
From Coq Require Import List ZArith Lia Bool Arith Reals Lra Permutation Sorted.
From Verif Require Import Base Num Mat M_Matrix M_Factory M_Helper M_Loop M_Utils M_Linalg M_Transform M_MSC M_PLSBase M_PLS M_PLS2 M_GLSW M_CCAFilter M_PCA.
From Verif Require Import S_Matrix P_Helper L_Base L_Mat L_Matrix L_MatR L_Alg L_Transform P_PLSPrep L_Batch P_Batch L_Eigen P_PCA L_Perm P_Perm.
Import ListNotations.
Local Open Scope nat_scope.

Section Perm.
Variables (n : nat) (p : nat -> nat).
Hypothesis Hp : Permutation (map p (seq 0 n)) (seq 0 n).
Hypothesis Hn : n <> 0.
Notation pr := (pr n p).

(** * Center, Standardize *)
Lemma center_config s X X' : pr X X' -> t_configure center s X = t_configure center s X'.
Proof. intros HX. cbn [t_configure center]. now rewrite (pr_means n p Hp X X' HX). Qed.
Lemma std_config s X X' : pr X X' -> t_configure standardize s X = t_configure standardize s X'.
Proof. intros HX. cbn [t_configure standardize]. now rewrite (pr_means n p Hp X X' HX), (pr_stdevs n p Hp X X' HX). Qed.

(** * GLSW, EPO *)
Section GLSW.
Variables (eig : mat R -> res (list R * mat R)) (svd : mat R -> res (mat R * list R * mat R)) (lstsq : mat R -> mat R -> res (mat R)) (pow2 : R -> R).
Lemma new_center : forall m, ce_means (t_new (center (T:=R))) = Some m -> nr m = 1.
Proof. discriminate. Qed.
Lemma glsw_cov_rel A A' B B' : pr A A' -> pr B B' -> glsw_covariance A B = glsw_covariance A' B'.
Proof.
  intros HA HB. apply rrel_eq. unfold glsw_covariance. eapply (rrel_bind pr); [apply (pr_center n p Hp); [exact HA|exact new_center]|]. intros a a' Ha. eapply (rrel_bind pr); [apply (pr_center n p Hp); [exact HB|exact new_center]|]. intros b b' Hb.
  eapply (rrel_bind pr); [now apply (pr_sub n p Hp)|]. intros d d' Hd. now apply (pr_tmul n p Hp).
Qed.
Lemma glsw_init_rel kind s A A' B B' : is_ygrad kind = false -> pr A A' -> pr B B' -> glsw_initialize kind eig svd lstsq pow2 s (Some A) (Some B) = glsw_initialize kind eig svd lstsq pow2 s (Some A') (Some B').
Proof.
  intros Hk HA HB. unfold glsw_initialize, glsw_check, same_shape_as, glsw_matrix, covariance. rewrite Hk, (glsw_cov_rel A A' B B' HA HB). destruct HA as (NA & ->), HB as (NB & ->). cbn [nr nc pm mk]. now rewrite NA, NB.
Qed.
End GLSW.

(** * CCAFilter *)
Section CCA.
Variables (eig : mat R -> res (list R * mat R)) (svd : mat R -> res (mat R * list R * mat R)) (lstsq : mat R -> mat R -> res (mat R)).
Definition ce_rows (s : center_st R) : Prop := forall m, ce_means s = Some m -> nr m = 1.
Lemma cca_project_rel s X X' Y Y' : pr X X' -> pr Y Y' -> cca_project eig svd lstsq s X Y = cca_project eig svd lstsq s X' Y'.
Proof.
  intros HX HY. unfold cca_project, cca_cov. rewrite (rrel_eq _ _ (pr_tmul n p Hp X X' X X' HX HX)), (rrel_eq _ _ (pr_tmul n p Hp Y Y' Y Y' HY HY)), (rrel_eq _ _ (pr_tmul n p Hp X X' Y Y' HX HY)). rewrite (pr_nc n p X X' HX), (pr_nc n p Y Y' HY). reflexivity.
Qed.
Lemma cca_init_rel s X X' Y Y' : ce_rows (cc_center_X s) -> ce_rows (cc_center_Y s) -> pr X X' -> pr Y Y' -> cca_initialize eig svd lstsq s (Some X) (Some Y) = cca_initialize eig svd lstsq s (Some X') (Some Y').
Proof.
  intros H1 H2 HX HY. unfold cca_initialize, cca_do_initialize. rewrite (pr_nc n p X X' HX), (pr_nc n p Y Y' HY). destruct (_ <? _)%Z; [reflexivity|]. cbn [cca_reset cc_center_X cc_center_Y].
  destruct (pr_center n p Hp (cc_center_X s) X X' HX H1) as (F1 & F2). destruct (t_transform center (cc_center_X s) X) as [cx [X1|e1]], (t_transform center (cc_center_X s) X') as [cx' [X2|e2]]; cbn [fst snd rrel] in *; try contradiction; subst; [|reflexivity].
  destruct (pr_center n p Hp (cc_center_Y s) Y Y' HY H2) as (G1 & G2). destruct (t_transform center (cc_center_Y s) Y) as [cy [Y1|e1]], (t_transform center (cc_center_Y s) Y') as [cy' [Y2|e2]]; cbn [fst snd rrel] in *; try contradiction; subst; [|reflexivity].
  now rewrite (cca_project_rel _ X1 X2 Y1 Y2 F2 G2).
Qed.
End CCA.
End Perm.
(* PCA *)
Section PermPCA.
Variables (n : nat) (p : nat -> nat).
Hypothesis Hp : Permutation (map p (seq 0 n)) (seq 0 n).
Hypothesis Hn : n <> 0.
Notation pr := (pr n p).
Lemma p_onto i : i < n -> exists k, k < n /\ p k = i.
Proof. intros Hi. assert (H : In i (map p (seq 0 n))) by (eapply Permutation_in; [apply Permutation_sym, Hp|]; apply in_seq; lia). apply in_map_iff in H as (k & E & Hk). apply in_seq in Hk. exists k. split; [lia|exact E]. Qed.
Lemma keep_rel X X' : pr X X' -> pca_keep X' = pca_keep X.
Proof.
  intros (N & ->). unfold pca_keep. cbn [nr nc pm mk]. rewrite N. apply filter_ext_in. intros j Hj. apply in_seq in Hj. apply Bool.eq_true_iff_eq. pose proof (varies_iff (pm n p X) j) as V1. pose proof (varies_iff X j) as V2. cbn [nr pm mk] in V1. rewrite N in V2. etransitivity; [exact V1|]. rewrite V2. unfold varies. cbn [nr pm mk]. fold (pm n p X). rewrite N.
  assert (E : forall i, i < n -> entry (pm n p X) i j = entry X (p i) j) by (intros; unfold pm; now rewrite entry_mk by lia). split; intros (i & k & Hi & Hk & D).
  - rewrite !E in D by assumption. exists (p i), (p k). split; [now apply (p_lt n p Hp)|]. split; [now apply (p_lt n p Hp)|exact D].
  - destruct (p_onto i Hi) as (i' & ? & <-), (p_onto k Hk) as (k' & ? & <-). exists i', k'. rewrite !E by assumption. auto.
Qed.
Lemma remove_rel keep X X' : (forall j, In j keep -> j < nc X) -> pr X X' -> rrel pr (pca_remove keep X) (pca_remove keep X').
Proof.
  intros Hk HX. pose proof HX as (N & E). unfold pca_remove. rewrite (pr_nc n p X X' HX), (pr_nr n p X X' HX). destruct (_ =? _); [exact HX|]. rewrite N.
  destruct keep as [|j0 keep].
  - subst X'. unfold get_sub_matrix. cbn [sel_indices map length]. rewrite Nat.eqb_refl, orb_true_r, map_length, seq_length. cbn [rrel]. split; [reflexivity|]. unfold pm, mk, tab. cbn. f_equal. rewrite map_map. reflexivity.
  - rewrite !get_sub_matrix_lists; try (intros Q; apply (f_equal (@length nat)) in Q; rewrite seq_length in Q; cbn in Q; lia); try discriminate; try (intros i Hi; apply in_seq in Hi; rewrite ?N, ?(pr_nr n p X X' HX); lia); try (intros i Hi; rewrite ?(pr_nc n p X X' HX); now apply Hk).
    cbn [rrel]. split; [apply seq_length|]. unfold pm. cbn [nc mk]. rewrite seq_length. apply mk_ext. intros i j Hi Hj. pose proof (p_lt n p Hp i Hi). rewrite entry_mk by (rewrite ?seq_length; assumption). rewrite !seq_nth by assumption. subst X'. unfold pm. rewrite entry_mk; [reflexivity|assumption|]. apply Hk, nth_In. exact Hj.
Qed.
Lemma correlation_rel m X X' : m = nc X -> wf X -> pr X X' -> pca_correlation m X = pca_correlation m X'.
Proof.
  intros -> W (N & ->). destruct (Nat.eq_dec (nc X) 0) as [E0|E0]; [rewrite E0; reflexivity|]. rewrite (wf_mk X W) at 2. rewrite N. unfold pm. rewrite !pca_correlation_spec by exact E0.
  f_equal. apply mk_ext. intros i j Hi Hj. unfold cov_of. f_equal. rewrite !Rsum_sumn, <- (sum_perm n p Hp (fun r => entry X r i * entry X r j)%R). reflexivity.
Qed.
Definition pt_rows (t : ptrans R) : Prop := match t with PTCenter s => ce_rows s | PTStandardize s => std_rows s end.
Lemma pt_rel t X X' : pr X X' -> pt_rows t -> fst (pt_transform t X) = fst (pt_transform t X') /\ rrel pr (snd (pt_transform t X)) (snd (pt_transform t X')) /\ pt_rows (fst (pt_transform t X)).
Proof.
  intros HX Ht. destruct t as [s|s]; cbn [pt_transform pt_rows] in *.
  - destruct (pr_center n p Hp s X X' HX Ht) as (F1 & F2). assert (R1 : ce_rows (fst (t_transform center s X))).
    { unfold t_transform. cbn [t_configured center]. destruct (ce_configured s); cbn [negb]; [exact Ht|]. cbn. intros m [= <-]. reflexivity. }
    destruct (t_transform center s X), (t_transform center s X'). cbn [fst snd] in *. subst. auto.
  - destruct (pr_standardize n p Hp s X X' HX Ht) as ((F1 & F2) & F3). destruct (t_transform standardize s X), (t_transform standardize s X'). cbn [fst snd] in *. subst. auto.
Qed.
Lemma vop_wf op (A v B : mat R) : vector_op_modify op A v = Ok B -> wf B /\ nc B = nc A.
Proof. unfold vector_op_modify. destruct (must_be_vector v); [|discriminate]. cbn [bind]. destruct (negb _); [discriminate|]. intros [= <-]. split; [apply mk_wf|reflexivity]. Qed.
Lemma pt_wf t (X : mat R) B : snd (pt_transform t X) = Ok B -> wf B.
Proof.
  assert (HC : forall s, t_do center s X = Ok B -> wf B). { intros s E. cbn [t_do center] in E. destruct (ce_means s); [|discriminate]. exact (proj1 (vop_wf _ _ _ _ E)). }
  assert (HS : forall s, t_do standardize s X = Ok B -> wf B). { intros s E. cbn [t_do standardize] in E. destruct (st_means s); [|discriminate]. cbn [need bind] in E. match type of E with bind ?x _ = _ => destruct x as [B1|]; [|discriminate] end. cbn [bind] in E. destruct (st_devs s); [|discriminate]. exact (proj1 (vop_wf _ _ _ _ E)). }
  destruct t as [s|s]; cbn [pt_transform]; unfold t_transform.
  - destruct (negb _); [destruct (t_configure center s X) as [s1 [u|e]]|]; cbn [snd]; try discriminate; apply HC.
  - destruct (negb _); [destruct (t_configure standardize s X) as [s1 [u|e]]|]; cbn [snd]; try discriminate; apply HS.
Qed.
Variables (eig : mat R -> res (list R * mat R)) (argsort : list R -> list nat).
Lemma configure_rel s X X' : pr X X' -> pca_configure eig argsort s X = pca_configure eig argsort s X'.
Proof.
  intros HX. unfold pca_configure. rewrite (keep_rel X X' HX). set (keep := pca_keep X).
  assert (Hk : forall j, In j keep -> j < nc X) by (intros j Hj; apply filter_In in Hj; destruct Hj as (Hj & _); apply in_seq in Hj; lia).
  pose proof (remove_rel keep X X' Hk HX) as Q. destruct (pca_remove keep X) as [A|], (pca_remove keep X') as [A'|]; cbn [rrel] in Q; try contradiction; [|now subst].
  set (t := if pc_center s then _ else _). assert (Ht : pt_rows t) by (unfold t; destruct (pc_center s); [discriminate|split; discriminate]). destruct (pt_rel t A A' Q Ht) as (E1 & E2 & _). pose proof (pt_wf t A) as W.
  destruct (pt_transform t A) as [t1 [B|e]], (pt_transform t A') as [t1' [B'|e']]; cbn [fst snd rrel] in *; try contradiction; subst; [|reflexivity].
  rewrite (correlation_rel (nc B) B B' eq_refl (W B eq_refl) E2), (pr_nc n p B B' E2), (pr_nr n p B B' E2). destruct E2 as (-> & _). reflexivity.
Qed.

(** the scores: row i of the reordered data gives row p i of the original scores *)
Lemma range_ext {A} k (f g : A -> nat -> res A) a : (forall x i, f x i = g x i) -> for_range k f a = for_range k g a.
Proof. intros H. unfold for_range. generalize (seq 0 k). intros l. revert a. induction l as [|i l IH]; intros a; [reflexivity|]. cbn. rewrite H. destruct (g a i); [cbn; apply IH|reflexivity]. Qed.
Lemma get_row_rel (X X' : mat R) i j : pr X X' -> i < n -> get X' (Z.of_nat i) j = get X (Z.of_nat (p i)) j.
Proof.
  intros (N & ->) Hi. pose proof (p_lt n p Hp i Hi). unfold get. cbn [nr nc pm mk]. fold (pm n p X). rewrite !npidx_nat by lia. cbn [bind]. destruct (npidx (nc X) j) as [k|] eqn:E; [|reflexivity]. cbn [bind]. f_equal. unfold pm. rewrite entry_mk; [reflexivity|assumption|]. apply npidx_addr in E. unfold addr in E. lia.
Qed.
Lemma row_rel (s : pca_st R) (X X' : mat R) i is_ : pr X X' -> i < n -> forall nv c k, pca_row s X' i is_ nv c k = pca_row s X (p i) is_ nv c k.
Proof.
  intros HX Hi. induction is_ as [|a is_ IH]; intros nv c k; [reflexivity|]. cbn [pca_row]. 
  match goal with |- bind (for_range _ ?f _) _ = bind (for_range _ ?g _) _ => rewrite (range_ext _ f g) end.
  2: { intros x j. destruct (need (pc_eigenvectors s)) as [V|]; [cbn [bind]|reflexivity]. destruct (get_row V _); [cbn [bind]|reflexivity]. destruct (lget _ _); [cbn [bind]|reflexivity]. destruct (get _ 0 _); [cbn [bind]|reflexivity]. now rewrite (get_row_rel X X' i _ HX Hi). }
  destruct (for_range _ _ _); [cbn [bind]|reflexivity]. destruct (lset _ _ _); [cbn [bind]|reflexivity]. destruct (lget _ _); [cbn [bind]|reflexivity]. destruct (need _); [cbn [bind]|reflexivity]. destruct (get_from_vector _ _); [cbn [bind]|reflexivity]. destruct (pca_enough _ _); [reflexivity|]. apply IH.
Qed.
Lemma row_uniform (s : pca_st R) (X : mat R) i i' is_ : i < nr X -> i' < nr X -> forall nv nv' c k, length nv = length nv' ->
  rrel (fun r r' => snd r = snd r' /\ length (fst r) = length nv /\ length (fst r') = length nv /\ snd r <= k + length is_) (pca_row s X i is_ nv c k) (pca_row s X i' is_ nv' c k).
Proof.
  intros Hi Hi'. induction is_ as [|a is_ IH]; intros nv nv' c k L; cbn [pca_row]; [cbn; repeat split; [congruence|lia]|].
  eapply (rrel_bind (fun _ _ => True)).
  { apply (rrel_range (fun _ _ => True)); [exact I|]. intros x y j _. eapply (rrel_bind eq); [apply rrel_refl|]. intros V ? <-. eapply (rrel_bind eq); [apply rrel_refl|]. intros r ? <-. eapply (rrel_bind eq); [apply rrel_refl|]. intros q ? <-. eapply (rrel_bind eq); [apply rrel_refl|]. intros z ? <-.
    unfold get. rewrite (npidx_nat (nr X) i), (npidx_nat (nr X) i') by assumption. cbn [bind]. destruct (npidx (nc X) _); cbn; auto. }
  intros v v' _. eapply (rrel_bind (fun a b => length a = length nv /\ length b = length nv)). { unfold lset. rewrite <- L. destruct (npidx _ _); cbn; [|reflexivity]. rewrite !upd_length. auto. }
  intros w w' (L1 & L2). eapply (rrel_bind eq); [apply rrel_refl|]. intros q1 ? <-. eapply (rrel_bind eq); [apply rrel_refl|]. intros q2 ? <-. eapply (rrel_bind eq); [apply rrel_refl|]. intros ev ? <-. cbv zeta. destruct (pca_enough _ _).
  - cbn. repeat split; auto. lia.
  - pose proof (IH w w' (nadd c ev) (S k) ltac:(congruence)) as Q. destruct (pca_row s X i _ _ _ _), (pca_row s X i' _ _ _ _); cbn [rrel] in *; try contradiction; [|exact Q]. cbn [length]. destruct Q as (Q1 & Q2 & Q3 & Q4). repeat split; [congruence..|lia].
Qed.
Definition pca_width (s : pca_st R) : nat := if (0 <? pc_max_columns s)%Z then Z.to_nat (pc_max_columns s) else pc_num_cols s.
Lemma order_length s : length (pca_order s) <= pca_width s.
Proof. unfold pca_order, pca_width, pca_lower. rewrite rev_length, seq_length. destruct (0 <? pc_max_columns s)%Z eqn:E; [apply Z.ltb_lt in E; lia|lia]. Qed.
(** the two loops of do_transform *)
Definition pca_out (s : pca_st R) (data : mat R) : res (mat R) :=
  do out <- for_range (nr data) (fun st i => do r <- pca_row s data i (pca_order s) (repeat n0 (pca_width s)) n0 0; Ok (fst st ++ [fst r], Nat.max (snd st) (snd r))) ([], 0);
  let (values, act) := out in
  for_range (length values) (fun result i => for_range (Nat.min (length (nth i values [])) act) (fun result j => set result (Z.of_nat i) (Z.of_nat j) (nth j (nth i values []) n0)) result) (zeros (Z.of_nat (nr data)) (Z.of_nat act)).
Lemma out_ok s data (v : nat -> list R) c : nr data = n -> c <= pca_width s -> (forall i, i < n -> pca_row s data i (pca_order s) (repeat n0 (pca_width s)) n0 0 = Ok (v i, c) /\ length (v i) = pca_width s) ->
  pca_out s data = Ok (mk n c (fun i j => nth j (v i) 0%R)).
Proof.
  intros N Hc Hv. unfold pca_out. rewrite N.
  match goal with |- context[for_range n ?b ([], 0)] => destruct (for_range_inv (fun k st => st = (map v (seq 0 k), if k =? 0 then 0 else c)) b n ([], 0)) as (st & E & ->) end.
  - reflexivity.
  - intros k st Hk ->. destruct (Hv k Hk) as (-> & _). cbn [bind fst snd]. eexists. split; [reflexivity|]. rewrite seq_S, map_app. cbn [Nat.eqb map plus]. f_equal. destruct (k =? 0); lia.
  - rewrite E. cbn [bind]. rewrite map_length, seq_length. destruct (Nat.eqb_spec n 0) as [|_]; [contradiction|].
    assert (En : forall i, i < n -> nth i (map v (seq 0 n)) [] = v i). { intros i Hi. rewrite (nth_indep _ [] (v 0)) by (rewrite map_length, seq_length; exact Hi). rewrite map_nth, seq_nth by exact Hi. reflexivity. }
    etransitivity; [apply (fill_rows n c (fun i j => nth j (nth i (map v (seq 0 n)) []) 0%R) (fun i => Nat.min (length (nth i (map v (seq 0 n)) [])) c) Hn)|].
    + intros i Hi. rewrite En by exact Hi. rewrite (proj2 (Hv i Hi)). lia.
    + f_equal. apply mk_ext. intros i j Hi Hj. now rewrite En.
Qed.
Lemma out_err s data e : nr data = n -> pca_row s data 0 (pca_order s) (repeat n0 (pca_width s)) n0 0 = Err e -> pca_out s data = Err e.
Proof. intros N E. unfold pca_out. rewrite N. destruct n as [|m]; [contradiction|]. unfold for_range at 1. cbn [seq for_each]. rewrite E. reflexivity. Qed.
Lemma out_rel s X X' : pr X X' -> rrel pr (pca_out s X) (pca_out s X').
Proof.
  intros HX. pose proof HX as (N & _). pose proof (pr_nr n p X X' HX) as N'. pose proof (p_lt n p Hp 0 ltac:(lia)) as H0.
  destruct (pca_row s X 0 (pca_order s) (repeat n0 (pca_width s)) n0 0) as [[v0 c]|e] eqn:E0.
  - set (v := fun i => match pca_row s X i (pca_order s) (repeat n0 (pca_width s)) n0 0 with Ok r => fst r | Err _ => [] end).
    assert (Hv : forall i, i < n -> pca_row s X i (pca_order s) (repeat n0 (pca_width s)) n0 0 = Ok (v i, c) /\ length (v i) = pca_width s /\ c <= pca_width s).
    { intros i Hi. pose proof (row_uniform s X 0 i (pca_order s) ltac:(lia) ltac:(lia) (repeat n0 (pca_width s)) (repeat n0 (pca_width s)) n0 0 eq_refl) as Q. rewrite E0 in Q. unfold v. destruct (pca_row s X i _ _ _ _) as [[w c']|]; cbn [rrel fst snd] in *; [|contradiction]. destruct Q as (-> & _ & L & Hc). rewrite repeat_length in L. pose proof (order_length s). repeat split; [exact L|lia]. }
    assert (Hc : c <= pca_width s) by (apply (Hv 0); lia).
    rewrite (out_ok s X v c N Hc) by (intros i Hi; split; apply Hv; exact Hi). rewrite (out_ok s X' (fun i => v (p i)) c N' Hc).
    + cbn [rrel]. apply (pr_mk n p Hp). reflexivity.
    + intros i Hi. rewrite (row_rel s X X' i _ HX Hi). pose proof (Hv (p i) (p_lt n p Hp i Hi)). split; apply H.
  - rewrite (out_err s X e N E0), (out_err s X' e N'); [reflexivity|]. rewrite (row_rel s X X' 0 _ HX ltac:(lia)).
    pose proof (row_uniform s X 0 (p 0) (pca_order s) ltac:(lia) ltac:(lia) (repeat n0 (pca_width s)) (repeat n0 (pca_width s)) n0 0 eq_refl) as Q. rewrite E0 in Q. destruct (pca_row s X (p 0) _ _ _ _); cbn [rrel] in Q; [contradiction|now subst].
Qed.
Lemma do_rel s X X' : (forall j, In j (pc_keep s) -> j < nc X) -> (forall t, pc_trans s = Some t -> pt_rows t) -> pr X X' ->
  fst (pca_do_transform s X) = fst (pca_do_transform s X') /\ rrel pr (snd (pca_do_transform s X)) (snd (pca_do_transform s X')).
Proof.
  intros Hk Ht HX. unfold pca_do_transform. pose proof (remove_rel (pc_keep s) X X' Hk HX) as Q. destruct (pca_remove _ X) as [A|], (pca_remove _ X') as [A'|]; cbn [rrel] in Q; try contradiction; [|subst; now split].
  destruct (pc_trans s) as [t|]; [|now split]. destruct (pt_rel t A A' Q (Ht t eq_refl)) as (E1 & E2 & _). destruct (pt_transform t A) as [t1 r], (pt_transform t A') as [t1' r']. cbn [fst snd] in *. subst t1'. split; [reflexivity|].
  eapply (rrel_bind pr); [exact E2|]. intros B B' HB. exact (out_rel s B B' HB).
Qed.
Definition pca_rel (a b : pca_st R) : Prop := pc_loadings a = pc_loadings b /\ pc_trans a = pc_trans b /\ pc_keep a = pc_keep b /\ pc_correlation a = pc_correlation b /\ pc_eigenvectors a = pc_eigenvectors b /\ pc_eigenvalues a = pc_eigenvalues b.
Lemma config_rows s X : (forall t, pc_trans s = Some t -> pt_rows t) -> pr X (pm n p X) -> forall s', pca_configure eig argsort s X = (s', Ok tt) -> (forall t, pc_trans s' = Some t -> pt_rows t) /\ pc_keep s' = pca_keep X.
Proof.
  intros Hs HX s' E. unfold pca_configure in E. set (keep := pca_keep X) in *. assert (Hk : forall j, In j keep -> j < nc X) by (intros j Hj; apply filter_In in Hj; destruct Hj as (Hj & _); apply in_seq in Hj; lia).
  pose proof (remove_rel keep X _ Hk HX) as Q. destruct (pca_remove keep X) as [A|]; [|discriminate]. destruct (pca_remove keep (pm n p X)) as [A'|]; cbn [rrel] in Q; [|contradiction].
  set (t := if pc_center s then _ else _) in E. assert (Ht : pt_rows t) by (unfold t; destruct (pc_center s); [discriminate|split; discriminate]). destruct (pt_rel t A A' Q Ht) as (_ & _ & E3).
  destruct (pt_transform t A) as [t1 [B|e]]; [|discriminate]. cbn [fst] in E3. destruct (pca_correlation _ B) as [C|]; [|discriminate]. destruct (make_eig eig C) as [[va ve]|]; [|discriminate]. apply (f_equal fst) in E. cbn [fst] in E. subst s'. cbn. split; [|reflexivity]. intros ? [= <-]. exact E3.
Qed.
Lemma pca_transform_rel s X X' : pr X X' -> rrel pr (snd (pca_transform eig argsort s X)) (snd (pca_transform eig argsort s X')) /\ pca_rel (fst (pca_transform eig argsort s X)) (fst (pca_transform eig argsort s X')).
Proof.
  intros HX. unfold pca_transform. rewrite <- (configure_rel (pca_reset s) X X' HX). pose proof HX as (N & EX). assert (H0 : forall t, pc_trans (pca_reset s) = Some t -> pt_rows t) by discriminate. pose proof (config_rows (pca_reset s) X H0 ltac:(now split)) as HC.
  destruct (pca_configure eig argsort (pca_reset s) X) as [s1 [[]|e]]; [|unfold pca_rel; cbn; repeat split]. destruct (HC s1 eq_refl) as (HT & HK).
  destruct (do_rel s1 X X') as (D1 & D2); [rewrite HK; intros j Hj; apply filter_In in Hj; destruct Hj as (Hj & _); apply in_seq in Hj; lia|exact HT|exact HX|].
  destruct (pca_do_transform s1 X) as [s2 [Rs|e]], (pca_do_transform s1 X') as [s2' [Rs'|e']]; cbn [fst snd rrel] in *; try contradiction; subst; [|unfold pca_rel; cbn; repeat split]. destruct (pca_extract_loadings s2'); unfold pca_rel; cbn; repeat split; apply D2.
Qed.
End PermPCA.

(** * C97 *)
(** X2 holds the rows of X in the order l. *)
Definition rows_of (l : list Z) (X X2 : mat R) : Prop := Permutation l (map Z.of_nat (seq 0 (nr X))) /\ nr X <> 0 /\ get_rows X (SList l) = Ok X2.
Lemma rows_of_pr l (X : mat R) : nr X <> 0 -> Permutation l (map Z.of_nat (seq 0 (nr X))) -> exists p, Permutation (map p (seq 0 (nr X))) (seq 0 (nr X)) /\ (forall A A2, nr A = nr X -> rows_of l A A2 -> pr (nr X) p A A2) /\ (forall A A2, pr (nr X) p A A2 -> get_rows A (SList l) = Ok A2).
Proof.
  intros N0 Pl. destruct (reorder (nr X) l N0 Pl) as (p & Hp & Hg). exists p. split; [exact Hp|]. split.
  - intros A A2 NA (_ & _ & E). rewrite (Hg A NA) in E. injection E as <-. now split.
  - intros A A2 (NA & ->). now apply Hg.
Qed.
(** Center and Standardize end in the same state *)
Theorem C97_center s l X X2 : rows_of l X X2 -> t_configure center s X2 = t_configure center s X.
Proof. intros HX. pose proof HX as (P & N & _). destruct (rows_of_pr l X N P) as (p & Hp & Hr & _). symmetry. now apply (center_config (nr X) p Hp), Hr. Qed.
Theorem C97_standardize s l X X2 : rows_of l X X2 -> t_configure standardize s X2 = t_configure standardize s X.
Proof. intros HX. pose proof HX as (P & N & _). destruct (rows_of_pr l X N P) as (p & Hp & Hr & _). symmetry. now apply (std_config (nr X) p Hp), Hr. Qed.
Section C97.
Variables (eig : mat R -> res (list R * mat R)) (svd : mat R -> res (mat R * list R * mat R)) (lstsq : mat R -> mat R -> res (mat R)) (pow2 : R -> R) (argsort : list R -> list nat).
(** GLSW and EPO end in the same state, with the same result *)
Theorem C97_glsw_epo kind s l A A2 B B2 : is_ygrad kind = false -> nr A = nr B -> rows_of l A A2 -> rows_of l B B2 ->
  glsw_initialize kind eig svd lstsq pow2 s (Some A2) (Some B2) = glsw_initialize kind eig svd lstsq pow2 s (Some A) (Some B).
Proof. intros Hk E HA HB. pose proof HA as (P & N & _). destruct (rows_of_pr l A N P) as (p & Hp & Hr & _). symmetry. apply (glsw_init_rel (nr A) p Hp); [exact Hk|now apply Hr|apply Hr; [congruence|exact HB]]. Qed.
Lemma cca_reach h : ce_rows (cc_center_X (cca_run eig svd lstsq h)) /\ ce_rows (cc_center_Y (cca_run eig svd lstsq h)).
Proof.
  assert (HC : forall s (X : mat R), ce_rows s -> ce_rows (fst (t_transform center s X))). { intros s X Hs. unfold t_transform. cbn [t_configured center]. destruct (ce_configured s); cbn [negb]; [exact Hs|]. cbn. intros m [= <-]. reflexivity. }
  unfold cca_run. assert (H0 : ce_rows (cc_center_X (cca_new (T:=R))) /\ ce_rows (cc_center_Y (cca_new (T:=R)))) by (split; discriminate). revert H0. generalize (cca_new (T:=R)) as s. induction h as [|o h IH]; intros s H; [exact H|]. cbn [fold_left]. apply IH. destruct H as (H1 & H2).
  destruct o as [[x|] [y|]|x|y| |k]; cbn [cca_step fst cca_initialize]; try (split; discriminate); try (split; assumption).
  - unfold cca_do_initialize. destruct (_ <? _)%Z; [now split|]. pose proof (HC (cc_center_X (cca_reset s)) x H1) as Q1. destruct (t_transform center (cc_center_X _) x) as [cx [X1|e]]; cbn [fst] in *; [|now split].
    pose proof (HC (cc_center_Y (cca_reset s)) y H2) as Q2. destruct (t_transform center (cc_center_Y _) y) as [cy [Y1|e]]; cbn [fst] in *; [|now split]. destruct (cca_project _ _ _ _ X1 Y1) as [px [py|e]]; now split.
  - unfold cca_transform. destruct (negb _); [now split|]. pose proof (HC (cc_center_X s) x H1) as Q1. destruct (t_transform center _ x); now split.
  - unfold cca_transform_response. destruct (negb _); [now split|]. pose proof (HC (cc_center_Y s) y H2) as Q1. destruct (t_transform center _ y); now split.
  - unfold cca_set. destruct (cca_valid k); [|now split]. destruct k; now split.
Qed.
(** CCAFilter, in every state calls can lead to *)
Theorem C97_cca_filter h l X X2 Y Y2 : nr X = nr Y -> rows_of l X X2 -> rows_of l Y Y2 -> let s := cca_run eig svd lstsq h in
  cca_initialize eig svd lstsq s (Some X2) (Some Y2) = cca_initialize eig svd lstsq s (Some X) (Some Y).
Proof.
  intros E HX HY s. pose proof HX as (P & N & _). destruct (rows_of_pr l X N P) as (p & Hp & Hr & _). destruct (cca_reach h) as (R1 & R2). symmetry. apply (cca_init_rel (nr X) p Hp); [exact R1|exact R2|now apply Hr|apply Hr; [congruence|exact HY]].
Qed.
(** PCA.configure ends in the same state; PCA.transform (which configures itself on its argument) returns the rows
    of the scores in the new order and keeps the same loadings, or raises the same exception *)
Theorem C97_pca s l X X2 : rows_of l X X2 -> pca_configure eig argsort s X2 = pca_configure eig argsort s X /\
  (match snd (pca_transform eig argsort s X) with Ok Sc => exists Sc2, snd (pca_transform eig argsort s X2) = Ok Sc2 /\ get_rows Sc (SList l) = Ok Sc2 | Err e => snd (pca_transform eig argsort s X2) = Err e end) /\
  pc_loadings (fst (pca_transform eig argsort s X2)) = pc_loadings (fst (pca_transform eig argsort s X)).
Proof.
  intros HX. pose proof HX as (P & N & _). destruct (rows_of_pr l X N P) as (p & Hp & Hr & Hg). pose proof (Hr X X2 eq_refl HX) as H. split; [symmetry; now apply (configure_rel (nr X) p Hp)|].
  destruct (pca_transform_rel (nr X) p Hp N eig argsort s X X2 H) as (T1 & T2). split; [|symmetry; apply T2]. destruct (snd (pca_transform eig argsort s X)) as [Sc|e], (snd (pca_transform eig argsort s X2)) as [Sc2|e2]; cbn [rrel] in T1; try contradiction; [|now subst]. exists Sc2. split; [reflexivity|]. now apply Hg.
Qed.
End C97.
(** PCA on four rows and on the same rows in the order 3, 1, 0, 2 *)
Example C97_ex : exists X2 s s2 Sc Sc2, rows_of [3; 1; 0; 2]%Z X56 X2 /\ entry X2 0 1 <> entry X56 0 1 /\ pca_transform (fun _ => Ok (l56, V56)) argsort_R s56 X56 = (s, Ok Sc) /\ pca_transform (fun _ => Ok (l56, V56)) argsort_R s56 X2 = (s2, Ok Sc2) /\
  get_rows Sc (SList [3; 1; 0; 2]%Z) = Ok Sc2 /\ pc_loadings s2 = pc_loadings s.
Proof.
  destruct C56_loadings_refuted as (s & Sc & L & W & E & EL & _). assert (HX : exists X2, rows_of [3; 1; 0; 2]%Z X56 X2 /\ entry X2 0 1 <> entry X56 0 1).
  { exists (Mat 4 3 [[5; 0; -2]; [5; -1; 0]; [5; 1; 0]; [5; 0; 2]]%R). split; [split; [|split; [discriminate|reflexivity]]|change (0 <> 1)%R; lra]. cbn. apply (Permutation_trans (l' := [0; 3; 1; 2]%Z)); [|apply perm_skip; apply (Permutation_trans (l' := [1; 3; 2]%Z)); [apply perm_swap|apply perm_skip, perm_swap]]. apply Permutation_sym, (Permutation_middle [3; 1]%Z [2]%Z 0%Z). }
  destruct HX as (X2 & HX & D). destruct (C97_pca (fun _ => Ok (l56, V56)) argsort_R s56 _ _ _ HX) as (_ & H1 & H2). rewrite E in H1, H2. cbn [fst snd] in *. destruct H1 as (Sc2 & E2 & G). exists X2, s, (fst (pca_transform (fun _ => Ok (l56, V56)) argsort_R s56 X2)), Sc, Sc2. repeat split; try assumption; try apply HX. rewrite <- E2. apply surjective_pairing.
Qed.
Print Assumptions C97_center.
Print Assumptions C97_standardize.
Print Assumptions C97_glsw_epo.
Print Assumptions C97_cca_filter.
Print Assumptions C97_pca.
