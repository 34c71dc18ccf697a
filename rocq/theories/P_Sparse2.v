(** C89: SparsePLS predicts with NIPALS on the selected features.
    C90: which lambda_ can be trained with. *)
From Coq Require Import List ZArith Lia Bool Arith Reals Lra Permutation.
From Verif Require Import Base Num Mat M_Matrix M_Factory M_Helper M_Loop M_Utils M_Linalg M_Transform M_PLSBase M_PLS M_PLS2
  S_Matrix L_Base L_Mat L_MatR L_Matrix L_Stats L_Transform L_Alg L_Deflate P_Helper P_Transform P_GLSW P_PLSPrep L_Public L_DIPLS P_PLS1 L_Krylov P_SIMPLS2 P_NIPALS2 P_DIPLS P_PRM P_Sparse P_Median L_PRM L_Span.
Import ListNotations.
Local Open Scope R_scope.

(** The features A of X, in that order *)
Definition columns (A : list nat) (X : mat R) : mat R := mk (nr X) (length A) (fun i c => entry X i (nth c A 0%nat)).
Definition big (x : R) : bool := if Rlt_dec (/ 10 ^ 6) (Rabs x) then true else false.
(** the features whose direction or coefficient exceeds 1e-6 *)
Definition selected (p : nat) (w b : nat -> R) : list nat := filter (fun j => big (w j) || big (b j)) (seq 0 p).

(** * Loops *)
Lemma for_range_keeps {S} (I : S -> Prop) (body : S -> nat -> res S) n : forall s s',
  (forall k s s', I s -> body s k = Ok s' -> I s') -> I s -> for_range n body s = Ok s' -> I s'.
Proof.
  intros s s' H. unfold for_range. revert s. induction (seq 0 n) as [|k l IH]; intros s Hs E; cbn [for_each] in E; [now injection E as <-|].
  destruct (body s k) as [s1|] eqn:E1; cbn [bind] in E; [|discriminate]. exact (IH s1 (H k s s1 Hs E1) E).
Qed.
Lemma set_column_dims {T} `{Num T} (m v m' : mat T) k : set_column m k v = Ok m' -> nr m' = nr m /\ nc m' = nc m.
Proof. unfold set_column. destruct (must_be_vector v); cbn [bind]; [|discriminate]. destruct (npidx (nc m) k); cbn [bind]; [|discriminate]. intros [= <-]. split; reflexivity. Qed.
Lemma columns_loop n p x A : (forall j, In j A -> (j < p)%nat) -> forall q c f, (c + length A <= q)%nat ->
  for_each A (fun st i => do col <- get_column (mk n p x) (zn i); do m <- set_column (fst st) (zn (snd st)) col; Ok (m, S (snd st))) (mk n q f, c) =
  Ok (mk n q (fun i j => if (c <=? j)%nat && (j <? c + length A)%nat then x i (nth (j - c) A 0%nat) else f i j : R), (c + length A)%nat).
Proof.
  induction A as [|a A IH]; intros HA q c f Hq; cbn [for_each length].
  - rewrite Nat.add_0_r. apply f_equal. apply f_equal2; [|reflexivity]. apply mk_ext. intros i j Hi Hj. destruct (Nat.leb_spec c j), (Nat.ltb_spec j c); cbn [andb]; try reflexivity; lia.
  - cbn [fst snd length] in *. unfold zn. rewrite get_column_mk by (apply HA; now left). cbn [bind]. rewrite set_column_mk by lia. cbn [bind]. rewrite IH by (auto with datatypes || lia). apply f_equal. apply f_equal2; [|lia].
    apply mk_ext. intros i j Hi Hj. replace (S c + length A)%nat with (c + S (length A))%nat by lia. destruct (Nat.eqb_spec j c) as [->|Hne].
    + rewrite Nat.sub_diag, Nat.leb_refl, (proj2 (Nat.leb_gt (S c) c)) by lia. cbn [andb nth]. rewrite (proj2 (Nat.ltb_lt c (c + S (length A)))) by lia. reflexivity.
    + destruct (Nat.leb_spec c j).
      * rewrite (proj2 (Nat.leb_le (S c) j)) by lia. cbn [andb]. destruct (j <? c + S (length A))%nat; [|reflexivity]. destruct (j - c)%nat as [|d] eqn:Ed; [lia|]. cbn [nth]. now replace (j - S c)%nat with d by lia.
      * rewrite (proj2 (Nat.leb_gt (S c) j)) by lia. reflexivity.
Qed.
Lemma columns_run n p x A : n <> 0%nat -> (forall j, In j A -> (j < p)%nat) ->
  sparse_columns A (mk n p x) = Ok (mk n (length A) (fun i c => x i (nth c A 0%nat) : R)).
Proof.
  intros Hn HA. unfold sparse_columns. cbn [nr mk]. fold (mk n p x). unfold zn at 2 3. rewrite zeros_mk by exact Hn. rewrite columns_loop by (assumption || lia). cbn [bind fst]. apply f_equal. apply mk_ext. intros i j Hi Hj.
  rewrite Nat.sub_0_r. destruct (Nat.leb_spec 0 j), (Nat.ltb_spec j (0 + length A)); cbn [andb]; try lia. reflexivity.
Qed.
Lemma rows_loop n p x A : (forall j, In j A -> (j < n)%nat) -> forall q c f, (c + length A <= q)%nat ->
  for_each A (fun st i => do row <- get_row (mk n p x) (zn i); do m <- set_row (fst st) (zn (snd st)) row; Ok (m, S (snd st))) (mk q p f, c) =
  Ok (mk q p (fun i j => if (c <=? i)%nat && (i <? c + length A)%nat then x (nth (i - c) A 0%nat) j else f i j : R), (c + length A)%nat).
Proof.
  induction A as [|a A IH]; intros HA q c f Hq; cbn [for_each length].
  - rewrite Nat.add_0_r. apply f_equal. apply f_equal2; [|reflexivity]. apply mk_ext. intros j i Hi Hj. destruct (Nat.leb_spec c j), (Nat.ltb_spec j c); cbn [andb]; try reflexivity; lia.
  - cbn [fst snd length] in *. unfold zn. rewrite get_row_mk by (apply HA; now left). cbn [bind]. rewrite set_row_mk by lia. cbn [bind]. rewrite IH by (auto with datatypes || lia). apply f_equal. apply f_equal2; [|lia].
    apply mk_ext. intros j i Hi Hj. replace (S c + length A)%nat with (c + S (length A))%nat by lia. destruct (Nat.eqb_spec j c) as [->|Hne].
    + rewrite Nat.sub_diag, Nat.leb_refl, (proj2 (Nat.leb_gt (S c) c)) by lia. cbn [andb nth]. rewrite (proj2 (Nat.ltb_lt c (c + S (length A)))) by lia. reflexivity.
    + destruct (Nat.leb_spec c j).
      * rewrite (proj2 (Nat.leb_le (S c) j)) by lia. cbn [andb]. destruct (j <? c + S (length A))%nat; [|reflexivity]. destruct (j - c)%nat as [|d] eqn:Ed; [lia|]. cbn [nth]. now replace (j - S c)%nat with d by lia.
      * rewrite (proj2 (Nat.leb_gt (S c) j)) by lia. reflexivity.
Qed.
Lemma rows_run n p x A : A <> [] -> (forall j, In j A -> (j < n)%nat) ->
  sparse_rows A (mk n p x) = Ok (mk (length A) p (fun c j => x (nth c A 0%nat) j : R)).
Proof.
  intros Hn HA. assert (length A <> 0%nat) by (destruct A; [contradiction|discriminate]). unfold sparse_rows. cbn [nc mk]. fold (mk n p x). unfold zn at 2 3. rewrite zeros_mk by assumption. rewrite rows_loop by (assumption || lia). cbn [bind fst]. apply f_equal. apply mk_ext. intros j i Hi Hj.
  rewrite Nat.sub_0_r. destruct (Nat.leb_spec 0 j), (Nat.ltb_spec j (0 + length A)); cbn [andb]; try lia. reflexivity.
Qed.
(** B_pls: the coefficients go to the rows in A *)
Fixpoint place (A : list nat) (c : nat) (g f : nat -> R) (j : nat) : R :=
  match A with [] => f j | a :: A => place A (S c) g (fun j => if (j =? a)%nat then g c else f j) j end.
Lemma place_loop q g p A : (forall j, In j A -> (j < p)%nat) -> forall c f, (c + length A <= q)%nat ->
  for_each A (fun st idx => do B <- need (Some (mk q 1 (fun j _ => g j))); do row <- get_row B (zn (snd st)); do m <- set_row (fst st) (zn idx) row; Ok (m, S (snd st))) (mk p 1 (fun j _ => f j), c) =
  Ok (mk p 1 (fun j _ => place A c g f j : R), (c + length A)%nat).
Proof.
  induction A as [|a A IH]; intros HA c f Hq; cbn [for_each length place]; [now rewrite Nat.add_0_r|].
  cbn [fst snd length need bind] in *. unfold zn at 1. rewrite get_row_mk by lia. cbn [bind]. unfold zn. rewrite set_row_mk by (apply HA; now left). cbn [bind].
  match goal with |- for_each A _ (mk p 1 ?h, _) = _ => change (mk p 1 h) with (mk p 1 (fun j _ : nat => (fun j => if (j =? a)%nat then g c else f j) j)) end.
  etransitivity; [apply (IH ltac:(auto with datatypes) (S c) (fun j => if (j =? a)%nat then g c else f j) ltac:(lia))|]. now replace (S c + length A)%nat with (c + S (length A))%nat by lia.
Qed.
Lemma place_out A : forall c g f j, ~ In j A -> place A c g f j = f j.
Proof. induction A as [|a A IH]; intros c g f j Hj; [reflexivity|]. cbn [place]. rewrite IH by (intros Q; apply Hj; now right). destruct (Nat.eqb_spec j a) as [->|]; [|reflexivity]. exfalso. apply Hj. now left. Qed.
Lemma place_in A : NoDup A -> forall c g f k, (k < length A)%nat -> place A c g f (nth k A 0%nat) = g (c + k)%nat.
Proof.
  induction 1 as [|a A Ha HN IH]; intros c g f k Hk; cbn [length] in Hk; [lia|]. cbn [place]. destruct k as [|k]; cbn [nth].
  - rewrite place_out by exact Ha. now rewrite Nat.eqb_refl, Nat.add_0_r.
  - rewrite IH by lia. f_equal. lia.
Qed.

(** * Standardised data stay as they are *)
Definition std_column (n : nat) (v : nat -> R) : Prop := Rmean n v = 0 /\ Rvar n v = 1.
Lemma std_preparable n q f : (2 <= n)%nat -> (forall j, (j < q)%nat -> std_column n (fun i => f i j)) -> preparable PP_STANDARDIZE (mk n q f).
Proof.
  intros Hn Hs. split; [exact Hn|]. cbn [nc mk]. intros j Hj Hc. destruct (Hs j Hj) as [_ Hv]. assert (E : np_std n (fun i => f i j) = 0).
  { apply np_std_zero; [exact Hn|]. intros i k Hi Hk. specialize (Hc i k Hi Hk). now rewrite !entry_mk in Hc by assumption. }
  rewrite <- Rvar_np, Hv, sqrt_1 in E. lra.
Qed.
Lemma std_stats n q f j : (j < q)%nat -> std_column n (fun i => f i j) -> Rmean n (fun k => entry (mk n q f) k j) = 0 /\ Rvar n (fun k => entry (mk n q f) k j) = 1.
Proof.
  intros Hj [H1 H2]. assert (E : Rmean n (fun k => entry (mk n q f) k j) = Rmean n (fun k => f k j)) by (unfold Rmean; f_equal; apply Rsum_ext; intros; now rewrite entry_mk).
  split; [now rewrite E|]. rewrite <- H2. unfold Rvar. f_equal. rewrite E. apply Rsum_ext. intros k Hk. now rewrite entry_mk.
Qed.
Lemma std_fix n q f : (2 <= n)%nat -> q <> 0%nat -> (forall j, (j < q)%nat -> std_column n (fun i => f i j)) ->
  t_transform standardize (t_new standardize) (mk n q f) = (std_conf (mk n q f), Ok (mk n q f)) /\
  (forall Z, wf Z -> nc Z = q -> t_transform standardize (std_conf (mk n q f)) Z = (std_conf (mk n q f), Ok Z)).
Proof.
  intros Hn Hq Hs. pose proof (std_preparable n q f Hn Hs) as HP. split.
  - rewrite standardize_new by (assumption || apply mk_wf). apply f_equal2; [reflexivity|]. apply (f_equal Ok). cbn [nr nc mk]. fold (mk n q f). apply mk_ext. intros i j Hi Hj. cbn [prepared nr mk]. fold (mk n q f).
    destruct (std_stats n q f j Hj (Hs j Hj)) as [-> ->]. rewrite sqrt_1, entry_mk by assumption. field.
  - intros Z WZ CZ. rewrite standardize_again by assumption. apply f_equal2; [reflexivity|]. apply (f_equal Ok). cbn [nc mk]. rewrite (wf_mk Z WZ) at 3. rewrite CZ. apply mk_ext. intros i j Hi Hj. unfold standardised_by. cbn [nr mk]. fold (mk n q f).
    destruct (std_stats n q f j Hj (Hs j Hj)) as [-> ->]. rewrite sqrt_1. field.
Qed.
Lemma prepared_std (X : mat R) j : wf X -> preparable PP_STANDARDIZE X -> nc X <> 0%nat -> (j < nc X)%nat -> std_column (nr X) (fun i => prepared PP_STANDARDIZE X i j).
Proof.
  intros WX HP Hc Hj. pose proof HP as [Hn Hk]. destruct (C37_statistics X Hn Hc) as (y & E & E1 & E2 & Hst & _). rewrite standardize_new in E by assumption. cbn [snd] in E. injection E as <-. destruct (Hst j Hj (Hk j Hj)) as [M1 V1]. cbn [nr mk] in *. clear E1 E2 Hst.
  assert (Q : forall i, (i < nr X)%nat -> entry (mk (nr X) (nc X) (prepared PP_STANDARDIZE X)) i j = prepared PP_STANDARDIZE X i j) by (intros; now rewrite entry_mk).
  fold (mk (nr X) (nc X) (prepared PP_STANDARDIZE X)) in *.
  assert (M2 : Rmean (nr X) (fun i => prepared PP_STANDARDIZE X i j) = 0) by (rewrite <- M1; unfold Rmean; f_equal; apply Rsum_ext; intros; now rewrite Q).
  split; [exact M2|]. apply (f_equal (fun r => r * r)) in V1. rewrite sqrt_sqrt in V1.
  - rewrite Rmult_1_l in V1. rewrite <- V1. unfold Rvar. rewrite M1, M2. f_equal. apply Rsum_ext. intros i Hi. now rewrite Q.
  - unfold Rvar. apply Rmult_le_pos; [|left; apply Rinv_0_lt_compat, lt_0_INR; lia]. rewrite Rsum_sumn. apply sumR_nonneg. intros k Hk'. apply Rle_0_sqr.
Qed.

(** * The NIPALS run on the selected features *)
Section Nipals.
Variables (lstsq : mat R -> mat R -> res (mat R)) (pinv : mat R -> res (mat R)).
Notation cls := (nipals lstsq pinv).
Definition shapes (p q : nat) (st : nipals_state (T:=R)) : Prop := let '(_, (_, Y), (XS, YS, XL, YL, XW, YW)) := st in nr XW = p /\ nr YL = q /\ nc Y = q.
Lemma Ok_inj {A} (a b : A) : Ok a = Ok b -> a = b.
Proof. now intros [= <-]. Qed.
Lemma step_shapes a p q k st st' : shapes p q st -> nipals_step lstsq WM_PLS a st k = Ok st' -> shapes p q st'.
Proof.
  destruct st as [[stop [X Y]] [[[[[XS YS] XL] YL] XW] YW]]. intros (H1 & H2 & H3). unfold nipals_step. cbv zeta. destruct stop; [intros E; apply Ok_inj in E; subst st'; repeat split; assumption|].
  destruct (mul (transpose Y) Y); cbn [bind]; [|discriminate]. destruct (all _ _); [intros E; apply Ok_inj in E; subst st'; repeat split; assumption|]. destruct (nipals_loop _ _ _ _ _ _ _) as [[[w v] i]|]; cbn [bind]; [|discriminate].
  destruct (mul X w) as [xs|]; cbn [bind]; [|discriminate]. destruct (mul Y v) as [ys|]; cbn [bind]; [|discriminate]. destruct (nltb _ _); [intros E; apply Ok_inj in E; subst st'; repeat split; assumption|].
  destruct (mul (transpose X) xs) as [xl|]; cbn [bind]; [|discriminate]. destruct (mul xs _) as [dx|]; cbn [bind]; [|discriminate]. destruct (sub X dx) as [X'|]; cbn [bind]; [|discriminate].
  match goal with |- context [bind ?e _] => destruct e as [[yl Y']|] eqn:EY; cbn [bind]; [|discriminate] end.
  assert (HY : nc Y' = nc Y).
  { clear - EY. destruct (ni_deflation a); (destruct (mul (transpose Y) _); cbn [bind] in EY; [|discriminate]); (destruct (mul _ _); cbn [bind] in EY; [|discriminate]); (destruct (sub Y _) as [Y1|] eqn:Es; cbn [bind] in EY; [|discriminate]);
      injection EY as _ <-; unfold sub in Es; destruct (must_be_same_shape Y _); cbn [bind] in Es; try discriminate; now injection Es as <-. }
  do 2 (destruct (set_column _ _ _); cbn [bind]; [|discriminate]). destruct (set_column XW _ _) as [XW'|] eqn:E1; cbn [bind]; [|discriminate].
  destruct (set_column YW _ _); cbn [bind]; [|discriminate]. destruct (set_column XL _ _); cbn [bind]; [|discriminate]. destruct (set_column YL _ _) as [YL'|] eqn:E2; cbn [bind]; [|discriminate]. intros E; apply Ok_inj in E; subst st'.
  apply set_column_dims in E1 as [E1 _]. apply set_column_dims in E2 as [E2 _]. repeat split; congruence.
Qed.
(** with one response the weight loop ends after its first pass, whatever tol and max_iter are *)
Lemma loop_one nY tol tol' mi mi' (X Y : mat R) : nc Y = 1%nat -> nipals_loop lstsq WM_PLS nY tol mi X Y = nipals_loop lstsq WM_PLS nY tol' mi' X Y.
Proof.
  intros HY. unfold nipals_loop. destruct (get_column Y 0) as [y|]; cbn [bind]; [|reflexivity]. cbn [nipals_while]. destruct (nipals_weights _ _ _ _ _ _) as [[w v]|]; cbn [bind]; [|reflexivity].
  destruct (mul Y v); cbn [bind]; [|reflexivity]. destruct (sub w _); cbn [bind]; [|reflexivity]. rewrite HY. cbn [Nat.eqb]. now rewrite !orb_true_r.
Qed.
Lemma step_own a a' p k st : ni_norm_Y_weights a = ni_norm_Y_weights a' -> ni_deflation a = ni_deflation a' -> shapes p 1 st -> nipals_step lstsq WM_PLS a st k = nipals_step lstsq WM_PLS a' st k.
Proof.
  intros Hn Hd. destruct st as [[stop [X Y]] [[[[[XS YS] XL] YL] XW] YW]]. intros (_ & _ & H3). unfold nipals_step. now rewrite Hn, Hd, (loop_one _ (ni_tol a) (ni_tol a') (ni_max_iter a) (ni_max_iter a')) by exact H3.
Qed.
Lemma for_range_congr {S} (I : S -> Prop) (f g : S -> nat -> res S) n : forall s, (forall k s, I s -> f s k = g s k) -> (forall k s s', I s -> f s k = Ok s' -> I s') -> I s -> for_range n f s = for_range n g s.
Proof.
  intros s H1 H2. unfold for_range. revert s. induction (seq 0 n) as [|k l IH]; intros s Hs; cbn [for_each]; [reflexivity|]. rewrite <- (H1 k s Hs). destruct (f s k) as [s1|] eqn:E; cbn [bind]; [|reflexivity]. apply IH. eapply H2; eassumption.
Qed.
Lemma start_shapes n p q c (X Y : mat R) : p <> 0%nat -> q <> 0%nat -> nc Y = q ->
  shapes p q (false, (X, Y), (zeros (zn n) c, zeros (zn n) c, zeros (zn p) c, zeros (zn q) c, zeros (zn p) c, zeros (zn q) c)).
Proof.
  assert (H : forall k, k <> 0%nat -> nr (zeros (T:=R) (zn k) c) = k).
  { intros k Hk. unfold zeros, zn, create, rlen. destruct (c =? -1)%Z; rewrite Nat2Z.id, np_array2_tab by assumption; reflexivity. }
  intros Hp Hq HY. repeat split; [apply H|apply H|]; assumption.
Qed.
Lemma fit_own a a' c n p f y sd : p <> 0%nat -> ni_norm_Y_weights a = ni_norm_Y_weights a' -> ni_deflation a = ni_deflation a' ->
  nipals_fit lstsq pinv WM_PLS c a (mk n p f) (mk n 1 y) sd = nipals_fit lstsq pinv WM_PLS c a' (mk n p f) (mk n 1 y) sd.
Proof.
  intros Hp Hn Hd. unfold nipals_fit. cbv zeta. cbn [nr nc mk]. fold (mk n p f). fold (mk n 1 y).
  rewrite (for_range_congr (shapes p 1) (nipals_step lstsq WM_PLS a) (nipals_step lstsq WM_PLS a')); [reflexivity|intros; now apply (step_own a a' p)|intros; eapply step_shapes; eassumption|].
  apply start_shapes; [assumption|discriminate|reflexivity].
Qed.
(** What a fit on n x p data needs and gives: the response's deviations only scale the coefficients. *)
Lemma fit_scaled a n p y f c m sd : p <> 0%nat -> nipals_fit lstsq pinv WM_PLS c a (mk n p f) (mk n 1 y) (Some (mk 1 1 (fun _ _ => sd))) = Ok m ->
  exists g, nm_coef m = mk p 1 (fun j _ => g j * sd) /\
    forall sd', exists m', nipals_fit lstsq pinv WM_PLS c a (mk n p f) (mk n 1 y) (Some (mk 1 1 (fun _ _ => sd'))) = Ok m' /\ nm_coef m' = mk p 1 (fun j _ => g j * sd').
Proof.
  intros Hp. unfold nipals_fit. cbv zeta. cbn [nr nc mk]. fold (mk n p f). fold (mk n 1 y).
  destruct (for_range _ _ _) as [st|] eqn:Ef; cbn [bind]; [|discriminate].
  apply (for_range_keeps (shapes p 1)) in Ef; [|intros; eapply step_shapes; eassumption|apply start_shapes; [assumption|discriminate|reflexivity]].
  destruct st as [[stop [X' Y']] [[[[[XS YS] XL] YL] XW] YW]]. destruct Ef as (H1 & H2 & H3).
  destruct (mul (transpose XL) XW) as [pw|]; cbn [bind]; [|discriminate]. destruct (pinv pw) as [pwi|]; cbn [bind]; [|discriminate]. destruct (mul XW pwi) as [rot|] eqn:E1; cbn [bind]; [|discriminate].
  match goal with |- context [bind (if ?b then ?u else ?v) _] => destruct (if b then u else v) as [yr|]; cbn [bind]; [|discriminate] end.
  destruct (mul rot (transpose YL)) as [xq|] eqn:E2; cbn [bind]; [|discriminate].
  apply mul_inv in E1 as [_ E1]. apply mul_inv in E2 as [_ E2].
  assert (Q : xq = mk p 1 (fun j _ => entry xq j 0)).
  { assert (W : wf xq) by (rewrite E2; apply mk_wf). rewrite (wf_mk xq W) at 1. assert (R1 : nr xq = p) by (rewrite E2, E1; exact H1). assert (C1 : nc xq = 1%nat) by (rewrite E2; cbn; exact H2). rewrite R1, C1. apply mk_ext. intros i j Hi Hj. now replace j with 0%nat by lia. }
  rewrite Q, scale_one. cbn [bind]. intros E. apply Ok_inj in E. subst m. exists (fun j => entry xq j 0). cbn [nm_coef]. split; [reflexivity|]. intros sd'. rewrite scale_one. cbn [bind]. eexists. split; [reflexivity|]. reflexivity.
Qed.
Lemma single_stats (Y : mat R) : nc Y = 1%nat -> preparable PP_STANDARDIZE Y ->
  st_devs (std_conf Y) = Some (mk 1 1 (fun _ _ => sqrt (Rvar (nr Y) (fun k => entry Y k 0)))) /\ st_means (std_conf Y) = Some (mk 1 1 (fun _ _ => Rmean (nr Y) (fun k => entry Y k 0))).
Proof.
  intros CY [P1 P2]. cbn [std_conf st_devs st_means]. unfold column_means. rewrite CY. split; apply f_equal; apply mk_ext; intros i j Hi Hj; replace j with 0%nat by lia.
  - destruct (sd_used_R Y 0 P1) as [A _]. now destruct (A (P2 0%nat ltac:(lia))) as [-> _].
  - symmetry. apply Rmean_np.
Qed.
(** Training and predictions through the public calls *)
Lemma nipals_public (t0 : pls_st (nipals_st R) R) (X Y : mat R) :
  p_preprocessing t0 = PP_NONE -> wf X -> wf Y -> nc X <> 0%nat -> nr Y = nr X -> nc Y = 1%nat -> preparable PP_STANDARDIZE X -> preparable PP_STANDARDIZE Y ->
  match nipals_fit lstsq pinv WM_PLS (p_num_components t0) (p_own t0) (mk (nr X) (nc X) (prepared PP_STANDARDIZE X)) (mk (nr X) 1 (fun i _ => prepared PP_STANDARDIZE Y i 0)) (Some (mk 1 1 (fun _ _ => sqrt (Rvar (nr X) (fun k => entry Y k 0))))) with
  | Err e => snd (initialize cls t0 (Some X) (Some Y)) = Err e
  | Ok m => exists t, initialize cls t0 (Some X) (Some Y) = (t, Ok None) /\ ni_model (p_own t) = Some m /\
      forall Z, nc Z = nc X -> snd (predict cls t Z) = do xc <- mul (mk (nr Z) (nc X) (standardised_by X Z)) (nm_coef m); add_by_vector xc (mk 1 1 (fun _ _ => Rmean (nr X) (fun k => entry Y k 0)))
  end.
Proof.
  intros Hpp WX WY HX RY CY PX PY. set (sd := sqrt _).
  assert (EY : mk (nr Y) (nc Y) (prepared PP_STANDARDIZE Y) = mk (nr X) 1 (fun i _ => prepared PP_STANDARDIZE Y i 0)). { rewrite RY, CY. apply mk_ext. intros i j Hi Hj. assert (j = 0%nat) by lia. now subst. }
  destruct (single_stats Y CY PY) as [Esd Emu]. rewrite RY in Esd, Emu. fold sd in Esd.
  set (own1 r := Nipals (ni_tol (p_own t0)) (ni_max_iter (p_own t0)) (ni_norm_Y_weights (p_own t0)) (ni_deflation (p_own t0)) (std_conf X) (std_conf Y) r).
  assert (Etr : c_train cls (p_num_components t0) (c_reset cls (p_own t0)) X Y = match nipals_fit lstsq pinv WM_PLS (p_num_components t0) (p_own t0) (mk (nr X) (nc X) (prepared PP_STANDARDIZE X)) (mk (nr X) 1 (fun i _ => prepared PP_STANDARDIZE Y i 0)) (Some (mk 1 1 (fun _ _ => sd))) with
     Err e => (own1 None, Err e) | Ok m => (own1 (Some m), Ok None) end).
  { cbn [nipals nipals_class c_train c_reset]. unfold nipals_train. cbn [ni_standardize_X]. rewrite standardize_new by assumption.
    cbn [ni_standardize_Y ni_tol ni_max_iter ni_norm_Y_weights ni_deflation ni_standardize_X ni_model]. rewrite standardize_new by (assumption || lia). cbn [ni_standardize_Y ni_tol ni_max_iter ni_norm_Y_weights ni_deflation ni_standardize_X ni_model].
    rewrite EY, Esd. rewrite (fit_own _ (p_own t0)) by (assumption || reflexivity). reflexivity. }
  destruct (nipals_fit _ _ _ _ _ _ _ _) as [m|e].
  - destruct (multi_training_none cls t0 X Y _ 1 eq_refl ltac:(lia) Hpp ltac:(lia) Etr) as (t & Et & Eo & _ & _ & Hp). exists t. split; [exact Et|]. rewrite Eo. split; [reflexivity|]. intros Z HZ. rewrite Hp. cbn [nipals nipals_class c_predict]. unfold nipals_predict, nipals_apply, own1. cbn [ni_standardize_X]. rewrite standardize_again by assumption. cbn [ni_standardize_Y ni_model bind need snd]. rewrite Emu. reflexivity.
  - unfold initialize, check_data. change (c_arity cls) with (Multi 1 (-1)). cbv iota. rewrite CY. cbn [Z.of_nat Z.ltb Z.compare Z.eqb negb andb]. change (Z.ltb (Z.of_nat 1) 1) with false. cbv iota. unfold do_initialize. cbn [reset p_preprocessing]. rewrite Hpp. unfold prepare. change (c_arity cls) with (Multi 1 (-1)). cbv iota.
    rewrite (proj1 (prep_multi_spec Y ltac:(lia))). cbn [pt_fit set_prep p_num_components p_own reset]. rewrite Etr. reflexivity.
Qed.
(** default settings apart from the number of components, tol and max_iter *)
Definition plain (c : Z) (t : pls_st (nipals_st R) R) : Prop := p_preprocessing t = PP_NONE /\ p_num_components t = c /\ ni_norm_Y_weights (p_own t) = false /\ ni_deflation (p_own t) = REGRESSION.
Lemma plain_tol c t v : plain c t -> plain c (fst (setattr cls t (AOwn (NTol v)))).
Proof. intros (H1 & H2 & H3 & H4). unfold setattr. cbn [a_valid nipals nipals_class c_valid]. destruct (nleb n0 v); repeat split; assumption. Qed.
Lemma plain_iter c t v : plain c t -> plain c (fst (setattr cls t (AOwn (NMaxIter v)))).
Proof. intros (H1 & H2 & H3 & H4). unfold setattr. cbn [a_valid nipals nipals_class c_valid]. destruct (0 <=? v)%Z; repeat split; assumption. Qed.
Lemma plain_comp c c' t : plain c t -> plain c' (fst (setattr cls t (ANumComponents c'))).
Proof. intros (H1 & H2 & H3 & H4). repeat split; assumption. Qed.
Lemma plain_new : plain 5 (construct cls).
Proof.
  unfold construct, initialize_members. cbn [nipals nipals_class c_defaults fold_left c_fresh]. fold (nipals_class lstsq pinv WM_PLS REGRESSION (fun v _ => v)). fold cls.
  match goal with |- plain 5 (reset cls (set_own (fst (setattr cls (fst (setattr cls ?u _)) _)) _)) => assert (H : p_preprocessing u = PP_NONE /\ p_num_components u = 5%Z) end.
  { unfold setattr. cbn [a_valid nipals nipals_class c_valid]. destruct (nleb n0 _); split; reflexivity. }
  destruct H. repeat split; assumption.
Qed.
Lemma std_public (t0 : pls_st (nipals_st R) R) n q f y : (2 <= n)%nat -> q <> 0%nat -> (forall j, (j < q)%nat -> std_column n (fun i => f i j)) -> std_column n y -> p_preprocessing t0 = PP_NONE ->
  match nipals_fit lstsq pinv WM_PLS (p_num_components t0) (p_own t0) (mk n q f) (mk n 1 (fun i _ => y i)) (Some (mk 1 1 (fun _ _ => 1))) with
  | Err e => snd (initialize cls t0 (Some (mk n q f)) (Some (mk n 1 (fun i _ => y i)))) = Err e
  | Ok m => exists t, initialize cls t0 (Some (mk n q f)) (Some (mk n 1 (fun i _ => y i))) = (t, Ok None) /\ ni_model (p_own t) = Some m /\
      forall Z, nc Z = q -> snd (predict cls t Z) = do xc <- mul (mk (nr Z) q (standardised_by (mk n q f) Z)) (nm_coef m); add_by_vector xc (mk 1 1 (fun _ _ => 0))
  end.
Proof.
  intros Hn Hq HX Hy P1.
  pose proof (std_preparable n q f Hn HX) as PX. pose proof (std_preparable n 1 (fun i _ => y i) Hn ltac:(intros; exact Hy)) as PY.
  pose proof (nipals_public t0 (mk n q f) (mk n 1 (fun i _ => y i)) P1 (mk_wf _ _ _) (mk_wf _ _ _) Hq eq_refl eq_refl PX PY) as Q. cbn [nr nc mk] in Q. fold (mk n q f) in Q. fold (mk n 1 (fun i (_ : nat) => y i)) in Q.
  assert (EX : mk n q (prepared PP_STANDARDIZE (mk n q f)) = mk n q f).
  { destruct (std_fix n q f Hn Hq HX) as [E _]. rewrite standardize_new in E by (assumption || apply mk_wf). cbn [nr nc mk] in E. fold (mk n q f) in E. congruence. }
  assert (EY : mk n 1 (fun i _ => prepared PP_STANDARDIZE (mk n 1 (fun i _ => y i)) i 0) = mk n 1 (fun i _ => y i)).
  { apply mk_ext. intros i j Hi Hj. cbn [prepared nr mk]. fold (mk n 1 (fun i (_ : nat) => y i)). destruct (std_stats n 1 (fun i _ => y i) 0 ltac:(lia) Hy) as [-> ->]. rewrite sqrt_1, entry_mk by lia. field. }
  rewrite EX, EY in Q. destruct (std_stats n 1 (fun i _ => y i) 0 ltac:(lia) Hy) as [Em Ev]. rewrite Em, Ev, sqrt_1 in Q. exact Q.
Qed.
Lemma regression_runs (mi : Z) (tol : R) n q f y k : (2 <= n)%nat -> q <> 0%nat -> (forall j, (j < q)%nat -> std_column n (fun i => f i j)) -> std_column n y -> (0 <= mi)%Z -> 0 <= tol ->
  (forall own, ni_norm_Y_weights own = false -> ni_deflation own = REGRESSION -> exists m, nipals_fit lstsq pinv WM_PLS (Z.min (Z.of_nat q) (Z.of_nat k + 1)) own (mk n q f) (mk n 1 (fun i _ => y i)) (Some (mk 1 1 (fun _ _ => 1))) = Ok m) ->
  exists g, sparse_regression lstsq pinv mi tol (mk n q f) (mk n 1 (fun i _ => y i)) k = Ok (Some (mk q 1 (fun j _ => g j))).
Proof.
  intros Hn Hq HX Hy Hmi Htol Hfit. unfold sparse_regression. cbv zeta. pose proof plain_new as P0. apply (plain_iter _ _ mi) in P0.
  assert (E1 : snd (setattr cls (construct cls) (AOwn (NMaxIter mi))) = Ok tt). { unfold setattr. cbn [a_valid nipals nipals_class c_valid]. now rewrite (proj2 (Z.leb_le 0 mi) Hmi). }
  destruct (setattr cls (construct cls) _) as [t1 r1]. cbn [fst snd] in *. subst r1. cbn [bind]. apply (plain_tol _ _ tol) in P0.
  assert (E2 : snd (setattr cls t1 (AOwn (NTol tol))) = Ok tt). { unfold setattr. cbn [a_valid nipals nipals_class c_valid nleb n0 NumR]. unfold Rleb. now destruct (Rle_dec 0 tol). }
  destruct (setattr cls t1 _) as [t2 r2]. cbn [fst snd] in *. subst r2. cbn [bind]. apply (plain_comp _ (Z.min (zn (nc (mk n q f))) (zn k + 1))) in P0.
  destruct (setattr cls t2 (ANumComponents _)) as [t3 r3] eqn:E3. assert (r3 = Ok tt) by (unfold setattr in E3; cbn [a_valid] in E3; congruence). subst r3. cbn [bind fst] in *. clear E3. destruct P0 as (P1 & P2 & P3 & P4).
  destruct (Hfit (p_own t3) P3 P4) as (m & Ef). pose proof (std_public t3 n q f y Hn Hq HX Hy P1) as Q. rewrite P2 in Q. cbn [nc mk] in Q. unfold zn in Q. rewrite Ef in Q. destruct Q as (t & Et & Em & _). rewrite Et. cbn [bind]. rewrite Em.
  destruct (fit_scaled _ _ _ _ _ _ _ _ Hq Ef) as (g & Eg & _). exists g. rewrite Eg. do 2 apply f_equal. apply mk_ext. intros; ring.
Qed.
Lemma regression_run (mi : Z) (tol : R) n q f y k r : (2 <= n)%nat -> q <> 0%nat -> (forall j, (j < q)%nat -> std_column n (fun i => f i j)) -> std_column n y -> 
  sparse_regression lstsq pinv mi tol (mk n q f) (mk n 1 (fun i _ => y i)) k = Ok r ->
  exists g, r = Some (mk q 1 (fun j _ => g j)) /\
    forall own sd, ni_norm_Y_weights own = false -> ni_deflation own = REGRESSION -> exists m, nipals_fit lstsq pinv WM_PLS (Z.min (Z.of_nat q) (Z.of_nat k + 1)) own (mk n q f) (mk n 1 (fun i _ => y i)) (Some (mk 1 1 (fun _ _ => sd))) = Ok m /\ nm_coef m = mk q 1 (fun j _ => g j * sd).
Proof.
  intros Hn Hq HX Hy. unfold sparse_regression. cbv zeta. pose proof plain_new as P0. apply (plain_iter _ _ mi) in P0. destruct (setattr cls (construct cls) _) as [t1 [u1|]]; cbn [bind fst] in *; [|discriminate].
  apply (plain_tol _ _ tol) in P0. destruct (setattr cls t1 _) as [t2 [u2|]]; cbn [bind fst] in *; [|discriminate].
  apply (plain_comp _ (Z.min (zn (nc (mk n q f))) (zn k + 1))) in P0. destruct (setattr cls t2 _) as [t3 [u3|]]; cbn [bind fst] in *; [|discriminate]. destruct P0 as (P1 & P2 & P3 & P4).
  pose proof (std_public t3 n q f y Hn Hq HX Hy P1) as Q. rewrite P2 in Q. cbn [nc mk] in Q. unfold zn in Q.
  destruct (nipals_fit _ _ _ _ _ _ _ _) as [m|e] eqn:Ef.
  - destruct Q as (t & Et & Em & _). rewrite Et. cbn [bind]. rewrite Em. intros E. apply Ok_inj in E. subst r. destruct (fit_scaled _ _ _ _ _ _ _ _ Hq Ef) as (g & Eg & Hg). exists g. split.
    + rewrite Eg. apply (f_equal Some). apply mk_ext. intros; ring.
    + intros own sd O1 O2. destruct (Hg sd) as (m' & Em' & Ec). exists m'. split; [|exact Ec]. rewrite <- Em'. apply fit_own; [exact Hq|congruence|congruence].
  - destruct (initialize _ _ _ _) as [t4 r4]. cbn [snd] in Q. subst r4. discriminate.
Qed.
(** nothing selected: the standardisation inside NIPALS raises *)
Lemma nipals_empty t n f Y : p_preprocessing t = PP_NONE -> nc Y = 1%nat -> snd (initialize cls t (Some (mk n 0 f)) (Some Y)) = Err IndexError.
Proof.
  intros P1 HY. unfold initialize, check_data. change (c_arity cls) with (Multi 1 (-1)). cbv iota. rewrite HY. change (Z.ltb (Z.of_nat 1) 1) with false. change ((-1) =? (-1))%Z with true. cbn [negb andb]. unfold do_initialize. cbn [reset p_preprocessing]. rewrite P1. unfold prepare. change (c_arity cls) with (Multi 1 (-1)). cbv iota.
  rewrite (proj1 (prep_multi_spec Y ltac:(lia))). cbn [pt_fit set_prep p_num_components p_own reset]. reflexivity.
Qed.
Lemma regression_empty (mi : Z) (tol : R) n f Y k : nc Y = 1%nat -> sparse_regression lstsq pinv mi tol (mk n 0 f) Y k = if (0 <=? mi)%Z && nleb n0 tol then Err IndexError else Err ValueError.
Proof.
  intros HY. unfold sparse_regression. cbv zeta. pose proof plain_new as P0. apply (plain_iter _ _ mi) in P0.
  assert (E1 : snd (setattr cls (construct cls) (AOwn (NMaxIter mi))) = if (0 <=? mi)%Z then Ok tt else Err ValueError). { unfold setattr. cbn [a_valid nipals nipals_class c_valid]. now destruct (0 <=? mi)%Z. }
  destruct (setattr cls (construct cls) _) as [t1 r1]. cbn [fst snd] in *. subst r1. destruct (0 <=? mi)%Z; cbn [bind andb]; [|reflexivity]. apply (plain_tol _ _ tol) in P0.
  assert (E2 : snd (setattr cls t1 (AOwn (NTol tol))) = if nleb n0 tol then Ok tt else Err ValueError). { unfold setattr. cbn [a_valid nipals nipals_class c_valid]. now destruct (nleb n0 tol). }
  destruct (setattr cls t1 _) as [t2 r2]. cbn [fst snd] in *. subst r2. destruct (nleb n0 tol); cbn [bind]; [|reflexivity]. apply (plain_comp _ (Z.min (zn (nc (mk n 0 f))) (zn k + 1))) in P0.
  destruct (setattr cls t2 (ANumComponents _)) as [t3 r3] eqn:E3. assert (r3 = Ok tt) by (unfold setattr in E3; cbn [a_valid] in E3; congruence). subst r3. cbn [bind fst] in *. clear E3. destruct P0 as (P1 & P2 & P3 & P4).
  pose proof (nipals_empty t3 n f Y P1 HY) as E. destruct (initialize _ _ _ _); cbn [snd] in E; now subst.
Qed.
End Nipals.

(** * One round *)
Lemma lit6 : lit (T:=R) 1 6 = / 10 ^ 6.
Proof. unfold lit. cbn. lra. Qed.
Lemma filter_none {A} (f : A -> bool) l : (forall x, In x l -> f x = false) -> filter f l = [].
Proof. induction l as [|x l IH]; intros H; [reflexivity|]. cbn [filter]. rewrite H by now left. apply IH. intros; apply H; now right. Qed.
Lemma collect_run p w b : sparse_collect (mk p 1 (fun j _ => w j)) (mk p 1 (fun j _ => b j)) = Ok (selected p w b).
Proof.
  unfold sparse_collect. rewrite !where_col. cbn [bind]. apply (f_equal Ok). unfold num_elements. cbn [nr nc mk]. rewrite Nat.mul_1_r, seq_app, filter_app. unfold selected.
  assert (H : forall i u, existsb (Nat.eqb i) (filter (fun i => nltb (lit 1 6) (nabs (u i))) (seq 0 p)) = (i <? p)%nat && big (u i)).
  { intros i u. assert (Hb : nltb (lit 1 6) (nabs (u i)) = big (u i)) by (rewrite lit6; reflexivity). destruct (existsb _ _) eqn:E.
    - apply existsb_exists in E as (k & Hk & Ek). apply Nat.eqb_eq in Ek. subst k. apply filter_In in Hk as [H1 H2]. apply in_seq in H1. rewrite (proj2 (Nat.ltb_lt i p)) by lia. cbn [andb]. congruence.
    - symmetry. destruct (Nat.ltb_spec i p) as [Hi|Hi]; [|reflexivity]. cbn [andb]. destruct (big (u i)) eqn:Eb; [|reflexivity]. rewrite <- E. symmetry. apply existsb_exists. exists i. split; [|apply Nat.eqb_refl]. apply filter_In. split; [apply in_seq; lia|]. now rewrite Hb. }
  cbn [nabs nltb NumR] in H |- *.
  match goal with |- ?u ++ ?v = _ => replace v with (@nil nat) end.
  - rewrite app_nil_r. apply filter_ext_in. intros i Hi. apply in_seq in Hi. rewrite !H, (proj2 (Nat.ltb_lt i p)) by lia. reflexivity.
  - symmetry. apply filter_none. intros i Hi. apply in_seq in Hi. rewrite !H, (proj2 (Nat.ltb_ge i p)) by lia. reflexivity.
Qed.
Lemma selected_in p w b j : In j (selected p w b) <-> (j < p)%nat /\ (/ 10 ^ 6 < Rabs (w j) \/ / 10 ^ 6 < Rabs (b j)).
Proof.
  unfold selected. rewrite filter_In, in_seq, orb_true_iff. unfold big. destruct (Rlt_dec (/ 10 ^ 6) (Rabs (w j))), (Rlt_dec (/ 10 ^ 6) (Rabs (b j))); intuition (auto with arith || discriminate || lra || lia).
Qed.
Lemma selected_nodup p w b : NoDup (selected p w b).
Proof. apply NoDup_filter, seq_NoDup. Qed.
Lemma selected_lt p w b j : In j (selected p w b) -> (j < p)%nat.
Proof. intros H. now apply selected_in in H. Qed.
Lemma place_sum z g p A : NoDup A -> (forall j, In j A -> (j < p)%nat) -> forall c f, (forall j, In j A -> f j = 0) ->
  sumn p (fun j => z j * place A c g f j) = sumn p (fun j => z j * f j) + sumn (length A) (fun k => z (nth k A 0%nat) * g (c + k)%nat).
Proof.
  induction 1 as [|a A Ha HN IH]; intros HA c f Hf; cbn [place length].
  - cbn [sumn]. change (n0 (T:=R)) with 0. ring.
  - rewrite IH; [|auto with datatypes|intros j Hj; destruct (Nat.eqb_spec j a); [now subst|apply Hf; now right]]. rewrite sumR_S_hd. cbn [nth].
    rewrite (sumn_ext _ (fun j => z j * (if (j =? a)%nat then g c else f j)) (fun j => z j * f j + (if (j =? a)%nat then z j * g c else 0))).
    + rewrite sumR_plus, (sumR_single p a (fun j => if (j =? a)%nat then z j * g c else 0)); [|apply HA; now left|intros i _ Hi; destruct (Nat.eqb_spec i a); [contradiction|reflexivity]].
      rewrite Nat.eqb_refl, Nat.add_0_r, Rplus_assoc. do 2 f_equal. apply sumn_ext. intros k _. do 2 f_equal. lia.
    + intros j _. destruct (Nat.eqb_spec j a) as [->|]; [|change (n0 (T:=R)) with 0; ring]. rewrite (Hf a) by now left. ring.
Qed.
Lemma columns_mk n p x A : (forall j, In j A -> (j < p)%nat) -> columns A (mk n p x) = mk n (length A) (fun i c => x i (nth c A 0%nat)).
Proof. intros HA. unfold columns. cbn [nr mk]. fold (mk n p x). apply mk_ext. intros i j Hi Hj. rewrite entry_mk; [reflexivity|exact Hi|apply HA; apply nth_In; exact Hj]. Qed.
Lemma add_one n f mu : add_by_vector (mk n 1 f) (mk 1 1 (fun _ _ => mu)) = Ok (mk n 1 (fun i j => f i j + mu : R)).
Proof.
  unfold add_by_vector, vector_op, copy. rewrite vector_opm_row by reflexivity. apply (f_equal Ok). cbn [nr nc mk]. fold (mk n 1 f). fold (mk 1 1 (fun _ _ : nat => mu)). apply mk_ext. intros i j Hi Hj. rewrite !entry_mk by lia. reflexivity.
Qed.

(** Soft-thresholded, scaled covariances of the features with y *)
Definition direction (lambda : R) (n p : nat) (x : nat -> nat -> R) (y w : nat -> R) : Prop :=
  exists m M, med_of p (fun j => Rabs (gcov n x y j)) m /\ (exists k, (k < p)%nat /\ M = Rabs (gcov n x y k / m)) /\ (forall k, (k < p)%nat -> Rabs (gcov n x y k / m) <= M) /\
    forall j, (j < p)%nat -> w j = soft lambda n x y m M j / Rsum p (fun k => soft lambda n x y m M k * soft lambda n x y m M k).
(** b are the coefficients of a NIPALS model with c components on the features A of X *)
Definition regressed lstsq pinv (c : Z) (A : list nat) (X Y : mat R) (b : nat -> R) : Prop :=
  (forall j, ~ In j A -> b j = 0) /\
  forall t0, plain c t0 -> exists t, initialize (nipals lstsq pinv) t0 (Some (columns A X)) (Some Y) = (t, Ok None) /\
    forall Z, wf Z -> nc Z = nc X -> snd (predict (nipals lstsq pinv) t (columns A Z)) = Ok (mk (nr Z) 1 (fun i _ => Rsum (nc X) (fun j => entry Z i j * b j))).
Section Rounds.
Variables (lstsq : mat R -> mat R -> res (mat R)) (pinv : mat R -> res (mat R)).
Variables (n p a : nat) (x : nat -> nat -> R) (y : nat -> R).
Hypotheses (Hn : (2 <= n)%nat) (Hp : p <> 0%nat) (HX : forall j, (j < p)%nat -> std_column n (fun i => x i j)) (Hy : std_column n y).
Notation X := (mk n p x).
Notation Y := (mk n 1 (fun i _ => y i)).
Definition residual (b : nat -> R) (i : nat) : R := y i - Rsum p (fun j => x i j * b j).
(** coefficients of the NIPALS fit on the columns A, for every deviation of the response *)
Definition fitted (c : Z) (A : list nat) (b : nat -> R) : Prop :=
  (forall j, ~ In j A -> b j = 0) /\
  forall own sd, ni_norm_Y_weights own = false -> ni_deflation own = REGRESSION ->
    exists m, nipals_fit lstsq pinv WM_PLS c own (mk n (length A) (fun i c => x i (nth c A 0%nat))) Y (Some (mk 1 1 (fun _ _ => sd))) = Ok m /\ nm_coef m = mk (length A) 1 (fun k _ => b (nth k A 0%nat) * sd).
Lemma fitted_regressed c A b : A <> [] -> NoDup A -> (forall j, In j A -> (j < p)%nat) -> fitted c A b -> regressed lstsq pinv c A X Y b.
Proof.
  intros HA0 HN HA [F1 F2]. split; [exact F1|]. intros t0 (P1 & P2 & P3 & P4). assert (Hl : length A <> 0%nat) by (destruct A; [contradiction|discriminate]).
  assert (HXA : forall j, (j < length A)%nat -> std_column n (fun i => x i (nth j A 0%nat))) by (intros j Hj; apply HX, HA, nth_In, Hj).
  rewrite columns_mk by assumption.
  pose proof (std_preparable n (length A) _ Hn HXA) as PX. pose proof (std_preparable n 1 (fun i _ => y i) Hn ltac:(intros; exact Hy)) as PY.
  pose proof (nipals_public lstsq pinv t0 _ Y P1 (mk_wf _ _ _) (mk_wf _ _ _) Hl eq_refl eq_refl PX PY) as Q. cbn [nr nc mk] in Q. fold (mk n (length A) (fun i c => x i (nth c A 0%nat))) in Q. fold Y in Q.
  assert (EX : mk n (length A) (prepared PP_STANDARDIZE (mk n (length A) (fun i c => x i (nth c A 0%nat)))) = mk n (length A) (fun i c => x i (nth c A 0%nat))).
  { apply mk_ext. intros i j Hi Hj. cbn [prepared nr mk]. fold (mk n (length A) (fun i c => x i (nth c A 0%nat))). destruct (std_stats n (length A) (fun i c => x i (nth c A 0%nat)) j Hj (HXA j Hj)) as [-> ->]. rewrite sqrt_1, entry_mk by lia. field. }
  assert (EY : mk n 1 (fun i _ => prepared PP_STANDARDIZE Y i 0) = Y).
  { apply mk_ext. intros i j Hi Hj. cbn [prepared nr mk]. fold Y. destruct (std_stats n 1 (fun i _ => y i) 0 ltac:(lia) Hy) as [-> ->]. rewrite sqrt_1, entry_mk by lia. field. }
  rewrite EX, EY, P2 in Q. destruct (std_stats n 1 (fun i _ => y i) 0 ltac:(lia) Hy) as [Em Ev]. rewrite Em, Ev, sqrt_1 in Q. destruct (F2 (p_own t0) 1 P3 P4) as (m & Ef & Ec). rewrite Ef in Q. destruct Q as (t & Et & _ & HZ). exists t. split; [exact Et|].
  intros Z WZ CZ. cbn [nc mk] in CZ |- *. rewrite HZ by reflexivity. rewrite Ec. unfold columns at 1. cbn [nr mk]. rewrite mul_mk. cbn [bind]. rewrite add_one. apply (f_equal Ok). apply mk_ext. intros i j Hi Hj. rewrite Rplus_0_r, Rsum_sumn.
  transitivity (sumn (length A) (fun k => entry Z i (nth k A 0%nat) * b (nth k A 0%nat))).
  - apply sumn_ext. intros k Hk. unfold standardised_by. cbn [nr mk]. fold (mk n (length A) (fun i c => x i (nth c A 0%nat))). destruct (std_stats n (length A) (fun i c => x i (nth c A 0%nat)) k Hk (HXA k Hk)) as [-> ->]. unfold columns. rewrite sqrt_1, entry_mk by assumption. cbn [nmul NumR]. field.
  - pose proof (place_sum (fun j => entry Z i j) (fun k => b (nth k A 0%nat)) p A HN HA 0 (fun _ => 0) ltac:(reflexivity)) as S. cbn [Nat.add] in S. rewrite (sumR_zero p (fun j => entry Z i j * 0)), Rplus_0_l in S by (intros; ring). rewrite <- S.
    apply sumn_ext. intros k Hk. f_equal. destruct (in_dec Nat.eq_dec k A) as [Hin|Hout].
    + apply (In_nth _ _ 0%nat) in Hin as (l & Hl' & <-). rewrite place_in by assumption. reflexivity.
    + rewrite place_out, F1 by assumption. reflexivity.
Qed.
Lemma round own0 k A0 A B' W W' (b : nat -> R) y' : (k < a)%nat ->
  sparse_step lstsq pinv own0 X Y (A0, mk p 1 (fun j _ => b j), mk p a W, mk n 1 (fun i _ => residual b i)) k = Ok (A, B', W', y') ->
  exists w b', direction (sp_lambda own0) n p x (residual b) w /\ A = selected p w b /\ A <> [] /\ fitted (Z.min (Z.of_nat (length A)) (Z.of_nat k + 1)) A b' /\
    B' = mk p 1 (fun j _ => b' j) /\ W' = mk p a (fun j c => if (c =? k)%nat then w j else W j c) /\ y' = mk n 1 (fun i _ => residual b' i).
Proof.
  intros Hk. unfold sparse_step. destruct (C60_direction_partial (sp_lambda own0) n p x (residual b) Hp) as (m & M & Em & HM1 & HM2 & ->). cbn [bind]. pose (w := fun j : nat => soft (sp_lambda own0) n x (residual b) m M j / Rsum p (fun k => soft (sp_lambda own0) n x (residual b) m M k * soft (sp_lambda own0) n x (residual b) m M k)).
  match goal with |- context [set_column _ _ (mk p 1 ?h)] => change (mk p 1 h) with (mk p 1 (fun j _ : nat => w j)) end.
  unfold zn at 1. rewrite set_column_mk by exact Hk. cbn [bind]. rewrite collect_run. cbn [bind]. set (A1 := selected p w b). assert (HA : forall j, In j A1 -> (j < p)%nat) by (intros j; apply selected_lt).
  rewrite columns_run by (assumption || lia). cbn [bind]. destruct (Nat.eq_dec (length A1) 0) as [E0|Hl].
  { rewrite E0. rewrite regression_empty by reflexivity. destruct (_ && _); discriminate. }
  destruct (sparse_regression _ _ _ _ _ _ _) as [r|] eqn:Er; cbn [bind]; [|discriminate].
  apply regression_run in Er as (g & -> & Hg); [|assumption|assumption|intros j Hj; apply HX, HA, nth_In, Hj|assumption].
  cbn [nc mk]. unfold zn at 3 4. rewrite zeros_mk by assumption. rewrite (place_loop (length A1) g p A1 HA 0 (fun _ => n0)) by lia. change (n0 (T:=R)) with 0. cbn [bind fst]. rewrite mul_mk. cbn [bind]. rewrite sub_mk. cbn [bind]. intros E. injection E as <- <- <- <-.
  exists w, (place A1 0 g (fun _ => 0)). split; [|split; [reflexivity|split; [intros Q; now rewrite Q in Hl|split; [|split; [reflexivity|split; [reflexivity|]]]]]].
  - exists m, M. split; [|split; [exact HM1|split; [exact HM2|reflexivity]]]. rewrite Em. apply np_median_spec. destruct p; [contradiction|discriminate].
  - split; [intros j Hj; now rewrite place_out|]. intros own sd O1 O2. destruct (Hg own sd O1 O2) as (m' & E1 & E2). exists m'. split; [exact E1|]. rewrite E2. apply mk_ext. intros i j Hi Hj. rewrite place_in by (assumption || apply selected_nodup). reflexivity.
  - apply mk_ext. intros i j Hi Hj. unfold residual. rewrite Rsum_sumn. reflexivity.
Qed.
Definition rounds (lambda : R) (m : nat) (W : nat -> nat -> R) (A : nat -> list nat) (B : nat -> nat -> R) : Prop :=
  (forall j, B 0%nat j = 0) /\ forall k, (k < m)%nat -> direction lambda n p x (residual (B k)) (W k) /\ A k = selected p (W k) (B k) /\ A k <> [] /\ fitted (Z.min (Z.of_nat (length (A k))) (Z.of_nat k + 1)) (A k) (B (S k)).
Lemma rounds_run own0 m : (m <= a)%nat -> forall st, for_range m (sparse_step lstsq pinv own0 X Y) ([], mk p 1 (fun _ _ => 0), mk p a (fun _ _ => 0), Y) = Ok st ->
  exists W A B, rounds (sp_lambda own0) m W A B /\ st = (match m with O => [] | S k => A k end, mk p 1 (fun j _ => B m j), mk p a (fun j c => if (c <? m)%nat then W c j else 0), mk n 1 (fun i _ => residual (B m) i)).
Proof.
  induction m as [|m IH]; intros Hm st E.
  - cbn [for_range seq for_each] in E. unfold for_range in E. cbn [seq for_each] in E. apply Ok_inj in E. subst st. exists (fun _ _ => 0), (fun _ => []), (fun _ _ => 0). split; [split; [reflexivity|intros; lia]|]. apply f_equal2; [apply f_equal2; [reflexivity|]|].
    + reflexivity.
    + apply mk_ext. intros i j Hi Hj. unfold residual. rewrite Rsum_sumn, sumR_zero by (intros; ring). ring.
  - unfold for_range in E. rewrite seq_S, for_each_app in E. destruct (for_each (seq 0 m) _ _) as [st1|] eqn:E1; cbn [bind] in E; [|discriminate].
    destruct (IH ltac:(lia) st1 E1) as (W & A & B & (HB & HR) & ->). cbn [for_each plus] in E. destruct (sparse_step _ _ _ _ _ _ m) as [[[[A' B'] W'] y']|] eqn:E2; cbn [bind] in E; [|discriminate]. apply Ok_inj in E. subst st.
    apply round in E2 as (w & b' & D & EA & NA & F & -> & -> & ->); [|lia].
    exists (fun k => if (k =? m)%nat then w else W k), (fun k => if (k =? m)%nat then A' else A k), (fun k => if (k =? S m)%nat then b' else B k).
    rewrite !Nat.eqb_refl. split.
    + split; [intros j; destruct (Nat.eqb_spec 0 (S m)); [discriminate|apply HB]|]. intros k Hk. destruct (Nat.eqb_spec k m) as [->|Hne].
      * rewrite (proj2 (Nat.eqb_neq m (S m))) by lia. rewrite Nat.eqb_refl. repeat split; try assumption; apply F.
      * rewrite (proj2 (Nat.eqb_neq k (S m))), (proj2 (Nat.eqb_neq (S k) (S m))) by lia. apply HR. lia.
    + apply f_equal2; [|reflexivity]. apply f_equal2; [reflexivity|]. apply mk_ext. intros i c Hi Hc. destruct (Nat.eqb_spec c m) as [->|Hne]; [now rewrite (proj2 (Nat.ltb_lt m (S m))) by lia|].
      destruct (Nat.ltb_spec c m), (Nat.ltb_spec c (S m)); try lia; reflexivity.
Qed.
End Rounds.

(** * The public calls *)
(** What is left of a batch z of m rows after k rounds of removing the scores along W 0, W 1, ...:
    every round removes what the batch's own rows regress on their scores *)
Fixpoint left_over (m p : nat) (W z : nat -> nat -> R) (k : nat) (i j : nat) : R :=
  match k with
  | O => z i j
  | S k => let t i := Rsum p (fun l => left_over m p W z k i l * W k l) in
           left_over m p W z k i j - t i * (Rsum m (fun l => left_over m p W z k l j * t l) / Rsum m (fun l => t l * t l))
  end.
Definition sscore m p W z k i : R := Rsum p (fun j => left_over m p W z k i j * W k j).
Lemma transform_run m p a W z (own : sparse_st (T:=R)) : m <> 0%nat -> sp_W own = Some (mk p a (fun j c => W c j)) ->
  sparse_transform (Z.of_nat a) own (mk m p z) = Ok (mk m a (fun i k => sscore m p W z k i)).
Proof.
  intros Hm HW. unfold sparse_transform. rewrite HW. cbn [need]. cbn [nr mk]. fold (mk m p z). change (zeros (zn m) (Z.of_nat a)) with (zeros (T:=R) (Z.of_nat m) (Z.of_nat a)). rewrite zeros_mk by exact Hm. rewrite Nat2Z.id.
  match goal with |- context [for_range a ?b ?s] => destruct (for_range_inv (fun k st => st = (mk m p (left_over m p W z k), mk m a (fun i c => if (c <? k)%nat then sscore m p W z c i else 0))) b a s) as (st & -> & ->) end.
  - apply f_equal2; reflexivity.
  - intros k st Hk ->. cbn [bind]. unfold zn. rewrite get_column_mk by exact Hk. cbn [bind]. rewrite mul_mk. cbn [bind]. rewrite set_column_mk by exact Hk. cbn [bind]. rewrite transpose_mk, mul_mk. cbn [bind]. rewrite norm2_squared_col, div_scalar_mk, transpose_mk, mul_mk. cbn [bind]. rewrite sub_mk. cbn [bind].
    eexists. split; [reflexivity|]. apply f_equal2.
    + apply mk_ext. intros i j Hi Hj. cbn [left_over sumn]. cbn [nadd nmul nsub ndiv n0 NumR]. rewrite Rplus_0_l, !Rsum_sumn. f_equal. f_equal. f_equal.
      * apply sumn_ext. intros l Hl. now rewrite Rsum_sumn.
      * apply sumn_ext. intros l Hl. now rewrite Rsum_sumn.
    + apply mk_ext. intros i c Hi Hc. destruct (Nat.eqb_spec c k) as [->|Hne].
      * rewrite (proj2 (Nat.ltb_lt k (S k))) by lia. unfold sscore. now rewrite Rsum_sumn.
      * destruct (Nat.ltb_spec c k), (Nat.ltb_spec c (S k)); try lia; reflexivity.
  - cbn [bind snd]. apply (f_equal Ok). apply mk_ext. intros i c Hi Hc. now rewrite (proj2 (Nat.ltb_lt c a)).
Qed.

Section Public.
Variables (lstsq : mat R -> mat R -> res (mat R)) (pinv : mat R -> res (mat R)).
Notation spls := (sparse_pls lstsq pinv).
Notation npls := (nipals lstsq pinv).
Lemma wfc (A : list nat) (X : mat R) : wf (columns A X).
Proof. apply mk_wf. Qed.
Lemma columns_entry A (X : mat R) i k : (i < nr X)%nat -> (k < length A)%nat -> entry (columns A X) i k = entry X i (nth k A 0%nat).
Proof. intros. unfold columns. now rewrite entry_mk. Qed.
Lemma columns_stats A (X : mat R) k : (k < length A)%nat ->
  Rmean (nr X) (fun i => entry (columns A X) i k) = Rmean (nr X) (fun i => entry X i (nth k A 0%nat)) /\ Rvar (nr X) (fun i => entry (columns A X) i k) = Rvar (nr X) (fun i => entry X i (nth k A 0%nat)).
Proof.
  intros Hk. assert (E : Rmean (nr X) (fun i => entry (columns A X) i k) = Rmean (nr X) (fun i => entry X i (nth k A 0%nat))) by (unfold Rmean; f_equal; apply Rsum_ext; intros; now rewrite columns_entry).
  split; [exact E|]. unfold Rvar. f_equal. rewrite E. apply Rsum_ext. intros i Hi. now rewrite columns_entry.
Qed.
Lemma columns_preparable A (X : mat R) : (forall j, In j A -> (j < nc X)%nat) -> preparable PP_STANDARDIZE X -> preparable PP_STANDARDIZE (columns A X).
Proof.
  intros HA [H1 H2]. split; [exact H1|]. intros k Hk. cbn [nc columns mk] in Hk. specialize (H2 (nth k A 0%nat) ltac:(apply HA, nth_In; exact Hk)). intros Q. apply H2. intros i l Hi Hl. specialize (Q i l Hi Hl). now rewrite !columns_entry in Q by assumption.
Qed.

(** C89.  [x], [y]: the standardised data *)
Theorem C89_sparse_pls (s0 s : pls_st (sparse_st (T:=R)) R) (X Y : mat R) (a : nat) :
  let n := nr X in let p := nc X in let x := prepared PP_STANDARDIZE X in let y := fun i => prepared PP_STANDARDIZE Y i 0 in
  p_preprocessing s0 = PP_NONE -> p_num_components s0 = Z.of_nat (S a) -> wf X -> wf Y -> p <> 0%nat -> nr Y = n -> preparable PP_STANDARDIZE X -> preparable PP_STANDARDIZE Y ->
  initialize spls s0 (Some X) (Some Y) = (s, Ok None) ->
  exists (W B : nat -> nat -> R) (A : nat -> list nat),
    (forall j, B 0%nat j = 0) /\
    (forall k, (k <= a)%nat -> direction (sp_lambda (p_own s0)) n p x (fun i => y i - Rsum p (fun j => x i j * B k j)) (W k) /\
       A k = selected p (W k) (B k) /\ A k <> [] /\
       regressed lstsq pinv (Z.min (Z.of_nat (length (A k))) (Z.of_nat k + 1)) (A k) (mk n p x) (mk n 1 (fun i _ => y i)) (B (S k))) /\
    (forall Z, wf Z -> nc Z = p -> nr Z <> 0%nat -> snd (transform spls s Z) = Ok (mk (nr Z) (S a) (fun i k => sscore (nr Z) p W (entry Z) k i))) /\
    (forall t0, plain (Z.min (Z.of_nat (length (A a))) (Z.of_nat (S a))) t0 -> exists t, initialize npls t0 (Some (columns (A a) X)) (Some Y) = (t, Ok None) /\
       forall Z, wf Z -> nc Z = p -> nr Z <> 0%nat -> exists V, snd (predict spls s Z) = Ok V /\ snd (predict npls t (columns (A a) Z)) = Ok V).
Proof.
  intros n p x y Hpp Hnc WX WY Hp RY PX PY Ei. destruct (single_none_conv spls s0 s X Y eq_refl Hpp Ei) as (CY & own & Etr).
  destruct (single_none spls s0 X Y own _ eq_refl Hpp CY Etr) as (_ & Hs). destruct (Hs eq_refl) as (s' & Ei' & Eo & HT & HP). rewrite Ei in Ei'. injection Ei' as <-. clear Hs.
  assert (Hn : (2 <= n)%nat) by apply PX.
  assert (HX : forall j, (j < p)%nat -> std_column n (fun i => x i j)) by (intros j Hj; now apply prepared_std).
  assert (Hy : std_column n y) by (rewrite <- RY; apply prepared_std; [assumption|assumption|lia|lia]).
  assert (EY : mk (nr Y) (nc Y) (prepared PP_STANDARDIZE Y) = mk n 1 (fun i _ => y i)). { rewrite RY, CY. apply mk_ext. intros i j Hi Hj. assert (j = 0%nat) by lia. now subst. }
  cbn [sparse_pls c_train c_reset] in Etr. unfold sparse_train in Etr. cbn [sp_standardize_X sp_standardize_Y sp_tol sp_max_iter sp_lambda] in Etr. rewrite standardize_new in Etr by assumption. rewrite standardize_new in Etr by (assumption || lia).
  rewrite EY, Hnc in Etr. fold n p x in Etr. set (own0 := Sparse _ _ _ _ _ _ _ _) in Etr. destruct (sparse_fit _ _ _ _ _ _) as [[[[A' B'] W'] y']|] eqn:Ef; [|discriminate]. apply (f_equal fst) in Etr. cbn [fst] in Etr.
  unfold sparse_fit in Ef. cbn [nc mk] in Ef. fold (mk n p x) in Ef. fold (mk n 1 (fun i (_ : nat) => y i)) in Ef.
  change (zeros (zn p) (zn 1)) with (zeros (T:=R) (Z.of_nat p) (Z.of_nat 1)) in Ef. change (zeros (zn p) (Z.of_nat (S a))) with (zeros (T:=R) (Z.of_nat p) (Z.of_nat (S a))) in Ef. rewrite !zeros_mk, Nat2Z.id in Ef by assumption.
  apply (rounds_run lstsq pinv n p (S a) x y Hn Hp HX Hy own0 (S a) (le_n _)) in Ef as (W & A & B & (HB & HR) & Est). 
  pose proof (f_equal (fun q => fst (fst (fst q))) Est) as Q1. pose proof (f_equal (fun q => snd (fst (fst q))) Est) as Q2. pose proof (f_equal (fun q => snd (fst q)) Est) as Q3. cbn [fst snd] in Q1, Q2, Q3. subst A' B' W'. clear Est.
  assert (Hsel : forall k, (k <= a)%nat -> NoDup (A k) /\ (forall j, In j (A k) -> (j < p)%nat)).
  { intros k Hk. destruct (HR k ltac:(lia)) as (_ & -> & _). split; [apply selected_nodup|intros j; apply selected_lt]. }
  exists W, B, A. split; [exact HB|]. split; [|split].
  - intros k Hk. destruct (HR k ltac:(lia)) as (D & EA & NA & F). destruct (Hsel k Hk) as [S1 S2]. split; [exact D|split; [exact EA|split; [exact NA|]]]. now apply fitted_regressed.
  - intros Z WZ CZ RZ. rewrite HT, Hnc. cbn [sparse_pls c_transform snd]. rewrite (wf_mk Z WZ) at 1. rewrite CZ. apply transform_run; [exact RZ|]. rewrite <- Etr. cbn [sp_W]. apply f_equal. apply mk_ext. intros i c Hi Hc. now rewrite (proj2 (Nat.ltb_lt c (S a))).
  - intros t0 (P1 & P2 & P3 & P4). destruct (HR a ltac:(lia)) as (_ & _ & NA & (F1 & F2)). destruct (Hsel a (le_n _)) as [S1 S2]. set (Aa := A a) in *. assert (Hl : length Aa <> 0%nat) by (destruct Aa; [contradiction|discriminate]).
    pose proof (nipals_public lstsq pinv t0 (columns Aa X) Y P1 (wfc _ _) WY Hl RY CY (columns_preparable Aa X S2 PX) PY) as Q. change (nr (columns Aa X)) with n in Q. change (nc (columns Aa X)) with (length Aa) in Q.
    assert (EX : mk n (length Aa) (prepared PP_STANDARDIZE (columns Aa X)) = mk n (length Aa) (fun i c => x i (nth c Aa 0%nat))).
    { apply mk_ext. intros i c Hi Hc. unfold x. cbn [prepared]. change (nr (columns Aa X)) with (nr X). destruct (columns_stats Aa X c Hc) as [-> ->]. now rewrite columns_entry. }
    rewrite EX, P2 in Q. fold y in Q. replace (Z.of_nat (S a)) with (Z.of_nat a + 1)%Z in Q by lia. destruct (F2 (p_own t0) (sqrt (Rvar n (fun k => entry Y k 0))) P3 P4) as (m & Em & Ec). change (fun i _ : nat => y i) with (fun i _ : nat => prepared PP_STANDARDIZE Y i 0) in Em. rewrite Em in Q.
    destruct Q as (t & Et & _ & HZ). exists t. split; [exact Et|]. intros Z WZ CZ RZ. eexists. split; [|rewrite HZ by reflexivity; rewrite Ec; change (nr (columns Aa Z)) with (nr Z); rewrite mul_mk; cbn [bind]; rewrite add_one; reflexivity].
    rewrite HP. cbn [sparse_pls c_predict]. rewrite <- Etr. unfold sparse_predict. cbn [sp_standardize_X sp_standardize_Y sp_A sp_B]. rewrite standardize_again by assumption. cbn [snd bind sp_standardize_Y sp_A sp_B].
    fold p. rewrite columns_run by assumption. cbn [bind need]. rewrite (rows_run p 1 (fun j _ => B (S a) j)) by assumption. cbn [bind]. rewrite mul_mk. cbn [bind].
    destruct (single_stats Y CY PY) as [-> ->]. cbn [need bind]. rewrite scale_one. cbn [bind]. rewrite add_one. rewrite RY. apply (f_equal Ok). apply mk_ext. intros i j Hi Hj. f_equal. rewrite Rmult_comm, <- sumR_scal. apply sumn_ext. intros k Hk. unfold standardised_by. change (nr (columns Aa X)) with (nr X). destruct (columns_stats Aa X k Hk) as [-> ->]. rewrite columns_entry by assumption. cbn [nmul NumR]. ring.
Qed.
End Public.
Print Assumptions C89_sparse_pls.

(** * C90: which lambda_ can be trained with *)
Lemma sumR_ge_one m (f : nat -> R) l : (forall i, (i < m)%nat -> 0 <= f i) -> (l < m)%nat -> f l <= sumn m f.
Proof.
  intros H Hl. apply Rle_trans with (sumn m (fun i => if (i =? l)%nat then f l else 0)).
  - rewrite (sumR_single m l) by (assumption || (intros i _ Hi; destruct (Nat.eqb_spec i l); [contradiction|reflexivity])). rewrite Nat.eqb_refl. right; reflexivity.
  - apply sumR_le. intros i Hi. destruct (Nat.eqb_spec i l) as [->|]; [right; reflexivity|now apply H].
Qed.
Section Lambda.
Variables (lstsq : mat R -> mat R -> res (mat R)) (pinv : mat R -> res (mat R)).
Notation spls := (sparse_pls lstsq pinv).
Lemma direction_unique lambda n p x y w w' : direction lambda n p x y w -> direction lambda n p x y w' -> forall j, (j < p)%nat -> w j = w' j.
Proof.
  intros (m & M & Hm & (k & Hk & EM) & HM & Hw) (m' & M' & Hm' & (k' & Hk' & EM') & HM' & Hw') j Hj. assert (m = m') by (eapply med_unique; eassumption). subst m'.
  assert (QM : M = M'). { apply Rle_antisym; [rewrite EM; apply HM', Hk|rewrite EM'; apply HM, Hk']. } rewrite Hw, Hw' by exact Hj. now rewrite QM.
Qed.
Lemma direction_exists lambda n p x y : p <> 0%nat -> exists w, direction lambda n p x y w.
Proof.
  intros Hp. destruct (C60_direction_partial lambda n p x y Hp) as (m & M & Em & HM1 & HM2 & _). eexists. exists m, M. split; [rewrite Em; apply np_median_spec; destruct p; [contradiction|discriminate]|]. split; [exact HM1|]. split; [exact HM2|]. intros j Hj. reflexivity.
Qed.
Lemma selected_ext p w w' b : (forall j, (j < p)%nat -> w j = w' j) -> selected p w b = selected p w' b.
Proof. intros H. unfold selected. apply filter_ext_in. intros j Hj. apply in_seq in Hj. now rewrite H by lia. Qed.
Section Data.
Variables (s0 : pls_st (sparse_st (T:=R)) R) (X Y : mat R) (a : nat).
Let n := nr X. Let p := nc X. Let x := prepared PP_STANDARDIZE X. Let y := fun i => prepared PP_STANDARDIZE Y i 0.
Hypotheses (Hpp : p_preprocessing s0 = PP_NONE) (Hnc : p_num_components s0 = Z.of_nat (S a)) (WX : wf X) (WY : wf Y) (Hp : p <> 0%nat) (RY : nr Y = n) (CY : nc Y = 1%nat)
  (PX : preparable PP_STANDARDIZE X) (PY : preparable PP_STANDARDIZE Y).
Let own0 := c_reset spls (p_own s0).
Lemma data_std : (2 <= n)%nat /\ (forall j, (j < p)%nat -> std_column n (fun i => x i j)) /\ std_column n y.
Proof.
  split; [apply PX|]. split; [intros j Hj; now apply prepared_std|]. unfold y. rewrite <- RY. apply prepared_std; [assumption|assumption|lia|lia].
Qed.
(** the whole training in terms of the rounds on the standardised data *)
Lemma training_run : exists put,
  let r := for_range (S a) (sparse_step lstsq pinv own0 (mk n p x) (mk n 1 (fun i _ => y i))) ([], mk p 1 (fun _ _ => 0), mk p (S a) (fun _ _ => 0), mk n 1 (fun i _ => y i)) in
  snd (initialize spls s0 (Some X) (Some Y)) = (do _ <- r; Ok None) /\ forall st, r = Ok st -> initialize spls s0 (Some X) (Some Y) = (put st, Ok None).
Proof.
  assert (EY : mk (nr Y) (nc Y) (prepared PP_STANDARDIZE Y) = mk n 1 (fun i _ => y i)). { rewrite RY, CY. apply mk_ext. intros i j Hi Hj. assert (j = 0%nat) by lia. now subst. }
  assert (Etr : exists F, c_train spls (p_num_components s0) own0 X Y = (F, do _ <- for_range (S a) (sparse_step lstsq pinv own0 (mk n p x) (mk n 1 (fun i _ => y i))) ([], mk p 1 (fun _ _ => 0), mk p (S a) (fun _ _ => 0), mk n 1 (fun i _ => y i)); Ok None)).
  { cbn [sparse_pls c_train]. unfold sparse_train. change (sp_standardize_X own0) with (t_new (standardize (T:=R))). change (sp_standardize_Y own0) with (t_new (standardize (T:=R))). rewrite standardize_new by assumption. rewrite standardize_new by (assumption || lia). rewrite EY, Hnc. unfold sparse_fit. cbn [nc mk]. fold n p x. fold (mk n p x). fold (mk n 1 (fun i (_ : nat) => y i)).
    change (zeros (zn p) (zn 1)) with (zeros (T:=R) (Z.of_nat p) (Z.of_nat 1)). change (zeros (zn p) (Z.of_nat (S a))) with (zeros (T:=R) (Z.of_nat p) (Z.of_nat (S a))). rewrite !zeros_mk, Nat2Z.id by assumption. change (n0 (T:=R)) with 0.
    destruct (for_range _ _ _) as [[[[A1 B1] W1] y1]|e]; cbn [bind]; eexists; reflexivity. }
  destruct Etr as (F & Etr). destruct (single_none spls s0 X Y F _ eq_refl Hpp CY Etr) as (E1 & E2). exists (fun _ => fst (initialize spls s0 (Some X) (Some Y))). cbv zeta. split; [exact E1|]. intros st Es. rewrite Es in E2. destruct (E2 eq_refl) as (s' & E & _). now rewrite E.
Qed.
Lemma start_residual : mk n 1 (fun i _ => y i) = mk n 1 (fun i _ => residual p x y (fun _ => 0) i).
Proof. apply mk_ext. intros i j Hi Hj. unfold residual. rewrite Rsum_sumn, sumR_zero by (intros; ring). ring. Qed.
(** C90.  No direction entry exceeds 1e-6 in the first round: IndexError *)
Theorem C90_nothing_selected w : (0 <= sp_max_iter (p_own s0))%Z -> 0 <= sp_tol (p_own s0) -> direction (sp_lambda (p_own s0)) n p x y w -> (forall j, (j < p)%nat -> Rabs (w j) <= / 10 ^ 6) ->
  snd (initialize spls s0 (Some X) (Some Y)) = Err IndexError.
Proof.
  intros Hmi Htol Hd Hw. destruct data_std as (Hn & HX & Hy). destruct training_run as (put & E & _). rewrite E. clear E put. unfold for_range. cbn [seq for_each]. unfold sparse_step at 1.
  destruct (C60_direction_partial (sp_lambda own0) n p x y Hp) as (m & M & Em & HM1 & HM2 & ->). cbn [bind]. pose (w' := fun j : nat => soft (sp_lambda own0) n x y m M j / Rsum p (fun k => soft (sp_lambda own0) n x y m M k * soft (sp_lambda own0) n x y m M k)).
  match goal with |- context [set_column _ _ (mk p 1 ?h)] => change (mk p 1 h) with (mk p 1 (fun j _ : nat => w' j)) end.
  assert (Hw' : forall j, (j < p)%nat -> w' j = w j). { apply (direction_unique (sp_lambda own0) n p x y); [|exact Hd]. exists m, M. split; [rewrite Em; apply np_median_spec; destruct p; [contradiction|discriminate]|]. split; [exact HM1|]. split; [exact HM2|]. reflexivity. }
  change (zn 0) with (Z.of_nat 0). rewrite set_column_mk by lia. cbn [bind]. rewrite (collect_run p w' (fun _ => 0)). cbn [bind].
  assert (Es : selected p w' (fun _ => 0) = []).
  { apply filter_none. intros j Hj. apply in_seq in Hj. rewrite Hw' by lia. unfold big. rewrite Rabs_R0. specialize (Hw j ltac:(lia)). destruct (Rlt_dec (/ 10 ^ 6) (Rabs (w j))); [lra|]. destruct (Rlt_dec (/ 10 ^ 6) 0) as [Q|]; [|reflexivity]. assert (0 < / 10 ^ 6) by (apply Rinv_0_lt_compat, pow_lt; lra). lra. }
  rewrite Es, columns_run by (lia || contradiction). cbn [bind length]. rewrite regression_empty by reflexivity. change (sp_max_iter own0) with (sp_max_iter (p_own s0)). change (sp_tol own0) with (sp_tol (p_own s0)).
  rewrite (proj2 (Z.leb_le _ _) Hmi). cbn [andb nleb n0 NumR]. unfold Rleb. destruct (Rle_dec 0 (sp_tol (p_own s0))); [reflexivity|contradiction].
Qed.
(** every lambda_ >= 1 does that, whatever the data *)
Theorem C90_lambda_refuted : (0 <= sp_max_iter (p_own s0))%Z -> 0 <= sp_tol (p_own s0) -> 1 <= sp_lambda (p_own s0) -> snd (initialize spls s0 (Some X) (Some Y)) = Err IndexError.
Proof.
  intros Hmi Htol Hl. destruct (direction_exists (sp_lambda (p_own s0)) n p x y Hp) as (w & Hd). apply (C90_nothing_selected w); try assumption.
  destruct Hd as (m & M & Hm & (k & Hk & EM) & HM & Hw). intros j Hj. rewrite Hw by exact Hj.
  assert (Hs : forall j, (j < p)%nat -> soft (sp_lambda (p_own s0)) n x y m M j = 0).
  { intros i Hi. unfold soft. specialize (HM i Hi). assert (0 <= M) by (rewrite EM; apply Rabs_pos). destruct (Rle_dec _ _) as [Q|]; [|reflexivity]. assert (Rabs (gcov n x y i / m) - sp_lambda (p_own s0) * M = 0) by nra. rewrite H0. ring. }
  rewrite Hs by exact Hj. unfold Rdiv. rewrite Rmult_0_l, Rabs_R0. left. apply Rinv_0_lt_compat, pow_lt. lra.
Qed.
(** One component: a selected feature whose correlation with the response is at least 1e-8 is
    enough for the training to succeed *)
Theorem C90_trains_partial w j : a = 0%nat -> ls_inverse pinv -> (0 <= sp_max_iter (p_own s0))%Z -> 0 <= sp_tol (p_own s0) -> direction (sp_lambda (p_own s0)) n p x y w -> (j < p)%nat -> / 10 ^ 6 < Rabs (w j) -> INR (n - 1) / 10 ^ 8 <= Rabs (gcov n x y j) ->
  exists s, initialize spls s0 (Some X) (Some Y) = (s, Ok None).
Proof.
  intros Ha Hpinv Hmi Htol Hd Hj Hw Hc. destruct data_std as (Hn & HX & Hy). destruct training_run as (put & _ & E). rewrite Ha in E.
  enough (Q : exists st, for_range 1 (sparse_step lstsq pinv own0 (mk n p x) (mk n 1 (fun i _ => y i))) ([], mk p 1 (fun _ _ => 0), mk p 1 (fun _ _ => 0), mk n 1 (fun i _ => y i)) = Ok st) by (destruct Q as (st & Q); exists (put st); now apply E).
  clear E put. unfold for_range. cbn [seq for_each]. unfold sparse_step.
  destruct (C60_direction_partial (sp_lambda own0) n p x y Hp) as (m & M & Em & HM1 & HM2 & ->). cbn [bind]. pose (w' := fun j : nat => soft (sp_lambda own0) n x y m M j / Rsum p (fun k => soft (sp_lambda own0) n x y m M k * soft (sp_lambda own0) n x y m M k)).
  match goal with |- context [set_column _ _ (mk p 1 ?h)] => change (mk p 1 h) with (mk p 1 (fun j _ : nat => w' j)) end.
  assert (Hw' : forall j, (j < p)%nat -> w' j = w j). { apply (direction_unique (sp_lambda own0) n p x y); [|exact Hd]. exists m, M. split; [rewrite Em; apply np_median_spec; destruct p; [contradiction|discriminate]|]. split; [exact HM1|]. split; [exact HM2|]. reflexivity. }
  change (zn 0) with (Z.of_nat 0). rewrite set_column_mk by lia. cbn [bind]. rewrite (collect_run p w' (fun _ => 0)). cbn [bind]. set (A := selected p w' (fun _ => 0)).
  assert (HA : forall j, In j A -> (j < p)%nat) by (intros i; apply selected_lt). assert (HjA : In j A) by (apply selected_in; split; [exact Hj|left; now rewrite Hw']).
  assert (Hl : length A <> 0%nat) by (destruct A; [contradiction|discriminate]). rewrite columns_run by (assumption || lia). cbn [bind].
  assert (HXA : forall k, (k < length A)%nat -> std_column n (fun i => x i (nth k A 0%nat))) by (intros k Hk; apply HX, HA, nth_In, Hk).
  assert (Er : exists g, sparse_regression lstsq pinv (sp_max_iter own0) (sp_tol own0) (mk n (length A) (fun i c => x i (nth c A 0%nat))) (mk n 1 (fun i _ => y i)) 0 = Ok (Some (mk (length A) 1 (fun k _ => g k)))).
  { apply regression_runs; try assumption. intros own O1 O2. replace (Z.min (Z.of_nat (length A)) (Z.of_nat 0 + 1)) with (Z.of_nat 1) by lia.
    destruct (fit_both lstsq pinv n (length A) 1 (fun i c => x i (nth c A 0%nat)) y ltac:(lia) Hl ltac:(lia)) with (own := own) (sd := 1) as (h & m' & _ & _ & _ & _ & Ef & _); [|assumption|congruence|now exists m'].
    intros k Hk _. replace k with 0%nat by lia. 
    assert (Ey : y_rest n (length A) (fun i c => x i (nth c A 0%nat)) y 0 = INR (n - 1)).
    { destruct Hy as [Y1 Y2]. unfold Rvar in Y2. rewrite Y1 in Y2. assert (Hn1 : INR (n - 1) <> 0) by (apply not_0_INR; lia). apply (f_equal (fun r => r * INR (n - 1))) in Y2. unfold Rdiv in Y2. rewrite Rmult_assoc, Rinv_l, Rmult_1_r, Rmult_1_l in Y2 by exact Hn1. rewrite <- Y2.
      unfold y_rest. apply Rsum_ext. intros i Hi. unfold y_left. replace (Rsum 0 _) with 0 by reflexivity. ring. }
    rewrite Ey. apply (In_nth _ _ 0%nat) in HjA as (l & Hl' & El). unfold cov_sq. rewrite Rsum_sumn.
    apply Rle_trans with (gcov n x y j * gcov n x y j).
    - replace (gcov n x y j * gcov n x y j) with (Rabs (gcov n x y j) * Rabs (gcov n x y j)) by (rewrite <- Rabs_mult; apply Rabs_pos_eq; nra). replace (lit (T:=R) 1 16) with (/ 10 ^ 8 * / 10 ^ 8) by (unfold lit; cbn; lra).
      assert (0 <= INR (n - 1) / 10 ^ 8) by (apply Rmult_le_pos; [apply pos_INR|left; apply Rinv_0_lt_compat, pow_lt; lra]). apply Rle_trans with ((INR (n - 1) / 10 ^ 8) * (INR (n - 1) / 10 ^ 8)); [right; field|apply Rmult_le_compat; assumption].
    - rewrite <- El. change (gcov n x y (nth l A 0%nat)) with (cov n (P_PLS1.residual n (length A) (fun i c => x i (nth c A 0%nat)) y 0) y l).
      apply (sumR_ge_one (length A) (fun j => cov n (P_PLS1.residual n (length A) (fun i c => x i (nth c A 0%nat)) y 0) y j * cov n (P_PLS1.residual n (length A) (fun i c => x i (nth c A 0%nat)) y 0) y j)); [intros; nra|exact Hl']. }
  destruct Er as (g & Er). rewrite Er. cbn [bind nc mk]. change (zeros (zn p) (zn 1)) with (zeros (T:=R) (Z.of_nat p) (Z.of_nat 1)). rewrite zeros_mk by assumption. rewrite (place_loop (length A) g p A HA 0 (fun _ => n0)) by lia. cbn [bind fst]. rewrite mul_mk. cbn [bind]. rewrite sub_mk. cbn [bind]. eexists. reflexivity.
Qed.
End Data.
End Lambda.
Print Assumptions C90_nothing_selected.
Print Assumptions C90_lambda_refuted.
Print Assumptions C90_trains_partial.

(** The default lambda_ in binary64: three uncorrelated features, the response is the first one.
    The median covariance is 0, so the covariances are divided by 0 and nothing is selected; NIPALS
    itself trains on these data. *)
Definition had_X : mat f64 := Mat 4 3 [[exF 1; exF 1; exF 1]; [exF 1; exF (-1); exF (-1)]; [exF (-1); exF 1; exF (-1)]; [exF (-1); exF (-1); exF 1]].
Definition had_Y : mat f64 := Mat 4 1 [[exF 1]; [exF 1]; [exF (-1)]; [exF (-1)]].
Definition had_nipals := nipals (T:=f64) (fun _ _ => Err LinAlgError) (fun m => Ok (mk 1 1 (fun _ _ => ndiv (exF 1) (entry m 0 0)))).
Theorem C90_default_refuted :
  snd (initialize ex_cls (fst (setattr ex_cls (construct ex_cls) (ANumComponents 1))) (Some had_X) (Some had_Y)) = Err IndexError /\
  snd (initialize had_nipals (fst (setattr had_nipals (construct had_nipals) (ANumComponents 1))) (Some had_X) (Some had_Y)) = Ok None.
Proof. split; vm_compute; reflexivity. Qed.
Print Assumptions C90_default_refuted.

(** Two features; lambda_ = 1/2 keeps the first one and drops the second *)
Definition exX : mat R := mk 4 2 (fun i j => nth i (nth j [[1; 1; -1; -1]; [1; -1; 1; -1]] []) 0).
Definition exY : mat R := mk 4 1 (fun i _ => nth i [3; 1; -1; -3] 0).
Definition exs : pls_st (sparse_st (T:=R)) R := PlsSt 1 PP_NONE false [] [] None None (Sparse (/ 10 ^ 7) 500 (/ 2) None None None (t_new standardize) (t_new standardize)).
Lemma ex_preparable : preparable PP_STANDARDIZE exX /\ preparable PP_STANDARDIZE exY.
Proof.
  split; (split; [cbn; lia|]); intros j Hj Q; cbn [nc nr exX exY mk] in Hj, Q.
  - assert (L : forall i, (i < 4)%nat -> (i < nr exX)%nat) by auto. specialize (Q 0%nat 3%nat (L 0%nat ltac:(lia)) (L 3%nat ltac:(lia))). unfold exX in Q. rewrite !entry_mk in Q by lia. destruct j as [|[|j]]; [cbn in Q; lra|cbn in Q; lra|lia].
  - assert (L : forall i, (i < 4)%nat -> (i < nr exY)%nat) by auto. specialize (Q 0%nat 3%nat (L 0%nat ltac:(lia)) (L 3%nat ltac:(lia))). unfold exY in Q. rewrite !entry_mk in Q by lia. cbn in Q. lra.
Qed.
Lemma ex_stats : (forall j, (j < 2)%nat -> Rmean 4 (fun k => entry exX k j) = 0 /\ Rvar 4 (fun k => entry exX k j) = 4 / 3) /\ Rmean 4 (fun k => entry exY k 0) = 0 /\ Rvar 4 (fun k => entry exY k 0) = 20 / 3.
Proof.
  assert (M1 : forall j, (j < 2)%nat -> Rmean 4 (fun k => entry exX k j) = 0).
  { intros j Hj. unfold Rmean. cbn [Rsum]. unfold exX. rewrite !entry_mk by lia. destruct j as [|[|j]]; [cbn; lra|cbn; lra|lia]. }
  assert (M2 : Rmean 4 (fun k => entry exY k 0) = 0).
  { unfold Rmean. cbn [Rsum]. unfold exY. rewrite !entry_mk by lia. cbn. lra. }
  split; [intros j Hj; split; [now apply M1|]|split; [exact M2|]].
  - unfold Rvar. rewrite M1 by exact Hj. cbn [Rsum]. unfold exX. rewrite !entry_mk by lia. destruct j as [|[|j]]; [cbn; lra|cbn; lra|lia].
  - unfold Rvar. rewrite M2. cbn [Rsum]. unfold exY. rewrite !entry_mk by lia. cbn. lra.
Qed.
Definition kap : R := / (sqrt (4 / 3) * sqrt (20 / 3)).
Lemma kap_pos : / 3 < kap.
Proof.
  unfold kap. rewrite <- sqrt_mult by lra. assert (0 < sqrt (4 / 3 * (20 / 3))) by (apply sqrt_lt_R0; lra). assert (E := sqrt_sqrt (4 / 3 * (20 / 3)) ltac:(lra)). set (r := sqrt _) in *. assert (r < 3) by nra.
  apply Rinv_lt_contravar; nra.
Qed.
Lemma ex_gcov j : (j < 2)%nat -> gcov 4 (prepared PP_STANDARDIZE exX) (fun i => prepared PP_STANDARDIZE exY i 0) j = (if (j =? 0)%nat then 8 else 4) * kap.
Proof.
  intros Hj. destruct ex_stats as (SX & M2 & V2). destruct (SX j Hj) as [M1 V1]. unfold gcov. cbn [prepared]. change (nr exX) with 4%nat. change (nr exY) with 4%nat. rewrite M1, V1, M2, V2. cbn [Rsum]. unfold exX, exY. rewrite !entry_mk by lia. unfold kap.
  assert (0 < sqrt (4 / 3)) by (apply sqrt_lt_R0; lra). assert (0 < sqrt (20 / 3)) by (apply sqrt_lt_R0; lra). destruct j as [|[|j]]; [| |lia]; cbn; field; lra.
Qed.
Definition exw (j : nat) : R := match j with O => 3 / 2 | _ => 0 end.
Lemma ex_direction : direction (/ 2) 4 2 (prepared PP_STANDARDIZE exX) (fun i => prepared PP_STANDARDIZE exY i 0) exw.
Proof.
  pose proof kap_pos as K. assert (G0 := ex_gcov 0 ltac:(lia)). assert (G1 := ex_gcov 1 ltac:(lia)). cbn [Nat.eqb] in G0, G1. exists (6 * kap), (4 / 3).
  assert (Z0 : 8 * kap / (6 * kap) = 4 / 3) by (field; lra). assert (Z1 : 4 * kap / (6 * kap) = 2 / 3) by (field; lra).
  split; [|split; [|split]].
  - exists [4 * kap; 8 * kap]. cbn [map seq]. rewrite G0, G1, !Rabs_pos_eq by lra. split; [apply perm_swap|]. split; [repeat (constructor; try lra)|]. split; [discriminate|]. cbn. lra.
  - exists 0%nat. split; [lia|]. rewrite G0, Z0, Rabs_pos_eq by lra. reflexivity.
  - intros [|[|k]] Hk; [rewrite G0, Z0|rewrite G1, Z1|lia]; rewrite Rabs_pos_eq by lra; lra.
  - assert (S0 : soft (/ 2) 4 (prepared PP_STANDARDIZE exX) (fun i => prepared PP_STANDARDIZE exY i 0) (6 * kap) (4 / 3) 0 = 2 / 3).
    { unfold soft. rewrite G0, Z0, Rabs_pos_eq by lra. unfold sgn. destruct (Rle_dec _ _); [|lra]. destruct (Rlt_dec (4 / 3) 0); [lra|]. destruct (Rlt_dec 0 (4 / 3)); lra. }
    assert (S1 : soft (/ 2) 4 (prepared PP_STANDARDIZE exX) (fun i => prepared PP_STANDARDIZE exY i 0) (6 * kap) (4 / 3) 1 = 0).
    { unfold soft. rewrite G1, Z1, Rabs_pos_eq by lra. destruct (Rle_dec _ _); [|reflexivity]. replace (2 / 3 - / 2 * (4 / 3)) with 0 by lra. ring. }
    intros [|[|k]] Hk; [| |lia]; cbn [Rsum]; rewrite S0, S1; cbn [exw]; field.
Qed.
Example C90_ex lstsq : exists s, initialize (sparse_pls lstsq pinv_R) exs (Some exX) (Some exY) = (s, Ok None).
Proof.
  pose proof kap_pos as K. destruct ex_preparable as [PX PY]. apply (C90_trains_partial lstsq pinv_R exs exX exY 0 eq_refl eq_refl (mk_wf _ _ _) (mk_wf _ _ _) ltac:(discriminate) eq_refl eq_refl PX PY exw 0%nat eq_refl pinv_R_ls).
  - cbn. lia.
  - cbn. lra.
  - exact ex_direction.
  - cbn. lia.
  - cbn [exw]. rewrite Rabs_pos_eq by lra. lra.
  - change (nr exX) with 4%nat. rewrite (ex_gcov 0 ltac:(lia)). cbn [Nat.eqb]. rewrite Rabs_pos_eq by lra. cbn. lra.
Qed.
(** the trained model predicts like NIPALS on the first feature alone *)
Example C89_ex lstsq : exists s t, initialize (sparse_pls lstsq pinv_R) exs (Some exX) (Some exY) = (s, Ok None) /\
  initialize (nipals lstsq pinv_R) (fst (setattr (nipals lstsq pinv_R) (construct (nipals lstsq pinv_R)) (ANumComponents 1))) (Some (columns [0%nat] exX)) (Some exY) = (t, Ok None) /\
  exists V, snd (predict (sparse_pls lstsq pinv_R) s exX) = Ok V /\ snd (predict (nipals lstsq pinv_R) t (columns [0%nat] exX)) = Ok V.
Proof.
  destruct (C90_ex lstsq) as (s & Es). destruct ex_preparable as [PX PY].
  destruct (C89_sparse_pls lstsq pinv_R exs s exX exY 0 eq_refl eq_refl (mk_wf _ _ _) (mk_wf _ _ _) ltac:(discriminate) eq_refl PX PY Es) as (W & B & A & HB & HR & _ & HP).
  destruct (HR 0%nat (le_n _)) as (D & HA & _ & _). change (nr exX) with 4%nat in D. change (nc exX) with 2%nat in *.
  assert (HW : forall j, (j < 2)%nat -> W 0%nat j = exw j).
  { apply (direction_unique (/ 2) 4 2 (prepared PP_STANDARDIZE exX) (fun i => prepared PP_STANDARDIZE exY i 0)); [|exact ex_direction]. destruct D as (m & M & D1 & D2 & D3 & D4).
    replace (fun i => prepared PP_STANDARDIZE exY i 0) with (fun i => prepared PP_STANDARDIZE exY i 0 - Rsum 2 (fun j => prepared PP_STANDARDIZE exX i j * B 0%nat j)); [now exists m, M|].
    apply FunctionalExtensionality.functional_extensionality. intros i. cbn [Rsum]. rewrite !HB. ring. }
  assert (EA : A 0%nat = [0%nat]).
  { rewrite HA. unfold selected. cbn [seq filter]. rewrite !HW, !HB by lia. unfold big. cbn [exw]. rewrite Rabs_R0, (Rabs_pos_eq (3 / 2)) by lra.
    destruct (Rlt_dec (/ 10 ^ 6) (3 / 2)); [|lra]. destruct (Rlt_dec (/ 10 ^ 6) 0); [lra|]. reflexivity. }
  rewrite EA in HP. destruct (HP (fst (setattr (nipals lstsq pinv_R) (construct (nipals lstsq pinv_R)) (ANumComponents 1)))) as (t & Et & HZ).
  - apply (plain_comp lstsq pinv_R 5). apply plain_new.
  - exists s, t. split; [exact Es|]. split; [exact Et|]. apply HZ; [apply mk_wf|reflexivity|discriminate].
Qed.
Print Assumptions C89_sparse_pls.
