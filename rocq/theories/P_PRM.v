(** C55: PRM iteration and weights.  C64: every PLS call ends. *)
From Coq Require Import List ZArith Lia Bool Arith Reals Lra SpecFloat.
From Verif Require Import L_Sort2 Base Num Mat M_Matrix M_Factory M_Helper M_Loop M_Utils M_Linalg M_Transform M_PLSBase M_PLS M_PLS2
  S_Matrix L_Mat L_MatR L_Matrix L_Alg L_Fuel P_Utils.
Import ListNotations.
Local Open Scope nat_scope.

(** * Weights, over the reals *)
Definition in_01 (x : R) : Prop := (0 < x <= 1)%R.
(** a column of n weights, each in (0,1] (an empty matrix has no second dimension) *)
Definition weights (n : nat) (W : mat R) : Prop := n <> 0 -> exists f, W = mk n 1 (fun i _ => f i) /\ forall i, i < n -> in_01 (f i).
Lemma fair_01 (z c : R) : in_01 (fair z c).
Proof.
  unfold fair, in_01. cbn [nadd nmul ndiv nabs n1 NumR]. pose proof (Rabs_pos (z / c)) as Hp. assert (H1 : (1 <= (1 + Rabs (z / c)) * (1 + Rabs (z / c)))%R) by nra.
  split; [apply Rdiv_lt_0_compat; lra|]. apply Rmult_le_reg_r with ((1 + Rabs (z / c)) * (1 + Rabs (z / c)))%R; [lra|]. unfold Rdiv. rewrite Rmult_assoc, Rinv_l by lra. lra.
Qed.
(** the loop  for i in range(n): W.set(i, 0, weight)  with a weight that may raise *)
Lemma fill_weights n (g : nat -> res R) W : (forall i w, g i = Ok w -> in_01 w) ->
  for_range n (fun W i => do w <- g i; set W (zn i) 0 w) (zeros (zn n) 1) = Ok W -> weights n W.
Proof.
  intros Hg. unfold for_range.
  assert (Hgen : forall m k f W, k + m = n -> (forall i, i < k -> in_01 (f i)) ->
     for_each (seq k m) (fun W i => do w <- g i; set W (zn i) 0 w) (mk n 1 (fun i _ => f i)) = Ok W -> weights n W).
  { induction m as [|m IH]; intros k f W' Hk Hf E; cbn [seq for_each] in E.
    - injection E as <-. intros _. exists f. split; [reflexivity|]. intros i Hi. apply Hf. lia.
    - destruct (g k) as [w|] eqn:Eg; cbn [bind] in E; [|discriminate].
      rewrite set_mk_0 in E by lia. cbn [bind] in E.
      replace (mk n 1 _) with (mk n 1 (fun i _ : nat => if i =? k then w else f i)) in E by (apply mk_ext; intros i j _ Hj; replace j with 0 by lia; now rewrite andb_true_r).
      apply (IH (S k) (fun i => if i =? k then w else f i)) in E; [exact E|lia|].
      intros i Hi. destruct (Nat.eqb_spec i k); [subst; eapply Hg; eassumption|]. apply Hf. lia. }
  intros E Hn0. change (zeros (zn n) 1) with (zeros (Z.of_nat n) (Z.of_nat 1) : mat R) in E. rewrite (zeros_mk (T:=R) n 1) in E by assumption. apply (Hgen n 0 (fun _ => 0%R) W); [reflexivity|intros; lia|exact E|exact Hn0].
Qed.
Lemma leverage_01 a Ts W : leverage_weights (T:=R) a Ts = Ok W -> weights (nr Ts) W.
Proof.
  unfold leverage_weights. destruct (geometric_median a Ts) as [med|]; cbn [bind]; [|discriminate]. destruct (c_dist Ts med) as [d|]; cbn [bind]; [|discriminate]. intros E.
  apply (fill_weights (nr Ts) (fun i => do x <- get d (zn i) 0; Ok (fair (ndiv x (median d)) (pr_C a)))).
  - intros i w. destruct (get d (zn i) 0); cbn [bind]; [|discriminate]. intros [= <-]. apply fair_01.
  - rewrite <- E. apply for_each_ext. intros x b _. destruct (get d (zn b) 0); reflexivity.
Qed.
Lemma residual_01 a est X y W : residual_weights (T:=R) a est X y = Ok W -> weights (nr X) W.
Proof.
  unfold residual_weights. destruct (for_range (nr X) _ _) as [r|]; cbn [bind]; [|discriminate]. intros E.
  apply (fill_weights (nr X) (fun i => do x <- get (div_scalar r (mad r)) (zn i) 0; Ok (fair x (pr_C a)))).
  - intros i w. destruct (get _ (zn i) 0); cbn [bind]; [|discriminate]. intros [= <-]. apply fair_01.
  - rewrite <- E. apply for_each_ext. intros x b _. destruct (get _ (zn b) 0); reflexivity.
Qed.

(** * Iterations *)
Section Run.
Context {T : Type} `{Num T} (eig : mat T -> res (list T * mat T)) (svd : mat T -> res (mat T * list T * mat T)).
(** One run of the reweighting passes: residual weights, leverage weights and regression vector
    before pass k. *)
Record prm_run := Run { r_Wr : nat -> mat T; r_Wx : nat -> mat T; r_gamma : nat -> mat T }.
Definition run_of (a : prm_st) (n : Z) (X y : mat T) (r : prm_run) (its : nat) : Prop :=
  forall k, k < its -> exists Ts s, prm_pass eig a n X y (r_Wr r k) (r_Wx r k) = Ok (r_Wr r (S k), r_Wx r (S k), Ts, r_gamma r (S k), s).
(** the regression vector changed by less than tol in pass k (k >= 1) *)
Definition small_change (a : prm_st) (r : prm_run) (k : nat) : Prop :=
  exists d, sub (r_gamma r k) (r_gamma r (k - 1)) = Ok d /\ nltb (norm2_squared d) (pr_tol a) = true.

Lemma while_trace a n X y fuel : forall W_r W_x gamma it W_r' W_x' Ts gamma' s it',
  prm_while eig fuel a n X y W_r W_x gamma it = Ok (W_r', W_x', Ts, gamma', s, it') ->
  exists (r : prm_run) (its : nat), it' = (it + Z.of_nat its)%Z /\ its <> 0 /\
    r_Wr r 0 = W_r /\ r_Wx r 0 = W_x /\ r_gamma r 0 = gamma /\ r_Wr r its = W_r' /\ r_Wx r its = W_x' /\ r_gamma r its = gamma' /\
    run_of a n X y r its /\
    (forall k, 0 < k < its -> small_change a r k /\ (it + Z.of_nat k < pr_max_iter a)%Z) /\
    (~ small_change a r its \/ (pr_max_iter a <= it')%Z).
Proof.
  induction fuel as [|fuel IH]; intros W_r W_x gamma it W_r' W_x' Ts gamma' s it'; [discriminate|]. cbn [prm_while].
  destruct (prm_pass eig a n X y W_r W_x) as [[[[[Wr1 Wx1] Ts1] g1] s1]|e] eqn:Ep; cbn [bind]; [|discriminate].
  destruct (prm_again a g1 gamma (it + 1)) as [b|e] eqn:Ea; cbn [bind]; [|discriminate]. unfold prm_again in Ea. destruct (sub g1 gamma) as [d|] eqn:Ed; cbn [bind] in Ea; [|discriminate]. injection Ea as Ea.
  destruct b.
  - intros E. destruct (IH _ _ _ _ _ _ _ _ _ _ E) as (r & its & E1 & E2 & H1 & H2 & H3 & H4 & H5 & H6 & Hr & Hc & He). apply andb_prop in Ea as [Ea1 Ea2]. apply Z.ltb_lt in Ea2.
    exists (Run (fun k => match k with 0 => W_r | S k => r_Wr r k end) (fun k => match k with 0 => W_x | S k => r_Wx r k end) (fun k => match k with 0 => gamma | S k => r_gamma r k end)), (S its).
    unfold run_of, small_change. cbn [r_Wr r_Wx r_gamma]. split; [lia|]. split; [discriminate|]. do 3 (split; [reflexivity|]). do 3 (split; [assumption|]). split; [|split].
    + intros [|k] Hk; [|apply Hr; lia]. rewrite H1, H2, H3. eauto.
    + intros [|[|k]] Hk; [lia| |].
      * cbn [Nat.sub]. rewrite H3. split; [exists d; auto|lia].
      * destruct (Hc (S k) ltac:(lia)) as [Hs Hl]. split; [|lia]. unfold small_change in Hs. cbn [Nat.sub] in Hs |- *. rewrite Nat.sub_0_r in Hs. exact Hs.
    + destruct He as [He|He]; [left|right; lia]. destruct its as [|its]; [contradiction|]. unfold small_change in He. cbn [Nat.sub] in He |- *. rewrite Nat.sub_0_r in He. exact He.
  - intros [= <- <- <- <- <- <-]. exists (Run (fun k => match k with 0 => W_r | S _ => Wr1 end) (fun k => match k with 0 => W_x | S _ => Wx1 end) (fun k => match k with 0 => gamma | S _ => g1 end)), 1.
    unfold run_of, small_change. cbn [r_Wr r_Wx r_gamma]. split; [lia|]. split; [discriminate|]. do 6 (split; [reflexivity|]). split; [|split].
    + intros k Hk. replace k with 0 by lia. eauto.
    + intros; lia.
    + apply andb_false_iff in Ea as [Ea|Ea]; [left|right; apply Z.ltb_ge in Ea; lia]. cbn [Nat.sub]. intros (d' & E' & Hl). congruence.
Qed.

(** What training does: it repeats the pass WHILE the regression vector changes by less than tol
    and fewer than max_iter passes are done; the change of the last pass was not small, or max_iter
    is reached. *)
Theorem C55_iterations_partial a n X y m its : prm_fit eig svd a n X y = Ok (m, its) ->
  exists (X' : mat T) (r : prm_run) (k : nat), its = Z.of_nat k /\ 1 <= k /\ (its <= Z.max 1 (pr_max_iter a))%Z /\
    (nc X <= nr X -> X' = X) /\
    residual_weights a None X' y = Ok (r_Wr r 0) /\ leverage_weights a X' = Ok (r_Wx r 0) /\ r_gamma r 0 = zeros n 1 /\
    run_of a n X' y r k /\
    r_Wr r k = pm_W_r m /\ r_Wx r k = pm_W_x m /\ r_gamma r k = pm_gamma m /\
    (forall j, 0 < j < k -> small_change a r j /\ (Z.of_nat j < pr_max_iter a)%Z) /\
    (~ small_change a r k \/ (pr_max_iter a <= its)%Z).
Proof.
  unfold prm_fit. match goal with |- context [bind ?x _] => destruct x as [[X' U]|e] eqn:EX end; cbn [bind]; [|discriminate].
  destruct (residual_weights a None X' y) as [Wr|e] eqn:Er; cbn [bind]; [|discriminate]. destruct (leverage_weights a X') as [Wx|e] eqn:El; cbn [bind]; [|discriminate].
  destruct (prm_while eig _ a n X' y Wr Wx (zeros n 1) 0) as [[[[[[Wr' Wx'] Ts] g] s] it]|e] eqn:Ew; cbn [bind]; [|discriminate].
  destruct (need (si_B (p_own s))) as [coef|]; cbn [bind]; [|discriminate]. match goal with |- context [bind ?x _] => destruct x as [coef'|e] end; cbn [bind]; [|discriminate].
  intros [= <- <-]. destruct (while_trace _ _ _ _ _ _ _ _ _ _ _ _ _ _ _ Ew) as (r & its & E1 & E2 & H1 & H2 & H3 & H4 & H5 & H6 & Hr & Hc & He).
  exists X', r, its. cbn [pm_W_r pm_W_x pm_gamma]. split; [lia|]. split; [lia|]. split.
  { destruct (Nat.eq_dec its 1); [lia|]. destruct (Hc (its - 1) ltac:(lia)). lia. }
  split. { intros Hn. destruct (Nat.ltb_spec (nr X) (nc X)); [lia|]. now injection EX as <- _. }
  rewrite H1, H2. do 3 (split; [assumption|]). split; [assumption|]. do 3 (split; [assumption|]). split; [|exact He]. intros j Hj. destruct (Hc j Hj). split; [assumption|lia].
Qed.
(** The claimed stopping rule is false for all data: whenever the first pass moves the regression
    vector by tol or more, training stops right there, whatever max_iter allows. *)
Theorem C55_refuted_always a n X y m its : (1 < pr_max_iter a)%Z -> nc X <= nr X -> prm_fit eig svd a n X y = Ok (m, its) ->
  (forall W_r W_x W_r' W_x' Ts g s d, residual_weights a None X y = Ok W_r -> leverage_weights a X = Ok W_x ->
     prm_pass eig a n X y W_r W_x = Ok (W_r', W_x', Ts, g, s) -> sub g (zeros n 1) = Ok d -> nltb (norm2_squared d) (pr_tol a) = false) ->
  its = 1%Z /\ (its < pr_max_iter a)%Z /\ forall d, sub (pm_gamma m) (zeros n 1) = Ok d -> nltb (norm2_squared d) (pr_tol a) = false.
Proof.
  intros Hm Hn E Hb. destruct (C55_iterations_partial _ _ _ _ _ _ E) as (X' & r & k & Ei & Hk & Hle & HX & Hr & Hl & Hg & Hrun & E1 & E2 & E3 & Hc & He).
  rewrite (HX Hn) in *. destruct (Hrun 0 ltac:(lia)) as (Ts & s & Ep).
  assert (Hns : ~ small_change a r 1). { intros (d & Ed & Hd). cbn [Nat.sub] in Ed. rewrite Hg in Ed. rewrite (Hb _ _ _ _ _ _ _ _ Hr Hl Ep Ed) in Hd. discriminate. }
  assert (k = 1). { destruct (Nat.eq_dec k 1); [assumption|]. destruct (Hc 1 ltac:(lia)) as [Q _]. contradiction. }
  subst k. split; [lia|]. split; [lia|]. intros d Ed. rewrite <- E3 in Ed. exact (Hb _ _ _ _ _ _ _ _ Hr Hl Ep Ed).
Qed.
End Run.


Lemma mul_nr {T} `{Num T} (a b c : mat T) : mul a b = Ok c -> nr c = nr a.
Proof. unfold mul. destruct (is_multiplicable_with a b); [|discriminate]. intros [= <-]. reflexivity. Qed.
Lemma set_row_nr {T} `{Num T} (m v m' : mat T) i : set_row m i v = Ok m' -> nr m' = nr m.
Proof.
  unfold set_row. intros E. repeat match type of E with context [bind ?x _] => destruct x; cbn [bind] in E; try discriminate end.
  repeat match type of E with context [if ?b then _ else _] => destruct b; try discriminate end; injection E as <-; reflexivity.
Qed.
Lemma scale_nr {T} `{Num T} (m v m' : mat T) : scale_by_column_vector m v = Ok m' -> nr m' = nr m.
Proof.
  unfold scale_by_column_vector, mul_by_vector, vector_op, vector_op_modify. intros E. repeat match type of E with context [bind ?x _] => destruct x; cbn [bind] in E; try discriminate end.
  repeat match type of E with context [if ?b then _ else _] => destruct b; try discriminate end; injection E as <-; reflexivity.
Qed.
(** Every weight the training ends with (and works with) is in (0,1], over the reals. *)
Theorem C55_weights_partial eig svd (a : prm_st (T:=R)) n X y m its : prm_fit eig svd a n X y = Ok (m, its) ->
  exists rows, (nc X <= nr X -> rows = nr X) /\ weights rows (pm_W_r m) /\ weights rows (pm_W_x m).
Proof.
  intros E. destruct (C55_iterations_partial _ _ _ _ _ _ _ _ E) as (X' & r & k & Ei & Hk & _ & HX & _ & _ & _ & Hrun & E1 & E2 & _).
  destruct k as [|k]; [lia|]. destruct (Hrun k ltac:(lia)) as (Ts & s & Ep). rewrite E1, E2 in Ep. clear - Ep HX. exists (nr X'). split; [intros Q; now rewrite HX|].
  unfold prm_pass in Ep. destruct (reweighted _ _ X') as [X_p|] eqn:Er; cbn [bind] in Ep; [|discriminate].
  assert (Hn : nr X_p = nr X'). { unfold reweighted in Er. destruct (mul_elementwise _ _); cbn [bind] in Er; [|discriminate]. eapply scale_nr; eassumption. }
  destruct (reweighted _ _ y) as [y_p|]; cbn [bind] in Ep; [|discriminate]. destruct (prm_simpls _ _ _ X_p y_p) as [s0|]; cbn [bind] in Ep; [|discriminate].
  destruct (transform (simpls eig) s0 X_p) as [s1 rT] eqn:Et. destruct rT as [Ts0|]; cbn [bind] in Ep; [|discriminate].
  destruct (need (si_Q (p_own s1))) as [Q|]; cbn [bind] in Ep; [|discriminate].
  assert (Hn0 : nr Ts0 = nr X_p).
  { unfold transform in Et. destruct (negb _); [discriminate|]. cbn [simpls c_transform] in Et. injection Et as _ Et. destruct (need _) as [W|]; cbn [bind] in Et; [|discriminate]. eapply mul_nr; eassumption. }
  destruct (for_range (nr Ts0) _ Ts0) as [Ts1|] eqn:Ef; cbn [bind] in Ep; [|discriminate].
  assert (Hn1 : nr Ts1 = nr Ts0).
  { revert Ef. unfold for_range. generalize (seq 0 (nr Ts0)). intros l. generalize Ts0. intros M. revert M. induction l as [|i l IH]; intros M; cbn [for_each]; [now intros [= <-]|].
    destruct (combined_weight _ _ i); cbn [bind]; [|discriminate]. destruct (get_row M (zn i)); cbn [bind]; [|discriminate]. destruct (set_row M _ _) as [M'|] eqn:Es; cbn [bind]; [|discriminate].
    intros Q'. rewrite (IH _ Q'). eapply set_row_nr; eassumption. }
  destruct (residual_weights a _ X_p y_p) as [Wr|] eqn:E3; cbn [bind] in Ep; [|discriminate]. destruct (leverage_weights a Ts1) as [Wx|] eqn:E4; cbn [bind] in Ep; [|discriminate].
  injection Ep as <- <- _ _ _. apply residual_01 in E3. apply leverage_01 in E4. rewrite Hn in E3. rewrite Hn1, Hn0, Hn in E4. auto.
Qed.

(** In binary64 the weights leave (0,1] when more than half of the residuals coincide (their median
    absolute deviation is 0): the outlier gets weight 0, the others NaN. *)
Definition exF (z : Z) : f64 := nofZ z.
Definition exA : prm_st (T:=f64) := Prm (lit 1 6) 10 (exF 4) (-1) None.
Definition exX : mat f64 := Mat 4 2 [[exF 1; exF 2]; [exF 3; exF 1]; [exF 4; exF 4]; [exF 2; exF 7]].
Theorem C55_weights_refuted : exists W, residual_weights exA None exX (Mat 4 1 [[exF 1]; [exF 1]; [exF 1]; [exF 5]]) = Ok W /\
  rws W = [[S754_nan]; [S754_nan]; [S754_nan]; [exF 0]].
Proof. eexists. split; [vm_compute; reflexivity|]. vm_compute. reflexivity. Qed.
(** Witness of the stopping rule: the first pass changes the regression vector from 0 by more than
    tol = 1e-6 and max_iter = 10 allows more, yet training stops after it. *)
Definition eig1 (m : mat f64) : res (list f64 * mat f64) := Ok ([entry m 0 0], mk 1 1 (fun _ _ => exF 1)).
Definition nosvd (m : mat f64) : res (mat f64 * list f64 * mat f64) := Err LinAlgError.
Definition exy : mat f64 := Mat 4 1 [[exF 1]; [exF 2]; [exF 4]; [exF 5]].
Theorem C55_refuted : exists m d, prm_fit eig1 nosvd exA 1 exX exy = Ok (m, 1%Z) /\ sub (pm_gamma m) (zeros 1 1) = Ok d /\
  nltb (norm2_squared d) (pr_tol exA) = false /\ (1 < pr_max_iter exA)%Z.
Proof. eexists. eexists. split; [vm_compute; reflexivity|]. split; [vm_compute; reflexivity|]. split; vm_compute; reflexivity. Qed.
(** With a large tolerance the same data run until max_iter. *)
Example C55_ex : exists m, prm_fit eig1 nosvd (Prm (exF 1000) 3 (exF 4) (-1) None) 1 exX exy = Ok (m, 3%Z).
Proof. eexists. vm_compute. reflexivity. Qed.
Print Assumptions C55_iterations_partial.
Print Assumptions C55_refuted_always.
Print Assumptions C55_weights_partial.
Print Assumptions C55_weights_refuted.
Print Assumptions C55_refuted.

(** * C64 *)
Section Ends.
Context {A K T : Type} `{Num T}.
(** A call on a PLS object, and what it answers. *)
Inductive pls_call : Type :=
| CInitialize (X Y : option (mat T)) | CPredict (X : mat T) | CTransform (X : mat T) | CAssign (k : assignment K).
(** the call gives up because its step budget is exhausted *)
Definition gives_up (c : pls_class A K T) (s : pls_st A T) (o : pls_call) : Prop :=
  match o with
  | CInitialize X Y => snd (initialize c s X Y) = Err OutOfFuel
  | CPredict X => snd (predict c s X) = Err OutOfFuel
  | CTransform X => snd (transform c s X) = Err OutOfFuel
  | CAssign k => snd (setattr c s k) = Err OutOfFuel
  end.
Definition always_ends (c : pls_class A K T) : Prop := forall s o, ~ gives_up c s o.
Lemma ends_always (c : pls_class A K T) : class_ends c -> always_ends c.
Proof.
  intros Hc s [X Y|X|X|k] Q; cbn in Q; revert Q; [now apply initialize_fuel|now apply predict_fuel|now apply transform_fuel|apply setattr_fuel].
Qed.
End Ends.
(** External solvers end. *)
Definition ends1 {A B} (f : A -> res B) : Prop := forall a, f a <> Err OutOfFuel.
(** Every number type, whatever the values (NaN included): *)
Theorem C64_any_numbers {T} `{Num T} lstsq pinv eig (rnd : Z -> nat -> mat T) :
  (forall a b, lstsq a b <> Err OutOfFuel) -> ends1 pinv -> ends1 eig ->
  always_ends (T:=T) (pls1 lstsq) /\ always_ends (vcpls lstsq eig) /\ always_ends (nipals lstsq pinv) /\ always_ends (cca_regression lstsq pinv) /\
  always_ends (sparse_pls lstsq pinv) /\ always_ends (dipls lstsq) /\
  (forall KS (k0 : KS) kapply, (forall s a b, snd (kapply s a b) <> Err OutOfFuel) -> always_ends (kernel_pls lstsq rnd k0 kapply)).
Proof.
  intros Hl Hp He. split; [|split; [|split; [|split; [|split; [|split]]]]]; intros; apply ends_always.
  - now apply pls1_ends. - now apply vcpls_ends. - now apply nipals_class_ends. - now apply nipals_class_ends. - now apply sparse_ends. - now apply dipls_ends. - now apply kpls_ends.
Qed.
(** SIMPLS and PRM sort magnitudes with utils.sort, which ends because < is a strict partial order,
    also when NaN is among the values. *)
Lemma sort_ends {T} `{Num T} : strict_order T -> forall l : list T, sort true (S (length l)) l <> Err OutOfFuel.
Proof. intros SO l. destruct (sort_weak SO l (S (length l)) ltac:(lia)) as (p & E & _). rewrite E. discriminate. Qed.
Theorem C64_sorting_reals eig svd : ends1 eig -> ends1 svd -> always_ends (T:=R) (simpls eig) /\ always_ends (T:=R) (prm eig svd).
Proof. intros He Hs. pose proof (sort_ends strict_R) as Hsort. split; apply ends_always; [now apply simpls_ends|now apply prm_ends]. Qed.
Theorem C64_sorting_float64 eig svd : ends1 eig -> ends1 svd -> always_ends (T:=f64) (simpls eig) /\ always_ends (T:=f64) (prm eig svd).
Proof. intros He Hs. pose proof (sort_ends strict_F) as Hsort. split; apply ends_always; [now apply simpls_ends|now apply prm_ends]. Qed.
(** OPLS ends as soon as its base algorithm does. *)
Theorem C64_opls {A K T} `{Num T} (base : pls_class A K T) : class_ends base -> always_ends (opls base).
Proof. intros Hb. apply ends_always. now apply opls_ends. Qed.
Example C64_ex : class_ends (pls1 (T:=R) (fun _ _ => Err LinAlgError)).
Proof. apply pls1_ends. discriminate. Qed.
Print Assumptions C64_any_numbers.
Print Assumptions C64_sorting_reals.
Print Assumptions C64_sorting_float64.
Print Assumptions C64_opls.
