(** C85, C86: what PRM computes, over the reals. *)
From Coq Require Import List ZArith Lia Bool Arith Reals Lra Permutation Sorted.
From Verif Require Import Base Num Mat M_Matrix M_Factory M_Helper M_Loop M_Transform M_PLSBase M_PLS M_PLS2
  S_Matrix L_Base L_Mat L_MatR L_Matrix L_Alg L_Krylov L_Public P_PLS1 P_SIMPLS2 L_DIPLS P_DIPLS P_PRM P_Sparse P_Median L_PRM.
Import ListNotations.
Local Open Scope R_scope.

(** * Shapes of SIMPLS' matrices *)
Definition table (r c : nat) (m : mat R) : Prop := exists f, m = mk r c f.
Lemma set_column_tab r c m v k m' : table r c m -> set_column m k v = Ok m' -> table r c m'.
Proof.
  intros (f & ->). unfold set_column. destruct (must_be_vector v); cbn [bind]; [|discriminate]. destruct (npidx _ k); cbn [bind]; [|discriminate]. cbn [nr nc mk]. intros [= <-]. eexists. reflexivity.
Qed.
Lemma set_tab r c m i j x m' : table r c m -> set m i j x = Ok m' -> table r c m'.
Proof.
  intros (f & ->). unfold set. cbn [nr nc mk]. destruct (npidx r i) as [i'|]; cbn [bind]; [|discriminate]. destruct (npidx c j) as [j'|]; cbn [bind]; [|discriminate]. fold (mk r c f).
  assert (G : set_entry (mk r c f) i' j' x = mk r c (entry (set_entry (mk r c f) i' j' x))) by (apply (wf_mk (set_entry (mk r c f) i' j' x)), set_entry_wf, mk_wf).
  intros E. exists (entry (set_entry (mk r c f) i' j' x)). rewrite <- G. congruence.
Qed.
Lemma for_each_tab {B} r c (l : list B) (body : mat R -> B -> res (mat R)) : (forall m b m', table r c m -> body m b = Ok m' -> table r c m') ->
  forall m m', table r c m -> for_each l body m = Ok m' -> table r c m'.
Proof.
  intros Hb. induction l as [|b l IH]; intros m m' Hm E; cbn [for_each] in E; [now injection E as <-|].
  destruct (body m b) as [m1|] eqn:E1; cbn [bind] in E; [|discriminate]. eapply IH; [|exact E]. eapply Hb; eassumption.
Qed.
Lemma slim_tab r c coef m m' : table r c m -> slim coef m = Ok m' -> table r c m'.
Proof.
  unfold slim, for_range. intros Hm E. revert E. generalize (to_raw_copy_2D m) as B. intros B E. revert E. apply for_each_tab; [|exact Hm].
  clear m m' Hm. intros m b m' Hm. unfold slim_column. intros E.
  repeat match type of E with bind ?x _ = _ => destruct x; cbn [bind] in E; [|discriminate] end. revert E. apply for_each_tab; [|exact Hm].
  clear m m' Hm. intros m k m' Hm E. repeat match type of E with bind ?x _ = _ => destruct x; cbn [bind] in E; [|discriminate] end.
  match type of E with (if ?b then _ else _) = _ => destruct b end; [eapply set_tab; eassumption|now injection E as <-].
Qed.
Lemma simpls_tab eig coef a n p (X y : nat -> nat -> R) W B Q : p <> 0%nat ->
  simpls_fit eig coef (Z.of_nat a) (mk n p X) (mk n 1 y) = Ok (W, B, Q) -> table p a W /\ table 1 a Q /\ mul W (transpose Q) = Ok B.
Proof.
  intros Hp. unfold simpls_fit, simpls_loop. cbn [nc mk]. rewrite transpose_mk, !mul_mk. cbn [bind]. destruct (eye _ _) as [C|]; cbn [bind]; [|discriminate].
  unfold zn. rewrite !(zeros_mk (T:=R) p a) by assumption. rewrite (zeros_mk (T:=R) 1 a) by discriminate.
  match goal with |- context [for_range ?k ?f ?s] => destruct (for_range k f s) as [st|] eqn:E end; cbn [bind]; [|discriminate].
  assert (Hst : let '(_, _, _, W, _, Q) := st in table p a W /\ table 1 a Q).
  { revert E. unfold for_range. match goal with |- for_each _ _ ?s = _ -> _ => assert (H0 : let '(_, _, _, W, _, Q) := s in table p a W /\ table 1 a Q) by (split; eexists; reflexivity); revert H0; generalize s end.
    generalize (seq 0 (Z.to_nat (Z.of_nat a))). induction l as [|h l IH]; intros s H0 E; cbn [for_each] in E; [now injection E as <-|].
    destruct (simpls_step eig s h) as [s1|] eqn:E1; cbn [bind] in E; [|discriminate]. refine (IH s1 _ E). clear IH E.
    destruct s as [[[[[A M] C'] W'] P'] Q']. unfold simpls_step in E1. destruct H0 as [HW HQ].
    repeat match type of E1 with bind ?x _ = _ => destruct x eqn:?; cbn [bind] in E1; [|discriminate] end. injection E1 as <-. split; eapply set_column_tab; [|eassumption| |eassumption]; assumption. }
  destruct st as [[[[[A M] C'] W'] P'] Q']. destruct Hst as [HW HQ].
  match goal with |- context [bind ?x _] => destruct x as [W1|] eqn:E1 end; cbn [bind]; [|discriminate].
  destruct (mul W1 (transpose Q')) as [B'|] eqn:EB; cbn [bind]; [|discriminate]. intros [= <- <- <-]. split; [|now split].
  destruct (0 <? coef)%Z; [eapply slim_tab; eassumption|now injection E1 as <-].
Qed.

(** * The SIMPLS run inside PRM: lines 242-245 *)
Definition new_simpls eig (coef : Z) (a : nat) : pls_st (simpls_st R) R :=
  fst (setattr (simpls eig) (fst (setattr (simpls eig) (construct (simpls eig)) (AOwn coef))) (ANumComponents (Z.of_nat a))).
Lemma new_simpls_eq eig coef a : new_simpls eig coef a = PlsSt (Z.of_nat a) PP_NONE false [] [] None None (Simpls coef None None None).
Proof. reflexivity. Qed.
Lemma prm_simpls_run eig (ps : prm_st (T:=R)) a n p X y s : p <> 0%nat ->
  prm_simpls eig ps (Z.of_nat a) (mk n p X) (mk n 1 y) = Ok s ->
  initialize (simpls eig) (new_simpls eig (pr_num_coef ps) a) (Some (mk n p X)) (Some (mk n 1 y)) = (s, Ok None) /\
  exists fW fQ, p_own s = Simpls (pr_num_coef ps) (Some (mk p a fW)) (Some (mk p 1 (fun i _ => sumn a (fun k => fW i k * fQ k)))) (Some (mk 1 a (fun _ k => fQ k))) /\
    (forall Z, snd (transform (simpls eig) s Z) = mul Z (mk p a fW)) /\ (forall Z, fst (transform (simpls eig) s Z) = s) /\
    (forall Z, snd (predict (simpls eig) s Z) = mul Z (mk p 1 (fun i _ => sumn a (fun k => fW i k * fQ k)))).
Proof.
  intros Hp. unfold prm_simpls. cbv zeta.
  change (setattr (simpls eig) (construct (simpls eig)) (AOwn (pr_num_coef ps))) with (fst (setattr (simpls eig) (construct (simpls eig)) (AOwn (pr_num_coef ps))), Ok tt). cbn [bind].
  match goal with |- context [setattr (simpls eig) ?s (ANumComponents ?k)] => change (setattr (simpls eig) s (ANumComponents k)) with (new_simpls eig (pr_num_coef ps) a, Ok tt) end. cbn [bind].
  set (s0 := new_simpls eig (pr_num_coef ps) a).
  destruct (simpls_fit eig (pr_num_coef ps) (Z.of_nat a) (mk n p X) (mk n 1 y)) as [[[W B] Q]|e] eqn:Ef.
  - assert (Et : c_train (simpls eig) (p_num_components s0) (c_reset (simpls eig) (p_own s0)) (mk n p X) (mk n 1 y) = (Simpls (pr_num_coef ps) (Some W) (Some B) (Some Q), Ok None)).
    { change (p_num_components s0) with (Z.of_nat a). change (c_reset (simpls eig) (p_own s0)) with (Simpls (T:=R) (pr_num_coef ps) None None None). cbn [simpls c_train si_coef]. rewrite Ef. reflexivity. }
    destruct (single_none (simpls eig) s0 (mk n p X) (mk n 1 y) _ _ eq_refl eq_refl eq_refl Et) as (_ & Hs). destruct (Hs eq_refl) as (s' & Ei & Eo & HT & HP). rewrite Ei. cbn [bind]. intros [= ->]. split; [reflexivity|].
    destruct (simpls_tab _ _ _ _ _ _ _ _ _ _ Hp Ef) as ((fW & ->) & (fQ & ->) & EB). rewrite transpose_mk, mul_mk in EB. injection EB as EB.
    assert (EB' : B = mk p 1 (fun i _ => sumn a (fun k => fW i k * fQ 0%nat k))).
    { rewrite <- EB. apply mk_ext. intros i j Hi Hj. replace j with 0%nat by lia. reflexivity. }
    exists fW, (fQ 0%nat). split. { rewrite Eo, EB'. do 2 f_equal. }
    split; [intros Z; rewrite HT; reflexivity|]. split; [|intros Z; rewrite HP, EB'; reflexivity].
    intros Z. unfold transform. destruct (p_initialised s); cbn [negb fst]; [|reflexivity]. cbn [simpls c_transform fst]. destruct s; reflexivity.
  - assert (Et : c_train (simpls eig) (p_num_components s0) (c_reset (simpls eig) (p_own s0)) (mk n p X) (mk n 1 y) = (Simpls (pr_num_coef ps) None None None, Err e)).
    { change (p_num_components s0) with (Z.of_nat a). change (c_reset (simpls eig) (p_own s0)) with (Simpls (T:=R) (pr_num_coef ps) None None None). cbn [simpls c_train si_coef]. rewrite Ef. reflexivity. }
    destruct (single_none (simpls eig) s0 (mk n p X) (mk n 1 y) _ _ eq_refl eq_refl eq_refl Et) as (Q & _). destruct (initialize _ _ _ _) as (s', r). cbn [snd] in Q. subst r. discriminate.
Qed.

Lemma mul_elementwise_mk r c (f g : nat -> nat -> R) : mul_elementwise (mk r c f) (mk r c g) = Ok (mk r c (fun i j => f i j * g i j)).
Proof.
  unfold mul_elementwise, same_shape_as. cbn [nr nc mk]. rewrite !Nat.eqb_refl. cbn [andb negb]. f_equal. unfold map2_mat. cbn [nr nc mk]. apply mk_ext. intros i j Hi Hj. fold (mk r c f). fold (mk r c g). now rewrite !entry_mk.
Qed.
Lemma reweighted_run n q (A : nat -> nat -> R) (wr wx : nat -> R) : (2 <= n)%nat ->
  reweighted (mk n 1 (fun i _ => wr i)) (mk n 1 (fun i _ => wx i)) (mk n q A) = Ok (mk n q (fun i j => A i j * sqrt (wr i * wx i))).
Proof.
  intros Hn. unfold reweighted. rewrite mul_elementwise_mk. cbn [bind]. unfold sqrt_mat. rewrite map_mk. apply (scale_col_run n q A (fun i => sqrt (wr i * wx i)) Hn).
Qed.
Lemma combined_run n (wr wx : nat -> R) i : (i < n)%nat -> combined_weight (mk n 1 (fun i _ => wr i)) (mk n 1 (fun i _ => wx i)) i = Ok (wx i * wr i).
Proof. intros Hi. unfold combined_weight, zn. rewrite !get_row_mk by exact Hi. cbn [bind]. rewrite !as_real_mk. reflexivity. Qed.
Lemma unweight_run n q (f : nat -> nat -> R) (wr wx : nat -> R) :
  for_range n (fun Ts i => do w <- combined_weight (mk n 1 (fun i _ => wr i)) (mk n 1 (fun i _ => wx i)) i;
      do row <- get_row Ts (zn i); set_row Ts (zn i) (div_scalar row (nsqrt w))) (mk n q f) = Ok (mk n q (fun i j => f i j / sqrt (wx i * wr i))).
Proof.
  match goal with |- for_range n ?b ?a = _ => destruct (for_range_inv (fun k M => M = mk n q (fun i j => if (i <? k)%nat then f i j / sqrt (wx i * wr i) else f i j)) b n a) as (M & E & HM) end.
  - reflexivity.
  - intros k M Hk ->. rewrite combined_run by exact Hk. cbn [bind]. unfold zn. rewrite get_row_mk by exact Hk. cbn [bind]. rewrite div_scalar_mk. rewrite set_row_mk by exact Hk. eexists. split; [reflexivity|]. apply mk_ext. intros i j Hi Hj.
    destruct (Nat.eqb_spec i k) as [->|Hne].
    + rewrite (proj2 (Nat.ltb_lt k (S k))) by lia. rewrite (proj2 (Nat.ltb_ge k k)) by lia. reflexivity.
    + destruct (Nat.ltb_spec i k), (Nat.ltb_spec i (S k)); try lia; reflexivity.
  - rewrite E, HM. f_equal. apply mk_ext. intros i j Hi _. now rewrite (proj2 (Nat.ltb_lt i n) Hi).
Qed.

(** * One pass, lines 239-261 *)
Lemma fairw_01 c z : in_01 (fairw c z).
Proof. rewrite <- fair_fairw. apply fair_01. Qed.
Lemma residual_rule_01 C n r w : residual_rule C n r w -> forall i, (i < n)%nat -> in_01 (w i).
Proof. intros (sc & _ & H) i Hi. rewrite H by exact Hi. apply fairw_01. Qed.
Lemma leverage_rule_01 C tol mi n q X w : leverage C tol mi n q X w -> forall i, (i < n)%nat -> in_01 (w i).
Proof. intros (m & sc & _ & _ & H) i Hi. rewrite H by exact Hi. apply fairw_01. Qed.
Lemma prm_simpls_of eig (ps : prm_st (T:=R)) a X Y s :
  initialize (simpls eig) (new_simpls eig (pr_num_coef ps) a) (Some X) (Some Y) = (s, Ok None) -> prm_simpls eig ps (Z.of_nat a) X Y = Ok s.
Proof.
  intros E. unfold prm_simpls. cbv zeta.
  change (setattr (simpls eig) (construct (simpls eig)) (AOwn (pr_num_coef ps))) with (fst (setattr (simpls eig) (construct (simpls eig)) (AOwn (pr_num_coef ps))), Ok tt). cbn [bind].
  match goal with |- context [setattr (simpls eig) ?s (ANumComponents ?k)] => change (setattr (simpls eig) s (ANumComponents k)) with (new_simpls eig (pr_num_coef ps) a, Ok tt) end. cbn [bind].
  rewrite E. reflexivity.
Qed.
Definition scaled (n q : nat) (X : nat -> nat -> R) (wr wx : nat -> R) : mat R := mk n q (fun i j => X i j * sqrt (wr i * wx i)).
Lemma pass_run eig (ps : prm_st (T:=R)) a n p X y wr wx s : (2 <= n)%nat -> p <> 0%nat ->
  (forall i, (i < n)%nat -> in_01 (wr i)) -> (forall i, (i < n)%nat -> in_01 (wx i)) ->
  initialize (simpls eig) (new_simpls eig (pr_num_coef ps) a) (Some (scaled n p X wr wx)) (Some (scaled n 1 (fun i _ => y i) wr wx)) = (s, Ok None) ->
  exists fW fQ wr' wx',
    prm_pass eig ps (Z.of_nat a) (mk n p X) (mk n 1 (fun i _ => y i)) (mk n 1 (fun i _ => wr i)) (mk n 1 (fun i _ => wx i)) =
      Ok (mk n 1 (fun i _ => wr' i), mk n 1 (fun i _ => wx' i), mk n a (fun i k => sumn p (fun j => X i j * fW j k)), mk a 1 (fun k _ => fQ k), s) /\
    p_own s = Simpls (pr_num_coef ps) (Some (mk p a fW)) (Some (mk p 1 (fun i _ => sumn a (fun k => fW i k * fQ k)))) (Some (mk 1 a (fun _ k => fQ k))) /\
    (forall Z, snd (transform (simpls eig) s Z) = mul Z (mk p a fW)) /\
    (forall Z, snd (predict (simpls eig) s Z) = mul Z (mk p 1 (fun i _ => sumn a (fun k => fW i k * fQ k)))) /\
    residual_rule (pr_C ps) n (fun i => y i * sqrt (wr i * wx i) - sumn p (fun j => X i j * sumn a (fun k => fW j k * fQ k))) wr' /\
    leverage (pr_C ps) (pr_tol ps) (pr_max_iter ps) n a (fun i k => sumn p (fun j => X i j * fW j k)) wx'.
Proof.
  intros Hn Hp Hr Hx E0. apply prm_simpls_of in E0. unfold prm_pass. rewrite !reweighted_run by exact Hn. cbn [bind].
  change (prm_simpls eig ps (Z.of_nat a) (mk n p (fun i j => X i j * sqrt (wr i * wx i))) (mk n 1 (fun i _ => y i * sqrt (wr i * wx i))) = Ok s) in E0. rewrite E0. cbn [bind].
  destruct (prm_simpls_run eig ps a n p _ _ s Hp E0) as (Ei & fW & fQ & Eo & HT & HF & HP).
  match goal with |- context [transform ?c s ?z] => destruct (transform c s z) as (s2, rT) eqn:Et; assert (s2 = s) by (rewrite <- (HF z), Et; reflexivity); assert (rT = snd (transform c s z)) by (rewrite Et; reflexivity) end. subst s2 rT.
  rewrite HT, mul_mk. cbn [bind]. rewrite Eo. cbn [si_Q need bind]. rewrite transpose_mk. cbn [nr mk]. fold (mk n a (fun i j : nat => sumn p (fun k : nat => nmul (X i k * sqrt (wr i * wx i)) (fW k j)))). rewrite unweight_run. cbn [bind].
  assert (ET : mk n a (fun i j : nat => sumn p (fun k : nat => nmul (X i k * sqrt (wr i * wx i)) (fW k j)) / sqrt (wx i * wr i)) = mk n a (fun i k => sumn p (fun j => X i j * fW j k))).
  { apply mk_ext. intros i k Hi Hk. rewrite (Rmult_comm (wx i)). assert (H0 : 0 < sqrt (wr i * wx i)) by (apply sqrt_lt_R0, Rmult_lt_0_compat; [apply Hr|apply Hx]; exact Hi).
    unfold Rdiv. rewrite Rmult_comm, <- sumR_scal. apply sumn_ext. intros j Hj. cbn [nmul NumR]. field. lra. }
  rewrite ET.
  destruct (residual_run ps (Some (mk n a (fun i k => sumn p (fun j => X i j * fW j k)), mk a 1 (fun k _ => fQ k))) n p (fun i j => X i j * sqrt (wr i * wx i)) (fun i => y i * sqrt (wr i * wx i)) (fun i => y i * sqrt (wr i * wx i) - sumn p (fun j => X i j * sumn a (fun k => fW j k * fQ k)))) as (wr' & Er & Hr').
  - lia.
  - intros i Hi. unfold zn. rewrite get_row_mk by exact Hi. cbn [bind]. rewrite mul_mk. cbn [bind]. rewrite as_real_mk. cbn [bind]. do 2 f_equal. cbn [nmul NumR].
    rewrite (sumn_ext a _ (fun k => sumn p (fun j => X i j * fW j k * fQ k))) by (intros k Hk; rewrite sumR_scal_r; reflexivity). rewrite sumR_swap. apply sumn_ext. intros j Hj. rewrite <- sumR_scal. apply sumn_ext. intros k Hk. ring.
  - rewrite Er. cbn [bind]. destruct (leverage_run ps n a (fun i k => sumn p (fun j => X i j * fW j k)) Hn) as (wx' & Ex & Hx'). rewrite Ex. cbn [bind].
    exists fW, fQ, wr', wx'. split; [reflexivity|]. split; [reflexivity|]. split; [exact HT|]. split; [exact HP|]. now split.
Qed.
(** the pass needs its SIMPLS training to succeed *)
Lemma pass_needs eig (ps : prm_st (T:=R)) a n p X y wr wx out : (2 <= n)%nat -> p <> 0%nat ->
  prm_pass eig ps (Z.of_nat a) (mk n p X) (mk n 1 (fun i _ => y i)) (mk n 1 (fun i _ => wr i)) (mk n 1 (fun i _ => wx i)) = Ok out ->
  exists s, initialize (simpls eig) (new_simpls eig (pr_num_coef ps) a) (Some (scaled n p X wr wx)) (Some (scaled n 1 (fun i _ => y i) wr wx)) = (s, Ok None).
Proof.
  intros Hn Hp. unfold prm_pass. rewrite !reweighted_run by exact Hn. cbn [bind].
  destruct (prm_simpls eig ps (Z.of_nat a) _ _) as [s1|] eqn:Es; cbn [bind]; [|discriminate]. intros _. exists s1. exact (proj1 (prm_simpls_run eig ps a n p _ _ s1 Hp Es)).
Qed.

(** * Dependence on the entries in range only *)
Section Ext.
Variables (n q : nat) (X X' : nat -> nat -> R).
Hypothesis HX : forall i j, (i < n)%nat -> (j < q)%nat -> X i j = X' i j.
Lemma dist_ext g g' i : (i < n)%nat -> (forall j, (j < q)%nat -> g j = g' j) -> dist q X g i = dist q X' g' i.
Proof. intros Hi Hg. unfold dist. f_equal. apply Rsum_ext. intros j Hj. now rewrite HX, Hg. Qed.
Lemma weiszfeld_ext g g' j : (forall j, (j < q)%nat -> g j = g' j) -> (j < q)%nat -> weiszfeld n q X g j = weiszfeld n q X' g' j.
Proof. intros Hg Hj. unfold weiszfeld. f_equal; apply Rsum_ext; intros i Hi; now rewrite ?(dist_ext g g' i Hi Hg), ?HX. Qed.
Lemma iterate_ext k : forall j, (j < q)%nat -> iterate n q X k j = iterate n q X' k j.
Proof.
  induction k as [|k IH]; intros j Hj; cbn [iterate]; [f_equal; apply Rsum_ext; intros i Hi; now rewrite HX|]. now apply weiszfeld_ext.
Qed.
Lemma step_length_ext k : step_length n q X k = step_length n q X' k.
Proof. unfold step_length. apply Rsum_ext. intros j Hj. now rewrite !iterate_ext. Qed.
Lemma leverage_ext C tol mi w : leverage C tol mi n q X w -> leverage C tol mi n q X' w.
Proof.
  intros (m & sc & (S1 & S2 & S3) & Hm & Hw). assert (Hd : forall i, (i < n)%nat -> dist q X (iterate n q X m) i = dist q X' (iterate n q X' m) i) by (intros i Hi; apply dist_ext; [exact Hi|apply iterate_ext]).
  exists m, sc. split; [|split].
  - split; [exact S1|]. split; [intros k Hk; rewrite <- step_length_ext; now apply S2|]. destruct S3 as [S3|(k & -> & S3)]; [now left|right]. exists k. split; [reflexivity|]. now rewrite <- step_length_ext.
  - now apply (med_ext n (dist q X (iterate n q X m))).
  - intros i Hi. rewrite <- Hd by exact Hi. now apply Hw.
Qed.
End Ext.
Lemma mad_ext n f g v : (forall i, (i < n)%nat -> f i = g i) -> mad_of n f v -> mad_of n g v.
Proof. intros H (m & Hm & Hv). exists m. split; [now apply (med_ext n f)|]. apply (med_ext n (fun i => Rabs (f i - m))); [|exact Hv]. intros i Hi. now rewrite H. Qed.
Lemma residual_rule_ext C n r r' w : (forall i, (i < n)%nat -> r i = r' i) -> residual_rule C n r w -> residual_rule C n r' w.
Proof. intros H (sc & Hs & Hw). exists sc. split; [now apply (mad_ext n r)|]. intros i Hi. rewrite <- H by exact Hi. now apply Hw. Qed.

(** * The training of PRM *)
(** the rows of X times the square root of the weights w *)
Definition weighted (w : nat -> R) (X : mat R) : mat R := mk (nr X) (nc X) (fun i j => sqrt (w i) * entry X i j).
(** One pass on tall data: SIMPLS is trained (without preprocessing) on the weighted rows; the new
    residual weights come from  sqrt(w_i) y_i - prediction_i,  the new leverage weights from the
    scores of the unweighted data. *)
Definition pass_rule eig (ps : prm_st (T:=R)) (a : nat) (X Y : mat R) (wr wx : nat -> R) (s : pls_st (simpls_st R) R) (wr' wx' : nat -> R) : Prop :=
  let w := fun i => wr i * wx i in
  initialize (simpls eig) (new_simpls eig (pr_num_coef ps) a) (Some (weighted w X)) (Some (weighted w Y)) = (s, Ok None) /\
  exists T V, snd (transform (simpls eig) s X) = Ok T /\ snd (predict (simpls eig) s X) = Ok V /\ nr V = nr X /\ nc V = 1%nat /\ nr T = nr X /\ nc T = a /\
    residual_rule (pr_C ps) (nr X) (fun i => sqrt (w i) * entry Y i 0 - entry V i 0) wr' /\
    leverage (pr_C ps) (pr_tol ps) (pr_max_iter ps) (nr X) a (entry T) wx'.

Section Run.
Variables (eig : mat R -> res (list R * mat R)) (svd : mat R -> res (mat R * list R * mat R)) (ps : prm_st (T:=R)) (a : nat) (X Y : mat R).
Hypotheses (WX : wf X) (WY : wf Y) (Hn : (2 <= nr X)%nat) (Hp : nc X <> 0%nat) (HY : nr Y = nr X) (CY : nc Y = 1%nat).
Let n := nr X.
Definition ok_weights (w : nat -> R) : Prop := forall i, (i < n)%nat -> in_01 (w i).
Definition col (w : nat -> R) : mat R := mk n 1 (fun i _ => w i).
Lemma X_mk : mk n (nc X) (entry X) = X. Proof. symmetry. now apply wf_mk. Qed.
Lemma Y_mk : mk n 1 (fun i _ => entry Y i 0) = Y.
Proof. symmetry. etransitivity; [apply (wf_mk Y WY)|]. rewrite HY, CY. apply mk_ext. intros i j Hi Hj. now replace j with 0%nat by lia. Qed.
Lemma weighted_X wr wx : weighted (fun i => wr i * wx i) X = scaled n (nc X) (entry X) wr wx.
Proof. apply mk_ext. intros. apply Rmult_comm. Qed.
Lemma weighted_Y wr wx : weighted (fun i => wr i * wx i) Y = scaled n 1 (fun i _ => entry Y i 0) wr wx.
Proof. unfold weighted, scaled. rewrite HY, CY. apply mk_ext. intros i j Hi Hj. replace j with 0%nat by lia. apply Rmult_comm. Qed.
Lemma pass_public wr wx s : ok_weights wr -> ok_weights wx ->
  initialize (simpls eig) (new_simpls eig (pr_num_coef ps) a) (Some (weighted (fun i => wr i * wx i) X)) (Some (weighted (fun i => wr i * wx i) Y)) = (s, Ok None) ->
  exists wr' wx' Ts g, prm_pass eig ps (Z.of_nat a) X Y (col wr) (col wx) = Ok (col wr', col wx', Ts, mk a 1 g, s) /\
    pass_rule eig ps a X Y wr wx s wr' wx' /\ ok_weights wr' /\ ok_weights wx' /\
    (exists B, si_B (p_own s) = Some B /\ table (nc X) 1 B /\ forall Z, snd (predict (simpls eig) s Z) = mul Z B) /\ (exists W, si_W (p_own s) = Some W /\ table (nc X) a W /\ forall Z, snd (transform (simpls eig) s Z) = mul Z W).
Proof.
  intros Hr Hx E. pose proof E as E0. rewrite weighted_X, weighted_Y in E.
  destruct (pass_run eig ps a n (nc X) (entry X) (fun i => entry Y i 0) wr wx s Hn Hp Hr Hx E) as (fW & fQ & wr' & wx' & Ep & Eo & HT & HP & R1 & R2).
  rewrite X_mk, Y_mk in Ep. exists wr', wx'. do 2 eexists. split; [exact Ep|]. split.
  - split; [exact E0|]. rewrite HT, HP. assert (EX : forall M, mul X M = mul (mk n (nc X) (entry X)) M) by (intros M; now rewrite X_mk). rewrite !EX, !mul_mk. do 2 eexists. split; [reflexivity|]. split; [reflexivity|]. do 4 (split; [reflexivity|]). split.
    + eapply residual_rule_ext; [|exact R1]. intros i Hi. cbv beta. rewrite entry_mk by (try exact Hi; lia). cbn [nmul NumR]. rewrite (Rmult_comm (sqrt _)). reflexivity.
    + eapply leverage_ext; [|exact R2]. intros i j Hi Hj. cbv beta. rewrite entry_mk by assumption. reflexivity.
  - split; [exact (residual_rule_01 _ _ _ _ R1)|]. split; [exact (leverage_rule_01 _ _ _ _ _ _ _ R2)|]. rewrite Eo. split; eexists; (split; [reflexivity|]; split; [eexists; reflexivity|assumption]).
Qed.
(** the passes of one training *)
Definition passes (K : nat) (wr wx : nat -> nat -> R) (sim : nat -> pls_st (simpls_st R) R) : Prop :=
  forall k, (k < K)%nat -> pass_rule eig ps a X Y (wr k) (wx k) (sim k) (wr (S k)) (wx (S k)).
Lemma while_run fuel : forall wr wx g it W_r W_x Ts g' s it', ok_weights wr -> ok_weights wx ->
  prm_while eig fuel ps (Z.of_nat a) X Y (col wr) (col wx) g it = Ok (W_r, W_x, Ts, g', s, it') ->
  exists K wrs wxs sim, it' = (it + Z.of_nat (S K))%Z /\ wrs 0%nat = wr /\ wxs 0%nat = wx /\ passes (S K) wrs wxs sim /\ W_r = col (wrs (S K)) /\ W_x = col (wxs (S K)) /\ s = sim K /\
    (exists B, si_B (p_own s) = Some B /\ table (nc X) 1 B /\ forall Z, snd (predict (simpls eig) s Z) = mul Z B) /\ (exists W, si_W (p_own s) = Some W /\ table (nc X) a W /\ forall Z, snd (transform (simpls eig) s Z) = mul Z W).
Proof.
  induction fuel as [|fuel IH]; intros wr wx g it W_r W_x Ts g' s it' Hr Hx E; cbn [prm_while] in E; [discriminate|].
  destruct (prm_pass eig ps (Z.of_nat a) X Y (col wr) (col wx)) as [out|] eqn:Ep; cbn [bind] in E; [|discriminate].
  destruct (pass_needs eig ps a n (nc X) (entry X) (fun i => entry Y i 0) wr wx out Hn Hp) as (s1 & Es); [rewrite X_mk, Y_mk; exact Ep|]. rewrite <- weighted_X, <- weighted_Y in Es.
  destruct (pass_public wr wx s1 Hr Hx Es) as (wr1 & wx1 & Ts1 & g1 & Ep' & Hrule & Hr1 & Hx1 & HB & HW). rewrite Ep in Ep'. injection Ep' as ->.
  destruct (prm_again ps _ g (it + 1)) as [[|]|]; cbn [bind] in E; [| |discriminate].
  - destruct (IH _ _ _ _ _ _ _ _ _ _ Hr1 Hx1 E) as (K & wrs & wxs & sim & Ei & E1 & E2 & Hps & E3 & E4 & E5 & HB' & HW').
    exists (S K), (fun k => match k with O => wr | S k => wrs k end), (fun k => match k with O => wx | S k => wxs k end), (fun k => match k with O => s1 | S k => sim k end).
    split; [lia|]. split; [reflexivity|]. split; [reflexivity|]. split; [|auto 6].
    intros [|k] Hk; [rewrite E1, E2; exact Hrule|]. apply Hps. lia.
  - assert (W_r = col wr1 /\ W_x = col wx1 /\ s = s1 /\ it' = (it + 1)%Z) as (-> & -> & -> & ->) by (repeat split; congruence).
    exists 0%nat, (fun k => match k with O => wr | S _ => wr1 end), (fun k => match k with O => wx | S _ => wx1 end), (fun _ => s1).
    split; [lia|]. split; [reflexivity|]. split; [reflexivity|]. split; [|auto 6]. intros k Hk. replace k with 0%nat by lia. exact Hrule.
Qed.
Lemma start_run : exists wr wx med, residual_weights ps None X Y = Ok (col wr) /\ leverage_weights ps X = Ok (col wx) /\ ok_weights wr /\ ok_weights wx /\
  med_of n (fun i => entry Y i 0) med /\ residual_rule (pr_C ps) n (fun i => entry Y i 0 - med) wr /\ leverage (pr_C ps) (pr_tol ps) (pr_max_iter ps) n (nc X) (entry X) wx.
Proof.
  set (med := median Y). assert (Hm : med_of n (fun i => entry Y i 0) med). { unfold med. replace (median Y) with (median (mk n 1 (fun i _ => entry Y i 0))) by (f_equal; now apply Y_mk). apply (median_col n (fun i _ => entry Y i 0)). unfold n; lia. }
  destruct (residual_run ps None n (nc X) (entry X) (fun i => entry Y i 0) (fun i => entry Y i 0 - med)) as (wr & Er & Rr); [unfold n; lia| |].
  { intros i Hi. cbn [bind]. rewrite Y_mk. reflexivity. }
  destruct (leverage_run ps n (nc X) (entry X) Hn) as (wx & Ex & Rx). rewrite X_mk in Er, Ex. rewrite Y_mk in Er.
  exists wr, wx, med. do 2 (split; [assumption|]). split; [exact (residual_rule_01 _ _ _ _ Rr)|]. split; [exact (leverage_rule_01 _ _ _ _ _ _ _ Rx)|]. auto.
Qed.
End Run.

(** C85.  Training of PRM without preprocessing on n >= p rows that succeeded consists of K passes, K between
    1 and max(1, max_iter).  The initial residual weights are the Fair weights of y - median(y) over
    its median absolute deviation, the initial leverage weights those of the distances to the
    geometric-median iterate over their median.  Each pass trains SIMPLS on the rows weighted by the
    root of both weights and reweights (see [pass_rule]).  The trained object predicts and
    transforms like the SIMPLS object of the last pass. *)
Theorem C85_prm eig svd (s0 s : pls_st (prm_st (T:=R)) R) (X Y : mat R) (a : nat) :
  let ps := p_own s0 in let n := nr X in
  p_preprocessing s0 = PP_NONE -> p_num_components s0 = Z.of_nat a -> wf X -> wf Y -> (2 <= n)%nat -> nc X <> 0%nat -> (nc X <= n)%nat -> nr Y = n ->
  initialize (prm eig svd) s0 (Some X) (Some Y) = (s, Ok None) ->
  nc Y = 1%nat /\ exists K wr wx sim med m, (Z.of_nat (S K) <= Z.max 1 (pr_max_iter ps))%Z /\
    med_of n (fun i => entry Y i 0) med /\ residual_rule (pr_C ps) n (fun i => entry Y i 0 - med) (wr 0%nat) /\
    leverage (pr_C ps) (pr_tol ps) (pr_max_iter ps) n (nc X) (entry X) (wx 0%nat) /\
    passes eig ps a X Y (S K) wr wx sim /\
    pr_model (p_own s) = Some m /\ is_mat (pm_W_r m) n 1 (fun i _ => wr (S K) i) /\ is_mat (pm_W_x m) n 1 (fun i _ => wx (S K) i) /\
    (forall Z, snd (predict (prm eig svd) s Z) = snd (predict (simpls eig) (sim K) Z)) /\
    (forall Z, snd (transform (prm eig svd) s Z) = snd (transform (simpls eig) (sim K) Z)).
Proof.
  intros ps n Hpp Ha WX WY Hn Hp Hw HY Ei. destruct (single_none_conv (prm eig svd) s0 s X Y eq_refl Hpp Ei) as (CY & own & Etr). split; [exact CY|].
  destruct (single_none (prm eig svd) s0 X Y own _ eq_refl Hpp CY Etr) as (_ & Hs). destruct (Hs eq_refl) as (s' & Ei' & Eo & HT & HP). rewrite Ei in Ei'. injection Ei' as <-.
  cbn [prm c_train] in Etr. rewrite Ha in Etr. set (o := c_reset (prm eig svd) (p_own s0)) in Etr.
  destruct (prm_fit eig svd o (Z.of_nat a) X Y) as [[m its]|] eqn:Ef; [|discriminate]. injection Etr as <-.
  pose proof (C55_iterations_partial _ _ _ _ _ _ _ _ Ef) as (_ & _ & _ & _ & _ & Hits & _).
  unfold prm_fit in Ef. rewrite (proj2 (Nat.ltb_ge (nr X) (nc X)) Hw) in Ef. cbn [bind] in Ef.
  destruct (start_run o X Y WX WY Hn Hp HY CY) as (wr & wx & med & Er & Ex & Or & Ox & Hm & Rr & Rx). rewrite Er in Ef. cbn [bind] in Ef. rewrite Ex in Ef. cbn [bind] in Ef.
  match type of Ef with bind ?x _ = _ => destruct x as [[[[[[W_r W_x] Ts] g] sm] it]|] eqn:Ew end; cbn [bind] in Ef; [|discriminate].
  destruct (while_run eig o a X Y WX WY Hn Hp HY CY _ _ _ _ _ _ _ _ _ _ _ Or Ox Ew) as (K & wrs & wxs & sim & EK & E1 & E2 & Hps & E3 & E4 & E5 & (B & EB & _ & HB) & (W & EW & _ & HW)).
  rewrite EB in Ef. cbn [need bind] in Ef. assert (Em : m = PrmModel W_r W_x Ts g B sm) by congruence. assert (Eit : its = it) by congruence.
  exists K, wrs, wxs, sim, med, m. rewrite Eo. cbn [pr_model]. rewrite Em. cbn [pm_W_r pm_W_x].
  split; [change (pr_max_iter ps) with (pr_max_iter o); lia|]. split; [exact Hm|]. rewrite E1, E2. split; [exact Rr|]. split; [exact Rx|]. split; [exact Hps|]. split; [reflexivity|].
  split. { rewrite E3. apply is_mat_mk. } split. { rewrite E4. apply is_mat_mk. }
  rewrite <- E5. split; intros Z.
  - rewrite HP, HB. cbn [prm c_predict snd pr_model need bind]. rewrite Em. reflexivity.
  - rewrite HT, HW. cbn [prm c_transform snd pr_model need bind]. rewrite Em. cbn [pm_simpls]. rewrite EW. reflexivity.
Qed.

(** It succeeds whenever the SIMPLS trainings do. *)
Lemma while_ok eig (ps : prm_st (T:=R)) a (X Y : mat R) : wf X -> wf Y -> (2 <= nr X)%nat -> nc X <> 0%nat -> nr Y = nr X -> nc Y = 1%nat ->
  (forall w, ok_weights X w -> exists s, initialize (simpls eig) (new_simpls eig (pr_num_coef ps) a) (Some (weighted w X)) (Some (weighted w Y)) = (s, Ok None)) ->
  forall fuel wr wx g it, ok_weights X wr -> ok_weights X wx -> (pr_max_iter ps < it + 1 + Z.of_nat fuel)%Z -> fuel <> 0%nat ->
  exists W_r W_x Ts g' s it', prm_while eig fuel ps (Z.of_nat a) X Y (col X wr) (col X wx) (mk a 1 g) it = Ok (W_r, W_x, Ts, g', s, it') /\ exists B, si_B (p_own s) = Some B.
Proof.
  intros WX WY Hn Hp HY CY Hall. induction fuel as [|fuel IH]; intros wr wx g it Hr Hx Hf H0; [contradiction|]. cbn [prm_while].
  destruct (Hall (fun i => wr i * wx i)) as (s & Es). { intros i Hi. specialize (Hr i Hi). specialize (Hx i Hi). unfold in_01 in *. split; [apply Rmult_lt_0_compat; lra|]. rewrite <- (Rmult_1_l 1). apply Rmult_le_compat; lra. }
  destruct (pass_public eig ps a X Y WX WY Hn Hp HY CY wr wx s Hr Hx Es) as (wr1 & wx1 & Ts1 & g1 & Ep & _ & Hr1 & Hx1 & (B & EB & _) & _). rewrite Ep. cbn [bind].
  unfold prm_again. rewrite sub_mk. cbn [bind]. match goal with |- context [if ?b then _ else _] => destruct b eqn:Eb end.
  - apply andb_prop in Eb as [_ Eb]. apply Z.ltb_lt in Eb. destruct (IH wr1 wx1 g1 (it + 1)%Z Hr1 Hx1) as (A1 & A2 & A3 & A4 & A5 & A6 & E & HB); [lia|lia|]. do 6 eexists. split; [exact E|exact HB].
  - do 6 eexists. split; [reflexivity|]. eauto.
Qed.
Theorem C85_trains eig svd (s0 : pls_st (prm_st (T:=R)) R) (X Y : mat R) (a : nat) :
  p_preprocessing s0 = PP_NONE -> p_num_components s0 = Z.of_nat a -> wf X -> wf Y -> (2 <= nr X)%nat -> nc X <> 0%nat -> (nc X <= nr X)%nat -> nr Y = nr X -> nc Y = 1%nat -> a <> 0%nat ->
  (forall w, (forall i, (i < nr X)%nat -> 0 < w i <= 1) -> exists s, initialize (simpls eig) (new_simpls eig (pr_num_coef (p_own s0)) a) (Some (weighted w X)) (Some (weighted w Y)) = (s, Ok None)) ->
  exists s, initialize (prm eig svd) s0 (Some X) (Some Y) = (s, Ok None).
Proof.
  intros Hpp Ha WX WY Hn Hp Hw HY CY Ha0 Hall. set (o := c_reset (prm eig svd) (p_own s0)).
  destruct (start_run o X Y WX WY Hn Hp HY CY) as (wr & wx & med & Er & Ex & Or & Ox & _).
  destruct (while_ok eig o a X Y WX WY Hn Hp HY CY Hall (S (Z.to_nat (pr_max_iter o))) wr wx (fun _ _ => 0) 0%Z Or Ox) as (W_r & W_x & Ts & g & sm & it & E & (B & EB)); [lia|lia|].
  assert (Et : exists own, c_train (prm eig svd) (p_num_components s0) o X Y = (own, Ok None)).
  { rewrite Ha. cbn [prm c_train]. unfold prm_fit. rewrite (proj2 (Nat.ltb_ge (nr X) (nc X)) Hw). cbn [bind]. rewrite Er. cbn [bind]. rewrite Ex. cbn [bind].
    change 1%Z with (Z.of_nat 1) at 1. rewrite (zeros_mk (T:=R) a 1) by exact Ha0. match type of E with prm_while _ ?f _ _ _ _ _ _ _ _ = _ => match goal with |- context [prm_while eig ?f' o ?c X Y ?u ?v ?w ?z] => change (prm_while eig f' o c X Y u v w z) with (prm_while eig f o (Z.of_nat a) X Y (col X wr) (col X wx) (mk a 1 (fun _ _ => 0)) 0) end end.
    rewrite E. cbn [bind]. rewrite EB. cbn [need bind]. eexists. reflexivity. }
  destruct Et as (own & Et). destruct (single_none (prm eig svd) s0 X Y own _ eq_refl Hpp CY Et) as (_ & Hs). destruct (Hs eq_refl) as (s & Ei & _). now exists s.
Qed.

(** Without sparsity (num_SIMPLS_coefficients <= 0) and breakdown, the predictions are those of PLS1
    trained on the weighted rows of the last pass. *)
Theorem C85_pls1 eig svd lstsq (s0 s : pls_st (prm_st (T:=R)) R) (t0 : pls_st (pls1_st R) R) (X Y : mat R) (a : nat) :
  let ps := p_own s0 in let n := nr X in
  p_preprocessing s0 = PP_NONE -> p_num_components s0 = Z.of_nat a -> p_preprocessing t0 = PP_NONE -> p_num_components t0 = Z.of_nat a ->
  wf X -> wf Y -> (2 <= n)%nat -> nc X <> 0%nat -> (nc X <= n)%nat -> nr Y = n -> a <> 0%nat -> eig_one eig -> (pr_num_coef ps <= 0)%Z ->
  initialize (prm eig svd) s0 (Some X) (Some Y) = (s, Ok None) ->
  exists w, (forall i, (i < n)%nat -> 0 < w i <= 1) /\
    (no_breakdown n (nc X) (fun i j => sqrt (w i) * entry X i j) (fun i => sqrt (w i) * entry Y i 0) a ->
     exists t, initialize (pls1 lstsq) t0 (Some (weighted w X)) (Some (weighted w Y)) = (t, Ok None) /\
       forall Z, wf Z -> nc Z = nc X -> nr Z <> 0%nat -> exists V, snd (predict (prm eig svd) s Z) = Ok V /\ snd (predict (pls1 lstsq) t Z) = Ok V).
Proof.
  intros ps n Hpp Ha Tpp Ta WX WY Hn Hp Hw HY Ha0 Heig Hco Ei.
  destruct (C85_prm eig svd s0 s X Y a Hpp Ha WX WY Hn Hp Hw HY Ei) as (CY & K & wr & wx & sim & med & m & _ & _ & Rr & Rx & Hps & _ & _ & _ & HP & _).
  assert (Hin : forall k, (k <= K)%nat -> forall i, (i < n)%nat -> in_01 (wr k i) /\ in_01 (wx k i)).
  { intros [|k] Hk i Hi; [split; [exact (residual_rule_01 _ _ _ _ Rr i Hi)|exact (leverage_rule_01 _ _ _ _ _ _ _ Rx i Hi)]|].
    destruct (Hps k ltac:(lia)) as (_ & T & V & _ & _ & _ & _ & _ & _ & R1 & R2). split; [exact (residual_rule_01 _ _ _ _ R1 i Hi)|exact (leverage_rule_01 _ _ _ _ _ _ _ R2 i Hi)]. }
  exists (fun i => wr K i * wx K i). split.
  { intros i Hi. destruct (Hin K (le_n K) i Hi) as [H1 H2]. unfold in_01 in *. split; [apply Rmult_lt_0_compat; lra|]. rewrite <- (Rmult_1_l 1). apply Rmult_le_compat; lra. }
  intros Hnb. destruct (Hps K ltac:(lia)) as (Es & _). cbv beta zeta in Es.
  set (w := fun i => wr K i * wx K i) in *.
  assert (Hnb' : no_breakdown (nr (weighted w X)) (nc (weighted w X)) (L_Public.prepared PP_NONE (weighted w X)) (fun i => L_Public.prepared PP_NONE (weighted w Y) i 0) a).
  { revert Hnb. cbn [weighted nr nc mk L_Public.prepared]. fold (weighted w X). fold (weighted w Y).
    assert (G : forall k i j, (i < n)%nat -> (j < nc X)%nat -> residual n (nc X) (entry (weighted w X)) (fun i => entry (weighted w Y) i 0) k i j = residual n (nc X) (fun i j => sqrt (w i) * entry X i j) (fun i => sqrt (w i) * entry Y i 0) k i j).
    { assert (GY : forall i, (i < n)%nat -> entry (weighted w Y) i 0 = sqrt (w i) * entry Y i 0) by (intros i Hi; unfold weighted; rewrite entry_mk by (rewrite ?HY, ?CY; try exact Hi; lia); reflexivity).
      induction k as [|k IH]; intros i j Hi Hj; cbn [residual]; [unfold weighted; rewrite entry_mk by assumption; reflexivity|].
      set (E := residual n (nc X) (entry (weighted w X)) _ k) in *. set (E' := residual n (nc X) (fun i j => sqrt (w i) * entry X i j) (fun i => sqrt (w i) * entry Y i 0) k) in *.
      assert (HC : forall j, (j < nc X)%nat -> cov n E (fun i => entry (weighted w Y) i 0) j = cov n E' (fun i => sqrt (w i) * entry Y i 0) j) by (intros l Hl; unfold cov; apply Rsum_ext; intros r Hr; rewrite IH, GY by assumption; reflexivity).
      assert (HU : forall j, (j < nc X)%nat -> unit_cov n (nc X) E (fun i => entry (weighted w Y) i 0) j = unit_cov n (nc X) E' (fun i => sqrt (w i) * entry Y i 0) j) by (intros l Hl; unfold unit_cov; rewrite HC by exact Hl; do 2 f_equal; apply Rsum_ext; intros r Hr; rewrite HC by exact Hr; reflexivity).
      assert (HS : forall i, (i < n)%nat -> scores_of (nc X) E (unit_cov n (nc X) E (fun i => entry (weighted w Y) i 0)) i = scores_of (nc X) E' (unit_cov n (nc X) E' (fun i => sqrt (w i) * entry Y i 0)) i) by (intros l Hl; unfold scores_of; apply Rsum_ext; intros r Hr; rewrite IH, HU by assumption; reflexivity).
      rewrite IH, HS by assumption. do 2 f_equal. unfold loadings_of. f_equal; [apply Rsum_ext; intros r Hr; rewrite IH, HS by assumption; reflexivity|apply Rsum_ext; intros r Hr; rewrite HS by assumption; reflexivity]. }
    intros Hnb k Hk. destruct (Hnb k Hk) as (j & Hj & Hne). exists j. split; [exact Hj|]. intros Hc. apply Hne. rewrite <- Hc. unfold cov. apply Rsum_ext. intros i Hi. rewrite G by assumption.
    assert (GY : entry (weighted w Y) i 0 = sqrt (w i) * entry Y i 0) by (unfold weighted; rewrite entry_mk by (rewrite ?HY, ?CY; try exact Hi; lia); reflexivity). rewrite GY. reflexivity. }
  destruct (C69_pls1_simpls lstsq eig t0 (new_simpls eig (pr_num_coef ps) a) (weighted w X) (weighted w Y) a PP_NONE) as (t & sm & eps & Et & Esm & _ & HZ); try assumption; try reflexivity; try apply mk_wf; try exact I.
  { cbn [weighted nr mk]. unfold n in Hn. lia. }
  exists t. split; [exact Et|]. intros Z WZ CZ RZ. rewrite HP. pose proof (eq_trans (eq_sym Es) Esm) as Q. injection Q as ->.
  destruct (HZ Z WZ CZ RZ) as ((V & E1 & E2) & _). exists V. now split.
Qed.
Print Assumptions C85_prm.
Print Assumptions C85_trains.
Print Assumptions C85_pls1.

