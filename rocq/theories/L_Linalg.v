(** Gaussian elimination over the reals is correct and complete. *)
From Coq Require Import List ZArith Lia Bool Arith Reals Lra Permutation.
From Verif Require Import Base Num Mat M_Matrix M_Factory M_Linalg S_Matrix L_Base L_Mat L_Matrix L_MatR.
Import ListNotations.
Open Scope R_scope.

Ltac dcmp := match goal with |- context[if ?c then _ else _] => destruct c | Q : context[if ?c then _ else _] |- _ => destruct c end.
Notation eqnR := (eqn (T:=R)).
Definition holds (x : list R) (e : eqnR) : Prop := ldot (fst e) x = snd e.

Lemma pivot_perm (es : list eqnR) p rest : pivot es = Some (p, rest) -> Permutation es (p :: rest).
Proof.
  revert p rest. induction es as [|e es IH]; intros p rest; cbn; [discriminate|].
  destruct (pivot es) as [[q r]|] eqn:Ep.
  - dcmp; intros [= <- <-]; [|apply Permutation_refl].
    etransitivity; [apply perm_skip, IH; reflexivity|apply perm_swap].
  - intros [= <- <-]. destruct es as [|e' es']; [apply Permutation_refl|].
    cbn in Ep. destruct (pivot es') as [[? ?]|]; [dcmp|]; discriminate.
Qed.
Lemma pivot_max (es : list eqnR) p rest : pivot es = Some (p, rest) -> forall e, In e es -> Rabs (lead e) <= Rabs (lead p).
Proof.
  revert p rest. induction es as [|e es IH]; intros p rest; cbn; [discriminate|].
  destruct (pivot es) as [[q r]|] eqn:Ep.
  - specialize (IH q r eq_refl). cbn [nltb nabs NumR].
    destruct (Rltb (Rabs (lead e)) (Rabs (lead q))) eqn:E; intros [= <- <-] x [<-|Hx].
    + apply Rltb_true in E. lra.
    + auto.
    + lra.
    + apply Rltb_false in E. specialize (IH x Hx). lra.
  - intros [= <- <-] x [<-|Hx]; [lra|]. destruct es as [|e' es']; [destruct Hx|].
    cbn in Ep. destruct (pivot es') as [[? ?]|]; [dcmp|]; discriminate.
Qed.
Lemma pivot_some (es : list eqnR) : es <> [] -> exists p rest, pivot es = Some (p, rest).
Proof.
  destruct es as [|e es]; [congruence|]. intros _. cbn. destruct (pivot es) as [[q r]|]; [dcmp|]; eauto.
Qed.

(** well-shaped systems *)
Definition shaped (n : nat) (es : list eqnR) : Prop := length es = n /\ Forall (fun e => length (fst e) = n) es.
Lemma ldot_comb (u v x : list R) f : length u = length v ->
  ldot (map (fun ab => fst ab - f * snd ab) (combine u v)) x = ldot u x - f * ldot v x.
Proof.
  revert v x. induction u as [|a u IH]; intros [|b v] x E; try discriminate; cbn.
  - cbn [n0 NumR]. ring.
  - destruct x as [|c x]; cbn [n0 nadd nmul NumR]; [ring|]. rewrite IH by (cbn in E; lia). cbn. ring.
Qed.
Lemma ldot_cons_hd (u : list R) a x : (u <> []) -> ldot u (a :: x) = hd 0 u * a + ldot (tl u) x.
Proof. destruct u; [congruence|]. reflexivity. Qed.
Lemma lead_hd (e : eqnR) : lead e = hd 0 (fst e).
Proof. unfold lead. destruct (fst e); reflexivity. Qed.

Lemma eliminate_len (p e : eqnR) n : length (fst p) = S n -> length (fst e) = S n -> length (fst (eliminate p e)) = n.
Proof.
  intros Hp He. unfold eliminate. cbn [fst]. rewrite map_length, combine_length.
  destruct (fst p), (fst e); cbn in *; lia.
Qed.
Lemma eliminate_ldot (p e : eqnR) n x : length (fst p) = S n -> length (fst e) = S n ->
  ldot (fst (eliminate p e)) x = ldot (tl (fst e)) x - lead e / lead p * ldot (tl (fst p)) x.
Proof.
  intros Hp He. unfold eliminate. cbn [fst]. cbn [nsub nmul ndiv NumR]. apply ldot_comb.
  destruct (fst p), (fst e); cbn in *; lia.
Qed.
(** an equation holds iff its reduced form does, once the pivot equation holds *)
Lemma eliminate_holds (p e : eqnR) n a x : length (fst p) = S n -> length (fst e) = S n -> lead p <> 0 ->
  holds (a :: x) p -> (holds (a :: x) e <-> holds x (eliminate p e)).
Proof.
  intros Hp He Ha H1. unfold holds in *. rewrite (eliminate_ldot p e n) by assumption.
  rewrite ldot_cons_hd in H1 by (intros Q; rewrite Q in Hp; discriminate).
  rewrite ldot_cons_hd by (intros Q; rewrite Q in He; discriminate).
  rewrite <- !lead_hd in *. unfold eliminate. cbn [snd]. cbn [nsub nmul ndiv NumR].
  assert (E : lead e = lead e / lead p * lead p) by (field; assumption).
  set (f := lead e / lead p) in *. split; intros Q.
  - rewrite <- Q, <- H1, E. unfold f. field. assumption.
  - rewrite E. replace (snd e) with ((snd e - f * snd p) + f * snd p) by ring. rewrite <- Q, <- H1. ring.
Qed.
Lemma shaped_step n es p rest : shaped (S n) es -> pivot es = Some (p, rest) ->
  length (fst p) = S n /\ Forall (fun e => length (fst e) = S n) rest /\ shaped n (map (eliminate p) rest).
Proof.
  intros [Hl Hf] Hp. apply pivot_perm in Hp as HP. rewrite HP in Hf. inversion_clear Hf as [|? ? Q1 Q2].
  split; [exact Q1|]. split; [exact Q2|]. split.
  - rewrite map_length. apply Permutation_length in HP. cbn in HP. lia.
  - apply Forall_map. eapply Forall_impl; [|exact Q2]. intros e He. apply eliminate_len; assumption.
Qed.

(** Soundness *)
Lemma gauss_sound n es xs : shaped n es -> gauss n es = Some xs -> length xs = n /\ Forall (holds xs) es.
Proof.
  revert es xs. induction n as [|n IH]; intros es xs Hs; cbn [gauss].
  - intros [= <-]. destruct Hs as [Hl _]. destruct es; [|discriminate]. split; [reflexivity|constructor].
  - destruct (pivot es) as [[p rest]|] eqn:Ep; [|discriminate]. destruct (neqb (lead p) n0) eqn:E0; [discriminate|].
    destruct (gauss n (map (eliminate p) rest)) as [ys|] eqn:Eg; [|discriminate]. intros [= <-].
    destruct (shaped_step n es p rest Hs Ep) as (Lp & Lr & Hs'). destruct (IH _ _ Hs' Eg) as [Ly Hy].
    cbn [neqb n0 NumR] in E0. apply Reqb_false in E0.
    split; [cbn; lia|]. rewrite (pivot_perm es p rest Ep).
    assert (Hp : holds ((snd p - ldot (tl (fst p)) ys) / lead p :: ys) p).
    { unfold holds. rewrite ldot_cons_hd by (intros Q; rewrite Q in Lp; discriminate). rewrite <- lead_hd. field. assumption. }
    constructor; [exact Hp|]. rewrite Forall_forall in *. intros e He.
    apply (eliminate_holds p e n); auto. apply Hy. apply in_map. assumption.
Qed.
(** The pivots do not depend on the right-hand sides. *)
Definition same_lhs (es fs : list eqnR) : Prop := map fst es = map fst fs.
Lemma lead_same (e f : eqnR) : fst e = fst f -> lead e = lead f.
Proof. unfold lead. now intros ->. Qed.
Lemma pivot_same es fs : same_lhs es fs ->
  match pivot es, pivot fs with
  | None, None => True
  | Some (p, r), Some (q, s) => fst p = fst q /\ same_lhs r s
  | _, _ => False
  end.
Proof.
  unfold same_lhs. revert fs. induction es as [|e es IH]; intros [|f fs] E; try discriminate; cbn; [exact I|].
  cbn in E. injection E as E1 E2. specialize (IH fs E2).
  destruct (pivot es) as [[p r]|], (pivot fs) as [[q s]|]; try contradiction; [|split; [assumption|reflexivity]].
  destruct IH as [IH1 IH2]. rewrite (lead_same e f E1), (lead_same p q IH1).
  dcmp; (split; [assumption|]); [|assumption]. cbn. now rewrite E1, IH2.
Qed.
Lemma gauss_same n es fs : same_lhs es fs -> gauss n es = None -> gauss n fs = None.
Proof.
  revert es fs. induction n as [|n IH]; intros es fs E; cbn [gauss]; [discriminate|].
  pose proof (pivot_same es fs E) as Hp. destruct (pivot es) as [[p r]|], (pivot fs) as [[q s]|]; try contradiction; [|auto].
  destruct Hp as [P1 P2]. rewrite (lead_same p q P1). dcmp; [auto|].
  destruct (gauss n (map (eliminate p) r)) eqn:G; [discriminate|]. intros _.
  rewrite (IH _ (map (eliminate q) s)) with (2 := G); [reflexivity|].
  unfold same_lhs in *. rewrite !map_map. clear -P1 P2. revert s P2. induction r as [|e r IH]; intros [|f s] E; try discriminate; cbn; [reflexivity|].
  injection E as E1 E2. f_equal; [|apply IH; assumption]. unfold eliminate. cbn [fst]. rewrite (lead_same e f E1), (lead_same p q P1). now rewrite E1, P1.
Qed.

(** Completeness: a zero pivot exhibits a non-zero kernel vector. *)
Definition homog (es : list eqnR) : Prop := Forall (fun e => snd e = 0) es.
Lemma ldot_zero u m : ldot u (repeat 0 m) = 0.
Proof. revert m. induction u as [|a u IH]; intros [|m]; cbn; try reflexivity. rewrite IH. cbn. ring. Qed.
Lemma gauss_none n es : shaped n es -> gauss n es = None ->
  exists v, length v = n /\ (exists x, In x v /\ x <> 0) /\ Forall (fun e => ldot (fst e) v = 0) es.
Proof.
  revert es. induction n as [|n IH]; intros es Hs; cbn [gauss]; [discriminate|].
  destruct (pivot_some es) as (p & rest & Ep). { intros ->. destruct Hs as [Hs _]. discriminate. }
  rewrite Ep. destruct (shaped_step n es p rest Hs Ep) as (Lp & Lr & Hs').
  destruct (neqb (lead p) n0) eqn:E0; cbn [neqb n0 NumR] in E0.
  - intros _. apply Reqb_true in E0. exists (1 :: repeat 0 n). split; [cbn; now rewrite repeat_length|].
    split; [exists 1; split; [now left|lra]|]. apply Forall_forall. intros e He.
    pose proof (pivot_max es p rest Ep e He) as Hm. rewrite E0, Rabs_R0 in Hm.
    assert (Hz : lead e = 0). { destruct (Req_dec (lead e) 0) as [Q|Q]; [exact Q|]. apply Rabs_pos_lt in Q. lra. }
    destruct Hs as [_ Hf]. rewrite Forall_forall in Hf. specialize (Hf e He).
    rewrite ldot_cons_hd by (intros Q; rewrite Q in Hf; discriminate). rewrite <- lead_hd, Hz, ldot_zero. ring.
  - apply Reqb_false in E0. destruct (gauss n (map (eliminate p) rest)) eqn:G; [discriminate|]. intros _.
    destruct (IH _ Hs' G) as (v & Lv & (x & Hx & Hx0) & Hv).
    exists (- ldot (tl (fst p)) v / lead p :: v). split; [cbn; lia|]. split; [exists x; split; [now right|assumption]|].
    rewrite (pivot_perm es p rest Ep). constructor.
    + rewrite ldot_cons_hd by (intros Q; rewrite Q in Lp; discriminate). rewrite <- lead_hd. field. assumption.
    + rewrite Forall_forall in *. intros e He. specialize (Lr e He).
      rewrite ldot_cons_hd by (intros Q; rewrite Q in Lr; discriminate). rewrite <- lead_hd.
      specialize (Hv (eliminate p e) (in_map _ _ _ He)). rewrite (eliminate_ldot p e n) in Hv by assumption.
      apply Rminus_diag_uniq in Hv. rewrite Hv. field. assumption.
Qed.
Lemma gauss_some_kernel n es xs : shaped n es -> gauss n es = Some xs ->
  forall v, length v = n -> Forall (fun e => ldot (fst e) v = 0) es -> Forall (fun x => x = 0) v.
Proof.
  revert es xs. induction n as [|n IH]; intros es xs Hs; cbn [gauss].
  - intros _ v Lv _. destruct v; [constructor|discriminate].
  - destruct (pivot es) as [[p rest]|] eqn:Ep; [|discriminate]. destruct (neqb (lead p) n0) eqn:E0; [discriminate|].
    destruct (gauss n (map (eliminate p) rest)) as [ys|] eqn:Eg; [|discriminate]. intros _ v Lv Hv.
    destruct (shaped_step n es p rest Hs Ep) as (Lp & Lr & Hs'). cbn [neqb n0 NumR] in E0. apply Reqb_false in E0.
    destruct v as [|a v]; [discriminate|]. rewrite (pivot_perm es p rest Ep) in Hv. inversion_clear Hv as [|? ? Hp Hr].
    rewrite ldot_cons_hd in Hp by (intros Q; rewrite Q in Lp; discriminate). rewrite <- lead_hd in Hp.
    assert (Hv : Forall (fun x => x = 0) v).
    { apply (IH _ _ Hs' Eg); [cbn in Lv; lia|]. apply Forall_map. rewrite Forall_forall in *. intros e He. specialize (Lr e He). specialize (Hr e He).
      rewrite (eliminate_ldot p e n) by assumption. rewrite ldot_cons_hd in Hr by (intros Q; rewrite Q in Lr; discriminate). rewrite <- lead_hd in Hr.
      replace (ldot (tl (fst p)) v) with (- (lead p * a)) by lra. replace (ldot (tl (fst e)) v) with (- (lead e * a)) by lra. field. assumption. }
    assert (Hz : ldot (tl (fst p)) v = 0).
    { clear -Hv. generalize (tl (fst p)). induction Hv as [|x v Hx Hv IH]; intros [|b u]; cbn; try reflexivity. rewrite Hx, IH. cbn. ring. }
    constructor; [|exact Hv]. rewrite Hz in Hp. apply Rmult_eq_reg_l with (lead p); [lra|assumption].
Qed.

(** ** Matrices *)
Lemma ldot_sumn (u v : list R) n : length u = n -> length v = n -> ldot u v = sumn n (fun k => nth k u 0 * nth k v 0).
Proof.
  revert v n. induction u as [|a u IH]; intros [|b v] n Hu Hv; cbn in Hu, Hv; subst n; try discriminate; [reflexivity|].
  cbn [ldot length]. rewrite sumR_S_hd. cbn [nth nadd nmul NumR]. f_equal. apply IH; lia.
Qed.
Lemma equations_shaped (a : matR) rhs : nr a = nc a -> shaped (nc a) (equations a rhs).
Proof.
  intros Hsq. unfold equations. split; [rewrite tab_length; exact Hsq|]. apply Forall_forall. intros e He.
  apply in_map_iff in He as (i & <- & _). cbn. apply tab_length.
Qed.
Lemma equations_lhs (a : matR) r1 r2 : same_lhs (equations a r1) (equations a r2).
Proof. unfold same_lhs, equations, tab. rewrite !map_map. reflexivity. Qed.
Lemma equations_holds (a : matR) rhs x : nr a = nc a -> length x = nc a ->
  (Forall (holds x) (equations a rhs) <-> forall i, (i < nr a)%nat -> sumn (nc a) (fun k => entry a i k * nth k x 0) = rhs i).
Proof.
  intros Hsq Hx. unfold equations. rewrite Forall_forall. split; intros Hh.
  - intros i Hi. specialize (Hh (tab (nc a) (fun k => entry a i k), rhs i)). unfold holds in Hh. cbn [fst snd] in Hh.
    rewrite <- Hh; [|apply In_tab; eauto]. rewrite (ldot_sumn _ _ (nc a)) by (auto; apply tab_length).
    apply sumn_ext. intros k Hk. now rewrite nth_tab.
  - intros e He. apply In_tab in He as (i & Hi & <-). unfold holds. cbn [fst snd]. rewrite <- Hh by assumption.
    rewrite (ldot_sumn _ _ (nc a)) by (auto; apply tab_length). apply sumn_ext. intros k Hk. now rewrite nth_tab.
Qed.

(** The solver's contract: kernel trivial iff it answers, and the answer is the solution. *)
Definition Kernel_trivial (a : matR) : Prop :=
  forall v : nat -> R, (forall i, (i < nr a)%nat -> sumn (nc a) (fun k => entry a i k * v k) = 0) -> forall k, (k < nc a)%nat -> v k = 0.

Lemma nth_all0 (v : list R) : Forall (fun x => x = 0) v -> forall k, nth k v 0 = 0.
Proof. intros Hv k. revert v Hv. induction k as [|k IH]; intros v Hv; destruct Hv as [|x v Hx Hv]; cbn; auto. Qed.
Lemma kernel_list (a : matR) rhs (v : list R) : nr a = nc a -> length v = nc a ->
  (Forall (fun e => ldot (fst e) v = 0) (equations a rhs) <-> forall i, (i < nr a)%nat -> sumn (nc a) (fun k => entry a i k * nth k v 0) = 0).
Proof.
  intros Hsq Hv. rewrite <- (equations_holds a (fun _ => 0) v Hsq Hv). unfold equations. rewrite !Forall_forall. split; intros Hh e He.
  - apply In_tab in He as (i & Hi & <-). unfold holds. cbn [fst snd]. apply (Hh (tab (nc a) (fun k => entry a i k), rhs i)). apply In_tab; eauto.
  - apply In_tab in He as (i & Hi & <-). cbn [fst]. apply (Hh (tab (nc a) (fun k => entry a i k), 0)). apply In_tab; eauto.
Qed.
Lemma gauss_defined (a : matR) rhs : nr a = nc a -> ((exists xs, gauss (nc a) (equations a rhs) = Some xs) <-> Kernel_trivial a).
Proof.
  intros Hsq. split.
  - intros (xs & G) v Hv k Hk. pose proof (gauss_some_kernel _ _ _ (equations_shaped a rhs Hsq) G (tab (nc a) v) (tab_length _ _)) as Q.
    rewrite <- (nth_tab (nc a) v k 0 Hk). apply nth_all0. apply Q. apply kernel_list; auto using tab_length.
    intros i Hi. rewrite <- (Hv i Hi). apply sumn_ext. intros j Hj. now rewrite nth_tab.
  - intros Hk. destruct (gauss (nc a) (equations a rhs)) as [xs|] eqn:G; [eauto|]. exfalso.
    destruct (gauss_none _ _ (equations_shaped a rhs Hsq) G) as (v & Lv & (x & Hx & Hx0) & Hv). apply Hx0.
    pose proof (proj1 (kernel_list a rhs v Hsq Lv) Hv) as Hv2. apply In_nth with (d := 0) in Hx as (k & Hkl & <-). apply (Hk (fun k => nth k v 0)); [exact Hv2|lia].
Qed.
Lemma np_solve_ok (a b : matR) : nr a = nc a -> nr b = nr a -> Kernel_trivial a ->
  exists x, np_solve a b = Ok x /\ wf x /\ nr x = nc a /\ nc x = nc b /\
    forall i j, (i < nr a)%nat -> (j < nc b)%nat -> sumn (nc a) (fun k => entry a i k * entry x k j) = entry b i j.
Proof.
  intros Hsq Hb Hk. unfold np_solve. rewrite Hsq, Nat.eqb_refl. cbn [negb]. rewrite Hb, Hsq, Nat.eqb_refl. cbn [negb].
  destruct (proj2 (gauss_defined a (fun _ => n0) Hsq) Hk) as (z & ->). eexists. split; [reflexivity|]. split; [apply mk_wf|]. split; [reflexivity|]. split; [reflexivity|].
  intros i j Hi Hj. destruct (proj2 (gauss_defined a (fun k => entry b k j) Hsq) Hk) as (xs & G).
  destruct (gauss_sound _ _ _ (equations_shaped a _ Hsq) G) as [Lx Hx]. pose proof (proj1 (equations_holds a _ xs Hsq Lx) Hx i ltac:(lia)) as Q. cbv beta in Q. rewrite <- Q.
  apply sumn_ext. intros k Hkk. rewrite entry_mk by lia. now rewrite G.
Qed.
Lemma np_solve_singular (a b : matR) : nr a = nc a -> nr b = nr a -> ~ Kernel_trivial a -> np_solve a b = Err LinAlgError.
Proof.
  intros Hsq Hb Hk. unfold np_solve. rewrite Hsq, Nat.eqb_refl. cbn [negb]. rewrite Hb, Hsq, Nat.eqb_refl. cbn [negb].
  destruct (gauss (nc a) (equations a (fun _ => n0))) as [z|] eqn:G; [|reflexivity]. exfalso. apply Hk. apply (gauss_defined a (fun _ => n0) Hsq). eauto.
Qed.
Lemma Kernel_trivial_dec (a : matR) : nr a = nc a -> Kernel_trivial a \/ ~ Kernel_trivial a.
Proof.
  intros Hsq. destruct (gauss (nc a) (equations a (fun _ => 0))) as [z|] eqn:G.
  - left. apply (gauss_defined a (fun _ => 0) Hsq). eauto.
  - right. intros Hk. apply (gauss_defined a (fun _ => 0) Hsq) in Hk as (x & E). congruence.
Qed.
