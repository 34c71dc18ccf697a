(** C07, continued: multi_concat along the rows, and the other ways to name an axis. *)
From Coq Require Import List ZArith Lia Bool Arith.
From Verif Require Import Base Num Mat M_Matrix M_Factory M_Helper S_Matrix L_Base L_Mat L_Matrix L_MatR P_Matrix.
Import ListNotations.
Local Open Scope nat_scope.

(** The k-th argument occupies the rows after those of the arguments before it. *)
Definition heights {T} (l : list (mat T)) : nat := fold_right (fun m n => nr m + n) 0 l.
Lemma heights_app {T} (l l' : list (mat T)) : heights (l ++ l') = heights l + heights l'.
Proof. induction l as [|m l IH]; cbn; [reflexivity|]. unfold heights in *. rewrite IH. lia. Qed.

Theorem C07_multi_concat_rows {T} `{Num T} (l : list (mat T)) (m : mat T) :
  Forall wf (m :: l) ->
  multi_concat 0 ([] : list (mat T)) = Err ValueError /\
  (Forall (fun x => nc x = nc m) l -> exists c, multi_concat 0 (m :: l) = Ok c /\
     wf c /\ nc c = nc m /\ nr c = heights (m :: l) /\
     forall pre x post, m :: l = pre ++ x :: post ->
       get_rows c (STuple (Z.of_nat (heights pre)) (Z.of_nat (heights pre + nr x))) = Ok x) /\
  (Exists (fun x => nc x <> nc m) l -> multi_concat 0 (m :: l) = Err ValueError).
Proof.
  intros Hl. split; [reflexivity|]. split.
  - intros Hs. induction l as [|y l IH] using rev_ind.
    + exists m. cbn [multi_concat fold_left Z.eqb orb]. inversion Hl; subst. split; auto. split; auto. split; auto.
      split; [cbn; lia|]. intros pre x post He.
      destruct pre as [|p pre]; [|destruct pre; discriminate He]. injection He as <- <-. cbn [heights fold_right].
      replace (Z.of_nat (0 + nr m)) with (Z.of_nat (nr m)) by (f_equal; lia).
      change (Z.of_nat 0) with 0%Z. 
      pose proof (get_rows_range m 0 (nr m)) as Hg. cbn [Z.of_nat] in Hg. rewrite Hg by lia.
      f_equal. rewrite Nat.sub_0_r. symmetry. apply mat_eq_mk; auto.
    + assert (Hl1 : Forall wf (m :: l)) by (apply Forall_app with (l1 := m :: l) (l2 := [y]) in Hl; apply Hl).
      assert (Hy : wf y) by (apply Forall_app with (l1 := m :: l) (l2 := [y]) in Hl; destruct Hl as [_ Hl]; now inversion Hl).
      apply Forall_app in Hs. destruct Hs as [Hs1 Hs2]. apply Forall_inv in Hs2.
      destruct (IH Hl1 Hs1) as (c & E & W & R1 & C1 & G).
      change (m :: l ++ [y]) with ((m :: l) ++ [y]). rewrite multi_concat_snoc by discriminate. rewrite E. cbn [bind].
      destruct (C07_concat_rows c y W Hy) as [_ HC]. destruct (HC ltac:(lia)) as (d & D1 & D2 & D3 & D4).
      exists d. split; [exact D1|]. destruct D2 as (Wd & N1 & N2 & N3).
      split; auto. split; [lia|]. split; [rewrite heights_app; rewrite N1, C1; cbn; lia|].
      intros pre x post He.
      destruct post as [|q post'] using rev_ind.
      * apply app_inj_tail in He. destruct He as [<- <-]. rewrite <- C1. exact D4.
      * clear IHpost'. rewrite app_comm_cons, app_assoc in He. apply app_inj_tail in He. destruct He as [He <-].
        specialize (G _ _ _ He). 
        assert (Hw : heights pre + nr x <= nr c).
        { rewrite C1, He, heights_app. cbn [heights fold_right]. unfold heights. lia. }
        rewrite get_rows_range by (rewrite N1; lia).
        rewrite get_rows_range in G by lia. injection G as G. f_equal. refine (eq_trans _ G). rewrite N2.
        apply mk_ext. intros i j Hi Hj. rewrite N3 by lia. destruct (Nat.ltb_spec (heights pre + i) (nr c)); [reflexivity|lia].
  - intros He.
    assert (Hf : forall k (acc : res (mat T)), (exists e, acc = Err e /\ e = ValueError) ->
       fold_left (fun acc x => do a <- acc; concat a x 0) k acc = Err ValueError).
    { intros k. induction k as [|z k IHk]; intros acc (e & -> & ->); cbn; [reflexivity|]. apply IHk. eauto. }
    cbn [multi_concat Z.eqb orb].
    assert (Hg : forall k (c : mat T), wf c -> nc c = nc m -> Forall wf k -> Exists (fun x => nc x <> nc m) k ->
      fold_left (fun acc x => do a <- acc; concat a x 0) k (Ok c) = Err ValueError).
    { intros k. induction k as [|z k IHk]; intros c Wc Hc Wk Hk; [inversion Hk|]. cbn [fold_left bind].
      inversion Wk; subst.
      destruct (C07_concat_rows c z Wc H2) as [Q1 Q2].
      destruct (Nat.eq_dec (nc z) (nc m)) as [Ez|Ez].
      - destruct (Q2 ltac:(lia)) as (d & D1 & (D2 & _ & D2' & _) & _). change (concat c z 0) with (concat_along_rows c z). rewrite D1. apply IHk; auto; [lia|].
        inversion Hk; subst; auto. contradiction.
      - change (concat c z 0) with (concat_along_rows c z). rewrite Q1 by lia. apply Hf. eauto. }
    inversion Hl; subst. apply Hg; auto.
Qed.

(** Axis -2 is axis 0, axis -1 is axis 1, and every other axis is refused whatever the matrices are. *)
Theorem C07_multi_concat_axis {T} `{Num T} (l : list (mat T)) :
  multi_concat (-2) l = multi_concat 0 l /\ multi_concat (-1) l = multi_concat 1 l /\
  forall axis, (axis < -2 \/ 1 < axis)%Z -> multi_concat axis l = Err ValueError.
Proof.
  split; [|split].
  - now destruct l.
  - now destruct l.
  - intros axis Ha. destruct l as [|m l]; [reflexivity|]. unfold multi_concat.
    destruct (Z.eqb_spec axis 0); [lia|]. destruct (Z.eqb_spec axis 1); [lia|]. destruct (Z.eqb_spec axis (-1)); [lia|]. destruct (Z.eqb_spec axis (-2)); [lia|]. cbn [orb].
    induction l as [|x l IH]; [reflexivity|]. exact IH.
Qed.

Example C07_axes_ex : multi_concat 0 [Mat 1 2 [[exF 1; exF 2]]; Mat 0 2 []; Mat 2 2 [[exF 3; exF 4]; [exF 5; exF 6]]] = Ok (Mat 3 2 [[exF 1; exF 2]; [exF 3; exF 4]; [exF 5; exF 6]]) /\
  multi_concat 0 [exA; transpose exA] = Err ValueError /\ multi_concat (-2) [exA; exA] = concat_along_rows exA exA /\ multi_concat 0 [exA] = Ok exA /\ multi_concat 2 [exA] = Err ValueError.
Proof. repeat split; vm_compute; reflexivity. Qed.
Print Assumptions C07_multi_concat_rows.
Print Assumptions C07_multi_concat_axis.
