(** Properties C40 and C41: Savitzky-Golay. *)
From Coq Require Import List ZArith Lia Bool Arith Reals Lra SpecFloat.
From Verif Require Import Base Num Mat M_Matrix M_Factory M_Helper M_Linalg M_Transform M_SavGol S_Matrix L_Base L_Mat L_Matrix L_MatR L_Transform L_Linalg L_Poly L_SavGol P_Matrix P_Helper.
Import ListNotations.
Local Open Scope nat_scope.

(** * C40 *)
(** A history: parameter assignments (valid or not) and calls. *)
Inductive sg_op (T : Type) : Type := SgSet (p : sg_param) (v : Z) | SgCall (o : t_op T).
Arguments SgSet {T} p v.
Arguments SgCall {T} o.
Definition sg_run {T} `{Num T} (h : list (sg_op T)) : sg_st T :=
  fold_left (fun s o => match o with SgSet p v => fst (sg_set p v s) | SgCall o => t_step savitzky_golay s o end) h (t_new savitzky_golay).

(** Independent specification: the parameters in force are the last legally assigned ones. *)
Definition legal (p : sg_param) (v : Z) : Prop := match p with PolynomialOrder => (2 <= v)%Z | _ => (0 <= v)%Z end.
Definition default (p : sg_param) : Z := match p with PolynomialOrder => 2%Z | DerivativeOrder => 1%Z | _ => 3%Z end.
Inductive in_force {T} (p : sg_param) : list (sg_op T) -> Z -> Prop :=
| if_default : in_force p [] (default p)
| if_set : forall h v, legal p v -> in_force p (h ++ [SgSet p v]) v
| if_illegal : forall h v x, ~ legal p v -> in_force p h x -> in_force p (h ++ [SgSet p v]) x
| if_other : forall h q v x, q <> p -> in_force p h x -> in_force p (h ++ [SgSet q v]) x
| if_call : forall h o x, in_force p h x -> in_force p (h ++ [SgCall o]) x.

Definition sg_get {T} (p : sg_param) (s : sg_st T) : Z :=
  match p with PolynomialOrder => sg_poly s | DerivativeOrder => sg_der s | NumPointsLeft => sg_left s | NumPointsRight => sg_right s end.
Definition sg_fresh {T} `{Num T} (s : sg_st T) : Prop :=
  match sg_coefs s with
  | None => sg_configured s = false
  | Some c => exists l, determine_coefficients (sg_left s) (sg_right s) (sg_poly s) (sg_der s) = Ok l /\ c = create [l]
  end.
Lemma sg_valid_legal p v : sg_valid p v = true <-> legal p v.
Proof. destruct p; cbn; now rewrite Z.leb_le. Qed.

Lemma sg_inv_step {T} `{Num T} (s : sg_st T) (o : t_op T) : sg_fresh s ->
  let s' := t_step savitzky_golay s o in
  sg_fresh s' /\ forall p, sg_get p s' = sg_get p s.
Proof.
  intros F. unfold sg_fresh in *. destruct s as [cf po de le ri co]. cbn [sg_coefs sg_configured sg_left sg_right sg_poly sg_der] in F.
  destruct o as [m|m|m|]; cbn [t_step]; unfold t_transform, t_inverse; cbn [t_configured savitzky_golay sg_configured].
  all: destruct co as [c|]; [|subst cf]; cbn [negb t_configure savitzky_golay sg_coefs sg_left sg_right sg_poly sg_der]; try (destruct cf); cbn [negb fst snd].
  all: try (split; [cbn; assumption|intros []; reflexivity]).
  all: try solve [destruct (determine_coefficients le ri po de) as [l|e] eqn:E; cbn; rewrite ?E; (split; [|intros []; reflexivity]); eauto].
  all: split; [cbn; auto|intros []; reflexivity].
Qed.
Lemma sg_set_inv {T} `{Num T} (s : sg_st T) p v : sg_fresh s -> sg_fresh (fst (sg_set p v s)).
Proof. intros F. unfold sg_set. destruct (sg_valid p v); [|exact F]. destruct p; reflexivity. Qed.
Lemma sg_run_snoc {T} `{Num T} (h : list (sg_op T)) o : sg_run (h ++ [o]) =
  match o with SgSet p v => fst (sg_set p v (sg_run h)) | SgCall o => t_step savitzky_golay (sg_run h) o end.
Proof. unfold sg_run. now rewrite fold_left_app. Qed.
Lemma sg_run_fresh {T} `{Num T} (h : list (sg_op T)) : sg_fresh (sg_run h).
Proof.
  induction h as [|o h IH] using rev_ind; [reflexivity|]. rewrite sg_run_snoc. destruct o as [p v|o]; [now apply sg_set_inv|]. now apply sg_inv_step.
Qed.
Lemma sg_run_param {T} `{Num T} p (h : list (sg_op T)) : in_force p h (sg_get p (sg_run h)).
Proof.
  induction h as [|o h IH] using rev_ind; [destruct p; apply if_default|]. rewrite sg_run_snoc. destruct o as [q v|o].
  - unfold sg_set. destruct (sg_valid q v) eqn:E; cbn [negb fst].
    + apply sg_valid_legal in E. destruct p, q; cbn [sg_get sg_poly sg_der sg_left sg_right]; first [now apply if_set | apply if_other; [discriminate|exact IH]].
    + assert (~ legal q v) by (rewrite <- sg_valid_legal, E; discriminate).
      assert (D : q = p \/ q <> p) by (destruct p, q; first [now left | right; discriminate]). destruct D as [->|D].
      * now apply if_illegal.
      * now apply if_other.
  - rewrite (proj2 (sg_inv_step (sg_run h) o (sg_run_fresh h))). now apply if_call.
Qed.
Lemma in_force_fun {T} p (h : list (sg_op T)) x y : in_force p h x -> in_force p h y -> x = y.
Proof.
  intros Hx. revert y. induction Hx as [|h v Hv|h v x Hv Hx IH|h q v x Hq Hx IH|h o x Hx IH]; intros y Hy; inversion Hy as [E|h' v' Hv' E|h' v' x' Hv' Hx' E|h' q' v' x' Hq' Hx' E|h' o' x' Hx' E];
    try reflexivity; try (apply app_eq_nil in E as [_ E]; discriminate); try (symmetry in E; apply app_eq_nil in E as [_ E]; discriminate); apply app_inj_tail in E as [E1 E2]; try discriminate; injection E2; intros; subst; try congruence; try contradiction; try (apply IH; assumption).
Qed.

(** The result of a transform after any history: coefficients of the parameters in force,
    slid over the columns. *)
Theorem C40_window {T} `{Num T} (h : list (sg_op T)) (x : mat T) (l r p d : Z) :
  in_force NumPointsLeft h l -> in_force NumPointsRight h r -> in_force PolynomialOrder h p -> in_force DerivativeOrder h d ->
  (forall e, determine_coefficients (T:=T) l r p d = Err e -> snd (t_transform savitzky_golay (sg_run h) x) = Err e) /\
  (forall c, determine_coefficients l r p d = Ok c ->
     length c = Z.to_nat (l + r + 1) /\
     ((Z.of_nat (nc x) < l + r + 1)%Z -> snd (t_transform savitzky_golay (sg_run h) x) = Err ValueError) /\
     ((l + r + 1 <= Z.of_nat (nc x))%Z -> exists y, snd (t_transform savitzky_golay (sg_run h) x) = Ok y /\
        is_mat y (nr x) (nc x - Z.to_nat (l + r)) (fun i j => sumn (length c) (fun t => nmul (entry x i (j + t)) (nth t c n0))))).
Proof.
  intros Fl Fr Fp Fd.
  pose proof (in_force_fun _ _ _ _ Fl (sg_run_param NumPointsLeft h)) as El. pose proof (in_force_fun _ _ _ _ Fr (sg_run_param NumPointsRight h)) as Er.
  pose proof (in_force_fun _ _ _ _ Fp (sg_run_param PolynomialOrder h)) as Ep. pose proof (in_force_fun _ _ _ _ Fd (sg_run_param DerivativeOrder h)) as Ed.
  assert (Hpos : forall q v, q <> PolynomialOrder -> in_force q h v -> (0 <= v)%Z).
  { clear. intros q v Hq Hv. induction Hv as [|h v Hv|h v x Hv Hx IH|h q' v x Hne Hx IH|h o x Hx IH]; auto; [destruct q; cbn; lia|destruct q; cbn in Hv; auto; congruence]. }
  assert (Hl : (0 <= l)%Z) by (apply (Hpos NumPointsLeft); [discriminate|assumption]).
  assert (Hr : (0 <= r)%Z) by (apply (Hpos NumPointsRight); [discriminate|assumption]).
  pose proof (sg_run_fresh h) as F. unfold sg_fresh in F. cbn [sg_get] in El, Er, Ep, Ed. rewrite <- El, <- Er, <- Ep, <- Ed in F.
  assert (Ht : snd (t_transform savitzky_golay (sg_run h) x) = do c <- determine_coefficients l r p d; sg_apply (create [c]) x).
  { unfold t_transform. cbn [t_configured savitzky_golay]. destruct (sg_coefs (sg_run h)) as [c|] eqn:Ec.
    - destruct F as (c' & -> & ->). cbn [bind]. destruct (sg_configured (sg_run h)); cbn [negb t_configure savitzky_golay]; rewrite ?Ec; cbn; now rewrite ?Ec.
    - rewrite F. cbn [negb t_configure savitzky_golay]. rewrite Ec, <- El, <- Er, <- Ep, <- Ed. destruct (determine_coefficients l r p d); reflexivity. }
  rewrite Ht. split; [intros e ->; reflexivity|]. intros c Ec. rewrite Ec. cbn [bind]. pose proof (determine_length l r p d c Ec Hl Hr) as Hc. split; [exact Hc|].
  rewrite sg_apply_spec by (cbn; lia). change (nc (create [c])) with (length c). split; intros Hx.
  - destruct (Nat.leb_spec (length c) (nc x)); [lia|reflexivity].
  - destruct (Nat.leb_spec (length c) (nc x)); [|lia]. eexists. split; [reflexivity|]. replace (nc x - length c + 1) with (nc x - Z.to_nat (l + r)) by lia. apply is_mat_mk.
Qed.
(** Hence linear and shift-equivariant (over the reals): *)
Theorem C40_linear (h : list (sg_op R)) (x x' z : matR) (a b : R) :
  nr x' = nr x -> nc x' = nc x -> nr z = nr x -> nc z = nc x ->
  (forall i j, i < nr x -> j < nc x -> entry z i j = (a * entry x i j + b * entry x' i j)%R) ->
  forall y y' w, snd (t_transform savitzky_golay (sg_run h) x) = Ok y -> snd (t_transform savitzky_golay (sg_run h) x') = Ok y' ->
    snd (t_transform savitzky_golay (sg_run h) z) = Ok w ->
    forall i j, i < nr y -> j < nc y -> (entry w i j = a * entry y i j + b * entry y' i j)%R.
Proof.
  intros E1 E2 E3 E4 Hz y y' w Y Y' W i j Hi Hj.
  pose proof (fun m => C40_window h m _ _ _ _ (sg_run_param NumPointsLeft h) (sg_run_param NumPointsRight h) (sg_run_param PolynomialOrder h) (sg_run_param DerivativeOrder h)) as Q.
  cbn [sg_get] in Q. set (L := sg_left (sg_run h)) in *. set (R_ := sg_right (sg_run h)) in *.
  destruct (determine_coefficients L R_ (sg_poly (sg_run h)) (sg_der (sg_run h))) as [c|e] eqn:Ec.
  2:{ rewrite (proj1 (Q x) e eq_refl) in Y. discriminate. }
  assert (V : forall m ym, nc m = nc x -> snd (t_transform savitzky_golay (sg_run h) m) = Ok ym ->
            (L + R_ + 1 <= Z.of_nat (nc x))%Z /\ is_mat ym (nr m) (nc m - Z.to_nat (L + R_)) (fun i j => sumn (length c) (fun t => nmul (entry m i (j + t)) (nth t c n0)))).
  { intros m ym Em Ym. destruct (proj2 (Q m) c eq_refl) as (_ & Q1 & Q2). destruct (Z.lt_ge_cases (Z.of_nat (nc m)) (L + R_ + 1)) as [Hlt|Hge].
    - rewrite (Q1 Hlt) in Ym. discriminate.
    - split; [lia|]. destruct (Q2 Hge) as (y0 & Ey & Hy). rewrite Ym in Ey. injection Ey as <-. exact Hy. }
  destruct (V x y eq_refl Y) as (HL & (_ & R1 & C1 & V1)). destruct (V x' y' E2 Y') as (_ & (_ & R2 & C2 & V2)). destruct (V z w E4 W) as (_ & (_ & R3 & C3 & V3)).
  pose proof (proj1 (proj2 (Q x) c eq_refl)) as Lc.
  assert (HLp : (0 <= L)%Z /\ (0 <= R_)%Z). { clear -h. subst L R_. assert (G : forall q, q <> PolynomialOrder -> (0 <= sg_get q (sg_run h))%Z).
    { intros q Hq. pose proof (sg_run_param q h) as Hv. induction Hv as [|h v Hv|h v x Hv Hx IH|h q' v x Hne Hx IH|h o x Hx IH]; auto; [destruct q; cbn; lia|destruct q; cbn in Hv; auto; congruence]. }
    split; [apply (G NumPointsLeft)|apply (G NumPointsRight)]; discriminate. }
  rewrite V1, V2, V3 by lia. cbn [nmul n0 NumR]. rewrite <- !sumR_scal, <- sumR_plus. apply sumn_ext. intros t Ht. rewrite Hz by lia. ring.
Qed.
Theorem C40_shift_equivariant {T} `{Num T} (h : list (sg_op T)) (x x' y y' : mat T) (k : nat) :
  nr x' = nr x -> nc x = nc x' + k -> (forall i j, i < nr x -> j < nc x' -> entry x' i j = entry x i (k + j)) ->
  snd (t_transform savitzky_golay (sg_run h) x) = Ok y -> snd (t_transform savitzky_golay (sg_run h) x') = Ok y' ->
  nc y = nc y' + k /\ forall i j, i < nr y' -> j < nc y' -> entry y' i j = entry y i (k + j).
Proof.
  intros E1 E2 Hx Y Y'.
  pose proof (fun m => C40_window h m _ _ _ _ (sg_run_param NumPointsLeft h) (sg_run_param NumPointsRight h) (sg_run_param PolynomialOrder h) (sg_run_param DerivativeOrder h)) as Q.
  cbn [sg_get] in Q. set (L := sg_left (sg_run h)) in *. set (R_ := sg_right (sg_run h)) in *.
  destruct (determine_coefficients L R_ (sg_poly (sg_run h)) (sg_der (sg_run h))) as [c|e] eqn:Ec.
  2:{ rewrite (proj1 (Q x) e eq_refl) in Y. discriminate. }
  assert (V : forall m ym, snd (t_transform savitzky_golay (sg_run h) m) = Ok ym ->
            (L + R_ + 1 <= Z.of_nat (nc m))%Z /\ is_mat ym (nr m) (nc m - Z.to_nat (L + R_)) (fun i j => sumn (length c) (fun t => nmul (entry m i (j + t)) (nth t c n0)))).
  { intros m ym Ym. destruct (proj2 (Q m) c eq_refl) as (_ & Q1 & Q2). destruct (Z.lt_ge_cases (Z.of_nat (nc m)) (L + R_ + 1)) as [Hlt|Hge].
    - rewrite (Q1 Hlt) in Ym. discriminate.
    - split; [lia|]. destruct (Q2 Hge) as (y0 & Ey & Hy). rewrite Ym in Ey. injection Ey as <-. exact Hy. }
  destruct (V x y Y) as (H1 & (_ & R1 & C1 & V1)). destruct (V x' y' Y') as (H2 & (_ & R2 & C2 & V2)).
  pose proof (proj1 (proj2 (Q x) c eq_refl)) as Lc.
  split; [lia|]. intros i j Hi Hj. rewrite V1, V2 by lia. apply sumn_ext. intros t Ht. rewrite Hx by lia. now rewrite Nat.add_assoc.
Qed.
(** Illegal assignments raise ValueError and change nothing at all. *)
Theorem C40_illegal_assignment {T} `{Num T} (s : sg_st T) p v : ~ legal p v -> sg_set p v s = (s, Err ValueError).
Proof. intros Hv. unfold sg_set. destruct (sg_valid p v) eqn:E; [|reflexivity]. apply sg_valid_legal in E. contradiction. Qed.
(** Legal assignments (even of the same value) discard the coefficients. *)
Theorem C40_legal_assignment {T} `{Num T} (s : sg_st T) p v : legal p v ->
  exists s', sg_set p v s = (s', Ok tt) /\ sg_coefs s' = None /\ sg_configured s' = false.
Proof. intros Hv. unfold sg_set. apply sg_valid_legal in Hv. rewrite Hv. destruct p; cbn; eauto. Qed.
Theorem C40_no_inverse {T} `{Num T} (s : sg_st T) (x : mat T) : exists e, snd (t_inverse savitzky_golay s x) = Err e.
Proof.
  unfold t_inverse. cbn [t_configured savitzky_golay]. destruct (sg_configured s); cbn [negb]; [eexists; reflexivity|].
  cbn [t_configure savitzky_golay]. destruct (sg_coefs s); [eexists; reflexivity|]. destruct determine_coefficients; eexists; reflexivity.
Qed.
(** SavitzkyGolay2: both window halves are num_points, always. *)
Theorem C40_sg2 {T} `{Num T} (h : list (sg2_param * Z + t_op T)) :
  let s := fold_left (fun s o => match o with inl (p, v) => fst (sg2_set p v s) | inr o => t_step savitzky_golay s o end) h (t_new savitzky_golay) in
  sg_left s = sg_right s /\ sg_fresh s.
Proof.
  apply (fold_left_inv (fun s => sg_left s = sg_right s /\ sg_fresh s)).
  - split; reflexivity.
  - intros s [[[p|] v]|o] _ [E F].
    + assert (G : forall q, (q = PolynomialOrder \/ q = DerivativeOrder) -> sg_left (fst (sg_set q v s)) = sg_right (fst (sg_set q v s)) /\ sg_fresh (fst (sg_set q v s))).
      { intros q Hq. split; [|now apply sg_set_inv]. unfold sg_set. destruct (sg_valid q v); [|exact E]. destruct Hq; subst q; exact E. }
      destruct p; cbn [sg2_set]; auto; destruct (0 <=? v)%Z; cbn; auto; split; auto; reflexivity.
    + cbn [sg2_set]. destruct (0 <=? v)%Z; cbn; auto.
    + destruct (sg_inv_step s o F) as [G1 G2]. split; [|exact G1]. specialize (G2 NumPointsLeft) as GL. specialize (G2 NumPointsRight) as GR. cbn [sg_get] in GL, GR. congruence.
Qed.
Example C40_ex : in_force NumPointsLeft [SgSet NumPointsLeft 5; SgCall (OTransform exA); SgSet NumPointsLeft (-1)]%Z 5%Z.
Proof.
  change [SgSet NumPointsLeft 5%Z; SgCall (OTransform exA); SgSet NumPointsLeft (-1)%Z] with (([SgSet NumPointsLeft 5%Z] ++ [SgCall (OTransform exA)]) ++ [SgSet NumPointsLeft (-1)%Z]).
  apply if_illegal; [cbn; lia|]. apply if_call. apply (if_set NumPointsLeft []). cbn. lia.
Qed.
Print Assumptions C40_window.
Print Assumptions C40_linear.
Print Assumptions C40_shift_equivariant.
Print Assumptions C40_illegal_assignment.
Print Assumptions C40_legal_assignment.
Print Assumptions C40_no_inverse.
Print Assumptions C40_sg2.

(** * C41 *)
Local Open Scope R_scope.
(** When coefficients exist (windows of more than one point). *)
Theorem C41_exists (l r p d : Z) : (0 <= l)%Z -> (0 <= r)%Z -> (1 <= l + r)%Z -> (2 <= p)%Z -> (0 <= d)%Z ->
  ((d <= p)%Z -> (p <= l + r)%Z -> exists c, determine_coefficients (T:=R) l r p d = Ok c) /\
  ((d <= p)%Z -> (l + r < p)%Z -> determine_coefficients (T:=R) l r p d = Err LinAlgError) /\
  ((p < d)%Z -> determine_coefficients (T:=R) l r p d = Err IndexError).
Proof.
  intros Hl Hr Hlr Hp Hd. split; [|split].
  - intros H1 H2. destruct (determine_ok l r p d) as (c & E & _); try lia. eauto.
  - intros H1 H2. apply determine_singular; lia.
  - intros H1. apply determine_index; lia.
Qed.
(** Exactness: d! times the filter output is the d-th derivative (pder, see pder_0 and pder_S),
    for every polynomial of degree <= p sampled at the columns, at every window centre j + l. *)
Theorem C41_taylor_coefficient (l r p d : Z) (c : list R) (a : nat -> R) :
  (0 <= l)%Z -> (0 <= r)%Z -> (1 <= l + r)%Z -> (2 <= p)%Z -> (0 <= d)%Z -> (d <= p)%Z ->
  determine_coefficients l r p d = Ok c ->
  forall j : nat,
    INR (fact (Z.to_nat d)) * Rsum (length c) (fun t => Rsum (S (Z.to_nat p)) (fun m => a m * INR (j + t) ^ m) * nth t c 0)
    = pder (S (Z.to_nat p)) a (Z.to_nat d) (INR (j + Z.to_nat l)).
Proof.
  intros Hl Hr Hlr Hp Hd Hdp Ec j.
  destruct (Z.le_gt_cases p (l + r)) as [Hw|Hw]; [|rewrite determine_singular in Ec by lia; discriminate].
  destruct (determine_ok l r p d) as (c' & E & Lc & Hm); try lia. assert (c' = c) by congruence. subst c'. rewrite Lc.
  unfold pder. rewrite !Rsum_sumn. set (w := Z.to_nat (l + r + 1)) in *. set (N := Z.to_nat p) in *. set (h := INR (j + Z.to_nat l)).
  transitivity (sumn (S N) (fun m => a m * (INR (fact (Z.to_nat d)) * sumn w (fun t => nth t c 0 * (h + IZR (Z.of_nat t - l)) ^ m)))).
  - rewrite (sumn_ext (S N) _ (fun m => INR (fact (Z.to_nat d)) * sumn w (fun t => a m * INR (j + t) ^ m * nth t c 0))).
    + rewrite sumR_scal. f_equal. rewrite sumR_swap. apply sumn_ext. intros t Ht. rewrite Rsum_sumn. symmetry. apply sumR_scal_r.
    + intros m _. rewrite <- Rmult_assoc, (Rmult_comm (a m)), Rmult_assoc. f_equal. rewrite <- sumR_scal. apply sumn_ext. intros t Ht.
      replace (h + IZR (Z.of_nat t - l)) with (INR (j + t)); [ring|]. unfold h. rewrite !INR_IZR_INZ, <- plus_IZR. f_equal. lia.
  - rewrite <- (sumn_ext (S N) (fun m => a m * (ff m (Z.to_nat d) * h ^ (m - Z.to_nat d)))); [reflexivity|]. intros m Hmm.
    rewrite <- (F_main w (fun t => nth t c 0) (fun t => IZR (Z.of_nat t - l)) N (Z.to_nat d) h Hm m) by lia. reflexivity.
Qed.
(** In particular: the value for d = 0 and the first derivative for d = 1. *)
Theorem C41_smoothing_and_slope (l r p d : Z) (c : list R) (a : nat -> R) :
  (0 <= l)%Z -> (0 <= r)%Z -> (1 <= l + r)%Z -> (2 <= p)%Z -> (d = 0 \/ d = 1)%Z ->
  determine_coefficients l r p d = Ok c ->
  let P := fun x => Rsum (S (Z.to_nat p)) (fun m => a m * x ^ m) in
  forall j : nat, exists out, out = Rsum (length c) (fun t => P (INR (j + t)) * nth t c 0) /\
    (d = 0%Z -> out = P (INR (j + Z.to_nat l))) /\
    (d = 1%Z -> derivable_pt_lim P (INR (j + Z.to_nat l)) out).
Proof.
  intros Hl Hr Hlr Hp Hd Ec P j. eexists. split; [reflexivity|].
  pose proof (C41_taylor_coefficient l r p d c a Hl Hr Hlr Hp ltac:(lia) ltac:(lia) Ec j) as Q. split; intros ->.
  - rewrite pder_0 in Q. cbn [Z.to_nat fact INR] in Q. unfold P. rewrite <- Q. ring.
  - change (Z.to_nat 1) with 1%nat in Q. cbn [fact Nat.mul Nat.add INR] in Q. rewrite Rmult_1_l in Q. unfold P at 2. rewrite Q.
    pose proof (pder_S (S (Z.to_nat p)) a 0 (INR (j + Z.to_nat l))) as D. unfold derivable_pt_lim in *. intros eps He. destruct (D eps He) as (delta & G).
    exists delta. intros hh H1 H2. specialize (G hh H1 H2). rewrite !pder_0 in G. exact G.
Qed.
(** REFUTED for d >= 2: the factor d! is missing, so on x^d the output is 1, not d!. *)
Theorem C41_refuted (l r p d : Z) (c : list R) :
  (0 <= l)%Z -> (0 <= r)%Z -> (1 <= l + r)%Z -> (2 <= p)%Z -> (2 <= d)%Z -> (d <= p)%Z ->
  determine_coefficients l r p d = Ok c -> forall j : nat,
  let a := fun m => if (m =? Z.to_nat d)%nat then 1 else 0 in
  Rsum (length c) (fun t => Rsum (S (Z.to_nat p)) (fun m => a m * INR (j + t) ^ m) * nth t c 0) = 1 /\
  pder (S (Z.to_nat p)) a (Z.to_nat d) (INR (j + Z.to_nat l)) = INR (fact (Z.to_nat d)) /\ INR (fact (Z.to_nat d)) <> 1.
Proof.
  intros Hl Hr Hlr Hp Hd2 Hd Ec j a.
  assert (E : pder (S (Z.to_nat p)) a (Z.to_nat d) (INR (j + Z.to_nat l)) = INR (fact (Z.to_nat d))).
  { unfold pder. rewrite Rsum_sumn, (sumR_single _ (Z.to_nat d)) by (try lia; intros m Hm Hne; unfold a; apply Nat.eqb_neq in Hne; rewrite Hne; ring).
    unfold a. rewrite Nat.eqb_refl, ff_diag, Nat.sub_diag. cbn [pow]. ring. }
  pose proof (C41_taylor_coefficient l r p d c a Hl Hr Hlr Hp ltac:(lia) Hd Ec j) as Q. rewrite E in Q.
  assert (F : INR (fact (Z.to_nat d)) <> 0) by apply INR_fact_neq_0. split; [|split; [exact E|]].
  - apply Rmult_eq_reg_l with (INR (fact (Z.to_nat d))); [rewrite Q; ring|exact F].
  - intros Q1. assert (fact (Z.to_nat d) = 1)%nat by (apply INR_eq; exact Q1). destruct (Z.to_nat d) as [|[|n]] eqn:Ed; try lia.
    pose proof (fact_le 2 (S (S n)) ltac:(lia)) as G. change (fact 2) with 2%nat in G. lia.
Qed.
(** REFUTED for the one-point window: it always copies the input, whatever the derivative order. *)
Theorem C41_refuted_one_point {T} `{Num T} (p d : Z) : determine_coefficients (T:=T) 0 0 p d = Ok [n1].
Proof. reflexivity. Qed.
(** The first d+1 non-trivial example: two points either side, quadratic, first derivative. *)
Example C41_ex : exists c, determine_coefficients (T:=R) 2 2 2 1 = Ok c /\
  forall j, Rsum (length c) (fun t => Rsum 3 (fun m => 1 * INR (j + t) ^ m) * nth t c 0) = 1 + 2 * INR (j + 2).
Proof.
  destruct (C41_exists 2 2 2 1) as [(c & Ec) _]; try lia. exists c. split; [exact Ec|]. intros j.
  pose proof (C41_taylor_coefficient 2 2 2 1 c (fun _ => 1) ltac:(lia) ltac:(lia) ltac:(lia) ltac:(lia) ltac:(lia) ltac:(lia) Ec j) as Q.
  change (Z.to_nat 1) with 1%nat in Q. change (Z.to_nat 2) with 2%nat in Q. cbn [fact Nat.mul Nat.add] in Q. change (INR 1) with 1 in Q. rewrite Rmult_1_l in Q. rewrite Q.
  unfold pder. cbn [Rsum ff Nat.sub pow]. change (INR 0) with 0. change (INR 1) with 1. change (INR 2) with (1 + 1). ring.
Qed.
Print Assumptions C41_exists.
Print Assumptions C41_taylor_coefficient.
Print Assumptions C41_smoothing_and_slope.
Print Assumptions C41_refuted.
Print Assumptions C41_refuted_one_point.
