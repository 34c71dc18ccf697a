(** C94, C95: the matrices the PLS classes publish with get_matrix and get_loadings. *)
From Coq Require Import List ZArith Lia Bool Arith String.
From Verif Require Import Base Num Mat M_Matrix M_Factory M_Helper M_Loop M_Utils M_Linalg M_Transform M_PLSBase M_PLS M_PLS2 M_Publish.
From Verif Require Import S_Matrix L_Base L_Mat L_Matrix L_Alg L_Heap L_Stats L_Transform P_PLSPrep P_Sparse2 L_Batch P_Batch.
Import ListNotations.
Local Open Scope nat_scope.
Local Open Scope string_scope.

(** get answers every listed name with a matrix of the size given there, every other name with None, and never raises *)
Definition shaped {T} (r c : nat) (m : mat T) : Prop := wf m /\ nr m = r /\ nc m = c.
Definition publishes {T} (get : string -> res (option (mat T))) (names : list string) (sizes : list (string * (nat * nat))) : Prop :=
  names = map fst sizes /\ (forall n r c, In (n, (r, c)) sizes -> exists M, get n = Ok (Some M) /\ shaped r c M) /\ (forall n, ~ In n names -> get n = Ok None).
Definition publishes_nothing {T} (get : string -> res (option (mat T))) : Prop := forall n, get n = Ok None.

Section Sizes.
Context {T : Type} `{Num T}.
Lemma mul_shaped (a b m : mat T) : mul a b = Ok m -> shaped (nr a) (nc b) m /\ nc a = nr b.
Proof. intros E. destruct (Nat.eq_dec (nc a) (nr b)) as [Hab|Hab]; [|rewrite (proj2 (mul_spec a b) Hab) in E; discriminate]. rewrite (proj1 (mul_spec a b) Hab) in E. apply Ok_inj in E. subst m. split; [|exact Hab]. split; [apply mk_wf|now split]. Qed.
Lemma set_column_shaped r c (m m' v : mat T) k : set_column m k v = Ok m' -> shaped r c m -> shaped r c m'.
Proof.
  intros E (_ & <- & <-). unfold set_column in E. destruct (must_be_vector v); cbn [bind] in E; [|discriminate]. destruct (npidx _ k); cbn [bind] in E; [|discriminate]. apply Ok_inj in E. subst m'. split; [apply mk_wf|now split].
Qed.
Lemma set_shaped r c (m m' : mat T) i j x : set m i j x = Ok m' -> shaped r c m -> shaped r c m'.
Proof.
  intros E (Hw & <- & <-). unfold set in E. destruct (npidx _ i); cbn [bind] in E; [|discriminate]. destruct (npidx _ j); cbn [bind] in E; [|discriminate]. apply Ok_inj in E. subst m'. split; [now apply set_entry_wf|now split].
Qed.
Lemma zeros_shaped r c : r <> 0 -> shaped (T:=T) r c (zeros (zn r) (zn c)).
Proof. intros Hr. unfold zn. rewrite zeros_mk by exact Hr. split; [apply mk_wf|now split]. Qed.
Lemma sub_shaped (a b m : mat T) : sub a b = Ok m -> shaped (nr a) (nc a) m.
Proof. unfold sub. destruct (must_be_same_shape a b); cbn [bind]; [|discriminate]. intros E. apply Ok_inj in E. subst m. split; [apply mk_wf|now split]. Qed.
Lemma range_counts {A} (I : nat -> A -> Prop) n (body : A -> nat -> res A) a a' : for_range n body a = Ok a' -> I 0 a -> (forall x k x', I k x -> body x k = Ok x' -> I (S k) x') -> I n a'.
Proof.
  unfold for_range. intros E Ha Hb. change n with (0 + n). revert a Ha E. generalize 0 as b. induction n as [|n IH]; intros b a Ha E; cbn [seq for_each] in E; [apply Ok_inj in E; subst; now rewrite Nat.add_0_r|].
  destruct (body a b) as [x|] eqn:Ex; cbn [bind] in E; [|discriminate]. rewrite <- Nat.add_succ_comm. exact (IH (S b) x (Hb _ _ _ Ha Ex) E).
Qed.
Lemma range_keeps {A} (I : A -> Prop) n (body : A -> nat -> res A) a a' : for_range n body a = Ok a' -> I a -> (forall x k x', I x -> body x k = Ok x' -> I x') -> I a'.
Proof. intros E Ha Hb. exact (range_counts (fun _ => I) n body a a' E Ha Hb). Qed.
Lemma each_keeps {A B} (I : A -> Prop) (l : list B) (body : A -> B -> res A) a a' : for_each l body a = Ok a' -> I a -> (forall x b x', I x -> body x b = Ok x' -> I x') -> I a'.
Proof.
  intros E Ha Hb. revert a Ha E. induction l as [|b l IH]; intros a Ha E; cbn [for_each] in E; [apply Ok_inj in E; now subst|].
  destruct (body a b) as [x|] eqn:Ex; cbn [bind] in E; [|discriminate]. exact (IH x (Hb _ _ _ Ha Ex) E).
Qed.
Lemma set_row_shaped r c (m m' v : mat T) k : set_row m k v = Ok m' -> shaped r c m -> shaped r c m'.
Proof.
  intros E (_ & <- & <-). unfold set_row in E. destruct (must_be_vector v); cbn [bind] in E; [|discriminate]. destruct (npidx _ k); cbn [bind] in E; [|discriminate]. apply Ok_inj in E. subst m'. split; [apply mk_wf|now split].
Qed.
Lemma vector_op_shaped op (m v m' : mat T) : vector_op_modify op m v = Ok m' -> shaped (nr m) (nc m) m'.
Proof. unfold vector_op_modify. destruct (must_be_vector v); cbn [bind]; [|discriminate]. destruct (negb _); [discriminate|]. intros E. apply Ok_inj in E. subst m'. split; [apply mk_wf|now split]. Qed.
Lemma std_shaped s (X X' : mat T) s' : t_transform standardize s X = (s', Ok X') -> shaped (nr X) (nc X) X'.
Proof.
  assert (D : forall u m, t_do standardize u X = Ok m -> shaped (nr X) (nc X) m).
  { intros u m E. cbn [t_do standardize] in E. destruct (need (st_means u)) as [mu|]; cbn [bind] in E; [|discriminate]. destruct (sub_by_vector_modify X mu) as [r|] eqn:E1; cbn [bind] in E; [|discriminate].
    destruct (need (st_devs u)) as [sd|]; cbn [bind] in E; [|discriminate]. apply vector_op_shaped in E1. apply vector_op_shaped in E. destruct E1 as (_ & -> & ->) in E. exact E. }
  unfold t_transform. intros E. destruct (negb (t_configured standardize s)); [destruct (t_configure standardize s X) as [u [?|?]]; [|discriminate]|]; apply (f_equal snd) in E; cbn [snd] in E; exact (D _ _ E).
Qed.
Lemma center_shaped s (X X' : mat T) s' : t_transform center s X = (s', Ok X') -> shaped (nr X) (nc X) X'.
Proof.
  assert (D : forall u m, t_do center u X = Ok m -> shaped (nr X) (nc X) m).
  { intros u m E. cbn [t_do center] in E. destruct (need (ce_means u)) as [mu|]; cbn [bind] in E; [|discriminate]. now apply vector_op_shaped in E. }
  unfold t_transform. intros E. destruct (negb (t_configured center s)); [destruct (t_configure center s X) as [u [?|?]]; [|discriminate]|]; apply (f_equal snd) in E; cbn [snd] in E; exact (D _ _ E).
Qed.
(** What the class is trained on has the sizes of the data *)
Lemma fit_shaped t (X X' : mat T) t' : wf X -> nc X <> 0 -> (t = None \/ t = Some (PTCenter (t_new center)) \/ t = Some (PTStandardize (t_new standardize))) -> pt_fit t X = (t', Ok X') -> shaped (nr X) (nc X) X'.
Proof.
  intros Hw Hn [-> | [-> | ->] ] E; [cbn [pt_fit] in E|rewrite pt_fit_center in E|rewrite pt_fit_standardize in E by exact Hn]; pose proof (f_equal snd E) as E2; cbn [snd] in E2; apply Ok_inj in E2; subst X'; (split; [|now split]); [exact Hw|apply mk_wf|apply mk_wf].
Qed.
Lemma prepare_kinds {A K} (c : pls_class A K T) pp Y mean std tp tr : prepare c pp Y = Ok (mean, std, tp, tr) ->
  (tp = None \/ tp = Some (PTCenter (t_new center)) \/ tp = Some (PTStandardize (t_new standardize))) /\ (tr = None \/ tr = Some (PTCenter (t_new center)) \/ tr = Some (PTStandardize (t_new standardize))).
Proof.
  unfold prepare. destruct (c_arity c).
  - unfold prep_single. destruct pp; intros E; repeat match type of E with bind ?x _ = _ => destruct x; cbn [bind] in E; [|discriminate] end; try discriminate; apply Ok_inj in E; injection E as <- <- <- <-; auto.
  - unfold prep_multi. intros E. set (I := fun st : prep (T:=T) => let '(_, _, tp, tr) := st in (tp = None \/ tp = Some (PTCenter (t_new (T:=T) center)) \/ tp = Some (PTStandardize (t_new (T:=T) standardize))) /\ (tr = None \/ tr = Some (PTCenter (t_new (T:=T) center)) \/ tr = Some (PTStandardize (t_new (T:=T) standardize)))).
    apply (range_keeps I) in E; [exact E|cbn; auto|]. intros [[[m0 s0] tp0] tr0] k x' HI Ex. destruct pp; repeat match type of Ex with bind ?x _ = _ => destruct x; cbn [bind] in Ex; [|discriminate] end; try discriminate; apply Ok_inj in Ex; subst x'; cbn; auto.
Qed.
Lemma trained_on {A K} (c : pls_class A K T) s0 X Y s : wf X -> wf Y -> nc X <> 0 -> nc Y <> 0 -> initialize c s0 (Some X) (Some Y) = (s, Ok None) ->
  exists X' Y', shaped (nr X) (nc X) X' /\ shaped (nr Y) (nc Y) Y' /\ c_train c (p_num_components s0) (c_reset c (p_own s0)) X' Y' = (p_own s, Ok None) /\ check_data c Y = None.
Proof.
  intros WX WY NX NY E. unfold initialize in E. destruct (check_data c Y) as [m|] eqn:Ec; [discriminate|]. unfold do_initialize in E. cbn [reset p_preprocessing] in E.
  destruct (prepare c (p_preprocessing s0) Y) as [[[[mean std] tp] tr]|e] eqn:Ep; [|discriminate]. destruct (prepare_kinds _ _ _ _ _ _ _ Ep) as (K1 & K2).
  destruct (pt_fit tp X) as [tp' [X'|e]] eqn:E1; [|discriminate]. destruct (pt_fit tr Y) as [tr' [Y'|e]] eqn:E2; [|discriminate]. cbn [set_prep p_num_components p_own reset] in E.
  exists X', Y'. split; [exact (fit_shaped _ _ _ _ WX NX K1 E1)|]. split; [exact (fit_shaped _ _ _ _ WY NY K2 E2)|]. split; [|reflexivity].
  destruct (c_train c (p_num_components s0) (c_reset c (p_own s0)) X' Y') as [a r]. destruct r as [[m|]|e]; cbn in E; try discriminate. apply (f_equal fst) in E. cbn in E. subst s. reflexivity.
Qed.
Lemma checked {A K} (c : pls_class A K T) s0 X Y s : initialize c s0 (Some X) (Some Y) = (s, Ok None) -> check_data c Y = None.
Proof. unfold initialize. destruct (check_data c Y); [discriminate|reflexivity]. Qed.
Lemma checked_single {A K} (c : pls_class A K T) s0 X Y s : c_arity c = Single -> initialize c s0 (Some X) (Some Y) = (s, Ok None) -> nc Y = 1.
Proof. intros Ha E. apply checked in E. unfold check_data in E. rewrite Ha in E. destruct (Nat.eqb_spec (nc Y) 1); [assumption|discriminate]. Qed.
Lemma checked_multi {A K} (c : pls_class A K T) s0 X Y s hi : c_arity c = Multi 1 hi -> initialize c s0 (Some X) (Some Y) = (s, Ok None) -> nc Y <> 0.
Proof. intros Ha E. apply checked in E. unfold check_data in E. rewrite Ha in E. destruct (Z.ltb_spec (Z.of_nat (nc Y)) 1); [discriminate|lia]. Qed.
End Sizes.
Ltac steps E := repeat match type of E with
  | bind ?x _ = _ => let Q := fresh "Est" in destruct x eqn:Q; cbn [bind] in E; [|discriminate]
  | (let (_, _) := ?p in _) = _ => is_var p; destruct p
  end.
Ltac names := repeat split; [let n := fresh "n" in let r := fresh "r" in let c := fresh "c" in let Hin := fresh "Hin" in
   intros n r c Hin; cbn in Hin; repeat (destruct Hin as [Hin|Hin]; [injection Hin as <- <- <-; eexists; split; [reflexivity|]; assumption|]); destruct Hin
  |let n := fresh "n" in let Hn := fresh "Hn" in
   intros n Hn; cbv beta delta [pls1_matrix simpls_matrix nipals_matrix kpls_matrix opls_matrix sparse_matrix dipls_matrix look]; cbn [find fst snd]; repeat match goal with |- context [String.eqb n ?k] => destruct (String.eqb_spec n k) as [->|]; [exfalso; apply Hn; cbn; tauto|] end; reflexivity].

Section Classes.
Context {T : Type} `{Num T}.
Variables (lstsq : mat T -> mat T -> res (mat T)) (pinv : mat T -> res (mat T)) (eig : mat T -> res (list T * mat T))
          (svd : mat T -> res (mat T * list T * mat T)) (rnd : Z -> nat -> mat T).

(** PLS1 and VCPLS *)
Lemma pls1_fit_shaped weights k (X Y : mat T) n p a : shaped n p X -> p <> 0 -> k <> 0 -> pls1_fit lstsq weights (zn k) X Y = Ok a ->
  exists r P W b, a = Pls1 (Some r) (Some P) (Some W) (Some b) /\ shaped p 1 r /\ shaped p k P /\ shaped p k W /\ shaped k 1 b.
Proof.
  intros (_ & Xr & Xc) Hp Hk E. unfold pls1_fit in E. destruct (pls1_loop weights (zn k) X Y) as [st|] eqn:El; cbn [bind] in E; [|discriminate].
  assert (I : let '(_, W, P, _, b) := st in shaped p k W /\ shaped p k P /\ shaped k 1 b).
  { unfold pls1_loop in El. apply (range_keeps (fun st : pls1_state => let '(_, W, P, _, b) := st in shaped p k W /\ shaped p k P /\ shaped k 1 b)) in El; [exact El| |].
    - rewrite Xc. change (zeros (zn k) 1) with (zeros (T:=T) (zn k) (zn 1)). repeat split; try apply zeros_shaped; assumption.
    - intros [[[[X0 W0] P0] T0] b0] j st' (HW & HP & Hb) Es. unfold pls1_step in Es. steps Es. apply Ok_inj in Es. subst st'. repeat split; try (eapply set_column_shaped; eassumption); eapply set_shaped; eassumption. }
  destruct st as [[[[X0 W] P] Ts] b]. destruct I as (HW & HP & Hb). steps E. apply Ok_inj in E. subst a. eexists _, _, _, _. split; [reflexivity|]. split; [|split; [exact HP|split; [exact HW|exact Hb]]].
  match goal with Q : mul _ b = Ok ?r |- _ => pose proof (proj1 (mul_shaped _ _ _ Q)) as S1 end. match goal with Q : mul W _ = Ok ?r |- _ => pose proof (proj1 (mul_shaped _ _ _ Q)) as (_ & S2 & _) end.
  rewrite S2 in S1. destruct HW as (_ & E0 & _). rewrite E0 in S1. destruct Hb as (_ & _ & E1). now rewrite E1 in S1.
Qed.
Theorem C94_pls1 s0 (X Y : mat T) s k : let c := pls1 lstsq in wf X -> wf Y -> nc X <> 0 -> k <> 0 -> p_num_components s0 = zn k ->
  initialize c s0 (Some X) (Some Y) = (s, Ok None) ->
  publishes (fun n => Ok (pls1_matrix (p_own s) n)) pls1_names [("RegVector", (nc X, 1)); ("P", (nc X, k)); ("W", (nc X, k)); ("b_hat", (k, 1))] /\
  exists L, pls1_loadings (p_own s) = Some L /\ shaped (nc X) k L.
Proof.
  intros c WX WY Hn Hk Hc E. pose proof (checked_single c s0 X Y s eq_refl E) as NY. destruct (trained_on c s0 X Y s WX WY Hn ltac:(lia) E) as (X' & Y' & SX & SY & Et & _). rewrite Hc in Et. cbn [c_train pls1 c] in Et.
  destruct (pls1_fit lstsq pls1_weights (zn k) X' Y') as [a|] eqn:Ef; [|discriminate]. apply (f_equal fst) in Et. cbn [fst] in Et. subst a.
  destruct (pls1_fit_shaped _ _ _ _ _ _ _ SX Hn Hk Ef) as (r & P & W & b & Ea & S1 & S2 & S3 & S4). rewrite Ea. split; [names|]. exists P. now split.
Qed.
Theorem C94_vcpls s0 (X Y : mat T) s k : let c := vcpls lstsq eig in wf X -> wf Y -> nc X <> 0 -> k <> 0 -> p_num_components s0 = zn k ->
  initialize c s0 (Some X) (Some Y) = (s, Ok None) ->
  publishes (fun n => Ok (pls1_matrix (vc_pls1 (p_own s)) n)) pls1_names [("RegVector", (nc X, 1)); ("P", (nc X, k)); ("W", (nc X, k)); ("b_hat", (k, 1))] /\
  exists L, pls1_loadings (vc_pls1 (p_own s)) = Some L /\ shaped (nc X) k L.
Proof.
  intros c WX WY Hn Hk Hc E. pose proof (checked_single c s0 X Y s eq_refl E) as NY. destruct (trained_on c s0 X Y s WX WY Hn ltac:(lia) E) as (X' & Y' & SX & SY & Et & _). rewrite Hc in Et. cbn [c_train vcpls c] in Et.
  match type of Et with context [pls1_fit ?l ?w ?k X' Y'] => destruct (pls1_fit l w k X' Y') as [a|] eqn:Ef; [|discriminate] end. apply (f_equal fst) in Et. cbn [fst] in Et. rewrite <- Et. cbn [vc_pls1].
  destruct (pls1_fit_shaped _ _ _ _ _ _ _ SX Hn Hk Ef) as (r & P & W & b & Ea & S1 & S2 & S3 & S4). rewrite Ea. split; [names|]. exists P. now split.
Qed.

(** SIMPLS *)
Lemma slim_shaped coef r c (m m' : mat T) : shaped r c m -> slim coef m = Ok m' -> shaped r c m'.
Proof.
  intros Hm E. unfold slim in E. apply (range_keeps (shaped r c)) in E; [exact E|exact Hm|]. clear E Hm. intros m1 i m1' Hm E. unfold slim_column in E. steps E.
  apply (range_keeps (shaped r c)) in E; [exact E|exact Hm|]. clear - Hm. intros x j x' Hx Ex. steps Ex. match type of Ex with (if ?b then _ else _) = _ => destruct b end; [eapply set_shaped; eassumption|apply Ok_inj in Ex; now subst].
Qed.
Lemma simpls_fit_shaped coef k (X Y : mat T) n p W B Q : shaped n p X -> p <> 0 -> simpls_fit eig coef (zn k) X Y = Ok (W, B, Q) -> shaped p k W /\ shaped p 1 B /\ shaped 1 k Q.
Proof.
  intros (_ & Xr & Xc) Hp E. unfold simpls_fit in E. destruct (simpls_loop eig (zn k) X Y) as [st|] eqn:El; cbn [bind] in E; [|discriminate].
  assert (I : let '(_, _, _, W, _, Q) := st in shaped p k W /\ shaped 1 k Q).
  { unfold simpls_loop in El. steps El. apply (range_keeps (fun st : simpls_state => let '(_, _, _, W, _, Q) := st in shaped p k W /\ shaped 1 k Q)) in El; [exact El| |].
    - rewrite Xc. change (zeros 1 (zn k)) with (zeros (T:=T) (zn 1) (zn k)). split; apply zeros_shaped; [exact Hp|discriminate].
    - intros [[[[[A0 M0] C0] W0] P0] Q0] j st' (HW & HQ) Es. unfold simpls_step in Es. steps Es. apply Ok_inj in Es. subst st'. split; eapply set_column_shaped; eassumption. }
  destruct st as [[[[[A0 M0] C0] W0] P0] Q0]. destruct I as (HW & HQ). steps E. apply Ok_inj in E. injection E as -> -> ->.
  assert (HW1 : shaped p k W). { match goal with E9 : (if ?b then _ else _) = Ok _ |- _ => destruct b; [eapply slim_shaped; eassumption|apply Ok_inj in E9; now subst] end. }
  split; [exact HW1|]. split; [|exact HQ]. match goal with E9 : mul _ (transpose Q) = Ok ?r |- _ => pose proof (proj1 (mul_shaped _ _ _ E9)) as S1 end. cbn [transpose nc mk] in S1. destruct HW1 as (_ & E0 & _), HQ as (_ & E1 & _). now rewrite E0, E1 in S1.
Qed.
Theorem C94_simpls s0 (X Y : mat T) s k : let c := simpls eig in wf X -> wf Y -> nc X <> 0 -> p_num_components s0 = zn k ->
  initialize c s0 (Some X) (Some Y) = (s, Ok None) ->
  publishes (fun n => Ok (simpls_matrix (p_own s) n)) simpls_names [("W", (nc X, k)); ("B", (nc X, 1)); ("Q", (1, k))] /\
  exists L, simpls_loadings (p_own s) = Some L /\ shaped (nc X) k L.
Proof.
  intros c WX WY Hn Hc E. pose proof (checked_single c s0 X Y s eq_refl E) as NY. destruct (trained_on c s0 X Y s WX WY Hn ltac:(lia) E) as (X' & Y' & SX & SY & Et & _). rewrite Hc in Et. cbn [c_train simpls c] in Et.
  match type of Et with context [simpls_fit ?l ?w ?k X' Y'] => destruct (simpls_fit l w k X' Y') as [[[W B] Q]|] eqn:Ef; [|discriminate] end. apply (f_equal fst) in Et. cbn [fst] in Et. rewrite <- Et. cbn [si_W si_B si_Q simpls_loadings].
  destruct (simpls_fit_shaped _ _ _ _ _ _ _ _ _ SX Hn Ef) as (S1 & S2 & S3). split; [names|]. exists W. now split.
Qed.

(** NIPALS and CCARegression *)
Lemma nipals_fit_shaped mode a k (X Y : mat T) n p q stds m : shaped n p X -> nc Y = q -> n <> 0 -> p <> 0 -> q <> 0 -> nipals_fit lstsq pinv mode (zn k) a X Y stds = Ok m ->
  shaped n k (nm_X_scores m) /\ shaped n k (nm_Y_scores m) /\ shaped p k (nm_X_loadings m) /\ shaped q k (nm_Y_loadings m).
Proof.
  intros (_ & Xr & Xc) Yc Hn Hp Hq E. unfold nipals_fit in E. match type of E with bind ?x _ = _ => destruct x as [st|] eqn:El; cbn [bind] in E; [|discriminate] end.
  assert (I : let '(_, _, (XS, YS, XL, YL, _, _)) := st in shaped n k XS /\ shaped n k YS /\ shaped p k XL /\ shaped q k YL).
  { apply (range_keeps (fun st : nipals_state => let '(_, _, (XS, YS, XL, YL, _, _)) := st in shaped n k XS /\ shaped n k YS /\ shaped p k XL /\ shaped q k YL)) in El; [exact El| |].
    - rewrite Xr, Xc, Yc. repeat split; try apply zeros_shaped; assumption.
    - intros [[stop [X0 Y0]] [[[[[XS YS] XL] YL] XW] YW]] j st' (H1 & H2 & H3 & H4) Es. unfold nipals_step in Es.
      destruct stop; [apply Ok_inj in Es; subst st'; exact (conj H1 (conj H2 (conj H3 H4)))|]. steps Es. destruct (all _ _); [apply Ok_inj in Es; subst st'; exact (conj H1 (conj H2 (conj H3 H4)))|]. steps Es. 
      destruct (nltb _ _); [apply Ok_inj in Es; subst st'; exact (conj H1 (conj H2 (conj H3 H4)))|]. steps Es. apply Ok_inj in Es. subst st'. repeat split; eapply set_column_shaped; eassumption. }
  destruct st as [[stop [X0 Y0]] [[[[[XS YS] XL] YL] XW] YW]]. steps E. apply Ok_inj in E. subst m. exact I.
Qed.
Section NIPALS.
Variables (mode : weight_mode) (def0 : deflation_mode) (assign : deflation_mode -> deflation_mode -> deflation_mode).
Lemma nipals_publishes s0 (X Y : mat T) s k : let c := nipals_class lstsq pinv mode def0 assign in wf X -> wf Y -> nr X <> 0 -> nc X <> 0 -> p_num_components s0 = zn k ->
  initialize c s0 (Some X) (Some Y) = (s, Ok None) ->
  publishes (fun n => Ok (nipals_matrix (p_own s) n)) nipals_names [("T", (nr X, k)); ("U", (nr X, k)); ("P", (nc X, k)); ("Q", (nc Y, k))] /\
  exists L, nipals_loadings (p_own s) = Some L /\ shaped (nc X) k L.
Proof.
  intros c WX WY Hr Hn Hc E. pose proof (checked_multi c s0 X Y s _ eq_refl E) as NY. destruct (trained_on c s0 X Y s WX WY Hn ltac:(lia) E) as (X' & Y' & SX & SY & Et & _). rewrite Hc in Et. cbn [c_train nipals_class c] in Et. unfold nipals_train in Et.
  destruct (t_transform standardize _ X') as [sx [X1|]] eqn:E1; [|discriminate]. destruct (t_transform standardize _ Y') as [sy [Y1|]] eqn:E2; [|discriminate].
  match type of Et with context [nipals_fit ?l ?p ?m ?n ?a ?x ?y ?z] => destruct (nipals_fit l p m n a x y z) as [mo|] eqn:Ef; [|discriminate] end. apply (f_equal fst) in Et. cbn [fst] in Et. rewrite <- Et. cbn [ni_model nipals_loadings nipals_attr option_map].
  apply std_shaped in E1. apply std_shaped in E2. destruct SX as (_ & R1 & C1), SY as (_ & R2 & C2). rewrite R1, C1 in E1. destruct E2 as (_ & _ & E2). rewrite C2 in E2.
  destruct (nipals_fit_shaped _ _ _ _ _ _ _ _ _ _ E1 E2 Hr Hn NY Ef) as (S1 & S2 & S3 & S4). split; [names|]. eexists. now split.
Qed.
End NIPALS.
Theorem C94_nipals s0 (X Y : mat T) s k : let c := nipals lstsq pinv in wf X -> wf Y -> nr X <> 0 -> nc X <> 0 -> p_num_components s0 = zn k ->
  initialize c s0 (Some X) (Some Y) = (s, Ok None) ->
  publishes (fun n => Ok (nipals_matrix (p_own s) n)) nipals_names [("T", (nr X, k)); ("U", (nr X, k)); ("P", (nc X, k)); ("Q", (nc Y, k))] /\
  exists L, nipals_loadings (p_own s) = Some L /\ shaped (nc X) k L.
Proof. apply nipals_publishes. Qed.
Theorem C94_cca_regression s0 (X Y : mat T) s k : let c := cca_regression lstsq pinv in wf X -> wf Y -> nr X <> 0 -> nc X <> 0 -> p_num_components s0 = zn k ->
  initialize c s0 (Some X) (Some Y) = (s, Ok None) ->
  publishes (fun n => Ok (nipals_matrix (p_own s) n)) nipals_names [("T", (nr X, k)); ("U", (nr X, k)); ("P", (nc X, k)); ("Q", (nc Y, k))] /\
  exists L, nipals_loadings (p_own s) = Some L /\ shaped (nc X) k L.
Proof. apply nipals_publishes. Qed.

(** KernelPLS, with any kernel *)
Section KPLS.
Context {KS : Type} (kernel0 : KS) (kapply : KS -> mat T -> option (mat T) -> KS * res (mat T)).
Lemma eye_square n : eye (T:=T) (zn n) (zn n) = Ok (mk n n (fun i j => if (i =? j)%nat then n1 else n0)).
Proof. unfold eye, zn. destruct (Z.eqb_spec (Z.of_nat n) (-1)); [lia|]. destruct (Z.ltb_spec (Z.of_nat n) 0); [lia|]. cbn [orb]. now rewrite Nat2Z.id. Qed.
Lemma kpls_fit_shaped k ks tol it (X Y : mat T) n q m : nr X = n -> nc Y = q -> n <> 0 -> q <> 0 -> snd (kpls_fit lstsq rnd kapply (zn k) ks tol it X Y) = Ok m ->
  shaped n n (km_K_deflated m) /\ shaped n k (km_T m) /\ shaped n k (km_U m) /\ shaped n k (km_P m) /\ shaped q k (km_Q m).
Proof.
  intros Xr Yc Hn Hq E. unfold kpls_fit in E. rewrite Xr, Yc in E. rewrite eye_square in E. set (Id := mk n n (fun i j => if (i =? j)%nat then n1 else n0)) in E. destruct (kapply ks X None) as [ks' rK]. cbn [snd] in E. destruct rK as [Kr|]; cbn [bind] in E; [|discriminate]. destruct (centralize_train n Kr) as [Ko|] eqn:Q0; cbn [bind] in E; [|discriminate]. match type of E with bind ?x _ = _ => destruct x as [st|] eqn:El; cbn [bind] in E; [|discriminate] end.
  assert (S0 : shaped n n Ko).
  { unfold centralize_train in Q0. steps Q0. pose proof (proj1 (mul_shaped _ _ _ Q0)) as S1.
    match goal with Q : eye _ _ = Ok ?i |- _ => assert (SI : shaped n n i) by (rewrite eye_square in Q; apply Ok_inj in Q; subst i; split; [apply mk_wf|now split]) end.
    match goal with Q : sub _ _ = Ok ?i |- _ => pose proof (sub_shaped _ _ _ Q) as (_ & P1 & P2) end. destruct SI as (_ & I1 & I2). rewrite I1 in P1. rewrite I2 in P2.
    match goal with Q : mul _ Kr = Ok ?i |- _ => pose proof (proj1 (mul_shaped _ _ _ Q)) as (_ & K1 & _) end. now rewrite K1, P1, P2 in S1. }
  assert (I : let '((Kd, _), _, (Tm, U, P, Q)) := st in shaped n n Kd /\ shaped n k Tm /\ shaped n k U /\ shaped n k P /\ shaped q k Q).
  { apply (range_keeps (fun st : kpls_state => let '((Kd, _), _, (Tm, U, P, Q)) := st in shaped n n Kd /\ shaped n k Tm /\ shaped n k U /\ shaped n k P /\ shaped q k Q)) in El; [exact El| |].
    - split; [exact S0|]. repeat split; apply zeros_shaped; assumption.
    - intros [[[Kd Y0] [[t w] qq]] [[[Tm U] P] Q]] j st' (H0 & H1 & H2 & H3 & H4) Es. unfold kpls_step in Es. steps Es. apply Ok_inj in Es. subst st'.
      split; [|repeat split; eapply set_column_shaped; eassumption]. clear H1 H2 H3 H4.
      match goal with Q : sub Id _ = Ok ?i |- _ => pose proof (sub_shaped _ _ _ Q) as (_ & P1 & P2) end. cbn [Id nr nc mk] in P1, P2.
      match goal with Q1 : mul ?part Kd = Ok ?pk, Q2 : mul ?pk ?part = Ok _ |- _ => pose proof (proj1 (mul_shaped _ _ _ Q2)) as S2; pose proof (proj1 (mul_shaped _ _ _ Q1)) as (_ & S3 & _) end. now rewrite S3, P1, P2 in S2. }
  destruct st as [[[Kd Y0] [[t w] qq]] [[[Tm U] P] Q]]. steps E. apply Ok_inj in E. subst m. exact I.
Qed.
Theorem C94_kernel_pls s0 (X Y : mat T) s k : let c := kernel_pls lstsq rnd kernel0 kapply in wf X -> wf Y -> nr X <> 0 -> nc X <> 0 -> p_num_components s0 = zn k ->
  initialize c s0 (Some X) (Some Y) = (s, Ok None) ->
  publishes (fun n => Ok (kpls_matrix (p_own s) n)) kpls_names [("K", (nr X, nr X)); ("T", (nr X, k)); ("U", (nr X, k)); ("P", (nr X, k)); ("Q", (nc Y, k))] /\
  exists L, kpls_loadings (p_own s) = Some L /\ shaped (nr X) k L.
Proof.
  intros c WX WY Hr Hn Hc E. pose proof (checked_multi c s0 X Y s _ eq_refl E) as NY. destruct (trained_on c s0 X Y s WX WY Hn ltac:(lia) E) as (X' & Y' & SX & SY & Et & _). rewrite Hc in Et. cbn [c_train kernel_pls c] in Et. unfold kpls_train in Et.
  destruct (t_transform center _ X') as [sx [X1|]] eqn:E1; [|discriminate]. destruct (t_transform center _ Y') as [sy [Y1|]] eqn:E2; [|discriminate].
  match type of Et with context [kpls_fit ?l ?p ?m ?n ?a ?b ?d ?x ?y] => pose proof (kpls_fit_shaped k a b d x y) as F; destruct (kpls_fit l p m n a b d x y) as [ks [mo|]] eqn:Ef; [|discriminate] end. apply (f_equal fst) in Et. cbn [fst] in Et. rewrite <- Et. cbn [kp_model kpls_loadings kpls_attr option_map].
  apply center_shaped in E1. apply center_shaped in E2. destruct SX as (_ & R1 & C1), SY as (_ & R2 & C2). destruct E1 as (_ & E1 & _), E2 as (_ & _ & E2). rewrite R1 in E1. rewrite C2 in E2.
  destruct (F (nr X) (nc Y) mo E1 E2 Hr NY eq_refl) as (S0 & S1 & S2 & S3 & S4). split; [names|]. eexists. now split.
Qed.
End KPLS.

(** OPLS, with any base class *)
Lemma bind_inv {A B} (x : res A) (f : A -> res B) y : bind x f = Ok y -> exists a, x = Ok a /\ f a = Ok y.
Proof. destruct x as [a|e]; [eauto|discriminate]. Qed.
Lemma opls_step_shaped (w : mat T) p n k (st st' : opls_state) j : let I (st : opls_state) := let '(_, _, W, P, Tm) := st in shaped p k W /\ shaped p k P /\ shaped n k Tm in I st -> opls_step w st j = Ok st' -> I st'.
Proof.
  intros I. destruct st as [[[[X0 Xt0] W0] P0] T0]. intros (H1 & H2 & H3) Es. unfold opls_step in Es.
  do 4 (apply bind_inv in Es as (? & _ & Es)). do 6 (apply bind_inv in Es as (? & _ & Es)). apply bind_inv in Es as (W1 & EW & Es). apply bind_inv in Es as (T1 & ET & Es). apply bind_inv in Es as (P1 & EP & Es). apply Ok_inj in Es. subst st'.
  split; [exact (set_column_shaped _ _ _ _ _ _ EW H1)|]. split; [exact (set_column_shaped _ _ _ _ _ _ EP H2)|exact (set_column_shaped _ _ _ _ _ _ ET H3)].
Qed.
Lemma opls_fit_shaped k (X Y w Xo Xt W P Tm : mat T) : nr X <> 0 -> nc X <> 0 -> opls_fit (zn k) X Y = Ok (w, (Xo, Xt, W, P, Tm)) -> shaped (nc X) k W /\ shaped (nc X) k P /\ shaped (nr X) k Tm.
Proof.
  intros Hr Hn Ef. unfold opls_fit in Ef. destruct (mul (transpose X) Y) as [xy|]; [|discriminate]. cbn [bind] in Ef. destruct (normalized _ 0) as [w'|]; [|discriminate]. cbn [bind] in Ef. destruct (for_range _ _ _) as [st|] eqn:El; [|discriminate]. cbn [bind] in Ef. apply Ok_inj, (f_equal snd) in Ef. cbn [snd] in Ef. subst st.
  apply (range_keeps (fun st : opls_state => let '(_, _, W, P, Tm) := st in shaped (nc X) k W /\ shaped (nc X) k P /\ shaped (nr X) k Tm)) in El; [exact El| |].
  - repeat split; apply zeros_shaped; assumption.
  - intros st j st' HI Es. exact (opls_step_shaped w' (nc X) (nr X) k st st' j HI Es).
Qed.
Theorem C94_opls {AB KB} (base : pls_class AB KB T) s0 (X Y : mat T) s k : let c := opls base in wf X -> wf Y -> nr X <> 0 -> nc X <> 0 -> p_num_components s0 = zn k ->
  initialize c s0 (Some X) (Some Y) = (s, Ok None) ->
  publishes (fun n => Ok (opls_matrix (p_own s) n)) opls_names [("P_orth", (nc X, k)); ("W_orth", (nc X, k)); ("T_orth", (nr X, k))] /\
  exists L, opls_loadings (p_own s) = Some L /\ shaped (nc X) k L.
Proof.
  intros c WX WY Hr Hn Hc E. pose proof (checked_single c s0 X Y s eq_refl E) as NY. destruct (trained_on c s0 X Y s WX WY Hn ltac:(lia) E) as (X' & Y' & SX & SY & Et & _). rewrite Hc in Et. cbn [c_train opls c] in Et. unfold opls_train in Et.
  destruct (opls_fit (zn k) X' Y') as [[w [[[[Xo Xt] W] P] Tm]]|] eqn:Ef; [|discriminate].
  assert (I : shaped (nc X) k W /\ shaped (nc X) k P /\ shaped (nr X) k Tm) by (destruct SX as (_ & R1 & C1); rewrite <- R1, <- C1; apply (opls_fit_shaped k X' Y' w Xo Xt W P Tm); [congruence|congruence|exact Ef]).
  destruct I as (S1 & S2 & S3). destruct (opls_transform (Some W) (Some P) X') as [cl|]; [|discriminate]. destruct (initialize base _ _ _) as [b r]. apply (f_equal fst) in Et. cbn [fst] in Et. rewrite <- Et. cbn [op_P op_W op_T opls_loadings].
  split; [names|]. eexists. now split.
Qed.

(** SparsePLS *)
Theorem C94_sparse_pls s0 (X Y : mat T) s k : let c := sparse_pls lstsq pinv in wf X -> wf Y -> nc X <> 0 -> p_num_components s0 = zn k ->
  initialize c s0 (Some X) (Some Y) = (s, Ok None) ->
  publishes (fun n => Ok (sparse_matrix (p_own s) n)) sparse_names [("W", (nc X, k)); ("B", (nc X, 1))] /\
  exists L, sparse_loadings (p_own s) = Some L /\ shaped (nc X) k L.
Proof.
  intros c WX WY Hn Hc E. pose proof (checked_single c s0 X Y s eq_refl E) as NY. destruct (trained_on c s0 X Y s WX WY Hn ltac:(lia) E) as (X' & Y' & SX & SY & Et & _). rewrite Hc in Et. cbn [c_train sparse_pls c] in Et. unfold sparse_train in Et.
  destruct (t_transform standardize _ X') as [sx [X1|]] eqn:E1; [|discriminate]. destruct (t_transform standardize _ Y') as [sy [Y1|]] eqn:E2; [|discriminate].
  apply std_shaped in E1. apply std_shaped in E2. destruct SX as (_ & R1 & C1), SY as (_ & R2 & C2). destruct E1 as (_ & _ & E1), E2 as (_ & _ & E2). rewrite C1 in E1. rewrite C2, NY in E2.
  match type of Et with context [sparse_fit ?l ?p ?m ?a ?x ?y] => destruct (sparse_fit l p m a x y) as [[[[A B] W] yj]|] eqn:Ef; [|discriminate] end. apply (f_equal fst) in Et. cbn [fst] in Et. rewrite <- Et. cbn [sp_W sp_B sparse_loadings].
  assert (I : shaped (nc X) k W /\ shaped (nc X) 1 B).
  { unfold sparse_fit in Ef. rewrite E1, E2 in Ef. apply (range_keeps (fun st : sparse_state => let '(_, B, W, _) := st in shaped (nc X) k W /\ shaped (nc X) 1 B)) in Ef; [exact Ef| |].
    - split; [|change (Z.of_nat 1) with (zn 1)]; apply zeros_shaped; assumption.
    - intros [[[A0 B0] W0] y0] j st' (H1 & H2) Es. unfold sparse_step in Es. steps Es. apply Ok_inj in Es. subst st'. split; [eapply set_column_shaped; eassumption|].
      match goal with Q : for_each _ _ _ = Ok ?r |- shaped _ _ (fst ?r) => apply (each_keeps (fun st : mat T * nat => shaped (nc X) 1 (fst st))) in Q; [exact Q| |] end.
      + cbn [fst]. rewrite E1, E2. apply zeros_shaped. exact Hn.
      + intros [m i] b st' Hm Eb. steps Eb. apply Ok_inj in Eb. subst st'. cbn [fst] in *. eapply set_row_shaped; eassumption. }
  destruct I as (S1 & S2). split; [names|]. eexists. now split.
Qed.

(** DIPLS *)
Definition grown (j r : nat) (o : option (mat T)) : Prop := match j with 0 => o = None | _ => exists m, o = Some m /\ shaped r j m end.
Lemma grow j rs ms vs ms' : Forall2 (grown j) rs ms -> Forall2 (fun r v => shaped r 1 v) rs vs -> mapM (fun Aa => dipls_concat (fst Aa) (snd Aa)) (combine ms vs) = Ok ms' -> Forall2 (grown (S j)) rs ms'.
Proof.
  intros Hm. revert vs ms'. induction Hm as [|r o rs ms Ho Hm IH]; intros vs ms' Hv E; inversion Hv as [|? v ? vs' Sv Hv']; subst; cbn [combine mapM] in E; [apply Ok_inj in E; subst; constructor|].
  cbn [fst snd] in E. destruct (dipls_concat o v) as [o'|] eqn:Eo; cbn [bind] in E; [|discriminate]. destruct (mapM _ (combine ms vs')) as [l|] eqn:El; cbn [bind] in E; [|discriminate]. apply Ok_inj in E. subst ms'. constructor; [|exact (IH _ _ Hv' El)].
  unfold grown in *. destruct j as [|j].
  - subst o. cbn [dipls_concat] in Eo. apply Ok_inj in Eo. subst o'. exists v. now split.
  - destruct Ho as (m & -> & Wm & R & C). cbn [dipls_concat] in Eo. destruct Sv as (Wv & Rv & Cv). destruct (concat_columns_ok m v Wm Wv ltac:(congruence)) as (m' & Ec & Hw & Hr & Hc & _). rewrite Ec in Eo. cbn [bind] in Eo. apply Ok_inj in Eo. subst o'.
    exists m'. split; [reflexivity|]. split; [exact Hw|]. rewrite Hr, Hc. split; [exact R|]. lia.
Qed.
Lemma minverse_shaped (m i : mat T) : nr m = nc m -> minverse lstsq m = Ok i -> shaped (nr m) (nr m) i.
Proof.
  intros Hm E. unfold minverse, inverse, is_square in E. rewrite Hm, Nat.eqb_refl in E. unfold np_inv, np_solve in E. rewrite Hm, Nat.eqb_refl in E. cbn [negb nr nc mk] in E. rewrite Nat.eqb_refl in E. cbn [negb] in E.
  destruct (gauss _ _); [|discriminate]. apply Ok_inj in E. subst i. rewrite Hm. split; [apply mk_wf|now split].
Qed.
Lemma score_shaped (t X : mat T) i p : nc t = 1 -> dipls_score lstsq t X = Ok (i, p) -> shaped 1 1 i /\ shaped 1 (nc X) p.
Proof.
  intros Ht E. unfold dipls_score in E. steps E. apply Ok_inj in E. injection E as -> ->.
  match goal with Q : mul (transpose t) t = Ok ?m |- _ => pose proof (proj1 (mul_shaped _ _ _ Q)) as (_ & A1 & A2) end. cbn [transpose nr nc mk] in A1. rewrite Ht in A1, A2.
  match goal with Q : minverse _ ?m = Ok i |- _ => pose proof (minverse_shaped m i ltac:(congruence) Q) as Si end. rewrite A1 in Si. split; [exact Si|].
  match goal with Q : mul i _ = Ok ?m |- _ => pose proof (proj1 (mul_shaped _ _ _ Q)) as (_ & B1 & _) end. match goal with Q : mul _ X = Ok p |- _ => pose proof (proj1 (mul_shaped _ _ _ Q)) as Sp end. destruct Si as (_ & I1 & _). now rewrite B1, I1 in Sp.
Qed.
Definition dipls_rows_of (nX ns nt p : nat) : list nat := [1; nX; ns; nt; p; p; p; p].
Lemma dipls_step_shaped Id ns nt l nX nS nT p (st st' : dipls_state) j : let I (j : nat) (st : dipls_state) := let '((X, Xs, Xt, y), ms) := st in shaped nX p X /\ shaped nS p Xs /\ shaped nT p Xt /\ nc y = 1 /\ Forall2 (grown j) (dipls_rows_of nX nS nT p) ms in
  I j st -> dipls_step lstsq Id ns nt l st j = Ok st' -> I (S j) st'.
Proof.
  intros I. destruct st as [[[[X Xs] Xt] y] ms]. intros (SX & SS & ST & Sy & Hm) E. unfold dipls_step in E.
  apply bind_inv in E as (yx & E1 & E). apply bind_inv in E as (ss & _ & E). apply bind_inv in E as (tt & _ & E).
  apply bind_inv in E as (df & _ & E). apply bind_inv in E as (r0 & _ & E). apply bind_inv in E as (rh & _ & E).
  apply bind_inv in E as (w0 & E2 & E). apply bind_inv in E as (w & E3 & E).
  apply bind_inv in E as (t & E4 & E). apply bind_inv in E as (ts & E5 & E). apply bind_inv in E as (tt' & E6 & E).
  apply bind_inv in E as ([i p1] & E7 & E). apply bind_inv in E as ([is' p2] & E8 & E). apply bind_inv in E as ([it p3] & E9 & E). cbn [fst snd] in E.
  apply bind_inv in E as (iy & E10 & E). apply bind_inv in E as (ca & E11 & E).
  apply bind_inv in E as (d1 & _ & E). apply bind_inv in E as (X1 & E12 & E).
  apply bind_inv in E as (d2 & _ & E). apply bind_inv in E as (X2 & E13 & E).
  apply bind_inv in E as (d3 & _ & E). apply bind_inv in E as (X3 & E14 & E).
  apply bind_inv in E as (d4 & _ & E). apply bind_inv in E as (y1 & E15 & E). apply bind_inv in E as (ms' & Em & E). apply Ok_inj in E. subst st'.
  destruct SX as (WX & RX & CX), SS as (WS & RS & CS), ST as (WT & RT & CT).
  apply sub_shaped in E12, E13, E14, E15. rewrite RX, CX in E12. rewrite RS, CS in E13. rewrite RT, CT in E14. destruct E15 as (_ & _ & E15). rewrite Sy in E15.
  split; [exact E12|]. split; [exact E13|]. split; [exact E14|]. split; [exact E15|].
  assert (Sw : shaped p 1 w).
  { apply mul_shaped in E1. destruct E1 as ((_ & A1 & _) & _). cbn [transpose nr mk] in A1. apply mul_shaped in E2. destruct E2 as ((_ & B1 & _) & _). cbn [div_scalar map_mat nr mk] in B1.
    unfold normalized in E3. cbn [Z.eqb orb] in E3. apply Ok_inj in E3. subst w. apply mul_shaped in E4. destruct E4 as (_ & Hq). cbn [nr mk transpose] in Hq |- *. split; [apply mk_wf|]. cbn [nr nc mk]. split; [congruence|cbn [transpose nc mk]; congruence]. }
  destruct Sw as (Ww & Rw & Cw). apply mul_shaped in E4, E5, E6. destruct E4 as (E4 & _), E5 as (E5 & _), E6 as (E6 & _). rewrite RX, Cw in E4. rewrite RS, Cw in E5. rewrite RT, Cw in E6.
  destruct (score_shaped t X i p1 ltac:(apply E4) E7) as ((_ & I1 & _) & P1). destruct (score_shaped ts Xs _ p2 ltac:(apply E5) E8) as (_ & P2). destruct (score_shaped tt' Xt _ p3 ltac:(apply E6) E9) as (_ & P3). rewrite CX in P1. rewrite CS in P2. rewrite CT in P3.
  apply mul_shaped in E10. destruct E10 as ((_ & Y1 & _) & _). rewrite I1 in Y1. apply mul_shaped in E11. destruct E11 as (E11 & _). rewrite Y1 in E11. assert (Ct : nc t = 1) by apply E4. rewrite Ct in E11.
  assert (Tr : forall q (m : mat T), shaped 1 q m -> shaped q 1 (transpose m)). { intros q m (_ & Rm & Cm). split; [apply mk_wf|]. cbn [transpose nr nc mk]. now split. }
  refine (grow _ _ _ _ _ Hm _ Em). unfold dipls_rows_of. repeat (apply Forall2_cons; [auto|]); [exact (conj Ww (conj Rw Cw))|constructor].
Qed.
Definition dipls_used (a : dipls_st (T:=T)) (n : nat) : nat :=
  match di_strategy a with UNSUPERVISED => Z.to_nat (di_ns a) | SUPERVISED => n | SEMISUPERVISED => Z.to_nat (2 * di_ns a) end.
Lemma get_rows_sizes (X m : mat T) a b : get_rows X (STuple a b) = Ok m -> nr m = Z.to_nat (b - a) /\ nc m = nc X.
Proof.
  assert (L : forall u v, List.length (pyrange u v 1) = Z.to_nat (v - u)).
  { intros u v. rewrite pyrange_length. unfold range_len. cbn [Z.ltb Z.compare]. rewrite Z.div_1_r. f_equal. lia. }
  unfold get_rows, get_sub_matrix. cbn [sel_indices]. rewrite !L, Z.sub_0_r, Nat2Z.id. destruct (_ || _)%bool.
  - intros E. apply Ok_inj in E. subst m. now split.
  - intros E. steps E. apply Ok_inj in E. subst m. now split.
Qed.
Theorem C94_dipls s0 (X Y : mat T) s k : let c := dipls lstsq in wf X -> wf Y -> nc X <> 0 -> k <> 0 -> p_num_components s0 = zn k ->
  initialize c s0 (Some X) (Some Y) = (s, Ok None) ->
  let n := dipls_used (p_own s0) (nr X) in let ns := Z.to_nat (di_ns (p_own s0)) in let nt := Z.to_nat (Z.of_nat (nr X) - di_ns (p_own s0)) in
  publishes (fun n => Ok (dipls_matrix (p_own s) n)) dipls_names
    [("T", (n, k)); ("Ts", (ns, k)); ("Tt", (nt, k)); ("Wdi", (nc X, k)); ("P", (nc X, k)); ("Ps", (nc X, k)); ("Pt", (nc X, k)); ("bdi", (nc X, 1))] /\
  exists L, dipls_loadings (p_own s) = Some L /\ shaped n k L.
Proof.
  intros c WX WY Hn Hk Hc E n ns nt. pose proof (checked_single c s0 X Y s eq_refl E) as NY. destruct (trained_on c s0 X Y s WX WY Hn ltac:(lia) E) as (X' & Y' & SX & SY & Et & _). rewrite Hc in Et. cbn [c_train dipls c] in Et. unfold dipls_train in Et.
  change (di_strategy (c_reset c (p_own s0))) with (di_strategy (p_own s0)) in Et. change (di_ns (c_reset c (p_own s0))) with (di_ns (p_own s0)) in Et. change (di_nt (c_reset c (p_own s0))) with (di_nt (p_own s0)) in Et.
  destruct (eye _ _) as [Id|] in Et; [|discriminate]. destruct (_ || _)%bool in Et; [discriminate|]. destruct (_ || _)%bool in Et; [discriminate|].
  match type of Et with match ?m with _ => _ end = _ => destruct m as [[[X0 Xs] Xt]|] eqn:Es; [|discriminate] end.
  destruct SX as (WX' & RX & CX), SY as (_ & _ & CY).
  assert (S0 : (nr X0 = n /\ nc X0 = nc X) /\ (nr Xs = ns /\ nc Xs = nc X) /\ (nr Xt = nt /\ nc Xt = nc X)).
  { destruct (get_rows X' (STuple 0 _)) as [a|] eqn:G1; cbn [bind] in Es; [|discriminate]. destruct (get_rows X' (STuple (di_ns _) _)) as [b|] eqn:G2; cbn [bind] in Es; [|discriminate].
    apply get_rows_sizes in G1, G2. rewrite CX, Z.sub_0_r in *. unfold zn in G2. rewrite RX in G2. unfold n, dipls_used. destruct (di_strategy (p_own s0)); cbn [bind] in Es.
    - apply Ok_inj in Es. injection Es as <- <- <-. auto.
    - apply Ok_inj in Es. injection Es as <- <- <-. auto.
    - destruct (get_rows X' (STuple 0 _)) as [a'|] eqn:G3 in Es; cbn [bind] in Es; [|discriminate]. apply get_rows_sizes in G3. rewrite CX, Z.sub_0_r in G3. apply Ok_inj in Es. injection Es as <- <- <-. auto. }
  destruct S0 as ((R0 & C0) & (Rs & Cs) & (Rt & Ct)).
  destruct (t_transform center _ X0) as [cx [X1|]] eqn:E1 in Et; [|discriminate]. destruct (t_transform center _ Xs) as [cs [X2|]] eqn:E2 in Et; [|discriminate]. destruct (t_transform center _ Xt) as [ct rT] eqn:E3 in Et.
  match type of Et with match ?m with _ => _ end = _ => destruct m as [[X3 b0]|] eqn:Eb; [|discriminate] end. destruct rT as [X3'|]; cbn [bind] in Eb; [|discriminate]. steps Eb. apply Ok_inj in Eb. injection Eb as -> ->.
  apply center_shaped in E1, E2, E3. rewrite R0, C0 in E1. rewrite Rs, Cs in E2. rewrite Rt, Ct in E3.
  match type of Et with match ?m with _ => _ end = _ => destruct m as [mo|] eqn:Em; [|discriminate] end. apply (f_equal fst) in Et. cbn [fst] in Et. rewrite <- Et. cbn [di_model dipls_loadings dipls_attr option_map].
  match type of Em with bind ?x _ = _ => destruct x as [st|] eqn:El; cbn [bind] in Em; [|discriminate] end. unfold zn in El. rewrite Nat2Z.id in El.
  apply (range_counts (fun j (st : dipls_state) => let '((X, Xs, Xt, y), ms) := st in shaped n (nc X0) X /\ shaped ns (nc X0) Xs /\ shaped nt (nc X0) Xt /\ nc y = 1 /\ Forall2 (grown j) (dipls_rows_of n ns nt (nc X0)) ms)) in El.
  - destruct st as [[[[X4 X5] X6] y4] ms]. destruct El as (_ & _ & _ & _ & Hm). cbn [snd] in Em. destruct k as [|k]; [easy|]. unfold dipls_rows_of in Hm. rewrite C0 in Hm.
    repeat match goal with Q : Forall2 _ (_ :: _) _ |- _ => let h := fresh "G" in inversion Q as [|? ? ? ? h Q']; subst; clear Q; destruct h as (? & -> & ?); rename Q' into Q end.
    inversion Hm; subst. steps Em. apply Ok_inj in Em. subst mo. cbn [dm_T dm_T_s dm_T_t dm_P dm_P_s dm_P_t dm_W dm_b].
    match goal with Q : mul ?wi (transpose ?cc) = Ok ?b |- _ => assert (Sb : shaped (nc X) 1 b) end.
    { match goal with Q : mul ?wi (transpose _) = Ok a3 |- _ => pose proof (proj1 (mul_shaped _ _ _ Q)) as Z1 end. match goal with Q : mul x6 _ = Ok ?wi |- _ => pose proof (proj1 (mul_shaped _ _ _ Q)) as (_ & Z2 & _) end.
      cbn [transpose nc mk] in Z1. destruct H0 as (_ & Z3 & _), H7 as (_ & Z4 & _). now rewrite Z2, Z3, Z4 in Z1. }
    split; [names|]. eexists. now split.
  - rewrite C0. split; [exact E1|]. split; [exact E2|]. split; [exact E3|]. split; [cbn [sub_scalar map_mat nc mk]; congruence|]. unfold dipls_rows_of. cbn [repeat]. repeat (apply Forall2_cons; [reflexivity|]). constructor.
  - intros x j x' HI Hx. exact (dipls_step_shaped _ _ _ _ _ _ _ _ _ _ _ HI Hx).
Qed.

(** PRM, for every svd that answers in the sizes numpy documents for full_matrices=False *)
Definition svd_sizes : Prop := forall A u l vh, svd A = Ok (u, l, vh) -> nr u = nr A /\ nr vh = Nat.min (nr A) (nc A) /\ List.length l = Nat.min (nr A) (nc A).
Lemma residual_shaped a est (X y W : mat T) : nr X <> 0 -> residual_weights a est X y = Ok W -> shaped (nr X) 1 W.
Proof.
  intros Hn E. unfold residual_weights in E. match type of E with bind ?x _ = _ => destruct x; cbn [bind] in E; [|discriminate] end.
  apply (range_keeps (shaped (nr X) 1)) in E; [exact E|exact (zeros_shaped _ 1 Hn)|]. intros x j x' Hx Es. steps Es. eapply set_shaped; eassumption.
Qed.
Lemma leverage_shaped a (X W : mat T) : nr X <> 0 -> leverage_weights a X = Ok W -> shaped (nr X) 1 W.
Proof.
  intros Hn E. unfold leverage_weights in E. steps E.
  apply (range_keeps (shaped (nr X) 1)) in E; [exact E|exact (zeros_shaped _ 1 Hn)|]. intros x j x' Hx Es. steps Es. eapply set_shaped; eassumption.
Qed.
Lemma reweighted_shaped Wr Wx (A A' : mat T) : reweighted Wr Wx A = Ok A' -> shaped (nr A) (nc A) A'.
Proof. unfold reweighted, scale_by_column_vector, mul_by_vector, vector_op. intros E. steps E. now apply vector_op_shaped in E. Qed.
Lemma prm_simpls_shaped a k (Xp yp : mat T) s B : wf Xp -> wf yp -> nc Xp <> 0 -> prm_simpls eig a (zn k) Xp yp = Ok s -> si_B (p_own s) = Some B -> shaped (nc Xp) 1 B.
Proof.
  intros WX WY Hp E EB. unfold prm_simpls in E. set (c := simpls eig) in *. cbn [setattr a_valid c_valid c simpls bind] in E. fold c in E.
  match type of E with context [initialize c ?q _ _] => set (s1 := q) in E end.
  destruct (initialize c s1 (Some Xp) (Some yp)) as [s2 r] eqn:Ei. destruct r as [[m|]|]; cbn [bind] in E; [| |discriminate]; apply Ok_inj in E; subst s2.
  - exfalso. unfold initialize in Ei. destruct (check_data c yp) as [m'|]; [apply (f_equal fst) in Ei; cbn [fst] in Ei; subst s; discriminate EB|].
    assert (N : forall a' x y, snd (c_train c (p_num_components s1) a' x y) <> Ok (Some m)). { intros a' x y. cbn [c_train c simpls]. destruct (simpls_fit _ _ _ _ _) as [[[? ?] ?]|]; discriminate. }
    unfold do_initialize in Ei. destruct (prepare c _ yp) as [[[[mean std] tp] tr]|]; [|discriminate]. destruct (pt_fit tp Xp) as [tp' [X1|]]; [|discriminate]. destruct (pt_fit tr yp) as [tr' [Y1|]]; [|discriminate].
    cbn [set_prep p_num_components p_own reset] in Ei. specialize (N (c_reset c (p_own s1)) X1 Y1). destruct (c_train c _ _ X1 Y1) as [a1 r1]. cbn [snd] in N. destruct r1 as [[m'|]|]; cbn in Ei; try discriminate. apply (f_equal snd) in Ei. cbn [snd] in Ei. congruence.
  - pose proof (checked_single c s1 Xp yp s eq_refl Ei) as NY. destruct (trained_on c s1 Xp yp s WX WY Hp ltac:(lia) Ei) as (X' & Y' & SX & SY & Et & _). change (p_num_components s1) with (zn k) in Et. cbn [c_train simpls c] in Et.
    match type of Et with context [simpls_fit ?l ?w ?k X' Y'] => destruct (simpls_fit l w k X' Y') as [[[W B'] Q]|] eqn:Ef; [|discriminate] end. apply (f_equal fst) in Et. cbn [fst] in Et. rewrite <- Et in EB. cbn [si_B] in EB. injection EB as <-.
    now destruct (simpls_fit_shaped _ _ _ _ _ _ _ _ _ SX Hp Ef) as (_ & S2 & _).
Qed.
Lemma prm_pass_shaped a k (X y Wr Wx Wr' Wx' Ts g : mat T) s : nr X <> 0 -> nc X <> 0 -> prm_pass eig a (zn k) X y Wr Wx = Ok (Wr', Wx', Ts, g, s) ->
  shaped (nr X) 1 Wr' /\ shaped (nr X) 1 Wx' /\ (forall B, si_B (p_own s) = Some B -> shaped (nc X) 1 B).
Proof.
  intros Hn Hp E. unfold prm_pass in E.
  destruct (reweighted Wr Wx X) as [Xp|] eqn:E1; cbn [bind] in E; [|discriminate]. destruct (reweighted Wr Wx y) as [yp|] eqn:E2; cbn [bind] in E; [|discriminate].
  destruct (prm_simpls eig a (zn k) Xp yp) as [s1|] eqn:E3; cbn [bind] in E; [|discriminate]. destruct (transform (simpls eig) s1 Xp) as [s2 rT] eqn:E4. destruct rT as [T1|]; cbn [bind] in E; [|discriminate].
  apply reweighted_shaped in E1, E2. destruct E1 as (WX & RX & CX), E2 as (WY & _ & _).
  assert (Hs : p_own s2 = p_own s1 /\ shaped (nr X) (nc T1) T1).
  { unfold transform in E4. destruct (p_initialised s1); cbn [negb] in E4; [|discriminate]. cbn [c_transform simpls] in E4. pose proof (f_equal fst E4) as F1. pose proof (f_equal snd E4) as F2. cbn [fst snd] in F1, F2. subst s2. split; [reflexivity|].
    match type of F2 with bind ?x _ = _ => destruct x as [W|]; cbn [bind] in F2; [|discriminate] end. apply mul_shaped in F2. destruct F2 as (F2 & _). rewrite RX in F2. split; [apply F2|]. split; [apply F2|reflexivity]. }
  destruct Hs as (Ho & RT). match type of E with bind ?x _ = _ => destruct x as [Q|] eqn:EQ; cbn [bind] in E; [|discriminate] end.
  match type of E with bind ?x _ = _ => destruct x as [T2|] eqn:E5; cbn [bind] in E; [|discriminate] end. assert (RT2 : nr T2 = nr X).
  { apply (range_keeps (shaped (nr X) (nc T1))) in E5; [apply E5|exact RT|]. intros x j x' Hx Es. steps Es. eapply set_row_shaped; eassumption. }
  destruct (residual_weights _ _ Xp yp) as [W1|] eqn:E6; cbn [bind] in E; [|discriminate]. destruct (leverage_weights a T2) as [W2|] eqn:E7; cbn [bind] in E; [|discriminate]. apply Ok_inj in E. injection E as <- <- _ _ <-.
  apply residual_shaped in E6; [|lia]. apply leverage_shaped in E7; [|lia]. rewrite RX in E6. rewrite RT2 in E7. split; [exact E6|]. split; [exact E7|]. intros B HB. rewrite Ho in HB. rewrite <- CX. refine (prm_simpls_shaped a k Xp yp s1 B WX WY _ E3 HB). lia.
Qed.
Lemma prm_while_shaped f a k (X y : mat T) Wr Wx g i Wr' Wx' Ts g' s it : nr X <> 0 -> nc X <> 0 -> prm_while eig f a (zn k) X y Wr Wx g i = Ok (Wr', Wx', Ts, g', s, it) ->
  shaped (nr X) 1 Wr' /\ shaped (nr X) 1 Wx' /\ (forall B, si_B (p_own s) = Some B -> shaped (nc X) 1 B).
Proof.
  intros Hn Hp. revert Wr Wx g i. induction f as [|f IH]; intros Wr Wx g i E; cbn [prm_while] in E; [discriminate|].
  destruct (prm_pass eig a (zn k) X y Wr Wx) as [[[[[W1 W2] T1] g1] s1]|] eqn:Ep; cbn [bind] in E; [|discriminate]. destruct (prm_again _ _ _ _) as [[|]|]; cbn [bind] in E; [| |discriminate]; [exact (IH _ _ _ _ E)|].
  apply Ok_inj in E. injection E as <- <- _ _ <- _. exact (prm_pass_shaped _ _ _ _ _ _ _ _ _ _ _ Hn Hp Ep).
Qed.
Theorem C94_prm (Hsvd : svd_sizes) s0 (X Y : mat T) s k : let c := prm eig svd in wf X -> wf Y -> nr X <> 0 -> nc X <> 0 -> p_num_components s0 = zn k ->
  initialize c s0 (Some X) (Some Y) = (s, Ok None) ->
  publishes (prm_matrix (p_own s)) prm_names [("B", (nc X, 1)); ("Wr", (nr X, 1)); ("Wx", (nr X, 1)); ("W", (nr X, 1))].
Proof.
  intros c WX WY Hr Hn Hc E. pose proof (checked_single c s0 X Y s eq_refl E) as NY. destruct (trained_on c s0 X Y s WX WY Hn ltac:(lia) E) as (X' & Y' & SX & SY & Et & _). rewrite Hc in Et. cbn [c_train prm c] in Et.
  match type of Et with context [prm_fit ?l ?w ?k ?n X' Y'] => destruct (prm_fit l w k n X' Y') as [[mo it]|] eqn:Ef; [|discriminate] end. apply (f_equal fst) in Et. cbn [fst] in Et. rewrite <- Et. clear Et.
  assert (I : shaped (nc X) 1 (pm_coef mo) /\ shaped (nr X) 1 (pm_W_r mo) /\ shaped (nr X) 1 (pm_W_x mo)).
  { unfold prm_fit in Ef. destruct SX as (WX' & RX & CX). rewrite RX, CX in Ef.
    match type of Ef with bind ?x _ = _ => destruct x as [[X1 U]|] eqn:E1; cbn [bind] in Ef; [|discriminate] end.
    assert (D : nr X1 = nr X /\ nc X1 <> 0 /\ match U with Some u => nr u = nc X | None => nc X1 = nc X end).
    { destruct (Nat.ltb_spec (nr X) (nc X)); [|apply Ok_inj in E1; injection E1 as <- <-; rewrite RX, CX; auto].
      unfold svd_U, svd_V, svd_S, make_svd in E1. destruct (svd (transpose X')) as [[[u l] vh]|] eqn:Es; cbn [bind fst snd] in E1; [|discriminate]. destruct (Hsvd _ _ _ _ Es) as (D1 & D2 & D3). cbn [transpose nr nc mk] in D1, D2, D3. rewrite RX, CX in *.
      destruct (mul _ _) as [X2|] eqn:E2; cbn [bind] in E1; [|discriminate]. apply Ok_inj in E1. injection E1 as <- <-. apply mul_shaped in E2. destruct E2 as ((_ & M1 & M2) & _). cbn [mul_scalar map_mat nr mk] in M1 |- *. rewrite M1, M2. unfold num_elements. cbn [nr nc]. rewrite Nat.mul_1_l, D3.
      replace (Nat.min (nc X) (nr X)) with (nr X) in * by lia. split; [exact D2|]. split; [|exact D1]. rewrite np_array2_tab by exact Hr. cbn [nc mk]. exact Hr. }
    destruct D as (D1 & D2 & D3). destruct (residual_weights _ None X1 Y') as [W1|]; cbn [bind] in Ef; [|discriminate]. destruct (leverage_weights _ X1) as [W2|]; cbn [bind] in Ef; [|discriminate].
    destruct (prm_while _ _ _ _ _ _ _ _ _ _) as [[[[[[Wr Wx] Ts] g] s1] it']|] eqn:Ew; cbn [bind] in Ef; [|discriminate]. apply prm_while_shaped in Ew; [|lia|exact D2]. destruct Ew as (S1 & S2 & S3). rewrite D1 in S1, S2.
    destruct (si_B (p_own s1)) as [co|]; cbn [need bind] in Ef; [|discriminate]. specialize (S3 co eq_refl). match type of Ef with bind ?x _ = _ => destruct x as [co2|] eqn:E3; cbn [bind] in Ef; [|discriminate] end. apply Ok_inj in Ef. injection Ef as <- _. cbn [pm_coef pm_W_r pm_W_x].
    split; [|now split]. destruct U as [u|]; [|apply Ok_inj in E3; subst co2; now rewrite D3 in S3]. apply mul_shaped in E3. destruct E3 as (E3 & _). destruct S3 as (_ & _ & S3). now rewrite D3, S3 in E3. }
  destruct I as (S1 & S2 & S3). assert (SW : exists w, mul_elementwise (pm_W_r mo) (pm_W_x mo) = Ok w /\ shaped (nr X) 1 w).
  { destruct S2 as (_ & A1 & A2), S3 as (_ & A3 & A4). unfold mul_elementwise, same_shape_as. rewrite A1, A2, A3, A4, !Nat.eqb_refl. cbn [andb negb]. eexists. split; [reflexivity|]. split; [apply mk_wf|]. cbn [map2_mat nr nc mk]. now split. }
  destruct SW as (w & Ew & SW). split; [reflexivity|]. split.
  - intros n r q Hin. unfold prm_matrix, prm_attr. cbn [pr_model option_map need bind]. cbn in Hin. destruct Hin as [Hin|[Hin|[Hin|[Hin|[]]]]]; injection Hin as <- <- <-; cbn [String.eqb Ascii.eqb Bool.eqb]; try (eexists; split; [reflexivity|assumption]).
    rewrite Ew. cbn [bind]. eexists. split; [reflexivity|assumption].
  - intros n Hin. unfold prm_matrix. destruct (String.eqb_spec n "W") as [->|]; [exfalso; apply Hin; cbn; tauto|]. unfold look. cbn [find fst snd].
    repeat match goal with |- context [String.eqb n ?k] => destruct (String.eqb_spec n k) as [->|]; [exfalso; apply Hin; cbn; tauto|] end. reflexivity.
Qed.
End Classes.

(** * C94: predicting and transforming leave what is published as it is *)
Definition keeps_published {T} `{Num T} {A K V} (c : pls_class A K T) (get : A -> V) : Prop :=
  forall s X, get (p_own (fst (predict c s X))) = get (p_own s) /\ get (p_own (fst (transform c s X))) = get (p_own s).
Section Kept.
Context {T : Type} `{Num T}.
Variables (lstsq : mat T -> mat T -> res (mat T)) (eig : mat T -> res (list T * mat T)) (pinv : mat T -> res (mat T)) (svd : mat T -> res (mat T * list T * mat T)).
Lemma kept {A K V} (c : pls_class A K T) (get : A -> V) : (forall n a X, get (fst (c_predict c n a X)) = get a) -> (forall n a X, get (fst (c_transform c n a X)) = get a) -> keeps_published c get.
Proof.
  intros HP HT s X. unfold predict, transform, do_predict. destruct (p_initialised s); cbn [negb fst]; [|now split]. specialize (HP (p_num_components s) (p_own s) X). specialize (HT (p_num_components s) (p_own s) X).
  destruct (c_predict c _ _ X), (c_transform c _ _ X). cbn [fst set_own p_own] in *. now split.
Qed.
Ltac kept_tac := apply kept; intros n a X; cbn -[t_transform]; repeat match goal with |- context [match ?x with _ => _ end] => destruct x; cbn -[t_transform] end; try reflexivity.
Theorem C94_kept_pls1 : keeps_published (pls1 lstsq) pls1_matrix.
Proof. kept_tac. Qed.
Theorem C94_kept_vcpls : keeps_published (vcpls lstsq eig) (fun a => pls1_matrix (vc_pls1 a)).
Proof. kept_tac. Qed.
Theorem C94_kept_simpls : keeps_published (simpls eig) simpls_matrix.
Proof. kept_tac. Qed.
Theorem C94_kept_prm : keeps_published (prm eig svd) prm_matrix.
Proof. kept_tac. Qed.
Theorem C94_kept_opls {AB KB} (base : pls_class AB KB T) : keeps_published (opls base) opls_matrix.
Proof. apply kept; intros n a X; [|reflexivity]. cbn [c_predict opls]. unfold opls_predict. destruct (opls_transform _ _ X); [|reflexivity]. now destruct (predict base _ _). Qed.
Lemma kept_nipals mode d asg : keeps_published (nipals_class lstsq pinv mode d asg) nipals_matrix.
Proof. apply kept; intros n a X; cbn [c_predict c_transform nipals_class]; unfold nipals_predict, nipals_transform, nipals_apply; now destruct (t_transform standardize _ X) as [? [?|?]]. Qed.
Theorem C94_kept_nipals : keeps_published (nipals lstsq pinv) nipals_matrix.
Proof. apply kept_nipals. Qed.
Theorem C94_kept_cca_regression : keeps_published (cca_regression lstsq pinv) nipals_matrix.
Proof. apply kept_nipals. Qed.
Theorem C94_kept_kernel_pls {KS} rnd (kernel0 : KS) kapply : keeps_published (kernel_pls lstsq rnd kernel0 kapply) kpls_matrix.
Proof.
  assert (KT : forall a X, kp_model (fst (kpls_transform (T:=T) kapply a X)) = kp_model a).
  { intros a X. unfold kpls_transform. destruct (t_transform center _ X) as [? [?|?]]; cbn [kp_model kp_kernel]; [|reflexivity]. destruct (kp_model a); [|reflexivity]. now destruct (kapply _ _ _). }
  apply kept; intros n a X; cbn [c_predict c_transform kernel_pls]; unfold kpls_matrix, kpls_attr; [|now rewrite KT].
  unfold kpls_predict. rewrite <- (KT a X). destruct (kpls_transform kapply a X) as [a' r]. cbn [fst]. destruct (bind r _); [|reflexivity]. now destruct (t_inverse center _ _).
Qed.
Theorem C94_kept_sparse_pls : keeps_published (sparse_pls lstsq pinv) sparse_matrix.
Proof. apply kept; intros n a X; cbn [c_predict c_transform sparse_pls]; [|reflexivity]. unfold sparse_predict. now destruct (t_transform standardize _ X). Qed.
Theorem C94_kept_dipls : keeps_published (dipls lstsq) dipls_matrix.
Proof. apply kept; intros n a X; cbn [c_predict c_transform dipls]; unfold dipls_predict, dipls_transform; [destruct (di_strategy a)|]; now destruct (t_transform center _ X). Qed.
End Kept.

(** * C95: what an object that is not trained publishes *)
(** A new object; any object after reset(), after a refused initialize, after an assignment that was validated, after initialize() *)
Definition silent_untrained {T} `{Num T} {A K} (c : pls_class A K T) (get : A -> string -> res (option (mat T))) : Prop :=
  publishes_nothing (get (p_own (construct c))) /\
  forall s, publishes_nothing (get (p_own (reset c s))) /\
    (forall X Y s' m, initialize c s (Some X) (Some Y) = (s', Ok (Some m)) -> publishes_nothing (get (p_own s'))) /\
    (forall k s', a_valid c k = Some true -> setattr c s k = (s', Ok tt) -> publishes_nothing (get (p_own s'))) /\
    publishes_nothing (get (p_own (fst (initialize c s None None)))).
Section Silent.
Context {T : Type} `{Num T}.
Lemma silent {A K} (c : pls_class A K T) get : (forall a, publishes_nothing (get (c_reset c a))) -> (forall k a, publishes_nothing (get a) -> publishes_nothing (get (c_assign c k a))) ->
  (forall a, publishes_nothing (get a) -> publishes_nothing (get (c_fresh c a))) -> (forall n a X Y m, snd (c_train c n a X Y) = Ok (Some m) -> fst (c_train c n a X Y) = a) -> silent_untrained c get.
Proof.
  intros HR HA HF HT. assert (S1 : forall s k, publishes_nothing (get (p_own s)) -> publishes_nothing (get (p_own (fst (setattr c s k))))).
  { intros s k Hs. unfold setattr. destruct (a_valid c k) as [[|]|]; cbn [fst]; [|exact Hs|]; destruct k; cbn [a_store p_own set_own reset]; auto. }
  assert (S2 : forall s, publishes_nothing (get (p_own (initialize_members c s)))).
  { intros s. unfold initialize_members. cbn [set_own p_own]. apply HF. assert (S0 : publishes_nothing (get (p_own (fst (setattr c (fst (setattr c s (ANumComponents 5))) (APreprocessing PP_NONE)))))) by apply HR.
    revert S0. generalize (fst (setattr c (fst (setattr c s (ANumComponents 5))) (APreprocessing PP_NONE))) as s'. induction (c_defaults c) as [|k l IH]; intros s' Hs; [exact Hs|]. cbn [fold_left]. apply IH, S1, Hs. }
  split; [apply HR|]. intros s. split; [apply HR|]. split; [|split; [|apply S2] ].
  - intros X Y s' m E. unfold initialize in E. destruct (check_data c Y) as [m'|]; [apply (f_equal fst) in E; cbn [fst] in E; subst s'; apply HR|].
    unfold do_initialize in E. destruct (prepare c _ Y) as [[[[mean std] tp] tr]|]; [|discriminate]. destruct (pt_fit tp X) as [tp' [X1|]]; [|discriminate]. destruct (pt_fit tr Y) as [tr' [Y1|]]; [|discriminate].
    cbn [set_prep p_num_components p_own reset] in E. specialize (HT (p_num_components s) (c_reset c (p_own s)) X1 Y1). destruct (c_train c _ _ X1 Y1) as [a1 r1]. cbn [fst snd] in HT. destruct r1 as [[m'|]|]; cbn in E; try discriminate. specialize (HT m' eq_refl). subst a1. apply (f_equal fst) in E. cbn [fst] in E. subst s'. apply HR.
  - intros k s' Hv E. unfold setattr in E. rewrite Hv in E. apply (f_equal fst) in E. cbn [fst] in E. subst s'. destruct k; cbn [a_store p_own set_own reset]; auto.
Qed.
Variables (lstsq : mat T -> mat T -> res (mat T)) (eig : mat T -> res (list T * mat T)) (pinv : mat T -> res (mat T)) (svd : mat T -> res (mat T * list T * mat T)).
Ltac no_name := let q := fresh "name" in intros q; unfold pls1_matrix, nipals_matrix, kpls_matrix, opls_matrix, sparse_matrix, dipls_matrix, simpls_matrix, nipals_attr, kpls_attr, dipls_attr, look; cbn;
  repeat match goal with |- context [String.eqb q ?k] => destruct (String.eqb q k); cbn end; reflexivity.
Theorem C95_pls1_partial : silent_untrained (pls1 lstsq) (fun a n => Ok (pls1_matrix a n)).
Proof. apply silent; [intros a; no_name|intros k a Ha; destruct k|intros a Ha; exact Ha|]. intros n a X Y m. cbn [c_train pls1]. destruct (pls1_fit _ _ n X Y); discriminate. Qed.
Theorem C95_vcpls_partial : silent_untrained (vcpls lstsq eig) (fun a n => Ok (pls1_matrix (vc_pls1 a) n)).
Proof. apply silent; [intros a; no_name|intros k a Ha; exact Ha|intros a Ha; exact Ha|]. intros n a X Y m. cbn [c_train vcpls]. destruct (pls1_fit _ _ n X Y); discriminate. Qed.
Theorem C95_opls_partial {AB KB} (base : pls_class AB KB T) : silent_untrained (opls base) (fun a n => Ok (opls_matrix a n)).
Proof. apply silent; [intros a; no_name|intros k a Ha; exact Ha|intros a Ha; exact Ha|]. intros n a X Y m. cbn [c_train opls]. unfold opls_train. destruct (opls_fit _ _ _) as [[w [[[[Xo Xt] W] P] Tm]]|]; [|discriminate]. destruct (opls_transform _ _ _); [|discriminate]. now destruct (initialize base _ _ _) as [? [?|?]]. Qed.
Lemma silent_nipals mode d asg : silent_untrained (nipals_class lstsq pinv mode d asg) (fun a n => Ok (nipals_matrix a n)).
Proof.
  apply silent; [intros a; no_name|intros k a Ha; destruct k; exact Ha|intros a Ha; exact Ha|]. intros n a X Y m. cbn [c_train nipals_class]. unfold nipals_train.
  repeat match goal with |- context [match ?x with _ => _ end] => destruct x; cbn [snd] end; discriminate.
Qed.
Theorem C95_nipals_partial : silent_untrained (nipals lstsq pinv) (fun a n => Ok (nipals_matrix a n)).
Proof. apply silent_nipals. Qed.
Theorem C95_cca_regression_partial : silent_untrained (cca_regression lstsq pinv) (fun a n => Ok (nipals_matrix a n)).
Proof. apply silent_nipals. Qed.
Theorem C95_kernel_pls_partial {KS} rnd (kernel0 : KS) kapply : silent_untrained (kernel_pls lstsq rnd kernel0 kapply) (fun a n => Ok (kpls_matrix a n)).
Proof.
  apply silent; [intros a; no_name|intros k a Ha; destruct k; exact Ha|intros a Ha; exact Ha|]. intros n a X Y m. cbn [c_train kernel_pls]. unfold kpls_train.
  repeat match goal with |- context [match ?x with _ => _ end] => destruct x; cbn [snd] end; discriminate.
Qed.
Theorem C95_sparse_pls_partial : silent_untrained (sparse_pls lstsq pinv) (fun a n => Ok (sparse_matrix a n)).
Proof.
  apply silent; [intros a; no_name|intros k a Ha; destruct k; exact Ha|intros a Ha; exact Ha|]. intros n a X Y m. cbn [c_train sparse_pls]. unfold sparse_train.
  repeat match goal with |- context [match ?x with _ => _ end] => destruct x; cbn [snd] end; discriminate.
Qed.
Theorem C95_dipls_partial : silent_untrained (dipls lstsq) (fun a n => Ok (dipls_matrix a n)).
Proof.
  apply silent; [intros a; no_name|intros k a Ha; destruct k; exact Ha|intros a Ha; exact Ha|]. intros n a X Y m. cbn [c_train dipls]. unfold dipls_train.
  destruct (eye _ _); [|discriminate]. destruct ((di_ns a =? 0) || (di_nt a =? 0))%Z%bool; [reflexivity|]. destruct ((di_ns a =? 1) || (di_nt a =? 1))%Z%bool; [reflexivity|].
  match goal with |- context [match ?x with _ => _ end] => destruct x as [[[? ?] ?]|]; [|discriminate] end. do 2 (destruct (t_transform center _ _) as [? [?|]]; [|discriminate]). destruct (t_transform center _ _).
  match goal with |- context [match ?x with _ => _ end] => destruct x as [[? ?]|]; [|discriminate] end. match goal with |- context [match ?x with _ => _ end] => destruct x; discriminate end.
Qed.
(** SIMPLS: everything but Q *)
Theorem C95_simpls_partial : silent_untrained (simpls eig) (fun a n => if String.eqb n "Q" then Ok None else Ok (simpls_matrix a n)) /\
  publishes_nothing (fun n => Ok (simpls_matrix (p_own (construct (simpls eig))) n)) /\
  forall s, si_Q (p_own (reset (simpls eig) s)) = si_Q (p_own s).
Proof.
  split; [|split; [no_name|reflexivity] ]. apply silent; [intros a; no_name|intros k a Ha; exact Ha|intros a Ha; exact Ha|]. intros n a X Y m. cbn [c_train simpls]. destruct (simpls_fit _ _ _ _ _) as [[[? ?] ?]|]; discriminate.
Qed.
(** PRM: every name but W; W raises *)
Theorem C95_prm_partial : silent_untrained (prm eig svd) (fun a n => if String.eqb n "W" then Ok None else prm_matrix a n) /\
  prm_matrix (p_own (construct (prm eig svd))) "W" = Err AttributeError /\ forall s, prm_matrix (p_own (reset (prm eig svd) s)) "W" = Err AttributeError.
Proof.
  split; [|split; reflexivity]. apply silent; [|intros k a Ha; destruct k; exact Ha|intros a Ha; exact Ha|].
  - intros a q. unfold prm_matrix, prm_attr, look. cbn. repeat match goal with |- context [String.eqb q ?k] => destruct (String.eqb q k); cbn end; reflexivity.
  - intros n a X Y m. cbn [c_train prm]. destruct (prm_fit _ _ _ _ _ _) as [[? ?]|]; discriminate.
Qed.
End Silent.

(** * C94: the published matrices are the ones the object works with *)
Section Used.
Context {T : Type} `{Num T}.
Variables (lstsq : mat T -> mat T -> res (mat T)) (eig : mat T -> res (list T * mat T)) (pinv : mat T -> res (mat T)) (svd : mat T -> res (mat T * list T * mat T)).
Lemma predict_plain {A K} (c : pls_class A K T) s X : p_initialised s = true -> p_trans_response s = None -> snd (predict c s X) = snd (c_predict c (p_num_components s) (p_own s) X).
Proof. intros Hi Ht. unfold predict, do_predict. rewrite Hi, Ht. cbn [negb]. destruct (c_predict c _ _ X) as [a [r|]]; reflexivity. Qed.
Lemma transform_plain {A K} (c : pls_class A K T) s X : p_initialised s = true -> snd (transform c s X) = snd (c_transform c (p_num_components s) (p_own s) X).
Proof. intros Hi. unfold transform. rewrite Hi. cbn [negb]. now destruct (c_transform c _ _ X). Qed.
(** SIMPLS: scores X·W, predictions X·B *)
Theorem C94_used_simpls s X W B : p_initialised s = true -> simpls_matrix (p_own s) "W" = Some W -> simpls_matrix (p_own s) "B" = Some B ->
  snd (transform (simpls eig) s X) = mul X W /\ (p_trans_response s = None -> snd (predict (simpls eig) s X) = mul X B).
Proof.
  intros Hi EW EB. change (si_W (p_own s) = Some W) in EW. change (si_B (p_own s) = Some B) in EB. split; [rewrite transform_plain by exact Hi; cbn; now rewrite EW|]. intros Ht. rewrite predict_plain by assumption. cbn. now rewrite EB.
Qed.
(** PRM: predictions X·B; the final weights are the products of the residual and the leverage weights *)
Theorem C94_used_prm s X B : p_initialised s = true -> prm_matrix (p_own s) "B" = Ok (Some B) -> (p_trans_response s = None -> snd (predict (prm eig svd) s X) = mul X B) /\
  forall r x w, prm_matrix (p_own s) "Wr" = Ok (Some r) -> prm_matrix (p_own s) "Wx" = Ok (Some x) -> prm_matrix (p_own s) "W" = Ok (Some w) ->
    forall i j, i < nr r -> j < nc r -> entry w i j = nmul (entry r i j) (entry x i j).
Proof.
  intros Hi EB. cbn in EB. unfold prm_attr in EB. destruct (pr_model (p_own s)) as [m|] eqn:Em; cbn [option_map] in EB; [|discriminate]. injection EB as <-. split.
  - intros Ht. rewrite predict_plain by assumption. cbn. now rewrite Em.
  - intros r x w Er Ex Ew i j Hr Hc. cbn in Er, Ex. unfold prm_matrix, prm_attr in *. rewrite Em in *. cbn in Er, Ex, Ew. injection Er as <-. injection Ex as <-. destruct (mul_elementwise _ _) as [w'|] eqn:E; [|discriminate]. injection Ew as <-.
    unfold mul_elementwise in E. destruct (negb _); [discriminate|]. apply Ok_inj in E. subst w'. unfold map2_mat. now rewrite entry_mk.
Qed.
(** OPLS: transform removes X·W_orth·P_orth' *)
Theorem C94_used_opls {AB KB} (base : pls_class AB KB T) s X W P : p_initialised s = true -> opls_matrix (p_own s) "W_orth" = Some W -> opls_matrix (p_own s) "P_orth" = Some P ->
  snd (transform (opls base) s X) = do t <- mul X W; do o <- mul t (transpose P); sub X o.
Proof. intros Hi EW EP. change (op_W (p_own s) = Some W) in EW. change (op_P (p_own s) = Some P) in EP. rewrite transform_plain by exact Hi. cbn. unfold opls_transform. now rewrite EW, EP. Qed.
(** DIPLS: scores (X - mean)·Wdi, predictions (X - mean)·bdi + b0, with the mean of the rows of the strategy *)
Theorem C94_used_dipls s (X W b : mat T) : p_initialised s = true -> dipls_matrix (p_own s) "Wdi" = Some W -> dipls_matrix (p_own s) "bdi" = Some b ->
  (forall X1, snd (t_transform center (di_X_center (p_own s)) X) = Ok X1 -> snd (transform (dipls lstsq) s X) = mul X1 W) /\
  (forall X1 b0, p_trans_response s = None -> di_b_0 (p_own s) = Some b0 ->
     snd (t_transform center (match di_strategy (p_own s) with UNSUPERVISED => di_X_t_center (p_own s) | _ => di_X_center (p_own s) end) X) = Ok X1 ->
     snd (predict (dipls lstsq) s X) = do g <- mul X1 b; Ok (add_scalar g b0)).
Proof.
  intros Hi EW Eb. cbn in EW, Eb. unfold dipls_attr in *. destruct (di_model (p_own s)) as [m|] eqn:Em; cbn [option_map] in *; [|discriminate]. injection EW as <-. injection Eb as <-. split.
  - intros X1 E. rewrite transform_plain by exact Hi. cbn [c_transform dipls]. unfold dipls_transform. destruct (t_transform center _ X) as [cx r]. cbn [snd] in *. subst r. cbn [bind]. rewrite Em. reflexivity.
  - intros X1 b0 Ht E0 E. rewrite predict_plain by assumption. cbn [c_predict dipls]. unfold dipls_predict. destruct (di_strategy (p_own s)); destruct (t_transform center _ X) as [cx r]; cbn [snd] in *; subst r; cbn [bind]; rewrite Em, E0; reflexivity.
Qed.
End Used.

(** * Examples and the refutation *)
Definition e95_eig (m : mat f64) : res (list f64 * mat f64) := Ok ([entry m 0 0], mk 1 1 (fun _ _ => fz 1)).
Definition e95_h : list (pls_op Z f64) := [OSet (ANumComponents 1); OInitialize (Some (Mat 4 2 [[fz 1; fz 0]; [fz 2; fz 1]; [fz 4; fz 0]; [fz 0; fz 3]])) (Some (Mat 4 1 [[fz 1]; [fz 2]; [fz 5]; [fz 3]]))].
(** After reset() SIMPLS still publishes the Q of the training before *)
Theorem C95_refuted : let s := pls_run (simpls e95_eig) (e95_h ++ [OResetPls]) in
  p_initialised s = false /\ exists q, simpls_matrix (p_own s) "Q" = Some q /\ nr q = 1 /\ nc q = 1 /\ nltb n0 (nabs (entry q 0 0)) = true.
Proof. cbv zeta. split; [vm_compute; reflexivity|]. eexists. split; [vm_compute; reflexivity|]. vm_compute. auto. Qed.
(** NIPALS, two components from four rows of two columns: what C94 says, and after an assignment nothing *)
Example C94_ex : exists t p, let s := pls_run e92_cls e92_h in p_initialised s = true /\
  nipals_matrix (p_own s) "T" = Some t /\ (nr t, nc t) = (4, 2) /\ nipals_loadings (p_own s) = Some p /\ (nr p, nc p) = (2, 2) /\ nipals_matrix (p_own s) "W" = None.
Proof. do 2 eexists. cbv zeta. split; [vm_compute; reflexivity|]. split; [vm_compute; reflexivity|]. split; [reflexivity|]. split; [vm_compute; reflexivity|]. split; vm_compute; reflexivity. Qed.
Example C95_ex : (exists t, nipals_matrix (p_own (pls_run e92_cls e92_h)) "T" = Some t) /\ nipals_matrix (p_own (pls_run e92_cls (e92_h ++ [OSet (ANumComponents 1)]))) "T" = None /\
  exists b, simpls_matrix (p_own (pls_run (simpls e95_eig) e95_h)) "B" = Some b /\ simpls_matrix (p_own (pls_run (simpls e95_eig) (e95_h ++ [OResetPls]))) "B" = None.
Proof. split; [eexists; vm_compute; reflexivity|]. split; [vm_compute; reflexivity|]. eexists. split; vm_compute; reflexivity. Qed.
Print Assumptions C94_pls1.
Print Assumptions C94_vcpls.
Print Assumptions C94_simpls.
Print Assumptions C94_nipals.
Print Assumptions C94_cca_regression.
Print Assumptions C94_kernel_pls.
Print Assumptions C94_opls.
Print Assumptions C94_sparse_pls.
Print Assumptions C94_dipls.
Print Assumptions C94_prm.
Print Assumptions C94_kept_pls1.
Print Assumptions C94_kept_vcpls.
Print Assumptions C94_kept_simpls.
Print Assumptions C94_kept_prm.
Print Assumptions C94_kept_opls.
Print Assumptions C94_kept_nipals.
Print Assumptions C94_kept_cca_regression.
Print Assumptions C94_kept_kernel_pls.
Print Assumptions C94_kept_sparse_pls.
Print Assumptions C94_kept_dipls.
Print Assumptions C95_pls1_partial.
Print Assumptions C95_vcpls_partial.
Print Assumptions C95_opls_partial.
Print Assumptions C95_nipals_partial.
Print Assumptions C95_cca_regression_partial.
Print Assumptions C95_kernel_pls_partial.
Print Assumptions C95_sparse_pls_partial.
Print Assumptions C95_dipls_partial.
Print Assumptions C95_simpls_partial.
Print Assumptions C95_prm_partial.
Print Assumptions C94_used_simpls.
Print Assumptions C94_used_prm.
Print Assumptions C94_used_opls.
Print Assumptions C94_used_dipls.
Print Assumptions C95_refuted.
