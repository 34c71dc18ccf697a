(** Lemmas about the Fourier transform model: root-of-unity sums, inversion, Hermitian symmetry, column packing. *)
From Coq Require Import List ZArith Lia Bool Arith Reals Lra.
From Verif Require Import Base Num Mat M_Matrix M_FFT S_Matrix L_Base L_Mat L_Matrix L_MatR.
Import ListNotations.
Local Open Scope R_scope.

(** ** Sums of cosines and sines over a full period *)
Lemma telescope n (F : nat -> R) : sumn n (fun k => F (S k) - F k) = F n - F 0%nat.
Proof. induction n as [|n IH]; [rewrite sumR_0; ring|]. rewrite sumR_S, IH. ring. Qed.
Lemma cos_sum_gen t n : sumn n (fun k => 2 * sin (t / 2) * cos (t * INR k)) = sin (t * INR n - t / 2) + sin (t / 2).
Proof.
  rewrite (sumn_ext n _ (fun k => sin (t * INR (S k) - t / 2) - sin (t * INR k - t / 2))).
  - rewrite (telescope n (fun k => sin (t * INR k - t / 2))). cbn [INR]. replace (t * 0 - t / 2) with (- (t / 2)) by field. rewrite sin_neg. ring.
  - intros k _. rewrite S_INR. replace (t * (INR k + 1) - t / 2) with (t * INR k + t / 2) by field. rewrite sin_plus, sin_minus. ring.
Qed.
Lemma sin_sum_gen t n : sumn n (fun k => 2 * sin (t / 2) * sin (t * INR k)) = cos (t / 2) - cos (t * INR n - t / 2).
Proof.
  rewrite (sumn_ext n _ (fun k => - cos (t * INR (S k) - t / 2) - - cos (t * INR k - t / 2))).
  - rewrite (telescope n (fun k => - cos (t * INR k - t / 2))). cbn [INR]. replace (t * 0 - t / 2) with (- (t / 2)) by field. rewrite cos_neg. ring.
  - intros k _. rewrite S_INR. replace (t * (INR k + 1) - t / 2) with (t * INR k + t / 2) by field. rewrite cos_plus, cos_minus. ring.
Qed.
Lemma half_angle q n : (0 < q < n)%nat -> 0 < sin (PI * INR q / INR n).
Proof.
  intros Hq. pose proof PI_RGT_0 as HP. assert (0 < INR n) by (apply lt_0_INR; lia). assert (0 < INR q) by (apply lt_0_INR; lia). assert (INR q < INR n) by (apply lt_INR; lia).
  apply sin_gt_0.
  - apply Rdiv_lt_0_compat; [apply Rmult_lt_0_compat|]; assumption.
  - apply (Rmult_lt_reg_r (INR n)); [assumption|]. unfold Rdiv. rewrite Rmult_assoc, Rinv_l, Rmult_1_r by lra. apply Rmult_lt_compat_l; assumption.
Qed.
Lemma cos_sum q n : (0 < q < n)%nat -> sumn n (fun k => cos (2 * PI * INR q / INR n * INR k)) = 0.
Proof.
  intros Hq. assert (Hn : INR n <> 0) by (apply not_0_INR; lia). pose proof (half_angle q n Hq) as Hs. set (t := 2 * PI * INR q / INR n).
  assert (Ht : t / 2 = PI * INR q / INR n) by (unfold t; field; exact Hn).
  pose proof (cos_sum_gen t n) as E. rewrite sumR_scal in E. rewrite <- Ht in Hs.
  replace (t * INR n - t / 2) with (- (t / 2) + 2 * INR q * PI) in E by (unfold t; field; exact Hn). rewrite sin_period, sin_neg in E.
  apply (Rmult_eq_reg_l (2 * sin (t / 2))); [rewrite E; ring | lra].
Qed.
Lemma sin_sum q n : (0 < q < n)%nat -> sumn n (fun k => sin (2 * PI * INR q / INR n * INR k)) = 0.
Proof.
  intros Hq. assert (Hn : INR n <> 0) by (apply not_0_INR; lia). pose proof (half_angle q n Hq) as Hs. set (t := 2 * PI * INR q / INR n).
  assert (Ht : t / 2 = PI * INR q / INR n) by (unfold t; field; exact Hn).
  pose proof (sin_sum_gen t n) as E. rewrite sumR_scal in E. rewrite <- Ht in Hs.
  replace (t * INR n - t / 2) with (- (t / 2) + 2 * INR q * PI) in E by (unfold t; field; exact Hn). rewrite cos_period, cos_neg in E.
  apply (Rmult_eq_reg_l (2 * sin (t / 2))); [rewrite E; ring | lra].
Qed.
Lemma cos_orth n j l : (j < n)%nat -> (l < n)%nat ->
  sumn n (fun k => cos (angle_step n j k - angle_step n l k)) = if Nat.eq_dec j l then INR n else 0.
Proof.
  intros Hj Hl. assert (Hn : INR n <> 0) by (apply not_0_INR; lia). destruct (Nat.eq_dec j l) as [->|Hd].
  - rewrite (sumn_ext n _ (fun _ => 1)) by (intros; rewrite Rminus_diag_eq, cos_0 by reflexivity; reflexivity). rewrite sumR_const. ring.
  - destruct (Nat.lt_ge_cases j l) as [H|H].
    + rewrite <- (cos_sum (l - j) n) by lia. apply sumn_ext. intros k _. rewrite <- cos_neg. f_equal. unfold angle_step. rewrite minus_INR by lia. field. exact Hn.
    + rewrite <- (cos_sum (j - l) n) by lia. apply sumn_ext. intros k _. f_equal. unfold angle_step. rewrite minus_INR by lia. field. exact Hn.
Qed.
Lemma sin_orth n j l : (j < n)%nat -> (l < n)%nat -> sumn n (fun k => sin (angle_step n j k - angle_step n l k)) = 0.
Proof.
  intros Hj Hl. assert (Hn : INR n <> 0) by (apply not_0_INR; lia). destruct (Nat.eq_dec j l) as [->|Hd].
  - apply sumR_zero. intros k _. now rewrite Rminus_diag_eq, sin_0 by reflexivity.
  - destruct (Nat.lt_ge_cases j l) as [H|H].
    + rewrite (sumn_ext n _ (fun k => - sin (2 * PI * INR (l - j) / INR n * INR k))).
      * rewrite sumR_opp, sin_sum by lia. ring.
      * intros k _. rewrite <- sin_neg. f_equal. unfold angle_step. rewrite minus_INR by lia. field. exact Hn.
    + rewrite <- (sin_sum (j - l) n) by lia. apply sumn_ext. intros k _. f_equal. unfold angle_step. rewrite minus_INR by lia. field. exact Hn.
Qed.

(** ** The transform of a real vector *)
Definition dre (n : nat) (x : nat -> R) (k : nat) : R := sumn n (fun j => x j * cos (angle_step n j k)).
Definition dim (n : nat) (x : nat -> R) (k : nat) : R := - sumn n (fun j => x j * sin (angle_step n j k)).
Lemma dft_inverse_re n x j : (j < n)%nat -> sumn n (fun k => dre n x k * cos (angle_step n j k) - dim n x k * sin (angle_step n j k)) = INR n * x j.
Proof.
  intros Hj. unfold dre, dim.
  rewrite (sumn_ext n _ (fun k => sumn n (fun l => x l * cos (angle_step n j k - angle_step n l k)))).
  - rewrite sumR_swap. rewrite (sumn_ext n _ (fun l => if Nat.eq_dec l j then INR n * x l else 0)).
    + rewrite (sumR_single n j _ Hj). * destruct (Nat.eq_dec j j); [reflexivity|congruence]. * intros l Hl Hd. destruct (Nat.eq_dec l j); congruence.
    + intros l Hl. rewrite sumR_scal, cos_orth by assumption. destruct (Nat.eq_dec j l) as [E1|E1]; destruct (Nat.eq_dec l j) as [E|E]; try congruence; ring.
  - intros k _. rewrite <- !sumR_scal_r. replace (- sumn n (fun j0 => x j0 * sin (angle_step n j0 k)) * sin (angle_step n j k)) with (- sumn n (fun l => x l * sin (angle_step n l k) * sin (angle_step n j k))).
    + unfold Rminus at 1. rewrite Ropp_involutive, <- sumR_plus. apply sumn_ext. intros l _. rewrite cos_minus. ring.
    + rewrite sumR_scal_r. ring.
Qed.
Lemma dft_inverse_im n x j : (j < n)%nat -> sumn n (fun k => dre n x k * sin (angle_step n j k) + dim n x k * cos (angle_step n j k)) = 0.
Proof.
  intros Hj. unfold dre, dim.
  rewrite (sumn_ext n _ (fun k => sumn n (fun l => x l * sin (angle_step n j k - angle_step n l k)))).
  - rewrite sumR_swap. apply sumR_zero. intros l Hl. rewrite sumR_scal, sin_orth by assumption. ring.
  - intros k _. rewrite <- !sumR_scal_r. replace (- sumn n (fun j0 => x j0 * sin (angle_step n j0 k)) * cos (angle_step n j k)) with (- sumn n (fun l => x l * sin (angle_step n l k) * cos (angle_step n j k))).
    + change (?a + - ?b) with (a - b). rewrite <- sumR_minus. apply sumn_ext. intros l _. rewrite sin_minus. ring.
    + rewrite sumR_scal_r. ring.
Qed.
Lemma angle_conj n j k : (k <= n)%nat -> n <> 0%nat -> angle_step n j (n - k) = - angle_step n j k + 2 * INR j * PI.
Proof. intros Hk Hn. unfold angle_step. rewrite minus_INR by assumption. field. now apply not_0_INR. Qed.
Lemma dre_conj n x k : (k <= n)%nat -> dre n x (n - k) = dre n x k.
Proof. intros Hk. apply sumn_ext. intros j Hj. rewrite angle_conj, cos_period, cos_neg by lia. reflexivity. Qed.
Lemma dim_conj n x k : (k <= n)%nat -> dim n x (n - k) = - dim n x k.
Proof.
  intros Hk. unfold dim. f_equal. rewrite <- sumR_opp. apply sumn_ext. intros j Hj. rewrite angle_conj, sin_period, sin_neg by lia. ring.
Qed.
Lemma dim_0 n x : dim n x 0 = 0.
Proof. unfold dim. rewrite sumR_zero; [ring|]. intros j Hj. unfold angle_step. cbn [INR]. replace (2 * PI * INR j * 0 / INR n) with 0 by (unfold Rdiv; ring). rewrite sin_0. ring. Qed.
Lemma dim_nyquist n x k : (2 * k = n)%nat -> dim n x k = 0.
Proof. intros Hk. pose proof (dim_conj n x k ltac:(lia)) as E. replace (n - k)%nat with k in E by lia. lra. Qed.

(** ** Column lists *)
Local Open Scope nat_scope.
Lemma np_range_tab a b s : s <> 0 -> np_range a b s = tab (range_len (Z.of_nat a) (Z.of_nat b) (Z.of_nat s)) (fun k => a + k * s).
Proof.
  intros Hs. unfold np_range, pyrange. rewrite map_tab. apply tab_ext. intros k Hk. lia.
Qed.
Lemma np_range_1 a b : np_range a b 1 = tab (b - a) (fun k => a + k).
Proof. rewrite np_range_tab by lia. change (Z.of_nat 1) with 1%Z. rewrite range_len_1. replace (Z.to_nat (Z.of_nat b - Z.of_nat a)) with (b - a) by lia. apply tab_ext. intros; lia. Qed.

Lemma np_range_odd n : np_range 1 n 2 = tab (n / 2) (fun k => 2 * k + 1).
Proof.
  rewrite np_range_tab by lia. replace (range_len (Z.of_nat 1) (Z.of_nat n) (Z.of_nat 2)) with (n / 2).
  - apply tab_ext. intros; lia.
  - change (Z.of_nat 1) with 1%Z. change (Z.of_nat 2) with 2%Z. unfold range_len. cbn [Z.ltb Z.compare].
    replace (Z.of_nat n - 1 + 2 - 1)%Z with (Z.of_nat n) by lia. change 2%Z with (Z.of_nat 2). rewrite <- Nat2Z.inj_div. now rewrite Nat2Z.id.
Qed.
Lemma np_range_even n : np_range 2 n 2 = tab ((n - 1) / 2) (fun k => 2 * k + 2).
Proof.
  rewrite np_range_tab by lia. replace (range_len (Z.of_nat 2) (Z.of_nat n) (Z.of_nat 2)) with ((n - 1) / 2).
  - apply tab_ext. intros; lia.
  - change (Z.of_nat 2) with 2%Z. unfold range_len. cbn [Z.ltb Z.compare]. destruct n as [|n]; [reflexivity|].
    replace (Z.of_nat (S n) - 2 + 2 - 1)%Z with (Z.of_nat n) by lia. change 2%Z with (Z.of_nat 2). rewrite <- Nat2Z.inj_div. rewrite Nat2Z.id. f_equal. lia.
Qed.
(** the two lists filled by the loop over columns 1 .. n-1 *)
Lemma filter_odd n : filter (fun i => i mod 2 =? 1) (np_range 1 n 1) = tab (n / 2) (fun k => 2 * k + 1).
Proof.
  rewrite np_range_1. destruct n as [|n]; [reflexivity|]. replace (S n - 1) with n by lia. induction n as [|n IH]; [reflexivity|].
  rewrite tab_S, filter_app, IH. cbn [filter]. pose proof (Nat.div_mod (S (S n)) 2 ltac:(lia)) as D. pose proof (Nat.div_mod (S n) 2 ltac:(lia)) as D'.
  pose proof (Nat.mod_upper_bound (S (S n)) 2 ltac:(lia)). pose proof (Nat.mod_upper_bound (S n) 2 ltac:(lia)).
  replace (1 + n) with (S n) by lia. destruct (Nat.eqb_spec (S n mod 2) 1) as [E|E].
  - replace (S (S n) / 2) with (S (S n / 2)) by lia. rewrite tab_S. do 2 f_equal. lia.
  - replace (S (S n) / 2) with (S n / 2) by lia. apply app_nil_r.
Qed.
Lemma filter_even n : filter (fun i => negb (i mod 2 =? 1)) (np_range 1 n 1) = tab ((n - 1) / 2) (fun k => 2 * k + 2).
Proof.
  rewrite np_range_1. destruct n as [|n]; [reflexivity|]. replace (S n - 1) with n by lia. induction n as [|n IH]; [reflexivity|].
  rewrite tab_S, filter_app, IH. cbn [filter]. pose proof (Nat.div_mod (S n) 2 ltac:(lia)) as D. pose proof (Nat.div_mod n 2 ltac:(lia)) as D'.
  pose proof (Nat.mod_upper_bound n 2 ltac:(lia)). pose proof (Nat.mod_upper_bound (S n) 2 ltac:(lia)).
  replace (1 + n) with (S n) by lia. destruct (Nat.eqb_spec (S n mod 2) 1) as [E|E]; cbn [negb].
  - replace (S n / 2) with (n / 2) by lia. apply app_nil_r.
  - replace (S n / 2) with (S (n / 2)) by lia. rewrite tab_S. do 2 f_equal. lia.
Qed.
Lemma nth_flat_map_pair {A B} (f g : A -> B) m (h : nat -> A) d k : k < m ->
  nth (2 * k) (flat_map (fun i => [f i; g i]) (tab m h)) d = f (h k) /\ nth (2 * k + 1) (flat_map (fun i => [f i; g i]) (tab m h)) d = g (h k).
Proof.
  revert h k. induction m as [|m IH]; intros h k Hk; [lia|]. rewrite tab_S_hd. cbn [flat_map app]. destruct k as [|k]; [split; reflexivity|].
  replace (2 * S k) with (S (S (2 * k))) by lia. cbn [nth]. replace (S (S (2 * k)) + 1) with (S (S (2 * k + 1))) by lia. cbn [nth]. apply (IH (fun i => h (S i))). lia.
Qed.
Lemma flat_map_pair_length {A B} (f g : A -> B) m (h : nat -> A) : length (flat_map (fun i => [f i; g i]) (tab m h)) = 2 * m.
Proof. revert h. induction m as [|m IH]; intros h; [reflexivity|]. rewrite tab_S_hd. cbn [flat_map app length]. rewrite IH. lia. Qed.
Lemma even_true n : even n = true -> n = 2 * (n / 2).
Proof. unfold even. intros E. apply Nat.eqb_eq in E. pose proof (Nat.div_mod n 2 ltac:(lia)). lia. Qed.
Lemma even_false n : even n = false -> n = 2 * (n / 2) + 1.
Proof. unfold even. intros E. apply Nat.eqb_neq in E. pose proof (Nat.div_mod n 2 ltac:(lia)). pose proof (Nat.mod_upper_bound n 2 ltac:(lia)). lia. Qed.
Lemma half_pred n : n <> 0 -> (n - 1) / 2 = if even n then n / 2 - 1 else n / 2.
Proof.
  intros Hn. pose proof (Nat.div_mod (n - 1) 2 ltac:(lia)). pose proof (Nat.mod_upper_bound (n - 1) 2 ltac:(lia)).
  destruct (even n) eqn:E; [apply even_true in E|apply even_false in E]; lia.
Qed.
(** first column, pairs, and a last column when the number of columns is even *)
Lemma pairs_length {A B} (x y : B) (f g : A -> B) n (h : nat -> A) : n <> 0 ->
  length (x :: flat_map (fun i => [f i; g i]) (tab ((n - 1) / 2) h) ++ (if even n then [y] else [])) = n.
Proof.
  intros Hn. cbn [length]. rewrite app_length, flat_map_pair_length, half_pred by assumption.
  destruct (even n) eqn:E; [apply even_true in E|apply even_false in E]; cbn [length]; lia.
Qed.
Lemma pairs_nth {A B} (x y : B) (f g : A -> B) n (h : nat -> A) d c : c < n ->
  nth c (x :: flat_map (fun i => [f i; g i]) (tab ((n - 1) / 2) h) ++ (if even n then [y] else [])) d
  = if c =? 0 then x else if even n && (c =? n - 1) then y else if even c then g (h ((c - 1) / 2)) else f (h ((c - 1) / 2)).
Proof.
  intros Hc. destruct c as [|c]; [reflexivity|]. cbn [nth]. change (S c =? 0) with false. cbv iota. replace (S c - 1) with c by lia.
  pose proof (half_pred n ltac:(lia)) as HP. destruct (even n && (S c =? n - 1)) eqn:E.
  - apply andb_true_iff in E. destruct E as [E1 E2]. apply Nat.eqb_eq in E2. rewrite E1 in HP |- *. apply even_true in E1.
    rewrite app_nth2; rewrite flat_map_pair_length; [|lia]. replace (c - 2 * ((n - 1) / 2)) with 0 by lia. reflexivity.
  - assert (HL : c < 2 * ((n - 1) / 2)).
    { destruct (even n) eqn:E1; cbn [andb] in E; [apply even_true in E1; apply Nat.eqb_neq in E|apply even_false in E1]; lia. }
    rewrite app_nth1 by (rewrite flat_map_pair_length; exact HL).
    destruct (even (S c)) eqn:E2; [apply even_true in E2|apply even_false in E2].
    + assert (Hq : c = 2 * (c / 2) + 1). { pose proof (Nat.div_mod c 2 ltac:(lia)). pose proof (Nat.mod_upper_bound c 2 ltac:(lia)). lia. }
      rewrite Hq at 1. apply nth_flat_map_pair. lia.
    + assert (Hq : c = 2 * (c / 2)). { pose proof (Nat.div_mod c 2 ltac:(lia)). pose proof (Nat.mod_upper_bound c 2 ltac:(lia)). lia. }
      rewrite Hq at 1. apply nth_flat_map_pair. lia.
Qed.

Lemma nth_removelast {A} (l : list A) d p : p < length l - 1 -> nth p (removelast l) d = nth p l d.
Proof.
  revert p. induction l as [|a l IH]; intros p Hp; [cbn in Hp; lia|]. destruct l as [|b l]; [cbn in Hp; lia|].
  cbn [removelast]. destruct p as [|p]; [reflexivity|]. cbn [nth]. apply IH. cbn [length] in *. lia.
Qed.
(** reversed(l[1:]) + l : the middle is the first element of l *)
Lemma mirror_nth {A} (l : list A) d p h : length l = S h -> p < 2 * h + 1 ->
  nth p (rev (tl l) ++ l) d = nth (if p <? h then h - p else p - h) l d.
Proof.
  intros Hl Hp. destruct l as [|a l]; [discriminate|]. cbn [tl]. injection Hl as Hl. destruct (Nat.ltb_spec p h) as [Hq|Hq].
  - rewrite app_nth1 by (rewrite rev_length; lia). rewrite rev_nth by lia. rewrite Hl. replace (h - p) with (S (h - S p)) by lia. reflexivity.
  - rewrite app_nth2 by (rewrite rev_length; lia). rewrite rev_length, Hl. reflexivity.
Qed.
Lemma mirror_neg_nth (l : list col) d p h r : length l = S h -> p < 2 * h + 1 ->
  nth p (map (fun (x : col) r => (-1 * x r)%R) (rev (tl l)) ++ l) d r
  = if p <? h then (-1 * nth (h - p) l d r)%R else nth (p - h) l d r.
Proof.
  intros Hl Hp. destruct l as [|a l]; [discriminate|]. cbn [tl]. injection Hl as Hl. destruct (Nat.ltb_spec p h) as [Hq|Hq].
  - rewrite app_nth1 by (rewrite map_length, rev_length; lia). rewrite nth_map' with (d0 := d) by (rewrite rev_length; lia).
    rewrite rev_nth by lia. rewrite Hl. replace (h - p) with (S (h - S p)) by lia. reflexivity.
  - rewrite app_nth2 by (rewrite map_length, rev_length; lia). rewrite map_length, rev_length, Hl. reflexivity.
Qed.

(** ** Packing *)
Definition packed (re im : nat -> R) (c : nat) : R :=
  if c =? 0 then re 0 else if even c then im (c / 2) else re ((c + 1) / 2).
Lemma stack_is rows cols : is_mat (stack rows cols) rows (length cols) (fun r j => nth j cols (fun _ => 0%R) r).
Proof. apply is_mat_mk. Qed.
Lemma roll_lt n s i : n <> 0 -> roll n s i < n.
Proof. intros. unfold roll. now apply Nat.mod_upper_bound. Qed.
Lemma roll_half n k : n <> 0 -> n / 2 + k < n -> roll n (n / 2) (n / 2 + k) = k.
Proof.
  intros Hn Hk. unfold roll. assert (n / 2 <= n) by (apply Nat.div_le_upper_bound; lia).
  replace (n / 2 + k + (n - n / 2)) with (k + 1 * n) by lia. rewrite Nat.mod_add by assumption. apply Nat.mod_small. lia.
Qed.
Lemma internal_format_spec (X : carr) : c_nc X <> 0 ->
  is_mat (internal_format (np_fftshift X)) (c_nr X) (c_nc X)
    (fun r c => packed (c_re X (roll (c_nr X) (c_nr X / 2) r)) (c_im X (roll (c_nr X) (c_nr X / 2) r)) c).
Proof.
  intros Hn. unfold internal_format, np_fftshift. cbn [c_nc c_nr c_re c_im]. set (n := c_nc X) in *.
  rewrite np_range_1. replace (n - (n / 2 + 1)) with ((n - 1) / 2).
  2:{ rewrite half_pred by assumption. destruct (even n) eqn:E; [apply even_true in E|apply even_false in E]; lia. }
  cbn [app]. match goal with |- is_mat (stack _ ?l) _ _ _ => set (cols := l) end.
  assert (HL : length cols = n) by (apply pairs_length; assumption).
  pose proof (stack_is (c_nr X) cols) as HS. rewrite HL in HS.
  eapply is_mat_fun_ext; [exact HS|]. intros r c Hr Hc. cbv beta. unfold cols. rewrite pairs_nth by assumption. unfold packed.
  destruct (Nat.eqb_spec c 0) as [->|Hc0].
  - f_equal. rewrite <- (Nat.add_0_r (n / 2)) at 2. apply roll_half; [assumption|]. pose proof (Nat.div_lt n 2). lia.
  - destruct (even n && (c =? n - 1)) eqn:E.
    + apply andb_true_iff in E. destruct E as [E1 E2]. apply Nat.eqb_eq in E2. apply even_true in E1.
      assert (Eo : even c = false). { unfold even. apply Nat.eqb_neq. replace c with (1 + (n / 2 - 1) * 2) by lia. rewrite Nat.mod_add by lia. discriminate. }
      rewrite Eo. f_equal. unfold roll. replace (0 + (n - n / 2)) with (n / 2) by lia. rewrite Nat.mod_small by lia.
      rewrite E2. replace (n - 1 + 1) with n by lia. reflexivity.
    + assert (HB : n / 2 + 1 + (c - 1) / 2 < n).
      { pose proof (Nat.div_mod (c - 1) 2 ltac:(lia)). pose proof (Nat.mod_upper_bound (c - 1) 2 ltac:(lia)).
        destruct (even n) eqn:E1; cbn [andb] in E; [apply even_true in E1; apply Nat.eqb_neq in E|apply even_false in E1]; lia. }
      rewrite <- Nat.add_assoc. rewrite roll_half by lia.
      destruct (even c) eqn:E2; [apply even_true in E2|apply even_false in E2].
      * f_equal. pose proof (Nat.div_mod (c - 1) 2 ltac:(lia)). pose proof (Nat.mod_upper_bound (c - 1) 2 ltac:(lia)). lia.
      * f_equal. pose proof (Nat.div_mod (c - 1) 2 ltac:(lia)). pose proof (Nat.mod_upper_bound (c - 1) 2 ltac:(lia)).
        pose proof (Nat.div_mod (c + 1) 2 ltac:(lia)). pose proof (Nat.mod_upper_bound (c + 1) 2 ltac:(lia)). lia.
Qed.

Lemma internal_unformat_spec (a : mat R) : nc a <> 0 ->
  c_nr (internal_unformat a) = nr a /\ c_nc (internal_unformat a) = nc a /\
  (forall r p, p < nc a ->
     let h := nc a / 2 in let k := if p <? h then h - p else p - h in
     c_re (internal_unformat a) r p = entry a r (if k =? 0 then 0 else 2 * k - 1) /\
     c_im (internal_unformat a) r p
     = (let v := if (k =? 0) || (2 * k =? nc a) then 0 else entry a r (2 * k) in if p <? h then -1 * v else v)%R).
Proof.
  intros Hn. unfold internal_unformat. set (n := nc a) in *. cbn [c_nr c_nc c_re c_im]. rewrite filter_odd, filter_even. rewrite !map_tab.
  set (c := fun i r => entry a r i).
  set (reals := (fun r => entry a r 0) :: tab (n / 2) (fun k r => entry a r (2 * k + 1))).
  set (imags := if even n then ((fun _ : nat => 0%R) :: tab ((n - 1) / 2) (fun k r => entry a r (2 * k + 2))) ++ [fun _ : nat => 0%R]
                else (fun _ : nat => 0%R) :: tab ((n - 1) / 2) (fun k r => entry a r (2 * k + 2))).
  assert (LR : length reals = S (n / 2)) by (unfold reals; cbn [length]; now rewrite tab_length).
  assert (LI : length imags = S (n / 2)).
  { unfold imags. pose proof (half_pred n Hn) as HP. destruct (even n) eqn:E; [apply even_true in E|apply even_false in E];
      rewrite ?app_length; cbn [length]; rewrite tab_length; lia. }
  assert (NR : forall k r, k <= n / 2 -> nth k reals (fun _ => 0%R) r = entry a r (if k =? 0 then 0 else 2 * k - 1)).
  { intros [|k] r Hk; [reflexivity|]. unfold reals. cbn [nth]. rewrite nth_tab by lia. change (S k =? 0) with false. cbv iota. f_equal. lia. }
  assert (NI : forall k r, k <= n / 2 -> nth k imags (fun _ => 0%R) r = (if (k =? 0) || (2 * k =? n) then 0 else entry a r (2 * k))%R).
  { intros k r Hk. unfold imags. pose proof (half_pred n Hn) as HP. destruct (even n) eqn:E; [apply even_true in E|apply even_false in E].
    - destruct k as [|k]; [reflexivity|]. change (S k =? 0) with false. cbn [orb]. change (((fun _ : nat => 0%R) :: ?l) ++ ?l2) with ((fun _ : nat => 0%R) :: (l ++ l2)). cbn [nth].
      destruct (Nat.eqb_spec (2 * S k) n) as [En|En].
      + rewrite app_nth2; rewrite tab_length; [|lia]. replace (k - (n - 1) / 2) with 0 by lia. reflexivity.
      + rewrite app_nth1 by (rewrite tab_length; lia). rewrite nth_tab by lia. f_equal. lia.
    - destruct k as [|k]; [reflexivity|]. change (S k =? 0) with false. cbn [orb nth]. rewrite nth_tab by lia.
      destruct (Nat.eqb_spec (2 * S k) n) as [En|En]; [lia|]. f_equal. lia. }
  split; [reflexivity|]. split.
  - destruct (even n) eqn:E; [apply even_true in E|apply even_false in E].
    + rewrite removelast_firstn_len, firstn_length, app_length, rev_length. fold reals. cbn [tl reals]. unfold reals in *. cbn [length tl] in *. rewrite tab_length in *. lia.
    + rewrite app_length, rev_length. unfold reals in *. cbn [length tl] in *. rewrite tab_length in *. lia.
  - intros r p Hp. cbv zeta. set (h := n / 2) in *.
    assert (HLr : length (rev (tl reals) ++ reals) = 2 * h + 1) by (rewrite app_length, rev_length; unfold reals in *; cbn [length tl] in *; rewrite tab_length in *; lia).
    assert (HLi : length (map (fun (x : col) r => (-1 * x r)%R) (rev (tl imags)) ++ imags) = 2 * h + 1).
    { rewrite app_length, map_length, rev_length. destruct imags as [|i0 im']; [discriminate|]. cbn [length tl] in *. lia. }
    assert (Hp' : p < 2 * h + 1) by (unfold h; pose proof (Nat.div_mod n 2 ltac:(lia)); pose proof (Nat.mod_upper_bound n 2 ltac:(lia)); lia).
    split.
    + transitivity (nth p (rev (tl reals) ++ reals) (fun _ => 0%R) r).
      * destruct (even n) eqn:E; [|reflexivity]. apply even_true in E. refine (f_equal (fun g : col => g r) (nth_removelast (rev (tl reals) ++ reals) _ p _)). lia.
      * rewrite (mirror_nth reals _ p h LR Hp'). apply NR. destruct (Nat.ltb_spec p h); lia.
    + transitivity (nth p (map (fun (x : col) r => (-1 * x r)%R) (rev (tl imags)) ++ imags) (fun _ => 0%R) r).
      * destruct (even n) eqn:E; [|reflexivity]. apply even_true in E. refine (f_equal (fun g : col => g r) (nth_removelast (map (fun (x : col) r => (-1 * x r)%R) (rev (tl imags)) ++ imags) _ p _)). lia.
      * rewrite (mirror_neg_nth imags _ p h r LI Hp'). destruct (Nat.ltb_spec p h); rewrite NI by lia; reflexivity.
Qed.

(** ** abs and angle *)
Local Open Scope R_scope.
Lemma polar_atan x : sqrt (1 + x * x) * cos (atan x) = 1 /\ sqrt (1 + x * x) * sin (atan x) = x.
Proof.
  rewrite cos_atan, sin_atan. assert (0 < sqrt (1 + x * x))%R by (apply sqrt_lt_R0; nra). unfold Rsqr. split; field; lra.
Qed.
Lemma abs_scale re im : re <> 0 -> c_abs re im = Rabs re * sqrt (1 + (im / re) * (im / re)).
Proof.
  intros Hr. unfold c_abs. rewrite <- (sqrt_Rsqr_abs re). rewrite <- sqrt_mult_alt by apply Rle_0_sqr. f_equal. unfold Rsqr. field. exact Hr.
Qed.
Lemma polar re im : c_abs re im * cos (c_angle re im) = re /\ c_abs re im * sin (c_angle re im) = im.
Proof.
  unfold c_angle, Rltb. destruct (polar_atan (im / re)) as [PC PS]. destruct (Rlt_dec 0 re) as [H0|H0].
  - rewrite abs_scale by lra. rewrite Rabs_right by lra. rewrite !Rmult_assoc, PC, PS. split; [ring|field; lra].
  - destruct (Rlt_dec re 0) as [H1|H1].
    + rewrite abs_scale by lra. rewrite Rabs_left by lra. destruct (Rlt_dec im 0) as [H2|H2].
      * rewrite cos_minus, sin_minus, cos_PI, sin_PI. rewrite !Rmult_0_r, Rplus_0_r, Rminus_0_r.
        replace (- re * sqrt (1 + im / re * (im / re)) * (cos (atan (im / re)) * -1)) with (re * (sqrt (1 + im / re * (im / re)) * cos (atan (im / re)))) by ring.
        replace (- re * sqrt (1 + im / re * (im / re)) * (sin (atan (im / re)) * -1)) with (re * (sqrt (1 + im / re * (im / re)) * sin (atan (im / re)))) by ring.
        rewrite PC, PS. split; [ring|field; lra].
      * rewrite cos_plus, sin_plus, cos_PI, sin_PI. rewrite !Rmult_0_r, Rplus_0_r, Rminus_0_r.
        replace (- re * sqrt (1 + im / re * (im / re)) * (cos (atan (im / re)) * -1)) with (re * (sqrt (1 + im / re * (im / re)) * cos (atan (im / re)))) by ring.
        replace (- re * sqrt (1 + im / re * (im / re)) * (sin (atan (im / re)) * -1)) with (re * (sqrt (1 + im / re * (im / re)) * sin (atan (im / re)))) by ring.
        rewrite PC, PS. split; [ring|field; lra].
    + assert (re = 0) by lra. subst re. unfold c_abs. replace (0 * 0 + im * im) with (Rsqr im) by (unfold Rsqr; ring). rewrite sqrt_Rsqr_abs.
      destruct (Rlt_dec 0 im) as [H2|H2]; [|destruct (Rlt_dec im 0) as [H3|H3]].
      * rewrite cos_PI2, sin_PI2, Rabs_right by lra. split; ring.
      * replace (- PI / 2) with (- (PI / 2)) by field. rewrite cos_neg, sin_neg, cos_PI2, sin_PI2, Rabs_left by lra. split; ring.
      * assert (im = 0) by lra. subst im. rewrite Rabs_R0. split; ring.
Qed.
Lemma angle_range re im : - PI < c_angle re im <= PI.
Proof.
  pose proof PI_RGT_0 as HP. unfold c_angle, Rltb. pose proof (atan_bound (im / re)) as [B1 B2]. destruct (Rlt_dec 0 re) as [H0|H0]; [lra|].
  destruct (Rlt_dec re 0) as [H1|H1].
  - assert (HI : / re < 0) by (apply Rinv_lt_0_compat; exact H1). destruct (Rlt_dec im 0) as [H2|H2].
    + assert (0 < im / re) by (unfold Rdiv; nra). pose proof (atan_increasing 0 (im / re) H) as HA. rewrite atan_0 in HA. lra.
    + assert (im / re <= 0) by (unfold Rdiv; nra). assert (atan (im / re) <= 0). { destruct H as [H|H]; [apply Rlt_le; rewrite <- atan_0; now apply atan_increasing|rewrite H, atan_0; lra]. } lra.
  - destruct (Rlt_dec 0 im); [lra|]. destruct (Rlt_dec im 0); lra.
Qed.
Lemma c_abs_0 re : c_abs re 0 = Rabs re.
Proof. unfold c_abs. replace (re * re + 0 * 0) with (Rsqr re) by (unfold Rsqr; ring). apply sqrt_Rsqr_abs. Qed.
Local Open Scope nat_scope.

(** ** Output formats *)
Lemma even_odd_idx c : c <> 0 -> (even c = true -> 2 * ((c - 1) / 2) + 2 = c) /\ (even c = false -> 2 * ((c - 1) / 2) + 2 = c + 1).
Proof.
  intros Hc. pose proof (Nat.div_mod (c - 1) 2 ltac:(lia)). pose proof (Nat.mod_upper_bound (c - 1) 2 ltac:(lia)).
  split; intros E; [apply even_true in E|apply even_false in E]; lia.
Qed.
Lemma pairs_format_spec (a : mat R) (f g : nat -> col) (x y : col) : nc a <> 0 ->
  is_mat (stack (nr a) (x :: flat_map (fun i => [f i; g i]) (np_range 2 (nc a) 2) ++ (if even (nc a) then [y] else [])))
    (nr a) (nc a)
    (fun r c => if c =? 0 then x r else if even (nc a) && (c =? nc a - 1) then y r else if even c then g c r else f (c + 1) r).
Proof.
  intros Hn. rewrite np_range_even. match goal with |- is_mat (stack _ ?l) _ _ _ => set (cols := l) end.
  assert (HL : length cols = nc a) by (apply pairs_length; assumption).
  pose proof (stack_is (nr a) cols) as HS. rewrite HL in HS. eapply is_mat_fun_ext; [exact HS|]. intros r c Hr Hc. cbv beta.
  unfold cols. rewrite pairs_nth by assumption. destruct (Nat.eqb_spec c 0) as [->|Hc0]; [reflexivity|].
  destruct (even (nc a) && (c =? nc a - 1)); [reflexivity|]. destruct (even_odd_idx c Hc0) as [E1 E2].
  destruct (even c) eqn:E; [rewrite E1|rewrite E2]; reflexivity.
Qed.
Lemma ampl_angle_inverse (a : mat R) : wf a -> nc a <> 0 ->
  inverse_format_output AMPL_ANGLE_PAIRS (format_output AMPL_ANGLE_PAIRS a) = Ok a.
Proof.
  intros Hw Hn. unfold inverse_format_output, format_output. cbv zeta.
  match goal with |- context[nc ?x =? 0] => set (b := x) end.
  assert (Hb := pairs_format_spec a (fun i r => c_abs (entry a r (i - 1)) (entry a r i)) (fun i r => c_angle (entry a r (i - 1)) (entry a r i))
     (fun r => entry a r 0) (fun r => entry a r (nc a - 1)) Hn). match type of Hb with is_mat _ ?r ?c ?f => change (is_mat b r c f) in Hb end. destruct Hb as (Wb & Rb & Cb & Eb).
  destruct (Nat.eqb_spec (nc b) 0) as [E|_]; [congruence|]. f_equal.
  assert (Hc := pairs_format_spec b (fun i r => (entry b r (i - 1) * cos (entry b r i))%R) (fun i r => (entry b r (i - 1) * sin (entry b r i))%R)
     (fun r => entry b r 0) (fun r => entry b r (nc b - 1)) ltac:(congruence)). rewrite Rb, Cb in Hc. rewrite Rb, Cb.
  apply (is_mat_ext _ _ _ _ _ Hc). eapply is_mat_fun_ext; [apply is_mat_self; exact Hw|]. intros r c Hr Hcc. cbv beta.
  destruct (Nat.eqb_spec c 0) as [->|Hc0]; [rewrite Eb by lia; reflexivity|].
  destruct (even (nc a) && (c =? nc a - 1)) eqn:E.
  - rewrite Eb by lia. destruct (Nat.eqb_spec (nc a - 1) 0) as [E0|_]; [apply andb_true_iff in E; destruct E as [_ E]; apply Nat.eqb_eq in E; lia|].
    apply andb_true_iff in E. destruct E as [E1 E2]. rewrite E1, Nat.eqb_refl. cbn [andb]. apply Nat.eqb_eq in E2. now rewrite E2.
  - assert (HE : even (nc a) = true -> c <> nc a - 1) by (intros E1 E2; rewrite E1, E2, Nat.eqb_refl in E; discriminate).
    destruct (even c) eqn:Ec.
    + pose proof (even_true c Ec) as Q. rewrite !Eb by lia.
      destruct (Nat.eqb_spec (c - 1) 0) as [E0|_]; [lia|]. destruct (Nat.eqb_spec c 0) as [E0|_]; [lia|]. rewrite E, Ec.
      destruct (Nat.eqb_spec (c - 1) (nc a - 1)) as [E0|_]; [lia|]. rewrite andb_false_r.
      assert (Eo : even (c - 1) = false). { unfold even. apply Nat.eqb_neq. replace (c - 1) with (1 + (c / 2 - 1) * 2) by lia. rewrite Nat.mod_add by lia. discriminate. }
      rewrite Eo. replace (c - 1 + 1) with c by lia. symmetry. apply polar.
    + pose proof (even_false c Ec) as Q. assert (Hlt : c + 1 < nc a). { destruct (even (nc a)) eqn:En; [specialize (HE eq_refl); lia|]. pose proof (even_false (nc a) En). lia. }
      rewrite !Eb by lia. replace (c + 1 - 1) with c by lia. destruct (Nat.eqb_spec (c + 1) 0) as [E0|_]; [lia|]. destruct (Nat.eqb_spec c 0) as [E0|_]; [lia|].
      rewrite E, Ec. assert (Ee : even (c + 1) = true). { unfold even. apply Nat.eqb_eq. replace (c + 1) with (0 + (c / 2 + 1) * 2) by lia. rewrite Nat.mod_add by lia. reflexivity. }
      rewrite Ee. destruct (even (nc a) && (c + 1 =? nc a - 1)) eqn:E3.
      * apply andb_true_iff in E3. destruct E3 as [E3 E4]. apply even_true in E3. apply Nat.eqb_eq in E4. lia.
      * replace (c + 1 - 1) with c by lia. symmetry. apply polar.
Qed.
Lemma singles_format_spec (a : mat R) (f : nat -> col) (x y : col) : nc a <> 0 ->
  is_mat (stack (nr a) (x :: map f (np_range 2 (nc a) 2) ++ (if even (nc a) then [y] else [])))
    (nr a) (nc a / 2 + 1)
    (fun r k => if k =? 0 then x r else if 2 * k =? nc a then y r else f (2 * k) r).
Proof.
  intros Hn. rewrite np_range_even, map_tab. match goal with |- is_mat (stack _ ?l) _ _ _ => set (cols := l) end.
  pose proof (half_pred (nc a) Hn) as HP.
  assert (HL : length cols = nc a / 2 + 1).
  { unfold cols. cbn [length]. rewrite app_length, tab_length. destruct (even (nc a)) eqn:E; [apply even_true in E|apply even_false in E]; cbn [length]; lia. }
  pose proof (stack_is (nr a) cols) as HS. rewrite HL in HS. eapply is_mat_fun_ext; [exact HS|]. intros r c Hr Hc. cbv beta. unfold cols.
  destruct c as [|c]; [reflexivity|]. change (S c =? 0) with false. cbn [nth]. destruct (Nat.eqb_spec (2 * S c) (nc a)) as [E|E].
  - destruct (even (nc a)) eqn:Ee; [apply even_true in Ee|apply even_false in Ee; lia].
    rewrite app_nth2; rewrite tab_length; [|lia]. replace (c - (nc a - 1) / 2) with 0 by lia. reflexivity.
  - rewrite app_nth1. + rewrite nth_tab. * f_equal. lia. * destruct (even (nc a)) eqn:Ee; [apply even_true in Ee|apply even_false in Ee]; lia.
    + rewrite tab_length. destruct (even (nc a)) eqn:Ee; [apply even_true in Ee|apply even_false in Ee]; lia.
Qed.
Lemma real_format_spec (a : mat R) : nc a <> 0 ->
  is_mat (format_output REAL_COMPONENT_ONLY a) (nr a) (nc a / 2 + 1) (fun r k => entry a r (if k =? 0 then 0 else 2 * k - 1)).
Proof.
  intros Hn. unfold format_output. cbv zeta. rewrite np_range_odd, map_tab. match goal with |- is_mat (stack _ ?l) _ _ _ => set (cols := l) end.
  assert (HL : length cols = nc a / 2 + 1) by (unfold cols; cbn [length]; rewrite tab_length; lia).
  pose proof (stack_is (nr a) cols) as HS. rewrite HL in HS. eapply is_mat_fun_ext; [exact HS|]. intros r c Hr Hc. cbv beta. unfold cols.
  destruct c as [|c]; [reflexivity|]. change (S c =? 0) with false. cbn [nth]. rewrite nth_tab by lia. f_equal. lia.
Qed.

(** ** Round trip of the packed transform *)
Lemma packed_re re im k : packed re im (if k =? 0 then 0 else 2 * k - 1) = re k.
Proof.
  destruct (Nat.eqb_spec k 0) as [->|Hk]; [reflexivity|]. unfold packed. destruct (Nat.eqb_spec (2 * k - 1) 0) as [E|_]; [lia|].
  assert (Eo : even (2 * k - 1) = false). { unfold even. apply Nat.eqb_neq. replace (2 * k - 1) with (1 + (k - 1) * 2) by lia. rewrite Nat.mod_add by lia. discriminate. }
  rewrite Eo. replace (2 * k - 1 + 1) with (k * 2) by lia. rewrite Nat.div_mul by lia. reflexivity.
Qed.
Lemma packed_im re im k : k <> 0 -> packed re im (2 * k) = im k.
Proof.
  intros Hk. unfold packed. destruct (Nat.eqb_spec (2 * k) 0) as [E|_]; [lia|].
  assert (Eo : even (2 * k) = true). { unfold even. apply Nat.eqb_eq. replace (2 * k) with (0 + k * 2) by lia. rewrite Nat.mod_add by lia. reflexivity. }
  rewrite Eo. replace (2 * k) with (k * 2) by lia. rewrite Nat.div_mul by lia. reflexivity.
Qed.
Lemma unroll n i : i < n -> roll n (n / 2) ((i + n / 2) mod n) = i.
Proof.
  intros Hi. unfold roll. rewrite Nat.add_mod_idemp_l by lia. assert (n / 2 <= n) by (apply Nat.div_le_upper_bound; lia).
  replace (i + n / 2 + (n - n / 2)) with (i + 1 * n) by lia. rewrite Nat.mod_add by lia. now apply Nat.mod_small.
Qed.
Lemma unformat_spectrum (a : mat R) rows n (x : nat -> nat -> R) s : n <> 0 ->
  is_mat a rows n (fun r c => packed (fun k => s * dre n (x r) k)%R (fun k => s * dim n (x r) k)%R c) ->
  forall r k, r < rows -> k < n ->
    c_re (internal_unformat a) r ((k + n / 2) mod n) = (s * dre n (x r) k)%R /\
    c_im (internal_unformat a) r ((k + n / 2) mod n) = (s * dim n (x r) k)%R.
Proof.
  intros Hn (Wa & Ra & Ca & Ea) r k Hr Hk. destruct (internal_unformat_spec a ltac:(congruence)) as (_ & _ & HU). rewrite Ca in HU.
  set (p := (k + n / 2) mod n). assert (Hp : p < n) by now apply Nat.mod_upper_bound. destruct (HU r p Hp) as [H1 H2]. clear HU.
  pose proof (Nat.div_mod n 2 ltac:(lia)) as D. pose proof (Nat.mod_upper_bound n 2 ltac:(lia)) as D'. set (h := n / 2) in *.
  assert (CASE : (p = k + h /\ k + h < n) \/ (p + n = k + h /\ n <= k + h)).
  { unfold p. destruct (Nat.lt_ge_cases (k + h) n) as [L|L].
    - left. split; [now apply Nat.mod_small|exact L].
    - right. split; [|exact L]. replace (k + h) with (k + h - n + 1 * n) at 1 by lia. rewrite Nat.mod_add by assumption. rewrite Nat.mod_small by lia. lia. }
  rewrite H1, H2. destruct CASE as [[Ep L]|[Ep L]].
  - destruct (Nat.ltb_spec p h) as [Q|_]; [lia|]. replace (p - h) with k by lia. split.
    + rewrite Ea; [apply (packed_re (fun k => s * dre n (x r) k)%R)|assumption|destruct (Nat.eqb_spec k 0); lia].
    + destruct (Nat.eqb_spec k 0) as [->|Hk0]; cbn [orb]; [rewrite dim_0; ring|].
      destruct (Nat.eqb_spec (2 * k) n) as [Q|Q]; [rewrite dim_nyquist by exact Q; ring|].
      rewrite Ea by lia. now apply (packed_im (fun k => s * dre n (x r) k)%R (fun k => s * dim n (x r) k)%R).
  - destruct (Nat.ltb_spec p h) as [_|Q]; [|lia]. set (k' := h - p). assert (Ek : k' = n - k) by (unfold k'; lia). split.
    + rewrite Ea; [|assumption|destruct (Nat.eqb_spec k' 0); lia]. rewrite (packed_re (fun k => s * dre n (x r) k)%R). rewrite Ek, dre_conj by lia. reflexivity.
    + destruct (Nat.eqb_spec k' 0) as [Q|Hk0]; [lia|]. cbn [orb]. destruct (Nat.eqb_spec (2 * k') n) as [Q|Q].
      * rewrite dim_nyquist by lia. ring.
      * rewrite Ea by lia. rewrite (packed_im (fun k => s * dre n (x r) k)%R (fun k => s * dim n (x r) k)%R) by assumption. rewrite Ek, dim_conj by lia. ring.
Qed.
