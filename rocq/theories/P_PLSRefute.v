(** Concrete binary64 runs of the PLS algorithms: examples meeting the hypotheses of C46-C50, and
    counterexamples. *)
From Coq Require Import List ZArith Lia Bool Arith.
From Coq Require Import Floats.SpecFloat.
From Verif Require Import Base Num Mat M_Matrix M_Factory M_Helper M_Loop M_Utils M_Linalg M_Transform M_PLSBase M_PLS M_PLS2 M_Kernel P_PLSBase P_PLSLaws.
Import ListNotations.
Local Open Scope nat_scope.

Definition col (l : list Z) : mat f64 := Mat (length l) 1 (map (fun x => [nofZ x]) l).
Definition no_lstsq (_ _ : mat f64) : res (mat f64) := Err LinAlgError.
Definition p1 := pls1 no_lstsq.

Definition X1 := col [1; 2; 4]%Z.
Definition Y1 := col [3; 5; 9]%Z.
Definition one_component : list (pls_op Empty_set f64) := [OSet (ANumComponents 1)].
Definition trained := one_component ++ [OInitialize (Some X1) (Some Y1)].

Ltac run := vm_compute; reflexivity.
Ltac differ := vm_compute; let E := fresh in intros E; discriminate E.

(** * C46 *)
(** a trained NIPALS; refused and unvalidated assignments leave it trained, a valid one resets it *)
Definition some_pinv (m : mat f64) : res (mat f64) := np_inv m.
Definition nip := nipals no_lstsq some_pinv.
Definition nip_trained : list (pls_op (nipals_key f64) f64) := [OSet (ANumComponents 1); OInitialize (Some X1) (Some Y1)].
Example C46_ex :
  p_initialised (pls_run nip nip_trained) = true /\
  setattr nip (pls_run nip nip_trained) (AOwn (NMaxIter (-1))) = (pls_run nip nip_trained, Err ValueError) /\
  p_initialised (pls_run nip (nip_trained ++ [OSet (AOwn (NMaxIter (-1))); OSet (AOwn (NDeflation CANONICAL)); OPredict X1])) = true /\
  p_initialised (pls_run nip (nip_trained ++ [OSet (AOwn (NMaxIter 7))])) = false.
Proof. split; [run|]. split; [run|]. split; run. Qed.

(** * C47 *)
Example C47_ex : exists y,
  snd (initialize p1 (pls_run p1 one_component) (Some X1) (Some Y1)) = Ok None /\
  snd (predict p1 (pls_run p1 trained) X1) = Ok y /\
  snd (initialize p1 (pls_run p1 trained) (Some X1) (Some (Mat 3 2 (rws (mk 3 2 (fun _ _ => nofZ 1)))))) = Ok (Some (MsgExactlyOne 2)) /\
  snd (predict p1 (pls_run p1 (trained ++ [OInitialize (Some X1) (Some (mk 3 2 (fun _ _ => nofZ 1)))])) X1) = Err RuntimeError.
Proof.
  exists (Mat 3 1 [[S754_finite false 5254199565265579 (-51)]; [S754_finite false 5254199565265579 (-50)]; [S754_finite false 5254199565265579 (-49)]]).
  split; [run|]. split; [run|]. split; run.
Qed.
(** "a raising initialize leaves the model untrained" fails when the second matrix is left out. *)
Theorem C47_refuted : exists (h : list (pls_op Empty_set f64)) (X y : mat f64),
  snd (initialize p1 (pls_run p1 h) (Some X) None) = Err AttributeError /\
  snd (predict p1 (pls_run p1 (h ++ [OInitialize (Some X) None])) X) = Ok y.
Proof.
  exists trained, X1. exists (Mat 3 1 [[S754_finite false 5254199565265579 (-51)]; [S754_finite false 5254199565265579 (-50)]; [S754_finite false 5254199565265579 (-49)]]).
  split; run.
Qed.
Print Assumptions C47_refuted.

(** * C48 *)
(** PLS1 retrained on other data, then asked: not an error *)
Example C48_ex : exists y, snd (predict p1 (fst (initialize p1 (pls_run p1 (trained ++ [OPredict Y1])) (Some Y1) (Some X1))) Y1) = Ok y /\
  Forall (no_assignment (K:=Empty_set) (T:=f64)) [OInitialize (Some X1) (Some Y1); OPredict Y1].
Proof.
  eexists. split; [|repeat constructor]. vm_compute. reflexivity.
Qed.
(** DIPLS keeps the column means of the first training set (reset does not renew the centring). *)
Definition dp := dipls no_lstsq.
Definition dp_set : list (assignment (@dipls_key f64)) := [ANumComponents 1; AOwn (DStrategy SUPERVISED); AOwn (DNs 2); AOwn (DNt 2)].
Theorem C48_refuted_dipls : ~ retrains_like_new dp.
Proof.
  intros Hr. specialize (Hr dp_set [OInitialize (Some (col [1;2;3;5]%Z)) (Some (col [1;2;3;5]%Z))]
    (col [11;12;15;19]%Z) (col [11;12;15;19]%Z) [QPredict (col [11;12;15;19]%Z)]).
  destruct Hr as [_ Hr]; [repeat constructor|]. revert Hr. differ.
Qed.
(** KernelPLS with a polynomial kernel whose gamma is NAN: the kernel takes gamma from the first
    training set. *)
Definition kpoly := kernel_pls no_lstsq (fun _ n => mk n 1 (fun i _ => nofZ (Z.of_nat i + 1)))
  (Poly 2 (nofZ 1) None) (poly_apply_matrix (fun x _ => nmul x x)).
Theorem C48_refuted_kernel_pls : ~ retrains_like_new kpoly.
Proof.
  intros Hr. specialize (Hr [ANumComponents 1] [OInitialize (Some (Mat 3 2 (map (map nofZ) [[1;0];[2;1];[3;5]]%Z))) (Some X1)]
    (col [1;2;4]%Z) (col [1;2;8]%Z) [QPredict (col [1;2;3]%Z)]).
  destruct Hr as [_ Hr]; [repeat constructor|]. revert Hr. differ.
Qed.
Print Assumptions C48_refuted_dipls.
Print Assumptions C48_refuted_kernel_pls.

(** * C49: the predictors' preprocessing is not applied at prediction *)
Definition centred : list (pls_op Empty_set f64) := [OSet (ANumComponents 1); OSet (APreprocessing PP_CENTER)].

(** y = x.  Trained on x = 1, 2, 3 the prediction for x = 1 is 3; trained on x = 9, 10, 11 (both
    shifted by 8) the prediction for x = 9 is 11. *)
Theorem C49_refuted : exists (X Y X' : mat f64) (d : f64),
  let shift m := map_mat (fun x => nadd x d) m in
  let s := pls_run p1 (centred ++ [OInitialize (Some X) (Some Y)]) in
  let t := pls_run p1 (centred ++ [OInitialize (Some (shift X)) (Some Y)]) in
  snd (predict p1 s X') = Ok (col [3]%Z) /\ snd (predict p1 t (shift X')) = Ok (col [11]%Z) /\
  snd (predict p1 s (col [0]%Z)) = Ok (col [2]%Z).
Proof.
  exists (col [1;2;3]%Z), (col [1;2;3]%Z), (col [1]%Z), (nofZ 8). split; [run|]. split; run.
Qed.
Print Assumptions C49_refuted.

(** * C50: all columns are mapped back with the statistics of column 0 *)
Definition klin := kernel_pls no_lstsq (fun _ n => mk n 1 (fun i _ => nofZ (Z.of_nat i + 1))) tt (fun ks X Y => (ks, linear_apply_matrix X Y)).
Definition kcentred : list (pls_op (@kpls_key f64 unit) f64) := [OSet (ANumComponents 1); OSet (APreprocessing PP_CENTER)].
(** responses with means 2 and 20: predictions at the mean of the (centred) predictors *)
Theorem C50_refuted : exists (X Y : mat f64),
  let s := pls_run klin (kcentred ++ [OInitialize (Some X) (Some Y)]) in
  column_means Y = Mat 1 2 [[nofZ 2; nofZ 20]] /\
  snd (predict klin s (col [0]%Z)) = Ok (Mat 1 2 [[nofZ 2; nofZ 2]]) /\
  p_class_mean s = [nofZ 2; nofZ 2].
Proof.
  exists (col [1;2;3]%Z), (Mat 3 2 (map (map nofZ) [[1;10];[2;20];[3;30]]%Z)). split; [run|]. split; run.
Qed.
Print Assumptions C50_refuted.
