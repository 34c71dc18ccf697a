(** Model of core/utils.py.  Line numbers refer to that file.
    Loops and recursion carry fuel; running out of it is the value Err OutOfFuel.
    Python's recursion limit is not modelled. *)
From Coq Require Import List ZArith Lia Bool Arith.
From Verif Require Import Base Num.
Import ListNotations.
Local Open Scope Z_scope.

(** Python list reads and writes (negative indices count from the end). *)
Definition lget {A} (l : list A) (z : Z) : res A :=
  do k <- npidx (length l) z;
  match nth_error l k with Some x => Ok x | None => Err IndexError end.
Definition lset {A} (l : list A) (z : Z) (x : A) : res (list A) :=
  do k <- npidx (length l) z; Ok (upd l k x).

Section Utils.
Context {T : Type} `{Num T}.

(** initial_index, 31-35 *)
Definition initial_index (size : nat) : list nat := seq 0 size.

(** swap, 49-55 *)
Definition swap (index : list nat) (l r : Z) : res (list nat) :=
  do help <- lget index l;
  do x <- lget index r;
  do index1 <- lset index l x;
  lset index1 r help.

(** array[index[z]] *)
Definition aval (array : list T) (index : list nat) (z : Z) : res T :=
  do i <- lget index z; lget array (Z.of_nat i).

(** conditional_swap, 58-63 *)
Definition conditional_swap (array : list T) (index : list nat) (left right : Z) : res (list nat) :=
  do x <- aval array index left;
  do y <- aval array index right;
  if nltb y x then swap index left right else Ok index.

(** sort_left_right_and_center, 38-46: new index and c *)
Definition sort_left_right_and_center (array : list T) (index : list nat) (l r : Z) : res (list nat * Z) :=
  let c := (l + r) / 2 in
  do index1 <- conditional_swap array index l c;
  do index2 <- conditional_swap array index1 l r;
  do index3 <- conditional_swap array index2 c r;
  Ok (index3, c).

(** while array[index[l]] < pivot: l += 1, lines 97-98 *)
Fixpoint scan_up (fuel : nat) (array : list T) (index : list nat) (pivot : T) (l : Z) : res Z :=
  match fuel with
  | O => Err OutOfFuel
  | S k => do x <- aval array index l;
           if nltb x pivot then scan_up k array index pivot (l + 1) else Ok l
  end.
(** while array[index[r]] > pivot: r -= 1, lines 100-101 *)
Fixpoint scan_down (fuel : nat) (array : list T) (index : list nat) (pivot : T) (r : Z) : res Z :=
  match fuel with
  | O => Err OutOfFuel
  | S k => do x <- aval array index r;
           if nltb pivot x then scan_down k array index pivot (r - 1) else Ok r
  end.
(** while True loop, 95-104 *)
Fixpoint partition_real_loop (fuel F : nat) (array : list T) (index : list nat) (pivot : T) (l r : Z) : res (list nat * Z) :=
  match fuel with
  | O => Err OutOfFuel
  | S k => do l' <- scan_up F array index pivot (l + 1);
           do r' <- scan_down F array index pivot (r - 1);
           if r' <=? l' then Ok (index, l')
           else do index' <- swap index l' r';
                partition_real_loop k F array index' pivot l' r'
  end.
(** _partition_real, 83-104 *)
Definition partition_real (F : nat) (array : list T) (index : list nat) (l r : Z) (pivot : T) : res (list nat * Z) :=
  partition_real_loop F F array index pivot l (r - 1).

(** loops of lines 121-122 and 123-124 *)
Fixpoint scan_up_int (fuel : nat) (array : list T) (index : list nat) (pivot : T) (l r : Z) : res Z :=
  match fuel with
  | O => Err OutOfFuel
  | S k => do x <- aval array index l;
           if nltb x pivot && (l <? r) then scan_up_int k array index pivot (l + 1) r else Ok l
  end.
Fixpoint scan_down_int (fuel : nat) (array : list T) (index : list nat) (pivot : T) (l r : Z) : res Z :=
  match fuel with
  | O => Err OutOfFuel
  | S k => do x <- aval array index r;
           if nltb pivot x && (l <? r) then scan_down_int k array index pivot l (r - 1) else Ok r
  end.
Fixpoint partition_int_loop (fuel F : nat) (array : list T) (index : list nat) (pivot : T) (l r : Z) : res (list nat * Z * Z) :=
  match fuel with
  | O => Err OutOfFuel
  | S k =>
      if l <? r then
        do l1 <- scan_up_int F array index pivot l r;
        do r1 <- scan_down_int F array index pivot l1 r;
        if l1 <? r1 then
          do index' <- swap index l1 r1;
          partition_int_loop k F array index' pivot (l1 + 1) (r1 - 1)
        else partition_int_loop k F array index pivot l1 r1
      else Ok (index, l, r)
  end.
(** _partition_int, 107-132.  real(array[...]) of line 118 is taken as exact
    (it is for integers up to 2^53 in absolute value). *)
Definition partition_int (F : nat) (array : list T) (index : list nat) (l r : Z) : res (list nat * Z) :=
  do pivot <- aval array index ((l + r) / 2);
  do out <- partition_int_loop F F array index pivot l r;
  let '(index', l', r') := out in
  if l' =? r' then
    do x <- aval array index' r';
    Ok (index', if nltb pivot x then r' - 1 else r')
  else Ok (index', r').

(** partition, 66-80; [isreal] tells whether the elements are np.float64 objects
    (Python floats and ints are not) *)
Definition partition (isreal : bool) (F : nat) (array : list T) (index : list nat) (l r : Z) (pivot : T) : res (list nat * Z) :=
  do _ <- lget array 0;
  if isreal then partition_real F array index l r pivot else partition_int F array index l r.

(** quick_sort, 135-172 *)
Fixpoint quick_sort (isreal : bool) (fuel F : nat) (array : list T) (index : list nat) (left right : Z) : res (list nat) :=
  match fuel with
  | O => Err OutOfFuel
  | S k =>
    let diff := right - left in
    if diff =? 0 then Ok index
    else if diff =? 1 then conditional_swap array index left right
    else if diff =? 2 then
      do index1 <- conditional_swap array index left (left + 1);
      do index2 <- conditional_swap array index1 left right;
      conditional_swap array index2 (left + 1) right
    else
      do p <- sort_left_right_and_center array index left right;
      let (index1, pivot_location) := p in
      do index2 <- swap index1 pivot_location (right - 1);
      do pivot <- aval array index2 (right - 1);
      do q <- partition isreal F array index2 left right pivot;
      let (index3, center) := q in
      do index4 <- swap index3 center (right - 1);
      do index5 <- quick_sort isreal k F array index4 left (center - 1);
      quick_sort isreal k F array index5 (center + 1) right
  end.

(** sort, 175-190 *)
Definition sort (isreal : bool) (fuel : nat) (array : list T) : res (list nat) :=
  let index := initial_index (length array) in
  if (1 <? length array)%nat then quick_sort isreal fuel fuel array index 0 (Z.of_nat (length array) - 1)
  else Ok index.

(** Python sum() and sum_of_squares, 213-220 *)
Definition pysum (l : list T) : T := fold_left nadd l n0.
Definition sum_of_squares (l : list T) : T := pysum (map (fun x => nmul x x) l).

(** linear_regression, 193-210 (division by np.float64, so it never raises) *)
Definition linear_regression (x y : list T) : T * T :=
  let n := nofZ (Z.of_nat (length x)) in
  let xy := map (fun p => nmul (fst p) (snd p)) (combine x y) in
  let den := nsub (nmul n (sum_of_squares x)) (nmul (pysum x) (pysum x)) in
  (ndiv (nsub (nmul (pysum y) (sum_of_squares x)) (nmul (pysum x) (pysum xy))) den,
   ndiv (nsub (nmul n (pysum xy)) (nmul (pysum x) (pysum y))) den).

(** max_index, 236-252 *)
Definition max_index (reals : list T) : nat :=
  snd (fold_left (fun acc i =>
         let x := nth i reals n0 in
         if (i =? 0)%nat || nltb (fst acc) x then (x, 1%nat) else acc)
       (seq 0 (length reals)) (n0, 0%nat)).
End Utils.

(** Integer elements. *)
#[global] Instance NumZ : Num Z := {
  n0 := 0; n1 := 1; nadd := Z.add; nsub := Z.sub; nmul := Z.mul; ndiv := Z.div; nopp := Z.opp;
  nabs := Z.abs; nsqrt := Z.sqrt; nltb := Z.ltb; nleb := Z.leb; neqb := Z.eqb; nofZ := fun z => z }.
