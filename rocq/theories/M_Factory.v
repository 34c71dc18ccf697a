(** Model of core/matrix/factory.py.  Line numbers refer to that file. *)
From Coq Require Import List ZArith Lia Bool Arith.
From Verif Require Import Base Num Mat M_Matrix.
Import ListNotations.

Section Factory.
Context {T : Type} `{Num T}.

(** create / from_raw, lines 32-39 and 67, for a rectangular list of lists *)
Definition create (rows : list (list T)) : mat T := np_array2 rows.

(** length of builtins.range(n) *)
Definition rlen (n : Z) : nat := Z.to_nat n.

(** eye, lines 42-54 (np.eye refuses negative sizes) *)
Definition eye (rows columns : Z) : res (mat T) :=
  let columns := if (columns =? -1)%Z then rows else columns in
  if (rows <? 0)%Z || (columns <? 0)%Z then Err ValueError
  else Ok (mk (Z.to_nat rows) (Z.to_nat columns) (fun i j => if i =? j then n1 else n0)).
(** eye_like, lines 57-64 *)
Definition eye_like (m : mat T) : res (mat T) := eye (Z.of_nat (nr m)) (Z.of_nat (nc m)).

(** zeros, lines 70-82: a list comprehension passed to create *)
Definition zeros (rows columns : Z) : mat T :=
  let columns := if (columns =? -1)%Z then rows else columns in
  create (tab (rlen rows) (fun _ => tab (rlen columns) (fun _ => n0))).
(** zeros_like, lines 85-93 *)
Definition zeros_like (m : mat T) : mat T := zeros (Z.of_nat (nr m)) (Z.of_nat (nc m)).

(** filled, lines 96-105 (np.full refuses negative sizes); filled_like, 108-117 *)
Definition filled (rows columns : Z) (x : T) : res (mat T) :=
  if (rows <? 0)%Z || (columns <? 0)%Z then Err ValueError
  else Ok (mk (Z.to_nat rows) (Z.to_nat columns) (fun _ _ => x)).
Definition filled_like (m : mat T) (x : T) : res (mat T) :=
  filled (Z.of_nat (nr m)) (Z.of_nat (nc m)) x.

(** from_row, lines 120-127; from_column, lines 130-137 *)
Definition from_row (v : list T) : mat T := create [v].
Definition from_column (v : list T) : mat T := create (map (fun x => [x]) v).

(** numpy's global random generator: seeding and drawing a uniform array.
    rand, lines 172-182; randn, lines 140-155 (the results of np.multiply and
    np.add are discarded, lines 153-154).  Returns matrix and new generator state. *)
Section Rng.
Context {S : Type} (seed_fn : Z -> S) (draw : S -> nat -> nat -> mat T * S).
Definition rand (g : S) (rows columns : nat) (seed : Z) : mat T * S :=
  let g := seed_fn seed in draw g rows columns.
Definition randn (g : S) (rows columns : nat) (seed : Z) (mean std : T) : mat T * S :=
  let g := seed_fn seed in
  let (data, g) := draw g rows columns in
  let _ := mul_scalar data std in
  let _ := add_scalar data mean in
  (data, g).
(** rand_like, lines 185-193; randn_like, lines 158-169 *)
Definition rand_like (g : S) (m : mat T) (seed : Z) := rand g (nr m) (nc m) seed.
Definition randn_like (g : S) (m : mat T) (seed : Z) (mean std : T) := randn g (nr m) (nc m) seed mean std.
End Rng.

(** diag, lines 196-207 *)
Definition diag_factory (v : mat T) : res (mat T) :=
  let n := nr v in
  fold_left (fun acc i => do r <- acc; do x <- get v (Z.of_nat i) 0; set r (Z.of_nat i) (Z.of_nat i) x)
    (seq 0 n) (Ok (zeros (Z.of_nat n) (Z.of_nat n))).

(** range, lines 210-222 (builtins.range refuses step 0) *)
Definition range_factory (rows columns start : Z) : res (mat T) :=
  if (columns =? 0)%Z then Err ValueError
  else Ok (create (map (fun s => map nofZ (pyrange s (s + columns) 1))
                       (pyrange start (start + rows * columns) columns))).

(** create_spectrum, lines 225-238 *)
Definition create_spectrum (wave amps : list T) : res (mat T) :=
  if negb (length wave =? length amps) then Err ValueError
  else Ok (create (map (fun p => [fst p; snd p]) (combine wave amps))).

End Factory.
