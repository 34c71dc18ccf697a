(** Model of core/matrix/helper.py.  Line numbers refer to that file. *)
From Coq Require Import List ZArith Lia Bool Arith.
From Verif Require Import Base Num Mat M_Matrix M_Factory.
Import ListNotations.

Section Helper.
Context {T : Type} `{Num T}.

(** delete_cols, lines 34-36; delete_col, lines 30-31 *)
Definition delete_cols (data : mat T) (cols : list Z) : res (mat T) :=
  let keep := filter (fun c => negb (existsb (Z.eqb c) cols)) (map Z.of_nat (seq 0 (nc data))) in
  get_sub_matrix data (STuple 0 (Z.of_nat (nr data))) (SList keep).
Definition delete_col (data : mat T) (col : Z) : res (mat T) := delete_cols data [col].

(** row_as_vector, lines 39-40; column_as_vector, 57-58 *)
Definition row_as_vector := @get_row T _.
Definition column_as_vector := @get_column T _.

(** np.mean / np.std(ddof=1) of f 0 .. f (n-1) *)
Definition np_mean (n : nat) (f : nat -> T) : T := ndiv (sumn n f) (nofZ (Z.of_nat n)).
Definition np_std (n : nat) (f : nat -> T) : T :=
  let mu := np_mean n f in
  nsqrt (ndiv (sumn n (fun i => nmul (nsub (f i) mu) (nsub (f i) mu))) (nofZ (Z.of_nat (n - 1)))).

(** row_means 192-195, column_means 202-203, row_stdevs 210-213, column_stdevs 220-221 *)
Definition row_means (m : mat T) : mat T :=
  transpose (mk 1 (nr m) (fun _ i => np_mean (nc m) (fun j => entry m i j))).
Definition column_means (m : mat T) : mat T :=
  mk 1 (nc m) (fun _ j => np_mean (nr m) (fun i => entry m i j)).
Definition row_stdevs (m : mat T) : mat T :=
  transpose (mk 1 (nr m) (fun _ i => np_std (nc m) (fun j => entry m i j))).
Definition column_stdevs (m : mat T) : mat T :=
  mk 1 (nc m) (fun _ j => np_std (nr m) (fun i => entry m i j)).

(** row_mean 188-189, column_mean 198-199, row_stdev 206-207, column_stdev 216-217 *)
Definition row_mean (m : mat T) (i : Z) : res T := get (row_means m) i 0.
Definition column_mean (m : mat T) (j : Z) : res T := get (column_means m) 0 j.
Definition row_stdev (m : mat T) (i : Z) : res T := get (row_stdevs m) i 0.
Definition column_stdev (m : mat T) (j : Z) : res T := get (column_stdevs m) 0 j.
(** mean, lines 43-47; stdev, lines 50-54 *)
Definition helper_mean (m : mat T) (i : Z) (column : bool) : res T :=
  if column then column_mean m i else row_mean m i.
Definition helper_stdev (m : mat T) (i : Z) (column : bool) : res T :=
  if column then column_stdev m i else row_stdev m i.

(** equal, lines 84-93 *)
Definition equal (m1 m2 : mat T) (eps : T) : bool :=
  if negb (same_shape_as m1 m2) then false
  else forallb (fun row => forallb (fun col =>
         negb (nltb eps (nabs (nsub (entry m1 row col) (entry m2 row col)))))
         (seq 0 (nc m1))) (seq 0 (nr m1)).

(** euclidean_distance and row_norms, lines 61-81: see M_Distance *)

(** fill_diagonal, lines 224-228 (new contents) *)
Definition fill_diagonal (m : mat T) (x : T) : mat T :=
  fold_left (fun acc i => set_entry acc i i x) (seq 0 (Nat.min (nr m) (nc m))) m.

(** multi_concat, lines 235-236 (axis 0 or 1; np.concatenate needs at least one array) *)
Definition multi_concat (axis : Z) (l : list (mat T)) : res (mat T) :=
  match l with
  | [] => Err ValueError
  | m :: rest => fold_left (fun acc x => do a <- acc; concat a x axis) rest
                   (if (axis =? 0)%Z || (axis =? 1)%Z || (axis =? -1)%Z || (axis =? -2)%Z then Ok m else Err ValueError)
  end.

(** CSV text: characters are a type C with decidable equality; nl is the newline. *)
Section Text.
Context {C : Type} (ceqb : C -> C -> bool) (nl : C).
Definition str := list C.

(** str.split(sep) for a non-empty separator *)
Fixpoint starts_with (p s : str) : bool :=
  match p, s with
  | [], _ => true
  | a :: p', b :: s' => ceqb a b && starts_with p' s'
  | _ :: _, [] => false
  end.
Fixpoint split_aux (fuel : nat) (sep s cur : str) : list str :=
  match fuel with
  | O => [rev cur]
  | S fuel' =>
      match s with
      | [] => [rev cur]
      | c :: s' => if starts_with sep s
                   then rev cur :: split_aux fuel' sep (skipn (length sep) s) []
                   else split_aux fuel' sep s' (c :: cur)
      end
  end.
Definition split (sep s : str) : list str := split_aux (S (length s)) sep s [].

(** separator.join(cells) *)
Fixpoint join (sep : str) (cells : list str) : str :=
  match cells with
  | [] => []
  | [c] => c
  | c :: cs => c ++ sep ++ join sep cs
  end.

(** iterating over a text file: lines keep their newline *)
Fixpoint lines_aux (s cur : str) : list str :=
  match s with
  | [] => match cur with [] => [] | _ => [rev cur] end
  | c :: s' => if ceqb c nl then rev (c :: cur) :: lines_aux s' [] else lines_aux s' (c :: cur)
  end.
Definition file_lines (s : str) : list str := lines_aux s [].

(** formatting and parsing of numbers: [fmt] stands for the formatter chosen in
    data_to_string (lines 147-156), [parse] for real(text), None when it raises.
    [header_cell j] is 'col' + str(j + 1). *)
Context (fmt : T -> str) (parse : str -> option T) (header_cell : nat -> str).

(** data_to_string, lines 158-165; to_lines, lines 135-143 *)
Definition data_lines (sep : str) (m : mat T) : list str :=
  map (fun row => join sep (map (fun col => fmt (entry m row col)) (seq 0 (nc m)))) (seq 0 (nr m)).
Definition to_lines (m : mat T) (header : bool) (sep : str) : list str :=
  (if header then [join sep (map header_cell (seq 0 (nc m)))] else []) ++ data_lines sep m.

(** write, lines 168-173: every line followed by a newline *)
Definition write (m : mat T) (header : bool) (sep : str) : str :=
  List.concat (map (fun l => l ++ [nl]) (to_lines m header sep)).

(** read, lines 96-132, from a file given by name (for an IO object the error
    branches raise TypeError instead because of the string concatenation) *)
Definition read_line (i : nat) (sep line : str) (result : mat T) : mat T :=
  let cells := split sep line in
  fold_left (fun acc j => match parse (nth j cells []) with
                          | Some x => set_entry acc i j x
                          | None => acc
                          end) (seq 0 (Nat.min (length cells) (nc result))) result.
Definition read_lines (lines : list str) (header : bool) (sep : str) : res (mat T) :=
  match sep with
  | [] => match lines with [] => Err RuntimeError | _ => match (if header then tl lines else lines) with [] => Err RuntimeError | _ => Err ValueError end end
  | _ =>
  match lines with
  | [] => Err RuntimeError
  | _ =>
      let lines := if header then tl lines else lines in
      match lines with
      | [] => Err RuntimeError
      | l0 :: _ =>
          let result := zeros (Z.of_nat (length lines)) (Z.of_nat (length (split sep l0))) in
          Ok (fold_left (fun acc i => read_line i sep (nth i lines []) acc) (seq 0 (length lines)) result)
      end
  end
  end.
Definition read (text : str) (header : bool) (sep : str) : res (mat T) :=
  read_lines (file_lines text) header sep.
End Text.

End Helper.
