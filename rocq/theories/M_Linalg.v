(** numpy.linalg.solve and numpy.linalg.inv as used by core/matrix/helper.py (solve, 231-232)
    and core/matrix/_Matrix.py (inverse, 298-304).

    Both call LAPACK's gesv: Gaussian elimination with partial pivoting on the square
    coefficient matrix, then back substitution for every right-hand side column.  A pivot
    that is exactly zero makes numpy raise LinAlgError.
    Simplifications: unblocked elimination, operations in textbook order (over the exact
    reals this makes no difference; no claim is made about rounding). *)
From Coq Require Import List ZArith Lia Bool Arith.
From Verif Require Import Base Num Mat M_Matrix M_Factory.
Import ListNotations.

Section Gauss.
Context {T : Type} `{Num T}.

(** One equation: coefficients and right-hand side. *)
Definition eqn : Type := (list T * T)%type.
Definition lead (e : eqn) : T := match fst e with [] => n0 | a :: _ => a end.
Fixpoint ldot (u v : list T) : T :=
  match u, v with a :: u', b :: v' => nadd (nmul a b) (ldot u' v') | _, _ => n0 end.

(** The first equation with the largest leading coefficient (LAPACK idamax), and the others. *)
Fixpoint pivot (es : list eqn) : option (eqn * list eqn) :=
  match es with
  | [] => None
  | e :: es' => match pivot es' with
                | None => Some (e, [])
                | Some (p, rest) => if nltb (nabs (lead e)) (nabs (lead p)) then Some (p, e :: rest) else Some (e, es')
                end
  end.

(** Subtract the multiple of the pivot equation that cancels the leading coefficient. *)
Definition eliminate (p e : eqn) : eqn :=
  let f := ndiv (lead e) (lead p) in
  (map (fun ab => nsub (fst ab) (nmul f (snd ab))) (combine (tl (fst e)) (tl (fst p))), nsub (snd e) (nmul f (snd p))).

(** n unknowns; None is a zero pivot. *)
Fixpoint gauss (n : nat) (es : list eqn) : option (list T) :=
  match n with
  | O => Some []
  | S n' => match pivot es with
            | None => None
            | Some (p, rest) =>
                if neqb (lead p) n0 then None
                else match gauss n' (map (eliminate p) rest) with
                     | None => None
                     | Some xs => Some (ndiv (nsub (snd p) (ldot (tl (fst p)) xs)) (lead p) :: xs)
                     end
            end
  end.

Definition equations (a : mat T) (rhs : nat -> T) : list eqn :=
  tab (nr a) (fun i => (tab (nc a) (fun k => entry a i k), rhs i)).

(** numpy.linalg.solve(a, b) for two-dimensional b.  The factorisation takes place (and can
    fail) even when b has no columns. *)
Definition np_solve (a b : mat T) : res (mat T) :=
  if negb (nr a =? nc a) then Err LinAlgError
  else if negb (nr b =? nr a) then Err ValueError
  else match gauss (nc a) (equations a (fun _ => n0)) with
       | None => Err LinAlgError
       | Some _ => Ok (mk (nc a) (nc b) (fun i j => match gauss (nc a) (equations a (fun k => entry b k j)) with
                                                     | Some xs => nth i xs n0
                                                     | None => n0   (* not reached: pivots do not depend on the right-hand side *)
                                                     end))
       end.
(** core/matrix/helper.py solve, lines 231-232 *)
Definition solve (a b : mat T) : res (mat T) := np_solve a b.

(** numpy.linalg.inv: gesv with the identity *)
Definition np_inv (a : mat T) : res (mat T) :=
  if negb (nr a =? nc a) then Err LinAlgError
  else np_solve a (mk (nr a) (nr a) (fun i j => if i =? j then n1 else n0)).
End Gauss.
