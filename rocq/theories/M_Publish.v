(** get_matrix_names, get_matrix, has_loadings and get_loadings of the PLS classes
    (algorithm/pls/*.py).  None is the Python None; PRM's product can raise.  A name is a string;
    [name == 'P'] and the switch/case of wai.common (not part of this repository; taken to run the
    first matching case, nothing when there is none) are both comparisons with ==. *)
From Coq Require Import List ZArith Bool String.
From Verif Require Import Base Num Mat M_Matrix M_Transform M_PLSBase M_PLS M_PLS2.
Import ListNotations.
Local Open Scope string_scope.

Section Publish.
Context {T : Type} `{Num T}.
Definition look (table : list (string * option (mat T))) (name : string) : option (mat T) :=
  match find (fun e => String.eqb name (fst e)) table with Some e => snd e | None => None end.

(** _PLS1.py: get_matrix_names 42-51, get_matrix 53-69, get_loadings 79-85; VCPLS inherits them *)
Definition pls1_names : list string := ["RegVector"; "P"; "W"; "b_hat"].
Definition pls1_matrix (a : pls1_st T) : string -> option (mat T) :=
  look [("RegVector", o_r_hat a); ("P", o_P a); ("W", o_W a); ("b_hat", o_b_hat a)].
Definition pls1_loadings (a : pls1_st T) : option (mat T) := pls1_matrix a "P".

(** _SIMPLS.py: 54-60, 62-76, 86-92 *)
Definition simpls_names : list string := ["W"; "B"; "Q"].
Definition simpls_matrix (a : simpls_st T) : string -> option (mat T) := look [("W", si_W a); ("B", si_B a); ("Q", si_Q a)].
Definition simpls_loadings (a : simpls_st T) : option (mat T) := si_W a.

(** _NIPALS.py: 251-252, 254-263, 283-284; CCARegression inherits them *)
Definition nipals_names : list string := ["T"; "U"; "P"; "Q"].
Definition nipals_attr (f : nipals_model T -> mat T) (a : nipals_st T) : option (mat T) := option_map f (ni_model a).
Definition nipals_matrix (a : nipals_st T) : string -> option (mat T) :=
  look [("T", nipals_attr nm_X_scores a); ("U", nipals_attr nm_Y_scores a); ("P", nipals_attr nm_X_loadings a); ("Q", nipals_attr nm_Y_loadings a)].
Definition nipals_loadings : nipals_st T -> option (mat T) := nipals_attr nm_X_loadings.

(** _KernelPLS.py: 192-193, 195-206, 224-225 *)
Definition kpls_names : list string := ["K"; "T"; "U"; "P"; "Q"].
Definition kpls_attr {KS} (f : kpls_model (T:=T) -> mat T) (a : kpls_st (KS:=KS)) : option (mat T) := option_map f (kp_model a).
Definition kpls_matrix {KS} (a : kpls_st (KS:=KS)) : string -> option (mat T) :=
  look [("K", kpls_attr km_K_deflated a); ("T", kpls_attr km_T a); ("U", kpls_attr km_U a); ("P", kpls_attr km_P a); ("Q", kpls_attr km_Q a)].
Definition kpls_loadings {KS} : kpls_st (KS:=KS) -> option (mat T) := kpls_attr km_T.

(** _OPLS.py: 65-73, 75-90, 100-106 *)
Definition opls_names : list string := ["P_orth"; "W_orth"; "T_orth"].
Definition opls_matrix {AB} (a : opls_st (AB:=AB)) : string -> option (mat T) := look [("P_orth", op_P a); ("W_orth", op_W a); ("T_orth", op_T a)].
Definition opls_loadings {AB} (a : opls_st (AB:=AB)) : option (mat T) := op_P a.

(** _SparsePLS.py: 91-98, 100-113, 123-129 *)
Definition sparse_names : list string := ["W"; "B"].
Definition sparse_matrix (a : sparse_st (T:=T)) : string -> option (mat T) := look [("W", sp_W a); ("B", sp_B a)].
Definition sparse_loadings (a : sparse_st (T:=T)) : option (mat T) := sp_W a.

(** _DIPLS.py: 74-78, 80-93, 98-99 *)
Definition dipls_names : list string := ["T"; "Ts"; "Tt"; "Wdi"; "P"; "Ps"; "Pt"; "bdi"].
Definition dipls_attr (f : dipls_model (T:=T) -> mat T) (a : dipls_st) : option (mat T) := option_map f (di_model a).
Definition dipls_matrix (a : dipls_st (T:=T)) : string -> option (mat T) :=
  look [("T", dipls_attr dm_T a); ("Ts", dipls_attr dm_T_s a); ("Tt", dipls_attr dm_T_t a);
        ("P", dipls_attr dm_P a); ("Ps", dipls_attr dm_P_s a); ("Pt", dipls_attr dm_P_t a);
        ("Wdi", dipls_attr dm_W a); ("bdi", dipls_attr dm_b a)].
Definition dipls_loadings : dipls_st (T:=T) -> option (mat T) := dipls_attr dm_T.

(** _PRM.py: 89-93, 95-105, 107-111 (no loadings); 'W' is W_r.mul_elementwise(W_x) *)
Definition prm_names : list string := ["B"; "Wr"; "Wx"; "W"].
Definition prm_attr (f : prm_model (T:=T) -> mat T) (a : prm_st) : option (mat T) := option_map f (pr_model a).
Definition prm_matrix (a : prm_st (T:=T)) (name : string) : res (option (mat T)) :=
  if String.eqb name "W"
  then do r <- need (prm_attr pm_W_r a); do x <- need (prm_attr pm_W_x a); do w <- mul_elementwise r x; Ok (Some w)
  else Ok (look [("B", prm_attr pm_coef a); ("Wr", prm_attr pm_W_r a); ("Wx", prm_attr pm_W_x a)] name).
End Publish.
