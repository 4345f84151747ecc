(** Model of pyphs/core/tools/_substitutions.py. *)
From Coq Require Import String List ZArith QArith Bool.
From Verif Require Import Py Expr Mat Core Calculus.
Import ListNotations.

(** _substitutions.py L210-213: the entries of [subs] whose key is a free
    symbol of the expression. *)
Definition restrict (fs : list string) (d : list (string * expr)) : list (string * expr) :=
  filter (fun p => py_in String.eqb (fst p) fs) d.

(** _substitutions.py L15-38 [substitute_scalar] called from L210-217. *)
Definition sub_scalar (d : list (string * expr)) (e : expr) : expr :=
  subs (restrict (free_symbols e) d) e.

(** _substitutions.py L41-67 [substitute_vector] called from L210-217. *)
Definition sub_vector (d : list (string * expr)) (l : list expr) : list expr :=
  map (subs (restrict (flat_map free_symbols l) d)) l.

(** core/tools/_free_symbols.py L68-80: symbols of the entries of a matrix. *)
Definition mat_symbols (A : mat) : list string := flat_map free_symbols (concat (rows_of A)).

(** _substitutions.py L70-89 [substitute_matrix] called from L210-217. *)
Definition sub_matrix (d : list (string * expr)) (A : mat) : mat :=
  mkMat (nr A) (nc A) (fun i j => subs (restrict (mat_symbols A) d) (ent A i j)).

(** _substitutions.py L92-116 [substitute_dict]. *)
Definition substitute_dict (d : list (string * expr)) (o : list (string * expr)) : list (string * expr) :=
  map (fun p => (fst p, subs d (snd p))) o.
Definition sub_observers (d o : list (string * expr)) : list (string * expr) :=
  substitute_dict (restrict (flat_map (fun p => free_symbols (snd p)) o) d) o.

(** Lists of symbols (x, w, u, y, cu, cy, p) go through the same substitution.
    Simplified: a symbol replaced by something else than a symbol is not
    representable in the model, which stops with [GenericException]. *)
Definition sub_symbol (d : list (string * expr)) (s : string) : result string :=
  match subs d (Sym s) with Sym s' => Ok s' | _ => Err GenericException end.
Definition sub_symbols (d : list (string * expr)) (l : list string) : result (list string) :=
  rmap (sub_symbol (restrict l d)) l.

(** core/core.py L686-692 [subsexprs].  Literals stand for python numbers. *)
Definition is_num (e : expr) : bool := match e with Num _ => true | _ => false end.
Definition subsexprs (c : core) : list (string * expr) :=
  filter (fun p => negb (is_num (snd p))) (c_subs c).

(** _substitutions.py L201-226: the body once the dictionary is known.  The
    connectors are not in the list of substituted attributes (L205-207). *)
Definition substitute_with (d : list (string * expr)) (c : core) : outcome :=
  let c := set_subs (substitute_dict d (c_subs c)) c in
  let c := set_H (sub_scalar d (c_H c)) c in
  let c := set_z (sub_vector d (c_z c)) c in
  let c := set_Q (sub_matrix d (c_Q c)) c in
  let c := set_Zl (sub_matrix d (c_Zl c)) c in
  let c := set_bl (sub_vector d (c_bl c)) c in
  let c := set_M (sub_matrix d (c_M c)) c in
  let c := set_dxH (match c_dxH c with None => None | Some l => Some (sub_vector d l) end) c in
  let c := set_observers (sub_observers d (c_observers c)) c in
  olift (sub_symbols d (c_x c)) c (fun v => let c := set_x v c in
  olift (sub_symbols d (c_w c)) c (fun v => let c := set_w v c in
  olift (sub_symbols d (c_u c)) c (fun v => let c := set_u v c in
  olift (sub_symbols d (c_y c)) c (fun v => let c := set_y v c in
  olift (sub_symbols d (c_cu c)) c (fun v => let c := set_cu v c in
  olift (sub_symbols d (c_cy c)) c (fun v => let c := set_cy v c in
  olift (sub_symbols d (c_p c)) c (fun v => let c := set_p v c in
  ok (set_subs (fold_left (fun o p => dict_pop (fst p) o) d (c_subs c)) c)))))))).

(** _substitutions.py L159-226 [substitute_core] (simplify=False). *)
Definition substitute_exprs (d : list (string * expr)) (c : core) : outcome :=
  substitute_with (dict_update d (subsexprs c)) c.
Definition substitute_core (d : list (string * expr)) (selfall selfexprs : bool) (c : core) : outcome :=
  if selfall
  then obind (substitute_exprs [] c) (fun c => substitute_with (dict_update d (c_subs c)) c)
  else if selfexprs then substitute_exprs d c
  else substitute_with d c.
