(** Vocabulary for netlists: fields that avoid the separators. *)
From Coq Require Import Ascii String List Arith.
From Verif Require Import Py Netlist.
Import ListNotations.
Local Open Scope char_scope.
Local Open Scope list_scope.
Local Open Scope nat_scope.

Definition avoids (bad : list ascii) (t : text) : Prop := forall c, In c t -> ~ In c bad.
Definition blanks : list ascii := map ascii_of_nat [9; 10; 11; 12; 13; 28; 29; 30; 31; 32].

(** Strings inside tuples are quoted. *)
Definition atom_ok (bad : list ascii) (a : atom) : Prop :=
  match a with
  | AStr s => avoids (blanks ++ ["'"; """"; "\"; ","] ++ bad) s
  | ALit t => is_lit t = true
  end.
Definition nodes_ok (v : pyval) : Prop :=
  match v with
  | VTup l => Forall (atom_ok [":"]) l
  | VAtom (ALit t) => is_lit t = true
  | VAtom (AStr _) => False
  end.
(** A string alone is not quoted: it must not be a literal, but must be an
    expression for python.  Tuples have at least two elements. *)
Definition value_ok (valid : text -> bool) (v : pyval) : Prop :=
  match v with
  | VTup l => 2 <= length l /\ Forall (atom_ok [";"; "="]) l
  | VAtom (ALit t) => is_lit t = true
  | VAtom (AStr s) => avoids (blanks ++ [";"; "="]) s /\ hd_error s <> Some "(" /\ literal s = None /\ valid s = true
  end.
Definition entry_ok (valid : text -> bool) (e : entry) : Prop :=
  avoids (blanks ++ ["."; ":"]) (n_dict e) /\ hd_error (n_dict e) <> Some "#" /\
  avoids (blanks ++ [":"]) (n_comp e) /\
  avoids (blanks ++ [":"]) (n_label e) /\ n_label e <> [] /\
  nodes_ok (n_nodes e) /\
  NoDup (map fst (n_args e)) /\
  Forall (fun p => avoids (blanks ++ [";"; "="]) (fst p) /\ value_ok valid (snd p)) (n_args e).

(** The same without the condition that the names of parameters differ. *)
Definition fields_ok (valid : text -> bool) (e : entry) : Prop :=
  avoids (blanks ++ ["."; ":"]) (n_dict e) /\ hd_error (n_dict e) <> Some "#" /\
  avoids (blanks ++ [":"]) (n_comp e) /\
  avoids (blanks ++ [":"]) (n_label e) /\ n_label e <> [] /\
  nodes_ok (n_nodes e) /\
  Forall (fun p => avoids (blanks ++ [";"; "="]) (fst p) /\ value_ok valid (snd p)) (n_args e).
(** The value of a key: the first entry with this key. *)
Fixpoint value_at (k : text) (d : list (text * pyval)) : option pyval :=
  match d with
  | [] => None
  | (k', v) :: d' => if list_eq_dec ascii_dec k' k then Some v else value_at k d'
  end.
(** [e'] is [e] where every parameter has one value, the last one. *)
Definition last_value_counts (e e' : entry) : Prop :=
  n_dict e' = n_dict e /\ n_comp e' = n_comp e /\ n_label e' = n_label e /\ n_nodes e' = n_nodes e /\
  NoDup (map fst (n_args e')) /\ forall k, value_at k (n_args e') = value_at k (rev (n_args e)).
