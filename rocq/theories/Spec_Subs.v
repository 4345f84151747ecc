(** Vocabulary for substitutions in a core. *)
From Coq Require Import String List ZArith QArith Reals.
From Verif Require Import Py Expr RSum Mat Core.
Import ListNotations.
Local Open Scope nat_scope.

(** [r'] is [r] with every key of the dictionary set to the value it stands for. *)
Definition values_from (d : list (string * expr)) (r r' : env) : Prop :=
  (forall k v, In (k, v) d -> r' k = eval r v) /\
  (forall s, ~ In s (map fst d) -> r' s = r s).

(** The same with values read in [r'] itself: the entries may refer to each other. *)
Definition solved_by (d : list (string * expr)) (r r' : env) : Prop :=
  (forall k v, In (k, v) d -> r' k = eval r' v) /\
  (forall s, ~ In s (map fst d) -> r' s = r s).

(** No value contains a key. *)
Definition no_self (d : list (string * expr)) : Prop :=
  forall k v k', In (k, v) d -> In k' (map fst d) -> ~ In k' (free_symbols v).

(** All the symbols that name the variables of a core. *)
Definition variables (c : core) : list string :=
  c_x c ++ c_w c ++ c_u c ++ c_y c ++ c_cu c ++ c_cy c ++ c_p c.

(** The matrices agree: [A'] under [r] and [A] under [r']. *)
Definition mat_same (r r' : env) (A A' : mat) : Prop :=
  nr A' = nr A /\ nc A' = nc A /\
  forall i j, i < nr A -> j < nc A -> eval r (ent A' i j) = eval r' (ent A i j).

(** Every expression of [c'] has under [r] the value it has in [c] under [r'];
    the variables are the same. *)
Definition same_values (r r' : env) (c c' : core) : Prop :=
  eval r (c_H c') = eval r' (c_H c) /\
  map (eval r) (c_z c') = map (eval r') (c_z c) /\
  option_map (map (eval r)) (c_dxH c') = option_map (map (eval r')) (c_dxH c) /\
  mat_same r r' (c_M c) (c_M c') /\
  mat_same r r' (c_Q c) (c_Q c') /\
  mat_same r r' (c_Zl c) (c_Zl c') /\
  map (eval r) (c_bl c') = map (eval r') (c_bl c) /\
  map (fun p => (fst p, eval r (snd p))) (c_observers c') =
    map (fun p => (fst p, eval r' (snd p))) (c_observers c) /\
  c_x c' = c_x c /\ c_w c' = c_w c /\ c_u c' = c_u c /\ c_y c' = c_y c /\
  c_cu c' = c_cu c /\ c_cy c' = c_cy c /\ c_p c' = c_p c.
