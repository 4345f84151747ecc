(** Vocabulary for the splits of a core. *)
From Coq Require Import String List ZArith Permutation Sorted.
From Verif Require Import Py Expr Mat Core Spec_Core.
Import ListNotations.
Local Open Scope nat_scope.

(** [s] lists [0..N), first the [n] indices satisfying [Lin], then the others,
    each group in increasing order. *)
Definition stable_partition (N n : nat) (Lin : nat -> Prop) (s : list nat) : Prop :=
  exists l1 l2, s = l1 ++ l2 /\ length l1 = n /\ Permutation s (seq 0 N) /\
    StronglySorted lt l1 /\ StronglySorted lt l2 /\
    Forall Lin l1 /\ Forall (fun j => ~ Lin j) l2.

(** No symbol of [args] occurs in column [j] of [A]. *)
Definition free_column (A : mat) (args : list string) (j : nat) : Prop :=
  forall i s, i < nr A -> In s (free_symbols (ent A i j)) -> ~ In s args.

(** The elements of [l] read in the order [s]. *)
Definition in_order {A} (d : A) (l : list A) (s : list nat) : list A := map (fun j => nth j l d) s.

(** The renumbering of the whole structure when the storages are read in the
    order [sx], the dissipations in the order [sw], the rest unchanged. *)
Definition block_order (c : core) (sx sw : list nat) : list nat :=
  sx ++ map (fun j => length (c_x c) + j) sw ++
  seq (length (c_x c) + length (c_w c)) (length (c_y c) + length (c_cy c)).

(** A request to move one component, in the numbering of its own kind. *)
Inductive move := Mstor (i f : nat) | Mdiss (i f : nat) | Mport (i f : nat) | Mconn (i f : nat).

Definition run_move (m : move) (c : core) : outcome :=
  match m with
  | Mstor i f => move_stor (Z.of_nat i) (Z.of_nat f) c
  | Mdiss i f => move_diss (Z.of_nat i) (Z.of_nat f) c
  | Mport i f => move_port (Z.of_nat i) (Z.of_nat f) c
  | Mconn i f => move_connector (Z.of_nat i) (Z.of_nat f) c
  end.

Fixpoint run_moves (ms : list move) (c : core) : outcome :=
  match ms with
  | [] => ok c
  | m :: ms => obind (run_move m c) (run_moves ms)
  end.

(** Both positions exist. *)
Definition legal (c : core) (m : move) : Prop :=
  match m with
  | Mstor i f => i < length (c_x c) /\ f < length (c_x c)
  | Mdiss i f => i < length (c_w c) /\ f < length (c_w c)
  | Mport i f => i < length (c_y c) /\ f < length (c_y c)
  | Mconn i f => i < length (c_cy c) /\ f < length (c_cy c)
  end.

(** The renumbering keeps every component inside its own kind. *)
Definition keeps_kinds (c c' : core) : Prop :=
  length (c_x c') = length (c_x c) /\ length (c_w c') = length (c_w c) /\
  length (c_y c') = length (c_y c) /\ length (c_cy c') = length (c_cy c).

(** The cached matrices of the linear parts, and their sizes. *)
Definition same_counts (c c' : core) : Prop :=
  c_Q c' = c_Q c /\ c_bl c' = c_bl c /\ c_xl c' = c_xl c /\ c_wl c' = c_wl c /\
  c_xnl_mono c' = c_xnl_mono c.
