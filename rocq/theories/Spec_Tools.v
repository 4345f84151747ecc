(** Specification vocabulary for the list helpers. *)
From Coq Require Import String List ZArith Permutation Sorted.
From Verif Require Import Tools.
Import ListNotations.

(** [l] is the range [0..n) with element [i] at position [p] and every other
    element in its usual relative order. *)
Definition moved_range (n i p : nat) (l : list nat) : Prop :=
  Permutation l (seq 0 n) /\
  nth_error l p = Some i /\
  filter (fun k => negb (Nat.eqb k i)) l = filter (fun k => negb (Nat.eqb k i)) (seq 0 n).

(** [sel] is the list of elements of [l] at the positions satisfying [P],
    in increasing order of position. *)
Definition selects {A} (P : nat -> A -> Prop) (l sel : list A) (inds : list nat) : Prop :=
  StronglySorted lt inds /\
  (forall k, In k inds <-> exists a, nth_error l k = Some a /\ P k a) /\
  Forall2 (fun k a => nth_error l k = Some a) inds sel.

(** Strings of a nested list, left to right. *)
Fixpoint leaves (o : nested) : list string :=
  match o with
  | Leaf s => [s]
  | Node l => flat_map leaves l
  end.
