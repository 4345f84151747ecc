(** Python primitives used by pyphs: exceptions as values, list indexing with
    negative indices, slices with clamped bounds, [list.index], [list.remove].
    These model the python language itself (not a file of /repo); every use in
    the other files cites the python line that uses them. *)
From Coq Require Import String List ZArith Bool Lia.
Import ListNotations.
Local Open Scope Z_scope.

(** Exceptions raised by the modelled code. *)
Inductive exn :=
| IndexError | ValueError | TypeError | AssertionError | AttributeError
| NameError | KeyError | ShapeError | UnboundLocalError | SyntaxError
| NotImplementedError | LinAlgError | SingularMatrix | GenericException
| UndefinedPotential | CanNotUnlock
(** Not an exception: the loop of the model was stopped. *)
| OutOfFuel.

(** Result of a python computation: a value or an exception. *)
Inductive result (A : Type) :=
| Ok (a : A)
| Err (e : exn).
Arguments Ok {A} a.
Arguments Err {A} e.

(** Sequencing of python statements: the first exception wins. *)
Definition rbind {A B} (r : result A) (f : A -> result B) : result B :=
  match r with Ok a => f a | Err e => Err e end.
Notation "'do' x <- r ; k" := (rbind r (fun x => k))
  (at level 200, x pattern, r at level 100, k at level 200, right associativity).

(** [[f a for a in l]] where [f] may raise. *)
Fixpoint rmap {A B} (f : A -> result B) (l : list A) : result (list B) :=
  match l with
  | [] => Ok []
  | a :: l' => do b <- f a; do bs <- rmap f l'; Ok (b :: bs)
  end.

(** [l[i]]: negative indices count from the end; out of range raises. *)
Definition py_get {A} (l : list A) (i : Z) : result A :=
  let n := Z.of_nat (length l) in
  let j := if i <? 0 then i + n else i in
  if j <? 0 then Err IndexError
  else match nth_error l (Z.to_nat j) with
       | Some a => Ok a
       | None => Err IndexError
       end.

(** Bound of a slice, clamped to [0, n]. *)
Definition py_clamp (n i : Z) : Z :=
  let j := if i <? 0 then i + n else i in
  Z.max 0 (Z.min n j).

(** [l[a:b]] with [None] for an omitted bound. *)
Definition py_slice {A} (l : list A) (a b : option Z) : list A :=
  let n := Z.of_nat (length l) in
  let a' := match a with None => 0 | Some i => py_clamp n i end in
  let b' := match b with None => n | Some i => py_clamp n i end in
  firstn (Z.to_nat (b' - a')) (skipn (Z.to_nat a') l).

(** [l.index(x)]: position of the first occurrence, ValueError if absent. *)
Fixpoint py_index {A} (eqb : A -> A -> bool) (x : A) (l : list A) : result nat :=
  match l with
  | [] => Err ValueError
  | a :: l' => if eqb a x then Ok 0%nat
               else do n <- py_index eqb x l'; Ok (S n)
  end.

(** [l.remove(x)]: drop the first occurrence, ValueError if absent. *)
Fixpoint py_remove {A} (eqb : A -> A -> bool) (x : A) (l : list A)
  : result (list A) :=
  match l with
  | [] => Err ValueError
  | a :: l' => if eqb a x then Ok l'
               else do r <- py_remove eqb x l'; Ok (a :: r)
  end.

(** [x in l]. *)
Definition py_in {A} (eqb : A -> A -> bool) (x : A) (l : list A) : bool :=
  existsb (fun a => eqb a x) l.
