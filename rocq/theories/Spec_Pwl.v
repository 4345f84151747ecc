(** Vocabulary for piecewise-linear interpolation. *)
From Coq Require Import String List ZArith QArith Qreals Reals.
From Verif Require Import Expr.
Import ListNotations.
Local Open Scope R_scope.

(** Strictly increasing abscissae. *)
Definition increasing (X : list Q) : Prop :=
  forall i, (S i < length X)%nat -> (nth i X 0 < nth (S i) X 0)%Q.

(** The [i]-th entry as a real number. *)
Definition at_ (l : list Q) (i : nat) : R := Q2R (nth i l 0%Q).

(** Value of the expression [e] when the symbol [x] is [t]. *)
Definition fun_of (e : expr) (x : string) (t : R) : R :=
  eval (fun s => if String.eqb s x then t else 0) e.

(** Slope of the data between the points [i] and [i+1]. *)
Definition slope (X Y : list Q) (i : nat) : R :=
  (at_ Y (S i) - at_ Y i) / (at_ X (S i) - at_ X i).
