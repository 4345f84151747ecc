(** Vocabulary for the elimination of the linear dissipations. *)
From Coq Require Import String List ZArith QArith Reals Permutation Sorted.
From Verif Require Import Py Expr RSum Mat Core Spec_Core Spec_Split.
Import ListNotations.
Local Open Scope string_scope.
Local Open Scope list_scope.
Local Open Scope nat_scope.

(** Slope of the [p]-th law of [lin] with respect to the [q]-th variable. *)
Definition slope (r : env) (c : core) (lin : list nat) (p q : nat) : R :=
  eval r (diff (nth (nth q lin 0) (c_w c) "") (nth (nth p lin 0) (c_z c) (Num 0))).

(** Row of the structure of the [p]-th dissipation of [lin]. *)
Definition diss_row (c : core) (lin : list nat) (p : nat) : nat := length (c_x c) + nth p lin 0.

(** [lin] lists the dissipations of [c] whose law has a slope free of [dx] and
    [w], and [c'] has the other components of [c], listed by [keep]. *)
Definition reduced (c c' : core) (lin keep : list nat) : Prop :=
  StronglySorted lt lin /\
  (forall j, In j lin <-> j < length (c_w c) /\ free_column (jacobian (c_z c) (c_w c)) (dx c ++ c_w c) j) /\
  Permutation (map (fun j => length (c_x c) + j) lin ++ keep) (seq 0 (ntot c)) /\
  length keep = ntot c' /\
  (forall k s, nth_error keep k = Some s -> nth_error (comps c') k = nth_error (comps c) s).

(** [A] is the matrix I - Mww Z of the loop through the eliminated laws. *)
Definition dissipation_loop (r : env) (c : core) (lin : list nat) (A : mat) : Prop :=
  forall p q, p < length lin -> q < length lin ->
    eval r (ent A p q) =
    ((if Nat.eqb p q then 1 else 0) -
     rsum (length lin) (fun s => Mv r c (diss_row c lin p) (diss_row c lin s) * slope r c lin s q))%R.

(** The structure equations of [c], and z = Z w for the dissipations of [lin]. *)
Definition solves_with_laws (r : env) (c : core) (lin : list nat) (a b : rvec) : Prop :=
  b_eq_M_a (ntot c) (Mv r c) a b /\
  forall p, p < length lin ->
    a (diss_row c lin p) = rsum (length lin) (fun q => (slope r c lin p q * b (diss_row c lin q))%R).
