(** Vocabulary for the numerical methods. *)
From Coq Require Import String List ZArith QArith Qreals Reals Permutation.
From Verif Require Import Py Expr RSum Mat Core Spec_Core Spec_Calculus Subs Method.
Import ListNotations.
Local Open Scope R_scope.

(** [r'] lies in the box with opposite corners [r] and [r1]. *)
Definition in_box (r r1 r' : env) : Prop := forall s, Rmin (r s) (r1 s) <= r' s <= Rmax (r s) (r1 s).

(** The expression is smooth everywhere in the box. *)
Definition smooth_between (r r1 : env) (e : expr) (smooth : env -> expr -> Prop) : Prop :=
  forall r', in_box r r1 r' -> smooth r' e.

(** The structure absorbs power and every dissipation law too, for every value
    of the symbols [K], the other symbols being as in [r]. *)
Definition absorbs (K : list string) (r : env) (c : core) : Prop :=
  forall r', agree_off K r r' ->
    passive (ntot c) (Mv r' c) /\
    forall w z, In (w, z) (combine (c_w c) (c_z c)) -> 0 <= r' w * eval r' z.

(** Symbols a method replaces in the structure and in the laws: the states,
    the components of the gradient, and the keys of symbolic parameters. *)
Definition replaced (c : core) : list string := c_x c ++ g_symbols c ++ map fst (subsexprs c).

(** The names do not clash. *)
Definition clean_names (c : core) : Prop :=
  NoDup (c_x c) /\ (forall s, In s (dx c) -> ~ In s (c_x c)) /\
  (forall s, In s (c_w c) -> ~ In s (replaced c)) /\
  (forall s, In s (c_x c ++ c_w c ++ c_u c ++ c_y c ++ c_cu c ++ c_cy c ++ c_p c) ->
     ~ In s (map fst (subsexprs c))).

(** The energy of a method splits: the first [xl] states interact with no other
    one and their Hessian does not depend on them; the next [n] states interact
    with no later one. *)
Definition splits_energy (m : core) : Prop :=
  let xl := Z.to_nat (c_xl m) in
  let n := Z.to_nat (c_xnl_mono m) in
  let x i := nth i (c_x m) EmptyString in
  let mixed i j := diff (x j) (diff (x i) (c_H m)) in
  (forall i j, (i < xl)%nat -> (xl <= j < length (c_x m))%nat -> is0 (mixed i j) = true) /\
  (forall i j s, (i < xl)%nat -> (j < xl)%nat -> In s (free_symbols (mixed i j)) ->
     ~ In s (firstn xl (c_x m))) /\
  (forall i j, (xl <= i < xl + n)%nat -> (i < j < length (c_x m))%nat -> is0 (mixed i j) = true).

(** The increments of the separable states, and the norm of the other
    nonlinear increments, are zero or not smaller than the tolerance. *)
Definition away_from_zero (tol : R) (r : env) (m : core) : Prop :=
  let xl := Z.to_nat (c_xl m) in
  let n := Z.to_nat (c_xnl_mono m) in
  let multi := skipn (xl + n) (dx m) in
  (forall i, (xl <= i < xl + n)%nat -> (i < length (c_x m))%nat ->
     let d := r (nth i (dx m) EmptyString) in d = 0 \/ d < - tol \/ tol <= d) /\
  ((forall s, In s multi -> r s = 0) \/ tol ^ 2 <= norm2 r multi).

(** The gradient of the method is exact for its energy on the step from [r] to [r1]. *)
Definition exact_step (f : config) (m : core) (r r1 : env) : Prop :=
  match f_grad f with
  | Discret => 0 < Q2R (f_epsdg f) /\ splits_energy m /\
      smooth_between r r1 (c_H m) smooth /\ away_from_zero (Q2R (f_epsdg f)) r m
  | Theta => Q2R (f_theta f) = 1/2 /\ exists A b k, quadratic r (c_H m) (c_x m) A b k
  | Trapez => exists A b k, quadratic r (c_H m) (c_x m) A b k
  | OtherGrad => False
  end.

(** Every component of the implicit function vanishes. *)
Definition solves (r : env) (F : list expr) : Prop :=
  forall i, (i < length F)%nat -> eval r (nth i F (Num 0)) = 0.

(** The values [r'] of the next step start where the step [r] arrives; the
    parameters of the energy do not change. *)
Definition next_step (m : core) (r r' : env) : Prop :=
  (forall i, (i < length (c_x m))%nat ->
     r' (nth i (c_x m) EmptyString) = r (nth i (c_x m) EmptyString) + r (nth i (dx m) EmptyString)) /\
  (forall s, In s (free_symbols (c_H m)) -> ~ In s (c_x m) -> r' s = r s).

(** Powers during a step: from the laws, from the ports, lost in the structure. *)
Definition power_laws (r : env) (m : core) : R :=
  rsum (length (c_w m)) (fun k => r (nth k (c_w m) EmptyString) * eval r (nth k (c_z m) (Num 0))).
Definition power_ports (r : env) (m : core) (out : list expr) : R :=
  rsum (length (c_y m)) (fun k => r (nth k (c_u m) EmptyString) * eval r (nth k out (Num 0))).
Definition power_structure (r : env) (m : core) (a : list expr) : R :=
  rsum (ntot m) (fun i => rsum (ntot m) (fun j =>
    eval r (nth i a (Num 0)) * Rv r m i j * eval r (nth j a (Num 0)))).

(** A run of [N] steps: each is solved and exact, and starts where the previous
    one arrived; [run n] gives the value of every symbol during step [n]. *)
Definition solved_run (f : config) (m : core) (F : list expr) (N : nat) (run : nat -> env) : Prop :=
  forall n, (n < N)%nat -> solves (run n) F /\ next_step m (run n) (run (S n)) /\ 0 < run n fs_symbol /\
    forall r1, moved 1 (run n) (c_x m) (dx m) r1 -> exact_step f m (run n) r1.
