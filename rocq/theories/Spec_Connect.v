(** Specification vocabulary for connectors: the equations of a core whose
    connected ports are still visible, and the equations of the connectors. *)
From Coq Require Import String List ZArith Reals Permutation.
From Verif Require Import Py Expr Mat Core RSum Spec_Core.
Import ListNotations.
Local Open Scope string_scope.
Local Open Scope list_scope.
Local Open Scope R_scope.

(** Rows of the structure that are not connected ports. *)
Definition nint (c : core) : nat := (length (c_x c) + length (c_w c) + length (c_y c))%nat.

(** The structure relation b = M a where the last rows are ports kept apart:
    [a], [b] are the efforts and flows of the first [n] rows, and the port of
    row [n+k] is named by its output symbol [T k]: [uv s] and [yv s] are the
    values of the input and of the output of the port named [s]. *)
Definition split_rel (M : rmat) (n : nat) (T : list string)
  (a b : rvec) (uv yv : string -> R) : Prop :=
  (forall i, (i < n)%nat ->
     b i = rsum n (fun j => M i j * a j) +
           rsum (length T) (fun k => M i (n + k)%nat * uv (nth k T ""))) /\
  (forall k, (k < length T)%nat ->
     yv (nth k T "") =
       rsum n (fun j => M (n + k)%nat j * a j) +
       rsum (length T) (fun l => M (n + k)%nat (n + l)%nat * uv (nth l T ""))).

(** The connected ports are kept apart. *)
Definition ext_rel (r : env) (c : core) : rvec -> rvec -> (string -> R) -> (string -> R) -> Prop :=
  split_rel (Mv r c) (nint c) (c_cy c).

(** All ports, connected or not, are kept apart. *)
Definition nxw (c : core) : nat := (length (c_x c) + length (c_w c))%nat.
Definition terminals (c : core) : list string := c_y c ++ c_cy c.
Definition term_rel (r : env) (c : core) : rvec -> rvec -> (string -> R) -> (string -> R) -> Prop :=
  split_rel (Mv r c) (nxw c) (terminals c).

(** What connector [k] imposes, as [connect] reads it. *)
Definition transformer (r : env) (k : connector) (cuv cyv : string -> R) : Prop :=
  cuv (k_y0 k) = - (eval r (k_alpha k) * cyv (k_y1 k)) /\
  cuv (k_y1 k) = eval r (k_alpha k) * cyv (k_y0 k).

(** The connected ports are the ends of the connectors, each exactly once. *)
Definition conn_ok (c : core) : Prop :=
  NoDup (c_cy c) /\
  Permutation (c_cy c) (flat_map (fun k => [k_y0 k; k_y1 k]) (c_connectors c)).

(** [inv] inverts, at the valuation [r], the square matrices it accepts. *)
Definition inv_sound (inv : mat -> option mat) (r : env) : Prop :=
  forall A B, nr A = nc A -> inv A = Some B ->
    nr B = nr A /\ nc B = nc A /\
    is_inverse (nr A) (fun i j => eval r (ent A i j)) (fun i j => eval r (ent B i j)).

(** [A] is the matrix of the algebraic loop: applied to the outputs of the
    connected ports listed in the order [T], it gives what is left of these
    outputs when the response of the structure to the inputs imposed by the
    connectors is removed. *)
Definition loop_matrix (r : env) (c : core) (T : list string) (A : rmat) : Prop :=
  forall cuv cyv, (forall k, In k (c_connectors c) -> transformer r k cuv cyv) ->
  forall k i, (k < length T)%nat -> nth_error (c_cy c) i = Some (nth k T "") ->
    rsum (length T) (fun l => A k l * cyv (nth l T "")) =
    cyv (nth k T "") -
    rsum (length (c_cy c)) (fun l => Mv r c (nint c + i)%nat (nint c + l)%nat * cuv (nth l (c_cy c) "")).

(** [B] is what [inv] answers for the matrix [A] of the loop of [c]. *)
Definition loop_inverse (inv : mat -> option mat) (c : core) (A B : mat) : Prop :=
  nr A = length (c_cy c) /\ nc A = length (c_cy c) /\
  nr B = length (c_cy c) /\ nc B = length (c_cy c) /\
  (c_cy c = [] \/ inv A = Some B) /\
  exists T, Permutation T (c_cy c) /\ forall r, loop_matrix r c T (fun i j => eval r (ent A i j)).

(** [B] is the inverse of [A] at the valuation [r] (no division by zero). *)
Definition inverse_at (r : env) (A B : mat) : Prop :=
  is_inverse (nr A) (fun i j => eval r (ent A i j)) (fun i j => eval r (ent B i j)).

(** [inv] keeps the shape of the square matrices it accepts. *)
Definition inv_shape (inv : mat -> option mat) : Prop :=
  forall A B, nr A = nc A -> inv A = Some B -> nr B = nr A /\ nc B = nc A.

(** Value of a vector whose last rows are the free ports of [c]. *)
Definition with_ports (c : core) (v : rvec) (f : string -> R) : rvec :=
  fun i => if Nat.ltb i (nxw c) then v i else f (nth (i - nxw c) (c_y c) "").

(** The connectors of a core describe its connected ports, and the symbols of
    the ports are distinct. *)
Definition wired (c : core) : Prop :=
  NoDup (c_u c) /\ NoDup (terminals c) /\
  Permutation (c_cy c) (flat_map (fun k => [k_y0 k; k_y1 k]) (c_connectors c)).
