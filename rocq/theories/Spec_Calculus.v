(** Vocabulary for symbolic differentiation. *)
From Coq Require Import String List ZArith QArith Qreals Reals.
From Verif Require Import Py Expr RSum.
Import ListNotations.
Local Open Scope R_scope.

(** The valuation [r] with [x] set to [t]. *)
Definition upd (r : env) (x : string) (t : R) : env := fun s => if String.eqb s x then t else r s.

(** [r] lies in the domain where the expression is smooth: no division by zero,
    positive arguments of logarithms and square roots, non-zero arguments of
    [abs] and [sign], and conditions that do not change around [r]. *)
Fixpoint smooth (r : env) (e : expr) : Prop :=
  match e with
  | Num _ | Sym _ => True
  | Add a b | Mul a b => smooth r a /\ smooth r b
  | Pow a _ => smooth r a
  | Inv a => smooth r a /\ eval r a <> 0
  | App f a => smooth r a /\
      match f with
      | Fexp | Fsin | Fcos => True
      | Fln | Fsqrt => 0 < eval r a
      | Fabs | Fsign => eval r a <> 0
      end
  | Ite a b t e => smooth r a /\ smooth r b /\
      (eval r a < eval r b /\ smooth r t \/ eval r b < eval r a /\ smooth r e)
  end.

(** Partial derivative of the value of [e] with respect to [x] at [r]. *)
Definition is_partial (r : env) (x : string) (e : expr) (d : R) : Prop :=
  derivable_pt_lim (fun t => eval (upd r x t) e) (r x) d.

(** [r'] is the valuation [r] where each state [x_i] has moved by
    [theta * dx_i]; every other symbol keeps its value. *)
Definition moved (theta : R) (r : env) (x dx : list string) (r' : env) : Prop :=
  (forall i, (i < length x)%nat ->
     r' (nth i x EmptyString) = r (nth i x EmptyString) + theta * r (nth i dx EmptyString)) /\
  (forall s, ~ In s x -> r' s = r s).

(** [r'] differs from [r] at most on the symbols [x]. *)
Definition agree_off (x : list string) (r r' : env) : Prop := forall s, ~ In s x -> r' s = r s.

(** Work [sum_i g_i * dx_i] of the vector of expressions [g] along [dx]. *)
Definition work (r : env) (g : list expr) (dx : list string) : R :=
  fold_right Rplus 0 (map (fun p => eval r (fst p) * r (snd p)) (combine g dx)).

(** The expression [H] is a quadratic function of [x] around [r]:
    [H = 1/2 x^T A x + b.x + c] with coefficients that do not depend on [x]. *)
Definition quadratic (r : env) (H : expr) (x : list string)
  (A : nat -> nat -> R) (b : nat -> R) (c : R) : Prop :=
  forall r', agree_off x r r' ->
    smooth r' H /\
    eval r' H = 1/2 * rsum (length x) (fun i => rsum (length x) (fun j =>
                  A i j * r' (nth i x EmptyString) * r' (nth j x EmptyString)))
                + rsum (length x) (fun i => b i * r' (nth i x EmptyString)) + c.

(** The quadratic form of the increments. *)
Definition qform (r : env) (n : nat) (dx : list string) (A : nat -> nat -> R) : R :=
  rsum n (fun i => rsum n (fun j =>
    A i j * r (nth i dx EmptyString) * r (nth j dx EmptyString))).

(** Squared norm of the increments. *)
Definition norm2 (r : env) (dx : list string) : R :=
  fold_right Rplus 0 (map (fun d => r d ^ 2) dx).
