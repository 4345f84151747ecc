(** Symbolic expressions: the part of sympy that pyphs relies on.
    pyphs calls sympy for arithmetic, [diff], [subs] and [free_symbols]
    (core/maths/_calculus.py L45, L116; core/tools/_substitutions.py;
    core/tools/_free_symbols.py L35-42).
    Simplified: numbers are exact rationals (sympy also has floats); only
    natural powers and inverse are kept; sympy's canonicalisation is limited to
    the removal of zeros and ones done by [sadd] and [smul]; [Piecewise] is a
    two-branch conditional, nested for more branches. *)
From Coq Require Import String List ZArith QArith Qreals Reals Bool.
Import ListNotations.
Local Open Scope R_scope.

(** Elementary functions appearing in pyphs expressions
    (dictionary/electronics/_diode.py L32-33, mechanics/_springsat.py L36,
    pwl/tools.py L70-95). *)
Inductive fn := Fexp | Fln | Fsin | Fcos | Fsqrt | Fabs | Fsign.

Inductive expr :=
| Num (q : Q)
| Sym (s : string)
| Add (a b : expr)
| Mul (a b : expr)
| Pow (a : expr) (n : nat)
| Inv (a : expr)
| App (f : fn) (a : expr)
| Ite (a b t e : expr).  (** Piecewise((t, a < b), (e, True)) *)

(** Valuation of symbols. *)
Definition env := string -> R.

Definition fn_eval (f : fn) (x : R) : R :=
  match f with
  | Fexp => exp x
  | Fln => ln x
  | Fsin => sin x
  | Fcos => cos x
  | Fsqrt => sqrt x
  | Fabs => Rabs x
  | Fsign => if Rlt_dec 0 x then 1 else if Rlt_dec x 0 then -1 else 0
  end.

(** Value of an expression (what sympy's [subs] + [evalf], or the lambdified
    function, computes up to rounding). *)
Fixpoint eval (r : env) (e : expr) : R :=
  match e with
  | Num q => Q2R q
  | Sym s => r s
  | Add a b => eval r a + eval r b
  | Mul a b => eval r a * eval r b
  | Pow a n => eval r a ^ n
  | Inv a => / eval r a
  | App f a => fn_eval f (eval r a)
  | Ite a b t e => if Rlt_dec (eval r a) (eval r b) then eval r t else eval r e
  end.

(** Literal zero / one test. *)
Definition is0 (e : expr) : bool :=
  match e with Num q => Qeq_bool q 0 | _ => false end.
Definition is1 (e : expr) : bool :=
  match e with Num q => Qeq_bool q 1 | _ => false end.

(** Sum and product with the automatic removal of neutral elements that sympy
    performs. *)
Definition sadd (a b : expr) : expr :=
  if is0 a then b else if is0 b then a
  else match a, b with
       | Num p, Num q => Num (Qred (p + q))
       | _, _ => Add a b
       end.
Definition smul (a b : expr) : expr :=
  if is0 a then Num 0 else if is0 b then Num 0
  else if is1 a then b else if is1 b then a
  else match a, b with
       | Num p, Num q => Num (Qred (p * q))
       | _, _ => Mul a b
       end.
Definition spow (a : expr) (n : nat) : expr :=
  match n with
  | O => Num 1
  | S O => a
  | _ => match a with
         | Num q => Num (Qred (Qpower q (Z.of_nat n)))
         | _ => Pow a n
         end
  end.
Definition sneg (a : expr) : expr := smul (Num (-1)) a.
Definition ssub (a b : expr) : expr := sadd a (sneg b).

(** Derivative of the elementary functions.  The derivative of [sign] is 0
    (sympy returns a Dirac term that vanishes off 0). *)
Definition fn_diff (f : fn) (a : expr) : expr :=
  match f with
  | Fexp => App Fexp a
  | Fln => Inv a
  | Fsin => App Fcos a
  | Fcos => sneg (App Fsin a)
  | Fsqrt => Inv (smul (Num 2) (App Fsqrt a))
  | Fabs => App Fsign a
  | Fsign => Num 0
  end.

(** sympy's [e.diff(x)], used by core/maths/_calculus.py L45 and L116. *)
Fixpoint diff (x : string) (e : expr) : expr :=
  match e with
  | Num _ => Num 0
  | Sym s => if String.eqb s x then Num 1 else Num 0
  | Add a b => sadd (diff x a) (diff x b)
  | Mul a b => sadd (smul (diff x a) b) (smul a (diff x b))
  | Pow a n => match n with
               | O => Num 0
               | S m => smul (smul (Num (inject_Z (Z.of_nat n))) (spow a m)) (diff x a)
               end
  | Inv a => smul (sneg (diff x a)) (spow (Inv a) 2)
  | App f a => smul (fn_diff f a) (diff x a)
  | Ite a b t e => if is0 (diff x t) && is0 (diff x e) then Num 0
                   else Ite a b (diff x t) (diff x e)
  end.

(** core/tools/_free_symbols.py L35-42: the symbols of an expression. *)
Fixpoint free_symbols (e : expr) : list string :=
  match e with
  | Num _ => []
  | Sym s => [s]
  | Add a b | Mul a b => free_symbols a ++ free_symbols b
  | Pow a _ | Inv a | App _ a => free_symbols a
  | Ite a b t e => free_symbols a ++ free_symbols b ++ free_symbols t ++ free_symbols e
  end.

(** First binding of a symbol in a dictionary. *)
Fixpoint assoc {B} (s : string) (d : list (string * B)) : option B :=
  match d with
  | [] => None
  | (k, v) :: d' => if String.eqb k s then Some v else assoc s d'
  end.

(** sympy's [e.subs(dict)] with simultaneous reading of the dictionary.
    Simplified: sympy substitutes sequentially; the two agree when no value
    contains a key. *)
Fixpoint subst (d : list (string * expr)) (e : expr) : expr :=
  match e with
  | Num q => Num q
  | Sym s => match assoc s d with Some v => v | None => Sym s end
  | Add a b => Add (subst d a) (subst d b)
  | Mul a b => Mul (subst d a) (subst d b)
  | Pow a n => Pow (subst d a) n
  | Inv a => Inv (subst d a)
  | App f a => App f (subst d a)
  | Ite a b t e => Ite (subst d a) (subst d b) (subst d t) (subst d e)
  end.

(** Equality test on expressions up to literal numbers (used by the examples). *)
Definition fn_eqb (f g : fn) : bool :=
  match f, g with
  | Fexp, Fexp | Fln, Fln | Fsin, Fsin | Fcos, Fcos | Fsqrt, Fsqrt
  | Fabs, Fabs | Fsign, Fsign => true
  | _, _ => false
  end.
