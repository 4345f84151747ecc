(** Model of pyphs/numerics/numerical_method/_discrete_calculus.py.  Symbols
    are modelled by their names and floats by rationals. *)
From Coq Require Import String List ZArith QArith Bool.
From Verif Require Import Py Expr Mat Core.
Import ListNotations.
Local Open Scope Q_scope.

(** sympy's [e.subs(dict)]: the pairs are replaced one after the other.  sympy
    visits them in an order of its own (by decreasing complexity of the keys,
    then by name); the order of the list stands for that order. *)
Definition subs (d : list (string * expr)) (e : expr) : expr :=
  fold_left (fun e p => subst [p] e) d e.

(** _discrete_calculus.py L92, L152-154, L195-197: the dictionary
    [{xi: xi + theta*dxi}]. *)
Definition shifts (theta : Q) (x dx : list string) : list (string * expr) :=
  dict_update [] (map (fun p => (fst p, sadd (Sym (fst p)) (smul (Num theta) (Sym (snd p)))))
                      (combine x dx)).

(** [assert len(dx) == nx], L43-45, L84-86, L147-149, L190-192. *)
Definition same_len {A} (x dx : list string) (k : result A) : result A :=
  if Nat.eqb (length dx) (length x) then k else Err AssertionError.

(** sympy's [Piecewise((p, c < -tol), (q, c < tol), (p, True))]. *)
Definition piecewise3 (c : expr) (tol : Q) (p q : expr) : expr :=
  Ite c (Num (- tol)) p (Ite c (Num tol) q p).

(** _discrete_calculus.py L46-58: one component of [discrete_gradient_monovar]. *)
Definition mono_component (H : expr) (tol : Q) (p : string * string) : expr :=
  let '(xi, dxi) := p in
  let Hpost := subs [(xi, sadd (Sym xi) (Sym dxi))] H in
  let dxh := smul (ssub Hpost H) (Inv (Sym dxi)) in
  let dxh_continuous := diff xi H in
  let dxh0 := sadd dxh_continuous (smul (smul (Num (1#2)) (diff xi dxh_continuous)) (Sym dxi)) in
  piecewise3 (Sym dxi) tol dxh dxh0.

(** _discrete_calculus.py L14-59 [discrete_gradient_monovar]. *)
Definition discrete_gradient_monovar (H : expr) (x dx : list string) (tol : Q)
  : result (list expr) :=
  same_len x dx (Ok (map (mono_component H tol) (combine x dx))).

(** _discrete_calculus.py L117-157 [gradient_theta]. *)
Definition gradient_theta (H : expr) (x dx : list string) (theta : Q)
  : result (list expr) :=
  same_len x dx (Ok (map (subs (shifts theta x dx)) (gradient H x))).

(** _discrete_calculus.py L160-200 [gradient_trapez]. *)
Definition gradient_trapez (H : expr) (x dx : list string) : result (list expr) :=
  same_len x dx
    (Ok (map (fun g => smul (Num (1#2)) (sadd g (subs (shifts 1 x dx) g))) (gradient H x))).

(** python's [sum]. *)
Definition esum (l : list expr) : expr := fold_left sadd l (Num 0).

(** _discrete_calculus.py L62-114 [discrete_gradient_multivar]. *)
Definition discrete_gradient_multivar (H : expr) (x dx : list string) (tol : Q)
  : result (list expr) :=
  same_len x dx
  (do dxHd <- gradient_theta H x dx (1#2);
   let norm2 := esum (map (fun d => spow (Sym d) 2) dx) in
   let corr := ssub (subs (shifts 1 x dx) H) H in
   let corr := ssub corr (esum (map (fun p => smul (fst p) (Sym (snd p))) (combine dxHd dx))) in
   let corr := smul corr (Inv norm2) in
   let corr := piecewise3 norm2 (tol * tol) corr (Num 0) in
   Ok (map (fun p => sadd (fst p) (smul corr (Sym (snd p)))) (combine dxHd dx))).
