(** Model of pyphs/dictionary/pwl/tools.py and of the data checks of
    dictionary/pwl/_dissipative.py and _storage.py.
    Simplified: floats are rationals; the file that holds the data is the pair
    of lists it contains. *)
From Coq Require Import String List ZArith QArith Qabs Bool.
From Verif Require Import Py Expr.
Import ListNotations.
Local Open Scope Q_scope.
Local Open Scope list_scope.

(** Elementwise operation on two numpy arrays. *)
Definition zip_with {A B C} (f : A -> B -> C) (l : list A) (l' : list B) : list C :=
  map (fun p => f (fst p) (snd p)) (combine l l').

(** [np.diff], tools.py L79, L81. *)
Definition np_diff (l : list Q) : list Q := zip_with (fun a b => b - a) l (tl l).

(** tools.py L83: [m = delta_y/delta_x].  numpy gives [inf] or [nan] for equal
    abscissae, which is not a number: it is reported as an error here. *)
Definition np_div (l l' : list Q) : result (list Q) :=
  if existsb (fun q => Qeq_bool q 0) l' then Err ValueError else Ok (zip_with Qdiv l l').

(** tools.py L85: the slopes padded with the first and the last one. *)
Definition pad (m : list Q) : result (list Q) :=
  match m with
  | [] => Err IndexError
  | m0 :: _ => Ok ((m0 :: m) ++ [last m m0])
  end.

(** [np.sum] on numbers and python's [sum] on expressions. *)
Definition qsum (l : list Q) : Q := fold_left Qplus l 0.
Definition esum (l : list expr) : expr := fold_left sadd l (Num 0).

(** tools.py L53-102 [pwl_func]. *)
Definition pwl_func (X Y : list Q) (x : string) (integ : bool) (y0 intconst : Q) : result expr :=
  if negb (Nat.eqb (length X) (length Y)) then Err AssertionError else
  let P := length X in
  do d <- np_div (np_diff Y) (np_diff X);
  do m <- pad d;
  let b := (1#2) * (hd 0 m + last m 0) in
  let c := zip_with (fun p q => (1#2) * (p - q)) (tl m) (firstn P m) in
  let a := y0 - qsum (zip_with (fun ci Xi => ci * Qabs Xi) c X) in
  if integ then
    Ok (sadd (sadd (sadd (sadd (Num intconst) (smul (Num a) (Sym x)))
                         (smul (Num (b / 2)) (spow (Sym x) 2)))
                   (esum (zip_with (fun ci Xi =>
                      smul (smul (Num (ci * (1#2))) (App Fabs (ssub (Sym x) (Num Xi))))
                           (ssub (Sym x) (Num Xi))) c X)))
             (Num (qsum (zip_with (fun ci Xi => ci * (1#2) * Qabs Xi * Xi) c X))))
  else
    Ok (sadd (sadd (Num a) (smul (Num b) (Sym x)))
             (esum (zip_with (fun ci Xi => smul (Num ci) (App Fabs (ssub (Sym x) (Num Xi)))) c X))).

(** The asserts on the values whose abscissa satisfies a condition. *)
Definition all_where (cond ok : Q -> bool) (xs ys : list Q) : bool :=
  forallb (fun p => implb (cond (fst p)) (ok (snd p))) (combine xs ys).
Definition Qltb (a b : Q) : bool := negb (Qle_bool b a).

(** _dissipative.py L33-55: the checks on the data and the law [z(w)]; the
    keywords [y0] and [intconst] keep their default values. *)
Definition dissipative (w_vals z_vals : list Q) (w : string) : result expr :=
  if negb (all_where (fun q => Qle_bool 0 q) (fun q => Qle_bool 0 q) w_vals z_vals)
  then Err AssertionError else
  if negb (all_where (fun q => Qltb q 0) (fun q => Qltb q 0) w_vals z_vals)
  then Err AssertionError else
  if negb (all_where (fun q => Qeq_bool q 0) (fun q => Qeq_bool q 0) w_vals z_vals)
  then Err AssertionError else
  if negb (forallb (fun q => Qltb 0 q) (np_diff z_vals))
  then Err AssertionError else
  pwl_func w_vals z_vals w false 0 0.

(** _storage.py L44: [h_vals[np.nonzero(x_vals == 0)] == 0] is an array; it is
    false when empty, and the truth of two elements or more is a ValueError. *)
Definition zero_check (x_vals h_vals : list Q) : result unit :=
  match filter (fun p => Qeq_bool (fst p) 0) (combine x_vals h_vals) with
  | [p] => if Qeq_bool (snd p) 0 then Ok tt else Err AssertionError
  | [] => Err AssertionError
  | _ => Err ValueError
  end.

(** _storage.py L28-52: the checks on the data and the energy [h(x)]. *)
Definition storage (x_vals h_vals : list Q) (x : string) (integ : bool) : result expr :=
  if negb (all_where (fun q => Qle_bool 0 q) (fun q => Qle_bool 0 q) x_vals h_vals)
  then Err AssertionError else
  if negb (all_where (fun q => Qltb q 0) (fun q => if integ then Qltb q 0 else Qle_bool 0 q) x_vals h_vals)
  then Err AssertionError else
  do _ <- zero_check x_vals h_vals;
  pwl_func x_vals h_vals x integ 0 0.
