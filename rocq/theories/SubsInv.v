(** Model of pyphs/core/tools/_subsinverse.py.
    [simp] stands for [sympy.simplify].  Simplified: a negative power of a symbol
    is [Inv (Sym s)], [Inv (Pow (Sym s) n)] or [Pow (Inv (Sym s)) n]; a dictionary
    of the core that gives 0 to a parameter, for which python raises
    [ZeroDivisionError], is not treated apart; the branches of a [Piecewise] are
    its arguments.  [fuel] bounds the depth of the recursion. *)
From Coq Require Import String List ZArith QArith Bool.
From Verif Require Import Py Expr Mat Core.
Import ListNotations.
Local Open Scope string_scope.
Local Open Scope list_scope.
Local Open Scope nat_scope.

Notation dict := (list (string * expr)).

Definition invname (s : string) : string := "inv" ++ s.
Definition is_number (e : expr) : bool := match free_symbols e with [] => true | _ => false end.
Definition atom (e : expr) : bool := match e with Num _ | Sym _ => true | _ => false end.
Definition negative_power (e : expr) : option (string * nat) :=
  match e with
  | Inv (Sym s) => Some (s, 1)
  | Inv (Pow (Sym s) (S n)) => Some (s, S n)
  | Pow (Inv (Sym s)) (S n) => Some (s, S n)
  | _ => None
  end.
(** [expr.func()] on an expression without arguments: only the classes of 0, 1, -1
    and 1/2 accept it. *)
Definition singleton (q : Q) : bool :=
  Qeq_bool q 0 || Qeq_bool q 1 || Qeq_bool q (-1) || Qeq_bool q (1 # 2).

Section Simp.
Variable simp : expr -> expr.

(** The arguments one after the other; [subs] is updated in place, also when
    something is raised. *)
Definition andthen {A B} (r : dict * result A) (k : dict -> A -> dict * result B) : dict * result B :=
  match r with
  | (d, Ok a) => k d a
  | (d, Err x) => (d, Err x)
  end.

(** _subsinverse.py L14-35 [subsinverse_scalar]. *)
Fixpoint scalar (fuel : nat) (d : dict) (e : expr) : dict * result expr :=
  if atom e || is_number e then (d, Ok e) else
  match fuel with
  | O => (d, Err OutOfFuel)
  | S fuel =>
      let arg d a := if atom a then (d, Ok a) else scalar fuel d a in
      let e := simp e in
      match negative_power e with
      | Some (s, n) =>
          match assoc s d with
          | Some v => (dict_set (invname s) (Inv v) d, Ok (spow (Sym (invname s)) n))
          | None => (d, Ok e)
          end
      | None =>
          match e with
          | Num q => (d, if singleton q then Ok e else Err TypeError)
          | Sym _ => (d, Err TypeError)
          | Add a b => andthen (arg d a) (fun d a => andthen (arg d b) (fun d b => (d, Ok (Add a b))))
          | Mul a b => andthen (arg d a) (fun d a => andthen (arg d b) (fun d b => (d, Ok (Mul a b))))
          | Pow a n => andthen (arg d a) (fun d a => (d, Ok (Pow a n)))
          | Inv a => andthen (arg d a) (fun d a => (d, Ok (Inv a)))
          | App f a => andthen (arg d a) (fun d a => (d, Ok (App f a)))
          | Ite a b t e =>
              andthen (arg d a) (fun d a => andthen (arg d b) (fun d b =>
              andthen (arg d t) (fun d t => andthen (arg d e) (fun d e => (d, Ok (Ite a b t e))))))
          end
      end
  end.

(** _subsinverse.py L38-64 [subsinverse_vector], where nothing is [caught]; L67-93
    [subsinverse_matrix] and L96-121 [subsinverse_dict], where an entry that
    raises [TypeError] is kept.  The entries are replaced in place. *)
Fixpoint entries (fuel : nat) (caught : bool) (d : dict) (l : list expr) : dict * list expr * option exn :=
  match l with
  | [] => (d, [], None)
  | e :: l' =>
      match scalar fuel d e with
      | (d, Ok e') => let '(d, l', x) := entries fuel caught d l' in (d, e' :: l', x)
      | (d, Err TypeError) =>
          if caught then let '(d, l', x) := entries fuel caught d l' in (d, e :: l', x)
          else (d, e :: l', Some TypeError)
      | (d, Err x) => (d, e :: l', Some x)
      end
  end.

(** _subsinverse.py L174-184: one attribute of the core. *)
Definition attribute (fuel : nat) (caught : bool) (get : core -> list expr)
    (set : list expr -> core -> core) (c : core) : outcome :=
  let '(d, l, x) := entries fuel caught (c_subs c) (get c) in (set l (set_subs d c), x).

Definition flat (A : mat) : list expr := concat (rows_of A).
Definition reshape (A : mat) (l : list expr) : mat :=
  mkMat (nr A) (nc A) (fun i j => nth (i * nc A + j) l (Num 0)).

(** _subsinverse.py L162-184 [subsinverse_core].  The names are in a set: the order
    below is one of those that python may take.  The lists of symbols are left as
    they are by [subsinverse_scalar], and the connectors are not in the list. *)
Definition subsinverse_core (fuel : nat) (c : core) : outcome :=
  obind (attribute fuel false (fun c => [c_H c]) (fun l c => set_H (hd (c_H c) l) c) c) (fun c =>
  obind (attribute fuel false c_z set_z c) (fun c =>
  obind (attribute fuel true (fun c => flat (c_Q c)) (fun l c => set_Q (reshape (c_Q c) l) c) c) (fun c =>
  obind (attribute fuel true (fun c => flat (c_Zl c)) (fun l c => set_Zl (reshape (c_Zl c) l) c) c) (fun c =>
  obind (attribute fuel false c_bl set_bl c) (fun c =>
  obind (attribute fuel true (fun c => flat (c_M c)) (fun l c => set_M (reshape (c_M c) l) c) c) (fun c =>
  obind (match c_dxH c with
         | None => ok c
         | Some _ => attribute fuel false (fun c => match c_dxH c with Some l => l | None => [] end)
                       (fun l => set_dxH (Some l)) c
         end) (fun c =>
  attribute fuel true (fun c => map snd (c_observers c))
    (fun l c => set_observers (combine (map fst (c_observers c)) l) c) c))))))).
End Simp.
