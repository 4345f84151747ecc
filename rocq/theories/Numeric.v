(** Model of the update actions of a method (numerics/numerical_method/_method.py),
    of Operation (numerics/tools/_operation.py) and of Numeric
    (numerics/numerical_core/_numerical_core.py).
    Simplified: floating-point numbers are real numbers; numpy.linalg.inv is a
    function given from outside; lambdify is evaluation of the expression;
    labels, messages, theano and docstrings are not modelled.  The numerical
    dictionary of the method (with the sample rate, L60) is given as [n_subs]. *)
From Coq Require Import String List ZArith QArith Qreals Reals Bool.
From Verif Require Import Py Tools Expr RSum Mat Core Method.
Import ListNotations.
Local Open Scope string_scope.
Local Open Scope list_scope.
Local Open Scope nat_scope.

(** ** Operations *)

(** Numpy arrays with 0, 1 and 2 dimensions. *)
Inductive value :=
| Sc (a : R)
| Ve (l : list R)
| Ma (n m : nat) (A : nat -> nat -> R).

(** _operation.py L12-33: an operation applied to names, numbers and
    operations.  'div' and 'none' (L52, L55) are not used by any method and not
    modelled. *)
Inductive operation :=
| OName (s : string)
| ONum (q : Q)
| OAdd (a b : operation)
| OProd (a b : operation)
| ODot (a b : operation)
| OInv (a : operation)
| ONorm (a : operation)
| OCopy (a : operation).

(** _operation.py L20-33 [freesymbols]; a set in python, here a list in which
    order and repetitions do not matter. *)
Fixpoint deps_of (o : operation) : list string :=
  match o with
  | OName s => [s]
  | ONum _ => []
  | OAdd a b | OProd a b | ODot a b => deps_of a ++ deps_of b
  | OInv a | ONorm a | OCopy a => deps_of a
  end.

(** numpy.add on arrays of the same shape; broadcasting is not modelled. *)
Definition v_add (a b : value) : result value :=
  match a, b with
  | Sc x, Sc y => Ok (Sc (x + y))
  | Ve l, Ve k => if Nat.eqb (length l) (length k)
                  then Ok (Ve (map (fun p => (fst p + snd p)%R) (combine l k)))
                  else Err ValueError
  | Ma n m A, Ma n' m' B => if Nat.eqb n n' && Nat.eqb m m'
                            then Ok (Ma n m (fun i j => (A i j + B i j)%R))
                            else Err ValueError
  | _, _ => Err ValueError
  end.

(** A number times an array. *)
Definition v_scale (x : R) (b : value) : value :=
  match b with
  | Sc y => Sc (x * y)
  | Ve l => Ve (map (Rmult x) l)
  | Ma n m A => Ma n m (fun i j => (x * A i j)%R)
  end.

(** _operation.py L49 ['prod'], with a number on the left. *)
Definition v_prod (a b : value) : result value :=
  match a with
  | Sc x => Ok (v_scale x b)
  | _ => Err ValueError
  end.

(** numpy.dot with a number, a matrix and a vector, or two matrices. *)
Definition v_dot (a b : value) : result value :=
  match a, b with
  | Sc x, _ => Ok (v_scale x b)
  | Ma n m A, Ve l => if Nat.eqb m (length l)
                      then Ok (Ve (map (fun i => rsum m (fun k => (A i k * nth k l 0)%R)) (seq 0 n)))
                      else Err ValueError
  | Ma n m A, Ma m' p B => if Nat.eqb m m'
                      then Ok (Ma n p (fun i j => rsum m (fun k => (A i k * B k j)%R)))
                      else Err ValueError
  | _, _ => Err ValueError
  end.

(** numerics/tools/_operators.py L13-31 [norm]. *)
Definition norm (l : list R) : R := sqrt (fold_right Rplus 0%R (map (fun x => (x * x)%R) l)).
Definition v_norm (a : value) : result value :=
  match a with Ve l => Ok (Sc (norm l)) | _ => Err ValueError end.

(** The inverse of a matrix, or none (numpy raises LinAlgError with message
    "Singular matrix", distinguished here from the error for other shapes). *)
Definition inverter := nat -> (nat -> nat -> R) -> option (nat -> nat -> R).
Definition v_inv (inv : inverter) (a : value) : result value :=
  match a with
  | Ma n m A => if Nat.eqb n m
                then match inv n A with Some B => Ok (Ma n n B) | None => Err SingularMatrix end
                else Err LinAlgError
  | _ => Err LinAlgError
  end.

(** _operation.py L35-42 and _numerical_core.py L303-335 [evalop_generator]. *)
Fixpoint eval_op (inv : inverter) (get : string -> result value) (o : operation) : result value :=
  match o with
  | OName s => get s
  | ONum q => Ok (Sc (Q2R q))
  | OAdd a b => do x <- eval_op inv get a; do y <- eval_op inv get b; v_add x y
  | OProd a b => do x <- eval_op inv get a; do y <- eval_op inv get b; v_prod x y
  | ODot a b => do x <- eval_op inv get a; do y <- eval_op inv get b; v_dot x y
  | OInv a => do x <- eval_op inv get a; v_inv inv x
  | ONorm a => do x <- eval_op inv get a; v_norm x
  | OCopy a => eval_op inv get a
  end.

(** ** Update actions of a method *)

(** A command sets a name to the evaluation of another one (the same, for a
    command given as a string: _numerical_core.py L206-212). *)
Definition command := (string * string)%type.
Definition same (s : string) : command := (s, s).

(** _method.py L264-268: the items of [update_actions]. *)
Inductive action :=
| Exec (l : list command)
| Iter (l : list command) (res step : string).

(** core/structure/dimensions.py L97-108 [l], [nl]. *)
Definition has_l (m : core) : bool := (0 <? dim_xl m + dim_wl m)%Z.
Definition has_nl (m : core) : bool := (0 <? dim_xnl m + dim_wnl m)%Z.

Definition when {A} (b : bool) (l : list A) : list A := if b then l else [].

(** _method.py L554-623: operations, in the order they are set. *)
Definition ops (m : core) : list (string * operation) :=
  [("ud_x", OAdd (OName "x") (OName "dx"))] ++
  when (has_l m)
    [("ijactempFll", OInv (OName "jactempFll"));
     ("ud_vl", ODot (OName "ijactempFll") (ODot (ONum (-1)) (OName "Gl")))] ++
  when (has_nl m)
    [("Fnl",
      if has_l m
      then OAdd (OName "Gnl")
             (ODot (OName "jactempFnll") (ODot (OName "ijactempFll") (ODot (ONum (-1)) (OName "Gl"))))
      else OCopy (OName "Gnl"));
     ("jacFnl",
      if has_l m
      then OAdd (OName "jacGnlnl")
             (ODot (OName "jactempFnll") (ODot (OName "ijactempFll") (ODot (ONum (-1)) (OName "jacGlnl"))))
      else OCopy (OName "jacGnlnl"));
     ("ijacFnl", OInv (OName "jacFnl"));
     ("save_Fnl", OCopy (OName "Fnl"));
     ("res_Fnl", ONorm (OName "Fnl"));
     ("step_Fnl", ONorm (OAdd (OName "Fnl") (OProd (ONum (-1)) (OName "save_Fnl"))));
     ("ud_vnl", OAdd (OName "vnl") (OProd (ONum (-1)) (ODot (OName "ijacFnl") (OName "Fnl"))))].

(** _method.py L554-650, L668: the three lists of commands. *)
Definition preimplicit (m : core) : list command :=
  [("x", "ud_x"); ("o", "ud_o")] ++
  when (has_l m) [same "jactempFll"; same "ijactempFll"; same "Gl"] ++
  when (has_nl m) (when (has_l m) [same "jactempFnll"] ++ [same "Gnl"; same "Fnl"; same "res_Fnl"]).
Definition implicit (m : core) : list command :=
  [same "save_Fnl"] ++ when (has_l m) [same "jacGlnl"] ++
  [same "jacGnlnl"; same "jacFnl"; same "ijacFnl"; ("vnl", "ud_vnl")] ++
  when (has_l m) [same "Gl"] ++ [same "Gnl"; same "Fnl"; same "res_Fnl"; same "step_Fnl"].
Definition postimplicit (m : core) : list command :=
  when (has_l m) [("vl", "ud_vl")] ++ [same "dxH"; same "z"; same "y"].

(** _method.py L653-676 [set_execactions]. *)
Definition update_actions (m : core) : list action :=
  [Exec (preimplicit m)] ++
  when (has_nl m) [Iter (implicit m) "res_Fnl" "step_Fnl"] ++
  [Exec (postimplicit m)].

(** _method.py L200-202 [args]. *)
Definition o_of (m : core) : list string := map fst (c_observers m).
Definition args_of (m : core) : list string :=
  c_x m ++ dx m ++ c_w m ++ c_u m ++ c_p m ++ o_of m.

(** _method.py L210-234: groups of arguments the actions need. *)
Definition groups (m : core) : list (string * list string) :=
  [("x", c_x m); ("dx", dx m); ("w", c_w m); ("u", c_u m); ("p", c_p m); ("o", o_of m);
   ("vl", v_of Sl m); ("vnl", v_of Snl m)].

(** Expressions of a scalar, vector or matrix function. *)
Inductive fexpr :=
| FE (e : expr)
| FV (l : list expr)
| FM (A : mat).

(** _method.py L236-256, L561-565: the functions the actions evaluate. *)
Definition funcs (m : core) : list (string * result fexpr) :=
  let vec (r : result (list expr)) := do l <- r; Ok (FV l) in
  let mx (r : result mat) := do A <- r; Ok (FM A) in
  [("ud_o", Ok (FV (map snd (c_observers m))));
   ("dxH", Ok (FV (dxH m)));
   ("z", Ok (FV (c_z m)));
   ("y", vec (output m));
   ("jactempFll", mx (jactempF Sl Sl m));
   ("jactempFnll", mx (jactempF Snl Sl m));
   ("Gl", vec (G_of Sl m));
   ("Gnl", vec (G_of Snl m));
   ("jacGlnl", mx (jacG Sl Snl m));
   ("jacGnlnl", mx (jacG Snl Snl m))].

(** ** Numeric *)

(** The data fixed at construction: _numerical_core.py L26-67. *)
Record numeric := mkNumeric {
  n_method : core;
  n_subs : list (string * R);
  n_eps : R;
  n_maxit : nat;
  n_inv : inverter
}.

(** The attributes that change: [args], the value [_name] of every function and
    operation, the counter [it]. *)
Record state := mkState {
  st_args : list R;
  st_vals : string -> option value;
  st_it : nat
}.

(** [args[inds]]. *)
Definition read_at (inds : list nat) (l : list R) : result (list R) :=
  rmap (fun i => match nth_error l i with Some v => Ok v | None => Err IndexError end) inds.

(** [args[inds] = vs] for lists of the same length. *)
Fixpoint put (i : nat) (v : R) (l : list R) : list R :=
  match l, i with
  | [], _ => []
  | _ :: l', O => v :: l'
  | a :: l', S i' => a :: put i' v l'
  end.
Fixpoint put_all (inds : list nat) (vs : list R) (l : list R) : list R :=
  match inds, vs with
  | i :: inds', v :: vs' => put_all inds' vs' (put i v l)
  | _, _ => l
  end.

(** [args[inds] = vs]: a vector of length 1 and a number are broadcast. *)
Definition write_at (inds : list nat) (v : value) (l : list R) : result (list R) :=
  if forallb (fun i => Nat.ltb i (length l)) inds then
    match v with
    | Sc x => Ok (put_all inds (repeat x (length inds)) l)
    | Ve vs => if Nat.eqb (length vs) (length inds) then Ok (put_all inds vs l)
               else match vs with
                    | [x] => Ok (put_all inds (repeat x (length inds)) l)
                    | _ => Err ValueError
                    end
    | Ma _ _ _ => Err ValueError
    end
  else Err IndexError.

(** _numerical_core.py L110-117, L338-374: accessors of groups of arguments. *)
Definition inds_of (g : list string) (m : core) : list nat := snd (find String.eqb g (args_of m)).
Definition getarg (nu : numeric) (g : list string) (st : state) : result value :=
  do l <- read_at (inds_of g (n_method nu)) (st_args st); Ok (Ve l).
Definition setarg (nu : numeric) (g : list string) (v : value) (st : state) : result state :=
  do l <- write_at (inds_of g (n_method nu)) v (st_args st);
  Ok (mkState l (st_vals st) (st_it st)).

(** _numerical_core.py L119-149, L393-417: accessors of functions and operations. *)
Definition known (nu : numeric) (name : string) : bool :=
  match assoc name (ops (n_method nu)), assoc name (funcs (n_method nu)) with
  | None, None => false
  | _, _ => true
  end.
Definition get (nu : numeric) (name : string) (st : state) : result value :=
  match assoc name (groups (n_method nu)) with
  | Some g => getarg nu g st
  | None => match st_vals st name with Some v => Ok v | None => Err AttributeError end
  end.
Definition set_val (name : string) (v : value) (st : state) : state :=
  mkState (st_args st) (fun s => if String.eqb s name then Some v else st_vals st s) (st_it st).
Definition set (nu : numeric) (name : string) (v : value) (st : state) : result state :=
  match assoc name (groups (n_method nu)) with
  | Some g => setarg nu g v st
  | None => if known nu name then Ok (set_val name v st) else Err AttributeError
  end.

(** _numerical_core.py L242-300 [evalfunc_generator], tools/_lambdify.py
    L80-136: the dictionary is substituted, then the remaining symbols are read
    from the arguments; a symbol without value raises. *)
Definition call_env (subs : list (string * R)) (names : list string) (vals : list R) : string -> option R :=
  fun s => match assoc s subs with
           | Some v => Some v
           | None => assoc s (combine names vals)
           end.
Definition total (e : string -> option R) : env := fun s => match e s with Some v => v | None => 0%R end.
Definition covers (e : string -> option R) (l : list string) : bool :=
  forallb (fun s => match e s with Some _ => true | None => false end) l.

Definition mat_symbols (A : mat) : list string :=
  flat_map (fun i => flat_map (fun j => free_symbols (ent A i j)) (seq 0 (nc A))) (seq 0 (nr A)).
Definition fexpr_symbols (f : fexpr) : list string :=
  match f with
  | FE e => free_symbols e
  | FV l => flat_map free_symbols l
  | FM A => mat_symbols A
  end.
Definition fexpr_eval (r : env) (f : fexpr) : value :=
  match f with
  | FE e => Sc (eval r e)
  | FV l => Ve (map (eval r) l)
  | FM A => Ma (nr A) (nc A) (fun i j => eval r (ent A i j))
  end.
Definition eval_func (nu : numeric) (f : fexpr) (st : state) : result value :=
  let '(names, inds) := find String.eqb (fexpr_symbols f) (args_of (n_method nu)) in
  do vals <- read_at inds (st_args st);
  let e := call_env (n_subs nu) names vals in
  if covers e (fexpr_symbols f) then Ok (fexpr_eval (total e) f) else Err AttributeError.

(** [name_eval]. *)
Definition run_eval (nu : numeric) (name : string) (st : state) : result value :=
  match assoc name (ops (n_method nu)) with
  | Some o => eval_op (n_inv nu) (fun s => get nu s st) o
  | None => match assoc name (funcs (n_method nu)) with
            | Some f => do f <- f; eval_func nu f st
            | None => Err AttributeError
            end
  end.

(** _numerical_core.py L202-215 [_execs]. *)
Fixpoint execs (nu : numeric) (l : list command) (st : state) : result state :=
  match l with
  | [] => Ok st
  | (s, e) :: l' => do v <- run_eval nu e st; do st <- set nu s v st; execs nu l' st
  end.

(** _numerical_core.py L223-232: the loop; [n] iterations may still be made.
    Returns the number of iterations. *)
Section Loop.
  Context {S : Type}.
  Variables (body : S -> result S) (res step : S -> result R) (eps : R).
  Fixpoint iterate (n : nat) (s : S) : result (S * nat) :=
    do a <- res s;
    if Rlt_dec eps a then
      do b <- step s;
      if Rlt_dec eps b then
        match n with
        | O => Ok (s, 0)
        | Datatypes.S n' => do s' <- body s; do (s'', k) <- iterate n' s'; Ok (s'', Datatypes.S k)
        end
      else Ok (s, 0)
    else Ok (s, 0).
End Loop.

Definition scalar (r : result value) : result R :=
  do v <- r; match v with Sc x => Ok x | _ => Err ValueError end.

(** _numerical_core.py L217-237 [_iterexecs]. *)
Definition iterexecs (nu : numeric) (l : list command) (res step : string) (st : state) : result state :=
  do st <- set nu step (Sc 1) st;
  do (st, k) <- iterate (execs nu l) (fun st => scalar (get nu res st)) (fun st => scalar (get nu step st))
                  (n_eps nu) (n_maxit nu) st;
  Ok (mkState (st_args st) (st_vals st) k).

Fixpoint run_actions (nu : numeric) (l : list action) (st : state) : result state :=
  match l with
  | [] => Ok st
  | Exec c :: l' => do st <- execs nu c st; run_actions nu l' st
  | Iter c res step :: l' => do st <- iterexecs nu c res step st; run_actions nu l' st
  end.

(** _numerical_core.py L169-200 [update], with [u] and [p] given. *)
Definition update (nu : numeric) (u p : list R) (st : state) : result state :=
  do st <- set nu "u" (Ve u) st;
  do st <- set nu "p" (Ve p) st;
  run_actions nu (update_actions (n_method nu)) st.

(** ** Order of the evaluations *)

(** _method.py L175-198 [update_actions_deps]: [deps] gives the dependencies of
    an operation, in the unknown order of a python set, and nothing for another
    name.  [fuel] is the recursion limit. *)
Section Deps.
  Variable deps : string -> option (list string).
  (** L188-194 [add_update]. *)
  Fixpoint add_update (fuel : nat) (name : string) (updates : list string) : result (list string) :=
    if py_in String.eqb name updates then Ok updates
    else match fuel with
         | O => Err GenericException
         | S fuel' =>
             do updates <-
               match deps name with
               | None => Ok updates
               | Some ds =>
                   (fix go (ds updates : list string) : result (list string) :=
                      match ds with
                      | [] => Ok updates
                      | d :: ds' => do updates <- add_update fuel' d updates; go ds' updates
                      end) ds updates
               end;
             Ok (updates ++ [name])
         end.
  Fixpoint add_updates (fuel : nat) (names updates : list string) : result (list string) :=
    match names with
    | [] => Ok updates
    | n :: names' => do updates <- add_update fuel n updates; add_updates fuel names' updates
    end.
  Definition order_of (fuel : nat) (names : list string) : result (list string) :=
    do updates <- add_updates fuel names [];
    Ok (remove_duplicates String.eqb (updates ++ ["dx"; "w"; "u"; "p"])).
End Deps.

(** _method.py L181-182: the strings of the actions. *)
Definition nest_command (c : command) : nested :=
  if String.eqb (fst c) (snd c) then Leaf (fst c) else Node [Leaf (fst c); Leaf (snd c)].
Definition nest_action (a : action) : nested :=
  match a with
  | Exec l => Node [Leaf "exec"; Node (map nest_command l)]
  | Iter l res step => Node [Leaf "iter"; Node [Node (map nest_command l); Leaf res; Leaf step]]
  end.
Definition action_names (m : core) : list string :=
  remove_duplicates String.eqb (get_strings ["exec"; "iter"] (Node (map nest_action (update_actions m)))).
Definition update_actions_deps (deps : string -> option (list string)) (fuel : nat) (m : core)
  : result (list string) := order_of deps fuel (action_names m).

(** _numerical_core.py L69-88 [init]: values given for groups of arguments,
    [None] for zeros; a name that is not an argument is not modelled. *)
Fixpoint init_args (nu : numeric) (inits : list (string * option (list R))) (st : state) : result state :=
  match inits with
  | [] => Ok st
  | (k, v) :: inits' =>
      match assoc k (groups (n_method nu)) with
      | None => Err AttributeError
      | Some g =>
          let n := length (inds_of g (n_method nu)) in
          do st <- match v with
                   | None => setarg nu g (Ve (repeat 0%R n)) st
                   | Some l => if Nat.eqb (length l) n then setarg nu g (Ve l) st else Err TypeError
                   end;
          init_args nu inits' st
      end
  end.

(** _numerical_core.py L104-108, L151-167: every name that is not a group of
    arguments is evaluated once, in the given order.  An operation whose
    dependencies have no value yet raises here; the code builds them first
    (L159-162), which is never needed in the order of [update_actions_deps]. *)
Fixpoint build_evals (nu : numeric) (names : list string) (st : state) : result state :=
  match names with
  | [] => Ok st
  | n :: names' =>
      match assoc n (groups (n_method nu)) with
      | Some _ => build_evals nu names' st
      | None => do v <- run_eval nu n st; build_evals nu names' (set_val n v st)
      end
  end.

(** _numerical_core.py L90-108 [build]. *)
Definition build_numeric (nu : numeric) (deps : string -> option (list string)) (fuel : nat)
  (inits : list (string * option (list R))) : result state :=
  let st := mkState (repeat 0%R (length (args_of (n_method nu)))) (fun _ => None) 0 in
  do st <- init_args nu inits st;
  do names <- update_actions_deps deps fuel (n_method nu);
  build_evals nu names st.

(** ** Simulation *)

(** simulations/simulation.py L428-469 [_process_py]: the values of the named
    attributes after every update. *)
Definition record (nu : numeric) (names : list string) (st : state) : result (list (string * value)) :=
  rmap (fun n => do v <- get nu n st; Ok (n, v)) names.
Fixpoint process (nu : numeric) (names : list string) (seq : list (list R * list R)) (st : state)
  : result (list (list (string * value)) * state) :=
  match seq with
  | [] => Ok ([], st)
  | (u, p) :: seq' =>
      do st <- update nu u p st;
      do row <- record nu names st;
      do (rows, st) <- process nu names seq' st;
      Ok (row :: rows, st)
  end.
Definition process_py (nu : numeric) (names : list string) (us ps : list (list R)) (st : state)
  : result (list (list (string * value)) * state) := process nu names (combine us ps) st.
