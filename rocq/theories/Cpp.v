(** Model of the generator of C++ code (numerics/cpp/method2cpp.py, arguments.py,
    functions.py, operations.py, tools.py, simu2cpp.py, and the main loop
    pyphs/templates/cpp/simu_main.template): the class that the generated
    text defines, and the meaning of its methods.
    Simplified: the generated text is represented by its syntax tree; [double]
    is the real numbers; the code that [ccode] prints for an expression has the
    value of the expression, each symbol [s] being printed as the dereference
    of the pointer [s]; Eigen is a library of matrices of fixed shapes, whose
    [inverse] is a function given from outside.  What the compiler or Eigen's
    assertions reject is an error value when it is reached.  Titles, comments,
    the license and cmake are not modelled. *)
From Coq Require Import String List ZArith QArith Qreals Reals Bool.
From Verif Require Import Py Tools Expr RSum Mat Core Method Numeric.
Import ListNotations.
Local Open Scope string_scope.
Local Open Scope list_scope.
Local Open Scope nat_scope.

(** ** The generated class *)

(** What a member pointer points to: [args(i, 0)] (arguments.py L40-51),
    [subs[indexParameters][i]] (method2cpp.py L268-271), [sampleRate]
    (method2cpp.py L253-255). *)
Inductive pointer := PArg (i : nat) | PSub (i : nat) | PRate.

(** Right-hand sides built by operations.py L27-44 [op2cpp]. *)
Inductive cexp :=
| EAcc (s : string)          (** [s()] *)
| ELit (q : Q)
| EPlus (a b : cexp)         (** [(a) + (b)] *)
| ETimes (a b : cexp)        (** [(a)*(b)] *)
| EInverse (a : cexp)        (** [(a).inverse()] *)
| ENorm (a : cexp).          (** [sqrt((a).dot(a))] *)

(** Statements of the methods [name_update()]. *)
Inductive stmt :=
| SEntry (name : string) (i j : nat) (e : expr)   (** [_name(i, j) = ccode(e);] *)
| SOper (name : string) (e : cexp).               (** [_name = e;] *)

(** Statements of the method [update()]. *)
Inductive call :=
| CUpdate (name : string)           (** [name_update();] *)
| CSet (group name : string).       (** [set_group(_name);] *)
Inductive block :=
| Run (l : list call)
| While (l : list call) (res step : string).

(** The shape of the type of a member: [None] for a number. *)
Definition ctype := option (nat * nat).

Record cclass := mkClass {
  k_pointers : list (string * pointer);
  k_params : list R;                         (** the first row of [subs] *)
  k_rate : R;                                (** initial [sampleRate] *)
  k_nargs : nat;
  k_groups : list (string * list string);    (** accessors and mutators *)
  k_fixed : list string;                     (** arguments that mutators skip *)
  k_types : list (string * ctype);
  k_data : list (string * list expr);        (** [name_data], by columns *)
  k_bodies : list (string * list stmt);
  k_init_args : list (string * list R);
  k_init : list string;                      (** [name_update()] called by [init] *)
  k_update : list block;
  k_eps : R;
  k_maxit : nat
}.

(** ** The generator *)

Definition mem (s : string) (l : list string) : bool := py_in String.eqb s l.

(** The matrix of the expressions of a function: a vector is a column, and the
    empty vector has shape (0, 0).  A scalar function raises (functions.py L190,
    L240: [method.args] is a method there, not a list); no method has one. *)
Definition cols (n : nat) : nat := match n with O => 0 | _ => 1 end.
Definition fmat (f : fexpr) : result mat :=
  match f with
  | FE _ => Err TypeError
  | FV l => Ok (mkMat (length l) (cols (length l)) (fun i _ => nth i l (Num 0)))
  | FM A => Ok A
  end.

(** [any(symb in method.args() for symb in expr.free_symbols)]. *)
Definition depends (m : core) (e : expr) : bool :=
  existsb (fun s => mem s (args_of m)) (free_symbols e).

(** [row_list]: the entries that are not zero, by rows. *)
Definition positions (A : mat) : list (nat * nat) :=
  flat_map (fun i => map (fun j => (i, j)) (seq 0 (nc A))) (seq 0 (nr A)).
Definition row_list (A : mat) : list (nat * nat) :=
  filter (fun p => negb (is0 (ent A (fst p) (snd p)))) (positions A).

(** functions.py L172-182 [_str_mat_func_update]. *)
Definition func_update (m : core) (name : string) (A : mat) : list stmt :=
  map (fun p => SEntry name (fst p) (snd p) (ent A (fst p) (snd p)))
    (filter (fun p => depends m (ent A (fst p) (snd p))) (row_list A)).

(** functions.py L213-233 [_str_mat_func_init_data]. *)
Definition func_data (m : core) (A : mat) : list expr :=
  flat_map (fun j => map (fun i =>
      let e := ent A i j in
      if negb (is0 e) && negb (depends m e) then e else Num 0)
    (seq 0 (nr A))) (seq 0 (nc A)).

(** operations.py L27-44 [op2cpp]. *)
Fixpoint op2cpp (o : operation) : cexp :=
  match o with
  | OName s => EAcc s
  | ONum q => ELit q
  | OAdd a b => EPlus (op2cpp a) (op2cpp b)
  | OProd a b | ODot a b => ETimes (op2cpp a) (op2cpp b)
  | OInv a => EInverse (op2cpp a)
  | ONorm a => ENorm (op2cpp a)
  | OCopy a => op2cpp a
  end.

(** operations.py L50-74: the type of the result of an operation, read on its
    initial value. *)
Definition op_type (v : value) : ctype :=
  match v with
  | Sc _ => None
  | Ve l => Some (length l, cols (length l))
  | Ma n p _ => Some (if Nat.eqb (n * p) 0 then (0, 0) else (n, p))
  end.

(** method2cpp.py L469-509 [execs], [iterate], [append_update]. *)
Definition gen_call (c : command) : list call :=
  if String.eqb (fst c) (snd c) then [CUpdate (fst c)] else [CUpdate (snd c); CSet (fst c) (snd c)].
Definition gen_action (a : action) : block :=
  match a with
  | Exec l => Run (flat_map gen_call l)
  | Iter l res step => While (flat_map gen_call l) res step
  end.

(** method2cpp.py L268-271 and arguments.py L40-51: the pointers. *)
Fixpoint number {A} (n : nat) (l : list A) : list (A * nat) :=
  match l with [] => [] | a :: l' => (a, n) :: number (S n) l' end.
Definition gen_pointers (m : core) (subs : list (string * R)) : list (string * pointer) :=
  [(fs_symbol, PRate)] ++
  map (fun p => (fst p, PSub (snd p)))
    (filter (fun p => negb (String.eqb (fst p) fs_symbol)) (number 0 (map fst subs))) ++
  map (fun p => (fst p, PArg (snd p)))
    (filter (fun p => negb (mem (fst p) (map fst subs))) (number 0 (args_of m))).

(** method2cpp.py L312-366 [_append_subs]: the values of every dictionary, in
    the order of the keys of the first.  The brace that closes the array is
    written once per dictionary (L365-366): two of them are a syntax error. *)
Definition gen_params (given : list (list (string * R))) : result (list R) :=
  match given with
  | [] => Err IndexError
  | d0 :: _ =>
      do rows <- rmap (fun d => rmap (fun k => match assoc k d with Some v => Ok v | None => Err KeyError end)
                                  (map fst d0)) given;
      match rows with
      | [row] => Ok row
      | row :: _ => match d0 with [] => Ok row | _ => Err SyntaxError end
      | [] => Err IndexError
      end
  end.

(** method2cpp.py L128-131: the initial values, completed. *)
Definition arg_names : list string := ["x"; "dx"; "w"; "u"; "p"; "o"].
Definition group_size (m : core) (name : string) : nat :=
  match assoc name (groups m) with Some g => length g | None => 0 end.
Definition complete (m : core) (inits : list (string * option (list R))) : list (string * list R) :=
  map (fun kv => (fst kv, match snd kv with
                          | Some l => l
                          | None => repeat 0%R (group_size m (fst kv))
                          end)) inits ++
  map (fun n => (n, repeat 0%R (group_size m n))) (filter (fun n => negb (mem n (map fst inits))) arg_names).

(** One function, functions.py: its type (L43-53), its data (L200-233) and its
    update (L154-182). *)
Definition gen_func (m : core) (name : string) : result (mat * string) :=
  match assoc name (funcs m) with
  | None => Err AttributeError
  | Some f => do f <- f; do A <- fmat f; Ok (A, name)
  end.
(** One operation, operations.py: its type (L50-74) and its update (L90-96). *)
Definition gen_op (m : core) (evals : string -> option value) (name : string) : result (ctype * (string * cexp)) :=
  match assoc name (ops m), evals name with
  | Some o, Some v => Ok (op_type v, (name, op2cpp o))
  | _, _ => Err KeyError
  end.

(** method2cpp.py L83-245 [method2cpp].  [subs] is [method.subs], [given] the
    dictionaries of the argument [subs] (or [method.subs], L234-235), [order]
    is [update_actions_deps()], [evals] the initial values of the operations,
    evaluated as the numerical core does (L29-80, L143-144).  The initial
    values of the arguments are printed through [float(...)] (arguments.py
    L216): [single] is that conversion; zeros are printed as they are (L210). *)
Definition generate (single : R -> R) (m : core) (subs : list (string * R)) (given : list (list (string * R)))
  (rate eps : R) (maxit : nat) (inits : list (string * option (list R)))
  (evals : string -> option value) (order : list string) : result cclass :=
  let is_op n := match assoc n (ops m) with Some _ => true | None => false end in
  let is_func n := match assoc n (funcs m) with Some _ => true | None => false end in
  do fs <- rmap (gen_func m) (filter is_func order);
  do os <- rmap (gen_op m evals) (map fst (ops m));
  do params <- gen_params given;
  Ok (mkClass
    (gen_pointers m subs)
    params
    rate
    (length (args_of m))
    (filter (fun g => mem (fst g) order) (groups m))
    (map fst subs)
    (map (fun p => (snd p, Some (nr (fst p), nc (fst p)))) fs ++
     map (fun p => (fst (snd p), fst p)) os)
    (map (fun p => (snd p, func_data m (fst p))) fs)
    (map (fun p => (snd p, func_update m (snd p) (fst p))) fs ++
     map (fun p => (fst (snd p), [SOper (fst (snd p)) (snd (snd p))])) os)
    (map (fun kv => (fst kv, map (fun v => if Req_EM_T v 0 then 0%R else single v) (snd kv))) (complete m inits))
    (filter is_func order ++ filter is_op order)
    (map gen_action (update_actions m))
    eps maxit).

(** ** The meaning of the class *)

(** [double] and [Matrix<double, n, m>]. *)
Inductive cvalue := CSc (a : R) | CMa (n m : nat) (A : nat -> nat -> R).

(** An instance: [args], [sampleRate], and the members [_name] that have been
    assigned. *)
Record object := mkObject {
  ob_args : list R;
  ob_rate : R;
  ob_vals : string -> option cvalue
}.

Definition set_member (name : string) (v : cvalue) (o : object) : object :=
  mkObject (ob_args o) (ob_rate o) (fun s => if String.eqb s name then Some v else ob_vals o s).

(** Eigen's [inverse()] on a square matrix; it returns something even when the
    matrix is singular. *)
Definition cinverter := nat -> (nat -> nat -> R) -> nat -> nat -> R.

Section Meaning.
  Variable cinv : cinverter.
  Variable k : cclass.

  (** [*s]. *)
  Definition deref (o : object) (s : string) : result R :=
    match assoc s (k_pointers k) with
    | None => Err NameError
    | Some (PArg i) => match nth_error (ob_args o) i with Some v => Ok v | None => Err IndexError end
    | Some (PSub i) => match nth_error (k_params k) i with Some v => Ok v | None => Err IndexError end
    | Some PRate => Ok (ob_rate o)
    end.

  (** The value of [ccode(e)]. *)
  Definition code_eval (o : object) (e : expr) : result R :=
    do _ <- rmap (deref o) (free_symbols e);
    Ok (eval (fun s => match deref o s with Ok v => v | Err _ => 0%R end) e).

  (** [name()]: arguments.py L78-104, functions.py L109-117, operations.py
      L130-167. *)
  Definition column (l : list R) : cvalue := CMa (length l) (cols (length l)) (fun i _ => nth i l 0%R).
  Definition access (o : object) (name : string) : result cvalue :=
    match assoc name (k_groups k) with
    | Some g => do l <- rmap (deref o) g; Ok (column l)
    | None => match assoc name (k_types k), ob_vals o name with
              | Some _, Some v => Ok v
              | _, _ => Err NameError
              end
    end.

  (** Eigen's operations. *)
  Definition c_add (a b : cvalue) : result cvalue :=
    match a, b with
    | CSc x, CSc y => Ok (CSc (x + y))
    | CMa n p A, CMa n' p' B => if Nat.eqb n n' && Nat.eqb p p'
                                then Ok (CMa n p (fun i j => (A i j + B i j)%R)) else Err TypeError
    | _, _ => Err TypeError
    end.
  Definition c_mul (a b : cvalue) : result cvalue :=
    match a, b with
    | CSc x, CSc y => Ok (CSc (x * y))
    | CSc x, CMa n p A => Ok (CMa n p (fun i j => (x * A i j)%R))
    | CMa n p A, CSc x => Ok (CMa n p (fun i j => (A i j * x)%R))
    | CMa n p A, CMa p' q B => if Nat.eqb p p'
                               then Ok (CMa n q (fun i j => rsum p (fun h => (A i h * B h j)%R))) else Err TypeError
    end.
  Definition c_inv (a : cvalue) : result cvalue :=
    match a with
    | CMa n p A => if Nat.eqb n p then Ok (CMa n n (cinv n A)) else Err TypeError
    | CSc _ => Err TypeError
    end.
  Definition c_norm (a : cvalue) : result cvalue :=
    match a with
    | CMa n 1 A => Ok (CSc (sqrt (rsum n (fun i => (A i 0%nat * A i 0%nat)%R))))
    | _ => Err TypeError
    end.
  Fixpoint exp_eval (o : object) (e : cexp) : result cvalue :=
    match e with
    | EAcc s => access o s
    | ELit q => Ok (CSc (Q2R q))
    | EPlus a b => do x <- exp_eval o a; do y <- exp_eval o b; c_add x y
    | ETimes a b => do x <- exp_eval o a; do y <- exp_eval o b; c_mul x y
    | EInverse a => do x <- exp_eval o a; c_inv x
    | ENorm a => do x <- exp_eval o a; c_norm x
    end.

  (** [_name = v;] for a member of the declared type. *)
  Definition has_type (v : cvalue) (t : ctype) : bool :=
    match v, t with
    | CSc _, None => true
    | CMa n p _, Some (n', p') => Nat.eqb n n' && Nat.eqb p p'
    | _, _ => false
    end.
  Definition assign (name : string) (v : cvalue) (o : object) : result object :=
    match assoc name (k_types k) with
    | None => Err NameError
    | Some t => if has_type v t then Ok (set_member name v o) else Err TypeError
    end.

  (** [_name(i, j) = x;]. *)
  Definition assign_entry (name : string) (i j : nat) (x : R) (o : object) : result object :=
    match ob_vals o name with
    | Some (CMa n p A) =>
        if Nat.ltb i n && Nat.ltb j p
        then Ok (set_member name (CMa n p (fun a b => if Nat.eqb a i && Nat.eqb b j then x else A a b)) o)
        else Err IndexError
    | _ => Err TypeError
    end.

  Definition run_stmt (s : stmt) (o : object) : result object :=
    match s with
    | SEntry name i j e => do x <- code_eval o e; assign_entry name i j x o
    | SOper name e => do v <- exp_eval o e; assign name v o
    end.
  Fixpoint run_stmts (l : list stmt) (o : object) : result object :=
    match l with
    | [] => Ok o
    | s :: l' => do o <- run_stmt s o; run_stmts l' o
    end.

  (** [set_group(v)]: arguments.py L107-153; [*s = v;] writes through the
      pointer, and a parameter is [const]. *)
  Definition write (s : string) (v : R) (o : object) : result object :=
    match assoc s (k_pointers k) with
    | Some (PArg i) => Ok (mkObject (put i v (ob_args o)) (ob_rate o) (ob_vals o))
    | Some _ => Err TypeError
    | None => Err NameError
    end.
  Fixpoint writes (l : list (string * R)) (o : object) : result object :=
    match l with
    | [] => Ok o
    | (s, v) :: l' => do o <- if mem s (k_fixed k) then Ok o else write s v o; writes l' o
    end.
  Definition set_group (name : string) (l : list R) (o : object) : result object :=
    match assoc name (k_groups k) with
    | None => Err NameError
    | Some g => if Nat.eqb (length g) (length l) then writes (combine g l) o else Err TypeError
    end.
  (** The argument is a matrix member: its type must be that of the mutator. *)
  Definition set_group_matrix (name : string) (v : cvalue) (o : object) : result object :=
    match v with
    | CMa n p A => if Nat.eqb p (cols n) then set_group name (map (fun i => A i 0) (seq 0 n)) o else Err TypeError
    | CSc _ => Err TypeError
    end.

  Definition run_call (c : call) (o : object) : result object :=
    match c with
    | CUpdate name => match assoc name (k_bodies k) with
                      | Some b => run_stmts b o
                      | None => Err NameError
                      end
    | CSet g name => match ob_vals o name with
                     | Some v => set_group_matrix g v o
                     | None => Err NameError
                     end
    end.
  Fixpoint run_calls (l : list call) (o : object) : result object :=
    match l with
    | [] => Ok o
    | c :: l' => do o <- run_call c o; run_calls l' o
    end.

  Definition number_of (r : result cvalue) : result R :=
    do v <- r; match v with CSc x => Ok x | CMa _ _ _ => Err TypeError end.

  (** method2cpp.py L480-491: [while ((iter<maxit) & (res()>eps) & (step()>eps))];
      [n] is [maxit - iter]; the three conditions are evaluated every time. *)
  Fixpoint while (l : list call) (res step : string) (n : nat) (o : object) : result object :=
    do a <- number_of (access o res);
    do b <- number_of (access o step);
    match n with
    | O => Ok o
    | S n' => if Rlt_dec (k_eps k) a then
                if Rlt_dec (k_eps k) b then do o <- run_calls l o; while l res step n' o
                else Ok o
              else Ok o
    end.
  Definition run_block (b : block) (o : object) : result object :=
    match b with
    | Run l => run_calls l o
    | While l res step => do o <- assign step (CSc 1) o; while l res step (k_maxit k) o
    end.
  Fixpoint run_blocks (l : list block) (o : object) : result object :=
    match l with
    | [] => Ok o
    | b :: l' => do o <- run_block b o; run_blocks l' o
    end.

  (** The public methods: [update()], [set_sampleRate(v)], the constructor. *)
  Definition c_update (o : object) : result object := run_blocks (k_update k) o.

  Fixpoint set_groups (l : list (string * list R)) (o : object) : result object :=
    match l with
    | [] => Ok o
    | (n, v) :: l' => do o <- set_group n v o; set_groups l' o
    end.
  (** method2cpp.py L372-379, arguments.py L194-231, functions.py L251-261,
      operations.py L173-178: [init()]. *)
  Definition c_init (o : object) : result object :=
    do o <- set_groups (k_init_args k) o;
    run_calls (map CUpdate (k_init k)) o.

  (** method2cpp.py L259-265. *)
  Definition set_sampleRate (v : R) (o : object) : result object :=
    c_init (mkObject (ob_args o) v (ob_vals o)).

  (** method2cpp.py L396-408: [_name = Map<Matrix<double, n, m>> (name_data);]
      for every function, then [init()].  [junk] is what the memory of [args]
      contains before. *)
  Fixpoint load_data (l : list (string * list expr)) (o : object) : result object :=
    match l with
    | [] => Ok o
    | (name, es) :: l' =>
        do vs <- rmap (code_eval o) es;
        match assoc name (k_types k) with
        | Some (Some (n, p)) => load_data l' (set_member name (CMa n p (fun i j => nth (j * n + i) vs 0%R)) o)
        | _ => Err TypeError
        end
    end.
  Definition construct (junk : list R) : result object :=
    do o <- load_data (k_data k) (mkObject junk (k_rate k) (fun _ => None));
    c_init o.

  (** [name_vector()]: arguments.py L52-75, functions.py L128-139, operations.py
      L146-159. *)
  Definition vector_of (o : object) (name : string) : result (list R) :=
    match assoc name (k_groups k) with
    | Some g => rmap (deref o) g
    | None => match assoc name (k_types k), ob_vals o name with
              | Some _, Some (CMa n p A) => Ok (map (fun i => A i 0) (seq 0 n))
              | _, _ => Err NameError
              end
    end.

  (** simu_main.template L115-147, simu2cpp.py L97-120: one step of the main
      loop, and the loop over the rows of the file.  The mutators of the inputs
      and parameters are called when there are some. *)
  Definition set_input (name : string) (l : list R) (o : object) : result object :=
    match l with [] => Ok o | _ => set_group name l o end.
  Definition c_step (u p : list R) (o : object) : result object :=
    do o <- set_input "u" u o;
    do o <- set_input "p" p o;
    c_update o.
  Fixpoint c_process (names : list string) (rows : list (list R * list R)) (o : object)
    : result (list (list (string * list R)) * object) :=
    match rows with
    | [] => Ok ([], o)
    | (u, p) :: rows' =>
        do o <- c_step u p o;
        do row <- rmap (fun n => do l <- vector_of o n; Ok (n, l)) names;
        do (out, o) <- c_process names rows' o;
        Ok (row :: out, o)
    end.
End Meaning.
