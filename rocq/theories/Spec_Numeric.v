(** Vocabulary for numerical evaluation. *)
From Coq Require Import String List ZArith QArith Reals Bool.
From Verif Require Import Py Expr RSum Mat Core Spec_Core Method StructProofs Spec_Calculus Numeric.
Import ListNotations.
Local Open Scope string_scope.
Local Open Scope list_scope.
Local Open Scope nat_scope.

(** The elements of [names] that are in [g], in the order of [names]. *)
Definition among (names g : list string) : list string :=
  filter (fun s => existsb (String.eqb s) g) names.

(** The value of the argument [s] in a state. *)
Definition holds (names : list string) (st : state) (s : string) (v : R) : Prop :=
  exists i, nth_error names i = Some s /\ nth_error (st_args st) i = Some v.

(** [body] applied [k] times. *)
Inductive applied {S : Type} (body : S -> result S) : nat -> S -> S -> Prop :=
| applied_0 s : applied body 0 s s
| applied_S k s s1 s2 : body s = Ok s1 -> applied body k s1 s2 -> applied body (Datatypes.S k) s s2.

(** Every element of [order] comes after the elements it depends on. *)
Definition sorted_for (deps : string -> option (list string)) (order : list string) : Prop :=
  forall i n ds d, nth_error order i = Some n -> deps n = Some ds -> In d ds ->
    exists j, j < i /\ nth_error order j = Some d.

(** [d] is needed to evaluate [n]. *)
Inductive needed (deps : string -> option (list string)) : string -> string -> Prop :=
| needed_self n : needed deps n n
| needed_dep n ds d d' : deps n = Some ds -> In d ds -> needed deps d d' -> needed deps n d'.

(** No chain of dependencies is longer than the rank of its origin. *)
Definition ranked (deps : string -> option (list string)) (rank : string -> nat) : Prop :=
  forall n ds d, deps n = Some ds -> In d ds -> rank d < rank n.

(** The computation raises nothing, or only the error of numpy.linalg.inv on a
    singular matrix, and its result satisfies [P]. *)
Definition safe {A} (r : result A) (P : A -> Prop) : Prop :=
  match r with Ok a => P a | Err e => e = SingularMatrix end.

(** What is assumed of numpy.linalg.inv when it returns. *)
Definition inv_correct (inv : inverter) : Prop :=
  forall n A B, inv n A = Some B -> is_inverse n A B.

(** The values of the symbols in a state: the dictionary, then the arguments. *)
Definition senv (nu : numeric) (st : state) : env :=
  total (call_env (n_subs nu) (args_of (n_method nu)) (st_args st)).

(** The arguments are distinct and are not in the dictionary, and every symbol
    of the evaluated functions has a value. *)
Definition closed (nu : numeric) : Prop :=
  let m := n_method nu in
  NoDup (args_of m) /\ (forall s, In s (args_of m) -> assoc s (n_subs nu) = None) /\
  forall name f s, In (name, Ok f) (funcs m) -> In s (fexpr_symbols f) ->
    In s (args_of m) \/ In s (map fst (n_subs nu)).

(** The functions are affine in the variables of the linear part: the columns
    of their jacobian do not depend on the unknowns. *)
Definition linear_part (m : core) : Prop :=
  forall a J i j s, jactempF a Sl m = Ok J -> i < nr J -> j < nc J ->
    In s (free_symbols (ent J i j)) -> ~ In s (v_of Sall m).

(** The euclidean norm of the first [n] values. *)
Definition fnorm (n : nat) (f : nat -> R) : R := sqrt (rsum n (fun i => (f i * f i)%R)).

(** Every function has the value 0. *)
Definition vanish (r : env) (F : list expr) : Prop := forall e, In e F -> eval r e = 0%R.

(** One step of Newton's method from [r] to [r'] on the variables [v], for
    functions with values [F r] and partial derivatives [J r]. *)
Definition newton (v : list string) (F : env -> nat -> R) (J : env -> nat -> nat -> R) (r r' : env) : Prop :=
  agree_off v r r' /\ exists C, is_inverse (length v) (J r) C /\
    forall i, i < length v -> (r' (nth i v "") = r (nth i v "") - mv_ (length v) C (F r) i)%R.

(** A relation applied [k] times. *)
Inductive steps {A : Type} (P : A -> A -> Prop) : nat -> A -> A -> Prop :=
| steps_0 a : steps P 0 a a
| steps_S k a b c : P a b -> steps P k b c -> steps P (S k) a c.

(** The state stores the vector, or the number, under a name. *)
Definition stores (st : state) (name : string) (n : nat) (f : nat -> R) : Prop :=
  exists l, st_vals st name = Some (Ve l) /\ length l = n /\ forall i, i < n -> nth i l 0%R = f i.
Definition stores_number (st : state) (name : string) (a : R) : Prop := st_vals st name = Some (Sc a).

(** The functions are smooth at [q] and when the variables of the linear part
    change. *)
Definition regular (m : core) (Fl Fnl : list expr) (q : env) : Prop :=
  forall e p, In e (Fl ++ Fnl) -> agree_off (v_of Sl m) q p -> smooth p e.

(** The reduced function: the nonlinear part at the solution of the linear part,
    for all values of the unknowns. *)
Definition reduces (m : core) (Fl Fnl : list expr) (r : env) (red : env -> nat -> R) : Prop :=
  forall q, agree_off (v_of Sall m) r q -> regular m Fl Fnl q ->
    exists q', agree_off (v_of Sl m) q q' /\ vanish q' Fl /\
      forall i, i < length Fnl -> red q i = eval q' (nth i Fnl (Num 0)).

(** [D q i j] is the derivative of the function [i] along the variable [j]. *)
Definition partials (v : list string) (n : nat) (q : env) (red : env -> nat -> R) (D : env -> nat -> nat -> R) : Prop :=
  forall i j, i < n -> j < length v ->
    derivable_pt_lim (fun t => red (upd q (nth j v "") t) i) (q (nth j v "")) (D q i j).

(** The norm of the functions. *)
Definition residual (r : env) (F : list expr) : R := fnorm (length F) (fun i => eval r (nth i F (Num 0))).

(** The iterations of an update that starts from the unknowns of [r], and why
    they stop. *)
Definition newton_run (m : core) (Fl Fnl : list expr) (eps : R) (maxit k : nat) (r r' : env) (res : R) : Prop :=
  exists red D, reduces m Fl Fnl r' red /\
    (forall q, agree_off (v_of Sall m) r' q -> regular m Fl Fnl q -> partials (v_of Snl m) (length Fnl) q red D) /\
    exists r0 rn, agree_off (v_of Sall m) r' r0 /\ (forall s, In s (v_of Sall m) -> r0 s = r s) /\
      steps (newton (v_of Snl m) red D) k r0 rn /\ agree_off (v_of Sl m) rn r' /\ k <= maxit /\
      (res <= eps \/ k = maxit \/ (k = 0%nat /\ 1 <= eps) \/
       exists rp, newton (v_of Snl m) red D rp rn /\ fnorm (length Fnl) (fun i => red rn i - red rp i) <= eps)%R.

(** What an update leaves: states moved by the increments, inputs and
    parameters set, outputs evaluated, and a solution of the implicit function
    or what Newton's method found. *)
Definition updated (nu : numeric) (F Fl Fnl out : list expr) (u p : list R) (st st' : state) : Prop :=
  let m := n_method nu in
  let r := senv nu st in
  let r' := senv nu st' in
  length (st_args st') = length (args_of m) /\
  (forall i, i < length (c_x m) -> (r' (nth i (c_x m) "") = r (nth i (c_x m) "") + r (nth i (dx m) ""))%R) /\
  (forall i, i < length (c_u m) -> r' (nth i (c_u m) "") = nth i u 0%R) /\
  (forall i, i < length (c_p m) -> r' (nth i (c_p m) "") = nth i p 0%R) /\
  stores st' "dxH" (length (c_x m)) (fun i => eval r' (nth i (dxH m) (Num 0))) /\
  stores st' "z" (length (c_w m)) (fun i => eval r' (nth i (c_z m) (Num 0))) /\
  stores st' "y" (length (c_y m)) (fun i => eval r' (nth i out (Num 0))) /\
  (regular m Fl Fnl r' ->
   vanish r' Fl /\
   (vanish r' F \/
    stores_number st' "res_Fnl" (residual r' F) /\
    newton_run m Fl Fnl (n_eps nu) (n_maxit nu) (st_it st') r r' (residual r' F))).

(** The value recorded under a name at a step of a simulation. *)
Definition cell (rows : list (list (string * value))) (k : nat) (name : string) : option value :=
  match nth_error rows k with Some row => assoc name row | None => None end.

(** The states of a simulation: each one comes from the previous one and the
    values supplied, and the rows record what was asked for. *)
Definition trace (nu : numeric) (F Fl Fnl out : list expr) (names : list string) (us ps : list (list R))
  (rows : list (list (string * value))) (sts : list state) : Prop :=
  length sts = S (length rows) /\
  forall k a b u p row, nth_error sts k = Some a -> nth_error sts (S k) = Some b ->
    nth_error us k = Some u -> nth_error ps k = Some p -> nth_error rows k = Some row ->
    updated nu F Fl Fnl out u p a b /\ map fst row = names /\
    forall name v, In (name, v) row -> get nu name b = Ok v.

(** Dependencies of the operations of a method, each set in some order. *)
Definition deps_for (m : core) (deps : string -> option (list string)) : Prop :=
  forall s, match assoc s (ops m) with
            | Some o => exists ds, deps s = Some ds /\ forall d, In d ds <-> In d (deps_of o)
            | None => deps s = None
            end.

(** What a simulation can record. *)
Definition recordable : list string := ["x"; "dx"; "w"; "u"; "p"; "o"; "dxH"; "z"; "y"].

(** The inputs and parameters recorded are the ones supplied, and the recorded
    states move by the recorded increments. *)
Definition chained (m : core) (names : list string) (us ps : list (list R)) (rows : list (list (string * value))) : Prop :=
  (In "u" names -> forall k, k < length rows -> cell rows k "u" = option_map Ve (nth_error us k)) /\
  (In "p" names -> forall k, k < length rows -> cell rows k "p" = option_map Ve (nth_error ps k)) /\
  (In "x" names -> In "dx" names -> forall k, S k < length rows ->
   exists x d x', cell rows k "x" = Some (Ve x) /\ cell rows k "dx" = Some (Ve d) /\ cell rows (S k) "x" = Some (Ve x') /\
     length x = length (c_x m) /\ length d = length (c_x m) /\ length x' = length (c_x m) /\
     forall i, i < length (c_x m) -> (nth i x' 0 = nth i x 0 + nth i d 0)%R).
