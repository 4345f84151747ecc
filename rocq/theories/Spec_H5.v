(** What the storage of simulation data should do, stated without the code. *)
From Coq Require Import String List ZArith QArith Bool Lia.
From Verif Require Import Py H5.
Import ListNotations.
Local Open Scope string_scope.
Local Open Scope list_scope.
Local Open Scope nat_scope.

(** ** The load window *)

(** What a user reads from [data.start] and [data.stop] selects at least one
    of the [nt] time steps. *)
Definition inside (nt : Z) (w : window) : Prop :=
  (0 <= get_start w /\ get_start w < get_stop nt w /\ get_stop nt w <= nt)%Z.

Definition integral (q : Q) : Prop := exists z, (q == inject_Z z)%Q.

(** Every number assigned to [stop] is an integer; nothing is asked of the
    other assignments. *)
Definition integer_stops (ops : list assign) : Prop :=
  forall q, In (AStop (PNum q)) ops -> integral q.

(** ** Tables of values *)

Definition cell {A} (m : list (list A)) (i j : nat) : option A :=
  match nth_error m i with
  | Some r => nth_error r j
  | None => None
  end.

Definition rect {A} (n w : nat) (m : list (list A)) : Prop :=
  length m = n /\ Forall (fun r => length r = w) m.

(** [nr] is the number of indices a, a+s, a+2s, ... below [b]. *)
Definition counts (a b s nr : nat) : Prop :=
  forall k, k < nr <-> a + k * s < b.

(** The slice a:b:s. *)
Definition aslice (a b s : nat) : option pslice :=
  Some (mkSlice (Some (Z.of_nat a)) (Some (Z.of_nat b)) (Some s)).

(** [data'] is [data] with the table [it] written in the rows a+k*s and the
    columns a'+l*s'. *)
Definition written {A} (data it data' : list (list A))
           (a s nr a' s' nc : nat) : Prop :=
  (forall k l, k < nr -> l < nc ->
               cell data' (a + k * s) (a' + l * s') = cell it k l) /\
  (forall i j, ~ (exists k l, k < nr /\ l < nc /\ i = a + k * s /\
                              j = a' + l * s') ->
               cell data' i j = cell data i j).

(** ** The variables *)

Section Spec.
Context {A : Type}.
Variable mdim : string -> nat.
Variable names : list string.
Variable nt : nat.

(** A vector of the dimension of the variable is stored as it is, and a
    vector of length one is repeated; others are refused. *)
Definition fit (d : nat) (v : list A) : option (list A) :=
  if length v =? d then Some v
  else match v with [x] => Some (repeat x d) | _ => None end.

(** The row of a time index: negative ones count from the end. *)
Definition row_of_time (t : Z) : option nat :=
  if (0 <=? t)%Z then
    if (t <? Z.of_nat nt)%Z then Some (Z.to_nat t) else None
  else if (0 <=? t + Z.of_nat nt)%Z then Some (Z.to_nat (t + Z.of_nat nt))
       else None.

(** A write is accepted when its names are variables, its vectors fit and its
    time exists; at time -1, when moreover it gives all the variables. *)
Definition accepted (op : Z * list (string * list A)) : bool :=
  forallb (fun e => existsb (String.eqb (fst e)) names &&
                    match fit (mdim (fst e)) (snd e) with
                    | Some _ => true | None => false end) (snd op) &&
  match row_of_time (fst op) with Some _ => true | None => false end &&
  (negb (fst op =? -1)%Z ||
   forallb (fun n => existsb (fun e => String.eqb n (fst e)) (snd op)) names).

(** The value an accepted write gives to variable [n] at row [i]. *)
Definition gives (op : Z * list (string * list A)) (i : nat) (n : string)
  : option (list A) :=
  if accepted op && match row_of_time (fst op) with
                    | Some r => r =? i | None => false end
  then match find (fun e => String.eqb n (fst e)) (snd op) with
       | Some e => fit (mdim n) (snd e)
       | None => None
       end
  else None.

(** The value last written for variable [n] at row [i]. *)
Fixpoint last_written (ops : list (Z * list (string * list A)))
         (i : nat) (n : string) (init : list A) : list A :=
  match ops with
  | [] => init
  | op :: ops' =>
      last_written ops' i n
                   (match gives op i n with Some v => v | None => init end)
  end.
End Spec.

(** The arguments of a write are dictionaries: no key comes twice. *)
Definition dicts {A} (ops : list (Z * list (string * list A))) : Prop :=
  Forall (fun op => NoDup (map fst (snd op))) ops.

(** [v[a:b]] for indices that are not negative, or absent. *)
Definition part (a b : option nat) : pslice :=
  mkSlice (option_map Z.of_nat a) (option_map Z.of_nat b) None.
Definition start_at (a : option nat) : nat :=
  match a with None => 0 | Some a => a end.
Definition stop_at (n : nat) (b : option nat) : nat :=
  match b with None => n | Some b => b end.
Definition between {A} (a b : nat) (l : list A) : list A :=
  firstn (b - a) (skipn a l).
