(** Vocabulary for the generated C++ class: what it means that an instance and
    a numerical core in python hold the same values. *)
From Coq Require Import String List ZArith QArith Reals Bool.
From Verif Require Import Py Expr RSum Mat Core Method Numeric Spec_Numeric Cpp.
Import ListNotations.
Local Open Scope string_scope.
Local Open Scope list_scope.
Local Open Scope nat_scope.

(** A matrix of Eigen and an array of numpy with the same content: a vector is
    a column, the empty vector a matrix without row and column. *)
Definition same_value (v : value) (w : cvalue) : Prop :=
  match v, w with
  | Sc a, CSc b => a = b
  | Ve l, CMa n p A => n = length l /\ p = (if Nat.eqb n 0 then 0 else 1) /\ forall i, i < n -> A i 0 = nth i l 0%R
  | Ma n p A, CMa n' p' B => n = n' /\ p = p' /\ forall i j, i < n -> j < p -> A i j = B i j
  | _, _ => False
  end.

(** The names that an update computes only to set a group of arguments. *)
Definition auxiliary : list string := ["ud_x"; "ud_o"; "ud_vl"; "ud_vnl"].

(** The same arguments, and the same value for every accessor of the list that
    is not auxiliary. *)
Definition simulates (nu : numeric) (k : cclass) (names : list string) (st : state) (o : object) : Prop :=
  ob_args o = st_args st /\
  forall name v, In name names -> ~ In name auxiliary -> get nu name st = Ok v ->
    exists w, access k o name = Ok w /\ same_value v w.

(** What is assumed of Eigen's inverse: it is right where numpy's returns. *)
Definition cinv_for (inv : inverter) (cinv : cinverter) : Prop :=
  forall n A A' B, inv n A = Some B -> (forall i j, i < n -> j < n -> A i j = A' i j) -> is_inverse n A' (cinv n A').

(** The dictionary of the method and the sample rate of the class are those of
    the numerical core. *)
Definition same_dictionary (nu : numeric) (subs : list (string * R)) (rate : R) : Prop :=
  NoDup (map fst subs) /\ assoc fs_symbol (n_subs nu) = Some rate /\
  forall s, s <> fs_symbol -> assoc s subs = assoc s (n_subs nu).

(** Initial values: a dictionary from groups of arguments to values that single
    precision represents. *)
Definition good_inits (single : R -> R) (inits : list (string * option (list R))) : Prop :=
  NoDup (map fst inits) /\ incl (map fst inits) ["x"; "dx"; "w"; "u"; "p"; "o"] /\
  forall name l v, In (name, Some l) inits -> In v l -> single v = v.

(** The rows written by the C++ program are those recorded in python. *)
Definition same_row (row : list (string * value)) (crow : list (string * list R)) : Prop :=
  Forall2 (fun a b => fst a = fst b /\ snd a = Ve (snd b)) row crow.

(** An entry of a matrix member. *)
Definition entry (o : object) (name : string) (i j : nat) : option R :=
  match ob_vals o name with Some (CMa _ _ A) => Some (A i j) | _ => None end.

(** The initial values asked for: dictionary entries of the right sizes, zeros
    for [None]. *)
Definition asked (m : core) (inits : list (string * option (list R))) (name : string) : list R :=
  match assoc name inits with
  | Some (Some l) => l
  | _ => repeat 0%R (group_size m name)
  end.
