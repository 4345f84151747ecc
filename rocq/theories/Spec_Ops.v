(** Sequences of calls on a core: the public operations as data. *)
From Coq Require Import String List ZArith.
From Verif Require Import Py Expr Mat Core.
Import ListNotations.

(** One call of a public method (with whatever arguments the user gives). *)
Inductive op :=
| AddStorages (x : arg string) (H : arg expr)
| AddDissipations (w : arg string) (z : arg expr)
| AddPorts (u y : arg string)
| AddParameters (p : arg string)
| AddObserver (obs : list (string * expr))
| AddConnector (i0 i1 : Z) (alpha : option expr)
| Port2Connector (i : Z)
| Connect
| SetBlock (p : part) (a b : blk) (V : mat)
| InitM
| AssignM (M : mat)
| ForceWnl (l : list string)
| MoveStor (i f : Z) | MoveDiss (i f : Z) | MovePort (i f : Z) | MoveConnector (i f : Z)
| LinearNonlinear (cr : option ((mat * list string) * (mat * list string)))
| MonovarMultivar
| ReduceZ.

Definition apply_op (inv : mat -> option mat) (o : op) : core -> outcome :=
  match o with
  | AddStorages x H => add_storages x H
  | AddDissipations w z => add_dissipations w z
  | AddPorts u y => add_ports u y
  | AddParameters p => add_parameters p
  | AddObserver obs => add_observer obs
  | AddConnector i0 i1 a => add_connector i0 i1 a
  | Port2Connector i => port2connector i
  | Connect => connect inv
  | SetBlock p a b V => set_block p a b V
  | InitM => fun c => ok (init_M c)
  | AssignM M => fun c => ok (set_M M c)
  | ForceWnl l => fun c => ok (set_force_wnl l c)
  | MoveStor i f => move_stor i f
  | MoveDiss i f => move_diss i f
  | MovePort i f => move_port i f
  | MoveConnector i f => move_connector i f
  | LinearNonlinear cr => linear_nonlinear cr
  | MonovarMultivar => monovar_multivar
  | ReduceZ => reduce_z inv
  end.

(** Every core a program can hold: start from an empty core, call methods
    (a call that raised leaves its object as it is), add two cores. *)
Inductive reachable (inv : mat -> option mat) : core -> Prop :=
| reach_new label : reachable inv (new_core label)
| reach_op o c : reachable inv c -> reachable inv (fst (apply_op inv o c))
| reach_add c1 c2 c : reachable inv c1 -> reachable inv c2 ->
    core_add c1 c2 = (c, None) -> reachable inv c.
