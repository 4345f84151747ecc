(** Vocabulary for the series/parallel splitting of a graph. *)
From Coq Require Import String List Bool Permutation.
From Verif Require Import Graph SP.
Import ListNotations.
Local Open Scope string_scope.
Local Open Scope list_scope.

(** Two nodes are joined by an edge, in one direction or the other. *)
Definition joins (a b : string) (e : spedge) : Prop :=
  (src e = a /\ dst e = b) \/ (src e = b /\ dst e = a).
Definition linked (es : list spedge) (a b : string) : Prop := exists e, In e es /\ joins a b e.
Definition is_node (es : list spedge) (n : string) : Prop := exists e, In e es /\ (src e = n \/ dst e = n).

(** What networkx promises about its enumerations: the nodes and the neighbors
    without repetition, the edges in some order. *)
Definition enumerates (O : order) : Prop := forall es,
  (NoDup (o_nodes O es) /\ forall n, In n (o_nodes O es) <-> is_node es n) /\
  Permutation (o_edges O es) es /\
  forall n, NoDup (o_nbrs O es n) /\ forall m, In m (o_nbrs O es n) <-> linked es n m.

(** There is a way from the node to the datum that never meets [N]. *)
Inductive route (es : list spedge) (N : string) : string -> Prop :=
| route_datum : N <> datum -> route es N datum
| route_step : forall a b, a <> N -> linked es a b -> route es N b -> route es N a.

(** No node other than the datum cuts a part of the circuit off. *)
Definition anchored (es : list spedge) : Prop :=
  forall N v, N <> datum -> v <> N -> is_node es v -> route es N v.

(** The edges of a circuit: components with two distinct ends, none of them
    labelled like the temporary edges of the splitting. *)
Definition circuit (es : list spedge) : Prop :=
  forall e, In e es -> src e <> dst e /\ type e <> "graph" /\
    contains "_out_" (label e) = false /\
    (forall n, label e <> serial_label n /\ label e <> parallel_label n).

(** Nothing is left to group: no node but the datum has exactly two neighbors,
    and two edges join the same two nodes only where each of these is the datum
    or has no other neighbor. *)
Definition two_neighbors (es : list spedge) (n : string) : Prop :=
  exists a b, a <> b /\ linked es n a /\ linked es n b /\ forall m, linked es n m -> m = a \/ m = b.
Definition irreducible (es : list spedge) : Prop :=
  (forall n, n <> datum -> ~ two_neighbors es n) /\
  forall a b l1 e l2 e' l3, es = l1 ++ e :: l2 ++ e' :: l3 -> joins a b e -> joins a b e' ->
    a = datum \/ forall m, linked es a m -> m = b.

(** A series group goes from one of its terminals to the other through distinct
    nodes, a parallel group joins its terminals with each of its edges; at every
    depth.  [temporary ports] of the group set aside. *)
Fixpoint passes (es : list spedge) (s : list string) : Prop :=
  match es, s with
  | [], [_] => True
  | e :: es', a :: ((b :: _) as s') => joins a b e /\ passes es' s'
  | _, _ => False
  end.
Inductive grouped : spedge -> Prop :=
| grouped_component : forall a b t l s, t <> "graph" -> grouped (Edge a b t l s)
| grouped_series : forall a b l es ports s,
    2 <= length es -> (forall e, In e es -> grouped e) ->
    NoDup s -> hd_error s = Some a -> hd_error (rev s) = Some b -> passes es s ->
    (forall p, In p ports -> type p = "port" /\ contains "_out_" (label p) = true) ->
    grouped (Edge a b "graph" l (es ++ ports))
| grouped_parallel : forall a b l es ports,
    2 <= length es -> (forall e, In e es -> grouped e /\ joins a b e) ->
    (forall p, In p ports -> type p = "port" /\ contains "_out_" (label p) = true) ->
    grouped (Edge a b "graph" l (es ++ ports)).

(** What an edge stands for, at any depth. *)
Inductive part_of (x : spedge) : spedge -> Prop :=
| part_self : part_of x x
| part_sub : forall e y, type e = "graph" -> In y (sub e) -> part_of x y -> part_of x e.

(** A group meets the rest of the circuit at its terminals only: a component
    that shares any other node with a component of the group belongs to it. *)
Definition ends_at (n : string) (e : spedge) : Prop := src e = n \/ dst e = n.
Definition two_terminal (components es : list spedge) : Prop :=
  forall r G c c' n, In r es -> part_of G r -> type G = "graph" ->
    In c components -> part_of c G -> In c' components -> ends_at n c -> ends_at n c' ->
    ~ ends_at n G -> part_of c' G.
