(** Specification vocabulary for graphs: C25, C26, C27, C45. *)
From Coq Require Import String List ZArith QArith Qreals Reals Bool Permutation.
From Verif Require Import Py Expr RSum Mat Core Spec_Core Spec_Connect Graph.
Import ListNotations.
Local Open Scope string_scope.
Local Open Scope list_scope.
Local Open Scope nat_scope.

(** 1 at the node where the edge starts, -1 where it ends, 0 elsewhere and for
    a loop. *)
Definition out_of (n : string) (e : edge) : Z :=
  ((if String.eqb (e_src e) n then 1 else 0) - (if String.eqb (e_dst e) n then 1 else 0))%Z.

(** The three classes are the consecutive blocks of the positions of edges. *)
Definition blocks (s : ana) : Prop :=
  exists a b c, a_ec s = seq 0 a /\ a_ic s = seq a b /\ a_fc s = seq (a + b) c /\
    a + b + c = length (a_edges s).

(** Row [i] of the incidence matrix is that of node [i], column [j] that of edge
    [j]. *)
Definition aligned (s : ana) : Prop :=
  forall i j n e, nth_error (a_nodes s) i = Some n -> nth_error (a_edges s) j = Some e ->
    a_G s i j = out_of n e.

(** The nodes and edges are those of the graph, in another order; only the
    coefficient of a connector may change. *)
Definition same_graph (g : graph) (s : ana) : Prop :=
  Permutation (g_nodes g) (a_nodes s) /\
  Permutation (map (set_alpha None) (g_edges g)) (map (set_alpha None) (a_edges s)).

(** The property of C25. *)
Definition sound (g : graph) (s : ana) : Prop := blocks s /\ aligned s /\ same_graph g s.

(** A graph of networkx: distinct nodes, edges between nodes. *)
Definition graph_ok (g : graph) : Prop :=
  NoDup (g_nodes g) /\
  forall e, In e (g_edges g) -> In (e_src e) (g_nodes g) /\ In (e_dst e) (g_nodes g).

(** Kirchhoff's laws for flows [f] and efforts [v] given by label. *)
Definition node_law (g : graph) (f : string -> R) : Prop :=
  forall n, In n (g_nodes g) ->
    lsum (map (fun e => IZR (out_of n e) * f (e_label e))%R (g_edges g)) = 0%R.
Definition loop_law (g : graph) (v : string -> R) : Prop :=
  exists p : string -> R, forall e, In e (g_edges g) -> v (e_label e) = (p (e_src e) - p (e_dst e))%R.

(** Edges that are controlled as they declare. *)
Definition declared (l : list edge) (eff flo : list string) : Prop :=
  forall e, In e l -> (e_ctrl e = "e" -> In (e_label e) eff) /\ (e_ctrl e = "f" -> In (e_label e) flo).

(** The four kinds of edges that make a core. *)
Definition kinds : list string := ["storage"; "dissipative"; "port"; "connector"].
Definition typed (g : graph) : Prop := forall e, In e (g_edges g) -> In (e_type e) kinds.
Definition of_kind (t : string) (l : list edge) : list edge := filter (fun e => String.eqb (e_type e) t) l.

(** Names of the rows of the structure. *)
Definition names (c : core) : list string := c_x c ++ c_w c ++ c_y c ++ c_cy c.

(** Left and right sides of the structure: an effort-controlled edge gives its
    effort and receives its flow, a flux-controlled edge the opposite. *)
Definition given (eff : list string) (v f : string -> R) (l : string) : R :=
  if existsb (String.eqb l) eff then v l else f l.
Definition received (eff : list string) (v f : string -> R) (l : string) : R :=
  if existsb (String.eqb l) eff then f l else v l.

(** The rows of the core are the edges of the graph, by kind. *)
Definition rows_are_edges (g : graph) (c : core) : Prop :=
  Permutation (c_x c) (map e_label (of_kind "storage" (g_edges g))) /\
  Permutation (c_w c) (map e_label (of_kind "dissipative" (g_edges g))) /\
  Permutation (c_y c) (map e_label (of_kind "port" (g_edges g))) /\
  Permutation (c_cy c) (map e_label (of_kind "connector" (g_edges g))).

(** Skew-symmetric, and satisfied exactly under Kirchhoff's laws. *)
Definition conservative_structure (g : graph) (c : core) (eff : list string) : Prop :=
  nr (c_M c) = length (g_edges g) /\ nc (c_M c) = length (g_edges g) /\
  (forall r i j, Mv r c i j = - Mv r c j i)%R /\
  forall r (v f : string -> R),
    b_eq_M_a (length (g_edges g)) (Mv r c)
      (fun j => received eff v f (nth j (names c) "")) (fun i => given eff v f (nth i (names c) "")) <->
    node_law g f /\ loop_law g v.

(** Each dissipative law is the one for the control of its edge. *)
Definition laws_match (g : graph) (c : core) (eff : list string) : Prop :=
  length (c_z c) = length (c_w c) /\
  forall e k, In e (g_edges g) -> e_type e = "dissipative" -> nth_error (c_w c) k = Some (e_label e) ->
    nth_error (c_z c) k = Some (if existsb (String.eqb (e_label e)) eff then e_ze e else e_zf e).

(** Inputs stay with their outputs. *)
Definition pairs_kept (c0 c : core) : Prop :=
  length (c_u c) = length (c_y c) /\ length (c_cu c) = length (c_cy c) /\
  (forall k u y, nth_error (c_u c) k = Some u -> nth_error (c_y c) k = Some y ->
     exists q, nth_error (c_u c0) q = Some u /\ nth_error (c_y c0) q = Some y) /\
  (forall k u y, nth_error (c_cu c) k = Some u -> nth_error (c_cy c) k = Some y ->
     exists q, nth_error (c_cu c0) q = Some u /\ nth_error (c_cy c0) q = Some y).

(** What is assumed of numpy.linalg.inv. *)
Definition qinv_correct (inv : qinverter) : Prop := forall n A B, inv n A = Some B ->
  is_inverse n (fun i j => Q2R (A i j)) (fun i j => Q2R (B i j)).

(** Edges of connectors, and edges with a link, declare no control
    (dictionary/edges/connectors.py L39-50). *)
Definition undeclared (e : edge) : Prop := e_ctrl e <> "e" /\ e_ctrl e <> "f".
Definition free_links (l : list edge) : Prop :=
  forall e, In e l -> e_type e = "connector" \/ e_link e <> None -> undeclared e.

(** Connectors come as pairs of edges that refer to each other. *)
Definition mates (x y : edge) : Prop :=
  e_type y = "connector" /\ e_ctype y = e_ctype x /\
  e_link x = Some (e_label y) /\ e_link y = Some (e_label x) /\ e_label x <> e_label y.
Definition linked (l : list edge) : Prop := forall x, In x l ->
  (e_type x <> "connector" -> e_link x = None) /\
  (e_type x = "connector" -> (e_ctype x = "gyrator" \/ e_ctype x = "transformer") /\ exists y, In y l /\ mates x y).

(** The relation that connector of edges [A], [B] and coefficient [al] imposes on
    efforts [v] and flows [f], when [A] is effort-controlled or not. *)
Definition gyrator_law (al : R) (e_controlled : bool) (eA fA eB fB : R) : Prop :=
  if e_controlled then (fA = - (/ al * eB) /\ fB = / al * eA)%R
  else (eA = - (al * fB) /\ eB = al * fA)%R.
Definition transformer_law (al : R) (e_controlled : bool) (eA fA eB fB : R) : Prop :=
  if e_controlled then (fA = - (al * fB) /\ eB = al * eA)%R
  else (eA = - (al * eB) /\ fB = al * fA)%R.

(** The connectors of the core [c] impose these relations. *)
Definition connectors_match (g : graph) (c : core) (eff : list string) : Prop :=
  forall A B al k, In A (g_edges g) -> In B (g_edges g) -> e_type A = "connector" -> mates A B ->
    e_alpha A = Some al -> e_alpha B = None ->
    In k (c_connectors c) -> k_y0 k = e_label A -> k_y1 k = e_label B ->
    forall r v f, transformer r k (received eff v f) (given eff v f) <->
      (if String.eqb (e_ctype A) "gyrator" then gyrator_law else transformer_law)
        (eval r al) (existsb (String.eqb (e_label A)) eff)
        (v (e_label A)) (f (e_label A)) (v (e_label B)) (f (e_label B)).

(** The ends of the connectors of the core are distinct. *)
Definition all_ends (ks : list connector) : list string := flat_map (fun k => [k_y0 k; k_y1 k]) ks.
Definition conn_table (g : graph) : Prop := NoDup (all_ends (c_connectors (g_core g))).

(** States of the analysis between two calls of [set_edge_ec], [set_edge_fc],
    [set_node_dc] or [unlock]: each loop may be stopped after any number of
    passes, and followed by any other. *)
Inductive reachable (g : graph) : ana -> Prop :=
| r_start s : start g = ret s -> reachable g s
| r_known fuel i s : reachable g s -> reachable g (fst (known_edges fuel i s))
| r_nodes fuel i s : reachable g s -> reachable g (fst (iterate_nodes_loop fuel i s))
| r_fc k s : reachable g s -> reachable g (fst (iterate_fc_loop (firstn k (a_fc s)) s))
| r_ic fuel i s : reachable g s -> reachable g (fst (iterate_ic_loop fuel i s))
| r_unlock s : reachable g s -> reachable g (fst (unlock s)).
