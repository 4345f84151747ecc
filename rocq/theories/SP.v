(** Model of graphs/tools.py (L12-171) and of the series/parallel part of
    graphs/graph.py (L406-531, L653-708): the detection of chains and bundles of edges,
    their replacement by edges that stand for subgraphs, and the assembling of
    the subgraphs back into the graph.
    Simplified: of the data of an edge only 'type', 'label' and 'graph' are kept
    (networkx hands the whole dictionary over); a graph is the list of its edges
    in the order of insertion, so it has no node without edge; the construction
    of the analysis object of a subgraph, its core and its registration are not
    modelled; the fusion of components between the splitting and the assembling
    is modelled in Merge.v. *)
From Coq Require Import String List Bool Arith DecimalString.
From Verif Require Import Py Graph.
Import ListNotations.
Local Open Scope string_scope.
Local Open Scope list_scope.
Local Open Scope nat_scope.

(** An edge (n1, n2, data): [sub] lists the edges of data['graph'], empty for a
    component. *)
Inductive spedge := Edge (src dst type label : string) (sub : list spedge).
Definition src (e : spedge) := let (a, _, _, _, _) := e in a.
Definition dst (e : spedge) := let (_, b, _, _, _) := e in b.
Definition type (e : spedge) := let (_, _, t, _, _) := e in t.
Definition label (e : spedge) := let (_, _, _, l, _) := e in l.
Definition sub (e : spedge) := let (_, _, _, _, s) := e in s.

(** The orders in which networkx enumerates the nodes, the edges with their data
    and the neighbors of a node in the undirected simple graph nx.Graph(graph);
    they depend on the history of its dictionaries. *)
Record order := mkOrder {
  o_nodes : list spedge -> list string;
  o_edges : list spedge -> list spedge;
  o_nbrs : list spedge -> string -> list string
}.

(** networkx: degree in nx.Graph(graph), a loop counts twice. *)
Definition degree (O : order) (es : list spedge) (n : string) : nat :=
  length (o_nbrs O es n) +
  (if existsb (fun e => String.eqb (src e) n && String.eqb (dst e) n) es then 1 else 0).

(** tools.py L148-171: getedges with two nodes; both ends are in the set of the
    two nodes. *)
Definition within (a b : string) (e : spedge) : bool :=
  (String.eqb (src e) a || String.eqb (src e) b) && (String.eqb (dst e) a || String.eqb (dst e) b).
Definition getedges (O : order) (es : list spedge) (a b : string) : list spedge :=
  filter (within a b) (o_edges O es).

(** tools.py L41-55: the loop of serial_next, with testDatum=True; [prev] and
    [last] are serial[-2] and serial[-1]; returns the nodes appended. *)
Fixpoint serial_more (fuel : nat) (O : order) (es : list spedge) (n1 prev last : string)
  : result (list string) :=
  match fuel with
  | 0 => Err OutOfFuel
  | S k =>
    if Nat.eqb (degree O es last) 2 && negb (String.eqb last datum) then
      do l <- py_remove String.eqb prev (o_nbrs O es last);
      if String.eqb n1 last then Ok []
      else match l with
           | [] => Err IndexError
           | m :: _ => do r <- serial_more k O es n1 last m; Ok (m :: r)
           end
    else Ok []
  end.
(** tools.py L12-55: serial_next. *)
Definition serial_next (O : order) (es : list spedge) (n1 n2 : string) : result (list string) :=
  do r <- serial_more (S (length (o_nodes O es))) O es n1 n1 n2;
  Ok (n1 :: n2 :: r).

(** tools.py L109-112: the first edge between the successive nodes. *)
Fixpoint chain_edges (O : order) (es : list spedge) (s : list string) : result (list spedge) :=
  match s with
  | a :: ((b :: _) as t) =>
      match getedges O es a b with
      | [] => Err IndexError
      | e :: _ => do r <- chain_edges O es t; Ok (e :: r)
      end
  | _ => Ok []
  end.

(** tools.py L91-106: the chain through a node; the second end is dropped when
    both are the datum. *)
Definition serial_nodes (O : order) (es : list spedge) (node : string) : result (list string) :=
  match o_nbrs O es node with
  | [n1; n2] =>
      do s1 <- serial_next O es node n1;
      let datum_end := String.eqb (last s1 node) datum in
      do s2 <- serial_next O es node n2;
      let s2 := if String.eqb (last s2 node) datum && datum_end then removelast s2 else s2 in
      Ok (removelast (rev s1) ++ s2)
  | _ => Err ValueError
  end.

(** tools.py L85-113: the loop of serial_edges over the nodes. *)
Fixpoint serial_loop (O : order) (es : list spedge) (nodes seen : list string)
  : result (list (list spedge * string * string)) :=
  match nodes with
  | [] => Ok []
  | node :: rest =>
      if negb (py_in String.eqb node seen) && Nat.eqb (degree O es node) 2 && negb (String.eqb node datum) then
        do s <- serial_nodes O es node;
        do c <- chain_edges O es s;
        do r <- serial_loop O es rest (seen ++ s);
        Ok ((c, hd node s, last s node) :: r)
      else serial_loop O es rest seen
  end.
(** tools.py L58-115: serial_edges. *)
Definition serial_edges (O : order) (es : list spedge) : result (list (list spedge * string * string)) :=
  serial_loop O es (o_nodes O es) [].

(** tools.py L118-145: parallel_edges. *)
Definition parallel_edges (O : order) (es : list spedge) : list (list spedge) :=
  flat_map (fun node =>
    if Nat.ltb 1 (degree O es node) && negb (String.eqb node datum) then
      flat_map (fun n => let edges := getedges O es node n in
                         if Nat.ltb 1 (length edges) then [edges] else [])
        (o_nbrs O es node)
    else []) (o_nodes O es).

(** graph.py L24-30: the edges and the two counters. *)
Record spgraph := mkSP { sp_edges : list spedge; sp_idpar : nat; sp_idser : nat }.

(** 'serial{0}'.format(n), 'parallel{0}'.format(n). *)
Definition digits (n : nat) : string := NilEmpty.string_of_uint (Nat.to_uint n).
Definition serial_label (n : nat) : string := "serial" ++ digits n.
Definition parallel_label (n : nat) : string := "parallel" ++ digits n.

(** graph.py L431-435 and L479-483: the ports at the terminals of a subgraph. *)
Definition outs (lab : string) (a b : string) : list spedge :=
  flat_map (fun n => if String.eqb n datum then []
                     else [Edge datum n "port" (lab ++ "_out_" ++ n) []]) [a; b].

Definition goes (a b : string) (e : spedge) : bool := String.eqb (src e) a && String.eqb (dst e) b.

(** networkx: remove_edge(a, b, None) drops the edge from a to b inserted last
    (popitem); remove_edges_from ignores absent edges. *)
Fixpoint drop_first (f : spedge -> bool) (es : list spedge) : list spedge :=
  match es with
  | [] => []
  | e :: r => if f e then r else e :: drop_first f r
  end.
Definition drop_last (f : spedge -> bool) (es : list spedge) : list spedge := rev (drop_first f (rev es)).

(** graph.py L416-418: the same list of removals is repeated for every edge of
    the chain. *)
Definition remove_chain (c es : list spedge) : list spedge :=
  fold_left (fun es _ => fold_left (fun es e => drop_last (goes (src e) (dst e)) es) c es) c es.

(** graph.py L415-441: one chain. *)
Definition serial_step (g : spgraph) (c : list spedge * string * string) : spgraph :=
  match c with
  | (c, a, b) =>
      let lab := serial_label (S (sp_idser g)) in
      mkSP (remove_chain c (sp_edges g) ++ [Edge a b "graph" lab (c ++ outs lab a b)])
           (sp_idpar g) (S (sp_idser g))
  end.
(** graph.py L406-444: _split_serial. *)
Definition split_serial (O : order) (g : spgraph) : result (spgraph * bool) :=
  do se <- serial_edges O (sp_edges g);
  Ok (fold_left serial_step se g, negb (Nat.eqb (length se) 0)).

(** graph.py L456-490: one bundle; [self[n1][n2]] raises when there is no such
    edge. *)
Definition parallel_step (g : spgraph) (edges : list spedge) : result spgraph :=
  match edges with
  | [] => Err IndexError
  | e :: _ =>
      let n1 := src e in let n2 := dst e in
      if existsb (goes n1 n2) (sp_edges g) then
        let es := filter (fun e => negb (goes n1 n2 e)) (sp_edges g) in
        let es := filter (fun e => negb (goes n2 n1 e)) es in
        let lab := parallel_label (S (sp_idpar g)) in
        Ok (mkSP (es ++ [Edge n1 n2 "graph" lab (edges ++ outs lab n1 n2)])
                 (S (sp_idpar g)) (sp_idser g))
      else Err KeyError
  end.
Fixpoint parallel_steps (g : spgraph) (pe : list (list spedge)) : result spgraph :=
  match pe with
  | [] => Ok g
  | edges :: r => do g <- parallel_step g edges; parallel_steps g r
  end.
(** graph.py L446-492: _split_parallel. *)
Definition split_parallel (O : order) (g : spgraph) : result (spgraph * bool) :=
  let pe := parallel_edges O (sp_edges g) in
  do g' <- parallel_steps g pe;
  Ok (g', negb (Nat.eqb (length pe) 0)).

(** graph.py L520-531: sp_split; [fuel] bounds the passes of the while loop. *)
Fixpoint sp_split (fuel : nat) (O : order) (g : spgraph) : result spgraph :=
  match fuel with
  | 0 => Err OutOfFuel
  | S k =>
      do (g1, change_p) <- split_parallel O g;
      do (g2, change_s) <- split_serial O g1;
      if change_s || change_p then sp_split k O g2 else Ok g2
  end.

(** graph.py L499-508: assemble_subgraph, with [graph += subgraph] (L695-703)
    for every edge that stands for a subgraph. *)
Fixpoint imported (e : spedge) : list spedge :=
  match e with
  | Edge _ _ t _ s => if String.eqb t "graph" then s ++ flat_map imported s else []
  end.
Definition assembled (es : list spedge) : list spedge := es ++ flat_map imported es.

(** [a in b] for strings. *)
Fixpoint contains (a b : string) : bool :=
  String.prefix a b || match b with EmptyString => false | String _ r => contains a r end.

(** graph.py L653-680: remove_edges_from_list with one edge: the first key with
    the label of the edge, else the last key. *)
Definition same_label (e e' : spedge) : bool := goes (src e) (dst e) e' && String.eqb (label e') (label e).
Definition remove_listed (e : spedge) (es : list spedge) : result (list spedge) :=
  if existsb (same_label e) es then Ok (drop_first (same_label e) es)
  else if existsb (goes (src e) (dst e)) es then Ok (drop_last (goes (src e) (dst e)) es)
  else Err KeyError.
(** graph.py L512-518: the edges that are removed, and the loop. *)
Definition temporary (e : spedge) : bool := contains "_out_" (label e) || String.eqb (type e) "graph".
Fixpoint remove_temporary (todo es : list spedge) : result (list spedge) :=
  match todo with
  | [] => Ok es
  | e :: r => if temporary e then do es <- remove_listed e es; remove_temporary r es
              else remove_temporary r es
  end.
(** graph.py L494-518: sp_assemble. *)
Definition sp_assemble (O : order) (g : spgraph) : result spgraph :=
  let es := assembled (sp_edges g) in
  do es <- remove_temporary (o_edges O es) es;
  Ok (mkSP es (sp_idpar g) (sp_idser g)).
