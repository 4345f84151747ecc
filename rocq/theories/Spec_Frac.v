(** Vocabulary for linear networks in the Laplace domain: every signal is a
    complex amplitude times exp(s t). *)
From Coq Require Import String List Reals.
From Coquelicot Require Import Complex.
From Verif Require Import Py Expr Core Graph Spec_Graph Frac.
Import ListNotations.
Local Open Scope string_scope.
Local Open Scope list_scope.
Local Open Scope C_scope.

Definition csum (l : list C) : C := fold_right Cplus (RtoC 0) l.

(** What leaves the node [n] through the edge [e]. *)
Definition leaves (f : string -> C) (n : string) (e : fedge) : C :=
  (if String.eqb (f_src e) n then f (f_label e) else RtoC 0) -
  (if String.eqb (f_dst e) n then f (f_label e) else RtoC 0).
Definition outflow (net : list fedge) (f : string -> C) (n : string) : C :=
  csum (map (leaves f n) net).

(** Potentials [v], flows [f]: the effort of an edge. *)
Definition effort (v : string -> C) (e : fedge) : C := v (f_src e) - v (f_dst e).

(** The laws of one edge: for a storage, the state [x] is such that [s x] is what
    controls the edge and [value x] what it gives back. *)
Definition edge_law (s : C) (v f : string -> C) (e : fedge) : Prop :=
  match f_kind e with
  | Diss inv k => if inv then f (f_label e) = RtoC k * effort v e
                  else effort v e = RtoC k * f (f_label e)
  | Stor e_ctrl k => exists x, if e_ctrl then s * x = effort v e /\ f (f_label e) = RtoC k * x
                               else s * x = f (f_label e) /\ effort v e = RtoC k * x
  | _ => True
  end.

(** The law of a transformer by the control of its first edge (C45), applied to
    the consecutive edges A and B. *)
Definition couples (e_controlled : bool) (al : R) (eA fA eB fB : C) : Prop :=
  if e_controlled then fA = - (RtoC al * fB) /\ eB = RtoC al * eA
  else eA = - (RtoC al * eB) /\ fB = RtoC al * fA.
Definition connector_laws (control : string -> bool) (v f : string -> C) (net : list fedge) : Prop :=
  forall A B al l, In A net -> In B net -> f_kind A = ConnA al -> f_kind B = ConnB ->
    f_label A = (l ++ "1")%string -> f_label B = (l ++ "2")%string ->
    couples (control (f_label A)) al (effort v A) (f (f_label A)) (effort v B) (f (f_label B)).

(** A behaviour of the network with terminals [n1] and [n2]: the flows add up to
    zero at every other node but the datum. *)
Definition behaviour (s : C) (control : string -> bool) (n1 n2 : string) (net : list fedge)
  (v f : string -> C) : Prop :=
  (forall e, In e net -> edge_law s v f e) /\ connector_laws control v f net /\
  forall n, n <> n1 -> n <> n2 -> n <> datum -> outflow net f n = RtoC 0.

(** The fitted transfer functions: sum of mu/(s + xi). *)
Definition fitted (s : C) (l : list (R * R)) : C :=
  csum (map (fun m => RtoC (fst m) / (s + RtoC (snd m))) l).

(** Weights as the optimizer returns them, at a point that is not a pole. *)
Definition weights (l : list (R * R)) : Prop := forall m, In m l -> (0 <= fst m)%R.
Definition no_pole (s : C) (l : list (R * R)) : Prop := forall m, In m l -> s + RtoC (snd m) <> RtoC 0.
(** The names of the inner nodes are not used for the terminals. *)
Definition unused (node : nat -> string) (n1 n2 : string) : Prop := forall n, node n <> n1 /\ node n <> n2.

(** The labels of the edges of the transformer of branch [n] of a derivator. *)
Definition label_A (label : string) (n : nat) : string := ("y" ++ (label ++ "alpha" ++ str n) ++ "1")%string.
Definition label_B (label : string) (n : nat) : string := ("y" ++ (label ++ "alpha" ++ str n) ++ "2")%string.

(** What the flux-controlled derivator gives. *)
Definition flux_derivator (p : R) (s : C) (l : list (R * R)) : C :=
  csum (map (fun m => RtoC (p * fst m) * s / (s + RtoC ((p * fst m) ^ 4 * snd m))) l).

(** A transformer with a storage, and nothing else, on its second edge. *)
Record loaded (g : graph) (c : core) (S A B : edge) (al : expr) (k : connector) : Prop := {
  ld_S : In S (g_edges g); ld_A : In A (g_edges g); ld_B : In B (g_edges g);
  ld_storage : e_type S = "storage"; ld_type : e_type A = "connector"; ld_transformer : e_ctype A = "transformer";
  ld_mates : mates A B; ld_alpha : e_alpha A = Some al; ld_none : e_alpha B = None;
  ld_k : In k (c_connectors c); ld_k0 : k_y0 k = e_label A; ld_k1 : k_y1 k = e_label B;
  ld_src : e_src S = e_src B; ld_dst : e_dst S = e_dst B; ld_loop : e_src S <> e_dst S;
  ld_alone : forall e, In e (g_edges g) -> e_src e = e_src S \/ e_dst e = e_src S -> e = S \/ e = B }.
