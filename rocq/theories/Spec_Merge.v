(** Vocabulary for the merging of components: what a group does at its
    terminals. *)
From Coq Require Import String List ZArith QArith Qreals Reals.
From Verif Require Import Py Expr Spec_Calculus Merge.
Import ListNotations.
Local Open Scope string_scope.
Local Open Scope list_scope.
Local Open Scope R_scope.

Definition labels (g : subgraph) : list string := map s_label (g_group g).

(** +1 or -1. *)
Definition sign (e : sedge) : R := if s_pos e then 1 else -1.

(** What one edge imposes on its own effort and flux at a time, [v] being the
    value of the states at each time: a storage integrates its input and returns
    the derivative of the energy; a dissipative edge maps its input to its
    output. *)
Definition diss_law (r : env) (w : string) (z : option expr) (input output : R) : Prop :=
  exists e, z = Some e /\ output = eval (upd r w input) e.
Definition edge_law (r : env) (H : expr) (v : R -> env) (e : sedge) (eff flx : R -> R) : Prop :=
  forall t,
  match s_stor e, s_ctrl e with
  | true, SE => derivable_pt_lim (fun t => v t (s_label e)) t (eff t) /\ is_partial (v t) (s_label e) H (flx t)
  | true, SF => derivable_pt_lim (fun t => v t (s_label e)) t (flx t) /\ is_partial (v t) (s_label e) H (eff t)
  | true, SI => False
  | false, SE => diss_law r (s_label e) (s_ze e) (eff t) (flx t)
  | false, SF => diss_law r (s_label e) (s_zf e) (flx t) (eff t)
  | false, SI => diss_law r (s_label e) (s_ze e) (eff t) (flx t) /\
                 diss_law r (s_label e) (s_zf e) (flx t) (eff t)
  end.

(** The effort [E] and flux [F], functions of time, that can be seen at the
    terminals of the group when the parameters have the values [r]: in parallel
    every edge has the effort of the group and the fluxes add; in series every
    edge has the flux of the group and the efforts add; an edge placed the other
    way round sees and gives opposite values. *)
Definition sum_over (l : list sedge) (f : sedge -> R) : R := fold_right Rplus 0 (map f l).
Definition behaviour (r : env) (g : subgraph) (E F : R -> R) : Prop :=
  exists (v : R -> env) (eff flx : string -> R -> R),
    (forall t s, ~ In s (labels g) -> v t s = r s) /\
    (forall e, In e (g_group g) -> edge_law r (g_H g) v e (eff (s_label e)) (flx (s_label e))) /\
    forall t,
    match g_real g with
    | SE => (forall e, In e (g_group g) -> eff (s_label e) t = sign e * E t) /\
            F t = sum_over (g_group g) (fun e => sign e * flx (s_label e) t)
    | SF => (forall e, In e (g_group g) -> flx (s_label e) t = sign e * F t) /\
            E t = sum_over (g_group g) (fun e => sign e * eff (s_label e) t)
    | SI => False
    end.

(** The components are linear with positive coefficients: whatever the values of
    the symbols other than the parameters [P], the law of the edge [e] is
    "output = k * input" for a dissipative edge and the energy is the sum of the
    [k/2 * x^2] for the storages.  Both forms of an indeterminate edge describe
    the same law; [k] is then the coefficient of the form that goes from effort
    to flux. *)
Definition same_on (P : list string) (r r' : env) : Prop := forall p, In p P -> r' p = r p.
Definition linear_law (P : list string) (r : env) (w : string) (z : option expr) (k : R) : Prop :=
  exists e, z = Some e /\
    forall r', same_on P r r' -> smooth r' e /\ eval r' e = k * r' w.
Definition storage_energy (k : string -> R) (r : env) (e : sedge) : R :=
  if s_stor e then k (s_label e) / 2 * r (s_label e) ^ 2 else 0.
Definition linear_with (P : list string) (r : env) (g : subgraph) (k : string -> R) : Prop :=
  (g_real g = SE \/ g_real g = SF) /\
  (exists c, forall r', same_on P r r' -> smooth r' (g_H g) /\
     eval r' (g_H g) = c + sum_over (g_group g) (storage_energy k r')) /\
  forall e, In e (g_group g) -> 0 < k (s_label e) /\
    match s_stor e, s_ctrl e with
    | true, c => c <> SI
    | false, SE => linear_law P r (s_label e) (s_ze e) (k (s_label e))
    | false, SF => linear_law P r (s_label e) (s_zf e) (k (s_label e))
    | false, SI => linear_law P r (s_label e) (s_ze e) (k (s_label e)) /\
                   linear_law P r (s_label e) (s_zf e) (/ k (s_label e))
    end.
Definition linear_group (P : list string) (r : env) (g : subgraph) : Prop := exists k, linear_with P r g k.

(** The names that the merging introduces do not clash: neither with a parameter
    nor with a component, nor with one another. *)
Definition class_names (stor : bool) (c : sctrl) (g : subgraph) : list string :=
  if Nat.leb (length (class stor c g)) 1 then []
  else [merged_name (if stor then "x" else "w") (map s_label (class stor c g))].
Definition new_names (g : subgraph) : list string :=
  class_names false SI g ++ class_names true SE g ++ class_names true SF g ++
  class_names false SE g ++ class_names false SF g.
Definition names_ok (P : list string) (g : subgraph) : Prop :=
  NoDup (labels g ++ new_names g) /\
  (forall s, In s P -> ~ In s (labels g ++ new_names g)) /\
  (forall s, s = "Y" \/ In s (ynames (length (g_group g))) -> ~ In s (P ++ labels g ++ new_names g)).
