(** Model of the fractional integrators and derivators of the dictionary
    (/repo/pyphs/dictionary/fraccalc): the conversion of the fitted weights and
    the networks of linear components that they build.  The fit itself
    (scipy.optimize.minimize) is not modelled: the weights [Mu], which the
    bounds of the optimizer keep from being negative, and the poles [Xi] are
    arguments. *)
From Coq Require Import String List Reals Decimal DecimalString.
From Verif Require Import Py Graph.
Import ListNotations.
Local Open Scope string_scope.
Local Open Scope list_scope.
Local Open Scope R_scope.

(** An edge of these networks.  [Diss]: DissipativeLinear (edges/dissipatives.py
    L43-62), effort = coeff flux, or flux = coeff effort with [inv_coeff].
    [Stor]: StorageLinear with [inv_coeff] False (edges/storages.py L20-40),
    energy value x^2/2.  [ConnA], [ConnB]: the two edges of a Transformer
    (edges/connectors.py L39-55).  The labels have the prefix of [nicevarlabel]
    (tools.py L238-242). *)
Inductive kind :=
| Diss (inv_coeff : bool) (coeff : R)
| Stor (e_ctrl : bool) (value : R)
| ConnA (alpha : R)
| ConnB.
Record fedge := mkF { f_label : string; f_src : string; f_dst : string; f_kind : kind }.

Definition dissipative (label : string) (nodes : string * string) inv coeff :=
  [mkF ("w" ++ label) (fst nodes) (snd nodes) (Diss inv coeff)].
Definition storage (label : string) (nodes : string * string) (e_ctrl : bool) value :=
  [mkF ("x" ++ label) (fst nodes) (snd nodes) (Stor e_ctrl value)].
(** Two edges (edges/connectors.py L27-31, L53). *)
Definition transformer_edges (label n1 n2 n3 n4 : string) alpha :=
  [mkF ("y" ++ label ++ "1") n1 n2 (ConnA alpha); mkF ("y" ++ label ++ "2") n3 n4 ConnB].

(** [str(n)]. *)
Definition str (n : nat) : string := NilEmpty.string_of_uint (Nat.to_uint n).

(** fractional_integrators.py L204-213: the pairs (R, Q); weights equal to zero
    are dropped.  [l] lists the pairs (Mu, Xi). *)
Definition integrator_weights (p : R) (l : list (R * R)) : list (R * R) :=
  flat_map (fun m => if Rlt_dec 0 (fst m)
                     then let pn := / (p * fst m) in [(pn * snd m, / pn)] else []) l.
(** fractional_derivators.py L218-226. *)
Definition derivator_weights (p : R) (l : list (R * R)) : list (R * R) :=
  flat_map (fun m => if Rlt_dec 0 (fst m) then [(p * fst m, p * fst m * snd m)] else []) l.

Section Build.
Variable label : string.
Variables (n1 n2 : string).
(** [diagR] and [diagQ]. *)
Variable ws : list (R * R).
Definition Rn (n : nat) : R := fst (nth n ws (0, 0)).
Definition Qn (n : nat) : R := snd (nth n ws (0, 0)).
(** [for n in range(nbPoles)]. *)
Definition each_pole (branch : nat -> list fedge) : list fedge :=
  flat_map branch (seq 0 (length ws)).

(** fractional_integrators.py L24-57 [Fracintec]. *)
Definition ec_node (n : nat) : string := "iN_" ++ label ++ str n.
Definition intec_branch (n : nat) : list fedge :=
    dissipative ("R_" ++ label ++ str n) (ec_node n, n2) false (Rn n) ++
    storage (label ++ str n) (n1, ec_node n) true (Qn n).
Definition fracintec : list fedge := each_pole intec_branch.

(** fractional_integrators.py L84-119 [Fracintfc]: the node at the end of stage
    [n], and the one where it begins (the variable [N]). *)
Definition mid_node (n : nat) : string := "iN_" ++ label ++ str n ++ "to" ++ str (S n).
Definition fc_node (n : nat) : string :=
  if Nat.ltb n (length ws - 1) then mid_node n else n2.
Definition stage_start (node : nat -> string) (n : nat) : string :=
  match n with O => n1 | S m => node m end.
Definition intfc_branch (n : nat) : list fedge :=
    dissipative (label ++ "R" ++ str n) (stage_start fc_node n, fc_node n) true (Rn n) ++
    storage (label ++ "Q" ++ str n) (stage_start fc_node n, fc_node n) false (Qn n).
Definition fracintfc : list fedge := each_pole intfc_branch.

(** fractional_derivators.py L29-66 [Fracderec]. *)
Definition first_node (n : nat) : string := "N" ++ label ++ str n ++ "_1".
Definition second_node (n : nat) : string := "N" ++ label ++ str n ++ "_2".
Definition derec_branch (n : nat) : list fedge :=
    dissipative (label ++ "R" ++ str n) (first_node n, n1) true (Rn n) ++
    storage (label ++ "Q" ++ str n) (second_node n, datum) false (Qn n) ++
    transformer_edges (label ++ "alpha" ++ str n) (first_node n) n2 (second_node n) datum (/ Rn n).
Definition fracderec : list fedge := each_pole derec_branch.

(** fractional_derivators.py L97-141 [Fracderfc]. *)
Definition der_node (n : nat) : string :=
  if Nat.ltb n (length ws - 1) then first_node n else n2.
Definition derfc_branch (n : nat) : list fedge :=
    dissipative (label ++ "R" ++ str n) (der_node n, stage_start der_node n) false (Rn n) ++
    storage (label ++ "Q" ++ str n) (second_node n, datum) true (Qn n) ++
    transformer_edges (label ++ "alpha" ++ str n) (stage_start der_node n) (der_node n) (second_node n) datum (Rn n).
Definition fracderfc : list fedge := each_pole derfc_branch.
End Build.
