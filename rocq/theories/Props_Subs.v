(** Substitutions in a core: C37. *)
From Coq Require Import String List ZArith QArith Reals.
From Verif Require Import Py Expr RSum Mat Core Subs Spec_Subs SubsProofs.
Import ListNotations.
Local Open Scope string_scope.
Local Open Scope list_scope.
Local Open Scope nat_scope.

(** The expressions of the substituted core under [r] have the values of the
    original ones when the keys are set to what they stand for.  The entries of
    the dictionary of the core are substituted too, and those with a
    substituted key are removed. *)
Theorem C37_substitution_commutes_with_evaluation : forall d c,
  no_self d -> (forall s, In s (variables c) -> ~ In s (map fst d)) ->
  exists c', substitute_core d false false c = (c', None) /\
    (forall r r', values_from d r r' -> same_values r r' c c' /\
       map (fun p => (fst p, eval r (snd p))) (c_subs c') =
       map (fun p => (fst p, eval r' (snd p)))
         (filter (fun p => negb (py_in String.eqb (fst p) (map fst d))) (c_subs c))).
Proof. exact substitute_commutes. Qed.
Print Assumptions C37_substitution_commutes_with_evaluation.

(** The gradient of the energy commutes as well, when the values do not depend
    on the state. *)
Theorem C37_gradient_commutes : forall d c c' r r',
  no_self d -> (forall s, In s (variables c) -> ~ In s (map fst d)) ->
  (forall k v s, In (k, v) d -> In s (c_x c) -> ~ In s (free_symbols v)) ->
  substitute_core d false false c = (c', None) -> values_from d r r' ->
  map (eval r) (dxH c') = map (eval r') (dxH c).
Proof. exact gradient_commutes. Qed.
Print Assumptions C37_gradient_commutes.

(** With [selfall] the whole dictionary of the core is applied and emptied,
    when no value refers to an entry that is itself an expression. *)
Theorem C37_selfall_applies_the_dictionary : forall c, NoDup (map fst (c_subs c)) ->
  (forall s, In s (variables c) -> ~ In s (map fst (c_subs c))) ->
  (forall k v k' v', In (k, v) (c_subs c) -> In (k', v') (c_subs c) -> is_num v' = false ->
     ~ In k' (free_symbols v)) ->
  exists c', substitute_core [] true false c = (c', None) /\ c_subs c' = [] /\
    (forall r r', solved_by (c_subs c) r r' -> same_values r r' c c').
Proof. exact selfall_commutes. Qed.
Print Assumptions C37_selfall_applies_the_dictionary.

Example C37_example : NoDup (map fst (c_subs capacitor)) /\
  (forall s, In s (variables capacitor) -> ~ In s (map fst (c_subs capacitor))) /\
  (forall k v k' v', In (k, v) (c_subs capacitor) -> In (k', v') (c_subs capacitor) -> is_num v' = false ->
     ~ In k' (free_symbols v)) /\
  solved_by (c_subs capacitor) (fun _ => 2%R)
    (fun s => if String.eqb s "iC" then (1/4)%R else if String.eqb s "C" then 4%R else 2%R).
Proof. exact capacitor_hyps. Qed.

(** Without that restriction a symbol that had a value is left in the energy
    although its entry is gone. *)
Theorem C37_selfall_with_chains_refuted : exists c c' s,
  substitute_core [] true false c = (c', None) /\
  In s (map fst (c_subs c)) /\ In s (free_symbols (c_H c')).
Proof. exact chained_refuted. Qed.
Print Assumptions C37_selfall_with_chains_refuted.

(** The coefficients of the connectors are never substituted. *)
Theorem C37_connectors_are_substituted_refuted : exists c c' k,
  substitute_core [] true false c = (c', None) /\
  In k (c_connectors c') /\ c_subs c = [("alpha", Num 2)] /\ c_subs c' = [] /\
  In "alpha" (free_symbols (k_alpha k)).
Proof. exact connectors_refuted. Qed.
Print Assumptions C37_connectors_are_substituted_refuted.
