(** The inverses of the parameters: C55. *)
From Coq Require Import String List ZArith QArith Qreals Reals Lra.
From Verif Require Import Py Expr RSum Mat Core Spec_Subs SubsInv Spec_SubsInv SubsInvProofs.
Import ListNotations.
Local Open Scope string_scope.
Local Open Scope list_scope.

(** Whatever the simplifier, and also when it raises: the entries of the dictionary
    stay, the new ones are inverses of entries, and under every valuation that
    agrees with the new dictionary all expressions have the value that they had. *)
Theorem C55_values_are_kept : forall simp fuel c, inverses_only (c_subs c) ->
  let c' := fst (subsinverse_core simp fuel c) in
  incl (c_subs c) (c_subs c') /\
  (forall k v, In (k, v) (c_subs c') -> In (k, v) (c_subs c) \/ exists s, k = ("inv" ++ s)%string) /\
  inverses_only (c_subs c') /\
  forall r, gives (c_subs c') r -> (forall e, eval r (simp e) = eval r e) -> same_values r r c c'.
Proof.
  intros simp fuel c D. destruct (subsinverse_sound simp fuel c D) as [(G1 & G2 & G3 & _) V].
  cbv zeta. split; [exact G2|]. split; [exact G3|]. split; [exact G1|exact V].
Qed.
Print Assumptions C55_values_are_kept.

(** There is such a valuation for every valuation that agrees with the old
    dictionary: only the new symbols get other values. *)
Theorem C55_new_symbols_have_values : forall simp fuel c r, inverses_only (c_subs c) -> gives (c_subs c) r ->
  let c' := fst (subsinverse_core simp fuel c) in
  (forall s, In s (value_symbols (c_subs c)) -> In s (map fst (c_subs c)) \/ ~ In s (map fst (c_subs c'))) ->
  exists r', gives (c_subs c') r' /\ extends (c_subs c) (c_subs c') r r'.
Proof. intros simp fuel c r D G c' F. apply new_values; [apply (subsinverse_sound simp fuel c D)|exact G|exact F]. Qed.
Print Assumptions C55_new_symbols_have_values.

(** What it is for: no negative power of a parameter is left (with a simplifier
    that does nothing). *)
Theorem C55_no_inverse_is_left : forall ks fuel d e d' e',
  (forall s, In s ks -> forall t, s <> ("inv" ++ t)%string) -> incl ks (map fst d) ->
  scalar (fun e => e) fuel d e = (d', Ok e') -> without_inverse ks e'.
Proof. intros ks fuel d e d' e' P K E. exact (proj1 (proj2 (scalar_clean ks P fuel d e d' (Ok e') K E) e' eq_refl)). Qed.
Print Assumptions C55_no_inverse_is_left.

(** The same for all the expressions of a core. *)
Theorem C55_no_inverse_is_left_in_the_core : forall ks fuel c c',
  (forall s, In s ks -> forall t, s <> ("inv" ++ t)%string) -> incl ks (map fst (c_subs c)) ->
  subsinverse_core (fun e => e) fuel c = (c', None) -> Forall (without_inverse ks) (core_exprs c').
Proof. intros ks fuel c c' P K E. exact (core_clean ks P fuel c c' K E). Qed.
Print Assumptions C55_no_inverse_is_left_in_the_core.

Example C55_example : inverses_only (c_subs rc) /\
  gives (c_subs rc) (fun s => if String.eqb s "R" then 2%R else 4%R) /\
  (let '(c, x) := subsinverse_core (fun e => e) 9 rc in (c_subs c, c_H c, c_z c, x)) =
    ([("R", Num 2); ("C", Num 4); ("invC", Inv (Num 4)); ("invR", Inv (Num 2))],
     Mul (Pow (Sym "x") 2) (Sym "invC"), [Mul (Pow (Sym "invR") 2) (Sym "w")], None).
Proof.
  split; [|split; [|vm_compute; reflexivity]].
  - split; [repeat constructor; cbn; intuition discriminate|]. intros s v [E|[E|[]]]; discriminate E.
  - intros k v [E|[E|[]]]; injection E as <- <-; cbn; unfold Q2R; cbn; lra.
Qed.

(** A parameter whose name begins with "inv" is not looked for: its value is
    overwritten although the energy uses it. *)
Theorem C55_name_clash_refuted : exists c c',
  subsinverse_core (fun e => e) 9 c = (c', None) /\ NoDup (map fst (c_subs c)) /\
  In ("invR", Num 5) (c_subs c) /\ In "invR" (free_symbols (c_H c)) /\
  In ("invR", Inv (Num 2)) (c_subs c') /\ ~ In ("invR", Num 5) (c_subs c').
Proof.
  exists clash, (fst (subsinverse_core (fun e => e) 9 clash)).
  assert (S : c_subs (fst (subsinverse_core (fun e => e) 9 clash)) = [("R", Num 2); ("invR", Inv (Num 2))]) by (vm_compute; reflexivity).
  split; [rewrite (surjective_pairing (subsinverse_core _ _ _)) at 1; f_equal; vm_compute; reflexivity|].
  rewrite S. clear S. split; [repeat constructor; cbn; intuition discriminate|].
  split; [right; left; reflexivity|]. split; [right; left; reflexivity|]. split; [right; left; reflexivity|].
  intros [E|[E|[]]]; discriminate E.
Qed.
Print Assumptions C55_name_clash_refuted.

(** An energy that simplifies to a symbol raises. *)
Theorem C55_simplified_symbol_refuted : exists simp c, (forall r e, eval r (simp e) = eval r e) /\
  c_subs c = [] /\ snd (subsinverse_core simp 9 c) = Some TypeError.
Proof. exists trig, circle. split; [exact trig_kept|]. split; [reflexivity|vm_compute; reflexivity]. Qed.
Print Assumptions C55_simplified_symbol_refuted.
