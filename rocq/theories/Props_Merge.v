(** Properties of the merging of components: C40. *)
From Coq Require Import String List ZArith QArith Qreals Reals.
From Verif Require Import Py Expr RSum Merge Spec_Merge MergeSteps MergeExamples.
Import ListNotations.
Local Open Scope string_scope.
Local Open Scope list_scope.
Local Open Scope R_scope.

(** Merging a group of linear components stops, leaves at most one component of
    each kind and control, is again a group of linear components, and shows the
    same efforts and fluxes at its terminals. *)
Theorem C40_merging_keeps_behaviours : forall P r g fuel,
  linear_group P r g -> names_ok P g -> (length (g_group g) < fuel)%nat ->
  exists g', merge_all fuel g = Ok g' /\ (linear_group P r g' /\ names_ok P g') /\
    (forall stor c, (stor = true -> c <> SI) -> (length (class stor c g') <= 1)%nat) /\
    forall E F, behaviour r g E F <-> behaviour r g' E F.
Proof. exact (fun P r g fuel H1 H2 H3 => merge_all_ok P r fuel g (conj H1 H2) H3). Qed.
Print Assumptions C40_merging_keeps_behaviours.

Example C40_example :
  (linear_group ["R"; "L"] mixed_values mixed_group /\ names_ok ["R"; "L"] mixed_group) /\
  exists g, merge_all 7 mixed_group = Ok g /\ labels g = ["wAB"; "xL1L2"; "xC1C2"].
Proof. exact (conj mixed_good mixed_result). Qed.

(** The coefficients of components with the same input add. *)
Theorem C40_shared_input_adds : forall P r w z k W Z, NoDup w -> length z = length w -> length k = length w ->
  (forall s, In s w -> ~ In s P) -> realizable_merge_dissipatives w z = (W, Z) -> ~ In W w ->
  (forall i, (i < length w)%nat -> linear_law P r (nth i w "") (nth_error z i) (nth i k 0)) ->
  linear_law P r W (Some Z) (rsum (length w) (fun i => nth i k 0)).
Proof. exact shared_input_adds. Qed.
Print Assumptions C40_shared_input_adds.

Example C40_shared_example :
  realizable_merge_dissipatives ["wA"; "wB"] [Mul (Num 2) (Sym "wA"); Mul (Num 3) (Sym "wB")] =
    ("wAB", Add (Mul (Num 2) (Sym "wAB")) (Mul (Num 3) (Sym "wAB"))).
Proof. reflexivity. Qed.

(** The label of a merged component concatenates the labels of its parts, so two
    merged components may get the same one; the hypothesis on names cannot be
    dropped. *)
Theorem C40_label_clash_refuted : exists r g g' E F, linear_group [] r g /\ NoDup (labels g) /\
  merge_all (S (length (g_group g))) g = Ok g' /\ behaviour r g E F /\ ~ behaviour r g' E F.
Proof. exact clash_refuted. Qed.
Print Assumptions C40_label_clash_refuted.
