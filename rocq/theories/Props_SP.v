(** C50: the series/parallel splitting of a graph and its assembling. *)
From Coq Require Import String List Permutation.
From Verif Require Import Py Graph SP Spec_SP SPAssemble SPExamples.
Import ListNotations.
Local Open Scope string_scope.
Local Open Scope list_scope.

(** The splitting of a circuit ends, within as many passes as it has edges plus
    one, whatever the order in which networkx enumerates nodes, edges and
    neighbors. *)
Theorem C50_split_ends : forall O es i j, enumerates O -> circuit es -> anchored es ->
  exists g, sp_split (S (length es)) O (mkSP es i j) = Ok g.
Proof. exact (fun O es i j HO Hc Ha => match split_assemble O es i j HO Hc Ha with ex_intro _ g H => ex_intro _ g (proj1 H) end). Qed.
Print Assumptions C50_split_ends.
Example C50_split_ends_example : exists g, sp_split (S (length demo)) std_order (mkSP demo 3 4) = Ok g.
Proof. exact (C50_split_ends std_order demo 3 4 std_enumerates demo_circuit demo_anchored). Qed.

(** Every group it makes is a chain or a bundle between its two terminals, at
    every depth. *)
Theorem C50_split_groups : forall O es i j k g, enumerates O -> circuit es -> anchored es ->
  sp_split k O (mkSP es i j) = Ok g -> forall e, In e (sp_edges g) -> grouped e.
Proof. exact (fun O es i j k g HO Hc Ha E => proj1 (split_result O es i j k g HO Hc Ha E)). Qed.
Print Assumptions C50_split_groups.
Example C50_split_groups_example : exists g, sp_split 6 std_order (mkSP demo 0 0) = Ok g /\
  (forall e, In e (sp_edges g) -> grouped e) /\
  map shape (sp_edges g) =
    ["xC()"; "serial2(y() parallel2(wR3() serial1(wR1() wR2() serial1_out_A() serial1_out_B()) parallel2_out_A() parallel2_out_B()) serial2_out_B())"].
Proof.
  exact (match demo_split with ex_intro _ g (conj E (conj Sh _)) =>
    ex_intro _ g (conj E (conj (C50_split_groups std_order demo 0 0 6 g std_enumerates demo_circuit demo_anchored E) Sh)) end).
Qed.

(** A group meets the rest of the circuit at its two terminals only. *)
Theorem C50_split_two_terminal : forall O es i j k g, enumerates O -> circuit es -> anchored es ->
  sp_split k O (mkSP es i j) = Ok g -> two_terminal es (sp_edges g).
Proof. exact (fun O es i j k g HO Hc Ha E => proj1 (proj2 (split_result O es i j k g HO Hc Ha E))). Qed.
Print Assumptions C50_split_two_terminal.
Example C50_split_two_terminal_example : exists g, sp_split 6 std_order (mkSP demo 0 0) = Ok g /\
  two_terminal demo (sp_edges g) /\ length (sp_edges g) = 2.
Proof.
  exact (match demo_split with ex_intro _ g (conj E (conj Sh _)) =>
    ex_intro _ g (conj E (conj (C50_split_two_terminal std_order demo 0 0 6 g std_enumerates demo_circuit demo_anchored E)
      (eq_trans (eq_sym (map_length shape (sp_edges g))) (f_equal (@length _) Sh)))) end).
Qed.

(** When it ends, nothing is left to group, except bundles between the datum and
    a node linked to nothing else. *)
Theorem C50_split_complete : forall O es i j k g, enumerates O -> circuit es -> anchored es ->
  sp_split k O (mkSP es i j) = Ok g -> irreducible (sp_edges g).
Proof. exact (fun O es i j k g HO Hc Ha E => proj1 (proj2 (proj2 (split_result O es i j k g HO Hc Ha E)))). Qed.
Print Assumptions C50_split_complete.
Example C50_split_complete_example : exists g, sp_split 6 std_order (mkSP demo 0 0) = Ok g /\
  irreducible (sp_edges g) /\ length (sp_edges g) = 2.
Proof.
  exact (match demo_split with ex_intro _ g (conj E (conj Sh _)) =>
    ex_intro _ g (conj E (conj (C50_split_complete std_order demo 0 0 6 g std_enumerates demo_circuit demo_anchored E)
      (eq_trans (eq_sym (map_length shape (sp_edges g))) (f_equal (@length _) Sh)))) end).
Qed.

(** Assembling gives back the edges of the circuit, each as many times as before. *)
Theorem C50_assemble : forall O es i j k g, enumerates O -> circuit es -> anchored es ->
  sp_split k O (mkSP es i j) = Ok g ->
  exists g', sp_assemble O g = Ok g' /\ Permutation (sp_edges g') es.
Proof. exact (fun O es i j k g HO Hc Ha E => proj2 (proj2 (proj2 (split_result O es i j k g HO Hc Ha E)))). Qed.
Print Assumptions C50_assemble.
Example C50_assemble_example : exists g, sp_split 6 std_order (mkSP demo 0 0) = Ok g /\
  exists g', sp_assemble std_order g = Ok g' /\ map label (sp_edges g') = ["xC"; "y"; "wR3"; "wR1"; "wR2"].
Proof. exact (match demo_split with ex_intro _ g (conj E (conj _ H)) => ex_intro _ g (conj E H) end). Qed.

(** A component whose label contains "_out_" is deleted by the assembling. *)
Theorem C50_assemble_refuted : exists es g g', anchored es /\
  sp_split (S (length es)) std_order (mkSP es 0 0) = Ok g /\ sp_assemble std_order g = Ok g' /\
  In (Edge "A" "#" "dissipative" "w_out_1" []) es /\ ~ In (Edge "A" "#" "dissipative" "w_out_1" []) (sp_edges g').
Proof. exact amp_refutes. Qed.
Print Assumptions C50_assemble_refuted.

(** The splitting of a connected circuit with a loop hung on a node other than
    the datum never ends. *)
Theorem C50_split_ends_refuted : exists es, circuit es /\ (forall v, is_node es v -> route es "" v) /\
  forall k, sp_split k std_order (mkSP es 0 0) = Err OutOfFuel.
Proof. exact (ex_intro _ hung (conj hung_circuit (conj hung_connected hung_forever))). Qed.
Print Assumptions C50_split_ends_refuted.

(** Two components in parallel between the datum and a node with no other
    neighbor are not grouped. *)
Theorem C50_split_complete_refuted : exists es e e', circuit es /\ anchored es /\ es = [e; e'] /\
  joins "A" "#" e /\ joins "A" "#" e' /\
  sp_split (S (length es)) std_order (mkSP es 0 0) = Ok (mkSP es 0 0).
Proof. exact pair_refutes. Qed.
Print Assumptions C50_split_complete_refuted.
