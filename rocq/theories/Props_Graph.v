(** Properties of graphs: C25, C26, C27, C45, C46. *)
From Coq Require Import String List ZArith QArith Qreals Reals Bool Permutation.
From Verif Require Import Py Expr RSum Mat Core Spec_Core Spec_Connect Graph Spec_Graph
  GraphReach GraphKirchhoff GraphBuild GraphConnect GraphDatum GraphExamples.
Import ListNotations.
Local Open Scope string_scope.
Local Open Scope list_scope.
Local Open Scope nat_scope.

(** ** C25 *)

(** Whatever the loops have done so far. *)
Theorem C25_classes_and_columns_stay_aligned : forall g s,
  graph_ok g -> reachable g s -> sound g s.
Proof. exact reachable_sound. Qed.
Print Assumptions C25_classes_and_columns_stay_aligned.

(** The constructor and the analysis, stopped at any time, are in such states. *)
Theorem C25_analysis_visits_reachable_states : forall g fuel,
  graph_ok g -> reachable g (fst (init_analysis g)) /\ reachable g (fst (perform_loop fuel (fst (init_analysis g)))).
Proof. exact analysis_reachable. Qed.
Print Assumptions C25_analysis_visits_reachable_states.

Example C25_example : graph_ok series /\
  map e_label (a_edges (fst (perform_loop 5 (fst (init_analysis series))))) = ["x"; "w"; "y"] /\
  a_ec (fst (perform_loop 5 (fst (init_analysis series)))) = [0] /\
  a_fc (fst (perform_loop 5 (fst (init_analysis series)))) = [1; 2].
Proof. split; [apply series_ok|]. vm_compute. repeat split. Qed.

(** ** C26 *)
Theorem C26_structure_is_kirchhoff : forall inv fuel g c,
  graph_ok g -> typed g -> NoDup (map e_label (g_edges g)) -> qinv_correct inv ->
  build_core inv fuel g = Ok c -> exists eff flo,
  Permutation (map e_label (g_edges g)) (eff ++ flo) /\ rows_are_edges g c /\ conservative_structure g c eff /\
  laws_match g c eff /\ pairs_kept (g_core g) c /\ (free_links (g_edges g) -> declared (g_edges g) eff flo) /\
  (linked (g_edges g) -> conn_table g -> connectors_match g c eff).
Proof. exact build_all. Qed.
Print Assumptions C26_structure_is_kirchhoff.

Example C26_example : graph_ok series /\ typed series /\ NoDup (map e_label (g_edges series)) /\ free_links (g_edges series) /\
  qinv_correct qinv2 /\ exists c, build_core qinv2 5 series = Ok c /\ c_z c = [Mul (Sym "R") (Sym "w")].
Proof.
  destruct series_ok as (H1 & H2 & H3 & H4). split; [exact H1|]. split; [exact H2|]. split; [exact H3|]. split; [exact H4|].
  split; [exact qinv2_correct|exact series_law].
Qed.

(** ** C27 *)
Theorem C27_tellegen : forall g f v,
  graph_ok g -> node_law g f -> loop_law g v ->
  lsum (map (fun e => v (e_label e) * f (e_label e))%R (g_edges g)) = 0%R.
Proof. exact tellegen. Qed.
Print Assumptions C27_tellegen.

Example C27_example : node_law (two "gyrator" "f" "f") (vals 3 3 5 (- (5))) /\ loop_law (two "gyrator" "f" "f") (vals (- (2)) 2 7 7).
Proof. exact (two_laws "gyrator" "f" "f" 2 3 7 5). Qed.

(** ** C45 *)

(** A connector imposes, through the core, the law of its control. *)
Theorem C45_connector_law_by_control : forall inv fuel g c,
  graph_ok g -> typed g -> NoDup (map e_label (g_edges g)) -> qinv_correct inv ->
  linked (g_edges g) -> conn_table g -> build_core inv fuel g = Ok c ->
  exists eff, conservative_structure g c eff /\ connectors_match g c eff.
Proof. exact connector_laws. Qed.
Print Assumptions C45_connector_law_by_control.

(** All these laws exchange power without loss. *)
Theorem C45_connectors_are_lossless : forall al b eA fA eB fB,
  (gyrator_law al b eA fA eB fB -> (eA * fA + eB * fB = 0)%R) /\
  (transformer_law al b eA fA eB fB -> (eA * fA + eB * fB = 0)%R).
Proof. exact laws_lossless. Qed.
Print Assumptions C45_connectors_are_lossless.

(** The documented laws (e_A = -alpha f_B, e_B = alpha f_A; f_A = -alpha f_B,
    e_B = alpha e_A) do not hold for every control. *)
Theorem C45_documented_gyrator_refuted : exists inv fuel g c eff k v f,
  graph_ok g /\ typed g /\ NoDup (map e_label (g_edges g)) /\ qinv_correct inv /\ linked (g_edges g) /\ conn_table g /\
  In (end_A "gyrator") (g_edges g) /\ In (end_B "gyrator") (g_edges g) /\
  build_core inv fuel g = Ok c /\ conservative_structure g c eff /\ In k (c_connectors c) /\
  node_law g f /\ loop_law g v /\ (forall r, transformer r k (received eff v f) (given eff v f)) /\
  ~ (v "yA" = - (2 * f "yB") /\ v "yB" = 2 * f "yA")%R.
Proof. exact documented_gyrator_refuted. Qed.
Print Assumptions C45_documented_gyrator_refuted.

Theorem C45_documented_transformer_refuted : exists inv fuel g c eff k v f,
  graph_ok g /\ typed g /\ NoDup (map e_label (g_edges g)) /\ qinv_correct inv /\ linked (g_edges g) /\ conn_table g /\
  In (end_A "transformer") (g_edges g) /\ In (end_B "transformer") (g_edges g) /\
  build_core inv fuel g = Ok c /\ conservative_structure g c eff /\ In k (c_connectors c) /\
  node_law g f /\ loop_law g v /\ (forall r, transformer r k (received eff v f) (given eff v f)) /\
  ~ (f "yA" = - (2 * f "yB") /\ v "yB" = 2 * v "yA")%R.
Proof. exact documented_transformer_refuted. Qed.
Print Assumptions C45_documented_transformer_refuted.

Example C45_example : graph_ok (two "gyrator" "f" "f") /\ typed (two "gyrator" "f" "f") /\
  NoDup (map e_label (g_edges (two "gyrator" "f" "f"))) /\ linked (g_edges (two "gyrator" "f" "f")) /\
  conn_table (two "gyrator" "f" "f").
Proof. exact (two_ok "gyrator" "f" "f" (or_introl eq_refl)). Qed.

(** ** C46 *)

(** Declared controls are those of the core, when no connector is itself
    declared. *)
Theorem C46_declared_controls_respected : forall inv fuel g c,
  graph_ok g -> typed g -> NoDup (map e_label (g_edges g)) -> qinv_correct inv -> free_links (g_edges g) ->
  build_core inv fuel g = Ok c -> exists eff flo,
  Permutation (map e_label (g_edges g)) (eff ++ flo) /\ conservative_structure g c eff /\ declared (g_edges g) eff flo.
Proof. exact declared_respected. Qed.
Print Assumptions C46_declared_controls_respected.

(** Reading the declared controls stops, and so does each iteration and each
    unlocking. *)
Theorem C46_inner_loops_stop : forall g, graph_ok g ->
  snd (init_analysis g) <> Some OutOfFuel /\
  forall s fuel, reachable g s -> length (a_ic s) + length (a_icn s) < fuel ->
    snd (iteration fuel s) <> Some OutOfFuel /\ snd (unlock s) <> Some OutOfFuel.
Proof. exact analysis_stops. Qed.
Print Assumptions C46_inner_loops_stop.

Example C46_example : graph_ok loop_graph /\ length (a_ic loop_state) + length (a_icn loop_state) = 7.
Proof. split; [apply loop_ok|]. vm_compute. reflexivity. Qed.

(** The outer loop may not: no number of passes is enough. *)
Theorem C46_analysis_stops_refuted : exists g, graph_ok g /\ typed g /\ NoDup (map e_label (g_edges g)) /\
  forall inv fuel, build_core inv fuel g = Err OutOfFuel.
Proof. exact analysis_diverges. Qed.
Print Assumptions C46_analysis_stops_refuted.

(** Without reference node there is never a core. *)
Theorem C46_reference_node_needed : forall inv fuel g c,
  graph_ok g -> g_nodes g <> [] -> ~ In datum (g_nodes g) -> build_core inv fuel g <> Ok c.
Proof. exact no_reference. Qed.
Print Assumptions C46_reference_node_needed.
