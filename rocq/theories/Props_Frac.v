(** C54: fractional integrators and derivators. *)
From Coq Require Import String List QArith Reals.
From Coquelicot Require Import Complex.
From Verif Require Import Py Expr Core Graph Spec_Graph GraphExamples Frac Spec_Frac FracNames FracProofs FracDer FracControl FracExamples.
Import ListNotations.
Local Open Scope string_scope.
Local Open Scope list_scope.
Local Open Scope C_scope.

(** The flux of the effort-controlled integrator is gain times the fitted
    transfer function times the effort. *)
Theorem C54_integrator_effort : forall label n1 n2 p l s control v f,
  n1 <> n2 -> unused (ec_node label) n1 n2 -> p <> 0%R -> weights l -> no_pole s l ->
  behaviour s control n1 n2 (fracintec label n1 n2 (integrator_weights p l)) v f ->
  outflow (fracintec label n1 n2 (integrator_weights p l)) f n1 = RtoC p * fitted s l * (v n1 - v n2) /\
  outflow (fracintec label n1 n2 (integrator_weights p l)) f n2 =
    - outflow (fracintec label n1 n2 (integrator_weights p l)) f n1.
Proof. exact integrator_effort. Qed.
Print Assumptions C54_integrator_effort.

(** The same for the flux-controlled one, if some weight is positive. *)
Theorem C54_integrator_flux : forall label n1 n2 p l s control v f,
  n1 <> n2 -> unused (mid_node label) n1 n2 -> p <> 0%R -> weights l -> no_pole s l ->
  (exists m, In m l /\ (0 < fst m)%R) ->
  behaviour s control n1 n2 (fracintfc label n1 n2 (integrator_weights p l)) v f ->
  v n1 - v n2 = RtoC p * fitted s l * outflow (fracintfc label n1 n2 (integrator_weights p l)) f n1 /\
  outflow (fracintfc label n1 n2 (integrator_weights p l)) f n2 =
    - outflow (fracintfc label n1 n2 (integrator_weights p l)) f n1.
Proof. exact integrator_flux. Qed.
Print Assumptions C54_integrator_flux.

(** Both have behaviours with two poles. *)
Example C54_integrator_example :
  weights [(2, 1); (0, 5); (3, 2)]%R /\ no_pole (RtoC 1) [(2, 1); (0, 5); (3, 2)]%R /\
  (exists m, In m [(2, 1); (0, 5); (3, 2)]%R /\ (0 < fst m)%R) /\
  unused (ec_node "D") "A" "B" /\ unused (mid_node "D") "A" "B" /\
  behaviour (RtoC 1) (fun _ => true) "A" "B"
    (fracintec "D" "A" "B" (integrator_weights 1 [(2, 1); (0, 5); (3, 2)]%R)) int_v int_f /\
  behaviour (RtoC 1) (fun _ => true) "A" "B"
    (fracintfc "D" "A" "B" (integrator_weights 1 [(2, 1); (0, 5); (3, 2)]%R)) fc_v fc_f.
Proof.
  destruct two_poles_ok as (A & B & D). destruct unused_nodes as (U1 & U2 & _).
  split; [exact A|]. split; [exact B|]. split; [exact D|]. split; [exact U1|]. split; [exact U2|].
  split; [exact int_ec|exact int_fc].
Qed.

(** In every core built from a graph, the first edge of a transformer loaded by
    a storage alone has the control that the storage declares: these are the
    controls of the derivators. *)
Theorem C54_loaded_transformer : forall inv fuel g c,
  graph_ok g -> typed g -> NoDup (map e_label (g_edges g)) -> qinv_correct inv ->
  free_links (g_edges g) -> linked (g_edges g) -> conn_table g -> build_core inv fuel g = Ok c ->
  exists eff, conservative_structure g c eff /\ connectors_match g c eff /\
    forall S A B al k, loaded g c S A B al k ->
      (e_ctrl S = "e" -> existsb (String.eqb (e_label A)) eff = true) /\
      (e_ctrl S = "f" -> existsb (String.eqb (e_label A)) eff = false).
Proof. exact loaded_control. Qed.
Print Assumptions C54_loaded_transformer.

Example C54_loaded_example :
  (graph_ok der_graph /\ typed der_graph /\ NoDup (map e_label (g_edges der_graph)) /\ qinv_correct qinv2 /\
   free_links (g_edges der_graph) /\ linked (g_edges der_graph) /\ conn_table der_graph) /\
  exists c k, build_core qinv2 9 der_graph = Ok c /\ loaded der_graph c der_S der_A der_B (Num 2) k.
Proof. split; [exact der_graph_ok|exact der_graph_loaded]. Qed.

(** The flux of the effort-controlled derivator is gain times s times the fitted
    transfer function (of s to the power alpha - 1) times the effort. *)
Theorem C54_derivator_effort : forall label n1 n2 p l s control v f,
  n1 <> n2 -> unused (first_node label) n1 n2 -> unused (second_node label) n1 n2 ->
  p <> 0%R -> weights l -> no_pole s l -> s <> RtoC 0 ->
  (forall n, (n < length (derivator_weights p l))%nat -> control (label_A label n) = false) ->
  behaviour s control n1 n2 (fracderec label n1 n2 (derivator_weights p l)) v f ->
  outflow (fracderec label n1 n2 (derivator_weights p l)) f n1 = RtoC p * s * fitted s l * (v n1 - v n2) /\
  outflow (fracderec label n1 n2 (derivator_weights p l)) f n2 =
    - outflow (fracderec label n1 n2 (derivator_weights p l)) f n1.
Proof. exact derivator_effort. Qed.
Print Assumptions C54_derivator_effort.

(** The flux-controlled derivator has the poles (p mu)^4 xi instead of xi. *)
Theorem C54_derivator_flux : forall label n1 n2 p l s control v f,
  n1 <> n2 -> unused (first_node label) n1 n2 -> unused (second_node label) n1 n2 ->
  p <> 0%R -> weights l -> (exists m, In m l /\ (0 < fst m)%R) -> s <> RtoC 0 ->
  (forall m, In m l -> s + RtoC ((p * fst m) ^ 4 * snd m) <> RtoC 0) ->
  (forall n, (n < length (derivator_weights p l))%nat -> control (label_A label n) = true) ->
  behaviour s control n1 n2 (fracderfc label n1 n2 (derivator_weights p l)) v f ->
  v n1 - v n2 = flux_derivator p s l * outflow (fracderfc label n1 n2 (derivator_weights p l)) f n1 /\
  outflow (fracderfc label n1 n2 (derivator_weights p l)) f n2 =
    - outflow (fracderfc label n1 n2 (derivator_weights p l)) f n1.
Proof. exact derivator_flux. Qed.
Print Assumptions C54_derivator_flux.

(** So it is not the documented derivator. *)
Theorem C54_derivator_flux_refuted : exists label n1 n2 p l s control v f,
  n1 <> n2 /\ unused (first_node label) n1 n2 /\ unused (second_node label) n1 n2 /\
  p <> 0%R /\ weights l /\ no_pole s l /\ s <> RtoC 0 /\
  (forall n, control (label_A label n) = true) /\
  behaviour s control n1 n2 (fracderfc label n1 n2 (derivator_weights p l)) v f /\
  v n1 - v n2 <> RtoC p * s * fitted s l * outflow (fracderfc label n1 n2 (derivator_weights p l)) f n1.
Proof. exact flux_derivator_wrong. Qed.
Print Assumptions C54_derivator_flux_refuted.

Example C54_derivator_example :
  weights [(2, 1)]%R /\ no_pole (RtoC 1) [(2, 1)]%R /\ (exists m, In m [(2, 1)]%R /\ (0 < fst m)%R) /\
  (forall m, In m [(2, 1)]%R -> RtoC 1 + RtoC ((1 * fst m) ^ 4 * snd m) <> RtoC 0) /\
  unused (first_node "D") "A" "B" /\ unused (second_node "D") "A" "B" /\
  behaviour (RtoC 1) (fun _ => false) "A" "B" (fracderec "D" "A" "B" (derivator_weights 1 [(2, 1)]%R)) dec_v dec_f /\
  behaviour (RtoC 1) (fun _ => true) "A" "B" (fracderfc "D" "A" "B" (derivator_weights 1 [(2, 1)]%R)) dfc_v dfc_f.
Proof.
  destruct one_pole_ok as (A & B & D & E). destruct unused_nodes as (_ & _ & U1 & U2).
  split; [exact A|]. split; [exact B|]. split; [exact D|]. split; [exact E|]. split; [exact U1|]. split; [exact U2|].
  split; [exact der_ec|exact der_fc].
Qed.
