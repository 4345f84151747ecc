(** Behaviours of fractional components with one or two poles. *)
From Coq Require Import String List ZArith QArith Reals Arith Bool Lia Lra.
From Coquelicot Require Import Complex.
From Verif Require Import Py Expr Core Spec_Connect Graph Spec_Graph GraphConnect GraphExamples FracControl Frac Spec_Frac FracNames FracProofs FracDer.
Import ListNotations.
Local Open Scope string_scope.
Local Open Scope list_scope.
Local Open Scope C_scope.

(** Real values by name. *)
Fixpoint by_name (l : list (string * R)) (n : string) : C :=
  match l with [] => RtoC 0 | (m, x) :: r => if String.eqb m n then RtoC x else by_name r n end.

Ltac reals := repeat first [rewrite <- RtoC_minus|rewrite <- RtoC_plus|rewrite <- RtoC_opp|rewrite <- RtoC_mult]; apply f_equal; try lra; try (field; lra).

Lemma inv_two : integrator_weights 1 [(2, 1); (0, 5); (3, 2)]%R = [(/ 2, 2); (2 / 3, 3)]%R.
Proof.
  unfold integrator_weights. cbn [flat_map fst snd].
  destruct (Rlt_dec 0 2); [|lra]. destruct (Rlt_dec 0 0); [lra|]. destruct (Rlt_dec 0 3); [|lra]. cbn [Datatypes.app].
  repeat (f_equal; try lra; try (field; lra)).
Qed.
Lemma der_one : derivator_weights 1 [(2, 1)]%R = [(2, 2)]%R.
Proof.
  unfold derivator_weights. cbn [flat_map fst snd]. destruct (Rlt_dec 0 2); [|lra]. cbn [Datatypes.app].
  repeat (f_equal; try lra).
Qed.

(** The admittance of the integrator at s = 1 is 2. *)
Definition int_v := by_name [("A", 1); ("iN_D0", / 2); ("iN_D1", 2 / 3)]%R.
Definition int_f := by_name [("wR_D0", 1); ("xD0", 1); ("wR_D1", 1); ("xD1", 1)]%R.
Lemma int_ec : behaviour (RtoC 1) (fun _ => true) "A" "B" (fracintec "D" "A" "B" (integrator_weights 1 [(2, 1); (0, 5); (3, 2)]%R)) int_v int_f.
Proof.
  rewrite inv_two. split; [|split].
  - intros e He. cbn -[int_v int_f] in He.
    destruct He as [<-|[<-|[<-|[<-|[]]]]]; unfold edge_law, effort; cbn [f_kind f_src f_dst f_label].
    + unfold int_v, int_f, Rn; cbn -[RtoC Cplus Cminus Cmult]. reals.
    + exists (RtoC (/ 2)). unfold int_v, int_f, Qn; cbn -[RtoC Cplus Cminus Cmult]. split; reals.
    + unfold int_v, int_f, Rn; cbn -[RtoC Cplus Cminus Cmult]. reals.
    + exists (RtoC (/ 3)). unfold int_v, int_f, Qn; cbn -[RtoC Cplus Cminus Cmult]. split; reals.
  - intros X Y al l HX HY KX. cbn -[int_v int_f] in HX. destruct HX as [<-|[<-|[<-|[<-|[]]]]]; discriminate KX.
  - intros n H1 H2 H3. unfold fracintec, each_pole.
    cbn -[int_v int_f outflow RtoC]. unfold outflow, leaves. cbn [map f_src f_dst f_label].
    rewrite !csum_cons, csum_nil. rewrite (proj2 (String.eqb_neq "A" n)), (proj2 (String.eqb_neq "B" n)) by congruence.
    unfold int_f; cbn -[RtoC Cplus Cminus Cmult String.eqb].
    destruct (String.eqb ("iN_D0") n), (String.eqb "iN_D1" n); cbn -[RtoC Cplus Cminus Cmult]; ring.
Qed.

(** The impedance of the other one at s = 1 is 2. *)
Definition fc_v := by_name [("A", 2); ("iN_D0to1", 1)]%R.
Definition fc_f := by_name [("wDR0", / 2); ("xDQ0", / 2); ("wDR1", 2 / 3); ("xDQ1", / 3)]%R.
Lemma int_fc : behaviour (RtoC 1) (fun _ => true) "A" "B" (fracintfc "D" "A" "B" (integrator_weights 1 [(2, 1); (0, 5); (3, 2)]%R)) fc_v fc_f.
Proof.
  rewrite inv_two. split; [|split].
  - intros e He. cbn -[fc_v fc_f] in He.
    destruct He as [<-|[<-|[<-|[<-|[]]]]]; unfold edge_law, effort; cbn [f_kind f_src f_dst f_label].
    + unfold fc_v, fc_f, Rn; cbn -[RtoC Cplus Cminus Cmult]. reals.
    + exists (RtoC (/ 2)). unfold fc_v, fc_f, Qn; cbn -[RtoC Cplus Cminus Cmult]. split; reals.
    + unfold fc_v, fc_f, Rn; cbn -[RtoC Cplus Cminus Cmult]. reals.
    + exists (RtoC (/ 3)). unfold fc_v, fc_f, Qn; cbn -[RtoC Cplus Cminus Cmult]. split; reals.
  - intros X Y al l HX HY KX. cbn -[fc_v fc_f] in HX. destruct HX as [<-|[<-|[<-|[<-|[]]]]]; discriminate KX.
  - intros n H1 H2 H3. unfold fracintfc, each_pole.
    cbn -[fc_v fc_f outflow RtoC]. unfold outflow, leaves. cbn [map f_src f_dst f_label].
    rewrite !csum_cons, csum_nil. rewrite (proj2 (String.eqb_neq "A" n)), (proj2 (String.eqb_neq "B" n)) by congruence.
    unfold fc_f; cbn -[RtoC Cplus Cminus Cmult String.eqb].
    destruct (String.eqb ("iN_D0to1") n); cbn -[RtoC Cplus Cminus Cmult]; [reals|ring].
Qed.

(** The admittance of the effort-controlled derivator at s = 1 is 1. *)
Definition dec_v := by_name [("A", 1); ("ND0_1", / 2); ("ND0_2", -1)]%R.
Definition dec_f := by_name [("wDR0", -1); ("xDQ0", - / 2); ("yDalpha01", 1); ("yDalpha02", / 2)]%R.
Lemma der_ec : behaviour (RtoC 1) (fun _ => false) "A" "B" (fracderec "D" "A" "B" (derivator_weights 1 [(2, 1)]%R)) dec_v dec_f.
Proof.
  rewrite der_one. split; [|split].
  - intros e He. cbn -[dec_v dec_f] in He.
    destruct He as [<-|[<-|[<-|[<-|[]]]]]; unfold edge_law, effort; cbn [f_kind f_src f_dst f_label]; try exact I.
    + unfold dec_v, dec_f, Rn; cbn -[RtoC Cplus Cminus Cmult]. reals.
    + exists (RtoC (- / 2)). unfold dec_v, dec_f, Qn; cbn -[RtoC Cplus Cminus Cmult]. split; reals.
  - intros X Y al l HX HY KX KY _ _. cbn -[dec_v dec_f] in HX, HY.
    destruct HX as [<-|[<-|[<-|[<-|[]]]]]; try discriminate KX. destruct HY as [<-|[<-|[<-|[<-|[]]]]]; try discriminate KY.
    cbn [f_kind] in KX. injection KX as <-. unfold couples, effort, dec_v, dec_f, Rn; cbn -[RtoC Cplus Cminus Cmult Copp]. split; reals.
  - intros n H1 H2 H3. unfold fracderec, each_pole.
    cbn -[dec_v dec_f outflow RtoC]. unfold outflow, leaves. cbn [map f_src f_dst f_label].
    rewrite !csum_cons, csum_nil. rewrite (proj2 (String.eqb_neq "A" n)), (proj2 (String.eqb_neq "B" n)), (proj2 (String.eqb_neq datum n)) by congruence.
    unfold dec_f; cbn -[RtoC Cplus Cminus Cmult String.eqb].
    destruct (String.eqb ("ND0_1") n), (String.eqb "ND0_2" n); cbn -[RtoC Cplus Cminus Cmult]; reals.
Qed.

(** The impedance of the flux-controlled derivator is 2/17 instead of 1. *)
Definition dfc_v := by_name [("A", 2); ("ND0_2", 4)]%R.
Definition dfc_f := by_name [("wDR0", -1); ("xDQ0", 8); ("yDalpha01", 16); ("yDalpha02", -8)]%R.
Lemma der_fc : behaviour (RtoC 1) (fun _ => true) "A" "B" (fracderfc "D" "A" "B" (derivator_weights 1 [(2, 1)]%R)) dfc_v dfc_f.
Proof.
  rewrite der_one. split; [|split].
  - intros e He. cbn -[dfc_v dfc_f] in He.
    destruct He as [<-|[<-|[<-|[<-|[]]]]]; unfold edge_law, effort; cbn [f_kind f_src f_dst f_label]; try exact I.
    + unfold dfc_v, dfc_f, Rn; cbn -[RtoC Cplus Cminus Cmult]. reals.
    + exists (RtoC 4). unfold dfc_v, dfc_f, Qn; cbn -[RtoC Cplus Cminus Cmult]. split; reals.
  - intros X Y al l HX HY KX KY _ _. cbn -[dfc_v dfc_f] in HX, HY.
    destruct HX as [<-|[<-|[<-|[<-|[]]]]]; try discriminate KX. destruct HY as [<-|[<-|[<-|[<-|[]]]]]; try discriminate KY.
    cbn [f_kind] in KX. injection KX as <-. unfold couples, effort, dfc_v, dfc_f, Rn; cbn -[RtoC Cplus Cminus Cmult Copp]. split; reals.
  - intros n H1 H2 H3. unfold fracderfc, each_pole.
    cbn -[dfc_v dfc_f outflow RtoC]. unfold outflow, leaves. cbn [map f_src f_dst f_label].
    rewrite !csum_cons, csum_nil. rewrite (proj2 (String.eqb_neq "A" n)), (proj2 (String.eqb_neq "B" n)), (proj2 (String.eqb_neq datum n)) by congruence.
    unfold dfc_f; cbn -[RtoC Cplus Cminus Cmult String.eqb].
    destruct (String.eqb "ND0_2" n); cbn -[RtoC Cplus Cminus Cmult]; reals.
Qed.

Lemma unused_nodes : unused (ec_node "D") "A" "B" /\ unused (mid_node "D") "A" "B" /\
  unused (first_node "D") "A" "B" /\ unused (second_node "D") "A" "B".
Proof. repeat split; discriminate. Qed.

Lemma one_pole_ok : weights [(2, 1)]%R /\ no_pole (RtoC 1) [(2, 1)]%R /\ (exists m, In m [(2, 1)]%R /\ (0 < fst m)%R) /\
  forall m, In m [(2, 1)]%R -> RtoC 1 + RtoC ((1 * fst m) ^ 4 * snd m) <> RtoC 0.
Proof.
  split; [|split; [|split]].
  - intros m [<-|[]]. cbn. lra.
  - intros m [<-|[]]. cbn [snd]. rewrite <- RtoC_plus. apply RtoC_neq. lra.
  - exists (2, 1)%R. split; [now left|cbn; lra].
  - intros m [<-|[]]. cbn [fst snd]. rewrite <- RtoC_plus. apply RtoC_neq. lra.
Qed.
Lemma two_poles_ok : weights [(2, 1); (0, 5); (3, 2)]%R /\ no_pole (RtoC 1) [(2, 1); (0, 5); (3, 2)]%R /\
  exists m, In m [(2, 1); (0, 5); (3, 2)]%R /\ (0 < fst m)%R.
Proof.
  split; [|split].
  - intros m [<-|[<-|[<-|[]]]]; cbn; lra.
  - intros m [<-|[<-|[<-|[]]]]; cbn [snd]; rewrite <- RtoC_plus; apply RtoC_neq; lra.
  - exists (2, 1)%R. split; [now left|cbn; lra].
Qed.

Lemma flux_derivator_wrong : exists label n1 n2 p l s control v f,
  n1 <> n2 /\ unused (first_node label) n1 n2 /\ unused (second_node label) n1 n2 /\ p <> 0%R /\ weights l /\ no_pole s l /\ s <> RtoC 0 /\
  (forall n, control (label_A label n) = true) /\
  behaviour s control n1 n2 (fracderfc label n1 n2 (derivator_weights p l)) v f /\
  v n1 - v n2 <> RtoC p * s * fitted s l * outflow (fracderfc label n1 n2 (derivator_weights p l)) f n1.
Proof.
  exists "D", "A", "B", 1%R, [(2, 1)]%R, (RtoC 1), (fun _ => true), dfc_v, dfc_f.
  destruct unused_nodes as (_ & _ & U1 & U2). destruct one_pole_ok as (W & P & Q1 & Q2).
  assert (N1 : (1 <> 0)%R) by lra.
  split; [discriminate|]. split; [exact U1|]. split; [exact U2|]. split; [exact N1|]. split; [exact W|]. split; [exact P|].
  split; [now apply RtoC_neq|]. split; [reflexivity|]. split; [exact der_fc|].
  rewrite der_one. unfold fitted. cbn [map fst snd]. rewrite csum_cons, csum_nil.
  assert (O : outflow (fracderfc "D" "A" "B" [(2, 2)]%R) dfc_f "A" = RtoC 17).
  { unfold fracderfc, each_pole. cbn -[dfc_v dfc_f outflow RtoC]. unfold outflow, leaves. cbn [map f_src f_dst f_label].
    rewrite !csum_cons, csum_nil. unfold dfc_f; cbn -[RtoC Cplus Cminus Cmult]. reals. }
  rewrite O. unfold dfc_v; cbn -[RtoC Cplus Cminus Cmult Cdiv].
  rewrite <- !RtoC_plus, <- RtoC_div by lra. rewrite <- !RtoC_plus, <- !RtoC_mult, <- RtoC_minus.
  intros E. injection E. lra.
Qed.

(** The flux-controlled derivator with one pole, between a port and the datum. *)
Definition der_S := mkEdge "ND0_2" "#" "xDQ0" "storage" "e" None "" None (Num 0) (Num 0).
Definition der_A := mkEdge "A" "#" "yDalpha01" "connector" "?" (Some "yDalpha02") "transformer" (Some (Num 2)) (Num 0) (Num 0).
Definition der_B := mkEdge "ND0_2" "#" "yDalpha02" "connector" "?" (Some "yDalpha01") "transformer" None (Num 0) (Num 0).
Definition der_graph : graph := mkGraph ["A"; "#"; "ND0_2"]
  [mkEdge "#" "A" "yP" "port" "f" None "" None (Num 0) (Num 0);
   mkEdge "#" "A" "wDR0" "dissipative" "?" None "" None (Mul (Num (1 # 2)) (Sym "wDR0")) (Mul (Num 2) (Sym "wDR0"));
   der_S; der_A; der_B]
  (set_connectors [mkConn "uDalpha01" "uDalpha02" "yDalpha01" "yDalpha02" (Num 2)]
    (set_cu ["uDalpha01"; "uDalpha02"] (set_cy ["yDalpha01"; "yDalpha02"] (set_u ["uP"] (set_y ["yP"]
      (set_z [Mul (Num 2) (Sym "wDR0")] (set_w ["wDR0"] (set_x ["xDQ0"] (new_core "c"))))))))).

Definition one_connector (res : result core) : bool :=
  match res with
  | Ok c => match c_connectors c with
            | [k] => String.eqb (k_y0 k) "yDalpha01" && String.eqb (k_y1 k) "yDalpha02"
            | _ => false end
  | _ => false end.
Lemma one_connector_ok res : one_connector res = true -> exists c k, res = Ok c /\ c_connectors c = [k] /\ k_y0 k = "yDalpha01" /\ k_y1 k = "yDalpha02".
Proof.
  destruct res as [c|]; cbn [one_connector]; intros H; [|discriminate H]. destruct (c_connectors c) as [|k [|]] eqn:Ek; try discriminate H.
  apply andb_prop in H as [Y0 Y1]. apply String.eqb_eq in Y0. apply String.eqb_eq in Y1. now exists c, k.
Qed.
Lemma der_graph_built : one_connector (build_core qinv2 9 der_graph) = true.
Proof. vm_compute. reflexivity. Qed.
Lemma der_graph_loaded : exists c k, build_core qinv2 9 der_graph = Ok c /\ loaded der_graph c der_S der_A der_B (Num 2) k.
Proof.
  destruct (one_connector_ok _ der_graph_built) as (c & k & E & Ek & Y0 & Y1). exists c, k. split; [exact E|]. clear E.
  constructor; try reflexivity; try assumption; try (cbn; tauto); try (cbn; discriminate).
  - repeat split; discriminate.
  - rewrite Ek. now left.
  - intros e He. cbn in He. destruct He as [<-|[<-|[<-|[<-|[<-|[]]]]]]; cbn; intros [H|H]; try discriminate H; auto.
Qed.
Lemma der_graph_ok : graph_ok der_graph /\ typed der_graph /\ NoDup (map e_label (g_edges der_graph)) /\ qinv_correct qinv2 /\
  free_links (g_edges der_graph) /\ linked (g_edges der_graph) /\ conn_table der_graph.
Proof.
  split; [split; [nodup|]|split; [|split; [nodup|split; [exact qinv2_correct|split; [|split; [|nodup]]]]]].
  - intros e He. cbn in He. repeat (destruct He as [<-|He]; [cbn; tauto|]). destruct He.
  - intros e He. cbn in He. repeat (destruct He as [<-|He]; [cbn; tauto|]). destruct He.
  - intros e He. cbn in He. repeat (destruct He as [<-|He]; [cbn; intros [F|F]; try discriminate F; try (now contradiction F); split; discriminate|]). destruct He.
  - intros e He. cbn in He. destruct He as [<-|[<-|[<-|[<-|[<-|[]]]]]]; cbn; (split; [intros F|intros F]); try reflexivity; try discriminate;
      try (now contradiction F); (split; [now right|]).
    + exists der_B. split; [cbn; tauto|]. repeat split; cbn; congruence.
    + exists der_A. split; [cbn; tauto|]. repeat split; cbn; congruence.
Qed.
