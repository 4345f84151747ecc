(** Concrete graphs: a series circuit, and a graph on which the analysis does
    not stop. *)
From Coq Require Import String List ZArith QArith Qreals Reals Bool Lia Lra Permutation FunctionalExtensionality.
From Verif Require Import Py Tools Lists Expr ExprProofs RSum Mat MatProofs Core Spec_Core
  Graph Spec_Graph GraphProofs GraphAnalysis GraphDeclared GraphKirchhoff GraphBuild Spec_Connect GraphConnect.
Import ListNotations.
Local Open Scope string_scope.
Local Open Scope list_scope.
Local Open Scope nat_scope.

(** ** A state that one iteration does not change *)
Definition stuck (s : ana) : bool :=
  forallb (fun n => negb (Z.eqb (rowsum s n) 0) && negb (Z.eqb (rowsum s n) 1)) (a_icn s) &&
  (match a_fc s with [] => true | _ => false end) &&
  forallb (fun e => negb (Z.eqb (colsum s e) 0)) (a_ic s).

Lemma nodes_id s : forall fuel i, (forall n, In n (a_icn s) -> rowsum s n <> 0%Z /\ rowsum s n <> 1%Z) ->
  length (a_icn s) - i <= fuel -> iterate_nodes_loop fuel i s = ret s.
Proof.
  induction fuel as [|fuel IH]; intros i H Hf; cbn [iterate_nodes_loop];
    destruct (Nat.ltb_spec i (length (a_icn s))) as [Hi|]; try reflexivity; [lia|].
  rewrite py_get_nat. destruct (nth_error (a_icn s) i) as [n|] eqn:En; [|apply nth_error_None in En; lia].
  cbn [alift]. destruct (H n (nth_error_In _ _ En)) as [H0 H1].
  destruct (Z.eqb_spec (rowsum s n) 0); [contradiction|]. destruct (Z.eqb_spec (rowsum s n) 1); [contradiction|].
  cbn [abind ret]. apply IH; [exact H|lia].
Qed.

Lemma ic_id s : forall fuel i, (forall e, In e (a_ic s) -> colsum s e <> 0%Z) ->
  length (a_ic s) - i <= fuel -> iterate_ic_loop fuel i s = ret s.
Proof.
  induction fuel as [|fuel IH]; intros i H Hf; cbn [iterate_ic_loop];
    destruct (Nat.ltb_spec i (length (a_ic s))) as [Hi|]; try reflexivity; [lia|].
  rewrite py_get_nat. destruct (nth_error (a_ic s) i) as [n|] eqn:En; [|apply nth_error_None in En; lia].
  cbn [alift]. destruct (Z.eqb_spec (colsum s n) 0); [now apply H in e; [|eapply nth_error_In, En]|].
  apply IH; [exact H|lia].
Qed.

Lemma stuck_iteration s fuel : stuck s = true -> iteration (S fuel) s = ret s.
Proof.
  unfold stuck. rewrite !andb_true_iff, !forallb_forall. intros [[H1 H2] H3].
  unfold iteration. cbn [iteration_loop]. destruct (isequal _ _ _ (a_L s)); [reflexivity|].
  unfold iterate_nodes, iterate_fc, iterate_ic.
  rewrite nodes_id; [| |lia].
  2:{ intros n Hn. specialize (H1 n Hn). apply andb_prop in H1 as [A B]. rewrite negb_true_iff in A, B.
      now split; apply Z.eqb_neq. }
  cbn [abind ret]. destruct (a_fc s) eqn:Ef; [|discriminate]. cbn [iterate_fc_loop abind ret].
  rewrite ic_id; [| |lia].
  2:{ intros e He. specialize (H3 e He). rewrite negb_true_iff in H3. now apply Z.eqb_neq. }
  cbn [abind ret].
  destruct fuel; cbn [iteration_loop]; now rewrite isequal_refl.
Qed.

(** A stuck state whose unlocking changes nothing. *)
Lemma stuck_forever s : pending s = true -> stuck s = true -> unlock s = ret s ->
  forall fuel, perform_loop fuel s = fail OutOfFuel s.
Proof.
  intros P H U. induction fuel as [|fuel IH]; cbn [perform_loop]; rewrite P; [reflexivity|].
  rewrite stuck_iteration by exact H. cbn [abind ret]. rewrite P, U. cbn [abind ret]. exact IH.
Qed.

Definition diss (a b l : string) : edge := mkEdge a b l "dissipative" "?" None "" None (Sym l) (Sym l).
Definition loop_core : core :=
  set_z [Sym "w1"; Sym "w2"; Sym "w3"; Sym "w4"] (set_w ["w1"; "w2"; "w3"; "w4"] (new_core "c")).
Definition loop_graph : graph := mkGraph ["A"; "B"; "#"; "C"]
  [diss "A" "B" "w1"; diss "A" "#" "w2"; diss "B" "C" "w3"; diss "C" "A" "w4"] loop_core.

Definition loop_state : ana := fst (init_analysis loop_graph).

Lemma loop_unlock : unlock loop_state = ret loop_state.
Proof.
  unfold unlock.
  assert (E : unlock_ic (seq 0 (nn loop_state)) loop_state = Ok (Some (3, 1))) by (vm_compute; reflexivity).
  rewrite E. cbn [alift].
  assert (L0 : a_L loop_state 3 1 = 0%Z) by (vm_compute; reflexivity).
  assert (L1 : set_at 3 1 0%Z (a_L loop_state) = a_L loop_state).
  { extensionality i. extensionality j. unfold set_at.
    destruct (Nat.eqb_spec i 3) as [->|]; [|reflexivity]. destruct (Nat.eqb_spec j 1) as [->|]; [|reflexivity].
    cbn [andb]. now rewrite L0. }
  rewrite L1. unfold ret. f_equal.
Qed.

Lemma loop_diverges inv0 fuel : build_core inv0 fuel loop_graph = Err OutOfFuel.
Proof.
  unfold build_core.
  assert (E : snd (init_analysis loop_graph) = None) by (vm_compute; reflexivity).
  assert (E' : init_analysis loop_graph = (loop_state, None)).
  { unfold loop_state. destruct (init_analysis loop_graph) as [s o]. cbn in *. now rewrite E. }
  rewrite E'. unfold perform.
  rewrite (stuck_forever loop_state); [reflexivity|vm_compute; reflexivity|vm_compute; reflexivity|exact loop_unlock].
Qed.

Ltac nodup := repeat (constructor; [cbn; intuition discriminate|]); constructor.

Lemma loop_ok : graph_ok loop_graph /\ typed loop_graph /\ NoDup (map e_label (g_edges loop_graph)).
Proof.
  split; [split; [nodup|]|split; [|nodup]].
  - intros e He. cbn in He. repeat (destruct He as [<-|He]; [cbn; tauto|]). destruct He.
  - intros e He. cbn in He. repeat (destruct He as [<-|He]; [cbn; tauto|]). destruct He.
Qed.

(** ** A series circuit: source, resistor and inductor *)
Definition qinv2 : qinverter := fun n A =>
  match n with
  | 2 => let a := A 0 0 in let b := A 0 1 in let c := A 1 0 in let e := A 1 1 in
         let d := (a * e - b * c)%Q in
         if Qeq_bool d 0 then None
         else Some (fun i j => match i, j with
                               | 0, 0 => Qdiv e d | 0, _ => Qdiv (Qopp b) d
                               | _, 0 => Qdiv (Qopp c) d | _, _ => Qdiv a d end)
  | _ => None
  end.

Lemma qinv2_correct : qinv_correct qinv2.
Proof.
  intros n A B. unfold qinv2. destruct n as [|[|[|n]]]; try discriminate.
  destruct (Qeq_bool _ 0) eqn:E; [discriminate|]. intros [= <-].
  assert (D : (Q2R (A 0%nat 0%nat) * Q2R (A 1%nat 1%nat) - Q2R (A 0%nat 1%nat) * Q2R (A 1%nat 0%nat))%R <> 0%R).
  { rewrite <- !Q2R_mult, <- Q2R_minus. intros F. rewrite <- RMicromega.Q2R_0 in F. apply eqR_Qeq in F.
    apply Qeq_eq_bool in F. congruence. }
  assert (Dq : ~ (A 0%nat 0%nat * A 1%nat 1%nat - A 0%nat 1%nat * A 1%nat 0%nat == 0)%Q) by (intros F; apply Qeq_eq_bool in F; congruence).
  split; intros i j Hi Hj; unfold mm; destruct i as [|[|i]]; destruct j as [|[|j]]; try lia; cbn -[Qdiv Q2R];
    rewrite ?Q2R_div, ?Q2R_opp, ?Q2R_minus, ?Q2R_mult by exact Dq; cbn; field; exact D.
Qed.

Definition series_core : core :=
  set_y ["y"] (set_u ["u"] (set_z [Sym "w"] (set_w ["w"] (set_x ["x"] (new_core "c"))))).
Definition series : graph := mkGraph ["A"; "B"; "#"]
  [mkEdge "#" "A" "y" "port" "?" None "" None (Num 0) (Num 0);
   mkEdge "A" "B" "w" "dissipative" "?" None "" None (Mul (Inv (Sym "R")) (Sym "w")) (Mul (Sym "R") (Sym "w"));
   mkEdge "B" "#" "x" "storage" "e" None "" None (Num 0) (Num 0)] series_core.

Lemma series_ok : graph_ok series /\ typed series /\ NoDup (map e_label (g_edges series)) /\ free_links (g_edges series).
Proof.
  split; [split; [nodup|]|split; [|split; [nodup|]]].
  - intros e He. cbn in He. repeat (destruct He as [<-|He]; [cbn; tauto|]). destruct He.
  - intros e He. cbn in He. repeat (destruct He as [<-|He]; [cbn; tauto|]). destruct He.
  - intros e He. cbn in He. repeat (destruct He as [<-|He]; [cbn; intros [F|F]; [discriminate|now contradiction F]|]). destruct He.
Qed.

Lemma series_builds : exists c, build_core qinv2 5 series = Ok c.
Proof.
  assert (E : (match build_core qinv2 5 series with Ok _ => true | _ => false end) = true) by (vm_compute; reflexivity).
  destruct (build_core qinv2 5 series) as [c|]; [now exists c|discriminate].
Qed.
Lemma series_law : exists c, build_core qinv2 5 series = Ok c /\ c_z c = [Mul (Sym "R") (Sym "w")].
Proof.
  destruct series_builds as [c E]. exists c. split; [exact E|].
  assert (E' : (do c <- build_core qinv2 5 series; Ok (c_z c)) = Ok [Mul (Sym "R") (Sym "w")]) by (vm_compute; reflexivity).
  rewrite E in E'. cbn in E'. congruence.
Qed.

(** ** Connectors between two ports *)
Definition two (ctype c1 c2 : string) : graph := mkGraph ["A"; "#"; "B"]
  [mkEdge "#" "A" "y1" "port" c1 None "" None (Num 0) (Num 0);
   mkEdge "A" "#" "yA" "connector" "?" (Some "yB") ctype (Some (Num 2)) (Num 0) (Num 0);
   mkEdge "B" "#" "yB" "connector" "?" (Some "yA") ctype None (Num 0) (Num 0);
   mkEdge "B" "#" "y2" "port" c2 None "" None (Num 0) (Num 0)]
  (set_connectors [mkConn "uA" "uB" "yA" "yB" (Num 2)]
    (set_cu ["uA"; "uB"] (set_cy ["yA"; "yB"] (set_u ["u1"; "u2"] (set_y ["y1"; "y2"] (new_core "c")))))).

Lemma two_ok ctype c1 c2 : ctype = "gyrator" \/ ctype = "transformer" ->
  graph_ok (two ctype c1 c2) /\ typed (two ctype c1 c2) /\ NoDup (map e_label (g_edges (two ctype c1 c2))) /\
  linked (g_edges (two ctype c1 c2)) /\ conn_table (two ctype c1 c2).
Proof.
  intros Hc. split; [split; [nodup|]|split; [|split; [nodup|split; [|nodup]]]].
  - intros e He. cbn in He. repeat (destruct He as [<-|He]; [cbn; tauto|]). destruct He.
  - intros e He. cbn in He. repeat (destruct He as [<-|He]; [cbn; tauto|]). destruct He.
  - intros e He. cbn in He. destruct He as [<-|[<-|[<-|[<-|[]]]]]; cbn; (split; [intros F|intros F]); try reflexivity; try discriminate;
      try (now contradiction F); (split; [exact Hc|]).
    + eexists. split; [right; right; left; reflexivity|]. repeat split; cbn; congruence.
    + eexists. split; [right; left; reflexivity|]. repeat split; cbn; congruence.
Qed.

Definition end_A ctype := mkEdge "A" "#" "yA" "connector" "?" (Some "yB") ctype (Some (Num 2)) (Num 0) (Num 0).
Definition end_B ctype := mkEdge "B" "#" "yB" "connector" "?" (Some "yA") ctype None (Num 0) (Num 0).

Lemma two_built ctype c1 c2 eff : ctype = "gyrator" \/ ctype = "transformer" ->
  (match build_core qinv2 9 (two ctype c1 c2) with
   | Ok c => match c_connectors c with
             | [k] => String.eqb (k_y0 k) "yA" && String.eqb (k_y1 k) "yB"
             | _ => false end
   | _ => false end) = true ->
  eff_labels (analysed 9 (two ctype c1 c2)) = eff ->
  exists c k, build_core qinv2 9 (two ctype c1 c2) = Ok c /\ c_connectors c = [k] /\ conservative_structure (two ctype c1 c2) c eff /\
    forall r v f, transformer r k (received eff v f) (given eff v f) <->
      (if String.eqb ctype "gyrator" then gyrator_law else transformer_law)
        (Q2R 2) (existsb (String.eqb "yA") eff) (v "yA") (f "yA") (v "yB") (f "yB").
Proof.
  intros Hc Hb <-. destruct (build_core qinv2 9 (two ctype c1 c2)) as [c|] eqn:E; [|discriminate].
  destruct (c_connectors c) as [|k [|]] eqn:Ek; try discriminate. apply andb_prop in Hb as [Y0 Y1].
  apply String.eqb_eq in Y0. apply String.eqb_eq in Y1.
  exists c, k. split; [reflexivity|]. split; [exact Ek|].
  destruct (two_ok ctype c1 c2 Hc) as (H1 & H2 & H3 & H4 & H5).
  destruct (build_at qinv2 9 _ c H1 H2 H3 qinv2_correct E) as (_ & _ & R3 & _ & _ & _ & R7).
  split; [exact R3|]. intros r v f. specialize (R7 H4 H5 (end_A ctype) (end_B ctype) (Num 2) k).
  cbn [eval] in R7. apply R7; try reflexivity; try assumption.
  - cbn. tauto.
  - cbn. tauto.
  - unfold mates; cbn. repeat split. discriminate.
  - rewrite Ek. now left.
Qed.

(** Values on the edges, by label. *)
Definition vals (a b c d : R) (l : string) : R :=
  if String.eqb l "y1" then a else if String.eqb l "yA" then b else if String.eqb l "yB" then c else d.

Lemma two_laws ctype c1 c2 eA fA eB fB :
  node_law (two ctype c1 c2) (vals fA fA fB (- fB)) /\ loop_law (two ctype c1 c2) (vals (- eA) eA eB eB).
Proof.
  split.
  - intros n Hn. cbn in Hn. destruct Hn as [<-|[<-|[<-|[]]]]; unfold two, lsum, out_of, vals; cbn; lra.
  - exists (fun n => if String.eqb n "A" then eA else if String.eqb n "B" then eB else 0%R).
    intros e He. cbn in He. destruct He as [<-|[<-|[<-|[<-|[]]]]]; unfold vals; cbn; lra.
Qed.

(** The documented laws fail for a gyrator that is effort-controlled and for a
    transformer whose first edge is flux-controlled. *)
Definition documented (ctype : string) (al eA fA eB fB : R) : Prop :=
  if String.eqb ctype "gyrator" then (eA = - (al * fB) /\ eB = al * fA)%R else (fA = - (al * fB) /\ eB = al * eA)%R.

Lemma documented_gyrator_fails : exists c eff k v f, build_core qinv2 9 (two "gyrator" "f" "f") = Ok c /\
  conservative_structure (two "gyrator" "f" "f") c eff /\ In k (c_connectors c) /\
  node_law (two "gyrator" "f" "f") f /\ loop_law (two "gyrator" "f" "f") v /\
  (forall r, transformer r k (received eff v f) (given eff v f)) /\
  ~ documented "gyrator" 2 (v "yA") (f "yA") (v "yB") (f "yB").
Proof.
  destruct (two_built "gyrator" "f" "f" ["yB"; "yA"]) as (c & k & E & Ek & S & L);
    [now left|vm_compute; reflexivity|vm_compute; reflexivity|].
  exists c, ["yB"; "yA"], k, (vals (- 2) 2 (-2) (-2)), (vals 1 1 1 (- 1)).
  split; [exact E|]. split; [exact S|]. split; [rewrite Ek; now left|].
  destruct (two_laws "gyrator" "f" "f" 2 1 (-2) 1) as [N1 N2]. split; [exact N1|]. split; [exact N2|]. split.
  - intros r. apply L. cbn. unfold Q2R, vals; cbn. lra.
  - unfold documented, vals; cbn. lra.
Qed.

Lemma documented_transformer_fails : exists c eff k v f, build_core qinv2 9 (two "transformer" "e" "f") = Ok c /\
  conservative_structure (two "transformer" "e" "f") c eff /\ In k (c_connectors c) /\
  node_law (two "transformer" "e" "f") f /\ loop_law (two "transformer" "e" "f") v /\
  (forall r, transformer r k (received eff v f) (given eff v f)) /\
  ~ documented "transformer" 2 (v "yA") (f "yA") (v "yB") (f "yB").
Proof.
  destruct (two_built "transformer" "e" "f" ["yB"; "y1"]) as (c & k & E & Ek & S & L);
    [now right|vm_compute; reflexivity|vm_compute; reflexivity|].
  exists c, ["yB"; "y1"], k, (vals 2 (-2) 1 1), (vals 1 1 2 (- 2)).
  split; [exact E|]. split; [exact S|]. split; [rewrite Ek; now left|].
  destruct (two_laws "transformer" "e" "f" (-2) 1 1 2) as [N1 N2].
  replace (- -2)%R with 2%R in N2 by lra. split; [exact N1|]. split; [exact N2|]. split.
  - intros r. apply L. cbn. unfold Q2R, vals; cbn. lra.
  - unfold documented, vals; cbn. lra.
Qed.

Lemma documented_gyrator_refuted : exists inv fuel g c eff k v f,
  graph_ok g /\ typed g /\ NoDup (map e_label (g_edges g)) /\ qinv_correct inv /\ linked (g_edges g) /\ conn_table g /\
  In (end_A "gyrator") (g_edges g) /\ In (end_B "gyrator") (g_edges g) /\
  build_core inv fuel g = Ok c /\ conservative_structure g c eff /\ In k (c_connectors c) /\
  node_law g f /\ loop_law g v /\ (forall r, transformer r k (received eff v f) (given eff v f)) /\
  ~ (v "yA" = - (2 * f "yB") /\ v "yB" = 2 * f "yA")%R.
Proof.
  destruct documented_gyrator_fails as (c & eff & k & v & f & H). destruct (two_ok "gyrator" "f" "f" (or_introl eq_refl)) as (H1 & H2 & H3 & H4 & H5).
  exists qinv2, 9, (two "gyrator" "f" "f"), c, eff, k, v, f.
  split; [exact H1|]. split; [exact H2|]. split; [exact H3|]. split; [exact qinv2_correct|]. split; [exact H4|]. split; [exact H5|].
  split; [right; left; reflexivity|]. split; [right; right; left; reflexivity|]. exact H.
Qed.

Lemma documented_transformer_refuted : exists inv fuel g c eff k v f,
  graph_ok g /\ typed g /\ NoDup (map e_label (g_edges g)) /\ qinv_correct inv /\ linked (g_edges g) /\ conn_table g /\
  In (end_A "transformer") (g_edges g) /\ In (end_B "transformer") (g_edges g) /\
  build_core inv fuel g = Ok c /\ conservative_structure g c eff /\ In k (c_connectors c) /\
  node_law g f /\ loop_law g v /\ (forall r, transformer r k (received eff v f) (given eff v f)) /\
  ~ (f "yA" = - (2 * f "yB") /\ v "yB" = 2 * v "yA")%R.
Proof.
  destruct documented_transformer_fails as (c & eff & k & v & f & H). destruct (two_ok "transformer" "e" "f" (or_intror eq_refl)) as (H1 & H2 & H3 & H4 & H5).
  exists qinv2, 9, (two "transformer" "e" "f"), c, eff, k, v, f.
  split; [exact H1|]. split; [exact H2|]. split; [exact H3|]. split; [exact qinv2_correct|]. split; [exact H4|]. split; [exact H5|].
  split; [right; left; reflexivity|]. split; [right; right; left; reflexivity|]. exact H.
Qed.

Lemma analysis_diverges : exists g, graph_ok g /\ typed g /\ NoDup (map e_label (g_edges g)) /\
  forall inv fuel, build_core inv fuel g = Err OutOfFuel.
Proof.
  exists loop_graph. destruct loop_ok as (H1 & H2 & H3). split; [exact H1|]. split; [exact H2|]. split; [exact H3|].
  exact loop_diverges.
Qed.
