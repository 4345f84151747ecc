(** Every state of the analysis is sound: C25; what stops it: C46. *)
From Coq Require Import String List ZArith QArith Bool Lia Permutation.
From Verif Require Import Py Tools Lists Expr Mat Core Graph Spec_Graph GraphProofs GraphAnalysis GraphDeclared.
Import ListNotations.
Local Open Scope string_scope.
Local Open Scope list_scope.
Local Open Scope nat_scope.

Section Reach.
  Variable g : graph.

  Lemma bind_inv s r f : good g s r -> (forall s', fst r = s' -> inv g [] s' -> ne s' = ne s -> inv g [] (fst (f s'))) -> inv g [] (fst (abind r f)).
  Proof.
    intros G Hf. destruct r as [s' [e|]]; [exact (g_inv _ _ _ G)|]. cbn [abind].
    apply Hf; [reflexivity|exact (g_inv _ _ _ G)|exact (g_ne _ _ _ G)].
  Qed.

  Lemma nodes_any : forall fuel i s, inv g [] s -> inv g [] (fst (iterate_nodes_loop fuel i s)).
  Proof.
    induction fuel as [|fuel IH]; intros i s H; cbn [iterate_nodes_loop].
    - destruct (Nat.ltb i (length (a_icn s))); exact H.
    - destruct (Nat.ltb_spec i (length (a_icn s))) as [Hi|]; [|exact H].
      rewrite py_get_nat. destruct (nth_error (a_icn s) i) as [n|] eqn:Ee; [|apply nth_error_None in Ee; lia].
      cbn [alift]. apply nth_error_In in Ee. destruct (i_icn_lt _ _ _ H n Ee) as [Hn _].
      destruct (Z.eqb (rowsum s n) 0); [exact H|].
      apply (bind_inv s); [|intros s' _ I' _; now apply IH].
      destruct (Z.eqb_spec (rowsum s n) 1) as [H1|]; [|now apply good_ret].
      destruct (row_index_total g [] s n H Hn ltac:(lia)) as [e He]. rewrite He. cbn [alift].
      apply row_index_spec in He as [He EL].
      destruct (py_in Nat.eqb e (a_ec s)); [now apply good_fail|].
      destruct (py_in Nat.eqb n (a_icn s)) eqn:Ei; [|now apply good_ret]. apply in_nat in Ei. now apply set_node_dc_good.
  Qed.

  Lemma ic_any : forall fuel i s, inv g [] s -> inv g [] (fst (iterate_ic_loop fuel i s)).
  Proof.
    induction fuel as [|fuel IH]; intros i s H; cbn [iterate_ic_loop].
    - destruct (Nat.ltb i (length (a_ic s))); exact H.
    - destruct (Nat.ltb_spec i (length (a_ic s))) as [Hi|]; [|exact H].
      rewrite py_get_nat. destruct (nth_error (a_ic s) i) as [e|] eqn:Ee; [|apply nth_error_None in Ee; lia].
      cbn [alift]. apply nth_error_In in Ee.
      destruct (Z.eqb (colsum s e) 0); [|now apply IH].
      apply (bind_inv s); [now apply set_edge_ec_good|]. intros s' _ I' _. now apply IH.
  Qed.

  Lemma known_any : forall fuel i s, inv g [] s -> inv g [] (fst (known_edges fuel i s)).
  Proof.
    induction fuel as [|fuel IH]; intros i s H; cbn [known_edges].
    - destruct (Nat.ltb i (length (a_ic s))); exact H.
    - destruct (Nat.ltb_spec i (length (a_ic s))) as [Hi|]; [|exact H].
      rewrite py_get_nat. destruct (nth_error (a_ic s) i) as [e|] eqn:Ee; [|apply nth_error_None in Ee; lia].
      cbn [alift]. apply nth_error_In in Ee. pose proof (ic_lt s e (i_blocks _ _ _ H) Ee) as He.
      destruct (py_get (a_edges s) (Z.of_nat e)) as [d|]; [|exact H]. cbn [alift].
      destruct (String.eqb (e_ctrl d) "e").
      { apply (bind_inv s); [now apply set_edge_ec_good|]. intros s' _ I' _. now apply IH. }
      destruct (String.eqb (e_ctrl d) "f"); [|now apply IH].
      destruct (Z.eqb_spec (colsum s e) 1) as [H1|].
      + destruct (col_index_total g [] s e H He ltac:(lia)) as [n En]. rewrite En. cbn [alift].
        apply col_index_spec in En as [Hn EL].
        apply (bind_inv s); [|intros s' _ I' _; now apply IH].
        destruct (py_in Nat.eqb n (a_icn s)) eqn:Ei; [|now apply good_ret]. apply in_nat in Ei. now apply set_node_dc_good.
      + apply (bind_inv s); [now apply set_edge_fc_good|]. intros s' _ I' _. now apply IH.
  Qed.

  Lemma firstn_in {A} k (l : list A) x : In x (firstn k l) -> In x l.
  Proof. intros H. rewrite <- (firstn_skipn k l). apply in_or_app. now left. Qed.

  Lemma fc_any k s : inv g [] s -> inv g [] (fst (iterate_fc_loop (firstn k (a_fc s)) s)).
  Proof.
    intros H. apply (iterate_fc_good g (firstn k (a_fc s)) s H).
    intros e He. apply firstn_in in He. apply (class_lt s (i_blocks _ _ _ H)). tauto.
  Qed.

  Lemma reachable_inv s : graph_ok g -> reachable g s -> inv g [] s.
  Proof.
    intros Hg. induction 1 as [s Hs|fuel i s _ IH|fuel i s _ IH|k s _ IH|fuel i s _ IH|s _ IH].
    - destruct (start_inv g Hg) as (s0 & E & H & _). rewrite E in Hs. injection Hs as <-. exact H.
    - now apply known_any.
    - now apply nodes_any.
    - now apply fc_any.
    - now apply ic_any.
    - now apply unlock_inv.
  Qed.

  Lemma reachable_sound s : graph_ok g -> reachable g s -> sound g s.
  Proof. intros Hg R. apply (inv_sound g []). now apply reachable_inv. Qed.

  (** The program only visits such states. *)
  Lemma iteration_reach : forall fuel temp s, reachable g s -> reachable g (fst (iteration_loop fuel temp s)).
  Proof.
    induction fuel as [|fuel IH]; intros temp s R; cbn [iteration_loop]; destruct (isequal _ _ _ _); try exact R. cbn zeta.
    pose proof (r_nodes g (length (a_icn s)) 0 s R) as R1. fold (iterate_nodes s) in R1.
    destruct (iterate_nodes s) as [s1 [e1|]]; [exact R1|]. cbn [abind fst] in *.
    pose proof (r_fc g (length (a_fc s1)) s1 R1) as R2. rewrite firstn_all in R2. fold (iterate_fc s1) in R2.
    destruct (iterate_fc s1) as [s2 [e2|]]; [exact R2|]. cbn [abind fst] in *.
    pose proof (r_ic g (length (a_ic s2)) 0 s2 R2) as R3. fold (iterate_ic s2) in R3.
    destruct (iterate_ic s2) as [s3 [e3|]]; [exact R3|]. cbn [abind fst] in *. now apply IH.
  Qed.

  Lemma perform_reach : forall fuel s, reachable g s -> reachable g (fst (perform_loop fuel s)).
  Proof.
    induction fuel as [|fuel IH]; intros s R; cbn [perform_loop]; destruct (pending s); try exact R.
    pose proof (iteration_reach (S fuel) (fun _ _ => 1%Z) s R) as R1. unfold iteration.
    destruct (iteration_loop (S fuel) (fun _ _ => 1%Z) s) as [s1 [e1|]]; [exact R1|]. cbn [abind fst] in *.
    destruct (pending s1).
    - pose proof (r_unlock g s1 R1) as R2. destruct (unlock s1) as [s2 [e2|]]; [exact R2|]. cbn [abind fst] in *. now apply IH.
    - cbn [abind ret]. now apply IH.
  Qed.

  Lemma init_reach : graph_ok g -> reachable g (fst (init_analysis g)).
  Proof.
    intros Hg. unfold init_analysis. destruct (start_inv g Hg) as (s & E & _). rewrite E. cbn [abind ret].
    apply r_known. now apply r_start.
  Qed.

  Lemma analysis_reachable fuel : graph_ok g ->
    reachable g (fst (init_analysis g)) /\ reachable g (fst (perform_loop fuel (fst (init_analysis g)))).
  Proof. intros Hg. split; [now apply init_reach|]. now apply perform_reach, init_reach. Qed.

  (** Reading the declared controls and one iteration stop. *)
  Lemma analysis_stops : graph_ok g -> snd (init_analysis g) <> Some OutOfFuel /\
    forall s fuel, reachable g s -> length (a_ic s) + length (a_icn s) < fuel ->
      snd (iteration fuel s) <> Some OutOfFuel /\ snd (unlock s) <> Some OutOfFuel.
  Proof.
    intros Hg. split; [now apply init_inv|]. intros s fuel R Hf. pose proof (reachable_inv s Hg R) as I. split.
    - exact (g_fuel _ _ _ (iteration_good g fuel (fun _ _ => 1%Z) s I (or_intror Hf))).
    - now apply (unlock_inv g).
  Qed.
End Reach.
