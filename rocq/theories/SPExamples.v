(** A concrete enumeration, a circuit that meets the hypotheses, and circuits on
    which the splitting fails. *)
From Coq Require Import Ascii String List Bool Arith Permutation Lia.
From Verif Require Import Py Graph SP Spec_SP SPBase SPAssemble.
Import ListNotations.
Local Open Scope string_scope.
Local Open Scope list_scope.
Local Open Scope nat_scope.

Definition std_order : order := mkOrder
  (fun es => nodup string_dec (flat_map (fun e => [src e; dst e]) es))
  (fun es => es)
  (fun es n => nodup string_dec (flat_map (fun e =>
     if String.eqb (src e) n then [dst e] else if String.eqb (dst e) n then [src e] else []) es)).

Lemma std_enumerates : enumerates std_order.
Proof.
  intros es. cbn. split; [split|split].
  - apply NoDup_nodup.
  - intros n. rewrite nodup_In, in_flat_map. split.
    + intros (e & He & [H|[H|[]]]); exists e; auto.
    + intros (e & He & H). exists e. split; [exact He|]. cbn. tauto.
  - reflexivity.
  - intros n. split; [apply NoDup_nodup|]. intros m. rewrite nodup_In, in_flat_map. split.
    + intros (e & He & H). exists e. split; [exact He|].
      destruct (String.eqb_spec (src e) n) as [X|X].
      * destruct H as [H|[]]. left. auto.
      * destruct (String.eqb_spec (dst e) n) as [Y|Y]; [|destruct H]. destruct H as [H|[]]. right. auto.
    + intros (e & He & H). exists e. split; [exact He|].
      destruct (String.eqb_spec (src e) n) as [X|X].
      * destruct H as [[H1 H2]|[H1 H2]]; left; congruence.
      * destruct H as [[H1 H2]|[H1 H2]]; [congruence|].
        destruct (String.eqb_spec (dst e) n) as [Y|Y]; [left; exact H1 | congruence].
Qed.

(** A source that feeds a capacitor through two resistors in series bypassed by
    a third one. *)
Definition demo : list spedge :=
  [ Edge "#" "A" "port" "y" []; Edge "A" "D" "dissipative" "wR1" [];
    Edge "D" "B" "dissipative" "wR2" []; Edge "A" "B" "dissipative" "wR3" [];
    Edge "B" "#" "storage" "xC" [] ].

Lemma label_head : forall n, exists r1 r2, serial_label n = String "s"%char r1 /\ parallel_label n = String "p"%char r2.
Proof. intros n. unfold serial_label, parallel_label. cbn. eauto. Qed.

Lemma circuit_forall : forall es,
  forallb (fun e => negb (String.eqb (src e) (dst e)) && negb (String.eqb (type e) "graph") &&
     negb (contains "_out_" (label e)) &&
     match label e with EmptyString => true | String c _ => negb (Ascii.eqb c "s"%char) && negb (Ascii.eqb c "p"%char) end) es = true ->
  circuit es.
Proof.
  intros es H e He. rewrite forallb_forall in H. specialize (H e He).
  rewrite !andb_true_iff, !negb_true_iff in H. destruct H as [[[H1 H2] H3] H4].
  apply String.eqb_neq in H1, H2. repeat split; auto;
    destruct (label_head n) as (r1 & r2 & E1 & E2); intros X; rewrite X in H4;
    rewrite ?E1, ?E2 in H4; cbn in H4; discriminate.
Qed.

Lemma demo_circuit : circuit demo.
Proof. apply circuit_forall. reflexivity. Qed.

Lemma link : forall es a b e, In e es -> joins a b e -> linked es a b.
Proof. intros. exists e. auto. Qed.

Lemma demo_anchored : anchored demo.
Proof.
  assert (LA : linked demo "A" "#") by (exists (Edge "#" "A" "port" "y" []); split; [left; reflexivity | right; split; reflexivity]).
  assert (LB : linked demo "B" "#") by (exists (Edge "B" "#" "storage" "xC" []); split; [cbn; tauto | left; split; reflexivity]).
  assert (LDA : linked demo "D" "A") by (exists (Edge "A" "D" "dissipative" "wR1" []); split; [cbn; tauto | right; split; reflexivity]).
  assert (LDB : linked demo "D" "B") by (exists (Edge "D" "B" "dissipative" "wR2" []); split; [cbn; tauto | left; split; reflexivity]).
  intros N v HN Hv (e & He & H).
  assert (RD : route demo N "#") by (constructor; exact HN).
  assert (RA : N <> "A" -> route demo N "A").
  { intros X. apply (route_step demo N "A" "#"); auto. }
  assert (RB : N <> "B" -> route demo N "B").
  { intros X. apply (route_step demo N "B" "#"); auto. }
  assert (RE : N <> "D" -> route demo N "D").
  { intros X. destruct (string_dec N "A") as [Y|Y].
    - apply (route_step demo N "D" "B"); auto. apply RB. subst N. discriminate.
    - apply (route_step demo N "D" "A"); auto. }
  cbn [demo In] in He.
  repeat (destruct He as [He|He]; [subst e; cbn in H; destruct H as [H|H]; subst v; auto|]). destruct He.
Qed.

(** Three nested groups come out, and the five components come back. *)
Fixpoint shape (e : spedge) : string :=
  match e with Edge _ _ _ l s => l ++ "(" ++ String.concat " " (map shape s) ++ ")" end.
Lemma demo_split : exists g, sp_split 6 std_order (mkSP demo 0 0) = Ok g /\
  map shape (sp_edges g) =
    ["xC()"; "serial2(y() parallel2(wR3() serial1(wR1() wR2() serial1_out_A() serial1_out_B()) parallel2_out_A() parallel2_out_B()) serial2_out_B())"] /\
  exists g', sp_assemble std_order g = Ok g' /\
    map label (sp_edges g') = ["xC"; "y"; "wR3"; "wR1"; "wR2"].
Proof.
  eexists. split; [vm_compute; reflexivity|]. split; [vm_compute; reflexivity|].
  eexists. split; vm_compute; reflexivity.
Qed.

(** ** A label that contains "_out_" *)
Definition amp : list spedge :=
  [ Edge "#" "A" "port" "u" []; Edge "A" "#" "dissipative" "w_out_1" [] ].
Lemma amp_anchored : anchored amp.
Proof.
  assert (LA : linked amp "A" "#") by (exists (Edge "#" "A" "port" "u" []); split; [left; reflexivity | right; split; reflexivity]).
  intros N v HN Hv (e & He & H).
  assert (X : v = "#" \/ linked amp v "#").
  { cbn [amp In] in He.
    repeat (destruct He as [He|He]; [subst e; cbn in H; destruct H as [H|H]; subst v; auto|]). destruct He. }
  destruct X as [X|X].
  - subst v. constructor. exact HN.
  - apply (route_step amp N v "#"); auto. constructor. exact HN.
Qed.
Lemma amp_lost : exists g, sp_split 3 std_order (mkSP amp 0 0) = Ok g /\
  exists g', sp_assemble std_order g = Ok g' /\ sp_edges g' = [Edge "#" "A" "port" "u" []].
Proof. eexists. split; [vm_compute; reflexivity|]. eexists. split; vm_compute; reflexivity. Qed.

(** ** A loop hung on a node: the splitting never ends *)
Definition hung : list spedge :=
  [ Edge "#" "A" "port" "y" []; Edge "A" "#" "dissipative" "wR" [];
    Edge "A" "P" "connector" "cT" []; Edge "P" "Q" "dissipative" "wL" []; Edge "Q" "A" "storage" "xC" [] ].
Lemma hung_circuit : circuit hung.
Proof. apply circuit_forall. reflexivity. Qed.

Definition knot (es : list spedge) : Prop := exists l1 s1 l2 s2,
  es = [Edge "A" "A" "graph" l1 s1; Edge "#" "A" "graph" l2 s2] \/
  es = [Edge "#" "A" "graph" l2 s2; Edge "A" "A" "graph" l1 s1].

Lemma knot_pass : forall g, knot (sp_edges g) -> exists g1, split_parallel std_order g = Ok (g1, true) /\
  knot (sp_edges g1).
Proof.
  intros [es i j] (l1 & s1 & l2 & s2 & [E|E]); cbn [sp_edges] in E; subst es.
  - eexists. split; [cbn; reflexivity|]. cbn. do 4 eexists. right. reflexivity.
  - eexists. split; [cbn; reflexivity|]. cbn. do 4 eexists. left. reflexivity.
Qed.

Lemma knot_serial : forall g, knot (sp_edges g) -> split_serial std_order g = Ok (g, false).
Proof.
  intros [es i j] (l1 & s1 & l2 & s2 & [E|E]); cbn [sp_edges] in E; subst es; reflexivity.
Qed.

Lemma knot_forever : forall k g, knot (sp_edges g) -> sp_split k std_order g = Err OutOfFuel.
Proof.
  intros k. induction k as [|k IH]; intros g Hg; [reflexivity|]. cbn [sp_split].
  destruct (knot_pass g Hg) as (g1 & E1 & H1). rewrite E1. cbn [rbind].
  rewrite (knot_serial g1 H1). cbn [rbind orb]. apply IH. exact H1.
Qed.

Lemma hung_forever : forall k, sp_split k std_order (mkSP hung 0 0) = Err OutOfFuel.
Proof.
  intros [|k]; [reflexivity|]. cbn [sp_split].
  assert (E : exists g1, split_parallel std_order (mkSP hung 0 0) = Ok (g1, true) /\
     exists g2, split_serial std_order g1 = Ok (g2, true) /\ knot (sp_edges g2)).
  { eexists. split; [vm_compute; reflexivity|]. eexists. split; [vm_compute; reflexivity|].
    do 4 eexists. right. reflexivity. }
  destruct E as (g1 & E1 & g2 & E2 & H). rewrite E1. cbn [rbind]. rewrite E2. cbn [rbind orb].
  apply knot_forever. exact H.
Qed.

Lemma hung_connected : forall v, is_node hung v -> route hung "" v.
Proof.
  assert (RD : route hung "" "#") by (constructor; discriminate).
  assert (RA : route hung "" "A").
  { apply (route_step _ _ _ "#"); [discriminate| |exact RD].
    exists (Edge "#" "A" "port" "y" []). split; [left; reflexivity | right; split; reflexivity]. }
  assert (RP : route hung "" "P").
  { apply (route_step _ _ _ "A"); [discriminate| |exact RA].
    exists (Edge "A" "P" "connector" "cT" []). split; [cbn; tauto | right; split; reflexivity]. }
  assert (RQ : route hung "" "Q").
  { apply (route_step _ _ _ "A"); [discriminate| |exact RA].
    exists (Edge "Q" "A" "storage" "xC" []). split; [cbn; tauto | left; split; reflexivity]. }
  intros v (e & He & H). cbn [hung In] in He.
  repeat (destruct He as [He|He]; [subst e; cbn in H; destruct H as [H|H]; subst v; auto|]). destruct He.
Qed.

(** ** Two components in parallel that are not grouped *)
Definition pair : list spedge :=
  [ Edge "A" "#" "storage" "xC1" []; Edge "A" "#" "storage" "xC2" [] ].
Lemma pair_circuit : circuit pair.
Proof. apply circuit_forall. reflexivity. Qed.
Lemma pair_anchored : anchored pair.
Proof.
  assert (LA : linked pair "A" "#") by (exists (Edge "A" "#" "storage" "xC1" []); split; [left; reflexivity | left; split; reflexivity]).
  intros N v HN Hv (e & He & H).
  assert (X : v = "#" \/ linked pair v "#").
  { cbn [pair In] in He.
    repeat (destruct He as [He|He]; [subst e; cbn in H; destruct H as [H|H]; subst v; auto|]). destruct He. }
  destruct X as [X|X].
  - subst v. constructor. exact HN.
  - apply (route_step pair N v "#"); auto. constructor. exact HN.
Qed.
Lemma pair_kept : sp_split 3 std_order (mkSP pair 0 0) = Ok (mkSP pair 0 0).
Proof. reflexivity. Qed.

Lemma amp_refutes : exists es g g', anchored es /\
  sp_split (S (length es)) std_order (mkSP es 0 0) = Ok g /\ sp_assemble std_order g = Ok g' /\
  In (Edge "A" "#" "dissipative" "w_out_1" []) es /\ ~ In (Edge "A" "#" "dissipative" "w_out_1" []) (sp_edges g').
Proof.
  destruct amp_lost as (g & E & g' & E' & H). exists amp, g, g'.
  split; [exact amp_anchored|]. split; [exact E|]. split; [exact E'|]. split; [right; left; reflexivity|].
  rewrite H. intros [X|[]]. discriminate.
Qed.

Lemma pair_refutes : exists es e e', circuit es /\ anchored es /\ es = [e; e'] /\
  joins "A" "#" e /\ joins "A" "#" e' /\
  sp_split (S (length es)) std_order (mkSP es 0 0) = Ok (mkSP es 0 0).
Proof.
  exists pair, (Edge "A" "#" "storage" "xC1" []), (Edge "A" "#" "storage" "xC2" []).
  split; [exact pair_circuit|]. split; [exact pair_anchored|]. split; [reflexivity|].
  split; [left; split; reflexivity|]. split; [left; split; reflexivity|]. exact pair_kept.
Qed.
