(** Edges keep the control they declare: C46; what the analysis leaves. *)
From Coq Require Import String List ZArith QArith Bool Lia Permutation.
From Verif Require Import Py Tools Lists Spec_Tools ToolsProofs Expr Mat Core StructProofs Graph Spec_Graph GraphProofs GraphAnalysis.
Import ListNotations.
Local Open Scope string_scope.
Local Open Scope list_scope.
Local Open Scope nat_scope.

(** ** A property of the edges and their classes that every step keeps *)
Section Keep.
  Variable g : graph.
  Variable K : ana -> Prop.
  Hypothesis K_frame : forall s s', a_edges s' = a_edges s -> a_ec s' = a_ec s -> a_ic s' = a_ic s -> a_fc s' = a_fc s -> K s -> K s'.
  Hypothesis K_edge : forall c e s, inv g (match c with CE => [] | CF => [e] end) s -> K s -> In e (a_ic s) ->
    K (fst (set_edge (S (length (a_ic s))) c e s)).

  Lemma node_keep n e s : inv g [] s -> In n (a_icn s) -> e < ne s -> a_L s n e = 1%Z -> K s -> K (fst (set_node_dc n e s)).
  Proof.
    intros H Hn He HL HK. unfold set_node_dc. cbn zeta.
    assert (Ein : py_in Nat.eqb n (a_icn (with_L (set_at n e 1%Z (set_row n 0%Z (set_col e 0%Z (a_L s)))) s)) = true)
      by (cbn; now apply in_nat).
    rewrite Ein. cbn [a_icn with_L].
    destruct (remove_nat_total n (a_icn s) Hn) as [l El]. rewrite El. cbn [alift abind ret].
    pose proof (node_dc_inv g n e s l H Hn He HL El) as I1.
    set (s1 := with_icn l _) in *.
    change (with_icn l (mkAna _ _ _ _ _ _ _ _)) with s1.
    assert (K1 : K s1) by (apply (K_frame s); try reflexivity; exact HK).
    clearbody s1.
    destruct (py_in Nat.eqb e (a_ic s1)) eqn:Ei; [|exact K1].
    apply in_nat in Ei. exact (K_edge CF e s1 I1 K1 Ei).
  Qed.

  Lemma bind_keep s r f : good g s r -> K (fst r) -> (forall s', fst r = s' -> inv g [] s' -> nn s' = nn s -> ne s' = ne s -> K s' -> K (fst (f s'))) ->
    K (fst (abind r f)).
  Proof.
    intros G HK Hf. destruct r as [s' [e|]]; [exact HK|]. cbn [abind]. apply Hf; [reflexivity|..].
    - exact (g_inv _ _ _ G).
    - exact (g_nn _ _ _ G).
    - exact (g_ne _ _ _ G).
    - exact HK.
  Qed.

  Lemma fc_keep : forall l s, inv g [] s -> (forall e, In e l -> e < ne s) -> K s -> K (fst (iterate_fc_loop l s)).
  Proof.
    induction l as [|e l IH]; intros s H Hl HK; [exact HK|]. cbn [iterate_fc_loop].
    assert (He : e < ne s) by (apply Hl; now left).
    destruct (Z.eqb (colsum s e) 0); [exact HK|].
    set (r := if Z.eqb (colsum s e) 1 then _ else _).
    assert (GK : good g s r /\ K (fst r)).
    { unfold r. destruct (Z.eqb_spec (colsum s e) 1) as [H1|]; [|split; [now apply good_ret|exact HK]].
      destruct (col_index_total g [] s e H He ltac:(lia)) as [n En]. rewrite En. cbn [alift].
      destruct (py_in Nat.eqb n (a_icn s)) eqn:Ei; [|split; [now apply good_ret|exact HK]]. apply in_nat in Ei.
      apply col_index_spec in En as [_ EL]. split; [now apply set_node_dc_good|now apply node_keep]. }
    destruct GK as [G HK1]. apply (bind_keep s); [exact G|exact HK1|].
    intros s' _ I' _ N' K'. apply IH; [exact I'| |exact K']. intros k Hk. rewrite N'. apply Hl. now right.
  Qed.

  Lemma ic_keep : forall fuel i s, inv g [] s -> length (a_ic s) - i <= fuel -> K s -> K (fst (iterate_ic_loop fuel i s)).
  Proof.
    induction fuel as [|fuel IH]; intros i s H Hf HK; cbn [iterate_ic_loop].
    - destruct (Nat.ltb i (length (a_ic s))); exact HK.
    - destruct (Nat.ltb_spec i (length (a_ic s))) as [Hi|]; [|exact HK].
      rewrite py_get_nat. destruct (nth_error (a_ic s) i) as [e|] eqn:Ee; [|apply nth_error_None in Ee; lia].
      cbn [alift]. apply nth_error_In in Ee.
      destruct (Z.eqb (colsum s e) 0); [|apply IH; [exact H|lia|exact HK]].
      destruct (set_edge_ec_good g e s H Ee) as [G1 G2].
      apply (bind_keep s); [exact G1|exact (K_edge CE e s H HK Ee)|]. intros s' <- I' _ _ K'. apply IH; [exact I'|lia|exact K'].
  Qed.

  Lemma nodes_keep : forall fuel i s, inv g [] s -> length (a_icn s) - i <= fuel -> K s -> K (fst (iterate_nodes_loop fuel i s)).
  Proof.
    induction fuel as [|fuel IH]; intros i s H Hf HK; cbn [iterate_nodes_loop].
    - destruct (Nat.ltb i (length (a_icn s))); exact HK.
    - destruct (Nat.ltb_spec i (length (a_icn s))) as [Hi|]; [|exact HK].
      rewrite py_get_nat. destruct (nth_error (a_icn s) i) as [n|] eqn:Ee; [|apply nth_error_None in Ee; lia].
      cbn [alift]. apply nth_error_In in Ee. destruct (i_icn_lt _ _ _ H n Ee) as [Hn _].
      destruct (Z.eqb (rowsum s n) 0); [exact HK|].
      set (r := if Z.eqb (rowsum s n) 1 then _ else _).
      assert (GK : good g s r /\ K (fst r)).
      { unfold r. destruct (Z.eqb_spec (rowsum s n) 1) as [H1|]; [|split; [now apply good_ret|exact HK]].
        destruct (row_index_total g [] s n H Hn ltac:(lia)) as [e He]. rewrite He. cbn [alift].
        apply row_index_spec in He as [He EL].
        destruct (py_in Nat.eqb e (a_ec s)); [split; [now apply good_fail|exact HK]|].
        destruct (py_in Nat.eqb n (a_icn s)) eqn:Ei; [|split; [now apply good_ret|exact HK]]. apply in_nat in Ei.
        split; [now apply set_node_dc_good|now apply node_keep]. }
      destruct GK as [G HK1]. apply (bind_keep s); [exact G|exact HK1|]. intros s' Hs' I' _ _ K'. apply IH; [exact I'| |exact K'].
      pose proof (g_icn _ _ _ G) as Hg. rewrite Hs' in Hg. lia.
  Qed.

  Lemma iteration_keep : forall fuel temp s, inv g [] s -> K s -> K (fst (iteration_loop fuel temp s)).
  Proof.
    induction fuel as [|fuel IH]; intros temp s H HK; cbn [iteration_loop]; destruct (isequal _ _ _ _); try exact HK.
    cbn zeta.
    assert (P1 : good g s (iterate_nodes s)) by (apply iterate_nodes_good; [exact H|lia]).
    apply (bind_keep s); [exact P1|apply nodes_keep; [exact H|lia|exact HK]|]. intros s1 _ I1 _ _ K1.
    assert (Hfc : forall e, In e (a_fc s1) -> e < ne s1) by (intros e He; apply (class_lt s1 (i_blocks _ _ _ I1)); tauto).
    apply (bind_keep s1); [now apply iterate_fc_good|now apply fc_keep|]. intros s2 _ I2 _ _ K2.
    apply (bind_keep s2); [apply iterate_ic_good; [exact I2|lia]|apply ic_keep; [exact I2|lia|exact K2]|].
    intros s3 _ I3 _ _ K3. now apply IH.
  Qed.

  Lemma unlock_keep s : K s -> K (fst (unlock s)).
  Proof.
    intros HK. unfold unlock. destruct (unlock_ic _ s) as [[[n j]|]|]; cbn [alift fst ret]; [|destruct (py_get (a_ic s) 0) as [ic0|]; cbn [alift fst]|exact HK].
    - now apply (K_frame s).
    - destruct (unlock_icfc ic0 _ s) as [[[n j]|]|]; cbn [alift fst ret fail]; [now apply (K_frame s)|exact HK|exact HK].
    - exact HK.
  Qed.

  Lemma perform_keep : forall fuel s, inv g [] s -> K s -> K (fst (perform_loop fuel s)).
  Proof.
    induction fuel as [|fuel IH]; intros s H HK; cbn [perform_loop]; destruct (pending s); try exact HK.
    pose proof (iteration_inv g (S fuel) (fun _ _ => 1%Z) s H) as I1.
    pose proof (iteration_keep (S fuel) (fun _ _ => 1%Z) s H HK) as K1. unfold iteration.
    destruct (iteration_loop (S fuel) (fun _ _ => 1%Z) s) as [s1 [e1|]]; [exact K1|]. cbn [abind fst] in *.
    destruct (pending s1).
    - destruct (unlock_inv g s1 I1) as [I2 _]. pose proof (unlock_keep s1 K1) as K2.
      destruct (unlock s1) as [s2 [e2|]]; [exact K2|]. cbn [abind fst] in *. now apply IH.
    - cbn [abind ret]. now apply IH.
  Qed.
End Keep.

(** ** Declared controls *)
Definition respects (s : ana) : Prop :=
  free_links (a_edges s) /\
  (forall j d, In j (a_ec s) -> nth_error (a_edges s) j = Some d -> e_ctrl d <> "f") /\
  (forall j d, In j (a_fc s) -> nth_error (a_edges s) j = Some d -> e_ctrl d <> "e").
Definition settled (s : ana) : Prop :=
  respects s /\ forall j d, In j (a_ic s) -> nth_error (a_edges s) j = Some d -> undeclared d.

Lemma free_links_perm l l' : Permutation (map (set_alpha None) l) (map (set_alpha None) l') -> free_links l -> free_links l'.
Proof.
  intros P F e He. assert (Hin : In (set_alpha None e) (map (set_alpha None) l)).
  { eapply Permutation_in; [apply Permutation_sym, P|now apply in_map]. }
  apply in_map_iff in Hin as (d & Ed & Hd). specialize (F d Hd).
  assert (E1 : e_type d = e_type e) by (apply (f_equal e_type) in Ed; exact Ed).
  assert (E2 : e_link d = e_link e) by (apply (f_equal e_link) in Ed; exact Ed).
  assert (E3 : e_ctrl d = e_ctrl e) by (apply (f_equal e_ctrl) in Ed; exact Ed).
  unfold undeclared in *. now rewrite E1, E2, E3 in F.
Qed.

Lemma moved_nth {A} i f (l l' : list A) k a : moved i f l l' -> nth_error l' k = Some a ->
  k < length l /\ nth_error l (shift i f k) = Some a.
Proof.
  intros [L H] E. rewrite H in E. destruct (Nat.ltb_spec k (length l)); [now split|discriminate].
Qed.

(** One move keeps it. *)
Lemma to_ec_respects g e s s' d : inv g [] s -> In e (a_ic s) -> moved_edges e 0 s s' ->
  nth_error (a_edges s) e = Some d -> e_ctrl d <> "f" -> respects s ->
  respects (with_L (set_col 0 0%Z (a_L (ec_lists s'))) (ec_lists s')) /\
  (settled s -> settled (with_L (set_col 0 0%Z (a_L (ec_lists s'))) (ec_lists s'))).
Proof.
  intros H He M Hd Hc (R1 & R2 & R3).
  destruct (blocks_ic s e (i_blocks _ _ _ H) He) as (a & b & c & E1 & E2 & E3 & N & Ha).
  assert (Hl : e < ne s) by lia. assert (H0 : 0 < ne s) by lia.
  destruct M as (HN & HM & HG & HLm & HI & F1 & F2 & F3).
  assert (Ne : ne s' = ne s) by (unfold ne; exact (proj1 HM)).
  rewrite (ec_lists_blocks s' a b c) by congruence.
  unfold with_classes, with_L, settled, respects; cbn [a_nodes a_edges a_G a_L a_icn a_ec a_ic a_fc].
  assert (Fr : free_links (a_edges s')).
  { eapply free_links_perm; [|exact R1]. apply Permutation_map. exact (moved_perm e 0 _ _ Hl H0 HM). }
  assert (Q : free_links (a_edges s') /\
    (forall j d, In j (seq 0 (S a)) -> nth_error (a_edges s') j = Some d -> e_ctrl d <> "f") /\
    (forall j d, In j (seq (S a + b) c) -> nth_error (a_edges s') j = Some d -> e_ctrl d <> "e")).
  { split; [exact Fr|]. split.
    - intros j x Hj Hx. apply in_seq in Hj. apply (moved_nth e 0 _ _ j x HM) in Hx as [_ Hx].
      destruct (Nat.eq_dec j 0) as [->|Hj0].
      + replace (shift e 0 0) with e in Hx by (unfold shift; natcase; lia). congruence.
      + apply (R2 (shift e 0 j)); [|exact Hx]. rewrite E1. apply in_seq. unfold shift; natcase; lia.
    - intros j x Hj Hx. apply in_seq in Hj. apply (moved_nth e 0 _ _ j x HM) in Hx as [_ Hx].
      apply (R3 (shift e 0 j)); [|exact Hx]. rewrite E3. apply in_seq. unfold shift; natcase; lia. }
  split; [exact Q|]. intros [_ S2]. split; [exact Q|].
  intros j x Hj Hx. apply in_seq in Hj. apply (moved_nth e 0 _ _ j x HM) in Hx as [_ Hx].
  apply (S2 (shift e 0 j)); [|exact Hx]. rewrite E2. apply in_seq. unfold shift; natcase; lia.
Qed.

Lemma to_fc_respects g e s s' d : inv g [e] s -> In e (a_ic s) -> moved_edges e (ne s - 1) s s' ->
  nth_error (a_edges s) e = Some d -> e_ctrl d <> "e" -> respects s ->
  respects (fc_lists s') /\ (settled s -> settled (fc_lists s')).
Proof.
  intros H He M Hd Hc (R1 & R2 & R3).
  destruct (blocks_ic s e (i_blocks _ _ _ H) He) as (a & b & c & E1 & E2 & E3 & N & Ha).
  assert (Hl : e < ne s) by lia. assert (H0 : ne s - 1 < ne s) by lia.
  destruct M as (HN & HM & HG & HLm & HI & F1 & F2 & F3).
  assert (Ne : ne s' = ne s) by (unfold ne; exact (proj1 HM)).
  rewrite (fc_lists_blocks s' a b c) by congruence.
  unfold with_classes, settled, respects; cbn [a_nodes a_edges a_G a_L a_icn a_ec a_ic a_fc].
  assert (Fr : free_links (a_edges s')).
  { eapply free_links_perm; [|exact R1]. apply Permutation_map. exact (moved_perm e _ _ _ Hl H0 HM). }
  assert (Q : free_links (a_edges s') /\
    (forall j d, In j (seq 0 a) -> nth_error (a_edges s') j = Some d -> e_ctrl d <> "f") /\
    (forall j d, In j (seq (a + b) (S c)) -> nth_error (a_edges s') j = Some d -> e_ctrl d <> "e")).
  { split; [exact Fr|]. split.
    - intros j x Hj Hx. apply in_seq in Hj. apply (moved_nth e _ _ _ j x HM) in Hx as [_ Hx].
      apply (R2 (shift e (ne s - 1) j)); [|exact Hx]. rewrite E1. apply in_seq. unfold shift; natcase; lia.
    - intros j x Hj Hx. apply in_seq in Hj. apply (moved_nth e _ _ _ j x HM) in Hx as [Hjl Hx].
      destruct (Nat.eq_dec j (ne s - 1)) as [->|Hj0].
      + replace (shift e (ne s - 1) (ne s - 1)) with e in Hx by (unfold shift; natcase; lia). congruence.
      + apply (R3 (shift e (ne s - 1) j)); [|exact Hx]. rewrite E3. apply in_seq. unfold shift; natcase; lia. }
  split; [exact Q|]. intros [_ S2]. split; [exact Q|].
  intros j x Hj Hx. apply in_seq in Hj. apply (moved_nth e _ _ _ j x HM) in Hx as [_ Hx].
  apply (S2 (shift e (ne s - 1) j)); [|exact Hx]. rewrite E2. apply in_seq. unfold shift; natcase; lia.
Qed.

Lemma inverse_alpha_ctrl e s j d : nth_error (a_edges (inverse_alpha e s)) j = Some d ->
  exists d', nth_error (a_edges s) j = Some d' /\ set_alpha None d = set_alpha None d'.
Proof.
  destruct (inverse_alpha_frame e s) as (_ & _ & _ & _ & _ & _ & _ & _ & F). intros Hd.
  assert (Hd' : nth_error (map (set_alpha None) (a_edges s)) j = Some (set_alpha None d)).
  { rewrite <- F. now rewrite nth_error_map, Hd. }
  rewrite nth_error_map in Hd'. destruct (nth_error (a_edges s) j) as [d'|]; [|discriminate].
  exists d'. split; [reflexivity|]. cbn in Hd'. congruence.
Qed.

Lemma settled_alpha e s : settled s -> settled (inverse_alpha e s).
Proof.
  destruct (inverse_alpha_frame e s) as (_ & _ & _ & _ & _ & F6 & F7 & F8 & F9).
  intros [(R1 & R2 & R3) S]. split; [split; [|split]|].
  - eapply free_links_perm; [|exact R1]. now rewrite F9.
  - intros j d Hj Hd. rewrite F6 in Hj. apply inverse_alpha_ctrl in Hd as (d' & Hd' & E).
    apply (f_equal e_ctrl) in E. cbn in E. rewrite E. now apply (R2 j).
  - intros j d Hj Hd. rewrite F8 in Hj. apply inverse_alpha_ctrl in Hd as (d' & Hd' & E).
    apply (f_equal e_ctrl) in E. cbn in E. rewrite E. now apply (R3 j).
  - intros j d Hj Hd. rewrite F7 in Hj. apply inverse_alpha_ctrl in Hd as (d' & Hd' & E).
    apply (f_equal e_ctrl) in E. cbn in E. unfold undeclared. rewrite E. now apply (S j).
Qed.

Lemma settled_edge g fuel : forall c e s, inv g (match c with CE => [] | CF => [e] end) s -> settled s -> In e (a_ic s) ->
  settled (fst (set_edge fuel c e s)).
Proof.
  induction fuel as [|fuel IH]; intros c e s H HS He; [exact HS|].
  destruct (blocks_ic s e (i_blocks _ _ _ H) He) as (a & b & c' & E1 & E2 & E3 & N & Ha).
  assert (Hl : e < ne s) by lia.
  cbn [set_edge]. rewrite py_get_nat.
  destruct (nth_error (a_edges s) e) as [d|] eqn:Ed; [|exact HS].
  cbn [alift].
  set (f := match c with CE => 0 | CF => ne s - 1 end).
  assert (Hff : f < ne s) by (unfold f; destruct c; lia).
  destruct (move_edge_ok e f s Hl Hff) as (s1 & -> & M). cbn [abind ret].
  set (s2 := match c with CE => let s0 := ec_lists s1 in with_L (set_col 0 0%Z (a_L s0)) s0 | CF => fc_lists s1 end).
  pose proof (proj2 HS e d He Ed) as [Hu1 Hu2].
  assert (KK : inv g [] s2 /\ settled s2).
  { unfold s2, f in *. destruct c.
    - split; [apply (inv_to_ec g e s s1 H He M)|]. now apply (to_ec_respects g e s s1 d H He M Ed Hu2 (proj1 HS)).
    - split; [apply (inv_to_fc g e s s1 H He M)|]. now apply (to_fc_respects g e s s1 d H He M Ed Hu1 (proj1 HS)). }
  destruct KK as [K1 K2]. clearbody s2.
  destruct (py_index String.eqb (e_label d) _) as [ke|]; [|exact K2]. cbn [alift].
  destruct (py_get (a_edges s2) _) as [d'|]; [|exact K2]. cbn [alift].
  destruct (String.eqb (e_type d') "connector"); [|exact K2].
  destruct (py_index _ (Some (e_label d')) _) as [link|]; [|exact K2]. cbn [alift].
  destruct (inverse_alpha_frame ke s2) as (Q1 & Q2 & Q3 & Q4 & Q5 & Q6 & Q7 & Q8 & Q9).
  assert (Rec : forall c0, In link (a_ic s2) -> settled (fst (set_edge fuel c0 link s2))).
  { intros c0 Hli. apply IH; [|exact K2|exact Hli]. destruct c0; [exact K1|now apply inv_x]. }
  destruct (String.eqb (e_ctype d') "gyrator").
  - destruct c.
    + rewrite Q8, Q7. destruct (py_in Nat.eqb link (a_fc s2)); [now apply settled_alpha|].
      destruct (py_in Nat.eqb link (a_ic s2)) eqn:Ei; [|now apply settled_alpha].
      apply IH; [now apply inv_inverse_alpha|now apply settled_alpha|]. rewrite Q7. now apply in_nat.
    + destruct (py_in Nat.eqb link (a_ec s2)); [exact K2|].
      destruct (py_in Nat.eqb link (a_ic s2)) eqn:Ei; [|exact K2]. now apply Rec, in_nat.
  - destruct (String.eqb (e_ctype d') "transformer"); [|exact K2].
    destruct c.
    + destruct (py_in Nat.eqb link (a_ec s2)); [exact K2|].
      destruct (py_in Nat.eqb link (a_ic s2)) eqn:Ei; [|exact K2]. now apply Rec, in_nat.
    + destruct (py_in Nat.eqb link (a_fc s2)); [exact K2|].
      destruct (py_in Nat.eqb link (a_ic s2)) eqn:Ei; [|exact K2]. now apply Rec, in_nat.
Qed.

Lemma settled_frame s s' : a_edges s' = a_edges s -> a_ec s' = a_ec s -> a_ic s' = a_ic s -> a_fc s' = a_fc s -> settled s -> settled s'.
Proof. unfold settled, respects. intros -> -> -> ->. exact (fun H => H). Qed.

Lemma settled_perform g fuel s : inv g [] s -> settled s -> settled (fst (perform_loop fuel s)).
Proof.
  apply (perform_keep g settled settled_frame).
  intros c e s' H HS He. now apply (settled_edge g).
Qed.

(** ** The constructor: the edges before the counter are undeclared *)
Definition before (i : nat) (s : ana) : Prop :=
  respects s /\ forall k j d, k < i -> nth_error (a_ic s) k = Some j -> nth_error (a_edges s) j = Some d -> undeclared d.

Lemma labels_index l k d : NoDup (map e_label l) -> nth_error l k = Some d ->
  py_index String.eqb (e_label d) (map e_label l) = Ok k.
Proof.
  intros N Hd.
  destruct (py_index_total String.eqb (e_label d) (map e_label l)) as (p & Ep & _).
  { exists (e_label d). split; [apply in_map; eapply nth_error_In, Hd|apply String.eqb_refl]. }
  rewrite Ep. f_equal. apply py_index_spec in Ep as (x & Hx & E). apply String.eqb_eq in E. subst x.
  apply (NoDup_nth_error (map e_label l)); [exact N|apply nth_error_Some; congruence|].
  now rewrite Hx, nth_error_map, Hd.
Qed.

Lemma labels_perm g s : same_graph g s -> Permutation (map e_label (g_edges g)) (map e_label (a_edges s)).
Proof.
  intros [_ P]. apply (Permutation_map e_label) in P. rewrite !map_map in P. exact P.
Qed.

Lemma declared_edge g c e d i s : NoDup (map e_label (g_edges g)) ->
  inv g (match c with CE => [] | CF => [e] end) s -> before i s ->
  nth_error (a_ic s) i = Some e -> nth_error (a_edges s) e = Some d ->
  e_ctrl d = (match c with CE => "e" | CF => "f" end) ->
  snd (set_edge (S (length (a_ic s))) c e s) = None ->
  before i (fst (set_edge (S (length (a_ic s))) c e s)).
Proof.
  intros Nl H HB Hi Ed Hc. pose proof (nth_error_In _ _ Hi) as He.
  destruct (blocks_ic s e (i_blocks _ _ _ H) He) as (a & b & c' & E1 & E2 & E3 & N & Ha).
  assert (Hl : e < ne s) by lia.
  assert (Hei : e = a + i). { rewrite E2, nth_error_seq in Hi. destruct (i <? S b); [congruence|discriminate]. }
  cbn [set_edge]. rewrite py_get_nat, Ed. cbn [alift].
  set (f := match c with CE => 0 | CF => ne s - 1 end).
  assert (Hff : f < ne s) by (unfold f; destruct c; lia).
  destruct (move_edge_ok e f s Hl Hff) as (s1 & -> & M). cbn [abind ret].
  set (s2 := match c with CE => let s0 := ec_lists s1 in with_L (set_col 0 0%Z (a_L s0)) s0 | CF => fc_lists s1 end).
  assert (Hconn : e_type d <> "connector").
  { intros F. destruct (proj1 (proj1 HB) d (nth_error_In _ _ Ed) (or_introl F)) as [U1 U2]. destruct c; contradiction. }
  assert (KK : before i s2 /\ a_edges s2 = a_edges s1 /\ nth_error (a_edges s1) f = Some d).
  { destruct M as (HN & HM & HG & HLm & HI & F1 & F2 & F3).
    assert (Ne : ne s1 = ne s) by (unfold ne; exact (proj1 HM)).
    assert (Hfd : nth_error (a_edges s1) f = Some d).
    { rewrite (proj2 HM). unfold ne in Hff. destruct (Nat.ltb_spec f (length (a_edges s))); [|lia].
      replace (shift e f f) with e; [exact Ed|]. unfold shift; natcase; lia. }
    assert (MM : moved_edges e f s s1) by (unfold moved_edges; tauto).
    unfold s2, f in *. destruct c.
    - split; [|split; [unfold ec_lists; destruct (0 <? _)%Z; reflexivity|exact Hfd]].
      split.
      + apply (fun P => proj1 (to_ec_respects g e s s1 d H He MM Ed P (proj1 HB))). rewrite Hc; discriminate.
      + cbn zeta. rewrite (ec_lists_blocks s1 a b c') by congruence.
        unfold with_classes, with_L; cbn [a_ic a_edges].
        intros k j x Hk Hj Hx. rewrite nth_error_seq in Hj. destruct (Nat.ltb_spec k b); [|discriminate]. injection Hj as <-.
        apply (moved_nth e 0 _ _ _ x HM) in Hx as [_ Hx].
        replace (shift e 0 (S (a + k))) with (a + k) in Hx by (unfold shift; natcase; lia).
        apply (proj2 HB k (a + k) x Hk); [|exact Hx]. rewrite E2, nth_error_seq. destruct (Nat.ltb_spec k (S b)); [reflexivity|lia].
    - split; [|split; [reflexivity|exact Hfd]].
      split.
      + apply (fun P => proj1 (to_fc_respects g e s s1 d H He MM Ed P (proj1 HB))). rewrite Hc; discriminate.
      + rewrite (fc_lists_blocks s1 a b c') by congruence.
        unfold with_classes; cbn [a_ic a_edges].
        intros k j x Hk Hj Hx. rewrite nth_error_seq in Hj. destruct (Nat.ltb_spec k b); [|discriminate]. injection Hj as <-.
        apply (moved_nth e _ _ _ _ x HM) in Hx as [_ Hx].
        replace (shift e (ne s - 1) (a + k)) with (a + k) in Hx by (unfold shift; natcase; lia).
        apply (proj2 HB k (a + k) x Hk); [|exact Hx]. rewrite E2, nth_error_seq. destruct (Nat.ltb_spec k (S b)); [reflexivity|lia]. }
  destruct KK as (K1 & K2 & K3). clearbody s2.
  assert (Nl' : NoDup (map e_label (a_edges s2))).
  { rewrite K2. eapply Permutation_NoDup; [|exact Nl]. apply (labels_perm g s1).
    exact (moved_edges_same g e f s s1 Hl Hff M (i_same _ _ _ H)). }
  rewrite <- K2 in K3. rewrite (labels_index _ f d Nl' K3). cbn [alift]. rewrite py_get_nat, K3. cbn [alift].
  destruct (String.eqb_spec (e_type d) "connector"); [contradiction|]. intros _. exact K1.
Qed.

Lemma known_settled g : NoDup (map e_label (g_edges g)) -> forall fuel i s s', inv g [] s -> before i s ->
  length (a_ic s) - i <= fuel -> known_edges fuel i s = ret s' -> settled s'.
Proof.
  intros Nl. induction fuel as [|fuel IH]; intros i s s' H HB Hf; cbn [known_edges].
  - destruct (Nat.ltb_spec i (length (a_ic s))); [lia|]. intros [= <-]. split; [apply HB|].
    intros j d Hj Hd. apply In_nth_error in Hj as [k Hk]. apply (proj2 HB k j d); [|exact Hk|exact Hd].
    assert (k < length (a_ic s)) by (apply nth_error_Some; congruence). lia.
  - destruct (Nat.ltb_spec i (length (a_ic s))) as [Hi|Hi].
    2:{ intros [= <-]. split; [apply HB|]. intros j d Hj Hd. apply In_nth_error in Hj as [k Hk].
        apply (proj2 HB k j d); [|exact Hk|exact Hd]. assert (k < length (a_ic s)) by (apply nth_error_Some; congruence). lia. }
    rewrite py_get_nat. destruct (nth_error (a_ic s) i) as [e|] eqn:Ee; [|apply nth_error_None in Ee; lia].
    cbn [alift]. pose proof (nth_error_In _ _ Ee) as Hin. pose proof (ic_lt s e (i_blocks _ _ _ H) Hin) as He.
    rewrite py_get_nat. destruct (nth_error (a_edges s) e) as [d|] eqn:Ed; [|apply nth_error_None in Ed; unfold ne in He; lia].
    cbn [alift].
    destruct (String.eqb_spec (e_ctrl d) "e") as [Hc|Hce].
    { destruct (set_edge_ec_good g e s H Hin) as [G1 G2]. intros R.
      destruct (snd (set_edge_ec e s)) as [x|] eqn:Es.
      { destruct (set_edge_ec e s) as [s1 [y|]]; cbn in *; discriminate. }
      pose proof (declared_edge g CE e d i s Nl H HB Ee Ed Hc Es) as B'. fold (set_edge_ec e s) in B'.
      destruct (set_edge_ec e s) as [s1 o]. cbn [snd fst] in *. subst o. cbn [abind] in R.
      apply (IH i s1 s'); [exact (g_inv _ _ _ G1)|exact B'|lia|exact R]. }
    destruct (String.eqb_spec (e_ctrl d) "f") as [Hc|Hcf].
    + destruct (Z.eqb_spec (colsum s e) 1) as [H1|].
      * destruct (col_index_total g [] s e H He ltac:(lia)) as [n En]. rewrite En. cbn [alift].
        apply col_index_spec in En as [Hn EL].
        destruct (py_in Nat.eqb n (a_icn s)) eqn:Enn.
        2:{ cbn [abind ret]. intros R. exfalso.
            (* the column of an indeterminate edge has no 1 in a determined row *)
            assert (Hout : ~ In n (a_icn s)) by (intros F; apply in_nat in F; congruence).
            destruct (nth_error (a_nodes s) n) as [k|] eqn:Ek; [|apply nth_error_None in Ek; unfold nn in Hn; lia].
            destruct (string_dec k datum) as [->|Hdat].
            - rewrite (i_datum _ _ _ H n e Ek He) in EL. discriminate.
            - destruct (i_det _ _ _ H n k Ek Hdat Hout) as (q & [Hq|[]] & _ & _ & L2 & _).
              destruct (Nat.eq_dec e q) as [->|Hne].
              + destruct (i_blocks _ _ _ H) as (a & b & c & E1 & E2 & E3 & _). rewrite E2 in Hin. rewrite E3 in Hq.
                apply in_seq in Hin. apply in_seq in Hq. lia.
              + rewrite (L2 e He Hne) in EL. discriminate. }
        apply in_nat in Enn.
        destruct (set_node_dc_good g n e s H Enn He EL) as (G1 & _ & G3). specialize (G3 Hin). intros R.
        assert (Nf : snd (set_node_dc n e s) = None).
        { destruct (set_node_dc n e s) as [s1 [y|]]; cbn in *; [discriminate|reflexivity]. }
        assert (B' : before i (fst (set_node_dc n e s))).
        { revert Nf. unfold set_node_dc. cbn zeta.
          assert (Ein : py_in Nat.eqb n (a_icn (with_L (set_at n e 1%Z (set_row n 0%Z (set_col e 0%Z (a_L s)))) s)) = true)
            by (cbn; now apply in_nat).
          rewrite Ein. cbn [a_icn with_L].
          destruct (remove_nat_total n (a_icn s) Enn) as [l El]. rewrite El. cbn [alift abind ret].
          pose proof (node_dc_inv g n e s l H Enn He EL El) as I1.
          set (s1 := with_icn l _) in *.
          change (with_icn l (mkAna _ _ _ _ _ _ _ _)) with s1.
          assert (Fr : a_edges s1 = a_edges s /\ a_ic s1 = a_ic s /\ a_ec s1 = a_ec s /\ a_fc s1 = a_fc s) by now repeat split.
          destruct Fr as (Fr1 & Fr2 & Fr3 & Fr4).
          assert (B1 : before i s1). { unfold before, respects. rewrite Fr1, Fr2, Fr3, Fr4. exact HB. }
          clearbody s1. rewrite Fr2. rewrite (proj2 (in_nat e (a_ic s)) Hin). unfold set_edge_fc.
          apply (declared_edge g CF e d i s1 Nl I1 B1); [now rewrite Fr2|now rewrite Fr1|exact Hc]. }
        destruct (set_node_dc n e s) as [s1 o]. cbn [snd fst] in *. subst o. cbn [abind] in R.
        apply (IH i s1 s'); [exact (g_inv _ _ _ G1)|exact B'|lia|exact R].
      * destruct (set_edge_fc_good g e s H Hin) as [G1 G2]. intros R.
        destruct (snd (set_edge_fc e s)) as [x|] eqn:Es.
        { destruct (set_edge_fc e s) as [s1 [y|]]; cbn in *; discriminate. }
        pose proof (declared_edge g CF e d i s Nl (inv_x g [e] s H) HB Ee Ed Hc Es) as B'. fold (set_edge_fc e s) in B'.
        destruct (set_edge_fc e s) as [s1 o]. cbn [snd fst] in *. subst o. cbn [abind] in R.
        apply (IH i s1 s'); [exact (g_inv _ _ _ G1)|exact B'|lia|exact R].
    + apply IH; [exact H| |lia]. split; [apply HB|].
      intros k j x Hk Hj Hx. destruct (Nat.eq_dec k i) as [->|Hki]; [|apply (proj2 HB k j x); [lia|exact Hj|exact Hx]].
      rewrite Ee in Hj. injection Hj as <-. rewrite Ed in Hx. injection Hx as <-. now split.
Qed.

Lemma init_settled g s : graph_ok g -> NoDup (map e_label (g_edges g)) -> free_links (g_edges g) ->
  init_analysis g = ret s -> settled s.
Proof.
  intros Hg Nl Fl. unfold init_analysis. destruct (start_inv g Hg) as (s0 & -> & H & E1 & E2 & E3). cbn [abind ret].
  intros R. apply (known_settled g Nl (length (a_ic s0)) 0 s0 s H); [|lia|exact R].
  split; [|intros k j d Hk; lia]. split; [|split].
  - now rewrite E3.
  - rewrite E1. intros j d [].
  - rewrite E2. intros j d [].
Qed.
