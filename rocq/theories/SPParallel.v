(** _split_parallel keeps the components and shortens the graph; sp_split ends. *)
From Coq Require Import String List Bool Arith Permutation Lia.
From Verif Require Import Py Graph SP Spec_SP SPBase SPChain SPStep SPSerial.
Import ListNotations.
Local Open Scope string_scope.
Local Open Scope list_scope.
Local Open Scope nat_scope.

Definition count (es : list spedge) (a b : string) : nat := length (filter (joinsb a b) es).

Lemma count_sym : forall es a b, count es a b = count es b a.
Proof. intros. unfold count. f_equal. apply filter_ext. intros. apply joinsb_sym. Qed.

Lemma same_pair : forall a b p q e, joinsb a b e = true -> joinsb p q e = true ->
  forall x, joinsb a b x = joinsb p q x.
Proof.
  intros a b p q e H1 H2 x. apply joinsb_spec in H1, H2.
  destruct H1 as [[A B]|[A B]], H2 as [[C D]|[C D]]; rewrite A, B in *; subst; auto; apply joinsb_sym.
Qed.

(** The bundle between two nodes is as it was, or is one edge for all of it. *)
Definition bundled (O : order) (es cur : list spedge) (x y : string) : Prop :=
  filter (joinsb x y) cur = filter (joinsb x y) es \/
  exists e G E, getedges O es x y = e :: G /\ filter (joinsb x y) cur = [E] /\
    src E = src e /\ dst E = dst e /\ Permutation (comps E) (all_comps (e :: G)).

Lemma getedges_pair : forall O es a b p q e, enumerates O -> simple es -> joinsb a b e = true -> joinsb p q e = true ->
  getedges O es a b = getedges O es p q.
Proof.
  intros. rewrite !getedges_joins by assumption. apply filter_ext. apply (same_pair a b p q e); assumption.
Qed.

Lemma anchored_links : forall es es', (forall a b, linked es a b <-> linked es' a b) -> anchored es -> anchored es'.
Proof.
  intros es es' H A N v HN Hv Hnode.
  assert (X : is_node es v).
  { destruct (node_linked es' v Hnode) as (m & Hm). apply H in Hm. apply (linked_node _ _ _ Hm). }
  specialize (A N v HN Hv X). clear X Hnode Hv. induction A as [|a b Ha Hl R IH]; [now constructor|].
  apply (route_step es' N a b Ha); [apply H; exact Hl | exact IH].
Qed.

Lemma parallel_step_ok : forall O es es0 g i j x y, enumerates O -> inv es0 (mkSP es i j) ->
  (forall p q, linked es p q <-> linked (sp_edges g) p q) ->
  linked es x y -> 1 < length (getedges O es x y) ->
  inv es0 g -> (forall p q, bundled O es (sp_edges g) p q) ->
  exists g', parallel_step g (getedges O es x y) = Ok g' /\
    inv es0 g' /\ (forall p q, bundled O es (sp_edges g') p q) /\
    (forall p q, linked (sp_edges g) p q <-> linked (sp_edges g') p q) /\
    length (sp_edges g') <= length (sp_edges g) /\
    (sp_edges g = es -> length (sp_edges g') < length (sp_edges g)) /\
    count (sp_edges g') x y <= 1 /\
    forall p q, count (sp_edges g) p q <= 1 -> count (sp_edges g') p q <= 1.
Proof.
  intros O es es0 g i j x y HO Iv0 Hle Hl Hlen Iv Hb.
  pose proof (i_simple _ _ Iv0) as Hs. pose proof (i_grouped _ _ Iv0) as Hgr. pose proof (i_named _ _ Iv0) as Hnm.
  pose proof (i_inner _ _ Iv0) as Hnr. pose proof (i_alone _ _ Iv0) as Hal. cbn [sp_edges] in Hs, Hgr, Hnm, Hnr, Hal.
  destruct (getedges O es x y) as [|e G] eqn:EG; [cbn in Hlen; lia|].
  set (cur := sp_edges g) in *.
  assert (He : In e es /\ joinsb x y e = true).
  { assert (X : In e (filter (joinsb x y) es)).
    { eapply Permutation_in; [apply (getedges_perm O es x y HO Hs)|]. rewrite EG. left. reflexivity. }
    now apply filter_In in X. }
  destruct He as [He Hj].
  set (n1 := src e). set (n2 := dst e).
  assert (Hj' : joinsb n1 n2 e = true) by (apply joinsb_spec; left; split; reflexivity).
  assert (Hsame : forall z, joinsb x y z = joinsb n1 n2 z) by (apply (same_pair x y n1 n2 e); assumption).
  assert (Hfw : existsb (goes n1 n2) cur = true).
  { apply existsb_exists. destruct (Hb x y) as [X|(e' & G' & E & X1 & X2 & X3 & X4 & _)].
    - exists e. split.
      + assert (Y : In e (filter (joinsb x y) cur)) by (rewrite X; apply filter_In; auto).
        apply filter_In in Y. tauto.
      + apply goes_spec. split; reflexivity.
    - rewrite EG in X1. injection X1 as X1 X5. subst e' G'.
      assert (Y : In E (filter (joinsb x y) cur)) by (rewrite X2; left; reflexivity).
      apply filter_In in Y. exists E. split; [tauto|]. apply goes_spec. auto. }
  cbn [parallel_step]. fold n1 n2 cur. rewrite Hfw.
  set (lab := parallel_label (S (sp_idpar g))).
  set (E := Edge n1 n2 "graph" lab ((e :: G) ++ outs lab n1 n2)).
  eexists. split; [reflexivity|].
  set (rest := filter (fun z => negb (joinsb n1 n2 z)) cur).
  assert (Erest : filter (fun z => negb (goes n2 n1 z)) (filter (fun z => negb (goes n1 n2 z)) cur) = rest).
  { unfold rest. rewrite filter_filter. apply filter_ext. intros z. unfold joinsb. rewrite negb_orb. reflexivity. }
  cbn [sp_edges]. rewrite Erest. change (match e with Edge a _ _ _ _ => a end) with n1.
  destruct Iv as [I1 I2 I3 I4 I5 I6 I7]. fold cur in I1, I2, I3, I4, I5, I6, I7.
  assert (P : Permutation cur (filter (joinsb n1 n2) cur ++ rest)) by apply filter_split.
  assert (Efil : filter (joinsb n1 n2) cur = filter (joinsb x y) cur) by (apply filter_ext; intros; symmetry; apply Hsame).
  assert (PG : Permutation (all_comps (filter (joinsb n1 n2) cur)) (all_comps (e :: G))).
  { rewrite Efil. destruct (Hb x y) as [X|(e' & G' & E' & X1 & X2 & _ & _ & X5)].
    - rewrite X. unfold all_comps. apply flat_map_perm. rewrite <- EG. symmetry. apply getedges_perm; assumption.
    - rewrite X2. unfold all_comps at 1. cbn [flat_map]. rewrite app_nil_r. rewrite EG in X1.
      injection X1 as X1 X6. subst e' G'. exact X5. }
  assert (Hcnt : 1 <= length (filter (joinsb n1 n2) cur)).
  { apply existsb_exists in Hfw. destruct Hfw as (z & Hz & Gz).
    assert (Y : In z (filter (joinsb n1 n2) cur)).
    { apply filter_In. split; [exact Hz|]. unfold joinsb. rewrite Gz. reflexivity. }
    destruct (filter (joinsb n1 n2) cur); [destruct Y | cbn; lia]. }
  assert (Gin : forall z, In z (e :: G) -> In z es /\ joinsb n1 n2 z = true).
  { intros z Hz. rewrite <- EG in Hz. apply (Permutation_in _ (getedges_perm O es x y HO Hs)) in Hz.
    apply filter_In in Hz. rewrite <- Hsame. exact Hz. }
  assert (EE : joinsb n1 n2 E = true) by (apply joinsb_spec; left; split; reflexivity).
  assert (Hfilt : forall p q, (forall z, joinsb p q z = joinsb n1 n2 z) /\ filter (joinsb p q) (rest ++ [E]) = [E] \/
             joinsb p q E = false /\ filter (joinsb p q) (rest ++ [E]) = filter (joinsb p q) cur).
  { intros p q. destruct (joinsb p q E) eqn:Ep.
    - left. assert (S' : forall z, joinsb p q z = joinsb n1 n2 z) by (apply (same_pair p q n1 n2 E); assumption).
      split; [exact S'|]. rewrite filter_app. cbn [filter]. rewrite Ep.
      replace (filter (joinsb p q) rest) with (@nil spedge); [reflexivity|].
      unfold rest. rewrite filter_filter. clear - S'. induction cur as [|z l IH]; [reflexivity|].
      cbn. rewrite S'. destruct (joinsb n1 n2 z); exact IH.
    - right. split; [reflexivity|]. rewrite filter_app. cbn [filter]. rewrite Ep, app_nil_r.
      unfold rest. rewrite filter_filter. apply filter_ext. intros z.
      destruct (joinsb p q z) eqn:Ez; [|apply andb_false_r].
      destruct (joinsb n1 n2 z) eqn:En; [|reflexivity]. exfalso.
      rewrite (same_pair p q n1 n2 z Ez En E) in Ep. congruence. }
  assert (Hlk : forall p q, linked cur p q <-> linked (rest ++ [E]) p q).
  { intros p q. rewrite !linked_count. destruct (Hfilt p q) as [[S' F]|[_ F]]; rewrite F; [|reflexivity].
    assert (X : filter (joinsb p q) cur = filter (joinsb n1 n2) cur) by (apply filter_ext; exact S').
    rewrite X. cbn. lia. }
  split; [|split; [|split; [|split; [|split; [|split]]]]].
  - constructor; cbn [sp_edges].
    + intros z Hz. apply in_app_or in Hz. destruct Hz as [Hz|[Hz|[]]].
      * apply I1. unfold rest in Hz. apply filter_In in Hz. tauto.
      * subst z. exact (Hs e He).
    + apply (anchored_links cur); [exact Hlk | exact I2].
    + unfold all_comps. rewrite flat_map_app. cbn [flat_map]. rewrite app_nil_r. unfold E at 1. rewrite comps_group.
      etransitivity; [|exact I3]. unfold all_comps at 2. rewrite (flat_map_perm comps _ _ P), flat_map_app.
      rewrite Permutation_app_comm. apply Permutation_app_tail. symmetry. exact PG.
    + intros z Hz. apply in_app_or in Hz. destruct Hz as [Hz|[Hz|[]]].
      * apply I4. unfold rest in Hz. apply filter_In in Hz. tauto.
      * subst z. apply (grouped_parallel n1 n2 lab (e :: G) (outs lab n1 n2)).
        -- cbn in Hlen. cbn. lia.
        -- intros z Hz. destruct (Gin z Hz) as [Z1 Z2]. split; [apply Hgr; exact Z1 | now apply joinsb_spec].
        -- intros p X. destruct (outs_out lab n1 n2 p X) as (X1 & X2 & _). auto.
    + intros z Hz. rewrite flat_map_app in Hz. apply in_app_or in Hz. destruct Hz as [Hz|Hz].
      * apply I5. eapply flat_map_in_sub; [|exact Hz]. intros w Hw. unfold rest in Hw. apply filter_In in Hw. tauto.
      * cbn [flat_map] in Hz. rewrite app_nil_r in Hz. eapply group_named; [| |exact Hz].
        -- intros w Hw. apply Hnm. eapply flat_map_in_sub; [|exact Hw]. intros v Hv. apply (Gin v Hv).
        -- exists (S (sp_idpar g)). right. reflexivity.
    + intros r c n Hr Hc Tc Tr Hnd.
      assert (Hnd1 : is_node cur n).
      { destruct (node_linked _ _ Hnd) as (m & Hm). apply Hlk in Hm. apply (linked_node _ _ _ Hm). }
      apply in_app_or in Hr. destruct Hr as [Hr|[Hr|[]]].
      * apply (I6 r c n); auto. unfold rest in Hr. apply filter_In in Hr. tauto.
      * subst r. unfold E in Hc. rewrite comps_group in Hc. apply in_flat_map in Hc. destruct Hc as (m & Hm & Hc).
        destruct (Gin m Hm) as [M1 M2]. apply joinsb_spec in M2.
        destruct (touch n m) eqn:Tm.
        -- apply not_touch in Tr. cbn [src dst] in Tr. destruct (joins_ends n1 n2 m M2) as [_ T3].
           destruct (T3 n Tm); tauto.
        -- apply (Hnr m c n M1 Hc Tc Tm). destruct (node_linked _ _ Hnd1) as (w & Hw). apply Hle in Hw.
           apply (linked_node _ _ _ Hw).
    + intros G0 c c' n HG Ht Hc Hc' Tc Tc' TG. rewrite flat_map_app in HG. apply in_app_or in HG. destruct HG as [HG|HG].
      * apply (I7 G0 c c' n); auto. eapply flat_map_in_sub; [|exact HG]. intros w Hw. unfold rest in Hw. apply filter_In in Hw. tauto.
      * cbn [flat_map] in HG. rewrite app_nil_r in HG. apply full_group in HG; [|exact Ht]. destruct HG as [HG|HG].
        -- subst G0. unfold E in Hc |- *. rewrite comps_group in Hc |- *. apply in_flat_map in Hc. destruct Hc as (m & Hm & Hc).
           destruct (Gin m Hm) as [M1 M2]. apply joinsb_spec in M2.
           destruct (touch n m) eqn:Tm.
           ++ exfalso. apply not_touch in TG. cbn [src dst] in TG. destruct (joins_ends n1 n2 m M2) as [_ T3].
              destruct (T3 n Tm); tauto.
           ++ destruct (string_dec (type m) "graph") as [Gm|Gm].
              ** apply in_flat_map. exists m. split; [exact Hm|]. apply (Hal m c c' n); auto.
                 apply in_flat_map. exists m. split; [exact M1 | apply full_self].
              ** exfalso. rewrite (comps_end m c n Gm Hc Tc) in Tm. discriminate.
        -- apply (Hal G0 c c' n); auto. eapply flat_map_in_sub; [|exact HG]. intros w Hw. apply (Gin w Hw).
  - intros p q. destruct (Hfilt p q) as [[S' F]|[_ F]].
    + right. exists e, G, E. split; [|split; [exact F|split; [reflexivity|split; [reflexivity|]]]].
      * rewrite <- EG. symmetry. apply (getedges_pair O es x y p q e); auto. rewrite S'. exact Hj'.
      * unfold E. rewrite comps_group. reflexivity.
    + destruct (Hb p q) as [X|(e' & G' & E' & X1 & X2 & X3)].
      * left. rewrite F. exact X.
      * right. exists e', G', E'. rewrite F. auto.
  - exact Hlk.
  - pose proof (Permutation_length P) as X. rewrite app_length in X. rewrite app_length. cbn [length]. lia.
  - intros Ecur. pose proof (Permutation_length P) as X. rewrite app_length in X. rewrite app_length. cbn [length].
    assert (Y : length (filter (joinsb n1 n2) cur) = length (e :: G)).
    { rewrite Efil, Ecur, <- EG. symmetry. apply Permutation_length. apply getedges_perm; assumption. }
    lia.
  - unfold count. destruct (Hfilt x y) as [[_ F]|[F _]]; [rewrite F; cbn; lia|].
    rewrite Hsame, EE in F. discriminate.
  - intros p q Hc. unfold count in *. destruct (Hfilt p q) as [[_ F]|[_ F]]; rewrite F; [cbn; lia | exact Hc].
Qed.

Lemma parallel_steps_ok : forall O es es0 i j, enumerates O -> inv es0 (mkSP es i j) ->
  forall pe g,
  (forall p q, linked es p q <-> linked (sp_edges g) p q) ->
  (forall G, In G pe -> exists x y, G = getedges O es x y /\ linked es x y /\ 1 < length G) ->
  inv es0 g -> (forall p q, bundled O es (sp_edges g) p q) ->
  exists g', parallel_steps g pe = Ok g' /\ inv es0 g' /\
    (forall p q, linked (sp_edges g) p q <-> linked (sp_edges g') p q) /\
    length (sp_edges g') <= length (sp_edges g) /\
    (sp_edges g = es -> pe <> [] -> length (sp_edges g') < length (sp_edges g)) /\
    (pe = [] -> g' = g) /\
    (forall x y, linked es x y -> In (getedges O es x y) pe -> count (sp_edges g') x y <= 1) /\
    forall p q, count (sp_edges g) p q <= 1 -> count (sp_edges g') p q <= 1.
Proof.
  intros O es es0 i j HO Iv0 pe. pose proof (i_simple _ _ Iv0) as Hs. cbn [sp_edges] in Hs.
  induction pe as [|G pe IH]; intros g Hle Hpe Iv Hb.
  - exists g. split; [reflexivity|]. split; [exact Iv|]. split; [tauto|]. split; [lia|]. split; [congruence|].
    split; [auto|]. split; [intros x y _ []|auto].
  - destruct (Hpe G (or_introl eq_refl)) as (x & y & EG & Hl & HG). subst G.
    destruct (parallel_step_ok O es es0 g i j x y HO Iv0 Hle Hl HG Iv Hb) as (g1 & E1 & Iv1 & Hb1 & L1 & N1 & S1 & C1 & M1).
    destruct (IH g1) as (g2 & E2 & Iv2 & L2 & N2 & _ & _ & C2 & M2); auto.
    { intros p q. rewrite Hle. apply L1. }
    { intros G' H. apply Hpe. right. exact H. }
    cbn [parallel_steps]. rewrite E1. cbn [rbind]. exists g2.
    split; [exact E2|]. split; [exact Iv2|]. split; [|split; [|split; [|split; [|split]]]].
    + intros p q. rewrite L1. apply L2.
    + lia.
    + intros X _. specialize (S1 X). lia.
    + discriminate.
    + intros p q Hpq [X|X]; [|exact (C2 p q Hpq X)].
      apply M2.
      (* same list of edges, hence same pair *)
      assert (Y : exists e, joinsb x y e = true /\ joinsb p q e = true).
      { destruct (getedges O es x y) as [|e l] eqn:Eg; [cbn in HG; lia|]. exists e.
        rewrite getedges_joins in Eg, X by assumption.
        split.
        - assert (Z : In e (filter (joinsb x y) (o_edges O es))) by (rewrite Eg; left; reflexivity).
          apply filter_In in Z. tauto.
        - assert (Z : In e (filter (joinsb p q) (o_edges O es))) by (rewrite <- X; left; reflexivity).
          apply filter_In in Z. tauto. }
      destruct Y as (e & Y1 & Y2). unfold count.
      rewrite (filter_ext _ _ (same_pair p q x y e Y2 Y1)). exact C1.
    + intros p q Hc. apply M2, M1, Hc.
Qed.

Lemma nbrs_same : forall O es es' n, enumerates O -> (forall a b, linked es a b <-> linked es' a b) ->
  length (o_nbrs O es n) = length (o_nbrs O es' n).
Proof.
  intros O es es' n HO H. apply Permutation_length. destruct (HO es) as (_ & _ & H1). destruct (HO es') as (_ & _ & H2).
  destruct (H1 n) as [N1 I1], (H2 n) as [N2 I2]. apply NoDup_Permutation; auto.
  intros m. rewrite I1, I2. apply H.
Qed.

Lemma split_parallel_ok : forall O es0 g, enumerates O -> inv es0 g ->
  exists g' ch, split_parallel O g = Ok (g', ch) /\ inv es0 g' /\
    (forall p q, linked (sp_edges g) p q <-> linked (sp_edges g') p q) /\
    (ch = true -> length (sp_edges g') < length (sp_edges g)) /\
    (ch = false -> g' = g) /\
    (forall u v, u <> datum -> 1 < length (o_nbrs O (sp_edges g') u) -> count (sp_edges g') u v <= 1).
Proof.
  intros O es0 g HO Iv. pose proof (i_simple _ _ Iv) as Hs. unfold split_parallel.
  set (es := sp_edges g) in *.
  assert (Iv0 : inv es0 (mkSP es (sp_idpar g) (sp_idser g))) by (unfold es; destruct g; exact Iv).
  set (pe := parallel_edges O es).
  assert (Hpe : forall G, In G pe <-> exists x y, G = getedges O es x y /\ linked es x y /\ 1 < length G /\
                                        x <> datum /\ 1 < length (o_nbrs O es x)).
  { intros G. unfold pe, parallel_edges. rewrite in_flat_map. destruct (HO es) as ((_ & HN) & _ & HB). split.
    - intros (x & Hx & H). rewrite degree_simple in H by exact Hs.
      destruct (Nat.ltb 1 (length (o_nbrs O es x)) && negb (String.eqb x datum)) eqn:T; [|destruct H].
      apply andb_true_iff in T. destruct T as [T1 T2]. apply Nat.ltb_lt in T1. apply negb_true_iff, String.eqb_neq in T2.
      apply in_flat_map in H. destruct H as (y & Hy & H). cbv zeta in H.
      destruct (Nat.ltb 1 (length (getedges O es x y))) eqn:T3; [|destruct H]. destruct H as [H|[]]. subst G.
      apply Nat.ltb_lt in T3. exists x, y. repeat split; auto. now apply HB.
    - intros (x & y & E & Hl & Hlen & Hd & Hdeg). exists x. split; [apply HN; apply (linked_node _ _ _ Hl)|].
      rewrite degree_simple by exact Hs. apply Nat.ltb_lt in Hdeg. rewrite Hdeg.
      apply String.eqb_neq in Hd. rewrite Hd. cbn [andb negb]. apply in_flat_map. exists y. split; [now apply HB|].
      cbv zeta. rewrite <- E. apply Nat.ltb_lt in Hlen. rewrite Hlen. left. reflexivity. }
  destruct (parallel_steps_ok O es es0 (sp_idpar g) (sp_idser g) HO Iv0 pe g) as (g' & E & Iv' & L & N & S' & Z & C & M).
  - intros p q. reflexivity.
  - intros G H. apply Hpe in H. destruct H as (x & y & H1 & H2 & H3 & _). eauto.
  - exact Iv.
  - intros p q. left. reflexivity.
  - rewrite E. cbn [rbind]. exists g', (negb (Nat.eqb (length pe) 0)). split; [reflexivity|]. split; [exact Iv'|].
    split; [exact L|]. split; [|split].
    + intros X. apply S'; [reflexivity|]. destruct pe; discriminate.
    + intros X. apply Z. destruct pe; [reflexivity | discriminate].
    + intros u v Hd Hdeg.
      rewrite <- (nbrs_same O es (sp_edges g') u HO L) in Hdeg.
      destruct (le_lt_dec (count es u v) 1) as [X|X]; [exact (M u v X)|].
      assert (Hl : linked es u v) by (apply linked_count; unfold count in X; lia).
      apply C; [exact Hl|]. apply Hpe. exists u, v. repeat split; auto.
      rewrite (Permutation_length (getedges_perm O es u v HO Hs)). exact X.
Qed.

(** ** The loop *)
Lemma irreducible_ok : forall O es, enumerates O -> simple es -> (forall n, ~ mid O es n) ->
  (forall u v, u <> datum -> 1 < length (o_nbrs O es u) -> count es u v <= 1) -> irreducible es.
Proof.
  intros O es HO Hs Hm Hc. destruct (HO es) as (_ & _ & HB). split.
  - intros n Hd (a & b & Hab & Ha & Hb & Hall). apply (Hm n). split; [exact Hd|].
    destruct (HB n) as [ND HI].
    assert (P : Permutation (o_nbrs O es n) [a; b]).
    { apply NoDup_Permutation; [exact ND| |].
      - constructor; [|constructor; [intros []|constructor]]. intros [X|[]]. congruence.
      - intros m. rewrite HI. split.
        + intros X. destruct (Hall m X); subst; cbn; auto.
        + intros [X|[X|[]]]; subst; assumption. }
    rewrite (Permutation_length P). reflexivity.
  - intros a b l1 e l2 e' l3 E Hj Hj'.
    destruct (string_dec a datum) as [X|X]; [left; exact X|right]. intros m Hma.
    destruct (string_dec m b) as [Y|Y]; [exact Y|exfalso].
    assert (Hab : linked es a b) by (exists e; split; [rewrite E; apply in_or_app; right; left; reflexivity | exact Hj]).
    destruct (HB a) as [ND HI].
    assert (Hdeg : 1 < length (o_nbrs O es a)).
    { apply HI in Hma, Hab. destruct (o_nbrs O es a) as [|p [|q l]]; [destruct Hab| |cbn; lia].
      destruct Hma as [A|[]], Hab as [B|[]]. congruence. }
    specialize (Hc a b X Hdeg). unfold count in Hc. rewrite E in Hc.
    apply joinsb_spec in Hj, Hj'.
    rewrite filter_app in Hc. cbn [filter] in Hc. rewrite Hj, filter_app in Hc. cbn [filter] in Hc. rewrite Hj' in Hc.
    rewrite app_length in Hc. cbn [length] in Hc. rewrite app_length in Hc. cbn [length] in Hc. lia.
Qed.

Lemma sp_split_ok : forall O es0 k g, enumerates O -> inv es0 g -> length (sp_edges g) < k ->
  exists g', sp_split k O g = Ok g' /\ inv es0 g' /\ irreducible (sp_edges g').
Proof.
  intros O es0 k. induction k as [|k IH]; intros g HO Iv Hk; [lia|]. cbn [sp_split].
  destruct (split_parallel_ok O es0 g HO Iv) as (g1 & cp & E1 & Iv1 & L1 & T1 & F1 & C1). rewrite E1. cbn [rbind].
  destruct (split_serial_ok O es0 g1 HO Iv1) as (g2 & cs & E2 & Iv2 & T2 & F2).
  { intros u v [Hd Hm]. apply C1; [exact Hd | lia]. }
  rewrite E2. cbn [rbind].
  assert (Lp : length (sp_edges g1) <= length (sp_edges g)) by (destruct cp; [specialize (T1 eq_refl); lia | rewrite (F1 eq_refl); lia]).
  destruct cs, cp; cbn [orb].
  - apply IH; auto. specialize (T1 eq_refl). specialize (T2 eq_refl). lia.
  - apply IH; auto. specialize (T2 eq_refl). lia.
  - apply IH; auto. specialize (T1 eq_refl). destruct (F2 eq_refl) as [F _]. rewrite F. lia.
  - destruct (F2 eq_refl) as [F HM]. subst g2. exists g1. split; [reflexivity|]. split; [exact Iv2|].
    apply (irreducible_ok O); auto. exact (i_simple _ _ Iv1).
Qed.
