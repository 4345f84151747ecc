(** _split_serial keeps the components and shortens the graph. *)
From Coq Require Import String List Bool Arith Permutation Lia.
From Verif Require Import Py Graph SP Spec_SP SPBase SPChain SPStep.
Import ListNotations.
Local Open Scope string_scope.
Local Open Scope list_scope.
Local Open Scope nat_scope.

Lemma route_neq : forall es N v, route es N v -> v <> N.
Proof. intros es N v R. destruct R; auto. Qed.

Definition inner (s : list string) (a : string) : Prop := exists l1 x y l2, s = l1 ++ x :: a :: y :: l2.

Lemma ends_of : forall s a b a0, hd_error s = Some a -> hd_error (rev s) = Some b -> In a0 s ->
  ~ inner s a0 -> a0 = a \/ a0 = b.
Proof.
  intros s a b a0 Ha Hb Hi Hn. apply in_split in Hi. destruct Hi as (l1 & l2 & E). subst s.
  destruct l1 as [|x l1] using rev_ind; [cbn in Ha; injection Ha; auto|]. clear IHl1.
  destruct l2 as [|y l2].
  - rewrite rev_app_distr in Hb. cbn in Hb. injection Hb. auto.
  - exfalso. apply Hn. exists l1, x, y, l2. rewrite <- app_assoc. reflexivity.
Qed.

Lemma next_inner : forall s a b, 3 <= length s -> next_to s a b -> inner s a \/ inner s b.
Proof.
  intros s a b Hl (l1 & l2 & H).
  assert (X : forall a b, s = l1 ++ a :: b :: l2 -> inner s a \/ inner s b).
  { clear H a b. intros a b E. subst s. destruct l1 as [|x l1] using rev_ind.
    - destruct l2 as [|y l2]; [cbn in Hl; lia|]. right. exists [], a, y, l2. reflexivity.
    - left. exists l1, x, b, l2. rewrite <- app_assoc. reflexivity. }
  destruct H as [H|H]; [exact (X a b H)|]. destruct (X b a H); auto.
Qed.

(** Replacing a chain by one edge keeps the ways to the datum. *)
Lemma contract_anchored : forall cur cur' s a b, 3 <= length s ->
  hd_error s = Some a -> hd_error (rev s) = Some b ->
  (forall u v, linked cur u v -> linked cur' u v \/ next_to s u v) ->
  linked cur' a b ->
  (forall u v, inner s u -> linked cur u v -> next_to s u v) ->
  (forall v, is_node cur' v -> is_node cur v /\ ~ inner s v) ->
  (forall u, inner s u -> u <> datum) ->
  (forall u, {inner s u} + {~ inner s u}) ->
  anchored cur -> anchored cur'.
Proof.
  intros cur cur' s a b Hl Ha Hb H1 H2 H3 H4 H5 Hdec An N v HN Hv Hnode.
  destruct (H4 v Hnode) as [Hn Hi].
  assert (R := An N v HN Hv Hn).
  assert (X : (inner s v -> (a <> N /\ route cur' N a) \/ (b <> N /\ route cur' N b)) /\
              (~ inner s v -> route cur' N v)); [|apply X; exact Hi].
  clear Hi Hn Hnode Hv.
  induction R as [_|u w Hu Hlk R IH].
  - split; [intros X; exfalso; exact (H5 datum X eq_refl)|]. intros _. now constructor.
  - destruct IH as [IH1 IH2]. pose proof (route_neq _ _ _ R) as Hw. split.
    + intros Hi. destruct (Hdec w) as [X|X]; [exact (IH1 X)|].
      specialize (H3 u w Hi Hlk). apply next_to_in in H3.
      destruct (ends_of s a b w Ha Hb (proj2 H3) X); subst w; [left|right]; auto.
    + intros Hi. destruct (Hdec w) as [X|X].
      * specialize (H3 w u X (linked_sym _ _ _ Hlk)). apply next_to_in in H3.
        destruct (ends_of s a b u Ha Hb (proj2 H3) Hi) as [E|E]; subst u; destruct (IH1 X) as [[E1 E2]|[E1 E2]]; auto.
        -- apply (route_step cur' N a b); auto.
        -- apply (route_step cur' N b a); auto. now apply linked_sym.
      * destruct (H1 u w Hlk) as [Y|Y].
        -- apply (route_step cur' N u w); auto.
        -- destruct (next_inner s u w Hl Y); contradiction.
Qed.

Lemma inner_dec : forall s u, {inner s u} + {~ inner s u}.
Proof.
  intros s u.
  destruct (in_dec string_dec u (removelast (tl s))) as [H|H].
  - left. apply in_split in H. destruct H as (l1 & l2 & E).
    destruct s as [|x s]; [destruct l1; discriminate|]. cbn in E.
    destruct s as [|z s]; [destruct l1; discriminate|].
    assert (E2 : z :: s = (l1 ++ u :: l2) ++ [last (z :: s) x]).
    { rewrite <- E. apply app_removelast_last. discriminate. }
    rewrite E2. clear E E2. rewrite <- app_assoc. cbn [app].
    assert (Y : exists y r, l2 ++ [last (z :: s) x] = y :: r) by (destruct l2; cbn; eauto).
    destruct Y as (y & r & Y). rewrite Y.
    destruct l1 as [|q l1] using rev_ind.
    + exists [], x, y, r. reflexivity.
    + exists (x :: l1), q, y, r. rewrite <- app_assoc. reflexivity.
  - right. intros (l1 & x & y & l2 & E). apply H. rewrite E.
    assert (X : forall p l2, removelast (p ++ u :: y :: l2) = p ++ u :: removelast (y :: l2)).
    { intros p l. rewrite removelast_app by discriminate. reflexivity. }
    destruct l1 as [|q l1]; cbn [app tl].
    + left. reflexivity.
    + replace (l1 ++ x :: u :: y :: l2) with ((l1 ++ [x]) ++ u :: y :: l2) by (rewrite <- app_assoc; reflexivity).
      rewrite X. apply in_or_app. right. left. reflexivity.
Qed.

(** ** The list of chains *)
Definition realises (es : list spedge) (s : list string) (p : list spedge * string * string) : Prop :=
  passes (fst (fst p)) s /\ (forall e, In e (fst (fst p)) -> In e es) /\
  hd_error s = Some (snd (fst p)) /\ hd_error (rev s) = Some (snd p).

Lemma chain_edges_ok : forall O es s, enumerates O -> simple es -> way es s -> s <> [] ->
  exists c, chain_edges O es s = Ok c /\ passes c s /\ forall e, In e c -> In e es.
Proof.
  intros O es s HO Hs. induction s as [|a s IH]; intros Hw Hne; [congruence|].
  destruct s as [|b s].
  - exists []. cbn. repeat split; auto. intros e [].
  - destruct Hw as [Hl Hw]. destruct (IH Hw) as (c & E & Hp & Hin); [discriminate|].
    cbn [chain_edges]. destruct (getedges O es a b) as [|e l] eqn:Eg.
    + exfalso. apply linked_count in Hl. pose proof (getedges_perm O es a b HO Hs) as P. rewrite Eg in P.
      apply Permutation_nil in P. rewrite P in Hl. cbn in Hl. lia.
    + assert (X : In e (filter (joinsb a b) es)).
      { eapply Permutation_in; [apply (getedges_perm O es a b HO Hs)|]. rewrite Eg. left. reflexivity. }
      apply filter_In in X. destruct X as [X1 X2].
      change (exists c0, (do r <- chain_edges O es (b :: s); Ok (e :: r)) = Ok c0 /\
                passes c0 (a :: b :: s) /\ (forall e0, In e0 c0 -> In e0 es)).
      rewrite E. cbn [rbind]. exists (e :: c). split; [reflexivity|]. split.
      * split; [now apply joinsb_spec | exact Hp].
      * intros e' [H|H]; [subst; exact X1 | auto].
Qed.

Definition apart (O : order) (es : list spedge) (s s' : list string) : Prop :=
  forall a, mid O es a -> In a s -> ~ In a s'.

Lemma serial_loop_ok : forall O es, enumerates O -> simple es -> anchored es ->
  forall ns seen,
  (forall a b, mid O es a -> In a seen -> mid O es b -> linked es a b -> In b seen) ->
  exists ss out, serial_loop O es ns seen = Ok out /\
    Forall2 (realises es) ss out /\ Forall (chain O es) ss /\
    Forall (fun s => apart O es s seen) ss /\ ForallOrdPairs (apart O es) ss /\
    (ss = [] -> forall n, In n ns -> mid O es n -> In n seen).
Proof.
  intros O es HO Hs Ha ns. induction ns as [|node ns IH]; intros seen K.
  - exists [], []. split; [reflexivity|]. repeat split; try constructor. intros _ n [].
  - cbn [serial_loop].
    destruct (negb (py_in String.eqb node seen) && Nat.eqb (degree O es node) 2 && negb (String.eqb node datum)) eqn:T.
    + rewrite <- andb_assoc in T. apply andb_true_iff in T. destruct T as [T1 T2].
      apply (mid_test O es node Hs) in T2. apply negb_true_iff in T1.
      assert (Hns : ~ In node seen).
      { intros X. assert (Y : py_in String.eqb node seen = true); [|congruence].
        unfold py_in. apply existsb_exists. exists node. split; [exact X | apply String.eqb_refl]. }
      destruct (serial_nodes_ok O es node HO Hs Ha T2) as (s & E & C & Hin & Hq).
      rewrite E. cbn [rbind].
      assert (Hne : s <> []) by (intros X; subst; destruct Hin).
      destruct (chain_edges_ok O es s HO Hs (c_way _ _ _ C) Hne) as (c & Ec & Hp & Hce).
      rewrite Ec. cbn [rbind].
      assert (As : apart O es s seen).
      { intros a Hma Hi X. apply Hns. apply (Hq (fun v => In v seen)) with (a := a); auto. }
      destruct (IH (seen ++ s)) as (ss & out & E2 & R2 & C2 & A2 & P2 & N2).
      { intros a b Hma Hi Hmb Hl. apply in_app_or in Hi. apply in_or_app. destruct Hi as [Hi|Hi].
        - left. apply (K a b); auto.
        - right. apply (c_closed _ _ _ C a b); auto. }
      rewrite E2. cbn [rbind].
      exists (s :: ss), ((c, hd node s, last s node) :: out). split; [reflexivity|].
      split; [|split; [|split; [|split]]].
      * constructor; [|exact R2]. repeat split; cbn [fst snd]; auto.
        -- destruct s; [congruence | reflexivity].
        -- rewrite (app_removelast_last node Hne) at 1. rewrite rev_app_distr. reflexivity.
      * constructor; assumption.
      * constructor; [exact As|]. eapply Forall_impl; [|exact A2].
        intros s' X a Hma Hi Y. apply (X a Hma Hi). apply in_or_app. left. exact Y.
      * constructor; [|exact P2]. eapply Forall_impl; [|exact A2].
        intros s' X a Hma Hi Y. apply (X a Hma Y). apply in_or_app. right. exact Hi.
      * discriminate.
    + destruct (IH seen K) as (ss & out & E2 & R2 & C2 & A2 & P2 & N2).
      exists ss, out. repeat split; auto. intros X n [Hn|Hn] Hm; [|auto]. subst n.
      destruct (py_in String.eqb node seen) eqn:Y.
      * unfold py_in in Y. apply existsb_exists in Y. destruct Y as (z & Hz & Ez). apply String.eqb_eq in Ez. subst. exact Hz.
      * cbn [negb andb] in T. apply (mid_test O es node Hs) in Hm. congruence.
Qed.

(** ** What the splitting maintains *)
Definition sub_named (e : spedge) : Prop :=
  type e = "graph" -> exists n, label e = serial_label n \/ label e = parallel_label n.

Record inv (es0 : list spedge) (g : spgraph) : Prop := mkInv {
  i_simple : simple (sp_edges g);
  i_anchored : anchored (sp_edges g);
  i_comps : Permutation (all_comps (sp_edges g)) es0;
  i_grouped : forall e, In e (sp_edges g) -> grouped e;
  i_named : forall e, In e (flat_map full (sp_edges g)) -> sub_named e;
  i_inner : forall r c n, In r (sp_edges g) -> In c (comps r) -> touch n c = true -> touch n r = false ->
    ~ is_node (sp_edges g) n;
  i_alone : forall G c c' n, In G (flat_map full (sp_edges g)) -> type G = "graph" ->
    In c (comps G) -> In c' es0 -> touch n c = true -> touch n c' = true -> touch n G = false -> In c' (comps G)
}.

Lemma outs_named : forall lab a b e, In e (flat_map full (outs lab a b)) -> sub_named e.
Proof.
  intros lab a b e H. apply in_flat_map in H. destruct H as (p & Hp & He).
  destruct (outs_out lab a b p Hp) as (H1 & _ & _). destruct p as [s d t l sb]. cbn [type] in H1. subst t.
  cbn in He. destruct He as [He|[]]. subst e. intros X. cbn in X. discriminate.
Qed.

Lemma group_named : forall a b l es x y e, (forall e, In e (flat_map full es) -> sub_named e) ->
  (exists n, l = serial_label n \/ l = parallel_label n) ->
  In e (full (Edge a b "graph" l (es ++ outs l x y))) -> sub_named e.
Proof.
  intros a b l es x y e H Hl Hi. cbn [full] in Hi.
  replace ("graph" =? "graph")%string with true in Hi by reflexivity.
  destruct Hi as [Hi|Hi]; [subst e; intros _; exact Hl|].
  rewrite flat_map_app in Hi. apply in_app_or in Hi. destruct Hi as [Hi|Hi]; [auto|].
  exact (outs_named l x y e Hi).
Qed.

Lemma passes_length : forall c s, passes c s -> length s = S (length c).
Proof.
  intros c. induction c as [|e c IH]; intros s H.
  - destruct s as [|a [|b s]]; try destruct H; reflexivity.
  - destruct s as [|a [|b s]]; try (destruct H; fail). destruct H as [_ H]. apply IH in H. cbn in *. lia.
Qed.

Lemma flat_map_in_sub : forall (c cur : list spedge), (forall e, In e c -> In e cur) ->
  forall x, In x (flat_map full c) -> In x (flat_map full cur).
Proof.
  intros c cur H x Hx. apply in_flat_map in Hx. destruct Hx as (e & He & Hx).
  apply in_flat_map. exists e. auto.
Qed.

Lemma not_touch : forall n e, touch n e = false -> n <> src e /\ n <> dst e.
Proof.
  intros n e H. split; intros X; assert (Y : touch n e = true) by (apply touch_spec; auto); congruence.
Qed.

Lemma full_self : forall e, In e (full e).
Proof. intros [a b t l s]. left. reflexivity. Qed.

Lemma comps_end : forall e c n, type e <> "graph" -> In c (comps e) -> touch n c = true -> touch n e = true.
Proof.
  intros [a b t l s] c n H Hc T. cbn [type] in H. unfold comps in Hc. cbn [full] in Hc.
  apply String.eqb_neq in H. rewrite H in Hc. apply filter_In in Hc. destruct Hc as [[Hc|[]] _]. subst c. exact T.
Qed.

(** The edges below a group of the members [c]. *)
Lemma full_group : forall a b l es x y G, In G (full (Edge a b "graph" l (es ++ outs l x y))) -> type G = "graph" ->
  G = Edge a b "graph" l (es ++ outs l x y) \/ In G (flat_map full es).
Proof.
  intros a b l es x y G Hi Ht. cbn [full] in Hi.
  replace ("graph" =? "graph")%string with true in Hi by reflexivity.
  destruct Hi as [Hi|Hi]; [left; auto|]. rewrite flat_map_app in Hi. apply in_app_or in Hi.
  destruct Hi as [Hi|Hi]; [right; exact Hi|]. exfalso.
  apply in_flat_map in Hi. destruct Hi as (p & Hp & He).
  destruct (outs_out l x y p Hp) as (H1 & _ & _). destruct p as [s d t l' sb]. cbn [type] in H1. subst t.
  cbn in He. destruct He as [He|[]]. subst G. cbn in Ht. discriminate.
Qed.

(** One chain. *)
Lemma serial_step_ok : forall O es es0 g s c a b, enumerates O -> simple es ->
  (forall u v, mid O es u -> length (filter (joinsb u v) es) <= 1) ->
  chain O es s -> realises es s (c, a, b) ->
  (forall u, mid O es u -> In u s -> filter (touch u) (sp_edges g) = filter (touch u) es) ->
  inv es0 g ->
  inv es0 (serial_step g (c, a, b)) /\
  length (sp_edges (serial_step g (c, a, b))) < length (sp_edges g) /\
  forall u, mid O es u -> ~ In u s ->
    filter (touch u) (sp_edges (serial_step g (c, a, b))) = filter (touch u) (sp_edges g).
Proof.
  intros O es es0 g s c a b HO Hs H1 C (Hp & Hce & Ha & Hb) Hq Iv. cbn [fst snd] in *.
  set (cur := sp_edges g) in *.
  pose proof (c_nodup _ _ _ C) as Hn. pose proof (c_len _ _ _ C) as Hl.
  assert (Hcm : forall e, In e c -> exists u v, mid O es u /\ In u s /\ In v s /\ joins u v e).
  { intros e Hi. destruct (passes_next c s e Hp Hi) as (u & v & Hj & Hnx).
    pose proof (next_to_in s u v Hnx) as [I1 I2].
    destruct (next_inner s u v Hl Hnx) as [(l1 & x & y & l2 & E)|(l1 & x & y & l2 & E)].
    - exists u, v. split; [exact (c_inner _ _ _ C l1 x u y l2 E) | auto].
    - exists v, u. split; [exact (c_inner _ _ _ C l1 x v y l2 E)|]. repeat split; auto.
      unfold joins in *. tauto. }
  assert (Hjt : forall u v l, filter (joinsb u v) l = filter (joinsb u v) (filter (touch u) l)).
  { intros u v l. rewrite filter_filter. apply filter_ext. intros x.
    destruct (joinsb u v x) eqn:E; [|rewrite andb_false_r; reflexivity].
    apply joinsb_spec in E. destruct (joins_ends u v x E) as [[T _] _]. rewrite T. reflexivity. }
  assert (Hin : forall e, In e c -> In e cur).
  { intros e Hi. destruct (Hcm e Hi) as (u & v & Hm & Hu & _ & Hj).
    assert (X : In e (filter (touch u) es)).
    { apply filter_In. split; [apply Hce; exact Hi|]. apply (joins_ends u v e Hj). }
    rewrite <- (Hq u Hm Hu) in X. apply filter_In in X. tauto. }
  assert (Hone' : forall u v, mid O es u -> In u s -> length (filter (joinsb u v) cur) <= 1).
  { intros u v Hm Hu. rewrite Hjt, (Hq u Hm Hu), <- Hjt. apply H1. exact Hm. }
  assert (Hone : forall e, In e c -> length (filter (joinsb (src e) (dst e)) cur) <= 1).
  { intros e Hi. destruct (Hcm e Hi) as (u & v & Hm & Hu & _ & Hj).
    destruct Hj as [[E1 E2]|[E1 E2]]; rewrite E1, E2.
    - apply Hone'; assumption.
    - erewrite filter_ext; [apply (Hone' u v Hm Hu)|]. intros x. apply joinsb_sym. }
  pose proof (chain_out c s cur Hp Hn Hin Hone) as P.
  assert (Er : remove_chain c cur = filter (fun x => negb (on c x)) cur).
  { apply remove_chain_filter. intros e Hi. etransitivity; [apply goes_count|]. auto. }
  set (rest := filter (fun x => negb (on c x)) cur) in *.
  set (lab := serial_label (S (sp_idser g))).
  set (E := Edge a b "graph" lab (c ++ outs lab a b)).
  assert (Ecur : sp_edges (serial_step g (c, a, b)) = rest ++ [E]).
  { cbn [serial_step sp_edges]. fold cur. rewrite Er. reflexivity. }
  assert (Hab : a <> b).
  { intros X. subst b. destruct s as [|z s]; [discriminate|]. cbn in Ha. injection Ha as Ha. subst z.
    destruct s as [|z s] using rev_ind; [cbn in Hl; lia|]. clear IHs.
    change (a :: s ++ [z]) with ((a :: s) ++ [z]) in Hb. rewrite rev_app_distr in Hb. cbn in Hb. injection Hb as Hb. subst z.
    inversion Hn as [|? ? X _]; subst. apply X. apply in_or_app. right. left. reflexivity. }
  assert (Hlk : forall u v, mid O es u -> In u s -> linked cur u v -> linked es u v).
  { intros u v Hm Hu (e & Hi & Hj). exists e. split; [|exact Hj].
    assert (X : In e (filter (touch u) cur)) by (apply filter_In; split; [exact Hi | apply (joins_ends u v e Hj)]).
    rewrite (Hq u Hm Hu) in X. apply filter_In in X. tauto. }
  assert (Hinn : forall u, inner s u -> mid O es u /\ In u s).
  { intros u (l1 & x & y & l2 & Es). split; [exact (c_inner _ _ _ C l1 x u y l2 Es)|].
    rewrite Es. apply in_or_app. right. right. left. reflexivity. }
  assert (Hnb : forall u v, inner s u -> linked cur u v -> next_to s u v).
  { intros u v Hi Hl2. destruct (Hinn u Hi) as [Hm Hu]. pose proof (Hlk u v Hm Hu Hl2) as Hl3.
    destruct Hi as (l1 & x & y & l2 & Es). pose proof (c_way _ _ _ C) as W. pose proof Hn as Hn2. rewrite Es in W, Hn2.
    destruct (inner_nbrs O es l1 x u y l2 v HO W Hn2 Hm Hl3) as [X|X]; subst v.
    - exists l1, (y :: l2). right. exact Es.
    - exists (l1 ++ [x]), l2. left. rewrite Es, <- app_assoc. reflexivity. }
  destruct Iv as [I1 I2 I3 I4 I5 I6 I7]. fold cur in I1, I2, I3, I4, I5, I6, I7.
  assert (Hnodes : forall v, is_node (rest ++ [E]) v -> is_node cur v /\ ~ inner s v).
  { intros v (e & Hi & Hv). apply in_app_or in Hi. destruct Hi as [Hi|[Hi|[]]].
        - assert (Hi' : In e cur) by (unfold rest in Hi; apply filter_In in Hi; tauto).
           split; [exists e; auto|]. intros Hinner.
           assert (Hex : exists w, joins v w e).
           { destruct Hv as [Hv|Hv]; [exists (dst e); left | exists (src e); right]; auto. }
           destruct Hex as (w & Hj).
           assert (Hnx : next_to s v w) by (apply Hnb; [exact Hinner | exists e; auto]).
           destruct (next_passes c s v w Hp Hnx) as (e' & Hi2 & Hj2).
           destruct (Hinn v Hinner) as [Hm Hu].
           assert (F : filter (joinsb v w) cur = [e']).
           { apply one_in_filter; [apply Hone'; assumption | apply Hin; exact Hi2 | now apply joinsb_spec]. }
           assert (G : In e (filter (joinsb v w) cur)) by (apply filter_In; split; [exact Hi' | now apply joinsb_spec]).
           rewrite F in G. destruct G as [G|[]]. subst e'.
           unfold rest in Hi. apply filter_In in Hi. destruct Hi as [_ Hi].
           apply negb_true_iff in Hi. assert (Z : on c e = true); [|congruence].
           apply existsb_exists. exists e. split; [exact Hi2|]. apply goes_spec. auto.
        - subst e. cbn in Hv.
           assert (Hends : In v s /\ ~ inner s v).
           { destruct Hv as [Hv|Hv]; subst v.
             - destruct s as [|z s]; [discriminate|]. cbn in Ha. injection Ha as Ha. subst z. split; [left; reflexivity|].
               intros (l1 & x & y & l2 & Es). inversion Hn as [|? ? X _]; subst. apply X.
               destruct l1 as [|q l1]; cbn in Es; injection Es as _ Es; rewrite Es.
               + left. reflexivity.
               + apply in_or_app. right. right. left. reflexivity.
             - assert (Hr : exists s', s = s' ++ [b]).
               { destruct s as [|z s] using rev_ind; [discriminate|]. rewrite rev_app_distr in Hb. cbn in Hb.
                 injection Hb as Hb. subst z. eauto. }
               destruct Hr as (s' & Hr). split; [rewrite Hr; apply in_or_app; right; left; reflexivity|].
               intros (l1 & x & y & l2 & Es). rewrite Es in Hr.
               assert (Q : exists q, y :: l2 = q ++ [b]).
               { destruct l2 as [|z l2] using rev_ind.
                 - exists []. change [x; b; y] with ([x; b] ++ [y]) in Hr. rewrite app_assoc in Hr.
                   apply app_inj_tail in Hr. destruct Hr as [_ Hr]. subst. reflexivity.
                 - exists (y :: l2). replace (l1 ++ x :: b :: y :: l2 ++ [z]) with ((l1 ++ x :: b :: y :: l2) ++ [z]) in Hr
                     by (rewrite <- app_assoc; reflexivity).
                   apply app_inj_tail in Hr. destruct Hr as [_ Hr]. subst. reflexivity. }
               destruct Q as (q & Q). rewrite Es in Hn. rewrite Q in Hn.
               replace (l1 ++ x :: b :: q ++ [b]) with ((l1 ++ x :: b :: q) ++ b :: []) in Hn
                 by (rewrite <- app_assoc; reflexivity).
               apply NoDup_remove_2 in Hn. apply Hn. rewrite app_nil_r. apply in_or_app. right. right. left. reflexivity. }
           split; [|tauto]. destruct Hends as [Hv' _].
           (* v is an end of a chain edge *)
           pose proof (c_way _ _ _ C) as W.
           destruct (split_in_mid v s Hv') as [(l' & El)|(l1 & y & l2 & El)].
           + destruct l' as [|z l'] using rev_ind; [rewrite El in Hl; cbn in Hl; lia|]. clear IHl'.
              assert (Hnx : next_to s z v) by (exists l', []; left; rewrite El, <- app_assoc; reflexivity).
              destruct (next_passes c s z v Hp Hnx) as (e & Hi2 & Hj). exists e. split; [auto|].
              apply touch_spec. apply (joins_ends z v e Hj).
           + assert (Hnx : next_to s v y) by (exists l1, l2; left; exact El).
              destruct (next_passes c s v y Hp Hnx) as (e & Hi2 & Hj). exists e. split; [auto|].
              apply touch_spec. apply (joins_ends v y e Hj). }
  rewrite Ecur. split; [|split].
  - constructor; rewrite ?Ecur.
    + intros e Hi. apply in_app_or in Hi. destruct Hi as [Hi|[Hi|[]]].
      * apply I1. unfold rest in Hi. apply filter_In in Hi. tauto.
      * subst e. exact Hab.
    + apply (contract_anchored cur (rest ++ [E]) s a b); auto.
      * intros u v (e & Hi & Hj). apply (Permutation_in _ P) in Hi. apply in_app_or in Hi.
        destruct Hi as [Hi|Hi].
        -- right. destruct (passes_next c s e Hp Hi) as (u' & v' & Hj' & Hnx).
           destruct Hj as [[X1 X2]|[X1 X2]], Hj' as [[Y1 Y2]|[Y1 Y2]]; rewrite X1, X2 in *;
             subst; auto; now apply next_to_sym.
        -- left. exists e. split; [apply in_or_app; left; exact Hi | exact Hj].
      * exists E. split; [apply in_or_app; right; left; reflexivity|]. left. split; reflexivity.
      * intros u Hu X. subst u. destruct (Hinn _ Hu) as [[Q _] _]. apply Q. reflexivity.
      * apply inner_dec.
    + unfold all_comps. rewrite flat_map_app. cbn [flat_map]. rewrite app_nil_r.
      unfold E at 1. rewrite comps_group. etransitivity; [|exact I3].
      unfold all_comps. rewrite (flat_map_perm comps _ _ P), flat_map_app. apply Permutation_app_comm.
    + intros e Hi. apply in_app_or in Hi. destruct Hi as [Hi|[Hi|[]]].
      * apply I4. unfold rest in Hi. apply filter_In in Hi. tauto.
      * subst e. pose proof (passes_length c s Hp) as Hpl.
        apply (grouped_series a b lab c (outs lab a b) s); auto.
        -- lia.
        -- intros p X. destruct (outs_out lab a b p X) as (X1 & X2 & _). auto.
    + intros e Hi. rewrite flat_map_app in Hi. apply in_app_or in Hi. destruct Hi as [Hi|Hi].
      * apply I5. eapply flat_map_in_sub; [|exact Hi]. intros x Hx. unfold rest in Hx. apply filter_In in Hx. tauto.
      * cbn [flat_map] in Hi. rewrite app_nil_r in Hi. eapply group_named; [| |exact Hi].
        -- intros x Hx. apply I5. eapply flat_map_in_sub; [|exact Hx]. exact Hin.
        -- exists (S (sp_idser g)). left. reflexivity.
    + intros r x n Hr Hx Tx Tr Hnd. destruct (Hnodes n Hnd) as [Hnd1 Hnd2].
      apply in_app_or in Hr. destruct Hr as [Hr|[Hr|[]]].
      * apply (I6 r x n); auto. unfold rest in Hr. apply filter_In in Hr. tauto.
      * subst r. unfold E in Hx. rewrite comps_group in Hx. apply in_flat_map in Hx. destruct Hx as (m & Hm & Hx).
        destruct (touch n m) eqn:Tm; [|exact (I6 m x n (Hin m Hm) Hx Tx Tm Hnd1)].
        apply not_touch in Tr. cbn [src dst] in Tr.
        destruct (passes_next c s m Hp Hm) as (u & v & Hj & Hnx). apply next_to_in in Hnx.
        assert (Hns : In n s) by (destruct (joins_ends u v m Hj) as [_ T3]; destruct (T3 n Tm); subst; tauto).
        destruct (ends_of s a b n Ha Hb Hns Hnd2); tauto.
    + intros G x x' n HG Ht Hx Hx' Tx Tx' TG. rewrite flat_map_app in HG. apply in_app_or in HG. destruct HG as [HG|HG].
      * apply (I7 G x x' n); auto. eapply flat_map_in_sub; [|exact HG]. intros w Hw. unfold rest in Hw. apply filter_In in Hw. tauto.
      * cbn [flat_map] in HG. rewrite app_nil_r in HG. apply full_group in HG; [|exact Ht]. destruct HG as [HG|HG].
        -- subst G. unfold E in Hx |- *. rewrite comps_group in Hx |- *. apply in_flat_map in Hx. destruct Hx as (m & Hm & Hx).
           destruct (touch n m) eqn:Tm.
           ++ (* an inner node of the chain *)
              apply not_touch in TG. cbn [src dst] in TG.
              destruct (passes_next c s m Hp Hm) as (u & v & Hj & Hnx). apply next_to_in in Hnx.
              assert (Hns : In n s) by (destruct (joins_ends u v m Hj) as [_ T3]; destruct (T3 n Tm); subst; tauto).
              destruct (inner_dec s n) as [Hinn'|Hinn']; [|destruct (ends_of s a b n Ha Hb Hns Hinn'); tauto].
              assert (Hx2 : In x' (all_comps cur)) by (eapply Permutation_in; [symmetry; exact I3 | exact Hx']).
              apply in_flat_map in Hx2. destruct Hx2 as (r & Hr & Hx2).
              assert (Hnode : is_node cur n) by (exists m; split; [auto | now apply touch_spec]).
              destruct (touch n r) eqn:Tr; [|exfalso; exact (I6 r x' n Hr Hx2 Tx' Tr Hnode)].
              apply in_flat_map. exists r. split; [|exact Hx2].
              apply (Permutation_in _ P) in Hr. apply in_app_or in Hr. destruct Hr as [Hr|Hr]; [exact Hr|exfalso].
              assert (Hnd : is_node (rest ++ [E]) n).
              { exists r. split; [apply in_or_app; left; exact Hr | now apply touch_spec]. }
              apply Hnodes in Hnd. tauto.
           ++ destruct (string_dec (type m) "graph") as [Gm|Gm].
              ** apply in_flat_map. exists m. split; [exact Hm|]. apply (I7 m x x' n); auto.
                 apply in_flat_map. exists m. split; [auto | apply full_self].
              ** exfalso. rewrite (comps_end m x n Gm Hx Tx) in Tm. discriminate.
        -- apply (I7 G x x' n); auto. eapply flat_map_in_sub; [|exact HG]. exact Hin.
  - rewrite app_length. cbn. pose proof (Permutation_length P) as X. rewrite app_length in X.
    pose proof (passes_length c s Hp). lia.
  - intros u Hm Hu. rewrite filter_app. cbn [filter].
    assert (T : touch u E = false).
    { destruct (touch u E) eqn:T; [|reflexivity]. exfalso. apply Hu. apply touch_spec in T. cbn in T.
      destruct T; subst u.
      - destruct s; [discriminate|]. cbn in Ha. injection Ha as Ha. subst. left. reflexivity.
      - apply in_rev. destruct (rev s); [discriminate|]. cbn in Hb. injection Hb as Hb. subst. left. reflexivity. }
    rewrite T, app_nil_r. fold cur. rewrite <- Er. apply remove_chain_other.
    intros e x Hi Hg. apply goes_spec in Hg. destruct (touch u x) eqn:Tx; [|reflexivity]. exfalso.
    apply touch_spec in Tx. destruct (Hcm e Hi) as (p & q & _ & Hp1 & Hq1 & Hj).
    assert (T2 : touch u e = true) by (apply touch_spec; destruct Hg as [G1 G2]; rewrite <- G1, <- G2; exact Tx).
    destruct (joins_ends p q e Hj) as [_ T3]. destruct (T3 u T2); subst; contradiction.
Qed.

Lemma serial_fold_ok : forall O es es0, enumerates O -> simple es ->
  (forall u v, mid O es u -> length (filter (joinsb u v) es) <= 1) ->
  forall ss out g, Forall2 (realises es) ss out -> Forall (chain O es) ss -> ForallOrdPairs (apart O es) ss ->
  (forall s u, In s ss -> mid O es u -> In u s -> filter (touch u) (sp_edges g) = filter (touch u) es) ->
  inv es0 g ->
  inv es0 (fold_left serial_step out g) /\
  length (sp_edges (fold_left serial_step out g)) + length out <= length (sp_edges g).
Proof.
  intros O es es0 HO Hs H1 ss. induction ss as [|s ss IH]; intros out g R C A Hq Iv.
  - inversion R; subst. cbn. split; [exact Iv | lia].
  - inversion R as [|? p ? out' Rs R']; subst. inversion C as [|? ? Cs C']; subst.
    inversion A as [|? ? As A']; subst. destruct p as [[c a] b]. cbn [fold_left].
    destruct (serial_step_ok O es es0 g s c a b HO Hs H1 Cs Rs) as (Iv2 & L2 & Q2); auto.
    { intros u Hm Hu. apply (Hq s u); auto. left. reflexivity. }
    destruct (IH out' (serial_step g (c, a, b)) R' C' A') as (Iv3 & L3); auto.
    { intros s' u Hi Hm Hu. rewrite Q2; [apply (Hq s' u); auto; right; exact Hi | exact Hm|].
      intros X. rewrite Forall_forall in As. exact (As s' Hi u Hm X Hu). }
    split; [exact Iv3|]. cbn [length]. lia.
Qed.

Lemma split_serial_ok : forall O es0 g, enumerates O -> inv es0 g ->
  (forall u v, mid O (sp_edges g) u -> length (filter (joinsb u v) (sp_edges g)) <= 1) ->
  exists g' ch, split_serial O g = Ok (g', ch) /\ inv es0 g' /\
    (ch = true -> length (sp_edges g') < length (sp_edges g)) /\
    (ch = false -> g' = g /\ forall n, ~ mid O (sp_edges g) n).
Proof.
  intros O es0 g HO Iv H1. unfold split_serial, serial_edges.
  destruct (serial_loop_ok O (sp_edges g) HO (i_simple _ _ Iv) (i_anchored _ _ Iv) (o_nodes O (sp_edges g)) [])
    as (ss & out & E & R & C & _ & A & N).
  { intros a b _ []. }
  rewrite E. cbn [rbind].
  destruct (serial_fold_ok O (sp_edges g) es0 HO (i_simple _ _ Iv) H1 ss out g R C A) as (Iv2 & L2); auto.
  exists (fold_left serial_step out g), (negb (Nat.eqb (length out) 0)). split; [reflexivity|]. split; [exact Iv2|]. split.
  - intros X. destruct out; [discriminate|]. cbn [length] in L2. lia.
  - intros X. destruct out as [|o out]; [|discriminate]. split; [reflexivity|].
    inversion R; subst. intros n Hm. 
    destruct (HO (sp_edges g)) as ((_ & HN) & _ & HB).
    apply (N eq_refl n); [|exact Hm]. apply HN.
    destruct Hm as [_ Hm]. destruct (HB n) as [_ HB']. destruct (o_nbrs O (sp_edges g) n) as [|m l]; [discriminate|].
    assert (Y : linked (sp_edges g) n m) by (apply HB'; left; reflexivity).
    apply (linked_node _ _ _ Y).
Qed.
