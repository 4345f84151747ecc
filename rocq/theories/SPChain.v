(** The chains found by serial_edges. *)
From Coq Require Import String List Bool Arith Permutation Lia.
From Verif Require Import Py Graph SP Spec_SP SPBase.
Import ListNotations.
Local Open Scope string_scope.
Local Open Scope list_scope.
Local Open Scope nat_scope.

Fixpoint way (es : list spedge) (s : list string) : Prop :=
  match s with
  | a :: ((b :: _) as t) => linked es a b /\ way es t
  | _ => True
  end.

Lemma way_cons : forall es a s, way es (a :: s) -> way es s.
Proof. intros es a [|b s] H; [exact I | apply H]. Qed.

Lemma way_app_r : forall es l1 l2, way es (l1 ++ l2) -> way es l2.
Proof. intros es l1 l2. induction l1 as [|a l1 IH]; [auto|]. intros H. apply IH. eapply way_cons. exact H. Qed.

Lemma way_mid : forall es l1 a b l2, way es (l1 ++ a :: b :: l2) -> linked es a b.
Proof. intros es l1 a b l2 H. apply way_app_r in H. apply H. Qed.

Lemma way_join : forall es l1 a l2, way es (l1 ++ [a]) -> way es (a :: l2) -> way es (l1 ++ a :: l2).
Proof.
  intros es l1. induction l1 as [|x l1 IH]; intros a l2 H1 H2; [exact H2|].
  cbn in H1 |- *. destruct l1 as [|y l1].
  - cbn in *. tauto.
  - cbn [app] in *. destruct H1 as [H1 H3]. split; [exact H1|]. apply (IH a l2 H3 H2).
Qed.

Lemma way_app_l : forall es l1 l2, way es (l1 ++ l2) -> way es l1.
Proof.
  intros es l1 l2. induction l1 as [|x l1 IH]; intros H; [exact I|].
  destruct l1 as [|y l1]; [exact I|]. cbn [app] in *. destruct H as [H1 H2]. split; [exact H1|].
  apply IH. exact H2.
Qed.

Lemma way_rev : forall es s, way es s -> way es (rev s).
Proof.
  intros es s. induction s as [|a s IH]; intros H; [exact I|].
  cbn. destruct s as [|b s]; [exact I|]. destruct H as [H1 H2]. specialize (IH H2).
  cbn in IH |- *. rewrite <- app_assoc. cbn. apply way_join; [exact IH|]. split; [|exact I].
  now apply linked_sym.
Qed.

(** The neighbors of an inner node of a way without repetition. *)
Lemma inner_nbrs : forall O es l1 x a y l2 b, enumerates O ->
  way es (l1 ++ x :: a :: y :: l2) -> NoDup (l1 ++ x :: a :: y :: l2) -> mid O es a ->
  linked es a b -> b = x \/ b = y.
Proof.
  intros O es l1 x a y l2 b HO Hw Hn Hm Hl.
  apply (mid_two O es a x y HO Hm).
  - intros E. subst y. apply NoDup_remove_2 in Hn. apply Hn. apply in_or_app. right. right. left. reflexivity.
  - apply linked_sym. eapply way_mid. exact Hw.
  - change (x :: a :: y :: l2) with ([x] ++ a :: y :: l2) in Hw. rewrite app_assoc in Hw.
    eapply way_mid. exact Hw.
  - exact Hl.
Qed.

Definition fresh (v : string) : string := "x" ++ v.
Lemma fresh_neq : forall v, v <> fresh v.
Proof.
  intros v E. apply (f_equal String.length) in E. cbn in E. lia.
Qed.
Lemma fresh_datum : forall v, fresh v <> datum.
Proof. intros v E. unfold fresh, datum in E. cbn in E. injection E. intros. discriminate. Qed.

Lemma anchored_route : forall es v, anchored es -> is_node es v -> route es (fresh v) v.
Proof. intros es v Ha Hv. apply Ha; [apply fresh_datum | apply fresh_neq | exact Hv]. Qed.

Lemma split_in_mid : forall (x : string) l, In x l ->
  (exists l', l = l' ++ [x]) \/ exists l1 y l2, l = l1 ++ x :: y :: l2.
Proof.
  intros x l Hi. apply in_split in Hi. destruct Hi as (l1 & l2 & E). subst l.
  destruct l2 as [|y l2].
  - left. exists l1. reflexivity.
  - right. exists l1, y, l2. reflexivity.
Qed.

(** In a closed way all of whose nodes have two neighbors, nothing leads to the datum. *)
Lemma next_fresh : forall O es t' last prev t0 node m, enumerates O -> simple es -> anchored es ->
  last :: prev :: t0 = t' ++ [node] ->
  way es (last :: prev :: t0) -> NoDup (last :: prev :: t0) ->
  (forall x, In x (last :: prev :: t0) -> mid O es x) ->
  m <> prev -> linked es last m -> ~ In m (last :: prev :: t0).
Proof.
  intros O es t' last prev t0 node m HO Hs Ha Et Hw Hn Hm Hp Hl Hi.
  destruct Hi as [Hi|[Hi|Hi]]; [|congruence|].
  - subst m. exact (linked_neq es last last Hs Hl eq_refl).
  - (* x before m *)
    assert (E0 : exists l0 x l3, prev :: t0 = l0 ++ x :: m :: l3).
    { apply in_split in Hi. destruct Hi as (l1 & l2 & E). subst t0.
      destruct l1 as [|z l1] using rev_ind.
      - exists [], prev, l2. reflexivity.
      - exists (prev :: l1), z, l2. rewrite <- app_assoc. reflexivity. }
    destruct E0 as (l0 & x & l3 & E0). rewrite E0 in *.
    assert (Hlx : last <> x).
    { intros E. subst x. inversion Hn as [|? ? Hn1 Hn2]; subst. apply Hn1. apply in_or_app. right. left. reflexivity. }
    destruct l3 as [|y l3].
    + (* m is the start of the walk: a ring *)
      assert (Em : m = node).
      { replace (last :: l0 ++ [x; m]) with ((last :: l0 ++ [x]) ++ [m]) in Et
          by (cbn; rewrite <- app_assoc; reflexivity).
        apply app_inj_tail in Et. tauto. }
      subst m.
      assert (Hx : x <> prev \/ x = prev /\ l0 = [] ).
      { destruct l0 as [|p l0]; [right; cbn in E0; injection E0 as E1 E2; auto|].
        left. intros E. subst x. cbn in E0. injection E0 as E1 E2. subst p.
        inversion Hn as [|? ? _ Hn2]; subst. cbn in Hn2. inversion Hn2 as [|? ? Hn3 _]; subst.
        apply Hn3. apply in_or_app. right. left. reflexivity. }
      set (t := last :: l0 ++ [x; node]) in *.
      assert (Hc : forall a b, In a t -> linked es a b -> b = fresh node \/ In b t).
      { intros a b Hia Hab. right.
        destruct (split_in_mid a t Hia) as [(l' & El)|(l1 & y & l2 & El)].
        - (* a = node *)
          assert (Ea : a = node).
          { unfold t in El. replace (last :: l0 ++ [x; node]) with ((last :: l0 ++ [x]) ++ [node]) in El
              by (cbn; rewrite <- app_assoc; reflexivity).
            apply app_inj_tail in El. symmetry. tauto. }
          subst a.
          assert (X : b = last \/ b = x).
          { apply (mid_two O es node last x HO); auto.
            - now apply linked_sym.
            - apply linked_sym. unfold t in Hw.
              change (last :: l0 ++ [x; node]) with ((last :: l0) ++ x :: node :: []) in Hw.
              eapply way_mid. exact Hw. }
          unfold t. destruct X; subst b; [left; reflexivity|].
          right. apply in_or_app. right. left. reflexivity.
        - destruct l1 as [|z l1] using rev_ind.
          + (* a = last *)
            cbn in El. unfold t in El. injection El as E1 E2. subst a.
            assert (X : b = prev \/ b = node).
            { apply (mid_two O es last prev node HO); auto.
              - unfold t in Hw. rewrite <- E0 in Hw. apply Hw. }
            unfold t. rewrite <- E0. destruct X; subst b; [right; left; reflexivity|].
            right. rewrite E0. apply in_or_app. right. right. left. reflexivity.
          + clear IHl1. rewrite El in Hw, Hn |- *. rewrite <- app_assoc in *. cbn in *.
            destruct (inner_nbrs O es l1 z a y l2 b HO Hw Hn) as [X|X]; subst; auto.
            * apply in_or_app. right. left. reflexivity.
            * apply in_or_app. right. right. right. left. reflexivity. }
      assert (Hd : ~ In datum t).
      { intros X. apply Hm in X. destruct X as [X _]. apply X. reflexivity. }
      assert (Hnode : In node t) by (unfold t; right; apply in_or_app; right; right; left; reflexivity).
      refine (no_route es (fresh node) (fun v => In v t) Hc Hd node _ Hnode).
      apply anchored_route; [exact Ha|]. apply linked_sym in Hl. apply (linked_node _ _ _ Hl).
    + (* m is an inner node of the walk *)
      change (last :: l0 ++ x :: m :: y :: l3) with ((last :: l0) ++ x :: m :: y :: l3) in *.
      destruct (inner_nbrs O es (last :: l0) x m y l3 last HO Hw Hn) as [X|X].
      * apply Hm. apply in_or_app. right. right. left. reflexivity.
      * now apply linked_sym.
      * congruence.
      * subst y. cbn in Hn. inversion Hn as [|? ? Hn1 Hn2]; subst. apply Hn1.
        apply in_or_app. right. right. right. left. reflexivity.
Qed.

Lemma removelast_snoc : forall {A} (l : list A) a, removelast (l ++ [a]) = l.
Proof. intros. rewrite removelast_app; [cbn; apply app_nil_r | discriminate]. Qed.

(** The walk of serial_next. *)
Record walk (O : order) (es : list spedge) (w : list string) : Prop := mkWalk {
  w_way : way es w;
  w_nodup : NoDup w;
  w_mids : forall x, In x (removelast w) -> mid O es x;
  w_end : forall d, ~ mid O es (last w d)
}.

Lemma last_app_d : forall {A} (l : list A) a d, last (l ++ [a]) d = a.
Proof. intros. apply last_last. Qed.

Lemma serial_more_ok : forall O es node, enumerates O -> simple es -> anchored es ->
  forall k t' last prev t0,
  last :: prev :: t0 = t' ++ [node] ->
  way es (last :: prev :: t0) -> NoDup (last :: prev :: t0) ->
  (forall x, In x (prev :: t0) -> mid O es x) ->
  length (o_nodes O es) < k + length (last :: prev :: t0) ->
  exists r, serial_more k O es node prev last = Ok r /\ walk O es (rev (last :: prev :: t0) ++ r).
Proof.
  intros O es node HO Hs Ha k. induction k as [|k IH]; intros t' last prev t0 Et Hw Hn Hm Hk.
  - exfalso.
    assert (Hin : forall t, way es t -> 2 <= length t -> forall x, In x t -> In x (o_nodes O es)).
    { intros t Ht Hlt x Hx. destruct (HO es) as ((_ & HN) & _). apply HN.
      destruct (split_in_mid x t Hx) as [(l' & El)|(l1 & y & l2 & El)]; subst t.
      - destruct l' as [|z l'] using rev_ind; [cbn in Hlt; lia|].
        rewrite <- app_assoc in Ht. cbn in Ht. apply way_mid in Ht. apply (linked_node _ _ _ Ht).
      - apply way_mid in Ht. apply (linked_node _ _ _ Ht). }
    assert (X := NoDup_incl_length Hn (Hin _ Hw ltac:(cbn; lia))). cbn in *. lia.
  - cbn [serial_more].
    destruct (Nat.eqb (degree O es last) 2 && negb (String.eqb last datum)) eqn:Et2.
    + apply (mid_test O es last Hs) in Et2.
      destruct Hw as [Hw1 Hw2].
      destruct (mid_other O es last prev HO Et2 Hw1) as (m & Hpm & Hlm & Er).
      rewrite Er. cbn [rbind].
      assert (Hnl : node <> last).
      { intros E. subst last. destruct t' as [|z t']; [discriminate|]. cbn in Et. injection Et as E1 E2. subst z.
        inversion Hn as [|? ? Hn1 _]; subst. apply Hn1. rewrite E2. apply in_or_app. right. left. reflexivity. }
      destruct (String.eqb_spec node last) as [E|_]; [congruence|].
      assert (Hall : forall x, In x (last :: prev :: t0) -> mid O es x).
      { intros x [X|X]; [subst; exact Et2 | auto]. }
      assert (Hfr := next_fresh O es t' last prev t0 node m HO Hs Ha Et (conj Hw1 Hw2) Hn Hall
                       (not_eq_sym Hpm) Hlm).
      destruct (IH (m :: t') m last (prev :: t0)) as (r & E & Hr).
      * rewrite Et. reflexivity.
      * split; [now apply linked_sym | split; assumption].
      * constructor; assumption.
      * exact Hall.
      * cbn in *. lia.
      * rewrite E. cbn [rbind]. exists (m :: r). split; [reflexivity|].
        replace (rev (last :: prev :: t0) ++ m :: r) with (rev (m :: last :: prev :: t0) ++ r); [exact Hr|].
        cbn [rev]. rewrite <- !app_assoc. reflexivity.
    + exists []. split; [reflexivity|]. rewrite app_nil_r.
      assert (Hnm : ~ mid O es last).
      { intros X. apply (mid_test O es last Hs) in X. congruence. }
      constructor.
      * apply way_rev. exact Hw.
      * apply NoDup_rev. exact Hn.
      * intros x Hx. cbn [rev] in Hx. rewrite <- (rev_involutive t0) in Hm.
        change (In x (removelast (rev (prev :: t0) ++ [last]))) in Hx.
        rewrite removelast_snoc in Hx. rewrite rev_involutive in Hm. apply Hm.
        now apply in_rev.
      * intros d. change (rev (last :: prev :: t0)) with (rev (prev :: t0) ++ [last]).
        rewrite last_app_d. exact Hnm.
Qed.

Lemma serial_next_ok : forall O es node n1, enumerates O -> simple es -> anchored es ->
  mid O es node -> linked es node n1 ->
  exists r, serial_next O es node n1 = Ok (node :: n1 :: r) /\ walk O es (node :: n1 :: r).
Proof.
  intros O es node n1 HO Hs Ha Hm Hl. unfold serial_next.
  destruct (serial_more_ok O es node HO Hs Ha (S (length (o_nodes O es))) [n1] n1 node []) as (r & E & Hr).
  - reflexivity.
  - split; [now apply linked_sym | exact I].
  - constructor; [|constructor; [intros [] | constructor]]. intros [X|[]]. subst.
    exact (linked_neq es _ _ Hs Hl eq_refl).
  - intros x [X|[]]. subst. exact Hm.
  - cbn. lia.
  - rewrite E. exists r. split; [reflexivity | exact Hr].
Qed.

Lemma last_cons_in : forall (l : list string) d, l <> [] -> exists l', l = l' ++ [last l d].
Proof. intros l d H. exists (removelast l). now apply app_removelast_last. Qed.

Lemma walk_inner : forall O es node u a, walk O es (node :: u) -> In a u -> mid O es a ->
  exists k1 p q k2, node :: u = k1 ++ p :: a :: q :: k2.
Proof.
  intros O es node u a W Hi Hm. apply in_split in Hi. destruct Hi as (l1 & l2 & E). subst u.
  destruct l2 as [|q l2].
  - exfalso. apply (w_end _ _ _ W node). change (node :: l1 ++ [a]) with ((node :: l1) ++ [a]).
    rewrite last_app_d. exact Hm.
  - destruct l1 as [|p l1] using rev_ind.
    + exists [], node, q, l2. reflexivity.
    + exists (node :: l1), p, q, l2. rewrite <- app_assoc. reflexivity.
Qed.

Lemma removelast_in : forall (x : string) l d, In x l -> In x (removelast l) \/ x = last l d.
Proof.
  intros x l d Hi. destruct l as [|y l']; [destruct Hi|].
  rewrite (app_removelast_last d (l := y :: l')) in Hi by discriminate.
  apply in_app_or in Hi. destruct Hi as [H|[H|[]]]; [left|right]; auto.
Qed.

Lemma walk_in : forall O es w x d, walk O es w -> In x w -> mid O es x \/ x = last w d.
Proof.
  intros O es w x d W Hi. destruct (removelast_in x w d Hi) as [H|H]; [left|right; exact H].
  apply (w_mids _ _ _ W). exact H.
Qed.

(** Inner nodes of one direction are not met in the other. *)
Lemma walks_apart : forall O es node u1 u2 n1 n2 r1 r2, enumerates O ->
  walk O es (node :: u1) -> walk O es (node :: u2) -> u1 = n1 :: r1 -> u2 = n2 :: r2 -> n1 <> n2 ->
  forall l1 a y l2, node :: u1 = l1 ++ a :: y :: l2 -> l1 <> [] -> ~ In a u2.
Proof.
  intros O es node u1 u2 n1 n2 r1 r2 HO W1 W2 E1 E2 Hne l1.
  induction l1 as [|z l1 IH] using rev_ind; intros a y l2 Ew Hl Hi; [congruence|].
  assert (Hma : mid O es a).
  { apply (w_mids _ _ _ W1). rewrite Ew. rewrite (removelast_app (l1 ++ [z])) by discriminate.
    apply in_or_app. right. cbn. left. reflexivity. }
  destruct (walk_inner O es node u2 a W2 Hi Hma) as (k1 & p & q & k2 & Ek).
  assert (Hza : linked es a z).
  { apply linked_sym. pose proof (w_way _ _ _ W1) as X. rewrite Ew, <- app_assoc in X. eapply way_mid. exact X. }
  pose proof (w_way _ _ _ W2) as X2. pose proof (w_nodup _ _ _ W2) as N2. rewrite Ek in X2, N2.
  assert (Hz : z = p \/ z = q) by (eapply inner_nbrs; eauto).
  assert (Hq : In q u2).
  { destruct k1 as [|k k1]; cbn in Ek; injection Ek as _ Ek; rewrite Ek.
    - right. left. reflexivity.
    - apply in_or_app. right. right. right. left. reflexivity. }
  pose proof (w_nodup _ _ _ W2) as N2'. inversion N2' as [|? ? Nn2 _]; subst x l.
  pose proof (w_nodup _ _ _ W1) as N1'. inversion N1' as [|? ? Nn1 _]; subst x l.
  destruct l1 as [|z0 l1'] eqn:El1.
  - cbn in Ew. injection Ew as Ez Eu. subst z.
    destruct Hz as [Hz|Hz]; [|congruence].
    destruct k1 as [|k k1]; cbn in Ek; injection Ek as Ek0 Ek1.
    + rewrite E2 in Ek1. rewrite E1 in Eu. injection Ek1 as X _. injection Eu as Y _. congruence.
    + apply Nn2. rewrite Ek1, Hz. apply in_or_app. right. left. reflexivity.
  - assert (Hnz : ~ In z u2).
    { apply (IH z a (y :: l2)); [rewrite Ew, <- app_assoc; reflexivity | congruence]. }
    destruct Hz as [Hz|Hz]; [|subst q; contradiction].
    destruct k1 as [|k k1]; cbn in Ek; injection Ek as Ek0 Ek1.
    + (* z = p = node *)
      subst p. cbn in Ew. injection Ew as Ez Eu. apply Nn1. rewrite Eu, <- Hz.
      apply in_or_app. left. apply in_or_app. right. left. reflexivity.
    + apply Hnz. rewrite Ek1, Hz. apply in_or_app. right. left. reflexivity.
Qed.

Lemma walk_pos : forall O es node u a, walk O es (node :: u) -> In a u -> mid O es a ->
  exists l1 y l2, node :: u = l1 ++ a :: y :: l2 /\ l1 <> [].
Proof.
  intros O es node u a W Hi Hm. destruct (walk_inner O es node u a W Hi Hm) as (k1 & p & q & k2 & E).
  exists (k1 ++ [p]), q, k2. rewrite <- app_assoc. split; [exact E|]. destruct k1; discriminate.
Qed.

(** What holds of the nodes of a chain. *)
Record chain (O : order) (es : list spedge) (s : list string) : Prop := mkChain {
  c_way : way es s;
  c_nodup : NoDup s;
  c_len : 3 <= length s;
  c_inner : forall l1 x a y l2, s = l1 ++ x :: a :: y :: l2 -> mid O es a;
  c_closed : forall a b, mid O es a -> In a s -> mid O es b -> linked es a b -> In b s
}.

Lemma serial_nodes_ok : forall O es node, enumerates O -> simple es -> anchored es -> mid O es node ->
  exists s, serial_nodes O es node = Ok s /\ chain O es s /\ In node s /\
    forall Q : string -> Prop,
      (forall a b, mid O es a -> Q a -> mid O es b -> linked es a b -> Q b) ->
      forall a, mid O es a -> In a s -> Q a -> Q node.
Proof.
  intros O es node HO Hs Ha Hm. unfold serial_nodes.
  destruct (HO es) as (_ & _ & HN). destruct (HN node) as [ND HI].
  pose proof Hm as [Hnd Hlen].
  destruct (o_nbrs O es node) as [|n1 [|n2 [|n3 l]]] eqn:EN; try discriminate.
  assert (Hne : n1 <> n2).
  { inversion ND as [|? ? X _]; subst. intros E. apply X. left. auto. }
  assert (L1 : linked es node n1) by (apply HI; left; reflexivity).
  assert (L2 : linked es node n2) by (apply HI; right; left; reflexivity).
  destruct (serial_next_ok O es node n1 HO Hs Ha Hm L1) as (r1 & E1 & W1).
  destruct (serial_next_ok O es node n2 HO Hs Ha Hm L2) as (r2 & E2 & W2).
  rewrite E1. cbn [rbind]. rewrite E2. cbn [rbind].
  assert (Hnb : forall b, linked es node b -> b = n1 \/ b = n2).
  { intros b Hb. apply HI in Hb. destruct Hb as [Hb|[Hb|[]]]; auto. }
  set (u1 := n1 :: r1) in *. set (u2 := n2 :: r2) in *.
  assert (A12 : forall a, mid O es a -> In a u1 -> ~ In a u2).
  { intros a Hma Hi. destruct (walk_pos O es node u1 a W1 Hi Hma) as (l1 & y & l2 & E & Hl).
    eapply (walks_apart O es node u1 u2 n1 n2 r1 r2); eauto. }
  assert (Hcl : forall a b, mid O es a -> In a (node :: u1) \/ In a (node :: u2) -> linked es a b ->
                            In b (node :: u1) \/ In b (node :: u2)).
  { intros a b Hma Hi Hab.
    assert (X : a = node \/ In a u1 \/ In a u2) by (cbn [In] in Hi; intuition auto).
    destruct X as [X|[X|X]].
    - subst a. destruct (Hnb b Hab); subst b; [left|right]; right; left; reflexivity.
    - left. destruct (walk_inner O es node u1 a W1 X Hma) as (k1 & p & q & k2 & E).
      pose proof (w_way _ _ _ W1) as Y. pose proof (w_nodup _ _ _ W1) as Z. rewrite E in *.
      destruct (inner_nbrs O es k1 p a q k2 b HO Y Z Hma Hab); subst b; apply in_or_app; right.
      + left. reflexivity.
      + right. right. left. reflexivity.
    - right. destruct (walk_inner O es node u2 a W2 X Hma) as (k1 & p & q & k2 & E).
      pose proof (w_way _ _ _ W2) as Y. pose proof (w_nodup _ _ _ W2) as Z. rewrite E in *.
      destruct (inner_nbrs O es k1 p a q k2 b HO Y Z Hma Hab); subst b; apply in_or_app; right.
      + left. reflexivity.
      + right. right. left. reflexivity. }
  set (N1 := last (node :: u1) node) in *. set (N2 := last (node :: u2) node) in *.
  assert (HN1 : ~ mid O es N1) by (apply (w_end _ _ _ W1)).
  assert (HN2 : ~ mid O es N2) by (apply (w_end _ _ _ W2)).
  set (w2 := if String.eqb N2 datum && String.eqb N1 datum then removelast (node :: u2) else node :: u2).
  assert (Hw2 : exists tl, node :: u2 = w2 ++ tl /\ (tl = [] \/ tl = [datum] /\ N1 = datum)).
  { unfold w2. destruct (String.eqb_spec N2 datum) as [X|X]; cbn [andb].
    - destruct (String.eqb_spec N1 datum) as [Y|Y].
      + exists [datum]. split; [|right; auto]. rewrite <- X. unfold N2. apply app_removelast_last. discriminate.
      + exists []. rewrite app_nil_r. auto.
    - exists []. rewrite app_nil_r. auto. }
  assert (Hends : ~ In N1 w2).
  { intros X. unfold w2 in X.
    destruct (String.eqb_spec N2 datum) as [Y|Y]; cbn [andb] in X.
    - destruct (String.eqb_spec N1 datum) as [Z|Z].
      + apply (w_mids _ _ _ W2) in X. contradiction.
      + destruct (walk_in O es (node :: u2) N1 node W2 X) as [V|V]; [contradiction|]. change (last (node :: u2) node) with N2 in V. congruence.
    - destruct (walk_in O es (node :: u2) N1 node W2 X) as [V|V]; [contradiction|]. fold N2 in V.
      refine (no_route es N1 (fun v => mid O es v /\ (In v (node :: u1) \/ In v (node :: u2))) _ _ node _ _).
      + intros a b [Hma Hi] Hab. specialize (Hcl a b Hma Hi Hab).
        destruct Hcl as [Q|Q].
        * destruct (walk_in O es (node :: u1) b node W1 Q) as [R|R]; [right; auto | left; exact R].
        * destruct (walk_in O es (node :: u2) b node W2 Q) as [R|R]; [right; auto | left; change (last (node :: u2) node) with N2 in R; congruence].
      + intros [[Q _] _]. apply Q. reflexivity.
      + apply Ha.
        * congruence.
        * intros E. apply HN1. rewrite <- E. exact Hm.
        * apply (linked_node _ _ _ L1).
      + split; [exact Hm | left; left; reflexivity]. }
  assert (Erl : removelast (rev (node :: u1)) = rev u1) by (cbn [rev]; apply removelast_snoc).
  exists (rev u1 ++ w2). split; [rewrite Erl; reflexivity|].
  destruct Hw2 as (tl & Etl & Htl).
  assert (Hw2n : exists r, w2 = node :: r).
  { destruct w2 as [|z w]; [|cbn in Etl; injection Etl as Ez _; subst z; eauto].
    cbn in Etl. destruct Htl as [X|[X _]]; rewrite X in Etl; discriminate. }
  destruct Hw2n as (v2 & Ev2).
  assert (Hin2 : forall x, In x w2 -> In x (node :: u2)) by (intros x X; rewrite Etl; apply in_or_app; auto).
  assert (Hway : way es (rev u1 ++ w2)).
  { pose proof (way_rev _ _ (w_way _ _ _ W1)) as Y. cbn [rev] in Y.
    pose proof (w_way _ _ _ W2) as Z. rewrite Etl in Z. apply way_app_l in Z.
    rewrite Ev2 in Z |- *. apply way_join; [exact Y | exact Z]. }
  assert (Hdup : NoDup (rev u1 ++ w2)).
  { assert (D1 : NoDup (rev u1)).
    { apply NoDup_rev. pose proof (w_nodup _ _ _ W1) as Z. inversion Z. assumption. }
    assert (D2 : NoDup w2).
    { pose proof (w_nodup _ _ _ W2) as Z. rewrite Etl in Z. clear - Z. induction w2; [constructor|].
      cbn in Z. inversion Z; subst. constructor; [|auto]. intros Q. apply H1. apply in_or_app. auto. }
    assert (D3 : forall x, In x (rev u1) -> ~ In x w2).
    { intros x X Y. apply in_rev in X.
      destruct (walk_in O es (node :: u1) x node W1 (or_intror X)) as [Z|Z].
      - destruct (Hin2 x Y) as [Q|Q]; [|exact (A12 x Z X Q)].
        subst x. pose proof (w_nodup _ _ _ W1) as R. inversion R. contradiction.
      - fold N1 in Z. subst x. contradiction. }
    clear - D1 D2 D3. induction (rev u1) as [|x l IH]; [exact D2|].
    cbn. inversion D1; subst. constructor.
    - intros Q. apply in_app_or in Q. destruct Q as [Q|Q]; [contradiction|]. exact (D3 x (or_introl eq_refl) Q).
    - apply IH; [assumption|]. intros y Y. apply D3. right. exact Y. }
  assert (Hmem : forall x, mid O es x -> In x (node :: u1) \/ In x (node :: u2) -> In x (rev u1 ++ w2)).
  { intros x Hx Hi. apply in_or_app. destruct Hi as [[Hi|Hi]|Hi].
    - right. rewrite Ev2. left. exact Hi.
    - left. apply in_rev. rewrite rev_involutive. exact Hi.
    - rewrite Etl in Hi. apply in_app_or in Hi. destruct Hi as [Hi|Hi]; [right; exact Hi|].
      destruct Htl as [X|[X _]]; rewrite X in Hi; [destruct Hi|]. destruct Hi as [Hi|[]]. subst x.
      destruct Hx as [Hx _]. exfalso. apply Hx. reflexivity. }
  assert (Hmem' : forall x, In x (rev u1 ++ w2) -> In x (node :: u1) \/ In x (node :: u2)).
  { intros x X. apply in_app_or in X. destruct X as [X|X].
    - left. right. now apply in_rev.
    - right. apply Hin2. exact X. }
  split; [constructor|split].
  - exact Hway.
  - exact Hdup.
  - (* length *)
    rewrite app_length, rev_length. destruct Htl as [X|[X Y]]; rewrite X in Etl.
    + rewrite app_nil_r in Etl. rewrite <- Etl. unfold u1, u2. cbn. lia.
    + rewrite Ev2. cbn [length].
      assert (Z := f_equal (@length _) Etl). rewrite app_length, Ev2 in Z. cbn in Z. unfold u2 in Z. cbn in Z.
      destruct r2 as [|z r2].
      * (* n2 = datum, hence n1 is not *)
        unfold u1 in *. destruct r1 as [|z r1]; [|cbn; lia].
        exfalso. apply Hne. unfold N1 in Y. cbn in Y. rewrite Ev2 in Etl. unfold u2 in Etl. cbn in Etl, Z.
        destruct v2; [cbn in Etl; injection Etl as Q; congruence | cbn in Z; lia].
      * cbn in Z. unfold u1. cbn. lia.
  - intros l1 x a y l2 E.
    assert (Hia : In a (rev u1 ++ w2)) by (rewrite E; apply in_or_app; right; right; left; reflexivity).
    destruct (mid_dec O es a) as [Hma|Hma]; [exact Hma|exfalso].
    (* a is an end of one of the walks *)
    destruct (Hmem' a Hia) as [X|X].
    + destruct (walk_in O es (node :: u1) a node W1 X) as [Y|Y]; [contradiction|]. fold N1 in Y.
      (* N1 is the head of rev u1 *)
      assert (Hh : exists t, rev u1 = N1 :: t).
      { unfold N1. assert (Q : last (node :: u1) node = last u1 node) by (unfold u1; reflexivity).
        rewrite Q. exists (rev (removelast u1)).
        rewrite (app_removelast_last node (l := u1)) at 1 by discriminate.
        rewrite rev_app_distr. reflexivity. }
      destruct Hh as (t & Et). rewrite Et in E, Hdup. cbn in E, Hdup.
      destruct l1 as [|z l1]; cbn in E; injection E as E3 E4.
      * inversion Hdup as [|? ? Q _]; subst. apply Q. rewrite E4. left. reflexivity.
      * inversion Hdup as [|? ? Q _]; subst. apply Q. rewrite E4. apply in_or_app. right. right. left. reflexivity.
    + destruct (walk_in O es (node :: u2) a node W2 X) as [Y|Y]; [contradiction|]. fold N2 in Y.
      (* N2 is the last of w2 or was dropped *)
      destruct Htl as [T|[T T']]; rewrite T in Etl.
      * rewrite app_nil_r in Etl. rewrite <- Etl in *.
        assert (Q : last (rev u1 ++ node :: u2) node = N2).
        { unfold N2. rewrite (app_removelast_last node (l := node :: u2)) by discriminate.
          rewrite app_assoc, !last_last. reflexivity. }
        rewrite E in Q, Hdup. change (x :: a :: y :: l2) with ([x; a] ++ (y :: l2)) in Q, Hdup.
        rewrite app_assoc in Q, Hdup.
        assert (R : exists l, y :: l2 = l ++ [N2]).
        { rewrite (app_removelast_last node (l := y :: l2)) in Q by discriminate.
          rewrite app_assoc, last_last in Q. exists (removelast (y :: l2)).
          rewrite <- Q. apply app_removelast_last. discriminate. }
        destruct R as (l & R). rewrite R in Hdup.
        rewrite app_assoc in Hdup. apply NoDup_remove_2 in Hdup. apply Hdup. rewrite app_nil_r.
        apply in_or_app. left. apply in_or_app. right. right. left. exact Y.
      * assert (Q : N2 = datum) by (unfold N2; rewrite Etl; apply last_last).
        assert (R : a = N1) by congruence.
        apply in_app_or in Hia. destruct Hia as [V|V].
        -- (* a = datum in rev u1, head again *)
          assert (Hh : exists t, rev u1 = N1 :: t).
          { unfold N1. assert (Q' : last (node :: u1) node = last u1 node) by (unfold u1; reflexivity).
            rewrite Q'. exists (rev (removelast u1)).
            rewrite (app_removelast_last node (l := u1)) at 1 by discriminate.
            rewrite rev_app_distr. reflexivity. }
          destruct Hh as (t & Et). rewrite Et in E, Hdup. cbn [app] in E, Hdup.
          destruct l1 as [|z l1]; cbn in E; injection E as E3 E4.
          ++ inversion Hdup as [|? ? P _]. apply P. rewrite E4. left. exact R.
          ++ inversion Hdup as [|? ? P _]. apply P. rewrite E4. apply in_or_app. right. right. left. exact R.
        -- apply Hends. rewrite <- R. exact V.
  - intros a b Hma Hia Hmb Hab. apply Hmem; [exact Hmb|].
    apply (Hcl a b Hma (Hmem' a Hia) Hab).
  - apply in_or_app. right. rewrite Ev2. left. reflexivity.
  - intros Q HQ a Hma Hia Qa.
    assert (Back : forall u, walk O es (node :: u) -> forall l1 a l2, node :: u = l1 ++ a :: l2 ->
                     mid O es a -> Q a -> Q node).
    { intros u W l1. induction l1 as [|z l1 IH] using rev_ind; intros c l2 E Hc Qc.
      - cbn in E. injection E as E _. subst c. exact Qc.
      - rewrite <- app_assoc in E. cbn in E.
        assert (Hz : mid O es z).
        { apply (w_mids _ _ _ W). rewrite E, removelast_app by discriminate.
          apply in_or_app. right. cbn. left. reflexivity. }
        apply (IH z (c :: l2) E Hz). apply (HQ c z Hc Qc Hz).
        apply linked_sym. pose proof (w_way _ _ _ W) as V. rewrite E in V. eapply way_mid. exact V. }
    destruct (Hmem' a Hia) as [X|X]; apply in_split in X; destruct X as (l1 & l2 & E).
    + exact (Back u1 W1 l1 a l2 E Hma Qa).
    + exact (Back u2 W2 l1 a l2 E Hma Qa).
Qed.
