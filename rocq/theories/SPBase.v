(** Lemmas on graphs as lists of edges: orders, links, bundles. *)
From Coq Require Import String List Bool Arith Permutation Lia.
From Verif Require Import Py Graph SP Spec_SP.
Import ListNotations.
Local Open Scope string_scope.
Local Open Scope list_scope.
Local Open Scope nat_scope.

Definition simple (es : list spedge) : Prop := forall e, In e es -> src e <> dst e.

Lemma linked_sym : forall es a b, linked es a b -> linked es b a.
Proof. intros es a b (e & Hi & [H|H]); exists e; split; auto; [right|left]; tauto. Qed.

Lemma linked_node : forall es a b, linked es a b -> is_node es a /\ is_node es b.
Proof.
  intros es a b (e & Hi & [[H1 H2]|[H1 H2]]); split; exists e; auto.
Qed.

Lemma linked_neq : forall es a b, simple es -> linked es a b -> a <> b.
Proof. intros es a b Hs (e & Hi & H) E. subst b. apply (Hs e Hi). destruct H as [[H1 H2]|[H1 H2]]; congruence. Qed.

Lemma linked_perm : forall es es' a b, Permutation es es' -> linked es a b -> linked es' a b.
Proof. intros es es' a b P (e & Hi & H). exists e. split; [eapply Permutation_in; eauto | exact H]. Qed.

Lemma node_linked : forall es n, is_node es n -> exists m, linked es n m.
Proof.
  intros es n (e & Hi & [H|H]).
  - exists (dst e). exists e. split; [exact Hi|]. left. auto.
  - exists (src e). exists e. split; [exact Hi|]. right. auto.
Qed.

(** Boolean form of [joins]. *)
Definition joinsb (a b : string) (e : spedge) : bool := goes a b e || goes b a e.

Lemma goes_spec : forall a b e, goes a b e = true <-> src e = a /\ dst e = b.
Proof.
  intros. unfold goes. rewrite andb_true_iff, !String.eqb_eq. tauto.
Qed.
Lemma joinsb_spec : forall a b e, joinsb a b e = true <-> joins a b e.
Proof.
  intros. unfold joinsb, joins. rewrite orb_true_iff, !goes_spec. tauto.
Qed.
Lemma joinsb_sym : forall a b e, joinsb a b e = joinsb b a e.
Proof. intros. unfold joinsb. apply orb_comm. Qed.

Lemma within_joins : forall a b e, src e <> dst e -> within a b e = joinsb a b e.
Proof.
  intros a b e H. apply eq_true_iff_eq. rewrite joinsb_spec. unfold within, joins.
  rewrite andb_true_iff, !orb_true_iff, !String.eqb_eq. split.
  - intros [[H1|H1] [H2|H2]]; try (exfalso; congruence); auto.
  - tauto.
Qed.

Lemma getedges_joins : forall O es a b, enumerates O -> simple es ->
  getedges O es a b = filter (joinsb a b) (o_edges O es).
Proof.
  intros O es a b HO Hs. unfold getedges. apply filter_ext_in. intros e Hi.
  apply within_joins, Hs. destruct (HO es) as (_ & P & _). eapply Permutation_in; eauto.
Qed.

Lemma filter_perm : forall {A} (f : A -> bool) l l', Permutation l l' -> Permutation (filter f l) (filter f l').
Proof.
  intros A f l l' P. induction P; cbn.
  - constructor.
  - destruct (f x); [constructor|]; auto.
  - destruct (f x), (f y); try reflexivity. constructor.
  - etransitivity; eauto.
Qed.

Lemma getedges_perm : forall O es a b, enumerates O -> simple es ->
  Permutation (getedges O es a b) (filter (joinsb a b) es).
Proof.
  intros O es a b HO Hs. rewrite (getedges_joins O es a b HO Hs).
  apply filter_perm. apply (HO es).
Qed.

Lemma filter_split : forall {A} (f : A -> bool) l,
  Permutation l (filter f l ++ filter (fun x => negb (f x)) l).
Proof.
  intros A f l. induction l as [|x l IH]; [constructor|]. cbn. destruct (f x); cbn.
  - constructor. exact IH.
  - apply Permutation_cons_app. exact IH.
Qed.

Lemma linked_count : forall es a b, linked es a b <-> 0 < length (filter (joinsb a b) es).
Proof.
  intros es a b. split.
  - intros (e & Hi & H). assert (X : In e (filter (joinsb a b) es)).
    { apply filter_In. split; [exact Hi|]. now apply joinsb_spec. }
    destruct (filter (joinsb a b) es); [destruct X | cbn; lia].
  - intros H. destruct (filter (joinsb a b) es) as [|e l] eqn:E; [cbn in H; lia|].
    assert (X : In e (filter (joinsb a b) es)) by (rewrite E; left; reflexivity).
    apply filter_In in X. exists e. split; [tauto|]. now apply joinsb_spec.
Qed.

Lemma degree_simple : forall O es n, simple es -> degree O es n = length (o_nbrs O es n).
Proof.
  intros O es n Hs. unfold degree.
  destruct (existsb _ es) eqn:E; [|lia]. exfalso.
  apply existsb_exists in E. destruct E as (e & Hi & H).
  rewrite andb_true_iff, !String.eqb_eq in H. apply (Hs e Hi). destruct H; congruence.
Qed.

(** A node other than the datum with exactly two neighbors. *)
Definition mid (O : order) (es : list spedge) (n : string) : Prop :=
  n <> datum /\ length (o_nbrs O es n) = 2.

Lemma mid_dec : forall O es n, {mid O es n} + {~ mid O es n}.
Proof.
  intros. unfold mid. destruct (string_dec n datum) as [e|e]; [right; tauto|].
  destruct (Nat.eq_dec (length (o_nbrs O es n)) 2); [left|right]; tauto.
Qed.

Lemma mid_test : forall O es n, simple es ->
  (Nat.eqb (degree O es n) 2 && negb (String.eqb n datum)) = true <-> mid O es n.
Proof.
  intros O es n Hs. rewrite (degree_simple O es n Hs), andb_true_iff, negb_true_iff, Nat.eqb_eq, String.eqb_neq.
  unfold mid. tauto.
Qed.

Lemma mid_two : forall O es n a b, enumerates O -> mid O es n -> a <> b ->
  linked es n a -> linked es n b -> forall m, linked es n m -> m = a \/ m = b.
Proof.
  intros O es n a b HO [_ Hl] Hab Ha Hb m Hm.
  destruct (HO es) as (_ & _ & HN). destruct (HN n) as [ND HI].
  apply HI in Ha, Hb, Hm.
  destruct (o_nbrs O es n) as [|x [|y [|z l]]]; try discriminate.
  cbn in Ha, Hb, Hm.
  intuition congruence.
Qed.

Lemma mid_other : forall O es n a, enumerates O -> mid O es n -> linked es n a ->
  exists b, a <> b /\ linked es n b /\ py_remove String.eqb a (o_nbrs O es n) = Ok [b].
Proof.
  intros O es n a HO [_ Hl] Ha.
  destruct (HO es) as (_ & _ & HN). destruct (HN n) as [ND HI].
  apply HI in Ha.
  destruct (o_nbrs O es n) as [|x [|y [|z l]]] eqn:E; try discriminate.
  inversion ND as [|? ? Hx ND' E1]; subst.
  cbn in Ha. destruct Ha as [Ha|[Ha|[]]]; subst a.
  - exists y. split; [intros E1; subst; apply Hx; left; reflexivity|]. split.
    + apply HI. right. left. reflexivity.
    + cbn. rewrite String.eqb_refl. reflexivity.
  - exists x. split; [intros E1; subst; apply Hx; left; reflexivity|]. split.
    + apply HI. left. reflexivity.
    + cbn. destruct (String.eqb_spec x y); [subst; exfalso; apply Hx; left; reflexivity|].
      rewrite String.eqb_refl. reflexivity.
Qed.

(** A set closed under links that misses the datum has no way to it. *)
Lemma no_route : forall es N (P : string -> Prop),
  (forall a b, P a -> linked es a b -> b = N \/ P b) -> ~ P datum ->
  forall v, route es N v -> ~ P v.
Proof.
  intros es N P Hc Hd v R. induction R as [HN|a b Ha Hl R IH]; [exact Hd|].
  intros HP. destruct (Hc a b HP Hl) as [E|E]; [|exact (IH E)].
  subst b. inversion R as [H1 H2|a' b' Ha' Hl' R']; subst; congruence.
Qed.
