(** One replacement of a chain or of a bundle. *)
From Coq Require Import String List Bool Arith Permutation Lia.
From Verif Require Import Py Graph SP Spec_SP SPBase SPChain.
Import ListNotations.
Local Open Scope string_scope.
Local Open Scope list_scope.
Local Open Scope nat_scope.

(** All the edges below an edge, itself included, and the components among them. *)
Fixpoint full (e : spedge) : list spedge :=
  match e with Edge _ _ t _ s => e :: if String.eqb t "graph" then flat_map full s else [] end.
Definition comps (e : spedge) : list spedge := filter (fun e => negb (temporary e)) (full e).
Definition all_comps (es : list spedge) : list spedge := flat_map comps es.

Lemma contains_app : forall a b c, contains a (b ++ a ++ c) = true.
Proof.
  intros a b c. induction b as [|x b IH]; cbn [append].
  - assert (P : forall c, String.prefix a (a ++ c) = true).
    { clear. intros c. induction a as [|y a IH]; [destruct c; reflexivity|]. cbn.
      destruct (Ascii.ascii_dec y y); [exact IH | congruence]. }
    destruct a as [|y a]; [destruct c; reflexivity|]. specialize (P c). cbn [append] in *. cbn [contains]. rewrite P. reflexivity.
  - cbn [contains]. rewrite IH. apply orb_true_r.
Qed.

Lemma outs_out : forall lab a b p, In p (outs lab a b) ->
  type p = "port" /\ contains "_out_" (label p) = true /\ sub p = [].
Proof.
  intros lab a b p H. unfold outs in H. apply in_flat_map in H. destruct H as (n & _ & H).
  destruct (String.eqb n datum); [destruct H|]. destruct H as [H|[]]. subst p. cbn [type label sub].
  split; [reflexivity|]. split; [apply contains_app | reflexivity].
Qed.

Lemma comps_out : forall lab a b, flat_map comps (outs lab a b) = [].
Proof.
  intros lab a b.
  assert (X : forall l, (forall p, In p l -> type p = "port" /\ contains "_out_" (label p) = true /\ sub p = []) ->
              flat_map comps l = []).
  { induction l as [|p l IH]; intros H; [reflexivity|]. cbn [flat_map]. rewrite IH by (intros q Hq; apply H; right; exact Hq).
    rewrite app_nil_r. destruct (H p (or_introl eq_refl)) as (H1 & H2 & H3).
    destruct p as [s d t l' sb]. cbn [type label] in *. subst t.
    unfold comps. cbn. unfold temporary. cbn [label type]. rewrite H2. reflexivity. }
  apply X. intros p Hp. exact (outs_out lab a b p Hp).
Qed.

Lemma filter_flat_map : forall {A B} (f : B -> bool) (g : A -> list B) l,
  filter f (flat_map g l) = flat_map (fun x => filter f (g x)) l.
Proof. intros. induction l as [|x l IH]; [reflexivity|]. cbn. rewrite filter_app, IH. reflexivity. Qed.

Lemma comps_group : forall a b l es lab x y, 
  comps (Edge a b "graph" l (es ++ outs lab x y)) = all_comps es.
Proof.
  intros. unfold comps. cbn [full String.eqb Ascii.eqb Bool.eqb].
  replace ("graph" =? "graph")%string with true by reflexivity.
  cbn [filter]. unfold temporary at 1. cbn [type label].
  replace ("graph" =? "graph")%string with true by reflexivity. rewrite orb_true_r. cbn [negb].
  rewrite filter_flat_map. fold comps. rewrite flat_map_app.
  change (fun x0 : spedge => filter (fun e : spedge => negb (temporary e)) (full x0)) with comps.
  rewrite comps_out, app_nil_r. reflexivity.
Qed.

Lemma flat_map_perm : forall {A B} (f : A -> list B) l l', Permutation l l' -> Permutation (flat_map f l) (flat_map f l').
Proof.
  intros A B f l l' P. induction P; cbn.
  - constructor.
  - apply Permutation_app_head. assumption.
  - rewrite !app_assoc. apply Permutation_app_tail. apply Permutation_app_comm.
  - etransitivity; eassumption.
Qed.

(** ** Removals *)
Lemma drop_first_filter : forall f l, length (filter f l) <= 1 -> drop_first f l = filter (fun e => negb (f e)) l.
Proof.
  intros f l. induction l as [|e l IH]; intros H; [reflexivity|]. cbn in *.
  destruct (f e) eqn:E; cbn in *; [|rewrite IH; auto].
  assert (X : filter f l = []) by (destruct (filter f l); [reflexivity | cbn in H; lia]).
  clear - X. induction l as [|x l IH]; [reflexivity|]. cbn in *. destruct (f x); [discriminate|].
  cbn. rewrite <- IH; auto.
Qed.

Lemma filter_rev' : forall {A} (f : A -> bool) l, filter f (rev l) = rev (filter f l).
Proof.
  intros A f l. induction l as [|x l IH]; [reflexivity|]. cbn. rewrite filter_app, IH. cbn.
  destruct (f x); [reflexivity | apply app_nil_r].
Qed.

Lemma drop_last_filter : forall f l, length (filter f l) <= 1 -> drop_last f l = filter (fun e => negb (f e)) l.
Proof.
  intros f l H. unfold drop_last. rewrite drop_first_filter.
  - rewrite filter_rev'. apply rev_involutive.
  - rewrite filter_rev', rev_length. exact H.
Qed.

Lemma drop_first_other : forall f g l, (forall e, f e = true -> g e = false) ->
  filter g (drop_first f l) = filter g l.
Proof.
  intros f g l H. induction l as [|x l IH]; [reflexivity|]. cbn.
  destruct (f x) eqn:E; [rewrite (H x E); reflexivity|]. cbn. rewrite IH. reflexivity.
Qed.
Lemma drop_last_other : forall f g l, (forall e, f e = true -> g e = false) ->
  filter g (drop_last f l) = filter g l.
Proof.
  intros f g l H. unfold drop_last. rewrite filter_rev', drop_first_other by exact H.
  rewrite filter_rev'. apply rev_involutive.
Qed.

Definition on (c : list spedge) (x : spedge) : bool := existsb (fun e => goes (src e) (dst e) x) c.

Lemma filter_filter : forall {A} (f g : A -> bool) l, filter f (filter g l) = filter (fun x => g x && f x) l.
Proof.
  intros A f g l. induction l as [|x l IH]; [reflexivity|]. cbn. destruct (g x); cbn; [|exact IH].
  destruct (f x); [rewrite IH|]; auto.
Qed.

Lemma filter_shrink : forall {A} (f g : A -> bool) l, length (filter f (filter g l)) <= length (filter f l).
Proof.
  intros A f g l. induction l as [|x l IH]; [cbn; lia|]. cbn. destruct (g x); cbn; destruct (f x); cbn; lia.
Qed.

Lemma remove_once : forall c es, (forall e, In e c -> length (filter (goes (src e) (dst e)) es) <= 1) ->
  fold_left (fun es e => drop_last (goes (src e) (dst e)) es) c es = filter (fun x => negb (on c x)) es.
Proof.
  intros c. induction c as [|e c IH]; intros es H.
  - cbn. symmetry. clear. induction es as [|x es IH]; [reflexivity|]. cbn. rewrite IH. reflexivity.
  - cbn [fold_left]. rewrite drop_last_filter by (apply H; left; reflexivity). rewrite IH.
    + rewrite filter_filter. apply filter_ext. intros x. cbn. rewrite negb_orb. reflexivity.
    + intros e' Hi. etransitivity; [apply filter_shrink|]. apply H. right. exact Hi.
Qed.

Lemma remove_chain_filter : forall c es, (forall e, In e c -> length (filter (goes (src e) (dst e)) es) <= 1) ->
  remove_chain c es = filter (fun x => negb (on c x)) es.
Proof.
  intros c es H. unfold remove_chain.
  assert (X : forall k es, (forall e, In e c -> length (filter (goes (src e) (dst e)) es) <= 1) ->
     k <> [] ->
     fold_left (fun es (_ : spedge) => fold_left (fun es e => drop_last (goes (src e) (dst e)) es) c es) k es
     = filter (fun x => negb (on c x)) es).
  { intros k. induction k as [|y k IH]; intros es' H' Hk; [congruence|]. cbn [fold_left].
    rewrite remove_once by exact H'. destruct k as [|z k]; [reflexivity|].
    rewrite IH.
    - rewrite filter_filter. apply filter_ext. intros x. destruct (on c x); reflexivity.
    - intros e He. etransitivity; [apply filter_shrink|]. apply H'. exact He.
    - discriminate. }
  destruct c as [|e c].
  - cbn. clear. induction es as [|x es IH]; [reflexivity|]. cbn. rewrite <- IH. reflexivity.
  - apply X; [exact H | discriminate].
Qed.

Definition touch (a : string) (e : spedge) : bool := String.eqb (src e) a || String.eqb (dst e) a.
Lemma touch_spec : forall a e, touch a e = true <-> src e = a \/ dst e = a.
Proof. intros. unfold touch. rewrite orb_true_iff, !String.eqb_eq. tauto. Qed.

Lemma remove_chain_other : forall c es g, (forall e x, In e c -> goes (src e) (dst e) x = true -> g x = false) ->
  filter g (remove_chain c es) = filter g es.
Proof.
  intros c es g H. unfold remove_chain.
  assert (X : forall k es, (forall e, In e k -> In e c) ->
    filter g (fold_left (fun es e => drop_last (goes (src e) (dst e)) es) k es) = filter g es).
  { induction k as [|e k IH]; intros es' Hk; [reflexivity|]. cbn. rewrite IH by (intros; apply Hk; right; assumption).
    apply drop_last_other. intros x Hx. apply (H e x); [apply Hk; left; reflexivity | exact Hx]. }
  generalize c at 2 as k. intros k. revert es. induction k as [|y k IH]; intros es; [reflexivity|].
  cbn. rewrite IH. apply X. auto.
Qed.

Lemma one_in_filter : forall {A} (f : A -> bool) l x, length (filter f l) <= 1 -> In x l -> f x = true -> filter f l = [x].
Proof.
  intros A f l x H Hi Hf. assert (X : In x (filter f l)) by (apply filter_In; auto).
  destruct (filter f l) as [|y [|z r]]; [destruct X | | cbn in H; lia]. destruct X as [X|[]]. subst. reflexivity.
Qed.

Lemma goes_count : forall es a b, length (filter (goes a b) es) <= length (filter (joinsb a b) es).
Proof.
  intros es a b. induction es as [|e es IH]; [cbn; lia|]. cbn. unfold joinsb at 1.
  destruct (goes a b e) eqn:E; cbn; [lia|]. destruct (goes b a e); cbn; lia.
Qed.

Lemma joins_of : forall a b e, joins a b e -> joinsb a b e = joinsb (src e) (dst e) e.
Proof.
  intros a b e [[H1 H2]|[H1 H2]]; subst; [reflexivity | apply joinsb_sym].
Qed.

(** Two nodes that follow each other in a list, in either order. *)
Definition next_to (s : list string) (a b : string) : Prop :=
  exists l1 l2, s = l1 ++ a :: b :: l2 \/ s = l1 ++ b :: a :: l2.

Lemma next_to_sym : forall s a b, next_to s a b -> next_to s b a.
Proof. intros s a b (l1 & l2 & [H|H]); exists l1, l2; auto. Qed.
Lemma next_to_cons : forall s a b x, next_to s a b -> next_to (x :: s) a b.
Proof. intros s a b x (l1 & l2 & [H|H]); exists (x :: l1), l2; rewrite H; auto. Qed.
Lemma next_to_in : forall s a b, next_to s a b -> In a s /\ In b s.
Proof.
  intros s a b (l1 & l2 & [H|H]); subst s; split; apply in_or_app; right; cbn; auto.
Qed.

Lemma passes_next : forall c s e, passes c s -> In e c -> exists a b, joins a b e /\ next_to s a b.
Proof.
  intros c. induction c as [|x c IH]; intros s e Hp Hi; [destruct Hi|].
  destruct s as [|a [|b s]]; try (destruct Hp; fail). destruct Hp as [Hj Hp].
  destruct Hi as [Hi|Hi].
  - subst x. exists a, b. split; [exact Hj|]. exists [], s. left. reflexivity.
  - destruct (IH (b :: s) e Hp Hi) as (a' & b' & Hj' & Hn). exists a', b'. split; [exact Hj'|].
    now apply next_to_cons.
Qed.

Lemma next_passes : forall c s a b, passes c s -> next_to s a b -> exists e, In e c /\ joins a b e.
Proof.
  intros c s a b Hp (l1 & l2 & H).
  assert (X : forall l1 c a b l2, passes c (l1 ++ a :: b :: l2) -> exists e, In e c /\ joins a b e).
  { clear. intros l1. induction l1 as [|x l1 IH]; intros c a b l2 Hp.
    - cbn in Hp. destruct c as [|e c]; [destruct Hp|]. exists e. split; [left; reflexivity | apply Hp].
    - destruct c as [|e c]; [destruct l1; destruct Hp|].
      assert (Y : passes c (l1 ++ a :: b :: l2)) by (destruct l1; apply Hp).
      destruct (IH c a b l2 Y) as (e' & Hi & Hj). exists e'. split; [right; exact Hi | exact Hj]. }
  destruct H as [H|H]; subst s.
  - exact (X l1 c a b l2 Hp).
  - destruct (X l1 c b a l2 Hp) as (e & Hi & Hj). exists e. split; [exact Hi|].
    unfold joins in *. tauto.
Qed.

Lemma joins_ends : forall a b e, joins a b e -> (touch a e = true /\ touch b e = true) /\
  forall x, touch x e = true -> x = a \/ x = b.
Proof.
  intros a b e [[H1 H2]|[H1 H2]]; subst a b; rewrite !touch_spec; (split; [auto|]);
    intros x Hx; apply touch_spec in Hx; destruct Hx; auto.
Qed.

(** The edges of a chain, each alone between its ends, can be taken out. *)
Lemma chain_out : forall c s cur, passes c s -> NoDup s ->
  (forall e, In e c -> In e cur) ->
  (forall e, In e c -> length (filter (joinsb (src e) (dst e)) cur) <= 1) ->
  Permutation cur (c ++ filter (fun x => negb (on c x)) cur).
Proof.
  intros c. induction c as [|e c IH]; intros s cur Hp Hn Hin Hone.
  - cbn. replace (filter (fun _ => true) cur) with cur; [reflexivity|].
    clear. induction cur as [|x l IH]; [reflexivity|]. cbn. rewrite <- IH. reflexivity.
  - destruct s as [|a [|b s]]; try (destruct Hp; fail). destruct Hp as [Hj Hp].
    inversion Hn as [|? ? Ha Hn']; subst.
    set (f := goes (src e) (dst e)).
    assert (Hf : filter f cur = [e]).
    { apply one_in_filter.
      - etransitivity; [apply goes_count|]. apply Hone. left. reflexivity.
      - apply Hin. left. reflexivity.
      - apply goes_spec. auto. }
    set (cur1 := filter (fun x => negb (f x)) cur).
    assert (P1 : Permutation cur (e :: cur1)).
    { etransitivity; [apply (filter_split f)|]. rewrite Hf. reflexivity. }
    assert (Hoff : forall e', In e' c -> f e' = false).
    { intros e' Hi. destruct (f e') eqn:E; [|reflexivity]. exfalso.
      destruct (passes_next c (b :: s) e' Hp Hi) as (x & y & Hj' & Hn2).
      apply next_to_in in Hn2. apply goes_spec in E. destruct E as [E1 E2].
      assert (T : touch a e' = true).
      { destruct (joins_ends a b e Hj) as [[T _] _]. apply touch_spec in T. apply touch_spec.
        rewrite E1, E2. exact T. }
      destruct (joins_ends x y e' Hj') as [_ T2]. destruct (T2 a T); subst; tauto. }
    assert (P2 := IH (b :: s) cur1 Hp Hn').
    etransitivity; [exact P1|]. cbn [app]. constructor.
    replace (filter (fun x => negb (on (e :: c) x)) cur) with (filter (fun x => negb (on c x)) cur1).
    + apply P2.
      * intros e' Hi. apply filter_In. split; [apply Hin; right; exact Hi|]. rewrite (Hoff e' Hi). reflexivity.
      * intros e' Hi. etransitivity; [apply filter_shrink|]. apply Hone. right. exact Hi.
    + unfold cur1. rewrite filter_filter. apply filter_ext. intros x. cbn. unfold f. rewrite negb_orb. reflexivity.
Qed.
