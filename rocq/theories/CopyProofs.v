(** Proofs about copies of cores. *)
From Coq Require Import String List ZArith QArith Bool Lia.
From Verif Require Import Py Expr Objects Spec_Copy.
Import ListNotations.
Local Open Scope string_scope.
Local Open Scope list_scope.
Local Open Scope nat_scope.

(** ** Attributes *)

Lemma aname_eqb_eq : forall a b, aname_eqb a b = true <-> a = b.
Proof.
  intros [s|s] [t|t]; cbn; try (split; intros; discriminate);
    rewrite String.eqb_eq; split; congruence.
Qed.

Lemma aname_eqb_refl : forall a, aname_eqb a a = true.
Proof. intros; now apply aname_eqb_eq. Qed.

Lemma aname_eqb_neq : forall a b, aname_eqb a b = false <-> a <> b.
Proof.
  intros. destruct (aname_eqb a b) eqn:E.
  - apply aname_eqb_eq in E. split; congruence.
  - split; auto. intros _ X. apply aname_eqb_eq in X. congruence.
Qed.

Lemma aname_dec : forall a b : aname, {a = b} + {a <> b}.
Proof.
  intros. destruct (aname_eqb a b) eqn:E.
  - left; now apply aname_eqb_eq.
  - right; now apply aname_eqb_neq.
Qed.

Lemma get_set_same : forall c n v, getattr (setattr c n v) n = Some v.
Proof.
  induction c as [|[m w] c IH]; intros; cbn.
  - now rewrite aname_eqb_refl.
  - destruct (aname_eqb n m) eqn:E; cbn.
    + now rewrite aname_eqb_refl.
    + now rewrite E.
Qed.

Lemma get_set_other : forall c n m v, m <> n ->
  getattr (setattr c n v) m = getattr c m.
Proof.
  induction c as [|[k w] c IH]; intros; cbn.
  - destruct (aname_eqb m n) eqn:E; auto. apply aname_eqb_eq in E. congruence.
  - destruct (aname_eqb n k) eqn:E; cbn.
    + apply aname_eqb_eq in E. subst k.
      destruct (aname_eqb m n) eqn:F; auto.
      apply aname_eqb_eq in F. congruence.
    + destruct (aname_eqb m k); auto.
Qed.

Lemma get_set : forall c n m v,
  getattr (setattr c n v) m = if aname_dec m n then Some v else getattr c m.
Proof.
  intros. destruct (aname_dec m n) as [->|D].
  - apply get_set_same.
  - now apply get_set_other.
Qed.

Lemma get_del : forall c n m v,
  getattr (filter (fun p => negb (aname_eqb (fst p) n)) c) m = Some v ->
  getattr c m = Some v.
Proof.
  induction c as [|[k w] c IH]; intros n m v E; cbn in *; auto.
  destruct (aname_eqb k n) eqn:F; cbn in *.
  - specialize (IH _ _ _ E). destruct (aname_eqb m k) eqn:G; auto.
    apply aname_eqb_eq in F, G. subst.
    (* the name was removed, so it cannot be found *)
    exfalso. clear IH. induction c as [|[k' w'] c IH]; cbn in E; try discriminate.
    destruct (aname_eqb k' n) eqn:H; cbn in E; auto.
    destruct (aname_eqb n k') eqn:H'; auto.
    apply aname_eqb_eq in H'. subst. rewrite aname_eqb_refl in H. discriminate.
  - destruct (aname_eqb m k); auto. eauto.
Qed.

(** ** What is observed depends on what is reached *)

Definition closed (h : heap) (K : nat -> Prop) : Prop :=
  forall l o m, K l -> nth_error h l = Some o -> In m (orefs o) -> K m.

Lemma refs_in_list : forall (vs : list value) v l,
  In v vs -> In l (refs v) -> In l (flat_map refs vs).
Proof. intros. apply in_flat_map. eauto. Qed.

Lemma refs_in_pairs : forall (kvs : list (value * value)) p l,
  In p kvs -> In l (refs (fst p)) \/ In l (refs (snd p)) ->
  In l (flat_map (fun p => refs (fst p) ++ refs (snd p)) kvs).
Proof.
  intros. apply in_flat_map. exists p. split; auto. apply in_or_app; auto.
Qed.

(** The content of an object, given that of its values. *)
Definition shape (f : value -> tree) (o : obj) : tree :=
  match o with
  | OList vs => TList (map f vs)
  | OSet vs => TSet (map f vs)
  | ODict kvs => TDict (map (fun p => (f (fst p), f (snd p))) kvs)
  | OMat r k vs => TMat r k (map f vs)
  end.

Lemma resolve_ref : forall d h l,
  resolve (S d) h (VRef l) =
  match nth_error h l with
  | Some o => shape (resolve d h) o
  | None => TCut
  end.
Proof. intros. cbn. destruct (nth_error h l) as [[]|]; reflexivity. Qed.

Lemma shape_ext : forall f g o,
  (forall v, (forall m, In m (refs v) -> In m (orefs o)) -> f v = g v) ->
  shape f o = shape g o.
Proof.
  intros f g o E. destruct o; cbn in *; f_equal;
    apply map_ext_in; intros x X.
  1,2,4: apply E; intros; eapply refs_in_list; eauto.
  f_equal; apply E; intros; eapply refs_in_pairs; eauto.
Qed.

Lemma resolve_agree : forall d h h' (K : nat -> Prop) v,
  closed h K ->
  (forall l, K l -> nth_error h' l = nth_error h l) ->
  (forall l, In l (refs v) -> K l) ->
  resolve d h' v = resolve d h v.
Proof.
  induction d as [|d IH]; intros h h' K v C A R.
  - destruct v; reflexivity.
  - destruct v as [| | | |l]; try reflexivity.
    rewrite !resolve_ref.
    assert (Kl : K l) by (apply R; cbn; auto).
    rewrite (A l Kl). destruct (nth_error h l) as [o|] eqn:E; auto.
    apply shape_ext. intros v V. apply (IH h h' K); auto.
    intros m M. apply (C l o); auto.
Qed.

Lemma observe_agree : forall h h' (K : nat -> Prop) c,
  closed h K ->
  (forall l, K l -> nth_error h' l = nth_error h l) ->
  (forall n v l, getattr c n = Some v -> In l (refs v) -> K l) ->
  same_everywhere h c h' c.
Proof.
  intros h h' K c C A R n d. unfold observe.
  destruct (getattr c n) as [v|] eqn:E; cbn; auto.
  f_equal. apply (resolve_agree d h h' K); eauto.
Qed.

(** ** Independence *)

Lemma reach_trans : forall h a b c, reach h a b -> reach h b c -> reach h a c.
Proof. intros h a b c R. induction R; auto. intros. eapply reach_step; eauto. Qed.

Lemma reach_one : forall h l o m,
  nth_error h l = Some o -> In m (orefs o) -> reach h l m.
Proof. intros. eapply reach_step; eauto. apply reach_here. Qed.

Lemma reaches_closed : forall h c, closed h (reaches h c).
Proof.
  intros h c l o m (n & v & k & G & I & R) E M.
  exists n, v, k. repeat split; auto.
  eapply reach_trans; eauto. eapply reach_one; eauto.
Qed.

Lemma nth_error_replace_same : forall h l o, l < length h ->
  nth_error (replace h l o) l = Some o.
Proof.
  intros. unfold replace. rewrite nth_error_app2; rewrite firstn_length.
  - replace (l - Nat.min l (length h)) with 0 by lia. reflexivity.
  - lia.
Qed.

Lemma nth_error_firstn' : forall (A : Type) k (l : list A) i, i < k ->
  nth_error (firstn k l) i = nth_error l i.
Proof.
  induction k; intros l i L; [lia|].
  destruct l; cbn; auto. destruct i; cbn; auto. apply IHk. lia.
Qed.

Lemma nth_error_skipn' : forall (A : Type) k (l : list A) i,
  nth_error (skipn k l) i = nth_error l (k + i).
Proof.
  induction k; intros l i; cbn; auto. destruct l; cbn; auto. now destruct i.
Qed.

Lemma nth_error_replace_other : forall h l o k, l < length h -> k <> l ->
  nth_error (replace h l o) k = nth_error h k.
Proof.
  intros h l o k L D. unfold replace.
  destruct (Nat.lt_ge_cases k l).
  - rewrite nth_error_app1 by (rewrite firstn_length; lia).
    now apply nth_error_firstn'.
  - rewrite nth_error_app2 by (rewrite firstn_length; lia).
    rewrite firstn_length. replace (Nat.min l (length h)) with l by lia.
    destruct (k - l) eqn:E; [lia|]. cbn [nth_error].
    rewrite nth_error_skipn'. f_equal. lia.
Qed.

Lemma replace_length : forall h l o, l < length h ->
  length (replace h l o) = length h.
Proof.
  intros. unfold replace. rewrite app_length. cbn [length].
  rewrite firstn_length, skipn_length. lia.
Qed.

Section Independence.
  Variable writable : nat -> Prop.

  (** One side: what a program holds is allocated, closed and contains its
      core. *)
  Record side (h : heap) (c : pycore) (K : nat -> Prop) : Prop := {
    s_alloc : forall l, K l -> l < length h;
    s_closed : closed h K;
    s_core : forall n v l, getattr c n = Some v -> In l (refs v) -> K l
  }.

  Record inv (h : heap) (a : pycore) (ka : nat -> Prop) (b : pycore)
         (kb : nat -> Prop) : Prop := {
    i_left : side h a ka;
    i_right : side h b kb;
    i_common : forall l, ka l -> kb l -> ~ writable l
  }.

  Lemma inv_sym : forall h a ka b kb, inv h a ka b kb -> inv h b kb a ka.
  Proof. intros h a ka b kb [L R C]. split; auto. Qed.

  (** An action of the right side leaves the left side in order. *)
  Lemma act_frame : forall act h a ka b kb h' b' kb',
    inv h a ka b kb -> does writable act (h, b, kb) (h', b', kb') ->
    forall l, ka l -> nth_error h' l = nth_error h l.
  Proof.
    intros act h a ka b kb h' b' kb' [L R C] D l Kl.
    assert (Ll := s_alloc _ _ _ L l Kl).
    inversion D; subst; auto.
    - now rewrite nth_error_app1.
    - apply nth_error_replace_other; auto.
      intros ->. eapply C; eauto.
  Qed.

  Lemma act_observe : forall act h a ka b kb h' b' kb',
    inv h a ka b kb -> does writable act (h, b, kb) (h', b', kb') ->
    same_everywhere h a h' a.
  Proof.
    intros act h a ka b kb h' b' kb' I D.
    destruct I as [L R C] eqn:EI.
    apply (observe_agree h h' ka a (s_closed _ _ _ L)); [|apply (s_core _ _ _ L)].
    intros l Kl. eapply act_frame; eauto.
  Qed.

  Lemma act_length : forall act h b kb h' b' kb',
    does writable act (h, b, kb) (h', b', kb') -> length h <= length h'.
  Proof.
    intros. inversion H; subst; auto.
    - rewrite app_length; lia.
    - now rewrite replace_length.
  Qed.

  Lemma act_inv : forall act h a ka b kb h' b' kb',
    inv h a ka b kb -> does writable act (h, b, kb) (h', b', kb') ->
    inv h' a ka b' kb'.
  Proof.
    intros act h a ka b kb h' b' kb' I D.
    assert (F := act_frame _ _ _ _ _ _ _ _ _ I D).
    assert (LL := act_length _ _ _ _ _ _ _ D).
    destruct I as [[La Lc Lr] [Ra Rc Rr] C].
    assert (side h' a ka).
    { split; auto.
      - intros l Kl. specialize (La l Kl). lia.
      - intros l o m Kl E M. rewrite (F l Kl) in E. eapply Lc; eauto. }
    inversion D; subst; split; auto.
    - split.
      + intros l [Kl| ->]; rewrite app_length; cbn; [specialize (Ra l Kl)|]; lia.
      + intros l o' m [Kl| ->] E M.
        * left. rewrite nth_error_app1 in E by (now apply Ra). eapply Rc; eauto.
        * left. rewrite nth_error_app2 in E by lia.
          rewrite Nat.sub_diag in E. cbn in E. injection E as <-. auto.
      + intros. left. eapply Rr; eauto.
    - intros l Kl [Kr| ->]; eauto. specialize (La _ Kl). lia.
    - split.
      + intros k Kk. rewrite replace_length; auto.
      + intros k o' m Kk E M. destruct (Nat.eq_dec k l) as [->|Dk].
        * rewrite nth_error_replace_same in E by auto. injection E as <-. auto.
        * rewrite nth_error_replace_other in E by auto. eapply Rc; eauto.
      + auto.
    - split; auto. intros m w l E M. rewrite get_set in E.
      destruct (aname_dec m n); [injection E as <-; auto|eauto].
    - split; auto. intros m w l E M. apply get_del in E. eauto.
  Qed.

  Lemma history_inv : forall h0 a0 b0,
    inv h0 a0 (reaches h0 a0) b0 (reaches h0 b0) ->
    forall h a ka b kb, history writable h0 a0 b0 h a ka b kb ->
    inv h a ka b kb.
  Proof.
    intros h0 a0 b0 I0 h a ka b kb H. induction H; auto.
    - apply inv_sym. eapply act_inv; eauto. now apply inv_sym.
    - eapply act_inv; eauto.
  Qed.

  Lemma independent_from : forall h0 a0 b0,
    allocated h0 a0 -> allocated h0 b0 ->
    (forall k, reaches h0 a0 k -> reaches h0 b0 k -> ~ writable k) ->
    independent writable h0 a0 b0.
  Proof.
    intros h0 a0 b0 Aa Ab C h a ka b kb act H.
    assert (side0 : forall c, allocated h0 c -> side h0 c (reaches h0 c)).
    { intros c A. split; auto.
      - apply reaches_closed.
      - intros n v l G I. exists n, v, l. repeat split; auto. apply reach_here. }
    assert (I : inv h a ka b kb).
    { eapply history_inv; eauto. split; auto. }
    split; intros.
    - eapply act_observe; eauto.
    - apply inv_sym in I. eapply act_observe; [exact I|eauto].
  Qed.
End Independence.

(** ** The new core *)

Lemma nth_error_snoc : forall (A : Type) (h : list A) o,
  nth_error (h ++ [o]) (length h) = Some o.
Proof.
  intros. rewrite nth_error_app2 by lia. now rewrite Nat.sub_diag.
Qed.

Definition extends (h h' : heap) : Prop := exists e, h' = h ++ e.

Lemma extends_refl : forall h, extends h h.
Proof. intros; exists []; now rewrite app_nil_r. Qed.

Lemma extends_trans : forall a b c, extends a b -> extends b c -> extends a c.
Proof. intros a b c [e ->] [f ->]. exists (e ++ f). now rewrite app_assoc. Qed.

Lemma extends_snoc : forall h o, extends h (h ++ [o]).
Proof. intros; now exists [o]. Qed.

Lemma extends_nth : forall h h' l, extends h h' -> l < length h ->
  nth_error h' l = nth_error h l.
Proof. intros h h' l [e ->] L. now rewrite nth_error_app1. Qed.

Lemma extends_some : forall h h' l o, extends h h' ->
  nth_error h l = Some o -> nth_error h' l = Some o.
Proof.
  intros. rewrite (extends_nth h h'); auto. apply nth_error_Some. congruence.
Qed.

Lemma extends_length : forall h h', extends h h' -> length h <= length h'.
Proof. intros h h' [e ->]. rewrite app_length. lia. Qed.

(** [fresh N h0 h c]: the containers of [c] were all created after [h0], and
    refer only to locations of [N]. *)
Definition fresh (N : nat -> Prop) (h0 h : heap) (c : pycore) : Prop :=
  forall n l, getattr c n = Some (VRef l) ->
    length h0 <= l /\
    exists o, nth_error h l = Some o /\ forall m, In m (orefs o) -> N m.

Lemma fresh_extends : forall N h0 h h' c, extends h h' ->
  fresh N h0 h c -> fresh N h0 h' c.
Proof.
  intros N h0 h h' c X F n l G. destruct (F n l G) as (L & o & E & R).
  split; auto. exists o. split; auto. eapply extends_some; eauto.
Qed.

Lemma alloc_all_ok : forall N h0 l h c h' c',
  alloc_all h l c = (h', c') ->
  (forall p, In p l -> orefs (snd p) = []) ->
  extends h0 h -> fresh N h0 h c ->
  extends h h' /\ fresh N h0 h' c'.
Proof.
  induction l as [|[n o] l IH]; intros h c h' c' E Z X F.
  - injection E as <- <-. split; auto. apply extends_refl.
  - cbn in E. apply IH in E.
    + destruct E as [E1 E2]. split; auto.
      eapply extends_trans; [apply extends_snoc|eauto].
    + intros; apply Z; cbn; auto.
    + eapply extends_trans; [eauto|apply extends_snoc].
    + intros m k G. rewrite get_set in G. destruct (aname_dec m n).
      * injection G as <-. split; [now apply extends_length|].
        exists o. split; [apply nth_error_snoc|].
        intros m' M. assert (Y := Z (n, o) (or_introl eq_refl)). cbn in Y.
        rewrite Y in M. destruct M.
      * revert G. apply (fresh_extends N h0 h _ c); auto. apply extends_snoc.
Qed.

Lemma flat_map_vstr : forall l, flat_map refs (map VStr l) = [].
Proof. induction l; cbn; auto. Qed.

Lemma new_ok : forall N h label h' c,
  new_pycore h label = (h', c) ->
  extends h h' /\ fresh N h h' c.
Proof.
  intros N h label h' c E. unfold new_pycore in E.
  eapply alloc_all_ok in E; eauto.
  - intros p I. cbn in I.
    repeat (destruct I as [<-|I]; [reflexivity|]). destruct I.
  - apply extends_refl.
  - intros n l G. cbn in G.
    repeat match type of G with
           | (if ?x then _ else _) = _ => destruct x; [discriminate|]
           end. discriminate.
Qed.

(** ** The copying loop *)

(** [v'] is a shallow copy of [v]. *)
Definition shallow_copy (h0 h : heap) (v v' : value) : Prop :=
  match v with
  | VRef l => exists l' o, v' = VRef l' /\ length h0 <= l' /\
                nth_error h0 l = Some o /\ nth_error h l' = Some o
  | _ => v' = v
  end.

Lemma shallow_copy_extends : forall h0 h h' v v', extends h h' ->
  shallow_copy h0 h v v' -> shallow_copy h0 h' v v'.
Proof.
  intros h0 h h' v v' X. destruct v; cbn; auto.
  intros (l' & o & -> & L & A & B). exists l', o. repeat split; auto.
  eapply extends_some; eauto.
Qed.

Lemma expr_copy_ok : forall e e', expr_copy e = Ok e' -> e' = e.
Proof.
  intros [] e' E; cbn in E; try congruence.
  destruct (_ || _)%bool in E; congruence.
Qed.

Lemma copy_value_ok : forall h0 h v h' v',
  extends h0 h -> (forall l, In l (refs v) -> l < length h0) ->
  copy_value h v = Ok (h', v') ->
  extends h h' /\ shallow_copy h0 h' v v'.
Proof.
  intros h0 h v h' v' X R E. destruct v as [| | |e|l]; cbn in E.
  1,2,3: injection E as <- <-; split; [apply extends_refl|reflexivity].
  - destruct (expr_copy e) as [e'|] eqn:C; cbn in E; try discriminate.
    apply expr_copy_ok in C. subst e'.
    injection E as <- <-; split; [apply extends_refl|reflexivity].
  - assert (L : l < length h0) by (apply R; cbn; auto).
    destruct (nth_error h l) as [o|] eqn:O; try discriminate.
    injection E as <- <-. split; [apply extends_snoc|].
    exists (length h), o. repeat split.
    + now apply extends_length.
    + now rewrite (extends_nth h0 h) in O.
    + apply nth_error_snoc.
Qed.

Lemma copy_loop_ok : forall N h0 src names h tgt h' tgt',
  extends h0 h -> fresh N h0 h tgt ->
  (forall n v l, getattr src n = Some v -> In l (refs v) -> l < length h0) ->
  (forall n l o m, In n names -> getattr src n = Some (VRef l) ->
     nth_error h0 l = Some o -> In m (orefs o) -> N m) ->
  copy_loop h src names tgt = Ok (h', tgt') ->
  extends h h' /\ fresh N h0 h' tgt' /\
  (forall n, In n names -> exists v v', getattr src n = Some v /\
     getattr tgt' n = Some v' /\ shallow_copy h0 h' v v') /\
  (forall n, ~ In n names -> getattr tgt' n = getattr tgt n).
Proof.
  intros N h0 src. induction names as [|n names IH];
    intros h tgt h' tgt' X F R NN E; cbn in E.
  - injection E as <- <-. repeat split; auto using extends_refl.
    + exact (proj1 (F _ _ H)).
    + exact (proj2 (F _ _ H)).
    + intros n [].
  - destruct (getattr src n) as [v|] eqn:G; try discriminate.
    destruct (copy_value h v) as [[h1 v1]|] eqn:C; cbn in E; try discriminate.
    assert (Rv : forall l, In l (refs v) -> l < length h0) by eauto.
    destruct (copy_value_ok h0 h v h1 v1 X Rv C) as [X1 S1].
    apply IH in E; auto.
    + destruct E as (X2 & F2 & A & B). split; [eapply extends_trans; eauto|].
      split; auto. split.
      * intros m [<-|M]; auto.
        destruct (in_dec aname_dec n names) as [I|I]; [auto|].
        exists v, v1. split; auto. rewrite B by auto. rewrite get_set_same.
        split; auto. eapply shallow_copy_extends; eauto.
      * intros m M. rewrite B by (cbn in M; tauto).
        apply get_set_other. cbn in M. intros ->. tauto.
    + eapply extends_trans; eauto.
    + intros m l M. rewrite get_set in M. destruct (aname_dec m n) as [->|].
      * injection M as ->.
        destruct v as [| | | |k]; cbn in S1; try congruence.
        destruct S1 as (l' & o & Q & L & O0 & O1). injection Q as <-.
        split; auto. exists o. split; auto. intros m' M'.
        apply (NN n k o); cbn; auto.
      * revert M. now apply (fresh_extends N h0 h h1 tgt).
    + intros m l o k M. apply NN. cbn; auto.
Qed.

Lemma reaches_direct : forall h c n v l,
  getattr c n = Some v -> In l (refs v) -> reaches h c l.
Proof. intros. exists n, v, l. repeat split; auto. apply reach_here. Qed.

(** ** [Core.__copy__] *)

Lemma py_copy_parts : forall (N : nat -> Prop) h src names h' cp,
  allocated h src ->
  (forall n l o m, In n names -> getattr src n = Some (VRef l) ->
     nth_error h l = Some o -> In m (orefs o) -> N m) ->
  py_copy h src names = Ok (h', cp) ->
  extends h h' /\
  (forall n l, getattr cp n = Some (VRef l) ->
     (n = ACore "label" /\ getattr src n = Some (VRef l)) \/
     length h <= l /\
     exists o, nth_error h' l = Some o /\ forall m, In m (orefs o) -> N m) /\
  (forall n, n <> ACore "label" -> In n names ->
     exists v v', getattr src n = Some v /\ getattr cp n = Some v' /\
       shallow_copy h h' v v') /\
  getattr cp (ACore "label") = getattr src (ACore "label") /\
  getattr src (ACore "label") <> None.
Proof.
  intros N h src names h' cp A NN E. unfold py_copy in E.
  destruct (new_pycore h "phs") as [h1 c1] eqn:W.
  apply (new_ok N) in W. destruct W as [X1 F1].
  destruct (copy_loop h1 src names c1) as [[h2 c2]|] eqn:L; cbn in E;
    try discriminate.
  apply (copy_loop_ok N h) in L; auto.
  2:{ intros n v l G I. apply A. eapply reaches_direct; eauto. }
  destruct L as (X2 & F2 & CC & _).
  destruct (getattr src (ACore "label")) as [v|] eqn:G; try discriminate.
  injection E as <- <-. split; [eapply extends_trans; eauto|]. split.
  - intros n l M. rewrite get_set in M. destruct (aname_dec n (ACore "label")).
    + left. subst. split; auto. congruence.
    + right. eauto.
  - split; [|split; [apply get_set_same|congruence]].
    intros n D I. destruct (CC n I) as (w & w' & P & Q & S').
    exists w, w'. repeat split; auto. now rewrite get_set_other.
Qed.

Lemma resolve_copy : forall h h' c n v v',
  allocated h c -> getattr c n = Some v -> extends h h' ->
  shallow_copy h h' v v' ->
  forall d, resolve d h' v' = resolve d h v.
Proof.
  intros h h' c n v v' A G X SC d.
  assert (AG : forall l, reaches h c l -> nth_error h' l = nth_error h l).
  { intros l R. apply extends_nth; auto. }
  destruct v as [| | | |l]; cbn in SC; try (subst v'; destruct d; reflexivity).
  destruct SC as (l' & o & -> & L & O & O').
  destruct d as [|d]; [reflexivity|].
  rewrite !resolve_ref, O, O'. apply shape_ext. intros w W.
  apply (resolve_agree d h h' (reaches h c)); auto using reaches_closed.
  intros m M. apply (reaches_closed h c l o); auto.
  apply (reaches_direct h c n (VRef l)); cbn; auto.
Qed.

Lemma resolve_same : forall h h' c n v,
  allocated h c -> getattr c n = Some v -> extends h h' ->
  forall d, resolve d h' v = resolve d h v.
Proof.
  intros h h' c n v A G X d.
  apply (resolve_agree d h h' (reaches h c)); auto using reaches_closed.
  - intros l R. apply extends_nth; auto.
  - intros l I. eapply reaches_direct; eauto.
Qed.

Lemma copy_equal : forall h src names h' cp,
  allocated h src ->
  py_copy h src names = Ok (h', cp) ->
  forall n, n = ACore "label" \/ In n names -> same_at n h src h' cp.
Proof.
  intros h src names h' cp A E n I d.
  apply (py_copy_parts (fun _ => True)) in E; auto.
  destruct E as (X & _ & CC & LB & LN). unfold observe.
  destruct (aname_dec n (ACore "label")) as [->|D].
  - rewrite LB. destruct (getattr src (ACore "label")) as [v|] eqn:G; cbn; auto.
    f_equal. eapply resolve_same; eauto.
  - destruct I as [->|I]; [congruence|].
    destruct (CC n D I) as (v & v' & G & G' & S').
    rewrite G, G'. cbn. f_equal. eapply resolve_copy; eauto.
Qed.

Lemma copy_original_same : forall h src names h' cp,
  allocated h src ->
  py_copy h src names = Ok (h', cp) -> same_everywhere h src h' src.
Proof.
  intros h src names h' cp A E n d.
  apply (py_copy_parts (fun _ => True)) in E; auto.
  destruct E as (X & _). unfold observe.
  destruct (getattr src n) as [v|] eqn:G; cbn; auto.
  f_equal. eapply resolve_same; eauto.
Qed.

Lemma reach_extends : forall h h' c l k,
  allocated h c -> extends h h' -> reaches h c l -> reach h' l k ->
  reach h l k.
Proof.
  intros h h' c l k A X R K. induction K as [l|l o m k O M K IH].
  - apply reach_here.
  - rewrite (extends_nth h h') in O by auto.
    eapply reach_step; eauto. apply IH. eapply reaches_closed; eauto.
Qed.

Lemma reaches_extends : forall h h' c k,
  allocated h c -> extends h h' -> reaches h' c k -> reaches h c k.
Proof.
  intros h h' c k A X (n & v & l & G & I & R).
  exists n, v, l. repeat split; auto.
  eapply reach_extends; eauto. eapply reaches_direct; eauto.
Qed.

(** What the copy reaches is new, or nested in the original. *)
Lemma copy_reaches : forall h src names h' cp,
  allocated h src ->
  (forall v, getattr src (ACore "label") = Some v -> refs v = []) ->
  py_copy h src names = Ok (h', cp) ->
  forall k, reaches h' cp k ->
    length h <= k < length h' \/ nested h src (fun n => In n names) k.
Proof.
  intros h src names h' cp A LR E k (n & v & l & G & I & R).
  apply (py_copy_parts (nested h src (fun n => In n names))) in E; auto.
  2:{ intros n0 l0 o m N0 G0 O M. exists n0, l0, o, m.
      repeat split; auto. apply reach_here. }
  destruct E as (X & F & _).
  destruct v as [| | | |l0]; cbn in I; try contradiction.
  destruct I as [<-|[]].
  destruct (F n l0 G) as [[-> GL]|(L & o & O & M)].
  - specialize (LR _ GL). discriminate.
  - inversion R; subst.
    + left. split; auto. apply nth_error_Some. congruence.
    + right. assert (o0 = o) by congruence. subst o0.
      destruct (M m H0) as (n1 & l1 & o1 & m1 & N1 & G1 & O1 & M1 & R1).
      exists n1, l1, o1, m1. repeat split; auto.
      assert (RM : reaches h src m).
      { exists n1, (VRef l1), l1. repeat split; cbn; auto.
        eapply reach_step; eauto. }
      eapply reach_trans; eauto. eapply reach_extends; eauto.
Qed.

Lemma nested_reaches : forall h c N k, nested h c N k -> reaches h c k.
Proof.
  intros h c N k (n & l & o & m & _ & G & O & M & R).
  exists n, (VRef l), l. repeat split; cbn; auto. eapply reach_step; eauto.
Qed.

Lemma copy_independent : forall writable h src names h' cp,
  allocated h src ->
  (forall v, getattr src (ACore "label") = Some v -> refs v = []) ->
  py_copy h src names = Ok (h', cp) ->
  (forall k, nested h src (fun n => In n names) k -> ~ writable k) ->
  independent writable h' src cp.
Proof.
  intros writable h src names h' cp A LR E W.
  assert (CR := copy_reaches _ _ _ _ _ A LR E).
  assert (X : extends h h').
  { apply (py_copy_parts (fun _ => True)) in E; auto. tauto. }
  apply independent_from.
  - intros k R. apply (reaches_extends h h') in R; auto.
    apply extends_length in X. specialize (A k R). lia.
  - intros k R. destruct (CR k R) as [L|N]; [lia|].
    apply nested_reaches in N. apply extends_length in X.
    specialize (A k N). lia.
  - intros k Ra Rb. apply (reaches_extends h h') in Ra; auto.
    destruct (CR k Rb) as [L|N]; [|auto].
    specialize (A k Ra). lia.
Qed.

(** ** When the copy is made *)

Lemma expr_copyable : forall e, copyable (VExpr e) -> expr_copy e = Ok e.
Proof.
  intros [] C; cbn in *; auto; try contradiction.
  assert (Z : (Qeq_bool q 0 || Qeq_bool q 1 || Qeq_bool q (-1)
               || Qeq_bool q (1 # 2))%bool = true).
  { rewrite !orb_true_iff, !Qeq_bool_iff. tauto. }
  now rewrite Z.
Qed.

Lemma copy_value_total : forall h v,
  copyable v -> (forall l, In l (refs v) -> l < length h) ->
  exists h' v', copy_value h v = Ok (h', v') /\ extends h h'.
Proof.
  intros h v C R. destruct v as [| | |e|l]; cbn -[expr_copy].
  1,2,3: eauto using extends_refl.
  - rewrite expr_copyable by auto. cbn. eauto using extends_refl.
  - destruct (nth_error h l) as [o|] eqn:O.
    + eauto using extends_snoc.
    + apply nth_error_None in O. specialize (R l (or_introl eq_refl)). lia.
Qed.

Lemma copy_loop_total : forall src names h tgt,
  (forall n, In n names -> exists v, getattr src n = Some v /\ copyable v /\
     forall l, In l (refs v) -> l < length h) ->
  exists h' tgt', copy_loop h src names tgt = Ok (h', tgt').
Proof.
  intros src. induction names as [|n names IH]; intros h tgt A; cbn.
  - eauto.
  - destruct (A n (or_introl eq_refl)) as (v & G & C & R). rewrite G.
    destruct (copy_value_total h v C R) as (h1 & v1 & E & X). rewrite E. cbn.
    apply IH. intros m M. destruct (A m (or_intror M)) as (w & Gw & Cw & Rw).
    exists w. repeat split; auto. intros l L. apply extends_length in X.
    specialize (Rw l L). lia.
Qed.

Lemma copy_total : forall h src names,
  allocated h src ->
  (forall n, n = ACore "label" \/ In n names ->
     exists v, getattr src n = Some v /\ copyable v) ->
  exists h' cp, py_copy h src names = Ok (h', cp).
Proof.
  intros h src names A G. unfold py_copy.
  destruct (new_pycore h "phs") as [h1 c1] eqn:W.
  apply (new_ok (fun _ => True)) in W. destruct W as [X _].
  destruct (copy_loop_total src names h1 c1) as (h2 & c2 & E).
  { intros n I. destruct (G n (or_intror I)) as (v & Gv & C).
    exists v. repeat split; auto. intros l L. apply extends_length in X.
    assert (l < length h) by (apply A; eapply reaches_direct; eauto). lia. }
  rewrite E. cbn.
  destruct (G (ACore "label") (or_introl eq_refl)) as (v & Gv & _).
  rewrite Gv. eauto.
Qed.

Lemma copyable_value : forall h v h' v',
  copy_value h v = Ok (h', v') -> copyable v.
Proof.
  intros h v h' v' E. destruct v as [| | |e|l]; cbn; auto.
  destruct e; auto; cbn in E; try discriminate.
  destruct (_ || _)%bool eqn:B in E; try discriminate.
  rewrite !orb_true_iff, !Qeq_bool_iff in B. tauto.
Qed.

Lemma copy_loop_conv : forall src names h tgt r,
  copy_loop h src names tgt = Ok r ->
  forall n, In n names -> exists v, getattr src n = Some v /\ copyable v.
Proof.
  intros src. induction names as [|n names IH]; intros h tgt r E m M; cbn in E.
  - destruct M.
  - destruct (getattr src n) as [v|] eqn:G; try discriminate.
    destruct (copy_value h v) as [[h1 v1]|] eqn:C; cbn in E; try discriminate.
    destruct M as [<-|M]; [|eauto]. exists v. split; auto.
    eapply copyable_value; eauto.
Qed.

(** The copy is made exactly when every registered attribute is there and can
    be copied. *)
Lemma copy_iff : forall h src names lab,
  allocated h src -> enumerates names h src ->
  getattr src (ACore "label") = Some (VStr lab) ->
  (exists r, py_copy h src names = Ok r) <->
  (forall n, names_of h src n ->
     exists v, getattr src n = Some v /\ copyable v).
Proof.
  intros h src names lab A EN LB. split.
  - intros [r E] n N. apply EN in N. unfold py_copy in E.
    destruct (new_pycore h "phs") as [h1 c1].
    destruct (copy_loop h1 src names c1) as [[h2 c2]|] eqn:L; cbn in E;
      try discriminate.
    eapply copy_loop_conv; eauto.
  - intros G. destruct (copy_total h src names A) as (h' & cp & E); eauto.
    intros n [->|I].
    + exists (VStr lab). split; cbn; auto.
    + apply G. now apply EN.
Qed.

Lemma runs_inv : forall writable h0 a0 b0,
  inv writable h0 a0 (reaches h0 a0) b0 (reaches h0 b0) ->
  forall s, runs writable (h0, b0, reaches h0 b0) s ->
  inv writable (fst (fst s)) a0 (reaches h0 a0) (snd (fst s)) (snd s) /\
  same_everywhere h0 a0 (fst (fst s)) a0.
Proof.
  intros writable h0 a0 b0 I s R.
  remember (h0, b0, reaches h0 b0) as s0 eqn:E0.
  induction R as [|s s' s'' act R IH D]; subst.
  - cbn. split; auto. intros n d. reflexivity.
  - destruct (IH eq_refl) as [I' S'].
    destruct s' as [[h b] kb]. destruct s'' as [[h' b'] kb']. cbn in *.
    split.
    + eapply act_inv; eauto.
    + intros n d. rewrite (act_observe writable _ _ _ _ _ _ _ _ _ I' D n d).
      apply S'.
Qed.

Lemma copy_inv : forall writable h src names h' cp,
  allocated h src ->
  (forall v, getattr src (ACore "label") = Some v -> refs v = []) ->
  py_copy h src names = Ok (h', cp) ->
  (forall k, nested h src (fun n => In n names) k -> ~ writable k) ->
  inv writable h' src (reaches h' src) cp (reaches h' cp).
Proof.
  intros writable h src names h' cp A LR E W.
  assert (CR := copy_reaches _ _ _ _ _ A LR E).
  assert (X : extends h h').
  { apply (py_copy_parts (fun _ => True)) in E; auto. tauto. }
  split; [split|split|].
  - intros k R. apply (reaches_extends h h') in R; auto.
    apply extends_length in X. specialize (A k R). lia.
  - apply reaches_closed.
  - intros. eapply reaches_direct; eauto.
  - intros k R. destruct (CR k R) as [L|N]; [lia|].
    apply nested_reaches in N. apply extends_length in X.
    specialize (A k N). lia.
  - apply reaches_closed.
  - intros. eapply reaches_direct; eauto.
  - intros k Ra Rb. apply (reaches_extends h h') in Ra; auto.
    destruct (CR k Rb) as [L|N]; [|auto].
    specialize (A k Ra). lia.
Qed.

Lemma flat_nested : forall h src (N : aname -> Prop) k,
  no_nesting h src N -> ~ nested h src N k.
Proof.
  intros h src N k F (n & l & o & m & I & G & O & M & _).
  rewrite (F n l o I G O) in M. destruct M.
Qed.

Lemma nested_ext : forall h src (N N' : aname -> Prop) k,
  (forall n, N n -> N' n) -> nested h src N k -> nested h src N' k.
Proof.
  intros h src N N' k Z (n & l & o & m & I & R). exists n, l, o, m.
  split; auto.
Qed.

Lemma label_refs : forall c lab, getattr c (ACore "label") = Some (VStr lab) ->
  forall v, getattr c (ACore "label") = Some v -> refs v = [].
Proof. intros c lab E v G. rewrite E in G. injection G as <-. reflexivity. Qed.

(** ** Statements for the property file *)

Lemma copy_starts_equal : forall h src names lab h' cp,
  allocated h src -> enumerates names h src ->
  getattr src (ACore "label") = Some (VStr lab) ->
  py_copy h src names = Ok (h', cp) ->
  (forall n, n = ACore "label" \/ names_of h src n -> same_at n h src h' cp) /\
  same_everywhere h src h' src.
Proof.
  intros h src names lab h' cp A EN LB E. split.
  - intros n N. eapply copy_equal; eauto.
    destruct N as [N|N]; auto. right. now apply EN.
  - eapply copy_original_same; eauto.
Qed.

Lemma copy_keeps_apart : forall h src names lab h' cp,
  allocated h src -> enumerates names h src ->
  getattr src (ACore "label") = Some (VStr lab) ->
  py_copy h src names = Ok (h', cp) ->
  independent (fun k => ~ nested h src (names_of h src) k) h' src cp.
Proof.
  intros h src names lab h' cp A EN LB E.
  eapply copy_independent; eauto using label_refs.
  intros k N W. apply W. revert N. apply nested_ext. intros n. apply EN.
Qed.

Lemma flat_copy_keeps_apart : forall h src names lab h' cp,
  allocated h src -> enumerates names h src ->
  getattr src (ACore "label") = Some (VStr lab) ->
  no_nesting h src (names_of h src) ->
  py_copy h src names = Ok (h', cp) ->
  independent (fun _ => True) h' src cp.
Proof.
  intros h src names lab h' cp A EN LB F E.
  eapply copy_independent; eauto using label_refs.
  intros k N _. apply (flat_nested h src (names_of h src) k F).
  revert N. apply nested_ext. intros n. apply EN.
Qed.

Lemma flat_copy_runs : forall h src names lab h' cp,
  allocated h src -> enumerates names h src ->
  getattr src (ACore "label") = Some (VStr lab) ->
  no_nesting h src (names_of h src) ->
  py_copy h src names = Ok (h', cp) ->
  (forall h2 cp2 k2,
     runs (fun _ => True) (h', cp, reaches h' cp) (h2, cp2, k2) ->
     same_everywhere h src h2 src) /\
  (forall h2 src2 k2,
     runs (fun _ => True) (h', src, reaches h' src) (h2, src2, k2) ->
     same_everywhere h' cp h2 cp /\
     forall n, n = ACore "label" \/ names_of h src n -> same_at n h src h2 cp).
Proof.
  intros h src names lab h' cp A EN LB F E.
  assert (I : inv (fun _ => True) h' src (reaches h' src) cp (reaches h' cp)).
  { eapply copy_inv; eauto using label_refs.
    intros k N _. apply (flat_nested h src (names_of h src) k F).
    revert N. apply nested_ext. intros n. apply EN. }
  destruct (copy_starts_equal _ _ _ _ _ _ A EN LB E) as [P Q].
  split.
  - intros h2 cp2 k2 R n d. apply (runs_inv _ _ _ _ I) in R.
    destruct R as [_ R]. cbn in R. rewrite (R n d). apply Q.
  - intros h2 src2 k2 R. apply inv_sym in I. apply (runs_inv _ _ _ _ I) in R.
    destruct R as [_ R]. cbn in R. split; auto.
    intros n N d. rewrite (R n d). apply P; auto.
Qed.
