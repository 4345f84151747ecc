(** sp_assemble gives back the components. *)
From Coq Require Import String List Bool Arith Permutation Lia.
From Verif Require Import Py Graph SP Spec_SP SPBase SPChain SPStep SPSerial SPParallel.
Import ListNotations.
Local Open Scope string_scope.
Local Open Scope list_scope.
Local Open Scope nat_scope.

Fixpoint spedge_nested (P : spedge -> Prop)
  (H : forall a b t l s, Forall P s -> P (Edge a b t l s)) (e : spedge) : P e :=
  match e with
  | Edge a b t l s =>
      H a b t l s ((fix go s : Forall P s :=
                      match s with [] => Forall_nil P | x :: r => Forall_cons x (spedge_nested P H x) (go r) end) s)
  end.

Lemma flat_map_full : forall s, Forall (fun e => Permutation (full e) (e :: imported e)) s ->
  Permutation (flat_map full s) (s ++ flat_map imported s).
Proof.
  intros s H. induction H as [|e s He H IH]; [constructor|]. cbn [flat_map].
  etransitivity; [apply Permutation_app; [exact He | exact IH]|]. cbn [app]. constructor.
  rewrite !app_assoc. apply Permutation_app_tail. apply Permutation_app_comm.
Qed.

Lemma full_imported : forall e, Permutation (full e) (e :: imported e).
Proof.
  intros e. induction e as [a b t l s IH] using spedge_nested. cbn [full imported].
  constructor. destruct (String.eqb t "graph"); [|constructor]. apply flat_map_full. exact IH.
Qed.

Lemma assembled_full : forall es, Permutation (assembled es) (flat_map full es).
Proof.
  intros es. unfold assembled. symmetry. apply flat_map_full. apply Forall_forall. intros e _. apply full_imported.
Qed.

Definition key (e : spedge) : string * string * string := (src e, dst e, label e).

Lemma same_label_key : forall e e', same_label e e' = true <-> key e' = key e.
Proof.
  intros e e'. unfold same_label, key. rewrite andb_true_iff, goes_spec, String.eqb_eq. split.
  - intros [[H1 H2] H3]. congruence.
  - intros H. injection H. auto.
Qed.

Lemma drop_first_perm : forall f l x, In x l -> f x = true ->
  exists y, f y = true /\ In y l /\ Permutation l (y :: drop_first f l).
Proof.
  intros f l. induction l as [|z l IH]; intros x Hi Hf; [destruct Hi|]. cbn [drop_first].
  destruct (f z) eqn:E.
  - exists z. split; [exact E|]. split; [left; reflexivity | reflexivity].
  - destruct Hi as [Hi|Hi]; [congruence|]. destruct (IH x Hi Hf) as (y & Hy & Hiy & P). exists y.
    split; [exact Hy|]. split; [right; exact Hiy|]. etransitivity; [constructor; exact P|]. constructor.
Qed.

(** Removing the temporary edges one by one, each by its label. *)
Lemma remove_temporary_ok : forall todo cur keep J,
  Permutation cur (keep ++ J) ->
  (forall e x, In e todo -> temporary e = true -> In x keep -> key x <> key e) ->
  Permutation (map key J) (map key (filter temporary todo)) ->
  exists cur', remove_temporary todo cur = Ok cur' /\ Permutation cur' keep.
Proof.
  intros todo. induction todo as [|e todo IH]; intros cur keep J P Hk HJ.
  - cbn in HJ. apply Permutation_sym, Permutation_nil in HJ. destruct J; [|discriminate]. rewrite app_nil_r in P.
    exists cur. split; [reflexivity | exact P].
  - cbn [remove_temporary]. cbn [filter] in HJ. destruct (temporary e) eqn:T.
    + cbn [map] in HJ.
      assert (Hj : exists j, In j J /\ key j = key e).
      { assert (X : In (key e) (map key J)).
        { eapply Permutation_in; [symmetry; exact HJ|]. left. reflexivity. }
        apply in_map_iff in X. destruct X as (j & X1 & X2). eauto. }
      destruct Hj as (j & Hj & Kj).
      assert (Hc : In j cur) by (eapply Permutation_in; [symmetry; exact P|]; apply in_or_app; right; exact Hj).
      assert (Sj : same_label e j = true) by (apply same_label_key; exact Kj).
      unfold remove_listed.
      replace (existsb (same_label e) cur) with true
        by (symmetry; apply existsb_exists; exists j; auto).
      cbn [rbind].
      destruct (drop_first_perm (same_label e) cur j Hc Sj) as (y & Sy & Hy & Py).
      apply same_label_key in Sy.
      assert (HyJ : In y J).
      { apply (Permutation_in _ P) in Hy. apply in_app_or in Hy. destruct Hy as [Hy|Hy]; [|exact Hy].
        exfalso. exact (Hk e y (or_introl eq_refl) T Hy Sy). }
      apply in_split in HyJ. destruct HyJ as (J1 & J2 & EJ). subst J.
      apply (IH _ keep (J1 ++ J2)).
      * apply (Permutation_cons_inv (a := y)). rewrite <- Py, P.
        rewrite app_assoc. symmetry. rewrite app_assoc. apply Permutation_middle.
      * intros e' x Hi. apply Hk. right. exact Hi.
      * apply (Permutation_cons_inv (a := key e)). rewrite <- HJ, !map_app. cbn [map]. rewrite Sy.
        apply Permutation_middle.
    + apply (IH _ keep J P).
      * intros e' x Hi. apply Hk. right. exact Hi.
      * exact HJ.
Qed.

Lemma circuit_comps : forall es, circuit es -> all_comps es = es /\ flat_map full es = es.
Proof.
  intros es H. unfold all_comps. induction es as [|e es IH]; [auto|]. cbn [flat_map].
  destruct (H e (or_introl eq_refl)) as (_ & Ht & Ho & _).
  destruct IH as [I1 I2]; [intros x Hx; apply H; right; exact Hx|]. rewrite I1, I2.
  destruct e as [a b t l s]. cbn [type label] in *. unfold comps. cbn [full].
  apply String.eqb_neq in Ht. rewrite Ht. cbn [filter]. unfold temporary. cbn [type label]. rewrite Ho, Ht.
  cbn. auto.
Qed.

Lemma circuit_inv : forall es, circuit es -> anchored es -> inv es (mkSP es 0 0).
Proof.
  intros es H A. destruct (circuit_comps es H) as [H1 H2]. constructor; cbn [sp_edges].
  - intros e He. apply (H e He).
  - exact A.
  - rewrite H1. reflexivity.
  - intros e He. destruct (H e He) as (_ & Ht & _). destruct e. apply grouped_component. exact Ht.
  - rewrite H2. intros e He X. destruct (H e He) as (_ & Ht & _). contradiction.
  - intros r c n Hr Hc T1 T2. destruct (H r Hr) as (_ & Ht & _).
    rewrite (comps_end r c n Ht Hc T1) in T2. discriminate.
  - rewrite H2. intros G c c' n HG Ht. destruct (H G HG) as (_ & X & _). contradiction.
Qed.

Lemma full_part : forall x e, In x (full e) <-> part_of x e.
Proof.
  intros x e. split.
  - induction e as [a b t l s IH] using spedge_nested. cbn [full]. intros [H|H]; [subst; constructor|].
    destruct (String.eqb_spec t "graph") as [E|E]; [|destruct H]. apply in_flat_map in H. destruct H as (y & Hy & H).
    rewrite Forall_forall in IH. apply (part_sub x _ y); [exact E | exact Hy | exact (IH y Hy H)].
  - intros H. induction H as [|e y Ht Hi H IH]; [apply full_self|].
    destruct e as [a b t l s]. cbn [type sub] in *. subst t. cbn [full]. right.
    apply in_flat_map. exists y. auto.
Qed.

Lemma inv_two_terminal : forall es g, circuit es -> inv es g -> two_terminal es (sp_edges g).
Proof.
  intros es g Hc Iv r G c c' n Hr HG Ht Hci Hcp Hci' Hn Hn' HnG.
  assert (Hkeep : forall x, In x es -> In x (full G) -> In x (comps G)).
  { intros x Hx Hf. apply filter_In. split; [exact Hf|]. destruct (Hc x Hx) as (_ & T & Ho & _).
    unfold temporary. rewrite Ho. apply String.eqb_neq in T. rewrite T. reflexivity. }
  assert (X : In c' (comps G)).
  { apply (i_alone _ _ Iv G c c' n); auto.
    - apply in_flat_map. exists r. split; [exact Hr | now apply full_part].
    - apply Hkeep; [exact Hci | now apply full_part].
    - now apply touch_spec.
    - now apply touch_spec.
    - destruct (touch n G) eqn:T; [|reflexivity]. exfalso. apply HnG. now apply touch_spec. }
  apply full_part. apply filter_In in X. tauto.
Qed.

Lemma inv_any : forall es i j k l g, inv es g -> g = mkSP (sp_edges g) i j -> inv es (mkSP (sp_edges g) k l).
Proof. intros es i j k l g [I1 I2 I3 I4 I5 I6 I7] E. constructor; cbn [sp_edges]; assumption. Qed.

Lemma sp_assemble_ok : forall O es g, enumerates O -> circuit es -> inv es g ->
  exists g', sp_assemble O g = Ok g' /\ Permutation (sp_edges g') es.
Proof.
  intros O es g HO Hc Iv. unfold sp_assemble.
  set (all := assembled (sp_edges g)).
  assert (Pall : Permutation all (flat_map full (sp_edges g))) by apply assembled_full.
  destruct (HO all) as (_ & Po & _).
  set (keep := filter (fun e => negb (temporary e)) all). set (J := filter temporary all).
  assert (Pkeep : Permutation keep es).
  { etransitivity; [|apply (i_comps _ _ Iv)]. unfold keep, all_comps, comps.
    etransitivity; [apply filter_perm; exact Pall|]. rewrite filter_flat_map. reflexivity. }
  destruct (remove_temporary_ok (o_edges O all) all keep J) as (cur' & E & P).
  - unfold keep, J. rewrite Permutation_app_comm. apply filter_split.
  - intros e x He Te Hx K.
    assert (Hx' : In x es) by (eapply Permutation_in; [exact Pkeep | exact Hx]).
    destruct (Hc x Hx') as (_ & _ & Ho & Hlab).
    assert (El : label x = label e) by (unfold key in K; injection K; auto).
    unfold temporary in Te. apply orb_true_iff in Te. destruct Te as [Te|Te]; [congruence|].
    apply String.eqb_eq in Te.
    assert (He' : In e (flat_map full (sp_edges g))).
    { eapply Permutation_in; [exact Pall|]. eapply Permutation_in; [exact Po | exact He]. }
    destruct (i_named _ _ Iv e He' Te) as (n & [X|X]); destruct (Hlab n) as [Y1 Y2]; congruence.
  - apply Permutation_map. apply filter_perm. symmetry. exact Po.
  - rewrite E. cbn [rbind]. eexists. split; [reflexivity|]. cbn [sp_edges]. etransitivity; eassumption.
Qed.

(** Splitting ends within as many passes as there are edges, groups what it says
    it groups, leaves nothing to group, and assembling undoes it. *)
Lemma split_assemble : forall O es i j, enumerates O -> circuit es -> anchored es ->
  exists g, sp_split (S (length es)) O (mkSP es i j) = Ok g /\
    (forall e, In e (sp_edges g) -> grouped e) /\ two_terminal es (sp_edges g) /\
    irreducible (sp_edges g) /\
    exists g', sp_assemble O g = Ok g' /\ Permutation (sp_edges g') es.
Proof.
  intros O es i j HO Hc Ha.
  assert (Iv : inv es (mkSP es i j)).
  { apply (inv_any es 0 0 i j (mkSP es 0 0)); [apply circuit_inv; assumption | reflexivity]. }
  destruct (sp_split_ok O es (S (length es)) (mkSP es i j) HO Iv) as (g & E & Ig & Hi); [cbn; lia|].
  exists g. split; [exact E|]. split; [exact (i_grouped _ _ Ig)|].
  split; [exact (inv_two_terminal es g Hc Ig)|]. split; [exact Hi|].
  apply sp_assemble_ok; assumption.
Qed.

Lemma sp_split_more : forall O k g g', sp_split k O g = Ok g' -> forall m, k <= m -> sp_split m O g = Ok g'.
Proof.
  intros O k. induction k as [|k IH]; intros g g' E m Hm; [discriminate|].
  destruct m as [|m]; [lia|]. cbn [sp_split] in *.
  destruct (split_parallel O g) as [[g1 cp]|e]; [|discriminate]. cbn [rbind] in *.
  destruct (split_serial O g1) as [[g2 cs]|e]; [|discriminate]. cbn [rbind] in *.
  destruct (cs || cp); [|exact E]. apply (IH _ _ E). lia.
Qed.

Lemma split_result : forall O es i j k g, enumerates O -> circuit es -> anchored es ->
  sp_split k O (mkSP es i j) = Ok g ->
  (forall e, In e (sp_edges g) -> grouped e) /\ two_terminal es (sp_edges g) /\
  irreducible (sp_edges g) /\
  exists g', sp_assemble O g = Ok g' /\ Permutation (sp_edges g') es.
Proof.
  intros O es i j k g HO Hc Ha E.
  destruct (split_assemble O es i j HO Hc Ha) as (g0 & E0 & H).
  assert (g = g0); [|subst; exact H].
  pose proof (sp_split_more _ _ _ _ E (max k (S (length es))) ltac:(lia)) as X.
  pose proof (sp_split_more _ _ _ _ E0 (max k (S (length es))) ltac:(lia)) as Y. congruence.
Qed.
