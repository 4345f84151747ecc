(** Proofs about saving and loading cores. *)
From Coq Require Import String List ZArith QArith Bool Lia.
From Verif Require Import Py Expr Objects Spec_Copy CopyProofs.
Import ListNotations.
Local Open Scope string_scope.
Local Open Scope list_scope.
Local Open Scope nat_scope.

(** ** Unpickling *)

Fixpoint blist (h : heap) (ts : list tree) : heap * list value :=
  match ts with
  | [] => (h, [])
  | t :: ts' => let (h1, v) := build h t in
                let (h2, vs) := blist h1 ts' in (h2, v :: vs)
  end.

Fixpoint bpairs (h : heap) (ts : list (tree * tree))
  : heap * list (value * value) :=
  match ts with
  | [] => (h, [])
  | (a, b) :: ts' =>
      let (h1, va) := build h a in
      let (h2, vb) := build h1 b in
      let (h3, vs) := bpairs h2 ts' in (h3, (va, vb) :: vs)
  end.

Lemma build_TList : forall h ts, build h (TList ts) =
  let (h', vs) := blist h ts in (h' ++ [OList vs], VRef (length h')).
Proof. reflexivity. Qed.
Lemma build_TSet : forall h ts, build h (TSet ts) =
  let (h', vs) := blist h ts in (h' ++ [OSet vs], VRef (length h')).
Proof. reflexivity. Qed.
Lemma build_TDict : forall h ts, build h (TDict ts) =
  let (h', vs) := bpairs h ts in (h' ++ [ODict vs], VRef (length h')).
Proof. reflexivity. Qed.
Lemma build_TMat : forall h r k ts, build h (TMat r k ts) =
  let (h', vs) := blist h ts in (h' ++ [OMat r k vs], VRef (length h')).
Proof. reflexivity. Qed.

(** [v'] in [h'] shows what [v] shows in [h], now and later. *)
Definition shows (h : heap) (v : value) (h' : heap) (v' : value) : Prop :=
  forall k h3, extends h' h3 -> resolve k h3 v' = resolve k h v.

Lemma shows_extends : forall h v h1 h2 v', extends h1 h2 ->
  shows h v h1 v' -> shows h v h2 v'.
Proof. intros h v h1 h2 v' X S' k h3 X3. apply S'. eapply extends_trans; eauto. Qed.

Definition built (h : heap) (d : nat) : Prop :=
  forall v, shallow d h v -> forall h1 h2 v',
    build h1 (resolve d h v) = (h2, v') ->
    extends h1 h2 /\ shows h v h2 v' /\
    (forall l, In l (refs v') -> l < length h2).

Lemma blist_ok : forall h d, built h d ->
  forall vs, fold_right (fun v P => shallow d h v /\ P) True vs ->
  forall h1 h2 vs', blist h1 (map (resolve d h) vs) = (h2, vs') ->
  extends h1 h2 /\ Forall2 (fun v v' => shows h v h2 v') vs vs'.
Proof.
  intros h d B. induction vs as [|v vs IH]; intros S' h1 h2 vs' E; cbn in E.
  - injection E as <- <-. split; [apply extends_refl|constructor].
  - destruct S' as [Sv S'].
    destruct (build h1 (resolve d h v)) as [h3 v3] eqn:E3.
    destruct (blist h3 (map (resolve d h) vs)) as [h4 vs4] eqn:E4.
    injection E as <- <-.
    destruct (B v Sv _ _ _ E3) as (X3 & H3 & _).
    destruct (IH S' _ _ _ E4) as (X4 & H4).
    split; [eapply extends_trans; eauto|]. constructor; auto.
    eapply shows_extends; eauto.
Qed.

Lemma bpairs_ok : forall h d, built h d ->
  forall kvs, fold_right (fun p P => (shallow d h (fst p)
                                      /\ shallow d h (snd p)) /\ P) True kvs ->
  forall h1 h2 kvs',
  bpairs h1 (map (fun p => (resolve d h (fst p), resolve d h (snd p))) kvs)
    = (h2, kvs') ->
  extends h1 h2 /\
  Forall2 (fun p p' => shows h (fst p) h2 (fst p') /\
                       shows h (snd p) h2 (snd p')) kvs kvs'.
Proof.
  intros h d B. induction kvs as [|[a b] kvs IH]; intros S' h1 h2 kvs' E;
    cbn in E.
  - injection E as <- <-. split; [apply extends_refl|constructor].
  - destruct S' as [[Sa Sb] S']. cbn in Sa, Sb.
    destruct (build h1 (resolve d h a)) as [h3 v3] eqn:E3.
    destruct (build h3 (resolve d h b)) as [h4 v4] eqn:E4.
    destruct (bpairs h4 _) as [h5 vs5] eqn:E5 in E.
    injection E as <- <-.
    destruct (B a Sa _ _ _ E3) as (X3 & H3 & _).
    destruct (B b Sb _ _ _ E4) as (X4 & H4 & _).
    destruct (IH S' _ _ _ E5) as (X5 & H5).
    split; [eapply extends_trans; eauto; eapply extends_trans; eauto|].
    constructor; auto. cbn. split.
    + eapply shows_extends; [|exact H3]. eapply extends_trans; eauto.
    + eapply shows_extends; eauto.
Qed.

Lemma map_shows : forall h h2 vs vs',
  Forall2 (fun v v' => shows h v h2 v') vs vs' ->
  forall k h3, extends h2 h3 ->
  map (resolve k h3) vs' = map (resolve k h) vs.
Proof.
  intros h h2 vs vs' F. induction F; intros k h3 X; cbn; auto.
  f_equal; auto.
Qed.

Lemma pairs_shows : forall h h2 kvs kvs',
  Forall2 (fun p p' => shows h (fst p) h2 (fst p') /\
                       shows h (snd p) h2 (snd p')) kvs kvs' ->
  forall k h3, extends h2 h3 ->
  map (fun p => (resolve k h3 (fst p), resolve k h3 (snd p))) kvs' =
  map (fun p => (resolve k h (fst p), resolve k h (snd p))) kvs.
Proof.
  intros h h2 kvs kvs' F. induction F as [|p p' ? ? [A B]]; intros k h3 X;
    cbn; auto.
  rewrite (A k h3 X), (B k h3 X). f_equal; auto.
Qed.

(** The object at the top of the heap shows what the original does. *)
Lemma shows_top : forall h l o h2 o',
  nth_error h l = Some o ->
  (forall k h3, extends h2 h3 ->
     shape (resolve k h3) o' = shape (resolve k h) o) ->
  shows h (VRef l) (h2 ++ [o']) (VRef (length h2)).
Proof.
  intros h l o h2 o' O A k h3 X. destruct k as [|k]; [reflexivity|].
  rewrite !resolve_ref, O.
  rewrite (extends_some (h2 ++ [o']) h3 (length h2) o' X)
    by apply nth_error_snoc.
  apply A. eapply extends_trans; [apply extends_snoc|eauto].
Qed.

Lemma build_ok : forall h d, built h d.
Proof.
  intros h. induction d as [|d IH]; intros v S' h1 h2 v' E.
  - destruct v; try contradiction; cbn in E; injection E as <- <-;
      (split; [apply extends_refl|]; split; [intros k h3 _; now destruct k|];
       intros ? []).
  - destruct v as [|z|s|e|l];
      try (cbn in E; injection E as <- <-;
      (split; [apply extends_refl|]; split; [intros k h3 _; now destruct k|];
       intros ? [])).
    rewrite resolve_ref in E. destruct S' as (o & O & S'). rewrite O in E.
    destruct o as [vs|vs|kvs|r c vs]; cbn [shape] in E;
      rewrite ?build_TList, ?build_TSet, ?build_TDict, ?build_TMat in E.
    1,2,4: destruct (blist h1 (map (resolve d h) vs)) as [h3 vs3] eqn:B;
      injection E as <- <-;
      destruct (blist_ok h d IH vs S' _ _ _ B) as (X & F);
      (split; [eapply extends_trans; [eauto|apply extends_snoc]|]; split;
       [eapply shows_top; [exact O|]; intros k h4 X4; cbn [shape]; f_equal;
        eapply map_shows; eauto
       |intros l' [<-|[]]; rewrite app_length; cbn; lia]).
    destruct (bpairs h1 _) as [h3 vs3] eqn:B in E.
    injection E as <- <-.
    destruct (bpairs_ok h d IH kvs S' _ _ _ B) as (X & F).
    split; [eapply extends_trans; [eauto|apply extends_snoc]|]; split.
    + eapply shows_top; [exact O|]; intros k h4 X4; cbn [shape]; f_equal;
        eapply pairs_shows; eauto.
    + intros l' [<-|[]]; rewrite app_length; cbn; lia.
Qed.

(** Building never looks at what is there. *)
Lemma build_expr : forall d h v h1 h2 e,
  build h1 (resolve d h v) = (h2, VExpr e) -> v = VExpr e.
Proof.
  intros d h v h1 h2 e E.
  destruct v as [|z|s|e'|l].
  1,2,3,4: destruct d; cbn in E; congruence.
  destruct d as [|d]; [cbn in E; congruence|].
  rewrite resolve_ref in E. destruct (nth_error h l) as [[vs|vs|kvs|r c vs]|];
    cbn [shape] in E;
    rewrite ?build_TList, ?build_TSet, ?build_TDict, ?build_TMat in E.
  5: cbn in E; congruence.
  1,2,4: destruct (blist h1 _) in E; congruence.
  destruct (bpairs h1 _) in E; congruence.
Qed.

Lemma copy_shows : forall h v h1 v1 h2 v2,
  shows h v h1 v1 -> (forall l, In l (refs v1) -> l < length h1) ->
  copy_value h1 v1 = Ok (h2, v2) ->
  extends h1 h2 /\ shows h v h2 v2.
Proof.
  intros h v h1 v1 h2 v2 S' R E.
  destruct (copy_value_ok h1 h1 v1 h2 v2 (extends_refl _) R E) as [X C].
  split; auto. intros k h3 X3.
  destruct v1 as [| | | |l]; cbn in C; subst.
  1,2,3,4: apply S'; eapply extends_trans; eauto.
  destruct C as (l' & o & -> & L & O & O').
  rewrite <- (S' k h3 (extends_trans _ _ _ X X3)).
  destruct k as [|k]; [reflexivity|]. rewrite !resolve_ref.
  rewrite (extends_some _ _ _ _ X3 O').
  rewrite (extends_some _ _ _ _ (extends_trans _ _ _ X X3) O). reflexivity.
Qed.

(** ** The file *)

Lemma dico_get_set : forall d k t k',
  dico_get (dico_set d k t) k' =
  if String.eqb k' k then Some t else dico_get d k'.
Proof.
  induction d as [|[j u] d IH]; intros k t k'; cbn; auto.
  destruct (String.eqb_spec k j) as [->|D]; cbn.
  - destruct (String.eqb k' j); auto.
  - destruct (String.eqb_spec k' j) as [->|D'].
    + destruct (String.eqb_spec j k); congruence.
    + apply IH.
Qed.

Lemma save_loop_total : forall depth h c names d,
  (forall n, In n names -> getattr c n <> None) ->
  exists d', save_loop depth h c names d = Ok d'.
Proof.
  intros depth h c. induction names as [|n names IH]; intros d A; cbn; eauto.
  destruct (getattr c n) eqn:E.
  - apply IH. intros; apply A; cbn; auto.
  - exfalso. apply (A n); cbn; auto.
Qed.

Lemma save_loop_ok : forall depth h c names d d',
  (forall n m, In n names -> In m names -> bare n = bare m -> n = m) ->
  save_loop depth h c names d = Ok d' ->
  (forall n, In n names -> exists v, getattr c n = Some v /\
     dico_get d' (bare n) = Some (resolve depth h v)) /\
  (forall k, ~ In k (map bare names) -> dico_get d' k = dico_get d k).
Proof.
  intros depth h c. induction names as [|n names IH]; intros d d' U E; cbn in E.
  - injection E as <-. split; [intros n []|auto].
  - destruct (getattr c n) as [v|] eqn:G; try discriminate.
    apply IH in E; [|intros; apply U; cbn; auto].
    destruct E as [A B]. split.
    + intros m [<-|M]; auto.
      destruct (in_dec aname_dec n names) as [I|I]; auto.
      exists v. split; auto. rewrite B.
      * rewrite dico_get_set, String.eqb_refl. reflexivity.
      * intros J. apply in_map_iff in J. destruct J as (m & Em & M).
        assert (m = n) by (apply U; cbn; auto). subst. contradiction.
    + intros k K. cbn in K. rewrite B by tauto.
      rewrite dico_get_set. destruct (String.eqb_spec k (bare n)); auto.
      subst. tauto.
Qed.

Lemma file_get_here : forall k d fs, file_get ((k, d) :: fs) k = Some d.
Proof. intros [a b] d fs. cbn. now rewrite !String.eqb_refl. Qed.

Lemma file_get_later : forall k fs fs', later k fs fs' ->
  file_get fs' k = file_get fs k.
Proof.
  intros k fs fs' (l & -> & D). induction l as [|[k' d] l IH]; auto.
  cbn [file_get app].
  destruct (String.eqb_spec (fst k) (fst k')); cbn.
  - destruct (String.eqb_spec (snd k) (snd k')); cbn.
    + exfalso. apply (D (k', d)); cbn; auto. destruct k, k'; cbn in *. congruence.
    + apply IH. intros; apply D; cbn; auto.
  - apply IH. intros; apply D; cbn; auto.
Qed.

(** ** Loading *)

Lemma load_loop_ok : forall depth h c d names h1 tgt,
  (forall n, In n names -> exists v, getattr c n = Some v /\
     dico_get d (bare n) = Some (resolve depth h v) /\
     shallow depth h v /\ copyable v) ->
  exists h2 tgt', load_loop h1 d names tgt = Ok (h2, tgt') /\
    extends h1 h2 /\
    (forall n, In n names -> exists v v', getattr c n = Some v /\
       getattr tgt' n = Some v' /\ shows h v h2 v') /\
    (forall n, ~ In n names -> getattr tgt' n = getattr tgt n).
Proof.
  intros depth h c d. induction names as [|n names IH]; intros h1 tgt A; cbn.
  - exists h1, tgt. repeat split; auto using extends_refl. intros n [].
  - destruct (A n (or_introl eq_refl)) as (v & G & D & S' & C). rewrite D.
    destruct (build h1 (resolve depth h v)) as [h2 v2] eqn:B.
    destruct (build_ok h depth v S' _ _ _ B) as (X2 & H2 & R2).
    assert (C2 : copyable v2).
    { destruct v2 as [| | |e|]; cbn -[copyable]; try exact I.
      apply build_expr in B. now subst. }
    destruct (copy_value_total h2 v2 C2 R2) as (h3 & v3 & E3 & _).
    rewrite E3. cbn.
    destruct (copy_shows h v h2 v2 h3 v3 H2 R2 E3) as (X3 & H3).
    destruct (IH h3 (setattr tgt n v3)) as (h4 & tgt' & E4 & X4 & P & Q).
    { intros; apply A; cbn; auto. }
    exists h4, tgt'. split; auto. split.
    { eapply extends_trans; eauto. eapply extends_trans; eauto. }
    split.
    + intros m [<-|M]; auto. destruct (in_dec aname_dec n names); auto.
      exists v, v3. split; auto. rewrite Q by auto. split.
      * apply get_set_same.
      * eapply shows_extends; eauto.
    + intros m M. cbn in M. rewrite Q by tauto. apply get_set_other.
      intros ->. tauto.
Qed.

Lemma bare_inj : forall h c n m, no_clash h c ->
  names_of h c n -> names_of h c m -> bare n = bare m -> n = m.
Proof.
  assert (Z : forall h c s, names_of h c (ADims s) ->
                In s ["label"; "_xl"; "_wl"; "_xnl_mono"]).
  { intros h c s [I|[]]. cbn in I. cbn.
    repeat (destruct I as [I|I]; [try discriminate; injection I as <-; auto|]).
    destruct I. }
  intros h c [s|s] [t|t] U A B E; cbn in E; subst; auto.
  - exfalso. eapply U; eauto.
  - exfalso. eapply U; eauto.
Qed.

Lemma bare_label : forall h c n, no_clash h c -> names_of h c n ->
  bare n <> "label".
Proof.
  intros h c [s|s] U A E; cbn in E; subst.
  - eapply U; eauto. cbn; auto.
  - destruct A as [I|[]]. cbn in I.
    repeat (destruct I as [I|I]; [discriminate|]). destruct I.
Qed.

Lemma file_label_get : forall c arg lab, file_label c arg lab ->
  match arg with
  | Some l => Some l
  | None => match getattr c (ACore "label") with
            | Some (VStr l) => Some l | _ => None end
  end = Some lab.
Proof. intros c arg lab [->|[-> ->]]; reflexivity. Qed.

Lemma save_ok : forall depth h c names folder arg lab fs,
  registered h c -> no_clash h c -> enumerates names h c ->
  file_label c arg lab ->
  exists d, py_save depth h c names folder arg fs =
              Ok (((folder, lab), d) :: fs) /\
    dico_get d "label" = Some (TStr lab) /\
    forall n, names_of h c n -> exists v, getattr c n = Some v /\
      dico_get d (bare n) = Some (resolve depth h v).
Proof.
  intros depth h c names folder arg lab fs RG U EN FL. unfold py_save.
  rewrite (file_label_get _ _ _ FL).
  destruct (save_loop_total depth h c names [("label", TStr lab)]) as (d & E).
  { intros n I. apply RG. now apply EN. }
  rewrite E. cbn. exists d. split; auto.
  apply save_loop_ok in E.
  - destruct E as [A B]. split.
    + rewrite B; [reflexivity|]. intros I. apply in_map_iff in I.
      destruct I as (n & En & I). apply EN in I.
      eapply bare_label; eauto.
    + intros n N. apply A. now apply EN.
  - intros n m I J. apply (bare_inj h c); auto; now apply EN.
Qed.

(** Loading into a core whose registered names were all saved. *)
Lemma save_load : forall depth h c names folder arg lab fs fs1 fs2
                         h1 tgt tnames targ,
  registered h c -> no_clash h c -> enumerates names h c ->
  file_label c arg lab ->
  py_save depth h c names folder arg fs = Ok fs1 ->
  later (folder, lab) fs1 fs2 ->
  enumerates tnames h1 tgt -> file_label tgt targ lab ->
  (forall n, names_of h1 tgt n -> names_of h c n) ->
  storable depth h c (names_of h1 tgt) ->
  exists h2 tgt', py_load h1 tgt tnames folder targ fs2 = Ok (h2, tgt') /\
    extends h1 h2 /\
    getattr tgt' (ACore "label") = Some (VStr lab) /\
    (forall n, names_of h1 tgt n -> same_at n h c h2 tgt') /\
    (forall n, n <> ACore "label" -> ~ names_of h1 tgt n ->
       getattr tgt' n = getattr tgt n).
Proof.
  intros depth h c names folder arg lab fs fs1 fs2 h1 tgt tnames targ
         RG U EN FL SV LT ET FT SUB ST.
  destruct (save_ok depth h c names folder arg lab fs RG U EN FL)
    as (d & E & DL & DG).
  rewrite E in SV. injection SV as <-. unfold py_load.
  rewrite (file_label_get _ _ _ FT).
  rewrite (file_get_later _ _ _ LT), file_get_here, DL. cbn.
  destruct (load_loop_ok depth h c d tnames h1
              (setattr tgt (ACore "label") (VStr lab)))
    as (h2 & tgt' & L & X & P & Q).
  { intros n I. apply ET in I. destruct (DG n (SUB n I)) as (v & G & D).
    exists v. split; auto. split; auto. apply (ST n); auto. }
  exists h2, tgt'. split; auto. split; auto. split.
  - rewrite Q.
    + apply get_set_same.
    + intros I. apply ET in I. apply SUB in I. apply (U "label"); cbn; auto.
  - split.
    + intros n N k. apply ET in N. destruct (P n N) as (v & v' & G & G' & S').
      unfold observe. rewrite G, G'. cbn. f_equal. apply S'. apply extends_refl.
    + intros n D N. rewrite Q.
      * now apply get_set_other.
      * intros I. apply N. now apply ET.
Qed.

(** ** The names of a new core *)

Lemma alloc_all_keeps : forall l h c h' c' n,
  alloc_all h l c = (h', c') -> ~ In n (map fst l) ->
  extends h h' /\ getattr c' n = getattr c n.
Proof.
  induction l as [|[m o] l IH]; intros h c h' c' n E NI; cbn in E.
  - injection E as <- <-. split; auto using extends_refl.
  - apply (IH _ _ _ _ n) in E; [|cbn in NI; tauto]. destruct E as [X G].
    split.
    + eapply extends_trans; [apply extends_snoc|eauto].
    + rewrite G. apply get_set_other. cbn in NI. intros ->. tauto.
Qed.

Lemma alloc_all_get : forall l h c h' c' n o,
  alloc_all h l c = (h', c') -> NoDup (map fst l) -> In (n, o) l ->
  exists k, getattr c' n = Some (VRef k) /\ nth_error h' k = Some o.
Proof.
  induction l as [|[m p] l IH]; intros h c h' c' n o E ND I; cbn in E.
  - destruct I.
  - inversion ND; subst. destruct I as [I|I].
    + injection I as -> ->. apply (alloc_all_keeps _ _ _ _ _ n) in E; auto.
      destruct E as [X G]. exists (length h). rewrite G.
      split; [apply get_set_same|].
      eapply extends_some; eauto. apply nth_error_snoc.
    + eapply IH; eauto.
Qed.

Lemma new_label : forall h label h' c,
  new_pycore h label = (h', c) ->
  getattr c (ACore "label") = Some (VStr label).
Proof.
  intros h label h' c E. unfold new_pycore in E.
  apply (alloc_all_keeps _ _ _ _ _ (ACore "label")) in E.
  - destruct E as [_ ->]. reflexivity.
  - cbn. intros I. repeat (destruct I as [I|I]; [discriminate|]). destruct I.
Qed.

Lemma new_names : forall h label h' c,
  new_pycore h label = (h', c) ->
  forall n, names_of h' c n <-> In n public /\ n <> ACore "label".
Proof.
  intros h label h' c E n. unfold new_pycore in E.
  match type of E with alloc_all _ ?l _ = _ =>
    assert (ND : NoDup (map fst l)) by
        (cbn; repeat constructor; cbn; intros I;
         repeat (destruct I as [I|I]; [discriminate|]); destruct I) end.
  destruct (alloc_all_get _ _ _ _ _ (ACore "exprs_names")
              (OSet (map VStr default_exprs)) E ND) as (k1 & G1 & O1);
    [cbn; tauto|].
  destruct (alloc_all_get _ _ _ _ _ (ACore "symbs_names")
              (OSet (map VStr default_symbs)) E ND) as (k2 & G2 & O2);
    [cbn; tauto|].
  clear E ND. unfold names_of. rewrite G1, G2. unfold str_in. rewrite O1, O2.
  split.
  - intros [I|I].
    + cbn in I. repeat (destruct I as [<-|I];
        [split; [cbn; tauto|discriminate]|]). destruct I.
    + destruct n as [s|s]; [|destruct I].
      cbn in I. destruct I as [I|I];
      repeat (destruct I as [I|I];
        [injection I as <-; split; [cbn; tauto|discriminate]|]); destruct I.
  - intros [I D]. cbn in I.
    repeat (destruct I as [<-|I];
      [first [congruence | left; cbn; tauto | right; cbn; tauto]|]). destruct I.
Qed.

(** Saving, then loading into a new core. *)
Lemma save_load_new : forall depth h c names folder arg lab fs fs1 fs2
                             h0 label h1 tgt tnames targ,
  complete h c -> registered h c -> no_clash h c -> enumerates names h c ->
  file_label c arg lab ->
  py_save depth h c names folder arg fs = Ok fs1 ->
  later (folder, lab) fs1 fs2 ->
  new_pycore h0 label = (h1, tgt) ->
  enumerates tnames h1 tgt -> file_label tgt targ lab ->
  storable depth h c (fun n => In n public) ->
  exists h2 tgt', py_load h1 tgt tnames folder targ fs2 = Ok (h2, tgt') /\
    getattr tgt' (ACore "label") = Some (VStr lab) /\
    forall n, In n public -> n <> ACore "label" -> same_at n h c h2 tgt'.
Proof.
  intros depth h c names folder arg lab fs fs1 fs2 h0 label h1 tgt tnames targ
         CO RG U EN FL SV LT NW ET FT ST.
  assert (NN := new_names _ _ _ _ NW).
  destruct (save_load depth h c names folder arg lab fs fs1 fs2 h1 tgt tnames
              targ) as (h2 & tgt' & E & X & L & P & _); auto.
  - intros n N. apply NN in N. apply CO; tauto.
  - intros n v N. apply NN in N. apply ST. tauto.
  - exists h2, tgt'. split; auto. split; auto. intros n I D. apply P.
    apply NN. auto.
Qed.
