(** Concrete cores for the theorems on copies and files, and the cases where
    the documented behaviour fails. *)
From Coq Require Import String List ZArith QArith Bool Lia.
From Verif Require Import Py Expr Objects Spec_Copy CopyProofs SaveProofs.
Import ListNotations.
Local Open Scope string_scope.
Local Open Scope list_scope.
Local Open Scope nat_scope.

(** ** Deciding the hypotheses on concrete cores *)

Definition okb (h : heap) (c : pycore) : bool :=
  forallb (fun o => forallb (fun m => m <? length h) (orefs o)) h &&
  forallb (fun p => forallb (fun m => m <? length h) (refs (snd p))) c.

Lemma getattr_in : forall c n v, getattr c n = Some v -> In (n, v) c.
Proof.
  induction c as [|[m w] c IH]; intros n v E; cbn in E; try discriminate.
  destruct (aname_eqb n m) eqn:F.
  - apply aname_eqb_eq in F. injection E as ->. subst. now left.
  - right. auto.
Qed.

Lemma okb_allocated : forall h c, okb h c = true -> allocated h c.
Proof.
  intros h c B k (n & v & l & G & I & R). apply andb_true_iff in B.
  destruct B as [B1 B2]. rewrite forallb_forall in B1, B2.
  assert (L : l < length h).
  { apply getattr_in in G. apply B2 in G. cbn [snd] in G.
    rewrite forallb_forall in G. apply Nat.ltb_lt. apply G. exact I. }
  clear G I n v. induction R as [l|l o m k O M R IH]; auto.
  apply IH. apply nth_error_In in O. apply B1 in O.
  rewrite forallb_forall in O. apply Nat.ltb_lt. apply O. exact M.
Qed.

(** The registered names of a concrete core. *)
Definition set_strings (h : heap) (v : option value) : list string :=
  match v with
  | Some (VRef l) => match nth_error h l with
                     | Some (OSet vs) =>
                         flat_map (fun v => match v with VStr s => [s]
                                                    | _ => [] end) vs
                     | _ => []
                     end
  | _ => []
  end.

Lemma set_strings_ok : forall h v s, In s (set_strings h v) <-> str_in h v s.
Proof.
  intros h v s. unfold set_strings, str_in.
  destruct v as [[| | | |l]|]; try (cbn; tauto).
  destruct (nth_error h l) as [[vs|vs|kvs|r k vs]|]; try (cbn; tauto).
  rewrite in_flat_map. split.
  - intros (w & I & J). destruct w; cbn in J; try contradiction.
    destruct J as [<-|[]]. auto.
  - intros I. exists (VStr s). split; auto. cbn; auto.
Qed.

Definition all_names (h : heap) (c : pycore) : list aname :=
  attrs_to_copy ++
  map ACore (set_strings h (getattr c (ACore "exprs_names")) ++
             set_strings h (getattr c (ACore "symbs_names"))).

Lemma all_names_ok : forall h c, enumerates (all_names h c) h c.
Proof.
  intros h c n. unfold all_names, names_of. rewrite in_app_iff, in_map_iff.
  split; intros [I|I]; auto.
  - destruct I as (s & <- & I). right. apply in_app_iff in I.
    rewrite !set_strings_ok in I. auto.
  - right. destruct n as [s|]; [|destruct I]. exists s. split; auto.
    apply in_app_iff. rewrite !set_strings_ok. auto.
Qed.

Lemma names_of_all : forall h c n, names_of h c n -> In n (all_names h c).
Proof. intros. now apply all_names_ok. Qed.

Definition inb (n : aname) (l : list aname) : bool :=
  existsb (aname_eqb n) l.

Lemma inb_in : forall n l, inb n l = true -> In n l.
Proof.
  intros n l E. apply existsb_exists in E. destruct E as (m & I & E).
  apply aname_eqb_eq in E. now subst.
Qed.

Definition has (c : pycore) (n : aname) : bool :=
  match getattr c n with Some _ => true | None => false end.

Lemma has_ok : forall c n, has c n = true -> getattr c n <> None.
Proof. unfold has. intros c n E F. rewrite F in E. discriminate. Qed.

Definition completeb (h : heap) (c : pycore) : bool :=
  forallb (has c) public &&
  forallb (fun n => aname_eqb n (ACore "label") || inb n (all_names h c))%bool
          public.

Lemma completeb_ok : forall h c, completeb h c = true -> complete h c.
Proof.
  intros h c B. apply andb_true_iff in B. destruct B as [B1 B2].
  rewrite forallb_forall in B1, B2. split.
  - intros n I. apply has_ok. auto.
  - intros n I D. apply B2 in I. apply orb_true_iff in I.
    destruct I as [I|I].
    + apply aname_eqb_eq in I. congruence.
    + apply inb_in in I. now apply all_names_ok.
Qed.

Definition registeredb (h : heap) (c : pycore) : bool :=
  forallb (has c) (all_names h c).

Lemma registeredb_ok : forall h c, registeredb h c = true -> registered h c.
Proof.
  intros h c B n N. unfold registeredb in B. rewrite forallb_forall in B.
  apply has_ok. apply B. now apply all_names_ok.
Qed.

Definition no_clashb (h : heap) (c : pycore) : bool :=
  forallb (fun n => match n with
                    | ACore s => negb (existsb (String.eqb s)
                                   ["label"; "_xl"; "_wl"; "_xnl_mono"])
                    | ADims _ => true
                    end) (all_names h c).

Lemma no_clashb_ok : forall h c, no_clashb h c = true -> no_clash h c.
Proof.
  intros h c B s N I. unfold no_clashb in B. rewrite forallb_forall in B.
  apply all_names_ok in N. apply B in N. apply negb_true_iff in N.
  assert (X : existsb (String.eqb s) ["label"; "_xl"; "_wl"; "_xnl_mono"]
              = true).
  { apply existsb_exists. exists s. split; auto. apply String.eqb_refl. }
  congruence.
Qed.

Fixpoint shallowb (d : nat) (h : heap) (v : value) : bool :=
  match v with
  | VRef l =>
      match d with
      | 0 => false
      | S d' =>
          match nth_error h l with
          | None => false
          | Some (ODict kvs) =>
              forallb (fun p => shallowb d' h (fst p)
                                && shallowb d' h (snd p))%bool kvs
          | Some (OList vs) | Some (OSet vs) | Some (OMat _ _ vs) =>
              forallb (shallowb d' h) vs
          end
      end
  | _ => true
  end.

Lemma fold_forallb : forall d h (vs : list value),
  (forall v, shallowb d h v = true -> shallow d h v) ->
  forallb (shallowb d h) vs = true ->
  fold_right (fun v P => shallow d h v /\ P) True vs.
Proof.
  intros d h vs A. induction vs as [|v vs IH]; cbn; auto.
  intros B. apply andb_true_iff in B. destruct B. auto.
Qed.

Lemma fold_forallb_pairs : forall d h (vs : list (value * value)),
  (forall v, shallowb d h v = true -> shallow d h v) ->
  forallb (fun p => shallowb d h (fst p) && shallowb d h (snd p))%bool vs
    = true ->
  fold_right (fun p P => (shallow d h (fst p) /\ shallow d h (snd p)) /\ P)
             True vs.
Proof.
  intros d h vs A. induction vs as [|[a b] vs IH]; cbn; auto.
  intros B. apply andb_true_iff in B. destruct B as [B1 B2].
  apply andb_true_iff in B1. destruct B1. auto.
Qed.

Lemma shallowb_ok : forall d h v, shallowb d h v = true -> shallow d h v.
Proof.
  induction d as [|d IH]; intros h v B; destruct v as [| | | |l]; cbn; auto;
    cbn in B; try discriminate.
  destruct (nth_error h l) as [o|] eqn:O; try discriminate.
  exists o. split; auto.
  destruct o; auto using fold_forallb, fold_forallb_pairs.
Qed.

Definition copyableb (v : value) : bool :=
  match v with VExpr e => match expr_copy e with Ok _ => true | _ => false end
          | _ => true end.

Lemma copyableb_ok : forall v, copyableb v = true -> copyable v.
Proof.
  intros v B. destruct v as [| | |e|]; cbn; auto.
  apply (copyable_value [] (VExpr e) [] (VExpr e)). cbn in *.
  destruct (expr_copy e) as [e'|] eqn:E; try discriminate.
  apply expr_copy_ok in E. now subst.
Qed.

Definition storableb (d : nat) (h : heap) (c : pycore) (l : list aname)
  : bool :=
  forallb (fun n => match getattr c n with
                    | Some v => shallowb d h v && copyableb v
                    | None => true
                    end)%bool l.

Lemma storableb_ok : forall d h c l, storableb d h c l = true ->
  storable d h c (fun n => In n l).
Proof.
  intros d h c l B n v I G. unfold storableb in B.
  rewrite forallb_forall in B. apply B in I. rewrite G in I.
  apply andb_true_iff in I. destruct I.
  split; [now apply shallowb_ok|now apply copyableb_ok].
Qed.

Definition flatb (h : heap) (c : pycore) : bool :=
  forallb (fun n => match getattr c n with
                    | Some (VRef l) =>
                        match nth_error h l with
                        | Some o => match orefs o with [] => true
                                                  | _ => false end
                        | None => true
                        end
                    | _ => true
                    end) (all_names h c).

Lemma flatb_ok : forall h c, flatb h c = true ->
  no_nesting h c (names_of h c).
Proof.
  intros h c B n l o N G O. unfold flatb in B. rewrite forallb_forall in B.
  apply all_names_ok in N. apply B in N. rewrite G, O in N.
  destruct (orefs o); auto. discriminate.
Qed.

(** ** An oscillator with a dissipation *)

Definition put (hc : heap * pycore) (n : aname) (o : obj) : heap * pycore :=
  (fst hc ++ [o], setattr (snd hc) n (VRef (length (fst hc)))).

Definition sq (s : string) : expr := Pow (Sym s) 2.

Definition osc : heap * pycore :=
  let hc := new_pycore [] "osc" in
  let hc := put hc (ACore "x") (OList [VExpr (Sym "q"); VExpr (Sym "p")]) in
  let hc := put hc (ACore "w") (OList [VExpr (Sym "w")]) in
  let hc := put hc (ACore "z") (OList [VExpr (Mul (Sym "R") (Sym "w"))]) in
  let hc := put hc (ACore "M")
      (OMat 3 3 (map (fun q => VExpr (Num q))
                     [0; 1; 0; -1; 0; -1; 0; 1; 0])%Q) in
  let hc := put hc (ACore "subs")
      (ODict [(VExpr (Sym "C"), VExpr (Num 2)); (VExpr (Sym "R"), VExpr (Num 3))]) in
  let hc := put hc (ACore "observers")
      (ODict [(VExpr (Sym "o"), VExpr (Add (Sym "q") (Sym "p")))]) in
  (fst hc,
   setattr (setattr (snd hc) (ACore "H")
              (VExpr (Add (Mul (Sym "C") (sq "q")) (sq "p"))))
           (ADims "_xl") (VInt 2)).

(** The same with a connector, a dictionary in the list of connectors. *)
Definition osc_connected : heap * pycore :=
  let h := fst osc ++
    [ODict [(VStr "alpha", VExpr (Num 1))]] in
  put (h, snd osc) (ACore "connectors") (OList [VRef (length (fst osc))]).

(** The same with an energy that is a lone symbol. *)
Definition osc_symbol : heap * pycore :=
  (fst osc, setattr (snd osc) (ACore "H") (VExpr (Sym "E"))).

(** The same with an expression of the user's own, added by [setexpr]. *)
Definition osc_custom : heap * pycore :=
  let hc := put osc (ACore "exprs_names")
                (OSet (map VStr (default_exprs ++ ["g"]))) in
  (fst hc, setattr (snd hc) (ACore "g") (VExpr (sq "p"))).

(** The same with other assumptions on the symbols. *)
Definition osc_complex : heap * pycore :=
  put osc (ACore "assertions") (ODict [(VStr "real", VInt 0)]).

Ltac decide_core :=
  repeat match goal with
  | |- _ /\ _ => split
  | |- allocated _ _ => apply okb_allocated; vm_compute; reflexivity
  | |- complete _ _ => apply completeb_ok; vm_compute; reflexivity
  | |- registered _ _ => apply registeredb_ok; vm_compute; reflexivity
  | |- no_clash _ _ => apply no_clashb_ok; vm_compute; reflexivity
  | |- no_nesting _ _ _ => apply flatb_ok; vm_compute; reflexivity
  | |- storable _ _ _ _ => apply storableb_ok; vm_compute; reflexivity
  end.

Lemma osc_ok :
  allocated (fst osc) (snd osc) /\ complete (fst osc) (snd osc) /\
  registered (fst osc) (snd osc) /\ no_clash (fst osc) (snd osc) /\
  no_nesting (fst osc) (snd osc) (names_of (fst osc) (snd osc)) /\
  storable 3 (fst osc) (snd osc) (fun n => In n public).
Proof. decide_core. Qed.

Lemma osc_connected_ok :
  allocated (fst osc_connected) (snd osc_connected) /\
  complete (fst osc_connected) (snd osc_connected) /\
  registered (fst osc_connected) (snd osc_connected) /\
  no_clash (fst osc_connected) (snd osc_connected) /\
  storable 3 (fst osc_connected) (snd osc_connected) (fun n => In n public).
Proof. decide_core. Qed.

(** ** Copies *)

Definition copied (hc : heap * pycore) : heap * pycore :=
  match py_copy (fst hc) (snd hc) (all_names (fst hc) (snd hc)) with
  | Ok r => r
  | Err _ => ([], [])
  end.

Lemma copied_osc :
  py_copy (fst osc) (snd osc) (all_names (fst osc) (snd osc)) =
  Ok (fst (copied osc), snd (copied osc)).
Proof. vm_compute. reflexivity. Qed.

Lemma copied_connected :
  py_copy (fst osc_connected) (snd osc_connected)
          (all_names (fst osc_connected) (snd osc_connected)) =
  Ok (fst (copied osc_connected), snd (copied osc_connected)).
Proof. vm_compute. reflexivity. Qed.

(** Changing the gain of a connector of the copy changes that of the
    original. *)
Lemma shared_connector : exists h src names h' cp act h2 cp2 k2,
  allocated h src /\ complete h src /\ enumerates names h src /\
  py_copy h src names = Ok (h', cp) /\
  does (fun _ => True) act (h', cp, reaches h' cp) (h2, cp2, k2) /\
  observe 3 h src (ACore "connectors") =
    Some (TList [TDict [(TStr "alpha", TExpr (Num 1))]]) /\
  observe 3 h2 src (ACore "connectors") =
    Some (TList [TDict [(TStr "alpha", TExpr (Num 2))]]).
Proof.
  exists (fst osc_connected), (snd osc_connected),
    (all_names (fst osc_connected) (snd osc_connected)),
    (fst (copied osc_connected)), (snd (copied osc_connected)),
    (Write (length (fst osc)) (ODict [(VStr "alpha", VExpr (Num 2))])).
  eexists. eexists. eexists.
  destruct osc_connected_ok as (A & C & _).
  split; [exact A|]. split; [exact C|]. split; [apply all_names_ok|].
  split; [apply copied_connected|]. split.
  - apply does_write; auto.
    + exists (ACore "connectors").
      remember (getattr (snd (copied osc_connected)) (ACore "connectors")) as g.
      vm_compute in Heqg. subst g. eexists. eexists.
      split; [reflexivity|]. split; [left; reflexivity|].
      eapply reach_step; [vm_compute; reflexivity|left; reflexivity|].
      vm_compute. apply reach_here.
    + apply Nat.ltb_lt. vm_compute. reflexivity.
    + intros m [].
  - split; vm_compute; reflexivity.
Qed.

Lemma not_copied : forall (hc : heap * pycore) lab n v,
  allocated (fst hc) (snd hc) ->
  getattr (snd hc) (ACore "label") = Some (VStr lab) ->
  names_of (fst hc) (snd hc) n -> getattr (snd hc) n = Some v ->
  ~ copyable v ->
  forall names, enumerates names (fst hc) (snd hc) ->
  forall r, py_copy (fst hc) (snd hc) names <> Ok r.
Proof.
  intros hc lab n v A LB N G NC names EN r E.
  destruct (proj1 (copy_iff _ _ names lab A EN LB)
              (ex_intro _ r E) n N) as (w & Gw & Cw).
  congruence.
Qed.

(** A core whose energy is a symbol cannot be copied. *)
Lemma symbol_energy : exists h src,
  allocated h src /\ complete h src /\ registered h src /\
  getattr src (ACore "H") = Some (VExpr (Sym "E")) /\
  forall names, enumerates names h src ->
  forall r, py_copy h src names <> Ok r.
Proof.
  exists (fst osc_symbol), (snd osc_symbol).
  assert (A : allocated (fst osc_symbol) (snd osc_symbol)) by decide_core.
  assert (C : complete (fst osc_symbol) (snd osc_symbol)) by decide_core.
  split; [exact A|]. split; [exact C|]. split; [decide_core|].
  split; [reflexivity|].
  apply (not_copied osc_symbol "osc" (ACore "H") (VExpr (Sym "E"))); auto.
  apply C; [cbn; tauto|discriminate].
Qed.

(** The assumptions on symbols are not copied. *)
Lemma assertions_not_copied : exists h src names h' cp,
  allocated h src /\ complete h src /\ enumerates names h src /\
  py_copy h src names = Ok (h', cp) /\
  observe 2 h src (ACore "assertions") = Some (TDict [(TStr "real", TInt 0)]) /\
  observe 2 h' cp (ACore "assertions") = Some (TDict [(TStr "real", TInt 1)]).
Proof.
  exists (fst osc_complex), (snd osc_complex),
    (all_names (fst osc_complex) (snd osc_complex)),
    (fst (copied osc_complex)), (snd (copied osc_complex)).
  split; [decide_core|]. split; [decide_core|]. split; [apply all_names_ok|].
  split; [vm_compute; reflexivity|]. split; vm_compute; reflexivity.
Qed.

(** ** Files *)

Definition saved (hc : heap * pycore) : files :=
  match py_save 3 (fst hc) (snd hc) (all_names (fst hc) (snd hc))
                "/tmp" None [] with
  | Ok fs => fs
  | Err _ => []
  end.

Definition blank : heap * pycore := new_pycore [] "osc".

Definition loaded (hc : heap * pycore) : heap * pycore :=
  match py_load (fst blank) (snd blank) (all_names (fst blank) (snd blank))
                "/tmp" None (saved hc) with
  | Ok r => r
  | Err _ => ([], [])
  end.

Lemma osc_round_trip :
  exists fs h2 c2,
    py_save 3 (fst osc_connected) (snd osc_connected)
      (all_names (fst osc_connected) (snd osc_connected)) "/tmp" None []
      = Ok fs /\
    py_load (fst blank) (snd blank) (all_names (fst blank) (snd blank))
      "/tmp" None fs = Ok (h2, c2) /\
    observe 3 h2 c2 (ACore "connectors") =
      Some (TList [TDict [(TStr "alpha", TExpr (Num 1))]]) /\
    observe 3 h2 c2 (ADims "_xl") = Some (TInt 2).
Proof.
  exists (saved osc_connected), (fst (loaded osc_connected)),
    (snd (loaded osc_connected)).
  repeat split; vm_compute; reflexivity.
Qed.

(** An expression of the user's own is lost, although its name is restored, so
    that the loaded core can neither be copied nor saved again. *)
Lemma custom_lost : exists h c names fs h1 tgt tnames h2 c2,
  allocated h c /\ complete h c /\ registered h c /\ no_clash h c /\
  storable 3 h c (names_of h c) /\ enumerates names h c /\
  names_of h c (ACore "g") /\ getattr c (ACore "g") <> None /\
  py_save 3 h c names "/tmp" None [] = Ok fs /\
  new_pycore [] "osc" = (h1, tgt) /\ enumerates tnames h1 tgt /\
  py_load h1 tgt tnames "/tmp" None fs = Ok (h2, c2) /\
  names_of h2 c2 (ACore "g") /\ getattr c2 (ACore "g") = None /\
  (forall names2, enumerates names2 h2 c2 ->
     (forall r, py_copy h2 c2 names2 <> Ok r) /\
     (forall d folder lab fs2 r,
        py_save d h2 c2 names2 folder lab fs2 <> Ok r)).
Proof.
  exists (fst osc_custom), (snd osc_custom),
    (all_names (fst osc_custom) (snd osc_custom)),
    (saved osc_custom), (fst blank), (snd blank),
    (all_names (fst blank) (snd blank)),
    (fst (loaded osc_custom)), (snd (loaded osc_custom)).
  split; [decide_core|]. split; [decide_core|]. split; [decide_core|].
  split; [decide_core|]. split.
  { intros n v N. apply names_of_all in N. revert n v N.
    apply (storableb_ok 3 (fst osc_custom) (snd osc_custom)).
    vm_compute. reflexivity. }
  split; [apply all_names_ok|].
  split; [apply all_names_ok; apply inb_in; vm_compute; reflexivity|].
  split; [vm_compute; discriminate|].
  split; [vm_compute; reflexivity|]. split; [reflexivity|].
  split; [apply all_names_ok|]. split; [vm_compute; reflexivity|].
  assert (N : names_of (fst (loaded osc_custom)) (snd (loaded osc_custom))
                       (ACore "g")).
  { apply all_names_ok. apply inb_in. vm_compute. reflexivity. }
  assert (G : getattr (snd (loaded osc_custom)) (ACore "g") = None)
    by (vm_compute; reflexivity).
  split; [exact N|]. split; [exact G|].
  intros names2 EN. assert (I := proj2 (EN _) N).
  revert N G EN I. generalize (snd (loaded osc_custom)).
  generalize (fst (loaded osc_custom)). intros h2 c2 N G EN I. split.
  - intros r E. unfold py_copy in E.
    destruct (new_pycore h2 "phs") as [h3 c3].
    destruct (copy_loop h3 c2 names2 c3) as [[h4 c4]|] eqn:L; cbn in E;
      try discriminate.
    destruct (copy_loop_conv _ _ _ _ _ L _ I) as (v & X & _). congruence.
  - intros d folder lab fs2 r E. unfold py_save in E.
    destruct (match lab with Some l => _ | None => _ end) in E;
      try discriminate.
    destruct (save_loop d h2 c2 names2 _) as [dd|] eqn:L in E; cbn in E;
      try discriminate.
    clear E EN N. revert L. generalize [("label", TStr s)].
    induction names2 as [|n names2 IH]; intros d0 L; [destruct I|].
    cbn in L. destruct I as [->|I].
    + rewrite G in L. discriminate.
    + destruct (getattr c2 n); try discriminate. eapply IH; eauto.
Qed.

(** A core whose energy is a symbol is saved, but cannot be loaded. *)
Lemma symbol_not_loaded : exists h c names fs h1 tgt tnames,
  allocated h c /\ complete h c /\ registered h c /\ no_clash h c /\
  enumerates names h c /\
  py_save 3 h c names "/tmp" None [] = Ok fs /\
  new_pycore [] "osc" = (h1, tgt) /\ enumerates tnames h1 tgt /\
  py_load h1 tgt tnames "/tmp" None fs = Err TypeError.
Proof.
  exists (fst osc_symbol), (snd osc_symbol),
    (all_names (fst osc_symbol) (snd osc_symbol)), (saved osc_symbol),
    (fst blank), (snd blank), (all_names (fst blank) (snd blank)).
  split; [decide_core|]. split; [decide_core|]. split; [decide_core|].
  split; [decide_core|]. split; [apply all_names_ok|].
  split; [vm_compute; reflexivity|]. split; [reflexivity|].
  split; [apply all_names_ok|]. vm_compute. reflexivity.
Qed.
