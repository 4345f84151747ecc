(** Copies of cores (C34), saving and loading (C41). *)
From Coq Require Import String List ZArith QArith Bool.
From Verif Require Import Py Expr Objects Spec_Copy CopyProofs SaveProofs
     CopyExamples.
Import ListNotations.
Local Open Scope string_scope.
Local Open Scope list_scope.

(** C34: the copy shows what the original shows, in the label and in every
    registered attribute, at every depth, whatever the order in which the
    python set is iterated; and making it changes nothing of the original. *)
Theorem C34_starts_equal : forall h src names lab h' cp,
  allocated h src -> enumerates names h src ->
  getattr src (ACore "label") = Some (VStr lab) ->
  py_copy h src names = Ok (h', cp) ->
  (forall n, n = ACore "label" \/ names_of h src n -> same_at n h src h' cp) /\
  same_everywhere h src h' src.
Proof. exact copy_starts_equal. Qed.
Print Assumptions C34_starts_equal.

Example C34_starts_equal_ex :
  allocated (fst osc) (snd osc) /\ complete (fst osc) (snd osc) /\
  py_copy (fst osc) (snd osc) (all_names (fst osc) (snd osc)) =
    Ok (fst (copied osc), snd (copied osc)) /\
  observe 2 (fst (copied osc)) (snd (copied osc)) (ACore "subs") =
    Some (TDict [(TExpr (Sym "C"), TExpr (Num 2));
                 (TExpr (Sym "R"), TExpr (Num 3))]).
Proof.
  destruct osc_ok as (A & C & _). split; [exact A|]. split; [exact C|].
  split; vm_compute; reflexivity.
Qed.

(** C34: the copy is made exactly when every registered attribute is there and
    is neither a lone symbol nor a number other than 0, 1, -1, 1/2. *)
Theorem C34_copied_iff : forall h src names lab,
  allocated h src -> enumerates names h src ->
  getattr src (ACore "label") = Some (VStr lab) ->
  (exists r, py_copy h src names = Ok r) <->
  (forall n, names_of h src n ->
     exists v, getattr src n = Some v /\ copyable v).
Proof. exact copy_iff. Qed.
Print Assumptions C34_copied_iff.

(** C34: for a core whose containers hold no containers, in any interleaving
    of changes to the original and to the copy, no change to one changes what
    the other shows. *)
Theorem C34_independent : forall h src names lab h' cp,
  allocated h src -> enumerates names h src ->
  getattr src (ACore "label") = Some (VStr lab) ->
  no_nesting h src (names_of h src) ->
  py_copy h src names = Ok (h', cp) ->
  independent (fun _ => True) h' src cp.
Proof. exact flat_copy_keeps_apart. Qed.
Print Assumptions C34_independent.

Example C34_independent_ex :
  allocated (fst osc) (snd osc) /\
  no_nesting (fst osc) (snd osc) (names_of (fst osc) (snd osc)) /\
  enumerates (all_names (fst osc) (snd osc)) (fst osc) (snd osc) /\
  getattr (snd osc) (ACore "label") = Some (VStr "osc").
Proof.
  destruct osc_ok as (A & _ & _ & _ & F & _).
  split; [exact A|]. split; [exact F|]. split; [apply all_names_ok|].
  reflexivity.
Qed.

(** C34: after any sequence of changes to the copy the original shows what it
    did before the copy was made, and after any sequence of changes to the
    original the copy still shows that too. *)
Theorem C34_any_sequence : forall h src names lab h' cp,
  allocated h src -> enumerates names h src ->
  getattr src (ACore "label") = Some (VStr lab) ->
  no_nesting h src (names_of h src) ->
  py_copy h src names = Ok (h', cp) ->
  (forall h2 cp2 k2,
     runs (fun _ => True) (h', cp, reaches h' cp) (h2, cp2, k2) ->
     same_everywhere h src h2 src) /\
  (forall h2 src2 k2,
     runs (fun _ => True) (h', src, reaches h' src) (h2, src2, k2) ->
     same_everywhere h' cp h2 cp /\
     forall n, n = ACore "label" \/ names_of h src n -> same_at n h src h2 cp).
Proof. exact flat_copy_runs. Qed.
Print Assumptions C34_any_sequence.

(** C34: with nested containers (the dictionaries of the connectors),
    independence holds as long as those are not changed in place. *)
Theorem C34_independent_nested : forall h src names lab h' cp,
  allocated h src -> enumerates names h src ->
  getattr src (ACore "label") = Some (VStr lab) ->
  py_copy h src names = Ok (h', cp) ->
  independent (fun k => ~ nested h src (names_of h src) k) h' src cp.
Proof. exact copy_keeps_apart. Qed.
Print Assumptions C34_independent_nested.

Example C34_independent_nested_ex :
  allocated (fst osc_connected) (snd osc_connected) /\
  py_copy (fst osc_connected) (snd osc_connected)
          (all_names (fst osc_connected) (snd osc_connected)) =
  Ok (fst (copied osc_connected), snd (copied osc_connected)).
Proof.
  destruct osc_connected_ok as (A & _). split; [exact A|].
  exact copied_connected.
Qed.

(** C34 fails for connectors: the copy shares their dictionaries, and changing
    the gain in that of the copy changes the original. *)
Theorem C34_shared_connector_refuted : exists h src names h' cp act h2 cp2 k2,
  allocated h src /\ complete h src /\ enumerates names h src /\
  py_copy h src names = Ok (h', cp) /\
  does (fun _ => True) act (h', cp, reaches h' cp) (h2, cp2, k2) /\
  observe 3 h src (ACore "connectors") =
    Some (TList [TDict [(TStr "alpha", TExpr (Num 1))]]) /\
  observe 3 h2 src (ACore "connectors") =
    Some (TList [TDict [(TStr "alpha", TExpr (Num 2))]]).
Proof. exact shared_connector. Qed.
Print Assumptions C34_shared_connector_refuted.

(** C34 fails for a core whose energy is a lone symbol: it is not copied. *)
Theorem C34_symbol_energy_refuted : exists h src,
  allocated h src /\ complete h src /\ registered h src /\
  getattr src (ACore "H") = Some (VExpr (Sym "E")) /\
  forall names, enumerates names h src ->
  forall r, py_copy h src names <> Ok r.
Proof. exact symbol_energy. Qed.
Print Assumptions C34_symbol_energy_refuted.

(** C34 fails for the assumptions on symbols: they are not copied. *)
Theorem C34_assertions_refuted : exists h src names h' cp,
  allocated h src /\ complete h src /\ enumerates names h src /\
  py_copy h src names = Ok (h', cp) /\
  observe 2 h src (ACore "assertions") = Some (TDict [(TStr "real", TInt 0)]) /\
  observe 2 h' cp (ACore "assertions") = Some (TDict [(TStr "real", TInt 1)]).
Proof. exact assertions_not_copied. Qed.
Print Assumptions C34_assertions_refuted.

(** C41: a core saved under a label, then loaded by a new core after any
    number of saves under other labels or folders, is restored: symbols,
    expressions, structure, substitutions, observers, connectors and
    dimensions are equal to the saved ones at every depth.  [fs] is arbitrary,
    so earlier saves under the same label do not matter. *)
Theorem C41_round_trip : forall depth h c names folder arg lab fs fs1 fs2
                                h0 label h1 tgt tnames targ,
  complete h c -> registered h c -> no_clash h c -> enumerates names h c ->
  file_label c arg lab ->
  py_save depth h c names folder arg fs = Ok fs1 ->
  later (folder, lab) fs1 fs2 ->
  new_pycore h0 label = (h1, tgt) ->
  enumerates tnames h1 tgt -> file_label tgt targ lab ->
  storable depth h c (fun n => In n public) ->
  exists h2 tgt', py_load h1 tgt tnames folder targ fs2 = Ok (h2, tgt') /\
    getattr tgt' (ACore "label") = Some (VStr lab) /\
    forall n, In n public -> n <> ACore "label" -> same_at n h c h2 tgt'.
Proof. exact save_load_new. Qed.
Print Assumptions C41_round_trip.

Example C41_round_trip_ex :
  complete (fst osc_connected) (snd osc_connected) /\
  registered (fst osc_connected) (snd osc_connected) /\
  no_clash (fst osc_connected) (snd osc_connected) /\
  storable 3 (fst osc_connected) (snd osc_connected)
           (fun n => In n public) /\
  exists fs h2 c2,
    py_save 3 (fst osc_connected) (snd osc_connected)
      (all_names (fst osc_connected) (snd osc_connected)) "/tmp" None []
      = Ok fs /\
    py_load (fst blank) (snd blank) (all_names (fst blank) (snd blank))
      "/tmp" None fs = Ok (h2, c2) /\
    observe 3 h2 c2 (ACore "connectors") =
      Some (TList [TDict [(TStr "alpha", TExpr (Num 1))]]) /\
    observe 3 h2 c2 (ADims "_xl") = Some (TInt 2).
Proof.
  destruct osc_connected_ok as (_ & C & R & N & S).
  split; [exact C|]. split; [exact R|]. split; [exact N|]. split; [exact S|].
  exact osc_round_trip.
Qed.

(** C41: a save never fails on a core whose registered names are all there. *)
Theorem C41_saved : forall depth h c names folder arg lab fs,
  registered h c -> no_clash h c -> enumerates names h c ->
  file_label c arg lab ->
  exists d, py_save depth h c names folder arg fs =
              Ok (((folder, lab), d) :: fs) /\
    dico_get d "label" = Some (TStr lab) /\
    forall n, names_of h c n -> exists v, getattr c n = Some v /\
      dico_get d (bare n) = Some (resolve depth h v).
Proof. exact save_ok. Qed.
Print Assumptions C41_saved.

(** C41: loading into any core whose registered names were all saved restores
    each of them, those the user added included, and touches nothing else. *)
Theorem C41_into_any_core : forall depth h c names folder arg lab fs fs1 fs2
                                   h1 tgt tnames targ,
  registered h c -> no_clash h c -> enumerates names h c ->
  file_label c arg lab ->
  py_save depth h c names folder arg fs = Ok fs1 ->
  later (folder, lab) fs1 fs2 ->
  enumerates tnames h1 tgt -> file_label tgt targ lab ->
  (forall n, names_of h1 tgt n -> names_of h c n) ->
  storable depth h c (names_of h1 tgt) ->
  exists h2 tgt', py_load h1 tgt tnames folder targ fs2 = Ok (h2, tgt') /\
    (exists e, h2 = h1 ++ e) /\
    getattr tgt' (ACore "label") = Some (VStr lab) /\
    (forall n, names_of h1 tgt n -> same_at n h c h2 tgt') /\
    (forall n, n <> ACore "label" -> ~ names_of h1 tgt n ->
       getattr tgt' n = getattr tgt n).
Proof. exact save_load. Qed.
Print Assumptions C41_into_any_core.

(** C41 fails for expressions the user added with [setexpr]: a new core does
    not restore them, yet restores their names, and can then be neither copied
    nor saved. *)
Theorem C41_custom_refuted : exists h c names fs h1 tgt tnames h2 c2,
  allocated h c /\ complete h c /\ registered h c /\ no_clash h c /\
  storable 3 h c (names_of h c) /\ enumerates names h c /\
  names_of h c (ACore "g") /\ getattr c (ACore "g") <> None /\
  py_save 3 h c names "/tmp" None [] = Ok fs /\
  new_pycore [] "osc" = (h1, tgt) /\ enumerates tnames h1 tgt /\
  py_load h1 tgt tnames "/tmp" None fs = Ok (h2, c2) /\
  names_of h2 c2 (ACore "g") /\ getattr c2 (ACore "g") = None /\
  (forall names2, enumerates names2 h2 c2 ->
     (forall r, py_copy h2 c2 names2 <> Ok r) /\
     (forall d folder lab fs2 r,
        py_save d h2 c2 names2 folder lab fs2 <> Ok r)).
Proof. exact custom_lost. Qed.
Print Assumptions C41_custom_refuted.

(** C41 fails for a core whose energy is a lone symbol: it is saved, and
    loading raises TypeError. *)
Theorem C41_symbol_energy_refuted : exists h c names fs h1 tgt tnames,
  allocated h c /\ complete h c /\ registered h c /\ no_clash h c /\
  enumerates names h c /\
  py_save 3 h c names "/tmp" None [] = Ok fs /\
  new_pycore [] "osc" = (h1, tgt) /\ enumerates tnames h1 tgt /\
  py_load h1 tgt tnames "/tmp" None fs = Err TypeError.
Proof. exact symbol_not_loaded. Qed.
Print Assumptions C41_symbol_energy_refuted.
