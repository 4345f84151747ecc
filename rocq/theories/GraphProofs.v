(** Proofs about the graph analysis: C25. *)
From Coq Require Import String List ZArith QArith Bool Lia Permutation.
From Verif Require Import Py Tools Lists Spec_Tools ToolsProofs Expr Mat Core StructProofs Graph Spec_Graph.
Import ListNotations.
Local Open Scope string_scope.
Local Open Scope list_scope.
Local Open Scope nat_scope.

(** ** Lists *)
Lemma moved_perm {A} i f (l l' : list A) : i < length l -> f < length l -> moved i f l l' -> Permutation l l'.
Proof.
  intros Hi Hf [L H]. apply Permutation_nth_error. split; [now symmetry|].
  exists (shift i f). split; [intros a b; apply shift_inj|].
  intros k. rewrite H. destruct (Nat.ltb_spec k (length l)) as [Hk|Hk]; [reflexivity|].
  symmetry. apply nth_error_None. rewrite (shift_above (length l)) by assumption. exact Hk.
Qed.

Lemma py_index_spec {A} (eqb : A -> A -> bool) x l k : py_index eqb x l = Ok k ->
  exists a, nth_error l k = Some a /\ eqb a x = true.
Proof.
  revert k; induction l as [|a l IH]; intros k; cbn; [discriminate|].
  destruct (eqb a x) eqn:E; [intros [= <-]; exists a; now split|].
  destruct (py_index eqb x l) as [n|]; [|discriminate]. cbn. intros [= <-]. now apply IH.
Qed.

Lemma py_index_total {A} (eqb : A -> A -> bool) x l : (exists a, In a l /\ eqb a x = true) ->
  exists k, py_index eqb x l = Ok k /\ k < length l.
Proof.
  induction l as [|a l IH]; intros (b & Hb & E); [now destruct Hb|]. cbn.
  destruct (eqb a x) eqn:E1; [exists 0; split; [reflexivity|cbn; lia]|].
  destruct IH as (k & -> & Hk); [|exists (S k); split; [reflexivity|cbn; lia]].
  exists b. split; [|exact E]. destruct Hb as [<-|Hb]; [congruence|exact Hb].
Qed.

Lemma py_index_first {A} (eqb : A -> A -> bool) x l k : py_index eqb x l = Ok k ->
  forall i a, i < k -> nth_error l i = Some a -> eqb a x = false.
Proof.
  revert k; induction l as [|a l IH]; intros k; cbn; [discriminate|].
  destruct (eqb a x) eqn:E; [intros [= <-] i b Hi; lia|].
  destruct (py_index eqb x l) as [n|]; [|discriminate]. cbn. intros [= <-] [|i] b Hi Hb.
  - cbn in Hb. congruence.
  - apply (IH n eq_refl i); [lia|exact Hb].
Qed.

Lemma in_nat x l : py_in Nat.eqb x l = true <-> In x l.
Proof.
  unfold py_in. rewrite existsb_exists. split.
  - intros (y & Hy & E). apply Nat.eqb_eq in E. now subst.
  - intros H. exists x. split; [exact H|apply Nat.eqb_refl].
Qed.

Lemma remove_nat x l l' : NoDup l -> py_remove Nat.eqb x l = Ok l' ->
  NoDup l' /\ S (length l') = length l /\ forall y, In y l' <-> In y l /\ y <> x.
Proof.
  revert l'; induction l as [|a l IH]; intros l' N; cbn; [discriminate|].
  inversion N; subst. destruct (Nat.eqb_spec a x) as [->|Ha].
  - intros [= <-]. split; [assumption|]. split; [reflexivity|]. intros y. split.
    + intros Hy. split; [now right|]. intros ->. contradiction.
    + intros [[->|Hy] Hn]; [congruence|exact Hy].
  - destruct (py_remove Nat.eqb x l) as [r|]; [|discriminate]. cbn. intros [= <-].
    destruct (IH r H2 eq_refl) as (N' & L & E). split; [|split].
    + constructor; [|exact N']. rewrite E. tauto.
    + cbn. now rewrite L.
    + intros y. cbn. rewrite E. split.
      * intros [<-|[Hy Hn]]; [split; [now left|exact Ha]|split; [now right|exact Hn]].
      * intros [[->|Hy] Hn]; [now left|right; now split].
Qed.

Lemma remove_nat_total x l : In x l -> exists l', py_remove Nat.eqb x l = Ok l'.
Proof.
  induction l as [|a l IH]; [intros []|]. cbn. destruct (Nat.eqb_spec a x) as [->|Ha]; [eauto|].
  intros [->|H]; [congruence|]. destruct (IH H) as [l' ->]. cbn. eauto.
Qed.

Lemma update_nth_length {A} k (f : A -> A) l : length (update_nth k f l) = length l.
Proof. revert k; induction l as [|a l IH]; intros [|k]; cbn; [reflexivity..|]. now rewrite IH. Qed.

Lemma update_nth_nth {A} k (f : A -> A) l i : nth_error (update_nth k f l) i =
  if Nat.eqb i k then option_map f (nth_error l i) else nth_error l i.
Proof.
  revert k i; induction l as [|a l IH]; intros [|k] [|i]; cbn; try reflexivity.
  - now destruct (Nat.eqb i k).
  - apply IH.
Qed.

Lemma update_nth_map {A B} (h : A -> B) k f l : (forall a, h (f a) = h a) -> map h (update_nth k f l) = map h l.
Proof. intros H. revert k; induction l as [|a l IH]; intros [|k]; cbn; rewrite ?H, ?IH; reflexivity. Qed.

(** ** The slices of set_edge_ec and set_edge_fc *)
Lemma slice_neg {A} (l : list A) (c : nat) : 0 < c -> py_slice l (Some (- Z.of_nat c)%Z) None = skipn (length l - c) l.
Proof.
  intros Hc. unfold py_slice, py_clamp. destruct (Z.ltb_spec (- Z.of_nat c) 0); [|lia].
  replace (Z.to_nat (Z.max 0 (Z.min (Z.of_nat (length l)) (- Z.of_nat c + Z.of_nat (length l)))))
    with (length l - c) by lia.
  apply firstn_all2. rewrite skipn_length. lia.
Qed.

Lemma slice_to_neg {A} (l : list A) (a c : nat) : 0 < c ->
  py_slice l (Some (Z.of_nat a)) (Some (- Z.of_nat c)%Z) = firstn (length l - c - a) (skipn a l).
Proof.
  intros Hc. unfold py_slice, py_clamp. destruct (Z.ltb_spec (- Z.of_nat c) 0); [|lia].
  destruct (Z.ltb_spec (Z.of_nat a) 0); [lia|].
  destruct (le_lt_dec a (length l)) as [H1|H1].
  - f_equal; [lia|]. f_equal. lia.
  - rewrite !skipn_all2 by lia. now rewrite !firstn_nil.
Qed.

Lemma ec_lists_blocks s a b c : a_ec s = seq 0 a -> a_ic s = seq a (S b) -> a_fc s = seq (a + S b) c ->
  a + S b + c = ne s ->
  ec_lists s = with_classes (seq 0 (S a)) (seq (S a) b) (seq (S a + b) c) s.
Proof.
  intros E1 E2 E3 N. unfold ec_lists. rewrite E1, E3, !seq_length.
  replace (Z.of_nat a + 1)%Z with (Z.of_nat (S a)) by lia.
  rewrite py_slice_to, firstn_seq. replace (Nat.min (S a) (ne s)) with (S a) by lia.
  destruct (Z.ltb_spec 0 (Z.of_nat c)) as [H|H].
  - rewrite slice_neg, slice_to_neg by lia. rewrite seq_length, !skipn_seq, firstn_seq.
    f_equal; f_equal; lia.
  - rewrite py_slice_from, skipn_seq. replace c with 0 by lia. cbn [seq]. f_equal. f_equal; lia.
Qed.

Lemma fc_lists_blocks s a b c : a_ec s = seq 0 a -> a_ic s = seq a (S b) -> a_fc s = seq (a + S b) c ->
  a + S b + c = ne s ->
  fc_lists s = with_classes (seq 0 a) (seq a b) (seq (a + b) (S c)) s.
Proof.
  intros E1 E2 E3 N. unfold fc_lists. rewrite E1, E3, !seq_length.
  replace (Z.of_nat c + 1)%Z with (Z.of_nat (S c)) by lia.
  rewrite py_slice_to, slice_neg, slice_to_neg by lia. rewrite seq_length, !skipn_seq, !firstn_seq.
  f_equal; f_equal; lia.
Qed.

(** ** The invariant *)

(** Every node that is no longer to be determined, but the datum, has one edge,
    flux-controlled or in [x], that imposes its potential. *)
Definition determined (x : list nat) (s : ana) : Prop :=
  forall n m, nth_error (a_nodes s) n = Some m -> m <> datum -> ~ In n (a_icn s) ->
    exists e, (In e (a_fc s) \/ In e x) /\ e < ne s /\ a_L s n e = 1%Z /\
      (forall j, j < ne s -> j <> e -> a_L s n j = 0%Z) /\
      (forall i, i < nn s -> i <> n -> a_L s i e = 0%Z).

Record inv (g : graph) (x : list nat) (s : ana) : Prop := mkInv {
  i_blocks : blocks s;
  i_aligned : aligned s;
  i_same : same_graph g s;
  i_L : forall i j, i < nn s -> j < ne s -> a_L s i j = 0%Z \/ (a_L s i j = 1%Z /\ a_G s i j <> 0%Z);
  i_ec : forall i j, i < nn s -> In j (a_ec s) -> a_L s i j = 0%Z;
  i_icn : NoDup (a_icn s);
  i_icn_lt : forall n, In n (a_icn s) -> n < nn s /\ nth_error (a_nodes s) n <> Some datum;
  i_datum : forall n j, nth_error (a_nodes s) n = Some datum -> j < ne s -> a_L s n j = 0%Z;
  i_det : determined x s
}.

Lemma inv_sound g x s : inv g x s -> sound g s.
Proof. intros [H1 H2 H3 _ _ _ _ _ _]. now repeat split; try apply H3. Qed.

Lemma blocks_ic s e : blocks s -> In e (a_ic s) -> exists a b c, a_ec s = seq 0 a /\ a_ic s = seq a (S b) /\
  a_fc s = seq (a + S b) c /\ a + S b + c = ne s /\ a <= e < a + S b.
Proof.
  intros (a & b & c & E1 & E2 & E3 & N) He. rewrite E2 in He. apply in_seq in He.
  destruct b as [|b]; [lia|]. exists a, b, c. now repeat split; try lia.
Qed.

(** *** Moving one edge *)
Definition to_front (e j : nat) : nat := shift e 0 j.
Definition moved_edges (e f : nat) (s s' : ana) : Prop :=
  a_nodes s' = a_nodes s /\ moved e f (a_edges s) (a_edges s') /\
  (forall i j, j < ne s -> a_G s' i j = a_G s i (shift e f j)) /\
  (forall i j, j < ne s -> a_L s' i j = a_L s i (shift e f j)) /\
  a_icn s' = a_icn s /\ a_ec s' = a_ec s /\ a_ic s' = a_ic s /\ a_fc s' = a_fc s.

Lemma move_edge_ok e f s : e < ne s -> f < ne s -> exists s', move_edge e f s = ret s' /\ moved_edges e f s s'.
Proof.
  intros He Hf. unfold move_edge. rewrite myrange_mv by exact He. cbn [alift a_edges].
  destruct (pick_mv (a_edges s) e f He Hf) as (l' & E & M). unfold ne in *. rewrite E. cbn [alift].
  eexists. split; [reflexivity|]. unfold moved_edges, with_edges, take_cols; cbn. unfold ne.
  split; [reflexivity|]. split; [exact M|].
  split; [intros i j Hj; now rewrite nth_mv by assumption|].
  split; [intros i j Hj; now rewrite nth_mv by assumption|]. now repeat split.
Qed.

Lemma moved_edges_aligned e f s s' : e < ne s -> f < ne s -> moved_edges e f s s' -> aligned s -> aligned s'.
Proof.
  intros He Hf (HN & (HL & HE) & HG & _) A i j n d Hn Hd.
  assert (Hj : j < ne s). { unfold ne. rewrite <- HL. apply nth_error_Some. congruence. }
  rewrite HG by exact Hj. rewrite HE in Hd. unfold ne in Hj.
  destruct (Nat.ltb_spec j (length (a_edges s))); [|lia].
  apply (A i (shift e f j)); [now rewrite <- HN|exact Hd].
Qed.

Lemma moved_edges_same g e f s s' : e < ne s -> f < ne s -> moved_edges e f s s' -> same_graph g s -> same_graph g s'.
Proof.
  intros He Hf (HN & HM & _) [P1 P2]. split; [now rewrite HN|].
  eapply Permutation_trans; [exact P2|]. apply Permutation_map.
  exact (moved_perm e f _ _ He Hf HM).
Qed.

Lemma inv_to_ec g e s s' : inv g [] s -> In e (a_ic s) -> moved_edges e 0 s s' ->
  let s'' := ec_lists s' in inv g [] (with_L (set_col 0 0%Z (a_L s'')) s'') /\
  S (length (a_ic s'')) = length (a_ic s) /\ length (a_ec s'') = S (length (a_ec s)).
Proof.
  intros H He M.
  destruct (blocks_ic s e (i_blocks _ _ _ H) He) as (a & b & c & E1 & E2 & E3 & N & Ha).
  assert (Hl : e < ne s) by lia. assert (H0 : 0 < ne s) by lia.
  pose proof (moved_edges_aligned e 0 s s' Hl H0 M (i_aligned _ _ _ H)) as A'.
  pose proof (moved_edges_same g e 0 s s' Hl H0 M (i_same _ _ _ H)) as S'.
  destruct M as (HN & (HL & HE) & HG & HLm & HI & F1 & F2 & F3).
  assert (Ne : ne s' = ne s) by (unfold ne; exact HL).
  assert (Nn : nn s' = nn s) by (unfold nn; now rewrite HN).
  rewrite (ec_lists_blocks s' a b c) by congruence. cbn zeta.
  unfold with_classes, with_L; cbn [a_nodes a_edges a_G a_L a_icn a_ec a_ic a_fc].
  split; [|rewrite E1, E2, !seq_length; split; reflexivity].
  assert (Hcol : forall i j, j < ne s -> set_col 0 0%Z (a_L s') i j =
            if Nat.eqb j 0 then 0%Z else a_L s i (shift e 0 j)).
  { intros i j Hj. unfold set_col. destruct (Nat.eqb j 0); [reflexivity|now apply HLm]. }
  assert (Hsh : forall j, j < ne s -> shift e 0 j < ne s) by (intros; now apply shift_lt).
  constructor; unfold nn, ne; cbn [a_nodes a_edges a_G a_L a_icn a_ec a_ic a_fc]; fold (nn s') (ne s'); rewrite ?Ne, ?Nn.
  - exists (S a), b, c. cbn. repeat split. fold (ne s'). lia.
  - exact A'.
  - exact S'.
  - intros i j Hi Hj. rewrite Hcol, HG by exact Hj. destruct (Nat.eqb_spec j 0); [now left|].
    apply (i_L _ _ _ H); [exact Hi|now apply Hsh].
  - intros i j Hi Hj. apply in_seq in Hj. rewrite Hcol by lia. destruct (Nat.eqb_spec j 0) as [|Hj0]; [reflexivity|].
    apply (i_ec _ _ _ H); [exact Hi|]. rewrite E1. apply in_seq.
    unfold shift; natcase; lia.
  - rewrite HI. apply (i_icn _ _ _ H).
  - intros n Hn. rewrite HI in Hn. rewrite HN. now apply (i_icn_lt _ _ _ H).
  - intros n j Hn Hj. rewrite Hcol by exact Hj. destruct (Nat.eqb j 0); [reflexivity|].
    rewrite HN in Hn. apply (i_datum _ _ _ H); [exact Hn|now apply Hsh].
  - intros n m Hn Hm Hi. cbn [a_nodes a_icn] in Hn, Hi. rewrite HN in Hn. rewrite HI in Hi.
    destruct (i_det _ _ _ H n m Hn Hm Hi) as (k & [Hk|[]] & Hkl & L1 & L2 & L3).
    rewrite E3 in Hk. apply in_seq in Hk.
    assert (Sk : shift e 0 k = k) by (unfold shift; natcase; lia).
    exists k. unfold ne, nn; cbn [a_edges a_fc a_L a_nodes]. fold (ne s') (nn s'). rewrite Ne, Nn.
    split; [left; apply in_seq; lia|]. split; [exact Hkl|].
    split; [rewrite Hcol, Sk by exact Hkl; destruct (Nat.eqb_spec k 0); [lia|exact L1]|]. split.
    + intros j Hj Hjk. rewrite Hcol by exact Hj. destruct (Nat.eqb j 0); [reflexivity|].
      apply L2; [now apply Hsh|]. intros F. rewrite <- Sk in F. now apply shift_inj in F.
    + intros i Hi' Hin. rewrite Hcol, Sk by exact Hkl. destruct (Nat.eqb k 0); [reflexivity|]. now apply L3.
Qed.

Lemma inv_to_fc g e s s' : inv g [e] s -> In e (a_ic s) -> moved_edges e (ne s - 1) s s' ->
  let s'' := fc_lists s' in inv g [] s'' /\
  S (length (a_ic s'')) = length (a_ic s) /\ length (a_fc s'') = S (length (a_fc s)).
Proof.
  intros H He M.
  destruct (blocks_ic s e (i_blocks _ _ _ H) He) as (a & b & c & E1 & E2 & E3 & N & Ha).
  assert (Hl : e < ne s) by lia. assert (H0 : ne s - 1 < ne s) by lia.
  pose proof (moved_edges_aligned e _ s s' Hl H0 M (i_aligned _ _ _ H)) as A'.
  pose proof (moved_edges_same g e _ s s' Hl H0 M (i_same _ _ _ H)) as S'.
  destruct M as (HN & (HL & HE) & HG & HLm & HI & F1 & F2 & F3).
  assert (Ne : ne s' = ne s) by (unfold ne; exact HL).
  assert (Nn : nn s' = nn s) by (unfold nn; now rewrite HN).
  rewrite (fc_lists_blocks s' a b c) by congruence. cbn zeta.
  unfold with_classes, with_L; cbn [a_nodes a_edges a_G a_L a_icn a_ec a_ic a_fc].
  split; [|rewrite E3, E2, !seq_length; split; reflexivity].
  assert (Hsh : forall j, j < ne s -> shift e (ne s - 1) j < ne s) by (intros; now apply shift_lt).
  constructor; unfold nn, ne; cbn [a_nodes a_edges a_G a_L a_icn a_ec a_ic a_fc]; fold (nn s') (ne s'); rewrite ?Ne, ?Nn.
  - exists a, b, (S c). cbn. repeat split. fold (ne s'). lia.
  - exact A'.
  - exact S'.
  - intros i j Hi Hj. rewrite HLm, HG by exact Hj.
    apply (i_L _ _ _ H); [exact Hi|now apply Hsh].
  - intros i j Hi Hj. apply in_seq in Hj. rewrite HLm by lia.
    apply (i_ec _ _ _ H); [exact Hi|]. rewrite E1. apply in_seq.
    unfold shift; natcase; lia.
  - rewrite HI. apply (i_icn _ _ _ H).
  - intros n Hn. rewrite HI in Hn. rewrite HN. now apply (i_icn_lt _ _ _ H).
  - intros n j Hn Hj. rewrite HLm by exact Hj.
    rewrite HN in Hn. apply (i_datum _ _ _ H); [exact Hn|now apply Hsh].
  - intros n m Hn Hm Hi. cbn [a_nodes a_icn] in Hn, Hi. rewrite HN in Hn. rewrite HI in Hi.
    destruct (i_det _ _ _ H n m Hn Hm Hi) as (k & Hk & Hkl & L1 & L2 & L3).
    assert (Hk' : exists k', a + b <= k' < ne s /\ shift e (ne s - 1) k' = k).
    { destruct Hk as [Hk|[<-|[]]].
      - rewrite E3 in Hk. apply in_seq in Hk. exists (k - 1). split; [lia|]. unfold shift; natcase; lia.
      - exists (ne s - 1). split; [lia|]. unfold shift; natcase; lia. }
    destruct Hk' as (k' & Hk1 & Sk).
    exists k'. unfold ne, nn; cbn [a_edges a_fc a_L a_nodes]. fold (ne s') (nn s'). rewrite Ne, Nn.
    split; [left; apply in_seq; lia|]. split; [lia|].
    split; [rewrite HLm, Sk by lia; exact L1|]. split.
    + intros j Hj Hjk. rewrite HLm by exact Hj.
      apply L2; [now apply Hsh|]. intros F. rewrite <- Sk in F. now apply shift_inj in F.
    + intros i Hi' Hin. rewrite HLm, Sk by lia. now apply L3.
Qed.

Lemma inv_x g x s : inv g [] s -> inv g x s.
Proof.
  intros [H1 H2 H3 H4 H5 H6 H7 H8 H9]. constructor; try assumption.
  intros n m Hn Hm Hi. destruct (H9 n m Hn Hm Hi) as (e & [He|[]] & R). exists e. split; [now left|exact R].
Qed.

Lemma inverse_alpha_frame e s : a_nodes (inverse_alpha e s) = a_nodes s /\ ne (inverse_alpha e s) = ne s /\
  a_G (inverse_alpha e s) = a_G s /\ a_L (inverse_alpha e s) = a_L s /\ a_icn (inverse_alpha e s) = a_icn s /\
  a_ec (inverse_alpha e s) = a_ec s /\ a_ic (inverse_alpha e s) = a_ic s /\ a_fc (inverse_alpha e s) = a_fc s /\
  map (set_alpha None) (a_edges (inverse_alpha e s)) = map (set_alpha None) (a_edges s).
Proof.
  unfold inverse_alpha, with_edges, ne; cbn. rewrite update_nth_length. repeat split.
  apply update_nth_map. intros d. now destruct (e_alpha d).
Qed.

Lemma out_of_alpha n a d : out_of n (set_alpha a d) = out_of n d.
Proof. reflexivity. Qed.

Lemma inv_inverse_alpha g x e s : inv g x s -> inv g x (inverse_alpha e s).
Proof.
  destruct (inverse_alpha_frame e s) as (F1 & F2 & F3 & F4 & F5 & F6 & F7 & F8 & F9).
  intros [H1 H2 H3 H4 H5 H6 H7 H8 H9].
  assert (Nn : nn (inverse_alpha e s) = nn s) by (unfold nn; now rewrite F1).
  constructor; unfold determined; rewrite ?F1, ?F2, ?F3, ?F4, ?F5, ?F6, ?F7, ?F8, ?Nn; try assumption.
  - destruct H1 as (a & b & c & E1 & E2 & E3 & N). exists a, b, c. rewrite F6, F7, F8.
    repeat split; try assumption. fold (ne (inverse_alpha e s)). now rewrite F2.
  - intros i j n d Hn Hd. rewrite F3. rewrite F1 in Hn.
    assert (Hd' : nth_error (map (set_alpha None) (a_edges s)) j = Some (set_alpha None d)).
    { rewrite <- F9. now rewrite nth_error_map, Hd. }
    rewrite nth_error_map in Hd'. destruct (nth_error (a_edges s) j) as [d'|] eqn:E; [|discriminate].
    rewrite (H2 i j n d' Hn E). apply (f_equal (option_map (out_of n))) in Hd'. cbn in Hd'. injection Hd'. intros E1. exact E1.
  - destruct H3 as [P1 P2]. split; [now rewrite F1|now rewrite F9].
Qed.

(** *** set_edge *)
(** What a run keeps: the invariant in the last state, and a final state even
    when it raises. *)
Definition keeps (g : graph) (r : run) : Prop := inv g [] (fst r).

Definition le_edges (s s' : ana) : Prop :=
  length (a_ic s') <= length (a_ic s) /\ a_icn s' = a_icn s /\ nn s' = nn s /\ ne s' = ne s.

Lemma le_edges_refl s : le_edges s s.
Proof. repeat split. lia. Qed.

Lemma map_label_in l x : In x (map e_label l) -> exists a, In a (map e_label l) /\ String.eqb a x = true.
Proof. intros H. exists x. split; [exact H|apply String.eqb_refl]. Qed.

Lemma set_edge_inv g fuel : forall c e s, inv g (match c with CE => [] | CF => [e] end) s -> In e (a_ic s) ->
  length (a_ic s) < fuel -> keeps g (set_edge fuel c e s) /\ snd (set_edge fuel c e s) <> Some OutOfFuel /\
  snd (set_edge fuel c e s) <> Some IndexError /\
  length (a_ic (fst (set_edge fuel c e s))) < length (a_ic s) /\ le_edges s (fst (set_edge fuel c e s)).
Proof.
  induction fuel as [|fuel IH]; intros c e s H He Hf; [lia|].
  destruct (blocks_ic s e (i_blocks _ _ _ H) He) as (a & b & c' & E1 & E2 & E3 & N & Ha).
  assert (Hl : e < ne s) by lia.
  cbn [set_edge]. rewrite py_get_nat.
  destruct (nth_error (a_edges s) e) as [d|] eqn:Ed; [|exfalso; apply nth_error_None in Ed; unfold ne in Hl; lia].
  cbn [alift].
  set (f := match c with CE => 0 | CF => ne s - 1 end).
  assert (Hff : f < ne s) by (unfold f; destruct c; lia).
  destruct (move_edge_ok e f s Hl Hff) as (s1 & -> & M). cbn [abind ret].
  set (s2 := match c with CE => let s0 := ec_lists s1 in with_L (set_col 0 0%Z (a_L s0)) s0 | CF => fc_lists s1 end).
  assert (K : inv g [] s2 /\ S (length (a_ic s2)) = length (a_ic s) /\ a_icn s2 = a_icn s /\ nn s2 = nn s /\
              ne s2 = ne s /\ a_edges s2 = a_edges s1).
  { assert (Fr : a_icn s2 = a_icn s1 /\ nn s2 = nn s1 /\ ne s2 = ne s1 /\ a_edges s2 = a_edges s1).
    { unfold s2, ec_lists, fc_lists. destruct c; [destruct (0 <? _)%Z|]; repeat split. }
    destruct Fr as (Fr1 & Fr2 & Fr3 & Fr4).
    assert (Fi : a_icn s1 = a_icn s /\ nn s1 = nn s /\ ne s1 = ne s).
    { destruct M as (M1 & (M2 & _) & _ & _ & M3 & _). unfold nn, ne. rewrite M1. now repeat split. }
    destruct Fi as (Fi1 & Fi2 & Fi3).
    unfold s2 in *. destruct c.
    - destruct (inv_to_ec g e s s1 H He M) as (I1 & I2 & _). split; [exact I1|]. split; [exact I2|].
      repeat split; congruence.
    - destruct (inv_to_fc g e s s1 H He M) as (I1 & I2 & _). split; [exact I1|]. split; [exact I2|].
      repeat split; congruence. }
  destruct K as (K1 & K2 & K3 & K4 & K5 & K6). clearbody s2.
  assert (Hin : In (e_label d) (map e_label (a_edges s2))).
  { rewrite K6. apply in_map. destruct M as (_ & HM & _).
    eapply Permutation_in; [exact (moved_perm e f _ _ Hl Hff HM)|]. eapply nth_error_In, Ed. }
  destruct (py_index_total String.eqb (e_label d) _ (map_label_in _ _ Hin)) as (ke & Eke & Lke).
  rewrite map_length in Lke. rewrite Eke. cbn [alift]. rewrite py_get_nat.
  destruct (nth_error (a_edges s2) ke) as [d'|] eqn:Ed'; [|exfalso; apply nth_error_None in Ed'; lia].
  cbn [alift].
  assert (Done : keeps g (ret s2) /\ snd (ret s2) <> Some OutOfFuel /\ snd (ret s2) <> Some IndexError /\
                 length (a_ic (fst (ret s2))) < length (a_ic s) /\ le_edges s (fst (ret s2))).
  { split; [exact K1|]. split; [discriminate|]. split; [discriminate|]. split; [cbn; lia|].
    repeat split; cbn; [lia|exact K3|exact K4|exact K5]. }
  assert (Fail : forall e', e' <> OutOfFuel -> e' <> IndexError ->
                 keeps g (fail e' s2) /\ snd (fail e' s2) <> Some OutOfFuel /\ snd (fail e' s2) <> Some IndexError /\
                 length (a_ic (fst (fail e' s2))) < length (a_ic s) /\ le_edges s (fst (fail e' s2))).
  { intros e' N1 N2. split; [exact K1|]. split; [cbn; congruence|]. split; [cbn; congruence|]. split; [cbn; lia|].
    repeat split; cbn; [lia|exact K3|exact K4|exact K5]. }
  assert (Rec : forall c0 link s3, inv g [] s3 -> a_ic s3 = a_ic s2 -> a_icn s3 = a_icn s2 -> nn s3 = nn s2 ->
      ne s3 = ne s2 -> In link (a_ic s3) ->
      keeps g (set_edge fuel c0 link s3) /\ snd (set_edge fuel c0 link s3) <> Some OutOfFuel /\
      snd (set_edge fuel c0 link s3) <> Some IndexError /\
      length (a_ic (fst (set_edge fuel c0 link s3))) < length (a_ic s) /\ le_edges s (fst (set_edge fuel c0 link s3))).
  { intros c0 link s3 J1 J2 J3 J4 J5 J6.
    destruct (IH c0 link s3) as (R1 & R2 & R3 & R4 & R5).
    - destruct c0; [exact J1|now apply inv_x].
    - exact J6.
    - rewrite J2. lia.
    - split; [exact R1|]. split; [exact R2|]. split; [exact R3|]. rewrite J2 in R4. split; [lia|].
      destruct R5 as (Q1 & Q2 & Q3 & Q4). rewrite J2 in Q1. repeat split; [lia|congruence..]. }
  destruct (String.eqb (e_type d') "connector"); [|exact Done].
  destruct (py_index _ (Some (e_label d')) (map e_link (a_edges s2))) as [link|ex] eqn:El.
  2:{ cbn [alift]. apply (Fail ex); intros ->; clear - El; revert El; generalize (map e_link (a_edges s2));
      intros l; induction l as [|o l IHl]; cbn; try discriminate;
      destruct (label_is _ o); try discriminate;
      destruct (py_index _ _ l); cbn; try discriminate; exact IHl. }
  cbn [alift].
  destruct (inverse_alpha_frame ke s2) as (Q1 & Q2 & Q3 & Q4 & Q5 & Q6 & Q7 & Q8 & Q9).
  destruct (String.eqb (e_ctype d') "gyrator").
  - destruct c.
    + rewrite Q8, Q7. destruct (py_in Nat.eqb link (a_fc s2)).
      { split; [now apply inv_inverse_alpha|]. split; [discriminate|]. split; [discriminate|].
        cbn [fst fail]. rewrite Q7. split; [lia|].
        repeat split; rewrite ?Q7, ?Q5; [lia|exact K3|unfold nn; rewrite Q1; exact K4|now rewrite Q2]. }
      destruct (py_in Nat.eqb link (a_ic s2)) eqn:Ei.
      * apply Rec; [now apply inv_inverse_alpha|exact Q7|exact Q5|unfold nn; now rewrite Q1|exact Q2|].
        rewrite Q7. now apply in_nat.
      * split; [now apply inv_inverse_alpha|]. split; [discriminate|]. split; [discriminate|].
        cbn [fst ret]. rewrite Q7. split; [lia|].
        repeat split; rewrite ?Q7, ?Q5; [lia|exact K3|unfold nn; rewrite Q1; exact K4|now rewrite Q2].
    + destruct (py_in Nat.eqb link (a_ec s2)); [now apply Fail|].
      destruct (py_in Nat.eqb link (a_ic s2)) eqn:Ei; [|exact Done].
      apply Rec; try reflexivity; [exact K1|now apply in_nat].
  - destruct (String.eqb (e_ctype d') "transformer"); [|exact Done].
    destruct c.
    + destruct (py_in Nat.eqb link (a_ec s2)); [now apply Fail|].
      destruct (py_in Nat.eqb link (a_ic s2)) eqn:Ei; [|exact Done].
      apply Rec; try reflexivity; [exact K1|now apply in_nat].
    + destruct (py_in Nat.eqb link (a_fc s2)); [now apply Fail|].
      destruct (py_in Nat.eqb link (a_ic s2)) eqn:Ei; [|exact Done].
      apply Rec; try reflexivity; [exact K1|now apply in_nat].
Qed.
