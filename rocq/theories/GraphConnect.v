(** Both edges of a connector are controlled together: C45. *)
From Coq Require Import String List ZArith QArith Reals Bool Lia Lra Permutation.
From Verif Require Import Py Tools Lists Spec_Tools ToolsProofs Expr ExprProofs RSum Mat Core Spec_Core Spec_Connect StructProofs
  Graph Spec_Graph GraphProofs GraphAnalysis GraphDeclared GraphKirchhoff GraphBuild.
Import ListNotations.
Local Open Scope string_scope.
Local Open Scope list_scope.
Local Open Scope nat_scope.

(** ** Edges by class *)
Definition cls (c : option ctrl) (s : ana) : list nat :=
  match c with None => a_ic s | Some CE => a_ec s | Some CF => a_fc s end.
Definition holds (s : ana) (c : option ctrl) (x : edge) : Prop :=
  exists j, In j (cls c s) /\ nth_error (a_edges s) j = Some x.

Lemma holds_some s j x : blocks s -> nth_error (a_edges s) j = Some x -> exists c, In j (cls c s) /\ holds s c x.
Proof.
  intros B Hx. assert (Hj : j < ne s) by (apply nth_error_Some; congruence).
  apply (class_lt s B) in Hj as [Hj|[Hj|Hj]]; [exists (Some CE)|exists None|exists (Some CF)];
    (split; [exact Hj|now exists j]).
Qed.

Lemma holds_in s c x : holds s c x -> In x (a_edges s).
Proof. intros (j & _ & Hj). eapply nth_error_In, Hj. Qed.

Lemma cls_disjoint s j c c' : blocks s -> In j (cls c s) -> In j (cls c' s) -> c = c'.
Proof.
  intros (a & b & k & E1 & E2 & E3 & _) H H'.
  destruct c as [[|]|], c' as [[|]|]; cbn in H, H'; rewrite ?E1, ?E2, ?E3 in H; rewrite ?E1, ?E2, ?E3 in H';
    try reflexivity; exfalso; apply in_seq in H; apply in_seq in H'; lia.
Qed.

Lemma pos_inj s i j x y : NoDup (map e_label (a_edges s)) -> nth_error (a_edges s) i = Some x -> nth_error (a_edges s) j = Some y ->
  e_label x = e_label y -> i = j.
Proof.
  intros N Hx Hy E. apply (proj1 (NoDup_nth_error _) N).
  - rewrite map_length. apply nth_error_Some. congruence.
  - rewrite !nth_error_map, Hx, Hy. cbn. now rewrite E.
Qed.

Lemma holds_unique s c c' x y : blocks s -> NoDup (map e_label (a_edges s)) -> holds s c x -> holds s c' y ->
  e_label x = e_label y -> c = c' /\ x = y.
Proof.
  intros B N (i & Hi & Ei) (j & Hj & Ej) E. assert (i = j) by (eapply pos_inj; eauto). subst j.
  split; [now apply (cls_disjoint s i)|congruence].
Qed.

Lemma shift_onto i f (l l' : list edge) j x : i < length l -> f < length l -> moved i f l l' -> nth_error l j = Some x ->
  exists k, nth_error l' k = Some x /\ shift i f k = j /\ k < length l.
Proof.
  intros Hi Hf [L H] Hx. assert (Hj : j < length l) by (apply nth_error_Some; congruence).
  exists (shift f i j).
  assert (E : shift i f (shift f i j) = j).
  { remember (shift f i j) as q eqn:Q. unfold shift in Q. revert Q. natcase; intros ->; unfold shift; natcase; lia. }
  assert (K : shift f i j < length l) by (unfold shift; natcase; lia).
  rewrite H. destruct (Nat.ltb_spec (shift f i j) (length l)); [|lia]. rewrite E. now repeat split.
Qed.

Definition upd (c0 : ctrl) (d : edge) (P : option ctrl -> edge -> Prop) (c : option ctrl) (x : edge) : Prop :=
  match c with
  | None => P None x /\ e_label x <> e_label d
  | Some c => P (Some c) x \/ (c = c0 /\ x = d)
  end.

Lemma to_ec_holds g e s s' d : inv g [] s -> In e (a_ic s) -> moved_edges e 0 s s' -> NoDup (map e_label (a_edges s)) ->
  nth_error (a_edges s) e = Some d ->
  forall c x, holds (with_L (set_col 0 0%Z (a_L (ec_lists s'))) (ec_lists s')) c x <-> upd CE d (holds s) c x.
Proof.
  intros H He M Nl Hd.
  destruct (blocks_ic s e (i_blocks _ _ _ H) He) as (a & b & k & E1 & E2 & E3 & N & Ha).
  assert (Hl : e < ne s) by lia. assert (H0 : 0 < ne s) by lia.
  destruct M as (HN & HM & HG & HLm & HI & F1 & F2 & F3).
  assert (Ne : ne s' = ne s) by (unfold ne; exact (proj1 HM)).
  rewrite (ec_lists_blocks s' a b k) by congruence.
  intros c x. unfold holds, upd, cls; cbn [a_ec a_ic a_fc a_edges with_L with_classes]. rewrite E1, E2, E3. split.
  - intros (j & Hj & Hx). pose proof Hx as Hx'. apply (moved_nth e 0 _ _ j x HM) in Hx' as [_ Hs].
    destruct c as [[|]|].
    + apply in_seq in Hj. destruct (Nat.eq_dec j 0) as [->|Hj0].
      * right. split; [reflexivity|]. replace (shift e 0 0) with e in Hs by (unfold shift; natcase; lia). congruence.
      * left. exists (shift e 0 j). split; [apply in_seq; unfold shift; natcase; lia|exact Hs].
    + apply in_seq in Hj. left. exists (shift e 0 j). split; [apply in_seq; unfold shift; natcase; lia|exact Hs].
    + apply in_seq in Hj. split.
      * exists (shift e 0 j). split; [apply in_seq; unfold shift; natcase; lia|exact Hs].
      * intros E. pose proof (pos_inj s _ _ _ _ Nl Hs Hd E) as E'. unfold shift in E'. revert E'. natcase; lia.
  - destruct c as [[|]|].
    + intros [(j & Hj & Hx)|[_ ->]].
      * destruct (shift_onto e 0 _ _ j x Hl H0 HM Hx) as (q & Hq & Eq & Lq). exists q. split; [|exact Hq].
        apply in_seq in Hj. apply in_seq. unfold shift in Eq. revert Eq. natcase; lia.
      * destruct (shift_onto e 0 _ _ e d Hl H0 HM Hd) as (q & Hq & Eq & Lq). exists q. split; [|exact Hq].
        apply in_seq. unfold shift in Eq. revert Eq. natcase; lia.
    + intros [(j & Hj & Hx)|[F _]]; [|discriminate].
      destruct (shift_onto e 0 _ _ j x Hl H0 HM Hx) as (q & Hq & Eq & Lq). exists q. split; [|exact Hq].
      apply in_seq in Hj. apply in_seq. unfold shift in Eq. revert Eq. natcase; lia.
    + intros [(j & Hj & Hx) Hne].
      destruct (shift_onto e 0 _ _ j x Hl H0 HM Hx) as (q & Hq & Eq & Lq). exists q. split; [|exact Hq].
      assert (j <> e) by (intros ->; apply Hne; congruence).
      apply in_seq in Hj. apply in_seq. unfold shift in Eq. revert Eq. natcase; lia.
Qed.

Lemma to_fc_holds g e s s' d : inv g [e] s -> In e (a_ic s) -> moved_edges e (ne s - 1) s s' -> NoDup (map e_label (a_edges s)) ->
  nth_error (a_edges s) e = Some d ->
  forall c x, holds (fc_lists s') c x <-> upd CF d (holds s) c x.
Proof.
  intros H He M Nl Hd.
  destruct (blocks_ic s e (i_blocks _ _ _ H) He) as (a & b & k & E1 & E2 & E3 & N & Ha).
  assert (Hl : e < ne s) by lia. assert (H0 : ne s - 1 < ne s) by lia.
  destruct M as (HN & HM & HG & HLm & HI & F1 & F2 & F3).
  assert (Ne : ne s' = ne s) by (unfold ne; exact (proj1 HM)).
  rewrite (fc_lists_blocks s' a b k) by congruence.
  assert (Lx : forall j x, nth_error (a_edges s') j = Some x -> j < ne s).
  { intros j x Hx. rewrite <- Ne. apply nth_error_Some. congruence. }
  intros c x. unfold holds, upd, cls; cbn [a_ec a_ic a_fc a_edges with_L with_classes]. rewrite E1, E2, E3. split.
  - intros (j & Hj & Hx). pose proof (Lx j x Hx) as Hjl. pose proof Hx as Hx'. apply (moved_nth e _ _ _ j x HM) in Hx' as [_ Hs].
    destruct c as [[|]|].
    + apply in_seq in Hj. left. exists (shift e (ne s - 1) j). split; [apply in_seq; unfold shift; natcase; lia|exact Hs].
    + apply in_seq in Hj. destruct (Nat.eq_dec j (ne s - 1)) as [->|Hj0].
      * right. split; [reflexivity|]. replace (shift e (ne s - 1) (ne s - 1)) with e in Hs by (unfold shift; natcase; lia). congruence.
      * left. exists (shift e (ne s - 1) j). split; [apply in_seq; unfold shift; natcase; lia|exact Hs].
    + apply in_seq in Hj. split.
      * exists (shift e (ne s - 1) j). split; [apply in_seq; unfold shift; natcase; lia|exact Hs].
      * intros E. pose proof (pos_inj s _ _ _ _ Nl Hs Hd E) as E'. unfold shift in E'. revert E'. natcase; lia.
  - destruct c as [[|]|].
    + intros [(j & Hj & Hx)|[F _]]; [|discriminate].
      destruct (shift_onto e _ _ _ j x Hl H0 HM Hx) as (q & Hq & Eq & Lq). fold (ne s) in Lq. exists q. split; [|exact Hq].
      apply in_seq in Hj. apply in_seq. unfold shift in Eq. revert Eq. natcase; lia.
    + intros [(j & Hj & Hx)|[_ ->]].
      * destruct (shift_onto e _ _ _ j x Hl H0 HM Hx) as (q & Hq & Eq & Lq). fold (ne s) in Lq. exists q. split; [|exact Hq].
        apply in_seq in Hj. apply in_seq. unfold shift in Eq. revert Eq. natcase; lia.
      * destruct (shift_onto e _ _ _ e d Hl H0 HM Hd) as (q & Hq & Eq & Lq). fold (ne s) in Lq. exists q. split; [|exact Hq].
        apply in_seq. unfold shift in Eq. revert Eq. natcase; lia.
    + intros [(j & Hj & Hx) Hne].
      destruct (shift_onto e _ _ _ j x Hl H0 HM Hx) as (q & Hq & Eq & Lq). fold (ne s) in Lq. exists q. split; [|exact Hq].
      assert (j <> e) by (intros ->; apply Hne; congruence).
      apply in_seq in Hj. apply in_seq. unfold shift in Eq. revert Eq. natcase; lia.
Qed.

Definition invert (x : edge) : edge := match e_alpha x with Some a => set_alpha (Some (Inv a)) x | None => x end.

Lemma invert_frame x : set_alpha None (invert x) = set_alpha None x.
Proof. unfold invert. now destruct (e_alpha x). Qed.
Lemma invert_alpha x : e_alpha (invert x) = option_map Inv (e_alpha x).
Proof. unfold invert. destruct (e_alpha x) eqn:E; [reflexivity|exact E]. Qed.

Lemma inverse_holds s k d : NoDup (map e_label (a_edges s)) -> nth_error (a_edges s) k = Some d ->
  forall c x, holds (inverse_alpha k s) c x <-> exists x0, holds s c x0 /\ x = (if String.eqb (e_label x0) (e_label d) then invert x0 else x0).
Proof.
  intros Nl Hd c x. destruct (inverse_alpha_frame k s) as (_ & _ & _ & _ & _ & F6 & F7 & F8 & _).
  assert (Hc : cls c (inverse_alpha k s) = cls c s) by (destruct c as [[|]|]; [exact F6|exact F8|exact F7]).
  assert (Eq : forall j, nth_error (a_edges (inverse_alpha k s)) j = if Nat.eqb j k then option_map invert (nth_error (a_edges s) j)
     else nth_error (a_edges s) j) by (intros j; exact (update_nth_nth k invert (a_edges s) j)).
  unfold holds. rewrite Hc. split.
  - intros (j & Hj & Hx). rewrite Eq in Hx. destruct (Nat.eqb_spec j k) as [->|Hjk].
    + rewrite Hd in Hx. injection Hx as <-. exists d. split; [now exists k|]. now rewrite String.eqb_refl.
    + exists x. split; [now exists j|]. destruct (String.eqb_spec (e_label x) (e_label d)) as [E|]; [|reflexivity].
      exfalso. apply Hjk. eapply pos_inj; eauto.
  - intros (x0 & (j & Hj & Hx) & ->). exists j. split; [exact Hj|]. rewrite Eq.
    destruct (Nat.eqb_spec j k) as [->|Hjk].
    + rewrite Hd in *. injection Hx as ->. now rewrite String.eqb_refl.
    + destruct (String.eqb_spec (e_label x0) (e_label d)) as [E|]; [|exact Hx]. exfalso. apply Hjk. eapply pos_inj; eauto.
Qed.

(** ** One call *)
Definition link_step (fuel : nat) (c : ctrl) (d : edge) (ke : nat) (s : ana) : run :=
  if String.eqb (e_type d) "connector" then
    alift (py_index (fun o l => match l with Some l => label_is l o | None => false end)
                    (Some (e_label d)) (map e_link (a_edges s))) s (fun link =>
    if String.eqb (e_ctype d) "gyrator" then
      match c with
      | CE => let s := inverse_alpha ke s in
              if py_in Nat.eqb link (a_fc s) then fail AssertionError s
              else if py_in Nat.eqb link (a_ic s) then set_edge fuel CE link s else ret s
      | CF => if py_in Nat.eqb link (a_ec s) then fail AssertionError s
              else if py_in Nat.eqb link (a_ic s) then set_edge fuel CF link s else ret s
      end
    else if String.eqb (e_ctype d) "transformer" then
      match c with
      | CE => if py_in Nat.eqb link (a_ec s) then fail AssertionError s
              else if py_in Nat.eqb link (a_ic s) then set_edge fuel CF link s else ret s
      | CF => if py_in Nat.eqb link (a_fc s) then fail AssertionError s
              else if py_in Nat.eqb link (a_ic s) then set_edge fuel CE link s else ret s
      end
    else ret s)
  else ret s.

Lemma labels_nodup g s : NoDup (map e_label (g_edges g)) -> same_graph g s -> NoDup (map e_label (a_edges s)).
Proof. intros N S. eapply Permutation_NoDup; [apply labels_perm, S|exact N]. Qed.

Lemma set_edge_unfold g c e s d fuel : NoDup (map e_label (g_edges g)) ->
  inv g (match c with CE => [] | CF => [e] end) s -> In e (a_ic s) -> nth_error (a_edges s) e = Some d ->
  exists s2 ke, set_edge (S fuel) c e s = link_step fuel c d ke s2 /\ inv g [] s2 /\ nth_error (a_edges s2) ke = Some d /\
    forall c' x, holds s2 c' x <-> upd c d (holds s) c' x.
Proof.
  intros Nl H He Ed.
  destruct (blocks_ic s e (i_blocks _ _ _ H) He) as (a & b & k & E1 & E2 & E3 & N & Ha).
  assert (Hl : e < ne s) by lia.
  cbn [set_edge]. rewrite py_get_nat, Ed. cbn [alift].
  set (f := match c with CE => 0 | CF => ne s - 1 end).
  assert (Hff : f < ne s) by (unfold f; destruct c; lia).
  destruct (move_edge_ok e f s Hl Hff) as (s1 & -> & M). cbn [abind ret].
  set (s2 := match c with CE => let s0 := ec_lists s1 in with_L (set_col 0 0%Z (a_L s0)) s0 | CF => fc_lists s1 end).
  pose proof (labels_nodup g s Nl (i_same _ _ _ H)) as Nls.
  assert (KK : inv g [] s2 /\ forall c' x, holds s2 c' x <-> upd c d (holds s) c' x).
  { unfold s2, f in *. destruct c.
    - split; [apply (inv_to_ec g e s s1 H He M)|]. now apply (to_ec_holds g e).
    - split; [apply (inv_to_fc g e s s1 H He M)|]. now apply (to_fc_holds g e). }
  destruct KK as [K1 K2]. clearbody s2.
  pose proof (labels_nodup g s2 Nl (i_same _ _ _ K1)) as Nl2.
  assert (Hd2 : holds s2 (Some c) d) by (apply K2; right; now split).
  destruct Hd2 as (ke & _ & Hke). exists s2, ke.
  split; [|split; [exact K1|split; [exact Hke|exact K2]]].
  rewrite (labels_index _ ke d Nl2 Hke). cbn [alift]. rewrite py_get_nat, Hke. reflexivity.
Qed.

(** ** The invariant *)
Definition gyr (x : edge) : bool := String.eqb (e_type x) "connector" && String.eqb (e_ctype x) "gyrator".
Definition mate_class (x : edge) (c : option ctrl) : option ctrl :=
  if String.eqb (e_ctype x) "gyrator" then c
  else match c with None => None | Some CE => Some CF | Some CF => Some CE end.

Definition alpha_ok (g : graph) (s : ana) (x : edge) (c : option ctrl) : Prop :=
  exists x0, In x0 (g_edges g) /\ set_alpha None x = set_alpha None x0 /\
    e_alpha x = match c with
                | Some CE => if gyr x then option_map Inv (e_alpha x0) else e_alpha x0
                | _ => e_alpha x0 end.

Definition coupled (g : graph) (s : ana) : Prop :=
  (forall c x, holds s c x -> alpha_ok g s x c) /\
  (forall c x c' y, holds s c x -> e_type x = "connector" -> mates x y -> holds s c' y -> c' = mate_class x c).

Lemma coupled_frame g s s' : a_edges s' = a_edges s -> a_ec s' = a_ec s -> a_ic s' = a_ic s -> a_fc s' = a_fc s -> coupled g s -> coupled g s'.
Proof.
  intros E1 E2 E3 E4 H.
  assert (E : forall c x, holds s' c x <-> holds s c x).
  { intros c x. unfold holds, cls. rewrite E1, E2, E3, E4. reflexivity. }
  split.
  - intros c x Hx. apply E in Hx. exact (proj1 H c x Hx).
  - intros c x c' y Hx Tx M Hy. apply E in Hx. apply E in Hy. now apply (proj2 H c x c' y).
Qed.

Lemma linked_perm l l' : Permutation (map (set_alpha None) l) (map (set_alpha None) l') -> linked l -> linked l'.
Proof.
  intros P L x Hx.
  assert (Back : forall l1 l2 z, Permutation (map (set_alpha None) l1) (map (set_alpha None) l2) -> In z l2 ->
    exists z', In z' l1 /\ set_alpha None z' = set_alpha None z).
  { intros l1 l2 z P' Hz. assert (Hin : In (set_alpha None z) (map (set_alpha None) l1)).
    { eapply Permutation_in; [apply Permutation_sym, P'|now apply in_map]. }
    apply in_map_iff in Hin as (z' & E & Hz'). now exists z'. }
  destruct (Back l l' x P Hx) as (x' & Hx' & E). destruct (L x' Hx') as [L1 L2].
  assert (Et : e_type x' = e_type x) by exact (f_equal e_type E).
  assert (Ec : e_ctype x' = e_ctype x) by exact (f_equal e_ctype E).
  assert (El : e_link x' = e_link x) by exact (f_equal e_link E).
  assert (Eb : e_label x' = e_label x) by exact (f_equal e_label E).
  rewrite Et, Ec, El in *. split; [exact L1|]. intros T. destruct (L2 T) as [C (y & Hy & M)]. split; [exact C|].
  destruct (Back l' l y (Permutation_sym P) Hy) as (y' & Hy' & Ey). exists y'. split; [exact Hy'|].
  assert (Et' : e_type y' = e_type y) by exact (f_equal e_type Ey).
  assert (Ec' : e_ctype y' = e_ctype y) by exact (f_equal e_ctype Ey).
  assert (El' : e_link y' = e_link y) by exact (f_equal e_link Ey).
  assert (Eb' : e_label y' = e_label y) by exact (f_equal e_label Ey).
  unfold mates in *. rewrite Et', Ec', El', Eb'. now rewrite Ec, El, Eb in M.
Qed.

Lemma linked_state g s : linked (g_edges g) -> same_graph g s -> linked (a_edges s).
Proof. intros L [_ P]. now apply (linked_perm (g_edges g)). Qed.

(** The edge found by its link is the mate. *)
Lemma find_mate s d m : linked (a_edges s) -> NoDup (map e_label (a_edges s)) -> In d (a_edges s) -> e_type d = "connector" ->
  mates d m -> In m (a_edges s) ->
  exists j, py_index (fun o l => match l with Some l => label_is l o | None => false end)
                    (Some (e_label d)) (map e_link (a_edges s)) = Ok j /\ nth_error (a_edges s) j = Some m.
Proof.
  intros L Nl Hd Td M Hm.
  destruct (py_index_total (fun o l => match l with Some l => label_is l o | None => false end) (Some (e_label d)) (map e_link (a_edges s)))
    as (j & Ej & Lj).
  { exists (e_link m). split; [now apply in_map|]. destruct M as (_ & _ & _ & -> & _). cbn. apply String.eqb_refl. }
  exists j. split; [exact Ej|]. apply py_index_spec in Ej as (o & Ho & Eo).
  rewrite nth_error_map in Ho. destruct (nth_error (a_edges s) j) as [z|] eqn:Ez; [|discriminate]. cbn in Ho. injection Ho as Ho.
  rewrite <- Ho in Eo. unfold label_is in Eo. destruct (e_link z) as [lz|] eqn:Elz; [|discriminate]. apply String.eqb_eq in Eo. subst lz.
  f_equal. apply In_nth_error in Hm as (q & Hq).
  assert (Hz : In z (a_edges s)) by (eapply nth_error_In, Ez).
  destruct (L z Hz) as [L1 L2]. destruct (string_dec (e_type z) "connector") as [Tz|Tz]; [|rewrite (L1 Tz) in Elz; discriminate].
  destruct (L2 Tz) as [_ (w & Hw & (W1 & W2 & W3 & W4 & W5))]. rewrite Elz in W3. injection W3 as W3.
  apply In_nth_error in Hd as (p & Hp). apply In_nth_error in Hw as (pw & Hpw).
  assert (p = pw) by (eapply pos_inj; eauto). subst pw. rewrite Hp in Hpw. injection Hpw as <-.
  destruct M as (_ & _ & M3 & _). rewrite M3 in W4. injection W4 as W4.
  assert (j = q) by (eapply pos_inj; eauto). subst q. congruence.
Qed.

Lemma mates_frame x x' y y' : set_alpha None x = set_alpha None x' -> set_alpha None y = set_alpha None y' -> mates x y -> mates x' y'.
Proof.
  intros E1 E2. unfold mates.
  rewrite (f_equal e_label E1 : e_label x = e_label x'), (f_equal e_ctype E1 : e_ctype x = e_ctype x'), (f_equal e_link E1 : e_link x = e_link x').
  rewrite (f_equal e_label E2 : e_label y = e_label y'), (f_equal e_ctype E2 : e_ctype y = e_ctype y'),
    (f_equal e_link E2 : e_link y = e_link y'), (f_equal e_type E2 : e_type y = e_type y'). exact (fun H => H).
Qed.

Lemma mates_sym x y : e_type x = "connector" -> mates x y -> mates y x.
Proof. intros T (M1 & M2 & M3 & M4 & M5). repeat split; auto. Qed.

Definition turn (c : ctrl) (x : edge) : edge := match c with CE => if gyr x then invert x else x | CF => x end.
Definition other (c : ctrl) : ctrl := match c with CE => CF | CF => CE end.
Definition mate_ctrl (x : edge) (c : ctrl) : ctrl := if String.eqb (e_ctype x) "gyrator" then c else other c.

(** What the call leaves: the edge, its mate if any, and the others. *)
Lemma set_edge_effect g c e s d : NoDup (map e_label (g_edges g)) -> linked (g_edges g) -> coupled g s ->
  inv g (match c with CE => [] | CF => [e] end) s -> In e (a_ic s) -> nth_error (a_edges s) e = Some d ->
  exists s', set_edge (S (length (a_ic s))) c e s = ret s' /\ same_graph g s' /\ blocks s' /\
    ((e_type d <> "connector" /\ forall c' x, holds s' c' x <-> upd c d (holds s) c' x) \/
     (e_type d = "connector" /\ exists m, mates d m /\ holds s None m /\
      forall c' x, holds s' c' x <->
        match c' with
        | None => holds s None x /\ e_label x <> e_label d /\ e_label x <> e_label m
        | Some c' => holds s (Some c') x \/ (c' = c /\ x = turn c d) \/ (c' = mate_ctrl d c /\ x = turn (mate_ctrl d c) m)
        end)).
Proof.
  intros Nl Lk K H He Ed.
  assert (HeL : exists n, length (a_ic s) = S n) by (destruct (a_ic s); [destruct He|eexists; reflexivity]).
  destruct HeL as [n HeL]. rewrite HeL.
  destruct (set_edge_unfold g c e s d (S n) Nl H He Ed) as (s2 & ke & -> & I2 & Hke & K2).
  pose proof (labels_nodup g s Nl (i_same _ _ _ H)) as Nls.
  pose proof (labels_nodup g s2 Nl (i_same _ _ _ I2)) as Nl2.
  pose proof (linked_state g s2 Lk (i_same _ _ _ I2)) as Lk2.
  pose proof (linked_state g s Lk (i_same _ _ _ H)) as Lks.
  assert (Hd : holds s None d) by (exists e; now split).
  unfold link_step.
  destruct (String.eqb_spec (e_type d) "connector") as [Td|Td].
  2:{ exists s2. split; [reflexivity|]. split; [apply I2|]. split; [apply I2|]. left. now split. }
  destruct (Lks d (nth_error_In _ _ Ed)) as [_ L2]. destruct (L2 Td) as [Ct (m & Hm & M)].
  apply In_nth_error in Hm as (jm & Hjm).
  destruct (holds_some s jm m (i_blocks _ _ _ H) Hjm) as (cm & _ & Hmc).
  pose proof (proj2 K None d cm m Hd Td M Hmc) as Ecm. assert (Hcn : cm = None) by (rewrite Ecm; unfold mate_class; now destruct (String.eqb _ _)).
  clear Ecm. subst cm.
  assert (Ldm : e_label d <> e_label m) by apply M.
  assert (Hm2 : holds s2 None m) by (apply K2; split; [exact Hmc|congruence]).
  destruct (find_mate s2 d m Lk2 Nl2 (nth_error_In _ _ Hke) Td M (holds_in _ _ _ Hm2)) as (link & -> & Hlink). cbn [alift].
  assert (Hli : In link (a_ic s2)).
  { destruct Hm2 as (j & Hj & Hjx). assert (j = link) by (eapply pos_inj; eauto). now subst. }
  assert (Cls : forall s0, blocks s0 -> In link (a_ic s0) -> py_in Nat.eqb link (a_ic s0) = true /\ py_in Nat.eqb link (a_fc s0) = false /\
     py_in Nat.eqb link (a_ec s0) = false).
  { intros s0 B0 L0. split; [now apply in_nat|]. split; apply Bool.not_true_is_false; intros F; apply in_nat in F.
    - discriminate (cls_disjoint s0 link None (Some CF) B0 L0 F).
    - discriminate (cls_disjoint s0 link None (Some CE) B0 L0 F). }
  (* the second call *)
  assert (Second : forall c2 s3 d3, inv g [] s3 -> In link (a_ic s3) -> nth_error (a_edges s3) link = Some m ->
    set_alpha None d3 = set_alpha None d -> holds s3 (Some c) d3 -> c2 = mate_ctrl d c ->
    exists s', set_edge (S n) c2 link s3 = ret s' /\ same_graph g s' /\ blocks s' /\
      forall c' x, holds s' c' x <->
        match c' with
        | None => holds s3 None x /\ e_label x <> e_label m
        | Some c' => holds s3 (Some c') x \/ (c' = c2 /\ x = turn c2 m)
        end).
  { intros c2 s3 d3 I3 L3 E3 Ed3 Hd3 Ec2.
    assert (I3' : inv g (match c2 with CE => [] | CF => [link] end) s3) by (destruct c2; [exact I3|now apply inv_x]).
    destruct (set_edge_unfold g c2 link s3 m n Nl I3' L3 E3) as (s4 & km & -> & I4 & Hkm & K4).
    pose proof (labels_nodup g s4 Nl (i_same _ _ _ I4)) as Nl4.
    pose proof (linked_state g s4 Lk (i_same _ _ _ I4)) as Lk4.
    assert (Hd4 : holds s4 (Some c) d3) by (apply K4; now left).
    assert (Tm : e_type m = "connector") by apply M.
    assert (Md : mates m d3) by (apply (mates_frame m m d d3); [reflexivity|now symmetry|now apply mates_sym]).
    unfold link_step. rewrite Tm, String.eqb_refl.
    destruct (find_mate s4 m d3 Lk4 Nl4 (nth_error_In _ _ Hkm) Tm Md (holds_in _ _ _ Hd4)) as (l4 & -> & Hl4). cbn [alift].
    assert (Hl4c : In l4 (cls (Some c) s4)).
    { destruct Hd4 as (j & Hj & Hjx). assert (j = l4) by (eapply pos_inj; eauto). now subst. }
    assert (Ctm : e_ctype m = e_ctype d) by apply M.
    destruct (inverse_alpha_frame km s4) as (Q1 & Q2 & Q3 & Q4 & Q5 & Q6 & Q7 & Q8 & Q9).
    assert (NI : py_in Nat.eqb l4 (a_ic s4) = false).
    { apply Bool.not_true_is_false. intros F. apply in_nat in F. discriminate (cls_disjoint s4 l4 (Some c) None (i_blocks _ _ _ I4) Hl4c F). }
    assert (NO : py_in Nat.eqb l4 (cls (Some (other c)) s4) = false).
    { apply Bool.not_true_is_false. intros F. apply in_nat in F.
      pose proof (cls_disjoint s4 l4 (Some c) (Some (other c)) (i_blocks _ _ _ I4) Hl4c F) as F'. destruct c; discriminate. }
    assert (Plain : turn c2 m = m -> forall c' x, holds s4 c' x <-> match c' with
        | None => holds s3 None x /\ e_label x <> e_label m
        | Some c' => holds s3 (Some c') x \/ (c' = c2 /\ x = turn c2 m) end).
    { intros T c' x. rewrite K4, T. destruct c'; reflexivity. }
    unfold mate_ctrl in Ec2. rewrite Ctm. destruct (String.eqb (e_ctype d) "gyrator") eqn:Eg.
    - subst c2. destruct c; cbn [cls other] in NO.
      + cbn zeta. rewrite Q8, Q7, NO, NI. exists (inverse_alpha km s4). split; [reflexivity|].
        pose proof (inv_inverse_alpha g [] km s4 I4) as I5. split; [apply I5|]. split; [apply I5|].
        assert (Gm : gyr m = true) by (unfold gyr; now rewrite Tm, Ctm, Eg).
        intros c' x. rewrite (inverse_holds s4 km m Nl4 Hkm). cbn [turn]. rewrite Gm. split.
        * intros (x0 & Hx0 & Ex). apply K4 in Hx0. destruct (String.eqb_spec (e_label x0) (e_label m)) as [El|El].
          -- destruct c' as [c'|]; [|now destruct Hx0]. destruct Hx0 as [Hx0|[-> ->]]; [|right; now split].
             exfalso. destruct (holds_unique s3 (Some c') None x0 m (i_blocks _ _ _ I3) (labels_nodup g s3 Nl (i_same _ _ _ I3)) Hx0
               (ex_intro _ link (conj L3 E3)) El). discriminate.
          -- subst x0. destruct c' as [c'|]; [|exact Hx0]. destruct Hx0 as [Hx0|[-> ->]]; [now left|now contradiction El].
        * intros Hx. assert (Hn : match c' with None => holds s3 None x /\ e_label x <> e_label m
             | Some c' => holds s3 (Some c') x \/ (c' = CE /\ x = invert m) end) by exact Hx.
          destruct c' as [c'|].
          -- destruct Hn as [Hn|[-> ->]].
             ++ exists x. split; [apply K4; now left|]. destruct (String.eqb_spec (e_label x) (e_label m)) as [El|]; [|reflexivity].
                exfalso. destruct (holds_unique s3 (Some c') None x m (i_blocks _ _ _ I3) (labels_nodup g s3 Nl (i_same _ _ _ I3)) Hn
                  (ex_intro _ link (conj L3 E3)) El). discriminate.
             ++ exists m. split; [apply K4; right; now split|]. now rewrite String.eqb_refl.
          -- exists x. split; [now apply K4|]. destruct (String.eqb_spec (e_label x) (e_label m)) as [El|]; [now destruct Hn|reflexivity].
      + rewrite NO, NI. exists s4. split; [reflexivity|]. split; [apply I4|]. split; [apply I4|]. now apply Plain.
    - assert (Et : e_ctype d = "transformer") by (destruct Ct as [F|F]; [rewrite F in Eg; discriminate|exact F]).
      rewrite Et. change (String.eqb "transformer" "transformer") with true. cbv iota.
      assert (Gm : gyr m = false) by (unfold gyr; rewrite Ctm, Eg; apply andb_false_r).
      subst c2. destruct c; cbn [cls other] in *; rewrite NO, NI; exists s4; (split; [reflexivity|]; split; [apply I4|]; split; [apply I4|]);
        apply Plain; cbn [turn]; rewrite ?Gm; reflexivity. }
  destruct (inverse_alpha_frame ke s2) as (Q1 & Q2 & Q3 & Q4 & Q5 & Q6 & Q7 & Q8 & Q9).
  destruct (Cls s2 (i_blocks _ _ _ I2) Hli) as (C1 & C2 & C3).
  assert (Hd2 : holds s2 (Some c) d) by (apply K2; right; now split).
  assert (Fin : forall s3 d3 s', (forall c' x, holds s3 c' x <-> upd c d3 (holds s) c' x) -> d3 = turn c d -> e_label d3 = e_label d ->
    (forall c' x, holds s' c' x <-> match c' with None => holds s3 None x /\ e_label x <> e_label m
        | Some c' => holds s3 (Some c') x \/ (c' = mate_ctrl d c /\ x = turn (mate_ctrl d c) m) end) ->
    forall c' x, holds s' c' x <->
        match c' with
        | None => holds s None x /\ e_label x <> e_label d /\ e_label x <> e_label m
        | Some c' => holds s (Some c') x \/ (c' = c /\ x = turn c d) \/ (c' = mate_ctrl d c /\ x = turn (mate_ctrl d c) m)
        end).
  { intros s3 d3 s' H3 -> El H4 c' x. rewrite H4. destruct c' as [c'|]; rewrite H3; cbn [upd]; rewrite ?El; tauto. }
  assert (Main : forall s3 d3, inv g [] s3 -> In link (a_ic s3) -> nth_error (a_edges s3) link = Some m ->
     (forall c' x, holds s3 c' x <-> upd c d3 (holds s) c' x) -> d3 = turn c d -> set_alpha None d3 = set_alpha None d ->
     exists s', set_edge (S n) (mate_ctrl d c) link s3 = ret s' /\ same_graph g s' /\ blocks s' /\
     ((e_type d <> "connector" /\ forall c' x, holds s' c' x <-> upd c d (holds s) c' x) \/
     (e_type d = "connector" /\ exists m, mates d m /\ holds s None m /\
      forall c' x, holds s' c' x <->
        match c' with
        | None => holds s None x /\ e_label x <> e_label d /\ e_label x <> e_label m
        | Some c' => holds s (Some c') x \/ (c' = c /\ x = turn c d) \/ (c' = mate_ctrl d c /\ x = turn (mate_ctrl d c) m)
        end))).
  { intros s3 d3 I3 L3 E3 H3 T3 F3.
    destruct (Second (mate_ctrl d c) s3 d3 I3 L3 E3 F3) as (s' & R1 & R2 & R3 & R4); [apply H3; right; now split|reflexivity|].
    exists s'. split; [exact R1|]. split; [exact R2|]. split; [exact R3|]. right. split; [exact Td|].
    exists m. split; [exact M|]. split; [exact Hmc|]. apply (Fin s3 d3); [exact H3|exact T3|exact (f_equal e_label F3)|exact R4]. }
  destruct (String.eqb (e_ctype d) "gyrator") eqn:Eg.
  - assert (Gd : gyr d = true) by (unfold gyr; now rewrite Td, Eg).
    assert (Mc : mate_ctrl d c = c) by (unfold mate_ctrl; now rewrite Eg). rewrite Mc in Main.
    destruct c.
    + cbn zeta. rewrite Q8, Q7, C1, C2. rewrite Mc. apply (Main (inverse_alpha ke s2) (invert d)).
      * now apply inv_inverse_alpha.
      * now rewrite Q7.
      * rewrite (update_nth_nth ke invert (a_edges s2) link : nth_error (a_edges (inverse_alpha ke s2)) link = _).
        destruct (Nat.eqb_spec link ke) as [->|]; [congruence|exact Hlink].
      * intros c' x. rewrite (inverse_holds s2 ke d Nl2 Hke). split.
        -- intros (x0 & Hx0 & ->). apply K2 in Hx0. destruct (String.eqb_spec (e_label x0) (e_label d)) as [El|El].
           ++ destruct c' as [c'|]; [|now destruct Hx0]. destruct Hx0 as [Hx0|[-> ->]]; [|right; now split].
              exfalso. destruct (holds_unique s (Some c') None x0 d (i_blocks _ _ _ H) Nls Hx0 Hd El). discriminate.
           ++ destruct c' as [c'|]; cbn [upd] in *.
              ** destruct Hx0 as [Hx0|[-> ->]]; [now left|now contradiction El].
              ** now rewrite (f_equal e_label (invert_frame d) : e_label (invert d) = e_label d).
        -- intros Hx. destruct c' as [c'|]; cbn [upd] in Hx.
           ++ destruct Hx as [Hx|[-> ->]].
              ** exists x. split; [apply K2; now left|]. destruct (String.eqb_spec (e_label x) (e_label d)) as [El|]; [|reflexivity].
                 exfalso. destruct (holds_unique s (Some c') None x d (i_blocks _ _ _ H) Nls Hx Hd El). discriminate.
              ** exists d. split; [apply K2; right; now split|]. now rewrite String.eqb_refl.
           ++ rewrite (f_equal e_label (invert_frame d) : e_label (invert d) = e_label d) in Hx.
              exists x. split; [now apply K2|]. destruct (String.eqb_spec (e_label x) (e_label d)); [now destruct Hx|reflexivity].
      * cbn [turn]. now rewrite Gd.
      * apply invert_frame.
    + rewrite C1, C3. rewrite Mc. apply (Main s2 d I2 Hli Hlink K2); reflexivity.
  - assert (Et : e_ctype d = "transformer") by (destruct Ct as [F|F]; [rewrite F in Eg; discriminate|exact F]).
    assert (Mc : mate_ctrl d c = other c) by (unfold mate_ctrl; now rewrite Eg). rewrite Mc in Main.
    assert (Gd : gyr d = false) by (unfold gyr; rewrite Eg; apply andb_false_r).
    rewrite Et, String.eqb_refl. rewrite Mc. destruct c; cbn [other] in *; rewrite ?C1, ?C2, ?C3; apply (Main s2 d I2 Hli Hlink K2);
      try reflexivity; cbn [turn]; now rewrite Gd.
Qed.

Lemma turn_frame c x : set_alpha None (turn c x) = set_alpha None x.
Proof. destruct c; [|reflexivity]. cbn. destruct (gyr x); [apply invert_frame|reflexivity]. Qed.
Lemma turn_label c x : e_label (turn c x) = e_label x.
Proof. exact (f_equal e_label (turn_frame c x)). Qed.
Lemma gyr_frame x y : set_alpha None x = set_alpha None y -> gyr x = gyr y.
Proof. intros E. unfold gyr. now rewrite (f_equal e_type E : e_type x = e_type y), (f_equal e_ctype E : e_ctype x = e_ctype y). Qed.

Lemma turn_alpha g s s' c x : alpha_ok g s x None -> alpha_ok g s' (turn c x) (Some c).
Proof.
  intros (x0 & Hx & E & A). exists x0. split; [exact Hx|]. split; [now rewrite turn_frame|].
  destruct c; cbn [turn]; [|exact A].
  destruct (gyr x) eqn:G.
  - rewrite (gyr_frame _ _ (invert_frame x)), G, invert_alpha, A. reflexivity.
  - now rewrite G.
Qed.

Lemma coupled_edge g c e s : NoDup (map e_label (g_edges g)) -> linked (g_edges g) ->
  inv g (match c with CE => [] | CF => [e] end) s -> coupled g s -> In e (a_ic s) ->
  coupled g (fst (set_edge (S (length (a_ic s))) c e s)).
Proof.
  intros Nl Lk H K He.
  assert (Hl : e < ne s) by (apply (ic_lt s e (i_blocks _ _ _ H) He)).
  destruct (nth_error (a_edges s) e) as [d|] eqn:Ed; [|apply nth_error_None in Ed; unfold ne in Hl; lia].
  destruct (set_edge_effect g c e s d Nl Lk K H He Ed) as (s' & -> & S' & B' & Eff). cbn [fst ret].
  pose proof (labels_nodup g s Nl (i_same _ _ _ H)) as Nls.
  assert (Hd : holds s None d) by (exists e; now split).
  pose proof (proj1 K None d Hd) as Ad.
  assert (Uni : forall c1 x c2 y, holds s c1 x -> holds s c2 y -> e_label x = e_label y -> c1 = c2 /\ x = y).
  { intros c1 x c2 y H1 H2. apply (holds_unique s); [apply H|exact Nls|exact H1|exact H2]. }
  destruct Eff as [[Td Eff]|[Td (m & M & Hm & Eff)]].
  - split.
    + intros c1 x Hx. apply Eff in Hx. destruct c1 as [c1|]; cbn [upd] in Hx; [|now apply (proj1 K None)].
      destruct Hx as [Hx|[-> ->]]; [now apply (proj1 K (Some c1))|].
      assert (G : gyr d = false) by (unfold gyr; destruct (String.eqb_spec (e_type d) "connector"); [contradiction|reflexivity]).
      replace d with (turn c d) by (destruct c; cbn; rewrite ?G; reflexivity). now apply (turn_alpha g s).
    + assert (Old : forall c1 x, holds s' c1 x -> e_type x = "connector" -> holds s c1 x).
      { intros c1 x Hx Tx. apply Eff in Hx. destruct c1 as [c1|]; cbn [upd] in Hx; [|apply Hx].
        destruct Hx as [Hx|[-> ->]]; [exact Hx|contradiction]. }
      intros c1 x c2 y Hx Tx Mx Hy. apply (proj2 K c1 x c2 y); [now apply Old|exact Tx|exact Mx|]. apply Old; [exact Hy|apply Mx].
  - pose proof (proj1 K None m Hm) as Am. split.
    + intros c1 x Hx. apply Eff in Hx. destruct c1 as [c1|]; [|now apply (proj1 K None)].
      destruct Hx as [Hx|[[-> ->]|[-> ->]]]; [now apply (proj1 K (Some c1))|now apply (turn_alpha g s)|now apply (turn_alpha g s)].
    + assert (Ed' : forall c1 x, holds s' c1 x -> e_label x = e_label d -> c1 = Some c /\ x = turn c d).
      { intros c1 x Hx El. apply Eff in Hx. destruct c1 as [c1|]; [|now destruct Hx as (_ & F & _)].
        destruct Hx as [Hx|[[-> ->]|[-> ->]]]; [|now split|].
        - destruct (Uni _ _ _ _ Hx Hd El). discriminate.
        - rewrite turn_label in El. exfalso. now apply M. }
      assert (Em' : forall c1 x, holds s' c1 x -> e_label x = e_label m -> c1 = Some (mate_ctrl d c) /\ x = turn (mate_ctrl d c) m).
      { intros c1 x Hx El. apply Eff in Hx. destruct c1 as [c1|]; [|now destruct Hx as (_ & _ & F)].
        destruct Hx as [Hx|[[-> ->]|[-> ->]]]; [| |now split].
        - destruct (Uni _ _ _ _ Hx Hm El). discriminate.
        - rewrite turn_label in El. exfalso. now apply M. }
      assert (Eo : forall c1 x, holds s' c1 x -> e_label x <> e_label d -> e_label x <> e_label m -> holds s c1 x).
      { intros c1 x Hx N1 N2. apply Eff in Hx. destruct c1 as [c1|]; [|apply Hx].
        destruct Hx as [Hx|[[-> ->]|[-> ->]]]; [exact Hx|now rewrite turn_label in N1|now rewrite turn_label in N2]. }
      intros c1 x c2 y Hx Tx Mx Hy.
      destruct M as (M1 & M2 & M3 & M4 & M5). destruct Mx as (X1 & X2 & X3 & X4 & X5).
      destruct (string_dec (e_label x) (e_label d)) as [Exd|Nxd].
      { destruct (Ed' c1 x Hx Exd) as [-> ->].
        rewrite (f_equal e_link (turn_frame c d) : e_link (turn c d) = e_link d), M3 in X3. injection X3 as X3.
        destruct (Em' c2 y Hy (eq_sym X3)) as [-> ->].
        unfold mate_class. rewrite (f_equal e_ctype (turn_frame c d) : e_ctype (turn c d) = e_ctype d). unfold mate_ctrl.
        destruct (String.eqb _ _); [reflexivity|]. now destruct c. }
      destruct (string_dec (e_label x) (e_label m)) as [Exm|Nxm].
      { destruct (Em' c1 x Hx Exm) as [-> ->].
        rewrite (f_equal e_link (turn_frame (mate_ctrl d c) m) : e_link (turn (mate_ctrl d c) m) = e_link m), M4 in X3. injection X3 as X3.
        destruct (Ed' c2 y Hy (eq_sym X3)) as [-> ->].
        unfold mate_class. rewrite (f_equal e_ctype (turn_frame (mate_ctrl d c) m) : e_ctype (turn (mate_ctrl d c) m) = e_ctype m), M2. unfold mate_ctrl.
        destruct (String.eqb _ _); [reflexivity|]. now destruct c. }
      apply (proj2 K c1 x c2 y); [now apply Eo|exact Tx|repeat split; assumption|].
      apply Eo; [exact Hy| |].
      * intros El. destruct (Ed' c2 y Hy El) as [-> ->].
        rewrite (f_equal e_link (turn_frame c d) : e_link (turn c d) = e_link d), M3 in X4. injection X4 as X4. congruence.
      * intros El. destruct (Em' c2 y Hy El) as [-> ->].
        rewrite (f_equal e_link (turn_frame (mate_ctrl d c) m) : e_link (turn (mate_ctrl d c) m) = e_link m), M4 in X4. injection X4 as X4. congruence.
Qed.

(** ** The whole analysis *)
Lemma known_keep g (K : ana -> Prop)
  (K_frame : forall s s', a_edges s' = a_edges s -> a_ec s' = a_ec s -> a_ic s' = a_ic s -> a_fc s' = a_fc s -> K s -> K s')
  (K_edge : forall c e s, inv g (match c with CE => [] | CF => [e] end) s -> K s -> In e (a_ic s) ->
    K (fst (set_edge (S (length (a_ic s))) c e s))) :
  forall fuel i s, inv g [] s -> length (a_ic s) - i <= fuel -> K s -> K (fst (known_edges fuel i s)).
Proof.
  induction fuel as [|fuel IH]; intros i s H Hf HK; cbn [known_edges].
  - destruct (Nat.ltb_spec i (length (a_ic s))); [lia|exact HK].
  - destruct (Nat.ltb_spec i (length (a_ic s))) as [Hi|]; [|exact HK].
    rewrite py_get_nat. destruct (nth_error (a_ic s) i) as [e|] eqn:Ee; [|apply nth_error_None in Ee; lia].
    cbn [alift]. apply nth_error_In in Ee. pose proof (ic_lt s e (i_blocks _ _ _ H) Ee) as He.
    rewrite py_get_nat. destruct (nth_error (a_edges s) e) as [d|] eqn:Ed; [|apply nth_error_None in Ed; unfold ne in He; lia].
    cbn [alift].
    destruct (String.eqb (e_ctrl d) "e").
    { destruct (set_edge_ec_good g e s H Ee) as [G1 G2].
      apply (bind_keep g K s); [exact G1|exact (K_edge CE e s H HK Ee)|]. intros s' <- I' _ _ K'. apply IH; [exact I'|lia|exact K']. }
    destruct (String.eqb (e_ctrl d) "f"); [|apply IH; [exact H|lia|exact HK]].
    destruct (Z.eqb_spec (colsum s e) 1) as [H1|].
    + destruct (col_index_total g [] s e H He ltac:(lia)) as [n En]. rewrite En. cbn [alift].
      apply col_index_spec in En as [Hn EL].
      destruct (py_in Nat.eqb n (a_icn s)) eqn:Ein.
      * apply in_nat in Ein. destruct (set_node_dc_good g n e s H Ein He EL) as (G1 & _ & G3). specialize (G3 Ee).
        apply (bind_keep g K s); [exact G1|now apply (node_keep g K K_frame K_edge)|].
        intros s' <- I' _ _ K'. apply IH; [exact I'|lia|exact K'].
      * cbn [abind ret].
        (* python would loop: excluded by the invariant *)
        exfalso. assert (Hout : ~ In n (a_icn s)) by (intros F; apply in_nat in F; congruence).
        destruct (nth_error (a_nodes s) n) as [k|] eqn:Ek; [|apply nth_error_None in Ek; unfold nn in Hn; lia].
        destruct (string_dec k datum) as [->|Hdat].
        -- rewrite (i_datum _ _ _ H n e Ek He) in EL. discriminate.
        -- destruct (i_det _ _ _ H n k Ek Hdat Hout) as (q & [Hq|[]] & _ & _ & L2 & _).
           destruct (Nat.eq_dec e q) as [->|Hne].
           ++ destruct (i_blocks _ _ _ H) as (a & b & c & E1 & E2 & E3 & _). rewrite E2 in Ee. rewrite E3 in Hq.
              apply in_seq in Ee. apply in_seq in Hq. lia.
           ++ rewrite (L2 e He Hne) in EL. discriminate.
    + destruct (set_edge_fc_good g e s H Ee) as [G1 G2].
      apply (bind_keep g K s); [exact G1|exact (K_edge CF e s (inv_x g [e] s H) HK Ee)|].
      intros s' <- I' _ _ K'. apply IH; [exact I'|lia|exact K'].
Qed.

Lemma start_coupled g s : a_ec s = [] -> a_fc s = [] -> a_edges s = g_edges g -> coupled g s.
Proof.
  intros E1 E2 E3. assert (Hn : forall c x, holds s c x -> c = None).
  { intros c x (j & Hj & _). destruct c as [[|]|]; cbn in Hj; rewrite ?E1, ?E2 in Hj; [destruct Hj|destruct Hj|reflexivity]. }
  split.
  - intros c x Hx. rewrite (Hn c x Hx). exists x. split; [rewrite <- E3; eapply holds_in, Hx|now split].
  - intros c x c' y Hx _ _ Hy. rewrite (Hn c x Hx), (Hn c' y Hy). unfold mate_class. now destruct (String.eqb _ _).
Qed.

Lemma analysis_coupled g fuel : graph_ok g -> NoDup (map e_label (g_edges g)) -> linked (g_edges g) ->
  coupled g (fst (init_analysis g)) /\ coupled g (fst (perform_loop fuel (fst (init_analysis g)))).
Proof.
  intros Hg Nl Lk.
  assert (KE : forall c e s, inv g (match c with CE => [] | CF => [e] end) s -> coupled g s -> In e (a_ic s) ->
    coupled g (fst (set_edge (S (length (a_ic s))) c e s))) by (intros; now apply coupled_edge).
  assert (C0 : coupled g (fst (init_analysis g))).
  { unfold init_analysis. destruct (start_inv g Hg) as (s0 & -> & H & E1 & E2 & E3). cbn [abind ret].
    apply (known_keep g (coupled g) (coupled_frame g) KE); [exact H|lia|now apply start_coupled]. }
  split; [exact C0|]. apply (perform_keep g (coupled g) (coupled_frame g) KE); [|exact C0]. now apply init_inv.
Qed.

(** ** Coefficients of the connectors of the core *)
Definition touches (k : connector) (l : string) : bool := String.eqb (k_y0 k) l || String.eqb (k_y1 k) l.

Lemma find_conn l : forall ks q k, NoDup (all_ends ks) -> nth_error ks q = Some k -> touches k l = true ->
  py_index Bool.eqb true (map (fun k => touches k l) ks) = Ok q.
Proof.
  induction ks as [|k0 ks IH]; intros q k N Hq T; [destruct q; discriminate|]. cbn [map py_index].
  destruct q as [|q]; cbn in Hq.
  - injection Hq as ->. now rewrite T.
  - cbn in N. inversion N as [|? ? N1 N2]; subst. inversion N2 as [|? ? N3 N4]; subst.
    assert (Hin : In l (all_ends ks)).
    { apply in_flat_map. exists k. split; [eapply nth_error_In, Hq|]. unfold touches in T. apply orb_true_iff in T as [T|T]; apply String.eqb_eq in T; cbn; tauto. }
    assert (F : touches k0 l = false).
    { unfold touches. apply orb_false_iff. split; apply String.eqb_neq; intros E; [apply N1; right; rewrite E; exact Hin|apply N3; rewrite E; exact Hin]. }
    rewrite F. cbn. now rewrite (IH q k N4 Hq T).
Qed.

Lemma set_conn_ends a k : k_y0 (set_conn_alpha a k) = k_y0 k /\ k_y1 (set_conn_alpha a k) = k_y1 k.
Proof. destruct a; now split. Qed.

Lemma update_conn_ends a q : forall ks, all_ends (update_nth q (set_conn_alpha a) ks) = all_ends ks.
Proof.
  induction q as [|q IH]; intros [|k ks]; try reflexivity; cbn.
  - now destruct a.
  - unfold all_ends in IH. now rewrite IH.
Qed.

Lemma conn_alphas_spec s : forall l ks ks', NoDup (all_ends ks) -> (forall j, In j l -> j < ne s) ->
  conn_alphas l s ks = Ok ks' -> length ks' = length ks /\
  forall q k', nth_error ks' q = Some k' -> exists k, nth_error ks q = Some k /\ k_y0 k' = k_y0 k /\ k_y1 k' = k_y1 k /\
    ((k_alpha k' = k_alpha k /\ forall j, In j l -> touches k (label_at s j) = true -> e_alpha (edge_at s j) = None) \/
     exists j, In j l /\ touches k (label_at s j) = true /\ e_alpha (edge_at s j) = Some (k_alpha k')).
Proof.
  induction l as [|j l IH]; intros ks ks' N Hl; cbn [conn_alphas].
  - intros [= <-]. split; [reflexivity|]. intros q k' Hq. exists k'. split; [exact Hq|]. split; [reflexivity|]. split; [reflexivity|].
    left. split; [reflexivity|]. intros j [].
  - rewrite py_get_nat, (nth_error_nth' (a_edges s) noedge) by (apply Hl; now left). cbn [rbind]. fold (edge_at s j).
    change (fun k : connector => (k_y0 k =? e_label (edge_at s j))%string || (k_y1 k =? e_label (edge_at s j))%string) with
      (fun k => touches k (label_at s j)).
    destruct (py_index Bool.eqb true _) as [p|] eqn:Ep; [|discriminate]. cbn [rbind]. intros HR.
    destruct (IH (update_nth p (set_conn_alpha (e_alpha (edge_at s j))) ks) ks') as [L R];
      [now rewrite update_conn_ends|intros; apply Hl; now right|exact HR|]. rewrite update_nth_length in L.
    split; [exact L|]. intros q k' Hq. destruct (R q k' Hq) as (k1 & H1 & Y0 & Y1 & A).
    rewrite update_nth_nth in H1.
    assert (Hk : exists k, nth_error ks q = Some k /\ k1 = if Nat.eqb q p then set_conn_alpha (e_alpha (edge_at s j)) k else k).
    { destruct (Nat.eqb q p); [|now exists k1]. destruct (nth_error ks q) as [k|]; [|discriminate]. exists k. split; [reflexivity|]. cbn in H1. congruence. }
    destruct Hk as (k & Hk & E1). exists k. split; [exact Hk|].
    assert (Ends : k_y0 k1 = k_y0 k /\ k_y1 k1 = k_y1 k).
    { rewrite E1. destruct (Nat.eqb q p); [apply set_conn_ends|now split]. }
    destruct Ends as [D0 D1]. split; [congruence|]. split; [congruence|].
    assert (Tt : forall x, touches k1 x = touches k x) by (intros x; unfold touches; now rewrite D0, D1).
    assert (Tp : touches k (label_at s j) = Nat.eqb q p).
    { destruct (Nat.eqb_spec q p) as [->|Hqp].
      - apply py_index_spec in Ep as (b & Hb & Eb). rewrite nth_error_map, Hk in Hb. cbn in Hb. injection Hb as <-. now destruct (touches k _).
      - destruct (touches k (label_at s j)) eqn:T; [|reflexivity]. rewrite (find_conn _ ks q k N Hk T) in Ep. congruence. }
    destruct A as [[A1 A2]|(j' & Hj' & T' & A')].
    + destruct (e_alpha (edge_at s j)) as [al|] eqn:Ea.
      * destruct (Nat.eqb q p) eqn:Eq.
        -- right. exists j. split; [now left|]. split; [now rewrite Tp|]. rewrite A1, E1. exact Ea.
        -- left. split; [congruence|]. intros j2 [<-|Hj2] T2; [congruence|]. apply A2; [exact Hj2|now rewrite Tt].
      * left. split; [rewrite A1, E1; now destruct (Nat.eqb q p)|]. intros j2 [<-|Hj2] T2; [exact Ea|]. apply A2; [exact Hj2|now rewrite Tt].
    + right. exists j'. split; [now right|]. split; [now rewrite <- Tt|exact A'].
Qed.

(** ** The law of a connector in the core *)
Lemma build_connectors inv0 fuel g c : graph_ok g -> NoDup (map e_label (g_edges g)) -> linked (g_edges g) -> conn_table g ->
  build_core inv0 fuel g = Ok c ->
  forall s0 s, init_analysis g = ret s0 -> perform_loop fuel s0 = ret s -> inv g [] s -> a_ic s = [] ->
  conn_alphas (edges_of "connector" s) s (c_connectors (g_core g)) = Ok (c_connectors c) ->
  connectors_match g c (eff_labels s).
Proof.
  intros Hg Nl Lk Nc _ s0 s E0 Ep I Eic Ek A B al k HA HB TA M EA EB Hk Y0 Y1 r v f.
  destruct (analysis_coupled g fuel Hg Nl Lk) as [_ C]. rewrite E0 in C. cbn [fst ret] in C. rewrite Ep in C. cbn [fst ret] in C.
  pose proof (labels_nodup g s Nl (i_same _ _ _ I)) as Nls.
  destruct (same_edges_in' g s A (i_same _ _ _ I) HA) as (A' & HA' & SA).
  destruct (same_edges_in' g s B (i_same _ _ _ I) HB) as (B' & HB' & SB).
  apply In_nth_error in HA' as (a & Ha). apply In_nth_error in HB' as (b & Hb).
  destruct (holds_some s a A' (i_blocks _ _ _ I) Ha) as (cA & HcA & HA').
  destruct (holds_some s b B' (i_blocks _ _ _ I) Hb) as (cB & HcB & HB').
  assert (TA' : e_type A' = "connector") by (rewrite <- TA; symmetry; exact (f_equal e_type SA)).
  pose proof (mates_frame A A' B B' SA SB M) as M'.
  pose proof (proj2 C cA A' cB B' HA' TA' M' HB') as Ecl.
  assert (LA : e_label A' = e_label A) by (symmetry; exact (f_equal e_label SA)).
  assert (LB : e_label B' = e_label B) by (symmetry; exact (f_equal e_label SB)).
  assert (EqA : edge_at s a = A') by (unfold edge_at; now apply nth_error_nth).
  assert (EqB : edge_at s b = B') by (unfold edge_at; now apply nth_error_nth).
  (* classes and lists of labels *)
  assert (Eff : forall j x cx, nth_error (a_edges s) j = Some x -> In j (cls cx s) ->
     existsb (String.eqb (e_label x)) (eff_labels s) = match cx with Some CE => true | _ => false end).
  { intros j x cx Hx Hj. destruct cx as [[|]|]; cbn in Hj.
    - apply existsb_in. unfold eff_labels. apply in_map_iff. exists j. split; [|exact Hj].
      unfold label_at, edge_at. now rewrite (nth_error_nth _ _ _ Hx).
    - apply Bool.not_true_is_false. intros F. apply existsb_in in F. unfold eff_labels in F. apply in_map_iff in F as (q & Eq & Hq).
      assert (Hqn : q < ne s) by (apply (class_lt s (i_blocks _ _ _ I)); tauto).
      assert (q = j).
      { apply (pos_inj s q j (edge_at s q) x Nls); [unfold edge_at; now apply nth_error_nth'|exact Hx|exact Eq]. }
      subst q. discriminate (cls_disjoint s j (Some CF) (Some CE) (i_blocks _ _ _ I) Hj Hq).
    - rewrite Eic in Hj. destruct Hj. }
  pose proof (Eff a A' cA Ha HcA) as EfA. pose proof (Eff b B' cB Hb HcB) as EfB. rewrite LA in EfA. rewrite LB in EfB.
  (* coefficient *)
  assert (Al : k_alpha k = match cA with Some CE => if gyr A' then Inv al else al | _ => al end).
  { destruct (conn_alphas_spec s _ _ _ Nc (edges_of_lt "connector" s) Ek) as [_ R].
    apply In_nth_error in Hk as (q & Hq). destruct (R q k Hq) as (k0 & _ & D0 & D1 & Ca).
    assert (Hal : e_alpha A' = Some (match cA with Some CE => if gyr A' then Inv al else al | _ => al end)).
    { destruct (proj1 C cA A' HA') as (x0 & Hx0 & Sx & Ax).
      assert (x0 = A).
      { apply In_nth_error in Hx0 as (p1 & Hp1). apply In_nth_error in HA as (p2 & Hp2).
        assert (p1 = p2).
        { apply (proj1 (NoDup_nth_error _) Nl); [rewrite map_length; apply nth_error_Some; congruence|].
          rewrite !nth_error_map, Hp1, Hp2. cbn. f_equal. rewrite <- LA. symmetry. exact (f_equal e_label Sx). }
        congruence. }
      subst x0. rewrite Ax, EA. destruct cA as [[|]|]; try reflexivity. destruct (gyr A'); reflexivity. }
    assert (HbN : e_alpha B' = None).
    { destruct (proj1 C cB B' HB') as (x0 & Hx0 & Sx & Ax).
      assert (x0 = B).
      { apply In_nth_error in Hx0 as (p1 & Hp1). apply In_nth_error in HB as (p2 & Hp2).
        assert (p1 = p2).
        { apply (proj1 (NoDup_nth_error _) Nl); [rewrite map_length; apply nth_error_Some; congruence|].
          rewrite !nth_error_map, Hp1, Hp2. cbn. f_equal. rewrite <- LB. symmetry. exact (f_equal e_label Sx). }
        congruence. }
      subst x0. rewrite Ax, EB. destruct cB as [[|]|]; try reflexivity. destruct (gyr B'); reflexivity. }
    assert (Hae : In a (edges_of "connector" s)).
    { rewrite edges_of_filter. apply filter_In. split; [apply in_seq; split; [lia|apply nth_error_Some; congruence]|].
      rewrite EqA, TA'. reflexivity. }
    destruct Ca as [[_ Ca]|(j & Hj & Tj & Ea)].
    - specialize (Ca a Hae). unfold label_at in Ca. rewrite EqA, Hal in Ca. exfalso.
      assert (F : touches k0 (e_label A') = true) by (unfold touches; rewrite <- D0, Y0, LA, String.eqb_refl; reflexivity).
      specialize (Ca F). discriminate.
    - assert (Hjn : j < ne s) by (eapply edges_of_lt, Hj).
      assert (Hje : nth_error (a_edges s) j = Some (edge_at s j)) by (unfold edge_at; now apply nth_error_nth').
      unfold touches in Tj. rewrite <- D0, <- D1, Y0, Y1 in Tj. apply orb_true_iff in Tj as [Tj|Tj]; apply String.eqb_eq in Tj.
      + assert (j = a) by (apply (pos_inj s j a _ _ Nls Hje Ha); unfold label_at in Tj; congruence).
        subst j. rewrite EqA in Ea. congruence.
      + assert (j = b) by (apply (pos_inj s j b _ _ Nls Hje Hb); unfold label_at in Tj; congruence).
        subst j. rewrite EqB in Ea. congruence. }
  unfold transformer, received, given. rewrite Y0, Y1, EfA, EfB, Al.
  assert (Gy : gyr A' = String.eqb (e_ctype A) "gyrator").
  { unfold gyr. rewrite TA', (f_equal e_ctype SA : e_ctype A = e_ctype A'). reflexivity. }
  rewrite Gy. unfold mate_class in Ecl. rewrite (eq_sym (f_equal e_ctype SA) : e_ctype A' = e_ctype A) in Ecl.
  destruct (String.eqb (e_ctype A) "gyrator"); subst cB; destruct cA as [[|]|];
    unfold gyrator_law, transformer_law; try reflexivity; cbn [eval]; try reflexivity;
    cbn in HcA; rewrite Eic in HcA; destruct HcA.
Qed.

Definition analysed (fuel : nat) (g : graph) : ana := fst (perform_loop fuel (fst (init_analysis g))).

Lemma build_at inv0 fuel g c : graph_ok g -> typed g -> NoDup (map e_label (g_edges g)) -> qinv_correct inv0 ->
  build_core inv0 fuel g = Ok c -> let eff := eff_labels (analysed fuel g) in let flo := flo_labels (analysed fuel g) in
  Permutation (map e_label (g_edges g)) (eff ++ flo) /\ rows_are_edges g c /\ conservative_structure g c eff /\
  laws_match g c eff /\ pairs_kept (g_core g) c /\ (free_links (g_edges g) -> declared (g_edges g) eff flo) /\
  (linked (g_edges g) -> conn_table g -> connectors_match g c eff).
Proof.
  intros Hg Ht Nl Hi Hb.
  destruct (build_structure inv0 fuel g c Hg Ht Nl Hi Hb) as (s0 & s & E0 & Ep & I & Eic & Ck & R1 & R2 & R3 & R4 & R5 & R6).
  assert (E : analysed fuel g = s) by (unfold analysed; rewrite E0; cbn [fst ret]; now rewrite Ep).
  cbn zeta. rewrite E. split; [exact R1|]. split; [exact R2|]. split; [exact R3|]. split; [exact R4|]. split; [exact R5|].
  split; [exact R6|]. intros Lk Nc. exact (build_connectors inv0 fuel g c Hg Nl Lk Nc Hb s0 s E0 Ep I Eic Ck).
Qed.

Lemma build_all inv0 fuel g c : graph_ok g -> typed g -> NoDup (map e_label (g_edges g)) -> qinv_correct inv0 ->
  build_core inv0 fuel g = Ok c -> exists eff flo,
  Permutation (map e_label (g_edges g)) (eff ++ flo) /\ rows_are_edges g c /\ conservative_structure g c eff /\
  laws_match g c eff /\ pairs_kept (g_core g) c /\ (free_links (g_edges g) -> declared (g_edges g) eff flo) /\
  (linked (g_edges g) -> conn_table g -> connectors_match g c eff).
Proof. intros Hg Ht Nl Hi Hb. eexists _, _. exact (build_at inv0 fuel g c Hg Ht Nl Hi Hb). Qed.

Lemma connector_laws inv0 fuel g c : graph_ok g -> typed g -> NoDup (map e_label (g_edges g)) -> qinv_correct inv0 ->
  linked (g_edges g) -> conn_table g -> build_core inv0 fuel g = Ok c ->
  exists eff, conservative_structure g c eff /\ connectors_match g c eff.
Proof.
  intros H1 H2 H3 H4 H5 H6 H7. destruct (build_all inv0 fuel g c H1 H2 H3 H4 H7) as (eff & flo & _ & _ & R3 & _ & _ & _ & R7).
  exists eff. split; [exact R3|now apply R7].
Qed.

Lemma laws_lossless al b eA fA eB fB :
  (gyrator_law al b eA fA eB fB -> (eA * fA + eB * fB = 0)%R) /\
  (transformer_law al b eA fA eB fB -> (eA * fA + eB * fB = 0)%R).
Proof. split; unfold gyrator_law, transformer_law; destruct b; intros [-> ->]; ring. Qed.

Lemma declared_respected inv0 fuel g c : graph_ok g -> typed g -> NoDup (map e_label (g_edges g)) -> qinv_correct inv0 ->
  free_links (g_edges g) -> build_core inv0 fuel g = Ok c -> exists eff flo,
  Permutation (map e_label (g_edges g)) (eff ++ flo) /\ conservative_structure g c eff /\ declared (g_edges g) eff flo.
Proof.
  intros H1 H2 H3 H4 H5 H7. destruct (build_all inv0 fuel g c H1 H2 H3 H4 H7) as (eff & flo & R1 & _ & R3 & _ & _ & R6 & _).
  exists eff, flo. split; [exact R1|]. split; [exact R3|now apply R6].
Qed.
