(** Proofs about the structure matrix of a core: decomposition, blocks, moves. *)
From Coq Require Import String List ZArith QArith Qreals Reals Bool Lra Lia Permutation.
From Verif Require Import Py Tools Lists Spec_Tools ToolsProofs Expr ExprProofs RSum Mat MatProofs
  Core Spec_Core.
Import ListNotations.
Local Open Scope nat_scope.
#[local] Arguments Nat.ltb : simpl never.
#[local] Arguments Nat.leb : simpl never.
#[local] Arguments Nat.eqb : simpl never.

(** ** J and R *)

Lemma J_of_ok M : nr M = nc M ->
  exists J, J_of M = Ok J /\ nr J = nr M /\ nc J = nc M /\
    forall r i j, ev r J i j = ((ev r M i j - ev r M j i) / 2)%R.
Proof.
  intros H. unfold J_of.
  destruct (msub_ok M (mtrans M)) as (D & HD & Hr & Hc & HE); [exact H|now cbn|].
  rewrite HD. cbn [rbind]. exists (mscal half D). split; [reflexivity|].
  split; [exact Hr|]. split; [exact Hc|].
  intros r i j. rewrite ev_mscal, HE. unfold ev; cbn. rewrite Q2R_half. lra.
Qed.

Lemma R_of_ok M : nr M = nc M ->
  exists R, R_of M = Ok R /\ nr R = nr M /\ nc R = nc M /\
    forall r i j, ev r R i j = (- (ev r M i j + ev r M j i) / 2)%R.
Proof.
  intros H. unfold R_of.
  destruct (madd_ok M (mtrans M)) as (D & HD & Hr & Hc & HE); [exact H|now cbn|].
  rewrite HD. cbn [rbind]. exists (mscal half (mneg D)). split; [reflexivity|].
  split; [exact Hr|]. split; [exact Hc|].
  intros r i j. rewrite ev_mscal, ev_mneg, HE. unfold ev; cbn. rewrite Q2R_half. lra.
Qed.

Lemma J_of_nonsquare M : nr M <> nc M -> J_of M = Err ShapeError.
Proof.
  intros H. unfold J_of, msub. destruct (same_shape_spec M (mtrans M)) as [[E _]|_]; [|reflexivity].
  contradiction.
Qed.

(** ** Moves *)

(** Element of the moved range at position [k]. *)
Definition shift (i f k : nat) : nat :=
  if i <? f then (if k <? i then k else if k <? f then S k else if k =? f then i else k)
  else (if k <? f then k else if k =? f then i else if k <=? i then k - 1 else k).

Lemma nth_error_mv N i f k : i < N -> f < N ->
  nth_error (mv N i f) k = if k <? N then Some (shift i f k) else None.
Proof.
  intros Hi Hf. unfold mv, shift.
  destruct (Nat.ltb_spec i f).
  - destruct (Nat.ltb_spec k i).
    { rewrite nth_error_app1 by (rewrite seq_length; lia). rewrite nth_error_seq.
      destruct (Nat.ltb_spec k i); [|lia]. destruct (Nat.ltb_spec k N); [|lia]. f_equal. }
    rewrite nth_error_app2 by (rewrite seq_length; lia). rewrite seq_length.
    destruct (Nat.ltb_spec k f).
    { rewrite nth_error_app1 by (rewrite seq_length; lia). rewrite nth_error_seq.
      destruct (Nat.ltb_spec (k - i) (Nat.min f (N - 1) - i)); [|lia].
      destruct (Nat.ltb_spec k N); [|lia]. f_equal. lia. }
    rewrite nth_error_app2 by (rewrite seq_length; lia). rewrite seq_length.
    destruct (Nat.eqb_spec k f) as [->|Hn].
    { replace (f - i - (Nat.min f (N - 1) - i)) with 0 by lia. cbn.
      destruct (Nat.ltb_spec f N); [reflexivity|lia]. }
    replace (k - i - (Nat.min f (N - 1) - i)) with (S (k - S f)) by lia. cbn [app nth_error].
    rewrite nth_error_seq.
    destruct (Nat.ltb_spec (k - S f) (N - S f)); destruct (Nat.ltb_spec k N); try lia; [|reflexivity].
    f_equal. lia.
  - destruct (Nat.ltb_spec f i).
    + destruct (Nat.ltb_spec k f).
      { rewrite nth_error_app1 by (rewrite seq_length; lia). rewrite nth_error_seq.
        destruct (Nat.ltb_spec k f); [|lia]. destruct (Nat.ltb_spec k N); [|lia]. f_equal. }
      rewrite nth_error_app2 by (rewrite seq_length; lia). rewrite seq_length.
      destruct (Nat.eqb_spec k f) as [->|Hn].
      { rewrite Nat.sub_diag. cbn. destruct (Nat.ltb_spec f N); [reflexivity|lia]. }
      replace (k - f) with (S (k - S f)) by lia. cbn [app nth_error].
      destruct (Nat.leb_spec k i).
      { rewrite nth_error_app1 by (rewrite seq_length; lia). rewrite nth_error_seq.
        destruct (Nat.ltb_spec (k - S f) (i - f)); [|lia].
        destruct (Nat.ltb_spec k N); [|lia]. f_equal. lia. }
      rewrite nth_error_app2 by (rewrite seq_length; lia). rewrite seq_length.
      rewrite nth_error_seq.
      destruct (Nat.ltb_spec (k - S f - (i - f)) (N - S i)); destruct (Nat.ltb_spec k N); try lia; [|reflexivity].
      f_equal. lia.
    + assert (i = f) by lia. subst. rewrite nth_error_seq. cbn.
      destruct (Nat.ltb_spec k N); [|reflexivity]. f_equal.
      destruct (Nat.ltb_spec k f); [lia|]. destruct (Nat.eqb_spec k f); [lia|].
      destruct (Nat.leb_spec k f); lia.
Qed.

Ltac natcase :=
  repeat match goal with
  | |- context [?a <? ?b] => destruct (Nat.ltb_spec a b)
  | |- context [?a <=? ?b] => destruct (Nat.leb_spec a b)
  | |- context [?a =? ?b] => destruct (Nat.eqb_spec a b)
  end.

Lemma shift_lt N i f k : i < N -> f < N -> k < N -> shift i f k < N.
Proof. intros. unfold shift. natcase; lia. Qed.

Lemma shift_inj i f k l : shift i f k = shift i f l -> k = l.
Proof. unfold shift. natcase; lia. Qed.

Lemma shift_off o i f k : shift (o + i) (o + f) (o + k) = o + shift i f k.
Proof. unfold shift. natcase; lia. Qed.

Lemma shift_below o i f k : k < o -> shift (o + i) (o + f) k = k.
Proof. intros. unfold shift. natcase; lia. Qed.

Lemma shift_above n i f k : i < n -> f < n -> n <= k -> shift i f k = k.
Proof. intros. unfold shift. natcase; lia. Qed.

Lemma mv_length N i f : i < N -> f < N -> length (mv N i f) = N.
Proof.
  intros Hi Hf. destruct (mv_spec N i f Hi) as [H _].
  apply Permutation_length in H. now rewrite seq_length in H.
Qed.

Lemma nth_mv N i f k : i < N -> f < N -> k < N -> nth k (mv N i f) 0 = shift i f k.
Proof.
  intros Hi Hf Hk. apply nth_error_nth. rewrite nth_error_mv by assumption.
  destruct (Nat.ltb_spec k N); [reflexivity|lia].
Qed.

(** Picking the elements of a moved range. *)
Lemma rmap_ok {A B} (f : A -> result B) (l : list A) :
  (forall a, In a l -> exists b, f a = Ok b) ->
  exists l', rmap f l = Ok l' /\ length l' = length l /\
    forall k a, nth_error l k = Some a -> exists b, f a = Ok b /\ nth_error l' k = Some b.
Proof.
  induction l as [|a l IH]; intros H.
  - exists []. repeat split. intros [|k] a; discriminate.
  - destruct (H a) as [b Hb]; [now left|].
    destruct IH as (l' & E & HL & HN); [intros; apply H; now right|].
    exists (b :: l'). cbn. rewrite Hb, E. cbn. repeat split; [now rewrite HL|].
    intros [|k] a' Ha'; cbn in Ha'.
    + injection Ha' as <-. exists b. now split.
    + cbn. now apply HN.
Qed.

Lemma pick_ok {A} (l : list A) idx :
  (forall k, In k idx -> k < length l) ->
  exists l', pick l idx = Ok l' /\ length l' = length idx /\
    forall k s, nth_error idx k = Some s -> nth_error l' k = nth_error l s.
Proof.
  intros H. unfold pick.
  destruct (rmap_ok (fun k => py_get l (Z.of_nat k)) idx) as (l' & E & HL & HN).
  - intros k Hk. rewrite py_get_nat. destruct (nth_error l k) eqn:En; [eauto|].
    apply nth_error_None in En. specialize (H k Hk). lia.
  - exists l'. repeat split; try assumption.
    intros k s Hs. destruct (HN k s Hs) as (b & Hb & Hk). rewrite Hk.
    rewrite py_get_nat in Hb. destruct (nth_error l s); congruence.
Qed.

Lemma pick_mv {A} (l : list A) i f : i < length l -> f < length l ->
  exists l', pick l (mv (length l) i f) = Ok l' /\ length l' = length l /\
    forall k, nth_error l' k = if k <? length l then nth_error l (shift i f k) else None.
Proof.
  intros Hi Hf.
  destruct (pick_ok l (mv (length l) i f)) as (l' & E & HL & HN).
  - intros k Hk. destruct (mv_spec (length l) i f Hi) as [HP _].
    apply (Permutation_in _ HP) in Hk. rewrite in_seq in Hk. lia.
  - exists l'. rewrite mv_length in HL by assumption. repeat split; try assumption.
    intros k. destruct (Nat.ltb_spec k (length l)).
    + apply HN. rewrite nth_error_mv by assumption.
      destruct (Nat.ltb_spec k (length l)); [reflexivity|lia].
    + apply nth_error_None. lia.
Qed.

(** Two lists moved the same way stay paired. *)
Lemma nth_error_combine {A B} (l1 : list A) (l2 : list B) k :
  nth_error (combine l1 l2) k =
  match nth_error l1 k, nth_error l2 k with Some a, Some b => Some (a, b) | _, _ => None end.
Proof.
  revert l2 k; induction l1 as [|a l1 IH]; intros [|b l2] [|k]; cbn; try reflexivity.
  - destruct (nth_error l1 k); reflexivity.
  - apply IH.
Qed.

Definition moved {A} (i f : nat) (l l' : list A) : Prop :=
  length l' = length l /\
  forall k, nth_error l' k = if k <? length l then nth_error l (shift i f k) else None.

Lemma moved_combine {A B} i f (l1 l1' : list A) (l2 l2' : list B) :
  length l1 = length l2 -> moved i f l1 l1' -> moved i f l2 l2' ->
  moved i f (combine l1 l2) (combine l1' l2').
Proof.
  intros HL [L1 H1] [L2 H2]. split.
  - rewrite !combine_length. lia.
  - intros k. rewrite !nth_error_combine, H1, H2, combine_length, <- HL, Nat.min_id.
    destruct (k <? length l1); reflexivity.
Qed.

Lemma moved_map {A B} (g : A -> B) i f l l' : moved i f l l' -> moved i f (map g l) (map g l').
Proof.
  intros [L H]. split; [now rewrite !map_length|].
  intros k. rewrite !nth_error_map, H, map_length.
  destruct (k <? length l); reflexivity.
Qed.

Lemma moved_block {A} (pre B B' post : list A) i f :
  i < length B -> f < length B -> moved i f B B' ->
  moved (length pre + i) (length pre + f) (pre ++ B ++ post) (pre ++ B' ++ post).
Proof.
  intros Hi Hf [L H]. split; [rewrite !app_length; lia|].
  intros k. destruct (Nat.ltb_spec k (length pre)) as [Hk|Hk].
  { rewrite shift_below by exact Hk. rewrite !nth_error_app1 by exact Hk.
    destruct (Nat.ltb_spec k (length (pre ++ B ++ post))); [reflexivity|].
    rewrite !app_length in *. lia. }
  replace k with (length pre + (k - length pre)) by lia.
  set (q := k - length pre). rewrite shift_off.
  rewrite !(nth_error_app2 pre) by lia.
  rewrite !Nat.add_comm with (n := length pre), !Nat.add_sub.
  destruct (Nat.ltb_spec q (length B)) as [Hq|Hq].
  - rewrite !nth_error_app1 by (try lia; apply shift_lt; assumption).
    rewrite H. destruct (Nat.ltb_spec q (length B)); [|lia].
    destruct (Nat.ltb_spec (q + length pre) (length (pre ++ B ++ post))); [reflexivity|].
    rewrite !app_length in *. lia.
  - rewrite (shift_above (length B)) by assumption.
    rewrite !nth_error_app2 by lia. rewrite L.
    destruct (Nat.ltb_spec (q + length pre) (length (pre ++ B ++ post))); [reflexivity|].
    apply nth_error_None. rewrite !app_length in *. lia.
Qed.

Lemma moveM_ok c n i f :
  nr (c_M c) = n -> nc (c_M c) = n -> i < n -> f < n ->
  exists M', moveM (Z.of_nat i) (Z.of_nat f) c = ok (set_M M' c) /\ nr M' = n /\ nc M' = n /\
    forall r k l, k < n -> l < n -> ev r M' k l = ev r (c_M c) (shift i f k) (shift i f l).
Proof.
  intros Hr Hc Hi Hf. unfold moveM.
  destruct (is_zero (c_M c)) eqn:Ez.
  - exists (c_M c). repeat split; try assumption.
    + unfold ok. destruct c; reflexivity.
    + intros r k l Hk Hl. rewrite !is_zero_ev; try assumption; rewrite ?Hr, ?Hc; try assumption;
        try reflexivity; apply shift_lt; assumption.
  - unfold movesquare. rewrite Hr, myrange_mv by exact Hi. cbn [rbind olift].
    eexists; split; [reflexivity|]. cbn [nr nc mfancy].
    rewrite mv_length by assumption. repeat split.
    intros r k l Hk Hl. unfold ev; cbn [ent mfancy].
    rewrite !nth_mv by assumption. reflexivity.
Qed.

Lemma follows_moved c c' i f :
  ntot c = ntot c' -> length (comps c) = ntot c -> i < ntot c -> f < ntot c ->
  moved i f (comps c) (comps c') ->
  nr (c_M c') = ntot c -> nc (c_M c') = ntot c ->
  (forall r k l, k < ntot c -> l < ntot c ->
     ev r (c_M c') k l = ev r (c_M c) (shift i f k) (shift i f l)) ->
  exists sg, moved_range (ntot c) i f sg /\ follows sg c c'.
Proof.
  intros HN HL Hi Hf [Lm Hm] Hr Hc HE. exists (mv (ntot c) i f).
  assert (S := mv_spec (ntot c) i f Hi).
  rewrite Nat.min_l in S by lia. split; [exact S|].
  unfold follows. repeat split; try assumption.
  - apply S.
  - intros k s Hs. rewrite nth_error_mv in Hs by assumption.
    rewrite Hm, HL. destruct (Nat.ltb_spec k (ntot c)); [|discriminate].
    injection Hs as <-. reflexivity.
  - intros r k l Hk Hl. rewrite !nth_mv by assumption. now apply HE.
Qed.

Lemma stors_length c : wf c -> length (stors c) = length (c_x c).
Proof.
  intros (_ & H & _). unfold stors. destruct (c_dxH c) as [d|] eqn:E.
  - rewrite map_length, combine_length, (H d) by reflexivity. lia.
  - apply map_length.
Qed.
Lemma disss_length c : wf c -> length (disss c) = length (c_w c).
Proof.
  intros ((H & _) & _). unfold disss. rewrite map_length, combine_length. lia.
Qed.
Lemma ports_length c : wf c -> length (ports c) = length (c_y c).
Proof. intros ((_ & H & _) & _). unfold ports. rewrite map_length, combine_length. lia. Qed.
Lemma conns_length c : wf c -> length (conns c) = length (c_cy c).
Proof. intros ((_ & _ & H) & _). unfold conns. rewrite map_length, combine_length. lia. Qed.
Lemma comps_length c : wf c -> length (comps c) = ntot c.
Proof.
  intros H. unfold comps, ntot.
  rewrite !app_length, stors_length, disss_length, ports_length, conns_length by exact H. lia.
Qed.

Lemma move_stor_follows c i f : wf c -> i < length (c_x c) -> f < length (c_x c) ->
  exists c' sg, move_stor (Z.of_nat i) (Z.of_nat f) c = ok c' /\ wf c' /\
    moved_range (ntot c) i f sg /\ follows sg c c' /\ same_context c c' /\
    disss c' = disss c /\ ports c' = ports c /\ conns c' = conns c /\
    c_wl c' = c_wl c /\ c_xl c' = c_xl c.
Proof.
  intros W Hi Hf. assert (W0 := W). destruct W as (P & HD & Hr & Hc).
  unfold move_stor. rewrite myrange_mv by exact Hi. cbn [olift].
  destruct (pick_mv (c_x c) i f Hi Hf) as (x' & Ex & Lx & Nx). rewrite Ex. cbn [olift].
  set (d' := match c_dxH c with None => Ok None | Some d =>
     match pick d (mv (length (c_x c)) i f) with Ok d' => Ok (Some d') | Err e => Err e end end).
  assert (exists dd, d' = Ok dd /\
     match c_dxH c with None => dd = None | Some d => exists d2, dd = Some d2 /\ moved i f d d2 end) as (dd & Ed & Hd).
  { unfold d'. destruct (c_dxH c) as [d|] eqn:E; [|eauto].
    assert (Hl := HD d eq_refl).
    rewrite <- Hl. destruct (pick_mv d i f) as (d2 & E2 & L2 & N2); try lia.
    rewrite E2. exists (Some d2). split; [reflexivity|]. exists d2. split; [reflexivity|].
    split; assumption. }
  set (c1 := set_x x' c).
  assert (E1 : (match c_dxH c1 with
         | None => ok c1
         | Some d => olift (pick d (mv (length (c_x c)) i f)) c1 (fun d' => ok (set_dxH (Some d') c1))
         end) = ok (set_dxH dd c1)).
  { unfold d' in Ed. change (c_dxH c1) with (c_dxH c).
    destruct (c_dxH c) as [d|] eqn:E.
    - destruct (pick d _); [|discriminate]. injection Ed as <-. reflexivity.
    - injection Ed as <-. unfold ok, c1, set_dxH; cbn. destruct c; cbn in *. now rewrite E. }
  rewrite E1. clear E1. cbn [obind ok].
  set (c2 := set_dxH dd c1).
  assert (Hn : ntot c = ntot c2) by (unfold ntot, c2, c1; cbn; lia).
  destruct (moveM_ok c2 (ntot c) i f) as (M' & EM & Hr' & Hc' & HE); try assumption;
    try (unfold ntot; lia).
  rewrite EM.
  assert (WF : wf (set_M M' c2)).
  { split; [exact P|]. split; [|split; cbn].
    - intros d E. cbn in E. destruct (c_dxH c) as [d0|] eqn:E0.
      + destruct Hd as (d2 & -> & [L2 _]). injection E as <-. cbn.
        rewrite L2, (HD d0) by reflexivity. lia.
      + subst dd. discriminate.
    - rewrite Hr'. exact Hn.
    - rewrite Hc'. exact Hn. }
  assert (MV : moved i f (comps c) (comps (set_M M' c2))).
  { assert (Es : comps c = [] ++ stors c ++ (disss c ++ ports c ++ conns c)) by reflexivity.
    assert (Es' : comps (set_M M' c2) = [] ++ stors (set_M M' c2) ++ (disss c ++ ports c ++ conns c)) by reflexivity.
    rewrite Es, Es'.
    apply (moved_block [] (stors c) _ _ i f); try (rewrite stors_length; assumption).
    unfold stors. cbn. destruct (c_dxH c) as [d|] eqn:E.
    - destruct Hd as (d2 & -> & Hd2). apply moved_map, moved_combine; try assumption.
      + symmetry. now apply HD.
      + split; assumption.
    - subst dd. apply moved_map. split; assumption. }
  destruct (follows_moved c (set_M M' c2) i f) as (sg & Hs & HF); try assumption;
    try (unfold ntot; lia); try (now apply comps_length).
  exists (set_M M' c2), sg. repeat (split; [first [reflexivity|assumption]|]).
  repeat split; reflexivity.
Qed.

Lemma move_diss_follows c i f : wf c -> i < length (c_w c) -> f < length (c_w c) ->
  (nr (c_Zl c) = Z.to_nat (c_wl c) \/ is_zero (c_Zl c) = true) ->
  exists c' sg, move_diss (Z.of_nat i) (Z.of_nat f) c = ok c' /\ wf c' /\
    moved_range (ntot c) (length (c_x c) + i) (length (c_x c) + f) sg /\
    follows sg c c' /\ same_context c c' /\
    stors c' = stors c /\ ports c' = ports c /\ conns c' = conns c /\
    c_wl c' = c_wl c /\ c_xl c' = c_xl c.
Proof.
  intros W Hi Hf HZ. assert (W0 := W). destruct W as (P & HD & Hr & Hc).
  unfold move_diss. rewrite myrange_mv by exact Hi. cbn [olift].
  destruct (pick_mv (c_w c) i f Hi Hf) as (w' & Ew & Lw & Nw). rewrite Ew. cbn [olift].
  destruct P as (Pw & Pu & Pc).
  destruct (pick_mv (c_z c) i f) as (z' & Ezz & Lz & Nz); try lia.
  change (c_z (set_w w' c)) with (c_z c). rewrite Pw, Ezz. cbn [olift].
  set (c2 := set_z z' (set_w w' c)).
  change (dim_x c2) with (dim_x c). unfold dim_x. rewrite <- !Nat2Z.inj_add.
  assert (Hn : ntot c = ntot c2) by (unfold ntot, c2; cbn; lia).
  destruct (moveM_ok c2 (ntot c) (length (c_x c) + i) (length (c_x c) + f))
    as (M' & EM & Hr' & Hc' & HE); try assumption; try (unfold ntot; lia).
  rewrite EM. cbn [obind ok].
  set (c3 := set_M M' c2).
  assert (WF : forall Z', wf (set_Zl Z' c3)).
  { intros Z'. split; [|split; [|split; cbn]].
    - split; [|split]; cbn; try assumption. lia.
    - exact HD.
    - rewrite Hr'. exact Hn.
    - rewrite Hc'. exact Hn. }
  assert (MV : forall Z', moved (length (c_x c) + i) (length (c_x c) + f) (comps c) (comps (set_Zl Z' c3))).
  { intros Z'. assert (Es : comps c = stors c ++ disss c ++ (ports c ++ conns c)) by reflexivity.
    assert (Es' : comps (set_Zl Z' c3) = stors c ++ disss (set_Zl Z' c3) ++ (ports c ++ conns c)) by reflexivity.
    rewrite Es, Es'. rewrite <- (stors_length c W0).
    apply moved_block; try (rewrite disss_length; assumption).
    unfold disss. cbn. apply moved_map, moved_combine; [exact Pw|split; assumption|].
    split; [lia|]. exact Nz. }
  assert (K : forall Z', exists sg, moved_range (ntot c) (length (c_x c) + i) (length (c_x c) + f) sg
                /\ follows sg c (set_Zl Z' c3)).
  { intros Z'. apply follows_moved; try assumption; try (unfold ntot; lia);
      try (now apply comps_length). apply MV. }
  assert (D : forall Z', exists c' sg, ok (set_Zl Z' c3) = ok c' /\ wf c' /\
    moved_range (ntot c) (length (c_x c) + i) (length (c_x c) + f) sg /\
    follows sg c c' /\ same_context c c' /\
    stors c' = stors c /\ ports c' = ports c /\ conns c' = conns c /\
    c_wl c' = c_wl c /\ c_xl c' = c_xl c).
  { intros Z'. destruct (K Z') as (sg & Hs & HF). exists (set_Zl Z' c3), sg.
    repeat (split; [first [reflexivity|assumption|apply WF]|]). repeat split; reflexivity. }
  change (c_Zl c3) with (c_Zl c). change (dim_wl c3) with (c_wl c).
  destruct (is_zero (c_Zl c)) eqn:Ez; cbn [negb andb].
  - replace (ok c3) with (ok (set_Zl (c_Zl c) c3)); [apply D|]. unfold ok. destruct c; reflexivity.
  - destruct HZ as [HZ|HZ]; [|discriminate].
    destruct (Z.ltb_spec (Z.of_nat i) (c_wl c)); cbn [andb]; [|apply D].
    destruct (Z.ltb_spec (Z.of_nat f) (c_wl c)); [|apply D].
    unfold movesquare. rewrite myrange_mv by lia. cbn [rbind olift]. apply D.
Qed.

Lemma move_port_follows c i f : wf c -> i < length (c_y c) -> f < length (c_y c) ->
  exists c' sg, move_port (Z.of_nat i) (Z.of_nat f) c = ok c' /\ wf c' /\
    moved_range (ntot c) (length (c_x c) + length (c_w c) + i)
      (length (c_x c) + length (c_w c) + f) sg /\
    follows sg c c' /\ same_context c c' /\
    stors c' = stors c /\ disss c' = disss c /\ conns c' = conns c /\
    c_wl c' = c_wl c /\ c_xl c' = c_xl c.
Proof.
  intros W Hi Hf. assert (W0 := W). destruct W as (P & HD & Hr & Hc).
  unfold move_port. rewrite myrange_mv by exact Hi. cbn [olift].
  destruct P as (Pw & Pu & Pc).
  destruct (pick_mv (c_u c) i f) as (u' & Eu & Lu & Nu); try lia.
  rewrite <- Pu, Eu. cbn [olift].
  destruct (pick_mv (c_y c) i f Hi Hf) as (y' & Ey & Ly & Ny).
  change (c_y (set_u u' c)) with (c_y c). rewrite Pu, Ey. cbn [olift].
  set (c2 := set_y y' (set_u u' c)).
  change (dim_x c2) with (dim_x c). change (dim_w c2) with (dim_w c).
  unfold dim_x, dim_w. rewrite <- !Nat2Z.inj_add.
  assert (Hn : ntot c = ntot c2) by (unfold ntot, c2; cbn; lia).
  destruct (moveM_ok c2 (ntot c) (length (c_x c) + length (c_w c) + i) (length (c_x c) + length (c_w c) + f))
    as (M' & EM & Hr' & Hc' & HE); try assumption; try (unfold ntot; lia).
  rewrite EM. set (c3 := set_M M' c2).
  assert (WF : wf c3).
  { split; [|split; [|split; cbn]].
    - split; [|split]; cbn; try assumption. lia.
    - exact HD.
    - rewrite Hr'. exact Hn.
    - rewrite Hc'. exact Hn. }
  assert (MV : moved (length (c_x c) + length (c_w c) + i) (length (c_x c) + length (c_w c) + f) (comps c) (comps c3)).
  { assert (Es : comps c = (stors c ++ disss c) ++ ports c ++ conns c) by apply app_assoc.
    assert (Es' : comps c3 = (stors c ++ disss c) ++ ports c3 ++ conns c) by apply app_assoc.
    rewrite Es, Es'.
    replace (length (c_x c) + length (c_w c)) with (length (stors c ++ disss c))
      by (rewrite app_length, stors_length, disss_length by assumption; lia).
    apply moved_block; try (rewrite ports_length; assumption).
    unfold ports. cbn. apply moved_map, moved_combine; [exact Pu| |split; assumption].
    split; [lia|]. exact Nu. }
  destruct (follows_moved c c3 (length (c_x c) + length (c_w c) + i) (length (c_x c) + length (c_w c) + f))
    as (sg & Hs & HF); try assumption; try (unfold ntot; lia); try (now apply comps_length).
  exists c3, sg. repeat (split; [first [reflexivity|assumption]|]). repeat split; reflexivity.
Qed.

(** The connector move, in the detail needed by [connect]. *)
Lemma move_connector_ok c i f : wf c -> i < length (c_cy c) -> f < length (c_cy c) ->
  exists cu' cy' M', move_connector (Z.of_nat i) (Z.of_nat f) c
      = ok (set_M M' (set_cy cy' (set_cu cu' c))) /\
    moved i f (c_cu c) cu' /\ moved i f (c_cy c) cy' /\
    nr M' = ntot c /\ nc M' = ntot c /\
    let o := length (c_x c) + length (c_w c) + length (c_y c) in
    forall r k l, k < ntot c -> l < ntot c ->
      ev r M' k l = ev r (c_M c) (shift (o + i) (o + f) k) (shift (o + i) (o + f) l).
Proof.
  intros W Hi Hf. destruct W as (P & HD & Hr & Hc).
  unfold move_connector. rewrite myrange_mv by exact Hi. cbn [olift].
  destruct P as (Pw & Pu & Pc).
  destruct (pick_mv (c_cu c) i f) as (u' & Eu & Lu & Nu); try lia.
  rewrite <- Pc, Eu. cbn [olift].
  destruct (pick_mv (c_cy c) i f Hi Hf) as (y' & Ey & Ly & Ny).
  change (c_cy (set_cu u' c)) with (c_cy c). rewrite Pc, Ey. cbn [olift].
  set (c2 := set_cy y' (set_cu u' c)).
  change (dim_x c2) with (dim_x c). change (dim_w c2) with (dim_w c).
  change (dim_y c2) with (dim_y c).
  unfold dim_x, dim_w, dim_y. rewrite <- !Nat2Z.inj_add.
  destruct (moveM_ok c2 (ntot c) (length (c_x c) + length (c_w c) + length (c_y c) + i)
     (length (c_x c) + length (c_w c) + length (c_y c) + f))
    as (M' & EM & Hr' & Hc' & HE); try assumption; try (unfold ntot; lia).
  rewrite EM. exists u', y', M'.
  split; [reflexivity|]. split; [split; assumption|]. split; [split; assumption|].
  split; [assumption|]. split; [assumption|].
  exact HE.
Qed.

Lemma move_connector_follows c i f : wf c -> i < length (c_cy c) -> f < length (c_cy c) ->
  exists c' sg, move_connector (Z.of_nat i) (Z.of_nat f) c = ok c' /\ wf c' /\
    moved_range (ntot c) (length (c_x c) + length (c_w c) + length (c_y c) + i)
      (length (c_x c) + length (c_w c) + length (c_y c) + f) sg /\
    follows sg c c' /\ same_context c c' /\
    stors c' = stors c /\ disss c' = disss c /\ ports c' = ports c /\
    c_wl c' = c_wl c /\ c_xl c' = c_xl c.
Proof.
  intros W Hi Hf.
  destruct (move_connector_ok c i f W Hi Hf) as (cu' & cy' & M' & E & [Lu Nu] & [Ly Ny] & Hr' & Hc' & HE).
  cbn zeta in HE. assert (W0 := W). destruct W as ((Pw & Pu & Pc) & HD & Hr & Hc).
  set (c3 := set_M M' (set_cy cy' (set_cu cu' c))) in *.
  assert (Hn : ntot c = ntot c3) by (unfold ntot, c3; cbn; lia).
  assert (WF : wf c3).
  { split; [|split; [|split; cbn]].
    - split; [|split]; cbn; try assumption. lia.
    - exact HD.
    - rewrite Hr'. exact Hn.
    - rewrite Hc'. exact Hn. }
  set (o := length (c_x c) + length (c_w c) + length (c_y c)) in *.
  assert (MV : moved (o + i) (o + f) (comps c) (comps c3)).
  { assert (Es : comps c = (stors c ++ disss c ++ ports c) ++ conns c ++ [])
      by (unfold comps; now rewrite app_nil_r, !app_assoc).
    assert (Es' : comps c3 = (stors c ++ disss c ++ ports c) ++ conns c3 ++ [])
      by (unfold comps; now rewrite app_nil_r, !app_assoc).
    rewrite Es, Es'.
    replace o with (length (stors c ++ disss c ++ ports c))
      by (rewrite !app_length, stors_length, disss_length, ports_length by assumption; unfold o; lia).
    apply moved_block; try (rewrite conns_length; assumption).
    unfold conns. cbn. apply moved_map, moved_combine; [exact Pc| |split; assumption].
    split; [lia|]. exact Nu. }
  destruct (follows_moved c c3 (o + i) (o + f))
    as (sg & Hs & HF); try assumption; try (unfold o, ntot; lia); try (now apply comps_length).
  exists c3, sg. repeat (split; [first [reflexivity|assumption]|]). repeat split; reflexivity.
Qed.

(** ** Decomposition theorem *)
Lemma J_R_decomposition M : nr M = nc M ->
  exists J R, J_of M = Ok J /\ R_of M = Ok R /\
    nr J = nr M /\ nc J = nr M /\ nr R = nr M /\ nc R = nr M /\
    forall r : env,
      (forall i j, eval r (ent J i j) = - eval r (ent J j i))%R /\
      (forall i j, eval r (ent R i j) = eval r (ent R j i))%R /\
      (forall i j, eval r (ent M i j) = eval r (ent J i j) - eval r (ent R i j))%R /\
      (forall A S : rmat,
         (forall i j, (i < nr M)%nat -> (j < nr M)%nat -> A i j = - A j i)%R ->
         (forall i j, (i < nr M)%nat -> (j < nr M)%nat -> S i j = S j i) ->
         (forall i j, (i < nr M)%nat -> (j < nr M)%nat -> eval r (ent M i j) = A i j - S i j)%R ->
         forall i j, i < nr M -> j < nr M ->
           A i j = eval r (ent J i j) /\ S i j = eval r (ent R i j)).
Proof.
  intros H. destruct (J_of_ok M H) as (J & EJ & Jr & Jc & JE).
  destruct (R_of_ok M H) as (R & ER & Rr & Rc & RE).
  exists J, R. repeat (split; [congruence|]). intros r. unfold ev in *.
  repeat split.
  - intros. rewrite !JE. lra.
  - intros. rewrite !RE. lra.
  - intros. rewrite JE, RE. lra.
  - pose proof (H0 i j H3 H4). pose proof (H1 i j H3 H4).
    pose proof (H2 i j H3 H4). pose proof (H2 j i H4 H3). rewrite JE. lra.
  - pose proof (H0 i j H3 H4). pose proof (H1 i j H3 H4).
    pose proof (H2 i j H3 H4). pose proof (H2 j i H4 H3). rewrite RE. lra.
Qed.
