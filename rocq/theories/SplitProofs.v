(** Proofs about the reordering of components: sequences of moves, and the
    splits into linear/nonlinear and separable/non-separable parts. *)
From Coq Require Import String List ZArith QArith Qreals Reals Bool Lra Lia Permutation.
From Verif Require Import Py Tools Lists Spec_Tools ToolsProofs Expr ExprProofs RSum Mat MatProofs
  Core Spec_Core StructProofs ConnectProofs.
Import ListNotations.
Local Open Scope string_scope.
Local Open Scope list_scope.
Local Open Scope nat_scope.
#[local] Arguments Nat.ltb : simpl never.
#[local] Arguments Nat.leb : simpl never.

(** ** Reordering as a function *)

Definition fol (p : nat -> nat) (c c' : core) : Prop :=
  wf c' /\ ntot c' = ntot c /\ (forall k, k < ntot c -> p k < ntot c) /\
  (forall k, k < ntot c -> nth_error (comps c') k = nth_error (comps c) (p k)) /\
  (forall r i j, i < ntot c -> j < ntot c -> ev r (c_M c') i j = ev r (c_M c) (p i) (p j)).

Lemma fol_id c : wf c -> fol (fun k => k) c c.
Proof. intros W. split; [exact W|]. repeat split; auto. Qed.

Lemma fol_trans p q c c' c'' : fol p c c' -> fol q c' c'' -> fol (fun k => p (q k)) c c''.
Proof.
  intros (W1 & N1 & B1 & C1 & M1) (W2 & N2 & B2 & C2 & M2). rewrite N1 in *.
  split; [exact W2|]. split; [lia|]. split; [auto|]. split.
  - intros k Hk. rewrite C2 by exact Hk. apply C1. auto.
  - intros r i j Hi Hj. rewrite M2 by assumption. apply M1; auto.
Qed.

Lemma fol_ext p q c c' : fol p c c' -> (forall k, k < ntot c -> p k = q k) -> fol q c c'.
Proof.
  intros (W1 & N1 & B1 & C1 & M1) E. split; [exact W1|]. split; [exact N1|]. split; [|split].
  - intros k Hk. rewrite <- E by exact Hk. auto.
  - intros k Hk. rewrite <- E by exact Hk. auto.
  - intros r i j Hi Hj. rewrite <- !E by assumption. auto.
Qed.

Lemma nth_map_dep {A B} (f : A -> B) l d d' k : k < length l -> nth k (map f l) d' = f (nth k l d).
Proof.
  intros H. rewrite nth_indep with (d' := f d) by (rewrite map_length; lia). apply map_nth.
Qed.

(** A list listing [p] on the whole structure. *)
Lemma fol_follows p sg c c' : wf c -> fol p c c' -> Permutation sg (seq 0 (ntot c)) ->
  (forall k, k < ntot c -> nth k sg 0 = p k) -> follows sg c c'.
Proof.
  intros W (W1 & N1 & B1 & C1 & M1) HP E. unfold follows.
  assert (L : length sg = ntot c) by (rewrite (Permutation_length HP); apply seq_length).
  split; [exact HP|]. split; [rewrite !comps_length by assumption; exact N1|].
  split.
  - intros k s Hs. assert (Hk : k < ntot c) by (rewrite <- L; apply nth_error_Some; congruence).
    rewrite C1 by exact Hk. f_equal. rewrite <- E by exact Hk. now apply nth_error_nth.
  - destruct W1 as (_ & _ & R1 & R2). split; [congruence|]. split; [congruence|].
    intros r i j Hi Hj. rewrite !E by assumption. now apply M1.
Qed.

Lemma follows_fol sg c c' : wf c -> wf c' -> follows sg c c' -> fol (fun k => nth k sg 0) c c'.
Proof.
  intros W W' (HP & LC & HC & R1 & R2 & HM).
  assert (L : length sg = ntot c) by (rewrite (Permutation_length HP); apply seq_length).
  split; [exact W'|]. split; [rewrite <- !comps_length by assumption; exact LC|]. split; [|split].
  - intros k Hk. assert (I : In (nth k sg 0) sg) by (apply nth_In; lia).
    apply (Permutation_in _ HP) in I. apply in_seq in I. lia.
  - intros k Hk. apply HC. apply nth_error_nth'. lia.
  - intros r i j Hi Hj. now apply HM.
Qed.

Lemma follows_trans sg sg' c c' c'' : wf c -> wf c' -> wf c'' ->
  follows sg c c' -> follows sg' c' c'' -> follows (map (fun k => nth k sg 0) sg') c c''.
Proof.
  intros W W' W'' F F'.
  pose proof (follows_fol _ _ _ W W' F) as G. pose proof (follows_fol _ _ _ W' W'' F') as G'.
  assert (N : ntot c' = ntot c) by apply G.
  apply (fol_follows (fun k => nth (nth k sg' 0) sg 0)); [exact W|exact (fol_trans _ _ _ _ _ G G')| |].
  - destruct F as (HP & _). destruct F' as (HP' & _). rewrite N in HP'.
    rewrite HP'.
    assert (E : map (fun k => nth k sg 0) (seq 0 (ntot c)) = sg).
    { assert (L : length sg = ntot c) by (rewrite (Permutation_length HP); apply seq_length).
      rewrite <- L. clear. apply nth_ext with (d := 0) (d' := 0).
      - now rewrite map_length, seq_length.
      - intros k Hk. rewrite map_length, seq_length in Hk.
        rewrite (nth_map_dep _ _ 0) by (now rewrite seq_length). now rewrite seq_nth. }
    now rewrite E.
  - intros k Hk. destruct F' as (HP' & _).
    rewrite (nth_map_dep _ _ 0); [reflexivity|].
    rewrite (Permutation_length HP'), seq_length. lia.
Qed.

(** The list of a single move is unique. *)
Lemma filter_all_neq i l : ~ In i l -> filter (fun k => negb (k =? i)) l = l.
Proof. apply filter_neq_notin. Qed.

Lemma moved_range_unique n i p l l' :
  moved_range n i p l -> moved_range n i p l' -> l = l'.
Proof.
  assert (K : forall l, moved_range n i p l ->
    l = firstn p (filter (fun k => negb (k =? i)) (seq 0 n)) ++ i ::
        skipn p (filter (fun k => negb (k =? i)) (seq 0 n))).
  { intros m (HP & HN & HF). rewrite <- HF.
    destruct (nth_error_split m p HN) as (a & b & -> & La).
    assert (ND : NoDup (a ++ i :: b)).
    { eapply Permutation_NoDup; [symmetry; exact HP|apply seq_NoDup]. }
    apply NoDup_remove_2 in ND. rewrite in_app_iff in ND.
    rewrite filter_app. cbn. rewrite Nat.eqb_refl. cbn.
    rewrite !filter_neq_notin by tauto. subst p.
    rewrite firstn_app, Nat.sub_diag, firstn_all, skipn_app, Nat.sub_diag, skipn_all. cbn.
    now rewrite app_nil_r. }
  intros H H'. rewrite (K l H), (K l' H'). reflexivity.
Qed.

Lemma moved_range_mv n i f sg : i < n -> f < n -> moved_range n i f sg -> sg = mv n i f.
Proof.
  intros Hi Hf H. apply (moved_range_unique n i f); [exact H|].
  pose proof (mv_spec n i f Hi) as S. now rewrite Nat.min_l in S by lia.
Qed.

Lemma follows_shift c c' i f sg : wf c -> wf c' -> i < ntot c -> f < ntot c ->
  moved_range (ntot c) i f sg -> follows sg c c' -> fol (shift i f) c c'.
Proof.
  intros W W' Hi Hf HM HF. apply moved_range_mv in HM; try assumption. subst sg.
  apply (fol_ext _ _ _ _ (follows_fol _ _ _ W W' HF)).
  intros k Hk. now apply nth_mv.
Qed.

(** ** Names *)

Definition cname (k : comp) : string :=
  match k with Stor x _ => x | Diss w _ => w | Port u _ => u | Conn u _ => u end.

Lemma combine_fst {A B} (l1 : list A) (l2 : list B) : length l1 = length l2 -> map fst (combine l1 l2) = l1.
Proof.
  revert l2. induction l1 as [|a l1 IH]; intros [|b l2] H; try discriminate; [reflexivity|].
  cbn. f_equal. apply IH. cbn in H. lia.
Qed.

Lemma names_comps c : wf c -> map cname (comps c) = c_x c ++ c_w c ++ c_u c ++ c_cu c.
Proof.
  intros ((P1 & P2 & P3) & D & _). unfold comps. rewrite !map_app. f_equal; [|f_equal; [|f_equal]].
  - unfold stors. destruct (c_dxH c) as [d|] eqn:E; rewrite map_map; cbn.
    + now rewrite combine_fst by (symmetry; auto).
    + apply map_id.
  - unfold disss. rewrite map_map. cbn. now apply combine_fst.
  - unfold ports. rewrite map_map. cbn. now apply combine_fst.
  - unfold conns. rewrite map_map. cbn. now apply combine_fst.
Qed.

Lemma nth_ext_error {A} (l l' : list A) : (forall k, nth_error l k = nth_error l' k) -> l = l'.
Proof.
  revert l'. induction l as [|a l IH]; intros [|b l'] H; try reflexivity.
  - specialize (H 0). discriminate.
  - specialize (H 0). discriminate.
  - pose proof (H 0) as H0. injection H0 as ->. f_equal. apply IH. intros k. apply (H (S k)).
Qed.

(** ** The loops of the splits, abstractly *)

(** [s] applied at offset [o]. *)
Definition at_block (o : nat) (s : list nat) (k : nat) : nat :=
  if (o <=? k) && (k <? o + length s) then o + nth (k - o) s 0 else k.

Section Loop.
  Variables (test : mat -> nat -> bool) (mfun : core -> mat -> nat -> result mat)
    (move : nat -> core -> outcome).

  Fixpoint gloop (fuel : nat) (A : mat) (n : nat) (c : core) : outcome * nat :=
    match fuel with
    | O => (ok c, n)
    | S fuel' =>
        if test A n then gloop fuel' A (S n) c
        else match move n c with
             | (c, Some e) => (raise e c, n)
             | (c, None) => match mfun c A n with
                            | Err e => (raise e c, n)
                            | Ok A' => gloop fuel' A' n c
                            end
             end
    end.

  Variables (o N : nat) (P : nat -> bool) (c0 : core) (Inv : core -> Prop)
    (rep : mat -> list nat -> Prop).
  (** State of the loop: tested and kept, not yet tested, moved to the end. *)
  Definition state (k : nat) : list nat :=
    filter P (seq 0 k) ++ seq k (N - k) ++ filter (fun j => negb (P j)) (seq 0 k).
  Hypothesis HoN : o + N <= ntot c0.
  Hypothesis Hmove : forall c i, Inv c -> i < N -> exists c', move i c = ok c' /\ Inv c' /\
    fol (shift (o + i) (o + (N - 1))) c c'.
  Hypothesis Htest : forall A k, k < N -> rep A (state k) ->
    test A (length (filter P (seq 0 k))) = P k.
  Hypothesis Hmf : forall A c n s s', Inv c -> n < N -> rep A s -> length s = N ->
    moved n (N - 1) s s' -> exists A', mfun c A n = Ok A' /\ rep A' s'.

  Lemma state_length k : k <= N -> length (state k) = N.
  Proof.
    intros Hk. unfold state. rewrite !app_length, seq_length.
    enough (length (filter P (seq 0 k)) + length (filter (fun j => negb (P j)) (seq 0 k)) = k) by lia.
    rewrite <- (seq_length k 0) at 3. generalize (seq 0 k) as l. clear.
    induction l as [|a l IH]; [reflexivity|]. cbn. destruct (P a); cbn; lia.
  Qed.

  Lemma filter_len k : length (filter P (seq 0 k)) <= k.
  Proof.
    rewrite <- (seq_length k 0) at 2. generalize (seq 0 k) as l. clear.
    induction l as [|a l IH]; cbn; [lia|]. destruct (P a); cbn; lia.
  Qed.

  Lemma state_kept k : k < N -> P k = true -> state (S k) = state k.
  Proof.
    intros Hk HP. unfold state. rewrite seq_S, !filter_app. cbn [filter plus]. rewrite HP. cbn [negb].
    rewrite app_nil_r, <- app_assoc. f_equal.
    replace (N - k) with (S (N - S k)) by lia. reflexivity.
  Qed.

  Lemma state_moved k : k < N -> P k = false ->
    moved (length (filter P (seq 0 k))) (N - 1) (state k) (state (S k)).
  Proof.
    intros Hk HP.
    replace (N - 1) with (length (state k) - 1) by (rewrite state_length; lia).
    unfold state at 2 3. rewrite seq_S, !filter_app. cbn [filter plus]. rewrite HP. cbn [negb].
    rewrite app_nil_r. unfold state.
    replace (N - k) with (S (N - S k)) by lia. cbn [seq]. cbn [app].
    rewrite (app_assoc (seq (S k) _)). apply moved_end.
  Qed.

  Lemma moved_at_block n s s' : length s = N -> n < N -> moved n (N - 1) s s' ->
    forall k, k < ntot c0 -> at_block o s (shift (o + n) (o + (N - 1)) k) = at_block o s' k.
  Proof.
    intros L Hn [L' HM] k Hk. unfold at_block. rewrite L', L.
    destruct (Nat.leb_spec o k) as [K1|K1]; cbn [andb].
    2:{ rewrite shift_below by exact K1. destruct (Nat.leb_spec o k); [lia|reflexivity]. }
    destruct (Nat.ltb_spec k (o + N)) as [K2|K2].
    - assert (Ek : shift (o + n) (o + (N - 1)) k = o + shift n (N - 1) (k - o)).
      { replace k with (o + (k - o)) at 1 by lia. apply shift_off. }
      rewrite Ek.
      pose proof (shift_lt N n (N - 1) (k - o) Hn ltac:(lia) ltac:(lia)) as B.
      destruct (Nat.leb_spec o (o + shift n (N - 1) (k - o))); [|lia].
      destruct (Nat.ltb_spec (o + shift n (N - 1) (k - o)) (o + N)); [|lia]. cbn [andb].
      replace (o + shift n (N - 1) (k - o) - o) with (shift n (N - 1) (k - o)) by lia.
      specialize (HM (k - o)). rewrite L in HM. destruct (Nat.ltb_spec (k - o) N); [|lia].
      f_equal. rewrite <- !nth_default_eq. unfold nth_default. now rewrite HM.
    - rewrite (shift_above (o + N)) by lia.
      destruct (Nat.leb_spec o k); [|lia]. destruct (Nat.ltb_spec k (o + N)); [lia|reflexivity].
  Qed.

  Lemma gloop_ok : forall fuel A c, fuel <= N -> Inv c -> rep A (state (N - fuel)) ->
    fol (at_block o (state (N - fuel))) c0 c ->
    exists c', gloop fuel A (length (filter P (seq 0 (N - fuel)))) c =
      (ok c', length (filter P (seq 0 N))) /\ Inv c' /\ fol (at_block o (state N)) c0 c'.
  Proof.
    induction fuel as [|fuel IH]; intros A c Hf HI HR HF.
    - rewrite Nat.sub_0_r in *. exists c. cbn. auto.
    - cbn [gloop]. set (k := N - S fuel) in *. assert (Hk : k < N) by lia.
      assert (Ek : N - fuel = S k) by lia.
      specialize (IH) as IH'. rewrite Ek in IH'. rewrite (Htest A k Hk HR).
      destruct (P k) eqn:EP.
      + specialize (IH' A c ltac:(lia) HI).
        rewrite state_kept in IH' by assumption.
        specialize (IH' HR HF).
        assert (EL : length (filter P (seq 0 (S k))) = S (length (filter P (seq 0 k)))).
        { rewrite seq_S, filter_app, app_length. cbn [filter plus]. rewrite EP. cbn. lia. }
        rewrite EL in IH'. exact IH'.
      + set (n := length (filter P (seq 0 k))) in *.
        assert (Hn : n < N) by (pose proof (filter_len k); lia).
        destruct (Hmove c n HI Hn) as (c' & EM & HI' & HF'). rewrite EM. cbn [ok].
        pose proof (state_moved k Hk EP) as SM. fold n in SM.
        destruct (Hmf A c' n (state k) (state (S k)) HI' Hn HR (state_length k ltac:(lia)) SM)
          as (A' & EA & HR').
        rewrite EA.
        assert (EL : length (filter P (seq 0 (S k))) = n).
        { rewrite seq_S, filter_app, app_length. cbn [filter plus]. rewrite EP. cbn. lia. }
        specialize (IH' A' c' ltac:(lia) HI' HR'). rewrite EL in IH'. apply IH'.
        apply (fol_ext _ _ _ _ (fol_trans _ _ _ _ _ HF HF')).
        intros j Hj. apply moved_at_block; try assumption. apply state_length; lia.
  Qed.
End Loop.

(** ** One move *)

Lemma move_stor_frame i f c : exists x d M,
  fst (move_stor i f c) = set_M M (set_dxH d (set_x x c)).
Proof.
  assert (K : forall x d M, set_M M (set_dxH d (set_x x c)) =
     mkCore (c_label c) x (c_H c) d (c_w c) (c_z c) (c_u c) (c_y c) (c_cu c) (c_cy c) (c_p c) M
       (c_connectors c) (c_subs c) (c_observers c) (c_force_wnl c) (c_Q c) (c_bl c) (c_Zl c)
       (c_xl c) (c_wl c) (c_xnl_mono c)) by reflexivity.
  assert (K0 : c = set_M (c_M c) (set_dxH (c_dxH c) (set_x (c_x c) c))) by (destruct c; reflexivity).
  unfold move_stor, moveM.
  destruct (myrange _ _ _) as [idx|]; cbn [olift raise fst]; [|eauto].
  destruct (pick (c_x c) idx) as [x'|]; cbn [olift raise fst]; [|eauto].
  cbn [c_dxH set_x]. destruct (c_dxH c) as [d|] eqn:Ed.
  - destruct (pick d idx) as [d'|]; cbn [olift raise fst obind ok].
    + match goal with |- context [if ?b then _ else _] => destruct b end.
      * exists x', (Some d'), (c_M c). reflexivity.
      * match goal with |- context [movesquare ?a ?b ?c] => destruct (movesquare a b c) as [A|] end; cbn.
        -- exists x', (Some d'), A. reflexivity.
        -- exists x', (Some d'), (c_M c). reflexivity.
    + exists x', (Some d), (c_M c). rewrite <- Ed. reflexivity.
  - cbn [obind ok].
    match goal with |- context [if ?b then _ else _] => destruct b end.
    * exists x', None, (c_M c). rewrite <- Ed. reflexivity.
    * match goal with |- context [movesquare ?a ?b ?c] => destruct (movesquare a b c) as [A|] end; cbn.
      -- exists x', None, A. rewrite <- Ed. reflexivity.
      -- exists x', None, (c_M c). rewrite <- Ed. reflexivity.
Qed.

Definition zl_ok (c : core) : Prop := nr (c_Zl c) = Z.to_nat (c_wl c) \/ is_zero (c_Zl c) = true.

Lemma is_zero_empty A : nr A = 0 -> is_zero A = true.
Proof. intros H. unfold is_zero. now rewrite H. Qed.

Lemma move_diss_frame i f c : zl_ok c -> exists w z M Z',
  fst (move_diss (Z.of_nat i) (Z.of_nat f) c) = set_Zl Z' (set_M M (set_z z (set_w w c))) /\
  (nr Z' = Z.to_nat (c_wl c) \/ is_zero Z' = true).
Proof.
  intros HZ.
  unfold move_diss.
  destruct (myrange _ _ _) as [idx|]; cbn [olift raise fst].
  2:{ exists (c_w c), (c_z c), (c_M c), (c_Zl c). split; [destruct c; reflexivity|exact HZ]. }
  destruct (pick (c_w c) idx) as [w'|]; cbn [olift raise fst].
  2:{ exists (c_w c), (c_z c), (c_M c), (c_Zl c). split; [destruct c; reflexivity|exact HZ]. }
  cbn [c_z set_w]. destruct (pick (c_z c) idx) as [z'|]; cbn [olift raise fst].
  2:{ exists w', (c_z c), (c_M c), (c_Zl c). split; [destruct c; reflexivity|exact HZ]. }
  set (c2 := set_z z' (set_w w' c)).
  assert (KM : exists M e, moveM (dim_x c2 + Z.of_nat i) (dim_x c2 + Z.of_nat f) c2 = (set_M M c2, e)).
  { unfold moveM. destruct (is_zero _).
    - exists (c_M c), None. destruct c; reflexivity.
    - destruct (movesquare _ _ _) as [A|e]; cbn.
      + exists A, None. reflexivity.
      + exists (c_M c), (Some e). destruct c; reflexivity. }
  destruct KM as (M & e & ->). destruct e as [e|]; cbn [obind fst].
  { exists w', z', M, (c_Zl c). split; [destruct c; reflexivity|exact HZ]. }
  change (c_Zl (set_M M c2)) with (c_Zl c). change (dim_wl (set_M M c2)) with (c_wl c).
  destruct (is_zero (c_Zl c)) eqn:E0; cbn [negb andb].
  { exists w', z', M, (c_Zl c). split; [destruct c; reflexivity|now right]. }
  destruct (Z.ltb_spec (Z.of_nat i) (c_wl c)); cbn [andb];
  [destruct (Z.ltb_spec (Z.of_nat f) (c_wl c))|].
  - destruct HZ as [HZ|]; [|congruence].
    unfold movesquare. rewrite myrange_mv by lia. cbn [rbind olift].
    exists w', z', M. eexists. split; [reflexivity|]. left. cbn [nr mfancy].
    rewrite mv_length by lia. exact HZ.
  - exists w', z', M. eexists. split; [reflexivity|]. right. apply is_zero_empty. cbn. lia.
  - exists w', z', M. eexists. split; [reflexivity|]. right. apply is_zero_empty. cbn. lia.
Qed.

Lemma same_context_refl c : same_context c c.
Proof. repeat split. Qed.
Lemma same_context_trans c c' c'' : same_context c c' -> same_context c' c'' -> same_context c c''.
Proof. unfold same_context. intuition congruence. Qed.

(** Everything but the storages is as in [c0]. *)
Definition stor_inv (c0 c : core) : Prop :=
  wf c /\ length (c_x c) = length (c_x c0) /\ same_context c0 c /\
  c_w c = c_w c0 /\ c_z c = c_z c0 /\ c_u c = c_u c0 /\ c_y c = c_y c0 /\
  c_cu c = c_cu c0 /\ c_cy c = c_cy c0 /\ c_wl c = c_wl c0 /\ c_xl c = c_xl c0 /\
  c_Zl c = c_Zl c0 /\ c_Q c = c_Q c0 /\ c_bl c = c_bl c0 /\ c_xnl_mono c = c_xnl_mono c0.

Lemma stor_inv_refl c : wf c -> stor_inv c c.
Proof. intros W. split; [exact W|]. repeat split. Qed.

Lemma length_x_fixed c c' : wf c -> wf c' -> ntot c' = ntot c ->
  c_w c' = c_w c -> c_y c' = c_y c -> c_cy c' = c_cy c -> length (c_x c') = length (c_x c).
Proof. unfold ntot. intros _ _ H E1 E2 E3. rewrite E1, E2, E3 in H. lia. Qed.

Lemma move_stor_inv c0 c i : stor_inv c0 c -> i < length (c_x c0) ->
  exists c', move_stor (Z.of_nat i) (dim_x c - 1) c = ok c' /\ stor_inv c0 c' /\
    fol (shift i (length (c_x c0) - 1)) c c'.
Proof.
  intros (W & L & SC & HI) Hi.
  replace (dim_x c - 1)%Z with (Z.of_nat (length (c_x c0) - 1)) by (unfold dim_x; lia).
  destruct (move_stor_follows c i (length (c_x c0) - 1) W) as (c' & sg & E & W' & HM & HF & SC' & _);
    try lia.
  destruct (move_stor_frame (Z.of_nat i) (Z.of_nat (length (c_x c0) - 1)) c) as (x & d & M & EF).
  exists c'. split; [exact E|]. rewrite E in EF. cbn in EF.
  assert (FO : fol (shift i (length (c_x c0) - 1)) c c').
  { eapply follows_shift; try eassumption; unfold ntot; lia. }
  split; [|exact FO].
  split; [exact W'|]. split.
  - rewrite <- L. apply length_x_fixed; try assumption; try (subst c'; reflexivity). apply FO.
  - split; [now apply (same_context_trans _ c)|]. subst c'. cbn. exact HI.
Qed.

(** Everything but the dissipations is as in [c0]. *)
Definition diss_inv (c0 c : core) : Prop :=
  wf c /\ zl_ok c /\ length (c_w c) = length (c_w c0) /\ same_context c0 c /\
  c_x c = c_x c0 /\ c_dxH c = c_dxH c0 /\ c_u c = c_u c0 /\ c_y c = c_y c0 /\
  c_cu c = c_cu c0 /\ c_cy c = c_cy c0 /\ c_wl c = c_wl c0 /\ c_xl c = c_xl c0 /\
  c_Q c = c_Q c0 /\ c_bl c = c_bl c0 /\ c_xnl_mono c = c_xnl_mono c0.

Lemma diss_inv_refl c : wf c -> zl_ok c -> diss_inv c c.
Proof. intros W Z. split; [exact W|]. split; [exact Z|]. repeat split. Qed.

Lemma move_diss_inv c0 c i : diss_inv c0 c -> i < length (c_w c0) ->
  exists c', move_diss (Z.of_nat i) (dim_w c - 1) c = ok c' /\ diss_inv c0 c' /\
    fol (shift (length (c_x c0) + i) (length (c_x c0) + (length (c_w c0) - 1))) c c'.
Proof.
  intros (W & ZO & L & SC & HI) Hi.
  replace (dim_w c - 1)%Z with (Z.of_nat (length (c_w c0) - 1)) by (unfold dim_w; lia).
  assert (LX : length (c_x c) = length (c_x c0)) by (f_equal; apply HI).
  destruct (move_diss_follows c i (length (c_w c0) - 1) W) as (c' & sg & E & W' & HM & HF & SC' & _);
    try lia; [exact ZO|].
  destruct (move_diss_frame i (length (c_w c0) - 1) c ZO) as (w & z & M & Z' & EF & HZ').
  exists c'. split; [exact E|]. rewrite E in EF. cbn in EF. rewrite LX in HM.
  assert (FO : fol (shift (length (c_x c0) + i) (length (c_x c0) + (length (c_w c0) - 1))) c c').
  { eapply follows_shift; try eassumption; unfold ntot; lia. }
  split; [|exact FO].
  split; [exact W'|]. split; [subst c'; exact HZ'|]. split.
  - assert (N : ntot c' = ntot c) by apply FO. rewrite <- L. subst c'. unfold ntot in N. cbn in N |- *. lia.
  - split; [now apply (same_context_trans _ c)|]. subst c'. cbn. exact HI.
Qed.

(** ** Columns and their symbols *)

Lemma in_col_symbols A j s :
  In s (col_symbols A j) <-> exists i, i < nr A /\ In s (free_symbols (ent A i j)).
Proof.
  unfold col_symbols, col_list. rewrite in_flat_map. split.
  - intros (e & He & Hs). apply in_map_iff in He. destruct He as (i & <- & Hi).
    apply in_seq in Hi. exists i. split; [lia|exact Hs].
  - intros (i & Hi & Hs). exists (ent A i j). split; [|exact Hs].
    apply in_map_iff. exists i. split; [reflexivity|]. apply in_seq. lia.
Qed.

Lemma disjoint_spec l1 l2 : disjoint l1 l2 = true <-> forall s, In s l1 -> ~ In s l2.
Proof.
  unfold disjoint. rewrite forallb_forall. split; intros H s Hs.
  - specialize (H s Hs). apply negb_true_iff in H.
    destruct (py_in_spec String.eqb String.eqb_spec s l2); [discriminate|assumption].
  - apply negb_true_iff. specialize (H s Hs).
    destruct (py_in_spec String.eqb String.eqb_spec s l2); [contradiction|reflexivity].
Qed.

Lemma disjoint_same l1 l1' l2 : (forall s, In s l1 <-> In s l1') ->
  disjoint l1 l2 = disjoint l1' l2.
Proof.
  intros H. apply eq_true_iff_eq. rewrite !disjoint_spec. split; intros K s Hs; apply K, H, Hs.
Qed.

Lemma state_perm P N k : k <= N -> Permutation (state N P k) (seq 0 N).
Proof.
  intros Hk. unfold state. replace N with (k + (N - k)) at 2 by lia. rewrite seq_app. cbn [plus].
  rewrite Permutation_app_comm, <- app_assoc.
  rewrite (Permutation_app_comm (seq k (N - k))).
  apply Permutation_app_tail.
  rewrite Permutation_app_comm. generalize (seq 0 k) as l. clear.
  induction l as [|a l IH]; [constructor|]. cbn. destruct (P a); cbn.
  - now constructor.
  - rewrite <- Permutation_middle. now constructor.
Qed.

Lemma perm_surj N s : Permutation s (seq 0 N) -> forall i, i < N ->
  exists k, k < N /\ nth k s 0 = i.
Proof.
  intros HP i Hi. assert (I : In i s).
  { apply (Permutation_in _ (Permutation_sym HP)). apply in_seq. lia. }
  destruct (In_nth s i 0 I) as (k & Hk & E). exists k. split; [|exact E].
  rewrite (Permutation_length HP), seq_length in Hk. exact Hk.
Qed.
Lemma perm_lt N s : Permutation s (seq 0 N) -> forall k, k < N -> nth k s 0 < N.
Proof.
  intros HP k Hk. assert (L : length s = N) by (rewrite (Permutation_length HP); apply seq_length).
  assert (I : In (nth k s 0) s) by (apply nth_In; lia).
  apply (Permutation_in _ HP), in_seq in I. lia.
Qed.

Lemma moved_nth_shift {A} n m (s s' : list A) d j : moved n m s s' -> j < length s ->
  nth j s' d = nth (shift n m j) s d.
Proof.
  intros [L H] Hj. rewrite <- !nth_default_eq. unfold nth_default. rewrite H.
  destruct (Nat.ltb_spec j (length s)); [reflexivity|lia].
Qed.

(** The matrix tested, rows and columns permuted together. *)
Definition rep2 (A0 : mat) (N : nat) (A : mat) (s : list nat) : Prop :=
  nr A = N /\ nc A = N /\
  forall i j, i < N -> j < N -> ent A i j = ent A0 (nth i s 0) (nth j s 0).
(** Columns only. *)
Definition rep1 (A0 : mat) (N : nat) (A : mat) (s : list nat) : Prop :=
  nr A = nr A0 /\ nc A = N /\
  forall i j, i < nr A0 -> j < N -> ent A i j = ent A0 i (nth j s 0).

Lemma movesquare_rep2 A0 N A n s s' : n < N -> rep2 A0 N A s -> length s = N ->
  moved n (N - 1) s s' ->
  exists A', movesquare A (Z.of_nat n) (Z.of_nat (N - 1)) = Ok A' /\ rep2 A0 N A' s'.
Proof.
  intros Hn (R1 & R2 & R3) L HM. unfold movesquare. rewrite R1, myrange_mv by exact Hn. cbn [rbind].
  eexists. split; [reflexivity|]. unfold rep2. cbn [nr nc ent mfancy].
  rewrite mv_length by lia. split; [reflexivity|]. split; [reflexivity|].
  intros i j Hi Hj. rewrite !nth_mv by lia. rewrite R3 by (apply shift_lt; lia).
  now rewrite !(moved_nth_shift n (N - 1) s s') by (try assumption; lia).
Qed.

Lemma movecols_rep1 A0 N A n s s' : n < N -> rep1 A0 N A s -> length s = N ->
  moved n (N - 1) s s' ->
  exists A', movecols A (Z.of_nat n) (Z.of_nat (N - 1)) = Ok A' /\ rep1 A0 N A' s'.
Proof.
  intros Hn (R1 & R2 & R3) L HM. unfold movecols. rewrite R2, myrange_mv by exact Hn. cbn [rbind].
  eexists. split; [reflexivity|]. unfold rep1. cbn [nr nc ent mcols].
  rewrite mv_length by lia. split; [exact R1|]. split; [reflexivity|].
  intros i j Hi Hj. rewrite !nth_mv by lia. rewrite R3 by (try apply shift_lt; lia).
  now rewrite !(moved_nth_shift n (N - 1) s s') by (try assumption; lia).
Qed.

Lemma test_rep2 A0 N A s arg n : nr A0 = N -> rep2 A0 N A s -> Permutation s (seq 0 N) -> n < N ->
  disjoint (col_symbols A n) arg = disjoint (col_symbols A0 (nth n s 0)) arg.
Proof.
  intros E (R1 & R2 & R3) HP Hn. apply disjoint_same. intros x. rewrite !in_col_symbols. split.
  - intros (i & Hi & Hx). exists (nth i s 0). rewrite E, <- R3 by lia.
    split; [apply perm_lt; [exact HP|lia]|exact Hx].
  - intros (i & Hi & Hx). destruct (perm_surj N s HP i ltac:(lia)) as (k & Hk & Ek).
    exists k. rewrite R3 by lia. rewrite Ek. split; [lia|exact Hx].
Qed.

Lemma test_rep1 A0 N A s arg n : rep1 A0 N A s -> n < N ->
  disjoint (col_symbols A n) arg = disjoint (col_symbols A0 (nth n s 0)) arg.
Proof.
  intros (R1 & R2 & R3) Hn. apply disjoint_same. intros x. rewrite !in_col_symbols. split;
  intros (i & Hi & Hx); exists i; rewrite R1 in *; (split; [lia|]).
  - now rewrite <- R3.
  - now rewrite R3.
Qed.

Lemma state_nth P N k : k < N -> nth (length (filter P (seq 0 k))) (state N P k) 0 = k.
Proof.
  intros Hk. unfold state. rewrite app_nth2 by lia. rewrite Nat.sub_diag.
  replace (N - k) with (S (N - S k)) by lia. reflexivity.
Qed.

Lemma filter_len' (P : nat -> bool) k : length (filter P (seq 0 k)) <= k.
Proof.
  rewrite <- (seq_length k 0) at 2. generalize (seq 0 k) as l.
  induction l as [|a l IH]; cbn; [lia|]. destruct (P a); cbn; lia.
Qed.

(** ** linear_nonlinear *)

Lemma split_gloop movefunc move last arg : forall fuel A n c,
  split_loop movefunc move last arg fuel A n c =
  gloop (fun A n => disjoint (col_symbols A n) arg)
        (fun c A n => movefunc A (Z.of_nat n) (last c))
        (fun n c => move (Z.of_nat n) (last c) c) fuel A n c.
Proof.
  induction fuel as [|fuel IH]; intros A n c; [reflexivity|]. cbn.
  destruct (disjoint _ _); [apply IH|].
  destruct (move _ _ c) as [c' [e|]]; [reflexivity|].
  destruct (movefunc _ _ _); [apply IH|reflexivity].
Qed.

Definition mover_ok (movefunc : mat -> Z -> Z -> result mat) (A0 : mat) (N : nat) : Prop :=
  (movefunc = movesquare /\ nr A0 = N /\ nc A0 = N) \/ (movefunc = movecols /\ nc A0 = N).

(** The stable partition of [0..N) by [P]. *)
Definition part (N : nat) (P : nat -> bool) : list nat :=
  filter P (seq 0 N) ++ filter (fun j => negb (P j)) (seq 0 N).
Lemma state_N P N : state N P N = part N P.
Proof. unfold state, part. now rewrite Nat.sub_diag. Qed.
Lemma state_0 P N : state N P 0 = seq 0 N.
Proof. unfold state. cbn. now rewrite Nat.sub_0_r, app_nil_r. Qed.

Lemma split_loop_ok movefunc move last arg A0 (o N : nat) c0 (Inv : core -> Prop) :
  mover_ok movefunc A0 N -> wf c0 -> o + N <= ntot c0 -> Inv c0 ->
  (forall c, Inv c -> last c = Z.of_nat (N - 1) \/ N = 0) ->
  (forall c i, Inv c -> i < N -> exists c', move (Z.of_nat i) (last c) c = ok c' /\ Inv c' /\
     fol (shift (o + i) (o + (N - 1))) c c') ->
  let P := fun j => disjoint (col_symbols A0 j) arg in
  exists c', split_loop movefunc move last arg N A0 0 c0 =
    (ok c', length (filter P (seq 0 N))) /\ Inv c' /\ fol (at_block o (part N P)) c0 c'.
Proof.
  intros HA W Ho HI HL HM P. rewrite split_gloop.
  assert (exists rep : mat -> list nat -> Prop, rep A0 (seq 0 N) /\
    (forall A k, k < N -> rep A (state N P k) ->
       disjoint (col_symbols A (length (filter P (seq 0 k)))) arg = P k) /\
    (forall A n s s', n < N -> rep A s -> length s = N -> moved n (N - 1) s s' ->
       exists A', movefunc A (Z.of_nat n) (Z.of_nat (N - 1)) = Ok A' /\ rep A' s'))
    as (rep & R0 & RT & RM).
  { assert (HN : forall k, k < N -> length (filter P (seq 0 k)) < N)
      by (intros k Hk; pose proof (filter_len' P k); lia).
    assert (EP : forall k, k < N ->
      disjoint (col_symbols A0 (nth (length (filter P (seq 0 k))) (state N P k) 0)) arg = P k)
      by (intros k Hk; rewrite state_nth by exact Hk; reflexivity).
    destruct HA as [(-> & E1 & E2)|(-> & E2)].
    - exists (rep2 A0 N). split; [|split].
      + split; [exact E1|]. split; [exact E2|]. intros i j Hi Hj. now rewrite !seq_nth.
      + intros A k Hk HR. rewrite (test_rep2 A0 N A (state N P k)); auto. apply state_perm. lia.
      + intros A n s s'. apply movesquare_rep2.
    - exists (rep1 A0 N). split; [|split].
      + split; [reflexivity|]. split; [exact E2|]. intros i j Hi Hj. now rewrite !seq_nth.
      + intros A k Hk HR. rewrite (test_rep1 A0 N A (state N P k)); auto.
      + intros A n s s'. apply movecols_rep1. }
  destruct (gloop_ok (fun A n => disjoint (col_symbols A n) arg)
    (fun c A n => movefunc A (Z.of_nat n) (last c))
    (fun n c => move (Z.of_nat n) (last c) c) o N P c0 Inv rep Ho HM RT) with (fuel := N) (A := A0) (c := c0)
    as (c' & E & HI' & HF).
  - intros A c n s s' HIc Hn HR Ls HMv.
    destruct (HL c HIc) as [->|]; [|lia]. eauto.
  - lia.
  - exact HI.
  - rewrite Nat.sub_diag, state_0. exact R0.
  - rewrite Nat.sub_diag, state_0. apply (fol_ext _ _ _ _ (fol_id c0 W)).
    intros k Hk. unfold at_block. rewrite seq_length.
    destruct (Nat.leb_spec o k); [|reflexivity].
    destruct (Nat.ltb_spec k (o + N)); [|reflexivity]. cbn [andb]. rewrite seq_nth by lia. lia.
  - rewrite Nat.sub_diag in E. cbn [seq filter length] in E. rewrite state_N in HF.
    exists c'. auto.
Qed.
