(** Proofs about the signal generator. *)
From Coq Require Import String List ZArith Reals Bool Lia Lra.
From Verif Require Import Py Waves WavesProofs Signal Spec_Signal.
Import ListNotations.
Local Open Scope string_scope.
Local Open Scope list_scope.
Local Open Scope R_scope.

(** ** Lists *)

Lemma nth_map : forall (f : R -> R) l i v, nth_error (map f l) i = Some v ->
  exists a, nth_error l i = Some a /\ v = f a.
Proof.
  intros f l i v H; rewrite nth_error_map in H.
  destruct (nth_error l i) as [a|]; cbn in H; [|discriminate].
  injection H as <-; exists a; auto.
Qed.

Lemma nth_seq : forall a n i j, nth_error (seq a n) i = Some j -> j = (a + i)%nat /\ (i < n)%nat.
Proof.
  intros a n; revert a; induction n as [|n IH]; intros a i j H; destruct i; cbn in H; try discriminate.
  - injection H as <-; lia.
  - apply IH in H; lia.
Qed.

Lemma nth_arange : forall n i v, nth_error (arange n) i = Some v ->
  v = INR i /\ (Z.of_nat i < n)%Z.
Proof.
  intros n i v H; unfold arange in H; rewrite nth_error_map in H.
  destruct (nth_error (seq 0 (Z.to_nat n)) i) as [j|] eqn:E; cbn in H; [|discriminate].
  injection H as <-; apply nth_seq in E; destruct E as [-> L]; cbn; split; [reflexivity|lia].
Qed.

Lemma length_arange : forall n, length (arange n) = Z.to_nat n.
Proof. intros n; unfold arange; rewrite map_length, seq_length; reflexivity. Qed.

Lemma nth_combine : forall A B (l : list A) (l' : list B) i a b,
  nth_error (combine l l') i = Some (a, b) -> nth_error l i = Some a /\ nth_error l' i = Some b.
Proof.
  intros A B l; induction l as [|x l IH]; intros l' i a b H; destruct l', i; cbn in *; try discriminate.
  - injection H as <- <-; auto.
  - apply IH; exact H.
Qed.

Lemma nth_zip : forall f l l' i v, nth_error (zip f l l') i = Some v ->
  exists a b, nth_error l i = Some a /\ nth_error l' i = Some b /\ v = f a b.
Proof.
  intros f l l' i v H; unfold zip in H; rewrite nth_error_map in H.
  destruct (nth_error (combine l l') i) as [[a b]|] eqn:E; cbn in H; [|discriminate].
  injection H as <-; apply nth_combine in E; exists a, b; tauto.
Qed.

Lemma length_zip : forall f l l', length (zip f l l') = Nat.min (length l) (length l').
Proof. intros f l l'; unfold zip; rewrite map_length, combine_length; reflexivity. Qed.

Lemma nth_repeat : forall (a : R) n i v, nth_error (repeat a n) i = Some v -> v = a.
Proof.
  intros a n; induction n as [|n IH]; intros i v H; destruct i; cbn in H; try discriminate.
  - injection H as <-; reflexivity.
  - apply IH in H; exact H.
Qed.

(** ** Elementary signals *)

Section Generator.
Variable rnd : R -> R.
Variable draw : nat -> R.
Hypothesis DRAW : uniform_stream draw.

Lemma uniform_block : forall b n s, (0 <= n)%Z ->
  exists l s', uniform draw (- b) b n s = Ok (l, s') /\ block n (fun _ v => Rabs v <= Rabs b) l.
Proof.
  intros b n s N; unfold uniform.
  destruct (n <? 0)%Z eqn:E; [apply Z.ltb_lt in E; lia|].
  eexists; eexists; split; [reflexivity|split].
  - rewrite map_length, seq_length; lia.
  - intros i v H; rewrite nth_error_map in H.
    destruct (nth_error (seq 0 (Z.to_nat n)) i) as [j|]; cbn in H; [|discriminate].
    injection H as <-.
    generalize (DRAW (s + j)%nat); generalize (draw (s + j)%nat); intros d [D1 D2].
    replace (- b + (b - - b) * d) with (b * (2 * d - 1)) by ring.
    rewrite Rabs_mult; rewrite <- (Rmult_1_r (Rabs b)) at 2.
    apply Rmult_le_compat_l; [apply Rabs_pos|apply Rabs_le; lra].
Qed.

Lemma full_ok : forall n a, (0 <= n)%Z -> full n a = Ok (repeat a (Z.to_nat n)).
Proof. intros n a N; unfold full; destruct (n <? 0)%Z eqn:E; [apply Z.ltb_lt in E; lia|reflexivity]. Qed.

Lemma repeat_block : forall n a (P : R -> R -> Prop), (0 <= n)%Z -> (forall i, P i a) -> block n P (repeat a (Z.to_nat n)).
Proof.
  intros n a P N H; split; [rewrite repeat_length; lia|].
  intros i v E; apply nth_repeat in E; subst; apply H.
Qed.

Lemma background_block : forall p n s, (0 <= n)%Z ->
  exists l s', background_noise draw p n s = Ok (l, s') /\
               block n (fun _ v => near (k_bkgrd_noise (kw p)) 0 v) l.
Proof.
  intros p n s N; unfold background_noise, near.
  destruct (k_bkgrd_noise (kw p)) as [b|].
  - destruct (uniform_block b n s N) as (l & s' & E & L & B).
    exists l, s'; split; [exact E|split; [exact L|]].
    intros i v H; rewrite Rminus_0_r; exact (B i v H).
  - rewrite full_ok by exact N; cbn; eexists; eexists; split; [reflexivity|].
    apply repeat_block; auto.
Qed.

(** The keywords for which a carrier is made. *)
Definition carrier_ok (k : keywords) (n : Z) : Prop :=
  k_which k = "sweep" -> k_fs k <> 0 /\ k_f1 k <> None /\ n <> 1%Z.

Lemma Sig_block : forall p s, In (k_which (kw p)) names -> (0 <= non p)%Z -> carrier_ok (kw p) (non p) ->
  exists l s', Sig draw p s = Ok (l, s') /\
    block (non p) (fun i v => carrier (k_which (kw p)) (k_A (kw p)) (k_A1 (kw p)) (k_f0 (kw p))
                    (k_f1 (kw p)) (k_phi (kw p)) (IZR (non p - 1) / k_fs (kw p)) (i / k_fs (kw p)) v) l.
Proof.
  intros p s IN N C; unfold Sig, carrier.
  set (k := kw p) in *; set (n := non p) in *.
  destruct (String.eqb_spec (k_which k) "zero") as [E|N2].
  { rewrite full_ok by exact N; cbn; eexists; eexists; split; [reflexivity|].
    apply repeat_block; auto. }
  destruct (String.eqb_spec (k_which k) "const") as [E|N3].
  { rewrite full_ok by exact N; cbn; eexists; eexists; split; [reflexivity|].
    apply repeat_block; [exact N|]; intros; right; left; auto. }
  destruct (String.eqb_spec (k_which k) "sin") as [E|N4].
  { eexists; eexists; split; [reflexivity|]; unfold waves_; split.
    - destruct (k_f1 k); rewrite ?length_zip, ?map_length, ?length_arange; lia.
    - intros i v H; right; right; left; split; [exact E|].
      destruct (k_f1 k) as [f|].
      + apply nth_zip in H; destruct H as (a & b & H1 & H2 & ->).
        apply nth_map in H1; destruct H1 as (u & H1 & ->).
        apply nth_map in H2; destruct H2 as (u' & H2 & ->).
        apply nth_arange in H1, H2; destruct H1 as [-> _], H2 as [-> _].
        unfold Rdiv; rewrite !Rmult_assoc; reflexivity.
      + apply nth_map in H; destruct H as (u & H & ->).
        apply nth_arange in H; destruct H as [-> _].
        unfold Rdiv; rewrite !Rmult_assoc, Rplus_0_r; reflexivity. }
  destruct (String.eqb_spec (k_which k) "cos") as [E|N5].
  { eexists; eexists; split; [reflexivity|]; unfold waves_; split.
    - rewrite map_length, length_arange; lia.
    - intros i v H; right; right; right; left; split; [exact E|].
      apply nth_map in H; destruct H as (u & H & ->).
      apply nth_arange in H; destruct H as [-> _].
      unfold Rdiv; rewrite !Rmult_assoc; reflexivity. }
  destruct (String.eqb_spec (k_which k) "noise") as [E|N6].
  { destruct (uniform_block (k_A k) n s N) as (l & s' & E' & L & B).
    exists l, s'; split; [exact E'|split; [exact L|]].
    intros i v H; right; right; right; right; left; split; [exact E|exact (B i v H)]. }
  destruct (String.eqb_spec (k_which k) "step") as [E|N7].
  { rewrite full_ok by exact N; cbn; eexists; eexists; split; [reflexivity|].
    apply repeat_block; [exact N|]; intros; right; left; auto. }
  destruct (String.eqb_spec (k_which k) "sweep") as [E|NE].
  { destruct (C E) as (F & F1 & N1); unfold sweep_cosine.
    destruct (Req_EM_T (k_fs k) 0) as [Z|_]; [contradiction|].
    destruct (n <? 0)%Z eqn:Z; [apply Z.ltb_lt in Z; lia|].
    destruct (k_f1 k) as [f|]; [|congruence].
    assert (D : IZR (n - 1) <> 0) by (apply not_0_IZR; lia).
    destruct (Req_EM_T (IZR (n - 1) / k_fs k) 0) as [T0|T0].
    { exfalso; unfold Rdiv in T0; apply Rmult_integral in T0; destruct T0 as [T0|T0];
        [auto|exact (Rinv_neq_0_compat _ F T0)]. }
    cbn [rbind]; eexists; eexists; split; [reflexivity|]; unfold linspace.
    destruct (n =? 1)%Z eqn:Z1; [apply Z.eqb_eq in Z1; lia|]; split.
    - rewrite !map_length, length_arange; lia.
    - intros i v H; right; right; right; right; right; split; [exact E|].
      exists f; split; [reflexivity|].
      apply nth_map in H; destruct H as (t & H & ->).
      apply nth_map in H; destruct H as (u & H & ->).
      apply nth_arange in H; destruct H as [-> _].
      unfold chirp; do 2 f_equal; field; auto. }
  exfalso; cbn [names In] in IN; intuition congruence.
Qed.

Lemma nth_exists : forall (l : list R) i, (i < length l)%nat -> exists v, nth_error l i = Some v.
Proof.
  intros l i H; destruct (nth_error l i) as [v|] eqn:E; [exists v; reflexivity|].
  apply nth_error_None in E; lia.
Qed.

Lemma env_block : forall p i n, i = arange n -> (n <= non p)%Z ->
  length (env p i) = length i /\
  forall j v, nth_error (env p i) j = Some v ->
    v = attack (na p) (INR j) * decay (nd p) (non p) (INR j).
Proof.
  intros p i n -> N; unfold env, attack, decay, clamp01; split.
  - rewrite length_zip; destruct (0 <? nd p)%Z, (0 <? na p)%Z; rewrite ?map_length; lia.
  - intros j v H; apply nth_zip in H; destruct H as (a & b & H1 & H2 & ->).
    rewrite Rmult_comm; f_equal.
    + destruct (0 <? na p)%Z eqn:E.
      * apply nth_map in H2; destruct H2 as (u & H2 & ->).
        apply nth_map in H2; destruct H2 as (u' & H2 & ->).
        apply nth_arange in H2; destruct H2 as [-> _].
        apply Z.ltb_lt, IZR_lt in E.
        rewrite Rmax_left; [apply Rmin_comm|].
        apply Rmult_le_pos; [apply pos_INR|left; apply Rinv_0_lt_compat; exact E].
      * apply nth_map in H2; destruct H2 as (u & _ & ->); reflexivity.
    + destruct (0 <? nd p)%Z eqn:E.
      * apply nth_map in H1; destruct H1 as (u & H1 & ->).
        apply nth_map in H1; destruct H1 as (u' & H1 & ->).
        apply nth_arange in H1; destruct H1 as [-> L].
        apply Z.ltb_lt, IZR_lt in E.
        rewrite Rmax_left; [apply Rmin_comm|].
        apply Rmult_le_pos; [|left; apply Rinv_0_lt_compat; exact E].
        rewrite INR_IZR_INZ; assert (IZR (Z.of_nat j) <= IZR (non p)) by (apply IZR_le; lia); lra.
      * apply nth_map in H1; destruct H1 as (u & _ & ->); reflexivity.
Qed.

(** The value of a sample of the first part of cycle [c]. *)
Definition on_sample (p : parameters) (c : nat) (i v : R) : Prop :=
  exists w, carrier (k_which (kw p)) (k_A (kw p)) (k_A1 (kw p)) (k_f0 (kw p))
              (k_f1 (kw p)) (k_phi (kw p)) (IZR (non p - 1) / k_fs (kw p)) (i / k_fs (kw p)) w /\
    near (k_bkgrd_noise (kw p))
      (rising (k_ramp_on (kw p)) (k_ncycles (kw p) * nsig p) (i + INR c * IZR (nsig p))
       * (attack (na p) i * decay (nd p) (non p) i) * w + k_offset (kw p)) v.

Lemma near_shift : forall b a v o, near b 0 v -> near b (a + o) (a + v + o).
Proof.
  intros [b|] a v o H; unfold near in *; [|rewrite H; ring].
  replace (a + v + o - (a + o)) with (v - 0) by ring; exact H.
Qed.

Lemma cycle_block : forall p c s, In (k_which (kw p)) names -> (0 <= non p)%Z -> (0 <= noff p)%Z ->
  carrier_ok (kw p) (non p) -> (k_ramp_on (kw p) = true -> (k_ncycles (kw p) * nsig p <> 1)%Z) ->
  exists d e s', cycle draw p c s = Ok (d, e, s') /\
    block (non p) (on_sample p c) d /\
    block (noff p) (fun _ v => near (k_bkgrd_noise (kw p)) (k_offset (kw p)) v) e.
Proof.
  intros p c s IN N NO C RAMP; unfold cycle.
  destruct (Sig_block p s IN N C) as (l & s1 & -> & LL & BL); cbn [rbind].
  rewrite LL; set (i := arange (non p)).
  assert (LI : length i = Z.to_nat (non p)) by apply length_arange.
  assert (R : exists r, ramp p (map (fun v => v + INR c * IZR (nsig p)) i) = Ok r /\
              length r = length i /\ forall j v, nth_error r j = Some v ->
              v = rising (k_ramp_on (kw p)) (k_ncycles (kw p) * nsig p) (INR j + INR c * IZR (nsig p))).
  { unfold ramp, rising; destruct (k_ramp_on (kw p)).
    - specialize (RAMP eq_refl).
      destruct (k_ncycles (kw p) * nsig p - 1 =? 0)%Z eqn:E; [apply Z.eqb_eq in E; lia|]; cbn [andb].
      eexists; split; [reflexivity|]; rewrite !map_length; split; [reflexivity|].
      intros j v H; apply nth_map in H; destruct H as (a & H & ->).
      apply nth_map in H; destruct H as (a' & H & ->).
      apply nth_arange in H; destruct H as [-> _]; reflexivity.
    - eexists; split; [reflexivity|]; rewrite !map_length; split; [reflexivity|].
      intros j v H; apply nth_map in H; destruct H as (a & _ & ->); reflexivity. }
  destruct R as (r & -> & LR & BR); cbn [rbind].
  destruct (background_block p (non p) s1 N) as (bg & s2 & -> & LB & BB); cbn [rbind].
  destruct (background_block p (noff p) s2 NO) as (e & s3 & -> & LE & BE); cbn [rbind].
  destruct (env_block p i (non p) eq_refl) as [LV BV]; [lia|].
  set (d := zip Rplus (zip Rmult (zip Rmult r (env p i)) l) bg).
  assert (LD : Z.of_nat (length d) = non p).
  { unfold d; rewrite !length_zip, LV, LR, LI; lia. }
  assert (BD : forall j v, nth_error d j = Some v -> on_sample p c (INR j) (v + k_offset (kw p))).
  { intros j v H; unfold d in H; apply nth_zip in H; destruct H as (a & b & H1 & H2 & ->).
    apply nth_zip in H1; destruct H1 as (re & w & H1 & H3 & ->).
    apply nth_zip in H1; destruct H1 as (r0 & e0 & H1 & H4 & ->).
    exists w; split; [exact (BL j w H3)|].
    rewrite (BR j r0 H1), (BV j e0 H4); apply near_shift; exact (BB j b H2). }
  destruct (Req_EM_T (k_offset (kw p)) 0) as [Z|NZ].
  - exists d, e, s3; split; [reflexivity|split; [split; [exact LD|]|split; [exact LE|]]].
    + intros j v H; generalize (BD j v H); rewrite Z, Rplus_0_r; auto.
    + intros j v H; rewrite Z; exact (BE j v H).
  - do 3 eexists; split; [reflexivity|]; split; split; rewrite ?map_length; auto.
    + intros j v H; apply nth_map in H; destruct H as (a & H & ->); exact (BD j a H).
    + intros j v H; apply nth_map in H; destruct H as (a & H & ->).
      generalize (near_shift _ 0 a (k_offset (kw p)) (BE j a H)); rewrite !Rplus_0_l; auto.
Qed.

Lemma cycles_block : forall p m c s vars, In (k_which (kw p)) names -> (0 <= non p)%Z -> (0 <= noff p)%Z ->
  carrier_ok (kw p) (non p) -> (k_ramp_on (kw p) = true -> (k_ncycles (kw p) * nsig p <> 1)%Z) ->
  exists d e s', cycles draw p (seq c (S m)) s vars = Ok (Some (d, e), s') /\
    block (non p) (on_sample p (c + m)) d /\
    block (noff p) (fun _ v => near (k_bkgrd_noise (kw p)) (k_offset (kw p)) v) e.
Proof.
  intros p m; induction m as [|m IH]; intros c s vars IN N NO C RAMP.
  - cbn [seq cycles]; destruct (cycle_block p c s IN N NO C RAMP) as (d & e & s' & -> & B1 & B2).
    exists d, e, s'; rewrite Nat.add_0_r; auto.
  - change (seq c (S (S m))) with (c :: seq (S c) (S m)); cbn [cycles].
    destruct (cycle_block p c s IN N NO C RAMP) as (d & e & s' & -> & _ & _); cbn [rbind].
    destruct (IH (S c) s' (Some (d, e)) IN N NO C RAMP) as (d' & e' & s'' & E & B1 & B2).
    exists d', e', s''; replace (c + S m)%nat with (S c + m)%nat by lia; auto.
Qed.

(** ** The generator *)

Lemma names_in : forall w, existsb (String.eqb w) names = true <-> In w names.
Proof.
  intros w; rewrite existsb_exists; split.
  - intros (x & H & E); apply String.eqb_eq in E; subst; exact H.
  - intros H; exists w; split; [exact H|apply String.eqb_refl].
Qed.

Hypothesis RND : rounds trunc rnd.

Lemma samples_pos : forall x, 0 <= x -> (0 <= trunc (rnd x))%Z.
Proof.
  intros x H; destruct RND as (M & Z & _).
  destruct (trunc_pos (rnd x)) as [_ T]; [|exact T].
  rewrite <- Z; apply M; exact H.
Qed.

Lemma samples_le : forall x n, (exists y, n = trunc (rnd y)) -> (0 <= n)%Z -> 0 <= x <= 1 ->
  (0 <= trunc (rnd (IZR n * x)) <= n)%Z.
Proof.
  intros x n [y Y] N [X0 X1]; pose proof RND as (M & Z & I).
  assert (P : 0 <= IZR n * x) by (apply Rmult_le_pos; [apply IZR_le in N; exact N|exact X0]).
  split; [apply samples_pos; exact P|].
  assert (L : rnd (IZR n * x) <= IZR n).
  { assert (RN : rnd (IZR n) = IZR n) by (rewrite Y; apply I).
    rewrite <- RN at 2; apply M.
    rewrite <- (Rmult_1_r (IZR n)) at 2; apply Rmult_le_compat_l; [apply IZR_le in N; exact N|exact X1]. }
  destruct (trunc_pos (rnd (IZR n * x))) as [[T _] _].
  { rewrite <- Z; apply M; exact P. }
  apply le_IZR; lra.
Qed.

Lemma samples : forall k s,
  In (k_which k) names -> 0 <= k_tsig k * k_fs k -> 0 <= k_tdeb k * k_fs k -> 0 <= k_tend k * k_fs k ->
  0 <= k_cycle_ratio k <= 1 -> (1 <= k_ncycles k)%Z ->
  let nsig := trunc (rnd (k_tsig k * k_fs k)) in
  let non := trunc (rnd (IZR nsig * k_cycle_ratio k)) in
  (k_ramp_on k = true -> k_ncycles k * nsig <> 1)%Z ->
  (k_which k = "sweep" -> k_fs k <> 0 /\ k_f1 k <> None /\ non <> 1%Z) ->
  exists p deb on off end_, build_parameters rnd k = Ok p /\
    signalgenerator rnd draw k s = Ok (deb ++ on ++ off ++ end_) /\
    block (trunc (rnd (k_tdeb k * k_fs k))) (fun _ v => near (k_bkgrd_noise k) 0 v) deb /\
    block non (on_sample p (Z.to_nat (k_ncycles k - 1))) on /\
    block (nsig - non) (fun _ v => near (k_bkgrd_noise k) (k_offset k) v) off /\
    block (trunc (rnd (k_tend k * k_fs k))) (fun _ v => near (k_bkgrd_noise k) 0 v) end_.
Proof.
  intros k s IN T0 T1 T2 CR NC nsig_ non_ RAMP SW.
  pose proof IN as IN'; apply names_in in IN'.
  assert (N0 : (0 <= nsig_)%Z) by (apply samples_pos; exact T0).
  assert (N1 : (0 <= non_ <= nsig_)%Z) by (apply samples_le; [eexists; reflexivity|exact N0|exact CR]).
  unfold signalgenerator, build_parameters; rewrite IN'; cbn [negb rbind].
  fold nsig_; fold non_.
  match goal with |- context [mkParameters ?a ?b ?c ?d ?e ?f ?g ?h] =>
    set (p := mkParameters a b c d e f g h) end.
  destruct (background_block p (ndeb p) s) as (deb & s1 & E1 & L1 & B1);
    [apply samples_pos; exact T1|].
  assert (SEQ : seq 0 (Z.to_nat (k_ncycles k)) = seq 0 (S (Z.to_nat (k_ncycles k - 1)))).
  { f_equal; lia. }
  destruct (cycles_block p (Z.to_nat (k_ncycles k - 1)) 0 s1 None IN) as (d & e & s2 & E2 & B2 & B3);
    [cbn; lia|cbn; lia|exact SW|exact RAMP|].
  destruct (background_block p (nend p) s2) as (en & s3 & E3 & L3 & B4);
    [apply samples_pos; exact T2|].
  rewrite SEQ, E1; cbn [rbind]; rewrite E2; cbn [rbind]; rewrite E3; cbn [rbind].
  exists p, deb, d, e, en; split; [reflexivity|]; split; [reflexivity|].
  split; [split; [exact L1|exact B1]|]; split; [exact B2|]; split; [exact B3|split; [exact L3|exact B4]].
Qed.
End Generator.
