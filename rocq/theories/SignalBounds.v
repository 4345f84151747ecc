(** Length and bounds of generated signals, and what the documentation gets
    wrong. *)
From Coq Require Import String List ZArith Reals Bool Lia Lra.
From Verif Require Import Py Waves WavesProofs Signal Spec_Signal SignalProofs.
Import ListNotations.
Local Open Scope string_scope.
Local Open Scope list_scope.
Local Open Scope R_scope.

Lemma carrier_bound : forall which A A1 f0 f1 phi T t v,
  carrier which A A1 f0 f1 phi T t v -> Rabs v <= amplitude which A A1.
Proof.
  intros which A A1 f0 f1 phi T t v H; unfold amplitude.
  assert (S : forall a x, Rabs (a * sin x) <= Rabs a).
  { intros a x; rewrite Rabs_mult; rewrite <- (Rmult_1_r (Rabs a)) at 2.
    apply Rmult_le_compat_l; [apply Rabs_pos|apply Rabs_le; destruct (SIN_bound x); lra]. }
  assert (C : forall a x, Rabs (a * cos x) <= Rabs a).
  { intros a x; rewrite Rabs_mult; rewrite <- (Rmult_1_r (Rabs a)) at 2.
    apply Rmult_le_compat_l; [apply Rabs_pos|apply Rabs_le; destruct (COS_bound x); lra]. }
  destruct H as [[-> ->]|[[[->| ->] ->]|[[-> ->]|[[-> ->]|[[-> H]|[-> (f & _ & ->)]]]]]]; cbn.
  - rewrite Rabs_R0; apply Rabs_pos.
  - lra.
  - lra.
  - eapply Rle_trans; [apply Rabs_triang|]; apply Rplus_le_compat; [apply S|].
    destruct f1; [apply S|rewrite Rabs_R0; apply Rabs_pos].
  - apply C.
  - exact H.
  - apply C.
Qed.

Lemma attack_range : forall na i, 0 <= i -> 0 <= attack na i <= 1.
Proof.
  intros na i I; unfold attack; destruct (0 <? na)%Z eqn:E; [|lra].
  apply Z.ltb_lt, IZR_lt in E; split; [apply Rmin_glb; [lra|]|apply Rmin_l].
  apply Rmult_le_pos; [exact I|left; apply Rinv_0_lt_compat; exact E].
Qed.

Lemma decay_range : forall nd n i, i <= IZR n -> 0 <= decay nd n i <= 1.
Proof.
  intros nd n i I; unfold decay; destruct (0 <? nd)%Z eqn:E; [|lra].
  apply Z.ltb_lt, IZR_lt in E; split; [apply Rmin_glb; [lra|]|apply Rmin_l].
  apply Rmult_le_pos; [lra|left; apply Rinv_0_lt_compat; exact E].
Qed.

Lemma rising_range : forall on total i, (on = true -> total <> 1)%Z -> 0 <= i -> i <= IZR (total - 1) ->
  0 <= rising on total i <= 1.
Proof.
  intros [|] total i T I L; unfold rising; [|lra].
  specialize (T eq_refl).
  assert (P : 0 <= IZR (total - 1)) by lra.
  apply le_IZR in P; assert (P' : (0 < total - 1)%Z) by lia; apply IZR_lt in P'.
  split; [apply Rmult_le_pos; [exact I|left; apply Rinv_0_lt_compat; exact P']|].
  apply Rmult_le_reg_r with (IZR (total - 1)); [exact P'|].
  unfold Rdiv; rewrite Rmult_assoc, Rinv_l, Rmult_1_r, Rmult_1_l by lra; exact L.
Qed.

Lemma near_bound : forall b v0 v, near b v0 v ->
  Rabs v <= Rabs v0 + match b with Some b => Rabs b | None => 0 end.
Proof.
  intros [b|] v0 v H; unfold near in H.
  - replace v with (v0 + (v - v0)) by ring; eapply Rle_trans; [apply Rabs_triang|lra].
  - rewrite H; lra.
Qed.

Section Generator.
Variable rnd : R -> R.
Variable draw : nat -> R.
Hypothesis DRAW : uniform_stream draw.
Hypothesis RND : rounds trunc rnd.

Lemma on_bound : forall p c n i v, on_sample p c i v ->
  0 <= i -> i <= IZR (non p) - 1 -> (non p <= nsig p)%Z -> k_ncycles (kw p) = (Z.of_nat c + 1)%Z ->
  (k_ramp_on (kw p) = true -> k_ncycles (kw p) * nsig p <> 1)%Z -> (0 <= n)%Z -> nsig p = n ->
  Rabs v <= amplitude (k_which (kw p)) (k_A (kw p)) (k_A1 (kw p)) + Rabs (k_offset (kw p)) +
            match k_bkgrd_noise (kw p) with Some b => Rabs b | None => 0 end.
Proof.
  intros p c n i v (w & W & NE) I0 I1 NN NC RAMP N0 EN.
  apply near_bound in NE; eapply Rle_trans; [exact NE|]; apply Rplus_le_compat_r.
  eapply Rle_trans; [apply Rabs_triang|]; apply Rplus_le_compat_r.
  rewrite Rabs_mult; apply carrier_bound in W.
  set (g := rising _ _ _ * _).
  assert (G : 0 <= g <= 1).
  { unfold g.
    destruct (attack_range (na p) i I0) as [A0 A1].
    destruct (decay_range (nd p) (non p) i) as [D0 D1]; [lra|].
    assert (P : 0 <= INR c * IZR (nsig p)).
    { apply Rmult_le_pos; [apply pos_INR|]; rewrite EN; apply IZR_le in N0; exact N0. }
    destruct (rising_range (k_ramp_on (kw p)) (k_ncycles (kw p) * nsig p) (i + INR c * IZR (nsig p)) RAMP)
      as [R0 R1].
    - lra.
    - rewrite NC, minus_IZR, mult_IZR, plus_IZR, <- INR_IZR_INZ.
      apply IZR_le in NN; lra.
    - split.
      + apply Rmult_le_pos; [exact R0|apply Rmult_le_pos; assumption].
      + assert (AD : attack (na p) i * decay (nd p) (non p) i <= 1 * 1)
          by (apply Rmult_le_compat; assumption).
        assert (X : rising (k_ramp_on (kw p)) (k_ncycles (kw p) * nsig p) (i + INR c * IZR (nsig p)) *
                    (attack (na p) i * decay (nd p) (non p) i) <= 1 * (1 * 1)).
        { apply Rmult_le_compat; try assumption; apply Rmult_le_pos; assumption. }
        lra. }
  rewrite (Rabs_pos_eq g) by tauto.
  rewrite <- (Rmult_1_l (amplitude _ _ _)).
  apply Rmult_le_compat; [tauto|apply Rabs_pos|tauto|exact W].
Qed.

Lemma bounded : forall k s,
  In (k_which k) names -> 0 <= k_tsig k * k_fs k -> 0 <= k_tdeb k * k_fs k -> 0 <= k_tend k * k_fs k ->
  0 <= k_cycle_ratio k <= 1 -> (1 <= k_ncycles k)%Z ->
  let nsig := trunc (rnd (k_tsig k * k_fs k)) in
  let non := trunc (rnd (IZR nsig * k_cycle_ratio k)) in
  (k_ramp_on k = true -> k_ncycles k * nsig <> 1)%Z ->
  (k_which k = "sweep" -> k_fs k <> 0 /\ k_f1 k <> None /\ non <> 1%Z) ->
  exists l, signalgenerator rnd draw k s = Ok l /\
    Z.of_nat (length l) = (trunc (rnd (k_tdeb k * k_fs k)%R) + nsig + trunc (rnd (k_tend k * k_fs k)%R))%Z /\
    Forall (fun v => Rabs v <= amplitude (k_which k) (k_A k) (k_A1 k) + Rabs (k_offset k) +
                     match k_bkgrd_noise k with Some b => Rabs b | None => 0 end) l.
Proof.
  intros k s IN T0 T1 T2 CR NC nsig_ non_ RAMP SW.
  destruct (samples rnd draw DRAW RND k s IN T0 T1 T2 CR NC RAMP SW)
    as (p & deb & on & off & en & EP & E & [L1 B1] & [L2 B2] & [L3 B3] & [L4 B4]).
  fold nsig_ in L2, L3; fold non_ in L2, L3.
  unfold build_parameters in EP; rewrite (proj2 (names_in _) IN) in EP; cbn in EP.
  injection EP as <-.
  eexists; split; [exact E|split].
  { rewrite !app_length; lia. }
  assert (N0 : (0 <= nsig_)%Z) by (apply samples_pos; assumption).
  assert (N1 : (0 <= non_ <= nsig_)%Z)
    by (apply samples_le; try assumption; eexists; reflexivity).
  assert (AM : 0 <= amplitude (k_which k) (k_A k) (k_A1 k)).
  { unfold amplitude; pose proof (Rabs_pos (k_A k)); pose proof (Rabs_pos (k_A1 k));
      destruct (String.eqb (k_which k) "sin"); lra. }
  pose proof (Rabs_pos (k_offset k)) as OP.
  rewrite !Forall_app; split; [|split; [|split]]; apply Forall_forall; intros v V;
    apply In_nth_error in V; destruct V as (i & V).
  - apply B1, near_bound in V; rewrite Rabs_R0 in V; eapply Rle_trans; [exact V|].
    apply Rplus_le_compat_r; lra.
  - assert (LI : (i < length on)%nat) by (apply nth_error_Some; congruence).
    pose proof V as V'; apply B2 in V.
    eapply on_bound with (n := nsig_) in V; cbn [kw k_which] in V; [exact V| | | | | | |]; cbn.
    + apply pos_INR.
    + fold nsig_; fold non_; rewrite INR_IZR_INZ, <- minus_IZR; apply IZR_le; lia.
    + fold nsig_; fold non_; lia.
    + lia.
    + exact RAMP.
    + exact N0.
    + reflexivity.
  - apply B3, near_bound in V; eapply Rle_trans; [exact V|].
    apply Rplus_le_compat_r; lra.
  - apply B4, near_bound in V; rewrite Rabs_R0 in V; eapply Rle_trans; [exact V|].
    apply Rplus_le_compat_r; lra.
Qed.

(** Unknown names, and no cycle. *)
Lemma unknown : forall k s, ~ In (k_which k) names ->
  signalgenerator rnd draw k s = Err NotImplementedError.
Proof.
  intros k s H; unfold signalgenerator, build_parameters.
  destruct (existsb (String.eqb (k_which k)) names) eqn:E; [|reflexivity].
  apply names_in in E; contradiction.
Qed.

Lemma no_cycle : forall k s, In (k_which k) names -> 0 <= k_tdeb k * k_fs k -> 0 <= k_tend k * k_fs k ->
  (k_ncycles k <= 0)%Z -> signalgenerator rnd draw k s = Err UnboundLocalError.
Proof.
  intros k s IN T1 T2 NC; unfold signalgenerator, build_parameters.
  rewrite (proj2 (names_in _) IN); cbn [negb rbind].
  match goal with |- context [mkParameters ?a ?b ?c ?d ?e ?f ?g ?h] =>
    set (p := mkParameters a b c d e f g h) end.
  destruct (background_block draw DRAW p (ndeb p) s) as (deb & s1 & E1 & _);
    [apply samples_pos; assumption|].
  rewrite E1; cbn [rbind].
  replace (Z.to_nat (k_ncycles k)) with 0%nat by lia; cbn [seq cycles rbind].
  destruct (background_block draw DRAW p (nend p) s1) as (en & s2 & E2 & _);
    [apply samples_pos; assumption|].
  rewrite E2; reflexivity.
Qed.
End Generator.

(** Exact arithmetic is a rounding. *)
Lemma rounds_id : rounds trunc (fun x => x).
Proof. split; [auto|split; [reflexivity|]]; intros; reflexivity. Qed.

(** One second of a sine of 1 Hz at 4 Hz. *)
Definition sine4 (ncycles : Z) : keywords :=
  mkKeywords "sin" 1 ncycles 0 0 4 1 0 1 (Some 100) 1 0 0 false (Some 0) 0 (-90).

Lemma sine4_value : forall n s, (1 <= n)%Z ->
  signalgenerator (fun x => x) (fun _ => / 2) (sine4 n) s = Ok [0; 1; 0; -1].
Proof.
  intros n s N.
  assert (D : uniform_stream (fun _ => / 2)) by (intros j; lra).
  assert (T4 : trunc (1 * 4) = 4%Z).
  { replace (1 * 4) with (IZR 4) by (cbn; lra); apply trunc_int. }
  assert (T0 : trunc (0 * 4) = 0%Z).
  { replace (0 * 4) with (IZR 0) by (cbn; lra); apply trunc_int. }
  assert (T4' : trunc (4 * 1) = 4%Z).
  { replace (4 * 1) with (IZR 4) by (cbn; lra); apply trunc_int. }
  destruct (samples (fun x => x) (fun _ => / 2) D rounds_id (sine4 n) s)
    as (p & deb & on & off & en & EP & E & [L1 B1] & [L2 B2] & [L3 B3] & [L4 B4]); cbn in *;
    try lra; try lia; try discriminate.
  { tauto. }
  injection EP as <-.
  rewrite ?T0, ?T4 in *; rewrite ?T4' in *.
  destruct deb; [|cbn in L1; lia].
  destruct off; [|cbn in L3; lia].
  destruct en; [|cbn in L4; lia].
  destruct on as [|v0 [|v1 [|v2 [|v3 [|]]]]]; cbn in L2; try lia.
  rewrite E; cbn [app]; f_equal.
  assert (V : forall i v, nth_error [v0; v1; v2; v3] i = Some v ->
                v = sin (PI / 2 * INR i)).
  { intros i v H; apply B2 in H; destruct H as (w & W & NE); cbn in W, NE.
    rewrite ?T0, ?T4, ?T4' in *.
    unfold near in NE; cbn in NE; rewrite Rabs_R0 in NE.
    unfold carrier in W; destruct W as [[W _]|[[[W|W] _]|[[_ W]|[[W _]|[[W _]|[W _]]]]]]; try discriminate.
    assert (Z : trunc (0 * 4) = 0%Z) by exact T0.
    unfold attack, decay in NE; rewrite ?Z in NE; cbn in NE.
    assert (NE' : v - (1 * (1 * 1) * w + 0) = 0).
    { destruct (Req_dec (v - (1 * (1 * 1) * w + 0)) 0) as [X|X]; [exact X|].
      apply Rabs_pos_lt in X; lra. }
    replace v with w by lra; rewrite W, Rmult_0_l, Rplus_0_r, Rmult_1_l; f_equal; field. }
  pose proof (V 0%nat v0 eq_refl) as V0; pose proof (V 1%nat v1 eq_refl) as V1.
  pose proof (V 2%nat v2 eq_refl) as V2; pose proof (V 3%nat v3 eq_refl) as V3.
  cbn in V0, V1, V2, V3.
  rewrite V0, V1, V2, V3.
  rewrite Rmult_0_r, sin_0, Rmult_1_r, sin_PI2.
  replace (PI / 2 * (1 + 1)) with PI by field; rewrite sin_PI.
  replace (PI / 2 * (1 + 1 + 1)) with (3 * (PI / 2)) by ring; rewrite sin_3PI2.
  reflexivity.
Qed.

(** ** As stated *)

Lemma samples_stated : forall (rnd : R -> R) draw k s,
  uniform_stream draw -> rounds trunc rnd ->
  In (k_which k) ["zero"; "const"; "sin"; "cos"; "noise"; "step"; "sweep"] ->
  0 <= k_tsig k * k_fs k -> 0 <= k_tdeb k * k_fs k -> 0 <= k_tend k * k_fs k ->
  0 <= k_cycle_ratio k <= 1 -> (1 <= k_ncycles k)%Z ->
  let nsig := trunc (rnd (k_tsig k * k_fs k)) in
  let non := trunc (rnd (IZR nsig * k_cycle_ratio k)) in
  (k_ramp_on k = true -> k_ncycles k * nsig <> 1)%Z ->
  (k_which k = "sweep" -> k_fs k <> 0 /\ k_f1 k <> None /\ non <> 1%Z) ->
  exists deb on off end_, signalgenerator rnd draw k s = Ok (deb ++ on ++ off ++ end_) /\
    block (trunc (rnd (k_tdeb k * k_fs k))) (fun _ v => near (k_bkgrd_noise k) 0 v) deb /\
    block non (fun i v => exists w,
      carrier (k_which k) (k_A k) (k_A1 k) (k_f0 k) (k_f1 k) (k_phi k)
              (IZR (non - 1) / k_fs k) (i / k_fs k) w /\
      near (k_bkgrd_noise k)
        (rising (k_ramp_on k) (k_ncycles k * nsig) (i + IZR (k_ncycles k - 1) * IZR nsig) *
         (attack (trunc (rnd (k_attack_ratio k * IZR non))) i *
          decay (trunc (rnd (k_decay_ratio k * IZR non))) non i) * w + k_offset k) v) on /\
    block (nsig - non) (fun _ v => near (k_bkgrd_noise k) (k_offset k) v) off /\
    block (trunc (rnd (k_tend k * k_fs k))) (fun _ v => near (k_bkgrd_noise k) 0 v) end_.
Proof.
  intros rnd draw k s DRAW RND IN T0 T1 T2 CR NC nsig_ non_ RAMP SW.
  destruct (samples rnd draw DRAW RND k s IN T0 T1 T2 CR NC RAMP SW)
    as (p & deb & on & off & en & EP & E & B1 & [L2 B2] & B3 & B4).
  unfold build_parameters in EP; rewrite (proj2 (names_in _) IN) in EP; cbn in EP.
  injection EP as <-.
  exists deb, on, off, en; split; [exact E|]; split; [exact B1|]; split; [|split; assumption].
  split; [exact L2|]; intros i v H; apply B2 in H; destruct H as (w & W & NE).
  exists w; split; [exact W|]; cbn in NE.
  rewrite (INR_IZR_INZ (Z.to_nat _)), Z2Nat.id in NE by lia; exact NE.
Qed.

Lemma bounded_stated : forall (rnd : R -> R) draw k s,
  uniform_stream draw -> rounds trunc rnd ->
  In (k_which k) ["zero"; "const"; "sin"; "cos"; "noise"; "step"; "sweep"] ->
  0 <= k_tsig k * k_fs k -> 0 <= k_tdeb k * k_fs k -> 0 <= k_tend k * k_fs k ->
  0 <= k_cycle_ratio k <= 1 -> (1 <= k_ncycles k)%Z ->
  let nsig := trunc (rnd (k_tsig k * k_fs k)) in
  let non := trunc (rnd (IZR nsig * k_cycle_ratio k)) in
  (k_ramp_on k = true -> k_ncycles k * nsig <> 1)%Z ->
  (k_which k = "sweep" -> k_fs k <> 0 /\ k_f1 k <> None /\ non <> 1%Z) ->
  exists l, signalgenerator rnd draw k s = Ok l /\
    Z.of_nat (length l) = (trunc (rnd (k_tdeb k * k_fs k)%R) + nsig + trunc (rnd (k_tend k * k_fs k)%R))%Z /\
    Forall (fun v => Rabs v <= amplitude (k_which k) (k_A k) (k_A1 k) + Rabs (k_offset k) +
                     match k_bkgrd_noise k with Some b => Rabs b | None => 0 end) l.
Proof. intros rnd draw k s D RN; exact (bounded rnd draw D RN k s). Qed.

(** A call that gives a signal of two parts of the expected lengths. *)
Lemma cycle_lengths : forall rnd draw p c s d e s', uniform_stream draw -> rounds trunc rnd ->
  cycle draw p c s = Ok (d, e, s') -> (0 <= non p)%Z ->
  length d = Z.to_nat (non p) /\ length e = Z.to_nat (noff p).
Proof.
  intros rnd draw p c s d e s' DRAW RND H N; unfold cycle in H.
  assert (B : forall n s l s', background_noise draw p n s = Ok (l, s') -> length l = Z.to_nat n).
  { intros n0 s0 l s1 X; unfold background_noise, randomuniform, uniform, full in X.
    destruct (k_bkgrd_noise (kw p)), (n0 <? 0)%Z; cbn in X; try discriminate; injection X as <- _;
      rewrite ?map_length, ?seq_length, ?repeat_length; reflexivity. }
  assert (S : forall s l s', Sig draw p s = Ok (l, s') -> length l = Z.to_nat (non p)).
  { intros s0 l s1 X; unfold Sig in X.
    assert (F : forall a, (do l <- full (non p) a; Ok (l, s0)) = Ok (l, s1) -> length l = Z.to_nat (non p)).
    { intros a Y; unfold full in Y; destruct (non p <? 0)%Z; cbn in Y; [discriminate|].
      injection Y as <- _; apply repeat_length. }
    destruct (String.eqb (k_which (kw p)) "zero"); [exact (F _ X)|].
    destruct (String.eqb (k_which (kw p)) "const"); [exact (F _ X)|].
    destruct (String.eqb (k_which (kw p)) "sin").
    { injection X as <- _; unfold waves_; destruct (k_f1 (kw p));
        rewrite ?length_zip, ?map_length, ?length_arange; lia. }
    destruct (String.eqb (k_which (kw p)) "cos").
    { injection X as <- _; unfold waves_; rewrite map_length, length_arange; reflexivity. }
    destruct (String.eqb (k_which (kw p)) "noise").
    { unfold randomuniform, uniform in X; destruct (non p <? 0)%Z; [discriminate|].
      injection X as <- _; rewrite map_length, seq_length; reflexivity. }
    destruct (String.eqb (k_which (kw p)) "step"); [exact (F _ X)|].
    destruct (String.eqb (k_which (kw p)) "sweep"); [|discriminate].
    unfold sweep_cosine in X; destruct (Req_EM_T (k_fs (kw p)) 0); [discriminate|].
    destruct (non p <? 0)%Z; [discriminate|]; destruct (k_f1 (kw p)); [|discriminate].
    destruct (Req_EM_T (IZR (non p - 1) / k_fs (kw p)) 0); [discriminate|].
    cbn in X; injection X as <- _; unfold linspace; rewrite map_length.
    destruct (non p =? 1)%Z eqn:E; [apply Z.eqb_eq in E; rewrite E; reflexivity|].
    rewrite map_length, length_arange; reflexivity. }
  destruct (Sig draw p s) as [[l s1]|] eqn:E1; [|discriminate]; cbn [rbind] in H.
  apply S in E1.
  destruct (ramp p _) as [r|] eqn:E2; [|discriminate]; cbn [rbind] in H.
  assert (LR : length r = length l).
  { unfold ramp in E2; destruct (k_ramp_on (kw p)).
    - destruct (_ && _)%bool; [discriminate|]; injection E2 as <-; rewrite !map_length, length_arange; lia.
    - injection E2 as <-; rewrite !map_length, length_arange; lia. }
  destruct (background_noise draw p (Z.of_nat (length l)) s1) as [[bg s2]|] eqn:E3; [|discriminate].
  cbn [rbind] in H; apply B in E3.
  destruct (background_noise draw p (noff p) s2) as [[ce s3]|] eqn:E4; [|discriminate].
  cbn [rbind] in H; apply B in E4.
  destruct (env_block p (arange (Z.of_nat (length l))) (Z.of_nat (length l)) eq_refl) as [LV _]; [lia|].
  rewrite length_arange in LV.
  assert (LD : length (zip Rplus (zip Rmult (zip Rmult r (env p (arange (Z.of_nat (length l))))) l) bg)
               = Z.to_nat (non p)).
  { rewrite !length_zip, LV, LR, E3; lia. }
  destruct (Req_EM_T (k_offset (kw p)) 0); injection H as <- <- _; rewrite ?map_length; auto.
Qed.

Lemma cycles_lengths : forall rnd draw p cs s vars d e s', uniform_stream draw -> rounds trunc rnd ->
  (0 <= non p)%Z -> cycles draw p cs s vars = Ok (Some (d, e), s') ->
  vars = Some (d, e) \/ length d = Z.to_nat (non p) /\ length e = Z.to_nat (noff p).
Proof.
  intros rnd draw p cs; induction cs as [|c cs IH]; intros s vars d e s' DRAW RND N H; cbn in H.
  - injection H as -> _; auto.
  - destruct (cycle draw p c s) as [[[d' e'] s1]|] eqn:E; [|discriminate]; cbn [rbind] in H.
    apply (cycle_lengths rnd) in E; [|assumption..].
    destruct (IH _ _ _ _ _ DRAW RND N H) as [X|X]; [|auto].
    injection X as <- <-; auto.
Qed.

Lemma cycles_missing : forall (rnd : R -> R) draw k s l,
  uniform_stream draw -> rounds trunc rnd ->
  0 <= k_tsig k * k_fs k -> 0 <= k_tdeb k * k_fs k -> 0 <= k_tend k * k_fs k ->
  0 <= k_cycle_ratio k <= 1 -> (2 <= k_ncycles k)%Z ->
  let nsig := trunc (rnd (k_tsig k * k_fs k)) in
  (0 < nsig)%Z -> signalgenerator rnd draw k s = Ok l ->
  (Z.of_nat (length l) <
   doc_length (trunc (rnd (k_tdeb k * k_fs k)%R)) (k_ncycles k) nsig (trunc (rnd (k_tend k * k_fs k)%R)))%Z.
Proof.
  intros rnd draw k s l DRAW RND T0 T1 T2 CR NC nsig_ NS H; unfold doc_length.
  unfold signalgenerator, build_parameters in H.
  destruct (negb (existsb (String.eqb (k_which k)) names)); [discriminate|]; cbn [rbind] in H.
  match type of H with context [mkParameters ?a ?b ?c ?d ?e ?f ?g ?h] =>
    set (p := mkParameters a b c d e f g h) in H end.
  assert (N0 : (0 <= nsig_)%Z) by lia.
  assert (N1 : (0 <= non p <= nsig_)%Z)
    by (cbn; fold nsig_; apply samples_le; try assumption; eexists; reflexivity).
  destruct (background_block draw DRAW p (ndeb p) s) as (deb & s1 & E1 & L1 & _);
    [apply samples_pos; assumption|].
  rewrite E1 in H; cbn [rbind] in H.
  destruct (cycles draw p (seq 0 (Z.to_nat (k_ncycles k))) s1 None) as [[vars s2]|] eqn:E2; [|discriminate].
  cbn [rbind] in H.
  destruct (background_block draw DRAW p (nend p) s2) as (en & s3 & E3 & L3 & _);
    [apply samples_pos; assumption|].
  rewrite E3 in H; cbn [rbind] in H.
  destruct vars as [[d e]|]; [|discriminate]; injection H as <-.
  apply (cycles_lengths rnd) in E2; [|assumption|assumption|lia].
  destruct E2 as [E2|[L4 L5]]; [discriminate|].
  assert (NO : noff p = (nsig_ - non p)%Z) by reflexivity.
  rewrite !app_length, !Nat2Z.inj_add, L1, L3, L4, L5, !Z2Nat.id by lia.
  change (ndeb p) with (trunc (rnd (k_tdeb k * k_fs k))).
  change (nend p) with (trunc (rnd (k_tend k * k_fs k))).
  nia.
Qed.

Lemma rejected : forall (rnd : R -> R) draw k s, uniform_stream draw -> rounds trunc rnd ->
  (~ In (k_which k) ["zero"; "const"; "sin"; "cos"; "noise"; "step"; "sweep"] ->
   signalgenerator rnd draw k s = Err NotImplementedError) /\
  (In (k_which k) ["zero"; "const"; "sin"; "cos"; "noise"; "step"; "sweep"] ->
   0 <= k_tdeb k * k_fs k -> 0 <= k_tend k * k_fs k -> (k_ncycles k <= 0)%Z ->
   signalgenerator rnd draw k s = Err UnboundLocalError).
Proof.
  intros rnd draw k s DRAW RND; split; [apply unknown|apply no_cycle; assumption].
Qed.

Lemma peak_to_peak : exists draw k s l v v',
  uniform_stream draw /\ k_A k = 1 /\ k_A1 k = 0 /\ k_bkgrd_noise k = Some 0 /\ k_offset k = 0 /\
  signalgenerator (fun x => x) draw k s = Ok l /\ In v l /\ In v' l /\ v - v' = 2 * k_A k.
Proof.
  exists (fun _ => / 2), (sine4 1), 0%nat, [0; 1; 0; -1], 1, (-1).
  split; [intros j; lra|]; do 4 (split; [reflexivity|]).
  split; [apply sine4_value; lia|].
  cbn; repeat split; auto; lra.
Qed.
