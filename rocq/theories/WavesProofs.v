(** Wave files: proofs. *)
From Coq Require Import List ZArith Bool Reals Lia Lra.
From Verif Require Import Py Waves Spec_Waves.
Import ListNotations.
Local Open Scope list_scope.
Local Open Scope R_scope.

(** ** Frames *)

Lemma pack_ok : forall k, (-32768 <= k <= 32767)%Z ->
  exists lo hi, pack_h k = Ok [lo; hi] /\ unpack_h lo hi = k.
Proof.
  intros k K; unfold pack_h.
  replace ((-32768 <=? k) && (k <=? 32767))%Z with true.
  2:{ symmetry; apply andb_true_intro; split; apply Z.leb_le; lia. }
  exists (k mod 256)%Z, ((k / 256) mod 256)%Z; split; [reflexivity|].
  unfold unpack_h.
  pose proof (Z.div_mod k 256).
  pose proof (Z.mod_pos_bound k 256).
  pose proof (Z.div_mod (k / 256) 256).
  pose proof (Z.mod_pos_bound (k / 256) 256).
  set (a := (k mod 256)%Z) in *; set (q := (k / 256)%Z) in *.
  set (b := (q mod 256)%Z) in *; set (c := (q / 256)%Z) in *.
  destruct (a + 256 * b <? 32768)%Z eqn:E;
    [apply Z.ltb_lt in E|apply Z.ltb_ge in E]; lia.
Qed.

Lemma pack_out : forall k, ~ (-32768 <= k <= 32767)%Z ->
  pack_h k = Err GenericException.
Proof.
  intros k K; unfold pack_h.
  replace ((-32768 <=? k) && (k <=? 32767))%Z with false; [reflexivity|].
  symmetry; apply Bool.andb_false_iff.
  destruct (Z_lt_le_dec k (-32768)); [left|right]; apply Z.leb_gt; lia.
Qed.

(** ** Truncation *)

Lemma int_part_spec : forall x, IZR (Int_part x) <= x < IZR (Int_part x) + 1.
Proof.
  intro x; destruct (base_Int_part x); lra.
Qed.

Lemma trunc_pos : forall x, 0 <= x ->
  IZR (trunc x) <= x < IZR (trunc x) + 1 /\ (0 <= trunc x)%Z.
Proof.
  intros x H; unfold trunc; destruct (Rle_dec 0 x); [|contradiction].
  pose proof (int_part_spec x); split; [assumption|].
  assert (IZR (-1) < IZR (Int_part x)) by (cbn; lra).
  apply lt_IZR in H1; lia.
Qed.

Lemma trunc_neg : forall x, x < 0 ->
  IZR (trunc x) - 1 < x <= IZR (trunc x) /\ (trunc x <= 0)%Z.
Proof.
  intros x H; unfold trunc; destruct (Rle_dec 0 x); [lra|].
  pose proof (int_part_spec (- x)); rewrite opp_IZR; split; [lra|].
  assert (IZR (-1) < IZR (Int_part (- x))) by (cbn; lra).
  apply lt_IZR in H1; lia.
Qed.

Lemma trunc_int : forall k, trunc (IZR k) = k.
Proof.
  intro k; destruct (Rle_dec 0 (IZR k)) as [P|P].
  - destruct (trunc_pos (IZR k) P) as [[A B] _].
    apply le_IZR in A; rewrite <- plus_IZR in B; apply lt_IZR in B; lia.
  - destruct (trunc_neg (IZR k) (Rnot_le_lt _ _ P)) as [[A B] _].
    rewrite <- minus_IZR in A; apply lt_IZR in A; apply le_IZR in B; lia.
Qed.

(** ** One sample *)

Section Rnd.
Variable rnd : R -> R.
Variable eps : R.
Hypothesis RND : rounding eps rnd.

(** The integer stored for a number [x] in the range of the integers. *)
Lemma trunc_round : forall x, Rabs x <= 32767 ->
  (-32767 <= trunc (rnd x) <= 32767)%Z /\
  Rabs (IZR (trunc (rnd x)) - x) < 1.
Proof.
  intros x X; destruct RND as (M & I & E).
  assert (X' : -32767 <= x <= 32767)
    by (unfold Rabs in X; destruct (Rcase_abs x); lra).
  clear X; rename X' into X.
  destruct (Rle_dec 0 x) as [P|P].
  - set (m := Int_part x).
    pose proof (int_part_spec x) as S; fold m in S.
    assert (Mlo : (0 <= m)%Z).
    { assert (IZR (-1) < IZR m) by (cbn; lra). apply lt_IZR in H; lia. }
    assert (Mhi : (m <= 32767)%Z) by (apply le_IZR; cbn; lra).
    assert (R1 : IZR m <= rnd x) by (rewrite <- (I m) by lia; apply M; lra).
    assert (R2 : rnd x <= IZR (m + 1)).
    { rewrite <- (I (m + 1)%Z) by lia; apply M; rewrite plus_IZR; cbn; lra. }
    assert (R3 : rnd x <= 32767).
    { rewrite <- (I 32767%Z) by lia; apply M; cbn; lra. }
    assert (P0 : 0 <= rnd x).
    { eapply Rle_trans; [|exact R1]; change 0 with (IZR 0); apply IZR_le; lia. }
    destruct (trunc_pos _ P0) as [[T1 T2] T3].
    set (k := trunc (rnd x)) in *.
    assert (K1 : (m <= k)%Z).
    { assert (IZR m < IZR (k + 1)) by (rewrite plus_IZR; lra).
      apply lt_IZR in H; lia. }
    assert (K2 : (k <= m + 1)%Z) by (apply le_IZR; lra).
    assert (K3 : (k <= 32767)%Z) by (apply le_IZR; cbn; lra).
    split; [lia|].
    assert (C : k = m \/ k = (m + 1)%Z) by lia; destruct C as [C|C];
      rewrite C; [|rewrite plus_IZR].
    + apply Rabs_def1; lra.
    + (* the rounding went up to the next integer *)
      assert (x <> IZR m).
      { intro EQ; rewrite EQ, I in T1 by lia.
        rewrite C, plus_IZR in T1; cbn in T1; lra. }
      apply Rabs_def1; cbn; lra.
  - apply Rnot_le_lt in P.
    set (m := Int_part (- x)).
    pose proof (int_part_spec (- x)) as S; fold m in S.
    assert (Mlo : (0 <= m)%Z).
    { assert (IZR (-1) < IZR m) by (cbn; lra). apply lt_IZR in H; lia. }
    assert (Mhi : (m <= 32767)%Z) by (apply le_IZR; cbn; lra).
    assert (R1 : rnd x <= IZR (- m)).
    { rewrite <- (I (- m)%Z) by lia; apply M; rewrite opp_IZR; lra. }
    assert (R2 : IZR (- m - 1) <= rnd x).
    { rewrite <- (I (- m - 1)%Z) by lia; apply M.
      rewrite minus_IZR, opp_IZR; cbn; lra. }
    assert (R3 : -32767 <= rnd x).
    { change (-32767) with (IZR (-32767)).
      rewrite <- (I (-32767)%Z) by lia; apply M; cbn; lra. }
    rewrite minus_IZR in R2; rewrite opp_IZR in *.
    destruct (Req_dec (rnd x) 0) as [Z0|NZ].
    + rewrite Z0; replace (trunc 0) with 0%Z by (symmetry; exact (trunc_int 0)).
      split; [lia|].
      assert (m = 0)%Z.
      { assert (IZR m <= 0) by lra. apply le_IZR in H; lia. }
      assert (S' : - x < 1) by (rewrite H in S; cbn in S; lra).
      apply Rabs_def1; cbn; lra.
    + assert (N0 : rnd x < 0).
      { assert (rnd x <= rnd 0) by (apply M; lra).
        replace (rnd 0) with 0 in H by (symmetry; exact (I 0%Z ltac:(lia))).
        lra. }
      destruct (trunc_neg _ N0) as [[T1 T2] T3].
      set (k := trunc (rnd x)) in *.
      assert (K1 : (k <= - m)%Z).
      { assert (IZR (k - 1) < IZR (- m))
          by (rewrite minus_IZR, opp_IZR; cbn; lra).
        apply lt_IZR in H; lia. }
      assert (K2 : (- m - 1 <= k)%Z).
      { apply le_IZR; rewrite minus_IZR, opp_IZR; cbn in *; lra. }
      assert (K3 : (-32767 <= k)%Z) by (apply le_IZR; cbn; lra).
      split; [lia|].
      assert (C : k = (- m)%Z \/ k = (- m - 1)%Z) by lia; destruct C as [C|C];
        rewrite C; [rewrite opp_IZR|rewrite minus_IZR, opp_IZR].
      * apply Rabs_def1; lra.
      * assert (x <> - IZR m).
        { intro EQ; rewrite EQ, <- opp_IZR, I in T2 by lia.
          rewrite C, minus_IZR, opp_IZR in T2; cbn in T2; lra. }
        apply Rabs_def1; cbn; lra.
Qed.

Lemma read_close : forall k v, (-32767 <= k <= 32767)%Z ->
  Rabs (IZR k - 32767 * v) < 1 ->
  Rabs (rnd (IZR k / maxvol) - v) < step + eps.
Proof.
  intros k v K C; destruct RND as (M & I & E).
  assert (K' : -32767 <= IZR k <= 32767).
  { split; [change (-32767) with (IZR (-32767))|]; apply IZR_le; lia. }
  assert (B : Rabs (IZR k / maxvol) <= 1).
  { unfold maxvol; apply Rabs_le; split; lra. }
  specialize (E _ B).
  replace (rnd (IZR k / maxvol) - v)
    with ((rnd (IZR k / maxvol) - IZR k / maxvol)
          + (IZR k / maxvol - v)) by ring.
  eapply Rle_lt_trans; [apply Rabs_triang|].
  assert (D : Rabs (IZR k / maxvol - v) < step).
  { unfold maxvol, step; apply Rabs_def2 in C.
    apply Rabs_def1; lra. }
  lra.
Qed.

End Rnd.

(** ** Signals *)

Section Signals.
Variable rnd : R -> R.
Variable eps : R.
Hypothesis RND : rounding eps rnd.

Lemma frames_close : forall sig, Forall (fun v => Rabs v <= 1) sig ->
  (forall k, (-32768 <= k <= 32768)%Z -> rnd (IZR k / 1) = IZR k) ->
  (forall x, Rabs x <= 32767 -> rnd (rnd x / 1) = rnd x) ->
  exists bytes, frames rnd 1 sig = Ok bytes /\
    close (step + eps) sig (wavread rnd bytes).
Proof.
  intros sig F _ ID; induction F as [|v sig V F IH].
  - exists []; split; [reflexivity|constructor].
  - destruct IH as (bytes & E1 & E2).
    assert (X : Rabs (maxvol * v) <= 32767).
    { unfold maxvol; rewrite Rabs_mult, (Rabs_right 32767) by lra.
      lra. }
    destruct (trunc_round rnd eps RND _ X) as [T1 T2].
    cbn [frames]; destruct (Req_EM_T 1 0) as [Z|_]; [lra|].
    rewrite ID by exact X.
    destruct (pack_ok (trunc (rnd (maxvol * v)))) as (lo & hi & P1 & P2);
      [lia|].
    rewrite P1; cbn [rbind]; rewrite E1; cbn [rbind].
    eexists; split; [reflexivity|]; unfold wavread; cbn [app unpack_all map].
    rewrite P2; constructor; [|exact E2].
    apply (read_close rnd eps RND); assumption.
Qed.

Lemma fade_none : forall sig, Forall (fun v => rnd v = v) sig ->
  fade rnd 0 sig = sig.
Proof.
  intros sig F; unfold fade, fades.
  change (2 * 0 <=? length sig)%nat with true; cbn [Nat.mul seq map app].
  rewrite Nat.sub_0_r, app_nil_r.
  induction F as [|v sig V F IH]; [reflexivity|].
  cbn [length repeat combine map fst snd].
  rewrite Rmult_1_r, V, IH; reflexivity.
Qed.

Lemma write_read : forall sig, (forall x, rnd (rnd x) = rnd x) ->
  Forall (fun v => Rabs v <= 1 /\ rnd v = v) sig ->
  exists bytes, wavwrite rnd sig NNone 0 = Ok bytes /\
    close (step + eps) sig (wavread rnd bytes).
Proof.
  intros sig ID F; unfold wavwrite.
  rewrite fade_none by (eapply Forall_impl; [|exact F]; intros v H; apply H).
  cbn [scale_of rbind].
  apply frames_close.
  - eapply Forall_impl; [|exact F]; intros v H; apply H.
  - intros k K; unfold Rdiv; rewrite Rinv_1, Rmult_1_r.
    apply RND; exact K.
  - intros x X; unfold Rdiv; rewrite Rinv_1, Rmult_1_r; apply ID.
Qed.
End Signals.

(** ** Exact arithmetic *)

Definition exact (x : R) : R := x.

Lemma exact_rounding : rounding 0 exact.
Proof.
  split; [|split]; unfold exact; intros; try assumption; try reflexivity.
  replace (x - x) with 0 by ring; rewrite Rabs_R0; lra.
Qed.

Lemma trunc_growth : forall x, Rabs (IZR (trunc x)) <= Rabs x /\
  0 <= x * IZR (trunc x).
Proof.
  intro x; destruct (Rle_dec 0 x) as [P|P].
  - destruct (trunc_pos x P) as [[A B] C].
    apply IZR_le in C; cbn in C.
    rewrite !Rabs_right by lra; split; [lra|apply Rmult_le_pos; lra].
  - apply Rnot_le_lt in P.
    destruct (trunc_neg x P) as [[A B] C].
    apply IZR_le in C; cbn in C.
    rewrite !Rabs_left1 by lra; split; [lra|].
    replace (x * IZR (trunc x)) with (- x * - IZR (trunc x)) by ring.
    apply Rmult_le_pos; lra.
Qed.

Lemma trunc_near : forall x, Rabs (IZR (trunc x) - x) < 1.
Proof.
  intro x; destruct (Rle_dec 0 x) as [P|P].
  - destruct (trunc_pos x P) as [[A B] _]; apply Rabs_def1; lra.
  - destruct (trunc_neg x (Rnot_le_lt _ _ P)) as [[A B] _];
      apply Rabs_def1; lra.
Qed.

Lemma trunc_range : forall x, Rabs x <= 32767 ->
  (-32767 <= trunc x <= 32767)%Z.
Proof.
  intros x X; destruct (trunc_growth x) as [G _].
  assert (B : Rabs (IZR (trunc x)) <= 32767) by lra.
  split; apply le_IZR; cbn;
    [pose proof (Rle_abs (- IZR (trunc x))) as A; rewrite Rabs_Ropp in A
    |pose proof (Rle_abs (IZR (trunc x))) as A]; lra.
Qed.

(** Frames of a signal bounded by the scale. *)
Lemma frames_exact : forall s sig, 0 < s ->
  Forall (fun v => Rabs v <= s) sig ->
  exists bytes, frames exact s sig = Ok bytes /\
    close step (map (fun v => v / s) sig) (wavread exact bytes) /\
    no_growth (map (fun v => v / s) sig) (wavread exact bytes) /\
    wavread exact bytes
    = map (fun v => IZR (trunc (32767 * v / s)) / 32767) sig.
Proof.
  intros s sig S F; induction F as [|v sig V F IH].
  - exists []; split; [reflexivity|]; split; [constructor|].
    split; [constructor|reflexivity].
  - destruct IH as (bytes & E1 & E2 & E3 & E4).
    cbn [frames]; destruct (Req_EM_T s 0) as [Z|_]; [lra|].
    set (x := exact (exact (maxvol * v) / s)).
    assert (XE : x = 32767 * (v / s)).
    { unfold x, exact, maxvol, Rdiv; ring. }
    assert (VS : Rabs (v / s) <= 1).
    { unfold Rdiv; rewrite Rabs_mult, Rabs_inv, (Rabs_right s) by lra.
      apply Rmult_le_reg_r with s; [exact S|].
      rewrite Rmult_assoc, Rinv_l by lra; lra. }
    assert (X : Rabs x <= 32767).
    { rewrite XE, Rabs_mult, (Rabs_right 32767) by lra; lra. }
    pose proof (trunc_range x X) as T.
    destruct (pack_ok (trunc x)) as (lo & hi & P1 & P2); [lia|].
    rewrite P1; cbn [rbind]; rewrite E1; cbn [rbind].
    eexists; split; [reflexivity|].
    unfold wavread, close, no_growth in *; cbn [app unpack_all map].
    rewrite P2; unfold exact at 1 3 5.
    pose proof (trunc_near x) as N; pose proof (trunc_growth x) as [G1 G2].
    split; [|split].
    + constructor; [|exact E2].
      unfold step, maxvol, exact; rewrite XE in *; apply Rabs_def2 in N.
      apply Rabs_def1; lra.
    + constructor; [|exact E3].
      unfold maxvol, exact.
      assert (A1 : Rabs (IZR (trunc x) / 32767)
                   = Rabs (IZR (trunc x)) / 32767).
      { unfold Rdiv; rewrite Rabs_mult, (Rabs_right (/ 32767)) by lra.
        reflexivity. }
      assert (A2 : Rabs x = 32767 * Rabs (v / s)).
      { rewrite XE, Rabs_mult, (Rabs_right 32767) by lra; reflexivity. }
      split; [rewrite A1; lra|].
      assert (A3 : 0 <= 32767 * (v / s) * IZR (trunc x)) by
          (rewrite <- XE; exact G2).
      unfold Rdiv at 2; nra.
    + rewrite E4; reflexivity.
Qed.

Lemma exact_idem : forall sig, Forall (fun v => exact v = v) sig.
Proof. intro sig; apply Forall_forall; reflexivity. Qed.

Lemma write_read_exact : forall sig, Forall (fun v => Rabs v <= 1) sig ->
  exists bytes, wavwrite exact sig NNone 0 = Ok bytes /\
    close step sig (wavread exact bytes) /\
    no_growth sig (wavread exact bytes).
Proof.
  intros sig F; unfold wavwrite; rewrite fade_none by apply exact_idem.
  cbn [scale_of rbind].
  destruct (frames_exact 1 sig ltac:(lra) F) as (b & E1 & E2 & E3 & _).
  replace (map (fun v => v / 1) sig) with sig in E2, E3.
  2:{ symmetry; rewrite <- (map_id sig) at 2; apply map_ext; intro v.
      unfold Rdiv; rewrite Rinv_1; ring. }
  exists b; auto.
Qed.

(** Values that the file can hold come back unchanged. *)
Lemma grid_exact : forall ks, Forall (fun k => -32767 <= k <= 32767)%Z ks ->
  exists bytes, wavwrite exact (map (fun k => IZR k / 32767) ks) NNone 0
                = Ok bytes /\
    wavread exact bytes = map (fun k => IZR k / 32767) ks.
Proof.
  intros ks F; unfold wavwrite; rewrite fade_none by apply exact_idem.
  cbn [scale_of rbind].
  destruct (frames_exact 1 (map (fun k => IZR k / 32767) ks) ltac:(lra))
    as (b & E1 & _ & _ & E4).
  - apply Forall_forall; intros v I; apply in_map_iff in I.
    destruct I as (k & E & I); subst v.
    apply (proj1 (Forall_forall _ _) F) in I.
    assert (-32767 <= IZR k <= 32767).
    { split; [change (-32767) with (IZR (-32767))|]; apply IZR_le; lia. }
    apply Rabs_le; lra.
  - exists b; split; [exact E1|]; rewrite E4, map_map.
    apply map_ext; intro k.
    replace (32767 * (IZR k / 32767) / 1) with (IZR k) by field.
    rewrite trunc_int; reflexivity.
Qed.

(** Exactly which signals are written; the others raise and are not
    clipped. *)
Lemma trunc_in : forall x, -32769 < x < 32768 <->
  (-32768 <= trunc x <= 32767)%Z.
Proof.
  intro x; destruct (Rle_dec 0 x) as [P|P].
  - destruct (trunc_pos x P) as [[A B] C]; split.
    + intros [_ X]; assert (IZR (trunc x) < IZR 32768) by (cbn; lra).
      apply lt_IZR in H; lia.
    + intros [_ X]; apply IZR_le in X; cbn in X; lra.
  - destruct (trunc_neg x (Rnot_le_lt _ _ P)) as [[A B] C]; split.
    + intros [X _]; assert (IZR (-32769) < IZR (trunc x)) by (cbn; lra).
      apply lt_IZR in H; lia.
    + intros [X _]; apply IZR_le in X; cbn in X; lra.
Qed.

Lemma written_iff : forall sig,
  (exists bytes, wavwrite exact sig NNone 0 = Ok bytes) <->
  Forall (fun v => -32769 < 32767 * v < 32768) sig.
Proof.
  intros sig; unfold wavwrite; rewrite fade_none by apply exact_idem.
  cbn [scale_of rbind].
  induction sig as [|w sig IH].
  - split; [constructor|intros _; eexists; reflexivity].
  - cbn [frames]; destruct (Req_EM_T 1 0) as [Z|_]; [lra|].
    replace (exact (exact (maxvol * w) / 1)) with (32767 * w)
      by (unfold exact, maxvol; field).
    split.
    + intros [bytes E].
      destruct (pack_h (trunc (32767 * w))) as [b|e] eqn:EP;
        cbn [rbind] in E; [|discriminate].
      destruct (frames exact 1 sig) as [bs|e] eqn:EF;
        cbn [rbind] in E; [|discriminate].
      constructor; [|apply IH; eexists; reflexivity].
      apply trunc_in.
      destruct (Z_le_dec (-32768) (trunc (32767 * w)));
        destruct (Z_le_dec (trunc (32767 * w)) 32767); try lia;
        rewrite pack_out in EP by lia; discriminate.
    + intro F; inversion F as [|? ? W F']; subst.
      apply trunc_in in W.
      destruct (pack_ok _ W) as (lo & hi & P1 & _); rewrite P1; cbn [rbind].
      destruct (proj2 IH F') as [bs E]; rewrite E; cbn [rbind].
      eexists; reflexivity.
Qed.

(** ** Normalisation *)

Lemma max_abs_bound : forall sig, Forall (fun v => Rabs v <= max_abs sig) sig.
Proof.
  induction sig as [|v sig IH]; constructor; cbn [max_abs].
  - apply Rmax_l.
  - eapply Forall_impl; [|exact IH]; intros x X.
    eapply Rle_trans; [exact X|apply Rmax_r].
Qed.

Lemma max_abs_pos : forall sig, 0 <= max_abs sig.
Proof.
  induction sig as [|v sig IH]; cbn; [lra|].
  eapply Rle_trans; [exact IH|apply Rmax_r].
Qed.

Lemma max_abs_reached : forall sig, 0 < max_abs sig ->
  exists v, In v sig /\ Rabs v = max_abs sig.
Proof.
  induction sig as [|v sig IH]; cbn; intro P; [lra|].
  unfold Rmax in *; destruct (Rle_dec (Rabs v) (max_abs sig)).
  - destruct (IH P) as (w & I & E); exists w; split; [right; exact I|exact E].
  - exists v; split; [left; reflexivity|reflexivity].
Qed.

Lemma normalised : forall sig, (exists v, In v sig /\ v <> 0) ->
  exists s bytes, 0 < s /\
    (forall v, In v sig -> Rabs v <= s) /\ (exists v, In v sig /\ Rabs v = s) /\
    wavwrite exact sig NTrue 0 = Ok bytes /\
    close step (map (fun v => v / s) sig) (wavread exact bytes) /\
    (exists v', In v' (wavread exact bytes) /\ Rabs v' = 1).
Proof.
  intros sig (v0 & I0 & N0).
  pose proof (max_abs_bound sig) as MB.
  assert (MP : 0 < max_abs sig).
  { eapply Rlt_le_trans; [apply Rabs_pos_lt; exact N0|].
    apply (proj1 (Forall_forall _ _) MB v0 I0). }
  exists (max_abs sig).
  destruct (frames_exact (max_abs sig) sig MP MB) as (b & E1 & E2 & _ & E4).
  exists b; split; [exact MP|]; split; [apply Forall_forall; exact MB|].
  destruct (max_abs_reached sig MP) as (m & Im & Em).
  split; [exists m; split; assumption|].
  split; [|split; [exact E2|]].
  - unfold wavwrite; rewrite fade_none by apply exact_idem.
    unfold scale_of; destruct sig as [|w sig]; [destruct I0|].
    destruct (Req_EM_T (max_abs (w :: sig)) 0) as [Z|_]; [lra|].
    cbn [rbind]; exact E1.
  - rewrite E4.
    exists (IZR (trunc (32767 * m / max_abs sig)) / 32767); split.
    + apply in_map_iff; exists m; split; [reflexivity|exact Im].
    + unfold Rabs in Em; destruct (Rcase_abs m).
      * replace (32767 * m / max_abs sig) with (IZR (-32767))
          by (rewrite <- Em; cbn; field; lra).
        rewrite trunc_int; cbn.
        replace (-32767 / 32767) with (-1) by field.
        rewrite Rabs_left by lra; lra.
      * replace (32767 * m / max_abs sig) with (IZR 32767)
          by (rewrite <- Em; cbn; field; lra).
        rewrite trunc_int; cbn.
        replace (32767 / 32767) with 1 by field.
        apply Rabs_right; lra.
Qed.

(** ** Fades *)

Lemma combine_nth' : forall A B (l : list A) (l' : list B) i a b,
  nth_error l i = Some a -> nth_error l' i = Some b ->
  nth_error (combine l l') i = Some (a, b).
Proof.
  induction l as [|x l IH]; intros [|y l'] [|i] a b E1 E2; cbn in *;
    try discriminate.
  - congruence.
  - apply IH; assumption.
Qed.

Lemma map_seq_nth : forall B (f : nat -> B) n i, (i < n)%nat ->
  nth_error (map f (seq 0 n)) i = Some (f i).
Proof.
  intros B f n i L; rewrite nth_error_map.
  rewrite (nth_error_nth' _ 0%nat) by (rewrite seq_length; exact L).
  rewrite seq_nth by exact L; reflexivity.
Qed.

Lemma repeat_nth_error : forall B (b : B) n i, (i < n)%nat ->
  nth_error (repeat b n) i = Some b.
Proof.
  induction n as [|n IH]; intros [|i] L; try lia; [reflexivity|].
  cbn; apply IH; lia.
Qed.

Lemma fades_nth : forall nf n i, (2 * nf <= n)%nat -> (i < n)%nat ->
  nth_error (fades exact nf n) i = Some (gain nf n i).
Proof.
  intros nf n i L I; unfold fades, gain, exact.
  destruct (i <? nf)%nat eqn:E1.
  - apply Nat.ltb_lt in E1.
    rewrite nth_error_app1 by (rewrite map_length, seq_length; exact E1).
    apply (map_seq_nth R (fun n => INR n / INR nf) nf i E1).
  - apply Nat.ltb_ge in E1.
    rewrite nth_error_app2 by (rewrite map_length, seq_length; exact E1).
    rewrite map_length, seq_length.
    destruct (i <? n - nf)%nat eqn:E2.
    + apply Nat.ltb_lt in E2.
      rewrite nth_error_app1 by (rewrite repeat_length; lia).
      apply repeat_nth_error; lia.
    + apply Nat.ltb_ge in E2.
      rewrite nth_error_app2 by (rewrite repeat_length; lia).
      rewrite repeat_length.
      rewrite (map_seq_nth R (fun n => (INR nf - 1 - INR n) / INR nf)) by lia.
      do 2 f_equal.
      change 1 with (INR 1); rewrite <- !minus_INR by lia.
      f_equal; lia.
Qed.

Lemma fades_length : forall nf n, (2 * nf <= n)%nat ->
  length (fades exact nf n) = n.
Proof.
  intros; unfold fades.
  rewrite !app_length, !map_length, repeat_length, !seq_length; lia.
Qed.

Lemma fade_spec : forall nf sig, (2 * nf <= length sig)%nat ->
  length (fade exact nf sig) = length sig /\
  forall i v, nth_error sig i = Some v ->
    nth_error (fade exact nf sig) i = Some (v * gain nf (length sig) i).
Proof.
  intros nf sig L; unfold fade.
  replace (2 * nf <=? length sig)%nat with true
    by (symmetry; apply Nat.leb_le; exact L).
  split.
  - rewrite map_length, combine_length, fades_length by exact L; lia.
  - intros i v E.
    assert (I : (i < length sig)%nat) by (apply nth_error_Some; congruence).
    rewrite nth_error_map.
    rewrite (combine_nth' _ _ sig _ i v (gain nf (length sig) i) E)
      by (apply fades_nth; assumption).
    reflexivity.
Qed.

Lemma gain_range : forall nf n i, (2 * nf <= n)%nat -> (i < n)%nat ->
  0 <= gain nf n i <= 1.
Proof.
  intros nf n i L I; unfold gain.
  assert (G : forall a b, (a <= b)%nat -> (0 < b)%nat ->
                0 <= INR a / INR b <= 1).
  { intros a b AB B.
    assert (0 < INR b) by (apply lt_0_INR; exact B).
    apply le_INR in AB; pose proof (pos_INR a); split.
    - apply Rmult_le_pos; [assumption|].
      left; apply Rinv_0_lt_compat; assumption.
    - apply Rmult_le_reg_r with (INR b); [assumption|].
      unfold Rdiv; rewrite Rmult_assoc, Rinv_l; lra. }
  destruct (i <? nf)%nat eqn:E1.
  - apply Nat.ltb_lt in E1; apply G; lia.
  - apply Nat.ltb_ge in E1; destruct (i <? n - nf)%nat eqn:E2; [lra|].
    apply Nat.ltb_ge in E2; apply G; lia.
Qed.

Lemma faded : forall nf sig, (2 * nf <= length sig)%nat ->
  Forall (fun v => Rabs v <= 1) sig ->
  exists bytes faded, wavwrite exact sig NNone nf = Ok bytes /\
    length faded = length sig /\
    (forall i v, nth_error sig i = Some v ->
       nth_error faded i = Some (v * gain nf (length sig) i)) /\
    close step faded (wavread exact bytes).
Proof.
  intros nf sig L F.
  destruct (fade_spec nf sig L) as [S1 S2].
  assert (FB : Forall (fun v => Rabs v <= 1) (fade exact nf sig)).
  { apply Forall_forall; intros x I.
    apply In_nth_error in I; destruct I as [i E].
    assert (Li : (i < length sig)%nat)
      by (rewrite <- S1; apply nth_error_Some; congruence).
    destruct (nth_error sig i) as [v|] eqn:Ev;
      [|apply nth_error_None in Ev; lia].
    rewrite (S2 i v Ev) in E; inversion E.
    destruct (gain_range nf (length sig) i L Li) as [G1 G2].
    assert (V : Rabs v <= 1).
    { apply (proj1 (Forall_forall _ _) F); eapply nth_error_In; exact Ev. }
    rewrite Rabs_mult, (Rabs_right (gain nf (length sig) i)) by lra.
    pose proof (Rabs_pos v); nra. }
  destruct (frames_exact 1 _ ltac:(lra) FB) as (b & E1 & E2 & _ & _).
  exists b, (fade exact nf sig); split; [exact E1|].
  split; [exact S1|]; split; [exact S2|].
  replace (map (fun v => v / 1) (fade exact nf sig))
    with (fade exact nf sig) in E2; [exact E2|].
  symmetry; rewrite <- (map_id (fade exact nf sig)) at 2; apply map_ext.
  intro v; unfold Rdiv; rewrite Rinv_1; ring.
Qed.
