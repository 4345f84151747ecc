(** Proofs about the lowpass filter. *)
From Coq Require Import List ZArith Reals Lra Lia Arith.
From Verif Require Import Py RSum Filter Spec_Filter.
Import ListNotations.
Local Open Scope R_scope.

Lemma ntaps_odd fc tbw : Nat.odd (ntaps fc tbw) = true.
Proof.
  unfold ntaps. set (n := Z.to_nat _). destruct (Nat.even n) eqn:E; [now rewrite Nat.odd_succ|]. unfold Nat.odd. now rewrite E.
Qed.
Lemma ceil_ge x : x <= IZR (ceil x).
Proof. unfold ceil. rewrite minus_IZR. pose proof (archimed (- x)). lra. Qed.
Lemma ntaps_ge fc tbw : 4 / (tbw * fc) <= INR (ntaps fc tbw).
Proof.
  unfold ntaps. pose proof (ceil_ge (4 / (tbw * fc))) as C. set (z := ceil _) in *.
  assert (Z : IZR z <= INR (Z.to_nat z)).
  { rewrite INR_IZR_INZ. apply IZR_le. lia. }
  destruct (Nat.even (Z.to_nat z)); [rewrite S_INR|]; lra.
Qed.
Lemma ntaps_big fc tbw : 0 < fc <= 1 / 2 -> 0 < tbw <= 1 -> (8 <= ntaps fc tbw)%nat.
Proof.
  intros H1 H2. apply INR_le. eapply Rle_trans; [|apply ntaps_ge]. change (INR 8) with (1+1+1+1+1+1+1+1).
  assert (0 < tbw * fc <= 1 / 2) by (split; nra). apply (Rmult_le_reg_r (tbw * fc)); [lra|].
  unfold Rdiv. rewrite Rmult_assoc, Rinv_l by lra. lra.
Qed.
Lemma taps_length fc tbw : length (taps fc tbw) = ntaps fc tbw.
Proof. unfold taps. now rewrite map_length, seq_length. Qed.
Lemma nth_taps fc tbw n : (n < ntaps fc tbw)%nat ->
  nth n (taps fc tbw) 0 = raw (fc - tbw * fc) (ntaps fc tbw) n / rsum (ntaps fc tbw) (raw (fc - tbw * fc) (ntaps fc tbw)).
Proof.
  intros H. unfold taps. set (N := ntaps fc tbw) in *. set (f := fun n => _ / _).
  rewrite nth_indep with (d' := f 0%nat) by (now rewrite map_length, seq_length).
  rewrite map_nth, seq_nth by exact H. reflexivity.
Qed.
Lemma sinc_even x : sinc (- x) = sinc x.
Proof.
  unfold sinc. destruct (Req_EM_T (- x) 0), (Req_EM_T x 0); try lra.
  rewrite <- Ropp_mult_distr_r, sin_neg. pose proof PI_RGT_0. field. split; lra.
Qed.
Lemma raw_sym fc N n : (2 <= N)%nat -> (n < N)%nat -> raw fc N (N - 1 - n) = raw fc N n.
Proof.
  intros HN H. unfold raw. assert (P : 0 < INR (N - 1)) by (apply lt_0_INR; lia).
  rewrite (minus_INR (N - 1) n) by lia. set (m := INR (N - 1)) in *. set (x := INR n). f_equal.
  - rewrite <- sinc_even. f_equal. field.
  - unfold window. fold m. rewrite (minus_INR (N - 1) n) by lia. fold m x.
    replace (2 * PI * (m - x) / m) with (- (2 * PI * x / m) + 2 * INR 1 * PI) by (cbn; field; lra).
    replace (4 * PI * (m - x) / m) with (- (4 * PI * x / m) + 2 * INR 2 * PI) by (cbn; field; lra).
    rewrite !cos_period, !cos_neg. reflexivity.
Qed.
Lemma taps_sym fc tbw : 0 < fc <= 1 / 2 -> 0 < tbw <= 1 -> symmetric (taps fc tbw).
Proof.
  intros H1 H2 n. rewrite taps_length. intros H. pose proof (ntaps_big fc tbw H1 H2).
  rewrite !nth_taps by lia. rewrite raw_sym by lia. reflexivity.
Qed.
Lemma taps_sum fc tbw : rsum (ntaps fc tbw) (raw (fc - tbw * fc) (ntaps fc tbw)) <> 0 ->
  rsum (length (taps fc tbw)) (fun n => nth n (taps fc tbw) 0) = 1.
Proof.
  intros H. rewrite taps_length. set (N := ntaps fc tbw) in *.
  rewrite (rsum_ext N _ (fun n => raw (fc - tbw * fc) N n * / rsum N (raw (fc - tbw * fc) N))).
  - rewrite rsum_scal_r. now apply Rinv_r.
  - intros n Hn. now rewrite nth_taps.
Qed.

(** ** Symmetric filters *)
Lemma nodup_map (f : nat -> nat) l : (forall x y, In x l -> In y l -> f x = f y -> x = y) -> NoDup l -> NoDup (map f l).
Proof.
  induction l as [|a l IH]; cbn; intros I N; [constructor|]. inversion N as [|? ? N1 N2]; subst. constructor.
  - intros H. apply in_map_iff in H as (y & E & H). apply N1. replace a with y; [exact H|]. apply I; auto.
  - apply IH; auto.
Qed.
Lemma rsum_rev n f : rsum n f = rsum n (fun k => f (n - 1 - k)%nat).
Proof.
  rewrite !rsum_lsum. rewrite <- (map_map (fun k => n - 1 - k)%nat f). apply lsum_perm, Permutation.Permutation_map.
  apply Permutation.NoDup_Permutation; [apply seq_NoDup| |].
  - apply nodup_map; [|apply seq_NoDup]. intros x y Hx Hy E. apply in_seq in Hx, Hy. lia.
  - intros x. rewrite in_map_iff, in_seq. split.
    + intros Hx. exists (n - 1 - x)%nat. rewrite in_seq. lia.
    + intros (y & <- & Hy). apply in_seq in Hy. lia.
Qed.
Lemma first_moment h K : symmetric h -> length h = (2 * K + 1)%nat ->
  rsum (length h) (fun m => nth m h 0 * (INR K - INR m)) = 0.
Proof.
  intros S L. set (t := rsum _ _). assert (E : t = - t); [|lra]. unfold t at 1. rewrite rsum_rev. unfold t. rewrite <- rsum_opp.
  apply rsum_ext. intros m Hm. rewrite <- (S m Hm). rewrite minus_INR, L by lia.
  replace (2 * K + 1 - 1)%nat with (K + K)%nat by lia. rewrite plus_INR. ring.
Qed.
Lemma straight_kept s h i K a b : symmetric h -> length h = (2 * K + 1)%nat ->
  rsum (length h) (fun m => nth m h 0) = 1 -> straight s i K a b -> full s h (i + K) = a * INR i + b.
Proof.
  intros S L One (H1 & H2 & H3). unfold full.
  rewrite (rsum_ext _ _ (fun m => (a * INR i + b) * nth m h 0 + a * (nth m h 0 * (INR K - INR m)))).
  - rewrite rsum_plus, !rsum_scal, One, (first_moment h K S L). ring.
  - intros m Hm. rewrite L in Hm. destruct (Nat.leb_spec m (i + K)); [|lia]. rewrite H3 by lia.
    rewrite minus_INR, plus_INR by lia. ring.
Qed.
Lemma convolve_same_ok s h : s <> [] -> h <> [] -> exists out, convolve_same s h = Ok out /\
  length out = Nat.max (length s) (length h) /\
  forall i, (i < Nat.max (length s) (length h))%nat ->
    nth i out 0 = full s h (i + (Nat.min (length s) (length h) - 1) / 2).
Proof.
  intros Hs Hh. unfold convolve_same. destruct s as [|x s]; [contradiction|]. destruct h as [|y h]; [contradiction|].
  set (f := fun i => full _ _ _). eexists. split; [reflexivity|]. rewrite map_length, seq_length. split; [reflexivity|].
  intros i Hi. rewrite nth_indep with (d' := f 0%nat) by (now rewrite map_length, seq_length).
  now rewrite map_nth, seq_nth by exact Hi.
Qed.
Lemma taps_nonempty fc tbw : taps fc tbw <> [].
Proof.
  intros E. apply (f_equal (@length R)) in E. rewrite taps_length in E. cbn in E. pose proof (ntaps_odd fc tbw) as O. rewrite E in O. discriminate.
Qed.
Lemma lowpass_straight s fc tbw i K a b : 0 < fc <= 1 / 2 -> 0 < tbw <= 1 ->
  rsum (ntaps fc tbw) (raw (fc - tbw * fc) (ntaps fc tbw)) <> 0 ->
  ntaps fc tbw = (2 * K + 1)%nat -> straight s i K a b ->
  exists out, lowpass s fc tbw = Ok out /\ length out = length s /\ nth i out 0 = a * INR i + b.
Proof.
  intros H1 H2 H3 HK St. assert (Ls : (2 * K + 1 <= length s)%nat) by (destruct St as (? & ? & _); lia).
  destruct (convolve_same_ok s (taps fc tbw)) as (out & E & L & V); [intros ->; cbn in Ls; lia|apply taps_nonempty|].
  rewrite taps_length, HK in *. exists out. split; [exact E|]. split; [rewrite L; lia|]. rewrite V by (destruct St as (? & ? & _); lia).
  replace ((Nat.min (length s) (2 * K + 1) - 1) / 2)%nat with K.
  - apply straight_kept; [now apply taps_sym|rewrite taps_length; exact HK|apply taps_sum; rewrite HK; exact H3|exact St].
  - rewrite Nat.min_r by lia. replace (2 * K + 1 - 1)%nat with (K * 2)%nat by lia. now rewrite Nat.div_mul.
Qed.
Lemma lowpass_length s fc tbw : s <> [] -> exists out, lowpass s fc tbw = Ok out /\ length out = Nat.max (length s) (ntaps fc tbw).
Proof.
  intros H. destruct (convolve_same_ok s (taps fc tbw) H (taps_nonempty fc tbw)) as (out & E & L & _).
  exists out. split; [exact E|]. now rewrite L, taps_length.
Qed.
Lemma odd_half fc tbw : exists K, ntaps fc tbw = (2 * K + 1)%nat.
Proof. apply Nat.odd_spec, ntaps_odd. Qed.
(** Linearity in the signal. *)
Lemma full_linear s t h c k : length s = length t ->
  full (map (fun p => c * fst p + snd p) (combine s t)) h k = c * full s h k + full t h k.
Proof.
  intros L. unfold full. rewrite <- rsum_scal, <- rsum_plus. apply rsum_ext. intros m _. destruct (Nat.leb m k); [|ring].
  assert (E : nth (k - m) (map (fun p => c * fst p + snd p) (combine s t)) 0 = c * nth (k - m) s 0 + nth (k - m) t 0); [|rewrite E; ring].
  generalize (k - m)%nat as j. clear k m. revert t L. induction s as [|x s IH]; intros [|y t] L j; try discriminate L.
  - destruct j; cbn; ring.
  - destruct j; cbn; [reflexivity|]. apply IH. now injection L.
Qed.
Lemma lowpass_linear s t fc tbw c so to_ : length s = length t -> lowpass s fc tbw = Ok so -> lowpass t fc tbw = Ok to_ ->
  lowpass (map (fun p => c * fst p + snd p) (combine s t)) fc tbw = Ok (map (fun p => c * fst p + snd p) (combine so to_)).
Proof.
  intros L. unfold lowpass. generalize (taps fc tbw). intros h.
  assert (U : forall s out, convolve_same s h = Ok out -> s <> [] /\ h <> [] /\
    out = map (fun i => full s h (i + (Nat.min (length s) (length h) - 1) / 2)) (seq 0 (Nat.max (length s) (length h)))).
  { intros s0 out. unfold convolve_same. destruct s0; [discriminate|]. destruct h; [discriminate|].
    intros E. injection E as <-. split; [discriminate|]. split; [discriminate|reflexivity]. }
  assert (V : forall s, s <> [] -> h <> [] -> convolve_same s h =
    Ok (map (fun i => full s h (i + (Nat.min (length s) (length h) - 1) / 2)) (seq 0 (Nat.max (length s) (length h))))).
  { intros s0 A B. unfold convolve_same. destruct s0; [contradiction|]. destruct h; [contradiction|]. reflexivity. }
  intros E1 E2. apply U in E1 as (A & B & ->). apply U in E2 as (_ & _ & ->).
  assert (W : length (map (fun p : R * R => c * fst p + snd p) (combine s t)) = length s) by (rewrite map_length, combine_length; lia).
  rewrite V; [|intros X; apply A; apply length_zero_iff_nil; now rewrite <- W, X|exact B].
  rewrite W, <- L. f_equal. generalize (seq 0 (Nat.max (length s) (length h))). intros l.
  induction l as [|i l IH]; [reflexivity|]. cbn [map combine fst snd]. f_equal; [now apply full_linear|exact IH].
Qed.

(** ** A wide transition band: the sum is not zero *)
Lemma sinc_nonneg x : -1 <= x <= 1 -> 0 <= sinc x.
Proof.
  assert (P : forall x, 0 <= x <= 1 -> 0 <= sinc x).
  { intros y H. unfold sinc. destruct (Req_EM_T y 0); [lra|]. pose proof PI_RGT_0.
    apply Rmult_le_pos; [apply sin_ge_0; nra|]. apply Rlt_le, Rinv_0_lt_compat. nra. }
  intros H. destruct (Rle_dec 0 x); [apply P; lra|]. rewrite <- sinc_even. apply P. lra.
Qed.
Lemma window_nonneg N n : 0 <= window N n.
Proof.
  unfold window. set (t := 2 * PI * INR n / INR (N - 1)).
  replace (4 * PI * INR n / INR (N - 1)) with (2 * t) by (unfold t, Rdiv; ring). rewrite cos_2a_cos.
  pose proof (COS_bound t). nra.
Qed.
Lemma wide_band fc K : (1 <= K)%nat -> 0 <= fc -> 2 * fc * INR K <= 1 ->
  0 < rsum (2 * K + 1) (raw fc (2 * K + 1)).
Proof.
  intros HK Hf H. set (N := (2 * K + 1)%nat).
  assert (E : INR (N - 1) = 2 * INR K) by (unfold N; replace (2 * K + 1 - 1)%nat with (2 * K)%nat by lia; rewrite mult_INR; reflexivity).
  assert (PK : 0 < INR K) by (apply lt_0_INR; lia).
  assert (P : forall n, (n < N)%nat -> 0 <= raw fc N n).
  { intros n Hn. unfold raw. apply Rmult_le_pos; [|apply window_nonneg]. apply sinc_nonneg. rewrite E.
    assert (B : INR n <= 2 * INR K) by (rewrite <- E; apply le_INR; lia). pose proof (pos_INR n). split; nra. }
  assert (M : raw fc N K = 1).
  { unfold raw, window. rewrite E. replace (2 * fc * (INR K - 2 * INR K / 2)) with 0 by field.
    unfold sinc. destruct (Req_EM_T 0 0); [|lra].
    replace (2 * PI * INR K / (2 * INR K)) with PI by (field; lra).
    replace (4 * PI * INR K / (2 * INR K)) with (2 * PI) by (field; lra). rewrite cos_PI, cos_2PI. lra. }
  unfold N at 1. replace (2 * K + 1)%nat with (K + (1 + K))%nat by lia. rewrite rsum_app, rsum_app.
  assert (A : 0 <= rsum K (raw fc N)) by (apply rsum_nonneg; intros n Hn; apply P; unfold N; lia).
  assert (B : 0 <= rsum K (fun k => raw fc N (K + (1 + k))%nat)) by (apply rsum_nonneg; intros n Hn; apply P; unfold N; lia).
  assert (C : rsum 1 (fun k => raw fc N (K + k)%nat) = 1) by (unfold rsum; rewrite Nat.add_0_r, M; ring).
  rewrite C. lra.
Qed.
Lemma nine_taps : ntaps (1 / 2) (9 / 10) = 9%nat.
Proof.
  unfold ntaps, ceil. replace (- (4 / (9 / 10 * (1 / 2)))) with (- (80 / 9)) by field.
  rewrite <- (tech_up (- (80 / 9)) (-8)) by lra. reflexivity.
Qed.

(** ** The values of the taps *)
Lemma sinc_ideal f t : 0 < f -> sinc (2 * f * t) = ideal f t / (2 * f).
Proof.
  intros H. unfold sinc, ideal. pose proof PI_RGT_0. destruct (Req_EM_T (2 * f * t) 0), (Req_EM_T t 0).
  - field. lra.
  - exfalso. apply Rmult_integral in e. lra.
  - subst t. lra.
  - replace (PI * (2 * f * t)) with (2 * PI * f * t) by ring. field. repeat split; lra.
Qed.
Lemma tap_values fc tbw : 0 < fc -> tbw < 1 -> exists g, forall n, (n < ntaps fc tbw)%nat ->
  nth n (taps fc tbw) 0 = g * ideal (fc * (1 - tbw)) (INR n - INR (ntaps fc tbw - 1) / 2) *
    blackman (INR n / INR (ntaps fc tbw - 1)).
Proof.
  intros H1 H2. exists (/ (2 * (fc * (1 - tbw))) * / rsum (ntaps fc tbw) (raw (fc - tbw * fc) (ntaps fc tbw))).
  intros n Hn. rewrite nth_taps by exact Hn. set (S := rsum _ _). unfold raw.
  replace (fc - tbw * fc) with (fc * (1 - tbw)) by ring. rewrite sinc_ideal by nra.
  assert (W : window (ntaps fc tbw) n = blackman (INR n / INR (ntaps fc tbw - 1))).
  { unfold window, blackman, Rdiv. do 2 f_equal; [do 2 f_equal|f_equal]; ring. }
  rewrite W. unfold Rdiv. ring.
Qed.
