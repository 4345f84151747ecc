(** The cantilever beam: C57. *)
From Coq Require Import List ZArith Reals Lra Lia Sorted.
From Verif Require Import Py Beam Spec_Beam BeamProofs.
Import ListNotations.
Local Open Scope R_scope.

(** The length found is within a step of the grid of one for which the frequency
    is an eigen frequency. *)
Theorem C57_length : forall f0 Kb Mb L k, 0 < f0 -> 0 < Kb -> 0 < Mb -> 0 < k -> dispersion Kb Mb f0 k ->
  beam_length f0 Kb Mb = Ok L ->
  0 <= L /\ exists L', L <= L' <= L + 10 / 9999999 /\ eigen k L'.
Proof.
  intros f0 Kb Mb L k H1 H2 H3 H4 D H. pose proof (wave_number_unique _ _ _ _ H1 H2 H3 H4 D) as E.
  destruct (length_sound f0 Kb Mb L H1 H2 H3 H) as [P (L' & B & X)]. split; [exact P|]. exists L'. split; [exact B|].
  now rewrite E in X.
Qed.
Print Assumptions C57_length.

(** On the grid the characteristic function is positive up to it, so that no lower
    mode is seen. *)
Theorem C57_length_is_the_first : forall f0 Kb Mb L k j, 0 < f0 -> 0 < Kb -> 0 < Mb -> 0 < k -> dispersion Kb Mb f0 k ->
  beam_length f0 Kb Mb = Ok L -> INR j * (10 / 9999999) <= L ->
  0 < cosh (k * (INR j * (10 / 9999999))) * cos (k * (INR j * (10 / 9999999))) + 1.
Proof. intros f0 Kb Mb L k j H1 H2 H3 H4 D. rewrite <- (wave_number_unique _ _ _ _ H1 H2 H3 H4 D). apply length_before. Qed.
Print Assumptions C57_length_is_the_first.

(** There is one when the wave number is neither too small nor too large for the grid. *)
Theorem C57_length_exists : forall f0 Kb Mb k, 0 < f0 -> 0 < Kb -> 0 < Mb -> dispersion Kb Mb f0 k ->
  (PI + 1) / 10 <= k <= 999999 -> exists L, beam_length f0 Kb Mb = Ok L.
Proof.
  intros f0 Kb Mb k H1 H2 H3 D B. pose proof PI_3. apply length_exists; rewrite (wave_number_unique _ _ _ k H1 H2 H3 ltac:(lra) D); lra.
Qed.
Print Assumptions C57_length_exists.

(** A beam that should be longer than the grid raises: there is not a length for
    all frequencies. *)
Theorem C57_long_beams_refuted : forall f0 Kb Mb k, 0 < f0 -> 0 < Kb -> 0 < Mb -> dispersion Kb Mb f0 k ->
  0 < k < PI / 20 -> beam_length f0 Kb Mb = Err IndexError.
Proof.
  intros f0 Kb Mb k H1 H2 H3 D B. apply length_too_long; rewrite (wave_number_unique _ _ _ k H1 H2 H3 ltac:(lra) D); lra.
Qed.
Print Assumptions C57_long_beams_refuted.

(** As many wave numbers are returned as asked for.  Each is within a step of the
    grid of an exact one; they increase. *)
Theorem C57_wave_numbers : forall N Lb Kb Mb, (1 <= N)%nat -> 0 < Lb ->
  length (fst (wave_numbers N Lb Kb Mb)) = N /\
  StronglySorted Rlt (fst (wave_numbers N Lb Kb Mb)) /\
  forall k, In k (fst (wave_numbers N Lb Kb Mb)) ->
  exists k', k <= k' <= k + (INR N * 2 * PI / Lb) / INR (wave_points N - 1) /\ eigen k' Lb.
Proof. intros N Lb Kb Mb H1 H2. split; [now apply waves_count|]. split; [now apply waves_sorted|]. intros k. now apply waves_sound. Qed.
Print Assumptions C57_wave_numbers.

(** The frequencies are those of the wave numbers returned. *)
Theorem C57_frequencies : forall N Lb Kb Mb, 0 < Kb -> 0 < Mb ->
  let '(ks, fs) := wave_numbers N Lb Kb Mb in
  length fs = length ks /\ (length ks <= N)%nat /\
  forall i, (i < length ks)%nat -> dispersion Kb Mb (nth i fs 0) (nth i ks 0).
Proof. exact waves_frequencies. Qed.
Print Assumptions C57_frequencies.

(** Wave number 1: the beam has a length.  Wave number 1/10: it has none. *)
Lemma ex_dispersion a : dispersion 1 1 (a ^ 2 / (2 * PI)) a.
Proof. unfold dispersion. pose proof PI_RGT_0. field. lra. Qed.
Lemma ex_positive a : 0 < a -> 0 < a ^ 2 / (2 * PI).
Proof. intros H. pose proof PI_RGT_0. apply Rdiv_lt_0_compat; [now apply pow_lt|lra]. Qed.
Example C57_length_example : exists L, beam_length (1 ^ 2 / (2 * PI)) 1 1 = Ok L.
Proof. apply (C57_length_exists _ _ _ 1); [apply ex_positive; lra|lra|lra|apply ex_dispersion|pose proof PI_4; lra]. Qed.
Example C57_long_example : beam_length ((1 / 10) ^ 2 / (2 * PI)) 1 1 = Err IndexError.
Proof. apply (C57_long_beams_refuted _ _ _ (1 / 10)); [apply ex_positive; lra|lra|lra|apply ex_dispersion|pose proof PI_3; lra]. Qed.
Example C57_three_modes : length (fst (wave_numbers 3 2 1 1)) = 3%nat.
Proof. apply C57_wave_numbers; [lia|lra]. Qed.
