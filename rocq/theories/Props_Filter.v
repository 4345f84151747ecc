(** The lowpass filter: C56. *)
From Coq Require Import List ZArith Reals Lra Lia.
From Verif Require Import Py RSum Filter Spec_Filter FilterProofs.
Import ListNotations.
Local Open Scope R_scope.

(** An odd number of taps, at least four divided by the transition band, and the
    same read backwards. *)
Theorem C56_taps : forall fc tbw, 0 < fc <= 1 / 2 -> 0 < tbw <= 1 ->
  Nat.odd (length (taps fc tbw)) = true /\ 4 / (tbw * fc) <= INR (length (taps fc tbw)) /\ symmetric (taps fc tbw).
Proof.
  intros fc tbw H1 H2. rewrite taps_length. split; [apply ntaps_odd|]. split; [apply ntaps_ge|now apply taps_sym].
Qed.
Print Assumptions C56_taps.

(** Up to a gain the taps are the response of the ideal filter, whose cutoff is
    lowered by the transition band, in a Blackman window. *)
Theorem C56_tap_values : forall fc tbw, 0 < fc -> tbw < 1 -> exists g, forall n, (n < ntaps fc tbw)%nat ->
  nth n (taps fc tbw) 0 = g * ideal (fc * (1 - tbw)) (INR n - INR (ntaps fc tbw - 1) / 2) *
    blackman (INR n / INR (ntaps fc tbw - 1)).
Proof. exact tap_values. Qed.
Print Assumptions C56_tap_values.

(** Unit gain, unless the sum that it divides by is zero. *)
Theorem C56_unit_gain : forall fc tbw, rsum (ntaps fc tbw) (raw (fc - tbw * fc) (ntaps fc tbw)) <> 0 ->
  rsum (length (taps fc tbw)) (fun n => nth n (taps fc tbw) 0) = 1.
Proof. exact taps_sum. Qed.
Print Assumptions C56_unit_gain.

(** That sum is positive when no tap is beyond the first zero of the sinc. *)
Theorem C56_wide_band : forall fc tbw K, 0 <= fc - tbw * fc -> (1 <= K)%nat -> ntaps fc tbw = (2 * K + 1)%nat ->
  2 * (fc - tbw * fc) * INR K <= 1 -> 0 < rsum (ntaps fc tbw) (raw (fc - tbw * fc) (ntaps fc tbw)).
Proof. intros fc tbw K H1 H2 E H3. rewrite E. now apply wide_band. Qed.
Print Assumptions C56_wide_band.

(** No delay: where the signal is a straight line over the length of the filter,
    the output is the signal. *)
Theorem C56_straight_lines_are_kept : forall s fc tbw i K a b, 0 < fc <= 1 / 2 -> 0 < tbw <= 1 ->
  rsum (ntaps fc tbw) (raw (fc - tbw * fc) (ntaps fc tbw)) <> 0 ->
  ntaps fc tbw = (2 * K + 1)%nat -> straight s i K a b ->
  exists out, lowpass s fc tbw = Ok out /\ length out = length s /\ nth i out 0 = a * INR i + b.
Proof. exact lowpass_straight. Qed.
Print Assumptions C56_straight_lines_are_kept.

Theorem C56_linear : forall s t fc tbw c so to_, length s = length t ->
  lowpass s fc tbw = Ok so -> lowpass t fc tbw = Ok to_ ->
  lowpass (map (fun p => c * fst p + snd p) (combine s t)) fc tbw = Ok (map (fun p => c * fst p + snd p) (combine so to_)).
Proof. exact lowpass_linear. Qed.
Print Assumptions C56_linear.

(** The output of a signal shorter than the filter is longer than the signal. *)
Theorem C56_same_length_refuted : forall s fc tbw, s <> [] -> (length s < ntaps fc tbw)%nat ->
  exists out, lowpass s fc tbw = Ok out /\ (length s < length out)%nat.
Proof.
  intros s fc tbw H L. destruct (lowpass_length s fc tbw H) as (out & E & Lo). exists out. split; [exact E|]. rewrite Lo. lia.
Qed.
Print Assumptions C56_same_length_refuted.

Example C56_example : 0 < 1 / 2 <= 1 / 2 /\ 0 < 9 / 10 <= 1 /\ ntaps (1 / 2) (9 / 10) = (2 * 4 + 1)%nat /\
  0 <= 1 / 2 - 9 / 10 * (1 / 2) /\ 2 * (1 / 2 - 9 / 10 * (1 / 2)) * INR 4 <= 1 /\
  straight (map (fun k => 3 * INR k + 2) (seq 0 12)) 5 4 3 2 /\
  (length [1; 2; 3] < ntaps (1 / 2) (9 / 10))%nat.
Proof.
  rewrite nine_taps. split; [lra|]. split; [lra|]. split; [reflexivity|]. split; [lra|]. split; [cbn [INR]; lra|].
  split; [|cbn [length]; lia]. split; [lia|]. rewrite map_length, seq_length. split; [lia|]. intros k Hk.
  set (f := fun k => 3 * INR k + 2). rewrite nth_indep with (d' := f 0%nat) by (rewrite map_length, seq_length; lia).
  rewrite map_nth, seq_nth by lia. reflexivity.
Qed.
