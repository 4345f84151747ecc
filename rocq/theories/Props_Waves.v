(** C42: wave files. *)
From Coq Require Import List ZArith Reals Lia Lra.
From Flocq Require Import Core.
From Verif Require Import Py Waves Spec_Waves WavesProofs WavesFloat.
Import ListNotations.
Local Open Scope list_scope.
Local Open Scope R_scope.

(** Every signal in [-1,1] is written, and each sample read back is within one
    step of the sample written, on the same side of zero and not larger. *)
Theorem C42_within_one_step : forall sig, Forall (fun v => Rabs v <= 1) sig ->
  exists bytes, wavwrite exact sig NNone 0 = Ok bytes /\
    close step sig (wavread exact bytes) /\
    no_growth sig (wavread exact bytes).
Proof. exact write_read_exact. Qed.
Print Assumptions C42_within_one_step.

(** The same with the rounding of the machine: the samples are double
    precision floats and both conversions are rounded. *)
Theorem C42_floats : forall sig,
  Forall (fun v => Rabs v <= 1 /\ b64 v = v) sig ->
  exists bytes, wavwrite b64 sig NNone 0 = Ok bytes /\
    close (step + bpow radix2 (-53)) sig (wavread b64 bytes).
Proof. exact write_read_b64. Qed.
Print Assumptions C42_floats.

(** The values that the file can hold come back unchanged. *)
Theorem C42_grid : forall ks, Forall (fun k => -32767 <= k <= 32767)%Z ks ->
  exists bytes, wavwrite exact (map (fun k => IZR k / 32767) ks) NNone 0
                = Ok bytes /\
    wavread exact bytes = map (fun k => IZR k / 32767) ks.
Proof. exact grid_exact. Qed.
Print Assumptions C42_grid.

(** Which signals are written: those out of range raise, none is clipped. *)
Theorem C42_written : forall sig,
  (exists bytes, wavwrite exact sig NNone 0 = Ok bytes) <->
  Forall (fun v => -32769 < 32767 * v < 32768) sig.
Proof. exact written_iff. Qed.
Print Assumptions C42_written.

(** Normalisation: any signal that is not zero is scaled to its largest
    sample, which comes back as 1 or -1. *)
Theorem C42_normalised : forall sig, (exists v, In v sig /\ v <> 0) ->
  exists s bytes, 0 < s /\
    (forall v, In v sig -> Rabs v <= s) /\ (exists v, In v sig /\ Rabs v = s) /\
    wavwrite exact sig NTrue 0 = Ok bytes /\
    close step (map (fun v => v / s) sig) (wavread exact bytes) /\
    (exists v', In v' (wavread exact bytes) /\ Rabs v' = 1).
Proof. exact normalised. Qed.
Print Assumptions C42_normalised.

(** Fades: what is read back is within one step of the faded signal. *)
Theorem C42_faded : forall nf sig, (2 * nf <= length sig)%nat ->
  Forall (fun v => Rabs v <= 1) sig ->
  exists bytes faded, wavwrite exact sig NNone nf = Ok bytes /\
    length faded = length sig /\
    (forall i v, nth_error sig i = Some v ->
       nth_error faded i = Some (v * gain nf (length sig) i)) /\
    close step faded (wavread exact bytes).
Proof. exact faded. Qed.
Print Assumptions C42_faded.

Example C42_example :
  Forall (fun v => Rabs v <= 1) [/ 2; -1; 1; / 3; 0] /\
  (exists v, In v [/ 2; -5; 0] /\ v <> 0) /\
  gain 2 5 0 = 0 /\ gain 2 5 1 = / 2 /\ gain 2 5 2 = 1 /\
  gain 2 5 3 = / 2 /\ gain 2 5 4 = 0.
Proof.
  split; [repeat (apply Forall_cons; [apply Rabs_le; lra|]);
          apply Forall_nil|].
  split; [exists (-5); split; [right; left; reflexivity|lra]|].
  unfold gain; cbn; repeat split; lra.
Qed.

(** One half is a float and comes back as 16383/32767. *)
Example C42_floats_example : Rabs (/ 2) <= 1 /\ b64 (/ 2) = / 2 /\
  wavwrite exact [/ 2] NNone 0 = Ok [255%Z; 63%Z] /\
  wavread exact [255%Z; 63%Z] = [16383 / 32767].
Proof.
  split; [apply Rabs_le; lra|]; split.
  - unfold b64; apply round_generic; [apply valid_rnd_N|].
    apply generic_format_FLT.
    apply (FLT_spec radix2 (-1074) 53 (/ 2) (Float radix2 1 (-1)));
      cbn; try lia; unfold F2R; cbn; lra.
  - split; [|reflexivity].
    unfold wavwrite; rewrite fade_none by apply exact_idem.
    cbn [scale_of rbind frames].
    destruct (Req_EM_T 1 0) as [Z|_]; [lra|].
    replace (trunc (exact (exact (maxvol * / 2) / 1))) with 16383%Z;
      [reflexivity|].
    unfold exact, maxvol.
    destruct (trunc_pos (32767 * / 2 / 1)) as [[A B] _]; [lra|].
    assert (L : IZR 16382 < IZR (trunc (32767 * / 2 / 1))) by (cbn; lra).
    assert (U : IZR (trunc (32767 * / 2 / 1)) < IZR 16384) by (cbn; lra).
    apply lt_IZR in L, U; lia.
Qed.
