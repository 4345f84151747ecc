(** Binary64 rounding (Flocq) is a rounding in the sense of Spec_Waves. *)
From Coq Require Import ZArith Reals Lia Lra List.
From Flocq Require Import Core.
From Verif Require Import Py Waves Spec_Waves WavesProofs.
Local Open Scope R_scope.

(** Rounding to nearest even of IEEE double precision (without overflow). *)
Definition b64 (x : R) : R :=
  round radix2 (FLT_exp (-1074) 53) ZnearestE x.

Local Instance valid64 : Valid_exp (FLT_exp (-1074) 53).
Proof. apply FLT_exp_valid; reflexivity. Qed.

Local Instance mono64 : Monotone_exp (FLT_exp (-1074) 53).
Proof. apply FLT_exp_monotone. Qed.

Lemma b64_int : forall k, (-32768 <= k <= 32768)%Z -> b64 (IZR k) = IZR k.
Proof.
  intros k K; unfold b64; apply round_generic; [apply valid_rnd_N|].
  apply generic_format_FLT.
  apply (FLT_spec radix2 (-1074) 53 (IZR k) (Float radix2 k 0)).
  - unfold F2R; cbn; ring.
  - cbn [Fnum]; apply Z.le_lt_trans with 32768%Z; [lia|reflexivity].
  - cbn; lia.
Qed.

Lemma b64_idem : forall x, b64 (b64 x) = b64 x.
Proof.
  intro x; unfold b64; apply round_generic; [apply valid_rnd_N|].
  apply generic_format_round; [apply valid64|apply valid_rnd_N].
Qed.

Lemma b64_rounding : rounding (bpow radix2 (-53)) b64.
Proof.
  split; [|split].
  - intros x y L; unfold b64; apply round_le;
      [apply valid64|apply valid_rnd_N|exact L].
  - exact b64_int.
  - intros x X; unfold b64.
    eapply Rle_trans.
    + apply error_le_half_ulp; apply valid64.
    + assert (U : ulp radix2 (FLT_exp (-1074) 53) x
                  <= ulp radix2 (FLT_exp (-1074) 53) 1).
      { apply ulp_le; [apply valid64|apply mono64|].
        rewrite (Rabs_right 1) by lra; exact X. }
      assert (V : ulp radix2 (FLT_exp (-1074) 53) 1 = bpow radix2 (-52)).
      { change 1 with (bpow radix2 0).
        rewrite ulp_bpow; reflexivity. }
      rewrite V in U.
      assert (W : bpow radix2 (-52) = 2 * bpow radix2 (-53)).
      { change (-52)%Z with (1 + -53)%Z; rewrite bpow_plus; reflexivity. }
      lra.
Qed.

Lemma write_read_b64 : forall sig,
  Forall (fun v => Rabs v <= 1 /\ b64 v = v) sig ->
  exists bytes, wavwrite b64 sig NNone 0 = Ok bytes /\
    close (step + bpow radix2 (-53)) sig (wavread b64 bytes).
Proof.
  intros sig F; exact (write_read b64 _ b64_rounding sig b64_idem F).
Qed.
