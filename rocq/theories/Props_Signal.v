(** C51: generated signals. *)
From Coq Require Import String List ZArith Reals Lia Lra.
From Verif Require Import Py Waves Signal Spec_Signal SignalProofs SignalBounds.
Import ListNotations.
Local Open Scope string_scope.
Local Open Scope list_scope.
Local Open Scope R_scope.

(** Every accepted call returns silence, one cycle, silence: in the cycle,
    sample [i] of the first part is the carrier under the envelope and the ramp
    as they are at the last of the cycles, and the second part is the offset;
    everything up to the background noise.  For one cycle this is the
    documented signal. *)
Theorem C51_samples : forall (rnd : R -> R) draw k s,
  uniform_stream draw -> rounds trunc rnd ->
  In (k_which k) ["zero"; "const"; "sin"; "cos"; "noise"; "step"; "sweep"] ->
  0 <= k_tsig k * k_fs k -> 0 <= k_tdeb k * k_fs k -> 0 <= k_tend k * k_fs k ->
  0 <= k_cycle_ratio k <= 1 -> (1 <= k_ncycles k)%Z ->
  let nsig := trunc (rnd (k_tsig k * k_fs k)) in
  let non := trunc (rnd (IZR nsig * k_cycle_ratio k)) in
  (k_ramp_on k = true -> k_ncycles k * nsig <> 1)%Z ->
  (k_which k = "sweep" -> k_fs k <> 0 /\ k_f1 k <> None /\ non <> 1%Z) ->
  exists deb on off end_, signalgenerator rnd draw k s = Ok (deb ++ on ++ off ++ end_) /\
    block (trunc (rnd (k_tdeb k * k_fs k))) (fun _ v => near (k_bkgrd_noise k) 0 v) deb /\
    block non (fun i v => exists w,
      carrier (k_which k) (k_A k) (k_A1 k) (k_f0 k) (k_f1 k) (k_phi k)
              (IZR (non - 1) / k_fs k) (i / k_fs k) w /\
      near (k_bkgrd_noise k)
        (rising (k_ramp_on k) (k_ncycles k * nsig) (i + IZR (k_ncycles k - 1) * IZR nsig) *
         (attack (trunc (rnd (k_attack_ratio k * IZR non))) i *
          decay (trunc (rnd (k_decay_ratio k * IZR non))) non i) * w + k_offset k) v) on /\
    block (nsig - non) (fun _ v => near (k_bkgrd_noise k) (k_offset k) v) off /\
    block (trunc (rnd (k_tend k * k_fs k))) (fun _ v => near (k_bkgrd_noise k) 0 v) end_.
Proof. exact samples_stated. Qed.
Print Assumptions C51_samples.

(** Its number of samples and the bound on its values. *)
Theorem C51_bounded : forall (rnd : R -> R) draw k s,
  uniform_stream draw -> rounds trunc rnd ->
  In (k_which k) ["zero"; "const"; "sin"; "cos"; "noise"; "step"; "sweep"] ->
  0 <= k_tsig k * k_fs k -> 0 <= k_tdeb k * k_fs k -> 0 <= k_tend k * k_fs k ->
  0 <= k_cycle_ratio k <= 1 -> (1 <= k_ncycles k)%Z ->
  let nsig := trunc (rnd (k_tsig k * k_fs k)) in
  let non := trunc (rnd (IZR nsig * k_cycle_ratio k)) in
  (k_ramp_on k = true -> k_ncycles k * nsig <> 1)%Z ->
  (k_which k = "sweep" -> k_fs k <> 0 /\ k_f1 k <> None /\ non <> 1%Z) ->
  exists l, signalgenerator rnd draw k s = Ok l /\
    Z.of_nat (length l) = (trunc (rnd (k_tdeb k * k_fs k)%R) + nsig + trunc (rnd (k_tend k * k_fs k)%R))%Z /\
    Forall (fun v => Rabs v <= amplitude (k_which k) (k_A k) (k_A1 k) + Rabs (k_offset k) +
                     match k_bkgrd_noise k with Some b => Rabs b | None => 0 end) l.
Proof. exact bounded_stated. Qed.
Print Assumptions C51_bounded.

(** The cycles are not repeated: with two cycles or more the signal is shorter
    than documented, whatever the other keywords. *)
Theorem C51_cycles_refuted : forall (rnd : R -> R) draw k s l,
  uniform_stream draw -> rounds trunc rnd ->
  0 <= k_tsig k * k_fs k -> 0 <= k_tdeb k * k_fs k -> 0 <= k_tend k * k_fs k ->
  0 <= k_cycle_ratio k <= 1 -> (2 <= k_ncycles k)%Z ->
  let nsig := trunc (rnd (k_tsig k * k_fs k)) in
  (0 < nsig)%Z -> signalgenerator rnd draw k s = Ok l ->
  (Z.of_nat (length l) <
   doc_length (trunc (rnd (k_tdeb k * k_fs k)%R)) (k_ncycles k) nsig (trunc (rnd (k_tend k * k_fs k)%R)))%Z.
Proof. exact cycles_missing. Qed.
Print Assumptions C51_cycles_refuted.

(** Other calls raise. *)
Theorem C51_rejected : forall (rnd : R -> R) draw k s, uniform_stream draw -> rounds trunc rnd ->
  (~ In (k_which k) ["zero"; "const"; "sin"; "cos"; "noise"; "step"; "sweep"] ->
   signalgenerator rnd draw k s = Err NotImplementedError) /\
  (In (k_which k) ["zero"; "const"; "sin"; "cos"; "noise"; "step"; "sweep"] ->
   0 <= k_tdeb k * k_fs k -> 0 <= k_tend k * k_fs k -> (k_ncycles k <= 0)%Z ->
   signalgenerator rnd draw k s = Err UnboundLocalError).
Proof. exact rejected. Qed.
Print Assumptions C51_rejected.

(** The amplitude [A] is documented as "peak to peak"; the sine of amplitude 1
    goes from -1 to 1.  The same call with 2 cycles gives 4 samples. *)
Theorem C51_peak_to_peak_refuted : exists draw k s l v v',
  uniform_stream draw /\ k_A k = 1 /\ k_A1 k = 0 /\ k_bkgrd_noise k = Some 0 /\ k_offset k = 0 /\
  signalgenerator (fun x => x) draw k s = Ok l /\ In v l /\ In v' l /\ v - v' = 2 * k_A k.
Proof. exact peak_to_peak. Qed.
Print Assumptions C51_peak_to_peak_refuted.

Example C51_example : rounds trunc (fun x => x) /\ uniform_stream (fun _ => / 2) /\
  signalgenerator (fun x => x) (fun _ => / 2) (sine4 1) 0 = Ok [0; 1; 0; -1] /\
  signalgenerator (fun x => x) (fun _ => / 2) (sine4 2) 0 = Ok [0; 1; 0; -1].
Proof.
  split; [exact rounds_id|]; split; [intros j; lra|].
  split; apply sine4_value; lia.
Qed.
