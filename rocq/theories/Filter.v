(** Model of pyphs/misc/signals/processing.py.
    Simplified: real numbers instead of floats; the signal is a list. *)
From Coq Require Import List ZArith Reals.
From Verif Require Import Py RSum.
Import ListNotations.
Local Open Scope R_scope.

(** [numpy.ceil] and [numpy.sinc]. *)
Definition ceil (x : R) : Z := (1 - up (- x))%Z.
Definition sinc (x : R) : R := if Req_EM_T x 0 then 1 else sin (PI * x) / (PI * x).

(** [numpy.convolve(s, h, 'same')]: the values of the full convolution from the
    middle of the shorter sequence on, as many as the longer one has. *)
Definition full (s h : list R) (k : nat) : R :=
  rsum (length h) (fun m => nth m h 0 * (if Nat.leb m k then nth (k - m) s 0 else 0)).
Definition convolve_same (s h : list R) : result (list R) :=
  match s, h with
  | [], _ | _, [] => Err ValueError
  | _, _ => Ok (map (fun i => full s h (i + (Nat.min (length s) (length h) - 1) / 2))
                  (seq 0 (Nat.max (length s) (length h))))
  end.

(** processing.py L32-36: the number of taps. *)
Definition ntaps (fc tbw : R) : nat :=
  let n := Z.to_nat (ceil (4 / (tbw * fc))) in if Nat.even n then S n else n.
(** processing.py L37-44: sinc times Blackman window. *)
Definition window (N n : nat) : R :=
  42 / 100 - 1 / 2 * cos (2 * PI * INR n / INR (N - 1)) + 8 / 100 * cos (4 * PI * INR n / INR (N - 1)).
Definition raw (fc : R) (N n : nat) : R := sinc (2 * fc * (INR n - INR (N - 1) / 2)) * window N n.
(** processing.py L33, L46: normalised. *)
Definition taps (fc tbw : R) : list R :=
  let N := ntaps fc tbw in
  let fc := fc - tbw * fc in
  map (fun n => raw fc N n / rsum N (raw fc N)) (seq 0 N).
(** processing.py L47. *)
Definition lowpass (s : list R) (fc tbw : R) : result (list R) := convolve_same s (taps fc tbw).
