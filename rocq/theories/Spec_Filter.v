(** Vocabulary for filters. *)
From Coq Require Import List Reals.
From Verif Require Import RSum.
Import ListNotations.
Local Open Scope R_scope.

(** The same when read backwards. *)
Definition symmetric (h : list R) : Prop := forall n, (n < length h)%nat -> nth n h 0 = nth (length h - 1 - n) h 0.
(** [s] is a straight line on the [K] samples before [i] and after it. *)
Definition straight (s : list R) (i K : nat) (a b : R) : Prop :=
  (K <= i)%nat /\ (i + K < length s)%nat /\
  forall k, (i - K <= k <= i + K)%nat -> nth k s 0 = a * INR k + b.

(** The impulse response of the ideal lowpass filter of cutoff [f], at time [t], and
    the Blackman window, at the fraction [x] of its length. *)
Definition ideal (f t : R) : R := if Req_EM_T t 0 then 2 * f else sin (2 * PI * f * t) / (PI * t).
Definition blackman (x : R) : R := 42 / 100 - 1 / 2 * cos (2 * PI * x) + 8 / 100 * cos (4 * PI * x).
