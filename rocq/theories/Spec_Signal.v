(** What the documentation of signalgenerator (synthesis_array.py L190-262)
    promises, sample by sample. *)
From Coq Require Import String List ZArith Reals.
Import ListNotations.
Local Open Scope string_scope.
Local Open Scope list_scope.
Local Open Scope R_scope.

(** Number of samples: silence, cycles, silence. *)
Definition doc_length (ndeb ncycles nsig nend : Z) : Z := (ndeb + ncycles * nsig + nend)%Z.

(** Linear attack over [na] samples and linear decay over the last [nd] of
    [n]. *)
Definition attack (na : Z) (i : R) : R := if (0 <? na)%Z then Rmin 1 (i / IZR na) else 1.
Definition decay (nd n : Z) (i : R) : R :=
  if (0 <? nd)%Z then Rmin 1 ((IZR n - i) / IZR nd) else 1.

(** Linear ramp over [total] samples. *)
Definition rising (on : bool) (total : Z) (i : R) : R := if on then i / IZR (total - 1) else 1.

(** The carrier at time [t]; a second sine of frequency [f1] and amplitude
    [A1]; the sweep goes linearly from [f0] to [f1] in the duration [T]. *)
Definition carrier (which : string) (A A1 f0 : R) (f1 : option R) (phi T t : R) (v : R) : Prop :=
  (which = "zero" /\ v = 0) \/
  ((which = "const" \/ which = "step") /\ v = A) \/
  (which = "sin" /\
   v = A * sin (2 * PI * f0 * t) +
       match f1 with Some f1 => A1 * sin (2 * PI * f1 * t) | None => 0 end) \/
  (which = "cos" /\ v = A * cos (2 * PI * f0 * t)) \/
  (which = "noise" /\ Rabs v <= Rabs A) \/
  (which = "sweep" /\ exists f, f1 = Some f /\
   v = A * cos (2 * PI * (f0 * t + (f - f0) * t ^ 2 / (2 * T)) + phi * PI / 180)).

(** [l] has [n] samples, and sample [i] satisfies [P i]. *)
Definition block (n : Z) (P : R -> R -> Prop) (l : list R) : Prop :=
  Z.of_nat (length l) = n /\ forall i v, nth_error l i = Some v -> P (INR i) v.

(** A value up to the background noise. *)
Definition near (b : option R) (v0 v : R) : Prop :=
  match b with Some b => Rabs (v - v0) <= Rabs b | None => v = v0 end.

(** Largest value of the carrier. *)
Definition amplitude (which : string) (A A1 : R) : R :=
  if String.eqb which "sin" then Rabs A + Rabs A1 else Rabs A.

(** Rounding to the floats: monotone, exact at 0 and on the integers that come
    from floats. *)
Definition rounds (trunc : R -> Z) (rnd : R -> R) : Prop :=
  (forall x y, x <= y -> rnd x <= rnd y) /\ rnd 0 = 0 /\
  (forall x, rnd (IZR (trunc (rnd x))) = IZR (trunc (rnd x))).

(** numpy.random gives numbers of [0,1[. *)
Definition uniform_stream (draw : nat -> R) : Prop := forall j, 0 <= draw j < 1.
