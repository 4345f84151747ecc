(** What writing and reading a wave file should do. *)
From Coq Require Import List ZArith Reals Lia Lra.
From Verif Require Import Py.
Import ListNotations.
Local Open Scope list_scope.
Local Open Scope R_scope.

(** One quantisation step of a 16-bit file. *)
Definition step : R := / 32767.

(** Sample by sample, [l] and [l'] differ by less than [e]. *)
Definition close (e : R) (l l' : list R) : Prop :=
  Forall2 (fun v v' => Rabs (v' - v) < e) l l'.

(** No sample grows and none changes sign. *)
Definition no_growth (l l' : list R) : Prop :=
  Forall2 (fun v v' => Rabs v' <= Rabs v /\ 0 <= v * v') l l'.

(** A rounding of floats: monotone, exact on small integers, and with an error
    of at most [eps] in [-1,1]. *)
Definition rounding (eps : R) (rnd : R -> R) : Prop :=
  (forall x y, x <= y -> rnd x <= rnd y) /\
  (forall k, (-32768 <= k <= 32768)%Z -> rnd (IZR k) = IZR k) /\
  (forall x, Rabs x <= 1 -> Rabs (rnd x - x) <= eps).

(** The gain that a fade over [nf] samples at both ends gives to sample [i] of
    [n]. *)
Definition gain (nf n i : nat) : R :=
  if (i <? nf)%nat then INR i / INR nf
  else if (i <? n - nf)%nat then 1
       else INR (n - 1 - i) / INR nf.
