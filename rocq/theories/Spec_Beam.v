(** Vocabulary for the cantilever beam. *)
From Coq Require Import Reals.
Local Open Scope R_scope.

(** [k] is a wave number of the beam of length [L]: the documented relation. *)
Definition eigen (k L : R) : Prop := cosh (k * L) * cos (k * L) + 1 = 0.
(** Frequency and wave number of the beam: (2 pi f)^2 M = K k^4. *)
Definition dispersion (K M f k : R) : Prop := (2 * PI * f) ^ 2 * M = K * k ^ 4.
