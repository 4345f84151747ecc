(** Model of pyphs/dictionary/beams/_cantilever.py L24-109: the length of the beam
    and its wave numbers.
    Simplified: real numbers instead of floats; [x ** (1/4)] is written with square
    roots.  Not modelled: [omega_cosine] and the network of the component. *)
From Coq Require Import List ZArith Reals.
From Verif Require Import Py.
Import ListNotations.
Local Open Scope R_scope.

(** [numpy.sign] and [numpy.linspace(0, stop, n)[j]]. *)
Definition sgn (x : R) : Z := if Rlt_dec 0 x then 1%Z else if Rlt_dec x 0 then (-1)%Z else 0%Z.
Definition linspace (stop : R) (n j : nat) : R := INR j * (stop / INR (n - 1)).
(** L54, L104: the function whose zeros are looked for, and the indices where
    [diff(sign(...))] is not zero. *)
Definition char (x : R) : R := 1 + cosh x * cos x.
Definition changes (g : nat -> R) (n : nat) : list nat :=
  filter (fun j => negb (Z.eqb (sgn (g (S j)) - sgn (g j)) 0)) (seq 0 (n - 1)).

(** _cantilever.py L48, L50. *)
Definition first_wave_number (f0 Kb Mb : R) : R := sqrt (sqrt ((2 * PI * f0) ^ 2 * Mb / Kb)).
Definition length_points : nat := Z.to_nat 10000000.
(** _cantilever.py L24-56 [beamLength]. *)
Definition beam_length (f0 Kb Mb : R) : result R :=
  let k0 := first_wave_number f0 Kb Mb in
  let Lb := linspace 10 length_points in
  match changes (fun j => char (k0 * Lb j)) length_points with
  | [] => Err IndexError
  | j :: _ => Ok (Lb j)
  end.

(** _cantilever.py L59-109 [waveNumbers]. *)
Definition wave_points (N : nat) : nat := (N * Z.to_nat 1000000)%nat.
Definition wave_grid (N : nat) (Lb : R) : nat -> R := linspace (INR N * 2 * PI / Lb) (wave_points N).
Definition frequency (Kb Mb k : R) : R := sqrt (k ^ 4 * Kb / Mb) / (2 * PI).
Definition wave_numbers (N : nat) (Lb Kb Mb : R) : list R * list R :=
  let k := wave_grid N Lb in
  let ks := map k (changes (fun j => char (k j * Lb)) (wave_points N)) in
  (firstn N ks, firstn N (map (frequency Kb Mb) ks)).
