(** Model of /repo/pyphs/misc/signals/synthesis/synthesis_array.py
    (signalgenerator, build_parameters and the elementary signals).
    Floats are real numbers, except for the products that are converted to
    numbers of samples, which go through a rounding function [rnd].
    numpy.random.uniform takes its values from a stream [draw] of numbers of
    [0,1[.  The keyword [method] of the sweep keeps its default 'linear', and
    scipy.signal.chirp is written out for it.  A division of arrays by zero
    gives nan, which is not a number: it is reported as an error. *)
From Coq Require Import String List ZArith Reals Bool.
From Verif Require Import Py Waves.
Import ListNotations.
Local Open Scope string_scope.
Local Open Scope list_scope.
Local Open Scope R_scope.

(** The keyword arguments; None stands for a value that is neither an int nor
    a float. *)
Record keywords := mkKeywords {
  k_which : string; k_tsig : R; k_ncycles : Z; k_tdeb : R; k_tend : R; k_fs : R;
  k_A : R; k_A1 : R; k_f0 : R; k_f1 : option R;
  k_cycle_ratio : R; k_attack_ratio : R; k_decay_ratio : R;
  k_ramp_on : bool; k_bkgrd_noise : option R; k_offset : R; k_phi : R
}.

(** L360-380: the value of the keywords that are not given. *)
Definition defaults : keywords :=
  mkKeywords "sin" 1 1 0 0 1000 1 0 10 (Some 100) 1 0 0 false (Some 0) 0 (-90).

(** L20 *)
Definition names : list string := ["zero"; "const"; "sin"; "cos"; "noise"; "step"; "sweep"].

(** The keywords with the numbers of samples (L383-390). *)
Record parameters := mkParameters {
  kw : keywords; nsig : Z; ndeb : Z; nend : Z; non : Z; noff : Z; na : Z; nd : Z
}.

(** numpy.arange(n), whose elements are used as floats; n < 0 gives nothing. *)
Definition arange (n : Z) : list R := map INR (seq 0 (Z.to_nat n)).

(** [A*ones(n)], [zeros(n)]. *)
Definition full (n : Z) (a : R) : result (list R) :=
  if (n <? 0)%Z then Err ValueError else Ok (repeat a (Z.to_nat n)).

(** Elementwise operation on two arrays of the same length. *)
Definition zip (f : R -> R -> R) (l l' : list R) : list R :=
  map (fun p => f (fst p) (snd p)) (combine l l').

(** L39-67, L70-98 *)
Definition waves_ (osc : R -> R) (n : Z) (fs f0 A : R) (f1 : option R) (A1 : R) : list R :=
  let s := map (fun i => A * osc (2 * PI * f0 * i / fs)) (arange n) in
  match f1 with
  | Some f1 => zip Rplus s (map (fun i => A1 * osc (2 * PI * f1 * i / fs)) (arange n))
  | None => s
  end.

(** scipy.signal.chirp with the linear method. *)
Definition chirp (f0 f1 t1 phi t : R) : R :=
  cos (2 * PI * (f0 * t + / 2 * ((f1 - f0) / t1) * t * t) + phi * (PI / 180)).

(** numpy.linspace(0, T, n). *)
Definition linspace (T : R) (n : Z) : list R :=
  if (n =? 1)%Z then [0] else map (fun i => i * (T / IZR (n - 1))) (arange n).

(** L142-187; [float(f1)] of None raises. *)
Definition sweep_cosine (n : Z) (fs f0 : R) (f1 : option R) (A phi : R) : result (list R) :=
  if Req_EM_T fs 0 then Err GenericException else
  let T := IZR (n - 1) / fs in
  if (n <? 0)%Z then Err ValueError else
  match f1 with
  | None => Err TypeError
  | Some f1 => if Req_EM_T T 0 then Err GenericException
               else Ok (map (fun t => A * chirp f0 f1 T phi t) (linspace T n))
  end.

(** L266-268 *)
Definition clamp01 (l : list R) : list R :=
  map (fun v => Rmin (Rmax v 0) 1) l.

Section Generator.
Variable rnd : R -> R.
Variable draw : nat -> R.

(** L358-391 *)
Definition build_parameters (k : keywords) : result parameters :=
  if negb (existsb (String.eqb (k_which k)) names) then Err NotImplementedError else
  let nsig := trunc (rnd (k_tsig k * k_fs k)) in
  let non := trunc (rnd (IZR nsig * k_cycle_ratio k)) in
  Ok (mkParameters k nsig
        (trunc (rnd (k_tdeb k * k_fs k)))
        (trunc (rnd (k_tend k * k_fs k)))
        non (nsig - non)
        (trunc (rnd (k_attack_ratio k * IZR non)))
        (trunc (rnd (k_decay_ratio k * IZR non)))).

(** numpy.random.uniform(lo, hi, n), and the position in the stream after. *)
Definition uniform (lo hi : R) (n : Z) (s : nat) : result (list R * nat) :=
  if (n <? 0)%Z then Err ValueError
  else Ok (map (fun j => lo + (hi - lo) * draw (s + j)%nat) (seq 0 (Z.to_nat n)),
           (s + Z.to_nat n)%nat).

(** L101-119 *)
Definition randomuniform (n : Z) (A : R) (s : nat) := uniform (- A) A n s.

(** L289-299, with a number of samples. *)
Definition background_noise (p : parameters) (n : Z) (s : nat) : result (list R * nat) :=
  match k_bkgrd_noise (kw p) with
  | Some b => randomuniform n b s
  | None => do z <- full n 0; Ok (z, s)
  end.

(** L270-274 *)
Definition ramp (p : parameters) (i : list R) : result (list R) :=
  if k_ramp_on (kw p) then
    let d := (k_ncycles (kw p) * nsig p - 1)%Z in
    if (d =? 0)%Z && negb (length i =? 0)%nat then Err GenericException
    else Ok (map (fun v => v / IZR d) i)
  else Ok (map (fun _ => 1) i).

(** L276-287 *)
Definition env (p : parameters) (i : list R) : list R :=
  let enva := if (0 <? nd p)%Z then clamp01 (map (fun v => (IZR (non p) - v) / IZR (nd p)) i)
              else map (fun _ => 1) i in
  let envd := if (0 <? na p)%Z then clamp01 (map (fun v => v / IZR (na p)) i)
              else map (fun _ => 1) i in
  zip Rmult enva envd.

(** L306-339 *)
Definition Sig (p : parameters) (s : nat) : result (list R * nat) :=
  let k := kw p in
  let n := non p in
  if String.eqb (k_which k) "zero" then do l <- full n 0; Ok (l, s)
  else if String.eqb (k_which k) "const" then do l <- full n (k_A k); Ok (l, s)
  else if String.eqb (k_which k) "sin" then
    Ok (waves_ sin n (k_fs k) (k_f0 k) (k_A k) (k_f1 k) (k_A1 k), s)
  else if String.eqb (k_which k) "cos" then
    Ok (waves_ cos n (k_fs k) (k_f0 k) (k_A k) None 1, s)
  else if String.eqb (k_which k) "noise" then randomuniform n (k_A k) s
  else if String.eqb (k_which k) "step" then do l <- full n (k_A k); Ok (l, s)
  else if String.eqb (k_which k) "sweep" then
    do l <- sweep_cosine n (k_fs k) (k_f0 k) (k_f1 k) (k_A k) (k_phi k); Ok (l, s)
  else Err NameError.

(** L306-350: the two parts of cycle [c]. *)
Definition cycle (p : parameters) (c : nat) (s : nat) : result (list R * list R * nat) :=
  do (l, s) <- Sig p s;
  let nsigc := Z.of_nat (length l) in
  let i := arange nsigc in
  do r <- ramp p (map (fun v => v + INR c * IZR (nsig p)) i);
  do (bg, s) <- background_noise p nsigc s;
  let cycle_deb := zip Rplus (zip Rmult (zip Rmult r (env p i)) l) bg in
  do (cycle_end, s) <- background_noise p (noff p) s;
  if Req_EM_T (k_offset (kw p)) 0 then Ok (cycle_deb, cycle_end, s)
  else Ok (map (fun v => v + k_offset (kw p)) cycle_deb,
           map (fun v => v + k_offset (kw p)) cycle_end, s).

(** L305-350: the loop; the variables cycle_deb and cycle_end have no value
    before it. *)
Fixpoint cycles (p : parameters) (cs : list nat) (s : nat) (vars : option (list R * list R))
  : result (option (list R * list R) * nat) :=
  match cs with
  | [] => Ok (vars, s)
  | c :: cs' => do (d, e, s) <- cycle p c s; cycles p cs' s (Some (d, e))
  end.

(** L190-355; [s] is the position in the stream of random numbers. *)
Definition signalgenerator (k : keywords) (s : nat) : result (list R) :=
  do p <- build_parameters k;
  do (deb, s) <- background_noise p (ndeb p) s;
  do (vars, s) <- cycles p (seq 0 (Z.to_nat (k_ncycles k))) s None;
  do (end_, s) <- background_noise p (nend p) s;
  match vars with
  | None => Err UnboundLocalError
  | Some (d, e) => Ok (deb ++ d ++ e ++ end_)
  end.

End Generator.
