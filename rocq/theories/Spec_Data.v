(** What a file of simulation results should hold and what its readers should
    compute. *)
From Coq Require Import String List ZArith QArith Reals Bool.
From Verif Require Import Py Expr RSum Mat Core Spec_Core Method Spec_Method Numeric Spec_Numeric H5 Spec_H5 Data.
Import ListNotations.
Local Open Scope string_scope.
Local Open Scope list_scope.
Local Open Scope nat_scope.

(** The names that are stored by default and from which the readers compute. *)
Definition stored : list string := ["x"; "dx"; "dxH"; "w"; "z"; "y"].

(** The states of a numerical object: each one comes from the previous one by
    an update with the values supplied. *)
Definition followed (nu : numeric) (F Fl Fnl out : list expr) (us ps : list (list R)) (sts : list state) : Prop :=
  length sts = S (length us) /\
  forall k a b u p, nth_error sts k = Some a -> nth_error sts (S k) = Some b ->
    nth_error us k = Some u -> nth_error ps k = Some p -> updated nu F Fl Fnl out u p a b.

(** A field of a slice, or the load option that replaces it. *)
Definition is_or {B} (o : option B) (default v : B) : Prop := match o with Some b => b = v | None => default = v end.

(** The time argument [t] selects the steps a, a+s, a+2s, ... below b, with the
    load options [w], in a file of [nt] steps. *)
Definition selects (nt : nat) (w : window) (t : targ) (a b s : nat) : Prop :=
  0 < s /\ a < b /\ b <= nt /\
  match t with
  | TNone => get_start w = Z.of_nat a /\ get_stop (Z.of_nat nt) w = Z.of_nat b /\ l_step w = Z.of_nat s
  | TInt i => i = Z.of_nat a /\ b = a + 1 /\ l_step w = Z.of_nat s
  | TSlice q => is_or (s_start q) (get_start w) (Z.of_nat a) /\
                is_or (s_stop q) (get_stop (Z.of_nat nt) w) (Z.of_nat b) /\
                is_or (s_step q) (Z.to_nat (l_step w)) s
  end.

(** The file has one row for each step and gives back, for any options, any selection of steps and any of the
    names, the values in the states after these steps. *)
Definition recorded (nu : numeric) (names : list string) (sts : list state) (h : h5 R) : Prop :=
  length sts = S (length (h_data h)) /\
  forall w t a b s m name, selects (length (h_data h)) w t a b s -> counts a b s m -> In name names ->
    exists rows, read_data (with_window h w) name t VNone = Ok rows /\ length rows = m /\
      forall k, k < m -> exists st, nth_error sts (S (a + k * s)) = Some st /\ get nu name st = Ok (Ve (nth k rows [])).

(** Every symbol of the expression has a value in the dictionary or is an
    argument. *)
Definition known_symbols (nu : numeric) (e : expr) : Prop :=
  forall s, In s (free_symbols e) -> In s (args_of (n_method nu)) \/ In s (map fst (n_subs nu)).

(** The values of the symbols during step [n]. *)
Definition during (nu : numeric) (sts : list state) (n : nat) : env :=
  senv nu (nth (S n) sts (mkState [] (fun _ => None) 0)).

(** Dissipated and supplied powers during a step. *)
Definition dissipated (r : env) (m : core) : R := (power_laws r m + power_structure r m (a_vec m))%R.

(** The file holds what the readers need of a simulation with the states [sts]. *)
Definition simulation (nu : numeric) (F Fl Fnl out : list expr) (sts : list state) (h : h5 R) : Prop :=
  exists us ps names, length us = length ps /\ followed nu F Fl Fnl out us ps sts /\
    incl (["u"; "p"] ++ stored) names /\ recorded nu names sts h.

(** The same power from the gradient and the increments, at the rate [fs]. *)
Definition stored_power (fs : R) (r : env) (m : core) : R :=
  rsum (length (c_x m)) (fun i => eval r (nth i (dxH m) (Num 0)) * (r (nth i (dx m) "") * fs))%R.

(** The values of a reader: [k] of them, the [j]-th one being [f j]. *)
Definition yields (r : result (list R)) (k : nat) (f : nat -> R) : Prop :=
  exists l, r = Ok l /\ length l = k /\ forall j, j < k -> nth j l 0%R = f j.
