(** The file of a simulation and what is computed from it: C48 and C49. *)
From Coq Require Import String List ZArith QArith Qreals Reals Bool Lia Lra.
From Verif Require Import Py Tools Expr RSum Mat Core Spec_Core Method StructProofs Spec_Calculus Spec_Method
  Numeric Spec_Numeric NumericExamples H5 Spec_H5 Data Spec_Data DataSim DataRead DataBalance DataExamples.
Import ListNotations.
Local Open Scope string_scope.
Local Open Scope list_scope.
Local Open Scope nat_scope.

(** A simulation raises nothing but the error of a singular matrix; its file
    holds one row for each step, and for any selection of steps gives back the
    inputs, the parameters and the stored values of the state after each step,
    each state coming from the previous one by an update with the values
    supplied for this step. *)
Theorem C48_file : forall nu, let m := n_method nu in
  wf m -> counters_ok m -> c_cy m = [] -> closed nu -> inv_correct (n_inv nu) -> linear_part m ->
  exists F Fl Fnl out, tempF Sall m = Ok F /\ tempF Sl m = Ok Fl /\ tempF Snl m = Ok Fnl /\ output m = Ok out /\
    forall dnames w us ps st, incl dnames stored -> NoDup dnames ->
      length us = length ps -> get_stop (Z.of_nat (length us)) w = Z.of_nat (length us) ->
      Forall (fun u => length u = length (c_u m)) us -> Forall (fun p => length p = length (c_p m)) ps ->
      length (st_args st) = length (args_of m) ->
      safe (simulate nu dnames w us ps st) (fun '(h, st') => exists sts, nth_error sts 0 = Some st /\
        nth_error sts (length us) = Some st' /\ followed nu F Fl Fnl out us ps sts /\
        recorded nu (["u"; "p"] ++ dnames) sts h).
Proof. exact simulation_file. Qed.
Print Assumptions C48_file.

(** A linear and a nonlinear storage with a resistor; the default names; no
    stop, or the stop of a file with as many steps. *)
Example C48_example : wf (n_method mixed_nu) /\ counters_ok (n_method mixed_nu) /\ c_cy (n_method mixed_nu) = [] /\
  closed mixed_nu /\ inv_correct (n_inv mixed_nu) /\ linear_part (n_method mixed_nu) /\
  incl ["x"; "dx"; "dxH"; "w"; "z"; "y"] stored /\ NoDup ["x"; "dx"; "dxH"; "w"; "z"; "y"] /\
  get_stop 3 (mkWindow None None 2) = 3%Z /\ get_stop 3 (mkWindow (Some 1%Z) (Some 3%Z) 1) = 3%Z /\
  Forall (fun u => length u = length (c_u (n_method mixed_nu))) [[1%R]; [0%R]; [2%R]].
Proof.
  split; [exact mixed_m_wf|]. split; [exact mixed_counters|]. split; [vm_compute; reflexivity|].
  split; [exact mixed_closed|]. split; [exact inv12_correct|]. split; [exact mixed_linear|].
  split; [intros s Hs; exact Hs|]. split; [repeat constructor; cbn; intuition discriminate|].
  split; [reflexivity|]. split; [reflexivity|]. repeat constructor.
Qed.

(** The inputs are read from the file up to the stop of the load options: with
    a smaller stop, set before or shared, the simulation ends there and the
    other rows stay zero. *)
Theorem C48_stale_stop_refuted : forall nu, let m := n_method nu in
  wf m -> counters_ok m -> c_cy m = [] -> closed nu -> inv_correct (n_inv nu) -> linear_part m ->
  exists F Fl Fnl out, tempF Sall m = Ok F /\ tempF Sl m = Ok Fl /\ tempF Snl m = Ok Fnl /\ output m = Ok out /\
    forall dnames w us ps st b, incl dnames stored -> NoDup dnames ->
      length us = length ps -> get_stop (Z.of_nat (length us)) w = Z.of_nat b -> b < length us ->
      Forall (fun u => length u = length (c_u m)) us -> Forall (fun p => length p = length (c_p m)) ps ->
      length (st_args st) = length (args_of m) ->
      safe (simulate nu dnames w us ps st) (fun '(h, st') =>
        (exists sts, nth_error sts 0 = Some st /\ nth_error sts b = Some st' /\
           followed nu F Fl Fnl out (firstn b us) (firstn b ps) sts) /\
        forall w' i name, b <= i < length us -> In name dnames -> (0 < l_step w')%Z ->
          read_data (with_window h w') name (TInt (Z.of_nat i)) VNone = Ok [repeat 0%R (data_dim m name)]).
Proof. exact simulation_stale. Qed.
Print Assumptions C48_stale_stop_refuted.

(** Two steps out of four. *)
Example C48_stale_example : get_stop 4 (mkWindow None (Some 2%Z) 1) = Z.of_nat 2 /\ 2 < length tank_us /\
  data_dim (n_method (tank_nu obs0)) "x" = 1 /\ closed (tank_nu obs0) /\ linear_part (n_method (tank_nu obs0)).
Proof.
  split; [reflexivity|]. split; [cbn; lia|]. split; [vm_compute; reflexivity|].
  split; [exact (tank_closed _ some0)|exact (tank_linear _ some0)].
Qed.

(** The times are those of the selected steps. *)
Theorem C49_times : forall (h : h5 R) w t a b s k, selects (length (h_data h)) w t a b s -> counts a b s k -> forall fs,
  length (t_reader fs (with_window h w) t) = k /\
  forall j, j < k -> nth j (t_reader fs (with_window h w) t) 0%R = (INR (a + j * s) / fs)%R.
Proof. exact times_ok. Qed.
Print Assumptions C49_times.

(** The readers give the power of the storage and the power at the ports at the
    selected steps, and, when the number of steps is a multiple of the step and
    without observers, the energy and the dissipated power. *)
Theorem C49_stored_power : forall nu, let m := n_method nu in counters_ok m -> closed nu ->
  forall F Fl Fnl out sts h, simulation nu F Fl Fnl out sts h ->
  forall w t a b s k, selects (length (h_data h)) w t a b s -> counts a b s k ->
  forall fs, yields (dtE_dot fs (with_window h w) t) k (fun j => stored_power fs (during nu sts (a + j * s)) m).
Proof. exact dtE_dot_yields. Qed.
Print Assumptions C49_stored_power.

Theorem C49_port_power : forall nu, let m := n_method nu in wf m -> counters_ok m -> closed nu ->
  forall F Fl Fnl out sts h, simulation nu F Fl Fnl out sts h ->
  forall w t a b s k, selects (length (h_data h)) w t a b s -> counts a b s k ->
  yields (ps_reader (with_window h w) t) k (fun j => power_ports (during nu sts (a + j * s)) m out).
Proof. exact ps_yields. Qed.
Print Assumptions C49_port_power.

Theorem C49_energy : forall nu, let m := n_method nu in counters_ok m -> closed nu ->
  forall F Fl Fnl out sts h, simulation nu F Fl Fnl out sts h ->
  forall w t a b s k, selects (length (h_data h)) w t a b s -> counts a b s k ->
  c_observers m = [] -> Nat.modulo (b - a) s = 0 -> known_symbols nu (c_H m) ->
  yields (E_reader nu (with_window h w) t) k (fun j => eval (during nu sts (a + j * s)) (c_H m)).
Proof. exact E_yields. Qed.
Print Assumptions C49_energy.

Theorem C49_dissipated_power : forall nu, let m := n_method nu in wf m -> counters_ok m -> c_cy m = [] -> closed nu ->
  forall F Fl Fnl out sts h, simulation nu F Fl Fnl out sts h ->
  forall w t a b s k, selects (length (h_data h)) w t a b s -> counts a b s k ->
  c_observers m = [] -> Nat.modulo (b - a) s = 0 -> (forall e, pd m = Ok e -> known_symbols nu e) ->
  yields (pd_reader nu (with_window h w) t) k (fun j => dissipated (during nu sts (a + j * s)) m).
Proof. exact pd_yields. Qed.
Print Assumptions C49_dissipated_power.

(** At steps that solve the implicit function, what the three readers give sums
    to zero. *)
Theorem C49_balance : forall nu, let m := n_method nu in wf m -> counters_ok m -> c_cy m = [] -> closed nu -> c_observers m = [] ->
  forall F Fl Fnl out, tempF Sall m = Ok F -> output m = Ok out ->
  forall sts h, simulation nu F Fl Fnl out sts h ->
  forall fs, assoc fs_symbol (n_subs nu) = Some fs -> (forall e, pd m = Ok e -> known_symbols nu e) ->
  forall w t a b s k, selects (length (h_data h)) w t a b s -> counts a b s k -> Nat.modulo (b - a) s = 0 ->
  (forall j, j < k -> vanish (during nu sts (a + j * s)) F) ->
  exists dE pd ps, dtE_dot fs (with_window h w) t = Ok dE /\ pd_reader nu (with_window h w) t = Ok pd /\
    ps_reader (with_window h w) t = Ok ps /\ length dE = k /\ length pd = k /\ length ps = k /\
    forall j, j < k -> (nth j dE 0 + nth j pd 0 + nth j ps 0 = 0)%R.
Proof. exact file_balance. Qed.
Print Assumptions C49_balance.

(** The same with the differences of the energy, when every step is kept and
    solved, and the gradient exact. *)
Theorem C49_energy_balance : forall f c nu F Fl Fnl out sts h fs w t a b, let m := n_method nu in
  wf c -> clean_names c -> c_cy c = [] -> f_grad f <> OtherGrad -> method_init f c = ok m ->
  wf m -> counters_ok m -> c_cy m = [] -> closed nu -> c_observers m = [] ->
  tempF Sall m = Ok F -> output m = Ok out -> simulation nu F Fl Fnl out sts h ->
  assoc fs_symbol (n_subs nu) = Some fs -> (0 < fs)%R ->
  (forall s, In s (free_symbols (c_H m)) -> In s (c_x m) \/ In s (map fst (n_subs nu))) ->
  (forall e, pd m = Ok e -> known_symbols nu e) ->
  selects (length (h_data h)) w t a b 1 -> (0 < l_step w)%Z ->
  (forall n, a <= n < b -> vanish (during nu sts n) F /\
      forall r1, moved 1 (during nu sts n) (c_x m) (dx m) r1 -> exact_step f m (during nu sts n) r1) ->
  exists dE pd ps, dtE_delta fs nu (with_window h w) t = Ok dE /\ pd_reader nu (with_window h w) t = Ok pd /\
    ps_reader (with_window h w) t = Ok ps /\ length dE = b - a /\ length pd = b - a /\ length ps = b - a /\
    forall j, j < b - a -> (nth j dE 0 + nth j pd 0 + nth j ps 0 = 0)%R.
Proof. exact delta_balance. Qed.
Print Assumptions C49_energy_balance.

(** With one step kept out of [s], each value but the last is minus the mean of
    the lost and supplied powers over [s] steps. *)
Theorem C49_mean_balance : forall f c, wf c -> clean_names c -> c_cy c = [] -> f_grad f <> OtherGrad ->
  forall nu, let m := n_method nu in method_init f c = ok m ->
  wf m -> counters_ok m -> c_cy m = [] -> closed nu -> c_observers m = [] ->
  forall F Fl Fnl out, tempF Sall m = Ok F -> output m = Ok out ->
  forall sts h, simulation nu F Fl Fnl out sts h ->
  forall fs, assoc fs_symbol (n_subs nu) = Some fs -> (0 < fs)%R ->
  (forall s, In s (free_symbols (c_H m)) -> In s (c_x m) \/ In s (map fst (n_subs nu))) ->
  forall w t a b s k, selects (length (h_data h)) w t a b s -> counts a b s k -> Nat.modulo (b - a) s = 0 -> (0 < l_step w)%Z ->
  (forall n, a <= n < b -> vanish (during nu sts n) F /\
      forall r1, moved 1 (during nu sts n) (c_x m) (dx m) r1 -> exact_step f m (during nu sts n) r1) ->
  exists l, dtE_delta fs nu (with_window h w) t = Ok l /\ length l = k /\
    (forall j, S j < k -> (INR s * nth j l 0 = - rsum s (fun i =>
       dissipated (during nu sts (a + j * s + i)) m + power_ports (during nu sts (a + j * s + i)) m out))%R) /\
    (INR s * nth (k - 1) l 0 = - (dissipated (during nu sts (b - 1)) m + power_ports (during nu sts (b - 1)) m out))%R.
Proof. exact delta_mean. Qed.
Print Assumptions C49_mean_balance.

(** A passive core reads back no negative dissipated power. *)
Theorem C49_passive : forall nu F Fl Fnl out sts h w t a b s k, let m := n_method nu in
  wf m -> counters_ok m -> c_cy m = [] -> closed nu -> c_observers m = [] ->
  simulation nu F Fl Fnl out sts h -> (forall e, pd m = Ok e -> known_symbols nu e) ->
  selects (length (h_data h)) w t a b s -> counts a b s k -> Nat.modulo (b - a) s = 0 ->
  (forall n, n < length (h_data h) -> absorbs [] (during nu sts n) m) ->
  exists l, pd_reader nu (with_window h w) t = Ok l /\ length l = k /\ forall v, In v l -> (0 <= v)%R.
Proof. exact file_passive. Qed.
Print Assumptions C49_passive.

(** Four steps of the tank, all of them or one out of two. *)
Example C49_example : let nu := tank_nu obs0 in let m := n_method nu in let h := tank_file obs0 in let sts := tank_states obs0 in
  wf (tank obs0) /\ clean_names (tank obs0) /\ c_cy (tank obs0) = [] /\ method_init default_config (tank obs0) = ok m /\
  wf m /\ counters_ok m /\ c_cy m = [] /\ closed nu /\ c_observers m = [] /\
  tempF Sall m = Ok tank_F /\ output m = Ok tank_out /\ simulation nu tank_F tank_Fl [] tank_out sts h /\
  assoc fs_symbol (n_subs nu) = Some 1%R /\ known_symbols nu (c_H m) /\ (forall e, pd m = Ok e -> known_symbols nu e) /\
  (forall s, In s (free_symbols (c_H m)) -> In s (c_x m) \/ In s (map fst (n_subs nu))) /\
  selects (length (h_data h)) (every 1) all_steps 0 4 1 /\ selects (length (h_data h)) (every 2) all_steps 0 4 2 /\ counts 0 4 2 2 /\
  (forall n, 0 <= n < 4 -> vanish (during nu sts n) tank_F /\
      forall r1, moved 1 (during nu sts n) (c_x m) (dx m) r1 -> exact_step default_config m (during nu sts n) r1) /\
  (forall n, n < length (h_data h) -> absorbs [] (during nu sts n) m).
Proof.
  cbv zeta. pose proof some0 as S. destruct (tank_fields _ S) as (_ & _ & _ & _ & _ & EC & _ & _ & EO & _ & _ & EF & _ & _ & EU & _).
  destruct (tank_energy _ S) as [E1 E2]. cbn [tank_nu n_method].
  split; [apply tank_wf|]. split; [apply tank_clean|]. split; [reflexivity|]. split; [now apply tank_init|].
  split; [now apply tank_m_wf|]. split; [now apply tank_counters|]. split; [exact EC|]. split; [now apply tank_closed|].
  split; [exact EO|]. split; [exact EF|]. split; [exact EU|]. split; [now apply tank_simulation|]. split; [reflexivity|].
  split; [exact E1|]. split; [now apply tank_pd|]. split; [exact E2|].
  split; [apply (tank_selects obs0 1); lia|]. split; [apply (tank_selects obs0 2); lia|]. split; [exact tank_counts2|].
  split; [|intros n _; now apply tank_absorbs].
  intros n [_ Hn]. split; [now apply tank_solves|]. intros r1. now apply tank_exact.
Qed.

(** The last value is divided by the step although it is that of one increment:
    here it is 1, where the increments give -2 and 2, with mean 0. *)
Theorem C49_last_value_refuted : exists nu F Fl Fnl out sts h w t l fs, let m := n_method nu in
  wf m /\ counters_ok m /\ closed nu /\ simulation nu F Fl Fnl out sts h /\
  tempF Sall m = Ok F /\ (forall n, n < 4 -> vanish (during nu sts n) F) /\ assoc fs_symbol (n_subs nu) = Some fs /\
  selects (length (h_data h)) w t 0 4 2 /\
  dtE_delta fs nu (with_window h w) t = Ok l /\ length l = 2 /\ nth 1 l 0%R = 1%R /\
  stored_power fs (during nu sts 2) m = (-2)%R /\ stored_power fs (during nu sts 3) m = 2%R.
Proof. exact tank_last. Qed.
Print Assumptions C49_last_value_refuted.

(** When the step does not divide the number of steps, the energy is refused. *)
Theorem C49_step_refuted : forall nu F Fl Fnl out sts h w t a b s k x, let m := n_method nu in
  counters_ok m -> closed nu -> c_observers m = [] ->
  simulation nu F Fl Fnl out sts h -> known_symbols nu (c_H m) -> In x (free_symbols (c_H m)) -> In x (c_x m) ->
  selects (length (h_data h)) w t a b s -> counts a b s k -> Nat.modulo (b - a) s <> 0 ->
  E_reader nu (with_window h w) t = Err ValueError.
Proof. exact step_refused. Qed.
Print Assumptions C49_step_refuted.

(** One step out of three, in four. *)
Example C49_step_example : selects (length (h_data (tank_file obs0))) (every 3) all_steps 0 4 3 /\ counts 0 4 3 2 /\
  Nat.modulo (4 - 0) 3 <> 0 /\ In "x" (free_symbols (c_H (tank_m obs0))) /\ In "x" (c_x (tank_m obs0)).
Proof.
  split; [apply (tank_selects obs0 3); lia|]. split; [exact tank_counts3|]. split; [discriminate|].
  destruct (tank_fields _ some0) as (-> & _ & _ & _ & _ & _ & _ & _ & _ & -> & _). split; now left.
Qed.

(** Observers that depend on an argument make the energy fail, unless there are
    as many of them as selected steps. *)
Theorem C49_observers_refuted : forall nu F Fl Fnl out sts h w t a b s k x oe xo, let m := n_method nu in
  counters_ok m -> closed nu ->
  simulation nu F Fl Fnl out sts h -> known_symbols nu (c_H m) -> In x (free_symbols (c_H m)) -> In x (c_x m) ->
  (forall o, In o (map snd (c_observers m)) -> known_symbols nu o) ->
  In oe (map snd (c_observers m)) -> In xo (free_symbols oe) -> In xo (args_of m) ->
  selects (length (h_data h)) w t a b s -> counts a b s k -> length (c_observers m) <> k ->
  E_reader nu (with_window h w) t = Err ValueError.
Proof. exact observers_refused. Qed.
Print Assumptions C49_observers_refuted.

(** One observer and four steps. *)
Example C49_observers_example : let nu := tank_nu obs1 in let m := n_method nu in let h := tank_file obs1 in
  counters_ok m /\ closed nu /\ simulation nu tank_F tank_Fl [] tank_out (tank_states obs1) h /\
  known_symbols nu (c_H m) /\ (forall o, In o (map snd (c_observers m)) -> known_symbols nu o) /\
  In (Mul (Num 2) (Sym "x")) (map snd (c_observers m)) /\ In "x" (args_of m) /\
  selects (length (h_data h)) (every 1) all_steps 0 4 1 /\ counts 0 4 1 4 /\ length (c_observers m) <> 4.
Proof.
  cbv zeta. pose proof some1 as S. destruct (tank_fields _ S) as (_ & _ & _ & _ & _ & _ & _ & _ & EO & _ & EA & _).
  split; [now apply tank_counters|]. split; [now apply tank_closed|]. split; [now apply tank_simulation|].
  split; [exact (proj1 (tank_energy _ S))|]. cbn [tank_nu n_method]. rewrite EO.
  assert (I : In "x" (args_of (tank_m obs1))) by (rewrite EA; now left).
  split; [intros o [<-|[]] s [<-|[]]; left; exact I|]. split; [exact (or_introl eq_refl)|]. split; [exact I|].
  split; [apply (tank_selects obs1 1); lia|]. split; [exact tank_counts1|discriminate].
Qed.
