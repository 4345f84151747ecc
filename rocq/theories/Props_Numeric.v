(** Numerical evaluation and simulation: C20 to C24, and C19 over simulations. *)
From Coq Require Import String List ZArith QArith Qreals Reals Bool Lia.
From Verif Require Import Py Tools Expr RSum Mat Core Spec_Core Method StructProofs Spec_Calculus Spec_Method
  Numeric Spec_Numeric NumericProofs NumericUpdateOk NumericSim NumericExamples Data DataExamples Spec_Data.
Import ListNotations.
Local Open Scope string_scope.
Local Open Scope list_scope.
Local Open Scope nat_scope.

(** When the jacobian of the linear part is invertible, the implicit function
    vanishes exactly when the linear unknowns have the value computed from the
    nonlinear ones, and the reduced function vanishes.  [r] gives any values to
    the linear unknowns and [r'] the ones under test. *)
Theorem C20_split_loses_no_solution : forall m, wf m -> counters_ok m -> NoDup (v_of Sl m) -> linear_part m ->
  exists F Fl Fnl Jll Jnll Gl Gnl,
    tempF Sall m = Ok F /\ tempF Sl m = Ok Fl /\ tempF Snl m = Ok Fnl /\
    jactempF Sl Sl m = Ok Jll /\ jactempF Snl Sl m = Ok Jnll /\ G_of Sl m = Ok Gl /\ G_of Snl m = Ok Gnl /\
    let l := length (v_of Sl m) in
    let n := length (v_of Snl m) in
    forall r r' B, regular m Fl Fnl r -> agree_off (v_of Sl m) r r' ->
      is_inverse l (fun i j => eval r (ent Jll i j)) B ->
      (vanish r' F <->
       (forall i, i < l -> (r' (nth i (v_of Sl m) "") = - rsum l (fun k => B i k * eval r (nth k Gl (Num 0))))%R) /\
       (forall i, i < n -> (eval r (nth i Gnl (Num 0)) -
          rsum l (fun j => eval r (ent Jnll i j) * rsum l (fun k => B j k * eval r (nth k Gl (Num 0)))) = 0)%R)).
Proof. exact core_split. Qed.
Print Assumptions C20_split_loses_no_solution.

(** Two linear unknowns and a nonlinear one, with the default configuration. *)
Example C20_example : wf mixed_m /\ counters_ok mixed_m /\ NoDup (v_of Sl mixed_m) /\ linear_part mixed_m /\
  method_init default_config mixed = ok mixed_m /\ v_of Sl mixed_m = ["dx1"; "w"] /\ v_of Snl mixed_m = ["dx2"] /\
  exists Fl Fnl Jll B, tempF Sl mixed_m = Ok Fl /\ tempF Snl mixed_m = Ok Fnl /\ jactempF Sl Sl mixed_m = Ok Jll /\
    regular mixed_m Fl Fnl ones /\ is_inverse 2 (fun i j => eval ones (ent Jll i j)) B.
Proof.
  destruct mixed_fields as (_ & _ & _ & _ & _ & _ & L & N & _).
  split; [exact mixed_m_wf|]. split; [exact mixed_counters|].
  split; [rewrite L; repeat constructor; cbn; intuition discriminate|]. split; [exact mixed_linear|].
  split; [exact mixed_init|]. split; [exact L|]. split; [exact N|]. destruct mixed_inverse as [B HB].
  exists (mixed_F Sl), (mixed_F Snl), mixed_J, B. split; [vm_compute; reflexivity|]. split; [vm_compute; reflexivity|].
  split; [exact mixed_jac|]. split; [exact mixed_regular|exact HB].
Qed.

(** One update, from any state: nothing is raised but the error of a singular
    matrix; the states move by the increments found before; inputs and
    parameters are the given ones; the stored gradient, laws and outputs are
    those of the final state; the linear part of the implicit function vanishes,
    and either all of it does or its norm is stored and the unknowns are
    obtained by the iterations of Newton's method on the reduced function. *)
Theorem C20_update_solves : forall nu, let m := n_method nu in
  wf m -> counters_ok m -> c_cy m = [] -> closed nu -> inv_correct (n_inv nu) -> linear_part m ->
  exists F Fl Fnl out, tempF Sall m = Ok F /\ tempF Sl m = Ok Fl /\ tempF Snl m = Ok Fnl /\ output m = Ok out /\
    forall st u p, length (st_args st) = length (args_of m) -> length u = length (c_u m) -> length p = length (c_p m) ->
      safe (update nu u p st) (updated nu F Fl Fnl out u p st).
Proof. exact update_ok. Qed.
Print Assumptions C20_update_solves.

Example C20_update_example : wf (n_method mixed_nu) /\ counters_ok (n_method mixed_nu) /\ c_cy (n_method mixed_nu) = [] /\
  closed mixed_nu /\ inv_correct (n_inv mixed_nu) /\ linear_part (n_method mixed_nu) /\
  length (args_of (n_method mixed_nu)) = 6 /\ has_l (n_method mixed_nu) = true /\ has_nl (n_method mixed_nu) = true.
Proof.
  split; [exact mixed_m_wf|]. split; [exact mixed_counters|]. split; [vm_compute; reflexivity|].
  split; [exact mixed_closed|]. split; [exact inv12_correct|]. split; [exact mixed_linear|].
  split; [vm_compute; reflexivity|]. split; vm_compute; reflexivity.
Qed.

(** The loop stops after at most [n] passes; its result is the state after the
    reported number of passes; no earlier state met a condition to stop. *)
Theorem C21_loop_stops : forall (S : Type) (body : S -> result S) (res step : S -> result R) (eps : R) n s s' k,
  iterate body res step eps n s = Ok (s', k) ->
  k <= n /\ applied body k s s' /\
  (exists a, res s' = Ok a /\ ((a <= eps)%R \/ k = n \/ exists b, step s' = Ok b /\ (b <= eps)%R)) /\
  (forall j t, j < k -> applied body j s t -> exists a b, res t = Ok a /\ step t = Ok b /\ (eps < a)%R /\ (eps < b)%R).
Proof. exact @iterate_ok. Qed.
Print Assumptions C21_loop_stops.

(** It returns a result if its parts do. *)
Theorem C21_loop_returns : forall (S : Type) (body : S -> result S) (res step : S -> result R) (eps : R) (P : S -> Prop),
  (forall s, P s -> exists a, res s = Ok a) -> (forall s, P s -> exists b, step s = Ok b) ->
  (forall s, P s -> exists s', body s = Ok s' /\ P s') ->
  forall n s, P s -> exists s' k, iterate body res step eps n s = Ok (s', k) /\ P s'.
Proof. exact @iterate_total. Qed.
Print Assumptions C21_loop_returns.

(** The iterations of a method: the counter [it] is the number of passes made,
    and tells why they stopped. *)
Theorem C21_method_iterations : forall nu l res step st st', iterexecs nu l res step st = Ok st' ->
  exists st0 st1, set nu step (Sc 1) st = Ok st0 /\ applied (execs nu l) (st_it st') st0 st1 /\
    st_args st' = st_args st1 /\ st_vals st' = st_vals st1 /\ st_it st' <= n_maxit nu /\
    exists a, get nu res st1 = Ok (Sc a) /\
      ((a <= n_eps nu)%R \/ st_it st' = n_maxit nu \/ exists b, get nu step st1 = Ok (Sc b) /\ (b <= n_eps nu)%R).
Proof. exact iterexecs_ok. Qed.
Print Assumptions C21_method_iterations.

(** Halving 8 until it is at most 1 takes three passes out of five. *)
Example C21_example : iterate (fun x => Ok (x / 2)%R) (fun x => Ok x) (fun x => Ok 2%R) 1%R 5 8%R = Ok ((8/2/2/2)%R, 3).
Proof.
  cbn. repeat match goal with |- context [Rlt_dec 1 ?x] =>
    destruct (Rlt_dec 1 x); [|try (exfalso; Lra.lra)]; try (exfalso; Lra.lra) end.
  reflexivity.
Qed.

(** In a simulation of any length, the samples are as many as the shorter
    sequence, the inputs and parameters stored are the ones supplied, every
    stored state is the previous one plus its increment, and every sample is
    read from the state left by one update from the state before. *)
Theorem C22_simulation_chains : forall nu, let m := n_method nu in
  wf m -> counters_ok m -> c_cy m = [] -> closed nu -> inv_correct (n_inv nu) -> linear_part m ->
  exists F Fl Fnl out, tempF Sall m = Ok F /\ tempF Sl m = Ok Fl /\ tempF Snl m = Ok Fnl /\ output m = Ok out /\
    forall names us ps st, incl names recordable ->
      Forall (fun u => length u = length (c_u m)) us -> Forall (fun p => length p = length (c_p m)) ps ->
      length (st_args st) = length (args_of m) ->
      safe (process_py nu names us ps st) (fun '(rows, st') => length rows = Nat.min (length us) (length ps) /\
        chained m names us ps rows /\
        exists sts, nth_error sts 0 = Some st /\ nth_error sts (length rows) = Some st' /\
          trace nu F Fl Fnl out names us ps rows sts).
Proof. exact simulation_ok. Qed.
Print Assumptions C22_simulation_chains.

(** A simulation whose steps solve the implicit function balances the energy. *)
Theorem C22_simulation_balance : forall f c m F Fl Fnl out nu names us ps rows sts,
  wf c -> clean_names c -> c_cy c = [] -> f_grad f <> OtherGrad -> method_init f c = ok m ->
  tempF Sall m = Ok F -> output m = Ok out -> n_method nu = m ->
  (forall s, In s (free_symbols (c_H m)) -> In s (c_x m) \/ In s (map fst (n_subs nu))) ->
  (exists fs, assoc fs_symbol (n_subs nu) = Some fs /\ (0 < fs)%R) ->
  length rows = Nat.min (length us) (length ps) -> trace nu F Fl Fnl out names us ps rows sts ->
  let run n := senv nu (nth (S n) sts (mkState [] (fun _ => None) 0)) in
  (forall n, n < length rows -> vanish (run n) F /\
     forall r1, moved 1 (run n) (c_x m) (dx m) r1 -> exact_step f m (run n) r1) ->
  forall N, N < length rows ->
    (eval (run N) (c_H m) - eval (run 0%nat) (c_H m) =
     - rsum N (fun n => (power_laws (run n) m + power_ports (run n) m out +
                         power_structure (run n) m (a_vec m)) / run n fs_symbol))%R.
Proof. exact simulation_balance. Qed.
Print Assumptions C22_simulation_balance.

Example C22_example :
  (forall s, In s (free_symbols (c_H mixed_m)) -> In s (c_x mixed_m) \/ In s (map fst (n_subs mixed_nu))) /\
  (exists fs, assoc fs_symbol (n_subs mixed_nu) = Some fs /\ (0 < fs)%R) /\
  incl ["x"; "dx"; "u"; "y"] recordable /\
  Forall (fun u => length u = length (c_u mixed_m)) [[1%R]; [0%R]; [2%R]] /\
  Forall (fun p : list R => length p = length (c_p mixed_m)) [[]; []] /\
  length [0; 0; 0; 0; 0; 0]%R = length (args_of mixed_m).
Proof.
  split.
  { destruct mixed_fields as (-> & _). let t := eval vm_compute in (free_symbols (c_H mixed_m)) in change (free_symbols (c_H mixed_m)) with t.
    intros s Hs. left. cbn in *. tauto. }
  split; [exists 1%R; split; [reflexivity|Lra.lra]|].
  split; [intros s; cbn; tauto|]. split; [repeat constructor|]. split; [repeat constructor|]. vm_compute. reflexivity.
Qed.

(** A simulation of four steps that meets the hypotheses of the balance. *)
Example C22_balance_example : let nu := tank_nu obs0 in let m := n_method nu in
  wf (tank obs0) /\ clean_names (tank obs0) /\ c_cy (tank obs0) = [] /\ method_init default_config (tank obs0) = ok m /\
  tempF Sall m = Ok tank_F /\ output m = Ok tank_out /\
  (forall s, In s (free_symbols (c_H m)) -> In s (c_x m) \/ In s (map fst (n_subs nu))) /\
  trace nu tank_F tank_Fl [] tank_out [] tank_us tank_ps [[]; []; []; []] (tank_states obs0) /\
  let run n := senv nu (nth (S n) (tank_states obs0) (mkState [] (fun _ => None) 0)) in
  forall n, n < 4 -> vanish (run n) tank_F /\
    forall r1, moved 1 (run n) (c_x m) (dx m) r1 -> exact_step default_config m (run n) r1.
Proof.
  cbv zeta. pose proof some0 as S. destruct (tank_fields _ S) as (_ & _ & _ & _ & _ & _ & _ & _ & _ & _ & _ & EF & _ & _ & EU & _).
  split; [apply tank_wf|]. split; [apply tank_clean|]. split; [reflexivity|]. split; [exact (tank_init _ S)|].
  split; [exact EF|]. split; [exact EU|]. split; [exact (proj2 (tank_energy _ S))|]. split; [exact (tank_trace _ S)|].
  intros n Hn. split; [exact (tank_solves _ n S Hn)|]. intros r1. exact (tank_exact _ n r1 S Hn).
Qed.

(** Whatever the order in which dependencies are visited, and whatever the
    names: the order lists each name once, after its dependencies, and lists
    the names asked for, what they need and the groups of arguments. *)
Theorem C23_order_respects_dependencies : forall deps rank, ranked deps rank ->
  (forall n, In n ["dx"; "w"; "u"; "p"] -> deps n = None) ->
  forall fuel names, (forall n, In n names -> rank n < fuel) ->
  exists order, order_of deps fuel names = Ok order /\ NoDup order /\ sorted_for deps order /\
    forall d, In d order <-> In d ["dx"; "w"; "u"; "p"] \/ exists n, In n names /\ needed deps n d.
Proof. exact order_ok. Qed.
Print Assumptions C23_order_respects_dependencies.

Theorem C23_method_order : forall m deps fuel, deps_for m deps -> 4 < fuel ->
  exists order, update_actions_deps deps fuel m = Ok order /\ NoDup order /\ sorted_for deps order /\
    forall d, In d order <-> In d ["dx"; "w"; "u"; "p"] \/ exists n, In n (action_names m) /\ needed deps n d.
Proof. exact method_order. Qed.
Print Assumptions C23_method_order.

(** The dependencies of the operations, in the order they are written. *)
Example C23_example :
  let deps s := option_map deps_of (assoc s (ops mixed_m)) in
  deps_for mixed_m deps /\
  (exists order, update_actions_deps deps 5 mixed_m = Ok order /\ length order = 28 /\
     firstn 9 order = ["x"; "dx"; "ud_x"; "o"; "ud_o"; "jactempFll"; "ijactempFll"; "Gl"; "jactempFnll"]).
Proof.
  split.
  - intros s. cbv beta. destruct (assoc s (ops mixed_m)) as [o|]; cbn; [|reflexivity].
    exists (deps_of o). split; [reflexivity|]. tauto.
  - eexists. split; [vm_compute; reflexivity|]. split; reflexivity.
Qed.

(** Reading a group of arguments gives the value of each of its symbols, in the
    order of the arguments. *)
Theorem C24_read : forall nu g st, let names := args_of (n_method nu) in
  NoDup names -> length (st_args st) = length names ->
  exists l, getarg nu g st = Ok (Ve l) /\ Forall2 (holds names st) (among names g) l.
Proof. exact getarg_holds. Qed.
Print Assumptions C24_read.

(** Writing a group gives its symbols the new values and changes nothing else. *)
Theorem C24_write : forall nu g vs st, let names := args_of (n_method nu) in
  NoDup names -> length (st_args st) = length names -> length vs = length (among names g) ->
  exists st', setarg nu g (Ve vs) st = Ok st' /\ st_vals st' = st_vals st /\ st_it st' = st_it st /\
    length (st_args st') = length names /\ Forall2 (holds names st') (among names g) vs /\
    forall s v, ~ In s g -> (holds names st' s v <-> holds names st s v).
Proof. exact setarg_holds. Qed.
Print Assumptions C24_write.

(** The groups [vl] and [x] of the example. *)
Example C24_example : NoDup (args_of mixed_m) /\ among (args_of mixed_m) ["w"; "dx1"] = ["dx1"; "w"] /\
  length [0; 0; 0; 0; 0; 0]%R = length (args_of mixed_m) /\
  exists l, inds_of ["w"; "dx1"] mixed_m = l /\ l = [2; 4].
Proof.
  split; [exact mixed_args|]. split; [vm_compute; reflexivity|]. split; [vm_compute; reflexivity|].
  eexists. split; [reflexivity|vm_compute; reflexivity].
Qed.
