(** The power balance of numerical methods: C19. *)
From Coq Require Import String List ZArith QArith Qreals Reals Permutation Lia.
From Verif Require Import Py Expr RSum Mat Core Spec_Core Subs Method StructProofs Spec_Calculus Spec_Method
  MethodBalance MethodExamples.
Import ListNotations.
Local Open Scope string_scope.
Local Open Scope list_scope.
Local Open Scope nat_scope.

(** A solved step balances the discrete variation of the energy with the power
    of the laws, of the ports and of the structure.  The method has the states
    and the variables of the core, up to the order, and its energy up to the
    symbolic parameters; without split the first condition of [exact_step] on
    the energy always holds. *)
Theorem C19_step_power_balance : forall f c, wf c -> clean_names c -> c_cy c = [] -> f_grad f <> OtherGrad ->
  exists m F out, method_init f c = ok m /\ tempF Sall m = Ok F /\ output m = Ok out /\
    Permutation (c_x c) (c_x m) /\ Permutation (c_w c) (c_w m) /\ c_u m = c_u c /\ c_y m = c_y c /\
    length F = length (c_x c) + length (c_w c) /\ length out = length (c_y c) /\
    (forall r, exists r', agree_off (map fst (subsexprs c)) r r' /\ eval r (c_H m) = eval r' (c_H c)) /\
    (f_split f = false -> splits_energy m) /\
    (forall r, absorbs (replaced c) r c -> absorbs (replaced c) r m) /\
    forall r r1, solves r F -> moved 1 r (c_x m) (dx m) r1 -> exact_step f m r r1 ->
      (r fs_symbol * (eval r1 (c_H m) - eval r (c_H m)) + power_laws r m + power_ports r m out =
       - power_structure r m (a_vec m))%R.
Proof. exact step_balance. Qed.
Print Assumptions C19_step_power_balance.

(** Over any number of steps the energy varies by what the steps exchange. *)
Theorem C19_energy_over_runs : forall f c, wf c -> clean_names c -> c_cy c = [] -> f_grad f <> OtherGrad ->
  exists m F out, method_init f c = ok m /\ tempF Sall m = Ok F /\ output m = Ok out /\
    forall N run, solved_run f m F N run ->
      (eval (run N) (c_H m) - eval (run 0%nat) (c_H m) =
       - rsum N (fun n => (power_laws (run n) m + power_ports (run n) m out +
                           power_structure (run n) m (a_vec m)) / run n fs_symbol))%R.
Proof. exact run_balance. Qed.
Print Assumptions C19_energy_over_runs.

(** A core that absorbs power has an energy that never increases without input. *)
Theorem C19_energy_never_increases : forall f c, wf c -> clean_names c -> c_cy c = [] -> f_grad f <> OtherGrad ->
  exists m F, method_init f c = ok m /\ tempF Sall m = Ok F /\
    forall N run, solved_run f m F N run ->
      (forall n u, n < N -> In u (c_u c) -> run n u = 0%R) ->
      (forall n, n < N -> absorbs (replaced c) (run n) c) ->
      forall i j, i <= j <= N -> (eval (run j) (c_H m) <= eval (run i) (c_H m))%R.
Proof. exact run_dissipates. Qed.
Print Assumptions C19_energy_never_increases.

(** A quartic storage with a resistor falls from energy 1 to 0. *)
Example C19_example : wf quartic /\ clean_names quartic /\ c_cy quartic = [] /\ f_grad conf <> OtherGrad /\
  (exists m, method_init conf quartic = ok m /\ c_x m = ["x"]) /\
  (forall N, solved_run conf quartic_m quartic_F N quartic_run) /\
  (forall n, quartic_run n "u" = 0%R) /\
  (forall n, absorbs (replaced quartic) (quartic_run n) quartic).
Proof.
  split; [exact quartic_wf|]. split; [exact quartic_names|]. split; [reflexivity|]. split; [discriminate|].
  split; [exact quartic_init|]. split; [exact quartic_solved|]. split; [intros [|n]; reflexivity|exact quartic_absorbs].
Qed.

(** The condition on the energy is not met by the default configuration: with
    the split, a nonlinear storage driven by a flow is given the gradient of a
    quadratic energy, and a solved step does not balance. *)
Theorem C19_default_split_refuted : exists c m F out r r1,
  wf c /\ clean_names c /\ c_cy c = [] /\
  method_init default_config c = ok m /\ tempF Sall m = Ok F /\ output m = Ok out /\
  solves r F /\ moved 1 r (c_x m) (dx m) r1 /\ smooth_between r r1 (c_H m) smooth /\
  (forall s, In s (dx m) -> (Q2R (f_epsdg default_config) <= r s)%R) /\
  (r fs_symbol * (eval r1 (c_H m) - eval r (c_H m)) + power_laws r m + power_ports r m out <>
   - power_structure r m (a_vec m))%R.
Proof. exact split_balance_refuted. Qed.
Print Assumptions C19_default_split_refuted.
