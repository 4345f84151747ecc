(** Discrete gradients and symbolic derivatives: C15 (rate), C16, C17, C18, C36. *)
From Coq Require Import String List ZArith QArith Qreals Reals.
From Verif Require Import Py Expr RSum Mat Core Spec_Calculus Calculus CalculusProofs CalculusExamples.
Import ListNotations.
Local Open Scope string_scope.
Local Open Scope list_scope.
Local Open Scope R_scope.

(** ** C15 *)

(** Along every trajectory that moves the states only, the power stored in
    [C15_power_balance] is the time derivative of the energy. *)
Theorem C15_stored_power_is_the_rate_of_energy : forall c (g : R -> env) (v : env) t,
  c_dxH c = None -> NoDup (c_x c) -> smooth (g t) (c_H c) ->
  (forall s, In s (c_x c) -> derivable_pt_lim (fun t => g t s) t (v s)) ->
  (forall s, ~ In s (c_x c) -> derivable_pt_lim (fun t => g t s) t 0) ->
  derivable_pt_lim (fun t => eval (g t) (c_H c)) t
    (rsum (length (c_x c)) (fun i => eval (g t) (nth i (dxH c) (Num 0)) * v (nth i (c_x c) ""))).
Proof. exact energy_rate. Qed.
Print Assumptions C15_stored_power_is_the_rate_of_energy.

(** ** C16 *)

Theorem C16_energy_chain_rule : forall H x dx tol g r i, length dx = length x ->
  discrete_gradient_monovar H x dx tol = Ok g -> (i < length x)%nat -> 0 < Q2R tol ->
  r (nth i dx "") < - Q2R tol \/ Q2R tol <= r (nth i dx "") ->
  eval r (nth i g (Num 0)) * r (nth i dx "") =
  eval (upd r (nth i x "") (r (nth i x "") + r (nth i dx ""))) H - eval r H.
Proof. exact mono_chain. Qed.
Print Assumptions C16_energy_chain_rule.

Theorem C16_derivative_at_zero_increment : forall H x dx tol g r i, length dx = length x ->
  discrete_gradient_monovar H x dx tol = Ok g -> (i < length x)%nat -> 0 < Q2R tol ->
  r (nth i dx "") = 0 -> smooth r H ->
  is_partial r (nth i x "") H (eval r (nth i g (Num 0))).
Proof. exact mono_derivative. Qed.
Print Assumptions C16_derivative_at_zero_increment.

Theorem C16_one_component_per_state : forall H x dx tol,
  (length dx = length x -> exists g, discrete_gradient_monovar H x dx tol = Ok g /\ length g = length x) /\
  (length dx <> length x -> discrete_gradient_monovar H x dx tol = Err AssertionError).
Proof. exact mono_accepts. Qed.
Print Assumptions C16_one_component_per_state.

(** Between zero and the tolerance the chain rule fails, whatever the
    tolerance. *)
Theorem C16_small_increments_refuted : forall tol, 0 < Q2R tol -> exists g r,
  discrete_gradient_monovar (Pow (Sym "x") 3) ["x"] ["dx"] tol = Ok g /\
  0 < r "dx" < Q2R tol /\
  eval r (nth 0 g (Num 0)) * r "dx" <>
  eval (upd r "x" (r "x" + r "dx")) (Pow (Sym "x") 3) - eval r (Pow (Sym "x") 3).
Proof. exact cubic_small. Qed.
Print Assumptions C16_small_increments_refuted.

Example C16_example : exists g,
  discrete_gradient_monovar springs ["x1"; "x2"] ["dx1"; "dx2"] (1 # 1024) = Ok g /\
  0 < Q2R (1 # 1024) /\ springs_env "dx2" < - Q2R (1 # 1024) /\ Q2R (1 # 1024) <= springs_env "dx1".
Proof.
  eexists. split; [reflexivity|]. rewrite Q2R_eps. unfold springs_env. cbn. repeat split; Lra.lra.
Qed.

(** ** C17 *)

Theorem C17_energy_chain_rule : forall H x dx tol g r r1, NoDup x -> length dx = length x ->
  (forall s, In s dx -> ~ In s x) ->
  0 < Q2R tol -> Q2R tol ^ 2 <= norm2 r dx -> moved 1 r x dx r1 ->
  discrete_gradient_multivar H x dx tol = Ok g ->
  work r g dx = eval r1 H - eval r H.
Proof. exact multi_work. Qed.
Print Assumptions C17_energy_chain_rule.

Theorem C17_gradient_at_zero_increment : forall H x dx tol g r i, NoDup x -> length dx = length x ->
  (forall s, In s dx -> ~ In s x) -> 0 < Q2R tol -> (forall s, In s dx -> r s = 0) ->
  discrete_gradient_multivar H x dx tol = Ok g -> (i < length x)%nat -> smooth r H ->
  is_partial r (nth i x "") H (eval r (nth i g (Num 0))).
Proof. exact multi_derivative. Qed.
Print Assumptions C17_gradient_at_zero_increment.

Theorem C17_one_component_per_state : forall H x dx tol,
  (length dx = length x -> exists g, discrete_gradient_multivar H x dx tol = Ok g /\ length g = length x) /\
  (length dx <> length x -> discrete_gradient_multivar H x dx tol = Err AssertionError).
Proof. exact multi_accepts. Qed.
Print Assumptions C17_one_component_per_state.

Example C17_example : moved 1 springs_env ["x1"; "x2"] ["dx1"; "dx2"]
    (upd (upd springs_env "x1" (5/4)) "x2" 1) /\
  Q2R (1 # 1024) ^ 2 <= norm2 springs_env ["dx1"; "dx2"] /\
  eval (upd (upd springs_env "x1" (5/4)) "x2" 1) springs - eval springs_env springs = -477/32.
Proof.
  split; [exact springs_moved|]. split; [|exact springs_difference].
  rewrite Q2R_eps. unfold norm2, springs_env. cbn. Lra.lra.
Qed.

(** ** C18 *)

Theorem C18_theta_gradient_on_quadratics : forall r H x dx A b c t g r1, NoDup x ->
  length dx = length x -> (forall s, In s dx -> ~ In s x) ->
  quadratic r H x A b c -> gradient_theta H x dx t = Ok g -> moved 1 r x dx r1 ->
  work r g dx = eval r1 H - eval r H + (Q2R t - 1/2) * qform r (length x) dx A.
Proof. exact quadratic_theta. Qed.
Print Assumptions C18_theta_gradient_on_quadratics.

Theorem C18_trapezoidal_gradient_on_quadratics : forall r H x dx A b c g r1, NoDup x ->
  length dx = length x -> (forall s, In s dx -> ~ In s x) ->
  quadratic r H x A b c -> gradient_trapez H x dx = Ok g -> moved 1 r x dx r1 ->
  work r g dx = eval r1 H - eval r H.
Proof. exact quadratic_trapez. Qed.
Print Assumptions C18_trapezoidal_gradient_on_quadratics.

(** Hypotheses met, with a quadratic form that is not zero at the increment:
    the theta gradient is not exact for theta <> 1/2. *)
Example C18_example : quadratic springs_env qsprings ["x1"; "x2"]
    (fun i j => match i, j with O, O => 3 | O, S O | S O, O => 1 | _, _ => 0 end)
    (fun i => match i with S O => 2 | _ => 0 end) 0 /\
  qform springs_env 2 ["dx1"; "dx2"]
    (fun i j => match i, j with O, O => 3 | O, S O | S O, O => 1 | _, _ => 0 end) = -5/16.
Proof. split; [exact qsprings_quadratic|exact qsprings_form]. Qed.

(** ** C36 *)

Theorem C36_gradient_is_the_derivative : forall H x r i, smooth r H -> (i < length x)%nat ->
  is_partial r (nth i x "") H (eval r (nth i (gradient H x) (Num 0))).
Proof. exact gradient_partial. Qed.
Print Assumptions C36_gradient_is_the_derivative.

Theorem C36_jacobian_is_the_derivative : forall f x r i j, (i < length f)%nat -> (j < length x)%nat ->
  smooth r (nth i f (Num 0)) ->
  is_partial r (nth j x "") (nth i f (Num 0)) (eval r (ent (jacobian f x) i j)).
Proof. exact jacobian_partial. Qed.
Print Assumptions C36_jacobian_is_the_derivative.

(** The Hessian is the derivative along [x_j] of a function [g] that is itself
    the partial derivative of [H] along [x_i] around the point. *)
Theorem C36_hessian_is_the_second_derivative : forall H x r i j,
  smooth r H -> (i < length x)%nat -> (j < length x)%nat ->
  exists (g : env -> R) (eps : R), 0 < eps /\
    (forall h, Rabs h < eps ->
       let r' := upd r (nth j x "") (r (nth j x "") + h) in is_partial r' (nth i x "") H (g r')) /\
    derivable_pt_lim (fun t => g (upd r (nth j x "") t)) (r (nth j x "")) (eval r (ent (hessian H x) i j)).
Proof. exact hessian_partial. Qed.
Print Assumptions C36_hessian_is_the_second_derivative.

Example C36_example : smooth diode_env diode /\
  eval diode_env (nth 0 (gradient diode ["x"]) (Num 0)) = 0.
Proof. split; [exact diode_smooth|exact diode_slope]. Qed.
