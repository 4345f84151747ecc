(** Power balance, output function and free symbols: C15, C43, C44. *)
From Coq Require Import String List ZArith QArith Reals Bool Lia.
From Verif Require Import Py Expr RSum Mat Core Spec_Core PowerProofs.
Import ListNotations.
Local Open Scope string_scope.
Local Open Scope list_scope.
Local Open Scope nat_scope.

(** ** C15 *)

(** [r] gives a value to every symbol, among which the time derivatives
    [dtx], the variables [w] and the outputs [y]. *)
Theorem C15_power_balance : forall c e r, wf c -> c_cy c = [] -> pd c = Ok e ->
  b_eq_M_a (ntot c) (Mv r c) (fun j => eval r (nth j (a_vec c) (Num 0)))
    (fun i => r (nth i (b_vec c) "")) ->
  (rsum (length (c_x c)) (fun i => eval r (nth i (dxH c) (Num 0)) * r (nth i (dtx c) "")) +
   eval r e +
   rsum (length (c_y c)) (fun k => r (nth k (c_u c) "") * r (nth k (c_y c) "")) = 0)%R.
Proof. exact power_balance. Qed.
Print Assumptions C15_power_balance.

(** [pd()] is defined for every core without connectors and is the power of
    the dissipation laws and of the resistive structure. *)
Theorem C15_pd_value : forall c, wf c -> c_cy c = [] -> exists e, pd c = Ok e /\ forall r,
  eval r e = (rsum (length (c_w c)) (fun i => r (nth i (c_w c) "") * eval r (nth i (c_z c) (Num 0))) -
    rsum (ntot c) (fun i => eval r (nth i (a_vec c) (Num 0)) *
      rsum (ntot c) (fun j => Mv r c i j * eval r (nth j (a_vec c) (Num 0)))))%R.
Proof. exact pd_ok. Qed.
Print Assumptions C15_pd_value.

Theorem C15_dissipated_power_not_negative : forall c e r,
  wf c -> c_cy c = [] -> pd c = Ok e -> passive (ntot c) (Mv r c) ->
  (forall i, i < length (c_w c) -> (0 <= r (nth i (c_w c) "") * eval r (nth i (c_z c) (Num 0)))%R) ->
  (0 <= eval r e)%R.
Proof. exact pd_nonneg. Qed.
Print Assumptions C15_dissipated_power_not_negative.

(** With connectors, [pd()] raises. *)
Theorem C15_pd_with_connectors_raises : forall c,
  wf c -> c_cy c <> [] -> pd c = Err IndexError.
Proof. exact pd_connectors. Qed.
Print Assumptions C15_pd_with_connectors_raises.

Example C15_example : wf rc_core /\ c_cy rc_core = [] /\
  b_eq_M_a (ntot rc_core) (Mv rc_env rc_core)
    (fun j => eval rc_env (nth j (a_vec rc_core) (Num 0)))
    (fun i => rc_env (nth i (b_vec rc_core) "")).
Proof. exact (rc_solution). Qed.

(** ** C43 *)
Theorem C43_freesymbols_refuted : exists c s,
  In s (free_symbols (c_H c)) /\ ~ In s (freesymbols c).
Proof. exact freesymbols_refuted. Qed.
Print Assumptions C43_freesymbols_refuted.

(** No symbol is ever returned. *)
Theorem C43_freesymbols_always_empty : forall c, freesymbols c = [].
Proof. exact freesymbols_empty. Qed.
Print Assumptions C43_freesymbols_always_empty.

(** ** C44 *)
Theorem C44_output_without_connectors : forall c, wf c -> counters_ok c -> c_cy c = [] ->
  exists out, output c = Ok out /\ length out = length (c_y c) /\
  forall r k, k < length (c_y c) -> eval r (nth k out (Num 0)) =
    rsum (ntot c) (fun j => Mv r c (length (c_x c) + length (c_w c) + k)%nat j *
                            eval r (nth j (a_vec c) (Num 0)))%R.
Proof. exact output_no_connector. Qed.
Print Assumptions C44_output_without_connectors.

Theorem C44_output_with_connectors_refuted : exists c out r k,
  wf c /\ counters_ok c /\ output c = Ok out /\ k < length (c_y c) /\
  eval r (nth k out (Num 0)) <>
    rsum (ntot c) (fun j => Mv r c (length (c_x c) + length (c_w c) + k)%nat j *
                      eval r (nth j (a_vec c ++ map Sym (c_cu c)) (Num 0)))%R.
Proof. exact output_connector_refuted. Qed.
Print Assumptions C44_output_with_connectors_refuted.

(** What is missing is exactly the term of the connectors. *)
Theorem C44_output_missing_term : forall c out, wf c -> counters_ok c -> output c = Ok out ->
  forall r k, k < length (c_y c) ->
  (eval r (nth k out (Num 0)) +
   rsum (length (c_cy c)) (fun l => Mv r c (length (c_x c) + length (c_w c) + k)%nat
      (length (c_x c) + length (c_w c) + length (c_y c) + l)%nat * r (nth l (c_cu c) "")))%R =
  rsum (ntot c) (fun j => Mv r c (length (c_x c) + length (c_w c) + k)%nat j *
                      eval r (nth j (a_vec c ++ map Sym (c_cu c)) (Num 0)))%R.
Proof. exact output_missing_term. Qed.
Print Assumptions C44_output_missing_term.

Example C44_example : wf rc_core /\ counters_ok rc_core /\
  output rc_core = Ok [Mul (Num (-1)) (Mul (Num (1 # 2)) (Mul (Num 2) (Sym "x1")))].
Proof. split; [apply rc_solution|]. split; [split; cbn; lia|vm_compute; reflexivity]. Qed.
