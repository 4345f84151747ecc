(** Properties of the elimination of linear dissipations: C13, C14. *)
From Coq Require Import String List ZArith QArith Reals Permutation.
From Verif Require Import Py Expr RSum Mat Core Spec_Core Spec_Connect Spec_Split Spec_Reduce StructProofs
  ConnectExamples ReduceProofs ReduceExamples.
Import ListNotations.
Local Open Scope string_scope.
Local Open Scope list_scope.
Local Open Scope nat_scope.

(** ** C13 *)

(** The reduced structure has exactly the solutions of the original equations
    in which the eliminated dissipations follow z = Z w. *)
Theorem C13_reduce_eliminates_linear_dissipations : forall inv c c',
  wf c -> (nr (c_Zl c) = Z.to_nat (c_wl c) \/ is_zero (c_Zl c) = true) -> c_force_wnl c = [] ->
  reduce_z inv c = ok c' ->
  exists lin keep A B, wf c' /\ c_wl c' = 0%Z /\ same_context c c' /\ reduced c c' lin keep /\
    nr A = length lin /\ nc A = length lin /\ nr B = length lin /\ nc B = length lin /\
    (lin = [] \/ inv A = Some B) /\ (forall r, dissipation_loop r c lin A) /\
    forall r, inverse_at r A B -> forall a b,
      b_eq_M_a (ntot c') (Mv r c') a b <->
      exists a0 b0, solves_with_laws r c lin a0 b0 /\
        forall k, k < ntot c' -> a0 (nth k keep 0) = a k /\ b0 (nth k keep 0) = b k.
Proof. exact reduce_z_behaviour. Qed.
Print Assumptions C13_reduce_eliminates_linear_dissipations.

(** It only fails when the loop matrix has no inverse; the components are then
    merely reordered. *)
Theorem C13_reduce_succeeds_or_reports : forall inv c,
  wf c -> (nr (c_Zl c) = Z.to_nat (c_wl c) \/ is_zero (c_Zl c) = true) -> c_force_wnl c = [] ->
  inv_shape inv ->
  (exists c', reduce_z inv c = ok c') \/
  (exists c1 sg lin A, reduce_z inv c = raise ValueError c1 /\ wf c1 /\ follows sg c c1 /\ same_context c c1 /\
     (forall j, In j lin <-> j < length (c_w c) /\ free_column (jacobian (c_z c) (c_w c)) (dx c ++ c_w c) j) /\
     nr A = length lin /\ nc A = length lin /\ (forall r, dissipation_loop r c lin A) /\ inv A = None).
Proof. exact reduce_z_total. Qed.
Print Assumptions C13_reduce_succeeds_or_reports.

(** The law replaced by z = Z w may have a constant term, which is lost. *)
Theorem C13_affine_laws_are_kept_refuted : exists inv c c' r a b,
  wf c /\ c_Zl c = zeros 0 0 /\ c_force_wnl c = [] /\ inv_sound inv r /\ reduce_z inv c = ok c' /\
  c_x c = ["x"] /\ c_x c' = ["x"] /\ ntot c' = 1 /\
  b_eq_M_a (ntot c) (Mv r c) a b /\
  (forall j, j < length (c_w c) -> b (length (c_x c) + j) = r (nth j (c_w c) "") /\
     a (length (c_x c) + j) = eval r (nth j (c_z c) (Num 0))) /\
  ~ b_eq_M_a (ntot c') (Mv r c') a b.
Proof. exact affine_refuted. Qed.
Print Assumptions C13_affine_laws_are_kept_refuted.

(** It may also depend on the variable of a nonlinear dissipation. *)
Theorem C13_coupled_laws_are_kept_refuted : exists inv c c' r a b,
  wf c /\ c_Zl c = zeros 0 0 /\ c_force_wnl c = [] /\ inv_sound inv r /\ reduce_z inv c = ok c' /\
  c_x c = ["x"] /\ c_w c = ["w1"; "w2"] /\ c_x c' = ["x"] /\ c_w c' = ["w2"] /\ ntot c' = 2 /\
  b_eq_M_a (ntot c) (Mv r c) a b /\
  (forall j, j < length (c_w c) -> b (length (c_x c) + j) = r (nth j (c_w c) "") /\
     a (length (c_x c) + j) = eval r (nth j (c_z c) (Num 0))) /\
  ~ b_eq_M_a (ntot c') (Mv r c') (fun k => a (nth k [0; 2] 0%nat)) (fun k => b (nth k [0; 2] 0%nat)).
Proof. exact cross_refuted. Qed.
Print Assumptions C13_coupled_laws_are_kept_refuted.

Example C13_example : wf damped /\ is_zero (c_Zl damped) = true /\ (forall r, inv_sound inv_id r) /\
  exists c', reduce_z inv_id damped = ok c' /\ c_x c' = ["x"] /\ c_w c' = ["w1"] /\
    c_u c' = ["u"] /\ ntot c' = 3 /\
    rows_of (c_M c') =
      [[Mul (Mul (Num (-2)) (Sym "R")) (Num 2); Num (-1); Num 1];
       [Num 1; Num 0; Num 0]; [Num (-1); Num 0; Num 0]].
Proof.
  split; [exact damped_wf|]. split; [reflexivity|]. split; [exact inv_id_sound|]. exact damped_reduce.
Qed.

(** ** C14 *)

Theorem C14_reduce_keeps_passivity : forall inv c c',
  wf c -> (nr (c_Zl c) = Z.to_nat (c_wl c) \/ is_zero (c_Zl c) = true) -> c_force_wnl c = [] ->
  reduce_z inv c = ok c' ->
  exists lin keep A B, reduced c c' lin keep /\ (lin = [] \/ inv A = Some B) /\
    nr A = length lin /\ nc A = length lin /\ (forall r, dissipation_loop r c lin A) /\
    forall r, inverse_at r A B -> passive (ntot c) (Mv r c) ->
      (forall v : rvec,
         (0 <= rsum (length lin) (fun p => v p * rsum (length lin) (fun q => slope r c lin p q * v q)))%R) ->
      passive (ntot c') (Mv r c').
Proof. exact reduce_z_passive. Qed.
Print Assumptions C14_reduce_keeps_passivity.

Example C14_example : forall r, (0 <= r "R")%R -> passive (ntot damped) (Mv r damped) /\
  forall v : rvec, (0 <= rsum 1 (fun p => v p * rsum 1 (fun q => slope r damped [1%nat] p q * v q)))%R.
Proof. intros r H. split; [apply damped_passive|exact (damped_slope r H)]. Qed.
