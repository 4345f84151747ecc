(** The sum of two cores: C09. *)
From Coq Require Import String List ZArith QArith Reals Permutation Lia.
From Verif Require Import Py Expr RSum Mat Core Spec_Core Spec_Ops Spec_Add ConnectExamples AddProofs.
Import ListNotations.
Local Open Scope string_scope.
Local Open Scope list_scope.
Local Open Scope nat_scope.

(** [c1 + c2] has the variables of both, the sum of their energies, and its
    solutions are the pairs of a solution of [c1] and a solution of [c2]. *)
Theorem C09_sum_is_the_uncoupled_union : forall c1 c2,
  wf c1 -> counters_ok c1 -> wf c2 -> counters_ok c2 ->
  exists c, core_add c1 c2 = ok c /\ wf c /\
    c_x c = c_x c1 ++ c_x c2 /\ c_w c = c_w c1 ++ c_w c2 /\ c_z c = c_z c1 ++ c_z c2 /\
    c_u c = c_u c1 ++ c_u c2 /\ c_y c = c_y c1 ++ c_y c2 /\
    c_cu c = c_cu c1 ++ c_cu c2 /\ c_cy c = c_cy c1 ++ c_cy c2 /\
    c_p c = c_p c1 ++ c_p c2 /\ c_connectors c = c_connectors c1 ++ c_connectors c2 /\
    (forall r, eval r (c_H c) = eval r (c_H c1) + eval r (c_H c2))%R /\
    Permutation (left_rows c1 c2 ++ right_rows c1 c2) (seq 0 (ntot c)) /\
    (forall r a b, b_eq_M_a (ntot c) (Mv r c) a b <->
       b_eq_M_a (ntot c1) (Mv r c1) (fun i => a (nth i (left_rows c1 c2) 0)) (fun i => b (nth i (left_rows c1 c2) 0)) /\
       b_eq_M_a (ntot c2) (Mv r c2) (fun i => a (nth i (right_rows c1 c2) 0)) (fun i => b (nth i (right_rows c1 c2) 0))) /\
    (forall r, passive (ntot c) (Mv r c) <-> passive (ntot c1) (Mv r c1) /\ passive (ntot c2) (Mv r c2)) /\
    (forall r, conservative (ntot c) (Mv r c) <->
       conservative (ntot c1) (Mv r c1) /\ conservative (ntot c2) (Mv r c2)).
Proof. exact core_add_union. Qed.
Print Assumptions C09_sum_is_the_uncoupled_union.

(** Two cores with a storage and a port each: the rows interleave. *)
Example C09_example :
  wf loop_core /\ counters_ok loop_core /\ left_rows loop_core loop_core = [0; 1; 4; 5] /\
  right_rows loop_core loop_core = [2; 3; 6; 7] /\
  nth 2 (rows_of (c_M (fst (core_add loop_core loop_core)))) [] =
    [Num 0; Num 0; Num 0; Num 0; Num 0; Num 0; Num 1; Num 0].
Proof.
  split; [exact loop_wf|]. split; [split; cbn; lia|]. split; [reflexivity|]. split; [reflexivity|].
  vm_compute. reflexivity.
Qed.

(** The sum fails when the structure of one operand was never set, although
    each operand was built by the documented methods. *)
Theorem C09_every_sum_succeeds_refuted : exists inv c1 c2 e,
  reachable inv c1 /\ reachable inv c2 /\ wf c1 /\ snd (core_add c1 c2) = Some e.
Proof.
  set (st := AddStorages (One "x") (One (Pow (Sym "x") 2))).
  set (st2 := AddStorages (One "x2") (One (Pow (Sym "x2") 2))).
  exists (fun _ => None), (fst (apply_op (fun _ => None) InitM (fst (apply_op (fun _ => None) st (new_core ""))))),
    (fst (apply_op (fun _ => None) st2 (new_core ""))), ShapeError.
  split; [repeat constructor|]. split; [repeat constructor|]. split; [repeat split; discriminate|].
  vm_compute. reflexivity.
Qed.
Print Assumptions C09_every_sum_succeeds_refuted.
