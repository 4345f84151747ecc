(** Concrete eliminations of linear dissipations. *)
From Coq Require Import String List ZArith QArith Qreals Reals Bool Lra Lia Permutation.
From Verif Require Import Py Tools Expr ExprProofs RSum Mat MatProofs Core Spec_Core Spec_Connect Spec_Split
  Spec_Reduce StructProofs ConnectProofs ConnectExamples ReduceProofs.
Import ListNotations.
Local Open Scope string_scope.
Local Open Scope list_scope.
Local Open Scope nat_scope.

(** A storage, a nonlinear dissipation and a linear one. *)
Definition damped : core :=
  mkCore "damped" ["x"] (Pow (Sym "x") 2) None
    ["w1"; "w2"] [Pow (Sym "w1") 3; Mul (Sym "R") (Sym "w2")] ["u"] ["y"] [] [] []
    (of_rows 4
       [[Num 0; Num (-1); Num (-2); Num 1];
        [Num 1; Num 0; Num 0; Num 0];
        [Num 2; Num 0; Num 0; Num 0];
        [Num (-1); Num 0; Num 0; Num 0]])
    [] [] [] [] (zeros 0 0) [] (zeros 0 0) 0 0 0.

Lemma damped_wf : wf damped.
Proof. repeat split; discriminate. Qed.

Lemma damped_reduce : exists c', reduce_z inv_id damped = ok c' /\ c_x c' = ["x"] /\ c_w c' = ["w1"] /\
  c_u c' = ["u"] /\ ntot c' = 3 /\
  rows_of (c_M c') =
    [[Mul (Mul (Num (-2)) (Sym "R")) (Num 2); Num (-1); Num 1];
     [Num 1; Num 0; Num 0]; [Num (-1); Num 0; Num 0]].
Proof.
  exists (fst (reduce_z inv_id damped)).
  split; [apply is_ok; vm_compute; reflexivity|].
  split; [vm_compute; reflexivity|]. split; [vm_compute; reflexivity|]. split; [vm_compute; reflexivity|].
  split; [vm_compute; reflexivity|]. vm_compute. reflexivity.
Qed.

Lemma damped_passive r : passive (ntot damped) (Mv r damped).
Proof.
  intros a. apply Req_le. unfold Mv. change (ntot damped) with 4.
  assert (E : forall i j, i < 4 -> j < 4 ->
    ent (c_M damped) i j =
    nth j (nth i [[Num 0; Num (-1); Num (-2); Num 1]; [Num 1; Num 0; Num 0; Num 0];
            [Num 2; Num 0; Num 0; Num 0]; [Num (-1); Num 0; Num 0; Num 0]] []) (Num 0)).
  { intros [|[|[|[|]]]] [|[|[|[|]]]] Hi Hj; try lia; reflexivity. }
  cbn [rsum]. rewrite !E by lia. cbn - [Q2R].
  assert (E2 : Q2R 2 = 2%R) by (unfold Q2R; cbn; lra).
  assert (Em2 : Q2R (-2) = (-2)%R) by (unfold Q2R; cbn; lra).
  rewrite ?Q2R_0, ?Q2R_1, ?Q2R_m1, ?E2, ?Em2. ring.
Qed.

Lemma damped_slope r : (0 <= r "R")%R -> forall v : rvec,
  (0 <= rsum 1 (fun p => v p * rsum 1 (fun q => slope r damped [1%nat] p q * v q)))%R.
Proof.
  intros H v. cbn [rsum].
  assert (E : slope r damped [1] 0 0 = r "R").
  { unfold slope. cbn - [Q2R]. rewrite ?Q2R_0, ?Q2R_1. lra. }
  rewrite E. replace (0 + v 0%nat * (0 + r "R" * v 0%nat))%R with (r "R" * (v 0%nat * v 0%nat))%R by ring.
  apply Rmult_le_pos; [exact H|]. nra.
Qed.

(** A constant term of a linear law is lost. *)
Definition affine : core :=
  mkCore "affine" ["x"] (Pow (Sym "x") 2) None ["w"] [Add (Sym "w") (Num 1)] [] [] [] [] []
    (of_rows 2 [[Num 0; Num (-1)]; [Num 1; Num 0]])
    [] [] [] [] (zeros 0 0) [] (zeros 0 0) 0 0 0.

Lemma affine_refuted : exists inv c c' r a b,
  wf c /\ c_Zl c = zeros 0 0 /\ c_force_wnl c = [] /\ inv_sound inv r /\ reduce_z inv c = ok c' /\
  c_x c = ["x"] /\ c_x c' = ["x"] /\ ntot c' = 1 /\
  b_eq_M_a (ntot c) (Mv r c) a b /\
  (forall j, j < length (c_w c) -> b (length (c_x c) + j) = r (nth j (c_w c) "") /\
     a (length (c_x c) + j) = eval r (nth j (c_z c) (Num 0))) /\
  ~ b_eq_M_a (ntot c') (Mv r c') a b.
Proof.
  exists inv_id, affine, (fst (reduce_z inv_id affine)), (fun _ => 0%R),
    (fun i => match i with 1 => 1%R | _ => 0%R end), (fun i => match i with 0 => (-1)%R | _ => 0%R end).
  split; [repeat split; discriminate|]. split; [reflexivity|]. split; [reflexivity|].
  split; [apply inv_id_sound|]. split; [apply is_ok; vm_compute; reflexivity|].
  split; [reflexivity|]. split; [vm_compute; reflexivity|].
  assert (N : ntot (fst (reduce_z inv_id affine)) = 1) by (vm_compute; reflexivity).
  split; [exact N|]. split.
  - intros i Hi. unfold Mv. change (ntot affine) with 2 in *. cbn [rsum].
    destruct i as [|[|]]; [| |lia]; cbn - [Q2R]; rewrite ?Q2R_0, ?Q2R_1, ?Q2R_m1; lra.
  - split.
    + intros [|j] Hj; cbn in Hj; [|lia]. cbn - [Q2R]. rewrite ?Q2R_0, ?Q2R_1. lra.
    + rewrite N. intros H. specialize (H 0 ltac:(lia)). cbn [rsum] in H. lra.
Qed.

(** So is the dependence of a law on the variables of the nonlinear ones. *)
Definition cross : core :=
  mkCore "cross" ["x"] (Pow (Sym "x") 2) None ["w1"; "w2"]
    [Add (Sym "w1") (Pow (Sym "w2") 3); Pow (Sym "w2") 3] [] [] [] [] []
    (of_rows 3 [[Num 0; Num (-1); Num (-1)]; [Num 1; Num 0; Num 0]; [Num 1; Num 0; Num 0]])
    [] [] [] [] (zeros 0 0) [] (zeros 0 0) 0 0 0.

Lemma cross_refuted : exists inv c c' r a b,
  wf c /\ c_Zl c = zeros 0 0 /\ c_force_wnl c = [] /\ inv_sound inv r /\ reduce_z inv c = ok c' /\
  c_x c = ["x"] /\ c_w c = ["w1"; "w2"] /\ c_x c' = ["x"] /\ c_w c' = ["w2"] /\ ntot c' = 2 /\
  b_eq_M_a (ntot c) (Mv r c) a b /\
  (forall j, j < length (c_w c) -> b (length (c_x c) + j) = r (nth j (c_w c) "") /\
     a (length (c_x c) + j) = eval r (nth j (c_z c) (Num 0))) /\
  ~ b_eq_M_a (ntot c') (Mv r c') (fun k => a (nth k [0; 2] 0%nat)) (fun k => b (nth k [0; 2] 0%nat)).
Proof.
  exists inv_id, cross, (fst (reduce_z inv_id cross)), (fun _ => 1%R),
    (fun i => match i with 1 => 2%R | _ => 1%R end), (fun i => match i with 0 => (-3)%R | _ => 1%R end).
  split; [repeat split; discriminate|]. split; [reflexivity|]. split; [reflexivity|].
  split; [apply inv_id_sound|]. split; [apply is_ok; vm_compute; reflexivity|].
  split; [reflexivity|]. split; [reflexivity|]. split; [vm_compute; reflexivity|]. split; [vm_compute; reflexivity|].
  assert (N : ntot (fst (reduce_z inv_id cross)) = 2) by (vm_compute; reflexivity).
  split; [exact N|]. split.
  - intros i Hi. unfold Mv. change (ntot cross) with 3 in *. cbn [rsum].
    destruct i as [|[|[|]]]; [| | |lia]; cbn - [Q2R]; rewrite ?Q2R_0, ?Q2R_1, ?Q2R_m1; lra.
  - split.
    + intros [|[|j]] Hj; cbn in Hj; [| |lia]; cbn - [Q2R]; rewrite ?Q2R_0, ?Q2R_1; lra.
    + rewrite N. intros H. specialize (H 0 ltac:(lia)). cbn [rsum nth] in H. revert H.
      unfold Mv. set (M := c_M (fst (reduce_z inv_id cross))).
      assert (E0 : ent M 0 0 = Num (-1)) by (vm_compute; reflexivity).
      assert (E1 : ent M 0 1 = Num (-1)) by (vm_compute; reflexivity).
      rewrite E0, E1. cbn - [Q2R]. rewrite ?Q2R_m1. lra.
Qed.
