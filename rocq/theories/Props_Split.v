(** Splits of a core: C07 (linear and nonlinear parts), C08 (separable
    states), and sequences of moves (C02). *)
From Coq Require Import String List ZArith QArith Qreals Reals Bool Lia Permutation Sorted.
From Verif Require Import Py Tools Spec_Tools Expr RSum Mat Core Spec_Core Spec_Split
  StructProofs SplitProofs SplitProofs2.
Import ListNotations.
Local Open Scope string_scope.
Local Open Scope list_scope.
Local Open Scope nat_scope.

(** ** C02: any sequence of moves *)

Theorem C02_sequences_of_moves_keep_alignment : forall ms c,
  wf c -> (nr (c_Zl c) = Z.to_nat (c_wl c) \/ is_zero (c_Zl c) = true) -> Forall (legal c) ms ->
  exists c' sg, run_moves ms c = ok c' /\ wf c' /\ follows sg c c' /\ same_context c c' /\
    keeps_kinds c c' /\ same_counts c c'.
Proof. exact run_moves_ok. Qed.
Print Assumptions C02_sequences_of_moves_keep_alignment.

(** ** C07 *)

(** The default criterion: column [j] of the Hessian of [H] has no symbol among
    [x], [dx], [w]; column [j] of the Jacobian of [z] none among [dx], [w].
    The linear parts [Q], [bl], [Zl] are those of the linear components. *)
Theorem C07_default_split : forall c,
  wf c -> (nr (c_Zl c) = Z.to_nat (c_wl c) \/ is_zero (c_Zl c) = true) ->
  exists c' sx sw nxl nwl, linear_nonlinear None c = ok c' /\ wf c' /\ counters_ok c' /\
    stable_partition (length (c_x c)) nxl
      (free_column (hessian (c_H c) (c_x c)) (c_x c ++ dx c ++ c_w c)) sx /\
    stable_partition (length (c_w c)) nwl
      (free_column (jacobian (c_z c) (c_w c)) (dx c ++ c_w c)) sw /\
    c_xl c' = Z.of_nat nxl /\ c_wl c' = Z.of_nat nwl /\
    follows (block_order c sx sw) c c' /\ same_context c c' /\
    c_x c' = in_order "" (c_x c) sx /\ c_w c' = in_order "" (c_w c) sw /\
    c_z c' = in_order (Num 0) (c_z c) sw /\
    c_u c' = c_u c /\ c_y c' = c_y c /\ c_cu c' = c_cu c /\ c_cy c' = c_cy c /\
    c_Q c' = hessian (c_H c) (firstn nxl (c_x c')) /\
    c_Zl c' = jacobian (firstn nwl (c_z c')) (firstn nwl (c_w c')) /\
    length (c_bl c') = nxl /\
    (forall r i, i < nxl -> eval r (nth i (gradient (c_H c) (firstn nxl (c_x c'))) (Num 0)) =
      (rsum nxl (fun j => eval r (ent (c_Q c') i j) * r (nth j (c_x c') "")) +
       eval r (nth i (c_bl c') (Num 0)))%R) /\
    c_xnl_mono c' = c_xnl_mono c.
Proof.
  intros c W HZ. apply (linear_nonlinear_ok None c W HZ). intros []. reflexivity.
Qed.
Print Assumptions C07_default_split.

(** The matrix [Q] of the linear storages depends on no state, increment or
    dissipation variable. *)
Theorem C07_linear_stiffness_is_constant : forall c,
  wf c -> (nr (c_Zl c) = Z.to_nat (c_wl c) \/ is_zero (c_Zl c) = true) ->
  exists c', linear_nonlinear None c = ok c' /\
    nr (c_Q c') = Z.to_nat (c_xl c') /\ nc (c_Q c') = Z.to_nat (c_xl c') /\
    forall i j s, (Z.of_nat i < c_xl c')%Z -> (Z.of_nat j < c_xl c')%Z ->
      In s (free_symbols (ent (c_Q c') i j)) -> ~ In s (c_x c) /\ ~ In s (dx c) /\ ~ In s (c_w c).
Proof. exact Q_constant. Qed.
Print Assumptions C07_linear_stiffness_is_constant.

(** The remainder [bl] of the gradient of the linear storages may depend on
    the nonlinear states: with H = x1 x2 + x2^4, x1 is counted linear. *)
Theorem C07_linear_offset_is_constant_refuted : exists c c',
  wf c /\ linear_nonlinear None c = ok c' /\ c_xl c' = 1%Z /\ c_x c' = ["x1"; "x2"] /\
  exists r1 r2 : env, (forall s, s <> "x2" -> r1 s = r2 s) /\
    eval r1 (nth 0 (c_bl c') (Num 0)) <> eval r2 (nth 0 (c_bl c') (Num 0)).
Proof. exact bl_constant_refuted. Qed.
Print Assumptions C07_linear_offset_is_constant_refuted.

(** A criterion given by the caller: two matrices with one column per storage
    (dissipation) and the symbols looked for. *)
Theorem C07_custom_split : forall c A argx B argw,
  wf c -> (nr (c_Zl c) = Z.to_nat (c_wl c) \/ is_zero (c_Zl c) = true) ->
  nc A = length (c_x c) -> nc B = length (c_w c) ->
  exists c' sx sw nxl nwl, linear_nonlinear (Some ((A, argx), (B, argw))) c = ok c' /\
    wf c' /\ counters_ok c' /\
    stable_partition (length (c_x c)) nxl (free_column A argx) sx /\
    stable_partition (length (c_w c)) nwl (free_column B argw) sw /\
    c_xl c' = Z.of_nat nxl /\ c_wl c' = Z.of_nat nwl /\
    follows (block_order c sx sw) c c' /\ same_context c c' /\
    c_x c' = in_order "" (c_x c) sx /\ c_w c' = in_order "" (c_w c) sw /\
    c_z c' = in_order (Num 0) (c_z c) sw.
Proof. exact custom_split_ok. Qed.
Print Assumptions C07_custom_split.

(** Two storages, the first nonlinear, the second linear: they are swapped. *)
Definition ex_split : core :=
  mkCore "ex" ["x1"; "x2"] (Add (Pow (Sym "x1") 4) (Mul (Sym "k") (Pow (Sym "x2") 2))) None
    ["w1"; "w2"] [Pow (Sym "w1") 3; Mul (Sym "R") (Sym "w2")] [] [] [] [] []
    (of_rows 4
       [[Num 0; Num 1; Num 2; Num 3];
        [Num (-1); Num 0; Num 4; Num 5];
        [Num (-2); Num (-4); Num 0; Num 6];
        [Num (-3); Num (-5); Num (-6); Num 0]])
    [] [] [] [] (zeros 0 0) [] (zeros 0 0) 0 0 0.

Example C07_example : wf ex_split /\
  c_x (fst (linear_nonlinear None ex_split)) = ["x2"; "x1"] /\
  c_w (fst (linear_nonlinear None ex_split)) = ["w2"; "w1"] /\
  c_xl (fst (linear_nonlinear None ex_split)) = 1%Z /\
  c_wl (fst (linear_nonlinear None ex_split)) = 1%Z /\
  nth 1 (rows_of (c_M (fst (linear_nonlinear None ex_split)))) [] =
    [Num 1; Num 0; Num 3; Num 2].
Proof.
  split; [repeat split; discriminate|].
  split; [vm_compute; reflexivity|]. split; [vm_compute; reflexivity|].
  split; [vm_compute; reflexivity|]. split; [vm_compute; reflexivity|].
  vm_compute; reflexivity.
Qed.

(** ** C08 *)

Theorem C08_separable_states : forall c, wf c -> counters_ok c ->
  let xl := Z.to_nat (c_xl c) in
  let N := length (c_x c) - xl in
  let hess := hessian (c_H c) (skipn xl (c_x c)) in
  (forall i j, i < N -> j < N -> is0 (ent hess i j) = is0 (ent hess j i)) ->
  exists c' s n, monovar_multivar c = ok c' /\ wf c' /\
    stable_partition N n (fun i => forall j, j < N -> j <> i -> is0 (ent hess i j) = true) s /\
    c_xnl_mono c' = Z.of_nat n /\ c_xl c' = c_xl c /\ c_wl c' = c_wl c /\
    follows (block_order c (seq 0 xl ++ map (fun j => xl + j) s) (seq 0 (length (c_w c)))) c c' /\
    same_context c c' /\
    c_x c' = firstn xl (c_x c) ++ in_order "" (skipn xl (c_x c)) s /\
    c_w c' = c_w c /\ c_z c' = c_z c /\ c_u c' = c_u c /\ c_y c' = c_y c /\
    c_cu c' = c_cu c /\ c_cy c' = c_cy c /\
    c_Q c' = c_Q c /\ c_bl c' = c_bl c /\ c_Zl c' = c_Zl c.
Proof. exact monovar_multivar_ok. Qed.
Print Assumptions C08_separable_states.

(** x1 and x3 are coupled, x2 is separable. *)
Definition ex_mono : core :=
  mkCore "ex" ["x0"; "x1"; "x2"; "x3"]
    (Add (Pow (Sym "x0") 2) (Add (Mul (Pow (Sym "x1") 2) (Pow (Sym "x3") 2)) (Pow (Sym "x2") 4))) None
    [] [] [] [] [] [] []
    (of_rows 4
       [[Num 0; Num 1; Num 2; Num 3];
        [Num (-1); Num 0; Num 4; Num 5];
        [Num (-2); Num (-4); Num 0; Num 6];
        [Num (-3); Num (-5); Num (-6); Num 0]])
    [] [] [] [] (zeros 0 0) [] (zeros 0 0) 1 0 0.

Example C08_example : wf ex_mono /\ counters_ok ex_mono /\
  (forall i j, i < 3 -> j < 3 ->
     is0 (ent (hessian (c_H ex_mono) ["x1"; "x2"; "x3"]) i j) =
     is0 (ent (hessian (c_H ex_mono) ["x1"; "x2"; "x3"]) j i)) /\
  c_x (fst (monovar_multivar ex_mono)) = ["x0"; "x2"; "x1"; "x3"] /\
  c_xnl_mono (fst (monovar_multivar ex_mono)) = 1%Z.
Proof.
  split; [repeat split; discriminate|]. split; [split; cbn; lia|]. split.
  - intros [|[|[|]]] [|[|[|]]] Hi Hj; try lia; vm_compute; reflexivity.
  - split; vm_compute; reflexivity.
Qed.

(** Whatever the Hessian: the states counted as separable come first among the
    nonlinear ones, and the mixed second derivative of [H] by such a state and
    any later nonlinear state is zero. *)
Theorem C08_separable_group : forall c, wf c -> counters_ok c ->
  let xl := Z.to_nat (c_xl c) in
  let N := length (c_x c) - xl in
  exists c' n sg, monovar_multivar c = ok c' /\ wf c' /\ n <= N /\
    c_xnl_mono c' = Z.of_nat n /\ c_xl c' = c_xl c /\ c_wl c' = c_wl c /\
    Permutation (skipn xl (c_x c)) (skipn xl (c_x c')) /\
    firstn xl (c_x c') = firstn xl (c_x c) /\
    (forall i j, i < n -> i < j -> j < N ->
       is0 (diff (nth (xl + j) (c_x c') "") (diff (nth (xl + i) (c_x c') "") (c_H c))) = true) /\
    follows sg c c' /\ same_context c c' /\
    c_w c' = c_w c /\ c_z c' = c_z c /\ c_u c' = c_u c /\ c_y c' = c_y c /\
    c_cu c' = c_cu c /\ c_cy c' = c_cy c /\
    c_Q c' = c_Q c /\ c_bl c' = c_bl c /\ c_Zl c' = c_Zl c.
Proof. exact monovar_multivar_rows. Qed.
Print Assumptions C08_separable_group.
