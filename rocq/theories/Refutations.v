(** Concrete counterexamples: the model, run on small inputs. *)
From Coq Require Import String List ZArith QArith Qreals Reals Bool Lra Lia Permutation.
From Verif Require Import Py Tools Expr ExprProofs RSum Mat MatProofs Core Spec_Core Spec_Ops
  StructProofs BlockProofs OpsProofs.
Import ListNotations.
Local Open Scope nat_scope.
Local Open Scope string_scope.

Definition bad_move_core : core :=
  mkCore "c" [] (Num 0) None ["w1"] [Sym "w1"] ["u1"] ["y1"] [] [] []
    (of_rows 2 [[Num 0; Num 1]; [Num 2; Num 0]])
    [] [] [] [] (zeros 0 0) [] (zeros 0 0) 0 0 0.

Lemma move_past_end_refuted : exists c c',
  wf c /\ move_diss 0 (dim_w c) c = ok c' /\ ~ exists sg, follows sg c c'.
Proof.
  exists bad_move_core, (fst (move_diss 0 (dim_w bad_move_core) bad_move_core)).
  split; [repeat split; discriminate|].
  split; [reflexivity|].
  intros (sg & HP & _ & HC & _ & _ & HM).
  assert (L : length sg = 2) by (rewrite (Permutation_length HP); reflexivity).
  destruct sg as [|a [|b [|]]]; try discriminate.
  assert (Ha : a < 2).
  { assert (In a (seq 0 2)) as H by (eapply Permutation_in; [exact HP|now left]).
    apply in_seq in H. lia. }
  assert (Hb : b < 2).
  { assert (In b (seq 0 2)) as H by (eapply Permutation_in; [exact HP|right; now left]).
    apply in_seq in H. lia. }
  pose proof (HC 0 a eq_refl) as H0. pose proof (HC 1 b eq_refl) as H1.
  destruct a as [|[|]]; try lia; [|discriminate].
  destruct b as [|[|]]; try lia; [discriminate|].
  specialize (HM (fun _ => 0%R) 0 1 ltac:(cbn; lia) ltac:(cbn; lia)).
  change (eval (fun _ => 0%R) (Num 2) = eval (fun _ => 0%R) (Num 1)) in HM.
  cbn in HM. unfold Q2R in HM. cbn in HM. lra.
Qed.

Definition overlap_core : core :=
  mkCore "c" ["x1"] (Num 0) None [] [] [] [] [] [] []
    (of_rows 1 [[Num 1]]) [] [] [] [] (zeros 0 0) [] (zeros 0 0) 1 0 0.

Lemma overlap_refuted : exists c V c' B,
  sized c /\ counters_ok c /\ nr V = len c Bx /\ nc V = len c Bxl /\
  set_block PM Bx Bxl V c = ok c' /\ get_block PM Bx Bxl c' = Ok B /\
  exists r, eval r (ent B 0 0) <> eval r (ent V 0 0).
Proof.
  exists overlap_core, (of_rows 1 [[Num 5]]),
    (fst (set_block PM Bx Bxl (of_rows 1 [[Num 5]]) overlap_core)). eexists.
  split; [split; reflexivity|]. split; [split; cbn; lia|].
  split; [reflexivity|]. split; [reflexivity|].
  split; [reflexivity|]. split; [reflexivity|].
  exists (fun _ => 0%R).
  change (eval (fun _ => 0%R) (Num 1) <> eval (fun _ => 0%R) (Num 5)).
  cbn. unfold Q2R; cbn. lra.
Qed.
