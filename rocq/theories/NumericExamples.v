(** Concrete numerical evaluations: a linear and a nonlinear storage with a
    resistor. *)
From Coq Require Import String List ZArith QArith Qreals Reals Bool Lia Lra.
From Verif Require Import Py Tools Lists Expr ExprProofs RSum Mat Core Spec_Core Calculus StructProofs
  Spec_Calculus CalculusProofs Subs Method Spec_Method MethodExamples Numeric Spec_Numeric NumericUpdate NumericSim.
Import ListNotations.
Local Open Scope string_scope.
Local Open Scope list_scope.
Local Open Scope nat_scope.

(** Inverse of matrices with one or two rows. *)
Definition inv12 : inverter := fun n A =>
  let a := A 0 0 in let b := A 0 1 in let c := A 1 0 in let d := A 1 1 in
  let det := (a * d - b * c)%R in
  match n with
  | 0 => Some A
  | 1 => if Req_EM_T a 0 then None else Some (fun _ _ => (/ a)%R)
  | 2 => if Req_EM_T det 0 then None
         else Some (fun i j => match i, j with
                               | 0, 0 => (d / det)%R | 0, _ => (- b / det)%R
                               | _, 0 => (- c / det)%R | _, _ => (a / det)%R
                               end)
  | _ => None
  end.
Lemma inv12_correct : inv_correct inv12.
Proof.
  intros n A B H. destruct n as [|[|[|n]]]; cbn in H.
  - injection H as <-. split; intros; lia.
  - destruct (Req_EM_T (A 0 0) 0) as [|N]; [discriminate|]. injection H as <-.
    split; intros [|i] [|j] Hi Hj; try lia; unfold mm, idm; cbn; field; exact N.
  - destruct (Req_EM_T (A 0 0 * A 1 1 - A 0 1 * A 1 0) 0) as [|N]; [discriminate|]. injection H as <-.
    split; intros [|[|i]] [|[|j]] Hi Hj; try lia; unfold mm, idm; cbn; field; exact N.
  - discriminate.
Qed.

(** H = x1^2 / 2 + x2^4, a resistor w with law z = R w, one port. *)
Definition mixed : core :=
  mkCore "mixed" ["x1"; "x2"] (Add (Mul (Num (1#2)) (Pow (Sym "x1") 2)) (Pow (Sym "x2") 4)) None
    ["w"] [Mul (Sym "R") (Sym "w")] ["u"] ["y"] [] [] []
    (of_rows 4 [[Num 0; Num (-1); Num (-1); Num 1]; [Num 1; Num 0; Num 0; Num 0];
                [Num 1; Num 0; Num 0; Num 0]; [Num (-1); Num 0; Num 0; Num 0]])
    [] [("R", Num 1)] [] [] (zeros 0 0) [] (zeros 0 0) 0 0 0.
Definition mixed_m : core := fst (method_init default_config mixed).
Definition mixed_nu : numeric := mkNumeric mixed_m [("R", 1%R); (fs_symbol, 1%R)] (1/100)%R 10 inv12.

Lemma mixed_init : method_init default_config mixed = ok mixed_m.
Proof. apply init_ok. vm_compute. reflexivity. Qed.
Lemma mixed_fields : c_x mixed_m = ["x1"; "x2"] /\ c_w mixed_m = ["w"] /\ c_u mixed_m = ["u"] /\ c_cy mixed_m = [] /\
  c_xl mixed_m = 1%Z /\ c_wl mixed_m = 1%Z /\ v_of Sl mixed_m = ["dx1"; "w"] /\ v_of Snl mixed_m = ["dx2"] /\
  args_of mixed_m = ["x1"; "x2"; "dx1"; "dx2"; "w"; "u"].
Proof. repeat split; vm_compute; reflexivity. Qed.
Lemma mixed_counters : counters_ok mixed_m.
Proof. unfold counters_ok. destruct mixed_fields as (-> & -> & _ & _ & -> & -> & _). cbn. lia. Qed.

(** The condition on the linear part can be computed. *)
Definition linear_check (m : core) : bool :=
  forallb (fun a => match jactempF a Sl m with
    | Err _ => true
    | Ok J => forallb (fun i => forallb (fun j =>
        forallb (fun s => negb (existsb (String.eqb s) (v_of Sall m))) (free_symbols (ent J i j)))
        (seq 0 (nc J))) (seq 0 (nr J))
    end) [Sall; Sl; Snl].
Lemma linear_check_ok m : linear_check m = true -> linear_part m.
Proof.
  intros H a J i j s E Hi Hj Hs. unfold linear_check in H. rewrite forallb_forall in H.
  assert (Ia : In a [Sall; Sl; Snl]) by (destruct a; cbn; auto). specialize (H a Ia). rewrite E in H.
  rewrite forallb_forall in H. specialize (H i ltac:(apply in_seq; lia)).
  rewrite forallb_forall in H. specialize (H j ltac:(apply in_seq; lia)).
  rewrite forallb_forall in H. specialize (H s Hs). apply negb_true_iff in H. intros I.
  apply existsb_in in I. congruence.
Qed.
Definition closed_check (nu : numeric) : bool :=
  let m := n_method nu in
  forallb (fun s => match assoc s (n_subs nu) with None => true | Some _ => false end) (args_of m) &&
  forallb (fun nf => match snd nf with
    | Err _ => true
    | Ok f => forallb (fun s => existsb (String.eqb s) (args_of m ++ map fst (n_subs nu))) (fexpr_symbols f)
    end) (funcs m).
Lemma closed_check_ok nu : NoDup (args_of (n_method nu)) -> closed_check nu = true -> closed nu.
Proof.
  intros ND H. apply andb_prop in H. destruct H as [H1 H2]. split; [exact ND|]. split.
  - intros s Hs. rewrite forallb_forall in H1. specialize (H1 s Hs). cbv beta in H1.
    destruct (assoc s (n_subs nu)); [discriminate|reflexivity].
  - intros name f s Hf Hs. rewrite forallb_forall in H2. specialize (H2 _ Hf). cbn [snd] in H2.
    rewrite forallb_forall in H2. specialize (H2 s Hs). apply existsb_in in H2. now apply in_app_or in H2.
Qed.

Lemma mixed_linear : linear_part mixed_m.
Proof. apply linear_check_ok. vm_compute. reflexivity. Qed.
Lemma mixed_args : NoDup (args_of mixed_m).
Proof.
  destruct mixed_fields as (_ & _ & _ & _ & _ & _ & _ & _ & ->).
  repeat constructor; cbn; intuition discriminate.
Qed.
Lemma mixed_closed : closed mixed_nu.
Proof. apply closed_check_ok; [exact mixed_args|vm_compute; reflexivity]. Qed.

Lemma mixed_m_wf : wf mixed_m.
Proof.
  split; [|split; [|split]].
  - vm_compute. repeat split.
  - intros d H. assert (E : match c_dxH mixed_m with Some d => Nat.eqb (length d) (length (c_x mixed_m)) | None => true end = true)
      by (vm_compute; reflexivity).
    rewrite H in E. now apply Nat.eqb_eq.
  - vm_compute. reflexivity.
  - vm_compute. reflexivity.
Qed.

(** A point where the functions of the example are smooth. *)
Definition mixed_F s : list expr := match tempF s mixed_m with Ok F => F | Err _ => [] end.
Definition ones : env := fun _ => 1%R.
Lemma mixed_regular : regular mixed_m (mixed_F Sl) (mixed_F Snl) ones.
Proof.
  unfold regular. destruct mixed_fields as (_ & _ & _ & _ & _ & _ & -> & _).
  intros e p H A. assert (D : p "dx2" = 1%R) by (apply A; cbn; intuition discriminate).
  let t := eval vm_compute in (mixed_F Sl ++ mixed_F Snl) in
    assert (EF : mixed_F Sl ++ mixed_F Snl = t) by (vm_compute; reflexivity).
  rewrite EF in H. clear EF.
  destruct H as [<-|[<-|[<-|[]]]]; cbn [smooth eval]; rewrite ?D, ?Q2R_q.
  - repeat split; lra.
  - repeat split.
  - repeat split.
Qed.
Definition mixed_J : mat := match jactempF Sl Sl mixed_m with Ok J => J | Err _ => zeros 0 0 end.
Ltac mixed_entry := match goal with |- context [ent mixed_J ?i ?j] =>
  let t := eval vm_compute in (ent mixed_J i j) in
  let E := fresh in assert (E : ent mixed_J i j = t) by (vm_compute; reflexivity); rewrite E; clear E end.
Lemma inverse2 (A : rmat) : (A 0%nat 0%nat * A 1%nat 1%nat - A 0%nat 1%nat * A 1%nat 0%nat <> 0)%R -> exists B, is_inverse 2 A B.
Proof.
  intros N. destruct (inv12 2 A) as [B|] eqn:E; [exists B; now apply inv12_correct|].
  exfalso. cbn in E. now destruct (Req_EM_T (A 0%nat 0%nat * A 1%nat 1%nat - A 0%nat 1%nat * A 1%nat 0%nat) 0).
Qed.
Lemma mixed_inverse : exists B, is_inverse 2 (fun i j => eval ones (ent mixed_J i j)) B.
Proof.
  assert (E0 : eval ones (ent mixed_J 0 0) = 1%R) by (mixed_entry; reflexivity).
  assert (E1 : eval ones (ent mixed_J 0 1) = 1%R) by (mixed_entry; cbn [eval]; rewrite !Q2R_q; unfold ones; lra).
  assert (E2 : eval ones (ent mixed_J 1 0) = (-1/2)%R) by (mixed_entry; cbn [eval]; rewrite !Q2R_q; unfold ones; lra).
  assert (E3 : eval ones (ent mixed_J 1 1) = 1%R) by (mixed_entry; cbn [eval]; rewrite !Q2R_q; unfold ones; lra).
  apply inverse2. cbv beta. rewrite E0, E1, E2, E3. lra.
Qed.
Lemma mixed_jac : jactempF Sl Sl mixed_m = Ok mixed_J.
Proof.
  assert (H : match jactempF Sl Sl mixed_m with Ok _ => true | Err _ => false end = true) by (vm_compute; reflexivity).
  unfold mixed_J. now destruct (jactempF Sl Sl mixed_m).
Qed.
