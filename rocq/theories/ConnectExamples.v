(** A concrete connection: two storages in a loop. *)
From Coq Require Import String List ZArith QArith Qreals Reals Bool Lra Lia Permutation.
From Verif Require Import Py Tools Expr ExprProofs RSum Mat MatProofs Core Spec_Core Spec_Connect
  StructProofs ConnectProofs.
Import ListNotations.
Local Open Scope string_scope.
Local Open Scope list_scope.
Local Open Scope nat_scope.

(** An inverse that only knows the identity matrix. *)
Definition inv_id (A : mat) : option mat :=
  if Nat.eqb (nr A) (nc A) &&
     forallb (fun i => forallb (fun j =>
       match ent A i j with
       | Num q => Qeq_bool q (if Nat.eqb i j then 1 else 0)
       | _ => false
       end) (seq 0 (nc A))) (seq 0 (nr A))
  then Some A else None.

Lemma inv_id_sound r : inv_sound inv_id r.
Proof.
  intros A B Hsq H. unfold inv_id in H.
  destruct (_ && _) eqn:E; [|discriminate]. injection H as <-.
  apply andb_true_iff in E. destruct E as [_ E].
  split; [reflexivity|]. split; [reflexivity|].
  assert (I : forall i j, i < nr A -> j < nr A -> eval r (ent A i j) = idm i j).
  { intros i j Hi Hj. rewrite forallb_forall in E. specialize (E i).
    rewrite in_seq, forallb_forall in E. specialize (E ltac:(lia) j).
    rewrite in_seq in E. specialize (E ltac:(lia)).
    destruct (ent A i j); try discriminate. apply Qeq_bool_eq in E. cbn. unfold idm.
    destruct (Nat.eqb i j); rewrite (Qeq_eqR _ _ E); [apply Q2R_1|apply Q2R_0]. }
  assert (P : forall i j, i < nr A -> j < nr A ->
    mm (nr A) (fun i j => eval r (ent A i j)) (fun i j => eval r (ent A i j)) i j = idm i j).
  { intros i j Hi Hj. unfold mm.
    rewrite (rsum_ext _ _ (fun k => idm i k * (fun k => eval r (ent A k j)) k)%R).
    - etransitivity; [exact (mv_id (nr A) (fun k => eval r (ent A k j)) i Hi)|]. now apply I.
    - intros k Hk. now rewrite I. }
  split; exact P.
Qed.

Definition loop_core : core :=
  mkCore "loop" ["x1"; "x2"] (Num 0) None [] [] ["u1"; "u2"] ["y1"; "y2"] [] [] []
    (of_rows 4 [[Num 0; Num 0; Num 1; Num 0];
                [Num 0; Num 0; Num 0; Num 1];
                [Num (-1); Num 0; Num 0; Num 0];
                [Num 0; Num (-1); Num 0; Num 0]])
    [] [] [] [] (zeros 0 0) [] (zeros 0 0) 0 0 0.

Definition loop_c1 : core := fst (add_connector 0 1 (Some (Num 3)) loop_core).
Definition loop_c' : core := fst (connect inv_id loop_c1).

Lemma loop_wf : wf loop_core.
Proof. repeat split; discriminate. Qed.
Lemma loop_nodup : NoDup (c_u loop_core) /\ NoDup (c_y loop_core).
Proof. split; repeat constructor; cbn; intuition discriminate. Qed.

(** Only the status is computed: matrices are functions of two indices. *)
Lemma is_ok (o : outcome) : snd o = None -> o = ok (fst o).
Proof. destruct o as [c e]. cbn. now intros ->. Qed.

Lemma loop_1 : add_connector 0 1 (Some (Num 3)) loop_core = ok loop_c1.
Proof. apply is_ok. vm_compute. reflexivity. Qed.
Lemma loop_2 : connect inv_id loop_c1 = ok loop_c'.
Proof. apply is_ok. vm_compute. reflexivity. Qed.

Lemma loop_y : c_y loop_c' = [].
Proof. vm_compute. reflexivity. Qed.

Lemma loop_term r a b uv yv : term_rel r loop_core a b uv yv <->
  (b 0%nat = uv "y1" /\ b 1%nat = uv "y2" /\ yv "y1" = - a 0%nat /\ yv "y2" = - a 1%nat)%R.
Proof.
  unfold term_rel, split_rel, Mv. cbn - [Q2R].
  split.
  - intros [H1 H2].
    pose proof (H1 0 ltac:(lia)) as A. pose proof (H1 1 ltac:(lia)) as B.
    pose proof (H2 0 ltac:(lia)) as C. pose proof (H2 1 ltac:(lia)) as D.
    cbn - [Q2R] in A, B, C, D. change (inject_Z 0) with 0%Q in *.
    rewrite ?Q2R_0, ?Q2R_1, ?Q2R_m1 in *. repeat split; lra.
  - intros (A & B & C & D). split; intros [|[|]] Hi; try lia; cbn - [Q2R];
      rewrite ?Q2R_0, ?Q2R_1, ?Q2R_m1; lra.
Qed.

(** The documented law is not the one implemented. *)
Lemma documented_law_refuted :
  exists inv c c1 c' al r, wf c /\ NoDup (c_u c) /\ NoDup (c_y c) /\ inv_sound inv r /\
    nth_error (c_y c) 0 = Some "y1" /\ nth_error (c_y c) 1 = Some "y2" /\
    add_connector 0 1 (Some al) c = ok c1 /\ connect inv c1 = ok c' /\
    ~ (forall a b uv yv,
        b_eq_M_a (ntot c') (Mv r c') (with_ports c' a uv) (with_ports c' b yv) ->
        exists uv' yv', (forall s, In s (c_y c') -> uv' s = uv s /\ yv' s = yv s) /\
          term_rel r c a b uv' yv' /\
          uv' "y1" = (eval r al * yv' "y2")%R /\ uv' "y2" = (- (eval r al * yv' "y1"))%R).
Proof.
  exists inv_id, loop_core, loop_c1, loop_c', (Num 3), (fun _ => 0%R).
  split; [exact loop_wf|]. split; [apply loop_nodup|]. split; [apply loop_nodup|].
  split; [apply inv_id_sound|]. split; [reflexivity|]. split; [reflexivity|].
  split; [exact loop_1|]. split; [exact loop_2|].
  intros H.
  destruct (connector_law inv_id loop_core loop_c1 loop_c' 0 1 (Num 3) "y1" "y2" loop_wf
    (proj1 loop_nodup) (proj2 loop_nodup) eq_refl eq_refl ltac:(lia) eq_refl eq_refl loop_1 loop_2)
    as [_ (LA & LB & LI & L)].
  specialize (L (fun _ => 0%R) (inverse_at_sound _ _ _ _ _ (inv_id_sound _) LI)).
  set (a := fun i : nat => match i with 1 => 1%R | _ => 0%R end).
  set (b := fun i : nat => match i with 0 => 3%R | _ => 0%R end).
  specialize (H a b (fun _ => 0%R) (fun _ => 0%R)).
  assert (E3 : eval (fun _ => 0%R) (Num 3) = 3%R) by (cbn; unfold Q2R; cbn; lra).
  destruct H as (uv & yv & _ & HT & D0 & D1).
  - apply L. exists (fun s => if String.eqb s "y1" then 3 else 0)%R,
      (fun s => if String.eqb s "y1" then 0 else -1)%R.
    split; [rewrite loop_y; intros s []|]. split.
    + apply loop_term. unfold a, b. cbn. repeat split; lra.
    + rewrite E3. cbn. split; lra.
  - apply loop_term in HT. rewrite E3 in *. unfold a, b in HT. cbn in HT. lra.
Qed.

Lemma loop_c1_conservative r : conservative (ntot loop_c1) (Mv r loop_c1).
Proof.
  intros a. unfold Mv.
  change (ntot loop_c1) with 4.
  assert (E : forall i j, i < 4 -> j < 4 ->
    ent (c_M loop_c1) i j =
    nth j (nth i [[Num 0; Num 0; Num 0; Num 1]; [Num 0; Num 0; Num 1; Num 0];
            [Num 0; Num (-1); Num 0; Num 0]; [Num (-1); Num 0; Num 0; Num 0]] []) (Num 0)).
  { intros [|[|[|[|]]]] [|[|[|[|]]]] Hi Hj; try lia; reflexivity. }
  cbn [rsum]. rewrite !E by lia. cbn - [Q2R]. rewrite ?Q2R_0, ?Q2R_1, ?Q2R_m1. ring.
Qed.

Lemma negative_index_refuted : exists c c' r a b uv yv,
  wf c /\ NoDup (c_u c) /\ NoDup (c_y c) /\ port2connector (-1) c = ok c' /\
  term_rel r c a b uv yv /\ ~ term_rel r c' a b uv yv.
Proof.
  exists loop_core, (fst (port2connector (-1) loop_core)), (fun _ => 0%R),
    (fun _ => 0%R), (fun i => match i with 0 => 1%R | _ => 0%R end),
    (fun s => if String.eqb s "y1" then 1%R else 0%R), (fun _ => 0%R).
  split; [exact loop_wf|]. split; [apply loop_nodup|]. split; [apply loop_nodup|].
  split; [apply is_ok; vm_compute; reflexivity|]. split.
  - apply loop_term. cbn. repeat split; lra.
  - set (c' := fst (port2connector (-1) loop_core)).
    assert (EX : nxw c' = 2) by (vm_compute; reflexivity).
    assert (ET : terminals c' = ["y1"; "y2"]) by (vm_compute; reflexivity).
    assert (E0 : ent (c_M c') 0 0 = Num 0) by (vm_compute; reflexivity).
    assert (E1 : ent (c_M c') 0 1 = Num 1) by (vm_compute; reflexivity).
    assert (E2 : ent (c_M c') 0 2 = Num 0) by (vm_compute; reflexivity).
    assert (E3 : ent (c_M c') 0 3 = Num 0) by (vm_compute; reflexivity).
    intros [H1 _]. rewrite EX, ET in H1. specialize (H1 0 ltac:(lia)). revert H1.
    unfold Mv. cbn [rsum length nth Nat.add]. rewrite E0, E1, E2, E3.
    cbn - [Q2R]. rewrite ?Q2R_0, ?Q2R_1. lra.
Qed.
