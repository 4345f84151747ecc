(** Values of the matrix operations. *)
From Coq Require Import String List ZArith QArith Qreals Reals Bool Lra Lia.
From Verif Require Import Py Lists Expr ExprProofs RSum Mat.
Import ListNotations.
Local Open Scope R_scope.

(** Value of a matrix under a valuation of the symbols. *)
Definition ev (r : env) (A : mat) : rmat := fun i j => eval r (ent A i j).

Lemma same_shape_spec A B : reflect (nr A = nr B /\ nc A = nc B) (same_shape A B).
Proof.
  unfold same_shape.
  destruct (Nat.eqb_spec (nr A) (nr B)), (Nat.eqb_spec (nc A) (nc B)); cbn; constructor; tauto.
Qed.

Lemma madd_ok A B : nr A = nr B -> nc A = nc B ->
  exists C, madd A B = Ok C /\ nr C = nr A /\ nc C = nc A /\
    forall r i j, ev r C i j = ev r A i j + ev r B i j.
Proof.
  intros H1 H2. unfold madd. destruct (same_shape_spec A B) as [_|n]; [|tauto].
  eexists; repeat split. intros. apply eval_sadd.
Qed.

Lemma madd_inv A B C : madd A B = Ok C ->
  nr A = nr B /\ nc A = nc B /\ nr C = nr A /\ nc C = nc A /\
  forall r i j, ev r C i j = ev r A i j + ev r B i j.
Proof.
  unfold madd. destruct (same_shape_spec A B) as [[H1 H2]|n]; intros [= <-].
  repeat split; try assumption. intros. apply eval_sadd.
Qed.

Lemma msub_ok A B : nr A = nr B -> nc A = nc B ->
  exists C, msub A B = Ok C /\ nr C = nr A /\ nc C = nc A /\
    forall r i j, ev r C i j = ev r A i j - ev r B i j.
Proof.
  intros H1 H2. unfold msub. destruct (same_shape_spec A B) as [_|n]; [|tauto].
  eexists; repeat split. intros. apply eval_ssub.
Qed.

Lemma msub_inv A B C : msub A B = Ok C ->
  nr A = nr B /\ nc A = nc B /\ nr C = nr A /\ nc C = nc A /\
  forall r i j, ev r C i j = ev r A i j - ev r B i j.
Proof.
  unfold msub. destruct (same_shape_spec A B) as [[H1 H2]|n]; intros [= <-].
  repeat split; try assumption. intros. apply eval_ssub.
Qed.

Lemma ev_mscal r e A i j : ev r (mscal e A) i j = eval r e * ev r A i j.
Proof. apply eval_smul. Qed.

Lemma ev_mneg r A i j : ev r (mneg A) i j = - ev r A i j.
Proof. unfold mneg. rewrite ev_mscal. cbn. rewrite Q2R_m1. lra. Qed.

Lemma ev_zeros r n m i j : ev r (zeros n m) i j = 0.
Proof. apply Q2R_0. Qed.

Lemma ev_eye r n i j : ev r (eye n) i j = idm i j.
Proof. unfold ev, eye, idm; cbn. destruct (Nat.eqb i j); [apply Q2R_1|apply Q2R_0]. Qed.

Lemma eval_esum r n f : eval r (esum n f) = rsum n (fun k => eval r (f k)).
Proof. induction n as [|n IH]; cbn; [apply Q2R_0|]. now rewrite eval_sadd, IH. Qed.

Lemma mmul_ok A B : nc A = nr B ->
  exists C, mmul A B = Ok C /\ nr C = nr A /\ nc C = nc B /\
    forall r i j, ev r C i j = mm (nc A) (ev r A) (ev r B) i j.
Proof.
  intros H. unfold mmul. rewrite <- H, Nat.eqb_refl.
  eexists; repeat split. intros r i j. unfold ev; cbn. rewrite eval_esum.
  apply rsum_ext. intros. apply eval_smul.
Qed.

Lemma mmul_inv A B C : mmul A B = Ok C ->
  nc A = nr B /\ nr C = nr A /\ nc C = nc B /\
  forall r i j, ev r C i j = mm (nc A) (ev r A) (ev r B) i j.
Proof.
  intros H. assert (E : nc A = nr B).
  { unfold mmul in H. destruct (Nat.eqb_spec (nc A) (nr B)); [assumption|discriminate]. }
  destruct (mmul_ok A B E) as (C' & H' & P). rewrite H in H'. injection H' as <-. tauto.
Qed.

(** ** Slices with bounds in range *)
Lemma zb_nat n k : (k <= n)%nat -> zb n (Z.of_nat k) = k.
Proof.
  intros H. unfold zb, py_clamp.
  destruct (Z.ltb_spec (Z.of_nat k) 0); lia.
Qed.

Lemma mslice_nat A a b c d :
  (a <= nr A)%nat -> (b <= nr A)%nat -> (c <= nc A)%nat -> (d <= nc A)%nat ->
  let B := mslice A (Z.of_nat a) (Z.of_nat b) (Z.of_nat c) (Z.of_nat d) in
  nr B = (b - a)%nat /\ nc B = (d - c)%nat /\
  forall i j, ent B i j = ent A (a + i) (c + j).
Proof.
  intros Ha Hb Hc Hd B. unfold B, mslice; cbn.
  rewrite !zb_nat by assumption. repeat split.
Qed.

Lemma massign_nat A a b c d V :
  (a <= b)%nat -> (b <= nr A)%nat -> (c <= d)%nat -> (d <= nc A)%nat ->
  nr V = (b - a)%nat -> nc V = (d - c)%nat ->
  exists B, massign A (Z.of_nat a) (Z.of_nat b) (Z.of_nat c) (Z.of_nat d) V = Ok B /\
    nr B = nr A /\ nc B = nc A /\
    (forall i j, (a <= i < b)%nat -> (c <= j < d)%nat -> ent B i j = ent V (i - a) (j - c)) /\
    (forall i j, ~ ((a <= i < b)%nat /\ (c <= j < d)%nat) -> ent B i j = ent A i j).
Proof.
  intros Hab Hb Hcd Hd HV1 HV2. unfold massign.
  rewrite !zb_nat by lia.
  rewrite HV1, HV2, !Nat.eqb_refl.
  destruct (Nat.leb_spec a b); [|lia]. destruct (Nat.leb_spec c d); [|lia]. cbn [andb].
  eexists; split; [reflexivity|]. cbn [nr nc ent]. repeat split.
  - intros i j Hi Hj.
    destruct (Nat.leb_spec a i); [|lia]. destruct (Nat.ltb_spec i b); [|lia].
    destruct (Nat.leb_spec c j); [|lia]. destruct (Nat.ltb_spec j d); [|lia]. reflexivity.
  - intros i j Hn.
    destruct (Nat.leb_spec a i); cbn [andb]; [|reflexivity].
    destruct (Nat.ltb_spec i b); cbn [andb]; [|reflexivity].
    destruct (Nat.leb_spec c j); cbn [andb]; [|reflexivity].
    destruct (Nat.ltb_spec j d); cbn [andb]; [|reflexivity]. tauto.
Qed.

Lemma massign_wrong_shape A a b c d V :
  (a <= b)%nat -> (b <= nr A)%nat -> (c <= d)%nat -> (d <= nc A)%nat ->
  ~ (nr V = (b - a)%nat /\ nc V = (d - c)%nat) ->
  massign A (Z.of_nat a) (Z.of_nat b) (Z.of_nat c) (Z.of_nat d) V = Err ShapeError.
Proof.
  intros Hab Hb Hcd Hd HV. unfold massign. rewrite !zb_nat by lia.
  destruct (Nat.eqb_spec (nr V) (b - a)); [|now rewrite andb_false_r].
  destruct (Nat.eqb_spec (nc V) (d - c)); [tauto|now rewrite !andb_false_r].
Qed.

(** ** Stacks and block diagonals *)
Lemma is_zero_ev r A i j : is_zero A = true -> (i < nr A)%nat -> (j < nc A)%nat -> ev r A i j = 0.
Proof.
  unfold is_zero. rewrite forallb_forall. intros H Hi Hj.
  specialize (H i). rewrite in_seq, forallb_forall in H.
  apply is0_eval. apply H; [lia|]. rewrite in_seq. lia.
Qed.

Lemma hstack2_ok A B : nr A = nr B ->
  exists C, hstack2 A B = Ok C /\ nr C = nr A /\ nc C = (nc A + nc B)%nat /\
    forall i j, ent C i j = if (j <? nc A)%nat then ent A i j else ent B i (j - nc A).
Proof. intros H. unfold hstack2. rewrite H, Nat.eqb_refl. eexists; repeat split. Qed.

Lemma vstack2_ok A B : nc A = nc B ->
  exists C, vstack2 A B = Ok C /\ nr C = (nr A + nr B)%nat /\ nc C = nc A /\
    forall i j, ent C i j = if (i <? nr A)%nat then ent A i j else ent B (i - nr A) j.
Proof. intros H. unfold vstack2. rewrite H, Nat.eqb_refl. eexists; repeat split. Qed.

Lemma matvecprod_ok A v : length v = nc A ->
  exists l, matvecprod A v = Ok l /\ length l = nr A /\
    forall r i, (i < nr A)%nat ->
      eval r (nth i l (Num 0)) = mv_ (nc A) (ev r A) (fun k => eval r (nth k v (Num 0))) i.
Proof.
  intros H. unfold matvecprod. rewrite H, Nat.eqb_refl.
  destruct (Nat.eqb_spec (nc A) 0) as [E|E].
  - exists (repeat (Num 0) (nr A)). rewrite repeat_length. repeat split.
    intros r i Hi. rewrite E. unfold mv_; cbn. rewrite nth_repeat. apply Q2R_0.
  - destruct (mmul_ok A (colvec v)) as (C & HC & Hr & Hc & HE); [now cbn|].
    rewrite HC. cbn [rbind]. exists (col_list C 0). unfold col_list.
    rewrite map_length, seq_length, Hr. repeat split.
    intros r i Hi.
    rewrite (nth_indep _ _ (ent C 0 0)) by (rewrite map_length, seq_length; lia).
    rewrite (map_nth (fun i => ent C i 0%nat)), seq_nth by lia. cbn.
    exact (HE r i 0%nat).
Qed.
