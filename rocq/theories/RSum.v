(** Finite sums of reals and the matrix algebra built on them. *)
From Coq Require Import List Reals Lra Lia Arith Permutation FunctionalExtensionality.
Import ListNotations.
Local Open Scope R_scope.

(** [rsum n f = f 0 + ... + f (n-1)]. *)
Fixpoint rsum (n : nat) (f : nat -> R) : R :=
  match n with
  | O => 0
  | S m => rsum m f + f m
  end.

Lemma rsum_ext n f g : (forall k, (k < n)%nat -> f k = g k) -> rsum n f = rsum n g.
Proof.
  induction n as [|n IH]; intros H; cbn; [reflexivity|].
  rewrite IH, H; auto.
Qed.

Lemma rsum_0 n : rsum n (fun _ => 0) = 0.
Proof. induction n as [|n IH]; cbn; lra. Qed.

Lemma rsum_zero n f : (forall k, (k < n)%nat -> f k = 0) -> rsum n f = 0.
Proof. intros H. rewrite (rsum_ext n f (fun _ => 0)) by exact H. apply rsum_0. Qed.

Lemma rsum_plus n f g : rsum n (fun k => f k + g k) = rsum n f + rsum n g.
Proof. induction n as [|n IH]; cbn; lra. Qed.

Lemma rsum_minus n f g : rsum n (fun k => f k - g k) = rsum n f - rsum n g.
Proof. induction n as [|n IH]; cbn; lra. Qed.

Lemma rsum_opp n f : rsum n (fun k => - f k) = - rsum n f.
Proof. induction n as [|n IH]; cbn; lra. Qed.

Lemma rsum_scal n c f : rsum n (fun k => c * f k) = c * rsum n f.
Proof. induction n as [|n IH]; cbn; [lra|]. rewrite IH. lra. Qed.

Lemma rsum_scal_r n c f : rsum n (fun k => f k * c) = rsum n f * c.
Proof. induction n as [|n IH]; cbn; [lra|]. rewrite IH. lra. Qed.

Lemma rsum_swap n m f :
  rsum n (fun i => rsum m (fun j => f i j)) = rsum m (fun j => rsum n (fun i => f i j)).
Proof.
  induction n as [|n IH]; cbn.
  - now rewrite rsum_0.
  - now rewrite IH, <- rsum_plus.
Qed.

Lemma rsum_app n m f : rsum (n + m) f = rsum n f + rsum m (fun k => f (n + k)%nat).
Proof.
  induction m as [|m IH]; cbn.
  - rewrite Nat.add_0_r. lra.
  - rewrite Nat.add_succ_r. cbn. rewrite IH. lra.
Qed.

Lemma rsum_le n f g : (forall k, (k < n)%nat -> f k <= g k) -> rsum n f <= rsum n g.
Proof.
  induction n as [|n IH]; intros H; cbn; [lra|].
  apply Rplus_le_compat; [apply IH; auto | apply H; auto].
Qed.

Lemma rsum_nonneg n f : (forall k, (k < n)%nat -> 0 <= f k) -> 0 <= rsum n f.
Proof. intros H. rewrite <- (rsum_0 n). now apply rsum_le. Qed.

Lemma rsum_delta n i f : (i < n)%nat ->
  rsum n (fun k => (if Nat.eqb k i then 1 else 0) * f k) = f i.
Proof.
  induction n as [|n IH]; intros H; [lia|]. cbn.
  destruct (Nat.eqb_spec n i) as [->|Hn].
  - rewrite rsum_zero; [lra|]. intros k Hk.
    destruct (Nat.eqb_spec k i); [lia|lra].
  - rewrite IH by lia. lra.
Qed.

(** Sum over a list, and invariance under permutation. *)
Definition lsum (l : list R) : R := fold_right Rplus 0 l.

Lemma lsum_app l1 l2 : lsum (l1 ++ l2) = lsum l1 + lsum l2.
Proof. unfold lsum. induction l1 as [|a l1 IH]; cbn; [lra|]. rewrite IH. lra. Qed.

Lemma lsum_perm l1 l2 : Permutation l1 l2 -> lsum l1 = lsum l2.
Proof. unfold lsum. induction 1; cbn; lra. Qed.

Lemma rsum_lsum n f : rsum n f = lsum (map f (seq 0 n)).
Proof.
  induction n as [|n IH]; [reflexivity|].
  rewrite seq_S, map_app, lsum_app, <- IH. cbn. lra.
Qed.

Lemma rsum_perm n f (l : list nat) : Permutation l (seq 0 n) ->
  rsum n (fun k => f (nth k l 0%nat)) = rsum n f.
Proof.
  intros H. rewrite !rsum_lsum.
  assert (Hl : length l = n) by (rewrite (Permutation_length H); apply seq_length).
  replace (map (fun k => f (nth k l 0%nat)) (seq 0 n)) with (map f l).
  - apply lsum_perm, Permutation_map, H.
  - rewrite <- Hl. clear H Hl.
    rewrite <- (map_map (fun k => nth k l 0%nat) f). f_equal.
    induction l as [|a l IH]; [reflexivity|]. cbn. f_equal.
    rewrite <- seq_shift, map_map. exact IH.
Qed.

(** ** Matrices as functions, with explicit sizes *)
Definition rmat := nat -> nat -> R.
Definition rvec := nat -> R.

Definition mv_ (n : nat) (A : rmat) (x : rvec) : rvec := fun i => rsum n (fun k => A i k * x k).
Definition mm (n : nat) (A B : rmat) : rmat := fun i j => rsum n (fun k => A i k * B k j).
Definition tr (A : rmat) : rmat := fun i j => A j i.
Definition idm : rmat := fun i j => if Nat.eqb i j then 1 else 0.
Definition dot (n : nat) (x y : rvec) : R := rsum n (fun k => x k * y k).

(** [A] and [B] are inverse of one another as n x n matrices. *)
Definition is_inverse (n : nat) (A B : rmat) : Prop :=
  (forall i j, (i < n)%nat -> (j < n)%nat -> mm n A B i j = idm i j) /\
  (forall i j, (i < n)%nat -> (j < n)%nat -> mm n B A i j = idm i j).

Lemma mv_id n x i : (i < n)%nat -> mv_ n idm x i = x i.
Proof.
  intros H. unfold mv_, idm.
  rewrite <- (rsum_delta n i x H). apply rsum_ext. intros k Hk.
  now rewrite Nat.eqb_sym.
Qed.

Lemma mv_mm n m A B x i : mv_ n (mm m A B) x i = mv_ m A (mv_ n B x) i.
Proof.
  unfold mv_, mm.
  rewrite (rsum_ext n _ (fun k => rsum m (fun l => A i l * (B l k * x k)))).
  - rewrite rsum_swap. apply rsum_ext. intros l Hl. now rewrite rsum_scal.
  - intros k Hk. rewrite <- rsum_scal_r. apply rsum_ext. intros l Hl. ring.
Qed.

Lemma mv_ext n A A' x x' i :
  (forall k, (k < n)%nat -> A i k = A' i k) ->
  (forall k, (k < n)%nat -> x k = x' k) -> mv_ n A x i = mv_ n A' x' i.
Proof. intros HA Hx. unfold mv_. apply rsum_ext. intros k Hk. now rewrite HA, Hx. Qed.

Lemma mv_plus n A x y i : mv_ n A (fun k => x k + y k) i = mv_ n A x i + mv_ n A y i.
Proof. unfold mv_. rewrite <- rsum_plus. apply rsum_ext. intros; ring. Qed.

Lemma mv_minus n A x y i : mv_ n A (fun k => x k - y k) i = mv_ n A x i - mv_ n A y i.
Proof. unfold mv_. rewrite <- rsum_minus. apply rsum_ext. intros; ring. Qed.

Lemma mv_opp n A x i : mv_ n A (fun k => - x k) i = - mv_ n A x i.
Proof. unfold mv_. rewrite <- rsum_opp. apply rsum_ext. intros; ring. Qed.

Lemma mv_madd n A B x i : mv_ n (fun a b => A a b + B a b) x i = mv_ n A x i + mv_ n B x i.
Proof. unfold mv_. rewrite <- rsum_plus. apply rsum_ext. intros; ring. Qed.

Lemma mv_msub n A B x i : mv_ n (fun a b => A a b - B a b) x i = mv_ n A x i - mv_ n B x i.
Proof. unfold mv_. rewrite <- rsum_minus. apply rsum_ext. intros; ring. Qed.

Lemma mm_assoc n m A B C i j : mm n (mm m A B) C i j = mm m A (mm n B C) i j.
Proof. exact (mv_mm n m A B (fun k => C k j) i). Qed.

Lemma dot_comm n x y : dot n x y = dot n y x.
Proof. apply rsum_ext. intros; ring. Qed.

Lemma dot_mv_tr n m A x y : dot n x (mv_ m A y) = dot m (mv_ n (tr A) x) y.
Proof.
  unfold dot, mv_, tr.
  rewrite (rsum_ext n _ (fun k => rsum m (fun l => x k * A k l * y l))).
  - rewrite rsum_swap. apply rsum_ext. intros l Hl.
    rewrite <- rsum_scal_r. apply rsum_ext. intros; ring.
  - intros k Hk. rewrite <- rsum_scal. apply rsum_ext. intros; ring.
Qed.

Lemma inverse_unique_sol n A B x b :
  is_inverse n A B ->
  (forall i, (i < n)%nat -> mv_ n A x i = b i) ->
  forall i, (i < n)%nat -> x i = mv_ n B b i.
Proof.
  intros [_ HBA] H i Hi.
  rewrite <- (mv_id n x i Hi).
  rewrite (mv_ext n idm (mm n B A) x x).
  - rewrite mv_mm. apply mv_ext; auto.
  - intros k Hk. symmetry. now apply HBA.
  - reflexivity.
Qed.

Lemma inverse_sol n A B b :
  is_inverse n A B ->
  forall i, (i < n)%nat -> mv_ n A (mv_ n B b) i = b i.
Proof.
  intros [HAB _] i Hi. rewrite <- mv_mm.
  rewrite (mv_ext n _ idm b b); [now apply mv_id| |reflexivity].
  intros k Hk. now apply HAB.
Qed.
