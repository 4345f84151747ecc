(** List lemmas used by the proofs (no model content). *)
From Coq Require Import List ZArith Bool Lia Permutation Arith.
From Verif Require Import Py.
Import ListNotations.

Lemma nth_error_seq s n k : nth_error (seq s n) k = if k <? n then Some (s + k) else None.
Proof.
  revert s k; induction n as [|n IH]; intros s k; cbn [seq].
  - destruct k; reflexivity.
  - destruct k as [|k]; cbn [nth_error].
    + cbn. f_equal; lia.
    + rewrite IH. change (S k <? S n) with (k <? n).
      destruct (k <? n); [f_equal; lia | reflexivity].
Qed.

Lemma skipn_seq s n k : skipn k (seq s n) = seq (s + k) (n - k).
Proof.
  revert s n; induction k as [|k IH]; intros s n.
  - cbn [skipn]. f_equal; lia.
  - destruct n as [|n]; cbn [skipn seq]; [reflexivity|].
    rewrite IH. f_equal; lia.
Qed.

Lemma firstn_seq s n k : firstn k (seq s n) = seq s (Nat.min k n).
Proof.
  revert s k; induction n as [|n IH]; intros s k.
  - cbn. destruct k; reflexivity.
  - destruct k as [|k]; cbn [firstn seq Nat.min]; [reflexivity|].
    rewrite IH. reflexivity.
Qed.

Lemma py_get_nat {A} (l : list A) (i : nat) :
  py_get l (Z.of_nat i) =
  match nth_error l i with Some a => Ok a | None => Err IndexError end.
Proof.
  unfold py_get.
  destruct (Z.ltb_spec (Z.of_nat i) 0) as [H|H]; [lia|].
  destruct (Z.ltb_spec (Z.of_nat i) 0) as [H'|H']; [lia|].
  now rewrite Nat2Z.id.
Qed.

Lemma py_slice_nat {A} (l : list A) (a b : nat) :
  py_slice l (Some (Z.of_nat a)) (Some (Z.of_nat b)) =
  firstn (b - a) (skipn a l).
Proof.
  unfold py_slice, py_clamp.
  destruct (Z.ltb_spec (Z.of_nat a) 0) as [H|_]; [lia|].
  destruct (Z.ltb_spec (Z.of_nat b) 0) as [H|_]; [lia|].
  set (n := length l).
  destruct (le_lt_dec n a) as [Hna|Hna].
  - rewrite (skipn_all2 l (n:=a)) by (subst n; lia).
    rewrite (skipn_all2 l (n:=Z.to_nat _)) by (subst n; lia).
    now rewrite !firstn_nil.
  - replace (Z.to_nat (Z.max 0 (Z.min (Z.of_nat n) (Z.of_nat a)))) with a by lia.
    destruct (le_lt_dec n b) as [Hb|Hb].
    + rewrite !firstn_all2; try reflexivity; rewrite skipn_length; subst n; lia.
    + f_equal. lia.
Qed.

Lemma py_slice_to {A} (l : list A) (b : nat) :
  py_slice l None (Some (Z.of_nat b)) = firstn b l.
Proof.
  assert (H := py_slice_nat l 0 b).
  unfold py_slice in *. cbn [Z.of_nat] in H.
  replace (py_clamp (Z.of_nat (length l)) 0) with 0%Z in H
    by (unfold py_clamp; cbn; lia).
  rewrite H. cbn. now rewrite Nat.sub_0_r.
Qed.

Lemma py_slice_from {A} (l : list A) (a : nat) :
  py_slice l (Some (Z.of_nat a)) None = skipn a l.
Proof.
  unfold py_slice, py_clamp.
  destruct (Z.ltb_spec (Z.of_nat a) 0) as [H|_]; [lia|].
  destruct (le_lt_dec (length l) a) as [Hna|Hna].
  - rewrite !skipn_all2 by lia. now rewrite firstn_nil.
  - replace (Z.to_nat (Z.max 0 (Z.min (Z.of_nat (length l)) (Z.of_nat a)))) with a by lia.
    rewrite firstn_all2; [reflexivity|]. rewrite skipn_length. lia.
Qed.
