(** Value of the simplified constructors. *)
From Coq Require Import String List ZArith QArith Qpower Qreals Reals Bool Lra Lia.
From Verif Require Import Expr.
Import ListNotations.
Local Open Scope R_scope.

Lemma Q2R_0 : Q2R 0 = 0.
Proof. unfold Q2R; cbn; lra. Qed.
Lemma Q2R_1 : Q2R 1 = 1.
Proof. unfold Q2R; cbn; lra. Qed.
Lemma Q2R_m1 : Q2R (-1) = -1.
Proof. unfold Q2R; cbn; lra. Qed.
Lemma Q2R_half : Q2R (1 # 2) = / 2.
Proof. unfold Q2R; cbn; lra. Qed.
Lemma Q2R_red q : Q2R (Qred q) = Q2R q.
Proof. apply Qeq_eqR, Qred_correct. Qed.

Lemma is0_eval r e : is0 e = true -> eval r e = 0.
Proof.
  destruct e; cbn; try discriminate. intros H%Qeq_bool_eq.
  rewrite (Qeq_eqR _ _ H). apply Q2R_0.
Qed.

Lemma is1_eval r e : is1 e = true -> eval r e = 1.
Proof.
  destruct e; cbn; try discriminate. intros H%Qeq_bool_eq.
  rewrite (Qeq_eqR _ _ H). apply Q2R_1.
Qed.

Lemma eval_sadd r a b : eval r (sadd a b) = eval r a + eval r b.
Proof.
  unfold sadd.
  destruct (is0 a) eqn:Ea. { rewrite (is0_eval r a Ea). lra. }
  destruct (is0 b) eqn:Eb. { rewrite (is0_eval r b Eb). lra. }
  destruct a, b; cbn [eval]; try reflexivity.
  now rewrite Q2R_red, Q2R_plus.
Qed.

Lemma eval_smul r a b : eval r (smul a b) = eval r a * eval r b.
Proof.
  unfold smul.
  destruct (is0 a) eqn:Ea. { rewrite (is0_eval r a Ea). cbn. rewrite Q2R_0. lra. }
  destruct (is0 b) eqn:Eb. { rewrite (is0_eval r b Eb). cbn. rewrite Q2R_0. lra. }
  destruct (is1 a) eqn:Fa. { rewrite (is1_eval r a Fa). lra. }
  destruct (is1 b) eqn:Fb. { rewrite (is1_eval r b Fb). lra. }
  destruct a, b; cbn [eval]; try reflexivity.
  now rewrite Q2R_red, Q2R_mult.
Qed.

Lemma eval_sneg r a : eval r (sneg a) = - eval r a.
Proof. unfold sneg. rewrite eval_smul. cbn. rewrite Q2R_m1. lra. Qed.

Lemma eval_ssub r a b : eval r (ssub a b) = eval r a - eval r b.
Proof. unfold ssub. rewrite eval_sadd, eval_sneg. lra. Qed.

Lemma Q2R_pow q n : Q2R (q ^ Z.of_nat n) = Q2R q ^ n.
Proof.
  induction n as [|n IH].
  - cbn. unfold Q2R; cbn. lra.
  - cbn [pow]. rewrite <- IH, <- Q2R_mult. apply Qeq_eqR.
    rewrite Nat2Z.inj_succ, <- Z.add_1_l.
    destruct (Qeq_dec q 0) as [Hq|Hq].
    + rewrite Hq. rewrite Qpower_0 by lia. now rewrite Qmult_0_l.
    + rewrite Qpower_plus by exact Hq. reflexivity.
Qed.

Lemma eval_spow r a n : eval r (spow a n) = eval r a ^ n.
Proof.
  destruct n as [|[|n]]; cbn [spow].
  - cbn. apply Q2R_1.
  - cbn. lra.
  - destruct a; try reflexivity. cbn [eval]. rewrite Q2R_red. apply Q2R_pow.
Qed.
