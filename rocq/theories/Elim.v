(** Elimination of variables from a linear structure: the algebra shared by
    the connection of ports and the reduction of linear dissipations. *)
From Coq Require Import Reals Lra Lia Arith.
From Verif Require Import RSum.
Local Open Scope R_scope.

Section Elim.
  Variables (n m : nat) (A G O C S iN : rmat).
  Let N : rmat := fun i j => idm i j - mm m C S i j.
  Hypothesis HN : is_inverse m N iN.

  (** M' = A + G S iN O *)
  Definition elim_mat : rmat := fun i j => A i j + mm m (mm m (mm m G S) iN) O i j.

  Lemma elim_mv a i :
    mv_ n elim_mat a i = mv_ n A a i + mv_ m G (mv_ m S (mv_ m iN (mv_ n O a))) i.
  Proof.
    unfold elim_mat. rewrite mv_madd. f_equal.
    rewrite mv_mm. rewrite mv_mm. rewrite mv_mm. reflexivity.
  Qed.

  Lemma elim_iff a b :
    (forall i, (i < n)%nat -> b i = mv_ n elim_mat a i) <->
    exists cu cy : rvec,
      (forall i, (i < n)%nat -> b i = mv_ n A a i + mv_ m G cu i) /\
      (forall k, (k < m)%nat -> cy k = mv_ n O a k + mv_ m C cu k) /\
      (forall k, (k < m)%nat -> cu k = mv_ m S cy k).
  Proof.
    split.
    - intros H. exists (mv_ m S (mv_ m iN (mv_ n O a))), (mv_ m iN (mv_ n O a)).
      repeat split.
      + intros i Hi. now rewrite H, elim_mv.
      + intros k Hk.
        pose proof (inverse_sol m N iN (mv_ n O a) HN k Hk) as E.
        unfold N in E. rewrite mv_msub, mv_id, mv_mm in E by exact Hk. lra.
    - intros (cu & cy & Hb & Hcy & Hcu) i Hi.
      rewrite Hb by exact Hi. rewrite elim_mv. f_equal.
      apply mv_ext; [reflexivity|]. intros k Hk. rewrite Hcu by exact Hk.
      apply mv_ext; [reflexivity|]. intros l Hl.
      refine (inverse_unique_sol m N iN cy (mv_ n O a) HN _ l Hl).
      intros p Hp. unfold N. rewrite mv_msub, mv_id, mv_mm by exact Hp.
      rewrite (Hcy p Hp).
      rewrite (mv_ext m C C cu (mv_ m S cy)) by auto. lra.
  Qed.
End Elim.
