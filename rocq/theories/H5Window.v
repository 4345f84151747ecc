(** The load window: proofs. *)
From Coq Require Import String List ZArith QArith Bool Lia.
From Verif Require Import Py H5 Spec_H5.
Import ListNotations.
Local Open Scope Z_scope.

Lemma py_int_floor : forall q, (0 <= q)%Q ->
  0 <= py_int q /\ (inject_Z (py_int q) <= q)%Q /\
  (q < inject_Z (py_int q + 1))%Q.
Proof.
  intros [n d] H; unfold Qle, Qlt in *; cbn in *; unfold py_int; cbn.
  assert (0 <= n) by lia.
  pose proof (Z.quot_div_nonneg n (Zpos d)) as Q1.
  rewrite Q1 by lia.
  pose proof (Z.div_mod n (Zpos d)); pose proof (Z.mod_pos_bound n (Zpos d)).
  pose proof (Z.div_pos n (Zpos d)).
  nia.
Qed.

Lemma py_int_inject : forall z, py_int (inject_Z z) = z.
Proof. intros; unfold py_int; cbn; apply Z.quot_1_r. Qed.

Lemma py_int_integral : forall q z, (q == inject_Z z)%Q -> py_int q = z.
Proof.
  intros [n d] z H; unfold Qeq in H; cbn in H; unfold py_int; cbn.
  rewrite Z.mul_1_r in H; subst n; apply Z.quot_mul; lia.
Qed.

Lemma nle_lt : forall p q, negb (Qle_bool p q) = true -> (q < p)%Q.
Proof.
  intros p q H; apply Qnot_le_lt; intro L.
  apply Qle_bool_iff in L; rewrite L in H; discriminate.
Qed.

Section W.
Variable mulfs : Q -> Q.
Variable divfs : Z -> Q.
Variable nt : Z.
Hypothesis NT : 1 <= nt.

Lemma start_inside : forall w v, inside nt w ->
  inside nt (fst (set_start nt w v)).
Proof.
  intros w v (A1 & A2 & A3); destruct v; cbn; try (now split).
  - unfold inside, get_stop in *; cbn in *.
    unfold get_start; cbn; lia.
  - destruct (Qle_bool 0 q && _)%bool eqn:E; [|now split].
    apply andb_true_iff in E; destruct E as [E1 E2].
    apply Qle_bool_iff in E1; apply nle_lt in E2.
    destruct (py_int_floor q E1) as (F1 & F2 & F3).
    assert (L : py_int q < get_stop nt w).
    { rewrite Zlt_Qlt; eapply Qle_lt_trans; eassumption. }
    unfold inside, get_stop, get_start in *; cbn in *; lia.
Qed.

Lemma stop_inside_none : forall w, inside nt w ->
  inside nt (put_stop w None).
Proof.
  intros w (A1 & A2 & A3); unfold inside, get_stop, get_start in *; cbn in *.
  lia.
Qed.

Lemma stop_number : forall w q, inside nt w ->
  (inside nt (fst (set_stop nt w (PNum q))) <->
   ~ (inject_Z (get_start w) < q /\ q < inject_Z (get_start w + 1))%Q).
Proof.
  intros w q (A1 & A2 & A3); cbn.
  destruct (negb _ && _)%bool eqn:E.
  - apply andb_true_iff in E; destruct E as [E1 E2].
    apply nle_lt in E1; apply Qle_bool_iff in E2.
    assert (P : (0 <= q)%Q).
    { apply Qlt_le_weak; eapply Qle_lt_trans; [|exact E1].
      change 0%Q with (inject_Z 0); rewrite <- Zle_Qle; exact A1. }
    destruct (py_int_floor q P) as (F1 & F2 & F3).
    assert (U : py_int q <= nt) by
        (rewrite Zle_Qle; eapply Qle_trans; eassumption).
    assert (L : get_start w <= py_int q).
    { apply Z.lt_succ_r; rewrite Zlt_Qlt.
      eapply Qlt_trans; eassumption. }
    cbn; split.
    + intros (B1 & B2 & B3) [C1 C2].
      unfold get_stop in B2; cbn in B2.
      change (get_start w < py_int q) in B2.
      assert (Q1 : (inject_Z (get_start w + 1) <= inject_Z (py_int q))%Q)
        by (rewrite <- Zle_Qle; lia).
      pose proof (Qlt_le_trans _ _ _ C2 Q1) as C3.
      exact (Qlt_not_le _ _ C3 F2).
    + intro N.
      assert (M : (inject_Z (get_start w + 1) <= q)%Q).
      { apply Qnot_lt_le; intro C; apply N; split; assumption. }
      assert (L' : get_start w + 1 < py_int q + 1).
      { rewrite Zlt_Qlt; eapply Qle_lt_trans; eassumption. }
      unfold inside; unfold get_stop, get_start in *; cbn; lia.
  - cbn; split; [|now split].
    intros _ [C1 C2].
    assert (T : negb (Qle_bool q (inject_Z (get_start w))) &&
                Qle_bool q (inject_Z nt) = true).
    { apply andb_true_iff; split.
      - apply negb_true_iff; apply not_true_is_false; intro T.
        apply Qle_bool_iff in T; exact (Qlt_not_le _ _ C1 T).
      - apply Qle_bool_iff; apply Qlt_le_weak.
        eapply Qlt_le_trans; [exact C2|].
        rewrite <- Zle_Qle; lia. }
    congruence.
Qed.

Lemma stop_inside : forall w v, inside nt w ->
  (forall q, v = PNum q -> integral q) ->
  inside nt (fst (set_stop nt w v)).
Proof.
  intros w v IW IV; destruct v; try exact IW.
  - apply stop_inside_none; exact IW.
  - apply stop_number; [exact IW|].
    intros [C1 C2]; destruct (IV q eq_refl) as [z Z1].
    rewrite Z1 in C1, C2.
    rewrite <- Zlt_Qlt in C1, C2; lia.
Qed.

Lemma assign_inside : forall a w, inside nt w ->
  (forall q, a = AStop (PNum q) -> integral q) ->
  inside nt (fst (do_assign mulfs divfs nt w a)).
Proof.
  intros a w IW IA; destruct a; unfold do_assign.
  - apply start_inside; exact IW.
  - apply stop_inside; [exact IW|].
    intros q E; apply IA; rewrite E; reflexivity.
  - destruct v; cbn; try exact IW.
    destruct (Qle_bool 1 q); exact IW.
  - destruct v; unfold set_tstart; try exact IW.
    + exact (start_inside w PNone IW).
    + destruct (_ && _)%bool; [|exact IW].
      apply start_inside; exact IW.
  - destruct v; unfold set_tstop; try exact IW.
    + apply stop_inside_none; exact IW.
    + destruct (_ && _)%bool; [|exact IW].
      apply stop_inside; [exact IW|].
      intros q' E; inversion E; exists (py_int (mulfs q) + 1); reflexivity.
Qed.

Lemma window_from : forall ops w, inside nt w -> integer_stops ops ->
  inside nt (run_assign mulfs divfs nt ops w).
Proof.
  unfold run_assign; induction ops as [|a ops IH]; intros w IW IO; cbn.
  - exact IW.
  - apply IH.
    + apply assign_inside; [exact IW|].
      intros q E; apply IO; left; exact E.
    + intros q I; apply IO; right; exact I.
Qed.

Lemma init_inside : inside nt init_window.
Proof. unfold inside; cbn; lia. Qed.

Lemma window_integer : forall ops, integer_stops ops ->
  inside nt (run_assign mulfs divfs nt ops init_window).
Proof. intros; apply window_from; [apply init_inside|assumption]. Qed.

(** What is accepted is stored: integers in range. *)
Lemma start_stored : forall w i, inside nt w ->
  (0 <= i < get_stop nt w ->
   get_start (fst (set_start nt w (PNum (inject_Z i)))) = i) /\
  (~ (0 <= i < get_stop nt w) ->
   set_start nt w (PNum (inject_Z i)) = (w, Some ValueError)).
Proof.
  intros w i IW; unfold set_start.
  destruct (_ && _)%bool eqn:E.
  - apply andb_true_iff in E; destruct E as [E1 E2].
    apply Qle_bool_iff in E1; apply nle_lt in E2.
    change 0%Q with (inject_Z 0) in E1.
    rewrite <- Zle_Qle in E1; rewrite <- Zlt_Qlt in E2.
    split; [|lia]; intros _; cbn; unfold get_start; cbn.
    apply py_int_inject.
  - split; [|reflexivity]; intros [H1 H2].
    apply andb_false_iff in E; destruct E as [E|E].
    + rewrite (proj2 (Qle_bool_iff 0 (inject_Z i))) in E; [discriminate|].
      change 0%Q with (inject_Z 0); rewrite <- Zle_Qle; exact H1.
    + apply negb_false_iff in E; apply Qle_bool_iff in E.
      rewrite <- Zle_Qle in E; lia.
Qed.

Lemma stop_stored : forall w i, inside nt w ->
  (get_start w < i <= nt ->
   get_stop nt (fst (set_stop nt w (PNum (inject_Z i)))) = i) /\
  (~ (get_start w < i <= nt) ->
   set_stop nt w (PNum (inject_Z i)) = (w, Some ValueError)).
Proof.
  intros w i IW; unfold set_stop.
  destruct (_ && _)%bool eqn:E.
  - apply andb_true_iff in E; destruct E as [E1 E2].
    apply nle_lt in E1; apply Qle_bool_iff in E2.
    rewrite <- Zle_Qle in E2; rewrite <- Zlt_Qlt in E1.
    split; [|lia]; intros _; cbn; unfold get_stop; cbn.
    apply py_int_inject.
  - split; [|reflexivity]; intros [H1 H2].
    apply andb_false_iff in E; destruct E as [E|E].
    + apply negb_false_iff in E; apply Qle_bool_iff in E.
      rewrite <- Zle_Qle in E; lia.
    + rewrite (proj2 (Qle_bool_iff (inject_Z i) (inject_Z nt))) in E;
        [discriminate|].
      rewrite <- Zle_Qle; exact H2.
Qed.
End W.

(** Stop = 1/2 is accepted and stored as 0. *)
Lemma window_refuted : forall mulfs divfs nt, 1 <= nt ->
  exists ops, ~ inside nt (run_assign mulfs divfs nt ops init_window) /\
              set_stop nt init_window (PNum (1 # 2))
              = (mkWindow None (Some 0) 1, None) /\
              ops = [AStop (PNum (1 # 2))].
Proof.
  intros mulfs divfs nt NT.
  assert (S : set_stop nt init_window (PNum (1 # 2))
              = (mkWindow None (Some 0) 1, None)).
  { unfold set_stop.
    rewrite (proj2 (Qle_bool_iff (1 # 2) (inject_Z nt))); [reflexivity|].
    unfold Qle; cbn; lia. }
  exists [AStop (PNum (1 # 2))]; split; [|split; [exact S|reflexivity]].
  unfold run_assign, fold_left, do_assign; rewrite S.
  unfold inside; cbn; lia.
Qed.

Lemma shared_refuted : forall mulfs divfs,
  exists nts ops k, Forall (fun n => 1 <= n) nts /\ (k < length nts)%nat /\
    integer_stops (map snd ops) /\
    Forall (fun o => snd (do_assign mulfs divfs (nth (fst o) nts 0)
                                    init_window (snd o)) = None) ops /\
    ~ inside (nth k nts 0) (run_shared mulfs divfs nts ops init_window).
Proof.
  intros; exists [100; 10], [(0%nat, AStart (PNum 50))], 1%nat.
  split; [repeat constructor; lia|]; split; [cbn; lia|].
  split; [intros q [E|[]]; discriminate|].
  split; [repeat constructor|].
  unfold inside; cbn; unfold get_start; cbn; lia.
Qed.

Lemma new_run_refuted : forall mulfs divfs,
  exists nt nt' ops, 1 <= nt' <= nt /\ integer_stops ops /\
    inside nt (run_assign mulfs divfs nt ops init_window) /\
    ~ inside nt' (run_assign mulfs divfs nt ops init_window).
Proof.
  intros; exists 10, 5, [AStop (PNum 10)]; split; [lia|].
  split; [intros q [E|[]]; inversion E; exists 10; reflexivity|].
  unfold inside, run_assign; cbn; unfold get_start, get_stop, py_int; cbn.
  lia.
Qed.
