(** The update and the simulation. *)
From Coq Require Import String List ZArith QArith Qreals Reals Bool Lia Lra.
From Verif Require Import Py Tools Lists Expr RSum Mat Core Calculus ExprProofs MatProofs Spec_Core StructProofs
  Spec_Calculus Deriv CalculusProofs PowerProofs Subs SubsProofs Method Spec_Method Separable TempProofs
  Numeric Spec_Numeric NumericProofs NumericUpdate NumericStep NumericRun.
Import ListNotations.
Local Open Scope string_scope.
Local Open Scope list_scope.
Local Open Scope nat_scope.

(** The groups of arguments have no symbol in common. *)
Lemma args_disj m s : NoDup (args_of m) ->
  (In s (c_x m) -> ~ In s (dx m) /\ ~ In s (c_w m) /\ ~ In s (c_u m) /\ ~ In s (c_p m) /\ ~ In s (o_of m)) /\
  (In s (dx m) -> ~ In s (c_w m) /\ ~ In s (c_u m) /\ ~ In s (c_p m) /\ ~ In s (o_of m)) /\
  (In s (c_w m) -> ~ In s (c_u m) /\ ~ In s (c_p m) /\ ~ In s (o_of m)) /\
  (In s (c_u m) -> ~ In s (c_p m) /\ ~ In s (o_of m)) /\
  (In s (c_p m) -> ~ In s (o_of m)).
Proof.
  unfold args_of. intros ND.
  pose proof (nodup_app_disj _ _ s ND) as D1. apply nodup_r in ND.
  pose proof (nodup_app_disj _ _ s ND) as D2. apply nodup_r in ND.
  pose proof (nodup_app_disj _ _ s ND) as D3. apply nodup_r in ND.
  pose proof (nodup_app_disj _ _ s ND) as D4. apply nodup_r in ND.
  pose proof (nodup_app_disj _ _ s ND) as D5.
  rewrite !in_app_iff in D1. rewrite !in_app_iff in D2. rewrite !in_app_iff in D3. rewrite !in_app_iff in D4. clear ND. tauto.
Qed.

Lemma v_cases m s : In s (v_of Sall m) -> In s (dx m) \/ In s (c_w m).
Proof. unfold v_of, dx_of, w_of. cbn [cut]. intros H. now apply in_app_or in H. Qed.

Lemma v_nodup m : counters_ok m -> NoDup (args_of m) -> NoDup (v_of Sl m).
Proof.
  intros HC ND. pose proof (groups_basic m HC ND "vl" (v_of Sl m)) as B. unfold basic in B.
  rewrite <- B by (cbn; auto 10). unfold among. now apply NoDup_filter.
Qed.

Lemma update_ok nu : let m := n_method nu in wf m -> counters_ok m -> c_cy m = [] -> closed nu ->
  inv_correct (n_inv nu) -> linear_part m ->
  exists F Fl Fnl out, tempF Sall m = Ok F /\ tempF Sl m = Ok Fl /\ tempF Snl m = Ok Fnl /\ output m = Ok out /\
    forall st u p, length (st_args st) = length (args_of m) -> length u = length (c_u m) -> length p = length (c_p m) ->
      safe (update nu u p st) (updated nu F Fl Fnl out u p st).
Proof.
  intros m W HC CY CL IC LP. pose proof (proj1 CL) as ND. fold m in ND.
  destruct (tempF_ok m Sall W HC) as (F & EF & LF & _).
  destruct (jac_ok m Sl Sl W HC) as (Fl & Jll & EFl & LFl & EJll & JLL & NR1 & NC1).
  destruct (jac_ok m Snl Sl W HC) as (Fnl & Jnll & EFnl & LFnl & EJnll & JNLL & NR2 & NC2).
  destruct (G_ok m Sl Fl Jll W HC EFl LFl EJll NR1 NC1) as (Gl & EGl & LGl & VGl).
  destruct (G_ok m Snl Fnl Jnll W HC EFnl LFnl EJnll NR2 NC2) as (Gnl & EGnl & LGnl & VGnl).
  destruct (output_no_connector m W HC CY) as (out & EO & LO & _).
  exists F, Fl, Fnl, out. split; [exact EF|]. split; [exact EFl|]. split; [exact EFnl|]. split; [exact EO|].
  intros st u p L LU LPa. unfold update.
  assert (GU : assoc "u" (groups m) = Some (c_u m)) by reflexivity.
  assert (GP : assoc "p" (groups m) = Some (c_p m)) by reflexivity.
  destruct (set_group nu CL (c_u m) st (Ve u) (fun i => nth i u 0%R)) as (st1 & E1 & L1 & V1 & I1 & X1 & A1);
    [now apply (in_groups nu HC CL "u")|exact L|intros s Hs; unfold args_of; rewrite !in_app_iff; auto|now exists u|].
  unfold set at 1. fold m. rewrite GU, E1. cbn [rbind].
  destruct (set_group nu CL (c_p m) st1 (Ve p) (fun i => nth i p 0%R)) as (st2 & E2 & L2 & V2 & I2 & X2 & A2);
    [now apply (in_groups nu HC CL "p")|exact L1|intros s Hs; unfold args_of; rewrite !in_app_iff; auto 10|now exists p|].
  unfold set at 1. fold m. rewrite GP, E2. cbn [rbind].
  unfold update_actions. cbn [app run_actions]. 
  eapply safe_bind.
  { exact (pre_ok nu HC CL IC Fl Fnl out Jll Jnll Gl Gnl LFl LFnl EJll EJnll JLL JNLL EGl EGnl LGl LGnl LO st2 L2). }
  intros st3 (I3 & (B & FR3) & (r1 & ADV)).
  (* the loop, if any *)
  set (LOOP := fun st4 : state =>
    fresh nu Jll Jnll Gl Gnl B st4 /\ agree_off (v_of Snl m) (senv nu st3) (senv nu st4) /\
    (has_nl m = true ->
      st_it st4 <= n_maxit nu /\ steps (newton_m nu Jnll Gl Gnl B) (st_it st4) (senv nu st3) (senv nu st4) /\
      (fnorm (nv m Snl) (redF nu Jnll Gl Gnl B (senv nu st4)) <= n_eps nu \/ st_it st4 = n_maxit nu \/
       (st_it st4 = 0%nat /\ 1 <= n_eps nu) \/
       exists rp, newton_m nu Jnll Gl Gnl B rp (senv nu st4) /\
         fnorm (nv m Snl) (fun i => redF nu Jnll Gl Gnl B (senv nu st4) i - redF nu Jnll Gl Gnl B rp i) <= n_eps nu)%R)).
  assert (FIN : forall st4, LOOP st4 ->
    safe (do st <- execs nu (postimplicit m) st4; Ok st) (updated nu F Fl Fnl out u p st)).
  { intros st4 (FR4 & A4 & H4).
    eapply safe_bind. { exact (post_ok nu W HC CL Fl Fnl out Jll Jnll Gl Gnl LFl LFnl LGl LGnl EO LO B st4 FR4). }
    intros st5 (L5 & I5 & A5 & X5 & SD & SZ & SY & SF). cbn [safe].
    destruct ADV as (AX & XX & AO & XO).
    assert (VS : forall a s, In s (v_of a m) -> In s (v_of Sall m)) by (intros a s; exact (v_sub nu a s)).
    assert (A45 : agree_off (v_of Sall m) (senv nu st3) (senv nu st5)).
    { apply (agree_tr _ _ (senv nu st4)); [exact (agree_sub _ _ _ _ (VS Snl) A4)|exact (agree_sub _ _ _ _ (VS Sl) A5)]. }
    unfold updated. fold m. cbv zeta.
    split; [exact L5|]. split.
    { intros i Hi. set (s := nth i (c_x m) ""). assert (Is : In s (c_x m)) by (now apply nth_In).
      destruct (args_disj m s ND) as (D1 & _). destruct (D1 Is) as (N1 & N2 & N3 & N4 & N5).
      rewrite A45 by (intros H; apply v_cases in H; destruct H; contradiction).
      set (d := nth i (dx m) ""). assert (Id : In d (dx m)) by (apply nth_In; rewrite dx_length; exact Hi).
      destruct (args_disj m d ND) as (_ & D2 & _). destruct (D2 Id) as (M2 & M3 & M4 & M5).
      assert (XXs : (r1 s = senv nu st2 s + senv nu st2 d)%R) by (exact (XX i Hi)).
      rewrite AO by exact N5. rewrite XXs. rewrite (A2 s N4), (A1 s N3), (A2 d M4), (A1 d M3). reflexivity. }
    split.
    { intros i Hi. set (s := nth i (c_u m) ""). assert (Is : In s (c_u m)) by (now apply nth_In).
      destruct (args_disj m s ND) as (D1 & D2 & D3 & D4 & _).
      rewrite A45 by (intros H; apply v_cases in H; destruct H as [H|H]; [apply D2 in H|apply D3 in H]; tauto).
      rewrite AO by (apply D4 in Is; tauto). rewrite AX by (intros H; apply D1 in H; tauto).
      rewrite A2 by (apply D4 in Is; tauto). unfold s. now apply X1. }
    split.
    { intros i Hi. set (s := nth i (c_p m) ""). assert (Is : In s (c_p m)) by (now apply nth_In).
      destruct (args_disj m s ND) as (D1 & D2 & D3 & D4 & D5).
      rewrite A45 by (intros H; apply v_cases in H; destruct H as [H|H]; [apply D2 in H|apply D3 in H]; tauto).
      rewrite AO by (apply D5 in Is; tauto). rewrite AX by (intros H; apply D1 in H; tauto).
      unfold s. now apply X2. }
    split; [exact SD|]. split; [exact SZ|]. split; [exact SY|].
    intros SM.
    assert (IB : is_inverse (nv m Sl) (fun i j => eval (senv nu st4) (ent Jll i j)) B).
    { destruct FR4 as [(S4 & P4 & Z4) _]. destruct (has_l m) eqn:HL; [now apply (P4 HL)|].
      fold m in Z4. rewrite (Z4 HL). split; intros i j Hi; lia. }
    assert (A54 : agree_off (v_of Sall m) (senv nu st5) (senv nu st4))
      by (apply agree_sym; exact (agree_sub _ _ _ _ (VS Sl) A5)).
    assert (SA4 : regular m Fl Fnl (senv nu st4)).
    { intros e q He Aq. apply (SM e q He). apply (agree_tr _ _ (senv nu st4)); [now apply agree_sym|exact Aq]. }
    assert (NV : NoDup (v_of Sl m)) by (now apply v_nodup).
    assert (VL5 : vanish (senv nu st5) Fl).
    { apply (linear_solved nu HC NV LP Fl Fnl Jll Gl LFl EJll JLL VGl (senv nu st4) (senv nu st5) B SA4 A5 IB). exact X5. }
    assert (VN5 : forall i, i < nv m Snl -> eval (senv nu st5) (nth i Fnl (Num 0)) = redF nu Jnll Gl Gnl B (senv nu st4) i).
    { exact (nonlinear_value nu HC NV LP Fl Fnl Jnll Gl Gnl LFnl EJnll JNLL VGnl (senv nu st4) (senv nu st5) B SA4 A5 X5). }
    split; [exact VL5|].
    destruct (has_nl m) eqn:HN.
    2:{ left. apply (vanish_parts nu W HC F Fl Fnl EF EFl EFnl LFl LFnl). split; [exact VL5|].
        apply vanish_nth. rewrite LFnl. intros i Hi. exfalso.
        assert (H : 0 < nv m Snl) by lia. apply (has_nl_iff nu HC Fl Fnl out Gl Gnl LFl LFnl LGl LGnl LO) in H. fold m in H. congruence. }
    right. destruct (SF HN) as [SF1 SF2].
    assert (RES : residual (senv nu st5) F = fnorm (nv m Snl) (redF nu Jnll Gl Gnl B (senv nu st4))).
    { rewrite (norm_parts nu W HC F Fl Fnl EF EFl EFnl LFl _ VL5). unfold fnorm. f_equal. apply rsum_ext. intros i Hi. fold m in Hi.
      now rewrite VN5. }
    rewrite RES. split; [exact SF2|].
    destruct (H4 eq_refl) as (K4 & N4 & EX4). exists (redF nu Jnll Gl Gnl B), (redJ nu Jnll Gl Gnl B).
    split.
    { intros q Aq RQ.
      apply (reduces_ok nu HC NV LP Fl Fnl Jll Jnll Gl Gnl LFl LFnl EJll EJnll JLL JNLL VGl VGnl (senv nu st4) B IB q); [|exact RQ].
      apply (agree_tr _ _ (senv nu st5)); [now apply agree_sym|exact Aq]. }
    split.
    { intros q Aq RQ. exact (partials_ok nu HC LP Fl Fnl Jnll Gl Gnl EFl EFnl LFl LFnl EJnll JNLL EGl EGnl B q RQ). }
    exists (senv nu st3), (senv nu st4). split; [now apply agree_sym|]. split.
    { intros s Hs. destruct (args_disj m s ND) as (D1 & D2 & D3 & _).
      assert (NU : ~ In s (c_u m) /\ ~ In s (c_p m) /\ ~ In s (o_of m) /\ ~ In s (c_x m)).
      { apply v_cases in Hs. destruct Hs as [Hs|Hs].
        - destruct (D2 Hs) as (P1 & P2 & P3 & P4). repeat split; try assumption. intros H. now apply D1 in H.
        - destruct (D3 Hs) as (P2 & P3 & P4). repeat split; try assumption. intros H. apply D1 in H. tauto. }
      destruct NU as (P1 & P2 & P3 & P4). rewrite AO, AX, A2, A1 by assumption. reflexivity. }
    rewrite I5. split; [exact N4|]. split; [exact A5|]. split; [exact K4|]. rewrite LFnl. exact EX4. }
  destruct (has_nl m) eqn:HN; cbn [when app run_actions].
  - eapply safe_bind; [exact (loop_ok nu HC CL IC Fl Fnl out Jll Jnll Gl Gnl LFl LFnl EJll EJnll JLL JNLL EGl EGnl LGl LGnl LO LP B st3 HN FR3)|].
    intros st4 (F4 & K4 & N4 & EX4). apply FIN. split; [exact F4|]. split; [|intros _; split; [exact K4|split; [exact N4|exact EX4]]].
    clear - N4. induction N4 as [a|k a b c [H _] N IH]; [intros s _; reflexivity|]. exact (agree_tr _ _ _ _ H IH).
  - apply FIN. split; [exact FR3|]. split; [intros s _; reflexivity|congruence].
Qed.
