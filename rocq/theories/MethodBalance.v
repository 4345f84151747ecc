(** Power balance over steps and runs. *)
From Coq Require Import String List ZArith QArith Qreals Reals Bool Lra Lia Permutation.
From Verif Require Import Py Tools Lists Expr ExprProofs RSum Mat MatProofs Core Spec_Core
  Spec_Split Spec_Subs StructProofs BlockProofs PowerProofs SplitProofs SplitProofs2 Calculus
  Spec_Calculus Deriv CalculusProofs Subs SubsProofs Method Spec_Method Separable TempProofs
  MethodProofs MethodEnergy MethodInit.
Import ListNotations.
Local Open Scope string_scope.
Local Open Scope list_scope.
Local Open Scope nat_scope.

Lemma clean_heir K c m : clean_names c -> heir K c m ->
  NoDup (c_x m) /\ (forall s, In s (dx m) -> ~ In s (c_x m)).
Proof.
  intros (ND & DX & _) (_ & P & _). split; [now apply (Permutation_NoDup P)|].
  intros s H I. apply (DX s).
  - unfold dx in *. eapply Permutation_in; [|exact H]. now apply Permutation_map, Permutation_sym.
  - eapply Permutation_in; [|exact I]. now apply Permutation_sym.
Qed.

Lemma step_balance : forall f c, wf c -> clean_names c -> c_cy c = [] -> f_grad f <> OtherGrad ->
  exists m F out, method_init f c = ok m /\ tempF Sall m = Ok F /\ output m = Ok out /\
    Permutation (c_x c) (c_x m) /\ Permutation (c_w c) (c_w m) /\ c_u m = c_u c /\ c_y m = c_y c /\
    length F = length (c_x c) + length (c_w c) /\ length out = length (c_y c) /\
    (forall r, exists r', agree_off (map fst (subsexprs c)) r r' /\ eval r (c_H m) = eval r' (c_H c)) /\
    (f_split f = false -> splits_energy m) /\
    (forall r, absorbs (replaced c) r c -> absorbs (replaced c) r m) /\
    forall r r1, solves r F -> moved 1 r (c_x m) (dx m) r1 -> exact_step f m r r1 ->
      (r fs_symbol * (eval r1 (c_H m) - eval r (c_H m)) + power_laws r m + power_ports r m out =
       - power_structure r m (a_vec m))%R.
Proof.
  intros f c W CL CY G.
  destruct (method_init_ok f c W CL G) as (m & g & E & R & H & D & EG & EH & SP).
  destruct (clean_heir _ c m CL H) as [ND DX].
  pose proof H as (Wm & PX & PW & EU & EY & _ & ECY & AB). rewrite CY in ECY.
  pose proof R as ((_ & HC & _) & _).
  destruct (tempF_ok m Sall Wm HC) as (F & EF & LF & _).
  destruct (output_no_connector m Wm HC ECY) as (out & EO & LO & _).
  exists m, F, out. split; [exact E|]. split; [exact EF|]. split; [exact EO|]. split; [exact PX|]. split; [exact PW|].
  split; [exact EU|]. split; [exact EY|].
  split; [rewrite LF; unfold nv; cbn [bx bw len]; now rewrite (Permutation_length PX), (Permutation_length PW)|].
  split; [congruence|]. split.
  { intros r. rewrite EH. unfold sub_scalar. eexists. split; [|apply subs_seq].
    apply seq_env_agree. intros s Hs. now apply keys_restrict, keys_self in Hs. }
  split.
  { intros Hs. destruct (SP Hs) as [XL Z0]. unfold splits_energy. rewrite XL. cbn [Z.to_nat].
    split; [intros; lia|]. split; [intros; lia|]. intros i j Hi Hj. apply Z0; [lia|exact Hj]. }
  split; [exact AB|].
  intros r r1 SO MV XS. exact (balance f m g r r1 F out R ECY ND DX D EG EF EO SO MV XS).
Qed.

(** A run of [N] solved steps. *)
Lemma move_exists m r : NoDup (c_x m) -> exists r1, moved 1 r (c_x m) (dx m) r1.
Proof.
  intros ND. exists (move_env 1 r (combine (c_x m) (dx m))). apply move_env_moved; [exact ND|apply dx_length].
Qed.

Lemma next_energy m r r' r1 : next_step m r r' -> moved 1 r (c_x m) (dx m) r1 -> eval r' (c_H m) = eval r1 (c_H m).
Proof.
  intros [N1 N2] [M1 M2]. apply eval_ext. intros s Hs.
  destruct (in_dec string_dec s (c_x m)) as [I|I].
  - destruct (In_nth _ _ "" I) as (i & Hi & <-). rewrite N1, M1 by exact Hi. lra.
  - now rewrite N2, M2.
Qed.

Lemma run_balance : forall f c, wf c -> clean_names c -> c_cy c = [] -> f_grad f <> OtherGrad ->
  exists m F out, method_init f c = ok m /\ tempF Sall m = Ok F /\ output m = Ok out /\
    forall N run, solved_run f m F N run ->
      (eval (run N) (c_H m) - eval (run 0%nat) (c_H m) =
       - rsum N (fun n => (power_laws (run n) m + power_ports (run n) m out +
                           power_structure (run n) m (a_vec m)) / run n fs_symbol))%R.
Proof.
  intros f c W CL CY G.
  destruct (step_balance f c W CL CY G) as (m & F & out & E & EF & EO & PX & _ & _ & _ & _ & _ & _ & _ & _ & B).
  exists m, F, out. split; [exact E|]. split; [exact EF|]. split; [exact EO|].
  assert (ND : NoDup (c_x m)) by (destruct CL as [ND _]; now apply (Permutation_NoDup PX)).
  induction N as [|N IH]; intros run RN; [cbn; lra|].
  specialize (IH run (fun n Hn => RN n (Nat.lt_lt_succ_r _ _ Hn))).
  destruct (RN N (Nat.lt_succ_diag_r N)) as (SO & NX & FS & XS).
  destruct (move_exists m (run N) ND) as (r1 & MV).
  specialize (B (run N) r1 SO MV (XS r1 MV)). rewrite (next_energy m (run N) (run (S N)) r1 NX MV). cbn [rsum].
  assert (EE : (eval r1 (c_H m) - eval (run N) (c_H m) =
    - ((power_laws (run N) m + power_ports (run N) m out + power_structure (run N) m (a_vec m)) / run N fs_symbol))%R).
  { apply (Rmult_eq_reg_l (run N fs_symbol)); [|lra].
    replace (run N fs_symbol * - ((power_laws (run N) m + power_ports (run N) m out + power_structure (run N) m (a_vec m)) / run N fs_symbol))%R
      with (- (power_laws (run N) m + power_ports (run N) m out + power_structure (run N) m (a_vec m)))%R by (field; lra).
    lra. }
  lra.
Qed.

Lemma structure_power_nonneg m r : passive (ntot m) (Mv r m) -> (0 <= power_structure r m (a_vec m))%R.
Proof.
  intros P. set (a := fun i => eval r (nth i (a_vec m) (Num 0))). specialize (P a).
  change (power_structure r m (a_vec m)) with (rsum (ntot m) (fun i => rsum (ntot m) (fun j => a i * Rv r m i j * a j)%R)).
  assert (Q : rsum (ntot m) (fun i => rsum (ntot m) (fun j => a i * Rv r m i j * a j))%R =
      (- / 2 * (rsum (ntot m) (fun i => rsum (ntot m) (fun j => a i * Mv r m i j * a j)) +
                rsum (ntot m) (fun i => rsum (ntot m) (fun j => a j * Mv r m j i * a i))))%R).
  { rewrite <- rsum_plus, <- rsum_scal. apply rsum_ext. intros i Hi.
    rewrite <- rsum_plus, <- rsum_scal. apply rsum_ext. intros j Hj. unfold Rv. lra. }
  rewrite Q, (rsum_swap (ntot m) (ntot m) (fun i j => a j * Mv r m j i * a i)%R).
  rewrite (rsum_ext (ntot m) (fun i => a i * rsum (ntot m) (fun j => Mv r m i j * a j))%R
      (fun i => rsum (ntot m) (fun j => a i * Mv r m i j * a j))%R) in P
    by (intros i Hi; rewrite <- rsum_scal; apply rsum_ext; intros; ring).
  lra.
Qed.

Lemma laws_power_nonneg m r : wf m ->
  (forall w z, In (w, z) (combine (c_w m) (c_z m)) -> (0 <= r w * eval r z)%R) -> (0 <= power_laws r m)%R.
Proof.
  intros ((P & _) & _) A. apply rsum_nonneg. intros k Hk. apply A.
  rewrite <- (map_combine_nth (c_w m) (c_z m) k "" (Num 0)) by lia. apply nth_In. rewrite combine_length. lia.
Qed.

Lemma run_dissipates : forall f c, wf c -> clean_names c -> c_cy c = [] -> f_grad f <> OtherGrad ->
  exists m F, method_init f c = ok m /\ tempF Sall m = Ok F /\
    forall N run, solved_run f m F N run ->
      (forall n u, n < N -> In u (c_u c) -> run n u = 0%R) ->
      (forall n, n < N -> absorbs (replaced c) (run n) c) ->
      forall i j, i <= j <= N -> (eval (run j) (c_H m) <= eval (run i) (c_H m))%R.
Proof.
  intros f c W CL CY G.
  destruct (step_balance f c W CL CY G) as (m & F & out & E & EF & EO & PX & _ & EU & EY & _ & _ & _ & _ & AB & B).
  exists m, F. split; [exact E|]. split; [exact EF|].
  destruct (method_init_ok f c W CL G) as (m' & g & E' & ((Wm & _) & _) & _).
  assert (m' = m) as -> by (rewrite E in E'; now injection E').
  assert (ND : NoDup (c_x m)) by (destruct CL as [ND _]; now apply (Permutation_NoDup PX)).
  intros N run RN U0 A0.
  assert (ST : forall n, n < N -> (eval (run (S n)) (c_H m) <= eval (run n) (c_H m))%R).
  { intros n Hn. destruct (RN n Hn) as (SO & NX & FS & XS).
    destruct (move_exists m (run n) ND) as (r1 & MV).
    specialize (B (run n) r1 SO MV (XS r1 MV)). rewrite (next_energy m (run n) (run (S n)) r1 NX MV).
    pose proof (AB _ (A0 n Hn)) as AM. destruct (AM (run n)) as [A1 A2]; [intros s _; reflexivity|].
    pose proof (structure_power_nonneg m (run n) A1) as P1.
    pose proof (laws_power_nonneg m (run n) Wm A2) as P2.
    assert (P3 : power_ports (run n) m out = 0%R).
    { unfold power_ports. apply rsum_zero. intros k Hk.
      assert (L : length (c_u m) = length (c_y m)) by apply Wm.
      rewrite U0; [lra|exact Hn|]. rewrite <- EU. apply nth_In. lia. }
    nra. }
  intros i j [Hij HjN]. induction Hij as [|j Hij IH]; [lra|].
  specialize (IH ltac:(lia)). specialize (ST j ltac:(lia)). lra.
Qed.
