(** The power balance in the file of a simulation. *)
From Coq Require Import String List ZArith QArith Qreals Reals Bool Lia Lra.
From Verif Require Import Py Tools Lists Expr RSum Mat Core Spec_Core Method Spec_Method StructProofs Spec_Calculus Deriv PowerProofs TempProofs
  MethodInit MethodBalance Numeric Spec_Numeric NumericUpdateOk NumericUpdate NumericProofs NumericSim H5 Spec_H5 Data Spec_Data DataSim DataRead.
Import ListNotations.
Local Open Scope string_scope.
Local Open Scope list_scope.
Local Open Scope nat_scope.

(** b = M a gives the balance of powers. *)
Lemma structure_balance c F out r fs : wf c -> counters_ok c -> c_cy c = [] ->
  tempF Sall c = Ok F -> output c = Ok out -> solves r F -> r fs_symbol = fs ->
  (stored_power fs r c + dissipated r c + power_ports r c out = 0)%R.
Proof.
  intros W HC CY EF EO SO FS.
  pose proof (solved_structure c F out r W HC CY EF EO SO) as B.
  pose proof (dxH_length c W) as LD. pose proof W as ((PW & PU & _) & _).
  assert (NT : ntot c = length (c_x c) + length (c_w c) + length (c_y c)) by (unfold ntot; rewrite CY; cbn; lia).
  set (a := fun i => eval r (nth i (a_vec c) (Num 0))) in *.
  assert (S : rsum (ntot c) (fun i => a i * rsum (ntot c) (fun j => Mv r c i j * a j))%R =
    (- power_structure r c (a_vec c))%R).
  { change (power_structure r c (a_vec c)) with (rsum (ntot c) (fun i => rsum (ntot c) (fun j => a i * Rv r c i j * a j)%R)).
    assert (Q : rsum (ntot c) (fun i => rsum (ntot c) (fun j => a i * Rv r c i j * a j))%R =
      (- / 2 * (rsum (ntot c) (fun i => rsum (ntot c) (fun j => a i * Mv r c i j * a j)) +
                rsum (ntot c) (fun i => rsum (ntot c) (fun j => a j * Mv r c j i * a i))))%R).
    { rewrite <- rsum_plus, <- rsum_scal. apply rsum_ext. intros i Hi.
      rewrite <- rsum_plus, <- rsum_scal. apply rsum_ext. intros j Hj. unfold Rv. lra. }
    rewrite Q.
    rewrite (rsum_swap (ntot c) (ntot c) (fun i j => a j * Mv r c j i * a i)%R).
    rewrite (rsum_ext (ntot c) (fun i => a i * rsum (ntot c) (fun j => Mv r c i j * a j))%R
      (fun i => rsum (ntot c) (fun j => a i * Mv r c i j * a j))%R).
    - lra.
    - intros i Hi. rewrite <- rsum_scal. apply rsum_ext. intros; ring. }
  rewrite (rsum_ext (ntot c) _ (fun i => a i * (if i <? length (c_x c) then r fs_symbol * r (nth i (dx c) "")
              else if i <? length (c_x c) + length (c_w c) then r (nth (i - length (c_x c)) (c_w c) "")
              else eval r (nth (i - (length (c_x c) + length (c_w c))) out (Num 0))))%R) in S
    by (intros i Hi; now rewrite (B i Hi)).
  rewrite NT, !rsum_app in S.
  rewrite (rsum_ext (length (c_x c)) (fun i => a i * _)%R
    (fun i => eval r (nth i (dxH c) (Num 0)) * (r (nth i (dx c) "") * fs))%R) in S.
  2:{ intros i Hi. destruct (Nat.ltb_spec i (length (c_x c))); [|lia]. unfold a, a_vec.
      rewrite app_nth1 by lia. rewrite FS. ring. }
  rewrite (rsum_ext (length (c_w c)) _ (fun k => r (nth k (c_w c) "") * eval r (nth k (c_z c) (Num 0)))%R) in S.
  2:{ intros k Hk.
    destruct (Nat.ltb_spec (length (c_x c) + k) (length (c_x c))); [lia|].
    destruct (Nat.ltb_spec (length (c_x c) + k) (length (c_x c) + length (c_w c))); [|lia].
    unfold a, a_vec. rewrite app_nth2, app_nth1 by lia. rewrite LD.
    replace (length (c_x c) + k - length (c_x c)) with k by lia. ring. }
  rewrite (rsum_ext (length (c_y c)) _ (fun k => r (nth k (c_u c) "") * eval r (nth k out (Num 0)))%R) in S.
  2:{ intros k Hk.
    destruct (Nat.ltb_spec (length (c_x c) + length (c_w c) + k) (length (c_x c))); [lia|].
    destruct (Nat.ltb_spec (length (c_x c) + length (c_w c) + k) (length (c_x c) + length (c_w c))); [lia|].
    unfold a, a_vec. rewrite app_assoc, app_nth2 by (rewrite app_length; lia).
    rewrite app_length, LD, <- PW.
    replace (length (c_x c) + length (c_w c) + k - (length (c_x c) + length (c_w c))) with k by lia.
    rewrite nth_map_Sym by lia. ring. }
  unfold stored_power, dissipated, power_laws, power_ports. lra.
Qed.

Lemma quadratic_form c r (a : nat -> R) :
  rsum (ntot c) (fun i => rsum (ntot c) (fun j => a i * Rv r c i j * a j))%R =
  (- rsum (ntot c) (fun i => a i * rsum (ntot c) (fun j => Mv r c i j * a j)))%R.
Proof.
  assert (Q : rsum (ntot c) (fun i => rsum (ntot c) (fun j => a i * Rv r c i j * a j))%R =
      (- / 2 * (rsum (ntot c) (fun i => rsum (ntot c) (fun j => a i * Mv r c i j * a j)) +
                rsum (ntot c) (fun i => rsum (ntot c) (fun j => a j * Mv r c j i * a i))))%R).
  { rewrite <- rsum_plus, <- rsum_scal. apply rsum_ext. intros i Hi.
    rewrite <- rsum_plus, <- rsum_scal. apply rsum_ext. intros j Hj. unfold Rv. lra. }
  rewrite Q.
  rewrite (rsum_swap (ntot c) (ntot c) (fun i j => a j * Mv r c j i * a i)%R).
  rewrite (rsum_ext (ntot c) (fun i => a i * rsum (ntot c) (fun j => Mv r c i j * a j))%R
    (fun i => rsum (ntot c) (fun j => a i * Mv r c i j * a j))%R).
  - lra.
  - intros i Hi. rewrite <- rsum_scal. apply rsum_ext. intros; ring.
Qed.

Lemma pd_value c : wf c -> c_cy c = [] -> exists e, pd c = Ok e /\ forall r, eval r e = dissipated r c.
Proof.
  intros W CY. destruct (pd_ok c W CY) as (e & E & V). exists e. split; [exact E|]. intros r. rewrite V.
  unfold dissipated, power_laws, power_structure.
  rewrite (quadratic_form c r (fun i => eval r (nth i (a_vec c) (Num 0)))). lra.
Qed.

Lemma yields_map k f : yields (Ok (map f (seq 0 k))) k f.
Proof.
  exists (map f (seq 0 k)). split; [reflexivity|]. split; [now rewrite map_length, seq_length|].
  intros j Hj. now apply nth_seq_map.
Qed.

Lemma differences_map f : forall k i, differences (map f (seq i (S k))) = map (fun j => f (S j) - f j)%R (seq i k).
Proof.
  induction k as [|k IH]; intros i; [reflexivity|].
  change (seq i (S (S k))) with (i :: seq (S i) (S k)). change (seq i (S k)) with (i :: seq (S i) k).
  cbn [map]. rewrite <- IH. reflexivity.
Qed.

Lemma counts_pos a b s k : 0 < s -> a < b -> counts a b s k -> exists k', k = S k'.
Proof.
  intros S0 AB C. destruct k as [|k]; [|now exists k]. exfalso. assert (0 < 0); [|lia]. apply C. lia.
Qed.

Section File.
  Variable nu : numeric.
  Let m := n_method nu.
  Hypothesis W : wf m.
  Hypothesis HC : counters_ok m.
  Hypothesis CY : c_cy m = [].
  Hypothesis CL : closed nu.
  Variables F Fl Fnl out : list expr.
  Variable sts : list state.
  Variable h : h5 R.
  Hypothesis SIM : simulation nu F Fl Fnl out sts h.
  Let nt := length (h_data h).
  Let dur := during nu sts.
  Variable w : window.
  Variable t : targ.
  Variables a b s k : nat.
  Hypothesis SE : selects nt w t a b s.
  Hypothesis C : counts a b s k.
  Variable fs : R.
  Let hw := with_window h w.

  Lemma times_ok : length (t_reader fs hw t) = k /\ forall j, j < k -> nth j (t_reader fs hw t) 0%R = (INR (a + j * s) / fs)%R.
  Proof.
    unfold t_reader, hw. rewrite (tslice_selects h nt w t a b s eq_refl SE). cbn [s_start s_stop s_step].
    destruct SE as (S0 & AB & _).
    assert (N : Z.to_nat ((Z.of_nat b - Z.of_nat a + Z.of_nat s - 1) / Z.of_nat s) = k).
    { set (q := Z.to_nat ((Z.of_nat b - Z.of_nat a + Z.of_nat s - 1) / Z.of_nat s)).
      assert (Q : forall i, i < q <-> a + i * s < b).
      { intros i. unfold q. pose proof (Z.div_pos (Z.of_nat b - Z.of_nat a + Z.of_nat s - 1) (Z.of_nat s) ltac:(lia) ltac:(lia)).
        pose proof (Z.div_mod (Z.of_nat b - Z.of_nat a + Z.of_nat s - 1) (Z.of_nat s) ltac:(lia)) as DM.
        pose proof (Z.mod_pos_bound (Z.of_nat b - Z.of_nat a + Z.of_nat s - 1) (Z.of_nat s) ltac:(lia)) as MB.
        set (d := ((Z.of_nat b - Z.of_nat a + Z.of_nat s - 1) / Z.of_nat s)%Z) in *.
        set (e := ((Z.of_nat b - Z.of_nat a + Z.of_nat s - 1) mod Z.of_nat s)%Z) in *.
        split; intros Hi.
        - assert (Z.of_nat i + 1 <= d)%Z by lia. nia.
        - assert (Z.of_nat i < d)%Z by nia. lia. }
      destruct (Nat.lt_trichotomy q k) as [H|[H|H]]; [|exact H|].
      - apply C in H. apply Q in H. lia.
      - apply Q in H. apply C in H. lia. }
    rewrite N. split; [now rewrite map_length, seq_length|]. intros j Hj.
    rewrite nth_seq_map by exact Hj. do 2 f_equal. rewrite INR_IZR_INZ. f_equal. lia.
  Qed.

  Lemma dtE_dot_yields : yields (dtE_dot fs hw t) k (fun j => stored_power fs (dur (a + j * s)) m).
  Proof.
    destruct SIM as (us & ps & names & LE & FO & NI & REC). unfold hw.
    rewrite (dtE_dot_ok nu HC CL F Fl Fnl out us ps LE sts FO names NI h REC w t a b s k SE C fs). apply yields_map.
  Qed.

  Lemma ps_yields : yields (ps_reader hw t) k (fun j => power_ports (dur (a + j * s)) m out).
  Proof.
    destruct SIM as (us & ps & names & LE & FO & NI & REC). unfold hw.
    rewrite (ps_ok nu W HC CL F Fl Fnl out us ps LE sts FO names NI h REC w t a b s k SE C). apply yields_map.
  Qed.

  Hypothesis OB : c_observers m = [].
  Hypothesis DI : Nat.modulo (b - a) s = 0.

  Lemma E_yields : known_symbols nu (c_H m) -> yields (E_reader nu hw t) k (fun j => eval (dur (a + j * s)) (c_H m)).
  Proof.
    intros K. destruct SIM as (us & ps & names & LE & FO & NI & REC). unfold hw, E_reader. fold m.
    rewrite (expression_ok nu HC CL OB F Fl Fnl out us ps LE sts FO names NI h REC w t a b s k SE C (c_H m) K DI). apply yields_map.
  Qed.

  Lemma pd_yields : (forall e, pd m = Ok e -> known_symbols nu e) ->
    yields (pd_reader nu hw t) k (fun j => dissipated (dur (a + j * s)) m).
  Proof.
    intros K. destruct SIM as (us & ps & names & LE & FO & NI & REC). unfold hw, pd_reader. fold m.
    destruct (pd_value m W CY) as (e & E & V). rewrite E. cbn [rbind].
    rewrite (expression_ok nu HC CL OB F Fl Fnl out us ps LE sts FO names NI h REC w t a b s k SE C e (K e E) DI).
    rewrite (map_ext _ _ (fun j => V (during nu sts (a + j * s)))). apply yields_map.
  Qed.

  Lemma delta_yields : known_symbols nu (c_H m) -> (0 < l_step w)%Z -> fs <> 0%R ->
    yields (dtE_delta fs nu hw t) k (fun j =>
      if S j =? k then (stored_power fs (dur (b - 1)) m / INR s)%R
      else ((eval (dur (a + S j * s)) (c_H m) - eval (dur (a + j * s)) (c_H m)) * fs / INR s)%R).
  Proof.
    intros K LS FS. destruct SIM as (us & ps & names & LE & FO & NI & REC).
    unfold dtE_delta, hw. rewrite (tslice_selects h nt w t a b s eq_refl SE). cbn [s_stop s_step].
    pose proof SE as (S0 & AB & BN & _).
    assert (S1 : selects nt w (TInt (Z.of_nat b - 1)%Z) (b - 1) b (Z.to_nat (l_step w))).
    { split; [lia|]. split; [lia|]. split; [exact BN|]. lia. }
    assert (C1 : counts (b - 1) b (Z.to_nat (l_step w)) 1).
    { intros i. split; intros Hi; [replace i with 0 by lia; cbn; lia|]. destruct i; [lia|]. nia. }
    rewrite (read_dxH nu F Fl Fnl out us ps LE sts FO names NI h REC w _ _ _ _ _ S1 C1). cbn [rbind].
    rewrite (dtx_ok nu HC CL F Fl Fnl out us ps LE sts FO names NI h REC w _ _ _ _ _ S1 C1). cbn [rbind].
    rewrite (einsum_maps 1 (length (c_x m))); try (intros j; now rewrite map_length, seq_length).
    cbn [rbind seq map].
    pose proof (selects_inner h w t a b s SE) as SI.
    unfold E_reader. fold m.
    rewrite (expression_ok nu HC CL OB F Fl Fnl out us ps LE sts FO names NI h REC w _ a b s k SI C (c_H m) K DI). cbn [rbind].
    destruct (counts_pos a b s k S0 AB C) as (k' & ->).
    rewrite differences_map.
    eexists. split; [reflexivity|]. split; [rewrite map_length, app_length, map_length, seq_length; cbn; lia|].
    intros j Hj. rewrite map_app. cbn [map]. rewrite map_map.
    destruct (Nat.eqb_spec (S j) (S k')) as [E|E].
    - rewrite app_nth2 by (rewrite map_length, seq_length; lia). rewrite map_length, seq_length.
      replace (j - k') with 0 by lia. cbn [nth]. unfold dur. replace (b - 1 + 0 * Z.to_nat (l_step w)) with (b - 1) by lia.
      unfold stored_power.
      rewrite (rsum_ext _ _ (fun i => eval (during nu sts (b - 1)) (nth i (dxH m) (Num 0)) * (during nu sts (b - 1) (nth i (dx m) "") * fs))%R)
        by (intros i Hi; now rewrite !nth_seq_map by exact Hi).
      assert (INR s <> 0)%R by (apply not_0_INR; lia). field. now split.
    - rewrite app_nth1 by (rewrite map_length, seq_length; lia).
      rewrite nth_seq_map by lia. reflexivity.
  Qed.

End File.

(** ** Balance *)

Section Balance.
  Variable nu : numeric.
  Let m := n_method nu.
  Hypothesis W : wf m.
  Hypothesis HC : counters_ok m.
  Hypothesis CY : c_cy m = [].
  Hypothesis CL : closed nu.
  Hypothesis OB : c_observers m = [].
  Variables F Fl Fnl out : list expr.
  Hypothesis EF : tempF Sall m = Ok F.
  Hypothesis EO : output m = Ok out.
  Variable sts : list state.
  Variable h : h5 R.
  Hypothesis SIM : simulation nu F Fl Fnl out sts h.
  Let nt := length (h_data h).
  Let dur := during nu sts.
  Variable fs : R.
  Hypothesis EFS : assoc fs_symbol (n_subs nu) = Some fs.
  Hypothesis KP : forall e, pd m = Ok e -> known_symbols nu e.

  Lemma fs_during n : dur n fs_symbol = fs.
  Proof. unfold dur, during. now apply senv_dict. Qed.

  Lemma file_balance w t a b s k : selects nt w t a b s -> counts a b s k -> Nat.modulo (b - a) s = 0 ->
    (forall j, j < k -> vanish (dur (a + j * s)) F) ->
    exists dE pd ps, dtE_dot fs (with_window h w) t = Ok dE /\ pd_reader nu (with_window h w) t = Ok pd /\
      ps_reader (with_window h w) t = Ok ps /\ length dE = k /\ length pd = k /\ length ps = k /\
      forall j, j < k -> (nth j dE 0 + nth j pd 0 + nth j ps 0 = 0)%R.
  Proof.
    intros SE C DI V.
    destruct (dtE_dot_yields nu HC CL F Fl Fnl out sts h SIM w t a b s k SE C fs) as (dE & E1 & L1 & N1).
    destruct (pd_yields nu W HC CY CL F Fl Fnl out sts h SIM w t a b s k SE C OB DI KP) as (pd & E2 & L2 & N2).
    destruct (ps_yields nu W HC CL F Fl Fnl out sts h SIM w t a b s k SE C) as (ps & E3 & L3 & N3).
    exists dE, pd, ps. do 6 (split; [assumption|]). intros j Hj. rewrite N1, N2, N3 by exact Hj.
    apply (structure_balance m F out); try assumption; [|apply fs_during].
    intros i Hi. apply (V j Hj). now apply nth_In.
  Qed.
End Balance.

Definition lost_power (r : env) (m : core) (out : list expr) : R := (dissipated r m + power_ports r m out)%R.

Section Energy.
  Variable f : config.
  Variable c : core.
  Hypothesis Wc : wf c.
  Hypothesis CN : clean_names c.
  Hypothesis CYc : c_cy c = [].
  Hypothesis GR : f_grad f <> OtherGrad.
  Variable nu : numeric.
  Let m := n_method nu.
  Hypothesis EM : method_init f c = ok m.
  Hypothesis W : wf m.
  Hypothesis HC : counters_ok m.
  Hypothesis CY : c_cy m = [].
  Hypothesis CL : closed nu.
  Hypothesis OB : c_observers m = [].
  Variables F Fl Fnl out : list expr.
  Hypothesis EF : tempF Sall m = Ok F.
  Hypothesis EO : output m = Ok out.
  Variable sts : list state.
  Variable h : h5 R.
  Hypothesis SIM : simulation nu F Fl Fnl out sts h.
  Let nt := length (h_data h).
  Let dur := during nu sts.
  Variable fs : R.
  Hypothesis EFS : assoc fs_symbol (n_subs nu) = Some fs.
  Hypothesis FS : (0 < fs)%R.
  Hypothesis EP : forall s, In s (free_symbols (c_H m)) -> In s (c_x m) \/ In s (map fst (n_subs nu)).

  Lemma energy_known : known_symbols nu (c_H m).
  Proof.
    intros s Hs. destruct (EP s Hs) as [H|H]; [left|right; exact H]. fold m. unfold args_of. apply in_or_app. now left.
  Qed.

  Lemma energy_step n : S n < nt -> vanish (dur n) F ->
    (forall r1, moved 1 (dur n) (c_x m) (dx m) r1 -> exact_step f m (dur n) r1) ->
    ((eval (dur (S n)) (c_H m) - eval (dur n) (c_H m)) * fs = - lost_power (dur n) m out)%R.
  Proof.
    intros Hn V X.
    destruct (step_balance f c Wc CN CYc GR) as (m' & F' & out' & E' & EF' & EO' & PX & _ & _ & _ & _ & _ & _ & _ & _ & B).
    rewrite EM in E'. injection E' as <-. rewrite EF in EF'. injection EF' as <-. rewrite EO in EO'. injection EO' as <-.
    assert (ND : NoDup (c_x m)) by (destruct CN as [ND _]; now apply (Permutation.Permutation_NoDup PX)).
    destruct (move_exists m (dur n) ND) as (r1 & MV).
    assert (SO : solves (dur n) F) by (intros i Hi; apply V; now apply nth_In).
    specialize (B (dur n) r1 SO MV (X r1 MV)).
    assert (NX : next_step m (dur n) (dur (S n))).
    { destruct SIM as (us & ps & names & LE & FO & NI & REC).
      destruct FO as [LS FO]. destruct REC as [LR _]. fold nt in LR.
      destruct (nth_error sts (S n)) as [x|] eqn:E1; [|apply nth_error_None in E1; lia].
      destruct (nth_error sts (S (S n))) as [y|] eqn:E2; [|apply nth_error_None in E2; lia].
      destruct (nth_error us (S n)) as [u|] eqn:E3; [|apply nth_error_None in E3; lia].
      destruct (nth_error ps (S n)) as [p|] eqn:E4; [|apply nth_error_None in E4; lia].
      unfold dur, during. rewrite (nth_error_nth _ _ _ E1), (nth_error_nth _ _ _ E2).
      apply (next_ok nu F Fl Fnl out u p); [exact EP|]. exact (FO (S n) x y u p E1 E2 E3 E4). }
    rewrite (next_energy m (dur n) (dur (S n)) r1 NX MV).
    assert (FN : dur n fs_symbol = fs) by (unfold dur, during; now apply senv_dict). rewrite FN in B.
    unfold lost_power, dissipated. lra.
  Qed.

  Lemma energy_steps n : forall s, n + s < nt -> (forall i, n <= i < n + s -> vanish (dur i) F /\
      forall r1, moved 1 (dur i) (c_x m) (dx m) r1 -> exact_step f m (dur i) r1) ->
    ((eval (dur (n + s)) (c_H m) - eval (dur n) (c_H m)) * fs = - rsum s (fun i => lost_power (dur (n + i)) m out))%R.
  Proof.
    induction s as [|s IH]; intros Hn V; [rewrite Nat.add_0_r; cbn; lra|].
    cbn [rsum]. rewrite Nat.add_succ_r.
    specialize (IH ltac:(lia) (fun i Hi => V i ltac:(lia))).
    destruct (V (n + s) ltac:(lia)) as [V1 V2].
    pose proof (energy_step (n + s) ltac:(lia) V1 V2). lra.
  Qed.

  Variable w : window.
  Variable t : targ.
  Variables a b s k : nat.
  Hypothesis SE : selects nt w t a b s.
  Hypothesis C : counts a b s k.
  Hypothesis DI : Nat.modulo (b - a) s = 0.
  Hypothesis LS : (0 < l_step w)%Z.
  Hypothesis SO : forall n, a <= n < b -> vanish (dur n) F /\
      forall r1, moved 1 (dur n) (c_x m) (dx m) r1 -> exact_step f m (dur n) r1.

  Lemma delta_mean : exists l, dtE_delta fs nu (with_window h w) t = Ok l /\ length l = k /\
    (forall j, S j < k -> (INR s * nth j l 0 = - rsum s (fun i => lost_power (dur (a + j * s + i)) m out))%R) /\
    (INR s * nth (k - 1) l 0 = - lost_power (dur (b - 1)) m out)%R.
  Proof.
    destruct (delta_yields nu HC CL F Fl Fnl out sts h SIM w t a b s k SE C fs OB DI energy_known LS ltac:(lra)) as (l & E & L & N).
    exists l. split; [exact E|]. split; [exact L|]. pose proof SE as (S0 & AB & BN & _).
    assert (IS : INR s <> 0%R) by (apply not_0_INR; lia). split.
    - intros j Hj. rewrite N by lia. destruct (Nat.eqb_spec (S j) k); [lia|].
      assert (HB : a + S j * s < b) by (now apply C).
      rewrite <- (energy_steps (a + j * s) s).
      + replace (a + S j * s) with (a + j * s + s) by lia. fold m. fold dur. field. exact IS.
      + fold nt in BN. lia.
      + intros i Hi. apply SO. lia.
    - destruct (counts_pos a b s k S0 AB C) as (k' & Ek). rewrite N by lia.
      replace (S (k - 1)) with k by lia. rewrite Nat.eqb_refl.
      destruct (SO (b - 1) ltac:(lia)) as [V _].
      assert (FN : dur (b - 1) fs_symbol = fs) by (unfold dur, during; now apply senv_dict).
      assert (SV : solves (dur (b - 1)) F) by (intros i Hi; apply V; now apply nth_In).
      pose proof (structure_balance m F out (dur (b - 1)) fs W HC CY EF EO SV FN) as B.
      unfold lost_power. fold m. fold dur.
      replace (INR s * (stored_power fs (dur (b - 1)) m / INR s))%R with (stored_power fs (dur (b - 1)) m) by (field; exact IS).
      lra.
  Qed.
End Energy.

(** Every step kept: the three readers balance at each step. *)
Lemma delta_balance f c nu F Fl Fnl out sts h fs w t a b : let m := n_method nu in
  wf c -> clean_names c -> c_cy c = [] -> f_grad f <> OtherGrad -> method_init f c = ok m ->
  wf m -> counters_ok m -> c_cy m = [] -> closed nu -> c_observers m = [] ->
  tempF Sall m = Ok F -> output m = Ok out -> simulation nu F Fl Fnl out sts h ->
  assoc fs_symbol (n_subs nu) = Some fs -> (0 < fs)%R ->
  (forall s, In s (free_symbols (c_H m)) -> In s (c_x m) \/ In s (map fst (n_subs nu))) ->
  (forall e, pd m = Ok e -> known_symbols nu e) ->
  selects (length (h_data h)) w t a b 1 -> (0 < l_step w)%Z ->
  (forall n, a <= n < b -> vanish (during nu sts n) F /\
      forall r1, moved 1 (during nu sts n) (c_x m) (dx m) r1 -> exact_step f m (during nu sts n) r1) ->
  exists dE pd ps, dtE_delta fs nu (with_window h w) t = Ok dE /\ pd_reader nu (with_window h w) t = Ok pd /\
      ps_reader (with_window h w) t = Ok ps /\ length dE = b - a /\ length pd = b - a /\ length ps = b - a /\
      forall j, j < b - a -> (nth j dE 0 + nth j pd 0 + nth j ps 0 = 0)%R.
Proof.
  intros m Wc CN CYc GR EM W HC CY CL OB EF EO SIM EFS FS EP KP SE LS SO.
  pose proof SE as (_ & AB & _).
  assert (C : counts a b 1 (b - a)) by (intros i; split; lia).
  assert (DI : Nat.modulo (b - a) 1 = 0) by apply Nat.mod_1_r.
  destruct (delta_mean f c Wc CN CYc GR nu EM W HC CY CL OB F Fl Fnl out EF EO sts h SIM fs EFS FS EP w t a b 1 (b - a) SE C DI LS SO)
    as (dE & E1 & L1 & N1 & N1').
  destruct (pd_yields nu W HC CY CL F Fl Fnl out sts h SIM w t a b 1 _ SE C OB DI KP) as (pd & E2 & L2 & N2).
  destruct (ps_yields nu W HC CL F Fl Fnl out sts h SIM w t a b 1 _ SE C) as (ps & E3 & L3 & N3).
  exists dE, pd, ps. do 6 (split; [assumption|]). intros j Hj. rewrite N2, N3 by exact Hj. fold m.
  unfold lost_power in *. cbn [rsum] in N1. change (INR 1) with 1%R in *.
  destruct (Nat.eq_dec (S j) (b - a)) as [E|E].
  - replace (b - a - 1) with j in N1' by lia. replace (b - 1) with (a + j * 1) in N1' by lia. fold m in N1'. lra.
  - specialize (N1 j ltac:(lia)). rewrite Nat.add_0_r in N1. fold m in N1. lra.
Qed.

(** The dissipated power read from the file is not negative. *)
Lemma file_passive nu F Fl Fnl out sts h w t a b s k : let m := n_method nu in
  wf m -> counters_ok m -> c_cy m = [] -> closed nu -> c_observers m = [] ->
  simulation nu F Fl Fnl out sts h -> (forall e, pd m = Ok e -> known_symbols nu e) ->
  selects (length (h_data h)) w t a b s -> counts a b s k -> Nat.modulo (b - a) s = 0 ->
  (forall n, n < length (h_data h) -> absorbs [] (during nu sts n) m) ->
  exists l, pd_reader nu (with_window h w) t = Ok l /\ length l = k /\ forall v, In v l -> (0 <= v)%R.
Proof.
  intros m W HC CY CL OB SIM KP SE C DI AB.
  destruct (pd_yields nu W HC CY CL F Fl Fnl out sts h SIM w t a b s k SE C OB DI KP) as (l & E & L & N).
  exists l. split; [exact E|]. split; [exact L|]. intros v Hv. destruct (In_nth _ _ 0%R Hv) as (j & Hj & <-).
  rewrite L in Hj. rewrite N by exact Hj. fold m.
  assert (Hn : a + j * s < length (h_data h)) by (apply C in Hj; destruct SE as (_ & _ & B & _); lia).
  destruct (AB _ Hn (during nu sts (a + j * s)) (fun s _ => eq_refl)) as [P Z]. unfold dissipated.
  pose proof (laws_power_nonneg m (during nu sts (a + j * s)) W Z).
  pose proof (structure_power_nonneg m (during nu sts (a + j * s)) P). lra.
Qed.

(** When the step does not divide the number of steps, the energy is refused. *)
Lemma step_refused nu F Fl Fnl out sts h w t a b s k x : let m := n_method nu in
  counters_ok m -> closed nu -> c_observers m = [] ->
  simulation nu F Fl Fnl out sts h -> known_symbols nu (c_H m) -> In x (free_symbols (c_H m)) -> In x (c_x m) ->
  selects (length (h_data h)) w t a b s -> counts a b s k -> Nat.modulo (b - a) s <> 0 ->
  E_reader nu (with_window h w) t = Err ValueError.
Proof.
  intros m HC CL OB (us & ps & names & LE & FO & NI & REC) K HX IX SE C DI. unfold E_reader.
  apply (expression_fails nu HC CL OB F Fl Fnl out us ps LE sts FO names NI h REC w t a b s k SE C _ x K HX); [|exact DI].
  unfold args_of. apply in_or_app. now left.
Qed.

(** Observers that depend on an argument make the energy fail too. *)
Lemma observers_refused nu F Fl Fnl out sts h w t a b s k x oe xo : let m := n_method nu in
  counters_ok m -> closed nu ->
  simulation nu F Fl Fnl out sts h -> known_symbols nu (c_H m) -> In x (free_symbols (c_H m)) -> In x (c_x m) ->
  (forall o, In o (map snd (c_observers m)) -> known_symbols nu o) ->
  In oe (map snd (c_observers m)) -> In xo (free_symbols oe) -> In xo (args_of m) ->
  selects (length (h_data h)) w t a b s -> counts a b s k -> length (c_observers m) <> k ->
  E_reader nu (with_window h w) t = Err ValueError.
Proof.
  intros m HC CL (us & ps & names & LE & FO & NI & REC) K HX IX KO HO HXO IXO SE C D. unfold E_reader.
  apply (expression_fails_o nu HC CL F Fl Fnl out us ps LE sts FO names NI h REC w t a b s k SE C _ x oe xo K HX); try assumption.
  unfold args_of. apply in_or_app. now left.
Qed.
