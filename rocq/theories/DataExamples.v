(** A concrete simulation: a tank with energy x^2 / 2, a loss and a port,
    with an observer or without. *)
From Coq Require Import String List ZArith QArith Qreals Reals Bool Lia Lra.
From Verif Require Import Py Tools Lists Expr ExprProofs RSum Mat Core Spec_Core Calculus StructProofs
  Spec_Calculus CalculusProofs Subs Method Spec_Method MethodExamples Numeric Spec_Numeric NumericUpdate NumericSim NumericExamples
  H5 Spec_H5 H5Store Data Spec_Data DataSim DataRead DataBalance.
Import ListNotations.
Local Open Scope string_scope.
Local Open Scope list_scope.
Local Open Scope nat_scope.

(** dtx = - dxH - u, y = dxH. *)
Definition tank (obs : list (string * expr)) : core :=
  mkCore "tank" ["x"] (Mul (Num (1#2)) (Pow (Sym "x") 2)) None [] [] ["u"] ["y"] [] [] []
    (of_rows 2 [[Num (-1); Num (-1)]; [Num 1; Num 0]])
    [] [] obs [] (zeros 0 0) [] (zeros 0 0) 0 0 0.
Definition tank_m obs : core := fst (method_init default_config (tank obs)).
Definition tank_nu obs : numeric := mkNumeric (tank_m obs) [(fs_symbol, 1%R)] (1/100)%R 10 inv12.
Definition obs0 : list (string * expr) := [].
Definition obs1 : list (string * expr) := [("o", Mul (Num 2) (Sym "x"))].
Definition some_obs (obs : list (string * expr)) : Prop := obs = obs0 \/ obs = obs1.

Definition tank_F : list expr := match tempF Sall (tank_m obs0) with Ok F => F | Err _ => [] end.
Definition tank_Fl : list expr := match tempF Sl (tank_m obs0) with Ok F => F | Err _ => [] end.
Definition tank_out : list expr := match output (tank_m obs0) with Ok F => F | Err _ => [] end.

(** In turn the states 2 and 0, the increments -2 and 2, the inputs 1 and -3. *)
Definition tank_state (obs : list (string * expr)) (x d u : R) : state :=
  mkState ([x; d; u] ++ map (fun _ => 0%R) obs)
    (fun s => if String.eqb s "dxH" then Some (Ve [1%R]) else if String.eqb s "y" then Some (Ve [1%R])
              else if String.eqb s "z" then Some (Ve []) else None) 0.
Definition tank_states obs : list state :=
  [tank_state obs 0 2 0; tank_state obs 2 (-2) 1; tank_state obs 0 2 (-3); tank_state obs 2 (-2) 1; tank_state obs 0 2 (-3)]%R.
Definition tank_us : list (list R) := [[1]; [-3]; [1]; [-3]]%R.
Definition tank_ps : list (list R) := [[]; []; []; []].
Definition even (i : nat) : bool := Nat.even i.
Definition tank_value (i : nat) (name : string) : list R :=
  if String.eqb name "x" then [if even i then 2%R else 0%R]
  else if String.eqb name "dx" then [if even i then (-2)%R else 2%R]
  else if String.eqb name "u" then [if even i then 1%R else (-3)%R]
  else if String.eqb name "dxH" then [1%R] else if String.eqb name "y" then [1%R]
  else [].
Definition tank_names : list string := ["u"; "p"] ++ stored.
Definition tank_file obs : h5 R :=
  mkH5 tank_names (make_dims (data_dim (tank_m obs)) tank_names) (make_inds (data_dim (tank_m obs)) tank_names)
    init_window (map (fun i => row_of (tank_value i) tank_names) (seq 0 4)).

Ltac both H := destruct H as [->| ->].

Lemma tank_fields obs : some_obs obs -> c_x (tank_m obs) = ["x"] /\ c_w (tank_m obs) = [] /\ c_z (tank_m obs) = [] /\
  c_u (tank_m obs) = ["u"] /\ c_y (tank_m obs) = ["y"] /\ c_cy (tank_m obs) = [] /\ c_p (tank_m obs) = [] /\
  dx (tank_m obs) = ["dx"] /\ c_observers (tank_m obs) = obs /\ c_H (tank_m obs) = Mul (Num (1#2)) (Pow (Sym "x") 2) /\
  args_of (tank_m obs) = ["x"; "dx"; "u"] ++ map fst obs /\
  tempF Sall (tank_m obs) = Ok tank_F /\ tempF Sl (tank_m obs) = Ok tank_Fl /\ tempF Snl (tank_m obs) = Ok [] /\
  output (tank_m obs) = Ok tank_out /\ tank_Fl = tank_F.
Proof. intros H. both H; vm_compute; repeat split; reflexivity. Qed.

Lemma tank_init obs : some_obs obs -> method_init default_config (tank obs) = ok (tank_m obs).
Proof. intros H. both H; apply init_ok; vm_compute; reflexivity. Qed.
Lemma tank_counters obs : some_obs obs -> counters_ok (tank_m obs).
Proof. intros H. unfold counters_ok. both H; vm_compute; repeat split; intros; try discriminate; try lia. Qed.
Lemma tank_linear obs : some_obs obs -> linear_part (tank_m obs).
Proof. intros H. both H; apply linear_check_ok; vm_compute; reflexivity. Qed.
Lemma tank_args obs : some_obs obs -> NoDup (args_of (tank_m obs)).
Proof. intros H. destruct (tank_fields obs H) as (_ & _ & _ & _ & _ & _ & _ & _ & _ & _ & -> & _). both H; repeat constructor; cbn; intuition discriminate. Qed.
Lemma tank_closed obs : some_obs obs -> closed (tank_nu obs).
Proof. intros H. apply closed_check_ok; [now apply tank_args|]. both H; vm_compute; reflexivity. Qed.
Lemma tank_wf obs : wf (tank obs).
Proof. split; [repeat split|]. split; [intros d H; discriminate|]. split; reflexivity. Qed.
Lemma tank_m_wf obs : some_obs obs -> wf (tank_m obs).
Proof.
  intros S. split; [|split; [|split]].
  - both S; vm_compute; repeat split.
  - intros d H. assert (E : match c_dxH (tank_m obs) with Some d => Nat.eqb (length d) (length (c_x (tank_m obs))) | None => true end = true)
      by (both S; vm_compute; reflexivity).
    rewrite H in E. now apply Nat.eqb_eq.
  - both S; vm_compute; reflexivity.
  - both S; vm_compute; reflexivity.
Qed.
Lemma tank_clean obs : clean_names (tank obs).
Proof.
  split; [repeat constructor; cbn; tauto|]. split; [cbn; intuition (subst; discriminate)|].
  split; [cbn; tauto|]. cbn. tauto.
Qed.

Definition tank_function : list expr := Eval vm_compute in tank_F.
Definition tank_output : list expr := Eval vm_compute in tank_out.
Lemma tank_F_value : tank_F = tank_function. Proof. vm_compute. reflexivity. Qed.
Lemma tank_out_value : tank_out = tank_output. Proof. vm_compute. reflexivity. Qed.

(** Values of the symbols. *)
Lemma tank_senv obs x d u : some_obs obs -> let r := senv (tank_nu obs) (tank_state obs x d u) in
  r "x" = x /\ r "dx" = d /\ r "u" = u /\ r fs_symbol = 1%R.
Proof. intros H. both H; vm_compute; repeat split. Qed.

Definition tank_solved (x d u : R) : Prop := (d = - (x + d / 2) - u)%R.

Lemma tank_vanish obs x d u : some_obs obs -> tank_solved x d u -> vanish (senv (tank_nu obs) (tank_state obs x d u)) tank_F.
Proof.
  intros H T e He. destruct (tank_senv obs x d u H) as (E1 & E2 & E3 & E4). cbv zeta in *.
  set (r := senv (tank_nu obs) (tank_state obs x d u)) in *. clearbody r.
  rewrite tank_F_value in He. unfold tank_function in He.
  destruct He as [<-|[]]. cbn [eval]. change "F_S" with fs_symbol. rewrite E1, E2, E3, E4. unfold Q2R; cbn. unfold tank_solved in T. lra.
Qed.

Lemma tank_gradient obs x d u : some_obs obs -> let r := senv (tank_nu obs) (tank_state obs x d u) in
  eval r (nth 0 (dxH (tank_m obs)) (Num 0)) = (x + d / 2)%R /\ eval r (nth 0 tank_out (Num 0)) = (x + d / 2)%R.
Proof.
  intros H r. destruct (tank_senv obs x d u H) as (E1 & E2 & E3 & E4). fold r in E1, E2, E3, E4. clearbody r.
  assert (G : dxH (tank_m obs) = tank_out) by (both H; vm_compute; reflexivity). rewrite G.
  rewrite tank_out_value. unfold tank_output.
  cbn [nth eval]. rewrite E1, E2. unfold Q2R; cbn. split; lra.
Qed.

Lemma tank_updated obs x d u x' d' u' : some_obs obs -> x' = (x + d)%R -> tank_solved x' d' u' -> (x' + d' / 2 = 1)%R ->
  updated (tank_nu obs) tank_F tank_Fl [] tank_out [u'] [] (tank_state obs x d u) (tank_state obs x' d' u').
Proof.
  intros H EX T G. unfold updated. cbn [tank_nu n_method].
  destruct (tank_fields obs H) as (-> & -> & -> & -> & -> & _ & -> & -> & _ & _ & -> & _ & _ & _ & _ & EFl).
  destruct (tank_senv obs x d u H) as (A1 & A2 & A3 & A4).
  destruct (tank_senv obs x' d' u' H) as (B1 & B2 & B3 & B4).
  destruct (tank_gradient obs x' d' u' H) as (G1 & G2). pose proof (tank_vanish obs x' d' u' H T) as V. cbv zeta in *.
  split; [both H; reflexivity|].
  set (ra := senv (tank_nu obs) (tank_state obs x d u)) in *. set (rb := senv (tank_nu obs) (tank_state obs x' d' u')) in *.
  clearbody ra rb.
  split; [intros [|i] Hi; cbn [length] in Hi; [|lia]; cbn [nth]; now rewrite A1, A2, B1|].
  split; [intros [|i] Hi; cbn [length] in Hi; [|lia]; exact B3|].
  split; [intros i Hi; cbn [length] in Hi; lia|].
  split; [exists [1%R]; split; [reflexivity|]; split; [reflexivity|]; intros [|i] Hi; cbn [length] in Hi; [|lia]; rewrite G1; cbn [nth]; lra|].
  split; [exists []; split; [reflexivity|]; split; [reflexivity|]; intros i Hi; cbn [length] in Hi; lia|].
  split; [exists [1%R]; split; [reflexivity|]; split; [reflexivity|]; intros [|i] Hi; cbn [length] in Hi; [|lia]; rewrite G2; cbn [nth]; lra|].
  intros _. rewrite EFl. tauto.
Qed.

Lemma tank_followed obs : some_obs obs ->
  followed (tank_nu obs) tank_F tank_Fl [] tank_out tank_us tank_ps (tank_states obs).
Proof.
  intros H. split; [reflexivity|]. intros k a b u p A B C D.
  destruct k as [|[|[|[|k]]]]; cbn in A, B, C, D; try discriminate;
    try (injection A as <-; injection B as <-; injection C as <-; injection D as <-;
         apply tank_updated; [exact H|lra|unfold tank_solved; lra|lra]).
  destruct k; discriminate.
Qed.

Lemma tank_nodup : NoDup tank_names.
Proof. repeat constructor; cbn; intuition discriminate. Qed.

Lemma tank_holds obs : some_obs obs -> holds (data_dim (tank_m obs)) tank_names (tank_file obs) 4 tank_value.
Proof.
  intros H. do 4 (split; [reflexivity|]). intros i n I. unfold data_dim.
  destruct (tank_fields obs H) as (-> & -> & _ & _ & -> & _ & -> & _).
  cbn in I. repeat (destruct I as [<-|I]; [reflexivity|]). destruct I.
Qed.

Lemma tank_recorded obs : some_obs obs -> recorded (tank_nu obs) tank_names (tank_states obs) (tank_file obs).
Proof.
  intros H. apply (recorded_file (tank_nu obs) stored _ _ 4 tank_value); [exact tank_nodup|now apply tank_holds|reflexivity|].
  intros i name st Hi I E.
  destruct i as [|[|[|[|i]]]]; [| | | |lia]; cbn in E; injection E as <-;
    cbn in I; (repeat (destruct I as [<-|I]; [both H; vm_compute; reflexivity|])); destruct I.
Qed.

Lemma tank_simulation obs : some_obs obs -> simulation (tank_nu obs) tank_F tank_Fl [] tank_out (tank_states obs) (tank_file obs).
Proof.
  intros H. exists tank_us, tank_ps, tank_names. split; [reflexivity|]. split; [now apply tank_followed|].
  split; [apply incl_refl|now apply tank_recorded].
Qed.

Lemma tank_during obs n : n < 4 -> during (tank_nu obs) (tank_states obs) n =
  senv (tank_nu obs) (if even n then tank_state obs 2 (-2) 1 else tank_state obs 0 2 (-3)).
Proof. intros H. destruct n as [|[|[|[|n]]]]; try lia; reflexivity. Qed.

Lemma tank_solves obs n : some_obs obs -> n < 4 -> vanish (during (tank_nu obs) (tank_states obs) n) tank_F.
Proof.
  intros H Hn. rewrite tank_during by exact Hn. destruct (even n); apply tank_vanish; try exact H; unfold tank_solved; lra.
Qed.

Lemma tank_exact obs n r1 : some_obs obs -> n < 4 ->
  let r := during (tank_nu obs) (tank_states obs) n in
  moved 1 r (c_x (tank_m obs)) (dx (tank_m obs)) r1 -> exact_step default_config (tank_m obs) r r1.
Proof.
  intros H Hn r MV. unfold exact_step. cbn [default_config f_grad f_epsdg].
  destruct (tank_fields obs H) as (EX & _ & _ & _ & _ & _ & _ & ED & _ & EH & _).
  assert (XL : c_xl (tank_m obs) = 1%Z) by (both H; vm_compute; reflexivity).
  split; [unfold Q2R; cbn; lra|]. split; [|split].
  - unfold splits_energy. rewrite EX, XL, EH. change (Z.to_nat 1) with 1. cbn [length]. split; [|split].
    + intros i j Hi Hj; lia.
    + intros i j s Hi Hj Hs. replace i with 0 in Hs by lia. replace j with 0 in Hs by lia.
      let t := eval vm_compute in (free_symbols (diff (nth 0 ["x"] "") (diff (nth 0 ["x"] "") (Mul (Num (1 # 2)) (Pow (Sym "x") 2))))) in
        change (In s t) in Hs. destruct Hs.
    + intros; lia.
  - intros r' _. rewrite EH. cbn. tauto.
  - unfold away_from_zero. rewrite XL, ED. change (Z.to_nat 1) with 1. split; [rewrite EX; cbn; intros; lia|].
    left. rewrite skipn_all2 by (cbn; lia). intros s [].
Qed.

Lemma tank_energy obs : some_obs obs -> known_symbols (tank_nu obs) (c_H (tank_m obs)) /\
  (forall s, In s (free_symbols (c_H (tank_m obs))) -> In s (c_x (tank_m obs)) \/ In s (map fst (n_subs (tank_nu obs)))).
Proof.
  intros H. destruct (tank_fields obs H) as (EX & _ & _ & _ & _ & _ & _ & _ & _ & EH & EA & _).
  split.
  - intros s Hs. left. cbn [tank_nu n_method]. rewrite EA. rewrite EH in Hs. cbn in Hs. destruct Hs as [<-|[]]. now left.
  - intros s Hs. left. rewrite EX. rewrite EH in Hs. exact Hs.
Qed.

Lemma tank_pd obs : some_obs obs -> forall e, pd (tank_m obs) = Ok e -> known_symbols (tank_nu obs) e.
Proof.
  intros H e E s Hs. left. cbn [tank_nu n_method].
  assert (Q : match pd (tank_m obs) with Ok e => forallb (fun s => existsb (String.eqb s) ["x"; "dx"]) (free_symbols e) | Err _ => false end = true)
    by (both H; vm_compute; reflexivity).
  rewrite E in Q. rewrite forallb_forall in Q. specialize (Q s Hs). apply existsb_in in Q.
  destruct (tank_fields obs H) as (_ & _ & _ & _ & _ & _ & _ & _ & _ & _ & EA & _). rewrite EA. cbn in *. tauto.
Qed.

Lemma tank_absorbs obs n : some_obs obs -> absorbs [] (during (tank_nu obs) (tank_states obs) n) (tank_m obs).
Proof.
  intros H r' _. destruct (tank_fields obs H) as (EX & EW & EZ & _ & EY & EC & _).
  split.
  - assert (NT : ntot (tank_m obs) = 2) by (unfold ntot; now rewrite EX, EW, EY, EC). rewrite NT. intros a.
    assert (M : Mv r' (tank_m obs) 0 0 = (-1)%R /\ Mv r' (tank_m obs) 0 1 = (-1)%R /\ Mv r' (tank_m obs) 1 0 = 1%R /\ Mv r' (tank_m obs) 1 1 = 0%R).
    { unfold Mv. both H; vm_compute; repeat split; lra. }
    destruct M as (M1 & M2 & M3 & M4). cbn [rsum]. rewrite M1, M2, M3, M4. nra.
  - rewrite EW. intros w z [].
Qed.

(** Selections in this file. *)
Definition all_steps : targ := TSlice (mkSlice (Some 0%Z) (Some 4%Z) None).
Definition every (n : Z) : window := mkWindow None None n.
Lemma tank_selects obs s : 0 < s -> selects (length (h_data (tank_file obs))) (every (Z.of_nat s)) all_steps 0 4 s.
Proof.
  intros H. split; [exact H|]. split; [lia|]. split; [cbn; lia|]. cbn [all_steps s_start s_stop s_step is_or].
  split; [reflexivity|]. split; [reflexivity|]. cbn [every l_step]. now rewrite Nat2Z.id.
Qed.
Lemma tank_counts1 : counts 0 4 1 4. Proof. intros k. lia. Qed.
Lemma tank_counts2 : counts 0 4 2 2. Proof. intros k. lia. Qed.
Lemma tank_counts3 : counts 0 4 3 2. Proof. intros k. lia. Qed.

Lemma some0 : some_obs obs0. Proof. now left. Qed.
Lemma some1 : some_obs obs1. Proof. now right. Qed.

(** The last value of the difference of energies, with one step out of two. *)
Lemma tank_last : exists nu F Fl Fnl out sts h w t l fs, let m := n_method nu in
  wf m /\ counters_ok m /\ closed nu /\ simulation nu F Fl Fnl out sts h /\
  tempF Sall m = Ok F /\ (forall n, n < 4 -> vanish (during nu sts n) F) /\ assoc fs_symbol (n_subs nu) = Some fs /\
  selects (length (h_data h)) w t 0 4 2 /\
  dtE_delta fs nu (with_window h w) t = Ok l /\ length l = 2 /\ nth 1 l 0%R = 1%R /\
  stored_power fs (during nu sts 2) m = (-2)%R /\ stored_power fs (during nu sts 3) m = 2%R.
Proof.
  exists (tank_nu obs0), tank_F, tank_Fl, [], tank_out, (tank_states obs0), (tank_file obs0), (every 2), all_steps.
  pose proof some0 as S. pose proof (tank_simulation obs0 S) as SIM.
  destruct (tank_fields obs0 S) as (EX & _ & _ & _ & _ & _ & _ & ED & _ & _ & _ & EF & _).
  assert (P : forall n, n < 4 -> stored_power 1 (during (tank_nu obs0) (tank_states obs0) n) (tank_m obs0) =
    if even n then (-2)%R else 2%R).
  { intros n Hn. rewrite tank_during by exact Hn. unfold stored_power. rewrite EX, ED. cbn [length rsum nth].
    destruct (even n);
      [destruct (tank_gradient obs0 2 (-2) 1 S) as [G _]; destruct (tank_senv obs0 2 (-2) 1 S) as (_ & E & _)|
       destruct (tank_gradient obs0 0 2 (-3) S) as [G _]; destruct (tank_senv obs0 0 2 (-3) S) as (_ & E & _)];
      cbv zeta in *; rewrite G, E; lra. }
  destruct (delta_yields (tank_nu obs0) (tank_counters _ S) (tank_closed _ S) _ _ _ _ _ _ SIM (every 2) all_steps 0 4 2 2
    (tank_selects obs0 2 ltac:(lia)) tank_counts2 1%R eq_refl eq_refl (proj1 (tank_energy _ S)) ltac:(cbn; lia) ltac:(lra))
    as (l & E & L & N).
  exists l, 1%R. cbv zeta. cbn [n_method tank_nu].
  split; [now apply tank_m_wf|]. split; [now apply tank_counters|]. split; [now apply tank_closed|]. split; [exact SIM|].
  split; [exact EF|]. split; [intros n Hn; now apply tank_solves|]. split; [reflexivity|].
  split; [apply (tank_selects obs0 2); lia|]. split; [exact E|]. split; [exact L|].
  split; [|split; [now rewrite (P 2) by lia|now rewrite (P 3) by lia]].
  rewrite N by lia. cbn [Nat.eqb Nat.sub]. change (n_method (tank_nu obs0)) with (tank_m obs0). rewrite (P 3) by lia. cbn. lra.
Qed.

(** The same states as the trace of a simulation that records nothing. *)
Lemma tank_trace obs : some_obs obs ->
  trace (tank_nu obs) tank_F tank_Fl [] tank_out [] tank_us tank_ps [[]; []; []; []] (tank_states obs).
Proof.
  intros H. destruct (tank_followed obs H) as [L F]. split; [exact L|]. intros k a b u p row A B C D E.
  split; [exact (F k a b u p A B C D)|]. destruct k as [|[|[|[|k]]]]; cbn in E; try discriminate; try (injection E as <-; split; [reflexivity|intros ? ? []]).
  destruct k; discriminate.
Qed.
