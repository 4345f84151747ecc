(** Simulations, and the theorems on methods as a whole. *)
From Coq Require Import String List ZArith QArith Qreals Reals Bool Lia Lra Permutation.
From Verif Require Import Py Tools Lists Expr RSum Mat Core Calculus ExprProofs MatProofs Spec_Core StructProofs
  Spec_Calculus Deriv CalculusProofs PowerProofs Subs SubsProofs Method Spec_Method Separable TempProofs
  MethodBalance Numeric Spec_Numeric NumericProofs NumericUpdate NumericStep NumericRun NumericUpdateOk.
Import ListNotations.
Local Open Scope string_scope.
Local Open Scope list_scope.
Local Open Scope nat_scope.

(** ** No solution is lost *)

Lemma core_split m : wf m -> counters_ok m -> NoDup (v_of Sl m) -> linear_part m ->
  exists F Fl Fnl Jll Jnll Gl Gnl,
    tempF Sall m = Ok F /\ tempF Sl m = Ok Fl /\ tempF Snl m = Ok Fnl /\
    jactempF Sl Sl m = Ok Jll /\ jactempF Snl Sl m = Ok Jnll /\ G_of Sl m = Ok Gl /\ G_of Snl m = Ok Gnl /\
    let l := length (v_of Sl m) in
    let n := length (v_of Snl m) in
    forall r r' B, regular m Fl Fnl r -> agree_off (v_of Sl m) r r' -> is_inverse l (fun i j => eval r (ent Jll i j)) B ->
      (vanish r' F <->
       (forall i, i < l -> (r' (nth i (v_of Sl m) "") = - rsum l (fun k => B i k * eval r (nth k Gl (Num 0))))%R) /\
       (forall i, i < n -> (eval r (nth i Gnl (Num 0)) -
          rsum l (fun j => eval r (ent Jnll i j) * rsum l (fun k => B j k * eval r (nth k Gl (Num 0)))) = 0)%R)).
Proof.
  intros W HC ND LP.
  destruct (tempF_ok m Sall W HC) as (F & EF & LF & _).
  destruct (jac_ok m Sl Sl W HC) as (Fl & Jll & EFl & LFl & EJll & JLL & NR1 & NC1).
  destruct (jac_ok m Snl Sl W HC) as (Fnl & Jnll & EFnl & LFnl & EJnll & JNLL & NR2 & NC2).
  destruct (G_ok m Sl Fl Jll W HC EFl LFl EJll NR1 NC1) as (Gl & EGl & LGl & VGl).
  destruct (G_ok m Snl Fnl Jnll W HC EFnl LFnl EJnll NR2 NC2) as (Gnl & EGnl & LGnl & VGnl).
  exists F, Fl, Fnl, Jll, Jnll, Gl, Gnl. do 7 (split; [assumption|]). cbv zeta. rewrite !v_of_len by exact HC.
  set (nu := mkNumeric m [] 0%R 0 (fun _ _ => None)).
  intros r r' B SM AG IB.
  rewrite (split_ok nu W HC ND LP F Fl Fnl Jll Jnll Gl Gnl EF EFl EFnl LFl LFnl EJll EJnll JLL JNLL VGl VGnl r r' B SM AG IB).
  change (n_method nu) with m.
  assert (E1 : forall i, vl_of nu Gl B r i = (- rsum (nv m Sl) (fun k => B i k * eval r (nth k Gl (Num 0))))%R).
  { intros i. unfold vl_of. change (n_method nu) with m. rewrite mv_opp. reflexivity. }
  assert (E2 : forall i, redF nu Jnll Gl Gnl B r i = (eval r (nth i Gnl (Num 0)) -
      rsum (nv m Sl) (fun j => eval r (ent Jnll i j) * rsum (nv m Sl) (fun k => B j k * eval r (nth k Gl (Num 0)))))%R).
  { intros i. unfold redF. change (n_method nu) with m. unfold Rminus. f_equal. rewrite <- rsum_opp. unfold mv_ at 1.
    apply rsum_ext. intros j Hj. rewrite Ropp_mult_distr_r. f_equal. unfold mv_. rewrite <- rsum_opp. apply rsum_ext.
    intros k Hk. rewrite neg1. ring. }
  split; intros [H1 H2]; split; intros i Hi.
  - rewrite <- E1. now apply H1.
  - rewrite <- E2. now apply H2.
  - rewrite E1. now apply H1.
  - rewrite E2. now apply H2.
Qed.

(** ** Simulations *)

Section Sim.
  Variable nu : numeric.
  Let m := n_method nu.
  Hypothesis W : wf m.
  Hypothesis HC : counters_ok m.
  Hypothesis CY : c_cy m = [].
  Hypothesis CL : closed nu.
  Hypothesis IC : inv_correct (n_inv nu).
  Hypothesis LP : linear_part m.
  Variables F Fl Fnl out : list expr.
  Hypothesis UP : forall st u p, length (st_args st) = length (args_of m) -> length u = length (c_u m) ->
    length p = length (c_p m) -> safe (update nu u p st) (updated nu F Fl Fnl out u p st).

  Lemma group_in name g : assoc name (groups m) = Some g -> forall s, In s g -> In s (args_of m).
  Proof.
    intros H s Hs. apply assoc_in in H. unfold args_of. rewrite !in_app_iff. cbn [groups In] in H.
    destruct H as [H|[H|[H|[H|[H|[H|[H|[H|[]]]]]]]]]; injection H as <- <-; auto 10;
      apply (v_sub nu) in Hs; apply v_cases in Hs; fold m in Hs; tauto.
  Qed.

  Lemma get_arg name g st : assoc name (groups m) = Some g -> sized_state nu st ->
    exists l, get nu name st = Ok (Ve l) /\ length l = length g /\ forall i, i < length g -> nth i l 0%R = senv nu st (nth i g "").
  Proof.
    intros G L. destruct (get_group nu CL g st (in_groups nu HC CL name g G) L (group_in name g G)) as (v & E & l & -> & LL & N).
    exists l. unfold get. fold m. rewrite G. now split.
  Qed.

  Lemma record_ok st st' u p names : updated nu F Fl Fnl out u p st st' -> incl names recordable ->
    exists row, record nu names st' = Ok row /\ map fst row = names /\ forall name v, In (name, v) row -> get nu name st' = Ok v.
  Proof.
    intros UPD. destruct UPD as (L & _ & _ & _ & (ld & VD & _) & (lz & VZ & _) & (ly & VY & _) & _).
    induction names as [|a names IH]; intros I.
    - exists []. split; [reflexivity|]. split; [reflexivity|]. intros name v [].
    - destruct IH as (row & E & M & G); [intros x Hx; apply I; now right|].
      assert (GA : exists v, get nu a st' = Ok v).
      { assert (Ia : In a recordable) by (apply I; now left). cbn in Ia.
        assert (AR : forall name g, assoc name (groups m) = Some g -> exists v, get nu name st' = Ok v).
        { intros name g Hg. destruct (get_arg name g st' Hg L) as (l & El & _). now exists (Ve l). }
        destruct Ia as [<-|[<-|[<-|[<-|[<-|[<-|[<-|[<-|[<-|[]]]]]]]]]];
          try (eapply AR; reflexivity); unfold get; cbn; [exists (Ve ld)|exists (Ve lz)|exists (Ve ly)]; now rewrite ?VD, ?VZ, ?VY. }
      destruct GA as [v Ev]. exists ((a, v) :: row). split; [|split].
      + unfold record in *. cbn [rmap]. rewrite Ev. cbn [rbind]. rewrite E. reflexivity.
      + cbn. now rewrite M.
      + intros name x [Hx|Hx]; [injection Hx as <- <-; exact Ev|now apply G].
  Qed.

  Lemma process_ok names : incl names recordable -> forall us ps st,
    Forall (fun u => length u = length (c_u m)) us -> Forall (fun p => length p = length (c_p m)) ps ->
    length (st_args st) = length (args_of m) ->
    safe (process_py nu names us ps st) (fun '(rows, st') => length rows = Nat.min (length us) (length ps) /\
      exists sts, nth_error sts 0 = Some st /\ nth_error sts (length rows) = Some st' /\ trace nu F Fl Fnl out names us ps rows sts).
  Proof.
    intros IN. unfold process_py.
    induction us as [|u us IH]; intros ps st FU FP L.
    { cbn. split; [reflexivity|]. exists [st]. split; [reflexivity|]. split; [reflexivity|]. split; [reflexivity|].
      intros k a b u p row _ H. destruct k; discriminate. }
    destruct ps as [|p ps].
    { cbn. split; [reflexivity|]. exists [st]. split; [reflexivity|]. split; [reflexivity|]. split; [reflexivity|].
      intros k a b u' p row _ H. destruct k; discriminate. }
    inversion FU as [|? ? LU FU']; subst. inversion FP as [|? ? LPa FP']; subst.
    cbn [combine process]. apply (safe_bind _ _ (updated nu F Fl Fnl out u p st)); [now apply UP|].
    intros st1 U1. destruct (record_ok st st1 u p names U1 IN) as (row & ER & MR & GR). rewrite ER. cbn [rbind].
    eapply safe_bind; [apply (IH ps st1 FU' FP'); apply U1|]. intros [rows st2] (LR & sts & S0 & SN & LS & TR).
    cbn [safe]. split; [cbn; now rewrite LR|]. exists (st :: sts). split; [reflexivity|]. split; [exact SN|].
    split; [cbn; now rewrite LS|]. intros k a b u0 p0 row0 H1 H2 H3 H4 H5. destruct k as [|k]; cbn in *.
    - injection H1 as <-. injection H3 as <-. injection H4 as <-. injection H5 as <-. rewrite S0 in H2. injection H2 as <-.
      split; [exact U1|]. split; [exact MR|exact GR].
    - exact (TR k a b u0 p0 row0 H1 H2 H3 H4 H5).
  Qed.

  Lemma cell_get rows k row name st : nth_error rows k = Some row -> In name (map fst row) ->
    (forall name v, In (name, v) row -> get nu name st = Ok v) -> exists v, cell rows k name = Some v /\ get nu name st = Ok v.
  Proof.
    intros E I G. unfold cell. rewrite E. destruct (assoc_keys name row I) as [v Ev]. exists v. split; [exact Ev|].
    apply G. now apply assoc_in.
  Qed.

  Lemma trace_at names us ps rows sts k : trace nu F Fl Fnl out names us ps rows sts ->
    length rows = Nat.min (length us) (length ps) -> k < length rows ->
    exists a b u p row, nth_error sts k = Some a /\ nth_error sts (S k) = Some b /\ nth_error us k = Some u /\
      nth_error ps k = Some p /\ nth_error rows k = Some row /\ updated nu F Fl Fnl out u p a b /\ map fst row = names /\
      forall name v, In (name, v) row -> get nu name b = Ok v.
  Proof.
    intros (LS & TR) LR Hk.
    destruct (nth_error sts k) as [a|] eqn:E1; [|apply nth_error_None in E1; lia].
    destruct (nth_error sts (S k)) as [b|] eqn:E2; [|apply nth_error_None in E2; lia].
    destruct (nth_error us k) as [u|] eqn:E3; [|apply nth_error_None in E3; lia].
    destruct (nth_error ps k) as [p|] eqn:E4; [|apply nth_error_None in E4; lia].
    destruct (nth_error rows k) as [row|] eqn:E5; [|apply nth_error_None in E5; lia].
    exists a, b, u, p, row. do 5 (split; [reflexivity|]). exact (TR k a b u p row E1 E2 E3 E4 E5).
  Qed.

  Lemma list_eq (a b : list R) : length a = length b -> (forall i, i < length b -> nth i a 0%R = nth i b 0%R) -> a = b.
  Proof. intros L H. apply (nth_ext _ _ 0%R 0%R L). intros i Hi. apply H. lia. Qed.

  Lemma chain_ok names us ps rows sts :
    Forall (fun u => length u = length (c_u m)) us -> Forall (fun p => length p = length (c_p m)) ps ->
    trace nu F Fl Fnl out names us ps rows sts -> length rows = Nat.min (length us) (length ps) ->
    (In "u" names -> forall k, k < length rows -> cell rows k "u" = option_map Ve (nth_error us k)) /\
    (In "p" names -> forall k, k < length rows -> cell rows k "p" = option_map Ve (nth_error ps k)) /\
    (In "x" names -> In "dx" names -> forall k, S k < length rows ->
       exists x d x', cell rows k "x" = Some (Ve x) /\ cell rows k "dx" = Some (Ve d) /\ cell rows (S k) "x" = Some (Ve x') /\
         length x = length (c_x m) /\ length d = length (c_x m) /\ length x' = length (c_x m) /\
         forall i, i < length (c_x m) -> (nth i x' 0 = nth i x 0 + nth i d 0)%R).
  Proof.
    intros FU FP T LR. split; [|split].
    - intros IN k Hk. destruct (trace_at _ _ _ _ _ k T LR Hk) as (a & b & u & p & row & _ & _ & EU & EP & ER & UPD & MR & GR).
      rewrite <- MR in IN. destruct (cell_get rows k row "u" b ER IN GR) as (v & -> & Ev). rewrite EU. cbn. f_equal.
      destruct UPD as (Lb & _ & U & _).
      destruct (get_arg "u" (c_u m) b eq_refl Lb) as (l & El & LL & N). rewrite El in Ev. injection Ev as <-. f_equal.
      assert (LU : length u = length (c_u m)) by (apply (proj1 (Forall_forall _ us) FU); eapply nth_error_In; exact EU).
      apply list_eq; [congruence|]. intros i Hi. rewrite LU in Hi. rewrite N by exact Hi. now apply U.
    - intros IN k Hk. destruct (trace_at _ _ _ _ _ k T LR Hk) as (a & b & u & p & row & _ & _ & EU & EP & ER & UPD & MR & GR).
      rewrite <- MR in IN. destruct (cell_get rows k row "p" b ER IN GR) as (v & -> & Ev). rewrite EP. cbn. f_equal.
      destruct UPD as (Lb & _ & _ & U & _).
      destruct (get_arg "p" (c_p m) b eq_refl Lb) as (l & El & LL & N). rewrite El in Ev. injection Ev as <-. f_equal.
      assert (LU : length p = length (c_p m)) by (apply (proj1 (Forall_forall _ ps) FP); eapply nth_error_In; exact EP).
      apply list_eq; [congruence|]. intros i Hi. rewrite LU in Hi. rewrite N by exact Hi. now apply U.
    - intros IX ID k Hk.
      destruct (trace_at _ _ _ _ _ k T LR ltac:(lia)) as (a & b & u & p & row & _ & SB & _ & _ & ER & UPD & MR & GR).
      destruct (trace_at _ _ _ _ _ (S k) T LR Hk) as (b' & c & u' & p' & row' & SB' & _ & _ & _ & ER' & UPD' & MR' & GR').
      rewrite SB in SB'. injection SB' as <-.
      destruct (cell_get rows k row "x" b ER ltac:(now rewrite MR) GR) as (vx & Ex & Gx).
      destruct (cell_get rows k row "dx" b ER ltac:(now rewrite MR) GR) as (vd & Ed & Gd).
      destruct (cell_get rows (S k) row' "x" c ER' ltac:(now rewrite MR') GR') as (vx' & Ex' & Gx').
      destruct UPD as (Lb & _). destruct UPD' as (Lc & X & _).
      destruct (get_arg "x" (c_x m) b eq_refl Lb) as (x & El & LL & N). rewrite El in Gx. injection Gx as <-.
      destruct (get_arg "dx" (dx m) b eq_refl Lb) as (d & El2 & LL2 & N2). rewrite El2 in Gd. injection Gd as <-.
      destruct (get_arg "x" (c_x m) c eq_refl Lc) as (x' & El3 & LL3 & N3). rewrite El3 in Gx'. injection Gx' as <-.
      rewrite dx_length in LL2, N2. exists x, d, x'. do 6 (split; [assumption|]). intros i Hi. rewrite N, N2, N3 by exact Hi. now apply X.
  Qed.

  (** The symbols of the energy that are not states are in the dictionary. *)
  Definition energy_params : Prop :=
    forall s, In s (free_symbols (c_H m)) -> In s (c_x m) \/ In s (map fst (n_subs nu)).

  Lemma dict_same s st st' : In s (map fst (n_subs nu)) -> senv nu st s = senv nu st' s.
  Proof. intros H. destruct (assoc_keys s _ H) as [v E]. unfold senv, total, call_env. now rewrite E. Qed.

  Lemma next_ok u p a b : energy_params -> updated nu F Fl Fnl out u p a b -> next_step m (senv nu a) (senv nu b).
  Proof.
    intros EP (_ & X & _). split; [exact X|]. intros s Hs Nx. destruct (EP s Hs) as [H|H]; [contradiction|].
    symmetry. now apply dict_same.
  Qed.
End Sim.

(** A simulation that solves every step satisfies the power balance. *)
Lemma simulation_balance : forall f c m F Fl Fnl out nu names us ps rows sts,
  wf c -> clean_names c -> c_cy c = [] -> f_grad f <> OtherGrad ->
  method_init f c = ok m -> tempF Sall m = Ok F -> output m = Ok out -> n_method nu = m ->
  (forall s, In s (free_symbols (c_H m)) -> In s (c_x m) \/ In s (map fst (n_subs nu))) ->
  (exists fs, assoc fs_symbol (n_subs nu) = Some fs /\ (0 < fs)%R) ->
  length rows = Nat.min (length us) (length ps) -> trace nu F Fl Fnl out names us ps rows sts ->
  let run n := senv nu (nth (S n) sts (mkState [] (fun _ => None) 0)) in
  (forall n, n < length rows -> vanish (run n) F /\
     forall r1, moved 1 (run n) (c_x m) (dx m) r1 -> exact_step f m (run n) r1) ->
  forall N, N < length rows ->
    (eval (run N) (c_H m) - eval (run 0%nat) (c_H m) =
     - rsum N (fun n => (power_laws (run n) m + power_ports (run n) m out +
                         power_structure (run n) m (a_vec m)) / run n fs_symbol))%R.
Proof.
  intros f c m F Fl Fnl out nu names us ps rows sts W CN CY G E EF EO EN EP (fs & EFS & FS) LR TR run SO N HN.
  destruct (run_balance f c W CN CY G) as (m' & F' & out' & E' & EF' & EO' & B).
  rewrite E in E'. injection E' as <-. rewrite EF in EF'. injection EF' as <-. rewrite EO in EO'. injection EO' as <-.
  apply B. intros n Hn. destruct (SO n ltac:(lia)) as [V X].
  split; [intros i Hi; apply V; now apply nth_In|].
  destruct TR as [LS TR].
  destruct (trace_at nu F Fl Fnl out names us ps rows sts (S n) (conj LS TR) LR ltac:(lia))
    as (a & b & u & p & row & SA & SB & _ & _ & _ & UPD & _).
  split; [|split; [|exact X]].
  - unfold run. rewrite (nth_error_nth _ _ _ SA), (nth_error_nth _ _ _ SB).
    rewrite <- EN. apply (next_ok nu F Fl Fnl out u p); [|exact UPD]. unfold energy_params. now rewrite EN.
  - unfold run, senv, total, call_env. rewrite EFS. exact FS.
Qed.

(** ** Order of evaluation for a method *)

Definition rank_of (s : string) : nat :=
  match assoc s [("ud_x", 1); ("ijactempFll", 1); ("ud_vl", 2); ("Fnl", 2); ("jacFnl", 2); ("ijacFnl", 3);
                 ("save_Fnl", 3); ("res_Fnl", 3); ("step_Fnl", 4); ("ud_vnl", 4)] with
  | Some n => n
  | None => 0
  end.

Lemma rank_bound s : rank_of s <= 4.
Proof.
  unfold rank_of. cbn [assoc].
  repeat match goal with |- context [if ?b then _ else _] => destruct b end; lia.
Qed.

Lemma ops_ranked m : forall s o d, In (s, o) (ops m) -> In d (deps_of o) -> rank_of d < rank_of s.
Proof.
  intros s o d H D. unfold ops in H. destruct (has_l m), (has_nl m); cbn [when app In] in H;
    repeat (destruct H as [H|H]; [injection H as <- <-; cbn [deps_of app In] in D;
      repeat (destruct D as [D|D]; [subst d; vm_compute; lia|]); destruct D|]); destruct H.
Qed.

Lemma method_order m deps fuel : deps_for m deps -> 4 < fuel ->
  exists order, update_actions_deps deps fuel m = Ok order /\ NoDup order /\ sorted_for deps order /\
    (forall d, In d order <-> In d ["dx"; "w"; "u"; "p"] \/ exists n, In n (action_names m) /\ needed deps n d).
Proof.
  intros DF HF. unfold update_actions_deps. apply (order_ok deps rank_of).
  - intros n ds d E I. specialize (DF n). destruct (assoc n (ops m)) as [o|] eqn:EO; [|congruence].
    destruct DF as (ds' & E' & H). rewrite E in E'. injection E' as <-. apply H in I.
    apply (ops_ranked m n o d); [now apply assoc_in|exact I].
  - intros n Hn. specialize (DF n). replace (assoc n (ops m)) with (@None operation) in DF; [exact DF|].
    unfold ops. cbn in Hn. destruct (has_l m), (has_nl m); destruct Hn as [<-|[<-|[<-|[<-|[]]]]]; reflexivity.
  - intros n _. pose proof (rank_bound n). lia.
Qed.

Lemma simulation_ok nu : let m := n_method nu in
  wf m -> counters_ok m -> c_cy m = [] -> closed nu -> inv_correct (n_inv nu) -> linear_part m ->
  exists F Fl Fnl out, tempF Sall m = Ok F /\ tempF Sl m = Ok Fl /\ tempF Snl m = Ok Fnl /\ output m = Ok out /\
    forall names us ps st, incl names recordable ->
      Forall (fun u => length u = length (c_u m)) us -> Forall (fun p => length p = length (c_p m)) ps ->
      length (st_args st) = length (args_of m) ->
      safe (process_py nu names us ps st) (fun '(rows, st') => length rows = Nat.min (length us) (length ps) /\
        chained m names us ps rows /\
        exists sts, nth_error sts 0 = Some st /\ nth_error sts (length rows) = Some st' /\
          trace nu F Fl Fnl out names us ps rows sts).
Proof.
  intros m W HC CY CL IC LP. destruct (update_ok nu W HC CY CL IC LP) as (F & Fl & Fnl & out & E1 & E2 & E3 & E4 & UP).
  exists F, Fl, Fnl, out. split; [exact E1|]. split; [exact E2|]. split; [exact E3|]. split; [exact E4|].
  intros names us ps st IN FU FP L. eapply safe_impl; [|exact (process_ok nu HC CL F Fl Fnl out UP names IN us ps st FU FP L)].
  intros [rows st'] (LR & sts & S0 & SN & T). split; [exact LR|]. split.
  - exact (chain_ok nu HC CL F Fl Fnl out names us ps rows sts FU FP T LR).
  - exists sts. split; [exact S0|]. now split.
Qed.

Lemma iterexecs_ok nu l res step st st' : iterexecs nu l res step st = Ok st' ->
  exists st0 st1, set nu step (Sc 1) st = Ok st0 /\ applied (execs nu l) (st_it st') st0 st1 /\
    st_args st' = st_args st1 /\ st_vals st' = st_vals st1 /\ st_it st' <= n_maxit nu /\
    exists a, get nu res st1 = Ok (Sc a) /\
      ((a <= n_eps nu)%R \/ st_it st' = n_maxit nu \/ exists b, get nu step st1 = Ok (Sc b) /\ (b <= n_eps nu)%R).
Proof.
  unfold iterexecs. intros H. destruct (set nu step (Sc 1) st) as [st0|] eqn:E0; [|discriminate]. cbn [rbind] in H.
  destruct (iterate _ _ _ _ _ _) as [[st1 k]|] eqn:EI; [|discriminate]. cbn [rbind] in H. injection H as <-. cbn.
  exists st0, st1. split; [reflexivity|].
  assert (SC : forall name a, scalar (get nu name st1) = Ok a -> get nu name st1 = Ok (Sc a)).
  { intros name a. unfold scalar. destruct (get nu name st1) as [[x| |]|]; cbn; intros H; try discriminate. now injection H as ->. }
  destruct (iterate_ok _ _ _ _ _ _ _ _ EI) as (K & AP & (a & EA & C) & _).
  split; [exact AP|]. split; [reflexivity|]. split; [reflexivity|]. split; [exact K|].
  exists a. split; [now apply SC|]. destruct C as [C|[C|(b & EB & C)]]; [now left|right; now left|].
  right; right. exists b. split; [now apply SC|exact C].
Qed.
