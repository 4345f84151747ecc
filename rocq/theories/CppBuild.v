(** The generated class follows the numerical core from its construction. *)
From Coq Require Import String List ZArith QArith Qreals Reals Bool Lia Lra.
From Verif Require Import Py Tools Lists Expr RSum Mat Core Calculus ExprProofs MatProofs Spec_Core StructProofs
  Spec_Calculus Deriv CalculusProofs PowerProofs Subs SubsProofs Method Spec_Method Separable TempProofs
  Numeric Spec_Numeric NumericProofs NumericUpdate NumericStep NumericUpdateOk NumericSim Cpp Spec_Cpp CppProofs CppRefine.
Import ListNotations.
Local Open Scope string_scope.
Local Open Scope list_scope.
Local Open Scope nat_scope.

(** ** Inverses *)

Lemma inverse_unique n A B C : is_inverse n A B -> is_inverse n A C -> forall i j, i < n -> j < n -> B i j = C i j.
Proof.
  intros IB [HC _] i j Hi Hj.
  assert (E : mv_ n B (fun x => idm x j) i = B i j).
  { unfold mv_, idm. rewrite <- (rsum_delta n j (fun x => B i x) Hj). apply rsum_ext. intros h Hh. cbv beta.
    destruct (Nat.eqb h j); ring. }
  rewrite <- E. symmetry. apply (inverse_unique_sol n A B (fun x => C x j) (fun x => idm x j) IB); [|exact Hi].
  intros x Hx. exact (HC x j Hx Hj).
Qed.

Lemma inverses_agree inv cinv : inv_correct inv -> cinv_for inv cinv ->
  forall n A A' B, inv n A = Some B -> (forall i j, i < n -> j < n -> A i j = A' i j) ->
  forall i j, i < n -> j < n -> cinv n A' i j = B i j.
Proof.
  intros IC CC n A A' B E H i j Hi Hj. pose proof (inverse_ext n A A' B H (IC n A B E)) as IB.
  symmetry. exact (inverse_unique n A' B (cinv n A') IB (CC n A A' B E H) i j Hi Hj).
Qed.

(** ** Evaluations of a numerical core *)

Lemma eval_op_ext inv (g g' : string -> result value) op :
  (forall d, In d (deps_of op) -> g d = g' d) -> eval_op inv g op = eval_op inv g' op.
Proof.
  induction op as [d|q|a IHa b IHb|a IHa b IHb|a IHa b IHb|a IHa|a IHa|a IHa]; intros H; cbn [eval_op deps_of] in *;
    try (rewrite IHa, IHb by (intros d Hd; apply H; apply in_or_app; tauto); reflexivity);
    try (rewrite IHa by exact H; reflexivity); [apply H; now left|reflexivity].
Qed.

Lemma run_eval_ext nu n st st' : st_args st = st_args st' ->
  (forall op d, assoc n (ops (n_method nu)) = Some op -> In d (deps_of op) -> get nu d st = get nu d st') ->
  run_eval nu n st = run_eval nu n st'.
Proof.
  intros EA H. unfold run_eval. destruct (assoc n (ops (n_method nu))) as [op|]; [apply eval_op_ext; intros d; now apply H|].
  destruct (assoc n (funcs (n_method nu))) as [[f|]|]; cbn [rbind]; try reflexivity. unfold eval_func. now rewrite EA.
Qed.

Section Build.
  Variable nu : numeric.
  Let m := n_method nu.
  Variable order : list string.
  Hypothesis NDO : NoDup order.
  Hypothesis SRT : forall p n rest op d, order = p ++ n :: rest -> assoc n (ops m) = Some op -> In d (deps_of op) -> In d p.

  Lemma build_fix : forall names p st st', order = p ++ names -> build_evals nu names st = Ok st' ->
    st_args st' = st_args st /\ (forall s, ~ In s names -> st_vals st' s = st_vals st s) /\
    (forall s v, st_vals st' s = Some v -> st_vals st s = Some v \/ (In s names /\ assoc s (groups m) = None)) /\
    (forall n, In n names -> assoc n (groups m) = None -> exists v, st_vals st' n = Some v /\ run_eval nu n st' = Ok v).
  Proof.
    induction names as [|n names IH]; intros p st st' EO E.
    - injection E as <-. split; [reflexivity|]. split; [reflexivity|]. split; [now left|]. intros n [].
    - assert (EO' : order = (p ++ [n]) ++ names) by (rewrite <- app_assoc; exact EO).
      assert (NN : ~ In n names /\ forall d, In d p -> d <> n /\ ~ In d names).
      { pose proof NDO as N. rewrite EO in N. split; [apply NoDup_remove_2 in N; intros H; apply N; apply in_or_app; now right|].
        intros d Hd. pose proof (nodup_app_disj _ _ d N Hd) as D. cbn in D. split; [intros ->; apply D; now left|intros H; apply D; now right]. }
      destruct NN as [Nn ND]. cbn [build_evals] in E. fold m in E. destruct (assoc n (groups m)) as [g|] eqn:G.
      + destruct (IH (p ++ [n]) st st' EO' E) as (A1 & A2 & A3 & A4). split; [exact A1|]. split; [|split].
        * intros s Hs. apply A2. intros H. apply Hs. now right.
        * intros s v Hs. destruct (A3 s v Hs) as [H|[H1 H2]]; [now left|right; split; [now right|exact H2]].
        * intros x [<-|Hx] Gx; [congruence|now apply A4].
      + destruct (run_eval nu n st) as [v|] eqn:EV; [|discriminate]. cbn [rbind] in E.
        destruct (IH (p ++ [n]) _ st' EO' E) as (A1 & A2 & A3 & A4). cbn [set_val st_args st_vals] in *. split; [exact A1|]. split; [|split].
        * intros s Hs. rewrite A2 by (intros H; apply Hs; now right).
          destruct (String.eqb_spec s n) as [->|_]; [elim Hs; now left|reflexivity].
        * intros s x Hs. destruct (A3 s x Hs) as [H|[H1 H2]]; [|right; split; [now right|exact H2]].
          destruct (String.eqb_spec s n) as [->|_]; [right; split; [now left|exact G]|now left].
        * intros x [<-|Hx] Gx; [|now apply A4]. exists v. split; [rewrite A2 by exact Nn; now rewrite String.eqb_refl|].
          rewrite <- EV. apply run_eval_ext; [exact A1|]. intros op d O Hd. unfold get. fold m.
          destruct (assoc d (groups m)) as [g|]; [unfold getarg; now rewrite A1|].
          destruct (ND d (SRT p n names op d EO O Hd)) as [D1 D2]. rewrite A2 by exact D2.
          destruct (String.eqb_spec d n) as [->|_]; [contradiction|reflexivity].
  Qed.
End Build.

(** The shapes of the initial values. *)
Definition of_value (v : value) : cvalue :=
  match v with Sc a => CSc a | Ve l => column l | Ma n p A => CMa n p A end.
Lemma of_value_same v : same_value v (of_value v).
Proof. destruct v; cbn; [reflexivity| |]; rewrite ?cols_if; auto. Qed.

Lemma op_vshape nu cinv st op s v :
  (forall n A A' B, n_inv nu n A = Some B -> (forall i j, i < n -> j < n -> A i j = A' i j) ->
    forall i j, i < n -> j < n -> cinv n A' i j = B i j) ->
  op_shape (fun d => assoc d (expected (n_method nu))) op = Some s ->
  (forall d w x, In d (deps_of op) -> get nu d st = Ok w -> assoc d (expected (n_method nu)) = Some x -> vshape w = x) ->
  eval_op (n_inv nu) (fun d => get nu d st) op = Ok v -> vshape v = s.
Proof.
  intros INV HS D E.
  set (k := mkClass [] [] 0%R 0 [] [] (map (fun d => (d, None)) (deps_of op)) [] [] [] [] [] 0%R 0).
  set (o := mkObject [] 0%R (fun d => match get nu d st with Ok w => Some (of_value w) | Err _ => None end)).
  destruct (op_ok (n_inv nu) cinv INV k o (fun d => get nu d st) (fun d => assoc d (expected (n_method nu))) op s v HS) as [X _]; [|exact E|exact X].
  intros d w Hd Ew. split; [intros x Hx; now apply (D d)|]. exists (of_value w). split; [|apply of_value_same].
  unfold access. cbn [k k_groups assoc k_types o ob_vals]. rewrite Ew.
  destruct (assoc_keys d (map (fun d => (d, None)) (deps_of op) : list (string * ctype))) as [t ->]; [|reflexivity].
  rewrite map_map. cbn [fst]. now rewrite map_id.
Qed.

Lemma run_eval_func nu name f st v : assoc name (funcs (n_method nu)) = Some (Ok f) ->
  run_eval nu name st = Ok v -> vshape v = fshape f.
Proof.
  intros F E. destruct (funcs_names (n_method nu) name _ F) as [_ NO]. unfold run_eval in E. rewrite NO, F in E. cbn [rbind] in E.
  unfold eval_func in E. destruct (find String.eqb (fexpr_symbols f) (args_of (n_method nu))) as [names inds].
  destruct (read_at inds (st_args st)) as [vals|]; [|discriminate]. cbn [rbind] in E.
  match type of E with (if ?c then _ else _) = _ => destruct c; [|discriminate] end. injection E as <-.
  destruct f; cbn; rewrite ?map_length; reflexivity.
Qed.

Section Assembly.
  Variable nu : numeric.
  Let m := n_method nu.
  Hypothesis W : wf m.
  Hypothesis HC : counters_ok m.
  Hypothesis CL : closed nu.
  Variable cinv : cinverter.
  Hypothesis IC : inv_correct (n_inv nu).
  Hypothesis CC : cinv_for (n_inv nu) cinv.
  Variable subs : list (string * R).
  Variable rate : R.
  Hypothesis SD : same_dictionary nu subs rate.
  Variable deps : string -> option (list string).
  Variable fuel : nat.
  Hypothesis DF : deps_for m deps.
  Variable order : list string.
  Hypothesis NDO : NoDup order.
  Hypothesis SF : sorted_for deps order.
  Hypothesis OIN : forall d, In d ["dx"; "w"; "u"; "p"] \/ In d (action_names m) -> In d order.
  Variable single : R -> R.
  Variable inits : list (string * option (list R)).
  Hypothesis GI : good_inits single inits.
  Variables st1 st0 : state.
  Hypothesis INI : init_args nu inits (mkState (repeat 0%R (length (args_of m))) (fun _ => None) 0) = Ok st1.
  Hypothesis BLD : build_evals nu order st1 = Ok st0.

  Lemma a_srt : forall p n rest op d, order = p ++ n :: rest -> assoc n (ops m) = Some op -> In d (deps_of op) -> In d p.
  Proof.
    intros p n rest op d EO O Hd. pose proof (DF n) as D. rewrite O in D. destruct D as (ds & Ed & Hds).
    destruct (SF (length p) n ds d) as (j & Hj & Nj); [rewrite EO, nth_error_app2, Nat.sub_diag by lia; reflexivity|exact Ed|now apply Hds|].
    rewrite EO, nth_error_app1 in Nj by exact Hj. now apply nth_error_In in Nj.
  Qed.
  Lemma a_oc : forall n op d, In n order -> assoc n (ops m) = Some op -> In d (deps_of op) -> In d order.
  Proof.
    intros n op d I O Hd. apply in_split in I. destruct I as (p & rest & EO). rewrite EO. apply in_or_app. left. now apply (a_srt p n rest op).
  Qed.
  Lemma a_inv : forall n A A' B, n_inv nu n A = Some B -> (forall i j, i < n -> j < n -> A i j = A' i j) ->
    forall i j, i < n -> j < n -> cinv n A' i j = B i j.
  Proof. exact (inverses_agree (n_inv nu) cinv IC CC). Qed.

  Lemma a_names n : In n ["x"; "ud_x"; "o"; "ud_o"; "dxH"; "z"; "y"; "dx"; "w"; "u"; "p"] -> In n order.
  Proof.
    intros H. apply OIN. unfold action_names, update_actions, preimplicit, implicit, postimplicit.
    destruct (has_l m), (has_nl m); vm_compute in H |- *; intuition.
  Qed.
  Lemma a_act : forall a, In a (update_actions m) -> good_action nu order a.
  Proof.
    assert (AN : forall n, In n (action_names m) -> In n order) by (intros n H; apply OIN; now right).
    pose proof (v_of_len m Sl HC) as L1. pose proof (v_of_len m Snl HC) as L2.
    unfold action_names, update_actions, preimplicit, implicit, postimplicit in AN.
    intros a H. unfold update_actions, preimplicit, implicit, postimplicit in H.
    destruct (has_l m) eqn:HL, (has_nl m) eqn:HN; cbn [when app In] in H;
    repeat match type of H with _ \/ _ => destruct H as [H|H] end; try contradiction; subst a; unfold good_action; fold m;
    match goal with |- _ /\ _ => split; [|split; [split; [apply AN; vm_compute; tauto|split; [intros X; cbn in X; intuition discriminate|split; [reflexivity|unfold ops; rewrite HL, HN; eexists; reflexivity]]]
        |split; [apply AN; vm_compute; tauto|split; [intros X; cbn in X; intuition discriminate|split; [reflexivity|split; [unfold ops; rewrite HL, HN; eexists; reflexivity|reflexivity]]]]]]
      | _ => idtac end;
    intros c Hc; cbn [In same] in Hc;
    repeat match type of Hc with _ \/ _ => destruct Hc as [Hc|Hc] end; try contradiction; subst c; unfold good_command; fold m; cbn [fst snd];
    first
      [ left; split; [reflexivity|]; split; [apply AN; vm_compute; tauto|]; split; [reflexivity|]; intros X; cbn in X; intuition discriminate
      | right; split; [discriminate|]; split; [apply AN; vm_compute; tauto|]; split; [apply AN; vm_compute; tauto|];
        split; [cbn; tauto|]; split; [reflexivity|]; eexists; split; [reflexivity|]; cbn -[nv v_of]; unfold o_of; rewrite ?map_length, ?L1, ?L2; reflexivity ].
  Qed.
  Lemma a_ops name op : assoc name (ops m) = Some op -> In name order.
  Proof.
    intros H. apply OIN. right. unfold action_names, update_actions, preimplicit, implicit, postimplicit. apply assoc_key in H. unfold ops in H.
    destruct (has_l m), (has_nl m); vm_compute in H |- *; tauto.
  Qed.

  Lemma a_fix : st_args st0 = st_args st1 /\
    (forall s v, st_vals st0 s = Some v -> In s order /\ assoc s (groups m) = None) /\
    (forall n, In n order -> assoc n (groups m) = None -> exists v, st_vals st0 n = Some v /\ run_eval nu n st0 = Ok v).
  Proof.
    destruct (build_fix nu order NDO a_srt order [] st1 st0 eq_refl BLD) as (A & _ & B & C). split; [exact A|]. split; [|exact C].
    intros s v H. destruct (B s v H) as [H'|H']; [|exact H'].
    destruct (init_args_ok nu HC CL inits _ _ INI) as (_ & EV & _); [cbn; apply repeat_length|]. rewrite EV in H'. discriminate.
  Qed.

  Lemma a_size : length (st_args st0) = length (args_of m).
  Proof.
    destruct a_fix as (-> & _). destruct (init_args_ok nu HC CL inits _ _ INI) as (_ & _ & L & _); [cbn; apply repeat_length|exact L].
  Qed.

  Lemma a_shapes : forall i n, nth_error order i = Some n -> forall v x, st_vals st0 n = Some v -> assoc n (expected m) = Some x -> vshape v = x.
  Proof.
    induction i as [i IH] using lt_wf_ind. intros n Hi v x SV Hx. destruct a_fix as (_ & ON & FX).
    destruct (ON n v SV) as [I G]. destruct (FX n I G) as (v' & SV' & E). rewrite SV in SV'. injection SV' as <-.
    destruct (assoc n (ops m)) as [op|] eqn:O.
    - destruct (ops_shape m HC n op O) as (s & ES & SH). rewrite Hx in ES. injection ES as <-.
      unfold run_eval in E. fold m in E. rewrite O in E. apply (op_vshape nu cinv st0 op x v a_inv SH); [|exact E].
      intros d w y Hd Gd Hy. unfold get in Gd. fold m in Gd, Hy. destruct (assoc d (groups m)) as [g|] eqn:G'.
      + destruct (get_arg nu HC CL d g st0 G' a_size) as (l & E' & L & _). unfold get in E'. fold m in E'. rewrite G' in E'.
        rewrite E' in Gd. injection Gd as <-. cbn. rewrite L. symmetry. exact (group_expected nu HC d g y G' Hy).
      + destruct (st_vals st0 d) as [w'|] eqn:SW; [|discriminate]. injection Gd as ->.
        pose proof (DF n) as D. rewrite O in D. destruct D as (ds & Ed & Hds).
        destruct (SF i n ds d Hi Ed (proj2 (Hds d) Hd)) as (j & Hj & Nj). exact (IH j Hj d Nj w y SW Hy).
    - destruct (assoc n (funcs m)) as [[f|]|] eqn:F.
      + rewrite (run_eval_func nu n f st0 v F E). exact (funcs_shape m W HC n f x F Hx).
      + unfold run_eval in E. fold m in E. rewrite O, F in E. discriminate.
      + unfold run_eval in E. fold m in E. rewrite O, F in E. discriminate.
  Qed.

  Lemma op_type_ok n op v x : assoc n (ops m) = Some op -> assoc n (expected m) = Some x -> vshape v = x -> op_type v = ctype_of x.
  Proof.
    intros O X V. subst x. destruct v as [a|l|r c A]; [reflexivity|reflexivity|]. cbn [op_type ctype_of vshape] in *.
    assert (P : 0 < r * c); [|destruct (Nat.eqb_spec (r * c) 0); [lia|reflexivity]].
    apply in_ops in O. destruct O as [[-> _]|[[HL [H|[H|[]]]]|[HN [H|[H|[H|[H|[H|[H|[H|[]]]]]]]]]]];
      try (match goal with E : (_, _) = (_, _) |- _ => injection E as <- _ end);
      cbn -[nv] in X; try discriminate; injection X as <- <-;
      try (pose proof (l_pos m HC HL)); try (pose proof (nl_pos m HC HN)); nia.
  Qed.

  Lemma params_ok : gen_params [subs] = Ok (map snd subs).
  Proof.
    destruct SD as (N & _). unfold gen_params. cbn [rmap].
    assert (X : forall l, NoDup (map fst subs) -> incl l subs ->
      rmap (fun k => match assoc k subs with Some v => Ok v | None => Err KeyError end) (map fst l) = Ok (map snd l)).
    { clear. induction l as [|[s v] l IH]; intros N I; [reflexivity|]. cbn [map rmap fst snd].
      assert (E : assoc s subs = Some v).
      { assert (H : In (s, v) subs) by (apply I; now left). clear - N H. induction subs as [|[a b] d IHd]; [destruct H|]. cbn [assoc].
        inversion N as [|? ? Na N']; subst. destruct H as [H|H].
        - injection H as -> ->. now rewrite String.eqb_refl.
        - destruct (String.eqb_spec a s) as [->|_]; [|now apply IHd]. elim Na. apply in_map_iff. now exists (s, v). }
      rewrite E. cbn [rbind]. rewrite IH; [reflexivity|exact N|intros y Hy; apply I; now right]. }
    rewrite (X subs N (incl_refl _)). reflexivity.
  Qed.

  Lemma inits_exact : map (fun kv => (fst kv, map (fun v => if Req_EM_T v 0 then 0%R else single v) (snd kv))) (complete m inits) = complete m inits.
  Proof.
    destruct GI as (_ & _ & S). rewrite <- (map_id (complete m inits)) at 2. apply map_ext_in. intros [n vs] H. cbn [fst snd]. f_equal.
    rewrite <- (map_id vs) at 2. apply map_ext_in. intros v Hv. destruct (Req_EM_T v 0) as [->|N]; [reflexivity|].
    unfold complete in H. apply in_app_or in H. destruct H as [H|H]; apply in_map_iff in H.
    - destruct H as ([n' [l|]] & E & I); cbn in E; injection E as -> <-; [exact (S n l v I Hv)|]. apply repeat_spec in Hv. contradiction.
    - destruct H as (n' & E & _). injection E as <- <-. apply repeat_spec in Hv. contradiction.
  Qed.

  Lemma gen_func_key a b : gen_func m a = Ok b -> snd b = a.
  Proof.
    unfold gen_func. destruct (assoc a (funcs m)) as [[f|]|]; cbn [rbind]; try discriminate. destruct (fmat f); cbn [rbind]; [|discriminate].
    intros H. now injection H as <-.
  Qed.
  Lemma gen_op_key a b : gen_op m (st_vals st0) a = Ok b -> fst (snd b) = a.
  Proof.
    unfold gen_op. destruct (assoc a (ops m)); [|discriminate]. destruct (st_vals st0 a); [|discriminate]. intros H. now injection H as <-.
  Qed.

  (** Everything that the generated class satisfies. *)
  Lemma generated : exists k, generate single m subs [subs] rate (n_eps nu) (n_maxit nu) inits (st_vals st0) order = Ok k /\
    forall junk, length junk = length (args_of m) ->
    exists o, construct cinv k junk = Ok o /\ simulates nu k order st0 o /\
    forall names seq rows st', incl names recordable ->
      (forall u p, In (u, p) seq -> length u = length (c_u m) /\ length p = length (c_p m)) ->
      process nu names seq st0 = Ok (rows, st') ->
      exists crows o', c_process cinv k names seq o = Ok (crows, o') /\ Forall2 same_row rows crows /\ simulates nu k order st' o' /\
        exists o'', set_sampleRate cinv k rate o' = Ok o'' /\ simulates nu k order st0 o''.
  Proof.
    destruct a_fix as (EA & ON & FX).
    assert (FOK : forall n, In n order -> is_func nu n = true -> exists f A, assoc n (funcs m) = Some (Ok f) /\ fmat f = Ok A).
    { intros n I F. unfold is_func in F. fold m in F. destruct (assoc n (funcs m)) as [rf|] eqn:EF; [|discriminate].
      destruct (funcs_names m n rf EF) as [G NO]. destruct (FX n I G) as (v & _ & E). unfold run_eval in E. fold m in E. rewrite NO, EF in E.
      destruct rf as [f|]; [|discriminate]. destruct (funcs_fmat m n f EF) as [A FA]. now exists f, A. }
    destruct (rmap_total (gen_func m) (filter (is_func nu) order)) as [fs Efs].
    { intros n H. apply filter_In in H. destruct H as [I F]. destruct (FOK n I F) as (f & A & E1 & E2). exists (A, n). unfold gen_func. rewrite E1. cbn [rbind]. rewrite E2. reflexivity. }
    destruct (rmap_total (gen_op m (st_vals st0)) (map fst (ops m))) as [os Eos].
    { intros n H. destruct (assoc_keys n _ H) as [op O]. destruct (ops_names m n op O) as [G _].
      destruct (FX n (a_ops n op O) G) as (v & SV & _). eexists. unfold gen_op. rewrite O, SV. reflexivity. }
    unfold generate.
    change (filter (fun n => match assoc n (funcs m) with Some _ => true | None => false end) order) with (filter (is_func nu) order).
    rewrite Efs. cbn [rbind]. rewrite Eos. cbn [rbind]. rewrite params_ok. cbn [rbind].
    eexists. split; [reflexivity|].
    match goal with |- context [construct cinv ?kk _] => set (k := kk) end.
    assert (KFUN : forall name f A, In name order -> assoc name (funcs m) = Some (Ok f) -> fmat f = Ok A ->
      assoc name (k_types k) = Some (Some (nr A, nc A)) /\ assoc name (k_bodies k) = Some (func_update m name A)).
    { intros name f A I F FA. cbn [k k_types k_bodies].
      assert (IF : In name (filter (is_func nu) order)) by (apply filter_In; split; [exact I|unfold is_func; fold m; now rewrite F]).
      rewrite !assoc_app. pose proof (rmap_assoc (gen_func m) snd (fun p => Some (nr (fst p), nc (fst p))) gen_func_key _ fs Efs name) as T.
      pose proof (rmap_assoc (gen_func m) snd (fun p => func_update m (snd p) (fst p)) gen_func_key _ fs Efs name) as B.
      assert (GF : forall b, gen_func m name = Ok b -> b = (A, name)).
      { intros b Hb. unfold gen_func in Hb. rewrite F in Hb. cbn [rbind] in Hb. rewrite FA in Hb. now injection Hb as <-. }
      cbv beta in T, B. split.
      - clear B. destruct (assoc name (map _ fs)) as [c|]; [|contradiction]. destruct T as (b & Hb & _ & ->). now rewrite (GF b Hb).
      - clear T. destruct (assoc name (map _ fs)) as [c|]; [|contradiction]. destruct B as (b & Hb & _ & ->). now rewrite (GF b Hb). }
    assert (KOP : forall name op s, assoc name (ops m) = Some op -> assoc name (expected m) = Some s ->
      assoc name (k_types k) = Some (ctype_of s) /\ assoc name (k_bodies k) = Some [SOper name (op2cpp op)]).
    { intros name op s O X. cbn [k k_types k_bodies]. destruct (ops_names m name op O) as [G NF].
      destruct (FX name (a_ops name op O) G) as (v & SV & _).
      pose proof (a_ops name op O) as I. apply In_nth_error in I. destruct I as [i Hi].
      pose proof (a_shapes i name Hi v s SV X) as VS.
      assert (IO : In name (map fst (ops m))) by (now apply assoc_key in O).
      assert (NG : forall b, gen_func m name <> Ok b) by (intros b; unfold gen_func; rewrite NF; discriminate).
      assert (GO : forall b, gen_op m (st_vals st0) name = Ok b -> b = (op_type v, (name, op2cpp op))).
      { intros b Hb. unfold gen_op in Hb. rewrite O, SV in Hb. now injection Hb as <-. }
      rewrite !assoc_app.
      pose proof (rmap_assoc (gen_func m) snd (fun p => Some (nr (fst p), nc (fst p))) gen_func_key _ fs Efs name) as T.
      pose proof (rmap_assoc (gen_func m) snd (fun p => func_update m (snd p) (fst p)) gen_func_key _ fs Efs name) as B.
      pose proof (rmap_assoc (gen_op m (st_vals st0)) (fun p => fst (snd p)) fst gen_op_key _ os Eos name) as T'.
      pose proof (rmap_assoc (gen_op m (st_vals st0)) (fun p => fst (snd p)) (fun p => [SOper (fst (snd p)) (snd (snd p))]) gen_op_key _ os Eos name) as B'.
      cbv beta in T, B, T', B'. split.
      - clear B B'. destruct (assoc name (map _ fs)) as [c|]; [destruct T as (b & Hb & _); now apply NG in Hb|].
        destruct (assoc name (map _ os)) as [c|]; [|contradiction]. destruct T' as (b & Hb & _ & ->). rewrite (GO b Hb). cbn [fst].
        f_equal. now apply (op_type_ok name op).
      - clear T T'. destruct (assoc name (map _ fs)) as [c|]; [destruct B as (b & Hb & _); now apply NG in Hb|].
        destruct (assoc name (map _ os)) as [c|]; [|contradiction]. destruct B' as (b & Hb & _ & ->). now rewrite (GO b Hb). }
    assert (BAS : incl arg_names order) by (intros n Hn; apply a_names; cbn in Hn |- *; tauto).
    assert (REC : incl recordable order) by (intros n Hn; apply a_names; cbn in Hn |- *; tauto).
    assert (KA : k_init_args k = complete m inits) by (cbn [k k_init_args]; apply inits_exact).
    assert (FSK : map snd fs = filter (is_func nu) order).
    { clear - Efs. revert fs Efs. induction (filter (is_func nu) order) as [|n l IH]; intros fs E; cbn [rmap] in E; [now injection E as <-|].
      destruct (gen_func m n) as [b|] eqn:Eb; [|discriminate]. cbn [rbind] in E. destruct (rmap (gen_func m) l) as [bs|]; [|discriminate].
      cbn [rbind] in E. injection E as <-. cbn [map]. rewrite (gen_func_key n b Eb). f_equal. now apply IH. }
    assert (KD : forall name es, In (name, es) (k_data k) -> In name order /\ exists f A, assoc name (funcs m) = Some (Ok f) /\ fmat f = Ok A /\ es = func_data m A).
    { intros name es H. cbn [k k_data] in H. apply in_map_iff in H. destruct H as ([A n] & E & H). cbn [fst snd] in E. injection E as <- <-.
      assert (In n (filter (is_func nu) order)) as I by (rewrite <- FSK; apply in_map_iff; now exists (A, n)).
      assert (EG : gen_func m n = Ok (A, n)).
      { clear - Efs H. revert fs Efs H. induction (filter (is_func nu) order) as [|a l IH]; intros fs E H; cbn [rmap] in E; [injection E as <-; destruct H|].
        destruct (gen_func m a) as [b|] eqn:Eb; [|discriminate]. cbn [rbind] in E. destruct (rmap (gen_func m) l) as [bs|]; [|discriminate].
        cbn [rbind] in E. injection E as <-. destruct H as [->|H]; [|now apply (IH bs)]. pose proof (gen_func_key a _ Eb) as X. cbn in X. now subst a. }
      apply filter_In in I. destruct I as [I F]. split; [exact I|]. unfold gen_func in EG.
      destruct (assoc n (funcs m)) as [[f|]|]; cbn [rbind] in EG; try discriminate.
      destruct (fmat f) as [A'|] eqn:FA; cbn [rbind] in EG; [|discriminate]. injection EG as ->. exists f, A. now repeat split. }
    assert (KDA : forall name f, In name order -> assoc name (funcs m) = Some (Ok f) -> In name (map fst (k_data k))).
    { intros name f I F. cbn [k k_data]. rewrite map_map. cbn [fst]. change (map (fun x : mat * string => snd x) fs) with (map snd fs). rewrite FSK. apply filter_In. split; [exact I|]. unfold is_func. fold m. now rewrite F. }
    assert (II : incl (map fst inits) arg_names) by apply GI.
    assert (INIT : forall o, length (ob_args o) = length (args_of m) -> ob_rate o = rate -> (forall name, In name order -> frozen nu o name) ->
      exists o', c_init cinv k o = Ok o' /\ rel nu rate order (fun _ => True) st0 o')
      by (eapply (init_rel nu W HC CL subs rate SD order a_oc cinv a_inv k); eauto using a_srt).
    intros junk LJ.
    assert (CON : exists o, construct cinv k junk = Ok o /\ rel nu rate order (fun _ => True) st0 o)
      by (eapply (construct_rel nu W HC CL subs rate SD order a_oc cinv a_inv k); eauto using a_srt).
    assert (SIM : forall st o, rel nu rate order settled st o -> simulates nu k order st o)
      by (eapply (rel_simulates nu HC CL subs rate SD order k); eauto).
    destruct CON as (o & EC & R). exists o. split; [exact EC|].
    assert (R' : rel nu rate order settled st0 o) by (apply (rel_weak nu rate order (fun _ => True)); [auto|exact R]).
    split; [now apply SIM|]. intros names seq rows st' IN LS EP.
    assert (PR : exists crows o', c_process cinv k names seq o = Ok (crows, o') /\ Forall2 same_row rows crows /\ rel nu rate order settled st' o')
      by (eapply (process_rel nu W HC CL subs rate SD order a_oc cinv a_inv k); eauto using a_act).
    destruct PR as (crows & o' & EC' & FR & R2). exists crows, o'. split; [exact EC'|]. split; [exact FR|]. split; [now apply SIM|].
    destruct (INIT (mkObject (ob_args o') rate (ob_vals o'))) as (o'' & E3 & R3).
    - cbn. rewrite (r_args _ _ _ _ _ _ R2). apply R2.
    - reflexivity.
    - intros name I f A F FA. exact (r_frozen _ _ _ _ _ _ R2 name f A I F FA).
    - exists o''. split; [exact E3|]. apply SIM. apply (rel_weak nu rate order (fun _ => True)); [auto|exact R3].
  Qed.
End Assembly.

Lemma cpp_follows nu deps fuel inits st0 subs rate single cinv : let m := n_method nu in
  wf m -> counters_ok m -> closed nu -> inv_correct (n_inv nu) -> cinv_for (n_inv nu) cinv ->
  same_dictionary nu subs rate -> good_inits single inits -> deps_for m deps -> 4 < fuel ->
  build_numeric nu deps fuel inits = Ok st0 ->
  exists order k, update_actions_deps deps fuel m = Ok order /\
    generate single m subs [subs] rate (n_eps nu) (n_maxit nu) inits (st_vals st0) order = Ok k /\
    forall junk, length junk = length (args_of m) ->
    exists o, construct cinv k junk = Ok o /\ simulates nu k order st0 o /\
    forall names seq rows st', incl names recordable ->
      (forall u p, In (u, p) seq -> length u = length (c_u m) /\ length p = length (c_p m)) ->
      process nu names seq st0 = Ok (rows, st') ->
      exists crows o', c_process cinv k names seq o = Ok (crows, o') /\ Forall2 same_row rows crows /\ simulates nu k order st' o' /\
        exists o'', set_sampleRate cinv k rate o' = Ok o'' /\ simulates nu k order st0 o''.
Proof.
  intros m W HC CL IC CC SD GI DF HF B. destruct (method_order m deps fuel DF HF) as (order & EO & NDO & SF & OI).
  unfold build_numeric in B. fold m in B. destruct (init_args nu inits _) as [st1|] eqn:INI; [|discriminate]. cbn [rbind] in B.
  rewrite EO in B. cbn [rbind] in B.
  destruct (generated nu W HC CL cinv IC CC subs rate SD deps DF order NDO SF) with (single := single) (inits := inits) (st1 := st1) (st0 := st0) as (k & EK & H);
    [|exact GI|exact INI|exact B|].
  - intros d [H|H]; apply OI; [now left|]. right. exists d. split; [exact H|constructor].
  - exists order, k. split; [exact EO|]. now split.
Qed.
