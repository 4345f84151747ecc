(** A numerical core just built: it can only fail on a singular matrix, and it
    holds the initial values and the evaluations at these values. *)
From Coq Require Import String List ZArith QArith Qreals Reals Bool Lia Lra.
From Verif Require Import Py Tools Lists Expr RSum Mat Core Calculus ExprProofs MatProofs Spec_Core StructProofs
  Spec_Calculus Deriv CalculusProofs PowerProofs Subs SubsProofs Method Spec_Method Separable TempProofs
  Numeric Spec_Numeric NumericProofs NumericUpdate NumericStep NumericUpdateOk NumericSim Cpp Spec_Cpp CppProofs CppRefine CppBuild.
Import ListNotations.
Local Open Scope string_scope.
Local Open Scope list_scope.
Local Open Scope nat_scope.

(** ** Operations on values of the right shapes *)

Section Safe.
  Variables (inv : inverter) (get : string -> result value) (sh : string -> option shape).

  Lemma scale_shape x v : vshape (v_scale x v) = vshape v.
  Proof. destruct v; cbn; now rewrite ?map_length. Qed.

  Lemma op_safe op : forall s, op_shape sh op = Some s ->
    (forall d, In d (deps_of op) -> exists v, get d = Ok v /\ forall x, sh d = Some x -> vshape v = x) ->
    safe (eval_op inv get op) (fun v => vshape v = s).
  Proof.
    induction op as [d|q|a IHa b IHb|a IHa b IHb|a IHa b IHb|a IHa|a IHa|a IHa]; intros s HX D; cbn [op_shape deps_of eval_op] in *.
    - destruct (D d (or_introl eq_refl)) as (v & -> & H). cbn. now apply H.
    - injection HX as <-. reflexivity.
    - destruct (op_shape sh a) as [sa|] eqn:SA; [|discriminate]. destruct (op_shape sh b) as [sb|] eqn:SB; [|destruct sa; discriminate].
      specialize (IHa sa eq_refl ltac:(intros d Hd; apply D; apply in_or_app; now left)).
      specialize (IHb sb eq_refl ltac:(intros d Hd; apply D; apply in_or_app; now right)).
      destruct (eval_op inv get a) as [x|]; [|exact IHa]. destruct (eval_op inv get b) as [y|]; [|exact IHb]. cbn -[Nat.ltb] in *.
      destruct x as [x|x|n p X], y as [y|y|n' p' Y]; cbn in IHa, IHb; subst sa sb; try discriminate; cbn -[Nat.ltb] in *.
      + now injection HX as <-.
      + destruct (Nat.eqb_spec (length x) (length y)) as [L|]; [|discriminate]. injection HX as <-. cbn.
        rewrite map_length, combine_length. f_equal. lia.
      + destruct (Nat.eqb n n' && Nat.eqb p p'); [|discriminate]. injection HX as <-. reflexivity.
    - destruct (op_shape sh a) as [sa|] eqn:SA; [|discriminate]. destruct (op_shape sh b) as [sb|] eqn:SB; [|destruct sa; discriminate].
      specialize (IHa sa eq_refl ltac:(intros d Hd; apply D; apply in_or_app; now left)).
      specialize (IHb sb eq_refl ltac:(intros d Hd; apply D; apply in_or_app; now right)).
      destruct (eval_op inv get a) as [x|]; [|exact IHa]. destruct (eval_op inv get b) as [y|]; [|exact IHb]. cbn -[Nat.ltb] in *.
      destruct x as [x|x|n p X]; cbn in IHa; subst sa sb; try discriminate. injection HX as <-. cbn. apply scale_shape.
    - destruct (op_shape sh a) as [sa|] eqn:SA; [|discriminate]. destruct (op_shape sh b) as [sb|] eqn:SB; [|destruct sa; discriminate].
      specialize (IHa sa eq_refl ltac:(intros d Hd; apply D; apply in_or_app; now left)).
      specialize (IHb sb eq_refl ltac:(intros d Hd; apply D; apply in_or_app; now right)).
      destruct (eval_op inv get a) as [x|]; [|exact IHa]. destruct (eval_op inv get b) as [y|]; [|exact IHb]. cbn -[Nat.ltb] in *.
      destruct x as [x|x|n p X]; cbn in IHa; subst sa sb; try discriminate.
      + injection HX as <-. cbn. apply scale_shape.
      + destruct y as [y|y|n' p' Y]; cbn -[Nat.ltb] in HX; try discriminate.
        * destruct (Nat.eqb_spec p (length y)) as [->|]; [|discriminate]. cbn [andb] in HX.
          destruct (Nat.ltb 0 n); [|discriminate]. destruct (Nat.ltb 0 (length y)); [|discriminate]. injection HX as <-.
          cbn. rewrite Nat.eqb_refl. cbn. now rewrite map_length, seq_length.
        * cbn. destruct (Nat.eqb p n'); [|discriminate]. injection HX as <-. reflexivity.
    - destruct (op_shape sh a) as [sa|] eqn:SA; [|discriminate]. specialize (IHa sa eq_refl D).
      destruct (eval_op inv get a) as [x|]; [|exact IHa]. cbn -[Nat.ltb] in *.
      destruct x as [x|x|n p X]; cbn in IHa; subst sa; try discriminate. cbn.
      destruct (Nat.eqb n p); [|discriminate]. injection HX as <-. destruct (inv n X); reflexivity.
    - destruct (op_shape sh a) as [sa|] eqn:SA; [|discriminate]. specialize (IHa sa eq_refl D).
      destruct (eval_op inv get a) as [x|]; [|exact IHa]. cbn -[Nat.ltb] in *.
      destruct x as [x|x|n p X]; cbn in IHa; subst sa; try discriminate. cbn.
      destruct (Nat.ltb 0 (length x)); [|discriminate]. now injection HX as <-.
    - now apply IHa.
  Qed.
End Safe.

(** ** The initial arguments *)

Section Start.
  Variable nu : numeric.
  Let m := n_method nu.
  Hypothesis W : wf m.
  Hypothesis HC : counters_ok m.
  Hypothesis CL : closed nu.
  Let ND : NoDup (args_of m) := proj1 CL.

  Lemma init_args_total : forall inits st, incl (map fst inits) arg_names ->
    (forall n l, In (n, Some l) inits -> length l = group_size m n) ->
    length (st_args st) = length (args_of m) -> exists st', init_args nu inits st = Ok st'.
  Proof.
    induction inits as [|[n v] inits IH]; intros st I LS L; [now exists st|]. cbn [init_args]. fold m.
    assert (X : exists g, assoc n (groups m) = Some g).
    { assert (H : In n arg_names) by (apply I; now left). cbn in H.
      repeat (destruct H as [<-|H]; [eexists; reflexivity|]). destruct H. }
    destruct X as [g G]. rewrite G.
    pose proof (groups_basic m HC ND n g (assoc_in _ _ _ G)) as B. unfold basic in B.
    assert (LI : length (inds_of g m) = length g) by (unfold inds_of, find; rewrite find_inds_length, B; reflexivity). rewrite LI.
    assert (ST : forall vs, length vs = length g -> exists st1, setarg nu g (Ve vs) st = Ok st1 /\ length (st_args st1) = length (args_of m)).
    { intros vs LV. unfold setarg, inds_of. fold m. rewrite (write_ok g (args_of m) (st_args st) vs L) by (rewrite B; exact LV).
      eexists. split; [reflexivity|]. cbn. now rewrite merge_length. }
    assert (GO : forall st1, length (st_args st1) = length (args_of m) -> exists st', init_args nu inits st1 = Ok st').
    { intros st1 L1. apply IH; [intros x Hx; apply I; now right|intros x l Hx; apply LS; now right|exact L1]. }
    destruct v as [l|].
    - pose proof (LS n l (or_introl eq_refl)) as LL. unfold group_size in LL. rewrite G in LL. rewrite LL, Nat.eqb_refl.
      destruct (ST l LL) as (st1 & -> & L1). cbn [rbind]. now apply GO.
    - destruct (ST (repeat 0%R (length g)) (repeat_length _ _)) as (st1 & -> & L1). cbn [rbind]. now apply GO.
  Qed.

  Lemma effect_asked inits n g s : NoDup (map fst inits) -> incl (map fst inits) arg_names -> fits nu (resolve nu inits) ->
    In n arg_names -> assoc n (groups m) = Some g -> In s g ->
    effect nu (resolve nu inits) s (Some 0%R) = assoc s (combine g (asked m inits n)).
  Proof.
    intros NK IC FT I G Hs.
    assert (UQ : forall n' g', In n' arg_names -> assoc n' (groups m) = Some g' -> In s g' -> n' = n).
    { pose proof ND as N. unfold m in N. rewrite (args_groups nu) in N. intros n' g' I' G' S'.
      apply (nodup_flat (group_of nu) arg_names N n' n s I' I); unfold group_of; fold m; [now rewrite G'|now rewrite G]. }
    assert (KR : forall inits, map fst (resolve nu inits) = map fst inits) by (intros; unfold resolve; now rewrite map_map).
    unfold asked. destruct (assoc n inits) as [v|] eqn:E.
    - revert NK IC FT E. generalize (Some 0%R). induction inits as [|[n' v'] inits IH]; intros d NK IC FT E; [discriminate|].
      cbn [resolve map effect fst snd assoc] in *. inversion NK as [|? ? Nn NK']; subst. fold m.
      destruct (String.eqb_spec n' n) as [->|N].
      + injection E as ->. rewrite G. fold (resolve nu inits). fold m. rewrite (effect_no nu (resolve nu inits)).
        * destruct (FT n _ (or_introl eq_refl)) as (g' & G' & L). fold m in G', L. rewrite G in G'. injection G' as <-.
          destruct (assoc_some s g _ L Hs) as [w E']. rewrite E'. destruct v as [l|]; rewrite ?E'; first [reflexivity|now symmetry].
        * intros x g' Hx G' S'. rewrite KR in Hx. rewrite (UQ x g') in Hx; [contradiction|apply IC; now right|exact G'|exact S'].
      + apply IH; [exact NK'|intros x Hx; apply IC; now right|intros x y Hx; apply FT; now right|exact E].
    - rewrite (effect_no nu (resolve nu inits)).
      + destruct (assoc_some s g (repeat 0%R (group_size m n))) as [w E']; [unfold group_size; rewrite G; apply repeat_length|exact Hs|].
        rewrite E'. apply assoc_in, in_combine_r, repeat_spec in E'. now subst.
      + intros x g' Hx G' S'. rewrite KR in Hx. pose proof (UQ x g' (IC x Hx) G' S') as ->.
        destruct (assoc_keys n inits Hx) as [v E']. congruence.
  Qed.

  Variable deps : string -> option (list string).
  Hypothesis DF : deps_for m deps.
  Variable order : list string.
  Hypothesis NDO : NoDup order.
  Hypothesis SF : sorted_for deps order.
  Hypothesis OK : forall n, In n order -> assoc n (groups m) = None ->
    (exists f, assoc n (funcs m) = Some (Ok f)) \/ exists op, assoc n (ops m) = Some op.

  Lemma srt : forall p n rest op d, order = p ++ n :: rest -> assoc n (ops m) = Some op -> In d (deps_of op) -> In d p.
  Proof.
    intros p n rest op d EO O Hd. pose proof (DF n) as D. rewrite O in D. destruct D as (ds & Ed & Hds).
    destruct (SF (length p) n ds d) as (j & Hj & Nj); [rewrite EO, nth_error_app2, Nat.sub_diag by lia; reflexivity|exact Ed|now apply Hds|].
    rewrite EO, nth_error_app1 in Nj by exact Hj. now apply nth_error_In in Nj.
  Qed.

  Lemma build_safe : forall names p st, order = p ++ names -> length (st_args st) = length (args_of m) ->
    (forall d, In d p -> assoc d (groups m) = None -> exists v, st_vals st d = Some v /\ forall x, assoc d (expected m) = Some x -> vshape v = x) ->
    safe (build_evals nu names st) (fun _ => True).
  Proof.
    induction names as [|n names IH]; intros p st EO L HP; [exact I|]. cbn [build_evals]. fold m.
    assert (EO' : order = (p ++ [n]) ++ names) by (rewrite <- app_assoc; exact EO).
    assert (IO : In n order) by (rewrite EO; apply in_or_app; right; now left).
    destruct (assoc n (groups m)) as [g|] eqn:G.
    - apply (IH (p ++ [n]) st EO' L). intros d Hd Gd. apply in_app_or in Hd. destruct Hd as [Hd|[<-|[]]]; [now apply HP|congruence].
    - assert (SV : safe (run_eval nu n st) (fun v => forall x, assoc n (expected m) = Some x -> vshape v = x)).
      { destruct (assoc n (ops m)) as [op|] eqn:O.
        - unfold run_eval. fold m. rewrite O. destruct (ops_shape m HC n op O) as (s & ES & SH).
          assert (X : safe (eval_op (n_inv nu) (fun d => get nu d st) op) (fun v => vshape v = s)).
          { apply (op_safe _ _ (fun d => assoc d (expected m)) op s SH). intros d Hd. unfold get. fold m.
            destruct (assoc d (groups m)) as [g|] eqn:Gd.
            - destruct (get_arg nu HC CL d g st Gd L) as (l & E & LL & _). unfold get in E. fold m in E. rewrite Gd in E.
              exists (Ve l). split; [exact E|]. intros x Hx. cbn. rewrite LL. symmetry. exact (group_expected nu HC d g x Gd Hx).
            - destruct (HP d (srt p n names op d EO O Hd) Gd) as (v & -> & H). exists v. now split. }
          destruct (eval_op (n_inv nu) _ op); [|exact X]. cbn in *. intros x Hx. congruence.
        - destruct (OK n IO G) as [[f F]|[op O']]; [|congruence]. unfold run_eval. fold m. rewrite O, F. cbn [rbind].
          destruct (func_ok nu CL n f st (assoc_in _ _ _ F) L) as (v & E & _). rewrite E. cbn. intros x Hx.
          assert (RE : run_eval nu n st = Ok v) by (unfold run_eval; fold m; rewrite O, F; exact E).
          rewrite (run_eval_func nu n f st v F RE). exact (funcs_shape m W HC n f x F Hx). }
      destruct (run_eval nu n st) as [v|e]; [|exact SV]. cbn [rbind]. cbn in SV.
      apply (IH (p ++ [n]) (set_val n v st) EO'); [exact L|]. intros d Hd Gd. cbn.
      destruct (String.eqb_spec d n) as [->|N]; [exists v; now split|]. apply in_app_or in Hd. destruct Hd as [Hd|[<-|[]]]; [now apply HP|congruence].
  Qed.
End Start.

(** Every name of the update actions that is not a group is evaluable. *)
Lemma names_known m deps d n : wf m -> counters_ok m -> deps_for m deps ->
  n = "dx" \/ In n (action_names m) -> needed deps n d -> assoc d (groups m) = None ->
  (exists f, assoc d (funcs m) = Some (Ok f)) \/ exists op, assoc d (ops m) = Some op.
Proof.
  intros W HC DF I N G. revert I. induction N as [n|n ds d' d E Hd N IH]; intros I.
  - destruct (jac_ok m Sl Sl W HC) as (Fl & Jll & EFl & LFl & EJll & _ & NR1 & NC1).
    destruct (jac_ok m Snl Sl W HC) as (Fnl & Jnll & EFnl & LFnl & EJnll & _ & NR2 & NC2).
    destruct (G_ok m Sl Fl Jll W HC EFl LFl EJll NR1 NC1) as (Gl & EGl & LGl & _).
    destruct (G_ok m Snl Fnl Jnll W HC EFnl LFnl EJnll NR2 NC2) as (Gnl & EGnl & LGnl & _).
    destruct (output_ok m W HC) as (out & EO & _).
    unfold funcs, jacG. rewrite EJll, EJnll, EGl, EGnl, EO. cbn [rbind]. unfold ops.
    destruct I as [->|I]; [discriminate G|].
    unfold action_names, update_actions, preimplicit, implicit, postimplicit in I.
    destruct (has_l m), (has_nl m); vm_compute in I;
    repeat (destruct I as [<-|I]; [first [discriminate G | left; eexists; reflexivity | right; eexists; reflexivity]|]); destruct I.
  - pose proof (DF n) as D. destruct (assoc n (ops m)) as [op|] eqn:O; [|congruence]. destruct D as (ds' & Ed & Hds). rewrite Ed in E. injection E as ->.
    apply IH; [exact G|]. apply Hds in Hd. clear - O Hd. apply in_ops in O.
    unfold action_names, update_actions, preimplicit, implicit, postimplicit.
    destruct O as [[-> ->]|[[HL [H|[H|[]]]]|[HN [H|[H|[H|[H|[H|[H|[H|[]]]]]]]]]]]; try (match goal with E : (_, _) = (_, _) |- _ => injection E as <- <- end);
      destruct (has_l m) eqn:HL', (has_nl m) eqn:HN'; try discriminate; cbn in Hd; vm_compute; intuition.
Qed.

(** The arguments hold what was asked for. *)
Lemma asked_get nu : let m := n_method nu in counters_ok m -> closed nu -> forall inits z st1 st,
  NoDup (map fst inits) -> incl (map fst inits) arg_names -> (forall n l, In (n, Some l) inits -> length l = group_size m n) ->
  init_args nu inits z = Ok st1 -> st_args z = repeat 0%R (length (args_of m)) -> st_args st = st_args st1 ->
  forall n, In n arg_names -> get nu n st = Ok (Ve (asked m inits n)).
Proof.
  intros m HC CL inits z st1 st NK IK LK E1 EZ0 A.
  assert (LZ : length (st_args z) = length (args_of m)) by (rewrite EZ0; apply repeat_length).
  destruct (init_args_ok nu HC CL inits z st1 E1 LZ) as (FT & EV & L1 & Q1).
  intros n Hn. assert (X : exists g, assoc n (groups m) = Some g).
    { cbn in Hn. repeat (destruct Hn as [<-|Hn]; [eexists; reflexivity|]). destruct Hn. }
    destruct X as [g G]. destruct (get_arg nu HC CL n g st G) as (l & E & LL & NL); [unfold sized_state; fold m; now rewrite A|]. rewrite E. f_equal. f_equal.
    assert (LA : length (asked m inits n) = length g).
    { unfold asked, group_size. rewrite G. destruct (assoc n inits) as [[l'|]|] eqn:EI; rewrite ?repeat_length; try reflexivity.
      rewrite (LK n l' (assoc_in _ _ _ EI)). unfold group_size. now rewrite G. }
    assert (NG : NoDup g).
    { pose proof (groups_basic m HC (proj1 CL) n g (assoc_in _ _ _ G)) as B. unfold basic in B. rewrite <- B.
      unfold among. apply NoDup_filter, (proj1 CL). }
    apply (nth_ext _ _ 0%R 0%R); [congruence|]. intros i Hi. rewrite NL by lia.
    set (s := nth i g ""). assert (Hs : In s g) by (apply nth_In; lia).
    assert (HA : In s (args_of m)) by exact (group_in nu n g G s Hs).
    assert (EZ : assoc s (combine (args_of m) (st_args z)) = Some 0%R).
    { destruct (assoc_some s (args_of m) (st_args z) LZ HA) as [w E']. rewrite E'. apply assoc_in, in_combine_r in E'. rewrite EZ0 in E'. apply repeat_spec in E'. now subst. }
    pose proof (Q1 s) as Q. fold m in Q. rewrite EZ, (effect_asked nu CL inits n g s NK IK FT Hn G Hs) in Q. fold m in Q.
    destruct (assoc_some s g (asked m inits n) LA Hs) as [w E']. rewrite E' in Q. rewrite <- A in Q.
    assert (SE : senv nu st s = w).
    { unfold senv, total, call_env. fold m. pose proof CL as (_ & NS & _). rewrite (NS s HA). now rewrite Q. }
    rewrite SE. destruct (assoc_nth s w g (asked m inits n) E') as (j & J1 & J2).
    assert (j = i); [|subst j; symmetry; now apply nth_error_nth].
    apply (proj1 (NoDup_nth_error g) NG); [apply nth_error_Some; congruence|]. rewrite J1. symmetry. apply nth_error_nth'. lia.
Qed.

(** ** The numerical core just built *)
Theorem build_ok nu deps fuel inits : let m := n_method nu in
  wf m -> counters_ok m -> closed nu -> deps_for m deps -> 4 < fuel ->
  NoDup (map fst inits) -> incl (map fst inits) arg_names ->
  (forall n l, In (n, Some l) inits -> length l = group_size m n) ->
  safe (build_numeric nu deps fuel inits) (fun st =>
    length (st_args st) = length (args_of m) /\
    (forall n, In n arg_names -> get nu n st = Ok (Ve (asked m inits n))) /\
    (forall n, In n (action_names m) -> assoc n (groups m) = None ->
       exists v, get nu n st = Ok v /\ run_eval nu n st = Ok v)).
Proof.
  intros m W HC CL DF HF NK IK LK. unfold build_numeric. fold m.
  set (z := mkState (repeat 0%R (length (args_of m))) (fun _ => None) 0).
  assert (LZ : length (st_args z) = length (args_of m)) by apply repeat_length.
  destruct (init_args_total nu HC CL inits z IK LK LZ) as [st1 E1]. rewrite E1. cbn [rbind].
  destruct (method_order m deps fuel DF HF) as (order & EO & NDO & SF & OIN). rewrite EO. cbn [rbind].
  destruct (init_args_ok nu HC CL inits z st1 E1 LZ) as (FT & EV & L1 & Q1).
  assert (OK : forall n, In n order -> assoc n (groups m) = None ->
    (exists f, assoc n (funcs m) = Some (Ok f)) \/ exists op, assoc n (ops m) = Some op).
  { intros n Hn G. apply OIN in Hn. destruct Hn as [Hn|(n' & Hn' & N)].
    - cbn in Hn. repeat (destruct Hn as [<-|Hn]; [discriminate G|]). destruct Hn.
    - apply (names_known m deps n n' W HC DF (or_intror Hn') N G). }
  pose proof (build_safe nu W HC CL deps DF order SF OK order [] st1 eq_refl L1 ltac:(intros d [])) as S.
  destruct (build_evals nu order st1) as [st|e] eqn:EB; [|exact S]. cbn [safe].
  destruct (build_fix nu order NDO (srt nu deps DF order SF) order [] st1 st eq_refl EB) as (A & _ & _ & C).
  split; [now rewrite A|]. split.
  - intros n Hn. exact (asked_get nu HC CL inits z st1 st NK IK LK E1 eq_refl A n Hn).
  - intros n Hn G. assert (IO : In n order) by (apply OIN; right; exists n; split; [exact Hn|constructor]).
    destruct (C n IO G) as (v & E & RE). exists v. split; [|exact RE]. unfold get. fold m. now rewrite G, E.
Qed.

(** ** When it fails *)

Fixpoint inverted (op : operation) : list operation :=
  match op with
  | OName _ | ONum _ => []
  | OAdd a b | OProd a b | ODot a b => inverted a ++ inverted b
  | OInv a => a :: inverted a
  | ONorm a | OCopy a => inverted a
  end.

Lemma op_singular inv get op : (forall d, In d (deps_of op) -> exists v, get d = Ok v) ->
  eval_op inv get op = Err SingularMatrix ->
  exists a k A, In a (inverted op) /\ eval_op inv get a = Ok (Ma k k A) /\ inv k A = None.
Proof.
  induction op as [d|q|a IHa b IHb|a IHa b IHb|a IHa b IHb|a IHa|a IHa|a IHa]; intros D E; cbn [eval_op deps_of inverted] in *.
  - destruct (D d (or_introl eq_refl)) as [v G]. congruence.
  - discriminate.
  - destruct (eval_op inv get a) as [x|e] eqn:EA.
    2: { cbn in E. rewrite E in *. destruct (IHa ltac:(intros d Hd; apply D; apply in_or_app; now left) eq_refl) as (c & k & A & I & Q).
         exists c, k, A. split; [apply in_or_app; now left|exact Q]. }
    cbn [rbind] in E. destruct (eval_op inv get b) as [y|e] eqn:EB.
    2: { cbn in E. rewrite E in *. destruct (IHb ltac:(intros d Hd; apply D; apply in_or_app; now right) eq_refl) as (c & k & A & I & Q).
         exists c, k, A. split; [apply in_or_app; now right|exact Q]. }
    cbn [rbind] in E. exfalso. destruct x, y; cbn in E; try discriminate;
      match type of E with (if ?c then _ else _) = _ => destruct c; discriminate end.
  - destruct (eval_op inv get a) as [x|e] eqn:EA.
    2: { cbn in E. rewrite E in *. destruct (IHa ltac:(intros d Hd; apply D; apply in_or_app; now left) eq_refl) as (c & k & A & I & Q).
         exists c, k, A. split; [apply in_or_app; now left|exact Q]. }
    cbn [rbind] in E. destruct (eval_op inv get b) as [y|e] eqn:EB.
    2: { cbn in E. rewrite E in *. destruct (IHb ltac:(intros d Hd; apply D; apply in_or_app; now right) eq_refl) as (c & k & A & I & Q).
         exists c, k, A. split; [apply in_or_app; now right|exact Q]. }
    cbn [rbind] in E. exfalso. destruct x, y; cbn in E; discriminate.
  - destruct (eval_op inv get a) as [x|e] eqn:EA.
    2: { cbn in E. rewrite E in *. destruct (IHa ltac:(intros d Hd; apply D; apply in_or_app; now left) eq_refl) as (c & k & A & I & Q).
         exists c, k, A. split; [apply in_or_app; now left|exact Q]. }
    cbn [rbind] in E. destruct (eval_op inv get b) as [y|e] eqn:EB.
    2: { cbn in E. rewrite E in *. destruct (IHb ltac:(intros d Hd; apply D; apply in_or_app; now right) eq_refl) as (c & k & A & I & Q).
         exists c, k, A. split; [apply in_or_app; now right|exact Q]. }
    cbn [rbind] in E. exfalso. destruct x, y; cbn in E; try discriminate;
      match type of E with (if ?c then _ else _) = _ => destruct c; discriminate end.
  - destruct (eval_op inv get a) as [x|e] eqn:EA.
    2: { cbn in E. rewrite E in *. destruct (IHa D eq_refl) as (c & k & A & I & Q). exists c, k, A. split; [now right|exact Q]. }
    cbn [rbind] in E. destruct x as [x|x|n p A]; cbn in E; try discriminate. destruct (Nat.eqb_spec n p) as [->|]; [|discriminate].
    destruct (inv p A) as [B|] eqn:EI; [discriminate|]. exists a, p, A. split; [now left|]. now split.
  - destruct (eval_op inv get a) as [x|e] eqn:EA.
    2: { cbn in E. rewrite E in *. destruct (IHa D eq_refl) as (c & k & A & I & Q). exists c, k, A. now split. }
    cbn [rbind] in E. destruct x; discriminate.
  - destruct (IHa D E) as (c & k & A & I & Q). exists c, k, A. now split.
Qed.

Lemma build_err nu : forall names st e, build_evals nu names st = Err e ->
  exists p n rest st', names = p ++ n :: rest /\ build_evals nu p st = Ok st' /\ assoc n (groups (n_method nu)) = None /\ run_eval nu n st' = Err e.
Proof.
  induction names as [|n names IH]; cbn [build_evals]; intros st e E; [discriminate|].
  destruct (assoc n (groups (n_method nu))) as [g|] eqn:G.
  - destruct (IH st e E) as (p & n' & rest & st' & -> & B & Q). exists (n :: p), n', rest, st'.
    split; [reflexivity|]. split; [cbn [build_evals]; now rewrite G|exact Q].
  - destruct (run_eval nu n st) as [v|e'] eqn:RE; cbn [rbind] in E.
    + destruct (IH _ e E) as (p & n' & rest & st' & -> & B & Q). exists (n :: p), n', rest, st'.
      split; [reflexivity|]. split; [cbn [build_evals]; now rewrite G, RE|exact Q].
    + injection E as ->. exists [], n, names, st. now repeat split.
Qed.

Lemma inverted_names m n op a : assoc n (ops m) = Some op -> In a (inverted op) -> exists d, a = OName d /\ op = OInv (OName d).
Proof.
  intros O I. apply in_ops in O.
  destruct O as [[-> ->]|[[HL [H|[H|[]]]]|[HN [H|[H|[H|[H|[H|[H|[H|[]]]]]]]]]]]; try (match goal with E : (_, _) = (_, _) |- _ => injection E as <- <- end);
    try (destruct (has_l m)); cbn in I; try contradiction; destruct I as [<-|[]]; eexists; split; reflexivity.
Qed.

(** The failure is the inversion of a matrix that has its value at the initial
    arguments. *)
Theorem build_fails nu deps fuel inits e : let m := n_method nu in
  wf m -> counters_ok m -> closed nu -> deps_for m deps -> 4 < fuel ->
  NoDup (map fst inits) -> incl (map fst inits) arg_names ->
  (forall n l, In (n, Some l) inits -> length l = group_size m n) ->
  build_numeric nu deps fuel inits = Err e ->
  e = SingularMatrix /\
  exists n d k A st, In (n, OInv (OName d)) (ops m) /\ length (st_args st) = length (args_of m) /\
    (forall n, In n arg_names -> get nu n st = Ok (Ve (asked m inits n))) /\
    get nu d st = Ok (Ma k k A) /\ run_eval nu d st = Ok (Ma k k A) /\ n_inv nu k A = None.
Proof.
  intros m W HC CL DF HF NK IK LK EB.
  pose proof (build_ok nu deps fuel inits W HC CL DF HF NK IK LK) as S. rewrite EB in S. cbn [safe] in S. subst e. split; [reflexivity|].
  unfold build_numeric in EB. fold m in EB.
  set (z := mkState (repeat 0%R (length (args_of m))) (fun _ => None) 0) in EB.
  assert (LZ : length (st_args z) = length (args_of m)) by apply repeat_length.
  destruct (init_args_total nu HC CL inits z IK LK LZ) as [st1 E1]. rewrite E1 in EB. cbn [rbind] in EB.
  destruct (method_order m deps fuel DF HF) as (order & EO & NDO & SF & OIN). rewrite EO in EB. cbn [rbind] in EB.
  destruct (init_args_ok nu HC CL inits z st1 E1 LZ) as (FT & EV & L1 & Q1).
  destruct (build_err nu order st1 _ EB) as (p & n & rest & st & EP & BP & G & RE). fold m in G.
  assert (NP : NoDup p) by (rewrite EP in NDO; exact (nodup_l p _ NDO)).
  pose proof (srt nu deps DF order SF) as SRT. fold m in SRT.
  assert (SP : forall p' n' rest' op d, p = p' ++ n' :: rest' -> assoc n' (ops (n_method nu)) = Some op -> In d (deps_of op) -> In d p').
  { intros p' n' rest' op d E. apply (SRT p' n' (rest' ++ n :: rest)). rewrite EP, E. now rewrite <- app_assoc. }
  destruct (build_fix nu p NP SP p [] st1 st eq_refl BP) as (A & _ & _ & C).
  assert (IO : In n order) by (rewrite EP; apply in_or_app; right; now left).
  assert (L : length (st_args st) = length (args_of m)) by now rewrite A.
  destruct (assoc n (ops m)) as [op|] eqn:O.
  - assert (RE' := RE). unfold run_eval in RE'. fold m in RE'. rewrite O in RE'.
    assert (GD : forall d, In d (deps_of op) -> exists v, get nu d st = Ok v).
    { intros d Hd. pose proof (SRT p n rest op d EP O Hd) as Hp. destruct (assoc d (groups m)) as [g|] eqn:Gd.
      - destruct (get_arg nu HC CL d g st Gd L) as (l & E & _). now exists (Ve l).
      - destruct (C d Hp Gd) as (v & E & _). exists v. unfold get. fold m. now rewrite Gd, E. }
    destruct (op_singular (n_inv nu) (fun d => get nu d st) op GD RE') as (a & k & B & Ia & Ea & Ei).
    destruct (inverted_names m n op a O Ia) as (d & -> & ->). cbn [eval_op] in Ea.
    exists n, d, k, B, st. split; [now apply assoc_in|]. split; [exact L|]. split; [|split; [exact Ea|split; [|exact Ei]]].
    + intros x Hx. exact (asked_get nu HC CL inits z st1 st NK IK LK E1 eq_refl A x Hx).
    + assert (Gd : assoc d (groups m) = None).
      { destruct (assoc d (groups m)) as [g|] eqn:Gd; [|reflexivity]. exfalso.
        destruct (get_arg nu HC CL d g st Gd L) as (l & E & _). congruence. }
      pose proof (SRT p n rest (OInv (OName d)) d EP O (or_introl eq_refl)) as Hp.
      destruct (C d Hp Gd) as (v & E & R'). rewrite R'. unfold get in Ea. fold m in Ea. rewrite Gd, E in Ea. exact Ea.
  - exfalso. assert (OK : (exists f, assoc n (funcs m) = Some (Ok f)) \/ exists op, assoc n (ops m) = Some op).
    { apply OIN in IO. destruct IO as [Hn|(n' & Hn' & N)].
      - cbn in Hn. repeat (destruct Hn as [<-|Hn]; [discriminate G|]). destruct Hn.
      - apply (names_known m deps n n' W HC DF (or_intror Hn') N G). }
    destruct OK as [[f F]|[op O']]; [|congruence].
    unfold run_eval in RE. fold m in RE. rewrite O, F in RE. cbn [rbind] in RE.
    destruct (func_ok nu CL n f st (assoc_in _ _ _ F) L) as (v & E & _). congruence.
Qed.
