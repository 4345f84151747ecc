(** The commands of an update, one after the other. *)
From Coq Require Import String List ZArith QArith Qreals Reals Bool Lia Lra.
From Verif Require Import Py Tools Lists Expr RSum Mat Core Calculus ExprProofs MatProofs Spec_Core StructProofs
  Spec_Calculus Deriv CalculusProofs PowerProofs Subs SubsProofs Method Spec_Method Separable TempProofs
  Numeric Spec_Numeric NumericProofs NumericUpdate.
Import ListNotations.
Local Open Scope string_scope.
Local Open Scope list_scope.
Local Open Scope nat_scope.

Lemma forall2_len {A B} (P : A -> B -> Prop) l k : Forall2 P l k -> length l = length k.
Proof. induction 1; cbn; congruence. Qed.

Section Step.
  Variable nu : numeric.
  Let m := n_method nu.
  Hypothesis W : wf m.
  Hypothesis HC : counters_ok m.
  Hypothesis CY : c_cy m = [].
  Hypothesis CL : closed nu.
  Hypothesis IC : inv_correct (n_inv nu).

  Let ND : NoDup (args_of m) := proj1 CL.

  Definition sized_state (st : state) : Prop := length (st_args st) = length (args_of m).

  (** Content of the value of a function. *)
  Definition content (f : fexpr) (r : env) (v : value) : Prop :=
    match f with
    | FE e => v = Sc (eval r e)
    | FV l => isV v (length l) (fun i => eval r (nth i l (Num 0)))
    | FM A => isM v (nr A) (nc A) (fun i j => eval r (ent A i j))
    end.

  Lemma func_ok name f st : In (name, Ok f) (funcs m) -> sized_state st ->
    exists v, eval_func nu f st = Ok v /\ content f (senv nu st) v.
  Proof.
    intros HF L. pose proof CL as (_ & SUB & COV). specialize (COV name f).
    unfold eval_func. fold m. set (g := fexpr_symbols f) in *.
    pose proof (find_names g (args_of m) 0) as FN. fold (find String.eqb g (args_of m)) in FN.
    pose proof (read_ok g (args_of m) (st_args st) L) as RD.
    destruct (find String.eqb g (args_of m)) as [names inds]. cbn [fst snd] in FN, RD. subst names.
    rewrite RD. cbn [rbind].
    set (e := call_env (n_subs nu) (among (args_of m) g) (picks g (args_of m) (st_args st))).
    assert (Q : forall s, In s g -> e s = call_env (n_subs nu) (args_of m) (st_args st) s /\ exists v, e s = Some v).
    { intros s Hs. assert (E : e s = call_env (n_subs nu) (args_of m) (st_args st) s).
      { unfold e, call_env. destruct (assoc s (n_subs nu)); [reflexivity|].
        apply assoc_picks; [exact L|now apply existsb_in]. }
      split; [exact E|]. rewrite E. unfold call_env. destruct (COV s HF Hs) as [I|I].
      - rewrite (SUB s I). now apply assoc_some.
      - destruct (assoc_keys s _ I) as [v ->]. now exists v. }
    assert (CV : covers e g = true).
    { unfold covers. apply forallb_forall. intros s Hs. destruct (Q s Hs) as [_ [v ->]]. reflexivity. }
    rewrite CV. eexists. split; [reflexivity|].
    assert (EV : forall e0, (forall s, In s (free_symbols e0) -> In s g) -> eval (total e) e0 = eval (senv nu st) e0).
    { intros e0 H. apply eval_ext. intros s Hs. unfold senv, total. fold m. now rewrite (proj1 (Q s (H s Hs))). }
    destruct f as [e0|l|A]; cbn [fexpr_eval content].
    - now rewrite EV by (intros s Hs; exact Hs).
    - eexists. split; [reflexivity|]. split; [apply map_length|]. intros i Hi.
      rewrite (nth_indep _ 0%R (eval (total e) (Num 0))) by (rewrite map_length; exact Hi). rewrite map_nth.
      apply EV. intros s Hs. unfold g. cbn [fexpr_symbols]. apply in_flat_map. exists (nth i l (Num 0)).
      split; [now apply nth_In|exact Hs].
    - eexists. split; [reflexivity|]. intros i j Hi Hj. apply EV. intros s Hs. unfold g. cbn [fexpr_symbols].
      unfold mat_symbols. apply in_flat_map. exists i. split; [apply in_seq; lia|].
      apply in_flat_map. exists j. split; [apply in_seq; lia|exact Hs].
  Qed.

  Lemma get_group g st : basic g m -> sized_state st -> (forall s, In s g -> In s (args_of m)) ->
    exists v, getarg nu g st = Ok v /\ isV v (length g) (fun i => senv nu st (nth i g "")).
  Proof.
    intros BG L IN. pose proof CL as (_ & SUB & _). unfold basic in BG.
    destruct (getarg_holds nu g st ND L) as (l & E & F). fold m in F. rewrite BG in F.
    assert (LL : length g = length l) by (exact (forall2_len _ _ _ F)).
    exists (Ve l). split; [exact E|]. exists l. split; [reflexivity|]. split; [symmetry; exact LL|].
    intros i Hi.
    assert (H : holds (args_of m) st (nth i g "") (nth i l 0%R)).
    { clear - F Hi. revert i Hi. induction F as [|s v g l H F IH]; intros i Hi; cbn in Hi; [lia|].
      destruct i as [|i]; [exact H|]. apply IH. lia. }
    apply holds_iff in H; [|exact ND]. unfold senv, total, call_env. fold m.
    rewrite (SUB (nth i g "")) by (apply IN; now apply nth_In). now rewrite H.
  Qed.

  Lemma set_group g st v f : basic g m -> sized_state st -> (forall s, In s g -> In s (args_of m)) -> isV v (length g) f ->
    exists st', setarg nu g v st = Ok st' /\ sized_state st' /\ st_vals st' = st_vals st /\ st_it st' = st_it st /\
      (forall i, i < length g -> senv nu st' (nth i g "") = f i) /\ agree_off g (senv nu st) (senv nu st').
  Proof.
    intros BG L IN (vs & -> & LV & NV). pose proof CL as (_ & SUB & _). unfold basic in BG.
    destruct (setarg_holds nu g vs st ND L) as (st' & E & V & IT & L' & F & O); [fold m; rewrite BG; exact LV|].
    fold m in L', F, O. rewrite BG in F. exists st'. split; [exact E|]. split; [exact L'|]. split; [exact V|]. split; [exact IT|]. split.
    - intros i Hi. rewrite <- NV by exact Hi.
      assert (H : holds (args_of m) st' (nth i g "") (nth i vs 0%R)).
      { clear - F Hi. revert i Hi. induction F as [|s v g l H F IH]; intros i Hi; cbn in Hi; [lia|].
        destruct i as [|i]; [exact H|]. apply IH. lia. }
      apply holds_iff in H; [|exact ND]. unfold senv, total, call_env. fold m.
      rewrite (SUB (nth i g "")) by (apply IN; now apply nth_In). now rewrite H.
    - intros s Hs. unfold senv, total, call_env. fold m. destruct (assoc s (n_subs nu)) eqn:ES; [reflexivity|].
      destruct (assoc s (combine (args_of m) (st_args st))) as [v|] eqn:E1.
      + apply holds_iff in E1; [|exact ND]. apply (O s v Hs) in E1. apply holds_iff in E1; [|exact ND]. now rewrite E1.
      + destruct (assoc s (combine (args_of m) (st_args st'))) as [v|] eqn:E2; [|reflexivity].
        apply holds_iff in E2; [|exact ND]. apply (O s v Hs) in E2. apply holds_iff in E2; [|exact ND]. congruence.
  Qed.

  Definition has (st : state) (name : string) (P : value -> Prop) : Prop :=
    exists v, st_vals st name = Some v /\ P v.

  Lemma has_same st name v (P : value -> Prop) : P v -> has (set_val name v st) name P.
  Proof. intros H. exists v. cbn. rewrite String.eqb_refl. now split. Qed.
  Lemma has_other st name n v P : String.eqb name n = false -> has st name P -> has (set_val n v st) name P.
  Proof. intros E (x & V & H). exists x. cbn. rewrite E. now split. Qed.
  Lemma has_impl st name (P Q : value -> Prop) : (forall v, P v -> Q v) -> has st name P -> has st name Q.
  Proof. intros H (v & V & PV). exists v. split; [exact V|now apply H]. Qed.
  Lemma has_vals st st' name P : st_vals st' = st_vals st -> has st name P -> has st' name P.
  Proof. intros E (v & V & H). exists v. rewrite E. now split. Qed.
  Lemma get_has st name P : assoc name (groups m) = None -> has st name P ->
    exists v, get nu name st = Ok v /\ P v.
  Proof. intros G (v & V & H). exists v. unfold get. fold m. rewrite G, V. now split. Qed.

  Lemma sized_set st n v : sized_state st -> sized_state (set_val n v st).
  Proof. intros H. exact H. Qed.

  (** A command that stores a function. *)
  Lemma exec_fun name f l st Q : assoc name (groups m) = None -> assoc name (ops m) = None ->
    assoc name (funcs m) = Some (Ok f) -> sized_state st ->
    (forall v, content f (senv nu st) v -> safe (execs nu l (set_val name v st)) Q) ->
    safe (execs nu (same name :: l) st) Q.
  Proof.
    intros G O F L H. pose proof (assoc_in _ _ _ F) as I. unfold same. cbn [execs]. unfold run_eval. fold m. rewrite O, F. cbn [rbind].
    destruct (func_ok name f st I L) as (v & -> & C). cbn [rbind].
    unfold set. fold m. rewrite G. unfold known. fold m. rewrite O, F. cbn [rbind]. now apply H.
  Qed.

  (** A command that stores an operation. *)
  Lemma exec_op name o l st (P : value -> Prop) Q : assoc name (groups m) = None ->
    assoc name (ops m) = Some o ->
    safe (eval_op (n_inv nu) (fun s => get nu s st) o) P ->
    (forall v, P v -> safe (execs nu l (set_val name v st)) Q) ->
    safe (execs nu (same name :: l) st) Q.
  Proof.
    intros G O HS H. unfold same. cbn [execs]. unfold run_eval. fold m. rewrite O.
    apply (safe_bind _ _ P); [exact HS|]. intros v Pv. unfold set. fold m. rewrite G. unfold known. fold m. rewrite O.
    cbn [rbind]. now apply H.
  Qed.

  (** A command that sets a group of arguments to an operation or a function. *)
  Lemma exec_arg name e g f l st Q : assoc name (groups m) = Some g -> basic g m ->
    (forall s, In s g -> In s (args_of m)) -> sized_state st ->
    safe (run_eval nu e st) (fun v => isV v (length g) f) ->
    (forall st', sized_state st' -> st_vals st' = st_vals st -> st_it st' = st_it st ->
       (forall i, i < length g -> senv nu st' (nth i g "") = f i) -> agree_off g (senv nu st) (senv nu st') ->
       safe (execs nu l st') Q) ->
    safe (execs nu ((name, e) :: l) st) Q.
  Proof.
    intros G BG IN L HE H. cbn [execs]. apply (safe_bind _ _ (fun v => isV v (length g) f)); [exact HE|].
    intros v Hv. unfold set. fold m. rewrite G.
    destruct (set_group g st v f BG L IN Hv) as (st' & E & L' & V & IT & S & A). rewrite E. cbn [rbind]. now apply H.
  Qed.

  Lemma run_op name o st P : assoc name (ops m) = Some o ->
    safe (eval_op (n_inv nu) (fun s => get nu s st) o) P -> safe (run_eval nu name st) P.
  Proof. intros O H. unfold run_eval. fold m. now rewrite O. Qed.
  Lemma run_fun name f st : assoc name (ops m) = None -> assoc name (funcs m) = Some (Ok f) ->
    sized_state st -> safe (run_eval nu name st) (content f (senv nu st)).
  Proof.
    intros O F L. pose proof (assoc_in _ _ _ F) as I. unfold run_eval. fold m. rewrite O, F. cbn [rbind]. apply safe_ok. now apply func_ok with name.
  Qed.

  (** ** The functions *)

  Let l := nv m Sl.
  Let n := nv m Snl.

  Variables Fl Fnl out : list expr.
  Variables Jll Jnll : mat.
  Variables Gl Gnl : list expr.
  Hypothesis EFl : tempF Sl m = Ok Fl.
  Hypothesis EFnl : tempF Snl m = Ok Fnl.
  Hypothesis LFl : length Fl = l.
  Hypothesis LFnl : length Fnl = n.
  Hypothesis EJll : jactempF Sl Sl m = Ok Jll.
  Hypothesis EJnll : jactempF Snl Sl m = Ok Jnll.
  Hypothesis JLL : Jll = jacobian Fl (v_of Sl m).
  Hypothesis JNLL : Jnll = jacobian Fnl (v_of Sl m).
  Hypothesis EGl : G_of Sl m = Ok Gl.
  Hypothesis EGnl : G_of Snl m = Ok Gnl.
  Hypothesis LGl : length Gl = l.
  Hypothesis LGnl : length Gnl = n.
  Hypothesis VGl : forall r i, i < l -> (eval r (nth i Gl (Num 0)) = eval r (nth i Fl (Num 0)) -
       rsum l (fun j => eval r (ent Jll i j) * r (nth j (v_of Sl m) "")))%R.
  Hypothesis VGnl : forall r i, i < n -> (eval r (nth i Gnl (Num 0)) = eval r (nth i Fnl (Num 0)) -
       rsum l (fun j => eval r (ent Jnll i j) * r (nth j (v_of Sl m) "")))%R.
  Hypothesis EO : output m = Ok out.
  Hypothesis LO : length out = length (c_y m).
  Hypothesis LP : linear_part m.

  Lemma dims_Jll : nr Jll = l /\ nc Jll = l.
  Proof. rewrite JLL. cbn [jacobian nr nc]. split; [exact LFl|now apply v_of_len]. Qed.
  Lemma dims_Jnll : nr Jnll = n /\ nc Jnll = l.
  Proof. rewrite JNLL. cbn [jacobian nr nc]. split; [exact LFnl|now apply v_of_len]. Qed.

  Lemma v_in_args s : In s (v_of Sall m) -> In s (args_of m).
  Proof.
    unfold v_of, dx_of, w_of, cut, args_of. intros H. apply in_app_or in H. rewrite !in_app_iff. intuition.
  Qed.
  Lemma cut_incl {A} s k (x : list A) a : In a (cut s k x) -> In a x.
  Proof.
    assert (K : forall (y : list A) k, In a (firstn k y) -> In a y).
    { intros y. induction y as [|b y IH]; intros [|k'] H'; cbn in *; try contradiction. destruct H' as [->|H']; [now left|right; now apply (IH k')]. }
    assert (K2 : forall (y : list A) k, In a (skipn k y) -> In a y).
    { intros y. induction y as [|b y IH]; intros [|k'] H'; cbn in *; auto. right. now apply (IH k'). }
    destruct s; cbn [cut]; [auto| |]; unfold py_slice; intros H; apply K in H; now apply K2 in H.
  Qed.
  Lemma v_sub s a : In a (v_of s m) -> In a (v_of Sall m).
  Proof.
    unfold v_of, dx_of, w_of. intros H. apply in_app_or in H. apply in_or_app. cbn [cut].
    destruct H as [H|H]; apply cut_incl in H; auto.
  Qed.

  (** Jacobians of the linear part do not change when the unknowns do. *)
  Lemma J_same a J r r' i j : jactempF a Sl m = Ok J -> i < nr J -> j < nc J ->
    agree_off (v_of Sall m) r r' -> eval r (ent J i j) = eval r' (ent J i j).
  Proof.
    intros E Hi Hj AG. apply eval_ext. intros s Hs. symmetry. apply AG. now apply (LP a J i j s).
  Qed.

  (** ** Names *)

  Lemma has_l_iff : has_l m = true <-> 0 < l.
  Proof.
    unfold has_l, l, nv. rewrite Z.ltb_lt. pose proof HC as [Hx Hw]. unfold dim_xl, dim_wl. cbn [bx bw len]. lia.
  Qed.
  Lemma has_nl_iff : has_nl m = true <-> 0 < n.
  Proof.
    unfold has_nl, n, nv. rewrite Z.ltb_lt. pose proof HC as [Hx Hw].
    unfold dim_xnl, dim_wnl, dim_xl, dim_wl, dim_x, dim_w. cbn [bx bw len]. lia.
  Qed.

  Lemma f_udo : assoc "ud_o" (funcs m) = Some (Ok (FV (map snd (c_observers m)))).
  Proof. reflexivity. Qed.
  Lemma f_dxH : assoc "dxH" (funcs m) = Some (Ok (FV (dxH m))).
  Proof. reflexivity. Qed.
  Lemma f_z : assoc "z" (funcs m) = Some (Ok (FV (c_z m))).
  Proof. reflexivity. Qed.
  Lemma f_y : assoc "y" (funcs m) = Some (Ok (FV out)).
  Proof. unfold funcs. rewrite EO. reflexivity. Qed.
  Lemma f_Jll : assoc "jactempFll" (funcs m) = Some (Ok (FM Jll)).
  Proof. unfold funcs. rewrite EJll. reflexivity. Qed.
  Lemma f_Jnll : assoc "jactempFnll" (funcs m) = Some (Ok (FM Jnll)).
  Proof. unfold funcs. rewrite EJnll. reflexivity. Qed.
  Lemma f_Gl : assoc "Gl" (funcs m) = Some (Ok (FV Gl)).
  Proof. unfold funcs. rewrite EGl. reflexivity. Qed.
  Lemma f_Gnl : assoc "Gnl" (funcs m) = Some (Ok (FV Gnl)).
  Proof. unfold funcs. rewrite EGnl. reflexivity. Qed.
  Lemma f_JGl : assoc "jacGlnl" (funcs m) = Some (Ok (FM (jacobian Gl (v_of Snl m)))).
  Proof. unfold funcs, jacG. rewrite EGl. reflexivity. Qed.
  Lemma f_JGnl : assoc "jacGnlnl" (funcs m) = Some (Ok (FM (jacobian Gnl (v_of Snl m)))).
  Proof. unfold funcs, jacG. rewrite EGnl. reflexivity. Qed.

  Lemma in_groups name g : assoc name (groups m) = Some g -> basic g m.
  Proof. intros H. apply (groups_basic m HC ND name). now apply assoc_in. Qed.

  Lemma v_len a : length (v_of a m) = nv m a.
  Proof. now apply v_of_len. Qed.

  (** Content of the reduced function and of its jacobian. *)
  Definition redF (B : nat -> nat -> R) (r : env) (i : nat) : R :=
    (eval r (nth i Gnl (Num 0)) +
     mv_ l (fun i j => eval r (ent Jnll i j)) (mv_ l B (fun k => Q2R (-1) * eval r (nth k Gl (Num 0)))) i)%R.
  Definition redJ (B : nat -> nat -> R) (r : env) (i j : nat) : R :=
    (eval r (diff (nth j (v_of Snl m) "") (nth i Gnl (Num 0))) +
     mm l (fun i j => eval r (ent Jnll i j))
       (mm l B (fun k j => Q2R (-1) * eval r (diff (nth j (v_of Snl m) "") (nth k Gl (Num 0))))) i j)%R.

  Definition invll (B : nat -> nat -> R) (r : env) : Prop :=
    is_inverse l (fun i j => eval r (ent Jll i j)) B.

  (** What the state holds before the evaluation of the reduced function. *)
  Definition linpart (B : nat -> nat -> R) (st : state) : Prop :=
    sized_state st /\
    (has_l m = true -> has st "ijactempFll" (fun v => isM v l l B) /\ invll B (senv nu st) /\
       has st "Gl" (fun v => isV v l (fun i => eval (senv nu st) (nth i Gl (Num 0)))) /\
       (has_nl m = true -> has st "jactempFnll" (fun v => isM v n l (fun i j => eval (senv nu st) (ent Jnll i j))))) /\
    (has_l m = false -> l = 0).
  Definition fresh (B : nat -> nat -> R) (st : state) : Prop :=
    linpart B st /\
    (has_nl m = true -> has st "Fnl" (fun v => isV v n (redF B (senv nu st))) /\
       has st "res_Fnl" (fun v => v = Sc (fnorm n (redF B (senv nu st))))).

  Lemma senv_set st name v : senv nu (set_val name v st) = senv nu st.
  Proof. reflexivity. Qed.

  Lemma norm_V v k f : isV v k f -> v_norm v = Ok (Sc (fnorm k f)).
  Proof.
    intros (y & -> & L & N). cbn [v_norm]. do 2 f_equal. unfold norm, fnorm. f_equal. subst k.
    revert f N. induction y as [|a y IH]; intros f N; [reflexivity|]. cbn [map fold_right length].
    change (S (length y)) with (1 + length y). rewrite rsum_app. cbn [rsum]. rewrite (IH (fun i => f (S i))).
    - rewrite <- (N 0) by (cbn; lia). cbn [nth]. rewrite Rplus_0_l. reflexivity.
    - intros i Hi. apply (N (S i)). cbn. lia.
  Qed.

  Ltac names HL HN := first [reflexivity | unfold ops; rewrite ?HL, ?HN; reflexivity].

  Lemma linpart_set B st name v : linpart B st ->
    String.eqb "ijactempFll" name = false -> String.eqb "Gl" name = false -> String.eqb "jactempFnll" name = false ->
    linpart B (set_val name v st).
  Proof.
    intros (S & P & Z) N1 N2 N3. split; [exact S|]. split; [|exact Z]. intros HL. destruct (P HL) as (H1 & H2 & H3 & H4).
    split; [now apply has_other|]. split; [exact H2|]. split; [now apply has_other|]. intros HN. apply has_other; auto.
  Qed.

  Lemma get_name st name P : assoc name (groups m) = None -> has st name P ->
    safe (eval_op (n_inv nu) (fun s => get nu s st) (OName name)) P.
  Proof. intros G H. cbn [eval_op]. apply safe_ok. now apply get_has. Qed.

  (** The reduced function is evaluated from its parts. *)
  Lemma op_Fnl B st : has_nl m = true -> linpart B st ->
    has st "Gnl" (fun v => isV v n (fun i => eval (senv nu st) (nth i Gnl (Num 0)))) ->
    exists o, assoc "Fnl" (ops m) = Some o /\
      safe (eval_op (n_inv nu) (fun s => get nu s st) o) (fun v => isV v n (redF B (senv nu st))).
  Proof.
    intros HN (S & P & Z) HG. destruct (has_l m) eqn:HL.
    - destruct (P eq_refl) as (H1 & H2 & H3 & H4). specialize (H4 HN).
      eexists. split; [unfold ops; rewrite HL, HN; reflexivity|]. cbn [eval_op].
      destruct (get_has st "Gnl" _ eq_refl HG) as (g & -> & Hg). cbn [rbind].
      destruct (get_has st "jactempFnll" _ eq_refl H4) as (j & -> & Hj). cbn [rbind].
      destruct (get_has st "ijactempFll" _ eq_refl H1) as (b & -> & Hb). cbn [rbind].
      destruct (get_has st "Gl" _ eq_refl H3) as (gl & -> & Hgl). cbn [rbind v_dot].
      destruct (dot_MV b _ l l B _ Hb (scale_V (Q2R (-1)) gl _ _ Hgl)) as (c1 & -> & Hc1). cbn [rbind].
      destruct (dot_MV j c1 n l _ _ Hj Hc1) as (c2 & -> & Hc2). cbn [rbind].
      destruct (add_V g c2 n _ _ Hg Hc2) as (c3 & -> & Hc3). exact Hc3.
    - eexists. split; [unfold ops; rewrite HL, HN; reflexivity|]. cbn [eval_op].
      destruct (get_has st "Gnl" _ eq_refl HG) as (g & -> & Hg). cbn.
      revert Hg. apply isV_ext. intros i Hi. unfold redF, mv_ at 1. rewrite (Z eq_refl). cbn [rsum]. lra.
  Qed.

  Lemma op_jacFnl B st : has_nl m = true -> linpart B st ->
    (has_l m = true -> has st "jacGlnl" (fun v => isM v l n (fun i j => eval (senv nu st) (diff (nth j (v_of Snl m) "") (nth i Gl (Num 0)))))) ->
    has st "jacGnlnl" (fun v => isM v n n (fun i j => eval (senv nu st) (diff (nth j (v_of Snl m) "") (nth i Gnl (Num 0))))) ->
    exists o, assoc "jacFnl" (ops m) = Some o /\
      safe (eval_op (n_inv nu) (fun s => get nu s st) o) (fun v => isM v n n (redJ B (senv nu st))).
  Proof.
    intros HN (S & P & Z) HJ HG. destruct (has_l m) eqn:HL.
    - destruct (P eq_refl) as (H1 & H2 & H3 & H4). specialize (H4 HN). specialize (HJ eq_refl).
      eexists. split; [unfold ops; rewrite HL, HN; reflexivity|]. cbn [eval_op].
      destruct (get_has st "jacGnlnl" _ eq_refl HG) as (g & -> & Hg). cbn [rbind].
      destruct (get_has st "jactempFnll" _ eq_refl H4) as (j & -> & Hj). cbn [rbind].
      destruct (get_has st "ijactempFll" _ eq_refl H1) as (b & -> & Hb). cbn [rbind].
      destruct (get_has st "jacGlnl" _ eq_refl HJ) as (gl & -> & Hgl). cbn [rbind v_dot].
      destruct (dot_MM b _ l l n B _ Hb (scale_M (Q2R (-1)) gl _ _ _ Hgl)) as (c1 & -> & Hc1). cbn [rbind].
      destruct (dot_MM j c1 n l n _ _ Hj Hc1) as (c2 & -> & Hc2). cbn [rbind].
      destruct (add_M g c2 n n _ _ Hg Hc2) as (c3 & -> & Hc3). exact Hc3.
    - eexists. split; [unfold ops; rewrite HL, HN; reflexivity|]. cbn [eval_op].
      destruct (get_has st "jacGnlnl" _ eq_refl HG) as (g & -> & Hg). cbn.
      revert Hg. apply isM_ext. intros i j Hi Hj. unfold redJ, mm at 1. rewrite (Z eq_refl). cbn [rsum]. lra.
  Qed.

  Lemma c_Gnl st v : content (FV Gnl) (senv nu st) v -> isV v n (fun i => eval (senv nu st) (nth i Gnl (Num 0))).
  Proof. cbn [content]. now rewrite LGnl. Qed.
  Lemma c_Gl st v : content (FV Gl) (senv nu st) v -> isV v l (fun i => eval (senv nu st) (nth i Gl (Num 0))).
  Proof. cbn [content]. now rewrite LGl. Qed.

  (** Gnl, Fnl and its norm are evaluated. *)
  Lemma tail_ok B st k Q : has_nl m = true -> linpart B st ->
    (forall st', fresh B st' -> st_args st' = st_args st -> st_it st' = st_it st ->
       (forall s, s <> "Gnl" -> s <> "Fnl" -> s <> "res_Fnl" -> st_vals st' s = st_vals st s) -> safe (execs nu k st') Q) ->
    safe (execs nu (same "Gnl" :: same "Fnl" :: same "res_Fnl" :: k) st) Q.
  Proof.
    intros HN LPT H. apply (exec_fun "Gnl" (FV Gnl)); [reflexivity| |exact f_Gnl|apply LPT|].
    { unfold ops. destruct (has_l m); rewrite HN; reflexivity. }
    intros v Hv. apply c_Gnl in Hv. set (st1 := set_val "Gnl" v st).
    assert (L1 : linpart B st1) by (now apply linpart_set).
    destruct (op_Fnl B st1 HN L1) as (o & AO & SO); [apply has_same; exact Hv|].
    apply (exec_op "Fnl" o _ _ _ _ eq_refl AO SO). intros f Hf. set (st2 := set_val "Fnl" f st1).
    assert (L2 : linpart B st2) by (now apply linpart_set).
    apply (exec_op "res_Fnl" (ONorm (OName "Fnl")) _ _ (fun v => v = Sc (fnorm n (redF B (senv nu st2)))) _ eq_refl).
    { unfold ops. destruct (has_l m); rewrite HN; reflexivity. }
    { cbn [eval_op]. destruct (get_has st2 "Fnl" (fun v => isV v n (redF B (senv nu st2))) eq_refl) as (f' & -> & Hf').
      { apply has_same. exact Hf. }
      cbn [rbind]. rewrite (norm_V _ _ _ Hf'). reflexivity. }
    intros w Hw. apply H; [|reflexivity|reflexivity|].
    - split; [now apply linpart_set|]. intros _. split; [|now apply has_same].
      apply has_other; [reflexivity|]. apply has_same. exact Hf.
    - intros s N1 N2 N3. cbn. apply String.eqb_neq in N1, N2, N3. now rewrite N1, N2, N3.
  Qed.

  (** ** Before the loop *)

  Definition advanced (r r1 r' : env) : Prop :=
    agree_off (c_x m) r r1 /\ (forall i, i < length (c_x m) ->
      (r1 (nth i (c_x m) "") = r (nth i (c_x m) "") + r (nth i (dx m) ""))%R) /\
    agree_off (o_of m) r1 r' /\ (forall i, i < length (c_observers m) ->
      r' (nth i (o_of m) "") = eval r1 (nth i (map snd (c_observers m)) (Num 0))).

  Lemma pre_ok st : sized_state st ->
    safe (execs nu (preimplicit m) st) (fun st' =>
      st_it st' = st_it st /\ (exists B, fresh B st') /\ exists r1, advanced (senv nu st) r1 (senv nu st')).
  Proof.
    intros L. unfold preimplicit. cbn [app].
    apply (exec_arg "x" "ud_x" (c_x m) (fun i => senv nu st (nth i (c_x m) "") + senv nu st (nth i (dx m) ""))%R);
      [reflexivity|now apply (in_groups "x")|intros s Hs; unfold args_of; rewrite !in_app_iff; auto|exact L| |].
    { apply (run_op "ud_x" (OAdd (OName "x") (OName "dx"))); [reflexivity|]. cbn [eval_op].
      unfold get. fold m. cbn [groups assoc]. cbn [String.eqb Ascii.eqb Bool.eqb].
      destruct (get_group (c_x m) st) as (a & -> & Ha);
        [now apply (in_groups "x")|exact L|intros s Hs; unfold args_of; rewrite !in_app_iff; auto|].
      destruct (get_group (dx m) st) as (b & -> & Hb);
        [now apply (in_groups "dx")|exact L|intros s Hs; unfold args_of; rewrite !in_app_iff; auto|].
      cbn [rbind]. rewrite dx_length in Hb.
      destruct (add_V a b _ _ _ Ha Hb) as (c & -> & Hc). exact Hc. }
    intros st1 L1 V1 I1 X1 A1.
    apply (exec_arg "o" "ud_o" (o_of m) (fun i => eval (senv nu st1) (nth i (map snd (c_observers m)) (Num 0))));
      [reflexivity|now apply (in_groups "o")|intros s Hs; unfold args_of; rewrite !in_app_iff; auto 10|exact L1| |].
    { apply (safe_impl _ (content (FV (map snd (c_observers m))) (senv nu st1))).
      - intros v Hv. cbn [content] in Hv. unfold o_of. rewrite map_length in Hv |- *. exact Hv.
      - apply (run_fun "ud_o"); [|reflexivity|exact L1]. unfold ops. destruct (has_l m), (has_nl m); reflexivity. }
    intros st2 L2 V2 I2 X2 A2.
    assert (ADV : advanced (senv nu st) (senv nu st1) (senv nu st2)).
    { split; [exact A1|]. split; [exact X1|]. split; [exact A2|]. intros i Hi. apply X2. unfold o_of. now rewrite map_length. }
    assert (IT : st_it st2 = st_it st) by congruence.
    clear X1 A1 X2 A2 V1 V2 L1 I1 I2.
    set (K := when (has_nl m) (when (has_l m) [same "jactempFnll"] ++ [same "Gnl"; same "Fnl"; same "res_Fnl"])).
    assert (KOK : forall B st3, sized_state st3 -> st_args st3 = st_args st2 -> st_it st3 = st_it st2 ->
       (has_l m = false -> l = 0) ->
       (has_l m = true -> has st3 "ijactempFll" (fun v => isM v l l B) /\ invll B (senv nu st3) /\
         has st3 "Gl" (fun v => isV v l (fun i => eval (senv nu st3) (nth i Gl (Num 0))))) ->
       safe (execs nu K st3) (fun st' => st_it st' = st_it st /\ (exists B, fresh B st') /\
         exists r1, advanced (senv nu st) r1 (senv nu st'))).
    { intros B st3 L3 E3 I3 Z3 P3. unfold K. destruct (has_nl m) eqn:HN; cbn [when].
      2:{ cbn [execs safe]. split; [congruence|]. split.
          - exists B. split; [|intros C; congruence]. split; [exact L3|]. split; [|exact Z3].
            intros HL. destruct (P3 HL) as (H1 & H2 & H3). split; [exact H1|]. split; [exact H2|]. split; [exact H3|].
            intros C. congruence.
          - exists (senv nu st1). unfold senv at 3. rewrite E3. exact ADV. }
      assert (FIN : forall st4, linpart B st4 -> st_args st4 = st_args st2 -> st_it st4 = st_it st2 ->
        safe (execs nu [same "Gnl"; same "Fnl"; same "res_Fnl"] st4) (fun st' => st_it st' = st_it st /\
          (exists B, fresh B st') /\ exists r1, advanced (senv nu st) r1 (senv nu st'))).
      { intros st4 L4 E4 I4. apply (tail_ok B); [exact HN|exact L4|]. intros st5 F5 E5 I5 _. cbn [execs safe].
        split; [congruence|]. split; [now exists B|]. exists (senv nu st1). unfold senv at 3. rewrite E5, E4. exact ADV. }
      destruct (has_l m) eqn:HL; cbn [when app].
      - destruct (P3 eq_refl) as (H1 & H2 & H3).
        apply (exec_fun "jactempFnll" (FM Jnll)); [reflexivity| |exact f_Jnll|exact L3|].
        { unfold ops. rewrite HL, HN. reflexivity. }
        intros v Hv. cbn [content] in Hv. destruct dims_Jnll as [D1 D2]. rewrite D1, D2 in Hv.
        apply FIN; [|exact E3|exact I3]. split; [exact L3|]. split; [|congruence]. intros _.
        split; [apply has_other; [reflexivity|exact H1]|]. split; [exact H2|]. split; [apply has_other; [reflexivity|exact H3]|].
        intros _. apply has_same. exact Hv.
      - apply FIN; [|exact E3|exact I3]. split; [exact L3|]. split; [congruence|]. intros _. now apply Z3. }
    destruct (has_l m) eqn:HL; cbn [when app].
    - apply (exec_fun "jactempFll" (FM Jll)); [reflexivity| |exact f_Jll|exact L2|].
      { unfold ops. rewrite HL. destruct (has_nl m); reflexivity. }
      intros v Hv. cbn [content] in Hv. destruct dims_Jll as [D1 D2]. rewrite D1, D2 in Hv.
      set (st3 := set_val "jactempFll" v st2).
      apply (exec_op "ijactempFll" (OInv (OName "jactempFll")) _ _
               (fun v => exists B, isM v l l B /\ invll B (senv nu st3)) _ eq_refl).
      { unfold ops. rewrite HL. destruct (has_nl m); reflexivity. }
      { cbn [eval_op]. destruct (get_has st3 "jactempFll" (fun v => isM v l l (fun i j => eval (senv nu st3) (ent Jll i j))) eq_refl) as (f' & -> & Hf').
        { apply has_same. exact Hv. }
        cbn [rbind]. now apply inv_M. }
      intros b (B & Hb & IB). set (st4 := set_val "ijactempFll" b st3).
      apply (exec_fun "Gl" (FV Gl)); [reflexivity| |exact f_Gl|exact L2|].
      { unfold ops. rewrite HL. destruct (has_nl m); reflexivity. }
      intros g Hg. apply c_Gl in Hg. apply (KOK B); [exact L2|reflexivity|reflexivity|congruence|]. intros _.
      split; [apply has_other; [reflexivity|]; now apply has_same|]. split; [exact IB|]. now apply has_same.
    - apply (KOK (fun _ _ => 0%R)); [exact L2|reflexivity|reflexivity| |congruence]. intros _.
      destruct (Nat.eq_dec l 0) as [E|E]; [exact E|]. assert (H : 0 < l) by lia. apply has_l_iff in H. congruence.
  Qed.

  (** ** The body of the loop *)

  Lemma vnl_sub s : In s (v_of Snl m) -> In s (v_of Sall m).
  Proof. apply v_sub. Qed.

  Lemma agree_wide (a b : list string) r r' : (forall s, In s a -> In s b) -> agree_off a r r' -> agree_off b r r'.
  Proof. intros H AG s Hs. apply AG. intros I. apply Hs. now apply H. Qed.

  Lemma invll_same B r r' : agree_off (v_of Sall m) r r' -> invll B r -> invll B r'.
  Proof.
    intros AG. apply inverse_ext. intros i j Hi Hj. destruct dims_Jll as [D1 D2].
    apply (J_same Sl Jll); [exact EJll|congruence|congruence|exact AG].
  Qed.

  Lemma body_ok B st : has_nl m = true -> fresh B st ->
    safe (execs nu (implicit m) st) (fun st' => fresh B st' /\ st_it st' = st_it st /\
      newton (v_of Snl m) (redF B) (redJ B) (senv nu st) (senv nu st') /\
      has st' "step_Fnl" (fun v => v = Sc (fnorm n (fun i => redF B (senv nu st') i - redF B (senv nu st) i)%R))).
  Proof.
    intros HN [LPT FR]. specialize (FR HN). destruct FR as [HF _]. unfold implicit. cbn [app].
    set (Q := fun st' => _).
    apply (exec_op "save_Fnl" (OCopy (OName "Fnl")) _ _ (fun v => isV v n (redF B (senv nu st))) _ eq_refl).
    { unfold ops. destruct (has_l m); rewrite HN; reflexivity. }
    { cbn [eval_op]. apply safe_ok. apply get_has; [reflexivity|exact HF]. }
    intros sv Hsv. set (st1 := set_val "save_Fnl" sv st).
    assert (L1 : linpart B st1) by (now apply linpart_set).
    assert (S1 : has st1 "save_Fnl" (fun v => isV v n (redF B (senv nu st)))) by (apply has_same; exact Hsv).
    assert (F1 : has st1 "Fnl" (fun v => isV v n (redF B (senv nu st)))) by (apply has_other; [reflexivity|exact HF]).
    assert (REST : forall st2, linpart B st2 -> senv nu st2 = senv nu st -> st_it st2 = st_it st ->
       has st2 "save_Fnl" (fun v => isV v n (redF B (senv nu st))) ->
       has st2 "Fnl" (fun v => isV v n (redF B (senv nu st))) ->
       (has_l m = true -> has st2 "jacGlnl" (fun v => isM v l n (fun i j => eval (senv nu st2) (diff (nth j (v_of Snl m) "") (nth i Gl (Num 0)))))) ->
       safe (execs nu ([same "jacGnlnl"; same "jacFnl"; same "ijacFnl"; ("vnl", "ud_vnl")] ++
         when (has_l m) [same "Gl"] ++ [same "Gnl"; same "Fnl"; same "res_Fnl"; same "step_Fnl"]) st2) Q).
    { intros st2 L2 E2 I2 S2 F2 J2. cbn [app].
      apply (exec_fun "jacGnlnl" (FM (jacobian Gnl (v_of Snl m)))); [reflexivity| |exact f_JGnl|apply L2|].
      { unfold ops. destruct (has_l m); rewrite HN; reflexivity. }
      intros v Hv. cbn [content jacobian nr nc ent] in Hv. rewrite LGnl, v_len in Hv. fold n in Hv.
      set (st3 := set_val "jacGnlnl" v st2).
      assert (L3 : linpart B st3) by (now apply linpart_set).
      destruct (op_jacFnl B st3 HN L3) as (o & AO & SO).
      { intros HL. apply has_other; [reflexivity|]. now apply J2. }
      { apply has_same. exact Hv. }
      apply (exec_op "jacFnl" o _ _ _ _ eq_refl AO SO). intros j Hj. set (st4 := set_val "jacFnl" j st3).
      assert (L4 : linpart B st4) by (now apply linpart_set).
      apply (exec_op "ijacFnl" (OInv (OName "jacFnl")) _ _
               (fun v => exists C, isM v n n C /\ is_inverse n (redJ B (senv nu st4)) C) _ eq_refl).
      { unfold ops. destruct (has_l m); rewrite HN; reflexivity. }
      { cbn [eval_op]. destruct (get_has st4 "jacFnl" (fun v => isM v n n (redJ B (senv nu st4))) eq_refl) as (f' & -> & Hf').
        { apply has_same. exact Hj. }
        cbn [rbind]. now apply inv_M. }
      intros b (C & Hb & IB). set (st5 := set_val "ijacFnl" b st4).
      assert (L5 : linpart B st5) by (now apply linpart_set).
      assert (E5 : senv nu st5 = senv nu st) by exact E2.
      assert (F5 : has st5 "Fnl" (fun v => isV v n (redF B (senv nu st))))
        by (apply has_other; [reflexivity|]; apply has_other; [reflexivity|]; apply has_other; [reflexivity|exact F2]).
      assert (S5 : has st5 "save_Fnl" (fun v => isV v n (redF B (senv nu st))))
        by (apply has_other; [reflexivity|]; apply has_other; [reflexivity|]; apply has_other; [reflexivity|exact S2]).
      apply (exec_arg "vnl" "ud_vnl" (v_of Snl m)
        (fun i => senv nu st (nth i (v_of Snl m) "") + Q2R (-1) * mv_ n C (redF B (senv nu st)) i)%R);
        [reflexivity|now apply (in_groups "vnl")|intros s Hs; now apply v_in_args, vnl_sub|apply L5| |].
      { apply (run_op "ud_vnl" (OAdd (OName "vnl") (OProd (ONum (-1)) (ODot (OName "ijacFnl") (OName "Fnl"))))).
        { unfold ops. destruct (has_l m); rewrite HN; reflexivity. }
        cbn [eval_op].
        destruct (get_group (v_of Snl m) st5) as (a & Ea & Ha);
          [now apply (in_groups "vnl")|apply L5|intros s Hs; now apply v_in_args, vnl_sub|].
        change (get nu "vnl" st5) with (getarg nu (v_of Snl m) st5). rewrite Ea. cbn [rbind].
        destruct (get_has st5 "ijacFnl" (fun v => isM v n n C) eq_refl) as (c & -> & Hc); [apply has_same; exact Hb|]. cbn [rbind].
        destruct (get_has st5 "Fnl" _ eq_refl F5) as (f & -> & Hf). cbn [rbind].
        destruct (dot_MV c f n n C _ Hc Hf) as (d & -> & Hd). cbn [rbind v_prod].
        rewrite v_len in Ha |- *. fold n in Ha |- *. rewrite E5 in Ha.
        destruct (add_V a _ n _ _ Ha (scale_V (Q2R (-1)) d _ _ Hd)) as (e & -> & He). exact He. }
      intros st6 L6 V6 I6 X6 A6. rewrite E5 in A6.
      assert (AG : agree_off (v_of Sall m) (senv nu st) (senv nu st6)) by (exact (agree_wide _ _ _ _ vnl_sub A6)).
      assert (NEW : newton (v_of Snl m) (redF B) (redJ B) (senv nu st) (senv nu st6)).
      { split; [exact A6|]. exists C. rewrite v_len. fold n. split.
        - rewrite <- E2. exact IB.
        - intros i Hi. rewrite X6 by (rewrite v_len; exact Hi).
          replace (Q2R (-1)) with (-1)%R by (unfold Q2R; cbn; lra). lra. }
      assert (IV : has_l m = true -> invll B (senv nu st6)).
      { intros HL. apply (invll_same B (senv nu st)); [exact AG|]. destruct L5 as (_ & P & _).
        destruct (P HL) as (_ & P2 & _). rewrite E5 in P2. exact P2. }
      assert (JN : has_l m = true -> has st6 "jactempFnll" (fun v => isM v n l (fun i j => eval (senv nu st6) (ent Jnll i j)))).
      { intros HL. destruct L5 as (_ & P & _). destruct (P HL) as (_ & _ & _ & P4). specialize (P4 HN).
        apply (has_vals _ _ _ _ V6). revert P4. apply has_impl. intros w. apply isM_ext. intros i k Hi Hk. rewrite E5.
        destruct dims_Jnll as [D1 D2]. apply (J_same Snl Jnll); [exact EJnll|congruence|congruence|exact AG]. }
      assert (BL : has_l m = true -> has st6 "ijactempFll" (fun v => isM v l l B)).
      { intros HL. destruct L5 as (_ & P & _). destruct (P HL) as (P1 & _). exact (has_vals _ _ _ _ V6 P1). }
      assert (S6 : has st6 "save_Fnl" (fun v => isV v n (redF B (senv nu st)))) by (exact (has_vals _ _ _ _ V6 S5)).
      assert (Z6 : has_l m = false -> l = 0) by (apply L5).
      assert (FIN : forall st7, linpart B st7 -> senv nu st7 = senv nu st6 -> st_it st7 = st_it st ->
         has st7 "save_Fnl" (fun v => isV v n (redF B (senv nu st))) ->
         safe (execs nu [same "Gnl"; same "Fnl"; same "res_Fnl"; same "step_Fnl"] st7) Q).
      { intros st7 L7 E7 I7 S7. apply (tail_ok B); [exact HN|exact L7|]. intros st8 F8 E8 I8 V8.
        assert (EE : senv nu st8 = senv nu st6) by (rewrite <- E7; unfold senv; now rewrite E8).
        apply (exec_op "step_Fnl" (ONorm (OAdd (OName "Fnl") (OProd (ONum (-1)) (OName "save_Fnl")))) _ _
          (fun v => v = Sc (fnorm n (fun i => redF B (senv nu st6) i - redF B (senv nu st) i)%R)) _ eq_refl).
        { unfold ops. destruct (has_l m); rewrite HN; reflexivity. }
        { cbn [eval_op]. destruct F8 as [_ F8]. destruct (F8 HN) as [F8a _]. rewrite EE in F8a.
          destruct (get_has st8 "Fnl" _ eq_refl F8a) as (f & -> & Hf). cbn [rbind].
          assert (S8 : has st8 "save_Fnl" (fun v => isV v n (redF B (senv nu st)))).
          { destruct S7 as (w & Vw & Hw). exists w. split; [|exact Hw]. rewrite V8; [exact Vw|discriminate..]. }
          destruct (get_has st8 "save_Fnl" _ eq_refl S8) as (w & -> & Hw). cbn [rbind v_prod].
          destruct (add_V f _ n _ _ Hf (scale_V (Q2R (-1)) w _ _ Hw)) as (e & -> & He). cbn [rbind].
          rewrite (norm_V e n (fun i => redF B (senv nu st6) i - redF B (senv nu st) i)%R); [reflexivity|].
          revert He. apply isV_ext. intros i Hi. replace (Q2R (-1)) with (-1)%R by (unfold Q2R; cbn; lra). lra. }
        intros w Hw. cbn [execs]. unfold Q. cbn [safe]. rewrite !senv_set, EE. split.
        { destruct F8 as [F8a F8b]. split; [now apply linpart_set|]. intros _. destruct (F8b HN) as [P1 P2].
          split; (apply has_other; [reflexivity|]); [exact P1|exact P2]. }
        split; [cbn; congruence|]. split; [exact NEW|]. apply has_same. exact Hw. }
      destruct (has_l m) eqn:HL; cbn [when app].
      - apply (exec_fun "Gl" (FV Gl)); [reflexivity| |exact f_Gl|exact L6|].
        { unfold ops. rewrite HL, HN. reflexivity. }
        intros g Hg. apply c_Gl in Hg. apply FIN; [|reflexivity|cbn; rewrite I6; exact I2|].
        + split; [exact L6|]. split; [|congruence]. intros _.
          split; [apply has_other; [reflexivity|now apply BL]|]. split; [now apply IV|]. split; [now apply has_same|].
          intros _. apply has_other; [reflexivity|]. now apply JN.
        + apply has_other; [reflexivity|exact S6].
      - apply FIN; [|reflexivity|rewrite I6; exact I2|exact S6]. split; [exact L6|]. split; [congruence|intros _; exact (Z6 eq_refl)]. }
    destruct (has_l m) eqn:HL; cbn [when app].
    - apply (exec_fun "jacGlnl" (FM (jacobian Gl (v_of Snl m)))); [reflexivity| |exact f_JGl|apply L1|].
      { unfold ops. rewrite HL, HN. reflexivity. }
      intros v Hv. cbn [content jacobian nr nc ent] in Hv. rewrite LGl, v_len in Hv. fold n in Hv.
      apply REST; [now apply linpart_set|reflexivity|reflexivity|apply has_other; [reflexivity|exact S1]|
        apply has_other; [reflexivity|exact F1]|]. intros _. apply has_same. exact Hv.
    - apply REST; [exact L1|reflexivity|reflexivity|exact S1|exact F1|congruence].
  Qed.

  (** ** The loop *)

  Lemma iterate_safe {T} (body : T -> result T) (res step : T -> result R) eps (P : T -> Prop) :
    (forall s, P s -> exists a, res s = Ok a) -> (forall s, P s -> exists b, step s = Ok b) ->
    (forall s, P s -> safe (body s) P) ->
    forall k s, P s -> safe (iterate body res step eps k s) (fun _ => True).
  Proof.
    intros HR HS HB. induction k as [|k IH]; intros s Ps; cbn [iterate];
      destruct (HR s Ps) as [a ->]; cbn [rbind]; destruct (Rlt_dec eps a); try exact I;
      destruct (HS s Ps) as [b ->]; cbn [rbind]; destruct (Rlt_dec eps b); try exact I.
    apply (safe_bind _ _ P); [now apply HB|]. intros s1 P1. apply (safe_bind _ _ (fun _ => True)); [now apply IH|].
    intros [s2 j] _. exact I.
  Qed.

  Definition newton_m (B : nat -> nat -> R) : env -> env -> Prop := newton (v_of Snl m) (redF B) (redJ B).

  Lemma applied_newton B : has_nl m = true -> forall k st st', fresh B st ->
    applied (execs nu (implicit m)) k st st' ->
    fresh B st' /\ st_it st' = st_it st /\ steps (newton_m B) k (senv nu st) (senv nu st') /\
    (k = 0 -> st' = st) /\
    (forall k', k = S k' -> exists rp, steps (newton_m B) k' (senv nu st) rp /\ newton_m B rp (senv nu st') /\
       stores_number st' "step_Fnl" (fnorm n (fun i => redF B (senv nu st') i - redF B rp i)%R)).
  Proof.
    intros HN k st st' FR AP. revert FR. induction AP as [st|k st st1 st2 E AP IH]; intros FR.
    - split; [exact FR|]. split; [reflexivity|]. split; [constructor|]. split; [reflexivity|]. discriminate.
    - pose proof (body_ok B st HN FR) as H. rewrite E in H. cbn [safe] in H. destruct H as (F1 & I1 & N1 & S1).
      destruct (IH F1) as (F2 & I2 & N2 & Z2 & S2). split; [exact F2|]. split; [congruence|].
      split; [econstructor; [exact N1|exact N2]|]. split; [discriminate|]. intros k' [= <-].
      destruct k as [|k].
      + rewrite (Z2 eq_refl) in *. exists (senv nu st). split; [constructor|]. split; [exact N1|].
        destruct S1 as (v & V & ->). exact V.
      + destruct (S2 k eq_refl) as (rp & P1 & P2 & P3). exists rp. split; [econstructor; [exact N1|exact P1]|].
        split; [exact P2|exact P3].
  Qed.

  Lemma loop_ok B st : has_nl m = true -> fresh B st ->
    safe (iterexecs nu (implicit m) "res_Fnl" "step_Fnl" st) (fun st' =>
      fresh B st' /\ st_it st' <= n_maxit nu /\ steps (newton_m B) (st_it st') (senv nu st) (senv nu st') /\
      (fnorm n (redF B (senv nu st')) <= n_eps nu \/ st_it st' = n_maxit nu \/
       (st_it st' = 0%nat /\ 1 <= n_eps nu) \/
       exists rp, newton_m B rp (senv nu st') /\
         fnorm n (fun i => redF B (senv nu st') i - redF B rp i) <= n_eps nu)%R).
  Proof.
    intros HN FR. unfold iterexecs.
    assert (ES : set nu "step_Fnl" (Sc 1) st = Ok (set_val "step_Fnl" (Sc 1) st)).
    { unfold set. fold m. change (assoc "step_Fnl" (groups m)) with (@None (list string)). unfold known. fold m.
      unfold ops. destruct (has_l m); rewrite HN; reflexivity. }
    rewrite ES. cbn [rbind]. set (st0 := set_val "step_Fnl" (Sc 1) st).
    assert (F0 : fresh B st0).
    { destruct FR as [FA FB]. split; [now apply linpart_set|]. intros _. destruct (FB HN) as [P1 P2].
      split; (apply has_other; [reflexivity|assumption]). }
    set (res := fun st => scalar (get nu "res_Fnl" st)). set (stp := fun st => scalar (get nu "step_Fnl" st)).
    set (P := fun s => fresh B s /\ exists b, st_vals s "step_Fnl" = Some (Sc b)).
    assert (RES : forall s, fresh B s -> res s = Ok (fnorm n (redF B (senv nu s)))).
    { intros s [_ H]. destruct (H HN) as [_ H2]. unfold res.
      destruct (get_has s "res_Fnl" _ eq_refl H2) as (v & -> & ->). reflexivity. }
    assert (STP : forall s b, st_vals s "step_Fnl" = Some (Sc b) -> stp s = Ok b).
    { intros s b H. unfold stp, get. fold m. change (assoc "step_Fnl" (groups m)) with (@None (list string)).
      now rewrite H. }
    pose proof (iterate_safe (execs nu (implicit m)) res stp (n_eps nu) P) as SF.
    specialize (SF ltac:(intros s [Hs _]; eexists; now apply RES)).
    specialize (SF ltac:(intros s [_ [b Hb]]; exists b; now apply STP)).
    assert (HB : forall s, P s -> safe (execs nu (implicit m) s) P).
    { intros s [Hs _]. eapply safe_impl; [|exact (body_ok B s HN Hs)]. cbv beta. intros s1 (G1 & _ & _ & v & V & ->).
      split; [exact G1|]. eexists. exact V. }
    specialize (SF HB (n_maxit nu) st0 (conj F0 (ex_intro _ 1%R eq_refl))).
    destruct (iterate (execs nu (implicit m)) res stp (n_eps nu) (n_maxit nu) st0) as [[st1 k]|e] eqn:EI; [|exact SF].
    clear SF. cbn [rbind safe st_it].
    destruct (iterate_ok _ _ _ _ _ _ _ _ EI) as (K & AP & (a & RA & EX) & _).
    destruct (applied_newton B HN k st0 st1 F0 AP) as (F1 & I1 & N1 & Z1 & S1).
    change (senv nu (mkState (st_args st1) (st_vals st1) k)) with (senv nu st1).
    split; [exact F1|]. split; [exact K|]. split; [exact N1|].
    rewrite (RES st1 F1) in RA. injection RA as <-.
    destruct EX as [EX|[EX|(b & Eb & Lb)]]; [now left|now right; left|]. right. right.
    destruct k as [|k].
    - left. split; [reflexivity|]. rewrite (Z1 eq_refl) in Eb. rewrite (STP st0 1%R eq_refl) in Eb. now injection Eb as <-.
    - right. destruct (S1 k eq_refl) as (rp & _ & P2 & P3). exists rp. split; [exact P2|].
      unfold stores_number in P3. rewrite (STP _ _ P3) in Eb. now injection Eb as <-.
  Qed.

  (** ** After the loop *)

  Lemma post_ok B st : fresh B st ->
    safe (execs nu (postimplicit m) st) (fun st' =>
      sized_state st' /\ st_it st' = st_it st /\ agree_off (v_of Sl m) (senv nu st) (senv nu st') /\
      (forall i, i < l -> senv nu st' (nth i (v_of Sl m) "") =
         mv_ l B (fun k => - eval (senv nu st) (nth k Gl (Num 0)))%R i) /\
      stores st' "dxH" (length (c_x m)) (fun i => eval (senv nu st') (nth i (dxH m) (Num 0))) /\
      stores st' "z" (length (c_w m)) (fun i => eval (senv nu st') (nth i (c_z m) (Num 0))) /\
      stores st' "y" (length (c_y m)) (fun i => eval (senv nu st') (nth i out (Num 0))) /\
      (has_nl m = true -> stores st' "Fnl" n (redF B (senv nu st)) /\
         stores_number st' "res_Fnl" (fnorm n (redF B (senv nu st))))).
  Proof.
    intros [LPT FR]. unfold postimplicit. set (Q := fun st' => _).
    assert (REST : forall st1, sized_state st1 -> st_vals st1 = st_vals st -> st_it st1 = st_it st ->
       agree_off (v_of Sl m) (senv nu st) (senv nu st1) ->
       (forall i, i < l -> senv nu st1 (nth i (v_of Sl m) "") =
         mv_ l B (fun k => - eval (senv nu st) (nth k Gl (Num 0)))%R i) ->
       safe (execs nu [same "dxH"; same "z"; same "y"] st1) Q).
    { intros st1 L1 V1 I1 A1 X1.
      apply (exec_fun "dxH" (FV (dxH m))); [reflexivity| |reflexivity|exact L1|].
      { unfold ops. destruct (has_l m), (has_nl m); reflexivity. }
      intros a Ha. cbn [content] in Ha.
      apply (exec_fun "z" (FV (c_z m))); [reflexivity| |reflexivity|exact L1|].
      { unfold ops. destruct (has_l m), (has_nl m); reflexivity. }
      intros b Hb. cbn [content] in Hb. rewrite senv_set in Hb.
      apply (exec_fun "y" (FV out)); [reflexivity| |exact f_y|exact L1|].
      { unfold ops. destruct (has_l m), (has_nl m); reflexivity. }
      intros c Hc. cbn [content] in Hc. rewrite !senv_set in Hc. cbn [execs]. unfold Q. cbn [safe]. rewrite !senv_set.
      split; [exact L1|]. split; [exact I1|]. split; [exact A1|]. split; [exact X1|].
      rewrite (dxH_length m W) in Ha. rewrite LO in Hc.
      assert (LZ : length (c_z m) = length (c_w m)) by (symmetry; apply W). rewrite LZ in Hb.
      destruct Ha as (la & -> & Ha). destruct Hb as (lb & -> & Hb). destruct Hc as (lc & -> & Hc).
      split; [exists la; split; [reflexivity|exact Ha]|]. split; [exists lb; split; [reflexivity|exact Hb]|].
      split; [exists lc; split; [reflexivity|exact Hc]|].
      intros HN. destruct (FR HN) as [(f & Vf & (lf & -> & Hf)) (g & Vg & ->)]. split.
      - exists lf. cbn. rewrite V1. split; [exact Vf|exact Hf].
      - unfold stores_number. cbn. rewrite V1. exact Vg. }
    destruct (has_l m) eqn:HL; cbn [when app].
    - destruct LPT as (S & P & _). destruct (P HL) as (H1 & H2 & H3 & _).
      apply (exec_arg "vl" "ud_vl" (v_of Sl m) (mv_ l B (fun k => Q2R (-1) * eval (senv nu st) (nth k Gl (Num 0)))%R));
        [reflexivity|now apply (in_groups "vl")|intros s Hs; now apply v_in_args, (v_sub Sl)|exact S| |].
      { apply (run_op "ud_vl" (ODot (OName "ijactempFll") (ODot (ONum (-1)) (OName "Gl")))).
        { unfold ops. rewrite HL. destruct (has_nl m); reflexivity. }
        cbn [eval_op]. destruct (get_has st "ijactempFll" _ eq_refl H1) as (b & -> & Hb). cbn [rbind].
        destruct (get_has st "Gl" _ eq_refl H3) as (g & -> & Hg). cbn [rbind v_dot]. rewrite v_len. fold l.
        destruct (dot_MV b _ l l B _ Hb (scale_V (Q2R (-1)) g _ _ Hg)) as (c & -> & Hc). exact Hc. }
      intros st1 L1 V1 I1 X1 A1. apply REST; [exact L1|exact V1|exact I1|exact A1|].
      intros i Hi. rewrite X1 by (rewrite v_len; exact Hi). apply mv_ext; [reflexivity|]. intros k Hk.
      replace (Q2R (-1)) with (-1)%R by (unfold Q2R; cbn; lra). lra.
    - destruct LPT as (S & _ & Z). apply REST; [exact S|reflexivity|reflexivity|intros s _; reflexivity|].
      rewrite (Z HL). lia.
  Qed.
End Step.
