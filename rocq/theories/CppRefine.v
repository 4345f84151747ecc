(** One method call after the other, the generated object follows the numerical
    core. *)
From Coq Require Import String List ZArith QArith Qreals Reals Bool Lia Lra.
From Verif Require Import Py Tools Lists Expr RSum Mat Core Calculus ExprProofs MatProofs Spec_Core StructProofs
  Spec_Calculus Deriv CalculusProofs PowerProofs Subs SubsProofs Method Spec_Method Separable TempProofs
  Numeric Spec_Numeric NumericProofs NumericUpdate NumericStep NumericUpdateOk NumericSim Cpp Spec_Cpp CppProofs.
Import ListNotations.
Local Open Scope string_scope.
Local Open Scope list_scope.
Local Open Scope nat_scope.

(** The shapes that the operations rely on. *)
Definition expected (m : core) : list (string * shape) :=
  let nx := length (c_x m) in let l := nv m Sl in let n := nv m Snl in let no := length (c_observers m) in
  [("x", HV nx); ("dx", HV nx); ("ud_x", HV nx); ("o", HV no); ("ud_o", HV no); ("vl", HV l); ("vnl", HV n);
   ("jactempFll", HM l l); ("ijactempFll", HM l l); ("Gl", HV l); ("ud_vl", HV l);
   ("jactempFnll", HM n l); ("Gnl", HV n); ("jacGlnl", HM l n); ("jacGnlnl", HM n n);
   ("Fnl", HV n); ("jacFnl", HM n n); ("ijacFnl", HM n n); ("save_Fnl", HV n); ("res_Fnl", HS); ("step_Fnl", HS);
   ("ud_vnl", HV n)].
Definition ctype_of (s : shape) : ctype :=
  match s with HS => None | HV n => Some (n, cols n) | HM n p => Some (n, p) end.
Definition fshape (f : fexpr) : shape :=
  match f with FE _ => HS | FV l => HV (length l) | FM A => HM (nr A) (nc A) end.

Lemma same_type v w : same_value v w -> has_type w (ctype_of (vshape v)) = true.
Proof.
  destruct v as [a|a|n p A], w as [b|n' p' B]; cbn; try contradiction; [reflexivity| |].
  - intros (-> & -> & _). rewrite Nat.eqb_refl, <- cols_if, Nat.eqb_refl. reflexivity.
  - intros (<- & <- & _). now rewrite !Nat.eqb_refl.
Qed.

Lemma in_when {A} b (l : list A) x : In x (when b l) -> b = true /\ In x l.
Proof. destruct b; cbn; [tauto|intros []]. Qed.

Section Names.
  Variable m : core.
  Hypothesis HC : counters_ok m.

  Lemma l_pos : has_l m = true -> 0 < nv m Sl.
  Proof.
    unfold has_l, nv. rewrite Z.ltb_lt. pose proof HC as [Hx Hw]. unfold dim_xl, dim_wl. cbn [bx bw len]. lia.
  Qed.
  Lemma nl_pos : has_nl m = true -> 0 < nv m Snl.
  Proof.
    unfold has_nl, nv. rewrite Z.ltb_lt. pose proof HC as [Hx Hw].
    unfold dim_xnl, dim_wnl, dim_xl, dim_wl, dim_x, dim_w. cbn [bx bw len]. lia.
  Qed.

  Lemma in_ops name o : assoc name (ops m) = Some o ->
    (name = "ud_x" /\ o = OAdd (OName "x") (OName "dx")) \/
    (has_l m = true /\ In (name, o) [("ijactempFll", OInv (OName "jactempFll"));
       ("ud_vl", ODot (OName "ijactempFll") (ODot (ONum (-1)) (OName "Gl")))]) \/
    (has_nl m = true /\ In (name, o) [("Fnl",
      if has_l m
      then OAdd (OName "Gnl")
             (ODot (OName "jactempFnll") (ODot (OName "ijactempFll") (ODot (ONum (-1)) (OName "Gl"))))
      else OCopy (OName "Gnl"));
     ("jacFnl",
      if has_l m
      then OAdd (OName "jacGnlnl")
             (ODot (OName "jactempFnll") (ODot (OName "ijactempFll") (ODot (ONum (-1)) (OName "jacGlnl"))))
      else OCopy (OName "jacGnlnl"));
     ("ijacFnl", OInv (OName "jacFnl"));
     ("save_Fnl", OCopy (OName "Fnl"));
     ("res_Fnl", ONorm (OName "Fnl"));
     ("step_Fnl", ONorm (OAdd (OName "Fnl") (OProd (ONum (-1)) (OName "save_Fnl"))));
     ("ud_vnl", OAdd (OName "vnl") (OProd (ONum (-1)) (ODot (OName "ijacFnl") (OName "Fnl"))))]).
  Proof.
    intros H. apply assoc_in in H. unfold ops in H. apply in_app_or in H. destruct H as [[H|[]]|H]; [injection H as <- <-; now left|].
    right. apply in_app_or in H. destruct H as [H|H]; apply in_when in H; tauto.
  Qed.

  Ltac op_cases H := apply in_ops in H;
    destruct H as [[-> ->]|[[HL [H|[H|[]]]]|[HN [H|[H|[H|[H|[H|[H|[H|[]]]]]]]]]]]; 
    try (match goal with E : (_, _) = (_, _) |- _ => injection E as <- <- end).

  Lemma ops_shape name o : assoc name (ops m) = Some o ->
    exists s, assoc name (expected m) = Some s /\ op_shape (fun d => assoc d (expected m)) o = Some s.
  Proof.
    intros H. destruct (has_l m) eqn:HL'; [pose proof (l_pos HL') as LP|];
      op_cases H; rewrite ?HL' in *; try discriminate; try (match goal with H : has_nl m = true |- _ => pose proof (nl_pos H) end);
      (eexists; split; [reflexivity|]); cbn -[Nat.ltb nv];
      repeat (progress (repeat match goal with
        | H : 0 < ?a |- context [0 <? ?a] => rewrite (proj2 (Nat.ltb_lt 0 a) H)
        | |- context [Nat.eqb ?a ?a] => rewrite (Nat.eqb_refl a)
        end; cbn -[Nat.ltb nv])); reflexivity.
  Qed.
  Lemma ops_deps name o d : assoc name (ops m) = Some o -> In d (deps_of o) -> ~ In d auxiliary.
  Proof.
    intros H. op_cases H; try destruct (has_l m); cbn; intuition (subst; discriminate).
  Qed.
  Lemma ops_names name o : assoc name (ops m) = Some o -> assoc name (groups m) = None /\ assoc name (funcs m) = None.
  Proof. intros H. op_cases H; now split. Qed.

  Lemma funcs_names name f : assoc name (funcs m) = Some f -> assoc name (groups m) = None /\ assoc name (ops m) = None.
  Proof.
    intros H. split.
    - apply assoc_in in H. unfold funcs in H. cbn [In] in H.
      repeat (destruct H as [H|H]; [injection H as <- <-; reflexivity|]). destruct H.
    - destruct (assoc name (ops m)) as [o|] eqn:E; [|reflexivity]. apply ops_names in E. destruct E; congruence.
  Qed.
  Lemma funcs_fmat name f : assoc name (funcs m) = Some (Ok f) -> exists A, fmat f = Ok A.
  Proof.
    intros H. apply assoc_in in H. unfold funcs in H. cbn [In] in H.
    repeat (destruct H as [H|H]; [injection H as _ H;
      first [subst f; eexists; reflexivity
            | match type of H with rbind ?r _ = _ => destruct r; cbn [rbind] in H; [|discriminate] end;
              injection H as <-; eexists; reflexivity]|]). destruct H.
  Qed.
End Names.

Section FuncShapes.
  Variable m : core.
  Hypothesis W : wf m.
  Hypothesis HC : counters_ok m.
  Lemma funcs_shape name f s : assoc name (funcs m) = Some (Ok f) -> assoc name (expected m) = Some s -> fshape f = s.
  Proof.
    intros H E.
    destruct (jac_ok m Sl Sl W HC) as (Fl & Jll & EFl & LFl & EJll & _ & NR1 & NC1).
    destruct (jac_ok m Snl Sl W HC) as (Fnl & Jnll & EFnl & LFnl & EJnll & _ & NR2 & NC2).
    destruct (G_ok m Sl Fl Jll W HC EFl LFl EJll NR1 NC1) as (Gl & EGl & LGl & _).
    destruct (G_ok m Snl Fnl Jnll W HC EFnl LFnl EJnll NR2 NC2) as (Gnl & EGnl & LGnl & _).
    apply assoc_in in H. unfold funcs, jacG in H. rewrite EJll, EJnll, EGl, EGnl in H. cbn [rbind In] in H.
    destruct H as [H|[H|[H|[H|[H|[H|[H|[H|[H|[H|[]]]]]]]]]]]; injection H as <- H; cbn -[nv] in E; try discriminate;
      injection E as <-; try (injection H as <-); subst; cbn [fshape jacobian nr nc]; rewrite ?map_length, ?v_of_len by exact HC; congruence.
  Qed.
End FuncShapes.

Section Refine.
  Variable nu : numeric.
  Let m := n_method nu.
  Hypothesis W : wf m.
  Hypothesis HC : counters_ok m.
  Hypothesis CL : closed nu.
  Let ND : NoDup (args_of m) := proj1 CL.
  Variable subs : list (string * R).
  Variable rate : R.
  Hypothesis SD : same_dictionary nu subs rate.
  Variable order : list string.
  Hypothesis OC : forall n op d, In n order -> assoc n (ops m) = Some op -> In d (deps_of op) -> In d order.
  Variable cinv : cinverter.
  Hypothesis INV : forall n A A' B, n_inv nu n A = Some B -> (forall i j, i < n -> j < n -> A i j = A' i j) ->
    forall i j, i < n -> j < n -> cinv n A' i j = B i j.
  Variable k : cclass.
  Hypothesis KP : k_pointers k = gen_pointers m subs.
  Hypothesis KPar : k_params k = map snd subs.
  Hypothesis KG : k_groups k = filter (fun g => mem (fst g) order) (groups m).
  Hypothesis KF : k_fixed k = map fst subs.
  Hypothesis KE : k_eps k = n_eps nu.
  Hypothesis KM : k_maxit k = n_maxit nu.
  Hypothesis KFUN : forall name f A, In name order -> assoc name (funcs m) = Some (Ok f) -> fmat f = Ok A ->
    assoc name (k_types k) = Some (Some (nr A, nc A)) /\ assoc name (k_bodies k) = Some (func_update m name A).
  Hypothesis KOP : forall name op s, assoc name (ops m) = Some op -> assoc name (expected m) = Some s ->
    assoc name (k_types k) = Some (ctype_of s) /\ assoc name (k_bodies k) = Some [SOper name (op2cpp op)].

  (** ** Pointers *)

  Lemma fs_not_arg : ~ In fs_symbol (args_of m).
  Proof. intros H. destruct SD as (_ & E & _). pose proof CL as (_ & S & _). rewrite (S _ H) in E. discriminate. Qed.
  Lemma arg_not_sub s : In s (args_of m) -> ~ In s (map fst subs).
  Proof.
    intros H I. destruct (assoc_keys s subs I) as [v E]. pose proof CL as (_ & S & _). specialize (S s H).
    destruct SD as (_ & _ & Q). rewrite Q in E; [congruence|]. intros ->. now apply fs_not_arg.
  Qed.

  Lemma pointer_arg s : In s (args_of m) -> exists i, assoc s (k_pointers k) = Some (PArg i) /\ nth_error (args_of m) i = Some s.
  Proof.
    intros H. rewrite KP. unfold gen_pointers. cbn [app assoc].
    destruct (String.eqb_spec fs_symbol s) as [<-|NF]; [now apply fs_not_arg in H|]. rewrite assoc_app.
    pose proof (assoc_number (fun a => negb (String.eqb a fs_symbol)) PSub s (map fst subs) 0) as A.
    cbv beta in A. rewrite (proj2 (String.eqb_neq s fs_symbol)) in A by congruence. specialize (A eq_refl).
    destruct (assoc s _) as [q|]; [destruct A as (i & A & _); apply nth_error_In in A; now apply arg_not_sub in A|].
    pose proof (assoc_number (fun a => negb (mem a (map fst subs))) PArg s (args_of m) 0) as B.
    cbv beta in B. rewrite (proj2 (mem_false s (map fst subs))) in B by (now apply arg_not_sub). specialize (B eq_refl).
    destruct (assoc s _) as [q|]; [|contradiction]. destruct B as (i & B & ->). now exists i.
  Qed.

  Lemma deref_arg o s : length (ob_args o) = length (args_of m) -> In s (args_of m) ->
    exists v, deref k o s = Ok v /\ assoc s (combine (args_of m) (ob_args o)) = Some v.
  Proof.
    intros L H. destruct (pointer_arg s H) as (i & A & N). unfold deref. rewrite A.
    destruct (nth_error (ob_args o) i) as [v|] eqn:E.
    - exists v. split; [reflexivity|]. now apply (nth_assoc s v _ _ i).
    - apply nth_error_None in E. assert (i < length (args_of m)) by (apply nth_error_Some; congruence). lia.
  Qed.

  Lemma deref_sub o s v : ob_rate o = rate -> ~ In s (args_of m) -> assoc s (n_subs nu) = Some v -> deref k o s = Ok v.
  Proof.
    intros HR NA E. destruct SD as (NDs & ER & Q). unfold deref. rewrite KP. unfold gen_pointers. cbn [app assoc].
    destruct (String.eqb_spec fs_symbol s) as [<-|NF]; [f_equal; congruence|].
    rewrite <- Q in E by congruence. rewrite assoc_app.
    pose proof (assoc_number (fun a => negb (String.eqb a fs_symbol)) PSub s (map fst subs) 0) as A.
    cbv beta in A. rewrite (proj2 (String.eqb_neq s fs_symbol)) in A by congruence. specialize (A eq_refl).
    apply assoc_key in E as K. destruct (assoc s (map _ _)) as [q|]; [|contradiction].
    destruct A as (i & A & ->). cbn [Nat.add]. rewrite KPar.
    assert (X : nth_error (map snd subs) i = Some v); [|now rewrite X].
    clear - A E NDs. revert i A. induction subs as [|[x y] d IH]; intros i A; [discriminate|]. cbn in *.
    inversion NDs as [|? ? Nx ND']; subst. destruct i as [|i]; cbn in *.
    - injection A as ->. rewrite String.eqb_refl in E. exact E.
    - apply IH; [|exact ND'|exact A]. destruct (String.eqb_spec x s) as [->|_]; [|exact E].
      apply nth_error_In in A. contradiction.
  Qed.

  (** The values of the parameters alone. *)
  Definition base : env := total (fun s => assoc s (n_subs nu)).

  Lemma senv_base st s : ~ In s (args_of m) -> senv nu st s = base s.
  Proof.
    intros H. unfold senv, base, total, call_env. fold m. destruct (assoc s (n_subs nu)) as [v|]; [reflexivity|].
    rewrite (assoc_none s); [reflexivity|]. intros I. apply H. clear - I. revert I. generalize (st_args st).
    induction (args_of m) as [|a l IH]; intros [|x y] I; cbn in I; try contradiction. destruct I as [->|I]; [now left|right; eapply IH; exact I].
  Qed.
  Lemma senv_arg st s v : In s (args_of m) -> assoc s (combine (args_of m) (st_args st)) = Some v -> senv nu st s = v.
  Proof.
    intros H E. unfold senv, total, call_env. fold m. pose proof CL as (_ & S & _). rewrite (S s H). now rewrite E.
  Qed.
  Lemma free_base st e : depends m e = false -> eval (senv nu st) e = eval base e.
  Proof.
    intros H. apply eval_ext. intros s Hs. apply senv_base. intros I. unfold depends in H.
    rewrite <- mem_in in I. assert (X : existsb (fun s => mem s (args_of m)) (free_symbols e) = true); [|congruence].
    apply existsb_exists. now exists s.
  Qed.

  Lemma code_ok o e r : (forall s, In s (free_symbols e) -> deref k o s = Ok (r s)) -> code_eval k o e = Ok (eval r e).
  Proof.
    intros H. unfold code_eval. rewrite (rmap_map (deref k o) r (free_symbols e) H). cbn [rbind]. f_equal.
    apply eval_ext. intros s Hs. now rewrite H.
  Qed.

  Definition valued (e : expr) : Prop := forall s, In s (free_symbols e) -> In s (args_of m) \/ In s (map fst (n_subs nu)).

  Lemma deref_senv o st s : ob_args o = st_args st -> length (st_args st) = length (args_of m) -> ob_rate o = rate ->
    In s (args_of m) \/ In s (map fst (n_subs nu)) -> deref k o s = Ok (senv nu st s).
  Proof.
    intros EA L ER H. destruct (in_dec string_dec s (args_of m)) as [I|NI].
    - destruct (deref_arg o s) as (v & D & A); [now rewrite EA|exact I|]. rewrite D. f_equal. symmetry. apply senv_arg; [exact I|].
      now rewrite <- EA.
    - destruct H as [H|H]; [contradiction|]. destruct (assoc_keys s _ H) as [v E]. rewrite (deref_sub o s v ER NI E).
      f_equal. rewrite senv_base by exact NI. unfold base, total. now rewrite E.
  Qed.

  (** The expressions of the functions have values. *)
  Lemma func_valued name f A i j : assoc name (funcs m) = Some (Ok f) -> fmat f = Ok A -> i < nr A -> j < nc A -> valued (ent A i j).
  Proof.
    intros F E Hi Hj s Hs. pose proof CL as (_ & _ & C). apply assoc_in in F. apply (C name f s F).
    destruct f as [e|l|B]; cbn in E; [discriminate| |]; injection E as <-; cbn [nr nc ent] in *; cbn [fexpr_symbols].
    - apply in_flat_map. exists (nth i l (Num 0)). split; [now apply nth_In|exact Hs].
    - unfold mat_symbols. apply in_flat_map. exists i. split; [apply in_seq; lia|].
      apply in_flat_map. exists j. split; [apply in_seq; lia|exact Hs].
  Qed.

  (** ** The relation *)

  Record rel (P : string -> Prop) (st : state) (o : object) : Prop := mkRel {
    r_args : ob_args o = st_args st;
    r_size : length (st_args st) = length (args_of m);
    r_rate : ob_rate o = rate;
    r_vals : forall s v, P s -> st_vals st s = Some v -> exists w, ob_vals o s = Some w /\ same_value v w;
    r_frozen : forall name f A, In name order -> assoc name (funcs m) = Some (Ok f) -> fmat f = Ok A ->
      exists B, ob_vals o name = Some (CMa (nr A) (nc A) B) /\
        forall i j, i < nr A -> j < nc A -> depends m (ent A i j) = false -> B i j = eval base (ent A i j);
    r_shapes : forall s v x, P s -> st_vals st s = Some v -> assoc s (expected m) = Some x -> vshape v = x;
    r_fshape : forall s v f, P s -> st_vals st s = Some v -> assoc s (funcs m) = Some (Ok f) -> vshape v = fshape f
  }.

  Lemma rel_weak (P Q : string -> Prop) st o : (forall s, Q s -> P s) -> rel P st o -> rel Q st o.
  Proof. intros H [A B C D E F G]. constructor; eauto. Qed.

  (** ** Accessors *)

  Lemma group_lookup name g : In name order -> assoc name (groups m) = Some g -> assoc name (k_groups k) = Some g.
  Proof.
    intros I H. rewrite KG. apply mem_in in I. revert H. generalize (groups m). intros l. induction l as [|[a b] l IH]; intros H; [discriminate|].
    cbn [assoc filter fst] in *. destruct (String.eqb_spec a name) as [->|N].
    - injection H as <-. rewrite I. cbn [assoc]. now rewrite String.eqb_refl.
    - destruct (mem a order); [|now apply IH]. cbn [assoc]. destruct (String.eqb_spec a name) as [->|_]; [now elim N|]. now apply IH.
  Qed.
  Lemma group_none name : assoc name (groups m) = None -> assoc name (k_groups k) = None.
  Proof.
    intros H. rewrite KG. revert H. generalize (groups m). intros l. induction l as [|[a b] l IH]; intros H; [reflexivity|].
    cbn [assoc filter fst] in *. destruct (String.eqb_spec a name) as [->|N]; [discriminate|].
    destruct (mem a order); [|now apply IH]. cbn [assoc]. destruct (String.eqb_spec a name) as [->|_]; [now elim N|]. now apply IH.
  Qed.

  Lemma group_args name g : assoc name (groups m) = Some g -> forall s, In s g -> In s (args_of m).
  Proof. exact (group_in nu name g). Qed.

  Lemma group_read P st o name g : rel P st o -> In name order -> assoc name (groups m) = Some g ->
    exists l, get nu name st = Ok (Ve l) /\ length l = length g /\ rmap (deref k o) g = Ok l.
  Proof.
    intros R I G. destruct (get_arg nu HC CL name g st G (r_size _ _ _ R)) as (l & E & L & N). exists l. split; [exact E|]. split; [exact L|].
    rewrite (rmap_map (deref k o) (senv nu st) g).
    - f_equal. apply (nth_ext _ _ 0%R 0%R); [rewrite map_length; lia|]. intros i Hi. rewrite map_length in Hi.
      rewrite N by exact Hi. rewrite (nth_indep _ 0%R (senv nu st "")) by (rewrite map_length; exact Hi). apply map_nth.
    - intros s Hs. apply deref_senv; [apply R|apply R|apply R|]. left. now apply (group_args name g G).
  Qed.

  Lemma group_expected name g s : assoc name (groups m) = Some g -> assoc name (expected m) = Some s -> s = HV (length g).
  Proof.
    intros G E. apply assoc_in in G. cbn [groups In] in G.
    destruct G as [G|[G|[G|[G|[G|[G|[G|[G|[]]]]]]]]]; injection G as <- <-; cbn -[nv] in E; try discriminate; injection E as <-;
      rewrite ?dx_length, ?v_of_len by exact HC; unfold o_of; rewrite ?map_length; reflexivity.
  Qed.

  Lemma access_ok P st o d v : rel P st o -> In d order -> (assoc d (groups m) = None -> P d) ->
    (assoc d (groups m) = None -> (exists f, assoc d (funcs m) = Some (Ok f)) \/ exists op, assoc d (ops m) = Some op) ->
    get nu d st = Ok v ->
    (forall x, assoc d (expected m) = Some x -> vshape v = x) /\ exists w, access k o d = Ok w /\ same_value v w.
  Proof.
    intros R I PD KN E. destruct (assoc d (groups m)) as [g|] eqn:G.
    - destruct (group_read P st o d g R I G) as (l & EL & L & D). rewrite EL in E. injection E as <-. split.
      + intros x Hx. cbn. rewrite L. symmetry. now apply (group_expected d).
      + unfold access. rewrite (group_lookup d g I G), D. cbn [rbind]. eexists. split; [reflexivity|]. cbn.
        rewrite <- cols_if. split; [reflexivity|]. split; [reflexivity|]. reflexivity.
    - unfold get in E. fold m in E. rewrite G in E. destruct (st_vals st d) as [v'|] eqn:SV; [|discriminate]. injection E as ->.
      split; [intros x Hx; now apply (r_shapes _ _ _ R d v x (PD eq_refl))|].
      destruct (r_vals _ _ _ R d v (PD eq_refl) SV) as (w & OV & M). exists w. split; [|exact M].
      unfold access. rewrite (group_none d G), OV.
      destruct (KN eq_refl) as [[f F]|[op O]].
      + destruct (funcs_fmat m d f F) as [A FA]. destruct (KFUN d f A I F FA) as [-> _]. reflexivity.
      + destruct (ops_shape m HC d op O) as (s & ES & _). destruct (KOP d op s O ES) as [-> _]. reflexivity.
  Qed.

  (** ** Evaluations *)

  (** What [name_update()] leaves, when the python evaluation gives [v]. *)
  Definition evaluated (name : string) (v : value) (o o' : object) : Prop :=
    ob_args o' = ob_args o /\ ob_rate o' = ob_rate o /\ (forall s, s <> name -> ob_vals o' s = ob_vals o s) /\
    (exists w, ob_vals o' name = Some w /\ same_value v w) /\
    (forall x, assoc name (expected m) = Some x -> vshape v = x) /\
    (forall f, assoc name (funcs m) = Some (Ok f) -> vshape v = fshape f).

  Lemma deps_known name op d : assoc name (ops m) = Some op -> In d (deps_of op) -> assoc d (groups m) = None ->
    (exists f, assoc d (funcs m) = Some (Ok f)) \/ exists o, assoc d (ops m) = Some o.
  Proof.
    intros H I G.
    destruct (jac_ok m Sl Sl W HC) as (Fl & Jll & EFl & LFl & EJll & _ & NR1 & NC1).
    destruct (jac_ok m Snl Sl W HC) as (Fnl & Jnll & EFnl & LFnl & EJnll & _ & NR2 & NC2).
    destruct (G_ok m Sl Fl Jll W HC EFl LFl EJll NR1 NC1) as (Gl & EGl & LGl & _).
    destruct (G_ok m Snl Fnl Jnll W HC EFnl LFnl EJnll NR2 NC2) as (Gnl & EGnl & LGnl & _).
    unfold funcs, jacG. rewrite EJll, EJnll, EGl, EGnl. cbn [rbind].
    apply in_ops in H; unfold ops;
    destruct H as [[-> ->]|[[HL [H|[H|[]]]]|[HN [H|[H|[H|[H|[H|[H|[H|[]]]]]]]]]]]; try (match goal with E : (_, _) = (_, _) |- _ => injection E as <- <- end);
      try destruct (has_l m); try rewrite ?HL; try rewrite ?HN; cbn in I;
      repeat (destruct I as [<-|I]); try contradiction; try discriminate;
      first [left; eexists; reflexivity | right; eexists; reflexivity | discriminate HL].
  Qed.

  Lemma op_update P st o name op v : rel P st o -> In name order -> assoc name (ops m) = Some op ->
    (forall d, In d (deps_of op) -> assoc d (groups m) = None -> P d) ->
    run_eval nu name st = Ok v ->
    exists o', run_call cinv k (CUpdate name) o = Ok o' /\ evaluated name v o o'.
  Proof.
    intros R I O PD E. unfold run_eval in E. fold m in E. rewrite O in E.
    destruct (ops_shape m HC name op O) as (s & ES & SH).
    destruct (op_ok (n_inv nu) cinv INV k o (fun d => get nu d st) (fun d => assoc d (expected m)) op s v SH) as [VS (w & EW & M)]; [|exact E|].
    - intros d x Hd Ex. apply (access_ok P st); [exact R|now apply (OC name op)|now apply PD| |exact Ex].
      intros G. now apply (deps_known name op).
    - destruct (KOP name op s O ES) as [KT KB]. cbn [run_call]. rewrite KB. cbn [run_stmts run_stmt]. rewrite EW. cbn [rbind].
      unfold assign. rewrite KT. rewrite <- VS, (same_type v w M). cbn [rbind]. eexists. split; [reflexivity|].
      split; [reflexivity|]. split; [reflexivity|]. split; [|split; [|split]].
      + intros t Ht. cbn. destruct (String.eqb_spec t name) as [->|_]; [contradiction|reflexivity].
      + exists w. cbn. rewrite String.eqb_refl. now split.
      + intros x Hx. rewrite ES in Hx. now injection Hx as <-.
      + intros f F. destruct (ops_names m name op O). congruence.
  Qed.

  Lemma entries_run name A (r : env) : forall ps o B,
    (forall p, In p ps -> fst p < nr A /\ snd p < nc A) ->
    (forall o', ob_args o' = ob_args o -> ob_rate o' = ob_rate o -> forall p, In p ps ->
       code_eval k o' (ent A (fst p) (snd p)) = Ok (eval r (ent A (fst p) (snd p)))) ->
    ob_vals o name = Some (CMa (nr A) (nc A) B) ->
    exists o' B', run_stmts cinv k (map (fun p => SEntry name (fst p) (snd p) (ent A (fst p) (snd p))) ps) o = Ok o' /\
      ob_args o' = ob_args o /\ ob_rate o' = ob_rate o /\ (forall s, s <> name -> ob_vals o' s = ob_vals o s) /\
      ob_vals o' name = Some (CMa (nr A) (nc A) B') /\
      forall i j, (In (i, j) ps -> B' i j = eval r (ent A i j)) /\ (~ In (i, j) ps -> B' i j = B i j).
  Proof.
    induction ps as [|[a b] ps IH]; intros o B IN CE OV.
    - exists o, B. split; [reflexivity|]. do 4 (split; [auto|]). intros i j. split; [intros []|reflexivity].
    - cbn [map run_stmts run_stmt fst snd]. pose proof (CE o eq_refl eq_refl (a, b) (or_introl eq_refl)) as C0. cbn [fst snd] in C0. rewrite C0. cbn [rbind].
      destruct (IN (a, b)) as [Ha Hb]; [now left|]. cbn [fst snd] in Ha, Hb.
      unfold assign_entry. rewrite OV. rewrite (proj2 (Nat.ltb_lt a (nr A)) Ha), (proj2 (Nat.ltb_lt b (nc A)) Hb). cbn [andb rbind].
      set (B1 := fun i j => if Nat.eqb i a && Nat.eqb j b then eval r (ent A a b) else B i j).
      destruct (IH (set_member name (CMa (nr A) (nc A) B1) o) B1) as (o' & B' & E & EA & ER & EO & EN & EB).
      + intros p Hp. apply IN. now right.
      + intros o' A1 A2 p Hp. apply CE; [exact A1|exact A2|now right].
      + cbn. now rewrite String.eqb_refl.
      + exists o', B'. split; [exact E|]. split; [exact EA|]. split; [exact ER|]. split; [|split; [exact EN|]].
        * intros s Hs. rewrite EO by exact Hs. cbn. destruct (String.eqb_spec s name) as [->|_]; [contradiction|reflexivity].
        * intros i j. destruct (EB i j) as [E1 E2].
          destruct (in_dec (fun x y : nat * nat => ltac:(decide equality; apply Nat.eq_dec)) (i, j) ps) as [I|NI].
          -- split; [intros _; now apply E1|]. intros N. elim N. now right.
          -- split.
             ++ intros [H|H]; [|contradiction]. injection H as <- <-. rewrite E2 by exact NI. unfold B1. now rewrite !Nat.eqb_refl.
             ++ intros N. rewrite E2 by exact NI. unfold B1.
                destruct (Nat.eqb_spec i a) as [->|_]; [|reflexivity]. destruct (Nat.eqb_spec j b) as [->|_]; [|reflexivity].
                elim N. now left.
  Qed.

  Lemma in_positions A i j : In (i, j) (positions A) <-> i < nr A /\ j < nc A.
  Proof.
    unfold positions. rewrite in_flat_map. split.
    - intros (a & Ha & H). apply in_map_iff in H. destruct H as (b & E & Hb). injection E as <- <-.
      apply in_seq in Ha, Hb. lia.
    - intros [Hi Hj]. exists i. split; [apply in_seq; lia|]. apply in_map_iff. exists j. split; [reflexivity|apply in_seq; lia].
  Qed.

  Lemma func_value f A r B : fmat f = Ok A -> (forall i j, i < nr A -> j < nc A -> B i j = eval r (ent A i j)) ->
    same_value (fexpr_eval r f) (CMa (nr A) (nc A) B).
  Proof.
    destruct f as [e|l|M]; cbn; intros E H; [discriminate| |]; injection E as <-; cbn [nr nc ent] in *.
    - rewrite map_length, <- cols_if. split; [reflexivity|]. split; [reflexivity|]. intros i Hi.
      rewrite (nth_indep _ 0%R (eval r (Num 0))) by (rewrite map_length; exact Hi). rewrite map_nth. apply H; [exact Hi|].
      destruct (length l); cbn; lia.
    - split; [reflexivity|]. split; [reflexivity|]. intros i j Hi Hj. symmetry. now apply H.
  Qed.

  Lemma eval_func_env name f st v : assoc name (funcs m) = Some (Ok f) -> length (st_args st) = length (args_of m) ->
    eval_func nu f st = Ok v -> exists r, v = fexpr_eval r f /\ forall s, In s (fexpr_symbols f) -> r s = senv nu st s.
  Proof.
    intros F L E. unfold eval_func in E. fold m in E. set (g := fexpr_symbols f) in *.
    pose proof (find_names g (args_of m) 0) as FN. fold (find String.eqb g (args_of m)) in FN.
    pose proof (read_ok g (args_of m) (st_args st) L) as RD.
    destruct (find String.eqb g (args_of m)) as [names inds]. cbn [fst snd] in FN, RD. subst names.
    rewrite RD in E. cbn [rbind] in E. match type of E with (if ?c then _ else _) = _ => destruct c; [|discriminate] end.
    injection E as <-. eexists. split; [reflexivity|]. intros s Hs. unfold total, senv, total. fold m. unfold call_env.
    destruct (assoc s (n_subs nu)); [reflexivity|]. rewrite assoc_picks; [reflexivity|exact L|now apply existsb_in].
  Qed.

  Lemma fmat_symbols f A i j s : fmat f = Ok A -> i < nr A -> j < nc A -> In s (free_symbols (ent A i j)) -> In s (fexpr_symbols f).
  Proof.
    destruct f as [e|l|B]; cbn; intros E Hi Hj Hs; [discriminate| |]; injection E as <-; cbn [nr nc ent] in *.
    - apply in_flat_map. exists (nth i l (Num 0)). split; [now apply nth_In|exact Hs].
    - unfold mat_symbols. apply in_flat_map. exists i. split; [apply in_seq; lia|].
      apply in_flat_map. exists j. split; [apply in_seq; lia|exact Hs].
  Qed.

  Lemma fun_update P st o name f v : rel P st o -> In name order -> assoc name (funcs m) = Some (Ok f) ->
    run_eval nu name st = Ok v ->
    exists o', run_call cinv k (CUpdate name) o = Ok o' /\ evaluated name v o o' /\
      (forall A, fmat f = Ok A -> exists B, ob_vals o' name = Some (CMa (nr A) (nc A) B) /\
         forall i j, i < nr A -> j < nc A -> B i j = eval (senv nu st) (ent A i j)).
  Proof.
    intros R I F E. destruct (funcs_names m name _ F) as [_ NO]. unfold run_eval in E. fold m in E. rewrite NO, F in E. cbn [rbind] in E.
    destruct (eval_func_env name f st v F (r_size _ _ _ R) E) as (r & -> & HR).
    destruct (funcs_fmat m name f F) as [A FA]. destruct (KFUN name f A I F FA) as [KT KB].
    destruct (r_frozen _ _ _ R name f A I F FA) as (B & OV & FZ).
    cbn [run_call]. rewrite KB. unfold func_update.
    set (ps := filter (fun p => depends m (ent A (fst p) (snd p))) (row_list A)).
    assert (PS : forall i j, In (i, j) ps <-> (i < nr A /\ j < nc A) /\ depends m (ent A i j) = true).
    { intros i j. unfold ps, row_list. rewrite !filter_In, in_positions. cbn [fst snd]. split; [tauto|]. intros [Q D].
      split; [split; [exact Q|]|exact D]. destruct (is0 (ent A i j)) eqn:Z; [|reflexivity].
      apply is0_zero in Z. destruct Z as [Z _]. unfold depends in D. rewrite Z in D. discriminate. }
    destruct (entries_run name A (senv nu st) ps o B) as (o' & B' & ER & EA & ERt & EO & EN & EB).
    - intros [i j] Hp. now apply PS in Hp.
    - intros o' A1 A2 [i j] Hp. apply code_ok. intros s Hs. apply PS in Hp. cbn [fst snd] in *.
      apply deref_senv; [rewrite A1; apply R|apply R|rewrite A2; apply R|]. now apply (func_valued name f A i j F FA).
    - exact OV.
    - assert (V : forall i j, i < nr A -> j < nc A -> B' i j = eval (senv nu st) (ent A i j)).
      { intros i j Hi Hj. destruct (EB i j) as [E1 E2]. destruct (depends m (ent A i j)) eqn:D.
        - apply E1. apply PS. now split.
        - rewrite E2 by (rewrite PS; intros [_ D']; congruence). rewrite free_base by exact D. now apply FZ. }
      exists o'. split; [exact ER|]. split; [split; [exact EA|split; [exact ERt|split; [exact EO|split; [|split]]]]|].
      + eexists. split; [exact EN|]. apply func_value; [exact FA|]. intros i j Hi Hj. rewrite V by assumption.
        apply eval_ext. intros s Hs. symmetry. apply HR. now apply (fmat_symbols f A i j).
      + intros x Hx. rewrite <- (funcs_shape m W HC name f x F Hx). destruct f; cbn; rewrite ?map_length; reflexivity.
      + intros f' F'. rewrite F in F'. injection F' as <-. destruct f; cbn; rewrite ?map_length; reflexivity.
      + intros A' FA'. rewrite FA in FA'. injection FA' as <-. exists B'. now split.
  Qed.

  (** Both kinds of evaluations. *)
  Lemma update_rel P st o name v : rel P st o -> In name order -> assoc name (groups m) = None ->
    (forall op d, assoc name (ops m) = Some op -> In d (deps_of op) -> assoc d (groups m) = None -> P d) ->
    run_eval nu name st = Ok v ->
    exists o', run_call cinv k (CUpdate name) o = Ok o' /\ evaluated name v o o' /\
      rel (fun s => P s \/ s = name) (set_val name v st) o' /\ rel (fun s => P s /\ s <> name) st o'.
  Proof.
    intros R I G PD E.
    assert (X : exists o', run_call cinv k (CUpdate name) o = Ok o' /\ evaluated name v o o' /\
      forall f A, assoc name (funcs m) = Some (Ok f) -> fmat f = Ok A ->
        exists B, ob_vals o' name = Some (CMa (nr A) (nc A) B) /\
         forall i j, i < nr A -> j < nc A -> B i j = eval (senv nu st) (ent A i j)).
    { destruct (assoc name (ops m)) as [op|] eqn:O.
      - destruct (op_update P st o name op v R I O (fun d => PD op d eq_refl) E) as (o' & E1 & E2). exists o'. split; [exact E1|]. split; [exact E2|].
        intros f A F. apply (ops_names m) in O. destruct O; congruence.
      - destruct (assoc name (funcs m)) as [[f|e]|] eqn:F.
        + destruct (fun_update P st o name f v R I F E) as (o' & E1 & E2 & E3). exists o'. split; [exact E1|]. split; [exact E2|].
          intros f' A F'. injection F' as <-. apply E3.
        + unfold run_eval in E. fold m in E. rewrite O, F in E. discriminate.
        + unfold run_eval in E. fold m in E. rewrite O, F in E. discriminate. }
    destruct X as (o' & E1 & E2 & E3). exists o'. split; [exact E1|]. split; [exact E2|].
    destruct E2 as (EA & ER & EO & (w & OV & M) & SH & FSH).
    assert (FZ : forall n f A, In n order -> assoc n (funcs m) = Some (Ok f) -> fmat f = Ok A ->
      exists B, ob_vals o' n = Some (CMa (nr A) (nc A) B) /\
        forall i j, i < nr A -> j < nc A -> depends m (ent A i j) = false -> B i j = eval base (ent A i j)).
    { intros n f A In' F FA. destruct (string_dec n name) as [->|N].
      - destruct (E3 f A F FA) as (B & EB & VB). exists B. split; [exact EB|]. intros i j Hi Hj D. rewrite VB by assumption. now apply free_base.
      - rewrite EO by exact N. now apply (r_frozen _ _ _ R n f A). }
    split; constructor; cbn [set_val st_args st_vals]; try (rewrite ?EA, ?ER; apply R); try exact FZ.
    - intros s v' [Ps| ->] SV.
      + destruct (String.eqb_spec s name) as [->|N].
        * injection SV as <-. now exists w.
        * rewrite EO by exact N. now apply (r_vals _ _ _ R s v').
      + rewrite String.eqb_refl in SV. injection SV as <-. now exists w.
    - intros s v' x Ps SV Hx. destruct (String.eqb_spec s name) as [->|N].
      + injection SV as <-. now apply SH.
      + destruct Ps as [Ps|Ps]; [now apply (r_shapes _ _ _ R s v')|contradiction].
    - intros s v' f Ps SV Hx. destruct (String.eqb_spec s name) as [->|N].
      + injection SV as <-. now apply FSH.
      + destruct Ps as [Ps|Ps]; [now apply (r_fshape _ _ _ R s v')|contradiction].
    - intros s v' [Ps N] SV. rewrite EO by exact N. now apply (r_vals _ _ _ R s v').
    - intros s v' x [Ps N]. now apply (r_shapes _ _ _ R s v').
    - intros s v' f [Ps N]. now apply (r_fshape _ _ _ R s v').
  Qed.

  (** ** Mutators *)

  Lemma writes_ok : forall g l o, length l = length g -> NoDup g -> (forall s, In s g -> In s (args_of m)) ->
    length (ob_args o) = length (args_of m) ->
    exists a, writes k (combine g l) o = Ok (mkObject a (ob_rate o) (ob_vals o)) /\ length a = length (args_of m) /\
      forall s, assoc s (combine (args_of m) a) = match assoc s (combine g l) with Some v => Some v | None => assoc s (combine (args_of m) (ob_args o)) end.
  Proof.
    induction g as [|s g IH]; intros [|v l] o L NG IN LO; cbn in L; try discriminate.
    - exists (ob_args o). split; [now destruct o|]. split; [exact LO|]. reflexivity.
    - inversion NG as [|? ? Ns NG']; subst. cbn [combine writes]. rewrite KF.
      assert (As : In s (args_of m)) by (apply IN; now left).
      rewrite (proj2 (mem_false s (map fst subs))) by (now apply arg_not_sub). unfold write.
      destruct (pointer_arg s As) as (i & -> & Ni). cbn [rbind].
      destruct (IH l (mkObject (put i v (ob_args o)) (ob_rate o) (ob_vals o))) as (a & E & LA & Q); [lia|exact NG'|intros x Hx; apply IN; now right|cbn; now rewrite put_length|].
      exists a. split; [exact E|]. split; [exact LA|]. intros t. rewrite Q. cbn [ob_args combine assoc].
      rewrite (assoc_put s i v (args_of m) (ob_args o) LO ND Ni).
      destruct (assoc t (combine g l)) as [x|] eqn:Et.
      + destruct (String.eqb_spec s t) as [->|_]; [|reflexivity]. apply assoc_in, in_combine_l in Et. contradiction.
      + now destruct (String.eqb s t).
  Qed.

  Lemma group_nodup name g : assoc name (groups m) = Some g -> NoDup g.
  Proof.
    intros G. pose proof (groups_basic m HC ND name g (assoc_in _ _ _ G)) as B. unfold basic in B. rewrite <- B.
    unfold among. now apply NoDup_filter.
  Qed.

  Lemma set_same name g l st st' o : In name order -> assoc name (groups m) = Some g -> length l = length g ->
    length (st_args st) = length (args_of m) -> length (ob_args o) = length (args_of m) ->
    setarg nu g (Ve l) st = Ok st' ->
    st_vals st' = st_vals st /\ length (st_args st') = length (args_of m) /\
    (forall s, assoc s (combine (args_of m) (st_args st')) =
       match assoc s (combine g l) with Some v => Some v | None => assoc s (combine (args_of m) (st_args st)) end) /\
    exists a, set_group k name l o = Ok (mkObject a (ob_rate o) (ob_vals o)) /\ length a = length (args_of m) /\
      (forall s, assoc s (combine (args_of m) a) =
         match assoc s (combine g l) with Some v => Some v | None => assoc s (combine (args_of m) (ob_args o)) end).
  Proof.
    intros I G L LS LO E.
    pose proof (groups_basic m HC ND name g (assoc_in _ _ _ G)) as B. unfold basic in B.
    unfold setarg, inds_of in E. fold m in E. rewrite (write_ok g (args_of m) (st_args st) l LS) in E by (rewrite B; exact L).
    cbn [rbind] in E. injection E as <-. cbn [st_vals st_args]. split; [reflexivity|]. split; [rewrite merge_length; exact LS|]. split.
    - intros s. rewrite (assoc_merge g s (args_of m) (st_args st) l LS) by (rewrite B; exact L). rewrite B.
      destruct (existsb (String.eqb s) g) eqn:X.
      + apply existsb_in in X. destruct (assoc_some s g l L X) as [v ->]. reflexivity.
      + destruct (assoc s (combine g l)) as [v|] eqn:Y; [|reflexivity]. apply assoc_in, in_combine_l in Y. apply existsb_in in Y. congruence.
    - destruct (writes_ok g l o L (group_nodup name g G) (group_args name g G) LO) as (a & EW & LA & Q).
      exists a. split; [|now split]. unfold set_group. rewrite (group_lookup name g I G). now rewrite L, Nat.eqb_refl.
  Qed.

  Lemma set_rel P st st' o name g l : rel P st o -> In name order -> assoc name (groups m) = Some g -> length l = length g ->
    setarg nu g (Ve l) st = Ok st' -> exists o', set_group k name l o = Ok o' /\ rel P st' o'.
  Proof.
    intros R I G L E.
    destruct (set_same name g l st st' o I G L (r_size _ _ _ R)) as (V & LS & Q & a & ES & LA & Qa); [rewrite (r_args _ _ _ R); apply R|exact E|].
    eexists. split; [exact ES|].
    assert (EA : a = st_args st').
    { apply (combine_ext (args_of m)); [exact ND|exact LA|exact LS|]. intros s _. rewrite Q, Qa, (r_args _ _ _ R). reflexivity. }
    constructor; cbn [ob_args ob_rate ob_vals]; try apply R; try assumption.
    - rewrite V. apply R.
    - rewrite V. apply R.
    - rewrite V. apply R.
  Qed.

  (** ** Commands *)

  Definition settled (s : string) : Prop := ~ In s auxiliary.

  Definition good_command (c : command) : Prop :=
    (fst c = snd c /\ In (fst c) order /\ assoc (fst c) (groups m) = None /\ settled (fst c)) \/
    (fst c <> snd c /\ In (fst c) order /\ In (snd c) order /\ In (snd c) auxiliary /\ assoc (snd c) (groups m) = None /\
     exists g, assoc (fst c) (groups m) = Some g /\ assoc (snd c) (expected m) = Some (HV (length g))).

  Lemma command_rel c st st' o : rel settled st o -> good_command c -> execs nu [c] st = Ok st' ->
    exists o', run_calls cinv k (gen_call c) o = Ok o' /\ rel settled st' o'.
  Proof.
    destruct c as [s e]. intros R GC E. cbn [execs] in E. destruct (run_eval nu e st) as [v|] eqn:EV; [|discriminate]. cbn [rbind] in E.
    destruct (set nu s v st) as [st1|] eqn:ES; [|discriminate]. cbn [rbind] in E. injection E as ->. unfold gen_call. cbn [fst snd].
    assert (PD : forall op d, assoc e (ops m) = Some op -> In d (deps_of op) -> assoc d (groups m) = None -> settled d).
    { intros op d O Hd _. now apply (ops_deps m e op d). }
    destruct GC as [(Q & I & G & S)|(Q & I1 & I2 & A & G & g & Gs & X)]; cbn [fst snd] in *.
    - subst e. rewrite String.eqb_refl. unfold set in ES. fold m in ES. rewrite G in ES.
      destruct (known nu s); [|discriminate]. injection ES as <-.
      destruct (update_rel settled st o s v R I G PD EV) as (o' & E1 & _ & R' & _). exists o'. cbn [run_calls]. rewrite E1. cbn [rbind].
      split; [reflexivity|]. apply (rel_weak _ settled) in R'; [exact R'|]. intros x Hx. now left.
    - destruct (String.eqb_spec s e) as [->|_]; [contradiction|].
      destruct (update_rel settled st o e v R I2 G PD EV) as (o' & E1 & EVD & _ & R'). cbn [run_calls]. rewrite E1. cbn [rbind].
      destruct EVD as (_ & _ & _ & (w & OV & M) & SH & _). specialize (SH _ X).
      destruct v as [x|l|n p B]; cbn in SH; try discriminate. injection SH as L.
      unfold set in ES. fold m in ES. rewrite Gs in ES.
      assert (R'' : rel settled st o').
      { apply (rel_weak _ settled) in R'; [exact R'|]. intros y Hy. split; [exact Hy|]. intros ->. now apply Hy. }
      destruct (set_rel settled st st' o' s g l R'' I1 Gs L ES) as (o'' & E2 & R3). exists o''. split; [|exact R3].
      cbn [run_call]. rewrite OV. destruct w as [|n p B]; cbn in M; [contradiction|]. destruct M as (-> & -> & HB).
      cbn [set_group_matrix]. rewrite <- cols_if, Nat.eqb_refl.
      replace (map (fun i => B i 0) (seq 0 (length l))) with l.
      + rewrite E2. reflexivity.
      + apply (nth_ext _ _ 0%R 0%R); [now rewrite map_length, seq_length|]. intros i Hi. rewrite nth_map_seq by exact Hi. symmetry. now apply HB.
  Qed.

  Lemma run_calls_app a b o : run_calls cinv k (a ++ b) o = rbind (run_calls cinv k a o) (run_calls cinv k b).
  Proof. revert o. induction a as [|c a IH]; intros o; cbn [app run_calls]; [reflexivity|]. destruct (run_call cinv k c o); cbn; [apply IH|reflexivity]. Qed.

  Lemma commands_rel : forall l st st' o, (forall c, In c l -> good_command c) -> rel settled st o -> execs nu l st = Ok st' ->
    exists o', run_calls cinv k (flat_map gen_call l) o = Ok o' /\ rel settled st' o'.
  Proof.
    induction l as [|c l IH]; intros st st' o GC R E.
    - injection E as <-. now exists o.
    - assert (E' : exists st1, execs nu [c] st = Ok st1 /\ execs nu l st1 = Ok st').
      { destruct c as [s e]. cbn [execs] in *. destruct (run_eval nu e st) as [v|]; [|discriminate]. cbn [rbind] in *.
        destruct (set nu s v st) as [st1|]; [|discriminate]. cbn [rbind] in *. now exists st1. }
      destruct E' as (st1 & E1 & E2). destruct (command_rel c st st1 o R (GC c (or_introl eq_refl)) E1) as (o1 & C1 & R1).
      destruct (IH st1 st' o1) as (o' & C2 & R2); [intros x Hx; apply GC; now right|exact R1|exact E2|].
      exists o'. split; [|exact R2]. cbn [flat_map]. rewrite run_calls_app, C1. exact C2.
  Qed.

  (** ** Iterations *)

  Lemma number_rel st o d x : rel settled st o -> In d order -> settled d -> assoc d (groups m) = None ->
    (exists op, assoc d (ops m) = Some op) -> scalar (get nu d st) = Ok x -> number_of (access k o d) = Ok x.
  Proof.
    intros R I S G O E. unfold scalar in E. destruct (get nu d st) as [v|] eqn:EG; [|discriminate]. cbn [rbind] in E.
    destruct v as [y| |]; try discriminate. injection E as ->.
    destruct (access_ok settled st o d (Sc x) R I (fun _ => S) (fun _ => or_intror O) EG) as [_ (w & EW & M)].
    unfold number_of. rewrite EW. cbn [rbind]. destruct w; cbn in M; [now subst|contradiction].
  Qed.

  Lemma while_rel l res step : (forall c, In c l -> good_command c) ->
    In res order -> settled res -> assoc res (groups m) = None -> (exists op, assoc res (ops m) = Some op) ->
    In step order -> settled step -> assoc step (groups m) = None -> (exists op, assoc step (ops m) = Some op) ->
    assoc step (expected m) = Some HS ->
    forall n st st' j o, rel settled st o -> (exists v, st_vals st step = Some v) ->
    iterate (execs nu l) (fun st => scalar (get nu res st)) (fun st => scalar (get nu step st)) (n_eps nu) n st = Ok (st', j) ->
    exists o', while cinv k (flat_map gen_call l) res step n o = Ok o' /\ rel settled st' o'.
  Proof.
    intros GC I1 S1 G1 O1 I2 S2 G2 O2 X.
    assert (KEEP : forall l st st', (exists v, st_vals st step = Some v) -> execs nu l st = Ok st' -> exists v, st_vals st' step = Some v).
    { induction l0 as [|[s e] l0 IH]; intros st st' (v & SV) E; cbn [execs] in E; [injection E as <-; now exists v|].
      destruct (run_eval nu e st) as [x|]; [|discriminate]. cbn [rbind] in E.
      destruct (set nu s x st) as [st1|] eqn:ES; [|discriminate]. cbn [rbind] in E. apply (IH st1 st'); [|exact E].
      unfold set in ES. fold m in ES. destruct (assoc s (groups m)).
      - unfold setarg in ES. destruct (write_at _ _ _); [|discriminate]. injection ES as <-. now exists v.
      - destruct (known nu s); [|discriminate]. injection ES as <-. cbn. destruct (String.eqb step s); [now exists x|now exists v]. }
    induction n as [|n IH]; intros st st' j o R (v & SV) E; cbn [iterate while] in *;
      (destruct (scalar (get nu res st)) as [a|] eqn:EA; [|discriminate]); cbn [rbind] in E;
      rewrite (number_rel st o res a R I1 S1 G1 O1 EA); cbn [rbind];
      assert (EB : exists b, scalar (get nu step st) = Ok b)
        by (unfold get; fold m; rewrite G2, SV; pose proof (r_shapes _ _ _ R step v HS S2 SV X) as VS; destruct v; try discriminate; now eexists);
      destruct EB as [b EB]; rewrite (number_rel st o step b R I2 S2 G2 O2 EB); cbn [rbind]; rewrite EB in E; cbn [rbind] in E; try rewrite KE.
    - exists o. split; [reflexivity|]. destruct (Rlt_dec (n_eps nu) a); [destruct (Rlt_dec (n_eps nu) b)|]; injection E as <- _; exact R.
    - destruct (Rlt_dec (n_eps nu) a); [|injection E as <- _; now exists o].
      destruct (Rlt_dec (n_eps nu) b); [|injection E as <- _; now exists o].
      destruct (execs nu l st) as [st1|] eqn:EX; [|discriminate]. cbn [rbind] in E.
      destruct (iterate _ _ _ (n_eps nu) n st1) as [[st2 j']|] eqn:EI; [|discriminate]. cbn [rbind] in E. injection E as <- _.
      destruct (commands_rel l st st1 o GC R EX) as (o1 & C1 & R1). rewrite C1. cbn [rbind].
      apply (IH st1 st2 j' o1 R1); [|exact EI]. apply (KEEP l st); [now exists v|exact EX].
  Qed.

  Definition good_action (a : action) : Prop :=
    match a with
    | Exec l => forall c, In c l -> good_command c
    | Iter l res step => (forall c, In c l -> good_command c) /\
        (In res order /\ settled res /\ assoc res (groups m) = None /\ exists op, assoc res (ops m) = Some op) /\
        (In step order /\ settled step /\ assoc step (groups m) = None /\ (exists op, assoc step (ops m) = Some op) /\
         assoc step (expected m) = Some HS)
    end.

  Lemma rel_it P st o n : rel P st o -> rel P (mkState (st_args st) (st_vals st) n) o.
  Proof. intros [A B C D E F G]. constructor; auto. Qed.

  Lemma actions_rel : forall l st st' o, (forall a, In a l -> good_action a) -> rel settled st o ->
    run_actions nu l st = Ok st' -> exists o', run_blocks cinv k (map gen_action l) o = Ok o' /\ rel settled st' o'.
  Proof.
    induction l as [|a l IH]; intros st st' o GA R E; [injection E as <-; now exists o|].
    assert (X : exists st1 o1, run_block cinv k (gen_action a) o = Ok o1 /\ rel settled st1 o1 /\ run_actions nu l st1 = Ok st').
    { specialize (GA a (or_introl eq_refl)). destruct a as [c|c res step]; cbn [run_actions gen_action run_block] in *.
      - destruct (execs nu c st) as [st1|] eqn:EX; [|discriminate]. cbn [rbind] in E.
        destruct (commands_rel c st st1 o GA R EX) as (o1 & C1 & R1). exists st1, o1. now split.
      - destruct GA as (GC & (I1 & S1 & G1 & O1) & (I2 & S2 & G2 & O2 & X)).
        unfold iterexecs in E. unfold set in E. fold m in E. rewrite G2 in E.
        assert (KN : known nu step = true) by (unfold known; fold m; destruct O2 as [op ->]; reflexivity).
        rewrite KN in E. cbn [rbind] in E.
        match type of E with context [iterate ?f ?g ?h ?e ?n ?s] => destruct (iterate f g h e n s) as [[st1 j]|] eqn:EI; [|discriminate] end.
        cbn [rbind] in E. destruct O2 as [op O2]. destruct (KOP step op HS O2 X) as [KT _].
        unfold assign. rewrite KT. cbn [ctype_of has_type rbind].
        assert (R0 : rel settled (set_val step (Sc 1) st) (set_member step (CSc 1) o)).
        { constructor; cbn [set_val set_member st_args st_vals ob_args ob_rate ob_vals]; try apply R.
          - intros s v Ps SV. destruct (String.eqb s step); [injection SV as <-; exists (CSc 1); split; reflexivity|now apply (r_vals _ _ _ R s v)].
          - intros name f A In' F FA. destruct (String.eqb_spec name step) as [->|_]; [|now apply (r_frozen _ _ _ R name f A)].
            apply (ops_names m) in O2. destruct O2; congruence.
          - intros s v x Ps SV Hx. destruct (String.eqb_spec s step) as [->|_]; [injection SV as <-; rewrite X in Hx; now injection Hx as <-|now apply (r_shapes _ _ _ R s v)].
          - intros s v f Ps SV Hx. destruct (String.eqb_spec s step) as [->|_]; [apply (ops_names m) in O2; destruct O2; congruence|now apply (r_fshape _ _ _ R s v)]. }
        destruct (while_rel c res step GC I1 S1 G1 O1 I2 S2 G2 (ex_intro _ op O2) X (n_maxit nu) _ st1 j _ R0) as (o1 & C1 & R1);
          [exists (Sc 1); cbn; now rewrite String.eqb_refl|exact EI|].
        exists (mkState (st_args st1) (st_vals st1) j), o1. rewrite KM. split; [exact C1|]. split; [now apply rel_it|exact E]. }
    destruct X as (st1 & o1 & C1 & R1 & E1).
    destruct (IH st1 st' o1) as (o' & C2 & R2); [intros x Hx; apply GA; now right|exact R1|exact E1|].
    exists o'. split; [|exact R2]. cbn [map run_blocks]. rewrite C1. exact C2.
  Qed.

  (** ** The constructor *)

  Definition frozen (o : object) (name : string) : Prop := forall f A, assoc name (funcs m) = Some (Ok f) -> fmat f = Ok A ->
    exists B, ob_vals o name = Some (CMa (nr A) (nc A) B) /\
      forall i j, i < nr A -> j < nc A -> depends m (ent A i j) = false -> B i j = eval base (ent A i j).

  Lemma free_args e s : depends m e = false -> In s (free_symbols e) -> ~ In s (args_of m).
  Proof.
    intros D Hs I. rewrite <- mem_in in I. unfold depends in D.
    assert (X : existsb (fun s => mem s (args_of m)) (free_symbols e) = true); [|congruence]. apply existsb_exists. now exists s.
  Qed.

  Lemma data_value o name f A e : ob_rate o = rate -> assoc name (funcs m) = Some (Ok f) -> fmat f = Ok A ->
    In e (func_data m A) -> code_eval k o e = Ok (eval base e).
  Proof.
    intros ER F FA He. apply code_ok. intros s Hs. unfold func_data in He. apply in_flat_map in He. destruct He as (j & Hj & He).
    apply in_map_iff in He. destruct He as (i & <- & Hi). apply in_seq in Hi, Hj.
    destruct (negb (is0 (ent A i j)) && negb (depends m (ent A i j))) eqn:D; [|destruct Hs].
    apply andb_prop in D. destruct D as [_ D]. apply negb_true_iff in D. pose proof (free_args _ s D Hs) as NA.
    destruct (func_valued name f A i j F FA ltac:(lia) ltac:(lia) s Hs) as [I|I]; [contradiction|].
    destruct (assoc_keys s _ I) as [v E]. rewrite (deref_sub o s v ER NA E). unfold base, total. now rewrite E.
  Qed.

  Lemma load_rel : forall l o, ob_rate o = rate ->
    (forall name es, In (name, es) l -> In name order /\ exists f A, assoc name (funcs m) = Some (Ok f) /\ fmat f = Ok A /\ es = func_data m A) ->
    exists o', load_data k l o = Ok o' /\ ob_args o' = ob_args o /\ ob_rate o' = rate /\
      forall name, frozen o name \/ In name (map fst l) -> frozen o' name.
  Proof.
    induction l as [|[name es] l IH]; intros o ER H.
    - exists o. split; [reflexivity|]. split; [reflexivity|]. split; [exact ER|]. intros name [F|[]]. exact F.
    - destruct (H name es (or_introl eq_refl)) as (I & f & A & F & FA & ->). cbn [load_data].
      rewrite (rmap_map (code_eval k o) (eval base)) by (intros e He; now apply (data_value o name f A)). cbn [rbind].
      destruct (KFUN name f A I F FA) as [-> _].
      set (o1 := set_member name (CMa (nr A) (nc A) (fun i j => nth (j * nr A + i) (map (eval base) (func_data m A)) 0%R)) o).
      destruct (IH o1 ER) as (o' & E & EA & ER' & FZ); [intros n e He; apply H; now right|].
      exists o'. split; [exact E|]. split; [exact EA|]. split; [exact ER'|]. intros n Hn. apply FZ.
      destruct (string_dec n name) as [->|N].
      + left. intros f' A' F' FA'. rewrite F in F'. injection F' as <-. rewrite FA in FA'. injection FA' as <-.
        eexists. split; [cbn; now rewrite String.eqb_refl|]. intros i j Hi Hj D. cbv beta.
        replace 0%R with (eval base (Num 0)) by (cbn; unfold Q2R; cbn; lra). rewrite map_nth. unfold func_data.
        rewrite (nth_columns (fun i j => let e := ent A i j in if negb (is0 e) && negb (depends m e) then e else Num 0)) by assumption.
        cbn [Nat.add]. cbv zeta. rewrite D. destruct (is0 (ent A i j)) eqn:Z; [|reflexivity].
        cbn [negb andb]. apply is0_zero in Z. destruct Z as [_ ->]. cbn. unfold Q2R. cbn. lra.
      + destruct Hn as [Hn|[Hn|Hn]]; [|cbn in Hn; congruence|now right]. left. intros f' A' F' FA'.
        destruct (Hn f' A' F' FA') as (B & OB & HB). exists B. split; [|exact HB]. cbn.
        destruct (String.eqb_spec n name) as [->|_]; [contradiction|exact OB].
  Qed.

  (** The value of an argument after its groups are set. *)
  Fixpoint effect (l : list (string * list R)) (s : string) (d : option R) : option R :=
    match l with
    | [] => d
    | (n, vs) :: l' => effect l' s (match assoc n (groups m) with
        | Some g => match assoc s (combine g vs) with Some v => Some v | None => d end
        | None => d
        end)
    end.
  Definition fits (l : list (string * list R)) : Prop :=
    forall n vs, In (n, vs) l -> exists g, assoc n (groups m) = Some g /\ length vs = length g.

  Lemma effect_app a b s d : effect (a ++ b) s d = effect b s (effect a s d).
  Proof. revert d. induction a as [|[n vs] a IH]; intros d; cbn [app effect]; [reflexivity|]. apply IH. Qed.
  Lemma effect_no l s : (forall n g, In n (map fst l) -> assoc n (groups m) = Some g -> ~ In s g) -> forall d, effect l s d = d.
  Proof.
    induction l as [|[n vs] l IH]; intros H d; [reflexivity|]. cbn [effect]. rewrite IH by (intros x g Hx; apply H; now right).
    destruct (assoc n (groups m)) as [g|] eqn:G; [|reflexivity]. destruct (assoc s (combine g vs)) as [v|] eqn:E; [|reflexivity].
    apply assoc_in, in_combine_l in E. elim (H n g (or_introl eq_refl) G E).
  Qed.
  Lemma effect_yes l s n g : fits l -> In n (map fst l) -> assoc n (groups m) = Some g -> In s g -> forall d d', effect l s d = effect l s d'.
  Proof.
    induction l as [|[n' vs] l IH]; intros FT I G Hs d d'; [destruct I|]. cbn [effect].
    destruct (FT n' vs (or_introl eq_refl)) as (g' & G' & L). rewrite G'.
    destruct (assoc s (combine g' vs)) as [v|] eqn:E; [reflexivity|].
    destruct I as [I|I].
    - cbn in I. subst n'. rewrite G in G'. injection G' as <-. destruct (assoc_some s g vs L Hs) as [v E']. congruence.
    - apply IH; [intros x y Hx; apply FT; now right|exact I|exact G|exact Hs].
  Qed.

  Lemma set_groups_ok : forall l o, fits l -> (forall n, In n (map fst l) -> In n order) -> length (ob_args o) = length (args_of m) ->
    exists a, set_groups k l o = Ok (mkObject a (ob_rate o) (ob_vals o)) /\ length a = length (args_of m) /\
      forall s, assoc s (combine (args_of m) a) = effect l s (assoc s (combine (args_of m) (ob_args o))).
  Proof.
    induction l as [|[n vs] l IH]; intros o FT IO LO.
    - exists (ob_args o). split; [now destruct o|]. split; [exact LO|]. reflexivity.
    - destruct (FT n vs (or_introl eq_refl)) as (g & G & L).
      destruct (writes_ok g vs o L (group_nodup n g G) (group_args n g G) LO) as (a & EW & LA & Q).
      cbn [set_groups]. unfold set_group. rewrite (group_lookup n g (IO n (or_introl eq_refl)) G), L, Nat.eqb_refl, EW. cbn [rbind].
      destruct (IH (mkObject a (ob_rate o) (ob_vals o))) as (a' & E' & LA' & Q'); [intros x y Hx; apply FT; now right|intros x Hx; apply IO; now right|exact LA|].
      exists a'. split; [exact E'|]. split; [exact LA'|]. intros s. rewrite Q'. cbn [ob_args effect]. rewrite G, Q. reflexivity.
  Qed.

  Definition resolve (inits : list (string * option (list R))) : list (string * list R) :=
    map (fun kv => (fst kv, match snd kv with Some l => l | None => repeat 0%R (group_size m (fst kv)) end)) inits.

  Lemma init_args_ok : forall inits st st', init_args nu inits st = Ok st' -> length (st_args st) = length (args_of m) ->
    fits (resolve inits) /\ st_vals st' = st_vals st /\ length (st_args st') = length (args_of m) /\
    forall s, assoc s (combine (args_of m) (st_args st')) = effect (resolve inits) s (assoc s (combine (args_of m) (st_args st))).
  Proof.
    induction inits as [|[n v] inits IH]; intros st st' E L.
    - injection E as <-. split; [intros x y []|]. now split.
    - cbn [init_args] in E. fold m in E. destruct (assoc n (groups m)) as [g|] eqn:G; [|discriminate].
      pose proof (groups_basic m HC ND n g (assoc_in _ _ _ G)) as B. unfold basic in B.
      assert (LI : length (inds_of g m) = length g) by (unfold inds_of, find; rewrite find_inds_length, B; reflexivity). rewrite LI in E.
      set (vs := match v with Some l => l | None => repeat 0%R (group_size m n) end).
      assert (X : length vs = length g /\ exists st1, setarg nu g (Ve vs) st = Ok st1 /\ init_args nu inits st1 = Ok st').
      { unfold vs. destruct v as [l|].
        - destruct (Nat.eqb_spec (length l) (length g)) as [LG|]; [|discriminate]. split; [exact LG|].
          destruct (setarg nu g (Ve l) st) as [st1|]; [|discriminate]. now exists st1.
        - unfold group_size. rewrite G, repeat_length. split; [reflexivity|].
          destruct (setarg nu g _ st) as [st1|]; [|discriminate]. now exists st1. }
      destruct X as (LV & st1 & ES & EI). unfold setarg, inds_of in ES. fold m in ES.
      rewrite (write_ok g (args_of m) (st_args st) vs L) in ES by (rewrite B; exact LV). cbn [rbind] in ES. injection ES as <-.
      destruct (IH _ st' EI) as (FT & EV & L' & Q); [cbn; now rewrite merge_length|].
      split; [|split; [exact EV|split; [exact L'|]]].
      + intros x y [Hx|Hx]; [|now apply FT]. injection Hx as <- <-. exists g. now split.
      + intros s. rewrite Q. cbn [st_args resolve map fst snd effect]. fold vs. rewrite G. f_equal.
        rewrite (assoc_merge g s (args_of m) (st_args st) vs L) by (rewrite B; exact LV). rewrite B.
        destruct (existsb (String.eqb s) g) eqn:Y.
        * apply existsb_in in Y. destruct (assoc_some s g vs LV Y) as [w ->]. reflexivity.
        * destruct (assoc s (combine g vs)) as [w|] eqn:Z; [|reflexivity]. apply assoc_in, in_combine_l in Z. apply existsb_in in Z. congruence.
  Qed.

  Lemma nodup_flat {A} (f : A -> list string) : forall l, NoDup (flat_map f l) -> forall a b s, In a l -> In b l -> In s (f a) -> In s (f b) -> a = b.
  Proof.
    induction l as [|c l IH]; intros N a b s Ha Hb Sa Sb; [destruct Ha|]. cbn [flat_map] in N.
    assert (DJ : forall d, In d l -> In s (f c) -> In s (f d) -> False).
    { intros d Hd S1 S2. clear - N Hd S1 S2. induction (f c) as [|x g IHg]; [destruct S1|]. inversion N as [|? ? Nx N']; subst.
      destruct S1 as [->|S1]; [|now apply IHg]. apply Nx. apply in_or_app. right. apply in_flat_map. now exists d. }
    destruct Ha as [->|Ha], Hb as [->|Hb]; [reflexivity|now elim (DJ b)|now elim (DJ a)|].
    apply (IH (nodup_r _ _ N) a b s); assumption.
  Qed.
  Definition group_of (n : string) : list string := match assoc n (groups m) with Some g => g | None => [] end.
  Lemma args_groups : args_of m = flat_map group_of arg_names.
  Proof. unfold args_of, group_of. cbn. now rewrite app_nil_r. Qed.

  Lemma complete_effect inits s : fits (resolve inits) -> incl (map fst inits) arg_names -> In s (args_of m) ->
    forall d, effect (complete m inits) s d = effect (resolve inits) s (Some 0%R).
  Proof.
    intros FT IC Hs d. unfold complete. fold (resolve inits). rewrite effect_app.
    pose proof ND as N. rewrite args_groups in N, Hs. apply in_flat_map in Hs. destruct Hs as (n0 & I0 & Hs).
    assert (UQ : forall n g, In n arg_names -> assoc n (groups m) = Some g -> In s g -> n = n0).
    { intros n g In' G Sg. apply (nodup_flat group_of arg_names N n n0 s In' I0); [|exact Hs]. unfold group_of. now rewrite G. }
    assert (KR : map fst (resolve inits) = map fst inits) by (unfold resolve; now rewrite map_map).
    unfold group_of in Hs. destruct (assoc n0 (groups m)) as [g0|] eqn:G0; [|destruct Hs].
    set (zs := map (fun n => (n, repeat 0%R (group_size m n))) (filter (fun n => negb (mem n (map fst inits))) arg_names)).
    assert (KZ : map fst zs = filter (fun n => negb (mem n (map fst inits))) arg_names) by (unfold zs; rewrite map_map; apply map_id).
    destruct (mem n0 (map fst inits)) eqn:M.
    - rewrite (effect_no zs).
      + apply mem_in in M. apply (effect_yes _ s n0 g0 FT); [now rewrite KR|exact G0|exact Hs].
      + intros n g In' G Sg. rewrite KZ in In'. apply filter_In in In'. destruct In' as [I1 I2].
        rewrite (UQ n g I1 G Sg) in I2. rewrite M in I2. discriminate.
    - rewrite !(effect_no (resolve inits)).
      + assert (FZ : fits zs).
        { intros n vs Hn. unfold zs in Hn. apply in_map_iff in Hn. destruct Hn as (n' & E & Hn'). injection E as <- <-.
          apply filter_In in Hn'. destruct Hn' as [Hn' _]. rewrite repeat_length. unfold group_size.
          assert (X : exists g, assoc n' (groups m) = Some g); [|destruct X as [g X]; exists g; rewrite X; now split].
          cbn in Hn'. repeat (destruct Hn' as [<-|Hn']; [eexists; reflexivity|]). destruct Hn'. }
        assert (I : In n0 (map fst zs)) by (rewrite KZ; apply filter_In; split; [exact I0|now rewrite M]).
        rewrite (effect_yes zs s n0 g0 FZ I G0 Hs d (Some 0%R)).
        clear - zs. assert (Z : forall n vs v, In (n, vs) zs -> In v vs -> v = 0%R).
        { intros n vs v H Hv. unfold zs in H. apply in_map_iff in H. destruct H as (n' & E & _). injection E as <- <-. now apply repeat_spec in Hv. }
        revert Z. generalize zs. clear zs. intros l. induction l as [|[n vs] l IH]; intros Z; [reflexivity|]. cbn [effect].
        replace (match assoc n (groups m) with Some g => _ | None => _ end) with (Some 0%R); [apply IH; intros x y v Hx; apply (Z x y v); now right|].
        destruct (assoc n (groups m)) as [g|]; [|reflexivity]. destruct (assoc s (combine g vs)) as [v|] eqn:E; [|reflexivity].
        apply assoc_in, in_combine_r in E. f_equal. symmetry. exact (Z n vs v (or_introl eq_refl) E).
      + intros n g In' G Sg. rewrite KR in In'. rewrite (UQ n g (IC n In') G Sg) in In'. apply mem_in in In'. congruence.
      + intros n g In' G Sg. rewrite KR in In'. rewrite (UQ n g (IC n In') G Sg) in In'. apply mem_in in In'. congruence.
  Qed.

  Lemma complete_fits inits : fits (resolve inits) -> fits (complete m inits).
  Proof.
    intros FT n vs H. unfold complete in H. apply in_app_or in H. destruct H as [H|H]; [now apply FT|].
    apply in_map_iff in H. destruct H as (n' & E & H). injection E as <- <-. apply filter_In in H. destruct H as [H _].
    rewrite repeat_length. unfold group_size. assert (X : exists g, assoc n' (groups m) = Some g); [|destruct X as [g X]; exists g; rewrite X; now split].
    cbn in H. repeat (destruct H as [<-|H]; [eexists; reflexivity|]). destruct H.
  Qed.

  (** ** The evaluations of the constructor *)

  Lemma rel_same P st st' o : rel P st o -> st_args st' = st_args st -> (forall s, st_vals st' s = st_vals st s) -> rel P st' o.
  Proof.
    intros R EA EV. constructor; try rewrite EA; try apply R.
    - intros s v. rewrite EV. apply R.
    - intros s v x. rewrite EV. apply R.
    - intros s v f. rewrite EV. apply R.
  Qed.

  Variable st0 : state.
  Hypothesis FIX : forall n, In n order -> assoc n (groups m) = None -> exists v, st_vals st0 n = Some v /\ run_eval nu n st0 = Ok v.
  Hypothesis SRT : forall p n rest op d, order = p ++ n :: rest -> assoc n (ops m) = Some op -> In d (deps_of op) -> In d p.
  Hypothesis ONLY : forall s v, st_vals st0 s = Some v -> In s order /\ assoc s (groups m) = None.

  Lemma fix_known n : In n order -> assoc n (groups m) = None -> (exists f, assoc n (funcs m) = Some (Ok f)) \/ exists op, assoc n (ops m) = Some op.
  Proof.
    intros I G. destruct (FIX n I G) as (v & _ & E). unfold run_eval in E. fold m in E.
    destruct (assoc n (ops m)) as [op|]; [right; now exists op|]. destruct (assoc n (funcs m)) as [[f|]|]; try discriminate. left. now exists f.
  Qed.

  Lemma eval_rel P o name : rel P st0 o -> In name order -> assoc name (groups m) = None ->
    (forall op d, assoc name (ops m) = Some op -> In d (deps_of op) -> assoc d (groups m) = None -> P d) ->
    exists o', run_call cinv k (CUpdate name) o = Ok o' /\ rel (fun s => P s \/ s = name) st0 o'.
  Proof.
    intros R I G PD. destruct (FIX name I G) as (v & SV & E).
    destruct (update_rel P st0 o name v R I G PD E) as (o' & E1 & _ & R' & _). exists o'. split; [exact E1|].
    apply (rel_same _ _ st0) in R'; [exact R'|reflexivity|]. intros s. cbn. destruct (String.eqb_spec s name) as [->|_]; [exact SV|reflexivity].
  Qed.

  Definition is_op n := match assoc n (ops m) with Some _ => true | None => false end.
  Definition is_func n := match assoc n (funcs m) with Some _ => true | None => false end.

  Lemma func_calls : forall l (P : string -> Prop) o, rel P st0 o -> (forall n, In n l -> In n order /\ is_func n = true) ->
    exists o', run_calls cinv k (map CUpdate l) o = Ok o' /\ rel (fun s => P s \/ In s l) st0 o'.
  Proof.
    induction l as [|n l IH]; intros P o R H.
    - exists o. split; [reflexivity|]. apply (rel_weak P); [|exact R]. intros s [Hs|[]]. exact Hs.
    - destruct (H n (or_introl eq_refl)) as [I F]. unfold is_func in F. destruct (assoc n (funcs m)) as [f|] eqn:EF; [|discriminate].
      destruct (funcs_names m n f EF) as [G NO].
      destruct (eval_rel P o n R I G) as (o1 & E1 & R1); [intros op d O; congruence|].
      destruct (IH _ o1 R1) as (o' & E' & R'); [intros x Hx; apply H; now right|].
      exists o'. cbn [map run_calls]. rewrite E1. split; [exact E'|]. apply (rel_weak (fun s => (P s \/ s = n) \/ In s l)); [|exact R'].
      intros s [Hs|[Hs|Hs]]; auto.
  Qed.

  Lemma op_calls : forall rest p (P : string -> Prop) o, order = p ++ rest -> rel P st0 o ->
    (forall d, In d p -> assoc d (groups m) = None -> P d) -> (forall d, In d order -> is_func d = true -> P d) ->
    exists o', run_calls cinv k (map CUpdate (filter is_op rest)) o = Ok o' /\
      rel (fun s => In s order /\ assoc s (groups m) = None) st0 o'.
  Proof.
    induction rest as [|n rest IH]; intros p P o EO R HP HF.
    - exists o. split; [reflexivity|]. apply (rel_weak P); [|exact R]. intros s [I G]. apply HP; [|exact G]. rewrite EO, app_nil_r in I. exact I.
    - cbn [filter]. assert (In n order) as I by (rewrite EO; apply in_or_app; right; now left).
      assert (EO' : order = (p ++ [n]) ++ rest) by (rewrite <- app_assoc; exact EO).
      destruct (is_op n) eqn:O.
      + unfold is_op in O. destruct (assoc n (ops m)) as [op|] eqn:EO2; [|discriminate]. destruct (ops_names m n op EO2) as [G NF].
        destruct (eval_rel P o n R I G) as (o1 & E1 & R1).
        { intros op' d O' Hd Gd. rewrite EO2 in O'. injection O' as <-. apply HP; [|exact Gd]. now apply (SRT p n rest op). }
        destruct (IH (p ++ [n]) _ o1 EO' R1) as (o' & E' & R').
        * intros d Hd Gd. apply in_app_or in Hd. destruct Hd as [Hd|[<-|[]]]; [left; now apply HP|now right].
        * intros d Hd Fd. left. now apply HF.
        * exists o'. cbn [map run_calls]. rewrite E1. now split.
      + apply (IH (p ++ [n]) P o EO' R); [|exact HF]. intros d Hd Gd. apply in_app_or in Hd. destruct Hd as [Hd|[<-|[]]]; [now apply HP|].
        apply HF; [exact I|]. unfold is_func, is_op in *. destruct (fix_known n I Gd) as [[f ->]|[op E]]; [reflexivity|]. rewrite E in O. discriminate.
  Qed.

  Variable inits : list (string * option (list R)).
  Hypothesis KA : k_init_args k = complete m inits.
  Hypothesis KI : k_init k = filter is_func order ++ filter is_op order.
  Hypothesis KR : k_rate k = rate.
  Hypothesis KD : forall name es, In (name, es) (k_data k) -> In name order /\ exists f A, assoc name (funcs m) = Some (Ok f) /\ fmat f = Ok A /\ es = func_data m A.
  Hypothesis KDA : forall name f, In name order -> assoc name (funcs m) = Some (Ok f) -> In name (map fst (k_data k)).
  Hypothesis BASIC : incl arg_names order.
  Hypothesis II : incl (map fst inits) arg_names.
  Variable st1 : state.
  Hypothesis INI : init_args nu inits (mkState (repeat 0%R (length (args_of m))) (fun _ => None) 0) = Ok st1.
  Hypothesis ARGS : st_args st0 = st_args st1.

  Lemma init_rel o : length (ob_args o) = length (args_of m) -> ob_rate o = rate -> (forall name, In name order -> frozen o name) ->
    exists o', c_init cinv k o = Ok o' /\ rel (fun _ => True) st0 o'.
  Proof.
    intros LO ER FZ. unfold c_init. rewrite KA.
    destruct (init_args_ok inits _ _ INI) as (FT & _ & L1 & Q1); [cbn; apply repeat_length|].
    assert (KC : forall n, In n (map fst (complete m inits)) -> In n arg_names).
    { intros n H. unfold complete in H. rewrite map_app, !map_map, in_app_iff in H. cbn [fst] in H. destruct H as [H|H]; [now apply II|].
      rewrite map_id in H. now apply filter_In in H. }
    destruct (set_groups_ok (complete m inits) o (complete_fits inits FT)) as (a & E & LA & Q); [intros n Hn; now apply BASIC, KC|exact LO|].
    rewrite E. cbn [rbind].
    assert (EA : a = st_args st0).
    { rewrite ARGS. apply (combine_ext (args_of m)); [exact ND|exact LA|exact L1|]. intros s Hs. rewrite Q, Q1.
      rewrite (complete_effect inits s FT II Hs). f_equal. cbn [st_args].
      destruct (assoc_some s (args_of m) (repeat 0%R (length (args_of m))) (repeat_length _ _) Hs) as [v Ev]. rewrite Ev.
      apply assoc_in, in_combine_r in Ev. apply repeat_spec in Ev. now subst. }
    assert (R : rel (fun _ => False) st0 (mkObject a (ob_rate o) (ob_vals o))).
    { constructor; cbn [ob_args ob_rate ob_vals]; try (intros; contradiction); try assumption.
      - now rewrite ARGS.
      - intros name f A I F FA. exact (FZ name I f A F FA). }
    rewrite KI, map_app, run_calls_app.
    destruct (func_calls (filter is_func order) _ _ R) as (o1 & E1 & R1); [intros n Hn; now apply filter_In in Hn|]. rewrite E1. cbn [rbind].
    destruct (op_calls order [] _ o1 eq_refl R1) as (o' & E' & R'); [intros d []|intros d I F; right; apply filter_In; now split|].
    exists o'. split; [exact E'|]. destruct R' as [A B C D FR G H]. constructor; auto.
    - intros s v _ SV. apply D; [now apply (ONLY s v)|exact SV].
    - intros s v x _ SV. apply G; [now apply (ONLY s v)|exact SV].
    - intros s v x _ SV. apply H; [now apply (ONLY s v)|exact SV].
  Qed.

  Lemma construct_rel junk : length junk = length (args_of m) -> exists o, construct cinv k junk = Ok o /\ rel (fun _ => True) st0 o.
  Proof.
    intros LJ. unfold construct. rewrite KR.
    destruct (load_rel (k_data k) (mkObject junk rate (fun _ => None)) eq_refl KD) as (o & E & EA & ER & FZ). rewrite E. cbn [rbind].
    apply init_rel; [rewrite EA; exact LJ|exact ER|]. intros name I f A F FA. refine (FZ name _ f A F FA). right. now apply (KDA name f).
  Qed.

  (** ** Steps *)

  Lemma rel_simulates st o : rel settled st o -> simulates nu k order st o.
  Proof.
    intros R. split; [apply R|]. intros name v I S E.
    destruct (access_ok settled st o name v R I (fun _ => S) (fix_known name I) E) as [_ X]. exact X.
  Qed.

  Hypothesis KU : k_update k = map gen_action (update_actions m).
  Hypothesis ACT : forall a, In a (update_actions m) -> good_action a.

  Lemma input_rel st st' o name g l : rel settled st o -> In name order -> assoc name (groups m) = Some g -> length l = length g ->
    set nu name (Ve l) st = Ok st' -> exists o', set_input k name l o = Ok o' /\ rel settled st' o'.
  Proof.
    intros R I G L E. unfold set in E. fold m in E. rewrite G in E. destruct (set_rel settled st st' o name g l R I G L E) as (o' & E' & R').
    exists o'. split; [|exact R']. destruct l as [|x l]; [|exact E']. cbn [set_input]. unfold set_group in E'.
    rewrite (group_lookup name g I G) in E'. destruct g; [|discriminate]. exact E'.
  Qed.

  Lemma step_rel st st' o u p : rel settled st o -> length u = length (c_u m) -> length p = length (c_p m) ->
    update nu u p st = Ok st' -> exists o', c_step cinv k u p o = Ok o' /\ rel settled st' o'.
  Proof.
    intros R Lu Lp E. unfold update in E. fold m in E. destruct (set nu "u" (Ve u) st) as [sa|] eqn:Eu; [|discriminate]. cbn [rbind] in E.
    destruct (set nu "p" (Ve p) sa) as [sb|] eqn:Ep; [|discriminate]. cbn [rbind] in E.
    destruct (input_rel st sa o "u" (c_u m) u R) as (oa & Eoa & Ra); [apply BASIC; cbn; tauto|reflexivity|exact Lu|exact Eu|].
    destruct (input_rel sa sb oa "p" (c_p m) p Ra) as (ob & Eob & Rb); [apply BASIC; cbn; tauto|reflexivity|exact Lp|exact Ep|].
    unfold c_step. rewrite Eoa. cbn [rbind]. rewrite Eob. cbn [rbind]. unfold c_update. rewrite KU.
    now apply (actions_rel (update_actions m) sb).
  Qed.

  Hypothesis REC : incl recordable order.

  Lemma vector_rel st o name v : rel settled st o -> In name recordable -> get nu name st = Ok v ->
    exists l, v = Ve l /\ vector_of k o name = Ok l.
  Proof.
    intros R I E. assert (IO : In name order) by now apply REC. unfold vector_of. destruct (assoc name (groups m)) as [g|] eqn:G.
    - destruct (group_read settled st o name g R IO G) as (l & EL & L & D). rewrite EL in E. injection E as <-.
      exists l. split; [reflexivity|]. now rewrite (group_lookup name g IO G).
    - rewrite (group_none name G).
      assert (X : exists f l, assoc name (funcs m) = Some f /\ forall f', f = Ok f' -> f' = FV l).
      { cbn in I. destruct I as [<-|[<-|[<-|[<-|[<-|[<-|[<-|[<-|[<-|[]]]]]]]]]]; try discriminate G.
        - eexists. eexists. split; [reflexivity|]. intros f' E'. injection E' as <-. reflexivity.
        - eexists. eexists. split; [reflexivity|]. intros f' E'. injection E' as <-. reflexivity.
        - destruct (output m) as [l|e] eqn:EO.
          + exists (Ok (FV l)), l. split; [cbn; now rewrite EO|]. intros f' E'. now injection E' as <-.
          + exists (Err e), []. split; [cbn; now rewrite EO|]. discriminate. }
      destruct X as (rf & l & F & HF). destruct (fix_known name IO G) as [[f F']|[op O]]; [|apply (ops_names m) in O; destruct O; congruence].
      rewrite F in F'. injection F' as ->. pose proof (HF f eq_refl) as ->.
      unfold get in E. fold m in E. rewrite G in E. destruct (st_vals st name) as [v'|] eqn:SV; [|discriminate]. injection E as ->.
      assert (S : settled name) by (cbn in I; destruct I as [<-|[<-|[<-|[<-|[<-|[<-|[<-|[<-|[<-|[]]]]]]]]]]; intros H; cbn in H; intuition discriminate).
      pose proof (r_fshape _ _ _ R name v (FV l) S SV F) as VS. destruct v as [|v|]; try discriminate VS. cbn in VS. injection VS as LV.
      destruct (r_vals _ _ _ R name (Ve v) S SV) as (w & OV & M). destruct w as [|n p B]; cbn in M; [contradiction|]. destruct M as (-> & -> & HB).
      destruct (KFUN name (FV l) _ IO F eq_refl) as [-> _]. rewrite OV. exists v. split; [reflexivity|]. f_equal.
      apply (nth_ext _ _ 0%R 0%R); [now rewrite map_length, seq_length|]. intros i Hi. rewrite map_length, seq_length in Hi.
      rewrite nth_map_seq by exact Hi. now apply HB.
  Qed.

  Lemma record_rel st o : rel settled st o -> forall names row, incl names recordable -> record nu names st = Ok row ->
    exists crow, rmap (fun n => do l <- vector_of k o n; Ok (n, l)) names = Ok crow /\ same_row row crow.
  Proof.
    intros R. induction names as [|n names IH]; intros row IN E.
    - injection E as <-. exists []. split; [reflexivity|constructor].
    - unfold record in *. cbn [rmap] in *. destruct (get nu n st) as [v|] eqn:G; [|discriminate]. cbn [rbind] in E.
      destruct (rmap _ names) as [row'|] eqn:ER; [|discriminate]. cbn [rbind] in E. injection E as <-.
      destruct (vector_rel st o n v R (IN n (or_introl eq_refl)) G) as (l & -> & V). rewrite V. cbn [rbind].
      destruct (IH row') as (crow & EC & SR); [intros x Hx; apply IN; now right|reflexivity|]. rewrite EC. cbn [rbind].
      exists ((n, l) :: crow). split; [reflexivity|]. constructor; [now split|exact SR].
  Qed.

  Lemma process_rel names : incl names recordable -> forall seq st rows st' o,
    (forall u p, In (u, p) seq -> length u = length (c_u m) /\ length p = length (c_p m)) ->
    rel settled st o -> process nu names seq st = Ok (rows, st') ->
    exists crows o', c_process cinv k names seq o = Ok (crows, o') /\ Forall2 same_row rows crows /\ rel settled st' o'.
  Proof.
    intros IN. induction seq as [|[u p] seq IH]; intros st rows st' o HS R E.
    - injection E as <- <-. exists [], o. split; [reflexivity|]. split; [constructor|exact R].
    - cbn [process c_process] in *. destruct (update nu u p st) as [sa|] eqn:EU; [|discriminate]. cbn [rbind] in E.
      destruct (record nu names sa) as [row|] eqn:ER; [|discriminate]. cbn [rbind] in E.
      destruct (process nu names seq sa) as [[rows' sb]|] eqn:EP; [|discriminate]. cbn [rbind] in E. injection E as <- <-.
      destruct (HS u p (or_introl eq_refl)) as [Lu Lp].
      destruct (step_rel st sa o u p R Lu Lp EU) as (oa & Eo & Ra). rewrite Eo. cbn [rbind].
      destruct (record_rel sa oa Ra names row IN ER) as (crow & EC & SR). rewrite EC. cbn [rbind].
      destruct (IH sa rows' sb oa) as (crows & ob & EPc & FR & Rb); [intros x y Hx; apply HS; now right|exact Ra|exact EP|]. rewrite EPc. cbn [rbind].
      exists (crow :: crows), ob. split; [reflexivity|]. split; [now constructor|exact Rb].
  Qed.
End Refine.
