(** What [set_sampleRate] leaves as it was, and the dictionaries of parameters. *)
From Coq Require Import String List ZArith QArith Qreals Reals Bool Lia Lra.
From Verif Require Import Py Tools Lists Expr RSum Mat Core Calculus ExprProofs MatProofs Spec_Core StructProofs
  Spec_Calculus Deriv CalculusProofs PowerProofs Subs SubsProofs Method Spec_Method Separable TempProofs
  Numeric Spec_Numeric NumericProofs NumericUpdate NumericStep NumericUpdateOk NumericSim Cpp Spec_Cpp CppProofs CppRefine.
Import ListNotations.
Local Open Scope string_scope.
Local Open Scope list_scope.
Local Open Scope nat_scope.

Section Rate.
  Variables (cinv : cinverter) (k : cclass).

  (** ** Statements that leave an entry as it was *)
  Definition spares (name : string) (i j : nat) (s : stmt) : Prop :=
    match s with
    | SEntry n a b _ => n <> name \/ a <> i \/ b <> j
    | SOper n _ => n <> name
    end.

  Lemma stmt_spares name i j s o o' : spares name i j s -> run_stmt cinv k s o = Ok o' ->
    entry o' name i j = entry o name i j /\ ob_rate o' = ob_rate o.
  Proof.
    destruct s as [n a b e|n e]; cbn [spares run_stmt]; intros S E.
    - destruct (code_eval k o e) as [x|]; cbn [rbind] in E; [|discriminate]. unfold assign_entry in E.
      destruct (ob_vals o n) as [[y|r c A]|] eqn:V; try discriminate.
      destruct (Nat.ltb a r && Nat.ltb b c); [|discriminate]. injection E as <-. split; [|reflexivity].
      unfold entry. cbn. destruct (String.eqb_spec name n) as [->|N]; [|reflexivity]. rewrite V. f_equal.
      destruct (Nat.eqb_spec i a) as [->|]; [|reflexivity]. destruct (Nat.eqb_spec j b) as [->|]; [|reflexivity].
      exfalso. intuition.
    - destruct (exp_eval cinv k o e) as [x|]; cbn [rbind] in E; [|discriminate]. unfold assign in E.
      destruct (assoc n (k_types k)) as [t|]; [|discriminate]. destruct (has_type x t); [|discriminate].
      injection E as <-. split; [|reflexivity]. unfold entry. cbn. destruct (String.eqb_spec name n) as [->|N]; [now elim S|reflexivity].
  Qed.
  Lemma stmts_spare name i j : forall l o o', (forall s, In s l -> spares name i j s) -> run_stmts cinv k l o = Ok o' ->
    entry o' name i j = entry o name i j /\ ob_rate o' = ob_rate o.
  Proof.
    induction l as [|s l IH]; cbn [run_stmts]; intros o o' S E; [injection E as <-; now split|].
    destruct (run_stmt cinv k s o) as [o1|] eqn:E1; cbn [rbind] in E; [|discriminate].
    destruct (stmt_spares name i j s o o1 (S s (or_introl eq_refl)) E1) as [A B].
    destruct (IH o1 o' ltac:(intros x Hx; apply S; now right) E) as [A' B']. split; congruence.
  Qed.
  Lemma calls_spare name i j : (forall n b s, In (n, b) (k_bodies k) -> In s b -> spares name i j s) ->
    forall l o o', run_calls cinv k (map CUpdate l) o = Ok o' -> entry o' name i j = entry o name i j /\ ob_rate o' = ob_rate o.
  Proof.
    intros H. induction l as [|n l IH]; cbn [map run_calls]; intros o o' E; [injection E as <-; now split|].
    cbn [run_call] in E. destruct (assoc n (k_bodies k)) as [b|] eqn:EB; cbn [rbind] in E; [|discriminate].
    destruct (run_stmts cinv k b o) as [o1|] eqn:E1; cbn [rbind] in E; [|discriminate].
    destruct (stmts_spare name i j b o o1 ltac:(intros s Hs; apply (H n b s); [now apply assoc_in|exact Hs]) E1) as [A B].
    destruct (IH o1 o' E) as [A' B']. split; congruence.
  Qed.

  (** Mutators do not touch the members. *)
  Lemma writes_vals : forall l o o', writes k l o = Ok o' -> ob_vals o' = ob_vals o /\ ob_rate o' = ob_rate o.
  Proof.
    induction l as [|[s v] l IH]; cbn [writes]; intros o o' E; [injection E as <-; now split|].
    destruct (mem s (k_fixed k)); cbn [rbind] in E; [now apply IH|]. unfold write in E.
    destruct (assoc s (k_pointers k)) as [[i|i|]|]; cbn [rbind] in E; try discriminate. now apply IH in E.
  Qed.
  Lemma set_groups_vals : forall l o o', set_groups k l o = Ok o' -> ob_vals o' = ob_vals o /\ ob_rate o' = ob_rate o.
  Proof.
    induction l as [|[n v] l IH]; cbn [set_groups]; intros o o' E; [injection E as <-; now split|].
    unfold set_group in E. destruct (assoc n (k_groups k)) as [g|]; cbn [rbind] in E; [|discriminate].
    destruct (Nat.eqb (length g) (length v)); cbn [rbind] in E; [|discriminate].
    destruct (writes k (combine g v) o) as [o1|] eqn:E1; cbn [rbind] in E; [|discriminate].
    destruct (writes_vals _ _ _ E1). destruct (IH _ _ E). split; congruence.
  Qed.
End Rate.

(** ** The bodies that the generator writes *)
Lemma gen_params_several d0 d1 rest : d0 <> [] -> forall row, gen_params (d0 :: d1 :: rest) <> Ok row.
Proof.
  intros N row E. unfold gen_params in E. cbn [rmap] in E.
  destruct (rmap _ (map fst d0)) as [r0|]; cbn [rbind] in E; [|discriminate].
  destruct (rmap _ (map fst d0)) as [r1|]; cbn [rbind] in E; [|discriminate].
  destruct (rmap _ rest) as [rs|]; cbn [rbind] in E; [|discriminate]. destruct d0; [now elim N|discriminate].
Qed.

Section Generated.
  Variables (single : R -> R) (m : core) (subs : list (string * R)) (given : list (list (string * R))) (rate eps : R) (maxit : nat)
    (inits : list (string * option (list R))) (evals : string -> option value) (order : list string) (k : cclass).
  Hypothesis GEN : generate single m subs given rate eps maxit inits evals order = Ok k.

  Lemma one_dictionary : forall d0 d1 rest, given = d0 :: d1 :: rest -> d0 = [].
  Proof.
    intros d0 d1 rest EG. destruct d0 as [|x d0]; [reflexivity|]. exfalso. unfold generate in GEN. rewrite EG in GEN.
    destruct (rmap (gen_func m) _); cbn [rbind] in GEN; [|discriminate].
    destruct (rmap (gen_op m evals) _); cbn [rbind] in GEN; [|discriminate].
    destruct (gen_params _) as [r|] eqn:E; cbn [rbind] in GEN; [|discriminate].
    revert E. now apply gen_params_several.
  Qed.

  Lemma bodies_spare name f A i j : assoc name (funcs m) = Some (Ok f) -> fmat f = Ok A -> depends m (ent A i j) = false ->
    forall n b s, In (n, b) (k_bodies k) -> In s b -> spares name i j s.
  Proof.
    intros F EA D n b s Hb Hs. unfold generate in GEN.
    destruct (rmap (gen_func m) _) as [fs|] eqn:EF; cbn [rbind] in GEN; [|discriminate].
    destruct (rmap (gen_op m evals) _) as [os|] eqn:EO; cbn [rbind] in GEN; [|discriminate].
    destruct (gen_params given) as [r|]; cbn [rbind] in GEN; [|discriminate]. injection GEN as <-. cbn [k_bodies] in Hb.
    apply in_app_or in Hb. destruct Hb as [Hb|Hb]; apply in_map_iff in Hb.
    - destruct Hb as ([A' n'] & X & Hp). injection X as <- <-. cbn [fst snd] in *.
      unfold func_update in Hs. apply in_map_iff in Hs. destruct Hs as ([a c] & <- & Hac). apply filter_In in Hac. destruct Hac as [_ Hd].
      cbn [fst snd spares] in *. destruct (string_dec n' name) as [->|]; [|now left]. right.
      assert (A' = A).
      { clear - EF Hp F EA. revert fs EF Hp. generalize (filter (fun n => match assoc n (funcs m) with Some _ => true | None => false end) order).
        intros l. induction l as [|x l IH]; cbn [rmap]; intros fs EF Hp; [injection EF as <-; destruct Hp|].
        destruct (gen_func m x) as [y|] eqn:G; cbn [rbind] in EF; [|discriminate].
        destruct (rmap (gen_func m) l) as [ys|] eqn:EY; cbn [rbind] in EF; [|discriminate]. injection EF as <-.
        destruct Hp as [->|Hp]; [|now apply (IH ys)]. unfold gen_func in G.
        destruct (assoc x (funcs m)) as [g|] eqn:X; [|discriminate]. destruct g as [g|]; cbn [rbind] in G; [|discriminate].
        destruct (fmat g) as [B|] eqn:EB; cbn [rbind] in G; [|discriminate]. injection G as -> ->. congruence. }
      subst A'. destruct (Nat.eq_dec a i) as [->|]; [|now left]. right. intros ->. congruence.
    - destruct Hb as ([t [n' e]] & X & Hp). injection X as <- <-. cbn [fst snd] in *. destruct Hs as [<-|[]]. cbn [spares]. intros ->.
      assert (O : exists op, assoc name (ops m) = Some op).
      { clear - EO Hp. revert os EO Hp. generalize (map fst (ops m)). intros l. induction l as [|x l IH]; cbn [rmap]; intros os EO Hp; [injection EO as <-; destruct Hp|].
        destruct (gen_op m evals x) as [y|] eqn:G; cbn [rbind] in EO; [|discriminate].
        destruct (rmap (gen_op m evals) l) as [ys|] eqn:EY; cbn [rbind] in EO; [|discriminate]. injection EO as <-.
        destruct Hp as [->|Hp]; [|now apply (IH ys)]. unfold gen_op in G.
        destruct (assoc x (ops m)) as [op|] eqn:X; [|discriminate]. destruct (evals x); [|discriminate]. injection G as _ -> _. eauto. }
      destruct O as [op O]. apply ops_names in O. destruct O. congruence.
  Qed.

  (** The entries that do not depend on the arguments keep their values when
      the sample rate changes. *)
  Theorem rate_spares cinv v o o' : set_sampleRate cinv k v o = Ok o' -> ob_rate o' = v /\
    forall name f A i j, assoc name (funcs m) = Some (Ok f) -> fmat f = Ok A -> depends m (ent A i j) = false ->
      entry o' name i j = entry o name i j.
  Proof.
    intros E. unfold set_sampleRate, c_init in E. set (o1 := mkObject (ob_args o) v (ob_vals o)) in E.
    destruct (set_groups k (k_init_args k) o1) as [o2|] eqn:E2; cbn [rbind] in E; [|discriminate].
    destruct (set_groups_vals k _ _ _ E2) as [V Rt]. split.
    - assert (X : ob_rate o' = ob_rate o2); [|now rewrite X, Rt].
      revert E. generalize (k_init k). clear - cinv. intros l. revert o2. induction l as [|n l IH]; cbn [map run_calls]; intros o2 E; [now injection E as <-|].
      cbn [run_call] in E. destruct (assoc n (k_bodies k)) as [b|] eqn:EB; cbn [rbind] in E; [|discriminate].
      destruct (run_stmts cinv k b o2) as [o3|] eqn:E1; cbn [rbind] in E; [|discriminate]. rewrite (IH o3 E). clear - E1.
      revert o2 E1. induction b as [|s b IH]; cbn [run_stmts]; intros o2 E; [now injection E as <-|].
      destruct (run_stmt cinv k s o2) as [o4|] eqn:E4; cbn [rbind] in E; [|discriminate]. rewrite (IH o4 E).
      destruct s as [n a c e|n e].
      + assert (S : spares n (Datatypes.S a) c (SEntry n a c e)) by (cbn; right; left; lia). exact (proj2 (stmt_spares cinv k _ _ _ _ _ _ S E4)).
      + assert (S : spares (n ++ "a")%string 0 0 (SOper n e)).
        { cbn. clear. induction n as [|ch n IH]; [discriminate|]. cbn. intros X. injection X as X. now apply IH. }
        exact (proj2 (stmt_spares cinv k _ _ _ _ _ _ S E4)).
    - intros name f A i j F EA D.
      destruct (calls_spare cinv k name i j (bodies_spare name f A i j F EA D) _ _ _ E) as [X _]. rewrite X.
      unfold entry. rewrite V. reflexivity.
  Qed.
End Generated.
