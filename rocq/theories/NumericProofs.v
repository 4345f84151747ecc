(** Arguments, loop, order of evaluations. *)
From Coq Require Import String List ZArith QArith Reals Bool Lia Lra.
From Verif Require Import Py Tools Lists Spec_Tools ToolsProofs Expr RSum Mat Core SubsProofs Method Numeric Spec_Numeric.
Import ListNotations.
Local Open Scope string_scope.
Local Open Scope list_scope.
Local Open Scope nat_scope.

(** ** Arguments *)

Lemma py_in_existsb s g : py_in String.eqb s g = existsb (String.eqb s) g.
Proof. unfold py_in. induction g as [|a g IH]; cbn; [reflexivity|]. now rewrite IH, String.eqb_sym. Qed.

Lemma find_names g : forall alls n, fst (find_loop String.eqb g alls n) = among alls g.
Proof.
  induction alls as [|s alls IH]; intros n; cbn [find_loop]; [reflexivity|].
  specialize (IH (S n)). destruct (find_loop String.eqb g alls (S n)) as [a i]. cbn [fst] in IH. subst a.
  unfold among. cbn [filter]. rewrite py_in_existsb. now destruct (existsb (String.eqb s) g).
Qed.

Lemma find_inds_length g alls n : length (snd (find_loop String.eqb g alls n)) = length (among alls g).
Proof.
  revert n; induction alls as [|s alls IH]; intros n; cbn [find_loop]; [reflexivity|].
  specialize (IH (S n)). destruct (find_loop String.eqb g alls (S n)) as [a i]. cbn [snd] in IH.
  unfold among in *. cbn [filter]. rewrite py_in_existsb. destruct (existsb (String.eqb s) g); cbn [snd length]; congruence.
Qed.

(** The values read: those of the selected positions. *)
Fixpoint picks (g names : list string) (a : list R) : list R :=
  match names, a with
  | s :: names', x :: a' => if existsb (String.eqb s) g then x :: picks g names' a' else picks g names' a'
  | _, _ => []
  end.

Lemma read_find g : forall alls a pre, length a = length alls ->
  read_at (snd (find_loop String.eqb g alls (length pre))) (pre ++ a) = Ok (picks g alls a).
Proof.
  induction alls as [|s alls IH]; intros [|x a] pre L; cbn in L; try discriminate; [reflexivity|].
  cbn [find_loop picks]. specialize (IH a (pre ++ [x])). rewrite app_length, Nat.add_1_r in IH. cbn [length] in IH.
  rewrite <- app_assoc in IH. cbn [app] in IH. specialize (IH ltac:(lia)).
  destruct (find_loop String.eqb g alls (S (length pre))) as [ar i]. cbn [snd] in IH.
  rewrite py_in_existsb. destruct (existsb (String.eqb s) g); cbn [snd]; [|exact IH].
  unfold read_at in *. cbn [rmap]. rewrite nth_error_app2, Nat.sub_diag by lia. cbn [nth_error rbind].
  now rewrite IH.
Qed.

Lemma put_mid v x a : forall pre, put (length pre) v (pre ++ x :: a) = pre ++ v :: a.
Proof. induction pre as [|b pre IH]; cbn; [reflexivity|]. now rewrite IH. Qed.

(** The list written: new values at the selected positions. *)
Fixpoint merge (g names : list string) (a vs : list R) : list R :=
  match names, a with
  | s :: names', x :: a' =>
      if existsb (String.eqb s) g
      then match vs with v :: vs' => v :: merge g names' a' vs' | [] => x :: merge g names' a' [] end
      else x :: merge g names' a' vs
  | _, _ => a
  end.

Lemma write_find g : forall alls a pre vs, length a = length alls -> length vs = length (among alls g) ->
  put_all (snd (find_loop String.eqb g alls (length pre))) vs (pre ++ a) = pre ++ merge g alls a vs.
Proof.
  induction alls as [|s alls IH]; intros [|x a] pre vs L LV; cbn in L; try discriminate.
  - unfold among in LV. cbn in LV. destruct vs; [reflexivity|discriminate].
  - cbn [find_loop merge]. unfold among in LV. cbn [filter] in LV.
    pose proof (IH a (pre ++ [x])) as IHx. rewrite app_length, Nat.add_1_r in IHx. cbn [length] in IHx.
    rewrite py_in_existsb. destruct (existsb (String.eqb s) g) eqn:E.
    + destruct vs as [|v vs]; [discriminate|]. cbn [length] in LV.
      pose proof (IH a (pre ++ [v]) vs) as IHv. rewrite app_length, Nat.add_1_r in IHv. cbn [length] in IHv.
      destruct (find_loop String.eqb g alls (S (length pre))) as [ar i]. cbn [snd] in *.
      cbn [put_all]. rewrite put_mid. rewrite <- !app_assoc in IHv. cbn [app] in IHv. apply IHv; [lia|].
      now injection LV.
    + destruct (find_loop String.eqb g alls (S (length pre))) as [ar i]. cbn [snd] in *.
      rewrite <- !app_assoc in IHx. cbn [app] in IHx. rewrite (IHx vs); [now rewrite <- app_assoc|lia|exact LV].
Qed.

Lemma find_in_range g : forall alls n i, In i (snd (find_loop String.eqb g alls n)) -> n <= i < n + length alls.
Proof.
  induction alls as [|s alls IH]; intros n i H; [destruct H|]. cbn [find_loop length] in *.
  specialize (IH (S n) i). destruct (find_loop String.eqb g alls (S n)) as [ar l]. cbn [snd] in *.
  destruct (py_in String.eqb s g); cbn [snd] in H; [destruct H as [<-|H]; [lia|]|]; specialize (IH H); lia.
Qed.

Lemma merge_length g : forall names a vs, length (merge g names a vs) = length a.
Proof.
  induction names as [|s names IH]; intros [|x a] vs; cbn; try reflexivity.
  destruct (existsb (String.eqb s) g); [destruct vs|]; cbn; now rewrite IH.
Qed.

Lemma write_ok g names a vs : length a = length names -> length vs = length (among names g) ->
  write_at (snd (find String.eqb g names)) (Ve vs) a = Ok (merge g names a vs).
Proof.
  intros L LV. unfold write_at.
  assert (F : forallb (fun i => Nat.ltb i (length a)) (snd (find String.eqb g names)) = true).
  { apply forallb_forall. intros i Hi. apply Nat.ltb_lt. apply find_in_range in Hi. lia. }
  rewrite F. unfold find. rewrite find_inds_length, LV, Nat.eqb_refl.
  pose proof (write_find g names a [] vs L LV) as W. cbn [length app] in W. now rewrite W.
Qed.

Lemma read_ok g names a : length a = length names ->
  read_at (snd (find String.eqb g names)) a = Ok (picks g names a).
Proof. intros L. exact (read_find g names a [] L). Qed.

Lemma assoc_merge g s : forall names a vs, length a = length names -> length vs = length (among names g) ->
  assoc s (combine names (merge g names a vs)) =
  if existsb (String.eqb s) g then assoc s (combine (among names g) vs) else assoc s (combine names a).
Proof.
  induction names as [|n names IH]; intros [|x a] vs L LV; cbn in L; try discriminate.
  - cbn. destruct (existsb (String.eqb s) g); [|reflexivity]. unfold among in LV. cbn in LV.
    destruct vs; [reflexivity|discriminate].
  - unfold among in LV |- *. cbn [filter merge] in *. destruct (existsb (String.eqb n) g) eqn:E.
    + destruct vs as [|v vs]; [discriminate|]. cbn [combine assoc].
      destruct (String.eqb_spec n s) as [->|N]; [now rewrite E|].
      apply IH; [lia|now injection LV].
    + cbn [combine assoc]. destruct (String.eqb_spec n s) as [->|N]; [now rewrite E|].
      apply IH; [lia|exact LV].
Qed.

Lemma assoc_nth {B} s (v : B) : forall names a, assoc s (combine names a) = Some v ->
  exists i, nth_error names i = Some s /\ nth_error a i = Some v.
Proof.
  induction names as [|n names IH]; intros [|x a] H; cbn in H; try discriminate.
  destruct (String.eqb_spec n s) as [->|N]; [injection H as ->; now exists 0|].
  destruct (IH a H) as (i & A & B'). now exists (S i).
Qed.

Lemma nth_assoc {B} s (v : B) : forall names a i, NoDup names ->
  nth_error names i = Some s -> nth_error a i = Some v -> assoc s (combine names a) = Some v.
Proof.
  induction names as [|n names IH]; intros [|x a] [|i] ND A B'; cbn in *; try discriminate.
  - injection A as ->. injection B' as ->. now rewrite String.eqb_refl.
  - inversion ND as [|? ? Nn ND']; subst.
    destruct (String.eqb_spec n s) as [->|N]; [|now apply (IH a i)].
    exfalso. apply Nn. now apply nth_error_In with i.
Qed.

Lemma picks_nth g : forall names a i, length a = length names -> NoDup names -> i < length (among names g) ->
  exists v, nth_error (picks g names a) i = Some v /\ assoc (nth i (among names g) "") (combine names a) = Some v.
Proof.
  induction names as [|n names IH]; intros [|x a] i L ND Hi; cbn in L; try discriminate.
  - unfold among in Hi. cbn in Hi. lia.
  - inversion ND as [|? ? Nn ND']; subst. unfold among in *. cbn [filter picks] in *.
    assert (Q : forall j, j < length (among names g) -> n <> nth j (among names g) "").
    { intros j Hj E. apply Nn. rewrite E. pose proof (nth_In (among names g) "" Hj) as I.
      unfold among in I at 2. now apply filter_In in I. }
    destruct (existsb (String.eqb n) g) eqn:E.
    + destruct i as [|i]; cbn [nth nth_error combine assoc].
      * exists x. now rewrite String.eqb_refl.
      * cbn [length] in Hi. destruct (IH a i ltac:(lia) ND' ltac:(lia)) as (v & A & B). exists v. split; [exact A|].
        destruct (String.eqb_spec n (nth i (among names g) "")) as [F|_]; [exfalso; apply (Q i); [unfold among; lia|exact F]|].
        unfold among. destruct (String.eqb_spec n (nth i (filter (fun s => existsb (String.eqb s) g) names) "")) as [F|_]; [|exact B].
        exfalso. apply (Q i); [unfold among; lia|exact F].
    + destruct (IH a i ltac:(lia) ND' Hi) as (v & A & B). exists v. split; [exact A|]. cbn [combine assoc].
      destruct (String.eqb_spec n (nth i (filter (fun s => existsb (String.eqb s) g) names) "")) as [F|_]; [|exact B].
      exfalso. apply (Q i); [exact Hi|exact F].
Qed.

Lemma picks_length g : forall names a, length a = length names -> length (picks g names a) = length (among names g).
Proof.
  induction names as [|n names IH]; intros [|x a] L; cbn in L; try discriminate; [reflexivity|].
  unfold among in *. cbn [filter picks]. destruct (existsb (String.eqb n) g); cbn [length]; rewrite IH; lia.
Qed.

Lemma holds_iff names st s v : NoDup names -> (holds names st s v <-> assoc s (combine names (st_args st)) = Some v).
Proof.
  intros ND. split; [intros (i & A & B); now apply (nth_assoc s v names (st_args st) i)|apply assoc_nth].
Qed.

Lemma forall2_nth {A B} (P : A -> B -> Prop) : forall (l : list A) (k : list B),
  (forall i a b, nth_error l i = Some a -> nth_error k i = Some b -> P a b) -> length l = length k -> Forall2 P l k.
Proof.
  induction l as [|a l IH]; intros [|b k] H L; cbn in L; try discriminate; constructor.
  - now apply (H 0).
  - apply IH; [|now injection L]. intros i. exact (H (S i)).
Qed.

(** C24. *)
Lemma getarg_holds nu g st : let names := args_of (n_method nu) in
  NoDup names -> length (st_args st) = length names ->
  exists l, getarg nu g st = Ok (Ve l) /\ Forall2 (holds names st) (among names g) l.
Proof.
  intros names ND L. unfold getarg, inds_of. fold names. rewrite (read_ok g names _ L). cbn [rbind].
  eexists. split; [reflexivity|].
  assert (P : forall i, i < length (among names g) -> exists v, nth_error (picks g names (st_args st)) i = Some v /\
     holds names st (nth i (among names g) "") v).
  { intros i Hi. destruct (picks_nth g names (st_args st) i L ND Hi) as (v & A & B). exists v. split; [exact A|].
    now apply assoc_nth. }
  pose proof (picks_length g names (st_args st) L) as PL.
  revert P PL. generalize (picks g names (st_args st)) (among names g). clear.
  intros l k. revert l; induction k as [|s k IH]; intros [|x l] P PL; cbn in PL; try discriminate; constructor.
  - destruct (P 0 ltac:(cbn; lia)) as (v & A & B). cbn in A, B. injection A as ->. exact B.
  - apply IH; [|now injection PL]. intros i Hi. exact (P (S i) ltac:(cbn; lia)).
Qed.

Lemma setarg_holds nu g vs st : let names := args_of (n_method nu) in
  NoDup names -> length (st_args st) = length names -> length vs = length (among names g) ->
  exists st', setarg nu g (Ve vs) st = Ok st' /\ st_vals st' = st_vals st /\ st_it st' = st_it st /\
    length (st_args st') = length names /\
    Forall2 (holds names st') (among names g) vs /\
    forall s v, ~ In s g -> (holds names st' s v <-> holds names st s v).
Proof.
  intros names ND L LV. unfold setarg, inds_of. fold names. rewrite (write_ok g names _ vs L LV). cbn [rbind].
  eexists. split; [reflexivity|]. cbn [st_vals st_it st_args]. split; [reflexivity|]. split; [reflexivity|].
  split; [rewrite merge_length; exact L|]. split.
  - assert (NDa : NoDup (among names g)) by now apply NoDup_filter.
    assert (IN : forall s, In s (among names g) -> existsb (String.eqb s) g = true) by (intros s H; now apply filter_In in H).
    assert (Q : forall i s v, nth_error (among names g) i = Some s -> nth_error vs i = Some v ->
       holds names {| st_args := merge g names (st_args st) vs; st_vals := st_vals st; st_it := st_it st |} s v).
    { intros i s v A B. apply holds_iff; [exact ND|]. cbn [st_args]. rewrite (assoc_merge g s names _ vs L LV).
      rewrite (IN s) by (now apply nth_error_In with i). now apply (nth_assoc s v _ vs i). }
    apply forall2_nth; [exact Q|congruence].
  - intros s v Hs. rewrite !holds_iff by exact ND. cbn [st_args]. rewrite (assoc_merge g s names _ vs L LV).
    destruct (existsb (String.eqb s) g) eqn:E; [|reflexivity].
    apply existsb_exists in E. destruct E as (x & I & E). apply String.eqb_eq in E. subst x. contradiction.
Qed.

(** ** Loop *)

Section LoopFacts.
  Context {S : Type}.
  Variables (body : S -> result S) (res step : S -> result R) (eps : R).

  Lemma iterate_ok : forall n s s' k, iterate body res step eps n s = Ok (s', k) ->
    k <= n /\ applied body k s s' /\
    (exists a, res s' = Ok a /\ (a <= eps \/ k = n \/ exists b, step s' = Ok b /\ b <= eps)%R) /\
    (forall j t, j < k -> applied body j s t ->
       exists a b, res t = Ok a /\ step t = Ok b /\ (eps < a)%R /\ (eps < b)%R).
  Proof.
    induction n as [|n IH]; intros s s' k H; cbn [iterate] in H;
      destruct (res s) as [a|] eqn:EA; cbn [rbind] in H; try discriminate;
      destruct (Rlt_dec eps a) as [LA|LA].
    - destruct (step s) as [b|] eqn:EB; cbn [rbind] in H; try discriminate.
      destruct (Rlt_dec eps b); injection H as <- <-; (split; [lia|]; split; [constructor|]; split; [|intros; lia]);
        exists a; auto.
    - injection H as <- <-. split; [lia|]. split; [constructor|]. split; [|intros; lia]. exists a. split; [exact EA|]. left. lra.
    - destruct (step s) as [b|] eqn:EB; cbn [rbind] in H; try discriminate.
      destruct (Rlt_dec eps b) as [LB|LB].
      + destruct (body s) as [s1|] eqn:E1; cbn [rbind] in H; try discriminate.
        destruct (iterate body res step eps n s1) as [[s2 k2]|] eqn:E2; cbn [rbind] in H; try discriminate.
        injection H as <- <-. destruct (IH s1 s2 k2 E2) as (A & B & (a' & A1 & A2) & D).
        split; [lia|]. split; [now apply applied_S with s1|]. split.
        * exists a'. split; [exact A1|]. destruct A2 as [A2|[A2|A2]]; [now left|right; left; now f_equal|right; right; exact A2].
        * intros [|j] t Hj AP; inversion AP as [|? ? s1' ? E1' AP']; subst; [now exists a, b|].
          rewrite E1 in E1'. injection E1' as <-. apply (D j t); [lia|exact AP'].
      + injection H as <- <-. split; [lia|]. split; [constructor|]. split; [|intros; lia]. exists a. split; [exact EA|].
        right. right. exists b. split; [exact EB|lra].
    - injection H as <- <-. split; [lia|]. split; [constructor|]. split; [|intros; lia]. exists a. split; [exact EA|]. left. lra.
  Qed.

  (** The loop raises only what its parts raise. *)
  Lemma iterate_total (P : S -> Prop) :
    (forall s, P s -> exists a, res s = Ok a) -> (forall s, P s -> exists b, step s = Ok b) ->
    (forall s, P s -> exists s', body s = Ok s' /\ P s') ->
    forall n s, P s -> exists s' k, iterate body res step eps n s = Ok (s', k) /\ P s'.
  Proof.
    intros HR HS HB. induction n as [|n IH]; intros s Ps; cbn [iterate];
      destruct (HR s Ps) as [a ->]; cbn [rbind]; destruct (Rlt_dec eps a); try (now exists s, 0);
      destruct (HS s Ps) as [b ->]; cbn [rbind]; destruct (Rlt_dec eps b); try (now exists s, 0).
    destruct (HB s Ps) as (s1 & -> & P1). cbn [rbind]. destruct (IH s1 P1) as (s2 & k & -> & P2). cbn [rbind].
    now exists s2, (Datatypes.S k).
  Qed.

  Lemma applied_invariant (P : S -> Prop) : (forall s s', P s -> body s = Ok s' -> P s') ->
    forall k s s', P s -> applied body k s s' -> P s'.
  Proof. intros H k s s' Ps AP. induction AP as [|k s s1 s2 E AP IH]; [exact Ps|]. apply IH. now apply (H s). Qed.
End LoopFacts.

(** ** Order of evaluations *)

Section Order.
  Variable deps : string -> option (list string).

  Definition good (l : list string) : Prop := NoDup l /\ sorted_for deps l.

  Lemma sorted_snoc l n : sorted_for deps l -> (forall ds d, deps n = Some ds -> In d ds -> In d l) ->
    sorted_for deps (l ++ [n]).
  Proof.
    intros SF H i x ds d E D I. destruct (Nat.lt_ge_cases i (length l)) as [Hi|Hi].
    - rewrite nth_error_app1 in E by exact Hi. destruct (SF i x ds d E D I) as (j & Hj & Ej). exists j. split; [exact Hj|].
      rewrite nth_error_app1; [exact Ej|lia].
    - rewrite nth_error_app2 in E by exact Hi. destruct (i - length l) as [|k] eqn:Ek; [|destruct k; discriminate].
      cbn in E. injection E as <-. destruct (In_nth_error _ _ (H ds d D I)) as (j & Ej).
      assert (j < length l) by (apply nth_error_Some; congruence).
      exists j. split; [lia|]. now rewrite nth_error_app1.
  Qed.

  Lemma NoDup_snoc (l : list string) n : NoDup l -> ~ In n l -> NoDup (l ++ [n]).
  Proof.
    intros ND N. apply NoDup_rev in ND. rewrite <- (rev_involutive (l ++ [n])). apply NoDup_rev.
    rewrite rev_app_distr. cbn. constructor; [now rewrite <- in_rev|exact ND].
  Qed.

  Variable rank : string -> nat.
  Hypothesis RK : ranked deps rank.

  Lemma add_update_ok : forall fuel n l, good l -> rank n < fuel ->
    exists l', add_update deps fuel n l = Ok l' /\ good l' /\ In n l' /\ incl l l' /\
      (forall d, In d l' -> In d l \/ needed deps n d).
  Proof.
    induction fuel as [|fuel IH]; intros n l G Hr; [lia|]. cbn [add_update].
    destruct (py_in String.eqb n l) eqn:E.
    { exists l. split; [reflexivity|]. split; [exact G|]. split; [now apply py_in_str|]. split; [apply incl_refl|auto]. }
    assert (Nn : ~ In n l) by (intros I; apply py_in_str in I; congruence).
    destruct (deps n) as [ds|] eqn:D.
    - set (go := (fix go (ds updates : list string) {struct ds} : result (list string) :=
         match ds with
         | [] => Ok updates
         | d :: ds' => do updates <- add_update deps fuel d updates; go ds' updates
         end)).
      assert (GO : forall ds0, incl ds0 ds -> forall l0, good l0 -> ~ In n l0 ->
        (forall d, In d l0 -> In d l \/ exists d', In d' ds /\ needed deps d' d) -> incl l l0 ->
        exists l1, go ds0 l0 = Ok l1 /\ good l1 /\ ~ In n l1 /\ incl ds0 l1 /\ incl l0 l1 /\ incl l l1 /\
          (forall d, In d l1 -> In d l \/ exists d', In d' ds /\ needed deps d' d)).
      { induction ds0 as [|d ds0 IHd]; intros I0 l0 G0 N0 B0 J0.
        - exists l0. split; [reflexivity|]. split; [exact G0|]. split; [exact N0|]. split; [intros x []|].
          split; [apply incl_refl|]. split; [exact J0|exact B0].
        - cbn [go]. assert (Id : In d ds) by (apply I0; now left).
          destruct (IH d l0 G0) as (l1 & E1 & G1 & H1 & J1 & B1); [specialize (RK n ds d D Id); lia|].
          rewrite E1. cbn [rbind]. fold go.
          destruct (IHd (fun x Hx => I0 x (or_intror Hx)) l1 G1) as (l2 & E2 & G2 & N2 & H2 & J2 & K2 & B2).
          + intros Hn. destruct (B1 n Hn) as [Hn'|Hn']; [contradiction|].
            assert (LE : forall a b, needed deps a b -> rank b <= rank a).
            { intros a b NB. induction NB as [|a ds' x b D' I' NB IHn]; [lia|]. specialize (RK a ds' x D' I'). lia. }
            specialize (LE _ _ Hn'). specialize (RK n ds d D Id). lia.
          + intros x Hx. destruct (B1 x Hx) as [Hx'|Hx']; [now apply B0|]. right. now exists d.
          + intros x Hx. now apply J1, J0.
          + exists l2. split; [exact E2|]. split; [exact G2|]. split; [exact N2|]. split.
            { intros x [<-|Hx]; [now apply J2|now apply H2]. }
            split; [intros x Hx; now apply J2, J1|]. split; [exact K2|exact B2]. }
      destruct (GO ds (incl_refl _) l G Nn (fun d H => or_introl H) (incl_refl _)) as (l1 & E1 & G1 & N1 & H1 & J1 & K1 & B1).
      rewrite E1. cbn [rbind]. exists (l1 ++ [n]). split; [reflexivity|]. split.
      { split; [apply NoDup_snoc; [apply G1|exact N1]|]. apply sorted_snoc; [apply G1|].
        intros ds' d D' I'. rewrite D in D'. injection D' as <-. now apply H1. }
      split; [apply in_or_app; right; now left|]. split; [intros x Hx; apply in_or_app; left; now apply K1|].
      intros d Hd. apply in_app_or in Hd. destruct Hd as [Hd|[<-|[]]]; [|right; constructor].
      destruct (B1 d Hd) as [Hd'|(d' & I' & N')]; [now left|]. right. now apply needed_dep with ds d'.
    - cbn [rbind]. exists (l ++ [n]). split; [reflexivity|]. split.
      { split; [apply NoDup_snoc; [apply G|exact Nn]|]. apply sorted_snoc; [apply G|]. intros ds' d D'. congruence. }
      split; [apply in_or_app; right; now left|]. split; [intros x Hx; apply in_or_app; now left|].
      intros d Hd. apply in_app_or in Hd. destruct Hd as [Hd|[<-|[]]]; [now left|right; constructor].
  Qed.

  Lemma add_updates_ok fuel : forall names l, good l -> (forall n, In n names -> rank n < fuel) ->
    exists l', add_updates deps fuel names l = Ok l' /\ good l' /\ incl names l' /\ incl l l' /\
      (forall d, In d l' -> In d l \/ exists n, In n names /\ needed deps n d).
  Proof.
    induction names as [|n names IH]; intros l G HF; cbn [add_updates].
    - exists l. split; [reflexivity|]. split; [exact G|]. split; [intros x []|]. split; [apply incl_refl|auto].
    - destruct (add_update_ok fuel n l G (HF n (or_introl eq_refl))) as (l1 & -> & G1 & H1 & J1 & B1). cbn [rbind].
      destruct (IH l1 G1 (fun x Hx => HF x (or_intror Hx))) as (l2 & -> & G2 & H2 & J2 & B2).
      exists l2. split; [reflexivity|]. split; [exact G2|]. split; [intros x [<-|Hx]; [now apply J2|now apply H2]|].
      split; [intros x Hx; now apply J2, J1|]. intros d Hd. destruct (B2 d Hd) as [Hd'|(n' & I' & N')].
      + destruct (B1 d Hd') as [Hd''|Hd'']; [now left|]. right. exists n. split; [now left|exact Hd''].
      + right. exists n'. split; [now right|exact N'].
  Qed.
End Order.

Lemma remove_dup_loop_app (l : list string) : forall m out, NoDup (out ++ l) ->
  remove_duplicates_loop String.eqb (l ++ m) out = remove_duplicates_loop String.eqb m (out ++ l).
Proof.
  induction l as [|a l IH]; intros m out ND; cbn [app remove_duplicates_loop]; [now rewrite app_nil_r|].
  assert (E : py_in String.eqb a out = false).
  { destruct (py_in String.eqb a out) eqn:E; [|reflexivity]. apply py_in_str in E. exfalso.
    apply NoDup_remove_2 in ND. apply ND. apply in_or_app. now left. }
  rewrite E. rewrite IH; [now rewrite <- app_assoc|]. now rewrite <- app_assoc.
Qed.

Lemma remove_dup_loop_ext (deps : string -> option (list string)) (m : list string) :
  (forall n, In n m -> deps n = None) -> forall out, good deps out ->
  good deps (remove_duplicates_loop String.eqb m out) /\
  (forall x, In x (remove_duplicates_loop String.eqb m out) <-> In x out \/ In x m).
Proof.
  induction m as [|a m IH]; intros D out G; cbn [remove_duplicates_loop].
  - split; [exact G|]. intros x. cbn. tauto.
  - destruct (py_in String.eqb a out) eqn:E.
    + destruct (IH (fun n H => D n (or_intror H)) out G) as [A B]. split; [exact A|]. intros x. rewrite B. cbn.
      apply py_in_str in E. intuition. subst. now left.
    + destruct (IH (fun n H => D n (or_intror H)) (out ++ [a])) as [A B].
      { split; [apply NoDup_snoc; [apply G|]; intros I; apply py_in_str in I; congruence|].
        apply sorted_snoc; [apply G|]. intros ds d E'. rewrite (D a (or_introl eq_refl)) in E'. discriminate. }
      split; [exact A|]. intros x. rewrite B, in_app_iff. cbn. intuition.
Qed.

(** C23. *)
Lemma order_ok deps rank : ranked deps rank -> (forall n, In n ["dx"; "w"; "u"; "p"] -> deps n = None) ->
  forall fuel names, (forall n, In n names -> rank n < fuel) ->
  exists order, order_of deps fuel names = Ok order /\ NoDup order /\ sorted_for deps order /\
    (forall d, In d order <-> In d ["dx"; "w"; "u"; "p"] \/ exists n, In n names /\ needed deps n d).
Proof.
  intros RK D0 fuel names HF. unfold order_of.
  destruct (add_updates_ok deps rank RK fuel names []) as (l & -> & G & H & _ & B); [|exact HF|].
  { split; [constructor|]. intros [|i] n ds d E; discriminate. }
  cbn [rbind]. eexists. split; [reflexivity|].
  unfold remove_duplicates. rewrite remove_dup_loop_app by (cbn [app]; apply G). cbn [app].
  destruct (remove_dup_loop_ext deps ["dx"; "w"; "u"; "p"] D0 l G) as [A C].
  split; [apply A|]. split; [apply A|]. intros d. rewrite C. split.
  - intros [I|I]; [|now left]. destruct (B d I) as [[]|I']. now right.
  - intros [I|(n & I & N)]; [now right|]. left. specialize (H n I). clear - G H N.
    induction N as [|n ds d d' D I N IH]; [exact H|]. apply IH.
    destruct G as [_ SF]. apply In_nth_error in H. destruct H as (i & Ei).
    destruct (SF i n ds d Ei D I) as (j & _ & Ej). now apply nth_error_In with j.
Qed.
