(** Proofs about the inverses of the parameters. *)
From Coq Require Import String List ZArith QArith Qreals Reals Bool Lra Lia.
From Verif Require Import Py Expr RSum Mat Core ExprProofs Spec_Subs Deriv SubsProofs SubsInv Spec_SubsInv.
Import ListNotations.
Local Open Scope string_scope.
Local Open Scope list_scope.
Local Open Scope nat_scope.

(** ** The dictionary *)
Lemma in_dict_set {B} k (v : B) d p : In p (dict_set k v d) -> p = (k, v) \/ In p d.
Proof.
  induction d as [|[k' v'] d IH]; cbn; [intuition congruence|].
  destruct (String.eqb k' k); cbn; intuition congruence.
Qed.
Lemma dict_set_new {B} k (v : B) d : In (k, v) (dict_set k v d).
Proof. induction d as [|[k' v'] d IH]; cbn; [now left|]. destruct (String.eqb k' k); cbn; auto. Qed.
Lemma dict_set_keys {B} k (v : B) d : NoDup (map fst d) -> NoDup (map fst (dict_set k v d)).
Proof.
  induction d as [|[k' v'] d IH]; cbn; intros H; [constructor; [intros []|constructor]|].
  inversion H as [|? ? H1 H2]; subst. destruct (String.eqb_spec k' k) as [->|N]; cbn; constructor; auto.
  intros I. apply in_map_iff in I. destruct I as ([a b] & E & I). cbn in E. subst a.
  apply in_dict_set in I. destruct I as [I|I]; [congruence|]. apply H1. apply in_map_iff. now exists (k', b).
Qed.
Lemma dict_set_old {B} k (v : B) d p : (forall w, In (k, w) d -> w = v) -> In p d -> In p (dict_set k v d).
Proof.
  induction d as [|[k' v'] d IH]; cbn; intros H I; [destruct I|].
  destruct (String.eqb_spec k' k) as [->|N]; cbn.
  - destruct I as [<-|I]; [left; f_equal; symmetry; apply H; now left|now right].
  - destruct I as [<-|I]; [now left|right; apply IH; auto].
Qed.
Lemma key_unique {B} (d : list (string * B)) k v w : NoDup (map fst d) -> In (k, v) d -> In (k, w) d -> v = w.
Proof.
  induction d as [|[a b] d IH]; cbn; intros N I I'; [destruct I|]. inversion N as [|? ? N1 N2]; subst.
  destruct I as [E|I], I' as [E'|I']; try congruence; [| |now apply IH].
  - exfalso. apply N1. injection E as -> ->. apply in_map_iff. now exists (k, w).
  - exfalso. apply N1. injection E' as -> ->. apply in_map_iff. now exists (k, v).
Qed.

(** What a step may do to the dictionary. *)
Definition grows (d d' : dict) : Prop :=
  inverses_only d' /\ incl d d' /\
  (forall k v, In (k, v) d' -> In (k, v) d \/ exists s, k = "inv" ++ s)%string /\
  incl (value_symbols d') (value_symbols d).
Lemma grows_refl d : inverses_only d -> grows d d.
Proof. intros H. split; [exact H|]. split; [apply incl_refl|]. split; [auto|apply incl_refl]. Qed.
Lemma grows_trans a b c : grows a b -> grows b c -> grows a c.
Proof.
  intros (A1 & A2 & A3 & A4) (B1 & B2 & B3 & B4). split; [exact B1|]. split; [eapply incl_tran; eassumption|].
  split; [|eapply incl_tran; eassumption].
  intros k v H. destruct (B3 k v H) as [H'|H']; [|now right]. now apply A3.
Qed.
Lemma grows_add d s v : inverses_only d -> In (s, v) d -> grows d (dict_set (invname s) (Inv v) d).
Proof.
  intros [N C] I.
  assert (O : forall p, In p d -> In p (dict_set (invname s) (Inv v) d)).
  { intros p. apply dict_set_old. intros w W. destruct (C s w W) as (u & U & ->). f_equal. eapply key_unique; eassumption. }
  split; [|split; [exact O|split]].
  - split; [now apply dict_set_keys|]. intros t w W. apply in_dict_set in W. destruct W as [W|W].
    + injection W as -> ->. exists v. split; [|reflexivity]. now apply O.
    + destruct (C t w W) as (u & U & ->). exists u. auto.
  - intros k w W. apply in_dict_set in W. destruct W as [W|W]; [|now left]. injection W as -> _. right. now exists s.
  - intros x X. apply in_flat_map in X. destruct X as (p & P & X). apply in_dict_set in P. destruct P as [->|P].
    + cbn in X. apply in_flat_map. now exists (s, v).
    + apply in_flat_map. now exists p.
Qed.
Lemma gives_incl d d' r : incl d d' -> gives d' r -> gives d r.
Proof. intros I G k v H. apply G, I, H. Qed.

(** ** Expressions *)
Lemma negative_power_value r e s n : negative_power e = Some (s, n) -> eval r e = ((/ r s) ^ n)%R.
Proof.
  destruct e as [| | | |a m|a| |]; cbn; try discriminate.
  - destruct a as [| | | | |b| |]; try discriminate. destruct b as [|t| | | | | |]; try discriminate.
    destruct m as [|m]; [discriminate|]. intros E. injection E as <- <-. reflexivity.
  - destruct a as [|t| | |b m| | |]; try discriminate.
    + intros E. injection E as <- <-. cbn. ring.
    + destruct b as [|t| | | | | |]; try discriminate. destruct m as [|m]; [discriminate|].
      intros E. injection E as <- <-. cbn [eval]. symmetry. apply pow_inv.
Qed.

Section Simp.
Variable simp : expr -> expr.

Definition sound (d d' : dict) (e : expr) (res : result expr) : Prop :=
  grows d d' /\ forall r e', gives d' r -> (forall e, eval r (simp e) = eval r e) -> res = Ok e' -> eval r e' = eval r e.

Lemma scalar_sound fuel : forall d e d' res, inverses_only d -> scalar simp fuel d e = (d', res) -> sound d d' e res.
Proof.
  assert (A : forall fuel, (forall d e d' res, inverses_only d -> scalar simp fuel d e = (d', res) -> sound d d' e res) ->
    forall d a d' res, inverses_only d -> (if atom a then (d, Ok a) else scalar simp fuel d a) = (d', res) -> sound d d' a res).
  { intros f IH d a d' res D E. destruct (atom a); [|eauto]. injection E as <- <-.
    split; [now apply grows_refl|]. intros r e' _ _ X. now injection X as <-. }
  induction fuel as [|fuel IH]; intros d e d' res D; cbn [scalar].
  { destruct (atom e || is_number e); intros E; injection E as <- <-; (split; [now apply grows_refl|]); intros r e' _ _ X;
      [now injection X as <-|discriminate]. }
  destruct (atom e || is_number e).
  { intros E; injection E as <- <-. split; [now apply grows_refl|]. intros r e' _ _ X; now injection X as <-. }
  specialize (A fuel IH).
  set (arg := fun (d : dict) (a : expr) => if atom a then (d, Ok a) else scalar simp fuel d a).
  change (forall d a d' res, inverses_only d -> arg d a = (d', res) -> sound d d' a res) in A.
  intros E. assert (T : sound d d' (simp e) res).
  2:{ destruct T as [T1 T2]. split; [exact T1|]. intros r e' G K X. rewrite (T2 r e' G K X). apply K. }
  clear IH. revert E.
  generalize (simp e); clear e; intros e.
  destruct (negative_power e) as [[s n]|] eqn:P.
  { destruct (assoc s d) as [v|] eqn:V.
    - intros E. injection E as <- <-. apply assoc_in in V. pose proof (grows_add d s v D V) as G.
      split; [exact G|]. intros r e' R _ X. injection X as <-. rewrite eval_spow, (negative_power_value r e s n P). cbn [eval].
      f_equal. rewrite (R (invname s) (Inv v) (dict_set_new _ _ _)). cbn [eval]. f_equal. symmetry. apply R.
      destruct G as (_ & G & _). now apply G.
    - intros E. injection E as <- <-. split; [now apply grows_refl|]. intros r e' _ _ X. now injection X as <-. }
  assert (S1 : forall a (f : expr -> expr) (d d' : dict) res, inverses_only d ->
    andthen (arg d a) (fun d a => (d, Ok (f a))) = (d', res) ->
    (forall r a a', eval r a' = eval r a -> eval r (f a') = eval r (f a)) -> sound d d' (f a) res).
  { intros a f d1 d2 r1 D1 E F. destruct (arg d1 a) as [da ra] eqn:Ea. destruct (A _ _ _ _ D1 Ea) as [Ga Va].
    destruct ra as [a'|x]; cbn in E; injection E as <- <-; (split; [exact Ga|]); intros r e' G K X; [|discriminate].
    injection X as <-. apply F. now apply Va. }
  assert (SK : forall a (k : expr -> dict -> dict * result expr) (f : expr -> expr) (d d' : dict) res, inverses_only d ->
    andthen (arg d a) (fun d a => k a d) = (d', res) ->
    (forall a' d d' res, inverses_only d -> k a' d = (d', res) -> sound d d' (f a') res) ->
    (forall r a a', eval r a' = eval r a -> eval r (f a') = eval r (f a)) -> sound d d' (f a) res).
  { intros a k f d1 d2 r1 D1 E Kk F. destruct (arg d1 a) as [da ra] eqn:Ea. destruct (A _ _ _ _ D1 Ea) as [Ga Va].
    destruct ra as [a'|x]; cbn in E.
    - destruct (Kk a' da d2 r1 (proj1 Ga) E) as [G2 V2]. split; [eapply grows_trans; eassumption|].
      intros r e' G K X. rewrite (V2 r e' G K X). apply F. apply Va; [|exact K|reflexivity].
      eapply gives_incl; [|exact G]. apply G2.
    - injection E as <- <-. split; [exact Ga|]. discriminate. }
  destruct e as [q|s|a b|a b|a n|a|f a|a b t e]; intros E.
  - injection E as <- <-. split; [now apply grows_refl|]. intros r e' _ _ X. destruct (singleton q); [now injection X as <-|discriminate].
  - injection E as <- <-. split; [now apply grows_refl|]. discriminate.
  - refine (SK a (fun a d => andthen (arg d b) (fun d b => (d, Ok (Add a b)))) (fun a => Add a b) _ _ _ D E _ _).
    + intros a' d1 d2 r1 D1 E1. refine (S1 b (fun b => Add a' b) _ _ _ D1 E1 _). cbn. congruence.
    + cbn. congruence.
  - refine (SK a (fun a d => andthen (arg d b) (fun d b => (d, Ok (Mul a b)))) (fun a => Mul a b) _ _ _ D E _ _).
    + intros a' d1 d2 r1 D1 E1. refine (S1 b (fun b => Mul a' b) _ _ _ D1 E1 _). cbn. congruence.
    + cbn. congruence.
  - refine (S1 a (fun a => Pow a n) _ _ _ D E _). cbn. congruence.
  - refine (S1 a Inv _ _ _ D E _). cbn. congruence.
  - refine (S1 a (App f) _ _ _ D E _). cbn. congruence.
  - refine (SK a (fun a d => andthen (arg d b) (fun d b => andthen (arg d t) (fun d t => andthen (arg d e) (fun d e => (d, Ok (Ite a b t e))))))
      (fun a => Ite a b t e) _ _ _ D E _ _); [|cbn; intros r x y ->; reflexivity].
    clear d d' res D E. intros a' d d' res D E.
    refine (SK b (fun b d => andthen (arg d t) (fun d t => andthen (arg d e) (fun d e => (d, Ok (Ite a' b t e)))))
      (fun b => Ite a' b t e) _ _ _ D E _ _); [|cbn; intros r x y ->; reflexivity].
    clear d d' res D E. intros b' d d' res D E.
    refine (SK t (fun t d => andthen (arg d e) (fun d e => (d, Ok (Ite a' b' t e)))) (fun t => Ite a' b' t e) _ _ _ D E _ _);
      [|cbn; intros r x y ->; reflexivity].
    clear d d' res D E. intros t' d d' res D E.
    refine (S1 e (fun e => Ite a' b' t' e) _ _ _ D E _). cbn; intros r x y ->; reflexivity.
Qed.

(** ** Lists and the core *)
Definition kept (r : env) : Prop := forall e, eval r (simp e) = eval r e.
Lemma entries_sound fuel caught l : forall d d' l' x, inverses_only d -> entries simp fuel caught d l = (d', l', x) ->
  grows d d' /\ forall r, gives d' r -> kept r -> map (eval r) l' = map (eval r) l.
Proof.
  induction l as [|e l IH]; intros d d' l' x D; cbn [entries].
  { intros E. injection E as <- <- <-. split; [now apply grows_refl|reflexivity]. }
  destruct (scalar simp fuel d e) as [d1 res] eqn:E1. destruct (scalar_sound _ _ _ _ _ D E1) as [G1 V1].
  assert (Go : forall e1, (forall r, gives d1 r -> kept r -> eval r e1 = eval r e) ->
    (let '(d, l', x) := entries simp fuel caught d1 l in (d, e1 :: l', x)) = (d', l', x) ->
    grows d d' /\ forall r, gives d' r -> kept r -> map (eval r) l' = map (eval r) (e :: l)).
  { intros e1 H1. destruct (entries simp fuel caught d1 l) as [[d2 l2] x2] eqn:E2.
    destruct (IH _ _ _ _ (proj1 G1) E2) as [G2 V2]. intros E. injection E as <- <- <-.
    split; [eapply grows_trans; eassumption|]. intros r G K. cbn. f_equal; [|now apply V2].
    apply H1; [|exact K]. eapply gives_incl; [|exact G]. apply G2. }
  destruct res as [e1|y].
  - apply Go. intros r G K. now apply V1.
  - assert (St : (d1, e :: l, Some y) = (d', l', x) ->
      grows d d' /\ forall r, gives d' r -> kept r -> map (eval r) l' = map (eval r) (e :: l))
      by (intros E; injection E as <- <- <-; split; [exact G1|reflexivity]).
    destruct y; try exact St. destruct caught; [|exact St]. apply Go. reflexivity.
Qed.

Lemma nth_flat A i j : i < nr A -> j < nc A -> nth (i * nc A + j) (flat A) (Num 0) = ent A i j.
Proof.
  unfold flat, rows_of. generalize (ent A) as g. generalize (nc A) as n. generalize (nr A) as m. intros m n g.
  assert (H : forall m k, i < m -> j < n ->
    nth (i * n + j) (concat (map (fun i => map (fun j => g i j) (seq 0 n)) (seq k m))) (Num 0) = g (k + i) j); [|intros; now apply (H m 0)].
  clear m. revert i. intros i m. revert i. induction m as [|m IH]; intros i k Hi Hj; [lia|]. cbn [seq map concat].
  destruct i as [|i].
  - rewrite app_nth1 by (rewrite map_length, seq_length; lia). rewrite Nat.add_0_r. cbn [Nat.mul Nat.add].
    rewrite nth_indep with (d' := g k 0) by (rewrite map_length, seq_length; lia).
    rewrite (map_nth (fun j => g k j)). now rewrite seq_nth by lia.
  - rewrite app_nth2 by (rewrite map_length, seq_length; lia). rewrite map_length, seq_length.
    replace (S i * n + j - n) with (i * n + j) by lia. rewrite IH by lia. f_equal. lia.
Qed.
Lemma reshape_same r A l : map (eval r) l = map (eval r) (flat A) -> mat_same r r A (reshape A l).
Proof.
  intros H. split; [reflexivity|]. split; [reflexivity|]. intros i j Hi Hj. cbn [reshape ent].
  rewrite <- (nth_flat A i j Hi Hj). rewrite <- (map_nth (eval r) l), <- (map_nth (eval r) (flat A)). now rewrite H.
Qed.
Lemma same_refl r c : same_values r r c c.
Proof. unfold same_values, mat_same. repeat split. Qed.
Lemma same_trans r a b c : same_values r r a b -> same_values r r b c -> same_values r r a c.
Proof.
  assert (M : forall A B C, mat_same r r A B -> mat_same r r B C -> mat_same r r A C).
  { intros A B C (M1 & M2 & M3) (N1 & N2 & N3). split; [congruence|]. split; [congruence|].
    intros i j Hi Hj. rewrite N3 by (rewrite ?M1, ?M2; assumption). now apply M3. }
  intros (A1 & A2 & A3 & A4 & A5 & A6 & A7 & A8 & A9 & A10 & A11 & A12 & A13 & A14 & A15)
         (B1 & B2 & B3 & B4 & B5 & B6 & B7 & B8 & B9 & B10 & B11 & B12 & B13 & B14 & B15).
  unfold same_values. repeat match goal with |- _ /\ _ => split end; try congruence; eapply M; eassumption.
Qed.

(** One attribute. *)
Definition step_sound (c : core) (o : outcome) : Prop :=
  grows (c_subs c) (c_subs (fst o)) /\
  forall r, gives (c_subs (fst o)) r -> kept r -> same_values r r c (fst o).
Lemma attribute_sound fuel caught get set c : inverses_only (c_subs c) ->
  (forall d l, c_subs (set l (set_subs d c)) = d) ->
  (forall r d l, map (eval r) l = map (eval r) (get c) -> same_values r r c (set l (set_subs d c))) ->
  step_sound c (attribute simp fuel caught get set c).
Proof.
  intros D S V. unfold attribute. destruct (entries simp fuel caught (c_subs c) (get c)) as [[d l] x] eqn:E.
  destruct (entries_sound _ _ _ _ _ _ _ D E) as [G W]. unfold step_sound. cbn [fst]. rewrite S.
  split; [exact G|]. intros r R K. apply V. now apply W.
Qed.
Lemma obind_sound c o f : step_sound c o -> (forall c', inverses_only (c_subs c') -> step_sound c' (f c')) -> step_sound c (obind o f).
Proof.
  intros [G V] F. destruct o as [c1 [x|]]; cbn [obind fst] in *; [now split|].
  destruct (F c1 (proj1 G)) as [G2 V2]. split; [eapply grows_trans; eassumption|].
  intros r R K. eapply same_trans; [apply V; [|exact K]|now apply V2]. eapply gives_incl; [|exact R]. apply G2.
Qed.
Lemma values_list r l l' : map (eval r) l' = map (eval r) l -> length l' = length l.
Proof. intros H. apply (f_equal (@length R)) in H. now rewrite !map_length in H. Qed.

Lemma subsinverse_sound fuel c : inverses_only (c_subs c) -> step_sound c (subsinverse_core simp fuel c).
Proof.
  intros D. unfold subsinverse_core.
  apply obind_sound; [apply attribute_sound; [exact D|reflexivity|]|clear c D; intros c D].
  { intros r d l H. pose proof (values_list _ _ _ H) as L. destruct l as [|h [|? ?]]; try discriminate L. injection H as H.
    unfold same_values, mat_same. cbn. repeat split; auto. }
  apply obind_sound; [apply attribute_sound; [exact D|reflexivity|]|clear c D; intros c D].
  { intros r d l H. unfold same_values, mat_same. cbn. repeat split; auto. }
  apply obind_sound; [apply attribute_sound; [exact D|reflexivity|]|clear c D; intros c D].
  { intros r d l H. pose proof (reshape_same r (c_Q c) l H). unfold same_values. cbn. repeat match goal with |- _ /\ _ => split end; try reflexivity; try assumption;
      unfold mat_same; auto. }
  apply obind_sound; [apply attribute_sound; [exact D|reflexivity|]|clear c D; intros c D].
  { intros r d l H. pose proof (reshape_same r (c_Zl c) l H). unfold same_values. cbn. repeat match goal with |- _ /\ _ => split end; try reflexivity; try assumption;
      unfold mat_same; auto. }
  apply obind_sound; [apply attribute_sound; [exact D|reflexivity|]|clear c D; intros c D].
  { intros r d l H. unfold same_values, mat_same. cbn. repeat split; auto. }
  apply obind_sound; [apply attribute_sound; [exact D|reflexivity|]|clear c D; intros c D].
  { intros r d l H. pose proof (reshape_same r (c_M c) l H). unfold same_values. cbn. repeat match goal with |- _ /\ _ => split end; try reflexivity; try assumption;
      unfold mat_same; auto. }
  apply obind_sound; [destruct (c_dxH c) as [l0|] eqn:X; [apply attribute_sound; [exact D|reflexivity|]|]|clear c D; intros c D].
  { intros r d l H. rewrite X in H. unfold same_values, mat_same. cbn. rewrite X. cbn. repeat split; auto. now rewrite H. }
  { split; [now apply grows_refl|]. intros. apply same_refl. }
  apply attribute_sound; [exact D|reflexivity|].
  intros r d l H. assert (Q : map (fun p => (fst p, eval r (snd p))) (combine (map fst (c_observers c)) l) =
    map (fun p => (fst p, eval r (snd p))) (c_observers c)).
  { clear D d. revert l H. induction (c_observers c) as [|[k v] o IH]; intros [|e l] H; try discriminate H; [reflexivity|].
    cbn in H. injection H as H1 H2. cbn. f_equal; [now rewrite H1|now apply IH]. }
  unfold same_values, mat_same. cbn. repeat split; auto.
Qed.
End Simp.

(** ** The values of the new symbols *)
Lemma in_keys s (d : dict) : {In s (map fst d)} + {~ In s (map fst d)}.
Proof. apply in_dec, string_dec. Qed.
Lemma new_values d d' r : grows d d' -> gives d r ->
  (forall s, In s (value_symbols d) -> In s (map fst d) \/ ~ In s (map fst d')) ->
  exists r', gives d' r' /\ extends d d' r r'.
Proof.
  intros ((N & _) & I & _ & VS) G F.
  pose (r' := fun s => if in_keys s d then r s else match assoc s d' with Some v => eval r v | None => r s end).
  assert (X : extends d d' r r').
  { intros s H. unfold r'. destruct (in_keys s d); [reflexivity|]. destruct H as [H|H]; [contradiction|].
    destruct (assoc s d') as [v|] eqn:A; [|reflexivity]. exfalso. apply H. apply assoc_in in A. apply in_map_iff. now exists (s, v). }
  exists r'. split; [|exact X]. intros k v H.
  assert (Ev : eval r' v = eval r v).
  { apply eval_ext. intros s Hs. apply X, F, VS. apply in_flat_map. now exists (k, v). }
  rewrite Ev. unfold r'. destruct (in_keys k d) as [K|K].
  - apply in_map_iff in K. destruct K as ([a w] & E & K). cbn in E. subst a.
    replace v with w; [now apply G|]. eapply key_unique; [exact N|apply I; exact K|exact H].
  - destruct (assoc k d') as [w|] eqn:A; [apply assoc_in in A; f_equal; eapply key_unique; eassumption|].
    apply assoc_none in A. exfalso. apply A. apply in_map_iff. now exists (k, v).
Qed.

(** ** Nothing is left to replace *)
Lemma assoc_key {B} s (d : list (string * B)) : In s (map fst d) -> exists v, assoc s d = Some v.
Proof. intros H. destruct (assoc s d) as [v|] eqn:E; [eauto|]. now apply assoc_none in E. Qed.
Lemma number_without ks e : is_number e = true -> without_inverse ks e.
Proof.
  unfold is_number. destruct (free_symbols e) eqn:F; [intros _|discriminate]. revert F.
  induction e as [q|s|a IHa b IHb|a IHa b IHb|a IHa n|a IHa|f a IHa|a IHa b IHb t IHt e IHe]; cbn; intros F; auto.
  - apply app_eq_nil in F. tauto.
  - apply app_eq_nil in F. tauto.
  - split; [auto|]. destruct a as [|s| | |b m| | |]; try exact I; [discriminate|].
    destruct b; try exact I. discriminate.
  - apply app_eq_nil in F as [F1 F]. apply app_eq_nil in F as [F2 F]. apply app_eq_nil in F as [F3 F]. tauto.
Qed.
Section Keys.
Variable ks : list string.
Hypothesis plain : forall s, In s ks -> forall t, s <> ("inv" ++ t)%string.
Definition id_simp (e : expr) : expr := e.
(** The head of a result: what the inverse above it would see. *)
Definition head_ok (e e' : expr) : Prop :=
  match e' with
  | Sym s | Pow (Sym s) (S _) => e = e' \/ ~ In s ks
  | _ => True
  end.
Definition clean (d d' : dict) (e : expr) (res : result expr) : Prop :=
  incl (map fst d) (map fst d') /\ forall e', res = Ok e' -> without_inverse ks e' /\ head_ok e e'.
Lemma keys_set {B} k (v : B) d : incl (map fst d) (map fst (dict_set k v d)).
Proof.
  induction d as [|[a b] d IH]; cbn; intros x H; [destruct H|].
  destruct (String.eqb_spec a k) as [->|]; cbn in *; intuition.
Qed.
Lemma head_refl e : head_ok e e.
Proof. destruct e as [|s| | |a n| | |]; cbn; auto. destruct a; auto. destruct n; auto. Qed.
Lemma spow_clean s n : without_inverse ks (spow (Sym (invname s)) n) /\ forall e, head_ok e (spow (Sym (invname s)) n).
Proof.
  assert (P : ~ In (invname s) ks) by (intros H; exact (plain _ H s eq_refl)).
  destruct n as [|[|n]]; cbn; auto.
Qed.
Lemma scalar_clean fuel : forall d e d' res, incl ks (map fst d) ->
  scalar id_simp fuel d e = (d', res) -> clean d d' e res.
Proof.
  induction fuel as [|fuel IH]; intros d e d' res K; cbn [scalar].
  { destruct (atom e || is_number e) eqn:Z; intros E; injection E as <- <-; (split; [apply incl_refl|]); intros e' X;
      [injection X as <-|discriminate]. split; [|apply head_refl]. apply orb_prop in Z as [Z|Z]; [|now apply number_without].
    destruct e; try discriminate Z; exact I. }
  destruct (atom e || is_number e) eqn:Z.
  { intros E; injection E as <- <-. split; [apply incl_refl|]. intros e' X; injection X as <-. split; [|apply head_refl].
    apply orb_prop in Z as [Z|Z]; [|now apply number_without]. destruct e; try discriminate Z; exact I. }
  clear Z. unfold id_simp at 1. set (arg := fun (d : dict) (a : expr) => if atom a then (d, Ok a) else scalar id_simp fuel d a).
  assert (A : forall d a d' res, incl ks (map fst d) -> arg d a = (d', res) -> clean d d' a res).
  { intros d0 a d1 r0 K0 E. unfold arg in E. destruct (atom a) eqn:T; [|eapply IH; eassumption]. injection E as <- <-.
    split; [apply incl_refl|]. intros e' X. injection X as <-. split; [destruct a; try discriminate T; exact I|apply head_refl]. }
  clear IH.
  assert (S : forall a (k : dict -> expr -> dict * result expr) (f : expr) (d d' : dict) res, incl ks (map fst d) ->
    andthen (arg d a) k = (d', res) ->
    (forall a' d d' res, incl ks (map fst d) -> without_inverse ks a' -> head_ok a a' -> k d a' = (d', res) -> clean d d' f res) ->
    clean d d' f res).
  { intros a k f d1 d2 r1 K1 E Kk. destruct (arg d1 a) as [da ra] eqn:Ea. destruct (A _ _ _ _ K1 Ea) as [Ga Va].
    destruct ra as [a'|x]; cbn in E; [|injection E as <- <-; split; [exact Ga|discriminate]].
    destruct (Va a' eq_refl) as [W1 W2]. destruct (Kk a' da d2 r1 (incl_tran K1 Ga) W1 W2 E) as [G2 V2].
    split; [eapply incl_tran; eassumption|exact V2]. }
  destruct (negative_power e) as [[s n]|] eqn:P.
  { destruct (assoc s d) as [v|] eqn:V; intros E; injection E as <- <-.
    - split; [apply keys_set|]. intros e' X. injection X as <-. destruct (spow_clean s n). auto.
    - split; [apply incl_refl|]. intros e' X. injection X as <-. split; [|apply head_refl].
      assert (Q : ~ In s ks) by (intros H; apply K in H; now apply assoc_none in V).
      destruct e as [| | | |a m|a| |]; try discriminate P.
      + destruct a as [| | | | |b| |]; try discriminate P. destruct b as [|t| | | | | |]; try discriminate P.
        destruct m; [discriminate P|]. injection P as -> _. cbn. auto.
      + destruct a as [|t| | |b m| | |]; try discriminate P; [injection P as -> _; cbn; auto|].
        destruct b as [|t| | | | | |]; try discriminate P. destruct m; [discriminate P|]. injection P as -> _. cbn. auto. }
  assert (Done : forall (d d' : dict) e f res, (d, Ok f) = (d', res) -> without_inverse ks f -> head_ok e f -> clean d d' e res).
  { intros d1 d2 e1 f r1 E W H. injection E as <- <-. split; [apply incl_refl|]. intros e' X. injection X as <-. auto. }
  destruct e as [q|s|a b|a b|a n|a|f a|a b t e]; intros E.
  - injection E as <- <-. split; [apply incl_refl|]. intros e' X. destruct (singleton q); [|discriminate]. injection X as <-. cbn. auto.
  - injection E as <- <-. split; [apply incl_refl|discriminate].
  - refine (S a _ _ _ _ _ K E _). intros a' d1 d2 r1 K1 W1 _ E1. refine (S b _ _ _ _ _ K1 E1 _). intros b' d3 d4 r3 K3 W3 _ E3.
    apply (Done _ _ _ _ _ E3); cbn; auto.
  - refine (S a _ _ _ _ _ K E _). intros a' d1 d2 r1 K1 W1 _ E1. refine (S b _ _ _ _ _ K1 E1 _). intros b' d3 d4 r3 K3 W3 _ E3.
    apply (Done _ _ _ _ _ E3); cbn; auto.
  - refine (S a _ _ _ _ _ K E _). intros a' d1 d2 r1 K1 W1 H1 E1. apply (Done _ _ _ _ _ E1); cbn; auto.
    destruct a' as [|s| | | | | |]; auto. destruct n; auto. destruct H1 as [->|H1]; auto.
  - refine (S a _ _ _ _ _ K E _). intros a' d1 d2 r1 K1 W1 H1 E1. apply (Done _ _ _ _ _ E1); cbn; auto. split; [exact W1|].
    destruct a' as [|s| | |c m| | |]; auto; [|destruct c as [|s| | | | | |]; auto; destruct m as [|m]; auto];
      destruct H1 as [->|H1]; auto; discriminate P.
  - refine (S a _ _ _ _ _ K E _). intros a' d1 d2 r1 K1 W1 _ E1. apply (Done _ _ _ _ _ E1); cbn; auto.
  - refine (S a _ _ _ _ _ K E _). intros a' d1 d2 r1 K1 W1 _ E1. refine (S b _ _ _ _ _ K1 E1 _). intros b' d3 d4 r3 K3 W3 _ E3.
    refine (S t _ _ _ _ _ K3 E3 _). intros t' d5 d6 r5 K5 W5 _ E5. refine (S e _ _ _ _ _ K5 E5 _). intros e' d7 d8 r7 K7 W7 _ E7.
    apply (Done _ _ _ _ _ E7); cbn; auto.
Qed.
End Keys.

(** ** The whole core *)
Lemma scalar_raises fuel : forall d e d' x, scalar id_simp fuel d e = (d', Err x) -> x = OutOfFuel.
Proof.
  induction fuel as [|fuel IH]; intros d e d' x; cbn [scalar].
  { destruct (atom e || is_number e); intros E; congruence. }
  destruct (atom e || is_number e) eqn:Z; [intros E; congruence|]. apply orb_false_elim in Z as [Z _].
  unfold id_simp at 1. set (arg := fun (d : dict) (a : expr) => if atom a then (d, Ok a) else scalar id_simp fuel d a).
  assert (A : forall d a d' x, arg d a = (d', Err x) -> x = OutOfFuel).
  { intros d0 a d1 y. unfold arg. destruct (atom a); [discriminate|apply IH]. }
  assert (S : forall a (k : dict -> expr -> dict * result expr) (d d' : dict) x, andthen (arg d a) k = (d', Err x) ->
    (forall a d, k d a = (d', Err x) -> x = OutOfFuel) -> x = OutOfFuel).
  { intros a k d1 d2 y E K. destruct (arg d1 a) as [da [a'|z]] eqn:Ea; cbn in E; [eapply K; exact E|].
    injection E as <- <-. eapply A; exact Ea. }
  destruct (negative_power e) as [[s n]|]; [destruct (assoc s d); discriminate|].
  destruct e as [q|s|a b|a b|a n|a|f a|a b t e]; try discriminate Z; intros E;
    refine (S _ _ _ _ _ E _); intros ? ? E1; try discriminate E1;
    refine (S _ _ _ _ _ E1 _); intros ? ? E2; try discriminate E2;
    refine (S _ _ _ _ _ E2 _); intros ? ? E3; try discriminate E3;
    refine (S _ _ _ _ _ E3 _); intros ? ? E4; discriminate E4.
Qed.
Section CoreKeys.
Variable ks : list string.
Hypothesis plain : forall s, In s ks -> forall t, s <> ("inv" ++ t)%string.
Lemma entries_clean fuel caught l : forall d d' l' x, incl ks (map fst d) ->
  entries id_simp fuel caught d l = (d', l', x) ->
  incl ks (map fst d') /\ (x = None -> Forall (without_inverse ks) l') /\ length l' = length l.
Proof.
  induction l as [|e l IH]; intros d d' l' x K; cbn [entries].
  { intros E. injection E as <- <- <-. auto. }
  destruct (scalar id_simp fuel d e) as [d1 res] eqn:E1. destruct (scalar_clean ks plain _ _ _ _ _ K E1) as [G V].
  assert (K1 := incl_tran K G). destruct res as [e1|y].
  - destruct (entries id_simp fuel caught d1 l) as [[d2 l2] x2] eqn:E2. destruct (IH _ _ _ _ K1 E2) as (A & B & L).
    intros E. injection E as <- <- <-. split; [exact A|]. split; [|cbn; now rewrite L].
    intros X. constructor; [now apply (V e1 eq_refl)|now apply B].
  - apply scalar_raises in E1. subst y. intros E. injection E as <- <- <-. split; [exact K1|]. split; [discriminate|reflexivity].
Qed.
(** Nothing to replace in the attributes visited so far. *)
Definition visited (get : core -> list expr) (c : core) : Prop := Forall (without_inverse ks) (get c).
Lemma attribute_clean fuel caught get set c : incl ks (map fst (c_subs c)) ->
  (forall d l, c_subs (set l (set_subs d c)) = d) ->
  (forall d l, length l = length (get c) -> incl (get (set l (set_subs d c))) l) ->
  let o := attribute id_simp fuel caught get set c in
  incl ks (map fst (c_subs (fst o))) /\ (snd o = None -> visited get (fst o)).
Proof.
  intros K S G. unfold attribute. destruct (entries id_simp fuel caught (c_subs c) (get c)) as [[d l] x] eqn:E.
  destruct (entries_clean _ _ _ _ _ _ _ K E) as (A & B & L). cbn [fst snd]. rewrite S. split; [exact A|].
  intros X. unfold visited. eapply incl_Forall; [apply G; exact L|now apply B].
Qed.
Lemma flat_reshape A l : length l = length (flat A) -> incl (flat (reshape A l)) l.
Proof.
  intros L e H. unfold flat in H. apply in_concat in H as (row & H1 & H2). unfold rows_of in H1. cbn [reshape nr nc ent] in H1.
  apply in_map_iff in H1 as (i & <- & Hi). apply in_map_iff in H2 as (j & <- & Hj). apply in_seq in Hi, Hj.
  apply nth_In. rewrite L. clear L.
  assert (Q : length (flat A) = nr A * nc A).
  { unfold flat, rows_of. generalize 0 at 2 as k. generalize (nr A) as m. induction m as [|m IH]; intros k; [reflexivity|].
    cbn [seq map concat]. rewrite app_length, IH, map_length, seq_length. lia. }
  rewrite Q. nia.
Qed.
Definition vH := visited (fun c => [c_H c]).
Definition vz := visited c_z.
Definition vQ := visited (fun c => flat (c_Q c)).
Definition vZl := visited (fun c => flat (c_Zl c)).
Definition vbl := visited c_bl.
Definition vM := visited (fun c => flat (c_M c)).
Definition vdx := visited (fun c => match c_dxH c with Some l => l | None => [] end).
Lemma clean_step fuel caught get set (k : core -> outcome) c c' (P : core -> Prop) : incl ks (map fst (c_subs c)) ->
  (forall d l, c_subs (set l (set_subs d c)) = d) ->
  (forall d l, length l = length (get c) -> incl (get (set l (set_subs d c))) l) ->
  (forall d l, P (set l (set_subs d c))) ->
  obind (attribute id_simp fuel caught get set c) k = (c', None) ->
  exists c1, incl ks (map fst (c_subs c1)) /\ P c1 /\ visited get c1 /\ k c1 = (c', None).
Proof.
  intros K S G HP E. pose proof (attribute_clean fuel caught get set c K S G) as [A B].
  unfold attribute in *. destruct (entries id_simp fuel caught (c_subs c) (get c)) as [[d l] x]. cbn [fst snd] in A, B.
  destruct x as [x|]; cbn [obind] in E; [discriminate|]. exists (set l (set_subs d c)). auto.
Qed.
Lemma core_clean fuel c c' : incl ks (map fst (c_subs c)) -> subsinverse_core id_simp fuel c = (c', None) ->
  Forall (without_inverse ks) (core_exprs c').
Proof.
  intros K E. unfold subsinverse_core in E.
  apply clean_step with (P := fun _ => True) in E as (c1 & K1 & _ & V1 & E);
    [|exact K|reflexivity|intros d l L; destruct l as [|h [|? ?]]; try discriminate L; cbn; apply incl_refl|auto]. clear c K.
  apply clean_step with (P := vH) in E as (c2 & K2 & H2 & V2 & E);
    [|exact K1|reflexivity|intros; apply incl_refl|intros; exact V1]. clear c1 K1 V1.
  apply clean_step with (P := fun c => vH c /\ vz c) in E as (c3 & K3 & (H3 & Z3) & V3 & E);
    [|exact K2|reflexivity|intros; now apply flat_reshape|intros; split; [exact H2|exact V2]]. clear c2 K2 H2 V2.
  apply clean_step with (P := fun c => vH c /\ vz c /\ vQ c) in E as (c4 & K4 & (H4 & Z4 & Q4) & V4 & E);
    [|exact K3|reflexivity|intros; now apply flat_reshape|intros; split; [exact H3|split; [exact Z3|exact V3]]]. clear c3 K3 H3 Z3 V3.
  apply clean_step with (P := fun c => vH c /\ vz c /\ vQ c /\ vZl c) in E as (c5 & K5 & (H5 & Z5 & Q5 & L5) & V5 & E);
    [|exact K4|reflexivity|intros; apply incl_refl|intros; split; [exact H4|split; [exact Z4|split; [exact Q4|exact V4]]]].
  clear c4 K4 H4 Z4 Q4 V4.
  apply clean_step with (P := fun c => vH c /\ vz c /\ vQ c /\ vZl c /\ vbl c) in E as (c6 & K6 & (H6 & Z6 & Q6 & L6 & B6) & V6 & E);
    [|exact K5|reflexivity|intros; now apply flat_reshape
     |intros; split; [exact H5|split; [exact Z5|split; [exact Q5|split; [exact L5|exact V5]]]]].
  clear c5 K5 H5 Z5 Q5 L5 V5.
  assert (Last : forall c, incl ks (map fst (c_subs c)) -> vH c /\ vz c /\ vQ c /\ vZl c /\ vbl c /\ vM c /\ vdx c ->
    attribute id_simp fuel true (fun c => map snd (c_observers c))
      (fun l c => set_observers (combine (map fst (c_observers c)) l) c) c = (c', None) ->
    Forall (without_inverse ks) (core_exprs c')).
  { intros c K (F1 & F2 & F3 & F4 & F5 & F6 & F7) E0.
    destruct (clean_step fuel true (fun c => map snd (c_observers c))
      (fun l c => set_observers (combine (map fst (c_observers c)) l) c) (fun c => (c, None)) c c'
      (fun c => vH c /\ vz c /\ vQ c /\ vZl c /\ vbl c /\ vM c /\ vdx c) K) as (c1 & _ & (W1 & W2 & W3 & W4 & W5 & W6 & W7) & W8 & X).
    - reflexivity.
    - intros d l L. cbn. rewrite map_length in L. clear -L. revert l L.
      induction (c_observers c) as [|[a b] o IH]; intros [|e l] L; try discriminate L; [apply incl_refl|].
      cbn. apply incl_cons; [now left|]. apply incl_tl, IH. now injection L.
    - intros d l. split; [exact F1|]. split; [exact F2|]. split; [exact F3|]. split; [exact F4|]. split; [exact F5|]. split; [exact F6|exact F7].
    - rewrite E0. reflexivity.
    - injection X as <-. unfold core_exprs. constructor; [now inversion W1|]. rewrite !Forall_app.
      split; [exact W2|]. split; [exact W5|]. split; [exact W7|]. split; [exact W8|]. split; [exact W3|]. split; [exact W4|exact W6]. }
  destruct (c_dxH c6) as [lx|] eqn:X.
  - apply clean_step with (P := fun c => vH c /\ vz c /\ vQ c /\ vZl c /\ vbl c /\ vM c) in E as (c7 & K7 & (H7 & Z7 & Q7 & L7 & B7 & M7) & V7 & E);
      [|exact K6|reflexivity|intros; apply incl_refl
       |intros; split; [exact H6|split; [exact Z6|split; [exact Q6|split; [exact L6|split; [exact B6|exact V6]]]]]].
    apply (Last c7 K7); [|exact E]. split; [exact H7|]. split; [exact Z7|]. split; [exact Q7|]. split; [exact L7|].
    split; [exact B7|]. split; [exact M7|exact V7].
  - cbn [obind ok] in E. apply (Last c6 K6); [|exact E]. split; [exact H6|]. split; [exact Z6|]. split; [exact Q6|]. split; [exact L6|].
    split; [exact B6|]. split; [exact V6|]. unfold vdx, visited. rewrite X. constructor.
Qed.
End CoreKeys.

(** ** Examples *)
Definition rc : core :=
  set_subs [("R", Num 2); ("C", Num 4)]
    (set_H (Mul (Pow (Sym "x") 2) (Inv (Sym "C")))
       (set_z [Mul (Inv (Pow (Sym "R") 2)) (Sym "w")] (set_w ["w"] (set_x ["x"] (new_core "rc"))))).
Definition clash : core :=
  set_subs [("R", Num 2); ("invR", Num 5)]
    (set_H (Mul (Inv (Sym "R")) (Mul (Sym "invR") (Sym "x"))) (set_x ["x"] (new_core "clash"))).
(** A simplifier that knows sin^2 + cos^2 = 1. *)
Definition trig (e : expr) : expr :=
  match e with
  | Mul a (Add (Pow (App Fsin (Sym s)) 2) (Pow (App Fcos (Sym t)) 2)) => if String.eqb s t then a else e
  | _ => e
  end.
Definition circle : core :=
  set_H (Mul (Sym "x") (Add (Pow (App Fsin (Sym "q")) 2) (Pow (App Fcos (Sym "q")) 2))) (set_x ["x"] (new_core "circle")).
Lemma trig_kept r e : eval r (trig e) = eval r e.
Proof.
  unfold trig. repeat match goal with |- context [match ?x with _ => _ end] => is_var x; destruct x; try reflexivity end.
  destruct (String.eqb_spec s s0) as [<-|]; [|reflexivity]. cbn. pose proof (sin2_cos2 (r s)) as H. unfold Rsqr in H.
  replace (sin (r s) * (sin (r s) * 1) + cos (r s) * (cos (r s) * 1))%R with 1%R by lra. ring.
Qed.
