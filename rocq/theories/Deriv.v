(** Symbolic derivatives are derivatives. *)
From Coq Require Import String List ZArith QArith Qreals Reals Bool Lra Lia.
From Verif Require Import Py Expr ExprProofs Spec_Calculus.
Import ListNotations.
Local Open Scope R_scope.

Lemma upd_same r x : forall s, upd r x (r x) s = r s.
Proof. intros s. unfold upd. destruct (String.eqb_spec s x) as [->|]; reflexivity. Qed.
Lemma upd_eq r x t : upd r x t x = t.
Proof. unfold upd. now rewrite String.eqb_refl. Qed.
Lemma upd_neq r x t s : s <> x -> upd r x t s = r s.
Proof. unfold upd. intros H. now destruct (String.eqb_spec s x). Qed.

(** The value only depends on the free symbols. *)
Lemma eval_ext r r' e : (forall s, In s (free_symbols e) -> r s = r' s) -> eval r e = eval r' e.
Proof.
  induction e as [q|s|a IHa b IHb|a IHa b IHb|a IHa n|a IHa|f a IHa|a IHa b IHb t IHt e IHe];
    cbn; intros H; try reflexivity.
  - apply H. now left.
  - rewrite IHa, IHb by (intros; apply H, in_or_app; auto). reflexivity.
  - rewrite IHa, IHb by (intros; apply H, in_or_app; auto). reflexivity.
  - now rewrite IHa.
  - now rewrite IHa.
  - now rewrite IHa.
  - rewrite IHa, IHb, IHt, IHe; [reflexivity|..]; intros; apply H; rewrite !in_app_iff; tauto.
Qed.
Lemma eval_same r r' e : (forall s, r s = r' s) -> eval r e = eval r' e.
Proof. intros H. apply eval_ext. auto. Qed.

Lemma smooth_ext r r' e : (forall s, In s (free_symbols e) -> r s = r' s) -> smooth r e -> smooth r' e.
Proof.
  induction e as [q|s|a IHa b IHb|a IHa b IHb|a IHa n|a IHa|f a IHa|a IHa b IHb t IHt e IHe];
    cbn; intros H; try (intros _; exact I).
  - intros [H1 H2]. split; [apply IHa|apply IHb]; try assumption; intros; apply H, in_or_app; auto.
  - intros [H1 H2]. split; [apply IHa|apply IHb]; try assumption; intros; apply H, in_or_app; auto.
  - now apply IHa.
  - rewrite (eval_ext r r' a H). intros [H1 H2]. split; [now apply IHa|exact H2].
  - rewrite (eval_ext r r' a H). intros [H1 H2]. split; [now apply IHa|exact H2].
  - rewrite (eval_ext r r' a), (eval_ext r r' b) by (intros; apply H; rewrite !in_app_iff; tauto).
    intros (H1 & H2 & H3). split; [apply IHa; [|exact H1]; intros; apply H; rewrite !in_app_iff; tauto|].
    split; [apply IHb; [|exact H2]; intros; apply H; rewrite !in_app_iff; tauto|].
    destruct H3 as [[H3 H4]|[H3 H4]]; [left|right]; (split; [exact H3|]).
    + apply IHt; [|exact H4]; intros; apply H; rewrite !in_app_iff; tauto.
    + apply IHe; [|exact H4]; intros; apply H; rewrite !in_app_iff; tauto.
Qed.
Lemma smooth_same r r' e : (forall s, r s = r' s) -> smooth r e -> smooth r' e.
Proof. intros H. apply smooth_ext. auto. Qed.

(** Derivative in the direction [v]. *)
Definition fn_slope (f : fn) (x : R) : R :=
  match f with
  | Fexp => exp x
  | Fln => / x
  | Fsin => cos x
  | Fcos => - sin x
  | Fsqrt => / (2 * sqrt x)
  | Fabs => if Rlt_dec 0 x then 1 else if Rlt_dec x 0 then -1 else 0
  | Fsign => 0
  end.

Fixpoint dird (r v : env) (e : expr) : R :=
  match e with
  | Num _ => 0
  | Sym s => v s
  | Add a b => dird r v a + dird r v b
  | Mul a b => dird r v a * eval r b + eval r a * dird r v b
  | Pow a n => INR n * eval r a ^ pred n * dird r v a
  | Inv a => - dird r v a * (/ eval r a) ^ 2
  | App f a => fn_slope f (eval r a) * dird r v a
  | Ite a b t e => if Rlt_dec (eval r a) (eval r b) then dird r v t else dird r v e
  end.

Lemma derivable_pt_lim_ext_loc (f g : R -> R) (t d eps : R) : 0 < eps ->
  (forall h, Rabs h < eps -> f (t + h) = g (t + h)) -> derivable_pt_lim f t d -> derivable_pt_lim g t d.
Proof.
  intros He H Hf e Hp. destruct (Hf e Hp) as [del Hd].
  assert (Hm : 0 < Rmin del eps) by (apply Rmin_pos; [apply cond_pos|exact He]).
  exists (mkposreal _ Hm). cbn. intros h Hh Hl.
  rewrite <- (H h) by (eapply Rlt_le_trans; [exact Hl|apply Rmin_r]).
  replace (g t) with (f t).
  - apply Hd; [exact Hh|]. eapply Rlt_le_trans; [exact Hl|apply Rmin_l].
  - rewrite <- (Rplus_0_r t). apply H. rewrite Rabs_R0. exact He.
Qed.

Lemma derivable_cont f t d : derivable_pt_lim f t d -> continuity_pt f t.
Proof. intros H. apply derivable_continuous_pt. exists d. exact H. Qed.

(** A strict inequality between derivable functions holds around. *)
Lemma lt_around f g t : continuity_pt f t -> continuity_pt g t -> f t < g t ->
  exists eps, 0 < eps /\ forall h, Rabs h < eps -> f (t + h) < g (t + h).
Proof.
  intros Hf Hg Hlt.
  assert (Hc : continuity_pt (fun x => g x - f x) t) by (apply continuity_pt_minus; assumption).
  destruct (Hc (g t - f t)) as (eps & He & H); [lra|].
  exists eps. split; [exact He|]. intros h Hh.
  destruct (Req_dec h 0) as [->|Hn]; [rewrite Rplus_0_r; exact Hlt|].
  specialize (H (t + h)). cbn in H. unfold R_dist, D_x, no_cond in H.
  assert (Rabs (g (t + h) - f (t + h) - (g t - f t)) < g t - f t).
  { apply H. split; [split; [exact I|lra]|]. replace (t + h - t) with h by ring. exact Hh. }
  apply Rabs_def2 in H0. lra.
Qed.

Lemma chain_fn f a t d : derivable_pt_lim a t d ->
  match f with
  | Fexp | Fsin | Fcos => True
  | Fln | Fsqrt => 0 < a t
  | Fabs | Fsign => a t <> 0
  end ->
  derivable_pt_lim (fun t => fn_eval f (a t)) t (fn_slope f (a t) * d).
Proof.
  intros Ha Hd. destruct f; cbn [fn_eval fn_slope].
  - apply (derivable_pt_lim_comp a exp); [exact Ha|apply derivable_pt_lim_exp].
  - apply (derivable_pt_lim_comp a ln); [exact Ha|now apply derivable_pt_lim_ln].
  - apply (derivable_pt_lim_comp a sin); [exact Ha|apply derivable_pt_lim_sin].
  - apply (derivable_pt_lim_comp a cos); [exact Ha|apply derivable_pt_lim_cos].
  - apply (derivable_pt_lim_comp a sqrt); [exact Ha|now apply derivable_pt_lim_sqrt].
  - apply (derivable_pt_lim_comp a Rabs); [exact Ha|].
    destruct (Rlt_dec 0 (a t)); [now apply Rabs_derive_1|].
    destruct (Rlt_dec (a t) 0); [now apply Rabs_derive_2|]. lra.
  - rewrite Rmult_0_l.
    assert (Hc : continuity_pt a t) by (eapply derivable_cont; exact Ha).
    assert (Hz : continuity_pt (fun _ => 0) t) by (apply continuity_pt_const; intros ? ?; reflexivity).
    destruct (Rlt_dec 0 (a t)) as [Hp|Hp].
    + destruct (lt_around _ _ t Hz Hc Hp) as (eps & He & H).
      apply (derivable_pt_lim_ext_loc (fun _ => 1) _ t 0 eps He); [|apply derivable_pt_lim_const].
      intros h Hh. destruct (Rlt_dec 0 (a (t + h))); [reflexivity|]. specialize (H h Hh). lra.
    + assert (Hn : a t < 0) by lra.
      destruct (lt_around _ _ t Hc Hz Hn) as (eps & He & H).
      apply (derivable_pt_lim_ext_loc (fun _ => -1) _ t 0 eps He); [|apply derivable_pt_lim_const].
      intros h Hh. specialize (H h Hh). cbn in H.
      destruct (Rlt_dec 0 (a (t + h))); [lra|]. destruct (Rlt_dec (a (t + h)) 0); [reflexivity|lra].
Qed.

(** Chain rule along any derivable trajectory. *)
Lemma chain_rule (g : R -> env) (v : env) t e : smooth (g t) e ->
  (forall s, In s (free_symbols e) -> derivable_pt_lim (fun t => g t s) t (v s)) ->
  derivable_pt_lim (fun t => eval (g t) e) t (dird (g t) v e).
Proof.
  induction e as [q|s|a IHa b IHb|a IHa b IHb|a IHa n|a IHa|f a IHa|a IHa b IHb tt IHt e IHe];
    cbn [eval smooth dird free_symbols]; intros S H.
  - apply derivable_pt_lim_const.
  - apply H. now left.
  - apply (derivable_pt_lim_plus (fun t => eval (g t) a) (fun t => eval (g t) b));
      [apply IHa|apply IHb]; try tauto; intros; apply H, in_or_app; auto.
  - apply (derivable_pt_lim_mult (fun t => eval (g t) a) (fun t => eval (g t) b));
      [apply IHa|apply IHb]; try tauto; intros; apply H, in_or_app; auto.
  - apply (derivable_pt_lim_comp (fun t => eval (g t) a) (fun y => y ^ n)); [now apply IHa|].
    apply derivable_pt_lim_pow.
  - replace (- dird (g t) v a * (/ eval (g t) a) ^ 2) with
      ((0 * eval (g t) a - dird (g t) v a * 1) / Rsqr (eval (g t) a)).
    + apply derivable_pt_lim_ext_loc with (f := fun t => 1 / eval (g t) a) (eps := 1); [lra| |].
      { intros h _. unfold Rdiv. apply Rmult_1_l. }
      apply (derivable_pt_lim_div (fun _ => 1) (fun t => eval (g t) a)).
      * apply derivable_pt_lim_const.
      * now apply IHa.
      * apply S.
    + unfold Rsqr. field. apply S.
  - apply (chain_fn f (fun t => eval (g t) a)); [now apply IHa|]. apply S.
  - destruct S as (Sa & Sb & Sc).
    assert (Ca : continuity_pt (fun t => eval (g t) a) t).
    { eapply derivable_cont, IHa; [exact Sa|]. intros; apply H; rewrite !in_app_iff; tauto. }
    assert (Cb : continuity_pt (fun t => eval (g t) b) t).
    { eapply derivable_cont, IHb; [exact Sb|]. intros; apply H; rewrite !in_app_iff; tauto. }
    destruct Sc as [[L St]|[L Se]].
    + destruct (lt_around _ _ t Ca Cb L) as (eps & He & HL).
      destruct (Rlt_dec (eval (g t) a) (eval (g t) b)); [|contradiction].
      apply (derivable_pt_lim_ext_loc (fun t => eval (g t) tt) _ t _ eps He).
      * intros h Hh. specialize (HL h Hh). cbn in HL. destruct (Rlt_dec _ _); [reflexivity|contradiction].
      * apply IHt; [exact St|]. intros; apply H; rewrite !in_app_iff; tauto.
    + destruct (lt_around _ _ t Cb Ca L) as (eps & He & HL).
      destruct (Rlt_dec (eval (g t) a) (eval (g t) b)); [lra|].
      apply (derivable_pt_lim_ext_loc (fun t => eval (g t) e) _ t _ eps He).
      * intros h Hh. specialize (HL h Hh). cbn in HL. destruct (Rlt_dec _ _); [lra|reflexivity].
      * apply IHe; [exact Se|]. intros; apply H; rewrite !in_app_iff; tauto.
Qed.

Definition unit (x : string) : env := fun s => if String.eqb s x then 1 else 0.

Lemma eval_fn_diff r f a : eval r (fn_diff f a) = fn_slope f (eval r a).
Proof.
  destruct f; cbn - [sneg smul]; try reflexivity.
  - apply eval_sneg.
  - rewrite eval_smul. cbn. f_equal. f_equal. unfold Q2R. cbn. lra.
  - unfold Q2R. cbn. lra.
Qed.

Lemma Q2R_INR n : Q2R (inject_Z (Z.of_nat n)) = INR n.
Proof. unfold Q2R. cbn. rewrite INR_IZR_INZ. field. Qed.

(** [diff] is the derivative in one direction. *)
Lemma diff_dird r x e : eval r (diff x e) = dird r (unit x) e.
Proof.
  induction e as [q|s|a IHa b IHb|a IHa b IHb|a IHa n|a IHa|f a IHa|a IHa b IHb t IHt e IHe];
    cbn [diff dird].
  - cbn. apply Q2R_0.
  - unfold unit. destruct (String.eqb s x); cbn; [apply Q2R_1|apply Q2R_0].
  - now rewrite eval_sadd, IHa, IHb.
  - now rewrite eval_sadd, !eval_smul, IHa, IHb.
  - destruct n as [|n]; [cbn; rewrite Q2R_0; ring|].
    rewrite !eval_smul, eval_spow, IHa. cbn [eval]. rewrite Q2R_INR. reflexivity.
  - rewrite eval_smul, eval_sneg, eval_spow, IHa. reflexivity.
  - now rewrite eval_smul, eval_fn_diff, IHa.
  - destruct (is0 (diff x t) && is0 (diff x e)) eqn:E.
    + apply andb_true_iff in E. destruct E as [E1 E2].
      rewrite <- IHt, <- IHe, (is0_eval r _ E1), (is0_eval r _ E2). cbn. rewrite Q2R_0.
      now destruct (Rlt_dec _ _).
    + cbn. now rewrite IHt, IHe.
Qed.

Lemma dird_linear r v e l : NoDup l -> (forall s, In s (free_symbols e) -> In s l) ->
  dird r v e = fold_right (fun s acc => v s * dird r (unit s) e + acc) 0 l.
Proof.
  intros ND.
  assert (S1 : forall (k : R) (f : string -> R),
     k * fold_right (fun s acc => v s * f s + acc) 0 l = fold_right (fun s acc => v s * (k * f s) + acc) 0 l).
  { intros k f. clear. induction l as [|s l IH]; cbn; [ring|]. rewrite <- IH. ring. }
  assert (S2 : forall (f g : string -> R),
     fold_right (fun s acc => v s * f s + acc) 0 l + fold_right (fun s acc => v s * g s + acc) 0 l =
     fold_right (fun s acc => v s * (f s + g s) + acc) 0 l).
  { intros f g. clear. induction l as [|s l IH]; cbn; [ring|]. rewrite <- IH. ring. }
  assert (S3 : forall (f g : string -> R), (forall s, f s = g s) ->
     fold_right (fun s acc => v s * f s + acc) 0 l = fold_right (fun s acc => v s * g s + acc) 0 l).
  { intros f g Hfg. clear - Hfg. induction l as [|s l IH]; cbn; [reflexivity|]. now rewrite IH, Hfg. }
  assert (S4 : fold_right (fun s acc => v s * 0 + acc) 0 l = 0).
  { clear. induction l as [|s l IH]; cbn; [reflexivity|]. rewrite IH. ring. }
  induction e as [q|s|a IHa b IHb|a IHa b IHb|a IHa n|a IHa|f a IHa|a IHa b IHb t IHt e IHe];
    cbn [dird free_symbols]; intros H.
  - now rewrite S4.
  - assert (Hs : In s l) by (apply H; now left). clear S1 S2 S3 H.
    induction ND as [|a l Ha ND IH]; cbn; [destruct Hs|].
    assert (S4' : fold_right (fun s acc => v s * 0 + acc) 0 l = 0).
    { clear. induction l as [|s l IH]; cbn; [reflexivity|]. rewrite IH. ring. }
    destruct (string_dec a s) as [->|Hn].
    + assert (E : fold_right (fun s0 acc => v s0 * unit s0 s + acc) 0 l = 0).
      { clear - Ha. induction l as [|b l IH]; cbn; [reflexivity|].
        rewrite IH by (intros Hi; apply Ha; now right). unfold unit.
        destruct (String.eqb_spec s b) as [->|]; [exfalso; apply Ha; now left|ring]. }
      rewrite E. unfold unit. rewrite String.eqb_refl. ring.
    + destruct Hs as [Hs|Hs]; [contradiction|]. rewrite <- (IH S4' Hs). unfold unit.
      destruct (String.eqb_spec s a) as [->|]; [contradiction|]. ring.
  - rewrite IHa, IHb by (intros; apply H, in_or_app; auto). now rewrite S2.
  - rewrite IHa, IHb by (intros; apply H, in_or_app; auto).
    rewrite (Rmult_comm _ (eval r b)), !S1, S2. apply S3. intros s. ring.
  - rewrite IHa by exact H. rewrite S1. reflexivity.
  - rewrite IHa by exact H. rewrite Ropp_mult_distr_l_reverse, (Rmult_comm _ (_ ^ 2)), Ropp_mult_distr_l, S1.
    apply S3. intros s. ring.
  - rewrite IHa by exact H. now rewrite S1.
  - destruct (Rlt_dec _ _).
    + apply IHt. intros; apply H; rewrite !in_app_iff; tauto.
    + apply IHe. intros; apply H; rewrite !in_app_iff; tauto.
Qed.

(** Partial derivatives. *)
Lemma diff_partial r x e : smooth r e -> is_partial r x e (eval r (diff x e)).
Proof.
  intros S. unfold is_partial. rewrite diff_dird.
  replace (dird r (unit x) e) with (dird (upd r x (r x)) (unit x) e).
  - apply (chain_rule (fun t => upd r x t) (unit x) (r x) e).
    + eapply smooth_same; [|exact S]. intros s. symmetry. apply upd_same.
    + intros s _. unfold upd, unit. destruct (String.eqb s x); [apply derivable_pt_lim_id|apply derivable_pt_lim_const].
  - rewrite <- !diff_dird. apply eval_same. apply upd_same.
Qed.

(** Derivatives are smooth where the expression is. *)
Lemma smooth_sadd r a b : smooth r a -> smooth r b -> smooth r (sadd a b).
Proof.
  intros Ha Hb. unfold sadd. destruct (is0 a); [exact Hb|]. destruct (is0 b); [exact Ha|].
  destruct a, b; cbn; auto.
Qed.
Lemma smooth_smul r a b : smooth r a -> smooth r b -> smooth r (smul a b).
Proof.
  intros Ha Hb. unfold smul.
  repeat match goal with |- context [if ?c then _ else _] => destruct c; try (cbn; auto; fail) end.
  destruct a, b; cbn; auto.
Qed.
Lemma smooth_sneg r a : smooth r a -> smooth r (sneg a).
Proof. intros H. apply smooth_smul; [exact I|exact H]. Qed.
Lemma smooth_spow r a n : smooth r a -> smooth r (spow a n).
Proof. intros H. unfold spow. destruct n as [|[|n]]; [exact I|exact H|]. destruct a; cbn; auto. Qed.

Lemma smooth_diff r x e : smooth r e -> smooth r (diff x e).
Proof.
  induction e as [q|s|a IHa b IHb|a IHa b IHb|a IHa n|a IHa|f a IHa|a IHa b IHb t IHt e IHe];
    cbn [smooth diff]; intros H.
  - exact I.
  - destruct (String.eqb s x); exact I.
  - apply smooth_sadd; [apply IHa|apply IHb]; tauto.
  - destruct H as [Ha Hb]. apply smooth_sadd; apply smooth_smul; auto.
  - destruct n as [|n]; [exact I|]. apply smooth_smul; [|now apply IHa].
    apply smooth_smul; [exact I|now apply smooth_spow].
  - apply smooth_smul; [apply smooth_sneg, IHa, H|]. apply smooth_spow. exact H.
  - destruct H as [Ha Hf]. apply smooth_smul; [|now apply IHa].
    destruct f; cbn [fn_diff].
    + cbn. auto.
    + split; [exact Ha|]. lra.
    + cbn. auto.
    + apply smooth_sneg. cbn. auto.
    + split; [apply smooth_smul; [exact I|cbn; auto]|].
      rewrite eval_smul. cbn. pose proof (sqrt_lt_R0 _ Hf). unfold Q2R. cbn. nra.
    + cbn. auto.
    + exact I.
  - destruct (is0 (diff x t) && is0 (diff x e)); [exact I|]. cbn.
    destruct H as (H1 & H2 & [[H3 H4]|[H3 H4]]); (split; [exact H1|split; [exact H2|]]);
      [left|right]; (split; [exact H3|auto]).
Qed.

(** Rate of change along a trajectory that only moves the symbols [l]. *)
Lemma rate_of_change (g : R -> env) (v : env) t e (l : list string) : smooth (g t) e -> NoDup l ->
  (forall s, In s l -> derivable_pt_lim (fun t => g t s) t (v s)) ->
  (forall s, ~ In s l -> derivable_pt_lim (fun t => g t s) t 0) ->
  derivable_pt_lim (fun t => eval (g t) e) t
    (fold_right (fun s acc => v s * eval (g t) (diff s e) + acc) 0 l).
Proof.
  intros S ND H1 H2.
  set (v' := fun s => if in_dec string_dec s l then v s else 0).
  assert (C : derivable_pt_lim (fun t => eval (g t) e) t (dird (g t) v' e)).
  { apply chain_rule; [exact S|]. intros s _. unfold v'. destruct (in_dec string_dec s l); auto. }
  set (l2 := filter (fun s => if in_dec string_dec s l then false else true) (nodup string_dec (free_symbols e))).
  rewrite (dird_linear (g t) v' e (l ++ l2)) in C.
  - rewrite fold_right_app in C.
    assert (Z : fold_right (fun s acc => v' s * dird (g t) (unit s) e + acc) 0 l2 = 0).
    { unfold l2. generalize (nodup string_dec (free_symbols e)) as m.
      induction m as [|s m IH]; cbn; [reflexivity|]. destruct (in_dec string_dec s l) as [|Hn]; [exact IH|].
      cbn. rewrite IH. unfold v'. destruct (in_dec string_dec s l); [contradiction|]. ring. }
    rewrite Z in C.
    replace (fold_right (fun s acc => v s * eval (g t) (diff s e) + acc) 0 l) with
            (fold_right (fun s acc => v' s * dird (g t) (unit s) e + acc) 0 l); [exact C|].
    assert (HV : forall s, In s l -> v' s = v s).
    { intros s Hs. unfold v'. destruct (in_dec string_dec s l); [reflexivity|contradiction]. }
    clearbody v'. clear - HV. induction l as [|s l IH]; cbn; [reflexivity|].
    rewrite IH by (intros; apply HV; now right). rewrite HV by now left. now rewrite diff_dird.
  - assert (N2 : NoDup l2) by (apply NoDup_filter, NoDup_nodup).
    assert (DJ : forall s, In s l -> In s l2 -> False).
    { unfold l2. intros s Hs Hf. apply filter_In in Hf. destruct Hf as [_ Hf].
      destruct (in_dec string_dec s l); [discriminate|contradiction]. }
    clearbody l2. clear - ND N2 DJ. induction ND as [|s l Hs ND IH]; cbn; [exact N2|]. constructor.
    + intros Hi. apply in_app_or in Hi. destruct Hi as [Hi|Hi]; [contradiction|]. apply (DJ s); [now left|exact Hi].
    + apply IH. intros s' H1 H2. apply (DJ s'); [now right|exact H2].
  - intros s Hs. apply in_or_app. destruct (in_dec string_dec s l) as [Hi|Hn]; [now left|]. right.
    unfold l2. apply filter_In. split; [now apply nodup_In|]. now destruct (in_dec string_dec s l).
Qed.

(** Smooth points are interior along every coordinate. *)
Lemma smooth_cont r x e : smooth r e -> continuity_pt (fun t => eval (upd r x t) e) (r x).
Proof. intros S. eapply derivable_cont. exact (diff_partial r x e S). Qed.

Lemma cont_const (c t : R) : continuity_pt (fun _ => c) t.
Proof. apply continuity_pt_const. intros ? ?. reflexivity. Qed.

Lemma lt_line r x a b : smooth r a -> smooth r b -> eval r a < eval r b ->
  exists eps, 0 < eps /\ forall h, Rabs h < eps ->
    eval (upd r x (r x + h)) a < eval (upd r x (r x + h)) b.
Proof.
  intros Sa Sb L. apply (lt_around (fun t => eval (upd r x t) a) (fun t => eval (upd r x t) b)).
  - now apply smooth_cont.
  - now apply smooth_cont.
  - rewrite !(eval_same (upd r x (r x)) r) by apply upd_same. exact L.
Qed.

Lemma both_near (P Q : R -> Prop) :
  (exists eps, 0 < eps /\ forall h, Rabs h < eps -> P h) ->
  (exists eps, 0 < eps /\ forall h, Rabs h < eps -> Q h) ->
  exists eps, 0 < eps /\ forall h, Rabs h < eps -> P h /\ Q h.
Proof.
  intros (e1 & H1 & P1) (e2 & H2 & P2). exists (Rmin e1 e2).
  split; [now apply Rmin_pos|]. intros h Hh.
  split; [apply P1|apply P2]; (eapply Rlt_le_trans; [exact Hh|]); [apply Rmin_l|apply Rmin_r].
Qed.

Lemma near_impl (P Q : R -> Prop) : (forall h, P h -> Q h) ->
  (exists eps, 0 < eps /\ forall h, Rabs h < eps -> P h) ->
  exists eps, 0 < eps /\ forall h, Rabs h < eps -> Q h.
Proof. intros H (e & He & HP). exists e. split; [exact He|]. auto. Qed.

Lemma smooth_open r x e : smooth r e ->
  exists eps, 0 < eps /\ forall h, Rabs h < eps -> smooth (upd r x (r x + h)) e.
Proof.
  assert (Z : smooth r (Num 0)) by exact I.
  induction e as [q|s|a IHa b IHb|a IHa b IHb|a IHa n|a IHa|f a IHa|a IHa b IHb t IHt e IHe];
    cbn [smooth]; intros S.
  - exists 1. split; [lra|]. auto.
  - exists 1. split; [lra|]. auto.
  - apply both_near; [apply IHa|apply IHb]; tauto.
  - apply both_near; [apply IHa|apply IHb]; tauto.
  - auto.
  - destruct S as [Sa Hn]. apply both_near; [now apply IHa|].
    destruct (Rlt_dec (eval r a) 0) as [L|L].
    + eapply near_impl; [|apply (lt_line r x a (Num 0) Sa Z)]; cbn; rewrite ?Q2R_0; [|exact L]. intros h. cbn. lra.
    + eapply near_impl; [|apply (lt_line r x (Num 0) a Z Sa)]; cbn; rewrite ?Q2R_0; [|lra]. intros h. cbn. lra.
  - destruct S as [Sa Hf]. apply both_near; [now apply IHa|].
    assert (NZ : eval r a <> 0 -> exists eps, 0 < eps /\ forall h, Rabs h < eps -> eval (upd r x (r x + h)) a <> 0).
    { intros Hn. destruct (Rlt_dec (eval r a) 0) as [L|L].
      + eapply near_impl; [|apply (lt_line r x a (Num 0) Sa Z)]; cbn; rewrite ?Q2R_0; [|exact L]. intros h. cbn. lra.
      + eapply near_impl; [|apply (lt_line r x (Num 0) a Z Sa)]; cbn; rewrite ?Q2R_0; [|lra]. intros h. cbn. lra. }
    assert (PO : 0 < eval r a -> exists eps, 0 < eps /\ forall h, Rabs h < eps -> 0 < eval (upd r x (r x + h)) a).
    { intros L. eapply near_impl; [|apply (lt_line r x (Num 0) a Z Sa)]; cbn; rewrite ?Q2R_0; [|exact L]. intros h. cbn. lra. }
    destruct f; auto; exists 1; (split; [lra|auto]).
  - destruct S as (Sa & Sb & [[L St]|[L Se]]); (apply both_near; [now apply IHa|]); (apply both_near; [now apply IHb|]).
    + eapply near_impl; [|apply both_near; [apply (lt_line r x a b Sa Sb L)|now apply IHt]].
      cbn beta. intros h HH. left. exact HH.
    + eapply near_impl; [|apply both_near; [apply (lt_line r x b a Sb Sa L)|now apply IHe]].
      cbn beta. intros h HH. right. exact HH.
Qed.
