(** Energies with vanishing mixed derivatives split into a sum. *)
From Coq Require Import String List ZArith QArith Qreals Reals Bool Lra Lia.
From Verif Require Import Py Expr RSum Mat Core ExprProofs Spec_Calculus Calculus Deriv CalculusProofs Spec_Method.
Import ListNotations.
Local Open Scope string_scope.
Local Open Scope list_scope.
Local Open Scope R_scope.

Lemma derivable_ext f g t d : (forall s, f s = g s) -> derivable_pt_lim f t d -> derivable_pt_lim g t d.
Proof. intros E D eps He. destruct (D eps He) as [del Hd]. exists del. intros h H1 H2. rewrite <- !E. now apply Hd. Qed.

Lemma constant_between f a b : (forall t, Rmin a b <= t <= Rmax a b -> derivable_pt_lim f t 0) -> f b = f a.
Proof.
  assert (G : forall a b, a < b -> (forall t, a <= t <= b -> derivable_pt_lim f t 0) -> f b = f a).
  { intros a0 b0 L D. destruct (MVT_cor2 f (fun _ => 0) a0 b0 L D) as (c & E & _). lra. }
  intros D. destruct (Rtotal_order a b) as [L|[->|L]]; [|reflexivity|].
  - apply G; [exact L|]. intros t Ht. apply D. rewrite Rmin_left, Rmax_right by lra. exact Ht.
  - symmetry. apply G; [exact L|]. intros t Ht. apply D. rewrite Rmin_right, Rmax_left by lra. exact Ht.
Qed.

Lemma partial_line r x t e : smooth (upd r x t) e ->
  derivable_pt_lim (fun s => eval (upd r x s) e) t (eval (upd r x t) (diff x e)).
Proof.
  intros S. pose proof (diff_partial _ x e S) as D. unfold is_partial in D. rewrite upd_eq in D.
  apply (derivable_ext (fun s => eval (upd (upd r x t) x s) e)); [|exact D].
  intros s. apply eval_same. intros k. unfold upd. now destruct (String.eqb k x).
Qed.

Lemma upd_comm r x y a b : x <> y -> forall s, upd (upd r x a) y b s = upd (upd r y b) x a s.
Proof.
  intros N s. unfold upd. destruct (String.eqb_spec s y), (String.eqb_spec s x); try reflexivity. congruence.
Qed.

Lemma rectangle r xi xj a a' b b' e : xi <> xj -> is0 (diff xj (diff xi e)) = true ->
  (forall s t, Rmin a a' <= s <= Rmax a a' -> Rmin b b' <= t <= Rmax b b' ->
     smooth (upd (upd r xj t) xi s) e) ->
  eval (upd (upd r xj b') xi a') e - eval (upd (upd r xj b) xi a') e =
  eval (upd (upd r xj b') xi a) e - eval (upd (upd r xj b) xi a) e.
Proof.
  intros N Z S.
  assert (Bb : Rmin b b' <= b <= Rmax b b') by (split; [apply Rmin_l|apply Rmax_l]).
  assert (Bb' : Rmin b b' <= b' <= Rmax b b') by (split; [apply Rmin_r|apply Rmax_r]).
  assert (G : forall s, Rmin a a' <= s <= Rmax a a' ->
    eval (upd (upd r xj b') xi s) (diff xi e) = eval (upd (upd r xj b) xi s) (diff xi e)).
  { intros s Hs. rewrite (eval_same _ _ _ (fun k => eq_sym (upd_comm r xi xj s b' N k))).
    rewrite (eval_same (upd (upd r xj b) xi s) _ _ (fun k => eq_sym (upd_comm r xi xj s b N k))).
    apply (constant_between (fun t => eval (upd (upd r xi s) xj t) (diff xi e))).
    intros t Ht.
    pose proof (partial_line (upd r xi s) xj t (diff xi e)) as D.
    rewrite (is0_eval _ _ Z) in D. apply D. apply smooth_diff.
    apply (smooth_same (upd (upd r xj t) xi s)); [|now apply S].
    intros k. symmetry. now apply upd_comm. }
  apply (constant_between
    (fun s => eval (upd (upd r xj b') xi s) e - eval (upd (upd r xj b) xi s) e)).
  intros s Hs.
  replace 0 with (eval (upd (upd r xj b') xi s) (diff xi e) - eval (upd (upd r xj b) xi s) (diff xi e))
    by (rewrite G by exact Hs; lra).
  apply (derivable_pt_lim_minus (fun s => eval (upd (upd r xj b') xi s) e)
                                (fun s => eval (upd (upd r xj b) xi s) e));
    apply partial_line; now apply S.
Qed.

(** [r] with the symbols of [l] read in [r1]. *)
Definition mix (l : list string) (r r1 : env) : env :=
  fun s => if in_dec string_dec s l then r1 s else r s.

Lemma mix_nil r r1 s : mix [] r r1 s = r s.
Proof. reflexivity. Qed.

Lemma mix_cons x l r r1 s : mix (x :: l) r r1 s = upd (mix l r r1) x (r1 x) s.
Proof.
  unfold mix, upd. destruct (String.eqb_spec s x) as [->|N].
  - destruct (in_dec string_dec x (x :: l)) as [_|F]; [reflexivity|]. exfalso. apply F. now left.
  - destruct (in_dec string_dec s (x :: l)) as [I|F], (in_dec string_dec s l) as [I'|F']; try reflexivity; exfalso.
    + destruct I as [E|I]; [apply N; now symmetry|contradiction].
    + apply F. now right.
Qed.

Lemma mix_out x l r r1 : ~ In x l -> mix l r r1 x = r x.
Proof. intros N. unfold mix. now destruct (in_dec string_dec x l). Qed.

Lemma between_box l r r1 x y s t :
  Rmin (r x) (r1 x) <= s <= Rmax (r x) (r1 x) -> Rmin (r y) (r1 y) <= t <= Rmax (r y) (r1 y) ->
  in_box r r1 (upd (upd (mix l r r1) y t) x s).
Proof.
  intros Hs Ht k. unfold upd. destruct (String.eqb_spec k x) as [->|]; [exact Hs|].
  destruct (String.eqb_spec k y) as [->|]; [exact Ht|].
  unfold mix. destruct (in_dec string_dec k l); split;
    try apply Rmin_l; try apply Rmin_r; try apply Rmax_l; try apply Rmax_r.
Qed.

(** One symbol against a list. *)
Lemma separate_one x e r r1 : forall l l0, smooth_between r r1 e smooth -> ~ In x l -> NoDup l ->
  (forall y, In y l -> ~ In y l0) -> ~ In x l0 ->
  (forall y, In y l -> is0 (diff y (diff x e)) = true) ->
  eval (mix (x :: l ++ l0) r r1) e - eval (mix (l ++ l0) r r1) e =
  eval (mix (x :: l0) r r1) e - eval (mix l0 r r1) e.
Proof.
  induction l as [|y l IH]; intros l0 SM Nx ND D Nx0 Z; [reflexivity|].
  cbn [app]. inversion ND as [|? ? Ny ND']; subst.
  assert (Nxy : x <> y) by (intros ->; apply Nx; now left).
  assert (Nl : ~ In y (l ++ l0)).
  { rewrite in_app_iff. intros [I|I]; [contradiction|]. apply (D y); [now left|exact I]. }
  assert (Nxl : ~ In x (l ++ l0)).
  { rewrite in_app_iff. intros [I|I]; [apply Nx; now right|contradiction]. }
  rewrite <- (IH l0 SM); [|intros I; apply Nx; now right|exact ND'|intros z Iz; apply D; now right|exact Nx0|intros z Iz; apply Z; now right].
  set (m := mix (l ++ l0) r r1).
  pose proof (rectangle m x y (r x) (r1 x) (r y) (r1 y) e Nxy (Z y (or_introl eq_refl))) as RC.
  rewrite (eval_same (mix (x :: y :: l ++ l0) r r1) (upd (upd m y (r1 y)) x (r1 x))).
  2:{ intros s. rewrite mix_cons. unfold upd. destruct (String.eqb s x); [reflexivity|]. apply mix_cons. }
  rewrite (eval_same (mix (y :: l ++ l0) r r1) (upd (upd m y (r1 y)) x (r x))).
  2:{ intros s. rewrite mix_cons. fold m. unfold upd. destruct (String.eqb_spec s x) as [->|]; [|reflexivity].
      destruct (String.eqb_spec x y); [contradiction|]. now apply mix_out. }
  rewrite (eval_same (mix (x :: l ++ l0) r r1) (upd (upd m y (r y)) x (r1 x))).
  2:{ intros s. rewrite mix_cons. fold m. unfold upd. destruct (String.eqb_spec s x); [reflexivity|].
      destruct (String.eqb_spec s y) as [->|]; [|reflexivity]. now apply mix_out. }
  rewrite (eval_same m (upd (upd m y (r y)) x (r x))).
  2:{ intros s. unfold upd. destruct (String.eqb_spec s x) as [->|]; [now apply mix_out|].
      destruct (String.eqb_spec s y) as [->|]; [now apply mix_out|reflexivity]. }
  assert (HS : forall s t : R,
       Rmin (r x) (r1 x) <= s <= Rmax (r x) (r1 x) ->
       Rmin (r y) (r1 y) <= t <= Rmax (r y) (r1 y) -> smooth (upd (upd m y t) x s) e).
  { intros s t Hs Ht. apply SM. now apply between_box. }
  specialize (RC HS). lra.
Qed.

(** A group of symbols against a list. *)
Lemma separate_group e r r1 l2 : forall l1, smooth_between r r1 e smooth -> NoDup (l1 ++ l2) ->
  (forall x y, In x l1 -> In y l2 -> is0 (diff y (diff x e)) = true) ->
  eval (mix (l1 ++ l2) r r1) e - eval (mix l2 r r1) e = eval (mix l1 r r1) e - eval r e.
Proof.
  induction l1 as [|x l1 IH]; intros SM ND Z.
  - cbn [app]. rewrite (eval_same (mix [] r r1) r) by (intros; apply mix_nil). lra.
  - cbn [app] in *. inversion ND as [|? ? Nx ND']; subst.
    rewrite <- (Rplus_minus (eval (mix (l1 ++ l2) r r1) e) (eval (mix (x :: l1 ++ l2) r r1) e)).
    assert (E1 : eval (mix (x :: l1 ++ l2) r r1) e - eval (mix (l1 ++ l2) r r1) e =
                 eval (mix (x :: l1) r r1) e - eval (mix l1 r r1) e).
    { assert (C : forall (a b : list string) s, mix (a ++ b) r r1 s = mix (b ++ a) r r1 s).
      { intros a b s. unfold mix. destruct (in_dec string_dec s (a ++ b)) as [I|I], (in_dec string_dec s (b ++ a)) as [J|J]; try reflexivity;
          exfalso; rewrite in_app_iff in *; tauto. }
      rewrite (eval_same (mix (x :: l1 ++ l2) r r1) (mix (x :: l2 ++ l1) r r1))
        by (intros s; rewrite !mix_cons; unfold upd; destruct (String.eqb s x); [reflexivity|apply C]).
      rewrite (eval_same (mix (l1 ++ l2) r r1) (mix (l2 ++ l1) r r1)) by apply C.
      rewrite in_app_iff in Nx.
      assert (ND2 : NoDup l2) by (revert ND'; clear; induction l1; cbn; [auto|]; intros H; inversion H; auto).
      assert (DJ : forall y, In y l2 -> ~ In y l1).
      { revert ND'. clear. induction l1 as [|a l1 IH]; cbn; [tauto|]. intros H y Hy [->|I]; inversion H; subst.
        - apply H2. apply in_or_app. now right.
        - exact (IH H3 y Hy I). }
      apply separate_one; try assumption; try tauto.
      intros y Hy. apply Z; [now left|exact Hy]. }
    specialize (IH SM ND' ltac:(intros a b Ia Ib; apply Z; [now right|exact Ib])). lra.
Qed.

(** Separable symbols one by one, then the rest. *)
Lemma separate_all e r r1 rest : forall l, smooth_between r r1 e smooth -> NoDup (l ++ rest) ->
  (forall i j, (i < length l)%nat -> (i < j < length (l ++ rest))%nat ->
     is0 (diff (nth j (l ++ rest) "") (diff (nth i (l ++ rest) "") e)) = true) ->
  eval (mix (l ++ rest) r r1) e - eval r e =
  fold_right Rplus 0 (map (fun x => eval (mix [x] r r1) e - eval r e) l) +
  (eval (mix rest r r1) e - eval r e).
Proof.
  induction l as [|x l IH]; intros SM ND Z; [cbn; lra|].
  cbn [app map fold_right] in *. inversion ND as [|? ? Nx ND']; subst.
  specialize (IH SM ND').
  pose proof (separate_group e r r1 (l ++ rest) [x] SM ND) as G. cbn [app] in G.
  assert (ZG : forall x0 y, In x0 [x] -> In y (l ++ rest) -> is0 (diff y (diff x0 e)) = true).
  { intros a y [<-|[]] Hy. destruct (In_nth _ _ "" Hy) as (j & Hj & <-).
    exact (Z 0%nat (S j) ltac:(cbn; lia) ltac:(cbn; lia)). }
  specialize (G ZG).
  assert (ZI : forall i j, (i < length l)%nat -> (i < j < length (l ++ rest))%nat ->
     is0 (diff (nth j (l ++ rest) "") (diff (nth i (l ++ rest) "") e)) = true).
  { intros i j Hi Hj. exact (Z (S i) (S j) ltac:(cbn; lia) ltac:(cbn; lia)). }
  specialize (IH ZI). lra.
Qed.

(** ** A group of symbols on which the energy is quadratic *)

Definition wsum (v : env) (f : string -> R) (l : list string) : R :=
  fold_right (fun s acc => v s * f s + acc) 0 l.

Lemma wsum_ext v f g l : (forall s, In s l -> f s = g s) -> wsum v f l = wsum v g l.
Proof.
  induction l as [|a l IH]; intros H; [reflexivity|]. unfold wsum in *. cbn.
  rewrite (H a) by now left. rewrite IH; [reflexivity|]. intros; apply H; now right.
Qed.

Lemma wsum_linear v f g k l : wsum v (fun s => f s + k * g s) l = wsum v f l + k * wsum v g l.
Proof. unfold wsum. induction l as [|a l IH]; cbn; [lra|]. rewrite IH. lra. Qed.

Lemma wsum_derivable v (f : R -> string -> R) (d : string -> R) t l :
  (forall s, In s l -> derivable_pt_lim (fun t => f t s) t (d s)) ->
  derivable_pt_lim (fun t => wsum v (f t) l) t (wsum v d l).
Proof.
  induction l as [|a l IH]; intros H; unfold wsum in *; cbn [fold_right].
  - apply derivable_pt_lim_const.
  - apply (derivable_pt_lim_plus (fun t => v a * f t a)
             (fun t => fold_right (fun s acc => v s * f t s + acc) 0 l)).
    + apply (derivable_pt_lim_scal (fun t => f t a)). apply H. now left.
    + apply IH. intros; apply H; now right.
Qed.

Lemma line_derivable (a b t : R) : derivable_pt_lim (fun t => a + t * b) t b.
Proof.
  pose proof (derivable_pt_lim_plus (fun _ => a) (fun t => t * b) t 0 b) as P.
  rewrite Rplus_0_l in P. apply P; [apply derivable_pt_lim_const|].
  pose proof (derivable_pt_lim_mult id (fun _ => b) t 1 0 (derivable_pt_lim_id t) (derivable_pt_lim_const b t)) as M.
  cbn in M. replace (1 * b + id t * 0) with b in M by ring. exact M.
Qed.

Lemma difference_flat f g t l : derivable_pt_lim f t l -> derivable_pt_lim g t l ->
  derivable_pt_lim (fun t => f t - g t) t 0.
Proof.
  intros H1 H2. pose proof (derivable_pt_lim_minus f g t l l H1 H2) as M.
  rewrite Rminus_diag_eq in M by reflexivity. exact M.
Qed.

Lemma second_order (phi d : R -> R) (k : R) :
  (forall t, 0 <= t <= 1 -> derivable_pt_lim phi t (d t)) ->
  (forall t, 0 <= t <= 1 -> derivable_pt_lim d t k) ->
  phi 1 - phi 0 = d 0 + k / 2.
Proof.
  intros H1 H2.
  assert (C1 : forall t, 0 <= t <= 1 -> d t = d 0 + t * k).
  { intros t Ht. assert (E : d t - (d 0 + t * k) = d 0 - (d 0 + 0 * k)).
    { apply (constant_between (fun t => d t - (d 0 + t * k)) 0 t).
      rewrite Rmin_left, Rmax_right by lra. intros s Hs.
      apply (difference_flat d (fun t => d 0 + t * k) s k); [apply H2; lra|apply line_derivable]. }
    lra. }
  assert (E : phi 1 - (1 * d 0 + k / 2 * (1 * 1)) = phi 0 - (0 * d 0 + k / 2 * (0 * 0))).
  { apply (constant_between (fun t => phi t - (t * d 0 + k / 2 * (t * t))) 0 1).
    rewrite Rmin_left, Rmax_right by lra. intros t Ht.
    apply (difference_flat phi (fun t => t * d 0 + k / 2 * (t * t)) t (d t)); [apply H1; exact Ht|].
    replace (d t) with (d 0 + k / 2 * (2 * t)) by (rewrite (C1 t Ht); field).
    apply (derivable_pt_lim_plus (fun t => t * d 0) (fun t => k / 2 * (t * t))).
    - apply (derivable_ext (fun t => 0 + t * d 0)); [intros; ring|apply line_derivable].
    - apply (derivable_pt_lim_scal (fun t => t * t)).
      pose proof (derivable_pt_lim_mult id id t 1 1 (derivable_pt_lim_id t) (derivable_pt_lim_id t)) as M.
      unfold mult_fct, id in M. replace (1 * t + t * 1) with (2 * t) in M by ring. exact M. }
  lra.
Qed.

Lemma quadratic_group e r r1 l : NoDup l -> smooth_between r r1 e smooth ->
  (forall x y s, In x l -> In y l -> In s (free_symbols (diff y (diff x e))) -> ~ In s l) ->
  eval (mix l r r1) e - eval r e =
  wsum (fun s => r1 s - r s)
    (fun x => eval r (diff x e) +
       / 2 * wsum (fun s => r1 s - r s) (fun y => eval r (diff y (diff x e))) l) l.
Proof.
  intros ND SM F. set (v := fun s : string => r1 s - r s).
  set (g := fun (t : R) s => if in_dec string_dec s l then r s + t * v s else r s).
  assert (B : forall t, 0 <= t <= 1 -> in_box r r1 (g t)).
  { intros t Ht s. unfold g, v. destruct (in_dec string_dec s l).
    - unfold Rmin, Rmax. destruct (Rle_dec (r s) (r1 s)); nra.
    - split; [apply Rmin_l|apply Rmax_l]. }
  assert (Dg : forall t s, In s l -> derivable_pt_lim (fun t => g t s) t (v s)).
  { intros t s Hs. unfold g. destruct (in_dec string_dec s l); [|contradiction]. apply line_derivable. }
  assert (Dg0 : forall t s, ~ In s l -> derivable_pt_lim (fun t => g t s) t 0).
  { intros t s Hs. unfold g. destruct (in_dec string_dec s l); [contradiction|]. apply derivable_pt_lim_const. }
  assert (G0 : forall e', eval (g 0) e' = eval r e').
  { intros e'. apply eval_same. intros s. unfold g. destruct (in_dec string_dec s l); ring. }
  assert (G1 : eval (g 1) e = eval (mix l r r1) e).
  { apply eval_same. intros s. unfold g, mix, v. destruct (in_dec string_dec s l); ring. }
  rewrite <- G1, <- (G0 e).
  pose proof (second_order (fun t => eval (g t) e) (fun t => wsum v (fun s => eval (g t) (diff s e)) l)
    (wsum v (fun x => wsum v (fun y => eval r (diff y (diff x e))) l) l)) as S2.
  cbn beta in S2. rewrite S2.
  - rewrite (wsum_ext v (fun s => eval (g 0) (diff s e)) (fun s => eval r (diff s e)) l) by (intros; apply G0).
    rewrite wsum_linear. lra.
  - intros t Ht. apply (rate_of_change g v t e l); [apply SM, B; exact Ht|exact ND|auto|auto].
  - intros t Ht. apply (wsum_derivable v (fun t s => eval (g t) (diff s e))). intros x Hx.
    pose proof (rate_of_change g v t (diff x e) l (smooth_diff _ _ _ (SM _ (B t Ht))) ND (Dg t) (Dg0 t)) as D.
    fold (wsum v (fun s => eval (g t) (diff s (diff x e))) l) in D.
    rewrite (wsum_ext v _ (fun y => eval r (diff y (diff x e))) l) in D; [exact D|].
    intros y Hy. apply eval_ext. intros s Hs. unfold g.
    destruct (in_dec string_dec s l) as [I|]; [|reflexivity]. exfalso. exact (F x y s Hx Hy Hs I).
Qed.
