(** Proofs about piecewise-linear interpolation. *)
From Coq Require Import String List ZArith QArith Qabs Qreals Reals Bool Lra Lia.
From Verif Require Import Py Expr ExprProofs RSum Pwl Spec_Pwl.
Import ListNotations.
Local Open Scope R_scope.

Lemma zip_length {A B C} (f : A -> B -> C) l l' :
  length (zip_with f l l') = Nat.min (length l) (length l').
Proof. unfold zip_with. now rewrite map_length, combine_length. Qed.

Lemma zip_nth {A B C} (f : A -> B -> C) l l' i da db dc :
  (i < length l)%nat -> (i < length l')%nat ->
  nth i (zip_with f l l') dc = f (nth i l da) (nth i l' db).
Proof.
  revert l' i. induction l as [|a l IH]; intros [|b l'] [|i] H H'; cbn in *; try lia; try reflexivity.
  apply IH; lia.
Qed.

Lemma nth_tl {A} (l : list A) i d : nth i (tl l) d = nth (S i) l d.
Proof. destruct l; [now destruct i|reflexivity]. Qed.
Lemma tl_length {A} (l : list A) : length (tl l) = pred (length l).
Proof. now destruct l. Qed.

Lemma np_diff_length l : length (np_diff l) = pred (length l).
Proof. unfold np_diff. rewrite zip_length, tl_length. lia. Qed.
Lemma np_diff_nth l i : (S i < length l)%nat -> nth i (np_diff l) 0%Q = (nth (S i) l 0 - nth i l 0)%Q.
Proof.
  intros H. unfold np_diff. rewrite (zip_nth _ _ _ _ 0%Q 0%Q); [now rewrite nth_tl|lia|rewrite tl_length; lia].
Qed.

Lemma increasing_lt X i j : increasing X -> (i < j)%nat -> (j < length X)%nat -> at_ X i < at_ X j.
Proof.
  intros H. induction 1 as [|j Hij IH]; intros Hj.
  - apply Qlt_Rlt. now apply H.
  - apply Rlt_trans with (at_ X j); [apply IH; lia|]. apply Qlt_Rlt. now apply H.
Qed.
Lemma increasing_le X i j : increasing X -> (i <= j)%nat -> (j < length X)%nat -> at_ X i <= at_ X j.
Proof.
  intros H Hi Hj. destruct (Nat.eq_dec i j) as [->|]; [lra|].
  apply Rlt_le, increasing_lt; [assumption|lia|assumption].
Qed.

Lemma np_div_ok X Y : increasing X -> length X = length Y ->
  np_div (np_diff Y) (np_diff X) = Ok (zip_with Qdiv (np_diff Y) (np_diff X)).
Proof.
  intros H HL. unfold np_div.
  destruct (existsb (fun q => Qeq_bool q 0) (np_diff X)) eqn:E; [|reflexivity].
  apply existsb_exists in E as (q & Hq & E). apply Qeq_bool_iff in E.
  apply (In_nth _ _ 0%Q) in Hq as (i & Hi & Hq). rewrite np_diff_length in Hi.
  rewrite np_diff_nth in Hq by lia. specialize (H i). subst q.
  assert (Hi' : (S i < length X)%nat) by lia. specialize (H Hi').
  exfalso. apply Qlt_Rlt in H. apply Qeq_eqR in E. rewrite Q2R_minus, Q2R_0 in E. lra.
Qed.

(** The padded slopes: [sl 0] and [sl P] repeat the end slopes. *)
Definition sl (X Y : list Q) (k : nat) : R :=
  slope X Y (Nat.min (pred k) (length X - 2)).

Lemma pad_ok X Y : increasing X -> length X = length Y -> (2 <= length X)%nat ->
  exists m, pad (zip_with Qdiv (np_diff Y) (np_diff X)) = Ok m /\ length m = S (length X) /\
    forall k, (k <= length X)%nat -> Q2R (nth k m 0%Q) = sl X Y k.
Proof.
  intros HI HL H2.
  set (d := zip_with Qdiv (np_diff Y) (np_diff X)).
  assert (Ld : length d = pred (length X)).
  { unfold d. rewrite zip_length, !np_diff_length. lia. }
  assert (Nd : forall k, (k < pred (length X))%nat -> Q2R (nth k d 0%Q) = slope X Y k).
  { intros k Hk. unfold d. rewrite (zip_nth _ _ _ _ 0%Q 0%Q) by (rewrite np_diff_length; lia).
    rewrite !np_diff_nth by lia. pose proof (HI k ltac:(lia)) as HH. apply Qlt_Rlt in HH.
    unfold slope, at_. rewrite Q2R_div.
    - rewrite !Q2R_minus. reflexivity.
    - intros F. apply Qeq_eqR in F. rewrite Q2R_minus, Q2R_0 in F. lra. }
  destruct d as [|m0 d'] eqn:Ed; [cbn in Ld; lia|].
  exists ((m0 :: m0 :: d') ++ [last (m0 :: d') m0]). split; [reflexivity|].
  assert (La : forall (l : list Q) a, last (a :: l) a = nth (length l) (a :: l) 0%Q).
  { clear. intros l a. assert (G : forall l (b c : Q), last (b :: l) c = nth (length l) (b :: l) 0%Q).
    { induction l0 as [|x l0 IH]; intros b c; [reflexivity|]. cbn [length].
      change (last (b :: x :: l0) c) with (last (x :: l0) c). rewrite IH. reflexivity. }
    apply G. }
  rewrite La. cbn [length] in Ld.
  split; [rewrite app_length; cbn [length]; lia|].
  intros k Hk. unfold sl. destruct k as [|k].
  - change (Nat.min (pred 0) (length X - 2)) with 0%nat. rewrite <- (Nd 0%nat) by lia. reflexivity.
  - destruct (Nat.eq_dec (S k) (length X)) as [E|E].
    + rewrite app_nth2 by (cbn [length]; lia). replace (S k - length (m0 :: m0 :: d'))%nat with 0%nat by (cbn [length]; lia).
      change (nth 0 [nth (length d') (m0 :: d') 0%Q] 0%Q) with (nth (length d') (m0 :: d') 0%Q).
      rewrite Nd by lia. f_equal. lia.
    + rewrite app_nth1 by (cbn [length]; lia). change (nth (S k) (m0 :: m0 :: d') 0%Q) with (nth k (m0 :: d') 0%Q).
      rewrite Nd by lia. f_equal. lia.
Qed.

(** Sums of lists. *)
Lemma qsum_R l : Q2R (qsum l) = lsum (map Q2R l).
Proof.
  unfold qsum. assert (G : forall l q, Q2R (fold_left Qplus l q) = Q2R q + lsum (map Q2R l)).
  { induction l0 as [|a l0 IH]; intros q; [cbn; lra|]. cbn [fold_left map lsum fold_right].
    rewrite IH, Q2R_plus. fold (lsum (map Q2R l0)). unfold lsum. lra. }
  rewrite G, Q2R_0. lra.
Qed.
Lemma esum_R r l : eval r (esum l) = lsum (map (eval r) l).
Proof.
  unfold esum. assert (G : forall l e, eval r (fold_left sadd l e) = eval r e + lsum (map (eval r) l)).
  { induction l0 as [|a l0 IH]; intros e; [cbn; lra|]. cbn [fold_left map lsum fold_right].
    rewrite IH, eval_sadd. fold (lsum (map (eval r) l0)). unfold lsum. lra. }
  rewrite G. cbn. rewrite Q2R_0. lra.
Qed.
Lemma lsum_nth l : lsum l = rsum (length l) (fun i => nth i l 0).
Proof.
  rewrite rsum_lsum. f_equal. symmetry. clear.
  induction l as [|a l IH]; [reflexivity|]. cbn [length seq map]. f_equal.
  rewrite <- seq_shift, map_map. exact IH.
Qed.
Lemma lsum_zip {A B C} (g : C -> R) (f : A -> B -> C) l l' da db : length l = length l' ->
  lsum (map g (zip_with f l l')) = rsum (length l) (fun i => g (f (nth i l da) (nth i l' db))).
Proof.
  intros H. rewrite lsum_nth, map_length, zip_length, <- H, Nat.min_id. apply rsum_ext. intros k Hk.
  destruct l as [|a0 l0]; [cbn in Hk; lia|].
  destruct l' as [|b0 l1]; [cbn in H; lia|].
  rewrite (nth_indep _ 0 (g (f a0 b0))) by (rewrite map_length, zip_length, <- H, Nat.min_id; lia).
  rewrite map_nth. f_equal. apply zip_nth; lia.
Qed.

Lemma Q2R_abs q : Q2R (Qabs q) = Rabs (Q2R q).
Proof.
  destruct (Qlt_le_dec q 0) as [H|H].
  - rewrite (Qeq_eqR _ _ (Qabs_neg q (Qlt_le_weak _ _ H))), Q2R_opp.
    apply Qlt_Rlt in H. rewrite Q2R_0 in H. rewrite Rabs_left; lra.
  - rewrite (Qeq_eqR _ _ (Qabs_pos q H)). apply Qle_Rle in H. rewrite Q2R_0 in H. rewrite Rabs_right; lra.
Qed.

Definition cc (X Y : list Q) (i : nat) : R := / 2 * (sl X Y (S i) - sl X Y i).
Definition bb (X Y : list Q) : R := / 2 * (sl X Y 0 + sl X Y (length X)).

(** The two expressions as real functions. *)
Definition pw (X Y : list Q) (y0 : R) (t : R) : R :=
  y0 + bb X Y * t + rsum (length X) (fun i => cc X Y i * (Rabs (t - at_ X i) - Rabs (at_ X i))).
Definition pwi (X Y : list Q) (y0 k : R) (t : R) : R :=
  k + y0 * t + bb X Y / 2 * t ^ 2 +
  rsum (length X) (fun i => cc X Y i * (/ 2 * Rabs (t - at_ X i) * (t - at_ X i) + / 2 * Rabs (at_ X i) * at_ X i
                                        - Rabs (at_ X i) * t)).

Lemma pwl_value X Y x y0 k integ : increasing X -> length X = length Y -> (2 <= length X)%nat ->
  exists e, pwl_func X Y x integ y0 k = Ok e /\
    forall t, fun_of e x t = if integ then pwi X Y (Q2R y0) (Q2R k) t else pw X Y (Q2R y0) t.
Proof.
  intros HI HL H2. unfold pwl_func. rewrite HL, Nat.eqb_refl. cbn [negb].
  rewrite (np_div_ok _ _ HI HL). cbn [rbind].
  destruct (pad_ok _ _ HI HL H2) as (m & -> & Lm & Nm). cbn [rbind].
  set (c := zip_with (fun p q => ((1#2) * (p - q))%Q) (tl m) (firstn (length Y) m)).
  assert (Lc : length c = length X).
  { unfold c. rewrite zip_length, tl_length, firstn_length. lia. }
  assert (Nc : forall i, (i < length X)%nat -> Q2R (nth i c 0%Q) = cc X Y i).
  { intros i Hi. unfold c. rewrite (zip_nth _ _ _ _ 0%Q 0%Q) by (rewrite ?tl_length, ?firstn_length; lia).
    rewrite nth_tl. replace (nth i (firstn (length Y) m) 0%Q) with (nth i m 0%Q).
    - rewrite Q2R_mult, Q2R_minus, Q2R_half, !Nm by lia. reflexivity.
    - rewrite <- (firstn_skipn (length Y) m) at 1. rewrite app_nth1; [reflexivity|]. rewrite firstn_length. lia. }
  assert (Hb : Q2R ((1 # 2) * (hd 0 m + last m 0))%Q = bb X Y).
  { rewrite Q2R_mult, Q2R_half, Q2R_plus. unfold bb. f_equal. f_equal.
    - rewrite <- Nm by lia. now destruct m.
    - rewrite <- Nm by lia. f_equal. rewrite <- (rev_involutive m) at 1.
      assert (G : forall (l : list Q), last l 0%Q = nth (pred (length l)) l 0%Q).
      { clear. induction l as [|a l IH]; [reflexivity|]. destruct l; [reflexivity|]. cbn [length pred] in *.
        change (last (a :: q :: l) 0%Q) with (last (q :: l) 0%Q). now rewrite IH. }
      rewrite rev_involutive, G, Lm. reflexivity. }
  set (a := (y0 - qsum (zip_with (fun ci Xi => ci * Qabs Xi) c X))%Q).
  assert (Ha : Q2R a = Q2R y0 - rsum (length X) (fun i => cc X Y i * Rabs (at_ X i))).
  { unfold a. rewrite Q2R_minus, qsum_R, (lsum_zip _ _ _ _ 0%Q 0%Q Lc), Lc. f_equal. apply rsum_ext. intros i Hi.
    rewrite Q2R_mult, Nc, Q2R_abs by assumption. reflexivity. }
  assert (Hx : forall t, eval (fun s => if String.eqb s x then t else 0) (Sym x) = t)
    by (intros t; cbn; now rewrite String.eqb_refl).
  destruct integ; eexists; (split; [reflexivity|]); intros t; unfold fun_of.
  - rewrite !eval_sadd, !eval_smul, eval_spow, esum_R, (lsum_zip _ _ _ _ 0%Q 0%Q Lc), Lc, Hx. cbn [eval].
    rewrite Ha, Q2R_div, Hb by (intros F; discriminate F).
    rewrite qsum_R, (lsum_zip _ _ _ _ 0%Q 0%Q Lc), Lc.
    rewrite (rsum_ext _ (fun i => eval (fun s => if String.eqb s x then t else 0)
        (smul (smul (Num (nth i c 0 * (1#2))%Q) (App Fabs (ssub (Sym x) (Num (nth i X 0%Q)))))
              (ssub (Sym x) (Num (nth i X 0%Q)))))
        (fun i => cc X Y i * (/ 2 * Rabs (t - at_ X i) * (t - at_ X i)))).
    2:{ intros i Hi. rewrite !eval_smul. cbn [eval fn_eval]. rewrite eval_ssub, Hx. cbn [eval].
        rewrite Q2R_mult, Nc, Q2R_half by assumption. unfold at_. ring. }
    rewrite (rsum_ext _ (fun i => Q2R (nth i c 0 * (1 # 2) * Qabs (nth i X 0) * nth i X 0)%Q)
               (fun i => cc X Y i * (/ 2 * Rabs (at_ X i) * at_ X i))).
    2:{ intros i Hi. rewrite !Q2R_mult, Nc, Q2R_half, Q2R_abs by assumption. unfold at_. ring. }
    unfold pwi.
    rewrite (rsum_ext _ (fun i => cc X Y i * (/ 2 * Rabs (t - at_ X i) * (t - at_ X i) + / 2 * Rabs (at_ X i) * at_ X i - Rabs (at_ X i) * t))
      (fun i => (cc X Y i * (/ 2 * Rabs (t - at_ X i) * (t - at_ X i)) + cc X Y i * (/ 2 * Rabs (at_ X i) * at_ X i)) - cc X Y i * Rabs (at_ X i) * t))
      by (intros; ring).
    rewrite rsum_minus, rsum_plus, rsum_scal_r.
    replace (Q2R 2) with 2 by (unfold Q2R; cbn; lra). lra.
  - rewrite !eval_sadd, !eval_smul, esum_R, (lsum_zip _ _ _ _ 0%Q 0%Q Lc), Lc, Hx. cbn [eval].
    rewrite Ha, Hb.
    rewrite (rsum_ext _ (fun i => eval (fun s => if String.eqb s x then t else 0)
        (smul (Num (nth i c 0%Q)) (App Fabs (ssub (Sym x) (Num (nth i X 0%Q))))))
        (fun i => cc X Y i * Rabs (t - at_ X i))).
    2:{ intros i Hi. rewrite !eval_smul. cbn [eval fn_eval]. rewrite eval_ssub, Hx. cbn [eval].
        rewrite Nc by assumption. reflexivity. }
    unfold pw.
    rewrite (rsum_ext _ (fun i => cc X Y i * (Rabs (t - at_ X i) - Rabs (at_ X i)))
      (fun i => cc X Y i * Rabs (t - at_ X i) - cc X Y i * Rabs (at_ X i))) by (intros; ring).
    rewrite rsum_minus. lra.
Qed.

(** Telescoping. *)
Lemma cc_sum X Y n : rsum n (cc X Y) = / 2 * (sl X Y n - sl X Y 0).
Proof. induction n as [|n IH]; cbn; [lra|]. rewrite IH. unfold cc. lra. Qed.

(** On an interval between abscissae number [k-1] and [k] the slope is [sl k]. *)
Lemma pw_piece X Y y0 k s t : (k <= length X)%nat ->
  (forall i, (i < k)%nat -> at_ X i <= s /\ at_ X i <= t) ->
  (forall i, (k <= i < length X)%nat -> s <= at_ X i /\ t <= at_ X i) ->
  pw X Y y0 t - pw X Y y0 s = sl X Y k * (t - s).
Proof.
  intros Hk Hl Hr. unfold pw.
  match goal with |- ?a + ?b + ?u - (?a + ?c + ?v) = _ =>
    replace (a + b + u - (a + c + v)) with (b - c + (u - v)) by ring end.
  rewrite <- rsum_minus.
  replace (length X) with (k + (length X - k))%nat at 1 by lia. rewrite rsum_app.
  rewrite (rsum_ext k _ (fun i => cc X Y i * (t - s))).
  2:{ intros i Hi. destruct (Hl i Hi). rewrite !(Rabs_right (_ - at_ X i)) by lra. ring. }
  rewrite (rsum_ext (length X - k) _ (fun i => cc X Y (k + i) * (s - t))).
  2:{ intros i Hi. destruct (Hr (k + i)%nat ltac:(lia)). rewrite !(Rabs_left1 (_ - at_ X (k + i))) by lra. ring. }
  rewrite !rsum_scal_r, cc_sum.
  assert (E : rsum (length X - k) (fun i => cc X Y (k + i)) = / 2 * (sl X Y (length X) - sl X Y k)).
  { pose proof (cc_sum X Y (k + (length X - k))) as H. rewrite rsum_app, cc_sum in H.
    replace (k + (length X - k))%nat with (length X) in H by lia. lra. }
  rewrite E. unfold bb. lra.
Qed.

Lemma pw_origin X Y y0 : pw X Y y0 0 = y0.
Proof.
  unfold pw. rewrite rsum_zero; [lra|]. intros i _. rewrite Rminus_0_l, Rabs_Ropp. lra.
Qed.

Lemma at_mono X i j t : increasing X -> (i <= j)%nat -> (j < length X)%nat -> at_ X j <= t -> at_ X i <= t.
Proof. intros HI H1 H2 H. eapply Rle_trans; [|exact H]. now apply increasing_le. Qed.
Lemma at_mono' X i j t : increasing X -> (i <= j)%nat -> (j < length X)%nat -> t <= at_ X i -> t <= at_ X j.
Proof. intros HI H1 H2 H. eapply Rle_trans; [exact H|]. now apply increasing_le. Qed.

Lemma pw_between X Y y0 i t : increasing X -> (S i < length X)%nat ->
  at_ X i <= t <= at_ X (S i) ->
  pw X Y y0 t = pw X Y y0 (at_ X i) + slope X Y i * (t - at_ X i).
Proof.
  intros HI Hi [H1 H2].
  assert (E : sl X Y (S i) = slope X Y i) by (unfold sl; f_equal; cbn; lia).
  rewrite <- E, <- (pw_piece X Y y0 (S i) (at_ X i) t); [ring|lia| |].
  - intros j Hj. split; [apply increasing_le; [assumption|lia|lia]|]. apply (at_mono X j i t HI); [lia|lia|assumption].
  - intros j Hj. split; [apply increasing_le; [assumption|lia|lia]|]. apply (at_mono' X (S i) j t HI); [lia|lia|assumption].
Qed.
Lemma pw_left X Y y0 t : increasing X -> (2 <= length X)%nat -> t <= at_ X 0 ->
  pw X Y y0 t = pw X Y y0 (at_ X 0) + slope X Y 0 * (t - at_ X 0).
Proof.
  intros HI H2 H.
  assert (E : sl X Y 0 = slope X Y 0) by (unfold sl; f_equal).
  rewrite <- E, <- (pw_piece X Y y0 0 (at_ X 0) t); [ring|lia| |].
  - intros j Hj. lia.
  - intros j Hj. split; [apply increasing_le; [assumption|lia|lia]|]. apply (at_mono' X 0 j t HI); [lia|lia|assumption].
Qed.
Lemma pw_right X Y y0 t : increasing X -> (2 <= length X)%nat -> at_ X (length X - 1) <= t ->
  pw X Y y0 t = pw X Y y0 (at_ X (length X - 1)) + slope X Y (length X - 2) * (t - at_ X (length X - 1)).
Proof.
  intros HI H2 H.
  assert (E : sl X Y (length X) = slope X Y (length X - 2)) by (unfold sl; f_equal; lia).
  rewrite <- E, <- (pw_piece X Y y0 (length X) (at_ X (length X - 1)) t); [ring|lia| |].
  - intros j Hj. split; [apply increasing_le; [assumption|lia|lia]|]. apply (at_mono X j (length X - 1) t HI); [lia|lia|assumption].
  - intros j Hj. lia.
Qed.

Lemma slope_step X Y i : increasing X -> (S i < length X)%nat ->
  slope X Y i * (at_ X (S i) - at_ X i) = at_ Y (S i) - at_ Y i.
Proof.
  intros HI Hi. unfold slope. pose proof (increasing_lt X i (S i) HI ltac:(lia) Hi). field. lra.
Qed.

Lemma pw_data0 X Y y0 i : increasing X -> (i < length X)%nat ->
  pw X Y y0 (at_ X i) - pw X Y y0 (at_ X 0) = at_ Y i - at_ Y 0.
Proof.
  intros HI. induction i as [|i IH]; intros Hi; [lra|].
  rewrite (pw_between X Y y0 i (at_ X (S i)) HI Hi).
  - rewrite slope_step by assumption. specialize (IH ltac:(lia)). lra.
  - pose proof (increasing_lt X i (S i) HI ltac:(lia) Hi). lra.
Qed.
Lemma pw_data X Y y0 i j : increasing X -> (i < length X)%nat -> (j < length X)%nat ->
  pw X Y y0 (at_ X i) - pw X Y y0 (at_ X j) = at_ Y i - at_ Y j.
Proof.
  intros HI Hi Hj. pose proof (pw_data0 X Y y0 i HI Hi). pose proof (pw_data0 X Y y0 j HI Hj). lra.
Qed.

(** The integrated form. *)
Lemma abs_sq_deriv (a t : R) :
  derivable_pt_lim (fun s => / 2 * Rabs (s - a) * (s - a)) t (Rabs (t - a)).
Proof.
  intros eps He. exists (mkposreal _ He). intros h Hh Hl. cbn in Hl.
  assert (G : Rabs ((/ 2 * Rabs (t + h - a) * (t + h - a) - / 2 * Rabs (t - a) * (t - a)) - Rabs (t - a) * h)
              <= / 2 * (Rabs h * Rabs h)).
  { set (u := t - a). replace (t + h - a) with (u + h) by (unfold u; ring).
    unfold Rabs. repeat destruct Rcase_abs; nra. }
  replace ((/ 2 * Rabs (t + h - a) * (t + h - a) - / 2 * Rabs (t - a) * (t - a)) / h - Rabs (t - a))
    with (((/ 2 * Rabs (t + h - a) * (t + h - a) - / 2 * Rabs (t - a) * (t - a)) - Rabs (t - a) * h) / h)
    by (field; assumption).
  unfold Rdiv. rewrite Rabs_mult, Rabs_inv.
  pose proof (Rabs_pos_lt h Hh) as Hp.
  apply Rle_lt_trans with (/ 2 * (Rabs h * Rabs h) * / Rabs h).
  - apply Rmult_le_compat_r; [|exact G]. apply Rlt_le, Rinv_0_lt_compat; assumption.
  - replace (/ 2 * (Rabs h * Rabs h) * / Rabs h) with (/ 2 * Rabs h) by (field; lra). lra.
Qed.

Lemma derivable_pt_lim_rsum n (f : nat -> R -> R) d t :
  (forall i, (i < n)%nat -> derivable_pt_lim (f i) t (d i)) ->
  derivable_pt_lim (fun s => rsum n (fun i => f i s)) t (rsum n d).
Proof.
  induction n as [|n IH]; intros H; cbn [rsum].
  - apply derivable_pt_lim_const.
  - apply (derivable_pt_lim_plus (fun s => rsum n (fun i => f i s)) (f n)); [apply IH; intros; apply H; lia|apply H; lia].
Qed.

Lemma pwi_deriv X Y y0 k t : derivable_pt_lim (pwi X Y y0 k) t (pw X Y y0 t).
Proof.
  unfold pwi, pw.
  apply (derivable_pt_lim_plus (fun t => k + y0 * t + bb X Y / 2 * t ^ 2)
          (fun t => rsum (length X) (fun i => cc X Y i * (/ 2 * Rabs (t - at_ X i) * (t - at_ X i) + / 2 * Rabs (at_ X i) * at_ X i
                                        - Rabs (at_ X i) * t)))).
  - replace (y0 + bb X Y * t) with (0 + y0 * 1 + bb X Y / 2 * (INR 2 * t ^ 1)) by (cbn; field).
    apply (derivable_pt_lim_plus (fun t => k + y0 * t) (fun t => bb X Y / 2 * t ^ 2)).
    + apply (derivable_pt_lim_plus (fun _ => k) (fun t => y0 * t)); [apply derivable_pt_lim_const|].
      apply (derivable_pt_lim_scal (fun t => t)), derivable_pt_lim_id.
    + apply (derivable_pt_lim_scal (fun t => t ^ 2)), (derivable_pt_lim_pow t 2).
  - apply (derivable_pt_lim_rsum (length X) (fun i t => cc X Y i * (/ 2 * Rabs (t - at_ X i) * (t - at_ X i) + / 2 * Rabs (at_ X i) * at_ X i
                                        - Rabs (at_ X i) * t))).
    intros i _. apply (derivable_pt_lim_scal (fun t => / 2 * Rabs (t - at_ X i) * (t - at_ X i) + / 2 * Rabs (at_ X i) * at_ X i
                                        - Rabs (at_ X i) * t)).
    replace (Rabs (t - at_ X i) - Rabs (at_ X i)) with (Rabs (t - at_ X i) + 0 - Rabs (at_ X i) * 1) by ring.
    apply (derivable_pt_lim_minus (fun t => / 2 * Rabs (t - at_ X i) * (t - at_ X i) + / 2 * Rabs (at_ X i) * at_ X i)
             (fun t => Rabs (at_ X i) * t)).
    + apply (derivable_pt_lim_plus (fun t => / 2 * Rabs (t - at_ X i) * (t - at_ X i)) (fun _ => / 2 * Rabs (at_ X i) * at_ X i)).
      * apply abs_sq_deriv.
      * apply derivable_pt_lim_const.
    + apply (derivable_pt_lim_scal (fun t => t)), derivable_pt_lim_id.
Qed.
Lemma pwi_origin X Y y0 k : pwi X Y y0 k 0 = k.
Proof.
  unfold pwi. rewrite rsum_zero; [cbn; lra|]. intros i _. rewrite Rminus_0_l, Rabs_Ropp. lra.
Qed.

(** Increasing data give an increasing function. *)
Lemma slope_pos X Y i : increasing X -> increasing Y -> length X = length Y -> (S i < length X)%nat -> 0 < slope X Y i.
Proof.
  intros HX HY HL Hi. pose proof (increasing_lt X i (S i) HX ltac:(lia) Hi).
  pose proof (increasing_lt Y i (S i) HY ltac:(lia) ltac:(lia)).
  unfold slope, Rdiv. apply Rmult_lt_0_compat; [lra|]. apply Rinv_0_lt_compat. lra.
Qed.

(** The segment that holds a point: [t] lies right of the first [k] abscissae and
    left of the others. *)
Lemma segment X t : increasing X -> exists k, (k <= length X)%nat /\
  (forall i, (i < k)%nat -> at_ X i <= t) /\ (forall i, (k <= i < length X)%nat -> t < at_ X i).
Proof.
  intros HI. assert (G : forall n, (n <= length X)%nat -> exists k, (k <= n)%nat /\
    (forall i, (i < k)%nat -> at_ X i <= t) /\ (forall i, (k <= i < n)%nat -> t < at_ X i)).
  { induction n as [|n IH]; intros Hn; [exists 0%nat; repeat split; intros; lia|].
    destruct (Rle_lt_dec (at_ X n) t) as [H|H].
    - exists (S n). split; [lia|]. split; [|intros; lia]. intros i Hi. apply (at_mono X i n t HI); [lia|lia|assumption].
    - destruct (IH ltac:(lia)) as (k & Hk & H1 & H2). exists k. split; [lia|]. split; [assumption|].
      intros i Hi. destruct (Nat.eq_dec i n) as [->|]; [assumption|]. apply H2. lia. }
  destruct (G (length X) (le_n _)) as (k & H). now exists k.
Qed.

Lemma sl_pos X Y k : increasing X -> increasing Y -> length X = length Y -> (2 <= length X)%nat -> 0 < sl X Y k.
Proof. intros. unfold sl. apply slope_pos; try assumption. lia. Qed.

Lemma pw_mono X Y y0 s t : increasing X -> increasing Y -> length X = length Y -> (2 <= length X)%nat ->
  s < t -> pw X Y y0 s < pw X Y y0 t.
Proof.
  intros HX HY HL H2 Hst.
  destruct (segment X s HX) as (k & Hk & Hl & Hr). destruct (segment X t HX) as (k' & Hk' & Hl' & Hr').
  assert (Hkk : (k <= k')%nat).
  { destruct (le_lt_dec k k') as [|F]; [assumption|]. exfalso.
    specialize (Hl k' F). specialize (Hr' k' ltac:(lia)). lra. }
  (* walk over the abscissae between s and t *)
  assert (G : forall n s k, (k <= length X)%nat -> (k + n = k')%nat -> s <= t ->
     (forall i, (i < k)%nat -> at_ X i <= s) -> (forall i, (k <= i < length X)%nat -> s <= at_ X i) ->
     sl X Y 0 * 0 <= pw X Y y0 t - pw X Y y0 s /\ (s < t -> 0 < pw X Y y0 t - pw X Y y0 s)).
  { clear s Hst k Hk Hl Hr Hkk. induction n as [|n IH]; intros s k Hk Hn Hst Hl Hr.
    - replace k' with k in * by lia.
      rewrite (pw_piece X Y y0 k s t); [|assumption| |].
      + pose proof (sl_pos X Y k HX HY HL H2). split; [nra|]. intros. apply Rmult_lt_0_compat; lra.
      + intros i Hi. split; [now apply Hl|now apply Hl'].
      + intros i Hi. split; [now apply Hr|]. now apply Rlt_le, Hr'.
    - assert (Hkn : (k < length X)%nat) by lia.
      assert (Ht : at_ X k <= t) by (apply Hl'; lia).
      assert (Hs : s <= at_ X k) by (apply Hr; lia).
      destruct (IH (at_ X k) (S k)) as [I1 I2]; [lia|lia|assumption| | |].
      + intros i Hi. apply increasing_le; [assumption|lia|lia].
      + intros i Hi. apply increasing_le; [assumption|lia|lia].
      + assert (E : pw X Y y0 (at_ X k) - pw X Y y0 s = sl X Y k * (at_ X k - s)).
        { apply pw_piece; [assumption| |].
          - intros i Hi. split; [now apply Hl|]. apply increasing_le; [assumption|lia|lia].
          - intros i Hi. split; [now apply Hr|]. apply increasing_le; [assumption|lia|lia]. }
        pose proof (sl_pos X Y k HX HY HL H2). split; [nra|]. intros H'.
        destruct (Rle_lt_or_eq_dec _ _ Ht) as [Hlt|Heq].
        * specialize (I2 Hlt). assert (0 <= sl X Y k * (at_ X k - s)) by (apply Rmult_le_pos; lra). lra.
        * rewrite Heq in E. assert (0 < sl X Y k * (t - s)) by (apply Rmult_lt_0_compat; lra). lra. }
  destruct (G (k' - k)%nat s k) as [_ Q]; [assumption|lia|lra|assumption|intros; now apply Rlt_le, Hr|].
  specialize (Q Hst). lra.
Qed.

Lemma interpolates X Y x y0 k : increasing X -> length X = length Y -> (2 <= length X)%nat ->
  exists e, pwl_func X Y x false y0 k = Ok e /\ fun_of e x 0 = Q2R y0 /\
    (exists off, (forall i, (i < length X)%nat -> fun_of e x (at_ X i) = at_ Y i + off) /\
       forall i, (i < length X)%nat -> at_ X i = 0 -> off = Q2R y0 - at_ Y i) /\
    (forall i t, (S i < length X)%nat -> at_ X i <= t <= at_ X (S i) ->
       fun_of e x t = fun_of e x (at_ X i) + slope X Y i * (t - at_ X i)) /\
    (forall t, t <= at_ X 0 -> fun_of e x t = fun_of e x (at_ X 0) + slope X Y 0 * (t - at_ X 0)) /\
    (forall t, at_ X (length X - 1) <= t ->
       fun_of e x t = fun_of e x (at_ X (length X - 1)) + slope X Y (length X - 2) * (t - at_ X (length X - 1))).
Proof.
  intros HI HL H2. destruct (pwl_value X Y x y0 k false HI HL H2) as (e & He & Hv).
  exists e. split; [exact He|]. rewrite !Hv. split; [apply pw_origin|]. split.
  { exists (pw X Y (Q2R y0) (at_ X 0) - at_ Y 0). split.
    - intros i Hi. rewrite Hv. pose proof (pw_data X Y (Q2R y0) i 0 HI Hi ltac:(lia)). lra.
    - intros i Hi H0. pose proof (pw_data X Y (Q2R y0) i 0 HI Hi ltac:(lia)) as H. rewrite H0, pw_origin in H. lra. }
  repeat split.
  - intros i t Hi Ht. rewrite !Hv. now apply pw_between.
  - intros t Ht. rewrite !Hv. now apply pw_left.
  - intros t Ht. rewrite !Hv. now apply pw_right.
Qed.

Lemma integrated X Y x y0 k k' : increasing X -> length X = length Y -> (2 <= length X)%nat ->
  exists e E, pwl_func X Y x false y0 k' = Ok e /\ pwl_func X Y x true y0 k = Ok E /\
    fun_of E x 0 = Q2R k /\ forall t, derivable_pt_lim (fun_of E x) t (fun_of e x t).
Proof.
  intros HI HL H2. destruct (pwl_value X Y x y0 k' false HI HL H2) as (e & He & Hv).
  destruct (pwl_value X Y x y0 k true HI HL H2) as (E & HE & HV).
  exists e, E. split; [exact He|]. split; [exact HE|]. rewrite HV. split; [apply pwi_origin|].
  intros t. rewrite Hv. intros eps Heps. destruct (pwi_deriv X Y (Q2R y0) (Q2R k) t eps Heps) as [d Hd].
  exists d. intros h H0 Hh. rewrite !HV. now apply Hd.
Qed.

Lemma Qltb_lt a b : Qltb a b = true <-> (a < b)%Q.
Proof.
  unfold Qltb. rewrite negb_true_iff. split.
  - intros H. apply Qnot_le_lt. intros F. apply Qle_bool_iff in F. congruence.
  - intros H. destruct (Qle_bool b a) eqn:E; [|reflexivity]. apply Qle_bool_iff in E. exfalso. now apply (Qlt_not_le _ _ H).
Qed.

Lemma dissipative_passive W Z w e : increasing W -> dissipative W Z w = Ok e ->
  fun_of e w 0 = 0 /\ forall t, 0 <= t * fun_of e w t.
Proof.
  intros HI. unfold dissipative.
  do 3 (match goal with |- context [negb ?b] => destruct b; cbn [negb]; [|discriminate] end).
  destruct (forallb (fun q => Qltb 0 q) (np_diff Z)) eqn:E; cbn [negb]; [|discriminate].
  intros H.
  assert (HL : length W = length Z).
  { unfold pwl_func in H. destruct (Nat.eqb_spec (length W) (length Z)); [assumption|discriminate]. }
  assert (H2 : (2 <= length W)%nat).
  { unfold pwl_func in H. rewrite HL, Nat.eqb_refl in H. cbn [negb] in H. rewrite (np_div_ok _ _ HI HL) in H. cbn [rbind] in H.
    destruct (zip_with Qdiv (np_diff Z) (np_diff W)) as [|q l] eqn:F; [discriminate|].
    apply (f_equal (@length Q)) in F. rewrite zip_length, !np_diff_length in F. cbn in F. lia. }
  assert (HZ : increasing Z).
  { intros i Hi. rewrite forallb_forall in E. specialize (E (nth i (np_diff Z) 0%Q)).
    rewrite Qltb_lt in E. rewrite np_diff_nth in E by assumption.
    assert (G : (0 < nth (S i) Z 0 - nth i Z 0)%Q).
    { apply E. rewrite <- np_diff_nth by assumption. apply nth_In. rewrite np_diff_length. lia. }
    apply Rlt_Qlt. apply Qlt_Rlt in G. rewrite Q2R_minus, Q2R_0 in G. lra. }
  destruct (pwl_value W Z w 0%Q 0%Q false HI HL H2) as (e' & He & Hv). rewrite He in H. injection H as <-.
  rewrite Hv, pw_origin, Q2R_0. split; [reflexivity|]. intros t. rewrite Hv.
  pose proof (pw_origin W Z (Q2R 0)) as H0. rewrite Q2R_0 in *.
  destruct (Rtotal_order t 0) as [Ht|[Ht|Ht]].
  - pose proof (pw_mono W Z 0 t 0 HI HZ HL H2 Ht). nra.
  - subst. lra.
  - pose proof (pw_mono W Z 0 0 t HI HZ HL H2 Ht). nra.
Qed.

(** Outside of the data the energy follows the last slope, which may be negative. *)
Lemma storage_refuted : exists X h e, increasing X /\ storage X h "x" false = Ok e /\
  fun_of e "x" 0 = 0 /\ forall B, exists t, fun_of e "x" t < B.
Proof.
  exists [(-1)%Q; 0%Q; 1%Q; 2%Q], [1%Q; 0%Q; 2%Q; 1%Q].
  set (X := [(-1)%Q; 0%Q; 1%Q; 2%Q]). set (h := [1%Q; 0%Q; 2%Q; 1%Q]).
  assert (HI : increasing X).
  { intros i Hi. cbn in Hi. do 3 (destruct i as [|i]; [reflexivity|]). lia. }
  destruct (pwl_value X h "x" 0%Q 0%Q false HI eq_refl) as (e & He & Hv); [cbn; lia|].
  exists e. split; [exact HI|]. split; [exact He|]. split; [rewrite Hv, pw_origin; apply Q2R_0|].
  intros B. exists (Rmax 2 (4 - B)). rewrite Hv.
  assert (A3 : at_ X 3 = 2) by (unfold at_; cbn; unfold Q2R; cbn; lra).
  rewrite (pw_right X h _ _ HI); [|cbn; lia|].
  - change (length X - 1)%nat with 3%nat. change (length X - 2)%nat with 2%nat.
    pose proof (pw_data X h (Q2R 0) 3 1 HI ltac:(cbn; lia) ltac:(cbn; lia)) as H.
    assert (A1 : at_ X 1 = 0) by (unfold at_; cbn; unfold Q2R; cbn; lra).
    rewrite A1, pw_origin, Q2R_0 in H. rewrite A3 in *.
    replace (slope X h 2) with (-1) by (unfold slope, at_; cbn; unfold Q2R; cbn; lra).
    replace (at_ h 3) with 1 in H by (unfold at_; cbn; unfold Q2R; cbn; lra).
    replace (at_ h 1) with 0 in H by (unfold at_; cbn; unfold Q2R; cbn; lra).
    rewrite Q2R_0. pose proof (Rmax_r 2 (4 - B)). lra.
  - change (length X - 1)%nat with 3%nat. rewrite A3. apply Rmax_l.
Qed.
Lemma storage_integ_refuted : exists X h e, increasing X /\ storage X h "x" true = Ok e /\
  fun_of e "x" 0 = 0 /\ exists t, fun_of e "x" t < 0.
Proof.
  exists [(-1)%Q; 0%Q; 1%Q; 2%Q], [(-1)%Q; 0%Q; 2%Q; 1%Q].
  set (X := [(-1)%Q; 0%Q; 1%Q; 2%Q]). set (h := [(-1)%Q; 0%Q; 2%Q; 1%Q]).
  assert (HI : increasing X).
  { intros i Hi. cbn in Hi. do 3 (destruct i as [|i]; [reflexivity|]). lia. }
  destruct (pwl_value X h "x" 0%Q 0%Q true HI eq_refl) as (e & He & Hv); [cbn; lia|].
  exists e. split; [exact HI|]. split; [exact He|]. split; [rewrite Hv, pwi_origin; apply Q2R_0|].
  exists 10. rewrite Hv. unfold pwi, bb, cc, sl, slope, at_. cbn [X h length Nat.min pred Nat.sub rsum nth Q2R Qnum Qden].
  unfold Q2R; cbn. unfold Rabs. repeat destruct Rcase_abs; lra.
Qed.

(** Between the first and the last abscissa the energy is non-negative. *)
Lemma storage_in_range X h x e : increasing X -> storage X h x false = Ok e ->
  fun_of e x 0 = 0 /\ forall t, at_ X 0 <= t <= at_ X (length X - 1) -> 0 <= fun_of e x t.
Proof.
  intros HI. unfold storage.
  destruct (all_where (fun q => Qle_bool 0 q) (fun q => Qle_bool 0 q) X h) eqn:E1; cbn [negb]; [|discriminate].
  destruct (all_where (fun q => Qltb q 0) (fun q => Qle_bool 0 q) X h) eqn:E2; cbn [negb]; [|discriminate].
  destruct (zero_check X h) as [[]|] eqn:E0; cbn [rbind]; [|discriminate].
  intros H.
  assert (HL : length X = length h).
  { unfold pwl_func in H. destruct (Nat.eqb_spec (length X) (length h)); [assumption|discriminate]. }
  assert (H2 : (2 <= length X)%nat).
  { unfold pwl_func in H. rewrite HL, Nat.eqb_refl in H. cbn [negb] in H. rewrite (np_div_ok _ _ HI HL) in H. cbn [rbind] in H.
    destruct (zip_with Qdiv (np_diff h) (np_diff X)) as [|q l] eqn:F; [discriminate|].
    apply (f_equal (@length Q)) in F. rewrite zip_length, !np_diff_length in F. cbn in F. lia. }
  destruct (pwl_value X h x 0%Q 0%Q false HI HL H2) as (e' & He & Hv). rewrite He in H. injection H as <-.
  split; [rewrite Hv, pw_origin; apply Q2R_0|].
  (* all the data are non-negative *)
  assert (Pos : forall i, (i < length X)%nat -> 0 <= at_ h i).
  { intros i Hi. unfold all_where in E1, E2. rewrite forallb_forall in E1, E2.
    assert (Hin : In (nth i X 0%Q, nth i h 0%Q) (combine X h)).
    { rewrite <- combine_nth by assumption. apply nth_In. rewrite combine_length. lia. }
    specialize (E1 _ Hin). specialize (E2 _ Hin). cbn [fst snd] in E1, E2.
    assert (G : Qle_bool 0%Q (nth i h 0%Q) = true).
    { destruct (Qle_bool 0%Q (nth i X 0%Q)) eqn:F; [exact E1|]. unfold Qltb in E2. rewrite F in E2. exact E2. }
    apply Qle_bool_iff, Qle_Rle in G. rewrite Q2R_0 in G. exact G. }
  (* the origin is one of the abscissae *)
  assert (Z0 : exists i, (i < length X)%nat /\ at_ X i = 0 /\ at_ h i = 0).
  { unfold zero_check in E0. destruct (filter _ (combine X h)) as [|[a b] [|]] eqn:F; try discriminate.
    destruct (Qeq_bool (snd (a, b)) 0) eqn:G; [|discriminate]. cbn in G.
    assert (Hin : In (a, b) (filter (fun p => Qeq_bool (fst p) 0) (combine X h))) by (rewrite F; now left).
    apply filter_In in Hin as [Hin Ha]. cbn in Ha. apply (In_nth _ _ (0, 0)%Q) in Hin as (i & Hi & Hn).
    rewrite combine_length in Hi. rewrite combine_nth in Hn by assumption. injection Hn as <- <-.
    exists i. split; [lia|]. apply Qeq_bool_iff, Qeq_eqR in Ha, G. rewrite Q2R_0 in Ha, G. now split. }
  destruct Z0 as (i0 & Hi0 & X0 & h0).
  assert (Dat : forall i, (i < length X)%nat -> pw X h (Q2R 0) (at_ X i) = at_ h i).
  { intros i Hi. pose proof (pw_data X h (Q2R 0) i i0 HI Hi Hi0) as H. rewrite X0, pw_origin, h0, Q2R_0 in H. rewrite Q2R_0. lra. }
  intros t [Ht1 Ht2]. rewrite Hv.
  destruct (segment X t HI) as (k & Hk & Hl & Hr).
  destruct k as [|k]; [specialize (Hr 0%nat ltac:(lia)); lra|].
  specialize (Hl k ltac:(lia)).
  destruct (Nat.eq_dec (S k) (length X)) as [Ek|Ek].
  - replace (length X - 1)%nat with k in Ht2 by lia. replace t with (at_ X k) by lra. rewrite Dat by lia. apply Pos. lia.
  - specialize (Hr (S k) ltac:(lia)).
    rewrite (pw_between X h _ k t HI) by (try lia; lra). rewrite Dat by lia.
    pose proof (Pos k ltac:(lia)). pose proof (Pos (S k) ltac:(lia)).
    pose proof (increasing_lt X k (S k) HI ltac:(lia) ltac:(lia)).
    unfold slope. set (u := (t - at_ X k) / (at_ X (S k) - at_ X k)).
    replace ((at_ h (S k) - at_ h k) / (at_ X (S k) - at_ X k) * (t - at_ X k)) with ((at_ h (S k) - at_ h k) * u) by (unfold u; field; lra).
    assert (0 <= u <= 1).
    { unfold u. split.
      - apply Rmult_le_pos; [lra|]. apply Rlt_le, Rinv_0_lt_compat. lra.
      - apply (Rmult_le_reg_r (at_ X (S k) - at_ X k)); [lra|]. unfold Rdiv. rewrite Rmult_assoc, Rinv_l by lra. lra. }
    nra.
Qed.
