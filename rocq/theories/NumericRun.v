(** An update from end to end. *)
From Coq Require Import String List ZArith QArith Qreals Reals Bool Lia Lra.
From Verif Require Import Py Tools Lists Expr RSum Mat Core Calculus ExprProofs MatProofs Spec_Core StructProofs
  Spec_Calculus Deriv CalculusProofs PowerProofs Subs SubsProofs Method Spec_Method Separable TempProofs
  Numeric Spec_Numeric NumericProofs NumericUpdate NumericStep.
Import ListNotations.
Local Open Scope string_scope.
Local Open Scope list_scope.
Local Open Scope nat_scope.

(** ** Affine parts *)

Lemma agree_sym l r r' : agree_off l r r' -> agree_off l r' r.
Proof. intros H s Hs. symmetry. now apply H. Qed.
Lemma agree_tr l r r' r'' : agree_off l r r' -> agree_off l r' r'' -> agree_off l r r''.
Proof. intros H K s Hs. rewrite K by exact Hs. now apply H. Qed.
Lemma agree_sub (a b : list string) r r' : (forall s, In s a -> In s b) -> agree_off a r r' -> agree_off b r r'.
Proof. intros H AG s Hs. apply AG. intros I. apply Hs. now apply H. Qed.

(** With G = F - J v, the functions F at other values of v. *)
Lemma affine_at (F G : list expr) J v r r1 i : NoDup v -> J = jacobian F v -> i < length F ->
  (forall q, agree_off v r q -> smooth q (nth i F (Num 0))) ->
  (forall j s, j < length v -> In s (free_symbols (ent J i j)) -> ~ In s v) ->
  (eval r (nth i G (Num 0)) = eval r (nth i F (Num 0)) -
     rsum (length v) (fun j => eval r (ent J i j) * r (nth j v "")))%R ->
  agree_off v r r1 ->
  (eval r1 (nth i F (Num 0)) = eval r (nth i G (Num 0)) +
     rsum (length v) (fun j => eval r (ent J i j) * r1 (nth j v "")))%R.
Proof.
  intros ND EJ Hi SM FR VG AG. rewrite VG.
  rewrite (affine_group (nth i F (Num 0)) r r1 v ND SM); [|intros x s Hx Hs|exact AG].
  - rewrite wsum_rsum.
    rewrite (rsum_ext (length v) _ (fun j => eval r (ent J i j) * r1 (nth j v "") - eval r (ent J i j) * r (nth j v ""))%R).
    + rewrite rsum_minus. lra.
    + intros j Hj. rewrite EJ. cbn [jacobian ent]. ring.
  - apply In_nth with (d := "") in Hx. destruct Hx as (j & Hj & <-). apply (FR j s Hj). now rewrite EJ.
Qed.

Lemma smooth_esum r f : forall n, (forall k, k < n -> smooth r (f k)) -> smooth r (Mat.esum n f).
Proof.
  induction n as [|n IH]; intros H; [exact I|]. cbn. apply smooth_sadd; [apply IH; auto|apply H; auto].
Qed.

Lemma G_smooth m a F G r i : tempF a m = Ok F -> G_of a m = Ok G -> i < length F -> smooth r (nth i F (Num 0)) ->
  smooth r (nth i G (Num 0)).
Proof.
  intros EF EG Hi SF. unfold G_of, jactempF in EG. rewrite EF in EG. cbn [rbind] in EG.
  set (J := jacobian F (v_of Sl m)) in EG. unfold matvecprod in EG. rewrite map_length in EG.
  replace (length (v_of Sl m) =? nc J) with true in EG by (symmetry; apply Nat.eqb_refl).
  assert (SJ : forall j, smooth r (ent J i j)) by (intros j; unfold J; cbn [jacobian ent]; now apply smooth_diff).
  assert (K : forall Jv, length Jv = length F -> smooth r (nth i Jv (Num 0)) ->
    sumvecs [F; neg_vec Jv] = Ok G -> smooth r (nth i G (Num 0))).
  { intros Jv LJ SV E. unfold sumvecs in E. cbn [rev app sum_onto] in E.
    destruct (length F =? length (neg_vec Jv)) eqn:EL; [|discriminate]. injection E as <-.
    apply Nat.eqb_eq in EL.
    rewrite (nth_indep _ (Num 0) ((fun p => sadd (fst p) (snd p)) (Num 0, Num 0)))
      by (rewrite map_length, combine_length; lia).
    rewrite (map_nth (fun p => sadd (fst p) (snd p))), combine_nth by lia. cbn [fst snd].
    apply smooth_sadd; [|exact SF]. unfold neg_vec.
    rewrite (nth_indep _ (Num 0) (sneg (Num 0))) by (rewrite map_length; lia). rewrite map_nth. now apply smooth_sneg. }
  destruct (length (v_of Sl m) =? 0).
  - cbn [rbind] in EG. apply (K _ (repeat_length _ _)) in EG; [exact EG|]. rewrite nth_repeat. exact I.
  - unfold mmul in EG. cbn [colvec nr] in EG. rewrite map_length in EG.
    replace (nc J =? length (v_of Sl m)) with true in EG by (symmetry; apply Nat.eqb_refl).
    cbn [rbind] in EG. revert EG. apply K.
    + unfold col_list. now rewrite map_length, seq_length.
    + unfold col_list. cbn [nr ent]. set (f := fun i0 => Mat.esum _ _).
      rewrite (nth_indep _ (Num 0) (f 0)) by (rewrite map_length, seq_length; exact Hi).
      rewrite map_nth, seq_nth by exact Hi. unfold f. apply smooth_esum. intros k Hk. apply smooth_smul; [apply SJ|].
      cbn [colvec ent]. destruct (nth_in_or_default k (map Sym (v_of Sl m)) (Num 0)) as [H|H].
      * apply in_map_iff in H. destruct H as (s & <- & _). exact I.
      * rewrite H. exact I.
Qed.

Lemma derivable_rsum (f : nat -> R -> R) (d : nat -> R) t : forall n, (forall k, k < n -> derivable_pt_lim (f k) t (d k)) ->
  derivable_pt_lim (fun s => rsum n (fun k => f k s)) t (rsum n d).
Proof.
  induction n as [|n IH]; intros H; cbn [rsum]; [apply derivable_pt_lim_const|].
  apply (derivable_pt_lim_plus (fun s => rsum n (fun k => f k s)) (f n)); [apply IH; auto|apply H; auto].
Qed.

Lemma rowix_cover c i : counters_ok c -> i < nv c Sall ->
  exists s j, s <> Sall /\ j < nv c s /\ rowix c s j = i.
Proof.
  intros [Hx Hw] Hi. unfold nv, rowix in *. cbn [bx bw off len] in *.
  destruct (Nat.lt_ge_cases i (Z.to_nat (c_xl c))) as [A|A].
  { exists Sl, i. split; [discriminate|]. cbn [bx bw off len]. destruct (Nat.ltb_spec i (Z.to_nat (c_xl c))); lia. }
  destruct (Nat.lt_ge_cases i (length (c_x c))) as [B|B].
  { exists Snl, (i - Z.to_nat (c_xl c)). split; [discriminate|]. cbn [bx bw off len].
    destruct (Nat.ltb_spec (i - Z.to_nat (c_xl c)) (length (c_x c) - Z.to_nat (c_xl c))); lia. }
  destruct (Nat.lt_ge_cases (i - length (c_x c)) (Z.to_nat (c_wl c))) as [C|C].
  { exists Sl, (Z.to_nat (c_xl c) + (i - length (c_x c))). split; [discriminate|]. cbn [bx bw off len].
    destruct (Nat.ltb_spec (Z.to_nat (c_xl c) + (i - length (c_x c))) (Z.to_nat (c_xl c))); lia. }
  exists Snl, (length (c_x c) - Z.to_nat (c_xl c) + (i - length (c_x c) - Z.to_nat (c_wl c))). split; [discriminate|].
  cbn [bx bw off len].
  destruct (Nat.ltb_spec (length (c_x c) - Z.to_nat (c_xl c) + (i - length (c_x c) - Z.to_nat (c_wl c))) (length (c_x c) - Z.to_nat (c_xl c))); lia.
Qed.

(** ** Linear and nonlinear parts *)

Section Split.
  Variable nu : numeric.
  Let m := n_method nu.
  Hypothesis W : wf m.
  Hypothesis HC : counters_ok m.
  Hypothesis NDV : NoDup (v_of Sl m).
  Hypothesis LP : linear_part m.
  Let l := nv m Sl.
  Let n := nv m Snl.

  Variables F Fl Fnl : list expr.
  Variables Jll Jnll : mat.
  Variables Gl Gnl : list expr.
  Hypothesis EF : tempF Sall m = Ok F.
  Hypothesis EFl : tempF Sl m = Ok Fl.
  Hypothesis EFnl : tempF Snl m = Ok Fnl.
  Hypothesis LFl : length Fl = l.
  Hypothesis LFnl : length Fnl = n.
  Hypothesis EJll : jactempF Sl Sl m = Ok Jll.
  Hypothesis EJnll : jactempF Snl Sl m = Ok Jnll.
  Hypothesis JLL : Jll = jacobian Fl (v_of Sl m).
  Hypothesis JNLL : Jnll = jacobian Fnl (v_of Sl m).
  Hypothesis EGl : G_of Sl m = Ok Gl.
  Hypothesis EGnl : G_of Snl m = Ok Gnl.
  Hypothesis LGl : length Gl = l.
  Hypothesis LGnl : length Gnl = n.
  Hypothesis VGl : forall r i, i < l -> (eval r (nth i Gl (Num 0)) = eval r (nth i Fl (Num 0)) -
       rsum l (fun j => eval r (ent Jll i j) * r (nth j (v_of Sl m) "")))%R.
  Hypothesis VGnl : forall r i, i < n -> (eval r (nth i Gnl (Num 0)) = eval r (nth i Fnl (Num 0)) -
       rsum l (fun j => eval r (ent Jnll i j) * r (nth j (v_of Sl m) "")))%R.

  Let VL : length (v_of Sl m) = l := v_of_len m Sl HC.
  Let VN : length (v_of Snl m) = n := v_of_len m Snl HC.

  Lemma dim_ll : nr Jll = l /\ nc Jll = l.
  Proof. rewrite JLL. split; [exact LFl|exact VL]. Qed.
  Lemma dim_nll : nr Jnll = n /\ nc Jnll = l.
  Proof. rewrite JNLL. split; [exact LFnl|exact VL]. Qed.

  Lemma whole_ok : length F = nv m Sall /\ forall r i, i < nv m Sall -> eval r (nth i F (Num 0)) = defect r m i.
  Proof.
    destruct (tempF_ok m Sall W HC) as (F' & E & L & V). rewrite EF in E. injection E as <-. split; [exact L|].
    intros r i Hi. rewrite V by exact Hi. now rewrite rowix_all.
  Qed.
  Lemma Fl_row r i : i < l -> eval r (nth i Fl (Num 0)) = eval r (nth (rowix m Sl i) F (Num 0)).
  Proof.
    intros Hi. destruct (tempF_ok m Sl W HC) as (F' & E & L & V). rewrite EFl in E. injection E as <-.
    rewrite V by exact Hi. symmetry. apply whole_ok. now apply rowix_lt.
  Qed.
  Lemma Fnl_row r i : i < n -> eval r (nth i Fnl (Num 0)) = eval r (nth (rowix m Snl i) F (Num 0)).
  Proof.
    intros Hi. destruct (tempF_ok m Snl W HC) as (F' & E & L & V). rewrite EFnl in E. injection E as <-.
    rewrite V by exact Hi. symmetry. apply whole_ok. now apply rowix_lt.
  Qed.

  Lemma vanish_nth r (f : list expr) : vanish r f <-> forall i, i < length f -> eval r (nth i f (Num 0)) = 0%R.
  Proof.
    split.
    - intros H i Hi. apply H. now apply nth_In.
    - intros H e He. apply In_nth with (d := Num 0) in He. destruct He as (i & Hi & <-). now apply H.
  Qed.

  Lemma vanish_parts r : vanish r F <-> vanish r Fl /\ vanish r Fnl.
  Proof.
    destruct whole_ok as [LF _]. rewrite !vanish_nth, LF, LFl, LFnl. split.
    - intros H. split; intros i Hi; [rewrite Fl_row by exact Hi|rewrite Fnl_row by exact Hi]; apply H; now apply rowix_lt.
    - intros [H1 H2] i Hi. destruct (rowix_cover m i HC Hi) as (s & j & NS & Hj & <-). destruct s; [congruence| |].
      + rewrite <- Fl_row by exact Hj. now apply H1.
      + rewrite <- Fnl_row by exact Hj. now apply H2.
  Qed.

  Lemma norm_parts r : vanish r Fl -> residual r F = fnorm n (fun i => eval r (nth i Fnl (Num 0))).
  Proof.
    intros V. rewrite vanish_nth, LFl in V. unfold residual, fnorm. f_equal. destruct whole_ok as [-> _].
    rewrite <- (rsum_split_lnl m _ HC). fold l n.
    rewrite (rsum_zero l); [rewrite Rplus_0_l; apply rsum_ext; intros i Hi; now rewrite Fnl_row|].
    intros i Hi. rewrite <- Fl_row by exact Hi. rewrite V by exact Hi. lra.
  Qed.

  Notation smooth_at := (regular m Fl Fnl).

  Lemma v_sub_all s a : In a (v_of s m) -> In a (v_of Sall m).
  Proof. exact (v_sub nu s a). Qed.

  Lemma at_l r r1 i : smooth_at r -> agree_off (v_of Sl m) r r1 -> i < l ->
    (eval r1 (nth i Fl (Num 0)) = eval r (nth i Gl (Num 0)) +
       mv_ l (fun i j => eval r (ent Jll i j)) (fun j => r1 (nth j (v_of Sl m) "")) i)%R.
  Proof.
    intros SM AG Hi. unfold mv_. rewrite <- VL. apply (affine_at Fl Gl Jll).
    - exact NDV.
    - exact JLL.
    - congruence.
    - intros q Aq. apply SM; [|exact Aq]. apply in_or_app. left. apply nth_In. congruence.
    - intros j s Hj Hs Is. apply (LP Sl Jll i j s EJll); [rewrite (proj1 dim_ll); exact Hi|rewrite JLL; exact Hj|exact Hs|].
      now apply (v_sub_all Sl).
    - rewrite VL. now apply VGl.
    - exact AG.
  Qed.
  Lemma at_nl r r1 i : smooth_at r -> agree_off (v_of Sl m) r r1 -> i < n ->
    (eval r1 (nth i Fnl (Num 0)) = eval r (nth i Gnl (Num 0)) +
       mv_ l (fun i j => eval r (ent Jnll i j)) (fun j => r1 (nth j (v_of Sl m) "")) i)%R.
  Proof.
    intros SM AG Hi. unfold mv_. rewrite <- VL. apply (affine_at Fnl Gnl Jnll).
    - exact NDV.
    - exact JNLL.
    - congruence.
    - intros q Aq. apply SM; [|exact Aq]. apply in_or_app. right. apply nth_In. congruence.
    - intros j s Hj Hs Is. apply (LP Snl Jnll i j s EJnll); [rewrite (proj1 dim_nll); exact Hi|rewrite JNLL; exact Hj|exact Hs|].
      now apply (v_sub_all Sl).
    - rewrite VL. now apply VGnl.
    - exact AG.
  Qed.

  (** The values of the linear part computed from the others. *)
  Definition vl_of (B : nat -> nat -> R) (r : env) (i : nat) : R :=
    mv_ l B (fun k => - eval r (nth k Gl (Num 0)))%R i.

  Lemma linear_solved r r1 B : smooth_at r -> agree_off (v_of Sl m) r r1 ->
    is_inverse l (fun i j => eval r (ent Jll i j)) B ->
    (vanish r1 Fl <-> forall i, i < l -> r1 (nth i (v_of Sl m) "") = vl_of B r i).
  Proof.
    intros SM AG IB. rewrite vanish_nth, LFl. split.
    - intros H. apply (inverse_unique_sol l _ B _ _ IB). intros i Hi.
      specialize (H i Hi). rewrite (at_l r r1 i SM AG Hi) in H. lra.
    - intros H i Hi. rewrite (at_l r r1 i SM AG Hi).
      rewrite (mv_ext l _ (fun i j => eval r (ent Jll i j)) _ (vl_of B r) i); [|reflexivity|exact H].
      unfold vl_of. rewrite (inverse_sol l _ B _ IB i Hi). lra.
  Qed.

  Notation redF := (NumericStep.redF nu Jnll Gl Gnl).
  Notation redJ := (NumericStep.redJ nu Jnll Gl Gnl).

  Lemma neg1 x : (Q2R (-1) * x = - x)%R.
  Proof. unfold Q2R. cbn. lra. Qed.

  Lemma nonlinear_value r r1 B : smooth_at r -> agree_off (v_of Sl m) r r1 ->
    (forall i, i < l -> r1 (nth i (v_of Sl m) "") = vl_of B r i) ->
    forall i, i < n -> eval r1 (nth i Fnl (Num 0)) = redF B r i.
  Proof.
    intros SM AG H i Hi. rewrite (at_nl r r1 i SM AG Hi). unfold NumericStep.redF. fold l. f_equal.
    apply mv_ext; [reflexivity|]. intros k Hk. rewrite H by exact Hk. unfold vl_of. apply mv_ext; [reflexivity|].
    intros q Hq. now rewrite neg1.
  Qed.

  (** No solution is lost. *)
  Lemma split_ok r r1 B : smooth_at r -> agree_off (v_of Sl m) r r1 ->
    is_inverse l (fun i j => eval r (ent Jll i j)) B ->
    (vanish r1 F <-> (forall i, i < l -> r1 (nth i (v_of Sl m) "") = vl_of B r i) /\
                     (forall i, i < n -> redF B r i = 0%R)).
  Proof.
    intros SM AG IB. rewrite vanish_parts, (linear_solved r r1 B SM AG IB), (vanish_nth r1 Fnl), LFnl. split; intros [H1 H2];
      (split; [exact H1|]); intros i Hi.
    - rewrite <- (nonlinear_value r r1 B SM AG H1 i Hi). now apply H2.
    - rewrite (nonlinear_value r r1 B SM AG H1 i Hi). now apply H2.
  Qed.

  (** Values of the linear part set to the solution. *)
  Definition with_vl (B : nat -> nat -> R) (r : env) : env :=
    fun s => match assoc s (combine (v_of Sl m) (map (vl_of B r) (seq 0 l))) with Some x => x | None => r s end.
  Lemma with_vl_ok B r : agree_off (v_of Sl m) r (with_vl B r) /\
    forall i, i < l -> with_vl B r (nth i (v_of Sl m) "") = vl_of B r i.
  Proof.
    assert (LL : length (map (vl_of B r) (seq 0 l)) = length (v_of Sl m)) by (rewrite map_length, seq_length; congruence).
    split.
    - intros s Hs. unfold with_vl. destruct (assoc s _) as [x|] eqn:E; [|reflexivity]. apply assoc_in, in_combine_l in E. contradiction.
    - intros i Hi. unfold with_vl.
      rewrite (nth_assoc (nth i (v_of Sl m) "") (vl_of B r i) (v_of Sl m) (map (vl_of B r) (seq 0 l)) i); [reflexivity|exact NDV| |].
      + apply nth_error_nth'. congruence.
      + rewrite (nth_error_nth' _ 0%R) by (rewrite map_length, seq_length; exact Hi). f_equal. now apply nth_map_seq.
  Qed.

  (** The jacobians of the linear part do not change with the unknowns. *)
  Lemma Jll_same r q : agree_off (v_of Sall m) r q -> forall i j, i < l -> j < l -> eval r (ent Jll i j) = eval q (ent Jll i j).
  Proof.
    intros AG i j Hi Hj. apply eval_ext. intros s Hs. symmetry. apply AG.
    apply (LP Sl Jll i j s EJll); [rewrite (proj1 dim_ll); exact Hi|rewrite (proj2 dim_ll); exact Hj|exact Hs].
  Qed.
  Lemma Jnll_same r q : agree_off (v_of Sall m) r q -> forall i j, i < n -> j < l -> eval r (ent Jnll i j) = eval q (ent Jnll i j).
  Proof.
    intros AG i j Hi Hj. apply eval_ext. intros s Hs. symmetry. apply AG.
    apply (LP Snl Jnll i j s EJnll); [rewrite (proj1 dim_nll); exact Hi|rewrite (proj2 dim_nll); exact Hj|exact Hs].
  Qed.

  Lemma reduces_ok r B : is_inverse l (fun i j => eval r (ent Jll i j)) B -> reduces m Fl Fnl r (redF B).
  Proof.
    intros IB q Aq SQ. destruct (with_vl_ok B q) as [A V]. exists (with_vl B q). split; [exact A|].
    assert (IQ : is_inverse l (fun i j => eval q (ent Jll i j)) B).
    { apply (inverse_ext l (fun i j => eval r (ent Jll i j))); [|exact IB]. intros i j Hi Hj. now apply Jll_same. }
    split.
    - apply (linear_solved q _ B SQ A IQ). exact V.
    - intros i Hi. symmetry. apply (nonlinear_value q _ B SQ A V). congruence.
  Qed.

  Lemma upd_agree q s t : In s (v_of Sall m) -> agree_off (v_of Sall m) q (upd q s t).
  Proof. intros I x Hx. apply upd_neq. intros ->. contradiction. Qed.

  Lemma partials_ok B q : smooth_at q -> partials (v_of Snl m) (length Fnl) q (redF B) (redJ B).
  Proof.
    intros SM i j Hi Hj. rewrite LFnl in Hi. set (s := nth j (v_of Snl m) "").
    assert (Is : In s (v_of Sall m)) by (apply (v_sub_all Snl); now apply nth_In).
    assert (DG : forall a F0 G0 k, tempF a m = Ok F0 -> G_of a m = Ok G0 -> k < length F0 -> In (nth k F0 (Num 0)) (Fl ++ Fnl) ->
      derivable_pt_lim (fun t => eval (upd q s t) (nth k G0 (Num 0))) (q s) (eval q (diff s (nth k G0 (Num 0))))).
    { intros a F0 G0 k E0 EG0 Hk IF. apply diff_partial. apply (G_smooth m a F0 G0 q k E0 EG0 Hk). apply (SM _ q IF). intros x _. reflexivity. }
    unfold NumericStep.redF, NumericStep.redJ. fold l. fold s.
    apply derivable_pt_lim_ext_loc with (eps := 1%R)
      (f := fun t => (eval (upd q s t) (nth i Gnl (Num 0)) +
        mv_ l (fun i0 j0 => eval q (ent Jnll i0 j0)) (mv_ l B (fun k => Q2R (-1) * eval (upd q s t) (nth k Gl (Num 0)))) i)%R); [lra| |].
    { intros h _. f_equal. unfold mv_ at 1 3. apply rsum_ext. intros k Hk. f_equal. apply Jnll_same; [now apply upd_agree|exact Hi|exact Hk]. }
    apply (derivable_pt_lim_plus (fun t => eval (upd q s t) (nth i Gnl (Num 0)))
      (fun t => mv_ l (fun i0 j0 => eval q (ent Jnll i0 j0)) (mv_ l B (fun k => Q2R (-1) * eval (upd q s t) (nth k Gl (Num 0)))) i)%R).
    - apply (DG Snl Fnl Gnl i EFnl EGnl); [congruence|]. apply in_or_app. right. apply nth_In. congruence.
    - unfold mv_, mm.
      apply (derivable_rsum (fun k t => (eval q (ent Jnll i k) * rsum l (fun k0 => B k k0 * (Q2R (-1) * eval (upd q s t) (nth k0 Gl (Num 0)))))%R)
        (fun k => (eval q (ent Jnll i k) * rsum l (fun k0 => B k k0 * (Q2R (-1) * eval q (diff s (nth k0 Gl (Num 0))))))%R)).
      intros k Hk.
      apply (derivable_pt_lim_scal (fun t => rsum l (fun k0 => B k k0 * (Q2R (-1) * eval (upd q s t) (nth k0 Gl (Num 0)))))%R).
      apply (derivable_rsum (fun k0 t => (B k k0 * (Q2R (-1) * eval (upd q s t) (nth k0 Gl (Num 0))))%R)
        (fun k0 => (B k k0 * (Q2R (-1) * eval q (diff s (nth k0 Gl (Num 0)))))%R)).
      intros k0 Hk0.
      apply (derivable_pt_lim_scal (fun t => (Q2R (-1) * eval (upd q s t) (nth k0 Gl (Num 0)))%R)).
      apply (derivable_pt_lim_scal (fun t => eval (upd q s t) (nth k0 Gl (Num 0)))).
      apply (DG Sl Fl Gl k0 EFl EGl); [congruence|]. apply in_or_app. left. apply nth_In. congruence.
  Qed.
End Split.
