(** Proofs about substitutions and discrete gradients. *)
From Coq Require Import String List ZArith QArith Qreals Reals Bool Lra Lia.
From Verif Require Import Py Expr RSum Mat Core ExprProofs Spec_Calculus Calculus Deriv.
Import ListNotations.
Local Open Scope string_scope.
Local Open Scope list_scope.
Local Open Scope R_scope.

(** ** Substitution *)

Lemma eval_subst1 r k v e : eval r (subst [(k, v)] e) = eval (upd r k (eval r v)) e.
Proof.
  induction e as [q|s|a IHa b IHb|a IHa b IHb|a IHa n|a IHa|f a IHa|a IHa b IHb t IHt e IHe]; cbn;
    try (rewrite ?IHa, ?IHb, ?IHt, ?IHe; reflexivity).
  unfold upd. rewrite (String.eqb_sym s k). destruct (String.eqb k s); reflexivity.
Qed.

(** The valuation seen by an expression after the substitution [d]. *)
Definition through (d : list (string * expr)) (r : env) : env :=
  fun s => match assoc s d with Some v => eval r v | None => r s end.

(** No value contains a key that comes later. *)
Fixpoint forward (d : list (string * expr)) : Prop :=
  match d with
  | [] => True
  | (k, v) :: d' => (forall k', In k' (map fst d') -> ~ In k' (free_symbols v)) /\ forward d'
  end.

Lemma assoc_notin {B} s (d : list (string * B)) : ~ In s (map fst d) -> assoc s d = None.
Proof.
  induction d as [|[k v] d IH]; cbn; [reflexivity|]. intros H.
  destruct (String.eqb_spec k s) as [->|]; [exfalso; apply H; now left|]. apply IH. tauto.
Qed.

Lemma subs_through d : forall r e, forward d -> eval r (subs d e) = eval (through d r) e.
Proof.
  induction d as [|[k v] d IH]; intros r e F; [reflexivity|].
  destruct F as [F1 F2]. change (subs ((k, v) :: d) e) with (subs d (subst [(k, v)] e)).
  rewrite IH by exact F2. rewrite eval_subst1. apply eval_same. intros s.
  unfold upd, through. cbn. rewrite (String.eqb_sym k s).
  destruct (String.eqb s k); [|reflexivity].
  apply eval_ext. intros s' Hs. rewrite assoc_notin; [reflexivity|]. intros Hi. exact (F1 s' Hi Hs).
Qed.

Lemma dict_set_new {B} k (v : B) d : ~ In k (map fst d) -> dict_set k v d = d ++ [(k, v)].
Proof.
  induction d as [|[k' v'] d IH]; cbn; [reflexivity|]. intros H.
  destruct (String.eqb_spec k' k) as [->|]; [exfalso; apply H; now left|]. rewrite IH; tauto.
Qed.

Lemma dict_update_new {B} (e d : list (string * B)) : NoDup (map fst (d ++ e)) ->
  dict_update d e = d ++ e.
Proof.
  revert d. induction e as [|[k v] e IH]; intros d ND; cbn; [now rewrite app_nil_r|].
  unfold dict_update in IH. rewrite dict_set_new.
  - rewrite IH; [now rewrite <- app_assoc|]. now rewrite <- app_assoc.
  - rewrite map_app in ND. cbn in ND. apply NoDup_remove_2 in ND.
    intros Hi. apply ND, in_or_app. now left.
Qed.

Lemma map_fst_shift t (l : list (string * string)) :
  map fst (map (fun p => (fst p, sadd (Sym (fst p)) (smul (Num t) (Sym (snd p))))) l) = map fst l.
Proof. rewrite map_map. reflexivity. Qed.

Lemma fst_combine {A B} (x : list A) (y : list B) : length y = length x -> map fst (combine x y) = x.
Proof. revert y. induction x as [|a x IH]; destruct y; cbn; intros H; try discriminate; [reflexivity|].
  now rewrite IH by lia. Qed.
Lemma snd_combine {A B} (x : list A) (y : list B) : length y = length x -> map snd (combine x y) = y.
Proof. revert y. induction x as [|a x IH]; destruct y; cbn; intros H; try discriminate; [reflexivity|].
  now rewrite IH by lia. Qed.

Lemma free_sadd s a b : In s (free_symbols (sadd a b)) -> In s (free_symbols a) \/ In s (free_symbols b).
Proof.
  unfold sadd. destruct (is0 a); [auto|]. destruct (is0 b); [auto|].
  destruct a, b; cbn; rewrite ?in_app_iff; tauto.
Qed.
Lemma free_smul s a b : In s (free_symbols (smul a b)) -> In s (free_symbols a) \/ In s (free_symbols b).
Proof.
  unfold smul. repeat match goal with |- context [if ?c then _ else _] => destruct c end;
    try (cbn; tauto).
  destruct a, b; cbn; rewrite ?in_app_iff; tauto.
Qed.

Lemma shifts_eq t x dx : NoDup x -> length dx = length x ->
  shifts t x dx = map (fun p => (fst p, sadd (Sym (fst p)) (smul (Num t) (Sym (snd p))))) (combine x dx).
Proof.
  intros ND L. unfold shifts. rewrite dict_update_new; [reflexivity|].
  cbn [app]. rewrite map_fst_shift, fst_combine; assumption.
Qed.

Lemma shifts_forward t x : forall dx, NoDup x -> length dx = length x -> (forall s, In s dx -> ~ In s x) ->
  forward (map (fun p => (fst p, sadd (Sym (fst p)) (smul (Num t) (Sym (snd p))))) (combine x dx)).
Proof.
  induction x as [|a x IH]; intros [|b dx] ND L D; try discriminate; cbn [combine map forward fst snd]; [exact I|].
  inversion ND as [|? ? Ha ND']; subst. split.
  - intros k' Hk Hf. rewrite map_fst_shift, fst_combine in Hk by (cbn in L; lia).
    apply free_sadd in Hf. destruct Hf as [Hf|Hf].
    + cbn in Hf. destruct Hf as [->|[]]. exact (Ha Hk).
    + apply free_smul in Hf. cbn in Hf. destruct Hf as [[]|[->|[]]].
      apply (D k'); [now left|now right].
  - apply IH; [exact ND'|cbn in L; lia|]. intros s H1 H2. apply (D s); now right.
Qed.

Lemma assoc_shift t x : forall dx i, NoDup x -> length dx = length x -> (i < length x)%nat ->
  assoc (nth i x EmptyString)
    (map (fun p => (fst p, sadd (Sym (fst p)) (smul (Num t) (Sym (snd p))))) (combine x dx)) =
  Some (sadd (Sym (nth i x EmptyString)) (smul (Num t) (Sym (nth i dx EmptyString)))).
Proof.
  induction x as [|a x IH]; intros [|b dx] i ND L Hi; try discriminate; [cbn in Hi; lia|].
  inversion ND as [|? ? Ha ND']; subst. cbn [combine map assoc fst snd].
  destruct i as [|i]; cbn [nth]; [now rewrite String.eqb_refl|].
  cbn in Hi, L. destruct (String.eqb_spec a (nth i x EmptyString)) as [E|_].
  - exfalso. apply Ha. rewrite E. apply nth_In. lia.
  - apply IH; [exact ND'|lia|lia].
Qed.

Lemma shifts_eval t x dx r r' e : NoDup x -> length dx = length x -> (forall s, In s dx -> ~ In s x) ->
  moved (Q2R t) r x dx r' -> eval r (subs (shifts t x dx) e) = eval r' e.
Proof.
  intros ND L D [M1 M2]. rewrite shifts_eq by assumption.
  rewrite subs_through by (now apply shifts_forward). apply eval_same. intros s. unfold through.
  destruct (in_dec string_dec s x) as [Hi|Hn].
  - apply (In_nth _ _ EmptyString) in Hi. destruct Hi as (i & Hi & <-).
    rewrite assoc_shift by assumption. rewrite eval_sadd, eval_smul. cbn. symmetry. now apply M1.
  - rewrite assoc_notin; [symmetry; now apply M2|]. now rewrite map_fst_shift, fst_combine.
Qed.

(** The moved valuation exists. *)
Fixpoint move_env (theta : R) (r : env) (l : list (string * string)) : env :=
  match l with
  | [] => r
  | (x, d) :: l' => fun s => if String.eqb s x then r x + theta * r d else move_env theta r l' s
  end.
Lemma move_env_moved th r x : forall dx, NoDup x -> length dx = length x ->
  moved th r x dx (move_env th r (combine x dx)).
Proof.
  induction x as [|a x IH]; intros [|b dx] ND L; try discriminate.
  - split; [cbn; lia|]. intros; reflexivity.
  - inversion ND as [|? ? Ha ND']; subst. destruct (IH dx ND' ltac:(cbn in L; lia)) as [H1 H2]. split.
    + intros [|i] Hi; cbn [combine move_env nth].
      * now rewrite String.eqb_refl.
      * cbn in Hi. destruct (String.eqb_spec (nth i x EmptyString) a) as [E|_].
        { exfalso. apply Ha. rewrite <- E. apply nth_In. lia. }
        apply H1. lia.
    + intros s Hs. cbn [combine move_env]. destruct (String.eqb_spec s a) as [->|_]; [exfalso; apply Hs; now left|].
      apply H2. intros Hi. apply Hs. now right.
Qed.

(** ** One variable *)

Lemma map_combine_nth {A B} (x : list A) : forall (y : list B) i d d', length y = length x -> (i < length x)%nat ->
  nth i (combine x y) (d, d') = (nth i x d, nth i y d').
Proof.
  induction x as [|a x IH]; intros [|b y] i d d' L H; try discriminate; cbn in *; try lia.
  destruct i; [reflexivity|]. apply IH; lia.
Qed.

Lemma mono_ok H x dx tol : length dx = length x ->
  discrete_gradient_monovar H x dx tol = Ok (map (mono_component H tol) (combine x dx)).
Proof. intros L. unfold discrete_gradient_monovar, same_len. now rewrite L, Nat.eqb_refl. Qed.

Lemma nth_mono H tol x dx i : length dx = length x -> (i < length x)%nat ->
  nth i (map (mono_component H tol) (combine x dx)) (Num 0) =
  mono_component H tol (nth i x EmptyString, nth i dx EmptyString).
Proof.
  intros L Hi. rewrite (nth_indep _ _ (mono_component H tol (EmptyString, EmptyString))).
  - rewrite map_nth. f_equal. now apply map_combine_nth.
  - rewrite map_length, combine_length, L. lia.
Qed.

Lemma mono_out r H tol xi dxi : 0 < Q2R tol -> r dxi < - Q2R tol \/ Q2R tol <= r dxi ->
  eval r (mono_component H tol (xi, dxi)) * r dxi = eval (upd r xi (r xi + r dxi)) H - eval r H.
Proof.
  intros Ht Hd. cbn [mono_component]. unfold piecewise3. cbn [eval].
  assert (Hn : r dxi <> 0) by lra.
  rewrite Q2R_opp.
  assert (E : eval r (smul (ssub (subs [(xi, sadd (Sym xi) (Sym dxi))] H) H) (Inv (Sym dxi))) * r dxi =
     eval (upd r xi (r xi + r dxi)) H - eval r H).
  { rewrite eval_smul, eval_ssub. cbn [eval]. unfold subs. cbn [fold_left].
    rewrite eval_subst1, eval_sadd. cbn [eval]. field. exact Hn. }
  destruct (Rlt_dec (r dxi) (- Q2R tol)); [exact E|].
  destruct (Rlt_dec (r dxi) (Q2R tol)); [lra|exact E].
Qed.

Lemma mono_in r H tol xi dxi : - Q2R tol <= r dxi -> r dxi < Q2R tol ->
  eval r (mono_component H tol (xi, dxi)) = eval r (diff xi H) + 1/2 * eval r (diff xi (diff xi H)) * r dxi.
Proof.
  intros H1 H2. cbn [mono_component]. unfold piecewise3. cbn [eval]. rewrite Q2R_opp.
  destruct (Rlt_dec (r dxi) (- Q2R tol)); [lra|]. destruct (Rlt_dec (r dxi) (Q2R tol)); [|lra].
  rewrite eval_sadd, !eval_smul. cbn. rewrite Q2R_half. lra.
Qed.

(** ** Several variables *)

Lemma eval_esum_acc r l : forall a, eval r (fold_left sadd l a) = eval r a + fold_right Rplus 0 (map (eval r) l).
Proof.
  induction l as [|e l IH]; intros a; cbn; [lra|]. rewrite IH, eval_sadd. lra.
Qed.
Lemma eval_esum r l : eval r (esum l) = fold_right Rplus 0 (map (eval r) l).
Proof. unfold esum. rewrite eval_esum_acc. cbn. rewrite Q2R_0. lra. Qed.

Lemma theta_ok H x dx t : length dx = length x ->
  gradient_theta H x dx t = Ok (map (subs (shifts t x dx)) (gradient H x)).
Proof. intros L. unfold gradient_theta, same_len. now rewrite L, Nat.eqb_refl. Qed.

Lemma trapez_ok H x dx : length dx = length x ->
  gradient_trapez H x dx =
  Ok (map (fun g => smul (Num (1#2)) (sadd g (subs (shifts 1 x dx) g))) (gradient H x)).
Proof. intros L. unfold gradient_trapez, same_len. now rewrite L, Nat.eqb_refl. Qed.

Definition multi_corr (H : expr) (x dx : list string) (tol : Q) (g : list expr) : expr :=
  piecewise3 (esum (map (fun d => spow (Sym d) 2) dx)) (tol * tol)
    (smul (ssub (ssub (subs (shifts 1 x dx) H) H)
                (esum (map (fun p => smul (fst p) (Sym (snd p))) (combine g dx))))
          (Inv (esum (map (fun d => spow (Sym d) 2) dx)))) (Num 0).

Lemma multi_ok H x dx tol : length dx = length x ->
  discrete_gradient_multivar H x dx tol =
  let g := map (subs (shifts (1#2) x dx)) (gradient H x) in
  Ok (map (fun p => sadd (fst p) (smul (multi_corr H x dx tol g) (Sym (snd p)))) (combine g dx)).
Proof.
  intros L. unfold discrete_gradient_multivar, same_len. rewrite L, Nat.eqb_refl, theta_ok by exact L. reflexivity.
Qed.

Lemma eval_norm2 r dx : eval r (esum (map (fun d => spow (Sym d) 2) dx)) = norm2 r dx.
Proof.
  rewrite eval_esum, map_map. unfold norm2. f_equal.
Qed.

Lemma eval_work r g dx :
  eval r (esum (map (fun p => smul (fst p) (Sym (snd p))) (combine g dx))) = work r g dx.
Proof.
  rewrite eval_esum, map_map. unfold work. f_equal. apply map_ext. intros p. now rewrite eval_smul.
Qed.

Lemma work_corr r k g : forall dx, length g = length dx ->
  work r (map (fun p => sadd (fst p) (smul k (Sym (snd p)))) (combine g dx)) dx =
  work r g dx + eval r k * norm2 r dx.
Proof.
  induction g as [|a g IH]; intros [|d dx] L; try discriminate; unfold work, norm2 in *; cbn -[pow]; [lra|].
  rewrite IH by (cbn in L; lia). rewrite eval_sadd, eval_smul. cbn [eval fst snd]. ring.
Qed.

Lemma multi_work H x dx tol g r r1 : NoDup x -> length dx = length x -> (forall s, In s dx -> ~ In s x) ->
  0 < Q2R tol -> Q2R tol ^ 2 <= norm2 r dx -> moved 1 r x dx r1 ->
  discrete_gradient_multivar H x dx tol = Ok g ->
  work r g dx = eval r1 H - eval r H.
Proof.
  intros ND L D Ht Hn M E. rewrite multi_ok in E by exact L. injection E as <-.
  set (g := map (subs (shifts (1#2) x dx)) (gradient H x)).
  rewrite work_corr by (unfold g, gradient; rewrite !map_length; lia).
  unfold multi_corr, piecewise3. cbn [eval]. rewrite eval_norm2, Q2R_opp, Q2R_mult.
  assert (P : 0 < Q2R tol * Q2R tol) by nra. cbn in Hn.
  destruct (Rlt_dec (norm2 r dx) (- (Q2R tol * Q2R tol))); [lra|].
  destruct (Rlt_dec (norm2 r dx) (Q2R tol * Q2R tol)); [lra|].
  rewrite eval_smul, !eval_ssub, eval_work. cbn [eval]. rewrite eval_norm2.
  rewrite (shifts_eval 1 x dx r r1 H ND L D) by (now rewrite Q2R_1).
  field. lra.
Qed.

Lemma norm2_zero r dx : (forall s, In s dx -> r s = 0) -> norm2 r dx = 0.
Proof.
  unfold norm2. induction dx as [|d dx IH]; intros H; cbn; [reflexivity|].
  rewrite (H d) by now left. cbn in IH. rewrite IH; [ring|]. intros; apply H; now right.
Qed.

Lemma moved_zero t r x dx : (forall s, In s dx -> r s = 0) -> length dx = length x -> moved t r x dx r.
Proof.
  intros H L. split; [|reflexivity]. intros i Hi. rewrite (H (nth i dx EmptyString)); [ring|].
  apply nth_In. lia.
Qed.

Lemma gradient_nth H x i : (i < length x)%nat -> nth i (gradient H x) (Num 0) = diff (nth i x EmptyString) H.
Proof.
  intros Hi. unfold gradient. rewrite (nth_indep _ _ (diff EmptyString H)) by (now rewrite map_length).
  apply (map_nth (fun x => diff x H)).
Qed.

Lemma theta_nth H x dx t g r r' i : NoDup x -> length dx = length x -> (forall s, In s dx -> ~ In s x) ->
  gradient_theta H x dx t = Ok g -> moved (Q2R t) r x dx r' -> (i < length x)%nat ->
  eval r (nth i g (Num 0)) = eval r' (diff (nth i x EmptyString) H).
Proof.
  intros ND L D E M Hi. rewrite theta_ok in E by exact L. injection E as <-.
  rewrite (nth_indep _ _ (subs (shifts t x dx) (Num 0))) by (unfold gradient; now rewrite !map_length).
  rewrite map_nth, gradient_nth by exact Hi. now apply shifts_eval.
Qed.

Lemma trapez_nth H x dx g r r' i : NoDup x -> length dx = length x -> (forall s, In s dx -> ~ In s x) ->
  gradient_trapez H x dx = Ok g -> moved 1 r x dx r' -> (i < length x)%nat ->
  eval r (nth i g (Num 0)) =
  1/2 * (eval r (diff (nth i x EmptyString) H) + eval r' (diff (nth i x EmptyString) H)).
Proof.
  intros ND L D E M Hi. rewrite trapez_ok in E by exact L. injection E as <-.
  set (f := fun g => smul (Num (1#2)) (sadd g (subs (shifts 1 x dx) g))).
  rewrite (nth_indep _ _ (f (Num 0))) by (unfold gradient; now rewrite !map_length).
  rewrite map_nth, gradient_nth by exact Hi. unfold f. rewrite eval_smul, eval_sadd.
  rewrite (shifts_eval 1 x dx r r' _ ND L D) by (now rewrite Q2R_1). cbn [eval]. rewrite Q2R_half. lra.
Qed.

Lemma multi_zero H x dx tol g r i : NoDup x -> length dx = length x -> (forall s, In s dx -> ~ In s x) ->
  0 < Q2R tol -> (forall s, In s dx -> r s = 0) ->
  discrete_gradient_multivar H x dx tol = Ok g -> (i < length x)%nat ->
  eval r (nth i g (Num 0)) = eval r (diff (nth i x EmptyString) H).
Proof.
  intros ND L D Ht Hz E Hi. rewrite multi_ok in E by exact L. injection E as <-.
  set (g := map (subs (shifts (1#2) x dx)) (gradient H x)).
  set (f := fun p => sadd (fst p) (smul (multi_corr H x dx tol g) (Sym (snd p)))).
  assert (Lg : length g = length x) by (unfold g, gradient; now rewrite !map_length).
  rewrite (nth_indep _ _ (f (Num 0, EmptyString))) by (rewrite map_length, combine_length; lia).
  rewrite map_nth. rewrite map_combine_nth by lia. unfold f. cbn [fst snd].
  rewrite eval_sadd, eval_smul. cbn [eval].
  rewrite (Hz (nth i dx EmptyString)) by (apply nth_In; lia).
  rewrite (theta_nth H x dx (1#2) g r r i ND L D (theta_ok H x dx (1#2) L)
             (moved_zero (Q2R (1#2)) r x dx Hz L) Hi). ring.
Qed.

(** ** Quadratic energies *)

Definition quad (n : nat) (A : nat -> nat -> R) (b : nat -> R) (c : R) (v : nat -> R) : R :=
  1/2 * rsum n (fun i => rsum n (fun j => A i j * v i * v j)) + rsum n (fun i => b i * v i) + c.
Definition qgrad (n : nat) (A : nat -> nat -> R) (b : nat -> R) (v : nat -> R) (i : nat) : R :=
  1/2 * rsum n (fun j => (A i j + A j i) * v j) + b i.

Lemma quad_expand n A b c v h :
  quad n A b c (fun i => v i + h i) =
  quad n A b c v + rsum n (fun i => h i * qgrad n A b v i) + 1/2 * rsum n (fun i => rsum n (fun j => A i j * h i * h j)).
Proof.
  unfold quad, qgrad.
  rewrite (rsum_ext n (fun i => rsum n (fun j => A i j * (v i + h i) * (v j + h j)))
     (fun i => rsum n (fun j => A i j * v i * v j) +
               (h i * rsum n (fun j => A i j * v j) + (rsum n (fun j => A i j * v i * h j) +
               rsum n (fun j => A i j * h i * h j))))).
  2:{ intros i _. rewrite <- rsum_scal, <- !rsum_plus. apply rsum_ext. intros j _. ring. }
  rewrite rsum_plus, rsum_plus, rsum_plus.
  rewrite (rsum_swap n n (fun i j => A i j * v i * h j)).
  rewrite (rsum_ext n (fun i => b i * (v i + h i)) (fun i => b i * v i + h i * b i)) by (intros; ring).
  rewrite rsum_plus.
  rewrite (rsum_ext n (fun i => h i * (1/2 * rsum n (fun j => (A i j + A j i) * v j) + b i))
     (fun i => 1/2 * (h i * rsum n (fun j => A i j * v j)) +
               (1/2 * rsum n (fun j => A j i * v j * h i) + h i * b i))).
  2:{ intros i _. rewrite (rsum_ext n (fun j => (A i j + A j i) * v j) (fun j => A i j * v j + A j i * v j)) by (intros; ring).
      rewrite rsum_plus. rewrite (rsum_scal_r n (h i)). ring. }
  rewrite rsum_plus, rsum_plus, !rsum_scal. ring.
Qed.

Lemma parabola_derivative f t g k : (forall h, f (t + h) = f t + h * g + k * h ^ 2) -> derivable_pt_lim f t g.
Proof.
  intros H eps He.
  assert (P : 0 < eps / (Rabs k + 1)).
  { apply Rdiv_lt_0_compat; [exact He|]. pose proof (Rabs_pos k). lra. }
  exists (mkposreal _ P). cbn. intros h Hn Hh. rewrite H.
  replace ((f t + h * g + k * h ^ 2 - f t) / h - g) with (k * h) by (field; exact Hn).
  rewrite Rabs_mult. pose proof (Rabs_pos k). pose proof (Rabs_pos h).
  apply Rle_lt_trans with ((Rabs k + 1) * Rabs h); [nra|].
  replace eps with ((Rabs k + 1) * (eps / (Rabs k + 1))) at 1 by (field; lra).
  apply Rmult_lt_compat_l; lra.
Qed.

Lemma rsum_one n i (a : R) (f : nat -> R) : (i < n)%nat ->
  rsum n (fun j => (if Nat.eqb j i then a else 0) * f j) = a * f i.
Proof.
  induction n as [|n IH]; intros Hi; [lia|]. cbn.
  destruct (Nat.eqb_spec n i) as [->|Hn].
  - rewrite rsum_zero; [ring|]. intros k Hk. destruct (Nat.eqb_spec k i); [lia|ring].
  - rewrite IH by lia. ring.
Qed.

Lemma quadratic_gradient r H x A b c r' i : NoDup x -> quadratic r H x A b c -> agree_off x r r' ->
  (i < length x)%nat ->
  eval r' (diff (nth i x EmptyString) H) =
  qgrad (length x) A b (fun j => r' (nth j x EmptyString)) i.
Proof.
  intros ND Q AG Hi. set (xi := nth i x EmptyString).
  pose proof (diff_partial r' xi H (proj1 (Q r' AG))) as D1.
  set (v := fun j => r' (nth j x EmptyString)).
  eapply uniqueness_limite; [exact D1|].
  apply parabola_derivative with (k := 1/2 * A i i). intros h.
  assert (EQ : forall t, eval (upd r' xi t) H =
     quad (length x) A b c (fun j => v j + if Nat.eqb j i then t - r' xi else 0)).
  { intros t. assert (AG' : agree_off x r (upd r' xi t)).
    { intros s Hs. rewrite upd_neq; [now apply AG|]. intros ->. apply Hs. unfold xi. now apply nth_In. }
    rewrite (proj2 (Q _ AG')). unfold quad.
    assert (V : forall j, (j < length x)%nat ->
      upd r' xi t (nth j x EmptyString) = v j + (if Nat.eqb j i then t - r' xi else 0)).
    { intros j Hj. destruct (Nat.eqb_spec j i) as [->|Hn].
      - rewrite upd_eq. unfold v. fold xi. ring.
      - rewrite upd_neq; [unfold v; ring|]. unfold xi. intros E.
        apply Hn. eapply (proj1 (NoDup_nth x EmptyString)); eassumption. }
    rewrite (rsum_ext _ (fun i => rsum _ _) (fun i0 => rsum (length x) (fun j => A i0 j *
       (v i0 + (if Nat.eqb i0 i then t - r' xi else 0)) * (v j + (if Nat.eqb j i then t - r' xi else 0))))).
    2:{ intros k Hk. apply rsum_ext. intros j Hj. now rewrite !V. }
    rewrite (rsum_ext _ (fun i => b i * _) (fun i0 => b i0 * (v i0 + (if Nat.eqb i0 i then t - r' xi else 0)))).
    2:{ intros k Hk. now rewrite V. }
    reflexivity. }
  rewrite !EQ, !quad_expand.
  replace (r' xi + h - r' xi) with h by ring. replace (r' xi - r' xi) with 0 by ring.
  rewrite !rsum_one by exact Hi.
  assert (Z : forall a, rsum (length x) (fun i0 => rsum (length x) (fun j =>
      A i0 j * (if Nat.eqb i0 i then a else 0) * (if Nat.eqb j i then a else 0))) = a ^ 2 * A i i).
  { intros a. rewrite (rsum_ext _ _ (fun i0 => (if Nat.eqb i0 i then a else 0) * (a * A i0 i))).
    - rewrite rsum_one by exact Hi. ring.
    - intros k Hk. rewrite (rsum_ext _ _ (fun j => (if Nat.eqb j i then a else 0) * (A k j * (if Nat.eqb k i then a else 0)))) by (intros; ring).
      rewrite rsum_one by exact Hi. ring. }
  rewrite !Z. ring.
Qed.

Lemma work_nth r g dx : length g = length dx ->
  work r g dx = rsum (length dx) (fun i => eval r (nth i g (Num 0)) * r (nth i dx EmptyString)).
Proof.
  unfold work. revert dx. induction g as [|a g IH]; intros [|d dx] L; try discriminate; [reflexivity|].
  cbn [combine map fold_right length]. rewrite IH by (cbn in L; lia).
  change (S (length dx)) with (1 + length dx)%nat. rewrite rsum_app. cbn. ring.
Qed.

Lemma quadratic_theta r H x dx A b c t g r1 : NoDup x -> length dx = length x -> (forall s, In s dx -> ~ In s x) ->
  quadratic r H x A b c -> gradient_theta H x dx t = Ok g -> moved 1 r x dx r1 ->
  work r g dx = eval r1 H - eval r H + (Q2R t - 1/2) * qform r (length x) dx A.
Proof.
  intros ND L D Q E M.
  assert (Lg : length g = length dx).
  { rewrite theta_ok in E by exact L. injection E as <-. unfold gradient. rewrite !map_length. lia. }
  pose proof (move_env_moved (Q2R t) r x dx ND L) as Mt. set (rt := move_env (Q2R t) r (combine x dx)) in *.
  rewrite work_nth, L by exact Lg.
  set (v := fun j => r (nth j x EmptyString)). set (h := fun j => r (nth j dx EmptyString)).
  rewrite (rsum_ext _ _ (fun i => h i * qgrad (length x) A b v i + Q2R t * (h i * (1/2 * rsum (length x) (fun j => (A i j + A j i) * h j))))).
  2:{ intros i Hi. rewrite (theta_nth H x dx t g r rt i ND L D E Mt Hi).
      rewrite (quadratic_gradient r H x A b c rt i ND Q (proj2 Mt) Hi). unfold qgrad.
      rewrite (rsum_ext (length x) (fun j => (A i j + A j i) * rt (nth j x EmptyString))
        (fun j => (A i j + A j i) * v j + Q2R t * ((A i j + A j i) * h j))).
      - rewrite rsum_plus, rsum_scal. unfold h, v. ring.
      - intros j Hj. rewrite (proj1 Mt j Hj). unfold v, h. ring. }
  assert (E1 : eval r1 H = quad (length x) A b c (fun i => v i + h i)).
  { rewrite (proj2 (Q r1 (proj2 M))). unfold quad.
    rewrite (rsum_ext _ (fun i => rsum _ _) (fun i => rsum (length x) (fun j => A i j * (v i + h i) * (v j + h j)))).
    2:{ intros i Hi. apply rsum_ext. intros j Hj. rewrite (proj1 M i Hi), (proj1 M j Hj). unfold v, h. ring. }
    rewrite (rsum_ext _ (fun i => b i * _) (fun i => b i * (v i + h i))).
    2:{ intros i Hi. rewrite (proj1 M i Hi). unfold v, h. ring. }
    reflexivity. }
  assert (E0 : eval r H = quad (length x) A b c v).
  { rewrite (proj2 (Q r (fun s _ => eq_refl))). reflexivity. }
  rewrite E1, E0, quad_expand, rsum_plus, rsum_scal. unfold qform. fold h.
  assert (S1 : rsum (length x) (fun i => h i * (1/2 * rsum (length x) (fun j => (A i j + A j i) * h j))) =
     rsum (length x) (fun i => rsum (length x) (fun j => A i j * h i * h j))).
  { rewrite (rsum_ext _ _ (fun i => 1/2 * (rsum (length x) (fun j => A i j * h i * h j) + rsum (length x) (fun j => A j i * h j * h i)))).
    - rewrite rsum_scal, rsum_plus, (rsum_swap (length x) (length x) (fun i j => A j i * h j * h i)). lra.
    - intros i _. rewrite <- rsum_plus. rewrite <- !rsum_scal. apply rsum_ext. intros j _. ring. }
  rewrite S1. fold (h). unfold h. lra.
Qed.

Lemma quadratic_trapez r H x dx A b c g r1 : NoDup x -> length dx = length x -> (forall s, In s dx -> ~ In s x) ->
  quadratic r H x A b c -> gradient_trapez H x dx = Ok g -> moved 1 r x dx r1 ->
  work r g dx = eval r1 H - eval r H.
Proof.
  intros ND L D Q E M.
  assert (Lg : length g = length dx).
  { rewrite trapez_ok in E by exact L. injection E as <-. unfold gradient. rewrite !map_length. lia. }
  destruct (gradient_theta H x dx 0) as [g0|] eqn:E0; [|unfold gradient_theta, same_len in E0; rewrite L, Nat.eqb_refl in E0; discriminate].
  destruct (gradient_theta H x dx 1) as [g1|] eqn:E1; [|unfold gradient_theta, same_len in E1; rewrite L, Nat.eqb_refl in E1; discriminate].
  pose proof (quadratic_theta r H x dx A b c 0 g0 r1 ND L D Q E0 M) as W0.
  pose proof (quadratic_theta r H x dx A b c 1 g1 r1 ND L D Q E1 M) as W1.
  rewrite Q2R_0 in W0. rewrite Q2R_1 in W1.
  assert (L0 : length g0 = length dx).
  { rewrite theta_ok in E0 by exact L. injection E0 as <-. unfold gradient. rewrite !map_length. lia. }
  assert (L1 : length g1 = length dx).
  { rewrite theta_ok in E1 by exact L. injection E1 as <-. unfold gradient. rewrite !map_length. lia. }
  assert (W : work r g dx = 1/2 * (work r g0 dx + work r g1 dx)).
  { rewrite !work_nth by assumption. rewrite <- rsum_plus, <- rsum_scal. apply rsum_ext. intros i Hi.
    rewrite L in Hi.
    rewrite (trapez_nth H x dx g r r1 i ND L D E M Hi).
    assert (M0 : moved (Q2R 0) r x dx r).
    { rewrite Q2R_0. split; [intros; ring|reflexivity]. }
    rewrite (theta_nth H x dx 0 g0 r r i ND L D E0 M0 Hi).
    assert (M1 : moved (Q2R 1) r x dx r1) by (now rewrite Q2R_1).
    rewrite (theta_nth H x dx 1 g1 r r1 i ND L D E1 M1 Hi). ring. }
  rewrite W, W0, W1. lra.
Qed.
