(** Concrete cases for the theorems on gradients. *)
From Coq Require Import String List ZArith QArith Qreals Reals Bool Lra Lia.
From Verif Require Import Py Expr RSum Mat Core ExprProofs Spec_Calculus Calculus Deriv CalculusProofs.
Import ListNotations.
Local Open Scope string_scope.
Local Open Scope list_scope.
Local Open Scope R_scope.

(** Lemmas in the form of the theorems. *)
Lemma mono_chain : forall H x dx tol g r i, length dx = length x ->
  discrete_gradient_monovar H x dx tol = Ok g -> (i < length x)%nat -> 0 < Q2R tol ->
  r (nth i dx "") < - Q2R tol \/ Q2R tol <= r (nth i dx "") ->
  eval r (nth i g (Num 0)) * r (nth i dx "") =
  eval (upd r (nth i x "") (r (nth i x "") + r (nth i dx ""))) H - eval r H.
Proof.
  intros H x dx tol g r i L E Hi Ht Hd. rewrite mono_ok in E by exact L. injection E as <-.
  rewrite nth_mono by assumption. now apply mono_out.
Qed.

Lemma mono_derivative : forall H x dx tol g r i, length dx = length x ->
  discrete_gradient_monovar H x dx tol = Ok g -> (i < length x)%nat -> 0 < Q2R tol ->
  r (nth i dx "") = 0 -> smooth r H ->
  is_partial r (nth i x "") H (eval r (nth i g (Num 0))).
Proof.
  intros H x dx tol g r i L E Hi Ht Hd S. rewrite mono_ok in E by exact L. injection E as <-.
  rewrite nth_mono by assumption. rewrite mono_in by lra. rewrite Hd.
  replace (eval r (diff (nth i x "") H) + 1/2 * eval r (diff (nth i x "") (diff (nth i x "") H)) * 0)
    with (eval r (diff (nth i x "") H)) by ring.
  now apply diff_partial.
Qed.

Lemma mono_accepts : forall H x dx tol,
  (length dx = length x -> exists g, discrete_gradient_monovar H x dx tol = Ok g /\ length g = length x) /\
  (length dx <> length x -> discrete_gradient_monovar H x dx tol = Err AssertionError).
Proof.
  intros H x dx tol. split; intros L.
  - rewrite mono_ok by exact L. eexists. split; [reflexivity|]. rewrite map_length, combine_length. lia.
  - unfold discrete_gradient_monovar, same_len. now destruct (Nat.eqb_spec (length dx) (length x)).
Qed.

Lemma cubic_small : forall tol, 0 < Q2R tol -> exists g r,
  discrete_gradient_monovar (Pow (Sym "x") 3) ["x"] ["dx"] tol = Ok g /\
  0 < r "dx" < Q2R tol /\
  eval r (nth 0 g (Num 0)) * r "dx" <>
  eval (upd r "x" (r "x" + r "dx")) (Pow (Sym "x") 3) - eval r (Pow (Sym "x") 3).
Proof.
  intros tol Ht. exists (map (mono_component (Pow (Sym "x") 3) tol) [("x", "dx")]).
  exists (fun s => if String.eqb s "dx" then Q2R tol / 2 else 0).
  split; [now rewrite mono_ok|]. split; [cbn; lra|]. cbn [map nth].
  rewrite mono_in by (cbn; lra). set (d := Q2R tol) in *. clearbody d.
  cbn -[smul sadd spow diff]. rewrite !diff_dird. cbn -[smul sadd spow].
  cbn. unfold Q2R. cbn.
  assert (0 < d / 2 * (d / 2) * (d / 2)) by (repeat apply Rmult_lt_0_compat; lra). nra.
Qed.

Lemma multi_accepts : forall H x dx tol,
  (length dx = length x -> exists g, discrete_gradient_multivar H x dx tol = Ok g /\ length g = length x) /\
  (length dx <> length x -> discrete_gradient_multivar H x dx tol = Err AssertionError).
Proof.
  intros H x dx tol. split; intros L.
  - rewrite multi_ok by exact L. eexists. split; [reflexivity|].
    unfold gradient. rewrite map_length, combine_length, !map_length. lia.
  - unfold discrete_gradient_multivar, same_len. now destruct (Nat.eqb_spec (length dx) (length x)).
Qed.

Lemma multi_derivative : forall H x dx tol g r i, NoDup x -> length dx = length x ->
  (forall s, In s dx -> ~ In s x) -> 0 < Q2R tol -> (forall s, In s dx -> r s = 0) ->
  discrete_gradient_multivar H x dx tol = Ok g -> (i < length x)%nat -> smooth r H ->
  is_partial r (nth i x "") H (eval r (nth i g (Num 0))).
Proof.
  intros H x dx tol g r i ND L D Ht Hz E Hi S.
  rewrite (multi_zero H x dx tol g r i ND L D Ht Hz E Hi). now apply diff_partial.
Qed.

Lemma gradient_partial : forall H x r i, smooth r H -> (i < length x)%nat ->
  is_partial r (nth i x "") H (eval r (nth i (gradient H x) (Num 0))).
Proof. intros H x r i S Hi. rewrite gradient_nth by exact Hi. now apply diff_partial. Qed.

Lemma jacobian_partial : forall f x r i j, (i < length f)%nat -> (j < length x)%nat ->
  smooth r (nth i f (Num 0)) ->
  is_partial r (nth j x "") (nth i f (Num 0)) (eval r (ent (jacobian f x) i j)).
Proof. intros f x r i j Hi Hj S. cbn [jacobian ent]. now apply diff_partial. Qed.

Lemma hessian_partial : forall H x r i j, smooth r H -> (i < length x)%nat -> (j < length x)%nat ->
  exists (g : env -> R) (eps : R), 0 < eps /\
    (forall h, Rabs h < eps ->
       let r' := upd r (nth j x "") (r (nth j x "") + h) in is_partial r' (nth i x "") H (g r')) /\
    derivable_pt_lim (fun t => g (upd r (nth j x "") t)) (r (nth j x "")) (eval r (ent (hessian H x) i j)).
Proof.
  intros H x r i j S Hi Hj. exists (fun r' => eval r' (diff (nth i x "") H)).
  destruct (smooth_open r (nth j x "") H S) as (eps & He & HS). exists eps. split; [exact He|]. split.
  - intros h Hh. apply diff_partial. now apply HS.
  - unfold hessian. cbn [jacobian ent]. rewrite gradient_nth by exact Hi.
    apply (diff_partial r (nth j x "") (diff (nth i x "") H)). now apply smooth_diff.
Qed.

Lemma energy_rate : forall c (g : R -> env) (v : env) t, c_dxH c = None -> NoDup (c_x c) ->
  smooth (g t) (c_H c) ->
  (forall s, In s (c_x c) -> derivable_pt_lim (fun t => g t s) t (v s)) ->
  (forall s, ~ In s (c_x c) -> derivable_pt_lim (fun t => g t s) t 0) ->
  derivable_pt_lim (fun t => eval (g t) (c_H c)) t
    (rsum (length (c_x c)) (fun i => eval (g t) (nth i (dxH c) (Num 0)) * v (nth i (c_x c) ""))).
Proof.
  intros c g v t Hd ND S H1 H2.
  pose proof (rate_of_change g v t (c_H c) (c_x c) S ND H1 H2) as C.
  unfold dxH. rewrite Hd.
  replace (rsum _ _) with (fold_right (fun s acc => v s * eval (g t) (diff s (c_H c)) + acc) 0 (c_x c)); [exact C|].
  clear. generalize (c_H c) as H. generalize (c_x c) as x. induction x as [|a x IH]; intros H; [reflexivity|].
  cbn [fold_right length]. change (S (length x)) with (1 + length x)%nat. rewrite rsum_app, IH.
  unfold gradient. cbn [rsum map nth Nat.add]. ring.
Qed.

(** A stiffening spring with a coupling. *)
Definition springs : expr :=
  Add (Mul (Num (1#2)) (Mul (Sym "k") (Pow (Sym "x1") 2)))
      (Add (Pow (Sym "x2") 4) (Mul (Sym "x1") (Sym "x2"))).
Definition springs_env : env := fun s =>
  if String.eqb s "k" then 3 else if String.eqb s "x1" then 1 else if String.eqb s "x2" then 2
  else if String.eqb s "dx1" then 1/4 else if String.eqb s "dx2" then -1 else 0.

Lemma springs_moved : moved 1 springs_env ["x1"; "x2"] ["dx1"; "dx2"]
  (upd (upd springs_env "x1" (5/4)) "x2" 1).
Proof.
  split.
  - intros [|[|i]] Hi; cbn in *; [| |lia]; unfold upd; cbn; lra.
  - intros s Hs. rewrite !upd_neq; [reflexivity|..]; intros ->; apply Hs; cbn; auto.
Qed.

Lemma Q2R_eps : Q2R (1 # 1024) = 1 / 1024.
Proof. unfold Q2R. cbn. lra. Qed.

(** The energy difference of the example is not zero. *)
Lemma springs_difference :
  eval (upd (upd springs_env "x1" (5/4)) "x2" 1) springs - eval springs_env springs = -477/32.
Proof. cbn. unfold upd, springs_env, Q2R. cbn. lra. Qed.

Lemma springs_smooth : smooth springs_env springs.
Proof. cbn. tauto. Qed.

(** Two coupled linear springs. *)
Definition qsprings : expr :=
  Add (Mul (Num (1#2)) (Mul (Sym "k") (Pow (Sym "x1") 2)))
      (Add (Mul (Sym "x1") (Sym "x2")) (Mul (Num 2) (Sym "x2"))).
Lemma qsprings_quadratic : quadratic springs_env qsprings ["x1"; "x2"]
  (fun i j => match i, j with O, O => 3 | O, S O | S O, O => 1 | _, _ => 0 end)
  (fun i => match i with S O => 2 | _ => 0 end) 0.
Proof.
  intros r' AG. split; [cbn; tauto|]. cbn.
  assert (E : r' "k" = 3) by (rewrite AG; [reflexivity|]; cbn; intros [H|[H|[]]]; discriminate).
  rewrite E. unfold Q2R. cbn. lra.
Qed.
Lemma qsprings_form : qform springs_env 2 ["dx1"; "dx2"]
  (fun i j => match i, j with O, O => 3 | O, S O | S O, O => 1 | _, _ => 0 end) = -5/16.
Proof. unfold qform, springs_env. cbn. lra. Qed.

(** A diode in parallel with a saturating inductor: smooth everywhere on
    [x < 1]. *)
Definition diode : expr :=
  Add (Mul (Sym "Is") (App Fexp (Mul (Sym "x") (Inv (Sym "v0")))))
      (App Fln (Add (Num 1) (Mul (Num (-1)) (Sym "x")))).
Definition diode_env : env := fun s => if String.eqb s "x" then 0 else 2.
Lemma diode_smooth : smooth diode_env diode.
Proof. cbn. unfold diode_env, Q2R. cbn. repeat split; lra. Qed.
Lemma diode_slope : eval diode_env (nth 0 (gradient diode ["x"]) (Num 0)) = 0.
Proof.
  cbn. unfold diode_env, Q2R. cbn. rewrite !Rmult_0_l, exp_0. field.
Qed.
