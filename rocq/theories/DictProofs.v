(** Proofs about the constitutive laws. *)
From Coq Require Import String List ZArith QArith Qreals Reals Bool Lra Lia Ranalysis5.
From Verif Require Import Py Expr ExprProofs RSum Mat Core Calculus CalculusProofs Spec_Calculus Deriv Spec_Subs SubsProofs Dict Spec_Dict.
Import ListNotations.
Local Open Scope string_scope.
Local Open Scope list_scope.
Local Open Scope R_scope.

(** ** Dissipative laws *)
Lemma gain_passive k : 0 <= k -> passive_law (fun w => k * w).
Proof. intros Hk w. replace (w * (k * w)) with (k * (w * w)) by ring. apply Rmult_le_pos; [assumption|]. nra. Qed.
Lemma passive_ext f g : (forall w, f w = g w) -> passive_law f -> passive_law g.
Proof. intros H P w. rewrite <- H. apply P. Qed.
Lemma ratio_passive k : 0 < k -> passive_law (fun w => w / k).
Proof.
  intros Hk. apply passive_ext with (fun w => / k * w); [intros; unfold Rdiv; ring|].
  apply gain_passive. now apply Rlt_le, Rinv_0_lt_compat.
Qed.
Lemma ratio_gain_inverse k : 0 < k -> inverse_laws (fun w => w / k) (fun w => k * w) (fun _ => True).
Proof. intros Hk. repeat split; intros; field; lra. Qed.

Lemma linear_law inv k : 0 < k ->
  passive_law (e_ctrl (dissipative_linear inv k)) /\ passive_law (f_ctrl (dissipative_linear inv k)) /\
  inverse_laws (e_ctrl (dissipative_linear inv k)) (f_ctrl (dissipative_linear inv k)) (fun _ => True) /\
  forall w, e_ctrl (dissipative_linear inv k) w = (if inv then k else / k) * w.
Proof.
  intros Hk. destruct inv; cbn.
  - split; [apply gain_passive; lra|]. split; [now apply ratio_passive|]. split; [|reflexivity].
    repeat split; intros; field; lra.
  - split; [now apply ratio_passive|]. split; [apply gain_passive; lra|]. split; [now apply ratio_gain_inverse|].
    intros w. unfold Rdiv. ring.
Qed.

Lemma exp_law_passive a k : 0 < a -> 0 < k -> passive_law (fun w => a * (exp (w / k) - 1)).
Proof.
  intros Ha Hk w. destruct (Rtotal_order w 0) as [H|[H|H]].
  - assert (w / k < 0) by (unfold Rdiv; apply Rmult_lt_reg_r with k; [assumption|]; rewrite Rmult_assoc, Rinv_l; lra).
    pose proof (exp_increasing _ _ H0) as E. rewrite exp_0 in E.
    replace (w * (a * (exp (w / k) - 1))) with (a * ((- w) * (1 - exp (w / k)))) by ring.
    apply Rmult_le_pos; [lra|]. apply Rmult_le_pos; lra.
  - subst. lra.
  - assert (0 < w / k) by (unfold Rdiv; apply Rmult_lt_0_compat; [lra|]; now apply Rinv_0_lt_compat).
    pose proof (exp_increasing _ _ H0) as E. rewrite exp_0 in E.
    apply Rmult_le_pos; [lra|]. apply Rmult_le_pos; lra.
Qed.

(** The flux-controlled form is defined above the saturation current. *)
Lemma diode_inverse Is v0 mu : 0 < Is -> 0 < v0 -> 0 < mu ->
  inverse_laws (e_ctrl (diode_junction Is v0 mu)) (f_ctrl (diode_junction Is v0 mu)) (fun i => - Is < i).
Proof.
  intros HI Hv Hm. assert (Hk : 0 < mu * v0) by (apply Rmult_lt_0_compat; assumption).
  cbn. split; [|split].
  - intros w. pose proof (exp_pos (w / (mu * v0))). assert (0 < Is * exp (w / (mu * v0))) by (apply Rmult_lt_0_compat; lra). lra.
  - intros w. replace (Is * (exp (w / (mu * v0)) - 1) / Is + 1) with (exp (w / (mu * v0))) by (field; lra).
    rewrite ln_exp. field. split; lra.
  - intros w Hw.
    assert (Hp : 0 < w / Is + 1).
    { replace (w / Is + 1) with ((w + Is) * / Is) by (field; lra). apply Rmult_lt_0_compat; [lra|]. now apply Rinv_0_lt_compat. }
    replace (mu * v0 * ln (w / Is + 1) / (mu * v0)) with (ln (w / Is + 1)) by (field; split; lra).
    rewrite exp_ln by assumption. field. lra.
Qed.
Lemma diode_law Is v0 mu : 0 < Is -> 0 < v0 -> 0 < mu ->
  passive_law (e_ctrl (diode_junction Is v0 mu)) /\
  (forall i, - Is < i -> 0 <= i * f_ctrl (diode_junction Is v0 mu) i) /\
  inverse_laws (e_ctrl (diode_junction Is v0 mu)) (f_ctrl (diode_junction Is v0 mu)) (fun i => - Is < i).
Proof.
  intros HI Hv Hm. assert (Hk : 0 < mu * v0) by (apply Rmult_lt_0_compat; assumption).
  pose proof (exp_law_passive Is (mu * v0) HI Hk) as P.
  pose proof (diode_inverse Is v0 mu HI Hv Hm) as D.
  split; [exact P|]. split; [|exact D].
  intros i Hi. destruct D as (_ & _ & D). specialize (D i Hi).
  rewrite <- D at 1. rewrite Rmult_comm. apply P.
Qed.

Lemma diode_branches R_ g : 0 < R_ -> 0 < g ->
  passive_law (e_ctrl (diode_resistor R_)) /\ passive_law (f_ctrl (diode_resistor R_)) /\
  inverse_laws (e_ctrl (diode_resistor R_)) (f_ctrl (diode_resistor R_)) (fun _ => True) /\
  passive_law (e_ctrl (diode_gmin g)) /\ passive_law (f_ctrl (diode_gmin g)) /\
  inverse_laws (e_ctrl (diode_gmin g)) (f_ctrl (diode_gmin g)) (fun _ => True).
Proof.
  intros HR Hg. cbn.
  split; [now apply ratio_passive|]. split; [apply gain_passive; lra|]. split; [now apply ratio_gain_inverse|].
  split; [apply passive_ext with (fun w => g * w); [intros; ring|apply gain_passive; lra]|].
  split; [now apply ratio_passive|]. repeat split; intros; field; lra.
Qed.

Lemma bjt_func_mono Is Vt mu g a b : 0 < Is -> 0 < Vt -> 0 < mu -> 0 <= g ->
  0 <= (a - b) * (bjt_func Is Vt mu g a - bjt_func Is Vt mu g b).
Proof.
  intros HI HV Hm Hg. assert (Hk : 0 < mu * Vt) by (apply Rmult_lt_0_compat; assumption).
  unfold bjt_func.
  assert (G : forall a b, a < b -> exp (a / (mu * Vt)) < exp (b / (mu * Vt))).
  { intros x y H. apply exp_increasing. unfold Rdiv. apply Rmult_lt_compat_r; [now apply Rinv_0_lt_compat|assumption]. }
  replace ((a - b) * (Is * (exp (a / (mu * Vt)) - 1) + g * a - (Is * (exp (b / (mu * Vt)) - 1) + g * b)))
    with (Is * ((a - b) * (exp (a / (mu * Vt)) - exp (b / (mu * Vt)))) + g * ((a - b) * (a - b))) by ring.
  apply Rplus_le_le_0_compat.
  - apply Rmult_le_pos; [lra|]. destruct (Rtotal_order a b) as [H|[H|H]].
    + specialize (G a b H). rewrite <- Rmult_opp_opp. apply Rmult_le_pos; lra.
    + subst. rewrite Rminus_diag_eq by reflexivity. lra.
    + specialize (G b a H). apply Rmult_le_pos; lra.
  - apply Rmult_le_pos; [assumption|]. apply Rle_0_sqr.
Qed.
Lemma bjt_func_0 Is Vt mu g : bjt_func Is Vt mu g 0 = 0.
Proof. unfold bjt_func. replace (0 / (mu * Vt)) with 0 by (unfold Rdiv; ring). rewrite exp_0. ring. Qed.
Lemma bjt_law Is bR bF Vt mu g w1 w2 : 0 < Is -> 0 < bR -> 0 < bF -> 0 < Vt -> 0 < mu -> 0 <= g ->
  0 <= w1 * fst (bjt Is bR bF Vt mu g w1 w2) + w2 * snd (bjt Is bR bF Vt mu g w1 w2).
Proof.
  intros HI HR HF HV Hm Hg. unfold bjt. cbn [fst snd].
  pose proof (bjt_func_mono Is Vt mu g w1 w2 HI HV Hm Hg) as M.
  pose proof (bjt_func_mono Is Vt mu g w1 0 HI HV Hm Hg) as M1.
  pose proof (bjt_func_mono Is Vt mu g w2 0 HI HV Hm Hg) as M2.
  rewrite bjt_func_0 in M1, M2.
  set (f1 := bjt_func Is Vt mu g w1) in *. set (f2 := bjt_func Is Vt mu g w2) in *.
  replace (w1 * ((bR + 1) / bR * f1 + -1 * f2) + w2 * (-1 * f1 + (bF + 1) / bF * f2))
    with ((w1 - w2) * (f1 - f2) + / bR * ((w1 - 0) * (f1 - 0)) + / bF * ((w2 - 0) * (f2 - 0))) by (field; lra).
  apply Rplus_le_le_0_compat; [apply Rplus_le_le_0_compat; [assumption|]|];
    (apply Rmult_le_pos; [apply Rlt_le, Rinv_0_lt_compat; assumption|assumption]).
Qed.
(** *** Triode *)
Lemma tanh_bounds x : -1 < tanh x < 1.
Proof.
  unfold tanh, sinh, cosh. pose proof (exp_pos x). pose proof (exp_pos (- x)).
  set (a := exp x) in *. set (b := exp (- x)) in *.
  replace ((a - b) / 2 / ((a + b) / 2)) with ((a - b) / (a + b)) by (field; lra).
  assert (I : 0 < / (a + b)) by (apply Rinv_0_lt_compat; lra).
  assert (E : (a + b) * / (a + b) = 1) by (apply Rinv_r; lra).
  unfold Rdiv. split; nra.
Qed.
Lemma igk_bounds Va Rgk g v : 0 < Rgk -> 0 < triode_igk Va Rgk g v < / Rgk.
Proof.
  intros HR. unfold triode_igk, indicator, soft_sign. pose proof (tanh_bounds ((v - Va) / g)) as B.
  assert (0 < / Rgk) by (now apply Rinv_0_lt_compat). unfold Rdiv at 1 3. set (t := tanh _) in *. split; nra.
Qed.
Lemma rpow_nonneg x y : 0 <= rpow x y.
Proof. unfold rpow. destruct (Req_EM_T x 0); [lra|]. apply Rlt_le, exp_pos. Qed.
Lemma ipk_nonneg mu Ex Kg Kp Kvb Vct g vpk vgk : 0 < Kg -> 0 <= triode_ipk mu Ex Kg Kp Kvb Vct g vpk vgk.
Proof.
  intros HK. unfold triode_ipk. set (e := triode_E _ _ _ _ _ _). unfold soft_sign. pose proof (tanh_bounds (e / g)).
  pose proof (rpow_nonneg e Ex). unfold Rdiv at 1. apply Rmult_le_pos; [apply Rmult_le_pos; lra|]. apply Rlt_le. now apply Rinv_0_lt_compat.
Qed.
Lemma triode_law mu Ex Kg Kp Kvb Vct Va Rgk g vpk vgk : 0 < Kg -> 0 < Rgk -> 0 <= g -> 0 <= vpk -> 0 <= vgk ->
  let '(i1, i2) := triode mu Ex Kg Kp Kvb Vct Va Rgk g vpk vgk in 0 <= vpk * i1 + vgk * i2.
Proof.
  intros H1 H2 H3 H4 H5. unfold triode.
  pose proof (ipk_nonneg mu Ex Kg Kp Kvb Vct g vpk vgk H1). pose proof (igk_bounds Va Rgk g vgk H2).
  set (a := triode_ipk _ _ _ _ _ _ _ _ _) in *. set (b := triode_igk _ _ _ _) in *.
  replace (vpk * (a + (vpk + vgk) * g) + vgk * (b + (vpk + vgk) * g)) with (vpk * a + vgk * b + g * ((vpk + vgk) * (vpk + vgk))) by ring.
  apply Rplus_le_le_0_compat; [apply Rplus_le_le_0_compat; apply Rmult_le_pos; lra|]. apply Rmult_le_pos; [lra|nra].
Qed.
(** The grid current at a fixed voltage below zero, then a smaller voltage. *)
Lemma tanh_le x y : x <= y -> tanh x <= tanh y.
Proof.
  intros H. unfold tanh, sinh, cosh.
  assert (E : exp x <= exp y) by (destruct H as [H| ->]; [apply Rlt_le, exp_increasing; exact H|lra]).
  assert (E' : exp (- y) <= exp (- x)) by (destruct H as [H| ->]; [apply Rlt_le, exp_increasing; lra|lra]).
  pose proof (exp_pos x). pose proof (exp_pos y). pose proof (exp_pos (- x)). pose proof (exp_pos (- y)).
  set (a := exp x) in *. set (b := exp (- x)) in *. set (c := exp y) in *. set (d := exp (- y)) in *.
  replace ((a - b) / 2 / ((a + b) / 2)) with (1 - 2 * (b / (a + b))) by (field; lra).
  replace ((c - d) / 2 / ((c + d) / 2)) with (1 - 2 * (d / (c + d))) by (field; lra).
  assert (d / (c + d) <= b / (a + b)); [|lra].
  apply (Rmult_le_reg_r ((a + b) * (c + d))); [nra|].
  replace (d / (c + d) * ((a + b) * (c + d))) with (d * (a + b)) by (field; lra).
  replace (b / (a + b) * ((a + b) * (c + d))) with (b * (c + d)) by (field; lra). nra.
Qed.
Lemma igk_mono Va Rgk g u v : 0 < Rgk -> 0 < g -> u <= v -> triode_igk Va Rgk g u <= triode_igk Va Rgk g v.
Proof.
  intros HR Hg H. unfold triode_igk, indicator, soft_sign.
  assert (T : tanh ((u - Va) / g) <= tanh ((v - Va) / g)).
  { apply tanh_le. unfold Rdiv. apply Rmult_le_compat_r; [apply Rlt_le; now apply Rinv_0_lt_compat|lra]. }
  unfold Rdiv at 1 3. apply Rmult_le_compat_r; [apply Rlt_le; now apply Rinv_0_lt_compat|lra].
Qed.
Lemma triode_E_pos mu Kp Kvb Vct vpk vgk : 0 < Kp -> 0 < vpk -> 0 < triode_E mu Kp Kvb Vct vpk vgk.
Proof.
  intros HK H. unfold triode_E. apply Rmult_lt_0_compat; [now apply Rdiv_lt_0_compat|].
  rewrite <- ln_1 at 1. apply ln_increasing; [lra|]. match goal with |- context [exp ?t] => pose proof (exp_pos t); lra end.
Qed.
Lemma triode_E_mono mu Kp Kvb Vct vpk u v : 0 < Kp -> 0 <= Kvb -> 0 < vpk -> u < v ->
  triode_E mu Kp Kvb Vct vpk u < triode_E mu Kp Kvb Vct vpk v.
Proof.
  intros HK HB H L. unfold triode_E. apply Rmult_lt_compat_l; [now apply Rdiv_lt_0_compat|].
  assert (S : 0 < sqrt (Kvb + vpk ^ 2)) by (apply sqrt_lt_R0; nra).
  apply Rinv_0_lt_compat in S.
  apply ln_increasing; [match goal with |- context [exp ?t] => pose proof (exp_pos t); lra end|].
  apply Rplus_lt_compat_l, exp_increasing, Rmult_lt_compat_l; [lra|].
  apply Rplus_lt_compat_l. unfold Rdiv. apply Rmult_lt_compat_r; lra.
Qed.
Lemma triode_control mu Ex Kg Kp Kvb Vct g vpk u v :
  0 < Ex -> 0 < Kg -> 0 < Kp -> 0 <= Kvb -> 0 < g -> 0 < vpk -> u < v ->
  0 < triode_ipk mu Ex Kg Kp Kvb Vct g vpk u < triode_ipk mu Ex Kg Kp Kvb Vct g vpk v.
Proof.
  intros HE HG HK HB Hg H L. unfold triode_ipk.
  pose proof (triode_E_pos mu Kp Kvb Vct vpk u HK H) as P1.
  pose proof (triode_E_mono mu Kp Kvb Vct vpk u v HK HB H L) as P2.
  set (a := triode_E _ _ _ _ _ u) in *. set (b := triode_E _ _ _ _ _ v) in *.
  assert (T : soft_sign g a <= soft_sign g b).
  { unfold soft_sign. apply tanh_le. unfold Rdiv. apply Rmult_le_compat_r; [apply Rlt_le; now apply Rinv_0_lt_compat|lra]. }
  assert (T' : -1 < soft_sign g a) by apply tanh_bounds.
  assert (Q : 0 < rpow a Ex < rpow b Ex).
  { unfold rpow. destruct (Req_EM_T a 0); [lra|]. destruct (Req_EM_T b 0); [lra|]. split; [apply exp_pos|].
    apply exp_increasing, Rmult_lt_compat_l; [exact HE|]. now apply ln_increasing. }
  apply Rinv_0_lt_compat in HG. unfold Rdiv. split; [apply Rmult_lt_0_compat; [nra|exact HG]|].
  apply Rmult_lt_compat_r; [exact HG|]. nra.
Qed.
Lemma triode_cut_off mu Ex Kg Kp Kvb Vct g vgk : triode_ipk mu Ex Kg Kp Kvb Vct g 0 vgk = 0.
Proof.
  unfold triode_ipk. replace (triode_E mu Kp Kvb Vct 0 vgk) with 0 by (unfold triode_E; unfold Rdiv; ring).
  unfold rpow. destruct (Req_EM_T 0 0); [|lra]. unfold Rdiv. ring.
Qed.
Lemma triode_active mu Ex Kg Kp Kvb Vct Va Rgk g : 0 < Kp -> 0 < Rgk -> 0 < g ->
  exists vgk, vgk < 0 /\
  let '(i1, i2) := triode mu Ex Kg Kp Kvb Vct Va Rgk g 0 vgk in 0 * i1 + vgk * i2 < 0.
Proof.
  intros HK HR Hg. pose proof (igk_bounds Va Rgk g (-1) HR) as [B _]. set (b := triode_igk Va Rgk g (-1)) in *.
  pose (d := Rmin 1 (b / (2 * g))).
  assert (Q : 0 < b / (2 * g)) by (apply Rdiv_lt_0_compat; lra).
  assert (D1 : 0 < d) by (unfold d, Rmin; destruct (Rle_dec 1 (b / (2 * g))); lra).
  assert (D2 : d <= 1) by apply Rmin_l.
  assert (D3 : d * g <= b / 2).
  { assert (d <= b / (2 * g)) by apply Rmin_r. replace (b / 2) with (b / (2 * g) * g) by (field; lra). nra. }
  exists (- d). split; [lra|]. unfold triode.
  assert (M := igk_mono Va Rgk g (-1) (- d) HR Hg). specialize (M ltac:(lra)). fold b in M.
  set (i := triode_igk Va Rgk g (- d)) in *. nra.
Qed.

Lemma bjt_resistor_law R_ : 0 < R_ ->
  passive_law (e_ctrl (bjt_resistor R_)) /\ passive_law (f_ctrl (bjt_resistor R_)) /\
  inverse_laws (e_ctrl (bjt_resistor R_)) (f_ctrl (bjt_resistor R_)) (fun _ => True).
Proof.
  intros H. cbn. split; [now apply ratio_passive|]. split; [apply gain_passive; lra|]. now apply ratio_gain_inverse.
Qed.

Lemma rpow_unit A E : 0 <= A <= 1 -> 0 < E -> 0 <= rpow A E <= 1.
Proof.
  intros [H0 H1] HE. unfold rpow. destruct (Req_EM_T A 0) as [H|H]; [lra|].
  split; [apply Rlt_le, exp_pos|]. rewrite <- exp_0.
  assert (L : ln A <= 0).
  { rewrite <- ln_1. destruct (Rle_lt_or_eq_dec _ _ H1) as [L|L]; [|subst; lra]. apply Rlt_le, ln_increasing; lra. }
  assert (L' : E * ln A <= 0) by nra.
  destruct (Rle_lt_or_eq_dec _ _ L') as [G|G]; [now apply Rlt_le, exp_increasing|rewrite G; lra].
Qed.
Lemma pot_law R_ A E : 0 < R_ -> 0 <= A <= 1 -> 0 < E ->
  let '(l1, l2) := potentiometer R_ A E in
  passive_law (e_ctrl l1) /\ passive_law (f_ctrl l1) /\ inverse_laws (e_ctrl l1) (f_ctrl l1) (fun _ => True) /\
  passive_law (e_ctrl l2) /\ passive_law (f_ctrl l2) /\ inverse_laws (e_ctrl l2) (f_ctrl l2) (fun _ => True).
Proof.
  intros HR HA HE. cbn. pose proof (rpow_unit A E HA HE) as [P0 P1].
  assert (H1 : 0 < pot_R1 R_ A E) by (unfold pot_R1; assert (0 <= R_ * rpow A E) by (apply Rmult_le_pos; lra); lra).
  assert (H2 : 0 < pot_R2 R_ A E) by (unfold pot_R2; assert (0 <= R_ * (1 - rpow A E)) by (apply Rmult_le_pos; lra); lra).
  split; [now apply ratio_passive|]. split; [apply gain_passive; lra|]. split; [now apply ratio_gain_inverse|].
  split; [now apply ratio_passive|]. split; [apply gain_passive; lra|]. now apply ratio_gain_inverse.
Qed.
(** Nothing bounds the control parameter: above 1 the second resistance is negative. *)
Lemma pot_refuted : exists R_ A E w, 0 < R_ /\ 0 < A /\ 0 < E /\
  w * f_ctrl (snd (potentiometer R_ A E)) w < 0.
Proof.
  exists 10, 2, 1, 1. repeat split; try lra. cbn. unfold pot_R2, rpow.
  destruct (Req_EM_T 2 0); [lra|]. replace (1 * ln 2) with (ln 2) by ring; rewrite exp_ln by lra. lra.
Qed.

Lemma felt_damper_law L A B q : 0 < L -> 0 < A -> 0 < B -> passive_law (felt_damper L A B q).
Proof.
  intros HL HA HB. unfold felt_damper. apply gain_passive. unfold felt_r.
  destruct (Rle_dec q 0); [lra|]. apply Rmult_le_pos; [|apply rpow_nonneg].
  unfold Rdiv. apply Rmult_le_pos; [apply Rmult_le_pos; lra|]. now apply Rlt_le, Rinv_0_lt_compat.
Qed.

Lemma transfer_law R_ w1 w2 : 0 < R_ -> 0 < w1 -> 0 < w2 ->
  let '(z1, z2) := transfer R_ w1 w2 w1 w2 in w1 * z1 + w2 * z2 = 0 /\ z1 + z2 <= 0 /\ (w1 <> w2 -> z1 + z2 < 0).
Proof.
  intros HR H1 H2. cbn.
  assert (E : R_ * (w1 - w2) / w1 + R_ * (w2 - w1) / w2 = - (R_ / (w1 * w2) * ((w1 - w2) * (w1 - w2)))) by (field; split; lra).
  assert (P : 0 < R_ / (w1 * w2)).
  { unfold Rdiv. apply Rmult_lt_0_compat; [lra|]. apply Rinv_0_lt_compat, Rmult_lt_0_compat; lra. }
  rewrite E. split; [field; lra|]. split.
  - assert (0 <= R_ / (w1 * w2) * ((w1 - w2) * (w1 - w2))) by (apply Rmult_le_pos; [lra|apply Rle_0_sqr]). lra.
  - intros N. assert (0 < (w1 - w2) * (w1 - w2)) by (destruct (Rdichotomy _ _ N); nra).
    assert (0 < R_ / (w1 * w2) * ((w1 - w2) * (w1 - w2))) by (apply Rmult_lt_0_compat; lra). lra.
Qed.

(** ** Storage functions *)
Lemma deriv_sq_half k x : derivable_pt_lim (fun x => k * x ^ 2 / 2) x (k * x).
Proof.
  replace (k * x) with ((k / 2) * (INR 2 * x ^ 1)) by (cbn; field).
  assert (H : derivable_pt_lim (mult_real_fct (k / 2) (fun x => x ^ 2)) x ((k / 2) * (INR 2 * x ^ 1)))
    by (apply derivable_pt_lim_scal, (derivable_pt_lim_pow x 2)).
  intros eps He. destruct (H eps He) as [d Hd]. exists d. intros h H0 Hh. specialize (Hd h H0 Hh).
  unfold mult_real_fct in Hd.
  replace (k * (x + h) ^ 2 / 2 - k * x ^ 2 / 2) with (k / 2 * (x + h) ^ 2 - k / 2 * x ^ 2) by (cbn; field). exact Hd.
Qed.

Lemma storage_linear_law inv k x : 0 < k ->
  0 <= storage_linear inv k x /\ law_at (storage_linear inv k) x (if inv then x / k else k * x).
Proof.
  intros Hk. assert (Hi : 0 < / k) by now apply Rinv_0_lt_compat.
  unfold storage_linear, law_at. destruct inv.
  - split; [assert (0 <= x ^ 2) by (cbn; nra); assert (0 <= / k * x ^ 2) by (apply Rmult_le_pos; lra); lra|].
    replace (x / k) with (/ k * x) by (unfold Rdiv; ring). apply deriv_sq_half.
  - split; [assert (0 <= x ^ 2) by (cbn; nra); assert (0 <= k * x ^ 2) by (apply Rmult_le_pos; lra); lra|].
    apply deriv_sq_half.
Qed.

Lemma deriv_ext f g x l : (forall t, f t = g t) -> derivable_pt_lim f x l -> derivable_pt_lim g x l.
Proof. intros H D eps He. destruct (D eps He) as [d Hd]. exists d. intros h H0 Hh. rewrite <- !H. now apply Hd. Qed.

Lemma deriv_gain k x : derivable_pt_lim (fun x => k * x) x k.
Proof.
  pose proof (derivable_pt_lim_scal (fun x => x) k x 1 (derivable_pt_lim_id x)) as H.
  replace (k * 1) with k in H by ring. exact H.
Qed.

Lemma springcubic_law F1 F3 xref x : 0 < F1 -> 0 < F3 -> 0 < xref ->
  0 <= springcubic F1 F3 xref x /\
  law_at (springcubic F1 F3 xref) x (F1 * (x / xref) + F3 * (x / xref) ^ 3).
Proof.
  intros H1 H3 Hx. split.
  - unfold springcubic. assert (P2 : 0 <= x ^ 2) by (cbn; nra). assert (P4 : 0 <= x ^ 4).
    { replace (x ^ 4) with (x ^ 2 * x ^ 2) by ring. now apply Rmult_le_pos. }
    assert (0 < 2 * xref) by lra. assert (0 < 4 * xref ^ 3) by (assert (0 < xref ^ 3) by (apply pow_lt; assumption); lra).
    apply Rplus_le_le_0_compat; unfold Rdiv; (apply Rmult_le_pos; [apply Rmult_le_pos; lra|apply Rlt_le, Rinv_0_lt_compat; lra]).
  - unfold law_at. apply deriv_ext with (fun x => F1 / (2 * xref) * x ^ 2 + F3 / (4 * xref ^ 3) * x ^ 4).
    { intros t. unfold springcubic, Rdiv. ring. }
    replace (F1 * (x / xref) + F3 * (x / xref) ^ 3) with
      (F1 / (2 * xref) * (INR 2 * x ^ 1) + F3 / (4 * xref ^ 3) * (INR 4 * x ^ 3)) by (cbn; field; lra).
    apply (derivable_pt_lim_plus (fun x => F1 / (2 * xref) * x ^ 2) (fun x => F3 / (4 * xref ^ 3) * x ^ 4)).
    + apply (derivable_pt_lim_scal (fun x => x ^ 2)), (derivable_pt_lim_pow x 2).
    + apply (derivable_pt_lim_scal (fun x => x ^ 4)), (derivable_pt_lim_pow x 4).
Qed.

Lemma PI_lt_4 : PI < 4.
Proof.
  pose proof (PI_ineq 1) as [_ H]. cbn [sum_f_R0 Nat.mul Nat.add] in H. unfold tg_alt, PI_tg in H. cbn in H. lra.
Qed.

Lemma cos_pos_in t : - (PI / 2) < t < PI / 2 -> 0 < cos t.
Proof. intros [H1 H2]. apply cos_gt_0; lra. Qed.

(** [g t = ln (cos t) + t^2/2] has derivative [t - tan t]. *)
Lemma sat_deriv t : - (PI / 2) < t < PI / 2 ->
  derivable_pt_lim (fun t => ln (cos t) + t ^ 2 / 2) t (t - tan t).
Proof.
  intros H. pose proof (cos_pos_in t H) as Hc.
  replace (t - tan t) with (/ cos t * - sin t + 1 * t) by (unfold tan; field; lra).
  apply (derivable_pt_lim_plus (fun t => ln (cos t)) (fun t => t ^ 2 / 2)).
  - apply (derivable_pt_lim_comp cos ln); [apply derivable_pt_lim_cos|]. now apply derivable_pt_lim_ln.
  - apply deriv_ext with (fun x => 1 * x ^ 2 / 2); [intros; unfold Rdiv; ring|apply deriv_sq_half].
Qed.

(** [t <= tan t] on [[0, pi/2)]. *)
Lemma tan_ge t : 0 <= t < PI / 2 -> t <= tan t.
Proof.
  intros [H0 H1]. destruct (Rle_lt_or_eq_dec _ _ H0) as [Hp|E]; [|rewrite <- E, tan_0; lra].
  (* mean value theorem on tan x - x *)
  pose (f := fun x => tan x - x).
  assert (D : forall x, 0 <= x <= t -> derivable_pt_lim f x (tan x * tan x)).
  { intros x Hx. replace (tan x * tan x) with ((1 + (tan x) ^ 2) - 1) by ring.
    apply (derivable_pt_lim_minus tan (fun x => x)); [|apply derivable_pt_lim_id].
    pose proof (cos_pos_in x ltac:(lra)) as Hc.
    replace (1 + (tan x) ^ 2) with ((cos x * cos x - (- sin x) * sin x) / Rsqr (cos x)) by (unfold tan, Rsqr; field; lra).
    apply (derivable_pt_lim_div sin cos); [apply derivable_pt_lim_sin|apply derivable_pt_lim_cos|lra]. }
  assert (M : exists c, f t - f 0 = tan c * tan c * (t - 0) /\ 0 < c < t).
  { destruct (MVT_cor2 f (fun x => tan x * tan x) 0 t Hp) as (c & Hc & Hi); [intros; now apply D|].
    exists c. now split. }
  destruct M as (c & Hc & _). unfold f in Hc. rewrite tan_0 in Hc.
  assert (0 <= tan c * tan c * (t - 0)) by (apply Rmult_le_pos; [nra|lra]). lra.
Qed.
Lemma sat_neg t : - (PI / 2) < t < PI / 2 -> ln (cos t) + t ^ 2 / 2 <= 0.
Proof.
  assert (G : forall t, 0 <= t < PI / 2 -> ln (cos t) + t ^ 2 / 2 <= 0).
  { intros s [H0 H1]. destruct (Rle_lt_or_eq_dec _ _ H0) as [Hp|E].
    - destruct (MVT_cor2 (fun t => ln (cos t) + t ^ 2 / 2) (fun t => t - tan t) 0 s Hp) as (c & Hc & Hi).
      { intros c Hc. apply sat_deriv. lra. }
      rewrite cos_0, ln_1 in Hc. pose proof (tan_ge c ltac:(lra)).
      assert ((c - tan c) * (s - 0) <= 0) by nra. cbn in *. lra.
    - rewrite <- E, cos_0, ln_1. cbn. lra. }
  intros H. destruct (Rle_lt_dec 0 t) as [Ht|Ht]; [apply G; lra|].
  rewrite <- (cos_neg t). replace (t ^ 2) with ((- t) ^ 2) by ring. apply G. lra.
Qed.

Lemma sat_arg xsat x : 0 < xsat -> - xsat < x < xsat -> - (PI / 2) < PI * x / (2 * xsat) < PI / 2.
Proof.
  intros Hs [H1 H2]. pose proof PI_RGT_0.
  replace (PI * x / (2 * xsat)) with (PI / 2 * (x / xsat)) by (field; lra).
  assert (-1 < x / xsat < 1).
  { split; apply Rmult_lt_reg_r with xsat; try assumption; unfold Rdiv; rewrite Rmult_assoc, Rinv_l; lra. }
  nra.
Qed.
Lemma Hsat_neg xsat x : 0 < xsat -> - xsat < x < xsat -> Hsat xsat x <= 0.
Proof.
  intros Hs Hx. unfold Hsat. pose proof (sat_neg _ (sat_arg xsat x Hs Hx)) as N.
  pose proof PI_RGT_0. pose proof PI_lt_4.
  assert (0 < 8 * xsat / (PI * (4 - PI))).
  { unfold Rdiv. apply Rmult_lt_0_compat; [lra|]. apply Rinv_0_lt_compat, Rmult_lt_0_compat; lra. }
  set (c := 8 * xsat / (PI * (4 - PI))) in *. set (v := ln (cos (PI * x / (2 * xsat))) + (PI * x / (2 * xsat)) ^ 2 / 2) in *. nra.
Qed.
Lemma Hsat_deriv xsat x : 0 < xsat -> - xsat < x < xsat ->
  derivable_pt_lim (Hsat xsat) x (- (4 / (4 - PI) * (tan (PI * x / (2 * xsat)) - PI * x / (2 * xsat)))).
Proof.
  intros Hs Hx. pose proof PI_RGT_0. pose proof PI_lt_4. unfold Hsat.
  replace (- (4 / (4 - PI) * (tan (PI * x / (2 * xsat)) - PI * x / (2 * xsat))))
    with (8 * xsat / (PI * (4 - PI)) * ((PI * x / (2 * xsat) - tan (PI * x / (2 * xsat))) * (PI / (2 * xsat)))) by (field; lra).
  apply (derivable_pt_lim_scal (fun x => ln (cos (PI * x / (2 * xsat))) + (PI * x / (2 * xsat)) ^ 2 / 2)).
  apply (derivable_pt_lim_comp (fun x => PI * x / (2 * xsat)) (fun t => ln (cos t) + t ^ 2 / 2)).
  - apply deriv_ext with (fun x => PI / (2 * xsat) * x); [intros; unfold Rdiv; ring|].
    apply deriv_gain.
  - apply sat_deriv. now apply sat_arg.
Qed.

Lemma sat_energy k xsat x : 0 < k -> 0 < xsat -> - xsat < x < xsat -> 0 <= x ^ 2 / 2 - k * Hsat xsat x.
Proof.
  intros Hk Hs Hx. pose proof (Hsat_neg xsat x Hs Hx). assert (0 <= x ^ 2) by (cbn; nra). nra.
Qed.
Lemma sat_force k xsat x : 0 < xsat -> - xsat < x < xsat ->
  derivable_pt_lim (fun x => x ^ 2 / 2 - k * Hsat xsat x) x
    (x + k * (4 / (4 - PI) * (tan (PI * x / (2 * xsat)) - PI * x / (2 * xsat)))).
Proof.
  intros Hs Hx.
  replace (x + k * (4 / (4 - PI) * (tan (PI * x / (2 * xsat)) - PI * x / (2 * xsat))))
    with (1 * x - k * (- (4 / (4 - PI) * (tan (PI * x / (2 * xsat)) - PI * x / (2 * xsat))))) by ring.
  apply (derivable_pt_lim_minus (fun x => x ^ 2 / 2) (fun x => k * Hsat xsat x)).
  - apply deriv_ext with (fun x => 1 * x ^ 2 / 2); [intros; unfold Rdiv; ring|apply deriv_sq_half].
  - apply (derivable_pt_lim_scal (Hsat xsat)), Hsat_deriv; assumption.
Qed.
Lemma springsat_law K0 Ksat xsat x : 0 < K0 -> 0 < Ksat -> 0 < xsat -> - xsat < x < xsat ->
  0 <= springsat K0 Ksat xsat x /\
  law_at (springsat K0 Ksat xsat) x
    (K0 * (x + Ksat * (4 / (4 - PI) * (tan (PI * x / (2 * xsat)) - PI * x / (2 * xsat))))).
Proof.
  intros H0 Hk Hs Hx. unfold springsat, law_at. split.
  - apply Rmult_le_pos; [lra|]. now apply sat_energy.
  - apply (derivable_pt_lim_scal (fun x => x ^ 2 / 2 - Ksat * Hsat xsat x)), sat_force; assumption.
Qed.
Lemma capacitorsat_law C0 Csat phisat x : 0 < C0 -> 0 < Csat -> 0 < phisat -> - phisat < x < phisat ->
  0 <= capacitorsat C0 Csat phisat x /\
  law_at (capacitorsat C0 Csat phisat) x
    (/ C0 * (x + Csat * (4 / (4 - PI) * (tan (PI * x / (2 * phisat)) - PI * x / (2 * phisat))))).
Proof.
  intros H0 Hk Hs Hx. assert (0 < / C0) by now apply Rinv_0_lt_compat. unfold capacitorsat, law_at. split.
  - unfold Rdiv at 1. rewrite Rmult_comm. apply Rmult_le_pos; [lra|]. now apply sat_energy.
  - apply deriv_ext with (fun x => / C0 * (x ^ 2 / 2 - Csat * Hsat phisat x)); [intros; unfold Rdiv; ring|].
    apply (derivable_pt_lim_scal (fun x => x ^ 2 / 2 - Csat * Hsat phisat x)), sat_force; assumption.
Qed.

Lemma heat_law C T0 x : 0 < C -> 0 < T0 ->
  0 < heat_capacity C T0 x /\ law_at (heat_capacity C T0) x (T0 * exp (x / C)).
Proof.
  intros HC HT. unfold heat_capacity, law_at. split.
  - apply Rmult_lt_0_compat; [apply Rmult_lt_0_compat; assumption|apply exp_pos].
  - replace (T0 * exp (x / C)) with (C * T0 * (exp (x / C) * / C)) by (field; lra).
    apply (derivable_pt_lim_scal (fun x => exp (x / C))).
    apply (derivable_pt_lim_comp (fun x => x / C) exp); [|apply derivable_pt_lim_exp].
    apply deriv_ext with (fun x => / C * x); [intros; unfold Rdiv; ring|].
    apply deriv_gain.
Qed.

(** The felt. *)
Lemma rpow_pos_base x y : 0 < x -> rpow x y = exp (y * ln x).
Proof. intros H. unfold rpow. destruct (Req_EM_T x 0); [lra|reflexivity]. Qed.
Lemma felt_energy_law L F B q : 0 < L -> 0 < F -> 0 < B ->
  0 <= felt_energy L F B q /\ law_at (felt_energy L F B) q (F * rpow (Rmax q 0 / L) B).
Proof.
  intros HL HF HB. assert (HiL : 0 < / L) by now apply Rinv_0_lt_compat. split.
  { unfold felt_energy. destruct (Rle_dec q 0); [lra|]. apply Rmult_le_pos; [|apply rpow_nonneg].
    unfold Rdiv. apply Rmult_le_pos; [apply Rmult_le_pos; lra|]. apply Rlt_le, Rinv_0_lt_compat. lra. }
  unfold law_at. destruct (Rtotal_order q 0) as [Hq|[Hq|Hq]].
  - rewrite Rmax_right by lra. replace (0 / L) with 0 by (unfold Rdiv; ring).
    assert (E : rpow 0 B = 0) by (unfold rpow; destruct (Req_EM_T 0 0); [reflexivity|lra]). rewrite E, Rmult_0_r.
    apply (derivable_pt_lim_ext_loc (fun _ => 0) _ q 0 (- q)); [lra| |apply derivable_pt_lim_const].
    intros h Hh. apply Rabs_def2 in Hh. unfold felt_energy. destruct (Rle_dec (q + h) 0); [reflexivity|lra].
  - subst q. rewrite Rmax_right by lra. replace (0 / L) with 0 by (unfold Rdiv; ring).
    assert (E : rpow 0 B = 0) by (unfold rpow; destruct (Req_EM_T 0 0); [reflexivity|lra]). rewrite E, Rmult_0_r.
    intros eps He. set (k := eps * (B + 1) / F).
    assert (Hk : 0 < k). { unfold k, Rdiv. apply Rmult_lt_0_compat; [apply Rmult_lt_0_compat; lra|now apply Rinv_0_lt_compat]. }
    assert (Hd : 0 < L * exp (ln k / B)) by (apply Rmult_lt_0_compat; [assumption|apply exp_pos]).
    exists (mkposreal _ Hd). cbn. intros h H0 Hh. rewrite Rplus_0_l.
    replace (felt_energy L F B 0) with 0 by (unfold felt_energy; destruct (Rle_dec 0 0); [reflexivity|lra]).
    unfold felt_energy. destruct (Rle_dec h 0) as [Hn|Hp].
    + replace ((0 - 0) / h - 0) with 0 by (field; assumption). rewrite Rabs_R0. assumption.
    + apply Rnot_le_lt in Hp. rewrite Rabs_right in Hh by lra.
      assert (Hc : 0 < h / L) by (unfold Rdiv; now apply Rmult_lt_0_compat).
      rewrite rpow_pos_base by assumption.
      replace ((B + 1) * ln (h / L)) with (B * ln (h / L) + ln (h / L)) by ring. rewrite exp_plus, exp_ln by assumption.
      replace ((L * F / (B + 1) * (exp (B * ln (h / L)) * (h / L)) - 0) / h - 0)
        with (F / (B + 1) * exp (B * ln (h / L))) by (field; repeat split; lra).
      rewrite Rabs_right.
      * assert (Hl : h / L < exp (ln k / B)).
        { apply Rmult_lt_reg_r with L; [assumption|]. unfold Rdiv at 1. rewrite Rmult_assoc, Rinv_l by lra. lra. }
        apply ln_increasing in Hl; [|assumption]. rewrite ln_exp in Hl.
        assert (Hm : B * ln (h / L) < ln k).
        { apply Rmult_lt_compat_l with (r := B) in Hl; [|assumption]. replace (B * (ln k / B)) with (ln k) in Hl by (field; lra). exact Hl. }
        apply exp_increasing in Hm. rewrite exp_ln in Hm by assumption.
        assert (Hf : 0 < F / (B + 1)) by (unfold Rdiv; apply Rmult_lt_0_compat; [assumption|apply Rinv_0_lt_compat; lra]).
        apply Rmult_lt_compat_l with (r := F / (B + 1)) in Hm; [|assumption].
        replace (F / (B + 1) * k) with eps in Hm by (unfold k; field; split; lra). exact Hm.
      * apply Rle_ge, Rmult_le_pos; [|apply Rlt_le, exp_pos].
        unfold Rdiv. apply Rmult_le_pos; [lra|]. apply Rlt_le, Rinv_0_lt_compat. lra.
  - rewrite Rmax_left by lra.
    assert (Hc : 0 < q / L) by (unfold Rdiv; now apply Rmult_lt_0_compat).
    apply (derivable_pt_lim_ext_loc (fun q => L * F / (B + 1) * exp ((B + 1) * ln (/ L * q))) _ q _ q); [assumption| |].
    + intros h Hh. apply Rabs_def2 in Hh. unfold felt_energy. destruct (Rle_dec (q + h) 0); [lra|].
      replace (/ L * (q + h)) with ((q + h) / L) by (unfold Rdiv; ring).
      rewrite rpow_pos_base; [reflexivity|]. unfold Rdiv. apply Rmult_lt_0_compat; lra.
    + rewrite rpow_pos_base by assumption.
      replace (q / L) with (/ L * q) in * by (unfold Rdiv; ring).
      replace (F * exp (B * ln (/ L * q))) with
        (L * F / (B + 1) * (exp ((B + 1) * ln (/ L * q)) * ((B + 1) * (/ (/ L * q) * / L)))).
      2:{ replace ((B + 1) * ln (/ L * q)) with (B * ln (/ L * q) + ln (/ L * q)) by ring.
          rewrite exp_plus, exp_ln by assumption. field. repeat split; lra. }
      apply (derivable_pt_lim_scal (fun q => exp ((B + 1) * ln (/ L * q)))).
      apply (derivable_pt_lim_comp (fun q => (B + 1) * ln (/ L * q)) exp); [|apply derivable_pt_lim_exp].
      apply (derivable_pt_lim_scal (fun q => ln (/ L * q))).
      apply (derivable_pt_lim_comp (fun q => / L * q) ln); [apply deriv_gain|now apply derivable_pt_lim_ln].
Qed.

(** ** Parameters *)
Definition sub_of (label : string) (kv : string * parg) : list (string * Q) :=
  match snd kv with
  | APair l v => [(l, v)]
  | AVal v => [(label ++ "_" ++ fst kv, v)%string]
  | ALabel _ => []
  end.
Definition free_of (kv : string * parg) : list string :=
  match snd kv with ALabel l => [l] | _ => [] end.
Lemma mappars_spec label kwargs : mappars label kwargs =
  (dict_update [] (map (fun kv => (fst kv, Sym (symbol_of label kv))) kwargs),
   dict_update [] (flat_map (sub_of label) kwargs), flat_map free_of kwargs).
Proof.
  unfold mappars.
  assert (G : forall kw d s p, fold_left (fun st kv =>
    let '(dicpars, subs, ps) := st in
    let '(symb, sub, par) := form (label ++ "_" ++ fst kv)%string (snd kv) in
    (dict_update dicpars [(fst kv, Sym symb)], dict_update subs sub,
     match par with Some p => (ps ++ [p])%list | None => ps end)) kw (d, s, p) =
    (dict_update d (map (fun kv => (fst kv, Sym (symbol_of label kv))) kw),
     dict_update s (flat_map (sub_of label) kw), (p ++ flat_map free_of kw)%list)).
  { induction kw as [|[k a] kw IH]; intros d s p; [cbn; now rewrite app_nil_r|].
    cbn [fold_left map flat_map].
    assert (E : forall (B : Type) (u v w : list (string * B)), dict_update u (v ++ w) = dict_update (dict_update u v) w)
      by (intros; unfold dict_update; apply fold_left_app).
    destruct a as [l v|v|l]; cbn [form fst snd]; rewrite IH; unfold sub_of at 2, free_of at 2; cbn [fst snd];
      rewrite E; cbn [app]; rewrite <- ?app_assoc; reflexivity. }
  rewrite G. reflexivity.
Qed.

Lemma parameters_reach label kwargs z r r' :
  NoDup (map fst kwargs) -> NoDup (map (symbol_of label) kwargs) ->
  (forall kv, In kv kwargs -> ~ In (symbol_of label kv) (map fst kwargs)) ->
  respects (snd (fst (mappars label kwargs))) r -> intended kwargs r r' ->
  eval r (component_law label kwargs z) = eval r' z.
Proof.
  intros ND NS HF HR (I1 & I2 & I3 & I4). unfold component_law. rewrite mappars_spec in *. cbn [fst snd] in *.
  set (d := map (fun kv => (fst kv, Sym (symbol_of label kv))) kwargs).
  assert (Kd : map fst d = map fst kwargs) by (unfold d; rewrite map_map; reflexivity).
  rewrite dict_update_nil by now rewrite Kd.
  assert (NU : NoDup (map fst (flat_map (sub_of label) kwargs))).
  { clear -NS. induction kwargs as [|[k a] kw IH]; [constructor|]. cbn [map] in NS. inversion NS as [|? ? N1 N2]; subst.
    specialize (IH N2). cbn [flat_map]. rewrite map_app.
    assert (Inc : forall s, In s (map fst (flat_map (sub_of label) kw)) -> In s (map (symbol_of label) kw)).
    { intros s Hs. apply in_map_iff in Hs as ([s' v] & <- & Hs). apply in_flat_map in Hs as (kv & Hkv & Hs).
      apply in_map_iff. exists kv. split; [|exact Hkv]. unfold sub_of in Hs. unfold symbol_of.
      destruct (snd kv); cbn in Hs; try contradiction; destruct Hs as [Hs|[]]; injection Hs as <- <-; reflexivity. }
    destruct a as [l v|v|l]; cbn [sub_of snd fst map app]; [| |exact IH]; (constructor; [|exact IH]); intros F; apply N1, (Inc _ F). }
  rewrite (dict_update_new (flat_map (sub_of label) kwargs) []) in HR by exact NU. cbn [app] in HR.
  apply subs_all.
  - intros k v k' Hk Hk'. rewrite Kd in Hk'. unfold d in Hk. apply in_map_iff in Hk as (kv & E & Hin). injection E as <- <-.
    cbn. intros [F|[]]. subst k'. exact (HF kv Hin Hk').
  - split; [|intros s Hs; apply I4; now rewrite <- Kd].
    intros k v Hk. unfold d in Hk. apply in_map_iff in Hk as ([k0 a] & E & Hin). injection E as <- <-. cbn [fst eval].
    assert (HS : forall s v, In (s, v) (sub_of label (k0, a)) -> r s = Q2R v).
    { intros s v Hs. apply HR. apply in_flat_map. exists (k0, a). now split. }
    destruct a as [l v|v|l]; unfold symbol_of; cbn [snd fst].
    + rewrite (I1 k0 l v Hin). symmetry. apply HS. now left.
    + rewrite (I2 k0 v Hin). symmetry. apply HS. now left.
    + exact (I3 k0 l Hin).
Qed.

(** A label that is the name of another parameter is replaced in turn. *)
Lemma parameters_captured : exists kwargs z r r',
  NoDup (map fst kwargs) /\ NoDup (map (symbol_of "D") kwargs) /\
  respects (snd (fst (mappars "D" kwargs))) r /\ intended kwargs r r' /\
  eval r (component_law "D" kwargs z) <> eval r' z.
Proof.
  exists [("R", APair "mu" (1#2)); ("mu", APair "m" (2#1))], (Mul (Sym "R") (Sym "wD_R")),
    (fun s => if String.eqb s "mu" then Q2R (1#2) else if String.eqb s "m" then Q2R (2#1) else 1),
    (fun s => if String.eqb s "R" then Q2R (1#2) else if String.eqb s "mu" then Q2R (2#1) else if String.eqb s "m" then Q2R (2#1) else 1).
  split; [repeat constructor; cbn; intuition discriminate|].
  split; [repeat constructor; cbn; intuition discriminate|].
  split; [|split].
  - intros s v [H|[H|[]]]; injection H as <- <-; reflexivity.
  - split; [|split; [|split]].
    + intros k l v [H|[H|[]]]; injection H as <- <- <-; reflexivity.
    + intros k v [H|[H|[]]]; discriminate.
    + intros k l [H|[H|[]]]; discriminate.
    + intros s Hs. cbn in Hs. destruct (String.eqb_spec s "R"); [subst; tauto|]. destruct (String.eqb_spec s "mu"); [subst; tauto|]. reflexivity.
  - vm_compute (component_law _ _ _). cbn. unfold Q2R; cbn. lra.
Qed.

Lemma documented_laws k w :
  f_ctrl (resistor k) w = k * w /\ e_ctrl (resistor k) w = w / k /\
  e_ctrl (damper k) w = k * w /\ f_ctrl (damper k) w = w / k /\
  f_ctrl (damper_dual k) w = k * w /\ e_ctrl (damper_dual k) w = w / k.
Proof. repeat split. Qed.
Lemma documented_storages k x : 0 < k ->
  law_at (capacitor k) x (x / k) /\ law_at (inductor k) x (x / k) /\
  law_at (mass k) x (x / k) /\ law_at (stiffness k) x (k * x).
Proof.
  intros H. split; [apply (proj2 (storage_linear_law true k x H))|].
  split; [apply (proj2 (storage_linear_law true k x H))|].
  split; [apply (proj2 (storage_linear_law true k x H))|apply (proj2 (storage_linear_law false k x H))].
Qed.
