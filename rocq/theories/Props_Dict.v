(** Properties of the components of the dictionary: C38, C39 and C47. *)
From Coq Require Import String List ZArith QArith Qreals Reals Lra.
From Verif Require Import Py Expr Dict Spec_Dict DictProofs.
Import ListNotations.
Local Open Scope string_scope.
Local Open Scope list_scope.
Local Open Scope R_scope.

(** ** C38: dissipative components *)

(** Resistor ([inv = false]: effort = k flux) and damper ([inv = true]). *)
Theorem C38_linear : forall inv k, 0 < k ->
  passive_law (e_ctrl (dissipative_linear inv k)) /\ passive_law (f_ctrl (dissipative_linear inv k)) /\
  inverse_laws (e_ctrl (dissipative_linear inv k)) (f_ctrl (dissipative_linear inv k)) (fun _ => True) /\
  forall w, e_ctrl (dissipative_linear inv k) w = (if inv then k else / k) * w.
Proof. exact linear_law. Qed.
Print Assumptions C38_linear.

(** The relations that the documentation of the components gives: e = R f for the
    resistor, f = A e for the damper, e = A f for the damper of the dual
    dictionary. *)
Theorem C38_documented_laws : forall k w,
  f_ctrl (resistor k) w = k * w /\ e_ctrl (resistor k) w = w / k /\
  e_ctrl (damper k) w = k * w /\ f_ctrl (damper k) w = w / k /\
  f_ctrl (damper_dual k) w = k * w /\ e_ctrl (damper_dual k) w = w / k.
Proof. exact documented_laws. Qed.
Print Assumptions C38_documented_laws.

(** The flux-controlled form of the junction is defined above [- Is]. *)
Theorem C38_diode_junction : forall Is v0 mu, 0 < Is -> 0 < v0 -> 0 < mu ->
  passive_law (e_ctrl (diode_junction Is v0 mu)) /\
  (forall i, - Is < i -> 0 <= i * f_ctrl (diode_junction Is v0 mu) i) /\
  inverse_laws (e_ctrl (diode_junction Is v0 mu)) (f_ctrl (diode_junction Is v0 mu)) (fun i => - Is < i).
Proof. exact diode_law. Qed.
Print Assumptions C38_diode_junction.

Theorem C38_diode_branches : forall R_ g, 0 < R_ -> 0 < g ->
  passive_law (e_ctrl (diode_resistor R_)) /\ passive_law (f_ctrl (diode_resistor R_)) /\
  inverse_laws (e_ctrl (diode_resistor R_)) (f_ctrl (diode_resistor R_)) (fun _ => True) /\
  passive_law (e_ctrl (diode_gmin g)) /\ passive_law (f_ctrl (diode_gmin g)) /\
  inverse_laws (e_ctrl (diode_gmin g)) (f_ctrl (diode_gmin g)) (fun _ => True).
Proof. exact diode_branches. Qed.
Print Assumptions C38_diode_branches.

Theorem C38_bipolar_transistor : forall Is bR bF Vt mu g w1 w2,
  0 < Is -> 0 < bR -> 0 < bF -> 0 < Vt -> 0 < mu -> 0 <= g ->
  0 <= w1 * fst (bjt Is bR bF Vt mu g w1 w2) + w2 * snd (bjt Is bR bF Vt mu g w1 w2).
Proof. exact bjt_law. Qed.
Print Assumptions C38_bipolar_transistor.
Example C38_bjt_values : bjt 1 10 200 1 1 0 0 1 = (- (exp 1 - 1), (200 + 1) / 200 * (exp 1 - 1)).
Proof.
  unfold bjt, bjt_func. replace (0 / (1 * 1)) with 0 by lra. replace (1 / (1 * 1)) with 1 by lra.
  rewrite exp_0. f_equal; lra.
Qed.

(** The triode, in the quadrant of its law. *)
Theorem C38_triode : forall mu Ex Kg Kp Kvb Vct Va Rgk g vpk vgk,
  0 < Kg -> 0 < Rgk -> 0 <= g -> 0 <= vpk -> 0 <= vgk ->
  let '(i1, i2) := triode mu Ex Kg Kp Kvb Vct Va Rgk g vpk vgk in 0 <= vpk * i1 + vgk * i2.
Proof. exact triode_law. Qed.
Print Assumptions C38_triode.
(** The grid controls the plate: its current is zero without voltage, and with
    one it is positive and increases with the voltage of the grid. *)
Theorem C38_triode_control : forall mu Ex Kg Kp Kvb Vct g vpk u v,
  0 < Ex -> 0 < Kg -> 0 < Kp -> 0 <= Kvb -> 0 < g -> 0 < vpk -> u < v ->
  triode_ipk mu Ex Kg Kp Kvb Vct g 0 u = 0 /\
  0 < triode_ipk mu Ex Kg Kp Kvb Vct g vpk u < triode_ipk mu Ex Kg Kp Kvb Vct g vpk v.
Proof. intros. split; [apply triode_cut_off|now apply triode_control]. Qed.
Print Assumptions C38_triode_control.
(** For all values of its parameters it creates power at some negative voltage of
    the grid. *)
Theorem C38_triode_negative_grid_refuted : forall mu Ex Kg Kp Kvb Vct Va Rgk g,
  0 < Kp -> 0 < Rgk -> 0 < g ->
  exists vgk, vgk < 0 /\
  let '(i1, i2) := triode mu Ex Kg Kp Kvb Vct Va Rgk g 0 vgk in 0 * i1 + vgk * i2 < 0.
Proof. exact triode_active. Qed.
Print Assumptions C38_triode_negative_grid_refuted.
(** Its grid is not resistive: the current never reaches the inverse of the
    documented resistance, whatever the voltage. *)
Theorem C38_triode_grid_current : forall Va Rgk g v, 0 < Rgk -> 0 < triode_igk Va Rgk g v < / Rgk.
Proof. exact igk_bounds. Qed.
Print Assumptions C38_triode_grid_current.
Example C38_triode_example : 0 < 1060 /\ 0 < 3000 /\ 0 < 600 /\ 0 <= 1 / 1000 /\
  triode_igk (33 / 100) 3000 1 (33 / 100) = / 6000.
Proof.
  repeat split; try lra. unfold triode_igk, indicator, soft_sign, tanh, sinh, cosh.
  replace ((33 / 100 - 33 / 100) / 1) with 0 by field. rewrite Ropp_0, exp_0. field.
Qed.

Theorem C38_transistor_resistances : forall R_, 0 < R_ ->
  passive_law (e_ctrl (bjt_resistor R_)) /\ passive_law (f_ctrl (bjt_resistor R_)) /\
  inverse_laws (e_ctrl (bjt_resistor R_)) (f_ctrl (bjt_resistor R_)) (fun _ => True).
Proof. exact bjt_resistor_law. Qed.
Print Assumptions C38_transistor_resistances.

(** The control parameter of the potentiometer lies in [[0, 1]]. *)
Theorem C38_potentiometer : forall R_ A E, 0 < R_ -> 0 <= A <= 1 -> 0 < E ->
  let '(l1, l2) := potentiometer R_ A E in
  passive_law (e_ctrl l1) /\ passive_law (f_ctrl l1) /\ inverse_laws (e_ctrl l1) (f_ctrl l1) (fun _ => True) /\
  passive_law (e_ctrl l2) /\ passive_law (f_ctrl l2) /\ inverse_laws (e_ctrl l2) (f_ctrl l2) (fun _ => True).
Proof. exact pot_law. Qed.
Print Assumptions C38_potentiometer.
(** Nothing enforces that range: beyond it the component creates power. *)
Theorem C38_potentiometer_out_of_range_refuted : exists R_ A E w, 0 < R_ /\ 0 < A /\ 0 < E /\
  w * f_ctrl (snd (potentiometer R_ A E)) w < 0.
Proof. exact pot_refuted. Qed.
Print Assumptions C38_potentiometer_out_of_range_refuted.

Theorem C38_felt_damper : forall L A B q, 0 < L -> 0 < A -> 0 < B -> passive_law (felt_damper L A B q).
Proof. exact felt_damper_law. Qed.
Print Assumptions C38_felt_damper.

(** Heat transfer conserves the power and produces entropy (the entropy of the
    two bodies varies at the rates [- z1] and [- z2]). *)
Theorem C38_heat_transfer : forall R_ w1 w2, 0 < R_ -> 0 < w1 -> 0 < w2 ->
  let '(z1, z2) := transfer R_ w1 w2 w1 w2 in
  w1 * z1 + w2 * z2 = 0 /\ z1 + z2 <= 0 /\ (w1 <> w2 -> z1 + z2 < 0).
Proof. exact transfer_law. Qed.
Print Assumptions C38_heat_transfer.

(** Default parameters of the diode (electronics/_diode.py L88-91). *)
Example C38_example : 0 < 2/1000000000 /\ 0 < 26/1000 /\ 0 < 17/10 /\
  f_ctrl (diode_junction (2/1000000000) (26/1000) (17/10)) 0 = 0 /\
  e_ctrl (resistor 2) 6 = 3 /\ f_ctrl (resistor 2) 3 = 6 /\ e_ctrl (damper 2) 3 = 6.
Proof.
  repeat split; try lra; cbn; try lra.
  replace (0 / (2 / 1000000000) + 1) with 1 by lra. rewrite ln_1. ring.
Qed.

(** ** C39: storage components *)

(** Capacitor, inductor, mass ([inv = true]: x/k) and stiffness ([inv = false]: k x). *)
Theorem C39_linear : forall inv k x, 0 < k ->
  0 <= storage_linear inv k x /\ law_at (storage_linear inv k) x (if inv then x / k else k * x).
Proof. exact storage_linear_law. Qed.
Print Assumptions C39_linear.

(** The efforts or flows that the documentation gives. *)
Theorem C39_documented_laws : forall k x, 0 < k ->
  law_at (capacitor k) x (x / k) /\ law_at (inductor k) x (x / k) /\
  law_at (mass k) x (x / k) /\ law_at (stiffness k) x (k * x).
Proof. exact documented_storages. Qed.
Print Assumptions C39_documented_laws.

Theorem C39_cubic_spring : forall F1 F3 xref x, 0 < F1 -> 0 < F3 -> 0 < xref ->
  0 <= springcubic F1 F3 xref x /\
  law_at (springcubic F1 F3 xref) x (F1 * (x / xref) + F3 * (x / xref) ^ 3).
Proof. exact springcubic_law. Qed.
Print Assumptions C39_cubic_spring.

Theorem C39_saturating_spring : forall K0 Ksat xsat x,
  0 < K0 -> 0 < Ksat -> 0 < xsat -> - xsat < x < xsat ->
  0 <= springsat K0 Ksat xsat x /\
  law_at (springsat K0 Ksat xsat) x
    (K0 * (x + Ksat * (4 / (4 - PI) * (tan (PI * x / (2 * xsat)) - PI * x / (2 * xsat))))).
Proof. exact springsat_law. Qed.
Print Assumptions C39_saturating_spring.

Theorem C39_saturating_magnetic_capacitor : forall C0 Csat phisat x,
  0 < C0 -> 0 < Csat -> 0 < phisat -> - phisat < x < phisat ->
  0 <= capacitorsat C0 Csat phisat x /\
  law_at (capacitorsat C0 Csat phisat) x
    (/ C0 * (x + Csat * (4 / (4 - PI) * (tan (PI * x / (2 * phisat)) - PI * x / (2 * phisat))))).
Proof. exact capacitorsat_law. Qed.
Print Assumptions C39_saturating_magnetic_capacitor.

Theorem C39_heat_capacity : forall C T0 x, 0 < C -> 0 < T0 ->
  0 < heat_capacity C T0 x /\ law_at (heat_capacity C T0) x (T0 * exp (x / C)).
Proof. exact heat_law. Qed.
Print Assumptions C39_heat_capacity.

(** [max(q, 0)/L] is the crush of the felt. *)
Theorem C39_felt : forall L F B q, 0 < L -> 0 < F -> 0 < B ->
  0 <= felt_energy L F B q /\ law_at (felt_energy L F B) q (F * rpow (Rmax q 0 / L) B).
Proof. exact felt_energy_law. Qed.
Print Assumptions C39_felt.

Example C39_example : 0 < 10 /\ 0 < 1/100 /\ springcubic 10 10 (1/100) (1/100) = 3/40 /\
  10 * ((1/100) / (1/100)) + 10 * ((1/100) / (1/100)) ^ 3 = 10 + 10 /\ - (1/100) < 1/200 < 1/100.
Proof. repeat split; unfold springcubic; lra. Qed.

(** ** C47: parameters of components *)

(** When no label given by the caller is the name of a parameter, the law of the
    component is the documented law at the values that the caller provided. *)
Theorem C47_parameters_reach_the_law : forall label kwargs z r r',
  NoDup (map fst kwargs) -> NoDup (map (symbol_of label) kwargs) ->
  (forall kv, In kv kwargs -> ~ In (symbol_of label kv) (map fst kwargs)) ->
  respects (snd (fst (mappars label kwargs))) r -> intended kwargs r r' ->
  eval r (component_law label kwargs z) = eval r' z.
Proof. exact parameters_reach. Qed.
Print Assumptions C47_parameters_reach_the_law.

(** [R=('mu', 0.5)] together with [mu=('m', 2)]: the resistance becomes 2. *)
Theorem C47_label_capture_refuted : exists kwargs z r r',
  NoDup (map fst kwargs) /\ NoDup (map (symbol_of "D") kwargs) /\
  respects (snd (fst (mappars "D" kwargs))) r /\ intended kwargs r r' /\
  eval r (component_law "D" kwargs z) <> eval r' z.
Proof. exact parameters_captured. Qed.
Print Assumptions C47_label_capture_refuted.

Definition diode_args : list (string * parg) :=
  [("Is", APair "Is1" (1#500)); ("R", AVal (1#2)); ("mu", ALabel "quality")].
Example C47_example :
  mappars "D1" diode_args =
    ([("Is", Sym "Is1"); ("R", Sym "D1_R"); ("mu", Sym "quality")],
     [("Is1", (1#500)%Q); ("D1_R", (1#2)%Q)], ["quality"]) /\
  NoDup (map fst diode_args) /\ NoDup (map (symbol_of "D1") diode_args) /\
  (forall kv, In kv diode_args -> ~ In (symbol_of "D1" kv) (map fst diode_args)).
Proof.
  split; [vm_compute; reflexivity|].
  split; [repeat constructor; cbn; intuition discriminate|].
  split; [repeat constructor; cbn; intuition discriminate|].
  intros kv [<-|[<-|[<-|[]]]]; cbn; intuition discriminate.
Qed.
