(** Model of the constitutive laws of pyphs/dictionary.
    Simplified: a law is the real function that its sympy expression denotes,
    with the parameters as real arguments; [A**E] with a real exponent is
    [rpow].  The graph of a component is not modelled here (see Graph.v). *)
From Coq Require Import String List ZArith QArith Reals Bool.
From Verif Require Import Py Expr Mat Core Calculus.
Import ListNotations.
Local Open Scope R_scope.

(** Real power of a non-negative base. *)
Definition rpow (x y : R) : R := if Req_EM_T x 0 then 0 else exp (y * ln x).

(** ** Dissipative laws *)

(** The two forms [z['e_ctrl']] and [z['f_ctrl']] attached to an edge. *)
Record law := mkLaw { e_ctrl : R -> R; f_ctrl : R -> R }.

(** edges/dissipatives.py L50-53: [z_f_ctrl = coeff*w], [z_e_ctrl = w/coeff],
    swapped when [inv_coeff]. *)
Definition dissipative_linear (inv_coeff : bool) (coeff : R) : law :=
  if inv_coeff then mkLaw (fun w => coeff * w) (fun w => w / coeff)
  else mkLaw (fun w => w / coeff) (fun w => coeff * w).

(** electronics/_resistor.py L23, magnetics/_resistor.py L26. *)
Definition resistor (R_ : R) : law := dissipative_linear false R_.
(** mechanics/_damper.py L24-25. *)
Definition damper (A : R) : law := dissipative_linear true A.
(** mechanics_dual/_damper.py L24-25. *)
Definition damper_dual (A : R) : law := dissipative_linear false A.

(** electronics/_diode.py L32-33. *)
Definition diode_junction (Is v0 mu : R) : law :=
  mkLaw (fun w => Is * (exp (w / (mu * v0)) - 1)) (fun w => mu * v0 * ln (w / Is + 1)).
(** electronics/_diode.py L35-36. *)
Definition diode_resistor (R_ : R) : law := mkLaw (fun w => w / R_) (fun w => R_ * w).
(** electronics/_diode.py L39-40. *)
Definition diode_gmin (gmin : R) : law := mkLaw (fun w => w * gmin) (fun w => w / gmin).

(** electronics/_bjt.py L41-42. *)
Definition bjt_func (Is Vt mu gmin w : R) : R := Is * (exp (w / (mu * Vt)) - 1) + gmin * w.
(** electronics/_bjt.py L39-43: the coefficients times the functions, for the
    base-collector and the base-emitter junctions (both effort-controlled). *)
Definition bjt (Is betaR betaF Vt mu gmin w1 w2 : R) : R * R :=
  let f1 := bjt_func Is Vt mu gmin w1 in
  let f2 := bjt_func Is Vt mu gmin w2 in
  ((betaR + 1) / betaR * f1 + -1 * f2, -1 * f1 + (betaF + 1) / betaF * f2).
(** electronics/_bjt.py L60-74: one connector resistance. *)
Definition bjt_resistor (R_ : R) : law := mkLaw (fun w => w / R_) (fun w => R_ * w).

(** electronics/_triode.py L35-52: the smoothed sign, the indicator and the
    grid current. *)
Definition soft_sign (gmin x : R) : R := tanh (x / gmin).
Definition indicator (gmin x : R) : R := (1 + soft_sign gmin x) / 2.
Definition triode_igk (Va Rgk gmin vgk : R) : R := indicator gmin (vgk - Va) / Rgk.
(** electronics/_triode.py L58-62: the plate current.  The base of the power is
    negative when [vpk] is: python then gives a complex number, the model
    nothing useful. *)
Definition triode_E (mu Kp Kvb Vct vpk vgk : R) : R :=
  vpk / Kp * ln (1 + exp (Kp * (/ mu + (vgk + Vct) / sqrt (Kvb + vpk ^ 2)))).
Definition triode_ipk (mu Ex Kg Kp Kvb Vct gmin vpk vgk : R) : R :=
  let e := triode_E mu Kp Kvb Vct vpk vgk in rpow e Ex * (1 + soft_sign gmin e) / Kg.
(** electronics/_triode.py L65. *)
Definition triode (mu Ex Kg Kp Kvb Vct Va Rgk gmin vpk vgk : R) : R * R :=
  (triode_ipk mu Ex Kg Kp Kvb Vct gmin vpk vgk + (vpk + vgk) * gmin,
   triode_igk Va Rgk gmin vgk + (vpk + vgk) * gmin).

(** electronics/_potentiometer.py L30-31. *)
Definition pot_R1 (R_ A E : R) : R := 1 + R_ * rpow A E.
Definition pot_R2 (R_ A E : R) : R := 1 + R_ * (1 - rpow A E).
(** electronics/_potentiometer.py L36-49. *)
Definition potentiometer (R_ A E : R) : law * law :=
  (mkLaw (fun w => w / pot_R1 R_ A E) (fun w => pot_R1 R_ A E * w),
   mkLaw (fun w => w / pot_R2 R_ A E) (fun w => pot_R2 R_ A E * w)).

(** mechanics/_felt.py L41. *)
Definition felt_r (L A B q : R) : R :=
  if Rle_dec q 0 then 0 else A * L / B * rpow (q / L) (B - 1).
(** mechanics/_felt.py L48 (mechanics_dual/_felt.py uses the same expression). *)
Definition felt_damper (L A B q w : R) : R := felt_r L A B q * w.

(** thermics/_transfers.py L33-34; [t1] and [t2] are the temperatures [gx]. *)
Definition transfer (R_ t1 t2 w1 w2 : R) : R * R :=
  (R_ * (w1 - w2) / t1, R_ * (w2 - w1) / t2).

(** ** Storage functions *)

(** edges/storages.py L31-33. *)
Definition storage_linear (inv_coeff : bool) (value x : R) : R :=
  (if inv_coeff then / value else value) * x ^ 2 / 2.
(** electronics/_capacitor.py L41-46, _inductor.py L22-26, magnetics/_capacitor.py
    L26-30, mechanics/_mass.py L25-29. *)
Definition capacitor (C x : R) : R := storage_linear true C x.
Definition inductor (L x : R) : R := storage_linear true L x.
Definition mass (M x : R) : R := storage_linear true M x.
(** mechanics/_stiffness.py L25-29. *)
Definition stiffness (K x : R) : R := storage_linear false K x.

(** mechanics/_springcubic.py L29. *)
Definition springcubic (F1 F3 xref x : R) : R :=
  F1 * x ^ 2 / (2 * xref) + F3 * x ^ 4 / (4 * xref ^ 3).

(** mechanics/_springsat.py L34-36, magnetics/_capacitorsat.py L29-31. *)
Definition Hsat (xsat x : R) : R :=
  let t1 := PI * x / (2 * xsat) in
  let c1 := 8 * xsat / (PI * (4 - PI)) in
  c1 * (ln (cos t1) + t1 ^ 2 / 2).
(** mechanics/_springsat.py L33-37. *)
Definition springsat (K0 Ksat xsat x : R) : R := K0 * (x ^ 2 / 2 - Ksat * Hsat xsat x).
(** magnetics/_capacitorsat.py L28-32. *)
Definition capacitorsat (C0 Csat phisat x : R) : R := (x ^ 2 / 2 - Csat * Hsat phisat x) / C0.

(** thermics/_capacitor.py L37. *)
Definition heat_capacity (C T0 x : R) : R := C * T0 * exp (x / C).

(** mechanics/_felt.py L31. *)
Definition felt_energy (L F B q : R) : R :=
  if Rle_dec q 0 then 0 else L * F / (B + 1) * rpow (q / L) (B + 1).

(** ** Parameters of components *)

(** An argument of a component: [(label, value)], a value or a label.
    Simplified: values are numbers, so the TypeErrors of tools.py L186-196 do
    not occur. *)
Inductive parg := APair (label : string) (v : Q) | AVal (v : Q) | ALabel (label : string).

(** dictionary/tools.py L172-218 [form]: the symbol, the substitution and the
    free parameter. *)
Definition form (name : string) (obj : parg) : string * list (string * Q) * option string :=
  match obj with
  | APair l v => (l, [(l, v)], None)
  | AVal v => (name, [(name, v)], None)
  | ALabel l => (l, [], Some l)
  end.

(** dictionary/tools.py L227-235 [mappars]: the renaming of the parameters of
    the law, the values of the new symbols and the free parameters. *)
Definition mappars (label : string) (kwargs : list (string * parg))
  : list (string * expr) * list (string * Q) * list string :=
  fold_left (fun st kv =>
    let '(dicpars, subs, ps) := st in
    let '(symb, sub, par) := form (label ++ "_" ++ fst kv)%string (snd kv) in
    (dict_update dicpars [(fst kv, Sym symb)], dict_update subs sub,
     match par with Some p => (ps ++ [p])%list | None => ps end)) kwargs ([], [], []).

(** edges/dissipatives.py L117-126 and edges/storages.py L91-95: the law with
    the names of its parameters replaced.  sympy replaces the keys in the order
    of their names, which is here the order of [kwargs]. *)
Definition component_law (label : string) (kwargs : list (string * parg)) (z : expr) : expr :=
  subs (fst (fst (mappars label kwargs))) z.
