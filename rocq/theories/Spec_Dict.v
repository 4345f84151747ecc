(** Vocabulary for components. *)
From Coq Require Import String List QArith Reals Qreals.
From Verif Require Import Py Expr Dict.
Import ListNotations.
Local Open Scope R_scope.

(** A law never creates power. *)
Definition passive_law (z : R -> R) : Prop := forall w, 0 <= w * z w.

(** Two laws are inverse of one another on the values that satisfy [dom]. *)
Definition inverse_laws (f g : R -> R) (dom : R -> Prop) : Prop :=
  (forall w, dom (f w)) /\ (forall w, g (f w) = w) /\ (forall w, dom w -> f (g w) = w).

(** [f] is the derivative of the energy [H] at [x]. *)
Definition law_at (H : R -> R) (x f : R) : Prop := derivable_pt_lim H x f.

(** The symbol that stands for the parameter [k] of the component [label]. *)
Definition symbol_of (label : string) (kv : string * parg) : string :=
  match snd kv with
  | APair l _ => l
  | AVal _ => (label ++ "_" ++ fst kv)%string
  | ALabel l => l
  end.

(** [r'] gives to each parameter the value that the caller provided, or the
    current value of the label it was given; other symbols keep their value. *)
Definition intended (kwargs : list (string * parg)) (r r' : env) : Prop :=
  (forall k l v, In (k, APair l v) kwargs -> r' k = Q2R v) /\
  (forall k v, In (k, AVal v) kwargs -> r' k = Q2R v) /\
  (forall k l, In (k, ALabel l) kwargs -> r' k = r l) /\
  (forall s, ~ In s (map fst kwargs) -> r' s = r s).

(** [r] gives to every symbol of the dictionary its value. *)
Definition respects (d : list (string * Q)) (r : env) : Prop :=
  forall s v, In (s, v) d -> r s = Q2R v.
