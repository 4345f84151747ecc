(** Vocabulary for the inverses of the parameters of a core. *)
From Coq Require Import String List Reals.
From Verif Require Import Expr Mat Core.
Import ListNotations.
Local Open Scope string_scope.
Local Open Scope list_scope.

(** Under [r] every parameter has the value that the dictionary gives. *)
Definition gives (d : list (string * expr)) (r : env) : Prop :=
  forall k v, In (k, v) d -> r k = eval r v.

(** The keys are distinct, and a key "inv..." stands for the inverse of another
    one. *)
Definition inverses_only (d : list (string * expr)) : Prop :=
  NoDup (map fst d) /\
  forall s v, In (("inv" ++ s)%string, v) d -> exists w, In (s, w) d /\ v = Inv w.

(** The symbols of the values. *)
Definition value_symbols (d : list (string * expr)) : list string :=
  flat_map (fun p => free_symbols (snd p)) d.

(** No negative power of a symbol of [ks]. *)
Fixpoint without_inverse (ks : list string) (e : expr) : Prop :=
  match e with
  | Num _ | Sym _ => True
  | Add a b | Mul a b => without_inverse ks a /\ without_inverse ks b
  | Pow a _ => without_inverse ks a
  | Inv a => without_inverse ks a /\
      match a with Sym s | Pow (Sym s) (S _) => ~ In s ks | _ => True end
  | App _ a => without_inverse ks a
  | Ite a b t e => without_inverse ks a /\ without_inverse ks b /\ without_inverse ks t /\ without_inverse ks e
  end.

(** [r'] is [r] except on the keys of [d'] that [d] does not have. *)
Definition extends (d d' : list (string * expr)) (r r' : env) : Prop :=
  forall s, In s (map fst d) \/ ~ In s (map fst d') -> r' s = r s.

(** All the expressions of a core, without those of its connectors and of its
    dictionary. *)
Definition core_exprs (c : core) : list expr :=
  c_H c :: c_z c ++ c_bl c ++ match c_dxH c with Some l => l | None => [] end ++
  map snd (c_observers c) ++ concat (rows_of (c_Q c)) ++ concat (rows_of (c_Zl c)) ++ concat (rows_of (c_M c)).
