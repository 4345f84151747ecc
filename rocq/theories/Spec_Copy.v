(** Vocabulary for copies, saves and loads of cores: what can be observed of
    a core, and what a program holding a core can do to it. *)
From Coq Require Import String List ZArith QArith Bool.
From Verif Require Import Py Expr Objects.
Import ListNotations.
Local Open Scope string_scope.
Local Open Scope list_scope.
Local Open Scope nat_scope.

(** The content of attribute [n] of core [c], followed to depth [d]. *)
Definition observe (d : nat) (h : heap) (c : pycore) (n : aname)
  : option tree :=
  option_map (resolve d h) (getattr c n).

(** Attribute [n] shows the same content, at every depth. *)
Definition same_at (n : aname) (h : heap) (c : pycore) (h' : heap)
           (c' : pycore) : Prop :=
  forall d, observe d h' c' n = observe d h c n.

(** Every attribute shows the same content, at every depth. *)
Definition same_everywhere (h : heap) (c : pycore) (h' : heap) (c' : pycore)
  : Prop := forall n, same_at n h c h' c'.

(** The public content of a core: symbols, expressions, structure,
    substitutions, observers, connectors, dimensions and label. *)
Definition public : list aname :=
  map ACore ["label"; "x"; "w"; "u"; "y"; "cu"; "cy"; "p";
             "H"; "z"; "Q"; "Zl"; "bl"; "M"; "_dxH";
             "subs"; "observers"; "connectors"; "force_wnl";
             "symbs_names"; "exprs_names"] ++
  map ADims ["_xl"; "_wl"; "_xnl_mono"].

(** References held directly by a value and by an object. *)
Definition refs (v : value) : list nat :=
  match v with VRef l => [l] | _ => [] end.

Definition orefs (o : obj) : list nat :=
  match o with
  | OList vs | OSet vs | OMat _ _ vs => flat_map refs vs
  | ODict kvs => flat_map (fun p => refs (fst p) ++ refs (snd p)) kvs
  end.

(** Locations that can be reached from a location. *)
Inductive reach (h : heap) : nat -> nat -> Prop :=
| reach_here l : reach h l l
| reach_step l o m k :
    nth_error h l = Some o -> In m (orefs o) -> reach h m k -> reach h l k.

(** Locations that can be reached from a core. *)
Definition reaches (h : heap) (c : pycore) (k : nat) : Prop :=
  exists n v l, getattr c n = Some v /\ In l (refs v) /\ reach h l k.

(** Locations inside the containers of the attributes [names]. *)
Definition nested (h : heap) (c : pycore) (names : aname -> Prop) (k : nat)
  : Prop :=
  exists n l o m, names n /\ getattr c n = Some (VRef l) /\
    nth_error h l = Some o /\ In m (orefs o) /\ reach h m k.

(** Everything reached from the core exists. *)
Definition allocated (h : heap) (c : pycore) : Prop :=
  forall k, reaches h c k -> k < length h.

(** The core holds the attributes every core has, under the names every core
    registers. *)
Definition complete (h : heap) (c : pycore) : Prop :=
  (forall n, In n public -> getattr c n <> None) /\
  (forall n, In n public -> n <> ACore "label" -> names_of h c n).

(** [names] enumerates, in some order, what [Core.__copy__], [save] and [load]
    iterate over. *)
Definition enumerates (names : list aname) (h : heap) (c : pycore) : Prop :=
  forall n, In n names <-> names_of h c n.

(** Attributes that sympy can copy: not a lone symbol, nor a number other
    than 0, 1, -1 and 1/2. *)
Definition copyable (v : value) : Prop :=
  match v with
  | VExpr (Sym _) => False
  | VExpr (Num q) => (q == 0 \/ q == 1 \/ q == -1 \/ q == 1 # 2)%Q
  | _ => True
  end.

(** ** What a program does with a core it holds *)

Inductive action :=
| New (o : obj)                  (** create a container *)
| Write (l : nat) (o : obj)      (** change a container in place *)
| Set_ (n : aname) (v : value)   (** rebind an attribute *)
| Del (n : aname).               (** remove an attribute *)

Definition replace (h : heap) (l : nat) (o : obj) : heap :=
  firstn l h ++ o :: skipn (S l) h.

(** [held] is what the program has references to; it may only use those, and
    only writes to containers that satisfy [writable]. *)
Inductive does (writable : nat -> Prop)
  : action -> heap * pycore * (nat -> Prop) -> heap * pycore * (nat -> Prop)
    -> Prop :=
| does_new h c (held : nat -> Prop) o :
    (forall l, In l (orefs o) -> held l) ->
    does writable (New o) (h, c, held)
         (h ++ [o], c, fun l => held l \/ l = length h)
| does_write h c (held : nat -> Prop) l o :
    held l -> writable l -> l < length h ->
    (forall m, In m (orefs o) -> held m) ->
    does writable (Write l o) (h, c, held) (replace h l o, c, held)
| does_set h c (held : nat -> Prop) n v :
    (forall m, In m (refs v) -> held m) ->
    does writable (Set_ n v) (h, c, held) (h, setattr c n v, held)
| does_del h c (held : nat -> Prop) n :
    does writable (Del n) (h, c, held)
         (h, filter (fun p => negb (aname_eqb (fst p) n)) c, held).

(** Two programs, each holding one core in the same memory, in any
    interleaving. *)
Inductive history (writable : nat -> Prop)
          (h0 : heap) (a0 b0 : pycore) :
  heap -> pycore -> (nat -> Prop) -> pycore -> (nat -> Prop) -> Prop :=
| h_start :
    history writable h0 a0 b0 h0 a0 (reaches h0 a0) b0 (reaches h0 b0)
| h_left h a ka b kb act h' a' ka' :
    history writable h0 a0 b0 h a ka b kb ->
    does writable act (h, a, ka) (h', a', ka') ->
    history writable h0 a0 b0 h' a' ka' b kb
| h_right h a ka b kb act h' b' kb' :
    history writable h0 a0 b0 h a ka b kb ->
    does writable act (h, b, kb) (h', b', kb') ->
    history writable h0 a0 b0 h' a ka b' kb'.

(** Neither core changes when the program holding the other one acts. *)
Definition independent (writable : nat -> Prop) (h0 : heap) (a0 b0 : pycore)
  : Prop :=
  forall h a ka b kb act,
    history writable h0 a0 b0 h a ka b kb ->
    (forall h' b' kb', does writable act (h, b, kb) (h', b', kb') ->
       same_everywhere h a h' a) /\
    (forall h' a' ka', does writable act (h, a, ka) (h', a', ka') ->
       same_everywhere h b h' b).

(** ** Files *)

(** No cycle among the containers of the core, nested less than [d] deep. *)
Fixpoint shallow (d : nat) (h : heap) (v : value) : Prop :=
  match v with
  | VRef l =>
      match d with
      | 0 => False
      | S d' => exists o, nth_error h l = Some o /\
          match o with
          | OList vs | OSet vs | OMat _ _ vs =>
              fold_right (fun v P => shallow d' h v /\ P) True vs
          | ODict kvs =>
              fold_right (fun p P => (shallow d' h (fst p)
                                      /\ shallow d' h (snd p)) /\ P) True kvs
          end
      end
  | _ => True
  end.

(** Saves to other files, made later. *)
Definition later (k : string * string) (fs fs' : files) : Prop :=
  exists l, fs' = l ++ fs /\ forall e, In e l -> fst e <> k.

(** The label used by [save] and [load]: the argument, or that of the core. *)
Definition file_label (c : pycore) (arg : option string) (lab : string)
  : Prop :=
  arg = Some lab \/
  arg = None /\ getattr c (ACore "label") = Some (VStr lab).

(** Every registered name is an attribute. *)
Definition registered (h : heap) (c : pycore) : Prop :=
  forall n, names_of h c n -> getattr c n <> None.

(** No attribute of the core is registered under the name of the label, nor
    under that of a dimension: the file is indexed by the bare names. *)
Definition no_clash (h : heap) (c : pycore) : Prop :=
  forall s, names_of h c (ACore s) ->
    ~ In s ["label"; "_xl"; "_wl"; "_xnl_mono"].

(** The attributes [names] can be written and read back: no cycle, and nothing
    sympy refuses to copy. *)
Definition storable (depth : nat) (h : heap) (c : pycore)
           (names : aname -> Prop) : Prop :=
  forall n v, names n -> getattr c n = Some v ->
    shallow depth h v /\ copyable v.

(** One program acting alone, any number of times. *)
Inductive runs (writable : nat -> Prop)
  : heap * pycore * (nat -> Prop) -> heap * pycore * (nat -> Prop) -> Prop :=
| runs_none s : runs writable s s
| runs_more s s' s'' act :
    runs writable s s' -> does writable act s' s'' -> runs writable s s''.

(** The containers of the attributes [names] contain no container. *)
Definition no_nesting (h : heap) (c : pycore) (names : aname -> Prop) : Prop :=
  forall n l o, names n -> getattr c n = Some (VRef l) ->
    nth_error h l = Some o -> orefs o = [].
