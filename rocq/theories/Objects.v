(** Model of the python objects of a Core, for [Core.__copy__], [Core.save]
    and [Core.load] (/repo/pyphs/core/core.py L171-303).
    Mutable containers live in a heap and attributes refer to them, so that
    sharing between a core and its copy is visible.  Symbols are written by
    their names; the accessors built by [_struc_getset], [Dimensions] and
    [Indices] are closures on their own core that hold no data and are not
    modelled. *)
From Coq Require Import String List ZArith QArith Bool Lia.
From Verif Require Import Py Expr.
Import ListNotations.
Local Open Scope string_scope.
Local Open Scope list_scope.
Local Open Scope nat_scope.

(** Immutable values, and references to the heap. *)
Inductive value :=
| VNone
| VInt (z : Z)
| VStr (s : string)
| VExpr (e : expr)
| VRef (l : nat).

(** Mutable containers: lists, sets, dictionaries and sympy matrices. *)
Inductive obj :=
| OList (vs : list value)
| OSet (vs : list value)
| ODict (kvs : list (value * value))
| OMat (rows cols : nat) (vs : list value).

(** The location of an object is its position. *)
Definition heap := list obj.

(** An attribute of the core, or one of [core.dims]: the strings and the
    pairs ('dims', name) of core.py L94-96. *)
Inductive aname := ACore (s : string) | ADims (s : string).

Definition aname_eqb (a b : aname) : bool :=
  match a, b with
  | ACore s, ACore t | ADims s, ADims t => String.eqb s t
  | _, _ => false
  end.

(** The attributes of a core object. *)
Definition pycore := list (aname * value).

Fixpoint getattr (c : pycore) (n : aname) : option value :=
  match c with
  | [] => None
  | (m, v) :: c' => if aname_eqb n m then Some v else getattr c' n
  end.

Fixpoint setattr (c : pycore) (n : aname) (v : value) : pycore :=
  match c with
  | [] => [(n, v)]
  | (m, w) :: c' => if aname_eqb n m then (n, v) :: c'
                    else (m, w) :: setattr c' n v
  end.

(** core.py L94-96 *)
Definition attrs_to_copy : list aname :=
  [ADims "_xl"; ADims "_wl"; ADims "_xnl_mono"] ++
  map ACore ["connectors"; "force_wnl"; "subs"; "M"; "_dxH"; "symbs_names";
             "exprs_names"; "observers"].

(** core.py L133-143: the names given to [setsymb] and [setexpr] by the
    constructor. *)
Definition default_symbs : list string :=
  ["x"; "w"; "u"; "y"; "cu"; "cy"; "p"].
Definition default_exprs : list string := ["H"; "z"; "Q"; "Zl"; "bl"].

(** Allocate the containers of a new core one after the other. *)
Fixpoint alloc_all (h : heap) (l : list (aname * obj)) (c : pycore)
  : heap * pycore :=
  match l with
  | [] => (h, c)
  | (n, o) :: l' => alloc_all (h ++ [o]) l' (setattr c n (VRef (length h)))
  end.

(** core.py L56-150: [Core(label)]. *)
Definition new_pycore (h : heap) (label : string) : heap * pycore :=
  alloc_all h
    ([ (ACore "assertions", ODict [(VStr "real", VInt 1)]);
       (ACore "struc_names", OList [VStr "M"; VStr "J"; VStr "R"]);
       (ACore "symbs_names", OSet (map VStr default_symbs));
       (ACore "exprs_names", OSet (map VStr default_exprs));
       (ACore "M", OMat 0 0 []);
       (ACore "connectors", OList []);
       (ACore "subs", ODict []);
       (ACore "observers", ODict []);
       (ACore "force_wnl", OList []) ] ++
     map (fun s => (ACore s, OList [])) default_symbs ++
     [ (ACore "z", OList []); (ACore "Q", OMat 0 0 []);
       (ACore "Zl", OMat 0 0 []); (ACore "bl", OMat 0 0 []) ])
    [ (ACore "label", VStr label); (ACore "_dxH", VNone);
      (ACore "H", VExpr (Num 0));
      (ADims "_xl", VInt 0); (ADims "_wl", VInt 0);
      (ADims "_xnl_mono", VInt 0) ].

(** The names iterated over in L206-209, L261-264 and L285-288, as a
    membership test: the iteration order of the python set is left open. *)
Definition str_in (h : heap) (v : option value) (s : string) : Prop :=
  match v with
  | Some (VRef l) => match nth_error h l with
                     | Some (OSet vs) => In (VStr s) vs
                     | _ => False
                     end
  | _ => False
  end.

Definition names_of (h : heap) (c : pycore) (n : aname) : Prop :=
  In n attrs_to_copy \/
  match n with
  | ACore s => str_in h (getattr c (ACore "exprs_names")) s \/
               str_in h (getattr c (ACore "symbs_names")) s
  | ADims _ => False
  end.

(** sympy's [Basic.copy] is [self.func( *self.args)]: symbols, and numbers
    other than the singletons 0, 1, -1 and 1/2, have no args and their class
    then raises TypeError. *)
Definition expr_copy (e : expr) : result expr :=
  match e with
  | Sym _ => Err TypeError
  | Num q => if (Qeq_bool q 0 || Qeq_bool q 1 || Qeq_bool q (-1)
                 || Qeq_bool q (1 # 2))%bool
             then Ok e else Err TypeError
  | _ => Ok e
  end.

(** core.py L297-300: [attr.copy()], or [copy.copy(attr)] for the values that
    have no [copy] method; both are shallow. *)
Definition copy_value (h : heap) (v : value) : result (heap * value) :=
  match v with
  | VNone | VInt _ | VStr _ => Ok (h, v)
  | VExpr e => do e' <- expr_copy e; Ok (h, VExpr e')
  | VRef l => match nth_error h l with
              | Some o => Ok (h ++ [o], VRef (length h))
              | None => Err GenericException  (** not reached *)
              end
  end.

(** The loop of core.py L285-300, in the order [names]. *)
Fixpoint copy_loop (h : heap) (src : pycore) (names : list aname)
         (tgt : pycore) : result (heap * pycore) :=
  match names with
  | [] => Ok (h, tgt)
  | n :: names' =>
      match getattr src n with
      | None => Err AttributeError
      | Some v =>
          do (h', v') <- copy_value h v;
          copy_loop h' src names' (setattr tgt n v')
      end
  end.

(** core.py L282-303 *)
Definition py_copy (h : heap) (src : pycore) (names : list aname)
  : result (heap * pycore) :=
  let (h1, c1) := new_pycore h "phs" in
  do (h2, c2) <- copy_loop h1 src names c1;
  match getattr src (ACore "label") with
  | Some v => Ok (h2, setattr c2 (ACore "label") v)
  | None => Err AttributeError
  end.

(** ** Saving and loading *)

(** What pickle stores: the whole value, without references. *)
Inductive tree :=
| TNone
| TInt (z : Z)
| TStr (s : string)
| TExpr (e : expr)
| TList (ts : list tree)
| TSet (ts : list tree)
| TDict (kvs : list (tree * tree))
| TMat (rows cols : nat) (ts : list tree)
| TCut.    (** deeper than the depth asked for *)

Fixpoint resolve (n : nat) (h : heap) (v : value) : tree :=
  match v with
  | VNone => TNone
  | VInt z => TInt z
  | VStr s => TStr s
  | VExpr e => TExpr e
  | VRef l =>
      match n with
      | 0 => TCut
      | S n' =>
          match nth_error h l with
          | None => TCut
          | Some (OList vs) => TList (map (resolve n' h) vs)
          | Some (OSet vs) => TSet (map (resolve n' h) vs)
          | Some (ODict kvs) =>
              TDict (map (fun p => (resolve n' h (fst p),
                                    resolve n' h (snd p))) kvs)
          | Some (OMat r k vs) => TMat r k (map (resolve n' h) vs)
          end
      end
  end.

(** Unpickling: build the objects of a tree in the heap, inside first. *)
Fixpoint build (h : heap) (t : tree) {struct t} : heap * value :=
  let fix build_list h ts {struct ts} : heap * list value :=
      match ts with
      | [] => (h, [])
      | t :: ts' => let (h1, v) := build h t in
                    let (h2, vs) := build_list h1 ts' in (h2, v :: vs)
      end in
  let fix build_pairs h ts {struct ts} : heap * list (value * value) :=
      match ts with
      | [] => (h, [])
      | (a, b) :: ts' =>
          let (h1, va) := build h a in
          let (h2, vb) := build h1 b in
          let (h3, vs) := build_pairs h2 ts' in (h3, (va, vb) :: vs)
      end in
  match t with
  | TNone | TCut => (h, VNone)
  | TInt z => (h, VInt z)
  | TStr s => (h, VStr s)
  | TExpr e => (h, VExpr e)
  | TList ts => let (h', vs) := build_list h ts in
                (h' ++ [OList vs], VRef (length h'))
  | TSet ts => let (h', vs) := build_list h ts in
               (h' ++ [OSet vs], VRef (length h'))
  | TDict kvs => let (h', vs) := build_pairs h kvs in
                 (h' ++ [ODict vs], VRef (length h'))
  | TMat r k ts => let (h', vs) := build_list h ts in
                   (h' ++ [OMat r k vs], VRef (length h'))
  end.

(** The dictionary written by [save]: keys are the attribute names without
    their prefix (core.py L211, L217). *)
Definition dico := list (string * tree).

Definition bare (n : aname) : string :=
  match n with ACore s => s | ADims s => s end.

Fixpoint dico_set (d : dico) (k : string) (t : tree) : dico :=
  match d with
  | [] => [(k, t)]
  | (k', t') :: d' => if String.eqb k k' then (k, t) :: d'
                      else (k', t') :: dico_set d' k t
  end.

Fixpoint dico_get (d : dico) (k : string) : option tree :=
  match d with
  | [] => None
  | (k', t) :: d' => if String.eqb k k' then Some t else dico_get d' k
  end.

(** The loop of core.py L206-217; [depth] is at least the nesting of the
    containers (pickle stores all of it). *)
Fixpoint save_loop (depth : nat) (h : heap) (c : pycore) (names : list aname)
         (d : dico) : result dico :=
  match names with
  | [] => Ok d
  | n :: names' =>
      match getattr c n with
      | None => Err AttributeError
      | Some v => save_loop depth h c names'
                            (dico_set d (bare n) (resolve depth h v))
      end
  end.

(** The files: contents by folder and label (core.py L196-201, L248-249). *)
Definition files := list ((string * string) * dico).

Fixpoint file_get (fs : files) (k : string * string) : option dico :=
  match fs with
  | [] => None
  | (k', d) :: fs' =>
      if (String.eqb (fst k) (fst k') && String.eqb (snd k) (snd k'))%bool
      then Some d else file_get fs' k
  end.

(** core.py L171-221: [save(folder, label)] with the default label being that
    of the core. *)
Definition py_save (depth : nat) (h : heap) (c : pycore) (names : list aname)
           (folder : string) (label : option string) (fs : files)
  : result files :=
  match (match label with
         | Some l => Some l
         | None => match getattr c (ACore "label") with
                   | Some (VStr l) => Some l | _ => None end
         end) with
  | None => Err AttributeError
  | Some l =>
      do d <- save_loop depth h c names [("label", TStr l)];
      Ok (((folder, l), d) :: fs)
  end.

(** The loop of core.py L261-275: [self.label] first, then the names of the
    core that loads. *)
Fixpoint load_loop (h : heap) (d : dico) (names : list aname) (c : pycore)
  : result (heap * pycore) :=
  match names with
  | [] => Ok (h, c)
  | n :: names' =>
      match dico_get d (bare n) with
      | None => Err KeyError
      | Some t =>
          let (h1, v) := build h t in
          do (h2, v') <- copy_value h1 v;
          load_loop h2 d names' (setattr c n v')
      end
  end.

(** core.py L223-278; [names] are those of [c] before the call. *)
Definition py_load (h : heap) (c : pycore) (names : list aname)
           (folder : string) (label : option string) (fs : files)
  : result (heap * pycore) :=
  match (match label with
         | Some l => Some l
         | None => match getattr c (ACore "label") with
                   | Some (VStr l) => Some l | _ => None end
         end) with
  | None => Err AttributeError
  | Some l =>
      match file_get fs (folder, l) with
      | None => Err KeyError
      | Some d =>
          match dico_get d "label" with
          | None => Err KeyError
          | Some t =>
              let (h1, v) := build h t in
              load_loop h1 d names (setattr c (ACore "label") v)
          end
      end
  end.
