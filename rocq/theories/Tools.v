(** Model of pyphs/misc/tools.py. *)
From Coq Require Import String List ZArith Bool Lia.
From Verif Require Import Py.
Import ListNotations.
Local Open Scope Z_scope.

(** misc/tools.py L55-70 [myrange].  [indi], [indf] are python integers. *)
Definition myrange (N : nat) (indi indf : Z) : result (list nat) :=
  let lis := seq 0 N in
  if indi <? indf then
    let deb := py_slice lis None (Some indi)
                 ++ py_slice lis (Some (indi + 1)) (Some (indf + 1)) in
    let end_ := py_slice lis (Some (indf + 1)) None in
    do eli <- py_get lis indi;
    Ok (deb ++ [eli] ++ end_)
  else if indf <? indi then
    let deb := py_slice lis None (Some indf) in
    let end_ := py_slice lis (Some indf) (Some indi)
                  ++ py_slice lis (Some (indi + 1)) None in
    do eli <- py_get lis indi;
    Ok (deb ++ [eli] ++ end_)
  else Ok lis.

(** misc/tools.py L75-103 [decimate]; the loop over [it] with counter [n]. *)
Fixpoint decimate_loop {A} (nd : Z) (it : list A) (n : Z) : list A :=
  match it with
  | [] => []
  | el :: it' =>
      if n mod nd =? 0 then el :: decimate_loop nd it' (n + 1)
      else decimate_loop nd it' (n + 1)
  end.

Definition decimate {A} (it : list A) (nd : Z) : result (list A) :=
  if 0 <? nd then Ok (decimate_loop nd it 0) else Err AssertionError.

(** misc/tools.py L108-116 [remove_duplicates]; [out] is [out_list]. *)
Fixpoint remove_duplicates_loop {A} (eqb : A -> A -> bool)
  (lis out : list A) : list A :=
  match lis with
  | [] => out
  | el :: lis' =>
      if py_in eqb el out then remove_duplicates_loop eqb lis' out
      else remove_duplicates_loop eqb lis' (out ++ [el])
  end.

Definition remove_duplicates {A} (eqb : A -> A -> bool) (lis : list A) :=
  remove_duplicates_loop eqb lis [].

(** Nested python lists of strings, the argument type of [get_strings]. *)
Inductive nested := Leaf (s : string) | Node (l : list nested).

(** misc/tools.py L121-141 [get_strings]. *)
Fixpoint get_strings (remove : list string) (o : nested) : list string :=
  match o with
  | Node l => flat_map (get_strings remove) l
  | Leaf s => if py_in String.eqb s remove then [] else [s]
  end.

(** misc/tools.py L173-187 [find]; counter [n]. *)
Fixpoint find_loop {A} (eqb : A -> A -> bool) (symbs allsymbs : list A)
  (n : nat) : list A * list nat :=
  match allsymbs with
  | [] => ([], [])
  | s :: rest =>
      let '(args, inds) := find_loop eqb symbs rest (S n) in
      if py_in eqb s symbs then (s :: args, n :: inds) else (args, inds)
  end.

Definition find {A} (eqb : A -> A -> bool) (symbs allsymbs : list A) :=
  find_loop eqb symbs allsymbs 0.

(** misc/tools.py L192-196 [interleave]. *)
Fixpoint interleave {A} (l1 l2 : list A) : list A :=
  match l1, l2 with
  | a :: l1', b :: l2' => a :: b :: interleave l1' l2'
  | _, _ => []
  end.

(** misc/tools.py L146-168 [ordering]: indices of names in a symbol list. *)
Definition ordering {A} (eqb : A -> A -> bool) (attr args : list A)
  : result (list nat) :=
  rmap (fun e => py_index eqb e attr) args.
