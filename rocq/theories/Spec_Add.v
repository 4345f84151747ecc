(** Vocabulary for the sum of two cores. *)
From Coq Require Import String List.
From Verif Require Import Py Expr Mat Core Spec_Core.
Import ListNotations.
Local Open Scope nat_scope.

(** Rows, in a structure whose components are those of [c1] followed kind by
    kind by those of [c2], of the components of [c1] ... *)
Definition left_rows (c1 c2 : core) : list nat :=
  let x := length (c_x c1) + length (c_x c2) in
  let w := length (c_w c1) + length (c_w c2) in
  let y := length (c_y c1) + length (c_y c2) in
  seq 0 (length (c_x c1)) ++ seq x (length (c_w c1)) ++ seq (x + w) (length (c_y c1)) ++
  seq (x + w + y) (length (c_cy c1)).
(** ... and of those of [c2]. *)
Definition right_rows (c1 c2 : core) : list nat :=
  let x := length (c_x c1) + length (c_x c2) in
  let w := length (c_w c1) + length (c_w c2) in
  let y := length (c_y c1) + length (c_y c2) in
  seq (length (c_x c1)) (length (c_x c2)) ++ seq (x + length (c_w c1)) (length (c_w c2)) ++
  seq (x + w + length (c_y c1)) (length (c_y c2)) ++ seq (x + w + y + length (c_cy c1)) (length (c_cy c2)).
