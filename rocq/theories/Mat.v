(** Matrices of expressions: the operations of [sympy.SparseMatrix] used by
    pyphs (core/tools/_types.py: [matrix_types[0]] is [sympy.SparseMatrix]).
    A matrix is a shape and an entry function; entries outside the shape are
    never read by the code and carry no meaning. *)
From Coq Require Import String List ZArith QArith Bool Lia.
From Verif Require Import Py Expr.
Import ListNotations.
Local Open Scope nat_scope.

Record mat := mkMat { nr : nat; nc : nat; ent : nat -> nat -> expr }.

(** [sympy.zeros(r, c)], [sympy.zeros(n)], [sympy.eye(n)]. *)
Definition zeros (r c : nat) : mat := mkMat r c (fun _ _ => Num 0).
Definition eye (n : nat) : mat :=
  mkMat n n (fun i j => if Nat.eqb i j then Num 1 else Num 0).

(** [M.T]. *)
Definition mtrans (A : mat) : mat := mkMat (nc A) (nr A) (fun i j => ent A j i).

(** [A + B], [A - B], [-A], [A * c]: ShapeError when the shapes differ. *)
Definition same_shape (A B : mat) : bool :=
  Nat.eqb (nr A) (nr B) && Nat.eqb (nc A) (nc B).
Definition madd (A B : mat) : result mat :=
  if same_shape A B
  then Ok (mkMat (nr A) (nc A) (fun i j => sadd (ent A i j) (ent B i j)))
  else Err ShapeError.
Definition msub (A B : mat) : result mat :=
  if same_shape A B
  then Ok (mkMat (nr A) (nc A) (fun i j => ssub (ent A i j) (ent B i j)))
  else Err ShapeError.
Definition mscal (c : expr) (A : mat) : mat :=
  mkMat (nr A) (nc A) (fun i j => smul c (ent A i j)).
Definition mneg (A : mat) : mat := mscal (Num (-1)) A.

(** Finite sum of expressions. *)
Fixpoint esum (n : nat) (f : nat -> expr) : expr :=
  match n with
  | O => Num 0
  | S m => sadd (esum m f) (f m)
  end.

(** [A * B] (matrix product). *)
Definition mmul (A B : mat) : result mat :=
  if Nat.eqb (nc A) (nr B)
  then Ok (mkMat (nr A) (nc B)
             (fun i j => esum (nc A) (fun k => smul (ent A i k) (ent B k j))))
  else Err ShapeError.

(** [M[a:b, c:d]]: python slices, clamped. *)
Definition zb (n : nat) (i : Z) : nat := Z.to_nat (py_clamp (Z.of_nat n) i).
Definition mslice (A : mat) (a b c d : Z) : mat :=
  mkMat (zb (nr A) b - zb (nr A) a) (zb (nc A) d - zb (nc A) c)
    (fun i j => ent A (zb (nr A) a + i) (zb (nc A) c + j)).

(** [M[a:b, c:d] = V]: sympy's copyin_matrix, ShapeError unless the shape of
    [V] is exactly that of the (clamped) target. *)
Definition massign (A : mat) (a b c d : Z) (V : mat) : result mat :=
  let a' := zb (nr A) a in let b' := zb (nr A) b in
  let c' := zb (nc A) c in let d' := zb (nc A) d in
  if (a' <=? b') && (c' <=? d') && Nat.eqb (nr V) (b' - a') && Nat.eqb (nc V) (d' - c')
  then Ok (mkMat (nr A) (nc A)
             (fun i j => if (a' <=? i) && (i <? b') && (c' <=? j) && (j <? d')
                         then ent V (i - a') (j - c') else ent A i j))
  else Err ShapeError.

(** [M[rows, cols]] with lists of indices, [M[:, cols]]. *)
Definition mfancy (A : mat) (rows cols : list nat) : mat :=
  mkMat (length rows) (length cols)
    (fun i j => ent A (nth i rows 0) (nth j cols 0)).
Definition mcols (A : mat) (cols : list nat) : mat :=
  mkMat (nr A) (length cols) (fun i j => ent A i (nth j cols 0)).

(** [hstack(A, B)], [vstack(A, B)]: ShapeError when the heights (widths)
    differ.  Simplified: sympy's hstack also accepts a first argument with no
    column and another height; the shapes met in pyphs never need this. *)
Definition hstack2 (A B : mat) : result mat :=
  if Nat.eqb (nr A) (nr B)
  then Ok (mkMat (nr A) (nc A + nc B)
             (fun i j => if j <? nc A then ent A i j else ent B i (j - nc A)))
  else Err ShapeError.
Definition vstack2 (A B : mat) : result mat :=
  if Nat.eqb (nc A) (nc B)
  then Ok (mkMat (nr A + nr B) (nc A)
             (fun i j => if i <? nr A then ent A i j else ent B (i - nr A) j))
  else Err ShapeError.
Fixpoint stack (f : mat -> mat -> result mat) (A : mat) (l : list mat) : result mat :=
  match l with
  | [] => Ok A
  | B :: l' => do C <- f A B; stack f C l'
  end.
Definition hstack (l : list mat) : result mat :=
  match l with [] => Ok (zeros 0 0) | A :: l' => stack hstack2 A l' end.
Definition vstack (l : list mat) : result mat :=
  match l with [] => Ok (zeros 0 0) | A :: l' => stack vstack2 A l' end.

(** [sympy.diag(A, B)], [sympy.diag( *l)]. *)
Definition diag2 (A B : mat) : mat :=
  mkMat (nr A + nr B) (nc A + nc B)
    (fun i j => if (i <? nr A) && (j <? nc A) then ent A i j
                else if (nr A <=? i) && (nc A <=? j) then ent B (i - nr A) (j - nc A)
                else Num 0).
Definition diagl (l : list mat) : mat := fold_right diag2 (zeros 0 0) l.

(** [M.is_zero]: every entry is the literal zero.  sympy may answer [None] for
    an undecided symbolic entry; the code only uses [not M.is_zero]. *)
Definition is_zero (A : mat) : bool :=
  forallb (fun i => forallb (fun j => is0 (ent A i j)) (seq 0 (nc A))) (seq 0 (nr A)).

(** Entries row by row, and a matrix from its rows (used by examples). *)
Definition rows_of (A : mat) : list (list expr) :=
  map (fun i => map (fun j => ent A i j) (seq 0 (nc A))) (seq 0 (nr A)).
Definition of_rows (c : nat) (l : list (list expr)) : mat :=
  mkMat (length l) c (fun i j => nth j (nth i l []) (Num 0)).

(** Column vector [SparseMatrix(list)] and back [list(M)] for one column. *)
Definition colvec (l : list expr) : mat :=
  mkMat (length l) 1 (fun i _ => nth i l (Num 0)).
Definition col_list (A : mat) (j : nat) : list expr :=
  map (fun i => ent A i j) (seq 0 (nr A)).

(** core/maths/_matrices.py L25-48 [matvecprod]. *)
Definition matvecprod (A : mat) (v : list expr) : result (list expr) :=
  if Nat.eqb (length v) (nc A)
  then if Nat.eqb (length v) 0 then Ok (repeat (Num 0) (nr A))
       else do B <- mmul A (colvec v); Ok (col_list B 0)
  else Err IndexError.

(** core/maths/_calculus.py L13-48 [gradient] (simplify=False). *)
Definition gradient (H : expr) (vars : list string) : list expr :=
  map (fun x => diff x H) vars.

(** core/maths/_calculus.py L86-121 [jacobian] (simplify=False). *)
Definition jacobian (f : list expr) (vars : list string) : mat :=
  mkMat (length f) (length vars)
    (fun i j => diff (nth j vars EmptyString) (nth i f (Num 0))).

(** core/maths/_calculus.py L51-83 [hessian] (simplify=False). *)
Definition hessian (H : expr) (vars : list string) : mat :=
  jacobian (gradient H vars) vars.

(** core/maths/_matrices.py L13-22 [inverse] (dosimplify=False); [inv] stands
    for sympy's [Matrix.inv], [None] for its "not invertible" ValueError. *)
Definition inverse (inv : mat -> option mat) (A : mat) : result mat :=
  if Nat.eqb (nr A) 0 && Nat.eqb (nc A) 0 then Ok A
  else match inv A with Some B => Ok B | None => Err ValueError end.
