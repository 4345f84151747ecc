(** Model of pyphs/core: the [Core] object and the functions that act on its
    structure.  Symbols are modelled by their names.
    Mutating methods return the new state together with the exception they
    raised, if any, so that the state left behind by a failing call is part of
    the model. *)
From Coq Require Import String List ZArith QArith Bool Lia.
From Verif Require Import Py Tools Expr Mat.
Import ListNotations.
Local Open Scope Z_scope.

(** core/core.py L790-792: one entry of [core.connectors]. *)
Record connector := mkConn {
  k_u0 : string; k_u1 : string;
  k_y0 : string; k_y1 : string;
  k_alpha : expr }.

(** core/core.py L56-165: the attributes of a [Core]; [c_xl], [c_wl] and
    [c_xnl_mono] are the counters of core/structure/dimensions.py L41-45.
    Not modelled: latex, saving, simulation and graph helpers; user attributes
    added by [setsymb]/[setexpr] under other names. *)
Record core := mkCore {
  c_label : string;
  c_x : list string;
  c_H : expr;
  c_dxH : option (list expr);
  c_w : list string;
  c_z : list expr;
  c_u : list string;
  c_y : list string;
  c_cu : list string;
  c_cy : list string;
  c_p : list string;
  c_M : mat;
  c_connectors : list connector;
  c_subs : list (string * expr);
  c_observers : list (string * expr);
  c_force_wnl : list string;
  c_Q : mat;
  c_bl : list expr;
  c_Zl : mat;
  c_xl : Z;
  c_wl : Z;
  c_xnl_mono : Z }.

Definition set_label (v : string) (c : core) : core :=
  mkCore v (c_x c) (c_H c) (c_dxH c) (c_w c) (c_z c) (c_u c) (c_y c) (c_cu c) (c_cy c) (c_p c) (c_M c) (c_connectors c) (c_subs c) (c_observers c) (c_force_wnl c) (c_Q c) (c_bl c) (c_Zl c) (c_xl c) (c_wl c) (c_xnl_mono c).
Definition set_x (v : list string) (c : core) : core :=
  mkCore (c_label c) v (c_H c) (c_dxH c) (c_w c) (c_z c) (c_u c) (c_y c) (c_cu c) (c_cy c) (c_p c) (c_M c) (c_connectors c) (c_subs c) (c_observers c) (c_force_wnl c) (c_Q c) (c_bl c) (c_Zl c) (c_xl c) (c_wl c) (c_xnl_mono c).
Definition set_H (v : expr) (c : core) : core :=
  mkCore (c_label c) (c_x c) v (c_dxH c) (c_w c) (c_z c) (c_u c) (c_y c) (c_cu c) (c_cy c) (c_p c) (c_M c) (c_connectors c) (c_subs c) (c_observers c) (c_force_wnl c) (c_Q c) (c_bl c) (c_Zl c) (c_xl c) (c_wl c) (c_xnl_mono c).
Definition set_dxH (v : option (list expr)) (c : core) : core :=
  mkCore (c_label c) (c_x c) (c_H c) v (c_w c) (c_z c) (c_u c) (c_y c) (c_cu c) (c_cy c) (c_p c) (c_M c) (c_connectors c) (c_subs c) (c_observers c) (c_force_wnl c) (c_Q c) (c_bl c) (c_Zl c) (c_xl c) (c_wl c) (c_xnl_mono c).
Definition set_w (v : list string) (c : core) : core :=
  mkCore (c_label c) (c_x c) (c_H c) (c_dxH c) v (c_z c) (c_u c) (c_y c) (c_cu c) (c_cy c) (c_p c) (c_M c) (c_connectors c) (c_subs c) (c_observers c) (c_force_wnl c) (c_Q c) (c_bl c) (c_Zl c) (c_xl c) (c_wl c) (c_xnl_mono c).
Definition set_z (v : list expr) (c : core) : core :=
  mkCore (c_label c) (c_x c) (c_H c) (c_dxH c) (c_w c) v (c_u c) (c_y c) (c_cu c) (c_cy c) (c_p c) (c_M c) (c_connectors c) (c_subs c) (c_observers c) (c_force_wnl c) (c_Q c) (c_bl c) (c_Zl c) (c_xl c) (c_wl c) (c_xnl_mono c).
Definition set_u (v : list string) (c : core) : core :=
  mkCore (c_label c) (c_x c) (c_H c) (c_dxH c) (c_w c) (c_z c) v (c_y c) (c_cu c) (c_cy c) (c_p c) (c_M c) (c_connectors c) (c_subs c) (c_observers c) (c_force_wnl c) (c_Q c) (c_bl c) (c_Zl c) (c_xl c) (c_wl c) (c_xnl_mono c).
Definition set_y (v : list string) (c : core) : core :=
  mkCore (c_label c) (c_x c) (c_H c) (c_dxH c) (c_w c) (c_z c) (c_u c) v (c_cu c) (c_cy c) (c_p c) (c_M c) (c_connectors c) (c_subs c) (c_observers c) (c_force_wnl c) (c_Q c) (c_bl c) (c_Zl c) (c_xl c) (c_wl c) (c_xnl_mono c).
Definition set_cu (v : list string) (c : core) : core :=
  mkCore (c_label c) (c_x c) (c_H c) (c_dxH c) (c_w c) (c_z c) (c_u c) (c_y c) v (c_cy c) (c_p c) (c_M c) (c_connectors c) (c_subs c) (c_observers c) (c_force_wnl c) (c_Q c) (c_bl c) (c_Zl c) (c_xl c) (c_wl c) (c_xnl_mono c).
Definition set_cy (v : list string) (c : core) : core :=
  mkCore (c_label c) (c_x c) (c_H c) (c_dxH c) (c_w c) (c_z c) (c_u c) (c_y c) (c_cu c) v (c_p c) (c_M c) (c_connectors c) (c_subs c) (c_observers c) (c_force_wnl c) (c_Q c) (c_bl c) (c_Zl c) (c_xl c) (c_wl c) (c_xnl_mono c).
Definition set_p (v : list string) (c : core) : core :=
  mkCore (c_label c) (c_x c) (c_H c) (c_dxH c) (c_w c) (c_z c) (c_u c) (c_y c) (c_cu c) (c_cy c) v (c_M c) (c_connectors c) (c_subs c) (c_observers c) (c_force_wnl c) (c_Q c) (c_bl c) (c_Zl c) (c_xl c) (c_wl c) (c_xnl_mono c).
Definition set_M (v : mat) (c : core) : core :=
  mkCore (c_label c) (c_x c) (c_H c) (c_dxH c) (c_w c) (c_z c) (c_u c) (c_y c) (c_cu c) (c_cy c) (c_p c) v (c_connectors c) (c_subs c) (c_observers c) (c_force_wnl c) (c_Q c) (c_bl c) (c_Zl c) (c_xl c) (c_wl c) (c_xnl_mono c).
Definition set_connectors (v : list connector) (c : core) : core :=
  mkCore (c_label c) (c_x c) (c_H c) (c_dxH c) (c_w c) (c_z c) (c_u c) (c_y c) (c_cu c) (c_cy c) (c_p c) (c_M c) v (c_subs c) (c_observers c) (c_force_wnl c) (c_Q c) (c_bl c) (c_Zl c) (c_xl c) (c_wl c) (c_xnl_mono c).
Definition set_subs (v : list (string * expr)) (c : core) : core :=
  mkCore (c_label c) (c_x c) (c_H c) (c_dxH c) (c_w c) (c_z c) (c_u c) (c_y c) (c_cu c) (c_cy c) (c_p c) (c_M c) (c_connectors c) v (c_observers c) (c_force_wnl c) (c_Q c) (c_bl c) (c_Zl c) (c_xl c) (c_wl c) (c_xnl_mono c).
Definition set_observers (v : list (string * expr)) (c : core) : core :=
  mkCore (c_label c) (c_x c) (c_H c) (c_dxH c) (c_w c) (c_z c) (c_u c) (c_y c) (c_cu c) (c_cy c) (c_p c) (c_M c) (c_connectors c) (c_subs c) v (c_force_wnl c) (c_Q c) (c_bl c) (c_Zl c) (c_xl c) (c_wl c) (c_xnl_mono c).
Definition set_force_wnl (v : list string) (c : core) : core :=
  mkCore (c_label c) (c_x c) (c_H c) (c_dxH c) (c_w c) (c_z c) (c_u c) (c_y c) (c_cu c) (c_cy c) (c_p c) (c_M c) (c_connectors c) (c_subs c) (c_observers c) v (c_Q c) (c_bl c) (c_Zl c) (c_xl c) (c_wl c) (c_xnl_mono c).
Definition set_Q (v : mat) (c : core) : core :=
  mkCore (c_label c) (c_x c) (c_H c) (c_dxH c) (c_w c) (c_z c) (c_u c) (c_y c) (c_cu c) (c_cy c) (c_p c) (c_M c) (c_connectors c) (c_subs c) (c_observers c) (c_force_wnl c) v (c_bl c) (c_Zl c) (c_xl c) (c_wl c) (c_xnl_mono c).
Definition set_bl (v : list expr) (c : core) : core :=
  mkCore (c_label c) (c_x c) (c_H c) (c_dxH c) (c_w c) (c_z c) (c_u c) (c_y c) (c_cu c) (c_cy c) (c_p c) (c_M c) (c_connectors c) (c_subs c) (c_observers c) (c_force_wnl c) (c_Q c) v (c_Zl c) (c_xl c) (c_wl c) (c_xnl_mono c).
Definition set_Zl (v : mat) (c : core) : core :=
  mkCore (c_label c) (c_x c) (c_H c) (c_dxH c) (c_w c) (c_z c) (c_u c) (c_y c) (c_cu c) (c_cy c) (c_p c) (c_M c) (c_connectors c) (c_subs c) (c_observers c) (c_force_wnl c) (c_Q c) (c_bl c) v (c_xl c) (c_wl c) (c_xnl_mono c).
Definition set_xl (v : Z) (c : core) : core :=
  mkCore (c_label c) (c_x c) (c_H c) (c_dxH c) (c_w c) (c_z c) (c_u c) (c_y c) (c_cu c) (c_cy c) (c_p c) (c_M c) (c_connectors c) (c_subs c) (c_observers c) (c_force_wnl c) (c_Q c) (c_bl c) (c_Zl c) v (c_wl c) (c_xnl_mono c).
Definition set_wl (v : Z) (c : core) : core :=
  mkCore (c_label c) (c_x c) (c_H c) (c_dxH c) (c_w c) (c_z c) (c_u c) (c_y c) (c_cu c) (c_cy c) (c_p c) (c_M c) (c_connectors c) (c_subs c) (c_observers c) (c_force_wnl c) (c_Q c) (c_bl c) (c_Zl c) (c_xl c) v (c_xnl_mono c).
Definition set_xnl_mono (v : Z) (c : core) : core :=
  mkCore (c_label c) (c_x c) (c_H c) (c_dxH c) (c_w c) (c_z c) (c_u c) (c_y c) (c_cu c) (c_cy c) (c_p c) (c_M c) (c_connectors c) (c_subs c) (c_observers c) (c_force_wnl c) (c_Q c) (c_bl c) (c_Zl c) (c_xl c) (c_wl c) v.
(** core/core.py L56-150: the initial state of [Core(label)]. *)
Definition new_core (label : string) : core :=
  mkCore label [] (Num 0) None [] [] [] [] [] [] [] (zeros 0 0) [] [] [] []
         (zeros 0 0) [] (zeros 0 0) 0 0 0.

(** State and possible exception after a mutating call. *)
Definition outcome := (core * option exn)%type.
Definition ok (c : core) : outcome := (c, None).
Definition raise (e : exn) (c : core) : outcome := (c, Some e).
Definition obind (o : outcome) (f : core -> outcome) : outcome :=
  match o with (c, None) => f c | (c, Some e) => (c, Some e) end.
Definition olift {A} (r : result A) (c : core) (f : A -> outcome) : outcome :=
  match r with Ok a => f a | Err e => (c, Some e) end.

(** ** Dimensions and indices *)

(** core/structure/dimensions.py L27-29, L112-118 and L47-107. *)
Definition dim_x (c : core) : Z := Z.of_nat (length (c_x c)).
Definition dim_w (c : core) : Z := Z.of_nat (length (c_w c)).
Definition dim_y (c : core) : Z := Z.of_nat (length (c_y c)).
Definition dim_cy (c : core) : Z := Z.of_nat (length (c_cy c)).
Definition dim_tot (c : core) : Z := dim_x c + dim_w c + dim_y c + dim_cy c.
Definition dim_xl (c : core) : Z := c_xl c.
Definition dim_xnl (c : core) : Z := dim_x c - c_xl c.
Definition dim_wl (c : core) : Z := c_wl c.
Definition dim_wnl (c : core) : Z := dim_w c - c_wl c.
Definition dim_xnl_mono (c : core) : Z := c_xnl_mono c.
Definition dim_xnl_multi (c : core) : Z := dim_x c - c_xl c - c_xnl_mono c.
Definition dim_l (c : core) : Z := dim_xl c + dim_wl c.
Definition dim_nl (c : core) : Z := dim_xnl c + dim_wnl c.

(** Names of the blocks of the structure, core/core.py L151-153. *)
Inductive blk := Bx | Bw | By | Bcy | Bxl | Bxnl | Bwl | Bwnl.
Definition blk_eqb (a b : blk) : bool :=
  match a, b with
  | Bx, Bx | Bw, Bw | By, By | Bcy, Bcy
  | Bxl, Bxl | Bxnl, Bxnl | Bwl, Bwl | Bwnl, Bwnl => true
  | _, _ => false
  end.
Definition dim_blk (c : core) (b : blk) : Z :=
  match b with
  | Bx => dim_x c | Bw => dim_w c | By => dim_y c | Bcy => dim_cy c
  | Bxl => dim_xl c | Bxnl => dim_xnl c | Bwl => dim_wl c | Bwnl => dim_wnl c
  end.

(** core/structure/indices.py L33-48 [_inds_in_all]: walk through [names]. *)
Fixpoint inds_in (c : core) (names : list blk) (name : blk) (deb : Z) : Z * Z :=
  match names with
  | [] => (deb, deb)  (** not reached: [name] is in [names] *)
  | b :: names' =>
      if blk_eqb b name then (deb, deb + dim_blk c b)
      else inds_in c names' name (deb + dim_blk c b)
  end.
(** core/structure/indices.py L17-21: the second list overrides the accessors
    of 'y' and 'cy'. *)
Definition inds (c : core) (b : blk) : Z * Z :=
  match b with
  | Bx | Bw => inds_in c [Bx; Bw; By; Bcy] b 0
  | _ => inds_in c [Bxl; Bxnl; Bwl; Bwnl; By; Bcy] b 0
  end.

(** ** Structure matrices *)

(** core/core.py L604-612 [init_M]. *)
Definition init_M (c : core) : core :=
  let n := Z.to_nat (dim_tot c) in set_M (zeros n n) c.

(** core/core.py L614-629 [J] and L631-647 [R]; 2. is the exact rational 2. *)
Definition half : expr := Num (1 # 2).
Definition J_of (M : mat) : result mat :=
  do D <- msub M (mtrans M); Ok (mscal half D).
Definition R_of (M : mat) : result mat :=
  do D <- madd M (mtrans M); Ok (mscal half (mneg D)).

Inductive part := PM | PJ | PR.
Definition part_of (p : part) (M : mat) : result mat :=
  match p with PM => Ok M | PJ => J_of M | PR => R_of M end.

(** core/core.py L1231-1249 [_build_get_mat]: [core.Mab()], [core.Jab()], ... *)
Definition get_block (p : part) (a b : blk) (c : core) : result mat :=
  let '(debi, endi) := inds c a in
  let '(debj, endj) := inds c b in
  do A <- part_of p (c_M c);
  Ok (mslice A debi endi debj endj).

(** core/core.py L1251-1303 [_build_set_mat]: [core.set_Mab(V)], ... *)
Definition set_block (p : part) (a b : blk) (V : mat) (c : core) : outcome :=
  let n := Z.to_nat (dim_tot c) in
  let c := if Nat.eqb (nr (c_M c)) n then c else set_M (zeros n n) c in
  let news :=
    match p with
    | PJ => do Rab <- get_block PR a b c;
            do Rba <- get_block PR b a c;
            do Mab <- msub V Rab;
            do Mba <- msub (mneg (mtrans V)) Rba;
            Ok (Mab, Mba)
    | PR => do Jab <- get_block PJ a b c;
            do Jba <- get_block PJ b a c;
            do Mab <- msub Jab V;
            do Mba <- msub Jba (mtrans V);
            Ok (Mab, Mba)
    | PM => do Mba <- get_block PM b a c; Ok (V, Mba)
    end in
  olift news c (fun '(Mab, Mba) =>
  let '(debi, endi) := inds c a in
  let '(debj, endj) := inds c b in
  olift (massign (c_M c) debi endi debj endj Mab) c (fun M1 =>
  let c := set_M M1 c in
  if blk_eqb a b then ok c
  else olift (massign M1 debj endj debi endi Mba) c (fun M2 => ok (set_M M2 c)))).

(** ** Moving components *)

(** [[l[el] for el in new_indices]]. *)
Definition pick {A} (l : list A) (idx : list nat) : result (list A) :=
  rmap (fun k => py_get l (Z.of_nat k)) idx.

(** core/structure/moves.py L12-47 [movesquarematrixcolnrow]. *)
Definition movesquare (A : mat) (indi indf : Z) : result mat :=
  do idx <- myrange (nr A) indi indf; Ok (mfancy A idx idx).

(** core/structure/moves.py L50-64 [movematrixcols]. *)
Definition movecols (A : mat) (indi indf : Z) : result mat :=
  do idx <- myrange (nc A) indi indf; Ok (mcols A idx).

(** core/structure/moves.py L67-80 [moveCoreMcolnrow]. *)
Definition moveM (indi indf : Z) (c : core) : outcome :=
  if is_zero (c_M c) then ok c
  else olift (movesquare (c_M c) indi indf) c (fun A => ok (set_M A c)).

(** core/structure/moves.py L83-99 [move_stor]. *)
Definition move_stor (indi indf : Z) (c : core) : outcome :=
  olift (myrange (length (c_x c)) indi indf) c (fun idx =>
  olift (pick (c_x c) idx) c (fun x' =>
  let c := set_x x' c in
  obind (match c_dxH c with
         | None => ok c
         | Some d => olift (pick d idx) c (fun d' => ok (set_dxH (Some d') c))
         end) (fun c =>
  moveM indi indf c))).

(** core/structure/moves.py L102-123 [move_diss]. *)
Definition move_diss (indi indf : Z) (c : core) : outcome :=
  olift (myrange (length (c_w c)) indi indf) c (fun idx =>
  olift (pick (c_w c) idx) c (fun w' =>
  let c := set_w w' c in
  olift (pick (c_z c) idx) c (fun z' =>
  let c := set_z z' c in
  obind (moveM (dim_x c + indi) (dim_x c + indf) c) (fun c =>
  if negb (is_zero (c_Zl c)) && (indi <? dim_wl c) && (indf <? dim_wl c)
  then olift (movesquare (c_Zl c) indi indf) c (fun Z' => ok (set_Zl Z' c))
  else if negb (is_zero (c_Zl c))
  then ok (set_Zl (mslice (c_Zl c) 0 0 0 0) c)
  else ok c)))).

(** core/structure/moves.py L126-142 [move_port]. *)
Definition move_port (indi indf : Z) (c : core) : outcome :=
  olift (myrange (length (c_y c)) indi indf) c (fun idx =>
  olift (pick (c_u c) idx) c (fun u' =>
  let c := set_u u' c in
  olift (pick (c_y c) idx) c (fun y' =>
  let c := set_y y' c in
  moveM (dim_x c + dim_w c + indi) (dim_x c + dim_w c + indf) c))).

(** core/structure/moves.py L145-161 [move_connector]. *)
Definition move_connector (indi indf : Z) (c : core) : outcome :=
  olift (myrange (length (c_cy c)) indi indf) c (fun idx =>
  olift (pick (c_cu c) idx) c (fun cu' =>
  let c := set_cu cu' c in
  olift (pick (c_cy c) idx) c (fun cy' =>
  let c := set_cy cy' c in
  moveM (dim_x c + dim_w c + dim_y c + indi) (dim_x c + dim_w c + dim_y c + indf) c))).

(** ** Connectors *)

(** core/structure/connectors.py L12-45 [port2connector]. *)
Definition port2connector (i : Z) (c : core) : outcome :=
  obind (moveM (dim_x c + dim_w c + i) (dim_tot c) c) (fun c =>
  olift (py_get (c_u c) i) c (fun ui =>
  let c := set_cu (c_cu c ++ [ui]) c in
  olift (py_get (c_y c) i) c (fun yi =>
  let c := set_cy (c_cy c ++ [yi]) c in
  olift (py_remove String.eqb ui (c_u c)) c (fun u' =>
  let c := set_u u' c in
  olift (py_remove String.eqb yi (c_y c)) c (fun y' =>
  ok (set_y y' c)))))).

(** core/core.py L749-798 [add_connector]. *)
Definition add_connector (i0 i1 : Z) (alpha : option expr) (c : core) : outcome :=
  let alpha := match alpha with None => Num 1 | Some a => a end in
  if i0 =? i1 then raise AssertionError c else
  if negb (i0 <? dim_y c) then raise AssertionError c else
  olift (py_get (c_u c) i0) c (fun u0 =>
  olift (py_get (c_y c) i0) c (fun y0 =>
  if negb (i1 <? dim_y c) then raise AssertionError c else
  olift (py_get (c_u c) i1) c (fun u1 =>
  olift (py_get (c_y c) i1) c (fun y1 =>
  let c := set_connectors (c_connectors c ++ [mkConn u0 u1 y0 y1 alpha]) c in
  obind (port2connector (Z.max i0 i1) c) (fun c =>
  port2connector (Z.min i0 i1) c))))).

(** core/core.py L811-816: the loop of [connect] over [enumerate(connectors)]. *)
Fixpoint connect_sort (l : list connector) (i : Z) (c : core) : outcome :=
  match l with
  | [] => ok c
  | k :: l' =>
      olift (py_index String.eqb (k_y0 k) (c_cy c)) c (fun ip =>
      obind (move_connector (Z.of_nat ip) (2 * i) c) (fun c =>
      olift (py_index String.eqb (k_y1 k) (c_cy c)) c (fun id =>
      obind (move_connector (Z.of_nat id) (2 * i + 1) c) (fun c =>
      connect_sort l' (i + 1) c))))
  end.

(** core/core.py L818-820: [alpha * Matrix([[0, -1], [1, 0]])]. *)
Definition switch2 (alpha : expr) : mat :=
  mscal alpha (of_rows 2 [[Num 0; Num (-1)]; [Num 1; Num 0]]).

(** core/core.py L800-846 [connect]. *)
Definition connect (inv : mat -> option mat) (c : core) : outcome :=
  obind (connect_sort (c_connectors c) 0 c) (fun c =>
  let Mswitch := diagl (map (fun k => switch2 (k_alpha k)) (c_connectors c)) in
  let n := dim_x c + dim_w c + dim_y c in
  let G := mslice (c_M c) 0 n n (Z.of_nat (nc (c_M c))) in
  let O := mslice (c_M c) n (Z.of_nat (nr (c_M c))) 0 n in
  olift (do Mcc <- get_block PM Bcy Bcy c;
         do P <- mmul Mcc Mswitch;
         msub (eye (length (c_cy c))) P) c (fun N =>
  match (do iN <- inverse inv N;
         do A <- mmul G Mswitch;
         do B <- mmul A iN;
         do C <- mmul B O;
         madd (mslice (c_M c) 0 n 0 n) C) with
  | Ok M' => ok (set_connectors [] (set_cu [] (set_cy [] (set_M M' c))))
  | Err ValueError => raise GenericException c
  | Err e => raise e c
  end)).

(** ** Adding components *)

(** An argument that may be a scalar, a list, or something else
    (core/tools/_types.py [scalar_types], [vector_types]). *)
Inductive arg (A : Type) := One (a : A) | Many (l : list A) | Bad.
Arguments One {A} a. Arguments Many {A} l. Arguments Bad {A}.

(** core/core.py L852-881 [add_storages]. *)
Definition add_storages (x : arg string) (H : arg expr) (c : core) : outcome :=
  match x with
  | Bad => raise TypeError c
  | One _ | Many _ =>
      let x := match x with One s => [s] | Many l => l | Bad => [] end in
      match H with
      | One H => ok (set_H (sadd (c_H c) H) (set_x (c_x c ++ x) c))
      | _ => raise TypeError c
      end
  end.

(** core/core.py L883-916 [add_dissipations]; for a [w] of another type the
    error message itself raises (variable [w_types] is not bound). *)
Definition add_dissipations (w : arg string) (z : arg expr) (c : core) : outcome :=
  match w with
  | Many w => match z with
              | Many z => if Nat.eqb (length w) (length z)
                          then ok (set_z (c_z c ++ z) (set_w (c_w c ++ w) c))
                          else raise TypeError c
              | _ => raise TypeError c
              end
  | One w => match z with
             | One z => ok (set_z (c_z c ++ [z]) (set_w (c_w c ++ [w]) c))
             | _ => raise TypeError c
             end
  | Bad => raise UnboundLocalError c
  end.

(** core/core.py L918-950 [add_ports]. *)
Definition add_ports (u y : arg string) (c : core) : outcome :=
  match u with
  | Many u => match y with
              | Many y => if Nat.eqb (length u) (length y)
                          then ok (set_y (c_y c ++ y) (set_u (c_u c ++ u) c))
                          else raise TypeError c
              | _ => raise TypeError c
              end
  | One u => match y with
             | One y => ok (set_y (c_y c ++ [y]) (set_u (c_u c ++ [u]) c))
             | _ => raise TypeError c
             end
  | Bad => raise UnboundLocalError c
  end.

(** python dictionaries as association lists: [d.pop(k)], [d[k] = v],
    [d.update(e)]. *)
Definition dict_pop {B} (k : string) (d : list (string * B)) : list (string * B) :=
  filter (fun kv => negb (String.eqb (fst kv) k)) d.
Fixpoint dict_set {B} (k : string) (v : B) (d : list (string * B)) : list (string * B) :=
  match d with
  | [] => [(k, v)]
  | (k', v') :: d' => if String.eqb k' k then (k, v) :: d' else (k', v') :: dict_set k v d'
  end.
Definition dict_update {B} (d e : list (string * B)) : list (string * B) :=
  fold_left (fun acc kv => dict_set (fst kv) (snd kv) acc) e d.

(** core/core.py L952-973 [add_parameters]. *)
Definition add_parameters (p : arg string) (c : core) : outcome :=
  match p with
  | Bad => raise TypeError c
  | One _ | Many _ =>
      let p := match p with One s => [s] | Many l => l | Bad => [] end in
      ok (set_subs (fold_left (fun d s => dict_pop s d) p (c_subs c))
            (set_p (c_p c ++ p) c))
  end.

(** core/core.py L975-987 [add_observer]. *)
Definition add_observer (obs : list (string * expr)) (c : core) : outcome :=
  ok (set_observers (dict_update (c_observers c) obs) c).

(** ** Symbols and functions *)

(** core/core.py L370-383, L399-408, L421 [dx], [dtx], [z_symbols], [g]. *)
Definition dx (c : core) : list string := map (fun s => ("d" ++ s)%string) (c_x c).
Definition dtx (c : core) : list string := map (fun s => ("dt" ++ s)%string) (c_x c).
Definition g_symbols (c : core) : list string := map (fun s => ("g" ++ s)%string) (c_x c).

(** core/core.py L538-561 [dxH]. *)
Definition dxH (c : core) : list expr :=
  match c_dxH c with None => gradient (c_H c) (c_x c) | Some d => d end.

(** core/core.py L653-670 [labels()]. *)
Definition labels (c : core) : list string := c_x c ++ c_w c ++ c_y c ++ c_cy c.

(** core/core.py L385-397 [b], [a] and [pd]. *)
Definition b_vec (c : core) : list string := dtx c ++ c_w c ++ c_y c.
Definition a_vec (c : core) : list expr := dxH c ++ c_z c ++ map Sym (c_u c).
Definition esuml (l : list expr) : expr := fold_left sadd l (Num 0).
Definition zip_mul (l1 l2 : list expr) : list expr :=
  map (fun p => smul (fst p) (snd p)) (combine l1 l2).
Definition pd (c : core) : result expr :=
  let diss := esuml (zip_mul (map Sym (c_w c)) (c_z c)) in
  do R <- R_of (c_M c);
  do Ra <- matvecprod R (a_vec c);
  Ok (sadd diss (esuml (zip_mul (a_vec c) Ra))).

(** core/core.py L1306-1354 [_gen_lnl_accessors]. *)
Definition xl_of (c : core) : list string := py_slice (c_x c) None (Some (dim_xl c)).
Definition xnl_of (c : core) : list string := py_slice (c_x c) (Some (dim_xl c)) None.
Definition wl_of (c : core) : list string := py_slice (c_w c) None (Some (dim_wl c)).
Definition wnl_of (c : core) : list string := py_slice (c_w c) (Some (dim_wl c)) None.
Definition zl_of (c : core) : list expr := py_slice (c_z c) None (Some (dim_wl c)).
Definition znl_of (c : core) : list expr := py_slice (c_z c) (Some (dim_wl c)) None.

(** core/structure/output.py L13-51 [output_function]. *)
Definition output (c : core) : result (list expr) :=
  if 0 <? dim_y c then
    let ny := length (c_y c) in
    do Myy <- get_block PM By By c;
    do Vyu <- mmul Myy (colvec (map Sym (c_u c)));
    do Vyx <- (if 0 <? dim_x c
               then do Myx <- get_block PM By Bx c; mmul Myx (colvec (dxH c))
               else Ok (zeros ny 1));
    do Vyw <- (if 0 <? dim_w c
               then do Myw <- get_block PM By Bw c; mmul Myw (colvec (c_z c))
               else Ok (zeros ny 1));
    do S1 <- madd Vyx Vyw;
    do S2 <- madd S1 Vyu;
    Ok (col_list S2 0)
  else Ok [].

(** core/core.py L523-536 [freesymbols], over the expressions of
    [exprs_names] and the matrix [M].  Python's [set.union] returns a new set
    and leaves its receiver as it is; the loop drops the returned value. *)
Definition set_union (s t : list string) : list string * list string := (s, s ++ t).
Definition freesymbols (c : core) : list string :=
  let exprs := c_H c :: c_z c ++ c_bl c ++ map snd (c_observers c) in
  let symbs := fold_left (fun symbs e => fst (set_union symbs (free_symbols e))) exprs [] in
  fst (set_union symbs (flat_map (flat_map free_symbols) (rows_of (c_M c)))).

(** ** Splits *)

(** Every symbol of a column, core/structure/splits.py L80-82. *)
Definition col_symbols (A : mat) (j : nat) : list string :=
  flat_map free_symbols (col_list A j).
Definition disjoint (l1 l2 : list string) : bool :=
  forallb (fun s => negb (py_in String.eqb s l2)) l1.

(** core/structure/splits.py L78-90 (storages) and L96-108 (dissipations):
    [fuel] iterations of the loop; [move] is [move_stor] or [move_diss],
    [last] the index [core.dims.x()-1] or [core.dims.w()-1]. *)
Fixpoint split_loop (movefunc : mat -> Z -> Z -> result mat)
  (move : Z -> Z -> core -> outcome) (last : core -> Z)
  (arg : list string) (fuel : nat) (A : mat) (n : nat) (c : core)
  : outcome * nat :=
  match fuel with
  | O => (ok c, n)
  | S fuel' =>
      if disjoint (col_symbols A n) arg
      then split_loop movefunc move last arg fuel' A (S n) c
      else match move (Z.of_nat n) (last c) c with
           | (c, Some e) => (raise e c, n)
           | (c, None) =>
               match movefunc A (Z.of_nat n) (last c) with
               | Err e => (raise e c, n)
               | Ok A' => split_loop movefunc move last arg fuel' A' n c
               end
           end
  end.

(** core/structure/splits.py L47-123 [linear_nonlinear].  [criterion] is the
    optional pair of matrices and argument lists. *)
Definition linear_nonlinear
  (criterion : option ((mat * list string) * (mat * list string))) (c : core)
  : outcome :=
  let '(crx, crw, movefunc) :=
    match criterion with
    | None => ((hessian (c_H c) (c_x c), c_x c ++ dx c ++ c_w c),
               (jacobian (c_z c) (c_w c), dx c ++ c_w c), movesquare)
    | Some (a, b) => (a, b, movecols)
    end in
  let '(o, nxl) := split_loop movefunc move_stor (fun c => dim_x c - 1) (snd crx)
                     (nc (fst crx)) (fst crx) 0 c in
  obind o (fun c =>
  let '(o, nwl) := split_loop movefunc move_diss (fun c => dim_w c - 1) (snd crw)
                     (nc (fst crw)) (fst crw) 0 c in
  obind o (fun c =>
  let c := set_xl (Z.of_nat nxl) c in
  let Q := hessian (c_H c) (xl_of c) in
  olift (matvecprod Q (map Sym (xl_of c))) c (fun Qx =>
  let bl := map (fun p => ssub (fst p) (snd p)) (combine (gradient (c_H c) (xl_of c)) Qx) in
  let c := set_bl bl (set_Q Q c) in
  let c := set_wl (Z.of_nat nwl) c in
  ok (set_Zl (jacobian (zl_of c) (wl_of c)) c)))).

(** core/structure/splits.py L31-40: the loop of [monovar_multivar]. *)
Fixpoint mono_loop (fuel : nat) (hess : mat) (nxs : nat) (c : core) : outcome * nat :=
  match fuel with
  | O => (ok c, nxs)
  | S fuel' =>
      if forallb (fun j => is0 (ent hess nxs j)) (seq (S nxs) (nc hess - S nxs))
      then mono_loop fuel' hess (S nxs) c
      else match move_stor (dim_xl c + Z.of_nat nxs) (dim_x c - 1) c with
           | (c, Some e) => (raise e c, nxs)
           | (c, None) =>
               match movesquare hess (Z.of_nat nxs) (dim_xnl c - 1) with
               | Err e => (raise e c, nxs)
               | Ok h => mono_loop fuel' h nxs c
               end
           end
  end.

(** core/structure/splits.py L18-43 [monovar_multivar]. *)
Definition monovar_multivar (c : core) : outcome :=
  let '(o, nxs) := mono_loop (Z.to_nat (dim_xnl c)) (hessian (c_H c) (xnl_of c)) 0 c in
  obind o (fun c => ok (set_xnl_mono (Z.of_nat nxs) c)).

(** ** Elimination of the linear dissipations *)

(** core/structure/R.py L49-54: [fuel] iterations moving the components of
    [force_wnl] to index [dims.wl()]. *)
Fixpoint force_loop (fuel : nat) (i : Z) (c : core) : outcome :=
  match fuel with
  | O => ok c
  | S fuel' =>
      olift (py_get (c_w c) i) c (fun s =>
      if py_in String.eqb s (c_force_wnl c)
      then obind (move_diss i (dim_wl c) c) (fun c => force_loop fuel' i c)
      else force_loop fuel' (i + 1) c)
  end.

(** Blocks stacked side by side, core/structure/R.py L64-85. *)
Definition hblocks (a : blk) (bs : list blk) (c : core) : result mat :=
  do l <- rmap (fun b => get_block PM a b c) bs; hstack l.
Definition vblocks (bs : list blk) (b : blk) (c : core) : result mat :=
  do l <- rmap (fun a => get_block PM a b c) bs; vstack l.

(** core/structure/R.py L14-93 [reduce_z]. *)
Definition reduce_z (inv : mat -> option mat) (c : core) : outcome :=
  obind (linear_nonlinear None c) (fun c =>
  let nforced := Z.of_nat (length (c_force_wnl c)) in
  obind (if nforced =? 0 then ok c
         else obind (force_loop (Z.to_nat (dim_wl c)) 0 c) (fun c =>
              let c := set_wl (c_wl c - nforced) c in
              ok (set_Zl (mslice (c_Zl c) 0 (- nforced) 0 (- nforced)) c))) (fun c =>
  let names := [Bxl; Bxnl; Bwnl; By; Bcy] in
  olift (do Mwlwl <- get_block PM Bwl Bwl c;
         do P <- mmul Mwlwl (c_Zl c);
         do iDl <- msub (eye (Z.to_nat (dim_wl c))) P;
         do Dl <- inverse inv iDl;
         do Mwlnl <- hblocks Bwl names c;
         do Mnlwl <- vblocks names Bwl c;
         do rows <- rmap (fun a => hblocks a names c) names;
         do Mnl <- vstack rows;
         do A <- mmul Mnlwl (c_Zl c);
         do B <- mmul A Dl;
         do C <- mmul B Mwlnl;
         madd C Mnl) c (fun M' =>
  let c := set_M M' c in
  let c := set_w (py_slice (c_w c) (Some (dim_wl c)) None) c in
  let c := set_z (py_slice (c_z c) (Some (dim_wl c)) None) c in
  ok (set_wl 0 c)))).

(** ** Sum of two cores *)

(** core/core.py L325-332: one pass of the double loop over the block names. *)
Fixpoint add_blocks (l : list (blk * blk)) (c1 c2 c : core) : outcome :=
  match l with
  | [] => ok c
  | (a, b) :: l' =>
      olift (do M1 <- get_block PM a b c1;
             do M2 <- get_block PM a b c2; Ok (diag2 M1 M2)) c (fun Mij =>
      obind (if (0 <? nr Mij)%nat && (0 <? nc Mij)%nat
             then set_block PM a b Mij c else ok c) (fun c =>
      add_blocks l' c1 c2 c))
  end.

(** core/core.py L358-363: the second double loop re-assigns each block. *)
Fixpoint reset_blocks (l : list (blk * blk)) (c : core) : outcome :=
  match l with
  | [] => ok c
  | (a, b) :: l' =>
      olift (get_block PM a b c) c (fun Mij =>
      obind (if (0 <? nr Mij)%nat && (0 <? nc Mij)%nat
             then set_block PM a b Mij c else ok c) (fun c =>
      reset_blocks l' c))
  end.

Definition block_pairs : list (blk * blk) :=
  let names := [Bx; Bw; By; Bcy] in
  flat_map (fun a => map (fun b => (a, b)) names) names.

(** core/core.py L308-365 [__add__]. *)
Definition core_add (c1 c2 : core) : outcome :=
  let c := new_core (c_label c1) in
  let symbs c :=
    set_x (c_x c1 ++ c_x c2) (set_w (c_w c1 ++ c_w c2)
    (set_u (c_u c1 ++ c_u c2) (set_y (c_y c1 ++ c_y c2)
    (set_cu (c_cu c1 ++ c_cu c2) (set_cy (c_cy c1 ++ c_cy c2)
    (set_p (c_p c1 ++ c_p c2) c)))))) in
  obind (add_blocks block_pairs c1 c2 (symbs c)) (fun c =>
  let c := symbs c in
  let c := set_subs (dict_update (dict_update [] (c_subs c1)) (c_subs c2)) c in
  let c := set_observers (dict_update (dict_update (c_observers c) (c_observers c1))
                            (c_observers c2)) c in
  let c := set_H (sadd (c_H c1) (c_H c2)) c in
  let c := set_z (c_z c1 ++ c_z c2) c in
  let c := set_connectors (c_connectors c1 ++ c_connectors c2) c in
  let c := set_force_wnl (c_force_wnl c1 ++ c_force_wnl c2) c in
  reset_blocks block_pairs c).
