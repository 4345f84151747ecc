(** Model of pyphs/numerics/numerical_method/_method.py: construction of a
    numerical method from a core, and its implicit functions.  A [Method] is a
    [Core] whose gradient, structure matrix and dissipation laws have been
    replaced by their discrete-time versions.
    Not modelled: label, verbosity, unknown configuration keys (L100-106), and
    the attributes [_core], [args_names], [funcs_names]. *)
From Coq Require Import String List ZArith QArith Bool.
From Verif Require Import Py Tools Expr Mat Core Calculus Subs.
Import ListNotations.
Local Open Scope string_scope.
Local Open Scope list_scope.
Local Open Scope nat_scope.

(** config.py L171-188 [CONFIG_METHOD]; the values of 'grad' are strings, any
    other one is [OtherGrad]. *)
Inductive grad_kind := Discret | Theta | Trapez | OtherGrad.
Record config := mkConfig { f_grad : grad_kind; f_theta : Q; f_split : bool; f_epsdg : Q }.

(** config.py L173-188; [EPS_DG] is 2^-52 (L68). *)
Definition default_config : config := mkConfig Discret 0 true (1 # 4503599627370496).

(** config.py L97 [FS_SYMBS]. *)
Definition fs_symbol : string := "F_S".

(** core/core.py L1306-1354: accessors of the linear and nonlinear parts. *)
Inductive sfx := Sall | Sl | Snl.
Definition cut {A} (s : sfx) (n : Z) (l : list A) : list A :=
  match s with
  | Sall => l
  | Sl => py_slice l None (Some n)
  | Snl => py_slice l (Some n) None
  end.
Definition dx_of (s : sfx) (c : core) : list string := cut s (dim_xl c) (dx c).
Definition w_of (s : sfx) (c : core) : list string := cut s (dim_wl c) (c_w c).
Definition dxH_of (s : sfx) (c : core) : list expr := cut s (dim_xl c) (dxH c).
Definition z_of (s : sfx) (c : core) : list expr := cut s (dim_wl c) (c_z c).
Definition bx (s : sfx) : blk := match s with Sall => Bx | Sl => Bxl | Snl => Bxnl end.
Definition bw (s : sfx) : blk := match s with Sall => Bw | Sl => Bwl | Snl => Bwnl end.

(** ** Gradient and structure *)

(** _method.py L691-696: [Q*(xl + 0.5*dxl) + bl]. *)
Definition linear_gradient (c : core) : result (list expr) :=
  do V <- madd (colvec (map Sym (xl_of c))) (mscal half (colvec (map Sym (dx_of Sl c))));
  do P <- mmul (c_Q c) V;
  do T <- madd P (colvec (c_bl c));
  Ok (col_list T 0).

(** _method.py L679-728 [build_gradient_evaluation]: the expressions, and their
    assignment to [_dxH]. *)
Definition gradient_of (f : config) (c : core) : result (list expr) :=
  match f_grad f with
  | Discret =>
      let n := dim_xnl_mono c in
      do dxHl <- linear_gradient c;
      do sep <- discrete_gradient_monovar (c_H c)
                  (py_slice (xnl_of c) None (Some n))
                  (py_slice (dx_of Snl c) None (Some n)) (f_epsdg f);
      do nonsep <- discrete_gradient_multivar (c_H c)
                  (py_slice (xnl_of c) (Some n) None)
                  (py_slice (dx_of Snl c) (Some n) None) (f_epsdg f);
      Ok (dxHl ++ sep ++ nonsep)
  | Theta => gradient_theta (c_H c) (c_x c) (dx c) (f_theta f)
  | Trapez => gradient_trapez (c_H c) (c_x c) (dx c)
  | OtherGrad => Err NotImplementedError
  end.
Definition build_gradient (f : config) (c : core) : outcome :=
  olift (gradient_of f c) c (fun d => ok (set_dxH (Some d) c)).

(** The order in which sympy's [subs] visits a dictionary whose keys are
    symbols: by name. *)
Definition str_leb (a b : string) : bool :=
  match String.compare a b with Gt => false | _ => true end.
Fixpoint insert_name {B} (p : string * B) (d : list (string * B)) : list (string * B) :=
  match d with
  | [] => [p]
  | q :: d' => if str_leb (fst p) (fst q) then p :: d else q :: insert_name p d'
  end.
Definition by_name {B} (d : list (string * B)) : list (string * B) :=
  fold_right insert_name [] d.

(** _method.py L749-761, L773-774: the substitutions [{gi: dxHi}] updated with
    [{xi: xi + theta*dxi}]; theta is 1 for the trapezoidal rule. *)
Definition structure_subs (theta : Q) (c : core) : list (string * expr) :=
  by_name
    (dict_update (dict_update [] (combine (g_symbols c) (dxH c)))
       (map (fun p => (fst p, sadd (Sym (fst p)) (smul (Num theta) (Sym (snd p)))))
            (combine (c_x c) (dx c)))).

(** _method.py L730-780 [build_structure_evaluation]. *)
Definition build_structure (f : config) (c : core) : core :=
  let theta := match f_grad f with Trapez => 1%Q | _ => f_theta f end in
  let d := structure_subs theta c in
  let one (e : expr) :=
    match f_grad f with
    | Trapez => smul half (sadd e (subs d e))
    | _ => subs d e
    end in
  set_z (map one (c_z c))
    (set_M (mkMat (nr (c_M c)) (nc (c_M c)) (fun i j => one (ent (c_M c) i j))) c).

(** ** Implicit functions *)

(** core/maths/_vectors.py L11-23 [sumvecs]: the last vector plus the others in
    order. *)
Fixpoint sum_onto (v0 : list expr) (args : list (list expr)) : result (list expr) :=
  match args with
  | [] => Ok v0
  | v :: args' =>
      if Nat.eqb (length v) (length v0)
      then sum_onto (map (fun p => sadd (fst p) (snd p)) (combine v0 v)) args'
      else Err AssertionError
  end.
Definition sumvecs (args : list (list expr)) : result (list expr) :=
  match rev args with
  | [] => Err IndexError
  | v0 :: rest => sum_onto v0 (rev rest)
  end.

(** _method.py L351, L373: [v] and [f]. *)
Definition v_of (s : sfx) (c : core) : list string := dx_of s c ++ w_of s c.
Definition f_of (s : sfx) (c : core) : list expr := dxH_of s c ++ z_of s c.

(** _method.py L400-409: block [Mvavb]. *)
Definition Mvv (a b : sfx) (c : core) : result mat :=
  do xx <- get_block PM (bx a) (bx b) c;
  do xw <- get_block PM (bx a) (bw b) c;
  do wx <- get_block PM (bw a) (bx b) c;
  do ww <- get_block PM (bw a) (bw b) c;
  do t1 <- hstack2 xx xw;
  do t2 <- hstack2 wx ww;
  vstack2 t1 t2.
(** _method.py L419-422: block [Mvay]. *)
Definition Mvy (a : sfx) (c : core) : result mat :=
  do xy <- get_block PM (bx a) By c;
  do wy <- get_block PM (bw a) By c;
  vstack2 xy wy.

(** _method.py L542-549 [I]. *)
Definition I_of (s : sfx) (c : core) : mat :=
  diag2 (mscal (Sym fs_symbol) (eye (Z.to_nat (dim_blk c (bx s)))))
        (eye (Z.to_nat (dim_blk c (bw s)))).

Definition neg_vec (l : list expr) : list expr := map sneg l.

(** _method.py L441-488 [tempF], [tempFl], [tempFnl]. *)
Definition tempF (s : sfx) (c : core) : result (list expr) :=
  let v := v_of s c in
  let zero := repeat (Num 0) (length v) in
  do Iv <- matvecprod (I_of s c) (map Sym v);
  match s with
  | Sall =>
      do A <- Mvv Sall Sall c;
      do Af <- matvecprod A (f_of Sall c);
      do B <- Mvy Sall c;
      do Bu <- matvecprod B (map Sym (c_u c));
      sumvecs [zero; Iv; neg_vec Af; neg_vec Bu]
  | _ =>
      do A <- Mvv s Sl c;
      do Af <- matvecprod A (f_of Sl c);
      do A' <- Mvv s Snl c;
      do Af' <- matvecprod A' (f_of Snl c);
      do B <- Mvy s c;
      do Bu <- matvecprod B (map Sym (c_u c));
      sumvecs [zero; Iv; neg_vec Af; neg_vec Af'; neg_vec Bu]
  end.

(** _method.py L491-502 [jactempF]. *)
Definition jactempF (a b : sfx) (c : core) : result mat :=
  do F <- tempF a c; Ok (jacobian F (v_of b c)).

(** _method.py L505-528 [G], [Gl], [Gnl]. *)
Definition G_of (a : sfx) (c : core) : result (list expr) :=
  do F <- tempF a c;
  do J <- jactempF a Sl c;
  do Jv <- matvecprod J (map Sym (v_of Sl c));
  sumvecs [F; neg_vec Jv].

(** _method.py L531-539 [jacG]. *)
Definition jacG (a b : sfx) (c : core) : result mat :=
  do G <- G_of a c; Ok (jacobian G (v_of b c)).

(** _method.py L326-335 [set_structure]: the expressions evaluated at once
    (L488, L499); their failure is the failure of the construction. *)
Definition set_structure (c : core) : outcome :=
  olift (do _ <- tempF Sl c; do _ <- tempF Snl c; jactempF Sall Sall c) c (fun _ => ok c).

Definition build (f : config) (c : core) : outcome :=
  obind (build_gradient f c) (fun c => set_structure (build_structure f c)).

(** _method.py L275-283 [explicit_implicit]. *)
Definition explicit_implicit (c : core) : outcome :=
  olift (jactempF Sall Sall c) c (fun J =>
  let v := v_of Sall c in
  let n := Z.of_nat (nr J) in
  linear_nonlinear
    (Some ((mslice J 0 n 0 (dim_x c), v), (mslice J 0 n (dim_x c) (Z.of_nat (nc J)), v))) c).

(** _method.py L66-72: the linear parts are reset. *)
Definition reset_linear (c : core) : core :=
  set_Zl (mslice (c_Zl c) 0 0 0 0) (set_Q (mslice (c_Q c) 0 0 0 0)
    (set_wl 0 (set_bl [] (set_xl 0 c)))).

(** _method.py L33-173 [Method.__init__]. *)
Definition method_init (f : config) (c : core) : outcome :=
  obind (substitute_core [] false true c) (fun c =>
  let c := reset_linear c in
  obind (if f_split f then linear_nonlinear None c else ok c) (fun c =>
  obind (monovar_multivar c) (fun c =>
  obind (build f c) (fun c =>
  if f_split f then obind (explicit_implicit c) (build f) else ok c)))).
