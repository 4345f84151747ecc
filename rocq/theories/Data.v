(** Model of a simulation that stores its results and of the readers that
    compute from them: /repo/pyphs/numerics/simulations/simulation.py
    (_process_py), /repo/pyphs/numerics/simulations/h5data/h5data.py
    (init_data, args, o, args_o, dtx, dtE, E, pd, ps, t) and
    /repo/pyphs/numerics/tools/_evaluation.py.
    Floating-point numbers are real numbers.  The arguments [vslice] and
    [postprocess] of the computed readers, opening and closing the file,
    printing and the c++ path are not modelled. *)
From Coq Require Import String List ZArith QArith Reals Bool.
From Verif Require Import Py Tools Expr RSum Mat Core Method Numeric H5.
Import ListNotations.
Local Open Scope string_scope.
Local Open Scope list_scope.
Local Open Scope nat_scope.

(** ** Simulating into the file *)

(** h5data.py L496-515 [_method_dims]; other names are read from the dimensions
    of the method, and only 'p' is modelled among them. *)
Definition data_dim (m : core) (name : string) : nat :=
  if existsb (String.eqb name) ["x"; "dx"; "dxH"] then length (c_x m)
  else if existsb (String.eqb name) ["u"; "y"] then length (c_y m)
  else if existsb (String.eqb name) ["w"; "z"] then length (c_w m)
  else if String.eqb name "p" then length (c_p m)
  else 0.

Definition with_window {A} (h : h5 A) (w : window) : h5 A :=
  mkH5 (h_names h) (h_dims h) (h_inds h) w (h_data h).

(** h5data.py L291-381 [init_data], with sequences of vectors for the inputs
    and for the parameters; [w] are the load options, which it leaves.  The
    number of steps is the length of the first (L320-321). *)
Definition init_data (m : core) (dnames : list string) (w : window)
  (us ps : list (list R)) : result (h5 R) :=
  let nt := length us in
  h5dump_seqs (S nt) (with_window (new_h5 0%R (data_dim m) dnames nt) w)
    [("u", us); ("p", ps)] (mkSlice (Some 0%Z) (Some (Z.of_nat nt)) None).

(** simulation.py L452-453: the dictionary of the values, which must be
    vectors (h5data.py L580). *)
Definition to_vecs (row : list (string * value)) : result (list (string * list R)) :=
  rmap (fun e => match snd e with Ve l => Ok (fst e, l) | _ => Err ValueError end) row.

(** The loop of simulation.py L447-461. *)
Fixpoint sim_loop (nu : numeric) (dnames : list string) (sq : list (list R * list R))
  (n : Z) (st : state) (h : h5 R) : result (h5 R * state) :=
  match sq with
  | [] => Ok (h, st)
  | (u, p) :: sq' =>
      do st <- update nu u p st;
      do row <- record nu dnames st;
      do vs <- to_vecs row;
      do (h, _) <- h5dump_vecs 0%R h n vs;
      sim_loop nu dnames sq' (n + 1)%Z st h
  end.

(** simulation.py L428-469 [_process_py]: the sequences are read back from the
    file (L434-435), up to the stop of the load options. *)
Definition process_file (nu : numeric) (dnames : list string) (st : state) (h : h5 R)
  : result (h5 R * state) :=
  let all := TSlice (mkSlice (Some 0%Z) None (Some 1)) in
  do us <- read_data h "u" all VNone;
  do ps <- read_data h "p" all VNone;
  sim_loop nu dnames (combine us ps) 0%Z st h.

(** [simu.init(u=us, p=ps)] and [simu.process()] (simulation.py L264-342,
    L385-426). *)
Definition simulate (nu : numeric) (dnames : list string) (w : window)
  (us ps : list (list R)) (st : state) : result (h5 R * state) :=
  do h <- init_data (n_method nu) dnames w us ps;
  process_file nu dnames st h.

(** ** Evaluation of expressions on arrays (_evaluation.py) *)

(** An element of an array of objects: a number, or a generator that nothing
    has consumed. *)
Definition item := option R.

(** L108-150, misc/tools.py L173-187: after the substitutions of L67, the
    arguments of the expressions and their indices; L132-136 of
    tools/_lambdify.py: a symbol that is not an argument raises. *)
Definition eval_inds (nu : numeric) (es : list expr) : result (list string * list nat) :=
  let symbs := filter (fun s => match assoc s (n_subs nu) with None => true | _ => false end)
                 (flat_map free_symbols es) in
  let allargs := args_of (n_method nu) in
  if forallb (fun s => existsb (String.eqb s) allargs) symbs
  then Ok (find String.eqb symbs allargs)
  else Err AttributeError.

(** [args[:, vs]] (h5data.py L889) for one row, the elements being numbers. *)
Definition pick_items (vs : list nat) (row : list item) : result (list R) :=
  rmap (fun i => match nth_error row i with
                 | None => Err IndexError
                 | Some None => Err TypeError
                 | Some (Some v) => Ok v
                 end) vs.

(** _evaluation.py L187-206, L16-27: the expression at one row. *)
Definition eval_row (nu : numeric) (names : list string) (vs : list nat) (e : expr)
  (row : list item) : result R :=
  do vals <- pick_items vs row;
  Ok (eval (total (call_env (n_subs nu) names vals)) e).

(** ** Readers (h5data.py) *)

(** [numpy.hstack] of two arrays. *)
Definition hcat {B} (a b : list (list B)) : result (list (list B)) :=
  if length a =? length b
  then Ok (map (fun p => fst p ++ snd p) (combine a b))
  else Err ValueError.

(** L632-656: the resolved slice, given to the readers inside. *)
Definition inner (h : h5 R) (t : targ) : targ := TSlice (tslice_of h t).

(** L877 *)
Definition expected_nt (h : h5 R) (t : targ) : Z :=
  let s := tslice_of h t in
  match s_start s, s_stop s, s_step s with
  | Some a, Some b, Some k => ((b - a) / Z.of_nat k)%Z
  | _, _, _ => 0%Z
  end.

(** [numpy.zeros((expectedNt, 1))] (L891): its number of rows. *)
Definition zeros_rows (n : Z) : result nat :=
  if (n <? 0)%Z then Err ValueError else Ok (Z.to_nat n).

(** L908-939 [args] *)
Definition args (h : h5 R) (t : targ) : result (list (list R)) :=
  let t := inner h t in
  do x <- read_data h "x" t VNone;
  do d <- read_data h "dx" t VNone;
  do w <- read_data h "w" t VNone;
  do u <- read_data h "u" t VNone;
  do p <- read_data h "p" t VNone;
  do up <- hcat u p;
  do wup <- hcat w up;
  do dwup <- hcat d wup;
  hcat x dwup.

(** L944-971 [o], through L864-906 [_expression] with the vector of observers:
    for functions with arguments, _evaluation.py L225-236 makes an array with
    one generator for each observer. *)
Definition o_reader (nu : numeric) (h : h5 R) (t : targ) : result (list (list item)) :=
  let es := map snd (c_observers (n_method nu)) in
  do (_, vs) <- eval_inds nu es;
  match vs with
  | [] =>
      do n <- zeros_rows (expected_nt h t);
      Ok (repeat (map (fun e => Some (eval (total (call_env (n_subs nu) [] [])) e)) es) n)
  | _ =>
      do _ <- args h t;
      Ok (map (fun _ => [None]) es)
  end.

(** L975-1004 [args_o] *)
Definition args_o (nu : numeric) (h : h5 R) (t : targ) : result (list (list item)) :=
  do a <- args h (inner h t);
  do o <- o_reader nu h (inner h t);
  hcat (map (map Some) a) o.

(** L864-906 [_expression] with a scalar expression. *)
Definition expression (nu : numeric) (h : h5 R) (t : targ) (e : expr) : result (list R) :=
  do (names, vs) <- eval_inds nu [e];
  match vs with
  | [] =>
      do n <- zeros_rows (expected_nt h t);
      Ok (repeat (eval (total (call_env (n_subs nu) [] [])) e) n)
  | _ =>
      do rows <- args_o nu h (inner h t);
      rmap (eval_row nu names vs e) rows
  end.

(** L1414-1440 [E] *)
Definition E_reader (nu : numeric) (h : h5 R) (t : targ) : result (list R) :=
  expression nu h t (c_H (n_method nu)).

(** L1444-1471 [pd] *)
Definition pd_reader (nu : numeric) (h : h5 R) (t : targ) : result (list R) :=
  do e <- pd (n_method nu);
  expression nu h t e.

(** [numpy.einsum('ti,ti->t', a, b)] on arrays of the same shape; repetition
    of an axis of length 1 is not modelled. *)
Definition row_dot (a b : list R) : R :=
  fold_right Rplus 0%R (map (fun p => (fst p * snd p)%R) (combine a b)).
Definition einsum (a b : list (list R)) : result (list R) :=
  if (length a =? length b) && forallb (fun p => length (fst p) =? length (snd p)) (combine a b)
  then Ok (map (fun p => row_dot (fst p) (snd p)) (combine a b))
  else Err ValueError.

(** L1475-1517 [ps] *)
Definition ps_reader (h : h5 R) (t : targ) : result (list R) :=
  do u <- read_data h "u" t VNone;
  do y <- read_data h "y" t VNone;
  einsum u y.

Section Rate.
(** The sample rate [self.fs]. *)
Variable fs : R.

(** L823-828 [t], with [numpy.arange]. *)
Definition t_reader (h : h5 R) (t : targ) : list R :=
  let s := tslice_of h t in
  match s_start s, s_stop s, s_step s with
  | Some a, Some b, Some k =>
      let n := Z.to_nat ((b - a + Z.of_nat k - 1) / Z.of_nat k) in
      map (fun i => (IZR (a + Z.of_nat (i * k)) / fs)%R) (seq 0 n)
  | _, _, _ => []
  end.

(** L1008-1054 [dtx] *)
Definition dtx_reader (h : h5 R) (t : targ) : result (list (list R)) :=
  do d <- read_data h "dx" t VNone;
  Ok (map (map (fun a => (a * fs)%R)) d).

(** L1388, L1398-1402: the variant 'DxhDtx' of [dtE]. *)
Definition dtE_dot (h : h5 R) (t : targ) : result (list R) :=
  do g <- read_data h "dxH" (inner h t) VNone;
  do d <- dtx_reader h (inner h t);
  einsum g d.

(** The differences of [numpy.ediff1d]. *)
Fixpoint differences (l : list R) : list R :=
  match l with
  | [] => []
  | a :: l' => match l' with
               | [] => []
               | b :: _ => (b - a)%R :: differences l'
               end
  end.

(** L1388-1396: the variant 'deltaH' of [dtE]. *)
Definition dtE_delta (nu : numeric) (h : h5 R) (t : targ) : result (list R) :=
  let s := tslice_of h t in
  match s_stop s, s_step s with
  | Some b, Some k =>
      do g <- read_data h "dxH" (TInt (b - 1)%Z) VNone;
      do d <- dtx_reader h (TInt (b - 1)%Z);
      do l <- einsum g d;
      do e <- E_reader nu h (inner h t);
      Ok (map (fun v => (v * fs / INR k)%R) (differences e ++ map (fun v => (v / fs)%R) l))
  | _, _ => Err TypeError
  end.

End Rate.
