(** Model of the storage of simulation data:
    /repo/pyphs/numerics/simulations/h5data/h5data.py (H5Data) and
    /repo/pyphs/numerics/simulations/h5data/tools.py.
    The h5 dataset is a list of rows.  Values are of any type [A] with a
    [zero]: conversion to float64 (h5data.py L283-285) is not modelled.
    Opening and closing the file, the printing, the progress bar and the c++
    path are not modelled. *)
From Coq Require Import String List ZArith QArith Bool Lia.
From Verif Require Import Py.
Import ListNotations.
Local Open Scope string_scope.
Local Open Scope list_scope.
Local Open Scope nat_scope.

(** ** The load window (h5data.py L79-261) *)

(** [config['load']], the dictionary with keys start, stop and step
    (/repo/pyphs/config.py L214-223). *)
Record window := mkWindow {
  l_start : option Z;
  l_stop  : option Z;
  l_step  : Z }.

(** A value assigned to a property: None, a python int or finite float, one
    of nan, inf, -inf (for which one of the chained comparisons of L114, L135,
    L214 and L234 is false), or an object that python cannot compare with
    numbers. *)
Inductive pyval :=
| PNone
| PNum (q : Q)
| PNonFinite
| POther.

(** [int(q)]: truncation toward zero. *)
Definition py_int (q : Q) : Z := Z.quot (Qnum q) (Zpos (Qden q)).

(** h5data.py L103-108 *)
Definition get_start (w : window) : Z :=
  match l_start w with None => 0%Z | Some i => i end.

(** h5data.py L124-129 *)
Definition get_stop (nt : Z) (w : window) : Z :=
  match l_stop w with None => nt | Some i => i end.

(** Outcome of an assignment: the options after it, and the exception it
    raised, if any. *)
Definition outcome := (window * option exn)%type.

Definition put_start (w : window) (i : option Z) : window :=
  mkWindow i (l_stop w) (l_step w).
Definition put_stop (w : window) (i : option Z) : window :=
  mkWindow (l_start w) i (l_step w).
Definition put_step (w : window) (i : Z) : window :=
  mkWindow (l_start w) (l_stop w) i.

(** h5data.py L110-121 *)
Definition set_start (nt : Z) (w : window) (v : pyval) : outcome :=
  match v with
  | PNone => (put_start w None, None)
  | PNum q =>
      if Qle_bool 0 q && negb (Qle_bool (inject_Z (get_stop nt w)) q)
      then (put_start w (Some (py_int q)), None)
      else (w, Some ValueError)
  | PNonFinite => (w, Some ValueError)
  | POther => (w, Some TypeError)
  end.

(** h5data.py L132-143 *)
Definition set_stop (nt : Z) (w : window) (v : pyval) : outcome :=
  match v with
  | PNone => (put_stop w None, None)
  | PNum q =>
      if negb (Qle_bool q (inject_Z (get_start w))) && Qle_bool q (inject_Z nt)
      then (put_stop w (Some (py_int q)), None)
      else (w, Some ValueError)
  | PNonFinite => (w, Some ValueError)
  | POther => (w, Some TypeError)
  end.

(** h5data.py L252-259 *)
Definition set_step (w : window) (v : pyval) : outcome :=
  match v with
  | PNone => (put_step w 1%Z, None)
  | PNum q =>
      if Qle_bool 1 q then (put_step w (py_int q), None)
      else (w, Some ValueError)
  | PNonFinite => (w, Some ValueError)
  | POther => (w, Some TypeError)
  end.

Section Times.
(** The float operations [t*fs] (L170, L172) and [i/fs] (L199, L201, L233):
    any functions, so that nothing depends on their rounding. *)
Variable mulfs : Q -> Q.
Variable divfs : Z -> Q.

(** h5data.py L209-221; with None the start is reset and then [None*fs]
    raises. *)
Definition set_tstart (nt : Z) (w : window) (v : pyval) : outcome :=
  match v with
  | PNone => (put_start w None, Some TypeError)
  | PNum t =>
      if Qle_bool 0 t && Qle_bool t (divfs (get_stop nt w - 1))
      then set_start nt w (PNum (inject_Z (py_int (mulfs t))))
      else (w, Some ValueError)
  | PNonFinite => (w, Some ValueError)
  | POther => (w, Some TypeError)
  end.

(** h5data.py L229-241 *)
Definition set_tstop (nt : Z) (w : window) (v : pyval) : outcome :=
  match v with
  | PNone => (put_stop w None, None)
  | PNum t =>
      if Qle_bool (divfs (get_start w)) t && Qle_bool t (divfs (nt - 1))
      then set_stop nt w (PNum (inject_Z (py_int (mulfs t) + 1)))
      else (w, Some ValueError)
  | PNonFinite => (w, Some ValueError)
  | POther => (w, Some TypeError)
  end.

(** One assignment to a property of the data object. *)
Inductive assign :=
| AStart (v : pyval) | AStop (v : pyval) | AStep (v : pyval)
| ATstart (v : pyval) | ATstop (v : pyval).

Definition do_assign (nt : Z) (w : window) (a : assign) : outcome :=
  match a with
  | AStart v => set_start nt w v
  | AStop v => set_stop nt w v
  | AStep v => set_step w v
  | ATstart v => set_tstart nt w v
  | ATstop v => set_tstop nt w v
  end.

(** A sequence of assignments; one that raises is caught by the caller. *)
Definition run_assign (nt : Z) (ops : list assign) (w : window) : window :=
  fold_left (fun w a => fst (do_assign nt w a)) ops w.

(** Several data objects: [CONFIG_SIMULATION.copy()] (simulation.py L150) is
    a shallow copy, so that all the simulations of a process share the one
    dictionary [LOAD_OPTS]; [nts] are their numbers of time steps and an
    operation names the object it is applied to. *)
Definition run_shared (nts : list Z) (ops : list (nat * assign)) (w : window)
  : window :=
  fold_left (fun w o => fst (do_assign (nth (fst o) nts 0%Z) w (snd o))) ops w.

End Times.

(** The options after [__init__] (h5data.py L79-82). *)
Definition init_window : window := mkWindow None None 1.

(** ** Slices and dictionaries *)

(** One element out of [k], beginning after [c] elements. *)
Fixpoint stride_aux {A} (k c : nat) (l : list A) : list A :=
  match l with
  | [] => []
  | a :: l' =>
      match c with
      | 0 => a :: stride_aux k (k - 1) l'
      | S c' => stride_aux k c' l'
      end
  end.
Definition stride {A} (k : nat) (l : list A) : list A := stride_aux k 0 l.

(** A python slice with a positive step. *)
Record pslice := mkSlice {
  s_start : option Z;
  s_stop : option Z;
  s_step : option nat }.

(** [l[s]] *)
Definition slice_of {A} (s : pslice) (l : list A) : list A :=
  stride (match s_step s with None => 1 | Some k => k end)
         (py_slice l (s_start s) (s_stop s)).

Fixpoint sget {B} (k : string) (d : list (string * B)) : option B :=
  match d with
  | [] => None
  | (k', b) :: d' => if String.eqb k k' then Some b else sget k d'
  end.

Fixpoint sset {B} (k : string) (b : B) (d : list (string * B))
  : list (string * B) :=
  match d with
  | [] => [(k, b)]
  | (k', b') :: d' => if String.eqb k k' then (k, b) :: d'
                      else (k', b') :: sset k b d'
  end.

Definition replace_at {B} (i : nat) (b : B) (l : list B) : list B :=
  firstn i l ++ b :: skipn (S i) l.

Section Store.
Context {A : Type}.
Variable zero : A.

(** ** Writing through chunks (tools.py L32-96) *)

(** [buffer.reshape(n, m)] of a flat buffer of the right size. *)
Fixpoint split_rows (n m : nat) (l : list A) : list (list A) :=
  match n with
  | 0 => []
  | S n' => firstn m l :: split_rows n' m (skipn m l)
  end.

(** [buffer.reshape(-1, m)]: raises ValueError when [m] is 0 or does not
    divide the size. *)
Definition reshape_free (m : nat) (l : list A) : result (list (list A)) :=
  if m =? 0 then Err ValueError
  else if (length l mod m) =? 0 then Ok (split_rows (length l / m) m l)
       else Err ValueError.

(** [np.fromiter(iterator, dtype, count)] (tools.py L82): the values taken
    and the iterator after; ValueError when it is too short. *)
Definition fromiter (count : nat) (it : list A) : result (list A * list A) :=
  if length it <? count then Err ValueError
  else Ok (firstn count it, skipn count it).

(** Write the values [vs] in the columns [cs] of a row. *)
Fixpoint set_cols (row : list A) (cs : list nat) (vs : list A) : list A :=
  match cs, vs with
  | c :: cs', v :: vs' => set_cols (replace_at c v row) cs' vs'
  | _, _ => row
  end.

(** [dataset[rows, columns] = block] of h5py: the shapes must agree and the
    rows exist.  Simplification: h5py repeats a block of one row over a plain
    slice of rows; here it raises. *)
Fixpoint set_rows (data : list (list A)) (rs cs : list nat)
         (block : list (list A)) : result (list (list A)) :=
  match rs, block with
  | [], [] => Ok data
  | r :: rs', b :: block' =>
      match nth_error data r with
      | None => Err IndexError
      | Some row =>
          if length b =? length cs
          then set_rows (replace_at r (set_cols row cs b) data) rs' cs block'
          else Err TypeError
      end
  | _, _ => Err TypeError
  end.

(** The loop of tools.py L74-96; [rows] are the rows selected by [rslice] (all
    those of the dataset when it is None), [it] what is left of the flattened
    iterable.  [fuel] bounds the passes. *)
Fixpoint write_loop (fuel : nat) (data : list (list A)) (rows cols : list nat)
         (nrows ncols chunk offset : nat) (it : list A)
  : result (list (list A)) :=
  match fuel with
  | 0 => Err OutOfFuel
  | S fuel' =>
      if offset + chunk <=? nrows then
        do (buffer, it') <- fromiter (chunk * ncols) it;
        do data' <- set_rows data (firstn chunk (skipn offset rows)) cols
                             (split_rows chunk ncols buffer);
        write_loop fuel' data' rows cols nrows ncols chunk (offset + chunk) it'
      else if offset =? nrows then Ok data
      else
        do block <- reshape_free ncols it;
        set_rows data (skipn offset rows) cols block
  end.

(** tools.py L56-96; [width] is [dataset.shape[1]].  L66: when the stop of
    [rslice] is None, the number of rows is taken from [shape[1]], and
    [range(None)] then raises TypeError (L79). *)
Definition set_dataset_from_iterable (fuel : nat) (data : list (list A))
           (width : nat) (iterable : list (list A))
           (rslice cslice : option pslice) (chunksize : nat)
  : result (list (list A)) :=
  let ncols := match cslice with
               | None => width
               | Some s => match s_stop s with
                           | None => width
                           | Some b => length (slice_of s (seq 0 (Z.to_nat b)))
                           end
               end in
  let cols := match cslice with
              | None => seq 0 width
              | Some s => slice_of s (seq 0 width)
              end in
  match rslice with
  | None =>
      let nrows := length data in
      write_loop fuel data (seq 0 nrows) cols nrows ncols
                 (Nat.min chunksize nrows) 0 (concat iterable)
  | Some s =>
      match s_stop s with
      | None => Err TypeError
      | Some b =>
          let rows := slice_of s (seq 0 (Z.to_nat b)) in
          write_loop fuel data rows cols (length rows) ncols
                     (Nat.min chunksize (length rows)) 0 (concat iterable)
      end
  end.

(** ** The dataset and its variables (h5data.py L386-686) *)

Record h5 := mkH5 {
  h_names : list string;
  h_dims  : list (string * nat);
  h_inds  : list (string * (nat * nat));
  h_win   : window;
  h_data  : list (list A) }.

Definition set_data (h : h5) (d : list (list A)) : h5 :=
  mkH5 (h_names h) (h_dims h) (h_inds h) (h_win h) d.

(** [dict(self._method_dims)] (h5data.py L392, L496-515); [mdim] gives the
    dimension of each name in the method. *)
Definition make_dims (mdim : string -> nat) (names : list string)
  : list (string * nat) :=
  fold_left (fun d n => sset n (mdim n) d) names [].

(** The loop of h5data.py L397-409. *)
Definition make_inds (mdim : string -> nat) (names : list string)
  : list (string * (nat * nat)) :=
  fst (fold_left (fun '(d, start) n =>
                    (sset n (start, start + mdim n) d, start + mdim n))
                 names ([], 0)).

(** h5data.py L529-537: the sum of the values of [dims]. *)
Definition dim_of (dims : list (string * nat)) : nat :=
  fold_right (fun e s => snd e + s) 0 dims.

(** [__init__], [_h5new] and the [resize] of [init_data] (h5data.py L70,
    L413-447, L376): [names] is u, p and then [config['dnames']], and the
    [nt] rows are zero. *)
Definition new_h5 (mdim : string -> nat) (dnames : list string) (nt : nat)
  : h5 :=
  let names := ["u"; "p"] ++ dnames in
  let dims := make_dims mdim names in
  mkH5 names dims (make_inds mdim names) init_window
       (repeat (repeat zero (dim_of dims)) nt).

(** The time argument of a reader: None, an int or a slice. *)
Inductive targ := TNone | TInt (t : Z) | TSlice (s : pslice).

(** The variable argument of a reader. *)
Inductive varg := VNone | VInt (i : Z) | VSlice (s : pslice).

Definition h_nt (h : h5) : Z := Z.of_nat (length (h_data h)).

(** h5data.py L632-656 *)
Definition tslice_of (h : h5) (t : targ) : pslice :=
  let w := h_win h in
  let s := match t with
           | TNone => mkSlice (Some (get_start w)) (Some (get_stop (h_nt h) w))
                              (Some (Z.to_nat (l_step w)))
           | TInt t => mkSlice (Some t) (Some (t + 1)%Z) None
           | TSlice s => s
           end in
  mkSlice (match s_start s with None => Some (get_start w) | a => a end)
          (match s_stop s with None => Some (get_stop (h_nt h) w) | b => b end)
          (match s_step s with
           | None => Some (Z.to_nat (l_step w)) | k => k end).

(** h5data.py L658-684 and the reading of the columns by h5py: an int gives
    one column (each value in a row of its own), a slice gives rows. *)
Definition read_cols (i0 i1 : nat) (v : varg) (row : list A)
  : result (list A) :=
  match v with
  | VNone =>
      Ok (slice_of (mkSlice (Some (Z.of_nat i0)) (Some (Z.of_nat i1)) None) row)
  | VInt i => do a <- py_get row (i + Z.of_nat i0); Ok [a]
  | VSlice s =>
      Ok (slice_of
            (mkSlice (Some (match s_start s with
                            | None => Z.of_nat i0
                            | Some a => a + Z.of_nat i0 end)%Z)
                     (Some (match s_stop s with
                            | None => Z.of_nat i1
                            | Some b => b + Z.of_nat i0 end)%Z)
                     (s_step s)) row)
  end.

(** h5data.py L686-704: [self[vname, t, v]] for a stored variable. *)
Definition read_data (h : h5) (vname : string) (t : targ) (v : varg)
  : result (list (list A)) :=
  match sget vname (h_inds h) with
  | None => Err KeyError
  | Some (i0, i1) =>
      rmap (read_cols i0 i1 v) (slice_of (tslice_of h t) (h_data h))
  end.

(** [v[a:b] = w] of numpy on a vector, with 0 <= a <= b: a vector of length 1
    is repeated. *)
Definition assign_slice (v : list A) (a b : nat) (w : list A)
  : result (list A) :=
  let lo := Nat.min a (length v) in
  let n := Nat.min b (length v) - lo in
  let put w := firstn lo v ++ w ++ skipn (lo + n) v in
  if length w =? n then Ok (put w)
  else match w with
       | [x] => Ok (put (repeat x n))
       | _ => Err ValueError
       end.

(** [self.h5file[self.dname][t] = v] *)
Definition write_row (data : list (list A)) (t : Z) (v : list A)
  : result (list (list A)) :=
  let n := Z.of_nat (length data) in
  let j := if (t <? 0)%Z then (t + n)%Z else t in
  if ((j <? 0) || (n <=? j))%Z then Err IndexError
  else Ok (replace_at (Z.to_nat j) v data).

Notation vecs := (list (string * list A)).

(** The loop of h5data.py L574-576: the caller's dictionary receives the
    stored values of the names it lacks.  When [t] selects no row, the block
    of shape (0, dim) that numpy reads cannot be assigned in L580 and
    ValueError is raised there; here it is raised at once. *)
Fixpoint fill_missing (h : h5) (t : Z) (names : list string) (data : vecs)
  : result vecs :=
  match names with
  | [] => Ok data
  | n :: names' =>
      match sget n data with
      | Some _ => fill_missing h t names' data
      | None =>
          do rows <- read_data h n (TInt t) (VSlice (mkSlice None None None));
          match rows with
          | [r] => fill_missing h t names' (sset n r data)
          | _ => Err ValueError
          end
      end
  end.

(** The loop of h5data.py L579-580. *)
Fixpoint fill_vector (h : h5) (data : vecs) (v : list A) : result (list A) :=
  match data with
  | [] => Ok v
  | (n, w) :: data' =>
      match sget n (h_inds h) with
      | None => Err KeyError
      | Some (a, b) => do v' <- assign_slice v a b w; fill_vector h data' v'
      end
  end.

(** h5data.py L555-586: the new state and the caller's dictionary after the
    call. *)
Definition h5dump_vecs (h : h5) (t : Z) (data : vecs) : result (h5 * vecs) :=
  do data' <- fill_missing h t (h_names h) data;
  do v <- fill_vector h data' (repeat zero (dim_of (h_dims h)));
  do rows <- write_row (h_data h) t v;
  Ok (set_data h rows, data').

(** The loop of h5data.py L608-626; [ts] is [tslice], whose stop is given. *)
Fixpoint dump_seqs_loop (fuel : nat) (h : h5)
         (data : list (string * list (list A))) (ts : pslice)
  : result h5 :=
  match data with
  | [] => Ok h
  | (n, sq) :: data' =>
      match sget n (h_inds h), s_stop ts with
      | Some (a, b), Some tstop =>
          let vs := mkSlice (Some (Z.of_nat a)) (Some (Z.of_nat b)) None in
          let temp_nt := length (slice_of ts (seq 0 (Z.to_nat tstop))) in
          let temp_nv := length (slice_of vs (seq 0 b)) in
          if 0 <? temp_nt * temp_nv then
            do rows <- set_dataset_from_iterable fuel (h_data h)
                         (dim_of (h_dims h)) sq (Some ts) (Some vs) 1024;
            dump_seqs_loop fuel (set_data h rows) data' ts
          else dump_seqs_loop fuel h data' ts
      | None, _ => Err KeyError
      | _, None => Err TypeError
      end
  end.

(** h5data.py L591-628 *)
Definition h5dump_seqs (fuel : nat) (h : h5)
           (data : list (string * list (list A))) (ts : pslice)
  : result h5 := dump_seqs_loop fuel h data ts.

(** One call of [h5dump_vecs] with a dictionary of its own; when it raises,
    nothing has been written (the write is the last statement). *)
Definition step_write (h : h5) (op : Z * vecs) : h5 :=
  match h5dump_vecs h (fst op) (snd op) with
  | Ok (h', _) => h'
  | Err _ => h
  end.

Definition run_writes (ops : list (Z * vecs)) (h : h5) : h5 :=
  fold_left step_write ops h.

End Store.
Arguments h5 A : clear implicits.
