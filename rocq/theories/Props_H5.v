(** C31, C32, C33: storage of the simulation data. *)
From Coq Require Import String List ZArith QArith Bool Lia Arith.
From Verif Require Import Py H5 Spec_H5 H5Window H5Chunk H5Store H5Seqs
  H5Examples.
Import ListNotations.
Local Open Scope string_scope.
Local Open Scope list_scope.
Local Open Scope nat_scope.

(** ** C31 *)

(** After any sequence of writes, accepted or refused, reading any variable at
    any time (except -1, see below) gives the vector last written for it. *)
Theorem C31_read_back : forall A (zero : A) mdim dnames,
  NoDup (["u"; "p"] ++ dnames) ->
  forall nt ops t i n,
  dicts ops -> row_of_time nt t = Some i -> t <> (-1)%Z ->
  In n (["u"; "p"] ++ dnames) ->
  read_data (run_writes zero ops (new_h5 zero mdim dnames nt)) n (TInt t) VNone
  = Ok [last_written mdim (["u"; "p"] ++ dnames) nt ops i n
                     (repeat zero (mdim n))].
Proof. exact @read_back. Qed.
Print Assumptions C31_read_back.

(** The same for one component. *)
Theorem C31_read_back_component : forall A (zero : A) mdim dnames,
  NoDup (["u"; "p"] ++ dnames) ->
  forall nt ops t i n k a,
  dicts ops -> row_of_time nt t = Some i -> t <> (-1)%Z ->
  In n (["u"; "p"] ++ dnames) ->
  nth_error (last_written mdim (["u"; "p"] ++ dnames) nt ops i n
                          (repeat zero (mdim n))) k = Some a ->
  read_data (run_writes zero ops (new_h5 zero mdim dnames nt)) n (TInt t)
            (VInt (Z.of_nat k)) = Ok [[a]].
Proof. exact @read_back_component. Qed.
Print Assumptions C31_read_back_component.

(** The same for a slice of the components. *)
Theorem C31_read_back_slice : forall A (zero : A) mdim dnames,
  NoDup (["u"; "p"] ++ dnames) ->
  forall nt ops t i n a b,
  dicts ops -> row_of_time nt t = Some i -> t <> (-1)%Z ->
  In n (["u"; "p"] ++ dnames) -> stop_at (mdim n) b <= mdim n ->
  read_data (run_writes zero ops (new_h5 zero mdim dnames nt)) n (TInt t)
            (VSlice (part a b))
  = Ok [between (start_at a) (stop_at (mdim n) b)
          (last_written mdim (["u"; "p"] ++ dnames) nt ops i n
                        (repeat zero (mdim n)))].
Proof. exact @read_back_part. Qed.
Print Assumptions C31_read_back_slice.
(** The slices [1:] and [0:1]; the slice [-1:] reads a neighbour too. *)
Example C31_slice_example :
  let h := run_writes 0 [(0%Z, [("u", [5]); ("x", [1; 2]); ("y", [7])])]
                      (new_h5 0 ex_dim ["x"; "y"] 1) in
  read_data h "x" (TInt 0) (VSlice (part (Some 1) None)) = Ok [[2]] /\
  read_data h "x" (TInt 0) (VSlice (part (Some 0) (Some 1))) = Ok [[1]] /\
  read_data h "x" (TInt 0) (VSlice (mkSlice (Some (-1)%Z) None None)) = Ok [[5; 1; 2]].
Proof. vm_compute; repeat split; reflexivity. Qed.

(** The same through the load window. *)
Theorem C31_read_back_window : forall A (zero : A) mdim dnames,
  NoDup (["u"; "p"] ++ dnames) ->
  forall nt ops w n a b s m,
  dicts ops -> In n (["u"; "p"] ++ dnames) -> inside (Z.of_nat nt) w ->
  get_start w = Z.of_nat a -> get_stop (Z.of_nat nt) w = Z.of_nat b ->
  l_step w = Z.of_nat s -> 0 < s -> counts a b s m ->
  let h := run_writes zero ops (new_h5 zero mdim dnames nt) in
  read_data (mkH5 (h_names h) (h_dims h) (h_inds h) w (h_data h)) n TNone VNone
  = Ok (map (fun k => last_written mdim (["u"; "p"] ++ dnames) nt ops
                        (a + k * s) n (repeat zero (mdim n))) (seq 0 m)).
Proof. exact @read_back_window. Qed.
Print Assumptions C31_read_back_window.

(** Which writes are accepted. *)
Theorem C31_accepted : forall A (zero : A) mdim dnames,
  NoDup (["u"; "p"] ++ dnames) ->
  forall nt ops op, dicts ops -> NoDup (map fst (snd op)) ->
  ((exists r, h5dump_vecs zero (run_writes zero ops
                (new_h5 zero mdim dnames nt)) (fst op) (snd op) = Ok r)
   <-> accepted mdim (["u"; "p"] ++ dnames) nt op = true).
Proof. exact @write_accepted. Qed.
Print Assumptions C31_accepted.

(** Whole sequences, as [init_data] writes them for u and p. *)
Theorem C31_sequences : forall A (zero : A) mdim dnames nt ops seqs fuel,
  let names := ["u"; "p"] ++ dnames in
  NoDup names -> dicts ops -> nt < fuel -> NoDup (map fst seqs) ->
  (forall n sq, In (n, sq) seqs -> In n names /\ rect nt (mdim n) sq) ->
  exists h',
    h5dump_seqs fuel (run_writes zero ops (new_h5 zero mdim dnames nt)) seqs
                (mkSlice (Some 0%Z) (Some (Z.of_nat nt)) None) = Ok h' /\
    (forall n sq t v, In (n, sq) seqs -> nth_error sq t = Some v ->
       read_data h' n (TInt (Z.of_nat t)) VNone = Ok [v]) /\
    (forall n t, In n names -> ~ In n (map fst seqs) -> t < nt ->
       read_data h' n (TInt (Z.of_nat t)) VNone
       = read_data (run_writes zero ops (new_h5 zero mdim dnames nt)) n
                   (TInt (Z.of_nat t)) VNone).
Proof. exact sequences_read_back. Qed.
Print Assumptions C31_sequences.

(** The table u:1, p:0, x:2, y:1 with three times; the last two of the six
    writes are refused. *)
Example C31_example :
  NoDup (["u"; "p"] ++ ["x"; "y"]) /\ dicts ex_ops /\
  map (accepted ex_dim ["u"; "p"; "x"; "y"] 3) ex_ops
  = [true; true; true; true; false; false] /\
  let h := run_writes 0 ex_ops (new_h5 0 ex_dim ["x"; "y"] 3) in
  read_data h "x" (TInt 0) VNone = Ok [[1; 2]] /\
  read_data h "y" (TInt 0) VNone = Ok [[7]] /\
  read_data h "x" (TInt 1) VNone = Ok [[8; 8]] /\
  read_data h "x" TNone VNone = Ok [[1; 2]; [8; 8]; [4; 5]].
Proof.
  split; [repeat constructor; cbn; intuition discriminate|].
  split; [repeat constructor; cbn; intuition discriminate|].
  vm_compute; repeat split; reflexivity.
Qed.

Example C31_sequences_example :
  match h5dump_seqs 4 (new_h5 0 ex_dim ["x"; "y"] 3)
          [("u", [[1]; [2]; [3]]); ("p", [[]; []; []])]
          (mkSlice (Some 0%Z) (Some 3%Z) None) with
  | Ok h => read_data h "u" TNone VNone = Ok [[1]; [2]; [3]]
  | Err _ => False
  end.
Proof. vm_compute; reflexivity. Qed.

(** A name given twice in the table ('u' is always there): what is written for
    it is lost. *)
Theorem C31_duplicate_name_refuted :
  exists mdim dnames nt t (data : list (string * list nat)) h' data',
  NoDup (map fst data) /\
  h5dump_vecs 0 (new_h5 0 mdim dnames nt) t data = Ok (h', data') /\
  sget "u" data = Some [5] /\ mdim "u" = 1 /\
  read_data h' "u" (TInt t) VNone = Ok [[]].
Proof. exact duplicate_refuted. Qed.
Print Assumptions C31_duplicate_name_refuted.

(** Time -1 can be written and not read. *)
Theorem C31_last_time_refuted :
  exists (data : list (string * list nat)) h' data',
  h5dump_vecs 0 (new_h5 0 ex_dim ["x"; "y"] 3) (-1) data = Ok (h', data') /\
  sget "y" data = Some [7] /\
  read_data h' "y" (TInt (-1)) VNone = Ok [] /\
  read_data h' "y" (TInt 2) VNone = Ok [[7]].
Proof. exact last_time_refuted. Qed.
Print Assumptions C31_last_time_refuted.

(** An index outside a variable reads its neighbours. *)
Theorem C31_neighbour_refuted :
  exists (ops : list (Z * list (string * list nat))),
  let h := run_writes 0 ops (new_h5 0 ex_dim ["x"; "y"] 1) in
  read_data h "x" (TInt 0) VNone = Ok [[1; 2]] /\
  read_data h "x" (TInt 0) (VInt (-1)) = Ok [[5]] /\
  read_data h "u" (TInt 0) VNone = Ok [[5]] /\
  read_data h "x" (TInt 0) (VInt 2) = Ok [[7]] /\
  read_data h "y" (TInt 0) VNone = Ok [[7]].
Proof. exact neighbour_refuted. Qed.
Print Assumptions C31_neighbour_refuted.

(** The dictionary given to a write is completed with the stored values of
    that time, so that giving the same dictionary again at another time
    overwrites variables the caller never put in it. *)
Theorem C31_reused_dict_refuted :
  exists (h0 h1 h2 : h5 nat) d d1 d2 ops,
  h0 = run_writes 0 ops (new_h5 0 ex_dim ["x"; "y"] 2) /\
  sget "x" d = None /\
  h5dump_vecs 0 h0 0 d = Ok (h1, d1) /\
  h5dump_vecs 0 h1 1 d1 = Ok (h2, d2) /\
  read_data h1 "x" (TInt 1) VNone = Ok [[3; 4]] /\
  read_data h2 "x" (TInt 1) VNone = Ok [[1; 2]].
Proof. exact reused_dict_refuted. Qed.
Print Assumptions C31_reused_dict_refuted.

(** ** C32 *)

(** For any slices of rows and columns and any chunk size, the rows are stored
    in order and nothing else changes. *)
Theorem C32_chunked : forall A (data it : list (list A)) n w a b s nr
  a' b' s' nc chunk fuel,
  rect n w data -> b <= n -> b' <= w -> 0 < s -> 0 < s' ->
  counts a b s nr -> counts a' b' s' nc ->
  0 < nr -> 0 < nc -> rect nr nc it -> 0 < chunk -> nr < fuel ->
  exists data',
    set_dataset_from_iterable fuel data w it (aslice a b s) (aslice a' b' s')
                              chunk = Ok data' /\
    rect n w data' /\ written data it data' a s nr a' s' nc.
Proof. exact @chunked_slices. Qed.
Print Assumptions C32_chunked.

(** The whole dataset. *)
Theorem C32_whole : forall A (data it : list (list A)) n w chunk fuel,
  rect n w data -> rect n w it -> 0 < n -> 0 < w -> 0 < chunk -> n < fuel ->
  set_dataset_from_iterable fuel data w it None None chunk = Ok it.
Proof. exact @chunked_whole. Qed.
Print Assumptions C32_whole.

(** Rows 0, 2, 4 and columns 1, 2 of a dataset of 5 rows and 3 columns, by
    chunks of 2. *)
Example C32_example :
  counts 0 5 2 3 /\ counts 1 3 1 2 /\
  set_dataset_from_iterable 4
    [[0; 0; 0]; [1; 1; 1]; [2; 2; 2]; [3; 3; 3]; [4; 4; 4]] 3
    [[10; 11]; [12; 13]; [14; 15]] (aslice 0 5 2) (aslice 1 3 1) 2
  = Ok [[0; 10; 11]; [1; 1; 1]; [2; 12; 13]; [3; 3; 3]; [4; 14; 15]].
Proof.
  split; [intro k; lia|]; split; [intro k; lia|].
  vm_compute; reflexivity.
Qed.

(** With no rows the loop never ends. *)
Theorem C32_empty_refuted : forall A fuel w it chunk,
  set_dataset_from_iterable fuel (@nil (list A)) w it None None chunk
  = Err OutOfFuel.
Proof. exact @empty_never_returns. Qed.
Print Assumptions C32_empty_refuted.

(** Rows in excess are ignored or refused according to the chunk size. *)
Theorem C32_surplus_refuted : exists (data it : list (list nat)) c1 c2 d,
  0 < c1 /\ 0 < c2 /\
  (forall fuel, 3 <= fuel ->
     set_dataset_from_iterable fuel data 1 it None None c1 = Ok d) /\
  (forall fuel, 3 <= fuel ->
     set_dataset_from_iterable fuel data 1 it None None c2 = Err TypeError).
Proof. exact surplus_refuted. Qed.
Print Assumptions C32_surplus_refuted.

(** ** C33 *)

(** After any assignments to start, stop, step, tstart and tstop, accepted or
    refused, the window is inside the data, whatever the rounding of times, if
    the numbers assigned to stop are integers. *)
Theorem C33_integer_window : forall mulfs divfs nt, (1 <= nt)%Z ->
  forall ops, integer_stops ops ->
  inside nt (run_assign mulfs divfs nt ops init_window).
Proof. exact window_integer. Qed.
Print Assumptions C33_integer_window.

(** Integers in range are stored, the others are refused and change nothing. *)
Theorem C33_start_stored : forall nt w i, inside nt w ->
  ((0 <= i < get_stop nt w)%Z ->
   get_start (fst (set_start nt w (PNum (inject_Z i)))) = i) /\
  (~ (0 <= i < get_stop nt w)%Z ->
   set_start nt w (PNum (inject_Z i)) = (w, Some ValueError)).
Proof. exact start_stored. Qed.
Print Assumptions C33_start_stored.

Theorem C33_stop_stored : forall nt w i, inside nt w ->
  ((get_start w < i <= nt)%Z ->
   get_stop nt (fst (set_stop nt w (PNum (inject_Z i)))) = i) /\
  (~ (get_start w < i <= nt)%Z ->
   set_stop nt w (PNum (inject_Z i)) = (w, Some ValueError)).
Proof. exact stop_stored. Qed.
Print Assumptions C33_stop_stored.

(** Exactly which numbers assigned to stop break the window. *)
Theorem C33_stop_number : forall nt, (1 <= nt)%Z -> forall w q,
  inside nt w ->
  (inside nt (fst (set_stop nt w (PNum q))) <->
   ~ (inject_Z (get_start w) < q /\ q < inject_Z (get_start w + 1))%Q).
Proof. exact (fun nt _ => stop_number nt). Qed.
Print Assumptions C33_stop_number.

Example C33_example :
  let w := run_assign (fun t => t * 100)%Q (fun i => inject_Z i / 100)%Q 50
             [AStart (PNum 20); AStop (PNum 10); ATstop (PNum (3 # 10));
              ATstart (PNum (1 # 2)); AStart (PNum (5 # 2)); AStep PNone]
             init_window in
  get_start w = 2%Z /\ get_stop 50 w = 31%Z.
Proof. vm_compute; split; reflexivity. Qed.

(** The claim fails for numbers that are not integers. *)
Theorem C33_window_refuted : forall mulfs divfs nt, (1 <= nt)%Z ->
  exists ops, ~ inside nt (run_assign mulfs divfs nt ops init_window) /\
              set_stop nt init_window (PNum (1 # 2))
              = (mkWindow None (Some 0%Z) 1, None) /\
              ops = [AStop (PNum (1 # 2))].
Proof. exact window_refuted. Qed.
Print Assumptions C33_window_refuted.

(** Two simulations share their load options. *)
Theorem C33_shared_options_refuted : forall mulfs divfs,
  exists nts ops k, Forall (fun n => 1 <= n)%Z nts /\ (k < length nts)%nat /\
    integer_stops (map snd ops) /\
    Forall (fun o => snd (do_assign mulfs divfs (nth (fst o) nts 0%Z)
                                    init_window (snd o)) = None) ops /\
    ~ inside (nth k nts 0%Z) (run_shared mulfs divfs nts ops init_window).
Proof. exact shared_refuted. Qed.
Print Assumptions C33_shared_options_refuted.

(** A new run with fewer time steps keeps the old stop. *)
Theorem C33_new_run_refuted : forall mulfs divfs,
  exists nt nt' ops, (1 <= nt' <= nt)%Z /\ integer_stops ops /\
    inside nt (run_assign mulfs divfs nt ops init_window) /\
    ~ inside nt' (run_assign mulfs divfs nt ops init_window).
Proof. exact new_run_refuted. Qed.
Print Assumptions C33_new_run_refuted.
