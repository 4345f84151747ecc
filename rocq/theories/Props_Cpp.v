(** C52: the C++ class that [method2cpp] writes does what the numerical core in
    python does.  C53: a numerical core just built. *)
From Coq Require Import String List ZArith QArith Reals Bool Lia Lra.
From Verif Require Import Py Tools Expr RSum Mat Core Calculus Spec_Core Spec_Calculus Method Numeric Spec_Numeric
  NumericProofs NumericSim NumericExamples DataExamples Cpp Spec_Cpp CppRefine CppBuild CppRate NumericBuild CppExamples.
Import ListNotations.
Local Open Scope string_scope.
Local Open Scope list_scope.
Local Open Scope nat_scope.

(** For a numerical core that could be built, the generator succeeds, the
    constructor gives an instance with the values of the numerical core
    whatever the memory contains, the loop of the main program over any
    sequence of inputs and parameters writes the rows that the simulation in
    python records and leaves the same values, and [set_sampleRate] with the
    sample rate in force brings the instance back to the initial values. *)
Theorem C52_same_simulation : forall nu deps fuel inits st0 subs rate single cinv, let m := n_method nu in
  wf m -> counters_ok m -> closed nu -> inv_correct (n_inv nu) -> cinv_for (n_inv nu) cinv ->
  same_dictionary nu subs rate -> good_inits single inits -> deps_for m deps -> 4 < fuel ->
  build_numeric nu deps fuel inits = Ok st0 ->
  exists order k, update_actions_deps deps fuel m = Ok order /\
    generate single m subs [subs] rate (n_eps nu) (n_maxit nu) inits (st_vals st0) order = Ok k /\
    forall junk, length junk = length (args_of m) ->
    exists o, construct cinv k junk = Ok o /\ simulates nu k order st0 o /\
    forall names seq rows st', incl names recordable ->
      (forall u p, In (u, p) seq -> length u = length (c_u m) /\ length p = length (c_p m)) ->
      process nu names seq st0 = Ok (rows, st') ->
      exists crows o', c_process cinv k names seq o = Ok (crows, o') /\ Forall2 same_row rows crows /\
        simulates nu k order st' o' /\
        exists o'', set_sampleRate cinv k rate o' = Ok o'' /\ simulates nu k order st0 o''.
Proof. exact cpp_follows. Qed.
Print Assumptions C52_same_simulation.

(** A change of the sample rate is not taken into account by the entries that
    depend on no argument: whatever the class and the instance, these entries
    of the functions keep the values that they had. *)
Theorem C52_rate_refuted : forall single m subs given rate eps maxit inits evals order k,
  generate single m subs given rate eps maxit inits evals order = Ok k ->
  forall cinv v o o', set_sampleRate cinv k v o = Ok o' -> ob_rate o' = v /\
    forall name f A i j, assoc name (funcs m) = Some (Ok f) -> fmat f = Ok A -> depends m (ent A i j) = false ->
      entry o' name i j = entry o name i j.
Proof. exact rate_spares. Qed.
Print Assumptions C52_rate_refuted.

(** The reservoir: the matrix of the implicit function is 3/2 at the sample rate
    1 and 5/2 at 2; the instance keeps 3/2. *)
Theorem C52_rate_example_refuted :
  exists k, generate (fun v => v) (tank_m obs0) [] [[]] 1 (1/100) 10 start3 shapes12 order12 = Ok k /\
  exists o o', construct cinv12 k [0%R; 0%R; 0%R] = Ok o /\ set_sampleRate cinv12 k 2 o = Ok o' /\
    ob_rate o' = 2%R /\ entry o "jactempFll" 0 0 = Some (3/2)%R /\ entry o' "jactempFll" 0 0 = Some (3/2)%R /\
  exists st A, build_numeric (reservoir_at 2) (deps_in (tank_m obs0)) 5 start3 = Ok st /\
    get (reservoir_at 2) "jactempFll" st = Ok (Ma 1 1 A) /\ A 0 0 = (5/2)%R.
Proof. exact reservoir_rate. Qed.
Print Assumptions C52_rate_example_refuted.

(** Two dictionaries of parameters or more are never accepted, unless the first
    is empty. *)
Theorem C52_several_dictionaries_refuted : forall single m subs given rate eps maxit inits evals order k,
  generate single m subs given rate eps maxit inits evals order = Ok k ->
  forall d0 d1 rest, given = d0 :: d1 :: rest -> d0 = [].
Proof. exact one_dictionary. Qed.
Print Assumptions C52_several_dictionaries_refuted.

(** A dictionary with the same content in another order exchanges the values. *)
Theorem C52_other_order_refuted :
  exists k, generate (fun v => v) (tank_m obs0) [("a", 1%R); ("b", 2%R)] [[("b", 2%R); ("a", 1%R)]]
    1 (1/100) 10 start3 shapes12 order12 = Ok k /\
  forall o, deref k o "a" = Ok 2%R /\ deref k o "b" = Ok 1%R.
Proof. exact reservoir_swapped. Qed.
Print Assumptions C52_other_order_refuted.

(** The initial values are rounded to single precision: the instance starts at
    [single 3] where the numerical core starts at 3. *)
Theorem C52_rounded_refuted : forall single,
  exists k, generate single (tank_m obs0) [] [[]] 1 (1/100) 10 start3 shapes12 order12 = Ok k /\
  exists o, construct cinv12 k [0%R; 0%R; 0%R] = Ok o /\ nth_error (ob_args o) 0 = Some (single 3%R).
Proof. exact reservoir_rounded. Qed.
Print Assumptions C52_rounded_refuted.

(** The hypotheses hold for the reservoir, started at 3. *)
Example C52_example : let nu := reservoir_at 1 in
  wf (n_method nu) /\ counters_ok (n_method nu) /\ closed nu /\ inv_correct (n_inv nu) /\ cinv_for (n_inv nu) cinv12 /\
  same_dictionary nu [] 1 /\ good_inits (fun v => v) start3 /\ deps_for (n_method nu) (deps_in (tank_m obs0)) /\
  exists st, build_numeric nu (deps_in (tank_m obs0)) 5 start3 = Ok st.
Proof.
  cbv zeta. rewrite (reservoir_method 1).
  split; [exact (tank_m_wf obs0 some0)|]. split; [exact (tank_counters obs0 some0)|]. split; [exact (reservoir_closed 1)|].
  split; [exact inv12_correct|]. split; [exact cinv12_for|]. split; [exact (reservoir_dictionary 1)|].
  split; [exact start3_good|]. split; [exact (deps_in_for _)|].
  apply reservoir_built; [lra|now left].
Qed.

(** ** C53 *)

(** The numerical core built from initial values of the right sizes: the
    arguments hold these values, zero for the others, and every function and
    operation holds its value at these arguments; the only exception is the
    inversion of a singular matrix. *)
Theorem C53_built : forall nu deps fuel inits, let m := n_method nu in
  wf m -> counters_ok m -> closed nu -> deps_for m deps -> 4 < fuel ->
  NoDup (map fst inits) -> incl (map fst inits) arg_names ->
  (forall n l, In (n, Some l) inits -> length l = group_size m n) ->
  safe (build_numeric nu deps fuel inits) (fun st =>
    length (st_args st) = length (args_of m) /\
    (forall n, In n arg_names -> get nu n st = Ok (Ve (asked m inits n))) /\
    (forall n, In n (action_names m) -> assoc n (groups m) = None ->
       exists v, get nu n st = Ok v /\ run_eval nu n st = Ok v)).
Proof. exact build_ok. Qed.
Print Assumptions C53_built.

(** It fails on a matrix that the update has to invert, at the initial values. *)
Theorem C53_fails : forall nu deps fuel inits e, let m := n_method nu in
  wf m -> counters_ok m -> closed nu -> deps_for m deps -> 4 < fuel ->
  NoDup (map fst inits) -> incl (map fst inits) arg_names ->
  (forall n l, In (n, Some l) inits -> length l = group_size m n) ->
  build_numeric nu deps fuel inits = Err e ->
  e = SingularMatrix /\
  exists n d k A st, In (n, OInv (OName d)) (ops m) /\ length (st_args st) = length (args_of m) /\
    (forall n, In n arg_names -> get nu n st = Ok (Ve (asked m inits n))) /\
    get nu d st = Ok (Ma k k A) /\ run_eval nu d st = Ok (Ma k k A) /\ n_inv nu k A = None.
Proof. exact build_fails. Qed.
Print Assumptions C53_fails.

Example C53_example :
  (exists st, build_numeric (reservoir_at 1) (deps_in (tank_m obs0)) 5 start3 = Ok st) /\
  asked (tank_m obs0) start3 "x" = [3%R] /\ asked (tank_m obs0) start3 "u" = [0%R] /\ asked (tank_m obs0) start3 "dx" = [0%R] /\
  NoDup (map fst start3) /\ incl (map fst start3) arg_names.
Proof.
  split; [apply reservoir_built; [lra|now left]|]. split; [reflexivity|]. split; [reflexivity|]. split; [reflexivity|].
  destruct (reservoir_sizes start3 (or_introl eq_refl)) as (A & B & _). now split.
Qed.
