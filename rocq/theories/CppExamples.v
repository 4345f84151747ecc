(** A reservoir with one state and one input, as a C++ class. *)
From Coq Require Import String List ZArith QArith Qreals Reals Bool Lia Lra.
From Verif Require Import Py Tools Lists Expr RSum Mat Core Calculus ExprProofs MatProofs Spec_Core StructProofs
  Spec_Calculus Deriv CalculusProofs PowerProofs Subs SubsProofs Method Spec_Method Separable TempProofs
  Numeric Spec_Numeric NumericProofs NumericUpdate NumericStep NumericUpdateOk NumericSim NumericExamples DataExamples
  Cpp Spec_Cpp CppProofs CppRefine CppBuild CppRate NumericBuild.
Import ListNotations.
Local Open Scope string_scope.
Local Open Scope list_scope.
Local Open Scope nat_scope.

Definition deps_in (m : core) (s : string) : option (list string) :=
  match assoc s (ops m) with Some o => Some (deps_of o) | None => None end.
Lemma deps_in_for m : deps_for m (deps_in m).
Proof. intros s. unfold deps_in. destruct (assoc s (ops m)) as [o|]; [|reflexivity]. exists (deps_of o). now split. Qed.

Definition reservoir : numeric := tank_nu obs0.
Definition reservoir_at (rate : R) : numeric := mkNumeric (tank_m obs0) [(fs_symbol, rate)] (1/100)%R 10 inv12.
Lemma reservoir_method rate : n_method (reservoir_at rate) = tank_m obs0.
Proof. unfold reservoir_at. cbn [n_method]. reflexivity. Qed.
Definition start3 : list (string * option (list R)) := [("x", Some [3%R]); ("u", None)].

Definition cinv12 : cinverter := fun n A =>
  match n with
  | 1 => fun _ _ => (/ A 0%nat 0%nat)%R
  | 2 => let det := (A 0%nat 0%nat * A 1%nat 1%nat - A 0%nat 1%nat * A 1%nat 0%nat)%R in
         fun i j => match i, j with
                    | 0, 0 => (A 1%nat 1%nat / det)%R | 0, _ => (- A 0%nat 1%nat / det)%R
                    | _, 0 => (- A 1%nat 0%nat / det)%R | _, _ => (A 0%nat 0%nat / det)%R
                    end
  | _ => A
  end.
Lemma cinv12_for : cinv_for inv12 cinv12.
Proof.
  intros n A A' B E H. apply inv12_correct. destruct n as [|[|[|n]]]; cbn [inv12 cinv12] in *; [reflexivity| | |discriminate].
  - rewrite <- (H 0 0) by lia. destruct (Req_EM_T (A 0%nat 0%nat) 0); [discriminate|reflexivity].
  - rewrite <- (H 0 0), <- (H 0 1), <- (H 1 0), <- (H 1 1) by lia.
    destruct (Req_EM_T (A 0%nat 0%nat * A 1%nat 1%nat - A 0%nat 1%nat * A 1%nat 0%nat) 0); [discriminate|]. f_equal.
Qed.

(** The theorems on the numerical core, with a name for the method. *)
Lemma build_fails_at nu m deps fuel inits e : n_method nu = m ->
  wf m -> counters_ok m -> closed nu -> deps_for m deps -> 4 < fuel ->
  NoDup (map fst inits) -> incl (map fst inits) arg_names ->
  (forall n l, In (n, Some l) inits -> length l = group_size m n) ->
  build_numeric nu deps fuel inits = Err e ->
  exists n d k A st, In (n, OInv (OName d)) (ops m) /\ length (st_args st) = length (args_of m) /\
    run_eval nu d st = Ok (Ma k k A) /\ n_inv nu k A = None.
Proof.
  intros <- W HC CL DF HF NK IK LK E. destruct (build_fails nu deps fuel inits e W HC CL DF HF NK IK LK E)
    as (_ & n & d & k & A & st & I & L & _ & _ & RE & EI). now exists n, d, k, A, st.
Qed.
Lemma build_ok_at nu m deps fuel inits st : n_method nu = m ->
  wf m -> counters_ok m -> closed nu -> deps_for m deps -> 4 < fuel ->
  NoDup (map fst inits) -> incl (map fst inits) arg_names ->
  (forall n l, In (n, Some l) inits -> length l = group_size m n) ->
  build_numeric nu deps fuel inits = Ok st ->
  length (st_args st) = length (args_of m) /\
  forall n, In n (action_names m) -> assoc n (groups m) = None -> exists v, get nu n st = Ok v /\ run_eval nu n st = Ok v.
Proof.
  intros <- W HC CL DF HF NK IK LK E. pose proof (build_ok nu deps fuel inits W HC CL DF HF NK IK LK) as S.
  rewrite E in S. cbn [safe] in S. now destruct S as (A & _ & B).
Qed.

Ltac reals := cbv -[Rplus Rmult Rinv Ropp IZR Q2R Req_EM_T pow sqrt].
Ltac reals_in X := cbv -[Rplus Rmult Rinv Ropp IZR Q2R Req_EM_T pow sqrt] in X.

Lemma q12 : Q2R (1 # 2) = (1/2)%R. Proof. unfold Q2R. cbn. lra. Qed.

Lemma reservoir_closed rate : closed (reservoir_at rate).
Proof. apply closed_check_ok; [exact (tank_args obs0 some0)|]. vm_compute. reflexivity. Qed.

(** The only matrix to invert is [fs + 1/2]. *)
Definition reservoir_jac : mat :=
  match jactempF Sl Sl (tank_m obs0) with Ok A => A | Err _ => mkMat 0 0 (fun _ _ => Num 0) end.
Lemma reservoir_jac_is : assoc "jactempFll" (funcs (tank_m obs0)) = Some (Ok (FM reservoir_jac)) /\
  nr reservoir_jac = 1 /\ nc reservoir_jac = 1 /\ forall r, eval r (ent reservoir_jac 0 0) = (r fs_symbol + 1/2)%R.
Proof.
  split.
  { transitivity (Some (do A <- jactempF Sl Sl (tank_m obs0); Ok (FM A))); [reflexivity|]. unfold reservoir_jac.
    destruct (jac_ok (tank_m obs0) Sl Sl (tank_m_wf obs0 some0) (tank_counters obs0 some0)) as (F & J & _ & _ & -> & _). reflexivity. }
  split; [reflexivity|]. split; [reflexivity|]. intros r.
  assert (E : ent reservoir_jac 0 0 = Add (Sym fs_symbol) (Num (1#2))) by (vm_compute; reflexivity). rewrite E. cbn [eval]. now rewrite q12.
Qed.
Lemma reservoir_fs rate st : senv (reservoir_at rate) st fs_symbol = rate.
Proof. reflexivity. Qed.
Lemma reservoir_eval rate st v : length (st_args st) = length (args_of (tank_m obs0)) -> run_eval (reservoir_at rate) "jactempFll" st = Ok v ->
  exists A, v = Ma 1 1 A /\ A 0 0 = (rate + 1/2)%R.
Proof.
  intros L E. destruct reservoir_jac_is as (F & NR & NC & V). unfold run_eval in E.
  change (n_method (reservoir_at rate)) with (tank_m obs0) in E. rewrite F in E.
  assert (O : assoc "jactempFll" (ops (tank_m obs0)) = None) by reflexivity. rewrite O in E. cbn [rbind] in E.
  destruct (func_ok (reservoir_at rate) (reservoir_closed rate) "jactempFll" (FM reservoir_jac) st (assoc_in _ _ _ F)) as (w & E' & C); [exact L|].
  rewrite E in E'. injection E' as <-. cbn [content] in C. unfold isM in C. rewrite NR, NC in C. destruct C as (A & -> & HA).
  exists A. split; [reflexivity|]. rewrite HA by lia. now rewrite V, reservoir_fs.
Qed.

Lemma reservoir_sizes inits : inits = start3 \/ inits = [] -> NoDup (map fst inits) /\ incl (map fst inits) arg_names /\
  forall n l, In (n, Some l) inits -> length l = group_size (tank_m obs0) n.
Proof.
  intros [-> | ->]; (split; [repeat constructor; cbn; intuition discriminate|]); (split; [intros s H; cbn in *; tauto|]).
  - intros n l [H|[H|[]]]; [injection H as <- <-; reflexivity|discriminate].
  - intros n l [].
Qed.
Lemma reservoir_built rate inits : (rate + 1/2 <> 0)%R -> inits = start3 \/ inits = [] ->
  exists st, build_numeric (reservoir_at rate) (deps_in (tank_m obs0)) 5 inits = Ok st.
Proof.
  intros N H. destruct (build_numeric (reservoir_at rate) (deps_in (tank_m obs0)) 5 inits) as [st|e] eqn:X; [now exists st|].
  exfalso. destruct (reservoir_sizes inits H) as (NK & IK & LK).
  destruct (build_fails_at (reservoir_at rate) (tank_m obs0) (deps_in (tank_m obs0)) 5 inits e (reservoir_method rate) (tank_m_wf obs0 some0) (tank_counters obs0 some0)
    (reservoir_closed rate) (deps_in_for _) (le_n 5) NK IK LK X) as (n & d & k & A & st & I & L & RE & EI).
  assert (d = "jactempFll") as ->.
  { assert (O : ops (tank_m obs0) = [("ud_x", OAdd (OName "x") (OName "dx")); ("ijactempFll", OInv (OName "jactempFll"));
        ("ud_vl", ODot (OName "ijactempFll") (ODot (ONum (-1)) (OName "Gl")))]) by reflexivity.
    rewrite O in I.
    clear - I. destruct I as [I|[I|[I|[]]]]; [discriminate I| |discriminate I]. now injection I. } clear X.
  destruct (reservoir_eval rate st _ L RE) as (B & E & EB). injection E as E1 E2. subst k B. cbn [n_inv reservoir_at inv12] in EI.
  destruct (Req_EM_T (A 0 0) 0) as [Z|]; [|discriminate EI]. apply N. now rewrite <- EB.
Qed.

Lemma reservoir_dictionary rate : same_dictionary (reservoir_at rate) [] rate.
Proof.
  split; [constructor|]. split; [reflexivity|]. intros s N. cbn [assoc reservoir_at n_subs].
  destruct (String.eqb_spec fs_symbol s) as [<-|]; [now elim N|reflexivity].
Qed.
Lemma start3_good : good_inits (fun v => v) start3.
Proof.
  split; [repeat constructor; cbn; intuition discriminate|]. split; [intros s H; cbn in *; tauto|]. reflexivity.
Qed.
(** The class written for a given order and given shapes of operations. *)
Definition shapes12 (s : string) : option value :=
  if String.eqb s "ijactempFll" then Some (Ma 1 1 (fun _ _ => 0%R)) else Some (Ve [0%R]).
Definition order12 : list string :=
  match update_actions_deps (deps_in (tank_m obs0)) 5 (tank_m obs0) with Ok l => l | Err _ => [] end.

(** The sample rate changes from 1 to 2. *)
Lemma reservoir_rate : exists k, generate (fun v => v) (tank_m obs0) [] [[]] 1 (1/100) 10 start3 shapes12 order12 = Ok k /\
  exists o o', construct cinv12 k [0%R; 0%R; 0%R] = Ok o /\ set_sampleRate cinv12 k 2 o = Ok o' /\
    ob_rate o' = 2%R /\ entry o "jactempFll" 0 0 = Some (3/2)%R /\ entry o' "jactempFll" 0 0 = Some (3/2)%R /\
  exists st A, build_numeric (reservoir_at 2) (deps_in (tank_m obs0)) 5 start3 = Ok st /\
    get (reservoir_at 2) "jactempFll" st = Ok (Ma 1 1 A) /\ A 0 0 = (5/2)%R.
Proof.
  destruct (generate (fun v => v) (tank_m obs0) [] [[]] 1 (1/100) 10 start3 shapes12 order12) as [k|e] eqn:G; [|reals_in G; discriminate].
  exists k. split; [reflexivity|].
  destruct (construct cinv12 k [0%R; 0%R; 0%R]) as [o|e] eqn:C;
    [|exfalso; reals_in G; injection G as <-; reals_in C; discriminate].
  destruct (set_sampleRate cinv12 k 2 o) as [o'|e] eqn:S;
    [|exfalso; reals_in G; injection G as <-; reals_in C; injection C as <-; reals_in S; discriminate].
  exists o, o'. split; [reflexivity|]. split; [exact S|].
  destruct (rate_spares _ _ _ _ _ _ _ _ _ _ _ G cinv12 2 o o' S) as [Rt SP]. split; [exact Rt|].
  assert (E : entry o "jactempFll" 0 0 = Some (3/2)%R).
  { reals_in G. injection G as <-. reals_in C. injection C as <-. reals. f_equal. rewrite q12. lra. }
  split; [exact E|]. destruct reservoir_jac_is as (F & _). split.
  - rewrite (SP "jactempFll" (FM reservoir_jac) reservoir_jac 0 0 F eq_refl); [exact E|vm_compute; reflexivity].
  - destruct (reservoir_built 2 start3 ltac:(lra) (or_introl eq_refl)) as [st B]. exists st.
    destruct (reservoir_sizes start3 (or_introl eq_refl)) as (NK & IK & LK).
    destruct (build_ok_at (reservoir_at 2) (tank_m obs0) (deps_in (tank_m obs0)) 5 start3 st (reservoir_method 2) (tank_m_wf obs0 some0) (tank_counters obs0 some0)
      (reservoir_closed 2) (deps_in_for _) (le_n 5) NK IK LK B) as [L SF].
    destruct (SF "jactempFll" ltac:(vm_compute; tauto) ltac:(reflexivity)) as (v & GV & RV).
    destruct (reservoir_eval 2 st v L RV) as (A & -> & EA). exists A. split; [exact B|]. split; [exact GV|]. rewrite EA. lra.
Qed.

(** Two parameters given in another order than in the dictionary of the core. *)
Lemma reservoir_swapped : exists k, generate (fun v => v) (tank_m obs0) [("a", 1%R); ("b", 2%R)] [[("b", 2%R); ("a", 1%R)]] 1 (1/100) 10 start3 shapes12 order12 = Ok k /\
  forall o, deref k o "a" = Ok 2%R /\ deref k o "b" = Ok 1%R.
Proof.
  destruct (generate (fun v => v) (tank_m obs0) [("a", 1%R); ("b", 2%R)] [[("b", 2%R); ("a", 1%R)]] 1 (1/100) 10 start3 shapes12 order12) as [k|e] eqn:G;
    [|reals_in G; discriminate].
  exists k. split; [reflexivity|]. intros o. reals_in G. injection G as <-. now split.
Qed.

(** An initial value that single precision does not represent. *)
Lemma reservoir_rounded single : exists k, generate single (tank_m obs0) [] [[]] 1 (1/100) 10 start3 shapes12 order12 = Ok k /\
  exists o, construct cinv12 k [0%R; 0%R; 0%R] = Ok o /\ nth_error (ob_args o) 0 = Some (single 3%R).
Proof.
  destruct (generate single (tank_m obs0) [] [[]] 1 (1/100) 10 start3 shapes12 order12) as [k|e] eqn:G; [|reals_in G; discriminate].
  exists k. split; [reflexivity|].
  destruct (construct cinv12 k [0%R; 0%R; 0%R]) as [o|e] eqn:C; [|exfalso; reals_in G; injection G as <-; reals_in C; discriminate].
  exists o. split; [reflexivity|]. reals_in G. injection G as <-. reals_in C. injection C as <-. reals. f_equal.
  destruct (Req_EM_T 3 0); [lra|reflexivity].
Qed.
