(** Properties of connectors: C10, C11, C12, C35. *)
From Coq Require Import String List ZArith QArith Reals Bool Lia Permutation.
From Verif Require Import Py Expr RSum Mat Core Spec_Core Spec_Connect StructProofs ConnectProofs
  ConnectExamples.
Import ListNotations.
Local Open Scope string_scope.
Local Open Scope list_scope.
Local Open Scope nat_scope.

(** ** C10 *)

(** The reduced structure has exactly the solutions of the original equations
    completed by the law of every connector. *)
Theorem C10_connect_eliminates_connected_ports : forall inv c c',
  wf c -> conn_ok c -> connect inv c = ok c' ->
  exists A B, loop_inverse inv c A B /\ forall r, inverse_at r A B -> forall a b,
    b_eq_M_a (ntot c') (Mv r c') a b <->
    exists cuv cyv, ext_rel r c a b cuv cyv /\
      forall k, In k (c_connectors c) -> transformer r k cuv cyv.
Proof. exact connect_behaviour. Qed.
Print Assumptions C10_connect_eliminates_connected_ports.

(** [connect] either removes the connected variables, keeping all others, or
    reports that its loop matrix is singular and leaves equivalent equations. *)
Theorem C10_connect_succeeds_or_reports : forall inv c,
  wf c -> conn_ok c -> inv_shape inv ->
  (exists M', connect inv c = ok (set_connectors [] (set_cu [] (set_cy [] (set_M M' c)))) /\
     nr M' = nint c /\ nc M' = nint c) \/
  (exists c1 A, connect inv c = raise GenericException c1 /\
     nr A = length (c_cy c) /\ nc A = length (c_cy c) /\ inv A = None /\
     wf c1 /\ c1 = set_M (c_M c1) (set_cy (c_cy c1) (set_cu (c_cu c1) c)) /\
     forall r a b cuv cyv, ext_rel r c a b cuv cyv <-> ext_rel r c1 a b cuv cyv).
Proof. exact connect_total. Qed.
Print Assumptions C10_connect_succeeds_or_reports.

(** From the user's side: two ports of a core, connected. *)
Theorem C10_connecting_two_ports : forall inv c c1 c' i0 i1 al y0 y1,
  wf c -> NoDup (c_u c) -> NoDup (c_y c) -> c_cy c = [] -> c_connectors c = [] ->
  i0 <> i1 -> nth_error (c_y c) i0 = Some y0 -> nth_error (c_y c) i1 = Some y1 ->
  add_connector (Z.of_nat i0) (Z.of_nat i1) (Some al) c = ok c1 -> connect inv c1 = ok c' ->
  Permutation (c_y c) (y0 :: y1 :: c_y c') /\
  exists A B, loop_inverse inv c1 A B /\ forall r, inverse_at r A B -> forall a b uv yv,
    b_eq_M_a (ntot c') (Mv r c') (with_ports c' a uv) (with_ports c' b yv) <->
    exists uv' yv', (forall s, In s (c_y c') -> uv' s = uv s /\ yv' s = yv s) /\
      term_rel r c a b uv' yv' /\
      uv' y0 = (- (eval r al * yv' y1))%R /\ uv' y1 = (eval r al * yv' y0)%R.
Proof. exact connector_law. Qed.
Print Assumptions C10_connecting_two_ports.

(** Such an inverse is one wherever [inv] is right. *)
Theorem C10_sound_inverse_suffices : forall inv r c A B,
  inv_sound inv r -> loop_inverse inv c A B -> inverse_at r A B.
Proof. exact inverse_at_sound. Qed.
Print Assumptions C10_sound_inverse_suffices.

Example C10_example :
  wf loop_c1 /\ wired loop_c1 /\ conn_ok loop_c1 /\ c_cy loop_c1 = ["y2"; "y1"] /\
  connect inv_id loop_c1 = ok loop_c' /\
  rows_of (c_M loop_c') = [[Num 0; Num 3]; [Num (-3); Num 0]].
Proof.
  destruct (add_connector_wired loop_core 0 1 (Some (Num 3)) loop_c1 loop_wf) as [W WI].
  - split; [apply loop_nodup|]. split; [apply loop_nodup|reflexivity].
  - cbn; lia.
  - cbn; lia.
  - lia.
  - exact loop_1.
  - split; [exact W|]. split; [exact WI|]. split; [apply wired_conn_ok, WI|].
    split; [reflexivity|]. split; [exact loop_2|]. vm_compute. reflexivity.
Qed.

(** ** C11 *)
Theorem C11_connect_keeps_passivity : forall inv c c',
  wf c -> conn_ok c -> connect inv c = ok c' ->
  exists A B, loop_inverse inv c A B /\ forall r, inverse_at r A B ->
    (passive (ntot c) (Mv r c) -> passive (ntot c') (Mv r c')) /\
    (conservative (ntot c) (Mv r c) -> conservative (ntot c') (Mv r c')).
Proof. exact connect_passive. Qed.
Print Assumptions C11_connect_keeps_passivity.

Example C11_example : forall r, conservative (ntot loop_c1) (Mv r loop_c1).
Proof. exact loop_c1_conservative. Qed.

(** ** C12 *)

(** The law documented by [add_connector] is not the law [connect] imposes. *)
Theorem C12_documented_law_refuted :
  exists inv c c1 c' al r, wf c /\ NoDup (c_u c) /\ NoDup (c_y c) /\ inv_sound inv r /\
    nth_error (c_y c) 0 = Some "y1" /\ nth_error (c_y c) 1 = Some "y2" /\
    add_connector 0 1 (Some al) c = ok c1 /\ connect inv c1 = ok c' /\
    ~ (forall a b uv yv,
        b_eq_M_a (ntot c') (Mv r c') (with_ports c' a uv) (with_ports c' b yv) ->
        exists uv' yv', (forall s, In s (c_y c') -> uv' s = uv s /\ yv' s = yv s) /\
          term_rel r c a b uv' yv' /\
          uv' "y1" = (eval r al * yv' "y2")%R /\ uv' "y2" = (- (eval r al * yv' "y1"))%R).
Proof. exact documented_law_refuted. Qed.
Print Assumptions C12_documented_law_refuted.

(** It becomes the documented law when the gain is negated. *)
Theorem C12_documented_law_with_opposite_gain : forall inv c c1 c' i0 i1 al y0 y1,
  wf c -> NoDup (c_u c) -> NoDup (c_y c) -> c_cy c = [] -> c_connectors c = [] ->
  i0 <> i1 -> nth_error (c_y c) i0 = Some y0 -> nth_error (c_y c) i1 = Some y1 ->
  add_connector (Z.of_nat i0) (Z.of_nat i1) (Some (sneg al)) c = ok c1 -> connect inv c1 = ok c' ->
  exists A B, loop_inverse inv c1 A B /\ forall r, inverse_at r A B -> forall a b uv yv,
    b_eq_M_a (ntot c') (Mv r c') (with_ports c' a uv) (with_ports c' b yv) <->
    exists uv' yv', (forall s, In s (c_y c') -> uv' s = uv s /\ yv' s = yv s) /\
      term_rel r c a b uv' yv' /\
      uv' y0 = (eval r al * yv' y1)%R /\ uv' y1 = (- (eval r al * yv' y0))%R.
Proof. exact opposite_gain_law. Qed.
Print Assumptions C12_documented_law_with_opposite_gain.

(** ** C35 *)
Theorem C35_port_becomes_last_connector : forall c u1 ui u2 y1 yi y2,
  wf c -> c_u c = u1 ++ ui :: u2 -> c_y c = y1 ++ yi :: y2 -> length u1 = length y1 ->
  NoDup (c_u c) -> NoDup (c_y c) ->
  exists c' sg, port2connector (Z.of_nat (length y1)) c = ok c' /\ wf c' /\
    c_u c' = u1 ++ u2 /\ c_y c' = y1 ++ y2 /\
    c_cu c' = c_cu c ++ [ui] /\ c_cy c' = c_cy c ++ [yi] /\
    c' = set_y (c_y c') (set_u (c_u c') (set_cy (c_cy c') (set_cu (c_cu c') (set_M (c_M c') c)))) /\
    Spec_Tools.moved_range (ntot c) (nxw c + length y1) (ntot c - 1) sg /\
    (forall r k l, k < ntot c -> l < ntot c -> Mv r c' k l = Mv r c (nth k sg 0) (nth l sg 0)) /\
    forall r a b uv yv, term_rel r c a b uv yv <-> term_rel r c' a b uv yv.
Proof. exact port2connector_spec. Qed.
Print Assumptions C35_port_becomes_last_connector.

Theorem C35_add_connector : forall c i0 i1 al,
  wf c -> i0 < length (c_y c) -> i1 < length (c_y c) -> i0 <> i1 ->
  NoDup (c_u c) -> NoDup (terminals c) ->
  exists c' k, add_connector (Z.of_nat i0) (Z.of_nat i1) al c = ok c' /\ wf c' /\
    NoDup (c_u c') /\ NoDup (terminals c') /\
    nth_error (c_u c) i0 = Some (k_u0 k) /\ nth_error (c_u c) i1 = Some (k_u1 k) /\
    nth_error (c_y c) i0 = Some (k_y0 k) /\ nth_error (c_y c) i1 = Some (k_y1 k) /\
    k_alpha k = match al with None => Num 1 | Some e => e end /\
    c_connectors c' = c_connectors c ++ [k] /\
    Permutation (c_cy c') (k_y0 k :: k_y1 k :: c_cy c) /\
    Permutation (c_y c) (k_y0 k :: k_y1 k :: c_y c') /\
    (c_x c' = c_x c /\ c_w c' = c_w c /\ c_z c' = c_z c /\ c_H c' = c_H c /\ c_dxH c' = c_dxH c) /\
    forall r a b uv yv, term_rel r c a b uv yv <-> term_rel r c' a b uv yv.
Proof. exact add_connector_ok. Qed.
Print Assumptions C35_add_connector.

(** The hypothesis of C10 holds after any number of connectors. *)
Theorem C35_connectors_stay_consistent : forall c i0 i1 al c',
  wf c -> wired c -> i0 < length (c_y c) -> i1 < length (c_y c) -> i0 <> i1 ->
  add_connector (Z.of_nat i0) (Z.of_nat i1) al c = ok c' -> wf c' /\ wired c' /\ conn_ok c'.
Proof. exact add_connector_keeps_wired. Qed.
Print Assumptions C35_connectors_stay_consistent.

(** With a negative index (accepted by the assertions of [add_connector]) the
    wrong row of the structure is moved. *)
Theorem C35_negative_index_refuted : exists c c' r a b uv yv,
  wf c /\ NoDup (c_u c) /\ NoDup (c_y c) /\ port2connector (-1) c = ok c' /\
  term_rel r c a b uv yv /\ ~ term_rel r c' a b uv yv.
Proof. exact negative_index_refuted. Qed.
Print Assumptions C35_negative_index_refuted.

Example C35_example : exists c', port2connector 0 loop_core = ok c' /\
  c_y c' = ["y2"] /\ c_cy c' = ["y1"] /\
  rows_of (c_M c') = [[Num 0; Num 0; Num 0; Num 1]; [Num 0; Num 0; Num 1; Num 0];
                      [Num 0; Num (-1); Num 0; Num 0]; [Num (-1); Num 0; Num 0; Num 0]].
Proof.
  exists (fst (port2connector 0 loop_core)).
  split; [apply is_ok; vm_compute; reflexivity|]. repeat split; vm_compute; reflexivity.
Qed.
