(** Properties of netlists: C29. *)
From Coq Require Import Ascii String List Arith.
From Verif Require Import Py Netlist Spec_Netlist NetlistProofs.
Import ListNotations.
Local Open Scope list_scope.
Local Open Scope nat_scope.

(** [valid] and [ev] are python's parser and [eval]. *)
Theorem C29_text_round_trip : forall valid ev l,
  Forall (entry_ok valid) l -> read valid ev (netlist l) = Ok l.
Proof. exact round_trip. Qed.
Print Assumptions C29_text_round_trip.

Definition amp : list entry :=
  [ mkEntry (T "electronics") (T "source") (T "IN") (VTup [AStr (T "n1"); AStr (T "#")]) [(T "type", VAtom (AStr (T "voltage")))];
    mkEntry (T "electronics") (T "capacitor") (T "Cin") (VTup [AStr (T "n1"); AStr (T "n2")]) [(T "C", VTup [AStr (T "Cin"); ALit (T "1e-05")])];
    mkEntry (T "mechanics") (T "mass") (T "M") (VTup [AStr (T "D")]) [(T "M", VAtom (ALit (T "0.075"))); (T "integ", VAtom (ALit (T "True")))] ].
Example C29_example : Forall (entry_ok (fun _ => true)) amp /\
  netlist amp = T "electronics.source IN ('n1', '#'): type=voltage;
electronics.capacitor Cin ('n1', 'n2'): C=('Cin', 1e-05);
mechanics.mass M ('D',): M=0.075; integ=True;".
Proof.
  split; [|vm_compute; reflexivity].
  assert (A : forall bad t, forallb (fun c => negb (chr_in c bad)) t = true -> avoids bad t).
  { intros bad t H c Hc F. rewrite forallb_forall in H. specialize (H c Hc). apply chr_in_spec in F. rewrite F in H. discriminate. }
  assert (N : forall l : list text, (fix nd (l : list text) := match l with [] => true | a :: l' => andb (negb (existsb (text_eqb a) l')) (nd l') end) l = true -> NoDup l).
  { induction l as [|a l IH]; intros H; [constructor|]. apply andb_prop in H as [H1 H2]. constructor; [|now apply IH].
    intros F. apply Bool.negb_true_iff in H1. assert (existsb (text_eqb a) l = true) as E; [|congruence].
    apply existsb_exists. exists a. split; [exact F|]. now apply text_eqb_spec. }
  unfold amp. repeat (apply Forall_cons || apply Forall_nil); unfold entry_ok; cbn [n_dict n_comp n_label n_nodes n_args nodes_ok];
  (split; [apply A; vm_compute; reflexivity|]); (split; [discriminate|]); (split; [apply A; vm_compute; reflexivity|]);
  (split; [apply A; vm_compute; reflexivity|]); (split; [discriminate|]);
  (split; [repeat constructor; apply A; vm_compute; reflexivity|]); (split; [apply N; vm_compute; reflexivity|]);
  repeat (apply Forall_cons || apply Forall_nil); cbn [fst snd value_ok]; (split; [apply A; vm_compute; reflexivity|]).
  - split; [apply A; vm_compute; reflexivity|]. split; [discriminate|]. split; vm_compute; reflexivity.
  - split; [repeat constructor|]. repeat constructor; apply A; vm_compute; reflexivity.
  - vm_compute; reflexivity.
  - vm_compute; reflexivity.
Qed.

(** When a name is repeated, its last value counts. *)
Theorem C29_repeated_parameter : forall valid ev l, Forall (fields_ok valid) l ->
  exists l', read valid ev (netlist l) = Ok l' /\ Forall2 last_value_counts l l'.
Proof. exact last_counts. Qed.
Print Assumptions C29_repeated_parameter.
Example C29_repeated_example : forall valid ev,
  read valid ev (T "e.r R ('a', 'b'): R=1; C=2; R=3;") =
  Ok [mkEntry (T "e") (T "r") (T "R") (VTup [AStr (T "a"); AStr (T "b")])
        [(T "R", VAtom (ALit (T "3"))); (T "C", VAtom (ALit (T "2")))]].
Proof. intros. vm_compute. reflexivity. Qed.

(** Avoiding the separators is not enough: a quoted path that was read is
    printed without quotes, and the text can not be read (pwl components). *)
Theorem C29_quoted_path_refuted : forall valid ev, valid (T "/x") = false -> exists l,
  read valid ev (T "pwl.storage s ('a', 'b'): file='/x';") = Ok l /\ read valid ev (netlist l) = Err SyntaxError.
Proof. exact path_lost. Qed.
Print Assumptions C29_quoted_path_refuted.

(** The same with a value of one element in parentheses. *)
Theorem C29_single_element_refuted : forall valid ev, ev [] = Err SyntaxError -> exists l,
  read valid ev (T "e.r R ('a', 'b'): R=(1);") = Ok l /\ read valid ev (netlist l) = Err SyntaxError.
Proof. exact singleton_lost. Qed.
Print Assumptions C29_single_element_refuted.

(** A name that looks like a number becomes a number. *)
Theorem C29_numeric_name_refuted : forall valid ev, exists l l',
  read valid ev (T "e.r R ('a', 'b'): name='10';") = Ok l /\ read valid ev (netlist l) = Ok l' /\ l <> l'.
Proof. exact number_lost. Qed.
Print Assumptions C29_numeric_name_refuted.

(** An indented comment is read as a component, which printing turns into a
    comment. *)
Theorem C29_indented_comment_refuted : forall valid ev, exists l,
  read valid ev (T " #e.r R ('a', 'b'): R=1;") = Ok l /\ l <> [] /\ read valid ev (netlist l) = Ok [].
Proof. exact comment_lost. Qed.
Print Assumptions C29_indented_comment_refuted.

(** Without final semicolon the end of the line belongs to the value. *)
Theorem C29_missing_semicolon : forall valid ev, valid (T "Rx" ++ [nl]) = true ->
  read valid ev (T "e.r R ('a', 'b'): R=Rx" ++ [nl]) =
  Ok [mkEntry (T "e") (T "r") (T "R") (VTup [AStr (T "a"); AStr (T "b")]) [(T "R", VAtom (AStr (T "Rx" ++ [nl])))]].
Proof. exact line_end_kept. Qed.
Print Assumptions C29_missing_semicolon.

(** The sum of two netlists has the lines of both. *)
Theorem C29_sum : forall net1 net2, net_add net1 net2 = net1 ++ net2.
Proof. exact (fun net1 net2 => net_add_spec net2 net1). Qed.
Print Assumptions C29_sum.

(** The sum of a netlist with itself never ends. *)
Theorem C29_self_sum_refuted : forall fuel net, net <> [] -> net_add_self fuel 0 net = Err OutOfFuel.
Proof. exact self_sum_loops. Qed.
Print Assumptions C29_self_sum_refuted.
