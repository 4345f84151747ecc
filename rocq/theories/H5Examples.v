(** Concrete datasets. *)
From Coq Require Import String List ZArith QArith Bool Lia Arith.
From Verif Require Import Py H5 Spec_H5 H5Chunk H5Store H5Seqs.
Import ListNotations.
Local Open Scope string_scope.
Local Open Scope list_scope.
Local Open Scope nat_scope.

(** u and y have dimension 1, x has dimension 2, the others 0. *)
Definition ex_dim (n : string) : nat :=
  if String.eqb n "x" then 2
  else if String.eqb n "u" then 1
  else if String.eqb n "y" then 1 else 0.

Definition ex_ops : list (Z * list (string * list nat)) :=
  [ (0%Z, [("x", [1; 2]); ("y", [3])]);
    (2%Z, [("x", [4; 5]); ("u", [6])]);
    (0%Z, [("y", [7])]);
    (1%Z, [("x", [8])]);
    (0%Z, [("x", [1; 2; 3])]);
    (5%Z, [("y", [9])]) ].

(** Duplicated name. *)
Lemma duplicate_refuted : exists mdim dnames nt t (data : list (string * list nat))
  h' data',
  NoDup (map fst data) /\
  h5dump_vecs 0 (new_h5 0 mdim dnames nt) t data = Ok (h', data') /\
  sget "u" data = Some [5] /\ mdim "u" = 1 /\
  read_data h' "u" (TInt t) VNone = Ok [[]].
Proof.
  exists ex_dim, ["y"; "u"], 1, 0%Z, [("u", [5]); ("y", [7])].
  eexists; eexists.
  split; [repeat constructor; cbn; intuition discriminate|].
  split; [vm_compute; reflexivity|].
  split; [reflexivity|]; split; [reflexivity|].
  vm_compute; reflexivity.
Qed.

Lemma last_time_refuted : exists (data : list (string * list nat)) h' data',
  h5dump_vecs 0 (new_h5 0 ex_dim ["x"; "y"] 3) (-1) data = Ok (h', data') /\
  sget "y" data = Some [7] /\
  read_data h' "y" (TInt (-1)) VNone = Ok [] /\
  read_data h' "y" (TInt 2) VNone = Ok [[7]].
Proof.
  exists [("u", [5]); ("p", []); ("x", [1; 2]); ("y", [7])].
  eexists; eexists.
  split; [vm_compute; reflexivity|].
  split; [reflexivity|]; split; vm_compute; reflexivity.
Qed.

Lemma neighbour_refuted : exists (ops : list (Z * list (string * list nat))),
  let h := run_writes 0 ops (new_h5 0 ex_dim ["x"; "y"] 1) in
  read_data h "x" (TInt 0) VNone = Ok [[1; 2]] /\
  read_data h "x" (TInt 0) (VInt (-1)) = Ok [[5]] /\
  read_data h "u" (TInt 0) VNone = Ok [[5]] /\
  read_data h "x" (TInt 0) (VInt 2) = Ok [[7]] /\
  read_data h "y" (TInt 0) VNone = Ok [[7]].
Proof.
  exists [(0%Z, [("u", [5]); ("x", [1; 2]); ("y", [7])])].
  vm_compute; repeat split; reflexivity.
Qed.

Lemma reused_dict_refuted :
  exists (h0 h1 h2 : h5 nat) d d1 d2 ops,
  h0 = run_writes 0 ops (new_h5 0 ex_dim ["x"; "y"] 2) /\
  sget "x" d = None /\
  h5dump_vecs 0 h0 0 d = Ok (h1, d1) /\
  h5dump_vecs 0 h1 1 d1 = Ok (h2, d2) /\
  read_data h1 "x" (TInt 1) VNone = Ok [[3; 4]] /\
  read_data h2 "x" (TInt 1) VNone = Ok [[1; 2]].
Proof.
  exists (run_writes 0 [(0%Z, [("x", [1; 2])]); (1%Z, [("x", [3; 4])])]
                     (new_h5 0 ex_dim ["x"; "y"] 2)).
  eexists; eexists; exists [("y", [7])]; eexists; eexists; eexists.
  split; [reflexivity|]; split; [reflexivity|].
  split; [vm_compute; reflexivity|].
  split; [vm_compute; reflexivity|].
  split; vm_compute; reflexivity.
Qed.
