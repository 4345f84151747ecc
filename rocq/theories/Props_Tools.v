(** Properties of the list helpers: C01, C30. *)
From Coq Require Import String List ZArith Bool Lia Permutation Sorted.
From Verif Require Import Py Tools Spec_Tools ToolsProofs.
Import ListNotations.

(** C01. *)
Theorem C01_myrange_moves_one_index : forall N i f : nat,
  i < N ->
  exists l, myrange N (Z.of_nat i) (Z.of_nat f) = Ok l /\
            moved_range N i (Nat.min f (N - 1)) l.
Proof. exact myrange_spec. Qed.
Print Assumptions C01_myrange_moves_one_index.

Example C01_example :
  myrange 5 1 3 = Ok [0; 2; 3; 1; 4] /\ myrange 5 3 1 = Ok [0; 3; 1; 2; 4] /\
  myrange 5 1 9 = Ok [0; 2; 3; 4; 1].
Proof. repeat split. Qed.

(** C30, decimate. *)
Theorem C30_decimate_takes_every_nd_th : forall (A : Type) (it : list A) (d : nat),
  0 < d ->
  exists l, decimate it (Z.of_nat d) = Ok l /\
            forall k, nth_error l k = nth_error it (k * d).
Proof. exact @decimate_spec. Qed.
Print Assumptions C30_decimate_takes_every_nd_th.

Example C30_decimate_example : decimate [1;2;3;4;5;6;7]%Z 3 = Ok [1;4;7]%Z.
Proof. reflexivity. Qed.

(** C30, decimate rejects non-positive factors. *)
Theorem C30_decimate_rejects : forall (A : Type) (it : list A) (d : Z),
  (d <= 0)%Z -> decimate it d = Err AssertionError.
Proof. exact @decimate_rejects. Qed.
Print Assumptions C30_decimate_rejects.

(** C30, remove_duplicates: exactly the first occurrences, in order. *)
Theorem C30_remove_duplicates_first_occurrences :
  forall (A : Type) (eqb : A -> A -> bool),
  (forall a b, reflect (a = b) (eqb a b)) ->
  forall lis : list A,
  exists inds,
    selects (fun k a => forall j b, j < k -> nth_error lis j = Some b -> b <> a)
      lis (remove_duplicates eqb lis) inds.
Proof. exact @remove_duplicates_spec. Qed.
Print Assumptions C30_remove_duplicates_first_occurrences.

Example C30_remove_duplicates_example :
  remove_duplicates Nat.eqb [3;1;3;2;1] = [3;1;2].
Proof. reflexivity. Qed.

(** C30, find: the elements of [alls] that are in [symbs], with positions. *)
Theorem C30_find_positions :
  forall (A : Type) (eqb : A -> A -> bool),
  (forall a b, reflect (a = b) (eqb a b)) ->
  forall symbs alls : list A,
  selects (fun _ a => In a symbs) alls
    (fst (find eqb symbs alls)) (snd (find eqb symbs alls)).
Proof. exact @find_spec. Qed.
Print Assumptions C30_find_positions.

Example C30_find_example : find Nat.eqb [7;5] [5;6;7;5] = ([5;7;5], [0;2;3]).
Proof. reflexivity. Qed.

(** C30, interleave: alternates, stopping with the shorter list. *)
Theorem C30_interleave_alternates : forall (A : Type) (l1 l2 : list A) k,
  nth_error (interleave l1 l2) (2 * k) =
    (if k <? Nat.min (length l1) (length l2) then nth_error l1 k else None) /\
  nth_error (interleave l1 l2) (2 * k + 1) =
    (if k <? Nat.min (length l1) (length l2) then nth_error l2 k else None).
Proof. exact @interleave_spec. Qed.
Print Assumptions C30_interleave_alternates.

Example C30_interleave_example : interleave [1;2] [3;4] = [1;3;2;4].
Proof. reflexivity. Qed.

(** C30, get_strings: the leaves, left to right, without the removed ones. *)
Theorem C30_get_strings_flattens : forall remove o,
  get_strings remove o =
  filter (fun s => negb (py_in String.eqb s remove)) (leaves o).
Proof. exact get_strings_spec. Qed.
Print Assumptions C30_get_strings_flattens.

Example C30_get_strings_example :
  get_strings ["b"%string] (Node [Leaf "a"; Node [Leaf "b"; Leaf "c"]]) = ["a"; "c"]%string.
Proof. reflexivity. Qed.
