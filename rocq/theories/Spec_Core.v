(** Specification vocabulary for the Core structure: what a user sees of a
    core, independently of the functions that compute it. *)
From Coq Require Import String List ZArith QArith Qreals Reals Bool Lia Permutation.
From Verif Require Import Py Expr Mat Core RSum.
Import ListNotations.
Local Open Scope nat_scope.

(** A component of the system with its pair of variables. *)
Inductive comp :=
| Stor (x : string) (grad : option expr)
| Diss (w : string) (z : expr)
| Port (u y : string)
| Conn (cu cy : string).

Definition stors (c : core) : list comp :=
  match c_dxH c with
  | None => map (fun s => Stor s None) (c_x c)
  | Some d => map (fun p => Stor (fst p) (Some (snd p))) (combine (c_x c) d)
  end.
Definition disss (c : core) : list comp :=
  map (fun p => Diss (fst p) (snd p)) (combine (c_w c) (c_z c)).
Definition ports (c : core) : list comp :=
  map (fun p => Port (fst p) (snd p)) (combine (c_u c) (c_y c)).
Definition conns (c : core) : list comp :=
  map (fun p => Conn (fst p) (snd p)) (combine (c_cu c) (c_cy c)).

(** The components in the order of the rows of the structure matrix. *)
Definition comps (c : core) : list comp := stors c ++ disss c ++ ports c ++ conns c.

(** Number of rows the structure matrix should have. *)
Definition ntot (c : core) : nat :=
  length (c_x c) + length (c_w c) + length (c_y c) + length (c_cy c).

(** Variables come in pairs. *)
Definition paired (c : core) : Prop :=
  length (c_w c) = length (c_z c) /\
  length (c_u c) = length (c_y c) /\
  length (c_cu c) = length (c_cy c).

(** A core whose structure matrix has been set for its current components. *)
Definition wf (c : core) : Prop :=
  paired c /\
  (forall d, c_dxH c = Some d -> length d = length (c_x c)) /\
  nr (c_M c) = ntot c /\ nc (c_M c) = ntot c.

(** The number of linear components is consistent with the lists. *)
Definition counters_ok (c : core) : Prop :=
  (0 <= c_xl c <= Z.of_nat (length (c_x c)))%Z /\
  (0 <= c_wl c <= Z.of_nat (length (c_w c)))%Z.

(** [c'] is [c] with its components listed in the order [sg], every structure
    coefficient following the two components it relates. *)
Definition follows (sg : list nat) (c c' : core) : Prop :=
  Permutation sg (seq 0 (ntot c)) /\
  length (comps c') = length (comps c) /\
  (forall k s, nth_error sg k = Some s ->
     nth_error (comps c') k = nth_error (comps c) s) /\
  nr (c_M c') = ntot c /\ nc (c_M c') = ntot c /\
  (forall r i j, i < ntot c -> j < ntot c ->
     eval r (ent (c_M c') i j) = eval r (ent (c_M c) (nth i sg 0) (nth j sg 0))).

(** Everything but the order of the components is untouched. *)
Definition same_context (c c' : core) : Prop :=
  c_label c' = c_label c /\ c_H c' = c_H c /\ c_p c' = c_p c /\
  c_connectors c' = c_connectors c /\ c_subs c' = c_subs c /\
  c_observers c' = c_observers c /\ c_force_wnl c' = c_force_wnl c.

Local Open Scope R_scope.

(** Value of the structure matrix. *)
Definition Mv (r : env) (c : core) : rmat := fun i j => eval r (ent (c_M c) i j).

(** The flows [b] and efforts [a] satisfy [b = M a] (n rows and columns). *)
Definition b_eq_M_a (n : nat) (M : rmat) (a b : rvec) : Prop :=
  forall i, (i < n)%nat -> b i = rsum n (fun j => M i j * a j).

(** No power is created by the structure: aT M a <= 0 for every effort. *)
Definition passive (n : nat) (M : rmat) : Prop :=
  forall a : rvec, rsum n (fun i => a i * rsum n (fun j => M i j * a j)) <= 0.
Definition conservative (n : nat) (M : rmat) : Prop :=
  forall a : rvec, rsum n (fun i => a i * rsum n (fun j => M i j * a j)) = 0.

(** Skew-symmetric and symmetric parts of the structure, entry by entry. *)
Definition Jv (r : env) (c : core) : rmat := fun i j => (Mv r c i j - Mv r c j i) / 2.
Definition Rv (r : env) (c : core) : rmat := fun i j => - (Mv r c i j + Mv r c j i) / 2.

Local Open Scope nat_scope.

(** Position of the first row of each block, and its number of rows. *)
Definition off (c : core) (b : blk) : nat :=
  match b with
  | Bx | Bxl => 0
  | Bxnl => Z.to_nat (c_xl c)
  | Bw | Bwl => length (c_x c)
  | Bwnl => length (c_x c) + Z.to_nat (c_wl c)
  | By => length (c_x c) + length (c_w c)
  | Bcy => length (c_x c) + length (c_w c) + length (c_y c)
  end.
Definition len (c : core) (b : blk) : nat :=
  match b with
  | Bx => length (c_x c)
  | Bxl => Z.to_nat (c_xl c)
  | Bxnl => length (c_x c) - Z.to_nat (c_xl c)
  | Bw => length (c_w c)
  | Bwl => Z.to_nat (c_wl c)
  | Bwnl => length (c_w c) - Z.to_nat (c_wl c)
  | By => length (c_y c)
  | Bcy => length (c_cy c)
  end.
Definition inside (c : core) (b : blk) (i : nat) : Prop := off c b <= i < off c b + len c b.

(** Symbols of a block, as a user lists them. *)
Definition symbols_of (c : core) (b : blk) : list string :=
  match b with
  | Bx => c_x c
  | Bxl => firstn (Z.to_nat (c_xl c)) (c_x c)
  | Bxnl => skipn (Z.to_nat (c_xl c)) (c_x c)
  | Bw => c_w c
  | Bwl => firstn (Z.to_nat (c_wl c)) (c_w c)
  | Bwnl => skipn (Z.to_nat (c_wl c)) (c_w c)
  | By => c_y c
  | Bcy => c_cy c
  end.

(** The structure matrix has one row and one column per component. *)
Definition sized (c : core) : Prop := nr (c_M c) = ntot c /\ nc (c_M c) = ntot c.

(** Two block names that address separate rows. *)
Definition separate (c : core) (a b : blk) : Prop := forall i, inside c a i -> ~ inside c b i.
