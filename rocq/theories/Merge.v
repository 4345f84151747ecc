(** Model of graphs/subgraph.py: merging of the components of a series or
    parallel group.
    Simplified: a group is the list of its edges with their orientation with
    respect to the terminals; the node bookkeeping of networkx
    ([remove_edges_from_list], [new_edge], [chain]) and the copies kept in
    core.x, core.w and core.z are not modelled; [simplify] is the identity;
    [sympy.solve] and [sympy.integrate] are given for the equations of linear
    components only, that is expressions affine in the unknown. *)
From Coq Require Import String List ZArith QArith Bool DecimalString.
From Verif Require Import Py Expr Mat Core Calculus.
Import ListNotations.
Local Open Scope string_scope.
Local Open Scope list_scope.
Local Open Scope nat_scope.

(** Control of an edge: 'e', 'f' or '?' (indeterminate). *)
Inductive sctrl := SE | SF | SI.
Definition sctrl_eqb (a b : sctrl) : bool :=
  match a, b with SE, SE | SF, SF | SI, SI => true | _, _ => false end.

(** An edge of a group: the data dictionary of networkx ('type' in
    {storage, dissipative}, 'ctrl', 'label', and 'z' with its entries 'e_ctrl'
    and 'f_ctrl') and its orientation, +1 or -1 (L535-565, L603-620). *)
Record sedge := mkSE {
  s_stor : bool; s_ctrl : sctrl; s_label : string;
  s_ze : option expr; s_zf : option expr; s_pos : bool
}.

(** A SubGraph: its realizability ('e' for SubGraphParallel L515-518, 'f' for
    SubGraphSerial L569-573), its edges and the Hamiltonian of its core. *)
Record subgraph := mkSG { g_real : sctrl; g_group : list sedge; g_H : expr }.

(** L454-459 [anti_realizability]. *)
Definition anti (q : sctrl) : sctrl := match q with SE => SF | SF => SE | SI => SI end.

(** [sympy.solve(e, x)[0]] for [e] affine in [x]: IndexError when the unknown
    does not appear. *)
Definition solve0 (e : expr) (x : string) : result expr :=
  let at0 := subst [(x, Num 0)] in
  if is0 (diff x e) then Err IndexError
  else Ok (smul (sneg (at0 e)) (Inv (at0 (diff x e)))).

(** [sympy.integrate(e, x)] for [e] affine in [x]. *)
Definition integ (e : expr) (x : string) : expr :=
  let at0 := subst [(x, Num 0)] in
  sadd (smul (at0 e) (Sym x)) (smul (at0 (diff x e)) (smul (Num (1#2)) (spow (Sym x) 2))).

(** [Core.symbols('y:{0}'.format(n))] (L29, L64). *)
Definition ynames (n : nat) : list string :=
  map (fun i => "y" ++ NilEmpty.string_of_uint (Nat.to_uint i))%string (seq 0 n).

(** [str(s)[1:]]. *)
Definition tail (s : string) : string :=
  match s with EmptyString => EmptyString | String _ s' => s' end.
(** The label of the merged component (L30, L53, L65, L78). *)
Definition merged_name (c : string) (l : list string) : string :=
  (c ++ String.concat "" (map tail l))%string.

(** [[sympy.solve(z_n - y_n, w_n)[0] for ...]] (L33-34, L68-69). *)
Definition inverses (z : list expr) (w y : list string) : result (list expr) :=
  rmap (fun p : expr * (string * string) =>
          solve0 (ssub (fst p) (Sym (snd (snd p)))) (fst (snd p)))
       (combine z (combine w y)).

(** [sum([e.subs(yi, s) for e, yi in zip(l, y)])] (L35, L70). *)
Definition sum_at (l : list expr) (y : list string) (s : expr) : expr :=
  esum (map (fun p => subst [(snd p, s)] (fst p)) (combine l y)).

(** L61-73 [nonrealizable_merge_dissipatives]. *)
Definition nonrealizable_merge_dissipatives (w : list string) (z : list expr)
  : result (string * expr) :=
  let y := ynames (length w) in
  let newW := merged_name "w" w in
  do iz <- inverses z w y;
  do newZ <- solve0 (ssub (sum_at iz y (Sym "Y")) (Sym newW)) "Y";
  Ok (newW, newZ).

(** L76-79 [realizable_merge_dissipatives]. *)
Definition realizable_merge_dissipatives (w : list string) (z : list expr) : string * expr :=
  let W := merged_name "w" w in
  (W, esum (map (subs (map (fun wn => (wn, Sym W)) w)) z)).

(** L25-47 [nonrealizable_merge_storages]. *)
Definition nonrealizable_merge_storages (x : list string) (dxH : list expr)
  : result (string * expr) :=
  let y := ynames (length x) in
  let X := merged_name "x" x in
  do idxH <- inverses dxH x y;
  do iQ <- solve0 (ssub (sum_at idxH y (Sym "Y")) (Sym X)) "Y";
  let HH := map (fun p => integ (fst p) (snd p)) (combine dxH x) in
  let fs := map (fun p => subst [(snd p, iQ)] (fst p)) (combine idxH y) in
  Ok (X, esum (map (fun p : expr * (string * expr) => subst [(fst (snd p), snd (snd p))] (fst p))
                   (combine HH (combine x fs)))).

(** L50-58 [realizable_merge_storages]. *)
Definition realizable_merge_storages (x : list string) (dxH : list expr) : string * expr :=
  let X := merged_name "x" x in
  let HH := map (fun p => integ (fst p) (snd p)) (combine dxH x) in
  (X, esum (map (fun p => subst [(snd p, Sym X)] (fst p)) (combine HH x))).

(** L121-160 [fc_storages] ... [ic_dissipatives]: the edges of a class. *)
Definition in_class (stor : bool) (c : sctrl) (e : sedge) : bool :=
  Bool.eqb (s_stor e) stor && sctrl_eqb (s_ctrl e) c.
Definition class (stor : bool) (c : sctrl) (g : subgraph) : list sedge :=
  filter (in_class stor c) (g_group g).

(** Give the positive direction to a law (L238-240, L277-279, L314-316,
    L352-354, L390-392, L400-402): [-law.subs(wn, -wn)]. *)
Definition orient (e : sedge) (law : expr) : expr :=
  if s_pos e then law
  else sneg (subst [(s_label e, sneg (Sym (s_label e)))] law).

(** [dic[c + '_ctrl']] (L276, L351, L389, L398). *)
Definition form (c : sctrl) (e : sedge) : result expr :=
  match (match c with SE => s_ze e | SF => s_zf e | SI => None end) with
  | Some z => Ok z
  | None => Err KeyError
  end.
Definition oriented_forms (c : sctrl) (l : list sedge) : result (list expr) :=
  rmap (fun e => do z <- form c e; Ok (orient e z)) l.

(** The edges that are kept, and the new one, oriented positively. *)
Definition replace_class (stor : bool) (c : sctrl) (new : sedge) (H : expr) (g : subgraph) : subgraph :=
  mkSG (g_real g) (filter (fun e => negb (in_class stor c e)) (g_group g) ++ [new]) H.

(** The data {'c_ctrl': Z} of a new dissipative edge. *)
Definition new_diss (c : sctrl) (W : string) (Z : expr) : sedge :=
  mkSE false c W (match c with SE => Some Z | _ => None end)
                 (match c with SF => Some Z | _ => None end) true.

(** L180-181, L189-190: the gradient along the states of the class;
    L476-484 [H_rc], [H_arc]. *)
Definition class_dxH (l : list sedge) (H : expr) : list expr := gradient H (map s_label l).
Definition class_energy (l : list sedge) (H : expr) : expr :=
  esum (map (fun p => integ (fst p) (snd p)) (combine (class_dxH l H) (map s_label l))).
Definition oriented_dxH (l : list sedge) (H : expr) : list expr :=
  map (fun p => orient (fst p) (snd p)) (combine l (class_dxH l H)).

(** The five methods return [None] when nothing changes. *)
(** L227-264 [merge_arc_storages]. *)
Definition merge_arc_storages (g : subgraph) : result (option subgraph) :=
  let c := anti (g_real g) in
  let l := class true c g in
  if Nat.leb (length l) 1 then Ok None
  else do XH <- nonrealizable_merge_storages (map s_label l) (oriented_dxH l (g_H g));
       let '(X, H) := XH in
       Ok (Some (replace_class true c (mkSE true c X None None true)
                   (sadd (ssub (g_H g) (class_energy l (g_H g))) H) g)).

(** L266-301 [merge_arc_dissipatives]. *)
Definition merge_arc_dissipatives (g : subgraph) : result (option subgraph) :=
  let c := anti (g_real g) in
  let l := class false c g in
  if Nat.leb (length l) 1 then Ok None
  else do z <- oriented_forms c l;
       do WZ <- nonrealizable_merge_dissipatives (map s_label l) z;
       let '(W, Z) := WZ in
       Ok (Some (replace_class false c (new_diss c W Z) (g_H g) g)).

(** L303-340 [merge_rc_storages]. *)
Definition merge_rc_storages (g : subgraph) : result (option subgraph) :=
  let c := g_real g in
  let l := class true c g in
  if Nat.leb (length l) 1 then Ok None
  else let '(X, H) := realizable_merge_storages (map s_label l) (oriented_dxH l (g_H g)) in
       Ok (Some (replace_class true c (mkSE true c X None None true)
                   (sadd (ssub (g_H g) (class_energy l (g_H g))) H) g)).

(** L342-377 [merge_rc_dissipatives]. *)
Definition merge_rc_dissipatives (g : subgraph) : result (option subgraph) :=
  let c := g_real g in
  let l := class false c g in
  if Nat.leb (length l) 1 then Ok None
  else do z <- oriented_forms c l;
       let '(W, Z) := realizable_merge_dissipatives (map s_label l) z in
       Ok (Some (replace_class false c (new_diss c W Z) (g_H g) g)).

(** L379-429 [merge_ic_dissipatives]. *)
Definition merge_ic_dissipatives (g : subgraph) : result (option subgraph) :=
  let c := g_real g in
  let l := class false SI g in
  if Nat.leb (length l) 1 then Ok None
  else do z <- oriented_forms c l;
       let '(W, Zrc) := realizable_merge_dissipatives (map s_label l) z in
       do z' <- oriented_forms (anti c) l;
       do WZ <- nonrealizable_merge_dissipatives (map s_label l) z';
       let '(W, Zarc) := WZ in
       let new := match c with
                  | SE => mkSE false SI W (Some Zrc) (Some Zarc) true
                  | _ => mkSE false SI W (Some Zarc) (Some Zrc) true
                  end in
       Ok (Some (replace_class false SI new (g_H g) g)).

(** L436-440: [change or ...] stops at the first method that changes the group. *)
Fixpoint first_change (l : list (subgraph -> result (option subgraph))) (g : subgraph)
  : result (option subgraph) :=
  match l with
  | [] => Ok None
  | m :: l' => do r <- m g;
               match r with Some g' => Ok (Some g') | None => first_change l' g end
  end.
Definition merge_once : subgraph -> result (option subgraph) :=
  first_change [merge_ic_dissipatives; merge_rc_storages; merge_arc_storages;
                merge_rc_dissipatives; merge_arc_dissipatives].

(** L431-442 [merge_all]; [fuel] bounds the number of rounds. *)
Fixpoint merge_all (fuel : nat) (g : subgraph) : result subgraph :=
  match fuel with
  | O => Err OutOfFuel
  | S fuel => do r <- merge_once g;
              match r with None => Ok g | Some g' => merge_all fuel g' end
  end.
