(** Model of graphs/analysis.py and graphs/build.py: the realizability analysis
    of a graph and the core built from it.
    Simplified: nodes and labels are strings; verbosity and plots are not
    modelled; every edge has a 'link' (absent for the edges that stand for
    subgraphs); the matrices of numpy hold integers; the comparison
    [is] between short strings is equality. *)
From Coq Require Import String List ZArith QArith Bool.
From Verif Require Import Py Tools Expr Mat Core.
Import ListNotations.
Local Open Scope string_scope.
Local Open Scope list_scope.
Local Open Scope nat_scope.

(** config.py L113. *)
Definition datum : string := "#".

(** An edge of networkx with its data: dictionary/edges/*.py.  [e_ze] and
    [e_zf] are the two laws of a dissipative edge ('z'), [e_ctype] is
    'connector_type'. *)
Record edge := mkEdge {
  e_src : string; e_dst : string;
  e_label : string; e_type : string; e_ctrl : string;
  e_link : option string; e_ctype : string; e_alpha : option expr;
  e_ze : expr; e_zf : expr
}.
Definition set_alpha (a : option expr) (e : edge) : edge :=
  mkEdge (e_src e) (e_dst e) (e_label e) (e_type e) (e_ctrl e) (e_link e) (e_ctype e) a (e_ze e) (e_zf e).

(** graph.py L23: nodes and edges in the order of networkx, and the core. *)
Record graph := mkGraph { g_nodes : list string; g_edges : list edge; g_core : core }.

(** networkx.linalg.incidence_matrix(oriented=True), negated (analysis.py L26-28):
    1 where the edge starts, -1 where it ends, a zero column for a loop. *)
Definition incidence (nodes : list string) (edges : list edge) (i j : nat) : Z :=
  match nth_error nodes i, nth_error edges j with
  | Some n, Some e =>
      if String.eqb (e_src e) (e_dst e) then 0%Z
      else if String.eqb (e_src e) n then 1%Z
      else if String.eqb (e_dst e) n then (-1)%Z
      else 0%Z
  | _, _ => 0%Z
  end.

(** The attributes of GraphAnalysis. *)
Record ana := mkAna {
  a_nodes : list string;
  a_edges : list edge;
  a_G : nat -> nat -> Z;
  a_L : nat -> nat -> Z;
  a_icn : list nat;
  a_ec : list nat; a_ic : list nat; a_fc : list nat
}.
Definition with_L (L : nat -> nat -> Z) (s : ana) : ana :=
  mkAna (a_nodes s) (a_edges s) (a_G s) L (a_icn s) (a_ec s) (a_ic s) (a_fc s).
Definition with_icn (l : list nat) (s : ana) : ana :=
  mkAna (a_nodes s) (a_edges s) (a_G s) (a_L s) l (a_ec s) (a_ic s) (a_fc s).
Definition with_edges (l : list edge) (s : ana) : ana :=
  mkAna (a_nodes s) l (a_G s) (a_L s) (a_icn s) (a_ec s) (a_ic s) (a_fc s).
Definition with_classes (ec ic fc : list nat) (s : ana) : ana :=
  mkAna (a_nodes s) (a_edges s) (a_G s) (a_L s) (a_icn s) ec ic fc.
Definition nn (s : ana) : nat := length (a_nodes s).
Definition ne (s : ana) : nat := length (a_edges s).

(** State and possible exception after a mutating call. *)
Definition run := (ana * option exn)%type.
Definition ret (s : ana) : run := (s, None).
Definition fail (e : exn) (s : ana) : run := (s, Some e).
Definition abind (r : run) (f : ana -> run) : run :=
  match r with (s, None) => f s | (s, Some e) => (s, Some e) end.
Definition alift {A} (r : result A) (s : ana) (f : A -> run) : run :=
  match r with Ok a => f a | Err e => (s, Some e) end.

(** numpy: [A[:, j] = v], [A[i, :] = v], [A[i, j] = v], [A[:, idx]],
    [A[idx, :]], [A[:, j].sum()], [A[i, :].sum()]. *)
Definition set_col (j : nat) (v : Z) (A : nat -> nat -> Z) : nat -> nat -> Z :=
  fun i k => if Nat.eqb k j then v else A i k.
Definition set_row (i : nat) (v : Z) (A : nat -> nat -> Z) : nat -> nat -> Z :=
  fun k j => if Nat.eqb k i then v else A k j.
Definition set_at (i j : nat) (v : Z) (A : nat -> nat -> Z) : nat -> nat -> Z :=
  fun k l => if Nat.eqb k i && Nat.eqb l j then v else A k l.
Definition take_cols (idx : list nat) (A : nat -> nat -> Z) : nat -> nat -> Z := fun i j => A i (nth j idx 0).
Definition take_rows (idx : list nat) (A : nat -> nat -> Z) : nat -> nat -> Z := fun i j => A (nth i idx 0) j.
Definition zsum (n : nat) (f : nat -> Z) : Z := fold_right Z.add 0%Z (map f (seq 0 n)).
Definition colsum (s : ana) (j : nat) : Z := zsum (nn s) (fun i => a_L s i j).
Definition rowsum (s : ana) (i : nat) : Z := zsum (ne s) (fun j => a_L s i j).

(** [list(...).index(1)] on a column and on a row. *)
Definition col_index (s : ana) (j : nat) : result nat :=
  py_index Z.eqb 1%Z (map (fun i => a_L s i j) (seq 0 (nn s))).
Definition row_index (s : ana) (i : nat) : result nat :=
  py_index Z.eqb 1%Z (map (fun j => a_L s i j) (seq 0 (ne s))).

(** analysis.py L311-312: the loop that renames the nodes to analyse. *)
Fixpoint rename (l : list (nat * nat)) (icn : list nat) : result (list nat) :=
  match l with
  | [] => Ok icn
  | (o, n) :: l' =>
      do k <- py_index Nat.eqb o icn;
      rename l' (firstn k icn ++ n :: skipn (S k) icn)
  end.

(** analysis.py L299-312 [move_node]. *)
Definition move_node (indi indf : nat) (s : ana) : run :=
  alift (myrange (nn s) (Z.of_nat indi) (Z.of_nat indf)) s (fun idx =>
  alift (pick (a_nodes s) idx) s (fun nodes =>
  let s := mkAna nodes (a_edges s) (take_rows idx (a_G s)) (take_rows idx (a_L s)) (a_icn s)
                 (a_ec s) (a_ic s) (a_fc s) in
  alift (rename (combine (seq 0 (nn s)) idx) (a_icn s)) s (fun icn => ret (with_icn icn s)))).

(** analysis.py L314-326 [move_edge]. *)
Definition move_edge (indi indf : nat) (s : ana) : run :=
  alift (myrange (ne s) (Z.of_nat indi) (Z.of_nat indf)) s (fun idx =>
  let s' := mkAna (a_nodes s) (a_edges s) (take_cols idx (a_G s)) (take_cols idx (a_L s)) (a_icn s)
                  (a_ec s) (a_ic s) (a_fc s) in
  alift (pick (a_edges s') idx) s' (fun edges => ret (with_edges edges s'))).

(** analysis.py L487-493 [inverse_alpha], never called with [minus]. *)
Fixpoint update_nth {A} (k : nat) (f : A -> A) (l : list A) : list A :=
  match l, k with
  | [], _ => []
  | a :: l', O => f a :: l'
  | a :: l', S k' => a :: update_nth k' f l'
  end.
Definition inverse_alpha (e : nat) (s : ana) : ana :=
  with_edges (update_nth e (fun d => match e_alpha d with
                                     | Some a => set_alpha (Some (Inv a)) d
                                     | None => d
                                     end) (a_edges s)) s.

Definition label_is (l : string) (o : option string) : bool :=
  match o with Some s => String.eqb s l | None => false end.

(** analysis.py L339-349, L371-377: the new lists of indices. *)
Definition ec_lists (s : ana) : ana :=
  let nec := Z.of_nat (length (a_ec s)) in
  let nfc := Z.of_nat (length (a_fc s)) in
  let indices := seq 0 (ne s) in
  if (0 <? nfc)%Z
  then with_classes (py_slice indices None (Some (nec + 1)%Z))
                    (py_slice indices (Some (nec + 1)%Z) (Some (- nfc)%Z))
                    (py_slice indices (Some (- nfc)%Z) None) s
  else with_classes (py_slice indices None (Some (nec + 1)%Z))
                    (py_slice indices (Some (nec + 1)%Z) None) [] s.
Definition fc_lists (s : ana) : ana :=
  let nec := Z.of_nat (length (a_ec s)) in
  let nfc := Z.of_nat (length (a_fc s)) in
  let indices := seq 0 (ne s) in
  with_classes (py_slice indices None (Some nec))
               (py_slice indices (Some nec) (Some (- (nfc + 1))%Z))
               (py_slice indices (Some (- (nfc + 1))%Z) None) s.

Inductive ctrl := CE | CF.

(** analysis.py L328-357 [set_edge_ec], L359-383 [set_edge_fc] and L422-485
    [link_connector], which call one another; [fuel] bounds the recursion. *)
Fixpoint set_edge (fuel : nat) (c : ctrl) (e : nat) (s : ana) : run :=
  match fuel with
  | O => fail OutOfFuel s
  | S fuel =>
      alift (py_get (a_edges s) (Z.of_nat e)) s (fun d =>
      abind (move_edge e (match c with CE => 0 | CF => ne s - 1 end) s) (fun s =>
      let s := match c with
               | CE => let s := ec_lists s in with_L (set_col 0 0%Z (a_L s)) s
               | CF => fc_lists s
               end in
      alift (py_index String.eqb (e_label d) (map e_label (a_edges s))) s (fun new_e =>
      alift (py_get (a_edges s) (Z.of_nat new_e)) s (fun d' =>
      if String.eqb (e_type d') "connector" then
        (* link_connector(new_e, c) *)
        alift (py_index (fun o l => match l with Some l => label_is l o | None => false end)
                        (Some (e_label d')) (map e_link (a_edges s))) s (fun link =>
        if String.eqb (e_ctype d') "gyrator" then
          match c with
          | CE => let s := inverse_alpha new_e s in
                  if py_in Nat.eqb link (a_fc s) then fail AssertionError s
                  else if py_in Nat.eqb link (a_ic s) then set_edge fuel CE link s else ret s
          | CF => if py_in Nat.eqb link (a_ec s) then fail AssertionError s
                  else if py_in Nat.eqb link (a_ic s) then set_edge fuel CF link s else ret s
          end
        else if String.eqb (e_ctype d') "transformer" then
          match c with
          | CE => if py_in Nat.eqb link (a_ec s) then fail AssertionError s
                  else if py_in Nat.eqb link (a_ic s) then set_edge fuel CF link s else ret s
          | CF => if py_in Nat.eqb link (a_fc s) then fail AssertionError s
                  else if py_in Nat.eqb link (a_ic s) then set_edge fuel CE link s else ret s
          end
        else ret s)
      else ret s))))
  end.
Definition set_edge_ec (e : nat) (s : ana) : run := set_edge (S (length (a_ic s))) CE e s.
Definition set_edge_fc (e : nat) (s : ana) : run := set_edge (S (length (a_ic s))) CF e s.

(** analysis.py L385-406 [set_node_dc]. *)
Definition set_node_dc (n e : nat) (s : ana) : run :=
  let s := with_L (set_at n e 1%Z (set_row n 0%Z (set_col e 0%Z (a_L s)))) s in
  abind (if py_in Nat.eqb n (a_icn s)
         then alift (py_remove Nat.eqb n (a_icn s)) s (fun l => ret (with_icn l s))
         else ret s) (fun s =>
  if py_in Nat.eqb e (a_ic s) then set_edge_fc e s else ret s).

(** analysis.py L56-79: the loop over edges whose control is known. *)
Fixpoint known_edges (fuel : nat) (i : nat) (s : ana) : run :=
  if Nat.ltb i (length (a_ic s)) then
    match fuel with
    | O => fail OutOfFuel s
    | S fuel =>
        alift (py_get (a_ic s) (Z.of_nat i)) s (fun e =>
        alift (py_get (a_edges s) (Z.of_nat e)) s (fun d =>
        if String.eqb (e_ctrl d) "e" then abind (set_edge_ec e s) (known_edges fuel i)
        else if String.eqb (e_ctrl d) "f" then
          if Z.eqb (colsum s e) 1 then
            alift (col_index s e) s (fun n =>
            abind (if py_in Nat.eqb n (a_icn s) then set_node_dc n e s else ret s) (known_edges fuel i))
          else abind (set_edge_fc e s) (known_edges fuel i)
        else known_edges fuel (S i) s))
    end
  else ret s.

(** analysis.py L19-55: before the loop. *)
Definition start (g : graph) : run :=
  let s := mkAna (g_nodes g) (g_edges g) (incidence (g_nodes g) (g_edges g))
                 (fun i j => Z.abs (incidence (g_nodes g) (g_edges g) i j))
                 (seq 0 (length (g_nodes g))) [] (seq 0 (length (g_edges g))) [] in
  if existsb (String.eqb datum) (g_nodes g) then
    alift (py_index String.eqb datum (a_nodes s)) s (fun k =>
    abind (move_node k 0 s) (fun s =>
    let s := with_L (set_row 0 0%Z (a_L s)) s in
    alift (py_index String.eqb datum (a_nodes s)) s (fun k =>
    alift (py_index Nat.eqb k (a_icn s)) s (fun p =>
    ret (with_icn (firstn p (a_icn s) ++ skipn (S p) (a_icn s)) s)))))
  else ret s.

(** analysis.py L19-79 [__init__]. *)
Definition init_analysis (g : graph) : run :=
  abind (start g) (fun s => known_edges (length (a_ic s)) 0 s).

(** analysis.py L125-142 [iterate_fc]; the lists of edges do not change in the
    loop. *)
Fixpoint iterate_fc_loop (l : list nat) (s : ana) : run :=
  match l with
  | [] => ret s
  | e :: l' =>
      if Z.eqb (colsum s e) 0 then fail AssertionError s
      else abind (if Z.eqb (colsum s e) 1 then
                    alift (col_index s e) s (fun n =>
                    if py_in Nat.eqb n (a_icn s) then set_node_dc n e s else ret s)
                  else ret s) (iterate_fc_loop l')
  end.
Definition iterate_fc (s : ana) : run := iterate_fc_loop (a_fc s) s.

(** analysis.py L144-160 [iterate_ic]. *)
Fixpoint iterate_ic_loop (fuel : nat) (i : nat) (s : ana) : run :=
  if Nat.ltb i (length (a_ic s)) then
    match fuel with
    | O => fail OutOfFuel s
    | S fuel =>
        alift (py_get (a_ic s) (Z.of_nat i)) s (fun e =>
        if Z.eqb (colsum s e) 0 then abind (set_edge_ec e s) (iterate_ic_loop fuel i)
        else iterate_ic_loop fuel (S i) s)
    end
  else ret s.
Definition iterate_ic (s : ana) : run := iterate_ic_loop (length (a_ic s)) 0 s.

(** analysis.py L162-183 [iterate_nodes]; python iterates by position over the
    list that [set_node_dc] shortens. *)
Fixpoint iterate_nodes_loop (fuel : nat) (i : nat) (s : ana) : run :=
  if Nat.ltb i (length (a_icn s)) then
    match fuel with
    | O => fail OutOfFuel s
    | S fuel =>
        alift (py_get (a_icn s) (Z.of_nat i)) s (fun n =>
        if Z.eqb (rowsum s n) 0 then fail UndefinedPotential s
        else abind (if Z.eqb (rowsum s n) 1 then
                      alift (row_index s n) s (fun e =>
                      if py_in Nat.eqb e (a_ec s) then fail AssertionError s
                      else if py_in Nat.eqb n (a_icn s) then set_node_dc n e s else ret s)
                    else ret s) (iterate_nodes_loop fuel (S i)))
    end
  else ret s.
Definition iterate_nodes (s : ana) : run := iterate_nodes_loop (length (a_icn s)) 0 s.

(** analysis.py L496-500 [isequal] on matrices of integers: no entry of the
    first exceeds that of the second. *)
Definition isequal (n m : nat) (A B : nat -> nat -> Z) : bool :=
  forallb (fun i => forallb (fun j => Z.leb (A i j) (B i j)) (seq 0 m)) (seq 0 n).

(** analysis.py L196-213: the loop of [iteration], [temp] being Lambda_temp. *)
Fixpoint iteration_loop (fuel : nat) (temp : nat -> nat -> Z) (s : ana) : run :=
  if isequal (nn s) (ne s) temp (a_L s) then ret s
  else match fuel with
       | O => fail OutOfFuel s
       | S fuel =>
           let temp := a_L s in
           abind (iterate_nodes s) (fun s =>
           abind (iterate_fc s) (fun s =>
           abind (iterate_ic s) (fun s => iteration_loop fuel temp s)))
       end.
(** analysis.py L185-213 [iteration]; when it returns, Lambda_temp equals
    Lambda, so that the first test of L223 always succeeds. *)
Definition iteration (fuel : nat) (s : ana) : run := iteration_loop fuel (fun _ _ => 1%Z) s.

(** analysis.py L255-260, L270-276: the search of a column; [go_on] is the
    condition to continue at a position, [len] the length of the row. *)
Fixpoint search (fuel : nat) (len : nat) (ncols : nat) (go_on : nat -> bool) (e : nat) : result nat :=
  match fuel with
  | O => Err OutOfFuel
  | S fuel =>
      if Nat.ltb e len then
        if go_on e then
          if Nat.ltb (S e) ncols then search fuel len ncols go_on (S e) else Err IndexError
        else Ok e
      else Err IndexError
  end.

(** analysis.py L251-265; the test of L261-262 reads
    [not e == (len(self.ic_edges) and not type)], that is [e <> 0]. *)
Fixpoint unlock_ic (rows : list nat) (s : ana) : result (option (nat * nat)) :=
  match rows with
  | [] => Ok None
  | n :: rows' =>
      let len := length (a_ic s) in
      let nec := length (a_ec s) in
      let row e := a_L s n (nth e (a_ic s) 0) in
      if Z.ltb 1 (zsum len row) then
        do e <- search (S len) len (ne s - nec)
                  (fun e => negb (Z.eqb (row e) 1) && negb (Z.eqb (colsum s (nec + e)) 1)) 0;
        if Nat.eqb e 0 then unlock_ic rows' s else Ok (Some (n, nec + e))
      else unlock_ic rows' s
  end.
(** analysis.py L266-280. *)
Fixpoint unlock_icfc (ic0 : nat) (rows : list nat) (s : ana) : result (option (nat * nat)) :=
  match rows with
  | [] => Ok None
  | n :: rows' =>
      let len := ne s - ic0 in
      let nec := length (a_ec s) in
      let row e := a_L s n (ic0 + e) in
      if Z.ltb 1 (zsum len row) then
        do e <- search (S len) len (ne s - nec)
                  (fun e => negb (Z.eqb (row e) 1) && negb (Z.leb 2 (colsum s (nec + e)))) 0;
        if Nat.eqb e (length (a_ic s) + length (a_fc s)) then unlock_icfc ic0 rows' s
        else Ok (Some (n, nec + e))
      else unlock_icfc ic0 rows' s
  end.
(** analysis.py L242-283 [unlock]. *)
Definition unlock (s : ana) : run :=
  alift (unlock_ic (seq 0 (nn s)) s) s (fun o =>
  match o with
  | Some (n, j) => ret (with_L (set_at n j 0%Z (a_L s)) s)
  | None =>
      alift (py_get (a_ic s) 0%Z) s (fun ic0 =>
      alift (unlock_icfc ic0 (seq 0 (nn s)) s) s (fun o =>
      match o with
      | Some (n, j) => ret (with_L (set_at n j 0%Z (a_L s)) s)
      | None => fail CanNotUnlock s
      end))
  end).

Definition pending (s : ana) : bool := Nat.ltb 0 (length (a_ic s) + length (a_icn s)).

(** analysis.py L215-227 [perform], before the inverse; [fuel] bounds both
    loops. *)
Fixpoint perform_loop (fuel : nat) (s : ana) : run :=
  if pending s then
    match fuel with
    | O => fail OutOfFuel s
    | S fuel' =>
        abind (iteration fuel s) (fun s =>
        abind (if pending s then unlock s else ret s) (fun s => perform_loop fuel' s))
    end
  else ret s.

(** The inverse of a square matrix of rational numbers (numpy.linalg.inv), or
    none when it raises. *)
Definition qinverter := nat -> (nat -> nat -> Q) -> option (nat -> nat -> Q).

(** analysis.py L215-240 [perform]: Gamma_ec, Gamma_fc and the inverse. *)
Definition gamma_ec (s : ana) (i j : nat) : Q := inject_Z (a_G s (S i) j).
Definition gamma_fc (s : ana) (i j : nat) : Q := inject_Z (a_G s (S i) (length (a_ec s) + j)).
Definition perform (inv : qinverter) (fuel : nat) (s : ana) : ana * result (nat -> nat -> Q) :=
  match perform_loop fuel s with
  | (s, Some e) => (s, Err e)
  | (s, None) =>
      (s, if Nat.eqb (nn s - 1) (ne s - length (a_ec s))
          then match inv (nn s - 1) (gamma_fc s) with Some B => Ok B | None => Err ValueError end
          else Err ValueError)
  end.

(** ** build.py *)

(** analysis.py L81-123: indices of the edges of a type. *)
Definition edges_of (t : string) (s : ana) : list nat :=
  filter (fun k => match nth_error (a_edges s) k with Some d => String.eqb (e_type d) t | None => false end)
         (seq 0 (ne s)).
Definition all_edges (s : ana) : list nat :=
  edges_of "storage" s ++ edges_of "dissipative" s ++ edges_of "port" s ++ edges_of "connector" s.

(** build.py L14-29: the structure matrix; [B] is iGamma_fc. *)
Definition qmat (n m : nat) (A : nat -> nat -> Q) : mat := mkMat n m (fun i j => Num (A i j)).
Definition build_J (s : ana) (B : nat -> nat -> Q) : result mat :=
  let nec := length (a_ec s) in
  let nfc := length (a_fc s) in
  let n := nn s - 1 in
  do gamma <- mmul (qmat n n B) (qmat n nec (gamma_ec s));
  do top <- hstack [zeros nec nec; mtrans gamma];
  do bottom <- hstack [mneg gamma; zeros nfc nfc];
  do J <- vstack [top; bottom];
  Ok (mfancy J (all_edges s) (all_edges s)).

(** Labels of the edges at some indices. *)
Definition labels_at (s : ana) (l : list nat) : result (list string) :=
  rmap (fun k => do d <- py_get (a_edges s) (Z.of_nat k); Ok (e_label d)) l.

(** build.py L62-100: the loops that sort the lists of the core. *)
Definition positions (labels : list string) (l : list string) : result (list nat) :=
  rmap (fun x => py_index String.eqb x l) labels.

(** build.py L88-98: one pass of the loop over connectors. *)
Definition set_conn_alpha (a : option expr) (k : connector) : connector :=
  match a with Some a => mkConn (k_u0 k) (k_u1 k) (k_y0 k) (k_y1 k) a | None => k end.
Fixpoint conn_alphas (l : list nat) (s : ana) (ks : list connector) : result (list connector) :=
  match l with
  | [] => Ok ks
  | e :: l' =>
      do d <- py_get (a_edges s) (Z.of_nat e);
      do k <- py_index Bool.eqb true
                (map (fun k => String.eqb (k_y0 k) (e_label d) || String.eqb (k_y1 k) (e_label d)) ks);
      conn_alphas l' s (update_nth k (set_conn_alpha (e_alpha d)) ks)
  end.

(** build.py L35-59 [_select_relations]. *)
Fixpoint select_laws (l : list nat) (s : ana) (w : list string) (z : list expr) : result (list expr) :=
  match l with
  | [] => Ok z
  | e :: l' =>
      do d <- py_get (a_edges s) (Z.of_nat e);
      do k <- py_index String.eqb (e_label d) w;
      do law <- (if py_in Nat.eqb e (a_ec s) then Ok (e_ze d)
                 else if py_in Nat.eqb e (a_fc s) then Ok (e_zf d)
                 else Err ValueError);
      select_laws l' s w (update_nth k (fun _ => law) z)
  end.

(** build.py L62-106 [_setCore]. *)
Definition set_core (s : ana) (J : mat) (c : core) : result core :=
  do lx <- labels_at s (edges_of "storage" s);
  do ix <- positions lx (c_x c);
  do x <- pick (c_x c) ix;
  do lw <- labels_at s (edges_of "dissipative" s);
  do iw <- positions lw (c_w c);
  do w <- pick (c_w c) iw;
  do z <- pick (c_z c) iw;
  do ly <- labels_at s (edges_of "port" s);
  do iy <- positions ly (c_y c);
  do y <- pick (c_y c) iy;
  do u <- pick (c_u c) iy;
  do lc <- labels_at s (edges_of "connector" s);
  do ic <- positions lc (c_cy c);
  do ks <- conn_alphas (edges_of "connector" s) s (c_connectors c);
  do cy <- pick (c_cy c) ic;
  do cu <- pick (c_cu c) ic;
  do z <- select_laws (edges_of "dissipative" s) s w z;
  Ok (set_M J (set_connectors ks (set_cu cu (set_cy cy (set_y y (set_u u (set_z z (set_w w (set_x x c))))))))).

(** build.py L11-32 [buildCore] after the analysis (graph.py L132-160,
    L231-240 without the merge of components and without connection). *)
Definition build_core (inv : qinverter) (fuel : nat) (g : graph) : result core :=
  match init_analysis g with
  | (_, Some e) => Err e
  | (s, None) =>
      match perform inv fuel s with
      | (s, Err e) => Err e
      | (s, Ok B) => do J <- build_J s B; set_core s J (g_core g)
      end
  end.
