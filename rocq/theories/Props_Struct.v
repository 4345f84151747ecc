(** Properties of the structure of a core: C02 (moves), C03 (decomposition),
    C04 (blocks), C05 (pairing), C06 (indices). *)
From Coq Require Import String List ZArith QArith Qreals Reals Bool Lia Permutation.
From Verif Require Import Py Tools Spec_Tools Expr RSum Mat Core Spec_Core Spec_Ops
  StructProofs BlockProofs OpsProofs Refutations.
Import ListNotations.
Local Open Scope string_scope.
Local Open Scope list_scope.
Local Open Scope nat_scope.

(** ** A core used by the examples: two storages, two dissipations, a port. *)
Definition ex_core : core :=
  mkCore "ex" ["x1"; "x2"] (Mul (Sym "k") (Pow (Sym "x1") 2)) None
    ["w1"; "w2"] [Mul (Sym "R") (Sym "w1"); Pow (Sym "w2") 3] ["u1"] ["y1"] [] [] []
    (of_rows 5
      [[Num 0; Num 1; Num 2; Num 3; Num 4];
       [Num (-1); Num 0; Num 5; Sym "a"; Num 7];
       [Num (-2); Num (-5); Num 0; Num 8; Num 9];
       [Num (-3); Num (-6); Num (-8); Num 0; Num 10];
       [Num (-4); Num (-7); Num (-9); Num (-10); Num 0]])
    [] [] [] [] (zeros 0 0) [] (zeros 0 0) 1 1 0.

Example ex_core_wf : wf ex_core /\ sized ex_core /\ counters_ok ex_core.
Proof. repeat split; try discriminate; cbn; lia. Qed.

(** ** C02 *)

Theorem C02_move_stor_keeps_alignment : forall c i f,
  wf c -> i < length (c_x c) -> f < length (c_x c) ->
  exists c' sg, move_stor (Z.of_nat i) (Z.of_nat f) c = ok c' /\ wf c' /\
    moved_range (ntot c) i f sg /\ follows sg c c' /\ same_context c c' /\
    disss c' = disss c /\ ports c' = ports c /\ conns c' = conns c /\
    c_wl c' = c_wl c /\ c_xl c' = c_xl c.
Proof. exact move_stor_follows. Qed.
Print Assumptions C02_move_stor_keeps_alignment.

Theorem C02_move_diss_keeps_alignment : forall c i f,
  wf c -> i < length (c_w c) -> f < length (c_w c) ->
  (nr (c_Zl c) = Z.to_nat (c_wl c) \/ is_zero (c_Zl c) = true) ->
  exists c' sg, move_diss (Z.of_nat i) (Z.of_nat f) c = ok c' /\ wf c' /\
    moved_range (ntot c) (length (c_x c) + i) (length (c_x c) + f) sg /\
    follows sg c c' /\ same_context c c' /\
    stors c' = stors c /\ ports c' = ports c /\ conns c' = conns c /\
    c_wl c' = c_wl c /\ c_xl c' = c_xl c.
Proof. exact move_diss_follows. Qed.
Print Assumptions C02_move_diss_keeps_alignment.

Theorem C02_move_port_keeps_alignment : forall c i f,
  wf c -> i < length (c_y c) -> f < length (c_y c) ->
  exists c' sg, move_port (Z.of_nat i) (Z.of_nat f) c = ok c' /\ wf c' /\
    moved_range (ntot c) (length (c_x c) + length (c_w c) + i)
      (length (c_x c) + length (c_w c) + f) sg /\
    follows sg c c' /\ same_context c c' /\
    stors c' = stors c /\ disss c' = disss c /\ conns c' = conns c /\
    c_wl c' = c_wl c /\ c_xl c' = c_xl c.
Proof. exact move_port_follows. Qed.
Print Assumptions C02_move_port_keeps_alignment.

Theorem C02_move_connector_keeps_alignment : forall c i f,
  wf c -> i < length (c_cy c) -> f < length (c_cy c) ->
  exists c' sg, move_connector (Z.of_nat i) (Z.of_nat f) c = ok c' /\ wf c' /\
    moved_range (ntot c) (length (c_x c) + length (c_w c) + length (c_y c) + i)
      (length (c_x c) + length (c_w c) + length (c_y c) + f) sg /\
    follows sg c c' /\ same_context c c' /\
    stors c' = stors c /\ disss c' = disss c /\ ports c' = ports c /\
    c_wl c' = c_wl c /\ c_xl c' = c_xl c.
Proof. exact move_connector_follows. Qed.
Print Assumptions C02_move_connector_keeps_alignment.

(** Moving past the last component of its kind (as [reduce_z] does with
    [force_wnl]) misaligns the structure matrix. *)
Theorem C02_move_past_end_refuted : exists c c',
  wf c /\ move_diss 0 (dim_w c) c = ok c' /\ ~ exists sg, follows sg c c'.
Proof. exact move_past_end_refuted. Qed.
Print Assumptions C02_move_past_end_refuted.

Example C02_example : exists c',
  move_diss 0 1 ex_core = ok c' /\ c_w c' = ["w2"; "w1"] /\
  nth 2 (rows_of (c_M c')) [] = [Num (-3); Num (-6); Num 0; Num (-8); Num 10].
Proof. eexists; repeat split. Qed.

(** ** C03 *)
Theorem C03_M_is_J_minus_R : forall M, nr M = nc M ->
  exists J R, J_of M = Ok J /\ R_of M = Ok R /\
    nr J = nr M /\ nc J = nr M /\ nr R = nr M /\ nc R = nr M /\
    forall r : env,
      (forall i j, eval r (ent J i j) = - eval r (ent J j i))%R /\
      (forall i j, eval r (ent R i j) = eval r (ent R j i))%R /\
      (forall i j, eval r (ent M i j) = eval r (ent J i j) - eval r (ent R i j))%R /\
      (forall A S : rmat,
         (forall i j, (i < nr M)%nat -> (j < nr M)%nat -> A i j = - A j i)%R ->
         (forall i j, (i < nr M)%nat -> (j < nr M)%nat -> S i j = S j i) ->
         (forall i j, (i < nr M)%nat -> (j < nr M)%nat -> eval r (ent M i j) = A i j - S i j)%R ->
         forall i j, i < nr M -> j < nr M ->
           A i j = eval r (ent J i j) /\ S i j = eval r (ent R i j)).
Proof. exact J_R_decomposition. Qed.
Print Assumptions C03_M_is_J_minus_R.

(** The accessors of the blocks return the corresponding entries. *)
Theorem C03_block_accessors : forall p a b c, sized c -> counters_ok c ->
  exists B, get_block p a b c = Ok B /\ nr B = len c a /\ nc B = len c b /\
    forall r i j, eval r (ent B i j) =
      match p with
      | PM => Mv r c | PJ => Jv r c | PR => Rv r c
      end (off c a + i) (off c b + j).
Proof. exact get_block_ok. Qed.
Print Assumptions C03_block_accessors.

Example C03_example : exists J,
  J_of (of_rows 2 [[Num 2; Num 4]; [Num 0; Num 6]]) = Ok J /\
  rows_of J = [[Num 0; Num 2]; [Num (-2); Num 0]].
Proof. eexists; repeat split. Qed.

(** ** C04 *)
Theorem C04_set_M_block : forall c a b V,
  sized c -> counters_ok c -> (a <> b -> separate c a b) ->
  nr V = len c a -> nc V = len c b ->
  exists c', set_block PM a b V c = ok c' /\ c' = set_M (c_M c') c /\ sized c' /\
  forall r i j,
    (inside c a i -> inside c b j -> Mv r c' i j = eval r (ent V (i - off c a) (j - off c b))) /\
    (~ (inside c a i /\ inside c b j) -> Mv r c' i j = Mv r c i j).
Proof. exact set_M_ok. Qed.
Print Assumptions C04_set_M_block.

Theorem C04_set_J_block : forall c a b V,
  sized c -> counters_ok c -> (a <> b -> separate c a b) ->
  nr V = len c a -> nc V = len c b ->
  (a = b -> forall r i j, (i < len c a)%nat -> (j < len c a)%nat ->
     eval r (ent V i j) = - eval r (ent V j i))%R ->
  exists c', set_block PJ a b V c = ok c' /\ c' = set_M (c_M c') c /\ sized c' /\
  forall r i j,
    Rv r c' i j = Rv r c i j /\
    (inside c a i -> inside c b j ->
       Jv r c' i j = eval r (ent V (i - off c a) (j - off c b))) /\
    (inside c b i -> inside c a j ->
       Jv r c' i j = (- eval r (ent V (j - off c a)%nat (i - off c b)%nat))%R) /\
    (~ (inside c a i /\ inside c b j) -> ~ (inside c b i /\ inside c a j) ->
       Jv r c' i j = Jv r c i j).
Proof. exact set_J_ok. Qed.
Print Assumptions C04_set_J_block.

Theorem C04_set_R_block : forall c a b V,
  sized c -> counters_ok c -> (a <> b -> separate c a b) ->
  nr V = len c a -> nc V = len c b ->
  (a = b -> forall r i j, (i < len c a)%nat -> (j < len c a)%nat ->
     eval r (ent V i j) = eval r (ent V j i)) ->
  exists c', set_block PR a b V c = ok c' /\ c' = set_M (c_M c') c /\ sized c' /\
  forall r i j,
    Jv r c' i j = Jv r c i j /\
    (inside c a i -> inside c b j ->
       Rv r c' i j = eval r (ent V (i - off c a) (j - off c b))) /\
    (inside c b i -> inside c a j ->
       Rv r c' i j = eval r (ent V (j - off c a) (i - off c b))) /\
    (~ (inside c a i /\ inside c b j) -> ~ (inside c b i /\ inside c a j) ->
       Rv r c' i j = Rv r c i j).
Proof. exact set_R_ok. Qed.
Print Assumptions C04_set_R_block.

(** A block of the wrong shape is refused and nothing changes. *)
Theorem C04_wrong_shape_refused : forall p a b V c, sized c -> counters_ok c ->
  ~ (nr V = len c a /\ nc V = len c b) ->
  set_block p a b V c = raise ShapeError c.
Proof. exact set_wrong_shape. Qed.
Print Assumptions C04_wrong_shape_refused.

(** When components were added since the matrix was last sized, a setter first
    erases the whole matrix. *)
Theorem C04_setter_resets_stale_matrix : forall p a b V c, nr (c_M c) <> ntot c ->
  set_block p a b V c = set_block p a b V (set_M (zeros (ntot c) (ntot c)) c).
Proof. exact set_block_unsized. Qed.
Print Assumptions C04_setter_resets_stale_matrix.

(** Overlapping block names do not write what was asked. *)
Theorem C04_overlapping_blocks_refuted : exists c V c' B,
  sized c /\ counters_ok c /\ nr V = len c Bx /\ nc V = len c Bxl /\
  set_block PM Bx Bxl V c = ok c' /\ get_block PM Bx Bxl c' = Ok B /\
  exists r, eval r (ent B 0 0) <> eval r (ent V 0 0).
Proof. exact overlap_refuted. Qed.
Print Assumptions C04_overlapping_blocks_refuted.

Example C04_example : exists c',
  set_block PJ Bx By (of_rows 1 [[Num 30]; [Num 40]]) ex_core = ok c' /\
  nth 4 (rows_of (c_M c')) [] = [Num (-30); Num (-40); Num (-9); Num (-10); Num 0] /\
  separate ex_core Bx By.
Proof. eexists; repeat split. intros i. unfold inside; cbn. lia. Qed.

(** ** C05 *)
Theorem C05_variables_stay_paired : forall inv c, reachable inv c ->
  length (c_w c) = length (c_z c) /\ length (c_u c) = length (c_y c) /\
  length (c_cu c) = length (c_cy c).
Proof. exact paired_reachable. Qed.
Print Assumptions C05_variables_stay_paired.

Theorem C05_failing_additions_change_nothing : forall c e,
  (forall x H, snd (add_storages x H c) = Some e -> fst (add_storages x H c) = c) /\
  (forall w z, snd (add_dissipations w z c) = Some e -> fst (add_dissipations w z c) = c) /\
  (forall u y, snd (add_ports u y c) = Some e -> fst (add_ports u y c) = c).
Proof. exact failing_additions. Qed.
Print Assumptions C05_failing_additions_change_nothing.

(** What a successful addition does: append, and nothing else. *)
Theorem C05_successful_additions : forall c,
  (forall w z c', add_dissipations w z c = ok c' -> exists ws zs,
     (w = Many ws /\ z = Many zs \/ exists s e, w = One s /\ z = One e /\ ws = [s] /\ zs = [e]) /\
     c' = set_z (c_z c ++ zs) (set_w (c_w c ++ ws) c) /\ length ws = length zs) /\
  (forall u y c', add_ports u y c = ok c' -> exists us ys,
     (u = Many us /\ y = Many ys \/ exists s e, u = One s /\ y = One e /\ us = [s] /\ ys = [e]) /\
     c' = set_y (c_y c ++ ys) (set_u (c_u c ++ us) c) /\ length us = length ys).
Proof. exact successful_additions. Qed.
Print Assumptions C05_successful_additions.

Theorem C05_successful_storages : forall c x H c', add_storages x H c = ok c' ->
  exists xs h, (x = Many xs \/ exists s, x = One s /\ xs = [s]) /\ H = One h /\
    c_x c' = c_x c ++ xs /\
    (forall r, eval r (c_H c') = eval r (c_H c) + eval r h)%R /\
    c' = set_H (c_H c') (set_x (c_x c') c).
Proof. exact successful_storages. Qed.
Print Assumptions C05_successful_storages.

Example C05_example : exists c',
  reachable (fun _ => None) c' /\
  c_w c' = ["w1"; "w2"] /\ c_z c' = [Sym "w1"; Num 3].
Proof.
  exists (fst (apply_op (fun _ => None) (AddDissipations (Many ["w1"; "w2"]) (Many [Sym "w1"; Num 3]))
     (fst (apply_op (fun _ => None) (AddDissipations (Many ["w"]) (One (Num 1))) (new_core "a"))))).
  repeat split. apply reach_op, reach_op, reach_new.
Qed.

(** ** C06 *)
Theorem C06_indices_tile_the_structure : forall c, counters_ok c ->
  let s b := fst (inds c b) in let e b := snd (inds c b) in
  (s Bx = 0 /\ e Bx = s Bw /\ e Bw = s By /\ e By = s Bcy /\ e Bcy = dim_tot c /\
   s Bxl = 0 /\ e Bxl = s Bxnl /\ e Bxnl = e Bx /\ s Bwl = s Bw /\ e Bwl = s Bwnl /\
   e Bwnl = e Bw)%Z.
Proof. exact inds_tile. Qed.
Print Assumptions C06_indices_tile_the_structure.

Theorem C06_block_rows_are_the_block_symbols : forall c b, counters_ok c ->
  let '(d, e) := inds c b in
  py_slice (labels c) (Some d) (Some e) = symbols_of c b /\
  (e - d)%Z = dim_blk c b /\ length (symbols_of c b) = Z.to_nat (dim_blk c b).
Proof. exact labels_block. Qed.
Print Assumptions C06_block_rows_are_the_block_symbols.

Example C06_example : inds ex_core Bwnl = (3, 4)%Z /\ symbols_of ex_core Bwnl = ["w2"%string].
Proof. split; reflexivity. Qed.
