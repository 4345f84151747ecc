(** The invariant of the graph analysis, its loops and their termination. *)
From Coq Require Import String List ZArith QArith Bool Lia Permutation.
From Verif Require Import Py Tools Lists Spec_Tools ToolsProofs Expr Mat Core StructProofs Graph Spec_Graph GraphProofs.
Import ListNotations.
Local Open Scope string_scope.
Local Open Scope list_scope.
Local Open Scope nat_scope.

(** ** Sums *)
Lemma zsum_S n f : zsum (S n) f = (zsum n f + f n)%Z.
Proof.
  unfold zsum. rewrite seq_S, map_app, fold_right_app. cbn.
  generalize (map f (seq 0 n)). intros l. induction l as [|a l IH]; cbn; [lia|]. rewrite IH. lia.
Qed.

Lemma zsum_zero n f : (forall j, j < n -> f j = 0%Z) -> zsum n f = 0%Z.
Proof. induction n as [|n IH]; intros H; [reflexivity|]. rewrite zsum_S, IH, H; [reflexivity|lia|intros; apply H; lia]. Qed.

Lemma zsum_single n f e : (f e <= 1)%Z -> (forall j, j < n -> j <> e -> f j = 0%Z) -> (zsum n f <= 1)%Z.
Proof.
  intros He. induction n as [|n IH]; intros H; [cbn; lia|]. rewrite zsum_S.
  destruct (Nat.eq_dec n e) as [->|Hn].
  - rewrite zsum_zero; [lia|]. intros j Hj. apply H; lia.
  - rewrite (H n) by lia. assert (zsum n f <= 1)%Z by (apply IH; intros; apply H; lia). lia.
Qed.

Lemma zsum_nonneg n f : (forall j, j < n -> (0 <= f j)%Z) -> (0 <= zsum n f)%Z.
Proof.
  induction n as [|n IH]; intros H; [cbn; lia|]. rewrite zsum_S.
  assert (0 <= zsum n f)%Z by (apply IH; intros; apply H; lia). specialize (H n). lia.
Qed.

Lemma zsum_ge n f k : (forall j, j < n -> (0 <= f j)%Z) -> k < n -> (f k <= zsum n f)%Z.
Proof.
  induction n as [|n IH]; intros H Hk; [lia|]. rewrite zsum_S.
  assert (H0 : (0 <= zsum n f)%Z) by (apply zsum_nonneg; intros; apply H; lia).
  destruct (Nat.eq_dec k n) as [->|Hn]; [lia|].
  assert (f k <= zsum n f)%Z by (apply IH; [intros; apply H|]; lia). specialize (H n). lia.
Qed.

Lemma nth_error_map_seq {A} (f : nat -> A) n k a : nth_error (map f (seq 0 n)) k = Some a -> k < n /\ a = f k.
Proof.
  rewrite nth_error_map, nth_error_seq. destruct (Nat.ltb_spec k n); [|discriminate].
  cbn. intros [= <-]. now split.
Qed.

Lemma col_index_spec s j n : col_index s j = Ok n -> n < nn s /\ a_L s n j = 1%Z.
Proof.
  unfold col_index. intros H. apply py_index_spec in H as (a & Ha & E).
  apply nth_error_map_seq in Ha as [Hn ->]. apply Z.eqb_eq in E. now split.
Qed.

Lemma row_index_spec s i e : row_index s i = Ok e -> e < ne s /\ a_L s i e = 1%Z.
Proof.
  unfold row_index. intros H. apply py_index_spec in H as (a & Ha & E).
  apply nth_error_map_seq in Ha as [Hn ->]. apply Z.eqb_eq in E. now split.
Qed.

Lemma zsum_one n f : (forall j, j < n -> f j = 0%Z \/ f j = 1%Z) -> (0 < zsum n f)%Z -> exists j, j < n /\ f j = 1%Z.
Proof.
  induction n as [|n IH]; intros H; [cbn; lia|]. rewrite zsum_S. intros Hp.
  destruct (H n) as [E|E]; [lia| |exists n; split; [lia|exact E]].
  destruct IH as (j & Hj & Ej); [intros; apply H; lia|lia|]. exists j. split; [lia|exact Ej].
Qed.

Lemma index_one n f : (exists j, j < n /\ f j = 1%Z) -> exists k, py_index Z.eqb 1%Z (map f (seq 0 n)) = Ok k.
Proof.
  intros (j & Hj & E). destruct (py_index_total Z.eqb 1%Z (map f (seq 0 n))) as (k & -> & _); [|eauto].
  exists 1%Z. split; [|reflexivity]. apply in_map_iff. exists j. split; [exact E|apply in_seq; lia].
Qed.

Lemma inv_01 g x s i j : inv g x s -> i < nn s -> j < ne s -> a_L s i j = 0%Z \/ a_L s i j = 1%Z.
Proof. intros H Hi Hj. destruct (i_L _ _ _ H i j Hi Hj) as [E|[E _]]; [now left|now right]. Qed.

Lemma col_index_total g x s j : inv g x s -> j < ne s -> (0 < colsum s j)%Z -> exists n, col_index s j = Ok n.
Proof.
  intros H Hj Hp. apply index_one, zsum_one; [|exact Hp]. intros i Hi. now apply (inv_01 g x).
Qed.

Lemma row_index_total g x s i : inv g x s -> i < nn s -> (0 < rowsum s i)%Z -> exists n, row_index s i = Ok n.
Proof.
  intros H Hi Hp. apply index_one, zsum_one; [|exact Hp]. intros j Hj. now apply (inv_01 g x).
Qed.

Lemma ic_lt s e : blocks s -> In e (a_ic s) -> e < ne s.
Proof. intros B H. destruct (blocks_ic s e B H) as (a & b & c & _ & _ & _ & N & Ha). lia. Qed.

Lemma class_lt s : blocks s -> forall e, In e (a_ec s) \/ In e (a_ic s) \/ In e (a_fc s) <-> e < ne s.
Proof.
  intros (a & b & c & E1 & E2 & E3 & N) e. rewrite E1, E2, E3, !in_seq. unfold ne. lia.
Qed.

(** ** What a call keeps *)
Definition size (s : ana) : nat := length (a_ic s) + length (a_icn s).

(** The invariant holds at the end, normal or not; sizes do not grow. *)
Record good (g : graph) (s : ana) (r : run) : Prop := mkGood {
  g_inv : inv g [] (fst r);
  g_nn : nn (fst r) = nn s;
  g_ne : ne (fst r) = ne s;
  g_ic : length (a_ic (fst r)) <= length (a_ic s);
  g_icn : length (a_icn (fst r)) <= length (a_icn s);
  g_same : fst r = s \/ size (fst r) < size s;
  g_fuel : snd r <> Some OutOfFuel
}.

Lemma good_ret g s : inv g [] s -> good g s (ret s).
Proof. intros H. constructor; try reflexivity; [exact H|now left|discriminate]. Qed.

Lemma good_fail g s e : inv g [] s -> e <> OutOfFuel -> good g s (fail e s).
Proof. intros H He. constructor; try reflexivity; [exact H|now left|cbn; congruence]. Qed.

Lemma good_bind g s r f : good g s r -> (forall s', fst r = s' -> inv g [] s' -> nn s' = nn s -> ne s' = ne s -> good g s' (f s')) ->
  good g s (abind r f).
Proof.
  intros [H1 H2 H3 H4 H5 H6 H7] Hf. destruct r as [s' [e|]]; cbn [abind fst snd] in *.
  - constructor; assumption.
  - specialize (Hf s' eq_refl H1 H2 H3). destruct Hf as [K1 K2 K3 K4 K5 K6 K7].
    constructor; [exact K1|congruence|congruence|lia|lia| |exact K7].
    destruct H6 as [->|H6]; [exact K6|]. right. unfold size in *. lia.
Qed.

Lemma good_trans g s s' r : inv g [] s' -> nn s' = nn s -> ne s' = ne s ->
  length (a_ic s') <= length (a_ic s) -> length (a_icn s') <= length (a_icn s) -> (s' = s \/ size s' < size s) ->
  good g s' r -> good g s r.
Proof.
  intros J1 J2 J3 J4 J5 J6 [K1 K2 K3 K4 K5 K6 K7].
  constructor; [exact K1|congruence|congruence|lia|lia| |exact K7].
  destruct J6 as [->|J6]; [exact K6|]. right. unfold size in *. lia.
Qed.

Lemma set_edge_good g c e s : inv g (match c with CE => [] | CF => [e] end) s -> In e (a_ic s) ->
  let r := set_edge (S (length (a_ic s))) c e s in
  inv g [] (fst r) /\ nn (fst r) = nn s /\ ne (fst r) = ne s /\ length (a_ic (fst r)) < length (a_ic s) /\
  a_icn (fst r) = a_icn s /\ snd r <> Some OutOfFuel.
Proof.
  intros H He. cbn zeta.
  destruct (set_edge_inv g (S (length (a_ic s))) c e s H He ltac:(lia)) as (R1 & R2 & _ & R4 & (_ & R5 & R6 & R7)).
  split; [exact R1|]. now repeat split.
Qed.

Lemma set_edge_ec_good g e s : inv g [] s -> In e (a_ic s) -> good g s (set_edge_ec e s) /\
  length (a_ic (fst (set_edge_ec e s))) < length (a_ic s).
Proof.
  intros H He. destruct (set_edge_good g CE e s H He) as (R1 & R2 & R3 & R4 & R5 & R6). unfold set_edge_ec.
  split; [|exact R4]. constructor; [exact R1|exact R2|exact R3|lia|now rewrite R5| |exact R6].
  right. unfold size. rewrite R5. lia.
Qed.

Lemma set_edge_fc_good g e s : inv g [] s -> In e (a_ic s) -> good g s (set_edge_fc e s) /\
  length (a_ic (fst (set_edge_fc e s))) < length (a_ic s).
Proof.
  intros H He. destruct (set_edge_good g CF e s (inv_x g [e] s H) He) as (R1 & R2 & R3 & R4 & R5 & R6). unfold set_edge_fc.
  split; [|exact R4]. constructor; [exact R1|exact R2|exact R3|lia|now rewrite R5| |exact R6].
  right. unfold size. rewrite R5. lia.
Qed.

(** [set_node_dc] before the edge is moved. *)
Lemma node_dc_inv g n e s l : inv g [] s -> In n (a_icn s) -> e < ne s -> a_L s n e = 1%Z ->
  py_remove Nat.eqb n (a_icn s) = Ok l ->
  inv g [e] (with_icn l (with_L (set_at n e 1%Z (set_row n 0%Z (set_col e 0%Z (a_L s)))) s)).
Proof.
  intros H Hn He HL Hl. destruct (i_icn_lt _ _ _ H n Hn) as [Hnn Hnd].
  destruct (remove_nat n _ l (i_icn _ _ _ H) Hl) as (N' & _ & Hin).
  set (s' := with_icn l _).
  assert (LL : forall i j, a_L s' i j = if Nat.eqb i n && Nat.eqb j e then 1%Z
             else if Nat.eqb i n then 0%Z else if Nat.eqb j e then 0%Z else a_L s i j) by reflexivity.
  constructor; change (a_icn s') with l; change (nn s') with (nn s); change (ne s') with (ne s); try change (a_nodes s') with (a_nodes s).
  - exact (i_blocks _ _ _ H).
  - exact (i_aligned _ _ _ H).
  - exact (i_same _ _ _ H).
  - intros i j Hi Hj. rewrite LL. change (a_G s' i j) with (a_G s i j).
    destruct (Nat.eqb_spec i n) as [->|], (Nat.eqb_spec j e) as [->|]; cbn [andb].
    + right. split; [reflexivity|]. destruct (i_L _ _ _ H n e Hi Hj) as [E|[_ E]]; [congruence|exact E].
    + now left.
    + now left.
    + now apply (i_L _ _ _ H).
  - intros i j Hi Hj. change (a_ec s') with (a_ec s) in Hj. rewrite LL.
    destruct (Nat.eqb_spec i n) as [->|], (Nat.eqb_spec j e) as [->|]; cbn [andb]; try reflexivity.
    + rewrite (i_ec _ _ _ H n e Hi Hj) in HL. discriminate.
    + now apply (i_ec _ _ _ H).
  - exact N'.
  - intros m Hm. apply Hin in Hm as [Hm _]. now apply (i_icn_lt _ _ _ H).
  - intros m j Hm Hj. change (a_nodes s') with (a_nodes s) in Hm. rewrite LL.
    destruct (Nat.eqb_spec m n) as [->|]; [contradiction|]. cbn [andb].
    destruct (Nat.eqb j e); [reflexivity|]. now apply (i_datum _ _ _ H).
  - intros m k Hm Hk Hmi. change (a_nodes s') with (a_nodes s) in Hm. change (a_icn s') with l in Hmi.
    change (ne s') with (ne s). change (nn s') with (nn s).
    destruct (Nat.eq_dec m n) as [->|Hmn].
    + exists e. split; [right; now left|]. split; [exact He|].
      split; [rewrite LL, !Nat.eqb_refl; reflexivity|]. split.
      * intros j Hj Hje. rewrite LL, Nat.eqb_refl. destruct (Nat.eqb_spec j e); [contradiction|reflexivity].
      * intros i Hi Hin'. rewrite LL. destruct (Nat.eqb_spec i n); [contradiction|]. now rewrite Nat.eqb_refl.
    + assert (Hmi' : ~ In m (a_icn s)) by (intros F; apply Hmi, Hin; now split).
      destruct (i_det _ _ _ H m k Hm Hk Hmi') as (f & [Hf|[]] & Hfl & L1 & L2 & L3).
      assert (Hfe : f <> e). { intros ->. specialize (L3 n Hnn (not_eq_sym Hmn)). congruence. }
      exists f. split; [now left|]. split; [exact Hfl|]. split; [|split].
      * rewrite LL. destruct (Nat.eqb_spec m n); [contradiction|]. destruct (Nat.eqb_spec f e); [contradiction|]. exact L1.
      * intros j Hj Hjf. rewrite LL. destruct (Nat.eqb_spec m n); [contradiction|]. cbn [andb].
        destruct (Nat.eqb j e); [reflexivity|now apply L2].
      * intros i Hi Him. rewrite LL. destruct (Nat.eqb_spec f e); [contradiction|]. rewrite andb_false_r.
        destruct (Nat.eqb i n); [reflexivity|now apply L3].
Qed.

(** An extra edge that is already flux-controlled is not needed. *)
Lemma inv_drop g e s : inv g [e] s -> In e (a_fc s) -> inv g [] s.
Proof.
  intros [H1 H2 H3 H4 H5 H6 H7 H8 H9] He. constructor; try assumption.
  intros n m Hn Hm Hi. destruct (H9 n m Hn Hm Hi) as (k & [Hk|[<-|[]]] & R).
  - exists k. split; [now left|exact R].
  - exists e. split; [now left|exact R].
Qed.

Lemma set_node_dc_good g n e s : inv g [] s -> In n (a_icn s) -> e < ne s -> a_L s n e = 1%Z ->
  good g s (set_node_dc n e s) /\ length (a_icn (fst (set_node_dc n e s))) < length (a_icn s) /\
  (In e (a_ic s) -> length (a_ic (fst (set_node_dc n e s))) < length (a_ic s)).
Proof.
  intros H Hn He HL. unfold set_node_dc. cbn zeta.
  assert (Ein : py_in Nat.eqb n (a_icn (with_L (set_at n e 1%Z (set_row n 0%Z (set_col e 0%Z (a_L s)))) s)) = true)
    by (cbn; now apply in_nat).
  rewrite Ein. cbn [a_icn with_L].
  destruct (remove_nat_total n (a_icn s) Hn) as [l El]. rewrite El. cbn [alift abind ret].
  pose proof (node_dc_inv g n e s l H Hn He HL El) as I1.
  destruct (remove_nat n _ l (i_icn _ _ _ H) El) as (_ & Ll & _).
  set (s1 := with_icn l _) in *.
  change (with_icn l (mkAna _ _ _ _ _ _ _ _)) with s1.
  assert (F : a_ic s1 = a_ic s /\ a_icn s1 = l /\ a_fc s1 = a_fc s /\ a_ec s1 = a_ec s /\ nn s1 = nn s /\ ne s1 = ne s)
    by now repeat split.
  destruct F as (F1 & F2 & F3 & F4 & F5 & F6). clearbody s1.
  destruct (py_in Nat.eqb e (a_ic s1)) eqn:Ei.
  - apply in_nat in Ei. destruct (set_edge_good g CF e s1 I1 Ei) as (R1 & R2 & R3 & R4 & R5 & R6).
    unfold set_edge_fc. rewrite F1 in *. rewrite R5, F2. split; [|split; [lia|intros _; lia]].
    constructor; [exact R1|congruence|congruence|lia|rewrite R5, F2; lia| |exact R6].
    right. unfold size. rewrite R5, F2. lia.
  - assert (Ei' : ~ In e (a_ic s)). { intros F. rewrite <- F1 in F. apply in_nat in F. congruence. }
    assert (Hfc : In e (a_fc s)).
    { destruct (proj2 (class_lt s (i_blocks _ _ _ H) e) He) as [F|[F|F]]; [|contradiction|exact F].
      destruct (i_icn_lt _ _ _ H n Hn) as [Hnn _]. rewrite (i_ec _ _ _ H n e Hnn F) in HL. discriminate. }
    cbn [fst ret]. rewrite F1, F2. split; [|split; [lia|intros F; contradiction]].
    constructor; cbn [fst ret]; [|exact F5|exact F6|rewrite F1; lia|rewrite F2; lia| |discriminate].
    + apply (inv_drop g e); [exact I1|now rewrite F3].
    + right. unfold size. rewrite F1, F2. lia.
Qed.

(** ** The loops *)
Lemma iterate_fc_good g : forall l s, inv g [] s -> (forall e, In e l -> e < ne s) -> good g s (iterate_fc_loop l s).
Proof.
  induction l as [|e l IH]; intros s H Hl; [now apply good_ret|]. cbn [iterate_fc_loop].
  assert (He : e < ne s) by (apply Hl; now left).
  destruct (Z.eqb_spec (colsum s e) 0) as [|H0]; [now apply good_fail|].
  apply good_bind.
  - destruct (Z.eqb_spec (colsum s e) 1) as [H1|]; [|now apply good_ret].
    destruct (col_index_total g [] s e H He ltac:(lia)) as [n En]. rewrite En. cbn [alift].
    destruct (py_in Nat.eqb n (a_icn s)) eqn:Ei; [|now apply good_ret]. apply in_nat in Ei.
    apply col_index_spec in En as [_ EL]. now apply set_node_dc_good.
  - intros s' _ I' _ N'. apply IH; [exact I'|]. intros k Hk. rewrite N'. apply Hl. now right.
Qed.

Lemma iterate_ic_good g : forall fuel i s, inv g [] s -> length (a_ic s) - i <= fuel -> good g s (iterate_ic_loop fuel i s).
Proof.
  induction fuel as [|fuel IH]; intros i s H Hf; cbn [iterate_ic_loop].
  - destruct (Nat.ltb_spec i (length (a_ic s))); [lia|now apply good_ret].
  - destruct (Nat.ltb_spec i (length (a_ic s))) as [Hi|]; [|now apply good_ret].
    rewrite py_get_nat. destruct (nth_error (a_ic s) i) as [e|] eqn:Ee; [|apply nth_error_None in Ee; lia].
    cbn [alift]. apply nth_error_In in Ee.
    destruct (Z.eqb (colsum s e) 0); [|apply IH; [exact H|lia]].
    destruct (set_edge_ec_good g e s H Ee) as [G1 G2].
    apply good_bind; [exact G1|]. intros s' <- I' _ _. apply IH; [exact I'|lia].
Qed.

Lemma iterate_nodes_good g : forall fuel i s, inv g [] s -> length (a_icn s) - i <= fuel -> good g s (iterate_nodes_loop fuel i s).
Proof.
  induction fuel as [|fuel IH]; intros i s H Hf; cbn [iterate_nodes_loop].
  - destruct (Nat.ltb_spec i (length (a_icn s))); [lia|now apply good_ret].
  - destruct (Nat.ltb_spec i (length (a_icn s))) as [Hi|]; [|now apply good_ret].
    rewrite py_get_nat. destruct (nth_error (a_icn s) i) as [n|] eqn:Ee; [|apply nth_error_None in Ee; lia].
    cbn [alift]. apply nth_error_In in Ee. destruct (i_icn_lt _ _ _ H n Ee) as [Hn _].
    destruct (Z.eqb (rowsum s n) 0); [now apply good_fail|].
    assert (Step : good g s (if Z.eqb (rowsum s n) 1 then
                      alift (row_index s n) s (fun e =>
                      if py_in Nat.eqb e (a_ec s) then fail AssertionError s
                      else if py_in Nat.eqb n (a_icn s) then set_node_dc n e s else ret s)
                    else ret s)).
    { destruct (Z.eqb_spec (rowsum s n) 1) as [H1|]; [|now apply good_ret].
      destruct (row_index_total g [] s n H Hn ltac:(lia)) as [e He]. rewrite He. cbn [alift].
      apply row_index_spec in He as [He EL].
      destruct (py_in Nat.eqb e (a_ec s)); [now apply good_fail|].
      destruct (py_in Nat.eqb n (a_icn s)) eqn:Ei; [|now apply good_ret]. apply in_nat in Ei.
      now apply set_node_dc_good. }
    apply good_bind; [exact Step|]. intros s' <- I' _ _. apply IH; [exact I'|].
    pose proof (g_icn _ _ _ Step). lia.
Qed.

Lemma isequal_refl n m A : isequal n m A A = true.
Proof. apply forallb_forall. intros i _. apply forallb_forall. intros j _. apply Z.leb_refl. Qed.

Lemma pass_good g s : inv g [] s -> forall k, (forall s', inv g [] s' -> nn s' = nn s -> ne s' = ne s -> good g s' (k s')) ->
  good g s (abind (iterate_nodes s) (fun s1 => abind (iterate_fc s1) (fun s2 => abind (iterate_ic s2) k))).
Proof.
  intros H k Hk. apply good_bind; [apply iterate_nodes_good; [exact H|lia]|]. intros s1 _ I1 N1 M1.
  apply good_bind.
  { apply iterate_fc_good; [exact I1|]. intros e He. apply (class_lt s1 (i_blocks _ _ _ I1)). tauto. }
  intros s2 _ I2 N2 M2. apply good_bind; [apply iterate_ic_good; [exact I2|lia]|].
  intros s3 _ I3 N3 M3. apply Hk; [exact I3|congruence|congruence].
Qed.

(** Three calls in sequence, then a test: with enough fuel the loop ends. *)
Lemma iteration_good g : forall fuel temp s, inv g [] s ->
  (forall i j, i < nn s -> j < ne s -> temp i j = a_L s i j) \/ size s < fuel ->
  good g s (iteration_loop fuel temp s).
Proof.
  induction fuel as [|fuel IH]; intros temp s H Hm; cbn [iteration_loop].
  - destruct Hm as [Hm|Hm]; [|lia].
    assert (E : isequal (nn s) (ne s) temp (a_L s) = true).
    { apply forallb_forall. intros i Hi. apply forallb_forall. intros j Hj. apply in_seq in Hi, Hj.
      rewrite Hm by lia. apply Z.leb_refl. }
    rewrite E. now apply good_ret.
  - destruct (isequal (nn s) (ne s) temp (a_L s)) eqn:E; [now apply good_ret|].
    destruct Hm as [Hm|Hm].
    { exfalso. clear IH. assert (isequal (nn s) (ne s) temp (a_L s) = true); [|congruence].
      apply forallb_forall. intros i Hi. apply forallb_forall. intros j Hj. apply in_seq in Hi, Hj.
      rewrite Hm by lia. apply Z.leb_refl. }
    cbn zeta.
    assert (P1 : good g s (iterate_nodes s)) by (apply iterate_nodes_good; [exact H|lia]).
    destruct (iterate_nodes s) as [s1 [e1|]]; [exact P1|]. cbn [abind].
    destruct P1 as [I1 A1 B1 C1 D1 Q1 _]; cbn [fst snd] in *.
    assert (P2 : good g s1 (iterate_fc s1)).
    { apply iterate_fc_good; [exact I1|]. intros e He. apply (class_lt s1 (i_blocks _ _ _ I1)). tauto. }
    apply (good_trans g s s1); try assumption.
    destruct (iterate_fc s1) as [s2 [e2|]]; [exact P2|]. cbn [abind].
    destruct P2 as [I2 A2 B2 C2 D2 Q2 _]; cbn [fst snd] in *.
    assert (P3 : good g s2 (iterate_ic s2)) by (apply iterate_ic_good; [exact I2|lia]).
    apply (good_trans g s1 s2); try assumption.
    destruct (iterate_ic s2) as [s3 [e3|]]; [exact P3|]. cbn [abind].
    destruct P3 as [I3 A3 B3 C3 D3 Q3 _]; cbn [fst snd] in *.
    apply (good_trans g s2 s3); try assumption.
    apply IH; [exact I3|].
    destruct Q3 as [->|Q3]; [|right; destruct Q2 as [->|Q2], Q1 as [->|Q1]; lia].
    destruct Q2 as [->|Q2]; [|right; destruct Q1 as [->|Q1]; lia].
    destruct Q1 as [->|Q1]; [left; reflexivity|right; lia].
Qed.

(** ** unlock *)
Lemma search_spec fuel len ncols go_on : forall e k, search fuel len ncols go_on e = Ok k -> k < len.
Proof.
  induction fuel as [|fuel IH]; intros e k; cbn [search]; [discriminate|].
  destruct (Nat.ltb_spec e len); [|discriminate]. destruct (go_on e); [|now intros [= <-]].
  destruct (Nat.ltb (S e) ncols); [apply IH|discriminate].
Qed.

Lemma inv_unlock g n j s : inv g [] s -> In n (a_icn s) -> inv g [] (with_L (set_at n j 0%Z (a_L s)) s).
Proof.
  intros H Hn. set (s' := with_L _ s).
  assert (LL : forall i k, a_L s' i k = if Nat.eqb i n && Nat.eqb k j then 0%Z else a_L s i k) by reflexivity.
  constructor; change (a_icn s') with (a_icn s); change (nn s') with (nn s); change (ne s') with (ne s).
  - exact (i_blocks _ _ _ H).
  - exact (i_aligned _ _ _ H).
  - exact (i_same _ _ _ H).
  - intros i k Hi Hk. rewrite LL. destruct (Nat.eqb i n && Nat.eqb k j); [now left|].
    now apply (i_L _ _ _ H).
  - intros i k Hi Hk. rewrite LL. destruct (Nat.eqb i n && Nat.eqb k j); [reflexivity|]. now apply (i_ec _ _ _ H).
  - exact (i_icn _ _ _ H).
  - exact (i_icn_lt _ _ _ H).
  - intros m k Hm Hk. rewrite LL. destruct (Nat.eqb m n && Nat.eqb k j); [reflexivity|]. now apply (i_datum _ _ _ H).
  - intros m k Hm Hk Hmi. change (a_icn s') with (a_icn s) in Hmi. change (a_nodes s') with (a_nodes s) in Hm.
    destruct (i_det _ _ _ H m k Hm Hk Hmi) as (f & [Hf|[]] & Hfl & L1 & L2 & L3).
    assert (Hmn : m <> n) by (intros ->; contradiction).
    exists f. split; [now left|]. split; [exact Hfl|]. split; [|split].
    + rewrite LL. destruct (Nat.eqb_spec m n); [contradiction|exact L1].
    + intros i Hi Hif. rewrite LL. destruct (Nat.eqb_spec m n); [contradiction|now apply L2].
    + intros i Hi Him. rewrite LL. destruct (Nat.eqb i n && Nat.eqb f j); [reflexivity|now apply L3].
Qed.

(** A row with two 1 is that of a node to determine. *)
Lemma row_icn g s n k : inv g [] s -> n < nn s -> nth_error (a_nodes s) n = Some k -> forall (len : nat) (idx : nat -> nat),
  (forall e, e < len -> idx e < ne s) -> (forall e e', e < len -> e' < len -> idx e = idx e' -> e = e') ->
  (1 < zsum len (fun e => a_L s n (idx e)))%Z -> In n (a_icn s).
Proof.
  intros H Hn Hk len idx Hidx Hinj Hs.
  destruct (in_dec Nat.eq_dec n (a_icn s)) as [|Hi]; [assumption|exfalso].
  destruct (string_dec k datum) as [->|Hd].
  - rewrite zsum_zero in Hs; [lia|]. intros e He. apply (i_datum _ _ _ H); [exact Hk|now apply Hidx].
  - destruct (i_det _ _ _ H n k Hk Hd Hi) as (f & _ & Hf & L1 & L2 & _).
    assert (D : (exists e, e < len /\ idx e = f) \/ (forall e, e < len -> idx e <> f)).
    { clear - Hidx. induction len as [|len IH]; [right; intros; lia|].
      destruct IH as [(e & He & E)|N]; [intros; apply Hidx; lia|left; exists e; split; [lia|exact E]|].
      destruct (Nat.eq_dec (idx len) f) as [E|E]; [left; exists len; split; [lia|exact E]|].
      right. intros e He. destruct (Nat.eq_dec e len) as [->|]; [exact E|apply N; lia]. }
    destruct D as [(e & He & E)|N].
    + assert (zsum len (fun e => a_L s n (idx e)) <= 1)%Z; [|lia]. apply (zsum_single _ _ e).
      * rewrite E, L1. lia.
      * intros j Hj Hje. apply L2; [now apply Hidx|]. intros F. apply Hje, Hinj; [exact Hj|exact He|congruence].
    + rewrite zsum_zero in Hs; [lia|]. intros e He. apply L2; [now apply Hidx|now apply N].
Qed.

Lemma unlock_ic_spec g s : inv g [] s -> forall rows, (forall n, In n rows -> n < nn s) ->
  forall n j, unlock_ic rows s = Ok (Some (n, j)) -> In n (a_icn s) /\ j < ne s.
Proof.
  intros H. induction rows as [|n rows IH]; intros Hr m j; cbn [unlock_ic]; [discriminate|].
  destruct (i_blocks _ _ _ H) as (a & b & c & E1 & E2 & E3 & N).
  destruct (Z.ltb_spec 1 (zsum (length (a_ic s)) (fun e => a_L s n (nth e (a_ic s) 0)))) as [Hs|];
    [|apply IH; intros; apply Hr; now right].
  destruct (search _ _ _ _ 0) as [e|] eqn:Es; [|discriminate]. cbn [rbind].
  destruct (Nat.eqb e 0); [apply IH; intros; apply Hr; now right|].
  intros [= <- <-]. apply search_spec in Es.
  assert (Hn : n < nn s) by (apply Hr; now left).
  destruct (nth_error (a_nodes s) n) as [k|] eqn:Ek; [|apply nth_error_None in Ek; unfold nn in Hn; lia].
  split.
  - apply (row_icn g s n k H Hn Ek (length (a_ic s)) (fun e => nth e (a_ic s) 0)).
    + intros e' He'. apply ic_lt; [apply (i_blocks _ _ _ H)|now apply nth_In].
    + intros e1 e2 H1 H2. rewrite E2 in *. rewrite seq_length in *. rewrite !seq_nth by assumption. lia.
    + exact Hs.
  - rewrite E1, seq_length. rewrite E2, seq_length in Es. unfold ne. lia.
Qed.

Lemma unlock_icfc_spec g s : inv g [] s -> forall rows, (forall n, In n rows -> n < nn s) ->
  forall ic0 n j, length (a_ec s) <= ic0 -> unlock_icfc ic0 rows s = Ok (Some (n, j)) -> In n (a_icn s).
Proof.
  intros H. induction rows as [|n rows IH]; intros Hr ic0 m j H0; cbn [unlock_icfc]; [discriminate|].
  destruct (Z.ltb_spec 1 (zsum (ne s - ic0) (fun e => a_L s n (ic0 + e)))) as [Hs|];
    [|apply IH; [intros; apply Hr; now right|exact H0]].
  destruct (search _ _ _ _ 0) as [e|] eqn:Es; [|discriminate]. cbn [rbind].
  destruct (Nat.eqb e _); [apply IH; [intros; apply Hr; now right|exact H0]|].
  intros [= <- <-].
  assert (Hn : n < nn s) by (apply Hr; now left).
  destruct (nth_error (a_nodes s) n) as [k|] eqn:Ek; [|apply nth_error_None in Ek; unfold nn in Hn; lia].
  apply (row_icn g s n k H Hn Ek (ne s - ic0) (fun e => ic0 + e)); [intros; lia|intros; lia|exact Hs].
Qed.

Lemma search_fuel len ncols go_on : forall fuel e, len - e < fuel -> search fuel len ncols go_on e <> Err OutOfFuel.
Proof.
  induction fuel as [|fuel IH]; intros e He; [lia|]. cbn [search].
  destruct (Nat.ltb_spec e len); [|discriminate]. destruct (go_on e); [|discriminate].
  destruct (Nat.ltb (S e) ncols); [apply IH; lia|discriminate].
Qed.

Lemma unlock_ic_fuel s rows : unlock_ic rows s <> Err OutOfFuel.
Proof.
  induction rows as [|n rows IH]; cbn [unlock_ic]; [discriminate|].
  destruct (Z.ltb _ _); [|exact IH].
  destruct (search _ _ _ _ 0) as [e|x] eqn:E; cbn [rbind].
  - destruct (Nat.eqb e 0); [exact IH|discriminate].
  - intros [= ->]. revert E. apply search_fuel. lia.
Qed.
Lemma unlock_icfc_fuel s rows ic0 : unlock_icfc ic0 rows s <> Err OutOfFuel.
Proof.
  induction rows as [|n rows IH]; cbn [unlock_icfc]; [discriminate|].
  destruct (Z.ltb _ _); [|exact IH].
  destruct (search _ _ _ _ 0) as [e|x] eqn:E; cbn [rbind].
  - destruct (Nat.eqb e _); [exact IH|discriminate].
  - intros [= ->]. revert E. apply search_fuel. lia.
Qed.

Lemma unlock_inv g s : inv g [] s -> inv g [] (fst (unlock s)) /\ snd (unlock s) <> Some OutOfFuel.
Proof.
  intros H. unfold unlock.
  assert (Hrows : forall n, In n (seq 0 (nn s)) -> n < nn s) by (intros n Hn; apply in_seq in Hn; lia).
  pose proof (unlock_ic_fuel s (seq 0 (nn s))) as Hf.
  destruct (unlock_ic (seq 0 (nn s)) s) as [[[n j]|]|x] eqn:E; cbn [alift].
  - split; [|discriminate]. apply inv_unlock; [exact H|]. now apply (unlock_ic_spec g s H _ Hrows n j).
  - change 0%Z with (Z.of_nat 0). rewrite py_get_nat.
    destruct (a_ic s) as [|ic0 l] eqn:Ei; cbn [nth_error alift]; [split; [exact H|discriminate]|].
    assert (Hic0 : length (a_ec s) <= ic0).
    { destruct (i_blocks _ _ _ H) as (a & b & c & E1 & E2 & E3 & N). rewrite E1, seq_length.
      rewrite Ei in E2. destruct b; [discriminate|]. injection E2 as -> _. lia. }
    pose proof (unlock_icfc_fuel s (seq 0 (nn s)) ic0) as Hf2.
    destruct (unlock_icfc ic0 (seq 0 (nn s)) s) as [[[n j]|]|x] eqn:E2; cbn [alift].
    + split; [|discriminate]. apply inv_unlock; [exact H|]. exact (unlock_icfc_spec g s H _ Hrows ic0 n j Hic0 E2).
    + split; [exact H|discriminate].
    + split; [exact H|]. cbn. congruence.
  - split; [exact H|]. cbn. congruence.
Qed.

(** ** perform: the invariant holds whatever the number of turns *)
Lemma iteration_inv g : forall fuel temp s, inv g [] s -> inv g [] (fst (iteration_loop fuel temp s)).
Proof.
  induction fuel as [|fuel IH]; intros temp s H; cbn [iteration_loop]; destruct (isequal _ _ _ _); try exact H.
  cbn zeta.
  assert (P1 : good g s (iterate_nodes s)) by (apply iterate_nodes_good; [exact H|lia]).
  destruct (iterate_nodes s) as [s1 [e1|]]; [exact (g_inv _ _ _ P1)|]. cbn [abind].
  pose proof (g_inv _ _ _ P1) as I1; cbn [fst] in I1.
  assert (P2 : good g s1 (iterate_fc s1)).
  { apply iterate_fc_good; [exact I1|]. intros e He. apply (class_lt s1 (i_blocks _ _ _ I1)). tauto. }
  destruct (iterate_fc s1) as [s2 [e2|]]; [exact (g_inv _ _ _ P2)|]. cbn [abind].
  pose proof (g_inv _ _ _ P2) as I2; cbn [fst] in I2.
  assert (P3 : good g s2 (iterate_ic s2)) by (apply iterate_ic_good; [exact I2|lia]).
  destruct (iterate_ic s2) as [s3 [e3|]]; [exact (g_inv _ _ _ P3)|]. cbn [abind].
  apply IH. exact (g_inv _ _ _ P3).
Qed.

Lemma perform_inv g : forall fuel s, inv g [] s -> inv g [] (fst (perform_loop fuel s)).
Proof.
  induction fuel as [|fuel IH]; intros s H; cbn [perform_loop]; destruct (pending s); try exact H.
  pose proof (iteration_inv g (S fuel) (fun _ _ => 1%Z) s H) as I1. unfold iteration.
  destruct (iteration_loop (S fuel) (fun _ _ => 1%Z) s) as [s1 [e1|]]; [exact I1|]. cbn [abind fst] in *.
  destruct (pending s1).
  - destruct (unlock_inv g s1 I1) as [I2 _]. destruct (unlock s1) as [s2 [e2|]]; [exact I2|]. cbn [abind fst] in *. now apply IH.
  - cbn [abind ret]. now apply IH.
Qed.

(** ** The constructor *)
Lemma rename_perm : forall os ns icn ext, length os = length ns -> Permutation icn (os ++ ext) ->
  exists icn', rename (combine os ns) icn = Ok icn' /\ Permutation icn' (ns ++ ext).
Proof.
  induction os as [|o os IH]; intros [|n ns] icn ext L P; try discriminate.
  - exists icn. split; [reflexivity|exact P].
  - cbn [combine rename].
    destruct (py_index_total Nat.eqb o icn) as (k & Ek & Hk).
    { exists o. split; [|apply Nat.eqb_refl]. eapply Permutation_in; [apply Permutation_sym, P|now left]. }
    rewrite Ek. cbn [rbind]. apply py_index_spec in Ek as (a & Ha & E). apply Nat.eqb_eq in E. subst a.
    assert (Ei : icn = firstn k icn ++ o :: skipn (S k) icn).
    { clear - Ha. revert k Ha; induction icn as [|b icn IH]; intros [|k]; cbn; try discriminate.
      - now intros [= ->].
      - intros H. f_equal. now apply IH. }
    assert (P' : Permutation (firstn k icn ++ skipn (S k) icn) (os ++ ext)).
    { apply (Permutation_cons_inv (a := o)). eapply Permutation_trans; [apply Permutation_middle|].
      rewrite <- Ei. exact P. }
    destruct (IH ns (firstn k icn ++ n :: skipn (S k) icn) (n :: ext)) as (icn' & R & Q).
    + now injection L.
    + eapply Permutation_trans; [apply Permutation_sym, Permutation_middle|].
      eapply Permutation_trans; [apply perm_skip, P'|]. apply Permutation_middle.
    + exists icn'. split; [exact R|]. eapply Permutation_trans; [exact Q|]. cbn.
      apply Permutation_sym, Permutation_middle.
Qed.

Lemma incidence_out_of nodes edges i j n e : nth_error nodes i = Some n -> nth_error edges j = Some e ->
  incidence nodes edges i j = out_of n e.
Proof.
  intros Hn He. unfold incidence, out_of. rewrite Hn, He.
  destruct (String.eqb_spec (e_src e) (e_dst e)) as [E|E].
  - rewrite E. destruct (String.eqb (e_dst e) n); reflexivity.
  - destruct (String.eqb_spec (e_src e) n) as [E1|E1], (String.eqb_spec (e_dst e) n) as [E2|E2]; try reflexivity. congruence.
Qed.

Lemma abs_out n e : Z.abs (out_of n e) = 0%Z \/ (Z.abs (out_of n e) = 1%Z /\ out_of n e <> 0%Z).
Proof. unfold out_of. destruct (String.eqb (e_src e) n), (String.eqb (e_dst e) n); cbn; lia. Qed.

Lemma start_inv g : graph_ok g -> exists s, start g = ret s /\ inv g [] s /\ a_ec s = [] /\ a_fc s = [] /\
  a_edges s = g_edges g.
Proof.
  intros [Hnd _]. unfold start.
  set (s0 := mkAna _ _ _ _ _ _ _ _). cbn zeta.
  assert (A0 : aligned s0) by (intros i j n e; apply incidence_out_of).
  assert (B0 : blocks s0).
  { exists 0, (length (g_edges g)), 0. cbn. repeat split. lia. }
  destruct (existsb (String.eqb datum) (g_nodes g)) eqn:Ed.
  - apply existsb_exists in Ed as (d & Hd & Ed). apply String.eqb_eq in Ed. subst d.
    destruct (py_index_total String.eqb datum (a_nodes s0)) as (k & Ek & Hk).
    { exists datum. split; [exact Hd|reflexivity]. }
    rewrite Ek. cbn [alift].
    assert (Hkd : nth_error (a_nodes s0) k = Some datum).
    { apply py_index_spec in Ek as (a & Ha & E). apply String.eqb_eq in E. now subst. }
    assert (H0 : 0 < length (a_nodes s0)) by lia.
    unfold move_node. change 0%Z with (Z.of_nat 0). unfold nn. rewrite myrange_mv by exact Hk. cbn [alift].
    destruct (pick_mv (a_nodes s0) k 0 Hk H0) as (nodes & En & Ln & Hnodes). rewrite En. cbn [alift a_nodes a_icn].
    assert (Lmv : length (mv (length (a_nodes s0)) k 0) = length (a_nodes s0)).
    { destruct (mv_spec (length (a_nodes s0)) k 0 Hk) as [P _]. apply Permutation_length in P.
      now rewrite seq_length in P. }
    destruct (rename_perm (seq 0 (length nodes)) (mv (length (a_nodes s0)) k 0) (a_icn s0) []) as (icn & Er & Pr).
    { now rewrite seq_length, Ln, Lmv. }
    { rewrite app_nil_r, Ln. reflexivity. }
    rewrite Er. cbn [alift abind ret with_icn with_L a_nodes].
    rewrite app_nil_r in Pr.
    assert (Pi : Permutation icn (seq 0 (length nodes))).
    { eapply Permutation_trans; [exact Pr|]. rewrite Ln. apply (mv_spec _ k 0 Hk). }
    assert (N0 : nth_error nodes 0 = Some datum).
    { rewrite Hnodes. destruct (Nat.ltb_spec 0 (length (a_nodes s0))); [|lia].
      replace (shift k 0 0) with k; [exact Hkd|]. unfold shift; natcase; lia. }
    assert (Pn : Permutation (a_nodes s0) nodes).
    { apply (moved_perm k 0); [exact Hk|exact H0|now split]. }
    assert (Nnd : NoDup nodes) by (eapply Permutation_NoDup; [exact Pn|exact Hnd]).
    assert (E0 : py_index String.eqb datum nodes = Ok 0).
    { destruct nodes as [|m nodes]; [discriminate|]. injection N0 as ->. reflexivity. }
    rewrite E0. cbn [alift with_L with_icn a_icn a_nodes a_edges a_G a_L a_ec a_ic a_fc].
    assert (H0' : 0 < length nodes) by lia.
    destruct (py_index_total Nat.eqb 0 icn) as (p & Ep & Hp).
    { exists 0. split; [|reflexivity]. eapply Permutation_in; [apply Permutation_sym, Pi|]. apply in_seq. lia. }
    rewrite Ep. cbn [alift].
    eexists. split; [reflexivity|].
    assert (Ei : icn = firstn p icn ++ 0 :: skipn (S p) icn).
    { apply py_index_spec in Ep as (a & Ha & E). apply Nat.eqb_eq in E. subst a. clear - Ha.
      revert p Ha; induction icn as [|b icn IH]; intros [|p]; cbn; try discriminate.
      - now intros [= ->].
      - intros H. f_equal. now apply IH. }
    set (icn' := firstn p icn ++ skipn (S p) icn) in *.
    assert (Pi' : Permutation (0 :: icn') (seq 0 (length nodes))).
    { eapply Permutation_trans; [|exact Pi]. rewrite Ei. apply Permutation_middle. }
    assert (Nd' : NoDup (0 :: icn')).
    { eapply Permutation_NoDup; [apply Permutation_sym, Pi'|apply seq_NoDup]. }
    assert (Hicn : forall n, In n icn' <-> 0 < n < length nodes).
    { intros n. split.
      - intros Hn. assert (Hs : In n (seq 0 (length nodes))) by (eapply Permutation_in; [exact Pi'|now right]).
        apply in_seq in Hs. inversion Nd'; subst. assert (n <> 0) by (intros ->; contradiction). lia.
      - intros Hn. assert (Hs : In n (0 :: icn')) by (eapply Permutation_in; [apply Permutation_sym, Pi'|apply in_seq; lia]).
        destruct Hs as [Hs|Hs]; [lia|exact Hs]. }
    match goal with |- inv g [] ?t /\ _ => set (s1 := t) end.
    assert (Frow : forall i, i < length nodes -> nth i (mv (length (a_nodes s0)) k 0) 0 = shift k 0 i).
    { intros i Hi. apply nth_mv; lia. }
    assert (LL : forall i j, i < length nodes -> a_L s1 i j = if Nat.eqb i 0 then 0%Z else a_L s0 (shift k 0 i) j).
    { intros i j Hi. unfold s1, with_L, with_icn, set_row, take_rows; cbn [a_L]. rewrite Frow by exact Hi. reflexivity. }
    assert (Hd0 : forall n, nth_error nodes n = Some datum -> n = 0).
    { intros n Hn. apply (NoDup_nth_error nodes); [exact Nnd|apply nth_error_Some; congruence|congruence]. }
    split; [|now repeat split].
    assert (A1 : aligned s1).
    { intros i j n e Hn He. change (a_nodes s1) with nodes in Hn. change (a_edges s1) with (g_edges g) in He.
      assert (Hi : i < length nodes) by (apply nth_error_Some; congruence).
      unfold s1, with_L, with_icn, take_rows; cbn [a_G]. rewrite Frow by exact Hi.
      apply incidence_out_of; [|exact He]. rewrite Hnodes in Hn. destruct (i <? _); [exact Hn|discriminate]. }
    constructor.
    + exact B0.
    + exact A1.
    + split; [exact Pn|reflexivity].
    + intros i j Hi Hj. change (nn s1) with (length nodes) in Hi. change (ne s1) with (length (g_edges g)) in Hj.
      rewrite LL by exact Hi. destruct (Nat.eqb_spec i 0) as [_|Hi0]; [now left|].
      destruct (nth_error nodes i) as [n|] eqn:Hn; [|apply nth_error_None in Hn; lia].
      destruct (nth_error (g_edges g) j) as [e|] eqn:He; [|apply nth_error_None in He; lia].
      rewrite (A1 i j n e Hn He). unfold s0; cbn [a_L]. rewrite (incidence_out_of _ _ _ _ n e); [apply abs_out| |exact He].
      rewrite Hnodes in Hn. destruct (i <? _); [exact Hn|discriminate].
    + intros i j _ [].
    + change (a_icn s1) with icn'. now inversion Nd'.
    + intros n Hn. change (a_icn s1) with icn' in Hn. change (nn s1) with (length nodes). change (a_nodes s1) with nodes.
      apply Hicn in Hn. split; [lia|]. intros F. apply Hd0 in F. lia.
    + intros n j Hn Hj. change (a_nodes s1) with nodes in Hn. apply Hd0 in Hn as ->. now rewrite LL.
    + intros n m Hn Hm Hi. change (a_nodes s1) with nodes in Hn. change (a_icn s1) with icn' in Hi.
      exfalso. apply Hi, Hicn. assert (n < length nodes) by (apply nth_error_Some; congruence).
      split; [|assumption]. destruct n; [|lia]. congruence.
  - exists s0. split; [reflexivity|]. split; [|now repeat split].
    assert (Hno : forall n, nth_error (g_nodes g) n <> Some datum).
    { intros n F. apply nth_error_In in F. assert (existsb (String.eqb datum) (g_nodes g) = true); [|congruence].
      apply existsb_exists. exists datum. now split. }
    constructor.
    + exact B0.
    + exact A0.
    + now split.
    + intros i j Hi Hj. change (nn s0) with (length (g_nodes g)) in Hi. change (ne s0) with (length (g_edges g)) in Hj.
      destruct (nth_error (g_nodes g) i) as [n|] eqn:Hn; [|apply nth_error_None in Hn; lia].
      destruct (nth_error (g_edges g) j) as [e|] eqn:He; [|apply nth_error_None in He; lia].
      unfold s0; cbn [a_L a_G]. rewrite (incidence_out_of _ _ _ _ n e Hn He). apply abs_out.
    + intros i j _ [].
    + apply seq_NoDup.
    + intros n Hn. cbn in Hn. apply in_seq in Hn. split; [unfold nn; cbn; lia|apply Hno].
    + intros n j Hn. now apply Hno in Hn.
    + intros n m Hn Hm Hi. exfalso. apply Hi. cbn in *. apply in_seq.
      assert (n < length (g_nodes g)) by (apply nth_error_Some; congruence). lia.
Qed.

Lemma known_edges_good g : forall fuel i s, inv g [] s -> length (a_ic s) - i <= fuel -> good g s (known_edges fuel i s).
Proof.
  induction fuel as [|fuel IH]; intros i s H Hf; cbn [known_edges].
  - destruct (Nat.ltb_spec i (length (a_ic s))); [lia|now apply good_ret].
  - destruct (Nat.ltb_spec i (length (a_ic s))) as [Hi|]; [|now apply good_ret].
    rewrite py_get_nat. destruct (nth_error (a_ic s) i) as [e|] eqn:Ee; [|apply nth_error_None in Ee; lia].
    cbn [alift]. apply nth_error_In in Ee. pose proof (ic_lt s e (i_blocks _ _ _ H) Ee) as He.
    rewrite py_get_nat. destruct (nth_error (a_edges s) e) as [d|] eqn:Ed; [|apply nth_error_None in Ed; unfold ne in He; lia].
    cbn [alift].
    destruct (String.eqb (e_ctrl d) "e").
    { destruct (set_edge_ec_good g e s H Ee) as [G1 G2]. apply good_bind; [exact G1|].
      intros s' <- I' _ _. apply IH; [exact I'|lia]. }
    destruct (String.eqb (e_ctrl d) "f"); [|apply IH; [exact H|lia]].
    destruct (Z.eqb_spec (colsum s e) 1) as [H1|].
    + destruct (col_index_total g [] s e H He ltac:(lia)) as [n En]. rewrite En. cbn [alift].
      apply col_index_spec in En as [Hn EL].
      assert (Hin : In n (a_icn s)).
      { destruct (in_dec Nat.eq_dec n (a_icn s)) as [|Hi']; [assumption|exfalso].
        destruct (nth_error (a_nodes s) n) as [k|] eqn:Ek; [|apply nth_error_None in Ek; unfold nn in Hn; lia].
        destruct (string_dec k datum) as [->|Hd].
        - rewrite (i_datum _ _ _ H n e Ek He) in EL. discriminate.
        - destruct (i_det _ _ _ H n k Ek Hd Hi') as (f & [Hfc|[]] & Hfl & L1 & L2 & _).
          destruct (Nat.eq_dec e f) as [->|Hef]; [|rewrite (L2 e He Hef) in EL; discriminate].
          destruct (i_blocks _ _ _ H) as (a & b & c & E1 & E2 & E3 & N).
          rewrite E2 in Ee. rewrite E3 in Hfc. apply in_seq in Ee, Hfc. lia. }
      rewrite (proj2 (in_nat n (a_icn s)) Hin).
      destruct (set_node_dc_good g n e s H Hin He EL) as (G1 & _ & G3). specialize (G3 Ee).
      apply good_bind; [exact G1|]. intros s' <- I' _ _. apply IH; [exact I'|lia].
    + destruct (set_edge_fc_good g e s H Ee) as [G1 G2]. apply good_bind; [exact G1|].
      intros s' <- I' _ _. apply IH; [exact I'|lia].
Qed.

Lemma init_inv g : graph_ok g -> inv g [] (fst (init_analysis g)) /\ snd (init_analysis g) <> Some OutOfFuel.
Proof.
  intros Hg. unfold init_analysis. destruct (start_inv g Hg) as (s & -> & H & _). cbn [abind ret].
  pose proof (known_edges_good g (length (a_ic s)) 0 s H ltac:(lia)) as G. split; apply G.
Qed.
