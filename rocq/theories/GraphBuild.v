(** The core built from a graph: C26, C46. *)
From Coq Require Import String List ZArith QArith Qreals Reals Bool Lia Lra Permutation.
From Verif Require Import Py Tools Lists Expr ExprProofs RSum Mat MatProofs Core Spec_Core StructProofs SplitProofs ReduceProofs
  Graph Spec_Graph GraphProofs GraphAnalysis GraphDeclared GraphKirchhoff.
Import ListNotations.
Local Open Scope string_scope.
Local Open Scope list_scope.
Local Open Scope nat_scope.

Lemma Q2R_inject z : Q2R (inject_Z z) = IZR z.
Proof. unfold Q2R, inject_Z; cbn. lra. Qed.

(** ** perform *)
Lemma perform_done fuel : forall s s', perform_loop fuel s = ret s' -> pending s' = false.
Proof.
  induction fuel as [|fuel IH]; intros s s'; cbn [perform_loop]; destruct (pending s) eqn:E; try discriminate; try (now intros [= <-]).
  destruct (iteration (S fuel) s) as [s1 [e1|]]; [discriminate|]. cbn [abind].
  destruct (if pending s1 then unlock s1 else ret s1) as [s2 [e2|]]; [discriminate|]. cbn [abind]. apply IH.
Qed.

Lemma pending_false s : pending s = false -> a_ic s = [] /\ a_icn s = [].
Proof.
  unfold pending. intros H. apply Nat.ltb_ge in H.
  split; apply length_zero_iff_nil; lia.
Qed.

(** ** The structure matrix *)
Lemma build_J_spec s B J : build_J s B = Ok J ->
  let n := nn s - 1 in let m := length (a_ec s) in
  length (a_fc s) = n /\ nr J = length (all_edges s) /\ nc J = length (all_edges s) /\
  forall r i j, ev r J i j = Jof m n (fun i j => IZR (a_G s (S i) j)) (fun i j => Q2R (B i j))
    (nth i (all_edges s) 0%nat) (nth j (all_edges s) 0%nat).
Proof.
  cbn zeta. unfold build_J.
  destruct (mmul_ok (qmat (nn s - 1) (nn s - 1) B) (qmat (nn s - 1) (length (a_ec s)) (gamma_ec s)) eq_refl)
    as (gam & -> & G1 & G2 & G3). cbn [rbind]. cbn [nr nc qmat] in G1, G2, G3.
  unfold hstack. cbn [stack].
  destruct (hstack2_ok (zeros (length (a_ec s)) (length (a_ec s))) (mtrans gam)) as (top & -> & T1 & T2 & T3).
  { cbn. now rewrite G2. }
  cbn [rbind]. unfold hstack2 at 1. cbn [nr nc zeros mneg mscal].
  destruct (Nat.eqb_spec (nr gam) (length (a_fc s))) as [Ef|]; [|discriminate]. cbn [rbind vstack stack].
  unfold vstack2. cbn [nr nc]. rewrite T1, T2. cbn [nr nc zeros mtrans].
  rewrite G1, G2 in *.
  destruct (Nat.eqb_spec (length (a_ec s) + (nn s - 1)) (length (a_ec s) + length (a_fc s))) as [_|]; [|discriminate].
  cbn [rbind]. intros [= <-]. split; [lia|]. split; [reflexivity|]. split; [reflexivity|].
  intros r i j. unfold ev, mfancy; cbn [ent].
  assert (Gv : forall k q, eval r (ent gam k q) = mm (nn s - 1) (fun i j => Q2R (B i j)) (fun i j => IZR (a_G s (S i) j)) k q).
  { intros k q. change (eval r (ent gam k q)) with (ev r gam k q). rewrite G3. unfold mm. apply rsum_ext. intros l _.
    unfold ev, qmat, gamma_ec; cbn [ent eval]. now rewrite Q2R_inject. }
  set (p := nth i (all_edges s) 0%nat). set (q := nth j (all_edges s) 0%nat). unfold Jof.
  destruct (Nat.ltb_spec p (length (a_ec s))) as [Hp|Hp].
  - rewrite T3. cbn [nc zeros ent mtrans]. destruct (Nat.ltb_spec q (length (a_ec s))) as [Hq|Hq].
    + cbn. apply Q2R_0.
    + apply Gv.
  - destruct (Nat.ltb_spec q (length (a_ec s))) as [Hq|Hq].
    + rewrite eval_smul, Gv. cbn [eval]. rewrite Q2R_m1. lra.
    + cbn. apply Q2R_0.
Qed.

(** ** Lists of edges *)
Lemma filter_split {A} (p : A -> bool) l : Permutation l (filter p l ++ filter (fun x => negb (p x)) l).
Proof.
  induction l as [|a l IH]; [reflexivity|]. cbn. destruct (p a); cbn.
  - now apply perm_skip.
  - eapply Permutation_trans; [apply perm_skip, IH|]. apply Permutation_middle.
Qed.

Lemma filter_filter {A} (p q : A -> bool) l : filter p (filter q l) = filter (fun x => q x && p x) l.
Proof.
  induction l as [|a l IH]; [reflexivity|]. cbn. destruct (q a); cbn; [destruct (p a); now rewrite IH|exact IH].
Qed.

Lemma kinds_split {A} (t : A -> string) l : (forall a, In a l -> In (t a) kinds) ->
  Permutation l (filter (fun a => String.eqb (t a) "storage") l ++ filter (fun a => String.eqb (t a) "dissipative") l ++
                 filter (fun a => String.eqb (t a) "port") l ++ filter (fun a => String.eqb (t a) "connector") l).
Proof.
  intros H. eapply Permutation_trans; [apply (filter_split (fun a => String.eqb (t a) "storage"))|].
  apply Permutation_app_head.
  eapply Permutation_trans; [apply (filter_split (fun a => String.eqb (t a) "dissipative"))|]. rewrite !filter_filter.
  assert (E2 : filter (fun x => negb (String.eqb (t x) "storage") && String.eqb (t x) "dissipative") l =
               filter (fun a => String.eqb (t a) "dissipative") l).
  { apply filter_ext_in. intros a _. destruct (String.eqb_spec (t a) "dissipative") as [->|]; [reflexivity|apply andb_false_r]. }
  rewrite E2. apply Permutation_app_head.
  eapply Permutation_trans; [apply (filter_split (fun a => String.eqb (t a) "port"))|]. rewrite !filter_filter.
  apply Permutation_app.
  - erewrite filter_ext_in; [reflexivity|]. intros a _.
    destruct (String.eqb (t a) "port") eqn:E; [apply String.eqb_eq in E; rewrite E; reflexivity|now rewrite andb_false_r].
  - erewrite filter_ext_in; [reflexivity|]. intros a Ha. cbn beta.
    destruct (H a Ha) as [E|[E|[E|[E|[]]]]]; rewrite <- E; reflexivity.
Qed.

Lemma edges_of_filter t s : edges_of t s = filter (fun k => String.eqb (e_type (edge_at s k)) t) (seq 0 (ne s)).
Proof.
  unfold edges_of. apply filter_ext_in. intros k Hk. apply in_seq in Hk. unfold edge_at.
  rewrite (nth_error_nth' (a_edges s) noedge) by (unfold ne in Hk; lia). reflexivity.
Qed.

Lemma all_edges_perm s : (forall e, In e (a_edges s) -> In (e_type e) kinds) -> Permutation (all_edges s) (seq 0 (ne s)).
Proof.
  intros H. unfold all_edges. rewrite !edges_of_filter. apply Permutation_sym.
  apply (kinds_split (fun k => e_type (edge_at s k))). intros k Hk. apply in_seq in Hk. apply H, nth_In.
  unfold ne in Hk. lia.
Qed.

Lemma map_filter_seq (s : ana) t : map (label_at s) (edges_of t s) = map e_label (of_kind t (a_edges s)).
Proof.
  rewrite edges_of_filter. unfold label_at, ne, edge_at. generalize (a_edges s) as l. intros l.
  induction l as [|e l IH]; [reflexivity|]. cbn [length seq filter of_kind nth].
  rewrite <- seq_shift.
  assert (E : forall p : nat -> bool, filter p (map S (seq 0 (length l))) = map S (filter (fun k => p (S k)) (seq 0 (length l)))).
  { intros p. generalize (seq 0 (length l)). intros q. induction q as [|a q IHq]; [reflexivity|]. cbn.
    destruct (p (S a)); cbn; now rewrite IHq. }
  rewrite E. cbn [nth]. unfold of_kind in *. cbn [filter].
  destruct (String.eqb (e_type e) t); cbn [map]; rewrite map_map; cbn [nth]; [f_equal|]; exact IH.
Qed.

Lemma labels_at_ok s l : (forall k, In k l -> k < ne s) -> labels_at s l = Ok (map (label_at s) l).
Proof.
  unfold labels_at. induction l as [|k l IH]; intros H; [reflexivity|]. cbn [rmap].
  rewrite py_get_nat, (nth_error_nth' (a_edges s) noedge) by (apply H; now left). cbn [rbind].
  rewrite IH by (intros; apply H; now right). reflexivity.
Qed.

Lemma edges_of_lt t s k : In k (edges_of t s) -> k < ne s.
Proof. unfold edges_of. intros H. apply filter_In in H as [H _]. apply in_seq in H. lia. Qed.

(** Picking the positions of names gives the names. *)
Lemma pick_positions names : forall l idx l', positions names l = Ok idx -> pick l idx = Ok l' -> l' = names.
Proof.
  intros l. unfold positions, pick. induction names as [|a names IH]; intros idx l'; cbn [rmap].
  - intros [= <-] [= <-]. reflexivity.
  - destruct (py_index String.eqb a l) as [k|] eqn:Ek; [|discriminate]. cbn [rbind].
    destruct (rmap _ names) as [ks|] eqn:Eks; [|discriminate]. cbn [rbind]. intros [= <-]. cbn [rmap].
    rewrite py_get_nat. apply py_index_spec in Ek as (b & Hb & E). apply String.eqb_eq in E. subst b. rewrite Hb. cbn [rbind].
    destruct (rmap _ ks) as [l2|] eqn:E2; [|discriminate]. cbn [rbind]. intros [= <-]. f_equal. now apply (IH ks).
Qed.

Lemma rmap_nth {A B} (f : A -> result B) l l' : rmap f l = Ok l' -> forall k b, nth_error l' k = Some b ->
  exists a, nth_error l k = Some a /\ f a = Ok b.
Proof.
  revert l'; induction l as [|a l IH]; intros l'; cbn.
  - intros [= <-] [|k]; discriminate.
  - destruct (f a) as [b|] eqn:E; [|discriminate]. cbn. destruct (rmap f l) as [bs|]; [|discriminate]. cbn. intros [= <-] [|k] b'; cbn.
    + intros [= <-]. exists a. now split.
    + now apply IH.
Qed.

Lemma rmap_length {A B} (f : A -> result B) l l' : rmap f l = Ok l' -> length l' = length l.
Proof.
  revert l'; induction l as [|a l IH]; intros l'; cbn; [now intros [= <-]|].
  destruct (f a); [|discriminate]. cbn. destruct (rmap f l); [|discriminate]. cbn. intros [= <-]. cbn. now rewrite (IH _ eq_refl).
Qed.

Lemma pick_pair {A B} (l1 : list A) (l2 : list B) idx l1' l2' : pick l1 idx = Ok l1' -> pick l2 idx = Ok l2' ->
  length l1' = length l2' /\
  forall k a b, nth_error l1' k = Some a -> nth_error l2' k = Some b -> exists q, nth_error l1 q = Some a /\ nth_error l2 q = Some b.
Proof.
  unfold pick. intros H1 H2. split; [now rewrite (rmap_length _ _ _ H1), (rmap_length _ _ _ H2)|].
  intros k a b Ha Hb. destruct (rmap_nth _ _ _ H1 k a Ha) as (q & Hq & Eq). destruct (rmap_nth _ _ _ H2 k b Hb) as (q' & Hq' & Eq').
  rewrite Hq in Hq'. injection Hq' as <-. exists q. rewrite py_get_nat in Eq. rewrite py_get_nat in Eq'.
  destruct (nth_error l1 q); [|discriminate]. destruct (nth_error l2 q); [|discriminate]. split; congruence.
Qed.

(** ** The laws *)
Lemma select_laws_spec s w : forall l z z', (forall k, In k l -> k < ne s) -> NoDup (map (label_at s) l) ->
  select_laws l s w z = Ok z' -> length z' = length z /\
  (forall k, (forall e, In e l -> py_index String.eqb (label_at s e) w <> Ok k) -> nth_error z' k = nth_error z k) /\
  (forall e k, In e l -> py_index String.eqb (label_at s e) w = Ok k -> k < length z ->
     nth_error z' k = Some (if py_in Nat.eqb e (a_ec s) then e_ze (edge_at s e) else e_zf (edge_at s e))).
Proof.
  induction l as [|e l IH]; intros z z' Hl Hn; cbn [select_laws].
  - intros [= <-]. repeat split. intros e k [].
  - assert (He : e < ne s) by (apply Hl; now left).
    rewrite py_get_nat, (nth_error_nth' (a_edges s) noedge) by exact He. cbn [rbind]. fold (edge_at s e). fold (label_at s e).
    destruct (py_index String.eqb (label_at s e) w) as [k|] eqn:Ek; [|discriminate]. cbn [rbind].
    set (law := if py_in Nat.eqb e (a_ec s) then Ok (e_ze (edge_at s e)) else _).
    destruct law as [x|] eqn:El; [|discriminate]. cbn [rbind]. intros Hz.
    cbn in Hn. inversion Hn as [|? ? Hn1 Hn2]; subst.
    destruct (IH _ z' (fun k Hk => Hl k (or_intror Hk)) Hn2 Hz) as (L & K1 & K2). rewrite update_nth_length in L.
    split; [exact L|]. split.
    + intros q Hq. rewrite K1 by (intros e' He'; apply Hq; now right). rewrite update_nth_nth.
      destruct (Nat.eqb_spec q k) as [->|]; [|reflexivity]. exfalso. apply (Hq e); [now left|exact Ek].
    + intros e' q He' Eq Hq. destruct (in_dec Nat.eq_dec e' l) as [Hin|Hout].
      { apply K2; [exact Hin|exact Eq|now rewrite update_nth_length]. }
      destruct He' as [<-|]; [|contradiction]. rewrite Ek in Eq. injection Eq as <-.
      rewrite K1.
      * rewrite update_nth_nth, Nat.eqb_refl. destruct (nth_error z k) eqn:Ez; [|apply nth_error_None in Ez; lia].
        cbn [option_map]. unfold law in El. destruct (py_in Nat.eqb e (a_ec s)); [congruence|].
        destruct (py_in Nat.eqb e (a_fc s)); congruence.
      * intros e' He' E'. apply Hn1. apply py_index_spec in Ek as (b & Hb & E). apply String.eqb_eq in E. subst b.
        apply py_index_spec in E' as (b & Hb' & E). apply String.eqb_eq in E. subst b. rewrite Hb in Hb'. injection Hb' as Hb'.
        rewrite Hb'. now apply in_map.
Qed.

(** ** set_core *)
Lemma set_core_spec s J c0 c : set_core s J c0 = Ok c -> NoDup (map e_label (a_edges s)) ->
  c_x c = map (label_at s) (edges_of "storage" s) /\ c_w c = map (label_at s) (edges_of "dissipative" s) /\
  c_y c = map (label_at s) (edges_of "port" s) /\ c_cy c = map (label_at s) (edges_of "connector" s) /\
  c_M c = J /\ pairs_kept c0 c /\ length (c_z c) = length (c_w c) /\
  (forall q e, nth_error (edges_of "dissipative" s) q = Some e ->
     nth_error (c_z c) q = Some (if py_in Nat.eqb e (a_ec s) then e_ze (edge_at s e) else e_zf (edge_at s e))) /\
  conn_alphas (edges_of "connector" s) s (c_connectors c0) = Ok (c_connectors c).
Proof.
  intros H Nl. unfold set_core in H.
  assert (Lt : forall t k, In k (edges_of t s) -> k < ne s) by (intros t k; apply edges_of_lt).
  rewrite !labels_at_ok in H by apply Lt. cbn [rbind] in H.
  destruct (positions (map (label_at s) (edges_of "storage" s)) (c_x c0)) as [ix|] eqn:Eix; [|discriminate]. cbn [rbind] in H.
  destruct (pick (c_x c0) ix) as [x|] eqn:Ex; [|discriminate]. cbn [rbind] in H.
  destruct (positions (map (label_at s) (edges_of "dissipative" s)) (c_w c0)) as [iw|] eqn:Eiw; [|discriminate]. cbn [rbind] in H.
  destruct (pick (c_w c0) iw) as [w|] eqn:Ew; [|discriminate]. cbn [rbind] in H.
  destruct (pick (c_z c0) iw) as [z|] eqn:Ez; [|discriminate]. cbn [rbind] in H.
  destruct (positions (map (label_at s) (edges_of "port" s)) (c_y c0)) as [iy|] eqn:Eiy; [|discriminate]. cbn [rbind] in H.
  destruct (pick (c_y c0) iy) as [y|] eqn:Ey; [|discriminate]. cbn [rbind] in H.
  destruct (pick (c_u c0) iy) as [u|] eqn:Eu; [|discriminate]. cbn [rbind] in H.
  destruct (positions (map (label_at s) (edges_of "connector" s)) (c_cy c0)) as [ic|] eqn:Eic; [|discriminate]. cbn [rbind] in H.
  destruct (conn_alphas _ s (c_connectors c0)) as [ks|] eqn:Eks; [|discriminate]. cbn [rbind] in H.
  destruct (pick (c_cy c0) ic) as [cy|] eqn:Ecy; [|discriminate]. cbn [rbind] in H.
  destruct (pick (c_cu c0) ic) as [cu|] eqn:Ecu; [|discriminate]. cbn [rbind] in H.
  destruct (select_laws _ s w z) as [z'|] eqn:Ez'; [|discriminate]. cbn [rbind] in H.
  injection H as <-. cbn [c_x c_w c_y c_cy c_M c_z c_u c_cu c_connectors set_M set_connectors set_cu set_cy set_y set_u set_z set_w set_x].
  pose proof (pick_positions _ _ _ _ Eix Ex) as Px. pose proof (pick_positions _ _ _ _ Eiw Ew) as Pw.
  pose proof (pick_positions _ _ _ _ Eiy Ey) as Py. pose proof (pick_positions _ _ _ _ Eic Ecy) as Pc.
  destruct (pick_pair _ _ _ _ _ Eu Ey) as [Lu Ku]. destruct (pick_pair _ _ _ _ _ Ecu Ecy) as [Lc Kc].
  destruct (pick_pair _ _ _ _ _ Ew Ez) as [Lw _].
  assert (Nw : NoDup (map (label_at s) (edges_of "dissipative" s))).
  { rewrite map_filter_seq. clear - Nl. unfold of_kind. induction (a_edges s) as [|e l IH]; [constructor|].
    cbn in Nl. inversion Nl as [|? ? N1 N2]; subst. cbn. destruct (String.eqb _ _); [|now apply IH]. cbn. constructor; [|now apply IH].
    intros F. apply N1. apply in_map_iff in F as (d & <- & Hd). apply filter_In in Hd as [Hd _]. now apply in_map. }
  destruct (select_laws_spec s w _ z z' (Lt "dissipative") Nw Ez') as (Lz & _ & Kz).
  split; [exact Px|]. split; [exact Pw|]. split; [exact Py|]. split; [exact Pc|]. split; [reflexivity|].
  split; [split; [exact Lu|split; [exact Lc|split; [exact Ku|exact Kc]]]|]. split; [lia|]. split; [|reflexivity].
  intros q e Hq. apply Kz.
  - eapply nth_error_In, Hq.
  - subst w. assert (Hq' : nth_error (map (label_at s) (edges_of "dissipative" s)) q = Some (label_at s e))
      by (rewrite nth_error_map, Hq; reflexivity).
    destruct (py_index_total String.eqb (label_at s e) (map (label_at s) (edges_of "dissipative" s))) as (k & Ek & Lk).
    { exists (label_at s e). split; [eapply nth_error_In, Hq'|apply String.eqb_refl]. }
    rewrite Ek. f_equal. apply py_index_spec in Ek as (b & Hb & E). apply String.eqb_eq in E. subst b.
    apply (proj1 (NoDup_nth_error _) Nw); [exact Lk|congruence].
  - rewrite <- Lw, Pw, map_length. apply nth_error_Some. congruence.
Qed.

(** ** build_core *)
Definition eff_labels (s : ana) : list string := map (label_at s) (a_ec s).
Definition flo_labels (s : ana) : list string := map (label_at s) (a_fc s).

Lemma build_core_inv inv0 fuel g c : graph_ok g -> build_core inv0 fuel g = Ok c ->
  exists s0 s B J, init_analysis g = ret s0 /\ perform_loop fuel s0 = ret s /\ inv g [] s /\ a_ic s = [] /\ a_icn s = [] /\
    inv0 (nn s - 1) (gamma_fc s) = Some B /\ build_J s B = Ok J /\ set_core s J (g_core g) = Ok c.
Proof.
  intros Hg. unfold build_core. destruct (init_inv g Hg) as [I0 _].
  destruct (init_analysis g) as [s0 [e|]]; [discriminate|]. cbn [fst] in I0.
  unfold perform. pose proof (perform_inv g fuel s0 I0) as I1. pose proof (perform_done fuel s0) as D.
  destruct (perform_loop fuel s0) as [s [e|]] eqn:Ep; [discriminate|]. cbn [fst] in I1.
  destruct (Nat.eqb _ _); [|discriminate]. destruct (inv0 _ _) as [B|] eqn:EB; [|discriminate].
  destruct (build_J s B) as [J|] eqn:EJ; [|discriminate]. cbn [rbind]. intros Hc.
  destruct (pending_false s (D s eq_refl)) as [E1 E2].
  exists s0, s, B, J. split; [reflexivity|]. split; [exact Ep|]. split; [exact I1|]. now repeat split.
Qed.

Lemma nth_map_lab (l : list nat) (s : ana) i : i < length l -> nth i (map (label_at s) l) "" = label_at s (nth i l 0).
Proof. intros H. rewrite (nth_indep _ "" (label_at s 0)) by now rewrite map_length. apply map_nth. Qed.

Lemma existsb_in x l : existsb (String.eqb x) l = true <-> In x l.
Proof.
  rewrite existsb_exists. split.
  - intros (y & Hy & E). apply String.eqb_eq in E. now subst.
  - intros H. exists x. split; [exact H|apply String.eqb_refl].
Qed.

Lemma label_inj s i j : NoDup (map e_label (a_edges s)) -> i < ne s -> j < ne s -> label_at s i = label_at s j -> i = j.
Proof.
  intros N Hi Hj E. apply (proj1 (NoDup_nth_error _) N); [now rewrite map_length|].
  rewrite !nth_error_map, !(nth_error_nth' (a_edges s) noedge) by assumption. cbn. f_equal. exact E.
Qed.

Lemma of_kind_perm g s t : same_graph g s -> Permutation (map e_label (of_kind t (a_edges s))) (map e_label (of_kind t (g_edges g))).
Proof.
  intros [_ P].
  assert (E : forall l, map e_label (of_kind t l) = map e_label (of_kind t (map (set_alpha None) l))).
  { intros l. unfold of_kind. induction l as [|e l IH]; [reflexivity|]. cbn. destruct (String.eqb (e_type e) t); cbn; now rewrite IH. }
  rewrite (E (a_edges s)), (E (g_edges g)). apply Permutation_map.
  unfold of_kind. apply Permutation_sym. clear E. revert P. generalize (map (set_alpha None) (g_edges g)), (map (set_alpha None) (a_edges s)).
  intros l l' P. induction P; cbn; [reflexivity| | |].
  - destruct (String.eqb _ _); [now apply perm_skip|assumption].
  - destruct (String.eqb (e_type x) t), (String.eqb (e_type y) t); try reflexivity. apply perm_swap.
  - now transitivity (filter (fun e => String.eqb (e_type e) t) l').
Qed.

Lemma and_iff_compat' (P Q : nat -> Prop) n N (A B : Prop) : N = S n -> (forall i, P i <-> Q i) -> A <-> B ->
  (forall i, i < n -> P i) /\ A <-> (forall i, S i < N -> Q i) /\ B.
Proof.
  intros -> H [E1 E2]. split; intros [H1 H2]; (split; [intros i Hi|auto]); apply H, H1; lia.
Qed.

Theorem build_structure inv0 fuel g c : graph_ok g -> typed g -> NoDup (map e_label (g_edges g)) -> qinv_correct inv0 ->
  build_core inv0 fuel g = Ok c -> exists s0 s, init_analysis g = ret s0 /\ perform_loop fuel s0 = ret s /\ inv g [] s /\ a_ic s = [] /\
  conn_alphas (edges_of "connector" s) s (c_connectors (g_core g)) = Ok (c_connectors c) /\
  let eff := eff_labels s in let flo := flo_labels s in
  Permutation (map e_label (g_edges g)) (eff ++ flo) /\ rows_are_edges g c /\ conservative_structure g c eff /\
  laws_match g c eff /\ pairs_kept (g_core g) c /\ (free_links (g_edges g) -> declared (g_edges g) eff flo).
Proof.
  intros Hg Ht Nl Hinv Hb.
  destruct (build_core_inv inv0 fuel g c Hg Hb) as (s0 & s & B & J & E0 & Ep & I & Eic & Eicn & EB & EJ & Ec).
  pose proof (i_same _ _ _ I) as Hs.
  assert (Pl := labels_perm g s Hs).
  assert (Nl' : NoDup (map e_label (a_edges s))) by (eapply Permutation_NoDup; eauto).
  assert (Ne : length (g_edges g) = ne s). { apply Permutation_length in Pl. now rewrite !map_length in Pl. }
  destruct (i_blocks _ _ _ I) as (a & b & k & B1 & B2 & B3 & N). fold (ne s) in N.
  rewrite Eic in B2. assert (b = 0) by (destruct b; [reflexivity|discriminate]). subst b. rewrite Nat.add_0_r in *.
  destruct (set_core_spec s J (g_core g) c Ec Nl') as (Cx & Cw & Cy & Cc & CM & Cp & Cz & Cl & Ck).
  destruct (build_J_spec s B J EJ) as (Fn & Jr & Jc & Jv). rewrite B3, seq_length in Fn. rewrite B1, seq_length in Jv.
  assert (Ty : forall e, In e (a_edges s) -> In (e_type e) kinds).
  { intros e He. destruct (same_edges_in g s e Hs He) as (e' & He' & E). apply (f_equal e_type) in E. cbn in E. rewrite E. now apply Ht. }
  pose proof (all_edges_perm s Ty) as Pa.
  assert (La : length (all_edges s) = ne s) by (rewrite (Permutation_length Pa); apply seq_length).
  assert (Nm : names c = map (label_at s) (all_edges s)).
  { unfold names, all_edges. rewrite Cx, Cw, Cy, Cc, !map_app. reflexivity. }
  assert (Ein : forall j, j < ne s -> existsb (String.eqb (label_at s j)) (eff_labels s) = Nat.ltb j a).
  { intros j Hj. unfold eff_labels. rewrite B1. destruct (Nat.ltb_spec j a) as [Hja|Hja].
    - apply existsb_in, in_map, in_seq. lia.
    - apply Bool.not_true_is_false. intros F. apply existsb_in, in_map_iff in F as (q & Eq & Hq). apply in_seq in Hq.
      apply (label_inj s q j Nl') in Eq; lia. }
  exists s0, s. split; [exact E0|]. split; [exact Ep|]. split; [exact I|]. split; [exact Eic|]. split; [exact Ck|]. cbn zeta.
  split; [|split; [|split; [|split; [|split; [exact Cp|]]]]].
  - eapply Permutation_trans; [exact Pl|]. unfold eff_labels, flo_labels. rewrite <- map_app, B1, B3, <- seq_app, N.
    assert (E : map e_label (a_edges s) = map (label_at s) (seq 0 (ne s))); [|now rewrite E].
    unfold label_at, edge_at, ne. clear. generalize (a_edges s). intros l. induction l as [|e l IH]; [reflexivity|].
    cbn. f_equal. rewrite IH, <- seq_shift, map_map. reflexivity.
  - unfold rows_are_edges. rewrite Cx, Cw, Cy, Cc, !map_filter_seq. repeat split; now apply of_kind_perm.
  - unfold conservative_structure. rewrite CM, Ne, Jr, Jc, La. split; [reflexivity|]. split; [reflexivity|]. split.
    + intros r i j. unfold Mv. rewrite CM. change (ev r J i j = - ev r J j i)%R. rewrite !Jv. apply Jof_skew.
    + intros r v f.
      destruct (Nat.eq_dec (nn s) 0) as [Hz|Hz].
      { assert (Gn : g_nodes g = []).
        { unfold nn in Hz. apply length_zero_iff_nil in Hz. destruct Hs as [P _]. rewrite Hz in P.
          now apply Permutation_sym, Permutation_nil in P. }
        assert (Ge : g_edges g = []).
        { destruct (g_edges g) as [|e l] eqn:E; [reflexivity|]. destruct Hg as [_ He]. specialize (He e). rewrite E, Gn in He.
          destruct He as [[] _]. now left. }
        rewrite <- Ne, Ge. split; [|intros _ i Hi; cbn in Hi; lia]. intros _. split.
        - intros n. now rewrite Gn.
        - exists (fun _ => 0%R). intros e. now rewrite Ge. }
      rewrite (node_law_rows g s f Hg I) by lia. rewrite (loop_law_rows g s v Hg I) by lia.
      assert (HB : is_inverse (nn s - 1) (fun i j => Gr s (S i) (a + j)%nat) (fun i j => Q2R (B i j))).
      { apply Hinv in EB. destruct EB as [K1 K2]. assert (La' : length (a_ec s) = a) by now rewrite B1, seq_length.
        split; intros i j Hi Hj; [rewrite <- (K1 i j Hi Hj)|rewrite <- (K2 i j Hi Hj)]; unfold mm; apply rsum_ext; intros q _;
          unfold gamma_fc, Gr; rewrite La', Q2R_inject; reflexivity. }
      pose proof (kirchhoff_rows a (nn s - 1) (fun i j => Gr s (S i) j) _ _ HB (fun j => f (label_at s j)) (fun j => v (label_at s j))) as KR.
      assert (Nk : ne s = a + (nn s - 1)) by lia.
      transitivity (b_eq_M_a (a + (nn s - 1)) (Jof a (nn s - 1) (fun i j => Gr s (S i) j) (fun i j => Q2R (B i j)))
                      (fun j => if j <? a then f (label_at s j) else v (label_at s j))
                      (fun j => if j <? a then v (label_at s j) else f (label_at s j))).
      * rewrite <- Nk. symmetry.
        eapply iff_trans; [apply (solve_renum (ne s) _ (Mv r c) (all_edges s)); [exact Pa|]|].
        -- intros i j Hi Hj. unfold Mv. rewrite CM. change (eval r (ent J i j)) with (ev r J i j). apply Jv.
        -- assert (Lt : forall i, i < ne s -> nth i (all_edges s) 0 < ne s).
           { intros i Hi. eapply perm_lt; eauto. }
           unfold b_eq_M_a. split; intros H i Hi; specialize (H i Hi).
           ++ unfold given. rewrite Nm, nth_map_lab, Ein by (rewrite ?La; auto). rewrite H. apply rsum_ext. intros j Hj.
              unfold received. rewrite nth_map_lab, Ein by (rewrite ?La; auto). reflexivity.
           ++ unfold given in H. rewrite Nm, nth_map_lab, Ein in H by (rewrite ?La; auto). rewrite H. apply rsum_ext. intros j Hj.
              unfold received. rewrite nth_map_lab, Ein by (rewrite ?La; auto). reflexivity.
      * eapply iff_trans; [exact KR|]. rewrite Nk.
        apply and_iff_compat'; [lia| |].
        -- intros i. rewrite rsum_app. reflexivity.
        -- split; intros (p & Hp); exists p.
           ++ intros j Hj. destruct Hp as [H1 H2]. destruct (le_lt_dec a j) as [Hja|Hja]; [|now apply H1].
              replace j with (a + (j - a)) by lia. apply H2. lia.
           ++ split; intros j Hj; apply Hp; lia.
  - split; [exact Cz|]. intros e q He Te Hq.
    rewrite Cw, nth_error_map in Hq. destruct (nth_error (edges_of "dissipative" s) q) as [k'|] eqn:Ek; [|discriminate].
    injection Hq as Hq. assert (Hk : k' < ne s) by (eapply edges_of_lt, nth_error_In, Ek).
    rewrite (Cl q k' Ek), <- Hq, Ein by exact Hk.
    assert (E : set_alpha None (edge_at s k') = set_alpha None e).
    { destruct (same_edges_in' g s e Hs He) as (e' & He' & E). rewrite E. apply In_nth with (d := noedge) in He' as (k2 & Hk2 & E2).
      assert (k' = k2); [|subst k2; unfold edge_at; now rewrite E2]. apply (label_inj s k' k2 Nl' Hk Hk2). rewrite Hq.
      unfold label_at, edge_at. rewrite E2. exact (f_equal e_label E). }
    assert (Ez : e_ze (edge_at s k') = e_ze e) by exact (f_equal e_ze E).
    assert (Ef : e_zf (edge_at s k') = e_zf e) by exact (f_equal e_zf E).
    rewrite Ez, Ef. f_equal.
    assert (Ep' : py_in Nat.eqb k' (a_ec s) = (k' <? a)); [|now rewrite Ep'].
    rewrite B1. destruct (Nat.ltb_spec k' a) as [Hka|Hka].
    + apply in_nat, in_seq. lia.
    + apply Bool.not_true_is_false. intros F. apply in_nat, in_seq in F. lia.
  - intros Fl. pose proof (init_settled g s0 Hg Nl Fl E0) as St.
    pose proof (proj1 (init_inv g Hg)) as I0. rewrite E0 in I0. cbn [fst ret] in I0.
    pose proof (settled_perform g fuel s0 I0 St) as [(_ & R1 & R2) _]. rewrite Ep in R1, R2. cbn [fst ret] in R1, R2.
    intros e He. destruct (same_edges_in' g s e Hs He) as (e' & He' & E).
    apply In_nth_error in He' as (j & Hj). assert (Hjn : j < ne s) by (apply nth_error_Some; congruence).
    assert (El : e_label e = label_at s j).
    { unfold label_at, edge_at. rewrite (nth_error_nth _ _ _ Hj). exact (f_equal e_label E). }
    assert (Ect : e_ctrl e = e_ctrl e') by exact (f_equal e_ctrl E).
    rewrite El, Ect. destruct (le_lt_dec a j) as [Hja|Hja].
    + assert (Hfc : In j (a_fc s)) by (rewrite B3; apply in_seq; lia). split; intros Hc.
      * exfalso. now apply (R2 j e' Hfc Hj).
      * unfold flo_labels. now apply in_map.
    + assert (Hec : In j (a_ec s)) by (rewrite B1; apply in_seq; lia). split; intros Hc.
      * unfold eff_labels. now apply in_map.
      * exfalso. now apply (R1 j e' Hec Hj).
Qed.
