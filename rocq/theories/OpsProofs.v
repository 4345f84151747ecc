(** Invariants kept by every call. *)
From Coq Require Import String List ZArith QArith Qreals Reals Bool Lra Lia.
From Verif Require Import Py Tools Lists Spec_Tools ToolsProofs Expr RSum Mat MatProofs Core
  Spec_Core Spec_Ops StructProofs.
Import ListNotations.
Local Open Scope nat_scope.

Lemma olift_inv (P : core -> Prop) {A} (r : result A) c f :
  P c -> (forall a, r = Ok a -> P (fst (f a))) -> P (fst (olift r c f)).
Proof. intros Hc Hf. destruct r; cbn; auto. Qed.

Lemma obind_inv (P : core -> Prop) (o : outcome) f :
  P (fst o) -> (forall c, P c -> P (fst (f c))) -> P (fst (obind o f)).
Proof. intros Ho Hf. destruct o as [c [e|]]; cbn; auto. Qed.

Lemma in_firstn {A} n (l : list A) x : In x (firstn n l) -> In x l.
Proof. intros H. rewrite <- (firstn_skipn n l). apply in_or_app. now left. Qed.
Lemma in_skipn {A} n (l : list A) x : In x (skipn n l) -> In x l.
Proof. intros H. rewrite <- (firstn_skipn n l). apply in_or_app. now right. Qed.
Lemma in_py_slice {A} (l : list A) a b x : In x (py_slice l a b) -> In x l.
Proof. unfold py_slice. intros H. eapply in_skipn, in_firstn, H. Qed.
Lemma py_get_in {A} (l : list A) i x : py_get l i = Ok x -> In x l.
Proof.
  unfold py_get. destruct (_ <? 0)%Z; [discriminate|].
  destruct (nth_error l _) eqn:E; [|discriminate]. intros [= <-]. eapply nth_error_In, E.
Qed.

Lemma myrange_bound N i f idx : myrange N i f = Ok idx -> forall k, In k idx -> k < N.
Proof.
  unfold myrange. intros H k Hk.
  assert (In k (seq 0 N)) as Hin; [|apply in_seq in Hin; lia].
  destruct (i <? f)%Z; [|destruct (f <? i)%Z].
  - destruct (py_get (seq 0 N) i) as [e|] eqn:E; [|discriminate]. injection H as <-.
    repeat match goal with
    | H : In _ (_ ++ _) |- _ => apply in_app_or in H as [H|H]
    | H : In _ (_ :: _) |- _ => destruct H as [H|H]
    end; try (eapply in_py_slice, Hk); try (now destruct Hk).
    subst. eapply py_get_in, E.
  - destruct (py_get (seq 0 N) i) as [e|] eqn:E; [|discriminate]. injection H as <-.
    repeat match goal with
    | H : In _ (_ ++ _) |- _ => apply in_app_or in H as [H|H]
    | H : In _ (_ :: _) |- _ => destruct H as [H|H]
    end; try (eapply in_py_slice, Hk); try (now destruct Hk).
    subst. eapply py_get_in, E.
  - injection H as <-. exact Hk.
Qed.

Lemma pick_len {A} (l l' : list A) idx : pick l idx = Ok l' -> length l' = length idx.
Proof.
  unfold pick. revert l'; induction idx as [|k idx IH]; intros l'; cbn.
  - intros [= <-]. reflexivity.
  - destruct (py_get l _); [|discriminate]. cbn.
    destruct (rmap _ idx); [|discriminate]. cbn. intros [= <-]. cbn. now rewrite (IH _ eq_refl).
Qed.

Lemma pick_total {A} (l : list A) idx : (forall k, In k idx -> k < length l) ->
  exists l', pick l idx = Ok l' /\ length l' = length idx.
Proof. intros H. destruct (pick_ok l idx H) as (l' & E & L & _). eauto. Qed.

Lemma moveM_frame i f c : exists M', fst (moveM i f c) = set_M M' c.
Proof.
  unfold moveM. destruct (is_zero _).
  - exists (c_M c). now destruct c.
  - destruct (movesquare _ _ _); cbn; [eauto|]. exists (c_M c). now destruct c.
Qed.

Lemma py_remove_len x l l' : py_remove String.eqb x l = Ok l' -> S (length l') = length l.
Proof.
  revert l'; induction l as [|a l IH]; intros l'; cbn; [discriminate|].
  destruct (String.eqb a x); [now intros [= <-]|].
  destruct (py_remove _ x l); [|discriminate]. cbn. intros [= <-]. cbn. now rewrite (IH _ eq_refl).
Qed.

Lemma py_remove_total x l : In x l -> exists l', py_remove String.eqb x l = Ok l'.
Proof.
  induction l as [|a l IH]; [intros []|]. cbn. destruct (String.eqb_spec a x); [eauto|].
  intros [->|H]; [contradiction|]. destruct (IH H) as [l' ->]. cbn. eauto.
Qed.

Lemma py_get_same {A B} (l1 : list A) (l2 : list B) i a :
  length l1 = length l2 -> py_get l1 i = Ok a -> exists b, py_get l2 i = Ok b.
Proof.
  intros H. unfold py_get. rewrite H.
  destruct (_ <? 0)%Z; [discriminate|].
  destruct (nth_error l1 _) eqn:E; [|discriminate]. intros _.
  destruct (nth_error l2 _) eqn:E2; [eauto|].
  apply nth_error_None in E2. assert (nth_error l1 _ <> None) as Hn by (rewrite E; discriminate).
  apply nth_error_Some in Hn. lia.
Qed.

Lemma paired_moveM i f c : paired c -> paired (fst (moveM i f c)).
Proof. intros H. destruct (moveM_frame i f c) as [M' ->]. exact H. Qed.

Lemma paired_move_stor i f c : paired c -> paired (fst (move_stor i f c)).
Proof.
  intros H. unfold move_stor.
  apply olift_inv; [exact H|]. intros idx _.
  apply olift_inv; [exact H|]. intros x' _. cbn zeta.
  apply obind_inv.
  - cbn. destruct (c_dxH c); [|exact H]. apply olift_inv; [exact H|]. intros d' _. exact H.
  - intros c' H'. now apply paired_moveM.
Qed.

Lemma paired_move_diss i f c : paired c -> paired (fst (move_diss i f c)).
Proof.
  intros H. unfold move_diss. destruct H as (Hw & Hu & Hc).
  apply olift_inv; [repeat split; assumption|]. intros idx Hidx.
  assert (B := myrange_bound _ _ _ _ Hidx).
  apply olift_inv; [repeat split; assumption|]. intros w' Ew. cbn zeta.
  destruct (pick_total (c_z c) idx) as (z' & Ez & Lz); [intros k Hk; rewrite <- Hw; auto|].
  change (c_z (set_w w' c)) with (c_z c). rewrite Ez. cbn [olift].
  assert (P : paired (set_z z' (set_w w' c))).
  { repeat split; cbn; try assumption. rewrite (pick_len _ _ _ Ew). congruence. }
  apply obind_inv; [now apply paired_moveM|]. intros c' H'.
  destruct (_ && _); [|destruct (negb _); exact H'].
  apply olift_inv; [exact H'|]. intros Z' _. exact H'.
Qed.

Lemma paired_move_port i f c : paired c -> paired (fst (move_port i f c)).
Proof.
  intros H. unfold move_port. destruct H as (Hw & Hu & Hc).
  apply olift_inv; [repeat split; assumption|]. intros idx Hidx.
  assert (B := myrange_bound _ _ _ _ Hidx).
  apply olift_inv; [repeat split; assumption|]. intros u' Eu. cbn zeta.
  destruct (pick_total (c_y c) idx) as (y' & Ey & Ly); [auto|].
  change (c_y (set_u u' c)) with (c_y c). rewrite Ey. cbn [olift].
  apply paired_moveM. repeat split; cbn; try assumption.
  rewrite (pick_len _ _ _ Eu). congruence.
Qed.

Lemma paired_move_connector i f c : paired c -> paired (fst (move_connector i f c)).
Proof.
  intros H. unfold move_connector. destruct H as (Hw & Hu & Hc).
  apply olift_inv; [repeat split; assumption|]. intros idx Hidx.
  assert (B := myrange_bound _ _ _ _ Hidx).
  apply olift_inv; [repeat split; assumption|]. intros u' Eu. cbn zeta.
  destruct (pick_total (c_cy c) idx) as (y' & Ey & Ly); [auto|].
  change (c_cy (set_cu u' c)) with (c_cy c). rewrite Ey. cbn [olift].
  apply paired_moveM. repeat split; cbn; try assumption.
  rewrite (pick_len _ _ _ Eu). congruence.
Qed.

Lemma paired_port2connector i c : paired c -> paired (fst (port2connector i c)).
Proof.
  intros H. unfold port2connector. apply obind_inv; [now apply paired_moveM|].
  clear c H. intros c (Hw & Hu & Hc).
  destruct (py_get (c_u c) i) as [ui|] eqn:Eu; cbn [olift]; [|repeat split; assumption].
  change (c_y (set_cu _ c)) with (c_y c).
  destruct (py_get_same (c_u c) (c_y c) i ui Hu Eu) as [yi Ey]. rewrite Ey. cbn [olift].
  destruct (py_remove_total ui (c_u c)) as [u' Ru]; [eapply py_get_in, Eu|].
  destruct (py_remove_total yi (c_y c)) as [y' Ry]; [eapply py_get_in, Ey|].
  cbn [c_u c_y set_cu set_cy set_u]. rewrite Ru. cbn [olift].
  cbn [c_u c_y set_cu set_cy set_u]. rewrite Ry. cbn [olift ok fst].
  apply py_remove_len in Ru. apply py_remove_len in Ry.
  repeat split; cbn.
  - assumption.
  - lia.
  - rewrite !app_length. cbn. lia.
Qed.

Lemma paired_add_connector i0 i1 a c : paired c -> paired (fst (add_connector i0 i1 a c)).
Proof.
  intros H. unfold add_connector.
  destruct (i0 =? i1)%Z; [exact H|].
  destruct (negb _); [exact H|].
  apply olift_inv; [exact H|]. intros u0 _.
  apply olift_inv; [exact H|]. intros y0 _.
  destruct (negb _); [exact H|].
  apply olift_inv; [exact H|]. intros u1 _.
  apply olift_inv; [exact H|]. intros y1 _. cbn zeta.
  apply obind_inv.
  - apply paired_port2connector. exact H.
  - intros. now apply paired_port2connector.
Qed.

Lemma paired_connect_sort l i c : paired c -> paired (fst (connect_sort l i c)).
Proof.
  revert i c; induction l as [|k l IH]; intros i c H; cbn [connect_sort]; [exact H|].
  apply olift_inv; [exact H|]. intros ip _.
  apply obind_inv; [now apply paired_move_connector|]. intros c1 H1.
  apply olift_inv; [exact H1|]. intros id _.
  apply obind_inv; [now apply paired_move_connector|]. intros c2 H2. now apply IH.
Qed.

Lemma paired_connect inv c : paired c -> paired (fst (connect inv c)).
Proof.
  intros H. unfold connect. apply obind_inv; [now apply paired_connect_sort|].
  intros c1 H1. cbn zeta. apply olift_inv; [exact H1|]. intros N _.
  destruct (rbind _ _) as [M'|[]]; try exact H1.
  destruct H1 as (Hw & Hu & Hc). repeat split; assumption.
Qed.

Lemma paired_split_loop mf mv_fun last arg fuel A n c :
  (forall i f c, paired c -> paired (fst (mv_fun i f c))) ->
  paired c -> paired (fst (fst (split_loop mf mv_fun last arg fuel A n c))).
Proof.
  intros Hm. revert A n c; induction fuel as [|fuel IH]; intros A n c H; cbn; [exact H|].
  destruct (disjoint _ _); [now apply IH|].
  specialize (Hm (Z.of_nat n) (last c) c H).
  destruct (mv_fun _ _ c) as [c' [e|]]; cbn in *; [exact Hm|].
  destruct (mf _ _ _); [|exact Hm]. now apply IH.
Qed.

Lemma paired_linear_nonlinear cr c : paired c -> paired (fst (linear_nonlinear cr c)).
Proof.
  intros H. unfold linear_nonlinear.
  destruct (match cr with None => _ | Some _ => _ end) as [[crx crw] mf].
  destruct (split_loop mf move_stor _ (snd crx) _ _ 0 c) as [o nxl] eqn:E.
  assert (Ho : paired (fst o)).
  { change o with (fst (o, nxl)). rewrite <- E. apply paired_split_loop; [|exact H].
    intros. now apply paired_move_stor. }
  apply obind_inv; [exact Ho|]. clear c H E Ho o. intros c H.
  destruct (split_loop mf move_diss _ (snd crw) _ _ 0 c) as [o nwl] eqn:E.
  assert (Ho : paired (fst o)).
  { change o with (fst (o, nwl)). rewrite <- E. apply paired_split_loop; [|exact H].
    intros. now apply paired_move_diss. }
  apply obind_inv; [exact Ho|]. clear c H E Ho o. intros c H. cbn zeta.
  apply olift_inv; [exact H|]. intros Qx _. exact H.
Qed.

Lemma paired_mono_loop fuel h n c : paired c -> paired (fst (fst (mono_loop fuel h n c))).
Proof.
  revert h n c; induction fuel as [|fuel IH]; intros h n c H; cbn; [exact H|].
  destruct (forallb _ _); [now apply IH|].
  pose proof (paired_move_stor (dim_xl c + Z.of_nat n) (dim_x c - 1) c H) as Hm.
  destruct (move_stor _ _ c) as [c' [e|]]; cbn in *; [exact Hm|].
  destruct (movesquare _ _ _); [|exact Hm]. now apply IH.
Qed.

Lemma paired_monovar c : paired c -> paired (fst (monovar_multivar c)).
Proof.
  intros H. unfold monovar_multivar.
  pose proof (paired_mono_loop (Z.to_nat (dim_xnl c)) (hessian (c_H c) (xnl_of c)) 0 c H) as Hm.
  destruct (mono_loop _ _ _ _) as [o n]. apply obind_inv; [exact Hm|]. intros c' H'. exact H'.
Qed.

Lemma paired_force_loop fuel i c : paired c -> paired (fst (force_loop fuel i c)).
Proof.
  revert i c; induction fuel as [|fuel IH]; intros i c H; cbn [force_loop]; [exact H|].
  apply olift_inv; [exact H|]. intros s _.
  destruct (py_in _ _ _); [|now apply IH].
  apply obind_inv; [now apply paired_move_diss|]. intros c' H'. now apply IH.
Qed.

Lemma py_slice_length {A B} (l1 : list A) (l2 : list B) a b :
  length l1 = length l2 -> length (py_slice l1 a b) = length (py_slice l2 a b).
Proof. intros H. unfold py_slice. rewrite !firstn_length, !skipn_length, H. reflexivity. Qed.

Lemma paired_reduce_z inv c : paired c -> paired (fst (reduce_z inv c)).
Proof.
  intros H. unfold reduce_z. apply obind_inv; [now apply paired_linear_nonlinear|].
  clear c H. intros c H. cbn zeta.
  apply obind_inv.
  - destruct (_ =? 0)%Z; [exact H|]. apply obind_inv; [now apply paired_force_loop|].
    intros c' H'. exact H'.
  - clear c H. intros c H. apply olift_inv; [exact H|]. intros M' _.
    destruct H as (Hw & Hu & Hc). repeat split; cbn; try assumption.
    now apply py_slice_length.
Qed.

Lemma set_block_frame p a b V c : exists M', fst (set_block p a b V c) = set_M M' c.
Proof.
  unfold set_block.
  set (c0 := if Nat.eqb (nr (c_M c)) (Z.to_nat (dim_tot c)) then c
             else set_M (zeros (Z.to_nat (dim_tot c)) (Z.to_nat (dim_tot c))) c).
  assert (E : exists M0, c0 = set_M M0 c).
  { unfold c0. destruct (Nat.eqb _ _); [exists (c_M c); now destruct c|eauto]. }
  clearbody c0. destruct E as [M0 ->].
  match goal with |- context [olift ?r (set_M M0 c) _] => destruct r as [[Mab Mba]|e] end;
    cbn [olift]; [|eexists; reflexivity].
  destruct (inds (set_M M0 c) a) as [d e]. destruct (inds (set_M M0 c) b) as [d' e'].
  destruct (massign _ _ _ _ _ Mab); cbn [olift]; [|eexists; reflexivity].
  destruct (blk_eqb a b); [eexists; reflexivity|].
  destruct (massign _ _ _ _ _ Mba); cbn [olift]; eexists; reflexivity.
Qed.

Lemma paired_apply_op inv o c : paired c -> paired (fst (apply_op inv o c)).
Proof.
  intros H. destruct o; cbn [apply_op].
  - destruct x, H0; exact H.
  - destruct H as (Hw & Hu & Hc).
    destruct w as [w|w|], z as [z|z|]; cbn; try (repeat split; assumption).
    + repeat split; cbn; try assumption. rewrite !app_length. cbn. lia.
    + destruct (Nat.eqb_spec (length w) (length z)); cbn; repeat split; cbn; try assumption.
      rewrite !app_length. lia.
  - destruct H as (Hw & Hu & Hc).
    destruct u as [u|u|], y as [y|y|]; cbn; try (repeat split; assumption).
    + repeat split; cbn; try assumption. rewrite !app_length. cbn. lia.
    + destruct (Nat.eqb_spec (length u) (length y)); cbn; repeat split; cbn; try assumption.
      rewrite !app_length. lia.
  - destruct p; exact H.
  - exact H.
  - now apply paired_add_connector.
  - now apply paired_port2connector.
  - now apply paired_connect.
  - destruct (set_block_frame p a b V c) as [M' ->]. exact H.
  - exact H.
  - exact H.
  - exact H.
  - now apply paired_move_stor.
  - now apply paired_move_diss.
  - now apply paired_move_port.
  - now apply paired_move_connector.
  - now apply paired_linear_nonlinear.
  - now apply paired_monovar.
  - now apply paired_reduce_z.
Qed.

(** The sum of two cores: only the structure matrix is touched by the loops. *)
Lemma add_blocks_frame l c1 c2 c : exists M', fst (add_blocks l c1 c2 c) = set_M M' c.
Proof.
  revert c; induction l as [|[a b] l IH]; intros c; cbn [add_blocks].
  - exists (c_M c). now destruct c.
  - destruct (rbind _ _) as [Mij|e]; cbn [olift]; [|exists (c_M c); now destruct c].
    assert (F : exists M', fst ((if (0 <? nr Mij) && (0 <? nc Mij) then set_block PM a b Mij c else ok c) : outcome) = set_M M' c).
    { destruct (_ && _); [apply set_block_frame|]. exists (c_M c). now destruct c. }
    revert F.
    destruct (if (0 <? nr Mij) && (0 <? nc Mij) then set_block PM a b Mij c else ok c) as [c' [e|]];
      cbn [obind fst]; intros F; [exact F|].
    destruct F as [M' ->]. destruct (IH (set_M M' c)) as [M'' ->]. exists M''. reflexivity.
Qed.

Lemma reset_blocks_frame l c : exists M', fst (reset_blocks l c) = set_M M' c.
Proof.
  revert c; induction l as [|[a b] l IH]; intros c; cbn [reset_blocks].
  - exists (c_M c). now destruct c.
  - destruct (get_block PM a b c) as [Mij|e]; cbn [olift]; [|exists (c_M c); now destruct c].
    assert (F : exists M', fst ((if (0 <? nr Mij) && (0 <? nc Mij) then set_block PM a b Mij c else ok c) : outcome) = set_M M' c).
    { destruct (_ && _); [apply set_block_frame|]. exists (c_M c). now destruct c. }
    revert F.
    destruct (if (0 <? nr Mij) && (0 <? nc Mij) then set_block PM a b Mij c else ok c) as [c' [e|]];
      cbn [obind fst]; intros F; [exact F|].
    destruct F as [M' ->]. destruct (IH (set_M M' c)) as [M'' ->]. exists M''. reflexivity.
Qed.

Lemma core_add_frame c1 c2 c : core_add c1 c2 = (c, None) ->
  c_x c = c_x c1 ++ c_x c2 /\ c_w c = c_w c1 ++ c_w c2 /\ c_z c = c_z c1 ++ c_z c2 /\
  c_u c = c_u c1 ++ c_u c2 /\ c_y c = c_y c1 ++ c_y c2 /\
  c_cu c = c_cu c1 ++ c_cu c2 /\ c_cy c = c_cy c1 ++ c_cy c2 /\ c_p c = c_p c1 ++ c_p c2 /\
  c_H c = sadd (c_H c1) (c_H c2) /\ c_connectors c = c_connectors c1 ++ c_connectors c2 /\
  c_force_wnl c = c_force_wnl c1 ++ c_force_wnl c2 /\ c_label c = c_label c1 /\
  c_subs c = dict_update (dict_update [] (c_subs c1)) (c_subs c2) /\
  c_observers c = dict_update (dict_update [] (c_observers c1)) (c_observers c2) /\
  c_dxH c = None /\ c_xl c = 0%Z /\ c_wl c = 0%Z /\ c_xnl_mono c = 0%Z.
Proof.
  unfold core_add. cbn zeta.
  set (c0 := set_x _ _).
  destruct (add_blocks_frame block_pairs c1 c2 c0) as [M' HM'].
  destruct (add_blocks block_pairs c1 c2 c0) as [c' [e|]]; cbn [obind]; [discriminate|].
  cbn in HM'. subst c'.
  set (cc := set_force_wnl _ _).
  destruct (reset_blocks_frame block_pairs cc) as [M'' HM''].
  destruct (reset_blocks block_pairs cc) as [c'' o]; cbn in HM''. intros [= <- _]. subst c''.
  unfold cc, c0. cbn. repeat split.
Qed.

Lemma paired_reachable inv c : reachable inv c -> paired c.
Proof.
  induction 1 as [label|o c _ IH|c1 c2 c _ IH1 _ IH2 E].
  - repeat split.
  - now apply paired_apply_op.
  - apply core_add_frame in E as (_ & Ew & Ez & Eu & Ey & Ecu & Ecy & _).
    destruct IH1 as (A1 & A2 & A3), IH2 as (B1 & B2 & B3).
    unfold paired. rewrite Ew, Ez, Eu, Ey, Ecu, Ecy, !app_length. lia.
Qed.

(** ** Failing additions *)
Lemma add_storages_spec x H c :
  (exists c', add_storages x H c = ok c') \/ (exists e, add_storages x H c = raise e c).
Proof. destruct x, H; cbn; eauto. Qed.

Lemma add_dissipations_unchanged w z c e :
  snd (add_dissipations w z c) = Some e -> fst (add_dissipations w z c) = c.
Proof. destruct w, z; cbn; try discriminate; try reflexivity. destruct (Nat.eqb _ _); cbn; [discriminate|reflexivity]. Qed.

Lemma add_ports_unchanged u y c e :
  snd (add_ports u y c) = Some e -> fst (add_ports u y c) = c.
Proof. destruct u, y; cbn; try discriminate; try reflexivity. destruct (Nat.eqb _ _); cbn; [discriminate|reflexivity]. Qed.

Lemma add_storages_unchanged x H c e :
  snd (add_storages x H c) = Some e -> fst (add_storages x H c) = c.
Proof. destruct x, H; cbn; try discriminate; reflexivity. Qed.

Lemma failing_additions : forall c e,
  (forall x H, snd (add_storages x H c) = Some e -> fst (add_storages x H c) = c) /\
  (forall w z, snd (add_dissipations w z c) = Some e -> fst (add_dissipations w z c) = c) /\
  (forall u y, snd (add_ports u y c) = Some e -> fst (add_ports u y c) = c).
Proof.
  intros c e. repeat split; intros.
  - eapply add_storages_unchanged; eassumption.
  - eapply add_dissipations_unchanged; eassumption.
  - eapply add_ports_unchanged; eassumption.
Qed.

Lemma successful_additions : forall c,
  (forall w z c', add_dissipations w z c = ok c' -> exists ws zs,
     (w = Many ws /\ z = Many zs \/ exists s e, w = One s /\ z = One e /\ ws = [s] /\ zs = [e]) /\
     c' = set_z (c_z c ++ zs) (set_w (c_w c ++ ws) c) /\ length ws = length zs) /\
  (forall u y c', add_ports u y c = ok c' -> exists us ys,
     (u = Many us /\ y = Many ys \/ exists s e, u = One s /\ y = One e /\ us = [s] /\ ys = [e]) /\
     c' = set_y (c_y c ++ ys) (set_u (c_u c ++ us) c) /\ length us = length ys).
Proof.
  intros c. split.
  - intros w z c' H. destruct w as [w|w|], z as [z|z|]; cbn in H; try discriminate.
    + injection H as <-. exists [w], [z]. split; [right; eauto 10|]. now split.
    + destruct (Nat.eqb_spec (length w) (length z)); [|discriminate]. injection H as <-.
      exists w, z. split; [now left|]. now split.
  - intros w z c' H. destruct w as [w|w|], z as [z|z|]; cbn in H; try discriminate.
    + injection H as <-. exists [w], [z]. split; [right; eauto 10|]. now split.
    + destruct (Nat.eqb_spec (length w) (length z)); [|discriminate]. injection H as <-.
      exists w, z. split; [now left|]. now split.
Qed.

Lemma successful_storages : forall c x H c', add_storages x H c = ok c' ->
  exists xs h, (x = Many xs \/ exists s, x = One s /\ xs = [s]) /\ H = One h /\
    c_x c' = c_x c ++ xs /\
    (forall r, eval r (c_H c') = eval r (c_H c) + eval r h)%R /\
    c' = set_H (c_H c') (set_x (c_x c') c).
Proof.
  intros c x H c' E. destruct x as [x|x|], H as [h|h|]; cbn in E; try discriminate;
    injection E as <-.
  - exists [x], h. split; [right; eauto|]. repeat split. intros r. apply ExprProofs.eval_sadd.
  - exists x, h. split; [now left|]. repeat split. intros r. apply ExprProofs.eval_sadd.
Qed.
