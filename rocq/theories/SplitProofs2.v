(** Proofs about [linear_nonlinear] and [monovar_multivar]. *)
From Coq Require Import String List ZArith QArith Qreals Reals Bool Lra Lia Permutation Sorted.
From Verif Require Import Py Tools Lists Spec_Tools ToolsProofs Expr ExprProofs RSum Mat MatProofs
  Core Spec_Core Spec_Split StructProofs ConnectProofs SplitProofs.
Import ListNotations.
Local Open Scope string_scope.
Local Open Scope list_scope.
Local Open Scope nat_scope.
#[local] Arguments Nat.ltb : simpl never.
#[local] Arguments Nat.leb : simpl never.

Lemma sorted_seq s n : StronglySorted lt (seq s n).
Proof.
  revert s. induction n as [|n IH]; intros s; cbn; constructor; [apply IH|].
  apply Forall_forall. intros x Hx. apply in_seq in Hx. lia.
Qed.
Lemma sorted_filter (P : nat -> bool) l : StronglySorted lt l -> StronglySorted lt (filter P l).
Proof.
  induction 1 as [|a l _ IH HF]; cbn; [constructor|].
  destruct (P a); [|exact IH]. constructor; [exact IH|].
  apply Forall_forall. intros x Hx. apply filter_In in Hx. rewrite Forall_forall in HF. now apply HF.
Qed.

Lemma part_stable N P (Lin : nat -> Prop) : (forall j, j < N -> P j = true <-> Lin j) ->
  stable_partition N (length (filter P (seq 0 N))) Lin (part N P).
Proof.
  intros HP. exists (filter P (seq 0 N)), (filter (fun j => negb (P j)) (seq 0 N)).
  split; [reflexivity|]. split; [reflexivity|].
  split; [rewrite <- state_N; now apply state_perm|].
  split; [apply sorted_filter, sorted_seq|]. split; [apply sorted_filter, sorted_seq|].
  split; apply Forall_forall; intros j Hj; apply filter_In in Hj; destruct Hj as [Hj E];
    apply in_seq in Hj.
  - apply HP; [lia|exact E].
  - intros HL. apply HP in HL; [|lia]. rewrite HL in E. discriminate.
Qed.

Lemma free_column_spec A args j :
  disjoint (col_symbols A j) args = true <-> free_column A args j.
Proof.
  rewrite disjoint_spec. unfold free_column. split.
  - intros H i s Hi Hs. apply H. apply in_col_symbols. eauto.
  - intros H s Hs. apply in_col_symbols in Hs. destruct Hs as (i & Hi & Hs). eauto.
Qed.

(** ** Lists read through a renumbering *)

Lemma fol_names p c c' : wf c -> fol p c c' -> forall k, k < ntot c ->
  nth_error (c_x c' ++ c_w c' ++ c_u c' ++ c_cu c') k =
  nth_error (c_x c ++ c_w c ++ c_u c ++ c_cu c) (p k).
Proof.
  intros W F k Hk. rewrite <- !names_comps by (try assumption; apply F).
  rewrite !nth_error_map. destruct F as (_ & _ & _ & HC & _). now rewrite HC.
Qed.

Lemma list_from_nth {A} (d : A) l l' s : length l' = length s ->
  (forall k, k < length s -> nth_error l' k = Some (nth (nth k s 0) l d)) -> l' = in_order d l s.
Proof.
  intros HL H. unfold in_order. apply nth_ext_error. intros k.
  destruct (Nat.ltb_spec k (length s)) as [Hk|Hk].
  - rewrite H by exact Hk. rewrite nth_error_map.
    rewrite (nth_error_nth' s 0) by exact Hk. reflexivity.
  - rewrite (proj2 (nth_error_None l' k)) by lia.
    symmetry. apply nth_error_None. rewrite map_length. lia.
Qed.

Lemma nth_error_in_range {A} (l : list A) d k : k < length l -> nth_error l k = Some (nth k l d).
Proof. apply nth_error_nth'. Qed.

Lemma fol_x c c' s : wf c -> fol (at_block 0 s) c c' -> Permutation s (seq 0 (length (c_x c))) ->
  length (c_x c') = length (c_x c) -> c_x c' = in_order "" (c_x c) s.
Proof.
  intros W F HP HL.
  assert (Ls : length s = length (c_x c)) by (rewrite (Permutation_length HP); apply seq_length).
  apply list_from_nth; [lia|]. intros k Hk.
  assert (Hn : k < ntot c) by (unfold ntot; lia).
  pose proof (fol_names _ _ _ W F k Hn) as E.
  unfold at_block in E. cbn [plus] in E. rewrite (proj2 (Nat.leb_le 0 k)) in E by lia.
  rewrite (proj2 (Nat.ltb_lt k (length s))) in E by lia. cbn [andb] in E. rewrite Nat.sub_0_r in E.
  rewrite nth_error_app1 in E by lia. rewrite E.
  pose proof (perm_lt _ _ HP k ltac:(lia)).
  rewrite nth_error_app1 by lia. now apply nth_error_in_range.
Qed.

Lemma comps_diss c k : wf c -> k < length (c_w c) ->
  nth_error (comps c) (length (c_x c) + k) = Some (Diss (nth k (c_w c) "") (nth k (c_z c) (Num 0))).
Proof.
  intros W Hk. pose proof (stors_length c W) as LS. pose proof (disss_length c W) as LD.
  unfold comps. rewrite nth_error_app2 by lia. rewrite LS.
  replace (length (c_x c) + k - length (c_x c)) with k by lia.
  rewrite nth_error_app1 by lia. unfold disss. rewrite nth_error_map, nth_error_combine.
  destruct W as ((P1 & _) & _).
  rewrite (nth_error_nth' (c_w c) "") by lia. rewrite (nth_error_nth' (c_z c) (Num 0)) by lia.
  reflexivity.
Qed.

Lemma fol_wz c c' s : wf c -> c_x c' = c_x c -> fol (at_block (length (c_x c)) s) c c' ->
  Permutation s (seq 0 (length (c_w c))) -> length (c_w c') = length (c_w c) ->
  c_w c' = in_order "" (c_w c) s /\ c_z c' = in_order (Num 0) (c_z c) s.
Proof.
  intros W EX F HP HL.
  assert (Ls : length s = length (c_w c)) by (rewrite (Permutation_length HP); apply seq_length).
  assert (W' : wf c') by apply F.
  assert (K : forall k, k < length s ->
    Diss (nth k (c_w c') "") (nth k (c_z c') (Num 0)) =
    Diss (nth (nth k s 0) (c_w c) "") (nth (nth k s 0) (c_z c) (Num 0))).
  { intros k Hk. destruct F as (_ & _ & _ & HC & _).
    specialize (HC (length (c_x c) + k) ltac:(unfold ntot; lia)).
    rewrite <- EX in HC at 1. rewrite comps_diss in HC by (try assumption; lia).
    unfold at_block in HC. rewrite (proj2 (Nat.leb_le _ _)) in HC by lia.
    rewrite (proj2 (Nat.ltb_lt _ _)) in HC by lia. cbn [andb] in HC.
    replace (length (c_x c) + k - length (c_x c)) with k in HC by lia.
    pose proof (perm_lt _ _ HP k ltac:(lia)).
    rewrite comps_diss in HC by assumption. congruence. }
  destruct W as ((P1 & _) & _). destruct W' as ((P1' & _) & _).
  split; apply list_from_nth; try lia; intros k Hk; specialize (K k Hk); injection K as K1 K2.
  - rewrite <- K1. apply nth_error_nth'. lia.
  - rewrite <- K2. apply nth_error_nth'. lia.
Qed.

Lemma at_block_len o s k : o + length s <= k -> at_block o s k = k.
Proof.
  intros H. unfold at_block. destruct (Nat.ltb_spec k (o + length s)); [lia|].
  now rewrite andb_false_r.
Qed.

Lemma map_seq_add o s n : map (fun j => o + j) (seq s n) = seq (o + s) n.
Proof.
  revert s. induction n as [|n IH]; intros s; [reflexivity|]. cbn. rewrite IH. f_equal.
  f_equal. lia.
Qed.

Lemma nth_firstn_lt {A} (l : list A) d n k : k < n -> nth k (firstn n l) d = nth k l d.
Proof.
  revert n k. induction l as [|a l IH]; intros [|n] [|k] H; cbn; try lia; try reflexivity.
  apply IH. lia.
Qed.

Lemma nth_skipn' {A} (l : list A) d n k : nth k (skipn n l) d = nth (n + k) l d.
Proof.
  revert n k. induction l as [|a l IH]; intros [|n] k; cbn; try reflexivity.
  - now destruct k.
  - apply IH.
Qed.

Lemma block_order_spec c sx sw : Permutation sx (seq 0 (length (c_x c))) ->
  Permutation sw (seq 0 (length (c_w c))) ->
  Permutation (block_order c sx sw) (seq 0 (ntot c)) /\
  forall k, k < ntot c -> nth k (block_order c sx sw) 0 =
    at_block 0 sx (at_block (length (c_x c)) sw k).
Proof.
  intros HX HW.
  assert (LX : length sx = length (c_x c)) by (rewrite (Permutation_length HX); apply seq_length).
  assert (LW : length sw = length (c_w c)) by (rewrite (Permutation_length HW); apply seq_length).
  split.
  - unfold block_order, ntot.
    replace (length (c_x c) + length (c_w c) + length (c_y c) + length (c_cy c)) with
      (length (c_x c) + (length (c_w c) + (length (c_y c) + length (c_cy c)))) by lia.
    set (m := length (c_y c) + length (c_cy c)). clearbody m.
    rewrite (seq_app (length (c_x c))), Nat.add_0_l, (seq_app (length (c_w c))).
    apply Permutation_app; [exact HX|]. apply Permutation_app; [|reflexivity].
    rewrite HW. rewrite map_seq_add. rewrite Nat.add_0_r. reflexivity.
  - intros k Hk. unfold block_order, at_block at 2.
    destruct (Nat.leb_spec (length (c_x c)) k) as [K|K]; cbn [andb].
    + rewrite app_nth2 by lia. rewrite LX.
      destruct (Nat.ltb_spec k (length (c_x c) + length sw)) as [K2|K2].
      * rewrite app_nth1 by (rewrite map_length; lia).
        rewrite (nth_map_dep _ _ 0) by lia.
        rewrite at_block_len by lia. reflexivity.
      * rewrite app_nth2 by (rewrite map_length; lia). rewrite map_length.
        rewrite seq_nth by (unfold ntot in Hk; lia).
        rewrite at_block_len by lia. lia.
    + rewrite app_nth1 by lia. unfold at_block. cbn [plus].
      rewrite (proj2 (Nat.leb_le 0 k)) by lia. rewrite (proj2 (Nat.ltb_lt _ _)) by lia.
      cbn [andb]. now rewrite Nat.sub_0_r.
Qed.

(** ** linear_nonlinear *)

Lemma fol_caches p c c1 c2 : fol p c c1 ->
  wf c2 -> ntot c2 = ntot c1 -> comps c2 = comps c1 -> c_M c2 = c_M c1 -> fol p c c2.
Proof.
  intros (W1 & N1 & B1 & C1 & M1) W2 N2 EC EM.
  split; [exact W2|]. split; [congruence|]. split; [exact B1|]. rewrite EC, EM. split; assumption.
Qed.

Definition split_crit (cr : option ((mat * list string) * (mat * list string))) (c : core) :=
  match cr with
  | None => ((hessian (c_H c) (c_x c), c_x c ++ dx c ++ c_w c),
             (jacobian (c_z c) (c_w c), dx c ++ c_w c))
  | Some p => p
  end.

Lemma linear_nonlinear_ok cr c : wf c -> zl_ok c ->
  (cr <> None -> nc (fst (fst (split_crit cr c))) = length (c_x c) /\
                 nc (fst (snd (split_crit cr c))) = length (c_w c)) ->
  exists c' sx sw nxl nwl, linear_nonlinear cr c = ok c' /\ wf c' /\ counters_ok c' /\
    stable_partition (length (c_x c)) nxl
      (free_column (fst (fst (split_crit cr c))) (snd (fst (split_crit cr c)))) sx /\
    stable_partition (length (c_w c)) nwl
      (free_column (fst (snd (split_crit cr c))) (snd (snd (split_crit cr c)))) sw /\
    c_xl c' = Z.of_nat nxl /\ c_wl c' = Z.of_nat nwl /\
    follows (block_order c sx sw) c c' /\ same_context c c' /\
    c_x c' = in_order "" (c_x c) sx /\ c_w c' = in_order "" (c_w c) sw /\
    c_z c' = in_order (Num 0) (c_z c) sw /\
    c_u c' = c_u c /\ c_y c' = c_y c /\ c_cu c' = c_cu c /\ c_cy c' = c_cy c /\
    c_Q c' = hessian (c_H c) (firstn nxl (c_x c')) /\
    c_Zl c' = jacobian (firstn nwl (c_z c')) (firstn nwl (c_w c')) /\
    length (c_bl c') = nxl /\
    (forall r i, i < nxl -> eval r (nth i (gradient (c_H c) (firstn nxl (c_x c'))) (Num 0)) =
      (rsum nxl (fun j => eval r (ent (c_Q c') i j) * r (nth j (c_x c') "")) +
       eval r (nth i (c_bl c') (Num 0)))%R) /\
    c_xnl_mono c' = c_xnl_mono c.
Proof.
  intros W HZ HCR.
  set (N := length (c_x c)). set (Nw := length (c_w c)).
  set (A := fst (fst (split_crit cr c))). set (argx := snd (fst (split_crit cr c))).
  set (B := fst (snd (split_crit cr c))). set (argw := snd (snd (split_crit cr c))).
  set (mf := match cr with None => movesquare | Some _ => movecols end).
  assert (HAm : mover_ok mf A N /\ mover_ok mf B Nw).
  { unfold mf, A, B. destruct cr as [((? & ?) & (? & ?))|]; cbn in *.
    - destruct HCR as [H1 H2]; [discriminate|]. split; right; auto.
    - destruct W as ((P1 & _) & _). split; left; (split; [reflexivity|]);
        unfold hessian, jacobian, gradient; cbn [nr nc]; rewrite ?map_length; split;
        first [reflexivity|symmetry; exact P1|exact P1]. }
  assert (EA : nc A = N) by (destruct HAm as [[(_ & _ & E)|(_ & E)] _]; exact E).
  assert (EB : nc B = Nw) by (destruct HAm as [_ [(_ & _ & E)|(_ & E)]]; exact E).
  assert (E0 : linear_nonlinear cr c =
    let '(o, nxl) := split_loop mf move_stor (fun c => dim_x c - 1)%Z argx N A 0 c in
    obind o (fun c =>
    let '(o, nwl) := split_loop mf move_diss (fun c => dim_w c - 1)%Z argw Nw B 0 c in
    obind o (fun c =>
    let c := set_xl (Z.of_nat nxl) c in
    let Q := hessian (c_H c) (xl_of c) in
    olift (matvecprod Q (map Sym (xl_of c))) c (fun Qx =>
    let bl := map (fun p => ssub (fst p) (snd p)) (combine (gradient (c_H c) (xl_of c)) Qx) in
    let c := set_bl bl (set_Q Q c) in
    let c := set_wl (Z.of_nat nwl) c in
    ok (set_Zl (jacobian (zl_of c) (wl_of c)) c))))).
  { rewrite <- EA, <- EB. unfold linear_nonlinear, mf, A, B, argx, argw, split_crit.
    destruct cr as [((? & ?) & (? & ?))|]; reflexivity. }
  rewrite E0. clear E0.
  destruct (split_loop_ok mf move_stor (fun c => dim_x c - 1)%Z argx A 0 N c (stor_inv c)
    (proj1 HAm) W) as (c1 & E1 & I1 & F1).
  { unfold ntot, N. lia. }
  { now apply stor_inv_refl. }
  { intros c1 (_ & L & _). unfold dim_x. rewrite L. fold N. destruct N; [now right|left; lia]. }
  { intros c1 i HI Hi. apply (move_stor_inv c c1 i HI Hi). }
  rewrite E1. cbn [obind ok]. clear E1.
  set (Px := fun j => disjoint (col_symbols A j) argx) in *.
  set (nxl := length (filter Px (seq 0 N))) in *.
  set (sx := part N Px) in *.
  destruct I1 as (W1 & L1 & SC1 & Hw & Hz & Hu & Hy & Hcu & Hcy & Hwl & Hxl & HZl & HQ & Hbl & Hxm).
  assert (Z1 : zl_ok c1) by (unfold zl_ok; rewrite HZl, Hwl; exact HZ).
  assert (ENw : Nw = length (c_w c1)) by (now rewrite Hw).
  destruct (split_loop_ok mf move_diss (fun c => dim_w c - 1)%Z argw B N Nw c1 (diss_inv c1)
    (proj2 HAm) W1) as (c2 & E2 & I2 & F2).
  { assert (ntot c1 = ntot c) as -> by apply F1. unfold ntot, N, Nw. lia. }
  { now apply diss_inv_refl. }
  { intros c2 (_ & _ & L & _). unfold dim_w. rewrite L, <- ENw. destruct Nw; [now right|left; lia]. }
  { intros c2 i HI Hi. rewrite ENw in Hi |- *. unfold N. rewrite <- L1. now apply move_diss_inv. }
  rewrite E2. cbn [obind ok]. clear E2.
  set (Pw := fun j => disjoint (col_symbols B j) argw) in *.
  set (nwl := length (filter Pw (seq 0 Nw))) in *.
  set (sw := part Nw Pw) in *.
  destruct I2 as (W2 & Z2 & L2 & SC2 & Kx & Kd & Ku & Ky & Kcu & Kcy & Kwl & Kxl & KQ & Kbl & Kxm).
  assert (SX : stable_partition N nxl (free_column A argx) sx).
  { apply part_stable. intros j _. apply free_column_spec. }
  assert (SW : stable_partition Nw nwl (free_column B argw) sw).
  { apply part_stable. intros j _. apply free_column_spec. }
  assert (PX : Permutation sx (seq 0 N)) by (unfold sx; rewrite <- state_N; now apply state_perm).
  assert (PW : Permutation sw (seq 0 Nw)) by (unfold sw; rewrite <- state_N; now apply state_perm).
  assert (LN : nxl <= N) by apply filter_len'.
  assert (LNw : nwl <= Nw) by apply filter_len'.
  assert (EX1 : c_x c1 = in_order "" (c_x c) sx) by (now apply fol_x).
  assert (EX2 : c_x c2 = in_order "" (c_x c) sx) by congruence.
  assert (F2' : fol (at_block (length (c_x c1)) sw) c1 c2) by (rewrite L1; exact F2).
  rewrite ENw in PW.
  destruct (fol_wz c1 c2 sw W1 Kx F2' PW) as [EW2 EZ2]; [exact L2|].
  rewrite Hw in EW2. rewrite Hz in EZ2. rewrite <- ENw in PW.
  set (c3 := set_xl (Z.of_nat nxl) c2).
  assert (Exl : xl_of c3 = firstn nxl (c_x c2)).
  { unfold xl_of, c3, dim_xl. cbn [c_xl c_x set_xl]. rewrite py_slice_to. reflexivity. }
  assert (Lxl : length (xl_of c3) = nxl).
  { rewrite Exl, firstn_length. assert (length (c_x c2) = N) as ->; [|lia].
    rewrite Kx. exact L1. }
  destruct (matvecprod_ok (hessian (c_H c3) (xl_of c3)) (map Sym (xl_of c3)))
    as (Qx & EQ & LQ & HQx).
  { cbn [nc hessian jacobian]. now rewrite map_length. }
  cbv zeta. fold c3. rewrite EQ. cbn [olift].
  set (bl := map (fun p => ssub (fst p) (snd p)) (combine (gradient (c_H c3) (xl_of c3)) Qx)).
  set (c4 := set_wl (Z.of_nat nwl) (set_bl bl (set_Q (hessian (c_H c3) (xl_of c3)) c3))).
  set (c5 := set_Zl (jacobian (zl_of c4) (wl_of c4)) c4).
  assert (Ewl : wl_of c4 = firstn nwl (c_w c2)).
  { unfold wl_of, c4, dim_wl. cbn [c_wl c_w set_wl]. now rewrite py_slice_to. }
  assert (Ezl : zl_of c4 = firstn nwl (c_z c2)).
  { unfold zl_of, c4, dim_wl. cbn [c_wl c_z set_wl]. now rewrite py_slice_to. }
  assert (EH : c_H c3 = c_H c).
  { change (c_H c3) with (c_H c2). destruct SC1 as (_ & H1 & _). destruct SC2 as (_ & H2 & _). congruence. }
  assert (LG : length (gradient (c_H c3) (xl_of c3)) = nxl).
  { unfold gradient. now rewrite map_length. }
  assert (LQ' : length Qx = nxl).
  { rewrite LQ. cbn [nr hessian jacobian]. exact LG. }
  assert (FF : fol (fun k => at_block 0 sx (at_block N sw k)) c c5).
  { apply (fol_caches _ c c2); try reflexivity; [|exact W2].
    exact (fol_trans _ _ _ _ _ F1 F2). }
  exists c5, sx, sw, nxl, nwl.
  destruct (block_order_spec c sx sw PX PW) as [BP BN].
  split; [reflexivity|]. split; [exact W2|].
  split.
  { split; cbn.
    - assert (length (c_x c2) = N) by (rewrite Kx; exact L1). lia.
    - rewrite L2, <- ENw. lia. }
  split; [exact SX|]. split; [exact SW|]. split; [reflexivity|]. split; [reflexivity|].
  split; [apply (fol_follows _ _ _ _ W FF BP); exact BN|].
  split; [exact (same_context_trans _ _ _ SC1 SC2)|].
  split; [exact EX2|]. split; [exact EW2|]. split; [exact EZ2|].
  change (c_u c5) with (c_u c2). change (c_y c5) with (c_y c2).
  change (c_cu c5) with (c_cu c2). change (c_cy c5) with (c_cy c2).
  split; [congruence|]. split; [congruence|]. split; [congruence|]. split; [congruence|].
  split; [cbn [c_Q c5 c4 set_Zl set_wl set_bl set_Q]; now rewrite EH, Exl|].
  split; [unfold c5; cbn [c_Zl set_Zl]; rewrite Ezl, Ewl; reflexivity|].
  split; [cbn; unfold bl; rewrite map_length, combine_length; lia|].
  split; [|change (c_xnl_mono c5) with (c_xnl_mono c2); congruence].
  intros r i Hi.
  change (c_x c5) with (c_x c2). rewrite <- Exl, <- EH.
  change (c_Q c5) with (hessian (c_H c3) (xl_of c3)). change (c_bl c5) with bl.
  unfold bl.
  assert (Eb : nth i (map (fun p => ssub (fst p) (snd p)) (combine (gradient (c_H c3) (xl_of c3)) Qx)) (Num 0) =
    ssub (nth i (gradient (c_H c3) (xl_of c3)) (Num 0)) (nth i Qx (Num 0))).
  { rewrite (nth_map_dep _ _ (Num 0, Num 0)) by (rewrite combine_length; lia).
    rewrite combine_nth by lia. reflexivity. }
  rewrite Eb, eval_ssub, HQx by (cbn [nr hessian jacobian]; lia).
  cbn [nc hessian jacobian]. rewrite Lxl. unfold mv_.
  match goal with |- _ = (?a + (_ - ?b))%R => enough (a = b) by lra end.
  apply rsum_ext. intros k Hk. unfold ev. f_equal.
  rewrite (nth_map_dep _ _ "") by lia. cbn [eval]. f_equal.
  rewrite Exl. symmetry. now apply nth_firstn_lt.
Qed.

(** ** monovar_multivar *)

(** Every entry of row [i] of the [N] by [N] matrix [A], off the diagonal and
    off the columns [j < i] with [l j], is the literal zero. *)
Definition mono_row (A : mat) (N i : nat) (l : nat -> bool) : bool :=
  forallb (fun j => (j =? i) || ((j <? i) && l j) || is0 (ent A i j)) (seq 0 N).

(** The decisions taken for the first [k] rows. *)
Fixpoint mono_dec (A : mat) (N k : nat) : list bool :=
  match k with
  | 0 => []
  | S k => mono_dec A N k ++ [mono_row A N k (fun j => nth j (mono_dec A N k) false)]
  end.

Definition mono_kept (A : mat) (N i : nat) : bool := nth i (mono_dec A N (S i)) false.

Lemma mono_dec_len A N k : length (mono_dec A N k) = k.
Proof. induction k; [reflexivity|]. cbn [mono_dec]. rewrite app_length, IHk. cbn. lia. Qed.

Lemma mono_dec_nth A N k j : j < k -> nth j (mono_dec A N k) false = mono_kept A N j.
Proof.
  unfold mono_kept. induction k as [|k IH]; intros Hj; [lia|].
  destruct (Nat.eq_dec j k) as [->|Hne]; [reflexivity|].
  cbn [mono_dec]. rewrite app_nth1 by (rewrite mono_dec_len; lia).
  rewrite IH by lia. cbn [mono_dec]. reflexivity.
Qed.

Lemma mono_kept_spec A N i : mono_kept A N i = true <->
  forall j, j < N -> j <> i -> j < i /\ mono_kept A N j = true \/ is0 (ent A i j) = true.
Proof.
  assert (E : mono_kept A N i = mono_row A N i (mono_kept A N)).
  { unfold mono_kept at 1. cbn [mono_dec]. rewrite app_nth2 by (rewrite mono_dec_len; lia).
    rewrite mono_dec_len, Nat.sub_diag. cbn [nth]. unfold mono_row.
    set (d := mono_dec A N i). assert (Hd : forall j, j < i -> nth j d false = mono_kept A N j)
      by (intros j Hj; apply mono_dec_nth; exact Hj). clearbody d.
    generalize (seq 0 N). intros l. induction l as [|j l IH]; [reflexivity|].
    cbn [forallb]. rewrite IH. destruct (Nat.ltb_spec j i) as [L|L]; [now rewrite Hd|reflexivity]. }
  rewrite E. unfold mono_row. rewrite forallb_forall. split.
  - intros H j Hj Hne. specialize (H j). rewrite in_seq in H. specialize (H ltac:(lia)).
    apply orb_true_iff in H. destruct H as [H|H]; [|now right].
    apply orb_true_iff in H. destruct H as [H|H]; [apply Nat.eqb_eq in H; contradiction|].
    apply andb_true_iff in H. destruct H as [H1 H2]. apply Nat.ltb_lt in H1. now left.
  - intros H j Hj. apply in_seq in Hj. apply orb_true_iff.
    destruct (Nat.eq_dec j i) as [->|Hne]; [left; now rewrite Nat.eqb_refl|].
    destruct (H j ltac:(lia) Hne) as [[H1 H2]|H1]; [left|now right].
    apply orb_true_iff. right. apply andb_true_iff. split; [now apply Nat.ltb_lt|exact H2].
Qed.

Lemma mono_kept_sym A N i :
  (forall i j, i < N -> j < N -> is0 (ent A i j) = is0 (ent A j i)) -> i < N ->
  mono_kept A N i = true <-> forall j, j < N -> j <> i -> is0 (ent A i j) = true.
Proof.
  intros HS Hi. rewrite mono_kept_spec. split; intros H j Hj Hne.
  - destruct (H j Hj Hne) as [[H1 H2]|H1]; [|exact H1].
    rewrite HS by assumption. rewrite mono_kept_spec in H2.
    destruct (H2 i Hi ltac:(lia)) as [[H3 _]|H3]; [lia|exact H3].
  - right. now apply H.
Qed.

Lemma state_before P N k i : i < length (filter P (seq 0 k)) -> k <= N ->
  nth i (state N P k) 0 < k /\ P (nth i (state N P k) 0) = true.
Proof.
  intros Hi Hk. unfold state. rewrite app_nth1 by exact Hi.
  pose proof (nth_In (filter P (seq 0 k)) 0 Hi) as HIn. apply filter_In in HIn.
  destruct HIn as [H1 H2]. apply in_seq in H1. split; [lia|exact H2].
Qed.

Lemma state_kept P N k j : j < k -> P j = true ->
  exists p, p < length (filter P (seq 0 k)) /\ nth p (state N P k) 0 = j.
Proof.
  intros Hj HP. destruct (In_nth (filter P (seq 0 k)) j 0) as (p & Hp & Ep).
  - apply filter_In. split; [apply in_seq; lia|exact HP].
  - exists p. split; [exact Hp|]. unfold state. now rewrite app_nth1.
Qed.

Lemma mono_test A0 N A k : nr A0 = N -> nc A0 = N -> k < N ->
  rep2 A0 N A (state N (mono_kept A0 N) k) ->
  let n := length (filter (mono_kept A0 N) (seq 0 k)) in
  forallb (fun j => is0 (ent A n j)) (seq (S n) (nc A - S n)) = mono_kept A0 N k.
Proof.
  intros E1 E2 Hk (R1 & R2 & R3) n.
  set (P := mono_kept A0 N) in *.
  set (s := state N P k) in *.
  assert (Hn : n < N) by (pose proof (filter_len' P k); unfold n; lia).
  assert (En : nth n s 0 = k) by (now apply state_nth).
  assert (HP : Permutation s (seq 0 N)) by (apply state_perm; lia).
  assert (ND : NoDup s) by (apply (Permutation_NoDup (Permutation_sym HP)), seq_NoDup).
  assert (Ls : length s = N) by (rewrite (Permutation_length HP); apply seq_length).
  apply eq_true_iff_eq. unfold P. rewrite mono_kept_spec, forallb_forall, R2. fold P. split.
  - intros H j Hj Hne. destruct (perm_surj N s HP j Hj) as (p & Hp & Ep).
    destruct (Nat.lt_trichotomy p n) as [Hlt|[->|Hgt]].
    + destruct (state_before P N k p Hlt ltac:(lia)) as [B1 B2].
      fold s in B1, B2. rewrite Ep in B1, B2. now left.
    + congruence.
    + specialize (H p). rewrite in_seq in H. specialize (H ltac:(lia)).
      rewrite R3, En, Ep in H by lia. now right.
  - intros H j Hj. apply in_seq in Hj. rewrite R3, En by lia.
    destruct (H (nth j s 0)) as [[H1 H2]|H1]; [| | |exact H1].
    + apply perm_lt; [exact HP|lia].
    + intros E. rewrite <- En in E. apply (proj1 (NoDup_nth s 0) ND) in E; lia.
    + destruct (state_kept P N k _ H1 H2) as (p & Hp & Ep). fold s in Ep. fold n in Hp.
      apply (proj1 (NoDup_nth s 0) ND) in Ep; lia.
Qed.

Lemma mono_gloop : forall fuel A n c,
  mono_loop fuel A n c =
  gloop (fun A n => forallb (fun j => is0 (ent A n j)) (seq (S n) (nc A - S n)))
        (fun c A n => movesquare A (Z.of_nat n) (dim_xnl c - 1))
        (fun n c => move_stor (dim_xl c + Z.of_nat n) (dim_x c - 1) c) fuel A n c.
Proof.
  induction fuel as [|fuel IH]; intros A n c; [reflexivity|]. cbn [mono_loop gloop].
  destruct (forallb _ _); [apply IH|].
  destruct (move_stor _ _ c) as [c' [e|]]; [reflexivity|].
  destruct (movesquare _ _ _); [apply IH|reflexivity].
Qed.

Lemma monovar_multivar_any c : wf c -> counters_ok c ->
  let xl := Z.to_nat (c_xl c) in
  let N := length (c_x c) - xl in
  let hess := hessian (c_H c) (skipn xl (c_x c)) in
  exists c' s n, monovar_multivar c = ok c' /\ wf c' /\
    stable_partition N n (fun i => mono_kept hess N i = true) s /\
    c_xnl_mono c' = Z.of_nat n /\ c_xl c' = c_xl c /\ c_wl c' = c_wl c /\
    follows (block_order c (seq 0 xl ++ map (fun j => xl + j) s) (seq 0 (length (c_w c)))) c c' /\
    same_context c c' /\
    c_x c' = firstn xl (c_x c) ++ in_order "" (skipn xl (c_x c)) s /\
    c_w c' = c_w c /\ c_z c' = c_z c /\ c_u c' = c_u c /\ c_y c' = c_y c /\
    c_cu c' = c_cu c /\ c_cy c' = c_cy c /\
    c_Q c' = c_Q c /\ c_bl c' = c_bl c /\ c_Zl c' = c_Zl c.
Proof.
  intros W CO xl N hess.
  assert (Hxl : c_xl c = Z.of_nat xl) by (unfold xl; destruct CO; lia).
  assert (LX : xl <= length (c_x c)) by (destruct CO; unfold xl; lia).
  assert (ES : xnl_of c = skipn xl (c_x c)).
  { unfold xnl_of, dim_xl. rewrite Hxl. apply py_slice_from. }
  assert (LS : length (skipn xl (c_x c)) = N) by (apply skipn_length).
  assert (EN : Z.to_nat (dim_xnl c) = N).
  { unfold dim_xnl, dim_x, dim_xl. rewrite Hxl. lia. }
  assert (N1 : nr hess = N) by (cbn; unfold gradient; now rewrite map_length).
  assert (N2 : nc hess = N) by (cbn; exact LS).
  unfold monovar_multivar. rewrite EN, ES. fold hess. rewrite mono_gloop.
  set (P := mono_kept hess N).
  destruct (gloop_ok (fun A n => forallb (fun j => is0 (ent A n j)) (seq (S n) (nc A - S n)))
        (fun c A n => movesquare A (Z.of_nat n) (dim_xnl c - 1))
        (fun n c => move_stor (dim_xl c + Z.of_nat n) (dim_x c - 1) c) xl N P c (stor_inv c)
        (rep2 hess N)) with (fuel := N) (A := hess) (c := c) as (c' & E & HI & HF).
  - unfold ntot, N. lia.
  - intros c1 i HI Hi. 
    assert (L1 : length (c_x c1) = length (c_x c)) by apply HI.
    assert (X1 : c_xl c1 = c_xl c) by apply HI.
    replace (dim_xl c1 + Z.of_nat i)%Z with (Z.of_nat (xl + i)) by (unfold dim_xl; rewrite X1, Hxl; lia).
    destruct (move_stor_inv c c1 (xl + i) HI ltac:(unfold N in Hi; lia)) as (c2 & E2 & I2 & F2).
    exists c2. split; [exact E2|]. split; [exact I2|].
    replace (xl + (N - 1)) with (length (c_x c) - 1) by (unfold N in *; lia). exact F2.
  - intros A k Hk HR. now apply mono_test.
  - intros A c1 n s s' HI Hn HR Ls HM.
    assert (L1 : length (c_x c1) = length (c_x c)) by apply HI.
    assert (X1 : c_xl c1 = c_xl c) by apply HI.
    replace (dim_xnl c1 - 1)%Z with (Z.of_nat (N - 1))
      by (unfold dim_xnl, dim_x, dim_xl; rewrite X1, Hxl, L1; unfold N in *; lia).
    eapply movesquare_rep2; eassumption.
  - lia.
  - now apply stor_inv_refl.
  - rewrite Nat.sub_diag, state_0. split; [exact N1|]. split; [exact N2|].
    intros i j Hi Hj. now rewrite !seq_nth.
  - rewrite Nat.sub_diag, state_0. apply (fol_ext _ _ _ _ (fol_id c W)).
    intros k Hk. unfold at_block. rewrite seq_length.
    destruct (Nat.leb_spec xl k); [|reflexivity].
    destruct (Nat.ltb_spec k (xl + N)); [|reflexivity]. cbn [andb]. rewrite seq_nth by lia. lia.
  - rewrite Nat.sub_diag in E. cbn [seq filter length] in E. rewrite E. cbn [obind ok].
    rewrite state_N in HF. set (s := part N P) in *. set (n := length (filter P (seq 0 N))) in *.
    assert (PS : Permutation s (seq 0 N)) by (unfold s; rewrite <- state_N; now apply state_perm).
    assert (Ls : length s = N) by (rewrite (Permutation_length PS); apply seq_length).
    set (sx := seq 0 xl ++ map (fun j => xl + j) s).
    assert (PX : Permutation sx (seq 0 (length (c_x c)))).
    { unfold sx. replace (length (c_x c)) with (xl + N) by (unfold N; lia).
      rewrite seq_app. apply Permutation_app_head. rewrite PS, map_seq_add.
      now rewrite Nat.add_0_r. }
    assert (EA : forall k, at_block xl s k = at_block 0 sx k).
    { intros k. unfold at_block, sx. rewrite app_length, seq_length, map_length, Ls. cbn [plus].
      rewrite (proj2 (Nat.leb_le 0 k)) by lia. cbn [andb]. rewrite Nat.sub_0_r.
      destruct (Nat.leb_spec xl k) as [K|K]; cbn [andb].
      - destruct (Nat.ltb_spec k (xl + N)); [|reflexivity].
        rewrite app_nth2 by (rewrite seq_length; lia). rewrite seq_length.
        rewrite (nth_map_dep _ _ 0) by lia. reflexivity.
      - destruct (Nat.ltb_spec k (xl + N)); [|lia].
        rewrite app_nth1 by (rewrite seq_length; lia). now rewrite seq_nth. }
    destruct (block_order_spec c sx (seq 0 (length (c_w c))) PX (Permutation_refl _)) as [BP BN].
    destruct HI as (W1 & L1 & SC1 & Hw & Hz & Hu & Hy & Hcu & Hcy & Hwl & Hxl1 & HZl & HQ & Hbl & Hxm).
    exists (set_xnl_mono (Z.of_nat n) c'), s, n.
    split; [reflexivity|]. split; [exact W1|]. split; [apply part_stable; intros j _; reflexivity|].
    split; [reflexivity|]. split; [exact Hxl1|]. split; [exact Hwl|].
    split.
    { assert (HF2 : fol (at_block xl s) c (set_xnl_mono (Z.of_nat n) c'))
        by (apply (fol_caches _ c c'); try reflexivity; [exact HF|exact W1]).
      apply (fol_follows _ _ _ _ W HF2 BP). intros k Hk. rewrite BN by exact Hk. fold sx.
      rewrite EA. f_equal. unfold at_block. rewrite seq_length.
      destruct (Nat.leb_spec (length (c_x c)) k); [|reflexivity].
      destruct (Nat.ltb_spec k (length (c_x c) + length (c_w c))); [|reflexivity].
      cbn [andb]. rewrite seq_nth by lia. lia. }
    split; [exact SC1|]. split.
    { change (c_x (set_xnl_mono (Z.of_nat n) c')) with (c_x c').
      assert (F0 : fol (at_block 0 sx) c c').
      { apply (fol_ext _ _ _ _ HF). intros k _. apply EA. }
      rewrite (fol_x c c' sx W F0 PX L1). unfold sx, in_order. rewrite map_app, map_map. f_equal.
      - apply nth_ext with (d := "") (d' := "").
        + rewrite map_length, seq_length, firstn_length. lia.
        + intros i Hi. rewrite map_length, seq_length in Hi. rewrite (nth_map_dep _ _ 0) by (rewrite seq_length; lia).
          rewrite seq_nth by lia. symmetry. now apply nth_firstn_lt.
      - apply map_ext. intros j. now rewrite nth_skipn'. }
    repeat split; assumption.
Qed.

Lemma monovar_multivar_ok c : wf c -> counters_ok c ->
  let xl := Z.to_nat (c_xl c) in
  let N := length (c_x c) - xl in
  let hess := hessian (c_H c) (skipn xl (c_x c)) in
  (forall i j, i < N -> j < N -> is0 (ent hess i j) = is0 (ent hess j i)) ->
  exists c' s n, monovar_multivar c = ok c' /\ wf c' /\
    stable_partition N n (fun i => forall j, j < N -> j <> i -> is0 (ent hess i j) = true) s /\
    c_xnl_mono c' = Z.of_nat n /\ c_xl c' = c_xl c /\ c_wl c' = c_wl c /\
    follows (block_order c (seq 0 xl ++ map (fun j => xl + j) s) (seq 0 (length (c_w c)))) c c' /\
    same_context c c' /\
    c_x c' = firstn xl (c_x c) ++ in_order "" (skipn xl (c_x c)) s /\
    c_w c' = c_w c /\ c_z c' = c_z c /\ c_u c' = c_u c /\ c_y c' = c_y c /\
    c_cu c' = c_cu c /\ c_cy c' = c_cy c /\
    c_Q c' = c_Q c /\ c_bl c' = c_bl c /\ c_Zl c' = c_Zl c.
Proof.
  intros W CO xl N hess HS.
  destruct (monovar_multivar_any c W CO) as (c' & s & n & E & W' & SP & HR).
  exists c', s, n. split; [exact E|]. split; [exact W'|]. split; [|exact HR].
  destruct SP as (l1 & l2 & S1 & S2 & S3 & S4 & S5 & S6 & S7).
  assert (B : forall i, In i s -> i < N).
  { intros i Hi. apply (Permutation_in _ S3) in Hi. apply in_seq in Hi. fold xl N in Hi. lia. }
  exists l1, l2. repeat (split; [assumption|]). rewrite Forall_forall in S6, S7.
  split; apply Forall_forall; intros i Hi.
  - apply (mono_kept_sym hess N i HS).
    + apply B. rewrite S1. apply in_or_app. now left.
    + now apply S6.
  - intros H. apply (S7 i Hi). apply (mono_kept_sym hess N i HS); [|exact H].
    apply B. rewrite S1. apply in_or_app. now right.
Qed.

Lemma list_as_map {A} (l : list A) d : l = map (fun j => nth j l d) (seq 0 (length l)).
Proof.
  apply nth_ext with (d := d) (d' := d); [now rewrite map_length, seq_length|].
  intros i Hi. rewrite (nth_map_dep _ _ 0) by now rewrite seq_length. now rewrite seq_nth.
Qed.

(** The separable group of states: row [i] of the Hessian is zero off the
    diagonal and off the columns kept before. *)
Lemma monovar_multivar_rows c : wf c -> counters_ok c ->
  let xl := Z.to_nat (c_xl c) in
  let N := length (c_x c) - xl in
  exists c' n sg, monovar_multivar c = ok c' /\ wf c' /\ n <= N /\
    c_xnl_mono c' = Z.of_nat n /\ c_xl c' = c_xl c /\ c_wl c' = c_wl c /\
    Permutation (skipn xl (c_x c)) (skipn xl (c_x c')) /\
    firstn xl (c_x c') = firstn xl (c_x c) /\
    (forall i j, i < n -> i < j -> j < N ->
       is0 (diff (nth (xl + j) (c_x c') "") (diff (nth (xl + i) (c_x c') "") (c_H c))) = true) /\
    follows sg c c' /\ same_context c c' /\
    c_w c' = c_w c /\ c_z c' = c_z c /\ c_u c' = c_u c /\ c_y c' = c_y c /\
    c_cu c' = c_cu c /\ c_cy c' = c_cy c /\
    c_Q c' = c_Q c /\ c_bl c' = c_bl c /\ c_Zl c' = c_Zl c.
Proof.
  intros W CO xl N.
  assert (LX : xl <= length (c_x c)) by (destruct CO; unfold xl; lia).
  destruct (monovar_multivar_any c W CO) as (c' & s & n & E & W' & SP & Hn & Hxl & Hwl & HF & SC & HX & HR).
  exists c', n. eexists. split; [exact E|]. split; [exact W'|].
  destruct SP as (l1 & l2 & S1 & S2 & S3 & S4 & S5 & S6 & S7).
  fold xl N in S3, S6, S7. fold xl in HX.
  set (hess := hessian (c_H c) (skipn xl (c_x c))) in *.
  assert (Ls : length s = N) by (rewrite (Permutation_length S3); apply seq_length).
  assert (LF : length (firstn xl (c_x c)) = xl) by (rewrite firstn_length; lia).
  assert (LK : length (skipn xl (c_x c)) = N) by apply skipn_length.
  split; [rewrite <- Ls, S1, app_length; lia|]. split; [exact Hn|]. split; [exact Hxl|]. split; [exact Hwl|].
  assert (EK : skipn xl (c_x c') = in_order "" (skipn xl (c_x c)) s).
  { rewrite HX, skipn_app, LF, Nat.sub_diag. rewrite skipn_all2 by lia. reflexivity. }
  split.
  { rewrite EK. unfold in_order. rewrite S3.
    rewrite (list_as_map (skipn xl (c_x c)) "") at 1. rewrite LK. reflexivity. }
  split; [rewrite HX, firstn_app, LF, Nat.sub_diag; cbn [firstn]; rewrite firstn_all2 by lia; apply app_nil_r|].
  split; [|split; [exact HF|split; [exact SC|exact HR]]].
  assert (EN : forall i, i < N -> nth (xl + i) (c_x c') "" = nth (nth i s 0) (skipn xl (c_x c)) "").
  { intros i Hi. rewrite <- nth_skipn', EK. unfold in_order. rewrite (nth_map_dep _ _ 0) by lia. reflexivity. }
  intros i j Hi Hij Hj. rewrite !EN by lia.
  assert (Bi : nth i s 0 < N) by (apply perm_lt; [exact S3|lia]).
  assert (Bj : nth j s 0 < N) by (apply perm_lt; [exact S3|lia]).
  assert (Ei : nth i s 0 = nth i l1 0) by (rewrite S1; apply app_nth1; lia).
  assert (Ki : mono_kept hess N (nth i s 0) = true).
  { rewrite Ei. rewrite Forall_forall in S6. apply S6, nth_In. lia. }
  assert (ND : NoDup s) by (apply (Permutation_NoDup (Permutation_sym S3)), seq_NoDup).
  assert (EH : ent hess (nth i s 0) (nth j s 0) =
    diff (nth (nth j s 0) (skipn xl (c_x c)) "") (diff (nth (nth i s 0) (skipn xl (c_x c)) "") (c_H c))).
  { unfold hess, hessian. cbn [ent jacobian]. unfold gradient.
    rewrite (nth_map_dep _ _ "") by (rewrite LK; exact Bi). reflexivity. }
  rewrite <- EH. pose proof Ki as Ki2. rewrite mono_kept_spec in Ki2.
  destruct (Ki2 (nth j s 0) Bj) as [[K1 K2]|K1]; [|exfalso|exact K1].
  { intros E0. apply (proj1 (NoDup_nth s 0) ND) in E0; lia. }
  destruct (Nat.lt_ge_cases j n) as [Lj|Lj].
  - (* both kept: increasing order *)
    assert (Ej : nth j s 0 = nth j l1 0) by (rewrite S1; apply app_nth1; lia).
    assert (Lt : nth i l1 0 < nth j l1 0).
    { clear -S4 Hij Lj S2. subst n. revert i j Hij Lj. induction S4 as [|a l SS IH FA]; intros i j Hij Lj; [cbn in Lj; lia|].
      destruct j as [|j]; [lia|]. cbn in Lj. destruct i as [|i]; cbn [nth].
      - rewrite Forall_forall in FA. apply FA, nth_In. lia.
      - apply IH; lia. }
    lia.
  - (* j not kept *)
    rewrite S1, app_nth2 in K2 by lia. rewrite Forall_forall in S7.
    assert (Lj2 : j - length l1 < length l2) by (rewrite S1, app_length in Ls; lia).
    exact (S7 _ (nth_In l2 0 Lj2) K2).
Qed.

(** ** Sequences of moves *)

Lemma moveM_frame i f c : exists M, fst (moveM i f c) = set_M M c.
Proof.
  unfold moveM. destruct (is_zero _).
  - exists (c_M c). destruct c; reflexivity.
  - destruct (movesquare _ _ _) as [A|e]; cbn; [now exists A|].
    exists (c_M c). destruct c; reflexivity.
Qed.

Lemma move_port_frame i f c : exists u y M,
  fst (move_port i f c) = set_M M (set_y y (set_u u c)).
Proof.
  assert (K0 : c = set_M (c_M c) (set_y (c_y c) (set_u (c_u c) c))) by (destruct c; reflexivity).
  unfold move_port. destruct (myrange _ _ _) as [l|]; cbn [olift raise fst]; [|eauto].
  destruct (pick (c_u c) l) as [u'|]; cbn [olift raise fst]; [|eauto].
  cbn [c_y set_u]. destruct (pick (c_y c) l) as [y'|]; cbn [olift raise fst].
  - destruct (moveM_frame (dim_x (set_y y' (set_u u' c)) + dim_w (set_y y' (set_u u' c)) + i)
       (dim_x (set_y y' (set_u u' c)) + dim_w (set_y y' (set_u u' c)) + f) (set_y y' (set_u u' c)))
      as [M E].
    exists u', y', M. exact E.
  - exists u', (c_y c), (c_M c). destruct c; reflexivity.
Qed.

Lemma move_connector_frame i f c : exists u y M,
  fst (move_connector i f c) = set_M M (set_cy y (set_cu u c)).
Proof.
  assert (K0 : c = set_M (c_M c) (set_cy (c_cy c) (set_cu (c_cu c) c))) by (destruct c; reflexivity).
  unfold move_connector. destruct (myrange _ _ _) as [l|]; cbn [olift raise fst]; [|eauto].
  destruct (pick (c_cu c) l) as [u'|]; cbn [olift raise fst]; [|eauto].
  cbn [c_cy set_cu]. destruct (pick (c_cy c) l) as [y'|]; cbn [olift raise fst].
  - set (c2 := set_cy y' (set_cu u' c)).
    destruct (moveM_frame (dim_x c2 + dim_w c2 + dim_y c2 + i) (dim_x c2 + dim_w c2 + dim_y c2 + f) c2)
      as [M E].
    exists u', y', M. exact E.
  - exists u', (c_cy c), (c_M c). destruct c; reflexivity.
Qed.

Lemma run_move_ok m c : wf c -> zl_ok c -> legal c m ->
  exists c' sg, run_move m c = ok c' /\ wf c' /\ zl_ok c' /\ follows sg c c' /\ same_context c c' /\
    keeps_kinds c c' /\ same_counts c c'.
Proof.
  intros W HZ HL.
  assert (KK : forall c', wf c' -> ntot c' = ntot c ->
    (stors c' = stors c \/ disss c' = disss c) /\ (stors c' = stors c \/ ports c' = ports c) /\
    (stors c' = stors c \/ conns c' = conns c) /\ (disss c' = disss c \/ ports c' = ports c) /\
    (disss c' = disss c \/ conns c' = conns c) /\ (ports c' = ports c \/ conns c' = conns c) ->
    keeps_kinds c c').
  { intros c' W' Hn HK.
    assert (S : stors c' = stors c -> length (c_x c') = length (c_x c))
      by (intros E; rewrite <- !stors_length by assumption; now rewrite E).
    assert (D : disss c' = disss c -> length (c_w c') = length (c_w c))
      by (intros E; rewrite <- !disss_length by assumption; now rewrite E).
    assert (Po : ports c' = ports c -> length (c_y c') = length (c_y c))
      by (intros E; rewrite <- !ports_length by assumption; now rewrite E).
    assert (Co : conns c' = conns c -> length (c_cy c') = length (c_cy c))
      by (intros E; rewrite <- !conns_length by assumption; now rewrite E).
    unfold ntot in Hn. unfold keeps_kinds.
    destruct HK as ([K|K] & HK).
    - apply S in K. destruct HK as (_ & _ & [K2|K2] & [K3|K3] & [K4|K4]);
        repeat match goal with
        | H : disss _ = _ |- _ => apply D in H | H : ports _ = _ |- _ => apply Po in H
        | H : conns _ = _ |- _ => apply Co in H end; lia.
    - apply D in K. destruct HK as ([K1|K1] & [K2|K2] & _ & _ & [K4|K4]);
        repeat match goal with
        | H : stors _ = _ |- _ => apply S in H | H : ports _ = _ |- _ => apply Po in H
        | H : conns _ = _ |- _ => apply Co in H end; lia. }
  assert (HN : forall sg c', wf c' -> follows sg c c' -> ntot c' = ntot c).
  { intros sg c' W' F. destruct F as (_ & _ & _ & Hr & _). destruct W' as (_ & _ & E & _). congruence. }
  destruct m as [i f|i f|i f|i f]; cbn [run_move legal] in *; destruct HL as [Hi Hf].
  - destruct (move_stor_follows c i f W Hi Hf) as (c' & sg & E & W' & _ & F & SC & E1 & E2 & E3 & _).
    destruct (move_stor_frame (Z.of_nat i) (Z.of_nat f) c) as (x & d & M & EF).
    rewrite E in EF. cbn [fst ok] in EF.
    exists c', sg. split; [exact E|]. split; [exact W'|]. split; [subst c'; exact HZ|].
    split; [exact F|]. split; [exact SC|]. split.
    + apply KK; [exact W'|exact (HN sg c' W' F)|]. rewrite E1, E2, E3. auto 10.
    + rewrite EF. repeat split.
  - destruct (move_diss_follows c i f W Hi Hf HZ) as (c' & sg & E & W' & _ & F & SC & E1 & E2 & E3 & _).
    destruct (move_diss_frame i f c HZ) as (x & d & M & Zl' & EF & HZ').
    rewrite E in EF. cbn [fst ok] in EF.
    exists c', sg. split; [exact E|]. split; [exact W'|]. split; [subst c'; exact HZ'|].
    split; [exact F|]. split; [exact SC|]. split.
    + apply KK; [exact W'|exact (HN sg c' W' F)|]. rewrite E1, E2, E3. auto 10.
    + rewrite EF. repeat split.
  - destruct (move_port_follows c i f W Hi Hf) as (c' & sg & E & W' & _ & F & SC & E1 & E2 & E3 & _).
    destruct (move_port_frame (Z.of_nat i) (Z.of_nat f) c) as (x & d & M & EF).
    rewrite E in EF. cbn [fst ok] in EF.
    exists c', sg. split; [exact E|]. split; [exact W'|]. split; [subst c'; exact HZ|].
    split; [exact F|]. split; [exact SC|]. split.
    + apply KK; [exact W'|exact (HN sg c' W' F)|]. rewrite E1, E2, E3. auto 10.
    + rewrite EF. repeat split.
  - destruct (move_connector_follows c i f W Hi Hf) as (c' & sg & E & W' & _ & F & SC & E1 & E2 & E3 & _).
    destruct (move_connector_frame (Z.of_nat i) (Z.of_nat f) c) as (x & d & M & EF).
    rewrite E in EF. cbn [fst ok] in EF.
    exists c', sg. split; [exact E|]. split; [exact W'|]. split; [subst c'; exact HZ|].
    split; [exact F|]. split; [exact SC|]. split.
    + apply KK; [exact W'|exact (HN sg c' W' F)|]. rewrite E1, E2, E3. auto 10.
    + rewrite EF. repeat split.
Qed.

Lemma follows_id c : wf c -> follows (seq 0 (ntot c)) c c.
Proof.
  intros W. apply (fol_follows (fun k => k)); [exact W|now apply fol_id|reflexivity|].
  intros k Hk. now rewrite seq_nth.
Qed.

Lemma run_moves_ok ms : forall c, wf c -> zl_ok c -> Forall (legal c) ms ->
  exists c' sg, run_moves ms c = ok c' /\ wf c' /\ follows sg c c' /\ same_context c c' /\
    keeps_kinds c c' /\ same_counts c c'.
Proof.
  induction ms as [|m ms IH]; intros c W HZ HL.
  - exists c, (seq 0 (ntot c)). split; [reflexivity|]. split; [exact W|].
    split; [now apply follows_id|]. repeat split.
  - inversion HL as [|? ? H1 H2]; subst.
    destruct (run_move_ok m c W HZ H1) as (c1 & s1 & E1 & W1 & Z1 & F1 & SC1 & K1 & C1).
    destruct (IH c1 W1 Z1) as (c2 & s2 & E2 & W2 & F2 & SC2 & K2 & C2).
    { eapply Forall_impl; [|exact H2]. destruct K1 as (K1a & K1b & K1c & K1d).
      intros [i f|i f|i f|i f]; unfold legal; rewrite ?K1a, ?K1b, ?K1c, ?K1d; auto. }
    exists c2. eexists. cbn [run_moves]. rewrite E1. cbn [obind ok]. split; [exact E2|].
    split; [exact W2|]. split; [exact (follows_trans _ _ _ _ _ W W1 W2 F1 F2)|].
    split; [exact (same_context_trans _ _ _ SC1 SC2)|]. split.
    + destruct K1 as (? & ? & ? & ?), K2 as (? & ? & ? & ?). repeat split; congruence.
    + destruct C1 as (? & ? & ? & ? & ?), C2 as (? & ? & ? & ? & ?). repeat split; congruence.
Qed.

Lemma custom_split_ok c A argx B argw :
  wf c -> (nr (c_Zl c) = Z.to_nat (c_wl c) \/ is_zero (c_Zl c) = true) ->
  nc A = length (c_x c) -> nc B = length (c_w c) ->
  exists c' sx sw nxl nwl, linear_nonlinear (Some ((A, argx), (B, argw))) c = ok c' /\
    wf c' /\ counters_ok c' /\
    stable_partition (length (c_x c)) nxl (free_column A argx) sx /\
    stable_partition (length (c_w c)) nwl (free_column B argw) sw /\
    c_xl c' = Z.of_nat nxl /\ c_wl c' = Z.of_nat nwl /\
    follows (block_order c sx sw) c c' /\ same_context c c' /\
    c_x c' = in_order "" (c_x c) sx /\ c_w c' = in_order "" (c_w c) sw /\
    c_z c' = in_order (Num 0) (c_z c) sw.
Proof.
  intros W HZ HA HB.
  destruct (linear_nonlinear_ok (Some ((A, argx), (B, argw))) c W HZ)
    as (c' & sx & sw & nxl & nwl & E & W' & CO & S1 & S2 & X & Wl & F & SC & E1 & E2 & E3 & _).
  { intros _. split; assumption. }
  exists c', sx, sw, nxl, nwl. cbn [split_crit fst snd] in S1, S2. repeat (split; [assumption|]). assumption.
Qed.

Lemma is_ok' (o : outcome) : snd o = None -> o = ok (fst o).
Proof. destruct o as [c e]. cbn. now intros ->. Qed.

Lemma Q_constant c :
  wf c -> (nr (c_Zl c) = Z.to_nat (c_wl c) \/ is_zero (c_Zl c) = true) ->
  exists c', linear_nonlinear None c = ok c' /\
    nr (c_Q c') = Z.to_nat (c_xl c') /\ nc (c_Q c') = Z.to_nat (c_xl c') /\
    forall i j s, (Z.of_nat i < c_xl c')%Z -> (Z.of_nat j < c_xl c')%Z ->
      In s (free_symbols (ent (c_Q c') i j)) -> ~ In s (c_x c) /\ ~ In s (dx c) /\ ~ In s (c_w c).
Proof.
  intros W HZ.
  destruct (linear_nonlinear_ok None c W HZ)
    as (c' & sx & sw & nxl & nwl & E & W' & CO & S1 & S2 & X & Wl & F & SC & E1 & E2 & E3 &
        _ & _ & _ & _ & EQ & _).
  { intros []. reflexivity. }
  cbn [split_crit fst snd] in S1.
  destruct S1 as (l1 & l2 & Es & L1 & HP & _ & _ & F1 & _).
  assert (Ls : length sx = length (c_x c)) by (rewrite (Permutation_length HP); apply seq_length).
  assert (LF : length (firstn nxl (c_x c')) = nxl).
  { rewrite firstn_length, E1. unfold in_order. rewrite map_length, Es, app_length. lia. }
  exists c'. split; [exact E|]. rewrite X, EQ, Nat2Z.id.
  split; [unfold hessian, jacobian, gradient; cbn [nr]; now rewrite map_length|].
  split; [unfold hessian, jacobian; cbn [nc]; exact LF|].
  intros i j s Hi Hj HIn.
  assert (Hi' : i < nxl) by lia. assert (Hj' : j < nxl) by lia.
  assert (K : forall k, k < nxl -> nth k (c_x c') "" = nth (nth k sx 0) (c_x c) "").
  { intros k Hk. rewrite E1. unfold in_order. rewrite (nth_map_dep _ _ 0); [reflexivity|].
    rewrite Es, app_length. lia. }
  assert (B : forall k, k < nxl -> nth k sx 0 < length (c_x c)).
  { intros k Hk. apply perm_lt; [exact HP|]. rewrite Es, app_length in Ls. lia. }
  assert (EE : ent (hessian (c_H c) (firstn nxl (c_x c'))) i j =
               ent (hessian (c_H c) (c_x c)) (nth i sx 0) (nth j sx 0)).
  { unfold hessian, jacobian, gradient. cbn [ent].
    rewrite (nth_map_dep _ _ "") by (rewrite LF; exact Hi').
    rewrite (nth_map_dep _ (c_x c) "") by (apply B; exact Hi').
    rewrite !nth_firstn_lt by assumption. now rewrite !K by assumption. }
  rewrite EE in HIn.
  assert (FC : free_column (hessian (c_H c) (c_x c)) (c_x c ++ dx c ++ c_w c) (nth j sx 0)).
  { rewrite Forall_forall in F1. apply F1. rewrite Es, app_nth1 by lia. apply nth_In. lia. }
  specialize (FC (nth i sx 0) s). rewrite !in_app_iff in FC.
  assert (~ (In s (c_x c) \/ In s (dx c) \/ In s (c_w c))).
  { apply FC; [|exact HIn]. unfold hessian, jacobian, gradient. cbn [nr]. rewrite map_length. now apply B. }
  split; [|split]; intros HC; apply H; auto.
Qed.

Definition coupled_core : core :=
  mkCore "c" ["x1"; "x2"] (Add (Mul (Sym "x1") (Sym "x2")) (Pow (Sym "x2") 4)) None
    [] [] [] [] [] [] []
    (of_rows 2 [[Num 0; Num 1]; [Num (-1); Num 0]])
    [] [] [] [] (zeros 0 0) [] (zeros 0 0) 0 0 0.

Lemma bl_constant_refuted : exists c c',
  wf c /\ linear_nonlinear None c = ok c' /\ c_xl c' = 1%Z /\ c_x c' = ["x1"; "x2"] /\
  exists r1 r2 : env, (forall s, s <> "x2" -> r1 s = r2 s) /\
    eval r1 (nth 0 (c_bl c') (Num 0)) <> eval r2 (nth 0 (c_bl c') (Num 0)).
Proof.
  exists coupled_core, (fst (linear_nonlinear None coupled_core)).
  split; [repeat split; discriminate|].
  split. { apply is_ok'. vm_compute. reflexivity. }
  split; [vm_compute; reflexivity|]. split; [vm_compute; reflexivity|].
  exists (fun _ => 0%R), (fun s => if String.eqb s "x2" then 1%R else 0%R).
  split. { intros s Hs. destruct (String.eqb_spec s "x2"); [contradiction|reflexivity]. }
  let t := eval vm_compute in (nth 0 (c_bl (fst (linear_nonlinear None coupled_core))) (Num 0)) in
  assert (E : nth 0 (c_bl (fst (linear_nonlinear None coupled_core))) (Num 0) = t)
    by (vm_compute; reflexivity). rewrite E. clear.
  cbn. unfold Q2R; cbn. lra.
Qed.
