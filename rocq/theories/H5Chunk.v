(** Writing through chunks: proofs. *)
From Coq Require Import String List ZArith Bool Lia Arith FinFun.
From Verif Require Import Py H5 Spec_H5.
Import ListNotations.
Local Open Scope list_scope.
Local Open Scope nat_scope.

(** ** Slices *)

Lemma stride_aux_map : forall A B (f : A -> B) k l c,
  stride_aux k c (map f l) = map f (stride_aux k c l).
Proof.
  induction l as [|a l IH]; intros c; cbn; [reflexivity|].
  destruct c; cbn; rewrite IH; reflexivity.
Qed.

Lemma stride_aux_skip : forall A k c (l : list A),
  stride_aux k c l = stride_aux k 0 (skipn c l).
Proof.
  induction c as [|c IH]; intros [|a l]; cbn; try reflexivity.
  apply IH.
Qed.

Lemma stride_one : forall A (l : list A), stride 1 l = l.
Proof.
  unfold stride; induction l as [|a l IH]; cbn; [reflexivity|].
  rewrite IH; reflexivity.
Qed.

Lemma stride_seq : forall s, 0 < s -> forall n a m,
  (forall k, k < m <-> k * s < n) ->
  stride s (seq a n) = map (fun k => a + k * s) (seq 0 m).
Proof.
  intros s SP; unfold stride.
  induction n as [n IH] using lt_wf_ind; intros a m C.
  destruct n as [|n].
  - assert (m = 0) by (destruct m; [reflexivity|];
      specialize (C 0); cbn in C; lia).
    subst; reflexivity.
  - destruct m as [|m]; [specialize (C 0); cbn in C; lia|].
    cbn [seq stride_aux map].
    rewrite Nat.mul_0_l, Nat.add_0_r; f_equal.
    rewrite stride_aux_skip.
    assert (E : skipn (s - 1) (seq (S a) n) = seq (a + s) (n - (s - 1))).
    { assert (G : forall j x y, skipn j (seq x y) = seq (x + j) (y - j)).
      { induction j as [|j IJ]; intros x [|y]; cbn; try reflexivity.
        - rewrite Nat.add_0_r; reflexivity.
        - rewrite IJ; replace (S x + j) with (x + S j) by lia; reflexivity. }
      rewrite G; f_equal; lia. }
    rewrite E, (IH (n - (s - 1))) with (m := m) by
        (try lia; intro k; specialize (C (S k)); cbn in C; lia).
    rewrite <- seq_shift, map_map; apply map_ext; intro k; cbn; lia.
Qed.

Lemma py_slice_nat : forall A (l : list A) a b,
  a <= length l -> b <= length l ->
  py_slice l (Some (Z.of_nat a)) (Some (Z.of_nat b))
  = firstn (b - a) (skipn a l).
Proof.
  intros A l a b La Lb; unfold py_slice, py_clamp.
  replace (Z.of_nat a <? 0)%Z with false by (symmetry; apply Z.ltb_ge; lia).
  replace (Z.of_nat b <? 0)%Z with false by (symmetry; apply Z.ltb_ge; lia).
  f_equal; [lia|f_equal; lia].
Qed.

Lemma skipn_seq : forall j x y, skipn j (seq x y) = seq (x + j) (y - j).
Proof.
  induction j as [|j IJ]; intros x [|y]; cbn; try reflexivity.
  - rewrite Nat.add_0_r; reflexivity.
  - rewrite IJ; replace (S x + j) with (x + S j) by lia; reflexivity.
Qed.

Lemma firstn_seq : forall j x y, firstn j (seq x y) = seq x (Nat.min j y).
Proof.
  induction j as [|j IJ]; intros x [|y]; cbn; try reflexivity.
  rewrite IJ; reflexivity.
Qed.

Lemma py_slice_out : forall A (l : list A) a b, length l <= a ->
  py_slice l (Some (Z.of_nat a)) b = [].
Proof.
  intros A l a b La; unfold py_slice.
  assert (E : py_clamp (Z.of_nat (length l)) (Z.of_nat a)
              = Z.of_nat (length l)).
  { unfold py_clamp.
    replace (Z.of_nat a <? 0)%Z with false by (symmetry; apply Z.ltb_ge; lia).
    lia. }
  rewrite E, Nat2Z.id, skipn_all, firstn_nil; reflexivity.
Qed.

Lemma aslice_seq : forall a b s n nr, 0 < s -> b <= n ->
  counts a b s nr ->
  slice_of (mkSlice (Some (Z.of_nat a)) (Some (Z.of_nat b)) (Some s))
           (seq 0 n)
  = map (fun k => a + k * s) (seq 0 nr).
Proof.
  intros a b s n nr S B C; unfold slice_of; cbn.
  destruct (Nat.le_gt_cases a n) as [L|L].
  - rewrite py_slice_nat by (rewrite seq_length; lia).
    rewrite skipn_seq, firstn_seq; cbn.
    apply stride_seq; [exact S|].
    intro k; rewrite (C k); lia.
  - rewrite py_slice_out by (rewrite seq_length; lia).
    assert (nr = 0) by (destruct nr; [reflexivity|];
      specialize (C 0); cbn in C; lia).
    subst; reflexivity.
Qed.

Lemma skipn_skipn' : forall A j i (l : list A),
  skipn j (skipn i l) = skipn (i + j) l.
Proof.
  induction i as [|i IH]; intros [|x l]; cbn; try reflexivity.
  - apply skipn_nil.
  - apply IH.
Qed.

Section Chunks.
Context {A : Type}.
Notation row := (list A).

(** ** Plain writing *)

Lemma split_concat : forall m (block rest : list row) l,
  Forall (fun r => length r = m) block ->
  split_rows (length block) m (concat block ++ l) = block.
Proof.
  induction block as [|b block IH]; intros rest l F; cbn; [reflexivity|].
  inversion F; subst.
  rewrite <- app_assoc, firstn_app, Nat.sub_diag, firstn_all, app_nil_r.
  rewrite skipn_app, Nat.sub_diag, skipn_all; cbn.
  rewrite IH; [reflexivity|exact rest|assumption].
Qed.

Lemma concat_length_rect : forall m (block : list row),
  Forall (fun r => length r = m) block ->
  length (concat block) = length block * m.
Proof.
  induction block as [|b block IH]; intros F; cbn; [reflexivity|].
  inversion F; subst; rewrite app_length, IH by assumption; reflexivity.
Qed.

Lemma set_rows_app : forall cs r1 b1 (d : list row) r2 b2,
  length r1 = length b1 ->
  set_rows d (r1 ++ r2) cs (b1 ++ b2)
  = (do d' <- set_rows d r1 cs b1; set_rows d' r2 cs b2).
Proof.
  induction r1 as [|r r1 IH]; intros [|b b1] d r2 b2 L; cbn in L;
    try discriminate; cbn [app set_rows rbind]; [reflexivity|].
  destruct (nth_error d r); [|reflexivity].
  destruct (length b =? length cs); [|reflexivity].
  apply IH; lia.
Qed.

Lemma split_at : forall B n (l : list B), n <= length l ->
  l = firstn n l ++ skipn n l.
Proof. intros; symmetry; apply firstn_skipn. Qed.

(** The loop does what one write of all the remaining rows does. *)
Lemma write_loop_plain : forall rows cs nc chunk (it : list row),
  0 < chunk -> 0 < nc -> length it = length rows ->
  Forall (fun r => length r = nc) it ->
  forall fuel d off, off <= length rows -> length rows - off < fuel ->
  write_loop fuel d rows cs (length rows) nc chunk off (concat (skipn off it))
  = set_rows d (skipn off rows) cs (skipn off it).
Proof.
  intros rows cs nc chunk it CH NC LI FI.
  induction fuel as [|fuel IH]; intros d off LO FU; [lia|].
  cbn [write_loop].
  destruct (off + chunk <=? length rows) eqn:E.
  - apply Nat.leb_le in E.
    assert (FS : Forall (fun r => length r = nc) (skipn off it)).
    { apply Forall_forall; intros x I.
      apply (proj1 (Forall_forall _ _) FI).
      rewrite <- (firstn_skipn off it); apply in_or_app; right; exact I. }
    assert (LS : length (skipn off it) = length rows - off)
      by (rewrite skipn_length; lia).
    set (S := skipn off it) in *.
    assert (FF : Forall (fun r => length r = nc) (firstn chunk S)).
    { apply Forall_forall; intros x I.
      apply (proj1 (Forall_forall _ _) FS).
      rewrite <- (firstn_skipn chunk S); apply in_or_app; left; exact I. }
    assert (LF : length (firstn chunk S) = chunk)
      by (rewrite firstn_length; lia).
    assert (CE : concat S = concat (firstn chunk S) ++ concat (skipn chunk S)).
    { rewrite <- concat_app, firstn_skipn; reflexivity. }
    assert (LC : length (concat (firstn chunk S)) = chunk * nc).
    { rewrite (concat_length_rect nc) by exact FF; rewrite LF; reflexivity. }
    unfold fromiter.
    replace (length (concat S) <? chunk * nc) with false.
    2:{ symmetry; apply Nat.ltb_ge.
        rewrite (concat_length_rect nc) by exact FS.
        apply Nat.mul_le_mono_r; lia. }
    cbn [rbind].
    rewrite CE.
    rewrite firstn_app, LC, Nat.sub_diag, <- LC, firstn_all.
    cbn [firstn]; rewrite app_nil_r.
    rewrite skipn_app, Nat.sub_diag, skipn_all.
    cbn [skipn app].
    assert (SP : split_rows chunk nc (concat (firstn chunk S))
                 = firstn chunk S).
    { pose proof (split_concat nc (firstn chunk S) [] [] FF) as SC.
      rewrite app_nil_r in SC; rewrite LF in SC; exact SC. }
    rewrite SP.
    assert (RE : skipn off rows
                 = firstn chunk (skipn off rows) ++ skipn (off + chunk) rows).
    { rewrite <- (firstn_skipn chunk (skipn off rows)) at 1.
      f_equal; rewrite skipn_skipn'; reflexivity. }
    replace (set_rows d (skipn off rows) cs S)
      with (set_rows d (firstn chunk (skipn off rows)
                        ++ skipn (off + chunk) rows) cs
                     (firstn chunk S ++ skipn chunk S))
      by (rewrite <- RE, firstn_skipn; reflexivity).
    rewrite set_rows_app.
    2:{ rewrite !firstn_length, skipn_length; lia. }
    assert (SE : skipn chunk S = skipn (off + chunk) it).
    { unfold S; rewrite skipn_skipn'; reflexivity. }
    rewrite SE.
    destruct (set_rows d (firstn chunk (skipn off rows)) cs (firstn chunk S))
      as [d'|e]; cbn [rbind]; [|reflexivity].
    apply IH; lia.
  - apply Nat.leb_gt in E.
    destruct (off =? length rows) eqn:E2.
    + apply Nat.eqb_eq in E2; subst off.
      rewrite skipn_all, <- LI, skipn_all; reflexivity.
    + apply Nat.eqb_neq in E2.
      assert (FS : Forall (fun r => length r = nc) (skipn off it)).
      { apply Forall_forall; intros x I.
        apply (proj1 (Forall_forall _ _) FI).
        rewrite <- (firstn_skipn off it); apply in_or_app; right; exact I. }
      unfold reshape_free.
      replace (nc =? 0) with false by (symmetry; apply Nat.eqb_neq; lia).
      rewrite (concat_length_rect nc) by exact FS.
      rewrite Nat.mod_mul, Nat.div_mul by lia; cbn [Nat.eqb rbind].
      pose proof (split_concat nc (skipn off it) [] [] FS) as SC.
      rewrite app_nil_r in SC; rewrite SC; reflexivity.
Qed.

(** ** What a plain write does *)

Lemma replace_at_length : forall B i (b : B) l, i < length l ->
  length (replace_at i b l) = length l.
Proof.
  intros; unfold replace_at; rewrite app_length; cbn [length].
  rewrite firstn_length, skipn_length; lia.
Qed.

Lemma replace_at_nth : forall B i (b : B) l j, i < length l ->
  nth_error (replace_at i b l) j = if j =? i then Some b else nth_error l j.
Proof.
  induction i as [|i IH]; intros b [|x l] j L; cbn in L; try lia.
  - destruct j; reflexivity.
  - destruct j; [reflexivity|].
    apply (IH b l j); lia.
Qed.

Lemma set_cols_length : forall cs vs (r : row),
  Forall (fun c => c < length r) cs -> length (set_cols r cs vs) = length r.
Proof.
  induction cs as [|c cs IH]; intros [|v vs] r F; cbn; try reflexivity.
  inversion F; subst.
  rewrite IH; rewrite replace_at_length by assumption; [reflexivity|].
  assumption.
Qed.

Lemma set_cols_out : forall cs vs (r : row) j,
  Forall (fun c => c < length r) cs -> ~ In j cs ->
  nth_error (set_cols r cs vs) j = nth_error r j.
Proof.
  induction cs as [|c cs IH]; intros [|v vs] r j F N; cbn; try reflexivity.
  inversion F; subst.
  rewrite IH.
  - rewrite replace_at_nth by assumption.
    destruct (j =? c) eqn:E; [|reflexivity].
    apply Nat.eqb_eq in E; subst; exfalso; apply N; left; reflexivity.
  - rewrite replace_at_length; assumption.
  - intro I; apply N; right; exact I.
Qed.

Lemma set_cols_in : forall cs vs (r : row) k j,
  Forall (fun c => c < length r) cs -> NoDup cs -> length vs = length cs ->
  nth_error cs k = Some j ->
  nth_error (set_cols r cs vs) j = nth_error vs k.
Proof.
  induction cs as [|c cs IH]; intros [|v vs] r k j F D L E; cbn in L;
    try discriminate.
  - destruct k; discriminate.
  - inversion F; inversion D; subst; destruct k as [|k]; cbn in E.
    + inversion E; subst; cbn [set_cols].
      rewrite set_cols_out.
      * rewrite replace_at_nth, Nat.eqb_refl by assumption; reflexivity.
      * rewrite replace_at_length; assumption.
      * assumption.
    + cbn [set_cols nth_error]; apply IH; try assumption.
      * rewrite replace_at_length; assumption.
      * lia.
Qed.

Lemma set_rows_spec : forall w cs, NoDup cs -> Forall (fun c => c < w) cs ->
  forall rs block (d : list row), NoDup rs ->
  Forall (fun r => r < length d) rs ->
  Forall (fun r => length r = w) d ->
  length block = length rs ->
  Forall (fun b => length b = length cs) block ->
  exists d', set_rows d rs cs block = Ok d' /\
    rect (length d) w d' /\
    (forall k l i j, nth_error rs k = Some i -> nth_error cs l = Some j ->
                     cell d' i j = cell block k l) /\
    (forall i j, ~ (In i rs /\ In j cs) -> cell d' i j = cell d i j).
Proof.
  intros w cs DC FC; induction rs as [|r rs IH];
    intros [|b block] d DR FR FD LB FB; cbn in LB; try discriminate.
  - exists d; split; [reflexivity|]; split; [split; [reflexivity|exact FD]|].
    split; [|reflexivity].
    intros [|k] l i j E; discriminate.
  - cbn [set_rows].
    inversion DR as [|? ? NI DR']; inversion FR as [|? ? RL FR'];
      inversion FB as [|? ? LB0 FB']; subst.
    destruct (nth_error d r) as [r0|] eqn:E0.
    2:{ apply nth_error_None in E0; lia. }
    rewrite LB0, Nat.eqb_refl.
    assert (W0 : length r0 = w).
    { apply (proj1 (Forall_forall _ _) FD r0).
      eapply nth_error_In; exact E0. }
    assert (FC0 : Forall (fun c => c < length r0) cs) by (rewrite W0; exact FC).
    set (d1 := replace_at r (set_cols r0 cs b) d).
    assert (L1 : length d1 = length d)
      by (apply replace_at_length; assumption).
    assert (N1 : forall j, nth_error d1 j
                 = if j =? r then Some (set_cols r0 cs b) else nth_error d j)
      by (intro j; apply replace_at_nth; assumption).
    destruct (IH block d1) as (d' & S1 & S2 & S3 & S4).
    + assumption.
    + rewrite L1; assumption.
    + apply Forall_forall; intros x I.
      apply In_nth_error in I; destruct I as [j I]; rewrite N1 in I.
      destruct (j =? r).
      * inversion I; rewrite set_cols_length; assumption.
      * apply (proj1 (Forall_forall _ _) FD x).
        eapply nth_error_In; exact I.
    + lia.
    + assumption.
    + exists d'; split; [exact S1|].
      split; [rewrite <- L1; exact S2|]; split.
      * intros [|k] l i j E1 E2; cbn in E1.
        -- inversion E1; subst i.
           rewrite S4 by (intros [I _]; contradiction).
           unfold cell; rewrite N1, Nat.eqb_refl; cbn [nth_error].
           apply set_cols_in with (k := l); assumption.
        -- apply (S3 k l i j); assumption.
      * intros i j N.
        rewrite S4.
        2:{ intros [I J]; apply N; split; [right; exact I|exact J]. }
        unfold cell; rewrite N1.
        destruct (i =? r) eqn:E1; [|reflexivity].
        apply Nat.eqb_eq in E1; subst i; rewrite E0.
        apply set_cols_out; [assumption|].
        intro J; apply N; split; [left; reflexivity|exact J].
Qed.

(** ** Arithmetic slices *)

Lemma ap_NoDup : forall a s n, 0 < s ->
  NoDup (map (fun k => a + k * s) (seq 0 n)).
Proof.
  intros a s n S; apply FinFun.Injective_map_NoDup; [|apply seq_NoDup].
  intros x y E; nia.
Qed.

Lemma ap_bound : forall a b s n N, counts a b s n -> b <= N ->
  Forall (fun c => c < N) (map (fun k => a + k * s) (seq 0 n)).
Proof.
  intros a b s n N C B; apply Forall_forall; intros x I.
  apply in_map_iff in I; destruct I as (k & E & I).
  apply in_seq in I; subst x.
  assert (a + k * s < b) by (apply C; lia); lia.
Qed.

Lemma ap_nth : forall a s n k, k < n ->
  nth_error (map (fun k => a + k * s) (seq 0 n)) k = Some (a + k * s).
Proof.
  intros a s n k L.
  rewrite nth_error_map.
  rewrite (nth_error_nth' _ 0) by (rewrite seq_length; exact L).
  rewrite seq_nth by exact L; reflexivity.
Qed.

Lemma min_chunk : forall rows cs nc chunk (it : list row) d fuel,
  0 < chunk -> 0 < nc -> 0 < length rows -> length it = length rows ->
  Forall (fun r => length r = nc) it -> length rows < fuel ->
  write_loop fuel d rows cs (length rows) nc (Nat.min chunk (length rows)) 0
             (concat it)
  = set_rows d rows cs it.
Proof.
  intros rows cs nc chunk it d fuel CH NC NR L F FU.
  apply (write_loop_plain rows cs nc (Nat.min chunk (length rows)) it)
    with (off := 0); try assumption; lia.
Qed.

Lemma chunked_slices : forall (data it : list row) n w a b s nr a' b' s' nc
  chunk fuel,
  rect n w data -> b <= n -> b' <= w -> 0 < s -> 0 < s' ->
  counts a b s nr -> counts a' b' s' nc ->
  0 < nr -> 0 < nc -> rect nr nc it -> 0 < chunk -> nr < fuel ->
  exists data',
    set_dataset_from_iterable fuel data w it (aslice a b s) (aslice a' b' s')
                              chunk = Ok data' /\
    rect n w data' /\ written data it data' a s nr a' s' nc.
Proof.
  intros data it n w a b s nr a' b' s' nc chunk fuel [Ln Fw] Bn Bw S S' C C'
         NR NC [Li Fi] CH FU.
  unfold set_dataset_from_iterable, aslice; cbn [s_stop].
  rewrite !Nat2Z.id.
  rewrite (aslice_seq a b s b nr) by (assumption || lia).
  rewrite (aslice_seq a' b' s' b' nc) by (assumption || lia).
  rewrite (aslice_seq a' b' s' w nc) by (assumption || lia).
  set (rows := map (fun k => a + k * s) (seq 0 nr)).
  set (cols := map (fun k => a' + k * s') (seq 0 nc)).
  assert (LR : length rows = nr)
    by (unfold rows; rewrite map_length, seq_length; reflexivity).
  assert (LC : length cols = nc)
    by (unfold cols; rewrite map_length, seq_length; reflexivity).
  rewrite LC.
  rewrite min_chunk by (try assumption; lia).
  destruct (set_rows_spec w cols (ap_NoDup _ _ _ S')
              (ap_bound a' b' s' nc w C' Bw) rows it data
              (ap_NoDup _ _ _ S)) as (d' & E & R & IN & OUT).
  - rewrite Ln; exact (ap_bound a b s nr n C Bn).
  - exact Fw.
  - lia.
  - rewrite LC; exact Fi.
  - exists d'; split; [exact E|]; split; [rewrite <- Ln; exact R|]; split.
    + intros k l K L; apply IN; apply ap_nth; assumption.
    + intros i j N; apply OUT; intros [I J]; apply N.
      unfold rows in I; unfold cols in J.
      apply in_map_iff in I; destruct I as (k & E1 & I); apply in_seq in I.
      apply in_map_iff in J; destruct J as (l & E2 & J); apply in_seq in J.
      exists k, l; lia.
Qed.

Lemma cell_ext : forall n w (m m' : list row), rect n w m -> rect n w m' ->
  (forall i j, cell m i j = cell m' i j) -> m = m'.
Proof.
  induction n as [|n IH]; intros w [|r m] [|r' m'] [L F] [L' F'] E;
    cbn in L, L'; try discriminate; [reflexivity|].
  inversion F; inversion F'; subst; f_equal.
  - assert (G : forall (x y : row), length x = length y ->
              (forall j, nth_error x j = nth_error y j) -> x = y).
    { induction x as [|a x IX]; intros [|b y] LL EE; cbn in LL;
        try discriminate; [reflexivity|].
      pose proof (EE 0) as E0; cbn in E0; inversion E0; f_equal.
      apply IX; [lia|]; intro j; exact (EE (S j)). }
    apply G; [congruence|]; intro j; exact (E 0 j).
  - apply (IH (length r)).
    + split; [lia|assumption].
    + split; [lia|assumption].
    + intros i j; exact (E (S i) j).
Qed.

Lemma chunked_whole : forall (data it : list row) n w chunk fuel,
  rect n w data -> rect n w it -> 0 < n -> 0 < w -> 0 < chunk -> n < fuel ->
  set_dataset_from_iterable fuel data w it None None chunk = Ok it.
Proof.
  intros data it n w chunk fuel [Ln Fw] [Li Fi] N W CH FU.
  unfold set_dataset_from_iterable; cbn [s_stop].
  rewrite Ln.
  pose proof (min_chunk (seq 0 n) (seq 0 w) w chunk it data fuel CH W) as MC.
  rewrite seq_length in MC; rewrite MC by assumption; clear MC.
  destruct (set_rows_spec w (seq 0 w) (seq_NoDup _ _)
              (proj2 (Forall_forall _ _)
                 (fun x I => proj2 (proj1 (in_seq w 0 x) I)))
              (seq 0 n) it data (seq_NoDup _ _))
    as (d' & E & R & IN & OUT).
  - apply Forall_forall; intros x I; apply in_seq in I; lia.
  - exact Fw.
  - rewrite seq_length; exact Li.
  - rewrite seq_length; exact Fi.
  - rewrite E; f_equal; rewrite Ln in R.
    apply (cell_ext n w); [exact R|split; assumption|].
    intros i j.
    destruct (Nat.lt_ge_cases i n) as [I|I];
      destruct (Nat.lt_ge_cases j w) as [J|J].
    + assert (NS : forall m k, k < m -> nth_error (seq 0 m) k = Some k).
      { intros m k K.
        rewrite (nth_error_nth' _ 0) by (rewrite seq_length; exact K).
        rewrite seq_nth by exact K; reflexivity. }
      apply (IN i j i j); apply NS; assumption.
    + assert (G : forall m : list row, rect n w m -> cell m i j = None).
      { intros m [Lm Fm]; unfold cell.
        destruct (nth_error m i) as [r|] eqn:E1; [|reflexivity].
        apply nth_error_None.
        rewrite (proj1 (Forall_forall _ _) Fm r
                       (nth_error_In _ _ E1)); exact J. }
      rewrite !G; [reflexivity|split; assumption|exact R].
    + assert (G : forall m : list row, rect n w m -> cell m i j = None).
      { intros m [Lm Fm]; unfold cell.
        replace (nth_error m i) with (@None row); [reflexivity|].
        symmetry; apply nth_error_None; lia. }
      rewrite !G; [reflexivity|split; assumption|exact R].
    + assert (G : forall m : list row, rect n w m -> cell m i j = None).
      { intros m [Lm Fm]; unfold cell.
        replace (nth_error m i) with (@None row); [reflexivity|].
        symmetry; apply nth_error_None; lia. }
      rewrite !G; [reflexivity|split; assumption|exact R].
Qed.

(** No rows: the loop never ends. *)
Lemma empty_loop : forall fuel rows cols nc (it : list A) d,
  rows = [] ->
  write_loop fuel d rows cols 0 nc 0 0 it = Err OutOfFuel.
Proof.
  induction fuel as [|fuel IH]; intros rows cols nc it d E; subst;
    [reflexivity|].
  cbn; apply IH; reflexivity.
Qed.

Lemma empty_never_returns : forall fuel w it chunk,
  set_dataset_from_iterable fuel (@nil row) w it None None chunk
  = Err OutOfFuel.
Proof.
  intros; unfold set_dataset_from_iterable; cbn [length].
  rewrite Nat.min_0_r; apply empty_loop; reflexivity.
Qed.

End Chunks.

Lemma surplus_refuted : exists (data it : list (list nat)) c1 c2 d,
  0 < c1 /\ 0 < c2 /\
  (forall fuel, 3 <= fuel ->
     set_dataset_from_iterable fuel data 1 it None None c1 = Ok d) /\
  (forall fuel, 3 <= fuel ->
     set_dataset_from_iterable fuel data 1 it None None c2 = Err TypeError).
Proof.
  exists [[0]; [0]; [0]], [[1]; [2]; [3]; [4]], 3, 2, [[1]; [2]; [3]].
  split; [lia|]; split; [lia|]; split.
  - intros [|[|[|fuel]]] F; try lia; reflexivity.
  - intros [|[|[|fuel]]] F; try lia; reflexivity.
Qed.

Lemma open_slice_refuted : forall fuel (data it : list (list nat)) w cs c a k,
  set_dataset_from_iterable fuel data w it (Some (mkSlice a None k)) cs c
  = Err TypeError.
Proof. reflexivity. Qed.
