(** Proofs about the cantilever beam. *)
From Coq Require Import List ZArith Reals Lra Lia Arith Sorted.
From Verif Require Import Py Beam Spec_Beam.
Import ListNotations.
Local Open Scope R_scope.

Lemma sgn_differ a b : sgn a <> sgn b -> a * b <= 0.
Proof.
  unfold sgn. destruct (Rlt_dec 0 a), (Rlt_dec 0 b), (Rlt_dec a 0), (Rlt_dec b 0); intros H; try (exfalso; apply H; reflexivity); nra.
Qed.
Lemma sgn_opposite a b : a * b < 0 -> sgn a <> sgn b.
Proof. unfold sgn. destruct (Rlt_dec 0 a), (Rlt_dec 0 b), (Rlt_dec a 0), (Rlt_dec b 0); intros H; try discriminate; nra. Qed.
Lemma char_cont : continuity char.
Proof.
  unfold char. apply continuity_plus; [apply continuity_const; intros x y; reflexivity|].
  apply continuity_mult; [apply derivable_continuous, derivable_cosh|apply continuity_cos].
Qed.
Lemma char_root a b : a <= b -> sgn (char b) <> sgn (char a) -> exists x, a <= x <= b /\ char x = 0.
Proof.
  intros H S. destruct (IVT_cor char a b char_cont H) as (z & Hz & E).
  - apply sgn_differ. now apply not_eq_sym.
  - now exists z.
Qed.
Lemma in_changes g n j : In j (changes g n) <-> (j < n - 1)%nat /\ sgn (g (S j)) <> sgn (g j).
Proof.
  unfold changes. rewrite filter_In, in_seq. destruct (Z.eqb_spec (sgn (g (S j)) - sgn (g j)) 0) as [E|E]; cbn; split;
    intros [H1 H2]; try discriminate; (split; [lia|]); try reflexivity; lia.
Qed.
Lemma changes_sorted g n : StronglySorted lt (changes g n).
Proof.
  unfold changes. assert (A : forall k m, StronglySorted lt (seq k m)).
  { intros k m. revert k. induction m as [|m IH]; intros k; cbn; constructor; [apply IH|]. apply Forall_forall. intros x Hx. apply in_seq in Hx. lia. }
  generalize (A 0%nat (n - 1)%nat). generalize (seq 0 (n - 1)). intros l S. induction S as [|a l S IH F]; [constructor|]. cbn.
  destruct (negb _); [|exact IH]. constructor; [exact IH|]. rewrite Forall_forall in *. intros x Hx. apply filter_In in Hx. now apply F.
Qed.
Lemma linspace_step stop n j : linspace stop n (S j) = linspace stop n j + stop / INR (n - 1).
Proof. unfold linspace. rewrite S_INR. ring. Qed.
Lemma step_pos stop n : (2 <= n)%nat -> 0 < stop -> 0 < stop / INR (n - 1).
Proof. intros H1 H2. apply Rdiv_lt_0_compat; [exact H2|apply lt_0_INR; lia]. Qed.

(** ** The length *)
Lemma points_2 : (2 <= length_points)%nat.
Proof. unfold length_points. lia. Qed.
Lemma points_step : INR (length_points - 1) = 9999999.
Proof. unfold length_points. rewrite INR_IZR_INZ. replace (Z.of_nat (Z.to_nat 10000000 - 1)) with 9999999%Z by lia. reflexivity. Qed.
Lemma k0_pos f0 Kb Mb : 0 < f0 -> 0 < Kb -> 0 < Mb -> 0 < first_wave_number f0 Kb Mb.
Proof.
  intros H1 H2 H3. unfold first_wave_number. pose proof PI_RGT_0. apply sqrt_lt_R0, sqrt_lt_R0, Rdiv_lt_0_compat; [|exact H2].
  apply Rmult_lt_0_compat; [|exact H3]. apply pow_lt. nra.
Qed.
Lemma k0_dispersion f0 Kb Mb : 0 < f0 -> 0 < Kb -> 0 < Mb -> dispersion Kb Mb f0 (first_wave_number f0 Kb Mb).
Proof.
  intros H1 H2 H3. unfold dispersion, first_wave_number. set (y := (2 * PI * f0) ^ 2 * Mb / Kb).
  assert (Y : 0 <= y).
  { unfold y. apply Rlt_le, Rdiv_lt_0_compat; [|exact H2]. pose proof PI_RGT_0. apply Rmult_lt_0_compat; [apply pow_lt; nra|exact H3]. }
  replace (sqrt (sqrt y) ^ 4) with ((sqrt (sqrt y) * sqrt (sqrt y)) * (sqrt (sqrt y) * sqrt (sqrt y))) by ring.
  rewrite sqrt_sqrt by apply sqrt_pos. rewrite sqrt_sqrt by exact Y. unfold y. field. lra.
Qed.
Lemma length_sound f0 Kb Mb L : 0 < f0 -> 0 < Kb -> 0 < Mb -> beam_length f0 Kb Mb = Ok L ->
  0 <= L /\ exists L', L <= L' <= L + 10 / 9999999 /\ eigen (first_wave_number f0 Kb Mb) L'.
Proof.
  intros H1 H2 H3. unfold beam_length. set (k := first_wave_number f0 Kb Mb). pose proof (k0_pos f0 Kb Mb H1 H2 H3) as K. fold k in K.
  destruct (changes _ _) as [|j l] eqn:E; [discriminate|]. intros X. injection X as <-.
  assert (I : In j (j :: l)) by now left. rewrite <- E in I. apply in_changes in I as [I1 I2].
  pose proof (step_pos 10 length_points points_2 ltac:(lra)) as SP. rewrite linspace_step in I2. set (h := 10 / INR (length_points - 1)) in *.
  assert (J : 0 <= linspace 10 length_points j) by (unfold linspace; apply Rmult_le_pos; [apply pos_INR|unfold h in SP; lra]).
  split; [exact J|]. destruct (char_root (k * linspace 10 length_points j) (k * (linspace 10 length_points j + h))) as (x & Hx & Z); [nra|exact I2|].
  exists (x / k). assert (M : k * (x / k) = x) by (field; lra). split.
  - replace (10 / 9999999) with h by (unfold h; now rewrite points_step).
    split; apply (Rmult_le_reg_l k); try exact K; rewrite M; lra.
  - unfold eigen. fold k. rewrite M. unfold char in Z. lra.
Qed.
(** It is the first one: on the grid before it the sign does not change. *)
Lemma length_first f0 Kb Mb L j : beam_length f0 Kb Mb = Ok L ->
  (j < length_points - 1)%nat -> linspace 10 length_points j < L ->
  sgn (char (first_wave_number f0 Kb Mb * linspace 10 length_points (S j))) =
  sgn (char (first_wave_number f0 Kb Mb * linspace 10 length_points j)).
Proof.
  unfold beam_length. set (g := fun j => char (_ * linspace 10 length_points j)).
  destruct (changes g length_points) as [|i l] eqn:E; [discriminate|]. intros X Hj. injection X as <-. intros H.
  destruct (Z.eq_dec (sgn (g (S j))) (sgn (g j))) as [D|D]; [exact D|]. exfalso.
  assert (I : In j (changes g length_points)) by (apply in_changes; auto).
  pose proof (changes_sorted g length_points) as S. rewrite E in I, S. apply StronglySorted_inv in S as [_ S]. rewrite Forall_forall in S.
  assert (i <= j)%nat by (destruct I as [->|I]; [lia|apply S in I; lia]).
  pose proof (step_pos 10 length_points points_2 ltac:(lra)) as SP. unfold linspace in H.
  apply Rmult_lt_reg_r in H; [|exact SP]. apply INR_lt in H. lia.
Qed.
Lemma char_pos x : 0 <= x < PI / 2 -> 0 < char x.
Proof.
  intros H. unfold char. assert (0 < cos x) by (apply cos_gt_0; pose proof PI_RGT_0; lra).
  assert (0 < cosh x) by (unfold cosh; pose proof (exp_pos x); pose proof (exp_pos (- x)); lra). nra.
Qed.
Lemma sgn_pos x : 0 < x -> sgn x = 1%Z.
Proof. intros H. unfold sgn. destruct (Rlt_dec 0 x); [reflexivity|contradiction]. Qed.
Lemma length_too_long f0 Kb Mb : 0 <= first_wave_number f0 Kb Mb -> 10 * first_wave_number f0 Kb Mb < PI / 2 ->
  beam_length f0 Kb Mb = Err IndexError.
Proof.
  intros K0 K. unfold beam_length. set (k := first_wave_number f0 Kb Mb) in *. set (g := fun j => char (k * linspace 10 length_points j)).
  destruct (changes g length_points) as [|i l] eqn:E; [reflexivity|]. exfalso.
  assert (I : In i (i :: l)) by now left. rewrite <- E in I. apply in_changes in I as [I1 I2]. apply I2.
  assert (P : forall j, (j <= length_points - 1)%nat -> sgn (g j) = 1%Z).
  { intros j Hj. apply sgn_pos, char_pos. unfold linspace. rewrite points_step.
    assert (B : INR j <= 9999999) by (rewrite <- points_step; now apply le_INR). pose proof (pos_INR j).
    assert (0 <= INR j * (10 / 9999999) <= 10) by lra. split; nra. }
  rewrite !P by lia. reflexivity.
Qed.

(** ** The wave numbers *)
Lemma wave_points_2 N : (1 <= N)%nat -> (2 <= wave_points N)%nat.
Proof. intros H. unfold wave_points. assert (2 <= Z.to_nat 1000000)%nat by lia. nia. Qed.
Lemma firstn_in {A} n (l : list A) x : In x (firstn n l) -> In x l.
Proof. revert l. induction n as [|n IH]; intros [|a l]; cbn; intuition. Qed.
Lemma waves_sound N Lb Kb Mb k : (1 <= N)%nat -> 0 < Lb -> In k (fst (wave_numbers N Lb Kb Mb)) ->
  exists k', k <= k' <= k + (INR N * 2 * PI / Lb) / INR (wave_points N - 1) /\ eigen k' Lb.
Proof.
  intros HN HL H. unfold wave_numbers in H. cbn [fst] in H. apply firstn_in in H. apply in_map_iff in H as (j & <- & H).
  apply in_changes in H as [H1 H2]. unfold wave_grid in *. set (stop := INR N * 2 * PI / Lb) in *.
  assert (SP : 0 < stop / INR (wave_points N - 1)).
  { apply step_pos; [now apply wave_points_2|]. unfold stop. pose proof PI_RGT_0. apply Rdiv_lt_0_compat; [|exact HL].
    assert (0 < INR N) by (apply lt_0_INR; lia). nra. }
  rewrite linspace_step in H2. set (a := linspace stop (wave_points N) j) in *. set (h := stop / INR (wave_points N - 1)) in *.
  destruct (char_root (a * Lb) ((a + h) * Lb)) as (x & Hx & Z); [nra|exact H2|].
  exists (x / Lb). assert (M : x / Lb * Lb = x) by (field; lra). split.
  - split; apply (Rmult_le_reg_r Lb); try exact HL; rewrite M; lra.
  - unfold eigen. rewrite M. unfold char in Z. lra.
Qed.
Lemma waves_frequencies N Lb Kb Mb : 0 < Kb -> 0 < Mb ->
  let '(ks, fs) := wave_numbers N Lb Kb Mb in
  length fs = length ks /\ (length ks <= N)%nat /\
  forall i, (i < length ks)%nat -> dispersion Kb Mb (nth i fs 0) (nth i ks 0).
Proof.
  intros H1 H2. unfold wave_numbers. set (ks := map (wave_grid N Lb) _). clearbody ks. rewrite firstn_map, map_length. split; [reflexivity|].
  split; [apply firstn_le_length|]. intros i Hi. set (l := firstn N ks) in *.
  rewrite nth_indep with (d' := frequency Kb Mb 0) by (now rewrite map_length). rewrite map_nth.
  unfold dispersion, frequency. set (k := nth i l 0). pose proof PI_RGT_0.
  replace (2 * PI * (sqrt (k ^ 4 * Kb / Mb) / (2 * PI))) with (sqrt (k ^ 4 * Kb / Mb)) by (field; lra).
  set (y := k ^ 4 * Kb / Mb). assert (Y : 0 <= y).
  { unfold y. apply Rmult_le_pos; [|now apply Rlt_le, Rinv_0_lt_compat]. apply Rmult_le_pos; [|lra].
    replace (k ^ 4) with ((k * k) * (k * k)) by ring. pose proof (Rle_0_sqr k) as Q. unfold Rsqr in Q. nra. }
  replace (sqrt y ^ 2) with (sqrt y * sqrt y) by ring. rewrite sqrt_sqrt by exact Y. unfold y. field. lra.
Qed.
Lemma firstn_sorted n (l : list R) : StronglySorted Rlt l -> StronglySorted Rlt (firstn n l).
Proof.
  intros S. revert n. induction S as [|a l S IH F]; intros [|n]; cbn; constructor; [apply IH|].
  rewrite Forall_forall in *. intros x Hx. apply F. eapply firstn_in; exact Hx.
Qed.
Lemma waves_sorted N Lb Kb Mb : (1 <= N)%nat -> 0 < Lb -> StronglySorted Rlt (fst (wave_numbers N Lb Kb Mb)).
Proof.
  intros HN HL. unfold wave_numbers. cbn [fst]. apply firstn_sorted. generalize (changes_sorted (fun j => char (wave_grid N Lb j * Lb)) (wave_points N)).
  generalize (changes (fun j => char (wave_grid N Lb j * Lb)) (wave_points N)). intros l S. induction S as [|a l S IH F]; cbn; constructor; [exact IH|].
  rewrite Forall_forall in *. intros x Hx. apply in_map_iff in Hx as (j & <- & Hj). apply F in Hj. unfold wave_grid, linspace.
  apply Rmult_lt_compat_r; [|now apply lt_INR]. apply step_pos; [now apply wave_points_2|].
  pose proof PI_RGT_0. apply Rdiv_lt_0_compat; [|exact HL]. assert (0 < INR N) by (apply lt_0_INR; lia). nra.
Qed.

(** ** There are as many changes of sign as asked for *)
Lemma change_between g a b : (a < b)%nat -> sgn (g a) <> sgn (g b) -> exists j, (a <= j < b)%nat /\ sgn (g (S j)) <> sgn (g j).
Proof.
  induction b as [|b IH]; [lia|]. intros H D. destruct (Z.eq_dec (sgn (g (S b))) (sgn (g b))) as [E|E].
  - rewrite E in D. assert (a <> b) by (intros ->; now apply D). destruct IH as (j & Hj & C); [lia|exact D|]. exists j. split; [lia|exact C].
  - exists b. split; [lia|exact E].
Qed.
Lemma grid_point h lo : 0 < h -> 0 <= lo -> exists j, lo <= INR j * h <= lo + h.
Proof.
  intros H1 H2. destruct (archimed (lo / h)) as [A B]. assert (Q : 0 <= lo / h) by (apply Rmult_le_pos; [exact H2|now apply Rlt_le, Rinv_0_lt_compat]).
  exists (Z.to_nat (up (lo / h))). rewrite INR_IZR_INZ, Z2Nat.id by (apply le_IZR; lra).
  assert (M : lo / h * h = lo) by (field; lra). split.
  - rewrite <- M at 1. apply Rmult_le_compat_r; lra.
  - replace (lo + h) with ((lo / h + 1) * h) by (rewrite Rmult_plus_distr_r, M; ring). apply Rmult_le_compat_r; lra.
Qed.
Lemma PI_3 : 3 < PI.
Proof. pose proof PI2_3_2. lra. Qed.
Lemma cos_turns m t : cos (INR m * PI + t) = (if Nat.even m then 1 else -1) * cos t.
Proof.
  induction m as [|m IH]; [cbn; rewrite Rmult_0_l, Rplus_0_l; ring|].
  rewrite S_INR. replace ((INR m + 1) * PI + t) with (INR m * PI + t + PI) by ring. rewrite neg_cos, IH, Nat.even_succ, <- Nat.negb_even.
  destruct (Nat.even m); cbn; ring.
Qed.
Lemma char_sign m x : INR m * PI <= x <= INR m * PI + 1 -> sgn (char x) = if Nat.even m then 1%Z else (-1)%Z.
Proof.
  intros H. pose proof PI_3 as P. destruct m as [|m].
  - cbn [INR] in H. cbn. apply sgn_pos, char_pos. lra.
  - set (t := x - INR (S m) * PI). assert (X : x = INR (S m) * PI + t) by (unfold t; ring).
    assert (C : 1 / 2 <= cos t).
    { rewrite <- cos_PI3. apply cos_decr_1; unfold t; lra. }
    assert (L : 3 <= x). { rewrite S_INR in H. pose proof (pos_INR m). nra. }
    assert (CH : 2 < cosh x). { unfold cosh. pose proof (exp_ineq1 x ltac:(lra)). pose proof (exp_pos (- x)). lra. }
    unfold char. replace (cos x) with ((if Nat.even (S m) then 1 else -1) * cos t) by (rewrite X at 1; now rewrite <- cos_turns).
    unfold sgn. destruct (Nat.even (S m)); destruct (Rlt_dec 0 _) as [A|A]; try reflexivity; try (exfalso; nra).
    destruct (Rlt_dec _ 0) as [B|B]; [reflexivity|exfalso; nra].
Qed.
Lemma many_changes h (g : nat -> R) : 0 < h <= 1 -> (forall j, g j = char (INR j * h)) -> forall M,
  exists l p, length l = M /\ NoDup l /\ (forall j, In j l -> (j < p)%nat /\ sgn (g (S j)) <> sgn (g j)) /\
  INR M * PI <= INR p * h <= INR M * PI + 1.
Proof.
  intros H G M. pose proof PI_3 as P. induction M as [|M IH].
  - exists [], 0%nat. cbn. repeat split; try constructor; try contradiction; lra.
  - destruct IH as (l & p & L & ND & C & B). destruct (grid_point h (INR (S M) * PI)) as (q & Q); [lra|pose proof (pos_INR (S M)); nra|].
    assert (Q' : INR (S M) * PI <= INR q * h <= INR (S M) * PI + 1) by lra.
    assert (PQ : (p < q)%nat). { apply INR_lt. apply (Rmult_lt_reg_r h); [lra|]. rewrite S_INR in Q. lra. }
    destruct (change_between g p q PQ) as (j & Hj & D).
    { rewrite !G, (char_sign M _ B), (char_sign (S M) _ Q'), Nat.even_succ, <- Nat.negb_even. destruct (Nat.even M); discriminate. }
    exists (j :: l), q. cbn [length In]. split; [now rewrite L|]. split; [|split; [|exact Q']].
    + constructor; [|exact ND]. intros I. apply C in I as [I _]. lia.
    + intros i [<-|I]; [split; [lia|exact D]|]. apply C in I as [I1 I2]. split; [lia|exact I2].
Qed.
Lemma changes_count h g n M : 0 < h <= 1 -> (forall j, g j = char (INR j * h)) -> INR M * PI + 1 <= INR (n - 1) * h ->
  (M <= length (changes g n))%nat.
Proof.
  intros H G B. destruct (many_changes h g H G M) as (l & p & L & ND & C & Q). rewrite <- L. apply NoDup_incl_length; [exact ND|].
  intros j I. apply C in I as [I1 I2]. apply in_changes. split; [|exact I2].
  assert (p <= n - 1)%nat by (apply INR_le, (Rmult_le_reg_r h); lra). lia.
Qed.
Lemma length_exists f0 Kb Mb : PI + 1 <= 10 * first_wave_number f0 Kb Mb -> first_wave_number f0 Kb Mb <= 999999 ->
  exists L, beam_length f0 Kb Mb = Ok L.
Proof.
  intros H1 H2. unfold beam_length. set (k := first_wave_number f0 Kb Mb) in *. set (g := fun j => char (k * linspace 10 length_points j)).
  assert (C : (1 <= length (changes g length_points))%nat).
  { pose proof PI_3. apply (changes_count (k * (10 / 9999999))).
    - split; lra.
    - intros j. unfold g, linspace. rewrite points_step. f_equal. ring.
    - rewrite points_step. cbn [INR]. lra. }
  destruct (changes g length_points) as [|j l]; [cbn in C; lia|]. now exists (linspace 10 length_points j).
Qed.
Lemma waves_count N Lb Kb Mb : (1 <= N)%nat -> 0 < Lb -> length (fst (wave_numbers N Lb Kb Mb)) = N.
Proof.
  intros HN HL. unfold wave_numbers. cbn [fst]. apply firstn_length_le. rewrite map_length.
  pose proof PI_3 as P. pose proof PI_4 as P4. assert (N1 : 1 <= INR N) by (change 1 with (INR 1); now apply le_INR).
  assert (E : INR (wave_points N - 1) = INR N * 1000000 - 1).
  { pose proof (wave_points_2 N HN). rewrite minus_INR by lia. unfold wave_points. rewrite mult_INR. f_equal. f_equal.
    rewrite INR_IZR_INZ, Z2Nat.id by lia. reflexivity. }
  set (n1 := INR (wave_points N - 1)) in *. set (h := INR N * 2 * PI / n1).
  assert (D : 0 < n1) by (rewrite E; lra). assert (HM : n1 * h = INR N * 2 * PI) by (unfold h; field; lra).
  apply (changes_count h).
  - split; [unfold h; apply Rdiv_lt_0_compat; nra|]. apply (Rmult_le_reg_l n1); [exact D|]. rewrite HM, E. nra.
  - intros j. unfold wave_grid, linspace. fold n1. f_equal. unfold h. field. lra.
  - fold n1. rewrite HM. nra.
Qed.

(** ** The statements without the names of the model *)
Lemma wave_number_unique f0 Kb Mb k : 0 < f0 -> 0 < Kb -> 0 < Mb -> 0 < k -> dispersion Kb Mb f0 k -> first_wave_number f0 Kb Mb = k.
Proof.
  intros H1 H2 H3 H4 D. pose proof (k0_dispersion f0 Kb Mb H1 H2 H3) as E. pose proof (k0_pos f0 Kb Mb H1 H2 H3) as P.
  set (a := first_wave_number f0 Kb Mb) in *. clearbody a. unfold dispersion in *. rewrite D in E. apply Rmult_eq_reg_l in E; [|lra].
  assert (F : (k - a) * ((k + a) * (k * k + a * a)) = 0) by (replace ((k - a) * ((k + a) * (k * k + a * a))) with (k ^ 4 - a ^ 4) by ring; lra).
  apply Rmult_integral in F as [F|F]; [lra|]. exfalso. assert (0 < (k + a) * (k * k + a * a)) by (apply Rmult_lt_0_compat; nra). lra.
Qed.
Lemma grid_value i : linspace 10 length_points i = INR i * (10 / 9999999).
Proof. unfold linspace. rewrite points_step. reflexivity. Qed.
Lemma length_on_grid f0 Kb Mb L : beam_length f0 Kb Mb = Ok L ->
  exists i, (i < length_points - 1)%nat /\ linspace 10 length_points i = L.
Proof.
  unfold beam_length. destruct (changes _ _) as [|i l] eqn:E; [discriminate|]. intros X. exists i. split.
  - assert (I : In i (i :: l)) by now left. rewrite <- E in I. now apply in_changes in I as [I _].
  - now injection X.
Qed.
Lemma length_sign f0 Kb Mb L i : beam_length f0 Kb Mb = Ok L -> (i < length_points - 1)%nat -> linspace 10 length_points i = L ->
  forall j, (j <= i)%nat -> sgn (char (first_wave_number f0 Kb Mb * linspace 10 length_points j)) = 1%Z.
Proof.
  intros H Hi EL j. induction j as [|j IH]; intros JI.
  - apply sgn_pos, char_pos. rewrite grid_value. cbn [INR]. rewrite Rmult_0_l, Rmult_0_r. pose proof PI_3. lra.
  - rewrite <- IH by (apply Nat.lt_le_incl; exact JI). apply (length_first f0 Kb Mb L j H).
    + exact (Nat.lt_trans _ _ _ JI Hi).
    + rewrite <- EL, !grid_value. apply Rmult_lt_compat_r; [lra|apply lt_INR; exact JI].
Qed.
Lemma sgn_one x : sgn x = 1%Z -> 0 < x.
Proof. unfold sgn. destruct (Rlt_dec 0 x) as [A|A]; [auto|]. destruct (Rlt_dec x 0); discriminate. Qed.
Lemma length_before f0 Kb Mb L j : beam_length f0 Kb Mb = Ok L -> INR j * (10 / 9999999) <= L ->
  0 < cosh (first_wave_number f0 Kb Mb * (INR j * (10 / 9999999))) * cos (first_wave_number f0 Kb Mb * (INR j * (10 / 9999999))) + 1.
Proof.
  intros H B. destruct (length_on_grid _ _ _ _ H) as (i & Hi & EL).
  assert (JI : (j <= i)%nat) by (rewrite grid_value in EL; apply INR_le, (Rmult_le_reg_r (10 / 9999999)); lra).
  pose proof (sgn_one _ (length_sign _ _ _ _ _ H Hi EL j JI)) as S1. rewrite grid_value in S1. unfold char in S1. rewrite Rplus_comm. exact S1.
Qed.
