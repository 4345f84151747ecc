(** Values of the implicit functions of a method. *)
From Coq Require Import String List ZArith QArith Qreals Reals Bool Lra Lia.
From Verif Require Import Py Tools Lists Expr ExprProofs RSum Mat MatProofs Core Spec_Core
  StructProofs BlockProofs PowerProofs Calculus CalculusProofs Subs Method.
Import ListNotations.
Local Open Scope string_scope.
Local Open Scope list_scope.
Local Open Scope nat_scope.

(** Row of the structure that corresponds to component [i] of [v], [vl], [vnl]. *)
Definition rowix (c : core) (s : sfx) (i : nat) : nat :=
  if i <? len c (bx s) then off c (bx s) + i else off c (bw s) + (i - len c (bx s)).
Definition nv (c : core) (s : sfx) : nat := len c (bx s) + len c (bw s).

Lemma rowix_all c i : rowix c Sall i = i.
Proof. unfold rowix. cbn [bx bw off len]. destruct (Nat.ltb_spec i (length (c_x c))); lia. Qed.

Lemma nv_split c : counters_ok c -> nv c Sl + nv c Snl = nv c Sall.
Proof. intros [Hx Hw]. unfold nv. cbn [bx bw off len]. lia. Qed.

Lemma rowix_lt c s i : counters_ok c -> i < nv c s -> rowix c s i < nv c Sall.
Proof.
  intros [Hx Hw] H. unfold nv, rowix in *.
  destruct s; cbn [bx bw off len] in *; match goal with |- context [?a <? ?b] => destruct (Nat.ltb_spec a b) end; lia.
Qed.

Lemma rsum_parts a b p q h :
  (rsum (a + p) (fun j => h (if j <? a then 0 + j else a + b + (j - a))%nat) +
   rsum (b + q) (fun j => h (if j <? b then a + j else a + b + p + (j - b))%nat) =
   rsum (a + b + (p + q)) h)%R.
Proof.
  rewrite !rsum_app.
  rewrite (rsum_ext a (fun j => h (if j <? a then 0 + j else a + b + (j - a))%nat) h).
  2:{ intros k Hk. destruct (Nat.ltb_spec k a); [reflexivity|lia]. }
  rewrite (rsum_ext p (fun k => h (if a + k <? a then 0 + (a + k) else a + b + (a + k - a))%nat)
             (fun k => h (a + b + k)%nat)).
  2:{ intros k Hk. destruct (Nat.ltb_spec (a + k) a); [lia|]. f_equal. lia. }
  rewrite (rsum_ext b (fun j => h (if j <? b then a + j else a + b + p + (j - b))%nat) (fun k => h (a + k)%nat)).
  2:{ intros k Hk. destruct (Nat.ltb_spec k b); [reflexivity|lia]. }
  rewrite (rsum_ext q (fun k => h (if b + k <? b then a + (b + k) else a + b + p + (b + k - b))%nat)
             (fun k => h (a + b + (p + k))%nat)).
  2:{ intros k Hk. destruct (Nat.ltb_spec (b + k) b); [lia|]. f_equal. lia. }
  lra.
Qed.

Lemma rsum_split_lnl c h : counters_ok c ->
  (rsum (nv c Sl) (fun j => h (rowix c Sl j)) + rsum (nv c Snl) (fun j => h (rowix c Snl j)) =
   rsum (nv c Sall) h)%R.
Proof.
  intros [Hx Hw].
  pose proof (rsum_parts (Z.to_nat (c_xl c)) (length (c_x c) - Z.to_nat (c_xl c)) (Z.to_nat (c_wl c))
    (length (c_w c) - Z.to_nat (c_wl c)) h) as P.
  replace (Z.to_nat (c_xl c) + (length (c_x c) - Z.to_nat (c_xl c))) with (length (c_x c)) in P by lia.
  replace (Z.to_nat (c_wl c) + (length (c_w c) - Z.to_nat (c_wl c))) with (length (c_w c)) in P by lia.
  exact P.
Qed.

Lemma dim_len c b : counters_ok c -> Z.to_nat (dim_blk c b) = len c b.
Proof.
  intros [Hx Hw]. destruct b; cbn [dim_blk len];
    unfold dim_x, dim_w, dim_y, dim_cy, dim_xl, dim_xnl, dim_wl, dim_wnl, dim_x, dim_w; lia.
Qed.

Lemma Mvv_ok c a b : sized c -> counters_ok c ->
  exists A, Mvv a b c = Ok A /\ nr A = nv c a /\ nc A = nv c b /\
    forall r i j, ev r A i j = Mv r c (rowix c a i) (rowix c b j).
Proof.
  intros HS HC. unfold Mvv.
  destruct (get_block_ok PM (bx a) (bx b) c HS HC) as (A1 & E1 & R1 & C1 & V1).
  destruct (get_block_ok PM (bx a) (bw b) c HS HC) as (A2 & E2 & R2 & C2 & V2).
  destruct (get_block_ok PM (bw a) (bx b) c HS HC) as (A3 & E3 & R3 & C3 & V3).
  destruct (get_block_ok PM (bw a) (bw b) c HS HC) as (A4 & E4 & R4 & C4 & V4).
  rewrite E1, E2, E3, E4. cbn [rbind].
  destruct (hstack2_ok A1 A2) as (T1 & H1 & TR1 & TC1 & TV1); [congruence|].
  destruct (hstack2_ok A3 A4) as (T2 & H2 & TR2 & TC2 & TV2); [congruence|].
  rewrite H1, H2. cbn [rbind].
  destruct (vstack2_ok T1 T2) as (T & H3 & TR & TC & TV); [congruence|].
  exists T. split; [exact H3|]. split; [unfold nv; congruence|]. split; [unfold nv; congruence|].
  intros r i j. unfold ev. rewrite TV, TR1, R1. unfold rowix.
  destruct (i <? len c (bx a)).
  - rewrite TV1, C1. destruct (j <? len c (bx b)).
    + exact (V1 r i j).
    + exact (V2 r i (j - len c (bx b))).
  - rewrite TV2, C3. destruct (j <? len c (bx b)).
    + exact (V3 r (i - len c (bx a)) j).
    + exact (V4 r (i - len c (bx a)) (j - len c (bx b))).
Qed.

Lemma Mvy_ok c a : sized c -> counters_ok c ->
  exists A, Mvy a c = Ok A /\ nr A = nv c a /\ nc A = length (c_y c) /\
    forall r i k, ev r A i k = Mv r c (rowix c a i) (off c By + k).
Proof.
  intros HS HC. unfold Mvy.
  destruct (get_block_ok PM (bx a) By c HS HC) as (A1 & E1 & R1 & C1 & V1).
  destruct (get_block_ok PM (bw a) By c HS HC) as (A2 & E2 & R2 & C2 & V2).
  rewrite E1, E2. cbn [rbind].
  destruct (vstack2_ok A1 A2) as (T & H & TR & TC & TV); [congruence|].
  exists T. split; [exact H|]. split; [unfold nv; congruence|]. split; [rewrite TC, C1; reflexivity|].
  intros r i k. unfold ev. rewrite TV, R1. unfold rowix. destruct (i <? len c (bx a)).
  - exact (V1 r i k).
  - exact (V2 r (i - len c (bx a)) k).
Qed.

Lemma cut_len {A} s (n : Z) (l : list A) : (0 <= n <= Z.of_nat (length l))%Z ->
  length (cut s n l) = match s with Sall => length l | Sl => Z.to_nat n | Snl => length l - Z.to_nat n end.
Proof.
  intros H. rewrite <- (Z2Nat.id n) at 1 by lia. destruct s; cbn [cut]; [reflexivity| |].
  - rewrite py_slice_to, firstn_length. lia.
  - rewrite py_slice_from, skipn_length. lia.
Qed.

Lemma nth_skipn_add {A} (l : list A) d n k : nth k (skipn n l) d = nth (n + k) l d.
Proof. revert l. induction n as [|n IH]; intros [|a l]; cbn; auto; destruct k; reflexivity. Qed.

Lemma nth_firstn_in {A} (l : list A) d n k : k < n -> nth k (firstn n l) d = nth k l d.
Proof.
  revert l k. induction n as [|n IH]; intros [|a l] k H; try lia; cbn; destruct k; auto.
  apply IH. lia.
Qed.

Lemma cut_nth {A} s (n : Z) (l : list A) d i : (0 <= n)%Z -> i < length (cut s n l) ->
  nth i (cut s n l) d = nth (match s with Snl => Z.to_nat n | _ => 0 end + i) l d.
Proof.
  intros H Hi. rewrite <- (Z2Nat.id n) in * by lia. destruct s; cbn [cut] in *; [reflexivity| |].
  - rewrite py_slice_to in *. rewrite firstn_length in Hi. apply nth_firstn_in. lia.
  - rewrite py_slice_from in *. rewrite Nat2Z.id. apply nth_skipn_add.
Qed.

Lemma cut_app_nth {A} c s (l1 l2 : list A) d i : counters_ok c ->
  length l1 = length (c_x c) -> length l2 = length (c_w c) -> i < nv c s ->
  nth i (cut s (dim_xl c) l1 ++ cut s (dim_wl c) l2) d = nth (rowix c s i) (l1 ++ l2) d.
Proof.
  intros [Hx Hw] L1 L2 Hi. unfold dim_xl, dim_wl, nv, rowix in *.
  assert (K1 : length (cut s (c_xl c) l1) = len c (bx s)) by (rewrite cut_len by lia; destruct s; cbn [bx bw off len]; lia).
  assert (K2 : length (cut s (c_wl c) l2) = len c (bw s)) by (rewrite cut_len by lia; destruct s; cbn [bx bw off len]; lia).
  destruct (Nat.ltb_spec i (len c (bx s))) as [L|L].
  - rewrite app_nth1 by lia. rewrite cut_nth by lia.
    rewrite app_nth1; [|destruct s; cbn [bx bw off len] in *; lia]. f_equal. destruct s; reflexivity.
  - rewrite app_nth2 by lia. rewrite K1, cut_nth by lia.
    rewrite app_nth2; [|destruct s; cbn [bx bw off len] in *; lia]. f_equal. destruct s; cbn [bx bw off len] in *; lia.
Qed.

Lemma cut_app_len {A} c s (l1 l2 : list A) : counters_ok c ->
  length l1 = length (c_x c) -> length l2 = length (c_w c) ->
  length (cut s (dim_xl c) l1 ++ cut s (dim_wl c) l2) = nv c s.
Proof.
  intros [Hx Hw] L1 L2. unfold dim_xl, dim_wl, nv. rewrite app_length, !cut_len by lia.
  destruct s; cbn [bx bw off len]; lia.
Qed.

Lemma dx_length c : length (dx c) = length (c_x c).
Proof. unfold dx. apply map_length. Qed.

Lemma v_of_len c s : counters_ok c -> length (v_of s c) = nv c s.
Proof. intros HC. unfold v_of, dx_of, w_of. apply cut_app_len; [exact HC|apply dx_length|reflexivity]. Qed.

Lemma v_of_nth c s i : counters_ok c -> i < nv c s ->
  nth i (v_of s c) "" = nth (rowix c s i) (v_of Sall c) "".
Proof.
  intros HC Hi. unfold v_of at 1, dx_of, w_of. rewrite cut_app_nth; [|exact HC|apply dx_length|reflexivity|exact Hi].
  reflexivity.
Qed.

Lemma f_of_len c s : wf c -> counters_ok c -> length (f_of s c) = nv c s.
Proof.
  intros W HC. unfold f_of, dxH_of, z_of. apply cut_app_len; [exact HC|now apply dxH_length|].
  symmetry. apply W.
Qed.

Lemma f_of_nth c s i : wf c -> counters_ok c -> i < nv c s ->
  nth i (f_of s c) (Num 0) = nth (rowix c s i) (f_of Sall c) (Num 0).
Proof.
  intros W HC Hi. unfold f_of at 1, dxH_of, z_of.
  rewrite cut_app_nth; [|exact HC|now apply dxH_length|symmetry; apply W|exact Hi]. reflexivity.
Qed.

Lemma nth_map_Sym r l k : k < length l -> eval r (nth k (map Sym l) (Num 0)) = r (nth k l "").
Proof.
  intros H. rewrite nth_indep with (d' := Sym "") by (rewrite map_length; lia). now rewrite map_nth.
Qed.

(** Coefficient of the time derivative in row [i]. *)
Definition scale (r : env) (c : core) (s : sfx) (i : nat) : R :=
  if i <? len c (bx s) then r fs_symbol else 1%R.

Lemma I_ok c s : counters_ok c ->
  exists l, matvecprod (I_of s c) (map Sym (v_of s c)) = Ok l /\ length l = nv c s /\
    forall r i, i < nv c s -> eval r (nth i l (Num 0)) = (scale r c s i * r (nth i (v_of s c) ""))%R.
Proof.
  intros HC.
  assert (NR : nr (I_of s c) = nv c s) by (unfold I_of, nv; cbn [nr diag2 mscal eye]; now rewrite !dim_len).
  assert (NC : nc (I_of s c) = nv c s) by (unfold I_of, nv; cbn [nc diag2 mscal eye]; now rewrite !dim_len).
  destruct (matvecprod_ok (I_of s c) (map Sym (v_of s c))) as (l & E & L & V).
  { rewrite map_length, v_of_len; congruence. }
  exists l. split; [exact E|]. split; [congruence|]. intros r i Hi. rewrite V by congruence.
  unfold mv_. rewrite NC.
  rewrite (rsum_ext (nv c s) _ (fun k => (if k =? i then scale r c s i else 0) * r (nth k (v_of s c) ""))%R).
  - now apply rsum_one.
  - intros k Hk. rewrite nth_map_Sym by (rewrite v_of_len; assumption). f_equal.
    unfold ev, I_of, scale. cbn [ent diag2 mscal eye nr nc]. rewrite !dim_len by exact HC.
    destruct (Nat.ltb_spec i (len c (bx s))), (Nat.ltb_spec k (len c (bx s))),
      (Nat.leb_spec (len c (bx s)) i), (Nat.leb_spec (len c (bx s)) k); try lia; cbn [andb];
      rewrite ?eval_smul; cbn [eval].
    + destruct (Nat.eqb_spec i k), (Nat.eqb_spec k i); try lia; cbn; rewrite ?Q2R_0, ?Q2R_1; lra.
    + destruct (Nat.eqb_spec k i); [lia|]. apply Q2R_0.
    + destruct (Nat.eqb_spec k i); [lia|]. apply Q2R_0.
    + destruct (Nat.eqb_spec (i - len c (bx s)) (k - len c (bx s))), (Nat.eqb_spec k i); try lia;
        cbn; rewrite ?Q2R_0, ?Q2R_1; reflexivity.
Qed.

Lemma sum_onto_ok n : forall args v0, length v0 = n -> Forall (fun v => length v = n) args ->
  exists l, sum_onto v0 args = Ok l /\ length l = n /\ forall r i, i < n ->
    eval r (nth i l (Num 0)) =
    (eval r (nth i v0 (Num 0)) + fold_right Rplus 0 (map (fun v => eval r (nth i v (Num 0))) args))%R.
Proof.
  induction args as [|v args IH]; intros v0 L F; cbn [sum_onto].
  - exists v0. repeat split; auto. intros. cbn. lra.
  - inversion F as [|? ? F1 F2]; subst. rewrite F1, Nat.eqb_refl.
    set (v1 := map (fun p => sadd (fst p) (snd p)) (combine v0 v)).
    assert (L1 : length v1 = length v0) by (unfold v1; rewrite map_length, combine_length; lia).
    destruct (IH v1 L1 F2) as (l & E & LL & V).
    exists l. split; [exact E|]. split; [exact LL|]. intros r i Hi. rewrite V by exact Hi.
    cbn [map fold_right]. unfold v1.
    rewrite (nth_indep _ (Num 0) ((fun p => sadd (fst p) (snd p)) (Num 0, Num 0)))
      by (rewrite map_length, combine_length; lia).
    rewrite (map_nth (fun p => sadd (fst p) (snd p))).
    rewrite map_combine_nth by lia. cbn [fst snd]. rewrite eval_sadd. lra.
Qed.

Lemma neg_vec_nth r l i : i < length l -> eval r (nth i (neg_vec l) (Num 0)) = (- eval r (nth i l (Num 0)))%R.
Proof.
  intros H. unfold neg_vec. rewrite (nth_indep _ (Num 0) (sneg (Num 0))) by (now rewrite map_length).
  rewrite map_nth. apply eval_sneg.
Qed.

(** The rate of component [i] of [v] minus what the structure gives. *)
Definition defect (r : env) (c : core) (i : nat) : R :=
  ((if i <? length (c_x c) then r fs_symbol else 1) * r (nth i (v_of Sall c) "") -
   rsum (nv c Sall) (fun j => Mv r c i j * eval r (nth j (f_of Sall c) (Num 0))) -
   rsum (length (c_y c)) (fun k => Mv r c i (off c By + k)%nat * r (nth k (c_u c) "")))%R.

Lemma scale_row r c s i : counters_ok c -> i < nv c s ->
  scale r c s i = (if rowix c s i <? length (c_x c) then r fs_symbol else 1)%R.
Proof.
  intros [Hx Hw] Hi. unfold scale, rowix, nv in *.
  destruct (Nat.ltb_spec i (len c (bx s))) as [L|L].
  - destruct (Nat.ltb_spec (off c (bx s) + i) (length (c_x c))); [reflexivity|].
    destruct s; cbn [bx bw off len] in *; lia.
  - destruct (Nat.ltb_spec (off c (bw s) + (i - len c (bx s))) (length (c_x c))); [|reflexivity].
    destruct s; cbn [bx bw off len] in *; lia.
Qed.

Lemma block_vec_ok c a b : wf c -> counters_ok c ->
  exists A l, Mvv a b c = Ok A /\ matvecprod A (f_of b c) = Ok l /\ length l = nv c a /\
    forall r i, i < nv c a -> eval r (nth i l (Num 0)) =
      rsum (nv c b) (fun j => Mv r c (rowix c a i) (rowix c b j) * eval r (nth (rowix c b j) (f_of Sall c) (Num 0)))%R.
Proof.
  intros W HC. assert (HS : sized c) by (split; apply W).
  destruct (Mvv_ok c a b HS HC) as (A & EA & NR & NC & VA).
  destruct (matvecprod_ok A (f_of b c)) as (l & E & L & V); [rewrite f_of_len by assumption; congruence|].
  exists A, l. split; [exact EA|]. split; [exact E|]. split; [congruence|].
  intros r i Hi. rewrite V by congruence. unfold mv_. rewrite NC. apply rsum_ext. intros j Hj.
  rewrite VA, f_of_nth by assumption. reflexivity.
Qed.

Lemma block_u_ok c a : wf c -> counters_ok c ->
  exists A l, Mvy a c = Ok A /\ matvecprod A (map Sym (c_u c)) = Ok l /\ length l = nv c a /\
    forall r i, i < nv c a -> eval r (nth i l (Num 0)) =
      rsum (length (c_y c)) (fun k => Mv r c (rowix c a i) (off c By + k)%nat * r (nth k (c_u c) ""))%R.
Proof.
  intros W HC. assert (HS : sized c) by (split; apply W).
  assert (LU : length (c_u c) = length (c_y c)) by apply W.
  destruct (Mvy_ok c a HS HC) as (A & EA & NR & NC & VA).
  destruct (matvecprod_ok A (map Sym (c_u c))) as (l & E & L & V); [rewrite map_length; congruence|].
  exists A, l. split; [exact EA|]. split; [exact E|]. split; [congruence|].
  intros r i Hi. rewrite V by congruence. unfold mv_. rewrite NC. apply rsum_ext. intros j Hj.
  rewrite VA, nth_map_Sym by lia. reflexivity.
Qed.

Lemma nth_zero_vec r n i : eval r (nth i (repeat (Num 0) n) (Num 0)) = 0%R.
Proof. rewrite nth_repeat. apply Q2R_0. Qed.

(** [tempF], [tempFl], [tempFnl] list the same defects. *)
Lemma tempF_ok c s : wf c -> counters_ok c ->
  exists F, tempF s c = Ok F /\ length F = nv c s /\
    forall r i, i < nv c s -> eval r (nth i F (Num 0)) = defect r c (rowix c s i).
Proof.
  intros W HC. destruct (I_ok c s HC) as (Iv & EI & LI & VI).
  destruct (block_u_ok c s W HC) as (B & Bu & EB & EBu & LB & VB).
  unfold tempF. rewrite EI. cbn [rbind].
  assert (LN : forall l, length (neg_vec l) = length l) by (intros; apply map_length).
  assert (LZ : length (repeat (Num 0) (length (v_of s c))) = nv c s)
    by (rewrite repeat_length; now apply v_of_len).
  destruct s.
  - destruct (block_vec_ok c Sall Sall W HC) as (A & Af & EA & EAf & LA & VA).
    rewrite EA. cbn [rbind]. rewrite EAf. cbn [rbind]. rewrite EB. cbn [rbind]. rewrite EBu. cbn [rbind].
    unfold sumvecs. cbn [rev app].
    destruct (sum_onto_ok (nv c Sall) [repeat (Num 0) (length (v_of Sall c)); Iv; neg_vec Af] (neg_vec Bu))
      as (F & EF & LF & VF).
    + now rewrite LN.
    + repeat constructor; rewrite ?LN; assumption.
    + exists F. split; [exact EF|]. split; [exact LF|]. intros r i Hi. rewrite VF by exact Hi.
      cbn [map fold_right]. rewrite nth_zero_vec, !neg_vec_nth, VI, VA, VB by congruence.
      rewrite scale_row by assumption. rewrite v_of_nth by assumption. unfold defect.
      rewrite (rsum_ext (nv c Sall) (fun j => Mv r c (rowix c Sall i) (rowix c Sall j) * _)%R
        (fun j => Mv r c (rowix c Sall i) j * eval r (nth j (f_of Sall c) (Num 0)))%R)
        by (intros j Hj; now rewrite (rowix_all c j)).
      lra.
  - destruct (block_vec_ok c Sl Sl W HC) as (A & Af & EA & EAf & LA & VA).
    destruct (block_vec_ok c Sl Snl W HC) as (A' & Af' & EA' & EAf' & LA' & VA').
    rewrite EA. cbn [rbind]. rewrite EAf. cbn [rbind].
    rewrite EA'. cbn [rbind]. rewrite EAf'. cbn [rbind]. rewrite EB. cbn [rbind]. rewrite EBu. cbn [rbind].
    unfold sumvecs. cbn [rev app].
    destruct (sum_onto_ok (nv c Sl) [repeat (Num 0) (length (v_of Sl c)); Iv; neg_vec Af; neg_vec Af'] (neg_vec Bu))
      as (F & EF & LF & VF).
    + now rewrite LN.
    + repeat constructor; rewrite ?LN; assumption.
    + exists F. split; [exact EF|]. split; [exact LF|]. intros r i Hi. rewrite VF by exact Hi.
      cbn [map fold_right]. rewrite nth_zero_vec, !neg_vec_nth, VI, VA, VA', VB by congruence.
      rewrite scale_row by assumption. rewrite v_of_nth by assumption. unfold defect.
      rewrite <- (rsum_split_lnl c (fun j => Mv r c (rowix c Sl i) j * eval r (nth j (f_of Sall c) (Num 0)))%R HC).
      lra.
  - destruct (block_vec_ok c Snl Sl W HC) as (A & Af & EA & EAf & LA & VA).
    destruct (block_vec_ok c Snl Snl W HC) as (A' & Af' & EA' & EAf' & LA' & VA').
    rewrite EA. cbn [rbind]. rewrite EAf. cbn [rbind].
    rewrite EA'. cbn [rbind]. rewrite EAf'. cbn [rbind]. rewrite EB. cbn [rbind]. rewrite EBu. cbn [rbind].
    unfold sumvecs. cbn [rev app].
    destruct (sum_onto_ok (nv c Snl) [repeat (Num 0) (length (v_of Snl c)); Iv; neg_vec Af; neg_vec Af'] (neg_vec Bu))
      as (F & EF & LF & VF).
    + now rewrite LN.
    + repeat constructor; rewrite ?LN; assumption.
    + exists F. split; [exact EF|]. split; [exact LF|]. intros r i Hi. rewrite VF by exact Hi.
      cbn [map fold_right]. rewrite nth_zero_vec, !neg_vec_nth, VI, VA, VA', VB by congruence.
      rewrite scale_row by assumption. rewrite v_of_nth by assumption. unfold defect.
      rewrite <- (rsum_split_lnl c (fun j => Mv r c (rowix c Snl i) j * eval r (nth j (f_of Sall c) (Num 0)))%R HC).
      lra.
Qed.

Lemma set_structure_ok c : wf c -> counters_ok c -> set_structure c = ok c.
Proof.
  intros W HC. unfold set_structure, jactempF.
  destruct (tempF_ok c Sl W HC) as (F1 & E1 & _). destruct (tempF_ok c Snl W HC) as (F2 & E2 & _).
  destruct (tempF_ok c Sall W HC) as (F3 & E3 & _). now rewrite E1, E2, E3.
Qed.

(** A solved step: flows and efforts satisfy the structure. *)
Lemma solved_structure c F out r : wf c -> counters_ok c -> c_cy c = [] ->
  tempF Sall c = Ok F -> output c = Ok out ->
  (forall i, i < length F -> eval r (nth i F (Num 0)) = 0%R) ->
  b_eq_M_a (ntot c) (Mv r c) (fun j => eval r (nth j (a_vec c) (Num 0)))
    (fun i => if i <? length (c_x c) then r fs_symbol * r (nth i (dx c) "")
              else if i <? length (c_x c) + length (c_w c) then r (nth (i - length (c_x c)) (c_w c) "")
              else eval r (nth (i - (length (c_x c) + length (c_w c))) out (Num 0)))%R.
Proof.
  intros W HC C EF EO HZ.
  destruct (tempF_ok c Sall W HC) as (F' & E' & LF & VF). assert (F' = F) as -> by congruence.
  destruct (output_no_connector c W HC C) as (out' & EO' & LO & VO). assert (out' = out) as -> by congruence.
  pose proof (dxH_length c W) as LD. pose proof W as ((P1 & P2 & _) & _).
  intros i Hi.
  assert (NT : ntot c = length (c_x c) + length (c_w c) + length (c_y c))
    by (unfold ntot; rewrite C; cbn; lia).
  destruct (Nat.ltb_spec i (length (c_x c) + length (c_w c))) as [L|L].
  - assert (Hv : i < nv c Sall) by exact L.
    specialize (HZ i ltac:(lia)). rewrite VF in HZ by exact Hv. rewrite rowix_all in HZ.
    unfold defect in HZ.
    assert (S : rsum (ntot c) (fun j => Mv r c i j * eval r (nth j (a_vec c) (Num 0)))%R =
      (rsum (nv c Sall) (fun j => Mv r c i j * eval r (nth j (f_of Sall c) (Num 0))) +
       rsum (length (c_y c)) (fun k => Mv r c i (off c By + k)%nat * r (nth k (c_u c) "")))%R).
    { rewrite NT, rsum_app. unfold nv. cbn [bx bw len off]. f_equal; apply rsum_ext; intros j Hj.
      - unfold a_vec, f_of, dxH_of, z_of. cbn [cut]. rewrite app_assoc, (app_nth1 (dxH c ++ c_z c))
          by (rewrite app_length; lia). reflexivity.
      - unfold a_vec. rewrite app_assoc, app_nth2 by (rewrite app_length; lia).
        rewrite app_length, LD, <- P1.
        replace (length (c_x c) + length (c_w c) + j - (length (c_x c) + length (c_w c))) with j by lia.
        now rewrite nth_map_Sym by lia. }
    rewrite S. unfold v_of, dx_of, w_of in HZ. cbn [cut] in HZ.
    pose proof (dx_length c) as LX.
    destruct (Nat.ltb_spec i (length (c_x c))) as [L2|L2].
    + rewrite app_nth1 in HZ by lia. lra.
    + rewrite app_nth2, LX in HZ by lia. lra.
  - destruct (Nat.ltb_spec i (length (c_x c))); [lia|].
    rewrite VO by lia. now replace (length (c_x c) + length (c_w c) + (i - (length (c_x c) + length (c_w c)))) with i by lia.
Qed.
