(** The variables of the dataset: proofs. *)
From Coq Require Import String List ZArith Bool Lia Arith.
From Verif Require Lists.
From Verif Require Import Py H5 Spec_H5 H5Chunk.
Import ListNotations.
Local Open Scope string_scope.
Local Open Scope list_scope.
Local Open Scope nat_scope.

(** ** Dictionaries *)

Lemma sget_sset : forall B k k' (b : B) d,
  sget k (sset k' b d) = if String.eqb k k' then Some b else sget k d.
Proof.
  induction d as [|[k0 b0] d IH]; cbn.
  - destruct (String.eqb k k'); reflexivity.
  - destruct (String.eqb k' k0) eqn:E; cbn.
    + apply String.eqb_eq in E; subst k0.
      destruct (String.eqb k k'); reflexivity.
    + rewrite IH; destruct (String.eqb k k0) eqn:E2; [|reflexivity].
      apply String.eqb_eq in E2; subst k0.
      rewrite String.eqb_sym, E; reflexivity.
Qed.

Lemma sget_none : forall B k (d : list (string * B)),
  sget k d = None <-> ~ In k (map fst d).
Proof.
  induction d as [|[k0 b0] d IH]; cbn.
  - split; [intros _ []|reflexivity].
  - destruct (String.eqb k k0) eqn:E.
    + apply String.eqb_eq in E; subst; split; [discriminate|].
      intro N; exfalso; apply N; left; reflexivity.
    + apply String.eqb_neq in E; rewrite IH; split.
      * intros N [X|X]; [congruence|contradiction].
      * intros N X; apply N; right; exact X.
Qed.

Lemma sget_in : forall B k (b : B) d,
  sget k d = Some b -> In (k, b) d.
Proof.
  induction d as [|[k0 b0] d IH]; cbn; [discriminate|].
  destruct (String.eqb k k0) eqn:E; intro H.
  - apply String.eqb_eq in E; inversion H; subst; left; reflexivity.
  - right; apply IH; exact H.
Qed.

Lemma in_sget : forall B k (b : B) d, NoDup (map fst d) ->
  In (k, b) d -> sget k d = Some b.
Proof.
  induction d as [|[k0 b0] d IH]; cbn; intros D [].
  - inversion H; subst; rewrite String.eqb_refl; reflexivity.
  - inversion D; subst.
    destruct (String.eqb k k0) eqn:E; [|apply IH; assumption].
    apply String.eqb_eq in E; subst k0; exfalso; apply H2.
    change k with (fst (k, b)); apply in_map; exact H.
Qed.

Lemma sset_new : forall B k (b : B) d, ~ In k (map fst d) ->
  sset k b d = d ++ [(k, b)].
Proof.
  induction d as [|[k0 b0] d IH]; cbn; intro N; [reflexivity|].
  destruct (String.eqb k k0) eqn:E.
  - apply String.eqb_eq in E; subst; exfalso; apply N; left; reflexivity.
  - rewrite IH; [reflexivity|]; intro I; apply N; right; exact I.
Qed.

Lemma sget_find : forall B k (d : list (string * B)),
  sget k d = option_map snd (find (fun e => String.eqb k (fst e)) d).
Proof.
  induction d as [|[k0 b0] d IH]; cbn; [reflexivity|].
  destruct (String.eqb k k0); [reflexivity|exact IH].
Qed.

Lemma nth_error_ext : forall B (l l' : list B),
  (forall k, nth_error l k = nth_error l' k) -> l = l'.
Proof.
  induction l as [|x l IH]; intros [|y l'] E; [reflexivity| | |].
  - discriminate (E 0).
  - discriminate (E 0).
  - pose proof (E 0) as E0; inversion E0; f_equal.
    apply IH; intro k; exact (E (S k)).
Qed.

(** ** The table of the variables *)

Section Layout.
Variable mdim : string -> nat.

(** Where a variable begins. *)
Fixpoint offset (names : list string) (n : string) : nat :=
  match names with
  | [] => 0
  | m :: names' => if String.eqb n m then 0 else mdim m + offset names' n
  end.

Lemma make_inds_gen : forall names d start n, NoDup names ->
  sget n (fst (fold_left
    (fun '(d, start) n => (sset n (start, start + mdim n) d, start + mdim n))
    names (d, start)))
  = if existsb (String.eqb n) names
    then Some (start + offset names n, start + offset names n + mdim n)
    else sget n d.
Proof.
  induction names as [|m names IH]; intros d start n D; cbn; [reflexivity|].
  inversion D; subst; rewrite IH by assumption.
  destruct (existsb (String.eqb n) names) eqn:E.
  - rewrite orb_true_r.
    destruct (String.eqb n m) eqn:E2.
    + apply String.eqb_eq in E2; subst m.
      apply existsb_exists in E; destruct E as (x & I & E).
      apply String.eqb_eq in E; subst x; contradiction.
    + rewrite !Nat.add_assoc; reflexivity.
  - rewrite orb_false_r, sget_sset.
    destruct (String.eqb n m) eqn:E2; [|reflexivity].
    apply String.eqb_eq in E2; subst m; rewrite Nat.add_0_r; reflexivity.
Qed.

Lemma existsb_In : forall n names,
  existsb (String.eqb n) names = true <-> In n names.
Proof.
  intros; rewrite existsb_exists; split.
  - intros (x & I & E); apply String.eqb_eq in E; subst; exact I.
  - intro I; exists n; split; [exact I|apply String.eqb_refl].
Qed.

Lemma make_inds_get : forall names n, NoDup names -> In n names ->
  sget n (make_inds mdim names)
  = Some (offset names n, offset names n + mdim n).
Proof.
  intros names n D I; unfold make_inds; rewrite make_inds_gen by exact D.
  apply existsb_In in I; rewrite I; reflexivity.
Qed.

Lemma make_inds_none : forall names n, NoDup names -> ~ In n names ->
  sget n (make_inds mdim names) = None.
Proof.
  intros names n D I; unfold make_inds; rewrite make_inds_gen by exact D.
  destruct (existsb (String.eqb n) names) eqn:E; [|reflexivity].
  apply existsb_In in E; contradiction.
Qed.

Definition total (names : list string) : nat :=
  fold_right (fun n s => mdim n + s) 0 names.

Lemma dim_of_app : forall d d', dim_of (d ++ d') = dim_of d + dim_of d'.
Proof.
  unfold dim_of; induction d as [|e d IH]; intro d'; cbn; [reflexivity|].
  rewrite IH; lia.
Qed.

Lemma make_dims_gen : forall names d, NoDup names ->
  (forall n, In n names -> ~ In n (map fst d)) ->
  dim_of (fold_left (fun d n => sset n (mdim n) d) names d)
  = dim_of d + total names.
Proof.
  induction names as [|m names IH]; intros d D N;
    cbn [fold_left total fold_right]; [symmetry; apply Nat.add_0_r|].
  inversion D; subst.
  rewrite sset_new by (apply N; left; reflexivity).
  rewrite IH.
  - rewrite dim_of_app; unfold total; cbn; lia.
  - assumption.
  - intros n I; rewrite map_app, in_app_iff; intros [X|[X|[]]].
    + exact (N n (or_intror I) X).
    + cbn in X; subst; contradiction.
Qed.

Lemma make_dims_total : forall names, NoDup names ->
  dim_of (make_dims mdim names) = total names.
Proof.
  intros names D; unfold make_dims; rewrite make_dims_gen; auto.
Qed.

Section Rows.
Context {A : Type}.

Definition row_of (f : string -> list A) (names : list string) : list A :=
  concat (map f names).

Definition sized (f : string -> list A) (names : list string) : Prop :=
  forall n, In n names -> length (f n) = mdim n.

Lemma row_of_length : forall f names, sized f names ->
  length (row_of f names) = total names.
Proof.
  induction names as [|m names IH]; intro S; cbn; [reflexivity|].
  unfold row_of in *; cbn; rewrite app_length, IH.
  - rewrite S by (left; reflexivity); reflexivity.
  - intros n I; apply S; right; exact I.
Qed.

Definition updf (f : string -> list A) (n : string) (w : list A)
  : string -> list A := fun m => if String.eqb m n then w else f m.

Lemma row_of_ext : forall f g names, (forall n, In n names -> f n = g n) ->
  row_of f names = row_of g names.
Proof.
  intros f g names E; unfold row_of; f_equal; apply map_ext_in; exact E.
Qed.

(** The row around the variable [n]. *)
Lemma row_split : forall f names n, NoDup names -> In n names ->
  sized f names ->
  exists l r, row_of f names = l ++ f n ++ r /\ length l = offset names n /\
    forall w, row_of (updf f n w) names = l ++ w ++ r.
Proof.
  induction names as [|m names IH]; intros n D I S; [destruct I|].
  inversion D; subst; cbn [offset].
  destruct (String.eqb n m) eqn:E.
  - apply String.eqb_eq in E; subst m.
    exists [], (row_of f names); split; [reflexivity|]; split; [reflexivity|].
    intro w; unfold row_of; cbn.
    unfold updf at 1; rewrite String.eqb_refl; f_equal.
    f_equal; apply map_ext_in; intros x Ix; unfold updf.
    destruct (String.eqb x n) eqn:E2; [|reflexivity].
    apply String.eqb_eq in E2; subst; contradiction.
  - destruct I as [I|I].
    { subst; rewrite String.eqb_refl in E; discriminate. }
    destruct (IH n) as (l & r & E1 & E2 & E3); try assumption.
    { intros x Ix; apply S; right; exact Ix. }
    exists (f m ++ l), r; split; [|split].
    + unfold row_of in *; cbn; rewrite E1, <- app_assoc; reflexivity.
    + rewrite app_length, E2, S by (left; reflexivity); reflexivity.
    + intro w; specialize (E3 w); unfold row_of in *; cbn; rewrite E3.
      unfold updf at 1; rewrite String.eqb_sym, E, <- app_assoc; reflexivity.
Qed.

Lemma row_slice : forall f names n, NoDup names -> In n names ->
  sized f names ->
  firstn (mdim n) (skipn (offset names n) (row_of f names)) = f n.
Proof.
  intros f names n D I S.
  destruct (row_split f names n D I S) as (l & r & E1 & E2 & _).
  rewrite E1, <- E2, skipn_app, Nat.sub_diag, skipn_all; cbn.
  rewrite <- (S n I), firstn_app, Nat.sub_diag, firstn_all; cbn.
  apply app_nil_r.
Qed.

Lemma offset_bound : forall names n, In n names ->
  offset names n + mdim n <= total names.
Proof.
  unfold total; induction names as [|m names IH]; intros n I;
    [destruct I|]; cbn.
  destruct (String.eqb n m) eqn:E.
  - apply String.eqb_eq in E; subst; lia.
  - destruct I as [I|I].
    + subst; rewrite String.eqb_refl in E; discriminate.
    + specialize (IH n I); lia.
Qed.

Lemma assign_row : forall f names n w, NoDup names -> In n names ->
  sized f names ->
  assign_slice (row_of f names) (offset names n) (offset names n + mdim n) w
  = match fit (mdim n) w with
    | Some w' => Ok (row_of (updf f n w') names)
    | None => Err ValueError
    end.
Proof.
  intros f names n w D I S.
  destruct (row_split f names n D I S) as (l & r & E1 & E2 & E3).
  pose proof (row_of_length f names S) as L.
  pose proof (offset_bound names n I) as B.
  unfold assign_slice; rewrite L, !Nat.min_l by lia.
  replace (offset names n + mdim n - offset names n) with (mdim n) by lia.
  rewrite E1.
  assert (F1 : firstn (offset names n) (l ++ f n ++ r) = l).
  { rewrite <- E2, firstn_app, Nat.sub_diag, firstn_all; cbn.
    apply app_nil_r. }
  assert (F2 : skipn (offset names n + mdim n) (l ++ f n ++ r) = r).
  { rewrite <- skipn_skipn', <- E2, skipn_app, Nat.sub_diag, skipn_all; cbn.
    rewrite <- (S n I), skipn_app, Nat.sub_diag, skipn_all; reflexivity. }
  rewrite F1, F2; unfold fit.
  destruct (length w =? mdim n); [rewrite E3; reflexivity|].
  destruct w as [|x [|]]; try reflexivity.
  rewrite E3; reflexivity.
Qed.

Lemma fit_sized : forall d (v w : list A), fit d v = Some w -> length w = d.
Proof.
  intros d v w; unfold fit; destruct (length v =? d) eqn:E.
  - intro H; inversion H; subst; apply Nat.eqb_eq; exact E.
  - destruct v as [|x [|]]; intro H; inversion H.
    apply repeat_length.
Qed.

Lemma updf_sized : forall f names n w, sized f names ->
  length w = mdim n -> sized (updf f n w) names.
Proof.
  intros f names n w S L m I; unfold updf.
  destruct (String.eqb m n) eqn:E; [|apply S; exact I].
  apply String.eqb_eq in E; subst; exact L.
Qed.

(** ** Reading and writing *)

Variable zero : A.
Variable names : list string.
Hypothesis ND : NoDup names.

(** The dataset holds the values [F]. *)
Definition holds (h : h5 A) (nt : nat) (F : nat -> string -> list A) : Prop :=
  h_names h = names /\ h_dims h = make_dims mdim names /\
  h_inds h = make_inds mdim names /\
  h_data h = map (fun i => row_of (F i) names) (seq 0 nt) /\
  (forall i, sized (F i) names).

Lemma py_slice_one : forall B (l : list B) t i b, t <> (-1)%Z ->
  row_of_time (length l) t = Some i -> nth_error l i = Some b ->
  py_slice l (Some t) (Some (t + 1)%Z) = [b].
Proof.
  intros B l t i b T R E.
  assert (L : i < length l) by (apply nth_error_Some; congruence).
  assert (G : forall (l : list B) i b, nth_error l i = Some b ->
                firstn 1 (skipn i l) = [b]).
  { clear; induction l as [|x l IH]; intros [|i] b E; try discriminate.
    - inversion E; reflexivity.
    - apply IH; exact E. }
  assert (C : py_clamp (Z.of_nat (length l)) t = Z.of_nat i /\
              py_clamp (Z.of_nat (length l)) (t + 1) = (Z.of_nat i + 1)%Z).
  { unfold row_of_time in R; unfold py_clamp.
    destruct (0 <=? t)%Z eqn:T0.
    - apply Z.leb_le in T0; destruct (t <? Z.of_nat (length l))%Z eqn:T1;
        [|discriminate].
      apply Z.ltb_lt in T1; inversion R; subst i.
      replace (t <? 0)%Z with false by (symmetry; apply Z.ltb_ge; lia).
      replace (t + 1 <? 0)%Z with false by (symmetry; apply Z.ltb_ge; lia).
      lia.
    - apply Z.leb_gt in T0.
      destruct (0 <=? t + Z.of_nat (length l))%Z eqn:T1; [|discriminate].
      apply Z.leb_le in T1; inversion R; subst i.
      replace (t <? 0)%Z with true by (symmetry; apply Z.ltb_lt; lia).
      replace (t + 1 <? 0)%Z with true by (symmetry; apply Z.ltb_lt; lia).
      lia. }
  destruct C as [C1 C2]; unfold py_slice; rewrite C1, C2.
  replace (Z.to_nat (Z.of_nat i + 1 - Z.of_nat i)) with 1 by lia.
  rewrite Nat2Z.id; apply G; exact E.
Qed.

Lemma py_slice_minus_one : forall B (l : list B),
  py_slice l (Some (-1)%Z) (Some 0%Z) = [].
Proof.
  intros B l; unfold py_slice, py_clamp; cbn [Z.ltb Z.compare].
  replace (Z.to_nat _) with 0; [reflexivity|].
  lia.
Qed.

Lemma stride_aux_none : forall B k (b : B), stride k [b] = [b].
Proof. intros; reflexivity. Qed.

Lemma nth_rows : forall B (f : nat -> B) nt i, i < nt ->
  nth_error (map f (seq 0 nt)) i = Some (f i).
Proof.
  intros B f nt i L; rewrite nth_error_map.
  rewrite (nth_error_nth' _ 0) by (rewrite seq_length; exact L).
  rewrite seq_nth by exact L; reflexivity.
Qed.

Lemma row_of_time_lt : forall nt t i, row_of_time nt t = Some i -> i < nt.
Proof.
  intros nt t i; unfold row_of_time.
  destruct (0 <=? t)%Z eqn:T0.
  - apply Z.leb_le in T0.
    destruct (t <? Z.of_nat nt)%Z eqn:T1; [|discriminate].
    apply Z.ltb_lt in T1; intro H; inversion H; lia.
  - apply Z.leb_gt in T0.
    destruct (0 <=? t + Z.of_nat nt)%Z eqn:T1; [|discriminate].
    apply Z.leb_le in T1; intro H; inversion H; lia.
Qed.

(** All the ways of reading a whole variable in a row. *)
Lemma read_cols_whole : forall f n v, In n names -> sized f names ->
  v = VNone \/ v = VSlice (mkSlice None None None) ->
  read_cols (offset names n) (offset names n + mdim n) v (row_of f names)
  = Ok (f n).
Proof.
  intros f n v I S V.
  assert (E : slice_of (mkSlice (Some (Z.of_nat (offset names n)))
                          (Some (Z.of_nat (offset names n + mdim n))) None)
                (row_of f names) = f n).
  { unfold slice_of; cbn.
    pose proof (offset_bound names n I).
    rewrite py_slice_nat, stride_one by (rewrite row_of_length; auto; lia).
    replace (offset names n + mdim n - offset names n) with (mdim n) by lia.
    apply row_slice; assumption. }
  destruct V; subst; cbn; rewrite E; reflexivity.
Qed.

Lemma read_index : forall f n k a, In n names -> sized f names ->
  nth_error (f n) k = Some a ->
  read_cols (offset names n) (offset names n + mdim n) (VInt (Z.of_nat k))
            (row_of f names) = Ok [a].
Proof.
  intros f n k a I S E; cbn.
  destruct (row_split f names n ND I S) as (l & r & E1 & E2 & _).
  unfold py_get.
  replace (Z.of_nat k + Z.of_nat (offset names n) <? 0)%Z with false
    by (symmetry; apply Z.ltb_ge; lia).
  replace (Z.of_nat k + Z.of_nat (offset names n) <? 0)%Z with false
    by (symmetry; apply Z.ltb_ge; lia).
  replace (Z.to_nat (Z.of_nat k + Z.of_nat (offset names n)))
    with (length l + k) by lia.
  rewrite E1, nth_error_app2 by lia.
  replace (length l + k - length l) with k by lia.
  assert (K : k < length (f n)) by (apply nth_error_Some; congruence).
  rewrite nth_error_app1, E by exact K; reflexivity.
Qed.

Lemma read_part : forall f n a b, In n names -> sized f names ->
  stop_at (mdim n) b <= mdim n ->
  read_cols (offset names n) (offset names n + mdim n) (VSlice (part a b))
            (row_of f names) = Ok (between (start_at a) (stop_at (mdim n) b) (f n)).
Proof.
  intros f n a b I S B.
  destruct (row_split f names n ND I S) as (l & r & E1 & E2 & _).
  assert (E : slice_of (mkSlice (Some (Z.of_nat (offset names n + start_at a)))
                          (Some (Z.of_nat (offset names n + stop_at (mdim n) b))) None)
                (row_of f names) = between (start_at a) (stop_at (mdim n) b) (f n)).
  { unfold slice_of; cbn [s_start s_stop s_step].
    rewrite Lists.py_slice_nat, stride_one.
    replace (offset names n + stop_at (mdim n) b - (offset names n + start_at a))
      with (stop_at (mdim n) b - start_at a) by lia.
    rewrite E1; unfold between.
    rewrite <- E2, skipn_app, (skipn_all2 l) by lia; cbn [app].
    replace (length l + start_at a - length l) with (start_at a) by lia.
    rewrite skipn_app, firstn_app, skipn_length.
    replace (length (f n)) with (mdim n) by (symmetry; apply S; exact I).
    replace (stop_at (mdim n) b - start_at a - (mdim n - start_at a)) with 0 by lia.
    cbn [firstn]; apply app_nil_r. }
  unfold read_cols, part; cbn [s_start s_stop s_step]; f_equal.
  transitivity (slice_of (mkSlice (Some (Z.of_nat (offset names n + start_at a)))
                          (Some (Z.of_nat (offset names n + stop_at (mdim n) b))) None)
                (row_of f names)); [|exact E].
  do 2 f_equal; f_equal; [destruct a|destruct b]; cbn [option_map start_at stop_at]; lia.
Qed.

Lemma read_at : forall h nt F t i n v, holds h nt F ->
  row_of_time nt t = Some i -> t <> (-1)%Z -> In n names ->
  v = VNone \/ v = VSlice (mkSlice None None None) ->
  read_data h n (TInt t) v = Ok [F i n].
Proof.
  intros h nt F t i n v (H1 & H2 & H3 & H4 & H5) R T I V.
  unfold read_data; rewrite H3, make_inds_get by assumption.
  assert (L : length (h_data h) = nt)
    by (rewrite H4, map_length, seq_length; reflexivity).
  unfold tslice_of, slice_of; cbn [s_start s_stop s_step].
  rewrite py_slice_one with (i := i) (b := row_of (F i) names).
  - cbn [stride stride_aux rmap]; rewrite read_cols_whole; auto.
  - exact T.
  - rewrite L; exact R.
  - rewrite H4; apply nth_rows; eapply row_of_time_lt; exact R.
Qed.

Lemma read_component : forall h nt F t i n k a, holds h nt F ->
  row_of_time nt t = Some i -> t <> (-1)%Z -> In n names ->
  nth_error (F i n) k = Some a ->
  read_data h n (TInt t) (VInt (Z.of_nat k)) = Ok [[a]].
Proof.
  intros h nt F t i n k a (H1 & H2 & H3 & H4 & H5) R T I K.
  unfold read_data; rewrite H3, make_inds_get by assumption.
  assert (L : length (h_data h) = nt)
    by (rewrite H4, map_length, seq_length; reflexivity).
  unfold tslice_of, slice_of; cbn [s_start s_stop s_step].
  rewrite py_slice_one with (i := i) (b := row_of (F i) names).
  - cbn [stride stride_aux rmap]; rewrite read_index with (a := a); auto.
  - exact T.
  - rewrite L; exact R.
  - rewrite H4; apply nth_rows; eapply row_of_time_lt; exact R.
Qed.

Lemma read_parts : forall h nt F t i n a b, holds h nt F ->
  row_of_time nt t = Some i -> t <> (-1)%Z -> In n names ->
  stop_at (mdim n) b <= mdim n ->
  read_data h n (TInt t) (VSlice (part a b))
  = Ok [between (start_at a) (stop_at (mdim n) b) (F i n)].
Proof.
  intros h nt F t i n a b (H1 & H2 & H3 & H4 & H5) R T I K.
  unfold read_data; rewrite H3, make_inds_get by assumption.
  assert (L : length (h_data h) = nt)
    by (rewrite H4, map_length, seq_length; reflexivity).
  unfold tslice_of, slice_of; cbn [s_start s_stop s_step].
  rewrite py_slice_one with (i := i) (b := row_of (F i) names).
  - cbn [stride stride_aux rmap]; rewrite read_part; auto.
  - exact T.
  - rewrite L; exact R.
  - rewrite H4; apply nth_rows; eapply row_of_time_lt; exact R.
Qed.

Lemma read_minus_one : forall h nt F n v, holds h nt F -> In n names ->
  read_data h n (TInt (-1)) v = Ok [].
Proof.
  intros h nt F n v (H1 & H2 & H3 & H4 & H5) I.
  unfold read_data; rewrite H3, make_inds_get by assumption.
  unfold tslice_of, slice_of; cbn [s_start s_stop s_step].
  change (-1 + 1)%Z with 0%Z.
  rewrite py_slice_minus_one; reflexivity.
Qed.

(** The rows of the load window. *)
Lemma stride_aux_nth : forall B k (l : list B) c j, 0 < k ->
  nth_error (stride_aux k c l) j = nth_error l (c + j * k).
Proof.
  induction l as [|x l IH]; intros c j K.
  - cbn; destruct j, (c + _); reflexivity.
  - cbn; destruct c as [|c].
    + destruct j as [|j]; [reflexivity|]; cbn [nth_error].
      rewrite IH by exact K.
      replace (0 + S j * k) with (S (k - 1 + j * k)) by (cbn; lia).
      reflexivity.
    + rewrite IH by exact K; reflexivity.
Qed.

Lemma rmap_read_whole : forall n, In n names -> forall l,
  (forall f, In f l -> sized f names) ->
  rmap (read_cols (offset names n) (offset names n + mdim n) VNone)
       (map (fun f => row_of f names) l) = Ok (map (fun f => f n) l).
Proof.
  intros n I; induction l as [|f l IH]; intro S; cbn [map rmap]; [reflexivity|].
  rewrite read_cols_whole; [|exact I|apply S; left; reflexivity|
                            left; reflexivity].
  cbn [rbind]; rewrite IH; [reflexivity|].
  intros g G; apply S; right; exact G.
Qed.

Lemma read_window : forall h nt F n, holds h nt F -> In n names ->
  inside (Z.of_nat nt) (h_win h) -> (1 <= l_step (h_win h))%Z ->
  forall a b s m,
  get_start (h_win h) = Z.of_nat a ->
  get_stop (Z.of_nat nt) (h_win h) = Z.of_nat b ->
  l_step (h_win h) = Z.of_nat s -> counts a b s m ->
  read_data h n TNone VNone
  = Ok (map (fun k => F (a + k * s) n) (seq 0 m)).
Proof.
  intros h nt F n (H1 & H2 & H3 & H4 & H5) I IW ST a b s m EA EB ES C.
  assert (L : length (h_data h) = nt)
    by (rewrite H4, map_length, seq_length; reflexivity).
  destruct IW as (W1 & W2 & W3).
  unfold read_data; rewrite H3, make_inds_get by assumption.
  unfold tslice_of, h_nt; cbn [s_start s_stop s_step].
  rewrite L, EA, EB, ES, Nat2Z.id.
  assert (SE : slice_of (mkSlice (Some (Z.of_nat a)) (Some (Z.of_nat b))
                           (Some s)) (h_data h)
               = map (fun f => row_of f names)
                     (map (fun k => F (a + k * s)) (seq 0 m))).
  { rewrite H4.
    assert (M : forall X Y (f : X -> Y) (l : list X) (sl : pslice),
               slice_of sl (map f l) = map f (slice_of sl l)).
    { intros X Y f l sl; unfold slice_of, stride.
      rewrite <- stride_aux_map; f_equal.
      unfold py_slice; rewrite map_length.
      rewrite skipn_map, firstn_map; reflexivity. }
    rewrite M, (aslice_seq a b s nt m) by (try assumption; lia).
    rewrite !map_map; reflexivity. }
  rewrite SE, rmap_read_whole, map_map; auto.
  intros f If; apply in_map_iff in If; destruct If as (k & E & _); subst f.
  apply H5.
Qed.

(** ** Writing vectors *)

Notation vecs := (list (string * list A)).

Lemma fill_missing_ok : forall h nt F t i, holds h nt F ->
  row_of_time nt t = Some i -> t <> (-1)%Z ->
  forall ns data, incl ns names -> NoDup (map fst data) ->
  exists data', fill_missing h t ns data = Ok data' /\
    NoDup (map fst data') /\
    (forall n, sget n data' = match sget n data with
                              | Some v => Some v
                              | None => if existsb (String.eqb n) ns
                                        then Some (F i n) else None
                              end).
Proof.
  intros h nt F t i H R T; induction ns as [|m ns IH]; intros data IN DD.
  - exists data; split; [reflexivity|]; split; [exact DD|].
    intro n; destruct (sget n data); reflexivity.
  - cbn [fill_missing].
    destruct (sget m data) as [v|] eqn:E.
    + destruct (IH data) as (data' & E1 & E2 & E3); [|exact DD|].
      { intros x X; apply IN; right; exact X. }
      exists data'; split; [exact E1|]; split; [exact E2|].
      intro n; rewrite E3; cbn [existsb].
      destruct (sget n data) eqn:En; [reflexivity|].
      destruct (String.eqb n m) eqn:Em; [|reflexivity].
      apply String.eqb_eq in Em; subst; congruence.
    + rewrite (read_at h nt F t i m) by
          (auto; apply IN; left; reflexivity).
      cbn [rbind].
      destruct (IH (sset m (F i m) data)) as (data' & E1 & E2 & E3).
      { intros x X; apply IN; right; exact X. }
      { rewrite sset_new by (apply sget_none; exact E).
        rewrite map_app; cbn.
        apply NoDup_Add with (a := m) (l := map fst data).
        - rewrite <- (app_nil_r (map fst data)) at 1; apply Add_app.
        - split; [exact DD|apply sget_none; exact E]. }
      exists data'; split; [exact E1|]; split; [exact E2|].
      intro n; rewrite E3, sget_sset; cbn [existsb].
      destruct (String.eqb n m) eqn:Em; [|reflexivity].
      apply String.eqb_eq in Em; subst; rewrite E; reflexivity.
Qed.

Lemma fill_missing_none : forall h t ns (data : vecs),
  (forall n, In n ns -> exists v, sget n data = Some v) ->
  fill_missing h t ns data = Ok data.
Proof.
  induction ns as [|m ns IH]; intros data S; [reflexivity|]; cbn.
  destruct (S m (or_introl eq_refl)) as [v E]; rewrite E; apply IH.
  intros n I; apply S; right; exact I.
Qed.

Lemma fill_missing_keeps : forall h t ns (data data' : vecs),
  fill_missing h t ns data = Ok data' ->
  forall n v, sget n data = Some v -> sget n data' = Some v.
Proof.
  induction ns as [|m ns IH]; intros data data' E n v G; cbn in E.
  - inversion E; subst; exact G.
  - destruct (sget m data) eqn:Em; [apply (IH data data' E n v G)|].
    destruct (read_data h m (TInt t) (VSlice (mkSlice None None None)))
      as [[|r [|]]|]; cbn in E; try discriminate.
    apply (IH _ _ E); rewrite sget_sset.
    destruct (String.eqb n m) eqn:En; [|exact G].
    apply String.eqb_eq in En; subst; congruence.
Qed.

Lemma fill_missing_minus_one : forall h nt F, holds h nt F ->
  forall ns (data data' : vecs), incl ns names ->
  fill_missing h (-1) ns data = Ok data' ->
  (forall n, In n ns -> exists v, sget n data = Some v).
Proof.
  intros h nt F H; induction ns as [|m ns IH]; intros data data' IN E n I;
    [destruct I|].
  cbn in E; destruct (sget m data) as [v|] eqn:Em.
  - destruct I as [I|I]; [subst; exists v; exact Em|].
    apply (IH data data'); try assumption.
    intros x X; apply IN; right; exact X.
  - rewrite (read_minus_one h nt F) in E by
        (try exact H; apply IN; left; reflexivity).
    discriminate.
Qed.

Lemma fill_vector_ok : forall h nt F, holds h nt F ->
  forall (data : vecs) f, sized f names -> NoDup (map fst data) ->
  (forall n v, In (n, v) data ->
     In n names /\ exists w, fit (mdim n) v = Some w) ->
  fill_vector h data (row_of f names)
  = Ok (row_of (fun n => match sget n data with
                         | Some v => match fit (mdim n) v with
                                     | Some w => w | None => f n end
                         | None => f n
                         end) names).
Proof.
  intros h nt F (H1 & H2 & H3 & H4 & H5).
  induction data as [|[m v] data IH]; intros f S DD OK; [reflexivity|].
  cbn [fill_vector].
  destruct (OK m v (or_introl eq_refl)) as [I [w W]].
  rewrite H3, make_inds_get, assign_row, W by assumption.
  inversion DD; subst; cbn [rbind].
  rewrite IH.
  - f_equal; apply row_of_ext; intros n In_; cbn [sget].
    unfold updf.
    destruct (String.eqb n m) eqn:E; [|reflexivity].
    apply String.eqb_eq in E; subst n.
    rewrite (proj2 (sget_none _ m data)) by assumption.
    rewrite W; reflexivity.
  - apply updf_sized; [exact S|eapply fit_sized; exact W].
  - assumption.
  - intros n x X; apply OK; right; exact X.
Qed.

Lemma fill_vector_fits : forall h nt F, holds h nt F ->
  forall (data : vecs) f r, sized f names ->
  fill_vector h data (row_of f names) = Ok r ->
  forall n v, In (n, v) data ->
    In n names /\ exists w, fit (mdim n) v = Some w.
Proof.
  intros h nt F (H1 & H2 & H3 & H4 & H5).
  induction data as [|[m x] data IH]; intros f r S E n v I; [destruct I|].
  cbn [fill_vector] in E; rewrite H3 in E.
  destruct (in_dec string_dec m names) as [Im|Im].
  2:{ rewrite make_inds_none in E by assumption; discriminate. }
  rewrite make_inds_get, assign_row in E by assumption.
  destruct (fit (mdim m) x) as [w|] eqn:W; [|discriminate].
  cbn [rbind] in E.
  destruct I as [I|I].
  - inversion I; subst; split; [exact Im|exists w; exact W].
  - apply (IH (updf f m w) r); try assumption.
    apply updf_sized; [exact S|eapply fit_sized; exact W].
Qed.

(** The values after an accepted write. *)
Definition after (nt : nat) (op : Z * vecs) (F : nat -> string -> list A)
  : nat -> string -> list A :=
  fun i n => match gives mdim names nt op i n with
             | Some v => v | None => F i n end.

Lemma zeros_row : forall ns,
  repeat zero (total ns) = row_of (fun n => repeat zero (mdim n)) ns.
Proof.
  induction ns as [|m ns IH]; cbn; [reflexivity|].
  rewrite repeat_app; f_equal; exact IH.
Qed.

Lemma replace_rows : forall (F : nat -> string -> list A) g nt i, i < nt ->
  replace_at i (row_of g names) (map (fun j => row_of (F j) names) (seq 0 nt))
  = map (fun j => row_of (if j =? i then g else F j) names) (seq 0 nt).
Proof.
  intros F g nt i L.
  apply nth_error_ext; intro j.
  rewrite replace_at_nth by (rewrite map_length, seq_length; exact L).
  destruct (Nat.lt_ge_cases j nt) as [J|J].
  - rewrite !nth_rows by exact J; destruct (j =? i); reflexivity.
  - replace (j =? i) with false by (symmetry; apply Nat.eqb_neq; lia).
    rewrite !(proj2 (nth_error_None _ _));
      [reflexivity| |]; rewrite map_length, seq_length; exact J.
Qed.

Lemma write_row_time : forall B nt t (d : list (list B)) v,
  length d = nt ->
  write_row d t v = match row_of_time nt t with
                    | Some i => Ok (replace_at i v d)
                    | None => Err IndexError
                    end.
Proof.
  intros B nt t d v L; unfold write_row, row_of_time; rewrite L.
  destruct (0 <=? t)%Z eqn:T0.
  - apply Z.leb_le in T0.
    replace (t <? 0)%Z with false by (symmetry; apply Z.ltb_ge; lia).
    replace (t <? 0)%Z with false by (symmetry; apply Z.ltb_ge; lia).
    cbn [orb]; rewrite Z.leb_antisym.
    destruct (t <? Z.of_nat nt)%Z; reflexivity.
  - apply Z.leb_gt in T0.
    replace (t <? 0)%Z with true by (symmetry; apply Z.ltb_lt; lia).
    replace (Z.of_nat nt <=? t + Z.of_nat nt)%Z with false
      by (symmetry; apply Z.leb_gt; lia).
    rewrite orb_false_r, Z.leb_antisym.
    destruct (t + Z.of_nat nt <? 0)%Z; reflexivity.
Qed.

Lemma holds_length : forall h nt F, holds h nt F -> length (h_data h) = nt.
Proof.
  intros h nt F (H1 & H2 & H3 & H4 & H5).
  rewrite H4, map_length, seq_length; reflexivity.
Qed.

Lemma zeros_sized : forall ns, sized (fun n => repeat zero (mdim n)) ns.
Proof. intros ns n I; apply repeat_length. Qed.

(** What [accepted] says. *)
Lemma accepted_iff : forall nt (op : Z * vecs),
  accepted mdim names nt op = true <->
  (forall n v, In (n, v) (snd op) ->
     In n names /\ exists w, fit (mdim n) v = Some w) /\
  (exists i, row_of_time nt (fst op) = Some i) /\
  (fst op <> (-1)%Z \/
   forall n, In n names -> exists v, sget n (snd op) = Some v).
Proof.
  intros nt [t data]; unfold accepted; cbn [fst snd].
  rewrite !andb_true_iff, orb_true_iff, negb_true_iff, Z.eqb_neq.
  split.
  - intros [[P1 P2] P3]; split; [|split].
    + intros n v I; rewrite forallb_forall in P1.
      specialize (P1 (n, v) I); cbn [fst snd] in P1.
      apply andb_true_iff in P1; destruct P1 as [Q1 Q2].
      split; [apply existsb_In; exact Q1|].
      destruct (fit (mdim n) v) as [w|]; [exists w; reflexivity|discriminate].
    + destruct (row_of_time nt t) as [i|]; [exists i; reflexivity|discriminate].
    + destruct P3 as [P3|P3]; [left; exact P3|right].
      intros n I; rewrite forallb_forall in P3; specialize (P3 n I).
      apply existsb_exists in P3; destruct P3 as ([m v] & Im & E).
      cbn in E; apply String.eqb_eq in E; subst m.
      destruct (sget n data) as [w|] eqn:G; [exists w; reflexivity|].
      exfalso; apply sget_none in G; apply G.
      change n with (fst (n, v)); apply in_map; exact Im.
  - intros (P1 & [i P2] & P3); split; [split|].
    + apply forallb_forall; intros [n v] I; cbn [fst snd].
      destruct (P1 n v I) as [Q1 [w Q2]].
      apply existsb_In in Q1; rewrite Q1, Q2; reflexivity.
    + rewrite P2; reflexivity.
    + destruct P3 as [P3|P3]; [left; exact P3|right].
      apply forallb_forall; intros n I.
      destruct (P3 n I) as [v V]; apply sget_in in V.
      apply existsb_exists; exists (n, v); split; [exact V|].
      apply String.eqb_refl.
Qed.

Lemma dump_accepted : forall h nt F op, holds h nt F ->
  NoDup (map fst (snd op)) -> accepted mdim names nt op = true ->
  exists h' data', h5dump_vecs zero h (fst op) (snd op) = Ok (h', data') /\
    holds h' nt (after nt op F) /\ h_win h' = h_win h.
Proof.
  intros h nt F [t data] H DD AC.
  pose proof AC as AC'.
  apply accepted_iff in AC'; destruct AC' as (P1 & [i P2] & P3);
    cbn [fst snd] in *.
  pose proof H as (H1 & H2 & H3 & H4 & H5).
  assert (FM : exists data', fill_missing h t (h_names h) data = Ok data' /\
    NoDup (map fst data') /\
    (forall n, In n names ->
       sget n data' = match sget n data with
                      | Some v => Some v | None => Some (F i n) end) /\
    (forall n, ~ In n names -> sget n data' = None)).
  { rewrite H1.
    assert (NN : forall n, ~ In n names -> sget n data = None).
    { intros n N; destruct (sget n data) as [v|] eqn:G; [|reflexivity].
      apply sget_in in G; apply P1 in G; destruct G; contradiction. }
    destruct (Z.eq_dec t (-1)) as [T|T].
    - destruct P3 as [P3|P3]; [contradiction|].
      exists data; split; [apply fill_missing_none; exact P3|].
      split; [exact DD|]; split; [|exact NN].
      intros n I; destruct (P3 n I) as [v V]; rewrite V; reflexivity.
    - destruct (fill_missing_ok h nt F t i H P2 T names data) as
          (data' & E1 & E2 & E3); [apply incl_refl|exact DD|].
      exists data'; split; [exact E1|]; split; [exact E2|]; split.
      + intros n I; rewrite E3.
        apply existsb_In in I; rewrite I; reflexivity.
      + intros n N; rewrite E3, NN by exact N.
        destruct (existsb (String.eqb n) names) eqn:X; [|reflexivity].
        apply existsb_In in X; contradiction. }
  destruct FM as (data' & E1 & E2 & E3 & E4).
  unfold h5dump_vecs; rewrite E1; cbn [rbind].
  rewrite H2, make_dims_total, zeros_row by exact ND.
  assert (OK : forall n v, In (n, v) data' ->
            In n names /\ exists w, fit (mdim n) v = Some w).
  { intros n v I; apply in_sget in I; [|exact E2].
    destruct (in_dec string_dec n names) as [N|N].
    - split; [exact N|]; rewrite E3 in I by exact N.
      destruct (sget n data) as [x|] eqn:G.
      + inversion I; subst x; apply sget_in in G; apply P1 in G.
        exact (proj2 G).
      + inversion I; exists (F i n); unfold fit.
        rewrite H5, Nat.eqb_refl by exact N; reflexivity.
    - rewrite E4 in I by exact N; discriminate. }
  rewrite (fill_vector_ok h nt F H data' _ (zeros_sized names) E2 OK).
  cbn [rbind].
  rewrite (write_row_time _ nt) by (eapply holds_length; exact H).
  rewrite P2; cbn [rbind].
  eexists; eexists; split; [reflexivity|]; split; [|reflexivity].
  pose proof (row_of_time_lt _ _ _ P2) as LT.
  split; [exact H1|]; split; [exact H2|]; split; [exact H3|].
  assert (AF : forall j n, In n names ->
    after nt (t, data) F j n =
    if j =? i then
      match sget n data' with
      | Some v => match fit (mdim n) v with
                  | Some w => w | None => repeat zero (mdim n) end
      | None => repeat zero (mdim n)
      end
    else F j n).
  { intros j n I; unfold after, gives; rewrite AC; cbn [fst snd andb].
    rewrite P2, E3 by exact I.
    rewrite Nat.eqb_sym; destruct (j =? i) eqn:J; [|reflexivity].
    apply Nat.eqb_eq in J; subst j.
    rewrite sget_find.
    destruct (find (fun e => String.eqb n (fst e)) data) as [[m v]|] eqn:G;
      cbn [option_map snd].
    - pose proof (find_some _ _ G) as [G1 G2]; cbn in G2.
      apply String.eqb_eq in G2; subst m.
      destruct (P1 n v G1) as [_ [w W]]; rewrite W; reflexivity.
    - unfold fit; rewrite H5, Nat.eqb_refl by exact I; reflexivity. }
  split.
  - unfold set_data; cbn [h_data]; rewrite H4, replace_rows by exact LT.
    apply map_ext; intro j; apply row_of_ext; intros n I.
    rewrite AF by exact I; destruct (j =? i); reflexivity.
  - intros j n I; rewrite AF by exact I.
    destruct (j =? i); [|apply H5; exact I].
    rewrite E3 by exact I.
    destruct (sget n data) as [v|] eqn:G.
    + apply sget_in in G; destruct (P1 n v G) as [_ [w W]]; rewrite W.
      eapply fit_sized; exact W.
    + unfold fit; rewrite H5, Nat.eqb_refl by exact I; apply H5; exact I.
Qed.

Lemma dump_ok_accepted : forall h nt F op h' data', holds h nt F ->
  NoDup (map fst (snd op)) ->
  h5dump_vecs zero h (fst op) (snd op) = Ok (h', data') ->
  accepted mdim names nt op = true.
Proof.
  intros h nt F [t data] h' data' H DD E; cbn [fst snd] in *.
  pose proof H as (H1 & H2 & H3 & H4 & H5).
  unfold h5dump_vecs in E.
  destruct (fill_missing h t (h_names h) data) as [d'|] eqn:E1;
    cbn [rbind] in E; [|discriminate].
  rewrite H2, make_dims_total, zeros_row in E by exact ND.
  destruct (fill_vector h d' (row_of _ names)) as [v|] eqn:E2;
    cbn [rbind] in E; [|discriminate].
  rewrite (write_row_time _ nt) in E by (eapply holds_length; exact H).
  destruct (row_of_time nt t) as [i|] eqn:E3; [|discriminate].
  apply accepted_iff; cbn [fst snd]; split; [|split].
  - intros n x I.
    apply (fill_vector_fits h nt F H d' _ v (zeros_sized names) E2).
    apply sget_in; apply (fill_missing_keeps h t (h_names h) data d' E1).
    apply in_sget; assumption.
  - exists i; exact E3.
  - destruct (Z.eq_dec t (-1)) as [T|T]; [right|left; exact T].
    subst t; rewrite H1 in E1.
    exact (fill_missing_minus_one h nt F H names data d' (incl_refl _) E1).
Qed.

Lemma step_holds : forall h nt F op, holds h nt F ->
  NoDup (map fst (snd op)) ->
  holds (step_write zero h op) nt (after nt op F) /\
  h_win (step_write zero h op) = h_win h.
Proof.
  intros h nt F op H DD.
  destruct (accepted mdim names nt op) eqn:AC.
  - destruct (dump_accepted h nt F op H DD AC) as (h' & d' & E & P & W).
    unfold step_write; rewrite E; split; assumption.
  - assert (S : step_write zero h op = h).
    { unfold step_write.
      destruct (h5dump_vecs zero h (fst op) (snd op)) as [[h' d']|] eqn:E;
        [|reflexivity].
      rewrite (dump_ok_accepted h nt F op h' d' H DD E) in AC; discriminate. }
    rewrite S; split; [|reflexivity].
    pose proof H as (H1 & H2 & H3 & H4 & H5).
    assert (Q : forall i n, after nt op F i n = F i n).
    { intros i n; unfold after, gives; rewrite AC; reflexivity. }
    split; [exact H1|]; split; [exact H2|]; split; [exact H3|]; split.
    + rewrite H4; apply map_ext; intro i; apply row_of_ext; intros n I.
      symmetry; apply Q.
    + intros i n I; rewrite Q; apply H5; exact I.
Qed.

Lemma run_holds : forall nt ops h F, holds h nt F -> dicts ops ->
  holds (run_writes zero ops h) nt
        (fun i n => last_written mdim names nt ops i n (F i n)) /\
  h_win (run_writes zero ops h) = h_win h.
Proof.
  intros nt; induction ops as [|op ops IH]; intros h F H D.
  - split; [exact H|reflexivity].
  - inversion D; subst.
    destruct (step_holds h nt F op H) as [S1 S2]; [assumption|].
    destruct (IH _ _ S1) as [R1 R2]; [assumption|].
    split; [exact R1|].
    change (run_writes zero (op :: ops) h)
      with (run_writes zero ops (step_write zero h op)).
    rewrite R2; exact S2.
Qed.

End Rows.
End Layout.

(** ** The theorems *)

Lemma new_holds : forall A (zero : A) mdim dnames nt,
  NoDup (["u"; "p"] ++ dnames) ->
  holds mdim (["u"; "p"] ++ dnames) (new_h5 zero mdim dnames nt) nt
        (fun _ n => repeat zero (mdim n)).
Proof.
  intros A zero mdim dnames nt D; unfold new_h5.
  split; [reflexivity|]; split; [reflexivity|]; split; [reflexivity|].
  split; [|intros i n I; apply repeat_length].
  cbn [h_data]; rewrite make_dims_total by exact D.
  rewrite zeros_row.
  generalize (row_of (fun n => repeat zero (mdim n)) (["u"; "p"] ++ dnames)).
  intro r; clear; generalize 0.
  induction nt as [|nt IH]; intro s; cbn; [reflexivity|].
  rewrite <- IH; reflexivity.
Qed.

Section Read.
Context {A : Type}.
Variable zero : A.
Variable mdim : string -> nat.
Variable dnames : list string.
Let names := ["u"; "p"] ++ dnames.
Hypothesis ND : NoDup names.

Lemma read_back : forall nt ops t i n,
  dicts ops -> row_of_time nt t = Some i -> t <> (-1)%Z -> In n names ->
  read_data (run_writes zero ops (new_h5 zero mdim dnames nt)) n (TInt t) VNone
  = Ok [last_written mdim names nt ops i n (repeat zero (mdim n))].
Proof.
  intros nt ops t i n D R T I.
  destruct (run_holds mdim zero names ND nt ops _ _
              (new_holds A zero mdim dnames nt ND) D) as [H _].
  rewrite (read_at mdim names ND _ nt _ t i n VNone H R T I);
    [reflexivity|left; reflexivity].
Qed.

Lemma read_back_component : forall nt ops t i n k a,
  dicts ops -> row_of_time nt t = Some i -> t <> (-1)%Z -> In n names ->
  nth_error (last_written mdim names nt ops i n (repeat zero (mdim n))) k
  = Some a ->
  read_data (run_writes zero ops (new_h5 zero mdim dnames nt)) n (TInt t)
            (VInt (Z.of_nat k)) = Ok [[a]].
Proof.
  intros nt ops t i n k a D R T I E.
  destruct (run_holds mdim zero names ND nt ops _ _
              (new_holds A zero mdim dnames nt ND) D) as [H _].
  exact (read_component mdim names ND _ nt _ t i n k a H R T I E).
Qed.

Lemma read_back_part : forall nt ops t i n a b,
  dicts ops -> row_of_time nt t = Some i -> t <> (-1)%Z -> In n names ->
  stop_at (mdim n) b <= mdim n ->
  read_data (run_writes zero ops (new_h5 zero mdim dnames nt)) n (TInt t)
            (VSlice (part a b))
  = Ok [between (start_at a) (stop_at (mdim n) b)
          (last_written mdim names nt ops i n (repeat zero (mdim n)))].
Proof.
  intros nt ops t i n a b D R T I E.
  destruct (run_holds mdim zero names ND nt ops _ _
              (new_holds A zero mdim dnames nt ND) D) as [H _].
  exact (read_parts mdim names ND _ nt _ t i n a b H R T I E).
Qed.

Lemma write_accepted : forall nt ops op,
  dicts ops -> NoDup (map fst (snd op)) ->
  ((exists r, h5dump_vecs zero (run_writes zero ops
                (new_h5 zero mdim dnames nt)) (fst op) (snd op) = Ok r)
   <-> accepted mdim names nt op = true).
Proof.
  intros nt ops op D DD.
  destruct (run_holds mdim zero names ND nt ops _ _
              (new_holds A zero mdim dnames nt ND) D) as [H _].
  split.
  - intros [[h' d'] E].
    exact (dump_ok_accepted mdim zero names ND _ nt _ op h' d' H DD E).
  - intro AC.
    destruct (dump_accepted mdim zero names ND _ nt _ op H DD AC)
      as (h' & d' & E & _).
    exists (h', d'); exact E.
Qed.

(** Reading through the load window, whatever it was set to before. *)
Lemma read_back_window : forall nt ops w n a b s m,
  dicts ops -> In n names -> inside (Z.of_nat nt) w ->
  get_start w = Z.of_nat a -> get_stop (Z.of_nat nt) w = Z.of_nat b ->
  l_step w = Z.of_nat s -> 0 < s -> counts a b s m ->
  let h := run_writes zero ops (new_h5 zero mdim dnames nt) in
  read_data (mkH5 (h_names h) (h_dims h) (h_inds h) w (h_data h)) n TNone VNone
  = Ok (map (fun k => last_written mdim names nt ops (a + k * s) n
                                   (repeat zero (mdim n))) (seq 0 m)).
Proof.
  intros nt ops w n a b s m D I IW EA EB ES S C h.
  destruct (run_holds mdim zero names ND nt ops _ _
              (new_holds A zero mdim dnames nt ND) D) as [H _].
  assert (H' : holds mdim names
            (mkH5 (h_names h) (h_dims h) (h_inds h) w (h_data h)) nt
            (fun i n => last_written mdim names nt ops i n
                                     (repeat zero (mdim n)))) by exact H.
  apply (read_window mdim names ND _ nt _ n H' I) with (b := b);
    cbn [h_win]; try assumption; lia.
Qed.
End Read.
