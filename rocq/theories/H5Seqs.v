(** Writing sequences in the dataset: proofs. *)
From Coq Require Import String List ZArith Bool Lia Arith.
From Verif Require Import Py H5 Spec_H5 H5Chunk H5Store.
Import ListNotations.
Local Open Scope string_scope.
Local Open Scope list_scope.
Local Open Scope nat_scope.

Section Seqs.
Context {A : Type}.
Variable mdim : string -> nat.
Variable names : list string.
Hypothesis ND : NoDup names.

Lemma counts_all : forall a n, counts a (a + n) 1 n.
Proof. intros a n k; lia. Qed.

Lemma app3_nth : forall B (l w r : list B) j,
  nth_error (l ++ w ++ r) j =
  if j <? length l then nth_error l j
  else if j <? length l + length w then nth_error w (j - length l)
       else nth_error r (j - length l - length w).
Proof.
  intros B l w r j.
  destruct (j <? length l) eqn:E1.
  - apply Nat.ltb_lt in E1; apply nth_error_app1; exact E1.
  - apply Nat.ltb_ge in E1; rewrite nth_error_app2 by exact E1.
    destruct (j <? length l + length w) eqn:E2.
    + apply Nat.ltb_lt in E2; apply nth_error_app1; lia.
    + apply Nat.ltb_ge in E2; apply nth_error_app2; lia.
Qed.

Lemma rows_rect : forall (F : nat -> string -> list A) nt,
  (forall i, sized mdim (F i) names) ->
  rect nt (total mdim names) (map (fun i => row_of (F i) names) (seq 0 nt)).
Proof.
  intros F nt S; split; [rewrite map_length, seq_length; reflexivity|].
  apply Forall_forall; intros r I; apply in_map_iff in I.
  destruct I as (i & E & _); subst r; apply row_of_length; apply S.
Qed.

Definition put_seq (n : string) (sq : list (list A))
           (F : nat -> string -> list A) : nat -> string -> list A :=
  fun i m => if String.eqb m n then nth i sq (F i m) else F i m.

Lemma put_seq_sized : forall n sq F nt,
  (forall i, sized mdim (F i) names) -> rect nt (mdim n) sq ->
  forall i, sized mdim (put_seq n sq F i) names.
Proof.
  intros n sq F nt S [L R] i m I; unfold put_seq.
  destruct (String.eqb m n) eqn:E; [|apply S; exact I].
  apply String.eqb_eq in E; subst m.
  destruct (Nat.lt_ge_cases i (length sq)) as [J|J].
  - apply (proj1 (Forall_forall _ _) R); apply nth_In; exact J.
  - rewrite nth_overflow by exact J; apply S; exact I.
Qed.

Lemma cell_rows : forall (F : nat -> string -> list A) nt i j, i < nt ->
  cell (map (fun i => row_of (F i) names) (seq 0 nt)) i j
  = nth_error (row_of (F i) names) j.
Proof.
  intros F nt i j L; unfold cell; rewrite nth_rows by exact L; reflexivity.
Qed.

Lemma cell_none : forall (m : list (list A)) n w i j,
  rect n w m -> n <= i -> cell m i j = None.
Proof.
  intros m n w i j [L F] G; unfold cell.
  replace (nth_error m i) with (@None (list A)); [reflexivity|].
  symmetry; apply nth_error_None; lia.
Qed.

Lemma written_rows : forall F nt n sq data',
  (forall i, sized mdim (F i) names) -> In n names -> rect nt (mdim n) sq ->
  rect nt (total mdim names) data' ->
  written (map (fun i => row_of (F i) names) (seq 0 nt)) sq data'
          0 1 nt (offset mdim names n) 1 (mdim n) ->
  data' = map (fun i => row_of (put_seq n sq F i) names) (seq 0 nt).
Proof.
  intros F nt n sq data' S I R R' [W1 W2].
  pose proof (put_seq_sized n sq F nt S R) as S'.
  apply (cell_ext nt (total mdim names)); [exact R'|apply rows_rect; exact S'|].
  intros i j.
  destruct (Nat.lt_ge_cases i nt) as [J|J].
  2:{ rewrite !(cell_none _ nt (total mdim names)); try assumption; [reflexivity|].
      apply rows_rect; exact S'. }
  rewrite cell_rows by exact J.
  destruct (row_split mdim (F i) names n ND I (S i)) as (l & r & E1 & E2 & E3).
  pose proof R as [LS FS].
  set (v := nth i sq (F i n)).
  assert (Lv : length v = mdim n).
  { unfold v; apply (proj1 (Forall_forall _ _) FS); apply nth_In; lia. }
  assert (EP : row_of (put_seq n sq F i) names = l ++ v ++ r).
  { rewrite <- E3; apply row_of_ext; intros m Im; unfold put_seq, updf, v.
    destruct (String.eqb m n) eqn:E; [|reflexivity].
    apply String.eqb_eq in E; subst; reflexivity. }
  rewrite EP, app3_nth, Lv.
  destruct (j <? length l) eqn:J1.
  - rewrite W2, cell_rows by
        (try exact J; intros (k & c & _ & _ & _ & X);
         apply Nat.ltb_lt in J1; lia).
    rewrite E1, app3_nth, J1; reflexivity.
  - apply Nat.ltb_ge in J1.
    destruct (j <? length l + mdim n) eqn:J2.
    + apply Nat.ltb_lt in J2.
      specialize (W1 i (j - length l)).
      replace (0 + i * 1) with i in W1 by lia.
      replace (offset mdim names n + (j - length l) * 1) with j in W1 by lia.
      rewrite W1 by lia; unfold cell.
      replace (nth_error sq i) with (Some v); [reflexivity|].
      symmetry; unfold v; apply nth_error_nth'; lia.
    + rewrite W2, cell_rows by
          (try exact J; intros (k & c & _ & X1 & _ & X);
           apply Nat.ltb_ge in J2; lia).
      rewrite E1, app3_nth, (S i n I).
      replace (j <? length l) with false
        by (symmetry; apply Nat.ltb_ge; exact J1).
      rewrite J2; reflexivity.
Qed.

Definition span (nt : nat) : pslice :=
  mkSlice (Some 0%Z) (Some (Z.of_nat nt)) None.

Lemma step_none : forall a b (l : list nat),
  slice_of (mkSlice a b None) l = slice_of (mkSlice a b (Some 1)) l.
Proof. reflexivity. Qed.

Lemma slice_len : forall a b n, a <= b -> b <= n ->
  length (slice_of (mkSlice (Some (Z.of_nat a)) (Some (Z.of_nat b)) None)
                   (seq 0 n)) = b - a.
Proof.
  intros a b n L L'; rewrite step_none.
  replace b with (a + (b - a)) at 1 by lia.
  rewrite (aslice_seq a (a + (b - a)) 1 n (b - a)) by
      (try apply counts_all; lia).
  rewrite map_length, seq_length; reflexivity.
Qed.

Definition seqs_ok (nt : nat) (seqs : list (string * list (list A))) : Prop :=
  NoDup (map fst seqs) /\
  forall n sq, In (n, sq) seqs -> In n names /\ rect nt (mdim n) sq.

Definition put_seqs (seqs : list (string * list (list A)))
           (F : nat -> string -> list A) : nat -> string -> list A :=
  fold_left (fun F e => put_seq (fst e) (snd e) F) seqs F.

Lemma dump_seqs_holds : forall fuel nt, nt < fuel ->
  forall seqs h F, seqs_ok nt seqs -> holds mdim names h nt F ->
  exists h', h5dump_seqs fuel h seqs (span nt) = Ok h' /\
    holds mdim names h' nt (put_seqs seqs F).
Proof.
  intros fuel nt FU; induction seqs as [|[n sq] seqs IH]; intros h F [D OK] H.
  - exists h; split; [reflexivity|exact H].
  - inversion D; subst.
    destruct (OK n sq (or_introl eq_refl)) as [I R].
    assert (OK' : seqs_ok nt seqs).
    { split; [assumption|]; intros m x X; apply OK; right; exact X. }
    pose proof H as (H1' & H2' & H3' & H4' & H5').
    unfold h5dump_seqs in *; cbn [dump_seqs_loop].
    rewrite H3', make_inds_get by assumption.
    cbn [span s_stop].
    pose proof (offset_bound mdim names n I) as OB.
    rewrite Nat2Z.id.
    assert (L1 : length (slice_of (span nt) (seq 0 nt)) = nt).
    { unfold span; change 0%Z with (Z.of_nat 0).
      rewrite slice_len by lia; lia. }
    unfold span in L1; unfold span; rewrite L1, slice_len by lia.
    replace (offset mdim names n + mdim n - offset mdim names n)
      with (mdim n) by lia.
    destruct (0 <? nt * mdim n) eqn:E.
    + apply Nat.ltb_lt in E.
      assert (P : 0 < nt /\ 0 < mdim n) by nia; destruct P as [P1 P2].
      rewrite H2', make_dims_total by exact ND.
      destruct (chunked_slices (h_data h) sq nt (total mdim names) 0 nt 1 nt
                  (offset mdim names n) (offset mdim names n + mdim n) 1
                  (mdim n) 1024 fuel) as (d' & S1 & S2 & S3);
        try assumption; try lia.
      { rewrite H4'; apply rows_rect; exact H5'. }
      { exact (counts_all 0 nt). }
      { apply counts_all. }
      match goal with |- context [set_dataset_from_iterable ?f ?d ?w ?q ?a ?b ?c]
        => change (set_dataset_from_iterable f d w q a b c)
             with (set_dataset_from_iterable fuel (h_data h)
                     (total mdim names) sq (aslice 0 nt 1)
                     (aslice (offset mdim names n)
                             (offset mdim names n + mdim n) 1) 1024)
      end.
      rewrite S1; cbn [rbind].
      apply (IH (set_data h d') (put_seq n sq F)); [exact OK'|].
      split; [exact H1'|]; split; [exact H2'|]; split; [exact H3'|].
      split; [|apply (put_seq_sized n sq F nt H5' R)].
      rewrite H4' in S3; cbn [set_data h_data].
      apply written_rows; assumption.
    + apply Nat.ltb_ge in E.
      apply (IH h (put_seq n sq F)); [exact OK'|].
      split; [exact H1'|]; split; [exact H2'|]; split; [exact H3'|].
      split; [|apply (put_seq_sized n sq F nt H5' R)].
      rewrite H4'; apply map_ext_in; intros i Ii; apply in_seq in Ii.
      apply row_of_ext; intros m Im; unfold put_seq.
      destruct (String.eqb m n) eqn:Em; [|reflexivity].
      apply String.eqb_eq in Em; subst m.
      assert (Z : mdim n = 0) by nia.
      pose proof (H5' i n Im) as L2; rewrite Z in L2.
      destruct R as [LS FS].
      assert (L3 : length (nth i sq (F i n)) = mdim n).
      { apply (proj1 (Forall_forall _ _) FS); apply nth_In; lia. }
      rewrite Z in L3.
      destruct (F i n); [|discriminate].
      destruct (nth i sq []); [reflexivity|discriminate].
Qed.

Lemma put_seqs_out : forall seqs F i n, ~ In n (map fst seqs) ->
  put_seqs seqs F i n = F i n.
Proof.
  unfold put_seqs; induction seqs as [|[m sq] seqs IH]; intros F i n N;
    [reflexivity|]; cbn [fold_left fst snd].
  rewrite IH by (intro X; apply N; right; exact X).
  unfold put_seq; destruct (String.eqb n m) eqn:E; [|reflexivity].
  apply String.eqb_eq in E; subst; exfalso; apply N; left; reflexivity.
Qed.

Lemma put_seqs_in : forall seqs F i n sq, NoDup (map fst seqs) ->
  In (n, sq) seqs -> put_seqs seqs F i n = nth i sq (F i n).
Proof.
  induction seqs as [|[m sq'] seqs IH]; intros F i n sq D I; [destruct I|].
  inversion D; subst.
  change (put_seqs ((m, sq') :: seqs) F)
    with (put_seqs seqs (put_seq m sq' F)).
  destruct I as [I|I].
  - inversion I; subst; rewrite put_seqs_out by assumption.
    unfold put_seq; rewrite String.eqb_refl; reflexivity.
  - rewrite (IH _ i n sq) by assumption.
    unfold put_seq; destruct (String.eqb n m) eqn:E; [|reflexivity].
    apply String.eqb_eq in E; subst.
    exfalso; apply H1; change m with (fst (m, sq)).
    apply in_map; exact I.
Qed.
End Seqs.

Lemma sequences_read_back : forall A (zero : A) mdim dnames nt ops seqs fuel,
  let names := ["u"; "p"] ++ dnames in
  NoDup names -> dicts ops -> nt < fuel -> NoDup (map fst seqs) ->
  (forall n sq, In (n, sq) seqs -> In n names /\ rect nt (mdim n) sq) ->
  exists h',
    h5dump_seqs fuel (run_writes zero ops (new_h5 zero mdim dnames nt)) seqs
                (mkSlice (Some 0%Z) (Some (Z.of_nat nt)) None) = Ok h' /\
    (forall n sq t v, In (n, sq) seqs -> nth_error sq t = Some v ->
       read_data h' n (TInt (Z.of_nat t)) VNone = Ok [v]) /\
    (forall n t, In n names -> ~ In n (map fst seqs) -> t < nt ->
       read_data h' n (TInt (Z.of_nat t)) VNone
       = read_data (run_writes zero ops (new_h5 zero mdim dnames nt)) n
                   (TInt (Z.of_nat t)) VNone).
Proof.
  intros A zero mdim dnames nt ops seqs fuel names D DO FU DS OK.
  destruct (run_holds mdim zero names D nt ops _ _
              (new_holds A zero mdim dnames nt D) DO) as [H _].
  destruct (dump_seqs_holds mdim names D fuel nt FU seqs _ _ (conj DS OK) H)
    as (h' & E & H').
  assert (RT : forall t, t < nt -> row_of_time nt (Z.of_nat t) = Some t).
  { intros t L; unfold row_of_time.
    replace (0 <=? Z.of_nat t)%Z with true by (symmetry; apply Z.leb_le; lia).
    replace (Z.of_nat t <? Z.of_nat nt)%Z with true
      by (symmetry; apply Z.ltb_lt; lia).
    rewrite Nat2Z.id; reflexivity. }
  exists h'; split; [exact E|]; split.
  - intros n sq t v I N; destruct (OK n sq I) as [In_ [LS _]].
    assert (L : t < nt) by (rewrite <- LS; apply nth_error_Some; congruence).
    rewrite (read_at mdim names D h' nt _ (Z.of_nat t) t n VNone H');
      [|apply RT; exact L|lia|exact In_|left; reflexivity].
    rewrite (put_seqs_in seqs _ t n sq DS I).
    rewrite (nth_error_nth sq t _ N); reflexivity.
  - intros n t In_ NI L.
    rewrite (read_at mdim names D h' nt _ (Z.of_nat t) t n VNone H');
      [|apply RT; exact L|lia|exact In_|left; reflexivity].
    rewrite (read_at mdim names D _ nt _ (Z.of_nat t) t n VNone H);
      [|apply RT; exact L|lia|exact In_|left; reflexivity].
    rewrite put_seqs_out by exact NI; reflexivity.
Qed.
