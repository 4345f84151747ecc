(** Proofs about the list helpers. *)
From Coq Require Import String List ZArith Bool Lia Permutation Sorted Arith.
From Verif Require Import Py Tools Lists Spec_Tools.
Import ListNotations.

(** ** myrange *)

(** Closed form of [myrange] on natural indices. *)
Definition mv (N i f : nat) : list nat :=
  if i <? f then seq 0 i ++ seq (S i) (Nat.min f (N-1) - i) ++ [i] ++ seq (S f) (N - S f)
  else if f <? i then seq 0 f ++ [i] ++ seq f (i - f) ++ seq (S i) (N - S i)
  else seq 0 N.

Lemma myrange_mv N i f :
  i < N -> myrange N (Z.of_nat i) (Z.of_nat f) = Ok (mv N i f).
Proof.
  intros Hi. unfold myrange, mv.
  replace (Z.of_nat i + 1)%Z with (Z.of_nat (S i)) by lia.
  replace (Z.of_nat f + 1)%Z with (Z.of_nat (S f)) by lia.
  destruct (Z.ltb_spec (Z.of_nat i) (Z.of_nat f)) as [H|H].
  - destruct (Nat.ltb_spec i f) as [H1|H1]; [|lia].
    rewrite py_get_nat, nth_error_seq.
    destruct (Nat.ltb_spec i N) as [_|]; [|lia]. cbn [rbind].
    rewrite py_slice_to, py_slice_nat, py_slice_from.
    rewrite !skipn_seq, !firstn_seq. f_equal.
    rewrite <- app_assoc. f_equal.
    + f_equal; lia.
    + f_equal. f_equal; lia.
  - destruct (Nat.ltb_spec i f) as [H1|H1]; [lia|].
    destruct (Z.ltb_spec (Z.of_nat f) (Z.of_nat i)) as [H2|H2].
    + destruct (Nat.ltb_spec f i) as [H3|H3]; [|lia].
      rewrite py_get_nat, nth_error_seq.
      destruct (Nat.ltb_spec i N) as [_|]; [|lia]. cbn [rbind].
      rewrite py_slice_to, py_slice_nat, py_slice_from.
      rewrite !skipn_seq, !firstn_seq. f_equal.
      f_equal; [f_equal; lia|]. f_equal. f_equal. f_equal; lia.
    + destruct (Nat.ltb_spec f i) as [H3|H3]; [lia|]. reflexivity.
Qed.

Lemma filter_neq_notin i l : ~ In i l -> filter (fun k => negb (k =? i)) l = l.
Proof.
  induction l as [|a l IH]; cbn; intros H; [reflexivity|].
  destruct (Nat.eqb_spec a i) as [->|Hn]; [exfalso; tauto|].
  cbn. f_equal. tauto.
Qed.

Lemma seq_around N i : i < N -> seq 0 N = seq 0 i ++ i :: seq (S i) (N - S i).
Proof.
  intros H. replace N with (i + S (N - S i)) at 1 by lia.
  rewrite seq_app. cbn [seq]. reflexivity.
Qed.

Lemma filter_seq_around N i : i < N ->
  filter (fun k => negb (k =? i)) (seq 0 N) = seq 0 i ++ seq (S i) (N - S i).
Proof.
  intros H. rewrite (seq_around N i H), filter_app. cbn.
  rewrite Nat.eqb_refl. cbn.
  rewrite !filter_neq_notin; [reflexivity| |]; rewrite in_seq; lia.
Qed.

Lemma mv_spec N i f :
  i < N -> moved_range N i (Nat.min f (N - 1)) (mv N i f).
Proof.
  intros Hi. unfold moved_range.
  assert (E : mv N i f = firstn (Nat.min f (N-1)) (seq 0 i ++ seq (S i) (N - S i))
     ++ i :: skipn (Nat.min f (N-1)) (seq 0 i ++ seq (S i) (N - S i))).
  { unfold mv. destruct (Nat.ltb_spec i f) as [H|H].
    - rewrite firstn_app, skipn_app, seq_length.
      rewrite !firstn_seq, !skipn_seq. cbn [app].
      rewrite <- !app_assoc. f_equal; [f_equal; lia|].
      f_equal; [f_equal; lia|]. f_equal.
      replace (i - Nat.min f (N-1)) with 0 by lia. cbn [seq app].
      destruct (le_lt_dec N f) as [Hf|Hf].
      + replace (N - S f) with 0 by lia.
        replace (N - S i - (Nat.min f (N - 1) - i)) with 0 by lia. reflexivity.
      + f_equal; lia.
    - destruct (Nat.ltb_spec f i) as [H1|H1].
      + rewrite firstn_app, skipn_app, seq_length.
        rewrite !firstn_seq, !skipn_seq.
        replace (Nat.min f (N-1)) with f by lia.
        replace (f - i) with 0 by lia. cbn [Nat.min seq]. rewrite app_nil_r.
        cbn [app]. f_equal; [f_equal; lia|]. f_equal.
        rewrite Nat.add_0_r. f_equal. f_equal; lia.
      + assert (f = i) as -> by lia.
        replace (Nat.min i (N-1)) with i by lia.
        rewrite firstn_app, skipn_app, seq_length.
        rewrite !firstn_seq, !skipn_seq.
        replace (i - i) with 0 by lia. cbn [Nat.min seq app].
        rewrite app_nil_r, Nat.add_0_r, Nat.sub_0_r, Nat.min_id.
        apply seq_around, Hi. }
  rewrite E. set (p := Nat.min f (N-1)).
  set (rest := seq 0 i ++ seq (S i) (N - S i)).
  assert (Hlen : length rest = N - 1).
  { unfold rest. rewrite app_length, !seq_length. lia. }
  assert (Hnot : ~ In i rest).
  { unfold rest. rewrite in_app_iff, !in_seq. lia. }
  split; [|split].
  - rewrite (seq_around N i Hi).
    apply Permutation_trans with (i :: rest).
    + rewrite <- (firstn_skipn p rest) at 3.
      apply Permutation_sym, Permutation_middle.
    + apply Permutation_middle.
  - rewrite nth_error_app2; rewrite firstn_length, Hlen; [|lia].
    replace (p - Nat.min p (N-1)) with 0 by lia. reflexivity.
  - rewrite filter_seq_around by exact Hi. fold rest.
    rewrite filter_app. cbn. rewrite Nat.eqb_refl. cbn.
    rewrite <- filter_app, firstn_skipn.
    apply filter_neq_notin, Hnot.
Qed.

Lemma myrange_spec N i f :
  i < N ->
  exists l, myrange N (Z.of_nat i) (Z.of_nat f) = Ok l /\
            moved_range N i (Nat.min f (N - 1)) l.
Proof.
  intros Hi. exists (mv N i f). split; [apply myrange_mv, Hi | apply mv_spec, Hi].
Qed.

(** ** decimate *)

Lemma nth_error_skipn {A} (l : list A) k j : nth_error (skipn k l) j = nth_error l (k + j).
Proof.
  revert l; induction k as [|k IH]; intros l; [reflexivity|].
  destruct l as [|a l]; cbn; [now destruct j | apply IH].
Qed.

Lemma decimate_loop_spec {A} (d : nat) (it : list A) (n k : nat) :
  0 < d ->
  nth_error (decimate_loop (Z.of_nat d) it (Z.of_nat n)) k =
  nth_error it ((d - n mod d) mod d + k * d).
Proof.
  intros Hd. revert n k; induction it as [|a it IH]; intros n k.
  - cbn [decimate_loop]. rewrite !(proj2 (nth_error_None (A:=A) [] _)); cbn; (reflexivity || lia).
  - cbn [decimate_loop].
    replace (Z.of_nat n + 1)%Z with (Z.of_nat (S n)) by lia.
    assert (Hm : (Z.of_nat n mod Z.of_nat d)%Z = Z.of_nat (n mod d)).
    { symmetry; apply Nat2Z.inj_mod. }
    rewrite Hm.
    assert (Hb : n mod d < d) by (apply Nat.mod_upper_bound; lia).
    assert (HS : S n mod d = if S (n mod d) =? d then 0 else S (n mod d)).
    { destruct (Nat.eqb_spec (S (n mod d)) d) as [He|He].
      - rewrite <- (Nat.add_1_r n), Nat.add_mod by lia.
        destruct (Nat.eq_dec d 1) as [->|H1]; [now rewrite Nat.mod_1_r|].
        rewrite (Nat.mod_small 1) by lia.
        replace (n mod d + 1) with d by lia. apply Nat.mod_same. lia.
      - rewrite <- (Nat.add_1_r n), Nat.add_mod by lia.
        rewrite (Nat.mod_small 1) by lia.
        rewrite Nat.mod_small; lia. }
    destruct (Z.eqb_spec (Z.of_nat (n mod d)) 0) as [H0|H0].
    + assert (Hn0 : n mod d = 0) by lia. rewrite Hn0.
      rewrite Nat.sub_0_r, Nat.mod_same by lia. cbn [Nat.add].
      destruct k as [|k]; [reflexivity|].
      cbn [nth_error]. rewrite IH, HS, Hn0.
      destruct (Nat.eqb_spec 1 d) as [He|He].
      * subst d. rewrite Nat.sub_0_r, Nat.mod_1_r. cbn [Nat.mul Nat.add].
        cbn [nth_error]. reflexivity.
      * rewrite Nat.mod_small by lia.
        replace (S k * d) with (S (d - 1 + k * d)) by lia. reflexivity.
    + rewrite IH, HS.
      rewrite (Nat.mod_small (d - n mod d)) by lia.
      destruct (Nat.eqb_spec (S (n mod d)) d) as [He|He].
      * rewrite Nat.sub_0_r, Nat.mod_same by lia.
        replace (d - n mod d + k * d) with (S (0 + k * d)) by lia. reflexivity.
      * rewrite Nat.mod_small by lia.
        replace (d - n mod d + k * d) with (S (d - S (n mod d) + k * d)) by lia.
        reflexivity.
Qed.

Lemma decimate_spec {A} (it : list A) (d : nat) :
  0 < d ->
  exists l, decimate it (Z.of_nat d) = Ok l /\
            forall k, nth_error l k = nth_error it (k * d).
Proof.
  intros Hd. unfold decimate.
  destruct (Z.ltb_spec 0 (Z.of_nat d)) as [_|]; [|lia].
  eexists; split; [reflexivity|]. intros k.
  assert (H := decimate_loop_spec d it 0 k Hd).
  rewrite Nat.mod_0_l, Nat.sub_0_r, Nat.mod_same in H by lia. exact H.
Qed.

(** ** remove_duplicates *)

Section RD.
  Context {A : Type} (eqb : A -> A -> bool).
  Hypothesis eqb_spec : forall a b, reflect (a = b) (eqb a b).

  Lemma py_in_spec x l : reflect (In x l) (py_in eqb x l).
  Proof.
    unfold py_in. destruct (existsb _ l) eqn:E; constructor.
    - apply existsb_exists in E as [a [Ha He]].
      destruct (eqb_spec a x) as [->|]; [exact Ha | discriminate].
    - intros H. assert (E' : existsb (fun a => eqb a x) l = true).
      { apply existsb_exists. exists x. split; [exact H|].
        destruct (eqb_spec x x); congruence. }
      congruence.
  Qed.

  Definition fresh_at (l : list A) (k : nat) (a : A) : Prop :=
    forall j b, j < k -> nth_error l j = Some b -> b <> a.

  Lemma remove_duplicates_loop_spec pre lis out inds :
    selects (fresh_at pre) pre out inds ->
    exists inds', selects (fresh_at (pre ++ lis)) (pre ++ lis)
                    (remove_duplicates_loop eqb lis out) inds'.
  Proof.
    revert pre out inds; induction lis as [|el lis IH]; intros pre out inds Hs.
    - exists inds. cbn. now rewrite app_nil_r.
    - cbn [remove_duplicates_loop].
      replace (pre ++ el :: lis) with ((pre ++ [el]) ++ lis)
        by (now rewrite <- app_assoc).
      destruct Hs as (Hsort & Hin & Hf).
      assert (Hout : In el out <-> In el pre).
      { split.
        - intros H. clear Hsort Hin. induction Hf as [|k a ks sel Hk Hf IHf]; [easy|].
          destruct H as [->|H]; [now apply nth_error_In in Hk | now apply IHf].
        - intros H.
          assert (Hfirst : exists k, nth_error pre k = Some el /\ fresh_at pre k el).
          { clear - H eqb_spec. induction pre as [|b pre IHp]; [easy|].
            destruct (eqb_spec b el) as [->|Hne].
            - exists 0. split; [reflexivity|]. intros j c Hj; lia.
            - destruct H as [->|H]; [congruence|].
              destruct (IHp H) as [k [Hk Hfr]]. exists (S k). split; [exact Hk|].
              intros [|j] c Hj Hc; cbn in Hc; [congruence|].
              apply (Hfr j c); [lia|exact Hc]. }
          destruct Hfirst as [k [Hk Hfr]].
          assert (Hki : In k inds) by (apply Hin; eauto).
          clear - Hki Hk Hf. induction Hf as [|k' a ks sel Hk' Hf IHf]; [easy|].
          destruct Hki as [->|Hki]; [left; congruence | right; now apply IHf]. }
      assert (Hnth : forall k a, nth_error (pre ++ [el]) k = Some a ->
                (k < length pre /\ nth_error pre k = Some a) \/ (k = length pre /\ a = el)).
      { intros k a H. destruct (lt_dec k (length pre)) as [Hl|Hl].
        - rewrite nth_error_app1 in H by exact Hl. now left.
        - rewrite nth_error_app2 in H by lia. right.
          destruct (k - length pre) as [|m] eqn:Em; cbn in H;
            [split; [lia|congruence]|].
          now destruct m. }
      assert (Hfresh : forall k a, k < length pre ->
                (fresh_at pre k a <-> fresh_at (pre ++ [el]) k a)).
      { intros k a Hk. split; intros H j b Hj Hb.
        - destruct (Hnth _ _ Hb) as [[? ?]|[? ?]]; [now apply (H j b)|lia].
        - apply (H j b Hj). rewrite nth_error_app1 by lia. exact Hb. }
      destruct (py_in_spec el out) as [Hel|Hel].
      + apply (IH (pre ++ [el]) out inds). split; [exact Hsort|]. split.
        * intros k. rewrite Hin. split; intros [a [Ha Hp]].
          -- assert (Hk : k < length pre) by (apply nth_error_Some; congruence).
             exists a. split; [now rewrite nth_error_app1 | now apply Hfresh].
          -- destruct (Hnth _ _ Ha) as [[Hk Hk']|[-> ->]].
             ++ exists a. split; [exact Hk'|]. now apply Hfresh.
             ++ exfalso. apply Hout in Hel. apply In_nth_error in Hel as [j Hj].
                apply (Hp j el); [apply nth_error_Some; congruence| |reflexivity].
                rewrite nth_error_app1; [exact Hj|apply nth_error_Some; congruence].
        * clear - Hf. induction Hf as [|k a ks sel Hk Hf IHf]; constructor; [|exact IHf].
          rewrite nth_error_app1; [exact Hk | apply nth_error_Some; congruence].
      + apply (IH (pre ++ [el]) (out ++ [el]) (inds ++ [length pre])).
        assert (Hlt : Forall (fun k => k < length pre) inds).
        { clear - Hf. induction Hf; constructor; [apply nth_error_Some; congruence|assumption]. }
        split; [|split].
        * clear - Hsort Hlt. induction Hsort as [|k ks Hs IHs Hk]; cbn.
          -- constructor; constructor.
          -- inversion Hlt; subst. constructor; [now apply IHs|].
             apply Forall_app; split; [exact Hk | constructor; [assumption|constructor]].
        * intros k. rewrite in_app_iff, Hin. split.
          -- intros [[a [Ha Hp]]|[<-|[]]].
             ++ assert (Hk : k < length pre) by (apply nth_error_Some; congruence).
                exists a. split; [now rewrite nth_error_app1 | now apply Hfresh].
             ++ exists el. split.
                ** rewrite nth_error_app2, Nat.sub_diag by lia. reflexivity.
                ** intros j b Hj Hb Hbe. subst b.
                   destruct (Hnth _ _ Hb) as [[_ Hj']|[Hj' _]]; [|lia].
                   apply Hel, Hout. now apply nth_error_In in Hj'.
          -- intros [a [Ha Hp]]. destruct (Hnth _ _ Ha) as [[Hk Hk']|[-> ->]].
             ++ left. exists a. split; [exact Hk'|]. now apply Hfresh.
             ++ right. now left.
        * apply Forall2_app.
          -- clear - Hf. induction Hf as [|k a ks sel Hk Hf IHf]; constructor; [|exact IHf].
             rewrite nth_error_app1; [exact Hk | apply nth_error_Some; congruence].
          -- constructor; [|constructor].
             rewrite nth_error_app2, Nat.sub_diag by lia. reflexivity.
  Qed.

  Lemma remove_duplicates_spec lis :
    exists inds, selects (fun k a => forall j b, j < k -> nth_error lis j = Some b -> b <> a)
                   lis (remove_duplicates eqb lis) inds.
  Proof.
    apply (remove_duplicates_loop_spec [] lis [] []).
    split; [constructor|]. split; [|constructor].
    intros k. split; [easy|]. intros [a [Ha _]]. now destruct k.
  Qed.

  (** ** find *)
  Lemma find_loop_spec symbs alls n :
    let '(args, inds) := find_loop eqb symbs alls n in
    StronglySorted lt inds /\
    (forall k, In k inds <-> n <= k /\ exists a, nth_error alls (k - n) = Some a /\ In a symbs) /\
    Forall2 (fun k a => n <= k /\ nth_error alls (k - n) = Some a) inds args.
  Proof.
    revert n; induction alls as [|s alls IH]; intros n; cbn [find_loop].
    - split; [constructor|]. split; [|constructor].
      intros k. split; [easy|]. intros [_ [a [Ha _]]]. now destruct (k - n).
    - specialize (IH (S n)).
      destruct (find_loop eqb symbs alls (S n)) as [args inds].
      destruct IH as (Hs & Hin & Hf).
      assert (Hf' : Forall2 (fun k a => n <= k /\ nth_error (s :: alls) (k - n) = Some a) inds args).
      { clear - Hf. induction Hf as [|k a ks sel [Hk Hk'] Hf IHf]; constructor; [|exact IHf].
        split; [lia|]. replace (k - n) with (S (k - S n)) by lia. exact Hk'. }
      assert (Hin' : forall k, In k inds <->
                S n <= k /\ exists a, nth_error (s :: alls) (k - n) = Some a /\ In a symbs).
      { intros k. rewrite Hin. split; intros [Hk H]; (split; [exact Hk|]);
          replace (k - n) with (S (k - S n)) in *; try lia; exact H. }
      destruct (py_in_spec s symbs) as [Hs'|Hs'].
      + split; [|split].
        * constructor; [exact Hs|]. apply Forall_forall. intros k Hk.
          apply Hin' in Hk. lia.
        * intros k. cbn [In]. rewrite Hin'. split.
          -- intros [<-|[Hk H]]; [|split; [lia|exact H]].
             split; [lia|]. rewrite Nat.sub_diag. exists s. now split.
          -- intros [Hk H]. destruct (Nat.eq_dec n k) as [->|Hn]; [now left|right].
             split; [lia|exact H].
        * constructor; [|exact Hf']. split; [lia|]. now rewrite Nat.sub_diag.
      + split; [exact Hs|]. split; [|exact Hf'].
        intros k. rewrite Hin'. split; intros [Hk H].
        * split; [lia|exact H].
        * destruct (Nat.eq_dec n k) as [->|Hn]; [|split; [lia|exact H]].
          exfalso. rewrite Nat.sub_diag in H. destruct H as [a [Ha Ha']].
          cbn in Ha. congruence.
  Qed.

  Lemma find_spec symbs alls :
    selects (fun _ a => In a symbs) alls
      (fst (find eqb symbs alls)) (snd (find eqb symbs alls)).
  Proof.
    unfold find. assert (H := find_loop_spec symbs alls 0).
    destruct (find_loop eqb symbs alls 0) as [args inds]. cbn [fst snd].
    destruct H as (Hs & Hin & Hf). split; [exact Hs|]. split.
    - intros k. rewrite Hin. rewrite Nat.sub_0_r. split; [easy|]. intros H; split; [lia|exact H].
    - clear - Hf. induction Hf as [|k a ks sel [_ Hk] Hf IHf]; constructor; [|exact IHf].
      now rewrite Nat.sub_0_r in Hk.
  Qed.
End RD.

(** ** interleave *)
Lemma interleave_spec {A} (l1 l2 : list A) k :
  nth_error (interleave l1 l2) (2 * k) =
    (if k <? Nat.min (length l1) (length l2) then nth_error l1 k else None) /\
  nth_error (interleave l1 l2) (2 * k + 1) =
    (if k <? Nat.min (length l1) (length l2) then nth_error l2 k else None).
Proof.
  revert l2 k; induction l1 as [|a l1 IH]; intros l2 k.
  - cbn. now destruct k.
  - destruct l2 as [|b l2]; [cbn; now destruct k|].
    destruct k as [|k]; [now split|].
    cbn [interleave length Nat.min].
    change (S k <? S (Nat.min (length l1) (length l2)))
      with (k <? Nat.min (length l1) (length l2)).
    replace (2 * S k) with (S (S (2 * k))) by lia.
    replace (S (S (2 * k)) + 1) with (S (S (2 * k + 1))) by lia.
    cbn [nth_error]. apply IH.
Qed.

(** ** get_strings *)
Lemma filter_flat_map {A B} (f : B -> bool) (g : A -> list B) l :
  filter f (flat_map g l) = flat_map (fun a => filter f (g a)) l.
Proof. induction l as [|a l IH]; cbn; [reflexivity|]. now rewrite filter_app, IH. Qed.

Fixpoint get_strings_spec (remove : list string) (o : nested) :
  get_strings remove o =
  filter (fun s => negb (py_in String.eqb s remove)) (leaves o).
Proof.
  destruct o as [s|l].
  - cbn. now destruct (py_in String.eqb s remove).
  - cbn. rewrite filter_flat_map.
    induction l as [|a l IH]; cbn; [reflexivity|].
    rewrite (get_strings_spec remove a), IH. reflexivity.
Qed.

Lemma decimate_rejects {A} (it : list A) (d : Z) :
  (d <= 0)%Z -> decimate it d = Err AssertionError.
Proof.
  intros H. unfold decimate. now destruct (Z.ltb_spec 0 d); [lia|].
Qed.
