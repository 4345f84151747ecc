(** Proofs about the sum of two cores. *)
From Coq Require Import String List ZArith QArith Qreals Reals Bool Lra Lia Permutation.
From Verif Require Import Py Tools Lists Expr ExprProofs RSum Mat MatProofs
  Core Spec_Core Spec_Add StructProofs BlockProofs OpsProofs.
Import ListNotations.
Local Open Scope string_scope.
Local Open Scope list_scope.
Local Open Scope nat_scope.
#[local] Arguments Nat.ltb : simpl never.
#[local] Arguments Nat.leb : simpl never.

Definition base (b : blk) : Prop := In b [Bx; Bw; By; Bcy].

Lemma base_inside c i : i < ntot c -> exists b, base b /\ inside c b i.
Proof.
  unfold ntot, inside, base. intros H.
  destruct (Nat.lt_ge_cases i (length (c_x c))); [exists Bx; cbn; split; [tauto|lia]|].
  destruct (Nat.lt_ge_cases i (length (c_x c) + length (c_w c))); [exists Bw; cbn; split; [tauto|lia]|].
  destruct (Nat.lt_ge_cases i (length (c_x c) + length (c_w c) + length (c_y c)));
    [exists By; cbn; split; [tauto|lia]|].
  exists Bcy. cbn. split; [tauto|lia].
Qed.

Lemma base_unique c a b i : base a -> base b -> inside c a i -> inside c b i -> a = b.
Proof.
  unfold base, inside. intros Ha Hb. cbn in Ha, Hb.
  repeat match goal with H : _ \/ _ |- _ => destruct H as [<-|H] | H : False |- _ => destruct H end;
    cbn; intros; first [reflexivity|lia].
Qed.

Lemma base_separate c a b : base a -> base b -> a <> b -> separate c a b.
Proof. intros Ha Hb Hab i H1 H2. apply Hab. eauto using base_unique. Qed.

Lemma pair_dec (p q : blk * blk) : {p = q} + {p <> q}.
Proof. decide equality; apply blk_eq_dec. Qed.

(** The block [a,b] of the sum. *)
Definition stacked (r : env) (c1 c2 : core) (a b : blk) (p q : nat) : R :=
  if (p <? len c1 a) && (q <? len c1 b) then Mv r c1 (off c1 a + p) (off c1 b + q)
  else if (len c1 a <=? p) && (len c1 b <=? q)
       then Mv r c2 (off c2 a + (p - len c1 a)) (off c2 b + (q - len c1 b)) else 0%R.

Lemma stack_ok c1 c2 a b : sized c1 -> counters_ok c1 -> sized c2 -> counters_ok c2 ->
  exists V, (do M1 <- get_block PM a b c1; do M2 <- get_block PM a b c2; Ok (diag2 M1 M2)) = Ok V /\
    nr V = len c1 a + len c2 a /\ nc V = len c1 b + len c2 b /\
    forall r i j, ev r V i j = stacked r c1 c2 a b i j.
Proof.
  intros S1 O1 S2 O2.
  destruct (get_block_ok PM a b c1 S1 O1) as (A & E1 & A1 & A2 & A3).
  destruct (get_block_ok PM a b c2 S2 O2) as (B & E2 & B1 & B2 & B3).
  rewrite E1, E2. cbn [rbind]. exists (diag2 A B). split; [reflexivity|].
  cbn [diag2 nr nc]. split; [lia|]. split; [lia|].
  intros r i j. unfold ev, stacked. cbn [diag2 ent]. rewrite A1, A2.
  destruct ((i <? len c1 a) && (j <? len c1 b)); [apply A3|].
  destruct ((len c1 a <=? i) && (len c1 b <=? j)); [apply B3|]. cbn. apply Q2R_0.
Qed.

Definition wide (c c1 c2 : core) : Prop := forall b, base b -> len c b = len c1 b + len c2 b.

Lemma sized_or_not c : {sized c} + {nr (c_M c) <> ntot c} + {nr (c_M c) = ntot c /\ nc (c_M c) <> ntot c}.
Proof.
  destruct (Nat.eq_dec (nr (c_M c)) (ntot c)); [|left; now right].
  destruct (Nat.eq_dec (nc (c_M c)) (ntot c)); [left; left; now split|now right].
Qed.

Lemma inside_set_M c M b i : inside (set_M M c) b i <-> inside c b i.
Proof. unfold inside. now destruct b. Qed.

(** One assignment, sized or not. *)
Lemma set_any c a b V : sized c \/ nr (c_M c) <> ntot c -> counters_ok c -> base a -> base b ->
  nr V = len c a -> nc V = len c b ->
  exists c', set_block PM a b V c = ok c' /\ c' = set_M (c_M c') c /\ sized c' /\
    forall r i j,
      (inside c a i -> inside c b j -> Mv r c' i j = ev r V (i - off c a)%nat (j - off c b)%nat) /\
      (sized c -> ~ (inside c a i /\ inside c b j) -> Mv r c' i j = Mv r c i j).
Proof.
  intros [S|S] O Ha Hb HVr HVc.
  - destruct (set_M_ok c a b V S O) as (c' & E & F & S' & H); try assumption.
    { intros Hab. now apply base_separate. }
    exists c'. split; [exact E|]. split; [exact F|]. split; [exact S'|].
    intros r i j. destruct (H r i j) as [H1 H2]. split; [exact H1|]. intros _. exact H2.
  - rewrite set_block_unsized by exact S.
    destruct (set_M_ok (set_M (zeros (ntot c) (ntot c)) c) a b V) as (c' & E & F & S' & H); try assumption.
    { split; reflexivity. }
    { intros Hab. now apply base_separate. }
    exists c'. split; [exact E|]. split; [rewrite F; reflexivity|]. split; [exact S'|].
    intros r i j. destruct (H r i j) as [H1 H2]. split; [exact H1|]. intros S2. destruct S2; contradiction.
Qed.

Lemma add_blocks_ok c1 c2 : sized c1 -> counters_ok c1 -> sized c2 -> counters_ok c2 ->
  forall l c, NoDup l -> (forall a b, In (a, b) l -> base a /\ base b) -> wide c c1 c2 -> counters_ok c ->
  sized c \/ nr (c_M c) <> ntot c ->
  exists c', add_blocks l c1 c2 c = ok c' /\ c' = set_M (c_M c') c /\
    (sized c' \/ c' = c /\ forall a b, In (a, b) l -> len c a = 0 \/ len c b = 0) /\
    forall r a b i j, base a -> base b -> inside c a i -> inside c b j ->
      (In (a, b) l -> sized c' /\ Mv r c' i j = stacked r c1 c2 a b (i - off c a) (j - off c b)) /\
      (~ In (a, b) l -> sized c -> Mv r c' i j = Mv r c i j).
Proof.
  intros S1 O1 S2 O2. induction l as [|[a b] l IH]; intros c ND HB HW O HS; cbn [add_blocks].
  - exists c. split; [reflexivity|]. split; [now destruct c|]. split; [right; split; [reflexivity|intros a b []]|].
    intros r a b i j _ _ _ _. split; [intros []|reflexivity].
  - destruct (stack_ok c1 c2 a b S1 O1 S2 O2) as (V & EV & VR & VC & HV). rewrite EV. cbn [olift].
    inversion ND as [|? ? Hni ND']; subst.
    destruct (HB a b (or_introl eq_refl)) as [Ba Bb].
    assert (HB' : forall a b, In (a, b) l -> base a /\ base b) by (intros; apply HB; now right).
    pose proof (HW a Ba) as Wa. pose proof (HW b Bb) as Wb.
    destruct (Nat.ltb_spec 0 (nr V)) as [P1|P1]; cbn [andb].
    1: destruct (Nat.ltb_spec 0 (nc V)) as [P2|P2]; cbn [andb].
    + destruct (set_any c a b V HS O Ba Bb) as (c' & E & F & S' & H); [lia|lia|].
      rewrite E. cbn [obind ok].
      destruct (IH c' ND' HB') as (c'' & E' & F' & S'' & H').
      { intros d Hd. rewrite F. change (len c d = len c1 d + len c2 d). now apply HW. }
      { rewrite F. exact O. } { now left. }
      assert (IN : forall d k, inside c' d k <-> inside c d k) by (intros; rewrite F; apply inside_set_M).
      exists c''. split; [exact E'|]. split; [rewrite F', F; reflexivity|].
      assert (SS : sized c'') by (destruct S'' as [S''|[-> _]]; assumption).
      split; [now left|]. intros r d e i j Bd Be Hi Hj.
      destruct (H' r d e i j Bd Be) as [H1 H2]; [now apply IN|now apply IN|].
      assert (OF : forall d, off c' d = off c d) by (intros; rewrite F; now destruct d0).
      split.
      * intros [Heq|Hin].
        -- injection Heq as <- <-. split; [exact SS|]. rewrite H2 by assumption.
           rewrite (proj1 (H r i j) Hi Hj). apply HV.
        -- destruct (H1 Hin) as [_ H1']. rewrite !OF in H1'. now split.
      * intros Hn Sc. rewrite H2; [|intros Hin; apply Hn; now right|exact S'].
        apply (H r i j); [exact Sc|]. intros [Hi' Hj']. apply Hn. left.
        f_equal; eauto using base_unique.
    + cbn [obind ok]. destruct (IH c ND' HB' HW O HS) as (c'' & E' & F' & S'' & H').
      exists c''. split; [exact E'|]. split; [exact F'|]. split.
      { destruct S'' as [S''|[-> S'']]; [now left|]. right. split; [reflexivity|].
        intros d e [Heq|Hin]; [injection Heq as <- <-; right; lia|now apply S'']. }
      intros r d e i j Bd Be Hi Hj. destruct (H' r d e i j Bd Be Hi Hj) as [H1 H2]. split.
      * intros [Heq|Hin]; [|now apply H1]. injection Heq as <- <-. exfalso. unfold inside in Hj. lia.
      * intros Hn. apply H2. intros Hin. apply Hn. now right.
    + cbn [obind ok]. destruct (IH c ND' HB' HW O HS) as (c'' & E' & F' & S'' & H').
      exists c''. split; [exact E'|]. split; [exact F'|]. split.
      { destruct S'' as [S''|[-> S'']]; [now left|]. right. split; [reflexivity|].
        intros d e [Heq|Hin]; [injection Heq as <- <-; left; lia|now apply S'']. }
      intros r d e i j Bd Be Hi Hj. destruct (H' r d e i j Bd Be Hi Hj) as [H1 H2]. split.
      * intros [Heq|Hin]; [|now apply H1]. injection Heq as <- <-. exfalso. unfold inside in Hi. lia.
      * intros Hn. apply H2. intros Hin. apply Hn. now right.
Qed.

Lemma reset_blocks_ok : forall l c, (forall a b, In (a, b) l -> base a /\ base b) -> counters_ok c -> sized c ->
  exists c', reset_blocks l c = ok c' /\ c' = set_M (c_M c') c /\ sized c' /\
    forall r i j, Mv r c' i j = Mv r c i j.
Proof.
  induction l as [|[a b] l IH]; intros c HB O S; cbn [reset_blocks].
  - exists c. split; [reflexivity|]. split; [now destruct c|]. split; [exact S|reflexivity].
  - destruct (get_block_ok PM a b c S O) as (V & EV & VR & VC & HV). rewrite EV. cbn [olift].
    destruct (HB a b (or_introl eq_refl)) as [Ba Bb].
    assert (HB' : forall a b, In (a, b) l -> base a /\ base b) by (intros; apply HB; now right).
    destruct ((0 <? nr V) && (0 <? nc V)); [|now apply IH].
    destruct (set_any c a b V (or_introl S) O Ba Bb VR VC) as (c' & E & F & S' & H).
    rewrite E. cbn [obind ok]. destruct (IH c' HB') as (c'' & E' & F' & S'' & H').
    { rewrite F. exact O. } { exact S'. }
    exists c''. split; [exact E'|]. split; [rewrite F', F; reflexivity|]. split; [exact S''|].
    intros r i j. rewrite H'. destruct (H r i j) as [H1 H2].
    destruct (classic_inside c a i) as [Hi|Hi]; [|apply H2; [exact S|tauto]].
    destruct (classic_inside c b j) as [Hj|Hj]; [|apply H2; [exact S|tauto]].
    rewrite H1 by assumption. rewrite HV. unfold inside in *. f_equal; lia.
Qed.

Lemma pairs_all a b : base a -> base b -> In (a, b) block_pairs.
Proof.
  unfold base. cbn. intros Ha Hb.
  repeat match goal with H : _ \/ _ |- _ => destruct H as [<-|H] | H : False |- _ => destruct H end; tauto.
Qed.
Lemma pairs_base a b : In (a, b) block_pairs -> base a /\ base b.
Proof.
  unfold base. cbn. intros H.
  repeat match goal with H : _ \/ _ |- _ => destruct H as [H|H] | H : False |- _ => destruct H end;
    injection H as <- <-; tauto.
Qed.
Lemma pairs_nodup : NoDup block_pairs.
Proof. unfold block_pairs. cbn. repeat constructor; cbn; intuition discriminate. Qed.

Lemma core_add_ok c1 c2 : wf c1 -> counters_ok c1 -> wf c2 -> counters_ok c2 ->
  exists c, core_add c1 c2 = ok c /\ sized c /\ wide c c1 c2 /\
    forall r a b i j, base a -> base b -> inside c a i -> inside c b j ->
      Mv r c i j = stacked r c1 c2 a b (i - off c a) (j - off c b).
Proof.
  intros (P1 & _ & S1) O1 (P2 & _ & S2) O2. unfold core_add. cbn zeta.
  set (c0 := set_x _ _).
  assert (W0 : wide c0 c1 c2).
  { intros b Hb. unfold base in Hb. cbn in Hb.
    repeat match goal with H : _ \/ _ |- _ => destruct H as [<-|H] | H : False |- _ => destruct H end;
      cbn; apply app_length. }
  assert (O0 : counters_ok c0) by (unfold counters_ok; cbn; lia).
  assert (HS0 : sized c0 \/ nr (c_M c0) <> ntot c0).
  { destruct (Nat.eq_dec (ntot c0) 0) as [E|E].
    - left. split; rewrite E; reflexivity.
    - right. intros H. apply E. rewrite <- H. reflexivity. }
  destruct (add_blocks_ok c1 c2 S1 O1 S2 O2 block_pairs c0 pairs_nodup pairs_base W0 O0 HS0)
    as (c3 & E3 & F3 & S3 & H3).
  rewrite E3. cbn [obind ok].
  assert (SS : sized c3).
  { destruct S3 as [S3|[-> S3]]; [exact S3|]. destruct HS0 as [HS0|HS0]; [exact HS0|]. exfalso.
    assert (Z : forall b, base b -> len c0 b = 0) by (intros b Hb; destruct (S3 b b (pairs_all b b Hb Hb)); assumption).
    apply HS0. pose proof (Z Bx ltac:(cbn; tauto)) as Z1. pose proof (Z Bw ltac:(cbn; tauto)) as Z2.
    pose proof (Z By ltac:(cbn; tauto)) as Z3. pose proof (Z Bcy ltac:(cbn; tauto)) as Z4.
    cbn in Z1, Z2, Z3, Z4. unfold ntot. cbn. rewrite Z1, Z2, Z3, Z4. reflexivity. }
  set (M3 := c_M c3) in F3. clearbody M3. subst c3.
  set (c4 := set_force_wnl _ _).
  assert (L4 : forall b, len c4 b = len c0 b) by (intros []; reflexivity).
  assert (Of4 : forall b, off c4 b = off c0 b) by (intros []; reflexivity).
  assert (S4 : sized c4) by exact SS.
  destruct (reset_blocks_ok block_pairs c4 pairs_base) as (c5 & E5 & F5 & S5 & H5).
  { exact O0. } { exact S4. }
  exists c5. split; [exact E5|]. split; [exact S5|].
  set (M5 := c_M c5) in F5. clearbody M5. subst c5.
  assert (L5 : forall b, len (set_M M5 c4) b = len c0 b) by (intros []; reflexivity).
  assert (Of5 : forall b, off (set_M M5 c4) b = off c0 b) by (intros []; reflexivity).
  split; [intros b Hb; rewrite L5; now apply W0|].
  intros r a b i j Ha Hb Hi Hj. rewrite H5. unfold inside in Hi, Hj. rewrite !L5, !Of5 in *.
  change (Mv r c4 i j) with (Mv r (set_M M3 c0) i j). apply (H3 r a b i j); try assumption. now apply pairs_all.
Qed.

(** ** Rows of the operands in the sum *)

Lemma left_length c1 c2 : length (left_rows c1 c2) = ntot c1.
Proof. unfold left_rows, ntot. cbn zeta. rewrite !app_length, !seq_length. lia. Qed.
Lemma right_length c1 c2 : length (right_rows c1 c2) = ntot c2.
Proof. unfold right_rows, ntot. cbn zeta. rewrite !app_length, !seq_length. lia. Qed.

Lemma wide_lens c c1 c2 : wide c c1 c2 ->
  length (c_x c) = length (c_x c1) + length (c_x c2) /\ length (c_w c) = length (c_w c1) + length (c_w c2) /\
  length (c_y c) = length (c_y c1) + length (c_y c2) /\ length (c_cy c) = length (c_cy c1) + length (c_cy c2).
Proof.
  intros W. pose proof (W Bx ltac:(cbn; tauto)). pose proof (W Bw ltac:(cbn; tauto)).
  pose proof (W By ltac:(cbn; tauto)). pose proof (W Bcy ltac:(cbn; tauto)). cbn in *. tauto.
Qed.

Lemma left_spec c c1 c2 i : wide c c1 c2 -> i < ntot c1 ->
  exists b, base b /\ inside c1 b i /\ nth i (left_rows c1 c2) 0 = off c b + (i - off c1 b).
Proof.
  intros W Hi. destruct (wide_lens c c1 c2 W) as (X & Y & Z & T). unfold ntot in Hi.
  unfold left_rows. cbn zeta.
  destruct (Nat.lt_ge_cases i (length (c_x c1))).
  { exists Bx. split; [cbn; tauto|]. split; [unfold inside; cbn; lia|].
    rewrite app_nth1 by (rewrite seq_length; lia). rewrite seq_nth by lia. cbn. lia. }
  rewrite app_nth2 by (rewrite seq_length; lia). rewrite seq_length.
  destruct (Nat.lt_ge_cases i (length (c_x c1) + length (c_w c1))).
  { exists Bw. split; [cbn; tauto|]. split; [unfold inside; cbn; lia|].
    rewrite app_nth1 by (rewrite seq_length; lia). rewrite seq_nth by lia. cbn. lia. }
  rewrite app_nth2 by (rewrite seq_length; lia). rewrite seq_length.
  destruct (Nat.lt_ge_cases i (length (c_x c1) + length (c_w c1) + length (c_y c1))).
  { exists By. split; [cbn; tauto|]. split; [unfold inside; cbn; lia|].
    rewrite app_nth1 by (rewrite seq_length; lia). rewrite seq_nth by lia. cbn. lia. }
  rewrite app_nth2 by (rewrite seq_length; lia). rewrite seq_length.
  exists Bcy. split; [cbn; tauto|]. split; [unfold inside; cbn; lia|].
  rewrite seq_nth by lia. cbn. lia.
Qed.

Lemma right_spec c c1 c2 i : wide c c1 c2 -> i < ntot c2 ->
  exists b, base b /\ inside c2 b i /\ nth i (right_rows c1 c2) 0 = off c b + len c1 b + (i - off c2 b).
Proof.
  intros W Hi. destruct (wide_lens c c1 c2 W) as (X & Y & Z & T). unfold ntot in Hi.
  unfold right_rows. cbn zeta.
  destruct (Nat.lt_ge_cases i (length (c_x c2))).
  { exists Bx. split; [cbn; tauto|]. split; [unfold inside; cbn; lia|].
    rewrite app_nth1 by (rewrite seq_length; lia). rewrite seq_nth by lia. cbn. lia. }
  rewrite app_nth2 by (rewrite seq_length; lia). rewrite seq_length.
  destruct (Nat.lt_ge_cases i (length (c_x c2) + length (c_w c2))).
  { exists Bw. split; [cbn; tauto|]. split; [unfold inside; cbn; lia|].
    rewrite app_nth1 by (rewrite seq_length; lia). rewrite seq_nth by lia. cbn. lia. }
  rewrite app_nth2 by (rewrite seq_length; lia). rewrite seq_length.
  destruct (Nat.lt_ge_cases i (length (c_x c2) + length (c_w c2) + length (c_y c2))).
  { exists By. split; [cbn; tauto|]. split; [unfold inside; cbn; lia|].
    rewrite app_nth1 by (rewrite seq_length; lia). rewrite seq_nth by lia. cbn. lia. }
  rewrite app_nth2 by (rewrite seq_length; lia). rewrite seq_length.
  exists Bcy. split; [cbn; tauto|]. split; [unfold inside; cbn; lia|].
  rewrite seq_nth by lia. cbn. lia.
Qed.

Lemma rows_perm c c1 c2 : wide c c1 c2 ->
  Permutation (left_rows c1 c2 ++ right_rows c1 c2) (seq 0 (ntot c)).
Proof.
  intros W. destruct (wide_lens c c1 c2 W) as (X & Y & Z & T).
  unfold left_rows, right_rows, ntot. cbn zeta. rewrite X, Y, Z, T.
  rewrite !seq_app. cbn [Nat.add].
  apply (Permutation_count_occ Nat.eq_dec). intros k. rewrite !count_occ_app.
  rewrite ?Nat.add_assoc. lia.
Qed.

Section Sum.
  Variables (r : env) (c c1 c2 : core).
  Hypothesis W : wide c c1 c2.
  Hypothesis HM : forall a b i j, base a -> base b -> inside c a i -> inside c b j ->
      Mv r c i j = stacked r c1 c2 a b (i - off c a) (j - off c b).
  Let L i := nth i (left_rows c1 c2) 0.
  Let R_ i := nth i (right_rows c1 c2) 0.

  Lemma sum_ll i j : i < ntot c1 -> j < ntot c1 -> Mv r c (L i) (L j) = Mv r c1 i j.
  Proof.
    intros Hi Hj. destruct (left_spec c c1 c2 i W Hi) as (a & Ba & Ia & Ea).
    destruct (left_spec c c1 c2 j W Hj) as (b & Bb & Ib & Eb). unfold L. rewrite Ea, Eb.
    unfold inside in *. pose proof (W a Ba). pose proof (W b Bb).
    rewrite (HM a b) by (try assumption; unfold inside; lia). unfold stacked.
    destruct (Nat.ltb_spec (off c a + (i - off c1 a) - off c a) (len c1 a)); [|lia].
    destruct (Nat.ltb_spec (off c b + (j - off c1 b) - off c b) (len c1 b)); [|lia].
    cbn [andb]. f_equal; lia.
  Qed.
  Lemma sum_rr i j : i < ntot c2 -> j < ntot c2 -> Mv r c (R_ i) (R_ j) = Mv r c2 i j.
  Proof.
    intros Hi Hj. destruct (right_spec c c1 c2 i W Hi) as (a & Ba & Ia & Ea).
    destruct (right_spec c c1 c2 j W Hj) as (b & Bb & Ib & Eb). unfold R_. rewrite Ea, Eb.
    unfold inside in *. pose proof (W a Ba). pose proof (W b Bb).
    rewrite (HM a b) by (try assumption; unfold inside; lia). unfold stacked.
    destruct (Nat.ltb_spec (off c a + len c1 a + (i - off c2 a) - off c a) (len c1 a)); [lia|].
    cbn [andb].
    destruct (Nat.leb_spec (len c1 a) (off c a + len c1 a + (i - off c2 a) - off c a)); [|lia].
    destruct (Nat.leb_spec (len c1 b) (off c b + len c1 b + (j - off c2 b) - off c b)); [|lia].
    cbn [andb]. f_equal; lia.
  Qed.
  Lemma sum_lr i j : i < ntot c1 -> j < ntot c2 -> Mv r c (L i) (R_ j) = 0%R /\ Mv r c (R_ j) (L i) = 0%R.
  Proof.
    intros Hi Hj. destruct (left_spec c c1 c2 i W Hi) as (a & Ba & Ia & Ea).
    destruct (right_spec c c1 c2 j W Hj) as (b & Bb & Ib & Eb). unfold R_, L. rewrite Ea, Eb.
    unfold inside in *. pose proof (W a Ba). pose proof (W b Bb).
    rewrite (HM a b), (HM b a) by (try assumption; unfold inside; lia). unfold stacked.
    destruct (Nat.ltb_spec (off c a + (i - off c1 a) - off c a) (len c1 a)); [|lia].
    destruct (Nat.ltb_spec (off c b + len c1 b + (j - off c2 b) - off c b) (len c1 b)); [lia|].
    destruct (Nat.leb_spec (len c1 a) (off c a + (i - off c1 a) - off c a)); [lia|].
    destruct (Nat.leb_spec (len c1 b) (off c b + len c1 b + (j - off c2 b) - off c b)); [|lia].
    cbn [andb]. split; reflexivity.
  Qed.

  Lemma sum_rsum f : rsum (ntot c) f = (rsum (ntot c1) (fun i => f (L i)) + rsum (ntot c2) (fun i => f (R_ i)))%R.
  Proof.
    rewrite rsum_lsum, <- (lsum_perm _ _ (Permutation_map f (rows_perm c c1 c2 W))), map_app, lsum_app.
    assert (G : forall l, lsum (map f l) = rsum (length l) (fun k => f (nth k l 0))).
    { clear. induction l as [|a l IH] using rev_ind; [reflexivity|].
      rewrite map_app, lsum_app, IH, app_length. cbn [length map]. rewrite Nat.add_1_r. cbn [rsum].
      rewrite app_nth2, Nat.sub_diag by lia. cbn [nth]. unfold lsum at 1. cbn [fold_right].
      rewrite (rsum_ext _ (fun k => f (nth k (l ++ [a]) 0)) (fun k => f (nth k l 0))); [lra|].
      intros k Hk. now rewrite app_nth1. }
    now rewrite !G, left_length, right_length.
  Qed.

  Lemma sum_all (P : nat -> Prop) : (forall k, k < ntot c -> P k) <->
    (forall i, i < ntot c1 -> P (L i)) /\ (forall i, i < ntot c2 -> P (R_ i)).
  Proof.
    pose proof (rows_perm c c1 c2 W) as HP. split.
    - intros H. split; intros i Hi; apply H.
      + assert (In (L i) (seq 0 (ntot c))).
        { apply (Permutation_in _ HP), in_or_app. left. apply nth_In. now rewrite left_length. }
        apply in_seq in H0. lia.
      + assert (In (R_ i) (seq 0 (ntot c))).
        { apply (Permutation_in _ HP), in_or_app. right. apply nth_In. now rewrite right_length. }
        apply in_seq in H0. lia.
    - intros [H1 H2] k Hk.
      assert (In k (left_rows c1 c2 ++ right_rows c1 c2)) as HI.
      { apply (Permutation_in _ (Permutation_sym HP)). apply in_seq. lia. }
      apply in_app_or in HI. destruct HI as [HI|HI]; apply (In_nth _ _ 0) in HI as (i & Hi & <-).
      + rewrite left_length in Hi. now apply H1.
      + rewrite right_length in Hi. now apply H2.
  Qed.

  Lemma sum_row_l a i : i < ntot c1 -> rsum (ntot c) (fun j => Mv r c (L i) j * a j)%R =
    rsum (ntot c1) (fun j => Mv r c1 i j * a (L j))%R.
  Proof.
    intros Hi. rewrite sum_rsum. rewrite (rsum_zero (ntot c2)).
    2:{ intros k Hk. rewrite (proj1 (sum_lr i k Hi Hk)). ring. }
    rewrite Rplus_0_r. apply rsum_ext. intros j Hj. now rewrite sum_ll.
  Qed.
  Lemma sum_row_r a i : i < ntot c2 -> rsum (ntot c) (fun j => Mv r c (R_ i) j * a j)%R =
    rsum (ntot c2) (fun j => Mv r c2 i j * a (R_ j))%R.
  Proof.
    intros Hi. rewrite sum_rsum. rewrite (rsum_zero (ntot c1)).
    2:{ intros k Hk. rewrite (proj2 (sum_lr k i Hk Hi)). ring. }
    rewrite Rplus_0_l. apply rsum_ext. intros j Hj. now rewrite sum_rr.
  Qed.

  Lemma sum_solutions a b : b_eq_M_a (ntot c) (Mv r c) a b <->
    b_eq_M_a (ntot c1) (Mv r c1) (fun i => a (L i)) (fun i => b (L i)) /\
    b_eq_M_a (ntot c2) (Mv r c2) (fun i => a (R_ i)) (fun i => b (R_ i)).
  Proof.
    unfold b_eq_M_a. rewrite (sum_all (fun i => b i = rsum (ntot c) (fun j => Mv r c i j * a j)%R)).
    split; intros [H1 H2]; split; intros i Hi.
    - rewrite H1 by exact Hi. now apply sum_row_l.
    - rewrite H2 by exact Hi. now apply sum_row_r.
    - rewrite H1 by exact Hi. symmetry. now apply sum_row_l.
    - rewrite H2 by exact Hi. symmetry. now apply sum_row_r.
  Qed.

  Lemma sum_quad a : rsum (ntot c) (fun i => a i * rsum (ntot c) (fun j => Mv r c i j * a j))%R =
    (rsum (ntot c1) (fun i => a (L i) * rsum (ntot c1) (fun j => Mv r c1 i j * a (L j))) +
     rsum (ntot c2) (fun i => a (R_ i) * rsum (ntot c2) (fun j => Mv r c2 i j * a (R_ j))))%R.
  Proof.
    rewrite sum_rsum. f_equal; apply rsum_ext; intros i Hi; f_equal; [now apply sum_row_l|now apply sum_row_r].
  Qed.

  Lemma sum_choose (v1 v2 : rvec) : exists a : rvec,
    (forall i, i < ntot c1 -> a (L i) = v1 i) /\ (forall i, i < ntot c2 -> a (R_ i) = v2 i).
  Proof.
    set (find := fix find (i : nat) (l : list nat) : nat :=
       match l with [] => 0 | a :: l' => if a =? i then 0 else S (find i l') end).
    assert (FN : forall l k, NoDup l -> k < length l -> find (nth k l 0) l = k).
    { intros l k ND. revert k. induction ND as [|a l Ha ND IH]; intros k Hk; cbn in Hk; [lia|].
      destruct k as [|k]; cbn; [now rewrite Nat.eqb_refl|].
      destruct (Nat.eqb_spec a (nth k l 0)) as [->|E].
      - exfalso. apply Ha, nth_In. lia.
      - f_equal. apply IH. lia. }
    set (l := left_rows c1 c2 ++ right_rows c1 c2).
    assert (ND : NoDup l).
    { apply (Permutation_NoDup (Permutation_sym (rows_perm c c1 c2 W))), seq_NoDup. }
    assert (LL : length l = ntot c1 + ntot c2) by (unfold l; now rewrite app_length, left_length, right_length).
    exists (fun i => let k := find i l in if k <? ntot c1 then v1 k else v2 (k - ntot c1)). split; intros i Hi.
    - replace (L i) with (nth i l 0) by (unfold l; rewrite app_nth1; [reflexivity|now rewrite left_length]).
      cbn zeta. rewrite FN by (try assumption; lia). destruct (Nat.ltb_spec i (ntot c1)); [reflexivity|lia].
    - replace (R_ i) with (nth (ntot c1 + i) l 0).
      2:{ unfold l. rewrite app_nth2 by (rewrite left_length; lia). rewrite left_length.
          unfold R_. f_equal. lia. }
      cbn zeta. rewrite FN by (try assumption; lia). destruct (Nat.ltb_spec (ntot c1 + i) (ntot c1)); [lia|].
      f_equal. lia.
  Qed.

  Lemma quad_zero n (M : rmat) : rsum n (fun i => 0 * rsum n (fun j => M i j * 0))%R = 0%R.
  Proof. apply rsum_zero. intros. ring. Qed.

  Lemma sum_passive : passive (ntot c) (Mv r c) <->
    passive (ntot c1) (Mv r c1) /\ passive (ntot c2) (Mv r c2).
  Proof.
    split.
    - intros H. split; intros v.
      + destruct (sum_choose v (fun _ => 0%R)) as (a & A1 & A2). specialize (H a). rewrite sum_quad in H.
        rewrite (rsum_ext (ntot c1) _ (fun i => v i * rsum (ntot c1) (fun j => Mv r c1 i j * v j))%R) in H.
        2:{ intros i Hi. rewrite A1 by exact Hi. f_equal. apply rsum_ext. intros j Hj. now rewrite A1. }
        rewrite (rsum_zero (ntot c2)) in H; [lra|]. intros i Hi. rewrite A2 by exact Hi. ring.
      + destruct (sum_choose (fun _ => 0%R) v) as (a & A1 & A2). specialize (H a). rewrite sum_quad in H.
        rewrite (rsum_ext (ntot c2) _ (fun i => v i * rsum (ntot c2) (fun j => Mv r c2 i j * v j))%R) in H.
        2:{ intros i Hi. rewrite A2 by exact Hi. f_equal. apply rsum_ext. intros j Hj. now rewrite A2. }
        rewrite (rsum_zero (ntot c1)) in H; [lra|]. intros i Hi. rewrite A1 by exact Hi. ring.
    - intros [H1 H2] a. rewrite sum_quad. specialize (H1 (fun i => a (L i))). specialize (H2 (fun i => a (R_ i))).
      cbn beta in H1, H2. lra.
  Qed.

  Lemma sum_conservative : conservative (ntot c) (Mv r c) <->
    conservative (ntot c1) (Mv r c1) /\ conservative (ntot c2) (Mv r c2).
  Proof.
    split.
    - intros H. split; intros v.
      + destruct (sum_choose v (fun _ => 0%R)) as (a & A1 & A2). specialize (H a). rewrite sum_quad in H.
        rewrite (rsum_ext (ntot c1) _ (fun i => v i * rsum (ntot c1) (fun j => Mv r c1 i j * v j))%R) in H.
        2:{ intros i Hi. rewrite A1 by exact Hi. f_equal. apply rsum_ext. intros j Hj. now rewrite A1. }
        rewrite (rsum_zero (ntot c2)) in H; [lra|]. intros i Hi. rewrite A2 by exact Hi. ring.
      + destruct (sum_choose (fun _ => 0%R) v) as (a & A1 & A2). specialize (H a). rewrite sum_quad in H.
        rewrite (rsum_ext (ntot c2) _ (fun i => v i * rsum (ntot c2) (fun j => Mv r c2 i j * v j))%R) in H.
        2:{ intros i Hi. rewrite A2 by exact Hi. f_equal. apply rsum_ext. intros j Hj. now rewrite A2. }
        rewrite (rsum_zero (ntot c1)) in H; [lra|]. intros i Hi. rewrite A1 by exact Hi. ring.
    - intros [H1 H2] a. rewrite sum_quad. specialize (H1 (fun i => a (L i))). specialize (H2 (fun i => a (R_ i))).
      cbn beta in H1, H2. lra.
  Qed.
End Sum.

Lemma core_add_union c1 c2 : wf c1 -> counters_ok c1 -> wf c2 -> counters_ok c2 ->
  exists c, core_add c1 c2 = ok c /\ wf c /\
    c_x c = c_x c1 ++ c_x c2 /\ c_w c = c_w c1 ++ c_w c2 /\ c_z c = c_z c1 ++ c_z c2 /\
    c_u c = c_u c1 ++ c_u c2 /\ c_y c = c_y c1 ++ c_y c2 /\
    c_cu c = c_cu c1 ++ c_cu c2 /\ c_cy c = c_cy c1 ++ c_cy c2 /\
    c_p c = c_p c1 ++ c_p c2 /\ c_connectors c = c_connectors c1 ++ c_connectors c2 /\
    (forall r, eval r (c_H c) = eval r (c_H c1) + eval r (c_H c2))%R /\
    Permutation (left_rows c1 c2 ++ right_rows c1 c2) (seq 0 (ntot c)) /\
    (forall r a b, b_eq_M_a (ntot c) (Mv r c) a b <->
       b_eq_M_a (ntot c1) (Mv r c1) (fun i => a (nth i (left_rows c1 c2) 0)) (fun i => b (nth i (left_rows c1 c2) 0)) /\
       b_eq_M_a (ntot c2) (Mv r c2) (fun i => a (nth i (right_rows c1 c2) 0)) (fun i => b (nth i (right_rows c1 c2) 0))) /\
    (forall r, passive (ntot c) (Mv r c) <-> passive (ntot c1) (Mv r c1) /\ passive (ntot c2) (Mv r c2)) /\
    (forall r, conservative (ntot c) (Mv r c) <->
       conservative (ntot c1) (Mv r c1) /\ conservative (ntot c2) (Mv r c2)).
Proof.
  intros W1 O1 W2 O2. destruct (core_add_ok c1 c2 W1 O1 W2 O2) as (c & E & S & W & HM).
  exists c. split; [exact E|].
  destruct (core_add_frame c1 c2 c E) as (E1 & E2 & E3 & E4 & E5 & E6 & E7 & E8 & E9 & E10 & _ & _ & _ & _ & E11 & _).
  split.
  { split; [|split; [rewrite E11; discriminate|exact S]].
    destruct W1 as ((A1 & A2 & A3) & _), W2 as ((B1 & B2 & B3) & _).
    unfold paired. rewrite E2, E3, E4, E5, E6, E7, !app_length. lia. }
  repeat (split; [assumption|]). split; [intros r; rewrite E9; apply eval_sadd|].
  split; [now apply rows_perm|]. split; [|split]; intros r.
  - intros a b. apply sum_solutions; [exact W|apply HM].
  - apply sum_passive; [exact W|apply HM].
  - apply sum_conservative; [exact W|apply HM].
Qed.
