(** A simulation stores what its updates computed. *)
From Coq Require Import String List ZArith QArith Reals Bool Lia.
From Verif Require Import Py Tools Lists Expr RSum Mat Core Spec_Core Method StructProofs Numeric Spec_Numeric
  NumericUpdateOk NumericUpdate NumericProofs NumericSim H5 Spec_H5 H5Chunk H5Store TempProofs H5Seqs Data Spec_Data.
Import ListNotations.
Local Open Scope string_scope.
Local Open Scope list_scope.
Local Open Scope nat_scope.

(** ** Reading any selection *)

Lemma slice_of_map X Y (f : X -> Y) (l : list X) (sl : pslice) : slice_of sl (map f l) = map f (slice_of sl l).
Proof.
  unfold slice_of, stride. rewrite <- stride_aux_map. f_equal.
  unfold py_slice. rewrite map_length, skipn_map, firstn_map. reflexivity.
Qed.

Lemma tslice_selects (h : h5 R) nt w t a b s : length (h_data h) = nt -> selects nt w t a b s ->
  tslice_of (with_window h w) t = mkSlice (Some (Z.of_nat a)) (Some (Z.of_nat b)) (Some s).
Proof.
  intros L (S0 & AB & BN & H). unfold tslice_of, h_nt. cbn [with_window h_win h_data]. rewrite L.
  destruct t as [|i|[q1 q2 q3]].
  - destruct H as (-> & -> & ->). cbn. now rewrite Nat2Z.id.
  - destruct H as (-> & -> & ->). cbn. rewrite Nat2Z.id. do 2 f_equal. lia.
  - destruct H as (H1 & H2 & H3). cbn in *. destruct q1, q2, q3; cbn in *; subst; congruence.
Qed.

Section Read.
  Variable mdim : string -> nat.
  Variable names : list string.
  Hypothesis ND : NoDup names.

  Lemma read_selects (h : h5 R) nt (G : nat -> string -> list R) w t a b s k n :
    holds mdim names h nt G -> In n names -> selects nt w t a b s -> counts a b s k ->
    read_data (with_window h w) n t VNone = Ok (map (fun j => G (a + j * s) n) (seq 0 k)).
  Proof.
    intros H I SE C. pose proof (holds_length mdim names _ _ _ H) as L.
    destruct H as (H1 & H2 & H3 & H4 & H5').
    unfold read_data. rewrite (tslice_selects h nt w t a b s L SE). cbn [with_window h_inds h_data].
    rewrite H3, make_inds_get by assumption. rewrite H4, slice_of_map.
    destruct SE as (S0 & AB & BN & _). rewrite (aslice_seq a b s nt k) by (try assumption; lia).
    rewrite map_map. rewrite <- (map_map (fun j => G (a + j * s)) (fun f => row_of f names)).
    rewrite rmap_read_whole; auto.
    - rewrite map_map. reflexivity.
    - intros f If. apply in_map_iff in If. destruct If as (j & <- & _). apply H5'.
  Qed.
End Read.

(** ** The loop *)

Section Sim.
  Variable nu : numeric.
  Let m := n_method nu.
  Hypothesis W : wf m.
  Hypothesis HC : counters_ok m.
  Hypothesis CY : c_cy m = [].
  Hypothesis CL : closed nu.
  Hypothesis IC : inv_correct (n_inv nu).
  Hypothesis LP : linear_part m.
  Variables F Fl Fnl out : list expr.
  Hypothesis UP : forall st u p, length (st_args st) = length (args_of m) -> length u = length (c_u m) ->
    length p = length (c_p m) -> safe (update nu u p st) (updated nu F Fl Fnl out u p st).
  Variable dnames : list string.
  Hypothesis DN : incl dnames stored.
  Hypothesis ND : NoDup dnames.
  Let names := ["u"; "p"] ++ dnames.

  Lemma inputs_apart s : In s ["u"; "p"] -> ~ In s dnames.
  Proof. intros H1 H2. apply DN in H2. cbn in H1, H2. intuition (subst; discriminate). Qed.

  Lemma names_nodup : NoDup names.
  Proof.
    pose proof inputs_apart as A.
    unfold names. cbn. constructor.
    - intros [E|E]; [discriminate|]. apply (A "u"); [now left|exact E].
    - constructor; [|exact ND]. apply (A "p"). right. now left.
  Qed.

  (** The stored values have the dimensions of the file. *)
  Lemma get_stored st st' u p name : updated nu F Fl Fnl out u p st st' -> In name stored ->
    exists l, get nu name st' = Ok (Ve l) /\ length l = data_dim m name.
  Proof.
    intros (L & _ & _ & _ & (ld & VD & LD & _) & (lz & VZ & LZ & _) & (ly & VY & LY & _) & _) I.
    cbn in I. destruct I as [<-|[<-|[<-|[<-|[<-|[<-|[]]]]]]].
    - destruct (get_arg nu HC CL "x" (c_x m) st' eq_refl L) as (l & E & EL & _). exists l. now split.
    - destruct (get_arg nu HC CL "dx" (dx m) st' eq_refl L) as (l & E & EL & _). exists l. rewrite dx_length in EL. now split.
    - exists ld. split; [|exact LD]. unfold get. cbn. now rewrite VD.
    - destruct (get_arg nu HC CL "w" (c_w m) st' eq_refl L) as (l & E & EL & _). exists l. now split.
    - exists lz. split; [|exact LZ]. unfold get. cbn. now rewrite VZ.
    - exists ly. split; [|exact LY]. unfold get. cbn. now rewrite VY.
  Qed.

  Lemma stored_recordable : incl stored recordable.
  Proof. intros s. cbn. tauto. Qed.

  (** One row as vectors. *)
  Lemma to_vecs_ok st st' u p : updated nu F Fl Fnl out u p st st' ->
    exists row vs, record nu dnames st' = Ok row /\ to_vecs row = Ok vs /\ map fst vs = dnames /\
      forall name l, In (name, l) vs -> get nu name st' = Ok (Ve l) /\ length l = data_dim m name.
  Proof.
    intros UPD.
    destruct (record_ok nu HC CL F Fl Fnl out st st' u p dnames UPD (fun s H => stored_recordable s (DN s H))) as (row & ER & MR & GR).
    exists row.
    assert (T : forall l, incl (map fst l) dnames -> (forall name v, In (name, v) l -> get nu name st' = Ok v) ->
      exists vs, to_vecs l = Ok vs /\ map fst vs = map fst l /\
        forall name l', In (name, l') vs -> get nu name st' = Ok (Ve l') /\ length l' = data_dim m name).
    { induction l as [|[n v] l IH]; intros IN G.
      - exists []. split; [reflexivity|]. split; [reflexivity|]. intros ? ? [].
      - destruct IH as (vs & E & M & H); [intros s Hs; apply IN; now right|intros; apply G; now right|].
        destruct (get_stored st st' u p n UPD (DN n (IN n (or_introl eq_refl)))) as (l' & El & Ll).
        pose proof (G n v (or_introl eq_refl)) as Gv. rewrite El in Gv. injection Gv as <-.
        exists ((n, l') :: vs). unfold to_vecs in *. cbn [rmap snd fst rbind]. rewrite E. cbn [rbind].
        split; [reflexivity|]. split; [cbn; now rewrite M|].
        intros name l0 [H0|H0]; [injection H0 as <- <-; now split|now apply H]. }
    destruct (T row) as (vs & E & M & H); [rewrite MR; apply incl_refl|exact GR|].
    exists vs. split; [exact ER|]. split; [exact E|]. split; [congruence|exact H].
  Qed.

  Lemma fit_exact d (v : list R) : length v = d -> fit d v = Some v.
  Proof. intros <-. unfold fit. now rewrite Nat.eqb_refl. Qed.

  Lemma row_time nt n : n < nt -> row_of_time nt (Z.of_nat n) = Some n.
  Proof.
    intros H. unfold row_of_time. destruct (Z.leb_spec 0 (Z.of_nat n)); [|lia].
    destruct (Z.ltb_spec (Z.of_nat n) (Z.of_nat nt)); [|lia]. now rewrite Nat2Z.id.
  Qed.

  Lemma dump_row st st' u p h nt G n : updated nu F Fl Fnl out u p st st' -> holds (data_dim m) names h nt G -> n < nt ->
    forall vs, map fst vs = dnames ->
    (forall name l, In (name, l) vs -> get nu name st' = Ok (Ve l) /\ length l = data_dim m name) ->
    exists h' d' G', h5dump_vecs 0%R h (Z.of_nat n) vs = Ok (h', d') /\ holds (data_dim m) names h' nt G' /\ h_win h' = h_win h /\
      (forall i name, i <> n \/ ~ In name dnames -> G' i name = G i name) /\
      (forall name, In name dnames -> get nu name st' = Ok (Ve (G' n name))).
  Proof.
    intros UPD H Hn vs M V. pose proof names_nodup as NN.
    set (op := (Z.of_nat n, vs)).
    assert (NV : NoDup (map fst (snd op))) by (cbn; now rewrite M).
    assert (AC : accepted (data_dim m) names nt op = true).
    { apply (accepted_iff (data_dim m) names nt op). split; [|split].
      - intros name l I. destruct (V name l I) as [_ L]. split.
        + unfold names. apply in_or_app. right. rewrite <- M. now apply (in_map fst) in I.
        + exists l. now apply fit_exact.
      - exists n. now apply row_time.
      - left. cbn. lia. }
    destruct (dump_accepted (data_dim m) 0%R names NN h nt G op H NV AC) as (h' & d' & E & H' & W').
    exists h', d', (after (data_dim m) names nt op G). split; [exact E|]. split; [exact H'|]. split; [exact W'|].
    assert (GV : forall i name, gives (data_dim m) names nt op i name =
       if n =? i then match List.find (fun e => String.eqb name (fst e)) vs with Some e => fit (data_dim m name) (snd e) | None => None end else None).
    { intros i name. unfold gives. rewrite AC. unfold op. cbn [fst snd]. rewrite (row_time nt n Hn). cbn [andb]. reflexivity. }
    split.
    - intros i name O. unfold after. rewrite GV. destruct (Nat.eqb_spec n i) as [->|]; [|reflexivity].
      destruct O as [O|O]; [congruence|].
      destruct (List.find _ vs) as [[n' l']|] eqn:Ef; [|reflexivity].
      apply find_some in Ef. destruct Ef as [I E']. cbn in E'. apply String.eqb_eq in E'. subst n'.
      exfalso. apply O. rewrite <- M. now apply (in_map fst) in I.
    - intros name I. unfold after. rewrite GV, Nat.eqb_refl.
      destruct (List.find _ vs) as [[n' l']|] eqn:Ef.
      + apply find_some in Ef. destruct Ef as [I' E']. cbn in E'. apply String.eqb_eq in E'. subst n'.
        destruct (V name l' I') as [Gl Ll]. cbn [snd]. rewrite (fit_exact _ _ Ll); exact Gl.
      + rewrite <- M in I. apply in_map_iff in I. destruct I as ([n' l'] & <- & I).
        pose proof (find_none _ _ Ef _ I) as E'. cbn in E'. now rewrite String.eqb_refl in E'.
  Qed.

  Lemma sim_loop_ok nt : forall us ps n st h G, length us = length ps -> n + length us <= nt ->
    Forall (fun u => length u = length (c_u m)) us -> Forall (fun p => length p = length (c_p m)) ps ->
    length (st_args st) = length (args_of m) -> holds (data_dim m) names h nt G ->
    safe (sim_loop nu dnames (combine us ps) (Z.of_nat n) st h) (fun '(h', st') =>
      exists sts G', nth_error sts 0 = Some st /\ nth_error sts (length us) = Some st' /\
        followed nu F Fl Fnl out us ps sts /\ holds (data_dim m) names h' nt G' /\ h_win h' = h_win h /\
        (forall i name, i < n \/ n + length us <= i \/ ~ In name dnames -> G' i name = G i name) /\
        (forall k name st1, k < length us -> In name dnames -> nth_error sts (S k) = Some st1 ->
           get nu name st1 = Ok (Ve (G' (n + k) name)))).
  Proof.
    induction us as [|u us IH]; intros ps n st h G LE LN FU FP L H.
    { cbn. exists [st], G. do 2 (split; [reflexivity|]).
      split; [split; [reflexivity|]; intros k a b u p _ H2; destruct k; discriminate|].
      split; [exact H|]. split; [reflexivity|]. split; [reflexivity|]. intros; lia. }
    destruct ps as [|p ps]; [discriminate|].
    inversion FU as [|? ? LU FU']; subst. inversion FP as [|? ? LPa FP']; subst.
    cbn [combine sim_loop]. apply (safe_bind _ _ (updated nu F Fl Fnl out u p st)); [now apply UP|].
    intros st1 U1. destruct (to_vecs_ok st st1 u p U1) as (row & vs & ER & EV & MV & GV).
    rewrite ER. cbn [rbind]. rewrite EV. cbn [rbind]. cbn [length] in LN, LE.
    destruct (dump_row st st1 u p h nt G n U1 H ltac:(lia) vs MV GV) as (h1 & d1 & G1 & ED & H1 & W1 & O1 & N1).
    rewrite ED. cbn [rbind].
    replace (Z.of_nat n + 1)%Z with (Z.of_nat (S n)) by lia.
    pose proof (IH ps (S n) st1 h1 G1 ltac:(lia) ltac:(lia) FU' FP' ltac:(apply U1) H1) as R1.
    destruct (sim_loop nu dnames (combine us ps) (Z.of_nat (S n)) st1 h1) as [[h2 st2]|e]; cbn [safe] in *; [|exact R1].
    destruct R1 as (sts & G2 & S0 & SN & (LS & FO) & H2 & W2 & O2 & N2).
    exists (st :: sts), G2. split; [reflexivity|]. split; [exact SN|]. split.
    { split; [cbn; now rewrite LS|]. intros k a b u0 p0 A B C D. destruct k as [|k]; cbn in A, B, C, D.
      - injection A as <-. injection C as <-. injection D as <-. change (nth_error sts 0 = Some b) in B. rewrite S0 in B. injection B as <-. exact U1.
      - exact (FO k a b u0 p0 A B C D). }
    split; [exact H2|]. split; [congruence|]. split.
    { cbn [length]. intros i name [O|[O|O]]; [rewrite O2, O1 by lia; reflexivity|rewrite O2, O1 by lia; reflexivity|].
      rewrite O2, O1 by auto. reflexivity. }
    intros k name s1 Hk I E. destruct k as [|k]; cbn in E.
    - change (nth_error sts 0 = Some s1) in E. rewrite S0 in E. injection E as <-. rewrite Nat.add_0_r, O2 by lia. now apply N1.
    - replace (n + S k) with (S n + k) by lia. apply N2; [cbn in Hk; lia|exact I|exact E].
  Qed.

  Lemma counts_one n : counts 0 n 1 n.
  Proof. intros k. lia. Qed.

  Lemma nth_firstn_lt {B} (d : B) : forall i b l, i < b -> nth i (firstn b l) d = nth i l d.
  Proof.
    induction i as [|i IH]; intros [|b] [|x l] H; try lia; try reflexivity. cbn. apply IH. lia.
  Qed.
  Lemma Forall_firstn' {B} (P : B -> Prop) : forall b l, Forall P l -> Forall P (firstn b l).
  Proof.
    induction b as [|b IH]; intros l H; [constructor|]. destruct H; cbn; constructor; auto.
  Qed.

  (** The loop runs up to the stop of the load options. *)
  Lemma simulate_cut w us ps st b : length us = length ps -> get_stop (Z.of_nat (length us)) w = Z.of_nat b -> b <= length us ->
    Forall (fun u => length u = length (c_u m)) us -> Forall (fun p => length p = length (c_p m)) ps ->
    length (st_args st) = length (args_of m) ->
    safe (simulate nu dnames w us ps st) (fun '(h, st') => exists sts G, nth_error sts 0 = Some st /\
      nth_error sts b = Some st' /\ followed nu F Fl Fnl out (firstn b us) (firstn b ps) sts /\
      holds (data_dim m) names h (length us) G /\
      (forall i, i < length us -> G i "u" = nth i us []) /\ (forall i, i < length us -> G i "p" = nth i ps []) /\
      (forall k name st1, k < b -> In name dnames -> nth_error sts (S k) = Some st1 -> get nu name st1 = Ok (Ve (G k name))) /\
      (forall i name, b <= i -> In name dnames -> G i name = repeat 0%R (data_dim m name))).
  Proof.
    intros LE SW BN FU FP L. pose proof names_nodup as NN. set (nt := length us) in *.
    pose proof W as ((_ & PU & _) & _).
    pose proof (new_holds R 0%R (data_dim m) dnames nt NN) as H0.
    assert (H0' : holds (data_dim m) names (with_window (new_h5 0%R (data_dim m) dnames nt) w) nt (fun _ n => repeat 0%R (data_dim m n)))
      by exact H0.
    destruct (dump_seqs_holds (data_dim m) names NN (S nt) nt ltac:(lia) [("u", us); ("p", ps)] _ _
      ltac:(split; [repeat constructor; cbn; intuition discriminate|
        intros n sq [E|[E|[]]]; injection E as <- <-; (split; [cbn; tauto|]); split; cbn;
          [reflexivity|rewrite <- PU; exact FU|symmetry; exact LE|exact FP]]) H0')
      as (h1 & E1 & H1).
    set (G1 := put_seqs [("u", us); ("p", ps)] (fun _ n => repeat 0%R (data_dim m n))) in *.
    unfold simulate, init_data. fold m nt. change (mkSlice (Some 0%Z) (Some (Z.of_nat nt)) None) with (span nt).
    rewrite E1. cbn [rbind].
    assert (W1 : h_win h1 = w).
    { clear - E1. unfold h5dump_seqs in E1.
      assert (A : forall d fuel (h h' : h5 R) ts, dump_seqs_loop fuel h d ts = Ok h' -> h_win h' = h_win h).
      { induction d as [|[n sq] d IH]; intros fuel h h' ts E; cbn [dump_seqs_loop] in E; [now injection E as <-|].
        destruct (sget n (h_inds h)) as [[a b]|]; [|discriminate]. destruct (s_stop ts); [|discriminate].
        destruct (0 <? _) eqn:B in E; [|now apply IH in E].
        destruct (set_dataset_from_iterable _ _ _ _ _ _ _) as [rows|] in E; cbn [rbind] in E; [|discriminate].
        apply IH in E. exact E. }
      apply A in E1. exact E1. }
    assert (U1 : forall i, i < nt -> G1 i "u" = nth i us []).
    { intros i Hi. unfold G1. rewrite (put_seqs_in _ _ i "u" us); [apply nth_indep; exact Hi|
        repeat constructor; cbn; intuition discriminate|now left]. }
    assert (P1 : forall i, i < nt -> G1 i "p" = nth i ps []).
    { intros i Hi. unfold G1. rewrite (put_seqs_in _ _ i "p" ps); [apply nth_indep; lia|
        repeat constructor; cbn; intuition discriminate|right; now left]. }
    assert (Z1 : forall i name, In name dnames -> G1 i name = repeat 0%R (data_dim m name)).
    { intros i name I. unfold G1, put_seqs. cbn [fold_left fst snd]. unfold put_seq.
      destruct (String.eqb_spec name "p") as [->|_]; [exfalso; apply (inputs_apart "p"); cbn; auto|].
      destruct (String.eqb_spec name "u") as [->|_]; [exfalso; apply (inputs_apart "u"); cbn; auto|]. reflexivity. }
    unfold process_file.
    assert (RD : forall n, In n names ->
      read_data h1 n (TSlice (mkSlice (Some 0%Z) None (Some 1))) VNone = Ok (map (fun j => G1 j n) (seq 0 b))).
    { intros n I. destruct b as [|b'] eqn:EB.
      - pose proof (holds_length _ _ _ _ _ H1) as LH1. destruct H1 as (_ & _ & HI & _). unfold read_data. rewrite HI, make_inds_get by assumption.
        unfold tslice_of. cbn [s_start s_stop s_step]. rewrite W1. unfold h_nt.
        rewrite LH1, SW.
        clear. destruct (h_data h1) as [|x l]; reflexivity.
      - assert (SE : selects nt w (TSlice (mkSlice (Some 0%Z) None (Some 1))) 0 (S b') 1).
        { split; [lia|]. split; [lia|]. split; [exact BN|]. cbn [s_start s_stop s_step is_or]. split; [reflexivity|]. split; [exact SW|reflexivity]. }
        pose proof (read_selects (data_dim m) names NN h1 nt G1 w _ 0 (S b') 1 (S b') n H1 I SE (counts_one _)) as R.
        replace (with_window h1 w) with h1 in R by (destruct h1; cbn in *; now subst).
        rewrite R. f_equal. apply map_ext. intros j. f_equal. lia. }
    rewrite (RD "u") by (cbn; auto). cbn [rbind]. rewrite (RD "p") by (cbn; auto). cbn [rbind].
    assert (MU : map (fun j => G1 j "u") (seq 0 b) = firstn b us).
    { apply (nth_ext _ _ [] []); [rewrite map_length, seq_length, firstn_length; lia|]. intros i Hi. rewrite map_length, seq_length in Hi.
      rewrite nth_indep with (d' := G1 0 "u") by (now rewrite map_length, seq_length).
      rewrite (map_nth (fun j => G1 j "u")), seq_nth by exact Hi. rewrite nth_firstn_lt by exact Hi. apply U1. unfold nt. lia. }
    assert (MP : map (fun j => G1 j "p") (seq 0 b) = firstn b ps).
    { apply (nth_ext _ _ [] []); [rewrite map_length, seq_length, firstn_length; unfold nt in *; lia|]. intros i Hi. rewrite map_length, seq_length in Hi.
      rewrite nth_indep with (d' := G1 0 "p") by (now rewrite map_length, seq_length).
      rewrite (map_nth (fun j => G1 j "p")), seq_nth by exact Hi. rewrite nth_firstn_lt by exact Hi. apply P1. unfold nt. lia. }
    rewrite MU, MP.
    assert (LB : length (firstn b us) = b) by (rewrite firstn_length; unfold nt in *; lia).
    pose proof (sim_loop_ok nt (firstn b us) (firstn b ps) 0 st h1 G1 ltac:(rewrite !firstn_length; fold nt; now rewrite LE) ltac:(rewrite LB; exact BN)
      ltac:(now apply Forall_firstn') ltac:(now apply Forall_firstn') L H1) as R. change (Z.of_nat 0) with 0%Z in R.
    destruct (sim_loop nu dnames (combine (firstn b us) (firstn b ps)) 0 st h1) as [[h st']|e]; cbn [safe] in *; [|exact R].
    destruct R as (sts & G & S0 & SN & FO & HH & WH & OG & NG). rewrite LB in SN, OG, NG.
    exists sts, G. split; [exact S0|]. split; [exact SN|]. split; [exact FO|]. split; [exact HH|].
    split; [intros i Hi; rewrite OG by (right; right; apply inputs_apart; cbn; auto); now apply U1|].
    split; [intros i Hi; rewrite OG by (right; right; apply inputs_apart; cbn; auto); now apply P1|].
    split; [exact NG|]. intros i name Hi I. rewrite OG by auto. now apply Z1.
  Qed.

  Lemma simulate_ok w us ps st : length us = length ps -> get_stop (Z.of_nat (length us)) w = Z.of_nat (length us) ->
    Forall (fun u => length u = length (c_u m)) us -> Forall (fun p => length p = length (c_p m)) ps ->
    length (st_args st) = length (args_of m) ->
    safe (simulate nu dnames w us ps st) (fun '(h, st') => exists sts, nth_error sts 0 = Some st /\
      nth_error sts (length us) = Some st' /\ followed nu F Fl Fnl out us ps sts /\ recorded nu names sts h).
  Proof.
    intros LE SW FU FP L. pose proof names_nodup as NN.
    pose proof (simulate_cut w us ps st (length us) LE SW (le_n _) FU FP L) as R.
    destruct (simulate nu dnames w us ps st) as [[h st']|e]; cbn [safe] in *; [|exact R].
    destruct R as (sts & G & S0 & SN & FO & HH & OU & OP & NG & _).
    rewrite firstn_all, LE, firstn_all in FO. set (nt := length us) in *.
    exists sts. split; [exact S0|]. split; [exact SN|]. split; [exact FO|].
    pose proof FO as [LS FO']. fold nt in LS. pose proof (holds_length _ _ _ _ _ HH) as LH.
    split; [now rewrite LH|]. intros w' t a b s k name SE C I. rewrite LH in SE.
    exists (map (fun j => G (a + j * s) name) (seq 0 k)).
    split; [now apply (read_selects (data_dim m) names NN h nt G w' t a b s k name)|].
    split; [now rewrite map_length, seq_length|].
    intros j Hj. assert (Hi : a + j * s < nt) by (apply C in Hj; destruct SE as (_ & _ & BN & _); lia).
    set (i := a + j * s) in *.
    assert (EN : nth j (map (fun j => G (a + j * s) name) (seq 0 k)) [] = G i name).
    { rewrite nth_indep with (d' := G (a + 0 * s) name) by (now rewrite map_length, seq_length).
      rewrite (map_nth (fun j => G (a + j * s) name)), seq_nth by exact Hj. reflexivity. }
    rewrite EN. clear EN.
    destruct (nth_error sts i) as [sa|] eqn:EA; [|apply nth_error_None in EA; lia].
    destruct (nth_error sts (S i)) as [sb|] eqn:EB; [|apply nth_error_None in EB; lia].
    exists sb. split; [reflexivity|].
    unfold names in I. apply in_app_or in I. destruct I as [I|I].
    - assert (NI : ~ In name dnames) by (now apply inputs_apart).
      destruct (nth_error us i) as [u|] eqn:EU; [|apply nth_error_None in EU; fold nt in EU; lia].
      destruct (nth_error ps i) as [p|] eqn:EP; [|apply nth_error_None in EP; fold nt in EP; lia].
      pose proof (FO' i sa sb u p EA EB EU EP) as UPD.
      assert (LU : length u = length (c_u m)) by (apply (proj1 (Forall_forall _ us) FU); eapply nth_error_In; exact EU).
      assert (LPp : length p = length (c_p m)) by (apply (proj1 (Forall_forall _ ps) FP); eapply nth_error_In; exact EP).
      cbn in I. destruct I as [<-|[<-|[]]].
      + rewrite (OU i Hi). rewrite (nth_error_nth _ _ [] EU). destruct UPD as (Lb & _ & U & _).
        destruct (get_arg nu HC CL "u" (c_u m) sb eq_refl Lb) as (l & El & LL & N). rewrite El. do 2 f_equal.
        apply list_eq; [congruence|]. intros q Hq. rewrite LU in Hq. rewrite N by exact Hq. now apply U.
      + rewrite (OP i Hi). rewrite (nth_error_nth _ _ [] EP). destruct UPD as (Lb & _ & _ & U & _).
        destruct (get_arg nu HC CL "p" (c_p m) sb eq_refl Lb) as (l & El & LL & N). rewrite El. do 2 f_equal.
        apply list_eq; [congruence|]. intros q Hq. rewrite LPp in Hq. rewrite N by exact Hq. now apply U.
    - exact (NG i name sb Hi I EB).
  Qed.

  (** With a stop below the number of steps, the last rows stay zero. *)
  Lemma simulate_stale w us ps st b : length us = length ps -> get_stop (Z.of_nat (length us)) w = Z.of_nat b -> b < length us ->
    Forall (fun u => length u = length (c_u m)) us -> Forall (fun p => length p = length (c_p m)) ps ->
    length (st_args st) = length (args_of m) ->
    safe (simulate nu dnames w us ps st) (fun '(h, st') =>
      (exists sts, nth_error sts 0 = Some st /\ nth_error sts b = Some st' /\
         followed nu F Fl Fnl out (firstn b us) (firstn b ps) sts) /\
      forall w' i name, b <= i < length us -> In name dnames -> (0 < l_step w')%Z ->
        read_data (with_window h w') name (TInt (Z.of_nat i)) VNone = Ok [repeat 0%R (data_dim m name)]).
  Proof.
    intros LE SW BN FU FP L. pose proof names_nodup as NN.
    pose proof (simulate_cut w us ps st b LE SW (Nat.lt_le_incl _ _ BN) FU FP L) as R.
    destruct (simulate nu dnames w us ps st) as [[h st']|e]; cbn [safe] in *; [|exact R].
    destruct R as (sts & G & S0 & SN & FO & HH & _ & _ & _ & Z).
    split; [exists sts; split; [exact S0|]; split; [exact SN|exact FO]|]. intros w' i name Hi I LS.
    rewrite (read_selects (data_dim m) names NN h (length us) G w' (TInt (Z.of_nat i)) i (S i) (Z.to_nat (l_step w')) 1 name HH).
    - cbn [seq map]. rewrite Nat.add_0_r, Z by (try exact I; lia). reflexivity.
    - unfold names. apply in_or_app. now right.
    - split; [lia|]. split; [lia|]. split; [lia|]. cbn. lia.
    - intros q. split; intros Hq; [replace q with 0 by lia; lia|]. destruct q; [lia|]. nia.
  Qed.
End Sim.

Lemma simulation_file nu : let m := n_method nu in
  wf m -> counters_ok m -> c_cy m = [] -> closed nu -> inv_correct (n_inv nu) -> linear_part m ->
  exists F Fl Fnl out, tempF Sall m = Ok F /\ tempF Sl m = Ok Fl /\ tempF Snl m = Ok Fnl /\ output m = Ok out /\
    forall dnames w us ps st, incl dnames stored -> NoDup dnames ->
      length us = length ps -> get_stop (Z.of_nat (length us)) w = Z.of_nat (length us) ->
      Forall (fun u => length u = length (c_u m)) us -> Forall (fun p => length p = length (c_p m)) ps ->
      length (st_args st) = length (args_of m) ->
      safe (simulate nu dnames w us ps st) (fun '(h, st') => exists sts, nth_error sts 0 = Some st /\
        nth_error sts (length us) = Some st' /\ followed nu F Fl Fnl out us ps sts /\
        recorded nu (["u"; "p"] ++ dnames) sts h).
Proof.
  intros m W HC CY CL IC LP.
  destruct (update_ok nu W HC CY CL IC LP) as (F & Fl & Fnl & out & E1 & E2 & E3 & E4 & UP).
  exists F, Fl, Fnl, out. do 4 (split; [assumption|]). intros dnames w us ps st DN ND LE SW FU FP L.
  now apply (simulate_ok nu W HC CL F Fl Fnl out UP).
Qed.

Lemma simulation_stale nu : let m := n_method nu in
  wf m -> counters_ok m -> c_cy m = [] -> closed nu -> inv_correct (n_inv nu) -> linear_part m ->
  exists F Fl Fnl out, tempF Sall m = Ok F /\ tempF Sl m = Ok Fl /\ tempF Snl m = Ok Fnl /\ output m = Ok out /\
    forall dnames w us ps st b, incl dnames stored -> NoDup dnames ->
      length us = length ps -> get_stop (Z.of_nat (length us)) w = Z.of_nat b -> b < length us ->
      Forall (fun u => length u = length (c_u m)) us -> Forall (fun p => length p = length (c_p m)) ps ->
      length (st_args st) = length (args_of m) ->
      safe (simulate nu dnames w us ps st) (fun '(h, st') =>
        (exists sts, nth_error sts 0 = Some st /\ nth_error sts b = Some st' /\
           followed nu F Fl Fnl out (firstn b us) (firstn b ps) sts) /\
        forall w' i name, b <= i < length us -> In name dnames -> (0 < l_step w')%Z ->
          read_data (with_window h w') name (TInt (Z.of_nat i)) VNone = Ok [repeat 0%R (data_dim m name)]).
Proof.
  intros m W HC CY CL IC LP.
  destruct (update_ok nu W HC CY CL IC LP) as (F & Fl & Fnl & out & E1 & E2 & E3 & E4 & UP).
  exists F, Fl, Fnl, out. do 4 (split; [assumption|]). intros dnames w us ps st b DN ND LE SW BN FU FP L.
  now apply (simulate_stale nu W HC CL F Fl Fnl out UP).
Qed.

(** A file built from the vectors of given states. *)
Lemma recorded_file nu dnames sts h nt G : NoDup (["u"; "p"] ++ dnames) ->
  holds (data_dim (n_method nu)) (["u"; "p"] ++ dnames) h nt G -> length sts = S nt ->
  (forall i name st, i < nt -> In name (["u"; "p"] ++ dnames) -> nth_error sts (S i) = Some st -> get nu name st = Ok (Ve (G i name))) ->
  recorded nu (["u"; "p"] ++ dnames) sts h.
Proof.
  intros ND H L V. pose proof (holds_length _ _ _ _ _ H) as LH. split; [congruence|].
  rewrite LH. intros w t a b s k name SE C I. exists (map (fun j => G (a + j * s) name) (seq 0 k)).
  split; [now apply (read_selects (data_dim (n_method nu)) _ ND h nt G w t a b s k name)|].
  split; [now rewrite map_length, seq_length|]. intros j Hj.
  assert (Hi : a + j * s < nt) by (apply C in Hj; destruct SE as (_ & _ & BN & _); lia).
  destruct (nth_error sts (S (a + j * s))) as [st|] eqn:E; [|apply nth_error_None in E; lia].
  exists st. split; [reflexivity|].
  rewrite nth_indep with (d' := G (a + 0 * s) name) by (now rewrite map_length, seq_length).
  rewrite (map_nth (fun j => G (a + j * s) name)), seq_nth by exact Hj. now apply V.
Qed.
