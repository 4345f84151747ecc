(** What the readers compute from the file of a simulation. *)
From Coq Require Import String List ZArith QArith Qreals Reals Bool Lia Lra.
From Verif Require Import Py Tools Lists Expr RSum Mat Core Spec_Core Method Spec_Method StructProofs Deriv PowerProofs TempProofs
  MethodInit MethodBalance Numeric Spec_Numeric NumericUpdateOk NumericUpdate NumericProofs NumericSim H5 Spec_H5 Data Spec_Data DataSim.
Import ListNotations.
Local Open Scope string_scope.
Local Open Scope list_scope.
Local Open Scope nat_scope.

(** ** Lists *)

Lemma rows_map {B} (rows : list (list B)) k f : length rows = k -> (forall j, j < k -> nth j rows [] = f j) ->
  rows = map f (seq 0 k).
Proof.
  intros L H. apply (nth_ext _ _ [] []); [now rewrite map_length, seq_length|]. intros j Hj. rewrite L in Hj.
  rewrite (nth_indep (map f (seq 0 k)) [] (f 0)) by (now rewrite map_length, seq_length).
  rewrite map_nth, seq_nth by exact Hj. now apply H.
Qed.

Lemma combine_map {X A B} (f : X -> A) (g : X -> B) : forall l, combine (map f l) (map g l) = map (fun x => (f x, g x)) l.
Proof. induction l as [|x l IH]; cbn; [reflexivity|now rewrite IH]. Qed.

Lemma hcat_map {X B} (f g : X -> list B) l : hcat (map f l) (map g l) = Ok (map (fun x => f x ++ g x) l).
Proof. unfold hcat. rewrite !map_length, Nat.eqb_refl, combine_map, map_map. reflexivity. Qed.

Lemma rmap_pure {A B} (f : A -> result B) g : forall l, (forall x, In x l -> f x = Ok (g x)) -> rmap f l = Ok (map g l).
Proof.
  induction l as [|x l IH]; intros H; cbn [rmap map]; [reflexivity|].
  rewrite (H x (or_introl eq_refl)). cbn [rbind]. rewrite IH; [reflexivity|]. intros; apply H; now right.
Qed.

Lemma combine_seq {A B} n (f : nat -> A) (g : nat -> B) : combine (map f (seq 0 n)) (map g (seq 0 n)) = map (fun i => (f i, g i)) (seq 0 n).
Proof. apply combine_map. Qed.

Lemma dot_rsum : forall a b n, length a = n -> length b = n -> row_dot a b = rsum n (fun i => nth i a 0 * nth i b 0)%R.
Proof.
  intros a b n LA LB. rewrite rsum_lsum. unfold row_dot. revert a b LA LB. induction n as [|n IH]; intros [|x a] [|y b] LA LB; try discriminate; [reflexivity|].
  cbn [combine map fold_right fst snd]. rewrite (IH a b) by (cbn in LA, LB; lia).
  cbn [seq map lsum nth]. rewrite <- seq_shift, map_map. reflexivity.
Qed.

(** ** Evaluation at a row *)

Lemma assoc_self (f : string -> R) s : forall names, In s names -> assoc s (combine names (map f names)) = Some (f s).
Proof.
  induction names as [|n names IH]; intros H; [destruct H|]. cbn [map combine assoc].
  destruct (String.eqb_spec n s) as [->|N]; [reflexivity|]. apply IH. destruct H as [H|H]; [congruence|exact H].
Qed.

Lemma picks_map g (f : string -> R) : forall names, picks g names (map f names) = map f (among names g).
Proof.
  induction names as [|n names IH]; [reflexivity|]. unfold among in *. cbn [map picks filter].
  destruct (existsb (String.eqb n) g); cbn [map]; now rewrite IH.
Qed.

Lemma pick_items_read vs a : pick_items vs (map Some a) = read_at vs a.
Proof.
  unfold pick_items, read_at. induction vs as [|i vs IH]; cbn [rmap]; [reflexivity|].
  rewrite nth_error_map. destruct (nth_error a i); cbn [option_map rbind]; [now rewrite IH|reflexivity].
Qed.

Definition open_symbols (nu : numeric) (es : list expr) : list string :=
  filter (fun s => match assoc s (n_subs nu) with None => true | _ => false end) (flat_map free_symbols es).

Lemma in_open nu e s : In s (free_symbols e) -> In s (open_symbols nu [e]) \/ exists v, assoc s (n_subs nu) = Some v.
Proof.
  intros H. destruct (assoc s (n_subs nu)) as [v|] eqn:E; [right; now exists v|left].
  unfold open_symbols. apply filter_In. rewrite E. split; [|reflexivity]. cbn. now rewrite app_nil_r.
Qed.

Lemma known_inds_all nu es : (forall e, In e es -> known_symbols nu e) ->
  eval_inds nu es = Ok (find String.eqb (open_symbols nu es) (args_of (n_method nu))) /\
  forall s, In s (open_symbols nu es) -> In s (args_of (n_method nu)).
Proof.
  intros K.
  assert (A : forall s, In s (open_symbols nu es) -> In s (args_of (n_method nu))).
  { intros s Hs. apply filter_In in Hs. destruct Hs as [Hs E]. apply in_flat_map in Hs. destruct Hs as (e & He & Hs).
    destruct (K e He s Hs) as [H|H]; [exact H|]. destruct (assoc_keys s _ H) as [v Ev]. rewrite Ev in E. discriminate. }
  split; [|exact A]. unfold eval_inds. fold (open_symbols nu es).
  assert (B : forallb (fun s => existsb (String.eqb s) (args_of (n_method nu))) (open_symbols nu es) = true).
  { apply forallb_forall. intros s Hs. apply existsb_exists. exists s. split; [now apply A|apply String.eqb_refl]. }
  now rewrite B.
Qed.

Lemma known_inds nu e : known_symbols nu e ->
  eval_inds nu [e] = Ok (find String.eqb (open_symbols nu [e]) (args_of (n_method nu))) /\
  forall s, In s (open_symbols nu [e]) -> In s (args_of (n_method nu)).
Proof. intros K. apply known_inds_all. intros e' [<-|[]]. exact K. Qed.

Lemma inds_some nu es e x : In e es -> In x (free_symbols e) -> In x (args_of (n_method nu)) -> assoc x (n_subs nu) = None ->
  snd (find String.eqb (open_symbols nu es) (args_of (n_method nu))) <> [].
Proof.
  intros He HX IX ND H. apply (f_equal (@length nat)) in H. unfold find in H. rewrite find_inds_length in H. cbn [length] in H.
  apply length_zero_iff_nil in H.
  assert (I' : In x (among (args_of (n_method nu)) (open_symbols nu es))); [|now rewrite H in I'].
  unfold among. apply filter_In. split; [exact IX|]. apply existsb_exists. exists x. split; [|apply String.eqb_refl].
  unfold open_symbols. apply filter_In. rewrite ND. split; [|reflexivity]. apply in_flat_map. now exists e.
Qed.

Lemma senv_dict nu st s v : assoc s (n_subs nu) = Some v -> senv nu st s = v.
Proof. intros E. unfold senv, total, call_env. now rewrite E. Qed.

Lemma eval_row_ok nu st e : known_symbols nu e ->
  let '(names, vs) := find String.eqb (open_symbols nu [e]) (args_of (n_method nu)) in
  eval_row nu names vs e (map Some (map (senv nu st) (args_of (n_method nu)))) = Ok (eval (senv nu st) e).
Proof.
  intros K. destruct (known_inds nu e K) as [_ A]. set (alls := args_of (n_method nu)) in *. set (g := open_symbols nu [e]) in *.
  pose proof (find_names g alls 0) as N. pose proof (read_ok g alls (map (senv nu st) alls) ltac:(apply map_length)) as RD.
  unfold find in *. destruct (find_loop String.eqb g alls 0) as [names vs]. cbn [fst snd] in *. subst names.
  unfold eval_row. rewrite pick_items_read, RD, picks_map. cbn [rbind]. f_equal.
  apply eval_ext. intros s Hs. unfold total at 1, call_env.
  destruct (in_open nu e s Hs) as [H|[v E]].
  - pose proof H as H'. apply filter_In in H'. destruct H' as [_ E]. destruct (assoc s (n_subs nu)); [discriminate|].
    rewrite assoc_self; [reflexivity|]. unfold among. apply filter_In. split; [now apply A|].
    apply existsb_exists. exists s. split; [exact H|apply String.eqb_refl].
  - rewrite E. symmetry. now apply senv_dict.
Qed.

Lemma eval_const nu st e : known_symbols nu e ->
  snd (find String.eqb (open_symbols nu [e]) (args_of (n_method nu))) = [] ->
  eval (total (call_env (n_subs nu) [] [])) e = eval (senv nu st) e.
Proof.
  intros K H. destruct (known_inds nu e K) as [_ A].
  apply eval_ext. intros s Hs. unfold total at 1, call_env. destruct (in_open nu e s Hs) as [I|[v E]].
  - exfalso. apply (f_equal (@length nat)) in H. unfold find in H. rewrite find_inds_length in H. cbn [length] in H.
    apply length_zero_iff_nil in H.
    assert (I' : In s (among (args_of (n_method nu)) (open_symbols nu [e]))).
    { unfold among. apply filter_In. split; [now apply A|]. apply existsb_exists. exists s. split; [exact I|apply String.eqb_refl]. }
    now rewrite H in I'.
  - rewrite E. symmetry. now apply senv_dict.
Qed.

(** ** Readers *)

Lemma counts_div a b s k : 0 < s -> a < b -> counts a b s k -> Nat.modulo (b - a) s = 0 -> Z.to_nat ((Z.of_nat b - Z.of_nat a) / Z.of_nat s) = k.
Proof.
  intros S0 AB C D. apply Nat.mod_divide in D; [|lia]. destruct D as [q Q].
  replace (Z.of_nat b - Z.of_nat a)%Z with (Z.of_nat q * Z.of_nat s)%Z by nia.
  rewrite Z.div_mul by lia. rewrite Nat2Z.id.
  pose proof (C q) as C1. pose proof (C k) as C2. 
  destruct (Nat.lt_trichotomy q k) as [H|[H|H]]; [|exact H|].
  - apply C1 in H. nia.
  - assert (k < k); [apply C2; nia|lia].
Qed.

Section Readers.
  Variable nu : numeric.
  Let m := n_method nu.
  Hypothesis W : wf m.
  Hypothesis HC : counters_ok m.
  Hypothesis CL : closed nu.
  Hypothesis OB : c_observers m = [].
  Variables F Fl Fnl out : list expr.
  Variables us ps : list (list R).
  Hypothesis LE : length us = length ps.
  Variable sts : list state.
  Hypothesis FO : followed nu F Fl Fnl out us ps sts.
  Variable names : list string.
  Hypothesis NI : incl (["u"; "p"] ++ stored) names.
  Variable h : h5 R.
  Hypothesis REC : recorded nu names sts h.
  Let nt := length (h_data h).
  Let dur := during nu sts.

  Lemma step_state i : i < nt -> exists st, nth_error sts (S i) = Some st /\ dur i = senv nu st /\
    exists st0 u p, updated nu F Fl Fnl out u p st0 st.
  Proof.
    intros Hi. destruct FO as [LS F']. destruct REC as [LR _].
    destruct (nth_error sts i) as [a|] eqn:E1; [|apply nth_error_None in E1; unfold nt in *; lia].
    destruct (nth_error sts (S i)) as [b|] eqn:E2; [|apply nth_error_None in E2; unfold nt in *; lia].
    destruct (nth_error us i) as [u|] eqn:E3; [|apply nth_error_None in E3; unfold nt in *; lia].
    destruct (nth_error ps i) as [p|] eqn:E4; [|apply nth_error_None in E4; unfold nt in *; lia].
    exists b. split; [reflexivity|]. split; [unfold dur, during; now rewrite (nth_error_nth _ _ _ E2)|].
    exists a, u, p. exact (F' i a b u p E1 E2 E3 E4).
  Qed.

  Section Select.
    Variable w : window.
    Variable t : targ.
    Variables a b s k : nat.
    Hypothesis SE : selects nt w t a b s.
    Hypothesis C : counts a b s k.
    Let hw := with_window h w.

    Lemma step_lt j : j < k -> a + j * s < nt.
    Proof. intros H. apply C in H. destruct SE as (_ & _ & B & _). lia. Qed.

    Lemma selects_inner : selects nt w (inner hw t) a b s.
    Proof.
      unfold inner, hw. rewrite (tslice_selects h nt w t a b s eq_refl SE). destruct SE as (S0 & AB & BN & _).
      split; [exact S0|]. split; [exact AB|]. split; [exact BN|]. now repeat split.
    Qed.

    Lemma read_group name g : assoc name (groups m) = Some g -> In name names ->
      read_data hw name t VNone = Ok (map (fun j => map (dur (a + j * s)) g) (seq 0 k)).
    Proof.
      intros G I. destruct REC as [_ RR]. destruct (RR w t a b s k name SE C I) as (rows & E & L & V).
      unfold hw. rewrite E. f_equal. apply rows_map; [exact L|]. intros j Hj.
      destruct (V j Hj) as (st & Es & Eg). destruct (step_state _ (step_lt j Hj)) as (st' & Es' & -> & _ & _ & _ & (Lb & _)).
      rewrite Es in Es'. injection Es' as <-.
      destruct (get_arg nu HC CL name g st G Lb) as (l & El & LL & N). rewrite El in Eg. injection Eg as <-.
      apply list_eq; [now rewrite map_length|]. intros i Hi. rewrite map_length in Hi. rewrite N by exact Hi.
      rewrite nth_indep with (d' := senv nu st "") by (now rewrite map_length). now rewrite map_nth.
    Qed.

    Lemma read_stores name n f : In name names -> assoc name (groups m) = None ->
      (forall st0 st u p, updated nu F Fl Fnl out u p st0 st -> stores st name n (f (senv nu st))) ->
      read_data hw name t VNone = Ok (map (fun j => map (f (dur (a + j * s))) (seq 0 n)) (seq 0 k)).
    Proof.
      intros I G ST. destruct REC as [_ RR]. destruct (RR w t a b s k name SE C I) as (rows & E & L & V).
      unfold hw. rewrite E. f_equal. apply rows_map; [exact L|]. intros j Hj.
      destruct (V j Hj) as (st & Es & Eg). destruct (step_state _ (step_lt j Hj)) as (st' & Es' & -> & st0 & u & p & UPD).
      rewrite Es in Es'. injection Es' as <-.
      destruct (ST st0 st u p UPD) as (l & El & LL & N). unfold get in Eg. fold m in Eg. rewrite G, El in Eg. injection Eg as <-.
      apply list_eq; [now rewrite map_length, seq_length|]. intros i Hi. rewrite map_length, seq_length in Hi.
      rewrite N by exact Hi. rewrite nth_indep with (d' := f (senv nu st) 0) by (now rewrite map_length, seq_length).
      rewrite map_nth, seq_nth by exact Hi. reflexivity.
    Qed.

    Lemma read_dxH : read_data hw "dxH" t VNone =
      Ok (map (fun j => map (fun i => eval (dur (a + j * s)) (nth i (dxH m) (Num 0))) (seq 0 (length (c_x m)))) (seq 0 k)).
    Proof.
      apply (read_stores "dxH" (length (c_x m)) (fun r i => eval r (nth i (dxH m) (Num 0)))).
      - apply NI. cbn. tauto.
      - reflexivity.
      - intros st0 st u p (_ & _ & _ & _ & H & _). exact H.
    Qed.
    Lemma read_y : read_data hw "y" t VNone =
      Ok (map (fun j => map (fun i => eval (dur (a + j * s)) (nth i out (Num 0))) (seq 0 (length (c_y m)))) (seq 0 k)).
    Proof.
      apply (read_stores "y" (length (c_y m)) (fun r i => eval r (nth i out (Num 0)))).
      - apply NI. cbn. tauto.
      - reflexivity.
      - intros st0 st u p (_ & _ & _ & _ & _ & _ & H & _). exact H.
    Qed.

    Lemma einsum_maps n (f g : nat -> list R) : (forall j, length (f j) = n) -> (forall j, length (g j) = n) ->
      einsum (map f (seq 0 k)) (map g (seq 0 k)) = Ok (map (fun j => rsum n (fun i => nth i (f j) 0 * nth i (g j) 0)%R) (seq 0 k)).
    Proof.
      intros LF LG. unfold einsum. rewrite !map_length, Nat.eqb_refl, combine_map. cbn [andb].
      assert (B : forallb (fun p => length (fst p) =? length (snd p)) (map (fun x => (f x, g x)) (seq 0 k)) = true).
      { apply forallb_forall. intros p Hp. apply in_map_iff in Hp. destruct Hp as (j & <- & _). cbn. rewrite LF, LG. apply Nat.eqb_refl. }
      rewrite B, map_map. f_equal. apply map_ext. intros j. cbn [fst snd]. now apply dot_rsum.
    Qed.

    Lemma nth_seq_map (f : nat -> R) n i : i < n -> nth i (map f (seq 0 n)) 0%R = f i.
    Proof.
      intros Hi. rewrite nth_indep with (d' := f 0) by (now rewrite map_length, seq_length).
      now rewrite map_nth, seq_nth.
    Qed.
    Lemma nth_map_str (f : string -> R) l i : i < length l -> nth i (map f l) 0%R = f (nth i l "").
    Proof. intros Hi. rewrite nth_indep with (d' := f "") by (now rewrite map_length). now rewrite map_nth. Qed.

    Lemma ps_ok : ps_reader hw t = Ok (map (fun j => power_ports (dur (a + j * s)) m out) (seq 0 k)).
    Proof.
      unfold ps_reader. rewrite (read_group "u" (c_u m)) by (try reflexivity; apply NI; cbn; tauto). cbn [rbind].
      rewrite read_y. cbn [rbind]. pose proof W as ((_ & PU & _) & _).
      rewrite (einsum_maps (length (c_y m))).
      - f_equal. apply map_ext. intros j. unfold power_ports. apply rsum_ext. intros i Hi.
        rewrite nth_map_str, nth_seq_map by (try rewrite PU; exact Hi). reflexivity.
      - intros j. rewrite map_length. exact PU.
      - intros j. now rewrite map_length, seq_length.
    Qed.

    Lemma dtx_ok fs : dtx_reader fs hw t = Ok (map (fun j => map (fun i => (dur (a + j * s) (nth i (dx m) "") * fs)%R) (seq 0 (length (c_x m)))) (seq 0 k)).
    Proof.
      unfold dtx_reader. rewrite (read_group "dx" (dx m)) by (try reflexivity; apply NI; cbn; tauto). cbn [rbind].
      f_equal. rewrite map_map. apply map_ext. intros j. rewrite map_map.
      apply list_eq; [now rewrite !map_length, seq_length, dx_length|]. intros i Hi. rewrite map_length, seq_length in Hi.
      rewrite nth_seq_map by exact Hi. rewrite nth_map_str by (now rewrite dx_length). reflexivity.
    Qed.
  End Select.

  Section Select2.
    Variable w : window.
    Variable t : targ.
    Variables a b s k : nat.
    Hypothesis SE : selects nt w t a b s.
    Hypothesis C : counts a b s k.
    Let hw := with_window h w.

    Lemma dtE_dot_ok fs : dtE_dot fs hw t = Ok (map (fun j => stored_power fs (dur (a + j * s)) m) (seq 0 k)).
    Proof.
      pose proof (selects_inner w t a b s SE) as SI. fold hw in SI.
      unfold dtE_dot. unfold hw at 1. rewrite (read_dxH w _ a b s k SI C). cbn [rbind].
      unfold hw at 1. rewrite (dtx_ok w _ a b s k SI C). cbn [rbind].
      rewrite (einsum_maps k (length (c_x m))); try (intros j; now rewrite map_length, seq_length).
      f_equal. apply map_ext. intros j. unfold stored_power. apply rsum_ext. intros i Hi.
      now rewrite !nth_seq_map by exact Hi.
    Qed.

    Lemma args_rows : args hw t = Ok (map (fun j => map (dur (a + j * s)) (c_x m ++ dx m ++ c_w m ++ c_u m ++ c_p m)) (seq 0 k)).
    Proof.
      pose proof (selects_inner w t a b s SE) as SI. fold hw in SI. unfold args.
      assert (RG : forall name g, assoc name (groups m) = Some g -> In name names ->
        read_data hw name (inner hw t) VNone = Ok (map (fun j => map (dur (a + j * s)) g) (seq 0 k)))
        by (intros; now apply (read_group w _ a b s k SI C)).
      rewrite (RG "x" (c_x m)) by (try reflexivity; apply NI; cbn; tauto). cbn [rbind].
      rewrite (RG "dx" (dx m)) by (try reflexivity; apply NI; cbn; tauto). cbn [rbind].
      rewrite (RG "w" (c_w m)) by (try reflexivity; apply NI; cbn; tauto). cbn [rbind].
      rewrite (RG "u" (c_u m)) by (try reflexivity; apply NI; cbn; tauto). cbn [rbind].
      rewrite (RG "p" (c_p m)) by (try reflexivity; apply NI; cbn; tauto). cbn [rbind].
      do 3 (rewrite hcat_map; cbn [rbind]). rewrite hcat_map. f_equal. apply map_ext. intros j.
      now rewrite !map_app.
    Qed.

    Lemma args_ok : args hw t = Ok (map (fun j => map (dur (a + j * s)) (args_of m)) (seq 0 k)).
    Proof.
      rewrite args_rows. f_equal. apply map_ext. intros j. unfold args_of, o_of. rewrite OB. cbn [map]. now rewrite app_nil_r.
    Qed.

    Lemma expected : expected_nt hw t = ((Z.of_nat b - Z.of_nat a) / Z.of_nat s)%Z.
    Proof. unfold expected_nt, hw. now rewrite (tslice_selects h nt w t a b s eq_refl SE). Qed.

    Lemma expected_nonneg : (0 <= (Z.of_nat b - Z.of_nat a) / Z.of_nat s)%Z.
    Proof. destruct SE as (S0 & AB & _). apply Z.div_pos; lia. Qed.

    Lemma o_ok : o_reader nu hw t = Ok (repeat [] (Z.to_nat ((Z.of_nat b - Z.of_nat a) / Z.of_nat s))).
    Proof.
      unfold o_reader. fold m. rewrite OB. cbn [map]. unfold eval_inds. cbn [flat_map filter forallb]. fold m.
      assert (FE : snd (find String.eqb [] (args_of m)) = []).
      { apply length_zero_iff_nil. unfold find. rewrite find_inds_length. unfold among. cbn [existsb].
        induction (args_of m) as [|x l IH]; [reflexivity|exact IH]. }
      destruct (find String.eqb [] (args_of m)) as [nn vs]. cbn [snd] in FE. subst vs. cbn [rbind].
      rewrite expected. unfold zeros_rows. pose proof expected_nonneg. destruct (Z.ltb_spec ((Z.of_nat b - Z.of_nat a) / Z.of_nat s) 0); [lia|].
      reflexivity.
    Qed.
  End Select2.

  Section Select3.
    Variable w : window.
    Variable t : targ.
    Variables a b s k : nat.
    Hypothesis SE : selects nt w t a b s.
    Hypothesis C : counts a b s k.
    Let hw := with_window h w.

    Lemma args_o_ok : Nat.modulo (b - a) s = 0 ->
      args_o nu hw t = Ok (map (fun j => map Some (map (dur (a + j * s)) (args_of m))) (seq 0 k)).
    Proof.
      intros D. pose proof (selects_inner w t a b s SE) as SI. fold hw in SI. unfold args_o.
      unfold hw at 1. rewrite (args_ok w _ a b s k SI C). cbn [rbind]. unfold hw at 1. rewrite (o_ok w _ a b s SI). cbn [rbind].
      destruct SE as (S0 & AB & _). rewrite (counts_div a b s k S0 AB C D).
      replace (repeat [] k) with (map (fun _ : nat => @nil item) (seq 0 k)).
      - rewrite map_map, hcat_map. f_equal. apply map_ext. intros j. now rewrite app_nil_r.
      - clear. generalize 0. induction k as [|q IH]; intros n; cbn; [reflexivity|now rewrite IH].
    Qed.

    Lemma args_o_fails : Nat.modulo (b - a) s <> 0 -> args_o nu hw t = Err ValueError.
    Proof.
      intros D. pose proof (selects_inner w t a b s SE) as SI. fold hw in SI. unfold args_o.
      unfold hw at 1. rewrite (args_ok w _ a b s k SI C). cbn [rbind]. unfold hw at 1. rewrite (o_ok w _ a b s SI). cbn [rbind].
      unfold hcat. rewrite !map_length, seq_length, repeat_length.
      destruct (Nat.eqb_spec k (Z.to_nat ((Z.of_nat b - Z.of_nat a) / Z.of_nat s))) as [E|]; [|reflexivity]. exfalso.
      destruct SE as (S0 & AB & _). apply D.
      replace (Z.of_nat b - Z.of_nat a)%Z with (Z.of_nat (b - a)) in E by lia.
      rewrite <- Nat2Z.inj_div, Nat2Z.id in E.
      pose proof (Nat.div_mod (b - a) s ltac:(lia)) as DM. pose proof (Nat.mod_upper_bound (b - a) s ltac:(lia)).
      destruct (Nat.eq_dec ((b - a) mod s) 0) as [Z|NZ]; [exact Z|].
      assert (k < k); [|lia]. apply C. rewrite E at 1. nia.
    Qed.

  End Select3.

  Section Select4.
    Variable w : window.
    Variable t : targ.
    Variables a b s k : nat.
    Hypothesis SE : selects nt w t a b s.
    Hypothesis C : counts a b s k.
    Let hw := with_window h w.

    Lemma expression_ok e : known_symbols nu e -> Nat.modulo (b - a) s = 0 ->
      expression nu hw t e = Ok (map (fun j => eval (dur (a + j * s)) e) (seq 0 k)).
    Proof.
      intros K D. pose proof (selects_inner w t a b s SE) as SI. fold hw in SI. unfold expression.
      destruct (known_inds nu e K) as [-> A]. cbn [rbind].
      pose proof (fun st => eval_row_ok nu st e K) as ER. pose proof (fun st => eval_const nu st e K) as EC.
      destruct (find String.eqb (open_symbols nu [e]) (args_of (n_method nu))) as [nn vs]. cbn [snd] in EC.
      destruct vs as [|i vs].
      - unfold hw. rewrite (expected w t a b s SE). unfold zeros_rows. pose proof (expected_nonneg w t a b s SE).
        destruct (Z.ltb_spec ((Z.of_nat b - Z.of_nat a) / Z.of_nat s) 0); [lia|]. cbn [rbind].
        destruct SE as (S0 & AB & _). rewrite (counts_div a b s k S0 AB C D). f_equal.
        assert (Q : forall j, eval (dur (a + j * s)) e = eval (total (call_env (n_subs nu) [] [])) e)
          by (intros j; symmetry; now apply EC).
        rewrite (map_ext _ _ Q). clear. generalize 0. induction k as [|q IH]; intros n; cbn; [reflexivity|now rewrite <- IH].
      - assert (AO : args_o nu hw (inner hw t) = Ok (map (fun j => map Some (map (dur (a + j * s)) (args_of m))) (seq 0 k))).
        { apply (args_o_ok w _ a b s k SI C D). }
        rewrite AO. cbn [rbind].
        rewrite (rmap_pure _ (fun row => match pick_items (i :: vs) row with Ok l => eval (total (call_env (n_subs nu) nn l)) e | Err _ => 0%R end)).
        + f_equal. rewrite map_map. apply map_ext_in. intros j Hj. apply in_seq in Hj.
          destruct (step_state _ (step_lt w t a b s k SE C j ltac:(lia))) as (st & _ & -> & _).
          specialize (ER st). fold m in ER. unfold eval_row in ER. destruct (pick_items (i :: vs) _); cbn [rbind] in ER; [|discriminate].
          now injection ER.
        + intros row Hr. apply in_map_iff in Hr. destruct Hr as (j & <- & Hj). apply in_seq in Hj.
          destruct (step_state _ (step_lt w t a b s k SE C j ltac:(lia))) as (st & _ & -> & _).
          specialize (ER st). fold m in ER. unfold eval_row in *. destruct (pick_items (i :: vs) _); cbn [rbind] in *; [reflexivity|discriminate].
    Qed.

    Lemma expression_fails e x : known_symbols nu e -> In x (free_symbols e) -> In x (args_of m) -> Nat.modulo (b - a) s <> 0 ->
      expression nu hw t e = Err ValueError.
    Proof.
      intros K HX IX D. unfold expression. destruct (known_inds nu e K) as [-> A]. cbn [rbind].
      assert (NE : snd (find String.eqb (open_symbols nu [e]) (args_of (n_method nu))) <> []).
      { apply (inds_some nu [e] e x); [now left|exact HX|exact IX|]. destruct CL as (_ & CD & _). now apply CD. }
      destruct (find String.eqb (open_symbols nu [e]) (args_of (n_method nu))) as [nn vs]. cbn [snd] in NE.
      destruct vs as [|i vs]; [congruence|].
      assert (AO : args_o nu hw (inner hw t) = Err ValueError).
      { apply (args_o_fails w _ a b s k (selects_inner w t a b s SE) C D). }
      now rewrite AO.
    Qed.
    Lemma expression_fails_o e x oe xo : known_symbols nu e -> In x (free_symbols e) -> In x (args_of m) ->
      (forall o, In o (map snd (c_observers m)) -> known_symbols nu o) ->
      In oe (map snd (c_observers m)) -> In xo (free_symbols oe) -> In xo (args_of m) -> length (c_observers m) <> k ->
      expression nu hw t e = Err ValueError.
    Proof.
      intros K HX IX KO HO HXO IXO D. unfold expression. destruct (known_inds nu e K) as [-> A]. cbn [rbind].
      destruct CL as (_ & CD & _). fold m in CD.
      pose proof (inds_some nu [e] e x (or_introl eq_refl) HX IX (CD x IX)) as NE.
      destruct (find String.eqb (open_symbols nu [e]) (args_of (n_method nu))) as [nn vs]. cbn [snd] in NE.
      destruct vs as [|i vs]; [congruence|].
      pose proof (selects_inner w t a b s SE) as SI. pose proof (selects_inner w _ a b s SI) as SI2.
      unfold args_o. unfold hw at 1 2 3. fold hw. unfold hw. rewrite (args_rows w _ a b s k SI2 C). cbn [rbind].
      unfold o_reader. fold m. destruct (known_inds_all nu _ KO) as [-> _]. cbn [rbind].
      pose proof (inds_some nu _ oe xo HO HXO IXO (CD xo IXO)) as NO.
      destruct (find String.eqb (open_symbols nu (map snd (c_observers m))) (args_of (n_method nu))) as [no vo]. cbn [snd] in NO.
      destruct vo as [|q vo]; [congruence|].
      rewrite (args_rows w _ a b s k SI2 C). cbn [rbind].
      unfold hcat. rewrite !map_length, seq_length. destruct (Nat.eqb_spec k (length (c_observers m))); [congruence|reflexivity].
    Qed.
  End Select4.
End Readers.
