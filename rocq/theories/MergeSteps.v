(** Each merge keeps the behaviours; the loop stops and keeps them. *)
From Coq Require Import String List ZArith QArith Qreals Reals Bool Lra Lia Permutation.
From Verif Require Import Py Expr RSum Mat Core ExprProofs Spec_Calculus Calculus Deriv CalculusProofs Merge Spec_Merge MergeProofs MergeBehave.
Import ListNotations.
Local Open Scope string_scope.
Local Open Scope list_scope.
Local Open Scope R_scope.

Definition pre (stor : bool) : string := if stor then "x" else "w".

Lemma sctrl_eqb_eq a b : sctrl_eqb a b = true <-> a = b.
Proof. destruct a, b; cbn; split; congruence. Qed.
Lemma in_class_iff stor c e : in_class stor c e = true <-> s_stor e = stor /\ s_ctrl e = c.
Proof. unfold in_class. rewrite andb_true_iff, Bool.eqb_true_iff, sctrl_eqb_eq. tauto. Qed.

Lemma filter_split {A} (f : A -> bool) l : Permutation l (filter (fun a => negb (f a)) l ++ filter f l).
Proof.
  induction l as [|a l IH]; cbn; [constructor|]. destruct (f a); cbn.
  - transitivity (a :: filter (fun a => negb (f a)) l ++ filter f l); [now constructor|]. apply Permutation_middle.
  - now constructor.
Qed.

Lemma sum_over_perm l l' f : Permutation l l' -> sum_over l f = sum_over l' f.
Proof. intros H. unfold sum_over. apply lsum_perm. now apply Permutation_map. Qed.
Lemma sum_over_app l l' f : sum_over (l ++ l') f = sum_over l f + sum_over l' f.
Proof. unfold sum_over. rewrite map_app. apply lsum_app. Qed.

Section R.
Context (P : list string) (r : env) (g : subgraph) (k : string -> R) (stor : bool) (c : sctrl) (new : sedge) (H' : expr) (K : R).
Hypothesis HL : linear_with P r g k.
Hypothesis HN : names_ok P g.
Let l := class stor c g.
Let rest := filter (fun e => negb (in_class stor c e)) (g_group g).
Let g' := replace_class stor c new H' g.
Hypothesis Hlen : (length l > 1)%nat.
Hypothesis Hc : stor = true -> c <> SI.
Hypothesis Hn1 : s_stor new = stor.
Hypothesis Hn2 : s_ctrl new = c.
Hypothesis Hn3 : s_label new = merged_name (pre stor) (map s_label l).
Hypothesis HK : 0 < K.

Definition k' (s : string) : R := if String.eqb s (s_label new) then K else k s.

Lemma group_perm : Permutation (g_group g) (rest ++ l).
Proof. apply filter_split. Qed.
Lemma labels_perm : Permutation (labels g) (map s_label rest ++ map s_label l).
Proof. unfold labels. rewrite <- map_app. apply Permutation_map, group_perm. Qed.
Lemma labels' : labels g' = map s_label rest ++ [s_label new].
Proof. unfold labels, g', replace_class. cbn. now rewrite map_app. Qed.

Lemma class_kept stor' c' : (stor', c') <> (stor, c) -> class stor' c' g' = class stor' c' g.
Proof.
  intros N. unfold class, g', replace_class. cbn [g_group]. rewrite filter_app. cbn [filter].
  assert (E : in_class stor' c' new = false).
  { apply Bool.not_true_iff_false. rewrite in_class_iff, Hn1, Hn2. intros [A B]. apply N. now subst. }
  rewrite E, app_nil_r. induction (g_group g) as [|e l0 IH]; cbn; [reflexivity|].
  destruct (in_class stor c e) eqn:E1; cbn.
  - rewrite IH. destruct (in_class stor' c' e) eqn:E2; [|reflexivity].
    apply in_class_iff in E1. apply in_class_iff in E2. destruct E1, E2. exfalso. apply N. congruence.
  - destruct (in_class stor' c' e); now rewrite IH.
Qed.
Lemma class_new : class stor c g' = [new].
Proof.
  unfold class, g', replace_class. cbn [g_group]. rewrite filter_app. cbn [filter].
  assert (E : in_class stor c new = true) by (apply in_class_iff; auto). rewrite E.
  assert (F : filter (in_class stor c) (filter (fun e => negb (in_class stor c e)) (g_group g)) = []).
  { induction (g_group g) as [|e l0 IH]; cbn; [reflexivity|]. destruct (in_class stor c e) eqn:E1; cbn; [exact IH|].
    rewrite E1. exact IH. }
  now rewrite F.
Qed.
Lemma names_kept stor' c' : (stor', c') <> (stor, c) -> class_names stor' c' g' = class_names stor' c' g.
Proof. intros N. unfold class_names. now rewrite class_kept. Qed.
Lemma names_new : class_names stor c g' = [].
Proof. unfold class_names. now rewrite class_new. Qed.
Lemma names_old : class_names stor c g = [s_label new].
Proof.
  unfold class_names. fold l. destruct (Nat.leb_spec (length l) 1) as [L|L]; [lia|]. now rewrite Hn3.
Qed.

Lemma names_count s :
  (count_occ string_dec (new_names g) s = count_occ string_dec (new_names g') s + count_occ string_dec [s_label new] s)%nat.
Proof.
  assert (G : forall stor' c', count_occ string_dec (class_names stor' c' g) s =
    (count_occ string_dec (class_names stor' c' g') s +
     (if Bool.eqb stor' stor && sctrl_eqb c' c then count_occ string_dec [s_label new] s else 0))%nat).
  { intros stor' c'. destruct (Bool.eqb stor' stor && sctrl_eqb c' c) eqn:E.
    - apply andb_true_iff in E. destruct E as [E1 E2]. apply Bool.eqb_prop in E1. apply sctrl_eqb_eq in E2. subst stor' c'.
      rewrite names_new, names_old. reflexivity.
    - rewrite names_kept; [lia|]. intros E'. injection E' as -> ->. rewrite Bool.eqb_reflx in E.
      now rewrite (proj2 (sctrl_eqb_eq c c) eq_refl) in E. }
  unfold new_names. rewrite !count_occ_app, !G. generalize (count_occ string_dec [s_label new] s). intros n.
  pose proof Hc as Hc0. clear - Hc0. destruct stor, c; cbn; try (exfalso; now apply Hc0); lia.
Qed.

Lemma all_count s :
  (count_occ string_dec (labels g ++ new_names g) s =
   count_occ string_dec (labels g' ++ new_names g') s + count_occ string_dec (map s_label l) s)%nat.
Proof.
  rewrite !count_occ_app, names_count, labels', count_occ_app.
  pose proof (proj1 (Permutation_count_occ string_dec _ _) labels_perm s) as E. rewrite count_occ_app in E. lia.
Qed.

Lemma names_incl s : In s (labels g' ++ new_names g') -> In s (labels g ++ new_names g).
Proof.
  rewrite !(count_occ_In string_dec). pose proof (all_count s). lia.
Qed.

Lemma names_ok' : names_ok P g'.
Proof.
  destruct HN as (N1 & N2 & N3). split; [|split].
  - rewrite (NoDup_count_occ string_dec) in *. intros s. specialize (N1 s). pose proof (all_count s). lia.
  - intros s Hs Hi. apply (N2 s Hs). now apply names_incl.
  - intros s Hs Hi. apply (N3 s).
    + destruct Hs as [Hs|Hs]; [now left|]. right. eapply ynames_incl; [|exact Hs].
      unfold g', replace_class. cbn [g_group]. rewrite app_length. cbn.
      pose proof (Permutation_length group_perm) as E. rewrite app_length in E. fold rest. lia.
    + apply in_app_or in Hi. apply in_or_app. destruct Hi as [Hi|Hi]; [now left|]. right. now apply names_incl.
Qed.

Lemma new_fresh : ~ In (s_label new) (labels g).
Proof.
  destruct HN as (N1 & _ & _). intros Hi. rewrite (NoDup_count_occ string_dec) in N1. specialize (N1 (s_label new)).
  rewrite count_occ_app in N1. apply (count_occ_In string_dec) in Hi. pose proof (names_count (s_label new)) as E.
  cbn in E. destruct (string_dec (s_label new) (s_label new)); [lia|congruence].
Qed.
Lemma rest_in e : In e rest -> In e (g_group g).
Proof. intros H. apply filter_In in H. apply H. Qed.
Lemma l_in e : In e l -> In e (g_group g) /\ s_stor e = stor /\ s_ctrl e = c.
Proof. intros H. apply filter_In in H. destruct H as [H1 H2]. apply in_class_iff in H2. tauto. Qed.
Lemma k'_old e : In e (g_group g) -> k' (s_label e) = k (s_label e).
Proof.
  intros H. unfold k'. destruct (String.eqb_spec (s_label e) (s_label new)) as [E|]; [|reflexivity].
  exfalso. apply new_fresh. rewrite <- E. now apply in_map.
Qed.
Lemma k'_new : k' (s_label new) = K.
Proof. unfold k'. now rewrite String.eqb_refl. Qed.

Hypothesis Hlaw : match s_stor new, s_ctrl new with
    | true, c => c <> SI
    | false, SE => linear_law P r (s_label new) (s_ze new) K
    | false, SF => linear_law P r (s_label new) (s_zf new) K
    | false, SI => linear_law P r (s_label new) (s_ze new) K /\
                   linear_law P r (s_label new) (s_zf new) (/ K)
    end.
Hypothesis Henergy : exists c0, forall r', same_on P r r' -> smooth r' H' /\
     eval r' H' = c0 + sum_over (rest ++ [new]) (storage_energy k' r').

Lemma linear_with' : linear_with P r g' k'.
Proof.
  destruct HL as (R0 & _ & HE). split; [exact R0|]. split; [exact Henergy|].
  intros e He. unfold g', replace_class in He. cbn [g_group] in He. apply in_app_or in He.
  destruct He as [He|[<-|[]]].
  - apply rest_in in He. rewrite k'_old by exact He. now apply HE.
  - rewrite k'_new. split; [exact HK|exact Hlaw].
Qed.

Hypothesis Hcode : exists kd, (forall e, In e l -> fst (code (g_real g) k e) = kd) /\
  code (g_real g) k' new = (kd, merged_k kd (map (fun e => snd (code (g_real g) k e)) l)).

Lemma code_pos e : In e (g_group g) -> 0 < snd (code (g_real g) k e).
Proof.
  intros He. destruct HL as (R0 & _ & HE). destruct (HE e He) as [Hk _].
  pose proof (Rinv_0_lt_compat _ Hk) as Hi. unfold code.
  destruct (s_stor e); [exact Hk|]. cbn. destruct (s_ctrl e), (g_real g); cbn; assumption.
Qed.

Lemma nb_replace a b : nb (map (code (g_real g) k) (g_group g)) a b <->
  nb (map (code (g_real g) k') (g_group g')) a b.
Proof.
  destruct Hcode as (kd & C1 & C2).
  assert (PM : Permutation (map (code (g_real g) k) (g_group g)) (map (code (g_real g) k) rest ++ map (code (g_real g) k) l)).
  { rewrite <- map_app. apply Permutation_map, group_perm. }
  assert (E1 : map (code (g_real g) k) l = map (fun x => (kd, x)) (map (fun e => snd (code (g_real g) k e)) l)).
  { rewrite map_map. apply map_ext_in. intros e He. rewrite <- (C1 e He). apply surjective_pairing. }
  assert (E2 : map (code (g_real g) k') rest = map (code (g_real g) k) rest).
  { apply map_ext_in. intros e He. unfold code. now rewrite k'_old by now apply rest_in. }
  set (ks := map (fun e => snd (code (g_real g) k e)) l) in *.
  assert (NE : ks <> []).
  { unfold ks. intros E. apply map_eq_nil in E. rewrite E in Hlen. cbn in Hlen. lia. }
  assert (Pos : forall x, In x ks -> 0 < x).
  { intros x Hx. unfold ks in Hx. apply in_map_iff in Hx. destruct Hx as (e & <- & He). apply code_pos. now apply l_in. }
  assert (M : forall a b, nb (map (code (g_real g) k) l) a b <-> nb [code (g_real g) k' new] a b).
  { intros a0 b0. rewrite E1, (nb_merge kd ks NE Pos), C2. cbn. split.
    - intros (X & H). exists X, b0, (fun _ => 0). repeat split; auto. intros t. ring.
    - intros (X & b1 & b2 & H1 & H2 & H3). exists X. eapply nlaw_ext; [reflexivity| |exact H1].
      intros t. rewrite H3, H2. ring. }
  transitivity (nb (map (code (g_real g) k) rest ++ map (code (g_real g) k) l) a b).
  { split; apply nb_perm; [exact PM|now apply Permutation_sym]. }
  unfold g', replace_class. cbn [g_group]. fold rest. rewrite map_app, E2. cbn [map].
  rewrite !nb_app. split; intros (b1 & b2 & H1 & H2 & H3); exists b1, b2; (split; [exact H1|]); (split; [|exact H3]); now apply M.
Qed.

Lemma replace_ok : linear_with P r g' k' /\ names_ok P g' /\ (length (g_group g') < length (g_group g))%nat /\
  forall E F, behaviour r g E F <-> behaviour r g' E F.
Proof.
  split; [exact linear_with'|]. split; [exact names_ok'|]. split.
  { unfold g', replace_class. cbn [g_group]. rewrite app_length. cbn.
    pose proof (Permutation_length group_perm) as E. rewrite app_length in E. fold rest. lia. }
  intros E F. destruct HN as (N1 & N2 & N3). destruct names_ok' as (M1 & M2 & M3).
  assert (ND : forall a b : list string, NoDup (a ++ b) -> NoDup a).
  { induction a as [|s a IH]; intros b N; [constructor|]. cbn in N. inversion N; subst. constructor.
    - intros Hi. apply H1. apply in_or_app. now left.
    - now apply (IH b). }
  rewrite (behaviour_nb P r g k HL (ND _ _ N1)) by (intros s Hs Hi; apply (N2 s Hs); apply in_or_app; now left).
  rewrite (behaviour_nb P r g' k' linear_with' (ND _ _ M1)) by (intros s Hs Hi; apply (M2 s Hs); apply in_or_app; now left).
  change (g_real g') with (g_real g).
  pose proof nb_replace as NR. destruct HL as ([R0|R0] & _); rewrite R0 in *; apply NR.
Qed.
End R.

(** ** The five methods *)
Section M.
Context (P : list string) (r : env).

Definition good (g : subgraph) : Prop := linear_group P r g /\ names_ok P g.
(** What a successful method guarantees. *)
Definition kept (g : subgraph) (res : result (option subgraph)) (stor : bool) (c : sctrl) : Prop :=
  (res = Ok None /\ (length (class stor c g) <= 1)%nat) \/
  exists g', res = Ok (Some g') /\ good g' /\ (length (g_group g') < length (g_group g))%nat /\
    forall E F, behaviour r g E F <-> behaviour r g' E F.

Lemma NoDup_left {A} (a b : list A) : NoDup (a ++ b) -> NoDup a.
Proof.
  revert b. induction a as [|s a IH]; intros b N; [constructor|]. cbn in N. inversion N; subst. constructor.
  - intros Hi. apply H1. apply in_or_app. now left.
  - now apply (IH b).
Qed.

Lemma class_facts g stor c : names_ok P g ->
  (forall a, In a (map s_label (class stor c g)) -> In a (labels g)) /\
  scratch_ok P (map s_label (class stor c g)).
Proof.
  intros (N1 & N2 & N3).
  assert (I : forall a, In a (map s_label (class stor c g)) -> In a (labels g)).
  { intros a Ha. apply in_map_iff in Ha. destruct Ha as (e & <- & He). apply filter_In in He. apply in_map. apply He. }
  split; [exact I|].
  assert (LE : (length (map s_label (class stor c g)) <= length (g_group g))%nat).
  { rewrite map_length. unfold class. clear. induction (g_group g) as [|e l IH]; cbn; [lia|].
    destruct (in_class stor c e); cbn; lia. }
  assert (J : forall s, s = "Y" \/ In s (ynames (length (map s_label (class stor c g)))) -> ~ In s (P ++ labels g ++ new_names g)).
  { intros s Hs. apply N3. destruct Hs as [Hs|Hs]; [now left|]. right. eapply ynames_incl; [exact LE|exact Hs]. }
  split; [|split; [|split]].
  - intros a Ha Hp. apply (N2 a Hp). apply in_or_app. left. now apply I.
  - intros a Ha Hy. apply (J a); [now right|]. apply in_or_app. right. apply in_or_app. left. now apply I.
  - intros a Ha Hp. apply (J a); [now right|]. apply in_or_app. now left.
  - intros Hp. apply (J "Y"); [now left|]. apply in_or_app. now left.
Qed.

Lemma name_fresh g stor c : names_ok P g -> (stor = true -> c <> SI) -> (length (class stor c g) > 1)%nat ->
  ~ In (merged_name (pre stor) (map s_label (class stor c g))) (labels g).
Proof.
  intros (N1 & _ & _) Hc L Hi.
  assert (In (merged_name (pre stor) (map s_label (class stor c g))) (new_names g)).
  { assert (E : class_names stor c g = [merged_name (pre stor) (map s_label (class stor c g))]).
    { unfold class_names. destruct (Nat.leb_spec (length (class stor c g)) 1); [lia|reflexivity]. }
    unfold new_names. rewrite !in_app_iff. destruct stor, c; try (exfalso; now apply Hc); rewrite E; cbn; auto 10. }
  rewrite (NoDup_count_occ string_dec) in N1. specialize (N1 (merged_name (pre stor) (map s_label (class stor c g)))).
  rewrite count_occ_app in N1. apply (count_occ_In string_dec) in Hi, H. lia.
Qed.

(** The oriented laws of a class. *)
Lemma forms_ok q (f : sedge -> R) : forall l,
  (forall e, In e l -> ~ In (s_label e) P) ->
  (forall e, In e l -> match q with SE => linear_law P r (s_label e) (s_ze e) (f e)
                                  | SF => linear_law P r (s_label e) (s_zf e) (f e) | SI => False end) ->
  exists z, oriented_forms q l = Ok z /\ length z = length l /\
    Forall2 (fun p kk => lin P r (fst p) (snd p) kk) (combine z (map s_label l)) (map f l).
Proof.
  induction l as [|e l IH]; intros HP H; [exists []; repeat split; constructor|].
  destruct IH as (z & E & L & F).
  { intros e' He. apply HP. now right. } { intros e' He. apply H. now right. }
  assert (G : exists z0, form q e = Ok z0 /\ lin P r z0 (s_label e) (f e)).
  { specialize (H e (or_introl eq_refl)). unfold form. destruct q; [| |destruct H];
      destruct H as (z0 & -> & Hz); exists z0; split; [reflexivity|exact Hz|reflexivity|exact Hz]. }
  destruct G as (z0 & E0 & H0). exists (orient e z0 :: z). unfold oriented_forms in *. cbn [rmap]. rewrite E0. cbn [rbind].
  rewrite E. cbn [rbind]. split; [reflexivity|]. split; [cbn; now rewrite L|]. cbn. constructor; [|exact F].
  apply lin_orient; [exact H0|]. apply HP. now left.
Qed.

Lemma class_law g k stor c e : linear_with P r g k -> In e (class stor c g) ->
  0 < k (s_label e) /\
    match stor, c with
    | true, c => c <> SI
    | false, SE => linear_law P r (s_label e) (s_ze e) (k (s_label e))
    | false, SF => linear_law P r (s_label e) (s_zf e) (k (s_label e))
    | false, SI => linear_law P r (s_label e) (s_ze e) (k (s_label e)) /\
                   linear_law P r (s_label e) (s_zf e) (/ k (s_label e))
    end.
Proof.
  intros (_ & _ & HE) He. apply filter_In in He. destruct He as [H1 H2]. apply in_class_iff in H2. destruct H2 as [<- <-].
  now apply HE.
Qed.

Lemma map_inv_inv (f : sedge -> R) l : map Rinv (map (fun e => / f e) l) = map f l.
Proof. rewrite map_map. apply map_ext. intros e. apply Rinv_inv. Qed.

Lemma energy_kept g k new K stor c : linear_with P r g k -> names_ok P g -> stor = false -> s_stor new = false -> s_ctrl new = c ->
  s_label new = merged_name (pre stor) (map s_label (class stor c g)) -> (length (class stor c g) > 1)%nat ->
  exists c0, forall r', same_on P r r' -> smooth r' (g_H g) /\
     eval r' (g_H g) = c0 + sum_over (filter (fun e => negb (in_class stor c e)) (g_group g) ++ [new]) (storage_energy (k' k new K) r').
Proof.
  intros HL HN Hst Hnew Hnc Hlab Hlen. pose proof HL as (_ & (c0 & HH) & _). exists c0. intros r' Hr. destruct (HH r' Hr) as [S1 S2].
  split; [exact S1|]. rewrite S2. f_equal.
  rewrite (sum_over_perm _ _ _ (filter_split (in_class stor c) (g_group g))), !sum_over_app. f_equal.
  - unfold sum_over. f_equal. apply map_ext_in. intros e He. unfold storage_energy. destruct (s_stor e); [|reflexivity].
    rewrite (k'_old P g k stor c new (Num 0) K); auto.
    + intros E. subst stor. discriminate.
    + now rewrite Hst.
    + apply filter_In in He. apply He.
  - assert (Z : sum_over (filter (in_class stor c) (g_group g)) (storage_energy k r') = 0).
    { assert (A : forall l, (forall e, In e l -> s_stor e = false) -> sum_over l (storage_energy k r') = 0).
      { induction l as [|e l IH]; intros A; [reflexivity|]. unfold sum_over in *. cbn.
        rewrite IH by (intros; apply A; now right). unfold storage_energy. rewrite A by now left. ring. }
      apply A. intros e He. apply filter_In in He. destruct He as [_ He]. apply in_class_iff in He. rewrite Hst in He. apply He. }
    rewrite Z. unfold sum_over. cbn. unfold storage_energy. rewrite Hnew. ring.
Qed.

Lemma nonempty_labels g stor c : (length (class stor c g) > 1)%nat -> map s_label (class stor c g) <> [].
Proof. intros L E. apply map_eq_nil in E. rewrite E in L. cbn in L. lia. Qed.

Lemma keeps g g' k k1 : linear_with P r g' k1 /\ names_ok P g' /\ (length (g_group g') < length (g_group g))%nat /\
  (forall E F, behaviour r g E F <-> behaviour r g' E F) -> forall res stor c, res = Ok (Some g') -> linear_with P r g k -> kept g res stor c.
Proof.
  intros (A & B & C & D) res stor c E _. right. exists g'. split; [exact E|]. split; [split; [now exists k1|exact B]|]. auto.
Qed.

Lemma merge_rc_diss_kept g : good g -> kept g (merge_rc_dissipatives g) false (g_real g).
Proof.
  intros [[k HL] HN]. unfold merge_rc_dissipatives. set (q := g_real g). set (l := class false q g).
  destruct (Nat.leb_spec (length l) 1) as [L|L]; [left; auto|].
  pose proof HL as (HR & _). destruct (class_facts g false q HN) as [I SO]. fold l in I, SO.
  assert (CL : forall e, In e l -> _) by (exact (fun e He => class_law g k false q e HL He)).
  destruct (forms_ok q (fun e => k (s_label e)) l) as (z & Ez & Lz & Fz).
  { intros e He. apply (proj1 SO). now apply in_map. }
  { intros e He. destruct (CL e He) as [_ C]. fold q in HR. destruct HR as [R0|R0]; rewrite R0 in *; exact C. }
  rewrite Ez. cbn [rbind].
  destruct (merge_rc_diss_ok P r (map s_label l) z (map (fun e => k (s_label e)) l)) as [M1 M2].
  { apply (proj1 SO). } { intros Hi. apply (name_fresh g false q HN ltac:(discriminate) L). now apply I. }
  { now rewrite map_length. } { exact Fz. }
  destruct (realizable_merge_dissipatives (map s_label l) z) as [W Z]. cbn [fst snd] in M1, M2. subst W.
  set (new := new_diss q (merged_name "w" (map s_label l)) Z).
  set (K := lsum (map (fun e => k (s_label e)) l)) in *.
  assert (HK : 0 < K).
  { apply lsum_pos; [intros E; apply map_eq_nil in E; rewrite E in L; cbn in L; lia|].
    intros x Hx. apply in_map_iff in Hx. destruct Hx as (e & <- & He). now apply CL. }
  eapply (keeps g _ k (k' k new K)); [|reflexivity|exact HL].
  apply replace_ok; try assumption; try reflexivity; try discriminate.
  - unfold new, new_diss. cbn. fold q in HR. destruct HR as [R0|R0]; rewrite R0 in *; exists Z; split; try reflexivity; exact M2.
  - apply energy_kept; auto.
  - exists DD. split.
    + intros e He. apply filter_In in He. destruct He as [_ He]. apply in_class_iff in He. destruct He as [H1 H2].
      unfold code. rewrite H1. reflexivity.
    + assert (E : forall e, In e l -> snd (code (g_real g) k e) = k (s_label e)).
      { intros e He. apply filter_In in He. destruct He as [_ He]. apply in_class_iff in He. destruct He as [H1 H2].
        unfold code. rewrite H1, H2. unfold q. fold q in HR. destruct HR as [R0|R0]; unfold q in R0; rewrite R0; reflexivity. }
      fold l. rewrite (map_ext_in _ _ l E). cbn [merged_k]. fold K. unfold code. rewrite k'_new. cbn [new new_diss s_stor s_ctrl].
      unfold q in *. destruct HR as [R0|R0]; rewrite R0; reflexivity.
Qed.

Lemma merge_arc_diss_kept g : good g -> kept g (merge_arc_dissipatives g) false (anti (g_real g)).
Proof.
  intros [[k HL] HN]. unfold merge_arc_dissipatives. set (q := anti (g_real g)). set (l := class false q g).
  destruct (Nat.leb_spec (length l) 1) as [L|L]; [left; auto|].
  pose proof HL as (HR & _). destruct (class_facts g false q HN) as [I SO]. fold l in I, SO.
  assert (CL : forall e, In e l -> _) by (exact (fun e He => class_law g k false q e HL He)).
  destruct (forms_ok q (fun e => k (s_label e)) l) as (z & Ez & Lz & Fz).
  { intros e He. apply (proj1 SO). now apply in_map. }
  { intros e He. destruct (CL e He) as [_ C]. unfold q in *. destruct HR as [R0|R0]; rewrite R0 in *; exact C. }
  rewrite Ez. cbn [rbind].
  assert (Pos : forall x, In x (map (fun e => k (s_label e)) l) -> 0 < x).
  { intros x Hx. apply in_map_iff in Hx. destruct Hx as (e & <- & He). now apply CL. }
  destruct (merge_arc_diss_ok P r (map s_label l) z (map (fun e => k (s_label e)) l)) as (Z & EZ & HZ).
  { now apply nonempty_labels. } { exact SO. } { now rewrite map_length. } { exact Fz. } { exact Pos. }
  rewrite EZ. cbn [rbind].
  set (new := new_diss q (merged_name "w" (map s_label l)) Z).
  set (K := / inv_sum (map (fun e => k (s_label e)) l)) in *.
  assert (HK : 0 < K).
  { apply Rinv_0_lt_compat, inv_sum_pos; [intros E; apply map_eq_nil in E; rewrite E in L; cbn in L; lia|exact Pos]. }
  eapply (keeps g _ k (k' k new K)); [|reflexivity|exact HL].
  apply replace_ok; try assumption; try reflexivity; try discriminate.
  - unfold new, new_diss. cbn. unfold q in *. destruct HR as [R0|R0]; rewrite R0 in *; exists Z; split; try reflexivity; exact HZ.
  - apply energy_kept; auto.
  - exists DD. split.
    + intros e He. apply filter_In in He. destruct He as [_ He]. apply in_class_iff in He. destruct He as [H1 H2].
      unfold code. rewrite H1. reflexivity.
    + assert (E : forall e, In e l -> snd (code (g_real g) k e) = / k (s_label e)).
      { intros e He. apply filter_In in He. destruct He as [_ He]. apply in_class_iff in He. destruct He as [H1 H2].
        unfold code. rewrite H1, H2. unfold q. destruct HR as [R0|R0]; rewrite R0; reflexivity. }
      fold l. rewrite (map_ext_in _ _ l E). cbn [merged_k]. unfold code. rewrite k'_new. cbn [new new_diss s_stor s_ctrl].
      assert (EK : / K = lsum (map (fun e => / k (s_label e)) l)).
      { unfold K, inv_sum. now rewrite Rinv_inv, map_map. }
      unfold q in *. destruct HR as [R0|R0]; rewrite R0; cbn; now rewrite EK.
Qed.

Lemma merge_ic_diss_kept g : good g -> kept g (merge_ic_dissipatives g) false SI.
Proof.
  intros [[k HL] HN]. unfold merge_ic_dissipatives. set (q := g_real g). set (l := class false SI g).
  destruct (Nat.leb_spec (length l) 1) as [L|L]; [left; auto|].
  pose proof HL as (HR & _). destruct (class_facts g false SI HN) as [I SO]. fold l in I, SO.
  assert (CL : forall e, In e l -> _) by (exact (fun e He => class_law g k false SI e HL He)).
  set (f := fun c e => match c with SE => k (s_label e) | _ => / k (s_label e) end).
  assert (Pos : forall c x, In x (map (f c) l) -> 0 < x).
  { intros c x Hx. apply in_map_iff in Hx. destruct Hx as (e & <- & He). destruct (CL e He) as [Hp _].
    unfold f. destruct c; [exact Hp|now apply Rinv_0_lt_compat|now apply Rinv_0_lt_compat]. }
  assert (FO : forall c, c = SE \/ c = SF -> exists z, oriented_forms c l = Ok z /\ length z = length l /\
     Forall2 (fun p kk => lin P r (fst p) (snd p) kk) (combine z (map s_label l)) (map (f c) l)).
  { intros c Hc. apply forms_ok.
    - intros e He. apply (proj1 SO). now apply in_map.
    - intros e He. destruct (CL e He) as [_ [C1 C2]]. destruct Hc as [-> | ->]; cbn; assumption. }
  destruct (FO q HR) as (z & Ez & Lz & Fz).
  destruct (FO (anti q)) as (z2 & Ez2 & Lz2 & Fz2). { destruct HR as [R0|R0]; unfold q; rewrite R0; auto. }
  rewrite Ez. cbn [rbind].
  destruct (merge_rc_diss_ok P r (map s_label l) z (map (f q) l)) as [M1 M2].
  { apply (proj1 SO). } { intros Hi. apply (name_fresh g false SI HN ltac:(discriminate) L). now apply I. }
  { now rewrite map_length. } { exact Fz. }
  destruct (realizable_merge_dissipatives (map s_label l) z) as [W Z]. cbn [fst snd] in M1, M2. subst W.
  rewrite Ez2. cbn [rbind].
  destruct (merge_arc_diss_ok P r (map s_label l) z2 (map (f (anti q)) l)) as (Z2 & EZ & HZ).
  { now apply nonempty_labels. } { exact SO. } { now rewrite map_length. } { exact Fz2. } { apply Pos. }
  rewrite EZ. cbn [rbind].
  set (new := match q with SE => _ | _ => _ end).
  assert (NE : forall h : sedge -> R, map h l <> []).
  { intros h E. apply map_eq_nil in E. rewrite E in L. cbn in L. lia. }
  set (K := match q with SE => lsum (map (f SE) l) | _ => / lsum (map (f SF) l) end).
  assert (HK : 0 < K).
  { unfold K. destruct q; [apply lsum_pos|apply Rinv_0_lt_compat, lsum_pos|apply Rinv_0_lt_compat, lsum_pos];
      try apply NE; apply Pos. }
  assert (IS1 : inv_sum (map (f SF) l) = lsum (map (f SE) l)).
  { unfold inv_sum, f. f_equal. apply map_inv_inv. }
  assert (IS2 : inv_sum (map (f SE) l) = lsum (map (f SF) l)).
  { unfold inv_sum, f. now rewrite map_map. }
  eapply (keeps g _ k (k' k new K)); [|reflexivity|exact HL].
  unfold q in *.
  apply replace_ok; try assumption; try discriminate.
  - unfold new. destruct HR as [R0|R0]; rewrite R0; reflexivity.
  - unfold new. destruct HR as [R0|R0]; rewrite R0; reflexivity.
  - unfold new. destruct HR as [R0|R0]; rewrite R0; reflexivity.
  - unfold new, K. destruct HR as [R0|R0]; rewrite R0 in *; cbn; split.
    + exists Z. split; [reflexivity|exact M2].
    + exists Z2. split; [reflexivity|]. rewrite <- IS1. exact HZ.
    + exists Z2. split; [reflexivity|]. rewrite <- IS2. exact HZ.
    + exists Z. split; [reflexivity|]. rewrite Rinv_inv. exact M2.
  - apply energy_kept; auto; unfold new; destruct HR as [R0|R0]; rewrite R0; reflexivity.
  - exists DD. split.
    + intros e He. apply filter_In in He. destruct He as [_ He]. apply in_class_iff in He. destruct He as [H1 H2].
      unfold code. rewrite H1. reflexivity.
    + assert (E : forall e, In e l -> snd (code (g_real g) k e) = f (g_real g) e).
      { intros e He. apply filter_In in He. destruct He as [_ He]. apply in_class_iff in He. destruct He as [H1 H2].
        unfold code. rewrite H1, H2. destruct HR as [R0|R0]; rewrite R0; reflexivity. }
      fold l. rewrite (map_ext_in _ _ l E). cbn [merged_k]. unfold code. rewrite k'_new. unfold new, K.
      destruct HR as [R0|R0]; rewrite R0; cbn; [reflexivity|]. now rewrite Rinv_inv.
Qed.

(** Storages. *)
Lemma dxH_ok g k c : linear_with P r g k -> names_ok P g ->
  Forall2 (fun p kk => lin P r (fst p) (snd p) kk)
    (combine (class_dxH (class true c g) (g_H g)) (map s_label (class true c g)))
    (map (fun e => k (s_label e)) (class true c g)).
Proof.
  intros HL HN. unfold class_dxH, gradient.
  assert (A : forall l, (forall e, In e l -> In e (g_group g) /\ s_stor e = true) ->
    Forall2 (fun p kk => lin P r (fst p) (snd p) kk)
      (combine (map (fun x => diff x (g_H g)) (map s_label l)) (map s_label l)) (map (fun e => k (s_label e)) l)).
  { induction l as [|e l IH]; intros Hl; [constructor|]. cbn. constructor; [|apply IH; intros; apply Hl; now right].
    destruct (Hl e (or_introl eq_refl)) as [He Hs]. cbn. intros r' Hr. pose proof HL as (_ & (c0 & HH) & _).
    destruct (HH r' Hr) as [S1 _]. split; [now apply smooth_diff|]. apply diff_val; [exact S1|].
    destruct HN as (N1 & N2 & _). apply (partial_at P r g k HL); auto.
    - now apply NoDup_left in N1.
    - intros s Hs' Hi. apply (N2 s Hs'). apply in_or_app. now left. }
  apply A. intros e He. apply filter_In in He. destruct He as [H1 H2]. apply in_class_iff in H2. tauto.
Qed.

Lemma oriented_ok l : forall H ks, (forall e, In e l -> ~ In (s_label e) P) ->
  Forall2 (fun p kk => lin P r (fst p) (snd p) kk) (combine (class_dxH l H) (map s_label l)) ks ->
  length (oriented_dxH l H) = length (map s_label l) /\
  Forall2 (fun p kk => lin P r (fst p) (snd p) kk) (combine (oriented_dxH l H) (map s_label l)) ks.
Proof.
  intros H. unfold oriented_dxH, class_dxH, gradient.
  induction l as [|e l IH]; intros ks HP F; cbn in *; [split; [reflexivity|exact F]|].
  inversion F as [|? k0 ? k1 F0 F1]; subst. destruct (IH k1) as [L G]; [intros; apply HP; now right|exact F1|].
  split; [now rewrite L|]. constructor; [|exact G]. cbn. apply lin_orient; [exact F0|]. apply HP. now left.
Qed.

Lemma class_energy_val g k c r' : linear_with P r g k -> names_ok P g -> same_on P r r' ->
  smooth r' (class_energy (class true c g) (g_H g)) /\
  eval r' (class_energy (class true c g) (g_H g)) = sum_over (class true c g) (storage_energy k r').
Proof.
  intros HL HN Hr. pose proof (dxH_ok g k c HL HN) as F. destruct (class_facts g true c HN) as [_ SO].
  unfold class_energy. assert (ST : forall e, In e (class true c g) -> s_stor e = true).
  { intros e He. apply filter_In in He. destruct He as [_ He]. apply in_class_iff in He. apply He. }
  destruct SO as [SO _]. revert F ST SO. generalize (class true c g) as l. intros l F ST SO.
  assert (A : Forall2 (fun e v => smooth r' e /\ eval r' e = v)
     (map (fun p => integ (fst p) (snd p)) (combine (class_dxH l (g_H g)) (map s_label l)))
     (map (storage_energy k r') l)).
  { unfold class_dxH, gradient in *. induction l as [|e l IH]; cbn in *; [constructor|].
    inversion F as [|? k0 ? k1 F0 F1]; subst. constructor.
    - cbn. destruct (integ_quad P r (diff (s_label e) (g_H g)) (s_label e) (k (s_label e)) F0) with (r' := r') as [A1 A2].
      + apply SO. now left.
      + exact Hr.
      + split; [exact A1|]. rewrite A2. unfold storage_energy. now rewrite ST by now left.
    - apply IH; [exact F1| |]; intros; [apply ST|apply SO]; now right. }
  split.
  - apply smooth_esum. intros e He. clear - A He. induction A as [|e' v es vs [A1 A2] A IH]; [destruct He|].
    destruct He as [<-|He]; [exact A1|now apply IH].
  - rewrite eval_esum. unfold sum_over. clear - A. induction A as [|e' v es vs [A1 A2] A IH]; cbn; [reflexivity|].
    now rewrite A2, IH.
Qed.

Lemma energy_changed g k new K c H0 : linear_with P r g k -> names_ok P g -> c <> SI -> s_stor new = true -> s_ctrl new = c ->
  s_label new = merged_name (pre true) (map s_label (class true c g)) -> (length (class true c g) > 1)%nat ->
  quad P r H0 (s_label new) (K / 2) ->
  exists c0, forall r', same_on P r r' ->
     smooth r' (sadd (ssub (g_H g) (class_energy (class true c g) (g_H g))) H0) /\
     eval r' (sadd (ssub (g_H g) (class_energy (class true c g) (g_H g))) H0) =
       c0 + sum_over (filter (fun e => negb (in_class true c e)) (g_group g) ++ [new]) (storage_energy (k' k new K) r').
Proof.
  intros HL HN Hc Hnew Hnc Hlab Hlen HQ. pose proof HL as (_ & (c0 & HH) & _). exists c0. intros r' Hr.
  destruct (HH r' Hr) as [S1 S2]. destruct (class_energy_val g k c r' HL HN Hr) as [C1 C2]. destruct (HQ r' Hr) as [Q1 Q2]. split.
  - apply smooth_sadd; [|exact Q1]. unfold ssub. apply smooth_sadd; [exact S1|]. now apply smooth_sneg.
  - rewrite eval_sadd, eval_ssub, S2, C2, Q2.
    rewrite (sum_over_perm _ _ _ (filter_split (in_class true c) (g_group g))), !sum_over_app.
    replace (sum_over (filter (fun e => negb (in_class true c e)) (g_group g)) (storage_energy (k' k new K) r')) with
      (sum_over (filter (fun e => negb (in_class true c e)) (g_group g)) (storage_energy k r')).
    + assert (EN : sum_over [new] (storage_energy (k' k new K) r') = K / 2 * r' (s_label new) ^ 2).
      { unfold sum_over. cbn [map fold_right]. unfold storage_energy. rewrite Hnew, k'_new. ring. }
      rewrite EN. unfold class. ring.
    + unfold sum_over. f_equal. apply map_ext_in. intros e He. unfold storage_energy. destruct (s_stor e); [|reflexivity].
      rewrite (k'_old P g k true c new (Num 0) K); auto. apply filter_In in He. apply He.
Qed.

Lemma merge_rc_stor_kept g : good g -> kept g (merge_rc_storages g) true (g_real g).
Proof.
  intros [[k HL] HN]. unfold merge_rc_storages. set (q := g_real g). set (l := class true q g).
  destruct (Nat.leb_spec (length l) 1) as [L|L]; [left; auto|].
  pose proof HL as (HR & _). destruct (class_facts g true q HN) as [I SO]. fold l in I, SO.
  pose proof (dxH_ok g k q HL HN) as F. fold l in F.
  apply oriented_ok in F; [|intros e He; apply (proj1 SO); now apply in_map]. destruct F as [Ld F].
  destruct (merge_rc_stor_ok P r (map s_label l) (oriented_dxH l (g_H g)) (map (fun e => k (s_label e)) l)) as [M1 M2].
  { apply (proj1 SO). } { exact Ld. } { exact F. }
  destruct (realizable_merge_storages (map s_label l) (oriented_dxH l (g_H g))) as [X H0]. cbn [fst snd] in M1, M2. subst X.
  set (new := mkSE true q (merged_name "x" (map s_label l)) None None true).
  set (K := lsum (map (fun e => k (s_label e)) l)) in *.
  assert (NSI : q <> SI) by (unfold q; destruct HR as [R0|R0]; rewrite R0; discriminate).
  assert (HK : 0 < K).
  { apply lsum_pos; [intros E; apply map_eq_nil in E; rewrite E in L; cbn in L; lia|].
    intros x Hx. apply in_map_iff in Hx. destruct Hx as (e & <- & He). now apply (class_law g k true q e HL He). }
  eapply (keeps g _ k (k' k new K)); [|reflexivity|exact HL].
  apply replace_ok; try assumption; try reflexivity; try (intros; exact NSI).
  - apply energy_changed; auto.
  - exists RS. split.
    + intros e He. apply filter_In in He. destruct He as [_ He]. apply in_class_iff in He. destruct He as [H1 H2].
      unfold code. rewrite H1, H2. unfold q. destruct HR as [R0|R0]; rewrite R0; reflexivity.
    + assert (E : forall e, In e l -> snd (code (g_real g) k e) = k (s_label e)).
      { intros e He. apply filter_In in He. destruct He as [_ He]. apply in_class_iff in He. destruct He as [H1 H2].
        unfold code. now rewrite H1. }
      fold l. rewrite (map_ext_in _ _ l E). cbn [merged_k]. fold K. unfold code. rewrite k'_new. cbn [new new_diss s_stor s_ctrl].
      unfold q in *. destruct HR as [R0|R0]; rewrite R0; reflexivity.
Qed.

Lemma merge_arc_stor_kept g : good g -> kept g (merge_arc_storages g) true (anti (g_real g)).
Proof.
  intros [[k HL] HN]. unfold merge_arc_storages. set (q := anti (g_real g)). set (l := class true q g).
  destruct (Nat.leb_spec (length l) 1) as [L|L]; [left; auto|].
  pose proof HL as (HR & _). destruct (class_facts g true q HN) as [I SO]. fold l in I, SO.
  pose proof (dxH_ok g k q HL HN) as F. fold l in F.
  apply oriented_ok in F; [|intros e He; apply (proj1 SO); now apply in_map]. destruct F as [Ld F].
  assert (Pos : forall x, In x (map (fun e => k (s_label e)) l) -> 0 < x).
  { intros x Hx. apply in_map_iff in Hx. destruct Hx as (e & <- & He). now apply (class_law g k true q e HL He). }
  destruct (merge_arc_stor_ok P r (map s_label l) (oriented_dxH l (g_H g)) (map (fun e => k (s_label e)) l)) as (H0 & EH & HQ).
  { now apply nonempty_labels. } { exact SO. } { exact Ld. } { exact F. } { exact Pos. }
  rewrite EH. cbn [rbind].
  set (new := mkSE true q (merged_name "x" (map s_label l)) None None true).
  set (K := / inv_sum (map (fun e => k (s_label e)) l)) in *.
  assert (NSI : q <> SI) by (unfold q; destruct HR as [R0|R0]; rewrite R0; discriminate).
  assert (HK : 0 < K).
  { apply Rinv_0_lt_compat, inv_sum_pos; [intros E; apply map_eq_nil in E; rewrite E in L; cbn in L; lia|exact Pos]. }
  eapply (keeps g _ k (k' k new K)); [|reflexivity|exact HL].
  apply replace_ok; try assumption; try reflexivity; try (intros; exact NSI).
  - apply energy_changed; auto.
  - exists AS. split.
    + intros e He. apply filter_In in He. destruct He as [_ He]. apply in_class_iff in He. destruct He as [H1 H2].
      unfold code. rewrite H1, H2. unfold q. destruct HR as [R0|R0]; rewrite R0; reflexivity.
    + assert (E : forall e, In e l -> snd (code (g_real g) k e) = k (s_label e)).
      { intros e He. apply filter_In in He. destruct He as [_ He]. apply in_class_iff in He. destruct He as [H1 H2].
        unfold code. now rewrite H1. }
      fold l. rewrite (map_ext_in _ _ l E). cbn [merged_k]. fold K. unfold code. rewrite k'_new. cbn [new new_diss s_stor s_ctrl].
      unfold q in *. destruct HR as [R0|R0]; rewrite R0; reflexivity.
Qed.

(** One round, then the loop. *)
Lemma merge_once_ok g : good g ->
  (merge_once g = Ok None /\ forall stor c, (stor = true -> c <> SI) -> (length (class stor c g) <= 1)%nat) \/
  exists g', merge_once g = Ok (Some g') /\ good g' /\ (length (g_group g') < length (g_group g))%nat /\
    forall E F, behaviour r g E F <-> behaviour r g' E F.
Proof.
  intros G. unfold merge_once, first_change.
  destruct (merge_ic_diss_kept g G) as [[E1 C1]|(g' & E & R)]; [|right; exists g'; rewrite E; cbn; auto].
  destruct (merge_rc_stor_kept g G) as [[E2 C2]|(g' & E & R)]; [|right; exists g'; rewrite E1; cbn [rbind]; rewrite E; cbn; auto].
  destruct (merge_arc_stor_kept g G) as [[E3 C3]|(g' & E & R)];
    [|right; exists g'; rewrite E1; cbn [rbind]; rewrite E2; cbn [rbind]; rewrite E; cbn; auto].
  destruct (merge_rc_diss_kept g G) as [[E4 C4]|(g' & E & R)];
    [|right; exists g'; rewrite E1; cbn [rbind]; rewrite E2; cbn [rbind]; rewrite E3; cbn [rbind]; rewrite E; cbn; auto].
  destruct (merge_arc_diss_kept g G) as [[E5 C5]|(g' & E & R)];
    [|right; exists g'; rewrite E1; cbn [rbind]; rewrite E2; cbn [rbind]; rewrite E3; cbn [rbind]; rewrite E4; cbn [rbind]; rewrite E; cbn; auto].
  left. rewrite E1; cbn [rbind]; rewrite E2; cbn [rbind]; rewrite E3; cbn [rbind]; rewrite E4; cbn [rbind]; rewrite E5; cbn [rbind].
  split; [reflexivity|]. destruct G as [[k (HR & _)] _]. intros stor c Hc. destruct HR as [R0|R0]; rewrite R0 in *; cbn in *;
    destruct stor, c; try assumption; exfalso; now apply Hc.
Qed.

Lemma merge_all_ok fuel : forall g, good g -> (length (g_group g) < fuel)%nat ->
  exists g', merge_all fuel g = Ok g' /\ good g' /\
    (forall stor c, (stor = true -> c <> SI) -> (length (class stor c g') <= 1)%nat) /\
    forall E F, behaviour r g E F <-> behaviour r g' E F.
Proof.
  induction fuel as [|fuel IH]; intros g G L; [lia|]. cbn [merge_all].
  destruct (merge_once_ok g G) as [[E C]|(g1 & E & G1 & L1 & B1)]; rewrite E; cbn [rbind].
  - exists g. split; [reflexivity|]. split; [exact G|]. split; [exact C|]. reflexivity.
  - destruct (IH g1 G1) as (g' & E' & G' & C' & B'); [lia|]. exists g'. split; [exact E'|]. split; [exact G'|].
    split; [exact C'|]. intros E0 F0. rewrite B1. apply B'.
Qed.
End M.
