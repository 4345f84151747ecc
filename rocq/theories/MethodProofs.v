(** Construction of a method: what each stage keeps. *)
From Coq Require Import String List ZArith QArith Qreals Reals Bool Lra Lia Permutation.
From Verif Require Import Py Tools Lists Expr ExprProofs RSum Mat MatProofs Core Spec_Core
  Spec_Calculus Spec_Split Spec_Subs StructProofs BlockProofs PowerProofs SplitProofs SplitProofs2 Calculus
  CalculusProofs Subs SubsProofs Method Spec_Method Separable TempProofs.
Import ListNotations.
Local Open Scope string_scope.
Local Open Scope list_scope.
Local Open Scope nat_scope.

(** ** Substitutions as changes of valuation *)
Fixpoint seq_env (d : list (string * expr)) (r : env) : env :=
  match d with
  | [] => r
  | (k, v) :: d' => upd (seq_env d' r) k (eval (seq_env d' r) v)
  end.

Lemma subs_seq d : forall e r, eval r (subs d e) = eval (seq_env d r) e.
Proof.
  induction d as [|[k v] d IH]; intros e r; [reflexivity|].
  change (subs ((k, v) :: d) e) with (subs d (subst [(k, v)] e)).
  rewrite IH, eval_subst1. reflexivity.
Qed.

Lemma seq_env_off d r s : ~ In s (map fst d) -> seq_env d r s = r s.
Proof.
  induction d as [|[k v] d IH]; cbn; intros H; [reflexivity|]. unfold upd.
  destruct (String.eqb_spec s k) as [->|]; [exfalso; apply H; now left|]. apply IH. tauto.
Qed.

Lemma seq_env_agree K d r : incl (map fst d) K -> agree_off K r (seq_env d r).
Proof. intros H s Hs. apply seq_env_off. intros I. apply Hs, H, I. Qed.

Lemma agree_trans K r r' r'' : agree_off K r r' -> agree_off K r' r'' -> agree_off K r r''.
Proof. intros H1 H2 s Hs. now rewrite H2, H1. Qed.

Lemma keys_restrict fs d : incl (map fst (restrict fs d)) (map fst d).
Proof.
  intros s H. apply in_map_iff in H. destruct H as (p & <- & Hp). apply restrict_in in Hp. apply in_map. tauto.
Qed.

Lemma keys_dict_set {B} k (v : B) d s : In s (map fst (dict_set k v d)) -> s = k \/ In s (map fst d).
Proof.
  induction d as [|[k' v'] d IH]; cbn; [intuition|].
  destruct (String.eqb k' k); cbn; intuition.
Qed.

Lemma keys_dict_update {B} (e : list (string * B)) : forall d s,
  In s (map fst (dict_update d e)) -> In s (map fst d) \/ In s (map fst e).
Proof.
  unfold dict_update. induction e as [|[k v] e IH]; intros d s H; [now left|]. cbn [fold_left fst snd] in H.
  destruct (IH _ _ H) as [I|I]; [|right; now right].
  destruct (keys_dict_set k v d s I) as [->|I']; [right; now left|now left].
Qed.

Lemma keys_insert {B} (p : string * B) d s : In s (map fst (insert_name p d)) -> s = fst p \/ In s (map fst d).
Proof.
  induction d as [|q d IH]; cbn; [intuition|]. destruct (str_leb (fst p) (fst q)); cbn; intuition.
Qed.

Lemma keys_by_name {B} (d : list (string * B)) s : In s (map fst (by_name d)) -> In s (map fst d).
Proof.
  induction d as [|p d IH]; cbn; [tauto|]. intros H. apply keys_insert in H. intuition.
Qed.

Lemma combine_keys {A B C} (f : A * B -> C) (g : A -> C) (l : list A) : forall (l' : list B) s,
  (forall p, f p = g (fst p)) -> In s (map f (combine l l')) -> In s (map g l).
Proof.
  induction l as [|a l IH]; intros [|b l'] s H; cbn; try tauto. rewrite H. cbn.
  intros [E|I]; [now left|]. right. now apply (IH l').
Qed.

Lemma structure_keys theta c : incl (map fst (structure_subs theta c)) (g_symbols c ++ c_x c).
Proof.
  intros s H. unfold structure_subs in H. apply keys_by_name in H.
  apply in_or_app. apply keys_dict_update in H. destruct H as [H|H].
  - apply keys_dict_update in H. destruct H as [[]|H]. left.
    apply (combine_keys fst (fun x => x)) in H; [|reflexivity]. now rewrite map_id in H.
  - right. rewrite map_map in H. cbn in H. apply (combine_keys (fun p => fst p) (fun x => x)) in H; [|reflexivity].
    now rewrite map_id in H.
Qed.

(** ** Absorption of power *)
Lemma passive_ext n M M' : (forall i j, i < n -> j < n -> M' i j = M i j) -> passive n M -> passive n M'.
Proof.
  intros E P a. specialize (P a). erewrite rsum_ext; [exact P|]. cbn. intros i Hi. f_equal.
  apply rsum_ext. intros j Hj. now rewrite E.
Qed.

Lemma passive_mean n M1 M2 M : passive n M1 -> passive n M2 ->
  (forall i j, i < n -> j < n -> M i j = (/ 2 * (M1 i j + M2 i j))%R) -> passive n M.
Proof.
  intros P1 P2 E a. specialize (P1 a). specialize (P2 a).
  assert (S : (rsum n (fun i => a i * rsum n (fun j => M i j * a j)) =
    / 2 * (rsum n (fun i => a i * rsum n (fun j => M1 i j * a j)) +
           rsum n (fun i => a i * rsum n (fun j => M2 i j * a j))))%R).
  { rewrite <- rsum_plus, <- rsum_scal. apply rsum_ext. intros i Hi.
    rewrite (rsum_ext n (fun j => M i j * a j)%R (fun j => / 2 * (M1 i j * a j + M2 i j * a j))%R)
      by (intros j Hj; rewrite E by assumption; ring).
    rewrite rsum_scal, rsum_plus. ring. }
  rewrite S. lra.
Qed.

Fixpoint index_of (k : nat) (l : list nat) : nat :=
  match l with [] => 0 | a :: l' => if Nat.eqb a k then 0 else S (index_of k l') end.
Lemma index_of_nth l : NoDup l -> forall i, i < length l -> index_of (nth i l 0) l = i.
Proof.
  induction 1 as [|a l N ND IH]; intros i Hi; [cbn in Hi; lia|]. destruct i; cbn; [now rewrite Nat.eqb_refl|].
  cbn in Hi. destruct (Nat.eqb_spec a (nth i l 0)) as [E|_]; [exfalso; apply N; rewrite E; apply nth_In; lia|].
  f_equal. apply IH. lia.
Qed.

Lemma passive_renum n M M' sg : Permutation sg (seq 0 n) -> passive n M ->
  (forall i j, i < n -> j < n -> M' i j = M (nth i sg 0) (nth j sg 0)) -> passive n M'.
Proof.
  intros P HP E a.
  pose proof (Permutation_length P) as L. rewrite seq_length in L.
  assert (ND : NoDup sg) by (apply (Permutation_NoDup (Permutation_sym P)), seq_NoDup).
  set (a' := fun k => a (index_of k sg)). specialize (HP a').
  rewrite <- (rsum_perm n _ sg P) in HP. erewrite rsum_ext; [exact HP|].
  intros i Hi. cbn beta. unfold a' at 1. rewrite index_of_nth by (assumption || lia). f_equal.
  rewrite <- (rsum_perm n (fun j => M (nth i sg 0%nat) j * a' j)%R sg P). apply rsum_ext. intros j Hj.
  rewrite E by assumption. unfold a'. rewrite index_of_nth by (assumption || lia). reflexivity.
Qed.

Lemma diss_pair c w z : In (w, z) (combine (c_w c) (c_z c)) <-> In (Diss w z) (comps c).
Proof.
  unfold comps, disss, stors, ports, conns. rewrite !in_app_iff, !in_map_iff. split.
  - intros H. right. left. exists (w, z). auto.
  - intros [H|[H|[H|H]]].
    + destruct (c_dxH c); apply in_map_iff in H; destruct H as (? & E & _); discriminate.
    + destruct H as ((w' & z') & E & I). cbn in E. injection E as <- <-. exact I.
    + destruct H as (? & E & _); discriminate.
    + destruct H as (? & E & _); discriminate.
Qed.

Lemma comps_length c : wf c -> length (comps c) = ntot c.
Proof.
  intros ((P1 & P2 & P3) & D & _). unfold comps, stors, disss, ports, conns, ntot.
  rewrite !app_length, !map_length, !combine_length. destruct (c_dxH c) as [d|].
  - rewrite map_length, combine_length, (D d eq_refl). lia.
  - rewrite map_length. lia.
Qed.

Lemma absorbs_follows K r sg c c' : wf c -> wf c' -> follows sg c c' -> absorbs K r c -> absorbs K r c'.
Proof.
  intros W W' (P & L & C & R1 & R2 & E) A r' Hr. destruct (A r' Hr) as [A1 A2].
  assert (N : ntot c' = ntot c) by (rewrite <- !comps_length by assumption; exact L).
  split.
  - rewrite N. apply (passive_renum _ (Mv r' c) _ sg P A1). intros i j Hi Hj. now apply E.
  - intros w z H. apply A2. apply diss_pair in H. apply diss_pair.
    apply In_nth_error in H. destruct H as (k & Hk).
    assert (Lk : k < ntot c). { rewrite <- N, <- comps_length by exact W'. apply nth_error_Some. congruence. }
    pose proof (Permutation_length P) as LP. rewrite seq_length in LP.
    destruct (nth_error sg k) as [s|] eqn:Es; [|apply nth_error_None in Es; lia].
    rewrite (C k s Es) in Hk. eapply nth_error_In, Hk.
Qed.

(** Same structure and laws, read under another valuation. *)
Lemma absorbs_subs K c c' r dM dz : ntot c' = ntot c ->
  incl (map fst dM) K -> (forall e, In e dz -> incl (map fst e) K) ->
  (forall w, In w (c_w c) -> ~ In w K) ->
  (forall r' i j, Mv r' c' i j = Mv (seq_env dM r') c i j) ->
  (forall w z', In (w, z') (combine (c_w c') (c_z c')) ->
     exists z d, In (w, z) (combine (c_w c) (c_z c)) /\ In d dz /\ z' = subs d z) ->
  absorbs K r c -> absorbs K r c'.
Proof.
  intros N IM IZ WK EM EZ A r' Hr. split.
  - rewrite N. destruct (A (seq_env dM r')) as [P _].
    { eapply agree_trans; [exact Hr|]. now apply seq_env_agree. }
    eapply passive_ext; [|exact P]. intros. apply EM.
  - intros w z' H. destruct (EZ w z' H) as (z & d & I & Id & ->).
    destruct (A (seq_env d r')) as [_ P].
    { eapply agree_trans; [exact Hr|]. apply seq_env_agree. now apply IZ. }
    specialize (P w z I). rewrite subs_seq. rewrite seq_env_off in P; [exact P|].
    intros Hw. apply (WK w); [|apply (IZ d Id); exact Hw].
    apply in_combine_l in I. exact I.
Qed.

(** ** Stages *)
Definition heir (K : list string) (c m : core) : Prop :=
  wf m /\ Permutation (c_x c) (c_x m) /\ Permutation (c_w c) (c_w m) /\
  c_u m = c_u c /\ c_y m = c_y c /\ c_cu m = c_cu c /\ c_cy m = c_cy c /\
  (forall r, absorbs K r c -> absorbs K r m).

Lemma heir_trans K a b c : heir K a b -> heir K b c -> heir K a c.
Proof.
  intros (A1 & A2 & A3 & A4 & A5 & A6 & A7 & A8) (B1 & B2 & B3 & B4 & B5 & B6 & B7 & B8).
  split; [exact B1|]. split; [now rewrite A2|]. split; [now rewrite A3|].
  repeat (split; [congruence|]). intros r H. apply B8, A8, H.
Qed.

(** Parts an operation may change without touching structure, laws, states. *)
Lemma heir_same K c m : wf m -> c_x m = c_x c -> c_w m = c_w c -> c_z m = c_z c -> c_M m = c_M c ->
  c_u m = c_u c -> c_y m = c_y c -> c_cu m = c_cu c -> c_cy m = c_cy c -> heir K c m.
Proof.
  intros W X1 X2 X3 X4 X5 X6 X7 X8. split; [exact W|]. rewrite X1, X2.
  do 2 (split; [reflexivity|]). repeat (split; [assumption|]).
  intros r A r' Hr. destruct (A r' Hr) as [A1 A2]. unfold ntot in *. rewrite X1, X2, X3, X6, X8.
  split; [|exact A2]. eapply passive_ext; [|exact A1]. intros i j _ _. unfold Mv. now rewrite X4.
Qed.

Lemma heir_follows K sg c m : wf c -> wf m -> follows sg c m ->
  Permutation (c_x c) (c_x m) -> Permutation (c_w c) (c_w m) ->
  c_u m = c_u c -> c_y m = c_y c -> c_cu m = c_cu c -> c_cy m = c_cy c -> heir K c m.
Proof.
  intros W W' F PX PW E1 E2 E3 E4. repeat (split; [assumption|]).
  intros r A. now apply (absorbs_follows K r sg c m).
Qed.

Lemma combine_map_r {A B C} (f : B -> C) (l : list A) : forall (l' : list B) a c,
  In (a, c) (combine l (map f l')) -> exists b, In (a, b) (combine l l') /\ c = f b.
Proof.
  induction l as [|x l IH]; intros [|y l'] a c; cbn; try tauto.
  intros [E|H]; [injection E as <- <-; eauto|]. destruct (IH l' a c H) as (b & I & E). eauto.
Qed.

Lemma heir_substituted K d c : wf c -> incl (map fst d) K -> (forall w, In w (c_w c) -> ~ In w K) ->
  heir K c (substituted d c).
Proof.
  intros W I WK. split.
  { destruct W as ((P1 & P2 & P3) & D & M1 & M2). repeat split; cbn; try assumption.
    - unfold sub_vector. now rewrite map_length.
    - intros l E. destruct (c_dxH c) as [l0|]; [|discriminate]. cbn in E. injection E as <-.
      unfold sub_vector. rewrite map_length. now apply D. }
  do 2 (split; [reflexivity|]). do 4 (split; [reflexivity|]).
  intros r. apply (absorbs_subs K c _ r (restrict (mat_symbols (c_M c)) d)
                     [restrict (flat_map free_symbols (c_z c)) d]).
  - reflexivity.
  - intros s H. now apply I, (keys_restrict (mat_symbols (c_M c))).
  - intros e [<-|[]] s H. now apply I, (keys_restrict (flat_map free_symbols (c_z c))).
  - exact WK.
  - intros r' i j. unfold Mv. cbn [substituted c_M sub_matrix ent]. apply subs_seq.
  - intros w z' H. cbn [substituted c_w c_z] in H. unfold sub_vector in H. apply combine_map_r in H.
    destruct H as (z & H & E). exists z, (restrict (flat_map free_symbols (c_z c)) d).
    split; [exact H|]. split; [now left|exact E].
Qed.

Lemma heir_structure K f c : wf c -> incl (g_symbols c ++ c_x c) K -> (forall w, In w (c_w c) -> ~ In w K) ->
  heir K c (build_structure f c).
Proof.
  intros W I WK. unfold build_structure.
  set (theta := match f_grad f with Trapez => 1%Q | _ => f_theta f end).
  set (d := structure_subs theta c).
  assert (ID : incl (map fst d) K) by (intros s H; apply I, (structure_keys theta c s H)).
  split.
  { destruct W as ((P1 & P2 & P3) & D & M1 & M2). repeat split; cbn; try assumption. now rewrite map_length. }
  do 2 (split; [reflexivity|]). do 4 (split; [reflexivity|]).
  intros r A.
  assert (G : f_grad f <> Trapez \/ f_grad f = Trapez) by (destruct (f_grad f); (now right) || (left; discriminate)).
  assert (AS : absorbs K r (set_z (map (subs d) (c_z c))
                 (set_M (mkMat (nr (c_M c)) (nc (c_M c)) (fun i j => subs d (ent (c_M c) i j))) c))).
  { revert A. apply (absorbs_subs K c _ r d [d]).
    - reflexivity.
    - exact ID.
    - intros e [<-|[]]. exact ID.
    - exact WK.
    - intros r' i j. unfold Mv. cbn [set_z set_M c_M ent]. apply subs_seq.
    - intros w z' H. cbn [set_z set_M c_w c_z] in H. apply combine_map_r in H. destruct H as (z & H & E).
      exists z, d. split; [exact H|]. split; [now left|exact E]. }
  destruct G as [G|G].
  - destruct (f_grad f); try exact AS. now elim G.
  - rewrite G. intros r' Hr. destruct (A r' Hr) as [A1 A2]. destruct (AS r' Hr) as [B1 B2].
    cbn [set_z set_M c_w c_z] in B2 |- *. split.
    + apply (passive_mean _ _ _ _ A1 B1). intros i j _ _. unfold Mv.
      cbn [set_z set_M c_M ent]. rewrite eval_smul, eval_sadd. cbn [eval half]. rewrite Q2R_half. lra.
    + intros w z' H. apply combine_map_r in H. destruct H as (z & H & ->).
      specialize (A2 w z H).
      assert (Hs : In (w, subs d z) (combine (c_w c) (map (subs d) (c_z c)))).
      { clear -H. revert H. generalize (c_z c). induction (c_w c) as [|a l IH]; intros [|b l']; cbn; try tauto.
        intros [E|H]; [injection E as <- <-; now left|right; now apply IH]. }
      specialize (B2 w _ Hs). rewrite eval_smul, eval_sadd. cbn [eval half]. rewrite Q2R_half. nra.
Qed.
