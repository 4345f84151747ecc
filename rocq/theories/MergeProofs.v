(** Proofs about the merging of linear components. *)
From Coq Require Import String List ZArith QArith Qreals Reals Bool Lra Lia Permutation.
From Verif Require Import Py Expr RSum Mat Core ExprProofs Spec_Calculus Calculus Deriv CalculusProofs Merge Spec_Merge.
Import ListNotations.
Local Open Scope string_scope.
Local Open Scope list_scope.
Local Open Scope R_scope.

(** ** Symbolic laws *)

Lemma smooth_subst1 k v : forall e r, smooth r v -> smooth (upd r k (eval r v)) e -> smooth r (subst [(k, v)] e).
Proof.
  induction e as [q|s|a IHa b IHb|a IHa b IHb|a IHa n|a IHa|f a IHa|a IHa b IHb t IHt e IHe]; cbn; intros r Hv H;
    rewrite ?eval_subst1; try (exact I).
  - destruct (String.eqb k s); [exact Hv|exact I].
  - destruct H; split; auto.
  - destruct H; split; auto.
  - auto.
  - destruct H; split; auto.
  - destruct H; split; auto.
  - destruct H as (H1 & H2 & H3). repeat split; auto. destruct H3 as [[H3 H4]|[H3 H4]]; auto.
Qed.

Lemma diff_val r x e d : smooth r e -> is_partial r x e d -> eval r (diff x e) = d.
Proof. intros S H. eapply uniqueness_limite; [exact (diff_partial r x e S)|exact H]. Qed.

Lemma same_upd P r r' x t : same_on P r r' -> ~ In x P -> same_on P r (upd r' x t).
Proof. intros H Hx p Hp. rewrite upd_neq; [now apply H|]. intros ->. contradiction. Qed.

Lemma deriv_affine a b t : derivable_pt_lim (fun t => a * t + b) t a.
Proof.
  assert (G : derivable_pt_lim (fun t => a * t + b) t (a * 1 + 0)); [|now rewrite Rmult_1_r, Rplus_0_r in G].
  apply (derivable_pt_lim_plus (fun t => a * t) (fun _ => b)).
  - apply (derivable_pt_lim_scal (fun t => t)), derivable_pt_lim_id.
  - apply derivable_pt_lim_const.
Qed.

Definition lin (P : list string) (r : env) (e : expr) (w : string) (k : R) : Prop :=
  forall r', same_on P r r' -> smooth r' e /\ eval r' e = k * r' w.
Definition quad (P : list string) (r : env) (e : expr) (x : string) (k : R) : Prop :=
  forall r', same_on P r r' -> smooth r' e /\ eval r' e = k * r' x ^ 2.

Section S.
Context (P : list string) (r : env).

Lemma lin_diff e w k r' : lin P r e w k -> ~ In w P -> same_on P r r' -> eval r' (diff w e) = k.
Proof.
  intros H Hw Hr. apply diff_val; [now apply H|]. unfold is_partial.
  eapply derivable_pt_lim_ext_loc with (f := fun t => k * t + 0) (eps := 1); [lra| |].
  - intros h _. destruct (H (upd r' w (r' w + h))) as [_ ->]; [now apply same_upd|]. rewrite upd_eq. ring.
  - apply deriv_affine.
Qed.

Lemma lin_subst e w W k : lin P r e w k -> ~ In w P -> lin P r (subst [(w, Sym W)] e) W k.
Proof.
  intros H Hw r' Hr. split.
  - apply smooth_subst1; [exact I|]. apply H. now apply same_upd.
  - rewrite eval_subst1. destruct (H (upd r' w (eval r' (Sym W)))) as [_ ->]; [now apply same_upd|].
    rewrite upd_eq. reflexivity.
Qed.

Lemma lin_subst_other e v a W k : lin P r e v k -> ~ In a P -> a <> v -> lin P r (subst [(a, Sym W)] e) v k.
Proof.
  intros H Ha Hn r' Hr. split.
  - apply smooth_subst1; [exact I|]. apply H. now apply same_upd.
  - rewrite eval_subst1. destruct (H (upd r' a (eval r' (Sym W)))) as [_ ->]; [now apply same_upd|].
    rewrite upd_neq; [reflexivity|congruence].
Qed.

Lemma lin_subs W k : forall w e v, lin P r e v k -> (forall a, In a w -> ~ In a P) -> ~ In W w ->
  In v w \/ v = W -> lin P r (subs (map (fun wn => (wn, Sym W)) w) e) W k.
Proof.
  induction w as [|a w IH]; intros e v H HP HW Hv.
  - destruct Hv as [[]| ->]. exact H.
  - change (lin P r (subs (map (fun wn => (wn, Sym W)) w) (subst [(a, Sym W)] e)) W k).
    destruct (string_dec a v) as [->|N].
    + apply (IH _ W); [| |intros Hi; apply HW; now right|now right].
      * apply lin_subst; [exact H|]. apply HP. now left.
      * intros b Hb. apply HP. now right.
    + apply (IH _ v); [| |intros Hi; apply HW; now right|].
      * apply lin_subst_other; [exact H| |exact N]. apply HP. now left.
      * intros b Hb. apply HP. now right.
      * destruct Hv as [[Hv|Hv]|Hv]; [contradiction|now left|now right].
Qed.

Lemma lin_solve z w y k : lin P r z w k -> k <> 0 -> ~ In w P -> w <> y ->
  exists s, solve0 (ssub z (Sym y)) w = Ok s /\ lin P r s y (/ k).
Proof.
  intros H Hk Hw Hy. unfold solve0.
  assert (D : forall r', same_on P r r' -> eval r' (diff w (ssub z (Sym y))) = k).
  { intros r' Hr. apply diff_val.
    - unfold ssub. apply smooth_sadd; [now apply H|]. apply smooth_sneg. exact I.
    - unfold is_partial. eapply derivable_pt_lim_ext_loc with (f := fun t => k * t + (- r' y)) (eps := 1); [lra| |].
      + intros h _. rewrite eval_ssub. cbn [eval].
        destruct (H (upd r' w (r' w + h))) as [_ ->]; [now apply same_upd|].
        rewrite upd_eq, upd_neq by congruence. ring.
      + apply deriv_affine. }
  destruct (is0 (diff w (ssub z (Sym y)))) eqn:E0.
  - exfalso. apply Hk. rewrite <- (D r) by (intros p _; reflexivity). now apply is0_eval.
  - eexists. split; [reflexivity|]. intros r' Hr.
    assert (Hr0 : forall t, same_on P r (upd r' w t)) by (intros t; now apply same_upd).
    assert (Q0 : eval r' (Num 0) = 0) by apply Q2R_0.
    split.
    + apply smooth_smul.
      * apply smooth_sneg, smooth_subst1; [exact I|]. unfold ssub. apply smooth_sadd; [now apply H|].
        apply smooth_sneg. exact I.
      * split.
        { apply smooth_subst1; [exact I|]. apply smooth_diff. unfold ssub. apply smooth_sadd; [now apply H|].
          apply smooth_sneg. exact I. }
        { rewrite eval_subst1, D; [exact Hk|apply Hr0]. }
    + rewrite eval_smul, eval_sneg, eval_subst1, eval_ssub. cbn [eval]. rewrite eval_subst1, D by apply Hr0.
      destruct (H (upd r' w (Q2R 0)) (Hr0 _)) as [_ ->]. rewrite upd_eq, upd_neq, Q2R_0 by congruence. field. exact Hk.
Qed.

Lemma eval_esum_map {A} r' (f : A -> expr) l : eval r' (esum (map f l)) = fold_right Rplus 0 (map (fun a => eval r' (f a)) l).
Proof. rewrite eval_esum, map_map. reflexivity. Qed.

Lemma smooth_esum r' l : (forall e, In e l -> smooth r' e) -> smooth r' (esum l).
Proof.
  unfold esum. assert (H0 : smooth r' (Num 0)) by exact I. revert H0. generalize (Num 0).
  induction l as [|e l IH]; intros a Ha H; cbn; [exact Ha|]. apply IH.
  - apply smooth_sadd; [exact Ha|]. apply H. now left.
  - intros e' He. apply H. now right.
Qed.

Lemma lin_esum W es ks : Forall2 (fun e k => lin P r e W k) es ks -> lin P r (esum es) W (lsum ks).
Proof.
  intros F r' Hr. split.
  - apply smooth_esum. intros e He. induction F as [|e' k es ks H F IH]; [destruct He|].
    destruct He as [->|He]; [now apply H|now apply IH].
  - rewrite eval_esum. induction F as [|e' k es ks H F IH]; cbn; [ring|]. rewrite IH.
    destruct (H r' Hr) as [_ ->]. unfold lsum. ring.
Qed.

Lemma lin_orient e z k : lin P r z (s_label e) k -> ~ In (s_label e) P -> lin P r (orient e z) (s_label e) k.
Proof.
  intros H Hw. unfold orient. destruct (s_pos e); [exact H|]. intros r' Hr.
  assert (Hs : same_on P r (upd r' (s_label e) (eval r' (sneg (Sym (s_label e)))))) by now apply same_upd.
  split.
  - apply smooth_sneg, smooth_subst1; [apply smooth_sneg; exact I|]. now apply H.
  - rewrite eval_sneg, eval_subst1. destruct (H _ Hs) as [_ ->]. rewrite upd_eq, eval_sneg. cbn. ring.
Qed.

(** The inverse laws. *)
Lemma inverses_ok : forall z w y k, length y = length w ->
  Forall2 (fun p kk => lin P r (fst p) (snd p) kk) (combine z w) k -> length z = length w ->
  (forall kk, In kk k -> kk <> 0) -> (forall a, In a w -> ~ In a P) -> (forall a, In a w -> ~ In a y) ->
  exists s, inverses z w y = Ok s /\ length s = length w /\ Forall2 (fun p kk => lin P r (fst p) (snd p) (/ kk)) (combine s y) k.
Proof.
  induction z as [|z0 z IH]; intros w y k Ly F Lz Hk HP Hy.
  - destruct w; [|discriminate]. destruct y; [|discriminate]. inversion F. exists []. repeat split. constructor.
  - destruct w as [|w0 w]; [discriminate|]. destruct y as [|y0 y]; [discriminate|].
    cbn in F. inversion F as [|? k0 ? k' F0 F1 E1 E2]; subst. cbn in F0.
    destruct (lin_solve z0 w0 y0 k0 F0) as (s0 & E0 & H0).
    + apply Hk. now left.
    + apply HP. now left.
    + intros ->. apply (Hy y0); now left.
    + destruct (IH w y k') as (s & Es & Ls & Fs).
      * now injection Ly.
      * exact F1.
      * now injection Lz.
      * intros kk Hi. apply Hk. now right.
      * intros a Ha. apply HP. now right.
      * intros a Ha Hi. apply (Hy a); now right.
      * exists (s0 :: s). unfold inverses in *. cbn [combine rmap fst snd]. rewrite E0. cbn [rbind]. rewrite Es.
        cbn [rbind]. split; [reflexivity|]. split; [cbn; now rewrite Ls|]. cbn. constructor; [exact H0|exact Fs].
Qed.

Lemma sum_at_lin Y : forall s y ks, Forall2 (fun p kk => lin P r (fst p) (snd p) kk) (combine s y) ks ->
  (forall a, In a y -> ~ In a P) -> lin P r (sum_at s y (Sym Y)) Y (lsum ks).
Proof.
  intros s y ks F HP. unfold sum_at. apply lin_esum. revert y ks F HP.
  induction s as [|s0 s IH]; intros y ks F HP; [inversion F; constructor|].
  destruct y as [|y0 y]; [inversion F; constructor|]. cbn in F. inversion F as [|? k0 ? k' F0 F1]; subst. cbn.
  constructor; [apply lin_subst; [exact F0|apply HP; now left]|]. apply IH; [exact F1|]. intros a Ha. apply HP. now right.
Qed.

Definition inv_sum (ks : list R) : R := lsum (map Rinv ks).
Lemma inv_sum_pos ks : ks <> [] -> (forall k, In k ks -> 0 < k) -> 0 < inv_sum ks.
Proof.
  intros N H. unfold inv_sum. destruct ks as [|k ks]; [congruence|]. cbn.
  assert (0 <= lsum (map Rinv ks)).
  { assert (H' : forall k', In k' ks -> 0 < k') by (intros; apply H; now right). clear - H'.
    induction ks as [|a ks IH]; cbn; [lra|]. pose proof (Rinv_0_lt_compat a (H' a (or_introl eq_refl))).
    assert (0 <= lsum (map Rinv ks)) by (apply IH; intros; apply H'; now right). unfold lsum in *. lra. }
  pose proof (Rinv_0_lt_compat k (H k (or_introl eq_refl))). unfold lsum in *. lra.
Qed.
Lemma lsum_pos ks : ks <> [] -> (forall k, In k ks -> 0 < k) -> 0 < lsum ks.
Proof.
  intros N H. destruct ks as [|k ks]; [congruence|]. cbn.
  assert (0 <= lsum ks).
  { assert (H' : forall k', In k' ks -> 0 < k') by (intros; apply H; now right). clear - H'.
    induction ks as [|a ks IH]; cbn; [lra|]. pose proof (H' a (or_introl eq_refl)).
    assert (0 <= lsum ks) by (apply IH; intros; apply H'; now right). unfold lsum in *. lra. }
  pose proof (H k (or_introl eq_refl)). unfold lsum in *. lra.
Qed.

Lemma Forall2_inv {A} (Q : A -> R -> Prop) l ks :
  Forall2 (fun p kk => Q p (/ kk)) l ks -> Forall2 Q l (map Rinv ks).
Proof. intros F. induction F; cbn; constructor; assumption. Qed.

Lemma ynames_length n : length (ynames n) = n.
Proof. unfold ynames. now rewrite map_length, seq_length. Qed.
Lemma ynames_Y n : ~ In "Y" (ynames n).
Proof. unfold ynames. intros H. apply in_map_iff in H. destruct H as (i & H & _). discriminate. Qed.
Lemma ynames_incl n m s : (n <= m)%nat -> In s (ynames n) -> In s (ynames m).
Proof.
  unfold ynames. intros L H. apply in_map_iff in H. destruct H as (i & E & Hi). apply in_map_iff. exists i.
  split; [exact E|]. apply in_seq in Hi. apply in_seq. lia.
Qed.
Lemma name_not_Y c l : c = "x" \/ c = "w" -> merged_name c l <> "Y".
Proof. intros [->| ->]; discriminate. Qed.

(** Hypotheses on the names for one merge. *)
Definition scratch_ok (w : list string) : Prop :=
  (forall a, In a w -> ~ In a P) /\ (forall a, In a w -> ~ In a (ynames (length w))) /\
  (forall a, In a (ynames (length w)) -> ~ In a P) /\ ~ In "Y" P.

Lemma merge_arc_diss_ok w z ks : w <> [] -> scratch_ok w -> length z = length w ->
  Forall2 (fun p kk => lin P r (fst p) (snd p) kk) (combine z w) ks -> (forall k, In k ks -> 0 < k) ->
  exists Z, nonrealizable_merge_dissipatives w z = Ok (merged_name "w" w, Z) /\
    lin P r Z (merged_name "w" w) (/ inv_sum ks).
Proof.
  intros N (S1 & S2 & S3 & S4) L F Hk. unfold nonrealizable_merge_dissipatives.
  destruct (inverses_ok z w (ynames (length w)) ks) as (s & Es & Ls & Fs); auto.
  { apply ynames_length. } { intros kk Hi. specialize (Hk kk Hi). lra. }
  rewrite Es. cbn [rbind]. apply (Forall2_inv (fun p kk => lin P r (fst p) (snd p) kk)) in Fs.
  pose proof (sum_at_lin "Y" s _ _ Fs S3) as HL. change (lsum (map Rinv ks)) with (inv_sum ks) in HL.
  assert (HN : ks <> []).
  { intros ->. inversion F as [E|]. destruct w as [|w0 w]; [congruence|]. destruct z; [discriminate|discriminate]. }
  destruct (lin_solve _ _ (merged_name "w" w) _ HL) as (Z & EZ & HZ).
  - pose proof (inv_sum_pos ks HN Hk). lra.
  - exact S4.
  - intros E. symmetry in E. revert E. apply name_not_Y. now right.
  - rewrite EZ. cbn [rbind]. exists Z. split; [reflexivity|exact HZ].
Qed.

Lemma merge_rc_diss_ok w z ks : (forall a, In a w -> ~ In a P) -> ~ In (merged_name "w" w) w -> length z = length w ->
  Forall2 (fun p kk => lin P r (fst p) (snd p) kk) (combine z w) ks ->
  fst (realizable_merge_dissipatives w z) = merged_name "w" w /\
  lin P r (snd (realizable_merge_dissipatives w z)) (merged_name "w" w) (lsum ks).
Proof.
  intros HP HW L F. split; [reflexivity|]. cbn [realizable_merge_dissipatives snd]. apply lin_esum.
  assert (G : forall z w' ks, (forall a, In a w' -> In a w) -> length z = length w' ->
    Forall2 (fun p kk => lin P r (fst p) (snd p) kk) (combine z w') ks ->
    Forall2 (fun e k => lin P r e (merged_name "w" w) k) (map (subs (map (fun wn => (wn, Sym (merged_name "w" w))) w)) z) ks).
  { clear z ks L F. induction z as [|z0 z IH]; intros w' ks Hw L F.
    - inversion F. constructor.
    - destruct w' as [|w0 w']; [discriminate|]. cbn in F. inversion F as [|? k0 ? k' F0 F1]; subst. cbn [map]. constructor.
      + apply (lin_subs _ _ w z0 w0); [exact F0|exact HP|exact HW|]. left. apply Hw. now left.
      + apply (IH w'); [|now injection L|exact F1]. intros a Ha. apply Hw. now right. }
  apply (G z w ks); auto.
Qed.

(** Energies. *)
Lemma integ_quad d x k : lin P r d x k -> ~ In x P -> quad P r (integ d x) x (k / 2).
Proof.
  intros H Hx r' Hr.
  assert (Hs : forall t, same_on P r (upd r' x t)) by (intros t; now apply same_upd).
  unfold integ. split.
  - apply smooth_sadd; apply smooth_smul.
    + apply smooth_subst1; [exact I|]. now apply H.
    + exact I.
    + apply smooth_subst1; [exact I|]. apply smooth_diff. now apply H.
    + apply smooth_smul; [exact I|]. apply smooth_spow. exact I.
  - rewrite eval_sadd, !eval_smul, eval_spow, !eval_subst1. cbn [eval].
    rewrite (lin_diff d x k) by auto. destruct (H _ (Hs (Q2R 0))) as [_ ->]. rewrite upd_eq, Q2R_0, Q2R_half. field.
Qed.

Lemma quad_subst e x s X k c : quad P r e x k -> ~ In x P -> lin P r s X c -> quad P r (subst [(x, s)] e) X (k * c ^ 2).
Proof.
  intros H Hx Hs r' Hr. assert (Hu : same_on P r (upd r' x (eval r' s))) by now apply same_upd. split.
  - apply smooth_subst1; [now apply Hs|now apply H].
  - rewrite eval_subst1. destruct (H _ Hu) as [_ ->]. rewrite upd_eq. destruct (Hs r' Hr) as [_ ->]. ring.
Qed.

Lemma quad_esum X es ks : Forall2 (fun e k => quad P r e X k) es ks -> quad P r (esum es) X (lsum ks).
Proof.
  intros F r' Hr. split.
  - apply smooth_esum. intros e He. induction F as [|e' k es ks H F IH]; [destruct He|].
    destruct He as [->|He]; [now apply H|now apply IH].
  - rewrite eval_esum. induction F as [|e' k es ks H F IH]; cbn; [ring|]. rewrite IH.
    destruct (H r' Hr) as [_ ->]. unfold lsum. ring.
Qed.

Lemma lin_Sym X : lin P r (Sym X) X 1.
Proof. intros r' Hr. split; [exact I|]. cbn. ring. Qed.

Lemma merge_rc_stor_ok x d ks : (forall a, In a x -> ~ In a P) -> length d = length x ->
  Forall2 (fun p kk => lin P r (fst p) (snd p) kk) (combine d x) ks ->
  fst (realizable_merge_storages x d) = merged_name "x" x /\
  quad P r (snd (realizable_merge_storages x d)) (merged_name "x" x) (lsum ks / 2).
Proof.
  intros HP L F. split; [reflexivity|]. cbn [realizable_merge_storages snd].
  set (X := merged_name "x" x). clearbody X.
  replace (lsum ks / 2) with (lsum (map (fun k => k / 2) ks)).
  2:{ clear. unfold lsum. induction ks as [|k ks IH]; cbn; [field|]. rewrite IH. field. }
  apply quad_esum. revert x ks HP L F. induction d as [|d0 d IH]; intros x ks HP L F; [inversion F; constructor|].
  destruct x as [|x0 x]; [discriminate|]. cbn in F. inversion F as [|? k0 ? k' F0 F1]; subst. cbn. constructor.
  - replace (k0 / 2) with (k0 / 2 * 1 ^ 2) by ring. apply quad_subst; [|apply HP; now left|apply lin_Sym].
    apply integ_quad; [exact F0|]. apply HP. now left.
  - apply IH; [|now injection L|exact F1]. intros a Ha. apply HP. now right.
Qed.

Lemma merge_arc_stor_ok x d ks : x <> [] -> scratch_ok x -> length d = length x ->
  Forall2 (fun p kk => lin P r (fst p) (snd p) kk) (combine d x) ks -> (forall k, In k ks -> 0 < k) ->
  exists H, nonrealizable_merge_storages x d = Ok (merged_name "x" x, H) /\
    quad P r H (merged_name "x" x) (/ inv_sum ks / 2).
Proof.
  intros N (S1 & S2 & S3 & S4) L F Hk. unfold nonrealizable_merge_storages.
  destruct (inverses_ok d x (ynames (length x)) ks) as (s & Es & Ls & Fs); auto.
  { apply ynames_length. } { intros kk Hi. specialize (Hk kk Hi). lra. }
  rewrite Es. cbn [rbind]. pose proof (Forall2_inv (fun p kk => lin P r (fst p) (snd p) kk) _ _ Fs) as Fs'.
  pose proof (sum_at_lin "Y" s _ _ Fs' S3) as HL. change (lsum (map Rinv ks)) with (inv_sum ks) in HL.
  assert (HN : ks <> []).
  { intros ->. inversion F as [E|]. destruct x as [|x0 x]; [congruence|]. destruct d; [discriminate|discriminate]. }
  pose proof (inv_sum_pos ks HN Hk) as HIP.
  destruct (lin_solve _ _ (merged_name "x" x) _ HL) as (Q & EQ & HQ).
  - lra.
  - exact S4.
  - intros E. symmetry in E. revert E. apply name_not_Y. now left.
  - rewrite EQ. cbn [rbind]. eexists. split; [reflexivity|].
    set (X := merged_name "x" x) in *. clearbody X.
    replace (/ inv_sum ks / 2) with (lsum (map (fun k => k / 2 * (/ k * / inv_sum ks) ^ 2) ks)).
    2:{ transitivity (inv_sum ks * (/ inv_sum ks) ^ 2 / 2); [|field; lra].
        generalize (/ inv_sum ks) as c. intros c. clear - Hk. unfold inv_sum, lsum.
        induction ks as [|k ks IH]; cbn [map fold_right]; [field|]. rewrite IH by (intros; apply Hk; now right).
        assert (0 < k) by (apply Hk; now left). field. lra. }
    apply quad_esum. clear Es EQ N HN HL Fs'. clear S4.
    assert (Hy : length (ynames (length x)) = length x) by apply ynames_length.
    revert Hy S2 S3 Fs. generalize (ynames (length x)) as y. revert HQ. generalize (/ inv_sum ks) as c. intros c HQ.
    clear HIP. revert x s ks S1 L Ls F Hk.
    induction d as [|d0 d IH]; intros x s ks S1 L Ls F Hk y Hy S2 S3 Fs; [inversion F; constructor|].
    destruct x as [|x0 x]; [discriminate|]. destruct s as [|s0 s]; [discriminate|]. destruct y as [|y0 y]; [discriminate|].
    cbn in F, Fs. inversion F as [|? k0 ? k' F0 F1]; subst. inversion Fs as [|? k1 ? k2 F2 F3]; subst. cbn [fst snd] in F0, F2.
    cbn. constructor.
    + apply quad_subst.
      * apply integ_quad; [exact F0|]. apply S1. now left.
      * apply S1. now left.
      * intros r' Hr. assert (Hu : same_on P r (upd r' y0 (eval r' Q))).
        { apply same_upd; [exact Hr|]. apply S3. now left. }
        destruct (HQ r' Hr) as [HQ1 HQ2]. split.
        { apply smooth_subst1; [exact HQ1|]. now apply F2. }
        { rewrite eval_subst1. destruct (F2 _ Hu) as [_ ->]. rewrite upd_eq, HQ2. ring. }
    + apply IH; auto.
      * intros a Ha. apply S1. now right.
      * intros k Hi. apply Hk. now right.
      * intros a Ha Hi. apply (S2 a); now right.
      * intros a Ha. apply S3. now right.
Qed.
End S.
