(** Proofs about substitutions in a core. *)
From Coq Require Import String List ZArith QArith Qreals Reals Bool Lra Lia.
From Verif Require Import Py Expr RSum Mat Core ExprProofs Spec_Calculus Calculus Deriv CalculusProofs Subs Spec_Subs.
Import ListNotations.
Local Open Scope string_scope.
Local Open Scope list_scope.
Local Open Scope nat_scope.

Lemma py_in_str s l : py_in String.eqb s l = true <-> In s l.
Proof.
  unfold py_in. rewrite existsb_exists. split.
  - intros (a & H1 & H2). apply String.eqb_eq in H2. now subst.
  - intros H. exists s. split; [exact H|apply String.eqb_refl].
Qed.

Lemma no_self_forward d : no_self d -> forward d.
Proof.
  induction d as [|[k v] d IH]; cbn; intros H; [exact I|]. split.
  - intros k' Hk. apply (H k v k'); [now left|now right].
  - apply IH. intros a b k' H1 H2. apply (H a b k'); [now right|now right].
Qed.

Lemma restrict_in fs d p : In p (restrict fs d) <-> In p d /\ In (fst p) fs.
Proof. unfold restrict. rewrite filter_In, py_in_str. reflexivity. Qed.

Lemma restrict_no_self fs d : no_self d -> no_self (restrict fs d).
Proof.
  intros H k v k' H1 H2. apply restrict_in in H1. apply (H k v k'); [tauto|].
  apply in_map_iff in H2. destruct H2 as (p & <- & Hp). apply restrict_in in Hp. apply in_map. tauto.
Qed.

Lemma assoc_in {B} s (d : list (string * B)) v : assoc s d = Some v -> In (s, v) d.
Proof.
  induction d as [|[k w] d IH]; cbn; [discriminate|].
  destruct (String.eqb_spec k s) as [->|]; [intros E; injection E as ->; now left|]. auto.
Qed.
Lemma assoc_none {B} s (d : list (string * B)) : assoc s d = None -> ~ In s (map fst d).
Proof.
  induction d as [|[k w] d IH]; cbn; [tauto|].
  destruct (String.eqb_spec k s) as [->|Hn]; [discriminate|]. intros E [H|H]; [congruence|]. now apply IH.
Qed.

(** The central lemma: substituting the entries whose keys occur. *)
Lemma subs_restrict d fs e r r' : no_self d -> values_from d r r' -> incl (free_symbols e) fs ->
  eval r (subs (restrict fs d) e) = eval r' e.
Proof.
  intros NS [V1 V2] I. rewrite subs_through by (now apply no_self_forward, restrict_no_self).
  apply eval_ext. intros s Hs. unfold through.
  destruct (assoc s (restrict fs d)) as [v|] eqn:E.
  - apply assoc_in, restrict_in in E. symmetry. apply V1. tauto.
  - apply assoc_none in E. symmetry. apply V2. intros Hi. apply E.
    apply in_map_iff in Hi. destruct Hi as ([k v] & Hk & Hp). cbn in Hk. subst k.
    apply in_map_iff. exists (s, v). split; [reflexivity|]. apply restrict_in. split; [exact Hp|]. now apply I.
Qed.

Lemma subs_all d e r r' : no_self d -> values_from d r r' -> eval r (subs d e) = eval r' e.
Proof.
  intros NS [V1 V2]. rewrite subs_through by (now apply no_self_forward).
  apply eval_ext. intros s Hs. unfold through. destruct (assoc s d) as [v|] eqn:E.
  - apply assoc_in in E. symmetry. now apply V1.
  - apply assoc_none in E. symmetry. now apply V2.
Qed.

Lemma in_flat {A B} (f : A -> list B) l a : In a l -> incl (f a) (flat_map f l).
Proof. intros H b Hb. apply in_flat_map. eauto. Qed.

Lemma sub_vector_values d l r r' : no_self d -> values_from d r r' ->
  map (eval r) (sub_vector d l) = map (eval r') l.
Proof.
  intros NS V. unfold sub_vector. rewrite map_map. apply map_ext_in. intros e He.
  apply subs_restrict; [exact NS|exact V|]. now apply (in_flat free_symbols).
Qed.

Lemma in_rows A i j : i < nr A -> j < nc A -> In (ent A i j) (concat (rows_of A)).
Proof.
  intros Hi Hj. apply in_concat. exists (map (fun j => ent A i j) (seq 0 (nc A))). split.
  - unfold rows_of. apply (in_map (fun i => map (fun j => ent A i j) (seq 0 (nc A)))). apply in_seq. lia.
  - apply (in_map (fun j => ent A i j)). apply in_seq. lia.
Qed.

Lemma sub_matrix_values d A r r' : no_self d -> values_from d r r' -> mat_same r r' A (sub_matrix d A).
Proof.
  intros NS V. split; [reflexivity|]. split; [reflexivity|]. intros i j Hi Hj. cbn [sub_matrix ent].
  apply subs_restrict; [exact NS|exact V|]. apply (in_flat free_symbols). now apply in_rows.
Qed.

Lemma subs_restrict_sym fs d s : ~ In s (map fst d) -> subs (restrict fs d) (Sym s) = Sym s.
Proof.
  unfold restrict. induction d as [|[k v] d IH]; cbn; intros H; [reflexivity|].
  destruct (py_in String.eqb k fs); [|apply IH; tauto].
  cbn. destruct (String.eqb_spec k s) as [->|]; [exfalso; apply H; now left|]. apply IH. tauto.
Qed.

Lemma sub_symbols_id d l : (forall s, In s l -> ~ In s (map fst d)) -> sub_symbols d l = Ok l.
Proof.
  intros H. unfold sub_symbols. assert (H' : forall s, In s l -> sub_symbol (restrict l d) s = Ok s).
  { intros s Hs. unfold sub_symbol. rewrite subs_restrict_sym; [reflexivity|]. now apply H. }
  revert H'. generalize (restrict l d). clear. intros d H'. induction l as [|s l IH]; [reflexivity|]. cbn. rewrite H' by now left. cbn.
  rewrite IH; [reflexivity|]. intros; apply H'; now right.
Qed.

Definition pops (d o : list (string * expr)) := fold_left (fun o p => dict_pop (fst p) o) d o.
Lemma pops_filter d : forall o, pops d o = filter (fun p => negb (py_in String.eqb (fst p) (map fst d))) o.
Proof.
  unfold pops. induction d as [|[k v] d IH]; intros o; cbn [fold_left].
  - induction o as [|a o IHo]; [reflexivity|]. cbn. f_equal. exact IHo.
  - rewrite IH. unfold dict_pop. cbn [fst]. induction o as [|a o IHo]; [reflexivity|].
    cbn [filter map fst]. unfold py_in at 2. cbn [existsb].
    rewrite (String.eqb_sym k (fst a)). destruct (String.eqb (fst a) k); cbn [negb orb filter]; [exact IHo|].
    change (existsb (fun a0 => String.eqb a0 (fst a)) (map fst d)) with (py_in String.eqb (fst a) (map fst d)).
    destruct (py_in String.eqb (fst a) (map fst d)); cbn [negb]; [exact IHo|]. now rewrite IHo.
Qed.

(** [substitute_with] succeeds when no variable is replaced. *)
Definition substituted (d : list (string * expr)) (c : core) : core :=
  mkCore (c_label c) (c_x c) (sub_scalar d (c_H c)) (option_map (sub_vector d) (c_dxH c)) (c_w c)
    (sub_vector d (c_z c)) (c_u c) (c_y c) (c_cu c) (c_cy c) (c_p c) (sub_matrix d (c_M c))
    (c_connectors c) (pops d (substitute_dict d (c_subs c))) (sub_observers d (c_observers c)) (c_force_wnl c)
    (sub_matrix d (c_Q c)) (sub_vector d (c_bl c)) (sub_matrix d (c_Zl c)) (c_xl c) (c_wl c) (c_xnl_mono c).

Lemma substitute_with_ok d c : (forall s, In s (variables c) -> ~ In s (map fst d)) ->
  substitute_with d c = ok (substituted d c).
Proof.
  intros H. unfold variables in H. unfold substitute_with, substituted.
  cbn [set_subs set_H set_z set_Q set_Zl set_bl set_M set_dxH set_observers set_x set_w set_u set_y set_cu set_cy set_p
     c_label c_x c_H c_dxH c_w c_z c_u c_y c_cu c_cy c_p c_M c_connectors c_subs c_observers c_force_wnl c_Q c_bl c_Zl c_xl c_wl c_xnl_mono].
  rewrite (sub_symbols_id d (c_x c)) by (intros; apply H; rewrite !in_app_iff; tauto).
  rewrite (sub_symbols_id d (c_w c)) by (intros; apply H; rewrite !in_app_iff; tauto).
  rewrite (sub_symbols_id d (c_u c)) by (intros; apply H; rewrite !in_app_iff; tauto).
  rewrite (sub_symbols_id d (c_y c)) by (intros; apply H; rewrite !in_app_iff; tauto).
  rewrite (sub_symbols_id d (c_cu c)) by (intros; apply H; rewrite !in_app_iff; tauto).
  rewrite (sub_symbols_id d (c_cy c)) by (intros; apply H; rewrite !in_app_iff; tauto).
  rewrite (sub_symbols_id d (c_p c)) by (intros; apply H; rewrite !in_app_iff; tauto).
  cbn. unfold pops. destruct (c_dxH c); reflexivity.
Qed.

Lemma substituted_values d c r r' : no_self d -> values_from d r r' -> same_values r r' c (substituted d c).
Proof.
  intros NS V. unfold same_values. cbn.
  split. { apply subs_restrict; [exact NS|exact V|apply incl_refl]. }
  split. { now apply sub_vector_values. }
  split. { destruct (c_dxH c); cbn; [|reflexivity]. f_equal. now apply sub_vector_values. }
  split. { now apply sub_matrix_values. }
  split. { now apply sub_matrix_values. }
  split. { now apply sub_matrix_values. }
  split. { now apply sub_vector_values. }
  split.
  { unfold sub_observers, substitute_dict. rewrite map_map. cbn. apply map_ext_in. intros p Hp. f_equal.
    apply subs_restrict; [exact NS|exact V|]. now apply (in_flat (fun p => free_symbols (snd p))). }
  repeat split.
Qed.

Lemma substituted_subs d c r r' : no_self d -> values_from d r r' ->
  map (fun p => (fst p, eval r (snd p))) (c_subs (substituted d c)) =
  map (fun p => (fst p, eval r' (snd p)))
    (filter (fun p => negb (py_in String.eqb (fst p) (map fst d))) (c_subs c)).
Proof.
  intros NS V. cbn. rewrite pops_filter. unfold substitute_dict.
  induction (c_subs c) as [|p o IH]; [reflexivity|]. cbn [map filter fst].
  destruct (negb _); cbn [map]; [|exact IH]. rewrite IH. cbn. now rewrite (subs_all d (snd p) r r' NS V).
Qed.

Lemma substitute_commutes : forall d c, no_self d -> (forall s, In s (variables c) -> ~ In s (map fst d)) ->
  exists c', substitute_core d false false c = (c', None) /\
    (forall r r', values_from d r r' -> same_values r r' c c' /\
       map (fun p => (fst p, eval r (snd p))) (c_subs c') =
       map (fun p => (fst p, eval r' (snd p)))
         (filter (fun p => negb (py_in String.eqb (fst p) (map fst d))) (c_subs c))).
Proof.
  intros d c NS H. exists (substituted d c). split; [now apply substitute_with_ok|].
  intros r r' V. split; [now apply substituted_values|now apply substituted_subs].
Qed.

(** ** Gradients *)

Lemma dird_ext r r' v v' e : (forall s, In s (free_symbols e) -> r s = r' s) ->
  (forall s, In s (free_symbols e) -> v s = v' s) -> dird r v e = dird r' v' e.
Proof.
  induction e as [q|s|a IHa b IHb|a IHa b IHb|a IHa n|a IHa|f a IHa|a IHa b IHb t IHt e IHe];
    cbn; intros H H'; try reflexivity.
  - apply H'. now left.
  - rewrite IHa, IHb by (intros; (apply H || apply H'); apply in_or_app; auto). reflexivity.
  - rewrite IHa, IHb by (intros; (apply H || apply H'); apply in_or_app; auto).
    rewrite (eval_ext r r' a), (eval_ext r r' b) by (intros; apply H; apply in_or_app; auto). reflexivity.
  - rewrite IHa, (eval_ext r r' a) by assumption. reflexivity.
  - rewrite IHa, (eval_ext r r' a) by assumption. reflexivity.
  - rewrite IHa, (eval_ext r r' a) by assumption. reflexivity.
  - rewrite (eval_ext r r' a), (eval_ext r r' b) by (intros; apply H; rewrite !in_app_iff; tauto).
    rewrite IHt, IHe by (intros; (apply H || apply H'); rewrite !in_app_iff; tauto). reflexivity.
Qed.

Lemma dird_free r v e : (forall s, In s (free_symbols e) -> v s = 0%R) -> dird r v e = 0%R.
Proof.
  intros H. rewrite (dird_ext r r v (fun _ => 0%R) e) by (try reflexivity; exact H).
  clear. induction e as [q|s|a IHa b IHb|a IHa b IHb|a IHa n|a IHa|f a IHa|a IHa b IHb t IHt e IHe]; cbn;
    rewrite ?IHa, ?IHb, ?IHt, ?IHe; try ring; try reflexivity. now destruct (Rlt_dec _ _).
Qed.

Lemma dird_subst1 r v k w e :
  dird r v (subst [(k, w)] e) = dird (upd r k (eval r w)) (upd v k (dird r v w)) e.
Proof.
  induction e as [q|s|a IHa b IHb|a IHa b IHb|a IHa n|a IHa|f a IHa|a IHa b IHb t IHt e IHe]; cbn [subst dird].
  - reflexivity.
  - cbn. unfold upd. rewrite (String.eqb_sym s k). destruct (String.eqb k s); reflexivity.
  - now rewrite IHa, IHb.
  - now rewrite IHa, IHb, !eval_subst1.
  - now rewrite IHa, eval_subst1.
  - now rewrite IHa, eval_subst1.
  - now rewrite IHa, eval_subst1.
  - now rewrite !eval_subst1, IHt, IHe.
Qed.

(** Differentiating with respect to a symbol that is neither a key nor in a
    value commutes with the substitution. *)
Lemma diff_subs x d : forall r e, forward d -> ~ In x (map fst d) ->
  (forall k v, In (k, v) d -> ~ In x (free_symbols v)) ->
  eval r (diff x (subs d e)) = eval (through d r) (diff x e).
Proof.
  intros r e F. rewrite !diff_dird. revert r e F.
  induction d as [|[k v] d IH]; intros r e F HK HV; [reflexivity|].
  destruct F as [F1 F2]. change (subs ((k, v) :: d) e) with (subs d (subst [(k, v)] e)).
  rewrite IH; [|exact F2|cbn in HK; tauto|intros; eapply HV; right; eassumption].
  rewrite dird_subst1. apply dird_ext.
  - intros s _. unfold upd, through. cbn. rewrite (String.eqb_sym k s).
    destruct (String.eqb s k); [|reflexivity].
    apply eval_ext. intros s' Hs. rewrite assoc_notin; [reflexivity|]. intros Hi. exact (F1 s' Hi Hs).
  - intros s _. unfold upd. destruct (String.eqb_spec s k) as [->|]; [|reflexivity].
    rewrite dird_free.
    + unfold unit. destruct (String.eqb_spec k x) as [->|]; [exfalso; apply HK; now left|reflexivity].
    + intros s Hs. unfold unit. destruct (String.eqb_spec s x) as [->|]; [|reflexivity].
      exfalso. apply (HV k v); [now left|exact Hs].
Qed.

Lemma diff_free x e : incl (free_symbols (diff x e)) (free_symbols e).
Proof.
  assert (SA : forall a b l, incl (free_symbols a) l -> incl (free_symbols b) l -> incl (free_symbols (sadd a b)) l).
  { intros a b l Ha Hb s Hs. apply free_sadd in Hs. destruct Hs; auto. }
  assert (SM : forall a b l, incl (free_symbols a) l -> incl (free_symbols b) l -> incl (free_symbols (smul a b)) l).
  { intros a b l Ha Hb s Hs. apply free_smul in Hs. destruct Hs; auto. }
  assert (SN : forall a l, incl (free_symbols a) l -> incl (free_symbols (sneg a)) l).
  { intros a l Ha. apply SM; [intros s []|exact Ha]. }
  assert (SP : forall a n l, incl (free_symbols a) l -> incl (free_symbols (spow a n)) l).
  { intros a n l Ha. unfold spow. destruct n as [|[|n]]; [intros s []|exact Ha|]. destruct a; try exact Ha; intros s []. }
  induction e as [q|s|a IHa b IHb|a IHa b IHb|a IHa n|a IHa|f a IHa|a IHa b IHb t IHt e IHe]; cbn [diff free_symbols].
  - intros s [].
  - destruct (String.eqb s x); intros s' [].
  - apply SA; [apply incl_appl, IHa|apply incl_appr, IHb].
  - apply SA; apply SM; try (apply incl_appl, IHa); try (apply incl_appr, IHb); [apply incl_appr|apply incl_appl]; apply incl_refl.
  - destruct n as [|n]; [intros s []|]. apply SM; [|exact IHa]. apply SM; [intros s []|]. apply SP, incl_refl.
  - apply SM; [now apply SN|]. apply SP. apply incl_refl.
  - apply SM; [|exact IHa]. destruct f; cbn [fn_diff free_symbols]; try apply incl_refl; try (intros ? []; fail).
  - destruct (is0 (diff x t) && is0 (diff x e)); [intros s []|]. cbn [free_symbols].
    apply incl_app; [apply incl_appl, incl_refl|]. apply incl_app; [apply incl_appr, incl_appl, incl_refl|].
    apply incl_app; [apply incl_appr, incl_appr, incl_appl, IHt|apply incl_appr, incl_appr, incl_appr, IHe].
Qed.

Lemma substitute_plain d c : (forall s, In s (variables c) -> ~ In s (map fst d)) ->
  substitute_core d false false c = ok (substituted d c).
Proof. intros H. unfold substitute_core. now apply substitute_with_ok. Qed.

Lemma gradient_commutes : forall d c c' r r', no_self d -> (forall s, In s (variables c) -> ~ In s (map fst d)) ->
  (forall k v s, In (k, v) d -> In s (c_x c) -> ~ In s (free_symbols v)) ->
  substitute_core d false false c = (c', None) -> values_from d r r' ->
  map (eval r) (dxH c') = map (eval r') (dxH c).
Proof.
  intros d c c' r r' NS HV HX E V. rewrite substitute_plain in E by exact HV. apply (f_equal fst) in E. cbn [fst ok] in E. subst c'.
  unfold dxH. cbn [c_dxH c_H c_x substituted]. destruct (c_dxH c) as [l|]; cbn [option_map]; [now apply sub_vector_values|].
  unfold gradient. rewrite !map_map. apply map_ext_in. intros x Hx. unfold sub_scalar.
  rewrite diff_subs.
  - rewrite <- subs_through by (now apply no_self_forward, restrict_no_self).
    apply subs_restrict; [exact NS|exact V|]. apply diff_free.
  - now apply no_self_forward, restrict_no_self.
  - intros Hi. apply (HV x); [unfold variables; apply in_or_app; now left|].
    apply in_map_iff in Hi. destruct Hi as (p & <- & Hp). apply restrict_in in Hp. apply in_map. tauto.
  - intros k v Hk. apply restrict_in in Hk. apply (HX k v x); tauto.
Qed.

(** ** The dictionary of the core *)

Lemma dict_update_nil (e : list (string * expr)) : NoDup (map fst e) -> dict_update [] e = e.
Proof. intros H. now apply (dict_update_new e []). Qed.

Lemma nodup_filter_fst {B} (f : string * B -> bool) d : NoDup (map fst d) -> NoDup (map fst (filter f d)).
Proof.
  induction d as [|p d IH]; cbn; intros H; [constructor|]. inversion H as [|? ? H1 H2]; subst.
  destruct (f p); [|auto]. cbn. constructor; [|auto].
  intros Hi. apply H1. apply in_map_iff in Hi. destruct Hi as (q & Hq & Hi). apply filter_In in Hi.
  rewrite <- Hq. apply in_map. tauto.
Qed.

Lemma subs_num d q : subs d (Num q) = Num q.
Proof. unfold subs. induction d as [|p d IH]; [reflexivity|exact IH]. Qed.

(** After the expressions, only numbers are left in the dictionary. *)
Lemma subs_after_exprs c : NoDup (map fst (c_subs c)) ->
  c_subs (substituted (subsexprs c) c) = filter (fun p => is_num (snd p)) (c_subs c).
Proof.
  intros ND. cbn. rewrite pops_filter. unfold substitute_dict, subsexprs.
  set (d := filter (fun p => negb (is_num (snd p))) (c_subs c)).
  assert (K : forall p, In p (c_subs c) -> py_in String.eqb (fst p) (map fst d) = negb (is_num (snd p))).
  { intros p Hp. destruct (is_num (snd p)) eqn:E; cbn.
    - apply not_true_iff_false. rewrite py_in_str. intros Hi. apply in_map_iff in Hi.
      destruct Hi as (q & Hq & Hi). apply filter_In in Hi. destruct Hi as [Hi Hn].
      assert (p = q).
      { clear - ND Hp Hi Hq. induction (c_subs c) as [|a o IH]; [destruct Hp|]. cbn in ND. inversion ND as [|? ? H1 H2]; subst.
        destruct Hp as [->|Hp], Hi as [->|Hi]; auto; exfalso; apply H1; [rewrite <- Hq|rewrite Hq]; apply in_map; assumption. }
      subst q. rewrite E in Hn. discriminate.
    - apply py_in_str, in_map. apply filter_In. split; [exact Hp|]. now rewrite E. }
  clearbody d. induction (c_subs c) as [|p o IH]; [reflexivity|]. cbn [map filter fst snd].
  assert (IH' := IH ltac:(cbn in ND; now inversion ND) (fun q Hq => K q (or_intror Hq))).
  rewrite (K p (or_introl eq_refl)), negb_involutive. destruct p as [k v]. cbn [snd fst] in *.
  destruct (is_num v) eqn:E; [|exact IH']. rewrite IH'. destruct v; try discriminate. now rewrite subs_num.
Qed.

Lemma is_num_free v : is_num v = true -> free_symbols v = [].
Proof. destruct v; intros; try discriminate; reflexivity. Qed.

Lemma filter_all_in {B} (o : list (string * B)) ks : (forall p, In p o -> In (fst p) ks) ->
  filter (fun p => negb (py_in String.eqb (fst p) ks)) o = [].
Proof.
  induction o as [|p o IH]; intros K; [reflexivity|]. cbn [filter].
  assert (T : py_in String.eqb (fst p) ks = true) by (apply py_in_str, K; now left).
  rewrite T. cbn. apply IH. intros; apply K; now right.
Qed.

Lemma mat_same_trans r r1 r' A B C : mat_same r1 r' A B -> mat_same r r1 B C -> mat_same r r' A C.
Proof.
  intros (H1 & H2 & H3) (H4 & H5 & H6). split; [congruence|]. split; [congruence|].
  intros i j Hi Hj. rewrite H6 by congruence. now apply H3.
Qed.

Lemma same_values_trans r r1 r' c c1 c2 : same_values r1 r' c c1 -> same_values r r1 c1 c2 ->
  same_values r r' c c2.
Proof.
  intros (A1 & A2 & A3 & A4 & A5 & A6 & A7 & A8 & A9 & A10 & A11 & A12 & A13 & A14 & A15)
         (B1 & B2 & B3 & B4 & B5 & B6 & B7 & B8 & B9 & B10 & B11 & B12 & B13 & B14 & B15).
  unfold same_values. repeat split; try congruence; eapply mat_same_trans; eassumption.
Qed.

Lemma selfall_commutes : forall c, NoDup (map fst (c_subs c)) ->
  (forall s, In s (variables c) -> ~ In s (map fst (c_subs c))) ->
  (forall k v k' v', In (k, v) (c_subs c) -> In (k', v') (c_subs c) -> is_num v' = false ->
     ~ In k' (free_symbols v)) ->
  exists c', substitute_core [] true false c = (c', None) /\ c_subs c' = [] /\
    (forall r r', solved_by (c_subs c) r r' -> same_values r r' c c').
Proof.
  intros c ND HV NC.
  set (d1 := subsexprs c). set (c1 := substituted d1 c).
  assert (N1 : NoDup (map fst d1)) by (now apply nodup_filter_fst).
  assert (S1 : no_self d1).
  { intros k v k' H1 H2. apply filter_In in H1. apply in_map_iff in H2. destruct H2 as ([k2 v2] & <- & H2).
    apply filter_In in H2. cbn in *. destruct H2 as [H2 H3].
    apply (NC k v k2 v2); [tauto|exact H2|]. now destruct (is_num v2). }
  assert (sub1 : forall s, In s (map fst d1) -> In s (map fst (c_subs c))).
  { intros s Hs. apply in_map_iff in Hs. destruct Hs as (p & <- & Hp). apply filter_In in Hp. apply in_map. tauto. }
  assert (E1 : substitute_exprs [] c = ok c1).
  { unfold substitute_exprs. fold d1. rewrite dict_update_nil by exact N1. apply substitute_with_ok.
    intros s Hs Hk. apply (HV s Hs). now apply sub1. }
  set (d2 := filter (fun p => is_num (snd p)) (c_subs c)).
  assert (E2 : c_subs c1 = d2) by (now apply subs_after_exprs).
  assert (N2 : NoDup (map fst d2)) by (now apply nodup_filter_fst).
  assert (S2 : no_self d2).
  { intros k v k' H1 _. apply filter_In in H1. cbn in H1. rewrite (is_num_free v); tauto. }
  assert (sub2 : forall s, In s (map fst d2) -> In s (map fst (c_subs c))).
  { intros s Hs. apply in_map_iff in Hs. destruct Hs as (p & <- & Hp). apply filter_In in Hp. apply in_map. tauto. }
  exists (substituted d2 c1). split; [|split].
  - unfold substitute_core. rewrite E1. cbn [obind ok]. rewrite E2, dict_update_nil by exact N2.
    apply substitute_with_ok. intros s Hs Hk. apply (HV s); [exact Hs|now apply sub2].
  - cbn [c_subs substituted]. rewrite E2, pops_filter. unfold substitute_dict.
    apply filter_all_in. intros p Hp. apply in_map_iff in Hp. destruct Hp as (q & <- & Hq). exact (in_map fst d2 q Hq).
  - intros r r' [V1 V2].
    set (r1 := fun s => if in_dec string_dec s (map fst d2) then r' s else r s).
    assert (W2 : values_from d2 r r1).
    { split.
      - intros k v Hk. unfold r1. destruct (in_dec string_dec k (map fst d2)) as [_|Hn].
        + apply filter_In in Hk. cbn in Hk. rewrite (V1 k v) by tauto. apply eval_ext.
          rewrite (is_num_free v) by tauto. intros s [].
        + exfalso. apply Hn. now apply (in_map fst d2 (k, v)).
      - intros s Hs. unfold r1. now destruct (in_dec string_dec s (map fst d2)). }
    assert (W1 : values_from d1 r1 r').
    { assert (part : forall s, In s (map fst (c_subs c)) -> In s (map fst d1) \/ In s (map fst d2)).
      { intros s Hs. apply in_map_iff in Hs. destruct Hs as (p & <- & Hp).
        destruct (is_num (snd p)) eqn:E; [right|left]; apply in_map, filter_In; (split; [exact Hp|]); now rewrite E. }
      split.
      - intros k v Hk. apply filter_In in Hk. cbn in Hk. rewrite (V1 k v) by tauto. apply eval_ext. intros s Hs.
        unfold r1. destruct (in_dec string_dec s (map fst d2)) as [_|Hn]; [reflexivity|]. apply V2. intros Hi.
        destruct (part s Hi) as [H1|H1]; [|contradiction].
        apply in_map_iff in H1. destruct H1 as ([k2 v2] & Hq & H1). cbn in Hq. subst k2.
        apply filter_In in H1. cbn in H1. apply (NC k v s v2); [tauto|tauto| |exact Hs].
        destruct H1 as [_ H1]. now destruct (is_num v2).
      - intros s Hs. unfold r1. destruct (in_dec string_dec s (map fst d2)) as [_|Hn]; [reflexivity|].
        apply V2. intros Hi. destruct (part s Hi); contradiction. }
    exact (same_values_trans r r1 r' c c1 _ (substituted_values d1 c r1 r' S1 W1) (substituted_values d2 c1 r r1 S2 W2)).
Qed.

(** Expressions that refer to other expressions: the second one is lost. *)
Definition chained : core :=
  set_subs [("A", Add (Sym "B") (Num 1)); ("B", Mul (Num 2) (Sym "C")); ("C", Num 3)]
    (set_H (Mul (Sym "A") (Pow (Sym "x") 2)) (set_x ["x"] (new_core "chained"))).
Lemma chained_refuted : exists c c' s, substitute_core [] true false c = (c', None) /\
  In s (map fst (c_subs c)) /\ In s (free_symbols (c_H c')).
Proof.
  exists chained. unfold substitute_core.
  assert (H1 : substitute_exprs [] chained = ok (substituted (subsexprs chained) chained)).
  { unfold substitute_exprs. rewrite dict_update_nil by (repeat constructor; cbn; intuition discriminate).
    apply substitute_with_ok. intros s [<-|[]]. cbn. intuition discriminate. }
  rewrite H1. cbn [obind ok].
  rewrite subs_after_exprs by (repeat constructor; cbn; intuition discriminate).
  rewrite dict_update_nil by (repeat constructor; cbn; intuition discriminate).
  rewrite substitute_with_ok by (intros s [<-|[]]; cbn; intuition discriminate).
  eexists. exists "B". split; [reflexivity|]. cbn. auto.
Qed.

(** The coefficients of the connectors keep their symbols. *)
Definition gyrated : core :=
  set_connectors [mkConn "u0" "u1" "y0" "y1" (Sym "alpha")]
    (set_subs [("alpha", Num 2)] (new_core "gyrated")).
Lemma connectors_refuted : exists c c' k, substitute_core [] true false c = (c', None) /\
  In k (c_connectors c') /\ c_subs c = [("alpha", Num 2)] /\ c_subs c' = [] /\
  In "alpha" (free_symbols (k_alpha k)).
Proof.
  exists gyrated. unfold substitute_core.
  assert (H1 : substitute_exprs [] gyrated = ok (substituted (subsexprs gyrated) gyrated)).
  { unfold substitute_exprs. rewrite dict_update_nil by constructor. apply substitute_with_ok. intros s []. }
  rewrite H1. cbn [obind ok].
  rewrite subs_after_exprs by (repeat constructor; cbn; tauto).
  rewrite dict_update_nil by (repeat constructor; cbn; tauto).
  rewrite substitute_with_ok by (intros s []).
  eexists. exists (mkConn "u0" "u1" "y0" "y1" (Sym "alpha")). split; [reflexivity|].
  split; [now left|]. split; [reflexivity|]. split; [reflexivity|]. now left.
Qed.

(** A capacitor whose value is given through its inverse. *)
Definition capacitor : core :=
  set_subs [("iC", Inv (Sym "C")); ("C", Num 4)]
    (set_H (Mul (Mul (Num (1#2)) (Sym "iC")) (Pow (Sym "x") 2))
       (set_z [Mul (Sym "iC") (Sym "w")] (set_w ["w"] (set_x ["x"] (new_core "capacitor"))))).
Lemma capacitor_hyps : NoDup (map fst (c_subs capacitor)) /\
  (forall s, In s (variables capacitor) -> ~ In s (map fst (c_subs capacitor))) /\
  (forall k v k' v', In (k, v) (c_subs capacitor) -> In (k', v') (c_subs capacitor) -> is_num v' = false ->
     ~ In k' (free_symbols v)) /\
  solved_by (c_subs capacitor) (fun _ => 2%R)
    (fun s => if String.eqb s "iC" then (1/4)%R else if String.eqb s "C" then 4%R else 2%R).
Proof.
  split; [repeat constructor; cbn; intuition discriminate|].
  split; [intros s [<-|[<-|[]]]; cbn; intuition discriminate|].
  split.
  - intros k v k' v' [H|[H|[]]] [H'|[H'|[]]]; injection H as <- <-; injection H' as <- <-; cbn; intuition discriminate.
  - split.
    + intros k v [H|[H|[]]]; injection H as <- <-; cbn; unfold Q2R; cbn; lra.
    + intros s Hs. cbn in Hs. destruct (String.eqb_spec s "iC") as [->|]; [exfalso; auto|].
      destruct (String.eqb_spec s "C") as [->|]; [exfalso; auto|]. reflexivity.
Qed.
