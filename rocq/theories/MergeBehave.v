(** The behaviours of a linear group at its terminals. *)
From Coq Require Import String List ZArith QArith Qreals Reals Bool Lra Lia Permutation.
From Verif Require Import Py Expr RSum Mat Core ExprProofs Spec_Calculus Calculus Deriv CalculusProofs Merge Spec_Merge MergeProofs.
Import ListNotations.
Local Open Scope string_scope.
Local Open Scope list_scope.
Local Open Scope R_scope.

(** ** Normal form: storages driven by the shared variable, storages that drive
    it, and dissipative edges. *)
Inductive kind := RS | AS | DD.
Definition nlaw (kd : kind) (k : R) (x a b : R -> R) : Prop :=
  forall t, match kd with
            | RS => derivable_pt_lim x t (a t) /\ b t = k * x t
            | AS => derivable_pt_lim x t (b t) /\ a t = k * x t
            | DD => b t = k * a t
            end.
Fixpoint nb (l : list (kind * R)) (a b : R -> R) : Prop :=
  match l with
  | [] => forall t, b t = 0
  | (kd, k) :: l' => exists x b1 b2, nlaw kd k x a b1 /\ nb l' a b2 /\ forall t, b t = b1 t + b2 t
  end.

Lemma deriv_ext f g t d : (forall s, f s = g s) -> derivable_pt_lim f t d -> derivable_pt_lim g t d.
Proof. intros H. apply derivable_pt_lim_ext_loc with (eps := 1); [lra|]. intros; apply H. Qed.
Lemma deriv_comb f g t d d' c c' : derivable_pt_lim f t d -> derivable_pt_lim g t d' ->
  derivable_pt_lim (fun s => c * f s + c' * g s) t (c * d + c' * d').
Proof.
  intros H1 H2. apply (derivable_pt_lim_plus (fun s => c * f s) (fun s => c' * g s)).
  - now apply (derivable_pt_lim_scal f).
  - now apply (derivable_pt_lim_scal g).
Qed.
Lemma deriv_scale f t d c : derivable_pt_lim f t d -> derivable_pt_lim (fun s => c * f s) t (c * d).
Proof. intros H. now apply (derivable_pt_lim_scal f). Qed.

Lemma nlaw_ext kd k x a a' b b' : (forall t, a t = a' t) -> (forall t, b t = b' t) -> nlaw kd k x a b -> nlaw kd k x a' b'.
Proof. intros Ha Hb H t. specialize (H t). rewrite <- Ha, <- Hb. exact H. Qed.
Lemma nb_ext l : forall a a' b b', (forall t, a t = a' t) -> (forall t, b t = b' t) -> nb l a b -> nb l a' b'.
Proof.
  induction l as [|[kd k] l IH]; intros a a' b b' Ha Hb H; cbn in *.
  - intros t. now rewrite <- Hb.
  - destruct H as (x & b1 & b2 & H1 & H2 & H3). exists x, b1, b2.
    split; [eapply nlaw_ext; [exact Ha|reflexivity|exact H1]|].
    split; [eapply IH; [exact Ha|reflexivity|exact H2]|]. intros t. now rewrite <- Hb.
Qed.

(** An edge placed the other way round. *)
Lemma nlaw_sign kd k x a b o : o = 1 \/ o = -1 -> nlaw kd k x (fun t => o * a t) b ->
  nlaw kd k (fun t => o * x t) a (fun t => o * b t).
Proof.
  intros Ho H t. specialize (H t).
  assert (E : forall u, o * (o * u) = u) by (intros u; destruct Ho as [->| ->]; ring).
  destruct kd.
  - destruct H as [H1 H2]. split; [rewrite <- (E (a t)); now apply deriv_scale|rewrite H2; ring].
  - destruct H as [H1 H2]. split; [now apply deriv_scale|]. rewrite <- (E (a t)), H2. ring.
  - rewrite H. rewrite <- (E (a t)) at 2. ring.
Qed.
Lemma nlaw_sign' kd k x a b o : o = 1 \/ o = -1 -> nlaw kd k x a b ->
  nlaw kd k (fun t => o * x t) (fun t => o * a t) (fun t => o * b t).
Proof.
  intros Ho H. apply (nlaw_sign kd k x (fun t => o * a t) b o Ho).
  eapply nlaw_ext; [|reflexivity|exact H]. intros t. destruct Ho as [->| ->]; ring.
Qed.

Lemma nb_app l1 l2 : forall a b, nb (l1 ++ l2) a b <->
  exists b1 b2, nb l1 a b1 /\ nb l2 a b2 /\ forall t, b t = b1 t + b2 t.
Proof.
  induction l1 as [|[kd k] l1 IH]; intros a b; cbn.
  - split.
    + intros H. exists (fun _ => 0), b. repeat split; auto. intros t. ring.
    + intros (b1 & b2 & H1 & H2 & H3). eapply nb_ext; [reflexivity| |exact H2]. intros t. rewrite H3, H1. ring.
  - split.
    + intros (x & c1 & c2 & H1 & H2 & H3). apply IH in H2. destruct H2 as (d1 & d2 & H4 & H5 & H6).
      exists (fun t => c1 t + d1 t), d2. split; [exists x, c1, d1; auto|]. split; [exact H5|].
      intros t. rewrite H3, H6. ring.
    + intros (b1 & b2 & (x & c1 & c2 & H1 & H2 & H3) & H4 & H5). exists x, c1, (fun t => c2 t + b2 t).
      split; [exact H1|]. split; [apply IH; exists c2, b2; auto|]. intros t. rewrite H5, H3. ring.
Qed.

Lemma nb_perm l l' : Permutation l l' -> forall a b, nb l a b -> nb l' a b.
Proof.
  induction 1 as [|[kd k] l l' HP IH|[kd k] [kd' k'] l|l l' l'' H1 IH1 H2 IH2]; intros a b H.
  - exact H.
  - cbn in *. destruct H as (x & b1 & b2 & H1 & H2 & H3). exists x, b1, b2. auto.
  - cbn in *. destruct H as (x & b1 & b2 & H1 & (x' & b1' & b2' & H2 & H3 & H4) & H5).
    exists x', b1', (fun t => b1 t + b2' t). split; [exact H2|]. split.
    + exists x, b1, b2'. auto.
    + intros t. rewrite H5, H4. ring.
  - auto.
Qed.

(** ** Merging in normal form *)
Definition merged_k (kd : kind) (ks : list R) : R :=
  match kd with AS => / inv_sum ks | _ => lsum ks end.

Lemma nlaw_two kd k1 k2 a b : 0 < k1 -> 0 < k2 ->
  (exists x x' b1 b2, nlaw kd k1 x a b1 /\ nlaw kd k2 x' a b2 /\ forall t, b t = b1 t + b2 t) <->
  exists X, nlaw kd (match kd with AS => / (/ k1 + / k2) | _ => k1 + k2 end) X a b.
Proof.
  intros P1 P2. pose proof (Rinv_0_lt_compat _ P1) as Q1. pose proof (Rinv_0_lt_compat _ P2) as Q2. destruct kd; split.
  - intros (x & x' & b1 & b2 & H1 & H2 & H3).
    exists (fun t => k1 / (k1 + k2) * x t + k2 / (k1 + k2) * x' t). intros t.
    destruct (H1 t) as [D1 E1]. destruct (H2 t) as [D2 E2]. split.
    + replace (a t) with (k1 / (k1 + k2) * a t + k2 / (k1 + k2) * a t) by (field; lra). now apply deriv_comb.
    + rewrite H3, E1, E2. field. lra.
  - intros (X & H). exists X, X, (fun t => k1 * X t), (fun t => k2 * X t). split; [|split].
    + intros t. destruct (H t) as [D E]. split; [exact D|reflexivity].
    + intros t. destruct (H t) as [D E]. split; [exact D|reflexivity].
    + intros t. destruct (H t) as [D E]. rewrite E. ring.
  - intros (x & x' & b1 & b2 & H1 & H2 & H3). exists (fun t => 1 * x t + 1 * x' t). intros t.
    destruct (H1 t) as [D1 E1]. destruct (H2 t) as [D2 E2]. split.
    + rewrite H3. replace (b1 t + b2 t) with (1 * b1 t + 1 * b2 t) by ring. now apply deriv_comb.
    + replace (x t) with (/ k1 * a t) by (rewrite E1; field; lra).
      replace (x' t) with (/ k2 * a t) by (rewrite E2; field; lra).
      field. repeat split; try lra.
  - intros (X & H). set (K := / (/ k1 + / k2)) in *.
    exists (fun t => K / k1 * X t), (fun t => K / k2 * X t), (fun t => K / k1 * b t), (fun t => K / k2 * b t). split; [|split].
    + intros t. destruct (H t) as [D E]. split; [now apply deriv_scale|]. rewrite E. field. lra.
    + intros t. destruct (H t) as [D E]. split; [now apply deriv_scale|]. rewrite E. field. lra.
    + intros t. unfold K. field. repeat split; try lra.
  - intros (x & x' & b1 & b2 & H1 & H2 & H3). exists x. intros t. specialize (H1 t). specialize (H2 t). cbn in *.
    rewrite H3, H1, H2. ring.
  - intros (X & H). exists X, X, (fun t => k1 * a t), (fun t => k2 * a t). split; [|split]; try (intros t; reflexivity).
    intros t. specialize (H t). cbn in H. rewrite H. ring.
Qed.

Lemma merged_k_pos kd ks : ks <> [] -> (forall k, In k ks -> 0 < k) -> 0 < merged_k kd ks.
Proof.
  intros N H. destruct kd; cbn; [now apply lsum_pos| |now apply lsum_pos].
  apply Rinv_0_lt_compat. now apply inv_sum_pos.
Qed.

Lemma nb_merge kd ks : ks <> [] -> (forall k, In k ks -> 0 < k) -> forall a b,
  nb (map (fun k => (kd, k)) ks) a b <-> exists X, nlaw kd (merged_k kd ks) X a b.
Proof.
  induction ks as [|k ks IH]; [congruence|]. intros _ Hp a b.
  assert (Hk : 0 < k) by (apply Hp; now left).
  destruct ks as [|k' ks].
  - cbn [map nb]. assert (E : merged_k kd [k] = k).
    { destruct kd; cbn; unfold inv_sum, lsum; cbn; [ring| |ring]. rewrite Rplus_0_r. now rewrite Rinv_inv. }
    rewrite E. split.
    + intros (x & b1 & b2 & H1 & H2 & H3). exists x. eapply nlaw_ext; [reflexivity| |exact H1].
      intros t. rewrite H3, H2. ring.
    + intros (X & H). exists X, b, (fun _ => 0). repeat split; auto. intros t. ring.
  - change (nb (map (fun k0 => (kd, k0)) (k :: k' :: ks)) a b) with
      (exists x b1 b2, nlaw kd k x a b1 /\ nb (map (fun k0 => (kd, k0)) (k' :: ks)) a b2 /\ forall t, b t = b1 t + b2 t).
    assert (Hp' : forall k0, In k0 (k' :: ks) -> 0 < k0) by (intros; apply Hp; now right).
    assert (Hm : 0 < merged_k kd (k' :: ks)) by (apply merged_k_pos; [congruence|exact Hp']).
    assert (E : merged_k kd (k :: k' :: ks) =
                match kd with AS => / (/ k + / merged_k kd (k' :: ks)) | _ => k + merged_k kd (k' :: ks) end).
    { destruct kd; cbn [merged_k]; [reflexivity| |reflexivity].
      assert (0 < inv_sum (k' :: ks)) by (apply inv_sum_pos; [congruence|exact Hp']).
      rewrite Rinv_inv. reflexivity. }
    rewrite E, <- (nlaw_two kd k _ a b Hk Hm). split.
    + intros (x & b1 & b2 & H1 & H2 & H3). apply IH in H2; [|congruence|exact Hp']. destruct H2 as (x' & H2).
      exists x, x', b1, b2. auto.
    + intros (x & x' & b1 & b2 & H1 & H2 & H3). exists x, b1, b2. split; [exact H1|]. split; [|exact H3].
      apply IH; [congruence|exact Hp'|]. now exists x'.
Qed.

(** ** From the specification to the normal form *)
Definition code (q : sctrl) (k : string -> R) (e : sedge) : kind * R :=
  let c := k (s_label e) in
  if s_stor e then (if sctrl_eqb (s_ctrl e) q then RS else AS, c)
  else (DD, match s_ctrl e with
            | SI => match q with SE => c | _ => / c end
            | c' => if sctrl_eqb c' q then c else / c
            end).

Section B.
Context (P : list string) (r : env) (g : subgraph) (k : string -> R).
Hypothesis HL : linear_with P r g k.
Hypothesis HND : NoDup (labels g).
Hypothesis HP : forall s, In s P -> ~ In s (labels g).

Lemma HP' s : In s (labels g) -> ~ In s P.
Proof. intros H1 H2. exact (HP s H2 H1). Qed.

Lemma partial_at r' e : same_on P r r' -> In e (g_group g) -> s_stor e = true ->
  is_partial r' (s_label e) (g_H g) (k (s_label e) * r' (s_label e)).
Proof.
  intros Hr He Hs. destruct HL as (_ & (c & HH) & _). unfold is_partial.
  assert (HeP : ~ In (s_label e) P) by (apply HP'; now apply in_map).
  assert (G : forall l, NoDup (map s_label l) -> In e l -> exists c', forall t,
    sum_over l (storage_energy k (upd r' (s_label e) t)) = c' + k (s_label e) / 2 * t ^ 2).
  { assert (G0 : forall l, ~ In (s_label e) (map s_label l) -> forall t,
      sum_over l (storage_energy k (upd r' (s_label e) t)) = sum_over l (storage_energy k r')).
    { induction l as [|e' l IH]; intros N t; [reflexivity|]. unfold sum_over in *. cbn. rewrite IH by (intros H; apply N; now right).
      f_equal. unfold storage_energy. destruct (s_stor e'); [|reflexivity]. rewrite upd_neq; [reflexivity|].
      intros E. apply N. left. exact E. }
    induction l as [|e' l IH]; intros N Hi; [destruct Hi|]. inversion N as [|? ? N1 N2]; subst.
    destruct Hi as [->|Hi].
    - exists (sum_over l (storage_energy k r')). intros t. unfold sum_over in *. cbn.
      specialize (G0 l N1 t). rewrite G0. unfold storage_energy at 1. rewrite Hs, upd_eq. ring.
    - destruct (IH N2 Hi) as (c' & Hc). exists (storage_energy k r' e' + c'). intros t. unfold sum_over in *. cbn.
      rewrite Hc. unfold storage_energy. destruct (s_stor e').
      + rewrite upd_neq; [ring|]. intros E. apply N1. rewrite E. now apply in_map.
      + ring. }
  destruct (G (g_group g) HND He) as (c' & Hc).
  eapply derivable_pt_lim_ext_loc with (f := fun t => (c + c') + k (s_label e) / 2 * t ^ 2) (eps := 1); [lra| |].
  - intros h _. destruct (HH (upd r' (s_label e) (r' (s_label e) + h))) as [_ ->]; [now apply same_upd|].
    rewrite Hc. ring.
  - assert (D : derivable_pt_lim (fun t => (c + c') + k (s_label e) / 2 * t ^ 2) (r' (s_label e))
                 (0 + k (s_label e) / 2 * (INR 2 * r' (s_label e) ^ pred 2))).
    { apply (derivable_pt_lim_plus (fun _ => c + c') (fun t => k (s_label e) / 2 * t ^ 2)).
      - apply derivable_pt_lim_const.
      - apply (derivable_pt_lim_scal (fun t => t ^ 2)). apply derivable_pt_lim_pow. }
    replace (k (s_label e) * r' (s_label e)) with (0 + k (s_label e) / 2 * (INR 2 * r' (s_label e) ^ pred 2)); [exact D|].
    cbn. field.
Qed.

Lemma partial_iff r' e d : same_on P r r' -> In e (g_group g) -> s_stor e = true ->
  is_partial r' (s_label e) (g_H g) d <-> d = k (s_label e) * r' (s_label e).
Proof.
  intros Hr He Hs. pose proof (partial_at r' e Hr He Hs) as H. split.
  - intros H'. eapply uniqueness_limite; [exact H'|exact H].
  - intros ->. exact H.
Qed.

Lemma diss_iff w z c i o : In w (labels g) -> linear_law P r w z c -> diss_law r w z i o <-> o = c * i.
Proof.
  intros Hw (e & -> & H). assert (E : eval (upd r w i) e = c * i).
  { destruct (H (upd r w i)) as [_ ->].
    - apply same_upd; [intros p _; reflexivity|]. now apply HP'.
    - now rewrite upd_eq. }
  split.
  - intros (e' & E' & ->). injection E' as <-. exact E.
  - intros ->. exists e. split; [reflexivity|]. now rewrite E.
Qed.

Lemma edge_iff v e eff flx : (forall t, same_on P r (v t)) -> In e (g_group g) ->
  edge_law r (g_H g) v e eff flx <->
  match g_real g with
  | SE => nlaw (fst (code SE k e)) (snd (code SE k e)) (fun t => v t (s_label e)) eff flx
  | SF => nlaw (fst (code SF k e)) (snd (code SF k e)) (fun t => v t (s_label e)) flx eff
  | SI => False
  end.
Proof.
  intros Hv He. destruct HL as (HR & _ & HE). destruct (HE e He) as [Hk Hm].
  assert (Hw : In (s_label e) (labels g)) by now apply in_map.
  assert (INV : forall u w, w = k (s_label e) * u <-> u = / k (s_label e) * w).
  { intros u w. split; intros ->; field; lra. }
  assert (PI := fun t d => partial_iff (v t) e d (Hv t) He).
  unfold edge_law, nlaw, code. destruct (s_stor e); [specialize (fun t d => PI t d eq_refl)|].
  - destruct (s_ctrl e); [| |congruence]; destruct HR as [-> | ->]; cbn; (split; intros H t; destruct (H t) as [H1 H2];
      (split; [exact H1|]); now apply (PI t)).
  - destruct (s_ctrl e).
    + destruct HR as [-> | ->]; cbn; split; intros H t; specialize (H t).
      * now apply (diss_iff _ _ _ _ _ Hw Hm).
      * now apply (diss_iff _ _ _ _ _ Hw Hm).
      * apply (diss_iff _ _ _ _ _ Hw Hm) in H. now apply INV.
      * apply (diss_iff _ _ _ _ _ Hw Hm). now apply INV.
    + destruct HR as [-> | ->]; cbn; split; intros H t; specialize (H t).
      * apply (diss_iff _ _ _ _ _ Hw Hm) in H. now apply INV.
      * apply (diss_iff _ _ _ _ _ Hw Hm). now apply INV.
      * now apply (diss_iff _ _ _ _ _ Hw Hm).
      * now apply (diss_iff _ _ _ _ _ Hw Hm).
    + destruct Hm as [Hm1 Hm2]. destruct HR as [-> | ->]; cbn; split; intros H t; specialize (H t).
      * destruct H as [H _]. now apply (diss_iff _ _ _ _ _ Hw Hm1).
      * split; [now apply (diss_iff _ _ _ _ _ Hw Hm1)|]. apply (diss_iff _ _ _ _ _ Hw Hm2). now apply INV.
      * destruct H as [_ H]. now apply (diss_iff _ _ _ _ _ Hw Hm2).
      * split; [|now apply (diss_iff _ _ _ _ _ Hw Hm2)]. apply (diss_iff _ _ _ _ _ Hw Hm1). now apply INV.
Qed.

Lemma sign_cases e : sign e = 1 \/ sign e = -1.
Proof. unfold sign. destruct (s_pos e); auto. Qed.

Lemma collect q v sh su A : forall l,
  (forall e, In e l -> nlaw (fst (code q k e)) (snd (code q k e)) (v e) (sh (s_label e)) (su (s_label e))) ->
  (forall e, In e l -> forall t, sh (s_label e) t = sign e * A t) ->
  nb (map (code q k) l) A (fun t => sum_over l (fun e => sign e * su (s_label e) t)).
Proof.
  induction l as [|e l IH]; intros H1 H2; cbn; [reflexivity|].
  destruct (code q k e) as [kd kk] eqn:EC.
  exists (fun t => sign e * v e t), (fun t => sign e * su (s_label e) t), (fun t => sum_over l (fun e => sign e * su (s_label e) t)).
  split; [|split].
  - apply nlaw_sign; [apply sign_cases|]. specialize (H1 e (or_introl eq_refl)). rewrite EC in H1. cbn in H1.
    eapply nlaw_ext; [|reflexivity|exact H1]. intros t. apply H2. now left.
  - apply IH; intros e' He'; [apply H1|apply H2]; now right.
  - intros t. unfold sum_over. cbn. reflexivity.
Qed.

Lemma choose q A : forall l B, NoDup (map s_label l) -> nb (map (code q k) l) A B ->
  exists (v sh su : string -> R -> R),
    (forall e, In e l -> nlaw (fst (code q k e)) (snd (code q k e)) (v (s_label e)) (sh (s_label e)) (su (s_label e))) /\
    (forall e, In e l -> forall t, sh (s_label e) t = sign e * A t) /\
    forall t, B t = sum_over l (fun e => sign e * su (s_label e) t).
Proof.
  induction l as [|e l IH]; intros B N H; cbn in H.
  - exists (fun _ _ => 0), (fun _ _ => 0), (fun _ _ => 0). repeat split; try (intros e []). exact H.
  - destruct (code q k e) as [kd kk] eqn:EC. destruct H as (x & b1 & b2 & H1 & H2 & H3).
    inversion N as [|? ? N1 N2]; subst. destruct (IH b2 N2 H2) as (v & sh & su & G1 & G2 & G3).
    set (ov := fun (f : string -> R -> R) (u : R -> R) s => if String.eqb s (s_label e) then u else f s).
    exists (ov v (fun t => sign e * x t)), (ov sh (fun t => sign e * A t)), (ov su (fun t => sign e * b1 t)).
    assert (O1 : forall f u, ov f u (s_label e) = u) by (intros; unfold ov; now rewrite String.eqb_refl).
    assert (O2 : forall f u e', In e' l -> ov f u (s_label e') = f (s_label e')).
    { intros f u e' He'. unfold ov. destruct (String.eqb_spec (s_label e') (s_label e)) as [E|]; [|reflexivity].
      exfalso. apply N1. rewrite <- E. now apply in_map. }
    split; [|split].
    + intros e' [<-|He']; rewrite ?O1, ?O2 by assumption.
      * rewrite EC. cbn. apply nlaw_sign'; [apply sign_cases|exact H1].
      * now apply G1.
    + intros e' [<-|He'] t; rewrite ?O1, ?O2 by assumption; [reflexivity|now apply G2].
    + intros t. rewrite H3, G3. unfold sum_over. cbn. rewrite O1. f_equal.
      * destruct (sign_cases e) as [-> | ->]; ring.
      * f_equal. apply map_ext_in. intros e' He'. now rewrite O2.
Qed.

Lemma behaviour_nb E F : behaviour r g E F <->
  match g_real g with
  | SE => nb (map (code SE k) (g_group g)) E F
  | SF => nb (map (code SF k) (g_group g)) F E
  | SI => False
  end.
Proof.
  pose proof HL as (HR & _ & _). split.
  - intros (v & eff & flx & Hv & He & Ht).
    assert (Hs : forall t, same_on P r (v t)) by (intros t p Hp; apply Hv; now apply HP).
    assert (EI := fun e (Hi : In e (g_group g)) => proj1 (edge_iff v e _ _ Hs Hi) (He e Hi)).
    destruct HR as [R0|R0]; rewrite R0 in *.
    + eapply nb_ext; [reflexivity| |apply (collect SE (fun e t => v t (s_label e)) eff flx E)].
      * intros t. cbv beta. symmetry. apply (Ht t).
      * exact EI.
      * intros e Hi t. now apply (Ht t).
    + eapply nb_ext; [reflexivity| |apply (collect SF (fun e t => v t (s_label e)) flx eff F)].
      * intros t. cbv beta. symmetry. apply (Ht t).
      * exact EI.
      * intros e Hi t. now apply (Ht t).
  - intros H.
    assert (V : forall x : string -> R -> R, exists v : R -> env, (forall t s, ~ In s (labels g) -> v t s = r s) /\
       forall t s, In s (labels g) -> v t s = x s t).
    { intros x. exists (fun t s => if in_dec string_dec s (labels g) then x s t else r s).
      split; intros t s Hi; destruct (in_dec string_dec s (labels g)); tauto. }
    destruct HR as [R0|R0]; rewrite R0 in *.
    + destruct (choose SE E (g_group g) F HND H) as (x & sh & su & G1 & G2 & G3).
      destruct (V x) as (v & V1 & V2). exists v, sh, su. split; [exact V1|]. split.
      * intros e He. apply edge_iff; [|exact He|].
        { intros t p Hp. apply V1. now apply HP. }
        rewrite R0. specialize (G1 e He). intros t. specialize (G1 t).
        destruct (fst (code SE k e)); [| |exact G1].
        all: rewrite V2 by (now apply in_map); destruct G1 as [G11 G12]; split; [|exact G12];
          eapply deriv_ext; [|exact G11]; intros u; cbv beta; rewrite V2 by (now apply in_map); reflexivity.
      * intros t. rewrite R0. split; [intros e He; now apply G2|apply G3].
    + destruct (choose SF F (g_group g) E HND H) as (x & sh & su & G1 & G2 & G3).
      destruct (V x) as (v & V1 & V2). exists v, su, sh. split; [exact V1|]. split.
      * intros e He. apply edge_iff; [|exact He|].
        { intros t p Hp. apply V1. now apply HP. }
        rewrite R0. specialize (G1 e He). intros t. specialize (G1 t).
        destruct (fst (code SF k e)); [| |exact G1].
        all: rewrite V2 by (now apply in_map); destruct G1 as [G11 G12]; split; [|exact G12];
          eapply deriv_ext; [|exact G11]; intros u; cbv beta; rewrite V2 by (now apply in_map); reflexivity.
      * intros t. rewrite R0. split; [intros e He; now apply G2|apply G3].
Qed.
End B.
