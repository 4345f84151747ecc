(** Proofs for the fractional derivators. *)
From Coq Require Import String List Reals Arith Lia.
From Coquelicot Require Import Complex.
From Verif Require Import Py Graph Frac Spec_Frac FracNames FracProofs.
Import ListNotations.
Local Open Scope list_scope.
Local Open Scope C_scope.

Lemma zero_sum a b : a + b = RtoC 0 -> a = - b.
Proof. intros H. replace a with (a + b - b) by ring. rewrite H. ring. Qed.

(** ** Effort-controlled derivator *)
Section DEC.
Variables (label n1 n2 : string) (ws : list (R * R)) (s : C) (control : string -> bool) (v f : string -> C).
Hypothesis Hn : n1 <> n2.
Hypothesis Hu1 : unused (first_node label) n1 n2.
Hypothesis Hu2 : unused (second_node label) n1 n2.
Hypothesis Hb : behaviour s control n1 n2 (fracderec label n1 n2 ws) v f.
Hypothesis Hc : forall n, (n < length ws)%nat -> control (label_A label n) = false.
Hypothesis Hg : Forall (der_good s) ws.
Hypothesis Hs : s <> RtoC 0.
Let fR n := f ("w" ++ label ++ "R" ++ str n)%string.
Let fS n := f ("x" ++ label ++ "Q" ++ str n)%string.
Let fA n := f (label_A label n).
Let fB n := f (label_B label n).

Lemma dec_out n m : outflow (derec_branch label n1 n2 ws m) f n =
  (if String.eqb (first_node label m) n then fR m + fA m else RtoC 0) +
  (if String.eqb (second_node label m) n then fS m + fB m else RtoC 0) -
  (if String.eqb n1 n then fR m else RtoC 0) - (if String.eqb n2 n then fA m else RtoC 0) -
  (if String.eqb datum n then fS m + fB m else RtoC 0).
Proof.
  unfold outflow, leaves. cbn [derec_branch dissipative storage transformer_edges Datatypes.app map f_src f_dst f_label fst snd].
  rewrite !csum_cons, csum_nil. unfold fR, fS, fA, fB, label_A, label_B.
  destruct (String.eqb (first_node label m) n), (String.eqb (second_node label m) n), (String.eqb n1 n), (String.eqb n2 n), (String.eqb datum n); ring.
Qed.

Lemma dec_kcl n : (n < length ws)%nat -> fR n = - fA n /\ fS n = - fB n.
Proof.
  intros Hl. destruct Hb as (_ & _ & K). destruct (Hu1 n) as [U1 U2]. destruct (Hu2 n) as [V1 V2].
  assert (K1 := K (first_node label n) U1 U2). assert (K2 := K (second_node label n) V1 V2).
  unfold fracderec in K1, K2. rewrite outflow_each in K1, K2.
  rewrite (csum_one _ _ n Hl) in K1.
  2: { intros m _ Hm. rewrite dec_out. rewrite !eqb_no by (try congruence; try discriminate; intros E;
         first [now apply first_node_inj in E|symmetry in E; now apply first_second in E|discriminate E]). ring. }
  rewrite (csum_one _ _ n Hl) in K2.
  2: { intros m _ Hm. rewrite dec_out. rewrite !eqb_no by (try congruence; try discriminate; intros E;
         first [now apply second_node_inj in E|now apply first_second in E|discriminate E]). ring. }
  rewrite dec_out in K1, K2.
  rewrite String.eqb_refl, (eqb_no n1), (eqb_no n2), (eqb_no datum), (eqb_no (second_node label n)) in K1
    by (try congruence; try discriminate; intros E; symmetry in E; now apply first_second in E).
  rewrite String.eqb_refl, (eqb_no n1), (eqb_no n2), (eqb_no datum), (eqb_no (first_node label n)) in K2
    by (try congruence; try discriminate; intros E; now apply first_second in E).
  split; apply zero_sum; [rewrite <- K1 by discriminate|rewrite <- K2 by discriminate]; ring.
Qed.

Lemma dec_current n : (n < length ws)%nat -> - fR n = Rn ws n * s / (s + Qn ws n / Rn ws n) * (v n1 - v n2).
Proof.
  intros Hl. destruct (dec_kcl n Hl) as [E1 E2]. destruct Hb as (L & Lc & _).
  assert (I1 := in_each ws (derec_branch label n1 n2 ws) n _ Hl (or_introl eq_refl)).
  assert (I2 := in_each ws (derec_branch label n1 n2 ws) n _ Hl (or_intror (or_introl eq_refl))).
  assert (I3 := in_each ws (derec_branch label n1 n2 ws) n _ Hl (or_intror (or_intror (or_introl eq_refl)))).
  assert (I4 := in_each ws (derec_branch label n1 n2 ws) n _ Hl (or_intror (or_intror (or_intror (or_introl eq_refl))))).
  assert (L1 := L _ I1). assert (L2 := L _ I2).
  assert (L3 := Lc _ _ _ ("y" ++ (label ++ "alpha" ++ str n))%string I3 I4 eq_refl eq_refl eq_refl eq_refl).
  unfold edge_law, effort in L1, L2, L3. cbn [f_kind f_src f_dst f_label fst snd] in L1, L2, L3.
  change (f ("w" ++ label ++ "R" ++ str n)%string) with (fR n) in L1.
  change (f ("x" ++ label ++ "Q" ++ str n)%string) with (fS n) in L2.
  fold (label_A label n) (label_B label n) in L3. rewrite (Hc n Hl) in L3. fold (fA n) (fB n) in L3.
  destruct L3 as [X3 X4]. destruct L2 as (x & X1 & X2).
  destruct (nth_good (der_good s) ws n (0, 0)%R Hg Hl) as [G1 G2]. fold (Rn ws n) in G1, G2. fold (Qn ws n) in G2.
  assert (HR : Rn ws n <> 0%R) by (intros E; apply G1; now rewrite E).
  rewrite RtoC_inv in X3, X4 by exact HR.
  assert (G3 : s * Rn ws n + Qn ws n <> RtoC 0).
  { intros E. apply G2. replace (s + Qn ws n / Rn ws n) with ((s * Rn ws n + Qn ws n) / Rn ws n) by (field; exact G1).
    rewrite E. field. exact G1. }
  (* from the end of the chain *)
  assert (Y1 : v (first_node label n) - v n1 = fR n / Rn ws n) by (rewrite L1; field; exact G1).
  assert (Y2 : s * x = fR n / Rn ws n) by (rewrite X1, E2, X4, E1; field; exact G1).
  assert (Y3 : x = fR n / Rn ws n / s) by (rewrite <- Y2; field; exact Hs).
  assert (Y4 : v (first_node label n) - v n2 = - (Qn ws n * (fR n / Rn ws n / s) / Rn ws n)).
  { rewrite X3, X2, Y3. field. repeat split; assumption. }
  replace (v n1 - v n2) with ((v (first_node label n) - v n2) - (v (first_node label n) - v n1)) by ring.
  rewrite Y1, Y4. field. repeat split; assumption.
Qed.

Lemma dec_port : outflow (fracderec label n1 n2 ws) f n1 =
    csum (map (fun w => RtoC (fst w) * s / (s + RtoC (snd w) / RtoC (fst w))) ws) * (v n1 - v n2) /\
  outflow (fracderec label n1 n2 ws) f n2 = - outflow (fracderec label n1 n2 ws) f n1.
Proof.
  assert (A : outflow (fracderec label n1 n2 ws) f n1 = csum (map (fun n => - fR n) (seq 0 (length ws)))).
  { unfold fracderec. rewrite outflow_each. apply csum_map_ext. intros m Hm. apply in_seq in Hm.
    destruct (Hu1 m) as [U1 U2]. destruct (Hu2 m) as [V1 V2]. destruct (dec_kcl m) as [E1 E2]; [lia|].
    rewrite dec_out, String.eqb_refl, (eqb_no n2), (eqb_no (first_node label m)), (eqb_no (second_node label m)) by congruence.
    rewrite E2. destruct (String.eqb datum n1); ring. }
  assert (B : outflow (fracderec label n1 n2 ws) f n2 = - csum (map (fun n => - fR n) (seq 0 (length ws)))).
  { unfold fracderec. rewrite outflow_each, <- csum_opp. apply csum_map_ext. intros m Hm. apply in_seq in Hm.
    destruct (Hu1 m) as [U1 U2]. destruct (Hu2 m) as [V1 V2]. destruct (dec_kcl m) as [E1 E2]; [lia|].
    rewrite dec_out, String.eqb_refl, (eqb_no n1), (eqb_no (first_node label m)), (eqb_no (second_node label m)) by congruence.
    rewrite E2, E1. destruct (String.eqb datum n2); ring. }
  split; [|now rewrite B, A].
  rewrite A, Cmult_comm, <- (csum_nth _ ws (0, 0)%R), <- csum_scal. apply csum_map_ext.
  intros m Hm. apply in_seq in Hm. rewrite dec_current by lia. unfold Qn, Rn. ring.
Qed.
End DEC.

Lemma derivator_effort label n1 n2 p l s control v f :
  n1 <> n2 -> unused (first_node label) n1 n2 -> unused (second_node label) n1 n2 ->
  p <> 0%R -> weights l -> no_pole s l -> s <> RtoC 0 ->
  (forall n, (n < length (derivator_weights p l))%nat -> control (label_A label n) = false) ->
  behaviour s control n1 n2 (fracderec label n1 n2 (derivator_weights p l)) v f ->
  outflow (fracderec label n1 n2 (derivator_weights p l)) f n1 = RtoC p * s * fitted s l * (v n1 - v n2) /\
  outflow (fracderec label n1 n2 (derivator_weights p l)) f n2 = - outflow (fracderec label n1 n2 (derivator_weights p l)) f n1.
Proof.
  intros Hn Hu1 Hu2 Hp Hw Hl Hs Hc Hb. rewrite <- (derivator_sum s p l) by assumption.
  apply (dec_port label n1 n2 _ s control v f Hn Hu1 Hu2 Hb Hc); [now apply derivator_good|exact Hs].
Qed.

(** ** Flux-controlled derivator *)
Section DFC.
Variables (label n1 n2 : string) (ws : list (R * R)) (s : C) (control : string -> bool) (v f : string -> C).
Hypothesis Hn : n1 <> n2.
Hypothesis Hu1 : unused (first_node label) n1 n2.
Hypothesis Hu2 : unused (second_node label) n1 n2.
Hypothesis Hb : behaviour s control n1 n2 (fracderfc label n1 n2 ws) v f.
Hypothesis Hc : forall n, (n < length ws)%nat -> control (label_A label n) = true.
Hypothesis Hr : Forall (fun w => RtoC (fst w) <> RtoC 0 /\ s + RtoC (fst w) * RtoC (fst w) * RtoC (fst w) * RtoC (snd w) <> RtoC 0) ws.
Hypothesis Hs : s <> RtoC 0.
Hypothesis Hw : ws <> [].
Let at_ := place n1 n2 (first_node label) (length ws).
Let fR n := f ("w" ++ label ++ "R" ++ str n)%string.
Let fS n := f ("x" ++ label ++ "Q" ++ str n)%string.
Let fA n := f (label_A label n).
Let fB n := f (label_B label n).
Let I n := fA n - fR n.

Lemma dfc_len : (0 < length ws)%nat.
Proof. destruct ws; [now contradiction Hw|cbn; lia]. Qed.

Lemma dfc_out n m : outflow (derfc_branch label n1 n2 ws m) f n =
  (if String.eqb (at_ m) n then I m else RtoC 0) - (if String.eqb (at_ (S m)) n then I m else RtoC 0) +
  (if String.eqb (second_node label m) n then fS m + fB m else RtoC 0) -
  (if String.eqb datum n then fS m + fB m else RtoC 0).
Proof.
  unfold outflow, leaves. cbn [derfc_branch dissipative storage transformer_edges Datatypes.app map f_src f_dst f_label fst snd].
  rewrite !csum_cons, csum_nil. unfold I, fR, fS, fA, fB, label_A, label_B.
  change (stage_start n1 (der_node label n2 ws) m) with (at_ m). change (der_node label n2 ws m) with (at_ (S m)).
  destruct (String.eqb (at_ m) n), (String.eqb (at_ (S m)) n), (String.eqb (second_node label m) n), (String.eqb datum n); ring.
Qed.

Lemma at_second k m : at_ k <> second_node label m.
Proof.
  destruct (Hu2 m) as [V1 V2]. unfold at_, place. destruct k as [|k]; cbn [stage_start]; [congruence|].
  unfold chain_node. destruct (Nat.ltb k (length ws - 1)); [apply first_second|congruence].
Qed.

Lemma dfc_kcl n : (n < length ws)%nat -> fS n = - fB n.
Proof.
  intros Hl. destruct Hb as (_ & _ & K). destruct (Hu2 n) as [V1 V2].
  assert (K2 := K (second_node label n) V1 V2). unfold fracderfc in K2. rewrite outflow_each in K2.
  rewrite (csum_one _ _ n Hl) in K2.
  2: { intros m _ Hm. rewrite dfc_out. rewrite !(eqb_no (at_ _)) by apply at_second.
       rewrite (eqb_no (second_node label m)), (eqb_no datum) by (try discriminate; intros E; now apply second_node_inj in E). ring. }
  rewrite dfc_out in K2. rewrite !(eqb_no (at_ _)) in K2 by apply at_second.
  rewrite String.eqb_refl, (eqb_no datum) in K2 by discriminate.
  apply zero_sum. rewrite <- K2 by discriminate. ring.
Qed.

Lemma dfc_stage n : (n < length ws)%nat -> v (at_ n) - v (at_ (S n)) = Rn ws n * s / (s + Rn ws n * Rn ws n * Rn ws n * Qn ws n) * I n.
Proof.
  intros Hl. assert (E2 := dfc_kcl n Hl). destruct Hb as (L & Lc & _).
  assert (I1 := in_each ws (derfc_branch label n1 n2 ws) n _ Hl (or_introl eq_refl)).
  assert (I2 := in_each ws (derfc_branch label n1 n2 ws) n _ Hl (or_intror (or_introl eq_refl))).
  assert (I3 := in_each ws (derfc_branch label n1 n2 ws) n _ Hl (or_intror (or_intror (or_introl eq_refl)))).
  assert (I4 := in_each ws (derfc_branch label n1 n2 ws) n _ Hl (or_intror (or_intror (or_intror (or_introl eq_refl))))).
  assert (L1 := L _ I1). assert (L2 := L _ I2).
  assert (L3 := Lc _ _ _ ("y" ++ (label ++ "alpha" ++ str n))%string I3 I4 eq_refl eq_refl eq_refl eq_refl).
  unfold edge_law, effort in L1, L2, L3. cbn [f_kind f_src f_dst f_label fst snd] in L1, L2, L3.
  change (f ("w" ++ label ++ "R" ++ str n)%string) with (fR n) in L1.
  change (f ("x" ++ label ++ "Q" ++ str n)%string) with (fS n) in L2.
  fold (label_A label n) (label_B label n) in L3. rewrite (Hc n Hl) in L3. fold (fA n) (fB n) in L3.
  change (stage_start n1 (der_node label n2 ws) n) with (at_ n) in L1, L3.
  change (der_node label n2 ws n) with (at_ (S n)) in L1, L3.
  destruct L3 as [X3 X4]. destruct L2 as (x & X1 & X2).
  destruct (nth_good (fun w => RtoC (fst w) <> RtoC 0 /\ s + RtoC (fst w) * RtoC (fst w) * RtoC (fst w) * RtoC (snd w) <> RtoC 0) ws n (0, 0)%R Hr Hl) as [G1 G2].
  fold (Rn ws n) in G1, G2. fold (Qn ws n) in G2.
  set (E := v (at_ n) - v (at_ (S n))) in *.
  assert (Y1 : fR n = - (E / Rn ws n)).
  { replace (fR n) with (Rn ws n * fR n / Rn ws n) by (field; exact G1). rewrite <- L1. unfold E. field. exact G1. }
  assert (Y2 : x = Rn ws n * E / s) by (rewrite <- X4, <- X1; field; exact Hs).
  assert (Y3 : fA n = Rn ws n * Rn ws n * Qn ws n * E / s).
  { rewrite X3. replace (fB n) with (- fS n) by (rewrite E2; ring). rewrite X2, Y2. field. exact Hs. }
  unfold I. rewrite Y1, Y3.
  field. repeat split; try assumption.
Qed.

Lemma dfc_port : v n1 - v n2 = csum (map (fun w => RtoC (fst w) * s / (s + RtoC (fst w) * RtoC (fst w) * RtoC (fst w) * RtoC (snd w))) ws) *
    outflow (fracderfc label n1 n2 ws) f n1 /\
  outflow (fracderfc label n1 n2 ws) f n2 = - outflow (fracderfc label n1 n2 ws) f n1.
Proof.
  pose proof dfc_len as HN.
  rewrite <- (csum_nth _ ws (0, 0)%R).
  apply (chain_port n1 n2 (first_node label) (length ws) (fracderfc label n1 n2 ws) v f I (fun n => Rn ws n * s / (s + Rn ws n * Rn ws n * Rn ws n * Qn ws n)) HN).
  - intros m Hm. unfold fracderfc. rewrite outflow_each. apply csum_map_ext. intros n H. apply in_seq in H.
    rewrite dfc_out, dfc_kcl by lia. rewrite (eqb_no (second_node label n)) by (intros E; symmetry in E; now apply (at_second m n)).
    unfold at_. rewrite !place_eqb by (first [exact Hn|exact Hu1|exact (first_node_inj label)|exact HN|lia]).
    destruct (String.eqb datum _); ring.
  - intros n _. destruct Hb as (_ & _ & K). apply K; try apply Hu1. discriminate.
  - exact dfc_stage.
Qed.
End DFC.

Lemma flux_sum p s l : p <> 0%R -> weights l -> s <> RtoC 0 -> 
  (forall m, In m l -> s + RtoC ((p * fst m) ^ 4 * snd m) <> RtoC 0) ->
  Forall (fun w => RtoC (fst w) <> RtoC 0 /\ s + RtoC (fst w) * RtoC (fst w) * RtoC (fst w) * RtoC (snd w) <> RtoC 0) (derivator_weights p l) /\
  csum (map (fun w => RtoC (fst w) * s / (s + RtoC (fst w) * RtoC (fst w) * RtoC (fst w) * RtoC (snd w))) (derivator_weights p l)) = flux_derivator p s l.
Proof.
  intros Hp Hw Hs. unfold flux_derivator.
  induction l as [|[mu xi] l IH]; cbn [map derivator_weights flat_map fst snd]; intros Hl; [now split|].
  destruct IH as [IH1 IH2]; [intros m Hm; apply Hw; now right|intros m Hm; apply Hl; now right|].
  assert (Hx := Hl (mu, xi) (or_introl eq_refl)). cbn [fst snd] in Hx.
  destruct (Rlt_dec 0 mu) as [Hm|Hm]; cbn [Datatypes.app map]; rewrite ?csum_cons; cbn [fst snd]; fold (derivator_weights p l).
  - assert (mu <> 0)%R by (intros ->; now apply Rlt_irrefl in Hm).
    assert (p * mu <> 0)%R by (now apply Rmult_integral_contrapositive_currified).
    assert (E : RtoC ((p * mu) ^ 4 * xi) = RtoC (p * mu) * RtoC (p * mu) * RtoC (p * mu) * RtoC (p * mu * xi)).
    { rewrite <- !RtoC_mult. f_equal. ring. }
    split.
    + constructor; [|exact IH1]. cbn [fst snd]. split; [now apply RtoC_neq|]. now rewrite <- E.
    + rewrite IH2, E. reflexivity.
  - assert (mu = 0)%R by (apply Rle_antisym; [now apply Rnot_lt_le|apply (Hw (mu, xi)); now left]).
    split; [exact IH1|]. rewrite IH2. subst mu. rewrite Rmult_0_r. field. 
    replace (0 ^ 4 * xi)%R with 0%R by ring. now rewrite Cplus_0_r.
Qed.

Lemma derivator_flux label n1 n2 p l s control v f :
  n1 <> n2 -> unused (first_node label) n1 n2 -> unused (second_node label) n1 n2 ->
  p <> 0%R -> weights l -> (exists m, In m l /\ (0 < fst m)%R) -> s <> RtoC 0 ->
  (forall m, In m l -> s + RtoC ((p * fst m) ^ 4 * snd m) <> RtoC 0) ->
  (forall n, (n < length (derivator_weights p l))%nat -> control (label_A label n) = true) ->
  behaviour s control n1 n2 (fracderfc label n1 n2 (derivator_weights p l)) v f ->
  v n1 - v n2 = flux_derivator p s l * outflow (fracderfc label n1 n2 (derivator_weights p l)) f n1 /\
  outflow (fracderfc label n1 n2 (derivator_weights p l)) f n2 = - outflow (fracderfc label n1 n2 (derivator_weights p l)) f n1.
Proof.
  intros Hn Hu1 Hu2 Hp Hw He Hs Hl Hc Hb. destruct (flux_sum p s l Hp Hw Hs Hl) as [G E]. rewrite <- E.
  apply (dfc_port label n1 n2 _ s control v f Hn Hu1 Hu2 Hb Hc G Hs). now apply some_weight.
Qed.
