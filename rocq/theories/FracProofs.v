(** Proofs for the fractional integrators. *)
From Coq Require Import String List Reals Arith Lia.
From Coquelicot Require Import Complex.
From Verif Require Import Py Graph Frac Spec_Frac FracNames.
Import ListNotations.
Local Open Scope list_scope.
Local Open Scope C_scope.

Lemma eqb_no a b : a <> b -> String.eqb a b = false.
Proof. apply String.eqb_neq. Qed.

Lemma nth_good {A} (P : A -> Prop) l n d : Forall P l -> (n < length l)%nat -> P (nth n l d).
Proof. intros H Hn. rewrite Forall_forall in H. apply H. now apply nth_In. Qed.

(** ** Effort-controlled integrator *)
Section EC.
Variables (label n1 n2 : string) (ws : list (R * R)) (s : C) (control : string -> bool) (v f : string -> C).
Hypothesis Hn : n1 <> n2.
Hypothesis Hu : unused (ec_node label) n1 n2.
Hypothesis Hb : behaviour s control n1 n2 (fracintec label n1 n2 ws) v f.
Hypothesis Hg : Forall (good s) ws.
Let fR n := f ("w" ++ "R_" ++ label ++ str n)%string.
Let fS n := f ("x" ++ label ++ str n)%string.

Lemma ec_kcl n : (n < length ws)%nat -> fR n = fS n.
Proof.
  intros Hl. destruct Hb as (_ & _ & K). destruct (Hu n) as [U1 U2].
  specialize (K (ec_node label n) U1 U2). unfold fracintec in K. rewrite outflow_each in K.
  rewrite (csum_one _ _ n Hl) in K.
  - unfold outflow, leaves in K. cbn [intec_branch dissipative storage Datatypes.app map f_src f_dst f_label fst snd] in K.
    rewrite String.eqb_refl, (eqb_no n2), (eqb_no n1) in K by congruence.
    rewrite !csum_cons, csum_nil in K. fold (fR n) (fS n) in K.
    assert (D : fR n - fS n = RtoC 0) by (rewrite <- K; [ring|discriminate]).
    replace (fR n) with (fR n - fS n + fS n) by ring. rewrite D. ring.
  - intros m _ Hm. unfold outflow, leaves. cbn [intec_branch dissipative storage Datatypes.app map f_src f_dst f_label fst snd].
    rewrite (eqb_no (ec_node label m)), (eqb_no n2), (eqb_no n1) by (try congruence; intros E; now apply ec_node_inj in E).
    rewrite !csum_cons, csum_nil. ring.
Qed.

Lemma ec_current n : (n < length ws)%nat -> fS n = Qn ws n / (s + Rn ws n * Qn ws n) * (v n1 - v n2).
Proof.
  intros Hl. pose proof (ec_kcl n Hl) as E. destruct Hb as (L & _ & _).
  assert (L1 := L _ (in_each ws (intec_branch label n1 n2 ws) n _ Hl (or_introl eq_refl))).
  assert (L2 := L _ (in_each ws (intec_branch label n1 n2 ws) n _ Hl (or_intror (or_introl eq_refl)))).
  unfold edge_law, effort in L1, L2. cbn [f_kind f_src f_dst f_label fst snd] in L1, L2.
  fold (fR n) in L1. fold (fS n) in L2. rewrite E in L1. destruct L2 as (x & X1 & X2).
  destruct (nth_good (good s) ws n (0, 0)%R Hg Hl) as [G1 G2]. fold (Qn ws n) in G1, G2. fold (Rn ws n) in G2.
  replace (v n1 - v n2) with (v n1 - v (ec_node label n) + (v (ec_node label n) - v n2)) by ring.
  rewrite L1, <- X1, X2. field. exact G2.
Qed.

Lemma ec_port : outflow (fracintec label n1 n2 ws) f n1 =
    csum (map (fun w => RtoC (snd w) / (s + RtoC (fst w) * RtoC (snd w))) ws) * (v n1 - v n2) /\
  outflow (fracintec label n1 n2 ws) f n2 = - outflow (fracintec label n1 n2 ws) f n1.
Proof.
  assert (A : outflow (fracintec label n1 n2 ws) f n1 = csum (map fS (seq 0 (length ws)))).
  { unfold fracintec. rewrite outflow_each. apply csum_map_ext. intros m _. destruct (Hu m) as [U1 U2].
    unfold outflow, leaves. cbn [intec_branch dissipative storage Datatypes.app map f_src f_dst f_label fst snd].
    rewrite String.eqb_refl, (eqb_no (ec_node label m)), (eqb_no n2) by congruence.
    rewrite !csum_cons, csum_nil. fold (fS m). ring. }
  assert (B : outflow (fracintec label n1 n2 ws) f n2 = - csum (map fS (seq 0 (length ws)))).
  { unfold fracintec. rewrite outflow_each, <- csum_opp. apply csum_map_ext. intros m Hm. apply in_seq in Hm. destruct (Hu m) as [U1 U2].
    unfold outflow, leaves. cbn [intec_branch dissipative storage Datatypes.app map f_src f_dst f_label fst snd].
    rewrite String.eqb_refl, (eqb_no (ec_node label m)), (eqb_no n1) by congruence.
    rewrite !csum_cons, csum_nil. fold (fR m). rewrite ec_kcl by lia. ring. }
  split; [|now rewrite B, A].
  rewrite A, Cmult_comm, <- (csum_nth _ ws (0, 0)%R), <- csum_scal. apply csum_map_ext.
  intros m Hm. apply in_seq in Hm. rewrite ec_current by lia. unfold Qn, Rn. ring.
Qed.
End EC.

(** ** Chains of stages *)
Section Chain.
Variables (n1 n2 : string) (mid : nat -> string) (N : nat) (net : list fedge) (v f : string -> C) (I Z : nat -> C).
Hypothesis Hn : n1 <> n2.
Hypothesis Hu : unused mid n1 n2.
Hypothesis Hm : forall a b, mid a = mid b -> a = b.
Hypothesis HN : (0 < N)%nat.
Definition chain_node (n : nat) : string := if Nat.ltb n (N - 1) then mid n else n2.
(** Two nodes of the chain are different. *)
Definition place (n : nat) : string := stage_start n1 chain_node n.
Lemma node_mid n : (S n < N)%nat -> chain_node n = mid n.
Proof. intros H. unfold chain_node. now rewrite (proj2 (Nat.ltb_lt _ _)) by lia. Qed.
Lemma node_last : chain_node (N - 1) = n2.
Proof. unfold chain_node. now rewrite Nat.ltb_irrefl. Qed.
Lemma place_inj a b : (a <= N)%nat -> (b <= N)%nat -> place a = place b -> a = b.
Proof.
  assert (P : forall k, (k <= N)%nat -> (k = 0%nat /\ place k = n1) \/ (k = N /\ place k = n2) \/
    (exists j, k = S j /\ place k = mid j)).
  { intros [|k] Hk; [now left|]. right. destruct (Nat.eq_dec (S k) N) as [E|E].
    - left. split; [exact E|]. unfold place; cbn [stage_start]. replace k with (N - 1)%nat by lia. apply node_last.
    - right. exists k. split; [reflexivity|]. unfold place; cbn [stage_start]. apply node_mid. lia. }
  intros Ha Hb E.
  destruct (P a Ha) as [[A1 A2]|[[A1 A2]|(j & A1 & A2)]]; destruct (P b Hb) as [[B1 B2]|[[B1 B2]|(k & B1 & B2)]];
    rewrite A2, B2 in E; try congruence.
  - destruct (Hu k); congruence.
  - destruct (Hu k); congruence.
  - destruct (Hu j); congruence.
  - destruct (Hu j); congruence.
  - apply Hm in E. congruence.
Qed.
Lemma place_eqb k m : (k <= N)%nat -> (m <= N)%nat -> String.eqb (place k) (place m) = Nat.eqb k m.
Proof.
  intros Hk Hm'. destruct (Nat.eqb_spec k m) as [->|D]; [apply String.eqb_refl|].
  apply eqb_no. intros E. now apply place_inj in E.
Qed.

Hypothesis Hout : forall m, (m <= N)%nat -> outflow net f (place m) =
  csum (map (fun n => (if Nat.eqb n m then I n else RtoC 0) - (if Nat.eqb (S n) m then I n else RtoC 0)) (seq 0 N)).
Hypothesis Hk : forall n, (S n < N)%nat -> outflow net f (mid n) = RtoC 0.
Hypothesis Hz : forall n, (n < N)%nat -> v (place n) - v (place (S n)) = Z n * I n.

Lemma csum_pick (g : nat -> C) K k : csum (map (fun n => if Nat.eqb n k then g n else RtoC 0) (seq 0 K)) = if Nat.ltb k K then g k else RtoC 0.
Proof.
  destruct (Nat.ltb_spec k K) as [H|H].
  - rewrite (csum_one _ _ k H); [now rewrite Nat.eqb_refl|]. intros m _ D. now rewrite (proj2 (Nat.eqb_neq _ _) D).
  - apply csum_zero. intros a Ha. apply in_seq in Ha. destruct (Nat.eqb_spec a k); [lia|reflexivity].
Qed.
Lemma csum_minus {A} (g h : A -> C) l : csum (map (fun a => g a - h a) l) = csum (map g l) - csum (map h l).
Proof. induction l as [|a l IH]; cbn [map]; [rewrite ?csum_nil; ring|]. rewrite !csum_cons, IH. ring. Qed.
Lemma out_at m : (m <= N)%nat -> outflow net f (place m) =
  (if Nat.ltb m N then I m else RtoC 0) - (match m with O => RtoC 0 | S k => I k end).
Proof.
  intros H. rewrite Hout by exact H. rewrite csum_minus, csum_pick. f_equal. f_equal.
  destruct m as [|k]; [apply csum_zero; intros; reflexivity|]. cbn [Nat.eqb].
  rewrite (csum_pick I). now rewrite (proj2 (Nat.ltb_lt _ _)) by lia.
Qed.
Lemma same_current n : (n < N)%nat -> I n = I 0%nat.
Proof.
  induction n as [|n IH]; intros H; [reflexivity|]. rewrite <- IH by lia.
  assert (K := Hk n H). rewrite <- node_mid in K by exact H. change (chain_node n) with (place (S n)) in K.
  rewrite out_at in K by lia. rewrite (proj2 (Nat.ltb_lt _ _) H) in K.
  replace (I (S n)) with (I (S n) - I n + I n) by ring. rewrite K. ring.
Qed.
Lemma telescope k : (k <= N)%nat -> csum (map (fun n => v (place n) - v (place (S n))) (seq 0 k)) = v (place 0) - v (place k).
Proof.
  induction k as [|k IH]; intros H; [cbn [seq map]; rewrite csum_nil; ring|].
  rewrite seq_S, map_app, csum_app, IH by lia. cbn [map Nat.add]. rewrite csum_cons, csum_nil. ring.
Qed.
Lemma chain_port : v n1 - v n2 = csum (map Z (seq 0 N)) * outflow net f n1 /\ outflow net f n2 = - outflow net f n1.
Proof.
  assert (P0 : place 0 = n1) by reflexivity.
  assert (EN : N = S (N - 1)) by lia.
  assert (PN : place N = n2) by (unfold place; rewrite EN; apply node_last).
  assert (O1 := out_at 0 (Nat.le_0_l _)). rewrite P0, (proj2 (Nat.ltb_lt _ _) HN) in O1.
  assert (O2 := out_at N (le_n _)). rewrite PN, Nat.ltb_irrefl in O2.
  split.
  - rewrite <- P0, <- PN at 1. rewrite <- telescope by lia. rewrite O1.
    rewrite Cmult_comm, <- csum_scal. apply csum_map_ext. intros n H. apply in_seq in H.
    rewrite Hz by lia. rewrite same_current by lia. ring.
  - rewrite O1, O2, EN. rewrite same_current by lia. ring.
Qed.
End Chain.

(** ** Flux-controlled integrator *)
Section FC.
Variables (label n1 n2 : string) (ws : list (R * R)) (s : C) (control : string -> bool) (v f : string -> C).
Hypothesis Hn : n1 <> n2.
Hypothesis Hu : unused (mid_node label) n1 n2.
Hypothesis Hb : behaviour s control n1 n2 (fracintfc label n1 n2 ws) v f.
Hypothesis Hg : Forall (good s) ws.
Hypothesis Hw : ws <> [].
Let at_ := place n1 n2 (mid_node label) (length ws).
Let I n := f ("w" ++ label ++ "R" ++ str n)%string + f ("x" ++ label ++ "Q" ++ str n)%string.

Lemma fc_stage n : (n < length ws)%nat -> v (at_ n) - v (at_ (S n)) = Qn ws n / (s + Rn ws n * Qn ws n) * I n.
Proof.
  intros Hl. destruct Hb as (L & _ & _).
  assert (L1 := L _ (in_each ws (intfc_branch label n1 n2 ws) n _ Hl (or_introl eq_refl))).
  assert (L2 := L _ (in_each ws (intfc_branch label n1 n2 ws) n _ Hl (or_intror (or_introl eq_refl)))).
  unfold edge_law, effort in L1, L2. cbn [f_kind f_src f_dst f_label fst snd] in L1, L2.
  change (stage_start n1 (fc_node label n2 ws) n) with (at_ n) in L1, L2.
  change (fc_node label n2 ws n) with (at_ (S n)) in L1, L2.
  destruct L2 as (x & X1 & X2).
  destruct (nth_good (good s) ws n (0, 0)%R Hg Hl) as [G1 G2]. fold (Qn ws n) in G1, G2. fold (Rn ws n) in G2.
  unfold I. rewrite L1, <- X1, X2. field. exact G2.
Qed.
Lemma fc_port : v n1 - v n2 = csum (map (fun w => RtoC (snd w) / (s + RtoC (fst w) * RtoC (snd w))) ws) *
    outflow (fracintfc label n1 n2 ws) f n1 /\
  outflow (fracintfc label n1 n2 ws) f n2 = - outflow (fracintfc label n1 n2 ws) f n1.
Proof.
  assert (HN : (0 < length ws)%nat) by (destruct ws; [now contradiction Hw|cbn; lia]).
  rewrite <- (csum_nth _ ws (0, 0)%R).
  apply (chain_port n1 n2 (mid_node label) (length ws) (fracintfc label n1 n2 ws) v f I (fun n => Qn ws n / (s + Rn ws n * Qn ws n)) HN).
  - intros m Hm. unfold fracintfc. rewrite outflow_each. apply csum_map_ext. intros n H. apply in_seq in H.
    unfold outflow, leaves. cbn [intfc_branch dissipative storage Datatypes.app map f_src f_dst f_label fst snd].
    change (stage_start n1 (fc_node label n2 ws) n) with (at_ n). change (fc_node label n2 ws n) with (at_ (S n)).
    unfold at_. rewrite !place_eqb by (first [exact Hn|exact Hu|exact (mid_node_inj label)|exact HN|lia]).
    rewrite !csum_cons, csum_nil. unfold I. destruct (Nat.eqb n m), (Nat.eqb (S n) m); ring.
  - intros n _. destruct Hb as (_ & _ & K). apply K; try apply Hu. discriminate.
  - exact fc_stage.
Qed.
End FC.

Lemma integrator_effort label n1 n2 p l s control v f :
  n1 <> n2 -> unused (ec_node label) n1 n2 -> p <> 0%R -> weights l -> no_pole s l ->
  behaviour s control n1 n2 (fracintec label n1 n2 (integrator_weights p l)) v f ->
  outflow (fracintec label n1 n2 (integrator_weights p l)) f n1 = RtoC p * fitted s l * (v n1 - v n2) /\
  outflow (fracintec label n1 n2 (integrator_weights p l)) f n2 = - outflow (fracintec label n1 n2 (integrator_weights p l)) f n1.
Proof.
  intros Hn Hu Hp Hw Hl Hb. rewrite <- (integrator_sum s p l) by assumption.
  apply (ec_port label n1 n2 _ s control v f Hn Hu Hb). now apply integrator_good.
Qed.

Lemma some_weight p l : p <> 0%R -> (exists m, In m l /\ (0 < fst m)%R) -> integrator_weights p l <> [] /\ derivator_weights p l <> [].
Proof.
  intros Hp (m & Hm & H).
  assert (forall g : R * R -> list (R * R), g m <> [] -> flat_map g l <> []) as F.
  { intros g Hg E. destruct (g m) as [|a r] eqn:G; [now contradiction Hg|].
    assert (In a (flat_map g l)) as Ha by (apply in_flat_map; exists m; rewrite G; split; [exact Hm|now left]).
    rewrite E in Ha. destruct Ha. }
  split; apply F; destruct (Rlt_dec 0 (fst m)); try discriminate; contradiction.
Qed.

Lemma integrator_flux label n1 n2 p l s control v f :
  n1 <> n2 -> unused (mid_node label) n1 n2 -> p <> 0%R -> weights l -> no_pole s l ->
  (exists m, In m l /\ (0 < fst m)%R) ->
  behaviour s control n1 n2 (fracintfc label n1 n2 (integrator_weights p l)) v f ->
  v n1 - v n2 = RtoC p * fitted s l * outflow (fracintfc label n1 n2 (integrator_weights p l)) f n1 /\
  outflow (fracintfc label n1 n2 (integrator_weights p l)) f n2 = - outflow (fracintfc label n1 n2 (integrator_weights p l)) f n1.
Proof.
  intros Hn Hu Hp Hw Hl He Hb. rewrite <- (integrator_sum s p l) by assumption.
  apply (fc_port label n1 n2 _ s control v f Hn Hu Hb); [now apply integrator_good|now apply (some_weight p l)].
Qed.
