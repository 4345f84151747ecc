(** Lemmas for the fractional components: names made with [str], sums. *)
From Coq Require Import String List Reals Decimal DecimalString DecimalNat Ascii Arith Lia.
From Coquelicot Require Import Complex.
From Verif Require Import Py Graph Frac Spec_Frac.
Import ListNotations.
Local Open Scope list_scope.
Local Open Scope C_scope.

Lemma str_inj n m : str n = str m -> n = m.
Proof.
  unfold str. intros H. apply (f_equal NilEmpty.uint_of_string) in H. rewrite !NilEmpty.usu in H.
  injection H as H. rewrite <- (Unsigned.of_to n), <- (Unsigned.of_to m), H. reflexivity.
Qed.

Lemma prefix_inj p a b : (p ++ a = p ++ b)%string -> a = b.
Proof. induction p as [|c p IH]; cbn; intros H; [exact H|]. injection H. exact IH. Qed.

Fixpoint lacks (c : ascii) (s : string) : Prop :=
  match s with EmptyString => True | String a s => a <> c /\ lacks c s end.
Lemma split_at c : forall u v r r', lacks c u -> lacks c v ->
  (u ++ String c r = v ++ String c r')%string -> u = v /\ r = r'.
Proof.
  induction u as [|a u IH]; intros [|b v] r r' Hu Hv H; cbn in *.
  - injection H; auto.
  - injection H; intros. subst. now destruct Hv.
  - injection H; intros. subst. now destruct Hu.
  - injection H as E H. subst. destruct (IH v r r') as [E1 E2]; try tauto. now subst.
Qed.
Lemma str_lacks c n : In c ["t"; "_"]%char -> lacks c (str n).
Proof.
  unfold str. generalize (Nat.to_uint n). intros d Hc.
  assert (lacks "t" (NilEmpty.string_of_uint d) /\ lacks "_" (NilEmpty.string_of_uint d)) as [A B].
  { induction d; cbn; try tauto; (split; (split; [discriminate|tauto])). }
  destruct Hc as [<-|[<-|[]]]; assumption.
Qed.

Lemma append_assoc_s a b c : ((a ++ b) ++ c = a ++ (b ++ c))%string.
Proof. induction a as [|x a IH]; cbn; [reflexivity|now rewrite IH]. Qed.

Lemma ec_node_inj l n m : ec_node l n = ec_node l m -> n = m.
Proof. unfold ec_node. intros H. do 2 apply prefix_inj in H. now apply str_inj. Qed.
Lemma mid_node_inj l n m : mid_node l n = mid_node l m -> n = m.
Proof.
  unfold mid_node. intros H. do 2 apply prefix_inj in H. cbn in H.
  apply split_at in H; [|apply str_lacks; cbn; auto ..]. now apply str_inj.
Qed.
Lemma first_node_inj l n m : first_node l n = first_node l m -> n = m.
Proof.
  unfold first_node. intros H. do 2 apply prefix_inj in H. cbn in H.
  apply split_at in H; [|apply str_lacks; cbn; auto ..]. now apply str_inj.
Qed.
Lemma second_node_inj l n m : second_node l n = second_node l m -> n = m.
Proof.
  unfold second_node. intros H. do 2 apply prefix_inj in H. cbn in H.
  apply split_at in H; [|apply str_lacks; cbn; auto ..]. now apply str_inj.
Qed.
Lemma first_second l n m : first_node l n <> second_node l m.
Proof.
  unfold first_node, second_node. intros H. do 2 apply prefix_inj in H. cbn in H.
  apply split_at in H; [|apply str_lacks; cbn; auto ..]. destruct H as [_ H]. discriminate H.
Qed.

(** ** Sums *)
Lemma csum_cons x l : csum (x :: l) = x + csum l.
Proof. reflexivity. Qed.
Lemma csum_nil : csum [] = RtoC 0.
Proof. reflexivity. Qed.
Lemma csum_app a b : csum (a ++ b) = csum a + csum b.
Proof. induction a as [|x a IH]; cbn [Datatypes.app]; [rewrite csum_nil; ring|]. rewrite !csum_cons, IH. ring. Qed.
Lemma csum_map_ext {A} (g h : A -> C) l : (forall a, In a l -> g a = h a) -> csum (map g l) = csum (map h l).
Proof. intros H. f_equal. now apply map_ext_in. Qed.
Lemma csum_zero {A} (g : A -> C) l : (forall a, In a l -> g a = RtoC 0) -> csum (map g l) = RtoC 0.
Proof.
  induction l as [|a l IH]; cbn [map]; intros H; [reflexivity|].
  rewrite csum_cons, IH, (H a) by (intros; try apply H; cbn; auto). ring.
Qed.
Lemma csum_one (g : nat -> C) N k : (k < N)%nat -> (forall m, (m < N)%nat -> m <> k -> g m = RtoC 0) ->
  csum (map g (seq 0 N)) = g k.
Proof.
  intros Hk H. replace N with (k + (1 + (N - k - 1)))%nat at 1 by lia.
  rewrite seq_app, map_app, csum_app. cbn [seq map Nat.add].
  rewrite csum_zero by (intros a Ha; apply in_seq in Ha; apply H; lia).
  rewrite csum_cons, csum_zero by (intros a Ha; apply in_seq in Ha; apply H; lia). ring.
Qed.
Lemma csum_scal {A} (g : A -> C) c l : csum (map (fun a => c * g a) l) = c * csum (map g l).
Proof. induction l as [|a l IH]; cbn [map]; [rewrite ?csum_nil; ring|]. rewrite !csum_cons, IH. ring. Qed.
Lemma csum_opp {A} (g : A -> C) l : csum (map (fun a => - g a) l) = - csum (map g l).
Proof. induction l as [|a l IH]; cbn [map]; [rewrite ?csum_nil; ring|]. rewrite !csum_cons, IH. ring. Qed.
Lemma csum_plus {A} (g h : A -> C) l : csum (map (fun a => g a + h a) l) = csum (map g l) + csum (map h l).
Proof. induction l as [|a l IH]; cbn [map]; [rewrite ?csum_nil; ring|]. rewrite !csum_cons, IH. ring. Qed.
Lemma csum_nth {A} (h : A -> C) (l : list A) d : csum (map (fun n => h (nth n l d)) (seq 0 (length l))) = csum (map h l).
Proof.
  f_equal. induction l as [|a l IH]; cbn; [reflexivity|]. f_equal. rewrite <- IH, <- seq_shift, map_map. reflexivity.
Qed.

Lemma outflow_app a b f n : outflow (a ++ b) f n = outflow a f n + outflow b f n.
Proof. unfold outflow. now rewrite map_app, csum_app. Qed.
Lemma outflow_each (ws : list (R * R)) br f n :
  outflow (each_pole ws br) f n = csum (map (fun m => outflow (br m) f n) (seq 0 (length ws))).
Proof.
  unfold each_pole. induction (seq 0 (length ws)) as [|m l IH]; cbn [flat_map map]; [reflexivity|].
  rewrite csum_cons, outflow_app, IH. reflexivity.
Qed.
Lemma in_each (ws : list (R * R)) br n e : (n < length ws)%nat -> In e (br n) -> In e (each_pole ws br).
Proof. intros Hn He. apply in_flat_map. exists n. split; [apply in_seq; lia|exact He]. Qed.

(** ** Weights *)
Lemma RtoC_neq a : (a <> 0)%R -> RtoC a <> RtoC 0.
Proof. intros H E. injection E. exact H. Qed.

Definition good (s : C) (w : R * R) : Prop := RtoC (snd w) <> RtoC 0 /\ s + RtoC (fst w) * RtoC (snd w) <> RtoC 0.
Lemma integrator_good s p l : p <> 0%R -> no_pole s l -> Forall (good s) (integrator_weights p l).
Proof.
  intros Hp. induction l as [|[mu xi] l IH]; cbn; intros Hl; [constructor|].
  assert (Hl' : no_pole s l) by (intros m Hm; apply Hl; now right).
  destruct (Rlt_dec 0 mu) as [Hm|]; [|now apply IH]. cbn. constructor; [|now apply IH].
  assert (mu <> 0)%R by (intros ->; now apply Rlt_irrefl in Hm).
  unfold good; cbn [fst snd]. split.
  - apply RtoC_neq. rewrite Rinv_inv; now apply Rmult_integral_contrapositive_currified.
  - rewrite <- RtoC_mult. replace (/ (p * mu) * xi * / / (p * mu))%R with xi; [apply (Hl (mu, xi)); now left|].
    field; auto.
Qed.
Lemma integrator_sum s p l : p <> 0%R -> weights l -> no_pole s l ->
  csum (map (fun w => RtoC (snd w) / (s + RtoC (fst w) * RtoC (snd w))) (integrator_weights p l)) = RtoC p * fitted s l.
Proof.
  intros Hp. unfold fitted. induction l as [|[mu xi] l IH]; cbn [map integrator_weights flat_map fst snd]; intros Hw Hl; [rewrite csum_nil; ring|].
  assert (Hl' : no_pole s l) by (intros m Hm; apply Hl; now right).
  assert (Hw' : weights l) by (intros m Hm; apply Hw; now right).
  assert (Hx : s + RtoC xi <> RtoC 0) by (apply (Hl (mu, xi)); now left).
  destruct (Rlt_dec 0 mu) as [Hm|Hm]; cbn [Datatypes.app map]; rewrite ?csum_cons; cbn [fst snd]; fold (integrator_weights p l).
  - assert (mu <> 0)%R by (intros ->; now apply Rlt_irrefl in Hm).
    rewrite IH by assumption.
    rewrite <- RtoC_mult. replace (/ (p * mu) * xi * / / (p * mu))%R with xi by (field; auto).
    rewrite Rinv_inv. rewrite RtoC_mult. field. exact Hx.
  - rewrite IH by assumption.
    assert (mu = 0)%R by (apply Rle_antisym; [now apply Rnot_lt_le|apply (Hw (mu, xi)); now left]).
    subst mu. field. exact Hx.
Qed.

Definition der_good (s : C) (w : R * R) : Prop := RtoC (fst w) <> RtoC 0 /\ s + RtoC (snd w) / RtoC (fst w) <> RtoC 0.
Lemma derivator_good s p l : p <> 0%R -> no_pole s l -> Forall (der_good s) (derivator_weights p l).
Proof.
  intros Hp. induction l as [|[mu xi] l IH]; cbn; intros Hl; [constructor|].
  assert (Hl' : no_pole s l) by (intros m Hm; apply Hl; now right).
  destruct (Rlt_dec 0 mu) as [Hm|]; [|now apply IH]. cbn. constructor; [|now apply IH].
  assert (mu <> 0)%R by (intros ->; now apply Rlt_irrefl in Hm).
  assert (p * mu <> 0)%R by (now apply Rmult_integral_contrapositive_currified).
  unfold der_good; cbn [fst snd]. split; [now apply RtoC_neq|].
  rewrite <- RtoC_div by assumption. replace (p * mu * xi / (p * mu))%R with xi by (field; auto).
  apply (Hl (mu, xi)); now left.
Qed.
Lemma derivator_sum s p l : p <> 0%R -> weights l -> no_pole s l ->
  csum (map (fun w => RtoC (fst w) * s / (s + RtoC (snd w) / RtoC (fst w))) (derivator_weights p l)) = RtoC p * s * fitted s l.
Proof.
  intros Hp. unfold fitted. induction l as [|[mu xi] l IH]; cbn [map derivator_weights flat_map fst snd]; intros Hw Hl; [rewrite csum_nil; ring|].
  assert (Hl' : no_pole s l) by (intros m Hm; apply Hl; now right).
  assert (Hw' : weights l) by (intros m Hm; apply Hw; now right).
  assert (Hx : s + RtoC xi <> RtoC 0) by (apply (Hl (mu, xi)); now left).
  destruct (Rlt_dec 0 mu) as [Hm|Hm]; cbn [Datatypes.app map]; rewrite ?csum_cons; cbn [fst snd]; fold (derivator_weights p l).
  - assert (mu <> 0)%R by (intros ->; now apply Rlt_irrefl in Hm).
    assert (p * mu <> 0)%R by (now apply Rmult_integral_contrapositive_currified).
    rewrite IH by assumption. rewrite <- RtoC_div by assumption.
    replace (p * mu * xi / (p * mu))%R with xi by (field; auto). rewrite RtoC_mult. field. exact Hx.
  - rewrite IH by assumption.
    assert (mu = 0)%R by (apply Rle_antisym; [now apply Rnot_lt_le|apply (Hw (mu, xi)); now left]).
    subst mu. field. exact Hx.
Qed.
