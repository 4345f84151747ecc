(** One update of a [Numeric]. *)
From Coq Require Import String List ZArith QArith Qreals Reals Bool Lia Lra.
From Verif Require Import Py Tools Lists Expr RSum Mat Core Calculus ExprProofs MatProofs Spec_Core StructProofs
  Spec_Calculus Deriv CalculusProofs PowerProofs Subs SubsProofs Method Spec_Method Separable TempProofs
  Numeric Spec_Numeric NumericProofs.
Import ListNotations.
Local Open Scope string_scope.
Local Open Scope list_scope.
Local Open Scope nat_scope.

(** ** Affine functions *)

Lemma affine_group e r r1 l : NoDup l -> (forall r', agree_off l r r' -> smooth r' e) ->
  (forall x s, In x l -> In s (free_symbols (diff x e)) -> ~ In s l) -> agree_off l r r1 ->
  (eval r1 e = eval r e + wsum (fun s => r1 s - r s) (fun x => eval r (diff x e)) l)%R.
Proof.
  intros ND SM F AG. set (v := fun s : string => (r1 s - r s)%R).
  set (g := fun (t : R) s => if in_dec string_dec s l then (r s + t * v s)%R else r s).
  assert (Dg : forall t s, In s l -> derivable_pt_lim (fun t => g t s) t (v s)).
  { intros t s Hs. unfold g. destruct (in_dec string_dec s l); [|contradiction]. apply line_derivable. }
  assert (Dg0 : forall t s, ~ In s l -> derivable_pt_lim (fun t => g t s) t 0%R).
  { intros t s Hs. unfold g. destruct (in_dec string_dec s l); [contradiction|]. apply derivable_pt_lim_const. }
  assert (G0 : eval (g 0%R) e = eval r e).
  { apply eval_same. intros s. unfold g. destruct (in_dec string_dec s l); [ring|reflexivity]. }
  assert (G1 : eval (g 1%R) e = eval r1 e).
  { apply eval_same. intros s. unfold g, v. destruct (in_dec string_dec s l) as [I|N]; [ring|]. symmetry. now apply AG. }
  assert (B : forall t, agree_off l r (g t)).
  { intros t s Hs. unfold g. destruct (in_dec string_dec s l); [contradiction|reflexivity]. }
  pose proof (second_order (fun t => eval (g t) e) (fun _ => wsum v (fun s => eval r (diff s e)) l) 0%R) as S2.
  cbn beta in S2. rewrite G0, G1 in S2.
  assert (E : (eval r1 e - eval r e = wsum v (fun s => eval r (diff s e)) l + 0 / 2)%R).
  { apply S2.
    - intros t Ht. pose proof (rate_of_change g v t e l (SM _ (B t)) ND (Dg t) (Dg0 t)) as D.
      fold (wsum v (fun s => eval (g t) (diff s e)) l) in D.
      rewrite (wsum_ext v _ (fun s => eval r (diff s e)) l) in D; [exact D|].
      intros x Hx. apply eval_ext. intros s Hs. unfold g.
      destruct (in_dec string_dec s l) as [I|]; [|reflexivity]. exfalso. exact (F x s Hx Hs I).
    - intros t Ht. apply derivable_pt_lim_const. }
  lra.
Qed.

Lemma wsum_rsum v f l : wsum v f l = rsum (length l) (fun j => (v (nth j l "") * f (nth j l ""))%R).
Proof.
  unfold wsum. induction l as [|a l IH] using rev_ind; [reflexivity|].
  rewrite app_length, Nat.add_1_r. cbn [rsum]. rewrite app_nth2, Nat.sub_diag by lia. cbn [nth].
  rewrite (rsum_ext (length l) _ (fun j => (v (nth j l "") * f (nth j l ""))%R)).
  - rewrite <- IH. clear IH. induction l as [|b l IH]; cbn; lra.
  - intros j Hj. now rewrite app_nth1.
Qed.

(** ** Values with a known content *)

Definition isV (v : value) (n : nat) (f : nat -> R) : Prop :=
  exists l, v = Ve l /\ length l = n /\ forall i, i < n -> nth i l 0%R = f i.
Definition isM (v : value) (n m : nat) (A : nat -> nat -> R) : Prop :=
  exists B, v = Ma n m B /\ forall i j, i < n -> j < m -> B i j = A i j.

Lemma isV_ext v n f g : (forall i, i < n -> f i = g i) -> isV v n f -> isV v n g.
Proof. intros H (l & E & L & N). exists l. split; [exact E|]. split; [exact L|]. intros i Hi. rewrite N by exact Hi. now apply H. Qed.
Lemma isM_ext v n m A B : (forall i j, i < n -> j < m -> A i j = B i j) -> isM v n m A -> isM v n m B.
Proof. intros H (C & E & N). exists C. split; [exact E|]. intros i j Hi Hj. rewrite N by assumption. now apply H. Qed.

Lemma nth_map_seq (f : nat -> R) n i : i < n -> nth i (map f (seq 0 n)) 0%R = f i.
Proof.
  intros H. rewrite (nth_indep _ 0%R (f 0)) by (rewrite map_length, seq_length; exact H).
  rewrite map_nth, seq_nth by exact H. reflexivity.
Qed.

Lemma add_V a b n f g : isV a n f -> isV b n g -> exists c, v_add a b = Ok c /\ isV c n (fun i => (f i + g i)%R).
Proof.
  intros (l & -> & L & N) (k & -> & K & P). cbn [v_add]. rewrite L, K, Nat.eqb_refl. eexists. split; [reflexivity|].
  eexists. split; [reflexivity|]. split; [rewrite map_length, combine_length; lia|].
  intros i Hi. rewrite (nth_indep _ 0%R ((fun p => (fst p + snd p)%R) (0%R, 0%R))) by (rewrite map_length, combine_length; lia).
  rewrite (map_nth (fun p => (fst p + snd p)%R)), combine_nth by lia. cbn [fst snd]. now rewrite N, P.
Qed.
Lemma add_M a b n m A B : isM a n m A -> isM b n m B -> exists c, v_add a b = Ok c /\ isM c n m (fun i j => (A i j + B i j)%R).
Proof.
  intros (A' & -> & HA) (B' & -> & HB). cbn [v_add]. rewrite !Nat.eqb_refl. cbn [andb]. eexists. split; [reflexivity|].
  eexists. split; [reflexivity|]. intros i j Hi Hj. cbn beta. now rewrite HA, HB.
Qed.
Lemma scale_V x a n f : isV a n f -> isV (v_scale x a) n (fun i => (x * f i)%R).
Proof.
  intros (l & -> & L & N). eexists. split; [reflexivity|]. split; [now rewrite map_length|]. intros i Hi.
  rewrite (nth_indep _ 0%R (x * 0)%R) by (rewrite map_length; lia). rewrite map_nth. now rewrite N.
Qed.
Lemma scale_M x a n m A : isM a n m A -> isM (v_scale x a) n m (fun i j => (x * A i j)%R).
Proof. intros (B & -> & N). eexists. split; [reflexivity|]. intros i j Hi Hj. cbn beta. now rewrite N. Qed.
Lemma dot_MV a b n m A f : isM a n m A -> isV b m f ->
  exists c, v_dot a b = Ok c /\ isV c n (mv_ m A f).
Proof.
  intros (B & -> & HB) (l & -> & L & N). cbn [v_dot]. rewrite L, Nat.eqb_refl. eexists. split; [reflexivity|].
  eexists. split; [reflexivity|]. split; [now rewrite map_length, seq_length|].
  intros i Hi. rewrite nth_map_seq by exact Hi. unfold mv_. apply rsum_ext. intros k Hk. now rewrite HB, N.
Qed.
Lemma dot_MM a b n m p A B : isM a n m A -> isM b m p B ->
  exists c, v_dot a b = Ok c /\ isM c n p (mm m A B).
Proof.
  intros (A' & -> & HA) (B' & -> & HB). cbn [v_dot]. rewrite Nat.eqb_refl. eexists. split; [reflexivity|].
  eexists. split; [reflexivity|]. intros i j Hi Hj. unfold mm. apply rsum_ext. intros k Hk. now rewrite HA, HB.
Qed.

Lemma inverse_ext n A A' B : (forall i j, i < n -> j < n -> A i j = A' i j) -> is_inverse n A B -> is_inverse n A' B.
Proof.
  intros H [I1 I2]. split; intros i j Hi Hj.
  - rewrite <- I1 by assumption. unfold mm. apply rsum_ext. intros k Hk. now rewrite H.
  - rewrite <- I2 by assumption. unfold mm. apply rsum_ext. intros k Hk. now rewrite H.
Qed.

Lemma safe_bind {A B} (r : result A) (f : A -> result B) (P : A -> Prop) (Q : B -> Prop) :
  safe r P -> (forall a, P a -> safe (f a) Q) -> safe (rbind r f) Q.
Proof. destruct r as [a|e]; cbn; auto. Qed.
Lemma safe_ok {A} (r : result A) (P : A -> Prop) : (exists a, r = Ok a /\ P a) -> safe r P.
Proof. intros (a & -> & H). exact H. Qed.
Lemma safe_impl {A} (r : result A) (P Q : A -> Prop) : (forall a, P a -> Q a) -> safe r P -> safe r Q.
Proof. destruct r; cbn; auto. Qed.

Lemma inv_M inv a n A : inv_correct inv -> isM a n n A ->
  safe (v_inv inv a) (fun v => exists B, isM v n n B /\ is_inverse n A B).
Proof.
  intros IC (A' & -> & HA). cbn [v_inv]. rewrite Nat.eqb_refl. destruct (inv n A') as [B|] eqn:E; [|reflexivity].
  cbn. exists B. split; [now exists B|]. apply (inverse_ext n A'); [exact HA|]. now apply IC.
Qed.

(** ** The expressions of a method *)

Lemma jac_ok m a b : wf m -> counters_ok m ->
  exists F J, tempF a m = Ok F /\ length F = nv m a /\ jactempF a b m = Ok J /\ J = jacobian F (v_of b m) /\
    nr J = nv m a /\ nc J = nv m b.
Proof.
  intros W HC. destruct (tempF_ok m a W HC) as (F & E & L & _). exists F, (jacobian F (v_of b m)).
  split; [exact E|]. split; [exact L|]. split; [unfold jactempF; now rewrite E|]. split; [reflexivity|].
  cbn [jacobian nr nc]. split; [exact L|now apply v_of_len].
Qed.

Lemma G_ok m a F J : wf m -> counters_ok m -> tempF a m = Ok F -> length F = nv m a -> jactempF a Sl m = Ok J ->
  nr J = nv m a -> nc J = nv m Sl ->
  exists G, G_of a m = Ok G /\ length G = nv m a /\ forall r i, i < nv m a ->
    (eval r (nth i G (Num 0)) = eval r (nth i F (Num 0)) -
       rsum (nv m Sl) (fun j => eval r (ent J i j) * r (nth j (v_of Sl m) "")))%R.
Proof.
  intros W HC EF LF EJ NR NC. unfold G_of. rewrite EF, EJ. cbn [rbind].
  destruct (matvecprod_ok J (map Sym (v_of Sl m))) as (l & E & L & V).
  { rewrite map_length, v_of_len by exact HC. congruence. }
  rewrite E. cbn [rbind]. unfold sumvecs. cbn [rev app].
  destruct (sum_onto_ok (nv m a) [F] (neg_vec l)) as (G & EG & LG & VG).
  { unfold neg_vec. rewrite map_length. congruence. }
  { repeat constructor. exact LF. }
  exists G. split; [exact EG|]. split; [exact LG|]. intros r i Hi. rewrite VG by exact Hi. cbn [map fold_right].
  rewrite neg_vec_nth by congruence. rewrite V by congruence. unfold mv_. rewrite NC.
  rewrite (rsum_ext (nv m Sl) _ (fun j => eval r (ent J i j) * r (nth j (v_of Sl m) ""))%R).
  - lra.
  - intros j Hj. rewrite nth_map_Sym by (rewrite v_of_len; assumption). reflexivity.
Qed.

(** ** Groups of arguments *)

Lemma among_cons g s l : among (s :: l) g = if existsb (String.eqb s) g then s :: among l g else among l g.
Proof. reflexivity. Qed.
Lemma among_app g l1 l2 : among (l1 ++ l2) g = among l1 g ++ among l2 g.
Proof. unfold among. apply filter_app. Qed.
Lemma existsb_in s g : existsb (String.eqb s) g = true <-> In s g.
Proof.
  rewrite existsb_exists. split.
  - intros (x & I & E). apply String.eqb_eq in E. now subst.
  - intros I. exists s. split; [exact I|apply String.eqb_refl].
Qed.
Lemma among_all g l : incl l g -> among l g = l.
Proof.
  induction l as [|s l IH]; intros H; [reflexivity|]. rewrite among_cons.
  rewrite (proj2 (existsb_in s g)) by (apply H; now left). rewrite IH; [reflexivity|]. intros x Hx. apply H. now right.
Qed.
Lemma among_none g l : (forall s, In s l -> ~ In s g) -> among l g = [].
Proof.
  induction l as [|s l IH]; intros H; [reflexivity|]. rewrite among_cons.
  destruct (existsb (String.eqb s) g) eqn:E; [apply existsb_in in E; exfalso; apply (H s); [now left|exact E]|].
  apply IH. intros x Hx. apply H. now right.
Qed.

Lemma nodup_app_disj {A} (l1 l2 : list A) x : NoDup (l1 ++ l2) -> In x l1 -> ~ In x l2.
Proof.
  induction l1 as [|a l1 IH]; intros ND H; [destruct H|]. cbn in ND. inversion ND as [|? ? Na ND']; subst.
  destruct H as [->|H]; [intros I; apply Na, in_or_app; now right|now apply IH].
Qed.
Lemma nodup_r {A} (l1 l2 : list A) : NoDup (l1 ++ l2) -> NoDup l2.
Proof. induction l1 as [|a l1 IH]; intros ND; [exact ND|]. apply IH. now inversion ND. Qed.
Lemma nodup_l {A} (l1 l2 : list A) : NoDup (l1 ++ l2) -> NoDup l1.
Proof.
  induction l1 as [|a l1 IH]; intros ND; [constructor|]. cbn in ND. inversion ND as [|? ? Na ND']; subst.
  constructor; [|now apply IH]. intros I. apply Na, in_or_app. now left.
Qed.

Lemma among_two a g1 b g2 c : NoDup (a ++ g1 ++ b ++ g2 ++ c) ->
  among (a ++ g1 ++ b ++ g2 ++ c) (g1 ++ g2) = g1 ++ g2.
Proof.
  intros ND. rewrite !among_app.
  rewrite (among_all (g1 ++ g2) g1) by (intros x Hx; apply in_or_app; now left).
  rewrite (among_all (g1 ++ g2) g2) by (intros x Hx; apply in_or_app; now right).
  rewrite (among_none (g1 ++ g2) a).
  2:{ intros s Hs I. apply (nodup_app_disj _ _ s ND Hs). apply in_app_or in I. rewrite !in_app_iff. intuition. }
  apply nodup_r in ND. rewrite (among_none (g1 ++ g2) b).
  2:{ intros s Hs I. apply in_app_or in I. destruct I as [I|I].
      - apply (nodup_app_disj _ _ s ND I). rewrite !in_app_iff. intuition.
      - apply nodup_r in ND. apply (nodup_app_disj _ _ s ND Hs). rewrite !in_app_iff. intuition. }
  rewrite (among_none (g1 ++ g2) c); [now rewrite app_nil_r|].
  intros s Hs I. apply in_app_or in I. destruct I as [I|I].
  - apply (nodup_app_disj _ _ s ND I). rewrite !in_app_iff. intuition.
  - apply nodup_r, nodup_r in ND. exact (nodup_app_disj _ _ s ND I Hs).
Qed.
Lemma among_one a g c : NoDup (a ++ g ++ c) -> among (a ++ g ++ c) g = g.
Proof.
  intros ND. pose proof (among_two a g [] [] c) as H. cbn [app] in H. rewrite app_nil_r in H. now apply H.
Qed.

Lemma cut_parts {A} n (l : list A) : (0 <= n <= Z.of_nat (length l))%Z -> cut Sl n l ++ cut Snl n l = l.
Proof.
  intros H. unfold cut. rewrite <- (Z2Nat.id n) by lia. rewrite py_slice_to, py_slice_from. apply firstn_skipn.
Qed.

Definition basic (g : list string) (m : core) : Prop := among (args_of m) g = g.

Lemma groups_basic m : counters_ok m -> NoDup (args_of m) ->
  forall name g, In (name, g) (groups m) -> basic g m.
Proof.
  intros [HX HW] ND name g H. unfold basic.
  assert (ED : dx_of Sl m ++ dx_of Snl m = dx m).
  { unfold dx_of. apply cut_parts. unfold dim_xl. rewrite dx_length. exact HX. }
  assert (EW : w_of Sl m ++ w_of Snl m = c_w m) by (unfold w_of; apply cut_parts; exact HW).
  unfold args_of in *. cbn [groups In] in H.
  destruct H as [E|[E|[E|[E|[E|[E|[E|[E|[]]]]]]]]]; injection E as <- <-.
  - exact (among_one [] (c_x m) _ ND).
  - exact (among_one (c_x m) (dx m) _ ND).
  - rewrite app_assoc in ND |- *. exact (among_one (c_x m ++ dx m) (c_w m) _ ND).
  - rewrite app_assoc, (app_assoc (c_x m ++ dx m)) in ND |- *. exact (among_one _ (c_u m) _ ND).
  - rewrite app_assoc, (app_assoc (c_x m ++ dx m)), (app_assoc ((c_x m ++ dx m) ++ c_w m)) in ND |- *.
    exact (among_one _ (c_p m) _ ND).
  - rewrite app_assoc, (app_assoc (c_x m ++ dx m)), (app_assoc ((c_x m ++ dx m) ++ c_w m)),
      (app_assoc (((c_x m ++ dx m) ++ c_w m) ++ c_u m)) in ND |- *.
    rewrite <- (app_nil_r (o_of m)) in ND |- * at 1.
    exact (among_one _ (o_of m) [] ND).
  - rewrite <- ED, <- EW, <- !app_assoc in ND |- *. unfold v_of.
    exact (among_two (c_x m) (dx_of Sl m) (dx_of Snl m) (w_of Sl m) _ ND).
  - rewrite <- ED, <- EW, <- !app_assoc in ND |- *. unfold v_of.
    rewrite app_assoc in ND |- *.
    exact (among_two (c_x m ++ dx_of Sl m) (dx_of Snl m) (w_of Sl m) (w_of Snl m) _ ND).
Qed.

(** ** Environment of a state *)

Lemma assoc_picks g s : forall names a, length a = length names -> existsb (String.eqb s) g = true ->
  assoc s (combine (among names g) (picks g names a)) = assoc s (combine names a).
Proof.
  induction names as [|n names IH]; intros [|x a] L H; cbn in L; try discriminate; [reflexivity|].
  rewrite among_cons. cbn [picks combine assoc]. destruct (existsb (String.eqb n) g) eqn:E.
  - cbn [combine assoc]. destruct (String.eqb n s); [reflexivity|]. apply IH; [lia|exact H].
  - rewrite IH by (lia || exact H). destruct (String.eqb_spec n s) as [->|_]; [congruence|reflexivity].
Qed.

Lemma assoc_some {B} s : forall names (a : list B), length a = length names -> In s names ->
  exists v, assoc s (combine names a) = Some v.
Proof.
  induction names as [|n names IH]; intros [|x a] L H; cbn in L; try discriminate; [destruct H|]. cbn [combine assoc].
  destruct (String.eqb_spec n s) as [->|N]; [now exists x|]. destruct H as [H|H]; [contradiction|].
  apply IH; [lia|exact H].
Qed.
Lemma assoc_keys {B} s : forall (d : list (string * B)), In s (map fst d) -> exists v, assoc s d = Some v.
Proof.
  induction d as [|[k v] d IH]; intros H; [destruct H|]. cbn [assoc]. destruct (String.eqb_spec k s) as [->|N]; [now exists v|].
  destruct H as [H|H]; [contradiction|]. now apply IH.
Qed.
