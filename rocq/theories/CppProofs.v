(** The generated C++ class computes what the numerical core computes. *)
From Coq Require Import String List ZArith QArith Qreals Reals Bool Lia Lra.
From Verif Require Import Py Tools Lists Expr RSum Mat Core Calculus ExprProofs MatProofs Spec_Core StructProofs
  Spec_Calculus Deriv CalculusProofs PowerProofs Subs SubsProofs Method Spec_Method Separable TempProofs
  Numeric Spec_Numeric NumericProofs NumericUpdate NumericStep NumericUpdateOk NumericSim Cpp Spec_Cpp.
Import ListNotations.
Local Open Scope string_scope.
Local Open Scope list_scope.
Local Open Scope nat_scope.

(** ** Lists *)

Lemma mem_in s l : mem s l = true <-> In s l.
Proof. unfold mem. rewrite py_in_existsb. apply existsb_in. Qed.
Lemma mem_false s l : mem s l = false <-> ~ In s l.
Proof. rewrite <- mem_in. destruct (mem s l); intuition congruence. Qed.

Lemma assoc_app {B} s (a b : list (string * B)) : assoc s (a ++ b) = match assoc s a with Some v => Some v | None => assoc s b end.
Proof. induction a as [|[x v] a IH]; cbn; [reflexivity|]. now destruct (String.eqb x s). Qed.
Lemma assoc_none {B} s (a : list (string * B)) : ~ In s (map fst a) -> assoc s a = None.
Proof.
  induction a as [|[x v] a IH]; cbn; intros H; [reflexivity|]. destruct (String.eqb_spec x s) as [->|_]; [tauto|]. apply IH. tauto.
Qed.
Lemma assoc_key {B} s (a : list (string * B)) v : assoc s a = Some v -> In s (map fst a).
Proof. intros H. apply assoc_in in H. apply in_map_iff. now exists (s, v). Qed.

Lemma assoc_number {B} (f : string -> bool) (mk : nat -> B) s : forall l n, f s = true ->
  match assoc s (map (fun p => (fst p, mk (snd p))) (filter (fun p => f (fst p)) (number n l))) with
  | Some q => exists i, nth_error l i = Some s /\ q = mk (n + i)
  | None => ~ In s l
  end.
Proof.
  induction l as [|a l IH]; intros n H; cbn [number filter map assoc]; [intros []|].
  specialize (IH (S n) H). cbn [fst]. destruct (f a) eqn:E; cbn [map assoc fst snd].
  - destruct (String.eqb_spec a s) as [->|N]; [exists 0; split; [reflexivity|f_equal; lia]|].
    destruct (assoc s _) as [q|]; [destruct IH as (i & A & ->); exists (S i); split; [exact A|f_equal; lia]|].
    intros [->|I]; [now apply N|now apply IH].
  - assert (N : a <> s) by congruence.
    destruct (assoc s _) as [q|]; [destruct IH as (i & A & ->); exists (S i); split; [exact A|f_equal; lia]|].
    intros [->|I]; [now apply N|now apply IH].
Qed.
Lemma assoc_number_no {B} (f : string -> bool) (mk : nat -> B) s : forall l n, f s = false ->
  assoc s (map (fun p => (fst p, mk (snd p))) (filter (fun p => f (fst p)) (number n l))) = None.
Proof.
  induction l as [|a l IH]; intros n H; cbn [number filter map assoc]; [reflexivity|]. cbn [fst].
  destruct (f a) eqn:E; cbn [map assoc fst snd]; [|now apply IH].
  destruct (String.eqb_spec a s) as [->|N]; [congruence|]. now apply IH.
Qed.

Lemma rmap_assoc {A C} (f : string -> result A) (key : A -> string) (g : A -> C) :
  (forall a b, f a = Ok b -> key b = a) -> forall l bs, rmap f l = Ok bs -> forall s,
  match assoc s (map (fun b => (key b, g b)) bs) with
  | Some c => exists b, f s = Ok b /\ In s l /\ c = g b
  | None => ~ In s l
  end.
Proof.
  intros K. induction l as [|a l IH]; intros bs H s; cbn [rmap] in H; [injection H as <-; intros []|].
  destruct (f a) as [b|] eqn:E; [|discriminate]. cbn [rbind] in H. destruct (rmap f l) as [bs'|]; [|discriminate].
  injection H as <-. cbn [map assoc]. rewrite (K a b E). destruct (String.eqb_spec a s) as [->|N].
  - exists b. split; [exact E|]. split; [now left|reflexivity].
  - specialize (IH bs' eq_refl s). destruct (assoc s _) as [c|].
    + destruct IH as (b' & A1 & A2 & A3). exists b'. split; [exact A1|]. split; [now right|exact A3].
    + intros [->|I]; [now apply N|now apply IH].
Qed.
Lemma rmap_total {A B} (f : A -> result B) : forall l, (forall a, In a l -> exists b, f a = Ok b) -> exists bs, rmap f l = Ok bs.
Proof.
  induction l as [|a l IH]; intros H; [now exists []|]. destruct (H a) as [b E]; [now left|].
  destruct IH as [bs Es]; [intros x Hx; apply H; now right|]. exists (b :: bs). cbn. now rewrite E, Es.
Qed.
Lemma rmap_map {A B} (f : A -> result B) (g : A -> B) : forall l, (forall a, In a l -> f a = Ok (g a)) -> rmap f l = Ok (map g l).
Proof.
  induction l as [|a l IH]; intros H; [reflexivity|]. cbn. rewrite H by now left. cbn. rewrite IH; [reflexivity|].
  intros x Hx. apply H. now right.
Qed.

Lemma put_length i v : forall l, length (put i v l) = length l.
Proof. intros l. revert i. induction l as [|a l IH]; intros [|i]; cbn; auto. Qed.
Lemma assoc_put s i v : forall names l, length l = length names -> NoDup names -> nth_error names i = Some s ->
  forall t, assoc t (combine names (put i v l)) = if String.eqb s t then Some v else assoc t (combine names l).
Proof.
  intros names l. revert names i. induction l as [|x l IH]; intros [|n names] i L ND Hi t; cbn in L; try discriminate.
  - destruct i; discriminate.
  - inversion ND as [|? ? Nn ND']; subst. destruct i as [|i]; cbn [put combine assoc nth_error] in *.
    + injection Hi as ->. now destruct (String.eqb s t).
    + rewrite (IH names i) by (lia || assumption). destruct (String.eqb_spec n t) as [->|Nt]; [|reflexivity].
      destruct (String.eqb_spec s t) as [->|_]; [|reflexivity]. apply nth_error_In in Hi. contradiction.
Qed.
Lemma combine_ext names : forall a b : list R, NoDup names -> length a = length names -> length b = length names ->
  (forall s, In s names -> assoc s (combine names a) = assoc s (combine names b)) -> a = b.
Proof.
  induction names as [|n names IH]; intros [|x a] [|y b] ND LA LB H; cbn in LA, LB; try discriminate; [reflexivity|].
  inversion ND as [|? ? Nn ND']; subst. f_equal.
  - specialize (H n (or_introl eq_refl)). cbn in H. rewrite String.eqb_refl in H. now injection H.
  - apply IH; [exact ND'|lia|lia|]. intros s Hs. specialize (H s (or_intror Hs)). cbn in H.
    destruct (String.eqb_spec n s) as [->|_]; [contradiction|exact H].
Qed.

Lemma cols_le n : forall i j, j < cols n -> i < n -> j = 0.
Proof. intros i j H _. destruct n; cbn in H; lia. Qed.
Lemma cols_if n : cols n = if Nat.eqb n 0 then 0 else 1.
Proof. now destruct n. Qed.

Lemma nth_columns {A} (f : nat -> nat -> A) d n : forall p b i j, i < n -> j < p ->
  nth (j * n + i) (flat_map (fun j => map (fun i => f i j) (seq 0 n)) (seq b p)) d = f i (b + j).
Proof.
  induction p as [|p IH]; intros b i j Hi Hj; [lia|]. cbn [seq flat_map].
  destruct j as [|j].
  - cbn [Nat.mul Nat.add]. rewrite app_nth1 by (rewrite map_length, seq_length; exact Hi).
    rewrite (nth_indep _ d (f 0 b)) by (rewrite map_length, seq_length; exact Hi).
    rewrite (map_nth (fun i => f i b)), seq_nth by exact Hi. f_equal; lia.
  - rewrite app_nth2 by (rewrite map_length, seq_length; nia). rewrite map_length, seq_length.
    replace (S j * n + i - n) with (j * n + i) by nia. rewrite IH by lia. f_equal; lia.
Qed.

Lemma is0_zero e : is0 e = true -> free_symbols e = [] /\ forall r, eval r e = 0%R.
Proof.
  unfold is0. destruct e; try discriminate. intros H. split; [reflexivity|]. intros r. cbn.
  apply Qeq_bool_iff in H. rewrite (Qeq_eqR _ _ H). unfold Q2R. cbn. lra.
Qed.

(** ** Shapes *)

Inductive shape := HS | HV (n : nat) | HM (n p : nat).
Definition vshape (v : value) : shape :=
  match v with Sc _ => HS | Ve l => HV (length l) | Ma n p _ => HM n p end.

Fixpoint op_shape (sh : string -> option shape) (o : operation) : option shape :=
  match o with
  | OName s => sh s
  | ONum _ => Some HS
  | OAdd a b =>
      match op_shape sh a, op_shape sh b with
      | Some HS, Some HS => Some HS
      | Some (HV n), Some (HV n') => if Nat.eqb n n' then Some (HV n) else None
      | Some (HM n p), Some (HM n' p') => if Nat.eqb n n' && Nat.eqb p p' then Some (HM n p) else None
      | _, _ => None
      end
  | OProd a b => match op_shape sh a, op_shape sh b with Some HS, Some x => Some x | _, _ => None end
  | ODot a b =>
      match op_shape sh a, op_shape sh b with
      | Some HS, Some x => Some x
      | Some (HM n p), Some (HV q) => if Nat.eqb p q && Nat.ltb 0 n && Nat.ltb 0 p then Some (HV n) else None
      | Some (HM n p), Some (HM p' q) => if Nat.eqb p p' then Some (HM n q) else None
      | _, _ => None
      end
  | OInv a => match op_shape sh a with Some (HM n p) => if Nat.eqb n p then Some (HM n n) else None | _ => None end
  | ONorm a => match op_shape sh a with Some (HV n) => if Nat.ltb 0 n then Some HS else None | _ => None end
  | OCopy a => op_shape sh a
  end.

Lemma cnorm_ok n f : c_norm (CMa n 1 f) = Ok (CSc (sqrt (rsum n (fun i => (f i 0%nat * f i 0%nat)%R)))).
Proof. reflexivity. Qed.

Lemma norm_list l : norm l = sqrt (rsum (length l) (fun i => (nth i l 0 * nth i l 0)%R)).
Proof.
  unfold norm. f_equal. induction l as [|a l IH]; [reflexivity|]. cbn [map fold_right length].
  change (S (length l)) with (1 + length l). rewrite rsum_app. cbn [rsum nth]. rewrite Rplus_0_l. f_equal. exact IH.
Qed.

Lemma add_nth l k i : length l = length k -> i < length l ->
  nth i (map (fun p => (fst p + snd p)%R) (combine l k)) 0%R = (nth i l 0 + nth i k 0)%R.
Proof.
  intros L Hi. rewrite (nth_indep _ 0%R ((fun p => (fst p + snd p)%R) (0%R, 0%R))) by (rewrite map_length, combine_length; lia).
  rewrite (map_nth (fun p => (fst p + snd p)%R)), combine_nth by lia. reflexivity.
Qed.

Lemma scale_c x v w : same_value v w -> vshape (v_scale x v) = vshape v /\
  exists w', c_mul (CSc x) w = Ok w' /\ same_value (v_scale x v) w'.
Proof.
  destruct v as [y|y|n p Y], w as [z|b1 b2 B]; cbn; intros M; try contradiction.
  - subst z. split; [reflexivity|]. eexists. split; reflexivity.
  - destruct M as (-> & -> & HB). split; [now rewrite map_length|]. eexists. split; [reflexivity|]. cbn.
    split; [now rewrite map_length|]. split; [reflexivity|]. intros i Hi. rewrite HB by exact Hi.
    rewrite (nth_indep (map (Rmult x) y) 0%R (x * 0)%R) by (rewrite map_length; exact Hi). now rewrite (map_nth (Rmult x)).
  - destruct M as (<- & <- & HB). split; [reflexivity|]. eexists. split; [reflexivity|]. cbn.
    split; [reflexivity|]. split; [reflexivity|]. intros i j Hi Hj. now rewrite HB.
Qed.

Section Operations.
  Variables (inv : inverter) (cinv : cinverter).
  Hypothesis INV : forall n A A' B, inv n A = Some B -> (forall i j, i < n -> j < n -> A i j = A' i j) ->
    forall i j, i < n -> j < n -> cinv n A' i j = B i j.
  Variable k : cclass.
  Variable o : object.
  Variable get : string -> result value.
  Variable sh : string -> option shape.

  Lemma op_ok op : forall s v, op_shape sh op = Some s ->
    (forall d v, In d (deps_of op) -> get d = Ok v ->
      (forall x, sh d = Some x -> vshape v = x) /\ exists w, access k o d = Ok w /\ same_value v w) ->
    eval_op inv get op = Ok v ->
    vshape v = s /\ exists w, exp_eval cinv k o (op2cpp op) = Ok w /\ same_value v w.
  Proof.
    induction op as [d|q|a IHa b IHb|a IHa b IHb|a IHa b IHb|a IHa|a IHa|a IHa]; intros s v HS' D E;
      cbn [op_shape deps_of eval_op op2cpp exp_eval] in *.
    - destruct (D d v (or_introl eq_refl) E) as [S (w & A & B)]. split; [now apply S|]. now exists w.
    - injection E as <-. injection HS' as <-. split; [reflexivity|]. now exists (CSc (Q2R q)).
    - destruct (eval_op inv get a) as [x|] eqn:EA; [|discriminate]. cbn [rbind] in E.
      destruct (eval_op inv get b) as [y|] eqn:EB; [|discriminate]. cbn [rbind] in E.
      destruct (op_shape sh a) as [sa|] eqn:SA; [|discriminate].
      destruct (op_shape sh b) as [sb|] eqn:SB; [|destruct sa; discriminate].
      destruct (IHa sa x eq_refl) as [Vx (wx & Ex & Mx)]; [intros d z Hd; apply D; apply in_or_app; now left|reflexivity|].
      destruct (IHb sb y eq_refl) as [Vy (wy & Ey & My)]; [intros d z Hd; apply D; apply in_or_app; now right|reflexivity|].
      rewrite Ex, Ey. cbn [rbind]. clear IHa IHb D EA EB SA SB Ex Ey.
      destruct x as [x|x|n p X], y as [y|y|n' p' Y]; cbn [v_add vshape] in *; try discriminate; subst sa sb.
      + injection E as <-. injection HS' as <-. destruct wx as [x'|], wy as [y'|]; cbn in Mx, My; try contradiction. subst.
        split; [reflexivity|]. cbn. eexists. split; reflexivity.
      + destruct (Nat.eqb_spec (length x) (length y)) as [L|]; [|discriminate]. injection E as <-. injection HS' as <-.
        destruct wx as [|a1 a2 A], wy as [|b1 b2 B]; cbn in Mx, My; try contradiction.
        destruct Mx as (-> & -> & HA). destruct My as (-> & -> & HB).
        split; [cbn; rewrite map_length, combine_length; f_equal; lia|]. cbn [c_add]. rewrite L, !Nat.eqb_refl. cbn [andb].
        eexists. split; [reflexivity|]. cbn. rewrite map_length, combine_length, L, Nat.min_id.
        split; [reflexivity|]. split; [reflexivity|]. intros i Hi. rewrite add_nth by lia. now rewrite HA, HB by lia.
      + destruct (Nat.eqb n n' && Nat.eqb p p') eqn:EQ; [|discriminate]. apply andb_prop in EQ. destruct EQ as [E1 E2].
        apply Nat.eqb_eq in E1, E2. subst n' p'. injection E as <-. injection HS' as <-.
        destruct wx as [|a1 a2 A], wy as [|b1 b2 B]; cbn in Mx, My; try contradiction.
        destruct Mx as (<- & <- & HA). destruct My as (<- & <- & HB). split; [reflexivity|].
        cbn [c_add]. rewrite !Nat.eqb_refl. cbn [andb]. eexists. split; [reflexivity|]. cbn.
        split; [reflexivity|]. split; [reflexivity|]. intros i j Hi Hj. now rewrite HA, HB.
    - destruct (eval_op inv get a) as [x|] eqn:EA; [|discriminate]. cbn [rbind] in E.
      destruct (eval_op inv get b) as [y|] eqn:EB; [|discriminate]. cbn [rbind] in E.
      destruct (op_shape sh a) as [sa|] eqn:SA; [|discriminate].
      destruct (op_shape sh b) as [sb|] eqn:SB; [|destruct sa; discriminate].
      destruct (IHa sa x eq_refl) as [Vx (wx & Ex & Mx)]; [intros d z Hd; apply D; apply in_or_app; now left|reflexivity|].
      destruct (IHb sb y eq_refl) as [Vy (wy & Ey & My)]; [intros d z Hd; apply D; apply in_or_app; now right|reflexivity|].
      rewrite Ex, Ey. cbn [rbind]. clear IHa IHb D EA EB SA SB Ex Ey.
      destruct x as [x|x|n p X]; cbn [v_prod vshape] in *; try discriminate; subst sa sb. injection E as <-.
      injection HS' as <-. destruct wx as [x'|]; cbn in Mx; [|contradiction]. subst x'. now apply scale_c.
    - destruct (eval_op inv get a) as [x|] eqn:EA; [|discriminate]. cbn [rbind] in E.
      destruct (eval_op inv get b) as [y|] eqn:EB; [|discriminate]. cbn [rbind] in E.
      destruct (op_shape sh a) as [sa|] eqn:SA; [|discriminate].
      destruct (op_shape sh b) as [sb|] eqn:SB; [|destruct sa; discriminate].
      destruct (IHa sa x eq_refl) as [Vx (wx & Ex & Mx)]; [intros d z Hd; apply D; apply in_or_app; now left|reflexivity|].
      destruct (IHb sb y eq_refl) as [Vy (wy & Ey & My)]; [intros d z Hd; apply D; apply in_or_app; now right|reflexivity|].
      rewrite Ex, Ey. cbn [rbind]. clear IHa IHb D EA EB SA SB Ex Ey.
      destruct x as [x|x|n p X]; cbn [v_dot vshape] in *; try discriminate; subst sa sb.
      + injection E as <-. injection HS' as <-. destruct wx as [x'|]; cbn in Mx; [|contradiction]. subst x'. now apply scale_c.
      + destruct wx as [|a1 a2 A]; cbn in Mx; [contradiction|]. destruct Mx as (<- & <- & HA).
        destruct y as [y|y|n' p' Y]; cbn [vshape] in *; try discriminate.
        * destruct (Nat.eqb_spec p (length y)) as [->|]; [|discriminate]. cbn [andb] in HS'.
          destruct (Nat.ltb_spec 0 n) as [Hn|]; [|discriminate]. destruct (Nat.ltb_spec 0 (length y)) as [Hp|]; [|discriminate].
          cbn in HS'. injection HS' as <-. injection E as <-. destruct wy as [|b1 b2 B]; cbn in My; [contradiction|].
          destruct My as (-> & -> & HB). split; [cbn; now rewrite map_length, seq_length|].
          cbn [c_mul]. rewrite Nat.eqb_refl. eexists. split; [reflexivity|]. cbn [same_value]. rewrite map_length, seq_length.
          split; [reflexivity|]. split; [destruct (length y), n; cbn; lia || reflexivity|].
          intros i Hi. rewrite nth_map_seq by exact Hi. apply rsum_ext. intros h Hh. now rewrite HA, HB.
        * destruct (Nat.eqb_spec p n') as [<-|]; [|discriminate]. injection HS' as <-. injection E as <-.
          destruct wy as [|b1 b2 B]; cbn in My; [contradiction|]. destruct My as (<- & <- & HB). split; [reflexivity|].
          cbn [c_mul]. rewrite Nat.eqb_refl. eexists. split; [reflexivity|]. cbn. split; [reflexivity|]. split; [reflexivity|].
          intros i j Hi Hj. apply rsum_ext. intros h Hh. now rewrite HA, HB.
    - destruct (eval_op inv get a) as [x|] eqn:EA; [|discriminate]. cbn [rbind] in E.
      destruct (op_shape sh a) as [sa|] eqn:SA; [|discriminate].
      destruct (IHa sa x eq_refl D eq_refl) as [Vx (wx & Ex & Mx)]. rewrite Ex. cbn [rbind].
      destruct x as [x|x|n p X]; cbn [v_inv vshape] in *; try discriminate; subst sa.
      destruct (Nat.eqb_spec n p) as [<-|]; [|discriminate]. injection HS' as <-.
      destruct (inv n X) as [Y|] eqn:EI; [|discriminate]. injection E as <-.
      destruct wx as [|a1 a2 A]; cbn in Mx; [contradiction|]. destruct Mx as (<- & <- & HA). split; [reflexivity|].
      cbn [c_inv]. rewrite Nat.eqb_refl. eexists. split; [reflexivity|]. cbn. split; [reflexivity|]. split; [reflexivity|].
      intros i j Hi Hj. symmetry. now apply (INV n X A Y).
    - destruct (eval_op inv get a) as [x|] eqn:EA; [|discriminate]. cbn [rbind] in E.
      destruct (op_shape sh a) as [sa|] eqn:SA; [|discriminate].
      destruct (IHa sa x eq_refl D eq_refl) as [Vx (wx & Ex & Mx)]. rewrite Ex. cbn [rbind].
      destruct x as [x|x|n p X]; cbn [v_norm vshape] in *; try discriminate; subst sa.
      destruct (Nat.ltb_spec 0 (length x)) as [Hx|]; [|discriminate]. injection HS' as <-. injection E as <-.
      destruct wx as [|a1 a2 A]; cbn in Mx; [contradiction|]. destruct Mx as (-> & -> & HA). split; [reflexivity|].
      replace (if length x =? 0 then 0 else 1) with 1 by (destruct (length x); cbn; lia || reflexivity).
      rewrite cnorm_ok. eexists. split; [reflexivity|]. cbn. rewrite norm_list. f_equal. apply rsum_ext. intros i Hi. now rewrite HA.
    - now apply IHa.
  Qed.
End Operations.
