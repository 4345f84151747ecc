(** Work of the gradient of a method over a step. *)
From Coq Require Import String List ZArith QArith Qreals Reals Bool Lra Lia Permutation.
From Verif Require Import Py Tools Lists Expr ExprProofs RSum Mat MatProofs Core Spec_Core
  Spec_Split StructProofs BlockProofs PowerProofs SplitProofs SplitProofs2 Calculus
  Spec_Calculus Deriv CalculusProofs Subs SubsProofs Method Spec_Method Separable TempProofs.
Import ListNotations.
Local Open Scope string_scope.
Local Open Scope list_scope.
Local Open Scope nat_scope.

Definition linear_ok (c : core) : Prop :=
  let xl := Z.to_nat (c_xl c) in
  nr (c_Q c) = xl /\ nc (c_Q c) = xl /\ length (c_bl c) = xl /\
  (forall i j, i < xl -> j < xl ->
     ent (c_Q c) i j = diff (nth j (c_x c) "") (diff (nth i (c_x c) "") (c_H c))) /\
  (forall r i, i < xl -> eval r (diff (nth i (c_x c) "") (c_H c)) =
     (rsum xl (fun j => eval r (ent (c_Q c) i j) * r (nth j (c_x c) "")) +
      eval r (nth i (c_bl c) (Num 0)))%R).

Definition dn (s : string) : string := "d" ++ s.

Lemma dx_map c : dx c = map dn (c_x c).
Proof. reflexivity. Qed.

Lemma nth_dn l i : i < length l -> nth i (map dn l) "" = dn (nth i l "").
Proof. intros H. rewrite (nth_indep _ "" (dn "")) by (now rewrite map_length). apply map_nth. Qed.

Section parts.
  Variable c : core.
  Hypothesis HC : counters_ok c.
  Hypothesis HM : (0 <= c_xnl_mono c)%Z.
  Notation xl := (Z.to_nat (c_xl c)).
  Notation n := (Z.to_nat (c_xnl_mono c)).
  Definition partA := firstn xl (c_x c).
  Definition partB := firstn n (skipn xl (c_x c)).
  Definition partC := skipn (xl + n) (c_x c).

  Lemma slice_to {A} (z : Z) (l : list A) : (0 <= z)%Z -> py_slice l None (Some z) = firstn (Z.to_nat z) l.
  Proof. intros H. rewrite <- (Z2Nat.id z) at 1 by exact H. apply py_slice_to. Qed.
  Lemma slice_from {A} (z : Z) (l : list A) : (0 <= z)%Z -> py_slice l (Some z) None = skipn (Z.to_nat z) l.
  Proof. intros H. rewrite <- (Z2Nat.id z) at 1 by exact H. apply py_slice_from. Qed.

  Lemma xl_part : xl_of c = partA.
  Proof. destruct HC. apply slice_to. unfold dim_xl. lia. Qed.
  Lemma dxl_part : dx_of Sl c = map dn partA.
  Proof.
    destruct HC. unfold dx_of, cut. rewrite slice_to by (unfold dim_xl; lia). unfold partA, dim_xl.
    rewrite dx_map. apply firstn_map.
  Qed.
  Lemma skipn_plus {A} a b (l : list A) : skipn b (skipn a l) = skipn (a + b) l.
  Proof. revert l. induction a as [|a IH]; intros [|x l]; cbn; auto. now rewrite skipn_nil. Qed.

  Lemma mono_part : py_slice (xnl_of c) None (Some (dim_xnl_mono c)) = partB.
  Proof.
    destruct HC. unfold xnl_of. rewrite slice_from by (unfold dim_xl; lia).
    rewrite slice_to by exact HM. reflexivity.
  Qed.
  Lemma dmono_part : py_slice (dx_of Snl c) None (Some (dim_xnl_mono c)) = map dn partB.
  Proof.
    destruct HC. unfold dx_of, cut. rewrite slice_from by (unfold dim_xl; lia).
    rewrite slice_to by exact HM. unfold partB, dim_xl, dim_xnl_mono. rewrite dx_map, skipn_map, firstn_map. reflexivity.
  Qed.
  Lemma multi_part : py_slice (xnl_of c) (Some (dim_xnl_mono c)) None = partC.
  Proof.
    destruct HC. unfold xnl_of. rewrite slice_from by (exact HM). rewrite slice_from by (unfold dim_xl; lia).
    unfold partC, dim_xl, dim_xnl_mono. apply skipn_plus.
  Qed.
  Lemma dmulti_part : py_slice (dx_of Snl c) (Some (dim_xnl_mono c)) None = map dn partC.
  Proof.
    destruct HC. unfold dx_of, cut. rewrite slice_from by (exact HM). rewrite slice_from by (unfold dim_xl; lia).
    unfold partC, dim_xl, dim_xnl_mono. rewrite skipn_plus, dx_map. apply skipn_map.
  Qed.
  Lemma parts : c_x c = partA ++ partB ++ partC.
  Proof.
    unfold partA, partB, partC. rewrite <- skipn_plus, (firstn_skipn n (skipn xl (c_x c))).
    now rewrite firstn_skipn.
  Qed.
  Lemma dparts : dx c = map dn partA ++ map dn partB ++ map dn partC.
  Proof. rewrite dx_map, parts at 1. now rewrite !map_app. Qed.
  Lemma partA_length : length partA = xl.
  Proof. destruct HC. unfold partA. rewrite firstn_length. lia. Qed.
  Lemma partA_nth i : i < xl -> nth i partA "" = nth i (c_x c) "".
  Proof. intros H. unfold partA. now apply nth_firstn_in. Qed.

  Lemma linear_gradient_ok : linear_ok c -> exists l, linear_gradient c = Ok l /\ length l = xl /\
    forall r i, i < xl -> eval r (nth i l (Num 0)) =
      (eval r (diff (nth i (c_x c) "") (c_H c)) +
       / 2 * rsum xl (fun j => eval r (diff (nth j (c_x c) "") (diff (nth i (c_x c) "") (c_H c))) *
                               r (dn (nth j (c_x c) ""))))%R.
  Proof.
    intros (Q1 & Q2 & B & QE & G). unfold linear_gradient. rewrite xl_part, dxl_part.
    pose proof partA_length as LA.
    destruct (madd_ok (colvec (map Sym partA)) (mscal half (colvec (map Sym (map dn partA))))) as (V & EV & V1 & V2 & V3).
    { cbn. now rewrite !map_length. } { reflexivity. }
    rewrite EV. cbn [rbind]. cbn in V1, V2. rewrite map_length, LA in V1.
    destruct (mmul_ok (c_Q c) V) as (P & EP & P1 & P2 & P3); [congruence|].
    rewrite EP. cbn [rbind].
    destruct (madd_ok P (colvec (c_bl c))) as (T & ET & T1 & T2 & T3); [cbn; congruence|cbn; congruence|].
    rewrite ET. cbn [rbind]. eexists. split; [reflexivity|].
    split; [unfold col_list; rewrite map_length, seq_length; congruence|].
    intros r i Hi. unfold col_list. rewrite (nth_map_dep _ _ 0) by (rewrite seq_length; congruence).
    rewrite seq_nth by congruence. rewrite Nat.add_0_l.
    change (eval r (ent T i 0)) with (ev r T i 0). rewrite T3, P3.
    unfold mm. rewrite Q2, (G r i Hi).
    rewrite (rsum_ext xl (fun k => ev r (c_Q c) i k * ev r V k 0%nat)%R
      (fun k => eval r (ent (c_Q c) i k) * r (nth k (c_x c) "") +
         / 2 * (eval r (diff (nth k (c_x c) "") (diff (nth i (c_x c) "") (c_H c))) * r (dn (nth k (c_x c) ""))))%R).
    2:{ intros k Hk. rewrite V3, ev_mscal. unfold ev, colvec. cbn [ent].
        rewrite !nth_map_Sym by (rewrite ?map_length; lia). rewrite nth_dn by lia. rewrite partA_nth by exact Hk.
        rewrite (QE i k Hi Hk). cbn [eval half]. rewrite Q2R_half. lra. }
    rewrite rsum_plus, rsum_scal. unfold ev, colvec. cbn [ent]. lra.
  Qed.
End parts.

Lemma gradient_of_ok f c : counters_ok c -> (0 <= c_xnl_mono c)%Z -> linear_ok c -> f_grad f <> OtherGrad ->
  exists g, gradient_of f c = Ok g /\ length g = length (c_x c).
Proof.
  intros HC HM L G. unfold gradient_of.
  assert (Lx : length (dx c) = length (c_x c)) by apply dx_length.
  destruct (f_grad f).
  - destruct (linear_gradient_ok c HC L) as (l & El & Ll & _). rewrite El. cbn [rbind].
    rewrite mono_part, dmono_part, multi_part, dmulti_part by assumption.
    rewrite mono_ok by apply map_length. cbn [rbind].
    rewrite multi_ok by apply map_length. cbn zeta. cbn [rbind]. eexists. split; [reflexivity|].
    rewrite !app_length, !map_length, !combine_length. unfold gradient. rewrite !map_length, Ll.
    assert (P : length (c_x c) = Z.to_nat (c_xl c) + (length (partB c) + length (partC c))).
    { rewrite (parts c) at 1. rewrite !app_length, partA_length by exact HC. reflexivity. }
    lia.
  - rewrite theta_ok by exact Lx. eexists. split; [reflexivity|]. unfold gradient. now rewrite !map_length.
  - rewrite trapez_ok by exact Lx. eexists. split; [reflexivity|]. unfold gradient. now rewrite !map_length.
  - now elim G.
Qed.

Local Open Scope R_scope.

Lemma NoDup_app_r {A} (l1 l2 : list A) : NoDup (l1 ++ l2) -> NoDup l2.
Proof. induction l1 as [|a l1 IH]; cbn; [auto|]. intros H. inversion H; auto. Qed.
Lemma NoDup_app_l {A} (l1 l2 : list A) : NoDup (l1 ++ l2) -> NoDup l1.
Proof.
  induction l1 as [|a l1 IH]; cbn; intros H; [constructor|]. inversion H as [|? ? N ND]; subst.
  constructor; [|auto]. intros I. apply N, in_or_app. now left.
Qed.

Lemma work_app r g1 g2 d1 d2 : length g1 = length d1 ->
  work r (g1 ++ g2) (d1 ++ d2) = work r g1 d1 + work r g2 d2.
Proof.
  unfold work. revert d1. induction g1 as [|a g1 IH]; intros [|d d1] L; try discriminate; cbn; [lra|].
  rewrite IH by (cbn in L; lia). lra.
Qed.

Lemma wsum_rsum v f l : wsum v f l = rsum (length l) (fun i => v (nth i l "") * f (nth i l "")).
Proof.
  induction l as [|a l IH]; [reflexivity|]. unfold wsum in *. cbn [fold_right length]. rewrite IH.
  change (S (length l)) with (1 + length l)%nat. rewrite rsum_app. cbn. lra.
Qed.

Lemma mono_part_work r r1 H tol : 0 < Q2R tol -> forall l,
  (forall x, In x l -> r1 x = r x + r (dn x) /\ (r (dn x) = 0 \/ r (dn x) < - Q2R tol \/ Q2R tol <= r (dn x))) ->
  work r (map (mono_component H tol) (combine l (map dn l))) (map dn l) =
  fold_right Rplus 0 (map (fun x => eval (mix [x] r r1) H - eval r H) l).
Proof.
  intros Ht. induction l as [|x l IH]; intros A; [reflexivity|].
  unfold work in *. cbn [map combine fold_right fst snd]. rewrite IH by (intros; apply A; now right). f_equal.
  destruct (A x (or_introl eq_refl)) as [E D].
  assert (EM : eval (mix [x] r r1) H = eval (upd r x (r x + r (dn x))) H).
  { apply eval_same. intros s. rewrite mix_cons. unfold upd. rewrite E. now destruct (String.eqb s x). }
  rewrite EM. destruct D as [D|D].
  - rewrite D, Rmult_0_r, Rplus_0_r. rewrite (eval_same (upd r x (r x)) r); [lra|].
    intros s. unfold upd. destruct (String.eqb_spec s x) as [->|]; reflexivity.
  - now apply mono_out.
Qed.

Lemma work_zero r g d : (forall s, In s d -> r s = 0) -> work r g d = 0.
Proof.
  unfold work. revert d. induction g as [|a g IH]; intros [|s d] H; try reflexivity. cbn [combine map fold_right fst snd].
  rewrite IH by (intros; apply H; now right). rewrite (H s) by now left. lra.
Qed.

Lemma gradient_work f c g r r1 : NoDup (c_x c) -> (forall s, In s (dx c) -> ~ In s (c_x c)) ->
  counters_ok c -> (0 <= c_xnl_mono c)%Z -> linear_ok c ->
  gradient_of f c = Ok g -> moved 1 r (c_x c) (dx c) r1 -> exact_step f c r r1 ->
  work r g (dx c) = eval r1 (c_H c) - eval r (c_H c).
Proof.
  intros ND D HC HM L E M X. pose proof (dx_length c) as Lx. unfold gradient_of, exact_step in *.
  destruct (f_grad f).
  - destruct X as (Ht & (S1 & S2 & S3) & SM & (Z1 & Z2)).
    destruct (linear_gradient_ok c HC L) as (l & El & Ll & Vl). rewrite El in E. cbn [rbind] in E.
    rewrite mono_part, dmono_part, multi_part, dmulti_part in E by assumption.
    rewrite mono_ok in E by apply map_length. cbn [rbind] in E.
    destruct (discrete_gradient_multivar (c_H c) (partC c) (map dn (partC c)) (f_epsdg f)) as [gc|] eqn:EC; [|discriminate].
    cbn [rbind] in E. injection E as <-.
    set (A := partA c) in *. set (B := partB c) in *. set (C := partC c) in *. set (H := c_H c) in *.
    set (xl := Z.to_nat (c_xl c)) in *. set (n := Z.to_nat (c_xnl_mono c)) in *.
    pose proof (parts c) as PX. fold A B C in PX. pose proof (dparts c) as PD. fold A B C in PD.
    assert (LA : length A = xl) by now apply partA_length.
    assert (Lxl : (xl <= length (c_x c))%nat) by (destruct HC; unfold xl; lia).
    assert (LB : (length B <= n)%nat) by (unfold B, partB; rewrite firstn_length; fold n; lia).
    assert (LBC : (length (c_x c) = xl + length B + length C)%nat) by (rewrite PX, !app_length; lia).
    assert (MV : forall x, In x (c_x c) -> r1 x = r x + r (dn x)).
    { intros x Hx. destruct (In_nth _ _ "" Hx) as (i & Hi & <-).
      rewrite (proj1 M i Hi), dx_map, nth_dn by exact Hi. lra. }
    rewrite PD, work_app by (rewrite map_length; lia).
    rewrite work_app by (rewrite !map_length, combine_length, map_length; lia).
    (* pieces of the energy *)
    assert (NDx : NoDup (A ++ B ++ C)) by now rewrite <- PX.
    assert (IA : forall x, In x A -> In x (c_x c)) by (intros; rewrite PX, !in_app_iff; tauto).
    assert (IB : forall x, In x B -> In x (c_x c)) by (intros; rewrite PX, !in_app_iff; tauto).
    assert (IC : forall x, In x C -> In x (c_x c)) by (intros; rewrite PX, !in_app_iff; tauto).
    assert (NA : forall i, (i < xl)%nat -> nth i A "" = nth i (c_x c) "") by (intros; now apply partA_nth).
    assert (NBC : forall i, nth i (B ++ C) "" = nth (xl + i) (c_x c) "").
    { intros i. rewrite PX, (app_nth2 A) by lia. f_equal. lia. }
    assert (LBC' : length (B ++ C) = (length (c_x c) - xl)%nat) by (rewrite app_length; lia).
    assert (G1 : eval r1 H - eval (mix (B ++ C) r r1) H = eval (mix A r r1) H - eval r H).
    { rewrite <- (separate_group H r r1 (B ++ C) A SM NDx).
      - rewrite <- PX. f_equal. apply eval_same. intros s. unfold mix.
        destruct (in_dec string_dec s (c_x c)) as [I|I]; [reflexivity|]. now apply (proj2 M).
      - intros x y Hx Hy. destruct (In_nth _ _ "" Hx) as (i & Hi & <-). destruct (In_nth _ _ "" Hy) as (j & Hj & <-).
        rewrite NA, NBC by lia. apply S1; lia. }
    assert (NDbc : NoDup (B ++ C)) by (apply NoDup_app_r in NDx; exact NDx).
    assert (G2 : eval (mix (B ++ C) r r1) H - eval r H =
      fold_right Rplus 0 (map (fun x => eval (mix [x] r r1) H - eval r H) B) + (eval (mix C r r1) H - eval r H)).
    { apply separate_all; [exact SM|exact NDbc|]. intros i j Hi Hj. rewrite !NBC. apply S3; lia. }
    assert (W1 : work r l (map dn A) = eval (mix A r r1) H - eval r H).
    { rewrite (quadratic_group H r r1 A).
      - rewrite work_nth, map_length, wsum_rsum, LA by (rewrite map_length; lia).
        apply rsum_ext. intros i Hi. rewrite Vl by exact Hi. rewrite nth_dn by lia.
        rewrite NA by exact Hi. rewrite wsum_rsum, LA. rewrite MV by (apply nth_In; lia).
        rewrite (rsum_ext xl (fun j => (r1 (nth j A "") - r (nth j A "")) * eval r (diff (nth j A "") (diff (nth i (c_x c) "") H)))
          (fun j => eval r (diff (nth j (c_x c) "") (diff (nth i (c_x c) "") H)) * r (dn (nth j (c_x c) "")))).
        + ring.
        + intros j Hj. rewrite NA by exact Hj. rewrite MV by (apply nth_In; lia). ring.
      - apply NoDup_app_l in NDx. exact NDx.
      - exact SM.
      - intros x y s Hx Hy. destruct (In_nth _ _ "" Hx) as (i & Hi & <-). destruct (In_nth _ _ "" Hy) as (j & Hj & <-).
        rewrite !NA by lia. intros Hs. apply (S2 i j s); [lia|lia|exact Hs]. }
    assert (W2 : work r (map (mono_component H (f_epsdg f)) (combine B (map dn B))) (map dn B) =
      fold_right Rplus 0 (map (fun x => eval (mix [x] r r1) H - eval r H) B)).
    { apply mono_part_work; [exact Ht|]. intros x Hx. split; [now apply MV, IB|].
      destruct (In_nth _ _ "" Hx) as (i & Hi & <-).
      assert (E : nth i B "" = nth (xl + i) (c_x c) "") by (rewrite <- NBC; now rewrite app_nth1).
      rewrite E. specialize (Z1 (xl + i)%nat ltac:(lia) ltac:(lia)). rewrite dx_map, nth_dn in Z1 by lia. exact Z1. }
    assert (W3 : work r gc (map dn C) = eval (mix C r r1) H - eval r H).
    { assert (EC' : skipn (xl + n) (dx c) = map dn C) by (rewrite dx_map; apply skipn_map).
      rewrite EC' in Z2. destruct Z2 as [Z2|Z2].
      - rewrite work_zero by exact Z2. rewrite (eval_same (mix C r r1) r); [lra|].
        intros s. unfold mix. destruct (in_dec string_dec s C) as [I|I]; [|reflexivity].
        rewrite MV by now apply IC. rewrite (Z2 (dn s)) by now apply in_map. lra.
      - apply (multi_work H C (map dn C) (f_epsdg f)); try assumption.
        + apply NoDup_app_r in NDbc. exact NDbc.
        + apply map_length.
        + intros s Hs Hc. apply (D s); [rewrite PD, !in_app_iff; tauto|now apply IC].
        + split.
          * intros i Hi. rewrite nth_dn by exact Hi. unfold mix.
            destruct (in_dec string_dec (nth i C "") C) as [I|I]; [|exfalso; apply I; now apply nth_In].
            rewrite MV by now apply IC. lra.
          * intros s Hs. now apply mix_out. }
    rewrite W1, W2, W3. lra.
  - destruct X as (T & A & b & k & Q).
    rewrite (quadratic_theta r (c_H c) (c_x c) (dx c) A b k (f_theta f) g r1 ND Lx D Q E M), T. lra.
  - destruct X as (A & b & k & Q).
    exact (quadratic_trapez r (c_H c) (c_x c) (dx c) A b k g r1 ND Lx D Q E M).
  - contradiction.
Qed.
