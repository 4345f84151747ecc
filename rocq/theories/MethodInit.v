(** Construction of a method and balance of a solved step. *)
From Coq Require Import String List ZArith QArith Qreals Reals Bool Lra Lia Permutation.
From Verif Require Import Py Tools Lists Expr ExprProofs RSum Mat MatProofs Core Spec_Core
  Spec_Split Spec_Subs StructProofs BlockProofs PowerProofs SplitProofs SplitProofs2 Calculus
  Spec_Calculus Deriv CalculusProofs Subs SubsProofs Method Spec_Method Separable TempProofs
  MethodProofs MethodEnergy.
Import ListNotations.
Local Open Scope string_scope.
Local Open Scope list_scope.
Local Open Scope nat_scope.

Definition prep (c : core) : Prop := wf c /\ counters_ok c /\ linear_ok c /\ zl_ok c.
Definition ready (c : core) : Prop := prep c /\ (0 <= c_xnl_mono c)%Z.

Lemma in_order_perm {A} d (l : list A) s : Permutation s (seq 0 (length l)) -> Permutation l (in_order d l s).
Proof.
  intros P. unfold in_order. rewrite (list_as_map l d) at 1. now apply Permutation_map, Permutation_sym.
Qed.

Lemma gradient_of_same f c g z M : gradient_of f (set_z z (set_M M (set_dxH g c))) = gradient_of f c.
Proof. reflexivity. Qed.

Lemma build_structure_fields f c : exists z M, build_structure f c = set_z z (set_M M c) /\
  length z = length (c_z c) /\ nr M = nr (c_M c) /\ nc M = nc (c_M c).
Proof.
  unfold build_structure. eexists _, _. split; [reflexivity|]. split; [apply map_length|]. split; reflexivity.
Qed.

Lemma build_ok K f c : ready c -> f_grad f <> OtherGrad ->
  incl (g_symbols c ++ c_x c) K -> (forall w, In w (c_w c) -> ~ In w K) ->
  exists m g, build f c = ok m /\ ready m /\ heir K c m /\ c_dxH m = Some g /\ gradient_of f m = Ok g /\
    c_x m = c_x c /\ c_H m = c_H c /\ c_xl m = c_xl c /\ c_wl m = c_wl c /\ c_xnl_mono m = c_xnl_mono c /\
    c_w m = c_w c /\ c_p m = c_p c.
Proof.
  intros ((W & HC & L & Z) & HM) G I WK.
  destruct (gradient_of_ok f c HC HM L G) as (g & Eg & Lg).
  assert (W1 : wf (set_dxH (Some g) c)).
  { destruct W as (P & D & M1 & M2). repeat split; cbn; try apply P; try assumption.
    intros d E. injection E as <-. exact Lg. }
  destruct (build_structure_fields f (set_dxH (Some g) c)) as (z & M & EB & Lz & N1 & N2).
  pose proof (heir_structure K f (set_dxH (Some g) c) W1 I WK) as H2. rewrite EB in H2.
  assert (W2 : wf (set_z z (set_M M (set_dxH (Some g) c)))) by apply H2.
  assert (HC2 : counters_ok (set_z z (set_M M (set_dxH (Some g) c)))) by exact HC.
  exists (set_z z (set_M M (set_dxH (Some g) c))), g.
  split.
  { unfold build, build_gradient. rewrite Eg. cbn [olift]. unfold ok at 1, obind. rewrite EB.
    now apply set_structure_ok. }
  split; [split; [split; [exact W2|]; split; [exact HC2|]; split; [exact L|exact Z]|exact HM]|].
  split.
  { eapply heir_trans; [|exact H2]. apply heir_same; try reflexivity. exact W1. }
  split; [reflexivity|]. split; [rewrite gradient_of_same; exact Eg|].
  repeat split; reflexivity.
Qed.

Lemma linear_stage K cr c : wf c -> zl_ok c ->
  (cr <> None -> nc (fst (fst (split_crit cr c))) = length (c_x c) /\
                 nc (fst (snd (split_crit cr c))) = length (c_w c)) ->
  exists c', linear_nonlinear cr c = ok c' /\ prep c' /\ heir K c c' /\ c_H c' = c_H c /\
    c_xnl_mono c' = c_xnl_mono c.
Proof.
  intros W Z CR.
  destruct (linear_nonlinear_ok cr c W Z CR) as (c' & sx & sw & nxl & nwl & E & W' & HC & SX & SW & XL & WL & F &
    SC & EX & EW & EZ & E1 & E2 & E3 & E4 & EQ & EZl & EB & EG & EM).
  assert (PX : Permutation sx (seq 0 (length (c_x c)))) by (destruct SX as (? & ? & _ & _ & P & _); exact P).
  assert (PW : Permutation sw (seq 0 (length (c_w c)))) by (destruct SW as (? & ? & _ & _ & P & _); exact P).
  exists c'. split; [exact E|].
  assert (HH : c_H c' = c_H c) by apply SC.
  assert (Lx : nxl <= length (c_x c')) by (destruct HC; lia).
  assert (Lw : nwl <= length (c_w c')) by (destruct HC; lia).
  split; [|split; [|split; [exact HH|exact EM]]].
  - split; [exact W'|]. split; [exact HC|]. split.
    + assert (LF : length (firstn nxl (c_x c')) = nxl) by (rewrite firstn_length; lia).
      unfold linear_ok. rewrite XL, Nat2Z.id, HH.
      split; [rewrite EQ; unfold hessian, gradient; cbn; now rewrite map_length|].
      split; [rewrite EQ; exact LF|]. split; [exact EB|]. split.
      * intros i j Hi Hj. rewrite EQ. unfold hessian. cbn [ent jacobian]. unfold gradient.
        rewrite (nth_map_dep _ _ "") by lia. now rewrite !nth_firstn_in by assumption.
      * intros r i Hi. rewrite <- EG by exact Hi. unfold gradient.
        rewrite (nth_map_dep _ _ "") by lia. now rewrite nth_firstn_in by assumption.
    + left. rewrite EZl, WL, Nat2Z.id. cbn. rewrite firstn_length.
      assert (length (c_w c') = length (c_z c')) by apply W'. lia.
  - apply (heir_follows K _ c c' W W' F); try assumption.
    + rewrite EX. now apply in_order_perm.
    + rewrite EW. now apply in_order_perm.
Qed.

Lemma mono_stage K c : prep c ->
  exists c', monovar_multivar c = ok c' /\ ready c' /\ heir K c c' /\ c_H c' = c_H c /\ c_xl c' = c_xl c /\
    (forall i j, Z.to_nat (c_xl c) <= i < Z.to_nat (c_xl c) + Z.to_nat (c_xnl_mono c') -> i < j < length (c_x c') ->
       is0 (diff (nth j (c_x c') "") (diff (nth i (c_x c') "") (c_H c'))) = true).
Proof.
  intros (W & HC & L & Z).
  destruct (monovar_multivar_rows c W HC) as (c' & n & sg & E & W' & Hn & EN & XL & WL & PX & FX & Z0 & F & SC & EW & EZ &
    E1 & E2 & E3 & E4 & EQ & EB & EZl).
  assert (HH : c_H c' = c_H c) by apply SC.
  set (xl := Z.to_nat (c_xl c)) in *.
  assert (Lxl : xl <= length (c_x c)) by (destruct HC; unfold xl; lia).
  assert (PXX : Permutation (c_x c) (c_x c')).
  { rewrite <- (firstn_skipn xl (c_x c)), <- (firstn_skipn xl (c_x c')), FX. now apply Permutation_app_head. }
  assert (LX : length (c_x c') = length (c_x c)) by (symmetry; now apply Permutation_length).
  assert (NX : forall i, i < xl -> nth i (c_x c') "" = nth i (c_x c) "").
  { intros i Hi. rewrite <- (nth_firstn_in (c_x c') "" xl i Hi), FX. now apply nth_firstn_in. }
  exists c'. split; [exact E|]. split; [|split; [|split; [exact HH|split; [exact XL|]]]].
  - split; [|lia]. split; [exact W'|]. split; [unfold counters_ok; rewrite XL, WL, LX, EW; exact HC|].
    split.
    + destruct L as (L1 & L2 & L3 & L4 & L5). fold xl in L1, L2, L3, L4, L5.
      unfold linear_ok. rewrite XL, EQ, EB, HH. fold xl.
      split; [exact L1|]. split; [exact L2|]. split; [exact L3|]. split.
      * intros i j Hi Hj. rewrite !NX by assumption. now apply L4.
      * intros r i Hi. rewrite NX by assumption. rewrite L5 by assumption. f_equal.
        apply rsum_ext. intros j Hj. now rewrite NX.
    + unfold zl_ok in *. rewrite EZl, WL. exact Z.
  - apply (heir_follows K sg c c' W W' F); try assumption. now rewrite EW.
  - intros i j Hi Hj. rewrite EN, Nat2Z.id in Hi. rewrite HH.
    replace j with (xl + (j - xl)) by lia. replace i with (xl + (i - xl)) by lia.
    apply Z0; lia.
Qed.

Lemma keys_self c : incl (map fst (dict_update [] (subsexprs c))) (map fst (subsexprs c)).
Proof. intros s H. apply keys_dict_update in H. destruct H as [[]|H]. exact H. Qed.

Lemma replaced_perm c c' : Permutation (c_x c) (c_x c') -> incl (g_symbols c' ++ c_x c') (replaced c).
Proof.
  intros P s H. unfold replaced. apply in_app_iff in H. rewrite !in_app_iff. destruct H as [H|H].
  - right. left. unfold g_symbols in *. eapply Permutation_in; [|exact H]. now apply Permutation_map, Permutation_sym.
  - left. eapply Permutation_in; [|exact H]. now apply Permutation_sym.
Qed.

Lemma method_init_ok f c : wf c -> clean_names c -> f_grad f <> OtherGrad ->
  exists m g, method_init f c = ok m /\ ready m /\ heir (replaced c) c m /\
    c_dxH m = Some g /\ gradient_of f m = Ok g /\
    c_H m = sub_scalar (dict_update [] (subsexprs c)) (c_H c) /\
    (f_split f = false -> c_xl m = 0%Z /\
      forall i j, i < Z.to_nat (c_xnl_mono m) -> i < j < length (c_x m) ->
       is0 (diff (nth j (c_x m) "") (diff (nth i (c_x m) "") (c_H m))) = true).
Proof.
  intros W (ND & DX & WK & VK) G. set (K := replaced c) in *.
  set (d0 := dict_update [] (subsexprs c)).
  assert (IK : incl (map fst d0) K).
  { intros s H. apply keys_self in H. unfold K, replaced. rewrite !in_app_iff. tauto. }
  pose proof (heir_substituted K d0 c W IK WK) as H0.
  assert (S0 : substitute_core [] false true c = ok (substituted d0 c)).
  { apply substitute_with_ok. intros s Hs Hk. apply (VK s Hs), (keys_self c s Hk). }
  unfold method_init. rewrite S0. unfold ok at 1, obind at 1.
  set (c0 := substituted d0 c) in *. assert (EH0 : c_H c0 = sub_scalar d0 (c_H c)) by reflexivity.
  clearbody c0. set (c1 := reset_linear c0).
  assert (W1 : wf c1) by exact (proj1 H0).
  assert (H1 : heir K c0 c1) by (apply heir_same; try reflexivity; exact W1).
  assert (HC1 : counters_ok c1) by (split; cbn; lia).
  assert (Z1 : zl_ok c1) by (left; apply Nat.sub_diag).
  assert (L1 : linear_ok c1).
  { split; [apply Nat.sub_diag|]. split; [apply Nat.sub_diag|]. split; [reflexivity|]. split; intros; cbn in *; lia. }
  assert (WK' : forall c', heir K c c' -> forall w, In w (c_w c') -> ~ In w K).
  { intros c' (_ & _ & P & _) w Hw. apply WK. eapply Permutation_in; [apply Permutation_sym, P|exact Hw]. }
  assert (IK' : forall c', heir K c c' -> incl (g_symbols c' ++ c_x c') K).
  { intros c' (_ & P & _). now apply replaced_perm. }
  pose proof (heir_trans K c c0 c1 H0 H1) as H01.
  assert (EH1 : c_H c1 = sub_scalar d0 (c_H c)) by exact EH0.
  assert (XL1 : c_xl c1 = 0%Z) by reflexivity. clearbody c1.
  assert (P1 : prep c1) by (split; [exact W1|]; split; [exact HC1|]; split; [exact L1|exact Z1]).
  assert (S2 : exists c2, (if f_split f then linear_nonlinear None c1 else ok c1) = ok c2 /\ prep c2 /\
     heir K c c2 /\ c_H c2 = c_H c1 /\ (f_split f = false -> c2 = c1)).
  { destruct (f_split f).
    - destruct (linear_stage K None c1 W1 Z1) as (c2 & E2 & P2 & H2 & EH2 & _); [intros []; reflexivity|].
      exists c2. split; [exact E2|]. split; [exact P2|]. split; [now apply (heir_trans K c c1)|]. split; [exact EH2|discriminate].
    - exists c1. split; [reflexivity|]. split; [exact P1|]. split; [exact H01|]. split; [reflexivity|reflexivity]. }
  destruct S2 as (c2 & E2 & P2 & H2 & EH2 & N2). rewrite E2. unfold ok at 1, obind at 1.
  destruct (mono_stage K c2 P2) as (c3 & E3 & R3 & H3 & EH3 & XL3 & Z3). rewrite E3. unfold ok at 1, obind at 1.
  pose proof (heir_trans K c c2 c3 H2 H3) as H03.
  destruct (build_ok K f c3 R3 G (IK' c3 H03) (WK' c3 H03)) as (c4 & g & E4 & R4 & H4 & D4 & G4 & X4 & EH4 & XL4 & WL4 & M4 & W4 & _).
  rewrite E4. unfold ok at 1, obind at 1.
  pose proof (heir_trans K c c3 c4 H03 H4) as H04.
  destruct (f_split f) eqn:SP.
  - destruct R4 as [P4 M0]. destruct P4 as (W4' & HC4 & L4 & Z4).
    destruct (tempF_ok c4 Sall W4' HC4) as (F & EF & LF & _).
    assert (LV : length (v_of Sall c4) = length (c_x c4) + length (c_w c4)) by (rewrite v_of_len by exact HC4; reflexivity).
    unfold explicit_implicit, jactempF. rewrite EF. cbn [rbind olift].
    set (J := jacobian F (v_of Sall c4)).
    assert (NJ : nc J = length (c_x c4) + length (c_w c4)) by exact LV.
    assert (RJ : nr J = length (c_x c4) + length (c_w c4)) by exact LF.
    edestruct (linear_stage K (Some
      ((mslice J 0 (Z.of_nat (nr J)) 0 (dim_x c4), v_of Sall c4),
       (mslice J 0 (Z.of_nat (nr J)) (dim_x c4) (Z.of_nat (nc J)), v_of Sall c4))) c4 W4' Z4)
      as (c5 & E5 & P5 & H5 & EH5 & M5).
    { intros _. cbn [split_crit fst snd].
      destruct (mslice_nat J 0 (nr J) 0 (length (c_x c4))) as (_ & N1 & _); try lia.
      destruct (mslice_nat J 0 (nr J) (length (c_x c4)) (nc J)) as (_ & N3 & _); try lia.
      unfold dim_x. change 0%Z with (Z.of_nat 0). rewrite N1, N3. lia. }
    rewrite E5. unfold ok at 1, obind.
    pose proof (heir_trans K c c4 c5 H04 H5) as H05.
    assert (R5 : ready c5) by (split; [exact P5|lia]).
    destruct (build_ok K f c5 R5 G (IK' c5 H05) (WK' c5 H05)) as (c6 & g6 & E6 & R6 & H6 & D6 & G6 & _ & EH6 & _).
    exists c6, g6. split; [exact E6|]. split; [exact R6|]. split; [now apply (heir_trans K c c5)|].
    split; [exact D6|]. split; [exact G6|]. split; [|discriminate].
    rewrite EH6, EH5, EH4, EH3, EH2. exact EH1.
  - exists c4, g. split; [reflexivity|]. split; [exact R4|]. split; [exact H04|].
    split; [exact D4|]. split; [exact G4|]. split; [rewrite EH4, EH3, EH2; exact EH1|].
    intros _. rewrite (N2 eq_refl) in *. rewrite XL4, XL3, X4, M4, EH4. split; [exact XL1|].
    intros i j Hi Hj. apply Z3; [rewrite XL1; cbn; lia|exact Hj].
Qed.

Lemma balance f c g r r1 F out : ready c -> c_cy c = [] -> NoDup (c_x c) -> (forall s, In s (dx c) -> ~ In s (c_x c)) ->
  c_dxH c = Some g -> gradient_of f c = Ok g -> tempF Sall c = Ok F -> output c = Ok out ->
  solves r F -> moved 1 r (c_x c) (dx c) r1 -> exact_step f c r r1 ->
  (r fs_symbol * (eval r1 (c_H c) - eval r (c_H c)) + power_laws r c + power_ports r c out =
   - power_structure r c (a_vec c))%R.
Proof.
  intros ((W & HC & L & Z) & HM) CY ND DX D G EF EO SO MV XS.
  pose proof (gradient_work f c g r r1 ND DX HC HM L G MV XS) as WK.
  pose proof (solved_structure c F out r W HC CY EF EO SO) as B.
  pose proof (dxH_length c W) as LD. pose proof W as ((PW & PU & _) & _).
  assert (NT : ntot c = length (c_x c) + length (c_w c) + length (c_y c)) by (unfold ntot; rewrite CY; cbn; lia).
  assert (ED : dxH c = g) by (unfold dxH; now rewrite D).
  (* a.b = a.M.a *)
  set (a := fun i => eval r (nth i (a_vec c) (Num 0))) in *.
  assert (S : rsum (ntot c) (fun i => a i * rsum (ntot c) (fun j => Mv r c i j * a j))%R =
    (- power_structure r c (a_vec c))%R).
  { change (power_structure r c (a_vec c)) with (rsum (ntot c) (fun i => rsum (ntot c) (fun j => a i * Rv r c i j * a j)%R)).
    assert (Q : rsum (ntot c) (fun i => rsum (ntot c) (fun j => a i * Rv r c i j * a j))%R =
      (- / 2 * (rsum (ntot c) (fun i => rsum (ntot c) (fun j => a i * Mv r c i j * a j)) +
                rsum (ntot c) (fun i => rsum (ntot c) (fun j => a j * Mv r c j i * a i))))%R).
    { rewrite <- rsum_plus, <- rsum_scal. apply rsum_ext. intros i Hi.
      rewrite <- rsum_plus, <- rsum_scal. apply rsum_ext. intros j Hj. unfold Rv. lra. }
    rewrite Q.
    rewrite (rsum_swap (ntot c) (ntot c) (fun i j => a j * Mv r c j i * a i)%R).
    rewrite (rsum_ext (ntot c) (fun i => a i * rsum (ntot c) (fun j => Mv r c i j * a j))%R
      (fun i => rsum (ntot c) (fun j => a i * Mv r c i j * a j))%R).
    - lra.
    - intros i Hi. rewrite <- rsum_scal. apply rsum_ext. intros; ring. }
  rewrite <- S.
  rewrite (rsum_ext (ntot c) _ (fun i => a i * (if i <? length (c_x c) then r fs_symbol * r (nth i (dx c) "")
              else if i <? length (c_x c) + length (c_w c) then r (nth (i - length (c_x c)) (c_w c) "")
              else eval r (nth (i - (length (c_x c) + length (c_w c))) out (Num 0))))%R)
    by (intros i Hi; now rewrite (B i Hi)).
  rewrite NT, !rsum_app. rewrite <- WK, work_nth by (rewrite dx_length, <- ED; exact LD).
  rewrite dx_length.
  rewrite (rsum_ext (length (c_x c)) (fun i => a i * _)%R
    (fun i => r fs_symbol * (eval r (nth i g (Num 0)) * r (nth i (dx c) "")))%R).
  2:{ intros i Hi. destruct (Nat.ltb_spec i (length (c_x c))); [|lia]. unfold a, a_vec.
      rewrite app_nth1 by lia. rewrite ED. ring. }
  rewrite rsum_scal. f_equal; [f_equal|].
  - unfold power_laws. apply rsum_ext. intros k Hk.
    destruct (Nat.ltb_spec (length (c_x c) + k) (length (c_x c))); [lia|].
    destruct (Nat.ltb_spec (length (c_x c) + k) (length (c_x c) + length (c_w c))); [|lia].
    unfold a, a_vec. rewrite app_nth2, app_nth1 by lia. rewrite LD.
    replace (length (c_x c) + k - length (c_x c)) with k by lia. ring.
  - unfold power_ports. apply rsum_ext. intros k Hk.
    destruct (Nat.ltb_spec (length (c_x c) + length (c_w c) + k) (length (c_x c))); [lia|].
    destruct (Nat.ltb_spec (length (c_x c) + length (c_w c) + k) (length (c_x c) + length (c_w c))); [lia|].
    unfold a, a_vec. rewrite app_assoc, app_nth2 by (rewrite app_length; lia).
    rewrite app_length, LD, <- PW.
    replace (length (c_x c) + length (c_w c) + k - (length (c_x c) + length (c_w c))) with k by lia.
    rewrite nth_map_Sym by lia. ring.
Qed.
