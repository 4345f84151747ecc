(** Concrete methods: a damped quartic storage, and a storage driven by a flow
    source. *)
From Coq Require Import String List ZArith QArith Qreals Reals Bool Lra Lia Permutation.
From Verif Require Import Py Tools Lists Expr ExprProofs RSum Mat Core Spec_Core Calculus
  Spec_Calculus CalculusProofs Subs Method Spec_Method.
Import ListNotations.
Local Open Scope string_scope.
Local Open Scope list_scope.
Local Open Scope nat_scope.

(** H = x^4, a resistor w with law z = R w, one port. *)
Definition quartic : core :=
  mkCore "quartic" ["x"] (Pow (Sym "x") 4) None ["w"] [Mul (Sym "R") (Sym "w")] ["u"] ["y"] [] [] []
    (of_rows 3 [[Num 0; Num (-1); Num 1]; [Num 1; Num 0; Num 0]; [Num (-1); Num 0; Num 0]])
    [] [("R", Num 1)] [] [] (zeros 0 0) [] (zeros 0 0) 0 0 0.
Definition conf : config := mkConfig Discret 0 false (1 # 4).
Definition quartic_m : core := fst (method_init conf quartic).
Definition quartic_F : list expr := match tempF Sall quartic_m with Ok F => F | Err _ => [] end.

(** From x = 1 to 0 in one step at unit rate, then at rest. *)
Definition quartic_run (n : nat) : env := fun s =>
  if String.eqb s "R" then 1%R else if String.eqb s fs_symbol then 1%R else
  if String.eqb s "u" then 0%R else
  match n with
  | O => if String.eqb s "x" then 1%R else if String.eqb s "dx" then (-1)%R else if String.eqb s "w" then 1%R else 0%R
  | S _ => 0%R
  end.

Lemma quartic_wf : wf quartic.
Proof. repeat split; discriminate. Qed.
Lemma quartic_names : clean_names quartic.
Proof.
  unfold clean_names, replaced. cbn. repeat split.
  - repeat constructor; cbn; intuition discriminate.
  - intros s [<-|[]] [E|[]]; discriminate.
  - intros s [<-|[]] [E|[E|[]]]; discriminate.
  - intros s _ [].
Qed.

Lemma quartic_init : exists m, method_init conf quartic = ok m /\ c_x m = ["x"].
Proof. exists quartic_m. split; [|vm_compute; reflexivity]. unfold quartic_m.
  assert (snd (method_init conf quartic) = None) by (vm_compute; reflexivity).
  destruct (method_init conf quartic) as [m e]. cbn in *. now subst. Qed.

Lemma Q2R_q (a : Z) (b : positive) : Q2R (a # b) = (IZR a * / IZR (Zpos b))%R.
Proof. reflexivity. Qed.

Lemma quartic_solves n : solves (quartic_run n) quartic_F.
Proof.
  assert (E : quartic_F = ltac:(let t := eval vm_compute in quartic_F in exact t)) by (vm_compute; reflexivity).
  rewrite E. clear E. intros [|[|i]] Hi; cbn in Hi; try lia; cbn [nth].
  - destruct n; cbn; unfold quartic_run; cbn; rewrite ?Q2R_q; lra.
  - destruct n; cbn [eval quartic_run String.eqb Ascii.eqb Bool.eqb fs_symbol]; unfold quartic_run; cbn;
      rewrite ?Q2R_q; repeat match goal with |- context [Rlt_dec ?a ?b] => destruct (Rlt_dec a b) end; lra.
Qed.

Lemma skew3_passive a : rsum 3 (fun i => a i * rsum 3 (fun j =>
   eval (fun _ => 0%R) (ent (c_M quartic) i j) * a j))%R = 0%R.
Proof. cbn. rewrite ?Q2R_q. lra. Qed.

Lemma quartic_absorbs n : absorbs (replaced quartic) (quartic_run n) quartic.
Proof.
  intros r' H. split.
  - intros a. pose proof (skew3_passive a) as S. cbn in *. rewrite !Q2R_q in *. lra.
  - intros w z [E|[]]. injection E as <- <-. cbn [eval].
    rewrite (H "R"). 2:{ unfold replaced. cbn. intros [E|[E|[]]]; discriminate. }
    replace (quartic_run n "R") with 1%R by reflexivity. nra.
Qed.

Lemma quartic_fields : c_x quartic_m = ["x"] /\ c_xl quartic_m = 0%Z /\ c_xnl_mono quartic_m = 1%Z /\
  c_H quartic_m = Pow (Sym "x") 4.
Proof. split; [|split; [|split]]; vm_compute; reflexivity. Qed.

Lemma quartic_solved N : solved_run conf quartic_m quartic_F N quartic_run.
Proof.
  destruct quartic_fields as (X & XL & XM & XH).
  intros n _. split; [apply quartic_solves|]. split; [|split].
  - split.
    + unfold dx; rewrite X. intros [|i] Hi; [|cbn in Hi; lia]. cbn [nth map]. destruct n; unfold quartic_run; cbn; lra.
    + rewrite X, XH. cbn. intros s [<-|[]] F. exfalso. apply F. now left.
  - unfold quartic_run. cbn. lra.
  - intros r1 _. unfold exact_step, conf, f_grad, f_epsdg. rewrite XH. split; [rewrite Q2R_q; lra|].
    split; [|split; [intros r' _; exact I|]].
    + unfold splits_energy. rewrite X, XL, XM. cbn. split; [intros; lia|]. split; intros; lia.
    + unfold away_from_zero. unfold dx; rewrite X, XL, XM. cbn [Z.to_nat Pos.to_nat Pos.iter_op Nat.add map skipn length].
      split.
      * intros [|i] Hi Hl; [|cbn in Hl; lia]. cbn [nth]. destruct n; unfold quartic_run; cbn.
        -- right. left. rewrite Q2R_q. lra.
        -- now left.
      * left. cbn. intros s [].
Qed.

(** A quartic storage driven by a flow source: dtx = u, y = - dxH. *)
Definition driven : core :=
  mkCore "driven" ["x"] (Pow (Sym "x") 4) None [] [] ["u"] ["y"] [] [] []
    (of_rows 2 [[Num 0; Num 1]; [Num (-1); Num 0]])
    [] [] [] [] (zeros 0 0) [] (zeros 0 0) 0 0 0.
Definition driven_m : core := fst (method_init default_config driven).
Definition driven_F : list expr := match tempF Sall driven_m with Ok F => F | Err _ => [] end.
Definition driven_out : list expr := match output driven_m with Ok F => F | Err _ => [] end.
(** x = 1, dx = 1, u = 1, unit rate; then x = 2. *)
Definition driven_env (x : R) : env := fun s => if String.eqb s "x" then x else 1%R.

Lemma init_ok f c : snd (method_init f c) = None -> method_init f c = ok (fst (method_init f c)).
Proof. destruct (method_init f c) as [m e]. cbn. now intros ->. Qed.

Lemma split_balance_refuted : exists c m F out r r1,
  wf c /\ clean_names c /\ c_cy c = [] /\
  method_init default_config c = ok m /\ tempF Sall m = Ok F /\ output m = Ok out /\
  solves r F /\ moved 1 r (c_x m) (dx m) r1 /\ smooth_between r r1 (c_H m) smooth /\
  (forall s, In s (dx m) -> (Q2R (f_epsdg default_config) <= r s)%R) /\
  (r fs_symbol * (eval r1 (c_H m) - eval r (c_H m)) + power_laws r m + power_ports r m out <>
   - power_structure r m (a_vec m))%R.
Proof.
  exists driven, driven_m, driven_F, driven_out, (driven_env 1), (driven_env 2).
  assert (X : c_x driven_m = ["x"]) by (vm_compute; reflexivity).
  assert (XH : c_H driven_m = Pow (Sym "x") 4) by (vm_compute; reflexivity).
  assert (XW : c_w driven_m = []) by (vm_compute; reflexivity).
  assert (XU : c_u driven_m = ["u"]) by (vm_compute; reflexivity).
  assert (XY : c_y driven_m = ["y"]) by (vm_compute; reflexivity).
  assert (XC : c_cy driven_m = []) by (vm_compute; reflexivity).
  split; [repeat split; discriminate|]. split.
  { unfold clean_names, replaced. cbn. repeat split.
    - repeat constructor; cbn; intuition discriminate.
    - intros s [<-|[]] [E|[]]; discriminate.
    - intros s [].
    - intros s _ []. }
  split; [reflexivity|].
  split; [apply init_ok; vm_compute; reflexivity|].
  split; [vm_compute; reflexivity|]. split; [vm_compute; reflexivity|].
  split.
  { assert (E : driven_F = ltac:(let t := eval vm_compute in driven_F in exact t)) by (vm_compute; reflexivity).
    rewrite E. intros [|i] Hi; cbn in Hi; [|lia]. cbn. unfold driven_env. cbn. rewrite ?Q2R_q. lra. }
  split.
  { unfold dx. rewrite X. split.
    - intros [|i] Hi; cbn in Hi; [|lia]. unfold driven_env. cbn. lra.
    - intros s Hs. unfold driven_env. destruct (String.eqb_spec s "x") as [->|]; [|reflexivity].
      exfalso. apply Hs. now left. }
  split; [rewrite XH; intros r' _; exact I|].
  split.
  { unfold dx. rewrite X. intros s [<-|[]]. unfold driven_env. cbn. rewrite Q2R_q. lra. }
  assert (P : power_structure (driven_env 1) driven_m (a_vec driven_m) = 0%R).
  { unfold power_structure, ntot. rewrite X, XW, XY, XC. cbn [length Nat.add rsum].
    unfold Rv, Mv.
    assert (E00 : ent (c_M driven_m) 0 0 = Num 0) by (vm_compute; reflexivity).
    assert (E01 : ent (c_M driven_m) 0 1 = Num 1) by (vm_compute; reflexivity).
    assert (E10 : ent (c_M driven_m) 1 0 = Num (-1)) by (vm_compute; reflexivity).
    assert (E11 : ent (c_M driven_m) 1 1 = Num 0) by (vm_compute; reflexivity).
    rewrite E00, E01, E10, E11. cbn [eval]. rewrite !Q2R_q. lra. }
  rewrite P, XH. unfold power_laws, power_ports. rewrite XW, XY, XU. cbn [length rsum].
  assert (E : driven_out = ltac:(let t := eval vm_compute in driven_out in exact t)) by (vm_compute; reflexivity).
  rewrite E. clear. cbn. unfold driven_env. cbn. rewrite ?Q2R_q. lra.
Qed.
