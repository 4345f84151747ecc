(** Power balance in continuous time, free symbols and output function. *)
From Coq Require Import String List ZArith QArith Qreals Reals Bool Lra Lia Permutation.
From Verif Require Import Py Tools Expr ExprProofs RSum Mat MatProofs Core Spec_Core
  StructProofs BlockProofs.
Import ListNotations.
Local Open Scope string_scope.
Local Open Scope list_scope.
Local Open Scope nat_scope.

Lemma eval_esuml r l : eval r (esuml l) = lsum (map (eval r) l).
Proof.
  assert (G : forall l a, eval r (fold_left sadd l a) = (eval r a + lsum (map (eval r) l))%R).
  { intros l0. induction l0 as [|e l0 IH]; intros a; cbn; [lra|].
    rewrite IH, eval_sadd. unfold lsum. lra. }
  unfold esuml. rewrite G. cbn - [lsum]. rewrite Q2R_0. lra.
Qed.

Lemma lsum_zip {A B} (f : A -> R) (g : B -> R) : forall (l1 : list A) (l2 : list B) da db,
  length l1 = length l2 ->
  lsum (map (fun p => f (fst p) * g (snd p))%R (combine l1 l2)) =
  rsum (length l1) (fun i => f (nth i l1 da) * g (nth i l2 db))%R.
Proof.
  intros l1. induction l1 as [|a l1 IH]; intros [|b l2] da db H; try discriminate; [reflexivity|].
  change (length (a :: l1)) with (1 + length l1). rewrite rsum_app.
  cbn [combine map]. change (lsum (?x :: ?l)) with (x + lsum l)%R.
  rewrite (IH l2 da db) by (cbn in H; lia). cbn. lra.
Qed.

Lemma eval_zip_mul r l1 l2 : length l1 = length l2 ->
  eval r (esuml (zip_mul l1 l2)) =
  rsum (length l1) (fun i => eval r (nth i l1 (Num 0)) * eval r (nth i l2 (Num 0)))%R.
Proof.
  intros H. rewrite eval_esuml. unfold zip_mul. rewrite map_map.
  rewrite <- (lsum_zip (eval r) (eval r)) by exact H. f_equal. apply map_ext.
  intros p. apply eval_smul.
Qed.

Lemma gradient_length H vars : length (gradient H vars) = length vars.
Proof. apply map_length. Qed.

Lemma dxH_length c : wf c -> length (dxH c) = length (c_x c).
Proof.
  intros (_ & D & _). unfold dxH. destruct (c_dxH c) eqn:E.
  - now apply D.
  - apply gradient_length.
Qed.

Lemma a_vec_length c : wf c -> c_cy c = [] -> length (a_vec c) = ntot c.
Proof.
  intros W C. unfold a_vec, ntot. rewrite !app_length, map_length, dxH_length by exact W.
  destruct W as ((P1 & P2 & _) & _). rewrite C. cbn. lia.
Qed.

Lemma pd_ok c : wf c -> c_cy c = [] -> exists e, pd c = Ok e /\ forall r,
  eval r e = (rsum (length (c_w c)) (fun i => r (nth i (c_w c) "") * eval r (nth i (c_z c) (Num 0))) -
    rsum (ntot c) (fun i => eval r (nth i (a_vec c) (Num 0)) *
      rsum (ntot c) (fun j => Mv r c i j * eval r (nth j (a_vec c) (Num 0)))))%R.
Proof.
  intros W C. pose proof (a_vec_length c W C) as LA.
  destruct W as ((P1 & P2 & P3) & D & M1 & M2).
  unfold pd. destruct (R_of_ok (c_M c)) as (Rm & ER & R1 & R2 & R3); [congruence|].
  rewrite ER. cbn [rbind].
  destruct (matvecprod_ok Rm (a_vec c)) as (v & EV & L & HV); [congruence|].
  rewrite EV. cbn [rbind]. eexists. split; [reflexivity|]. intros r.
  rewrite eval_sadd.
  rewrite eval_zip_mul by (now rewrite map_length).
  rewrite eval_zip_mul by congruence.
  rewrite map_length, LA.
  assert (E1 : rsum (length (c_w c)) (fun i : nat => (eval r (nth i (map Sym (c_w c)) (Num 0)) *
     eval r (nth i (c_z c) (Num 0)))%R) =
     rsum (length (c_w c)) (fun i => r (nth i (c_w c) "") * eval r (nth i (c_z c) (Num 0)))%R).
  { apply rsum_ext. intros k Hk. f_equal.
    rewrite nth_indep with (d' := Sym "") by (rewrite map_length; lia).
    now rewrite map_nth. }
  rewrite E1. unfold Rminus. f_equal.
  rewrite (rsum_ext (ntot c) _ (fun i => eval r (nth i (a_vec c) (Num 0)) *
     rsum (ntot c) (fun j => - (Mv r c i j + Mv r c j i) / 2 * eval r (nth j (a_vec c) (Num 0))))%R).
  2:{ intros k Hk. f_equal. rewrite HV by lia. unfold mv_. rewrite R2, M2. apply rsum_ext. intros j Hj.
      f_equal. rewrite R3. unfold Mv, ev. lra. }
  set (a := fun i => eval r (nth i (a_vec c) (Num 0))).
  change (rsum (ntot c) (fun i => a i * rsum (ntot c) (fun j => - (Mv r c i j + Mv r c j i) / 2 * a j)) =
    - rsum (ntot c) (fun i => a i * rsum (ntot c) (fun j => Mv r c i j * a j)))%R.
  set (n := ntot c).
  assert (S : rsum n (fun i => a i * rsum n (fun j => Mv r c j i * a j))%R =
              rsum n (fun i => a i * rsum n (fun j => Mv r c i j * a j))%R).
  { rewrite (rsum_ext n _ (fun i => rsum n (fun j => a i * (Mv r c j i * a j))%R))
      by (intros; now rewrite rsum_scal).
    rewrite rsum_swap. apply rsum_ext. intros j _. rewrite <- rsum_scal. apply rsum_ext.
    intros i _. ring. }
  rewrite (rsum_ext n _ (fun i => - / 2 * (a i * rsum n (fun j => Mv r c i j * a j)) +
     - / 2 * (a i * rsum n (fun j => Mv r c j i * a j)))%R).
  - rewrite rsum_plus, !rsum_scal, S. lra.
  - intros i _.
    rewrite (rsum_ext n _ (fun j => - / 2 * (Mv r c i j * a j) + - / 2 * (Mv r c j i * a j))%R)
      by (intros; field).
    rewrite rsum_plus, !rsum_scal. ring.
Qed.

(** With connectors the vector [a()] is shorter than the structure. *)
Lemma pd_connectors c : wf c -> c_cy c <> [] -> pd c = Err IndexError.
Proof.
  intros W C. unfold pd.
  assert (LA : length (a_vec c) <> ntot c).
  { unfold a_vec, ntot. rewrite !app_length, map_length, dxH_length by exact W.
    destruct W as ((P1 & P2 & _) & _). destruct (c_cy c); [easy|cbn; lia]. }
  destruct W as (_ & _ & M1 & M2).
  destruct (R_of_ok (c_M c)) as (Rm & ER & R1 & R2 & R3); [congruence|].
  rewrite ER. cbn [rbind]. unfold matvecprod.
  destruct (Nat.eqb_spec (length (a_vec c)) (nc Rm)); [congruence|]. reflexivity.
Qed.

Lemma power_balance c e r : wf c -> c_cy c = [] -> pd c = Ok e ->
  b_eq_M_a (ntot c) (Mv r c) (fun j => eval r (nth j (a_vec c) (Num 0)))
    (fun i => r (nth i (b_vec c) "")) ->
  (rsum (length (c_x c)) (fun i => eval r (nth i (dxH c) (Num 0)) * r (nth i (dtx c) "")) +
   eval r e +
   rsum (length (c_y c)) (fun k => r (nth k (c_u c) "") * r (nth k (c_y c) "")) = 0)%R.
Proof.
  intros W C Hpd HB.
  destruct (pd_ok c W C) as (e' & Ee & HE). assert (e' = e) as -> by congruence.
  rewrite HE. clear HE Ee.
  rewrite (rsum_ext (ntot c) _ (fun i => eval r (nth i (a_vec c) (Num 0)) * r (nth i (b_vec c) ""))%R)
    by (intros i Hi; now rewrite (HB i Hi)).
  pose proof (dxH_length c W) as LD.
  destruct W as ((P1 & P2 & _) & _).
  unfold ntot. rewrite C, Nat.add_0_r.
  rewrite !rsum_app. unfold a_vec, b_vec.
  assert (LX : length (dtx c) = length (c_x c)) by apply map_length.
  rewrite (rsum_ext (length (c_x c))
     (fun i => eval r (nth i (dxH c ++ c_z c ++ map Sym (c_u c)) (Num 0)) * _)%R
     (fun i => eval r (nth i (dxH c) (Num 0)) * r (nth i (dtx c) ""))%R).
  2:{ intros i Hi. now rewrite !app_nth1 by lia. }
  rewrite (rsum_ext (length (c_w c))
     (fun i => eval r (nth (_ + i) (dxH c ++ c_z c ++ map Sym (c_u c)) (Num 0)) * _)%R
     (fun i => r (nth i (c_w c) "") * eval r (nth i (c_z c) (Num 0)))%R).
  2:{ intros i Hi. rewrite (app_nth2 (dxH c)), (app_nth2 (dtx c)) by lia. rewrite LD, LX.
      replace (length (c_x c) + i - length (c_x c)) with i by lia.
      rewrite !app_nth1 by lia. ring. }
  rewrite (rsum_ext (length (c_y c))
     (fun i => eval r (nth (_ + i) (dxH c ++ c_z c ++ map Sym (c_u c)) (Num 0)) * _)%R
     (fun k => r (nth k (c_u c) "") * r (nth k (c_y c) ""))%R).
  2:{ intros i Hi. rewrite (app_nth2 (dxH c)), (app_nth2 (dtx c)) by lia. rewrite LD, LX.
      replace (length (c_x c) + length (c_w c) + i - length (c_x c)) with (length (c_w c) + i) by lia.
      rewrite (app_nth2 (c_z c)), (app_nth2 (c_w c)) by lia.
      replace (length (c_w c) + i - length (c_z c)) with i by lia.
      replace (length (c_w c) + i - length (c_w c)) with i by lia.
      rewrite nth_indep with (d' := Sym "") by (rewrite map_length; lia).
      now rewrite map_nth. }
  ring.
Qed.

(** The dissipated power is not negative when structure and laws are passive. *)
Lemma pd_nonneg c e r : wf c -> c_cy c = [] -> pd c = Ok e -> passive (ntot c) (Mv r c) ->
  (forall i, i < length (c_w c) -> (0 <= r (nth i (c_w c) "") * eval r (nth i (c_z c) (Num 0)))%R) ->
  (0 <= eval r e)%R.
Proof.
  intros W C Hpd HP HZ. destruct (pd_ok c W C) as (e' & Ee & HE).
  assert (e' = e) as -> by congruence. rewrite HE.
  pose proof (rsum_nonneg _ _ HZ). specialize (HP (fun i => eval r (nth i (a_vec c) (Num 0)))).
  cbn beta in HP. lra.
Qed.

(** ** freesymbols *)
Lemma freesymbols_empty c : freesymbols c = [].
Proof.
  unfold freesymbols, set_union. cbn [fst].
  induction (c_H c :: _) as [|e l IH]; [reflexivity|exact IH].
Qed.

Definition fs_core : core := fst (add_storages (One "x") (One (Sym "x")) (new_core "c")).
Lemma freesymbols_refuted : exists c s, In s (free_symbols (c_H c)) /\ ~ In s (freesymbols c).
Proof. exists fs_core, "x". split; [vm_compute; now left|]. intros H. exact H. Qed.

(** ** output *)
Lemma col_list_nth A j i : i < nr A -> nth i (col_list A j) (Num 0) = ent A i j.
Proof.
  intros H. unfold col_list.
  rewrite nth_indep with (d' := ent A 0 j) by (rewrite map_length, seq_length; lia).
  rewrite (map_nth (fun i => ent A i j)). now rewrite seq_nth.
Qed.

Lemma block_times_vec c a b v : sized c -> counters_ok c -> length v = len c b ->
  exists B, (do A <- get_block PM a b c; mmul A (colvec v)) = Ok B /\
    nr B = len c a /\ nc B = 1 /\
    forall r i, i < len c a -> eval r (ent B i 0) =
      rsum (len c b) (fun k => Mv r c (off c a + i)%nat (off c b + k)%nat * eval r (nth k v (Num 0)))%R.
Proof.
  intros HS HC HL. destruct (get_block_ok PM a b c HS HC) as (A & E & R1 & R2 & R3).
  rewrite E. cbn [rbind].
  destruct (mmul_ok A (colvec v)) as (B & EB & B1 & B2 & B3); [cbn; congruence|].
  exists B. split; [exact EB|]. split; [congruence|]. split; [exact B2|].
  intros r i Hi. change (eval r (ent B i 0)) with (ev r B i 0). rewrite B3.
  unfold mm. rewrite R2. apply rsum_ext. intros k Hk. f_equal.
  exact (R3 r i k).
Qed.

Lemma output_ok c : wf c -> counters_ok c ->
  exists out, output c = Ok out /\ length out = length (c_y c) /\
  forall r k, k < length (c_y c) -> eval r (nth k out (Num 0)) =
   (rsum (length (c_x c)) (fun i => Mv r c (off c By + k)%nat (off c Bx + i)%nat * eval r (nth i (dxH c) (Num 0))) +
    rsum (length (c_w c)) (fun i => Mv r c (off c By + k)%nat (off c Bw + i)%nat * eval r (nth i (c_z c) (Num 0))) +
    rsum (length (c_y c)) (fun i => Mv r c (off c By + k)%nat (off c By + i)%nat * r (nth i (c_u c) "")))%R.
Proof.
  intros W HC. pose proof (dxH_length c W) as LD.
  destruct W as ((P1 & P2 & _) & _ & M1 & M2).
  assert (HS : sized c) by (split; assumption).
  unfold output. destruct (0 <? dim_y c)%Z eqn:E.
  2:{ apply Z.ltb_ge in E. unfold dim_y in E. exists []. split; [reflexivity|].
      split; [cbn; lia|]. intros; lia. }
  destruct (block_times_vec c By By (map Sym (c_u c)) HS HC) as (Yu & E1 & U1 & U2 & U3).
  { rewrite map_length. exact P2. }
  destruct (get_block PM By By c) as [Myy|] eqn:EG; [|discriminate]. cbn [rbind] in E1 |- *.
  rewrite E1. cbn [rbind].
  assert (X : exists V, (if (0 <? dim_x c)%Z
               then do Myx <- get_block PM By Bx c; mmul Myx (colvec (dxH c))
               else Ok (zeros (length (c_y c)) 1)) = Ok V /\ nr V = length (c_y c) /\ nc V = 1 /\
     forall r i, i < length (c_y c) -> eval r (ent V i 0) = rsum (length (c_x c)) (fun k =>
        Mv r c (off c By + i)%nat (off c Bx + k)%nat * eval r (nth k (dxH c) (Num 0)))%R).
  { destruct (0 <? dim_x c)%Z eqn:EX.
    - exact (block_times_vec c By Bx (dxH c) HS HC LD).
    - eexists; split; [reflexivity|]. cbn. split; [reflexivity|]. split; [reflexivity|].
      intros r i _. apply Z.ltb_ge in EX. unfold dim_x in EX.
      assert (length (c_x c) = 0) as -> by lia. cbn. now rewrite Q2R_0. }
  assert (Y : exists V, (if (0 <? dim_w c)%Z
               then do Myw <- get_block PM By Bw c; mmul Myw (colvec (c_z c))
               else Ok (zeros (length (c_y c)) 1)) = Ok V /\ nr V = length (c_y c) /\ nc V = 1 /\
     forall r i, i < length (c_y c) -> eval r (ent V i 0) = rsum (length (c_w c)) (fun k =>
        Mv r c (off c By + i)%nat (off c Bw + k)%nat * eval r (nth k (c_z c) (Num 0)))%R).
  { destruct (0 <? dim_w c)%Z eqn:EX.
    - exact (block_times_vec c By Bw (c_z c) HS HC (eq_sym P1)).
    - eexists; split; [reflexivity|]. cbn. split; [reflexivity|]. split; [reflexivity|].
      intros r i _. apply Z.ltb_ge in EX. unfold dim_w in EX.
      assert (length (c_w c) = 0) as -> by lia. cbn. now rewrite Q2R_0. }
  destruct X as (Vx & EX & X1 & X2 & X3). destruct Y as (Vw & EY & Y1 & Y2 & Y3).
  rewrite EX. cbn [rbind]. rewrite EY. cbn [rbind].
  destruct (madd_ok Vx Vw) as (S1 & ES & S11 & S12 & S13); [congruence|congruence|].
  rewrite ES. cbn [rbind].
  destruct (madd_ok S1 Yu) as (S2 & ES2 & S21 & S22 & S23); [cbn in U1; congruence|congruence|].
  rewrite ES2. cbn [rbind]. eexists. split; [reflexivity|].
  split; [unfold col_list; rewrite map_length, seq_length; congruence|].
  intros r k Hk. rewrite col_list_nth by (rewrite S21, S11; lia).
  change (eval r (ent S2 k 0)) with (ev r S2 k 0). rewrite S23, S13.
  unfold ev. rewrite X3, Y3, U3 by (cbn; lia). f_equal. cbn [len].
  apply rsum_ext. intros i Hi. f_equal.
  rewrite nth_indep with (d' := Sym "") by (rewrite map_length; lia).
  now rewrite map_nth.
Qed.

Lemma output_no_connector c : wf c -> counters_ok c -> c_cy c = [] ->
  exists out, output c = Ok out /\ length out = length (c_y c) /\
  forall r k, k < length (c_y c) -> eval r (nth k out (Num 0)) =
    rsum (ntot c) (fun j => Mv r c (length (c_x c) + length (c_w c) + k)%nat j *
                            eval r (nth j (a_vec c) (Num 0)))%R.
Proof.
  intros W HC C. destruct (output_ok c W HC) as (out & E & L & H).
  exists out. split; [exact E|]. split; [exact L|]. intros r k Hk.
  rewrite H by exact Hk. cbn [off]. pose proof (dxH_length c W) as LD.
  destruct W as ((P1 & P2 & _) & _).
  unfold ntot. rewrite C, Nat.add_0_r, !rsum_app. unfold a_vec.
  f_equal; [f_equal|]; apply rsum_ext; intros i Hi; f_equal.
  - now rewrite app_nth1 by lia.
  - rewrite (app_nth2 (dxH c)) by lia. rewrite LD.
    replace (length (c_x c) + i - length (c_x c)) with i by lia. now rewrite app_nth1 by lia.
  - rewrite (app_nth2 (dxH c)) by lia. rewrite LD.
    replace (length (c_x c) + length (c_w c) + i - length (c_x c)) with (length (c_w c) + i) by lia.
    rewrite (app_nth2 (c_z c)) by lia.
    replace (length (c_w c) + i - length (c_z c)) with i by lia.
    rewrite nth_indep with (d' := Sym "") by (rewrite map_length; lia).
    now rewrite map_nth.
Qed.

Definition out_core : core :=
  mkCore "c" [] (Num 0) None [] [] ["u1"] ["y1"] ["cu1"] ["cy1"] []
    (of_rows 2 [[Num 0; Num 1]; [Num 0; Num 0]])
    [] [] [] [] (zeros 0 0) [] (zeros 0 0) 0 0 0.
Lemma output_connector_refuted : exists c out r k,
  wf c /\ counters_ok c /\ output c = Ok out /\ k < length (c_y c) /\
  eval r (nth k out (Num 0)) <>
    rsum (ntot c) (fun j => Mv r c (length (c_x c) + length (c_w c) + k)%nat j *
                      eval r (nth j (a_vec c ++ map Sym (c_cu c)) (Num 0)))%R.
Proof.
  destruct (output_ok out_core) as (out & E & _ & H); [repeat split; discriminate|split; cbn; lia|].
  exists out_core, out, (fun _ => 1%R), 0.
  split; [repeat split; discriminate|]. split; [split; cbn; lia|]. split; [exact E|].
  split; [cbn; lia|]. rewrite H by (cbn; lia). unfold Mv. cbn - [Q2R].
  rewrite Q2R_0, Q2R_1. lra.
Qed.

(** The output function plus the missing term is the row of the structure. *)
Lemma output_missing_term c out : wf c -> counters_ok c -> output c = Ok out ->
  forall r k, k < length (c_y c) ->
  (eval r (nth k out (Num 0)) +
   rsum (length (c_cy c)) (fun l => Mv r c (length (c_x c) + length (c_w c) + k)%nat
      (length (c_x c) + length (c_w c) + length (c_y c) + l)%nat * r (nth l (c_cu c) "")))%R =
  rsum (ntot c) (fun j => Mv r c (length (c_x c) + length (c_w c) + k)%nat j *
                      eval r (nth j (a_vec c ++ map Sym (c_cu c)) (Num 0)))%R.
Proof.
  intros W HC Ho r k Hk. destruct (output_ok c W HC) as (out' & E & L & H).
  assert (out' = out) as -> by congruence.
  rewrite H by exact Hk. cbn [off]. pose proof (dxH_length c W) as LD.
  destruct W as ((P1 & P2 & P3) & _).
  unfold ntot. rewrite !rsum_app. unfold a_vec. rewrite <- !app_assoc.
  f_equal; [f_equal; [f_equal|]|]; apply rsum_ext; intros i Hi; f_equal.
  - now rewrite app_nth1 by lia.
  - rewrite (app_nth2 (dxH c)) by lia. rewrite LD.
    replace (length (c_x c) + i - length (c_x c)) with i by lia. now rewrite app_nth1 by lia.
  - rewrite (app_nth2 (dxH c)) by lia. rewrite LD.
    replace (length (c_x c) + length (c_w c) + i - length (c_x c)) with (length (c_w c) + i) by lia.
    rewrite (app_nth2 (c_z c)) by lia.
    replace (length (c_w c) + i - length (c_z c)) with i by lia.
    rewrite app_nth1 by (rewrite map_length; lia).
    rewrite nth_indep with (d' := Sym "") by (rewrite map_length; lia).
    now rewrite map_nth.
  - rewrite (app_nth2 (dxH c)) by lia. rewrite LD.
    rewrite (app_nth2 (c_z c)) by lia.
    rewrite (app_nth2 (map Sym (c_u c))) by (rewrite map_length; lia). rewrite map_length.
    replace (length (c_x c) + length (c_w c) + length (c_y c) + i - length (c_x c) - length (c_z c) - length (c_u c)) with i by lia.
    rewrite nth_indep with (d' := Sym "") by (rewrite map_length; lia).
    now rewrite map_nth.
Qed.

(** An RLC-like core: dtx1 = -z1 + u1, w1 = dxH1, y1 = -dxH1, z1 = R*w1. *)
Definition rc_core : core :=
  mkCore "rc" ["x1"] (Mul (Num (1 # 2)) (Pow (Sym "x1") 2)) None
    ["w1"] [Mul (Sym "R") (Sym "w1")] ["u1"] ["y1"] [] [] []
    (of_rows 3 [[Num 0; Num (-1); Num 1]; [Num 1; Num 0; Num 0]; [Num (-1); Num 0; Num 0]])
    [] [] [] [] (zeros 0 0) [] (zeros 0 0) 0 0 0.
Definition rc_env : env := fun s =>
  if String.eqb s "x1" then 2%R else if String.eqb s "w1" then 2%R else
  if String.eqb s "R" then 3%R else if String.eqb s "u1" then 1%R else
  if String.eqb s "y1" then (-2)%R else if String.eqb s "dtx1" then (-5)%R else 0%R.

Lemma rc_solution : wf rc_core /\ c_cy rc_core = [] /\
  b_eq_M_a (ntot rc_core) (Mv rc_env rc_core)
    (fun j => eval rc_env (nth j (a_vec rc_core) (Num 0)))
    (fun i => rc_env (nth i (b_vec rc_core) "")).
Proof.
  split; [repeat split; discriminate|]. split; [reflexivity|].
  intros [|[|[|]]] Hi; try (cbn in Hi; lia); unfold Mv; cbn - [Q2R];
    rewrite ?Q2R_0, ?Q2R_1, ?Q2R_m1; cbn - [Q2R]; unfold Q2R; cbn; lra.
Qed.
