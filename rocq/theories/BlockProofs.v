(** Proofs about blocks: indices, getters and setters. *)
From Coq Require Import String List ZArith QArith Qreals Reals Bool Lra Lia.
From Verif Require Import Py Lists Expr ExprProofs RSum Mat MatProofs Core Spec_Core StructProofs.
Import ListNotations.
Local Open Scope nat_scope.
#[local] Arguments Nat.ltb : simpl never.
#[local] Arguments Nat.leb : simpl never.
#[local] Arguments Nat.eqb : simpl never.

Lemma inds_off c b : counters_ok c ->
  inds c b = (Z.of_nat (off c b), Z.of_nat (off c b + len c b)).
Proof.
  intros [Hx Hw].
  destruct b; unfold inds; cbn [inds_in blk_eqb dim_blk off len];
    unfold dim_xl, dim_xnl, dim_wl, dim_wnl, dim_x, dim_w, dim_y, dim_cy; apply f_equal2; lia.
Qed.

Lemma off_len_le c b : counters_ok c -> off c b + len c b <= ntot c.
Proof. intros [Hx Hw]. unfold ntot. destruct b; cbn; lia. Qed.

Lemma labels_block c b : counters_ok c ->
  let '(d, e) := inds c b in
  py_slice (labels c) (Some d) (Some e) = symbols_of c b /\
  (e - d)%Z = dim_blk c b /\ length (symbols_of c b) = Z.to_nat (dim_blk c b).
Proof.
  intros HC. rewrite inds_off by exact HC. rewrite py_slice_nat.
  destruct HC as [Hx Hw].
  assert (S : forall (A : Type) (p q : list A) n, length p = n -> skipn n (p ++ q) = q).
  { intros A p q n <-. rewrite skipn_app, skipn_all, Nat.sub_diag. reflexivity. }
  assert (F : forall (A : Type) (p q : list A) n, length p = n -> firstn n (p ++ q) = p).
  { intros A p q n <-. rewrite firstn_app, firstn_all, Nat.sub_diag. cbn. apply app_nil_r. }
  replace (off c b + len c b - off c b) with (len c b) by lia.
  unfold labels.
  split; [|split].
  - destruct b; cbn [off len symbols_of].
    + now apply F.
    + rewrite S by reflexivity. now apply F.
    + rewrite app_assoc, S by (rewrite app_length; reflexivity). now apply F.
    + rewrite !app_assoc, <- (app_assoc _ (c_y c)).
      rewrite app_assoc, S by (rewrite !app_length; lia). apply firstn_all.
    + rewrite skipn_O, firstn_app.
      replace (Z.to_nat (c_xl c) - length (c_x c)) with 0 by lia.
      cbn [firstn]. apply app_nil_r.
    + rewrite skipn_app.
      rewrite firstn_app, skipn_length, Nat.sub_diag. cbn [firstn]. rewrite app_nil_r.
      rewrite firstn_all2; [reflexivity|]. rewrite skipn_length. lia.
    + rewrite S by reflexivity. rewrite firstn_app.
      replace (Z.to_nat (c_wl c) - length (c_w c)) with 0 by lia.
      cbn [firstn]. apply app_nil_r.
    + rewrite skipn_app.
      rewrite (skipn_all2 (c_x c)) by lia. cbn [app].
      replace (length (c_x c) + Z.to_nat (c_wl c) - length (c_x c)) with (Z.to_nat (c_wl c)) by lia.
      rewrite skipn_app, firstn_app, skipn_length, Nat.sub_diag. cbn [firstn].
      rewrite app_nil_r. rewrite firstn_all2; [reflexivity|]. rewrite skipn_length. lia.
  - destruct b; cbn [off len dim_blk];
      unfold dim_xl, dim_xnl, dim_wl, dim_wnl, dim_x, dim_w, dim_y, dim_cy; lia.
  - destruct b; cbn [symbols_of dim_blk];
      unfold dim_xl, dim_xnl, dim_wl, dim_wnl, dim_x, dim_w, dim_y, dim_cy;
      rewrite ?firstn_length, ?skipn_length; lia.
Qed.

Lemma inds_tile c : counters_ok c ->
  let s b := fst (inds c b) in let e b := snd (inds c b) in
  (s Bx = 0 /\ e Bx = s Bw /\ e Bw = s By /\ e By = s Bcy /\ e Bcy = dim_tot c /\
   s Bxl = 0 /\ e Bxl = s Bxnl /\ e Bxnl = e Bx /\ s Bwl = s Bw /\ e Bwl = s Bwnl /\ e Bwnl = e Bw)%Z.
Proof.
  intros HC s e. unfold s, e. rewrite !inds_off by exact HC. destruct HC as [Hx Hw].
  cbn [fst snd off len]. unfold dim_tot, dim_x, dim_w, dim_y, dim_cy. repeat split; lia.
Qed.

Lemma part_of_ok p M : nr M = nc M ->
  exists A, part_of p M = Ok A /\ nr A = nr M /\ nc A = nc M /\
    forall r i j, ev r A i j =
      match p with
      | PM => ev r M i j
      | PJ => ((ev r M i j - ev r M j i) / 2)%R
      | PR => (- (ev r M i j + ev r M j i) / 2)%R
      end.
Proof.
  intros H. destruct p; cbn [part_of].
  - exists M. repeat split.
  - apply J_of_ok, H.
  - apply R_of_ok, H.
Qed.

Lemma get_block_ok p a b c : sized c -> counters_ok c ->
  exists B, get_block p a b c = Ok B /\ nr B = len c a /\ nc B = len c b /\
    forall r i j, ev r B i j =
      match p with
      | PM => Mv r c | PJ => Jv r c | PR => Rv r c
      end (off c a + i) (off c b + j).
Proof.
  intros [Hr Hc] HC. unfold get_block. rewrite !inds_off by exact HC.
  destruct (part_of_ok p (c_M c)) as (A & EA & Ar & Ac & AE); [congruence|].
  rewrite EA. cbn [rbind]. eexists; split; [reflexivity|].
  pose proof (off_len_le c a HC). pose proof (off_len_le c b HC).
  destruct (mslice_nat A (off c a) (off c a + len c a) (off c b) (off c b + len c b))
    as (Br & Bc & BE); try lia.
  split; [lia|]. split; [lia|].
  intros r i j. unfold ev. rewrite BE. change (eval r (ent A ?i ?j)) with (ev r A i j).
  rewrite AE. destruct p; reflexivity.
Qed.

(** Writing the blocks (a,b) and (b,a). *)
Lemma write_blocks c a b Mab Mba :
  sized c -> counters_ok c -> (a <> b -> separate c a b) ->
  nr Mab = len c a -> nc Mab = len c b -> nr Mba = len c b -> nc Mba = len c a ->
  exists M', (let '(debi, endi) := inds c a in
   let '(debj, endj) := inds c b in
   olift (massign (c_M c) debi endi debj endj Mab) c (fun M1 =>
   let c := set_M M1 c in
   if blk_eqb a b then ok c
   else olift (massign M1 debj endj debi endi Mba) c (fun M2 => ok (set_M M2 c))))
   = ok (set_M M' c) /\ nr M' = ntot c /\ nc M' = ntot c /\
   forall i j,
     (inside c a i -> inside c b j -> ent M' i j = ent Mab (i - off c a)%nat (j - off c b)%nat) /\
     (a <> b -> inside c b i -> inside c a j -> ent M' i j = ent Mba (i - off c b)%nat (j - off c a)%nat) /\
     (~ (inside c a i /\ inside c b j) -> ~ (inside c b i /\ inside c a j) ->
        ent M' i j = ent (c_M c) i j).
Proof.
  intros [Hr Hc] HC Hs H1 H2 H3 H4. rewrite !inds_off by exact HC.
  pose proof (off_len_le c a HC). pose proof (off_len_le c b HC).
  destruct (massign_nat (c_M c) (off c a) (off c a + len c a) (off c b) (off c b + len c b) Mab)
    as (M1 & E1 & R1 & C1 & I1 & O1); try lia.
  rewrite E1. cbn [olift].
  destruct (blk_eqb a b) eqn:Eab.
  - assert (a = b) as <- by (destruct a, b; try discriminate; reflexivity).
    exists M1. split; [reflexivity|]. split; [lia|]. split; [lia|]. intros i j. repeat split.
    + intros Hi Hj. now apply I1.
    + intros Hn. now exfalso.
    + intros Hn _. now apply O1.
  - assert (Hne : a <> b) by (intros <-; destruct a; discriminate).
    specialize (Hs Hne).
    destruct (massign_nat M1 (off c b) (off c b + len c b) (off c a) (off c a + len c a) Mba)
      as (M2 & E2 & R2 & C2 & I2 & O2); try lia.
    rewrite E2. cbn [olift]. exists M2. split; [reflexivity|]. split; [lia|]. split; [lia|].
    intros i j. repeat split.
    + intros Hi Hj. rewrite O2; [now apply I1|].
      intros [Hi' _]. exact (Hs i Hi Hi').
    + intros _ Hi Hj. now apply I2.
    + intros Hn1 Hn2. rewrite O2 by exact Hn2. now apply O1.
Qed.

Lemma dim_tot_ntot c : Z.to_nat (dim_tot c) = ntot c.
Proof. unfold dim_tot, dim_x, dim_w, dim_y, dim_cy, ntot. lia. Qed.

Lemma classic_inside c b i : {inside c b i} + {~ inside c b i}.
Proof.
  unfold inside. destruct (le_lt_dec (off c b) i), (le_lt_dec (off c b + len c b) i); try (left; lia); right; lia.
Qed.

Lemma blk_eq_dec (a b : blk) : {a = b} + {a <> b}.
Proof. decide equality. Qed.

Ltac cases4 ai bj bi aj :=
  intros da db dc dd K1 K2 K3 L1 L2 L3;
  assert (dp : {ai /\ bj} + {~ (ai /\ bj)}) by (destruct da, db; tauto);
  assert (dq : {bi /\ aj} + {~ (bi /\ aj)}) by (destruct dc, dd; tauto);
  clear da db dc dd;
  destruct dp as [[h1 h2]|h], dq as [[h3 h4]|h'].

Lemma J_case (ai bj bi aj : Prop) (M N m n v v' : R)
  (da : {ai} + {~ ai}) (db : {bj} + {~ bj}) (dc : {bi} + {~ bi}) (dd : {aj} + {~ aj}) :
  (ai -> bj -> M = v - (- (m + n) / 2))%R -> (bi -> aj -> M = - v' - (- (m + n) / 2))%R ->
  (~ (ai /\ bj) -> ~ (bi /\ aj) -> M = m) ->
  (aj -> bi -> N = v' - (- (n + m) / 2))%R -> (bj -> ai -> N = - v - (- (n + m) / 2))%R ->
  (~ (aj /\ bi) -> ~ (bj /\ ai) -> N = n) ->
  (- (M + N) / 2 = - (m + n) / 2)%R /\
  (ai -> bj -> (M - N) / 2 = v)%R /\ (bi -> aj -> (M - N) / 2 = - v')%R /\
  (~ (ai /\ bj) -> ~ (bi /\ aj) -> (M - N) / 2 = (m - n) / 2)%R.
Proof.
  revert da db dc dd. cases4 ai bj bi aj.
  - rewrite (K1 h1 h2) in *. rewrite (L1 h4 h3) in *.
    pose proof (K2 h3 h4). pose proof (L2 h2 h1). clear - H H0 h1 h2 h3 h4.
    split; [lra|]. split; [intros; lra|]. split; [intros; lra|]. tauto.
  - rewrite (K1 h1 h2), (L2 h2 h1). clear K1 K2 K3 L1 L2 L3.
    split; [lra|]. split; [intros; lra|]. split; tauto.
  - rewrite (K2 h3 h4), (L1 h4 h3). clear K1 K2 K3 L1 L2 L3.
    split; [lra|]. split; [tauto|]. split; [intros; lra|tauto].
  - rewrite (K3 h h'), L3 by tauto. clear K1 K2 K3 L1 L2 L3.
    split; [lra|]. split; [tauto|]. split; [tauto|]. intros; lra.
Qed.

Lemma R_case (ai bj bi aj : Prop) (M N m n v v' : R)
  (da : {ai} + {~ ai}) (db : {bj} + {~ bj}) (dc : {bi} + {~ bi}) (dd : {aj} + {~ aj}) :
  (ai -> bj -> M = (m - n) / 2 - v)%R -> (bi -> aj -> M = (m - n) / 2 - v')%R ->
  (~ (ai /\ bj) -> ~ (bi /\ aj) -> M = m) ->
  (aj -> bi -> N = (n - m) / 2 - v')%R -> (bj -> ai -> N = (n - m) / 2 - v)%R ->
  (~ (aj /\ bi) -> ~ (bj /\ ai) -> N = n) ->
  ((M - N) / 2 = (m - n) / 2)%R /\
  (ai -> bj -> - (M + N) / 2 = v)%R /\ (bi -> aj -> - (M + N) / 2 = v')%R /\
  (~ (ai /\ bj) -> ~ (bi /\ aj) -> - (M + N) / 2 = - (m + n) / 2)%R.
Proof.
  revert da db dc dd. cases4 ai bj bi aj.
  - rewrite (K1 h1 h2) in *. rewrite (L1 h4 h3) in *.
    pose proof (K2 h3 h4). pose proof (L2 h2 h1). clear - H H0 h1 h2 h3 h4.
    split; [lra|]. split; [intros; lra|]. split; [intros; lra|]. tauto.
  - rewrite (K1 h1 h2), (L2 h2 h1). clear K1 K2 K3 L1 L2 L3.
    split; [lra|]. split; [intros; lra|]. split; tauto.
  - rewrite (K2 h3 h4), (L1 h4 h3). clear K1 K2 K3 L1 L2 L3.
    split; [lra|]. split; [tauto|]. split; [intros; lra|tauto].
  - rewrite (K3 h h'), L3 by tauto. clear K1 K2 K3 L1 L2 L3.
    split; [lra|]. split; [tauto|]. split; [tauto|]. intros; lra.
Qed.

Section Setters.
  Variables (c : core) (a b : blk) (V : mat).
  Hypothesis (HS : sized c) (HC : counters_ok c).
  Hypothesis Hsep : a <> b -> separate c a b.
  Hypothesis (HVr : nr V = len c a) (HVc : nc V = len c b).

  Lemma set_block_unfold p : set_block p a b V c =
   olift (match p with
    | PJ => do Rab <- get_block PR a b c; do Rba <- get_block PR b a c;
            do Mab <- msub V Rab; do Mba <- msub (mneg (mtrans V)) Rba; Ok (Mab, Mba)
    | PR => do Jab <- get_block PJ a b c; do Jba <- get_block PJ b a c;
            do Mab <- msub Jab V; do Mba <- msub Jba (mtrans V); Ok (Mab, Mba)
    | PM => do Mba <- get_block PM b a c; Ok (V, Mba)
    end) c (fun '(Mab, Mba) =>
     let '(debi, endi) := inds c a in
   let '(debj, endj) := inds c b in
   olift (massign (c_M c) debi endi debj endj Mab) c (fun M1 =>
   let c := set_M M1 c in
   if blk_eqb a b then ok c
   else olift (massign M1 debj endj debi endi Mba) c (fun M2 => ok (set_M M2 c)))).
  Proof.
    unfold set_block. rewrite dim_tot_ntot. destruct HS as [Hr _]. rewrite Hr, Nat.eqb_refl.
    reflexivity.
  Qed.

  Lemma set_M_ok :
    exists c', set_block PM a b V c = ok c' /\ c' = set_M (c_M c') c /\ sized c' /\
    forall r i j,
      (inside c a i -> inside c b j -> Mv r c' i j = ev r V (i - off c a)%nat (j - off c b)%nat) /\
      (~ (inside c a i /\ inside c b j) -> Mv r c' i j = Mv r c i j).
  Proof.
    rewrite set_block_unfold.
    destruct (get_block_ok PM b a c HS HC) as (Mba & E & Br & Bc & BE). rewrite E. cbn [rbind olift].
    destruct (write_blocks c a b V Mba) as (M' & EW & Wr & Wc & WE); try assumption.
    exists (set_M M' c). split; [exact EW|]. split; [reflexivity|].
    split; [split; assumption|].
    intros r i j. destruct (WE i j) as (W1 & W2 & W3). split.
    - intros Hi Hj. unfold Mv, ev; cbn. now rewrite W1.
    - intros Hn. unfold Mv; cbn.
      destruct (classic_inside c b i) as [Hi|Hi]; [|rewrite W3; tauto].
      destruct (classic_inside c a j) as [Hj|Hj]; [|rewrite W3; tauto].
      destruct (blk_eq_dec a b) as [Heq|Hne].
      + subst b. tauto.
      + rewrite W2 by assumption.
        specialize (BE r (i - off c b)%nat (j - off c a)%nat). unfold ev in BE. rewrite BE.
        unfold Mv, inside in *. repeat f_equal; lia.
  Qed.

  (** [set_Jab]: J is changed on the two blocks only, R nowhere. *)
  Lemma set_J_ok :
    (a = b -> forall r i j, i < len c a -> j < len c a -> ev r V i j = (- ev r V j i)%R) ->
    exists c', set_block PJ a b V c = ok c' /\ c' = set_M (c_M c') c /\ sized c' /\
    forall r i j,
      Rv r c' i j = Rv r c i j /\
      (inside c a i -> inside c b j -> Jv r c' i j = ev r V (i - off c a)%nat (j - off c b)%nat) /\
      (inside c b i -> inside c a j -> Jv r c' i j = (- ev r V (j - off c a)%nat (i - off c b)%nat)%R) /\
      (~ (inside c a i /\ inside c b j) -> ~ (inside c b i /\ inside c a j) ->
         Jv r c' i j = Jv r c i j).
  Proof.
    intros Hskew. rewrite set_block_unfold.
    destruct (get_block_ok PR a b c HS HC) as (Rab & E & Br & Bc & BE). rewrite E. cbn [rbind].
    destruct (get_block_ok PR b a c HS HC) as (Rba & E' & Br' & Bc' & BE'). rewrite E'. cbn [rbind].
    destruct (msub_ok V Rab) as (Mab & EM & Mr & Mc & ME); [congruence|congruence|].
    rewrite EM. cbn [rbind].
    destruct (msub_ok (mneg (mtrans V)) Rba) as (Mba & EM' & Mr' & Mc' & ME');
      [cbn; congruence|cbn; congruence|].
    rewrite EM'. cbn [rbind olift]. cbn in Mr', Mc'.
    destruct (write_blocks c a b Mab Mba) as (M' & EW & Wr & Wc & WE); try assumption; try congruence.
    exists (set_M M' c). split; [exact EW|]. split; [reflexivity|].
    split; [split; assumption|].
    assert (K : forall r i j,
      (inside c a i -> inside c b j ->
         Mv r (set_M M' c) i j = (ev r V (i - off c a)%nat (j - off c b)%nat - Rv r c i j)%R) /\
      (inside c b i -> inside c a j ->
         Mv r (set_M M' c) i j = (- ev r V (j - off c a)%nat (i - off c b)%nat - Rv r c i j)%R) /\
      (~ (inside c a i /\ inside c b j) -> ~ (inside c b i /\ inside c a j) ->
         Mv r (set_M M' c) i j = Mv r c i j)).
    { intros r i j. destruct (WE i j) as (W1 & W2 & W3).
      assert (A1 : inside c a i -> inside c b j ->
         Mv r (set_M M' c) i j = (ev r V (i - off c a)%nat (j - off c b)%nat - Rv r c i j)%R).
      { intros Hi Hj. unfold Mv; cbn. rewrite W1 by assumption.
        change (eval r (ent Mab ?p ?q)) with (ev r Mab p q). rewrite ME, BE.
        unfold inside in *. f_equal. f_equal; lia. }
      repeat split.
      - exact A1.
      - intros Hi Hj. destruct (blk_eq_dec a b) as [Heq|Hne].
        + rewrite A1; try (rewrite Heq in *; assumption).
          subst b. rewrite (Hskew eq_refl) by (unfold inside in *; lia). reflexivity.
        + unfold Mv; cbn. rewrite W2 by assumption.
          change (eval r (ent Mba ?p ?q)) with (ev r Mba p q). rewrite ME', BE', ev_mneg.
          unfold ev at 1; cbn. unfold inside in *. f_equal. f_equal; lia.
      - intros H1 H2. unfold Mv; cbn. now rewrite W3. }
    intros r i j.
    destruct (K r i j) as (K1 & K2 & K3). destruct (K r j i) as (L1 & L2 & L3).
    unfold Jv, Rv in *.
    refine (@J_case _ _ _ _ _ _ _ _ _ _ (classic_inside c a i) (classic_inside c b j)
      (classic_inside c b i) (classic_inside c a j) K1 K2 K3 L1 L2 L3).
  Qed.

  (** [set_Rab]: R is changed on the two blocks only, J nowhere. *)
  Lemma set_R_ok :
    (a = b -> forall r i j, i < len c a -> j < len c a -> ev r V i j = ev r V j i) ->
    exists c', set_block PR a b V c = ok c' /\ c' = set_M (c_M c') c /\ sized c' /\
    forall r i j,
      Jv r c' i j = Jv r c i j /\
      (inside c a i -> inside c b j -> Rv r c' i j = ev r V (i - off c a)%nat (j - off c b)%nat) /\
      (inside c b i -> inside c a j -> Rv r c' i j = ev r V (j - off c a)%nat (i - off c b)%nat) /\
      (~ (inside c a i /\ inside c b j) -> ~ (inside c b i /\ inside c a j) ->
         Rv r c' i j = Rv r c i j).
  Proof.
    intros Hsym. rewrite set_block_unfold.
    destruct (get_block_ok PJ a b c HS HC) as (Jab & E & Br & Bc & BE). rewrite E. cbn [rbind].
    destruct (get_block_ok PJ b a c HS HC) as (Jba & E' & Br' & Bc' & BE'). rewrite E'. cbn [rbind].
    destruct (msub_ok Jab V) as (Mab & EM & Mr & Mc & ME); [congruence|congruence|].
    rewrite EM. cbn [rbind].
    destruct (msub_ok Jba (mtrans V)) as (Mba & EM' & Mr' & Mc' & ME');
      [cbn; congruence|cbn; congruence|].
    rewrite EM'. cbn [rbind olift].
    destruct (write_blocks c a b Mab Mba) as (M' & EW & Wr & Wc & WE); try assumption; try congruence.
    exists (set_M M' c). split; [exact EW|]. split; [reflexivity|].
    split; [split; assumption|].
    assert (K : forall r i j,
      (inside c a i -> inside c b j ->
         Mv r (set_M M' c) i j = (Jv r c i j - ev r V (i - off c a)%nat (j - off c b)%nat)%R) /\
      (inside c b i -> inside c a j ->
         Mv r (set_M M' c) i j = (Jv r c i j - ev r V (j - off c a)%nat (i - off c b)%nat)%R) /\
      (~ (inside c a i /\ inside c b j) -> ~ (inside c b i /\ inside c a j) ->
         Mv r (set_M M' c) i j = Mv r c i j)).
    { intros r i j. destruct (WE i j) as (W1 & W2 & W3).
      assert (A1 : inside c a i -> inside c b j ->
         Mv r (set_M M' c) i j = (Jv r c i j - ev r V (i - off c a)%nat (j - off c b)%nat)%R).
      { intros Hi Hj. unfold Mv; cbn. rewrite W1 by assumption.
        change (eval r (ent Mab ?p ?q)) with (ev r Mab p q). rewrite ME, BE.
        unfold inside in *. f_equal. f_equal; lia. }
      repeat split.
      - exact A1.
      - intros Hi Hj. destruct (blk_eq_dec a b) as [Heq|Hne].
        + rewrite A1; try (rewrite Heq in *; assumption).
          subst b. rewrite (Hsym eq_refl) by (unfold inside in *; lia). reflexivity.
        + unfold Mv; cbn. rewrite W2 by assumption.
          change (eval r (ent Mba ?p ?q)) with (ev r Mba p q). rewrite ME', BE'.
          unfold ev at 1; cbn. unfold inside in *. f_equal. f_equal; lia.
      - intros H1 H2. unfold Mv; cbn. now rewrite W3. }
    intros r i j.
    destruct (K r i j) as (K1 & K2 & K3). destruct (K r j i) as (L1 & L2 & L3).
    unfold Jv, Rv in *.
    refine (@R_case _ _ _ _ _ _ _ _ _ _ (classic_inside c a i) (classic_inside c b j)
      (classic_inside c b i) (classic_inside c a j) K1 K2 K3 L1 L2 L3).
  Qed.
End Setters.

Lemma set_wrong_shape p a b V c : sized c -> counters_ok c ->
  ~ (nr V = len c a /\ nc V = len c b) ->
  set_block p a b V c = raise ShapeError c.
Proof.
  intros HS HC HV. rewrite set_block_unfold by exact HS.
  destruct (get_block_ok PM b a c HS HC) as (M1 & E1 & _).
  destruct (get_block_ok PJ a b c HS HC) as (J1 & E2 & Jr & Jc & _).
  destruct (get_block_ok PJ b a c HS HC) as (J2 & E3 & _).
  destruct (get_block_ok PR a b c HS HC) as (R1 & E4 & Rr & Rc & _).
  destruct (get_block_ok PR b a c HS HC) as (R2 & E5 & _).
  destruct p.
  - rewrite E1. cbn [rbind olift]. rewrite !inds_off by exact HC. destruct HS as [Hr Hc].
    pose proof (off_len_le c a HC). pose proof (off_len_le c b HC).
    rewrite massign_wrong_shape; try lia. reflexivity.
  - rewrite E4, E5. cbn [rbind]. unfold msub at 1.
    destruct (same_shape_spec V R1) as [[]|_]; [|reflexivity]. exfalso. apply HV. split; congruence.
  - rewrite E2, E3. cbn [rbind]. unfold msub at 1.
    destruct (same_shape_spec J1 V) as [[]|_]; [|reflexivity]. exfalso. apply HV. split; congruence.
Qed.

Lemma set_block_unsized p a b V c : nr (c_M c) <> ntot c ->
  set_block p a b V c = set_block p a b V (set_M (zeros (ntot c) (ntot c)) c).
Proof.
  intros H. unfold set_block. rewrite dim_tot_ntot.
  change (dim_tot (set_M (zeros (ntot c) (ntot c)) c)) with (dim_tot c).
  rewrite dim_tot_ntot. cbn [c_M set_M zeros nr].
  rewrite Nat.eqb_refl. destruct (Nat.eqb_spec (nr (c_M c)) (ntot c)); [contradiction|]. reflexivity.
Qed.
