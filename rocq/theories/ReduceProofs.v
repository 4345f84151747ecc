(** Proofs about [reduce_z]. *)
From Coq Require Import String List ZArith QArith Qreals Reals Bool Lra Lia Permutation Sorted.
From Verif Require Import Py Tools Lists Spec_Tools ToolsProofs Expr ExprProofs RSum Mat MatProofs
  Core Spec_Core Spec_Split Spec_Reduce Elim StructProofs BlockProofs Spec_Connect ConnectProofs SplitProofs SplitProofs2.
Import ListNotations.
Local Open Scope string_scope.
Local Open Scope list_scope.
Local Open Scope nat_scope.
#[local] Arguments Nat.ltb : simpl never.
#[local] Arguments Nat.leb : simpl never.

(** ** Stacks of blocks *)

(** Position, in the structure, of row [j] of the stacked blocks [bs]. *)
Fixpoint posl (c : core) (bs : list blk) (j : nat) : nat :=
  match bs with
  | [] => 0
  | b :: bs' => if j <? len c b then off c b + j else posl c bs' (j - len c b)
  end.
Definition lens (c : core) (bs : list blk) : nat := fold_right (fun b n => len c b + n) 0 bs.

Lemma stack_h r (c : core) (M : nat -> nat -> R) n : forall bs l A,
  Forall2 (fun b B => nr B = n /\ nc B = len c b /\ forall i j, ev r B i j = M i (off c b + j)) bs l ->
  nr A = n -> exists B, stack hstack2 A l = Ok B /\ nr B = n /\ nc B = nc A + lens c bs /\
    forall i j, j < nc A + lens c bs ->
      ev r B i j = if j <? nc A then ev r A i j else M i (posl c bs (j - nc A)).
Proof.
  induction bs as [|b bs IH]; intros l A HF HA; inversion HF as [|? B0 ? l' (H1 & H2 & H3) HF']; subst; cbn [stack].
  - exists A. split; [reflexivity|]. split; [reflexivity|]. split; [cbn; lia|].
    intros i j Hj. cbn in Hj. destruct (Nat.ltb_spec j (nc A)); [reflexivity|lia].
  - destruct (hstack2_ok A B0) as (C & EC & C1 & C2 & C3); [congruence|].
    rewrite EC. cbn [rbind].
    destruct (IH l' C HF') as (B & EB & B1 & B2 & B3); [congruence|].
    exists B. split; [exact EB|]. split; [exact B1|]. split; [cbn; unfold lens in B2; lia|].
    intros i j Hj. cbn [lens fold_right] in Hj. rewrite B3 by (unfold lens; lia).
    rewrite C2, H2. unfold ev at 1. rewrite C3.
    destruct (Nat.ltb_spec j (nc A)).
    + destruct (Nat.ltb_spec j (nc A + len c b)); [reflexivity|lia].
    + cbn [posl]. destruct (Nat.ltb_spec j (nc A + len c b)).
      * destruct (Nat.ltb_spec (j - nc A) (len c b)); [|lia]. apply H3.
      * destruct (Nat.ltb_spec (j - nc A) (len c b)); [lia|].
        now replace (j - nc A - len c b) with (j - (nc A + len c b)) by lia.
Qed.

Lemma stack_v r (c : core) (M : nat -> nat -> R) n (Q : nat -> Prop) : forall bs l A,
  Forall2 (fun b B => nc B = n /\ nr B = len c b /\ forall i j, Q j -> ev r B i j = M (off c b + i) j) bs l ->
  nc A = n -> exists B, stack vstack2 A l = Ok B /\ nc B = n /\ nr B = nr A + lens c bs /\
    forall i j, i < nr A + lens c bs -> Q j ->
      ev r B i j = if i <? nr A then ev r A i j else M (posl c bs (i - nr A)) j.
Proof.
  induction bs as [|b bs IH]; intros l A HF HA; inversion HF as [|? B0 ? l' (H1 & H2 & H3) HF']; subst; cbn [stack].
  - exists A. split; [reflexivity|]. split; [reflexivity|]. split; [cbn; lia|].
    intros i j Hj _. cbn in Hj. destruct (Nat.ltb_spec i (nr A)); [reflexivity|lia].
  - destruct (vstack2_ok A B0) as (C & EC & C1 & C2 & C3); [congruence|].
    rewrite EC. cbn [rbind].
    destruct (IH l' C HF') as (B & EB & B1 & B2 & B3); [congruence|].
    exists B. split; [exact EB|]. split; [exact B1|]. split; [cbn; unfold lens in B2; lia|].
    intros i j Hi Qj. cbn [lens fold_right] in Hi. rewrite B3 by (try assumption; unfold lens; lia).
    rewrite C1, H2. unfold ev at 1. rewrite C3.
    destruct (Nat.ltb_spec i (nr A)).
    + destruct (Nat.ltb_spec i (nr A + len c b)); [reflexivity|lia].
    + cbn [posl]. destruct (Nat.ltb_spec i (nr A + len c b)).
      * destruct (Nat.ltb_spec (i - nr A) (len c b)); [|lia]. now apply H3.
      * destruct (Nat.ltb_spec (i - nr A) (len c b)); [lia|].
        now replace (i - nr A - len c b) with (i - (nr A + len c b)) by lia.
Qed.

(** The statements above are per valuation; the matrices do not depend on it. *)
Lemma stack_det f A l B B' : stack f A l = Ok B -> stack f A l = Ok B' -> B = B'.
Proof. congruence. Qed.

Lemma Forall2_impl {A B} (P Q : A -> B -> Prop) l l' :
  (forall a b, P a b -> Q a b) -> Forall2 P l l' -> Forall2 Q l l'.
Proof. intros H. induction 1; constructor; auto. Qed.

Lemma rmap_ok {A B} (f : A -> result B) (P : A -> B -> Prop) l :
  (forall a, In a l -> exists b, f a = Ok b /\ P a b) ->
  exists l', rmap f l = Ok l' /\ Forall2 P l l'.
Proof.
  induction l as [|a l IH]; intros H; [exists []; split; [reflexivity|constructor]|].
  destruct (H a (or_introl eq_refl)) as (b & E & Pb).
  destruct IH as (l' & E' & HF); [intros x Hx; apply H; now right|].
  exists (b :: l'). cbn. rewrite E, E'. split; [reflexivity|now constructor].
Qed.

Lemma hblocks_ok c a bs : sized c -> counters_ok c -> bs <> [] ->
  exists B, hblocks a bs c = Ok B /\ nr B = len c a /\ nc B = lens c bs /\
    forall r i j, j < lens c bs -> ev r B i j = Mv r c (off c a + i) (posl c bs j).
Proof.
  intros S CO Hne. destruct bs as [|b bs]; [contradiction|]. unfold hblocks. cbn [rmap].
  destruct (get_block_ok PM a b c S CO) as (A & EA & A1 & A2 & A3). rewrite EA. cbn [rbind].
  destruct (rmap_ok (fun b => get_block PM a b c)
    (fun b B => nr B = len c a /\ nc B = len c b /\ forall r i j, ev r B i j = Mv r c (off c a + i) (off c b + j)) bs)
    as (l & El & HF).
  { intros b' _. destruct (get_block_ok PM a b' c S CO) as (B & EB & HB). exists B. auto. }
  rewrite El. cbn [rbind hstack].
  assert (K : forall r, exists B, stack hstack2 A l = Ok B /\ nr B = len c a /\ nc B = nc A + lens c bs /\
    forall i j, j < nc A + lens c bs ->
      ev r B i j = if j <? nc A then ev r A i j else Mv r c (off c a + i) (posl c bs (j - nc A))).
  { intros r. apply (stack_h r c (fun i j => Mv r c (off c a + i) j) (len c a)); [|exact A1].
    eapply Forall2_impl; [|exact HF]. intros b' B (H1 & H2 & H3). auto. }
  destruct (K (fun _ => 0%R)) as (B & EB & B1 & B2 & _). exists B. split; [exact EB|].
  split; [exact B1|]. split; [rewrite B2, A2; reflexivity|].
  intros r i j Hj. destruct (K r) as (B' & EB' & _ & _ & HB). rewrite EB in EB'. injection EB' as <-.
  cbn [lens fold_right] in Hj. rewrite HB by (rewrite A2; exact Hj). cbn [posl]. rewrite A2.
  destruct (j <? len c b); [apply A3|reflexivity].
Qed.

Lemma vblocks_ok c b bs : sized c -> counters_ok c -> bs <> [] ->
  exists B, vblocks bs b c = Ok B /\ nc B = len c b /\ nr B = lens c bs /\
    forall r i j, i < lens c bs -> ev r B i j = Mv r c (posl c bs i) (off c b + j).
Proof.
  intros S CO Hne. destruct bs as [|a bs]; [contradiction|]. unfold vblocks. cbn [rmap].
  destruct (get_block_ok PM a b c S CO) as (A & EA & A1 & A2 & A3). rewrite EA. cbn [rbind].
  destruct (rmap_ok (fun a => get_block PM a b c)
    (fun a B => nc B = len c b /\ nr B = len c a /\ forall r i j, ev r B i j = Mv r c (off c a + i) (off c b + j)) bs)
    as (l & El & HF).
  { intros b' _. destruct (get_block_ok PM b' b c S CO) as (B & EB & H1 & H2 & H3). exists B. auto. }
  rewrite El. cbn [rbind vstack].
  assert (K : forall r, exists B, stack vstack2 A l = Ok B /\ nc B = len c b /\ nr B = nr A + lens c bs /\
    forall i j, i < nr A + lens c bs -> True ->
      ev r B i j = if i <? nr A then ev r A i j else Mv r c (posl c bs (i - nr A)) (off c b + j)).
  { intros r. apply (stack_v r c (fun i j => Mv r c i (off c b + j)) (len c b) (fun _ => True)); [|exact A2].
    eapply Forall2_impl; [|exact HF]. intros b' B (H1 & H2 & H3). auto. }
  destruct (K (fun _ => 0%R)) as (B & EB & B1 & B2 & _). exists B. split; [exact EB|].
  split; [exact B1|]. split; [rewrite B2, A1; reflexivity|].
  intros r i j Hj. destruct (K r) as (B' & EB' & _ & _ & HB). rewrite EB in EB'. injection EB' as <-.
  cbn [lens fold_right] in Hj. rewrite HB by (rewrite ?A1; auto). cbn [posl]. rewrite A1.
  destruct (i <? len c a); [apply A3|reflexivity].
Qed.

Lemma grid_blocks_ok c bs bs0 : sized c -> counters_ok c -> bs <> [] -> bs0 <> [] ->
  exists B, (do rows <- rmap (fun a => hblocks a bs0 c) bs; vstack rows) = Ok B /\
    nr B = lens c bs /\ nc B = lens c bs0 /\
    forall r i j, i < lens c bs -> j < lens c bs0 -> ev r B i j = Mv r c (posl c bs i) (posl c bs0 j).
Proof.
  intros S CO Hne0 Hne. destruct bs as [|a bs]; [contradiction|]. cbn [rmap].
  destruct (hblocks_ok c a bs0 S CO Hne) as (A & EA & A1 & A2 & A3). rewrite EA. cbn [rbind].
  destruct (rmap_ok (fun a => hblocks a bs0 c)
    (fun a B => nc B = lens c bs0 /\ nr B = len c a /\
       forall r i j, j < lens c bs0 -> ev r B i j = Mv r c (off c a + i) (posl c bs0 j)) bs)
    as (l & El & HF).
  { intros b' _. destruct (hblocks_ok c b' bs0 S CO Hne) as (B & EB & H1 & H2 & H3). exists B. auto. }
  rewrite El. cbn [rbind vstack].
  assert (K : forall r, exists B, stack vstack2 A l = Ok B /\ nc B = lens c bs0 /\ nr B = nr A + lens c bs /\
    forall i j, i < nr A + lens c bs -> j < lens c bs0 ->
      ev r B i j = if i <? nr A then ev r A i j else Mv r c (posl c bs (i - nr A)) (posl c bs0 j)).
  { intros r. apply (stack_v r c (fun i j => Mv r c i (posl c bs0 j)) (lens c bs0) (fun j => j < lens c bs0)); [|exact A2].
    eapply Forall2_impl; [|exact HF]. intros b' B (H1 & H2 & H3). auto. }
  destruct (K (fun _ => 0%R)) as (B & EB & B1 & B2 & _). exists B. split; [exact EB|].
  split; [rewrite B2, A1; reflexivity|]. split; [exact B1|].
  intros r i j Hi Hj. destruct (K r) as (B' & EB' & _ & _ & HB). rewrite EB in EB'. injection EB' as <-.
  cbn [lens fold_right] in Hi. rewrite HB by (rewrite ?A1; auto). cbn [posl]. rewrite A1.
  destruct (i <? len c a); [now apply A3|reflexivity].
Qed.

(** ** One elimination *)

Definition kept_names := [Bxl; Bxnl; Bwnl; By; Bcy].
(** Row of the structure kept as row [j] of the reduced structure. *)
Definition kp (c : core) (j : nat) : nat :=
  if j <? length (c_x c) then j else j + Z.to_nat (c_wl c).

Lemma kept_lens c : counters_ok c -> lens c kept_names = ntot c - Z.to_nat (c_wl c).
Proof. intros [H1 H2]. unfold ntot. cbn. lia. Qed.

Lemma kept_posl c j : counters_ok c -> j < lens c kept_names -> posl c kept_names j = kp c j.
Proof.
  intros CO Hj. rewrite kept_lens in Hj by exact CO. destruct CO as [H1 H2]. unfold kp. cbn [kept_names posl len off]. unfold ntot in Hj.
  repeat match goal with |- context [?a <? ?b] => destruct (Nat.ltb_spec a b) end; lia.
Qed.

Definition reduce_tail (inv : mat -> option mat) (c : core) : result mat :=
  do Mwlwl <- get_block PM Bwl Bwl c;
  do P <- mmul Mwlwl (c_Zl c);
  do iDl <- msub (eye (Z.to_nat (dim_wl c))) P;
  do Dl <- inverse inv iDl;
  do Mwlnl <- hblocks Bwl kept_names c;
  do Mnlwl <- vblocks kept_names Bwl c;
  do rows <- rmap (fun a => hblocks a kept_names c) kept_names;
  do Mnl <- vstack rows;
  do A <- mmul Mnlwl (c_Zl c);
  do B <- mmul A Dl;
  do C <- mmul B Mwlnl;
  madd C Mnl.

Lemma reduce_z_eq inv c c1 : linear_nonlinear None c = ok c1 -> c_force_wnl c1 = [] ->
  reduce_z inv c = olift (reduce_tail inv c1) c1 (fun M' =>
    ok (set_wl 0 (set_z (py_slice (c_z c1) (Some (dim_wl c1)) None)
         (set_w (py_slice (c_w c1) (Some (dim_wl c1)) None) (set_M M' c1))))).
Proof.
  intros E EF. unfold reduce_z. rewrite E. cbn [obind ok]. rewrite EF. cbn [length Z.of_nat Z.eqb obind ok].
  reflexivity.
Qed.

Lemma reduce_tail_ok inv c : wf c -> counters_ok c ->
  let m := Z.to_nat (c_wl c) in
  let n := ntot c - m in
  let nx := length (c_x c) in
  nr (c_Zl c) = m -> nc (c_Zl c) = m ->
  exists A, nr A = m /\ nc A = m /\
    (forall r i j, i < m -> j < m -> ev r A i j =
       (idm i j - mm m (fun k l => Mv r c (nx + k)%nat (nx + l)%nat) (ev r (c_Zl c)) i j)%R) /\
    (reduce_tail inv c = Err ValueError /\ inv A = None \/
     exists B, (m = 0 /\ B = A \/ inv A = Some B) /\
       (reduce_tail inv c = Err ShapeError /\ ~ (nr B = m /\ nc B = m) \/
        exists M', reduce_tail inv c = Ok M' /\ nr B = m /\ nc B = m /\ nr M' = n /\ nc M' = n /\
        forall r i j, i < n -> j < n -> ev r M' i j =
          elim_mat m (fun i j => Mv r c (kp c i) (kp c j)) (fun i k => Mv r c (kp c i) (nx + k)%nat)
            (fun k j => Mv r c (nx + k)%nat (kp c j)) (ev r (c_Zl c)) (ev r B) i j)).
Proof.
  intros W CO m n nx HZr HZc.
  assert (S : sized c) by (destruct W as (_ & _ & H); exact H).
  assert (Em : Z.to_nat (dim_wl c) = m) by reflexivity.
  assert (EL : lens c kept_names = n) by (now apply kept_lens).
  unfold reduce_tail.
  destruct (get_block_ok PM Bwl Bwl c S CO) as (Mww & E1 & R1 & C1 & V1). rewrite E1. cbn [rbind].
  change (len c Bwl) with m in R1, C1. change (off c Bwl) with nx in V1.
  destruct (mmul_ok Mww (c_Zl c)) as (P & E2 & R2 & C2 & V2); [lia|]. rewrite E2. cbn [rbind].
  destruct (msub_ok (eye (Z.to_nat (dim_wl c))) P) as (A & E3 & R3 & C3 & V3); [cbn; lia|cbn; lia|].
  rewrite E3. cbn [rbind]. cbn [nr nc eye] in R3, C3. rewrite Em in R3, C3.
  exists A. split; [exact R3|]. split; [exact C3|]. split.
  { intros r i j Hi Hj. rewrite V3, ev_eye, V2. f_equal. rewrite C1. unfold mm. apply rsum_ext.
    intros k Hk. f_equal. apply V1. }
  destruct (inverse_result inv A) as [[EI EI']|[B EI]]; rewrite EI; cbn [rbind].
  { left. auto. }
  right. exists B. split.
  { unfold inverse in EI. destruct (Nat.eqb_spec (nr A) 0) as [Z0|Z0]; cbn [andb] in EI.
    - left. split; [congruence|]. replace (Nat.eqb (nc A) 0) with true in EI by (symmetry; apply Nat.eqb_eq; congruence).
      congruence.
    - right. destruct (inv A); [congruence|discriminate]. }
  assert (NE : kept_names <> []) by discriminate.
  destruct (hblocks_ok c Bwl kept_names S CO NE) as (O & E4 & R4 & C4 & V4). rewrite E4. cbn [rbind].
  destruct (vblocks_ok c Bwl kept_names S CO NE) as (G & E5 & C5 & R5 & V5). rewrite E5. cbn [rbind].
  destruct (grid_blocks_ok c kept_names kept_names S CO NE NE) as (N & E6 & R6 & C6 & V6).
  destruct (rmap (fun a => hblocks a kept_names c) kept_names) as [rows|] eqn:ER; cbn [rbind] in E6; [|discriminate].
  cbn [rbind]. rewrite E6. cbn [rbind].
  change (len c Bwl) with m in R4, C5. change (off c Bwl) with nx in V4, V5.
  destruct (mmul_ok G (c_Zl c)) as (X1 & F1 & S1 & T1 & U1); [lia|]. rewrite F1. cbn [rbind].
  destruct (Nat.eq_dec (nr B) m) as [B1|B1].
  2:{ left. split; [|tauto]. unfold mmul. destruct (Nat.eqb_spec (nc X1) (nr B)); [lia|reflexivity]. }
  destruct (mmul_ok X1 B) as (X2 & F2 & S2 & T2 & U2); [lia|]. rewrite F2. cbn [rbind].
  destruct (Nat.eq_dec (nc B) m) as [B2|B2].
  2:{ left. split; [|tauto]. unfold mmul. destruct (Nat.eqb_spec (nc X2) (nr O)); [lia|reflexivity]. }
  right.
  destruct (mmul_ok X2 O) as (X3 & F3 & S3 & T3 & U3); [lia|]. rewrite F3. cbn [rbind].
  destruct (madd_ok X3 N) as (X4 & F4 & S4 & T4 & U4); [lia|lia|].
  exists X4. split; [exact F4|]. split; [exact B1|]. split; [exact B2|]. split; [lia|]. split; [lia|].
  intros r i j Hi Hj. rewrite U4, V6 by lia. rewrite !kept_posl by (try assumption; lia).
  unfold elim_mat. rewrite Rplus_comm. f_equal.
  rewrite U3. replace (nc X2) with m by lia. apply rsum_ext. intros k Hk. f_equal.
  2:{ rewrite V4 by lia. now rewrite kept_posl by (try assumption; lia). }
  rewrite U2. replace (nc X1) with m by lia. apply rsum_ext. intros l Hl. f_equal.
  rewrite U1. replace (nc G) with m by lia. apply rsum_ext. intros p Hp. f_equal.
  rewrite V5 by lia. now rewrite kept_posl by (try assumption; lia).
Qed.

(** ** From the original core *)

Fixpoint pos (i : nat) (l : list nat) : nat :=
  match l with [] => 0 | a :: l' => if a =? i then 0 else S (pos i l') end.
Lemma pos_in i l : In i l -> nth (pos i l) l 0 = i /\ pos i l < length l.
Proof.
  induction l as [|a l IH]; intros H; [destruct H|]. cbn. destruct (Nat.eqb_spec a i) as [->|E].
  - split; [reflexivity|lia].
  - destruct H as [H|H]; [contradiction|]. destruct (IH H). split; [assumption|lia].
Qed.
Lemma pos_nth l k : NoDup l -> k < length l -> pos (nth k l 0) l = k.
Proof.
  intros ND. revert k. induction ND as [|a l Ha ND IH]; intros k Hk; cbn in Hk; [lia|].
  destruct k as [|k]; cbn; [now rewrite Nat.eqb_refl|].
  destruct (Nat.eqb_spec a (nth k l 0)) as [->|E].
  - exfalso. apply Ha, nth_In. lia.
  - f_equal. apply IH. lia.
Qed.

(** Solutions follow the renumbering. *)
Lemma solve_renum n (M M1 : rmat) sg a b : Permutation sg (seq 0 n) ->
  (forall i j, i < n -> j < n -> M1 i j = M (nth i sg 0%nat) (nth j sg 0%nat)) ->
  b_eq_M_a n M a b <-> b_eq_M_a n M1 (fun i => a (nth i sg 0%nat)) (fun i => b (nth i sg 0%nat)).
Proof.
  intros HP HM. unfold b_eq_M_a.
  assert (E : forall i, i < n -> rsum n (fun j => M1 i j * a (nth j sg 0%nat))%R =
     rsum n (fun j => M (nth i sg 0%nat) j * a j)%R).
  { intros i Hi. rewrite <- (rsum_perm n (fun j => M (nth i sg 0%nat) j * a j)%R sg HP).
    apply rsum_ext. intros j Hj. now rewrite HM. }
  split.
  - intros H i Hi. rewrite E by exact Hi. apply H. now apply perm_lt.
  - intros H i Hi. destruct (perm_surj n sg HP i Hi) as (k & Hk & <-).
    rewrite H by exact Hk. now apply E.
Qed.

Lemma rsum_split_at n0 m n f : rsum (n0 + m + n) f =
  (rsum (n0 + n) (fun j => f (if j <? n0 then j else (j + m)%nat)) + rsum m (fun q => f (n0 + q)%nat))%R.
Proof.
  rewrite !rsum_app.
  rewrite (rsum_ext n0 (fun j => f (if j <? n0 then j else j + m)) f).
  2:{ intros j Hj. destruct (Nat.ltb_spec j n0); [reflexivity|lia]. }
  rewrite (rsum_ext n (fun k => f (if n0 + k <? n0 then n0 + k else n0 + k + m)) (fun k => f (n0 + m + k)%nat)).
  2:{ intros j Hj. destruct (Nat.ltb_spec (n0 + j) n0); [lia|]. f_equal. lia. }
  lra.
Qed.

Section Reduce.
  Variables (inv : mat -> option mat) (c c' c1 : core) (sx sw : list nat) (m : nat).
  Let nx := length (c_x c).
  Let sg := block_order c sx sw.
  Hypothesis W : wf c.
  Hypothesis W1 : wf c1.
  Hypothesis CO1 : counters_ok c1.
  Hypothesis HSx : Permutation sx (seq 0 nx).
  Hypothesis HSw : stable_partition (length (c_w c)) m
    (free_column (jacobian (c_z c) (c_w c)) (dx c ++ c_w c)) sw.
  Hypothesis Hwl : c_wl c1 = Z.of_nat m.
  Hypothesis HF : follows sg c c1.
  Hypothesis HX : length (c_x c1) = nx.
  Hypothesis HW : c_w c1 = in_order "" (c_w c) sw.
  Hypothesis HZ : c_z c1 = in_order (Num 0) (c_z c) sw.
  Hypothesis HZl : c_Zl c1 = jacobian (firstn m (c_z c1)) (firstn m (c_w c1)).

  Let lin := firstn m sw.
  Let kpm (j : nat) : nat := if j <? nx then j else j + m.
  Let n' := ntot c - m.
  Let keep := map (fun k => nth (kpm k) sg 0%nat) (seq 0 n').

  Lemma red_facts : Permutation sw (seq 0 (length (c_w c))) /\ length lin = m /\ m <= length (c_w c) /\
    length sw = length (c_w c) /\ length sx = nx /\ ntot c1 = ntot c.
  Proof.
    destruct HSw as (l1 & l2 & E & L1 & HP & _).
    assert (Ls : length sw = length (c_w c)) by (rewrite (Permutation_length HP); apply seq_length).
    assert (m <= length (c_w c)) by (rewrite <- Ls, E, app_length; lia).
    split; [exact HP|]. split; [unfold lin; rewrite firstn_length; lia|]. split; [assumption|].
    split; [exact Ls|]. split; [rewrite (Permutation_length HSx); apply seq_length|].
    destruct HF as (_ & _ & _ & R & _). destruct W1 as (_ & _ & R1 & _). congruence.
  Qed.

  Lemma red_kp j : kp c1 j = kpm j.
  Proof. unfold kp, kpm. rewrite HX, Hwl, Nat2Z.id. reflexivity. Qed.

  Lemma red_lin_row q : q < m -> nth (nx + q) sg 0 = diss_row c lin q.
  Proof.
    intros Hq. destruct red_facts as (HP & L & Hm & Ls & Lx & _).
    unfold sg, block_order, diss_row, lin. rewrite app_nth2 by lia. rewrite Lx.
    replace (nx + q - nx) with q by lia. rewrite app_nth1 by (rewrite map_length; lia).
    rewrite (nth_map_dep _ _ 0) by lia. f_equal. symmetry. now apply nth_firstn_lt.
  Qed.

  Lemma red_slope r p q : p < m -> q < m -> ev r (c_Zl c1) p q = slope r c lin p q.
  Proof.
    intros Hp Hq. destruct red_facts as (HP & L & Hm & Ls & Lx & _).
    rewrite HZl. unfold ev, jacobian, slope. cbn [ent].
    rewrite !nth_firstn_lt by assumption. rewrite HW, HZ. unfold in_order, lin.
    rewrite (nth_map_dep _ _ 0) by lia. rewrite (nth_map_dep _ _ 0) by lia.
    now rewrite !nth_firstn_lt.
  Qed.

  Lemma red_perm : Permutation (map (fun j => nx + j) lin ++ keep) (seq 0 (ntot c)).
  Proof.
    destruct red_facts as (HP & L & Hm & Ls & Lx & _).
    assert (PS : Permutation sg (seq 0 (ntot c))) by apply HF.
    assert (LS : length sg = ntot c) by (rewrite (Permutation_length PS); apply seq_length).
    assert (Hn : nx + length (c_w c) <= ntot c) by (unfold ntot, nx; lia).
    rewrite <- PS.
    assert (E : sg = firstn nx sg ++ firstn m (skipn nx sg) ++ skipn m (skipn nx sg)).
    { now rewrite firstn_skipn, firstn_skipn. }
    assert (E1 : map (fun j => nx + j) lin = firstn m (skipn nx sg)).
    { apply nth_ext with (d := 0) (d' := 0).
      - rewrite map_length, firstn_length, skipn_length, L, LS. lia.
      - intros k Hk. rewrite map_length, L in Hk. rewrite nth_firstn_lt, nth_skipn' by exact Hk.
        rewrite (nth_map_dep _ _ 0) by lia. symmetry. now apply red_lin_row. }
    assert (E2 : keep = firstn nx sg ++ skipn m (skipn nx sg)).
    { apply nth_ext with (d := 0) (d' := 0).
      - unfold keep, n'. rewrite map_length, seq_length, app_length, firstn_length, !skipn_length, LS. lia.
      - intros k Hk. unfold keep, n' in Hk. rewrite map_length, seq_length in Hk.
        unfold keep. rewrite (nth_map_dep _ _ 0) by (rewrite seq_length; unfold n'; lia).
        rewrite seq_nth by (unfold n'; lia). cbn [plus]. unfold kpm.
        destruct (Nat.ltb_spec k nx).
        + rewrite app_nth1 by (rewrite firstn_length; lia). now rewrite nth_firstn_lt.
        + rewrite app_nth2 by (rewrite firstn_length; lia). rewrite firstn_length, !nth_skipn'.
          f_equal. lia. }
    rewrite E1, E2. rewrite E at 4.
    rewrite !app_assoc. apply Permutation_app_tail. apply Permutation_app_comm.
  Qed.

  Lemma red_lin : StronglySorted lt lin /\
    forall j, In j lin <-> j < length (c_w c) /\ free_column (jacobian (c_z c) (c_w c)) (dx c ++ c_w c) j.
  Proof.
    destruct red_facts as (HP & L & Hm & Ls & Lx & _).
    destruct HSw as (l1 & l2 & E & L1 & _ & S1 & _ & F1 & F2).
    assert (El : lin = l1).
    { unfold lin. rewrite E, firstn_app. replace (m - length l1) with 0 by lia.
      rewrite firstn_O, app_nil_r. apply firstn_all2. lia. }
    rewrite El. split; [exact S1|]. rewrite Forall_forall in F1, F2.
    intros j. split.
    - intros Hj. split; [|now apply F1].
      assert (In j sw) as H by (rewrite E; apply in_or_app; now left).
      apply (Permutation_in _ HP) in H. apply in_seq in H. lia.
    - intros [Hj Hf]. assert (In j sw) as H.
      { apply (Permutation_in _ (Permutation_sym HP)). apply in_seq. lia. }
      rewrite E in H. apply in_app_or in H. destruct H as [H|H]; [exact H|].
      exfalso. exact (F2 j H Hf).
  Qed.

  Lemma red_rel r B (M' : mat) a b :
    is_inverse m (fun i j => idm i j - mm m (fun k l => Mv r c1 (nx + k)%nat (nx + l)%nat) (ev r (c_Zl c1)) i j)%R
      (ev r B) ->
    (forall i j, i < n' -> j < n' -> ev r M' i j =
       elim_mat m (fun i j => Mv r c1 (kp c1 i) (kp c1 j)) (fun i k => Mv r c1 (kp c1 i) (nx + k)%nat)
         (fun k j => Mv r c1 (nx + k)%nat (kp c1 j)) (ev r (c_Zl c1)) (ev r B) i j) ->
    b_eq_M_a n' (fun i j => ev r M' i j) a b <->
    exists a0 b0, solves_with_laws r c lin a0 b0 /\
      forall k, k < n' -> a0 (nth k keep 0) = a k /\ b0 (nth k keep 0) = b k.
  Proof.
    intros HI HM.
    destruct red_facts as (HPw & L & Hm & Ls & Lx & Hnt).
    assert (PS : Permutation sg (seq 0 (ntot c))) by apply HF.
    assert (LS : length sg = ntot c) by (rewrite (Permutation_length PS); apply seq_length).
    assert (ND : NoDup sg) by (apply (Permutation_NoDup (Permutation_sym PS)), seq_NoDup).
    assert (Hn : ntot c = nx + m + (n' - nx)) by (unfold n', ntot, nx; lia).
    assert (Hn2 : n' = nx + (n' - nx)) by (unfold n', ntot, nx; lia).
    assert (HMv : forall i j, i < ntot c -> j < ntot c -> Mv r c1 i j = Mv r c (nth i sg 0%nat) (nth j sg 0%nat))
      by (intros i j Hi Hj; apply HF; assumption).
    assert (SP : forall f, rsum (ntot c) f = (rsum n' (fun j => f (kpm j)) + rsum m (fun q => f (nx + q)%nat))%R).
    { intros f. rewrite Hn, rsum_split_at. rewrite <- Hn2. reflexivity. }
    assert (KB : forall k, k < n' -> kpm k < ntot c).
    { intros k Hk. unfold kpm. destruct (Nat.ltb_spec k nx); lia. }
    assert (KK : forall k, k < n' -> nth k keep 0 = nth (kpm k) sg 0%nat).
    { intros k Hk. unfold keep. rewrite (nth_map_dep _ _ 0) by (rewrite seq_length; exact Hk).
      now rewrite seq_nth. }
    pose proof (elim_iff n' m (fun i j => Mv r c1 (kp c1 i) (kp c1 j)) (fun i k => Mv r c1 (kp c1 i) (nx + k)%nat)
         (fun k j => Mv r c1 (nx + k)%nat (kp c1 j)) (fun k l => Mv r c1 (nx + k)%nat (nx + l)%nat)
         (ev r (c_Zl c1)) (ev r B) HI a b) as EL.
    transitivity (forall i, i < n' -> b i = mv_ n' (elim_mat m (fun i j => Mv r c1 (kp c1 i) (kp c1 j))
         (fun i k => Mv r c1 (kp c1 i) (nx + k)%nat)
         (fun k j => Mv r c1 (nx + k)%nat (kp c1 j)) (ev r (c_Zl c1)) (ev r B)) a i).
    { unfold b_eq_M_a. split; intros H i Hi; rewrite H by exact Hi; apply rsum_ext; intros j Hj; f_equal;
        [|symmetry]; now apply HM. }
    rewrite EL. clear EL HM. split.
    - intros (cu & cy & H1 & H2 & H3).
      set (ext := fun (v w : rvec) (i : nat) => if i <? nx then v i else if i <? nx + m then w (i - nx) else v (i - m)).
      assert (X1 : forall v w k, k < n' -> ext v w (kpm k) = v k).
      { intros v w k Hk. unfold ext, kpm. destruct (Nat.ltb_spec k nx).
        - destruct (Nat.ltb_spec k nx); [reflexivity|lia].
        - destruct (Nat.ltb_spec (k + m) nx); [lia|]. destruct (Nat.ltb_spec (k + m) (nx + m)); [lia|].
          f_equal. lia. }
      assert (X2 : forall v w q, q < m -> ext v w (nx + q) = w q).
      { intros v w q Hq. unfold ext. destruct (Nat.ltb_spec (nx + q) nx); [lia|].
        destruct (Nat.ltb_spec (nx + q) (nx + m)); [|lia]. f_equal. lia. }
      assert (PN : forall k, k < ntot c -> pos (nth k sg 0%nat) sg = k) by (intros k Hk; apply pos_nth; [exact ND|lia]).
      exists (fun i => ext a cu (pos i sg)), (fun i => ext b cy (pos i sg)). split; [split|].
      + apply (proj2 (solve_renum (ntot c) (Mv r c) (Mv r c1) sg _ _ PS HMv)).
        intros i Hi. cbn beta. rewrite PN by exact Hi.
        rewrite (rsum_ext (ntot c) _ (fun j => Mv r c1 i j * ext a cu j)%R).
        2:{ intros j Hj. now rewrite PN. }
        rewrite SP.
        rewrite (rsum_ext n' _ (fun j => Mv r c1 i (kp c1 j) * a j)%R).
        2:{ intros j Hj. now rewrite X1, red_kp. }
        rewrite (rsum_ext m _ (fun q => Mv r c1 i (nx + q)%nat * cu q)%R).
        2:{ intros q Hq. now rewrite X2. }
        destruct (Nat.ltb_spec i nx) as [Hx|Hx].
        * assert (Ei : i = kpm i) by (unfold kpm; destruct (Nat.ltb_spec i nx); lia).
          rewrite Ei at 1. rewrite X1 by lia. rewrite H1 by lia. cbv beta delta [mv_]. rewrite red_kp, <- Ei. reflexivity.
        * destruct (Nat.ltb_spec i (nx + m)) as [Hq|Hq].
          -- replace i with (nx + (i - nx)) by lia. rewrite X2 by lia. rewrite H2 by lia. reflexivity.
          -- assert (Ei : i = kpm (i - m)) by (unfold kpm; destruct (Nat.ltb_spec (i - m) nx); lia).
             rewrite Ei at 1. rewrite X1 by lia. rewrite H1 by lia. cbv beta delta [mv_]. rewrite red_kp, <- Ei. reflexivity.
      + rewrite L. intros p Hp. rewrite <- red_lin_row by exact Hp. rewrite PN by lia. rewrite X2 by exact Hp.
        rewrite H3 by exact Hp. apply rsum_ext. intros q Hq. rewrite red_slope by assumption. f_equal.
        rewrite <- red_lin_row by exact Hq. rewrite PN by lia. now rewrite X2.
      + intros k Hk. rewrite KK by exact Hk. rewrite PN by (now apply KB). now rewrite !X1.
    - intros (a0 & b0 & [HS HL] & HK). rewrite L in HL.
      apply (proj1 (solve_renum (ntot c) (Mv r c) (Mv r c1) sg _ _ PS HMv)) in HS.
      assert (R1 : forall i, i < ntot c -> b0 (nth i sg 0%nat) =
        (rsum n' (fun j => Mv r c1 i (kp c1 j) * a j) + rsum m (fun q => Mv r c1 i (nx + q)%nat * a0 (nth (nx + q) sg 0%nat)))%R).
      { intros i Hi. rewrite HS by exact Hi. rewrite SP. f_equal. apply rsum_ext. intros j Hj.
        rewrite red_kp. f_equal. rewrite <- KK by exact Hj. now apply HK. }
      exists (fun q => a0 (nth (nx + q) sg 0%nat)), (fun q => b0 (nth (nx + q) sg 0%nat)). split; [|split].
      + intros i Hi. destruct (HK i Hi) as [_ <-]. rewrite KK by exact Hi.
        rewrite R1 by (now apply KB). rewrite <- red_kp. reflexivity.
      + intros k Hk. rewrite R1 by lia. reflexivity.
      + intros k Hk. rewrite red_lin_row by exact Hk. rewrite HL by exact Hk. apply rsum_ext.
        intros q Hq. rewrite red_slope, red_lin_row by assumption. reflexivity.
  Qed.

  Lemma red_loop r A : nr A = m -> nc A = m ->
    (forall i j, i < m -> j < m -> ev r A i j =
       (idm i j - mm m (fun k l => Mv r c1 (nx + k)%nat (nx + l)%nat) (ev r (c_Zl c1)) i j)%R) ->
    dissipation_loop r c lin A.
  Proof.
    intros _ _ HA. destruct red_facts as (HPw & L & Hm & Ls & Lx & Hnt).
    intros p q Hp Hq. rewrite L in *. change (eval r (ent A p q)) with (ev r A p q).
    rewrite HA by assumption. unfold idm. f_equal. unfold mm. apply rsum_ext. intros s Hs.
    rewrite red_slope by assumption. f_equal. rewrite <- !red_lin_row by assumption.
    destruct HF as (_ & _ & _ & _ & _ & HM). apply HM; unfold ntot, nx; lia.
  Qed.

  Lemma red_comps M' : nr M' = n' -> nc M' = n' ->
    let c2 := set_wl 0 (set_z (py_slice (c_z c1) (Some (dim_wl c1)) None)
         (set_w (py_slice (c_w c1) (Some (dim_wl c1)) None) (set_M M' c1))) in
    wf c2 /\ ntot c2 = n' /\
    forall k s, nth_error keep k = Some s -> nth_error (comps c2) k = nth_error (comps c) s.
  Proof.
    intros HR HC c2. destruct red_facts as (HPw & L & Hm & Ls & Lx & Hnt).
    assert (Ew : c_w c2 = skipn m (c_w c1)).
    { unfold c2. cbn [c_w set_wl set_z set_w]. unfold dim_wl. rewrite Hwl. apply py_slice_from. }
    assert (Ez : c_z c2 = skipn m (c_z c1)).
    { unfold c2. cbn [c_z set_wl set_z set_w]. unfold dim_wl. rewrite Hwl. apply py_slice_from. }
    assert (Lw : length (c_w c1) = length (c_w c)) by (rewrite HW; unfold in_order; now rewrite map_length).
    assert (N2 : ntot c2 = n').
    { unfold n'. rewrite <- Hnt. unfold ntot. rewrite Ew, skipn_length. change (c_x c2) with (c_x c1).
      change (c_y c2) with (c_y c1). change (c_cy c2) with (c_cy c1). lia. }
    destruct W1 as ((P1 & P2 & P3) & HD & HR1 & HC1).
    split; [|split; [exact N2|]].
    { split; [split; [|split; [exact P2|exact P3]]|].
      - rewrite Ew, Ez, !skipn_length. lia.
      - split; [exact HD|]. change (c_M c2) with M'. lia. }
    intros k s Hs.
    assert (Hk : k < n').
    { assert (H : nth_error keep k <> None) by congruence. apply nth_error_Some in H.
      unfold keep in H. rewrite map_length, seq_length in H. exact H. }
    unfold keep in Hs. rewrite nth_error_map in Hs.
    rewrite (nth_error_nth' _ 0) in Hs by (rewrite seq_length; exact Hk). rewrite seq_nth in Hs by exact Hk.
    cbn in Hs. injection Hs as <-.
    assert (KB : kpm k < ntot c).
    { unfold kpm, n' in *. destruct (Nat.ltb_spec k nx); unfold ntot, nx in *; lia. }
    assert (HC2 : nth_error (comps c1) (kpm k) = nth_error (comps c) (nth (kpm k) sg 0%nat)).
    { destruct HF as (HP & _ & HFc & _). apply HFc. apply nth_error_nth'.
      rewrite (Permutation_length HP), seq_length. exact KB. }
    rewrite <- HC2.
    assert (Lst : length (stors c1) = nx) by (rewrite stors_length by assumption; exact HX).
    assert (Ed : disss c2 = skipn m (disss c1)).
    { unfold disss. rewrite Ew, Ez, skipn_map. f_equal. clear.
      revert m. generalize (c_z c1) as l2. generalize (c_w c1) as l1.
      induction l1 as [|a l1 IH]; intros l2 m0; [destruct m0; reflexivity|].
      destruct l2 as [|b l2]; [destruct m0; cbn; [reflexivity|destruct (skipn m0 l1); reflexivity]|].
      destruct m0; [reflexivity|]. cbn. apply IH. }
    assert (Ld : length (disss c1) = length (c_w c)) by (rewrite disss_length by assumption; exact Lw).
    unfold comps. change (stors c2) with (stors c1). change (ports c2) with (ports c1).
    change (conns c2) with (conns c1). rewrite Ed. unfold kpm.
    destruct (Nat.ltb_spec k nx) as [K|K].
    - rewrite !nth_error_app1 by lia. reflexivity.
    - rewrite !(nth_error_app2 (stors c1)) by lia.
      rewrite <- (firstn_skipn m (disss c1)) at 2. rewrite <- app_assoc.
      rewrite (nth_error_app2 (firstn m (disss c1))) by (rewrite firstn_length; lia).
      rewrite firstn_length. f_equal. lia.
  Qed.
End Reduce.

Lemma reduce_z_behaviour inv c c' : wf c ->
  (nr (c_Zl c) = Z.to_nat (c_wl c) \/ is_zero (c_Zl c) = true) -> c_force_wnl c = [] ->
  reduce_z inv c = ok c' ->
  exists lin keep A B, wf c' /\ c_wl c' = 0%Z /\ same_context c c' /\ reduced c c' lin keep /\
    nr A = length lin /\ nc A = length lin /\ nr B = length lin /\ nc B = length lin /\
    (lin = [] \/ inv A = Some B) /\ (forall r, dissipation_loop r c lin A) /\
    forall r, inverse_at r A B -> forall a b,
      b_eq_M_a (ntot c') (Mv r c') a b <->
      exists a0 b0, solves_with_laws r c lin a0 b0 /\
        forall k, k < ntot c' -> a0 (nth k keep 0) = a k /\ b0 (nth k keep 0) = b k.
Proof.
  intros W HZ0 HFo E.
  destruct (linear_nonlinear_ok None c W HZ0)
    as (c1 & sx & sw & nxl & m & E1 & W1 & CO & S1 & S2 & X & Wl & F & SC & Ex & Ew & Ez &
        _ & _ & _ & _ & _ & EZl & _).
  { intros []. reflexivity. }
  cbn [split_crit fst snd] in S2.
  assert (FF : c_force_wnl c1 = []) by (destruct SC as (_ & _ & _ & _ & _ & _ & ->); exact HFo).
  rewrite (reduce_z_eq inv c c1 E1 FF) in E.
  assert (HSx : Permutation sx (seq 0 (length (c_x c)))) by (destruct S1 as (? & ? & _ & _ & H & _); exact H).
  assert (LX : length (c_x c1) = length (c_x c)).
  { rewrite Ex. unfold in_order. rewrite map_length, (Permutation_length HSx). apply seq_length. }
  destruct (red_facts c c1 sx sw m W1 HSx S2 F LX) as (HPw & L & Hm & Ls & Lx & Hnt).
  assert (Em : Z.to_nat (c_wl c1) = m) by (rewrite Wl; apply Nat2Z.id).
  assert (LZ : nr (c_Zl c1) = m /\ nc (c_Zl c1) = m).
  { rewrite EZl. unfold jacobian. cbn [nr nc]. rewrite !firstn_length, Ew, Ez. unfold in_order.
    rewrite !map_length. lia. }
  destruct LZ as [Zr Zc].
  destruct (reduce_tail_ok inv c1 W1 CO) as (A & A1 & A2 & A3 & H); rewrite ?Em in *; try assumption.
  rewrite LX in *.
  destruct H as [[H _]|(B & HB & [[H _]|(M' & HM & B1 & B2 & M1 & M2 & HV)])].
  { rewrite H in E. discriminate. }
  { rewrite H in E. discriminate. }
  rewrite HM in E. cbn [olift] in E. injection E as <-.
  rewrite Hnt in *.
  destruct (red_comps c c1 sx sw m W1 HSx S2 Wl F LX Ew M' M1 M2) as (W2 & N2 & HC).
  set (c2 := set_wl 0 _) in *.
  set (lin := firstn m sw).
  set (keep := map (fun k => nth (if k <? length (c_x c) then k else k + m) (block_order c sx sw) 0) (seq 0 (ntot c - m))).
  exists lin, keep, A, B. fold lin in L. rewrite L.
  split; [exact W2|]. split; [reflexivity|]. split; [exact SC|]. split.
  { destruct (red_lin c c1 sx sw m W1 HSx S2 F LX) as [SL IL].
    split; [exact SL|]. split; [exact IL|].
    split; [exact (red_perm c c1 sx sw m W1 HSx S2 F LX)|].
    split; [|exact HC]. unfold keep. rewrite map_length, seq_length. lia. }
  split; [exact A1|]. split; [exact A2|]. split; [exact B1|]. split; [exact B2|]. split.
  { destruct HB as [[HB _]|HB]; [left|now right]. apply length_zero_iff_nil. lia. }
  split.
  { intros r. apply (red_loop c c1 sx sw m W1 HSx S2 F LX Ew Ez EZl r A A1 A2). apply A3. }
  intros r HI a b. rewrite N2.
  pose proof (red_rel c c1 sx sw m W1 HSx S2 Wl F LX Ew Ez EZl r B M' a b) as RR.
  unfold inverse_at in HI. rewrite A1 in HI.
  etransitivity; [|apply RR].
  - reflexivity.
  - eapply is_inverse_ext; [| |exact HI]; [intros i j Hi Hj; apply A3; assumption|reflexivity].
  - intros i j Hi Hj. apply HV; assumption.
Qed.

Lemma lsum_rsum_nth (f : nat -> R) l : lsum (map f l) = rsum (length l) (fun k => f (nth k l 0)).
Proof.
  induction l as [|a l IH] using rev_ind; [reflexivity|].
  rewrite map_app, lsum_app, IH, app_length. cbn [length map lsum]. rewrite Nat.add_1_r. cbn [rsum].
  rewrite app_nth2, Nat.sub_diag by lia. cbn [nth]. unfold lsum at 1. cbn [fold_right].
  rewrite (rsum_ext _ (fun k => f (nth k (l ++ [a]) 0)) (fun k => f (nth k l 0))); [lra|].
  intros k Hk. now rewrite app_nth1.
Qed.

(** The power of the original variables is that of the kept ones, plus the
    power dissipated by the eliminated ones. *)
Lemma reduced_power c c' lin keep (f : nat -> R) : reduced c c' lin keep ->
  rsum (ntot c) f = (rsum (length lin) (fun p => f (diss_row c lin p)) +
                     rsum (ntot c') (fun k => f (nth k keep 0%nat)))%R.
Proof.
  intros (_ & _ & HP & HL & _).
  rewrite rsum_lsum, <- (lsum_perm _ _ (Permutation_map f HP)), map_app, lsum_app, !lsum_rsum_nth, HL.
  f_equal. rewrite map_length. apply rsum_ext. intros k Hk. unfold diss_row.
  now rewrite (nth_map_dep _ _ 0).
Qed.

Lemma reduce_z_passive inv c c' : wf c ->
  (nr (c_Zl c) = Z.to_nat (c_wl c) \/ is_zero (c_Zl c) = true) -> c_force_wnl c = [] ->
  reduce_z inv c = ok c' ->
  exists lin keep A B, reduced c c' lin keep /\ (lin = [] \/ inv A = Some B) /\
    nr A = length lin /\ nc A = length lin /\ (forall r, dissipation_loop r c lin A) /\
    forall r, inverse_at r A B -> passive (ntot c) (Mv r c) ->
      (forall v : rvec, (0 <= rsum (length lin) (fun p => v p * rsum (length lin) (fun q => slope r c lin p q * v q)))%R) ->
      passive (ntot c') (Mv r c').
Proof.
  intros W HZ HFo E. destruct (reduce_z_behaviour inv c c' W HZ HFo E)
    as (lin & keep & A & B & _ & _ & _ & HR & A1 & A2 & _ & _ & HI & HA & HB).
  exists lin, keep, A, B. repeat (split; [assumption|]).
  intros r HI' HP HS a.
  set (b := fun i => rsum (ntot c') (fun j => Mv r c' i j * a j)%R).
  destruct (proj1 (HB r HI' a b)) as (a0 & b0 & [H1 H2] & HK).
  { intros i Hi. reflexivity. }
  specialize (HP a0).
  rewrite (rsum_ext _ _ (fun i => a0 i * b0 i)%R) in HP.
  2:{ intros i Hi. now rewrite <- H1. }
  rewrite (reduced_power c c' lin keep _ HR) in HP.
  rewrite (rsum_ext (length lin) _ (fun p => (fun q => b0 (diss_row c lin q)) p *
     rsum (length lin) (fun q => slope r c lin p q * (fun q => b0 (diss_row c lin q)) q))%R) in HP.
  2:{ intros p Hp. cbn beta. rewrite H2 by exact Hp. ring. }
  specialize (HS (fun q => b0 (diss_row c lin q))). cbn beta in HS.
  rewrite (rsum_ext (ntot c') _ (fun i => a i * b i)%R) in HP.
  2:{ intros k Hk. destruct (HK k Hk) as [-> ->]. reflexivity. }
  unfold b in HP. cbn beta in HP. lra.
Qed.

Lemma reduce_z_total inv c : wf c ->
  (nr (c_Zl c) = Z.to_nat (c_wl c) \/ is_zero (c_Zl c) = true) -> c_force_wnl c = [] -> inv_shape inv ->
  (exists c', reduce_z inv c = ok c') \/
  (exists c1 sg lin A, reduce_z inv c = raise ValueError c1 /\ wf c1 /\ follows sg c c1 /\ same_context c c1 /\
     (forall j, In j lin <-> j < length (c_w c) /\ free_column (jacobian (c_z c) (c_w c)) (dx c ++ c_w c) j) /\
     nr A = length lin /\ nc A = length lin /\ (forall r, dissipation_loop r c lin A) /\ inv A = None).
Proof.
  intros W HZ0 HFo HS.
  destruct (linear_nonlinear_ok None c W HZ0)
    as (c1 & sx & sw & nxl & m & E1 & W1 & CO & S1 & S2 & X & Wl & F & SC & Ex & Ew & Ez &
        _ & _ & _ & _ & _ & EZl & _).
  { intros []. reflexivity. }
  cbn [split_crit fst snd] in S2.
  assert (FF : c_force_wnl c1 = []) by (destruct SC as (_ & _ & _ & _ & _ & _ & ->); exact HFo).
  rewrite (reduce_z_eq inv c c1 E1 FF).
  assert (HSx : Permutation sx (seq 0 (length (c_x c)))) by (destruct S1 as (? & ? & _ & _ & H & _); exact H).
  assert (LX : length (c_x c1) = length (c_x c)).
  { rewrite Ex. unfold in_order. rewrite map_length, (Permutation_length HSx). apply seq_length. }
  destruct (red_facts c c1 sx sw m W1 HSx S2 F LX) as (HPw & L & Hm & Ls & Lx & Hnt).
  assert (Em : Z.to_nat (c_wl c1) = m) by (rewrite Wl; apply Nat2Z.id).
  assert (LZ : nr (c_Zl c1) = m /\ nc (c_Zl c1) = m).
  { rewrite EZl. unfold jacobian. cbn [nr nc]. rewrite !firstn_length, Ew, Ez. unfold in_order.
    rewrite !map_length. lia. }
  destruct LZ as [Zr Zc].
  destruct (reduce_tail_ok inv c1 W1 CO) as (A & A1 & A2 & A3 & H); rewrite ?Em in *; try assumption.
  rewrite LX in *.
  destruct H as [[H HN]|(B & HB & [[H HN]|(M' & HM & B1 & B2 & M1 & M2 & HV)])].
  - right. rewrite H. exists c1, (block_order c sx sw), (firstn m sw), A.
    split; [reflexivity|]. split; [exact W1|]. split; [exact F|]. split; [exact SC|].
    split; [exact (proj2 (red_lin c c1 sx sw m W1 HSx S2 F LX))|].
    rewrite L. split; [exact A1|]. split; [exact A2|]. split; [|exact HN].
    intros r. apply (red_loop c c1 sx sw m W1 HSx S2 F LX Ew Ez EZl r A A1 A2). apply A3.
  - exfalso. destruct HB as [HB|HB].
    + apply HN. destruct HB as [_ ->]. split; assumption.
    + apply HN. destruct (HS A B) as [-> ->]; [lia|exact HB|]. split; assumption.
  - left. rewrite HM. eexists. reflexivity.
Qed.
