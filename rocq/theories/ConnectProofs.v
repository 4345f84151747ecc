(** Proofs about connectors. *)
From Coq Require Import String List ZArith QArith Qreals Reals Bool Lra Lia Permutation.
From Verif Require Import Py Lists Tools Spec_Tools ToolsProofs Expr ExprProofs RSum Mat MatProofs Core
  Spec_Core Spec_Connect Elim StructProofs BlockProofs OpsProofs.
Import ListNotations.
Local Open Scope nat_scope.
#[local] Arguments Nat.ltb : simpl never.
#[local] Arguments Nat.leb : simpl never.
#[local] Arguments Nat.eqb : simpl never.

(** ** Sums over a moved block *)
Lemma rsum_shift m i f (g : nat -> R) : i < m -> f < m ->
  rsum m (fun k => g (shift i f k)) = rsum m g.
Proof.
  intros Hi Hf. rewrite <- (rsum_perm m g (mv m i f)) by apply (mv_spec m i f Hi).
  apply rsum_ext. intros k Hk. now rewrite nth_mv.
Qed.

Lemma shift_surj m i f k : i < m -> f < m -> k < m -> exists k', k' < m /\ shift i f k' = k.
Proof.
  intros Hi Hf Hk.
  assert (Hin : In k (mv m i f)).
  { destruct (mv_spec m i f Hi) as [HP _]. eapply Permutation_in; [symmetry; exact HP|].
    apply in_seq. lia. }
  apply In_nth with (d := 0) in Hin. destruct Hin as (k' & Hk' & E).
  rewrite mv_length in Hk' by assumption. exists k'. split; [exact Hk'|].
  now rewrite nth_mv in E.
Qed.

Lemma moved_nth {A} i f (l l' : list A) d k : moved i f l l' -> i < length l -> f < length l ->
  k < length l -> nth k l' d = nth (shift i f k) l d.
Proof.
  intros [L H] Hi Hf Hk. specialize (H k).
  destruct (Nat.ltb_spec k (length l)); [|lia].
  rewrite !nth_default_eq || idtac.
  destruct (nth_error l (shift i f k)) eqn:E.
  - now rewrite (nth_error_nth _ _ d H), (nth_error_nth _ _ d E).
  - apply nth_error_None in E. pose proof (shift_lt (length l) i f k Hi Hf Hk). lia.
Qed.

Lemma split_rel_moved (M M' : rmat) n T T' i f :
  i < length T -> f < length T -> moved i f T T' ->
  (forall p q, p < n + length T -> q < n + length T ->
     M' p q = M (shift (n + i) (n + f) p) (shift (n + i) (n + f) q)) ->
  forall a b uv yv, split_rel M n T a b uv yv <-> split_rel M' n T' a b uv yv.
Proof.
  intros Hi Hf MT EM a b cuv cyv.
  assert (Lm : length T' = length T) by apply MT.
  unfold split_rel. rewrite Lm. set (m := length T) in *.
  assert (EY : forall k, k < m -> nth k T' ""%string = nth (shift i f k) T ""%string).
  { intros k Hk. now apply moved_nth. }
  assert (S1 : forall p, p < n + m ->
    rsum n (fun j => M' p j * a j)%R = rsum n (fun j => M (shift (n + i) (n + f) p) j * a j)%R).
  { intros p Hp. apply rsum_ext. intros j Hj. rewrite EM by lia.
    now rewrite (shift_below n i f j). }
  assert (S2 : forall p, p < n + m ->
    rsum m (fun k => M' p (n + k)%nat * cuv (nth k T' ""%string))%R
    = rsum m (fun k => M (shift (n + i) (n + f) p) (n + k)%nat * cuv (nth k T ""%string))%R).
  { intros p Hp.
    rewrite <- (rsum_shift m i f (fun k => M (shift (n + i) (n + f) p) (n + k)%nat * cuv (nth k T ""%string))%R) by assumption.
    apply rsum_ext. intros k Hk. rewrite EM by lia. rewrite shift_off, EY by exact Hk. reflexivity. }
  split; intros [H1 H2]; split.
  - intros p Hp. rewrite S1, S2 by lia. rewrite !shift_below by exact Hp. now apply H1.
  - intros k Hk. rewrite S1, S2 by lia. rewrite shift_off, EY by exact Hk.
    apply H2. now apply shift_lt.
  - intros p Hp. specialize (H1 p Hp). rewrite S1, S2 in H1 by lia.
    now rewrite !shift_below in H1 by exact Hp.
  - intros k Hk. destruct (shift_surj m i f k Hi Hf Hk) as (k' & Hk' & <-).
    specialize (H2 k' Hk'). rewrite S1, S2 in H2 by lia. now rewrite shift_off, EY in H2 by exact Hk'.
Qed.

Lemma ext_rel_move c c' i f : wf c -> i < length (c_cy c) -> f < length (c_cy c) ->
  move_connector (Z.of_nat i) (Z.of_nat f) c = ok c' ->
  forall r a b cuv cyv, ext_rel r c a b cuv cyv <-> ext_rel r c' a b cuv cyv.
Proof.
  intros W Hi Hf E r a b cuv cyv.
  destruct (move_connector_ok c i f W Hi Hf) as (cu' & cy' & M' & E' & _ & My & Hr & Hc & HE).
  rewrite E in E'. injection E' as ->. cbn zeta in HE.
  unfold ext_rel. apply (split_rel_moved _ _ _ _ _ i f Hi Hf); [exact My|].
  intros p q Hp Hq. apply (HE r p q); exact Hp || exact Hq.
Qed.

(** ** Sorting the connected ports *)
Lemma nth_error_ext {A} (l1 l2 : list A) : (forall k, nth_error l1 k = nth_error l2 k) -> l1 = l2.
Proof.
  revert l2; induction l1 as [|a l1 IH]; intros [|b l2] H.
  - reflexivity.
  - specialize (H 0). discriminate.
  - specialize (H 0). discriminate.
  - pose proof (H 0) as H0. injection H0 as ->. f_equal. apply IH. intros k. exact (H (S k)).
Qed.

Lemma moved_front {A} (p q s : list A) y l' :
  moved (length p + length q) (length p) (p ++ q ++ y :: s) l' -> l' = p ++ y :: q ++ s.
Proof.
  intros [L H]. apply nth_error_ext. intros k. rewrite H. clear H.
  rewrite !app_length; cbn [length].
  destruct (Nat.ltb_spec k (length p + (length q + S (length s)))) as [Hk|Hk].
  2:{ symmetry. apply nth_error_None. rewrite app_length; cbn. rewrite app_length. lia. }
  unfold shift.
  destruct (Nat.ltb_spec (length p + length q) (length p)); [lia|].
  destruct (Nat.ltb_spec k (length p)) as [K|K].
  { rewrite !nth_error_app1 by exact K. reflexivity. }
  rewrite (nth_error_app2 p (y :: q ++ s)) by exact K.
  destruct (Nat.eqb_spec k (length p)) as [->|Kn].
  { rewrite Nat.sub_diag. rewrite nth_error_app2 by lia.
    rewrite nth_error_app2 by lia. replace (length p + length q - length p - length q) with 0 by lia.
    reflexivity. }
  destruct (k - length p) as [|d] eqn:Ed; [lia|]. cbn [nth_error].
  destruct (Nat.leb_spec k (length p + length q)) as [K'|K'].
  - rewrite nth_error_app2 by lia. rewrite !nth_error_app1 by lia.
    f_equal. lia.
  - rewrite nth_error_app2 by lia. rewrite !nth_error_app2 by lia.
    replace (k - length p - length q) with (S (d - length q)) by lia. reflexivity.
Qed.

Lemma py_index_app (p s : list string) y : ~ In y p ->
  py_index String.eqb y (p ++ y :: s) = Ok (length p).
Proof.
  induction p as [|a p IH]; intros H; cbn.
  - now rewrite String.eqb_refl.
  - destruct (String.eqb_spec a y) as [->|]; [exfalso; apply H; now left|].
    rewrite IH by (intros Hin; apply H; now right). reflexivity.
Qed.

Definition ends (k : connector) : list string := [k_y0 k; k_y1 k].

(** What sorting keeps. *)
Definition only_conn (c c' : core) : Prop :=
  c' = set_M (c_M c') (set_cy (c_cy c') (set_cu (c_cu c') c)).

Lemma only_conn_refl c : only_conn c c.
Proof. unfold only_conn. destruct c; reflexivity. Qed.
Lemma only_conn_trans c1 c2 c3 : only_conn c1 c2 -> only_conn c2 c3 -> only_conn c1 c3.
Proof. unfold only_conn. intros H1 H2. rewrite H2. rewrite H1. reflexivity. Qed.

Lemma move_front_ok c p q s y : wf c -> c_cy c = p ++ q ++ y :: s ->
  exists c', move_connector (Z.of_nat (length p + length q)) (Z.of_nat (length p)) c = ok c' /\
    wf c' /\ only_conn c c' /\ c_cy c' = p ++ y :: q ++ s /\
    forall r a b cuv cyv, ext_rel r c a b cuv cyv <-> ext_rel r c' a b cuv cyv.
Proof.
  intros W E.
  assert (L : length (c_cy c) = length p + (length q + S (length s)))
    by (rewrite E, !app_length; reflexivity).
  destruct (move_connector_ok c (length p + length q) (length p) W)
    as (cu' & cy' & M' & E' & Mu & My & Hr & Hc & HE); try lia.
  exists (set_M M' (set_cy cy' (set_cu cu' c))). split; [exact E'|].
  split.
  { destruct W as ((Pw & Pu & Pc) & HD & Hr0 & Hc0).
    assert (Hn : ntot (set_M M' (set_cy cy' (set_cu cu' c))) = ntot c).
    { unfold ntot. cbn. destruct My as [-> _]. reflexivity. }
    split; [|split; [exact HD|split; [rewrite Hn; exact Hr|rewrite Hn; exact Hc]]].
    split; [exact Pw|]. split; [exact Pu|]. cbn. destruct My as [-> _]. destruct Mu as [-> _]. exact Pc. }
  split; [reflexivity|]. split.
  - cbn. apply moved_front. now rewrite E in My.
  - eapply ext_rel_move; try eassumption; lia.
Qed.

Lemma connect_sort_ok l : forall i c dn rest,
  wf c -> c_cy c = dn ++ rest -> length dn = 2 * i -> NoDup (dn ++ rest) ->
  Permutation rest (flat_map ends l) ->
  exists c', connect_sort l (Z.of_nat i) c = ok c' /\ wf c' /\ only_conn c c' /\
    c_cy c' = dn ++ flat_map ends l /\
    forall r a b cuv cyv, ext_rel r c a b cuv cyv <-> ext_rel r c' a b cuv cyv.
Proof.
  induction l as [|k l IH]; intros i c dn rest W E Ld ND HP; cbn [connect_sort flat_map] in *.
  - apply Permutation_sym, Permutation_nil in HP. subst rest.
    exists c. split; [reflexivity|]. split; [exact W|]. split; [apply only_conn_refl|].
    split; [exact E|]. reflexivity.
  - assert (I0 : In (k_y0 k) rest).
    { eapply Permutation_in; [symmetry; exact HP|]. now left. }
    apply in_split in I0. destruct I0 as (q & s & ->).
    assert (ND0 : NoDup (dn ++ k_y0 k :: q ++ s)).
    { eapply Permutation_NoDup; [|exact ND]. apply Permutation_app_head. symmetry. apply Permutation_middle. }
    assert (N0 : ~ In (k_y0 k) (dn ++ q)).
    { apply NoDup_remove_2 in ND0. intros Hin. apply ND0. rewrite app_assoc. apply in_or_app. now left. }
    rewrite E, app_assoc, py_index_app by exact N0. cbn [olift].
    destruct (move_front_ok c dn q s (k_y0 k) W E) as (c1 & E1 & W1 & O1 & Y1 & X1).
    rewrite app_length. replace (2 * Z.of_nat i)%Z with (Z.of_nat (length dn)) by lia.
    rewrite E1. cbn [obind ok].
    assert (HP1 : Permutation (q ++ s) (k_y1 k :: flat_map ends l)).
    { apply (Permutation_cons_inv (a := k_y0 k)).
      etransitivity; [apply Permutation_middle|]. exact HP. }
    assert (I1 : In (k_y1 k) (q ++ s)) by (eapply Permutation_in; [symmetry; exact HP1|]; now left).
    apply in_split in I1. destruct I1 as (q' & s' & Eqs). rewrite Eqs in *.
    assert (ND1 : NoDup ((dn ++ [k_y0 k]) ++ k_y1 k :: q' ++ s')).
    { rewrite <- app_assoc. cbn [app]. eapply Permutation_NoDup; [|exact ND0].
      apply Permutation_app_head. constructor. symmetry. apply Permutation_middle. }
    assert (N1 : ~ In (k_y1 k) ((dn ++ [k_y0 k]) ++ q')).
    { apply NoDup_remove_2 in ND1. intros Hin. apply ND1. rewrite app_assoc. apply in_or_app. now left. }
    assert (Y1' : c_cy c1 = (dn ++ [k_y0 k]) ++ q' ++ k_y1 k :: s')
      by (rewrite Y1, <- app_assoc; reflexivity).
    rewrite Y1', app_assoc, py_index_app by exact N1. cbn [olift].
    destruct (move_front_ok c1 (dn ++ [k_y0 k]) q' s' (k_y1 k) W1 Y1') as (c2 & E2 & W2 & O2 & Y2 & X2).
    rewrite !app_length in *. cbn [length] in *.
    replace (Z.of_nat (length dn) + 1)%Z with (Z.of_nat (length dn + 1)) by lia.
    rewrite E2. cbn [obind ok].
    replace (Z.of_nat i + 1)%Z with (Z.of_nat (S i)) by lia.
    destruct (IH (S i) c2 (dn ++ [k_y0 k; k_y1 k]) (q' ++ s')) as (c3 & E3 & W3 & O3 & Y3 & X3).
    + exact W2.
    + rewrite Y2, <- !app_assoc. reflexivity.
    + rewrite app_length; cbn. lia.
    + rewrite <- !app_assoc in *. exact ND1.
    + apply (Permutation_cons_inv (a := k_y1 k)).
      etransitivity; [apply Permutation_middle|]. exact HP1.
    + exists c3. split; [exact E3|]. split; [exact W3|].
      split; [eapply only_conn_trans; [exact O1|]; eapply only_conn_trans; eassumption|].
      split; [rewrite Y3, <- app_assoc; reflexivity|].
      intros. rewrite X1, X2. apply X3.
Qed.

(** ** The interconnection matrix *)
Lemma switch_shape l :
  nr (diagl (map (fun k => switch2 (k_alpha k)) l)) = 2 * length l /\
  nc (diagl (map (fun k => switch2 (k_alpha k)) l)) = 2 * length l.
Proof.
  induction l as [|k l [IH1 IH2]]; [now split|].
  cbn [map diagl fold_right diag2 nr nc length]. unfold diagl in IH1, IH2. rewrite IH1, IH2.
  cbn [switch2 mscal of_rows nr nc length]. split; lia.
Qed.

Lemma switch_mv r l : forall j k v, nth_error l j = Some k ->
  let S := ev r (diagl (map (fun k => switch2 (k_alpha k)) l)) in
  mv_ (2 * length l) S v (2 * j) = (- (eval r (k_alpha k) * v (2 * j + 1)%nat))%R /\
  mv_ (2 * length l) S v (2 * j + 1) = (eval r (k_alpha k) * v (2 * j)%nat)%R.
Proof.
  induction l as [|k0 l IH]; intros j k v H; [destruct j; discriminate|].
  assert (E : forall a b, ev r (diagl (map (fun k => switch2 (k_alpha k)) (k0 :: l))) a b =
     if (a <? 2) && (b <? 2) then ev r (switch2 (k_alpha k0)) a b
     else if (2 <=? a) && (2 <=? b)
          then ev r (diagl (map (fun k => switch2 (k_alpha k)) l)) (a - 2) (b - 2) else 0%R).
  { intros a b. unfold ev. cbn [map diagl fold_right diag2 ent switch2 mscal of_rows nr nc length].
    destruct ((a <? 2) && (b <? 2)); [reflexivity|].
    destruct ((2 <=? a) && (2 <=? b)); [reflexivity|]. apply Q2R_0. }
  cbn zeta. cbn [length]. replace (2 * S (length l)) with (2 + 2 * length l) by lia.
  destruct j as [|j].
  - cbn [nth_error] in H. injection H as ->.
    assert (Z0 : forall p, p < 2 -> rsum (2 * length l)
       (fun q => ev r (diagl (map (fun k => switch2 (k_alpha k)) (k :: l))) p (2 + q)%nat * v (2 + q)%nat)%R = 0%R).
    { intros p Hp. apply rsum_zero. intros q _. rewrite E.
      destruct (Nat.ltb_spec p 2), (Nat.ltb_spec (2 + q) 2); try lia. cbn [andb].
      destruct (Nat.leb_spec 2 p); try lia. cbn [andb]. lra. }
    split; unfold mv_; rewrite rsum_app, Z0 by lia; cbn [rsum];
      rewrite !E; unfold ev; cbn - [Q2R smul]; rewrite !eval_smul; cbn - [Q2R];
      change (inject_Z 0) with 0%Q; change (inject_Z 1) with 1%Q; change (inject_Z (-1)) with (-1)%Q;
      rewrite ?Q2R_0, ?Q2R_1, ?Q2R_m1;
      change (0 <? 2) with true; change (1 <? 2) with true; cbn [andb]; ring.
  - cbn [nth_error] in H. destruct (IH j k (fun q => v (2 + q)) H) as [I1 I2].
    assert (Z1 : forall p, 2 <= p -> mv_ (2 + 2 * length l)
        (ev r (diagl (map (fun k => switch2 (k_alpha k)) (k0 :: l)))) v p
      = mv_ (2 * length l) (ev r (diagl (map (fun k => switch2 (k_alpha k)) l))) (fun q => v (2 + q)) (p - 2)).
    { intros p Hp. unfold mv_. rewrite rsum_app. cbn [rsum]. rewrite !E.
      destruct (Nat.ltb_spec p 2); [lia|]. cbn [andb].
      destruct (Nat.leb_spec 2 p); [|lia].
      destruct (Nat.leb_spec 2 0); [lia|]. destruct (Nat.leb_spec 2 1); [lia|]. cbn [andb].
      rewrite (rsum_ext _ _ (fun k => ev r (diagl (map (fun k => switch2 (k_alpha k)) l)) (p - 2)%nat k * v (2 + k)%nat)%R).
      - lra.
      - intros q _. rewrite E. destruct (Nat.ltb_spec p 2); [lia|]. cbn [andb].
        destruct (Nat.leb_spec 2 p); [|lia]. destruct (Nat.leb_spec 2 (2 + q)); [|lia]. cbn [andb].
        replace (2 + q - 2) with q by lia. reflexivity. }
    rewrite !Z1 by lia.
    replace (2 * S j - 2) with (2 * j) by lia. replace (2 * S j + 1 - 2) with (2 * j + 1) by lia.
    rewrite I1, I2. replace (2 * S j) with (2 + 2 * j) by lia.
    replace (2 + 2 * j + 1) with (2 + (2 * j + 1)) by lia. split; reflexivity.
Qed.

Lemma is_inverse_ext m A A' B B' :
  (forall i j, i < m -> j < m -> A i j = A' i j) ->
  (forall i j, i < m -> j < m -> B i j = B' i j) ->
  is_inverse m A B -> is_inverse m A' B'.
Proof.
  intros HA HB [H1 H2]. split; intros i j Hi Hj.
  - rewrite <- H1 by assumption. apply rsum_ext. intros k Hk. now rewrite HA, HB.
  - rewrite <- H2 by assumption. apply rsum_ext. intros k Hk. now rewrite HA, HB.
Qed.

Lemma inds_cy c : inds c Bcy = (Z.of_nat (nint c), Z.of_nat (nint c + length (c_cy c))).
Proof.
  unfold inds; cbn [inds_in blk_eqb dim_blk].
  unfold dim_xl, dim_xnl, dim_wl, dim_wnl, dim_x, dim_w, dim_y, dim_cy, nint. apply f_equal2; lia.
Qed.

Lemma ends_length l : length (flat_map ends l) = 2 * length l.
Proof. induction l as [|k l IH]; cbn; [reflexivity|]. rewrite IH. lia. Qed.

Lemma nth_ends l : forall j k, nth_error l j = Some k ->
  nth (2 * j) (flat_map ends l) ""%string = k_y0 k /\
  nth (2 * j + 1) (flat_map ends l) ""%string = k_y1 k.
Proof.
  induction l as [|k0 l IH]; intros [|j] k H; try discriminate.
  - injection H as ->. now split.
  - destruct (IH j k H) as [H1 H2].
    replace (2 * S j) with (S (S (2 * j))) by lia.
    replace (S (S (2 * j)) + 1) with (S (S (2 * j + 1))) by lia. now split.
Qed.

Lemma connect_N_ok c : wf c -> c_cy c = flat_map ends (c_connectors c) ->
  let n := nint c in let m := length (c_cy c) in
  let Sw := diagl (map (fun k => switch2 (k_alpha k)) (c_connectors c)) in
  exists N, (do Mcc <- get_block PM Bcy Bcy c; do P <- mmul Mcc Sw; msub (eye m) P) = Ok N /\
    nr N = m /\ nc N = m /\
    forall r i j, ev r N i j =
      (idm i j - mm m (fun k l => Mv r c (n + k)%nat (n + l)%nat) (ev r Sw) i j)%R.
Proof.
  intros W Ecy n m Sw.
  assert (Hm : m = 2 * length (c_connectors c)) by (unfold m; rewrite Ecy; apply ends_length).
  destruct (switch_shape (c_connectors c)) as [Sr Sc]. fold Sw in Sr, Sc.
  destruct W as (P & HD & Hr & Hc).
  assert (Hnt : ntot c = n + m) by reflexivity.
  unfold get_block. rewrite inds_cy. cbn [part_of rbind].
  destruct (mslice_nat (c_M c) n (n + m) n (n + m)) as (Br & Bc & BE); try lia.
  change (nint c) with n. change (length (c_cy c)) with m.
  set (Mcc := mslice (c_M c) (Z.of_nat n) (Z.of_nat (n + m)) (Z.of_nat n) (Z.of_nat (n + m))) in *.
  destruct (mmul_ok Mcc Sw) as (Q & EQ & Qr & Qc & QE); [lia|]. rewrite EQ. cbn [rbind].
  destruct (msub_ok (eye m) Q) as (N & EN & Nr & Nc & NE); [cbn; lia|cbn; lia|].
  exists N. split; [exact EN|]. split; [exact Nr|]. split; [exact Nc|].
  intros r i j. rewrite NE, ev_eye, QE. f_equal. replace (nc Mcc) with m by lia.
  apply rsum_ext. intros k Hk. f_equal. unfold ev, Mv. rewrite BE. reflexivity.
Qed.

Lemma connect_eq inv c : connect inv c =
  obind (connect_sort (c_connectors c) 0 c) (fun c =>
  let Sw := diagl (map (fun k => switch2 (k_alpha k)) (c_connectors c)) in
  let n := (dim_x c + dim_w c + dim_y c)%Z in
  olift (do Mcc <- get_block PM Bcy Bcy c; do P <- mmul Mcc Sw; msub (eye (length (c_cy c))) P) c
  (fun N =>
  match (do iN <- inverse inv N;
         do A <- mmul (mslice (c_M c) 0 n n (Z.of_nat (nc (c_M c)))) Sw;
         do B <- mmul A iN;
         do C <- mmul B (mslice (c_M c) n (Z.of_nat (nr (c_M c))) 0 n);
         madd (mslice (c_M c) 0 n 0 n) C) with
  | Ok M' => ok (set_connectors [] (set_cu [] (set_cy [] (set_M M' c))))
  | Err ValueError => raise GenericException c
  | Err e => raise e c
  end)).
Proof. reflexivity. Qed.

Lemma connect_M'_ok c N iN : wf c -> c_cy c = flat_map ends (c_connectors c) ->
  let n := nint c in let m := length (c_cy c) in
  let Sw := diagl (map (fun k => switch2 (k_alpha k)) (c_connectors c)) in
  let nz := (dim_x c + dim_w c + dim_y c)%Z in
  nr N = m -> nc N = m -> nr iN = m -> nc iN = m ->
  exists M', (do A <- mmul (mslice (c_M c) 0 nz nz (Z.of_nat (nc (c_M c)))) Sw;
         do B <- mmul A iN;
         do C <- mmul B (mslice (c_M c) nz (Z.of_nat (nr (c_M c))) 0 nz);
         madd (mslice (c_M c) 0 nz 0 nz) C) = Ok M' /\ nr M' = n /\ nc M' = n /\
    forall r i j, ev r M' i j =
      elim_mat m (Mv r c) (fun i k => Mv r c i (n + k)%nat) (fun k j => Mv r c (n + k)%nat j)
        (ev r Sw) (ev r iN) i j.
Proof.
  intros W Ecy n m Sw nz HN1 HN2 H1 H2.
  assert (Hm : m = 2 * length (c_connectors c)) by (unfold m; rewrite Ecy; apply ends_length).
  destruct (switch_shape (c_connectors c)) as [Sr Sc]. fold Sw in Sr, Sc.
  destruct W as (P & HD & Hr & Hc).
  assert (Hnt : ntot c = n + m) by reflexivity.
  assert (Ez : nz = Z.of_nat n) by (unfold nz, dim_x, dim_w, dim_y, n, nint; lia).
  rewrite Ez. change 0%Z with (Z.of_nat 0).
  destruct (mslice_nat (c_M c) 0 n n (nc (c_M c))) as (Gr & Gc & GE); try lia.
  destruct (mslice_nat (c_M c) n (nr (c_M c)) 0 n) as (Or & Oc & OE); try lia.
  destruct (mslice_nat (c_M c) 0 n 0 n) as (Ar & Ac & AE); try lia.
  set (G := mslice (c_M c) (Z.of_nat 0) (Z.of_nat n) (Z.of_nat n) (Z.of_nat (nc (c_M c)))) in *.
  set (O := mslice (c_M c) (Z.of_nat n) (Z.of_nat (nr (c_M c))) (Z.of_nat 0) (Z.of_nat n)) in *.
  set (A := mslice (c_M c) (Z.of_nat 0) (Z.of_nat n) (Z.of_nat 0) (Z.of_nat n)) in *.
  destruct (mmul_ok G Sw) as (X1 & E1 & R1 & C1 & V1); [lia|]. rewrite E1. cbn [rbind].
  destruct (mmul_ok X1 iN) as (X2 & E2 & R2 & C2 & V2); [lia|]. rewrite E2. cbn [rbind].
  destruct (mmul_ok X2 O) as (X3 & E3 & R3 & C3 & V3); [lia|]. rewrite E3. cbn [rbind].
  destruct (madd_ok A X3) as (X4 & E4 & R4 & C4 & V4); [lia|lia|].
  exists X4. split; [exact E4|]. split; [lia|]. split; [lia|].
  intros r i j. rewrite V4, V3. unfold elim_mat. f_equal.
  { unfold ev, Mv. now rewrite AE. }
  replace (nc X2) with m by lia. apply rsum_ext. intros k Hk. f_equal.
  2:{ unfold ev, Mv. now rewrite OE. }
  rewrite V2. replace (nc X1) with m by lia. apply rsum_ext. intros l Hl. f_equal.
  rewrite V1. replace (nc G) with m by lia. apply rsum_ext. intros p Hp. f_equal.
  unfold ev, Mv. now rewrite GE.
Qed.

Lemma inverse_shape inv N X : inv_shape inv -> nr N = nc N -> inverse inv N = Ok X ->
  nr X = nr N /\ nc X = nc N.
Proof.
  intros HI Hsq H. unfold inverse in H.
  destruct (Nat.eqb_spec (nr N) 0), (Nat.eqb_spec (nc N) 0); cbn [andb] in H; try lia.
  - injection H as <-. now split.
  - destruct (inv N) eqn:E; [|discriminate]. injection H as <-. apply (HI N m Hsq E).
Qed.

Lemma inverse_at_sound inv r c A B : inv_sound inv r -> loop_inverse inv c A B -> inverse_at r A B.
Proof.
  intros HI (H1 & H2 & H3 & H4 & [E|E] & _); unfold inverse_at.
  - rewrite H1, E. split; intros i j Hi; cbn in Hi; lia.
  - apply (HI A B); [congruence|exact E].
Qed.

Lemma inverse_result inv N : inverse inv N = Err ValueError /\ inv N = None \/ exists X, inverse inv N = Ok X.
Proof.
  unfold inverse. destruct (_ && _); [right; eauto|]. destruct (inv N); [right; eauto|now left].
Qed.

Lemma sort_ready c : conn_ok c -> wf c ->
  exists c', connect_sort (c_connectors c) 0 c = ok c' /\ wf c' /\ only_conn c c' /\
    c_cy c' = flat_map ends (c_connectors c) /\
    forall r a b cuv cyv, ext_rel r c a b cuv cyv <-> ext_rel r c' a b cuv cyv.
Proof.
  intros [ND HP] W.
  destruct (connect_sort_ok (c_connectors c) 0 c [] (c_cy c) W) as (c' & H); auto.
  exists c'. exact H.
Qed.

Lemma connect_total inv c : wf c -> conn_ok c -> inv_shape inv ->
  (exists M', connect inv c = ok (set_connectors [] (set_cu [] (set_cy [] (set_M M' c)))) /\
     nr M' = nint c /\ nc M' = nint c) \/
  (exists c1 A, connect inv c = raise GenericException c1 /\
     nr A = length (c_cy c) /\ nc A = length (c_cy c) /\ inv A = None /\
     wf c1 /\ c1 = set_M (c_M c1) (set_cy (c_cy c1) (set_cu (c_cu c1) c)) /\
     forall r a b cuv cyv, ext_rel r c a b cuv cyv <-> ext_rel r c1 a b cuv cyv).
Proof.
  intros W HC HI. destruct (sort_ready c HC W) as (c1 & E1 & W1 & O1 & Y1 & X1).
  assert (K1 : c_connectors c1 = c_connectors c) by (rewrite O1; reflexivity).
  rewrite connect_eq, E1. cbn [obind ok].
  destruct (connect_N_ok c1 W1) as (N & EN & Nr & Nc & NE); [now rewrite K1|].
  cbn zeta. cbn zeta in EN. rewrite EN. cbn [olift].
  assert (Lm : length (c_cy c1) = length (c_cy c)).
  { rewrite Y1. destruct HC as [_ HP]. apply Permutation_length in HP. symmetry. exact HP. }
  destruct (inverse_result inv N) as [[EI EI']|[X EI]]; rewrite EI; cbn [rbind].
  - right. exists c1, N. split; [reflexivity|]. split; [lia|]. split; [lia|].
    split; [exact EI'|]. split; [exact W1|]. split; [exact O1|exact X1].
  - left. destruct (inverse_shape inv N X HI) as [Xr Xc]; [lia|exact EI|].
    destruct (connect_M'_ok c1 N X W1) as (M' & EM & Mr & Mc & ME); try lia; [now rewrite K1|].
    cbn zeta in EM. rewrite EM. exists M'.
    rewrite O1. cbn. split; [reflexivity|].
    assert (nint c1 = nint c) by (rewrite O1; reflexivity). lia.
Qed.

Lemma connect_shape c N X M' : wf c -> c_cy c = flat_map ends (c_connectors c) ->
  let m := length (c_cy c) in
  let Sw := diagl (map (fun k => switch2 (k_alpha k)) (c_connectors c)) in
  let nz := (dim_x c + dim_w c + dim_y c)%Z in
  (do A <- mmul (mslice (c_M c) 0 nz nz (Z.of_nat (nc (c_M c)))) Sw;
   do B <- mmul A X;
   do C <- mmul B (mslice (c_M c) nz (Z.of_nat (nr (c_M c))) 0 nz);
   madd (mslice (c_M c) 0 nz 0 nz) C) = Ok M' -> nr N = m -> nr X = m /\ nc X = m.
Proof.
  intros W Ecy m Sw nz H _.
  assert (Hm : m = 2 * length (c_connectors c)) by (unfold m; rewrite Ecy; apply ends_length).
  destruct (switch_shape (c_connectors c)) as [Sr Sc]. fold Sw in Sr, Sc.
  destruct W as (P & HD & Hr & Hc).
  assert (Hnt : ntot c = nint c + m) by reflexivity.
  assert (Ez : nz = Z.of_nat (nint c)) by (unfold nz, dim_x, dim_w, dim_y, nint; lia).
  rewrite Ez in H. change 0%Z with (Z.of_nat 0) in H.
  destruct (mslice_nat (c_M c) (nint c) (nr (c_M c)) 0 (nint c)) as (Or & Oc & OE); try lia.
  destruct (mmul _ Sw) as [X1|] eqn:E1 in H; cbn [rbind] in H; [|discriminate].
  destruct (mmul X1 X) as [X2|] eqn:E2 in H; cbn [rbind] in H; [|discriminate].
  destruct (mmul X2 _) as [X3|] eqn:E3 in H; cbn [rbind] in H; [|discriminate].
  apply mmul_inv in E1. apply mmul_inv in E2. apply mmul_inv in E3.
  destruct E1 as (_ & _ & C1 & _). destruct E2 as (C2 & _ & C3 & _). destruct E3 as (C4 & _).
  rewrite Or in C4. split; lia.
Qed.

Lemma connect_behaviour inv c c' : wf c -> conn_ok c -> connect inv c = ok c' ->
  exists A B, loop_inverse inv c A B /\
  forall r, inverse_at r A B -> forall a b,
    b_eq_M_a (ntot c') (Mv r c') a b <->
    exists cuv cyv, ext_rel r c a b cuv cyv /\
      forall k, In k (c_connectors c) -> transformer r k cuv cyv.
Proof.
  intros W HC EC. destruct (sort_ready c HC W) as (c1 & E1 & W1 & O1 & Y1 & X1).
  assert (K1 : c_connectors c1 = c_connectors c) by (rewrite O1; reflexivity).
  rewrite connect_eq, E1 in EC. cbn [obind ok] in EC.
  destruct (connect_N_ok c1 W1) as (N & EN & Nr & Nc & NE); [now rewrite K1|].
  cbn zeta in EC. cbn zeta in EN. rewrite EN in EC. cbn [olift] in EC.
  destruct (inverse_result inv N) as [[EI EI']|[X EI]]; rewrite EI in EC; cbn [rbind] in EC;
    [discriminate|].
  match type of EC with match ?e with _ => _ end = _ => destruct e as [M0|[]] eqn:EM0; try discriminate end.
  destruct (connect_shape c1 N X M0 W1) as [Xr Xc]; [now rewrite K1|exact EM0|exact Nr|].
  destruct (connect_M'_ok c1 N X W1) as (M' & EM & Mr & Mc & ME); try lia; [now rewrite K1|].
  cbn zeta in EM. rewrite EM in EM0. injection EM0 as <-. injection EC as <-.
  assert (Lm : length (c_cy c1) = length (c_cy c)).
  { rewrite Y1. destruct HC as [_ HP]. apply Permutation_length in HP. symmetry. exact HP. }
  set (Sw := diagl (map (fun k => switch2 (k_alpha k)) (c_connectors c1))) in *.
  assert (Hm : length (c_cy c1) = 2 * length (c_connectors c1)) by (rewrite Y1, K1; apply ends_length).
  assert (TR : forall r (cu cy : rvec), (forall k, k < length (c_cy c1) -> cu k = mv_ (length (c_cy c1)) (ev r Sw) cy k) <->
     forall j k, nth_error (c_connectors c1) j = Some k ->
       cu (2 * j) = (- (eval r (k_alpha k) * cy (2 * j + 1)%nat))%R /\
       cu (2 * j + 1) = (eval r (k_alpha k) * cy (2 * j)%nat)%R).
  { intros r cu cy. split.
    - intros H j k Hj. destruct (switch_mv r _ j k cy Hj) as [S1 S2]. fold Sw in S1, S2.
      rewrite <- Hm in S1, S2.
      assert (j < length (c_connectors c1)) by (apply nth_error_Some; congruence).
      rewrite !H by lia. split; assumption.
    - intros H k Hk.
      assert (Hj : Nat.div2 k < length (c_connectors c1)).
      { pose proof (Nat.div2_odd k). destruct (Nat.odd k); cbn in *; lia. }
      apply nth_error_Some in Hj. destruct (nth_error (c_connectors c1) (Nat.div2 k)) as [kk|] eqn:Ek; [|tauto].
      destruct (H _ _ Ek) as [H1 H2]. destruct (switch_mv r _ _ kk cy Ek) as [S1 S2]. fold Sw in S1, S2.
      rewrite <- Hm in S1, S2.
      pose proof (Nat.div2_odd k) as Ho. destruct (Nat.odd k); cbn [Nat.b2n] in Ho.
      + rewrite Ho, S2, H2. reflexivity.
      + rewrite Nat.add_0_r in Ho. rewrite Ho, S1, H1. reflexivity. }
  assert (YT : forall r (cuv cyv : string -> R),
     (forall k, In k (c_connectors c) -> transformer r k cuv cyv) <->
     forall k, k < length (c_cy c1) -> cuv (nth k (c_cy c1) ""%string) =
       mv_ (length (c_cy c1)) (ev r Sw) (fun l => cyv (nth l (c_cy c1) ""%string)) k).
  { intros r cuv cyv. rewrite (TR r (fun k => cuv (nth k (c_cy c1) ""%string)) (fun l => cyv (nth l (c_cy c1) ""%string))).
    rewrite Y1, K1. split.
    - intros H j k Hj. destruct (nth_ends _ j k Hj) as [-> ->]. apply H. eapply nth_error_In; exact Hj.
    - intros H k Hk. apply In_nth_error in Hk. destruct Hk as [j Hj].
      specialize (H j k Hj). destruct (nth_ends _ j k Hj) as [E0 E2]. rewrite E0, E2 in H. exact H. }
  clear TR.
  exists N, X. split.
  { split; [lia|]. split; [lia|]. split; [lia|]. split; [lia|]. split.
    - unfold inverse in EI. destruct (Nat.eqb_spec (nr N) 0) as [Z0|Z0]; cbn [andb] in EI.
      + left. apply length_zero_iff_nil. lia.
      + right. destruct (inv N) as [B|] eqn:EB; [|discriminate]. congruence.
    - exists (c_cy c1). split.
      { destruct HC as [_ HP]. rewrite Y1. symmetry. exact HP. }
      intros r cuv cyv HT0 k i Hk Hi. pose proof (proj1 (YT r cuv cyv) HT0) as HT.
      set (m := length (c_cy c1)) in *. set (n := nint c1) in *.
      assert (En : nint c = n) by (unfold n; rewrite O1; reflexivity).
      (* the response of both cores to the inputs [cuv] *)
      assert (RX : ext_rel r c (fun _ => 0%R)
        (fun i => rsum (length (c_cy c1)) (fun l => Mv r c1 i (n + l)%nat * cuv (nth l (c_cy c1) ""%string))%R)
        cuv (fun s => rsum (length (c_cy c1)) (fun l => Mv r c1 (n + match py_index String.eqb s (c_cy c1) with Ok q => q | Err _ => 0%nat end)%nat (n + l)%nat * cuv (nth l (c_cy c1) ""%string))%R)).
      { apply X1. split.
        - intros i0 Hi0. fold n. rewrite (rsum_ext n _ (fun _ => 0%R)) by (intros; ring).
          rewrite rsum_0. lra.
        - intros k0 Hk0. fold n. rewrite (rsum_ext n _ (fun _ => 0%R)) by (intros; ring).
          rewrite rsum_0. rewrite Rplus_0_l.
          assert (IX : py_index String.eqb (nth k0 (c_cy c1) ""%string) (c_cy c1) = Ok k0).
          { destruct (nth_split (c_cy c1) ""%string Hk0) as (p & q & Ep & Lp).
            set (s := nth k0 (c_cy c1) ""%string) in *. rewrite Ep.
            rewrite py_index_app; [now rewrite Lp|].
            assert (NDs : NoDup (c_cy c1)).
            { destruct HC as [ND HP]. rewrite Y1. eapply Permutation_NoDup; [exact HP|exact ND]. }
            rewrite Ep in NDs. apply NoDup_remove_2 in NDs.
            intros Hin. apply NDs, in_or_app. now left. }
          rewrite IX. reflexivity. }
      destruct RX as [_ RX].
      assert (Hi' : i < length (c_cy c)) by (apply nth_error_Some; congruence).
      specialize (RX i Hi'). rewrite (nth_error_nth _ _ ""%string Hi) in RX.
      rewrite (rsum_ext (nint c) _ (fun _ => 0%R)) in RX by (intros; ring).
      rewrite rsum_0, Rplus_0_l in RX. rewrite <- RX. clear RX.
      assert (IX : py_index String.eqb (nth k (c_cy c1) ""%string) (c_cy c1) = Ok k).
      { destruct (nth_split (c_cy c1) ""%string Hk) as (p & q & Ep & Lp).
        set (s := nth k (c_cy c1) ""%string) in *. rewrite Ep.
        rewrite py_index_app; [now rewrite Lp|].
        assert (NDs : NoDup (c_cy c1)).
        { destruct HC as [ND HP]. rewrite Y1. eapply Permutation_NoDup; [exact HP|exact ND]. }
        rewrite Ep in NDs. apply NoDup_remove_2 in NDs.
        intros Hin. apply NDs, in_or_app. now left. }
      rewrite IX. fold m.
      rewrite (rsum_ext m _ (fun l => (idm k l - mm m (fun k l => Mv r c1 (n + k)%nat (n + l)%nat) (ev r Sw) k l) *
         cyv (nth l (c_cy c1) ""%string))%R).
      2:{ intros l Hl. f_equal. apply (NE r). }
      change (mv_ m (fun k l => idm k l - mm m (fun k l => Mv r c1 (n + k)%nat (n + l)%nat) (ev r Sw) k l)%R
        (fun l => cyv (nth l (c_cy c1) ""%string)) k =
        cyv (nth k (c_cy c1) ""%string) -
        rsum m (fun l => Mv r c1 (n + k)%nat (n + l)%nat * cuv (nth l (c_cy c1) ""%string)))%R.
      rewrite mv_msub, mv_id, mv_mm by exact Hk. f_equal. f_equal.
      apply rsum_ext. intros l Hl. f_equal. symmetry. now apply HT. }
  intros r XI a b. unfold inverse_at in XI.
  set (c' := set_connectors [] (set_cu [] (set_cy [] (set_M M' c1)))).
  assert (Hn : nint c1 = nint c) by (rewrite O1; reflexivity).
  assert (Hn' : ntot c' = nint c1) by (unfold ntot, nint, c'; cbn; lia).
  set (n := nint c1) in *. set (m := length (c_cy c1)) in *.
  assert (NDs : NoDup (c_cy c1)).
  { destruct HC as [ND HP]. rewrite Y1. eapply Permutation_NoDup; [exact HP|exact ND]. }
  assert (EL := elim_iff n m (Mv r c1) (fun i k => Mv r c1 i (n + k)) (fun k j => Mv r c1 (n + k) j)
     (fun k l => Mv r c1 (n + k) (n + l)) (ev r Sw) (ev r X)).
  cbn zeta in EL. specialize (EL ltac:(eapply is_inverse_ext; [| |rewrite <- Nr; exact XI];
     intros; [rewrite <- NE|]; reflexivity) a b).
  unfold b_eq_M_a. rewrite Hn'.
  transitivity (forall i, i < n -> b i = mv_ n
    (elim_mat m (Mv r c1) (fun i k => Mv r c1 i (n + k)) (fun k j => Mv r c1 (n + k) j) (ev r Sw) (ev r X)) a i).
  { split; intros H i Hi; rewrite H by exact Hi; apply rsum_ext; intros j Hj; f_equal;
      unfold Mv at 1; cbn [c_M set_connectors set_cu set_cy set_M c']; [|symmetry]; apply ME. }
  rewrite EL. clear EL EM ME EN NE. specialize (YT r).
  split.
  - intros (cu & cy & H1 & H2 & H3).
    set (ix := fun s => match py_index String.eqb s (c_cy c1) with Ok k => k | Err _ => 0 end).
    assert (IX : forall k, k < m -> ix (nth k (c_cy c1) ""%string) = k).
    { intros k Hk. unfold ix.
      destruct (nth_split (c_cy c1) ""%string Hk) as (p & q & Ep & Lp).
      set (s := nth k (c_cy c1) ""%string) in *. rewrite Ep.
      rewrite py_index_app; [exact Lp|]. rewrite Ep in NDs. apply NoDup_remove_2 in NDs.
      intros Hin. apply NDs, in_or_app. now left. }
    exists (fun s => cu (ix s)), (fun s => cy (ix s)). split.
    + apply X1. split.
      * intros i Hi. fold n in Hi |- *. fold m. rewrite H1 by exact Hi. f_equal. apply rsum_ext.
        intros k Hk. now rewrite IX.
      * fold n m. intros k Hk. rewrite IX by exact Hk. rewrite H2 by exact Hk. f_equal.
        apply rsum_ext. intros l Hl. now rewrite IX.
    + apply YT. intros k Hk. rewrite IX by exact Hk. rewrite H3 by exact Hk.
      apply mv_ext; [reflexivity|]. intros l Hl. now rewrite IX.
  - intros (cuv & cyv & H1 & H2). apply X1 in H1. destruct H1 as [H1 H1']. fold n m in H1, H1'.
    exists (fun k => cuv (nth k (c_cy c1) ""%string)), (fun l => cyv (nth l (c_cy c1) ""%string)).
    split; [exact H1|]. split; [exact H1'|]. now apply YT.
Qed.

(** ** Power through the connectors *)
Definition quad (n : nat) (M : rmat) (a : rvec) : R :=
  rsum n (fun i => a i * rsum n (fun j => M i j * a j))%R.

Lemma connectors_power r l cuv cyv :
  (forall k, In k l -> transformer r k cuv cyv) ->
  rsum (length (flat_map ends l))
    (fun k => cuv (nth k (flat_map ends l) ""%string) * cyv (nth k (flat_map ends l) ""%string))%R = 0%R.
Proof.
  induction l as [|k l IH]; intros H; [reflexivity|].
  cbn [flat_map]. rewrite app_length. change (length (ends k)) with 2. rewrite rsum_app.
  rewrite (rsum_ext (length (flat_map ends l)) _ (fun q => cuv (nth q (flat_map ends l) ""%string) * cyv (nth q (flat_map ends l) ""%string))%R)
    by reflexivity.
  rewrite IH by (intros k' Hk'; apply H; now right).
  destruct (H k (or_introl eq_refl)) as [T0 T1]. cbn [rsum nth app ends].
  rewrite T0, T1. ring.
Qed.

Lemma ext_power r c a b cuv cyv : ext_rel r c a b cuv cyv ->
  let ae := fun i => if i <? nint c then a i else cuv (nth (i - nint c) (c_cy c) ""%string) in
  quad (ntot c) (Mv r c) ae =
    (rsum (nint c) (fun i => a i * b i) +
     rsum (length (c_cy c)) (fun k => cuv (nth k (c_cy c) ""%string) * cyv (nth k (c_cy c) ""%string)))%R.
Proof.
  intros H. unfold ext_rel in H. destruct H as [H1 H2]. intros ae. unfold quad. change (ntot c) with (nint c + length (c_cy c)).
  set (n := nint c) in *. set (m := length (c_cy c)) in *.
  assert (A1 : forall i, i < n -> ae i = a i).
  { intros i Hi. unfold ae. destruct (Nat.ltb_spec i n); [reflexivity|lia]. }
  assert (A2 : forall k, ae (n + k) = cuv (nth k (c_cy c) ""%string)).
  { intros k. unfold ae. destruct (Nat.ltb_spec (n + k) n); [lia|]. now replace (n + k - n) with k by lia. }
  assert (S : forall i, rsum (n + m) (fun j => Mv r c i j * ae j)%R =
     (rsum n (fun j => Mv r c i j * a j) + rsum m (fun k => Mv r c i (n + k)%nat * cuv (nth k (c_cy c) ""%string)))%R).
  { intros i. rewrite rsum_app. f_equal; apply rsum_ext; intros k Hk; [now rewrite A1|now rewrite A2]. }
  rewrite rsum_app. f_equal; apply rsum_ext; intros k Hk.
  - rewrite A1, S, <- H1 by exact Hk. reflexivity.
  - rewrite A2, S, <- H2 by exact Hk. reflexivity.
Qed.

Lemma power_perm l l' (f : string -> R) : Permutation l l' ->
  rsum (length l) (fun k => f (nth k l ""%string)) = rsum (length l') (fun k => f (nth k l' ""%string)).
Proof.
  assert (G : forall l : list string, rsum (length l) (fun k => f (nth k l ""%string)) = lsum (map f l)).
  { clear. intros l. rewrite rsum_lsum. f_equal. induction l as [|a l IH]; [reflexivity|].
    cbn. f_equal. rewrite <- seq_shift, map_map. exact IH. }
  intros H. rewrite !G. now apply lsum_perm, Permutation_map.
Qed.

Lemma connect_power inv c c' : wf c -> conn_ok c -> connect inv c = ok c' ->
  exists A B, loop_inverse inv c A B /\ forall r, inverse_at r A B -> forall a, exists ae,
    quad (ntot c') (Mv r c') a = quad (ntot c) (Mv r c) ae.
Proof.
  intros W HC EC.
  destruct (connect_behaviour inv c c' W HC EC) as (A & B & LI & HB).
  exists A, B. split; [exact LI|]. intros r HI a.
  destruct (proj1 (HB r HI a
     (fun i => rsum (ntot c') (fun j => Mv r c' i j * a j)%R)) (fun i Hi => eq_refl))
    as (cuv & cyv & HE & HT).
  eexists. symmetry. etransitivity; [apply (ext_power _ _ _ _ _ _ HE)|].
  destruct HC as [ND HP].
  rewrite (power_perm _ _ (fun s => cuv s * cyv s)%R HP).
  change (flat_map _ _) with (flat_map ends (c_connectors c)).
  rewrite (connectors_power r _ cuv cyv HT).
  assert (Hn : ntot c' = nint c).
  { destruct (sort_ready c (conj ND HP) W) as (c1 & E1 & W1 & O1 & Y1 & X1).
    rewrite connect_eq, E1 in EC. cbn [obind ok] in EC. cbn zeta in EC.
    destruct (do Mcc <- _; _) as [N|] in EC; cbn [olift] in EC; [|discriminate].
    destruct (do iN <- _; _) as [M'|[]] in EC; try discriminate. injection EC as <-.
    unfold ntot, nint. rewrite O1. cbn. lia. }
  rewrite <- Hn. unfold quad. lra.
Qed.

Lemma connect_passive inv c c' : wf c -> conn_ok c -> connect inv c = ok c' ->
  exists A B, loop_inverse inv c A B /\ forall r, inverse_at r A B ->
    (passive (ntot c) (Mv r c) -> passive (ntot c') (Mv r c')) /\
    (conservative (ntot c) (Mv r c) -> conservative (ntot c') (Mv r c')).
Proof.
  intros W HC EC. destruct (connect_power inv c c' W HC EC) as (A & B & LI & HB).
  exists A, B. split; [exact LI|]. intros r HI.
  split; intros H a; destruct (HB r HI a) as [ae E];
    unfold quad in E; rewrite E; apply H.
Qed.

(** ** Ports turned into connectors *)
Lemma mv_end N i : i < N -> mv N i N = mv N i (N - 1).
Proof.
  intros Hi. unfold mv. destruct (Nat.ltb_spec i N); [|lia].
  destruct (Nat.ltb_spec i (N - 1)).
  - rewrite Nat.min_r by lia. rewrite Nat.min_l by lia.
    replace (N - S N) with 0 by lia. replace (N - S (N - 1)) with 0 by lia. reflexivity.
  - destruct (Nat.ltb_spec (N - 1) i); [lia|].
    replace (Nat.min N (N - 1) - i) with 0 by lia. replace (N - S N) with 0 by lia.
    assert (N = S i) as -> by lia. rewrite (seq_S i 0). reflexivity.
Qed.

Lemma moveM_end c n i : nr (c_M c) = n -> nc (c_M c) = n -> i < n ->
  exists M', moveM (Z.of_nat i) (Z.of_nat n) c = ok (set_M M' c) /\ nr M' = n /\ nc M' = n /\
    forall r k l, k < n -> l < n -> ev r M' k l = ev r (c_M c) (shift i (n - 1) k) (shift i (n - 1) l).
Proof.
  intros Hr Hc Hi.
  assert (E : moveM (Z.of_nat i) (Z.of_nat n) c = moveM (Z.of_nat i) (Z.of_nat (n - 1)) c).
  { unfold moveM, movesquare. rewrite Hr, !myrange_mv, mv_end by exact Hi. reflexivity. }
  rewrite E. apply moveM_ok; try assumption; lia.
Qed.

Lemma moved_end {A} (p s : list A) y :
  moved (length p) (length (p ++ y :: s) - 1) (p ++ y :: s) (p ++ s ++ [y]).
Proof.
  split; [rewrite !app_length; cbn; lia|].
  intros k. rewrite app_length; cbn [length].
  replace (length p + S (length s) - 1) with (length p + length s) by lia.
  destruct (Nat.ltb_spec k (length p + S (length s))) as [Hk|Hk].
  2:{ apply nth_error_None. rewrite !app_length; cbn. lia. }
  unfold shift.
  destruct (Nat.ltb_spec k (length p)) as [K|K].
  { destruct (Nat.ltb_spec (length p) (length p + length s)); [|destruct (Nat.ltb_spec k (length p + length s)); [|lia]];
    rewrite !nth_error_app1 by exact K; reflexivity. }
  rewrite (nth_error_app2 p (s ++ [y])) by exact K.
  destruct (Nat.ltb_spec (length p) (length p + length s)) as [L|L].
  - destruct (Nat.ltb_spec k (length p + length s)) as [K1|K1].
    + rewrite nth_error_app1 by lia. rewrite nth_error_app2 by lia.
      replace (S k - length p) with (S (k - length p)) by lia. reflexivity.
    + destruct (Nat.eqb_spec k (length p + length s)) as [->|]; [|lia].
      rewrite nth_error_app2 by lia. rewrite nth_error_app2 by lia.
      rewrite Nat.sub_diag. replace (length p + length s - length p - length s) with 0 by lia. reflexivity.
  - assert (length s = 0) by lia. destruct s; [|discriminate].
    destruct (Nat.ltb_spec k (length p + length (@nil A))); [cbn in *; lia|].
    assert (Ek : k = length p) by (cbn in *; lia). subst k.
    cbn [length]. rewrite Nat.add_0_r, Nat.eqb_refl. cbn [app].
    rewrite (nth_error_app2 p [y]) by lia. reflexivity.
Qed.

Lemma py_remove_app (p s : list string) y : ~ In y p ->
  py_remove String.eqb y (p ++ y :: s) = Ok (p ++ s).
Proof.
  induction p as [|a p IH]; intros H; cbn.
  - now rewrite String.eqb_refl.
  - destruct (String.eqb_spec a y) as [->|]; [exfalso; apply H; now left|].
    rewrite IH by (intros Hin; apply H; now right). reflexivity.
Qed.

Lemma port2connector_ok c u1 ui u2 y1 yi y2 : wf c ->
  c_u c = u1 ++ ui :: u2 -> c_y c = y1 ++ yi :: y2 -> length u1 = length y1 ->
  ~ In ui u1 -> ~ In yi y1 ->
  exists M', port2connector (Z.of_nat (length y1)) c =
     ok (set_y (y1 ++ y2) (set_u (u1 ++ u2) (set_cy (c_cy c ++ [yi])
        (set_cu (c_cu c ++ [ui]) (set_M M' c))))) /\
    nr M' = ntot c /\ nc M' = ntot c /\
    forall r k l, k < ntot c -> l < ntot c -> ev r M' k l =
      ev r (c_M c) (shift (nxw c + length y1) (ntot c - 1) k) (shift (nxw c + length y1) (ntot c - 1) l).
Proof.
  intros W Eu Ey EL Nu Ny. unfold port2connector.
  destruct W as (P & HD & Hr & Hc).
  assert (Lt : length y1 < length (c_y c)) by (rewrite Ey, app_length; cbn; lia).
  replace (dim_x c + dim_w c + Z.of_nat (length y1))%Z with (Z.of_nat (nxw c + length y1))
    by (unfold nxw, dim_x, dim_w; lia).
  replace (dim_tot c) with (Z.of_nat (ntot c))
    by (unfold ntot, dim_tot, dim_x, dim_w, dim_y, dim_cy; lia).
  destruct (moveM_end c (ntot c) (nxw c + length y1) Hr Hc) as (M' & EM & Mr & Mc & ME);
    [unfold nxw, ntot; lia|].
  rewrite EM. cbn [obind ok]. exists M'.
  cbn [c_u set_M]. rewrite Eu, py_get_nat, <- EL, nth_error_app2, Nat.sub_diag by lia.
  cbn [nth_error olift].
  cbn [c_y set_M set_cu]. rewrite Ey, py_get_nat, EL, nth_error_app2, Nat.sub_diag by lia.
  cbn [nth_error olift c_u c_y c_cu c_cy set_M set_cu set_cy set_u set_y].
  rewrite Eu, py_remove_app by exact Nu. cbn [olift c_u c_y c_cu c_cy set_M set_cu set_cy set_u set_y].
  rewrite Ey, py_remove_app by exact Ny. cbn [olift].
  split; [reflexivity|]. split; [exact Mr|]. split; [exact Mc|exact ME].
Qed.

Lemma port2connector_terms c c' u1 ui u2 y1 yi y2 : wf c ->
  c_u c = u1 ++ ui :: u2 -> c_y c = y1 ++ yi :: y2 -> length u1 = length y1 ->
  ~ In ui u1 -> ~ In yi y1 ->
  port2connector (Z.of_nat (length y1)) c = ok c' ->
  wf c' /\ c_u c' = u1 ++ u2 /\ c_y c' = y1 ++ y2 /\
  c_cu c' = c_cu c ++ [ui] /\ c_cy c' = c_cy c ++ [yi] /\
  c' = set_y (c_y c') (set_u (c_u c') (set_cy (c_cy c') (set_cu (c_cu c') (set_M (c_M c') c)))) /\
  (forall r k l, k < ntot c -> l < ntot c -> Mv r c' k l =
      Mv r c (shift (nxw c + length y1) (ntot c - 1) k) (shift (nxw c + length y1) (ntot c - 1) l)) /\
  forall r a b uv yv, term_rel r c a b uv yv <-> term_rel r c' a b uv yv.
Proof.
  intros W Eu Ey EL Nu Ny E.
  destruct (port2connector_ok c u1 ui u2 y1 yi y2 W Eu Ey EL Nu Ny) as (M' & E' & Mr & Mc & ME).
  rewrite E in E'. injection E' as ->.
  set (c' := set_y _ _).
  destruct W as ((Pw & Pu & Pc) & HD & Hr & Hc).
  assert (Hn : ntot c' = ntot c).
  { unfold ntot, c'; cbn. rewrite !app_length, Ey, app_length; cbn. lia. }
  split.
  { split; [|split; [exact HD|split; [rewrite Hn; exact Mr|rewrite Hn; exact Mc]]].
    split; [exact Pw|]. split; cbn.
    - rewrite Eu, Ey, !app_length in Pu. cbn in Pu. rewrite !app_length. lia.
    - rewrite !app_length; cbn. lia. }
  split; [reflexivity|]. split; [reflexivity|]. split; [reflexivity|]. split; [reflexivity|].
  split; [reflexivity|]. split; [exact ME|].
  intros r a b uv yv. unfold term_rel. change (nxw c') with (nxw c).
  assert (Ln : ntot c = nxw c + length (terminals c))
    by (unfold ntot, nxw, terminals; rewrite app_length; lia).
  assert (ET : terminals c = y1 ++ yi :: (y2 ++ c_cy c))
    by (unfold terminals; rewrite Ey, <- app_assoc; reflexivity).
  assert (ET' : terminals c' = y1 ++ (y2 ++ c_cy c) ++ [yi])
    by (unfold terminals, c'; cbn; rewrite <- !app_assoc; reflexivity).
  assert (LT : length (terminals c) = length y1 + S (length (y2 ++ c_cy c)))
    by (rewrite ET, app_length; reflexivity).
  apply (split_rel_moved _ _ _ _ _ (length y1) (length (terminals c) - 1)).
  - lia.
  - lia.
  - rewrite ET, ET'. apply moved_end.
  - intros p q Hp Hq. replace (nxw c + (length (terminals c) - 1)) with (ntot c - 1) by lia.
    unfold Mv. change (c_M c') with M'. apply (ME r p q); lia.
Qed.

Lemma nth_split_at {A} (l : list A) i : i < length l -> exists p a s, l = p ++ a :: s /\ length p = i.
Proof.
  intros H. destruct l as [|d l0] eqn:E; [cbn in H; lia|]. rewrite <- E in *.
  destruct (nth_split l d H) as (p & q & Ep & Lp). eauto.
Qed.

Lemma NoDup_mid {A} (p s : list A) a : NoDup (p ++ a :: s) -> ~ In a p /\ ~ In a s.
Proof.
  intros H. apply NoDup_remove_2 in H. split; intros Hin; apply H, in_or_app; [now left|now right].
Qed.

Lemma add_connector_ok c i0 i1 al : wf c -> i0 < length (c_y c) -> i1 < length (c_y c) -> i0 <> i1 ->
  NoDup (c_u c) -> NoDup (terminals c) ->
  exists c' k, add_connector (Z.of_nat i0) (Z.of_nat i1) al c = ok c' /\ wf c' /\
    NoDup (c_u c') /\ NoDup (terminals c') /\
    nth_error (c_u c) i0 = Some (k_u0 k) /\ nth_error (c_u c) i1 = Some (k_u1 k) /\
    nth_error (c_y c) i0 = Some (k_y0 k) /\ nth_error (c_y c) i1 = Some (k_y1 k) /\
    k_alpha k = match al with None => Num 1 | Some e => e end /\
    c_connectors c' = c_connectors c ++ [k] /\
    Permutation (c_cy c') (k_y0 k :: k_y1 k :: c_cy c) /\
    Permutation (c_y c) (k_y0 k :: k_y1 k :: c_y c') /\
    (c_x c' = c_x c /\ c_w c' = c_w c /\ c_z c' = c_z c /\ c_H c' = c_H c /\ c_dxH c' = c_dxH c) /\
    forall r a b uv yv, term_rel r c a b uv yv <-> term_rel r c' a b uv yv.
Proof.
  intros W H0 H1 Hne Du Dt.
  assert (Pu : length (c_u c) = length (c_y c)) by apply W.
  unfold add_connector.
  destruct (Z.eqb_spec (Z.of_nat i0) (Z.of_nat i1)); [lia|].
  unfold dim_y.
  destruct (Z.ltb_spec (Z.of_nat i0) (Z.of_nat (length (c_y c)))); [|lia]. cbn [negb].
  destruct (Z.ltb_spec (Z.of_nat i1) (Z.of_nat (length (c_y c)))); [|lia]. cbn [negb].
  rewrite !py_get_nat.
  assert (I0 := H0). assert (I1 := H1). rewrite <- Pu in I0, I1.
  apply nth_error_Some in I0, I1.
  assert (J0 := H0). assert (J1 := H1). apply nth_error_Some in J0, J1.
  destruct (nth_error (c_u c) i0) as [a0|] eqn:A0; [|tauto].
  destruct (nth_error (c_u c) i1) as [a1|] eqn:A1; [|tauto].
  destruct (nth_error (c_y c) i0) as [b0|] eqn:B0; [|tauto].
  destruct (nth_error (c_y c) i1) as [b1|] eqn:B1; [|tauto].
  cbn [olift]. set (k := mkConn a0 a1 b0 b1 match al with None => Num 1 | Some e => e end).
  set (c0 := set_connectors (c_connectors c ++ [k]) c).
  assert (W0 : wf c0) by exact W.
  assert (Dy : NoDup (c_y c)).
  { clear - Dt. unfold terminals in Dt. revert Dt. generalize (c_cy c). intros l.
    induction (c_y c) as [|a q IH]; cbn; intros H; [constructor|].
    inversion H; subst. constructor; [intros Hin; apply H2, in_or_app; now left|auto]. }
  (* first the larger index *)
  set (i := Nat.max i0 i1). set (j := Nat.min i0 i1).
  replace (Z.max (Z.of_nat i0) (Z.of_nat i1)) with (Z.of_nat i) by lia.
  replace (Z.min (Z.of_nat i0) (Z.of_nat i1)) with (Z.of_nat j) by lia.
  assert (Hij : j < i < length (c_y c)) by lia.
  destruct (nth_split_at (c_y c) i ltac:(lia)) as (y1 & yi & y2 & Ey & Ly).
  destruct (nth_split_at (c_u c) i ltac:(lia)) as (u1 & ui & u2 & Eu & Lu).
  destruct (NoDup_mid u1 u2 ui) as [Nu _]; [now rewrite <- Eu|].
  destruct (NoDup_mid y1 y2 yi) as [Ny _]; [now rewrite <- Ey|].
  destruct (port2connector_ok c0 u1 ui u2 y1 yi y2 W0 Eu Ey ltac:(lia) Nu Ny) as (M1 & E1 & _).
  assert (T1 := port2connector_terms c0 _ u1 ui u2 y1 yi y2 W0 Eu Ey ltac:(lia) Nu Ny E1).
  rewrite Ly in E1. rewrite E1. cbn [obind ok].
  set (c1 := set_y _ _) in *.
  destruct T1 as (W1 & Eu1 & Ey1 & Ecu1 & Ecy1 & _ & _ & R1).
  assert (NDu1 : NoDup (u1 ++ u2)) by (apply (NoDup_remove_1 u1 u2 ui); now rewrite <- Eu).
  assert (NDy1 : NoDup (y1 ++ y2)) by (apply (NoDup_remove_1 y1 y2 yi); now rewrite <- Ey).
  assert (Hj : j < length y1) by lia.
  destruct (nth_split_at y1 j Hj) as (p1 & yj & p2 & Ep & Lp).
  destruct (nth_split_at u1 j ltac:(lia)) as (q1 & uj & q2 & Eq & Lq).
  assert (Eu1' : c_u c1 = q1 ++ uj :: (q2 ++ u2)) by (rewrite Eu1, Eq, <- app_assoc; reflexivity).
  assert (Ey1' : c_y c1 = p1 ++ yj :: (p2 ++ y2)) by (rewrite Ey1, Ep, <- app_assoc; reflexivity).
  destruct (NoDup_mid q1 (q2 ++ u2) uj) as [Nu' _]; [now rewrite <- Eu1', Eu1|].
  destruct (NoDup_mid p1 (p2 ++ y2) yj) as [Ny' _]; [now rewrite <- Ey1', Ey1|].
  destruct (port2connector_ok c1 q1 uj (q2 ++ u2) p1 yj (p2 ++ y2) W1 Eu1' Ey1' ltac:(lia) Nu' Ny') as (M2 & E2 & _).
  assert (T2 := port2connector_terms c1 _ _ _ _ _ _ _ W1 Eu1' Ey1' ltac:(lia) Nu' Ny' E2).
  rewrite Lp in E2. rewrite E2. cbn [obind ok].
  set (c2 := set_y (p1 ++ p2 ++ y2) _) in *.
  destruct T2 as (W2 & Eu2 & Ey2 & Ecu2 & Ecy2 & _ & _ & R2).
  exists c2, k. split; [reflexivity|]. split; [exact W2|].
  assert (PY : Permutation (c_y c) (yi :: yj :: c_y c2)).
  { rewrite Ey. etransitivity; [symmetry; apply Permutation_middle|]. apply perm_skip.
    rewrite Ey1 in Ey1'. rewrite Ey1'. rewrite Ey2. symmetry. apply Permutation_middle. }
  assert (PC : c_cy c2 = c_cy c ++ [yi; yj]).
  { rewrite Ecy2, Ecy1. cbn. now rewrite <- app_assoc. }
  assert (SW : Permutation [yi; yj] [k_y0 k; k_y1 k]).
  { assert (Hi : nth_error (c_y c) i = Some yi).
    { rewrite Ey, nth_error_app2 by lia. rewrite Ly, Nat.sub_diag. reflexivity. }
    assert (Hjj : nth_error (c_y c) j = Some yj).
    { rewrite Ey, nth_error_app1 by lia. rewrite Ep, nth_error_app2 by lia.
      rewrite Lp, Nat.sub_diag. reflexivity. }
    unfold k; cbn. destruct (Nat.lt_total i0 i1) as [L|[L|L]]; [| lia |].
    - replace i with i1 in Hi by lia. replace j with i0 in Hjj by lia.
      rewrite B0 in Hjj. rewrite B1 in Hi. injection Hi as <-. injection Hjj as <-. apply perm_swap.
    - replace i with i0 in Hi by lia. replace j with i1 in Hjj by lia.
      rewrite B1 in Hjj. rewrite B0 in Hi. injection Hi as <-. injection Hjj as <-. reflexivity. }
  split.
  { rewrite Eu2. rewrite Eu1' in Eu1. apply (NoDup_remove_1 q1 (q2 ++ u2) uj). rewrite Eu1. exact NDu1. }
  split.
  { eapply Permutation_NoDup; [|exact Dt]. unfold terminals. rewrite PC.
    etransitivity; [apply Permutation_app_tail, PY|]. cbn [app].
    etransitivity; [apply (Permutation_app_comm [yi; yj] (c_y c2 ++ c_cy c))|].
    rewrite <- app_assoc. reflexivity. }
  split; [reflexivity|]. split; [reflexivity|]. split; [reflexivity|]. split; [reflexivity|].
  split; [reflexivity|]. split; [reflexivity|].
  split.
  { rewrite PC. etransitivity; [apply Permutation_app_comm|].
    apply (Permutation_app_tail (c_cy c)) in SW. exact SW. }
  split.
  { etransitivity; [exact PY|]. exact (Permutation_app_tail (c_y c2) SW). }
  split; [repeat split|].
  intros r a b uv yv. rewrite <- R2, <- R1. reflexivity.
Qed.

Lemma wired_conn_ok c : wired c -> conn_ok c.
Proof.
  intros (_ & Dt & HP). split; [|exact HP]. unfold terminals in Dt.
  revert Dt. generalize (c_y c). intros l. induction l as [|a l IH]; cbn; intros H; [exact H|].
  inversion H; auto.
Qed.

Lemma add_connector_wired c i0 i1 al c' : wf c -> wired c ->
  i0 < length (c_y c) -> i1 < length (c_y c) -> i0 <> i1 ->
  add_connector (Z.of_nat i0) (Z.of_nat i1) al c = ok c' -> wf c' /\ wired c'.
Proof.
  intros W (Du & Dt & HP) H0 H1 Hne E.
  destruct (add_connector_ok c i0 i1 al W H0 H1 Hne Du Dt)
    as (c1 & k & E1 & W1 & Du1 & Dt1 & _ & _ & _ & _ & _ & EK & PC & _).
  rewrite E in E1. injection E1 as ->. split; [exact W1|]. split; [exact Du1|]. split; [exact Dt1|].
  rewrite EK, flat_map_app. cbn [flat_map]. rewrite app_nil_r.
  etransitivity; [exact PC|].
  etransitivity; [apply perm_skip, perm_skip, HP|].
  exact (Permutation_app_comm [k_y0 k; k_y1 k] _).
Qed.

Lemma term_ext r c a b uv yv :
  term_rel r c a b uv yv <-> ext_rel r c (with_ports c a uv) (with_ports c b yv) uv yv.
Proof.
  unfold term_rel, ext_rel, split_rel.
  assert (Hn : nint c = nxw c + length (c_y c)) by reflexivity.
  rewrite Hn. unfold terminals. rewrite app_length.
  set (n := nxw c). set (p := length (c_y c)). set (q := length (c_cy c)).
  assert (WA : forall v f i, i < n -> with_ports c v f i = v i).
  { intros v f i Hi. unfold with_ports. fold n. destruct (Nat.ltb_spec i n); [reflexivity|lia]. }
  assert (WB : forall v f k, with_ports c v f (n + k) = f (nth k (c_y c) ""%string)).
  { intros v f k. unfold with_ports. fold n. destruct (Nat.ltb_spec (n + k) n); [lia|].
    now replace (n + k - n) with k by lia. }
  assert (SS : forall i,
    (rsum (n + p) (fun j => Mv r c i j * with_ports c a uv j) +
     rsum q (fun k => Mv r c i (n + p + k)%nat * uv (nth k (c_cy c) ""%string)))%R =
    (rsum n (fun j => Mv r c i j * a j) +
     rsum (p + q) (fun k => Mv r c i (n + k)%nat * uv (nth k (c_y c ++ c_cy c) ""%string)))%R).
  { intros i. rewrite !rsum_app.
    rewrite (rsum_ext n (fun j => Mv r c i j * with_ports c a uv j)%R (fun j => Mv r c i j * a j)%R)
      by (intros j Hj; now rewrite WA).
    rewrite (rsum_ext p (fun k => Mv r c i (n + k)%nat * with_ports c a uv (n + k)%nat)%R
       (fun k => Mv r c i (n + k)%nat * uv (nth k (c_y c ++ c_cy c) ""%string))%R)
      by (intros k Hk; rewrite WB, app_nth1 by exact Hk; reflexivity).
    rewrite (rsum_ext q (fun k => Mv r c i (n + p + k)%nat * uv (nth k (c_cy c) ""%string))%R
       (fun k => Mv r c i (n + (p + k))%nat * uv (nth (p + k) (c_y c ++ c_cy c) ""%string))%R).
    - lra.
    - intros k Hk. rewrite app_nth2 by (unfold p; lia).
      replace (p + k - length (c_y c)) with k by (unfold p; lia).
      replace (n + (p + k)) with (n + p + k) by lia. reflexivity. }
  split; intros [H1 H2]; split.
  - intros i Hi. rewrite SS. destruct (Nat.ltb_spec i n) as [L|L].
    + rewrite WA by exact L. now apply H1.
    + replace i with (n + (i - n)) by lia. rewrite WB.
      specialize (H2 (i - n) ltac:(lia)). rewrite app_nth1 in H2 by (unfold p in *; lia). exact H2.
  - intros k Hk. rewrite SS. specialize (H2 (p + k) ltac:(lia)).
    rewrite app_nth2 in H2 by (unfold p; lia).
    replace (p + k - length (c_y c)) with k in H2 by (unfold p; lia).
    replace (n + p + k) with (n + (p + k)) by lia. exact H2.
  - intros i Hi. specialize (H1 i ltac:(lia)). rewrite SS, WA in H1 by exact Hi. exact H1.
  - intros k Hk. destruct (Nat.ltb_spec k p) as [L|L].
    + specialize (H1 (n + k) ltac:(lia)). rewrite SS, WB in H1.
      rewrite app_nth1 by exact L. exact H1.
    + specialize (H2 (k - p) ltac:(lia)). rewrite SS in H2.
      rewrite app_nth2 by exact L. replace (n + p + (k - p)) with (n + k) in H2 by lia. exact H2.
Qed.

Lemma ext_rel_ext r c a a' b b' uv uv' yv yv' :
  (forall i, i < nint c -> a i = a' i) -> (forall i, i < nint c -> b i = b' i) ->
  (forall s, In s (c_cy c) -> uv s = uv' s) -> (forall s, In s (c_cy c) -> yv s = yv' s) ->
  ext_rel r c a b uv yv -> ext_rel r c a' b' uv' yv'.
Proof.
  intros Ha Hb Hu Hy [H1 H2]. split.
  - intros i Hi. rewrite <- Hb, H1 by exact Hi. f_equal; apply rsum_ext; intros k Hk.
    + now rewrite Ha.
    + rewrite Hu; [reflexivity|]. now apply nth_In.
  - intros k Hk. rewrite <- Hy, H2 by (try apply nth_In; exact Hk). f_equal; apply rsum_ext; intros l Hl.
    + now rewrite Ha.
    + rewrite Hu; [reflexivity|]. now apply nth_In.
Qed.

(** End to end: what connecting two ports of a core does. *)
Lemma connector_law inv c c1 c' i0 i1 al y0 y1 : wf c ->
  NoDup (c_u c) -> NoDup (c_y c) -> c_cy c = [] -> c_connectors c = [] ->
  i0 <> i1 -> nth_error (c_y c) i0 = Some y0 -> nth_error (c_y c) i1 = Some y1 ->
  add_connector (Z.of_nat i0) (Z.of_nat i1) (Some al) c = ok c1 -> connect inv c1 = ok c' ->
  Permutation (c_y c) (y0 :: y1 :: c_y c') /\
  exists A B, loop_inverse inv c1 A B /\ forall r, inverse_at r A B -> forall a b uv yv,
    b_eq_M_a (ntot c') (Mv r c') (with_ports c' a uv) (with_ports c' b yv) <->
    exists uv' yv', (forall s, In s (c_y c') -> uv' s = uv s /\ yv' s = yv s) /\
      term_rel r c a b uv' yv' /\
      uv' y0 = (- (eval r al * yv' y1))%R /\ uv' y1 = (eval r al * yv' y0)%R.
Proof.
  intros W Du Dy Ec Ek Hne N0 N1 E1 E2.
  assert (H0 : i0 < length (c_y c)) by (apply nth_error_Some; congruence).
  assert (H1 : i1 < length (c_y c)) by (apply nth_error_Some; congruence).
  assert (Dt : NoDup (terminals c)) by (unfold terminals; now rewrite Ec, app_nil_r).
  assert (WI : wired c) by (split; [exact Du|split; [exact Dt|rewrite Ec, Ek; reflexivity]]).
  destruct (add_connector_wired c i0 i1 (Some al) c1 W WI H0 H1 Hne E1) as [W1 WI1].
  destruct (add_connector_ok c i0 i1 (Some al) W H0 H1 Hne Du Dt)
    as (c1' & k & E1' & _ & Du1 & Dt1 & _ & _ & K0 & K1 & KA & EK & PC & PY & (Ex & Ew & _) & RT).
  rewrite E1 in E1'. injection E1' as <-.
  rewrite N0 in K0. injection K0 as K0. rewrite N1 in K1. injection K1 as K1.
  rewrite <- K0, <- K1 in *. rewrite Ek in EK. cbn [app] in EK.
  assert (HC := wired_conn_ok c1 WI1).
  assert (F : c_y c' = c_y c1 /\ nxw c' = nxw c1 /\ ntot c' = nint c1 /\ nint c' = nint c1).
  { destruct (sort_ready c1 HC W1) as (cs & Es & Ws & Os & Ys & Xs).
    rewrite connect_eq, Es in E2. cbn [obind ok] in E2. cbn zeta in E2.
    destruct (do Mcc <- _; _) as [N|] in E2; cbn [olift] in E2; [|discriminate].
    destruct (do iN <- _; _) as [M'|[]] in E2; try discriminate. injection E2 as <-.
    unfold ntot, nint, nxw. rewrite Os. cbn. repeat split. lia. }
  destruct F as (Fy & Fx & Ft & Fi).
  split; [rewrite Fy; exact PY|].
  destruct (connect_behaviour inv c1 c' W1 HC E2) as (LA & LB & LI & HB).
  exists LA, LB. split; [exact LI|].
  intros r HI a b uv yv.
  assert (EW : forall v f, with_ports c' v f = with_ports c1 v f)
    by (intros; unfold with_ports; now rewrite Fx, Fy).
  rewrite !EW.
  rewrite (HB r HI).
  assert (IC : forall s, In s (c_cy c1) <-> s = y0 \/ s = y1).
  { intros s. rewrite Ec in PC. split.
    - intros Hs. apply (Permutation_in _ PC) in Hs. destruct Hs as [<-|[<-|[]]]; tauto.
    - intros Hs. apply (Permutation_in _ (Permutation_sym PC)). destruct Hs as [->| ->]; cbn; tauto. }
  assert (DJ : forall s, In s (c_y c1) -> ~ In s (c_cy c1)).
  { intros s Hs Hs'. apply IC in Hs'. 
    assert (ND : NoDup (y0 :: y1 :: c_y c1)) by (eapply Permutation_NoDup; [exact PY|exact Dy]).
    inversion ND as [|? ? A1 A2]; subst. inversion A2; subst. destruct Hs' as [->| ->].
    - apply A1. now right.
    - contradiction. }
  assert (TF : forall cuv cyv : string -> R, (forall k0, In k0 (c_connectors c1) -> transformer r k0 cuv cyv) <->
     (cuv y0 = (- (eval r al * cyv y1))%R /\ cuv y1 = (eval r al * cyv y0)%R)).
  { intros cuv cyv. rewrite EK. unfold transformer. split.
    - intros H. specialize (H k (or_introl eq_refl)). rewrite <- K0, <- K1, KA in H. exact H.
    - intros H k0 [<-|[]]. rewrite <- K0, <- K1, KA. exact H. }
  split.
  - intros (cuv & cyv & HE & HT). apply TF in HT.
    set (isc := fun s => py_in String.eqb s (c_cy c1)).
    assert (ISC : forall s, isc s = true <-> In s (c_cy c1)).
    { intros s. unfold isc, py_in. rewrite existsb_exists. split.
      - intros (x & Hx & Ex0). apply String.eqb_eq in Ex0. now subst.
      - intros Hs. exists s. split; [exact Hs|apply String.eqb_refl]. }
    exists (fun s => if isc s then cuv s else uv s), (fun s => if isc s then cyv s else yv s).
    split; [|split].
    + intros s Hs. rewrite Fy in Hs. destruct (isc s) eqn:Ei; [|tauto].
      exfalso. apply ISC in Ei. exact (DJ s Hs Ei).
    + apply RT. apply term_ext.
      assert (WPx : forall v (f g : string -> R) i, i < nint c1 ->
        with_ports c1 v g i = with_ports c1 v (fun s => if isc s then f s else g s) i).
      { intros v f g i Hi. unfold with_ports. destruct (Nat.ltb_spec i (nxw c1)); [reflexivity|].
        destruct (isc _) eqn:Ei; [|reflexivity].
        exfalso. apply ISC in Ei. eapply DJ; [|exact Ei]. apply nth_In. unfold nint, nxw in *. lia. }
      eapply ext_rel_ext; [| | | |exact HE].
      * intros i Hi. now apply WPx.
      * intros i Hi. now apply WPx.
      * intros s Hs. apply ISC in Hs. now rewrite Hs.
      * intros s Hs. apply ISC in Hs. now rewrite Hs.
    + assert (I0 : isc y0 = true) by (apply ISC, IC; tauto).
      assert (I1 : isc y1 = true) by (apply ISC, IC; tauto).
      rewrite I0, I1. exact HT.
  - intros (uv' & yv' & HA & HT & HL).
    exists uv', yv'. split; [|now apply TF].
    apply RT in HT. apply term_ext in HT.
    eapply ext_rel_ext; [| | | |exact HT]; try reflexivity.
    + intros i Hi. unfold with_ports. destruct (Nat.ltb_spec i (nxw c1)); [reflexivity|].
      apply HA. rewrite Fy. apply nth_In. unfold nint, nxw in *. lia.
    + intros i Hi. unfold with_ports. destruct (Nat.ltb_spec i (nxw c1)); [reflexivity|].
      apply HA. rewrite Fy. apply nth_In. unfold nint, nxw in *. lia.
Qed.

Lemma port2connector_spec c u1 ui u2 y1 yi y2 :
  wf c -> c_u c = u1 ++ ui :: u2 -> c_y c = y1 ++ yi :: y2 -> length u1 = length y1 ->
  NoDup (c_u c) -> NoDup (c_y c) ->
  exists c' sg, port2connector (Z.of_nat (length y1)) c = ok c' /\ wf c' /\
    c_u c' = u1 ++ u2 /\ c_y c' = y1 ++ y2 /\
    c_cu c' = c_cu c ++ [ui] /\ c_cy c' = c_cy c ++ [yi] /\
    c' = set_y (c_y c') (set_u (c_u c') (set_cy (c_cy c') (set_cu (c_cu c') (set_M (c_M c') c)))) /\
    moved_range (ntot c) (nxw c + length y1) (ntot c - 1) sg /\
    (forall r k l, k < ntot c -> l < ntot c -> Mv r c' k l = Mv r c (nth k sg 0) (nth l sg 0)) /\
    forall r a b uv yv, term_rel r c a b uv yv <-> term_rel r c' a b uv yv.
Proof.
  intros W Eu Ey EL Du Dy.
  destruct (NoDup_mid u1 u2 ui) as [Nu _]; [now rewrite <- Eu|].
  destruct (NoDup_mid y1 y2 yi) as [Ny _]; [now rewrite <- Ey|].
  destruct (port2connector_ok c u1 ui u2 y1 yi y2 W Eu Ey EL Nu Ny) as (M' & E & _).
  destruct (port2connector_terms c _ u1 ui u2 y1 yi y2 W Eu Ey EL Nu Ny E)
    as (W' & T1 & T2 & T3 & T4 & T5 & T6 & T7).
  assert (Lt : nxw c + length y1 < ntot c) by (unfold ntot, nxw; rewrite Ey, app_length; cbn; lia).
  eexists. exists (mv (ntot c) (nxw c + length y1) (ntot c - 1)).
  split; [exact E|]. split; [exact W'|]. split; [exact T1|]. split; [exact T2|].
  split; [exact T3|]. split; [exact T4|]. split; [exact T5|]. split; [|split; [|exact T7]].
  - pose proof (mv_spec (ntot c) (nxw c + length y1) (ntot c - 1) Lt) as S.
    now rewrite Nat.min_id in S.
  - intros r k l Hk Hl. rewrite !nth_mv by lia. now apply T6.
Qed.

Lemma add_connector_keeps_wired c i0 i1 al c' :
  wf c -> wired c -> i0 < length (c_y c) -> i1 < length (c_y c) -> i0 <> i1 ->
  add_connector (Z.of_nat i0) (Z.of_nat i1) al c = ok c' -> wf c' /\ wired c' /\ conn_ok c'.
Proof.
  intros W WI H0 H1 Hne E. destruct (add_connector_wired c i0 i1 al c' W WI H0 H1 Hne E) as [W' WI'].
  split; [exact W'|]. split; [exact WI'|]. now apply wired_conn_ok.
Qed.

Lemma opposite_gain_law inv c c1 c' i0 i1 al y0 y1 :
  wf c -> NoDup (c_u c) -> NoDup (c_y c) -> c_cy c = [] -> c_connectors c = [] ->
  i0 <> i1 -> nth_error (c_y c) i0 = Some y0 -> nth_error (c_y c) i1 = Some y1 ->
  add_connector (Z.of_nat i0) (Z.of_nat i1) (Some (sneg al)) c = ok c1 -> connect inv c1 = ok c' ->
  exists A B, loop_inverse inv c1 A B /\ forall r, inverse_at r A B -> forall a b uv yv,
    b_eq_M_a (ntot c') (Mv r c') (with_ports c' a uv) (with_ports c' b yv) <->
    exists uv' yv', (forall s, In s (c_y c') -> uv' s = uv s /\ yv' s = yv s) /\
      term_rel r c a b uv' yv' /\
      uv' y0 = (eval r al * yv' y1)%R /\ uv' y1 = (- (eval r al * yv' y0))%R.
Proof.
  intros W Du Dy Ec Ek Hne N0 N1 E1 E2.
  destruct (connector_law inv c c1 c' i0 i1 (sneg al) y0 y1 W Du Dy Ec Ek Hne N0 N1 E1 E2)
    as [_ (A & B & LI & L)].
  exists A, B. split; [exact LI|]. intros r HI a b uv yv.
  rewrite (L r HI a b uv yv). rewrite eval_sneg.
  split; intros (uv' & yv' & H1 & H2 & H3 & H4); exists uv', yv';
    (split; [exact H1|]; split; [exact H2|]; split; lra).
Qed.
