(** Kirchhoff's laws as an explicit linear structure: C26, C27. *)
From Coq Require Import String List ZArith QArith Qreals Reals Bool Lia Lra Permutation.
From Verif Require Import Py Tools Lists Expr ExprProofs RSum Mat MatProofs Core Spec_Core StructProofs SplitProofs ReduceProofs
  Graph Spec_Graph GraphProofs GraphAnalysis GraphDeclared.
Import ListNotations.
Local Open Scope string_scope.
Local Open Scope list_scope.
Local Open Scope nat_scope.

(** ** Linear algebra *)
Lemma inverse_tr n A B : is_inverse n A B -> is_inverse n (tr A) (tr B).
Proof.
  assert (I : forall i j, idm i j = idm j i) by (intros i j; unfold idm; now rewrite Nat.eqb_sym).
  intros [H1 H2]. split; intros i j Hi Hj; unfold mm, tr in *.
  - rewrite I, <- H2 by assumption. apply rsum_ext. intros k _. lra.
  - rewrite I, <- H1 by assumption. apply rsum_ext. intros k _. lra.
Qed.

Section Structure.
  Variables (m n : nat) (Ge Gf B : rmat).
  Hypothesis HB : is_inverse n Gf B.
  (** Build.py L22-29. *)
  Let gam : rmat := mm n B Ge.
  Definition Jof : rmat := fun i j =>
    if i <? m then (if j <? m then 0%R else gam (j - m) i)
    else (if j <? m then (- gam (i - m)%nat j)%R else 0%R).

  Lemma Jof_skew i j : Jof i j = (- Jof j i)%R.
  Proof. unfold Jof. destruct (i <? m), (j <? m); lra. Qed.

  Variables f v : rvec.
  Let b : rvec := fun j => if j <? m then v j else f j.
  Let a : rvec := fun j => if j <? m then f j else v j.

  Lemma J_rows : b_eq_M_a (m + n) Jof a b <->
    (forall j, j < m -> v j = rsum n (fun k => gam k j * v (m + k)%nat)%R) /\
    (forall k, k < n -> f (m + k)%nat = (- rsum m (fun j => gam k j * f j))%R).
  Proof.
    assert (R1 : forall j, j < m -> rsum (m + n) (fun q => Jof j q * a q)%R = rsum n (fun k => gam k j * v (m + k)%nat)%R).
    { intros j Hj. rewrite rsum_app, rsum_zero.
      - rewrite Rplus_0_l. apply rsum_ext. intros k Hk. unfold Jof, a.
        destruct (Nat.ltb_spec j m); [|lia]. destruct (Nat.ltb_spec (m + k) m); [lia|].
        replace (m + k - m)%nat with k by lia. reflexivity.
      - intros k Hk. unfold Jof. destruct (Nat.ltb_spec j m); [|lia]. destruct (Nat.ltb_spec k m); [|lia]. lra. }
    assert (R2 : forall k, k < n -> rsum (m + n) (fun q => Jof (m + k)%nat q * a q)%R = (- rsum m (fun j => gam k j * f j))%R).
    { intros k Hk. rewrite rsum_app, <- rsum_opp. rewrite (rsum_zero n).
      - rewrite Rplus_0_r. apply rsum_ext. intros j Hj. unfold Jof, a.
        destruct (Nat.ltb_spec (m + k) m); [lia|]. destruct (Nat.ltb_spec j m); [|lia].
        replace (m + k - m)%nat with k by lia. lra.
      - intros q Hq. unfold Jof. destruct (Nat.ltb_spec (m + k) m); [lia|]. destruct (Nat.ltb_spec (m + q) m); [lia|]. lra. }
    unfold b_eq_M_a. split.
    - intros H. split.
      + intros j Hj. rewrite <- R1 by exact Hj. rewrite <- H by lia. unfold b. destruct (Nat.ltb_spec j m); [reflexivity|lia].
      + intros k Hk. rewrite <- R2 by exact Hk. rewrite <- H by lia. unfold b. destruct (Nat.ltb_spec (m + k) m); [lia|reflexivity].
    - intros [H1 H2] i Hi. destruct (le_lt_dec m i) as [Hm|Hm].
      + replace i with (m + (i - m)) by lia. rewrite R2 by lia. unfold b. destruct (Nat.ltb_spec (m + (i - m)) m); [lia|]. apply H2. lia.
      + rewrite R1 by exact Hm. unfold b. destruct (Nat.ltb_spec i m); [|lia]. now apply H1.
  Qed.

  Lemma gam_mv k : rsum m (fun j => gam k j * f j)%R = mv_ n B (mv_ m Ge f) k.
  Proof. exact (mv_mm m n B Ge f k). Qed.

  Lemma gam_tr j (x : rvec) : rsum n (fun k => gam k j * x k)%R = rsum n (fun i => Ge i j * rsum n (fun k => B k i * x k))%R.
  Proof.
    rewrite (rsum_ext n _ (fun k => rsum n (fun i => Ge i j * (B k i * x k)))%R).
    2:{ intros k Hk. unfold gam, mm. rewrite <- rsum_scal_r. apply rsum_ext. intros i Hi. lra. }
    rewrite rsum_swap. apply rsum_ext. intros i Hi. now rewrite rsum_scal.
  Qed.

  Lemma kirchhoff_rows : b_eq_M_a (m + n) Jof a b <->
    (forall i, i < n -> (rsum m (fun j => Ge i j * f j) + rsum n (fun k => Gf i k * f (m + k)%nat))%R = 0%R) /\
    (exists p : rvec, (forall j, j < m -> v j = rsum n (fun i => Ge i j * p i)%R) /\
                      (forall k, k < n -> v (m + k)%nat = rsum n (fun i => Gf i k * p i)%R)).
  Proof.
    rewrite J_rows. split.
    - intros [H1 H2]. split.
      + intros i Hi. fold (mv_ m Ge f i).
        rewrite (rsum_ext n _ (fun k => Gf i k * - mv_ n B (mv_ m Ge f) k)%R).
        2:{ intros k Hk. rewrite H2 by exact Hk. now rewrite gam_mv. }
        change (mv_ m Ge f i + mv_ n Gf (fun k => - mv_ n B (mv_ m Ge f) k) i = 0)%R.
        rewrite mv_opp, (inverse_sol n Gf B) by assumption. lra.
      + exists (fun i => rsum n (fun k => B k i * v (m + k)%nat)%R). split.
        * intros j Hj. rewrite H1 by exact Hj. apply gam_tr.
        * intros k Hk. pose proof (inverse_sol n (tr Gf) (tr B) (fun k => v (m + k)%nat) (inverse_tr n Gf B HB) k Hk) as E.
          symmetry. exact E.
    - intros [H1 (p & H2 & H3)]. split.
      + intros j Hj. rewrite H2 by exact Hj. rewrite (gam_tr j (fun k => v (m + k)%nat)). apply rsum_ext. intros i Hi. f_equal.
        apply (inverse_unique_sol n (tr Gf) (tr B) p (fun k => v (m + k)%nat) (inverse_tr n Gf B HB)); [|exact Hi].
        intros k Hk. symmetry. now apply H3.
      + intros k Hk. rewrite gam_mv.
        rewrite (inverse_unique_sol n Gf B (fun k => f (m + k)%nat) (fun i => - mv_ m Ge f i)%R HB); [|intros i Hi|exact Hk].
        * apply mv_opp.
        * specialize (H1 i Hi). unfold mv_ in *. lra.
  Qed.
End Structure.

(** ** Sums over nodes and edges *)
Lemma lsum_ext {A} (f g : A -> R) l : (forall x, In x l -> f x = g x) -> lsum (map f l) = lsum (map g l).
Proof. intros H. f_equal. now apply map_ext_in. Qed.

Lemma lsum_map_nth {A} (d : A) (f : A -> R) l : lsum (map f l) = rsum (length l) (fun k => f (nth k l d)).
Proof.
  rewrite rsum_lsum. f_equal. induction l as [|a l IH]; [reflexivity|]. cbn. f_equal.
  rewrite IH, <- seq_shift, map_map. reflexivity.
Qed.

Lemma out_sum (h : string -> R) e : forall nodes, NoDup nodes -> In (e_src e) nodes -> In (e_dst e) nodes ->
  lsum (map (fun n => IZR (out_of n e) * h n)%R nodes) = (h (e_src e) - h (e_dst e))%R.
Proof.
  assert (S : forall x nodes, NoDup nodes ->
    lsum (map (fun n => (if String.eqb x n then 1 else 0) * h n)%R nodes) = if existsb (String.eqb x) nodes then h x else 0%R).
  { intros x. induction nodes as [|n nodes IH]; intros N; [reflexivity|]. inversion N; subst. cbn.
    change (fold_right Rplus 0%R) with lsum. rewrite IH by assumption.
    destruct (String.eqb_spec x n) as [->|Hx]; cbn [orb].
    - destruct (existsb (String.eqb n) nodes) eqn:E; [|lra]. exfalso. apply existsb_exists in E as (y & Hy & E).
      apply String.eqb_eq in E. subst. contradiction.
    - lra. }
  intros nodes N Hs Hd.
  rewrite (lsum_ext _ (fun n => (if String.eqb (e_src e) n then 1 else 0) * h n + - ((if String.eqb (e_dst e) n then 1 else 0) * h n))%R).
  2:{ intros n _. unfold out_of. rewrite minus_IZR. destruct (String.eqb (e_src e) n), (String.eqb (e_dst e) n); lra. }
  assert (D : forall l (p q : string -> R), lsum (map (fun n => p n + - q n)%R l) = (lsum (map p l) - lsum (map q l))%R).
  { intros l p q. induction l as [|n l IH]; cbn; [lra|]. change (fold_right Rplus 0%R) with lsum. rewrite IH. lra. }
  rewrite D, !S by assumption.
  assert (E : forall x, In x nodes -> existsb (String.eqb x) nodes = true).
  { intros x Hx. apply existsb_exists. exists x. split; [exact Hx|apply String.eqb_refl]. }
  now rewrite !E by assumption.
Qed.

Lemma out_sum_zero e nodes : NoDup nodes -> In (e_src e) nodes -> In (e_dst e) nodes ->
  lsum (map (fun n => IZR (out_of n e)) nodes) = 0%R.
Proof.
  intros N Hs Hd. rewrite <- (Rminus_diag_eq 1 1 eq_refl). rewrite <- (out_sum (fun _ => 1%R) e nodes N Hs Hd).
  apply lsum_ext. intros n _. lra.
Qed.

(** Tellegen: node law and potentials give no power. *)
Lemma tellegen g f v : graph_ok g -> node_law g f -> loop_law g v ->
  lsum (map (fun e => v (e_label e) * f (e_label e))%R (g_edges g)) = 0%R.
Proof.
  intros [N Hg] Hf (p & Hp).
  rewrite (lsum_ext _ (fun e => lsum (map (fun n => p n * (IZR (out_of n e) * f (e_label e))) (g_nodes g)))%R).
  2:{ intros e He. destruct (Hg e He) as [Hs Hd]. rewrite Hp by exact He.
      rewrite <- (out_sum p e (g_nodes g) N Hs Hd). rewrite !(lsum_map_nth "").
      rewrite <- rsum_scal_r. apply rsum_ext. intros k _. lra. }
  rewrite (lsum_map_nth (mkEdge "" "" "" "" "" None "" None (Num 0) (Num 0))).
  rewrite (rsum_ext (length (g_edges g)) _ (fun k => rsum (length (g_nodes g)) (fun i =>
    let e := nth k (g_edges g) (mkEdge "" "" "" "" "" None "" None (Num 0) (Num 0)) in
    let n := nth i (g_nodes g) "" in p n * (IZR (out_of n e) * f (e_label e))))%R).
  2:{ intros k _. rewrite (lsum_map_nth ""). reflexivity. }
  rewrite rsum_swap. apply rsum_zero. intros i Hi. cbn zeta.
  rewrite rsum_scal. rewrite <- (lsum_map_nth (mkEdge "" "" "" "" "" None "" None (Num 0) (Num 0))
    (fun e => IZR (out_of (nth i (g_nodes g) "") e) * f (e_label e))%R).
  rewrite Hf; [lra|]. now apply nth_In.
Qed.

(** ** From the analysis to the laws on the graph *)
Definition noedge : edge := mkEdge "" "" "" "" "" None "" None (Num 0) (Num 0).
Definition edge_at (s : ana) (j : nat) : edge := nth j (a_edges s) noedge.
Definition node_at (s : ana) (i : nat) : string := nth i (a_nodes s) "".
Definition label_at (s : ana) (j : nat) : string := e_label (edge_at s j).
Definition Gr (s : ana) : rmat := fun i j => IZR (a_G s i j).

Lemma Gr_out g x s i j : inv g x s -> i < nn s -> j < ne s -> Gr s i j = IZR (out_of (node_at s i) (edge_at s j)).
Proof.
  intros H Hi Hj. unfold Gr, node_at, edge_at. f_equal. apply (i_aligned _ _ _ H); apply nth_error_nth'; assumption.
Qed.

Lemma same_sum g s (F : edge -> R) : same_graph g s -> (forall a e, F (set_alpha a e) = F e) ->
  lsum (map F (g_edges g)) = lsum (map F (a_edges s)).
Proof.
  intros [_ P] HF. apply (Permutation_map F) in P. rewrite !map_map in P. apply lsum_perm in P.
  rewrite (lsum_ext _ F (g_edges g)) in P by (intros; apply HF).
  rewrite (lsum_ext _ F (a_edges s)) in P by (intros; apply HF). exact P.
Qed.

Lemma same_edges_in g s e : same_graph g s -> In e (a_edges s) -> exists e', In e' (g_edges g) /\ set_alpha None e = set_alpha None e'.
Proof.
  intros [_ P] He. assert (Hin : In (set_alpha None e) (map (set_alpha None) (g_edges g))).
  { eapply Permutation_in; [apply Permutation_sym, P|now apply in_map]. }
  apply in_map_iff in Hin as (e' & E & He'). exists e'. split; [exact He'|congruence].
Qed.

Lemma same_edges_in' g s e : same_graph g s -> In e (g_edges g) -> exists e', In e' (a_edges s) /\ set_alpha None e = set_alpha None e'.
Proof.
  intros [_ P] He. assert (Hin : In (set_alpha None e) (map (set_alpha None) (a_edges s))).
  { eapply Permutation_in; [exact P|now apply in_map]. }
  apply in_map_iff in Hin as (e' & E & He'). exists e'. split; [exact He'|congruence].
Qed.

Lemma ends_in g s e : graph_ok g -> same_graph g s -> In e (a_edges s) -> In (e_src e) (a_nodes s) /\ In (e_dst e) (a_nodes s).
Proof.
  intros [_ Hg] S He. destruct (same_edges_in g s e S He) as (e' & He' & E). destruct (Hg e' He') as [H1 H2].
  assert (E1 : e_src e = e_src e') by (apply (f_equal e_src) in E; exact E).
  assert (E2 : e_dst e = e_dst e') by (apply (f_equal e_dst) in E; exact E).
  rewrite E1, E2. destruct S as [P _]. split; eapply Permutation_in; eauto.
Qed.

Lemma node_law_rows g s f : graph_ok g -> inv g [] s -> 0 < nn s ->
  node_law g f <-> (forall i, S i < nn s -> rsum (ne s) (fun j => Gr s (S i) j * f (label_at s j))%R = 0%R).
Proof.
  intros Hg H Hn. pose proof (i_same _ _ _ H) as HS. destruct HS as [Pn Pe].
  assert (Row : forall i, i < nn s -> rsum (ne s) (fun j => Gr s i j * f (label_at s j))%R =
     lsum (map (fun e => IZR (out_of (node_at s i) e) * f (e_label e))%R (g_edges g))).
  { intros i Hi. rewrite (same_sum g s); [|exact (i_same _ _ _ H)|reflexivity].
    rewrite (lsum_map_nth noedge). apply rsum_ext. intros j Hj. now rewrite (Gr_out g [] s i j H Hi Hj). }
  split.
  - intros HN i Hi. rewrite Row by exact Hi. apply HN. eapply Permutation_in; [apply Permutation_sym, Pn|]. now apply nth_In.
  - intros HR n Hin. assert (Hn' : In n (a_nodes s)) by (eapply Permutation_in; eauto).
    destruct (In_nth _ _ "" Hn') as (i & Hi & <-). fold (node_at s i). rewrite <- Row by exact Hi.
    destruct i as [|i]; [|now apply HR].
    (* the sum of all the rows is zero *)
    assert (Nd : NoDup (a_nodes s)) by (eapply Permutation_NoDup; [exact Pn|apply Hg]).
    assert (T : rsum (nn s) (fun i => rsum (ne s) (fun j => Gr s i j * f (label_at s j))%R) = 0%R).
    { rewrite rsum_swap. apply rsum_zero. intros j Hj. rewrite rsum_scal_r.
      assert (E : rsum (nn s) (fun i => Gr s i j) = 0%R); [|rewrite E; lra].
      assert (Hj' : In (edge_at s j) (a_edges s)) by now apply nth_In.
      destruct (ends_in g s (edge_at s j) Hg (i_same _ _ _ H) Hj') as [Hs Hd].
      rewrite <- (out_sum_zero (edge_at s j) (a_nodes s) Nd Hs Hd), (lsum_map_nth "").
      apply rsum_ext. intros i' Hi'. now apply (Gr_out g []). }
    replace (nn s) with (1 + (nn s - 1)) in T by lia. rewrite rsum_app in T. cbn [rsum] in T.
    rewrite (rsum_zero (nn s - 1)) in T; [|intros k Hk; apply HR; lia]. lra.
Qed.

Lemma loop_law_rows g s v : graph_ok g -> inv g [] s -> 0 < nn s ->
  loop_law g v <-> (exists p : rvec, forall j, j < ne s -> v (label_at s j) = rsum (nn s - 1) (fun i => Gr s (S i) j * p i)%R).
Proof.
  intros Hg H Hn. pose proof (i_same _ _ _ H) as HS. destruct HS as [Pn Pe].
  assert (Nd : NoDup (a_nodes s)) by (eapply Permutation_NoDup; [exact Pn|apply Hg]).
  assert (Col : forall j (h : string -> R), j < ne s -> rsum (nn s) (fun i => Gr s i j * h (node_at s i))%R =
       (h (e_src (edge_at s j)) - h (e_dst (edge_at s j)))%R).
  { intros j h Hj. assert (Hj' : In (edge_at s j) (a_edges s)) by now apply nth_In.
    destruct (ends_in g s (edge_at s j) Hg (i_same _ _ _ H) Hj') as [Hs Hd].
    rewrite <- (out_sum h (edge_at s j) (a_nodes s) Nd Hs Hd), (lsum_map_nth "").
    apply rsum_ext. intros i Hi. now rewrite (Gr_out g [] s i j H Hi Hj). }
  assert (Cut : forall j (h : string -> R), j < ne s -> h (node_at s 0) = 0%R ->
     rsum (nn s - 1) (fun i => Gr s (S i) j * h (node_at s (S i)))%R = (h (e_src (edge_at s j)) - h (e_dst (edge_at s j)))%R).
  { intros j h Hj H0. rewrite <- Col by exact Hj. replace (nn s) with (1 + (nn s - 1)) at 2 by lia. rewrite rsum_app. cbn [rsum].
    rewrite H0. cbn [Nat.add]. rewrite Rmult_0_r, !Rplus_0_l. reflexivity. }
  split.
  - intros (p & Hp). exists (fun i => p (node_at s (S i)) - p (node_at s 0))%R. intros j Hj.
    assert (Hj' : In (edge_at s j) (a_edges s)) by now apply nth_In.
    destruct (same_edges_in g s _ (i_same _ _ _ H) Hj') as (e' & He' & E).
    assert (El : label_at s j = e_label e') by (apply (f_equal e_label) in E; exact E).
    assert (E1 : e_src (edge_at s j) = e_src e') by (apply (f_equal e_src) in E; exact E).
    assert (E2 : e_dst (edge_at s j) = e_dst e') by (apply (f_equal e_dst) in E; exact E).
    rewrite El, Hp by exact He'.
    rewrite (Cut j (fun n => p n - p (node_at s 0))%R Hj ltac:(lra)), E1, E2. lra.
  - intros (p & Hp).
    exists (fun n => match py_index String.eqb n (a_nodes s) with Ok (S i) => p i | _ => 0%R end).
    set (h := fun n => match py_index String.eqb n (a_nodes s) with Ok (S i) => p i | _ => 0%R end).
    assert (Hx : forall i, i < nn s -> py_index String.eqb (node_at s i) (a_nodes s) = Ok i).
    { intros i Hi. destruct (py_index_total String.eqb (node_at s i) (a_nodes s)) as (k & Ek & Lk).
      - exists (node_at s i). split; [now apply nth_In|apply String.eqb_refl].
      - rewrite Ek. f_equal. apply py_index_spec in Ek as (a & Ha & E). apply String.eqb_eq in E. subst a.
        apply (NoDup_nth_error (a_nodes s)); [exact Nd|exact Lk|]. rewrite Ha. symmetry. now apply nth_error_nth'. }
    intros e He. destruct (same_edges_in' g s e (i_same _ _ _ H) He) as (e' & He' & E).
    destruct (In_nth _ _ noedge He') as (j & Hj & Ej). fold (edge_at s j) in Ej. fold (ne s) in Hj.
    assert (El : e_label e = label_at s j) by (unfold label_at; rewrite Ej; apply (f_equal e_label) in E; exact E).
    assert (E1 : e_src e = e_src (edge_at s j)) by (rewrite Ej; apply (f_equal e_src) in E; exact E).
    assert (E2 : e_dst e = e_dst (edge_at s j)) by (rewrite Ej; apply (f_equal e_dst) in E; exact E).
    rewrite El, E1, E2. change (v (label_at s j) = h (e_src (edge_at s j)) - h (e_dst (edge_at s j)))%R.
    rewrite <- Cut by (try exact Hj; unfold h; now rewrite Hx). rewrite Hp by exact Hj.
    apply rsum_ext. intros i Hi. f_equal. unfold h. now rewrite Hx by lia.
Qed.
