(** The control of a transformer loaded by a storage: the reason why the
    derivators have their controls. *)
From Coq Require Import String List ZArith QArith Qreals Reals Bool Permutation Arith Lia Lra.
From Verif Require Import Py Expr RSum Mat Core Spec_Core Spec_Connect Graph Spec_Graph GraphConnect Spec_Frac.
Import ListNotations.
Local Open Scope string_scope.
Local Open Scope list_scope.
Local Open Scope nat_scope.

Lemma kinds_perm l : (forall e, In e l -> In (e_type e) kinds) ->
  Permutation (map e_label (of_kind "storage" l) ++ map e_label (of_kind "dissipative" l) ++
    map e_label (of_kind "port" l) ++ map e_label (of_kind "connector" l)) (map e_label l).
Proof.
  induction l as [|e l IH]; intros H; [constructor|]. specialize (IH (fun x Hx => H x (or_intror Hx))).
  destruct (H e (or_introl eq_refl)) as [E|[E|[E|[E|[]]]]]; unfold of_kind; cbn [filter]; rewrite <- E; cbn [String.eqb Ascii.eqb Bool.eqb map app];
    fold (of_kind "storage" l) (of_kind "dissipative" l) (of_kind "port" l) (of_kind "connector" l); cbn [app].
  - now constructor.
  - symmetry. apply Permutation_cons_app. symmetry. exact IH.
  - symmetry. rewrite app_assoc. apply Permutation_cons_app. rewrite <- app_assoc. symmetry. exact IH.
  - symmetry. rewrite !app_assoc. apply Permutation_cons_app. rewrite <- !app_assoc. symmetry. exact IH.
Qed.

Lemma names_perm g c : typed g -> rows_are_edges g c -> Permutation (names c) (map e_label (g_edges g)).
Proof.
  intros Ht (H1 & H2 & H3 & H4). unfold names.
  eapply Permutation_trans; [|apply kinds_perm; exact Ht]. repeat apply Permutation_app; assumption.
Qed.

Definition pos (l : string) (ns : list string) : nat :=
  match find (fun i => String.eqb (nth i ns "") l) (seq 0 (length ns)) with Some i => i | None => 0 end.
Lemma pos_nth ns i : NoDup ns -> i < length ns -> pos (nth i ns "") ns = i.
Proof.
  intros N H. unfold pos. destruct (find _ _) as [k|] eqn:E.
  - apply find_some in E as [Hk E]. apply in_seq in Hk. apply String.eqb_eq in E.
    apply (proj1 (NoDup_nth ns "") N); [lia|exact H|exact E].
  - assert (F := find_none _ _ E i). cbn beta in F. rewrite String.eqb_refl in F. discriminate F. apply in_seq. lia.
Qed.

(** What the structure receives may be anything. *)
Lemma free_values g c eff (rho : string -> R) : typed g -> NoDup (map e_label (g_edges g)) -> rows_are_edges g c ->
  conservative_structure g c eff ->
  exists v f, node_law g f /\ loop_law g v /\ forall l, received eff v f l = rho l.
Proof.
  intros Ht Nl Hr (_ & _ & _ & H). assert (P := names_perm g c Ht Hr).
  assert (Nn : NoDup (names c)) by (apply (Permutation_NoDup (Permutation_sym P)); exact Nl).
  assert (Ln : length (names c) = length (g_edges g)) by (rewrite (Permutation_length P); apply map_length).
  pose (r := fun _ : string => 0%R).
  pose (gam := fun l => rsum (length (g_edges g)) (fun j => Mv r c (pos l (names c)) j * rho (nth j (names c) ""))%R).
  exists (fun l => if existsb (String.eqb l) eff then gam l else rho l), (fun l => if existsb (String.eqb l) eff then rho l else gam l).
  assert (E1 : forall l, received eff (fun l => if existsb (String.eqb l) eff then gam l else rho l)
    (fun l => if existsb (String.eqb l) eff then rho l else gam l) l = rho l).
  { intros l. unfold received. now destruct (existsb (String.eqb l) eff). }
  assert (E2 : forall l, given eff (fun l => if existsb (String.eqb l) eff then gam l else rho l)
    (fun l => if existsb (String.eqb l) eff then rho l else gam l) l = gam l).
  { intros l. unfold given. now destruct (existsb (String.eqb l) eff). }
  specialize (H r (fun l => if existsb (String.eqb l) eff then gam l else rho l) (fun l => if existsb (String.eqb l) eff then rho l else gam l)).
  destruct H as [H _]. destruct H as [K L].
  - intros i Hi. rewrite E2. unfold gam. rewrite pos_nth by (try exact Nn; lia).
    apply rsum_ext. intros j Hj. now rewrite E1.
  - split; [exact K|]. split; [exact L|exact E1].
Qed.

Lemma lsum_only {A} (h : A -> R) l a : NoDup l -> In a l -> (forall b, In b l -> b <> a -> h b = 0%R) -> lsum (map h l) = h a.
Proof.
  induction l as [|x l IH]; intros N Ha H; [destruct Ha|]. inversion N as [|? ? Nx N']; subst.
  assert (Z : (forall b, In b l -> h b = 0%R) -> lsum (map h l) = 0%R).
  { clear. induction l as [|b l IH]; intros H; [reflexivity|]. cbn. fold (lsum (map h l)).
    rewrite (H b (or_introl eq_refl)), IH by (intros x Hx; apply H; now right). lra. }
  cbn. fold (lsum (map h l)). destruct Ha as [->|Ha].
  - rewrite Z; [lra|]. intros b Hb. apply H; [now right|]. intros ->. now apply Nx.
  - rewrite (H x), IH; [lra|exact N'|exact Ha|intros b Hb; apply H; now right|now left|]. intros ->. now apply Nx.
Qed.

Lemma in_existsb l eff : existsb (String.eqb l) eff = true <-> In l eff.
Proof.
  rewrite existsb_exists. split; [intros (x & Hx & E); apply String.eqb_eq in E; now subst|].
  intros H. exists l. split; [exact H|apply String.eqb_refl].
Qed.

(** Of two edges alone at a node and in parallel, one gives the effort and the
    other one the flow. *)
Lemma one_gives g c eff S B : typed g -> NoDup (map e_label (g_edges g)) -> graph_ok g -> rows_are_edges g c ->
  conservative_structure g c eff -> In S (g_edges g) -> In B (g_edges g) -> S <> B ->
  e_src S = e_src B -> e_dst S = e_dst B -> e_src S <> e_dst S ->
  (forall e, In e (g_edges g) -> e_src e = e_src S \/ e_dst e = e_src S -> e = S \/ e = B) ->
  existsb (String.eqb (e_label S)) eff = negb (existsb (String.eqb (e_label B)) eff).
Proof.
  intros Ht Nl Hg Hr Hc HS HB D Es Ed Dn Al.
  assert (Dl : e_label B <> e_label S).
  { intros E. apply D. clear - Nl HS HB E. induction (g_edges g) as [|x l IH]; [destruct HS|].
    inversion Nl as [|? ? Nx N']; subst. destruct HS as [->|HS], HB as [->|HB].
    - reflexivity.
    - contradiction Nx. rewrite <- E. now apply in_map.
    - contradiction Nx. rewrite E. now apply in_map.
    - now apply IH. }
  assert (Ne : NoDup (g_edges g)) by (now apply NoDup_map_inv in Nl).
  destruct (free_values g c eff (fun l => if String.eqb l (e_label S) then 1%R else 0%R) Ht Nl Hr Hc) as (v & f & K & (p & L) & F).
  assert (FS := F (e_label S)). assert (FB := F (e_label B)). unfold received in FS, FB.
  rewrite String.eqb_refl in FS. rewrite (proj2 (String.eqb_neq _ _) Dl) in FB.
  destruct (existsb (String.eqb (e_label S)) eff), (existsb (String.eqb (e_label B)) eff); try reflexivity; exfalso.
  - specialize (K (e_src S) (proj1 (proj2 Hg S HS))).
    rewrite (lsum_only _ _ S Ne HS) in K.
    + unfold out_of in K. rewrite String.eqb_refl, (proj2 (String.eqb_neq _ _) (not_eq_sym Dn)), FS in K. cbn in K. lra.
    + intros e He De. destruct (String.eqb_spec (e_src e) (e_src S)) as [E|E];
        [destruct (Al e He (or_introl E)) as [->| ->]; [now contradiction De|rewrite FB; lra]|].
      destruct (String.eqb_spec (e_dst e) (e_src S)) as [E'|E'];
        [destruct (Al e He (or_intror E')) as [->| ->]; [now contradiction De|rewrite FB; lra]|].
      unfold out_of. rewrite (proj2 (String.eqb_neq _ _) E), (proj2 (String.eqb_neq _ _) E'). cbn. lra.
  - assert (LS := L S HS). assert (LB := L B HB). rewrite Es, Ed in LS. lra.
Qed.

(** The two edges of a transformer have opposite controls. *)
Lemma opposite g c eff A B al k : connectors_match g c eff -> In A (g_edges g) -> In B (g_edges g) ->
  e_type A = "connector" -> e_ctype A = "transformer" -> mates A B -> e_alpha A = Some al -> e_alpha B = None ->
  In k (c_connectors c) -> k_y0 k = e_label A -> k_y1 k = e_label B ->
  existsb (String.eqb (e_label A)) eff = negb (existsb (String.eqb (e_label B)) eff).
Proof.
  intros Hc HA HB Ty Ct M Al Bl Hk K0 K1. pose (r := fun _ : string => 0%R).
  assert (D : e_label B <> e_label A) by (destruct M as (_ & _ & _ & _ & M); congruence).
  pose (on := fun a b l => if String.eqb l (e_label A) then a else if String.eqb l (e_label B) then b else 0%R).
  assert (OA : forall a b, on a b (e_label A) = a) by (intros; unfold on; now rewrite String.eqb_refl).
  assert (OB : forall a b, on a b (e_label B) = b) by (intros; unfold on; now rewrite (proj2 (String.eqb_neq _ _) D), String.eqb_refl).
  assert (H : forall eA fA eB fB, transformer r k (received eff (on eA eB) (on fA fB)) (given eff (on eA eB) (on fA fB)) ->
    transformer_law (eval r al) (existsb (String.eqb (e_label A)) eff) eA fA eB fB).
  { intros eA fA eB fB T. apply (Hc A B al k HA HB Ty M Al Bl Hk K0 K1) in T. rewrite Ct, !OA, !OB in T. exact T. }
  unfold transformer, received, given in H. rewrite K0, K1 in H.
  destruct (existsb (String.eqb (e_label A)) eff), (existsb (String.eqb (e_label B)) eff); try reflexivity; exfalso.
  - specialize (H 0 (- (eval r (k_alpha k) * 1)) 1 (eval r (k_alpha k) * 0))%R. rewrite !OA, !OB in H.
    destruct H as [_ H]; [split; reflexivity|]. lra.
  - specialize (H (- (eval r (k_alpha k) * 1)) 0 (eval r (k_alpha k) * 0) 1)%R. rewrite !OA, !OB in H.
    destruct H as [_ H]; [split; reflexivity|]. lra.
Qed.

Lemma loaded_control inv fuel g c : graph_ok g -> typed g -> NoDup (map e_label (g_edges g)) -> qinv_correct inv ->
  free_links (g_edges g) -> linked (g_edges g) -> conn_table g -> build_core inv fuel g = Ok c ->
  exists eff, conservative_structure g c eff /\ connectors_match g c eff /\
    forall S A B al k, loaded g c S A B al k ->
      (e_ctrl S = "e" -> existsb (String.eqb (e_label A)) eff = true) /\
      (e_ctrl S = "f" -> existsb (String.eqb (e_label A)) eff = false).
Proof.
  intros H1 H2 H3 H4 H5 H6 H7 H8.
  destruct (build_all inv fuel g c H1 H2 H3 H4 H8) as (eff & flo & P & R2 & R3 & _ & _ & R6 & R7).
  specialize (R6 H5). specialize (R7 H6 H7). exists eff. split; [exact R3|]. split; [exact R7|].
  intros S A B al k [S1 S2 S3 S4 S5 S6 S7 S8 S9 S10 S11 S12 S13 S14 S15 S16].
  assert (SB : S <> B) by (intros ->; destruct S7 as (M & _); rewrite M in S4; discriminate).
  assert (E1 := one_gives g c eff S B H2 H3 H1 R2 R3 S1 S3 SB S13 S14 S15 S16).
  assert (E2 := opposite g c eff A B al k R7 S2 S3 S5 S6 S7 S8 S9 S10 S11 S12).
  rewrite E2, <- E1. destruct (R6 S S1) as [De Df]. split; intros C.
  - apply in_existsb. now apply De.
  - destruct (existsb (String.eqb (e_label S)) eff) eqn:E; [|reflexivity]. exfalso.
    apply in_existsb in E. specialize (Df C).
    assert (N : NoDup (eff ++ flo)) by (apply (Permutation_NoDup P); exact H3).
    clear - N E Df. induction eff as [|x eff IH]; [destruct E|]. cbn in N. inversion N as [|? ? Nx N']; subst.
    destruct E as [->|E]; [apply Nx; apply in_or_app; now right|now apply IH].
Qed.
