(** A group with every kind of component, and a group whose new names clash. *)
From Coq Require Import String List ZArith QArith Qreals Reals Bool Lra Lia.
From Verif Require Import Py Expr RSum Core ExprProofs Spec_Calculus Calculus Deriv Merge Spec_Merge MergeProofs MergeBehave MergeSteps.
Import ListNotations.
Local Open Scope string_scope.
Local Open Scope list_scope.
Local Open Scope R_scope.

(** Two resistors, two inductors (one of them reversed) and two capacitors in
    parallel. *)
Definition half_sq (x : string) (k : expr) : expr := Mul k (Mul (Num (1#2)) (Pow (Sym x) 2)).
Definition mixed_group : subgraph :=
  mkSG SE
    [mkSE false SI "wA" (Some (Mul (Sym "wA") (Inv (Sym "R")))) (Some (Mul (Sym "R") (Sym "wA"))) true;
     mkSE true SE "xL1" None None false;
     mkSE true SF "xC1" None None true;
     mkSE false SI "wB" (Some (Mul (Num 3) (Sym "wB"))) (Some (Mul (Num (1#3)) (Sym "wB"))) false;
     mkSE true SE "xL2" None None true;
     mkSE true SF "xC2" None None false]
    (Add (Add (half_sq "xL1" (Inv (Sym "L"))) (half_sq "xL2" (Num 3)))
         (Add (half_sq "xC1" (Num 7)) (half_sq "xC2" (Sym "R")))).
Definition mixed_values : env := fun s => if String.eqb s "R" then 2 else if String.eqb s "L" then 5 else 0.

Lemma mixed_good : linear_group ["R"; "L"] mixed_values mixed_group /\ names_ok ["R"; "L"] mixed_group.
Proof.
  split.
  - exists (fun s => if String.eqb s "wA" then / 2 else if String.eqb s "xL1" then / 5
                     else if String.eqb s "xC1" then 7 else if String.eqb s "xC2" then 2 else 3).
    assert (V : forall r', same_on ["R"; "L"] mixed_values r' -> r' "R" = 2 /\ r' "L" = 5).
    { intros r' H. split; [apply (H "R")|apply (H "L")]; cbn; auto. }
    split; [now left|]. split.
    + exists 0. intros r' H. destruct (V r' H) as [VR VL]. split; [cbn; rewrite VL; repeat split; lra|].
      unfold sum_over, storage_energy. cbn. rewrite VL, VR. unfold Q2R. cbn. field.
    + intros e He. cbn in He.
      destruct He as [<-|[<-|[<-|[<-|[<-|[<-|[]]]]]]]; cbn; (split; [lra|]); try discriminate.
      * split; eexists; (split; [reflexivity|]); intros r' H; destruct (V r' H) as [VR VL]; cbn; rewrite ?VR; (split; [repeat split; lra|]); field.
      * split; eexists; (split; [reflexivity|]); intros r' H; cbn; (split; [repeat split; lra|]); unfold Q2R; cbn; field.
  - split; [|split].
    + cbn. repeat (constructor; [cbn; intuition discriminate|]). constructor.
    + intros s [<-|[<-|[]]]; cbn; intuition discriminate.
    + intros s H. cbn in H. cbn. intuition (subst; discriminate).
Qed.

(** The result has one edge of each kind. *)
Lemma mixed_result : exists g, merge_all 7 mixed_group = Ok g /\ labels g = ["wAB"; "xL1L2"; "xC1C2"].
Proof. eexists. split; [vm_compute; reflexivity|reflexivity]. Qed.

(** Two inductors and two capacitors in parallel, with unlucky names. *)
Definition clash_group : subgraph :=
  mkSG SE [mkSE true SE "xa" None None true; mkSE true SE "xbc" None None true;
           mkSE true SF "xab" None None true; mkSE true SF "xc" None None true]
    (Add (Add (half_sq "xa" (Num 1)) (half_sq "xbc" (Num 1)))
         (Add (half_sq "xab" (Num 1)) (half_sq "xc" (Num 1)))).

Lemma clash_linear : linear_with [] (fun _ => 0) clash_group (fun _ => 1).
Proof.
  split; [now left|]. split.
  - exists 0. intros r' _. split; [cbn; repeat split|]. unfold sum_over, storage_energy. cbn. unfold Q2R. cbn. field.
  - intros e He. cbn in He. destruct He as [<-|[<-|[<-|[<-|[]]]]]; cbn; (split; [lra|discriminate]).
Qed.

Lemma clash_before : behaviour (fun _ => 0) clash_group (fun _ => 0) (fun _ => 1).
Proof.
  apply (behaviour_nb [] (fun _ => 0) clash_group (fun _ => 1) clash_linear).
  - cbn. repeat (constructor; [cbn; intuition discriminate|]). constructor.
  - intros s [].
  - cbn. exists (fun _ => 1), (fun _ => 1), (fun _ => 0). split; [|split; [|intros; ring]].
    { intros t. cbn. split; [apply derivable_pt_lim_const|ring]. }
    exists (fun _ => 0), (fun _ => 0), (fun _ => 0). split; [|split; [|intros; ring]].
    { intros t. cbn. split; [apply derivable_pt_lim_const|ring]. }
    exists (fun _ => 0), (fun _ => 0), (fun _ => 0). split; [|split; [|intros; ring]].
    { intros t. cbn. split; [apply derivable_pt_lim_const|ring]. }
    exists (fun _ => 0), (fun _ => 0), (fun _ => 0). split; [|split; [|intros; ring]].
    { intros t. cbn. split; [apply derivable_pt_lim_const|ring]. }
    reflexivity.
Qed.

Lemma clash_after g : merge_all 5 clash_group = Ok g -> ~ behaviour (fun _ => 0) g (fun _ => 0) (fun _ => 1).
Proof.
  intros E. assert (EG : g_group g = [mkSE true SE "xabc" None None true; mkSE true SF "xabc" None None true] /\ g_real g = SE).
  { vm_compute in E. injection E as <-. split; reflexivity. }
  clear E. destruct EG as [EG ER]. intros (v & eff & flx & _ & He & Ht). rewrite ER, EG in Ht. rewrite EG in He.
  pose proof (He _ (or_introl eq_refl) 0) as H1. pose proof (He _ (or_intror (or_introl eq_refl)) 0) as H2. cbn in H1, H2.
  destruct (Ht 0) as [G1 G2]. specialize (G1 _ (or_introl eq_refl)). cbn in G1.
  assert (EF : eff "xabc" 0 = flx "xabc" 0) by (eapply uniqueness_limite; [apply H1|apply H2]).
  unfold sum_over in G2. cbn in G2. rewrite <- EF in G2. unfold sign in G1, G2. cbn in G1, G2. clear - G1 G2. lra.
Qed.

Lemma clash_refuted : exists r g g' E F, linear_group [] r g /\ NoDup (labels g) /\
  merge_all (S (length (g_group g))) g = Ok g' /\ behaviour r g E F /\ ~ behaviour r g' E F.
Proof.
  destruct (merge_all 5 clash_group) as [g'|e] eqn:E; [|vm_compute in E; discriminate].
  exists (fun _ => 0), clash_group, g', (fun _ => 0), (fun _ => 1).
  split; [exists (fun _ => 1); exact clash_linear|]. split.
  { cbn. repeat (constructor; [cbn; intuition discriminate|]). constructor. }
  split; [exact E|]. split; [exact clash_before|now apply clash_after].
Qed.

(** Shared input: the laws add.  Shared output: their inverses add. *)
Lemma shared_input_adds P r w z k W Z : NoDup w -> length z = length w -> length k = length w ->
  (forall s, In s w -> ~ In s P) -> realizable_merge_dissipatives w z = (W, Z) -> ~ In W w ->
  (forall i, (i < length w)%nat -> linear_law P r (nth i w "") (nth_error z i) (nth i k 0)) ->
  linear_law P r W (Some Z) (rsum (length w) (fun i => nth i k 0)).
Proof.
  intros _ Lz Lk HP E HW HL.
  assert (F : Forall2 (fun p kk => lin P r (fst p) (snd p) kk) (combine z w) k).
  { clear E HW. revert z k Lz Lk HL. induction w as [|w0 w IH]; intros [|z0 z] [|k0 k] Lz Lk HL; try discriminate; cbn; constructor.
    - destruct (HL 0%nat) as (e & Ee & He); [cbn; lia|]. cbn in Ee. injection Ee as <-. exact He.
    - apply IH; auto; [intros s Hs; apply HP; now right|]. intros i Hi. apply (HL (S i)). cbn. lia. }
  assert (EW : W = merged_name "w" w) by (unfold realizable_merge_dissipatives in E; congruence).
  destruct (merge_rc_diss_ok P r w z k HP) as [_ M]; [now rewrite <- EW|exact Lz|exact F|].
  rewrite E in M. cbn [snd] in M. rewrite <- EW in M. exists Z. split; [reflexivity|].
  assert (S : rsum (length w) (fun i => nth i k 0) = lsum k).
  { rewrite rsum_lsum, <- Lk. f_equal. clear. induction k as [|a k IH]; [reflexivity|]. cbn. f_equal.
    rewrite <- seq_shift, map_map. exact IH. }
  rewrite S. exact M.
Qed.
