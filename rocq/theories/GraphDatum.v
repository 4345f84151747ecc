(** A graph without reference node never gives a core: C46. *)
From Coq Require Import String List ZArith QArith Bool Lia Permutation.
From Verif Require Import Py Tools Lists Expr Mat Core Graph Spec_Graph GraphProofs GraphAnalysis GraphDeclared GraphBuild.
Import ListNotations.
Local Open Scope string_scope.
Local Open Scope list_scope.
Local Open Scope nat_scope.

Lemma controlled_nodes g s : inv g [] s -> a_icn s = [] -> ~ In datum (a_nodes s) -> nn s <= length (a_fc s).
Proof.
  intros I En Hd.
  assert (P : forall k, k <= nn s -> exists l, length l = k /\ NoDup l /\ incl l (a_fc s) /\
     forall e, In e l -> exists n, n < k /\ a_L s n e = 1%Z).
  { induction k as [|k IH]; intros Hk.
    - exists []. repeat split; [constructor|intros e []|intros e []].
    - destruct IH as (l & L1 & L2 & L3 & L4); [lia|].
      destruct (nth_error (a_nodes s) k) as [m|] eqn:Em; [|apply nth_error_None in Em; unfold nn in Hk; lia].
      assert (Hm : m <> datum) by (intros ->; apply Hd; eapply nth_error_In, Em).
      destruct (i_det _ _ _ I k m Em Hm) as (e & [He|[]] & Hel & E1 & _ & E3); [now rewrite En|].
      exists (e :: l). split; [cbn; lia|]. split; [|split].
      + constructor; [|exact L2]. intros F. destruct (L4 e F) as (n & Hn & E). rewrite (E3 n) in E by lia. discriminate.
      + intros x [<-|Hx]; [exact He|now apply L3].
      + intros x [<-|Hx]; [exists k; split; [lia|exact E1]|]. destruct (L4 x Hx) as (n & Hn & E). exists n. split; [lia|exact E]. }
  destruct (P (nn s) (le_n _)) as (l & <- & L2 & L3 & _). now apply NoDup_incl_length.
Qed.

Lemma no_reference inv0 fuel g c : graph_ok g -> g_nodes g <> [] -> ~ In datum (g_nodes g) -> build_core inv0 fuel g <> Ok c.
Proof.
  intros Hg Hn Hd Hb.
  destruct (build_core_inv inv0 fuel g c Hg Hb) as (s0 & s & B & J & E0 & Ep & I & Eic & Eicn & EB & EJ & Ec).
  destruct (i_same _ _ _ I) as [P _].
  assert (Hd' : ~ In datum (a_nodes s)) by (intros F; apply Hd; eapply Permutation_in; [apply Permutation_sym, P|exact F]).
  pose proof (controlled_nodes g s I Eicn Hd') as L.
  destruct (build_J_spec s B J EJ) as (F & _).
  assert (nn s <> 0); [|lia]. intros F0. apply Hn. apply length_zero_iff_nil. rewrite (Permutation_length P). exact F0.
Qed.
