(** Round trip of netlists: C29. *)
From Coq Require Import Ascii String List Bool Arith Lia.
From Verif Require Import Py Netlist Spec_Netlist.
Import ListNotations.
Local Open Scope char_scope.
Local Open Scope list_scope.
Local Open Scope nat_scope.

Lemma chr_in_spec c l : chr_in c l = true <-> In c l.
Proof.
  unfold chr_in. rewrite existsb_exists. split.
  - intros (x & Hx & E). apply Ascii.eqb_eq in E. now subst.
  - intros H. exists c. split; [exact H|apply Ascii.eqb_refl].
Qed.
Lemma space_spec c : is_space c = true <-> In c blanks.
Proof. rewrite <- chr_in_spec. destruct c as [[] [] [] [] [] [] [] []]; vm_compute; split; congruence. Qed.
Lemma text_eqb_spec a b : text_eqb a b = true <-> a = b.
Proof. unfold text_eqb. destruct (list_eq_dec ascii_dec a b); split; congruence. Qed.
Lemma avoids_app b x y : avoids b (x ++ y) <-> avoids b x /\ avoids b y.
Proof.
  unfold avoids. split.
  - intros H. split; intros c Hc; apply H, in_or_app; auto.
  - intros [H1 H2] c Hc. apply in_app_or in Hc as [Hc|Hc]; auto.
Qed.
Lemma avoids_sub b b' t : incl b' b -> avoids b t -> avoids b' t.
Proof. intros Hi H c Hc F. apply (H c Hc), Hi, F. Qed.
Lemma avoids_one b c t : avoids b t -> In c b -> ~ In c t.
Proof. intros H Hc F. exact (H c F Hc). Qed.

(** ** Literals *)
Definition lit_char (c : ascii) : bool := is_digit c || chr_in c (T "+-.eETrueFalseNone").
Lemma lit_char_avoids c : lit_char c = true -> ~ In c (blanks ++ T "'""\,;=:()#").
Proof. rewrite <- chr_in_spec. destruct c as [[] [] [] [] [] [] [] []]; vm_compute; congruence. Qed.
Lemma num_step_char s c s' : num_step s c = Some s' -> lit_char c = true.
Proof. destruct s; destruct c as [[] [] [] [] [] [] [] []]; vm_compute; congruence. Qed.
Lemma num_run_chars t : forall s, num_run s t = true -> forallb lit_char t = true.
Proof.
  induction t as [|c t IH]; intros s; [reflexivity|]. cbn [num_run forallb].
  destruct (num_step s c) as [s'|] eqn:E; [|discriminate]. intros H.
  rewrite (num_step_char _ _ _ E), (IH _ H). reflexivity.
Qed.
Lemma is_lit_spec t : is_lit t = true -> t <> [] /\ forallb lit_char t = true.
Proof.
  unfold is_lit. intros H. apply orb_true_iff in H as [H|H].
  - split; [intros ->; discriminate|]. eapply num_run_chars, H.
  - cbn [existsb] in H. repeat (apply orb_true_iff in H as [H|H]; [apply text_eqb_spec in H; subst; split; [discriminate|vm_compute; reflexivity]|]). discriminate.
Qed.
Lemma is_lit_avoids t : is_lit t = true -> avoids (blanks ++ T "'""\,;=:()#") t.
Proof.
  intros H c Hc. apply is_lit_spec in H as [_ H]. rewrite forallb_forall in H. apply lit_char_avoids, H, Hc.
Qed.

Lemma chomp_id t : ~ In nl t -> chomp t = t.
Proof.
  intros H. unfold chomp. destruct (rev t) as [|a r] eqn:E; [reflexivity|].
  destruct (Ascii.eqb a nl) eqn:Ea; [|reflexivity]. apply Ascii.eqb_eq in Ea. subst a.
  exfalso. apply H. apply in_rev. rewrite E. now left.
Qed.
Lemma chomp_end t a : a <> nl -> chomp (t ++ [a]) = t ++ [a].
Proof.
  intros H. unfold chomp. rewrite rev_unit. destruct (Ascii.eqb a nl) eqn:Ea; [|reflexivity].
  apply Ascii.eqb_eq in Ea. now subst.
Qed.

Lemma quoted s : forallb plain s = true -> is_str ([quote] ++ s ++ [quote]) = Some s.
Proof.
  intros H. cbn [is_str app]. replace (chr_in quote [quote; dquote]) with true by reflexivity.
  rewrite rev_unit. rewrite Ascii.eqb_refl. cbn [andb]. rewrite rev_involutive, H. reflexivity.
Qed.
Lemma lit_head t : is_lit t = true -> is_str t = None.
Proof.
  intros H. destruct t as [|q t]; [reflexivity|]. cbn [is_str].
  destruct (chr_in q [quote; dquote]) eqn:E; [|reflexivity]. exfalso. apply chr_in_spec in E.
  apply (is_lit_avoids _ H q); [now left|]. apply in_or_app. right. destruct E as [<-|[<-|[]]]; vm_compute; auto.
Qed.
Lemma atom_of_repr bad a : atom_ok bad a -> atom_of (repr_atom a) = Some a.
Proof.
  destruct a as [s|t]; cbn [atom_ok repr_atom]; intros H; unfold atom_of.
  - rewrite quoted; [reflexivity|]. apply forallb_forall. intros c Hc. unfold plain. apply negb_true_iff.
    destruct (chr_in c [quote; dquote; "\"; ","; nl]) eqn:E; [|reflexivity]. exfalso. apply chr_in_spec in E.
    apply (H c Hc). apply in_or_app.
    destruct E as [<-|[<-|[<-|[<-|[<-|[]]]]]];
      [right; apply in_or_app; left; vm_compute; auto .. |left; vm_compute; auto].
  - rewrite (lit_head t H), H. reflexivity.
Qed.
Lemma repr_avoids bad a c : atom_ok bad a -> In c (blanks ++ [","] ++ bad) -> ~ In c (T "'") ->
  ~ (lit_char c = true) -> ~ In c (repr_atom a).
Proof.
  destruct a as [s|t]; cbn [atom_ok repr_atom]; intros H Hc Hq Hl F.
  - apply in_app_or in F as [F|F]; [now apply Hq|]. apply in_app_or in F as [F|F]; [|now apply Hq].
    apply (H c F). apply in_app_or in Hc as [Hc|Hc]; apply in_or_app; [now left|right].
    destruct Hc as [<-|Hc]; [vm_compute; auto|]. apply in_or_app. now right.
  - apply Hl. apply is_lit_spec in H as [_ H]. rewrite forallb_forall in H. now apply H.
Qed.
Lemma repr_nonempty bad a : atom_ok bad a -> repr_atom a <> [].
Proof. destruct a as [s|t]; cbn; intros H; [discriminate|]. now apply is_lit_spec in H. Qed.
Lemma atoms_of_repr bad l : Forall (atom_ok bad) l -> atoms_of (map repr_atom l) = Some l.
Proof.
  induction 1 as [|a l Ha _ IH]; [reflexivity|]. cbn [map atoms_of]. now rewrite (atom_of_repr _ _ Ha), IH.
Qed.

(** ** Splitting *)
Lemma split_plain c t : ~ In c t -> split_on c t = [t].
Proof.
  induction t as [|a t IH]; intros H; [reflexivity|]. cbn [split_on].
  destruct (Ascii.eqb a c) eqn:E; [apply Ascii.eqb_eq in E; subst; exfalso; apply H; now left|].
  rewrite IH; [reflexivity|]. intros F. apply H. now right.
Qed.
Lemma split_app c t r : ~ In c t -> split_on c (t ++ c :: r) = t :: split_on c r.
Proof.
  induction t as [|a t IH]; intros H.
  - cbn [app split_on]. now rewrite Ascii.eqb_refl.
  - cbn [app split_on]. destruct (Ascii.eqb a c) eqn:E; [apply Ascii.eqb_eq in E; subst; exfalso; apply H; now left|].
    rewrite IH; [reflexivity|]. intros F. apply H. now right.
Qed.
Lemma split_join c l : l <> [] -> Forall (fun t => ~ In c t) l -> split_on c (join [c] l) = l.
Proof.
  induction l as [|a l IH]; intros Hl H; [congruence|]. inversion H as [|? ? H1 H2]; subst.
  destruct l as [|b l]; [now apply split_plain|].
  change (join [c] (a :: b :: l)) with (a ++ [c] ++ join [c] (b :: l)). cbn [app].
  rewrite split_app by exact H1. f_equal. apply IH; [discriminate|exact H2].
Qed.
Lemma partition_app c a b : ~ In c a -> partition c (a ++ c :: b) = (a, b).
Proof.
  induction a as [|x a IH]; intros H; cbn [app partition]; [now rewrite Ascii.eqb_refl|].
  destruct (Ascii.eqb x c) eqn:E; [apply Ascii.eqb_eq in E; subst; exfalso; apply H; now left|].
  rewrite IH; [reflexivity|]. intros F. apply H. now right.
Qed.
Lemma words_from_concat t : forall w, concat (words_from w t) = w ++ filter (fun c => negb (is_space c)) t.
Proof.
  induction t as [|a t IH]; intros w; cbn [words_from filter].
  - destruct w; cbn; now rewrite ?app_nil_r.
  - destruct (is_space a); cbn [negb].
    + destruct w; cbn [concat]; rewrite ?IH; reflexivity.
    + rewrite IH. now rewrite <- app_assoc.
Qed.
Lemma words_concat t : concat (words t) = filter (fun c => negb (is_space c)) t.
Proof. apply words_from_concat. Qed.
Lemma words_from_word a t : avoids blanks a -> forall w, w ++ a <> [] -> words_from w (a ++ " " :: t) = (w ++ a) :: words t.
Proof.
  induction a as [|c a IH]; intros H w Hw.
  - cbn [app words_from]. replace (is_space " ") with true by reflexivity. rewrite app_nil_r in *. destruct w; [congruence|reflexivity].
  - cbn [app words_from]. destruct (is_space c) eqn:E; [apply space_spec in E; exfalso; apply (H c (or_introl eq_refl) E)|].
    rewrite IH.
    + now rewrite <- app_assoc.
    + intros x Hx. apply H. now right.
    + destruct w; discriminate.
Qed.
Lemma words_word a t : avoids blanks a -> a <> [] -> words (a ++ " " :: t) = a :: words t.
Proof. intros H1 H2. now apply (words_from_word a t H1 []). Qed.
Lemma filter_keep {A} (p : A -> bool) l : Forall (fun a => p a = true) l -> filter p l = l.
Proof. induction 1 as [|a l H _ IH]; [reflexivity|]. cbn. now rewrite H, IH. Qed.

(** ** Values *)
(** The text of a tuple without spaces. *)
Definition compact (l : list atom) : text :=
  match l with
  | [a] => ["("] ++ repr_atom a ++ [","; ")"]
  | _ => ["("] ++ join [","] (map repr_atom l) ++ [")"]
  end.
Definition compact_val (v : pyval) : text := match v with VTup l => compact l | VAtom _ => str_val v end.

Lemma no_comma bad l : Forall (atom_ok bad) l -> Forall (fun t => ~ In "," t) (map repr_atom l).
Proof.
  intros H. apply Forall_map. eapply Forall_impl; [|exact H]. intros a Ha. apply (repr_avoids bad a); [exact Ha|..].
  - apply in_or_app. right. now left.
  - intros [F|[]]. discriminate.
  - discriminate.
Qed.
Lemma tuple_many bad l : 2 <= length l -> Forall (atom_ok bad) l -> tuple_of (join [","] (map repr_atom l)) = Some (VTup l).
Proof.
  intros Hl H. unfold tuple_of. rewrite split_join; [|destruct l; [cbn in Hl; lia|discriminate]|eapply no_comma, H].
  assert (Hn : forall r, rev (map repr_atom l) <> [] :: r).
  { intros r E. assert (@In text [] (map repr_atom l)) as F by (apply (proj2 (in_rev (map repr_atom l) ([]:text))); rewrite E; now left).
    apply in_map_iff in F as (a & F & Ha). rewrite Forall_forall in H. apply (repr_nonempty bad a (H a Ha) F). }
  destruct (rev (map repr_atom l)) as [|[|x y] r] eqn:E; [|exfalso; now apply (Hn r)|].
  - apply (f_equal (@length _)) in E. rewrite rev_length, map_length in E. cbn in E. lia.
  - destruct l as [|a [|b l]]; [cbn in Hl; lia|cbn in Hl; lia|]. cbn [map]. cbn [map] in *.
    change (option_map VTup (atoms_of (map repr_atom (a :: b :: l))) = Some (VTup (a :: b :: l))).
    now rewrite (atoms_of_repr bad).
Qed.
Lemma literal_compact bad l : Forall (atom_ok bad) l -> literal (compact l) = Some (VTup l).
Proof.
  intros H. unfold literal, compact.
  destruct l as [|a [|b l]].
  - reflexivity.
  - inversion H as [|? ? Ha _]; subst.
    replace (["("] ++ repr_atom a ++ [","; ")"]) with ((["("] ++ repr_atom a ++ [","]) ++ [")"]) by (rewrite <- !app_assoc; reflexivity).
    rewrite chomp_end by discriminate. rewrite <- app_assoc. cbn [app].
    rewrite rev_unit, rev_involutive.
    unfold tuple_of. rewrite split_app by (pose proof (no_comma bad [a] H) as F; now inversion F).
    cbn [split_on rev app]. cbn [atoms_of]. now rewrite (atom_of_repr bad a Ha).
  - rewrite app_assoc. rewrite chomp_end by discriminate. rewrite <- app_assoc. cbn [app].
    rewrite rev_unit, rev_involutive. apply (tuple_many bad); [cbn; lia|exact H].
Qed.
Lemma literal_lit t : is_lit t = true -> literal t = Some (VAtom (ALit t)).
Proof.
  intros H. pose proof (is_lit_avoids t H) as Ha. unfold literal. rewrite chomp_id; [|eapply avoids_one; [exact Ha|vm_compute; auto]].
  assert (Et : tuple_of t = Some (VAtom (ALit t))).
  { unfold tuple_of. rewrite split_plain; [|eapply avoids_one; [exact Ha|vm_compute; tauto]]. cbn [rev app].
    destruct t as [|c t]; [discriminate|]. unfold atom_of. rewrite (lit_head _ H), H. reflexivity. }
  destruct t as [|c t]; [discriminate|].
  assert (Hc : c <> "(") by (intros ->; apply (Ha "(" (or_introl eq_refl)); vm_compute; tauto).
  destruct (ascii_dec c "(") as [F|_]; [contradiction|].
  destruct c as [[] [] [] [] [] [] [] []]; try exact Et. congruence.
Qed.
Lemma literal_nodes v : nodes_ok v -> literal (compact_val v) = Some v.
Proof.
  destruct v as [[s|t]|l]; cbn [nodes_ok compact_val str_val]; intros H; [contradiction|now apply literal_lit|now apply (literal_compact [":"])].
Qed.

Lemma blanks_space c : In c blanks -> is_space c = true.
Proof. apply space_spec. Qed.
Lemma keep_nonblank (p : ascii -> bool) t : (forall c, p c = false -> In c blanks) -> avoids blanks t -> filter p t = t.
Proof.
  intros Hp H. apply filter_keep. apply Forall_forall. intros c Hc. destruct (p c) eqn:E; [reflexivity|].
  exfalso. exact (H c Hc (Hp c E)).
Qed.
Lemma repr_blanks bad a : atom_ok bad a -> avoids blanks (repr_atom a).
Proof.
  intros H c Hc F. revert Hc. apply (repr_avoids bad a); [exact H|apply in_or_app; now left|..].
  - intros [<-|[]]. vm_compute in F. intuition discriminate.
  - intros E. apply lit_char_avoids in E. apply E, in_or_app. now left.
Qed.
Lemma filter_join p l : p "," = true -> p " " = false -> Forall (fun t => filter p t = t) l ->
  filter p (join [","; " "] l) = join [","] l.
Proof.
  intros Hc Hs. induction 1 as [|a l Ha _ IH]; [reflexivity|]. destruct l as [|b l]; [exact Ha|].
  change (join [","; " "] (a :: b :: l)) with (a ++ [","; " "] ++ join [","; " "] (b :: l)).
  change (join [","] (a :: b :: l)) with (a ++ [","] ++ join [","] (b :: l)).
  rewrite !filter_app, Ha. f_equal. cbn [filter]. rewrite Hc, Hs. cbn [app]. f_equal. exact IH.
Qed.
Lemma filter_tuple p bad l : p "," = true -> p " " = false -> p "(" = true -> p ")" = true ->
  (forall c, p c = false -> In c blanks) -> Forall (atom_ok bad) l -> filter p (str_val (VTup l)) = compact l.
Proof.
  intros H1 H2 H3 H4 Hp H.
  assert (Ha : Forall (fun t => filter p t = t) (map repr_atom l)).
  { apply Forall_map. eapply Forall_impl; [|exact H]. intros a A. apply keep_nonblank; [exact Hp|eapply repr_blanks, A]. }
  destruct l as [|a [|b l]].
  - cbn. now rewrite H3, H4.
  - inversion Ha as [|? ? Ea _]; subst. cbn [str_val compact]. rewrite !filter_app, Ea. cbn [filter]. now rewrite H1, H3, H4.
  - change (str_val (VTup (a :: b :: l))) with (["("] ++ join [","; " "] (map repr_atom (a :: b :: l)) ++ [")"]).
    rewrite !filter_app. rewrite filter_join by assumption. cbn [filter]. rewrite H3, H4. reflexivity.
Qed.
Definition nonspace (c : ascii) : bool := negb (is_space c).
Lemma nonspace_blanks c : nonspace c = false -> In c blanks.
Proof. unfold nonspace. intros H. apply negb_false_iff in H. now apply space_spec. Qed.
Definition nonblank (c : ascii) : bool := negb (Ascii.eqb c " ").
Lemma nonblank_blanks c : nonblank c = false -> In c blanks.
Proof. unfold nonblank. intros H. apply negb_false_iff, Ascii.eqb_eq in H. subst. vm_compute. tauto. Qed.

Lemma lit_blanks t : is_lit t = true -> avoids blanks t.
Proof. intros H. eapply avoids_sub; [|apply (is_lit_avoids t H)]. intros c Hc. apply in_or_app. now left. Qed.
Lemma nodes_text v : nodes_ok v -> filter nonspace (str_val v) = compact_val v.
Proof.
  destruct v as [[s|t]|l]; cbn [nodes_ok]; intros H; [contradiction| |].
  - apply keep_nonblank; [exact nonspace_blanks|now apply lit_blanks].
  - apply (filter_tuple _ [":"]); [reflexivity..|exact nonspace_blanks|exact H].
Qed.
Lemma value_text valid v : value_ok valid v -> no_spaces (str_val v) = compact_val v.
Proof.
  destruct v as [[s|t]|l]; cbn [value_ok]; intros H.
  - apply (keep_nonblank nonblank); [exact nonblank_blanks|]. destruct H as [H _]. eapply avoids_sub; [|exact H].
    intros c Hc. apply in_or_app. now left.
  - apply (keep_nonblank nonblank); [exact nonblank_blanks|now apply lit_blanks].
  - destruct H as [_ H]. apply (filter_tuple nonblank [";"; "="]); [reflexivity..|exact nonblank_blanks|exact H].
Qed.

Lemma join_chars (c : ascii) sep l : In c (join sep l) -> In c sep \/ exists t, In t l /\ In c t.
Proof.
  induction l as [|a l IH]; [intros []|]. destruct l as [|b l].
  - intros H. right. exists a. split; [now left|exact H].
  - change (join sep (a :: b :: l)) with (a ++ sep ++ join sep (b :: l)). intros H.
    apply in_app_or in H as [H|H]; [right; exists a; split; [now left|exact H]|].
    apply in_app_or in H as [H|H]; [now left|]. destruct (IH H) as [F|(t & Ht & F)]; [now left|].
    right. exists t. split; [now right|exact F].
Qed.
Lemma tuple_avoids bad l c : Forall (atom_ok bad) l -> In c bad -> ~ In c (T "'(), ") -> lit_char c = false -> ~ In c (str_val (VTup l)).
Proof.
  intros H Hb Hc Hl.
  assert (Ha : forall a, In a l -> ~ In c (repr_atom a)).
  { intros a A. rewrite Forall_forall in H. apply (repr_avoids bad a); [now apply H|..].
    - apply in_or_app. right. now right.
    - intros [F|[]]. apply Hc. subst. now left.
    - congruence. }
  intros F. cbn [str_val] in F.
  assert (N : forall d, In d (T "'(), ") -> d <> c) by (intros d Hd E; subst; now apply Hc).
  assert (F' : In c ["("] \/ In c [","; ")"] \/ In c [","; " "] \/ exists a, In a l /\ In c (repr_atom a)).
  { destruct l as [|a [|b l]].
    - cbn in F. destruct F as [F|[F|[]]]; [left; now left|right; left; right; now left].
    - apply in_app_or in F as [F|F]; [now left|]. apply in_app_or in F as [F|F]; [|now right; left].
      right. right. right. exists a. split; [now left|exact F].
    - apply in_app_or in F as [F|F]; [now left|]. apply in_app_or in F as [F|F].
      + apply join_chars in F as [F|(t & Ht & F)]; [now right; right; left|]. apply in_map_iff in Ht as (x & <- & Hx).
        right. right. right. exists x. split; assumption.
      + right. left. right. exact F. }
  destruct F' as [[F'|[]]|[[F'|[F'|[]]]|[[F'|[F'|[]]]|(a & A & F')]]];
    [apply (N "(")|apply (N ",")|apply (N ")")|apply (N ",")|apply (N " ")|now apply (Ha a A)];
    try exact F'; vm_compute; tauto.
Qed.
Lemma value_avoids valid v c : value_ok valid v -> In c [";"; "="] -> ~ In c (str_val v).
Proof.
  destruct v as [[s|t]|l]; cbn [value_ok]; intros H Hc.
  - destruct H as [H _]. eapply avoids_one; [exact H|]. apply in_or_app. now right.
  - cbn [str_val]. eapply avoids_one; [apply (is_lit_avoids t H)|]. destruct Hc as [<-|[<-|[]]]; vm_compute; tauto.
  - destruct H as [_ H]. apply (tuple_avoids [";"; "="]); [exact H|exact Hc|..]; destruct Hc as [<-|[<-|[]]]; vm_compute; intuition discriminate.
Qed.
Lemma value_no_nl valid v : value_ok valid v -> ~ In nl (str_val v).
Proof.
  destruct v as [[s|t]|l]; cbn [value_ok]; intros H.
  - destruct H as [H _]. eapply avoids_one; [exact H|]. vm_compute. tauto.
  - cbn [str_val]. eapply avoids_one; [apply (lit_blanks t H)|]. vm_compute. tauto.
  - destruct H as [_ H]. apply (tuple_avoids (nl :: [";"; "="])).
    + eapply Forall_impl; [|exact H]. intros [s|t]; cbn [atom_ok]; [|tauto]. intros A. eapply avoids_sub; [|exact A].
      intros c Hc. apply in_app_or in Hc as [Hc|Hc]; [apply in_or_app; now left|].
      apply in_app_or in Hc as [Hc|[<-|Hc]].
      * apply in_or_app. right. apply in_or_app. now left.
      * vm_compute. tauto.
      * apply in_or_app. right. apply in_or_app. now right.
    + now left.
    + vm_compute. intuition discriminate.
    + reflexivity.
Qed.
Lemma nodes_avoids v c : nodes_ok v -> In c [":"; nl] -> ~ In c (str_val v).
Proof.
  destruct v as [[s|t]|l]; cbn [nodes_ok]; intros H Hc; [contradiction| |].
  - cbn [str_val]. eapply avoids_one; [apply (is_lit_avoids t H)|]. destruct Hc as [<-|[<-|[]]]; vm_compute; tauto.
  - apply (tuple_avoids [":"; nl]); [|exact Hc|destruct Hc as [<-|[<-|[]]]; vm_compute; intuition discriminate..].
    eapply Forall_impl; [|exact H]. intros [s|t]; cbn [atom_ok]; [|tauto]. intros A. eapply avoids_sub; [|exact A].
    intros d Hd. apply in_app_or in Hd as [Hd|Hd]; [apply in_or_app; now left|].
    apply in_app_or in Hd as [Hd|[<-|[<-|[]]]].
    + apply in_or_app. right. apply in_or_app. now left.
    + apply in_or_app. right. apply in_or_app. right. now left.
    + vm_compute. tauto.
Qed.

Section Read.
  Variables (valid : text -> bool) (ev : text -> result atom).

  Lemma eval_pieces bad l : Forall (atom_ok bad) l -> rmap (eval_piece ev) (map repr_atom l) = Ok l.
  Proof.
    induction 1 as [|a l Ha _ IH]; [reflexivity|]. cbn [map rmap]. unfold eval_piece at 1.
    rewrite chomp_id.
    - rewrite (atom_of_repr bad a Ha). cbn [rbind]. rewrite IH. reflexivity.
    - eapply avoids_one; [eapply repr_blanks, Ha|vm_compute; tauto].
  Qed.
  Lemma read_value_ok v : value_ok valid v -> read_value valid ev (compact_val v) = Ok v.
  Proof.
    destruct v as [[s|t]|l]; cbn [value_ok compact_val str_val]; intros H.
    - destruct H as (H1 & H2 & H3 & H4). unfold read_value.
      assert (E : literal_eval valid s = Err ValueError) by (unfold literal_eval; now rewrite H3, H4).
      destruct s as [|c s]; [now rewrite E|]. destruct (ascii_dec c "(") as [->|Hc]; [now elim H2|].
      rewrite E. destruct c as [[] [] [] [] [] [] [] []]; try reflexivity. congruence.
    - unfold read_value.
      assert (E : literal_eval valid t = Ok (VAtom (ALit t))) by (unfold literal_eval; now rewrite literal_lit).
      pose proof (is_lit_avoids t H) as Ha.
      destruct t as [|c t]; [now rewrite E|].
      assert (Hc : c <> "(") by (intros ->; apply (Ha "(" (or_introl eq_refl)); vm_compute; tauto).
      rewrite E. destruct c as [[] [] [] [] [] [] [] []]; try reflexivity. congruence.
    - destruct H as [Hl H]. unfold compact. destruct l as [|a [|b l]]; [cbn in Hl; lia|cbn in Hl; lia|].
      unfold read_value. cbn [app]. rewrite removelast_last.
      rewrite split_join; [|discriminate|eapply no_comma, H].
      rewrite (eval_pieces [";"; "="]) by exact H. reflexivity.
  Qed.

  Definition par_text (p : text * pyval) : text := [" "] ++ fst p ++ ["="] ++ str_val (snd p) ++ [";"].
  Definition par_ok (p : text * pyval) : Prop := avoids (blanks ++ [";"; "="]) (fst p) /\ value_ok valid (snd p).

  Lemma args_set_new k v d : ~ In k (map fst d) -> args_set k v d = d ++ [(k, v)].
  Proof.
    induction d as [|[k' v'] d IH]; intros H; [reflexivity|]. cbn [args_set].
    destruct (text_eqb k' k) eqn:E; [apply text_eqb_spec in E; subst; exfalso; apply H; now left|].
    cbn [app]. f_equal. apply IH. intros F. apply H. now right.
  Qed.
  Lemma no_spaces_app a b : no_spaces (a ++ b) = no_spaces a ++ no_spaces b.
  Proof. apply filter_app. Qed.

  Definition all_set (l acc : list (text * pyval)) : list (text * pyval) :=
    fold_left (fun d p => args_set (fst p) (snd p) d) l acc.
  Lemma all_set_distinct l : forall acc, NoDup (map fst (acc ++ l)) -> all_set l acc = acc ++ l.
  Proof.
    induction l as [|[k v] l IH]; intros acc Hn; [now rewrite app_nil_r|].
    unfold all_set in *. cbn [fold_left fst snd]. rewrite args_set_new.
    - rewrite IH; now rewrite <- app_assoc.
    - rewrite map_app in Hn. cbn [map fst] in Hn. apply NoDup_remove_2 in Hn. intros F. apply Hn, in_or_app. now left.
  Qed.
  Lemma args_set_keys k v d : map fst (args_set k v d) = if existsb (text_eqb k) (map fst d) then map fst d else map fst d ++ [k].
  Proof.
    induction d as [|[k' v'] d IH]; [reflexivity|]. cbn [args_set map fst existsb].
    destruct (text_eqb k' k) eqn:E.
    - apply text_eqb_spec in E. subst k'. rewrite (proj2 (text_eqb_spec k k) eq_refl). reflexivity.
    - assert (E' : text_eqb k k' = false).
      { destruct (text_eqb k k') eqn:F; [|reflexivity]. apply text_eqb_spec in F. subst k'.
        rewrite (proj2 (text_eqb_spec k k) eq_refl) in E. discriminate. }
      rewrite E'. cbn [orb map fst]. rewrite IH. destruct (existsb (text_eqb k) (map fst d)); reflexivity.
  Qed.
  Lemma args_set_nodup k v d : NoDup (map fst d) -> NoDup (map fst (args_set k v d)).
  Proof.
    intros H. rewrite args_set_keys. destruct (existsb (text_eqb k) (map fst d)) eqn:E; [exact H|].
    apply (NoDup_Add (a := k) (l := map fst d)).
    - rewrite <- (app_nil_r (map fst d)) at 1. apply Add_app.
    - split; [exact H|]. intros F. assert (existsb (text_eqb k) (map fst d) = true); [|congruence].
      apply existsb_exists. exists k. split; [exact F|]. now apply text_eqb_spec.
  Qed.
  Lemma args_set_lookup k v d k' : value_at k' (args_set k v d) = if text_eqb k k' then Some v else value_at k' d.
  Proof.
    induction d as [|[a b] d IH]; cbn [args_set value_at].
    - unfold text_eqb. destruct (list_eq_dec ascii_dec k k'); reflexivity.
    - destruct (text_eqb a k) eqn:E; cbn [value_at].
      + apply text_eqb_spec in E. subst a. unfold text_eqb. destruct (list_eq_dec ascii_dec k k'); reflexivity.
      + destruct (list_eq_dec ascii_dec a k') as [->|N]; [|exact IH].
        destruct (text_eqb k k') eqn:F; [|reflexivity]. apply text_eqb_spec in F. subst k.
        rewrite (proj2 (text_eqb_spec k' k') eq_refl) in E. discriminate.
  Qed.
  Lemma value_at_app k a b : value_at k (a ++ b) = match value_at k a with Some v => Some v | None => value_at k b end.
  Proof.
    induction a as [|[k' v'] a IH]; [reflexivity|]. cbn [app value_at]. destruct (list_eq_dec ascii_dec k' k); [reflexivity|exact IH].
  Qed.
  Lemma all_set_spec l : forall acc, NoDup (map fst acc) ->
    NoDup (map fst (all_set l acc)) /\
    forall k, value_at k (all_set l acc) = match value_at k (rev l) with Some v => Some v | None => value_at k acc end.
  Proof.
    induction l as [|[k v] l IH]; intros acc H; [split; [exact H|reflexivity]|].
    unfold all_set in *. cbn [fold_left fst snd].
    destruct (IH (args_set k v acc) (args_set_nodup k v acc H)) as [I1 I2]. split; [exact I1|].
    intros k'. rewrite I2. cbn [rev]. rewrite value_at_app. destruct (value_at k' (rev l)); [reflexivity|].
    rewrite args_set_lookup. cbn [value_at]. unfold text_eqb. destruct (list_eq_dec ascii_dec k k'); reflexivity.
  Qed.

  Lemma read_pars_ok tl : forall l acc, Forall par_ok l ->
    read_pars valid ev (length l) (flat_map par_text l ++ tl) acc = Ok (all_set l acc).
  Proof.
    induction l as [|[k v] l IH]; intros acc H.
    - reflexivity.
    - inversion H as [|? ? [Hk Hv] Hl]; subst. cbn [fst snd] in Hk, Hv.
      cbn [length read_pars flat_map]. unfold par_text at 1. cbn [fst snd].
      replace ((([" "] ++ k ++ ["="] ++ str_val v ++ [";"]) ++ flat_map par_text l) ++ tl)
        with (([" "] ++ k ++ ["="] ++ str_val v) ++ ";" :: (flat_map par_text l ++ tl))
        by (rewrite <- !app_assoc; reflexivity).
      rewrite partition_app.
      + assert (E : no_spaces ([" "] ++ k ++ ["="] ++ str_val v) = k ++ "=" :: compact_val v).
        { rewrite !no_spaces_app. rewrite (value_text valid v Hv).
          replace (no_spaces k) with k; [reflexivity|].
          symmetry. apply (keep_nonblank nonblank); [exact nonblank_blanks|]. eapply avoids_sub; [|exact Hk].
          intros c Hc. apply in_or_app. now left. }
        rewrite E. clear E.
        rewrite partition_app by (eapply avoids_one; [exact Hk|apply in_or_app; right; right; now left]).
        rewrite (read_value_ok v Hv). cbn [rbind].
        rewrite IH by exact Hl. reflexivity.
      + intros F. apply in_app_or in F as [[F|[]]|F]; [discriminate|]. apply in_app_or in F as [F|F].
        * revert F. eapply avoids_one; [exact Hk|]. apply in_or_app. right. now left.
        * apply in_app_or in F as [[F|[]]|F]; [discriminate|]. revert F. apply (value_avoids valid v); [exact Hv|now left].
  Qed.

  Lemma count_app c a b : count c (a ++ b) = count c a + count c b.
  Proof. unfold count. now rewrite filter_app, app_length. Qed.
  Lemma count_none c a : ~ In c a -> count c a = 0.
  Proof.
    unfold count. induction a as [|x a IH]; intros H; [reflexivity|]. cbn [filter].
    destruct (Ascii.eqb c x) eqn:E; [apply Ascii.eqb_eq in E; subst; exfalso; apply H; now left|].
    apply IH. intros F. apply H. now right.
  Qed.
  Lemma count_pars tl l : Forall par_ok l -> count "=" tl = 0 -> count "=" (flat_map par_text l ++ tl) = length l.
  Proof.
    intros H Ht. induction H as [|[k v] l [Hk Hv] _ IH]; [exact Ht|].
    cbn [flat_map length]. rewrite <- app_assoc, count_app, IH. unfold par_text. cbn [fst snd] in *.
    rewrite !count_app.
    rewrite (count_none _ k) by (eapply avoids_one; [exact Hk|apply in_or_app; right; right; now left]).
    rewrite (count_none _ (str_val v)) by (apply (value_avoids valid v "=" Hv); right; now left). reflexivity.
  Qed.

  (** The line without its end. *)
  Definition line_text (e : entry) : text :=
    (n_dict e ++ ["."] ++ n_comp e ++ [" "] ++ n_label e ++ [" "] ++ str_val (n_nodes e)) ++ [":"] ++
    flat_map par_text (n_args e).
  Lemma print_line_text e : print_line e = line_text e ++ [nl].
  Proof. unfold print_line, line_text. rewrite <- !app_assoc. reflexivity. Qed.

  Definition with_args (e : entry) (args : list (text * pyval)) : entry :=
    mkEntry (n_dict e) (n_comp e) (n_label e) (n_nodes e) args.
  Lemma ok_fields e : entry_ok valid e -> fields_ok valid e.
  Proof. unfold entry_ok, fields_ok. tauto. Qed.
  Lemma read_line_ok e tl : fields_ok valid e -> tl = [] \/ tl = [nl] ->
    read_line valid ev (line_text e ++ tl) = Ok [with_args e (all_set (n_args e) [])].
  Proof.
    intros (H1 & H2 & H3 & H4 & H5 & H6 & H8) Htl.
    destruct e as [dic comp lab nodes args]. cbn [n_dict n_comp n_label n_nodes n_args] in *.
    unfold line_text, with_args. cbn [n_dict n_comp n_label n_nodes n_args].
    set (infos := dic ++ ["."] ++ comp ++ [" "] ++ lab ++ [" "] ++ str_val nodes).
    set (pars := flat_map par_text args ++ tl).
    replace ((infos ++ [":"] ++ flat_map par_text args) ++ tl) with (infos ++ ":" :: pars) by (unfold pars; rewrite <- !app_assoc; reflexivity).
    assert (Ec : ~ In ":" infos).
    { unfold infos. intros F. repeat (apply in_app_or in F as [F|F]).
      - revert F. eapply avoids_one; [exact H1|vm_compute; tauto].
      - destruct F as [F|[]]. discriminate.
      - revert F. eapply avoids_one; [exact H3|vm_compute; tauto].
      - destruct F as [F|[]]. discriminate.
      - revert F. eapply avoids_one; [exact H4|vm_compute; tauto].
      - destruct F as [F|[]]. discriminate.
      - revert F. apply nodes_avoids; [exact H6|now left]. }
    assert (Ew : words infos = (dic ++ ["."] ++ comp) :: lab :: words (str_val nodes)).
    { unfold infos. replace (dic ++ ["."] ++ comp ++ [" "] ++ lab ++ [" "] ++ str_val nodes)
        with ((dic ++ ["."] ++ comp) ++ " " :: lab ++ " " :: str_val nodes) by (rewrite <- !app_assoc; reflexivity).
      rewrite words_word.
      - f_equal. apply words_word; [|exact H5]. eapply avoids_sub; [|exact H4]. intros c Hc. apply in_or_app. now left.
      - apply avoids_app. split; [eapply avoids_sub; [|exact H1]; intros c Hc; apply in_or_app; now left|].
        apply avoids_app. split; [intros c [<-|[]] F; vm_compute in F; intuition discriminate|].
        eapply avoids_sub; [|exact H3]; intros c Hc; apply in_or_app; now left.
      - destruct dic; discriminate. }
    assert (Er : (let '(infos, parameters) := partition ":" (infos ++ ":" :: pars) in
          match words infos with
          | diccomp :: label :: si =>
              let '(dic, comp) := partition "." diccomp in
              do nodes <- literal_eval valid (concat si);
              do pars <- read_pars valid ev (count "=" parameters) parameters [];
              Ok [mkEntry dic comp label nodes pars]
          | _ => Err IndexError
          end) = Ok [mkEntry dic comp lab nodes (all_set args [])]).
    { rewrite partition_app by exact Ec. rewrite Ew. cbn [app].
      rewrite partition_app by (eapply avoids_one; [exact H1|apply in_or_app; right; now left]).
      rewrite words_concat. change (filter (fun c => negb (is_space c)) (str_val nodes)) with (filter nonspace (str_val nodes)). rewrite (nodes_text nodes H6).
      unfold literal_eval. rewrite literal_nodes by exact H6. cbn [rbind].
      unfold pars. rewrite count_pars; [|exact H8|destruct Htl as [->| ->]; reflexivity].
      rewrite (read_pars_ok tl args []) by exact H8. reflexivity. }
    assert (El : Nat.eqb (length (infos ++ ":" :: pars)) 1 = false).
    { apply Nat.eqb_neq. unfold infos. rewrite !app_length. cbn [length]. lia. }
    unfold read_line. rewrite El. rewrite Er.
    destruct infos as [|c r] eqn:Ei; [exfalso; unfold infos in Ei; destruct dic; discriminate|].
    cbn [app].
    assert (Hc : c <> "#").
    { unfold infos in Ei. destruct dic as [|d dic]; cbn [app] in Ei; injection Ei as <- _; [discriminate|].
      intros ->. now apply H2. }
    destruct c as [[] [] [] [] [] [] [] []]; try reflexivity. congruence.
  Qed.

  Lemma line_no_nl e : fields_ok valid e -> ~ In nl (line_text e).
  Proof.
    intros (H1 & H2 & H3 & H4 & H5 & H6 & H8). unfold line_text. intros F.
    apply in_app_or in F as [F|F]; repeat (apply in_app_or in F as [F|F]).
    - revert F. eapply avoids_one; [exact H1|vm_compute; tauto].
    - destruct F as [F|[]]. discriminate.
    - revert F. eapply avoids_one; [exact H3|vm_compute; tauto].
    - destruct F as [F|[]]. discriminate.
    - revert F. eapply avoids_one; [exact H4|vm_compute; tauto].
    - destruct F as [F|[]]. discriminate.
    - revert F. apply nodes_avoids; [exact H6|right; now left].
    - destruct F as [F|[]]. discriminate.
    - apply in_flat_map in F as (p & Hp & F). rewrite Forall_forall in H8. destruct (H8 p Hp) as [Hk Hv].
      unfold par_text in F. repeat (apply in_app_or in F as [F|F]).
      + destruct F as [F|[]]. discriminate.
      + revert F. eapply avoids_one; [exact Hk|vm_compute; tauto].
      + destruct F as [F|[]]. discriminate.
      + revert F. apply (value_no_nl valid), Hv.
      + destruct F as [F|[]]. discriminate.
  Qed.
  Lemma lines_one a : a <> [] -> ~ In nl a -> lines a = [a].
  Proof.
    induction a as [|c a IH]; intros Ha H; [congruence|]. cbn [lines].
    destruct (Ascii.eqb c nl) eqn:E; [apply Ascii.eqb_eq in E; subst; exfalso; apply H; now left|].
    destruct a as [|d a]; [reflexivity|]. rewrite IH; [reflexivity|discriminate|]. intros F. apply H. now right.
  Qed.
  Lemma lines_more a t : ~ In nl a -> lines (a ++ nl :: t) = (a ++ [nl]) :: lines t.
  Proof.
    induction a as [|c a IH]; intros H.
    - cbn [app lines]. rewrite Ascii.eqb_refl. reflexivity.
    - cbn [app lines]. destruct (Ascii.eqb c nl) eqn:E; [apply Ascii.eqb_eq in E; subst; exfalso; apply H; now left|].
      rewrite IH; [reflexivity|]. intros F. apply H. now right.
  Qed.

  Lemma read_all l : Forall (fields_ok valid) l ->
    read valid ev (netlist l) = Ok (map (fun e => with_args e (all_set (n_args e) [])) l).
  Proof.
    unfold read, netlist. induction 1 as [|e l He _ IH]; [reflexivity|].
    cbn [flat_map]. rewrite print_line_text.
    assert (Hn : line_text e <> []) by (unfold line_text; destruct (n_dict e); discriminate).
    destruct l as [|e' l].
    - cbn [flat_map]. rewrite app_nil_r, removelast_last.
      rewrite lines_one; [|exact Hn|now apply line_no_nl]. cbn [read_lines].
      pose proof (read_line_ok e [] He (or_introl eq_refl)) as E. rewrite app_nil_r in E. rewrite E. reflexivity.
    - rewrite removelast_app.
      2:{ cbn [flat_map]. rewrite print_line_text. intros F. apply app_eq_nil in F as [F _]. apply app_eq_nil in F as [_ F]. discriminate. }
      rewrite <- app_assoc. cbn [app]. rewrite lines_more by now apply line_no_nl.
      cbn [read_lines]. rewrite (read_line_ok e [nl] He (or_intror eq_refl)). cbn [rbind].
      rewrite IH. reflexivity.
  Qed.
  Lemma round_trip l : Forall (entry_ok valid) l -> read valid ev (netlist l) = Ok l.
  Proof.
    intros H. rewrite read_all by (eapply Forall_impl; [exact ok_fields|exact H]). f_equal.
    induction H as [|e l He _ IH]; [reflexivity|]. cbn [map]. rewrite IH. f_equal.
    destruct He as (_ & _ & _ & _ & _ & _ & Hd & _). rewrite all_set_distinct by exact Hd. destruct e. reflexivity.
  Qed.
  Lemma last_counts l : Forall (fields_ok valid) l ->
    exists l', read valid ev (netlist l) = Ok l' /\ Forall2 last_value_counts l l'.
  Proof.
    intros H. eexists. split; [now apply read_all|]. clear H. induction l as [|e l IH]; cbn [map]; constructor; [|exact IH].
    destruct (all_set_spec (n_args e) [] (NoDup_nil _)) as [A B].
    repeat split; try reflexivity; [exact A|]. intros k. cbn [with_args n_args]. rewrite B.
    destruct (value_at k (rev (n_args e))); reflexivity.
  Qed.
End Read.

(** ** Sums *)
Lemma net_add_spec net2 : forall net1, net_add net1 net2 = net1 ++ net2.
Proof.
  unfold net_add. induction net2 as [|l net2 IH]; intros net1; [now rewrite app_nil_r|]. cbn [fold_left]. rewrite IH, <- app_assoc. reflexivity.
Qed.
Lemma net_add_self_loops : forall fuel i net, i < length net -> net_add_self fuel i net = Err OutOfFuel.
Proof.
  induction fuel as [|fuel IH]; intros i net Hi; cbn [net_add_self].
  - destruct (nth_error net i) eqn:E; [reflexivity|]. apply nth_error_None in E. lia.
  - destruct (nth_error net i) eqn:E; [|apply nth_error_None in E; lia]. apply IH. rewrite app_length. cbn. lia.
Qed.

(** ** Netlists that can be read but are changed by printing *)
Lemma path_lost valid ev : valid (T "/x") = false -> exists l,
  read valid ev (T "pwl.storage s ('a', 'b'): file='/x';") = Ok l /\ read valid ev (netlist l) = Err SyntaxError.
Proof.
  intros H. exists [mkEntry (T "pwl") (T "storage") (T "s") (VTup [AStr (T "a"); AStr (T "b")]) [(T "file", VAtom (AStr (T "/x")))]].
  split; [vm_compute; reflexivity|].
  replace (netlist _) with (T "pwl.storage s ('a', 'b'): file=/x;") by (vm_compute; reflexivity).
  unfold read. replace (lines _) with [T "pwl.storage s ('a', 'b'): file=/x;"] by (vm_compute; reflexivity).
  unfold read_lines, read_line.
  replace (partition ":" (T "pwl.storage s ('a', 'b'): file=/x;")) with (T "pwl.storage s ('a', 'b')", T " file=/x;") by (vm_compute; reflexivity).
  replace (words (T "pwl.storage s ('a', 'b')")) with [T "pwl.storage"; T "s"; T "('a',"; T "'b')"] by (vm_compute; reflexivity).
  cbn [T list_ascii_of_string length Nat.eqb].
  change (partition "." _) with (T "pwl", T "storage"). cbv iota beta.
  change (literal_eval valid _) with (Ok (VTup [AStr (T "a"); AStr (T "b")])). cbn [rbind].
  change (count "=" _) with 1. unfold read_pars.
  change (partition ";" _) with (T " file=/x", @nil ascii). cbv iota beta.
  change (partition "=" _) with (T "file", T "/x"). cbv iota beta.
  unfold read_value. cbn [T list_ascii_of_string]. unfold literal_eval.
  change (literal _) with (@None pyval). cbv iota beta. change (valid _) with (valid (T "/x")). rewrite H. reflexivity.
Qed.
Lemma singleton_lost valid ev : ev [] = Err SyntaxError -> exists l,
  read valid ev (T "e.r R ('a', 'b'): R=(1);") = Ok l /\ read valid ev (netlist l) = Err SyntaxError.
Proof.
  intros H. exists [mkEntry (T "e") (T "r") (T "R") (VTup [AStr (T "a"); AStr (T "b")]) [(T "R", VTup [ALit (T "1")])]].
  split; [vm_compute; reflexivity|].
  replace (netlist _) with (T "e.r R ('a', 'b'): R=(1,);") by (vm_compute; reflexivity).
  unfold read. replace (lines _) with [T "e.r R ('a', 'b'): R=(1,);"] by (vm_compute; reflexivity).
  unfold read_lines, read_line.
  replace (partition ":" (T "e.r R ('a', 'b'): R=(1,);")) with (T "e.r R ('a', 'b')", T " R=(1,);") by (vm_compute; reflexivity).
  replace (words (T "e.r R ('a', 'b')")) with [T "e.r"; T "R"; T "('a',"; T "'b')"] by (vm_compute; reflexivity).
  cbn [T list_ascii_of_string length Nat.eqb].
  change (partition "." _) with (T "e", T "r"). cbv iota beta.
  change (literal_eval valid _) with (Ok (VTup [AStr (T "a"); AStr (T "b")])). cbn [rbind].
  change (count "=" _) with 1. unfold read_pars.
  change (partition ";" _) with (T " R=(1,)", @nil ascii). cbv iota beta.
  change (partition "=" _) with (T "R", T "(1,)"). cbv iota beta.
  unfold read_value. cbn [T list_ascii_of_string].
  change (split_on "," _) with [T "1"; []]. cbn [rmap]. unfold eval_piece.
  change (atom_of (chomp (T "1"))) with (Some (ALit (T "1"))). change (atom_of (chomp [])) with (@None atom).
  cbn [rbind]. rewrite H. reflexivity.
Qed.
Lemma number_lost valid ev : exists l l',
  read valid ev (T "e.r R ('a', 'b'): name='10';") = Ok l /\ read valid ev (netlist l) = Ok l' /\ l <> l'.
Proof.
  exists [mkEntry (T "e") (T "r") (T "R") (VTup [AStr (T "a"); AStr (T "b")]) [(T "name", VAtom (AStr (T "10")))]],
         [mkEntry (T "e") (T "r") (T "R") (VTup [AStr (T "a"); AStr (T "b")]) [(T "name", VAtom (ALit (T "10")))]].
  split; [vm_compute; reflexivity|]. split; [vm_compute; reflexivity|]. discriminate.
Qed.
Lemma comment_lost valid ev : exists l,
  read valid ev (T " #e.r R ('a', 'b'): R=1;") = Ok l /\ l <> [] /\ read valid ev (netlist l) = Ok [].
Proof.
  exists [mkEntry (T "#e") (T "r") (T "R") (VTup [AStr (T "a"); AStr (T "b")]) [(T "R", VAtom (ALit (T "1")))]].
  split; [vm_compute; reflexivity|]. split; [discriminate|]. vm_compute; reflexivity.
Qed.
(** Without a final semicolon the line end belongs to the value. *)
Lemma line_end_kept valid ev : valid (T "Rx" ++ [nl]) = true ->
  read valid ev (T "e.r R ('a', 'b'): R=Rx" ++ [nl]) =
  Ok [mkEntry (T "e") (T "r") (T "R") (VTup [AStr (T "a"); AStr (T "b")]) [(T "R", VAtom (AStr (T "Rx" ++ [nl])))]].
Proof.
  intros H. unfold read. replace (lines _) with [T "e.r R ('a', 'b'): R=Rx" ++ [nl]] by (vm_compute; reflexivity).
  unfold read_lines, read_line.
  replace (partition ":" (T "e.r R ('a', 'b'): R=Rx" ++ [nl])) with (T "e.r R ('a', 'b')", T " R=Rx" ++ [nl]) by (vm_compute; reflexivity).
  replace (words (T "e.r R ('a', 'b')")) with [T "e.r"; T "R"; T "('a',"; T "'b')"] by (vm_compute; reflexivity).
  cbn [T list_ascii_of_string length app Nat.eqb].
  change (partition "." _) with (T "e", T "r"). cbv iota beta.
  change (literal_eval valid _) with (Ok (VTup [AStr (T "a"); AStr (T "b")])). cbn [rbind].
  change (count "=" _) with 1. unfold read_pars.
  change (partition ";" _) with (T " R=Rx" ++ [nl], @nil ascii). cbv iota beta.
  change (partition "=" _) with (T "R", T "Rx" ++ [nl]). cbv iota beta.
  unfold read_value. cbn [T list_ascii_of_string app]. unfold literal_eval.
  change (literal _) with (@None pyval). cbv iota beta. change (valid _) with (valid (T "Rx" ++ [nl])). rewrite H. reflexivity.
Qed.
Lemma self_sum_loops fuel net : net <> [] -> net_add_self fuel 0 net = Err OutOfFuel.
Proof. intros H. apply net_add_self_loops. destruct net; [congruence|]. cbn. lia. Qed.
