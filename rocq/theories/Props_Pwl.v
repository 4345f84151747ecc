(** Properties of piecewise-linear components: C28. *)
From Coq Require Import String List ZArith QArith Qreals Reals Lia Lra.
From Verif Require Import Py Expr Pwl Spec_Pwl PwlProofs.
Import ListNotations.
Local Open Scope R_scope.

(** Interpolation, value at the origin, linearity between the points and beyond. *)
Theorem C28_interpolates : forall X Y x y0 k,
  increasing X -> length X = length Y -> (2 <= length X)%nat ->
  exists e, pwl_func X Y x false y0 k = Ok e /\ fun_of e x 0 = Q2R y0 /\
    (exists off, (forall i, (i < length X)%nat -> fun_of e x (at_ X i) = at_ Y i + off) /\
       forall i, (i < length X)%nat -> at_ X i = 0 -> off = Q2R y0 - at_ Y i) /\
    (forall i t, (S i < length X)%nat -> at_ X i <= t <= at_ X (S i) ->
       fun_of e x t = fun_of e x (at_ X i) + slope X Y i * (t - at_ X i)) /\
    (forall t, t <= at_ X 0 -> fun_of e x t = fun_of e x (at_ X 0) + slope X Y 0 * (t - at_ X 0)) /\
    (forall t, at_ X (length X - 1) <= t ->
       fun_of e x t = fun_of e x (at_ X (length X - 1)) + slope X Y (length X - 2) * (t - at_ X (length X - 1))).
Proof. exact interpolates. Qed.
Print Assumptions C28_interpolates.

(** The integrated expression has the other one as derivative everywhere. *)
Theorem C28_integrated : forall X Y x y0 k k',
  increasing X -> length X = length Y -> (2 <= length X)%nat ->
  exists e E, pwl_func X Y x false y0 k' = Ok e /\ pwl_func X Y x true y0 k = Ok E /\
    fun_of E x 0 = Q2R k /\ forall t, derivable_pt_lim (fun_of E x) t (fun_of e x t).
Proof. exact integrated. Qed.
Print Assumptions C28_integrated.

Definition curve_x : list Q := [-(2#1); -(1#2); 1#1; 3#1]%Q.
Definition curve_y : list Q := [-(5#1); -(1#4); 1#8; 7#1]%Q.
Example C28_example : increasing curve_x /\ length curve_x = length curve_y /\ (2 <= length curve_x)%nat.
Proof.
  split; [|cbn; split; [reflexivity|lia]].
  intros i Hi. cbn in Hi. do 3 (destruct i as [|i]; [reflexivity|]). lia.
Qed.

(** A dissipative component accepted by the checks on its data is passive. *)
Theorem C28_dissipative_passive : forall W Z w e, increasing W -> dissipative W Z w = Ok e ->
  fun_of e w 0 = 0 /\ forall t, 0 <= t * fun_of e w t.
Proof. exact dissipative_passive. Qed.
Print Assumptions C28_dissipative_passive.
Example C28_dissipative_example : increasing curve_x /\ exists e, dissipative curve_x curve_y "w" = Ok e.
Proof. split; [apply C28_example|]. eexists. vm_compute. reflexivity. Qed.

(** A storage component accepted by the checks has a non-negative energy inside
    the range of its data. *)
Theorem C28_storage_in_range : forall X h x e, increasing X -> storage X h x false = Ok e ->
  fun_of e x 0 = 0 /\ forall t, at_ X 0 <= t <= at_ X (length X - 1) -> 0 <= fun_of e x t.
Proof. exact storage_in_range. Qed.
Print Assumptions C28_storage_in_range.
Example C28_storage_example : increasing ([-(1#1); 0#1; 2#1]%Q) /\
  exists e, storage ([-(1#1); 0#1; 2#1]%Q) ([3#1; 0#1; 1#2]%Q) "x" false = Ok e.
Proof.
  split; [|eexists; vm_compute; reflexivity].
  intros i Hi. cbn in Hi. do 2 (destruct i as [|i]; [reflexivity|]). lia.
Qed.

(** A storage component accepted by the checks may have an energy that is not
    bounded below, because it follows the last slope outside of the data. *)
Theorem C28_storage_unbounded_refuted : exists X h e, increasing X /\ storage X h "x" false = Ok e /\
  fun_of e "x" 0 = 0 /\ forall B, exists t, fun_of e "x" t < B.
Proof. exact storage_refuted. Qed.
Print Assumptions C28_storage_unbounded_refuted.
Theorem C28_integrated_storage_negative_refuted : exists X h e, increasing X /\ storage X h "x" true = Ok e /\
  fun_of e "x" 0 = 0 /\ exists t, fun_of e "x" t < 0.
Proof. exact storage_integ_refuted. Qed.
Print Assumptions C28_integrated_storage_negative_refuted.
