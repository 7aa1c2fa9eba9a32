(** Properties C122 and C123: from_limbs and to_limbs of the transcript. *)
From Coq Require Import ZArith List Lia Bool.
From Verif Require Import Base Field Plonk PlonkFacts Examples Pasta RangeModel LimbsModel LimbsProofs.
Import ListNotations.
Open Scope Z_scope.

(** ** Specification *)

(** The limb number [i] of the integer [n], least significant first. *)
Definition limb (n i : Z) : Z := (n / 2 ^ (64 * i)) mod 2 ^ 64.
(** The fields of the transcript fit in four limbs. *)
Definition limb_field (P : params) : Prop := 2 ^ 128 <= char P <= 2 ^ 256.

Lemma field_big : forall P, limb_field P -> 2 ^ 66 < char P <= 2 ^ 256.
Proof. intros P [A B]. split; [|exact B]. eapply Z.lt_le_trans; [|exact A]. reflexivity. Qed.

(** ** C122 *)

(** The four limbs are those of the canonical representative, whatever the witness. *)
Theorem to_limbs_sound : forall P (L : lenv P) (c : comp) (x : var) (row : Z) (T : table P),
  limb_field P -> wf_comp c 15 -> C c 0 = 0 -> sat L T (tl_circuit c x row) ->
  forall i, 0 <= i < 4 -> fval (vval T (tl_out c row i)) = limb (fval (vval T x)) i.
Proof. intros P L c x row T HP wf cc S i Hi. exact (tl_sound P L (field_big P HP) c wf cc x row T S i Hi). Qed.
Print Assumptions to_limbs_sound.

Theorem to_limbs_complete : forall P (L : lenv P) (c : comp) (x : var) (row : Z) (T : table P),
  limb_field P -> wf_comp c 15 -> C c 0 = 0 -> outside c 33 row x -> consts_in T (tl_circuit c x row) ->
  let T' := tl_assign c x row T in
  sat L T' (tl_circuit c x row) /\ frame c 33 row T T' /\
  forall i, 0 <= i < 4 -> fval (vval T' (tl_out c row i)) = limb (fval (vval T x)) i.
Proof.
  intros P L c x row T HP wf cc Ox K T'.
  destruct (tl_complete P L (field_big P HP) c wf cc x row T Ox K) as [S Fr].
  split; [exact S|]. split; [exact Fr|]. intros i Hi.
  assert (E : vval T' x = vval T x) by exact (vval_frame P c 33 row T T' x Fr Ox).
  rewrite <- E. exact (to_limbs_sound P L c x row T' HP wf cc S i Hi).
Qed.
Print Assumptions to_limbs_complete.

(** The output is the sum of the limbs in the field; for two limbs of 64 bits it is
    the integer they stand for. *)
Theorem from_limbs_sound : forall P (L : lenv P) (c : comp) (a b : var) (row : Z) (T : table P),
  sat L T (fl_circuit c a b row) ->
  let x := fval (vval T a) in let y := fval (vval T b) in
  fval (vval T (fl_out c row)) = (x + 2 ^ 64 * y) mod char P /\
  (limb_field P -> x < 2 ^ 64 -> y < 2 ^ 64 -> fval (vval T (fl_out c row)) = x + 2 ^ 64 * y).
Proof.
  intros P L c a b row T S x y.
  assert (E : fval (vval T (fl_out c row)) = (x + 2 ^ 64 * y) mod char P) by (rewrite (fl_sound P L c a b row T S); apply fval_ofZ).
  split; [exact E|]. intros [A _] Hx Hy. rewrite E. apply Z.mod_small.
  assert (0 <= x) by apply fval_range. assert (0 <= y) by apply fval_range.
  change (2 ^ 128) with (2 ^ 64 * 2 ^ 64) in A. lia.
Qed.
Print Assumptions from_limbs_sound.

Theorem from_limbs_complete : forall P (L : lenv P) (c : comp) (a b : var) (row : Z) (T : table P),
  wf_comp c 3 -> outside c 1 row a -> outside c 1 row b ->
  let T' := fl_assign c a b row T in
  sat L T' (fl_circuit c a b row) /\ frame c 1 row T T' /\
  fval (vval T' (fl_out c row)) = (fval (vval T a) + 2 ^ 64 * fval (vval T b)) mod char P.
Proof.
  intros P L c a b row T wf Oa Ob T'. destruct (fl_complete P L c a b row T wf Oa Ob) as [S Fr].
  split; [exact S|]. split; [exact Fr|].
  assert (Ea : vval T' a = vval T a) by exact (vval_frame P c 1 row T T' a Fr Oa).
  assert (Eb : vval T' b = vval T b) by exact (vval_frame P c 1 row T T' b Fr Ob).
  rewrite <- Ea, <- Eb. exact (proj1 (from_limbs_sound P L c a b row T' S)).
Qed.
Print Assumptions from_limbs_complete.

(** The transcript's use of both: a challenge is the low half of a field element. *)
Theorem limbs_challenge : forall P (L : lenv P) (c d : comp) (x : var) (row r : Z) (T : table P),
  limb_field P -> wf_comp c 15 -> C c 0 = 0 -> sat L T (tl_circuit c x row) ->
  sat L T (fl_circuit d (tl_out c row 0) (tl_out c row 1) r) ->
  fval (vval T (fl_out d r)) = fval (vval T x) mod 2 ^ 128.
Proof.
  intros P L c d x row r T HP wf cc S1 S2.
  pose proof (to_limbs_sound P L c x row T HP wf cc S1) as E.
  destruct (from_limbs_sound P L d _ _ r T S2) as [_ G].
  assert (E0 := E 0 ltac:(lia)). assert (E1 := E 1 ltac:(lia)). set (n := fval (vval T x)) in *.
  assert (R : forall i, 0 <= limb n i < 2 ^ 64) by (intros i; apply Z.mod_pos_bound; reflexivity).
  rewrite G; [|exact HP|rewrite E0; apply R|rewrite E1; apply R]. rewrite E0, E1. unfold limb.
  change (64 * 0) with 0. change (64 * 1) with 64. rewrite Z.pow_0_r, Z.div_1_r.
  change (2 ^ 128) with (2 ^ 64 * 2 ^ 64). symmetry. apply Z.rem_mul_r; [discriminate|reflexivity].
Qed.
Print Assumptions limbs_challenge.

(** ** C123 *)

(** The component from_limbs does not bound its limbs: two pairs of limbs have the
    same result, though the limbs of 64 bits of a number are unique. *)
Theorem from_limbs_unique_refuted : exists (P : params) (c : comp) (a b : var) (row : Z) (T1 T2 : table P),
  limb_field P /\ wf_comp c 3 /\ (forall L : lenv P, sat L T1 (fl_circuit c a b row) /\ sat L T2 (fl_circuit c a b row)) /\
  vval T1 (fl_out c row) = vval T2 (fl_out c row) /\ vval T1 a <> vval T2 a /\ vval T1 b <> vval T2 b.
Proof.
  pose (tab := fun u v : Z => (fun ty _ r => match ty with CPub => if r =? 0 then ofZ u else ofZ v | _ => f0 end) : table Ppallas).
  pose (c := mkComp [0; 1; 2] [] []).
  assert (wf : wf_comp c 3).
  { split; [repeat constructor; cbn; intuition discriminate|split; reflexivity]. }
  exists Ppallas, c, (pin 0), (pin 1), 0, (fl_assign c (pin 0) (pin 1) 0 (tab (2 ^ 64) 0)), (fl_assign c (pin 0) (pin 1) 0 (tab 0 1)).
  pose proof (fun L => from_limbs_complete Ppallas L c (pin 0) (pin 1) 0 (tab (2 ^ 64) 0) wf (pin_outside _ _ _ _) (pin_outside _ _ _ _)) as A.
  pose proof (fun L => from_limbs_complete Ppallas L c (pin 0) (pin 1) 0 (tab 0 1) wf (pin_outside _ _ _ _) (pin_outside _ _ _ _)) as B.
  split; [split; [|]; intro X; discriminate X|]. split; [exact wf|]. split; [intro L; split; [apply A|apply B]|].
  split; [|split].
  - apply F_ext. destruct (A (noL _)) as [_ [_ ->]]. destruct (B (noL _)) as [_ [_ ->]]. reflexivity.
  - intro E. apply (f_equal fval) in E. vm_compute in E. discriminate E.
  - intro E. apply (f_equal fval) in E. vm_compute in E. discriminate E.
Qed.
Print Assumptions from_limbs_unique_refuted.

(** ** Examples *)

Definition lb_comp : comp := mkComp (zseq 0 15) [0] [].
Definition lb_comp3 : comp := mkComp [15; 16; 17] [] [].
(** The largest element and two limbs. *)
Definition lb_tab : table Ppallas := fun ty _ r =>
  match ty with CPub => if r =? 0 then ofZ (-1) else if r =? 1 then ofZ 5 else ofZ 7 | _ => f0 end.
Lemma lb_wf : wf_comp lb_comp 15.
Proof. split; [repeat constructor; cbn; intuition discriminate|split; reflexivity]. Qed.
Lemma lb_wf3 : wf_comp lb_comp3 3.
Proof. split; [repeat constructor; cbn; intuition discriminate|split; reflexivity]. Qed.
Example lb_field : limb_field Ppallas.
Proof. split; intro X; discriminate X. Qed.
Example lb_consts : consts_in lb_tab (tl_circuit lb_comp (pin 0) 0).
Proof.
  intros col r u H. unfold tl_circuit in H. destruct H as [H|H]; [discriminate H|]. apply in_app_or in H.
  destruct H as [H|[H|[]]]; [|discriminate H]. apply in_flat_map in H. destruct H as [k [_ H]].
  unfold rc_circuit in H. cbn [In app] in H. repeat (destruct H as [H|H]; [try discriminate H; injection H as _ _ <-; reflexivity|]). destruct H.
Qed.
Example to_limbs_ex : let T' := tl_assign lb_comp (pin 0) 0 lb_tab in
  sat (noL _) T' (tl_circuit lb_comp (pin 0) 0) /\
  map (fun i => limb (fval (vval lb_tab (pin 0))) i) [0; 1; 2; 3] = [11037532056220336128; 2469829653914515739; 0; 4611686018427387904].
Proof.
  split; [|vm_compute; reflexivity].
  apply (to_limbs_complete Ppallas (noL _) lb_comp (pin 0) 0 lb_tab lb_field lb_wf eq_refl (pin_outside _ _ _ _) lb_consts).
Qed.
Example from_limbs_ex : let T' := fl_assign lb_comp3 (pin 1) (pin 2) 0 lb_tab in
  sat (noL _) T' (fl_circuit lb_comp3 (pin 1) (pin 2) 0) /\ fval (vval T' (fl_out lb_comp3 0)) = 5 + 7 * 2 ^ 64.
Proof.
  destruct (from_limbs_complete Ppallas (noL _) lb_comp3 (pin 1) (pin 2) 0 lb_tab lb_wf3 (pin_outside _ _ _ _) (pin_outside _ _ _ _)) as [S [_ E]].
  split; [exact S|]. rewrite E. vm_compute. reflexivity.
Qed.
(** The hypotheses of [limbs_challenge] hold of the two assignments in turn. *)
Example challenge_ex : exists T : table Ppallas,
  sat (noL _) T (tl_circuit lb_comp (pin 0) 0) /\ sat (noL _) T (fl_circuit lb_comp3 (tl_out lb_comp 0 0) (tl_out lb_comp 0 1) 40).
Proof.
  pose proof (proj1 to_limbs_ex) as S. set (T1 := tl_assign lb_comp (pin 0) 0 lb_tab) in *.
  assert (O : forall i, 0 <= i < 2 -> outside lb_comp3 1 40 (tl_out lb_comp 0 i)).
  { intros i Hi [_ [_ X]]. unfold tl_out, wcell in X. cbn [vrot] in X. lia. }
  destruct (from_limbs_complete Ppallas (noL _) lb_comp3 (tl_out lb_comp 0 0) (tl_out lb_comp 0 1) 40 T1 lb_wf3 (O 0 ltac:(lia)) (O 1 ltac:(lia))) as [S2 [Fr _]].
  exists (fl_assign lb_comp3 (tl_out lb_comp 0 0) (tl_out lb_comp 0 1) 40 T1). split; [|exact S2].
  apply satb_sat. vm_compute. reflexivity.
Qed.
