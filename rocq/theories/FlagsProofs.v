(** Soundness and completeness of logic_and_flag and logic_or_flag, for every
    witness amount their manifests admit. *)
From Coq Require Import ZArith List Lia Bool Field.
From Verif Require Import Base Field Plonk PlonkFacts FieldOpsModel FieldOpsProofs.
Import ListNotations.
Open Scope Z_scope.

Section Proofs.
Variable P : params.
Notation F := (F P).
Notation table := (table P).
Variable L : lenv P.
Implicit Types T : table.
Add Field Ff : (F_field P) (morphism (F_morph P), constants [F_const], power_tac (F_power P) [F_pow_tac]).
Local Open Scope F_scope.

Definition nz (x : F) : bool := negb (feqb x f0).

(** The algebra of the and-flag constraints. *)
Lemma and_alg : forall x y p v f : F,
  p - x * y = f0 -> f * (f - f1) = f0 -> f - p * v = f0 -> (v - p) * (f - f1) = f0 ->
  f = fbit (nz x && nz y).
Proof.
  intros x y p v f H1 H2 H3 H4. apply fbool_cases in H2.
  assert (Hp : p = x * y) by (lc f1 H1).
  assert (PF : p = f0 <-> f = f0).
  { split; intros E.
    - rewrite E in H3. lc f1 H3.
    - rewrite E in H3, H4.
      assert (V : v = p) by (lc (- f1) H4).
      assert (PP : p * p = f0) by (rewrite V in H3; lc (- f1) H3).
      apply fmul_integral in PP. tauto. }
  unfold nz. destruct (feqb x f0) eqn:Ex; [|destruct (feqb y f0) eqn:Ey]; cbn [negb andb fbit].
  - apply feqb_eq in Ex. apply PF. rewrite Hp, Ex. ring.
  - apply feqb_eq in Ey. apply PF. rewrite Hp, Ey. ring.
  - apply feqb_neq in Ex. apply feqb_neq in Ey.
    destruct H2 as [E|E]; [|exact E]. exfalso. apply PF in E.
    rewrite Hp in E. apply fmul_integral in E. tauto.
Qed.

(** The algebra of the or-flag constraints. *)
Lemma or_alg : forall x y vx vy fx fy f : F,
  fx - x * vx = f0 -> fy - y * vy = f0 -> fx * (fx - f1) = f0 -> fy * (fy - f1) = f0 ->
  (vx - x) * (fx - f1) = f0 -> (vy - y) * (fy - f1) = f0 ->
  f - fx - fy + fx * fy = f0 ->
  f = fbit (nz x || nz y).
Proof.
  assert (K : forall x v g : F, g - x * v = f0 -> g * (g - f1) = f0 -> (v - x) * (g - f1) = f0 ->
            g = fbit (nz x)).
  { intros x v g A B D. apply fbool_cases in B. unfold nz.
    destruct (feqb x f0) eqn:E; cbn [negb fbit].
    - apply feqb_eq in E. rewrite E in A. lc f1 A.
    - apply feqb_neq in E. destruct B as [B|B]; [|exact B]. exfalso. rewrite B in *.
      assert (V : v = x) by (lc (- f1) D). rewrite V in A.
      assert (XX : x * x = f0) by (lc (- f1) A). apply fmul_integral in XX. tauto. }
  intros x y vx vy fx fy f H1 H2 H3 H4 H5 H6 H7.
  pose proof (K _ _ _ H1 H3 H5) as KX. pose proof (K _ _ _ H2 H4 H6) as KY.
  assert (E : f = fx + fy - fx * fy) by (lc f1 H7). rewrite E, KX, KY.
  destruct (nz x), (nz y); cbn [fbit orb]; ring.
Qed.

Lemma and_vals_ok : forall x y : F,
  let t := and_vals x y in
  let g i := znth f0 t i in
  g 2%Z - g 0%Z * g 1%Z = f0 /\ g 4%Z * (g 4%Z - f1) = f0 /\ g 4%Z - g 2%Z * g 3%Z = f0 /\
  (g 3%Z - g 2%Z) * (g 4%Z - f1) = f0.
Proof.
  intros x y t g. subst g t. unfold and_vals.
  cbv [znth Z.to_nat Pos.to_nat Pos.iter_op Init.Nat.add nth].
  destruct (feqb (x * y) f0) eqn:E.
  - apply feqb_eq in E. rewrite E. repeat split; ring.
  - apply feqb_neq in E.
    assert (x <> f0) by (intros ->; apply E; ring).
    assert (y <> f0) by (intros ->; apply E; ring).
    repeat split; field; auto.
Qed.

Lemma or_vals_ok : forall x y : F,
  let t := or_vals x y in
  let g i := znth f0 t i in
  g 4%Z - g 0%Z * g 2%Z = f0 /\ g 5%Z - g 1%Z * g 3%Z = f0 /\
  g 4%Z * (g 4%Z - f1) = f0 /\ g 5%Z * (g 5%Z - f1) = f0 /\
  (g 2%Z - g 0%Z) * (g 4%Z - f1) = f0 /\ (g 3%Z - g 1%Z) * (g 5%Z - f1) = f0 /\
  g 6%Z - g 4%Z - g 5%Z + g 4%Z * g 5%Z = f0.
Proof.
  intros x y t g. subst g t. unfold or_vals.
  cbv [znth Z.to_nat Pos.to_nat Pos.iter_op Init.Nat.add nth].
  destruct (feqb x f0) eqn:E; destruct (feqb y f0) eqn:E'.
  all: fdec E; fdec E'.
  - subst. repeat split; ring.
  - subst. repeat split; field; auto.
  - subst. repeat split; field; auto.
  - repeat split; field; auto.
Qed.

(** Equal up to integer arithmetic on row numbers. *)
Ltac cells := repeat first [reflexivity | lia | f_equal].
Ltac by_cells H := etransitivity; [|exact H]; cells.

Lemma and_sound_l : forall T c w x y row,
  wf_comp c w -> (2 <= w < 6)%Z ->
  sat L T (and_circuit c x y row) ->
  vval T (and_result c row) = fbit (nz (vval T x) && nz (vval T y)).
Proof.
  intros T c w x y row Hwf Hw H.
  assert (K : w = 2%Z \/ w = 3%Z \/ w = 4%Z \/ w = 5%Z) by lia.
  unfold and_circuit, and_gate, and_result, wlv in *.
  pose proof (proj1 (proj2 Hwf)) as Hwa. rewrite Hwa in *. clear Hwa Hw.
  destruct K as [->|[->|[->| ->]]]; cbn in H;
    sat_hyp H; destruct H as [[G1 [G2 [G3 [G4 _]]]] [C1 [C2 _]]]; eval_hyps; rewrite <- C1, <- C2;
    rewrite vval_wcell; cbn [and_rows Z.eqb Pos.eqb Z.ltb Z.compare Pos.compare Pos.compare_cont].
  - apply (and_alg _ _ (T CWit (W c 0) (row + 1)%Z) (T CWit (W c 1) (row + 1)%Z));
      [by_cells G1|by_cells G2|by_cells G3|by_cells G4].
  - apply (and_alg _ _ (T CWit (W c 2) row%Z) (T CWit (W c 0) (row + 1)%Z));
      [by_cells G1|by_cells G2|by_cells G3|by_cells G4].
  - apply (and_alg _ _ (T CWit (W c 2) row%Z) (T CWit (W c 3) row%Z));
      [by_cells G1|by_cells G2|by_cells G3|by_cells G4].
  - apply (and_alg _ _ (T CWit (W c 2) row%Z) (T CWit (W c 3) row%Z));
      [by_cells G1|by_cells G2|by_cells G3|by_cells G4].
Qed.

Lemma or_sound_l : forall T c w x y row,
  wf_comp c w -> (2 <= w < 7)%Z ->
  sat L T (or_circuit c x y row) ->
  vval T (or_result c row) = fbit (nz (vval T x) || nz (vval T y)).
Proof.
  intros T c w x y row Hwf Hw H.
  assert (K : w = 2%Z \/ w = 3%Z \/ w = 4%Z \/ w = 5%Z \/ w = 6%Z) by lia.
  unfold or_circuit, or_gates, or_result, wlv in *.
  pose proof (proj1 (proj2 Hwf)) as Hwa. rewrite Hwa in *. clear Hwa Hw.
  destruct K as [->|[->|[->|[->| ->]]]]; cbn in H; sat_hyp H.
  1: destruct H as [[G1 [G2 [G3 [G4 [G5 [G6 _]]]]]] [[G7 _] [C1 [C2 _]]]].
  2-5: destruct H as [[G1 [G2 [G3 [G4 [G5 [G6 [G7 _]]]]]]] [C1 [C2 _]]].
  all: eval_hyps; rewrite <- C1, <- C2; rewrite vval_wcell;
       cbn [or_rows Z.leb Z.eqb Pos.eqb Z.ltb Z.compare Pos.compare Pos.compare_cont].
  - apply (or_alg _ _ (T CWit (W c 0) (row + 1)%Z) (T CWit (W c 1) (row + 1)%Z)
            (T CWit (W c 0) (row + 2)%Z) (T CWit (W c 1) (row + 2)%Z));
      [by_cells G1|by_cells G2|by_cells G3|by_cells G4|by_cells G5|by_cells G6|by_cells G7].
  - apply (or_alg _ _ (T CWit (W c 2) row%Z) (T CWit (W c 0) (row + 1)%Z)
            (T CWit (W c 1) (row + 1)%Z) (T CWit (W c 2) (row + 1)%Z));
      [by_cells G1|by_cells G2|by_cells G3|by_cells G4|by_cells G5|by_cells G6|by_cells G7].
  - apply (or_alg _ _ (T CWit (W c 2) row%Z) (T CWit (W c 3) row%Z)
            (T CWit (W c 0) (row + 1)%Z) (T CWit (W c 1) (row + 1)%Z));
      [by_cells G1|by_cells G2|by_cells G3|by_cells G4|by_cells G5|by_cells G6|by_cells G7].
  - apply (or_alg _ _ (T CWit (W c 2) row%Z) (T CWit (W c 3) row%Z)
            (T CWit (W c 4) row%Z) (T CWit (W c 0) (row + 1)%Z));
      [by_cells G1|by_cells G2|by_cells G3|by_cells G4|by_cells G5|by_cells G6|by_cells G7].
  - apply (or_alg _ _ (T CWit (W c 2) row%Z) (T CWit (W c 3) row%Z)
            (T CWit (W c 4) row%Z) (T CWit (W c 5) row%Z));
      [by_cells G1|by_cells G2|by_cells G3|by_cells G4|by_cells G5|by_cells G6|by_cells G7].
Qed.

Lemma and_complete_l : forall T c w x y row,
  wf_comp c w -> (2 <= w < 6)%Z ->
  outside c (and_rows w) row x -> outside c (and_rows w) row y ->
  let T' := and_assign c x y row T in
  sat L T' (and_circuit c x y row) /\ frame c (and_rows w) row T T'.
Proof.
  intros T c w x y row Hwf Hw Hx Hy T'. subst T'.
  assert (K : w = 2%Z \/ w = 3%Z \/ w = 4%Z \/ w = 5%Z) by lia.
  unfold and_circuit, and_gate, and_assign, wlv.
  pose proof (proj1 (proj2 Hwf)) as Hwa. rewrite Hwa in *. clear Hwa Hw.
  destruct (and_vals_ok (vval T x) (vval T y)) as [A1 [A2 [A3 A4]]].
  assert (A5 : znth f0 (and_vals (vval T x) (vval T y)) 0 = vval T x) by reflexivity.
  assert (A6 : znth f0 (and_vals (vval T x) (vval T y)) 1 = vval T y) by reflexivity.
  set (t := and_vals (vval T x) (vval T y)) in *.
  destruct K as [->|[->|[->| ->]]].
  all: match goal with |- context [zseq 0 (and_rows ?w)] =>
         let r := eval vm_compute in (zseq 0 (and_rows w)) in change (zseq 0 (and_rows w)) with r;
         let r := eval vm_compute in (zseq 0 w) in change (zseq 0 w) with r end.
  all: cbn -[wset znth sat frame ofZ f0 f1 vval outside W] in *.
  all: split; [sat_goal; rd | frame_tac].
  all: rewrite ?A5, ?A6 in *; first [assumption | reflexivity | idtac].
Qed.

Lemma or_complete_l : forall T c w x y row,
  wf_comp c w -> (2 <= w < 7)%Z ->
  outside c (or_rows w) row x -> outside c (or_rows w) row y ->
  let T' := or_assign c x y row T in
  sat L T' (or_circuit c x y row) /\ frame c (or_rows w) row T T'.
Proof.
  intros T c w x y row Hwf Hw Hx Hy T'. subst T'.
  assert (K : w = 2%Z \/ w = 3%Z \/ w = 4%Z \/ w = 5%Z \/ w = 6%Z) by lia.
  unfold or_circuit, or_gates, or_assign, wlv.
  pose proof (proj1 (proj2 Hwf)) as Hwa. rewrite Hwa in *. clear Hwa Hw.
  destruct (or_vals_ok (vval T x) (vval T y)) as [A1 [A2 [A3 [A4 [A7 [A8 A9]]]]]].
  assert (A5 : znth f0 (or_vals (vval T x) (vval T y)) 0 = vval T x) by reflexivity.
  assert (A6 : znth f0 (or_vals (vval T x) (vval T y)) 1 = vval T y) by reflexivity.
  set (t := or_vals (vval T x) (vval T y)) in *.
  destruct K as [->|[->|[->|[->| ->]]]].
  all: match goal with |- context [zseq 0 (or_rows ?w)] =>
         let r := eval vm_compute in (zseq 0 (or_rows w)) in change (zseq 0 (or_rows w)) with r;
         let r := eval vm_compute in (zseq 0 w) in change (zseq 0 w) with r end.
  all: cbn -[wset znth sat frame ofZ f0 f1 vval outside W] in *.
  all: split; [sat_goal; rd | frame_tac].
  all: rewrite ?A5, ?A6 in *; first [assumption | reflexivity].
Qed.

Lemma and_vals_4 : forall x y : F, znth f0 (and_vals x y) 4 = fbit (nz x && nz y).
Proof.
  intros x y. destruct (and_vals_ok x y) as [A1 [A2 [A3 A4]]].
  eapply and_alg; eauto.
Qed.

Lemma or_vals_6 : forall x y : F, znth f0 (or_vals x y) 6 = fbit (nz x || nz y).
Proof.
  intros x y. destruct (or_vals_ok x y) as [A1 [A2 [A3 [A4 [A5 [A6 A7]]]]]].
  eapply or_alg; eauto.
Qed.

Lemma and_empty_l : forall T c w x y row,
  wf_comp c w ->
  let T' := and_empty c x y row T in
  frame c 1 row T T' /\
  vval T' (and_result_skip c row) = fbit (nz (vval T x) && nz (vval T y)).
Proof.
  intros T c w x y row Hwf T'. subst T'. unfold and_empty, and_result_skip. split.
  - frame_tac.
  - rd. apply and_vals_4.
Qed.

Lemma or_empty_l : forall T c w x y row,
  wf_comp c w ->
  let T' := or_empty c x y row T in
  frame c 1 row T T' /\
  vval T' (or_result_skip c row) = fbit (nz (vval T x) || nz (vval T y)).
Proof.
  intros T c w x y row Hwf T'. subst T'. unfold or_empty, or_result_skip. split.
  - frame_tac.
  - rd. apply or_vals_6.
Qed.

End Proofs.
Arguments nz {P}.
