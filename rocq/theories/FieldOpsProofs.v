(** Soundness and completeness of the native-field arithmetic components. *)
From Coq Require Import ZArith List Lia Bool Field.
From Verif Require Import Base Field Plonk PlonkFacts FieldOpsModel.
Import ListNotations.
Open Scope Z_scope.

Section Proofs.
Variable P : params.
Notation F := (F P).
Notation table := (table P).
Variable L : lenv P.
Implicit Types T : table.
Add Field Ff : (F_field P) (morphism (F_morph P), constants [F_const], power_tac (F_power P) [F_pow_tac]).
Local Open Scope F_scope.

(** ** addition *)
Lemma addition_sound_l : forall T c x y row,
  sat L T (addition_circuit c x y row) ->
  vval T (addition_result c row) = vval T x + vval T y.
Proof.
  intros T c x y row H. unfold addition_circuit, addition_gate in H.
  sat_hyp H. destruct H as [[G _] [C1 [C2 _]]]. eval_hyps.
  unfold addition_result. rewrite vval_wcell. rewrite C1, <- C2. lc (- f1) G.
Qed.

Lemma addition_complete_l : forall T c x y row,
  wf_comp c 3 -> outside c 1 row x -> outside c 1 row y ->
  let T' := addition_assign c x y row T in
  sat L T' (addition_circuit c x y row) /\ frame c 1 row T T' /\
  vval T' (addition_result c row) = vval T x + vval T y.
Proof.
  intros T c x y row Hwf Hx Hy T'. subst T'. unfold addition_assign. cbn zeta.
  split; [|split].
  - unfold addition_circuit, addition_gate. sat_goal; rd; ring.
  - frame_tac.
  - unfold addition_result. rd. reflexivity.
Qed.

Lemma addition_empty_l : forall T c x y row,
  wf_comp c 3 ->
  let T' := addition_empty c x y row T in
  frame c 1 row T T' /\ vval T' (addition_result c row) = vval T x + vval T y.
Proof.
  intros T c x y row Hwf T'. subst T'. unfold addition_empty, addition_result. split.
  - frame_tac.
  - rd. reflexivity.
Qed.

(** ** subtraction *)
Lemma subtraction_sound_l : forall T c x y row,
  sat L T (subtraction_circuit c x y row) ->
  vval T (subtraction_result c row) = vval T x - vval T y.
Proof.
  intros T c x y row H. unfold subtraction_circuit, subtraction_gate in H.
  sat_hyp H. destruct H as [[G _] [C1 [C2 _]]]. eval_hyps.
  unfold subtraction_result. rewrite vval_wcell. rewrite C1, <- C2. lc (- f1) G.
Qed.

Lemma subtraction_complete_l : forall T c x y row,
  wf_comp c 3 -> outside c 1 row x -> outside c 1 row y ->
  let T' := subtraction_assign c x y row T in
  sat L T' (subtraction_circuit c x y row) /\ frame c 1 row T T' /\
  vval T' (subtraction_result c row) = vval T x - vval T y.
Proof.
  intros T c x y row Hwf Hx Hy T'. subst T'. unfold subtraction_assign. cbn zeta.
  split; [|split].
  - unfold subtraction_circuit, subtraction_gate. sat_goal; rd; ring.
  - frame_tac.
  - unfold subtraction_result. rd. reflexivity.
Qed.

Lemma subtraction_empty_l : forall T c x y row,
  wf_comp c 3 ->
  let T' := subtraction_empty c x y row T in
  frame c 1 row T T' /\ vval T' (subtraction_result c row) = vval T x - vval T y.
Proof.
  intros T c x y row Hwf T'. subst T'. unfold subtraction_empty, subtraction_result. split.
  - frame_tac.
  - rd. reflexivity.
Qed.

(** ** multiplication: an input may also be the component's own input cell. *)
Definition own_or_outside (c : comp) (i row : Z) (x : var) : Prop :=
  outside c 1 row x \/ x = wcell (W c i) row.

Lemma multiplication_sound_l : forall T c x y row,
  sat L T (multiplication_circuit c x y row) ->
  vval T (multiplication_result c row) = vval T x * vval T y.
Proof.
  intros T c x y row H. unfold multiplication_circuit, multiplication_gate in H.
  sat_hyp H. destruct H as [[G _] [C1 C2]]. eval_hyps.
  unfold multiplication_result. rewrite vval_wcell.
  assert (X : vval T x = T CWit (W c 0) row).
  { destruct (var_eqb x (wcell (W c 0) row)) eqn:E.
    - apply var_eqb_eq in E. subst x. reflexivity.
    - sat_hyp C1. apply C1. }
  assert (Y : vval T y = T CWit (W c 1) row).
  { destruct (var_eqb y (wcell (W c 1) row)) eqn:E.
    - apply var_eqb_eq in E. subst y. reflexivity.
    - sat_hyp C2. symmetry. apply C2. }
  rewrite X, Y. lc (- f1) G.
Qed.

Lemma multiplication_complete_l : forall T c x y row,
  wf_comp c 3 -> own_or_outside c 0 row x -> own_or_outside c 1 row y ->
  let T' := multiplication_assign c x y row T in
  sat L T' (multiplication_circuit c x y row) /\ frame c 1 row T T' /\
  vval T' x = vval T x /\ vval T' y = vval T y /\
  vval T' (multiplication_result c row) = vval T x * vval T y.
Proof.
  intros T c x y row Hwf Hx Hy T'. subst T'. unfold multiplication_assign. cbn zeta.
  assert (X2 : forall v, vval (wset (wset T (W c 0) row (vval T x)) (W c 1) row v) x = vval T x).
  { intros v. destruct Hx as [Hx|Hx]; [rd; reflexivity|]. subst x. rd. reflexivity. }
  assert (Y1 : vval (wset T (W c 0) row (vval T x)) y = vval T y).
  { destruct Hy as [Hy|Hy]; [rd; reflexivity|]. subst y. rd. reflexivity. }
  assert (Y2 : vval (wset (wset T (W c 0) row (vval T x)) (W c 1) row (vval T y)) y = vval T y).
  { destruct Hy as [Hy|Hy]; [rd; reflexivity|]. subst y. rd. reflexivity. }
  rewrite Y1, X2, Y2.
  set (T' := wset (wset (wset T (W c 0) row (vval T x)) (W c 1) row (vval T y)) (W c 2) row _).
  assert (X' : vval T' x = vval T x).
  { unfold T'. destruct Hx as [Hx|Hx]; [rd; reflexivity|]. subst x. rd. reflexivity. }
  assert (Y' : vval T' y = vval T y).
  { unfold T'. destruct Hy as [Hy|Hy]; [rd; reflexivity|]. subst y. rd. reflexivity. }
  split; [|split; [|split; [exact X'|split; [exact Y'|]]]].
  - unfold multiplication_circuit, multiplication_gate.
    apply sat_cons; split; [|apply sat_app; split].
    + sat_goal. unfold T'. rd. ring.
    + destruct (var_eqb x (wcell (W c 0) row)); sat_goal.
      rewrite X'. unfold T'. rd. reflexivity.
    + destruct (var_eqb y (wcell (W c 1) row)); sat_goal.
      rewrite Y'. unfold T'. rd. reflexivity.
  - unfold T'. frame_tac.
  - unfold T', multiplication_result. rd. reflexivity.
Qed.

Lemma multiplication_empty_l : forall T c x y row,
  wf_comp c 3 ->
  let T' := multiplication_empty c x y row T in
  frame c 1 row T T' /\ vval T' (multiplication_result c row) = vval T x * vval T y.
Proof.
  intros T c x y row Hwf T'. subst T'. unfold multiplication_empty, multiplication_result. split.
  - frame_tac.
  - rd. reflexivity.
Qed.

(** ** multiplication by a constant *)
Lemma mul_by_constant_sound_l : forall T c k x row,
  C c 0 = 0%Z ->
  sat L T (mul_by_constant_circuit c k x row) ->
  vval T (mul_by_constant_result c row) = k * vval T x.
Proof.
  intros T c k x row HC H. unfold mul_by_constant_circuit, mul_by_constant_gate in H.
  sat_hyp H. destruct H as [[G _] [C1 [C2 _]]]. eval_hyps.
  unfold gval in G. cbn [vty vidx vrel vrot] in G. rewrite Z.add_0_r in G. rewrite HC in C2.
  unfold mul_by_constant_result. rewrite vval_wcell. rewrite C1, <- C2. lc (- f1) G.
Qed.

Lemma mul_by_constant_complete_l : forall T c k x row,
  C c 0 = 0%Z -> wf_comp c 2 -> outside c 1 row x ->
  consts_in T (mul_by_constant_circuit c k x row) ->
  let T' := mul_by_constant_assign c k x row T in
  sat L T' (mul_by_constant_circuit c k x row) /\ frame c 1 row T T' /\
  vval T' (mul_by_constant_result c row) = k * vval T x.
Proof.
  intros T c k x row HC Hwf Hx HK T'. subst T'. unfold mul_by_constant_assign. cbn zeta.
  assert (K : T CConst 0%Z row = k).
  { rewrite <- HC. apply HK. unfold mul_by_constant_circuit. cbn. auto. }
  split; [|split].
  - unfold mul_by_constant_circuit, mul_by_constant_gate. sat_goal; rd.
    + unfold gval. cbn [vty vidx vrel vrot]. rewrite Z.add_0_r. rd. rewrite K. ring.
    + reflexivity.
    + rewrite HC. exact K.
  - frame_tac.
  - unfold mul_by_constant_result. rd. reflexivity.
Qed.

Lemma mul_by_constant_empty_l : forall T c k x row,
  wf_comp c 2 ->
  let T' := mul_by_constant_empty c k x row T in
  frame c 1 row T T' /\ vval T' (mul_by_constant_result c row) = k * vval T x.
Proof.
  intros T c k x row Hwf T'. subst T'. unfold mul_by_constant_empty, mul_by_constant_result. split.
  - frame_tac.
  - rd. ring.
Qed.

(** ** division *)
Lemma division_sound_l : forall T c x y row,
  sat L T (division_circuit c x y row) ->
  vval T y <> f0 /\ vval T (division_result c row) * vval T y = vval T x.
Proof.
  intros T c x y row H. unfold division_circuit, division_gate in H.
  sat_hyp H. destruct H as [[G1 [G2 _]] [C1 [C2 _]]]. eval_hyps.
  unfold division_result. rewrite vval_wcell. rewrite C1, <- C2. split.
  - intros Z. rewrite Z in G2. apply (f1_neq_f0 P). lc (- f1) G2.
  - lc f1 G1.
Qed.

Lemma division_complete_l : forall T c x y row,
  wf_comp c 4 -> outside c 1 row x -> outside c 1 row y -> vval T y <> f0 ->
  let T' := division_assign c x y row T in
  sat L T' (division_circuit c x y row) /\ frame c 1 row T T' /\
  vval T' (division_result c row) * vval T y = vval T x.
Proof.
  intros T c x y row Hwf Hx Hy Hnz T'. subst T'. unfold division_assign. cbn zeta.
  split; [|split].
  - unfold division_circuit, division_gate. sat_goal; rd; try reflexivity; field; exact Hnz.
  - frame_tac.
  - unfold division_result. rd. field. exact Hnz.
Qed.

Lemma division_empty_l : forall T c x y row,
  wf_comp c 4 -> outside c 1 row x -> outside c 1 row y ->
  let T' := division_empty c x y row T in
  frame c 1 row T T' /\
  vval T' (division_result c row) = vval (division_assign c x y row T) (division_result c row).
Proof.
  intros T c x y row Hwf Hx Hy T'. subst T'. unfold division_empty, division_assign, division_result.
  cbn zeta. split.
  - frame_tac.
  - rd. reflexivity.
Qed.

(** ** division or zero *)
Lemma division_or_zero_sound_l : forall T c x y row,
  sat L T (division_or_zero_circuit c x y row) ->
  (vval T y <> f0 -> vval T (division_or_zero_result c row) * vval T y = vval T x) /\
  (vval T y = f0 -> vval T (division_or_zero_result c row) = f0).
Proof.
  intros T c x y row H. unfold division_or_zero_circuit, division_or_zero_gate in H.
  sat_hyp H. destruct H as [[G1 [G2 [G3 [G4 _]]]] [C1 [C2 _]]]. eval_hyps.
  unfold division_or_zero_result. rewrite vval_wcell. rewrite C1, <- C2.
  set (vx := T CWit (W c 0) row) in *. set (vy := T CWit (W c 1) row) in *.
  set (q := T CWit (W c 2) row) in *. set (i := T CWit (W c 3) row) in *.
  set (f := T CWit (W c 4) row) in *.
  apply fbool_cases in G2. split.
  - intros Hy. destruct G2 as [Z|Z]; rewrite Z in *.
    + exfalso. (* f = 0: i = y and y*i = 0 *)
      assert (E : i = vy) by (lc (- f1) G3).
      rewrite E in G1. assert (E2 : vy * vy = f0) by (lc f1 G1).
      apply fmul_integral in E2. tauto.
    + lc (- vy) G4 vx G1.
  - intros Hy. rewrite Hy in *.
    assert (F0 : f = f0) by (lc (- f1) G1).
    rewrite F0 in *.
    assert (I0 : i = f0) by (lc (- f1) G3). rewrite I0 in *. lc (- f1) G4.
Qed.

Lemma division_or_zero_complete_l : forall T c x y row,
  wf_comp c 5 -> outside c 1 row x -> outside c 1 row y ->
  let T' := division_or_zero_assign c x y row T in
  sat L T' (division_or_zero_circuit c x y row) /\ frame c 1 row T T'.
Proof.
  intros T c x y row Hwf Hx Hy T'. subst T'. unfold division_or_zero_assign. cbn zeta.
  split.
  - unfold division_or_zero_circuit, division_or_zero_gate. sat_goal; rd; try reflexivity.
    all: destruct (feqb (vval T y) f0) eqn:E;
      [apply feqb_eq in E; rewrite ?E; ring | apply feqb_neq in E; try (field; exact E)].
  - frame_tac.
Qed.

Lemma division_or_zero_empty_l : forall T c x y row,
  wf_comp c 5 -> outside c 1 row x -> outside c 1 row y ->
  let T' := division_or_zero_empty c x y row T in
  frame c 1 row T T' /\
  vval T' (division_or_zero_result c row) =
  vval (division_or_zero_assign c x y row T) (division_or_zero_result c row).
Proof.
  intros T c x y row Hwf Hx Hy T'. subst T'.
  unfold division_or_zero_empty, division_or_zero_assign, division_or_zero_result. cbn zeta. split.
  - frame_tac.
  - rd. reflexivity.
Qed.

(** ** equality_flag *)
Definition fbit (b : bool) : F := if b then f1 else f0.

Lemma equality_flag_sound_l : forall T c ineq x y row,
  sat L T (equality_flag_circuit c ineq x y row) ->
  vval T (equality_flag_result c row) = fbit (xorb ineq (feqb (vval T x) (vval T y))).
Proof.
  intros T c ineq x y row H. unfold equality_flag_circuit, equality_flag_gate in H. cbn zeta in H.
  sat_hyp H. destruct H as [[G1 [G2 [G3 _]]] [C1 [C2 _]]]. eval_hyps.
  unfold equality_flag_result. rewrite vval_wcell. rewrite C1, C2.
  set (vx := T CWit (W c 0) row) in *. set (vy := T CWit (W c 1) row) in *.
  set (i := T CWit (W c 2) row) in *. set (r := T CWit (W c 3) row) in *.
  apply fbool_cases in G1.
  destruct (feqb vx vy) eqn:E.
  - apply feqb_eq in E. rewrite E in *. destruct ineq; cbn [xorb fbit]; eval_hyps; fold r in G2, G3.
    + lc (- f1) G2.
    + lc f1 G2.
  - apply feqb_neq in E.
    assert (D : vx - vy <> f0) by (intros D; apply E; apply fsub_eq0; exact D).
    assert (D2 : forall z : F, (vx - vy) * (vx - vy) <> f0) by (intros z D'; apply fmul_integral in D'; tauto).
    destruct ineq; cbn [xorb fbit]; eval_hyps; fold r in G2, G3.
    + destruct G1 as [R|R]; [exfalso|exact R]. rewrite R in *.
      apply (D2 f0). assert (I : i = vx - vy) by (lc (- f1) G3). rewrite I in G2. lc f1 G2.
    + destruct G1 as [R|R]; [exact R|exfalso]. rewrite R in *.
      apply (D2 f0). assert (I : i = vx - vy) by (lc f1 G3). rewrite I in G2. lc f1 G2.
Qed.

Lemma equality_flag_complete_l : forall T c ineq x y row,
  wf_comp c 4 -> outside c 1 row x -> outside c 1 row y ->
  let T' := equality_flag_assign c ineq x y row T in
  sat L T' (equality_flag_circuit c ineq x y row) /\ frame c 1 row T T'.
Proof.
  intros T c ineq x y row Hwf Hx Hy T'. subst T'. unfold equality_flag_assign. cbn zeta.
  split.
  - unfold equality_flag_circuit, equality_flag_gate. cbn zeta.
    destruct (feqb (vval T x) (vval T y)) eqn:E.
    + apply feqb_eq in E. destruct ineq; cbn [negb]; sat_goal; rd; try reflexivity; rewrite ?E; ring.
    + apply feqb_neq in E.
      assert (D : vval T x - vval T y <> f0) by (intros D; apply E; apply fsub_eq0; exact D).
      destruct ineq; cbn [negb]; sat_goal; rd; try reflexivity; try ring; try (field; exact D).
  - frame_tac.
Qed.

(** ** linear interpolation *)
Lemma linear_sound_l : forall T c x0 z0 x1 z1 row,
  sat L T (linear_circuit c x0 z0 x1 z1 row) ->
  let a0 := vval T (fst (linear_result c row)) in
  let a1 := vval T (snd (linear_result c row)) in
  vval T x0 <> vval T x1 /\
  (forall b0 b1 : F,
     (b0 + b1 * vval T x0 = vval T z0 /\ b0 + b1 * vval T x1 = vval T z1) <-> (b0 = a0 /\ b1 = a1)).
Proof.
  intros T c x0 z0 x1 z1 row H. unfold linear_circuit, linear_gate in H. cbn zeta in H.
  sat_hyp H. destruct H as [[G1 [G2 [G3 _]]] [C1 [C2 [C3 [C4 _]]]]]. eval_hyps.
  cbn [linear_result fst snd]. rewrite !vval_wcell. rewrite <- C1, <- C2, <- C3, <- C4.
  set (X0 := T CWit (W c 0) row) in *. set (Z0 := T CWit (W c 1) row) in *.
  set (X1 := T CWit (W c 2) row) in *. set (Z1 := T CWit (W c 3) row) in *.
  set (A0 := T CWit (W c 4) row) in *. set (A1 := T CWit (W c 5) row) in *.
  set (I := T CWit (W c 6) row) in *. cbn zeta. split.
  - intros E. apply (f1_neq_f0 P). rewrite E in G3. lc (- f1) G3.
  - intros b0 b1. split.
    + intros [B0 B1].
      assert (E1 : b1 = A1).
      { (* (b1 - A1) (X1 - X0) I = b1 - A1 *)
        lc (- (b1 - A1)) G3 (I) B1 (- I) B0 (- I) G2 I G1. }
      split; [|exact E1]. rewrite E1 in B0. lc f1 B0 (- f1) G1.
    + intros [-> ->]. split; [lc f1 G1|lc f1 G2].
Qed.

Lemma linear_complete_l : forall T c x0 z0 x1 z1 row,
  wf_comp c 7 -> outside c 1 row x0 -> outside c 1 row z0 -> outside c 1 row x1 -> outside c 1 row z1 ->
  vval T x0 <> vval T x1 ->
  let T' := linear_assign c x0 z0 x1 z1 row T in
  sat L T' (linear_circuit c x0 z0 x1 z1 row) /\ frame c 1 row T T'.
Proof.
  intros T c x0 z0 x1 z1 row Hwf H1 H2 H3 H4 Hne T'. subst T'. unfold linear_assign. cbn zeta.
  replace (feqb (vval T x0) (vval T x1)) with false by (symmetry; apply feqb_neq; exact Hne).
  cbn [negb].
  assert (D : vval T x1 - vval T x0 <> f0) by (apply fsub_neq0; congruence).
  split.
  - unfold linear_circuit, linear_gate. cbn zeta. sat_goal; rd; try reflexivity; field; exact D.
  - frame_tac.
Qed.

(** ** quadratic interpolation *)
Lemma quadratic_sound_l : forall T c x0 z0 x1 z1 x2 z2 row,
  sat L T (quadratic_circuit c x0 z0 x1 z1 x2 z2 row) ->
  let a0 := vval T (fst (fst (quadratic_result c row))) in
  let a1 := vval T (snd (fst (quadratic_result c row))) in
  let a2 := vval T (snd (quadratic_result c row)) in
  vval T x0 <> vval T x1 /\ vval T x0 <> vval T x2 /\ vval T x1 <> vval T x2 /\
  (forall b0 b1 b2 : F,
     (b0 + b1 * vval T x0 + b2 * (vval T x0 * vval T x0) = vval T z0 /\
      b0 + b1 * vval T x1 + b2 * (vval T x1 * vval T x1) = vval T z1 /\
      b0 + b1 * vval T x2 + b2 * (vval T x2 * vval T x2) = vval T z2)
     <-> (b0 = a0 /\ b1 = a1 /\ b2 = a2)).
Proof.
  intros T c x0 z0 x1 z1 x2 z2 row H. unfold quadratic_circuit, quadratic_gate in H. cbn zeta in H.
  sat_hyp H. destruct H as [[G1 [G2 [G3 [G4 _]]]] [C1 [C2 [C3 [C4 [C5 [C6 _]]]]]]]. eval_hyps.
  cbn [quadratic_result fst snd]. rewrite !vval_wcell. rewrite <- C1, <- C2, <- C3, <- C4, <- C5, <- C6.
  set (X0 := T CWit (W c 0) row) in *. set (Z0 := T CWit (W c 1) row) in *.
  set (X1 := T CWit (W c 2) row) in *. set (Z1 := T CWit (W c 3) row) in *.
  set (X2 := T CWit (W c 4) row) in *. set (Z2 := T CWit (W c 5) row) in *.
  set (A0 := T CWit (W c 6) row) in *. set (A1 := T CWit (W c 7) row) in *.
  set (A2 := T CWit (W c 8) row) in *. set (I := T CWit (W c 9) row) in *. cbn zeta.
  split; [|split; [|split]].
  - intros E. apply (f1_neq_f0 P). rewrite E in G4. lc (- f1) G4.
  - intros E. apply (f1_neq_f0 P). rewrite E in G4. lc (- f1) G4.
  - intros E. apply (f1_neq_f0 P). rewrite E in G4. lc (- f1) G4.
  - intros b0 b1 b2. split.
    + intros [B0 [B1 B2]].
      set (d0 := b0 - A0). set (d1 := b1 - A1). set (d2 := b2 - A2).
      assert (D0 : d0 + d1 * X0 + d2 * (X0 * X0) = f0) by (unfold d0, d1, d2; lc f1 B0 (- f1) G1).
      assert (D1 : d0 + d1 * X1 + d2 * (X1 * X1) = f0) by (unfold d0, d1, d2; lc f1 B1 (- f1) G2).
      assert (D2 : d0 + d1 * X2 + d2 * (X2 * X2) = f0) by (unfold d0, d1, d2; lc f1 B2 (- f1) G3).
      assert (E2 : d2 = f0).
      { (* divided differences *)
        lc (- d2) G4 (I * (X2 - X1)) D0 (- I * (X2 - X0)) D1 (I * (X1 - X0)) D2. }
      rewrite E2 in D0, D1, D2.
      assert (E1 : d1 = f0).
      { lc (- d1) G4 (I * (X2 - X0) * (X2 - X1)) D1 (- I * (X2 - X0) * (X2 - X1)) D0. }
      rewrite E1 in D0.
      assert (E0 : d0 = f0) by (lc f1 D0).
      split; [|split]; apply fsub_eq0; assumption.
    + intros [-> [-> ->]]. split; [lc f1 G1|split; [lc f1 G2|lc f1 G3]].
Qed.

Lemma quadratic_complete_l : forall T c x0 z0 x1 z1 x2 z2 row,
  wf_comp c 10 -> outside c 1 row x0 -> outside c 1 row z0 -> outside c 1 row x1 ->
  outside c 1 row z1 -> outside c 1 row x2 -> outside c 1 row z2 ->
  vval T x0 <> vval T x1 -> vval T x0 <> vval T x2 -> vval T x1 <> vval T x2 ->
  let T' := quadratic_assign c x0 z0 x1 z1 x2 z2 row T in
  sat L T' (quadratic_circuit c x0 z0 x1 z1 x2 z2 row) /\ frame c 1 row T T'.
Proof.
  intros T c x0 z0 x1 z1 x2 z2 row Hwf H1 H2 H3 H4 H5 H6 N1 N2 N3 T'. subst T'.
  unfold quadratic_assign. cbn zeta.
  assert (D1 : vval T x1 - vval T x0 <> f0) by (apply fsub_neq0; congruence).
  assert (D2 : vval T x2 - vval T x0 <> f0) by (apply fsub_neq0; congruence).
  assert (D3 : vval T x2 - vval T x1 <> f0) by (apply fsub_neq0; congruence).
  assert (D : (vval T x1 - vval T x0) * (vval T x2 - vval T x0) * (vval T x2 - vval T x1) <> f0).
  { intros D. apply fmul_integral in D. destruct D as [D|D]; [|tauto].
    apply fmul_integral in D. tauto. }
  apply feqb_neq in D. rewrite D. cbn [negb]. split.
  - unfold quadratic_circuit, quadratic_gate, det3. cbn zeta. sat_goal; rd; try reflexivity; field; auto.
  - frame_tac.
Qed.

End Proofs.
Arguments fbit {P}.
