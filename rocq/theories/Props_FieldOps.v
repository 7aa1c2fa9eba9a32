(** Properties C03-C07 and C18: the native-field arithmetic components. *)
From Coq Require Import ZArith List Lia Bool.
From Verif Require Import Base Field Plonk PlonkFacts FieldOpsModel FieldOpsProofs FlagsProofs Examples.
Import ListNotations.
Open Scope Z_scope.

(** ** C03 addition, subtraction, multiplication *)

Theorem addition_sound : forall P (L : lenv P) T c x y row,
  sat L T (addition_circuit c x y row) ->
  vval T (addition_result c row) = (vval T x + vval T y)%F.
Proof. exact addition_sound_l. Qed.
Print Assumptions addition_sound.

Theorem addition_complete : forall P (L : lenv P) T c x y row,
  wf_comp c 3 -> outside c 1 row x -> outside c 1 row y ->
  let T' := addition_assign c x y row T in
  sat L T' (addition_circuit c x y row) /\ frame c 1 row T T' /\
  vval T' (addition_result c row) = (vval T x + vval T y)%F.
Proof. exact addition_complete_l. Qed.
Print Assumptions addition_complete.

Theorem addition_empty_agrees : forall P (T : table P) c x y row,
  wf_comp c 3 ->
  let T' := addition_empty c x y row T in
  frame c 1 row T T' /\ vval T' (addition_result c row) = (vval T x + vval T y)%F.
Proof. exact addition_empty_l. Qed.
Print Assumptions addition_empty_agrees.

Example addition_example :
  let T := addition_assign (std_comp 3) (pin 0) (pin 1) 4 (intab P97 [60; 50]) in
  sat (noL P97) T (addition_circuit (std_comp 3) (pin 0) (pin 1) 4) /\
  fval (vval T (addition_result (std_comp 3) 4)) = 13.
Proof.
  split; [|vm_compute; reflexivity].
  apply addition_complete; auto using pin_outside. apply wf_std. lia.
Qed.

Theorem subtraction_sound : forall P (L : lenv P) T c x y row,
  sat L T (subtraction_circuit c x y row) ->
  vval T (subtraction_result c row) = (vval T x - vval T y)%F.
Proof. exact subtraction_sound_l. Qed.
Print Assumptions subtraction_sound.

Theorem subtraction_complete : forall P (L : lenv P) T c x y row,
  wf_comp c 3 -> outside c 1 row x -> outside c 1 row y ->
  let T' := subtraction_assign c x y row T in
  sat L T' (subtraction_circuit c x y row) /\ frame c 1 row T T' /\
  vval T' (subtraction_result c row) = (vval T x - vval T y)%F.
Proof. exact subtraction_complete_l. Qed.
Print Assumptions subtraction_complete.

Theorem subtraction_empty_agrees : forall P (T : table P) c x y row,
  wf_comp c 3 ->
  let T' := subtraction_empty c x y row T in
  frame c 1 row T T' /\ vval T' (subtraction_result c row) = (vval T x - vval T y)%F.
Proof. exact subtraction_empty_l. Qed.
Print Assumptions subtraction_empty_agrees.

Example subtraction_example :
  let T := subtraction_assign (std_comp 3) (pin 0) (pin 1) 4 (intab P97 [3; 50]) in
  sat (noL P97) T (subtraction_circuit (std_comp 3) (pin 0) (pin 1) 4) /\
  fval (vval T (subtraction_result (std_comp 3) 4)) = 50.
Proof.
  split; [|vm_compute; reflexivity].
  apply subtraction_complete; auto using pin_outside. apply wf_std. lia.
Qed.

Theorem multiplication_sound : forall P (L : lenv P) T c x y row,
  sat L T (multiplication_circuit c x y row) ->
  vval T (multiplication_result c row) = (vval T x * vval T y)%F.
Proof. exact multiplication_sound_l. Qed.
Print Assumptions multiplication_sound.

Theorem multiplication_complete : forall P (L : lenv P) T c x y row,
  wf_comp c 3 -> own_or_outside c 0 row x -> own_or_outside c 1 row y ->
  let T' := multiplication_assign c x y row T in
  sat L T' (multiplication_circuit c x y row) /\ frame c 1 row T T' /\
  vval T' x = vval T x /\ vval T' y = vval T y /\
  vval T' (multiplication_result c row) = (vval T x * vval T y)%F.
Proof. exact multiplication_complete_l. Qed.
Print Assumptions multiplication_complete.

Theorem multiplication_empty_agrees : forall P (T : table P) c x y row,
  wf_comp c 3 ->
  let T' := multiplication_empty c x y row T in
  frame c 1 row T T' /\ vval T' (multiplication_result c row) = (vval T x * vval T y)%F.
Proof. exact multiplication_empty_l. Qed.
Print Assumptions multiplication_empty_agrees.

Example multiplication_example :
  let x := wcell 0 4 in
  let T := multiplication_assign (std_comp 3) x (pin 1) 4
             (wset (intab P97 [0; 50]) 0 4 (ofZ 3)) in
  sat (noL P97) T (multiplication_circuit (std_comp 3) x (pin 1) 4) /\
  fval (vval T (multiplication_result (std_comp 3) 4)) = 53.
Proof.
  split; [|vm_compute; reflexivity].
  apply multiplication_complete.
  - apply wf_std. lia.
  - right. reflexivity.
  - left. apply pin_outside.
Qed.

(** ** C04 multiplication by a constant *)

(** For instances whose constant column is column 0; see C29 below for others. *)
Theorem mul_by_constant_sound : forall P (L : lenv P) T c k x row,
  C c 0 = 0 ->
  sat L T (mul_by_constant_circuit c k x row) ->
  vval T (mul_by_constant_result c row) = (k * vval T x)%F.
Proof. exact mul_by_constant_sound_l. Qed.
Print Assumptions mul_by_constant_sound.

Theorem mul_by_constant_complete : forall P (L : lenv P) T c k x row,
  C c 0 = 0 -> wf_comp c 2 -> outside c 1 row x ->
  consts_in T (mul_by_constant_circuit c k x row) ->
  let T' := mul_by_constant_assign c k x row T in
  sat L T' (mul_by_constant_circuit c k x row) /\ frame c 1 row T T' /\
  vval T' (mul_by_constant_result c row) = (k * vval T x)%F.
Proof. exact mul_by_constant_complete_l. Qed.
Print Assumptions mul_by_constant_complete.

Theorem mul_by_constant_empty_agrees : forall P (T : table P) c k x row,
  wf_comp c 2 ->
  let T' := mul_by_constant_empty c k x row T in
  frame c 1 row T T' /\ vval T' (mul_by_constant_result c row) = (k * vval T x)%F.
Proof. exact mul_by_constant_empty_l. Qed.
Print Assumptions mul_by_constant_empty_agrees.

Example mul_by_constant_example :
  let T0 := cset (intab P97 [60]) 0 4 (ofZ 5) in
  let T := mul_by_constant_assign (std_comp 2) (ofZ 5) (pin 0) 4 T0 in
  sat (noL P97) T (mul_by_constant_circuit (std_comp 2) (ofZ 5) (pin 0) 4) /\
  fval (vval T (mul_by_constant_result (std_comp 2) 4)) = 9.
Proof.
  split; [|vm_compute; reflexivity].
  apply mul_by_constant_complete; auto using pin_outside.
  - apply wf_std. lia.
  - intros col row v H. cbn in H.
    destruct H as [H|[H|[H|[]]]]; try discriminate. injection H as <- <- <-. reflexivity.
Qed.

(** C29: the claim fails for an instance given constant column 1: the gate reads
    column 0.  With 3 as the constant and 5 as the input, result 0 is accepted. *)
Theorem mul_by_constant_constant_column_refuted :
  exists (c : comp) (T : table P97) (k : F P97) (x : var) (row : Z),
    wf_comp c 2 /\ NoDup (cCs c) /\ outside c 1 row x /\
    sat (noL P97) T (mul_by_constant_circuit c k x row) /\
    vval T (mul_by_constant_result c row) <> (k * vval T x)%F.
Proof.
  exists (mkComp [0; 1] [1] []).
  exists (cset (wset (wset (intab P97 [5]) 0 0 (ofZ 5)) 1 0 f0) 1 0 (ofZ 3)).
  exists (ofZ 3), (pin 0), 0.
  split; [|split; [|split; [|split]]].
  - split; [|split; [reflexivity|lia]].
    constructor; [cbn; intuition discriminate|constructor; [cbn; tauto|constructor]].
  - constructor; [cbn; tauto|constructor].
  - apply pin_outside.
  - intros cm [<-|[<-|[<-|[]]]].
    + intros r [<-|[]] e [<-|[]]. vm_compute. apply F_ext. reflexivity.
    + cbn. apply F_ext. reflexivity.
    + cbn. reflexivity.
  - intros E. apply (f_equal fval) in E. vm_compute in E. discriminate.
Qed.
Print Assumptions mul_by_constant_constant_column_refuted.

(** ** C05 division *)

(** [q] is the quotient of [x] by [y]. *)
Definition is_quotient {P} (x y q : F P) : Prop := y <> f0 /\ (q * y)%F = x.

Theorem division_sound : forall P (L : lenv P) T c x y row,
  sat L T (division_circuit c x y row) ->
  is_quotient (vval T x) (vval T y) (vval T (division_result c row)).
Proof. exact division_sound_l. Qed.
Print Assumptions division_sound.

Theorem division_complete : forall P (L : lenv P) T c x y row,
  wf_comp c 4 -> outside c 1 row x -> outside c 1 row y -> vval T y <> f0 ->
  let T' := division_assign c x y row T in
  sat L T' (division_circuit c x y row) /\ frame c 1 row T T' /\
  (vval T' (division_result c row) * vval T y)%F = vval T x.
Proof. exact division_complete_l. Qed.
Print Assumptions division_complete.

Theorem division_empty_agrees : forall P (T : table P) c x y row,
  wf_comp c 4 -> outside c 1 row x -> outside c 1 row y ->
  let T' := division_empty c x y row T in
  frame c 1 row T T' /\
  vval T' (division_result c row) = vval (division_assign c x y row T) (division_result c row).
Proof. exact division_empty_l. Qed.
Print Assumptions division_empty_agrees.

Example division_example :
  let T := division_assign (std_comp 4) (pin 0) (pin 1) 4 (intab P97 [60; 50]) in
  sat (noL P97) T (division_circuit (std_comp 4) (pin 0) (pin 1) 4) /\
  fval (vval T (division_result (std_comp 4) 4) * ofZ 50)%F = 60.
Proof.
  split; [|vm_compute; reflexivity].
  apply division_complete; auto using pin_outside; [apply wf_std; lia|].
  intros E. apply (f_equal fval) in E. vm_compute in E. discriminate.
Qed.

Theorem division_or_zero_sound : forall P (L : lenv P) T c x y row,
  sat L T (division_or_zero_circuit c x y row) ->
  (vval T y <> f0 -> is_quotient (vval T x) (vval T y) (vval T (division_or_zero_result c row))) /\
  (vval T y = f0 -> vval T (division_or_zero_result c row) = f0).
Proof.
  intros P L T c x y row H. apply division_or_zero_sound_l in H. destruct H as [H1 H2].
  split; [|exact H2]. intros Hy. split; auto.
Qed.
Print Assumptions division_or_zero_sound.

Theorem division_or_zero_complete : forall P (L : lenv P) T c x y row,
  wf_comp c 5 -> outside c 1 row x -> outside c 1 row y ->
  let T' := division_or_zero_assign c x y row T in
  sat L T' (division_or_zero_circuit c x y row) /\ frame c 1 row T T'.
Proof. exact division_or_zero_complete_l. Qed.
Print Assumptions division_or_zero_complete.

Theorem division_or_zero_empty_agrees : forall P (T : table P) c x y row,
  wf_comp c 5 -> outside c 1 row x -> outside c 1 row y ->
  let T' := division_or_zero_empty c x y row T in
  frame c 1 row T T' /\
  vval T' (division_or_zero_result c row) =
  vval (division_or_zero_assign c x y row T) (division_or_zero_result c row).
Proof. exact division_or_zero_empty_l. Qed.
Print Assumptions division_or_zero_empty_agrees.

Example division_or_zero_example :
  let T := division_or_zero_assign (std_comp 5) (pin 0) (pin 1) 4 (intab P97 [60; 0]) in
  sat (noL P97) T (division_or_zero_circuit (std_comp 5) (pin 0) (pin 1) 4) /\
  fval (vval T (division_or_zero_result (std_comp 5) 4)) = 0.
Proof.
  split; [|vm_compute; reflexivity].
  apply division_or_zero_complete; auto using pin_outside. apply wf_std; lia.
Qed.

(** ** C06 logic_and_flag, logic_or_flag *)

Theorem and_flag_sound : forall P (L : lenv P) T c w x y row,
  wf_comp c w -> 2 <= w < 6 ->
  sat L T (and_circuit c x y row) ->
  vval T (and_result c row) = fbit (nz (vval T x) && nz (vval T y)).
Proof. exact and_sound_l. Qed.
Print Assumptions and_flag_sound.

Theorem and_flag_complete : forall P (L : lenv P) T c w x y row,
  wf_comp c w -> 2 <= w < 6 ->
  outside c (and_rows w) row x -> outside c (and_rows w) row y ->
  let T' := and_assign c x y row T in
  sat L T' (and_circuit c x y row) /\ frame c (and_rows w) row T T'.
Proof. exact and_complete_l. Qed.
Print Assumptions and_flag_complete.

Theorem and_flag_empty_agrees : forall P (T : table P) c w x y row,
  wf_comp c w ->
  let T' := and_empty c x y row T in
  frame c 1 row T T' /\
  vval T' (and_result_skip c row) = fbit (nz (vval T x) && nz (vval T y)).
Proof. exact and_empty_l. Qed.
Print Assumptions and_flag_empty_agrees.

Theorem or_flag_sound : forall P (L : lenv P) T c w x y row,
  wf_comp c w -> 2 <= w < 7 ->
  sat L T (or_circuit c x y row) ->
  vval T (or_result c row) = fbit (nz (vval T x) || nz (vval T y)).
Proof. exact or_sound_l. Qed.
Print Assumptions or_flag_sound.

Theorem or_flag_complete : forall P (L : lenv P) T c w x y row,
  wf_comp c w -> 2 <= w < 7 ->
  outside c (or_rows w) row x -> outside c (or_rows w) row y ->
  let T' := or_assign c x y row T in
  sat L T' (or_circuit c x y row) /\ frame c (or_rows w) row T T'.
Proof. exact or_complete_l. Qed.
Print Assumptions or_flag_complete.

Theorem or_flag_empty_agrees : forall P (T : table P) c w x y row,
  wf_comp c w ->
  let T' := or_empty c x y row T in
  frame c 1 row T T' /\
  vval T' (or_result_skip c row) = fbit (nz (vval T x) || nz (vval T y)).
Proof. exact or_empty_l. Qed.
Print Assumptions or_flag_empty_agrees.

Example flags_example :
  let T := and_assign (std_comp 2) (pin 0) (pin 1) 4 (intab P97 [60; 0]) in
  let T2 := or_assign (std_comp 3) (pin 0) (pin 1) 4 (intab P97 [60; 0]) in
  sat (noL P97) T (and_circuit (std_comp 2) (pin 0) (pin 1) 4) /\
  sat (noL P97) T2 (or_circuit (std_comp 3) (pin 0) (pin 1) 4) /\
  fval (vval T (and_result (std_comp 2) 4)) = 0 /\
  fval (vval T2 (or_result (std_comp 3) 4)) = 1.
Proof.
  split; [|split; [|split; vm_compute; reflexivity]].
  - apply (and_flag_complete _ _ _ _ 2); auto using pin_outside; [apply wf_std|]; lia.
  - apply (or_flag_complete _ _ _ _ 3); auto using pin_outside; [apply wf_std|]; lia.
Qed.

(** ** C07 equality_flag *)

Theorem equality_flag_sound : forall P (L : lenv P) T c ineq x y row,
  sat L T (equality_flag_circuit c ineq x y row) ->
  (ineq = false ->
     (vval T x = vval T y -> vval T (equality_flag_result c row) = f1) /\
     (vval T x <> vval T y -> vval T (equality_flag_result c row) = f0)) /\
  (ineq = true ->
     (vval T x = vval T y -> vval T (equality_flag_result c row) = f0) /\
     (vval T x <> vval T y -> vval T (equality_flag_result c row) = f1)).
Proof.
  intros P L T c ineq x y row H. apply equality_flag_sound_l in H. rewrite H.
  split; intros ->; split; intros E.
  - apply (feqb_eq P) in E. rewrite E. reflexivity.
  - apply (feqb_neq P) in E. rewrite E. reflexivity.
  - apply (feqb_eq P) in E. rewrite E. reflexivity.
  - apply (feqb_neq P) in E. rewrite E. reflexivity.
Qed.
Print Assumptions equality_flag_sound.

Theorem equality_flag_complete : forall P (L : lenv P) T c ineq x y row,
  wf_comp c 4 -> outside c 1 row x -> outside c 1 row y ->
  let T' := equality_flag_assign c ineq x y row T in
  sat L T' (equality_flag_circuit c ineq x y row) /\ frame c 1 row T T'.
Proof. exact equality_flag_complete_l. Qed.
Print Assumptions equality_flag_complete.

Example equality_flag_example :
  let T := equality_flag_assign (std_comp 4) false (pin 0) (pin 1) 4 (intab P97 [60; 60]) in
  sat (noL P97) T (equality_flag_circuit (std_comp 4) false (pin 0) (pin 1) 4) /\
  fval (vval T (equality_flag_result (std_comp 4) 4)) = 1.
Proof.
  split; [|vm_compute; reflexivity].
  apply equality_flag_complete; auto using pin_outside. apply wf_std; lia.
Qed.

(** ** C18 interpolation *)

Theorem linear_interpolation_sound : forall P (L : lenv P) T c x0 z0 x1 z1 row,
  sat L T (linear_circuit c x0 z0 x1 z1 row) ->
  let a0 := vval T (fst (linear_result c row)) in
  let a1 := vval T (snd (linear_result c row)) in
  vval T x0 <> vval T x1 /\
  (forall b0 b1 : F P,
     ((b0 + b1 * vval T x0)%F = vval T z0 /\ (b0 + b1 * vval T x1)%F = vval T z1)
     <-> (b0 = a0 /\ b1 = a1)).
Proof. exact linear_sound_l. Qed.
Print Assumptions linear_interpolation_sound.

Theorem linear_interpolation_complete : forall P (L : lenv P) T c x0 z0 x1 z1 row,
  wf_comp c 7 -> outside c 1 row x0 -> outside c 1 row z0 -> outside c 1 row x1 -> outside c 1 row z1 ->
  vval T x0 <> vval T x1 ->
  let T' := linear_assign c x0 z0 x1 z1 row T in
  sat L T' (linear_circuit c x0 z0 x1 z1 row) /\ frame c 1 row T T'.
Proof. exact linear_complete_l. Qed.
Print Assumptions linear_interpolation_complete.

Theorem quadratic_interpolation_sound : forall P (L : lenv P) T c x0 z0 x1 z1 x2 z2 row,
  sat L T (quadratic_circuit c x0 z0 x1 z1 x2 z2 row) ->
  let a0 := vval T (fst (fst (quadratic_result c row))) in
  let a1 := vval T (snd (fst (quadratic_result c row))) in
  let a2 := vval T (snd (quadratic_result c row)) in
  vval T x0 <> vval T x1 /\ vval T x0 <> vval T x2 /\ vval T x1 <> vval T x2 /\
  (forall b0 b1 b2 : F P,
     ((b0 + b1 * vval T x0 + b2 * (vval T x0 * vval T x0))%F = vval T z0 /\
      (b0 + b1 * vval T x1 + b2 * (vval T x1 * vval T x1))%F = vval T z1 /\
      (b0 + b1 * vval T x2 + b2 * (vval T x2 * vval T x2))%F = vval T z2)
     <-> (b0 = a0 /\ b1 = a1 /\ b2 = a2)).
Proof. exact quadratic_sound_l. Qed.
Print Assumptions quadratic_interpolation_sound.

Theorem quadratic_interpolation_complete : forall P (L : lenv P) T c x0 z0 x1 z1 x2 z2 row,
  wf_comp c 10 -> outside c 1 row x0 -> outside c 1 row z0 -> outside c 1 row x1 ->
  outside c 1 row z1 -> outside c 1 row x2 -> outside c 1 row z2 ->
  vval T x0 <> vval T x1 -> vval T x0 <> vval T x2 -> vval T x1 <> vval T x2 ->
  let T' := quadratic_assign c x0 z0 x1 z1 x2 z2 row T in
  sat L T' (quadratic_circuit c x0 z0 x1 z1 x2 z2 row) /\ frame c 1 row T T'.
Proof. exact quadratic_complete_l. Qed.
Print Assumptions quadratic_interpolation_complete.

Example interpolation_example :
  let T := linear_assign (std_comp 7) (pin 0) (pin 1) (pin 2) (pin 3) 4 (intab P97 [2; 7; 3; 9]) in
  let T2 := quadratic_assign (std_comp 10) (pin 0) (pin 1) (pin 2) (pin 3) (pin 4) (pin 5) 4
              (intab P97 [1; 3; 2; 7; 3; 13]) in
  sat (noL P97) T (linear_circuit (std_comp 7) (pin 0) (pin 1) (pin 2) (pin 3) 4) /\
  sat (noL P97) T2 (quadratic_circuit (std_comp 10) (pin 0) (pin 1) (pin 2) (pin 3) (pin 4) (pin 5) 4) /\
  fval (vval T (fst (linear_result (std_comp 7) 4))) = 3 /\
  fval (vval T2 (fst (fst (quadratic_result (std_comp 10) 4)))) = 1.
Proof.
  assert (N : forall a b : F P97, fval a <> fval b -> a <> b) by (intros a b H E; apply H; rewrite E; reflexivity).
  split; [|split; [|split; vm_compute; reflexivity]].
  - apply linear_interpolation_complete; auto using pin_outside; [apply wf_std; lia|].
    apply N. vm_compute. discriminate.
  - apply quadratic_interpolation_complete; auto using pin_outside; [apply wf_std; lia| | |];
      apply N; vm_compute; discriminate.
Qed.
