(** Property theorems: comparison_unchecked (C12), comparison_checked (C13,
    C32), comparison_flag (C14, C33), division_remainder (C15, C34). *)
From Coq Require Import ZArith List Lia Bool.
From Verif Require Import Base Field Plonk PlonkFacts Bits RangeModel RangeProofs BitModel CompareModel CompareProofs
  CheckedProofs CmpFlagProofs Examples.
Import ListNotations.
Open Scope Z_scope.

(** [ordered m a b] (CompareProofs.v) is a < b, a <= b, a > b or a >= b. *)

(** ** C12 comparison_unchecked *)

Theorem comparison_unchecked_sound : forall P (L : lenv P) T c w bits m x y row,
  wamount c = w -> 3 <= w -> 0 < bits < modulus_bits P - 1 -> C c 0 = 0 -> m <> FLAG ->
  fval (vval T x) < 2 ^ bits -> fval (vval T y) < 2 ^ bits ->
  sat L T (cu_circuit c bits m x y row) ->
  ordered m (fval (vval T x)) (fval (vval T y)).
Proof. exact cu_sound_l. Qed.
Print Assumptions comparison_unchecked_sound.

Theorem comparison_unchecked_complete : forall P (L : lenv P) T c w bits m x y row,
  wf_comp c w -> 3 <= w -> 0 < bits -> C c 0 = 0 ->
  outside c (cu_rows w bits m) row x -> outside c (cu_rows w bits m) row y ->
  consts_in T (cu_circuit c bits m x y row) ->
  fval (vval T x) < 2 ^ bits -> fval (vval T y) < 2 ^ bits ->
  ordered m (fval (vval T x)) (fval (vval T y)) ->
  let T' := cu_assign c bits m x y row T in
  sat L T' (cu_circuit c bits m x y row) /\ frame c (cu_rows w bits m) row T T'.
Proof. exact cu_complete_l. Qed.
Print Assumptions comparison_unchecked_complete.

Example comparison_unchecked_example :
  (let T := cu_assign (std_comp 3) 5 LT (pin 0) (pin 1) 2 (intab P97 [9; 30]) in
   sat (noL P97) T (cu_circuit (std_comp 3) 5 LT (pin 0) (pin 1) 2)) /\
  ~ (exists T2 : table P97, fval (vval T2 (pin 0)) = 30 /\ fval (vval T2 (pin 1)) = 9 /\
       sat (noL P97) T2 (cu_circuit (std_comp 3) 5 LT (pin 0) (pin 1) 2)).
Proof.
  split.
  - apply (comparison_unchecked_complete P97 (noL P97) (intab P97 [9; 30]) (std_comp 3) 3 5 LT (pin 0) (pin 1) 2);
      auto using pin_outside; try lia; try (vm_compute; reflexivity).
    + apply wf_std. lia.
    + apply consts_inb_ok. vm_compute. reflexivity.
  - intros [T2 [E1 [E2 H]]].
    assert (B : ordered LT (fval (vval T2 (pin 0))) (fval (vval T2 (pin 1)))).
    { apply (comparison_unchecked_sound _ _ _ _ 3 5 LT (pin 0) (pin 1) 2) in H; auto; try (vm_compute; split; reflexivity);
        try lia; try discriminate; rewrite ?E1, ?E2; reflexivity. }
    rewrite E1, E2 in B. vm_compute in B. discriminate.
Qed.

(** ** C13 comparison_checked *)

(** The order is enforced whatever the inputs are. *)
Theorem comparison_checked_sound : forall P (L : lenv P) T c w bits m x y row,
  wamount c = w -> 3 <= w -> 0 < bits < modulus_bits P - 1 -> C c 0 = 0 -> m <> FLAG ->
  sat L T (cc_circuit c bits m x y row) ->
  ordered m (fval (vval T x)) (fval (vval T y)).
Proof. exact cc_sound_l. Qed.
Print Assumptions comparison_checked_sound.

(** The smaller operand and the difference fit in [bits], rounded up to an even
    number unless that reaches the size of the field ([cc_eff]). *)
Theorem comparison_checked_bound : forall P (L : lenv P) T c w bits m x y row,
  wamount c = w -> 3 <= w -> 0 < bits < modulus_bits P - 1 -> C c 0 = 0 ->
  sat L T (cc_circuit c bits m x y row) ->
  let lo := fval (vval T (if greater m then y else x)) in
  let hi := fval (vval T (if greater m then x else y)) in
  (lo < 2 ^ cc_eff P bits /\ lo <= hi < lo + 2 ^ cc_eff P bits) /\ (strict m = true -> lo < hi).
Proof. exact cc_sound_core. Qed.
Print Assumptions comparison_checked_bound.
Theorem comparison_checked_bound_bits : forall P bits, 0 < bits < modulus_bits P - 1 ->
  bits <= cc_eff P bits <= bits + 1 /\ (Z.even bits = true -> cc_eff P bits = bits).
Proof.
  intros P bits H. unfold cc_eff. destruct (bits mod 2 =? 0) eqn:E; cbn [orb].
  - split; [lia|auto].
  - split; [destruct (cc_first _ _); lia|]. intros Ev. apply Z.even_spec in Ev. destruct Ev as [k ->].
    apply Z.eqb_neq in E. exfalso. apply E. rewrite Z.mul_comm. apply Z.mod_mul. lia.
Qed.
Print Assumptions comparison_checked_bound_bits.

Theorem comparison_checked_complete : forall P (L : lenv P) T c w bits m x y row,
  wf_comp c w -> 3 <= w -> 0 < bits -> C c 0 = 0 ->
  outside c (cc_rows w bits m) row x -> outside c (cc_rows w bits m) row y ->
  consts_in T (cc_circuit c bits m x y row) ->
  fval (vval T x) < 2 ^ bits -> fval (vval T y) < 2 ^ bits ->
  ordered m (fval (vval T x)) (fval (vval T y)) ->
  let T' := cc_assign c bits m x y row T in
  sat L T' (cc_circuit c bits m x y row) /\ frame c (cc_rows w bits m) row T T'.
Proof. exact cc_complete_l. Qed.
Print Assumptions comparison_checked_complete.

Example comparison_checked_example :
  (let T := cc_assign (std_comp 4) 5 GT (pin 0) (pin 1) 2 (intab P97 [30; 9]) in
   sat (noL P97) T (cc_circuit (std_comp 4) 5 GT (pin 0) (pin 1) 2)) /\
  ~ (exists T2 : table P97, fval (vval T2 (pin 0)) = 9 /\ fval (vval T2 (pin 1)) = 30 /\
       sat (noL P97) T2 (cc_circuit (std_comp 4) 5 GT (pin 0) (pin 1) 2)).
Proof.
  split.
  - apply (comparison_checked_complete P97 (noL P97) (intab P97 [30; 9]) (std_comp 4) 4 5 GT (pin 0) (pin 1) 2);
      auto using pin_outside; try lia; try (vm_compute; reflexivity).
    + apply wf_std. lia.
    + apply consts_inb_ok. vm_compute. reflexivity.
  - intros [T2 [E1 [E2 H]]].
    assert (B : ordered GT (fval (vval T2 (pin 0))) (fval (vval T2 (pin 1)))).
    { apply (comparison_checked_sound _ _ _ _ 4 5 GT (pin 0) (pin 1) 2) in H; auto; try (vm_compute; split; reflexivity);
        try lia; try discriminate. }
    rewrite E1, E2 in B. vm_compute in B. discriminate.
Qed.

(** ** C32 The claim that comparison_checked bounds its inputs *)

(** The header states the inputs are checked to fit in [bits].  The larger
    operand is not: 15 <= 30 passes with 4 bits ... *)
Theorem comparison_checked_range_refuted :
  exists (T : table P97) (x y : var),
    4 < modulus_bits P97 - 1 /\ outside (std_comp 4) (cc_rows 4 4 LE) 0 x /\ outside (std_comp 4) (cc_rows 4 4 LE) 0 y /\
    sat (noL P97) T (cc_circuit (std_comp 4) 4 LE x y 0) /\ ~ fval (vval T y) < 2 ^ 4.
Proof.
  exists (wsets (intab P97 [15; 30])
    (cc_writes (std_comp 4) 4 LE (fun k => znth 0 [0; 3; 3] k) (fun k => znth 0 [0; 3; 3] k) (ofZ 30) (ofZ 15) 0)).
  exists (pin 0), (pin 1).
  split; [vm_compute; reflexivity|]. split; [apply pin_outside|]. split; [apply pin_outside|]. split.
  - apply satb_sat. vm_compute. reflexivity.
  - vm_compute. discriminate.
Qed.
Print Assumptions comparison_checked_range_refuted.
(** ... and with 3 bits even the smaller operand may be 15. *)
Theorem comparison_checked_odd_range_refuted :
  exists (T : table P97) (x y : var),
    3 < modulus_bits P97 - 1 /\ outside (std_comp 4) (cc_rows 4 3 LE) 0 x /\ outside (std_comp 4) (cc_rows 4 3 LE) 0 y /\
    sat (noL P97) T (cc_circuit (std_comp 4) 3 LE x y 0) /\ ~ fval (vval T x) < 2 ^ 3.
Proof.
  exists (wsets (intab P97 [15; 15])
    (cc_writes (std_comp 4) 3 LE (fun k => znth 0 [0; 3; 3] k) (fun k => 0) (ofZ 15) (ofZ 0) 0)).
  exists (pin 0), (pin 1).
  split; [vm_compute; reflexivity|]. split; [apply pin_outside|]. split; [apply pin_outside|]. split.
  - apply satb_sat. vm_compute. reflexivity.
  - vm_compute. discriminate.
Qed.
Print Assumptions comparison_checked_odd_range_refuted.

(** ** C14 comparison_flag *)

(** [cmp_out P m s] (CmpFlagProofs.v): -1, 0, 1 in mode FLAG, otherwise 1 or 0
    as the relation of the mode holds.  [cf_ok w bits]: the check of the first
    chunk is placed on the chunks; true whenever [bits] is even or [w] is odd. *)
Theorem comparison_flag_sound : forall P (L : lenv P), 8 < char P -> forall T c w bits m x y row,
  wamount c = w -> 3 <= w -> 0 < bits < modulus_bits P -> C c 0 = 0 ->
  cf_ok w bits = true \/ bits + 1 < modulus_bits P ->
  sat L T (cf_circuit c bits m x y row) ->
  fval (vval T x) < 2 ^ bits /\
  fval (vval T y) < 2 ^ (if cf_ok w bits then bits else bits + 1) /\
  vval T (cf_result c bits row) = cmp_out P m (fval (vval T x) ?= fval (vval T y)).
Proof. exact cf_sound_l. Qed.
Print Assumptions comparison_flag_sound.
Theorem comparison_flag_ok_cases : forall w bits, 3 <= w -> 0 < bits ->
  Z.even bits = true \/ Z.odd w = true -> cf_ok w bits = true.
Proof.
  intros w bits _ _ H. unfold cf_ok. rewrite !Zmod_odd. rewrite <- Z.negb_odd in H.
  destruct H as [H|H]; [destruct (Z.odd bits); [discriminate|reflexivity]|].
  rewrite H. destruct (Z.odd bits); reflexivity.
Qed.
Print Assumptions comparison_flag_ok_cases.

Theorem comparison_flag_complete : forall P (L : lenv P), 8 < char P -> forall T c w bits m x y row,
  wf_comp c w -> 3 <= w -> 0 < bits -> C c 0 = 0 ->
  cf_ok w bits = true \/ T CWit (W c (w - 1)) (row + 1) = f0 ->
  outside c (cf_rows w bits) row x -> outside c (cf_rows w bits) row y ->
  consts_in T (cf_circuit c bits m x y row) ->
  fval (vval T x) < 2 ^ bits -> fval (vval T y) < 2 ^ bits ->
  let T' := cf_assign c bits m x y row T in
  sat L T' (cf_circuit c bits m x y row) /\ frame c (cf_rows w bits) row T T' /\
  vval T' (cf_result c bits row) = cmp_out P m (fval (vval T x) ?= fval (vval T y)).
Proof. exact cf_complete_l. Qed.
Print Assumptions comparison_flag_complete.

Theorem comparison_flag_calculate : forall P, 8 < char P -> forall w bits m (xv yv : F P), 3 <= w -> 0 < bits ->
  cf_calculate w bits m xv yv = cmp_out P m (fval xv mod 2 ^ bits ?= fval yv mod 2 ^ bits).
Proof. exact cf_calculate_l. Qed.
Print Assumptions comparison_flag_calculate.
Theorem comparison_flag_empty_agrees : forall P (T : table P) c w bits m x y row,
  wf_comp c w -> 3 <= w -> 0 < bits ->
  vval (cf_empty c bits m x y row T) (cf_empty_result c row) =
  vval (cf_assign c bits m x y row T) (cf_result c bits row).
Proof. exact cf_empty_agree_l. Qed.
Print Assumptions comparison_flag_empty_agrees.

Example comparison_flag_example :
  (let T := cf_assign (std_comp 5) 5 FLAG (pin 0) (pin 1) 2 (intab P97 [9; 30]) in
   sat (noL P97) T (cf_circuit (std_comp 5) 5 FLAG (pin 0) (pin 1) 2) /\
   fval (vval T (cf_result (std_comp 5) 5 2)) = 96) /\
  ~ (exists T2 : table P97, fval (vval T2 (pin 0)) = 9 /\ fval (vval T2 (pin 1)) = 30 /\
       vval T2 (cf_result (std_comp 5) 5 2) = f1 /\
       sat (noL P97) T2 (cf_circuit (std_comp 5) 5 GE (pin 0) (pin 1) 2)).
Proof.
  split.
  - assert (A := comparison_flag_complete P97 (noL P97) ltac:(vm_compute; reflexivity)
      (intab P97 [9; 30]) (std_comp 5) 5 5 FLAG (pin 0) (pin 1) 2).
    destruct A as [A [_ B]]; auto using pin_outside; try lia; try (vm_compute; reflexivity).
    + apply wf_std. lia.
    + apply consts_inb_ok. vm_compute. reflexivity.
  - intros [T2 [E1 [E2 [E3 H]]]].
    apply (comparison_flag_sound P97 (noL P97) ltac:(vm_compute; reflexivity) T2 (std_comp 5) 5 5 GE) in H;
      try lia; try (vm_compute; reflexivity).
    + destruct H as [_ [_ H]]. rewrite E1, E2, E3 in H. apply (f_equal fval) in H. vm_compute in H. discriminate.
    + split; vm_compute; reflexivity.
    + left. vm_compute. reflexivity.
Qed.

(** ** C33 The claim that comparison_flag always bounds its inputs and is right *)

(** With four columns and an odd number of bits the check meant for the first
    chunk of y constrains the first chunk of x again: 11 passes as a 3-bit y ... *)
Theorem comparison_flag_range_refuted :
  exists (T : table P97) (x y : var),
    3 < modulus_bits P97 /\ outside (std_comp 4) (cf_rows 4 3) 0 x /\ outside (std_comp 4) (cf_rows 4 3) 0 y /\
    sat (noL P97) T (cf_circuit (std_comp 4) 3 LT x y 0) /\ ~ fval (vval T y) < 2 ^ 3.
Proof.
  exists (wsets (intab P97 [1; 11])
    (cf_writes (std_comp 4) 3 LT (fun k => znth 0 [0; 1] k) (fun k => znth 0 [2; 3] k) 0)).
  exists (pin 0), (pin 1).
  split; [vm_compute; reflexivity|]. split; [apply pin_outside|]. split; [apply pin_outside|]. split.
  - apply satb_sat. vm_compute. reflexivity.
  - vm_compute. discriminate.
Qed.
Print Assumptions comparison_flag_range_refuted.
(** ... and in a field of 2^3 + 3 elements it makes 1 < 0 come out true. *)
Theorem comparison_flag_result_refuted :
  exists (T : table P11) (x y : var),
    3 < modulus_bits P11 /\ outside (std_comp 4) (cf_rows 4 3) 0 x /\ outside (std_comp 4) (cf_rows 4 3) 0 y /\
    sat (noL P11) T (cf_circuit (std_comp 4) 3 LT x y 0) /\
    fval (vval T x) = 1 /\ fval (vval T y) = 0 /\ vval T (cf_result (std_comp 4) 3 0) = f1.
Proof.
  exists (wsets (intab P11 [1; 0])
    (cf_writes (std_comp 4) 3 LT (fun k => znth 0 [0; 1] k) (fun k => znth 0 [2; 3] k) 0)).
  exists (pin 0), (pin 1).
  split; [vm_compute; reflexivity|]. split; [apply pin_outside|]. split; [apply pin_outside|]. split.
  - apply satb_sat. vm_compute. reflexivity.
  - split; [vm_compute; reflexivity|]. split; [vm_compute; reflexivity|]. apply F_ext. vm_compute. reflexivity.
Qed.
Print Assumptions comparison_flag_result_refuted.

(** ** C15 division_remainder *)

(** What is missing: 0 <= r < y (see C34). *)
Theorem division_remainder_equation : forall P (L : lenv P) T c w bits (chk : bool) x y row,
  wamount c = w -> 3 <= w -> 0 < bits -> C c 0 = 0 ->
  2 * bits < modulus_bits P ->
  (if chk then True else fval (vval T x) < 2 ^ bits /\ fval (vval T y) < 2 ^ bits) ->
  sat L T (dr_circuit c bits chk x y row) ->
  fval (vval T x) < 2 ^ bits /\ fval (vval T y) < 2 ^ bits /\
  fval (vval T (dr_quotient c row)) < 2 ^ bits /\
  exists r, fval (vval T y) - 2 ^ bits < r <= fval (vval T y) /\
    vval T (dr_remainder c row) = ofZ r /\
    fval (vval T x) = fval (vval T y) * fval (vval T (dr_quotient c row)) + r.
Proof. exact dr_sound_l. Qed.
Print Assumptions division_remainder_equation.

Theorem division_remainder_complete : forall P (L : lenv P) T c w bits (chk : bool) x y row,
  wf_comp c w -> 3 <= w -> 0 < bits -> C c 0 = 0 ->
  outside c (dr_rows w bits chk) row x -> outside c (dr_rows w bits chk) row y ->
  consts_in T (dr_circuit c bits chk x y row) ->
  fval (vval T x) < 2 ^ bits -> 0 < fval (vval T y) < 2 ^ bits ->
  let T' := dr_assign c bits chk x y row T in
  sat L T' (dr_circuit c bits chk x y row) /\ frame c (dr_rows w bits chk) row T T' /\
  fval (vval T' (dr_quotient c row)) = fval (vval T x) / fval (vval T y) /\
  fval (vval T' (dr_remainder c row)) = fval (vval T x) mod fval (vval T y).
Proof. exact dr_complete_l. Qed.
Print Assumptions division_remainder_complete.

Theorem division_remainder_empty_agrees : forall P T c w bits (chk : bool) x y row,
  wf_comp c w -> 3 <= w -> 0 < bits ->
  outside c (dr_rows w bits chk) row x -> outside c (dr_rows w bits chk) row y ->
  vval (dr_empty (P := P) c x y row T) (wcell (W c 0) row) = vval (dr_assign c bits chk x y row T) (dr_quotient c row) /\
  vval (dr_empty c x y row T) (wcell (W c 1) row) = vval (dr_assign c bits chk x y row T) (dr_remainder c row).
Proof. exact dr_empty_agree_l. Qed.
Print Assumptions division_remainder_empty_agrees.

Example division_remainder_example :
  (let T := dr_assign (std_comp 4) 3 true (pin 0) (pin 1) 2 (intab P97 [7; 3]) in
   sat (noL P97) T (dr_circuit (std_comp 4) 3 true (pin 0) (pin 1) 2) /\
   fval (vval T (dr_quotient (std_comp 4) 2)) = 2 /\ fval (vval T (dr_remainder (std_comp 4) 2)) = 1) /\
  ~ (exists T2 : table P97, fval (vval T2 (pin 0)) = 7 /\ fval (vval T2 (pin 1)) = 3 /\
       fval (vval T2 (dr_quotient (std_comp 4) 2)) = 1 /\
       sat (noL P97) T2 (dr_circuit (std_comp 4) 3 true (pin 0) (pin 1) 2)).
Proof.
  split.
  - assert (A := division_remainder_complete P97 (noL P97) (intab P97 [7; 3]) (std_comp 4) 4 3 true (pin 0) (pin 1) 2).
    destruct A as [A [_ [B D]]]; auto using pin_outside; try lia; try (vm_compute; reflexivity).
    + apply wf_std. lia.
    + apply consts_inb_ok. vm_compute. reflexivity.
    + split; vm_compute; reflexivity.
  - intros [T2 [E1 [E2 [E3 H]]]].
    apply (division_remainder_equation P97 (noL P97) T2 (std_comp 4) 4 3 true) in H;
      try lia; try exact I; try (vm_compute; reflexivity).
    destruct H as [_ [_ [_ [r [B [_ E]]]]]]. rewrite E1, E2, E3 in E. rewrite E2 in B. lia.
Qed.

(** ** C34 The claim that division_remainder returns the Euclidean division *)

(** 3 = 2 * 2 - 1 is accepted, checked inputs included. *)
Theorem division_remainder_refuted :
  exists (T : table P97) (x y : var),
    2 * 2 < modulus_bits P97 /\ outside (std_comp 5) (dr_rows 5 2 true) 0 x /\ outside (std_comp 5) (dr_rows 5 2 true) 0 y /\
    sat (noL P97) T (dr_circuit (std_comp 5) 2 true x y 0) /\
    0 < fval (vval T y) /\
    fval (vval T (dr_quotient (std_comp 5) 0)) <> fval (vval T x) / fval (vval T y).
Proof.
  exists (let c := std_comp 5 in
    let T1 := wsets (intab P97 [3; 2]) [(0, 0, ofZ 3); (1, 0, ofZ 2); (2, 0, ofZ 2); (3, 0, ofZ (-1)); (4, 0, ofZ 3)] in
    let n := rc_rows 5 2 in
    rc_assign c 2 (dr_cell c 1 0) (1 + n + n + n) (rc_assign c 2 (dr_cell c 0 0) (1 + n + n)
      (rc_assign c 2 (dr_cell c 2 0) (1 + n) (rc_assign c 2 (dr_cell c 4 0) 1 T1)))).
  exists (pin 0), (pin 1).
  split; [vm_compute; reflexivity|]. split; [apply pin_outside|]. split; [apply pin_outside|]. split; [|split].
  - apply satb_sat. vm_compute. reflexivity.
  - vm_compute. reflexivity.
  - vm_compute. discriminate.
Qed.
Print Assumptions division_remainder_refuted.
