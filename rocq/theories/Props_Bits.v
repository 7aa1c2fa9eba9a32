(** Property theorems: range_check (C08), bit_decomposition (C09),
    bit_composition (C10), bit_shift_constant (C11), and the claim about the
    constant column they are given (C29). *)
From Coq Require Import ZArith List Lia Bool.
From Verif Require Import Base Field Plonk PlonkFacts Bits RangeModel RangeProofs BitModel BitProofs Examples.
Import ListNotations.
Open Scope Z_scope.

(** ** C08 range_check *)

Theorem range_check_sound : forall P (L : lenv P) T c w bits x row,
  wamount c = w -> 2 <= w -> 0 < bits -> C c 0 = 0 -> 2 ^ bits <= char P ->
  sat L T (rc_circuit c bits x row) ->
  fval (vval T x) < 2 ^ bits.
Proof. exact rc_sound_small. Qed.
Print Assumptions range_check_sound.

(** Whatever the bit count, an accepted input is the residue of some integer
    below [2^bits]. *)
Theorem range_check_sound_residue : forall P (L : lenv P) T c w bits x row,
  wamount c = w -> 2 <= w -> 0 < bits -> C c 0 = 0 ->
  sat L T (rc_circuit c bits x row) ->
  exists N, 0 <= N < 2 ^ bits /\ vval T x = ofZ N.
Proof. exact rc_sound_l. Qed.
Print Assumptions range_check_sound_residue.

Theorem range_check_complete : forall P (L : lenv P) T c w bits x row,
  wf_comp c w -> 2 <= w -> 0 < bits -> C c 0 = 0 ->
  outside c (rc_rows w bits) row x ->
  consts_in T (rc_circuit c bits x row) ->
  fval (vval T x) < 2 ^ bits ->
  let T' := rc_assign c bits x row T in
  sat L T' (rc_circuit c bits x row) /\ frame c (rc_rows w bits) row T T'.
Proof. exact rc_complete_l. Qed.
Print Assumptions range_check_complete.

Example range_check_example :
  let T := rc_assign (std_comp 3) 5 (pin 0) 4 (intab P97 [29]) in
  2 ^ 5 <= char P97 /\ sat (noL P97) T (rc_circuit (std_comp 3) 5 (pin 0) 4) /\
  ~ (exists T2 : table P97, fval (vval T2 (pin 0)) = 35 /\ sat (noL P97) T2 (rc_circuit (std_comp 3) 5 (pin 0) 4)).
Proof.
  split; [vm_compute; discriminate|]. split.
  - apply range_check_complete with (w := 3); auto using pin_outside; try lia; try (vm_compute; reflexivity).
    + apply wf_std. lia.
    + apply consts_inb_ok. vm_compute. reflexivity.
  - intros [T2 [E H]].
    assert (B : fval (vval T2 (pin 0)) < 2 ^ 5).
    { apply (range_check_sound _ _ _ _ 3 5 (pin 0) 4) in H; try reflexivity; try lia.
      vm_compute. discriminate. }
    rewrite E in B. vm_compute in B. discriminate.
Qed.

(** ** C09 bit_decomposition *)

(** Digit [i] in the chosen order: counted from the most significant of the
    [bits] digits, or from the least significant. *)
Definition digit_at (bits : Z) (msb : bool) (x i : Z) : Z :=
  Z.b2z (Z.testbit x (if msb then bits - 1 - i else i)).

Theorem bit_decomposition_sound : forall P (L : lenv P) T c w bits msb x row,
  wamount c = w -> 1 <= w -> 0 < bits < modulus_bits P -> C c 0 = 0 ->
  sat L T (bd_circuit c bits x row) ->
  fval (vval T x) < 2 ^ bits /\
  forall i, 0 <= i < bits ->
    fval (vval T (bd_result c bits msb row i)) = digit_at bits msb (fval (vval T x)) i.
Proof. exact bd_sound_l. Qed.
Print Assumptions bit_decomposition_sound.

Theorem bit_decomposition_complete : forall P (L : lenv P) T c w bits msb x row,
  wf_comp c w -> 0 < bits -> C c 0 = 0 ->
  outside c (bb_rows w bits true) row x ->
  consts_in T (bd_circuit c bits x row) ->
  fval (vval T x) < 2 ^ bits ->
  let T' := bd_assign c bits x row T in
  sat L T' (bd_circuit c bits x row) /\ frame c (bb_rows w bits true) row T T' /\
  forall i, 0 <= i < bits ->
    vval T' (bd_result c bits msb row i) = ofZ (digit_at bits msb (fval (vval T x)) i).
Proof. exact bd_complete_l. Qed.
Print Assumptions bit_decomposition_complete.

Theorem bit_decomposition_empty_agrees : forall P (T : table P) c w bits msb x row,
  wf_comp c w -> 9 <= w -> 0 < bits ->
  let T' := bd_empty c bits msb x row T in
  frame c (bits / 9 + (if bits mod 9 =? 0 then 0 else 1)) row T T' /\
  forall i, 0 <= i < bits ->
    vval T' (bd_result_skip c row i) = ofZ (digit_at bits msb (fval (vval T x)) i).
Proof. exact bd_empty_l. Qed.
Print Assumptions bit_decomposition_empty_agrees.

Example bit_decomposition_example :
  let T := bd_assign (std_comp 2) 6 (pin 0) 4 (intab P97 [37]) in
  0 < 6 < modulus_bits P97 /\ sat (noL P97) T (bd_circuit (std_comp 2) 6 (pin 0) 4) /\
  map (fun i => fval (vval T (bd_result (std_comp 2) 6 true 4 i))) (zseq 0 6) = [1; 0; 0; 1; 0; 1] /\
  map (fun i => fval (vval T (bd_result (std_comp 2) 6 false 4 i))) (zseq 0 6) = [1; 0; 1; 0; 0; 1].
Proof.
  split; [vm_compute; split; reflexivity|]. split; [|split; vm_compute; reflexivity].
  refine (proj1 (bit_decomposition_complete _ _ _ _ 2 6 true (pin 0) 4 _ _ _ _ _ _));
    auto using pin_outside; try lia; try (vm_compute; reflexivity).
  - apply wf_std. lia.
  - apply consts_inb_ok. vm_compute. reflexivity.
Qed.

(** ** C10 bit_composition *)

(** Sum of [d i * 2^(position of i)] over the inputs in the chosen order. *)
Definition weighted_sum {P} (bits : Z) (msb : bool) (d : Z -> F P) : F P :=
  fold_left (fun a i => (a + d i * ofZ (2 ^ (if msb then bits - 1 - i else i)))%F) (zseq 0 bits) f0.

Theorem bit_composition_sound : forall P (L : lenv P) T c w bits cb msb xs row,
  wamount c = w -> 1 <= w -> 0 < bits -> C c 0 = 0 ->
  sat L T (bc_circuit c bits cb msb xs row) ->
  vval T (bc_result c bits cb row) = weighted_sum bits msb (fun i => vval T (xs i)) /\
  (cb = true -> forall i, 0 <= i < bits -> vval T (xs i) = f0 \/ vval T (xs i) = f1).
Proof. exact bc_sound_w. Qed.
Print Assumptions bit_composition_sound.

Theorem bit_composition_complete : forall P (L : lenv P) T c w bits cb msb xs row,
  wf_comp c w -> 0 < bits -> C c 0 = 0 ->
  (forall i, 0 <= i < bits -> outside c (bb_rows w bits cb) row (xs i)) ->
  consts_in T (bc_circuit c bits cb msb xs row) ->
  (forall i, 0 <= i < bits -> vval T (xs i) = f0 \/ vval T (xs i) = f1) ->
  let T' := bc_assign c bits cb msb xs row T in
  sat L T' (bc_circuit c bits cb msb xs row) /\ frame c (bb_rows w bits cb) row T T' /\
  vval T' (bc_result c bits cb row) = weighted_sum bits msb (fun i => vval T (xs i)).
Proof. exact bc_complete_w. Qed.
Print Assumptions bit_composition_complete.

Theorem bit_composition_empty_agrees : forall P (T : table P) c w bits msb xs row,
  wf_comp c w -> 0 < bits ->
  (forall i, 0 <= i < bits -> vval T (xs i) = f0 \/ vval T (xs i) = f1) ->
  let T' := bc_empty c bits msb xs row T in
  frame c 1 row T T' /\
  vval T' (bc_result_skip c row) = weighted_sum bits msb (fun i => vval T (xs i)).
Proof. exact bc_empty_w. Qed.
Print Assumptions bit_composition_empty_agrees.

Example bit_composition_example :
  let T := bc_assign (std_comp 2) 6 true false pin 4 (intab P97 [1; 0; 1; 0; 0; 1]) in
  sat (noL P97) T (bc_circuit (std_comp 2) 6 true false pin 4) /\
  fval (vval T (bc_result (std_comp 2) 6 true 4)) = 37.
Proof.
  split; [|vm_compute; reflexivity].
  refine (proj1 (bit_composition_complete _ _ _ _ 2 _ _ _ _ _ _ _ _ _ _ _)); auto using pin_outside; try lia.
  - apply wf_std. lia.
  - apply consts_inb_ok. vm_compute. reflexivity.
  - intros i Hi. assert (i = 0 \/ i = 1 \/ i = 2 \/ i = 3 \/ i = 4 \/ i = 5) as D by lia.
    destruct D as [->|[->|[->|[->|[->| ->]]]]];
      first [left; apply F_ext; vm_compute; reflexivity | right; apply F_ext; vm_compute; reflexivity].
Qed.

(** Without input checking the circuit does accept inputs that are not bits, so
    the result is only the weighted sum. *)
Theorem bit_composition_unchecked_bits_refuted :
  exists (T : table P97) (xs : Z -> var),
    sat (noL P97) T (bc_circuit (std_comp 2) 2 false true xs 0) /\
    vval T (xs 1) <> f0 /\ vval T (xs 1) <> f1.
Proof.
  exists (wsets (intab P97 [1; 5]) [(1, 1, ofZ 1); (0, 2, ofZ 5); (1, 2, ofZ 7)]), pin.
  split; [apply satb_sat; vm_compute; reflexivity|].
  split; apply fval_neq; vm_compute; discriminate.
Qed.
Print Assumptions bit_composition_unchecked_bits_refuted.

(** ** C11 bit_shift_constant *)

(** [x * 2^shift mod 2^bits] or [x / 2^shift] rounded down. *)
Definition shift_spec (bits shift : Z) (left : bool) (x : Z) : Z :=
  if left then (x * 2 ^ shift) mod 2 ^ bits else x / 2 ^ shift.

Theorem bit_shift_constant_sound : forall P (L : lenv P) T c w bits shift left x row,
  wamount c = w -> 1 <= w -> 0 < bits < modulus_bits P -> C c 0 = 0 ->
  0 <= shift <= bits -> (left = false -> shift < bits) ->
  sat L T (bs_circuit c bits shift left x row) ->
  fval (vval T x) < 2 ^ bits /\
  fval (vval T (bs_result c bits shift left row)) = shift_spec bits shift left (fval (vval T x)).
Proof. exact bs_sound_l. Qed.
Print Assumptions bit_shift_constant_sound.

Theorem bit_shift_constant_complete : forall P (L : lenv P) T c w bits shift left x row,
  wf_comp c w -> 0 < bits -> C c 0 = 0 ->
  0 <= shift <= bits -> (left = false -> shift < bits) ->
  outside c (bs_rows w bits shift left) row x ->
  consts_in T (bs_circuit c bits shift left x row) ->
  fval (vval T x) < 2 ^ bits ->
  let T' := bs_assign c bits shift left x row T in
  sat L T' (bs_circuit c bits shift left x row) /\ frame c (bs_rows w bits shift left) row T T' /\
  vval T' (bs_result c bits shift left row) = ofZ (shift_spec bits shift left (fval (vval T x))).
Proof. exact bs_complete_l. Qed.
Print Assumptions bit_shift_constant_complete.

Example bit_shift_constant_example :
  let T := bs_assign (std_comp 3) 6 2 true (pin 0) 4 (intab P97 [37]) in
  let T2 := bs_assign (std_comp 3) 6 2 false (pin 0) 4 (intab P97 [37]) in
  sat (noL P97) T (bs_circuit (std_comp 3) 6 2 true (pin 0) 4) /\
  fval (vval T (bs_result (std_comp 3) 6 2 true 4)) = 20 /\
  sat (noL P97) T2 (bs_circuit (std_comp 3) 6 2 false (pin 0) 4) /\
  fval (vval T2 (bs_result (std_comp 3) 6 2 false 4)) = 9.
Proof.
  split; [|split; [vm_compute; reflexivity|split; [|vm_compute; reflexivity]]];
  (refine (proj1 (bit_shift_constant_complete _ _ _ _ 3 _ _ _ _ _ _ _ _ _ _ _ _ _)); auto using pin_outside; try lia; try (vm_compute; reflexivity);
   [apply wf_std; lia|apply consts_inb_ok; vm_compute; reflexivity]).
Qed.

(** ** C29 constant columns *)

(** Full claim: the components keep their meaning whatever constant column they
    are given.  False: the copy constraints name constant column 0.  With
    constant column 1 a 2-bit range check accepts 23 ... *)
Theorem range_check_constant_column_refuted :
  exists (c : comp) (T : table P97) (x : var) (row : Z),
    wf_comp c 3 /\ NoDup (cCs c) /\ outside c (rc_rows 3 2) row x /\
    sat (noL P97) T (rc_circuit c 2 x row) /\ ~ fval (vval T x) < 2 ^ 2.
Proof.
  exists (mkComp [0; 1; 2] [1] []).
  exists (wsets (cset (intab P97 [23]) 0 0 (ofZ 1)) [(0, 0, ofZ 1); (1, 1, ofZ 1); (2, 1, ofZ 3); (0, 1, ofZ 23)]).
  exists (pin 0), 0.
  split; [|split; [|split; [|split]]].
  - apply (wf_std 3). lia.
  - repeat constructor; cbn; tauto.
  - apply pin_outside.
  - apply satb_sat. vm_compute. reflexivity.
  - vm_compute. discriminate.
Qed.
Print Assumptions range_check_constant_column_refuted.

(** ... and a 2-bit decomposition accepts 31. *)
Theorem bit_decomposition_constant_column_refuted :
  exists (c : comp) (T : table P97) (x : var) (row : Z),
    wf_comp c 2 /\ NoDup (cCs c) /\ outside c (bb_rows 2 2 true) row x /\
    sat (noL P97) T (bd_circuit c 2 x row) /\ ~ fval (vval T x) < 2 ^ 2.
Proof.
  exists (mkComp [0; 1] [1] []).
  exists (wsets (cset (intab P97 [31]) 0 0 (ofZ 1))
    [(0, 0, ofZ 1); (1, 0, ofZ 1); (0, 1, ofZ 1); (1, 1, ofZ 1); (0, 2, ofZ 1); (1, 2, ofZ 31)]).
  exists (pin 0), 0.
  split; [|split; [|split; [|split]]].
  - apply (wf_std 2). lia.
  - repeat constructor; cbn; tauto.
  - apply pin_outside.
  - apply satb_sat. vm_compute. reflexivity.
  - vm_compute. discriminate.
Qed.
Print Assumptions bit_decomposition_constant_column_refuted.
