(** Models of bit_builder_component.hpp, bit_decomposition.hpp,
    bit_composition.hpp and bit_shift_constant.hpp
    (include/nil/blueprint/components/algebra/fields/plonk/, the first three in
    non_native/). *)
From Coq Require Import ZArith List Lia Bool.
From Verif Require Import Base Field Plonk Bits.
Import ListNotations.
Open Scope Z_scope.

(** [BlueprintFieldType::modulus_bits]. *)
Definition modulus_bits (P : params) : Z := Z.log2 (char P) + 1.

(** bit_builder_component.hpp:148-159; [w] is the witness amount, [cb] is
    check_bits. *)
Definition bb_per_gate (w : Z) : Z := 3 * w - 2.
Definition bb_per_first_gate (w : Z) (cb : bool) : Z := if cb then bb_per_gate w else bb_per_gate w + 1.
Definition bb_last_pos (w : Z) : Z := 3 * w - 1.

(** bit_builder_component.hpp:120-140. *)
Definition bb_padding (w bits : Z) (cb : bool) : Z :=
  let bpg := bb_per_gate w in
  let bpf := bb_per_first_gate w cb in
  if cb then
    if bpg <? bits then 1 + (bpg - bits mod bpg) mod bpg else bpg + 1 - bits
  else
    if bpf <? bits then (bpg - (bits - bpf) mod bpg) mod bpg else bpf - bits.

(** bit_builder_component.hpp:142-146. *)
Definition bb_sum_bits (w bits : Z) (cb : bool) : Z :=
  1 + (if 2 <=? bits + Z.b2z cb then bits + Z.b2z cb - 2 else 0) / bb_per_gate w * 2.

(** bit_builder_component.hpp:99-105. *)
Definition bb_rows (w bits : Z) (cb : bool) : Z :=
  (bits + bb_sum_bits w bits cb + bb_padding w bits cb) / w.

(** bit_builder_component.hpp:265-273 bit_position and 285-294
    sum_bit_position, as straight positions. *)
Definition bb_bitpos (w n : Z) : Z :=
  n + (if bb_last_pos w <=? n then 2 + (n - bb_last_pos w) / bb_per_gate w * 2 else 0).
Definition bb_sumpos (w k : Z) : Z := bb_last_pos w + (k / 2) * (3 * w) + k mod 2.

(** bit_builder_component.hpp:111-118 straight_bit_position, as a variable. *)
Definition bb_cell (c : comp) (row n : Z) : var :=
  wcell (W c (n mod wamount c)) (row + n / wamount c).

Section Model.
Variable P : params.
Notation F := (F P).
Notation table := (table P).
Notation cmd := (cmd P).

(** Writes at straight positions. *)
Definition pos_writes (c : comp) (row : Z) (l : list (Z * F)) : list (Z * Z * F) :=
  map (fun e => (W c (fst e mod wamount c), row + fst e / wamount c, snd e)) l.

(** bit_builder_component.hpp:302-343 generate_assignments; [b i] is
    input_bits[i].  The accumulator [sum] is the Horner sum of the bits consumed
    so far. *)
Definition bb_pos_writes (w bits : Z) (cb : bool) (b : Z -> Z) : list (Z * F) :=
  let padding := bb_padding w bits cb in
  let sum i := fhorner (ofZ 2) (fun k => ofZ (b k)) (bb_last_pos w - padding + (i / 2) * bb_per_gate w) in
  map (fun n => (bb_bitpos w n, f0)) (zseq 0 padding) ++
  map (fun i => (bb_bitpos w (padding + i), ofZ (b i))) (zseq 0 bits) ++
  flat_map (fun h => let i := 2 * h in
     (bb_sumpos w i, sum i) ::
     (if i =? bb_sum_bits w bits cb - 1 then [] else [(bb_sumpos w (i + 1), sum i)]))
   (zseq 0 ((bb_sum_bits w bits cb + 1) / 2)).

Definition bb_assign (c : comp) (bits : Z) (cb : bool) (b : Z -> Z) (row : Z) (T : table) : table :=
  wsets T (pos_writes c row (bb_pos_writes (wamount c) bits cb b)).

Local Open Scope E_scope.

(** bit_builder_component.hpp:351-397 generate_gates; after [k] steps of the
    loops, row_idx = k / w - 1 and col_idx = k mod w. *)
Definition bb_var (c : comp) (k : Z) : var :=
  wv (W c (k mod wamount c)) (k / wamount c - 1).
Definition bb_gate (c : comp) (cb : bool) : list (expr P) :=
  let last := bb_last_pos (wamount c) in
  (fold_left (fun e k => $2 * e + #(bb_var c k)) (zseq 1 last) #(wv (W c 0) (-1)) - #(bb_var c last)) ::
  (if cb then map (fun k => #(bb_var c k) * ($1 - #(bb_var c k))) (zseq 1 last) else []).

(** bit_builder_component.hpp:399-431 generate_circuit; enable_selector with a
    step (assignment.hpp:357-366) enables start+1, start+4, ... up to and
    including start + rows - 2. *)
Definition step_rows (lo hi step : Z) : list Z :=
  map (fun i => (lo + step * i)%Z) (zseq 0 (if lo <=? hi then (hi - lo) / step + 1 else 0)%Z).
Definition bb_circuit (c : comp) (bits : Z) (cb : bool) (row : Z) : list cmd :=
  [Gate (bb_gate c cb) (step_rows (row + 1) (row + bb_rows (wamount c) bits cb - 2) 3);
   SetConst (C c 0) row f0].

(** bit_decomposition.hpp:275-291 / bit_composition.hpp:287-312, parts common
    to both: zero padding and links between sum bits.  The zero is constant
    column number 0 whatever constant column the component was given. *)
Definition bb_zero_copies (c : comp) (bits : Z) (cb : bool) (row : Z) : list cmd :=
  map (fun n => Copy (ccell 0 row) (bb_cell c row (bb_bitpos (wamount c) n)))
      (zseq 0 (bb_padding (wamount c) bits cb)).
Definition bb_sum_copies (c : comp) (bits : Z) (cb : bool) (row : Z) : list cmd :=
  let w := wamount c in
  map (fun h => Copy (bb_cell c row (bb_sumpos w (2 * h))) (bb_cell c row (bb_sumpos w (2 * h + 1))))
      (zseq 0 ((bb_sum_bits w bits cb - 1 + 1) / 2)).

(** ** bit_decomposition *)

(** bit_decomposition.hpp:118-134 result_type; [msb] is mode == MSB. *)
Definition bd_result (c : comp) (bits : Z) (msb : bool) (row i : Z) : var :=
  let w := wamount c in
  bb_cell c row (bb_bitpos w (bb_padding w bits true + (if msb then i else bits - i - 1))).
(** bit_decomposition.hpp:135-141 result_type (skip). *)
Definition bd_result_skip (c : comp) (row i : Z) : var := wcell (W c (i mod 9)) (row + i / 9).

(** bit_decomposition.hpp:262-321 generate_copy_constraints, generate_circuit. *)
Definition bd_circuit (c : comp) (bits : Z) (x : var) (row : Z) : list cmd :=
  bb_circuit c bits true row ++ bb_zero_copies c bits true row ++ bb_sum_copies c bits true row ++
  [Copy x (bb_cell c row (bb_sumpos (wamount c) (bb_sum_bits (wamount c) bits true - 1)))].

(** bit_decomposition.hpp:213-239 generate_assignments. *)
Definition bd_assign (c : comp) (bits : Z) (x : var) (row : Z) (T : table) : table :=
  bb_assign c bits true (msb_bit bits (fval (vval T x))) row T.

(** bit_decomposition.hpp:187-206 calculate. *)
Definition bd_calculate (bits x : Z) (msb : bool) (i : Z) : Z :=
  msb_bit bits x (if msb then i else bits - i - 1).
(** bit_decomposition.hpp:241-260 generate_empty_assignments. *)
Definition bd_empty (c : comp) (bits : Z) (msb : bool) (x : var) (row : Z) (T : table) : table :=
  wsets T (map (fun i => (W c (i mod 9), (row + i / 9)%Z, ofZ (bd_calculate bits (fval (vval T x)) msb i)))
               (zseq 0 bits)).

(** ** bit_composition *)

(** bit_composition.hpp:118-125 result_type. *)
Definition bc_result (c : comp) (bits : Z) (cb : bool) (row : Z) : var :=
  bb_cell c row (bb_sumpos (wamount c) (bb_sum_bits (wamount c) bits cb - 1)).
Definition bc_result_skip (c : comp) (row : Z) : var := wcell (W c 0) row.

(** bit_composition.hpp:270-334; [xs i] is instance_input.bits[i]. *)
Definition bc_index (bits : Z) (msb : bool) (i : Z) : Z := if msb then i else (bits - i - 1)%Z.
Definition bc_circuit (c : comp) (bits : Z) (cb msb : bool) (xs : Z -> var) (row : Z) : list cmd :=
  let w := wamount c in
  bb_circuit c bits cb row ++ bb_zero_copies c bits cb row ++
  map (fun i => Copy (xs (bc_index bits msb i)) (bb_cell c row (bb_bitpos w (bb_padding w bits cb + i))))
      (zseq 0 bits) ++
  bb_sum_copies c bits cb row.

(** bit_composition.hpp:202-228 generate_assignments: the inputs are read
    before any cell is written. *)
Definition nzbit (v : F) : Z := if feqb v f0 then 0 else 1.
Definition bc_assign (c : comp) (bits : Z) (cb msb : bool) (xs : Z -> var) (row : Z) (T : table) : table :=
  bb_assign c bits cb (fun i => nzbit (vval T (xs (bc_index bits msb i)))) row T.

(** bit_composition.hpp:175-194 calculate, 230-252 generate_empty_assignments. *)
Definition bc_empty (c : comp) (bits : Z) (msb : bool) (xs : Z -> var) (row : Z) (T : table) : table :=
  wset T (W c 0) row (fhorner (ofZ 2) (fun i => ofZ (nzbit (vval T (xs (bc_index bits msb i))))) bits).

(** ** bit_shift_constant *)

(** bit_shift_constant.hpp:127-132 calculate_composition_bits_amount; [left] is
    mode == LEFT. *)
Definition bs_cbits (bits shift : Z) (left : bool) : Z := if left then bits else (bits - shift)%Z.
(** bit_shift_constant.hpp:64-69. *)
Definition bs_rows (w bits shift : Z) (left : bool) : Z :=
  bb_rows w bits true + bb_rows w (bs_cbits bits shift left) false.
(** bit_shift_constant.hpp:236-251, 281-297: inputs of the composition; both
    subcomponents work MSB first (185-189). *)
Definition bs_inputs (c : comp) (bits shift : Z) (left : bool) (row i : Z) : var :=
  if left then
    if i <? bits - shift then bd_result c bits true row (shift + i) else ccell 0 row
  else bd_result c bits true row i.
(** bit_shift_constant.hpp:262-304 generate_circuit. *)
Definition bs_circuit (c : comp) (bits shift : Z) (left : bool) (x : var) (row : Z) : list cmd :=
  bd_circuit c bits x row ++
  bc_circuit c (bs_cbits bits shift left) false true (bs_inputs c bits shift left row)
    (row + bb_rows (wamount c) bits true)%Z.
(** bit_shift_constant.hpp:215-260 generate_assignments. *)
Definition bs_assign (c : comp) (bits shift : Z) (left : bool) (x : var) (row : Z) (T : table) : table :=
  bc_assign c (bs_cbits bits shift left) false true (bs_inputs c bits shift left row)
    (row + bb_rows (wamount c) bits true)%Z (bd_assign c bits x row T).
(** bit_shift_constant.hpp:160-166 result_type. *)
Definition bs_result (c : comp) (bits shift : Z) (left : bool) (row : Z) : var :=
  bc_result c (bs_cbits bits shift left) false (row + bb_rows (wamount c) bits true)%Z.

End Model.
Arguments pos_writes {P}. Arguments bb_pos_writes {P}. Arguments bb_assign {P}. Arguments bb_gate {P}.
Arguments bb_circuit {P}. Arguments bb_zero_copies {P}. Arguments bb_sum_copies {P}.
Arguments bd_circuit {P}. Arguments bd_assign {P}. Arguments bd_empty {P}.
Arguments bc_circuit {P}. Arguments nzbit {P}. Arguments bc_assign {P}. Arguments bc_empty {P}.
Arguments bs_circuit {P}. Arguments bs_assign {P}.
