(** Model of range_check.hpp
    (include/nil/blueprint/components/algebra/fields/plonk/range_check.hpp). *)
From Coq Require Import ZArith List Lia Bool.
From Verif Require Import Base Field Plonk Bits.
Import ListNotations.
Open Scope Z_scope.

(** range_check.hpp:70-103, chunk_size = 2 and reserved_columns = 1 (143-144). *)
Definition rc_cpr (w : Z) : Z := w - 1.
Definition rc_bits_per_row (w : Z) : Z := rc_cpr w * 2.
Definition rc_rows (w bits : Z) : Z :=
  1 + (bits + rc_bits_per_row w - 1) / rc_bits_per_row w.
Definition rc_padded_chunks (w bits : Z) : Z := (rc_rows w bits - 1) * rc_cpr w.
Definition rc_padding_size (w bits : Z) : Z := rc_padded_chunks w bits - (bits + 2 - 1) / 2.
Definition rc_padding_bits (w bits : Z) : Z := rc_padded_chunks w bits * 2 - bits.

Section Model.
Variable P : params.
Notation F := (F P).
Notation table := (table P).
Notation cmd := (cmd P).
Local Open Scope E_scope.

(** range_check.hpp:317-323 generate_chunk_size_constraint:
    v (v-1) ... (v - (2^size - 1)). *)
Definition chunk_expr (v : var) (size : Z) : expr P :=
  fold_left (fun e i => e * (#v - $i)) (zseq 1 (2 ^ size)) #v.

(** range_check.hpp:326-345, first gate. *)
Definition rc_sum_expr (c : comp) (cpr : Z) : expr P :=
  fold_left (fun e i => $(2 ^ 2) * e + #(wv (W c (1 + i)) 0)) (zseq 1 cpr) #(wv (W c (0 + 1)) 0)
  + $(2 ^ (2 * cpr)) * #(wv (W c 0) (-1)) - #(wv (W c 0) 0).
Definition rc_gate1 (c : comp) (cpr : Z) : list (expr P) :=
  map (fun i => chunk_expr (wv (W c (1 + i)) 0) 2) (zseq 0 cpr) ++ [rc_sum_expr c cpr].
(** range_check.hpp:347-354, second gate, only for odd bit counts. *)
Definition rc_gate2 (c : comp) (bits : Z) : list (expr P) :=
  [chunk_expr (wv (W c (1 + rc_padding_size (wamount c) bits)) 0) (bits mod 2)].

(** range_check.hpp:358-382 generate_copy_constraints: the zero is constant
    column number 0, whatever constant column the component was given. *)
Definition rc_copies (c : comp) (bits : Z) (x : var) (row : Z) : list cmd :=
  Copy (ccell 0 row) (wcell (W c 0) row) ::
  map (fun i => Copy (ccell 0 row) (wcell (W c i) (row + 1))) (zseq 1 (rc_padding_size (wamount c) bits + 1)) ++
  [Copy x (wcell (W c 0) (row + rc_rows (wamount c) bits - 1))].

(** range_check.hpp:205-235 generate_circuit; enable_selector on a range
    includes both ends (assignment.hpp:357-366); constants 384-397. *)
Definition rc_circuit (c : comp) (bits : Z) (x : var) (row : Z) : list cmd :=
  let w := wamount c in
  Gate (rc_gate1 c (rc_cpr w)) (zseq (row + 1) (row + rc_rows w bits)) ::
  (if bits mod 2 =? 0 then [] else [Gate (rc_gate2 c bits) [row + 1]%Z]) ++
  rc_copies c bits x row ++
  [SetConst (C c 0) row f0].

(** range_check.hpp:259-268: the last [bits] bits of the big-endian expansion
    of the input, after [padding_bits] zeroes.  (The copy at 264 reads before
    the array when bits > modulus_bits; not modelled, such components are
    outside the documented domain.) *)
Definition rc_bit (w bits x i : Z) : Z :=
  if i <? rc_padding_bits w bits then 0
  else msb_bit bits x (i - rc_padding_bits w bits).
(** range_check.hpp:272-280. *)
Definition rc_chunk (w bits x k : Z) : Z := 2 * rc_bit w bits x (2 * k) + rc_bit w bits x (2 * k + 1).

(** range_check.hpp:282-297; [sum] after the row's inner loop is the Horner sum
    of all chunks so far. *)
Definition rc_writes (c : comp) (bits xv row : Z) : list (Z * Z * F) :=
  let w := wamount c in
  let cpr := rc_cpr w in
  (W c 0, row, f0) ::
  flat_map (fun i =>
    map (fun j => (W c (1 + j), row + 1 + i, ofZ (rc_chunk w bits xv (i * cpr + j)))%Z) (zseq 0 cpr) ++
    [(W c 0, row + 1 + i, fhorner (ofZ 4) (fun k => ofZ (rc_chunk w bits xv k)) ((i + 1) * cpr))%Z])
  (zseq 0 (rc_rows w bits - 1)).

(** range_check.hpp:237-302 generate_assignments. *)
Definition rc_assign (c : comp) (bits : Z) (x : var) (row : Z) (T : table) : table :=
  wsets T (rc_writes c bits (fval (vval T x)) row).

End Model.
Arguments chunk_expr {P}. Arguments rc_sum_expr {P}. Arguments rc_gate1 {P}. Arguments rc_gate2 {P}.
Arguments rc_copies {P}. Arguments rc_circuit {P}. Arguments rc_writes {P}. Arguments rc_assign {P}.
