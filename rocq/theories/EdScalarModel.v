(** Scalars of Ed25519 on a native field.

    Source: include/nil/blueprint/components/algebra/curves/edwards/plonk/
    non_native/scalar_non_native_range.hpp and
    components/algebra/fields/plonk/non_native/reduction.hpp.

    Simplification: the fixed width integers are unbounded; they are wide
    enough for scalars below the group order and for 64-bit words. *)
From Coq Require Import ZArith List Lia Bool.
From Verif Require Import Base Field Plonk NonNativeModel Sha256Model.
Import ListNotations.
Open Scope Z_scope.

(** Ed25519Type::scalar_field_type::modulus; reduction.hpp:165, 259. *)
Definition ed_q : Z := 0x1000000000000000000000000000000014def9dea2f79cd65812631a5cf5d3ed.
(** scalar_non_native_range.hpp:149-150, 204-205. *)
Definition sn_d : Z := 2 ^ 253 - ed_q.
(** 22-bit chunks, 154-157. *)
Definition sn_chunk (x i : Z) : Z := (x / 2 ^ (22 * i)) mod 2 ^ 22.
(** The cells written by generate_assignments (158-186), row by row. *)
Definition sn_block (k dk : Z) (kc dc : Z -> Z) : list (list Z) :=
  [ [k; kc 0; kc 1; kc 2; kc 3; kc 4; kc 5; kc 6; kc 7];
    [kc 8; kc 9; kc 10; kc 11; dk; dc 0; dc 1; dc 2; dc 3];
    [dc 4; dc 5; dc 6; dc 7; dc 8; dc 9; dc 10; dc 11] ].

(** Terms of a sum of cells times constants: column, rotation, factor. *)
Definition term : Set := Z * Z * Z.
(** 207-212 *)
Definition sn_k_terms : list term :=
  [(1, -1, 1); (2, -1, 2 ^ 22); (3, -1, 2 ^ 44); (4, -1, 2 ^ 66); (5, -1, 2 ^ 88); (6, -1, 2 ^ 110); (7, -1, 2 ^ 132); (8, -1, 2 ^ 154);
   (0, 0, 2 ^ 176); (1, 0, 2 ^ 198); (2, 0, 2 ^ 220); (3, 0, 2 ^ 242)].
(** 215-220 *)
Definition sn_dk_terms : list term :=
  [(5, 0, 1); (6, 0, 2 ^ 22); (7, 0, 2 ^ 44); (8, 0, 2 ^ 66); (0, 1, 2 ^ 88); (1, 1, 2 ^ 110); (2, 1, 2 ^ 132); (3, 1, 2 ^ 154);
   (4, 1, 2 ^ 176); (5, 1, 2 ^ 198); (6, 1, 2 ^ 220); (7, 1, 2 ^ 242)].

(** reduction.hpp:262-272: the words times the powers of 2^64 modulo the order. *)
Definition rd_terms : list term :=
  [(0, 1, 1); (1, 1, 0x10000000000000000); (2, 1, 0x100000000000000000000000000000000); (3, 1, 0x1000000000000000000000000000000000000000000000000);
   (4, 1, 0xffffffffffffffffffffffffffffffec6ef5bf4737dcf70d6ec31748d98951d);
   (5, 1, 0xffffffffffffffeb2106215d086329a93b8c838d39a5e065812631a5cf5d3ed);
   (6, 1, 0x2106215d086329a7ed9ce5a30a2c131b64a7f435e4fdd9539822129a02a6271);
   (7, 1, 0xed9ce5a30a2c131b399411b7c309a3de24babbe38d1d7a979daf520a00acb65)].
(** 274-275, 315-316: the quotient. *)
Definition rd_q_terms : list term := [(0, 0, 0x800000000000); (1, 0, 0x8000000); (2, 0, 0x80); (3, 0, 1)].
(** 278-281: the sum of the 20-bit chunks. *)
Definition rd_s_terms : list term :=
  [(0, -1, 1); (1, -1, 1); (2, -1, 1); (3, -1, 1); (4, -1, 1); (5, -1, 1); (6, -1, 1); (7, -1, 1); (8, -1, 1); (0, 0, 1); (1, 0, 1); (2, 0, 1)].
(** 286-297: the remainder. *)
Definition rd_r_terms : list term :=
  [(3, 0, 1); (2, 0, 0x2000); (1, 0, 0x200000000); (0, 0, 0x20000000000000); (8, -1, 0x2000000000000000000); (7, -1, 0x200000000000000000000000);
   (6, -1, 0x20000000000000000000000000000); (5, -1, 0x2000000000000000000000000000000000); (4, -1, 0x200000000000000000000000000000000000000);
   (3, -1, 0x20000000000000000000000000000000000000000000); (2, -1, 0x2000000000000000000000000000000000000000000000000);
   (1, -1, 0x200000000000000000000000000000000000000000000000000000); (0, -1, 0x20000000000000000000000000000000000000000000000000000000000)].
(** 305-306 *)
Definition rd_m (e : Z) : Z := (2 ^ e mod ed_q) mod 2 ^ 73.
(** 308-314: the low parts of the products. *)
Definition rd_low_terms : list term :=
  [(0, 1, 1); (1, 1, 2 ^ 64); (3, 1, rd_m 192); (4, 1, rd_m 256); (5, 1, rd_m 320); (6, 1, rd_m 384); (7, 1, rd_m 448)].
(** 317 *)
Definition rd_l : Z := 2 ^ 73 - ed_q mod 2 ^ 73.
(** 318-319: the low part of the remainder. *)
Definition rd_rlow_terms : list term := [(3, -1, 1); (2, -1, 2 ^ 13); (1, -1, 2 ^ 33); (0, -1, 2 ^ 53)].
(** 323-324 *)
Definition rd_v_terms : list term := [(4, 0, 2 ^ 56); (5, 0, 2 ^ 34); (6, 0, 2 ^ 12); (7, 0, 1)].

(** generate_assignments, 136-246: the sum of the words times the powers
    modulo the order (169-173). *)
Definition rd_k (w : list Z) : Z := fold_right Z.add 0 (map (fun i => znth 0 w i * (2 ^ (64 * i) mod ed_q)) (zseq 0 8)).
(** 226-231 and 232-235: [c] and [d].  In [d] the operator [&] binds less than
    [+]; its mask has the bits of [r] above the thirteenth and ones below. *)
Definition rd_c (w : list Z) (q : Z) : Z :=
  znth 0 w 0 + znth 0 w 1 * 2 ^ 64 + znth 0 w 3 * rd_m 192 + znth 0 w 4 * rd_m 256 + znth 0 w 5 * rd_m 320 + znth 0 w 6 * rd_m 384 +
  znth 0 w 7 * rd_m 448 + q * rd_l.
Definition rd_d (r : Z) : Z :=
  Z.land r ((2 ^ 13 - 1) + ((r / 2 ^ 13) mod 2 ^ 20) * 2 ^ 13 + ((r / 2 ^ 33) mod 2 ^ 20) * 2 ^ 33 + ((r / 2 ^ 53) mod 2 ^ 20) * 2 ^ 53).
Definition rd_v (w : list Z) (q r : Z) : Z := (rd_c w q - rd_d r) / 2 ^ 69.
(** 184-209: the chunks of the remainder. *)
Definition rd_chunk (r e : Z) : Z := (r / 2 ^ e) mod 2 ^ 20.
(** 211-217: the sum of the chunks less its maximum. *)
Definition rd_s (r : Z) : Z :=
  r / 2 ^ 233 + rd_chunk r 213 + rd_chunk r 193 + rd_chunk r 173 + rd_chunk r 153 + rd_chunk r 133 + rd_chunk r 113 + rd_chunk r 93 + rd_chunk r 73 +
  rd_chunk r 53 + rd_chunk r 33 + rd_chunk r 13 - 12 * (2 ^ 20 - 1).
(** The cells written, row by row: [qs] are the chunks of the quotient, [inv]
    the cell for the inverse of the sum. *)
Definition rd_block (w : list Z) (r inv : Z) (qs : list Z) (v : Z) : list (list Z) :=
  [ [r / 2 ^ 233; rd_chunk r 213; rd_chunk r 193; rd_chunk r 173; rd_chunk r 153; rd_chunk r 133; rd_chunk r 113; rd_chunk r 93; rd_chunk r 73];
    [rd_chunk r 53; rd_chunk r 33; rd_chunk r 13; r mod 2 ^ 13; r; inv; 1];
    [znth 0 qs 0; znth 0 qs 1; znth 0 qs 2; znth 0 qs 3; v / 2 ^ 56; (v / 2 ^ 34) mod 2 ^ 22; (v / 2 ^ 12) mod 2 ^ 22; v mod 2 ^ 12];
    [znth 0 w 0; znth 0 w 1; znth 0 w 2; znth 0 w 3; znth 0 w 4; znth 0 w 5; znth 0 w 6; znth 0 w 7; v] ].
(** 178-181 *)
Definition rd_qs (q : Z) : list Z := [(q / 2 ^ 47) mod 2 ^ 20; (q / 2 ^ 27) mod 2 ^ 20; (q / 2 ^ 7) mod 2 ^ 20; q mod 2 ^ 7].

Section Model.
Variable P : params.
Notation F := (F P).
Notation table := (table P).
Notation cmd := (cmd P).

Local Open Scope E_scope.
(** A sum of cells times constants. *)
Definition lin (c : comp) (l : list term) : expr P :=
  fold_right (fun x e => #(wv (W c (fst (fst x))) (snd (fst x))) * $(snd x) + e) ($0) l.

(** scalar_non_native_range.hpp:191-222 generate_gates. *)
Definition sn_gate (c : comp) : list (expr P) :=
  [ #(wv (W c 0) (-1)) - lin c sn_k_terms;
    #(wv (W c 4) 0) - #(wv (W c 0) (-1)) - $sn_d;
    #(wv (W c 4) 0) - lin c sn_dk_terms ].
(** 224-254 generate_copy_constraints and generate_circuit. *)
Definition sn_circuit (c : comp) (k : var) (row : Z) : list cmd :=
  [Gate (sn_gate c) [(row + 1)%Z]; Copy (wcell (W c 0) row) k].

(** reduction.hpp:248-331 generate_gates. *)
Definition rd_gate1 (c : comp) : list (expr P) :=
  let s := lin c rd_s_terms - $(12 * (2 ^ 20 - 1))%Z in
  let inv := #(wv (W c 5) 0) in
  [ #(wv (W c 4) 0) - lin c rd_r_terms;
    s * (s * inv - $1);
    s * inv + ($1 - s * inv) * #(wv (W c 6) 0) - $1 ].
Definition rd_gate2 (c : comp) : list (expr P) :=
  [ lin c rd_terms - #(wv (W c 4) (-1)) - lin c rd_q_terms * $ed_q;
    lin c rd_low_terms + lin c rd_q_terms * $rd_l - lin c rd_rlow_terms - #(wv (W c 8) 1) * $(2 ^ 69)%Z;
    #(wv (W c 8) 1) - lin c rd_v_terms ].
(** 333-355 generate_copy_constraints, 357-376 generate_circuit. *)
Definition rd_circuit (c : comp) (k : list var) (row : Z) : list cmd :=
  [Gate (rd_gate1 c) [(row + 1)%Z]; Gate (rd_gate2 c) [(row + 2)%Z]] ++
  map (fun i => Copy (wcell (W c i) (row + 3)%Z) (nv k i)) (zseq 0 8).

Local Close Scope E_scope.
(** Writing a block of cells. *)
Definition block_cells (b : list (list Z)) (o k : Z) : option F :=
  option_map ofZ (nth_error (znth [] b o) (Z.to_nat k)).
Definition put_block (c : comp) (row : Z) (b : list (list Z)) (T : table) : table := put c row (zlen b) (block_cells b) T.

(** scalar_non_native_range.hpp:133-189 generate_assignments; 92-100 result_type:
    the chunks of k. *)
Definition sn_assign (c : comp) (k : var) (row : Z) (T : table) : table :=
  let kz := fval (vval T k) in put_block c row (sn_block kz (kz + sn_d) (sn_chunk kz) (sn_chunk (kz + sn_d))) T.
Definition sn_out (c : comp) (row i : Z) : var := if i <? 8 then wcell (W c (i + 1)) row else wcell (W c (i - 8)) (row + 1).

(** reduction.hpp:135-246 generate_assignments; 100-106 result_type. *)
Definition rd_words (T : table) (k : list var) : list Z := map (fun i => fval (vval T (nv k i))) (zseq 0 8).
Definition rd_assign (c : comp) (k : list var) (row : Z) (T : table) : table :=
  let w := rd_words T k in
  let r := rd_k w mod ed_q in let q := rd_k w / ed_q in
  put_block c row (rd_block w r (fval (finv (ofZ (rd_s r) : F))) (rd_qs q) (rd_v w q r)) T.
Definition rd_out (c : comp) (row : Z) : var := wcell (W c 4) (row + 4 - 3).
End Model.
Arguments lin {P}. Arguments sn_gate {P}. Arguments sn_circuit {P}. Arguments rd_gate1 {P}. Arguments rd_gate2 {P}. Arguments rd_circuit {P}.
Arguments block_cells {P}. Arguments put_block {P}. Arguments sn_assign {P}. Arguments rd_words {P}. Arguments rd_assign {P}.
