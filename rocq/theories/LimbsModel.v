(** Model of components/systems/snark/plonk/kimchi/detail/limbs.hpp: the
    components from_limbs and to_limbs of the transcript.

    Simplifications: integers of the class [extended_integral_type] are unbounded;
    a field element built from an integer is its residue.  Not modelled: the
    manifests and the conversions for the component stretcher. *)
From Coq Require Import ZArith List Bool.
From Verif Require Import Base Field Plonk Bits RangeModel.
Import ListNotations.
Open Scope Z_scope.

(** lines 327-330, 377-380: the columns of the range check. *)
Definition tl_sub (c : comp) : comp := mkComp (map (W c) (zseq 0 15)) [C c 0] [].
(** lines 259-262 [get_rows_amount], chunk_size = 64, chunk_amount = 4. *)
Definition tl_rc : Z := rc_rows 15 64.
Definition tl_rows : Z := 1 + 2 * 4 * tl_rc.
(** lines 337-357, 444-463: the chunks in the order of their range checks. *)
Definition tl_var (c : comp) (row k : Z) : var :=
  wcell (W c (if k mod 2 =? 0 then 1 + k / 2 else 5 + k / 2)) row.
Definition tl_rc_row (row k : Z) : Z := row + 1 + k * tl_rc.
(** lines 281-289 [result_type]. *)
Definition tl_out (c : comp) (row i : Z) : var := wcell (W c (1 + i)) row.

Section Limbs.
Variable P : params.
Notation F := (F P).
Notation table := (table P).

(** lines 397-403, 480-486: 2^256 minus the modulus, and its chunks. *)
Definition tl_mask : Z := Z.shiftl 1 64 - 1.
Definition tl_c : Z := Z.shiftl 1 256 - char P.
Definition tl_cc (i : Z) : Z := Z.land (Z.shiftr tl_c (64 * i)) tl_mask.

(** ** from_limbs *)

Section Gates.
Local Open Scope E_scope.
(** lines 179-195 [generate_gates]. *)
Definition fl_gate (c : comp) : list (expr P) :=
  [ #(wv (W c 0) 0) + #(wv (W c 1) 0) * $(2 ^ 64) - #(wv (W c 2) 0) ].
(** lines 469-510 [generate_gates]. *)
Definition tl_gate (c : comp) : list (expr P) :=
  let w k := #(wv (W c k) 0) in
  [ w 1%Z + w 2%Z * $(2 ^ 64) + w 3%Z * $(2 ^ 128) + w 4%Z * $(2 ^ 192) - w 0%Z;
    $(-1) * w 1%Z - $(tl_cc 0) + w 5%Z + w 9%Z * $(Z.shiftl 1 64);
    $(-1) * w 2%Z - $(tl_cc 1) - w 9%Z + w 6%Z + w 10%Z * $(Z.shiftl 1 64);
    $(-1) * w 3%Z - $(tl_cc 2) - w 10%Z + w 7%Z + w 11%Z * $(Z.shiftl 1 64);
    $(-1) * w 4%Z - $(tl_cc 3) - w 11%Z + w 8%Z;
    w 9%Z * (w 9%Z - $1); w 10%Z * (w 10%Z - $1); w 11%Z * (w 11%Z - $1) ].
End Gates.

(** lines 142-156 [generate_circuit], 198-212 [generate_copy_constraints]. *)
Definition fl_circuit (c : comp) (a b : var) (row : Z) : list (cmd P) :=
  [Gate (fl_gate c) [row]; Copy (wcell (W c 0) row) a; Copy (wcell (W c 1) row) b].
(** lines 109-114 [result_type]. *)
Definition fl_out (c : comp) (row : Z) : var := wcell (W c 2) row.
(** lines 160-176 [generate_assignments]. *)
Definition fl_assign (c : comp) (a b : var) (row : Z) (T : table) : table :=
  let x := vval T a in
  let y := vval T b in
  wsets T [(W c 0, row, x); (W c 1, row, y); (W c 2, row, fadd (fmul (fpow (ofZ 2) 64) y) x)].

(** ** to_limbs *)

(** lines 316-363 [generate_circuit], 513-522 [generate_copy_constraints]. *)
Definition tl_circuit (c : comp) (x : var) (row : Z) : list (cmd P) :=
  Gate (tl_gate c) [row] ::
  flat_map (fun k => rc_circuit (tl_sub c) 64 (tl_var c row k) (tl_rc_row row k)) (zseq 0 8) ++
  [Copy (wcell (W c 0) row) x].

(** lines 415-442: the carry of [part] over the chunk [b]. *)
Definition tl_carry (part b : Z) : F :=
  if b <? part then ofZ (Z.shiftr (part - b) 64) else ofZ (char P - Z.shiftr (b - part) 64).
(** lines 382-442: the cells of the first row, from the integer [v]. *)
Definition tl_cells (v : Z) : list F :=
  let s1 := Z.shiftl (Z.shiftr v 64) 64 in
  let w1 := ofZ (v - s1) : F in
  let v2 := Z.shiftr v 64 in
  let s2 := Z.shiftl (Z.shiftr (Z.shiftr s1 64) 64) 64 in
  let w2 := ofZ (v2 - s2) : F in
  let v3 := Z.shiftr v2 64 in
  let s3 := Z.shiftl (Z.shiftr (Z.shiftr s2 64) 64) 64 in
  let w3 := ofZ (v3 - s3) : F in
  let v4 := Z.shiftr v3 64 in
  let b := v + tl_c in
  let bc i := Z.land (Z.shiftr b (64 * i)) tl_mask in
  let w9 := tl_carry (fval w1 + tl_cc 0) (bc 0) in
  let w10 := tl_carry (fval w2 + fval w9 + tl_cc 1) (bc 1) in
  let w11 := tl_carry (fval w3 + fval w10 + tl_cc 2) (bc 2) in
  [ofZ v; w1; w2; w3; ofZ v4; ofZ (bc 0); ofZ (bc 1); ofZ (bc 2); ofZ (bc 3); w9; w10; w11].
(** lines 367-466 [generate_assignments]. *)
Definition tl_assign (c : comp) (x : var) (row : Z) (T : table) : table :=
  fold_left (fun U k => rc_assign (tl_sub c) 64 (tl_var c row k) (tl_rc_row row k) U) (zseq 0 8)
    (wsets T (map (fun k => (W c k, row, znth f0 (tl_cells (fval (vval T x))) k)) (zseq 0 12))).
End Limbs.
Arguments fl_circuit {P}. Arguments fl_assign {P}. Arguments tl_circuit {P}. Arguments tl_assign {P}.
Arguments fl_gate {P}. Arguments tl_gate {P}.
