(** Models of the native elliptic curve components for the Pasta curves
    (include/nil/blueprint/components/algebra/curves/pasta/plonk/). *)
From Coq Require Import ZArith List Lia Bool.
From Verif Require Import Base Field Plonk Bits.
Import ListNotations.
Open Scope Z_scope.

Section Model.
Variable P : params.
Notation F := (F P).
Notation table := (table P).
Notation cmd := (cmd P).
Notation expr := (expr P).

Local Open Scope F_scope.
Local Open Scope E_scope.

(** ** unified_addition.hpp *)

(** unified_addition.hpp:220-284 generate_gates. *)
Definition ua_gate (c : comp) : list expr :=
  let w i := #(wv (W c i) 0) in
  let dx := w 2%Z - w 0%Z in
  let sy := w 3%Z + w 1%Z in
  let xd := w 0%Z * w 2%Z * w 2%Z - w 0%Z * w 2%Z * w 0%Z in
  let xs := w 0%Z * w 2%Z * w 3%Z + w 0%Z * w 2%Z * w 1%Z in
  let fx := w 10%Z * w 10%Z - w 0%Z - w 2%Z - w 4%Z in
  let fy := w 10%Z * (w 0%Z - w 4%Z) - w 1%Z - w 5%Z in
  [ dx * (dx * w 10%Z - (w 3%Z - w 1%Z));
    ($1 - dx * w 8%Z) * ($2 * w 1%Z * w 10%Z - $3 * w 0%Z * w 0%Z);
    xd * fx;
    xd * fy;
    xs * fx;
    xs * fy;
    ($1 - w 0%Z * w 6%Z) * (w 4%Z - w 2%Z);
    ($1 - w 0%Z * w 6%Z) * (w 5%Z - w 3%Z);
    ($1 - w 2%Z * w 7%Z) * (w 4%Z - w 0%Z);
    ($1 - w 2%Z * w 7%Z) * (w 5%Z - w 1%Z);
    ($1 - dx * w 8%Z - sy * w 9%Z) * w 4%Z;
    ($1 - dx * w 8%Z - sy * w 9%Z) * w 5%Z ].

(** unified_addition.hpp:286-320 generate_copy_constraints, generate_circuit. *)
Definition ua_circuit (c : comp) (px py qx qy : var) (row : Z) : list cmd :=
  [ Gate (ua_gate c) [row];
    Copy px (wcell (W c 0) row); Copy py (wcell (W c 1) row);
    Copy qx (wcell (W c 2) row); Copy qy (wcell (W c 3) row) ].

(** The affine addition [P + Q] of crypto3 for a curve [y^2 = x^3 + b], for two
    points that are neither at infinity nor opposite.  crypto3 is not part of
    /repo; this is the chord and tangent rule. *)
Definition lib_slope (p q : F * F) : F :=
  if feqb (fst p) (fst q) then fdiv (ofZ 3 * (fst p * fst p))%F (ofZ 2 * snd p)%F
  else fdiv (snd q - snd p)%F (fst q - fst p)%F.
Definition lib_add (p q : F * F) : F * F :=
  let s := lib_slope p q in
  let x := (s * s - fst p - fst q)%F in
  (x, (s * (fst p - x) - snd p)%F).

(** unified_addition.hpp:165-183: the sum as written to W4, W5. *)
Definition ua_sum (p q : F * F) : F * F :=
  if feqb (fst p) f0 && feqb (snd p) f0 then q
  else if feqb (fst q) f0 && feqb (snd q) f0 then p
  else if feqb (fst q) (fst p) && feqb (snd q) (fopp (snd p)) then (f0, f0)
  else lib_add p q.

(** [x.inversed()] guarded by a test for zero, as in lines 184-215. *)
Definition inv0 (x : F) : F := if feqb x f0 then f0 else finv x.

(** unified_addition.hpp:141-218 generate_assignments. *)
Definition ua_assign (c : comp) (px py qx qy : var) (row : Z) (T : table) : table :=
  let xp := vval T px in let yp := vval T py in
  let xq := vval T qx in let yq := vval T qy in
  let r := ua_sum (xp, yp) (xq, yq) in
  let same := feqb xp xq in
  wsets T
    [ (W c 0, row, xp); (W c 1, row, yp); (W c 2, row, xq); (W c 3, row, yq);
      (W c 4, row, fst r); (W c 5, row, snd r);
      (W c 6, row, inv0 xp); (W c 7, row, inv0 xq);
      (W c 10, row, if same then (if feqb yp f0 then f0 else (ofZ 3 * (xp * xp) * finv (ofZ 2 * yp))%F)
                    else ((yq - yp) * finv (xq - xp))%F);
      (W c 9, row, if same then (if feqb yp (fopp yq) then f0 else finv (yq + yp)%F) else f0);
      (W c 8, row, if same then f0 else finv (xq - xp)%F) ].

(** unified_addition.hpp:102-116 result_type. *)
Definition ua_x (c : comp) (row : Z) : var := wcell (W c 4) row.
Definition ua_y (c : comp) (row : Z) : var := wcell (W c 5) row.

(** ** endo_scalar.hpp *)

Variable endo_r : F.

(** endo_scalar.hpp:116-118 get_rows_amount. *)
Definition es_rows : Z := 8.

(** endo_scalar.hpp:286-294 the lambdas c_f and d_f. *)
Definition es_c (x : expr) : expr :=
  ecst (ofZ 11 * finv (ofZ 6))%F * x + ecst (fopp (ofZ 5) * finv (ofZ 2))%F * x * x +
  ecst (ofZ 2 * finv (ofZ 3))%F * x * x * x.
Definition es_d (x : expr) : expr :=
  ecst (fopp f1) + ecst (ofZ 29 * finv (ofZ 6))%F * x + ecst (fopp (ofZ 7) * finv (ofZ 2))%F * x * x +
  ecst (ofZ 2 * finv (ofZ 3))%F * x * x * x.

(** endo_scalar.hpp:296-331 the first gate: eight two-bit checks and the three
    accumulators. *)
Definition es_gate1 (c : comp) : list expr :=
  let w i := #(wv (W c i) 0) in
  map (fun i => w i * (w i - $1) * (w i - $2) * (w i - $3)) (zseq 7 15) ++
  [ w 4%Z - ($256 * w 2%Z + $128 * es_c (w 7%Z) + $64 * es_c (w 8%Z) + $32 * es_c (w 9%Z) + $16 * es_c (w 10%Z) +
             $8 * es_c (w 11%Z) + $4 * es_c (w 12%Z) + $2 * es_c (w 13%Z) + es_c (w 14%Z));
    w 5%Z - ($256 * w 3%Z + $128 * es_d (w 7%Z) + $64 * es_d (w 8%Z) + $32 * es_d (w 9%Z) + $16 * es_d (w 10%Z) +
             $8 * es_d (w 11%Z) + $4 * es_d (w 12%Z) + $2 * es_d (w 13%Z) + es_d (w 14%Z));
    w 1%Z - ($65536 * w 0%Z + $16384 * w 7%Z + $4096 * w 8%Z + $1024 * w 9%Z + $256 * w 10%Z +
             $64 * w 11%Z + $16 * w 12%Z + $4 * w 13%Z + w 14%Z) ].
(** endo_scalar.hpp:333-334 the second gate. *)
Definition es_gate2 (c : comp) : list expr :=
  [ #(wv (W c 6) 0) - (ecst endo_r * #(wv (W c 4) 0) + #(wv (W c 5) 0)) ].

(** endo_scalar.hpp:345-366 generate_copy_constraints: nothing ties the first
    row's accumulators W0, W2, W3. *)
Definition es_copies (c : comp) (scalar : var) (row : Z) : list cmd :=
  flat_map (fun z =>
    [ Copy (wcell (W c 0) (row + z)) (wcell (W c 1) (row + z - 1));
      Copy (wcell (W c 2) (row + z)) (wcell (W c 4) (row + z - 1));
      Copy (wcell (W c 3) (row + z)) (wcell (W c 5) (row + z - 1)) ]) (zseq 1 es_rows) ++
  [ Copy (wcell (W c 1) (row + es_rows - 1)) scalar ].

(** endo_scalar.hpp:176-195 generate_circuit: the first selector on rows
    [row .. row + 7], the second on the last row. *)
Definition es_circuit (c : comp) (scalar : var) (row : Z) : list cmd :=
  [ Gate (es_gate1 c) (zseq row (row + es_rows)); Gate (es_gate2 c) [(row + es_rows - 1)%Z] ] ++
  es_copies c scalar row.

(** endo_scalar.hpp:231-233 and the loop 241-263: the accumulators (n, a, b)
    after [k] crumbs; [bit i] is [bits_msb[i]]. *)
Definition b2f (b : bool) : F := if b then f1 else f0.
Definition es_crumb (bit : Z -> bool) (k : Z) : F := (b2f (bit (2 * k + 1)%Z) + (b2f (bit (2 * k)%Z) + b2f (bit (2 * k)%Z)))%F.
Definition es_step (bit : Z -> bool) (st : F * F * F) (k : Z) : F * F * F :=
  let '(n, a, b) := st in
  let s := if bit (2 * k + 1)%Z then f1 else fopp f1 in
  let a2 := (a + a)%F in
  let b2 := (b + b)%F in
  let n2 := ((n + n) + (n + n) + es_crumb bit k)%F in
  if bit (2 * k)%Z then (n2, (a2 + s)%F, b2) else (n2, a2, (b2 + s)%F).
Definition es_state (bit : Z -> bool) (k : Z) : F * F * F :=
  fold_left (es_step bit) (zseq 0 k) (f0, ofZ 2, ofZ 2).

(** endo_scalar.hpp:236-269 the cells of chunk [r], written to row [row + r]. *)
Definition es_chunk (c : comp) (bit : Z -> bool) (row r : Z) : list (Z * Z * F) :=
  let '(n, a, b) := es_state bit (8 * r) in
  let '(n', a', b') := es_state bit (8 * r + 8) in
  [ (W c 0, (row + r)%Z, n); (W c 2, (row + r)%Z, a); (W c 3, (row + r)%Z, b) ] ++
  map (fun j => (W c (7 + j), (row + r)%Z, es_crumb bit (8 * r + j))) (zseq 0 8) ++
  [ (W c 1, (row + r)%Z, n'); (W c 4, (row + r)%Z, a'); (W c 5, (row + r)%Z, b') ].

(** endo_scalar.hpp:197-273 generate_assignments; [None] when one of the
    assertions at 218, 228 and 235 fails. *)
Definition es_bit (size v i : Z) : bool := Z.testbit v (size - 1 - i).
Definition es_assign (size : Z) (c : comp) (scalar : var) (row : Z) (T : table) : option table :=
  let v := fval (vval T scalar) in
  if (0 <=? size) && (size <=? Z.log2 (char P) + 1)%Z && (v <? 2 ^ size)%Z && (size mod 16 =? 0)%Z then
    let bit := es_bit size v in
    let '(n, a, b) := es_state bit (size / 2) in
    Some (wsets T (flat_map (es_chunk c bit row) (zseq 0 (size / 16)) ++
                   [ (W c 6, (row + size / 16 - 1)%Z, (a * endo_r + b)%F) ]))
  else None.

(** endo_scalar.hpp:136-145 result_type. *)
Definition es_out (c : comp) (row : Z) : var := wcell (W c 6) (row + es_rows - 1).

End Model.

Arguments ua_gate {P}. Arguments ua_circuit {P}. Arguments ua_sum {P}. Arguments ua_assign {P}.
Arguments lib_slope {P}. Arguments lib_add {P}. Arguments inv0 {P}.
Arguments es_c {P}. Arguments es_d {P}. Arguments es_gate1 {P}. Arguments es_gate2 {P}. Arguments es_copies {P}.
Arguments es_circuit {P}. Arguments es_crumb {P}. Arguments es_step {P}. Arguments es_state {P}. Arguments b2f {P}.
Arguments es_chunk {P}. Arguments es_assign {P}.
