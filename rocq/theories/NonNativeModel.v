(** Arithmetic of the Ed25519 base field on a native field.

    Source: include/nil/blueprint/components/algebra/fields/plonk/non_native/
    range.hpp, addition.hpp, subtraction.hpp, multiplication.hpp, and
    include/nil/blueprint/basic_non_native_policy.hpp (Ed25519 base field
    element: four limbs of 66 bits).

    Integers are unbounded: the widths of integral_type and
    extended_integral_type are not modelled. *)
From Coq Require Import ZArith List Lia Bool.
From Verif Require Import Base Field Plonk Bits.
Import ListNotations.
Open Scope Z_scope.

(** curve25519_base_field::modulus. *)
Definition ed_p : Z := 2 ^ 255 - 19.

(** ** basic_non_native_policy.hpp:45-96 *)

(** get_i_th_chunk (60-73). *)
Definition nn_limb (x i : Z) : Z := (x / 2 ^ (66 * i)) mod 2 ^ 66.
(** chop_non_native (76-82). *)
Definition nn_chop (x : Z) : list Z := map (nn_limb x) (zseq 0 4).
(** The sum of the limbs before reduction (addition.hpp:256-260). *)
Definition nn_glue_z (l : list Z) : Z :=
  znth 0 l 0 + znth 0 l 1 * 2 ^ 66 + znth 0 l 2 * 2 ^ 132 + znth 0 l 3 * 2 ^ 198.
(** glue_non_native (84-95): a value of the Ed25519 field. *)
Definition nn_glue (l : list Z) : Z := nn_glue_z l mod ed_p.

Section Model.
Variable P : params.
Notation F := (F P).
Notation table := (table P).
Notation cmd := (cmd P).

Definition nv (l : list var) (i : Z) : var := znth (wcell 0 0) l i.
(** integral_type(var_value(assignment, A[i]).data). *)
Definition nn_vals (T : table) (l : list var) : list Z := map (fun i => fval (vval T (nv l i))) (zseq 0 4).

(** ** range.hpp *)

Section RangeGate.
Local Open Scope E_scope.
(** range.hpp:233-237: [sum]. *)
Definition rg_sum (c : comp) : expr P :=
  let w i := #(wv (W c i) 0) in let n i := #(wv (W c i) 1) in
  w 5%Z + w 6%Z + w 7%Z + n 0%Z + n 1%Z + n 2%Z + n 3%Z + n 4%Z + n 5%Z + n 6%Z + n 7%Z
  - $(2 * 2 ^ 21) - $(8 * 2 ^ 22) - $(2 ^ 15) + $11.
(** range.hpp:209-251 generate_gates. *)
Definition rg_gate (c : comp) : list (expr P) :=
  let w i := #(wv (W c i) 0) in let n i := #(wv (W c i) 1) in
  [ w 0%Z - (w 4%Z + w 5%Z * $(2 ^ 22) + w 6%Z * $(2 ^ 44));
    w 1%Z - (w 7%Z + n 0%Z * $(2 ^ 22) + n 1%Z * $(2 ^ 44));
    w 2%Z - (n 2%Z + n 3%Z * $(2 ^ 22) + n 4%Z * $(2 ^ 44));
    w 3%Z - (n 5%Z + n 6%Z * $(2 ^ 21) + n 7%Z * $(2 ^ 42));
    rg_sum c * (w 8%Z * rg_sum c - $1);
    w 8%Z * rg_sum c + ($1 - w 8%Z * rg_sum c) * n 8%Z - $1 ].
End RangeGate.
(** range.hpp:253-274 generate_copy_constraints. *)
Definition rg_copies (c : comp) (ins : list var) (row : Z) : list cmd :=
  flat_map (fun i => if var_eqb (wcell (W c i) row) (nv ins i) then [] else [Copy (wcell (W c i) row) (nv ins i)])
    (zseq 0 4).
(** range.hpp:276-292 generate_circuit. *)
Definition rg_circuit (c : comp) (ins : list var) (row : Z) : list cmd :=
  Gate (rg_gate c) [row] :: rg_copies c ins row.
(** range.hpp:156-180: chunk [k] of 12. *)
Definition rg_chunk (v : list Z) (k : Z) : Z :=
  let i := k / 3 in let j := k mod 3 in
  if i =? 3 then (znth 0 v 3 / 2 ^ (21 * j)) mod 2 ^ (if j =? 2 then 15 else 21)
  else (znth 0 v i / 2 ^ (22 * j)) mod 2 ^ 22.
Definition rg_max (k : Z) : Z := if k =? 11 then 2 ^ 15 - 1 else if k <? 9 then 2 ^ 22 - 1 else 2 ^ 21 - 1.
(** range.hpp:157-185 [xi]. *)
Definition rg_xi (v : list Z) : F :=
  let s := ofZ (fold_left (fun a k => a + (rg_chunk v k - rg_max k)) (zseq 1 12) 0) in
  if feqb s f0 then f0 else finv s.
(** range.hpp:136-207 generate_assignments. *)
Definition rg_assign (c : comp) (ins : list var) (row : Z) (T : table) : table :=
  let v := nn_vals T ins in
  let ch k := ofZ (rg_chunk v k) in
  wsets T
   [(W c 0, row, ofZ (znth 0 v 0)); (W c 1, row, ofZ (znth 0 v 1)); (W c 2, row, ofZ (znth 0 v 2)); (W c 3, row, ofZ (znth 0 v 3));
    (W c 4, row, ch 0); (W c 5, row, ch 1); (W c 6, row, ch 2); (W c 7, row, ch 3); (W c 8, row, rg_xi v);
    (W c 0, row + 1, ch 4); (W c 1, row + 1, ch 5); (W c 2, row + 1, ch 6); (W c 3, row + 1, ch 7);
    (W c 4, row + 1, ch 8); (W c 5, row + 1, ch 9); (W c 6, row + 1, ch 10); (W c 7, row + 1, ch 11);
    (W c 8, row + 1, if 2 ^ 22 - 20 <? rg_chunk v 0 then f0 else f1)].

(** ** addition.hpp and subtraction.hpp *)

(** minus_eddsa_p & mask (addition.hpp:288, 297). *)
Definition nn_m (i : Z) : Z := nn_limb (2 ^ 257 - ed_p) i.

Section AddGate.
Local Open Scope E_scope.
Definition nn_glue_e (x0 x1 x2 x3 : expr P) : expr P :=
  x0 + x1 * $(2 ^ 66) + x2 * $(2 ^ 132) + x3 * $(2 ^ 198).
(** addition.hpp:409-411, subtraction.hpp:417-421: [W(7)] of the row above is
    the carry, [W(3..6)] its chunks. *)
Definition nn_carry (c : comp) : expr P :=
  let u i := #(wv (W c i) (-1)) in
  u 7%Z - (u 3%Z + u 4%Z * $(2 ^ 22) + u 5%Z * $(2 ^ 44) + u 6%Z * $(2 ^ 66)).
(** addition.hpp:383-424 generate_gates. *)
Definition na_gate (c : comp) : list (expr P) :=
  let w i := #(wv (W c i) 0) in let n i := #(wv (W c i) 1) in let u i := #(wv (W c i) (-1)) in
  [ u 7%Z * $(2 ^ 66) - (w 0%Z + w 1%Z + $(nn_m 0) * w 2%Z - n 0%Z);
    w 2%Z * (w 2%Z - $1);
    nn_carry c;
    nn_glue_e (w 0%Z) (w 3%Z) (w 4%Z) (w 5%Z) + nn_glue_e (w 1%Z) (w 6%Z) (w 7%Z) (w 8%Z)
    - (w 2%Z * $ed_p + nn_glue_e (n 0%Z) (n 1%Z) (n 2%Z) (n 3%Z)) ].
(** subtraction.hpp:386-434 generate_gates. *)
Definition ns_gate (c : comp) : list (expr P) :=
  let w i := #(wv (W c i) 0) in let n i := #(wv (W c i) 1) in let u i := #(wv (W c i) (-1)) in
  [ u 7%Z * $(2 ^ 66) - (w 0%Z + $(nn_m 0) * w 2%Z + $(nn_limb ed_p 0) - w 1%Z - n 0%Z);
    w 2%Z * (w 2%Z - $1);
    nn_carry c;
    nn_glue_e (w 0%Z) (w 3%Z) (w 4%Z) (w 5%Z) + $ed_p - nn_glue_e (w 1%Z) (w 6%Z) (w 7%Z) (w 8%Z)
    - $ed_p * w 2%Z - nn_glue_e (n 0%Z) (n 1%Z) (n 2%Z) (n 3%Z) ].
End AddGate.
(** addition.hpp:426-448 generate_copy_constraints, the same in
    subtraction.hpp:436-458. *)
Definition na_copies (c : comp) (A B : list var) (row : Z) : list cmd :=
  [ Copy (wcell (W c 0) (row + 1)) (nv A 0); Copy (wcell (W c 1) (row + 1)) (nv B 0);
    Copy (wcell (W c 3) (row + 1)) (nv A 1); Copy (wcell (W c 4) (row + 1)) (nv A 2);
    Copy (wcell (W c 5) (row + 1)) (nv A 3); Copy (wcell (W c 6) (row + 1)) (nv B 1);
    Copy (wcell (W c 7) (row + 1)) (nv B 2); Copy (wcell (W c 8) (row + 1)) (nv B 3) ].
(** addition.hpp:128-136 result_type. *)
Definition na_out (c : comp) (row : Z) : list var := map (fun i => wcell (W c i) (row + 2)) (zseq 0 4).
(** addition.hpp:450-487, subtraction.hpp:460-493 generate_circuit; [g] is the
    gate of the component. *)
Definition na_circuit_of (g : list (expr P)) (c : comp) (A B : list var) (row : Z) : list cmd :=
  Gate g [row + 1] :: na_copies c A B row ++ rg_circuit c (na_out c row) (row + 2).
Definition na_circuit (c : comp) := na_circuit_of (na_gate c) c.
Definition ns_circuit (c : comp) := na_circuit_of (ns_gate c) c.

(** addition.hpp:312-342, subtraction.hpp:316-346: what is written, given the
    inputs, quotient, carry and result.  The range assignment reads columns 0
    to 3 of the table, not [W(0)] to [W(3)] (335-336). *)
Definition na_write (c : comp) (a b : list Z) (q u r top : Z) (row : Z) (T : table) : table :=
  let z x := ofZ x : F in
  let T1 := wsets T
   [(W c 0, row + 1, z (znth 0 a 0)); (W c 1, row + 1, z (znth 0 b 0)); (W c 2, row + 1, z q);
    (W c 3, row + 1, z (znth 0 a 1)); (W c 4, row + 1, z (znth 0 a 2)); (W c 5, row + 1, z (znth 0 a 3));
    (W c 6, row + 1, z (znth 0 b 1)); (W c 7, row + 1, z (znth 0 b 2)); (W c 8, row + 1, z (znth 0 b 3));
    (W c 3, row, z (u mod 2 ^ 22)); (W c 4, row, z ((u / 2 ^ 22) mod 2 ^ 22)); (W c 5, row, z ((u / 2 ^ 44) mod 2 ^ 22));
    (W c 6, row, z ((u / 2 ^ 66) mod top)); (W c 7, row, z u);
    (W c 0, row + 2, z (nn_limb r 0)); (W c 1, row + 2, z (nn_limb r 1));
    (W c 2, row + 2, z (nn_limb r 2)); (W c 3, row + 2, z (nn_limb r 3))] in
  rg_assign c (map (fun i => wcell i (row + 2)) (zseq 0 4)) (row + 2) T1.
(** addition.hpp:234-346 generate_assignments. *)
Definition na_assign (c : comp) (A B : list var) (row : Z) (T : table) : table :=
  let a := nn_vals T A in let b := nn_vals T B in
  let ea := nn_glue a in let eb := nn_glue b in
  let r := (ea + eb) mod ed_p in
  let q := (ea + eb - r) / ed_p in
  let u0 := ofZ (znth 0 a 0 + znth 0 b 0 + nn_m 0 * nn_limb q 0 - nn_limb r 0) : F in
  na_write c a b q (fval u0 / 2 ^ 66) r 2 row T.
(** subtraction.hpp:237-350 generate_assignments. *)
Definition ns_assign (c : comp) (A B : list var) (row : Z) (T : table) : table :=
  let a := nn_vals T A in let b := nn_vals T B in
  let ea := nn_glue a in let eb := nn_glue b in
  let r := (ea - eb) mod ed_p in
  let q := (ea + ed_p - eb - r) / ed_p in
  let u0 := ofZ (znth 0 a 0 + nn_limb ed_p 0 - znth 0 b 0 + nn_m 0 * nn_limb q 0 - nn_limb r 0) : F in
  na_write c a b q (fval u0 / 2 ^ 66) r 4 row T.

(** calculate (addition.hpp:165-225 and the like) and
    generate_empty_assignments (348-381): the limbs of the result in the first
    row. *)
Definition nn_empty (r : Z) (c : comp) (row : Z) (T : table) : table :=
  wsets T (map (fun i => (W c i, row, ofZ (nn_limb r i))) (zseq 0 4)).
Definition na_empty (c : comp) (A B : list var) (row : Z) (T : table) : table :=
  nn_empty ((nn_glue (nn_vals T A) + nn_glue (nn_vals T B)) mod ed_p) c row T.
Definition ns_empty (c : comp) (A B : list var) (row : Z) (T : table) : table :=
  nn_empty ((nn_glue (nn_vals T A) - nn_glue (nn_vals T B)) mod ed_p) c row T.
Definition nm_empty (c : comp) (A B : list var) (row : Z) (T : table) : table :=
  nn_empty ((nn_glue (nn_vals T A) * nn_glue (nn_vals T B)) mod ed_p) c row T.
(** The result of the empty assignment (addition.hpp:137-142). *)
Definition nn_empty_out (c : comp) (row : Z) : list var := map (fun i => wcell (W c i) row) (zseq 0 4).

(** ** multiplication.hpp *)

Section MulGate.
Local Open Scope E_scope.
(** multiplication.hpp:445-516 generate_gates. *)
Definition nm_gate (c : comp) : list (expr P) :=
  let u i := #(wv (W c i) (-1)) in let w i := #(wv (W c i) 0) in let n i := #(wv (W c i) 1) in
  let p i := $(nn_m i) in
  let t0 := u 0%Z * u 4%Z + p 0%Z * u 8%Z in
  let t1 := u 1%Z * u 4%Z + u 0%Z * u 5%Z + p 0%Z * w 0%Z + p 1%Z * u 8%Z in
  let t2 := u 2%Z * u 4%Z + u 0%Z * u 6%Z + u 1%Z * u 5%Z + p 2%Z * u 8%Z + w 1%Z * p 0%Z + p 1%Z * w 0%Z in
  let t3 := u 3%Z * u 4%Z + u 7%Z * u 0%Z + u 1%Z * u 6%Z + u 5%Z * u 2%Z + p 3%Z * u 8%Z + w 2%Z * p 0%Z
            + p 1%Z * w 1%Z + w 0%Z * p 2%Z in
  [ w 7%Z * $(2 ^ 132) - (t0 - w 3%Z + t1 * $(2 ^ 66) - w 4%Z * $(2 ^ 66));
    w 8%Z * $(2 ^ 125) - (t2 - w 5%Z + t3 * $(2 ^ 66) - w 6%Z * $(2 ^ 66) + w 7%Z);
    w 7%Z - (n 0%Z + n 1%Z * $(2 ^ 22) + n 2%Z * $(2 ^ 44) + n 3%Z * $(2 ^ 66));
    w 8%Z - (n 4%Z + n 5%Z * $(2 ^ 22) + n 6%Z * $(2 ^ 44) + n 7%Z * $(2 ^ 66));
    nn_glue_e (u 0%Z) (u 1%Z) (u 2%Z) (u 3%Z) * nn_glue_e (u 4%Z) (u 5%Z) (u 6%Z) (u 7%Z)
    - (nn_glue_e (u 8%Z) (w 0%Z) (w 1%Z) (w 2%Z) * $ed_p + nn_glue_e (w 3%Z) (w 4%Z) (w 5%Z) (w 6%Z)) ].
End MulGate.
(** multiplication.hpp:518-540 generate_copy_constraints. *)
Definition nm_copies (c : comp) (A B : list var) (row : Z) : list cmd :=
  map (fun i => Copy (wcell (W c i) (row + 4)) (nv A i)) (zseq 0 4) ++
  map (fun i => Copy (wcell (W c (i + 4)) (row + 4)) (nv B i)) (zseq 0 4).
(** multiplication.hpp:569-577: the limbs of the quotient and of the result;
    131-136 result_type ([rows_amount] is 7). *)
Definition nm_q (c : comp) (row : Z) : list var :=
  [wcell (W c 8) (row + 4); wcell (W c 0) (row + 5); wcell (W c 1) (row + 5); wcell (W c 2) (row + 5)].
Definition nm_out (c : comp) (row : Z) : list var := map (fun i => wcell (W c i) (row + 5)) (zseq 3 7).
(** multiplication.hpp:542-582 generate_circuit. *)
Definition nm_circuit (c : comp) (A B : list var) (row : Z) : list cmd :=
  Gate (nm_gate c) [row + 5] :: nm_copies c A B row ++
  rg_circuit c (nm_q c row) row ++ rg_circuit c (nm_out c row) (row + 2).
(** multiplication.hpp:258-408 generate_assignments. *)
Definition nm_assign (c : comp) (A B : list var) (row : Z) (T : table) : table :=
  let a := nn_vals T A in let b := nn_vals T B in
  let ea := nn_glue a in let eb := nn_glue b in
  let r := (ea * eb) mod ed_p in
  let q := (ea * eb - r) / ed_p in
  let a_ i := znth 0 a i in let b_ i := znth 0 b i in let q_ := nn_limb q in let r_ := nn_limb r in let p := nn_m in
  let t0 := a_ 0 * b_ 0 + p 0 * q_ 0 in
  let t1 := a_ 1 * b_ 0 + a_ 0 * b_ 1 + p 0 * q_ 1 + p 1 * q_ 0 in
  let t2 := a_ 2 * b_ 0 + a_ 0 * b_ 2 + a_ 1 * b_ 1 + p 2 * q_ 0 + q_ 2 * p 0 + p 1 * q_ 1 in
  let t3 := a_ 3 * b_ 0 + b_ 3 * a_ 0 + a_ 1 * b_ 2 + b_ 1 * a_ 2 + p 3 * q_ 0 + q_ 3 * p 0 + p 1 * q_ 2 + q_ 1 * p 2 in
  let u0 := fval (ofZ (t0 - r_ 0 + t1 * 2 ^ 66 - r_ 1 * 2 ^ 66) : F) / 2 ^ 132 in
  let u1 := fval (ofZ (t2 - r_ 2 + t3 * 2 ^ 66 - r_ 3 * 2 ^ 66 + u0) : F) / 2 ^ 125 in
  let z x := ofZ x : F in
  let T1 := wsets T
   [(W c 0, row + 4, z (a_ 0)); (W c 1, row + 4, z (a_ 1)); (W c 2, row + 4, z (a_ 2)); (W c 3, row + 4, z (a_ 3));
    (W c 4, row + 4, z (b_ 0)); (W c 5, row + 4, z (b_ 1)); (W c 6, row + 4, z (b_ 2)); (W c 7, row + 4, z (b_ 3));
    (W c 8, row + 4, z (q_ 0)); (W c 0, row + 5, z (q_ 1)); (W c 1, row + 5, z (q_ 2)); (W c 2, row + 5, z (q_ 3));
    (W c 3, row + 5, z (r_ 0)); (W c 4, row + 5, z (r_ 1)); (W c 5, row + 5, z (r_ 2)); (W c 6, row + 5, z (r_ 3));
    (W c 7, row + 5, z u0); (W c 8, row + 5, z u1);
    (W c 0, row + 6, z (u0 mod 2 ^ 22)); (W c 1, row + 6, z ((u0 / 2 ^ 22) mod 2 ^ 22));
    (W c 2, row + 6, z ((u0 / 2 ^ 44) mod 2 ^ 22)); (W c 3, row + 6, z ((u0 / 2 ^ 66) mod 2 ^ 4));
    (W c 4, row + 6, z (u1 mod 2 ^ 22)); (W c 5, row + 6, z ((u1 / 2 ^ 22) mod 2 ^ 22));
    (W c 6, row + 6, z ((u1 / 2 ^ 44) mod 2 ^ 22)); (W c 7, row + 6, z ((u1 / 2 ^ 66) mod 2 ^ 9))] in
  rg_assign c (nm_out c row) (row + 2) (rg_assign c (nm_q c row) row T1).

End Model.
Arguments nn_vals {P}. Arguments rg_sum {P}. Arguments rg_gate {P}. Arguments rg_copies {P}. Arguments rg_circuit {P}.
Arguments rg_xi {P}. Arguments rg_assign {P}. Arguments nn_glue_e {P}. Arguments nn_carry {P}. Arguments na_gate {P}.
Arguments ns_gate {P}. Arguments na_copies {P}. Arguments na_circuit_of {P}. Arguments na_circuit {P}. Arguments ns_circuit {P}.
Arguments na_write {P}. Arguments na_assign {P}. Arguments ns_assign {P}. Arguments nn_empty {P}. Arguments na_empty {P}.
Arguments ns_empty {P}. Arguments nm_empty {P}. Arguments nm_gate {P}. Arguments nm_copies {P}. Arguments nm_circuit {P}.
Arguments nm_assign {P}.
