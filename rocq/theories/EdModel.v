(** Ed25519 points on a native field.

    Source: include/nil/blueprint/components/algebra/curves/edwards/plonk/
    non_native/ complete_addition.hpp, doubling.hpp,
    bool_scalar_multiplication.hpp, variable_base_multiplication_per_bit.hpp,
    variable_base_multiplication.hpp.

    A point is two four-limb elements.  The sum of two affine points is
    computed by crypto3 (not in the repository); [ed_add] stands for it. *)
From Coq Require Import ZArith List Lia Bool.
From Verif Require Import Base Field Plonk Bits NonNativeModel BitModel Ed25519.
Import ListNotations.
Open Scope Z_scope.

Section Model.
Variable P : params.
Notation F := (F P).
Notation table := (table P).
Notation cmd := (cmd P).

(** var(component.W(i), row, false), i < 4. *)
Definition own (c : comp) (row : Z) : list var := map (fun i => wcell (W c i) row) (zseq 0 4).
(** complete_addition.hpp:251-268, doubling.hpp:240-249: a point from its
    limbs. *)
Definition pt_val (T : table) (X Y : list var) : ed_point := (ofZ (nn_glue_z (nn_vals T X)), ofZ (nn_glue_z (nn_vals T Y))).
(** complete_addition.hpp:283-309: the limbs of a coordinate in the first four
    cells of a row, and the range component on them. *)
Definition put_range (c : comp) (v : Z) (row : Z) (T : table) : table := rg_assign c (own c row) row (nn_empty v c row T).

(** ** complete_addition.hpp *)

(** 357-364, 494-501: the limbs of [d] in the constant column. *)
Definition d_vars (c : comp) (row : Z) : list var := map (fun i => ccell (C c 0) (row + i)) (zseq 4 8).
(** 140-153 result_type: [own c row] and [own c (row + 2)]. *)
(** 534-567 generate_copy_constraints; rows_amount is 76. *)
Definition ca_copies (c : comp) (row : Z) : list cmd :=
  map (fun i => Copy (wcell (W c i) (row + 32 + 2)) (wcell (W c i) (row + 76 - 4 - 2))) (zseq 0 4) ++
  map (fun i => Copy (wcell (W c i) (row + 36 + 2)) (wcell (W c i) (row + 76 - 2))) (zseq 0 4).
(** 569-614 generate_constants. *)
Definition ca_consts (c : comp) (row : Z) : list cmd :=
  [SetConst (C c 0) (row + 47 + 4) (ofZ (ed_d mod 2 ^ 66)); SetConst (C c 0) (row + 47 + 5) (ofZ ((ed_d / 2 ^ 66) mod 2 ^ 66));
   SetConst (C c 0) (row + 47 + 6) (ofZ ((ed_d / 2 ^ 132) mod 2 ^ 66)); SetConst (C c 0) (row + 47 + 7) (ofZ ((ed_d / 2 ^ 198) mod 2 ^ 66))].
(** 393-531 generate_circuit. *)
Definition ca_circuit (c : comp) (Tx Ty Rx Ry : list var) (row : Z) : list cmd :=
  let Px := own c row in let Py := own c (row + 2) in
  let t0 := nm_out c (row + 4) in let t1 := nm_out c (row + 11) in
  let t2 := nm_out c (row + 18) in let t3 := nm_out c (row + 25) in
  let z2 := nm_out c (row + 40) in let k0 := nm_out c (row + 47) in
  let k1 := nm_out c (row + 54) in let k2 := nm_out c (row + 61) in
  rg_circuit c Px row ++ rg_circuit c Py (row + 2) ++
  nm_circuit c Tx Ry (row + 4) ++ nm_circuit c Ty Rx (row + 11) ++
  nm_circuit c Tx Rx (row + 18) ++ nm_circuit c Ty Ry (row + 25) ++
  na_circuit c t0 t1 (row + 32) ++ na_circuit c t2 t3 (row + 36) ++
  nm_circuit c t0 t1 (row + 40) ++ nm_circuit c (d_vars c (row + 47)) z2 (row + 47) ++
  nm_circuit c Px k0 (row + 54) ++ nm_circuit c Py k0 (row + 61) ++
  na_circuit c Px k1 (row + 68) ++ ns_circuit c Py k2 (row + 72) ++
  ca_consts c row ++ ca_copies c row.
(** 282-390: what follows the choice of P. *)
Definition ca_write (c : comp) (Tx Ty Rx Ry : list var) (px py : Z) (row : Z) (T : table) : table :=
  let Px := own c row in let Py := own c (row + 2) in
  let t0 := nm_out c (row + 4) in let t1 := nm_out c (row + 11) in
  let t2 := nm_out c (row + 18) in let t3 := nm_out c (row + 25) in
  let z2 := nm_out c (row + 40) in let k0 := nm_out c (row + 47) in
  let k1 := nm_out c (row + 54) in let k2 := nm_out c (row + 61) in
  let T := put_range c px row T in
  let T := put_range c py (row + 2) T in
  let T := nm_assign c Tx Ry (row + 4) T in
  let T := nm_assign c Ty Rx (row + 11) T in
  let T := nm_assign c Tx Rx (row + 18) T in
  let T := nm_assign c Ty Ry (row + 25) T in
  let T := na_assign c t0 t1 (row + 32) T in
  let T := na_assign c t2 t3 (row + 36) T in
  let T := nm_assign c t0 t1 (row + 40) T in
  let T := nm_assign c (d_vars c (row + 47)) z2 (row + 47) T in
  let T := nm_assign c Px k0 (row + 54) T in
  let T := nm_assign c Py k0 (row + 61) T in
  let T := na_assign c Px k1 (row + 68) T in
  ns_assign c Py k2 (row + 72) T.
(** 181-391 generate_assignments.  Setting P.Y, T.Y and R.Y to 1 when the point
    is zero (273-281) changes nothing for the zero point (0, 1), and T and R are
    not used after it. *)
Definition ca_assign (c : comp) (Tx Ty Rx Ry : list var) (row : Z) (T : table) : table :=
  let p := ed_add (pt_val T Tx Ty) (pt_val T Rx Ry) in ca_write c Tx Ty Rx Ry (fval (fst p)) (fval (snd p)) row T.

(** ** doubling.hpp *)

(** 480-520 generate_copy_constraints: t7 with t4, and columns 3 to 6 of t5 and
    t10. *)
Definition db_copies (c : comp) (row : Z) : list cmd :=
  map (fun i => Copy (wcell (W c (3 + i)) (row + 41 + 5)) (wcell (W c i) (row + 29 + 2))) (zseq 0 4) ++
  map (fun i => Copy (wcell (W c (3 + i)) (row + 33 + 2)) (wcell (W c (3 + i)) (row + 59 + 2))) (zseq 0 4).
(** 351-478 generate_circuit; rows_amount is 63. *)
Definition db_circuit (c : comp) (Tx Ty : list var) (row : Z) : list cmd :=
  let Px := own c row in let Py := own c (row + 2) in
  let t0 := nm_out c (row + 4) in let t1 := nm_out c (row + 11) in let t2 := nm_out c (row + 18) in
  let t3 := na_out c (row + 25) in let t6 := na_out c (row + 37) in
  let t8 := na_out c (row + 48) in let t9 := nm_out c (row + 52) in
  rg_circuit c Px row ++ rg_circuit c Py (row + 2) ++
  nm_circuit c Ty Ty (row + 4) ++ nm_circuit c Tx Tx (row + 11) ++ nm_circuit c Tx Ty (row + 18) ++
  ns_circuit c t0 t1 (row + 25) ++ na_circuit c t2 t2 (row + 29) ++ na_circuit c t1 t0 (row + 33) ++
  ns_circuit c t1 t0 (row + 37) ++ nm_circuit c Px t3 (row + 41) ++ na_circuit c Py Py (row + 48) ++
  nm_circuit c Py t6 (row + 52) ++ na_circuit c t8 t9 (row + 59) ++ db_copies c row.
(** 281-348: what follows the choice of P. *)
Definition db_write (c : comp) (Tx Ty : list var) (px py : Z) (row : Z) (T : table) : table :=
  let Px := own c row in let Py := own c (row + 2) in
  let t0 := nm_out c (row + 4) in let t1 := nm_out c (row + 11) in let t2 := nm_out c (row + 18) in
  let t3 := na_out c (row + 25) in let t6 := na_out c (row + 37) in
  let t8 := na_out c (row + 48) in let t9 := nm_out c (row + 52) in
  let T := put_range c px row T in
  let T := put_range c py (row + 2) T in
  let T := nm_assign c Ty Ty (row + 4) T in
  let T := nm_assign c Tx Tx (row + 11) T in
  let T := nm_assign c Tx Ty (row + 18) T in
  let T := ns_assign c t0 t1 (row + 25) T in
  let T := na_assign c t2 t2 (row + 29) T in
  let T := na_assign c t1 t0 (row + 33) T in
  let T := ns_assign c t1 t0 (row + 37) T in
  let T := nm_assign c Px t3 (row + 41) T in
  let T := na_assign c Py Py (row + 48) T in
  let T := nm_assign c Py t6 (row + 52) T in
  na_assign c t8 t9 (row + 59) T.
(** 178-347 generate_assignments. *)
Definition db_assign (c : comp) (Tx Ty : list var) (row : Z) (T : table) : table :=
  let p := ed_add (pt_val T Tx Ty) (pt_val T Tx Ty) in db_write c Tx Ty (fval (fst p)) (fval (snd p)) row T.

(** ** bool_scalar_multiplication.hpp *)

Section BoolGate.
Local Open Scope E_scope.
(** 198-234 generate_gates. *)
Definition bs_gate (c : comp) : list (expr P) :=
  let w i := #(wv (W c i) 0) in let n i := #(wv (W c i) 1) in
  [ w 4%Z * (w 4%Z - $1);
    w 4%Z - n 4%Z;
    w 5%Z - (w 0%Z * w 4%Z + ($1 - w 4%Z));
    w 6%Z - w 1%Z * w 4%Z;
    w 7%Z - w 2%Z * w 4%Z;
    w 8%Z - w 3%Z * w 4%Z;
    n 5%Z - n 0%Z * n 4%Z;
    n 6%Z - n 1%Z * n 4%Z;
    n 7%Z - n 2%Z * n 4%Z;
    n 8%Z - n 3%Z * n 4%Z ].
End BoolGate.
(** 236-259 generate_copy_constraints. *)
Definition bs_copies (c : comp) (Tx Ty : list var) (k : var) (row : Z) : list cmd :=
  map (fun i => Copy (wcell (W c i) (row + 1)) (nv Tx i)) (zseq 0 4) ++ [Copy (wcell (W c 4) (row + 1)) k] ++
  map (fun i => Copy (wcell (W c i) row) (nv Ty i)) (zseq 0 4) ++ [Copy (wcell (W c 4) row) k].
(** 261-280 generate_circuit. *)
Definition bs_circuit (c : comp) (Tx Ty : list var) (k : var) (row : Z) : list cmd :=
  Gate (bs_gate c) [row] :: bs_copies c Tx Ty k row.
(** 113-124 result_type. *)
Definition bs_x (c : comp) (row : Z) : list var := map (fun i => wcell (W c i) (row + 1)) (zseq 5 9).
Definition bs_y (c : comp) (row : Z) : list var := map (fun i => wcell (W c i) row) (zseq 5 9).
(** 158-196 generate_assignments. *)
Definition bs_assign (c : comp) (Tx Ty : list var) (k : var) (row : Z) (T : table) : table :=
  let x i := vval T (nv Tx i) in let y i := vval T (nv Ty i) in
  let b := vval T k in
  wsets T
   [(W c 0, row, y 0); (W c 1, row, y 1); (W c 2, row, y 2); (W c 3, row, y 3); (W c 4, row, b);
    (W c 5, row, fadd (fmul b (y 0)) (fsub f1 b)); (W c 6, row, fmul b (y 1)); (W c 7, row, fmul b (y 2)); (W c 8, row, fmul b (y 3));
    (W c 0, row + 1, x 0); (W c 1, row + 1, x 1); (W c 2, row + 1, x 2); (W c 3, row + 1, x 3); (W c 4, row + 1, b);
    (W c 5, row + 1, fmul b (x 0)); (W c 6, row + 1, fmul b (x 1)); (W c 7, row + 1, fmul b (x 2)); (W c 8, row + 1, fmul b (x 3))].

(** ** variable_base_multiplication_per_bit.hpp *)

(** 145-163 result_type: the output of the addition of a component on columns
    0 to 8, whatever the columns of this one. *)
Definition pb_x (row : Z) : list var := own (mkComp [0; 1; 2; 3; 4; 5; 6; 7; 8] [0] []) (row + 141 - 76).
Definition pb_y (row : Z) : list var := own (mkComp [0; 1; 2; 3; 4; 5; 6; 7; 8] [0] []) (row + 141 - 76 + 2).
(** 258-319 generate_circuit; rows_amount is 141. *)
Definition pb_circuit (c : comp) (Tx Ty Rx Ry : list var) (k : var) (row : Z) : list cmd :=
  bs_circuit c Tx Ty k row ++ db_circuit c Rx Ry (row + 2) ++
  ca_circuit c (own c (row + 2)) (own c (row + 4)) (bs_x c row) (bs_y c row) (row + 65).
(** 196-256 generate_assignments. *)
Definition pb_assign (c : comp) (Tx Ty Rx Ry : list var) (k : var) (row : Z) (T : table) : table :=
  ca_assign c (own c (row + 2)) (own c (row + 4)) (bs_x c row) (bs_y c row) (row + 65)
    (db_assign c Rx Ry (row + 2) (bs_assign c Tx Ty k row T)).

(** ** variable_base_multiplication.hpp *)

(** 295-307, 246-258: the loop over the bits after the first. *)
Fixpoint vb_steps (c : comp) (Tx Ty : list var) (bits : list var) (Rx Ry : list var) (row : Z) : list cmd :=
  match bits with
  | [] => []
  | b :: bits => pb_circuit c Tx Ty Rx Ry b row ++ vb_steps c Tx Ty bits (pb_x row) (pb_y row) (row + 141)
  end.
Fixpoint vb_steps_assign (c : comp) (Tx Ty : list var) (bits : list var) (Rx Ry : list var) (row : Z) (T : table) : table :=
  match bits with
  | [] => T
  | b :: bits => vb_steps_assign c Tx Ty bits (pb_x row) (pb_y row) (row + 141) (pb_assign c Tx Ty Rx Ry b row T)
  end.
(** The outputs of the decomposition, of [n] = bits_amount bits in the order
    [msb] (190-213 constructors, 74-76 subcomponent); the rows after it. *)
Definition vb_bit (c : comp) (n : Z) (msb : bool) (row i : Z) : var := bd_result c n msb row i.
Definition vb_row0 (n row : Z) : Z := row + bb_rows 9 n true.
(** 263-310 generate_circuit: the loop runs over the outputs 0 to 252 whatever
    bits_amount is. *)
Definition vb_circuit (c : comp) (n : Z) (msb : bool) (Tx Ty : list var) (k : var) (row : Z) : list cmd :=
  let r0 := vb_row0 n row in
  bd_circuit c n k row ++ bs_circuit c Tx Ty (vb_bit c n msb row 0) r0 ++
  vb_steps c Tx Ty (map (vb_bit c n msb row) (zseq 1 253)) (bs_x c r0) (bs_y c r0) (r0 + 2).
(** 215-261 generate_assignments. *)
Definition vb_assign (c : comp) (n : Z) (msb : bool) (Tx Ty : list var) (k : var) (row : Z) (T : table) : table :=
  let r0 := vb_row0 n row in
  vb_steps_assign c Tx Ty (map (vb_bit c n msb row) (zseq 1 253)) (bs_x c r0) (bs_y c r0) (r0 + 2)
    (bs_assign c Tx Ty (vb_bit c n msb row 0) r0 (bd_assign c n k row T)).
(** 54-61 rows_amount; 148-168 result_type. *)
Definition vb_rows (n : Z) : Z := bb_rows 9 n true + 252 * 141 + 2.
Definition vb_x (n row : Z) : list var := pb_x (row + vb_rows n - 141).
Definition vb_y (n row : Z) : list var := pb_y (row + vb_rows n - 141).

End Model.
Arguments pt_val {P}. Arguments put_range {P}. Arguments ca_copies {P}. Arguments ca_consts {P}. Arguments ca_circuit {P}. Arguments ca_write {P}. Arguments ca_assign {P}.
Arguments db_copies {P}. Arguments db_circuit {P}. Arguments db_write {P}. Arguments db_assign {P}. Arguments bs_gate {P}. Arguments bs_copies {P}.
Arguments bs_circuit {P}. Arguments bs_assign {P}. Arguments pb_circuit {P}. Arguments pb_assign {P}. Arguments vb_steps {P}.
Arguments vb_steps_assign {P}. Arguments vb_circuit {P}. Arguments vb_assign {P}.
