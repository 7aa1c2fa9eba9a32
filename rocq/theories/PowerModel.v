(** Models of exponentiation.hpp and sqrt.hpp
    (include/nil/blueprint/components/algebra/fields/plonk/). *)
From Coq Require Import ZArith List Lia Bool.
From Verif Require Import Base Field Plonk Bits FieldOpsModel.
Import ListNotations.
Open Scope Z_scope.

(** exponentiation.hpp:73-94 and 126-138 for the only witness amount the
    manifest allows, 15 (114-120): 4 intermediate results and 8 bits per row. *)
Definition exp_main (size : Z) : Z := (size + 8 - 1) / 8.
Definition exp_padded (size : Z) : Z := exp_main size * 8.
Definition exp_rows (size : Z) : Z := exp_main size + 1.
(** Column of bit [b] of intermediate result [j] (244, 290). *)
Definition exp_bitcol (j b : Z) : Z := 14 - j * 2 - b.

Section Model.
Variable P : params.
Notation F := (F P).
Notation table := (table P).
Notation cmd := (cmd P).

Section Exprs.
Local Open Scope E_scope.
Variable c : comp.
Definition exp_bit (j b : Z) : expr P := #(wv (W c (exp_bitcol j b)) 0).
(** exponentiation.hpp:285-287. *)
Definition exp_prev (j : Z) : expr P :=
  if j =? 0 then #(wv (W c (2 + 4 - 1)) (-1)) else #(wv (W c (2 + j - 1)) 0).
(** exponentiation.hpp:289-305, one bit column. *)
Definition exp_step (j b : Z) (ic : expr P) : expr P :=
  ic * ic * (#(wv (W c 0) 0) * exp_bit j b + ($1 - exp_bit j b)).
Definition exp_inter (j : Z) : expr P :=
  fold_left (fun ic b => exp_step j b ic) (zseq 0 2) (exp_prev j) - #(wv (W c (2 + j)) 0).
(** exponentiation.hpp:297-301: the running sum of the bits of the row. *)
Definition exp_sum : expr P :=
  fold_left (fun acc jb => $2 * acc + exp_bit (fst jb) (snd jb))
    (tl (flat_map (fun j => map (fun b => (j, b)) (zseq 0 2)) (zseq 0 4))) (exp_bit 0 0).
(** exponentiation.hpp:269-316 generate_gates. *)
Definition exp_gate : list (expr P) :=
  flat_map (fun j => map (fun b => exp_bit j b * ($1 - exp_bit j b)) (zseq 0 2) ++ [exp_inter j]) (zseq 0 4) ++
  [exp_sum + $(2 ^ 8) * #(wv (W c 1) (-1)) - #(wv (W c 1) 0)].
End Exprs.

(** exponentiation.hpp:318-341 generate_copy_constraints: the constants are
    looked up in the constant column numbered [W(0)], not [C(0)]. *)
Definition exp_copies (c : comp) (size : Z) (base ex : var) (row : Z) : list cmd :=
  map (fun r => Copy (wcell (W c 0) r) base) (zseq (row + 1) (row + exp_rows size)) ++
  [Copy (wcell (W c 1) row) (ccell (W c 0) row);
   Copy (wcell (W c (2 + 4 - 1)) row) (ccell (W c 0) (row + 1));
   Copy (wcell (W c 1) (row + exp_rows size - 1)) ex].

(** exponentiation.hpp:182-199 generate_circuit, constants 343-356. *)
Definition exp_circuit (c : comp) (size : Z) (base ex : var) (row : Z) : list cmd :=
  Gate (exp_gate c) (zseq (row + 1) (row + 1 + exp_main size)) ::
  exp_copies c size base ex row ++
  [SetConst (C c 0) row f0; SetConst (C c 0) (row + 1) f1].

(** exponentiation.hpp:212-226: big-endian bits of the exponent in
    [padded_exponent_size] places.  The loop at 223-225 writes before the start
    of the vector when the exponent is longer than that. *)
Definition exp_fits (size e : Z) : bool := e <? 2 ^ exp_padded size.
Definition exp_bits (size e k : Z) : bool := Z.testbit e (exp_padded size - 1 - k).
Definition bitF (b : bool) : F := if b then f1 else f0.
(** exponentiation.hpp:251-254: [acc1] after [t] bits. *)
Definition exp_acc (bits : Z -> bool) (base : F) (t : Z) : F :=
  fold_left (fun a k => let a := fmul a a in if bits k then fmul a base else a) (zseq 0 t) f1.
(** exponentiation.hpp:241, 249, 258-259: [accumulated_n] after [t]
    intermediate results. *)
Definition exp_n (bits : Z -> bool) (t : Z) : F :=
  fold_left (fun n k => fadd (fmul n (ofZ 4))
    (fadd (fmul (ofZ 2) (fadd (fmul (ofZ 2) f0) (bitF (bits (2 * k))))) (bitF (bits (2 * k + 1))))) (zseq 0 t) f0.
(** exponentiation.hpp:228-264.  The initial one goes to the witness column
    numbered 5, not to [W(5)] (233). *)
Definition exp_writes (c : comp) (size : Z) (base : F) (e row : Z) : list (Z * Z * F) :=
  let bits := exp_bits size e in
  (W c 1, row, f0) :: (2 + 4 - 1, row, f1) ::
  flat_map (fun i =>
    (W c 0, row + 1 + i, base) ::
    flat_map (fun j =>
      map (fun b => (W c (exp_bitcol j b), row + 1 + i, bitF (bits (i * 8 + j * 2 + b)))) (zseq 0 2) ++
      [(W c (2 + j), row + 1 + i, exp_acc bits base (i * 8 + j * 2 + 2))]) (zseq 0 4) ++
    [(W c 1, row + 1 + i, exp_n bits (i * 4 + 4))]) (zseq 0 (exp_main size)).
(** exponentiation.hpp:201-267 generate_assignments; [None]: out-of-bounds
    write. *)
Definition exp_assign (c : comp) (size : Z) (base ex : var) (row : Z) (T : table) : option table :=
  let e := fval (vval T ex) in
  if exp_fits size e then Some (wsets T (exp_writes c size (vval T base) e row)) else None.
(** exponentiation.hpp:149-155 result_type. *)
Definition exp_out (c : comp) (size row : Z) : var := wcell (W c (2 + 4 - 1)) (row + exp_rows size - 1).
(** ** sqrt.hpp *)

(** The arithmetic instances used by sqrt (sqrt.hpp:221, 227, 232). *)
Inductive aop := AAdd | ASub | AMul.
Definition aop_circuit (k : aop) (c : comp) (x y : var) (row : Z) : list cmd :=
  match k with
  | AAdd => addition_circuit c x y row
  | ASub => subtraction_circuit c x y row
  | AMul => multiplication_circuit c x y row
  end.
Definition aop_assign (k : aop) (c : comp) (x y : var) (row : Z) (T : table) : table :=
  match k with
  | AAdd => addition_assign c x y row T
  | ASub => subtraction_assign c x y row T
  | AMul => multiplication_assign c x y row T
  end.
(** Consecutive instances, one row each. *)
Fixpoint ops_circuit (c : comp) (ops : list (aop * var * var)) (row : Z) : list cmd :=
  match ops with
  | [] => []
  | (k, x, y) :: ops => aop_circuit k c x y row ++ ops_circuit c ops (row + 1)
  end.
Fixpoint ops_assign (c : comp) (ops : list (aop * var * var)) (row : Z) (T : table) : table :=
  match ops with
  | [] => T
  | (k, x, y) :: ops => ops_assign c ops (row + 1) (aop_assign k c x y row T)
  end.

(** sqrt.hpp:209-217 and 221: the columns handed to the sub-components. *)
Definition sqrt_ecomp (c : comp) : comp := mkComp (map (W c) (zseq 0 15)) [C c 0] [].
Definition sqrt_acomp (c : comp) : comp := mkComp [W c 0; W c 1; W c 2] [] [].
(** sqrt.hpp:59-92 rows(): 3 + 33 + 13. *)
Definition sqrt_rows : Z := 3 + exp_rows 256 + 13.
Definition sqrt_r0 (row : Z) : Z := row + 3 + exp_rows 256.
(** sqrt.hpp:219-263 (circuit) and 307-359 (assignments): the thirteen
    arithmetic steps.  [x] is the variable the root is read from. *)
Definition sqrt_ops (c : comp) (y x q one : var) (r : Z) : list (aop * var * var) :=
  let res i := wcell (W c 2) (r + i) in
  [ (AMul, x, x);
    (AAdd, q, one); (ASub, y, res 0); (AMul, q, res 1); (AMul, res 3, res 2);
    (ASub, one, q); (AAdd, x, one); (AMul, q, res 5); (AMul, res 7, res 6);
    (AMul, res 5, res 1); (AMul, res 9, res 0);
    (AAdd, res 4, res 8); (AAdd, res 11, res 10) ].
(** sqrt.hpp:202-204: constants are looked up in constant column 0. *)
Definition sqrt_exp (row : Z) : var := ccell 0 row.
Definition sqrt_zero (row : Z) : var := ccell 0 (row + 1).
Definition sqrt_one (row : Z) : var := ccell 0 (row + 2).
Definition sqrt_q (c : comp) (row : Z) : var := exp_out (sqrt_ecomp c) 256 (row + 3).
(** sqrt.hpp:183-272 generate_circuit, copies 364-381, constants 383-401. *)
Definition sqrt_circuit (c : comp) (y : var) (row : Z) : list cmd :=
  exp_circuit (sqrt_ecomp c) 256 y (sqrt_exp row) (row + 3) ++
  ops_circuit (sqrt_acomp c)
    (sqrt_ops c y (wcell (W c 0) (sqrt_r0 row)) (sqrt_q c row) (sqrt_one row) (sqrt_r0 row)) (sqrt_r0 row) ++
  [Copy (sqrt_zero row) (wcell (W c 2) (row + sqrt_rows - 1));
   SetConst (C c 0) row (ofZ ((char P - 1) / 2)); SetConst (C c 0) (row + 1) f0; SetConst (C c 0) (row + 2) f1].
(** sqrt.hpp:274-362 generate_assignments; [fsqrt] is the field's [sqrt()];
    [None]: an assertion fails or exponentiation writes out of bounds.  The root
    is read back from the witness column numbered 0, not [W(0)]. *)
Definition sqrt_assign (fsqrt : F -> F) (c : comp) (y : var) (row : Z) (T : table) : option table :=
  match exp_assign (sqrt_ecomp c) 256 y (sqrt_exp row) (row + 3) T with
  | None => None
  | Some T1 =>
    let q := vval T1 (sqrt_q c row) in
    let r := sqrt_r0 row in
    match (if feqb q f0 || feqb q f1 then Some (fsqrt (vval T1 y))
           else if feqb q (fopp f1) then Some (fopp f1) else None) with
    | None => None
    | Some x => Some (ops_assign (sqrt_acomp c) (sqrt_ops c y (wcell 0 r) (sqrt_q c row) (sqrt_one row) r) r
                        (wset T1 (W c 0) r x))
    end
  end.
(** sqrt.hpp:148-159 result_type. *)
Definition sqrt_out (c : comp) (row : Z) : var := wcell (W c 0) (sqrt_r0 row).
End Model.
Arguments exp_bit {P}. Arguments exp_prev {P}. Arguments exp_step {P}. Arguments exp_inter {P}. Arguments exp_sum {P}.
Arguments exp_gate {P}. Arguments exp_copies {P}. Arguments exp_circuit {P}. Arguments exp_acc {P}. Arguments exp_n {P}.
Arguments exp_writes {P}. Arguments exp_assign {P}. Arguments bitF {P}.
Arguments aop_circuit {P}. Arguments aop_assign {P}. Arguments ops_circuit {P}. Arguments ops_assign {P}.
Arguments sqrt_circuit {P}. Arguments sqrt_assign {P}.
