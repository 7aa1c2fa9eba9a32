(** Models of the native-field arithmetic components
    (include/nil/blueprint/components/algebra/fields/plonk/). *)
Require Import ZArith List Lia Bool.
From Verif Require Import Base Field Plonk.
Import ListNotations.
Open Scope Z_scope.

Section Model.
Variable P : params.
Notation F := (F P).
Notation table := (table P).
Notation cmd := (cmd P).

Local Open Scope F_scope.
Local Open Scope E_scope.

(** ** addition.hpp *)

(** addition.hpp:187-201 generate_gates. *)
Definition addition_gate (c : comp) : list (expr P) :=
  [ #(wv (W c 0) 0) + #(wv (W c 1) 0) - #(wv (W c 2) 0) ].
(** addition.hpp:203-237 generate_copy_constraints, generate_circuit. *)
Definition addition_circuit (c : comp) (x y : var) (row : Z) : list cmd :=
  [ Gate (addition_gate c) [row]; Copy x (wcell (W c 0) row); Copy (wcell (W c 1) row) y ].
(** addition.hpp:141-160 generate_assignments. *)
Definition addition_assign (c : comp) (x y : var) (row : Z) (T : table) : table :=
  let T1 := wset T (W c 0) row (vval T x) in
  let T2 := wset T1 (W c 1) row (vval T1 y) in
  wset T2 (W c 2) row (vval T2 x + vval T2 y)%F.
(** addition.hpp:162-177 generate_empty_assignments; calculate 128-131. *)
Definition addition_empty (c : comp) (x y : var) (row : Z) (T : table) : table :=
  wset T (W c 2) row (vval T x + vval T y)%F.
(** addition.hpp:104-110 result_type. *)
Definition addition_result (c : comp) (row : Z) : var := wcell (W c 2) row.

(** ** subtraction.hpp *)

(** subtraction.hpp:180-194. *)
Definition subtraction_gate (c : comp) : list (expr P) :=
  [ #(wv (W c 0) 0) - #(wv (W c 1) 0) - #(wv (W c 2) 0) ].
(** subtraction.hpp:196-233. *)
Definition subtraction_circuit (c : comp) (x y : var) (row : Z) : list cmd :=
  [ Gate (subtraction_gate c) [row]; Copy x (wcell (W c 0) row); Copy (wcell (W c 1) row) y ].
(** subtraction.hpp:144-161. *)
Definition subtraction_assign (c : comp) (x y : var) (row : Z) (T : table) : table :=
  let T1 := wset T (W c 0) row (vval T x) in
  let T2 := wset T1 (W c 1) row (vval T1 y) in
  wset T2 (W c 2) row (vval T2 x - vval T2 y)%F.
(** subtraction.hpp:163-178, calculate 133-136. *)
Definition subtraction_empty (c : comp) (x y : var) (row : Z) (T : table) : table :=
  wset T (W c 2) row (vval T x - vval T y)%F.
Definition subtraction_result (c : comp) (row : Z) : var := wcell (W c 2) row.

(** ** multiplication.hpp *)

(** multiplication.hpp:183-197. *)
Definition multiplication_gate (c : comp) : list (expr P) :=
  [ #(wv (W c 0) 0) * #(wv (W c 1) 0) - #(wv (W c 2) 0) ].
(** multiplication.hpp:199-236; the copies are skipped when the input is
    already the component's own cell (214-215). *)
Definition multiplication_circuit (c : comp) (x y : var) (row : Z) : list cmd :=
  Gate (multiplication_gate c) [row] ::
  (if var_eqb x (wcell (W c 0) row) then [] else [Copy x (wcell (W c 0) row)]) ++
  (if var_eqb y (wcell (W c 1) row) then [] else [Copy (wcell (W c 1) row) y]).
(** multiplication.hpp:145-163. *)
Definition multiplication_assign (c : comp) (x y : var) (row : Z) (T : table) : table :=
  let T1 := wset T (W c 0) row (vval T x) in
  let T2 := wset T1 (W c 1) row (vval T1 y) in
  wset T2 (W c 2) row (vval T2 x * vval T2 y)%F.
(** multiplication.hpp:165-181, calculate 134-137. *)
Definition multiplication_empty (c : comp) (x y : var) (row : Z) (T : table) : table :=
  wset T (W c 2) row (vval T x * vval T y)%F.
(** multiplication.hpp:106-110. *)
Definition multiplication_result (c : comp) (row : Z) : var := wcell (W c 2) row.

(** ** multiplication_by_constant.hpp *)

(** multiplication_by_constant.hpp:175-188: the constant is read from constant
    column number 0, whatever columns the component was given. *)
Definition mul_by_constant_gate (c : comp) : list (expr P) :=
  [ #(wv (W c 0) 0) * #(mkVar 0 0 true CConst) - #(wv (W c 1) 0) ].
(** multiplication_by_constant.hpp:190-235: the constant is written to
    [component.C(0)]. *)
Definition mul_by_constant_circuit (c : comp) (k : F) (x : var) (row : Z) : list cmd :=
  [ Gate (mul_by_constant_gate c) [row]; Copy x (wcell (W c 0) row); SetConst (C c 0) row k ].
(** multiplication_by_constant.hpp:144-159. *)
Definition mul_by_constant_assign (c : comp) (k : F) (x : var) (row : Z) (T : table) : table :=
  let T1 := wset T (W c 0) row (vval T x) in
  wset T1 (W c 1) row (k * vval T1 x)%F.
(** multiplication_by_constant.hpp:161-173. *)
Definition mul_by_constant_empty (c : comp) (k : F) (x : var) (row : Z) (T : table) : table :=
  wset T (W c 1) row (vval T x * k)%F.
(** multiplication_by_constant.hpp:105-109. *)
Definition mul_by_constant_result (c : comp) (row : Z) : var := wcell (W c 1) row.

(** ** division.hpp *)

(** division.hpp:180-194. *)
Definition division_gate (c : comp) : list (expr P) :=
  [ #(wv (W c 1) 0) * #(wv (W c 2) 0) - #(wv (W c 0) 0);
    #(wv (W c 1) 0) * #(wv (W c 3) 0) - $1 ].
(** division.hpp:196-231. *)
Definition division_circuit (c : comp) (x y : var) (row : Z) : list cmd :=
  [ Gate (division_gate c) [row]; Copy x (wcell (W c 0) row); Copy (wcell (W c 1) row) y ].
(** division.hpp:143-161. *)
Definition division_assign (c : comp) (x y : var) (row : Z) (T : table) : table :=
  let T1 := wset T (W c 0) row (vval T x) in
  let T2 := wset T1 (W c 1) row (vval T1 y) in
  let T3 := wset T2 (W c 2) row (fdiv (vval T2 x) (vval T2 y)) in
  wset T3 (W c 3) row (finv (vval T3 y)).
(** division.hpp:163-178, calculate 132-135. *)
Definition division_empty (c : comp) (x y : var) (row : Z) (T : table) : table :=
  wset T (W c 2) row (fdiv (vval T x) (vval T y)).
(** division.hpp:105-109. *)
Definition division_result (c : comp) (row : Z) : var := wcell (W c 2) row.

(** ** division_or_zero.hpp *)

(** division_or_zero.hpp:183-198. *)
Definition division_or_zero_gate (c : comp) : list (expr P) :=
  [ #(wv (W c 1) 0) * #(wv (W c 3) 0) - #(wv (W c 4) 0);
    #(wv (W c 4) 0) * (#(wv (W c 4) 0) - $1);
    (#(wv (W c 3) 0) - #(wv (W c 1) 0)) * (#(wv (W c 4) 0) - $1);
    #(wv (W c 0) 0) * #(wv (W c 3) 0) - #(wv (W c 2) 0) ].
(** division_or_zero.hpp:200-233. *)
Definition division_or_zero_circuit (c : comp) (x y : var) (row : Z) : list cmd :=
  [ Gate (division_or_zero_gate c) [row]; Copy x (wcell (W c 0) row); Copy (wcell (W c 1) row) y ].
(** division_or_zero.hpp:143-166. *)
Definition division_or_zero_assign (c : comp) (x y : var) (row : Z) (T : table) : table :=
  let T1 := wset T (W c 0) row (vval T x) in
  let T2 := wset T1 (W c 1) row (vval T1 y) in
  let T3 := wset T2 (W c 2) row
              (if feqb (vval T2 y) f0 then f0 else (vval T2 x * finv (vval T2 y))%F) in
  let T4 := wset T3 (W c 3) row (if feqb (vval T3 y) f0 then f0 else finv (vval T3 y)) in
  wset T4 (W c 4) row (vval T4 y * T4 CWit (W c 3) row)%F.
(** division_or_zero.hpp:168-181, calculate 132-135. *)
Definition division_or_zero_empty (c : comp) (x y : var) (row : Z) (T : table) : table :=
  wset T (W c 2) row (if feqb (vval T y) f0 then f0 else (vval T x * finv (vval T y))%F).
(** division_or_zero.hpp:103-107. *)
Definition division_or_zero_result (c : comp) (row : Z) : var := wcell (W c 2) row.

(** ** non_native/equality_flag.hpp *)

(** equality_flag.hpp:173-195. *)
Definition equality_flag_gate (c : comp) (ineq : bool) : list (expr P) :=
  let x := #(wv (W c 0) 0) in let y := #(wv (W c 1) 0) in
  let inv := #(wv (W c 2) 0) in let res := #(wv (W c 3) 0) in
  [ res * (res - $1);
    (x - y) * inv + (if ineq then ETerm (fopp f1) [wv (W c 3) 0] else res - $1);
    (inv - (x - y)) * (if ineq then res - $1 else res) ].
(** equality_flag.hpp:197-231. *)
Definition equality_flag_circuit (c : comp) (ineq : bool) (x y : var) (row : Z) : list cmd :=
  [ Gate (equality_flag_gate c ineq) [row]; Copy x (wcell (W c 0) row); Copy y (wcell (W c 1) row) ].
(** equality_flag.hpp:148-171. *)
Definition equality_flag_assign (c : comp) (ineq : bool) (x y : var) (row : Z) (T : table) : table :=
  let xv := vval T x in let yv := vval T y in
  let T1 := wset T (W c 0) row xv in
  let T2 := wset T1 (W c 1) row yv in
  let T3 := wset T2 (W c 2) row (if feqb xv yv then f0 else finv (xv - yv)%F) in
  wset T3 (W c 3) row
    (if (if feqb xv yv then negb ineq else ineq) then f1 else f0).
(** equality_flag.hpp:105-109. *)
Definition equality_flag_result (c : comp) (row : Z) : var := wcell (W c 3) row.

(** ** linear_interpolation.hpp *)

(** linear_interpolation.hpp:164-183. *)
Definition linear_gate (c : comp) : list (expr P) :=
  let X0 := #(wv (W c 0) 0) in let Z0 := #(wv (W c 1) 0) in
  let X1 := #(wv (W c 2) 0) in let Z1 := #(wv (W c 3) 0) in
  let A0 := #(wv (W c 4) 0) in let A1 := #(wv (W c 5) 0) in
  let I := #(wv (W c 6) 0) in
  [ A1 * X0 + A0 - Z0; A1 * X1 + A0 - Z1; (X1 - X0) * I - $1 ].
(** linear_interpolation.hpp:185-217. *)
Definition linear_circuit (c : comp) (x0 z0 x1 z1 : var) (row : Z) : list cmd :=
  [ Gate (linear_gate c) [row];
    Copy (wcell (W c 0) row) x0; Copy (wcell (W c 1) row) z0;
    Copy (wcell (W c 2) row) x1; Copy (wcell (W c 3) row) z1 ].
(** linear_interpolation.hpp:131-162. *)
Definition linear_assign (c : comp) (vx0 vz0 vx1 vz1 : var) (row : Z) (T : table) : table :=
  let x0 := vval T vx0 in let z0 := vval T vz0 in
  let x1 := vval T vx1 in let z1 := vval T vz1 in
  let T := wset T (W c 0) row x0 in
  let T := wset T (W c 1) row z0 in
  let T := wset T (W c 2) row x1 in
  let T := wset T (W c 3) row z1 in
  if negb (feqb x0 x1) then
    let di := finv (x1 - x0)%F in
    let T := wset T (W c 4) row ((x1 * z0 - x0 * z1) * di)%F in
    let T := wset T (W c 5) row ((z1 - z0) * di)%F in
    wset T (W c 6) row di
  else
    let T := wset T (W c 4) row f0 in
    let T := wset T (W c 5) row f0 in
    wset T (W c 6) row f0.
(** linear_interpolation.hpp:93-99: (a0, a1). *)
Definition linear_result (c : comp) (row : Z) : var * var := (wcell (W c 4) row, wcell (W c 5) row).

(** ** quadratic_interpolation.hpp *)

(** quadratic_interpolation.hpp:191-216. *)
Definition quadratic_gate (c : comp) : list (expr P) :=
  let X0 := #(wv (W c 0) 0) in let Z0 := #(wv (W c 1) 0) in
  let X1 := #(wv (W c 2) 0) in let Z1 := #(wv (W c 3) 0) in
  let X2 := #(wv (W c 4) 0) in let Z2 := #(wv (W c 5) 0) in
  let A0 := #(wv (W c 6) 0) in let A1 := #(wv (W c 7) 0) in
  let A2 := #(wv (W c 8) 0) in let I := #(wv (W c 9) 0) in
  [ A2 * X0 * X0 + A1 * X0 + A0 - Z0;
    A2 * X1 * X1 + A1 * X1 + A0 - Z1;
    A2 * X2 * X2 + A1 * X2 + A0 - Z2;
    (X1 - X0) * (X2 - X0) * (X2 - X1) * I - $1 ].
(** quadratic_interpolation.hpp:218-252. *)
Definition quadratic_circuit (c : comp) (x0 z0 x1 z1 x2 z2 : var) (row : Z) : list cmd :=
  [ Gate (quadratic_gate c) [row];
    Copy (wcell (W c 0) row) x0; Copy (wcell (W c 1) row) z0;
    Copy (wcell (W c 2) row) x1; Copy (wcell (W c 3) row) z1;
    Copy (wcell (W c 4) row) x2; Copy (wcell (W c 5) row) z2 ].
(** quadratic_interpolation.hpp:42-46 det3. *)
Definition det3 (a0 a1 a2 a3 a4 a5 a6 a7 a8 : F) : F :=
  (a0 * a4 * a8 + a2 * a3 * a7 + a1 * a5 * a6 - a2 * a4 * a6 - a0 * a5 * a7 - a1 * a3 * a8)%F.
(** quadratic_interpolation.hpp:144-189. *)
Definition quadratic_assign (c : comp) (vx0 vz0 vx1 vz1 vx2 vz2 : var) (row : Z) (T : table) : table :=
  let x0 := vval T vx0 in let z0 := vval T vz0 in
  let x1 := vval T vx1 in let z1 := vval T vz1 in
  let x2 := vval T vx2 in let z2 := vval T vz2 in
  let d := ((x1 - x0) * (x2 - x0) * (x2 - x1))%F in
  let one := f1 in
  let T := wset T (W c 0) row x0 in
  let T := wset T (W c 1) row z0 in
  let T := wset T (W c 2) row x1 in
  let T := wset T (W c 3) row z1 in
  let T := wset T (W c 4) row x2 in
  let T := wset T (W c 5) row z2 in
  if negb (feqb d f0) then
    let di := finv d in
    let T := wset T (W c 6) row (det3 z0 x0 (x0*x0) z1 x1 (x1*x1) z2 x2 (x2*x2) * di)%F in
    let T := wset T (W c 7) row (det3 one z0 (x0*x0) one z1 (x1*x1) one z2 (x2*x2) * di)%F in
    let T := wset T (W c 8) row (det3 one x0 z0 one x1 z1 one x2 z2 * di)%F in
    wset T (W c 9) row di
  else
    let T := wset T (W c 6) row f0 in
    let T := wset T (W c 7) row f0 in
    let T := wset T (W c 8) row f0 in
    wset T (W c 9) row f0.
(** quadratic_interpolation.hpp:105-112. *)
Definition quadratic_result (c : comp) (row : Z) : var * var * var :=
  (wcell (W c 6) row, wcell (W c 7) row, wcell (W c 8) row).

(** ** logic_and_flag.hpp *)

(** logic_and_flag.hpp:60-62. *)
Definition and_rows (w : Z) : Z := if w =? 2 then 3 else if w <? 5 then 2 else 1.
(** logic_and_flag.hpp:158-169 (also 189-194): the five values x, y, p, v, f. *)
Definition and_vals (x y : F) : list F :=
  let p := (x * y)%F in
  let v := if feqb p f0 then p else finv p in
  [x; y; p; v; (v * p)%F].
(** logic_and_flag.hpp:243-256: position of the idx-th value; the loop leaves in
    wl[idx] the pair with i * witness_amount + j = idx. *)
Definition wl (w offset idx : Z) : Z * Z := (idx mod w, (idx / w + offset)%Z).
Definition wlv (c : comp) (w offset idx : Z) : expr P :=
  #(wv (W c (fst (wl w offset idx))) (snd (wl w offset idx))).
(** logic_and_flag.hpp:232-270. *)
Definition and_gate (c : comp) : list (expr P) :=
  let w := wamount c in
  let offset := if and_rows w =? 3 then (-1)%Z else 0%Z in
  let x := wlv c w offset 0 in let y := wlv c w offset 1 in
  let p := wlv c w offset 2 in let v := wlv c w offset 3 in
  let f := #(wv (W c (w - 1)) (offset + and_rows w - 1)) in
  [ p - x * y; f * (f - $1); f - p * v; (v - p) * (f - $1) ].
(** logic_and_flag.hpp:272-310. *)
Definition and_circuit (c : comp) (x y : var) (row : Z) : list cmd :=
  [ Gate (and_gate c) [(row + (if and_rows (wamount c) =? 3 then 1 else 0))%Z];
    Copy (wcell (W c 0) row) x; Copy (wcell (W c 1) row) y ].
(** logic_and_flag.hpp:176-211. *)
Definition and_assign (c : comp) (x y : var) (row : Z) (T : table) : table :=
  let w := wamount c in
  let t := and_vals (vval T x) (vval T y) in
  let T' := fold_left (fun T i => fold_left (fun T j =>
              let idx := (i * w + j)%Z in
              if idx <? 5 then wset T (W c j) (row + i)%Z (znth f0 t idx) else T)
              (zseq 0 w) T) (zseq 0 (and_rows w)) T in
  wset T' (W c (w - 1)) (row + and_rows w - 1)%Z (znth f0 t 4).
(** logic_and_flag.hpp:213-230 (result in W(0), see 130-134). *)
Definition and_empty (c : comp) (x y : var) (row : Z) (T : table) : table :=
  wset T (W c 0) row (znth f0 (and_vals (vval T x) (vval T y)) 4).
(** logic_and_flag.hpp:123-134. *)
Definition and_result (c : comp) (row : Z) : var :=
  wcell (W c (wamount c - 1)) (row + and_rows (wamount c) - 1)%Z.
Definition and_result_skip (c : comp) (row : Z) : var := wcell (W c 0) row.

(** ** logic_or_flag.hpp *)

(** logic_or_flag.hpp:64-66. *)
Definition or_rows (w : Z) : Z := if w <=? 4 then (6 - w)%Z else if w <? 7 then 2%Z else 1%Z.
(** logic_or_flag.hpp:166-179 (also 202-208). *)
Definition or_vals (x y : F) : list F :=
  let vx := if feqb x f0 then x else finv x in
  let vy := if feqb y f0 then y else finv y in
  let fx := (x * vx)%F in let fy := (y * vy)%F in
  [x; y; vx; vy; fx; fy; (fx + fy - fx * fy)%F].
(** logic_or_flag.hpp:244-303. *)
Definition or_gates (c : comp) : list (list (expr P)) :=
  let w := wamount c in
  let offset := if 3 <=? or_rows w then (-1)%Z else 0%Z in
  let x := wlv c w offset 0 in let y := wlv c w offset 1 in
  let vx := wlv c w offset 2 in let vy := wlv c w offset 3 in
  let fx := wlv c w offset 4 in let fy := wlv c w offset 5 in
  let f := #(wv (W c (w - 1)) (offset + or_rows w - 1)) in
  let cs := [ fx - x * vx; fy - y * vy; fx * (fx - $1); fy * (fy - $1);
              (vx - x) * (fx - $1); (vy - y) * (fy - $1) ] in
  if w =? 2 then
    let fx := #(wv (W c (fst (wl w offset 4))) 0) in
    let fy := #(wv (W c (fst (wl w offset 5))) 0) in
    let f := #(wv (W c (w - 1)) 1) in
    [ cs; [ f - fx - fy + fx * fy ] ]
  else [ cs ++ [ f - fx - fy + fx * fy ] ].
(** logic_or_flag.hpp:305-351. *)
Definition or_circuit (c : comp) (x y : var) (row : Z) : list cmd :=
  let w := wamount c in
  [ Gate (nth 0 (or_gates c) []) [(row + (if 3 <=? or_rows w then 1 else 0))%Z] ] ++
  (if w =? 2 then [ Gate (nth 1 (or_gates c) []) [(row + 2)%Z] ] else []) ++
  [ Copy (wcell (W c 0) row) x; Copy (wcell (W c 1) row) y ].
(** logic_or_flag.hpp:186-222. *)
Definition or_assign (c : comp) (x y : var) (row : Z) (T : table) : table :=
  let w := wamount c in
  let t := or_vals (vval T x) (vval T y) in
  let T' := fold_left (fun T i => fold_left (fun T j =>
              let idx := (i * w + j)%Z in
              wset T (W c j) (row + i)%Z (znth f0 t (idx mod 7)))
              (zseq 0 w) T) (zseq 0 (or_rows w)) T in
  wset T' (W c (w - 1)) (row + or_rows w - 1)%Z (znth f0 t 6).
(** logic_or_flag.hpp:224-242. *)
Definition or_empty (c : comp) (x y : var) (row : Z) (T : table) : table :=
  wset T (W c 0) row (znth f0 (or_vals (vval T x) (vval T y)) 6).
(** logic_or_flag.hpp:131-142. *)
Definition or_result (c : comp) (row : Z) : var :=
  wcell (W c (wamount c - 1)) (row + or_rows (wamount c) - 1)%Z.
Definition or_result_skip (c : comp) (row : Z) : var := wcell (W c 0) row.

End Model.

Arguments addition_gate {P}. Arguments addition_circuit {P}. Arguments addition_assign {P}.
Arguments addition_empty {P}. Arguments subtraction_gate {P}. Arguments subtraction_circuit {P}.
Arguments subtraction_assign {P}. Arguments subtraction_empty {P}.
Arguments multiplication_gate {P}. Arguments multiplication_circuit {P}.
Arguments multiplication_assign {P}. Arguments multiplication_empty {P}.
Arguments mul_by_constant_gate {P}. Arguments mul_by_constant_circuit {P}.
Arguments mul_by_constant_assign {P}. Arguments mul_by_constant_empty {P}.
Arguments division_gate {P}. Arguments division_circuit {P}. Arguments division_assign {P}.
Arguments division_empty {P}. Arguments division_or_zero_gate {P}.
Arguments division_or_zero_circuit {P}. Arguments division_or_zero_assign {P}.
Arguments division_or_zero_empty {P}. Arguments equality_flag_gate {P}.
Arguments equality_flag_circuit {P}. Arguments equality_flag_assign {P}.
Arguments linear_gate {P}. Arguments linear_circuit {P}. Arguments linear_assign {P}.
Arguments quadratic_gate {P}. Arguments quadratic_circuit {P}. Arguments quadratic_assign {P}.
Arguments det3 {P}. Arguments and_vals {P}. Arguments wlv {P}. Arguments and_gate {P}.
Arguments and_circuit {P}. Arguments and_assign {P}. Arguments and_empty {P}.
Arguments or_vals {P}. Arguments or_gates {P}. Arguments or_circuit {P}.
Arguments or_assign {P}. Arguments or_empty {P}.
