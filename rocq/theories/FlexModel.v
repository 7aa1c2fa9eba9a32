(** Models of the "flexible" components of the recursive verifier
    (include/nil/blueprint/components/systems/snark/plonk/flexible/):
    additions.hpp, multiplications.hpp, swap.hpp, constant_pow.hpp, x_index.hpp,
    pow_factor.hpp, colinear_checks.hpp. *)
From Coq Require Import ZArith List Lia Bool.
From Verif Require Import Base Field Plonk Bits.
Import ListNotations.
Open Scope Z_scope.

(** additions.hpp:85, x_index.hpp:88 and others:
    [cells % n == 0 ? cells / n : cells / n + 1]. *)
Definition ceil_rows (cells per : Z) : Z :=
  if cells mod per =? 0 then cells / per else cells / per + 1.

(** The loop nest [for row < rows: for block < per: cur++], keeping the
    positions with [cur < n] (additions.hpp:115-124, 244-255): (row, block). *)
Definition slots (rows per n : Z) : list (Z * Z) :=
  filter (fun rb => fst rb * per + snd rb <? n)
    (flat_map (fun r => map (fun b => (r, b)) (zseq 0 per)) (zseq 0 rows)).

Section Model.
Variable P : params.
Notation F := (F P).
Notation table := (table P).
Notation cmd := (cmd P).

(** The cells of a [rows] x [w] rectangle, row by row. *)
Definition grid (c : comp) (row rows w : Z) (val : Z -> Z -> F) : list (Z * Z * F) :=
  flat_map (fun i => map (fun j => (W c j, row + i, val i j)) (zseq 0 w)) (zseq 0 rows).

(** ** additions.hpp and multiplications.hpp *)

(** The two files differ only in the operator (additions.hpp:188, 227). *)
Inductive fop := FAdd | FMul.
Definition fop_e (k : fop) (a b : expr P) : expr P :=
  match k with FAdd => EBin OAdd a b | FMul => EBin OMul a b end.
Definition fop_v (k : fop) (a b : F) : F :=
  match k with FAdd => fadd a b | FMul => fmul a b end.

(** additions.hpp:81-86 get_rows_amount. *)
Definition fa_per (w : Z) : Z := w / 3.
Definition fa_rows (w n : Z) : Z := ceil_rows (3 * n) (w / 3 * 3).

Section Exprs.
Local Open Scope E_scope.
(** additions.hpp:204-231 generate_gates. *)
Definition fa_gate (k : fop) (c : comp) : list (expr P) :=
  map (fun b => fop_e k #(wv (W c (b * 3)%Z) 0) #(wv (W c (b * 3 + 1)%Z) 0) - #(wv (W c (b * 3 + 2)%Z) 0))
      (zseq 0 (fa_per (wamount c))).
End Exprs.

(** additions.hpp:233-262 generate_copy_constraints. *)
Definition fa_copies (c : comp) (arr : list (var * var)) (row : Z) : list cmd :=
  let w := wamount c in
  flat_map (fun rb =>
    let x := znth (wcell 0 0, wcell 0 0) arr (fst rb * fa_per w + snd rb) in
    [Copy (fst x) (wcell (W c (3 * snd rb)) (row + fst rb));
     Copy (snd x) (wcell (W c (3 * snd rb + 1)) (row + fst rb))])
    (slots (fa_rows w (zlen arr)) (fa_per w) (zlen arr)).

(** additions.hpp:264-283 generate_circuit. *)
Definition fa_circuit (k : fop) (c : comp) (arr : list (var * var)) (row : Z) : list cmd :=
  Gate (fa_gate k c) (zseq row (row + fa_rows (wamount c) (zlen arr))) :: fa_copies c arr row.

(** additions.hpp:163-201 generate_assignments: the value written to column [j]
    of the [i]-th row (179-198). *)
Definition fa_val (k : fop) (T : table) (w : Z) (arr : list (var * var)) (i j : Z) : F :=
  let cur := i * fa_per w + j / 3 in
  let x := znth (wcell 0 0, wcell 0 0) arr cur in
  let a := vval T (fst x) in
  let b := vval T (snd x) in
  if j <? fa_per w * 3 then
    if cur <? zlen arr then
      if j mod 3 =? 0 then a else if j mod 3 =? 1 then b else fop_v k a b
    else f0
  else f0.
Definition fa_assign (k : fop) (c : comp) (arr : list (var * var)) (row : Z) (T : table) : table :=
  let w := wamount c in
  wsets T (grid c row (fa_rows w (zlen arr)) w (fa_val k T w arr)).

(** additions.hpp:105-126 result_type. *)
Definition fa_out (c : comp) (n row : Z) : list var :=
  let w := wamount c in
  map (fun rb => wcell (W c (snd rb * 3 + 2)) (row + fst rb)) (slots (fa_rows w n) (fa_per w) n).

(** ** swap.hpp *)

Section Swap.
Local Open Scope E_scope.
(** swap.hpp:185-212 generate_gates. *)
Definition fs_gate (c : comp) : list (expr P) :=
  let v i := #(wv (W c i) 0) in
  [ v 0%Z * (v 0%Z - $1);
    v 3%Z - (($1 - v 0%Z) * v 1%Z + v 0%Z * v 2%Z);
    v 4%Z - (($1 - v 0%Z) * v 2%Z + v 0%Z * v 1%Z) ].
End Swap.
(** swap.hpp:214-255 generate_copy_constraints, generate_circuit. *)
Definition fs_circuit (c : comp) (b x y : var) (row : Z) : list cmd :=
  [ Gate (fs_gate c) [row];
    Copy b (wcell (W c 0) row); Copy x (wcell (W c 1) row); Copy y (wcell (W c 2) row) ].
(** swap.hpp:137-157 generate_assignments; generate_empty_assignments
    (159-183) has the same body. *)
Definition fs_assign (c : comp) (b x y : var) (row : Z) (T : table) : table :=
  let bv := vval T b in let xv := vval T x in let yv := vval T y in
  wsets T [ (W c 0, row, bv); (W c 1, row, xv); (W c 2, row, yv);
            (W c 3, row, if feqb bv f0 then xv else yv);
            (W c 4, row, if feqb bv f0 then yv else xv) ].
(** swap.hpp:97-104 result_type. *)
Definition fs_out (c : comp) (row : Z) : var * var := (wcell (W c 3) row, wcell (W c 4) row).

(** ** constant_pow.hpp *)

(** constant_pow.hpp:44-52 integral_type_log2; the fuel never runs out for
    [Z.to_nat (Z.log2 pow) + 1] steps.  The width of [integral_type] is not
    modelled. *)
Fixpoint log2_loop (fuel : nat) (a pow r : Z) : Z :=
  match fuel with
  | O => r
  | S k => if a <? pow then log2_loop k (a * 2) pow (r + 1) else r
  end.
Definition it_log2 (pow : Z) : Z := log2_loop (Z.to_nat (Z.log2 pow) + 1) 1 pow 0.
(** constant_pow.hpp:54-64 integral_type_four_chunks: digits of the exponent in
    base 4, most significant first. *)
Fixpoint four_loop (fuel : nat) (tmp : Z) : list Z :=
  match fuel with
  | O => []
  | S k => if 0 <? tmp then four_loop k (tmp / 4) ++ [tmp mod 4] else []
  end.
Definition four_chunks (pow : Z) : list Z := four_loop (Z.to_nat (Z.log2 pow) + 1) pow.
(** constant_pow.hpp:172, 182, 195: the assertion of the constructors. *)
Definition cp_constructs (pow : Z) : bool := zlen (four_chunks pow) =? (it_log2 pow + 1) / 2.
(** constant_pow.hpp:130-137 get_rows_amount. *)
Definition cp_rows (w pow : Z) : Z := ceil_rows ((it_log2 pow + 1) / 2) (w - 2).

Section Pow.
Local Open Scope E_scope.
(** constant_pow.hpp:243-276 generate_gates: the gate of row [i]. *)
Definition cp_gate (c : comp) (pow i : Z) : list (expr P) :=
  let per := (wamount c - 2)%Z in
  flat_map (fun b =>
    let cur := (i * per + b)%Z in
    if (cur <? zlen (four_chunks pow))%Z then
      [ #(wv (W c (b + 2)%Z) 0) -
        EPow #(wv (W c (b + 1)%Z) 0) 4 * EPow #(wv (W c 0) 0) (Z.to_nat (znth 0%Z (four_chunks pow) cur)) ]
    else []) (zseq 0 per).
End Pow.
(** constant_pow.hpp:278-300 generate_copy_constraints: nothing is said about
    column [W(1)] of the first row. *)
Definition cp_copies (c : comp) (pow : Z) (x : var) (row : Z) : list cmd :=
  let w := wamount c in
  flat_map (fun i =>
    Copy x (wcell (W c 0) (row + i)) ::
    (if i =? 0 then [] else [Copy (wcell (W c 1) (row + i)) (wcell (W c (w - 1)) (row + i - 1))]))
    (zseq 0 (cp_rows w pow)).
(** constant_pow.hpp:302-321 generate_circuit. *)
Definition cp_circuit (c : comp) (pow : Z) (x : var) (row : Z) : list cmd :=
  map (fun i => Gate (cp_gate c pow i) [row + i]) (zseq 0 (cp_rows (wamount c) pow)) ++ cp_copies c pow x row.
(** constant_pow.hpp:219-227: [cur_val] after [t] digits. *)
Definition cp_acc (x : F) (ds : list Z) (t : Z) : F :=
  fold_left (fun a k => fmul (fpow a 4) (fpow x (Z.to_nat (znth 0 ds k)))) (zseq 0 t) f1.
(** constant_pow.hpp:203-237 generate_assignments. *)
Definition cp_val (x : F) (w pow i j : Z) : F :=
  let ds := four_chunks pow in
  let per := w - 2 in
  if j =? 0 then x
  else if j =? 1 then cp_acc x ds (Z.min (i * per) (zlen ds))
  else let cur := i * per + (j - 2) in
       if cur <? zlen ds then cp_acc x ds (cur + 1) else f0.
Definition cp_assign (c : comp) (pow : Z) (x : var) (row : Z) (T : table) : table :=
  let w := wamount c in
  wsets T (grid c row (cp_rows w pow) w (cp_val (vval T x) w pow)).
(** constant_pow.hpp:154-159 result_type. *)
Definition cp_out (c : comp) (pow row : Z) : var :=
  wcell (W c (zlen (four_chunks pow) mod (wamount c - 2) + 1)) (row + cp_rows (wamount c) pow - 1).

(** ** x_index.hpp *)

(** x_index.hpp:84-89 get_rows_amount: room for [n] bits, although [n + 1] are
    laid out. *)
Definition xi_per (w : Z) : Z := (w - 1) / 2.
Definition xi_rows (w n : Z) : Z := ceil_rows (2 * n) ((w - 1) / 2 * 2).

Section XIndex.
Local Open Scope E_scope.
(** x_index.hpp:206-229 generate_gates. *)
Definition xi_gate (c : comp) : list (expr P) :=
  let om := #(mkVar (C c 0) 0 true CConst) in
  map (fun b =>
    let prev := #(wv (W c (b * 2)%Z) 0) in
    let bit := #(wv (W c (b * 2 + 1)%Z) 0) in
    #(wv (W c (b * 2 + 2)%Z) 0) - prev * prev * (bit + om - om * bit))
    (zseq 0 (xi_per (wamount c))).
End XIndex.
(** x_index.hpp:231-260 generate_copy_constraints.  The [break] at 256 leaves
    only the inner loop; with these row counts the last row is then finished. *)
Definition xi_copies (c : comp) (x : var) (bs : list var) (row : Z) : list cmd :=
  let w := wamount c in
  let n := zlen bs in
  flat_map (fun i =>
    (if i =? 0 then [] else [Copy (wcell (W c ((w - 1) / 2 * 2)) (row + i - 1)) (wcell (W c 0) (row + i))]) ++
    flat_map (fun b =>
      let cur := i * xi_per w + b in
      if cur <=? n then
        (if cur =? 0 then [] else [Copy (znth (wcell 0 0) bs (n - cur)) (wcell (W c (b * 2 + 1)) (row + i))]) ++
        (if cur + 1 =? n + 1 then [Copy x (wcell (W c (b * 2 + 2)) (row + i))] else [])
      else []) (zseq 0 (xi_per w)))
    (zseq 0 (xi_rows w n)).
(** x_index.hpp:280-299 generate_circuit.  [omega] is written to the constant
    column by generate_assignments only (184); here it is a command so that the
    gates can refer to it. *)
Definition xi_circuit (c : comp) (omega : F) (x : var) (bs : list var) (row : Z) : list cmd :=
  let rows := xi_rows (wamount c) (zlen bs) in
  Gate (xi_gate c) (zseq row (row + rows)) :: xi_copies c x bs row ++
  map (fun i => SetConst (C c 0) (row + i) omega) (zseq 0 rows).
(** x_index.hpp:163-170 and 190, 194: one step of the running value. *)
Definition xi_step (omega tmp b : F) : F := fmul (fmul tmp tmp) (fadd b (fmul (fsub f1 b) omega)).
(** x_index.hpp:160-179: [None] when the assertion fails. *)
Definition xi_bits (T : table) (omega : F) (x : var) (bs : list var) : option (list F) :=
  let l := map (vval T) (rev bs) in
  let tmp := fold_left (fun t b => fmul (fmul t t) (fadd b (fmul omega (fsub f1 b)))) l f1 in
  let xv := vval T x in
  if feqb tmp xv || feqb tmp (fopp xv) then Some ((if feqb tmp xv then f1 else f0) :: l) else None.
(** x_index.hpp:181-201: values of a row; a padding bit is 1. *)
Definition xi_acc (omega : F) (l : list F) (t : Z) : F :=
  fold_left (fun a k => xi_step omega a (znth f1 l k)) (zseq 0 t) f1.
Definition xi_val (omega : F) (l : list F) (per i j : Z) : F :=
  if j mod 2 =? 0 then xi_acc omega l (i * per + j / 2) else znth f1 l (i * per + j / 2).
(** x_index.hpp:144-204 generate_assignments (columns past the last block are
    not written). *)
Definition xi_assign (c : comp) (omega : F) (x : var) (bs : list var) (row : Z) (T : table) : option table :=
  let per := xi_per (wamount c) in
  match xi_bits T omega x bs with
  | None => None
  | Some l => Some (wsets T (grid c row (xi_rows (wamount c) (zlen bs)) (2 * per + 1) (xi_val omega l per)))
  end.
(** x_index.hpp:107-113 result_type. *)
Definition xi_out (c : comp) (row : Z) : var := wcell (W c 1) row.

(** ** pow_factor.hpp *)

(** pow_factor.hpp:54-56. *)
Definition pf_cap (w : Z) : Z := if w =? 10 then 8 else 8 + (w - 10) / 8 * 7.
(** pow_factor.hpp:58-67 total_rows_amount; the fuel bounds the recursion depth,
    [vars] decreases at every call. *)
Fixpoint pf_total (fuel : nat) (w vars rows : Z) : Z :=
  match fuel with
  | O => rows + 1
  | S k =>
      let cap := pf_cap w in
      if vars <=? cap then rows + 1
      else pf_total k w (vars mod cap + vars / cap) (rows + vars / cap)
  end.
(** pow_factor.hpp:77-79, 119-122. *)
Definition pf_rows (w power : Z) : Z := pf_total (Z.to_nat (power + 1)) w (power + 1) 0.
(** pow_factor.hpp:69-75 calculate_padding. *)
Definition pf_padding (w power : Z) : Z :=
  pf_rows w power * pf_cap w - (pf_rows w power - 1) - (power + 1).

Section PowFactor.
Local Open Scope E_scope.
(** pow_factor.hpp:238-268 generate_gates; [b] numbers the blocks of eight. *)
Definition pf_gate (c : comp) : list (expr P) :=
  map (fun b =>
    let s := (1 + 8 * b)%Z in
    fold_left (fun e i => e * #(wv (W c 0) 0) + #(wv (W c (s + i)%Z) 0)) (zseq 1 8) #(wv (W c s) 0)
    - #(wv (W c (s + 8)%Z) 0))
    (zseq 0 ((wamount c - 2) / 8)).
End PowFactor.
(** pow_factor.hpp:289-324: the copy-constraint loop, as a state machine over
    (slot_index, row); [vs] are the remaining padded variables. *)
Fixpoint pf_loop (c : comp) (theta : var) (row0 rows : Z) (vs : list var) (slot row : Z) : list cmd :=
  match vs with
  | [] => []
  | v :: vs =>
      let slot := if ((slot - 9) mod 8 =? 0) && (9 <=? slot) then slot + 1 else slot in
      if wamount c - 1 <=? slot then
        (if row + 1 <? row0 + rows then
           [Copy (wcell (W c (wamount c - 1)) row) (wcell (W c 1) (row + 1));
            Copy theta (wcell (W c 0) (row + 1))] else []) ++
        Copy v (wcell (W c 2) (row + 1)) :: pf_loop c theta row0 rows vs 3 (row + 1)
      else Copy v (wcell (W c slot) row) :: pf_loop c theta row0 rows vs (slot + 1) row
  end.
(** pow_factor.hpp:186-198 pad_input. *)
Definition pf_padded (c : comp) (power : Z) (cs : list var) (row : Z) : list var :=
  repeat (ccell (C c 0) row) (Z.to_nat (pf_padding (wamount c) power)) ++ cs.
(** pow_factor.hpp:338-360 generate_circuit, constants 328-336; [power + 1] is
    the number of coefficients (351). *)
Definition pf_circuit (c : comp) (theta : var) (cs : list var) (row : Z) : list cmd :=
  let power := zlen cs - 1 in
  let rows := pf_rows (wamount c) power in
  SetConst (C c 0) row f0 :: Gate (pf_gate c) (zseq row (row + rows)) ::
  Copy theta (wcell (W c 0) row) :: pf_loop c theta row rows (pf_padded c power cs row) 1 row.
(** pow_factor.hpp:223-235: [poly_value] after [t] coefficients. *)
Definition pf_acc (theta : F) (vs : list F) (t : Z) : F :=
  fold_left (fun a k => fadd (fmul a theta) (znth f0 vs k)) (zseq 1 t) (znth f0 vs 0).
(** pow_factor.hpp:226-238: value of column [j] of row [i].  Row [i] starts after
    [i * (cap - 1)] coefficients; block [b] holds seven new coefficients in
    columns [8b + 2 .. 8b + 8], the value so far in column [8b + 9]. *)
Definition pf_val (theta : F) (vs : list F) (cap i j : Z) : F :=
  let base := i * (cap - 1) in
  if j =? 0 then theta
  else if (j - 1) mod 8 =? 0 then pf_acc theta vs (base + (j - 1) / 8 * 7 + 1)
  else znth f0 vs (base + (j - 1) / 8 * 7 + (j - 1) mod 8).
(** pow_factor.hpp:205-236 generate_assignments. *)
Definition pf_assign (c : comp) (theta : var) (cs : list var) (row : Z) (T : table) : table :=
  let w := wamount c in
  let power := zlen cs - 1 in
  let T := cset T (C c 0) row f0 in
  wsets T (grid c row (pf_rows w power) w
             (pf_val (vval T theta) (map (vval T) (pf_padded c power cs row)) (pf_cap w))).
(** pow_factor.hpp:145-148 result_type. *)
Definition pf_out (c : comp) (power row : Z) : var :=
  wcell (W c (wamount c - 1)) (row + pf_rows (wamount c) power - 1).

(** ** colinear_checks.hpp *)

(** colinear_checks.hpp:91-96: the number of cells is divided by the number of
    blocks of a row. *)
Definition cl_per (w : Z) : Z := (w - 4) / 5.
Definition cl_rows (w r : Z) : Z := ceil_rows (5 * r + 4 - 4) ((w - 4) / 5).

Section Colinear.
Local Open Scope E_scope.
(** colinear_checks.hpp:254-288 generate_gates: block 0 is skipped (266). *)
Definition cl_gate (c : comp) : list (expr P) :=
  map (fun b =>
    let v i := #(wv (W c (b * 5 + i)%Z) 0) in
    let s := $2 * v 1%Z * v 0%Z - v 0%Z in
    ((v 4%Z + s) * v 2%Z - (v 4%Z - s) * v 3%Z) -
    (v 6%Z * v 7%Z + ($1 - v 6%Z) * v 8%Z) * $2 * s)
    (zseq 1 (cl_per (wamount c))).
End Colinear.
(** colinear_checks.hpp:290-318: generate_copy_constraints is commented out;
    generate_circuit 320-340. *)
Definition cl_circuit (c : comp) (r : Z) (row : Z) : list cmd :=
  [Gate (cl_gate c) (zseq row (row + cl_rows (wamount c) r))].

(** Inputs of colinear_checks.hpp:100-110. *)
Record clin := mkClin { cl_x : var; cl_ys : list var; cl_bs : list var; cl_al : list var }.
(** colinear_checks.hpp:195-217: writes of one block with [cur < r]. *)
Definition cl_block (c : comp) (T : table) (inp : clin) (row i b cur : Z) (x : F) : list (Z * Z * F) :=
  let ys k := vval T (znth (wcell 0 0) (cl_ys inp) k) in
  let bs k := vval T (znth (wcell 0 0) (cl_bs inp) k) in
  let al k := vval T (znth (wcell 0 0) (cl_al inp) k) in
  let at_ k v := (W c (b * 5 + k), row + i, v) in
  [at_ 0 x; at_ 1 (bs cur); at_ 2 (ys (2 * cur)); at_ 3 (ys (2 * cur + 1)); at_ 4 (al cur);
   at_ 5 (fmul x x); at_ 6 (bs (cur + 1)); at_ 7 (ys (2 * (cur + 1))); at_ 8 (ys (2 * (cur + 1) + 1))].
(** colinear_checks.hpp:218-236: a block past the end is computed from what the
    table holds in its first four cells. *)
Definition cl_fake (c : comp) (T : table) (row i b : Z) : list (Z * Z * F) :=
  let rd k := T CWit (W c (b * 5 + k)) (row + i) in
  let at_ k v := (W c (b * 5 + k), row + i, v) in
  let s := fsub (fmul (fmul (ofZ 2) (rd 1)) (rd 0)) (rd 0) in
  [at_ 4 f0; at_ 5 (fmul (rd 0) (rd 0)); at_ 6 f0; at_ 7 f0;
   at_ 8 (fmul (fsub (fmul (fadd f0 s) (rd 2)) (fmul (fsub f0 s) (rd 3)))
               (if feqb s f0 then f0 else finv (fmul (ofZ 2) s)))].
(** colinear_checks.hpp:186-252 generate_assignments: the loop over rows and
    blocks; [x] is squared after every real block. *)
Definition cl_assign (c : comp) (r : Z) (inp : clin) (row : Z) (T : table) : table :=
  let per := cl_per (wamount c) in
  fst (fold_left (fun st ib =>
    let '(T, x) := st in
    let '(i, b) := ib in
    let cur := i * per + b in
    if cur <? r then (wsets T (cl_block c T inp row i b cur x), fmul x x)
    else (wsets T (cl_fake c T row i b), x))
    (flat_map (fun i => map (fun b => (i, b)) (zseq 0 per)) (zseq 0 (cl_rows (wamount c) r)))
    (T, vval T (cl_x inp))).

End Model.
Arguments grid {P}. Arguments fop_e {P}. Arguments fop_v {P}. Arguments fa_gate {P}. Arguments fa_copies {P}.
Arguments fa_circuit {P}. Arguments fa_val {P}. Arguments fa_assign {P}. Arguments fs_gate {P}. Arguments fs_circuit {P}.
Arguments fs_assign {P}. Arguments cp_gate {P}. Arguments cp_copies {P}. Arguments cp_circuit {P}. Arguments cp_acc {P}.
Arguments cp_val {P}. Arguments cp_assign {P}. Arguments xi_gate {P}. Arguments xi_copies {P}. Arguments xi_circuit {P}.
Arguments xi_step {P}. Arguments xi_bits {P}. Arguments xi_acc {P}. Arguments xi_val {P}. Arguments xi_assign {P}.
Arguments pf_gate {P}. Arguments pf_loop {P}. Arguments pf_circuit {P}. Arguments pf_acc {P}. Arguments pf_val {P}.
Arguments pf_assign {P}. Arguments cl_gate {P}. Arguments cl_circuit {P}. Arguments cl_block {P}. Arguments cl_fake {P}.
Arguments cl_assign {P}.
