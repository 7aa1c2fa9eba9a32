(** Components of the FRI part of the recursive verifier.

    Source: include/nil/blueprint/components/systems/snark/plonk/placeholder/
    fri_lin_inter.hpp, fri_array_swap.hpp, fri_cosets.hpp. *)
From Coq Require Import ZArith List Lia Bool.
From Verif Require Import Base Field Plonk Bits FlexModel.
Import ListNotations.
Open Scope Z_scope.

(** fri_cosets.hpp:43-47 detail::lfit. *)
Definition lfit (o pl : Z) : Z := o / pl + (if 0 <? o mod pl then 1 else 0).

Section Model.
Variable P : params.
Notation F := (F P).
Notation table := (table P).
Notation cmd := (cmd P).

(** ** fri_lin_inter.hpp *)

Section LinInter.
Local Open Scope E_scope.
(** fri_lin_inter.hpp:158-175 generate_gates. *)
Definition li_gate (c : comp) : list (expr P) :=
  let w i := #(wv (W c i) 0) in
  [ $2 * w 2%Z * (w 4%Z - w 0%Z) - (w 1%Z - w 0%Z) * (w 2%Z - w 3%Z) ].
End LinInter.
(** fri_lin_inter.hpp:177-209 generate_copy_constraints, generate_circuit. *)
Definition li_circuit (c : comp) (s y0 y1 alpha : var) (row : Z) : list cmd :=
  [ Gate (li_gate c) [row];
    Copy (wcell (W c 0) row) y0; Copy (wcell (W c 1) row) y1;
    Copy (wcell (W c 2) row) s; Copy (wcell (W c 3) row) alpha ].
(** fri_lin_inter.hpp:132-155 generate_assignments. *)
Definition li_assign (c : comp) (s y0 y1 alpha : var) (row : Z) (T : table) : table :=
  let sv := vval T s in let v0 := vval T y0 in let v1 := vval T y1 in let av := vval T alpha in
  wsets T [ (W c 0, row, v0); (W c 1, row, v1); (W c 2, row, sv); (W c 3, row, av);
            (W c 4, row, fadd v0 (fmul (fmul (fsub v1 v0) (fsub sv av)) (finv (fmul (ofZ 2) sv)))) ].
(** fri_lin_inter.hpp:95-105 result_type. *)
Definition li_out (c : comp) (row : Z) : var := wcell (W c 4) row.

(** ** fri_array_swap.hpp *)

(** fri_array_swap.hpp:99-102 get_rows_amount; [half] is half_array_size. *)
Definition as_per (w : Z) : Z := (w - 1) / 4.
Definition as_rows (w half : Z) : Z := (2 * half + (w - 1) / 4 - 1) / ((w - 1) / 4).

Section ArraySwap.
Local Open Scope E_scope.
(** fri_array_swap.hpp:223-253 generate_gates; the manifest (89-97) makes the
    width 4k + 1, so the loop [offset = 1; offset < w - 1; offset += 4] visits
    [offset = 1 + 4b] for [b < (w - 1) / 4]. *)
Definition as_gate (c : comp) : list (expr P) :=
  let v i := #(wv (W c i) 0) in
  flat_map (fun b =>
    let o := (1 + 4 * b)%Z in
    [ v (o + 2)%Z - v o * ($1 - v 0%Z) - v (o + 1)%Z * v 0%Z;
      v (o + 3)%Z - v (o + 1)%Z * ($1 - v 0%Z) - v o * v 0%Z ]) (zseq 0 (as_per (wamount c))).
End ArraySwap.
(** The pairs laid out in row [i]: (block, index of the pair in the array). *)
Definition as_pairs (w half i : Z) : list (Z * Z) :=
  flat_map (fun b => let k := i * as_per w + b in if 2 * k <? 2 * half then [(b, k)] else []) (zseq 0 (as_per w)).
(** fri_array_swap.hpp:255-286 generate_copy_constraints. *)
Definition as_copies (c : comp) (t : var) (arr : list var) (row : Z) : list cmd :=
  let w := wamount c in
  let half := zlen arr / 2 in
  let a k := znth (wcell 0 0) arr k in
  flat_map (fun i =>
    Copy t (wcell (W c 0) (row + i)) ::
    flat_map (fun bk => let '(b, k) := bk in
      [ Copy (a (2 * k)) (wcell (W c (1 + 4 * b)) (row + i));
        Copy (a (2 * k + 1)) (wcell (W c (1 + 4 * b + 1)) (row + i)) ]) (as_pairs w half i))
    (zseq 0 (as_rows w half)).
(** fri_array_swap.hpp:288-306 generate_circuit. *)
Definition as_circuit (c : comp) (t : var) (arr : list var) (row : Z) : list cmd :=
  Gate (as_gate c) (zseq row (row + as_rows (wamount c) (zlen arr / 2))) :: as_copies c t arr row.
(** fri_array_swap.hpp:177-221 generate_assignments: the value in column [j] of
    the [i]-th row. *)
Definition as_val (T : table) (w : Z) (t : var) (arr : list var) (i j : Z) : F :=
  if j =? 0 then vval T t
  else
    let b := (j - 1) / 4 in
    let d := (j - 1) mod 4 in
    let k := i * as_per w + b in
    let av := vval T (znth (wcell 0 0) arr (2 * k)) in
    let bv := vval T (znth (wcell 0 0) arr (2 * k + 1)) in
    if 2 * k <? zlen arr then
      if d =? 0 then av else if d =? 1 then bv
      else if feqb (vval T t) f0 then (if d =? 2 then av else bv) else (if d =? 2 then bv else av)
    else f0.
Definition as_assign (c : comp) (t : var) (arr : list var) (row : Z) (T : table) : table :=
  let w := wamount c in
  wsets T (grid c row (as_rows w (zlen arr / 2)) (1 + 4 * as_per w) (as_val T w t arr)).
(** fri_array_swap.hpp:121-141 result_type. *)
Definition as_out (c : comp) (half row : Z) : list var :=
  let w := wamount c in
  flat_map (fun i => flat_map (fun bk => let '(b, _) := bk in
      [wcell (W c (1 + 4 * b + 2)) (row + i); wcell (W c (1 + 4 * b + 3)) (row + i)]) (as_pairs w half i))
    (zseq 0 (as_rows w half)).

(** ** fri_cosets.hpp *)

(** BlueprintFieldType::modulus_bits. *)
Definition fc_tb : Z := Z.log2 (char P) + 1.

(** fri_cosets.hpp:67-76, 159-166: 9-blocks per row, 9-blocks on the transition
    row (0: there is none), rows with 9-blocks.  The manifest (139-147) makes the
    width a multiple of nine. *)
Definition fc_l (w : Z) : Z := w / 9.
Definition fc_last (w n : Z) : Z := n mod fc_l w.
Definition fc_nine_rows (w n : Z) : Z := lfit n (fc_l w).
(** fri_cosets.hpp:78-90 rows_amount_internal.  Subtractions of std::size_t are
    integer subtractions here: the statements assume [0 <= fc_remaining]. *)
Definition fc_trans (w n : Z) : Z := if 0 <? 9 * n mod w then (w - 9 * n mod w) / 3 - 1 else 0.
Definition fc_rows (w n : Z) : Z := lfit (9 * n) w + lfit (fc_tb - n - fc_trans w n) (w / 3 - 1) + 1.
(** fri_cosets.hpp:332, 494: bits that do not fit on the transition row. *)
Definition fc_remaining (w n : Z) : Z :=
  fc_tb - n - (if 0 <? fc_last w n then 3 * (fc_l w - fc_last w n) - 1 else 0).

Section Cosets.
Local Open Scope E_scope.
(** fri_cosets.hpp:373-375: [first_add_W1], [first_add_W2], [first_W4]. *)
Definition fc_first (c : comp) : list (expr P) :=
  let w i := #(wv (W c i) 0) in
  [ w 1%Z + $1; w 2%Z * ($1 - w 2%Z); w 3%Z * w 7%Z + $1 - w 7%Z - w 4%Z ].
(** fri_cosets.hpp:378-405: the constraints of the [j]-th 9-block of a row. *)
Definition fc_block (c : comp) (l j : Z) : list (expr P) :=
  let w i := #(wv (W c (9 * j + i)) 0) in
  let nxt i := #(wv (W c (9 * ((j + 1) mod l) + i)) ((j + 1) / l)) in
  let prv i := #(wv (W c (9 * ((l + j - 1) mod l) + i)) (if (j =? 0)%Z then (-1)%Z else 0%Z)) in
  [ w 0%Z - $2 * nxt 0%Z - w 7%Z;
    w 1%Z - $2 * nxt 1%Z - w 8%Z;
    (w 8%Z - w 7%Z) * ($1 - nxt 2%Z) * ($1 + nxt 2%Z) + nxt 2%Z - w 2%Z;
    w 3%Z - prv 3%Z * prv 3%Z;
    w 4%Z - prv 4%Z * (w 3%Z * w 7%Z + $1 - w 7%Z);
    w 5%Z - nxt 5%Z * nxt 5%Z;
    w 5%Z + w 6%Z;
    ($1 - w 7%Z) * w 7%Z;
    ($1 - w 8%Z) * w 8%Z ].
Definition fc_nine (c : comp) : list (expr P) :=
  let l := fc_l (wamount c) in flat_map (fc_block c l) (zseq 0 l).
(** fri_cosets.hpp:407-425 and 470-481: column [d] of the next row, doubled and
    increased by the bit cells of the 3-blocks [hi - 1, ..., lo], minus the cell
    where the remaining number is stored. *)
Definition fc_sum (c : comp) (lo hi d : Z) : expr P :=
  fold_left (fun e k => $2 * e + #(wv (W c (3 * k + d)) 0)) (rev (zseq lo hi)) #(wv (W c d) 1).
(** fri_cosets.hpp:411-423: the constraints of the [k]-th 3-block. *)
Definition fc_bit (c : comp) (w k : Z) : list (expr P) :=
  let v i := #(wv (W c (3 * k + i)) 0) in
  let nxt := #(wv (W c ((3 * k + 5) mod w)) (if (3 * k + 3 =? w)%Z then 1%Z else 0%Z)) in
  [ v 0%Z * (v 0%Z - $1); v 1%Z * (v 1%Z - $1);
    (v 1%Z - v 0%Z) * ($1 - nxt) * ($1 + nxt) + nxt - v 2%Z ].
(** fri_cosets.hpp:407-426 [bit_line]. *)
Definition fc_bit_line (c : comp) : list (expr P) :=
  let w := wamount c in
  [ fc_sum c 1 (w / 3) 0 - #(wv (W c 0) 0);
    fc_sum c 1 (w / 3) 1 - #(wv (W c 1) 0);
    #(wv (W c 2) 0) - #(wv (W c 5) 0) ] ++ flat_map (fc_bit c w) (zseq 1 (w / 3)).
(** fri_cosets.hpp:428-437: gate of the first row, if it is not the last. *)
Definition fc_gate1 (c : comp) : list (expr P) :=
  firstn 3 (fc_nine c) ++ fc_first c ++ skipn 5 (fc_nine c).
(** fri_cosets.hpp:447-491: gate of the row where the 9-blocks end. *)
Definition fc_gate3 (c : comp) (n : Z) : list (expr P) :=
  let w := wamount c in
  let l := fc_l w in
  let last_l := fc_last w n in
  let last := if (0 <? last_l)%Z then last_l else l in
  let nine := fc_nine c in
  let at_ i := znth (ecst f0) nine i in
  firstn 3 nine ++
  (if (1 <? fc_nine_rows w n)%Z then [at_ 3%Z; at_ 4%Z] else fc_first c) ++
  firstn (Z.to_nat (9 * (last - 1))) (skipn 5 nine) ++
  [ #(wv (W c (9 * (last - 1) + 5)) 0) - #(wv (W c (9 * (last - 1) + 4)) 0);
    at_ (9 * (last - 1) + 6)%Z; at_ (9 * (last - 1) + 7)%Z; at_ (9 * (last - 1) + 8)%Z ] ++
  (if (0 <? last_l)%Z then
     [ fc_sum c (3 * last_l + 1) (w / 3) 0 - #(wv (W c (9 * last_l)) 0);
       fc_sum c (3 * last_l + 1) (w / 3) 1 - #(wv (W c (9 * last_l + 1)) 0);
       #(wv (W c (9 * last_l + 2)) 0) - #(wv (W c (9 * last_l + 5)) 0) ] ++
     skipn (Z.to_nat (9 * last_l + 3)) (fc_bit_line c)
   else []).
End Cosets.

(** fri_cosets.hpp:311-348 generate_copy_constraints: the constants are read in
    constant column 0. *)
Definition fc_copies (c : comp) (n : Z) (x : var) (row : Z) : list cmd :=
  let w := wamount c in
  let rows := fc_rows w n in
  let rem := fc_remaining w n in
  [ Copy x (wcell (W c 0) row); Copy (ccell 0 row) (wcell (W c 3) row) ] ++
  (if 0 <? rem mod (w / 3 - 1) then
     map (fun j => Copy (ccell 0 (row + 1)) (wcell (W c j) (row + rows - 2))) (zseq (3 * (rem mod (w / 3 - 1) + 1)) w)
   else []) ++
  map (fun j => Copy (ccell 0 (row + 1)) (wcell (W c j) (row + rows - 1))) (zseq 0 3).
(** fri_cosets.hpp:350-506 generate_circuit; 508-517 the constants, written to
    column [C(0)]. *)
Definition fc_circuit (c : comp) (n : Z) (omega : F) (x : var) (row : Z) : list cmd :=
  let w := wamount c in
  let nr := fc_nine_rows w n in
  let rem := fc_remaining w n in
  (if 1 <? nr then [Gate (fc_gate1 c) [row]] else []) ++
  (if 2 <? nr then [Gate (fc_nine c) (zseq (row + 1) (row + nr - 1))] else []) ++
  [Gate (fc_gate3 c n) [row + nr - 1]] ++
  (if 0 <? rem then [Gate (fc_bit_line c) (zseq (row + nr) (row + nr + lfit rem (w / 3 - 1)))] else []) ++
  fc_copies c n x row ++
  [SetConst (C c 0) row omega; SetConst (C c 0) (row + 1) f0].

(** fri_cosets.hpp:261: [(x < q) - (q < x)]. *)
Definition fc_sgn (x q : Z) : F := ofZ (Z.b2z (x <? q) - Z.b2z (q <? x)).
(** fri_cosets.hpp:253-270: the top-down loop over [n] blocks, with the values
    of [x_decomp], [pm1_decomp], [w_power] and [coset_element] after it. *)
Fixpoint fc_down (c : comp) (l row : Z) (k : nat) (b x q : Z) (wp ce : F) : list (Z * Z * F) * (Z * Z * F) :=
  match k with
  | O => ([], (x, q, ce))
  | S k =>
      let i := row + b / l in
      let j := b mod l in
      let ce' := if x mod 2 =? 1 then fmul ce wp else ce in
      let '(ws, e) := fc_down c l row k (b + 1) (x / 2) (q / 2) (fmul wp wp) ce' in
      ([ (W c (9 * j), i, ofZ x); (W c (9 * j + 1), i, ofZ q); (W c (9 * j + 2), i, fc_sgn x q);
         (W c (9 * j + 3), i, wp); (W c (9 * j + 4), i, ce');
         (W c (9 * j + 7), i, ofZ (x mod 2)); (W c (9 * j + 8), i, ofZ (q mod 2)) ] ++ ws, e)
  end.
(** fri_cosets.hpp:271-278: the down-top loop over blocks [b - 1, ..., 0]. *)
Fixpoint fc_up (c : comp) (l row : Z) (b : nat) (ce : F) : list (Z * Z * F) :=
  match b with
  | O => []
  | S b =>
      let i := row + Z.of_nat b / l in
      let j := Z.of_nat b mod l in
      [ (W c (9 * j + 5), i, ce); (W c (9 * j + 6), i, fopp ce) ] ++ fc_up c l row b (fmul ce ce)
  end.
(** fri_cosets.hpp:288-306: the loop over the 3-blocks from row [i], column [j];
    every turn writes three columns, so [fuel] = number of cells suffices.
    [W(j+2)] with [j = WA] (303) is [W(2)]. *)
Fixpoint fc_bits (fuel : nat) (c : comp) (w rows row i j x q : Z) : list (Z * Z * F) :=
  match fuel with
  | O => []
  | S k =>
      if i <? rows - 1 then
        [ (W c j, row + i, ofZ (x mod 2)); (W c (j + 1), row + i, ofZ (q mod 2)); (W c (j + 2), row + i, fc_sgn x q) ] ++
        (if j + 3 =? w then
           [ (W c 0, row + (i + 1), ofZ (x / 2)); (W c 1, row + (i + 1), ofZ (q / 2));
             (W c (j + 3 + 2), row + (i + 1), fc_sgn (x / 2) (q / 2)) ] ++
           fc_bits k c w rows row (i + 1) 3 (x / 2) (q / 2)
         else fc_bits k c w rows row i (j + 3) (x / 2) (q / 2))
      else []
  end.
(** fri_cosets.hpp:231-309 generate_assignments; the constants are written by
    generate_circuit. *)
Definition fc_assign (c : comp) (n : Z) (omega : F) (x : var) (row : Z) (T : table) : table :=
  let w := wamount c in
  let l := fc_l w in
  let rows := fc_rows w n in
  let '(ws, (xv, q, ce)) := fc_down c l row (Z.to_nat n) 0 (fval (vval T x)) (char P - 1) omega f1 in
  let i := 9 * n / w in
  let j := 9 * n mod w in
  wsets T (ws ++ fc_up c l row (Z.to_nat n) ce ++
    [ (W c j, row + i, ofZ xv); (W c (j + 1), row + i, ofZ q); (W c (j + 2), row + i, fc_sgn xv q) ] ++
    fc_bits (Z.to_nat (rows * w)) c w rows row i (j + 3) xv q).
(** fri_cosets.hpp:174-190 result_type. *)
Definition fc_out (c : comp) (n row : Z) : list (var * var * var) :=
  let l := fc_l (wamount c) in
  map (fun b => let i := b / l in let j := b mod l in
    (wcell (W c (9 * j + 5)) (row + i), wcell (W c (9 * j + 6)) (row + i), wcell (W c (9 * j + 7)) (row + i)))
    (rev (zseq 0 n)).

End Model.
Arguments li_gate {P}. Arguments li_circuit {P}. Arguments li_assign {P}. Arguments as_gate {P}. Arguments as_copies {P}.
Arguments as_circuit {P}. Arguments as_val {P}. Arguments as_assign {P}. Arguments fc_first {P}. Arguments fc_block {P}.
Arguments fc_nine {P}. Arguments fc_sum {P}. Arguments fc_bit {P}. Arguments fc_bit_line {P}. Arguments fc_gate1 {P}.
Arguments fc_gate3 {P}. Arguments fc_copies {P}. Arguments fc_circuit {P}. Arguments fc_sgn {P}. Arguments fc_down {P}.
Arguments fc_up {P}. Arguments fc_bits {P}. Arguments fc_assign {P}.
