(** Models of the integer comparison components and of division with remainder
    (include/nil/blueprint/components/algebra/fields/plonk/non_native/):
    comparison_unchecked.hpp, comparison_checked.hpp, comparison_flag.hpp,
    division_remainder.hpp. *)
From Coq Require Import ZArith List Lia Bool.
From Verif Require Import Base Field Plonk Bits RangeModel BitModel.
Import ListNotations.
Open Scope Z_scope.

(** non_native/comparison_mode.hpp:29-35 [comparison_mode]. *)
Inductive cmode := LT | LE | GT | GE | FLAG.
Definition strict (m : cmode) : bool := match m with LT | GT => true | _ => false end.
Definition greater (m : cmode) : bool := match m with GT | GE => true | _ => false end.

(** Zero-padded big-endian bits of [x] and their pairs, as every component of
    this file computes them (comparison_checked.hpp:490-516,
    comparison_flag.hpp:463-491). *)
Definition pbit (pb bits x i : Z) : Z := if i <? pb then 0 else msb_bit bits x (i - pb).
Definition pchunk (pb bits x k : Z) : Z := 2 * pbit pb bits x (2 * k) + pbit pb bits x (2 * k + 1).

(** comparison_unchecked.hpp:71-81 and comparison_checked.hpp:99-103:
    the inverse does not fit in three columns. *)
Definition cmp_bonus (w : Z) (m : cmode) : Z := if (w <=? 3) && strict m then 1 else 0.
Definition cu_rows (w bits : Z) (m : cmode) : Z := rc_rows w bits + 1 + cmp_bonus w m.

(** comparison_checked.hpp:83-113, chunk_size = 2. *)
Definition cc_chunks (bits : Z) : Z := (bits + 2 - 1) / 2.
Definition cc_padded (w bits : Z) : Z := (cc_chunks bits + w - 2) / (w - 1) * (w - 1).
Definition cc_padding (w bits : Z) : Z := cc_padded w bits - cc_chunks bits.
Definition cc_padding_bits (w bits : Z) : Z := cc_padded w bits * 2 - bits.
Definition cc_rows (w bits : Z) (m : cmode) : Z := 1 + 2 * cc_padded w bits / (w - 1) + cmp_bonus w m.
Definition cc_first (mb bits : Z) : bool :=
  negb (bits mod 2 =? 0) && (mb - 1 <=? bits + (2 - bits mod 2) mod 2).

(** comparison_flag.hpp:103-143, chunk_size = 2. *)
Definition cf_cmp (w : Z) : Z := 1 + (w - 3) / 2.
Definition cf_bonus (w : Z) : Z := if w <=? 3 then 1 else 0.
Definition cf_rows (w bits : Z) : Z :=
  (bits + cf_cmp w * 2 - 1) / (cf_cmp w * 2) * 2 + 1 + cf_bonus w.
Definition cf_gates (w bits : Z) : Z := (cf_rows w bits - 1) / 2.
Definition cf_padded (w bits : Z) : Z := cf_gates w bits * cf_cmp w.
Definition cf_padding_bits (w bits : Z) : Z := cf_padded w bits * 2 - bits.
Definition cf_padding (w bits : Z) : Z := cf_padding_bits w bits / 2.

(** division_remainder.hpp:64-77 and 152-161: the five values are laid out one
    after another from the first cell on. *)
Definition dr_bonus (w : Z) : Z := if w <? 5 then 1 else 0.
Definition dr_rows (w bits : Z) (chk : bool) : Z :=
  (2 + 2 * Z.b2z chk) * rc_rows w bits + 1 + dr_bonus w.

Section Model.
Variable P : params.
Notation F := (F P).
Notation table := (table P).
Notation cmd := (cmd P).
Local Open Scope E_scope.

(** [diff != 0 ? diff.inversed() : 0]. *)
Definition inv0 (d : F) : F := if feqb d f0 then f0 else finv d.

(** ** comparison_unchecked *)

(** comparison_unchecked.hpp:208-245. *)
Definition cu_gate (c : comp) (m : cmode) : list (expr P) :=
  (#(wv (W c 2) 0) - #(wv (W c 1) 0) + #(wv (W c 0) 0)) ::
  (if strict m then
     [#(wv (W c 2) 0) * (if cmp_bonus (wamount c) m =? 0 then #(wv (W c 3) 0) else #(wv (W c 0) 1)) - $1]
   else []).

(** comparison_unchecked.hpp:247-278. *)
Definition cu_copies (c : comp) (bits : Z) (m : cmode) (x y : var) (row : Z) : list cmd :=
  let r := (row + cu_rows (wamount c) bits m - 1 - cmp_bonus (wamount c) m)%Z in
  let xv := wcell (W c 0) r in
  let yv := wcell (W c 1) r in
  [Copy x (if greater m then yv else xv); Copy y (if greater m then xv else yv)].

(** comparison_unchecked.hpp:280-309. *)
Definition cu_circuit (c : comp) (bits : Z) (m : cmode) (x y : var) (row : Z) : list cmd :=
  rc_circuit c bits (wcell (W c 2) (row + rc_rows (wamount c) bits)) row ++
  [Gate (cu_gate c m) [row + cu_rows (wamount c) bits m - 1 - cmp_bonus (wamount c) m]%Z] ++
  cu_copies c bits m x y row.

(** comparison_unchecked.hpp:311-374. *)
Definition cu_assign (c : comp) (bits : Z) (m : cmode) (x y : var) (row : Z) (T : table) : table :=
  let w := wamount c in
  let xv := if greater m then vval T y else vval T x in
  let yv := if greater m then vval T x else vval T y in
  let diff := fsub yv xv in
  let r := (row + rc_rows w bits)%Z in
  let T1 := wset (wset (wset T (W c 0) r xv) (W c 1) r yv) (W c 2) r diff in
  let T2 := rc_assign c bits (wcell (W c 2) r) row T1 in
  if strict m then
    if cmp_bonus w m =? 0 then wset T2 (W c 3) r (inv0 diff)
    else wset T2 (W c 0) (r + 1) (inv0 diff)
  else T2.

(** ** comparison_checked *)

(** comparison_checked.hpp:305-320, the sums of x and of the difference. *)
Definition cc_sum_x (c : comp) : expr P :=
  let w := wamount c in
  fold_left (fun e i => $(2 ^ 2) * e + #(wv (W c i) 0)) (zseq 2 w) #(wv (W c (1 + 0)) 0)
  + $(2 ^ (2 * (w - 1))) * #(wv (W c 0) (-1)) - #(wv (W c 0) 1).
Definition cc_sum_d (c : comp) : expr P :=
  let w := wamount c in
  ($(2 ^ 2) * fold_left (fun e i => $(2 ^ 2) * e + #(wv (W c i) (-1))) (zseq 3 w) #(wv (W c (1 + 1)) (-1))
     + #(wv (W c 0) 0))
  + $(2 ^ (2 * (w - 1))) * #(wv (W c 1) (-1)) - #(wv (W c 1) 1).
(** comparison_checked.hpp:294-322. *)
Definition cc_gate1 (c : comp) : list (expr P) :=
  let w := wamount c in
  map (fun i => chunk_expr (wv (W c i) (-1)) 2) (zseq 2 w) ++
  map (fun i => chunk_expr (wv (W c i) 0) 2) (zseq 0 w) ++
  [cc_sum_x c; cc_sum_d c].
(** comparison_checked.hpp:324-346. *)
Definition cc_gate2 (c : comp) (m : cmode) : list (expr P) :=
  (#(wv (W c 2) 0) - #(wv (W c 0) 0) - #(wv (W c 1) 0)) ::
  (if strict m then
     [#(wv (W c 1) 0) * (if cmp_bonus (wamount c) m =? 0 then #(wv (W c 3) 0) else #(wv (W c 0) 1)) - $1]
   else []).
(** comparison_checked.hpp:348-368. *)
Definition cc_gate3 (c : comp) (bits : Z) : list (expr P) :=
  let w := wamount c in
  let pad := cc_padding w bits in
  [chunk_expr (if pad =? w - 2 then wv (W c 0) 1 else wv (W c (2 + pad)) 0) (bits mod 2);
   chunk_expr (wv (W c (1 + pad)) 1) (bits mod 2)].

(** comparison_checked.hpp:371-415; the zero is constant column number 0. *)
Definition cc_copies (c : comp) (bits : Z) (m : cmode) (x y : var) (row : Z) : list cmd :=
  let w := wamount c in
  let zero := ccell 0 row in
  let r := (row + cc_rows w bits m - 1 - cmp_bonus w m)%Z in
  let xv := wcell (W c 0) r in
  let yv := wcell (W c 2) r in
  [Copy zero (wcell (W c 0) row); Copy zero (wcell (W c 1) row)] ++
  map (fun i => Copy zero (wcell (W c (i + 1)) (row + 1))) (zseq 0 (cc_padding w bits)) ++
  map (fun i => Copy zero (wcell (W c (i + 2)) row)) (zseq 0 (cc_padding w bits)) ++
  [Copy x (if greater m then yv else xv); Copy y (if greater m then xv else yv)].

(** comparison_checked.hpp:417-454, 570-581. *)
Definition cc_circuit (c : comp) (bits : Z) (m : cmode) (x y : var) (row : Z) : list cmd :=
  let w := wamount c in
  let mid := (row + cc_rows w bits m - 2 - cmp_bonus w m)%Z in
  [Gate (cc_gate1 c) (step_rows (row + 1) mid 2);
   Gate (cc_gate2 c m) [mid + 1]%Z] ++
  (if cc_first (modulus_bits P) bits then [Gate (cc_gate3 c bits) [row]] else []) ++
  cc_copies c bits m x y row ++
  [SetConst (C c 0) row f0].

(** comparison_checked.hpp:518-564; [dx] and [dd] are the chunks of x and of
    the difference, [sum] the Horner sums over all chunks so far. *)
Definition cc_writes (c : comp) (bits : Z) (m : cmode) (dx dd : Z -> Z) (yv diff : F) (row : Z)
  : list (Z * Z * F) :=
  let w := wamount c in
  let cpr := (w - 1)%Z in
  let G := ((cc_rows w bits m - 1) / 2)%Z in
  let last := (row + 2 * G)%Z in
  [(W c 1, row, f0); (W c 0, row, f0)] ++
  flat_map (fun i =>
    map (fun j => (W c (j + 2), row + 2 * i, ofZ (dd (i * cpr + j)))%Z) (zseq 0 (cpr - 1)) ++
    [(W c 0, row + 2 * i + 1, ofZ (dd (i * cpr + cpr - 1)))%Z] ++
    map (fun j => (W c (j + 1), row + 2 * i + 1, ofZ (dx (i * cpr + j)))%Z) (zseq 0 cpr) ++
    [(W c 0, row + 2 * i + 2, fhorner (ofZ 4) (fun k => ofZ (dx k)) ((i + 1) * cpr))%Z;
     (W c 1, row + 2 * i + 2, fhorner (ofZ 4) (fun k => ofZ (dd k)) ((i + 1) * cpr))%Z])
    (zseq 0 G) ++
  [(W c 2, last, yv)] ++
  (if strict m then
     if cmp_bonus w m =? 0 then [(W c 3, last, inv0 diff)] else [(W c 0, last + 1, inv0 diff)%Z]
   else []).
(** comparison_checked.hpp:456-568. *)
Definition cc_assign (c : comp) (bits : Z) (m : cmode) (x y : var) (row : Z) (T : table) : table :=
  let xv := if greater m then vval T y else vval T x in
  let yv := if greater m then vval T x else vval T y in
  let diff := fsub yv xv in
  let pb := cc_padding_bits (wamount c) bits in
  wsets T (cc_writes c bits m (pchunk pb bits (fval xv)) (pchunk pb bits (fval diff)) yv diff row).

(** ** comparison_flag *)

(** comparison_flag.hpp:618-620 [greater_val]. *)
Definition cf_g : F := fopp (ofZ (2 ^ 2)).

(** comparison_flag.hpp:630-649, the small constraint generators. *)
Definition cf_flag_values (v : var) : expr P := #v * (#v - $1) * (#v - ecst cf_g).
Definition cf_t_update (t f x d : var) : expr P :=
  #t - ((#x - #d) * ($1 - #f) * (#f - ecst cf_g) * ecst (fopp (finv cf_g)) + #f).
Definition cf_t_f (t f : var) : expr P := #t * (#f - $1) * (#f - ecst cf_g).
Definition cf_difference (t f : var) : expr P :=
  fold_left (fun e i => e * (#t - #f - $i)) (zseq 1 (2 ^ 2)) (#t - #f).

(** comparison_flag.hpp:704-720, j = 0 for x and 1 for y. *)
Definition cf_sum (c : comp) (j : Z) : expr P :=
  #(wv (W c j) 1) -
  ($(2 ^ 2) * fold_left (fun e i => $(2 ^ 2) * e + #(wv (W c (3 + 2 * i + j)) 0))
                (zseq 0 (cf_cmp (wamount c) - 1)) #(wv (W c j) (-1))
   + #(wv (W c j) 0)).

(** comparison_flag.hpp:651-722. *)
Definition cf_gate1 (c : comp) : list (expr P) :=
  let n := cf_cmp (wamount c) in
  flat_map (fun i =>
    let k := (2 * i + (if i =? 0 then 0 else 1))%Z in
    [chunk_expr (wv (W c k) 0) 2; chunk_expr (wv (W c (k + 1)) 0) 2]) (zseq 0 n) ++
  map (fun i => cf_flag_values (wv (W c (2 + 2 * i)) (-1))) (zseq 1 n) ++
  [cf_flag_values (wv (W c 2) 1)] ++
  flat_map (fun i =>
    let f_prev := wv (W c (2 + 2 * i)) (-1) in
    let f_cur := wv (W c (3 + 2 * i + 1)) (-1) in
    let t := wv (W c (3 + 2 * i)) (-1) in
    [cf_t_update t f_prev (wv (W c (3 + 2 * i)) 0) (wv (W c (3 + 2 * i + 1)) 0);
     cf_t_f t f_cur; cf_difference t f_cur]) (zseq 0 (n - 1)) ++
  [cf_t_update (wv (W c 2) 0) (wv (W c (2 + 2 * (n - 1))) (-1)) (wv (W c 0) 0) (wv (W c 1) 0);
   cf_t_f (wv (W c 2) 0) (wv (W c 2) 1);
   cf_difference (wv (W c 2) 0) (wv (W c 2) 1);
   cf_sum c 0; cf_sum c 1].

(** comparison_flag.hpp:724-763. *)
Definition cf_gate2 (c : comp) (m : cmode) : list (expr P) :=
  let flag := if cf_bonus (wamount c) =? 0 then #(wv (W c 2) 0) else #(wv (W c 2) (-1)) in
  let out := if cf_bonus (wamount c) =? 0 then #(wv (W c 3) 0) else #(wv (W c 0) 0) in
  let g := cf_g in
  let g_m_1 := fsub cf_g f1 in
  let g_g_m_1 := fmul cf_g (fsub cf_g f1) in
  [match m with
   | FLAG => out - (ecst (fsub (fopp (fmul (ofZ 2) (finv g_g_m_1))) (finv g)) * flag * flag +
                    ecst (fadd (fadd (fmul (ofZ 2) (finv g_g_m_1)) (finv g)) f1) * flag)
   | GT => out + flag * (flag - ecst g) * ecst (finv g_m_1)
   | GE => out + (flag - ecst g) * (flag - ecst (fsub f1 g)) * ecst (finv g_g_m_1)
   | LT => out - flag * (flag - $1) * ecst (finv g_g_m_1)
   | LE => out - ($1 - flag * (flag - ecst g) * ecst (finv (fopp g_m_1)))
   end].

(** comparison_flag.hpp:765-784. *)
Definition cf_gate3 (c : comp) (bits : Z) : list (expr P) :=
  let pad := cf_padding (wamount c) bits in
  [chunk_expr (wv (W c (3 + 2 * pad)) 0) (bits mod 2);
   chunk_expr (wv (W c (3 + 2 * pad + 1)) 0) (bits mod 2)].

(** comparison_flag.hpp:787-814. *)
Definition cf_copies (c : comp) (bits : Z) (x y : var) (row : Z) : list cmd :=
  let w := wamount c in
  let zero := ccell 0 row in
  let r := (row + cf_rows w bits - 1 - cf_bonus w)%Z in
  map (fun i => Copy zero (wcell (W c i) row)) (zseq 0 3) ++
  flat_map (fun i => [Copy zero (wcell (W c (3 + 2 * i)) (row + 1));
                      Copy zero (wcell (W c (3 + 2 * i + 1)) (row + 1))]) (zseq 0 (cf_padding w bits)) ++
  [Copy x (wcell (W c 0) r); Copy y (wcell (W c 1) r)].

(** comparison_flag.hpp:404-439, 816-827. *)
Definition cf_circuit (c : comp) (bits : Z) (m : cmode) (x y : var) (row : Z) : list cmd :=
  let w := wamount c in
  [Gate (cf_gate1 c) (step_rows (row + 1) (row + cf_rows w bits - 2 - cf_bonus w) 2);
   Gate (cf_gate2 c m) [row + cf_rows w bits - 1]%Z] ++
  (if bits mod 2 =? 0 then [] else [Gate (cf_gate3 c bits) [row + 1]%Z]) ++
  cf_copies c bits x y row ++
  [SetConst (C c 0) row f0].
(** comparison_flag.hpp:244-253 [result_type]. *)
Definition cf_result (c : comp) (bits row : Z) : var :=
  wcell (W c (if cf_bonus (wamount c) =? 0 then 3 else 0)) (row + cf_rows (wamount c) bits - 1).

(** comparison_flag.hpp:506-510, [last_flag] after the first [n] chunks. *)
Definition cf_flag (dx dy : Z -> Z) (n : Z) : F :=
  fold_left (fun f k =>
    if feqb f f0 then
      if dy k <? dx k then f1 else if dx k =? dy k then f0 else cf_g
    else f) (zseq 0 n) f0.
(** comparison_flag.hpp:511-513.  The C++ converts a possibly negative [int]
    to the field; taken as reduction modulo p. *)
Definition cf_temp (dx dy : Z -> Z) (k : Z) : F :=
  if feqb (cf_flag dx dy k) f0 then ofZ (dx k - dy k) else cf_flag dx dy k.
(** comparison_flag.hpp:547-564. *)
Definition cf_output (m : cmode) (f : F) : F :=
  let b (x : bool) : F := if x then f1 else f0 in
  match m with
  | FLAG => if feqb f cf_g then fopp f1 else f
  | LT => b (feqb f cf_g)
  | LE => b (feqb f cf_g || feqb f f0)
  | GT => b (feqb f f1)
  | GE => b (feqb f f1 || feqb f f0)
  end.

(** comparison_flag.hpp:493-571. *)
Definition cf_writes (c : comp) (bits : Z) (m : cmode) (dx dy : Z -> Z) (row : Z) : list (Z * Z * F) :=
  let w := wamount c in
  let n := cf_cmp w in
  let G := cf_gates w bits in
  [(W c 2, row, f0); (W c 1, row, f0); (W c 0, row, f0)] ++
  flat_map (fun i =>
    flat_map (fun j =>
      let k := (i * n + j)%Z in
      let b := (3 + j * 2)%Z in
      [(W c b, row + 2 * i + 1, ofZ (dx k)); (W c (b + 1), row + 2 * i + 1, ofZ (dy k));
       (W c b, row + 2 * i, cf_temp dx dy k); (W c (b + 1), row + 2 * i, cf_flag dx dy (k + 1))]%Z)
      (zseq 0 (n - 1)) ++
    let k := (i * n + n - 1)%Z in
    [(W c 0, row + 2 * i + 1, ofZ (dx k)); (W c 1, row + 2 * i + 1, ofZ (dy k));
     (W c 2, row + 2 * i + 1, cf_temp dx dy k); (W c 2, row + 2 * i + 2, cf_flag dx dy (k + 1));
     (W c 0, row + 2 * i + 2, fhorner (ofZ 4) (fun k => ofZ (dx k)) (k + 1));
     (W c 1, row + 2 * i + 2, fhorner (ofZ 4) (fun k => ofZ (dy k)) (k + 1))]%Z)
    (zseq 0 G) ++
  [if cf_bonus w =? 0 then (W c 3, row + 2 * G, cf_output m (cf_flag dx dy (cf_padded w bits)))%Z
   else (W c 0, row + 2 * G + 1, cf_output m (cf_flag dx dy (cf_padded w bits)))%Z].
(** comparison_flag.hpp:441-576. *)
Definition cf_assign (c : comp) (bits : Z) (m : cmode) (x y : var) (row : Z) (T : table) : table :=
  let pb := cf_padding_bits (wamount c) bits in
  wsets T (cf_writes c bits m (pchunk pb bits (fval (vval T x))) (pchunk pb bits (fval (vval T y))) row).
(** comparison_flag.hpp:290-397 [calculate], 578-599 generate_empty_assignments. *)
Definition cf_calculate (w bits : Z) (m : cmode) (xv yv : F) : F :=
  let pb := cf_padding_bits w bits in
  cf_output m (cf_flag (pchunk pb bits (fval xv)) (pchunk pb bits (fval yv)) (cf_padded w bits)).
Definition cf_empty (c : comp) (bits : Z) (m : cmode) (x y : var) (row : Z) (T : table) : table :=
  wset T (W c 0) row (cf_calculate (wamount c) bits m (vval T x) (vval T y)).
Definition cf_empty_result (c : comp) (row : Z) : var := wcell (W c 0) row.

(** ** division_remainder *)

(** division_remainder.hpp:156-166, addresses X=0, Y=1, Q=2, R_=3,
    Y_MINUS_R=4 (152-154). *)
Definition dr_cell (c : comp) (a row : Z) : var := wcell (W c (a mod wamount c)) (row + a / wamount c).
Definition dr_gv (c : comp) (a : Z) : var := wv (W c (a mod wamount c)) (a / wamount c).

(** division_remainder.hpp:240-269. *)
Definition dr_gate (c : comp) : list (expr P) :=
  [#(dr_gv c 0) - #(dr_gv c 1) * #(dr_gv c 2) - #(dr_gv c 3);
   #(dr_gv c 1) - #(dr_gv c 3) - #(dr_gv c 4)].

(** division_remainder.hpp:295-348. *)
Definition dr_circuit (c : comp) (bits : Z) (chk : bool) (x y : var) (row : Z) : list cmd :=
  let w := wamount c in
  let r := (row + 1 + dr_bonus w)%Z in
  let n := rc_rows w bits in
  [Gate (dr_gate c) [row]] ++
  rc_circuit c bits (dr_cell c 4 row) r ++
  rc_circuit c bits (dr_cell c 2 row) (r + n) ++
  (if chk then
     rc_circuit c bits (dr_cell c 0 row) (r + n + n) ++
     rc_circuit c bits (dr_cell c 1 row) (r + n + n + n)
   else []) ++
  [Copy x (dr_cell c 0 row); Copy y (dr_cell c 1 row)].
(** division_remainder.hpp:176-186. *)
Definition dr_quotient (c : comp) (row : Z) : var := dr_cell c 2 row.
Definition dr_remainder (c : comp) (row : Z) : var := dr_cell c 3 row.

(** division_remainder.hpp:223-233 [calculate], same as 369-376. *)
Definition dr_calc (x y : F) : F * F :=
  (ofZ (if fval y =? 0 then 0 else fval x / fval y), ofZ (if fval y =? 0 then 0 else fval x mod fval y)).

Definition wsetv (T : table) (v : var) (a : F) : table := wset T (vidx v) (vrot v) a.
(** division_remainder.hpp:350-413. *)
Definition dr_assign (c : comp) (bits : Z) (chk : bool) (x y : var) (row : Z) (T : table) : table :=
  let w := wamount c in
  let xv := vval T x in
  let yv := vval T y in
  let q := fst (dr_calc xv yv) in
  let r := snd (dr_calc xv yv) in
  let T1 := wsetv (wsetv (wsetv (wsetv (wsetv T (dr_cell c 0 row) xv) (dr_cell c 1 row) yv)
              (dr_cell c 3 row) r) (dr_cell c 2 row) q) (dr_cell c 4 row) (fsub yv r) in
  let s := (row + 1 + dr_bonus w)%Z in
  let n := rc_rows w bits in
  let T2 := rc_assign c bits (dr_cell c 4 row) s T1 in
  let T3 := rc_assign c bits (dr_cell c 2 row) (s + n) T2 in
  if chk then
    rc_assign c bits (dr_cell c 1 row) (s + n + n + n)
      (rc_assign c bits (dr_cell c 0 row) (s + n + n) T3)
  else T3.
(** division_remainder.hpp:415-437. *)
Definition dr_empty (c : comp) (x y : var) (row : Z) (T : table) : table :=
  let r := dr_calc (vval T x) (vval T y) in
  wset (wset T (W c 0) row (fst r)) (W c 1) row (snd r).

End Model.

Arguments inv0 {P}. Arguments cu_gate {P}. Arguments cu_copies {P}. Arguments cu_circuit {P}. Arguments cu_assign {P}.
Arguments cc_sum_x {P}. Arguments cc_sum_d {P}. Arguments cc_gate1 {P}. Arguments cc_gate2 {P}. Arguments cc_gate3 {P}.
Arguments cc_copies {P}. Arguments cc_circuit {P}. Arguments cc_writes {P}. Arguments cc_assign {P}.
Arguments cf_g {P}. Arguments cf_flag_values {P}. Arguments cf_t_update {P}. Arguments cf_t_f {P}.
Arguments cf_difference {P}. Arguments cf_sum {P}. Arguments cf_gate1 {P}. Arguments cf_gate2 {P}. Arguments cf_gate3 {P}.
Arguments cf_copies {P}. Arguments cf_circuit {P}. Arguments cf_flag {P}. Arguments cf_temp {P}. Arguments cf_output {P}.
Arguments cf_writes {P}. Arguments cf_assign {P}. Arguments cf_calculate {P}. Arguments cf_empty {P}.
Arguments dr_gate {P}. Arguments dr_circuit {P}. Arguments dr_calc {P}. Arguments wsetv {P}. Arguments dr_assign {P}.
Arguments dr_empty {P}.
