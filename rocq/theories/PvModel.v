(** Models of the argument verifiers of the Placeholder proof system
    (include/nil/blueprint/components/systems/snark/plonk/placeholder/):
    permutation_argument_verifier.hpp, detail/gate_component.hpp,
    gate_argument_verifier.hpp, detail/f1_loop.hpp, detail/f3_loop.hpp and
    lookup_argument_verifier.hpp.

    Every [generate_gates] is modelled as the list of gates in the order of the
    [selectors] vector it returns, and every [enable_selector(selectors[i], r)]
    as [Gate (nth i) [r]]; an index past the end yields the empty gate. *)
From Coq Require Import ZArith List Lia Bool.
From Verif Require Import Base Field Plonk Bits FieldOpsModel FlexModel.
Import ListNotations.
Open Scope Z_scope.

(** [for (i = lo; i < hi; i += step)]. *)
Definition zsteps (lo hi step : Z) : list Z :=
  map (fun k => lo + step * k) (zseq 0 ((hi - lo + step - 1) / step)).

Section Model.
Variable P : params.
Notation F := (F P).
Notation table := (table P).
Notation cmd := (cmd P).

Definition dvar : var := wcell 0 0.
(** [assignment.enable_selector(selectors[i], row)]. *)
Definition enable (gs : list (expr P)) (row i : Z) : cmd :=
  Gate (if (0 <=? i) && (i <? zlen gs) then [znth (ecst f0) gs i] else []) [row].

(** ** permutation_argument_verifier.hpp *)

(** 88-112 input_type. *)
Record pv_in := mkPv {
  pv_f : list var; pv_se : list var; pv_ss : list var;
  pv_l0 : var; pv_v : var; pv_vz : var; pv_ql : var; pv_qp : var; pv_t1 : var; pv_t2 : var }.
(** 49-51 rows_amount. *)
Definition pv_rows (m : Z) : Z := m + 2.

Section PvGates.
Local Open Scope E_scope.
Let v (c : comp) i r : expr P := #(wv (W c i) r).
(** 237-251 constraint_1 to constraint_4. *)
Definition pv_c3 (c : comp) : expr P :=
  v c 0%Z 1%Z - v c 0%Z 0%Z * (v c 1%Z 1%Z + v c 2%Z 1%Z * v c 3%Z 0%Z + v c 3%Z 1%Z).
Definition pv_c4 (c : comp) : expr P :=
  v c 5%Z 1%Z - v c 5%Z 0%Z * (v c 1%Z 1%Z + v c 4%Z 1%Z * v c 3%Z 0%Z + v c 3%Z 1%Z).
Definition pv_gate1 (c : comp) : list (expr P) :=
  [ v c 0%Z 0%Z - v c 1%Z 0%Z - v c 2%Z 0%Z * v c 3%Z 0%Z - v c 3%Z 1%Z;
    v c 5%Z 0%Z - v c 1%Z 0%Z - v c 4%Z 0%Z * v c 3%Z 0%Z - v c 3%Z 1%Z;
    pv_c3 c; pv_c4 c ].
(** 254-264. *)
Definition pv_gate2 (c : comp) : list (expr P) :=
  [ pv_c3 c; pv_c4 c;
    v c 0%Z 0%Z - v c 0%Z (-1)%Z * (v c 1%Z 0%Z + v c 2%Z 0%Z * v c 3%Z 0%Z + v c 3%Z 1%Z);
    v c 5%Z 0%Z - v c 5%Z (-1)%Z * (v c 1%Z 0%Z + v c 4%Z 0%Z * v c 3%Z 0%Z + v c 3%Z 1%Z) ].
(** 266-274. *)
Definition pv_gate3 (c : comp) : list (expr P) :=
  [ v c 0%Z 0%Z - v c 0%Z (-1)%Z * (v c 1%Z 0%Z + v c 2%Z 0%Z * v c 3%Z 0%Z + v c 3%Z (-1)%Z);
    v c 5%Z 0%Z - v c 5%Z (-1)%Z * (v c 1%Z 0%Z + v c 4%Z 0%Z * v c 3%Z 0%Z + v c 3%Z (-1)%Z) ].
(** 276-286. *)
Definition pv_gate4 (c : comp) : list (expr P) :=
  [ v c 0%Z 0%Z - v c 3%Z 0%Z * ($1 - v c 1%Z 1%Z);
    v c 4%Z 0%Z - ($1 - v c 1%Z 0%Z - v c 2%Z 0%Z) *
      (v c 3%Z 1%Z * v c 5%Z (-1)%Z - v c 1%Z 1%Z * v c 0%Z (-1)%Z);
    v c 2%Z 1%Z - v c 1%Z 1%Z * v c 1%Z 1%Z;
    v c 0%Z 1%Z - v c 1%Z 0%Z * (v c 2%Z 1%Z - v c 1%Z 1%Z) ].
End PvGates.

(** 291-319 generate_copy_constraints. *)
Definition pv_copies (c : comp) (i : pv_in) (row : Z) : list cmd :=
  let m := zlen (pv_f i) in
  flat_map (fun k =>
    [ Copy (wcell (W c 1) (row + k)) (znth dvar (pv_f i) k);
      Copy (wcell (W c 2) (row + k)) (znth dvar (pv_se i) k);
      Copy (wcell (W c 3) (row + k)) (if Z.odd k then pv_t2 i else pv_t1 i);
      Copy (wcell (W c 4) (row + k)) (znth dvar (pv_ss i) k) ]) (zseq 0 m) ++
  [ Copy (wcell (W c 1) (row + m)) (pv_ql i); Copy (wcell (W c 2) (row + m)) (pv_qp i);
    Copy (wcell (W c 3) (row + m)) (pv_l0 i);
    Copy (wcell (W c 1) (row + m + 1)) (pv_v i); Copy (wcell (W c 3) (row + m + 1)) (pv_vz i) ].

(** 321-352 generate_circuit; [component.m] is the size of the input vectors
    (assertion 168). *)
Definition pv_circuit (c : comp) (i : pv_in) (row : Z) : list cmd :=
  let m := zlen (pv_f i) in
  [ Gate (pv_gate1 c) [row]; Gate (pv_gate2 c) (zsteps (row + 2) (row + m - m mod 2) 2) ] ++
  (if Z.odd m then [ Gate (pv_gate3 c) [row + m - 1] ] else []) ++
  [ Gate (pv_gate4 c) [row + m] ] ++ pv_copies c i row.

(** 156-223 generate_assignments: the running products (192-193). *)
Definition pv_prod (T : table) (i : pv_in) (ss : list var) (n : Z) : F :=
  fold_left (fun acc k => acc * (vval T (znth dvar (pv_f i) k) +
     vval T (pv_t1 i) * vval T (znth dvar ss k) + vval T (pv_t2 i)))%F (zseq 0 n) f1.
Definition pv_assign (c : comp) (i : pv_in) (row : Z) (T : table) : table :=
  let m := zlen (pv_f i) in
  let fe := pv_prod T i (pv_se i) in
  let fs := pv_prod T i (pv_ss i) in
  let l0 := vval T (pv_l0 i) in let vy := vval T (pv_v i) in let vz := vval T (pv_vz i) in
  let ql := vval T (pv_ql i) in let qp := vval T (pv_qp i) in
  wsets T (flat_map (fun k =>
      [ (W c 0, row + k, fe (k + 1)); (W c 1, row + k, vval T (znth dvar (pv_f i) k));
        (W c 2, row + k, vval T (znth dvar (pv_se i) k)); (W c 4, row + k, vval T (znth dvar (pv_ss i) k));
        (W c 5, row + k, fs (k + 1));
        (W c 3, row + k, if Z.odd k then vval T (pv_t2 i) else vval T (pv_t1 i)) ]) (zseq 0 m) ++
    [ (W c 0, row + m, (l0 * (f1 - vy))%F); (W c 1, row + m, ql); (W c 2, row + m, qp); (W c 3, row + m, l0);
      (W c 4, row + m, ((f1 - (ql + qp)) * (vz * fs m - vy * fe m))%F);
      (W c 0, row + m + 1, (ql * (vy * vy - vy))%F); (W c 1, row + m + 1, vy);
      (W c 2, row + m + 1, (vy * vy)%F); (W c 3, row + m + 1, vz) ]).

(** 115-122 result_type. *)
Definition pv_out (c : comp) (m row : Z) : var * var * var :=
  (wcell (W c 0) (row + pv_rows m - 2), wcell (W c 4) (row + pv_rows m - 2), wcell (W c 0) (row + pv_rows m - 1)).

(** ** detail/gate_component.hpp *)

(** 59-61, 147-149: the column of the last power-sum cell, and whether the
    result needs a row of its own. *)
Definition gc_last (w d : Z) : Z := (2 * d - 1) mod (w - 1) + 1.
Definition gc_extra (w d : Z) : bool := w - 3 <=? gc_last w d.
(** 55-64 rows_amount_internal. *)
Definition gc_rows (w d : Z) : Z :=
  ceil_rows (2 * d) (w - 1) + (if gc_extra w d then 1 else 0).

Section GcGates.
Local Open Scope E_scope.
Let v (c : comp) i r : expr P := #(wv (W c i) r).
(** 239-296 generate_gates. *)
Definition gc_gates (c : comp) : list (expr P) :=
  let w := wamount c in
  [ v c 2%Z 0%Z - v c 1%Z 0%Z * v c 0%Z 0%Z;
    v c 1%Z 0%Z - v c 0%Z 0%Z * (v c (w - 1)%Z (-1)%Z + v c (w - 2)%Z (-1)%Z);
    v c 2%Z 0%Z - v c 0%Z 0%Z * (v c 1%Z 0%Z + v c (w - 1)%Z (-1)%Z) ] ++
  map (fun i => v c i 0%Z - v c 0%Z 0%Z * (v c (i - 1)%Z 0%Z + v c (i - 2)%Z 0%Z)) (zseq 3 w) ++
  [ v c (w - 1)%Z 0%Z - v c 1%Z 0%Z * (v c 0%Z 0%Z + v c (w - 3)%Z (-1)%Z);
    v c (w - 1)%Z 0%Z - v c 1%Z 0%Z * (v c 0%Z 0%Z + v c (w - 2)%Z (-1)%Z);
    v c (w - 1)%Z 0%Z - v c 1%Z 0%Z * (v c 0%Z 0%Z + v c (w - 1)%Z (-1)%Z) ] ++
  map (fun i => v c (w - 1)%Z 0%Z - v c i 0%Z * (v c (i - 1)%Z 0%Z + v c (i - 2)%Z 0%Z)) (zseq 2 (w - 1)).
End GcGates.

(** 298-337 generate_copy_constraints; [_d] is the number of constraints less
    one. *)
Definition gc_copies (c : comp) (theta : var) (cs : list var) (q : var) (row : Z) : list cmd :=
  let w := wamount c in
  let d := zlen cs - 1 in
  let n := gc_rows w d in
  map (fun i => Copy (wcell (W c 0) (row + i)) theta) (zseq 0 (n - 1)) ++
  (if gc_extra w d then [] else [ Copy (wcell (W c 0) (row + n - 1)) theta ]) ++
  map (fun i => Copy (wcell (W c ((2 * i) mod (w - 1) + 1)) (row + (2 * i) / (w - 1))) (znth dvar cs (d - i)))
      (zseq 0 d) ++
  (let j := if gc_extra w d then 0 else (2 * d) mod (w - 1) + 1 in
   [ Copy (wcell (W c j) (row + n - 1)) (znth dvar cs 0); Copy (wcell (W c (j + 1)) (row + n - 1)) q ]).

(** 354-405: the selectors enabled, as pairs (selector, row). *)
Definition gc_enabled (w d : Z) : list (Z * Z) :=
  let n := gc_rows w d in
  let ex := gc_extra w d in
  let last := gc_last w d in
  let first_last := if (n =? 1) || ((n =? 2) && ex) then last else w - 1 in
  let tmp r := 2 - ((w - 1) mod 2) * (r mod 2) in
  let sel r i := (i, r) in
  [ (0, 0) ] ++ map (sel 0) (zsteps 4 (first_last + 1) 2) ++
  if 1 <? n then
    (* 371-377 *)
    flat_map (fun r => map (sel r) (zsteps (tmp r) w 2)) (zseq 1 (n - 2)) ++
    (* 379-391: [r] leaves the loop as the larger of 1 and n - 2 *)
    (let r := Z.max 1 (n - 2) in
     let mid := if ex && (r =? n - 2) then map (sel r) (zsteps (tmp r) (last + 1) 2)
                else if negb ex && (r =? n - 2) then map (sel r) (zsteps (tmp r) w 2) else [] in
     let r' := if r =? n - 2 then r + 1 else r in
     (* 393-402 *)
     mid ++ (if ex then [ (last + 3, r') ]
             else map (sel r') (zsteps (tmp r') (last + 1) 2) ++ [ (w + last + 3, r') ]))
  else [ (w + last + 3, 0) ].

(** 339-411 generate_circuit. *)
Definition gc_circuit (c : comp) (theta : var) (cs : list var) (q : var) (row : Z) : list cmd :=
  map (fun ir => enable (gc_gates c) (row + snd ir) (fst ir)) (gc_enabled (wamount c) (zlen cs - 1)) ++
  gc_copies c theta cs q row.

(** 187-237 generate_assignments: the sum after [k] constraints from the top
    (206-211). *)
Definition gc_sum (T : table) (theta : var) (cs : list var) (k : Z) : F :=
  fold_left (fun G i => vval T theta * (G + vval T (znth dvar cs (zlen cs - 1 - i))))%F (zseq 0 k) f0.
(** The entry [i] of the vector [assignments]. *)
Definition gc_val (T : table) (theta : var) (cs : list var) (i : Z) : F :=
  if i mod 2 =? 0 then vval T (znth dvar cs (zlen cs - 1 - i / 2)) else gc_sum T theta cs (i / 2 + 1).
Definition gc_assign (c : comp) (theta : var) (cs : list var) (q : var) (row : Z) (T : table) : table :=
  let w := wamount c in
  let d := zlen cs - 1 in
  let n := gc_rows w d in
  let G := (vval T q * (gc_sum T theta cs d + vval T (znth dvar cs 0)))%F in
  let qv := vval T q in
  let th := vval T theta in
  let T1 := wsets T
    (map (fun i => (W c (i mod (w - 1) + 1), row + i / (w - 1), gc_val T theta cs i)) (zseq 0 (2 * d)) ++
     map (fun r => (W c 0, row + r, th)) (zseq 0 ((2 * d - 1) / (w - 1) + 1))) in
  let j := if gc_extra w d then 0 else (2 * d) mod (w - 1) + 1 in
  let r := (2 * d - 1) / (w - 1) + (if gc_extra w d then 1 else 0) in
  let T2 := wset T1 (W c j) (row + r) (vval T1 (znth dvar cs 0)) in
  wset (wset T2 (W c (j + 1)) (row + r) qv) (W c (w - 1)) (row + r) G.

(** 130-137 result_type. *)
Definition gc_out (c : comp) (d row : Z) : var :=
  wcell (W c (wamount c - 1)) (row + gc_rows (wamount c) d - 1).

(** ** gate_argument_verifier.hpp *)

(** The call made for one gate: a multiplication for a single constraint, a
    gate component otherwise (245-270, 359-384). *)
Definition bc_one_rows (w g : Z) : Z := if g =? 1 then 1 else gc_rows w (g - 1).
Definition bc_one_circuit (c : comp) (theta : var) (cs : list var) (q : var) (row : Z) : list cmd :=
  if zlen cs =? 1 then multiplication_circuit c (znth dvar cs 0) q row else gc_circuit c theta cs q row.
Definition bc_one_assign (c : comp) (theta : var) (cs : list var) (q : var) (row : Z) (T : table) : table :=
  if zlen cs =? 1 then multiplication_assign c (znth dvar cs 0) q row T else gc_assign c theta cs q row T.
Definition bc_one_out (c : comp) (g row : Z) : var :=
  if g =? 1 then multiplication_result c row else gc_out c (g - 1) row.

(** The loop over the gates: [sizes] are the remaining gate sizes, [cs] the
    constraints from position [start] on. *)
Definition ztake {A} (n : Z) (l : list A) : list A := firstn (Z.to_nat n) l.
Definition zdrop {A} (n : Z) (l : list A) : list A := skipn (Z.to_nat n) l.
Fixpoint bc_circuits (c : comp) (theta : var) (sizes : list Z) (cs qs : list var) (row : Z) : list cmd :=
  match sizes with
  | [] => []
  | g :: gs => bc_one_circuit c theta (ztake g cs) (znth dvar qs 0) row ++
               bc_circuits c theta gs (zdrop g cs) (zdrop 1 qs) (row + bc_one_rows (wamount c) g)
  end.
Fixpoint bc_assigns (c : comp) (theta : var) (sizes : list Z) (cs qs : list var) (row : Z) (T : table) : table :=
  match sizes with
  | [] => T
  | g :: gs => bc_assigns c theta gs (zdrop g cs) (zdrop 1 qs) (row + bc_one_rows (wamount c) g)
                 (bc_one_assign c theta (ztake g cs) (znth dvar qs 0) row T)
  end.
Fixpoint bc_outs (c : comp) (sizes : list Z) (row : Z) : list var :=
  match sizes with
  | [] => []
  | g :: gs => bc_one_out c g row :: bc_outs c gs (row + bc_one_rows (wamount c) g)
  end.
Fixpoint bc_loop_rows (w : Z) (sizes : list Z) : Z :=
  match sizes with [] => 0 | g :: gs => bc_one_rows w g + bc_loop_rows w gs end.
Definition zsum (l : list Z) : Z := fold_right Z.add 0 l.
(** 65, 276, 393: the sum of all sizes but the last. *)
Definition bc_total (sizes : list Z) : Z := zsum (removelast sizes).
(** 51-70 rows_amount_internal. *)
Definition bc_rows (w : Z) (sizes : list Z) : Z :=
  bc_loop_rows w sizes + (if 1 <? zlen sizes then gc_rows w (bc_total sizes) else 0).
(** 281-292, 398-409: the inputs of the final gate. *)
Fixpoint bc_final_loop (zero : var) (sizes : list Z) (G : list var) (j sum : Z) (is : list Z) : list var :=
  match is with
  | [] => []
  | i :: is' =>
      if i =? sum then znth dvar G j :: bc_final_loop zero sizes G (j + 1) (sum + znth 0 sizes j) is'
      else zero :: bc_final_loop zero sizes G j sum is'
  end.
Definition bc_final_inputs (c : comp) (sizes : list Z) (row : Z) : list var :=
  bc_final_loop (ccell (C c 0) row) sizes (bc_outs c sizes row) 0 0 (zseq 0 (bc_total sizes + 1)).

(** 331-429 generate_circuit, generate_assignments_constant (198-215). *)
Definition bc_circuit (c : comp) (theta : var) (sizes : list Z) (cs qs : list var) (row : Z) : list cmd :=
  bc_circuits c theta sizes cs qs row ++
  if 1 <? zlen sizes then
    [ SetConst (C c 0) row f0; SetConst (C c 0) (row + 1) f1 ] ++
    gc_circuit c theta (bc_final_inputs c sizes row) (ccell (C c 0) (row + 1))
      (row + bc_loop_rows (wamount c) sizes)
  else [].
(** 217-306 generate_assignments. *)
Definition bc_assign (c : comp) (theta : var) (sizes : list Z) (cs qs : list var) (row : Z) (T : table) : table :=
  let T1 := bc_assigns c theta sizes cs qs row T in
  if 1 <? zlen sizes then
    gc_assign c theta (bc_final_inputs c sizes row) (ccell (C c 0) (row + 1))
      (row + bc_loop_rows (wamount c) sizes) T1
  else T1.
(** 153-163 result_type. *)
Definition bc_out (c : comp) (sizes : list Z) (row : Z) : var :=
  let w := wamount c in
  if (zlen sizes =? 1) && (znth 0 sizes 0 =? 1) then wcell (W c 2) (row + bc_rows w sizes - 1)
  else wcell (W c (w - 1)) (row + bc_rows w sizes - 1).

(** ** detail/f1_loop.hpp *)

(** 48-54 rows_amount_internal. *)
Definition f1_rows (w m : Z) : Z := Z.max 2 (ceil_rows (3 * m) (w - 1)).

Section F1Gates.
Local Open Scope E_scope.
Let v (c : comp) i r : expr P := #(wv (W c i) r).
(** The shape shared by all constraints of 249-451: [h - h_old * ((1 + beta) *
    gamma + s + beta * t)]. *)
Definition f1_body (be ga s t : expr P) : expr P := ($1 + be) * ga + s + be * t.
Definition f1_con (h ho be ga s t : expr P) : expr P := h - ho * f1_body be ga s t.
(** The constraints inside a row: [h] in column [j] of relative row [rr], [beta]
    and [gamma] in column 0 of relative rows [b] and [g] (264-272, 281-289,
    ...). *)
Definition f1_row (c : comp) (start rr b g : Z) : list (expr P) :=
  map (fun j => f1_con (v c j rr) (v c (j - 3)%Z rr) (v c 0%Z b) (v c 0%Z g) (v c (j - 2)%Z rr) (v c (j - 1)%Z rr))
      (zsteps start (wamount c) 3).
(** 233-454 generate_gates. *)
Definition f1_gates (c : comp) : list (expr P) :=
  let w := wamount c in
  [ v c 3%Z 0%Z - f1_body (v c 0%Z 0%Z) (v c 0%Z 1%Z) (v c 1%Z 0%Z) (v c 2%Z 0%Z) ] ++
  (* constraint_2 is the same in the three cases *)
  [ f1_con (v c 3%Z 0%Z) (v c (w - 1)%Z (-1)%Z) (v c 0%Z 0%Z) (v c 0%Z 1%Z) (v c 1%Z 0%Z) (v c 2%Z 0%Z) ] ++
  f1_row c 6 0 0 1 ++
  if (w mod 3 =? 1)%Z then
    [ f1_con (v c 3%Z 0%Z) (v c (w - 1)%Z (-1)%Z) (v c 0%Z (-1)%Z) (v c 0%Z 0%Z) (v c 1%Z 0%Z) (v c 2%Z 0%Z) ] ++
    f1_row c 6 0 (-1) 0 ++
    [ f1_con (v c 3%Z 0%Z) (v c (w - 1)%Z (-1)%Z) (v c 0%Z 0%Z) (v c 0%Z (-1)%Z) (v c 1%Z 0%Z) (v c 2%Z 0%Z) ] ++
    f1_row c 6 0 0 (-1)
  else if (w mod 3 =? 2)%Z then
    [ f1_con (v c 2%Z 0%Z) (v c (w - 2)%Z (-1)%Z) (v c 0%Z (-1)%Z) (v c 0%Z 0%Z) (v c (w - 1)%Z (-1)%Z) (v c 1%Z 0%Z) ] ++
    f1_row c 5 0 (-1) 0 ++
    [ f1_con (v c 1%Z 0%Z) (v c (w - 3)%Z (-1)%Z) (v c 0%Z 0%Z) (v c 0%Z (-1)%Z) (v c (w - 2)%Z (-1)%Z) (v c (w - 1)%Z (-1)%Z) ] ++
    f1_row c 4 0 0 (-1) ++
    [ f1_con (v c 3%Z 1%Z) (v c (w - 1)%Z 0%Z) (v c 0%Z 0%Z) (v c 0%Z (-1)%Z) (v c 1%Z 1%Z) (v c 2%Z 1%Z) ] ++
    f1_row c 6 1 0 (-1)
  else
    [ f1_con (v c 1%Z 0%Z) (v c (w - 3)%Z (-1)%Z) (v c 0%Z (-1)%Z) (v c 0%Z 0%Z) (v c (w - 2)%Z (-1)%Z) (v c (w - 1)%Z (-1)%Z) ] ++
    f1_row c 4 0 (-1) 0 ++
    [ f1_con (v c 2%Z 0%Z) (v c (w - 2)%Z (-1)%Z) (v c 0%Z 0%Z) (v c 0%Z (-1)%Z) (v c (w - 1)%Z (-1)%Z) (v c 1%Z 0%Z) ] ++
    f1_row c 5 0 0 (-1) ++
    [ f1_con (v c 3%Z 1%Z) (v c (w - 1)%Z 0%Z) (v c 0%Z 0%Z) (v c 0%Z (-1)%Z) (v c 1%Z 1%Z) (v c 2%Z 1%Z) ] ++
    f1_row c 6 1 0 (-1).
End F1Gates.

(** 523-594: the selectors enabled, as pairs (selector, row). *)
Definition f1_enabled (w m : Z) : list (Z * Z) :=
  let n := f1_rows w m in
  let last := if (3 * m) mod (w - 1) =? 0 then w - 1 else (3 * m) mod (w - 1) in
  let skip r j := negb ((r =? 0) && (j =? 3)) in
  [ (0, 0) ] ++
  if w <? 3 * m + 1 then
    if w mod 3 =? 1 then
      flat_map (fun r => map (fun j => ((r mod 2) * (w / 3) + j / 3, r)) (filter (skip r) (zsteps 3 w 3)))
        (zseq 0 (n - 1)) ++
      map (fun j => ((2 - (n - 1) mod 2) * (w / 3) + j / 3, n - 1)) (zsteps 3 (last + 1) 3)
    else if w mod 3 =? 2 then
      let pos r j := (r mod 3) * (w / 3) + (j + r mod 3) / 3 in
      flat_map (fun r => map (fun j => (pos r j, r)) (filter (skip r) (zsteps (3 - r mod 3) w 3)))
        (zseq 0 (n - 1)) ++
      (let r := n - 1 in
       let z := if r mod 3 =? 0 then 1 else 0 in
       map (fun j => (pos r j + z * (w - 1), r - z)) (zsteps (3 - r mod 3) (last + 1) 3))
    else
      let pos r j := (r mod 3) * (w / 3) + (j + r mod 3) / 3 - (if r mod 3 =? 2 then 1 else 0) in
      let start r := r mod 3 + 3 * (if r mod 3 =? 0 then 1 else 0) in
      flat_map (fun r => map (fun j => (pos r j, r)) (filter (skip r) (zsteps (start r) w 3)))
        (zseq 0 (n - 1)) ++
      (let r := n - 1 in
       let z := if r mod 3 =? 0 then 1 else 0 in
       map (fun j => (pos r j + z * (w - 1), r - z)) (zsteps (start r) (last + 1) 3))
  else map (fun j => (j / 3, 0)) (zsteps 6 (last + 1) 3).

(** Column 0 alternates between [beta] and [gamma] (213-227, 475-487). *)
Definition f1_is_beta (w r : Z) : bool :=
  if w mod 3 =? 1 then r mod 2 =? 0 else negb (r mod 3 =? 1).

(** 456-505 generate_copy_constraints; the [break] of 493 cuts the positions
    from [3 * m] on. *)
Definition f1_copies (c : comp) (beta gamma : var) (s t : list var) (row : Z) : list cmd :=
  let w := wamount c in
  let m := zlen s in
  let n := f1_rows w m in
  let last := if (3 * m) mod (w - 1) =? 0 then w else (3 * m) mod (w - 1) in
  flat_map (fun r =>
    Copy (wcell (W c 0) (row + r)) (if f1_is_beta w r then beta else gamma) ::
    flat_map (fun j =>
      let tmp := r * (w - 1) + j in
      if 3 * m <=? tmp then []
      else if tmp mod 3 =? 1 then [ Copy (wcell (W c j) (row + r)) (znth dvar s (tmp / 3)) ]
      else if tmp mod 3 =? 2 then [ Copy (wcell (W c j) (row + r)) (znth dvar t (tmp / 3)) ]
      else [])
      (zseq 1 (if r =? n - 1 then last else w))) (zseq 0 n).

(** 506-600 generate_circuit. *)
Definition f1_circuit (c : comp) (beta gamma : var) (s t : list var) (row : Z) : list cmd :=
  map (fun ir => enable (f1_gates c) (row + snd ir) (fst ir)) (f1_enabled (wamount c) (zlen s)) ++
  f1_copies c beta gamma s t row.

(** 173-231 generate_assignments: the running product (194-201). *)
Definition f1_h (T : table) (beta gamma : var) (s t : list var) (k : Z) : F :=
  fold_left (fun h i => h * ((f1 + vval T beta) * vval T gamma + vval T (znth dvar s i) +
                             vval T beta * vval T (znth dvar t i)))%F (zseq 0 k) f1.
(** The entry [i] of the vector [assignments]. *)
Definition f1_val (T : table) (beta gamma : var) (s t : list var) (i : Z) : F :=
  if i mod 3 =? 0 then vval T (znth dvar s (i / 3))
  else if i mod 3 =? 1 then vval T (znth dvar t (i / 3)) else f1_h T beta gamma s t (i / 3 + 1).
Definition f1_assign (c : comp) (beta gamma : var) (s t : list var) (row : Z) (T : table) : table :=
  let w := wamount c in
  let m := zlen s in
  wsets T
    (map (fun i => (W c (i mod (w - 1) + 1), row + i / (w - 1), f1_val T beta gamma s t i)) (zseq 0 (3 * m)) ++
     map (fun r => (W c 0, row + r, if f1_is_beta w r then vval T beta else vval T gamma))
         (zseq 0 (Z.max 1 ((3 * m - 1) / (w - 1)) + 1))).

(** 125-139 result_type. *)
Definition f1_out (c : comp) (m row : Z) : var :=
  let w := wamount c in
  let j := if (3 * m) mod (w - 1) =? 0 then w - 1 else (3 * m) mod (w - 1) in
  if 3 * m + 1 <=? w then wcell (W c j) row else wcell (W c j) (row + f1_rows w m - 1).

(** ** detail/f3_loop.hpp *)

(** 48-52 rows_amount_internal. *)
Definition f3_rows (w m : Z) : Z := ceil_rows (4 * m) w.

Section F3Gates.
Local Open Scope E_scope.
Let v (c : comp) i r : expr P := #(wv (W c i) r).
(** The shape shared by the constraints of 220-278. *)
Definition f3_con (f fo a s t : expr P) : expr P := f - fo - (s - t) * a.
Definition f3_mid (c : comp) (j : Z) : expr P :=
  f3_con (v c j 0%Z) (v c (j - 4)%Z 0%Z) (v c (j - 3)%Z 0%Z) (v c (j - 2)%Z 0%Z) (v c (j - 1)%Z 0%Z).
(** 225 (width divisible by 4), 241, 269: the last cell of the previous row. *)
Definition f3_wrap (c : comp) : expr P :=
  f3_con (v c 3%Z 0%Z) (v c (wamount c - 1)%Z (-1)%Z) (v c 0%Z 0%Z) (v c 1%Z 0%Z) (v c 2%Z 0%Z).
(** 236, 259. *)
Definition f3_wrap1 (c : comp) : expr P :=
  let w := wamount c in
  f3_con (v c 1%Z 0%Z) (v c (w - 3)%Z (-1)%Z) (v c (w - 2)%Z (-1)%Z) (v c (w - 1)%Z (-1)%Z) (v c 0%Z 0%Z).
(** 207-282 generate_gates; 233 pushes [constraint_2] again where 230-232
    define the constraint of column [j]. *)
Definition f3_gates (c : comp) : list (expr P) :=
  let w := wamount c in
  [ v c 3%Z 0%Z - (v c 1%Z 0%Z - v c 2%Z 0%Z) * v c 0%Z 0%Z ] ++
  if (w mod 4 =? 0)%Z then
    [ f3_wrap c ] ++ map (fun _ => f3_wrap c) (zsteps 7 w 4)
  else if (w mod 4 =? 2)%Z then
    [ f3_wrap1 c; f3_wrap c ] ++ map (f3_mid c) (zsteps 5 w 2)
  else
    [ f3_con (v c 0%Z 0%Z) (v c (w - 4)%Z (-1)%Z) (v c (w - 3)%Z (-1)%Z) (v c (w - 2)%Z (-1)%Z) (v c (w - 1)%Z (-1)%Z);
      f3_wrap1 c;
      f3_con (v c 2%Z 0%Z) (v c (w - 2)%Z (-1)%Z) (v c (w - 1)%Z (-1)%Z) (v c 0%Z 0%Z) (v c 1%Z 0%Z);
      f3_wrap c ] ++ map (f3_mid c) (zseq 4 w).
End F3Gates.

(** 336-396: the selectors enabled, as pairs (selector, row); [(x - 2) * _] in
    [size_t] arithmetic wraps around to the same value. *)
Definition f3_enabled (w m : Z) : list (Z * Z) :=
  let n := f3_rows w m in
  let last := if (4 * m) mod w =? 0 then w else (4 * m) mod w in
  let x := w mod 4 in
  let skip r j := negb ((r =? 0) && (j =? 3)) in
  let idx j := if x =? 0 then j / 4 + 1 else if x =? 2 then j / 2 + 1 else j + 1 in
  let start r := if x =? 0 then 3 else if x =? 2 then 3 - 2 * (r mod 2)
                 else if r mod 4 =? 0 then 3 else (3 - x) + (x - 2) * (r mod 4 - 1) in
  [ (0, 0) ] ++
  flat_map (fun r => map (fun j => (idx j, r)) (filter (skip r) (zsteps (start r) w 4))) (zseq 0 (n - 1)) ++
  map (fun j => (idx j, n - 1)) (zsteps (start (n - 1)) last 4).

(** 284-317 generate_copy_constraints. *)
Definition f3_copies (c : comp) (al s t : list var) (row : Z) : list cmd :=
  let w := wamount c in
  let m := zlen s in
  let n := f3_rows w m in
  let last := if (4 * m) mod w =? 0 then w else (4 * m) mod w in
  flat_map (fun r =>
    flat_map (fun j =>
      let tmp := r * w + j in
      if tmp mod 4 =? 0 then [ Copy (wcell (W c j) (row + r)) (znth dvar al (tmp / 4)) ]
      else if tmp mod 4 =? 1 then [ Copy (wcell (W c j) (row + r)) (znth dvar s (tmp / 4)) ]
      else if tmp mod 4 =? 2 then [ Copy (wcell (W c j) (row + r)) (znth dvar t (tmp / 4)) ]
      else [])
      (zseq 0 (if r =? n - 1 then last else w))) (zseq 0 n).

(** 319-402 generate_circuit. *)
Definition f3_circuit (c : comp) (al s t : list var) (row : Z) : list cmd :=
  map (fun ir => enable (f3_gates c) (row + snd ir) (fst ir)) (f3_enabled (wamount c) (zlen s)) ++
  f3_copies c al s t row.

(** 167-205 generate_assignments: the running sum (184-193). *)
Definition f3_sum (T : table) (al s t : list var) (k : Z) : F :=
  fold_left (fun acc i => acc + (vval T (znth dvar s i) - vval T (znth dvar t i)) * vval T (znth dvar al i))%F
    (zseq 0 k) f0.
(** The entry [i] of the vector [assignments]. *)
Definition f3_val (T : table) (al s t : list var) (i : Z) : F :=
  if i mod 4 =? 0 then vval T (znth dvar al (i / 4))
  else if i mod 4 =? 1 then vval T (znth dvar s (i / 4))
  else if i mod 4 =? 2 then vval T (znth dvar t (i / 4)) else f3_sum T al s t (i / 4 + 1).
Definition f3_assign (c : comp) (al s t : list var) (row : Z) (T : table) : table :=
  let w := wamount c in
  wsets T (map (fun i => (W c (i mod w), row + i / w, f3_val T al s t i)) (zseq 0 (4 * zlen s))).

(** 123-133 result_type. *)
Definition f3_out (c : comp) (m row : Z) : var :=
  let w := wamount c in
  let l := if (4 * m) mod w =? 0 then w else (4 * m) mod w in
  wcell (W c (l - 1)) (row + f3_rows w m - 1).

(** ** lookup_argument_verifier.hpp *)

(** 117-122: the constructor arguments: constraints per lookup gate, inputs per
    constraint, options per table, columns per table. *)
Record lv_shape := mkShape { ls_gates : list Z; ls_inputs : list Z; ls_options : list Z; ls_columns : list Z }.
(** 179-227 input_type. *)
Record lv_in := mkLv {
  lv_theta : var; lv_beta : var; lv_gamma : var; lv_alphas : list var;
  lv_v : var; lv_vs : var; lv_ql : var; lv_qls : var; lv_qb : var; lv_qbs : var; lv_l0 : var;
  lv_gsel : list var; lv_gids : list var; lv_gin : list var;
  lv_tsel : list var; lv_topt : list var; lv_stsel : list var; lv_stopt : list var;
  lv_sorted : list var }.

(** The nested loops over the tables and their options (395-447), and over the
    gates and their constraints (455-480): the table, respectively gate, of each
    iteration. *)
Definition lv_jobs (sizes : list Z) : list Z :=
  flat_map (fun i => map (fun _ => i) (zseq 0 (znth 0 sizes i))) (zseq 0 (zlen sizes)).

(** One option of table [i] (399-446, 776-823): the gate component and the
    multiplication by the mask, for the table and its shifted copy. *)
Definition lv_topts (c : comp) (sh : lv_shape) (srow i start : Z) (opts : list var) : list var :=
  ccell (C c 0) (srow + i) :: ztake (znth 0 (ls_columns sh) i) (zdrop start opts).
Definition lv_trows (w : Z) (sh : lv_shape) (i : Z) : Z := 2 * gc_rows w (znth 0 (ls_columns sh) i) + 2 * 1.
Fixpoint lv_tcircuit (c : comp) (sh : lv_shape) (x : lv_in) (srow : Z) (jobs : list Z) (row start : Z) : list cmd :=
  match jobs with
  | [] => []
  | i :: js =>
      let d := znth 0 (ls_columns sh) i in
      let g := gc_rows (wamount c) d in
      gc_circuit c (lv_theta x) (lv_topts c sh srow i start (lv_topt x)) (znth dvar (lv_tsel x) i) row ++
      multiplication_circuit c (gc_out c d row) (wcell (W c 2) srow) (row + g) ++
      gc_circuit c (lv_theta x) (lv_topts c sh srow i start (lv_stopt x)) (znth dvar (lv_stsel x) i) (row + g + 1) ++
      multiplication_circuit c (gc_out c d (row + g + 1)) (wcell (W c 2) (srow + 1)) (row + g + 1 + g) ++
      lv_tcircuit c sh x srow js (row + lv_trows (wamount c) sh i) (start + d)
  end.
Fixpoint lv_tassign (c : comp) (sh : lv_shape) (x : lv_in) (srow : Z) (jobs : list Z) (row start : Z) (T : table) : table :=
  match jobs with
  | [] => T
  | i :: js =>
      let d := znth 0 (ls_columns sh) i in
      let g := gc_rows (wamount c) d in
      let T1 := gc_assign c (lv_theta x) (lv_topts c sh srow i start (lv_topt x)) (znth dvar (lv_tsel x) i) row T in
      let T2 := multiplication_assign c (gc_out c d row) (wcell (W c 2) srow) (row + g) T1 in
      let T3 := gc_assign c (lv_theta x) (lv_topts c sh srow i start (lv_stopt x)) (znth dvar (lv_stsel x) i) (row + g + 1) T2 in
      let T4 := multiplication_assign c (gc_out c d (row + g + 1)) (wcell (W c 2) (srow + 1)) (row + g + 1 + g) T3 in
      lv_tassign c sh x srow js (row + lv_trows (wamount c) sh i) (start + d) T4
  end.
(** [lookup_values] and [shifted_lookup_values], paired. *)
Fixpoint lv_touts (c : comp) (sh : lv_shape) (jobs : list Z) (row : Z) : list (var * var) :=
  match jobs with
  | [] => []
  | i :: js =>
      let g := gc_rows (wamount c) (znth 0 (ls_columns sh) i) in
      (multiplication_result c (row + g), multiplication_result c (row + g + 1 + g)) ::
      lv_touts c sh js (row + lv_trows (wamount c) sh i)
  end.
Fixpoint lv_tloop_rows (w : Z) (sh : lv_shape) (jobs : list Z) : Z :=
  match jobs with [] => 0 | i :: js => lv_trows w sh i + lv_tloop_rows w sh js end.

(** One lookup constraint (459-479, 836-856); [ctr] counts the constraints. *)
Definition lv_gopts (x : lv_in) (ctr start n : Z) : list var :=
  znth dvar (lv_gids x) ctr :: ztake n (zdrop start (lv_gin x)).
Fixpoint lv_gcircuit (c : comp) (sh : lv_shape) (x : lv_in) (jobs : list Z) (ctr row start : Z) : list cmd :=
  match jobs with
  | [] => []
  | g :: js =>
      let n := znth 0 (ls_inputs sh) ctr in
      gc_circuit c (lv_theta x) (lv_gopts x ctr start n) (znth dvar (lv_gsel x) g) row ++
      lv_gcircuit c sh x js (ctr + 1) (row + gc_rows (wamount c) n) (start + n)
  end.
Fixpoint lv_gassign (c : comp) (sh : lv_shape) (x : lv_in) (jobs : list Z) (ctr row start : Z) (T : table) : table :=
  match jobs with
  | [] => T
  | g :: js =>
      let n := znth 0 (ls_inputs sh) ctr in
      lv_gassign c sh x js (ctr + 1) (row + gc_rows (wamount c) n) (start + n)
        (gc_assign c (lv_theta x) (lv_gopts x ctr start n) (znth dvar (lv_gsel x) g) row T)
  end.
Fixpoint lv_gouts (c : comp) (sh : lv_shape) (jobs : list Z) (ctr row : Z) : list var :=
  match jobs with
  | [] => []
  | g :: js =>
      let n := znth 0 (ls_inputs sh) ctr in
      gc_out c n row :: lv_gouts c sh js (ctr + 1) (row + gc_rows (wamount c) n)
  end.
Fixpoint lv_gloop_rows (w : Z) (sh : lv_shape) (jobs : list Z) (ctr : Z) : Z :=
  match jobs with [] => 0 | g :: js => gc_rows w (znth 0 (ls_inputs sh) ctr) + lv_gloop_rows w sh js (ctr + 1) end.

(** 482-491, 859-868: the three slices of [sorted]. *)
Definition lv_k (x : lv_in) : Z := (zlen (lv_sorted x) + 1) / 3.
Definition lv_slice (x : lv_in) (lo hi : Z) : list var := map (fun i => znth dvar (lv_sorted x) i) (zseq lo hi).
Definition lv_s0 (x : lv_in) : list var := lv_slice x 0 (lv_k x).
Definition lv_s1 (x : lv_in) : list var := lv_slice x (lv_k x) (2 * lv_k x).
Definition lv_s2 (x : lv_in) : list var := lv_slice x (2 * lv_k x) (3 * lv_k x - 1).

(** Rows after the mask, where each stage of the component starts (369, 455,
    493-553). *)
Record lv_plan := mkPlan {
  lp_gate : Z; lp_h : Z; lp_g1 : Z; lp_g2 : Z; lp_gm : Z; lp_f3 : Z; lp_fm : Z; lp_a : Z; lp_b : Z; lp_end : Z }.
(** [nh], [ng], [nv]: sizes of the three product loops. *)
Definition lv_plan_of (w : Z) (sh : lv_shape) (nh ng nv nf row : Z) : lv_plan :=
  let tj := lv_jobs (ls_options sh) in
  let gj := lv_jobs (ls_gates sh) in
  let r1 := row + 2 + lv_tloop_rows w sh tj in
  let r2 := r1 + lv_gloop_rows w sh gj 0 in
  let r3 := r2 + f1_rows w nh in
  let r4 := r3 + f1_rows w ng in
  let r5 := r4 + f1_rows w nv in
  let r6 := r5 + 1 in
  let r7 := r6 + f3_rows w nf in
  let r8 := r7 + 1 in
  let r9 := r8 + 4 / w + 1 in
  mkPlan r1 r2 r3 r4 r5 r6 r7 r8 r9 (r9 + 5 / w + 1).
(** The rows reached by generate_circuit and generate_assignments, where the
    loops have the sizes of the vectors passed to them. *)
Definition lv_plan_run (w : Z) (sh : lv_shape) (x : lv_in) (row : Z) : lv_plan :=
  lv_plan_of w sh (lv_k x) (zlen (lv_jobs (ls_gates sh))) (zlen (lv_jobs (ls_options sh))) (lv_k x - 1) row.
(** 54-95 rows_amount_internal: the loops have the sizes of the shape. *)
Definition lv_plan_rows (w : Z) (sh : lv_shape) (row : Z) : lv_plan :=
  let ng := zlen (lv_jobs (ls_gates sh)) in
  let nv := zlen (lv_jobs (ls_options sh)) in
  lv_plan_of w sh (ng + nv) ng nv (ng + nv - 1) row.
Definition lv_rows (w : Z) (sh : lv_shape) : Z := lp_end (lv_plan_rows w sh 0).

Section LvGates.
Local Open Scope E_scope.
(** 604-605. *)
Definition lv_mask_gate (c : comp) : list (expr P) :=
  [ #(wv (W c 2%Z) 0) - ($1 - (#(wv (W c 1%Z) 0) + #(wv (W c 0%Z) 0))) ].
(** 607-614: the cell number [i] of a block of consecutive cells. *)
Let l (c : comp) (i : Z) : expr P := #(wv (W c (i mod wamount c)%Z) (i / wamount c)%Z).
(** 616-625. *)
Definition lv_gate_a (c : comp) : list (expr P) :=
  [ l c 2%Z - ($1 - l c 0%Z) * l c 1%Z; l c 4%Z - l c 3%Z * (l c 0%Z * l c 0%Z - l c 0%Z) ].
(** 627-642. *)
Definition lv_gate_b (c : comp) : list (expr P) :=
  [ l c 5%Z - l c 1%Z * (l c 3%Z * l c 2%Z - l c 0%Z * l c 4%Z) ].
End LvGates.

(** 647-725 generate_copy_constraints: the rows are recomputed from the shape,
    with the two inner product loops in the other order. *)
Definition lv_copies (c : comp) (sh : lv_shape) (x : lv_in) (row : Z) : list cmd :=
  let w := wamount c in
  let p := lv_plan_rows w sh row in
  let m := zlen (lv_jobs (ls_options sh)) + zlen (lv_jobs (ls_gates sh)) in
  let hcol := if (3 * m) mod (w - 1) =? 0 then w - 1 else (3 * m) mod (w - 1) in
  let hrow := lp_g1 p - (if 3 * m + 1 <=? w then 2 else 1) in
  [ Copy (wcell (W c 0) row) (lv_ql x); Copy (wcell (W c 0) (row + 1)) (lv_qls x);
    Copy (wcell (W c 1) row) (lv_qb x); Copy (wcell (W c 1) (row + 1)) (lv_qbs x);
    Copy (wcell (W c 0) (lp_a p)) (lv_v x); Copy (wcell (W c 1) (lp_a p)) (lv_l0 x);
    Copy (wcell (W c 3) (lp_a p)) (lv_ql x);
    Copy (wcell (W c 0) (lp_b p)) (lv_v x); Copy (wcell (W c 1) (lp_b p)) (wcell (W c 2) row);
    Copy (wcell (W c 2) (lp_b p)) (wcell (W c hcol) hrow); Copy (wcell (W c 3) (lp_b p)) (lv_vs x);
    Copy (wcell (W c (4 mod w)) (lp_b p + 4 / w)) (wcell (W c 2) (lp_gm p)) ].

(** 310-324 generate_assignments_constant. *)
Definition lv_consts (c : comp) (x : lv_in) (row : Z) : list cmd :=
  map (fun i => SetConst (C c 0) (row + i) (ofZ (1 + i))) (zseq 0 (zlen (lv_tsel x))).

(** 727-937 generate_circuit. *)
Definition lv_circuit (c : comp) (sh : lv_shape) (x : lv_in) (row : Z) : list cmd :=
  let w := wamount c in
  let p := lv_plan_run w sh x row in
  let tj := lv_jobs (ls_options sh) in
  let gj := lv_jobs (ls_gates sh) in
  let tv := lv_touts c sh tj (row + 2) in
  let gv := lv_gouts c sh gj 0 (lp_gate p) in
  lv_consts c x row ++
  lv_tcircuit c sh x row tj (row + 2) 0 ++
  lv_gcircuit c sh x gj 0 (lp_gate p) 0 ++
  f1_circuit c (lv_beta x) (lv_gamma x) (lv_s0 x) (lv_s1 x) (lp_h p) ++
  f1_circuit c (lv_beta x) (lv_gamma x) gv gv (lp_g1 p) ++
  f1_circuit c (lv_beta x) (lv_gamma x) (map fst tv) (map snd tv) (lp_g2 p) ++
  multiplication_circuit c (f1_out c (zlen gv) (lp_g1 p)) (f1_out c (zlen tv) (lp_g2 p)) (lp_gm p) ++
  f3_circuit c (lv_alphas x) (tl (lv_s0 x)) (lv_s2 x) (lp_f3 p) ++
  multiplication_circuit c (f3_out c (lv_k x - 1) (lp_f3 p)) (lv_l0 x) (lp_fm p) ++
  [ Gate (lv_mask_gate c) [row; row + 1]; Gate (lv_gate_a c) [lp_a p]; Gate (lv_gate_b c) [lp_b p] ] ++
  lv_copies c sh x row.

(** 326-588 generate_assignments. *)
Definition lv_block (c : comp) (row : Z) (vals : list F) : list (Z * Z * F) :=
  map (fun i => (W c (i mod wamount c), row + i / wamount c, znth f0 vals i)) (zseq 0 (zlen vals)).
Definition lv_assign (c : comp) (sh : lv_shape) (x : lv_in) (row : Z) (T : table) : table :=
  let w := wamount c in
  let p := lv_plan_run w sh x row in
  let tj := lv_jobs (ls_options sh) in
  let gj := lv_jobs (ls_gates sh) in
  let tv := lv_touts c sh tj (row + 2) in
  let gv := lv_gouts c sh gj 0 (lp_gate p) in
  let ql := vval T (lv_ql x) in let qls := vval T (lv_qls x) in
  let qb := vval T (lv_qb x) in let qbs := vval T (lv_qbs x) in
  let l0 := vval T (lv_l0 x) in let vl := vval T (lv_v x) in let vls := vval T (lv_vs x) in
  let mask := (f1 - (ql + qb))%F in
  let T1 := wsets T [ (W c 0, row, ql); (W c 1, row, qb); (W c 2, row, mask);
                      (W c 0, row + 1, qls); (W c 1, row + 1, qbs); (W c 2, row + 1, (f1 - (qls + qbs))%F) ] in
  let T2 := lv_tassign c sh x row tj (row + 2) 0 T1 in
  let T3 := lv_gassign c sh x gj 0 (lp_gate p) 0 T2 in
  let T4 := f1_assign c (lv_beta x) (lv_gamma x) (lv_s0 x) (lv_s1 x) (lp_h p) T3 in
  let h := vval T4 (f1_out c (lv_k x) (lp_h p)) in
  let T5 := f1_assign c (lv_beta x) (lv_gamma x) gv gv (lp_g1 p) T4 in
  let g1 := vval T5 (f1_out c (zlen gv) (lp_g1 p)) in
  let T6 := f1_assign c (lv_beta x) (lv_gamma x) (map fst tv) (map snd tv) (lp_g2 p) T5 in
  let g2 := vval T6 (f1_out c (zlen tv) (lp_g2 p)) in
  let g := (g1 * g2)%F in
  let T7 := multiplication_assign c (f1_out c (zlen gv) (lp_g1 p)) (f1_out c (zlen tv) (lp_g2 p)) (lp_gm p) T6 in
  let F2 := (mask * (vls * h - vl * g))%F in
  let T8 := f3_assign c (lv_alphas x) (tl (lv_s0 x)) (lv_s2 x) (lp_f3 p) T7 in
  let T9 := multiplication_assign c (f3_out c (lv_k x - 1) (lp_f3 p)) (lv_l0 x) (lp_fm p) T8 in
  wsets T9 (lv_block c (lp_a p) [ vl; l0; ((f1 - vl) * l0)%F; ql; (ql * (vl * vl - vl))%F ] ++
            lv_block c (lp_b p) [ vl; mask; h; vls; g; F2 ]).

(** 229-241 result_type. *)
Definition lv_out (c : comp) (sh : lv_shape) (row : Z) : var * var * var * var :=
  let w := wamount c in
  let n := lv_rows w sh in
  let off := 4 / w + 5 / w + 2 in
  (wcell (W c (2 mod w)) (row + n - off + 2 / w), wcell (W c (4 mod w)) (row + n - off + 4 / w),
   wcell (W c (5 mod w)) (row + n - 1), wcell (W c 2) (row + n - off - 1)).

End Model.

Arguments enable {P}. Arguments pv_gate1 {P}. Arguments pv_gate2 {P}. Arguments pv_gate3 {P}. Arguments pv_gate4 {P}.
Arguments pv_c3 {P}. Arguments pv_c4 {P}. Arguments pv_copies {P}. Arguments pv_circuit {P}. Arguments pv_prod {P}.
Arguments pv_assign {P}. Arguments gc_gates {P}. Arguments gc_copies {P}. Arguments gc_circuit {P}. Arguments gc_sum {P}.
Arguments gc_val {P}. Arguments gc_assign {P}. Arguments bc_one_circuit {P}. Arguments bc_one_assign {P}.
Arguments bc_circuits {P}. Arguments bc_assigns {P}. Arguments bc_circuit {P}. Arguments bc_assign {P}.
Arguments f1_body {P}. Arguments f1_con {P}. Arguments f1_row {P}. Arguments f1_gates {P}. Arguments f1_copies {P}.
Arguments f1_circuit {P}. Arguments f1_h {P}. Arguments f1_val {P}. Arguments f1_assign {P}.
Arguments f3_con {P}. Arguments f3_mid {P}. Arguments f3_wrap {P}. Arguments f3_wrap1 {P}. Arguments f3_gates {P}.
Arguments f3_copies {P}. Arguments f3_circuit {P}. Arguments f3_sum {P}. Arguments f3_val {P}. Arguments f3_assign {P}.
Arguments lv_tcircuit {P}. Arguments lv_tassign {P}. Arguments lv_gcircuit {P}. Arguments lv_gassign {P}.
Arguments lv_mask_gate {P}. Arguments lv_gate_a {P}. Arguments lv_gate_b {P}. Arguments lv_copies {P}.
Arguments lv_consts {P}. Arguments lv_circuit {P}. Arguments lv_block {P}. Arguments lv_assign {P}.
