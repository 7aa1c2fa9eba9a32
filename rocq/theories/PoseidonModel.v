(** The Poseidon permutation components.

    Source: include/nil/blueprint/components/hashes/poseidon/plonk/poseidon.hpp
    (15 columns) and include/nil/blueprint/components/systems/snark/plonk/
    flexible/poseidon.hpp (any multiple of three columns).  The matrix [mds] and
    the round constants [rc] (poseidon_constants.hpp) are parameters: every
    statement holds for all of them. *)
From Coq Require Import ZArith List Lia Bool.
From Verif Require Import Base Field Plonk Bits FlexModel.
Import ListNotations.
Open Scope Z_scope.

Section Model.
Variable P : params.
Notation F := (F P).
Notation table := (table P).
Notation cmd := (cmd P).
Variable mds : Z -> Z -> F.
Variable rc : Z -> Z -> F.

(** poseidon.hpp:56-61: rounds_amount, state_size 3, sbox_alpha 7. *)
Definition rounds : Z := 55.

(** ** Values: poseidon.hpp:166-177 (and 178-222), flexible/poseidon.hpp:205-220 *)

Definition st3 : Type := (F * F * F)%type.
Definition t3 (s : st3) (j : Z) : F :=
  if j =? 0 then fst (fst s) else if j =? 1 then snd (fst s) else snd s.
Definition ps_word (r : Z) (s : st3) (j : Z) : F :=
  fadd (fadd (fadd (fmul (fpow (t3 s 0) 7) (mds j 0)) (fmul (fpow (t3 s 1) 7) (mds j 1)))
             (fmul (fpow (t3 s 2) 7) (mds j 2))) (rc r j).
Definition ps_next (r : Z) (s : st3) : st3 := (ps_word r s 0, ps_word r s 1, ps_word r s 2).
(** The state after [r] rounds. *)
Definition ps_state (s : st3) (r : Z) : st3 := fold_left (fun s k => ps_next k s) (zseq 0 r) s.

(** ** Constraints *)

Section Exprs.
Local Open Scope E_scope.
(** poseidon.hpp:251-256 and the fourteen that follow it;
    flexible/poseidon.hpp:258-275.  [i0] is the first input column. *)
Definition ps_con (c : comp) (r j i0 : Z) (out : var) : expr P :=
  #out -
  (EPow #(wv (W c i0) 0) 7 * ecst (mds j 0) + EPow #(wv (W c (i0 + 1)%Z) 0) 7 * ecst (mds j 1) +
   EPow #(wv (W c (i0 + 2)%Z) 0) 7 * ecst (mds j 2) + ecst (rc r j)).
End Exprs.

(** poseidon.hpp:249-349: the gate of rounds [z .. z + 4]. *)
Definition pos_gate (c : comp) (z : Z) : list (expr P) :=
  [ps_con c z 0 0 (wv (W c 3) 0); ps_con c z 1 0 (wv (W c 4) 0); ps_con c z 2 0 (wv (W c 5) 0);
   ps_con c (z + 1) 0 3 (wv (W c 6) 0); ps_con c (z + 1) 1 3 (wv (W c 7) 0); ps_con c (z + 1) 2 3 (wv (W c 8) 0);
   ps_con c (z + 2) 0 6 (wv (W c 9) 0); ps_con c (z + 2) 1 6 (wv (W c 10) 0); ps_con c (z + 2) 2 6 (wv (W c 11) 0);
   ps_con c (z + 3) 0 9 (wv (W c 12) 0); ps_con c (z + 3) 1 9 (wv (W c 13) 0); ps_con c (z + 3) 2 9 (wv (W c 14) 0);
   ps_con c (z + 4) 0 12 (wv (W c 0) 1); ps_con c (z + 4) 1 12 (wv (W c 1) 1); ps_con c (z + 4) 2 12 (wv (W c 2) 1)].

(** poseidon.hpp:371-373, flexible/poseidon.hpp:312-314. *)
Definition ps_copies (c : comp) (ins : var * var * var) (row : Z) : list cmd :=
  [Copy (wcell (W c 0) row) (fst (fst ins)); Copy (wcell (W c 1) row) (snd (fst ins));
   Copy (wcell (W c 2) row) (snd ins)].

(** poseidon.hpp:376-402 generate_circuit: gate [i] on row [start + i]. *)
Definition pos_circuit (c : comp) (ins : var * var * var) (row : Z) : list cmd :=
  map (fun i => Gate (pos_gate c (5 * i)) [row + i]) (zseq 0 11) ++ ps_copies c ins row.

(** poseidon.hpp:150-228 generate_assignments: state [r] is written to columns
    [3 (r mod 5) ..] of row [r / 5].  (The twelve rows are written in this
    order; columns 3.. of the last row are not touched.) *)
Definition ps_input (T : table) (ins : var * var * var) : st3 :=
  (vval T (fst (fst ins)), vval T (snd (fst ins)), vval T (snd ins)).
Definition ps_cells (c : comp) (cap row : Z) (s : st3) : list (Z * Z * F) :=
  flat_map (fun r => map (fun j => (W c (3 * (r mod cap) + j), row + r / cap, t3 (ps_state s r) j)) (zseq 0 3))
    (zseq 0 (rounds + 1)).
Definition pos_assign (c : comp) (ins : var * var * var) (row : Z) (T : table) : table :=
  wsets T (ps_cells c 5 row (ps_input T ins)).
(** poseidon.hpp:118-121 result_type; rows_amount 102. *)
Definition pos_rows : Z := rounds / 5 + 1.
Definition pos_out (c : comp) (row : Z) : var * var * var :=
  (wcell (W c 0) (row + pos_rows - 1), wcell (W c 1) (row + pos_rows - 1), wcell (W c 2) (row + pos_rows - 1)).

(** ** flexible/poseidon.hpp *)

(** flexible/poseidon.hpp:91, 115: states per row. *)
Definition fp_cap (w : Z) : Z := w / 3.
(** flexible/poseidon.hpp:89-94 gates_amount, 111-117 get_rows_amount. *)
Definition fp_gates_amount (w : Z) : Z := ceil_rows rounds (fp_cap w).
Definition fp_rows (w : Z) : Z := ceil_rows (rounds + 1) (fp_cap w).
(** flexible/poseidon.hpp:246-293: gate [g] holds rounds [g * cap ..]; the
    manifest (103) makes the width a multiple of three, so the two tests on
    [start_column] (247, 284) select the last state of a row. *)
Definition fp_gate (c : comp) (g : Z) : list (expr P) :=
  let cap := fp_cap (wamount c) in
  flat_map (fun b =>
    let r := g * cap + b in
    if r <? rounds then
      map (fun j => ps_con c r j (3 * b)
        (if 3 * b + 5 <? wamount c then wv (W c (3 * b + 3 + j)) 0 else wv (W c j) 1)) (zseq 0 3)
    else []) (zseq 0 cap).
(** flexible/poseidon.hpp:317-338 generate_circuit.  [pre] are the gates the
    circuit had before: the new gates get the selectors from [length pre] on,
    but the selectors enabled are 0, 1, ... (333). *)
Definition fp_gates (c : comp) : list (list (expr P)) :=
  map (fp_gate c) (zseq 0 (fp_gates_amount (wamount c))).
Definition fp_circuit (pre : list (list (expr P))) (c : comp) (ins : var * var * var) (row : Z) : list cmd :=
  map (fun i => Gate (znth [] (pre ++ fp_gates c) i) [row + i]) (zseq 0 (fp_gates_amount (wamount c))) ++
  ps_copies c ins row.
(** flexible/poseidon.hpp:186-224 generate_assignments. *)
Definition fp_assign (c : comp) (ins : var * var * var) (row : Z) (T : table) : table :=
  wsets T (ps_cells c (fp_cap (wamount c)) row (ps_input T ins)).
(** flexible/poseidon.hpp:135-147 result_type. *)
Definition fp_last (w : Z) : Z :=
  (if (rounds + 1) mod fp_cap w =? 0 then fp_cap w * 3 else (rounds + 1) mod fp_cap w * 3) - 1.
Definition fp_out (c : comp) (row : Z) : var * var * var :=
  let l := fp_last (wamount c) in
  let r := row + fp_rows (wamount c) - 1 in
  (wcell (W c (l - 2)) r, wcell (W c (l - 1)) r, wcell (W c l) r).

End Model.
Arguments t3 {P}. Arguments ps_word {P}. Arguments ps_next {P}. Arguments ps_state {P}. Arguments ps_con {P}.
Arguments pos_gate {P}. Arguments ps_copies {P}. Arguments pos_circuit {P}. Arguments ps_input {P}. Arguments ps_cells {P}.
Arguments pos_assign {P}. Arguments fp_gate {P}. Arguments fp_gates {P}. Arguments fp_circuit {P}. Arguments fp_assign {P}.
