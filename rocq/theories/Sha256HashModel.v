(** Model of components/hashes/sha2/plonk/decomposition.hpp and of
    components/hashes/sha2/plonk/sha256.hpp.

    Simplifications: as in Sha256Model.v.  Not modelled: manifests, the
    conversions for the component stretcher, [generate_empty_assignments]
    (only [calculate], which it stores). *)
From Coq Require Import ZArith List String Bool.
From Verif Require Import Base Field Plonk Sha256Model.
Import ListNotations.
Open Scope Z_scope.

(** decomposition.hpp:197-203 (and 152-156): [(data >> 16 i) & 65535]. *)
Definition dec_chunk (x i : Z) : Z := Z.land (Z.shiftr x (16 * i)) 65535.
(** lines 208-216: the word of two neighbouring chunks. *)
Definition dec_pair (x i : Z) : Z := dec_chunk x (2 * i + 1) * 65536 + dec_chunk x (2 * i).

Section Sha256Hash.
Variable P : params.
Notation F := (F P).
Notation table := (table P).

(** ** decomposition.hpp *)

(** lines 147-173 [calculate]. *)
Definition dec_calculate (x y : Z) : list Z :=
  [dec_pair x 3; dec_pair x 2; dec_pair x 1; dec_pair x 0; dec_pair y 3; dec_pair y 2; dec_pair y 1; dec_pair y 0].

Section Dec.
Variable c : comp.
Notation "x '@' r" := (evar (P := P) (wv (W c x%Z) r%Z)) (at level 4, no associativity).
Local Open Scope E_scope.

(** lines 246-284 [generate_gates]. *)
Definition dec_gate : list (expr P) :=
  [ 8@(-1) - (3@0 + 2@0 * $(2 ^ 32) + 1@0 * $(2 ^ 64) + 0@0 * $(2 ^ 96));
    8@1 - (7@0 + 6@0 * $(2 ^ 32) + 5@0 * $(2 ^ 64) + 4@0 * $(2 ^ 96));
    3@0 - (0@(-1) + 1@(-1) * $65536);
    2@0 - (2@(-1) + 3@(-1) * $65536);
    1@0 - (4@(-1) + 5@(-1) * $65536);
    0@0 - (6@(-1) + 7@(-1) * $65536);
    7@0 - (0@1 + 1@1 * $65536);
    6@0 - (2@1 + 3@1 * $65536);
    5@0 - (4@1 + 5@1 * $65536);
    4@0 - (6@1 + 7@1 * $65536) ].
Local Close Scope E_scope.

(** lines 286-302 [generate_copy_constraints] and 304-323
    [generate_circuit]. *)
Definition dec_circuit (a b : var) (row : Z) : list (cmd P) :=
  [ Gate dec_gate [row + 1]; Copy a (wcell (W c 8) row); Copy b (wcell (W c 8) (row + 2)) ].

(** lines 98-109 [result_type]: output [i]. *)
Definition dec_out (row i : Z) : var := wcell (W c i) (row + 1).
Definition dec_rows : Z := 3.

(** lines 180-220 [generate_assignments]: the cell of row [o], column [k]. *)
Definition dec_cell (x y : Z) (o k : Z) : option F :=
  if o =? 0 then if k =? 8 then Some (ofZ x) else Some (ofZ (dec_chunk x k))
  else if o =? 2 then if k =? 8 then Some (ofZ y) else Some (ofZ (dec_chunk y k))
  else if k =? 8 then None else Some (ofZ (znth 0 (dec_calculate x y) k)).
Definition dec_assign (a b : var) (row : Z) (T : table) : table :=
  put c row dec_rows (dec_cell (fval (vval T a)) (fval (vval T b))) T.
End Dec.

(** ** sha256.hpp *)

(** lines 201-209: the initial state and the padding block. *)
Definition sh_iv : list Z :=
  [0x6a09e667; 0xbb67ae85; 0x3c6ef372; 0xa54ff53a; 0x510e527f; 0x9b05688c; 0x1f83d9ab; 0x5be0cd19].
Definition sh_pad : list Z := [2147483648; 0; 0; 0; 0; 0; 0; 0; 0; 0; 0; 0; 0; 0; 0; 512].

(** lines 213-222: four words of a state as one number. *)
Definition sh_join (s : list Z) (i : Z) : Z :=
  znth 0 s (i + 3) + znth 0 s (i + 2) * 2 ^ 32 + znth 0 s (i + 1) * 2 ^ 64 + znth 0 s i * 2 ^ 96.

(** lines 188-224 [calculate]. *)
Definition sh_calculate (x : list Z) : list Z :=
  let w := dec_calculate (znth 0 x 0) (znth 0 x 1) ++ dec_calculate (znth 0 x 2) (znth 0 x 3) in
  let s := sp_calculate P (sp_calculate P sh_iv w) sh_pad in
  [sh_join s 0; sh_join s 4].

Section Hash.
Variable c : comp.
Notation "x '@' r" := (evar (P := P) (wv (W c x%Z) r%Z)) (at level 4, no associativity).

(** The instances of lines 247-250, 265-268 (and 411-414, 429-432). *)
Definition sh_sub : comp := mkComp (map (W c) (zseq 0 9)) [C c 0] [].

(** lines 361-381 [generate_gates]. *)
Definition sh_gate : list (expr P) :=
  ([ 1@1 - (7@0 + 6@0 * $(2 ^ 32) + 5@0 * $(2 ^ 64) + 4@0 * $(2 ^ 96));
     0@1 - (3@0 + 2@0 * $(2 ^ 32) + 1@0 * $(2 ^ 64) + 0@0 * $(2 ^ 96)) ])%E.

Variable b : Z -> var.
Variable row : Z.

(** lines 485-508 [generate_assignments_constant]. *)
Definition sh_consts : list (cmd P) :=
  map (fun i => SetConst (C c 0) (row + i) (ofZ (znth 0 sh_iv i))) (zseq 0 8) ++
  map (fun i => SetConst (C c 0) (row + 8 + i) (ofZ (znth 0 sh_pad i))) (zseq 0 16).

(** Inputs of the two compressions (lines 270-312). *)
Definition sh_st1 (i : Z) : var := ccell (C c 0) (row + i).
Definition sh_wd1 (i : Z) : var := if i <? 8 then dec_out sh_sub row i else dec_out sh_sub (row + 3) (i - 8).
Definition sh_st2 (i : Z) : var := sp_out sh_sub (row + 6) i.
Definition sh_wd2 (i : Z) : var := ccell (C c 0) (row + 8 + i).
Definition sh_state (i : Z) : var := sp_out sh_sub (row + 768) i.

(** lines 393-483 [generate_circuit]; [generate_copy_constraints] (lines
    383-391) is empty. *)
Definition sh_circuit : list (cmd P) :=
  sh_consts ++ dec_circuit sh_sub (b 0) (b 1) row ++ dec_circuit sh_sub (b 2) (b 3) (row + 3) ++
  sp_circuit sh_sub sh_st1 sh_wd1 (row + 6) ++ sp_circuit sh_sub sh_st2 sh_wd2 (row + 768) ++
  [ Gate sh_gate [row + 1530] ].

(** lines 92-97: the rows; lines 116-122 [result_type]. *)
Definition sh_rows : Z := 2 * sp_rows + 2 * dec_rows + 2.
Definition sh_out (i : Z) : var := wcell (W c i) (row + sh_rows - 1).

(** lines 317-332: the two last rows, from the state [v] of the second
    compression. *)
Definition sh_last (v : Z -> F) (o k : Z) : option F :=
  let join i := fadd (fadd (fadd (v (i + 3)%Z) (fmul (v (i + 2)%Z) (ofZ (2 ^ 32))))
                                 (fmul (v (i + 1)%Z) (ofZ (2 ^ 64)))) (fmul (v i) (ofZ (2 ^ 96))) in
  if o =? 0 then if k <? 8 then Some (v k) else None
  else if k =? 0 then Some (join 0) else if k =? 1 then Some (join 4) else None.

(** lines 231-334 [generate_assignments]. *)
Definition sh_assign (T : table) : table :=
  let T1 := dec_assign sh_sub (b 0) (b 1) row T in
  let T2 := dec_assign sh_sub (b 2) (b 3) (row + 3) T1 in
  let T3 := sp_assign sh_sub sh_st1 sh_wd1 (row + 6) T2 in
  let T4 := sp_assign sh_sub sh_st2 sh_wd2 (row + 768) T3 in
  put c (row + 1530) 2 (sh_last (fun i => vval T4 (sh_state i))) T4.
End Hash.
End Sha256Hash.

Arguments dec_circuit {P}. Arguments dec_assign {P}. Arguments dec_cell {P}. Arguments sh_circuit {P}. Arguments sh_assign {P}. Arguments sh_last {P}.
