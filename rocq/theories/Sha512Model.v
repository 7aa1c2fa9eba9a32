(** Model of components/hashes/sha2/plonk/sha512_process.hpp.

    Simplifications: as for sha256_process (Sha256Model.v), whose model of
    detail/split_functions.hpp is used again: the integers of the code are
    unbounded, [cached_pow] is the integer power (it is in every field above
    7^63), and the assignment is given cell by cell (the code writes no cell
    twice). *)
From Coq Require Import ZArith List Bool.
From Verif Require Import Base Field Plonk Bits Sha256Model.
Import ListNotations.
Open Scope Z_scope.

(** lines 91-111 [round_constant]. *)
Definition q_rc : list Z :=
  [0x428a2f98d728ae22; 0x7137449123ef65cd; 0xb5c0fbcfec4d3b2f; 0xe9b5dba58189dbbc; 0x3956c25bf348b538;
   0x59f111f1b605d019; 0x923f82a4af194f9b; 0xab1c5ed5da6d8118; 0xd807aa98a3030242; 0x12835b0145706fbe;
   0x243185be4ee4b28c; 0x550c7dc3d5ffb4e2; 0x72be5d74f27b896f; 0x80deb1fe3b1696b1; 0x9bdc06a725c71235;
   0xc19bf174cf692694; 0xe49b69c19ef14ad2; 0xefbe4786384f25e3; 0x0fc19dc68b8cd5b5; 0x240ca1cc77ac9c65;
   0x2de92c6f592b0275; 0x4a7484aa6ea6e483; 0x5cb0a9dcbd41fbd4; 0x76f988da831153b5; 0x983e5152ee66dfab;
   0xa831c66d2db43210; 0xb00327c898fb213f; 0xbf597fc7beef0ee4; 0xc6e00bf33da88fc2; 0xd5a79147930aa725;
   0x06ca6351e003826f; 0x142929670a0e6e70; 0x27b70a8546d22ffc; 0x2e1b21385c26c926; 0x4d2c6dfc5ac42aed;
   0x53380d139d95b3df; 0x650a73548baf63de; 0x766a0abb3c77b2a8; 0x81c2c92e47edaee6; 0x92722c851482353b;
   0xa2bfe8a14cf10364; 0xa81a664bbc423001; 0xc24b8b70d0f89791; 0xc76c51a30654be30; 0xd192e819d6ef5218;
   0xd69906245565a910; 0xf40e35855771202a; 0x106aa07032bbd1b8; 0x19a4c116b8d2d0c8; 0x1e376c085141ab53;
   0x2748774cdf8eeb99; 0x34b0bcb5e19b48a8; 0x391c0cb3c5c95a63; 0x4ed8aa4ae3418acb; 0x5b9cca4f7763e373;
   0x682e6ff3d6b2b8a3; 0x748f82ee5defb2fc; 0x78a5636f43172f60; 0x84c87814a1f0ab72; 0x8cc702081a6439ec;
   0x90befffa23631e28; 0xa4506cebde82bde9; 0xbef9a3f7b2c67915; 0xc67178f2e372532b; 0xca273eceea26619c;
   0xd186b8c721c0c207; 0xeada7dd6cde0eb1e; 0xf57d4f7fee6ed178; 0x06f067aa72176fba; 0x0a637dc5a2c898a6;
   0x113f9804bef90dae; 0x1b710b35131c471b; 0x28db77f523047d84; 0x32caab7b40c72493; 0x3c9ebe0a15c9bebc;
   0x431d67c49c100d4c; 0x4cc5d4becb3e42b6; 0x597f299cfc657e2a; 0x5fcb6fab3ad6faec; 0x6c44198c4a475817].

(** lines 496-497, 514, 568, 635, 738: chunk sizes. *)
Definition q_sizes : list Z := [14; 14; 14; 14; 8].
Definition q_cm_sizes : list Z := [16; 16; 16; 16].
Definition q_a_sizes : list Z := [1; 6; 1; 14; 14; 14; 14].
Definition q_b_sizes : list Z := [6; 13; 14; 14; 14; 3].
Definition q_e_sizes : list Z := [14; 4; 14; 9; 14; 9].
Definition q_c_sizes : list Z := [14; 14; 6; 5; 14; 11].

(** lines 532-539, 587-593, 653-661, 756-762: sparse sums. *)
Definition q_sp_s0 (l : list Z) : Z :=
  znth 0 l 0 * (2 ^ 126 + 2 ^ 112) + znth 0 l 1 * (1 + 2 ^ 114) + znth 0 l 2 * (2 ^ 12 + 2 ^ 126 + 1) +
  znth 0 l 3 * (2 ^ 14 + 1 + 2 ^ 2) + znth 0 l 4 * (2 ^ 42 + 2 ^ 28 + 2 ^ 30) + znth 0 l 5 * (2 ^ 70 + 2 ^ 56 + 2 ^ 58) +
  znth 0 l 6 * (2 ^ 98 + 2 ^ 84 + 2 ^ 86).
Definition q_sp_s1 (l : list Z) : Z :=
  znth 0 l 0 * (2 ^ 90 + 2 ^ 6) + znth 0 l 1 * (2 ^ 102 + 2 ^ 18 + 1) + znth 0 l 2 * (1 + 2 ^ 44 + 2 ^ 26) +
  znth 0 l 3 * (2 ^ 28 + 2 ^ 72 + 2 ^ 54) + znth 0 l 4 * (2 ^ 56 + 2 ^ 100 + 2 ^ 82) + znth 0 l 5 * (2 ^ 84 + 1 + 2 ^ 110).
Definition q_sp_S1 (l : list Z) : Z :=
  znth 0 l 0 * (7 ^ 50 + 7 ^ 46 + 7 ^ 23) + znth 0 l 1 * (1 + 7 ^ 60 + 7 ^ 37) + znth 0 l 2 * (7 ^ 4 + 1 + 7 ^ 41) +
  znth 0 l 3 * (7 ^ 18 + 7 ^ 14 + 7 ^ 55) + znth 0 l 4 * (7 ^ 27 + 7 ^ 23 + 1) + znth 0 l 5 * (7 ^ 41 + 7 ^ 37 + 7 ^ 14).
Definition q_sp_S0 (l : list Z) : Z :=
  znth 0 l 0 * (2 ^ 72 + 2 ^ 60 + 2 ^ 50) + znth 0 l 1 * (2 ^ 100 + 2 ^ 88 + 2 ^ 78) + znth 0 l 2 * (1 + 2 ^ 116 + 2 ^ 106) +
  znth 0 l 3 * (2 ^ 12 + 1 + 2 ^ 118) + znth 0 l 4 * (2 ^ 22 + 2 ^ 10 + 1) + znth 0 l 5 * (2 ^ 50 + 2 ^ 38 + 2 ^ 28).
(** lines 677-681 and 779-783, 714-716 and 810-812: recombination. *)
Definition q_join (l : list (Z * Z)) : Z :=
  at0 l 0 + at0 l 1 * 2 ^ 14 + at0 l 2 * 2 ^ 28 + at0 l 3 * 2 ^ 42 + at0 l 4 * 2 ^ 56.
Definition q_join4 (l : list (Z * Z)) : Z := at0 l 0 + at0 l 1 * 2 ^ 16 + at0 l 2 * 2 ^ 32 + at0 l 3 * 2 ^ 48.

Section Sha512.
Variable P : params.
Notation F := (F P).
Notation table := (table P).

(** ** Circuit *)

Local Open Scope E_scope.
Notation "x '@' r" := (evar (P := P) (wv x r%Z)) (at level 4, no associativity).

Definition m64 : F := ofZ 18446744073709551616.

Section Gates.
Variable c : comp.
Notation w i := (W c i%Z).

(** lines 188-215 [generate_sigma0_gates]. *)
Definition q_s0_gate : list (expr P) :=
  [ (w 0)@(-1) - ((w 1)@(-1) + (w 2)@(-1) * $(2 ^ 1) + (w 3)@(-1) * $(2 ^ 7) + (w 4)@(-1) * $(2 ^ 8) +
                  (w 5)@(-1) * $(2 ^ 22) + (w 6)@(-1) * $(2 ^ 36) + (w 7)@(-1) * $(2 ^ 50));
    ((w 1)@(-1) - $1) * (w 1)@(-1);
    ((w 3)@(-1) - $1) * (w 3)@(-1);
    (w 6)@0 + (w 7)@0 * $(2 ^ 28) + (w 8)@0 * $(2 ^ 56) + (w 0)@1 * $(2 ^ 84) + (w 1)@1 * $(2 ^ 112) -
      ((w 8)@(-1) * $(2 ^ 126 + 2 ^ 112) + (w 0)@0 * $(1 + 2 ^ 114) + (w 1)@0 * $(2 ^ 12 + 2 ^ 126 + 1) +
       (w 2)@0 * $(2 ^ 14 + 1 + 2 ^ 2) + (w 3)@0 * $(2 ^ 42 + 2 ^ 28 + 2 ^ 30) +
       (w 4)@0 * $(2 ^ 70 + 2 ^ 56 + 2 ^ 58) + (w 5)@0 * $(2 ^ 98 + 2 ^ 84 + 2 ^ 86)) ].

(** lines 217-242 [generate_sigma1_gates]. *)
Definition q_s1_gate : list (expr P) :=
  [ (w 0)@1 - ((w 1)@1 + (w 2)@1 * $(2 ^ 6) + (w 3)@1 * $(2 ^ 19) + (w 4)@1 * $(2 ^ 33) + (w 5)@1 * $(2 ^ 47) +
               (w 6)@1 * $(2 ^ 61));
    ((w 6)@1 - $7) * ((w 6)@1 - $6) * ((w 6)@1 - $5) * ((w 6)@1 - $4) * ((w 6)@1 - $3) * ((w 6)@1 - $2) *
      ((w 6)@1 - $1) * (w 6)@1;
    (w 4)@0 + (w 5)@0 * $(2 ^ 28) + (w 6)@0 * $(2 ^ 56) + (w 7)@0 * $(2 ^ 84) + (w 8)@0 * $(2 ^ 112) -
      ((w 7)@1 * $(2 ^ 90 + 2 ^ 6) + (w 8)@1 * $(2 ^ 102 + 2 ^ 18 + 1) + (w 0)@0 * $(1 + 2 ^ 44 + 2 ^ 26) +
       (w 1)@0 * $(2 ^ 28 + 2 ^ 72 + 2 ^ 54) + (w 2)@0 * $(2 ^ 56 + 2 ^ 100 + 2 ^ 82) +
       (w 3)@0 * $(2 ^ 84 + 1 + 2 ^ 110)) ].

(** lines 244-265 [generate_message_scheduling_gates]. *)
Definition q_msg_gate : list (expr P) :=
  [ (w 5)@0 + ecst m64 * (w 6)@0 -
      ((w 7)@(-1) + (w 8)@(-1) + (w 2)@(-1) + (w 3)@(-1) * $(2 ^ 14) + (w 4)@(-1) * $(2 ^ 28) +
       (w 5)@(-1) * $(2 ^ 42) + (w 6)@(-1) * $(2 ^ 56) + (w 0)@0 + (w 1)@0 * $(2 ^ 14) + (w 2)@0 * $(2 ^ 28) +
       (w 3)@0 * $(2 ^ 42) + (w 4)@0 * $(2 ^ 56));
    ((w 6)@0 - $3) * ((w 6)@0 - $2) * ((w 6)@0 - $1) * (w 6)@0 ].

(** lines 267-299 [generate_Sigma0_gates]: [constraint_3], which ties the
    chunks of the result to those of the word, is built but not passed to
    [add_gate] (line 298). *)
Definition q_S0_gate : list (expr P) :=
  [ (w 0)@1 - ((w 1)@1 + (w 2)@1 * $(2 ^ 14) + (w 3)@1 * $(2 ^ 28) + (w 4)@1 * $(2 ^ 34) + (w 5)@1 * $(2 ^ 39) +
               (w 6)@1 * $(2 ^ 53));
    (w 5)@(-1) - ((w 7)@1 + (w 8)@1 * $(4 ^ 14) + (w 0)@0 * $(4 ^ 28) + (w 1)@0 * $(4 ^ 34) + (w 2)@0 * $(4 ^ 39) +
                  (w 3)@0 * $(4 ^ 53)) ].

(** lines 301-334 [generate_Sigma1_gates]. *)
Definition q_S1_gate : list (expr P) :=
  [ (w 0)@(-1) - ((w 1)@(-1) + (w 2)@(-1) * $(2 ^ 14) + (w 3)@(-1) * $(2 ^ 18) + (w 4)@(-1) * $(2 ^ 32) +
                  (w 5)@(-1) * $(2 ^ 41) + (w 6)@(-1) * $(2 ^ 55));
    (w 5)@1 - ((w 7)@(-1) + (w 8)@(-1) * $(7 ^ 14) + (w 0)@0 * $(7 ^ 18) + (w 1)@0 * $(7 ^ 32) + (w 2)@0 * $(7 ^ 41) +
               (w 3)@0 * $(7 ^ 55));
    (w 4)@0 + (w 5)@0 * $(7 ^ 14) + (w 6)@0 * $(7 ^ 28) + (w 7)@0 * $(7 ^ 42) + (w 8)@0 * $(7 ^ 56) -
      ((w 7)@(-1) * $(7 ^ 50 + 7 ^ 46 + 7 ^ 23) + (w 8)@(-1) * $(1 + 7 ^ 60 + 7 ^ 37) + (w 0)@0 * $(7 ^ 4 + 1 + 7 ^ 41) +
       (w 1)@0 * $(7 ^ 18 + 7 ^ 14 + 7 ^ 55) + (w 2)@0 * $(7 ^ 27 + 7 ^ 23 + 1) +
       (w 3)@0 * $(7 ^ 41 + 7 ^ 37 + 7 ^ 14)) ].

(** lines 336-352 [generate_Maj_gates] and 354-369 [generate_Ch_gates]. *)
Definition q_maj_gate : list (expr P) :=
  [ (w 7)@0 + (w 8)@0 * $(2 ^ 32) + (w 0)@(-1) * $(2 ^ 64) + (w 1)@(-1) * $(2 ^ 96) -
      ((w 5)@0 + (w 6)@0 + (w 6)@(-1)) ].
Definition q_ch_gate : list (expr P) :=
  [ (w 7)@0 + (w 8)@0 * $(7 ^ 16) + (w 0)@1 * $(7 ^ 32) + (w 1)@1 * $(7 ^ 48) -
      ((w 5)@0 + $2 * (w 6)@0 + $3 * (w 6)@1) ].

(** lines 371-426 [generate_compression_gates]: [selector_4], [selector_5]
    and [selector_6].  The round constant is read from the constant column
    whose index is that of witness 0 (line 393), not from [C(0)]. *)
Definition q_e_gate : list (expr P) :=
  [ (w 1)@1 - ((w 8)@0 + (w 0)@1 + (w 0)@(-1) + (w 1)@(-1) * $(2 ^ 14) + (w 2)@(-1) * $(2 ^ 28) +
               (w 3)@(-1) * $(2 ^ 42) + (w 4)@(-1) * $(2 ^ 56) + (w 2)@0 + (w 3)@0 * $(2 ^ 16) +
               (w 4)@0 * $(2 ^ 32) + (w 5)@0 * $(2 ^ 48) + #(mkVar (w 0) 0 true CConst));
    (w 1)@1 + (w 7)@0 - ((w 2)@1 + ecst m64 * (w 3)@1);
    ((w 3)@1 - $5) * ((w 3)@1 - $4) * ((w 3)@1 - $3) * ((w 3)@1 - $2) * ((w 3)@1 - $1) * (w 3)@1 ].
Definition q_a_gate : list (expr P) :=
  [ (w 7)@0 + ecst m64 * (w 8)@0 -
      ((w 1)@(-1) + (w 0)@1 + (w 1)@1 * $(2 ^ 14) + (w 2)@1 * $(2 ^ 28) + (w 3)@1 * $(2 ^ 42) + (w 4)@1 * $(2 ^ 56) +
       (w 2)@0 + (w 3)@0 * $(2 ^ 16) + (w 4)@0 * $(2 ^ 32) + (w 5)@0 * $(2 ^ 48));
    ((w 8)@0 - $6) * ((w 8)@0 - $5) * ((w 8)@0 - $4) * ((w 8)@0 - $3) * ((w 8)@0 - $2) * ((w 8)@0 - $1) * (w 8)@0 ].
Definition q_out_gate : list (expr P) :=
  [ (w 0)@1 + ecst m64 * (w 4)@1 - ((w 0)@0 + (w 4)@0); (w 1)@1 + ecst m64 * (w 5)@1 - ((w 1)@0 + (w 5)@0);
    (w 2)@1 + ecst m64 * (w 6)@1 - ((w 2)@0 + (w 6)@0); (w 3)@1 + ecst m64 * (w 7)@1 - ((w 3)@0 + (w 7)@0) ].

(** [input_type] (lines 116-127): the state and the words of the block. *)
Variables (st wd : Z -> var).
Variable row : Z.
Local Open Scope Z_scope.
Notation cp i o v := (Copy (wcell (W c i%Z) (row + (o))) v).
Notation cell i o := (wcell (W c i%Z) (row + (o))).

(** lines 173-186 [generate_assignments_constant]. *)
Definition q_consts : list (cmd P) :=
  map (fun i => SetConst (C c 0) (row + 389 + i * 9) (ofZ (znth 0 q_rc i))) (zseq 0 80).

(** lines 861-877 [generate_gates] and the selectors of [generate_circuit]
    (lines 949-966), with [j] the row after the input state, [k] the first
    compression row and [o] the first output row. *)
Definition q_gates : list (cmd P) :=
  let j := row + 2 in
  let k := row + 386 in
  let o := row + 1106 in
  [ Gate q_s0_gate (sel_rows (j + 1) (j + 383) 6); Gate q_s1_gate (sel_rows (j + 4) (j + 383) 6);
    Gate q_msg_gate (sel_rows (j + 3) (j + 383) 6);
    Gate q_S1_gate (sel_rows (k + 1) (k + 719) 9); Gate q_S0_gate (sel_rows (k + 7) (k + 719) 9);
    Gate q_ch_gate (sel_rows (k + 2) (k + 719) 9); Gate q_maj_gate (sel_rows (k + 6) (k + 719) 9);
    Gate q_e_gate (sel_rows (k + 3) (k + 719) 9); Gate q_a_gate (sel_rows (k + 5) (k + 719) 9);
    Gate q_out_gate (sel_rows o (o + 2) 2) ].

(** lines 879-938 [generate_copy_constraints]. *)
Definition q_copies : list (cmd P) :=
  map (fun i => cp 0 (2 + (i - 1) * 6 + 0) (wd i)) (zseq 1 16) ++
  map (fun i => cp 7 (2 + (i - 9) * 6 + 2) (wd i)) (zseq 9 16) ++
  map (fun i => cp 8 (2 + i * 6 + 2) (wd i)) (zseq 0 16) ++
  map (fun i => cp 0 (2 + (i - 14) * 6 + 5) (wd i)) (zseq 14 16) ++
  [cp 6 (386 + 2) (cell 5 1); cp 6 (386 + 3) (cell 6 1); cp 6 (386 + 6) (cell 1 1); cp 6 (386 + 5) (cell 2 1)] ++
  flat_map (fun r =>
    [cp 6 (386 + 9 * r + 2 + 9) (cell 5 (386 + 9 * r + 2)); cp 6 (386 + 9 * r + 3 + 9) (cell 6 (386 + 9 * r + 2));
     cp 6 (386 + 9 * r + 5 + 9) (cell 6 (386 + 9 * r + 6)); cp 6 (386 + 9 * r + 6 + 9) (cell 5 (386 + 9 * r + 6))])
    (zseq 0 79) ++
  [cp 0 (386 + 8) (st 0); cp 7 (386 + 3) (st 3); cp 0 (386 + 0) (st 4); cp 8 (386 + 3) (st 7)] ++
  [cp 0 1106 (st 0); cp 1 1106 (st 1); cp 2 1106 (st 2); cp 3 1106 (st 3);
   cp 0 1108 (st 4); cp 1 1108 (st 5); cp 2 1108 (st 6); cp 3 1108 (st 7)].

(** lines 940-970 [generate_circuit]. *)
Definition q_circuit : list (cmd P) := q_consts ++ q_gates ++ q_copies.

End Gates.

(** lines 129-150 [result_type]: word [i] of the output state. *)
Definition q_rows : Z := 1110.
Definition q_out (c : comp) (row i : Z) : var :=
  if i <? 4 then wcell (W c i) (row + q_rows - 3) else wcell (W c (i - 4)) (row + q_rows - 1).

(** ** Assignment *)

Local Open Scope Z_scope.

(** One message round (lines 502-622). *)
Definition q_s0_of (a : Z) : list (Z * Z) := rss r_xor 4 (q_sp_s0 (sas 64 4 a q_a_sizes)) q_sizes.
Definition q_s1_of (b : Z) : list (Z * Z) := rss r_xor 4 (q_sp_s1 (sas 64 4 b q_b_sizes)) q_sizes.
Definition q_msg_sum (ws : list Z) (r : Z) : Z :=
  let s0 := q_s0_of (znth 0 ws (r + 1)) in
  let s1 := q_s1_of (znth 0 ws (r + 14)) in
  znth 0 ws (r + 9) + znth 0 ws r + at0 s1 0 + at0 s0 0 + 2 ^ 14 * (at0 s1 1 + at0 s0 1) +
  2 ^ 28 * (at0 s1 2 + at0 s0 2) + 2 ^ 42 * (at0 s1 3 + at0 s0 3) + 2 ^ 56 * (at0 s1 4 + at0 s0 4).
(** [message_scheduling_words] after [n] rounds. *)
Definition q_words (ws : list Z) (n : Z) : list Z :=
  fold_left (fun ws r => ws ++ [fred P (q_msg_sum ws r) mod 2 ^ 64]) (zseq 0 n) ws.

(** lines 684-689, 785-790: [sparse_values[4]] and [[0]] of the round. *)
Definition q_v4 (e : Z) : Z :=
  let l := sas 64 7 e q_e_sizes in
  fred P (znth 0 l 0 + znth 0 l 1 * 7 ^ 14 + znth 0 l 2 * 7 ^ 18 + znth 0 l 3 * 7 ^ 32 + znth 0 l 4 * 7 ^ 41 + znth 0 l 5 * 7 ^ 55).
Definition q_v0 (a : Z) : Z :=
  let l := sas 64 4 a q_c_sizes in
  fred P (znth 0 l 0 + znth 0 l 1 * 4 ^ 14 + znth 0 l 2 * 4 ^ 28 + znth 0 l 3 * 4 ^ 34 + znth 0 l 4 * 4 ^ 39 + znth 0 l 5 * 4 ^ 53).
Definition q_S1_of (e : Z) : list (Z * Z) := rss r_xor 7 (fred P (q_sp_S1 (sas 64 7 e q_e_sizes))) q_sizes.
Definition q_S0_of (a : Z) : list (Z * Z) := rss r_xor 4 (q_sp_S0 (sas 64 4 a q_c_sizes)) q_sizes.
Definition q_ch_of (s : cst) : list (Z * Z) := rss r_ch 7 (q_v4 (c_e s) + 2 * v_5 s + 3 * v_6 s) q_cm_sizes.
Definition q_maj_of (s : cst) : list (Z * Z) := rss r_maj 4 (q_v0 (c_a s) + v_1 s + v_2 s) q_cm_sizes.
(** lines 718-726, 814-818. *)
Definition q_tmp1 (k w : Z) (s : cst) : Z := c_h s + q_join (q_S1_of (c_e s)) + q_join4 (q_ch_of s) + k + w.
Definition q_esum (k w : Z) (s : cst) : Z := q_tmp1 k w s + c_d s.
Definition q_asum (k w : Z) (s : cst) : Z := q_tmp1 k w s + q_join (q_S0_of (c_a s)) + q_join4 (q_maj_of s).
Definition q_enew (k w : Z) (s : cst) : Z := fred P (q_esum k w s) mod 2 ^ 64.
Definition q_anew (k w : Z) (s : cst) : Z := fred P (q_asum k w s) mod 2 ^ 64.
(** lines 819-832. *)
Definition q_step (k w : Z) (s : cst) : cst :=
  mkCst (q_anew k w s) (c_a s) (c_b s) (c_c s) (q_enew k w s) (c_e s) (c_f s) (c_g s)
        (q_v0 (c_a s)) (v_1 s) (q_v4 (c_e s)) (v_5 s).
Definition q_states (ws : list Z) (n : Z) (s : cst) : cst :=
  fold_left (fun s t => q_step (znth 0 q_rc t) (znth 0 ws t) s) (zseq 0 n) s.
(** lines 449-493: the state before the first round. *)
Definition sparse64 (base x : Z) : Z := znth 0 (sas 64 base x [64]) 0.
Definition q_init (h : list Z) : cst :=
  mkCst (znth 0 h 0) (znth 0 h 1) (znth 0 h 2) (znth 0 h 3) (znth 0 h 4) (znth 0 h 5) (znth 0 h 6) (znth 0 h 7)
        (sparse64 4 (znth 0 h 1)) (sparse64 4 (znth 0 h 2)) (sparse64 7 (znth 0 h 5)) (sparse64 7 (znth 0 h 6)).

(** [(sum - low) * 2^-64] in the field (lines 620-621, 726, 818). *)
Definition q_carry (sum low : Z) : F := fmul (fsub (ofZ sum) (ofZ low)) (finv (ofZ (2 ^ 64))).

Notation z x := (ofZ (P := P) x).
(** Cells of a block given row by row, each from column 0. *)
Definition blk (l : list (list F)) (m k : Z) : option F := nth_error (nth (Z.to_nat m) l []) (Z.to_nat k).

(** The input rows (lines 457-493). *)
Definition q_inp_block (h : list Z) : list (list F) :=
  [ map (fun i => z (znth 0 h i)) (zseq 0 8);
    map (fun i => z (sparse64 (if i <? 4 then 4 else 7) (znth 0 h i))) (zseq 0 8) ].

(** Rows [6 r + 2 ... 6 r + 7] (lines 502-622). *)
Definition q_msg_block (ws : list Z) (r : Z) : list (list F) :=
  let a := znth 0 ws (r + 1) in
  let b := znth 0 ws (r + 14) in
  let ach i := z (znth 0 (sas 64 2 a q_a_sizes) i) in
  let asp i := z (znth 0 (sas 64 4 a q_a_sizes) i) in
  let bch i := z (znth 0 (sas 64 2 b q_b_sizes) i) in
  let bsp i := z (znth 0 (sas 64 4 b q_b_sizes) i) in
  let s0 i := z (at0 (q_s0_of a) i) in
  let s0' i := z (at1 (q_s0_of a) i) in
  let s1 i := z (at0 (q_s1_of b) i) in
  let s1' i := z (at1 (q_s1_of b) i) in
  let x := znth 0 ws (r + 16) in
  [ [ z a; ach 0; ach 1; ach 2; ach 3; ach 4; ach 5; ach 6; asp 0 ];
    [ asp 1; asp 2; asp 3; asp 4; asp 5; asp 6; s0' 0; s0' 1; s0' 2 ];
    [ s0' 3; s0' 4; s0 0; s0 1; s0 2; s0 3; s0 4; z (znth 0 ws (r + 9)); z (znth 0 ws r) ];
    [ s1 0; s1 1; s1 2; s1 3; s1 4; z x; q_carry (q_msg_sum ws r) x ];
    [ bsp 2; bsp 3; bsp 4; bsp 5; s1' 0; s1' 1; s1' 2; s1' 3; s1' 4 ];
    [ z b; bch 0; bch 1; bch 2; bch 3; bch 4; bch 5; bsp 0; bsp 1 ] ].

(** Rows [9 t + 386 ... 9 t + 394] (lines 624-833). *)
Definition q_cmp_block (kc wr : Z) (s : cst) : list (list F) :=
  let ech i := z (znth 0 (sas 64 2 (c_e s) q_e_sizes) i) in
  let esp i := z (znth 0 (sas 64 7 (c_e s) q_e_sizes) i) in
  let ach i := z (znth 0 (sas 64 2 (c_a s) q_c_sizes) i) in
  let asp i := z (znth 0 (sas 64 4 (c_a s) q_c_sizes) i) in
  let S1 i := z (at0 (q_S1_of (c_e s)) i) in
  let S1' i := z (at1 (q_S1_of (c_e s)) i) in
  let S0 i := z (at0 (q_S0_of (c_a s)) i) in
  let S0' i := z (at1 (q_S0_of (c_a s)) i) in
  let ch i := z (at0 (q_ch_of s) i) in
  let ch' i := z (at1 (q_ch_of s) i) in
  let mj i := z (at0 (q_maj_of s) i) in
  let mj' i := z (at1 (q_maj_of s) i) in
  let en := q_enew kc wr s in
  let an := q_anew kc wr s in
  [ [ z (c_e s); ech 0; ech 1; ech 2; ech 3; ech 4; ech 5; esp 0; esp 1 ];
    [ esp 2; esp 3; esp 4; esp 5; S1' 0; S1' 1; S1' 2; S1' 3; S1' 4 ];
    [ S1 0; S1 1; S1 2; S1 3; S1 4; z (q_v4 (c_e s)); z (v_5 s); ch' 0; ch' 1 ];
    [ ch' 2; ch' 3; ch 0; ch 1; ch 2; ch 3; z (v_6 s); z (c_d s); z (c_h s) ];
    [ z wr; z (q_tmp1 kc wr s); z en; q_carry (q_esum kc wr s) en ];
    [ mj' 2; mj' 3; mj 0; mj 1; mj 2; mj 3; z (v_2 s); z an; q_carry (q_asum kc wr s) an ];
    [ S0 0; S0 1; S0 2; S0 3; S0 4; z (q_v0 (c_a s)); z (v_1 s); mj' 0; mj' 1 ];
    [ asp 2; asp 3; asp 4; asp 5; S0' 0; S0' 1; S0' 2; S0' 3; S0' 4 ];
    [ z (c_a s); ach 0; ach 1; ach 2; ach 3; ach 4; ach 5; asp 0; asp 1 ] ].

(** The output rows (lines 834-857): [h] the input state, [o] the working
    variables after the last round. *)
Definition q_out_block (h o : list Z) : list (list F) :=
  let sum i := znth 0 h i + znth 0 o i in
  let lo i := z (sum i mod 2 ^ 64) in
  let hi i := z ((sum i - sum i mod 2 ^ 64) / 2 ^ 64) in
  let a i := z (znth 0 h i) in
  let b i := z (znth 0 o i) in
  [ [ a 0; a 1; a 2; a 3; b 0; b 1; b 2; b 3 ]; [ lo 0; lo 1; lo 2; lo 3; hi 0; hi 1; hi 2; hi 3 ];
    [ a 4; a 5; a 6; a 7; b 4; b 5; b 6; b 7 ]; [ lo 4; lo 5; lo 6; lo 7; hi 4; hi 5; hi 6; hi 7 ] ].

(** lines 428-860 [generate_assignments]: [o] is the row relative to the start
    row and [k] the column; [cs t] is the state at the start of round [t] and
    [ob] the output rows. *)
Definition q_cell (h ws : list Z) (cs : Z -> cst) (ob : list (list F)) (o k : Z) : option F :=
  if o <? 2 then blk (q_inp_block h) o k
  else if o <? 386 then blk (q_msg_block ws ((o - 2) / 6)) ((o - 2) mod 6) k
  else if o <? 1106 then
    let t := (o - 386) / 9 in blk (q_cmp_block (znth 0 q_rc t) (znth 0 ws t) (cs t)) ((o - 386) mod 9) k
  else blk ob (o - 1106) k.

Definition q_assign (c : comp) (st wd : Z -> var) (row : Z) (T : table) : table :=
  let h := map (fun i => fval (vval T (st i))) (zseq 0 8) in
  let m := map (fun i => fval (vval T (wd i))) (zseq 0 16) in
  let ws := q_words m 64 in
  let cs t := q_states ws t (q_init h) in
  put c row q_rows (q_cell h ws cs (q_out_block h (c_list (cs 80)))) T.

End Sha512.

Arguments q_circuit {P}. Arguments q_assign {P}.
