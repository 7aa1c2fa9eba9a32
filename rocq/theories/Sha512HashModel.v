(** Model of components/hashes/sha2/plonk/sha512.hpp: the hash of two curve
    points and a message, each given as four limbs.

    Simplifications: as in Sha512Model.v.  Not modelled: manifests and the
    conversions for the component stretcher. *)
From Coq Require Import ZArith List Bool.
From Verif Require Import Base Field Plonk Sha256Model Sha256HashModel Sha512Model.
Import ListNotations.
Open Scope Z_scope.

(** lines 271-290: the first twenty input words, from the limbs [R] (the array
    RAM, 239-263). *)
Definition u_mask (x : Z) : Z := Z.land x (Z.shiftl 1 64 - 1).
Definition u_words (R : Z -> Z) : list Z :=
  let r a n := Z.shiftr (R a) n in
  let l a n := Z.shiftl (R a) n in
  [ u_mask (R 0); u_mask (r 0 64 + l 1 2); u_mask (r 1 62 + l 2 4); u_mask (r 2 60 + l 3 6 + l 4 63);
    u_mask (r 4 1); u_mask (r 4 65 + l 5 1); u_mask (r 5 63 + l 6 3); u_mask (r 6 61 + l 7 5 + l 8 62);
    u_mask (r 8 2); u_mask (R 9); u_mask (r 9 64 + l 10 2); u_mask (r 10 62 + l 11 4 + l 12 61);
    u_mask (r 12 3 + l 13 63); u_mask (r 13 1); u_mask (r 13 65 + l 14 1); u_mask (r 14 63 + l 15 3 + l 16 60);
    u_mask (r 16 4 + l 17 62); u_mask (r 17 2); u_mask (R 18); r 18 64 + l 19 2 + Z.shiftl 1 60 ].

(** lines 315-644: a chunk [(RAM[a] >> s) & (2^n - 1)]. *)
Definition u_chunk (x s n : Z) : Z := Z.land (Z.shiftr x s) (Z.shiftl 1 n - 1).

(** lines 959-968: the initial state and the length. *)
Definition u_iv : list Z :=
  [0x6a09e667f3bcc908; 0xbb67ae8584caa73b; 0x3c6ef372fe94f82b; 0xa54ff53a5f1d36f1;
   0x510e527fade682d1; 0x9b05688c2b3e6c1f; 0x1f83d9abfb41bd6b; 0x5be0cd19137e2179].
Definition u_len : Z := 252 + 1024.

Section Sha512Hash.
Variable P : params.
Notation F := (F P).
Notation table := (table P).

(** lines 315-644: the fifteen rows above the compressions. *)
Definition u_cells (R : Z -> Z) : list (list (option F)) :=
  let s x := Some (ofZ x : F) in
  let w i := znth 0 (u_words R) i in
  let k a from n := u_chunk (R a) from n in
  [[s (R 0); s (k 0 0 22); s (R 1); s (k 1 0 22); s (R 2); s (k 2 0 22); s (R 3); s (k 3 0 22); None] ;
   [s (w 0); s (k 0 22 22); s (w 1); s (k 1 22 22); s (w 2); s (k 2 22 22); s (w 3); s (k 3 22 22); None] ;
   [s (k 0 64 2); s (k 0 44 20); s (k 1 62 4); s (k 1 44 18); s (k 2 60 6); s (k 2 44 16); s (k 4 0 1); s (k 3 44 13); None] ;
   [s (R 4); s (k 4 1 21); s (R 5); s (k 5 0 22); s (R 6); s (k 6 0 22); s (R 7); s (k 7 0 22); s (k 4 0 1)] ;
   [s (w 4); s (k 4 22 22); s (w 5); s (k 5 22 22); s (w 6); s (k 6 22 22); s (w 7); s (k 7 22 22); None] ;
   [s (k 4 65 1); s (k 4 44 21); s (k 5 63 3); s (k 5 44 19); s (k 6 61 5); s (k 6 44 17); s (k 8 0 2); s (k 7 44 13); None] ;
   [s (R 8); s (k 8 0 2); s (R 9); s (k 9 0 22); s (R 10); s (k 10 0 22); s (R 11); s (k 11 0 22); None] ;
   [s (w 8); s (k 8 2 20); s (w 9); s (k 9 22 22); s (w 10); s (k 10 22 22); s (w 11); s (k 11 22 22); None] ;
   [s (k 8 44 22); s (k 8 22 22); s (k 9 64 2); s (k 9 44 20); s (k 10 62 4); s (k 10 44 18); s (k 12 0 3); s (k 11 44 13); None] ;
   [s (R 12); s (k 12 0 3); s (R 13); s (k 13 1 21); s (R 14); s (k 14 0 22); s (R 15); s (k 15 0 22); s (k 13 0 1)] ;
   [s (w 12); s (k 12 3 19); s (w 13); s (k 13 22 22); s (w 14); s (k 14 22 22); s (w 15); s (k 15 22 22); None] ;
   [s (k 12 44 22); s (k 12 22 22); s (k 13 65 1); s (k 13 44 21); s (k 14 63 3); s (k 14 44 19); s (k 16 0 4); s (k 15 44 13); None] ;
   [s (R 16); s (k 16 0 4); s (R 17); s (k 17 0 2); s (R 18); s (k 18 0 22); s (R 19); s (k 19 0 22); None] ;
   [s (w 16); s (k 16 4 18); s (w 17); s (k 17 2 20); s (w 18); s (k 18 22 22); s (w 19); s (k 19 22 22); None] ;
   [s (k 16 44 22); s (k 16 22 22); s (k 17 44 22); s (k 17 22 22); s (k 18 64 2); s (k 18 44 20); None; s (k 19 44 14); s 1]].
Definition u_at (cells : list (list (option F))) (o k : Z) : option F := znth None (znth [] cells o) k.

Section Comp.
Variable c : comp.
Notation "x '@' r" := (evar (P := P) (wv (W c x%Z) r%Z)) (at level 4, no associativity).
Local Open Scope E_scope.

(** lines 737-917 [generate_gates]: the five gates. *)
Definition u_gate0 : list (expr P) :=
  [ 0@(-1) - (1@(-1) + 1@0 * $(2 ^ 22) + 1@1 * $(2 ^ 44) + 0@1 * $(2 ^ 64));
    2@(-1) - (3@(-1) + 3@0 * $(2 ^ 22) + 3@1 * $(2 ^ 44) + 2@1 * $(2 ^ 62));
    4@(-1) - (5@(-1) + 5@0 * $(2 ^ 22) + 5@1 * $(2 ^ 44) + 4@1 * $(2 ^ 60));
    6@(-1) - (7@(-1) + 7@0 * $(2 ^ 22) + 7@1 * $(2 ^ 44));
    0@0 - (1@(-1) + 1@0 * $(2 ^ 22) + 1@1 * $(2 ^ 44));
    2@0 - (0@1 + 3@(-1) * $(2 ^ 2) + 3@0 * $(2 ^ 24) + 3@1 * $(2 ^ 46));
    4@0 - (2@1 + 5@(-1) * $(2 ^ 4) + 5@0 * $(2 ^ 26) + 5@1 * $(2 ^ 48));
    6@0 - (4@1 + 7@(-1) * $(2 ^ 6) + 7@0 * $(2 ^ 28) + 7@1 * $(2 ^ 50) + 6@1 * $(2 ^ 63)) ].
Definition u_gate1 : list (expr P) :=
  [ 0@(-1) - (8@(-1) + 1@(-1) * $(2 ^ 1) + 1@0 * $(2 ^ 22) + 1@1 * $(2 ^ 44) + 0@1 * $(2 ^ 65));
    2@(-1) - (3@(-1) + 3@0 * $(2 ^ 22) + 3@1 * $(2 ^ 44) + 2@1 * $(2 ^ 63));
    4@(-1) - (5@(-1) + 5@0 * $(2 ^ 22) + 5@1 * $(2 ^ 44) + 4@1 * $(2 ^ 61));
    6@(-1) - (7@(-1) + 7@0 * $(2 ^ 22) + 7@1 * $(2 ^ 44));
    0@0 - (1@(-1) + 1@0 * $(2 ^ 21) + 1@1 * $(2 ^ 43));
    2@0 - (0@1 + 3@(-1) * $(2 ^ 1) + 3@0 * $(2 ^ 23) + 3@1 * $(2 ^ 45));
    4@0 - (2@1 + 5@(-1) * $(2 ^ 3) + 5@0 * $(2 ^ 25) + 5@1 * $(2 ^ 47));
    6@0 - (4@1 + 7@(-1) * $(2 ^ 5) + 7@0 * $(2 ^ 27) + 7@1 * $(2 ^ 49) + 6@1 * $(2 ^ 62)) ].
Definition u_gate2 : list (expr P) :=
  [ 0@(-1) - (1@(-1) + 1@0 * $(2 ^ 2) + 1@1 * $(2 ^ 22) + 0@1 * $(2 ^ 44));
    2@(-1) - (3@(-1) + 3@0 * $(2 ^ 22) + 3@1 * $(2 ^ 44) + 2@1 * $(2 ^ 64));
    4@(-1) - (5@(-1) + 5@0 * $(2 ^ 22) + 5@1 * $(2 ^ 44) + 4@1 * $(2 ^ 62));
    6@(-1) - (7@(-1) + 7@0 * $(2 ^ 22) + 7@1 * $(2 ^ 44));
    0@0 - (1@0 + 1@1 * $(2 ^ 20) + 0@1 * $(2 ^ 42));
    2@0 - (3@(-1) + 3@0 * $(2 ^ 22) + 3@1 * $(2 ^ 44));
    4@0 - (2@1 + 5@(-1) * $(2 ^ 2) + 5@0 * $(2 ^ 24) + 5@1 * $(2 ^ 46));
    6@0 - (4@1 + 7@(-1) * $(2 ^ 4) + 7@0 * $(2 ^ 26) + 7@1 * $(2 ^ 48) + 6@1 * $(2 ^ 61)) ].
Definition u_gate3 : list (expr P) :=
  [ 0@(-1) - (1@(-1) + 1@0 * $(2 ^ 3) + 1@1 * $(2 ^ 22) + 0@1 * $(2 ^ 44));
    2@(-1) - (8@(-1) + 3@(-1) * $(2 ^ 1) + 3@0 * $(2 ^ 22) + 3@1 * $(2 ^ 44) + 2@1 * $(2 ^ 65));
    4@(-1) - (5@(-1) + 5@0 * $(2 ^ 22) + 5@1 * $(2 ^ 44) + 4@1 * $(2 ^ 63));
    6@(-1) - (7@(-1) + 7@0 * $(2 ^ 22) + 7@1 * $(2 ^ 44));
    0@0 - (1@0 + 1@1 * $(2 ^ 19) + 0@1 * $(2 ^ 41) + 8@(-1) * $(2 ^ 63));
    2@0 - (3@(-1) + 3@0 * $(2 ^ 21) + 3@1 * $(2 ^ 43));
    4@0 - (2@1 + 5@(-1) * $(2 ^ 1) + 5@0 * $(2 ^ 23) + 5@1 * $(2 ^ 45));
    6@0 - (4@1 + 7@(-1) * $(2 ^ 3) + 7@0 * $(2 ^ 25) + 7@1 * $(2 ^ 47) + 6@1 * $(2 ^ 60)) ].
Definition u_gate4 : list (expr P) :=
  [ 0@(-1) - (1@(-1) + 1@0 * $(2 ^ 4) + 1@1 * $(2 ^ 22) + 0@1 * $(2 ^ 44));
    2@(-1) - (3@(-1) + 3@0 * $(2 ^ 2) + 3@1 * $(2 ^ 22) + 2@1 * $(2 ^ 44));
    4@(-1) - (5@(-1) + 5@0 * $(2 ^ 22) + 5@1 * $(2 ^ 44) + 4@1 * $(2 ^ 64));
    6@(-1) - (7@(-1) + 7@0 * $(2 ^ 22) + 7@1 * $(2 ^ 44));
    0@0 - (1@0 + 1@1 * $(2 ^ 18) + 0@1 * $(2 ^ 40) + 3@(-1) * $(2 ^ 62));
    2@0 - (3@0 + 3@1 * $(2 ^ 20) + 2@1 * $(2 ^ 42));
    4@0 - (5@(-1) + 5@0 * $(2 ^ 22) + 5@1 * $(2 ^ 44));
    6@0 - (4@1 + 7@(-1) * $(2 ^ 2) + 7@0 * $(2 ^ 24) + 7@1 * $(2 ^ 46) + 8@1 * $(2 ^ 60)) ].
Local Close Scope E_scope.

(** The inputs R.x, R.y, A.x, A.y, M (97-100) as one sequence. *)
Variable b : Z -> var.
Variable row : Z.

(** lines 949-969 [generate_assignments_constant]. *)
Definition u_consts : list (cmd P) :=
  map (fun i => SetConst (C c 0) (row + i) (ofZ (znth 0 u_iv i))) (zseq 0 8) ++
  [SetConst (C c 0) (row + 8) f0; SetConst (C c 0) (row + 9) (ofZ u_len)].
(** lines 175-179. *)
Definition u_gates : list (cmd P) :=
  [Gate u_gate0 [row + 1]; Gate u_gate1 [row + 4]; Gate u_gate2 [row + 7]; Gate u_gate3 [row + 10]; Gate u_gate4 [row + 13]].
(** lines 919-947 [generate_copy_constraints]. *)
Definition u_copies : list (cmd P) :=
  flat_map (fun i => map (fun q => Copy (wcell (W c (2 * i)) (row + 3 * q)) (b (4 * q + i))) (zseq 0 5)) (zseq 0 4) ++
  [Copy (wcell (W c 6) (row + 4 - 3 + 1)) (wcell (W c 8) (row + 4 - 1))] ++
  map (fun i => let r := row + 1 + 6 + 3 * i in Copy (wcell (W c 6) (r - 3 + 1)) (wcell (W c 1) (r - 1))) (zseq 0 3).

(** The inputs of the compressions for a numbering [wc] of the witness columns
    and a constant column [cc]. *)
Definition u_st1 (cc : Z) (i : Z) : var := ccell cc (row + i).
Definition u_wd1 (wc : Z -> Z) (i : Z) : var := wcell (wc (2 * (i mod 4))) (row + 1 + 3 * (i / 4)).
Definition u_st2 (i : Z) : var := q_out (sh_sub c) (row + 15) i.
Definition u_wd2 (wc : Z -> Z) (cc : Z) (i : Z) : var :=
  if i <? 4 then wcell (wc (2 * i)) (row + 1 + 12) else if i <? 15 then ccell cc (row + 8) else ccell cc (row + 9).

(** lines 153-219 [generate_circuit]: the inputs of the compressions are in the
    columns 0, 2, 4, 6 and the constant column 0, whatever the component's. *)
Definition u_circuit : list (cmd P) :=
  u_consts ++ u_gates ++
  q_circuit (sh_sub c) (u_st1 0) (u_wd1 (fun i => i)) (row + 15) ++
  q_circuit (sh_sub c) u_st2 (u_wd2 (fun i => i) 0) (row + 15 + q_rows) ++
  u_copies.

(** lines 81-91, 115-128: the rows and the result. *)
Definition u_rows : Z := 15 + 2 * q_rows.
Definition u_out (i : Z) : var :=
  if i <? 4 then wcell (W c i) (row + u_rows - 3) else wcell (W c (i - 4)) (row + u_rows - 1).

(** lines 646-732: the two compressions, with the component's columns. *)
Definition u_hash (T : table) : table :=
  q_assign (sh_sub c) u_st2 (u_wd2 (W c) (C c 0)) (row + 15 + q_rows)
    (q_assign (sh_sub c) (u_st1 (C c 0)) (u_wd1 (W c)) (row + 15) T).
(** lines 222-735 [generate_assignments]. *)
Definition u_assign (T : table) : table :=
  u_hash (put c row 15 (u_at (u_cells (fun a => fval (vval T (b a))))) T).
End Comp.
End Sha512Hash.
Arguments u_at {P}. Arguments u_circuit {P}. Arguments u_assign {P}. Arguments u_hash {P}. Arguments u_gates {P}.
Arguments u_copies {P}. Arguments u_consts {P}.
