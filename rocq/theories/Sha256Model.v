(** Model of components/hashes/sha2/plonk/sha256_process.hpp, of
    detail/split_functions.hpp and of the SHA-256 tables of
    lookup_library.hpp:173-316.

    Simplifications: the integers of the code ([integral_type], at least as
    wide as the field) are unbounded; [cached_pow] (split_functions.hpp:67-79)
    is the integer power, which it is in every field above 7^31;
    the assignment is given cell by cell rather than write by write (the code
    writes no cell twice). *)
From Coq Require Import ZArith List String Bool.
From Verif Require Import Base Field Plonk Bits.
Import ListNotations.
Open Scope Z_scope.

Definition zsum (l : list Z) : Z := fold_right Z.add 0 l.

(** split_functions.hpp:44-65 [split_and_sparse]: [bits] are the [n] low bits
    of [x], most significant first (sha256_process.hpp:1392-1411); the last
    chunk starts at bit 0 of the vector.  [res[0]] is the result for base 2,
    [res[1]] for [base]. *)
Fixpoint sas (n base x : Z) (sizes : list Z) : list Z :=
  match sizes with
  | [] => []
  | s :: r => horner base (fun j => msb_bit n x (zsum r + j)) s :: sas n base x r
  end.

(** split_functions.hpp:81-109 [reversed_sparse_and_split] (111-140 and
    142-171 for [_maj] and [_ch], which differ in [r_values] only): digits of
    [sparse_value] from the top, [f] applied to each for [res[0]]. *)
Fixpoint rss_digits (f : Z -> Z) (base k : Z) (n : nat) (tmp r0 r1 : Z) : Z * Z * Z :=
  match n with
  | O => (r0, r1, tmp)
  | S n' => let q := tmp / base ^ k in
            rss_digits f base (k - 1) n' (tmp mod base ^ k) (r0 * 2 + f q) (r1 * base + q)
  end.
(** The outer loop, over the sizes from the last to the first. *)
Fixpoint rss_loop (f : Z -> Z) (base k : Z) (sizes : list Z) (tmp : Z) (acc : list (Z * Z)) : list (Z * Z) :=
  match sizes with
  | [] => acc
  | s :: rest => let '(r0, r1, tmp') := rss_digits f base k (Z.to_nat s) tmp 0 0 in
                 rss_loop f base (k - s) rest tmp' ((r0, r1) :: acc)
  end.
Definition rss (f : Z -> Z) (base v : Z) (sizes : list Z) : list (Z * Z) :=
  rss_loop f base (zsum sizes - 1) (rev sizes) v [].

(** [r&1] (line 103) and the two [r_values] arrays (lines 126, 157). *)
Definition r_xor (r : Z) : Z := Z.land r 1.
Definition r_maj (r : Z) : Z := znth 0 [0; 0; 1; 1] r.
Definition r_ch (r : Z) : Z := znth 0 [0; 0; 0; 1; 0; 1; 1] r.

Definition sigma_sizes : list Z := [8; 8; 8; 8].
Definition at0 (l : list (Z * Z)) (i : Z) : Z := fst (znth (0, 0) l i).
Definition at1 (l : list (Z * Z)) (i : Z) : Z := snd (znth (0, 0) l i).

(** sha256_process.hpp:1435-1472, 1495-1516, 1564-1594, 1610, 1664-1692, 1710:
    chunk sizes and sparse sums. *)
Definition a_sizes : list Z := [3; 4; 11; 14].
Definition b_sizes : list Z := [10; 7; 2; 13].
Definition e_sizes : list Z := [6; 5; 14; 7].
Definition c_sizes : list Z := [2; 11; 9; 10].
Definition sp_sigma0 (l : list Z) : Z :=
  znth 0 l 1 * (1 + 2 ^ 56 + 2 ^ 34) + znth 0 l 2 * (2 ^ 8 + 1 + 2 ^ 42) + znth 0 l 3 * (2 ^ 30 + 2 ^ 22 + 1) +
  znth 0 l 0 * (2 ^ 50 + 2 ^ 28).
Definition sp_sigma1 (l : list Z) : Z :=
  znth 0 l 1 * (1 + 2 ^ 50 + 2 ^ 46) + znth 0 l 2 * (2 ^ 14 + 1 + 2 ^ 60) + znth 0 l 3 * (2 ^ 18 + 2 ^ 4 + 1) +
  znth 0 l 0 * (2 ^ 30 + 2 ^ 26).
Definition sp_Sigma1 (l : list Z) : Z :=
  znth 0 l 1 * (7 ^ 27 + 7 ^ 13 + 1) + znth 0 l 2 * (7 ^ 5 + 7 ^ 18 + 1) + znth 0 l 3 * (7 ^ 19 + 7 ^ 14 + 1) +
  znth 0 l 0 * (7 ^ 26 + 7 ^ 21 + 7 ^ 7).
Definition sp_Sigma0 (l : list Z) : Z :=
  znth 0 l 0 * (2 ^ 38 + 2 ^ 20 + 2 ^ 60) + znth 0 l 1 * (2 ^ 42 + 1 + 2 ^ 24) + znth 0 l 2 * (2 ^ 22 + 2 ^ 46 + 1) +
  znth 0 l 3 * (2 ^ 40 + 2 ^ 18 + 1).
(** Recombination of four byte-sized chunks (lines 1605-1608 and similar). *)
Definition join8 (l : list (Z * Z)) : Z := at0 l 0 + at0 l 1 * 2 ^ 8 + at0 l 2 * 2 ^ 16 + at0 l 3 * 2 ^ 24.

(** lines 94-104 [round_constant]. *)
Definition round_constant : list Z :=
  [0x428a2f98; 0x71374491; 0xb5c0fbcf; 0xe9b5dba5; 0x3956c25b; 0x59f111f1; 0x923f82a4; 0xab1c5ed5;
   0xd807aa98; 0x12835b01; 0x243185be; 0x550c7dc3; 0x72be5d74; 0x80deb1fe; 0x9bdc06a7; 0xc19bf174;
   0xe49b69c1; 0xefbe4786; 0x0fc19dc6; 0x240ca1cc; 0x2de92c6f; 0x4a7484aa; 0x5cb0a9dc; 0x76f988da;
   0x983e5152; 0xa831c66d; 0xb00327c8; 0xbf597fc7; 0xc6e00bf3; 0xd5a79147; 0x06ca6351; 0x14292967;
   0x27b70a85; 0x2e1b2138; 0x4d2c6dfc; 0x53380d13; 0x650a7354; 0x766a0abb; 0x81c2c92e; 0x92722c85;
   0xa2bfe8a1; 0xa81a664b; 0xc24b8b70; 0xc76c51a3; 0xd192e819; 0xd6990624; 0xf40e3585; 0x106aa070;
   0x19a4c116; 0x1e376c08; 0x2748774c; 0x34b0bcb5; 0x391c0cb3; 0x4ed8aa4a; 0x5b9cca4f; 0x682e6ff3;
   0x748f82ee; 0x78a5636f; 0x84c87814; 0x8cc70208; 0x90befffa; 0xa4506ceb; 0xbef9a3f7; 0xc67178f2].

(** assignment.hpp:370-379 [enable_selector(begin, end, step)]. *)
Definition sel_rows (b e step : Z) : list Z := map (fun k => b + step * k) (zseq 0 ((e - b) / step + 1)).

Section Sha256.
Variable P : params.
Notation F := (F P).
Notation table := (table P).

(** ** Lookup tables *)

(** lookup_library.hpp:173-201, 223-249: for [i < 2^14], [i] and its bits
    spread in base [b]. *)
Definition sparse_row (b : Z) (x y : F) : Prop :=
  exists i, 0 <= i < 16384 /\
    x = ofZ (znth 0 (sas 14 2 i [14]) 0) /\ y = ofZ (znth 0 (sas 14 b i [14]) 0).
(** lookup_library.hpp:203-221: the file 8_split_4.txt has one row for each
    of the 65536 values of eight base-4 digits, with the parities of the
    digits (the contents of the file were compared with this description). *)
Definition reverse4_row (x y : F) : Prop :=
  exists v, 0 <= v < 65536 /\ x = ofZ (at0 (rss r_xor 4 v [8]) 0) /\ y = ofZ v.
(** lookup_library.hpp:251-268, sha_table_generators.hpp:236-303: the file
    8_split_7.txt, the chunks that occur for some 32-bit word (the contents
    of the file were compared with this set: 43904 rows). *)
Definition reverse7_row (x y : F) : Prop :=
  exists i k, 0 <= i < 2 ^ 32 /\ 0 <= k < 4 /\
    let l := rss r_xor 7 (sp_Sigma1 (sas 32 7 i e_sizes)) sigma_sizes in x = ofZ (at0 l k) /\ y = ofZ (at1 l k).
(** lookup_library.hpp:270-292 and 294-316. *)
Definition maj_row (x y : F) : Prop :=
  exists i, 0 <= i < 65536 /\ x = ofZ (at0 (rss r_maj 4 i [8]) 0) /\ y = ofZ (at1 (rss r_maj 4 i [8]) 0).
Definition ch_row (x y : F) : Prop :=
  exists i, 0 <= i < 5764801 /\ x = ofZ (at0 (rss r_ch 7 i [8]) 0) /\ y = ofZ (at1 (rss r_ch 7 i [8]) 0).

Definition on2 (R : F -> F -> Prop) (l : list F) : Prop := match l with [x; y] => R x y | _ => False end.
Definition on1 (R : F -> F -> Prop) (l : list F) : Prop := match l with [x] => exists y, R x y | _ => False end.
Definition sha_lenv : lenv P := fun name row =>
  if String.eqb name "sha256_sparse_base4/full" then on2 (sparse_row 4) row
  else if String.eqb name "sha256_sparse_base4/first_column" then on1 (sparse_row 4) row
  else if String.eqb name "sha256_reverse_sparse_base4/full" then on2 reverse4_row row
  else if String.eqb name "sha256_sparse_base7/full" then on2 (sparse_row 7) row
  else if String.eqb name "sha256_sparse_base7/first_column" then on1 (sparse_row 7) row
  else if String.eqb name "sha256_reverse_sparse_base7/full" then on2 reverse7_row row
  else if String.eqb name "sha256_maj/full" then on2 maj_row row
  else if String.eqb name "sha256_ch/full" then on2 ch_row row
  else False.

(** ** Circuit *)

Local Open Scope E_scope.
Notation "x '@' r" := (evar (P := P) (wv x r%Z)) (at level 4, no associativity).

Definition m32 : F := ofZ 4294967296.
Definition full4 (x y : expr P) := ("sha256_sparse_base4/full"%string, [x; y]).
Definition first4 (x : expr P) := ("sha256_sparse_base4/first_column"%string, [x]).
Definition rev4 (x y : expr P) := ("sha256_reverse_sparse_base4/full"%string, [x; y]).
Definition full7 (x y : expr P) := ("sha256_sparse_base7/full"%string, [x; y]).
Definition first7 (x : expr P) := ("sha256_sparse_base7/first_column"%string, [x]).
Definition rev7 (x y : expr P) := ("sha256_reverse_sparse_base7/full"%string, [x; y]).
Definition lmaj (x y : expr P) := ("sha256_maj/full"%string, [x; y]).
Definition lch (x y : expr P) := ("sha256_ch/full"%string, [x; y]).

Section Gates.
Variable c : comp.
Notation w i := (W c i%Z).

(** lines 472-564 [generate_sigma0_gates]. *)
Definition sg0_gate : list (expr P) :=
  [ (w 0)@(-1) - ((w 1)@(-1) + (w 2)@(-1) * $8 + (w 3)@(-1) * $128 + (w 4)@(-1) * $262144);
    ((w 1)@(-1) - $7) * ((w 1)@(-1) - $6) * ((w 1)@(-1) - $5) * ((w 1)@(-1) - $4) * ((w 1)@(-1) - $3) *
      ((w 1)@(-1) - $2) * ((w 1)@(-1) - $1) * (w 1)@(-1);
    (w 5)@0 + (w 6)@0 * $(2 ^ 16) + (w 7)@0 * $(2 ^ 32) + (w 8)@0 * $(2 ^ 48) -
      ((w 2)@0 * $(1 + 2 ^ 56 + 2 ^ 34) + (w 3)@0 * $(2 ^ 8 + 1 + 2 ^ 42) + (w 4)@0 * $(2 ^ 30 + 2 ^ 22 + 1) +
       (w 7)@(-1) * $(2 ^ 50 + 2 ^ 28)) ].
Definition sg0_lookup : list (string * list (expr P)) :=
  [ full4 ((w 1)@(-1)) ((w 7)@(-1)); first4 ((w 2)@(-1) * $1024); full4 ((w 2)@(-1)) ((w 2)@0);
    first4 ((w 3)@(-1) * $8); full4 ((w 3)@(-1)) ((w 3)@0); full4 ((w 4)@(-1)) ((w 4)@0);
    rev4 ((w 1)@1) ((w 5)@0); rev4 ((w 2)@1) ((w 6)@0); rev4 ((w 3)@1) ((w 7)@0); rev4 ((w 4)@1) ((w 8)@0) ].

(** lines 566-671 [generate_sigma1_gates]. *)
Definition sg1_gate : list (expr P) :=
  [ (w 0)@0 - ((w 1)@0 + (w 2)@0 * $(2 ^ 10) + (w 3)@0 * $(2 ^ 17) + (w 4)@0 * $(2 ^ 19));
    ((w 3)@0 - $3) * ((w 3)@0 - $2) * ((w 3)@0 - $1) * (w 3)@0;
    (w 5)@(-1) + (w 6)@(-1) * $(2 ^ 16) + (w 7)@(-1) * $(2 ^ 32) + (w 8)@(-1) * $(2 ^ 48) -
      ((w 2)@(-1) * $(1 + 2 ^ 50 + 2 ^ 46) + (w 3)@(-1) * $(2 ^ 14 + 1 + 2 ^ 60) +
       (w 4)@(-1) * $(2 ^ 18 + 2 ^ 4 + 1) + (w 1)@(-1) * $(2 ^ 30 + 2 ^ 26));
    (w 5)@0 + (w 6)@0 * $(2 ^ 14) + (w 7)@0 * $(2 ^ 28) - (w 8)@0 ].
Definition sg1_lookup : list (string * list (expr P)) :=
  [ first4 ((w 1)@0 * $16); full4 ((w 1)@0) ((w 1)@(-1)); first4 ((w 2)@0 * $128); full4 ((w 2)@0) ((w 2)@(-1));
    first4 ((w 4)@0 * $2); full4 ((w 3)@0) ((w 3)@(-1)); full4 ((w 4)@0) ((w 4)@(-1));
    first4 ((w 5)@0); first4 ((w 6)@0); first4 ((w 7)@0); first4 ((w 7)@0 * $(2 ^ 10));
    first4 ((w 0)@(-1)); first4 ((w 0)@(-1) * $(2 ^ 10)) ].

(** lines 673-731 [generate_message_scheduling_gates]. *)
Definition msg_gate : list (expr P) :=
  [ (w 0)@0 + ecst m32 * (w 0)@1 -
      ((w 0)@(-1) + (w 1)@(-1) + (w 1)@0 + (w 2)@0 * $(2 ^ 8) + (w 3)@0 * $(2 ^ 16) + (w 4)@0 * $(2 ^ 24) +
       (w 5)@0 + (w 6)@0 * $(2 ^ 8) + (w 7)@0 * $(2 ^ 16) + (w 8)@0 * $(2 ^ 24));
    ((w 0)@1 - $3) * ((w 0)@1 - $2) * ((w 0)@1 - $1) * (w 0)@1 ].
Definition msg_lookup : list (string * list (expr P)) :=
  [ rev4 ((w 5)@0) ((w 5)@1); rev4 ((w 6)@0) ((w 6)@1); rev4 ((w 7)@0) ((w 7)@1); rev4 ((w 8)@0) ((w 8)@1) ].

(** lines 733-864 [generate_Sigma0_gates]. *)
Definition Sg0_gate : list (expr P) :=
  [ (w 0)@1 - ((w 2)@1 + (w 3)@1 * $(2 ^ 2) + (w 4)@1 * $(2 ^ 13) + (w 5)@1 * $(2 ^ 22));
    (w 0)@(-1) - ((w 2)@0 + (w 3)@0 * $(2 ^ 4) + (w 4)@0 * $(2 ^ 26) + (w 5)@0 * $(2 ^ 44));
    ((w 2)@1 - $3) * ((w 2)@1 - $2) * ((w 2)@1 - $1) * (w 2)@1;
    (w 0)@0 + (w 1)@0 * $(2 ^ 16) + (w 6)@0 * $(2 ^ 32) + (w 7)@0 * $(2 ^ 48) -
      ((w 2)@0 * $(2 ^ 38 + 2 ^ 20 + 2 ^ 60) + (w 3)@0 * $(2 ^ 42 + 1 + 2 ^ 24) +
       (w 4)@0 * $(2 ^ 22 + 2 ^ 46 + 1) + (w 5)@0 * $(2 ^ 40 + 2 ^ 18 + 1));
    (w 6)@1 + (w 7)@1 * $(2 ^ 14) + (w 8)@1 * $(2 ^ 28) - (w 2)@(-1) ].
Definition Sg0_lookup : list (string * list (expr P)) :=
  [ first4 ((w 3)@1 * $8); full4 ((w 2)@1) ((w 2)@0); first4 ((w 4)@1 * $32); full4 ((w 3)@1) ((w 3)@0);
    first4 ((w 5)@1 * $16); full4 ((w 4)@1) ((w 4)@0); full4 ((w 5)@1) ((w 5)@0);
    rev4 ((w 5)@(-1)) ((w 0)@0); rev4 ((w 6)@(-1)) ((w 1)@0); rev4 ((w 7)@(-1)) ((w 6)@0); rev4 ((w 8)@(-1)) ((w 7)@0);
    first4 ((w 6)@1); first4 ((w 7)@1); first4 ((w 8)@1); first4 ((w 8)@1 * $(2 ^ 10));
    first4 ((w 3)@(-1)); first4 ((w 3)@(-1) * $(2 ^ 8)) ].

(** lines 866-961 [generate_Sigma1_gates]; the first lookup is on
    [e_chunks[0][1]] as in the code, not on [e_chunks[0][0]]. *)
Definition Sg1_gate : list (expr P) :=
  [ (w 0)@(-1) - ((w 2)@(-1) + (w 3)@(-1) * $(2 ^ 6) + (w 4)@(-1) * $(2 ^ 11) + (w 5)@(-1) * $(2 ^ 25));
    (w 0)@0 - ((w 1)@(-1) + (w 2)@0 * $(7 ^ 6) + (w 3)@0 * $(7 ^ 11) + (w 4)@0 * $(7 ^ 25));
    (w 5)@0 + (w 6)@(-1) * $(7 ^ 8) + (w 7)@(-1) * $(7 ^ 16) + (w 8)@(-1) * $(7 ^ 24) -
      ((w 2)@0 * $(7 ^ 27 + 7 ^ 13 + 1) + (w 3)@0 * $(7 ^ 5 + 1 + 7 ^ 18) + (w 4)@0 * $(7 ^ 19 + 7 ^ 14 + 1) +
       (w 1)@(-1) * $(7 ^ 26 + 7 ^ 21 + 7 ^ 7)) ].
Definition Sg1_lookup : list (string * list (expr P)) :=
  [ first7 ((w 3)@(-1) * $256); full7 ((w 2)@(-1)) ((w 1)@(-1)); first7 ((w 3)@(-1) * $512);
    full7 ((w 3)@(-1)) ((w 2)@0); first7 ((w 5)@(-1) * $128); full7 ((w 4)@(-1)) ((w 3)@0);
    full7 ((w 5)@(-1)) ((w 4)@0);
    rev7 ((w 5)@1) ((w 5)@0); rev7 ((w 6)@1) ((w 6)@(-1)); rev7 ((w 7)@1) ((w 7)@(-1)); rev7 ((w 8)@1) ((w 8)@(-1)) ].

(** lines 963-993 [generate_Maj_gates]. *)
Definition maj_gate : list (expr P) :=
  [ (w 0)@0 + (w 1)@0 * $(2 ^ 16) + (w 2)@0 * $(2 ^ 32) + (w 3)@0 * $(2 ^ 48) - ((w 0)@1 + (w 1)@1 + (w 4)@1) ].
Definition maj_lookup : list (string * list (expr P)) :=
  [ lmaj ((w 5)@0) ((w 0)@0); lmaj ((w 6)@0) ((w 1)@0); lmaj ((w 7)@0) ((w 2)@0); lmaj ((w 8)@0) ((w 3)@0) ].

(** lines 995-1066 [generate_Ch_gates]. *)
Definition ch_gate : list (expr P) :=
  [ (w 0)@0 + (w 1)@0 * $(7 ^ 8) + (w 2)@0 * $(7 ^ 16) + (w 3)@0 * $(7 ^ 24) -
      ((w 0)@(-1) + $2 * (w 1)@(-1) + $3 * (w 0)@1);
    (w 6)@(-1) + (w 7)@(-1) * $(2 ^ 14) + (w 8)@(-1) * $(2 ^ 28) - (w 4)@1 ].
Definition ch_lookup : list (string * list (expr P)) :=
  [ lch ((w 5)@1) ((w 0)@0); lch ((w 6)@1) ((w 1)@0); lch ((w 7)@1) ((w 2)@0); lch ((w 8)@1) ((w 3)@0);
    first4 ((w 6)@(-1)); first4 ((w 7)@(-1)); first4 ((w 8)@(-1)); first4 ((w 4)@0); first4 ((w 4)@0 * $(2 ^ 9)) ].

(** lines 1067-1131 [generate_compression_gates]: [selector_2], [selector_3]
    and [selector_6]. *)
Definition enew_gate : list (expr P) :=
  [ (w 4)@1 - ((w 2)@0 + (w 5)@(-1) + (w 6)@(-1) * $(2 ^ 8) + (w 7)@(-1) * $(2 ^ 16) + (w 8)@(-1) * $(2 ^ 24) +
               (w 5)@0 + (w 6)@0 * $(2 ^ 8) + (w 7)@0 * $(2 ^ 16) + (w 8)@0 * $(2 ^ 24) +
               #(mkVar (C c 0) 0 true CConst) + (w 3)@0);
    (w 4)@0 + ecst m32 * (w 4)@(-1) - ((w 1)@0 + (w 4)@1);
    ((w 4)@(-1) - $5) * ((w 4)@(-1) - $4) * ((w 4)@(-1) - $3) * ((w 4)@(-1) - $2) * ((w 4)@(-1) - $1) * (w 4)@(-1) ].
Definition anew_gate : list (expr P) :=
  [ (w 2)@1 + ecst m32 * (w 3)@1 -
      ((w 4)@0 + (w 5)@1 + (w 6)@1 * $(2 ^ 8) + (w 7)@1 * $(2 ^ 16) + (w 8)@1 * $(2 ^ 24) +
       (w 5)@0 + (w 6)@0 * $(2 ^ 8) + (w 7)@0 * $(2 ^ 16) + (w 8)@0 * $(2 ^ 24));
    ((w 3)@1 - $6) * ((w 3)@1 - $5) * ((w 3)@1 - $4) * ((w 3)@1 - $3) * ((w 3)@1 - $2) * ((w 3)@1 - $1) * (w 3)@1 ].
Definition out_gate : list (expr P) :=
  [ (w 0)@1 + ecst m32 * (w 4)@1 - ((w 0)@0 + (w 4)@0); (w 1)@1 + ecst m32 * (w 5)@1 - ((w 1)@0 + (w 5)@0);
    (w 2)@1 + ecst m32 * (w 6)@1 - ((w 2)@0 + (w 6)@0); (w 3)@1 + ecst m32 * (w 7)@1 - ((w 3)@0 + (w 7)@0);
    (w 4)@1 * ((w 4)@1 - $1); (w 5)@1 * ((w 5)@1 - $1); (w 6)@1 * ((w 6)@1 - $1); (w 7)@1 * ((w 7)@1 - $1) ].

(** lines 1133-1175 [generate_output_check_gates]. *)
Definition chk_gate : list (expr P) :=
  [ (w 0)@0 + (w 1)@0 * $(2 ^ 14) + (w 2)@0 * $(2 ^ 28) - (w 3)@0;
    (w 4)@0 + (w 5)@0 * $(2 ^ 14) + (w 6)@0 * $(2 ^ 28) - (w 7)@0 ].
Definition chk_lookup : list (string * list (expr P)) :=
  [ first4 ((w 0)@0); first4 ((w 1)@0); first4 ((w 2)@0); first4 ((w 2)@0 * $(2 ^ 10));
    first4 ((w 4)@0); first4 ((w 5)@0); first4 ((w 6)@0); first4 ((w 6)@0 * $(2 ^ 10)) ].

(** [input_type] (lines 109-120): the state and the words of the block. *)
Variables (st wd : Z -> var).
Variable row : Z.
Local Open Scope Z_scope.
Notation cp i o v := (Copy (wcell (W c i%Z) (row + (o))) v).
Notation cell i o := (wcell (W c i%Z) (row + (o))).

(** lines 455-470 [generate_assignments_constant]. *)
Definition sp_consts : list (cmd P) :=
  map (fun i => SetConst (C c 0) (row + 245 + i * 8) (ofZ (znth 0 round_constant i))) (zseq 0 64).

(** lines 1179-1202 [generate_gates] and the selectors of
    [generate_circuit] (lines 1318-1346), with [j] the row after the input
    state, the first compression row, and the first output row. *)
Definition sp_gates : list (cmd P) :=
  let j := row + 2 in
  let k := row + 242 in
  let o := row + 754 in
  [ Gate sg0_gate (sel_rows (j + 1) (j + 239) 5); LookupGate sg0_lookup (sel_rows (j + 1) (j + 239) 5);
    Gate msg_gate (sel_rows (j + 2) (j + 239) 5); LookupGate msg_lookup (sel_rows (j + 2) (j + 239) 5);
    Gate sg1_gate (sel_rows (j + 4) (j + 239) 5); LookupGate sg1_lookup (sel_rows (j + 4) (j + 239) 5);
    Gate Sg1_gate (sel_rows (k + 1) (k + 511) 8); LookupGate Sg1_lookup (sel_rows (k + 1) (k + 511) 8);
    Gate Sg0_gate (sel_rows (k + 6) (k + 511) 8); LookupGate Sg0_lookup (sel_rows (k + 6) (k + 511) 8);
    Gate enew_gate (sel_rows (k + 3) (k + 511) 8); Gate anew_gate (sel_rows (k + 4) (k + 511) 8);
    Gate maj_gate (sel_rows (k + 4) (k + 511) 8); LookupGate maj_lookup (sel_rows (k + 4) (k + 511) 8);
    Gate ch_gate (sel_rows (k + 2) (k + 511) 8); LookupGate ch_lookup (sel_rows (k + 2) (k + 511) 8);
    Gate out_gate (sel_rows o (o + 2) 2);
    Gate chk_gate (sel_rows (o + 4) (o + 4 + 3) 1); LookupGate chk_lookup (sel_rows (o + 4) (o + 4 + 3) 1) ].

(** lines 1204-1301 [generate_copy_constraints]. *)
Definition sp_copies : list (cmd P) :=
  map (fun i => cp 0 (2 + (i - 1) * 5) (wd i)) (zseq 1 16) ++
  map (fun i => cp 0 (2 + (i - 9) * 5 + 1) (wd i)) (zseq 9 16) ++
  map (fun i => cp 1 (2 + i * 5 + 1) (wd i)) (zseq 0 16) ++
  map (fun i => cp 0 (2 + (i - 14) * 5 + 4) (wd i)) (zseq 14 16) ++
  flat_map (fun r =>
    (if 2 <=? r then [cp 0 (2 + r * 5 + 4) (cell 0 (2 + (r - 2) * 5 + 2))] else []) ++
    (if 7 <=? r then [cp 0 (2 + r * 5 + 1) (cell 0 (2 + (r - 7) * 5 + 2))] else []) ++
    (if 15 <=? r then [cp 0 (2 + r * 5) (cell 0 (2 + (r - 15) * 5 + 2))] else []) ++
    (if 16 <=? r then [cp 1 (2 + r * 5 + 1) (cell 0 (2 + (r - 16) * 5 + 2))] else []) ++
    [cp 0 (2 + r * 5 + 2) (cell 8 (2 + r * 5 + 4))]) (zseq 0 48) ++
  flat_map (fun r =>
    [cp 0 (242 + r * 8) (cell 4 (242 + (r - 1) * 8 + 3));
     cp 0 (242 + r * 8 + 7) (cell 2 (242 + (r - 1) * 8 + 5));
     cp 1 (242 + r * 8 + 5) (cell 0 (242 + (r - 1) * 8 + 5));
     cp 4 (242 + r * 8 + 5) (cell 1 (242 + (r - 1) * 8 + 5));
     cp 1 (242 + r * 8 + 1) (cell 0 (242 + (r - 1) * 8 + 1));
     cp 0 (242 + r * 8 + 3) (cell 1 (242 + (r - 1) * 8 + 1))]) (zseq 1 64) ++
  [cp 0 753 (cell 5 754); cp 0 745 (cell 6 754); cp 0 737 (cell 7 754);
   cp 0 746 (cell 5 756); cp 0 738 (cell 6 756); cp 0 730 (cell 7 756)] ++
  flat_map (fun i => [Copy (wcell (W c i) (row + 754)) (st i); Copy (wcell (W c i) (row + 756)) (st (i + 4))]) (zseq 0 4) ++
  [cp 4 754 (cell 3 758); cp 5 754 (cell 7 758); cp 6 754 (cell 3 759); cp 7 754 (cell 7 759);
   cp 4 756 (cell 3 760); cp 5 756 (cell 7 760); cp 6 756 (cell 3 761); cp 7 756 (cell 7 761)].

(** lines 1303-1351 [generate_circuit]. *)
Definition sp_circuit : list (cmd P) := sp_consts ++ sp_gates ++ sp_copies.

End Gates.

(** lines 122-137 [result_type]: word [i] of the output state. *)
Definition sp_out (c : comp) (row i : Z) : var :=
  if i <? 4 then wcell (W c i) (row + 762 - 7) else wcell (W c (i - 4)) (row + 762 - 5).
Definition sp_rows : Z := 762.

(** ** Assignment *)

Local Open Scope Z_scope.

(** An addition of field elements, read back as an integer. *)
Definition fred (z : Z) : Z := z mod char P.

(** One message round (lines 1441-1550): the two sparse decompositions, and
    the sum before reduction. *)
Definition sigma0_of (a : Z) : list (Z * Z) := rss r_xor 4 (sp_sigma0 (sas 32 4 a a_sizes)) sigma_sizes.
Definition sigma1_of (b : Z) : list (Z * Z) := rss r_xor 4 (sp_sigma1 (sas 32 4 b b_sizes)) sigma_sizes.
Definition msg_sum (ws : list Z) (r : Z) : Z :=
  let s0 := sigma0_of (znth 0 ws (r + 1)) in
  let s1 := sigma1_of (znth 0 ws (r + 14)) in
  znth 0 ws (r + 9) + znth 0 ws r + at0 s1 0 + at0 s0 0 + 2 ^ 8 * (at0 s1 1 + at0 s0 1) +
  2 ^ 16 * (at0 s1 2 + at0 s0 2) + 2 ^ 24 * (at0 s1 3 + at0 s0 3).
(** [message_scheduling_words] after [n] rounds. *)
Definition sp_words (ws : list Z) (n : Z) : list Z :=
  fold_left (fun ws r => ws ++ [fred (msg_sum ws r) mod 2 ^ 32]) (zseq 0 n) ws.

(** The working variables and the sparse values carried from round to round
    ([sparse_values[3]] and [[7]] are written but never read). *)
Record cst := mkCst { c_a : Z; c_b : Z; c_c : Z; c_d : Z; c_e : Z; c_f : Z; c_g : Z; c_h : Z;
                      v_1 : Z; v_2 : Z; v_5 : Z; v_6 : Z }.
(** lines 1579-1583, 1679-1683: [sparse_values[4]] and [[0]] of the round. *)
Definition v4_of (e : Z) : Z :=
  let l := sas 32 7 e e_sizes in
  fred (znth 0 l 0 + znth 0 l 1 * 7 ^ 6 + znth 0 l 2 * 7 ^ 11 + znth 0 l 3 * 7 ^ 25).
Definition v0_of (a : Z) : Z :=
  let l := sas 32 4 a c_sizes in
  fred (znth 0 l 0 + znth 0 l 1 * 4 ^ 2 + znth 0 l 2 * 4 ^ 13 + znth 0 l 3 * 4 ^ 22).
Definition Sigma1_of (e : Z) : list (Z * Z) := rss r_xor 7 (fred (sp_Sigma1 (sas 32 7 e e_sizes))) sigma_sizes.
Definition Sigma0_of (a : Z) : list (Z * Z) := rss r_xor 4 (sp_Sigma0 (sas 32 4 a c_sizes)) sigma_sizes.
Definition ch_of (s : cst) : list (Z * Z) := rss r_ch 7 (v4_of (c_e s) + 2 * v_5 s + 3 * v_6 s) sigma_sizes.
Definition maj_of (s : cst) : list (Z * Z) := rss r_maj 4 (v0_of (c_a s) + v_1 s + v_2 s) sigma_sizes.
Definition tmp1_of (k w : Z) (s : cst) : Z := c_h s + join8 (Sigma1_of (c_e s)) + join8 (ch_of s) + k + w.
Definition esum_of (k w : Z) (s : cst) : Z := tmp1_of k w s + c_d s.
Definition asum_of (k w : Z) (s : cst) : Z := tmp1_of k w s + join8 (Sigma0_of (c_a s)) + join8 (maj_of s).
Definition enew_of (k w : Z) (s : cst) : Z := fred (esum_of k w s) mod 2 ^ 32.
Definition anew_of (k w : Z) (s : cst) : Z := fred (asum_of k w s) mod 2 ^ 32.
(** lines 1742-1756. *)
Definition c_step (k w : Z) (s : cst) : cst :=
  mkCst (anew_of k w s) (c_a s) (c_b s) (c_c s) (enew_of k w s) (c_e s) (c_f s) (c_g s)
        (v0_of (c_a s)) (v_1 s) (v4_of (c_e s)) (v_5 s).
Definition c_states (ws : list Z) (n : Z) (s : cst) : cst :=
  fold_left (fun s t => c_step (znth 0 round_constant t) (znth 0 ws t) s) (zseq 0 n) s.
(** lines 1389-1433: the state before the first round. *)
Definition sparse32 (base x : Z) : Z := znth 0 (sas 32 base x [32]) 0.
Definition c_init (h : list Z) : cst :=
  mkCst (znth 0 h 0) (znth 0 h 1) (znth 0 h 2) (znth 0 h 3) (znth 0 h 4) (znth 0 h 5) (znth 0 h 6) (znth 0 h 7)
        (sparse32 4 (znth 0 h 1)) (sparse32 4 (znth 0 h 2)) (sparse32 7 (znth 0 h 5)) (sparse32 7 (znth 0 h 6)).
Definition c_list (s : cst) : list Z := [c_a s; c_b s; c_c s; c_d s; c_e s; c_f s; c_g s; c_h s].

(** lines 189-446 [calculate]. *)
Definition sp_calculate (h m : list Z) : list Z :=
  let s := c_list (c_states (sp_words m 48) 64 (c_init h)) in
  map (fun i => (znth 0 h i + znth 0 s i) mod 2 ^ 32) (zseq 0 8).

(** [(sum - low) * 2^-32] in the field (lines 1547-1549 and similar). *)
Definition fcarry (sum low : Z) : F := fmul (fsub (ofZ sum) (ofZ low)) (finv (ofZ (2 ^ 32))).
(** [((1 << 14) - 1) & (x >> s)]. *)
Definition lim14 (x s : Z) : Z := Z.land (Z.shiftr x s) (2 ^ 14 - 1).

Notation some z := (Some (ofZ (P := P) z)).

(** Rows [5 r + 2 ... 5 r + 6] (lines 1441-1550); [m] is the row inside the
    block, [k] the column. *)
Definition msg_cell (ws : list Z) (r m k : Z) : option F :=
  let a := znth 0 ws (r + 1) in
  let b := znth 0 ws (r + 14) in
  let ach := sas 32 2 a a_sizes in
  let asp := sas 32 4 a a_sizes in
  let bch := sas 32 2 b b_sizes in
  let bsp := sas 32 4 b b_sizes in
  let s0 := sigma0_of a in
  let s1 := sigma1_of b in
  let sum := msg_sum ws r in
  let x := znth 0 ws (r + 16) in
  match m with
  | 0 => match k with
         | 0 => some a | 1 => some (znth 0 ach 0) | 2 => some (znth 0 ach 1) | 3 => some (znth 0 ach 2)
         | 4 => some (znth 0 ach 3) | 7 => some (znth 0 asp 0) | _ => None end
  | 1 => match k with
         | 0 => some (znth 0 ws (r + 9)) | 1 => some (znth 0 ws r)
         | 2 => some (znth 0 asp 1) | 3 => some (znth 0 asp 2) | 4 => some (znth 0 asp 3)
         | 5 => some (at1 s0 0) | 6 => some (at1 s0 1) | 7 => some (at1 s0 2) | 8 => some (at1 s0 3) | _ => None end
  | 2 => match k with
         | 0 => some x | 1 => some (at0 s0 0) | 2 => some (at0 s0 1) | 3 => some (at0 s0 2) | 4 => some (at0 s0 3)
         | 5 => some (at0 s1 0) | 6 => some (at0 s1 1) | 7 => some (at0 s1 2) | 8 => some (at0 s1 3) | _ => None end
  | 3 => match k with
         | 0 => Some (fcarry sum x)
         | 1 => some (znth 0 bsp 0) | 2 => some (znth 0 bsp 1) | 3 => some (znth 0 bsp 2) | 4 => some (znth 0 bsp 3)
         | 5 => some (at1 s1 0) | 6 => some (at1 s1 1) | 7 => some (at1 s1 2) | 8 => some (at1 s1 3) | _ => None end
  | 4 => match k with
         | 0 => some b
         | 1 => some (znth 0 bch 0) | 2 => some (znth 0 bch 1) | 3 => some (znth 0 bch 2) | 4 => some (znth 0 bch 3)
         | 5 => some (lim14 x 0) | 6 => some (lim14 x 14) | 7 => some (lim14 x 28) | 8 => some x | _ => None end
  | _ => None
  end.

(** Rows [8 r + 242 ... 8 r + 249] (lines 1552-1757). *)
Definition cmp_cell (kc wr : Z) (s : cst) (m k : Z) : option F :=
  let ech := sas 32 2 (c_e s) e_sizes in
  let esp := sas 32 7 (c_e s) e_sizes in
  let ach := sas 32 2 (c_a s) c_sizes in
  let asp := sas 32 4 (c_a s) c_sizes in
  let S1 := Sigma1_of (c_e s) in
  let S0 := Sigma0_of (c_a s) in
  let ch := ch_of s in
  let mj := maj_of s in
  let en := enew_of kc wr s in
  let an := anew_of kc wr s in
  match m with
  | 0 => match k with
         | 0 => some (c_e s) | 1 => some (znth 0 esp 0)
         | 2 => some (znth 0 ech 0) | 3 => some (znth 0 ech 1) | 4 => some (znth 0 ech 2) | 5 => some (znth 0 ech 3)
         | 6 => some (at1 S1 1) | 7 => some (at1 S1 2) | 8 => some (at1 S1 3) | _ => None end
  | 1 => match k with
         | 0 => some (v4_of (c_e s)) | 1 => some (v_5 s)
         | 2 => some (znth 0 esp 1) | 3 => some (znth 0 esp 2) | 4 => some (znth 0 esp 3) | 5 => some (at1 S1 0)
         | 6 => some (lim14 en 0) | 7 => some (lim14 en 14) | 8 => some (lim14 en 28) | _ => None end
  | 2 => match k with
         | 0 => some (at1 ch 0) | 1 => some (at1 ch 1) | 2 => some (at1 ch 2) | 3 => some (at1 ch 3)
         | 4 => Some (fcarry (esum_of kc wr s) en)
         | 5 => some (at0 S1 0) | 6 => some (at0 S1 1) | 7 => some (at0 S1 2) | 8 => some (at0 S1 3) | _ => None end
  | 3 => match k with
         | 0 => some (v_6 s) | 1 => some (c_d s) | 2 => some (c_h s) | 3 => some wr | 4 => some en
         | 5 => some (at0 ch 0) | 6 => some (at0 ch 1) | 7 => some (at0 ch 2) | 8 => some (at0 ch 3) | _ => None end
  | 4 => match k with
         | 0 => some (at1 mj 0) | 1 => some (at1 mj 1) | 2 => some (at1 mj 2) | 3 => some (at1 mj 3)
         | 4 => some (tmp1_of kc wr s)
         | 5 => some (at0 mj 0) | 6 => some (at0 mj 1) | 7 => some (at0 mj 2) | 8 => some (at0 mj 3) | _ => None end
  | 5 => match k with
         | 0 => some (v0_of (c_a s)) | 1 => some (v_1 s) | 2 => some an | 3 => Some (fcarry (asum_of kc wr s) an)
         | 4 => some (v_2 s)
         | 5 => some (at0 S0 0) | 6 => some (at0 S0 1) | 7 => some (at0 S0 2) | 8 => some (at0 S0 3) | _ => None end
  | 6 => match k with
         | 0 => some (at1 S0 0) | 1 => some (at1 S0 1)
         | 2 => some (znth 0 asp 0) | 3 => some (znth 0 asp 1) | 4 => some (znth 0 asp 2) | 5 => some (znth 0 asp 3)
         | 6 => some (at1 S0 2) | 7 => some (at1 S0 3) | _ => None end
  | 7 => match k with
         | 0 => some (c_a s)
         | 2 => some (znth 0 ach 0) | 3 => some (znth 0 ach 1) | 4 => some (znth 0 ach 2) | 5 => some (znth 0 ach 3)
         | 6 => some (lim14 an 0) | 7 => some (lim14 an 14) | 8 => some (lim14 an 28) | _ => None end
  | _ => None
  end.

(** Rows 754-757 (lines 1757-1788): [h] the input state, [o] the working
    variables after the last round, [q] is 0 for the first half and 4 for the
    second. *)
Definition out_cell (h o : list Z) (q m k : Z) : option F :=
  let lo := k <? 4 in
  let i := if lo then k + q else k - 4 + q in
  let sum := znth 0 h i + znth 0 o i in
  if (0 <=? k) && (k <? 8) then
    match m with
    | 0 => if lo then some (znth 0 h i) else some (znth 0 o i)
    | 1 => if lo then some (sum mod 2 ^ 32) else some ((sum - sum mod 2 ^ 32) / 2 ^ 32)
    | _ => None
    end
  else None.

(** Rows 758-761 (lines 1789-1803). *)
Definition chk_cell (o : list Z) (i k : Z) : option F :=
  let x := znth 0 o (2 * i) in
  let y := znth 0 o (2 * i + 1) in
  match k with
  | 0 => some (lim14 x 0) | 1 => some (lim14 x 14) | 2 => some (lim14 x 28) | 3 => some x
  | 4 => some (lim14 y 0) | 5 => some (lim14 y 14) | 6 => some (lim14 y 28) | 7 => some y
  | _ => None
  end.

(** Rows 0 and 1 (lines 1389-1433). *)
Definition inp_cell (h : list Z) (m k : Z) : option F :=
  if (0 <=? k) && (k <? 8) then
    if m =? 0 then some (znth 0 h k) else some (sparse32 (if k <? 4 then 4 else 7) (znth 0 h k))
  else None.

(** lines 1353-1858 [generate_assignments], the whole block: [o] is the row
    relative to the start row and [k] the column.  [cs t] is the state at the
    start of round [t] and [fin] the working variables after the last round. *)
Definition sp_cell (h ws cw : list Z) (cs : Z -> cst) (fin : list Z) (o k : Z) : option F :=
  if o <? 2 then inp_cell h o k
  else if o <? 242 then msg_cell ws ((o - 2) / 5) ((o - 2) mod 5) k
  else if o <? 754 then
    let t := (o - 242) / 8 in cmp_cell (znth 0 round_constant t) (znth 0 cw t) (cs t) ((o - 242) mod 8) k
  else if o <? 756 then out_cell h fin 0 (o - 754) k
  else if o <? 758 then out_cell h fin 4 (o - 756) k
  else chk_cell fin (o - 758) k.

(** Position of a column among the component's witness columns. *)
Fixpoint pos_in (l : list Z) (x : Z) (i : Z) : option Z :=
  match l with
  | [] => None
  | y :: r => if y =? x then Some i else pos_in r x (i + 1)
  end.

(** Writing a block of [n] rows. *)
Definition put (c : comp) (row n : Z) (cell : Z -> Z -> option F) (T : table) : table :=
  fun ty col r =>
    if ctype_eqb ty CWit && ((row <=? r) && (r <? row + n)) then
      match pos_in (cWs c) col 0 with
      | Some k => match cell (r - row) k with Some v => v | None => T ty col r end
      | None => T ty col r
      end
    else T ty col r.

Definition sp_assign (c : comp) (st wd : Z -> var) (row : Z) (T : table) : table :=
  let h := map (fun i => fval (vval T (st i))) (zseq 0 8) in
  let m := map (fun i => fval (vval T (wd i))) (zseq 0 16) in
  let ws := sp_words m 48 in
  put c row sp_rows (sp_cell h ws ws (fun t => c_states ws t (c_init h)) (c_list (c_states ws 64 (c_init h)))) T.

End Sha256.

Arguments sp_circuit {P}. Arguments sp_assign {P}. Arguments put {P}. Arguments sha_lenv {P}.
