(** Model of components/hashes/sha2/plonk/detail/sha_table_generators.hpp:
    the programs that produce the two reverse tables of SHA-256.

    Simplifications: integers are unbounded; the threads are given by the
    words each of them visits, and a run is any order of all the visits (the
    insertions of one word are made under one lock, lines 159 and 277); the
    set is the list of insertions, read through membership. *)
From Coq Require Import ZArith List.
From Verif Require Import Base Field Plonk Bits Sha256Model.
Import ListNotations.
Open Scope Z_scope.

(** Lines 161-164 and similar: the pairs of one chunk list. *)
Definition tg_pairs (l : list (Z * Z)) : list (Z * Z) := map (fun k => (at0 l k, at1 l k)) [0; 1; 2; 3].

(** Lines 81-176 [base4_reverse_table_iter]: the multipliers of lines 98-115
    are those of the component. *)
Definition tg_iter4 (ts i : Z) : list (Z * Z) :=
  tg_pairs (rss r_xor 4 (sp_sigma0 (sas ts 4 i a_sizes)) sigma_sizes) ++
  tg_pairs (rss r_xor 4 (sp_sigma1 (sas ts 4 i b_sizes)) sigma_sizes) ++
  tg_pairs (rss r_xor 4 (sp_Sigma0 (sas ts 4 i c_sizes)) sigma_sizes).
(** Lines 235-284 [base7_reverse_table_iter]. *)
Definition tg_iter7 (ts i : Z) : list (Z * Z) :=
  tg_pairs (rss r_xor 7 (sp_Sigma1 (sas ts 7 i e_sizes)) sigma_sizes).

(** Lines 189-191 and 297-299: the words of one worker. *)
Definition tg_worker (start end_ : Z) : list Z := zseq start end_.
(** Lines 208 and 318: the [static_assert] on the number of threads. *)
Definition tg_assert (tn : Z) : Prop := tn = 1 \/ tn mod 2 = 0 /\ 1 < tn.
(** Lines 209-225 and 319-335: one word to fill the cache, then the threads. *)
Definition tg_words (ts tn : Z) : list Z :=
  tg_worker 0 1 ++ flat_map (fun i => tg_worker (2 ^ ts / tn * i) (2 ^ ts / tn * (i + 1))) (zseq 0 tn).
(** The set after the words were visited in the order [run]. *)
Definition tg_table (iter : Z -> list (Z * Z)) (run : list Z) : list (Z * Z) := flat_map iter run.
