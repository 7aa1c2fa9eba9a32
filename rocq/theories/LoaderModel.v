(** Model of detail/lookup_table_loaders.hpp: the parser of lookup tables in text form.

    Simplifications: a stream is the list of its lines, each ended by a newline, and
    a text is a list of character codes; the first line, the number of rows, is given
    as a number.  The grammar of Boost.Spirit is taken at its documented meaning: a
    number reads as many digits as it can up to its maximum, the skipper removes white
    space before each number, and what follows the last number is ignored.
    Not modelled: opening files, and the texts of lookup_table_precomputes.hpp. *)
From Coq Require Import ZArith List Bool.
From Verif Require Import Base Field.
Import ListNotations.
Open Scope Z_scope.

(** line 57 [uint_parser] with radix 16: a digit in either case. *)
Definition lt_hex (ch : Z) : option Z :=
  if (48 <=? ch) && (ch <=? 57) then Some (ch - 48)
  else if (97 <=? ch) && (ch <=? 102) then Some (ch - 87)
  else if (65 <=? ch) && (ch <=? 70) then Some (ch - 55)
  else None.
(** line 89 [ascii::space_type]. *)
Definition lt_space (ch : Z) : bool := (ch =? 32) || ((9 <=? ch) && (ch <=? 13)).
Fixpoint lt_skip (s : list Z) : list Z :=
  match s with ch :: t => if lt_space ch then lt_skip t else s | [] => [] end.
(** line 58: at most [n] digits. *)
Fixpoint lt_digits (n : nat) (acc : Z) (s : list Z) : Z * list Z :=
  match n, s with
  | S m, ch :: t => match lt_hex ch with Some d => lt_digits m (16 * acc + d) t | None => (acc, s) end
  | _, _ => (acc, s)
  end.
(** line 57: at least one digit. *)
Definition lt_number (maxd : nat) (s : list Z) : option (Z * list Z) :=
  match s with
  | ch :: _ => match lt_hex ch with Some _ => Some (lt_digits maxd 0 s) | None => None end
  | [] => None
  end.

Section Loader.
Variable P : params.
Notation F := (F P).

(** line 58: the maximal number of digits, from [modulus_bits]. *)
Definition lt_bits : Z := Z.log2 (char P) + 1.
Definition lt_maxd : nat := Z.to_nat ((lt_bits + 16 - 1) / 16).
(** line 59 [repeat(size)]. *)
Fixpoint lt_line (size : nat) (s : list Z) : option (list F) :=
  match size with
  | O => Some []
  | S k => match lt_number lt_maxd (lt_skip s) with
           | Some (v, t) => match lt_line k t with Some l => Some (ofZ v :: l) | None => None end
           | None => None
           end
  end.
(** lines 85-98: [rows] lines; past the end a line is empty. *)
Fixpoint lt_rows (size rows : nat) (lines : list (list Z)) : option (list (list F)) :=
  match rows with
  | O => Some []
  | S k => match lt_line size (hd [] lines) with
           | Some l => match lt_rows size k (tl lines) with Some r => Some (l :: r) | None => None end
           | None => None
           end
  end.
(** lines 72-100 [parse_lookup_table]: the columns. *)
Definition lt_table (size rows : nat) (lines : list (list Z)) : option (list (list F)) :=
  match lt_rows size rows lines with
  | Some r => Some (map (fun j => map (fun l => nth j l f0) r) (seq 0 size))
  | None => None
  end.
End Loader.
