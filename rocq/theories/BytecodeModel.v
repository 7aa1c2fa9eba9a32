(** Model of zkevm/bytecode.hpp:43-547 ([zkevm_bytecode_table] and
    [zkevm_bytecode]) and of the two lookup tables it uses
    (lookup_library.hpp:72-87 and 89-139).

    Simplifications: the values of the input variables are read before the
    first cell is written (the same for inputs outside the component's cells);
    an input is a list of pairs of a byte vector and its hash, so that the
    assertion of line 296 (as many hashes as byte vectors) always holds.
    [std::size_t] is unbounded.  [bytecode_table_tester] (lines 549-770) is a
    test-only component and is not modelled. *)
From Coq Require Import ZArith String List Bool.
From Verif Require Import Base Field Plonk Sha256Model.
Import ListNotations.
Open Scope Z_scope.

(** lookup_library.hpp:97-136 [zkevm_opcode_table::generate]:
    the three columns, rows 0..149. *)
Definition op_column : list Z :=
  zseq 0x0 0xc ++ zseq 0x10 0x1e ++ [0x20] ++ zseq 0x30 0x40 ++ zseq 0x40 0x4b ++ zseq 0x50 0x60 ++ zseq 0x60 0x70 ++
  zseq 0x70 0x80 ++ zseq 0x80 0x90 ++ zseq 0x90 0xa0 ++ zseq 0xa0 0xa5 ++ [0xf0; 0xf1; 0xf2; 0xf3; 0xf4; 0xf5; 0xfa; 0xfd; 0xfe; 0xff].
Definition zeros (n : Z) : list Z := map (fun _ => 0) (zseq 0 n).
Definition push_column : list Z :=
  zeros 12 ++ zeros 14 ++ zeros 1 ++ zeros 16 ++ zeros 11 ++ zeros 16 ++ zseq 1 17 ++ zseq 17 33 ++ zeros 16 ++ zeros 16 ++ zeros 5 ++ zeros 10.
Definition op_table : list (list Z) :=
  map (fun i => [znth 0 op_column i; znth 0 push_column i; 1]) (zseq 0 149) ++ [[0; 0; 0]].

Section Bytecode.
Variable P : params.
Notation F := (F P).
Notation table := (table P).
Notation expr := (expr P).
Notation cmd := (cmd P).
Notation lenv := (lenv P).

(** lookup_library.hpp:79-84 [byte_range_table_type::generate] and the table above. *)
Definition bc_lenv : lenv := fun t v =>
  (t = "byte_range_table/full"%string /\ exists i, 0 <= i < 256 /\ v = [ofZ i]) \/
  (t = "zkevm_opcodes/full"%string /\ exists l, In l op_table /\ v = map ofZ l).

(** Columns, bytecode.hpp:51-56 and 245-248. *)
Definition TAG := 0. Definition INDEX := 1. Definition VALUE := 2. Definition IS_OPCODE := 3.
Definition HASH_HI := 4. Definition HASH_LO := 5.
Definition PUSH_SIZE := 6. Definition VALUE_RLC := 7. Definition LENGTH_LEFT := 8. Definition RLC_CHALLENGE := 9.

(** Lines 187-193 and 398-402: [byte > 0x5f && byte < 0x80] and
    [push_size = byte - 0x5f]. *)
Definition next_push (push byte : F) : F :=
  if feqb push f0 then
    (if (0x5f <? fval byte) && (fval byte <? 0x80) then fsub byte (ofZ 0x5f) else push)
  else fsub push f1.

(** Lines 167-195, one byte vector, [j >= 1]: the six columns of the table. *)
Fixpoint tb_bytes (hi lo : F) (j : Z) (push : F) (bs : list F) : list (list F) :=
  match bs with
  | [] => []
  | b :: r =>
      [f1; ofZ (j - 1); b; (if feqb push f0 then f1 else f0); hi; lo] :: tb_bytes hi lo (j + 1) (next_push push b) r
  end.
(** [j = 0] (lines 176-181): the header. *)
Definition tb_contract (hi lo : F) (bs : list F) : list (list F) :=
  match bs with
  | [] => []
  | b :: r => [f0; f0; b; f0; hi; lo] :: tb_bytes hi lo 1 f0 r
  end.

(** Lines 383-407: the four columns of [zkevm_bytecode]; [len] and [rlc] are
    the LENGTH_LEFT and VALUE_RLC cells of the row above. *)
Fixpoint ex_bytes (ch push rlc len : F) (bs : list F) : list (list F) :=
  match bs with
  | [] => []
  | b :: r =>
      let push' := next_push push b in let rlc' := fadd (fmul rlc ch) b in let len' := fsub len f1 in
      [push'; rlc'; len'; ch] :: ex_bytes ch push' rlc' len' r
  end.
Definition ex_contract (ch : F) (bs : list F) : list (list F) :=
  match bs with
  | [] => []
  | b :: r => [f0; f0; b; ch] :: ex_bytes ch f0 f0 b r
  end.

(** Lines 166-172 and 383-388: all contracts, one below the other ([cur]). *)
Definition bc_rows (ch : F) (cs : list (list F * (F * F))) : list (list F) :=
  map (fun p => fst p ++ snd p)
    (combine (List.concat (map (fun x => tb_contract (fst (snd x)) (snd (snd x)) (fst x)) cs))
             (List.concat (map (fun x => ex_contract ch (fst x)) cs))).

(** An input: byte vectors with their hashes (lines 285-300). *)
Definition bc_input := list (list var * (var * var)).
Definition bc_values (T : table) (inp : bc_input) : list (list F * (F * F)) :=
  map (fun x => (map (vval T) (fst x), (vval T (fst (snd x)), vval T (snd (snd x))))) inp.
(** Lines 297-299: [full_size]. *)
Definition full_size (inp : bc_input) : Z := fold_right Z.add 0 (map (fun x => zlen (fst x)) inp).

(** The cells of a list of rows. *)
Definition row_cells (rows : list (list F)) (o k : Z) : option F :=
  if k <? 10 then Some (znth f0 (znth [] rows o) k) else None.
Definition put_rows (c : comp) (row : Z) (rows : list (list F)) (T : table) : table :=
  put c row (zlen rows) (row_cells rows) T.

(** Lines 357-411 [generate_assignments]. *)
Definition bc_assign (c : comp) (inp : bc_input) (ch : var) (row : Z) (T : table) : table :=
  put_rows c row (bc_rows (vval T ch) (bc_values T inp)) T.

Section Gates.
Variable c : comp.
Local Open Scope E_scope.
Definition v_ (k rot : Z) : expr := # (wv (W c k) rot).
Definition one : expr := $1.
(** Lines 473-491 [generate_gates]. *)
Definition bc_gate : list expr :=
  let tag := v_ TAG 0 in let tag_prev := v_ TAG (-1) in let tag_next := v_ TAG 1 in
  let index := v_ INDEX 0 in let index_next := v_ INDEX 1 in
  let value := v_ VALUE 0 in
  let length_left := v_ LENGTH_LEFT 0 in let length_left_next := v_ LENGTH_LEFT 1 in
  let is_opcode := v_ IS_OPCODE 0 in let is_opcode_next := v_ IS_OPCODE 1 in
  let push_size := v_ PUSH_SIZE 0 in let push_size_next := v_ PUSH_SIZE 1 in
  let hash_hi := v_ HASH_HI 0 in let hash_hi_next := v_ HASH_HI 1 in
  let hash_lo := v_ HASH_LO 0 in let hash_lo_next := v_ HASH_LO 1 in
  let value_rlc := v_ VALUE_RLC 0 in let value_rlc_prev := v_ VALUE_RLC (-1) in
  let rlc_challenge := v_ RLC_CHALLENGE 0 in let rlc_challenge_prev := v_ RLC_CHALLENGE (-1) in
  [ tag * (tag - one);
    (tag - one) * index;
    (tag - one) * index_next;
    tag * tag_next * (index_next - index - one);
    (tag - one) * (length_left - value);
    tag_next * (length_left - length_left_next - one);
    tag * (tag_next - one) * length_left;
    is_opcode * (is_opcode - one);
    (tag - one) * is_opcode;
    (tag - one) * tag_next * (is_opcode_next - one);
    is_opcode_next * push_size;
    tag_next * (is_opcode_next - one) * (push_size - push_size_next - one);
    tag_next * (hash_hi - hash_hi_next);
    tag_next * (hash_lo - hash_lo_next);
    (tag - one) * value_rlc;
    tag * (value_rlc - value_rlc_prev * rlc_challenge - value);
    tag * (rlc_challenge - rlc_challenge_prev);
    (tag - one) * tag_prev * tag_next * (rlc_challenge - rlc_challenge_prev) ].
(** Lines 493-507. *)
Definition bc_lookups : list (string * list expr) :=
  let tag := v_ TAG 0 in let value := v_ VALUE 0 in
  let is_opcode := v_ IS_OPCODE 0 in let push_size := v_ PUSH_SIZE 0 in
  [ ("byte_range_table/full"%string, [tag * value]);
    ("zkevm_opcodes/full"%string, [value * is_opcode; push_size * is_opcode; is_opcode]) ].
End Gates.

(** Lines 529-547 [generate_circuit], with [max_bytecode_size = n]: the
    selector is enabled on all rows (line 216), and neither the inputs nor any
    copy constraint (line 526) take part. *)
Definition bc_circuit (c : comp) (n row : Z) : list cmd :=
  [Gate (bc_gate c) (zseq row (row + n)); LookupGate (bc_lookups c) (zseq row (row + n))].

(** Lines 218-229: a row of the dynamic table "zkevm_bytecode", on the rows of
    the same selector. *)
Definition bc_entry (c : comp) (T : table) (r : Z) : list F :=
  map (fun k => T CWit (W c k) r) [TAG; INDEX; VALUE; IS_OPCODE; HASH_HI; HASH_LO].
End Bytecode.
Arguments bc_circuit {P}. Arguments bc_assign {P}. Arguments bc_lenv {P}. Arguments bc_entry {P}.
Arguments bc_values {P}. Arguments bc_rows {P}. Arguments put_rows {P}. Arguments row_cells {P}.
Arguments tb_bytes {P}. Arguments tb_contract {P}. Arguments ex_bytes {P}. Arguments ex_contract {P}. Arguments next_push {P}.
Arguments bc_gate {P}. Arguments bc_lookups {P}.
