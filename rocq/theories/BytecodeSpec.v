(** What the byte code table of the zkEVM has to contain, said without
    reference to the code of /repo: the Ethereum rules for which bytes of a
    contract are instructions. *)
From Coq Require Import ZArith List Bool.
From Verif Require Import Base Field.
Import ListNotations.
Open Scope Z_scope.

(** Number of immediate bytes after an instruction: PUSH1..PUSH32 are
    0x60..0x7f. *)
Definition push_len (b : Z) : Z := if (0x60 <=? b) && (b <=? 0x7f) then b - 0x5f else 0.

(** Which bytes are instructions: the first one is, and after an instruction
    the immediate bytes are not. [skip] is the number of immediate bytes still
    to come. *)
Fixpoint marks_from (skip : Z) (bytes : list Z) : list bool :=
  match bytes with
  | [] => []
  | b :: r => if skip =? 0 then true :: marks_from (push_len b) r else false :: marks_from (skip - 1) r
  end.
Definition code_marks (bytes : list Z) : list bool := marks_from 0 bytes.

(** The instructions of the Cancun fork. *)
Definition defined_op (b : Z) : Prop :=
  0x00 <= b <= 0x0b \/ 0x10 <= b <= 0x1d \/ b = 0x20 \/ 0x30 <= b <= 0x4a \/ 0x50 <= b <= 0xa4 \/
  0xf0 <= b <= 0xf5 \/ b = 0xfa \/ 0xfd <= b <= 0xff.

Definition is_byte (b : Z) : Prop := 0 <= b < 256.

Section WithField.
Variable P : params.
Notation F := (F P).

(** The sum of [b_i * r^(m-1-i)]. *)
Fixpoint rlc_sum (r : F) (bs : list F) : F :=
  match bs with
  | [] => f0
  | b :: l => fadd (fmul b (fpow r (length l))) (rlc_sum r l)
  end.

Definition fbit (b : bool) : F := if b then f1 else f0.

(** The rows of the table for one contract: tag, index, value, is-opcode and
    the two halves of the hash. *)
Definition header_entry (hi lo : F) (len : Z) : list F := [f0; f0; ofZ len; f0; hi; lo].
Definition byte_entry (hi lo : F) (i b : Z) (op : bool) : list F := [f1; ofZ i; ofZ b; fbit op; hi; lo].
Definition contract_entries (hi lo : F) (bytes : list Z) : list (list F) :=
  header_entry hi lo (zlen bytes) ::
  map (fun i => byte_entry hi lo i (znth 0 bytes i) (znth false (code_marks bytes) i)) (zseq 0 (zlen bytes)).
End WithField.
Arguments rlc_sum {P}. Arguments fbit {P}. Arguments header_entry {P}. Arguments byte_entry {P}. Arguments contract_entries {P}.

(** Every instruction of the contract is a defined one. *)
Definition code_defined (bytes : list Z) : Prop :=
  forall i, 0 <= i < zlen bytes -> znth false (code_marks bytes) i = true -> defined_op (znth 0 bytes i).
