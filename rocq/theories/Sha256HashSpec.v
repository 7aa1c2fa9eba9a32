(** SHA-256 of a byte string (FIPS 180-4, sections 5.1.1, 5.2.1, 6.2), on top
    of the compression function of Sha256Spec.v.  Nothing here refers to the
    code. *)
From Coq Require Import ZArith List.
From Verif Require Import Base Sha256Spec.
Import ListNotations.
Open Scope Z_scope.

(** Big-endian bytes of a number, and back. *)
Definition be_bytes (n x : Z) : list Z := map (fun i => x / 256 ^ (n - 1 - i) mod 256) (zseq 0 n).
Definition be_val (l : list Z) : Z := fold_left (fun a b => a * 256 + b) l 0.

(** Padding: a one bit, zeros, the length in bits as 64 bits. *)
Definition sha_padded (m : list Z) : list Z :=
  m ++ [128] ++ map (fun _ => 0) (zseq 0 ((55 - zlen m) mod 64)) ++ be_bytes 8 (8 * zlen m).

(** Word [i] of a byte string. *)
Definition be_word (l : list Z) (i : Z) : Z := be_val (map (fun j => znth 0 l (4 * i + j)) (zseq 0 4)).
Definition sha_block (l : list Z) (j : Z) : list Z := map (fun i => be_word l (16 * j + i)) (zseq 0 16).

Definition sha256_words (m : list Z) : list Z :=
  let l := sha_padded m in
  fold_left (fun h j => sha_compress h (sha_block l j)) (zseq 0 (zlen l / 64)) sha_iv.
Definition sha256 (m : list Z) : list Z := flat_map (be_bytes 4) (sha256_words m).

(** Published digests of "" and "abc". *)
Example sha256_empty : be_val (sha256 []) = 0xe3b0c44298fc1c149afbf4c8996fb92427ae41e4649b934ca495991b7852b855.
Proof. vm_compute. reflexivity. Qed.
Example sha256_abc : be_val (sha256 [97; 98; 99]) = 0xba7816bf8f01cfea414140de5dae2223b00361a396177a9cb410ff61f20015ad.
Proof. vm_compute. reflexivity. Qed.
