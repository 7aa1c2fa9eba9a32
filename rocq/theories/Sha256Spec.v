(** The SHA-256 compression function of FIPS 180-4 (sections 4.1.2, 4.2.2 and
    6.2.2), on unbounded integers standing for 32-bit words.  Nothing here
    refers to the code. *)
From Coq Require Import ZArith List.
From Verif Require Import Base.
Import ListNotations.
Open Scope Z_scope.

Definition w32 : Z := 4294967296.

(** ROTR and SHR (section 3.2), on words below 2^32. *)
Definition rotr (n x : Z) : Z := Z.lor (Z.shiftr x n) (Z.shiftl x (32 - n) mod w32).
Definition shr (n x : Z) : Z := Z.shiftr x n.

(** The six logical functions (section 4.1.2). *)
Definition sha_ch (x y z : Z) : Z := Z.lxor (Z.land x y) (Z.land (w32 - 1 - x) z).
Definition sha_maj (x y z : Z) : Z := Z.lxor (Z.lxor (Z.land x y) (Z.land x z)) (Z.land y z).
Definition sha_S0 (x : Z) : Z := Z.lxor (Z.lxor (rotr 2 x) (rotr 13 x)) (rotr 22 x).
Definition sha_S1 (x : Z) : Z := Z.lxor (Z.lxor (rotr 6 x) (rotr 11 x)) (rotr 25 x).
Definition sha_s0 (x : Z) : Z := Z.lxor (Z.lxor (rotr 7 x) (rotr 18 x)) (shr 3 x).
Definition sha_s1 (x : Z) : Z := Z.lxor (Z.lxor (rotr 17 x) (rotr 19 x)) (shr 10 x).

(** The 64 constants (section 4.2.2). *)
Definition sha_K : list Z :=
  [0x428a2f98; 0x71374491; 0xb5c0fbcf; 0xe9b5dba5; 0x3956c25b; 0x59f111f1; 0x923f82a4; 0xab1c5ed5;
   0xd807aa98; 0x12835b01; 0x243185be; 0x550c7dc3; 0x72be5d74; 0x80deb1fe; 0x9bdc06a7; 0xc19bf174;
   0xe49b69c1; 0xefbe4786; 0x0fc19dc6; 0x240ca1cc; 0x2de92c6f; 0x4a7484aa; 0x5cb0a9dc; 0x76f988da;
   0x983e5152; 0xa831c66d; 0xb00327c8; 0xbf597fc7; 0xc6e00bf3; 0xd5a79147; 0x06ca6351; 0x14292967;
   0x27b70a85; 0x2e1b2138; 0x4d2c6dfc; 0x53380d13; 0x650a7354; 0x766a0abb; 0x81c2c92e; 0x92722c85;
   0xa2bfe8a1; 0xa81a664b; 0xc24b8b70; 0xc76c51a3; 0xd192e819; 0xd6990624; 0xf40e3585; 0x106aa070;
   0x19a4c116; 0x1e376c08; 0x2748774c; 0x34b0bcb5; 0x391c0cb3; 0x4ed8aa4a; 0x5b9cca4f; 0x682e6ff3;
   0x748f82ee; 0x78a5636f; 0x84c87814; 0x8cc70208; 0x90befffa; 0xa4506ceb; 0xbef9a3f7; 0xc67178f2].

(** Message schedule (section 6.2.2, step 1): the 16 words of the block, then 48 more. *)
Definition sha_next (w : list Z) (t : Z) : Z :=
  (sha_s1 (znth 0 w (t - 2)) + znth 0 w (t - 7) + sha_s0 (znth 0 w (t - 15)) + znth 0 w (t - 16)) mod w32.
Definition sha_schedule (m : list Z) (n : Z) : list Z :=
  fold_left (fun w t => w ++ [sha_next w t]) (zseq 16 n) m.

(** The eight working variables and one round (step 3). *)
Record sst := mkS { s_a : Z; s_b : Z; s_c : Z; s_d : Z; s_e : Z; s_f : Z; s_g : Z; s_h : Z }.
Definition sha_t1 (k w : Z) (s : sst) : Z :=
  s_h s + sha_S1 (s_e s) + sha_ch (s_e s) (s_f s) (s_g s) + k + w.
Definition sha_t2 (s : sst) : Z := sha_S0 (s_a s) + sha_maj (s_a s) (s_b s) (s_c s).
Definition sha_round (k w : Z) (s : sst) : sst :=
  mkS ((sha_t1 k w s + sha_t2 s) mod w32) (s_a s) (s_b s) (s_c s)
      ((s_d s + sha_t1 k w s) mod w32) (s_e s) (s_f s) (s_g s).
Definition sha_rounds (w : list Z) (n : Z) (s : sst) : sst :=
  fold_left (fun s t => sha_round (znth 0 sha_K t) (znth 0 w t) s) (zseq 0 n) s.

Definition sst_list (s : sst) : list Z := [s_a s; s_b s; s_c s; s_d s; s_e s; s_f s; s_g s; s_h s].
Definition list_sst (l : list Z) : sst :=
  mkS (znth 0 l 0) (znth 0 l 1) (znth 0 l 2) (znth 0 l 3) (znth 0 l 4) (znth 0 l 5) (znth 0 l 6) (znth 0 l 7).

(** Step 4: the new hash value, word by word. *)
Definition sha_compress (h m : list Z) : list Z :=
  let s := sst_list (sha_rounds (sha_schedule m 64) 64 (list_sst h)) in
  map (fun i => (znth 0 h i + znth 0 s i) mod w32) (zseq 0 8).

(** The worked example "abc" of the standard's companion document: one block. *)
Definition sha_iv : list Z :=
  [0x6a09e667; 0xbb67ae85; 0x3c6ef372; 0xa54ff53a; 0x510e527f; 0x9b05688c; 0x1f83d9ab; 0x5be0cd19].
Definition sha_abc : list Z := [0x61626380; 0; 0; 0; 0; 0; 0; 0; 0; 0; 0; 0; 0; 0; 0; 0x18].
Example sha_compress_abc : sha_compress sha_iv sha_abc =
  [0xba7816bf; 0x8f01cfea; 0x414140de; 0x5dae2223; 0xb00361a3; 0x96177a9c; 0xb410ff61; 0xf20015ad].
Proof. vm_compute. reflexivity. Qed.
