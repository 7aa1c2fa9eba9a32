(** The SHA-512 compression function of FIPS 180-4 (sections 4.1.3, 4.2.3 and
    6.4.2), on unbounded integers standing for 64-bit words.  Nothing here
    refers to the code. *)
From Coq Require Import ZArith List.
From Verif Require Import Base.
Import ListNotations.
Open Scope Z_scope.

Definition w64 : Z := 18446744073709551616.

(** ROTR and SHR (section 3.2), on words below 2^64. *)
Definition rotr64 (n x : Z) : Z := Z.lor (Z.shiftr x n) (Z.shiftl x (64 - n) mod w64).
Definition shr64 (n x : Z) : Z := Z.shiftr x n.

(** The six logical functions (section 4.1.3). *)
Definition s5_ch (x y z : Z) : Z := Z.lxor (Z.land x y) (Z.land (w64 - 1 - x) z).
Definition s5_maj (x y z : Z) : Z := Z.lxor (Z.lxor (Z.land x y) (Z.land x z)) (Z.land y z).
Definition s5_S0 (x : Z) : Z := Z.lxor (Z.lxor (rotr64 28 x) (rotr64 34 x)) (rotr64 39 x).
Definition s5_S1 (x : Z) : Z := Z.lxor (Z.lxor (rotr64 14 x) (rotr64 18 x)) (rotr64 41 x).
Definition s5_s0 (x : Z) : Z := Z.lxor (Z.lxor (rotr64 1 x) (rotr64 8 x)) (shr64 7 x).
Definition s5_s1 (x : Z) : Z := Z.lxor (Z.lxor (rotr64 19 x) (rotr64 61 x)) (shr64 6 x).

(** The 80 constants (section 4.2.3). *)
Definition s5_K : list Z :=
  [0x428a2f98d728ae22; 0x7137449123ef65cd; 0xb5c0fbcfec4d3b2f; 0xe9b5dba58189dbbc; 0x3956c25bf348b538;
   0x59f111f1b605d019; 0x923f82a4af194f9b; 0xab1c5ed5da6d8118; 0xd807aa98a3030242; 0x12835b0145706fbe;
   0x243185be4ee4b28c; 0x550c7dc3d5ffb4e2; 0x72be5d74f27b896f; 0x80deb1fe3b1696b1; 0x9bdc06a725c71235;
   0xc19bf174cf692694; 0xe49b69c19ef14ad2; 0xefbe4786384f25e3; 0x0fc19dc68b8cd5b5; 0x240ca1cc77ac9c65;
   0x2de92c6f592b0275; 0x4a7484aa6ea6e483; 0x5cb0a9dcbd41fbd4; 0x76f988da831153b5; 0x983e5152ee66dfab;
   0xa831c66d2db43210; 0xb00327c898fb213f; 0xbf597fc7beef0ee4; 0xc6e00bf33da88fc2; 0xd5a79147930aa725;
   0x06ca6351e003826f; 0x142929670a0e6e70; 0x27b70a8546d22ffc; 0x2e1b21385c26c926; 0x4d2c6dfc5ac42aed;
   0x53380d139d95b3df; 0x650a73548baf63de; 0x766a0abb3c77b2a8; 0x81c2c92e47edaee6; 0x92722c851482353b;
   0xa2bfe8a14cf10364; 0xa81a664bbc423001; 0xc24b8b70d0f89791; 0xc76c51a30654be30; 0xd192e819d6ef5218;
   0xd69906245565a910; 0xf40e35855771202a; 0x106aa07032bbd1b8; 0x19a4c116b8d2d0c8; 0x1e376c085141ab53;
   0x2748774cdf8eeb99; 0x34b0bcb5e19b48a8; 0x391c0cb3c5c95a63; 0x4ed8aa4ae3418acb; 0x5b9cca4f7763e373;
   0x682e6ff3d6b2b8a3; 0x748f82ee5defb2fc; 0x78a5636f43172f60; 0x84c87814a1f0ab72; 0x8cc702081a6439ec;
   0x90befffa23631e28; 0xa4506cebde82bde9; 0xbef9a3f7b2c67915; 0xc67178f2e372532b; 0xca273eceea26619c;
   0xd186b8c721c0c207; 0xeada7dd6cde0eb1e; 0xf57d4f7fee6ed178; 0x06f067aa72176fba; 0x0a637dc5a2c898a6;
   0x113f9804bef90dae; 0x1b710b35131c471b; 0x28db77f523047d84; 0x32caab7b40c72493; 0x3c9ebe0a15c9bebc;
   0x431d67c49c100d4c; 0x4cc5d4becb3e42b6; 0x597f299cfc657e2a; 0x5fcb6fab3ad6faec; 0x6c44198c4a475817].

(** Message schedule (section 6.4.2, step 1). *)
Definition s5_next (w : list Z) (t : Z) : Z :=
  (s5_s1 (znth 0 w (t - 2)) + znth 0 w (t - 7) + s5_s0 (znth 0 w (t - 15)) + znth 0 w (t - 16)) mod w64.
Definition s5_schedule (m : list Z) (n : Z) : list Z :=
  fold_left (fun w t => w ++ [s5_next w t]) (zseq 16 n) m.

(** The eight working variables and one round (step 3). *)
Record s5st := mkS5 { d_a : Z; d_b : Z; d_c : Z; d_d : Z; d_e : Z; d_f : Z; d_g : Z; d_h : Z }.
Definition s5_t1 (k w : Z) (s : s5st) : Z := d_h s + s5_S1 (d_e s) + s5_ch (d_e s) (d_f s) (d_g s) + k + w.
Definition s5_t2 (s : s5st) : Z := s5_S0 (d_a s) + s5_maj (d_a s) (d_b s) (d_c s).
Definition s5_round (k w : Z) (s : s5st) : s5st :=
  mkS5 ((s5_t1 k w s + s5_t2 s) mod w64) (d_a s) (d_b s) (d_c s) ((d_d s + s5_t1 k w s) mod w64) (d_e s) (d_f s) (d_g s).
Definition s5_rounds (w : list Z) (n : Z) (s : s5st) : s5st :=
  fold_left (fun s t => s5_round (znth 0 s5_K t) (znth 0 w t) s) (zseq 0 n) s.

Definition s5_list (s : s5st) : list Z := [d_a s; d_b s; d_c s; d_d s; d_e s; d_f s; d_g s; d_h s].
Definition list_s5 (l : list Z) : s5st :=
  mkS5 (znth 0 l 0) (znth 0 l 1) (znth 0 l 2) (znth 0 l 3) (znth 0 l 4) (znth 0 l 5) (znth 0 l 6) (znth 0 l 7).

(** Step 4: the new hash value, word by word. *)
Definition s5_compress (h m : list Z) : list Z :=
  let s := s5_list (s5_rounds (s5_schedule m 80) 80 (list_s5 h)) in
  map (fun i => (znth 0 h i + znth 0 s i) mod w64) (zseq 0 8).

(** The worked example "abc" of the standard's companion document: one block. *)
Definition s5_iv : list Z :=
  [0x6a09e667f3bcc908; 0xbb67ae8584caa73b; 0x3c6ef372fe94f82b; 0xa54ff53a5f1d36f1; 0x510e527fade682d1; 0x9b05688c2b3e6c1f; 0x1f83d9abfb41bd6b; 0x5be0cd19137e2179].
Definition s5_abc : list Z := [0x6162638000000000; 0; 0; 0; 0; 0; 0; 0; 0; 0; 0; 0; 0; 0; 0; 0x18].
Definition s5_abc_hash : list Z :=
  [0xddaf35a193617aba; 0xcc417349ae204131; 0x12e6fa4e89a97ea2; 0x0a9eeee64b55d39a;
   0x2192992a274fc1a8; 0x36ba3c23a3feebbd; 0x454d4423643ce80e; 0x2a9ac94fa54ca49f].
Example s5_compress_abc : s5_compress s5_iv s5_abc = s5_abc_hash.
Proof. vm_compute. reflexivity. Qed.
