(** Proofs about the SHA-512 component: the input words over the integers,
    from the chunks of the limbs. *)
From Coq Require Import ZArith List Lia Bool.
From Verif Require Import Base Sha512HashModel.
Import ListNotations.
Open Scope Z_scope.

(** ** The words over the integers *)

Lemma mask_mod : forall x n, 0 <= n -> Z.land x (Z.shiftl 1 n - 1) = x mod 2 ^ n.
Proof. intros x n Hn. rewrite Z.shiftl_1_l, <- Z.land_ones by lia. rewrite Z.ones_equiv. reflexivity. Qed.
Lemma cut : forall x s n, 0 <= s -> 0 <= n -> Z.shiftr x s = u_chunk x s n + 2 ^ n * Z.shiftr x (s + n) /\ 0 <= u_chunk x s n < 2 ^ n.
Proof.
  intros x s n Hs Hn. unfold u_chunk. rewrite mask_mod by lia. rewrite <- Z.shiftr_shiftr, (Z.shiftr_div_pow2 (Z.shiftr x s) n) by lia.
  pose proof (Z.pow_pos_nonneg 2 n ltac:(lia) Hn). split; [rewrite Z.add_comm; apply Z.div_mod; lia|apply Z.mod_pos_bound; lia].
Qed.
Lemma top : forall x n, 0 <= n -> 0 <= x < 2 ^ n -> Z.shiftr x n = 0.
Proof. intros x n Hn H. rewrite Z.shiftr_div_pow2 by lia. apply Z.div_small. exact H. Qed.
Lemma mask_is : forall x w q, x = w + 2 ^ 64 * q -> 0 <= w < 2 ^ 64 -> u_mask x = w.
Proof. intros x w q E H. unfold u_mask. rewrite mask_mod by lia. rewrite E, Z.mul_comm, Z_mod_plus_full. apply Z.mod_small. exact H. Qed.

(** The limbs of a point or a message: 66 bits, the last one 57 (58 for the
    message). *)
Definition limb_bits (a : Z) : Z := if a =? 19 then 58 else if a mod 4 =? 3 then 57 else 66.
Section Words.
Variable R : Z -> Z.
Hypothesis HR : forall a, 0 <= a < 20 -> 0 <= R a < 2 ^ limb_bits a.

Lemma limb_0 : R 0 = u_chunk (R 0) 0 22 + 4194304 * u_chunk (R 0) 22 22 + 17592186044416 * u_chunk (R 0) 44 20 + 18446744073709551616 * u_chunk (R 0) 64 2 /\ Z.shiftr (R 0) 22 = u_chunk (R 0) 22 22 + 4194304 * u_chunk (R 0) 44 20 + 4398046511104 * u_chunk (R 0) 64 2 /\ Z.shiftr (R 0) 44 = u_chunk (R 0) 44 20 + 1048576 * u_chunk (R 0) 64 2 /\ Z.shiftr (R 0) 64 = u_chunk (R 0) 64 2 /\ 0 <= u_chunk (R 0) 0 22 < 4194304 /\ 0 <= u_chunk (R 0) 22 22 < 4194304 /\ 0 <= u_chunk (R 0) 44 20 < 1048576 /\ 0 <= u_chunk (R 0) 64 2 < 4.
Proof.
  pose proof (top (R 0) 66 ltac:(lia) (HR 0 ltac:(lia))) as E. pose proof (Z.shiftr_0_r (R 0)).
  pose proof (cut (R 0) 0 22 ltac:(lia) ltac:(lia)) as K0. change (2 ^ 22) with 4194304 in K0. change (0 + 22) with 22 in K0.
  pose proof (cut (R 0) 22 22 ltac:(lia) ltac:(lia)) as K22. change (2 ^ 22) with 4194304 in K22. change (22 + 22) with 44 in K22.
  pose proof (cut (R 0) 44 20 ltac:(lia) ltac:(lia)) as K44. change (2 ^ 20) with 1048576 in K44. change (44 + 20) with 64 in K44.
  pose proof (cut (R 0) 64 2 ltac:(lia) ltac:(lia)) as K64. change (2 ^ 2) with 4 in K64. change (64 + 2) with 66 in K64.
  lia.
Qed.
Lemma limb_1 : R 1 = u_chunk (R 1) 0 22 + 4194304 * u_chunk (R 1) 22 22 + 17592186044416 * u_chunk (R 1) 44 18 + 4611686018427387904 * u_chunk (R 1) 62 4 /\ Z.shiftr (R 1) 22 = u_chunk (R 1) 22 22 + 4194304 * u_chunk (R 1) 44 18 + 1099511627776 * u_chunk (R 1) 62 4 /\ Z.shiftr (R 1) 44 = u_chunk (R 1) 44 18 + 262144 * u_chunk (R 1) 62 4 /\ Z.shiftr (R 1) 62 = u_chunk (R 1) 62 4 /\ 0 <= u_chunk (R 1) 0 22 < 4194304 /\ 0 <= u_chunk (R 1) 22 22 < 4194304 /\ 0 <= u_chunk (R 1) 44 18 < 262144 /\ 0 <= u_chunk (R 1) 62 4 < 16.
Proof.
  pose proof (top (R 1) 66 ltac:(lia) (HR 1 ltac:(lia))) as E. pose proof (Z.shiftr_0_r (R 1)).
  pose proof (cut (R 1) 0 22 ltac:(lia) ltac:(lia)) as K0. change (2 ^ 22) with 4194304 in K0. change (0 + 22) with 22 in K0.
  pose proof (cut (R 1) 22 22 ltac:(lia) ltac:(lia)) as K22. change (2 ^ 22) with 4194304 in K22. change (22 + 22) with 44 in K22.
  pose proof (cut (R 1) 44 18 ltac:(lia) ltac:(lia)) as K44. change (2 ^ 18) with 262144 in K44. change (44 + 18) with 62 in K44.
  pose proof (cut (R 1) 62 4 ltac:(lia) ltac:(lia)) as K62. change (2 ^ 4) with 16 in K62. change (62 + 4) with 66 in K62.
  lia.
Qed.
Lemma limb_2 : R 2 = u_chunk (R 2) 0 22 + 4194304 * u_chunk (R 2) 22 22 + 17592186044416 * u_chunk (R 2) 44 16 + 1152921504606846976 * u_chunk (R 2) 60 6 /\ Z.shiftr (R 2) 22 = u_chunk (R 2) 22 22 + 4194304 * u_chunk (R 2) 44 16 + 274877906944 * u_chunk (R 2) 60 6 /\ Z.shiftr (R 2) 44 = u_chunk (R 2) 44 16 + 65536 * u_chunk (R 2) 60 6 /\ Z.shiftr (R 2) 60 = u_chunk (R 2) 60 6 /\ 0 <= u_chunk (R 2) 0 22 < 4194304 /\ 0 <= u_chunk (R 2) 22 22 < 4194304 /\ 0 <= u_chunk (R 2) 44 16 < 65536 /\ 0 <= u_chunk (R 2) 60 6 < 64.
Proof.
  pose proof (top (R 2) 66 ltac:(lia) (HR 2 ltac:(lia))) as E. pose proof (Z.shiftr_0_r (R 2)).
  pose proof (cut (R 2) 0 22 ltac:(lia) ltac:(lia)) as K0. change (2 ^ 22) with 4194304 in K0. change (0 + 22) with 22 in K0.
  pose proof (cut (R 2) 22 22 ltac:(lia) ltac:(lia)) as K22. change (2 ^ 22) with 4194304 in K22. change (22 + 22) with 44 in K22.
  pose proof (cut (R 2) 44 16 ltac:(lia) ltac:(lia)) as K44. change (2 ^ 16) with 65536 in K44. change (44 + 16) with 60 in K44.
  pose proof (cut (R 2) 60 6 ltac:(lia) ltac:(lia)) as K60. change (2 ^ 6) with 64 in K60. change (60 + 6) with 66 in K60.
  lia.
Qed.
Lemma limb_3 : R 3 = u_chunk (R 3) 0 22 + 4194304 * u_chunk (R 3) 22 22 + 17592186044416 * u_chunk (R 3) 44 13 /\ Z.shiftr (R 3) 22 = u_chunk (R 3) 22 22 + 4194304 * u_chunk (R 3) 44 13 /\ Z.shiftr (R 3) 44 = u_chunk (R 3) 44 13 /\ 0 <= u_chunk (R 3) 0 22 < 4194304 /\ 0 <= u_chunk (R 3) 22 22 < 4194304 /\ 0 <= u_chunk (R 3) 44 13 < 8192.
Proof.
  pose proof (top (R 3) 57 ltac:(lia) (HR 3 ltac:(lia))) as E. pose proof (Z.shiftr_0_r (R 3)).
  pose proof (cut (R 3) 0 22 ltac:(lia) ltac:(lia)) as K0. change (2 ^ 22) with 4194304 in K0. change (0 + 22) with 22 in K0.
  pose proof (cut (R 3) 22 22 ltac:(lia) ltac:(lia)) as K22. change (2 ^ 22) with 4194304 in K22. change (22 + 22) with 44 in K22.
  pose proof (cut (R 3) 44 13 ltac:(lia) ltac:(lia)) as K44. change (2 ^ 13) with 8192 in K44. change (44 + 13) with 57 in K44.
  lia.
Qed.
Lemma limb_4 : R 4 = u_chunk (R 4) 0 1 + 2 * u_chunk (R 4) 1 21 + 4194304 * u_chunk (R 4) 22 22 + 17592186044416 * u_chunk (R 4) 44 21 + 36893488147419103232 * u_chunk (R 4) 65 1 /\ Z.shiftr (R 4) 1 = u_chunk (R 4) 1 21 + 2097152 * u_chunk (R 4) 22 22 + 8796093022208 * u_chunk (R 4) 44 21 + 18446744073709551616 * u_chunk (R 4) 65 1 /\ Z.shiftr (R 4) 22 = u_chunk (R 4) 22 22 + 4194304 * u_chunk (R 4) 44 21 + 8796093022208 * u_chunk (R 4) 65 1 /\ Z.shiftr (R 4) 44 = u_chunk (R 4) 44 21 + 2097152 * u_chunk (R 4) 65 1 /\ Z.shiftr (R 4) 65 = u_chunk (R 4) 65 1 /\ 0 <= u_chunk (R 4) 0 1 < 2 /\ 0 <= u_chunk (R 4) 1 21 < 2097152 /\ 0 <= u_chunk (R 4) 22 22 < 4194304 /\ 0 <= u_chunk (R 4) 44 21 < 2097152 /\ 0 <= u_chunk (R 4) 65 1 < 2.
Proof.
  pose proof (top (R 4) 66 ltac:(lia) (HR 4 ltac:(lia))) as E. pose proof (Z.shiftr_0_r (R 4)).
  pose proof (cut (R 4) 0 1 ltac:(lia) ltac:(lia)) as K0. change (2 ^ 1) with 2 in K0. change (0 + 1) with 1 in K0.
  pose proof (cut (R 4) 1 21 ltac:(lia) ltac:(lia)) as K1. change (2 ^ 21) with 2097152 in K1. change (1 + 21) with 22 in K1.
  pose proof (cut (R 4) 22 22 ltac:(lia) ltac:(lia)) as K22. change (2 ^ 22) with 4194304 in K22. change (22 + 22) with 44 in K22.
  pose proof (cut (R 4) 44 21 ltac:(lia) ltac:(lia)) as K44. change (2 ^ 21) with 2097152 in K44. change (44 + 21) with 65 in K44.
  pose proof (cut (R 4) 65 1 ltac:(lia) ltac:(lia)) as K65. change (2 ^ 1) with 2 in K65. change (65 + 1) with 66 in K65.
  lia.
Qed.
Lemma limb_5 : R 5 = u_chunk (R 5) 0 22 + 4194304 * u_chunk (R 5) 22 22 + 17592186044416 * u_chunk (R 5) 44 19 + 9223372036854775808 * u_chunk (R 5) 63 3 /\ Z.shiftr (R 5) 22 = u_chunk (R 5) 22 22 + 4194304 * u_chunk (R 5) 44 19 + 2199023255552 * u_chunk (R 5) 63 3 /\ Z.shiftr (R 5) 44 = u_chunk (R 5) 44 19 + 524288 * u_chunk (R 5) 63 3 /\ Z.shiftr (R 5) 63 = u_chunk (R 5) 63 3 /\ 0 <= u_chunk (R 5) 0 22 < 4194304 /\ 0 <= u_chunk (R 5) 22 22 < 4194304 /\ 0 <= u_chunk (R 5) 44 19 < 524288 /\ 0 <= u_chunk (R 5) 63 3 < 8.
Proof.
  pose proof (top (R 5) 66 ltac:(lia) (HR 5 ltac:(lia))) as E. pose proof (Z.shiftr_0_r (R 5)).
  pose proof (cut (R 5) 0 22 ltac:(lia) ltac:(lia)) as K0. change (2 ^ 22) with 4194304 in K0. change (0 + 22) with 22 in K0.
  pose proof (cut (R 5) 22 22 ltac:(lia) ltac:(lia)) as K22. change (2 ^ 22) with 4194304 in K22. change (22 + 22) with 44 in K22.
  pose proof (cut (R 5) 44 19 ltac:(lia) ltac:(lia)) as K44. change (2 ^ 19) with 524288 in K44. change (44 + 19) with 63 in K44.
  pose proof (cut (R 5) 63 3 ltac:(lia) ltac:(lia)) as K63. change (2 ^ 3) with 8 in K63. change (63 + 3) with 66 in K63.
  lia.
Qed.
Lemma limb_6 : R 6 = u_chunk (R 6) 0 22 + 4194304 * u_chunk (R 6) 22 22 + 17592186044416 * u_chunk (R 6) 44 17 + 2305843009213693952 * u_chunk (R 6) 61 5 /\ Z.shiftr (R 6) 22 = u_chunk (R 6) 22 22 + 4194304 * u_chunk (R 6) 44 17 + 549755813888 * u_chunk (R 6) 61 5 /\ Z.shiftr (R 6) 44 = u_chunk (R 6) 44 17 + 131072 * u_chunk (R 6) 61 5 /\ Z.shiftr (R 6) 61 = u_chunk (R 6) 61 5 /\ 0 <= u_chunk (R 6) 0 22 < 4194304 /\ 0 <= u_chunk (R 6) 22 22 < 4194304 /\ 0 <= u_chunk (R 6) 44 17 < 131072 /\ 0 <= u_chunk (R 6) 61 5 < 32.
Proof.
  pose proof (top (R 6) 66 ltac:(lia) (HR 6 ltac:(lia))) as E. pose proof (Z.shiftr_0_r (R 6)).
  pose proof (cut (R 6) 0 22 ltac:(lia) ltac:(lia)) as K0. change (2 ^ 22) with 4194304 in K0. change (0 + 22) with 22 in K0.
  pose proof (cut (R 6) 22 22 ltac:(lia) ltac:(lia)) as K22. change (2 ^ 22) with 4194304 in K22. change (22 + 22) with 44 in K22.
  pose proof (cut (R 6) 44 17 ltac:(lia) ltac:(lia)) as K44. change (2 ^ 17) with 131072 in K44. change (44 + 17) with 61 in K44.
  pose proof (cut (R 6) 61 5 ltac:(lia) ltac:(lia)) as K61. change (2 ^ 5) with 32 in K61. change (61 + 5) with 66 in K61.
  lia.
Qed.
Lemma limb_7 : R 7 = u_chunk (R 7) 0 22 + 4194304 * u_chunk (R 7) 22 22 + 17592186044416 * u_chunk (R 7) 44 13 /\ Z.shiftr (R 7) 22 = u_chunk (R 7) 22 22 + 4194304 * u_chunk (R 7) 44 13 /\ Z.shiftr (R 7) 44 = u_chunk (R 7) 44 13 /\ 0 <= u_chunk (R 7) 0 22 < 4194304 /\ 0 <= u_chunk (R 7) 22 22 < 4194304 /\ 0 <= u_chunk (R 7) 44 13 < 8192.
Proof.
  pose proof (top (R 7) 57 ltac:(lia) (HR 7 ltac:(lia))) as E. pose proof (Z.shiftr_0_r (R 7)).
  pose proof (cut (R 7) 0 22 ltac:(lia) ltac:(lia)) as K0. change (2 ^ 22) with 4194304 in K0. change (0 + 22) with 22 in K0.
  pose proof (cut (R 7) 22 22 ltac:(lia) ltac:(lia)) as K22. change (2 ^ 22) with 4194304 in K22. change (22 + 22) with 44 in K22.
  pose proof (cut (R 7) 44 13 ltac:(lia) ltac:(lia)) as K44. change (2 ^ 13) with 8192 in K44. change (44 + 13) with 57 in K44.
  lia.
Qed.
Lemma limb_8 : R 8 = u_chunk (R 8) 0 2 + 4 * u_chunk (R 8) 2 20 + 4194304 * u_chunk (R 8) 22 22 + 17592186044416 * u_chunk (R 8) 44 22 /\ Z.shiftr (R 8) 2 = u_chunk (R 8) 2 20 + 1048576 * u_chunk (R 8) 22 22 + 4398046511104 * u_chunk (R 8) 44 22 /\ Z.shiftr (R 8) 22 = u_chunk (R 8) 22 22 + 4194304 * u_chunk (R 8) 44 22 /\ Z.shiftr (R 8) 44 = u_chunk (R 8) 44 22 /\ 0 <= u_chunk (R 8) 0 2 < 4 /\ 0 <= u_chunk (R 8) 2 20 < 1048576 /\ 0 <= u_chunk (R 8) 22 22 < 4194304 /\ 0 <= u_chunk (R 8) 44 22 < 4194304.
Proof.
  pose proof (top (R 8) 66 ltac:(lia) (HR 8 ltac:(lia))) as E. pose proof (Z.shiftr_0_r (R 8)).
  pose proof (cut (R 8) 0 2 ltac:(lia) ltac:(lia)) as K0. change (2 ^ 2) with 4 in K0. change (0 + 2) with 2 in K0.
  pose proof (cut (R 8) 2 20 ltac:(lia) ltac:(lia)) as K2. change (2 ^ 20) with 1048576 in K2. change (2 + 20) with 22 in K2.
  pose proof (cut (R 8) 22 22 ltac:(lia) ltac:(lia)) as K22. change (2 ^ 22) with 4194304 in K22. change (22 + 22) with 44 in K22.
  pose proof (cut (R 8) 44 22 ltac:(lia) ltac:(lia)) as K44. change (2 ^ 22) with 4194304 in K44. change (44 + 22) with 66 in K44.
  lia.
Qed.
Lemma limb_9 : R 9 = u_chunk (R 9) 0 22 + 4194304 * u_chunk (R 9) 22 22 + 17592186044416 * u_chunk (R 9) 44 20 + 18446744073709551616 * u_chunk (R 9) 64 2 /\ Z.shiftr (R 9) 22 = u_chunk (R 9) 22 22 + 4194304 * u_chunk (R 9) 44 20 + 4398046511104 * u_chunk (R 9) 64 2 /\ Z.shiftr (R 9) 44 = u_chunk (R 9) 44 20 + 1048576 * u_chunk (R 9) 64 2 /\ Z.shiftr (R 9) 64 = u_chunk (R 9) 64 2 /\ 0 <= u_chunk (R 9) 0 22 < 4194304 /\ 0 <= u_chunk (R 9) 22 22 < 4194304 /\ 0 <= u_chunk (R 9) 44 20 < 1048576 /\ 0 <= u_chunk (R 9) 64 2 < 4.
Proof.
  pose proof (top (R 9) 66 ltac:(lia) (HR 9 ltac:(lia))) as E. pose proof (Z.shiftr_0_r (R 9)).
  pose proof (cut (R 9) 0 22 ltac:(lia) ltac:(lia)) as K0. change (2 ^ 22) with 4194304 in K0. change (0 + 22) with 22 in K0.
  pose proof (cut (R 9) 22 22 ltac:(lia) ltac:(lia)) as K22. change (2 ^ 22) with 4194304 in K22. change (22 + 22) with 44 in K22.
  pose proof (cut (R 9) 44 20 ltac:(lia) ltac:(lia)) as K44. change (2 ^ 20) with 1048576 in K44. change (44 + 20) with 64 in K44.
  pose proof (cut (R 9) 64 2 ltac:(lia) ltac:(lia)) as K64. change (2 ^ 2) with 4 in K64. change (64 + 2) with 66 in K64.
  lia.
Qed.
Lemma limb_10 : R 10 = u_chunk (R 10) 0 22 + 4194304 * u_chunk (R 10) 22 22 + 17592186044416 * u_chunk (R 10) 44 18 + 4611686018427387904 * u_chunk (R 10) 62 4 /\ Z.shiftr (R 10) 22 = u_chunk (R 10) 22 22 + 4194304 * u_chunk (R 10) 44 18 + 1099511627776 * u_chunk (R 10) 62 4 /\ Z.shiftr (R 10) 44 = u_chunk (R 10) 44 18 + 262144 * u_chunk (R 10) 62 4 /\ Z.shiftr (R 10) 62 = u_chunk (R 10) 62 4 /\ 0 <= u_chunk (R 10) 0 22 < 4194304 /\ 0 <= u_chunk (R 10) 22 22 < 4194304 /\ 0 <= u_chunk (R 10) 44 18 < 262144 /\ 0 <= u_chunk (R 10) 62 4 < 16.
Proof.
  pose proof (top (R 10) 66 ltac:(lia) (HR 10 ltac:(lia))) as E. pose proof (Z.shiftr_0_r (R 10)).
  pose proof (cut (R 10) 0 22 ltac:(lia) ltac:(lia)) as K0. change (2 ^ 22) with 4194304 in K0. change (0 + 22) with 22 in K0.
  pose proof (cut (R 10) 22 22 ltac:(lia) ltac:(lia)) as K22. change (2 ^ 22) with 4194304 in K22. change (22 + 22) with 44 in K22.
  pose proof (cut (R 10) 44 18 ltac:(lia) ltac:(lia)) as K44. change (2 ^ 18) with 262144 in K44. change (44 + 18) with 62 in K44.
  pose proof (cut (R 10) 62 4 ltac:(lia) ltac:(lia)) as K62. change (2 ^ 4) with 16 in K62. change (62 + 4) with 66 in K62.
  lia.
Qed.
Lemma limb_11 : R 11 = u_chunk (R 11) 0 22 + 4194304 * u_chunk (R 11) 22 22 + 17592186044416 * u_chunk (R 11) 44 13 /\ Z.shiftr (R 11) 22 = u_chunk (R 11) 22 22 + 4194304 * u_chunk (R 11) 44 13 /\ Z.shiftr (R 11) 44 = u_chunk (R 11) 44 13 /\ 0 <= u_chunk (R 11) 0 22 < 4194304 /\ 0 <= u_chunk (R 11) 22 22 < 4194304 /\ 0 <= u_chunk (R 11) 44 13 < 8192.
Proof.
  pose proof (top (R 11) 57 ltac:(lia) (HR 11 ltac:(lia))) as E. pose proof (Z.shiftr_0_r (R 11)).
  pose proof (cut (R 11) 0 22 ltac:(lia) ltac:(lia)) as K0. change (2 ^ 22) with 4194304 in K0. change (0 + 22) with 22 in K0.
  pose proof (cut (R 11) 22 22 ltac:(lia) ltac:(lia)) as K22. change (2 ^ 22) with 4194304 in K22. change (22 + 22) with 44 in K22.
  pose proof (cut (R 11) 44 13 ltac:(lia) ltac:(lia)) as K44. change (2 ^ 13) with 8192 in K44. change (44 + 13) with 57 in K44.
  lia.
Qed.
Lemma limb_12 : R 12 = u_chunk (R 12) 0 3 + 8 * u_chunk (R 12) 3 19 + 4194304 * u_chunk (R 12) 22 22 + 17592186044416 * u_chunk (R 12) 44 22 /\ Z.shiftr (R 12) 3 = u_chunk (R 12) 3 19 + 524288 * u_chunk (R 12) 22 22 + 2199023255552 * u_chunk (R 12) 44 22 /\ Z.shiftr (R 12) 22 = u_chunk (R 12) 22 22 + 4194304 * u_chunk (R 12) 44 22 /\ Z.shiftr (R 12) 44 = u_chunk (R 12) 44 22 /\ 0 <= u_chunk (R 12) 0 3 < 8 /\ 0 <= u_chunk (R 12) 3 19 < 524288 /\ 0 <= u_chunk (R 12) 22 22 < 4194304 /\ 0 <= u_chunk (R 12) 44 22 < 4194304.
Proof.
  pose proof (top (R 12) 66 ltac:(lia) (HR 12 ltac:(lia))) as E. pose proof (Z.shiftr_0_r (R 12)).
  pose proof (cut (R 12) 0 3 ltac:(lia) ltac:(lia)) as K0. change (2 ^ 3) with 8 in K0. change (0 + 3) with 3 in K0.
  pose proof (cut (R 12) 3 19 ltac:(lia) ltac:(lia)) as K3. change (2 ^ 19) with 524288 in K3. change (3 + 19) with 22 in K3.
  pose proof (cut (R 12) 22 22 ltac:(lia) ltac:(lia)) as K22. change (2 ^ 22) with 4194304 in K22. change (22 + 22) with 44 in K22.
  pose proof (cut (R 12) 44 22 ltac:(lia) ltac:(lia)) as K44. change (2 ^ 22) with 4194304 in K44. change (44 + 22) with 66 in K44.
  lia.
Qed.
Lemma limb_13 : R 13 = u_chunk (R 13) 0 1 + 2 * u_chunk (R 13) 1 21 + 4194304 * u_chunk (R 13) 22 22 + 17592186044416 * u_chunk (R 13) 44 21 + 36893488147419103232 * u_chunk (R 13) 65 1 /\ Z.shiftr (R 13) 1 = u_chunk (R 13) 1 21 + 2097152 * u_chunk (R 13) 22 22 + 8796093022208 * u_chunk (R 13) 44 21 + 18446744073709551616 * u_chunk (R 13) 65 1 /\ Z.shiftr (R 13) 22 = u_chunk (R 13) 22 22 + 4194304 * u_chunk (R 13) 44 21 + 8796093022208 * u_chunk (R 13) 65 1 /\ Z.shiftr (R 13) 44 = u_chunk (R 13) 44 21 + 2097152 * u_chunk (R 13) 65 1 /\ Z.shiftr (R 13) 65 = u_chunk (R 13) 65 1 /\ 0 <= u_chunk (R 13) 0 1 < 2 /\ 0 <= u_chunk (R 13) 1 21 < 2097152 /\ 0 <= u_chunk (R 13) 22 22 < 4194304 /\ 0 <= u_chunk (R 13) 44 21 < 2097152 /\ 0 <= u_chunk (R 13) 65 1 < 2.
Proof.
  pose proof (top (R 13) 66 ltac:(lia) (HR 13 ltac:(lia))) as E. pose proof (Z.shiftr_0_r (R 13)).
  pose proof (cut (R 13) 0 1 ltac:(lia) ltac:(lia)) as K0. change (2 ^ 1) with 2 in K0. change (0 + 1) with 1 in K0.
  pose proof (cut (R 13) 1 21 ltac:(lia) ltac:(lia)) as K1. change (2 ^ 21) with 2097152 in K1. change (1 + 21) with 22 in K1.
  pose proof (cut (R 13) 22 22 ltac:(lia) ltac:(lia)) as K22. change (2 ^ 22) with 4194304 in K22. change (22 + 22) with 44 in K22.
  pose proof (cut (R 13) 44 21 ltac:(lia) ltac:(lia)) as K44. change (2 ^ 21) with 2097152 in K44. change (44 + 21) with 65 in K44.
  pose proof (cut (R 13) 65 1 ltac:(lia) ltac:(lia)) as K65. change (2 ^ 1) with 2 in K65. change (65 + 1) with 66 in K65.
  lia.
Qed.
Lemma limb_14 : R 14 = u_chunk (R 14) 0 22 + 4194304 * u_chunk (R 14) 22 22 + 17592186044416 * u_chunk (R 14) 44 19 + 9223372036854775808 * u_chunk (R 14) 63 3 /\ Z.shiftr (R 14) 22 = u_chunk (R 14) 22 22 + 4194304 * u_chunk (R 14) 44 19 + 2199023255552 * u_chunk (R 14) 63 3 /\ Z.shiftr (R 14) 44 = u_chunk (R 14) 44 19 + 524288 * u_chunk (R 14) 63 3 /\ Z.shiftr (R 14) 63 = u_chunk (R 14) 63 3 /\ 0 <= u_chunk (R 14) 0 22 < 4194304 /\ 0 <= u_chunk (R 14) 22 22 < 4194304 /\ 0 <= u_chunk (R 14) 44 19 < 524288 /\ 0 <= u_chunk (R 14) 63 3 < 8.
Proof.
  pose proof (top (R 14) 66 ltac:(lia) (HR 14 ltac:(lia))) as E. pose proof (Z.shiftr_0_r (R 14)).
  pose proof (cut (R 14) 0 22 ltac:(lia) ltac:(lia)) as K0. change (2 ^ 22) with 4194304 in K0. change (0 + 22) with 22 in K0.
  pose proof (cut (R 14) 22 22 ltac:(lia) ltac:(lia)) as K22. change (2 ^ 22) with 4194304 in K22. change (22 + 22) with 44 in K22.
  pose proof (cut (R 14) 44 19 ltac:(lia) ltac:(lia)) as K44. change (2 ^ 19) with 524288 in K44. change (44 + 19) with 63 in K44.
  pose proof (cut (R 14) 63 3 ltac:(lia) ltac:(lia)) as K63. change (2 ^ 3) with 8 in K63. change (63 + 3) with 66 in K63.
  lia.
Qed.
Lemma limb_15 : R 15 = u_chunk (R 15) 0 22 + 4194304 * u_chunk (R 15) 22 22 + 17592186044416 * u_chunk (R 15) 44 13 /\ Z.shiftr (R 15) 22 = u_chunk (R 15) 22 22 + 4194304 * u_chunk (R 15) 44 13 /\ Z.shiftr (R 15) 44 = u_chunk (R 15) 44 13 /\ 0 <= u_chunk (R 15) 0 22 < 4194304 /\ 0 <= u_chunk (R 15) 22 22 < 4194304 /\ 0 <= u_chunk (R 15) 44 13 < 8192.
Proof.
  pose proof (top (R 15) 57 ltac:(lia) (HR 15 ltac:(lia))) as E. pose proof (Z.shiftr_0_r (R 15)).
  pose proof (cut (R 15) 0 22 ltac:(lia) ltac:(lia)) as K0. change (2 ^ 22) with 4194304 in K0. change (0 + 22) with 22 in K0.
  pose proof (cut (R 15) 22 22 ltac:(lia) ltac:(lia)) as K22. change (2 ^ 22) with 4194304 in K22. change (22 + 22) with 44 in K22.
  pose proof (cut (R 15) 44 13 ltac:(lia) ltac:(lia)) as K44. change (2 ^ 13) with 8192 in K44. change (44 + 13) with 57 in K44.
  lia.
Qed.
Lemma limb_16 : R 16 = u_chunk (R 16) 0 4 + 16 * u_chunk (R 16) 4 18 + 4194304 * u_chunk (R 16) 22 22 + 17592186044416 * u_chunk (R 16) 44 22 /\ Z.shiftr (R 16) 4 = u_chunk (R 16) 4 18 + 262144 * u_chunk (R 16) 22 22 + 1099511627776 * u_chunk (R 16) 44 22 /\ Z.shiftr (R 16) 22 = u_chunk (R 16) 22 22 + 4194304 * u_chunk (R 16) 44 22 /\ Z.shiftr (R 16) 44 = u_chunk (R 16) 44 22 /\ 0 <= u_chunk (R 16) 0 4 < 16 /\ 0 <= u_chunk (R 16) 4 18 < 262144 /\ 0 <= u_chunk (R 16) 22 22 < 4194304 /\ 0 <= u_chunk (R 16) 44 22 < 4194304.
Proof.
  pose proof (top (R 16) 66 ltac:(lia) (HR 16 ltac:(lia))) as E. pose proof (Z.shiftr_0_r (R 16)).
  pose proof (cut (R 16) 0 4 ltac:(lia) ltac:(lia)) as K0. change (2 ^ 4) with 16 in K0. change (0 + 4) with 4 in K0.
  pose proof (cut (R 16) 4 18 ltac:(lia) ltac:(lia)) as K4. change (2 ^ 18) with 262144 in K4. change (4 + 18) with 22 in K4.
  pose proof (cut (R 16) 22 22 ltac:(lia) ltac:(lia)) as K22. change (2 ^ 22) with 4194304 in K22. change (22 + 22) with 44 in K22.
  pose proof (cut (R 16) 44 22 ltac:(lia) ltac:(lia)) as K44. change (2 ^ 22) with 4194304 in K44. change (44 + 22) with 66 in K44.
  lia.
Qed.
Lemma limb_17 : R 17 = u_chunk (R 17) 0 2 + 4 * u_chunk (R 17) 2 20 + 4194304 * u_chunk (R 17) 22 22 + 17592186044416 * u_chunk (R 17) 44 22 /\ Z.shiftr (R 17) 2 = u_chunk (R 17) 2 20 + 1048576 * u_chunk (R 17) 22 22 + 4398046511104 * u_chunk (R 17) 44 22 /\ Z.shiftr (R 17) 22 = u_chunk (R 17) 22 22 + 4194304 * u_chunk (R 17) 44 22 /\ Z.shiftr (R 17) 44 = u_chunk (R 17) 44 22 /\ 0 <= u_chunk (R 17) 0 2 < 4 /\ 0 <= u_chunk (R 17) 2 20 < 1048576 /\ 0 <= u_chunk (R 17) 22 22 < 4194304 /\ 0 <= u_chunk (R 17) 44 22 < 4194304.
Proof.
  pose proof (top (R 17) 66 ltac:(lia) (HR 17 ltac:(lia))) as E. pose proof (Z.shiftr_0_r (R 17)).
  pose proof (cut (R 17) 0 2 ltac:(lia) ltac:(lia)) as K0. change (2 ^ 2) with 4 in K0. change (0 + 2) with 2 in K0.
  pose proof (cut (R 17) 2 20 ltac:(lia) ltac:(lia)) as K2. change (2 ^ 20) with 1048576 in K2. change (2 + 20) with 22 in K2.
  pose proof (cut (R 17) 22 22 ltac:(lia) ltac:(lia)) as K22. change (2 ^ 22) with 4194304 in K22. change (22 + 22) with 44 in K22.
  pose proof (cut (R 17) 44 22 ltac:(lia) ltac:(lia)) as K44. change (2 ^ 22) with 4194304 in K44. change (44 + 22) with 66 in K44.
  lia.
Qed.
Lemma limb_18 : R 18 = u_chunk (R 18) 0 22 + 4194304 * u_chunk (R 18) 22 22 + 17592186044416 * u_chunk (R 18) 44 20 + 18446744073709551616 * u_chunk (R 18) 64 2 /\ Z.shiftr (R 18) 22 = u_chunk (R 18) 22 22 + 4194304 * u_chunk (R 18) 44 20 + 4398046511104 * u_chunk (R 18) 64 2 /\ Z.shiftr (R 18) 44 = u_chunk (R 18) 44 20 + 1048576 * u_chunk (R 18) 64 2 /\ Z.shiftr (R 18) 64 = u_chunk (R 18) 64 2 /\ 0 <= u_chunk (R 18) 0 22 < 4194304 /\ 0 <= u_chunk (R 18) 22 22 < 4194304 /\ 0 <= u_chunk (R 18) 44 20 < 1048576 /\ 0 <= u_chunk (R 18) 64 2 < 4.
Proof.
  pose proof (top (R 18) 66 ltac:(lia) (HR 18 ltac:(lia))) as E. pose proof (Z.shiftr_0_r (R 18)).
  pose proof (cut (R 18) 0 22 ltac:(lia) ltac:(lia)) as K0. change (2 ^ 22) with 4194304 in K0. change (0 + 22) with 22 in K0.
  pose proof (cut (R 18) 22 22 ltac:(lia) ltac:(lia)) as K22. change (2 ^ 22) with 4194304 in K22. change (22 + 22) with 44 in K22.
  pose proof (cut (R 18) 44 20 ltac:(lia) ltac:(lia)) as K44. change (2 ^ 20) with 1048576 in K44. change (44 + 20) with 64 in K44.
  pose proof (cut (R 18) 64 2 ltac:(lia) ltac:(lia)) as K64. change (2 ^ 2) with 4 in K64. change (64 + 2) with 66 in K64.
  lia.
Qed.
Lemma limb_19 : R 19 = u_chunk (R 19) 0 22 + 4194304 * u_chunk (R 19) 22 22 + 17592186044416 * u_chunk (R 19) 44 14 /\ Z.shiftr (R 19) 22 = u_chunk (R 19) 22 22 + 4194304 * u_chunk (R 19) 44 14 /\ Z.shiftr (R 19) 44 = u_chunk (R 19) 44 14 /\ 0 <= u_chunk (R 19) 0 22 < 4194304 /\ 0 <= u_chunk (R 19) 22 22 < 4194304 /\ 0 <= u_chunk (R 19) 44 14 < 16384.
Proof.
  pose proof (top (R 19) 58 ltac:(lia) (HR 19 ltac:(lia))) as E. pose proof (Z.shiftr_0_r (R 19)).
  pose proof (cut (R 19) 0 22 ltac:(lia) ltac:(lia)) as K0. change (2 ^ 22) with 4194304 in K0. change (0 + 22) with 22 in K0.
  pose proof (cut (R 19) 22 22 ltac:(lia) ltac:(lia)) as K22. change (2 ^ 22) with 4194304 in K22. change (22 + 22) with 44 in K22.
  pose proof (cut (R 19) 44 14 ltac:(lia) ltac:(lia)) as K44. change (2 ^ 14) with 16384 in K44. change (44 + 14) with 58 in K44.
  lia.
Qed.
Lemma word_0 : znth 0 (u_words R) 0 = u_chunk (R 0) 0 22 + 4194304 * u_chunk (R 0) 22 22 + 17592186044416 * u_chunk (R 0) 44 20 /\ 0 <= znth 0 (u_words R) 0 < 18446744073709551616.
Proof.
  pose proof limb_0. 
  assert (E : znth 0 (u_words R) 0 = u_chunk (R 0) 0 22 + 4194304 * u_chunk (R 0) 22 22 + 17592186044416 * u_chunk (R 0) 44 20); [|rewrite E; lia].
  change (znth 0 (u_words R) 0) with (u_mask (R 0)).
  apply (mask_is _ _ (u_chunk (R 0) 64 2)); [rewrite ?Z.shiftl_mul_pow2 by lia; change (2 ^ 64) with 18446744073709551616|change (2 ^ 64) with 18446744073709551616; lia].
 lia.
Qed.
Lemma word_1 : znth 0 (u_words R) 1 = u_chunk (R 0) 64 2 + 4 * u_chunk (R 1) 0 22 + 16777216 * u_chunk (R 1) 22 22 + 70368744177664 * u_chunk (R 1) 44 18 /\ 0 <= znth 0 (u_words R) 1 < 18446744073709551616.
Proof.
  pose proof limb_0. pose proof limb_1. 
  assert (E : znth 0 (u_words R) 1 = u_chunk (R 0) 64 2 + 4 * u_chunk (R 1) 0 22 + 16777216 * u_chunk (R 1) 22 22 + 70368744177664 * u_chunk (R 1) 44 18); [|rewrite E; lia].
  change (znth 0 (u_words R) 1) with (u_mask (Z.shiftr (R 0) 64 + Z.shiftl (R 1) 2)).
  apply (mask_is _ _ (u_chunk (R 1) 62 4)); [rewrite ?Z.shiftl_mul_pow2 by lia; change (2 ^ 64) with 18446744073709551616|change (2 ^ 64) with 18446744073709551616; lia].
  change (2 ^ 2) with 4.  lia.
Qed.
Lemma word_2 : znth 0 (u_words R) 2 = u_chunk (R 1) 62 4 + 16 * u_chunk (R 2) 0 22 + 67108864 * u_chunk (R 2) 22 22 + 281474976710656 * u_chunk (R 2) 44 16 /\ 0 <= znth 0 (u_words R) 2 < 18446744073709551616.
Proof.
  pose proof limb_1. pose proof limb_2. 
  assert (E : znth 0 (u_words R) 2 = u_chunk (R 1) 62 4 + 16 * u_chunk (R 2) 0 22 + 67108864 * u_chunk (R 2) 22 22 + 281474976710656 * u_chunk (R 2) 44 16); [|rewrite E; lia].
  change (znth 0 (u_words R) 2) with (u_mask (Z.shiftr (R 1) 62 + Z.shiftl (R 2) 4)).
  apply (mask_is _ _ (u_chunk (R 2) 60 6)); [rewrite ?Z.shiftl_mul_pow2 by lia; change (2 ^ 64) with 18446744073709551616|change (2 ^ 64) with 18446744073709551616; lia].
  change (2 ^ 4) with 16.  lia.
Qed.
Lemma word_3 : znth 0 (u_words R) 3 = u_chunk (R 2) 60 6 + 64 * u_chunk (R 3) 0 22 + 268435456 * u_chunk (R 3) 22 22 + 1125899906842624 * u_chunk (R 3) 44 13 + 9223372036854775808 * u_chunk (R 4) 0 1 /\ 0 <= znth 0 (u_words R) 3 < 18446744073709551616.
Proof.
  pose proof limb_2. pose proof limb_3. pose proof limb_4. 
  assert (E : znth 0 (u_words R) 3 = u_chunk (R 2) 60 6 + 64 * u_chunk (R 3) 0 22 + 268435456 * u_chunk (R 3) 22 22 + 1125899906842624 * u_chunk (R 3) 44 13 + 9223372036854775808 * u_chunk (R 4) 0 1); [|rewrite E; lia].
  change (znth 0 (u_words R) 3) with (u_mask (Z.shiftr (R 2) 60 + Z.shiftl (R 3) 6 + Z.shiftl (R 4) 63)).
  apply (mask_is _ _ (u_chunk (R 4) 1 21 + 2097152 * u_chunk (R 4) 22 22 + 8796093022208 * u_chunk (R 4) 44 21 + 18446744073709551616 * u_chunk (R 4) 65 1)); [rewrite ?Z.shiftl_mul_pow2 by lia; change (2 ^ 64) with 18446744073709551616|change (2 ^ 64) with 18446744073709551616; lia].
  change (2 ^ 6) with 64.   change (2 ^ 63) with 9223372036854775808.  lia.
Qed.
Lemma word_4 : znth 0 (u_words R) 4 = u_chunk (R 4) 1 21 + 2097152 * u_chunk (R 4) 22 22 + 8796093022208 * u_chunk (R 4) 44 21 /\ 0 <= znth 0 (u_words R) 4 < 18446744073709551616.
Proof.
  pose proof limb_4. 
  assert (E : znth 0 (u_words R) 4 = u_chunk (R 4) 1 21 + 2097152 * u_chunk (R 4) 22 22 + 8796093022208 * u_chunk (R 4) 44 21); [|rewrite E; lia].
  change (znth 0 (u_words R) 4) with (u_mask (Z.shiftr (R 4) 1)).
  apply (mask_is _ _ (u_chunk (R 4) 65 1)); [rewrite ?Z.shiftl_mul_pow2 by lia; change (2 ^ 64) with 18446744073709551616|change (2 ^ 64) with 18446744073709551616; lia].
 lia.
Qed.
Lemma word_5 : znth 0 (u_words R) 5 = u_chunk (R 4) 65 1 + 2 * u_chunk (R 5) 0 22 + 8388608 * u_chunk (R 5) 22 22 + 35184372088832 * u_chunk (R 5) 44 19 /\ 0 <= znth 0 (u_words R) 5 < 18446744073709551616.
Proof.
  pose proof limb_4. pose proof limb_5. 
  assert (E : znth 0 (u_words R) 5 = u_chunk (R 4) 65 1 + 2 * u_chunk (R 5) 0 22 + 8388608 * u_chunk (R 5) 22 22 + 35184372088832 * u_chunk (R 5) 44 19); [|rewrite E; lia].
  change (znth 0 (u_words R) 5) with (u_mask (Z.shiftr (R 4) 65 + Z.shiftl (R 5) 1)).
  apply (mask_is _ _ (u_chunk (R 5) 63 3)); [rewrite ?Z.shiftl_mul_pow2 by lia; change (2 ^ 64) with 18446744073709551616|change (2 ^ 64) with 18446744073709551616; lia].
  change (2 ^ 1) with 2.  lia.
Qed.
Lemma word_6 : znth 0 (u_words R) 6 = u_chunk (R 5) 63 3 + 8 * u_chunk (R 6) 0 22 + 33554432 * u_chunk (R 6) 22 22 + 140737488355328 * u_chunk (R 6) 44 17 /\ 0 <= znth 0 (u_words R) 6 < 18446744073709551616.
Proof.
  pose proof limb_5. pose proof limb_6. 
  assert (E : znth 0 (u_words R) 6 = u_chunk (R 5) 63 3 + 8 * u_chunk (R 6) 0 22 + 33554432 * u_chunk (R 6) 22 22 + 140737488355328 * u_chunk (R 6) 44 17); [|rewrite E; lia].
  change (znth 0 (u_words R) 6) with (u_mask (Z.shiftr (R 5) 63 + Z.shiftl (R 6) 3)).
  apply (mask_is _ _ (u_chunk (R 6) 61 5)); [rewrite ?Z.shiftl_mul_pow2 by lia; change (2 ^ 64) with 18446744073709551616|change (2 ^ 64) with 18446744073709551616; lia].
  change (2 ^ 3) with 8.  lia.
Qed.
Lemma word_7 : znth 0 (u_words R) 7 = u_chunk (R 6) 61 5 + 32 * u_chunk (R 7) 0 22 + 134217728 * u_chunk (R 7) 22 22 + 562949953421312 * u_chunk (R 7) 44 13 + 4611686018427387904 * u_chunk (R 8) 0 2 /\ 0 <= znth 0 (u_words R) 7 < 18446744073709551616.
Proof.
  pose proof limb_6. pose proof limb_7. pose proof limb_8. 
  assert (E : znth 0 (u_words R) 7 = u_chunk (R 6) 61 5 + 32 * u_chunk (R 7) 0 22 + 134217728 * u_chunk (R 7) 22 22 + 562949953421312 * u_chunk (R 7) 44 13 + 4611686018427387904 * u_chunk (R 8) 0 2); [|rewrite E; lia].
  change (znth 0 (u_words R) 7) with (u_mask (Z.shiftr (R 6) 61 + Z.shiftl (R 7) 5 + Z.shiftl (R 8) 62)).
  apply (mask_is _ _ (u_chunk (R 8) 2 20 + 1048576 * u_chunk (R 8) 22 22 + 4398046511104 * u_chunk (R 8) 44 22)); [rewrite ?Z.shiftl_mul_pow2 by lia; change (2 ^ 64) with 18446744073709551616|change (2 ^ 64) with 18446744073709551616; lia].
  change (2 ^ 5) with 32.   change (2 ^ 62) with 4611686018427387904.  lia.
Qed.
Lemma word_8 : znth 0 (u_words R) 8 = u_chunk (R 8) 2 20 + 1048576 * u_chunk (R 8) 22 22 + 4398046511104 * u_chunk (R 8) 44 22 /\ 0 <= znth 0 (u_words R) 8 < 18446744073709551616.
Proof.
  pose proof limb_8. 
  assert (E : znth 0 (u_words R) 8 = u_chunk (R 8) 2 20 + 1048576 * u_chunk (R 8) 22 22 + 4398046511104 * u_chunk (R 8) 44 22); [|rewrite E; lia].
  change (znth 0 (u_words R) 8) with (u_mask (Z.shiftr (R 8) 2)).
  apply (mask_is _ _ (0)); [rewrite ?Z.shiftl_mul_pow2 by lia; change (2 ^ 64) with 18446744073709551616|change (2 ^ 64) with 18446744073709551616; lia].
 lia.
Qed.
Lemma word_9 : znth 0 (u_words R) 9 = u_chunk (R 9) 0 22 + 4194304 * u_chunk (R 9) 22 22 + 17592186044416 * u_chunk (R 9) 44 20 /\ 0 <= znth 0 (u_words R) 9 < 18446744073709551616.
Proof.
  pose proof limb_9. 
  assert (E : znth 0 (u_words R) 9 = u_chunk (R 9) 0 22 + 4194304 * u_chunk (R 9) 22 22 + 17592186044416 * u_chunk (R 9) 44 20); [|rewrite E; lia].
  change (znth 0 (u_words R) 9) with (u_mask (R 9)).
  apply (mask_is _ _ (u_chunk (R 9) 64 2)); [rewrite ?Z.shiftl_mul_pow2 by lia; change (2 ^ 64) with 18446744073709551616|change (2 ^ 64) with 18446744073709551616; lia].
 lia.
Qed.
Lemma word_10 : znth 0 (u_words R) 10 = u_chunk (R 9) 64 2 + 4 * u_chunk (R 10) 0 22 + 16777216 * u_chunk (R 10) 22 22 + 70368744177664 * u_chunk (R 10) 44 18 /\ 0 <= znth 0 (u_words R) 10 < 18446744073709551616.
Proof.
  pose proof limb_9. pose proof limb_10. 
  assert (E : znth 0 (u_words R) 10 = u_chunk (R 9) 64 2 + 4 * u_chunk (R 10) 0 22 + 16777216 * u_chunk (R 10) 22 22 + 70368744177664 * u_chunk (R 10) 44 18); [|rewrite E; lia].
  change (znth 0 (u_words R) 10) with (u_mask (Z.shiftr (R 9) 64 + Z.shiftl (R 10) 2)).
  apply (mask_is _ _ (u_chunk (R 10) 62 4)); [rewrite ?Z.shiftl_mul_pow2 by lia; change (2 ^ 64) with 18446744073709551616|change (2 ^ 64) with 18446744073709551616; lia].
  change (2 ^ 2) with 4.  lia.
Qed.
Lemma word_11 : znth 0 (u_words R) 11 = u_chunk (R 10) 62 4 + 16 * u_chunk (R 11) 0 22 + 67108864 * u_chunk (R 11) 22 22 + 281474976710656 * u_chunk (R 11) 44 13 + 2305843009213693952 * u_chunk (R 12) 0 3 /\ 0 <= znth 0 (u_words R) 11 < 18446744073709551616.
Proof.
  pose proof limb_10. pose proof limb_11. pose proof limb_12. 
  assert (E : znth 0 (u_words R) 11 = u_chunk (R 10) 62 4 + 16 * u_chunk (R 11) 0 22 + 67108864 * u_chunk (R 11) 22 22 + 281474976710656 * u_chunk (R 11) 44 13 + 2305843009213693952 * u_chunk (R 12) 0 3); [|rewrite E; lia].
  change (znth 0 (u_words R) 11) with (u_mask (Z.shiftr (R 10) 62 + Z.shiftl (R 11) 4 + Z.shiftl (R 12) 61)).
  apply (mask_is _ _ (u_chunk (R 12) 3 19 + 524288 * u_chunk (R 12) 22 22 + 2199023255552 * u_chunk (R 12) 44 22)); [rewrite ?Z.shiftl_mul_pow2 by lia; change (2 ^ 64) with 18446744073709551616|change (2 ^ 64) with 18446744073709551616; lia].
  change (2 ^ 4) with 16.   change (2 ^ 61) with 2305843009213693952.  lia.
Qed.
Lemma word_12 : znth 0 (u_words R) 12 = u_chunk (R 12) 3 19 + 524288 * u_chunk (R 12) 22 22 + 2199023255552 * u_chunk (R 12) 44 22 + 9223372036854775808 * u_chunk (R 13) 0 1 /\ 0 <= znth 0 (u_words R) 12 < 18446744073709551616.
Proof.
  pose proof limb_12. pose proof limb_13. 
  assert (E : znth 0 (u_words R) 12 = u_chunk (R 12) 3 19 + 524288 * u_chunk (R 12) 22 22 + 2199023255552 * u_chunk (R 12) 44 22 + 9223372036854775808 * u_chunk (R 13) 0 1); [|rewrite E; lia].
  change (znth 0 (u_words R) 12) with (u_mask (Z.shiftr (R 12) 3 + Z.shiftl (R 13) 63)).
  apply (mask_is _ _ (u_chunk (R 13) 1 21 + 2097152 * u_chunk (R 13) 22 22 + 8796093022208 * u_chunk (R 13) 44 21 + 18446744073709551616 * u_chunk (R 13) 65 1)); [rewrite ?Z.shiftl_mul_pow2 by lia; change (2 ^ 64) with 18446744073709551616|change (2 ^ 64) with 18446744073709551616; lia].
  change (2 ^ 63) with 9223372036854775808.  lia.
Qed.
Lemma word_13 : znth 0 (u_words R) 13 = u_chunk (R 13) 1 21 + 2097152 * u_chunk (R 13) 22 22 + 8796093022208 * u_chunk (R 13) 44 21 /\ 0 <= znth 0 (u_words R) 13 < 18446744073709551616.
Proof.
  pose proof limb_13. 
  assert (E : znth 0 (u_words R) 13 = u_chunk (R 13) 1 21 + 2097152 * u_chunk (R 13) 22 22 + 8796093022208 * u_chunk (R 13) 44 21); [|rewrite E; lia].
  change (znth 0 (u_words R) 13) with (u_mask (Z.shiftr (R 13) 1)).
  apply (mask_is _ _ (u_chunk (R 13) 65 1)); [rewrite ?Z.shiftl_mul_pow2 by lia; change (2 ^ 64) with 18446744073709551616|change (2 ^ 64) with 18446744073709551616; lia].
 lia.
Qed.
Lemma word_14 : znth 0 (u_words R) 14 = u_chunk (R 13) 65 1 + 2 * u_chunk (R 14) 0 22 + 8388608 * u_chunk (R 14) 22 22 + 35184372088832 * u_chunk (R 14) 44 19 /\ 0 <= znth 0 (u_words R) 14 < 18446744073709551616.
Proof.
  pose proof limb_13. pose proof limb_14. 
  assert (E : znth 0 (u_words R) 14 = u_chunk (R 13) 65 1 + 2 * u_chunk (R 14) 0 22 + 8388608 * u_chunk (R 14) 22 22 + 35184372088832 * u_chunk (R 14) 44 19); [|rewrite E; lia].
  change (znth 0 (u_words R) 14) with (u_mask (Z.shiftr (R 13) 65 + Z.shiftl (R 14) 1)).
  apply (mask_is _ _ (u_chunk (R 14) 63 3)); [rewrite ?Z.shiftl_mul_pow2 by lia; change (2 ^ 64) with 18446744073709551616|change (2 ^ 64) with 18446744073709551616; lia].
  change (2 ^ 1) with 2.  lia.
Qed.
Lemma word_15 : znth 0 (u_words R) 15 = u_chunk (R 14) 63 3 + 8 * u_chunk (R 15) 0 22 + 33554432 * u_chunk (R 15) 22 22 + 140737488355328 * u_chunk (R 15) 44 13 + 1152921504606846976 * u_chunk (R 16) 0 4 /\ 0 <= znth 0 (u_words R) 15 < 18446744073709551616.
Proof.
  pose proof limb_14. pose proof limb_15. pose proof limb_16. 
  assert (E : znth 0 (u_words R) 15 = u_chunk (R 14) 63 3 + 8 * u_chunk (R 15) 0 22 + 33554432 * u_chunk (R 15) 22 22 + 140737488355328 * u_chunk (R 15) 44 13 + 1152921504606846976 * u_chunk (R 16) 0 4); [|rewrite E; lia].
  change (znth 0 (u_words R) 15) with (u_mask (Z.shiftr (R 14) 63 + Z.shiftl (R 15) 3 + Z.shiftl (R 16) 60)).
  apply (mask_is _ _ (u_chunk (R 16) 4 18 + 262144 * u_chunk (R 16) 22 22 + 1099511627776 * u_chunk (R 16) 44 22)); [rewrite ?Z.shiftl_mul_pow2 by lia; change (2 ^ 64) with 18446744073709551616|change (2 ^ 64) with 18446744073709551616; lia].
  change (2 ^ 3) with 8.   change (2 ^ 60) with 1152921504606846976.  lia.
Qed.
Lemma word_16 : znth 0 (u_words R) 16 = u_chunk (R 16) 4 18 + 262144 * u_chunk (R 16) 22 22 + 1099511627776 * u_chunk (R 16) 44 22 + 4611686018427387904 * u_chunk (R 17) 0 2 /\ 0 <= znth 0 (u_words R) 16 < 18446744073709551616.
Proof.
  pose proof limb_16. pose proof limb_17. 
  assert (E : znth 0 (u_words R) 16 = u_chunk (R 16) 4 18 + 262144 * u_chunk (R 16) 22 22 + 1099511627776 * u_chunk (R 16) 44 22 + 4611686018427387904 * u_chunk (R 17) 0 2); [|rewrite E; lia].
  change (znth 0 (u_words R) 16) with (u_mask (Z.shiftr (R 16) 4 + Z.shiftl (R 17) 62)).
  apply (mask_is _ _ (u_chunk (R 17) 2 20 + 1048576 * u_chunk (R 17) 22 22 + 4398046511104 * u_chunk (R 17) 44 22)); [rewrite ?Z.shiftl_mul_pow2 by lia; change (2 ^ 64) with 18446744073709551616|change (2 ^ 64) with 18446744073709551616; lia].
  change (2 ^ 62) with 4611686018427387904.  lia.
Qed.
Lemma word_17 : znth 0 (u_words R) 17 = u_chunk (R 17) 2 20 + 1048576 * u_chunk (R 17) 22 22 + 4398046511104 * u_chunk (R 17) 44 22 /\ 0 <= znth 0 (u_words R) 17 < 18446744073709551616.
Proof.
  pose proof limb_17. 
  assert (E : znth 0 (u_words R) 17 = u_chunk (R 17) 2 20 + 1048576 * u_chunk (R 17) 22 22 + 4398046511104 * u_chunk (R 17) 44 22); [|rewrite E; lia].
  change (znth 0 (u_words R) 17) with (u_mask (Z.shiftr (R 17) 2)).
  apply (mask_is _ _ (0)); [rewrite ?Z.shiftl_mul_pow2 by lia; change (2 ^ 64) with 18446744073709551616|change (2 ^ 64) with 18446744073709551616; lia].
 lia.
Qed.
Lemma word_18 : znth 0 (u_words R) 18 = u_chunk (R 18) 0 22 + 4194304 * u_chunk (R 18) 22 22 + 17592186044416 * u_chunk (R 18) 44 20 /\ 0 <= znth 0 (u_words R) 18 < 18446744073709551616.
Proof.
  pose proof limb_18. 
  assert (E : znth 0 (u_words R) 18 = u_chunk (R 18) 0 22 + 4194304 * u_chunk (R 18) 22 22 + 17592186044416 * u_chunk (R 18) 44 20); [|rewrite E; lia].
  change (znth 0 (u_words R) 18) with (u_mask (R 18)).
  apply (mask_is _ _ (u_chunk (R 18) 64 2)); [rewrite ?Z.shiftl_mul_pow2 by lia; change (2 ^ 64) with 18446744073709551616|change (2 ^ 64) with 18446744073709551616; lia].
 lia.
Qed.
Lemma word_19 : znth 0 (u_words R) 19 = u_chunk (R 18) 64 2 + 4 * u_chunk (R 19) 0 22 + 16777216 * u_chunk (R 19) 22 22 + 70368744177664 * u_chunk (R 19) 44 14 + 1152921504606846976 /\ 0 <= znth 0 (u_words R) 19 < 18446744073709551616.
Proof.
  pose proof limb_18. pose proof limb_19. 
  assert (E : znth 0 (u_words R) 19 = u_chunk (R 18) 64 2 + 4 * u_chunk (R 19) 0 22 + 16777216 * u_chunk (R 19) 22 22 + 70368744177664 * u_chunk (R 19) 44 14 + 1152921504606846976); [|rewrite E; lia].
  change (znth 0 (u_words R) 19) with (Z.shiftr (R 18) 64 + Z.shiftl (R 19) 2 + 1152921504606846976).
  rewrite Z.shiftl_mul_pow2 by lia. change (2 ^ 2) with 4. lia.
Qed.

(** The number whose 64-bit digits the words are. *)
Definition limbs4 (a : Z) : Z := R a + 2 ^ 66 * R (a + 1) + 2 ^ 132 * R (a + 2) + 2 ^ 198 * R (a + 3).
Lemma words_sum : fold_right (fun w s => w + 2 ^ 64 * s) 0 (u_words R) =
  limbs4 0 + 2 ^ 255 * limbs4 4 + 2 ^ 510 * limbs4 8 + 2 ^ 765 * limbs4 12 + 2 ^ 1020 * limbs4 16 + 2 ^ 1276.
Proof.
  destruct word_0 as [W0 _]. destruct word_1 as [W1 _]. destruct word_2 as [W2 _]. destruct word_3 as [W3 _]. destruct word_4 as [W4 _]. destruct word_5 as [W5 _]. destruct word_6 as [W6 _]. destruct word_7 as [W7 _]. destruct word_8 as [W8 _]. destruct word_9 as [W9 _]. destruct word_10 as [W10 _]. destruct word_11 as [W11 _]. destruct word_12 as [W12 _]. destruct word_13 as [W13 _]. destruct word_14 as [W14 _]. destruct word_15 as [W15 _]. destruct word_16 as [W16 _]. destruct word_17 as [W17 _]. destruct word_18 as [W18 _]. destruct word_19 as [W19 _].
  destruct limb_0 as [L0 _]. destruct limb_1 as [L1 _]. destruct limb_2 as [L2 _]. destruct limb_3 as [L3 _]. destruct limb_4 as [L4 _]. destruct limb_5 as [L5 _]. destruct limb_6 as [L6 _]. destruct limb_7 as [L7 _]. destruct limb_8 as [L8 _]. destruct limb_9 as [L9 _]. destruct limb_10 as [L10 _]. destruct limb_11 as [L11 _]. destruct limb_12 as [L12 _]. destruct limb_13 as [L13 _]. destruct limb_14 as [L14 _]. destruct limb_15 as [L15 _]. destruct limb_16 as [L16 _]. destruct limb_17 as [L17 _]. destruct limb_18 as [L18 _]. destruct limb_19 as [L19 _].
  assert (E : u_words R = [znth 0 (u_words R) 0; znth 0 (u_words R) 1; znth 0 (u_words R) 2; znth 0 (u_words R) 3; znth 0 (u_words R) 4; znth 0 (u_words R) 5; znth 0 (u_words R) 6; znth 0 (u_words R) 7; znth 0 (u_words R) 8; znth 0 (u_words R) 9; znth 0 (u_words R) 10; znth 0 (u_words R) 11; znth 0 (u_words R) 12; znth 0 (u_words R) 13; znth 0 (u_words R) 14; znth 0 (u_words R) 15; znth 0 (u_words R) 16; znth 0 (u_words R) 17; znth 0 (u_words R) 18; znth 0 (u_words R) 19]) by reflexivity.
  rewrite E. rewrite W0, W1, W2, W3, W4, W5, W6, W7, W8, W9, W10, W11, W12, W13, W14, W15, W16, W17, W18, W19. cbn [fold_right]. unfold limbs4.
  change (0 + 1) with 1; change (0 + 2) with 2; change (0 + 3) with 3; change (4 + 1) with 5; change (4 + 2) with 6; change (4 + 3) with 7; change (8 + 1) with 9; change (8 + 2) with 10; change (8 + 3) with 11; change (12 + 1) with 13; change (12 + 2) with 14; change (12 + 3) with 15; change (16 + 1) with 17; change (16 + 2) with 18; change (16 + 3) with 19.
  set (x0 := R 0) in *. set (k0_0 := u_chunk x0 0 22) in *. set (k0_22 := u_chunk x0 22 22) in *. set (k0_44 := u_chunk x0 44 20) in *. set (k0_64 := u_chunk x0 64 2) in *. 
  set (x1 := R 1) in *. set (k1_0 := u_chunk x1 0 22) in *. set (k1_22 := u_chunk x1 22 22) in *. set (k1_44 := u_chunk x1 44 18) in *. set (k1_62 := u_chunk x1 62 4) in *. 
  set (x2 := R 2) in *. set (k2_0 := u_chunk x2 0 22) in *. set (k2_22 := u_chunk x2 22 22) in *. set (k2_44 := u_chunk x2 44 16) in *. set (k2_60 := u_chunk x2 60 6) in *. 
  set (x3 := R 3) in *. set (k3_0 := u_chunk x3 0 22) in *. set (k3_22 := u_chunk x3 22 22) in *. set (k3_44 := u_chunk x3 44 13) in *. 
  set (x4 := R 4) in *. set (k4_0 := u_chunk x4 0 1) in *. set (k4_1 := u_chunk x4 1 21) in *. set (k4_22 := u_chunk x4 22 22) in *. set (k4_44 := u_chunk x4 44 21) in *. set (k4_65 := u_chunk x4 65 1) in *. 
  set (x5 := R 5) in *. set (k5_0 := u_chunk x5 0 22) in *. set (k5_22 := u_chunk x5 22 22) in *. set (k5_44 := u_chunk x5 44 19) in *. set (k5_63 := u_chunk x5 63 3) in *. 
  set (x6 := R 6) in *. set (k6_0 := u_chunk x6 0 22) in *. set (k6_22 := u_chunk x6 22 22) in *. set (k6_44 := u_chunk x6 44 17) in *. set (k6_61 := u_chunk x6 61 5) in *. 
  set (x7 := R 7) in *. set (k7_0 := u_chunk x7 0 22) in *. set (k7_22 := u_chunk x7 22 22) in *. set (k7_44 := u_chunk x7 44 13) in *. 
  set (x8 := R 8) in *. set (k8_0 := u_chunk x8 0 2) in *. set (k8_2 := u_chunk x8 2 20) in *. set (k8_22 := u_chunk x8 22 22) in *. set (k8_44 := u_chunk x8 44 22) in *. 
  set (x9 := R 9) in *. set (k9_0 := u_chunk x9 0 22) in *. set (k9_22 := u_chunk x9 22 22) in *. set (k9_44 := u_chunk x9 44 20) in *. set (k9_64 := u_chunk x9 64 2) in *. 
  set (x10 := R 10) in *. set (k10_0 := u_chunk x10 0 22) in *. set (k10_22 := u_chunk x10 22 22) in *. set (k10_44 := u_chunk x10 44 18) in *. set (k10_62 := u_chunk x10 62 4) in *. 
  set (x11 := R 11) in *. set (k11_0 := u_chunk x11 0 22) in *. set (k11_22 := u_chunk x11 22 22) in *. set (k11_44 := u_chunk x11 44 13) in *. 
  set (x12 := R 12) in *. set (k12_0 := u_chunk x12 0 3) in *. set (k12_3 := u_chunk x12 3 19) in *. set (k12_22 := u_chunk x12 22 22) in *. set (k12_44 := u_chunk x12 44 22) in *. 
  set (x13 := R 13) in *. set (k13_0 := u_chunk x13 0 1) in *. set (k13_1 := u_chunk x13 1 21) in *. set (k13_22 := u_chunk x13 22 22) in *. set (k13_44 := u_chunk x13 44 21) in *. set (k13_65 := u_chunk x13 65 1) in *. 
  set (x14 := R 14) in *. set (k14_0 := u_chunk x14 0 22) in *. set (k14_22 := u_chunk x14 22 22) in *. set (k14_44 := u_chunk x14 44 19) in *. set (k14_63 := u_chunk x14 63 3) in *. 
  set (x15 := R 15) in *. set (k15_0 := u_chunk x15 0 22) in *. set (k15_22 := u_chunk x15 22 22) in *. set (k15_44 := u_chunk x15 44 13) in *. 
  set (x16 := R 16) in *. set (k16_0 := u_chunk x16 0 4) in *. set (k16_4 := u_chunk x16 4 18) in *. set (k16_22 := u_chunk x16 22 22) in *. set (k16_44 := u_chunk x16 44 22) in *. 
  set (x17 := R 17) in *. set (k17_0 := u_chunk x17 0 2) in *. set (k17_2 := u_chunk x17 2 20) in *. set (k17_22 := u_chunk x17 22 22) in *. set (k17_44 := u_chunk x17 44 22) in *. 
  set (x18 := R 18) in *. set (k18_0 := u_chunk x18 0 22) in *. set (k18_22 := u_chunk x18 22 22) in *. set (k18_44 := u_chunk x18 44 20) in *. set (k18_64 := u_chunk x18 64 2) in *. 
  set (x19 := R 19) in *. set (k19_0 := u_chunk x19 0 22) in *. set (k19_22 := u_chunk x19 22 22) in *. set (k19_44 := u_chunk x19 44 14) in *. 
  clearbody k0_0 k0_22 k0_44 k0_64 k1_0 k1_22 k1_44 k1_62 k2_0 k2_22 k2_44 k2_60 k3_0 k3_22 k3_44 k4_0 k4_1 k4_22 k4_44 k4_65 k5_0 k5_22 k5_44 k5_63 k6_0 k6_22 k6_44 k6_61 k7_0 k7_22 k7_44 k8_0 k8_2 k8_22 k8_44 k9_0 k9_22 k9_44 k9_64 k10_0 k10_22 k10_44 k10_62 k11_0 k11_22 k11_44 k12_0 k12_3 k12_22 k12_44 k13_0 k13_1 k13_22 k13_44 k13_65 k14_0 k14_22 k14_44 k14_63 k15_0 k15_22 k15_44 k16_0 k16_4 k16_22 k16_44 k17_0 k17_2 k17_22 k17_44 k18_0 k18_22 k18_44 k18_64 k19_0 k19_22 k19_44.
  rewrite L0, L1, L2, L3, L4, L5, L6, L7, L8, L9, L10, L11, L12, L13, L14, L15, L16, L17, L18, L19. ring.
Qed.
End Words.

Lemma digit : forall l i, Forall (fun w => 0 <= w < 2 ^ 64) l -> 0 <= i < zlen l ->
  znth 0 l i = (fold_right (fun w s => w + 2 ^ 64 * s) 0 l / 2 ^ (64 * i)) mod 2 ^ 64.
Proof.
  intros l i H. revert i. induction H as [|w l Hw _ IH]; intros i Hi; [unfold zlen in Hi; cbn in Hi; lia|].
  unfold zlen in Hi. cbn [length] in Hi. cbn [fold_right]. destruct (Z.eq_dec i 0) as [->|NE].
  - change (64 * 0) with 0. rewrite Z.pow_0_r, Z.div_1_r, Z.mul_comm, Z_mod_plus_full, Z.mod_small by lia. reflexivity.
  - replace (znth 0 (w :: l) i) with (znth 0 l (i - 1)) by (unfold znth; replace (Z.to_nat i) with (S (Z.to_nat (i - 1))) by lia; reflexivity).
    rewrite (IH (i - 1)) by (unfold zlen; lia). f_equal.
    replace (64 * i) with (64 + 64 * (i - 1)) by lia. rewrite Z.pow_add_r, <- Z.div_div by (lia || (apply Z.pow_pos_nonneg; lia)).
    f_equal. rewrite Z.mul_comm, Z.div_add by lia. rewrite (Z.div_small w) by lia. reflexivity.
Qed.
