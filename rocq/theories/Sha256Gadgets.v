(** The building blocks of sha256_process over integers: what the lookups and
    linear constraints of one decomposition say. *)
From Coq Require Import ZArith List Lia Bool Field.
From Verif Require Import Base Field Plonk PlonkFacts Bits Sha256Spec Sha256Model Sha256Sparse Sha256Words.
Import ListNotations.
Open Scope Z_scope.

(** ** Words from chunks *)

Lemma join_bits : forall s0 s1 s2 s3 j0 j1 j2 j3, 0 <= s0 -> 0 <= s1 -> 0 <= s2 -> 0 <= s3 -> s0 + s1 + s2 + s3 = 32 ->
  0 <= j0 < 2 ^ s0 -> 0 <= j1 < 2 ^ s1 -> 0 <= j2 < 2 ^ s2 -> 0 <= j3 < 2 ^ s3 ->
  let a := j0 + j1 * 2 ^ s0 + j2 * 2 ^ (s0 + s1) + j3 * 2 ^ (s0 + s1 + s2) in
  isw a /\ lbits 32 a = lbits s0 j0 ++ lbits s1 j1 ++ lbits s2 j2 ++ lbits s3 j3.
Proof.
  intros s0 s1 s2 s3 j0 j1 j2 j3 H0 H1 H2 H3 E J0 J1 J2 J3 a.
  set (l := lbits s0 j0 ++ lbits s1 j1 ++ lbits s2 j2 ++ lbits s3 j3).
  assert (N : numl 2 l = a).
  { unfold l, a. rewrite !numl_app, !zlen_lbits, !numl_lbits by assumption. rewrite !Z.pow_add_r by lia. ring. }
  assert (S : small 2 l) by (repeat apply small_app; apply small_lbits).
  assert (Z32 : zlen l = 32) by (unfold l; rewrite !zlen_app, !zlen_lbits by assumption; lia).
  split.
  - assert (B := numl_bound 2 l ltac:(lia) S). rewrite N, Z32 in B. exact B.
  - rewrite <- N. apply lbits_numl; [lia|exact S|exact Z32].
Qed.

Lemma bits14 : forall B s j, 0 <= s <= 14 -> 0 <= j < 2 ^ s -> numl B (lbits s j) = numl B (lbits 14 j).
Proof. intros. symmetry. apply numl_lbits_ext; assumption. Qed.

Ltac word_tac s0 s1 s2 s3 lem :=
  intros j0 j1 j2 j3 J0 J1 J2 J3;
  destruct (join_bits s0 s1 s2 s3 j0 j1 j2 j3 ltac:(lia) ltac:(lia) ltac:(lia) ltac:(lia) eq_refl J0 J1 J2 J3) as [I E];
  split; [exact I|]; intros B;
  match type of E with _ = ?r => match goal with |- sas 32 _ ?a _ = _ => change (lbits 32 a = r) in E end end;
  rewrite lem; rewrite E;
  try rewrite <- (bits14 B s0 j0) by (assumption || lia); try rewrite <- (bits14 B s1 j1) by (assumption || lia);
  try rewrite <- (bits14 B s2 j2) by (assumption || lia); try rewrite <- (bits14 B s3 j3) by (assumption || lia);
  reflexivity.

Lemma word_a : forall j0 j1 j2 j3, 0 <= j0 < 2 ^ 3 -> 0 <= j1 < 2 ^ 4 -> 0 <= j2 < 2 ^ 11 -> 0 <= j3 < 2 ^ 14 ->
  isw (j0 + j1 * 2 ^ 3 + j2 * 2 ^ 7 + j3 * 2 ^ 18) /\
  forall B, sas 32 B (j0 + j1 * 2 ^ 3 + j2 * 2 ^ 7 + j3 * 2 ^ 18) a_sizes =
    [numl B (lbits 14 j0); numl B (lbits 14 j1); numl B (lbits 14 j2); numl B (lbits 14 j3)].
Proof. word_tac 3 4 11 14 sas_a. Qed.
Lemma word_b : forall j0 j1 j2 j3, 0 <= j0 < 2 ^ 10 -> 0 <= j1 < 2 ^ 7 -> 0 <= j2 < 2 ^ 2 -> 0 <= j3 < 2 ^ 13 ->
  isw (j0 + j1 * 2 ^ 10 + j2 * 2 ^ 17 + j3 * 2 ^ 19) /\
  forall B, sas 32 B (j0 + j1 * 2 ^ 10 + j2 * 2 ^ 17 + j3 * 2 ^ 19) b_sizes =
    [numl B (lbits 14 j0); numl B (lbits 14 j1); numl B (lbits 14 j2); numl B (lbits 14 j3)].
Proof. word_tac 10 7 2 13 sas_b. Qed.
Lemma word_c : forall j0 j1 j2 j3, 0 <= j0 < 2 ^ 2 -> 0 <= j1 < 2 ^ 11 -> 0 <= j2 < 2 ^ 9 -> 0 <= j3 < 2 ^ 10 ->
  isw (j0 + j1 * 2 ^ 2 + j2 * 2 ^ 13 + j3 * 2 ^ 22) /\
  forall B, sas 32 B (j0 + j1 * 2 ^ 2 + j2 * 2 ^ 13 + j3 * 2 ^ 22) c_sizes =
    [numl B (lbits 14 j0); numl B (lbits 14 j1); numl B (lbits 14 j2); numl B (lbits 14 j3)].
Proof. word_tac 2 11 9 10 sas_c. Qed.
Lemma word_e : forall j0 j1 j2 j3, 0 <= j0 < 2 ^ 6 -> 0 <= j1 < 2 ^ 5 -> 0 <= j2 < 2 ^ 14 -> 0 <= j3 < 2 ^ 7 ->
  isw (j0 + j1 * 2 ^ 6 + j2 * 2 ^ 11 + j3 * 2 ^ 25) /\
  forall B, sas 32 B (j0 + j1 * 2 ^ 6 + j2 * 2 ^ 11 + j3 * 2 ^ 25) e_sizes =
    [numl B (lbits 14 j0); numl B (lbits 14 j1); numl B (lbits 14 j2); numl B (lbits 14 j3)].
Proof. word_tac 6 5 14 7 sas_e. Qed.

(** Conversely the chunks of a word. *)
Definition chunk (lo s a : Z) : Z := (a / 2 ^ lo) mod 2 ^ s.
Lemma chunk_range : forall lo s a, 0 <= s -> 0 <= chunk lo s a < 2 ^ s.
Proof. intros. apply Z.mod_pos_bound. apply Z.pow_pos_nonneg; lia. Qed.
Lemma chunk_split : forall lo s s' a, 0 <= lo -> 0 <= s -> 0 <= s' ->
  chunk lo (s + s') a = chunk lo s a + 2 ^ s * chunk (lo + s) s' a.
Proof.
  intros lo s s' a Hl Hs Hs'. unfold chunk. rewrite Z.pow_add_r by lia.
  rewrite Z.rem_mul_r by (try apply Z.pow_nonzero; try apply Z.pow_pos_nonneg; lia).
  rewrite Z.div_div by (try apply Z.pow_nonzero; try apply Z.pow_pos_nonneg; lia). rewrite <- Z.pow_add_r by lia. reflexivity.
Qed.
Lemma chunk_all : forall s0 s1 s2 s3 a, 0 <= s0 -> 0 <= s1 -> 0 <= s2 -> 0 <= s3 -> s0 + s1 + s2 + s3 = 32 -> isw a ->
  a = chunk 0 s0 a + chunk s0 s1 a * 2 ^ s0 + chunk (s0 + s1) s2 a * 2 ^ (s0 + s1) + chunk (s0 + s1 + s2) s3 a * 2 ^ (s0 + s1 + s2).
Proof.
  intros s0 s1 s2 s3 a H0 H1 H2 H3 E Ha. transitivity (chunk 0 32 a).
  - unfold chunk. rewrite Z.div_1_r. symmetry. apply Z.mod_small. exact Ha.
  - rewrite <- E. rewrite (chunk_split 0 (s0 + s1 + s2) s3), (chunk_split 0 (s0 + s1) s2), (chunk_split 0 s0 s1) by lia.
    rewrite !Z.add_0_l. rewrite !Z.pow_add_r by lia. ring.
Qed.

Definition parts (s0 s1 s2 s3 B a : Z) : list Z :=
  [numl B (lbits 14 (chunk 0 s0 a)); numl B (lbits 14 (chunk s0 s1 a)); numl B (lbits 14 (chunk (s0 + s1) s2 a));
   numl B (lbits 14 (chunk (s0 + s1 + s2) s3 a))].
Ltac parts_tac s0 s1 s2 s3 lem :=
  intros B a Ha; pose proof (chunk_all s0 s1 s2 s3 a ltac:(lia) ltac:(lia) ltac:(lia) ltac:(lia) eq_refl Ha) as E;
  rewrite E at 1; apply lem; apply chunk_range; lia.
Lemma parts_a : forall B a, isw a -> sas 32 B a a_sizes = parts 3 4 11 14 B a.
Proof. parts_tac 3 4 11 14 word_a. Qed.
Lemma parts_b : forall B a, isw a -> sas 32 B a b_sizes = parts 10 7 2 13 B a.
Proof. parts_tac 10 7 2 13 word_b. Qed.
Lemma parts_c : forall B a, isw a -> sas 32 B a c_sizes = parts 2 11 9 10 B a.
Proof. parts_tac 2 11 9 10 word_c. Qed.
Lemma parts_e : forall B a, isw a -> sas 32 B a e_sizes = parts 6 5 14 7 B a.
Proof. parts_tac 6 5 14 7 word_e. Qed.

Lemma parts2 : forall s0 s1 s2 s3 a, 0 <= s0 <= 14 -> 0 <= s1 <= 14 -> 0 <= s2 <= 14 -> 0 <= s3 <= 14 ->
  parts s0 s1 s2 s3 2 a = [chunk 0 s0 a; chunk s0 s1 a; chunk (s0 + s1) s2 a; chunk (s0 + s1 + s2) s3 a].
Proof.
  intros. unfold parts.
  assert (K : forall lo s, 0 <= s <= 14 -> numl 2 (lbits 14 (chunk lo s a)) = chunk lo s a).
  { intros lo s Hs. apply numl_lbits; [lia|]. pose proof (chunk_range lo s a ltac:(lia)).
    assert (2 ^ s <= 2 ^ 14) by (apply Z.pow_le_mono_r; lia). lia. }
  rewrite !K by assumption. reflexivity.
Qed.

(** ** Sparse sums *)

Definition img (f : Z -> Z) (B v : Z) : Z := numl 2 (map f (digs B 8 v)).
Lemma img_range : forall f B v, (forall d, 0 <= d < B -> 0 <= f d < 2) -> 0 < B -> 0 <= img f B v < 256.
Proof.
  intros f B v H HB. unfold img. assert (S : small 2 (map f (digs B 8 v))).
  { apply Forall_map. eapply Forall_impl; [|apply small_digs; exact HB]. exact H. }
  pose proof (numl_bound 2 _ ltac:(lia) S) as N. unfold zlen in N. rewrite map_length in N.
  change (Z.of_nat (length (digs B 8 v))) with (zlen (digs B 8 v)) in N. rewrite zlen_digs in N by lia. exact N.
Qed.
Lemma r_xor_range : forall d, 0 <= r_xor d < 2.
Proof. intros. unfold r_xor. change 1 with (Z.ones 1). rewrite Z.land_ones by lia. apply Z.mod_pos_bound. lia. Qed.
Lemma r_maj_range : forall d, 0 <= d < 4 -> 0 <= r_maj d < 2.
Proof. intros d H. assert (d = 0 \/ d = 1 \/ d = 2 \/ d = 3) as [->|[->|[->| ->]]] by lia; (split; [discriminate|reflexivity]). Qed.
Lemma r_ch_range : forall d, 0 <= d < 7 -> 0 <= r_ch d < 2.
Proof.
  intros d H. assert (d = 0 \/ d = 1 \/ d = 2 \/ d = 3 \/ d = 4 \/ d = 5 \/ d = 6) as [->|[->|[->|[->|[->|[->| ->]]]]]] by lia;
    (split; [discriminate|reflexivity]).
Qed.

Definition imgs (f : Z -> Z) (B v0 v1 v2 v3 : Z) : Z :=
  img f B v0 + img f B v1 * 2 ^ 8 + img f B v2 * 2 ^ 16 + img f B v3 * 2 ^ 24.

Lemma bits_facts : forall x, length (lbits 32 x) = 32%nat /\ small 2 (lbits 32 x).
Proof. intros. split; [apply len_bits|apply small_lbits]. Qed.

Definition fit8 (B v0 v1 v2 v3 : Z) : Prop := 0 <= v0 < B ^ 8 /\ 0 <= v1 < B ^ 8 /\ 0 <= v2 < B ^ 8 /\ 0 <= v3 < B ^ 8.
Definition wsum (B v0 v1 v2 v3 : Z) : Z := v0 + v1 * B ^ 8 + v2 * B ^ 16 + v3 * B ^ 24.
Lemma get_gen : forall f B D v0 v1 v2 v3, 1 < B -> length D = 32%nat -> small B D -> fit8 B v0 v1 v2 v3 ->
  wsum B v0 v1 v2 v3 = numl B D -> imgs f B v0 v1 v2 v3 = numl 2 (map f D).
Proof. intros f B D v0 v1 v2 v3 HB HD SD [H0 [H1 [H2 H3]]] E. apply bytes_join; assumption. Qed.
Lemma get_sigma0 : forall v0 v1 v2 v3 a, isw a -> fit8 4 v0 v1 v2 v3 -> wsum 4 v0 v1 v2 v3 = sp_sigma0 (sas 32 4 a a_sizes) ->
  imgs r_xor 4 v0 v1 v2 v3 = sha_s0 a.
Proof.
  intros v0 v1 v2 v3 a Ha Hv E. rewrite sas_a, sum_sigma0 in E by apply len_bits. destruct (bits_facts a) as [L S].
  rewrite <- val_s0 by exact Ha. apply get_gen; [reflexivity|apply (D_facts _ L S)..|exact Hv|exact E].
Qed.
Lemma get_sigma1 : forall v0 v1 v2 v3 a, isw a -> fit8 4 v0 v1 v2 v3 -> wsum 4 v0 v1 v2 v3 = sp_sigma1 (sas 32 4 a b_sizes) ->
  imgs r_xor 4 v0 v1 v2 v3 = sha_s1 a.
Proof.
  intros v0 v1 v2 v3 a Ha Hv E. rewrite sas_b, sum_sigma1 in E by apply len_bits. destruct (bits_facts a) as [L S].
  rewrite <- val_s1 by exact Ha. apply get_gen; [reflexivity|apply (D_facts _ L S)..|exact Hv|exact E].
Qed.
Lemma get_Sigma0 : forall v0 v1 v2 v3 a, isw a -> fit8 4 v0 v1 v2 v3 -> wsum 4 v0 v1 v2 v3 = sp_Sigma0 (sas 32 4 a c_sizes) ->
  imgs r_xor 4 v0 v1 v2 v3 = sha_S0 a.
Proof.
  intros v0 v1 v2 v3 a Ha Hv E. rewrite sas_c, sum_Sigma0 in E by apply len_bits. destruct (bits_facts a) as [L S].
  rewrite <- val_S0 by exact Ha. apply get_gen; [reflexivity|apply (D_facts _ L S)..|exact Hv|exact E].
Qed.
Lemma get_Sigma1 : forall v0 v1 v2 v3 a, isw a -> fit8 7 v0 v1 v2 v3 -> wsum 7 v0 v1 v2 v3 = sp_Sigma1 (sas 32 7 a e_sizes) ->
  imgs r_xor 7 v0 v1 v2 v3 = sha_S1 a.
Proof.
  intros v0 v1 v2 v3 a Ha Hv E. rewrite sas_e, sum_Sigma1 in E by apply len_bits. destruct (bits_facts a) as [L S].
  rewrite <- val_S1 by exact Ha. apply get_gen; [reflexivity|apply (D_facts _ L S)..|exact Hv|exact E].
Qed.
Lemma get_maj : forall v0 v1 v2 v3 x y z, isw x -> isw y -> isw z -> fit8 4 v0 v1 v2 v3 ->
  wsum 4 v0 v1 v2 v3 = numl 4 (lbits 32 x) + numl 4 (lbits 32 y) + numl 4 (lbits 32 z) -> imgs r_maj 4 v0 v1 v2 v3 = sha_maj x y z.
Proof.
  intros v0 v1 v2 v3 x y z X Y Z Hv E. rewrite <- numl_add3 in E by (rewrite !len_bits; reflexivity).
  destruct (maj_facts (lbits 32 x) (lbits 32 y) (lbits 32 z)) as [L Sm]; try apply len_bits; try apply small_lbits.
  rewrite <- val_maj by assumption. apply get_gen; [reflexivity|exact L|exact Sm|exact Hv|exact E].
Qed.
Lemma get_ch : forall v0 v1 v2 v3 x y z, isw x -> isw y -> isw z -> fit8 7 v0 v1 v2 v3 ->
  wsum 7 v0 v1 v2 v3 = numl 7 (lbits 32 x) + 2 * numl 7 (lbits 32 y) + 3 * numl 7 (lbits 32 z) -> imgs r_ch 7 v0 v1 v2 v3 = sha_ch x y z.
Proof.
  intros v0 v1 v2 v3 x y z X Y Z Hv E. rewrite <- numl_ch3 in E by (rewrite !len_bits; reflexivity).
  destruct (ch_facts (lbits 32 x) (lbits 32 y) (lbits 32 z)) as [L Sm]; try apply len_bits; try apply small_lbits.
  rewrite <- val_ch by assumption. apply get_gen; [reflexivity|exact L|exact Sm|exact Hv|exact E].
Qed.

(** The base-4 and base-7 value of a word from its chunks. *)
Lemma sparse_c : forall B a, numl B (lbits 32 a) =
  let l := sas 32 B a c_sizes in znth 0 l 0 + znth 0 l 1 * B ^ 2 + znth 0 l 2 * B ^ 13 + znth 0 l 3 * B ^ 22.
Proof.
  intros B a. rewrite sas_c. cbv zeta. nth4. pose proof (len_bits a) as L. revert L. generalize (lbits 32 a). intros l L. list32 l L.
  cbn -[Z.mul Z.add Z.pow]. ring.
Qed.
Lemma sparse_e : forall B a, numl B (lbits 32 a) =
  let l := sas 32 B a e_sizes in znth 0 l 0 + znth 0 l 1 * B ^ 6 + znth 0 l 2 * B ^ 11 + znth 0 l 3 * B ^ 25.
Proof.
  intros B a. rewrite sas_e. cbv zeta. nth4. pose proof (len_bits a) as L. revert L. generalize (lbits 32 a). intros l L. list32 l L.
  cbn -[Z.mul Z.add Z.pow]. ring.
Qed.

(** A chunk of fourteen bits whose base-7 value fits in six digits has six bits. *)
Lemma six_bits : forall B s j, 1 < B -> 0 <= s <= 14 -> 0 <= j < 2 ^ 14 -> numl B (lbits 14 j) < B ^ s -> 0 <= j < 2 ^ s.
Proof.
  intros B s j HB Hs Hj H. split; [lia|].
  assert (EL : lbits 14 j = lbits s j ++ map (fun i => Z.b2z (Z.testbit j i)) (zseq s 14)).
  { unfold lbits. rewrite (zseq_app 0 s 14), map_app by lia. reflexivity. }
  set (hi := map (fun i => Z.b2z (Z.testbit j i)) (zseq s 14)) in EL.
  assert (Sh : small 2 hi) by (apply Forall_map, Forall_forall; intros; apply b2z_range).
  rewrite EL, numl_app, zlen_lbits in H by lia.
  pose proof (numl_bound B (lbits s j) ltac:(lia) (small_le 2 B _ ltac:(lia) (small_lbits s j))) as [L0 _].
  pose proof (numl_bound B hi ltac:(lia) (small_le 2 B _ ltac:(lia) Sh)) as [L1 _].
  assert (Z0 : numl B hi = 0). { assert (0 < B ^ s) by (apply Z.pow_pos_nonneg; lia). nia. }
  assert (N2 : numl 2 hi = 0).
  { assert (G : forall l, small 2 l -> numl B l = 0 -> numl 2 l = 0).
    { clear -HB. intros l Sl. induction Sl as [|x l Hx Sl IH]; [reflexivity|]. cbn [numl fold_right]. fold (numl B l) (numl 2 l). intros E.
      pose proof (numl_bound B l ltac:(lia) (small_le 2 B _ ltac:(lia) Sl)) as [L _].
      assert (numl B l = 0) by nia. rewrite IH by assumption. lia. }
    apply G; assumption. }
  rewrite <- (numl_lbits 14 j) by lia. rewrite EL, numl_app, N2.
  pose proof (numl_bound 2 (lbits s j) ltac:(lia) (small_lbits s j)) as [_ U]. rewrite zlen_lbits in U by lia. lia.
Qed.

(** ** The honest decompositions *)

Definition chunks (f : Z -> Z) (B : Z) (D : list Z) : list (Z * Z) :=
  [(numl 2 (map f (sl 0 8 D)), numl B (sl 0 8 D)); (numl 2 (map f (sl 8 8 D)), numl B (sl 8 8 D));
   (numl 2 (map f (sl 16 8 D)), numl B (sl 16 8 D)); (numl 2 (map f (sl 24 8 D)), numl B (sl 24 8 D))].
Lemma zlen32 : forall (D : list Z), length D = 32%nat -> zlen D = 32.
Proof. intros D H. unfold zlen. rewrite H. reflexivity. Qed.
Lemma numl_bound32 : forall B D, 0 < B -> length D = 32%nat -> small B D -> 0 <= numl B D < B ^ 32.
Proof. intros B D HB HD SD. pose proof (numl_bound B D HB SD) as H. rewrite zlen32 in H by exact HD. exact H. Qed.
Lemma rss_D : forall f B D, 0 < B -> length D = 32%nat -> small B D -> rss f B (numl B D) sigma_sizes = chunks f B D.
Proof.
  intros f B D HB HD SD. rewrite rss_32 by (try apply numl_bound32; assumption). cbv zeta.
  rewrite digs_numl by (try assumption; try lia; apply zlen32; exact HD). reflexivity.
Qed.
Lemma join8_chunks : forall f B D, length D = 32%nat -> join8 (chunks f B D) = numl 2 (map f D).
Proof.
  intros f B D H. rewrite (numl_cut8 2 (map f D)) by (rewrite map_length; exact H). rewrite !sl_map. reflexivity.
Qed.
Lemma chunks_sum : forall f B D, length D = 32%nat ->
  at1 (chunks f B D) 0 + at1 (chunks f B D) 1 * B ^ 8 + at1 (chunks f B D) 2 * B ^ 16 + at1 (chunks f B D) 3 * B ^ 24 = numl B D.
Proof. intros f B D H. rewrite (numl_cut8 B D H). reflexivity. Qed.
Lemma chunk_pair : forall f B D k, 0 < B -> length D = 32%nat -> small B D -> 0 <= k < 4 ->
  0 <= at1 (chunks f B D) k < B ^ 8 /\ at0 (chunks f B D) k = img f B (at1 (chunks f B D) k).
Proof.
  intros f B D k HB HD SD Hk. destruct (cut8_len D HD) as [L0 [L1 [L2 L3]]].
  assert (G : forall l, small B l -> zlen l = 8 -> 0 <= numl B l < B ^ 8 /\ numl 2 (map f l) = img f B (numl B l)).
  { intros l Sl E. pose proof (numl_bound B l HB Sl) as N. rewrite E in N. split; [exact N|].
    unfold img. rewrite digs_numl by (assumption || lia). reflexivity. }
  assert (k = 0 \/ k = 1 \/ k = 2 \/ k = 3) as [->|[->|[->| ->]]] by lia; apply G; try (apply small_sl; exact SD); assumption.
Qed.

Section F.
Variable P : params.
Hypothesis big : 2 ^ 128 < char P.
Notation F := (F P).

Lemma zeq : forall a b, 0 <= a < 2 ^ 128 -> 0 <= b < 2 ^ 128 -> (ofZ a : F) = ofZ b -> a = b.
Proof. intros a b Ha Hb E. apply ofZ_inj in E. rewrite !Z.mod_small in E by lia. exact E. Qed.

Lemma sparse_row_iff : forall B (x y : F), sparse_row P B x y <->
  exists j, 0 <= j < 2 ^ 14 /\ x = ofZ j /\ y = ofZ (numl B (lbits 14 j)).
Proof.
  intros. unfold sparse_row. change 16384 with (2 ^ 14).
  split; intros [j [H [E E']]]; exists j; (split; [exact H|]);
    rewrite !sas_14 in *; change (znth 0 [?a] 0) with a in *.
  - change (znth 0 [numl 2 (lbits 14 j)] 0) with (numl 2 (lbits 14 j)) in E.
    change (znth 0 [numl B (lbits 14 j)] 0) with (numl B (lbits 14 j)) in E'. rewrite numl_lbits in E by lia. split; assumption.
  - change (znth 0 [numl 2 (lbits 14 j)] 0) with (numl 2 (lbits 14 j)).
    change (znth 0 [numl B (lbits 14 j)] 0) with (numl B (lbits 14 j)). rewrite numl_lbits by lia. split; assumption.
Qed.

Lemma first_iff : forall B (x : F), (exists y, sparse_row P B x y) <-> exists j, 0 <= j < 2 ^ 14 /\ x = ofZ j.
Proof.
  intros. split.
  - intros [y H]. apply sparse_row_iff in H. destruct H as [j [H [E _]]]. exists j. tauto.
  - intros [j [H E]]. exists (ofZ (numl B (lbits 14 j))). apply sparse_row_iff. exists j. tauto.
Qed.

Lemma rev4_iff : forall x y : F, reverse4_row P x y <-> exists v, 0 <= v < 4 ^ 8 /\ x = ofZ (img r_xor 4 v) /\ y = ofZ v.
Proof.
  intros. unfold reverse4_row. change 65536 with (4 ^ 8).
  split; intros [v [H E]]; exists v; (split; [exact H|]); rewrite rss_8 in * by (exact H || lia); exact E.
Qed.
Lemma maj_iff : forall x y : F, maj_row P x y <-> exists v, 0 <= v < 4 ^ 8 /\ x = ofZ (img r_maj 4 v) /\ y = ofZ v.
Proof.
  intros. unfold maj_row. change 65536 with (4 ^ 8).
  split; intros [v [H E]]; exists v; (split; [exact H|]); rewrite rss_8 in * by (exact H || lia); exact E.
Qed.
Lemma ch_iff : forall x y : F, ch_row P x y <-> exists v, 0 <= v < 7 ^ 8 /\ x = ofZ (img r_ch 7 v) /\ y = ofZ v.
Proof.
  intros. unfold ch_row. change 5764801 with (7 ^ 8).
  split; intros [v [H E]]; exists v; (split; [exact H|]); rewrite rss_8 in * by (exact H || lia); exact E.
Qed.
Lemma Sigma1_chunks : forall e, rss r_xor 7 (sp_Sigma1 (sas 32 7 e e_sizes)) sigma_sizes = chunks r_xor 7 (D_S1 (lbits 32 e)).
Proof.
  intros e. destruct (bits_facts e) as [L S]. rewrite sas_e, sum_Sigma1 by exact L. apply rss_D; [lia|apply (D_facts _ L S)..].
Qed.
Lemma rev7_sound : forall x y : F, reverse7_row P x y -> exists v, 0 <= v < 7 ^ 8 /\ x = ofZ (img r_xor 7 v) /\ y = ofZ v.
Proof.
  intros x y [i [k [Hi [Hk [E E']]]]]. rewrite Sigma1_chunks in *. destruct (bits_facts i) as [L S].
  destruct (chunk_pair r_xor 7 (D_S1 (lbits 32 i)) k) as [R V]; try lia; try apply (D_facts _ L S).
  exists (at1 (chunks r_xor 7 (D_S1 (lbits 32 i))) k). rewrite <- V. auto.
Qed.

(** A second lookup on a multiple bounds the chunk. *)
Lemma mult_bound : forall j k i, 0 <= j < 2 ^ 14 -> 0 <= k <= 2 ^ 14 -> 0 <= i < 2 ^ 14 -> fmul (ofZ j) (ofZ k) = (ofZ i : F) -> j * k < 2 ^ 14.
Proof.
  intros j k i Hj Hk Hi E. rewrite <- ofZ_mul in E. apply zeq in E; [lia| |lia].
  split; [nia|]. apply Z.le_lt_trans with (2 ^ 14 * 2 ^ 14); [nia|reflexivity].
Qed.

End F.
