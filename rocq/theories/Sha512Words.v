(** The logical functions of SHA-512 in terms of digit lists, and what the
    splitting functions compute on them.  Nothing here models code. *)
From Coq Require Import ZArith List Lia Bool.
From Verif Require Import Base Field Plonk Bits Sha512Spec Sha256Model Sha256Sparse Sha256Words Sha512Model.
Import ListNotations.
Open Scope Z_scope.

Definition isq (v : Z) : Prop := 0 <= v < w64.

Lemma isq_bits : forall v, isq v <-> 0 <= v /\ (forall i, 64 <= i -> Z.testbit v i = false).
Proof.
  intros v. unfold isq. change w64 with (2 ^ 64). split.
  - intros H. split; [lia|]. intros i Hi. destruct (Z.eq_dec v 0) as [->|N]; [apply Z.bits_0|].
    apply Z.bits_above_log2; [lia|]. assert (Z.log2 v < 64); [|lia]. apply Z.log2_lt_pow2; lia.
  - intros [H0 H]. split; [exact H0|]. assert (E : v = v mod 2 ^ 64).
    { apply Z.bits_inj'. intros i Hi. destruct (Z_lt_le_dec i 64) as [K|K].
      - rewrite Z.mod_pow2_bits_low by lia. reflexivity.
      - rewrite Z.mod_pow2_bits_high by lia. apply H. exact K. }
    rewrite E. apply Z.mod_pos_bound. lia.
Qed.

Lemma isq_pos : forall v, isq v -> 0 <= v.
Proof. intros v H. unfold isq in H. lia. Qed.
Lemma isq_high : forall v i, isq v -> 64 <= i -> Z.testbit v i = false.
Proof. intros v i H. apply isq_bits in H. apply H. Qed.
Lemma isq_mod : forall v, isq (v mod w64).
Proof. intros. apply Z.mod_pos_bound. reflexivity. Qed.
Lemma isq_lxor : forall a b, isq a -> isq b -> isq (Z.lxor a b).
Proof.
  intros a b A B. apply isq_bits. split; [apply Z.lxor_nonneg; pose proof (isq_pos _ A); pose proof (isq_pos _ B); tauto|].
  intros i Hi. rewrite Z.lxor_spec, !isq_high by assumption. reflexivity.
Qed.
Lemma isq_lor : forall a b, isq a -> isq b -> isq (Z.lor a b).
Proof.
  intros a b A B. apply isq_bits. split; [apply Z.lor_nonneg; pose proof (isq_pos _ A); pose proof (isq_pos _ B); tauto|].
  intros i Hi. rewrite Z.lor_spec, !isq_high by assumption. reflexivity.
Qed.
Lemma isq_land : forall a b, isq a -> 0 <= b -> isq (Z.land a b).
Proof.
  intros a b A B. apply isq_bits. split; [apply Z.land_nonneg; right; exact B|].
  intros i Hi. rewrite Z.land_spec, (isq_high a i) by assumption. reflexivity.
Qed.
Lemma isq_shr : forall n a, 0 <= n -> isq a -> isq (Z.shiftr a n).
Proof.
  intros n a Hn A. apply isq_bits. split; [apply Z.shiftr_nonneg, (isq_pos _ A)|].
  intros i Hi. rewrite Z.shiftr_spec by lia. apply isq_high; [exact A|lia].
Qed.
Lemma isq_rotr64 : forall n a, 0 <= n -> isq a -> isq (rotr64 n a).
Proof. intros. apply isq_lor; [apply isq_shr; assumption|apply isq_mod]. Qed.

Lemma rotr64_bit : forall n x i, 0 <= n < 64 -> isq x -> 0 <= i < 64 ->
  Z.testbit (rotr64 n x) i = Z.testbit x ((i + n) mod 64).
Proof.
  intros n x i Hn Hx Hi. unfold rotr64. rewrite Z.lor_spec, Z.shiftr_spec by lia.
  change w64 with (2 ^ 64). rewrite Z.mod_pow2_bits_low, Z.shiftl_spec by lia.
  destruct (Z_lt_le_dec (i + n) 64) as [K|K].
  - rewrite (Z.mod_small (i + n)) by lia. rewrite (Z.testbit_neg_r x (i - (64 - n))) by lia. apply orb_false_r.
  - rewrite (isq_high x (i + n)) by (try assumption; lia). cbn [orb]. f_equal.
    replace (i + n) with (i - (64 - n) + 1 * 64) by lia. rewrite Z.mod_add by lia. symmetry. apply Z.mod_small. lia.
Qed.

(** Rotation of the list of bits, for the rotation amounts in use. *)
Lemma lbits_rotr64 : forall n x, 0 <= n < 64 -> isq x ->
  lbits 64 (rotr64 n x) = map (fun i => Z.b2z (Z.testbit x ((i + n) mod 64))) (zseq 0 64).
Proof. intros n x Hn Hx. apply map_ext_in. intros i Hi. apply in_zseq in Hi. rewrite rotr64_bit by assumption. reflexivity. Qed.

Lemma lbits_shr64 : forall n x, 0 <= n -> lbits 64 (shr64 n x) = map (fun i => Z.b2z (Z.testbit x (i + n))) (zseq 0 64).
Proof. intros n x Hn. apply map_ext_in. intros i Hi. apply in_zseq in Hi. unfold shr64. rewrite Z.shiftr_spec by lia. reflexivity. Qed.

Lemma lbits_shr7 : forall x, isq x -> lbits 64 (shr64 7 x) = lshr 7 (lbits 64 x).
Proof.
  intros x Hx. rewrite lbits_shr64 by lia.
  replace (lshr 7 (lbits 64 x)) with (map (fun i => Z.b2z (Z.testbit x (i + 7))) (zseq 0 57) ++ repeat 0 7) by reflexivity.
  rewrite (zseq_app 0 57 64), map_app by lia. f_equal.
  change (zseq 57 64) with [57; 58; 59; 60; 61; 62; 63]. cbn [map]. rewrite !isq_high by (try assumption; lia). reflexivity.
Qed.
Lemma lbits_shr6 : forall x, isq x -> lbits 64 (shr64 6 x) = lshr 6 (lbits 64 x).
Proof.
  intros x Hx. rewrite lbits_shr64 by lia.
  replace (lshr 6 (lbits 64 x)) with (map (fun i => Z.b2z (Z.testbit x (i + 6))) (zseq 0 58) ++ repeat 0 6) by reflexivity.
  rewrite (zseq_app 0 58 64), map_app by lia. f_equal.
  change (zseq 58 64) with [58; 59; 60; 61; 62; 63]. cbn [map]. rewrite !isq_high by (try assumption; lia). reflexivity.
Qed.

Lemma lbits_maj5 : forall n a b c, lbits n (s5_maj a b c) = map r_maj (add3 (lbits n a) (lbits n b) (lbits n c)).
Proof.
  intros. unfold add3. rewrite map_zip3. unfold lbits. rewrite zip3_map. apply map_ext. intros i.
  unfold s5_maj. rewrite !Z.lxor_spec, !Z.land_spec. destruct (Z.testbit a i), (Z.testbit b i), (Z.testbit c i); reflexivity.
Qed.
Lemma not_bit64 : forall x i, isq x -> 0 <= i < 64 -> Z.testbit (w64 - 1 - x) i = negb (Z.testbit x i).
Proof.
  intros x i Hx Hi. change (w64 - 1) with (Z.ones 64).
  rewrite Z.sub_nocarry_ldiff.
  - rewrite Z.ldiff_spec, Z.ones_spec_low by lia. reflexivity.
  - apply Z.bits_inj'. intros j Hj. rewrite Z.ldiff_spec, Z.bits_0. destruct (Z_lt_le_dec j 64) as [K|K].
    + rewrite Z.ones_spec_low by lia. apply andb_false_r.
    + rewrite (isq_high x j) by assumption. reflexivity.
Qed.
Lemma lbits_ch5 : forall a b c, isq a -> lbits 64 (s5_ch a b c) = map r_ch (ch3 (lbits 64 a) (lbits 64 b) (lbits 64 c)).
Proof.
  intros a b c Ha. unfold ch3. rewrite map_zip3. unfold lbits. rewrite zip3_map. apply map_ext_in. intros i Hi. apply in_zseq in Hi.
  unfold s5_ch. rewrite !Z.lxor_spec, !Z.land_spec, not_bit64 by assumption.
  destruct (Z.testbit a i), (Z.testbit b i), (Z.testbit c i); reflexivity.
Qed.

Lemma isq_s0 : forall x, isq x -> isq (s5_s0 x).
Proof. intros. repeat apply isq_lxor; try (apply isq_rotr64; [lia|assumption]). apply isq_shr; [lia|assumption]. Qed.
Lemma isq_s1 : forall x, isq x -> isq (s5_s1 x).
Proof. intros. repeat apply isq_lxor; try (apply isq_rotr64; [lia|assumption]). apply isq_shr; [lia|assumption]. Qed.
Lemma isq_S0 : forall x, isq x -> isq (s5_S0 x).
Proof. intros. repeat apply isq_lxor; apply isq_rotr64; try lia; assumption. Qed.
Lemma isq_S1 : forall x, isq x -> isq (s5_S1 x).
Proof. intros. repeat apply isq_lxor; apply isq_rotr64; try lia; assumption. Qed.
Lemma isq_maj : forall x y z, isq x -> isq y -> isq z -> isq (s5_maj x y z).
Proof. intros. repeat apply isq_lxor; apply isq_land; try assumption; apply isq_pos; assumption. Qed.
Lemma isq_ch : forall x y z, isq x -> isq y -> isq z -> isq (s5_ch x y z).
Proof.
  intros x y z X Y Z. apply isq_lxor; apply isq_land; try (apply isq_pos; assumption); [assumption|].
  unfold isq in *. lia.
Qed.

Lemma numl_isq : forall x l, isq x -> lbits 64 x = l -> numl 2 l = x.
Proof. intros x l H <-. apply numl_lbits; [lia|exact H]. Qed.

(** The digit sums of each function, and its value. *)
Definition E_s0 (l : list Z) : list Z := add3 (lrot 1 l) (lrot 8 l) (lshr 7 l).
Definition E_s1 (l : list Z) : list Z := add3 (lrot 19 l) (lrot 61 l) (lshr 6 l).
Definition E_S0 (l : list Z) : list Z := add3 (lrot 28 l) (lrot 34 l) (lrot 39 l).
Definition E_S1 (l : list Z) : list Z := add3 (lrot 14 l) (lrot 18 l) (lrot 41 l).

Lemma val5_s0 : forall x, isq x -> numl 2 (map r_xor (E_s0 (lbits 64 x))) = s5_s0 x.
Proof.
  intros x H. apply numl_isq; [apply isq_s0; exact H|]. unfold s5_s0. rewrite lbits_xor3, !lbits_rotr64, lbits_shr7 by (try assumption; lia). reflexivity.
Qed.
Lemma val5_s1 : forall x, isq x -> numl 2 (map r_xor (E_s1 (lbits 64 x))) = s5_s1 x.
Proof.
  intros x H. apply numl_isq; [apply isq_s1; exact H|]. unfold s5_s1. rewrite lbits_xor3, !lbits_rotr64, lbits_shr6 by (try assumption; lia). reflexivity.
Qed.
Lemma val5_S0 : forall x, isq x -> numl 2 (map r_xor (E_S0 (lbits 64 x))) = s5_S0 x.
Proof.
  intros x H. apply numl_isq; [apply isq_S0; exact H|]. unfold s5_S0. rewrite lbits_xor3, !lbits_rotr64 by (try assumption; lia). reflexivity.
Qed.
Lemma val5_S1 : forall x, isq x -> numl 2 (map r_xor (E_S1 (lbits 64 x))) = s5_S1 x.
Proof.
  intros x H. apply numl_isq; [apply isq_S1; exact H|]. unfold s5_S1. rewrite lbits_xor3, !lbits_rotr64 by (try assumption; lia). reflexivity.
Qed.
Lemma val5_maj : forall x y z, isq x -> isq y -> isq z ->
  numl 2 (map r_maj (add3 (lbits 64 x) (lbits 64 y) (lbits 64 z))) = s5_maj x y z.
Proof. intros. apply numl_isq; [apply isq_maj; assumption|apply lbits_maj5]. Qed.
Lemma val5_ch : forall x y z, isq x -> isq y -> isq z ->
  numl 2 (map r_ch (ch3 (lbits 64 x) (lbits 64 y) (lbits 64 z))) = s5_ch x y z.
Proof. intros. apply numl_isq; [apply isq_ch; assumption|apply lbits_ch5; assumption]. Qed.

Lemma len_bits64 : forall x, length (lbits 64 x) = 64%nat.
Proof. intros. unfold lbits. rewrite map_length, zseq_length. reflexivity. Qed.
Lemma zip3_length : forall n f a b c, length a = n -> length b = n -> length c = n -> length (zip3 f a b c) = n.
Proof.
  induction n as [|n IH]; intros f [|x a] [|y b] [|z c] A B C; try discriminate; [reflexivity|].
  cbn in *. f_equal. apply IH; congruence.
Qed.
Lemma lrot_length : forall m n l, length l = m -> (n <= m)%nat -> length (lrot n l) = m.
Proof. intros m n l H Hn. unfold lrot. rewrite app_length, skipn_length, firstn_length, H. lia. Qed.
Lemma lshr_length : forall m n l, length l = m -> (n <= m)%nat -> length (lshr n l) = m.
Proof. intros m n l H Hn. unfold lshr. rewrite app_length, skipn_length, repeat_length, H. lia. Qed.
Lemma E_facts : forall l, length l = 64%nat -> small 2 l ->
  (length (E_s0 l) = 64%nat /\ small 4 (E_s0 l)) /\ (length (E_s1 l) = 64%nat /\ small 4 (E_s1 l)) /\
  (length (E_S0 l) = 64%nat /\ small 4 (E_S0 l)) /\ (length (E_S1 l) = 64%nat /\ small 7 (E_S1 l)).
Proof.
  intros l H S. unfold E_s0, E_s1, E_S0, E_S1, add3.
  repeat split; try (apply zip3_length; first [apply lrot_length | apply lshr_length]; (exact H || lia));
    (eapply (small_zip3 2); [intros; lia| | |]; first [apply small_lrot | apply small_lshr; [lia|]]; exact S).
Qed.

(** ** Segments of the bits of a word *)
Definition seg (x lo hi : Z) : list Z := map (fun i => Z.b2z (Z.testbit x i)) (zseq lo hi).
Definition sn (B x lo hi : Z) : Z := numl B (seg x lo hi).

Lemma seg_app : forall x a b c, a <= b <= c -> seg x a c = seg x a b ++ seg x b c.
Proof. intros. unfold seg. rewrite (zseq_app a b c), map_app by lia. reflexivity. Qed.
Lemma zlen_seg : forall x a b, a <= b -> zlen (seg x a b) = b - a.
Proof. intros. unfold zlen, seg. rewrite map_length, zseq_length. lia. Qed.
Lemma small_seg : forall x a b, small 2 (seg x a b).
Proof. intros. apply Forall_forall. intros d Hd. apply in_map_iff in Hd. destruct Hd as [i [<- _]]. destruct (Z.testbit x i); cbn; lia. Qed.
Lemma sn_split : forall B x b a c, a <= b <= c -> sn B x a c = sn B x a b + B ^ (b - a) * sn B x b c.
Proof. intros. unfold sn. rewrite (seg_app x a b c), numl_app, zlen_seg by lia. reflexivity. Qed.
Lemma sn_bound : forall B x a b, 2 <= B -> a <= b -> 0 <= sn B x a b < B ^ (b - a).
Proof.
  intros B x a b HB H. unfold sn. rewrite <- (zlen_seg x a b) by lia. apply numl_bound; [lia|].
  apply (small_le 2); [lia|apply small_seg].
Qed.
Lemma sn_word : forall x, isq x -> sn 2 x 0 64 = x.
Proof. intros x H. apply (numl_lbits 64); [lia|exact H]. Qed.

Lemma skipn_at : forall (a b : list Z), skipn (length a) (a ++ b) = b.
Proof. intros. rewrite skipn_app, skipn_all, Nat.sub_diag. reflexivity. Qed.
Lemma firstn_at : forall (a b : list Z), firstn (length a) (a ++ b) = a.
Proof. intros. rewrite firstn_app, firstn_all, Nat.sub_diag. cbn [firstn]. apply app_nil_r. Qed.
Lemma sn_lrot : forall B x n, (n <= 64)%nat ->
  numl B (lrot n (lbits 64 x)) = sn B x (Z.of_nat n) 64 + B ^ (64 - Z.of_nat n) * sn B x 0 (Z.of_nat n).
Proof.
  intros B x n Hn. assert (E : lbits 64 x = seg x 0 (Z.of_nat n) ++ seg x (Z.of_nat n) 64) by (apply (seg_app x 0 (Z.of_nat n) 64); lia).
  assert (L : length (seg x 0 (Z.of_nat n)) = n) by (unfold seg; rewrite map_length, zseq_length; lia).
  unfold lrot. rewrite E. pose proof (skipn_at (seg x 0 (Z.of_nat n)) (seg x (Z.of_nat n) 64)) as S.
  pose proof (firstn_at (seg x 0 (Z.of_nat n)) (seg x (Z.of_nat n) 64)) as G. rewrite L in S, G. rewrite S, G.
  rewrite numl_app, zlen_seg by lia. reflexivity.
Qed.
Lemma numl_repeat0 : forall B n, numl B (repeat 0 n) = 0.
Proof. intros B n. induction n as [|n IH]; [reflexivity|]. cbn. unfold numl in IH. rewrite IH. lia. Qed.
Lemma sn_lshr : forall B x n, (n <= 64)%nat -> numl B (lshr n (lbits 64 x)) = sn B x (Z.of_nat n) 64.
Proof.
  intros B x n Hn. assert (E : lbits 64 x = seg x 0 (Z.of_nat n) ++ seg x (Z.of_nat n) 64) by (apply (seg_app x 0 (Z.of_nat n) 64); lia).
  assert (L : length (seg x 0 (Z.of_nat n)) = n) by (unfold seg; rewrite map_length, zseq_length; lia).
  unfold lshr. rewrite E. pose proof (skipn_at (seg x 0 (Z.of_nat n)) (seg x (Z.of_nat n) 64)) as S. rewrite L in S. rewrite S.
  rewrite numl_app, numl_repeat0. unfold sn. lia.
Qed.

(** ** What [split_and_sparse] computes *)
Lemma sas_qa : forall B x, sas 64 B x q_a_sizes =
  [sn B x 0 1; sn B x 1 7; sn B x 7 8; sn B x 8 22; sn B x 22 36; sn B x 36 50; sn B x 50 64].
Proof. intros. unfold q_a_sizes, sas. rewrite !horner_numl. reflexivity. Qed.
Lemma sas_qb : forall B x, sas 64 B x q_b_sizes =
  [sn B x 0 6; sn B x 6 19; sn B x 19 33; sn B x 33 47; sn B x 47 61; sn B x 61 64].
Proof. intros. unfold q_b_sizes, sas. rewrite !horner_numl. reflexivity. Qed.
Lemma sas_qe : forall B x, sas 64 B x q_e_sizes =
  [sn B x 0 14; sn B x 14 18; sn B x 18 32; sn B x 32 41; sn B x 41 55; sn B x 55 64].
Proof. intros. unfold q_e_sizes, sas. rewrite !horner_numl. reflexivity. Qed.
Lemma sas_qc : forall B x, sas 64 B x q_c_sizes =
  [sn B x 0 14; sn B x 14 28; sn B x 28 34; sn B x 34 39; sn B x 39 53; sn B x 53 64].
Proof. intros. unfold q_c_sizes, sas. rewrite !horner_numl. reflexivity. Qed.
Lemma sparse64_eq : forall B x, sparse64 B x = sn B x 0 64.
Proof. intros. unfold sparse64, sas. rewrite !horner_numl. reflexivity. Qed.

Lemma add3_rots : forall B f g h, length f = 64%nat -> length g = 64%nat -> length h = 64%nat ->
  numl B (add3 f g h) = numl B f + numl B g + numl B h.
Proof. intros. apply numl_add3; congruence. Qed.

Ltac nths := repeat match goal with |- context [znth 0 (?a :: ?l) ?k] =>
  let v := eval cbv [znth nth_error nth Z.to_nat Pos.to_nat Pos.iter_op Nat.add Z.ltb Z.compare] in (znth 0 (a :: l) k) in
  change (znth 0 (a :: l) k) with v end.
(** Cut every segment of [x] that contains the boundary [b]. *)
Ltac cut x b := repeat match goal with |- context [sn ?B x ?lo ?hi] =>
  match eval vm_compute in ((lo <? b) && (b <? hi)) with true =>
    rewrite (sn_split B x b lo hi) by lia end end.
Ltac pows := repeat match goal with |- context [?b ^ (?x - ?y)] =>
  let k := eval vm_compute in (x - y) in change (x - y) with k end.
Ltac rots x := rewrite add3_rots by (first [apply lrot_length | apply lshr_length]; [apply len_bits64|lia]);
  rewrite ?sn_lrot, ?sn_lshr by lia;
  repeat match goal with |- context [Z.of_nat ?n] => let k := eval vm_compute in (Z.of_nat n) in change (Z.of_nat n) with k end.

Lemma sum_s0 : forall x, q_sp_s0 (sas 64 4 x q_a_sizes) = numl 4 (E_s0 (lbits 64 x)).
Proof.
  intros x. rewrite sas_qa. unfold q_sp_s0. nths. unfold E_s0. rots x.
  cut x 1; cut x 7; cut x 8; cut x 22; cut x 36; cut x 50. pows. ring.
Qed.
Lemma sum_s1 : forall x, q_sp_s1 (sas 64 4 x q_b_sizes) = numl 4 (E_s1 (lbits 64 x)).
Proof.
  intros x. rewrite sas_qb. unfold q_sp_s1. nths. unfold E_s1. rots x.
  cut x 6; cut x 19; cut x 33; cut x 47; cut x 61. pows. ring.
Qed.
Lemma sum_S1 : forall x, q_sp_S1 (sas 64 7 x q_e_sizes) = numl 7 (E_S1 (lbits 64 x)).
Proof.
  intros x. rewrite sas_qe. unfold q_sp_S1. nths. unfold E_S1. rots x.
  cut x 14; cut x 18; cut x 32; cut x 41; cut x 55. pows. ring.
Qed.
Lemma sum_S0 : forall x, q_sp_S0 (sas 64 4 x q_c_sizes) = numl 4 (E_S0 (lbits 64 x)).
Proof.
  intros x. rewrite sas_qc. unfold q_sp_S0. nths. unfold E_S0. rots x.
  cut x 14; cut x 28; cut x 34; cut x 39; cut x 53. pows. ring.
Qed.

(** The chunks add up to the word. *)
Lemma parts_qa : forall x, isq x -> let l := sas 64 2 x q_a_sizes in
  x = znth 0 l 0 + znth 0 l 1 * 2 ^ 1 + znth 0 l 2 * 2 ^ 7 + znth 0 l 3 * 2 ^ 8 + znth 0 l 4 * 2 ^ 22 + znth 0 l 5 * 2 ^ 36 + znth 0 l 6 * 2 ^ 50.
Proof.
  intros x Hx. cbv zeta. rewrite sas_qa. nths. rewrite <- (sn_word x Hx) at 1.
  cut x 1; cut x 7; cut x 8; cut x 22; cut x 36; cut x 50. pows. ring.
Qed.
Lemma parts_qb : forall x, isq x -> let l := sas 64 2 x q_b_sizes in
  x = znth 0 l 0 + znth 0 l 1 * 2 ^ 6 + znth 0 l 2 * 2 ^ 19 + znth 0 l 3 * 2 ^ 33 + znth 0 l 4 * 2 ^ 47 + znth 0 l 5 * 2 ^ 61.
Proof.
  intros x Hx. cbv zeta. rewrite sas_qb. nths. rewrite <- (sn_word x Hx) at 1.
  cut x 6; cut x 19; cut x 33; cut x 47; cut x 61. pows. ring.
Qed.
Lemma parts_qe : forall B x, let l := sas 64 B x q_e_sizes in
  sn B x 0 64 = znth 0 l 0 + znth 0 l 1 * B ^ 14 + znth 0 l 2 * B ^ 18 + znth 0 l 3 * B ^ 32 + znth 0 l 4 * B ^ 41 + znth 0 l 5 * B ^ 55.
Proof.
  intros B x. cbv zeta. rewrite sas_qe. nths. cut x 14; cut x 18; cut x 32; cut x 41; cut x 55. pows.
  change 55 with (14 + (4 + (14 + (9 + 14)))). change 41 with (14 + (4 + (14 + 9))). change 32 with (14 + (4 + 14)).
  change 18 with (14 + 4). rewrite !Z.pow_add_r by lia. ring.
Qed.
Lemma parts_qc : forall B x, let l := sas 64 B x q_c_sizes in
  sn B x 0 64 = znth 0 l 0 + znth 0 l 1 * B ^ 14 + znth 0 l 2 * B ^ 28 + znth 0 l 3 * B ^ 34 + znth 0 l 4 * B ^ 39 + znth 0 l 5 * B ^ 53.
Proof.
  intros B x. cbv zeta. rewrite sas_qc. nths. cut x 14; cut x 28; cut x 34; cut x 39; cut x 53. pows.
  change 53 with (14 + (14 + (6 + (5 + 14)))). change 39 with (14 + (14 + (6 + 5))). change 34 with (14 + (14 + 6)).
  change 28 with (14 + 14). rewrite !Z.pow_add_r by lia. ring.
Qed.
Lemma bits_qa : forall x, 0 <= znth 0 (sas 64 2 x q_a_sizes) 0 < 2 /\ 0 <= znth 0 (sas 64 2 x q_a_sizes) 2 < 2.
Proof. intros x. rewrite sas_qa. nths. split; [exact (sn_bound 2 x 0 1 ltac:(lia) ltac:(lia))|exact (sn_bound 2 x 7 8 ltac:(lia) ltac:(lia))]. Qed.
Lemma top_qb : forall x, 0 <= znth 0 (sas 64 2 x q_b_sizes) 5 < 8.
Proof. intros x. rewrite sas_qb. nths. exact (sn_bound 2 x 61 64 ltac:(lia) ltac:(lia)). Qed.

(** ** What [reversed_sparse_and_split] computes *)
Definition dn (B v lo hi : Z) : Z := numl B (dseg B v lo hi).
Definition dm (f : Z -> Z) (B v lo hi : Z) : Z := numl 2 (map f (dseg B v lo hi)).
Lemma rss_5 : forall f B v, 0 < B -> 0 <= v < B ^ 64 -> rss f B v q_sizes =
  [(dm f B v 0 14, dn B v 0 14); (dm f B v 14 28, dn B v 14 28); (dm f B v 28 42, dn B v 28 42);
   (dm f B v 42 56, dn B v 42 56); (dm f B v 56 64, dn B v 56 64)].
Proof.
  intros f B v HB Hv. unfold rss, q_sizes. cbn [rev app rss_loop zsum fold_right].
  change (Z.to_nat 8) with 8%nat. change (Z.to_nat 14) with 14%nat. change (14 + (14 + (14 + (14 + (8 + 0)))) - 1) with (64 - 1).
  replace v with (v mod B ^ 64) at 1 by (apply Z.mod_small; exact Hv).
  rewrite rss_digits_mod by (cbn; lia). change (64 - Z.of_nat 8) with 56.
  change (64 - 1 - 8) with (56 - 1). rewrite rss_digits_mod by (cbn; lia). change (56 - Z.of_nat 14) with 42.
  change (56 - 1 - 14) with (42 - 1). rewrite rss_digits_mod by (cbn; lia). change (42 - Z.of_nat 14) with 28.
  change (42 - 1 - 14) with (28 - 1). rewrite rss_digits_mod by (cbn; lia). change (28 - Z.of_nat 14) with 14.
  change (28 - 1 - 14) with (14 - 1). rewrite rss_digits_mod by (cbn; lia). reflexivity.
Qed.
Lemma rss_4 : forall f B v, 0 < B -> 0 <= v < B ^ 64 -> rss f B v q_cm_sizes =
  [(dm f B v 0 16, dn B v 0 16); (dm f B v 16 32, dn B v 16 32); (dm f B v 32 48, dn B v 32 48); (dm f B v 48 64, dn B v 48 64)].
Proof.
  intros f B v HB Hv. unfold rss, q_cm_sizes. cbn [rev app rss_loop zsum fold_right].
  change (Z.to_nat 16) with 16%nat. change (16 + (16 + (16 + (16 + 0))) - 1) with (64 - 1).
  replace v with (v mod B ^ 64) at 1 by (apply Z.mod_small; exact Hv).
  rewrite rss_digits_mod by (cbn; lia). change (64 - Z.of_nat 16) with 48.
  change (64 - 1 - 16) with (48 - 1). rewrite rss_digits_mod by (cbn; lia). change (48 - Z.of_nat 16) with 32.
  change (48 - 1 - 16) with (32 - 1). rewrite rss_digits_mod by (cbn; lia). change (32 - Z.of_nat 16) with 16.
  change (32 - 1 - 16) with (16 - 1). rewrite rss_digits_mod by (cbn; lia). reflexivity.
Qed.
Lemma dn_split : forall B v b a c, a <= b <= c -> dn B v a c = dn B v a b + B ^ (b - a) * dn B v b c.
Proof. intros. unfold dn, dseg. rewrite (zseq_app a b c), map_app, numl_app by lia. fold (dseg B v a b). rewrite zlen_dseg by lia. reflexivity. Qed.
Lemma dm_split : forall f B v b a c, a <= b <= c -> dm f B v a c = dm f B v a b + 2 ^ (b - a) * dm f B v b c.
Proof.
  intros. unfold dm, dseg. rewrite (zseq_app a b c), !map_app, numl_app by lia. fold (dseg B v a b).
  replace (zlen (map f (dseg B v a b))) with (b - a); [reflexivity|]. unfold zlen. rewrite map_length. symmetry. apply zlen_dseg. lia.
Qed.

(** What the constraints need from the two lists of chunks. *)
Record five_ok (B v r : Z) (l : list (Z * Z)) : Prop := {
  f5_sum : at1 l 0 + at1 l 1 * B ^ 14 + at1 l 2 * B ^ 28 + at1 l 3 * B ^ 42 + at1 l 4 * B ^ 56 = v;
  f5_join : q_join l = r }.
Record four_ok (B v r : Z) (l : list (Z * Z)) : Prop := {
  f4_sum : at1 l 0 + at1 l 1 * B ^ 16 + at1 l 2 * B ^ 32 + at1 l 3 * B ^ 48 = v;
  f4_join : q_join4 l = r }.
Ltac ats := unfold at0, at1; repeat match goal with |- context [znth ?d (?a :: ?l) ?k] =>
  let v := eval cbv [znth nth_error nth Z.to_nat Pos.to_nat Pos.iter_op Nat.add Z.ltb Z.compare] in (znth d (a :: l) k) in
  change (znth d (a :: l) k) with v end; cbn [fst snd].
Lemma five_rss : forall f B D, 1 < B -> length D = 64%nat -> small B D ->
  five_ok B (numl B D) (numl 2 (map f D)) (rss f B (numl B D) q_sizes).
Proof.
  intros f B D HB HD SD. assert (LD : zlen D = 64) by (unfold zlen; rewrite HD; reflexivity).
  assert (Bd := numl_bound B D ltac:(lia) SD). rewrite LD in Bd. set (v := numl B D) in *.
  assert (ED : digs B 64 v = D) by (apply digs_numl; (lia || assumption)).
  rewrite rss_5 by (lia || assumption). constructor.
  - ats. transitivity (dn B v 0 64); [|unfold dn; change (dseg B v 0 64) with (digs B 64 v); rewrite ED; reflexivity].
    rewrite (dn_split B v 14 0 64), (dn_split B v 28 14 64), (dn_split B v 42 28 64), (dn_split B v 56 42 64) by lia. pows.
    change 56 with (14 + (14 + (14 + 14))). change 42 with (14 + (14 + 14)). change 28 with (14 + 14). rewrite !Z.pow_add_r by lia. ring.
  - unfold q_join. ats. transitivity (dm f B v 0 64); [|unfold dm; change (dseg B v 0 64) with (digs B 64 v); rewrite ED; reflexivity].
    rewrite (dm_split f B v 14 0 64), (dm_split f B v 28 14 64), (dm_split f B v 42 28 64), (dm_split f B v 56 42 64) by lia. pows. ring.
Qed.
Lemma four_rss : forall f B D, 1 < B -> length D = 64%nat -> small B D ->
  four_ok B (numl B D) (numl 2 (map f D)) (rss f B (numl B D) q_cm_sizes).
Proof.
  intros f B D HB HD SD. assert (LD : zlen D = 64) by (unfold zlen; rewrite HD; reflexivity).
  assert (Bd := numl_bound B D ltac:(lia) SD). rewrite LD in Bd. set (v := numl B D) in *.
  assert (ED : digs B 64 v = D) by (apply digs_numl; (lia || assumption)).
  rewrite rss_4 by (lia || assumption). constructor.
  - ats. transitivity (dn B v 0 64); [|unfold dn; change (dseg B v 0 64) with (digs B 64 v); rewrite ED; reflexivity].
    rewrite (dn_split B v 16 0 64), (dn_split B v 32 16 64), (dn_split B v 48 32 64) by lia. pows.
    change 48 with (16 + (16 + 16)). change 32 with (16 + 16). rewrite !Z.pow_add_r by lia. ring.
  - unfold q_join4. ats. transitivity (dm f B v 0 64); [|unfold dm; change (dseg B v 0 64) with (digs B 64 v); rewrite ED; reflexivity].
    rewrite (dm_split f B v 16 0 64), (dm_split f B v 32 16 64), (dm_split f B v 48 32 64) by lia. pows. ring.
Qed.

Lemma ok_s0 : forall x, isq x -> five_ok 4 (q_sp_s0 (sas 64 4 x q_a_sizes)) (s5_s0 x) (q_s0_of x).
Proof.
  intros x Hx. unfold q_s0_of. rewrite sum_s0, <- val5_s0 by exact Hx.
  apply five_rss; [lia|apply (E_facts _ (len_bits64 x) (small_lbits 64 x))..].
Qed.
Lemma ok_s1 : forall x, isq x -> five_ok 4 (q_sp_s1 (sas 64 4 x q_b_sizes)) (s5_s1 x) (q_s1_of x).
Proof.
  intros x Hx. unfold q_s1_of. rewrite sum_s1, <- val5_s1 by exact Hx.
  apply five_rss; [lia|apply (E_facts _ (len_bits64 x) (small_lbits 64 x))..].
Qed.
Lemma ok_S0 : forall x, isq x -> five_ok 4 (q_sp_S0 (sas 64 4 x q_c_sizes)) (s5_S0 x) (q_S0_of x).
Proof.
  intros x Hx. unfold q_S0_of. rewrite sum_S0, <- val5_S0 by exact Hx.
  apply five_rss; [lia|apply (E_facts _ (len_bits64 x) (small_lbits 64 x))..].
Qed.
Lemma bound_S1 : forall x, 0 <= q_sp_S1 (sas 64 7 x q_e_sizes) < 7 ^ 64.
Proof.
  intros x. rewrite sum_S1. destruct (E_facts _ (len_bits64 x) (small_lbits 64 x)) as [_ [_ [_ [L S]]]].
  pose proof (numl_bound 7 _ ltac:(lia) S) as B. unfold zlen in B. rewrite L in B. exact B.
Qed.
Lemma f5_sum4 : forall v r l, five_ok 4 v r l ->
  at1 l 0 + at1 l 1 * 2 ^ 28 + at1 l 2 * 2 ^ 56 + at1 l 3 * 2 ^ 84 + at1 l 4 * 2 ^ 112 = v.
Proof. intros v r l H. rewrite <- (f5_sum _ _ _ _ H). generalize (at1 l 0), (at1 l 1), (at1 l 2), (at1 l 3), (at1 l 4). intros. ring. Qed.
Lemma f4_sum4 : forall v r l, four_ok 4 v r l ->
  at1 l 0 + at1 l 1 * 2 ^ 32 + at1 l 2 * 2 ^ 64 + at1 l 3 * 2 ^ 96 = v.
Proof. intros v r l H. rewrite <- (f4_sum _ _ _ _ H). generalize (at1 l 0), (at1 l 1), (at1 l 2), (at1 l 3). intros. ring. Qed.
