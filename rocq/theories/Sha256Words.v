(** The logical functions of SHA-256 in terms of digit lists.  Nothing here
    models code. *)
From Coq Require Import ZArith List Lia Bool.
From Verif Require Import Base Field Plonk Bits Sha256Spec Sha256Model Sha256Sparse.
Import ListNotations.
Open Scope Z_scope.

Definition isw (v : Z) : Prop := 0 <= v < w32.

Lemma isw_bits : forall v, isw v <-> 0 <= v /\ (forall i, 32 <= i -> Z.testbit v i = false).
Proof.
  intros v. unfold isw. change w32 with (2 ^ 32). split.
  - intros H. split; [lia|]. intros i Hi. destruct (Z.eq_dec v 0) as [->|N]; [apply Z.bits_0|].
    apply Z.bits_above_log2; [lia|]. assert (Z.log2 v < 32); [|lia]. apply Z.log2_lt_pow2; lia.
  - intros [H0 H]. split; [exact H0|]. assert (E : v = v mod 2 ^ 32).
    { apply Z.bits_inj'. intros i Hi. destruct (Z_lt_le_dec i 32) as [K|K].
      - rewrite Z.mod_pow2_bits_low by lia. reflexivity.
      - rewrite Z.mod_pow2_bits_high by lia. apply H. exact K. }
    rewrite E. apply Z.mod_pos_bound. lia.
Qed.

Lemma isw_pos : forall v, isw v -> 0 <= v.
Proof. intros v H. unfold isw in H. lia. Qed.
Lemma isw_high : forall v i, isw v -> 32 <= i -> Z.testbit v i = false.
Proof. intros v i H. apply isw_bits in H. apply H. Qed.
Lemma isw_mod : forall v, isw (v mod w32).
Proof. intros. apply Z.mod_pos_bound. reflexivity. Qed.
Lemma isw_lxor : forall a b, isw a -> isw b -> isw (Z.lxor a b).
Proof.
  intros a b A B. apply isw_bits. split; [apply Z.lxor_nonneg; pose proof (isw_pos _ A); pose proof (isw_pos _ B); tauto|].
  intros i Hi. rewrite Z.lxor_spec, !isw_high by assumption. reflexivity.
Qed.
Lemma isw_lor : forall a b, isw a -> isw b -> isw (Z.lor a b).
Proof.
  intros a b A B. apply isw_bits. split; [apply Z.lor_nonneg; pose proof (isw_pos _ A); pose proof (isw_pos _ B); tauto|].
  intros i Hi. rewrite Z.lor_spec, !isw_high by assumption. reflexivity.
Qed.
Lemma isw_land : forall a b, isw a -> 0 <= b -> isw (Z.land a b).
Proof.
  intros a b A B. apply isw_bits. split; [apply Z.land_nonneg; right; exact B|].
  intros i Hi. rewrite Z.land_spec, (isw_high a i) by assumption. reflexivity.
Qed.
Lemma isw_shr : forall n a, 0 <= n -> isw a -> isw (Z.shiftr a n).
Proof.
  intros n a Hn A. apply isw_bits. split; [apply Z.shiftr_nonneg, (isw_pos _ A)|].
  intros i Hi. rewrite Z.shiftr_spec by lia. apply isw_high; [exact A|lia].
Qed.
Lemma isw_rotr : forall n a, 0 <= n -> isw a -> isw (rotr n a).
Proof. intros. apply isw_lor; [apply isw_shr; assumption|apply isw_mod]. Qed.

Lemma rotr_bit : forall n x i, 0 <= n < 32 -> isw x -> 0 <= i < 32 ->
  Z.testbit (rotr n x) i = Z.testbit x ((i + n) mod 32).
Proof.
  intros n x i Hn Hx Hi. unfold rotr. rewrite Z.lor_spec, Z.shiftr_spec by lia.
  change w32 with (2 ^ 32). rewrite Z.mod_pow2_bits_low, Z.shiftl_spec by lia.
  destruct (Z_lt_le_dec (i + n) 32) as [K|K].
  - rewrite (Z.mod_small (i + n)) by lia. rewrite (Z.testbit_neg_r x (i - (32 - n))) by lia. apply orb_false_r.
  - rewrite (isw_high x (i + n)) by (try assumption; lia). cbn [orb]. f_equal.
    replace (i + n) with (i - (32 - n) + 1 * 32) by lia. rewrite Z.mod_add by lia. symmetry. apply Z.mod_small. lia.
Qed.

(** Rotation of the list of bits, for the ten rotation amounts in use. *)
Lemma lbits_rotr : forall n x, 0 <= n < 32 -> isw x ->
  lbits 32 (rotr n x) = map (fun i => Z.b2z (Z.testbit x ((i + n) mod 32))) (zseq 0 32).
Proof. intros n x Hn Hx. apply map_ext_in. intros i Hi. apply in_zseq in Hi. rewrite rotr_bit by assumption. reflexivity. Qed.

Lemma lbits_shr : forall n x, 0 <= n -> lbits 32 (shr n x) = map (fun i => Z.b2z (Z.testbit x (i + n))) (zseq 0 32).
Proof. intros n x Hn. apply map_ext_in. intros i Hi. apply in_zseq in Hi. unfold shr. rewrite Z.shiftr_spec by lia. reflexivity. Qed.

Lemma lbits_shr3 : forall x, isw x -> lbits 32 (shr 3 x) = lshr 3 (lbits 32 x).
Proof.
  intros x Hx. rewrite lbits_shr by lia.
  replace (lshr 3 (lbits 32 x)) with (map (fun i => Z.b2z (Z.testbit x (i + 3))) (zseq 0 29) ++ [0; 0; 0]) by reflexivity.
  rewrite (zseq_app 0 29 32), map_app by lia. f_equal.
  cbn [zseq map]. change (zseq 29 32) with [29; 30; 31]. cbn [map]. rewrite !isw_high by (try assumption; lia). reflexivity.
Qed.
Lemma lbits_shr10 : forall x, isw x -> lbits 32 (shr 10 x) = lshr 10 (lbits 32 x).
Proof.
  intros x Hx. rewrite lbits_shr by lia.
  replace (lshr 10 (lbits 32 x)) with (map (fun i => Z.b2z (Z.testbit x (i + 10))) (zseq 0 22) ++ repeat 0 10) by reflexivity.
  rewrite (zseq_app 0 22 32), map_app by lia. f_equal.
  change (zseq 22 32) with [22; 23; 24; 25; 26; 27; 28; 29; 30; 31]. cbn [map]. rewrite !isw_high by (try assumption; lia). reflexivity.
Qed.

Lemma zip3_map : forall f a b c (l : list Z), zip3 f (map a l) (map b l) (map c l) = map (fun i => f (a i) (b i) (c i)) l.
Proof. intros f a b c l. induction l as [|x l IH]; [reflexivity|]. cbn. rewrite IH. reflexivity. Qed.
Lemma map_zip3 : forall g f a b c, map g (zip3 f a b c) = zip3 (fun x y z => g (f x y z)) a b c.
Proof. intros g f a. induction a as [|x a IH]; intros [|y b] [|z c]; try reflexivity. cbn. rewrite IH. reflexivity. Qed.
Lemma small_zip3 : forall B B' f a b c, (forall x y z, 0 <= x < B -> 0 <= y < B -> 0 <= z < B -> 0 <= f x y z < B') ->
  small B a -> small B b -> small B c -> small B' (zip3 f a b c).
Proof.
  intros B B' f a b c H A. revert b c. induction A as [|x a Hx A IH]; intros b c Hb Hc; [constructor|].
  destruct Hb as [|y b Hy Hb]; [constructor|]. destruct Hc as [|z c Hz Hc]; [constructor|].
  constructor; [apply H; assumption|apply IH; assumption].
Qed.

Lemma lbits_xor3 : forall n a b c, lbits n (Z.lxor (Z.lxor a b) c) = map r_xor (add3 (lbits n a) (lbits n b) (lbits n c)).
Proof.
  intros. unfold add3. rewrite map_zip3. unfold lbits. rewrite zip3_map. apply map_ext. intros i.
  rewrite !Z.lxor_spec. destruct (Z.testbit a i), (Z.testbit b i), (Z.testbit c i); reflexivity.
Qed.
Lemma lbits_maj : forall n a b c, lbits n (sha_maj a b c) = map r_maj (add3 (lbits n a) (lbits n b) (lbits n c)).
Proof.
  intros. unfold add3. rewrite map_zip3. unfold lbits. rewrite zip3_map. apply map_ext. intros i.
  unfold sha_maj. rewrite !Z.lxor_spec, !Z.land_spec. destruct (Z.testbit a i), (Z.testbit b i), (Z.testbit c i); reflexivity.
Qed.
Definition ch3 : list Z -> list Z -> list Z -> list Z := zip3 (fun x y z => x + 2 * y + 3 * z).
Lemma not_bit : forall x i, isw x -> 0 <= i < 32 -> Z.testbit (w32 - 1 - x) i = negb (Z.testbit x i).
Proof.
  intros x i Hx Hi. change (w32 - 1) with (Z.ones 32).
  rewrite Z.sub_nocarry_ldiff.
  - rewrite Z.ldiff_spec, Z.ones_spec_low by lia. reflexivity.
  - apply Z.bits_inj'. intros j Hj. rewrite Z.ldiff_spec, Z.bits_0. destruct (Z_lt_le_dec j 32) as [K|K].
    + rewrite Z.ones_spec_low by lia. apply andb_false_r.
    + rewrite (isw_high x j) by assumption. reflexivity.
Qed.
Lemma lbits_ch : forall a b c, isw a -> lbits 32 (sha_ch a b c) = map r_ch (ch3 (lbits 32 a) (lbits 32 b) (lbits 32 c)).
Proof.
  intros a b c Ha. unfold ch3. rewrite map_zip3. unfold lbits. rewrite zip3_map. apply map_ext_in. intros i Hi. apply in_zseq in Hi.
  unfold sha_ch. rewrite !Z.lxor_spec, !Z.land_spec, not_bit by assumption.
  destruct (Z.testbit a i), (Z.testbit b i), (Z.testbit c i); reflexivity.
Qed.

Lemma isw_s0 : forall x, isw x -> isw (sha_s0 x).
Proof. intros. repeat apply isw_lxor; try (apply isw_rotr; [lia|assumption]). apply isw_shr; [lia|assumption]. Qed.
Lemma isw_s1 : forall x, isw x -> isw (sha_s1 x).
Proof. intros. repeat apply isw_lxor; try (apply isw_rotr; [lia|assumption]). apply isw_shr; [lia|assumption]. Qed.
Lemma isw_S0 : forall x, isw x -> isw (sha_S0 x).
Proof. intros. repeat apply isw_lxor; apply isw_rotr; try lia; assumption. Qed.
Lemma isw_S1 : forall x, isw x -> isw (sha_S1 x).
Proof. intros. repeat apply isw_lxor; apply isw_rotr; try lia; assumption. Qed.
Lemma isw_maj : forall x y z, isw x -> isw y -> isw z -> isw (sha_maj x y z).
Proof. intros. repeat apply isw_lxor; apply isw_land; try assumption; apply isw_pos; assumption. Qed.
Lemma isw_ch : forall x y z, isw x -> isw y -> isw z -> isw (sha_ch x y z).
Proof.
  intros x y z X Y Z. apply isw_lxor; apply isw_land; try (apply isw_pos; assumption); [assumption|].
  unfold isw in *. lia.
Qed.

Lemma numl_isw : forall x l, isw x -> lbits 32 x = l -> numl 2 l = x.
Proof. intros x l H <-. apply numl_lbits; [lia|exact H]. Qed.

(** The digit sums of each function, and its value. *)
Definition D_s0 (l : list Z) : list Z := add3 (lrot 7 l) (lrot 18 l) (lshr 3 l).
Definition D_s1 (l : list Z) : list Z := add3 (lrot 17 l) (lrot 19 l) (lshr 10 l).
Definition D_S0 (l : list Z) : list Z := add3 (lrot 2 l) (lrot 13 l) (lrot 22 l).
Definition D_S1 (l : list Z) : list Z := add3 (lrot 6 l) (lrot 11 l) (lrot 25 l).

Lemma val_s0 : forall x, isw x -> numl 2 (map r_xor (D_s0 (lbits 32 x))) = sha_s0 x.
Proof.
  intros x H. apply numl_isw; [apply isw_s0; exact H|]. unfold sha_s0. rewrite lbits_xor3, !lbits_rotr, lbits_shr3 by (try assumption; lia). reflexivity.
Qed.
Lemma val_s1 : forall x, isw x -> numl 2 (map r_xor (D_s1 (lbits 32 x))) = sha_s1 x.
Proof.
  intros x H. apply numl_isw; [apply isw_s1; exact H|]. unfold sha_s1. rewrite lbits_xor3, !lbits_rotr, lbits_shr10 by (try assumption; lia). reflexivity.
Qed.
Lemma val_S0 : forall x, isw x -> numl 2 (map r_xor (D_S0 (lbits 32 x))) = sha_S0 x.
Proof.
  intros x H. apply numl_isw; [apply isw_S0; exact H|]. unfold sha_S0. rewrite lbits_xor3, !lbits_rotr by (try assumption; lia). reflexivity.
Qed.
Lemma val_S1 : forall x, isw x -> numl 2 (map r_xor (D_S1 (lbits 32 x))) = sha_S1 x.
Proof.
  intros x H. apply numl_isw; [apply isw_S1; exact H|]. unfold sha_S1. rewrite lbits_xor3, !lbits_rotr by (try assumption; lia). reflexivity.
Qed.
Lemma val_maj : forall x y z, isw x -> isw y -> isw z ->
  numl 2 (map r_maj (add3 (lbits 32 x) (lbits 32 y) (lbits 32 z))) = sha_maj x y z.
Proof. intros. apply numl_isw; [apply isw_maj; assumption|apply lbits_maj]. Qed.
Lemma val_ch : forall x y z, isw x -> isw y -> isw z ->
  numl 2 (map r_ch (ch3 (lbits 32 x) (lbits 32 y) (lbits 32 z))) = sha_ch x y z.
Proof. intros. apply numl_isw; [apply isw_ch; assumption|apply lbits_ch; assumption]. Qed.

Lemma len_bits : forall x, length (lbits 32 x) = 32%nat.
Proof. intros. unfold lbits. rewrite map_length, zseq_length. reflexivity. Qed.

Ltac cat32 l H := let E := fresh in assert (E := H); list32 l E.
Lemma zip3_len : forall f a b c, length a = 32%nat -> length b = 32%nat -> length c = 32%nat -> length (zip3 f a b c) = 32%nat.
Proof.
  intros f a b c. generalize 32%nat. intros n. revert a b c. induction n as [|n IH]; intros [|x a] [|y b] [|z c] A B C; try discriminate; [reflexivity|].
  cbn in *. f_equal. apply IH; congruence.
Qed.
Lemma lrot_len : forall n l, length l = 32%nat -> (n <= 32)%nat -> length (lrot n l) = 32%nat.
Proof. intros n l H Hn. unfold lrot. rewrite app_length, skipn_length, firstn_length, H. lia. Qed.
Lemma lshr_len : forall n l, length l = 32%nat -> (n <= 32)%nat -> length (lshr n l) = 32%nat.
Proof. intros n l H Hn. unfold lshr. rewrite app_length, skipn_length, repeat_length, H. lia. Qed.
Lemma small_sub : forall B l l', (forall x, In x l -> In x l') -> small B l' -> small B l.
Proof. intros B l l' I H. apply Forall_forall. intros x Hx. unfold small in H. rewrite Forall_forall in H. apply H, I, Hx. Qed.
Lemma small_lrot : forall B n l, small B l -> small B (lrot n l).
Proof.
  intros B n l H. apply (small_sub B _ l); [|exact H]. intros x Hx. unfold lrot in Hx. apply in_app_or in Hx.
  rewrite <- (firstn_skipn n l). apply in_or_app. tauto.
Qed.
Lemma small_lshr : forall B n l, 0 < B -> small B l -> small B (lshr n l).
Proof.
  intros B n l HB H. apply small_app.
  - apply (small_sub B _ l); [|exact H]. intros x Hx. rewrite <- (firstn_skipn n l). apply in_or_app. tauto.
  - apply Forall_forall. intros x Hx. apply repeat_spec in Hx. lia.
Qed.

Lemma D_facts : forall l, length l = 32%nat -> small 2 l ->
  (length (D_s0 l) = 32%nat /\ small 4 (D_s0 l)) /\ (length (D_s1 l) = 32%nat /\ small 4 (D_s1 l)) /\
  (length (D_S0 l) = 32%nat /\ small 4 (D_S0 l)) /\ (length (D_S1 l) = 32%nat /\ small 7 (D_S1 l)).
Proof.
  intros l H S. unfold D_s0, D_s1, D_S0, D_S1, add3.
  repeat split; try (apply zip3_len; first [apply lrot_len | apply lshr_len]; (exact H || lia));
    (eapply (small_zip3 2); [intros; lia| | |]; first [apply small_lrot | apply small_lshr; [lia|]]; exact S).
Qed.
Lemma maj_facts : forall a b c, length a = 32%nat -> length b = 32%nat -> length c = 32%nat -> small 2 a -> small 2 b -> small 2 c ->
  length (add3 a b c) = 32%nat /\ small 4 (add3 a b c).
Proof. intros. split; [apply zip3_len; assumption|]. eapply (small_zip3 2); [intros; lia| | |]; assumption. Qed.
Lemma ch_facts : forall a b c, length a = 32%nat -> length b = 32%nat -> length c = 32%nat -> small 2 a -> small 2 b -> small 2 c ->
  length (ch3 a b c) = 32%nat /\ small 7 (ch3 a b c).
Proof. intros. split; [apply zip3_len; assumption|]. eapply (small_zip3 2); [intros; lia| | |]; assumption. Qed.

Lemma numl_ch3 : forall B a b c, length a = length b -> length b = length c ->
  numl B (ch3 a b c) = numl B a + 2 * numl B b + 3 * numl B c.
Proof.
  intros B a. induction a as [|x a IH]; intros [|y b] [|z c] E1 E2; try discriminate; [reflexivity|].
  cbn [ch3 zip3 numl fold_right]. fold (ch3 a b c). fold (numl B (ch3 a b c)) (numl B a) (numl B b) (numl B c).
  rewrite IH by (cbn in *; congruence). ring.
Qed.
Lemma numl_add3 : forall B a b c, length a = length b -> length b = length c ->
  numl B (add3 a b c) = numl B a + numl B b + numl B c.
Proof.
  intros B a. induction a as [|x a IH]; intros [|y b] [|z c] E1 E2; try discriminate; [reflexivity|].
  cbn [add3 zip3 numl fold_right]. fold (add3 a b c). fold (numl B (add3 a b c)) (numl B a) (numl B b) (numl B c).
  rewrite IH by (cbn in *; congruence). ring.
Qed.

(** Cutting a list of 32 digits into bytes. *)
Lemma cut8 : forall (l : list Z), length l = 32%nat -> l = sl 0 8 l ++ sl 8 8 l ++ sl 16 8 l ++ sl 24 8 l.
Proof. intros l H. list32 l H. reflexivity. Qed.
Lemma cut8_len : forall (l : list Z), length l = 32%nat ->
  zlen (sl 0 8 l) = 8 /\ zlen (sl 8 8 l) = 8 /\ zlen (sl 16 8 l) = 8 /\ zlen (sl 24 8 l) = 8.
Proof. intros l H. list32 l H. repeat split. Qed.
Lemma small_sl : forall B lo s l, small B l -> small B (sl lo s l).
Proof.
  intros B lo s l H. apply (small_sub B _ l); [|exact H]. intros x Hx. unfold sl in Hx.
  rewrite <- (firstn_skipn lo l). apply in_or_app. right. rewrite <- (firstn_skipn s (skipn lo l)). apply in_or_app. left. exact Hx.
Qed.
Lemma numl_cut8 : forall B l, length l = 32%nat ->
  numl B l = numl B (sl 0 8 l) + numl B (sl 8 8 l) * B ^ 8 + numl B (sl 16 8 l) * B ^ 16 + numl B (sl 24 8 l) * B ^ 24.
Proof.
  intros B l H. rewrite (cut8 l H) at 1. destruct (cut8_len l H) as [L0 [L1 [L2 L3]]].
  rewrite !numl_app, L0, L1, L2. change (B ^ 24) with (B ^ (8 + (8 + 8))). change (B ^ 16) with (B ^ (8 + 8)).
  rewrite !Z.pow_add_r by lia. ring.
Qed.
Lemma sl_map : forall f lo s (l : list Z), sl lo s (map f l) = map f (sl lo s l).
Proof. intros. unfold sl. rewrite skipn_map, firstn_map. reflexivity. Qed.

(** Four bytes of base-[B] digits whose weighted sum is [numl B D]: recombining
    the images of their digits gives the images of the digits of [D]. *)
Lemma bytes_join : forall f B D v0 v1 v2 v3, 1 < B -> length D = 32%nat -> small B D ->
  0 <= v0 < B ^ 8 -> 0 <= v1 < B ^ 8 -> 0 <= v2 < B ^ 8 -> 0 <= v3 < B ^ 8 ->
  v0 + v1 * B ^ 8 + v2 * B ^ 16 + v3 * B ^ 24 = numl B D ->
  numl 2 (map f (digs B 8 v0)) + numl 2 (map f (digs B 8 v1)) * 2 ^ 8 + numl 2 (map f (digs B 8 v2)) * 2 ^ 16 +
  numl 2 (map f (digs B 8 v3)) * 2 ^ 24 = numl 2 (map f D).
Proof.
  intros f B D v0 v1 v2 v3 HB HD SD H0 H1 H2 H3 E.
  assert (ED : D = digs B 8 v0 ++ digs B 8 v1 ++ digs B 8 v2 ++ digs B 8 v3).
  { apply (numl_inj B); [lia|exact SD|repeat apply small_app; apply small_digs; lia| |].
    - rewrite !app_length. unfold digs. rewrite !map_length, !zseq_length, HD. reflexivity.
    - rewrite !numl_app, !zlen_digs, !numl_digs, !Z.mod_small by lia. rewrite <- E.
      change (B ^ 24) with (B ^ (8 + (8 + 8))). change (B ^ 16) with (B ^ (8 + 8)). rewrite !Z.pow_add_r by lia. ring. }
  rewrite ED at 1. rewrite !map_app, !numl_app.
  assert (L : forall v, zlen (map f (digs B 8 v)) = 8) by (intros v; unfold zlen; rewrite map_length; apply zlen_digs; lia).
  rewrite !L. change (2 ^ 24) with (2 ^ 8 * (2 ^ 8 * 2 ^ 8)). change (2 ^ 16) with (2 ^ 8 * 2 ^ 8). ring.
Qed.
