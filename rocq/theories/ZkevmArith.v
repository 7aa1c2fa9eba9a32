(** Integer arithmetic behind the zkEVM opcodes: 16-bit chunks, 48-bit groups and
    64-bit limbs. *)
From Coq Require Import ZArith List Lia Bool.
From Verif Require Import Base Field Plonk PlonkFacts Bits CompareModel ZkevmModel ZkevmSel.
Import ListNotations.
Open Scope Z_scope.

(** The integer written in [n] little-endian 16-bit chunks. *)
Definition wordsum (f : Z -> Z) (n : Z) : Z :=
  fold_left (fun s i => s + f i * 2 ^ (16 * i)) (zseq 0 n) 0.

Lemma wordsum_S : forall f n, 0 <= n -> wordsum f (n + 1) = wordsum f n + f n * 2 ^ (16 * n).
Proof. intros. unfold wordsum. rewrite zseq_snoc by lia. rewrite fold_left_app. reflexivity. Qed.

Lemma wordsum_ext : forall f g n, (forall i, 0 <= i < n -> f i = g i) -> wordsum f n = wordsum g n.
Proof.
  intros f g n. destruct (Z_le_gt_dec 0 n) as [L|G].
  2: { intros. unfold wordsum. rewrite zseq_nil by lia. reflexivity. }
  revert n L. apply (natlike_ind (fun n => (forall i, 0 <= i < n -> f i = g i) -> wordsum f n = wordsum g n)).
  - reflexivity.
  - intros n N IH H. unfold Z.succ. rewrite !wordsum_S by lia. rewrite IH by (intros; apply H; lia).
    rewrite H by lia. reflexivity.
Qed.

Lemma chunk_eq : forall w i, 0 <= i -> chunk w i = (w / 2 ^ (16 * i)) mod 2 ^ 16.
Proof.
  intros w i H. unfold chunk. change (2 ^ 16 - 1) with (Z.ones 16).
  rewrite Z.land_ones by lia. rewrite Z.shiftr_div_pow2 by lia. reflexivity.
Qed.

Lemma chunk_range : forall w i, 0 <= i -> 0 <= chunk w i < 2 ^ 16.
Proof. intros w i H. rewrite chunk_eq by lia. apply Z.mod_pos_bound. lia. Qed.

Lemma wordsum_chunk : forall w n, 0 <= n -> wordsum (chunk w) n = w mod 2 ^ (16 * n).
Proof.
  intros w. apply natlike_ind.
  - cbn. symmetry. apply Z.mod_1_r.
  - intros n N IH. unfold Z.succ. rewrite wordsum_S, IH, chunk_eq by lia.
    replace (16 * (n + 1)) with (16 * n + 16) by ring. rewrite Z.pow_add_r by lia.
    assert (0 < 2 ^ (16 * n)) by (apply Z.pow_pos_nonneg; lia).
    rewrite Z.rem_mul_r by lia. ring.
Qed.

Lemma word_chunks : forall w, 0 <= w < 2 ^ 256 -> wordsum (chunk w) 16 = w.
Proof. intros w H. rewrite wordsum_chunk by lia. apply Z.mod_small. exact H. Qed.

Lemma wordsum_nonneg : forall f n, (forall i, 0 <= i < n -> 0 <= f i) -> 0 <= wordsum f n.
Proof.
  intros f n. destruct (Z_le_gt_dec 0 n) as [L|G].
  2: { intros. unfold wordsum. rewrite zseq_nil by lia. cbn. lia. }
  revert n L. apply (natlike_ind (fun n => (forall i, 0 <= i < n -> 0 <= f i) -> 0 <= wordsum f n)).
  - cbn. lia.
  - intros n N IH H. unfold Z.succ. rewrite wordsum_S by lia.
    pose proof (IH ltac:(intros; apply H; lia)). pose proof (H n ltac:(lia)).
    assert (0 < 2 ^ (16 * n)) by (apply Z.pow_pos_nonneg; lia). nia.
Qed.

Lemma wordsum_bound : forall f n, 0 <= n -> (forall i, 0 <= i < n -> 0 <= f i < 2 ^ 16) ->
  0 <= wordsum f n < 2 ^ (16 * n).
Proof.
  intros f. apply (natlike_ind (fun n => (forall i, 0 <= i < n -> 0 <= f i < 2 ^ 16) ->
    0 <= wordsum f n < 2 ^ (16 * n))).
  - cbn. lia.
  - intros n N IH H. unfold Z.succ. rewrite wordsum_S by lia.
    pose proof (IH ltac:(intros; apply H; lia)). pose proof (H n ltac:(lia)).
    replace (16 * (n + 1)) with (16 * n + 16) by ring. rewrite Z.pow_add_r by lia.
    assert (0 < 2 ^ (16 * n)) by (apply Z.pow_pos_nonneg; lia). nia.
Qed.

(** Digits of a number are unique. *)
Lemma digit_unique : forall B x y x' y', 0 <= x < B -> 0 <= x' < B ->
  x + B * y = x' + B * y' -> x = x' /\ y = y'.
Proof. intros. assert (y = y') by nia. subst. split; lia. Qed.

Lemma wordsum_unique : forall f g n, 0 <= n ->
  (forall i, 0 <= i < n -> 0 <= f i < 2 ^ 16) -> (forall i, 0 <= i < n -> 0 <= g i < 2 ^ 16) ->
  wordsum f n = wordsum g n -> forall i, 0 <= i < n -> f i = g i.
Proof.
  intros f g. apply (natlike_ind (fun n => (forall i, 0 <= i < n -> 0 <= f i < 2 ^ 16) ->
    (forall i, 0 <= i < n -> 0 <= g i < 2 ^ 16) -> wordsum f n = wordsum g n ->
    forall i, 0 <= i < n -> f i = g i)).
  - intros. lia.
  - intros n N IH A B E i I. unfold Z.succ in *. rewrite !wordsum_S in E by lia.
    assert (0 < 2 ^ (16 * n)) by (apply Z.pow_pos_nonneg; lia).
    pose proof (wordsum_bound f n N ltac:(intros; apply A; lia)).
    pose proof (wordsum_bound g n N ltac:(intros; apply B; lia)).
    destruct (digit_unique (2 ^ (16 * n)) (wordsum f n) (f n) (wordsum g n) (g n)); [lia|lia|lia|].
    destruct (Z.eq_dec i n) as [->|D]; [assumption|].
    apply IH; [intros; apply A; lia|intros; apply B; lia|assumption|lia].
Qed.

(** ** 64-bit limbs *)
Definition z_sum64 : (Z -> Z) -> Z -> Z := sum64 Z.add Z.mul (fun z => z).

Lemma wordsum_limbs : forall f,
  wordsum f 16 = z_sum64 f 0 + 2 ^ 64 * z_sum64 f 1 + 2 ^ 128 * z_sum64 f 2 + 2 ^ 192 * z_sum64 f 3.
Proof.
  intros f. unfold wordsum, z_sum64, sum64.
  change (zseq 0 16) with [0;1;2;3;4;5;6;7;8;9;10;11;12;13;14;15].
  cbn [fold_left Z.mul Z.add Pos.mul Pos.add Pos.succ Pos.add_carry]. ring.
Qed.

Lemma wordsum_limb : forall f, wordsum f 4 = z_sum64 f 0.
Proof.
  intros f. unfold wordsum, z_sum64, sum64. change (zseq 0 4) with [0;1;2;3].
  cbn [fold_left Z.mul Z.add Pos.mul Pos.add Pos.succ Pos.add_carry]. ring.
Qed.

Lemma z_sum64_bound : forall f i, (forall j, 4 * i <= j < 4 * i + 4 -> 0 <= f j < 2 ^ 16) ->
  0 <= z_sum64 f i < 2 ^ 64.
Proof.
  intros f i H. unfold z_sum64, sum64.
  pose proof (H (4 * i) ltac:(lia)). pose proof (H (4 * i + 1) ltac:(lia)).
  pose proof (H (4 * i + 2) ltac:(lia)). pose proof (H (4 * i + 3) ltac:(lia)). lia.
Qed.

Lemma limb_prod : forall x y, 0 <= x < 2 ^ 64 -> 0 <= y < 2 ^ 64 -> 0 <= x * y <= (2 ^ 64 - 1) * (2 ^ 64 - 1).
Proof. intros. nia. Qed.

Definition z_first := div_first Z.add Z.sub Z.mul (fun z => z).
Definition z_second := div_second Z.add Z.sub Z.mul (fun z => z).
Definition zm_first := mul_first Z.add Z.sub Z.mul (fun z => z).
Definition zm_second := mul_second Z.add Z.sub Z.mul (fun z => z).

Lemma zm_first_eq : forall a b r, zm_first a b r = z_first r b a (fun _ => 0).
Proof. intros. unfold zm_first, z_first, mul_first, div_first. ring. Qed.
Lemma zm_second_eq : forall a b r, zm_second a b r = z_second r b a (fun _ => 0).
Proof. intros. unfold zm_second, z_second, mul_second, div_second. ring. Qed.

Definition limbs (x : Z -> Z) : Z := x 0 + 2 ^ 64 * x 1 + 2 ^ 128 * x 2 + 2 ^ 192 * x 3.
Definition limb_ok (x : Z -> Z) : Prop := forall i, 0 <= i < 4 -> 0 <= x i < 2 ^ 64.

Lemma limbs_sound : forall a b r q c1 c2 c3 c4,
  z_first a b r q = c1 * 2 ^ 128 + c2 * 2 ^ 192 ->
  z_second a b r q + c1 + c2 * 2 ^ 64 = c3 * 2 ^ 128 + c4 * 2 ^ 192 ->
  exists m, limbs r * limbs b + limbs q = limbs a + m * 2 ^ 256.
Proof.
  intros a b r q c1 c2 c3 c4 H1 H2.
  exists (c3 + 2 ^ 64 * c4 + (r 1 * b 3 + r 2 * b 2 + r 3 * b 1) + 2 ^ 64 * (r 2 * b 3 + r 3 * b 2)
          + 2 ^ 128 * (r 3 * b 3)).
  unfold z_first, z_second, div_first, div_second in *. unfold limbs.
  assert (E1 : (r 0 * b 0 + q 0 + 2 ^ 64 * (r 0 * b 1 + r 1 * b 0 + q 1) - a 0 - 2 ^ 64 * a 1)
               - (c1 * 2 ^ 128 + c2 * 2 ^ 192) = 0) by lia.
  assert (E2 : (r 0 * b 2 + r 1 * b 1 + r 2 * b 0 + q 2 - a 2
                + 2 ^ 64 * (r 0 * b 3 + r 1 * b 2 + r 2 * b 1 + r 3 * b 0 + q 3 - a 3)
                + c1 + c2 * 2 ^ 64) - (c3 * 2 ^ 128 + c4 * 2 ^ 192) = 0) by lia.
  apply Z.sub_move_0_r.
  match type of E1 with ?L1 = 0 => match type of E2 with ?L2 = 0 =>
    transitivity (L1 + 2 ^ 128 * L2); [ring|rewrite E1, E2; reflexivity]
  end end.
Qed.

Lemma limbs_complete : forall a b r q m, limb_ok a -> limb_ok b -> limb_ok r -> limb_ok q ->
  limbs r * limbs b + limbs q = limbs a + m * 2 ^ 256 ->
  exists Q1 Q2, z_first a b r q = 2 ^ 128 * Q1 /\ 0 <= Q1 < 2 ^ 65 /\
                z_second a b r q + Q1 = 2 ^ 128 * Q2 /\ 0 <= Q2 < 2 ^ 66.
Proof.
  intros a b r q m HA HB HR HQ E.
  set (lo := r 0 * b 0 + q 0 + 2 ^ 64 * (r 0 * b 1 + r 1 * b 0 + q 1)).
  set (Y := r 0 * b 2 + r 1 * b 1 + r 2 * b 0 + q 2 - a 2
            + 2 ^ 64 * (r 0 * b 3 + r 1 * b 2 + r 2 * b 1 + r 3 * b 0 + q 3 - a 3)).
  set (hi := (r 1 * b 3 + r 2 * b 2 + r 3 * b 1) + 2 ^ 64 * (r 2 * b 3 + r 3 * b 2) + 2 ^ 128 * (r 3 * b 3)).
  assert (T : lo - (a 0 + 2 ^ 64 * a 1) + 2 ^ 128 * Y + 2 ^ 256 * hi = m * 2 ^ 256).
  { unfold lo, Y, hi. unfold limbs in E. apply Z.sub_move_0_r.
    transitivity ((r 0 + 2 ^ 64 * r 1 + 2 ^ 128 * r 2 + 2 ^ 192 * r 3) *
      (b 0 + 2 ^ 64 * b 1 + 2 ^ 128 * b 2 + 2 ^ 192 * b 3) +
      (q 0 + 2 ^ 64 * q 1 + 2 ^ 128 * q 2 + 2 ^ 192 * q 3) -
      (a 0 + 2 ^ 64 * a 1 + 2 ^ 128 * a 2 + 2 ^ 192 * a 3 + m * 2 ^ 256)); [ring|lia]. }
  assert (F1 : z_first a b r q = lo - (a 0 + 2 ^ 64 * a 1)) by (unfold z_first, div_first, lo; ring).
  assert (F2 : z_second a b r q = Y) by (unfold z_second, div_second, Y; ring).
  assert (K : lo - (a 0 + 2 ^ 64 * a 1) = 2 ^ 128 * (m * 2 ^ 128 - Y - 2 ^ 128 * hi)) by lia.
  set (Q1 := m * 2 ^ 128 - Y - 2 ^ 128 * hi) in *.
  exists Q1, (m - hi). rewrite F1, F2.
  assert (PR : forall i j, 0 <= i < 4 -> 0 <= j < 4 -> 0 <= r i * b j <= (2 ^ 64 - 1) * (2 ^ 64 - 1)).
  { intros. apply limb_prod; auto. }
  assert (B1 : 0 <= Q1 < 2 ^ 65).
  { pose proof (PR 0 0 ltac:(lia) ltac:(lia)). pose proof (PR 0 1 ltac:(lia) ltac:(lia)).
    pose proof (PR 1 0 ltac:(lia) ltac:(lia)).
    pose proof (HQ 0 ltac:(lia)). pose proof (HQ 1 ltac:(lia)).
    pose proof (HA 0 ltac:(lia)). pose proof (HA 1 ltac:(lia)).
    unfold lo in K. clear - K H H0 H1 H2 H3 H4 H5. revert K. generalize Q1.
    revert H H0 H1. generalize (r 0 * b 0) (r 0 * b 1) (r 1 * b 0). intros. lia. }
  split; [exact K|split; [exact B1|split]].
  - unfold Q1. ring.
  - assert (K2 : Y + Q1 = 2 ^ 128 * (m - hi)) by (unfold Q1; ring).
    pose proof (PR 0 2 ltac:(lia) ltac:(lia)). pose proof (PR 1 1 ltac:(lia) ltac:(lia)).
    pose proof (PR 2 0 ltac:(lia) ltac:(lia)). pose proof (PR 0 3 ltac:(lia) ltac:(lia)).
    pose proof (PR 1 2 ltac:(lia) ltac:(lia)). pose proof (PR 2 1 ltac:(lia) ltac:(lia)).
    pose proof (PR 3 0 ltac:(lia) ltac:(lia)).
    pose proof (HQ 2 ltac:(lia)). pose proof (HQ 3 ltac:(lia)).
    pose proof (HA 2 ltac:(lia)). pose proof (HA 3 ltac:(lia)).
    unfold Y in K2. clear - K2 B1 H H0 H1 H2 H3 H4 H5 H6 H7 H8 H9. revert K2. generalize (m - hi).
    revert B1. generalize Q1.
    revert H H0 H1 H2 H3 H4 H5.
    generalize (r 0 * b 2) (r 1 * b 1) (r 2 * b 0) (r 0 * b 3) (r 1 * b 2) (r 2 * b 1) (r 3 * b 0).
    intros. lia.
Qed.

Lemma limbs_bounds : forall a b r q, limb_ok a -> limb_ok b -> limb_ok r -> limb_ok q ->
  - 2 ^ 128 < z_first a b r q < 2 ^ 193 /\ - 2 ^ 128 < z_second a b r q < 2 ^ 194.
Proof.
  intros a b r q HA HB HR HQ.
  assert (PR : forall i j, 0 <= i < 4 -> 0 <= j < 4 -> 0 <= r i * b j <= (2 ^ 64 - 1) * (2 ^ 64 - 1)).
  { intros. apply limb_prod; auto. }
  assert (F1 : z_first a b r q = r 0 * b 0 + q 0 + 2 ^ 64 * (r 0 * b 1 + r 1 * b 0 + q 1) - a 0 - 2 ^ 64 * a 1)
    by (unfold z_first, div_first; ring).
  assert (F2 : z_second a b r q = r 0 * b 2 + r 1 * b 1 + r 2 * b 0 + q 2 - a 2
            + 2 ^ 64 * (r 0 * b 3 + r 1 * b 2 + r 2 * b 1 + r 3 * b 0 + q 3 - a 3))
    by (unfold z_second, div_second; ring).
  rewrite F1, F2. clear F1 F2.
  pose proof (PR 0 0 ltac:(lia) ltac:(lia)). pose proof (PR 0 1 ltac:(lia) ltac:(lia)).
  pose proof (PR 1 0 ltac:(lia) ltac:(lia)).
  pose proof (PR 0 2 ltac:(lia) ltac:(lia)). pose proof (PR 1 1 ltac:(lia) ltac:(lia)).
  pose proof (PR 2 0 ltac:(lia) ltac:(lia)). pose proof (PR 0 3 ltac:(lia) ltac:(lia)).
  pose proof (PR 1 2 ltac:(lia) ltac:(lia)). pose proof (PR 2 1 ltac:(lia) ltac:(lia)).
  pose proof (PR 3 0 ltac:(lia) ltac:(lia)).
  pose proof (HQ 0 ltac:(lia)). pose proof (HQ 1 ltac:(lia)). pose proof (HQ 2 ltac:(lia)). pose proof (HQ 3 ltac:(lia)).
  pose proof (HA 0 ltac:(lia)). pose proof (HA 1 ltac:(lia)). pose proof (HA 2 ltac:(lia)). pose proof (HA 3 ltac:(lia)).
  clear PR HA HB HR HQ.
  repeat match goal with |- context [?x * ?y] => lazymatch x with 2 ^ 64 => fail | r _ => generalize dependent (x * y); intros end end.
  lia.
Qed.

(** ** 48-bit groups of the addition *)
Definition grp (f : Z -> Z) (i : Z) : Z := f (3 * i) + f (3 * i + 1) * 2 ^ 16 + f (3 * i + 2) * 2 ^ 32.

Lemma wordsum_groups : forall f,
  wordsum f 16 = grp f 0 + 2 ^ 48 * (grp f 1 + 2 ^ 48 * (grp f 2 + 2 ^ 48 * (grp f 3 + 2 ^ 48 * (grp f 4 + 2 ^ 48 * f 15)))).
Proof.
  intros f. unfold wordsum, grp.
  change (zseq 0 16) with [0;1;2;3;4;5;6;7;8;9;10;11;12;13;14;15].
  cbn [fold_left Z.mul Z.add Pos.mul Pos.add Pos.succ Pos.add_carry]. ring.
Qed.

Lemma grp_bound : forall f i, (forall j, 3 * i <= j < 3 * i + 3 -> 0 <= f j < 2 ^ 16) -> 0 <= grp f i < 2 ^ 48.
Proof.
  intros f i H. unfold grp. pose proof (H (3 * i) ltac:(lia)). pose proof (H (3 * i + 1) ltac:(lia)).
  pose proof (H (3 * i + 2) ltac:(lia)). lia.
Qed.

(** The honest carries of an addition, over the integers. *)
Fixpoint zcarry (a b : Z -> Z) (n : nat) : bool :=
  2 ^ 48 <=? Z.b2z (match n with O => false | S m => zcarry a b m end)
             + grp a (Z.of_nat n) + grp b (Z.of_nat n).
Definition zlast (a b : Z -> Z) : bool := 2 ^ 16 <=? Z.b2z (zcarry a b 4) + a 15 + b 15.
Definition zcin (a b : Z -> Z) (i : Z) : bool :=
  if i =? 0 then false else zcarry a b (Z.to_nat (i - 1)).

Lemma carry_digits : forall a b r : Z -> Z,
  (forall i, 0 <= i < 16 -> 0 <= a i < 2 ^ 16) -> (forall i, 0 <= i < 16 -> 0 <= b i < 2 ^ 16) ->
  (forall i, 0 <= i < 16 -> 0 <= r i < 2 ^ 16) ->
  wordsum r 16 = (wordsum a 16 + wordsum b 16) mod 2 ^ 256 ->
  (forall i, 0 <= i < 5 ->
     Z.b2z (zcin a b i) + grp a i + grp b i = grp r i + Z.b2z (zcarry a b (Z.to_nat i)) * 2 ^ 48) /\
  Z.b2z (zcarry a b 4) + a 15 + b 15 = r 15 + Z.b2z (zlast a b) * 2 ^ 16.
Proof.
  intros a b r HA HB HR E.
  assert (GA : forall i, 0 <= i < 5 -> 0 <= grp a i < 2 ^ 48) by (intros; apply grp_bound; intros; apply HA; lia).
  assert (GB : forall i, 0 <= i < 5 -> 0 <= grp b i < 2 ^ 48) by (intros; apply grp_bound; intros; apply HB; lia).
  assert (GR : forall i, 0 <= i < 5 -> 0 <= grp r i < 2 ^ 48) by (intros; apply grp_bound; intros; apply HR; lia).
  assert (CS : forall (c : bool) x y, 0 <= x < 2 ^ 48 -> 0 <= y < 2 ^ 48 ->
    exists g, 0 <= g < 2 ^ 48 /\ Z.b2z c + x + y = g + Z.b2z (2 ^ 48 <=? Z.b2z c + x + y) * 2 ^ 48).
  { intros c x y X Y. destruct (Z.leb_spec (2 ^ 48) (Z.b2z c + x + y)).
    - exists (Z.b2z c + x + y - 2 ^ 48). destruct c; cbn [Z.b2z] in *; lia.
    - exists (Z.b2z c + x + y). destruct c; cbn [Z.b2z] in *; lia. }
  assert (C0 : zcarry a b 0 = (2 ^ 48 <=? Z.b2z false + grp a 0 + grp b 0)) by reflexivity.
  assert (CN : forall n, zcarry a b (S n) = (2 ^ 48 <=? Z.b2z (zcarry a b n) + grp a (Z.of_nat (S n)) + grp b (Z.of_nat (S n)))) by reflexivity.
  pose proof (CN 0%nat) as C1. pose proof (CN 1%nat) as C2. pose proof (CN 2%nat) as C3. pose proof (CN 3%nat) as C4.
  change (Z.of_nat 1) with 1 in C1. change (Z.of_nat 2) with 2 in C2.
  change (Z.of_nat 3) with 3 in C3. change (Z.of_nat 4) with 4 in C4.
  destruct (CS false (grp a 0) (grp b 0) (GA 0 ltac:(lia)) (GB 0 ltac:(lia))) as [g0 [G0 E0]].
  rewrite <- C0 in E0.
  destruct (CS (zcarry a b 0) (grp a 1) (grp b 1) (GA 1 ltac:(lia)) (GB 1 ltac:(lia))) as [g1 [G1 E1]].
  rewrite <- C1 in E1.
  destruct (CS (zcarry a b 1) (grp a 2) (grp b 2) (GA 2 ltac:(lia)) (GB 2 ltac:(lia))) as [g2 [G2 E2]].
  rewrite <- C2 in E2.
  destruct (CS (zcarry a b 2) (grp a 3) (grp b 3) (GA 3 ltac:(lia)) (GB 3 ltac:(lia))) as [g3 [G3 E3]].
  rewrite <- C3 in E3.
  destruct (CS (zcarry a b 3) (grp a 4) (grp b 4) (GA 4 ltac:(lia)) (GB 4 ltac:(lia))) as [g4 [G4 E4]].
  rewrite <- C4 in E4.
  assert (exists g5, 0 <= g5 < 2 ^ 16 /\ Z.b2z (zcarry a b 4) + a 15 + b 15 = g5 + Z.b2z (zlast a b) * 2 ^ 16) as [g5 [G5 E5]].
  { pose proof (HA 15 ltac:(lia)). pose proof (HB 15 ltac:(lia)). unfold zlast.
    destruct (Z.leb_spec (2 ^ 16) (Z.b2z (zcarry a b 4) + a 15 + b 15)).
    - exists (Z.b2z (zcarry a b 4) + a 15 + b 15 - 2 ^ 16).
      destruct (zcarry a b 4); cbn [Z.b2z] in *; lia.
    - exists (Z.b2z (zcarry a b 4) + a 15 + b 15). destruct (zcarry a b 4); cbn [Z.b2z] in *; lia. }
  assert (R : grp r 0 + 2 ^ 48 * (grp r 1 + 2 ^ 48 * (grp r 2 + 2 ^ 48 * (grp r 3 + 2 ^ 48 * (grp r 4 + 2 ^ 48 * r 15))))
            = g0 + 2 ^ 48 * (g1 + 2 ^ 48 * (g2 + 2 ^ 48 * (g3 + 2 ^ 48 * (g4 + 2 ^ 48 * g5))))).
  { rewrite <- wordsum_groups, E. symmetry. apply (Z.mod_unique_pos _ _ (Z.b2z (zlast a b))).
    - clear - G0 G1 G2 G3 G4 G5. lia.
    - rewrite !wordsum_groups. clear - E0 E1 E2 E3 E4 E5. revert E0 E1 E2 E3 E4 E5.
      generalize (zcarry a b 0) (zcarry a b 1) (zcarry a b 2) (zcarry a b 3) (zcarry a b 4) (zlast a b).
      intros k0 k1 k2 k3 k4 k5 E0 E1 E2 E3 E4 E5.
      change (Z.b2z false) with 0 in E0.
      assert (X0 : grp a 0 = g0 + Z.b2z k0 * 2 ^ 48 - grp b 0) by lia.
      assert (X1 : grp a 1 = g1 + Z.b2z k1 * 2 ^ 48 - grp b 1 - Z.b2z k0) by lia.
      assert (X2 : grp a 2 = g2 + Z.b2z k2 * 2 ^ 48 - grp b 2 - Z.b2z k1) by lia.
      assert (X3 : grp a 3 = g3 + Z.b2z k3 * 2 ^ 48 - grp b 3 - Z.b2z k2) by lia.
      assert (X4 : grp a 4 = g4 + Z.b2z k4 * 2 ^ 48 - grp b 4 - Z.b2z k3) by lia.
      assert (X5 : a 15 = g5 + Z.b2z k5 * 2 ^ 16 - b 15 - Z.b2z k4) by lia.
      rewrite X0, X1, X2, X3, X4, X5. ring. }
  apply digit_unique in R; [|apply GR; lia|exact G0]. destruct R as [R0 R].
  apply digit_unique in R; [|apply GR; lia|exact G1]. destruct R as [R1 R].
  apply digit_unique in R; [|apply GR; lia|exact G2]. destruct R as [R2 R].
  apply digit_unique in R; [|apply GR; lia|exact G3]. destruct R as [R3 R].
  apply digit_unique in R; [|apply GR; lia|exact G4]. destruct R as [R4 R5].
  split; [|rewrite R5; exact E5].
  intros i I. assert (i = 0 \/ i = 1 \/ i = 2 \/ i = 3 \/ i = 4) as [->|[->|[->|[->| ->]]]] by lia.
  - rewrite R0. exact E0.
  - rewrite R1. exact E1.
  - rewrite R2. exact E2.
  - rewrite R3. exact E3.
  - rewrite R4. exact E4.
Qed.

(** Addition read off the groups. *)
Lemma groups_sound : forall (a b r : Z -> Z) (c : Z -> Z),
  (forall i, 0 <= i < 5 -> (if i =? 0 then 0 else c (i - 1)) + grp a i + grp b i = grp r i + c i * 2 ^ 48) ->
  c 4 + a 15 + b 15 = r 15 + c 5 * 2 ^ 16 ->
  wordsum a 16 + wordsum b 16 = wordsum r 16 + c 5 * 2 ^ 256.
Proof.
  intros a b r c H L.
  pose proof (H 0 ltac:(lia)) as H0. pose proof (H 1 ltac:(lia)) as H1. pose proof (H 2 ltac:(lia)) as H2.
  pose proof (H 3 ltac:(lia)) as H3. pose proof (H 4 ltac:(lia)) as H4. clear H.
  cbn [Z.eqb Pos.eqb Z.sub Z.opp Z.add Z.pos_sub Pos.pred_double Pos.sub] in *.
  rewrite !wordsum_groups. change (3 - 1) with 2 in *. change (4 - 1) with 3 in *.
  assert (X0 : grp a 0 = grp r 0 + c 0 * 2 ^ 48 - grp b 0) by lia.
  assert (X1 : grp a 1 = grp r 1 + c 1 * 2 ^ 48 - grp b 1 - c 0) by lia.
  assert (X2 : grp a 2 = grp r 2 + c 2 * 2 ^ 48 - grp b 2 - c 1) by lia.
  assert (X3 : grp a 3 = grp r 3 + c 3 * 2 ^ 48 - grp b 3 - c 2) by lia.
  assert (X4 : grp a 4 = grp r 4 + c 4 * 2 ^ 48 - grp b 4 - c 3) by lia.
  assert (X5 : a 15 = r 15 + c 5 * 2 ^ 16 - b 15 - c 4) by lia.
  rewrite X0, X1, X2, X3, X4, X5. ring.
Qed.
