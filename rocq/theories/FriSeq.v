(** Facts used for the FRI coset component: blocks of constraints in lists,
    and comparison of two numbers given by their bits. *)
From Coq Require Import ZArith Znumtheory List Lia Bool Field.
From Verif Require Import Base Field Plonk PlonkFacts Bits FlexModel FlexProofs FriModel FriProofs.
Import ListNotations.
Open Scope Z_scope.

(** ** Lists made of blocks of equal length *)

Lemma znth_app : forall A (d : A) a b i, znth d (a ++ b) i = if (Z.to_nat i <? length a)%nat then znth d a i else nth (Z.to_nat i - length a)%nat b d.
Proof.
  intros A d a b i. unfold znth. destruct (Nat.ltb_spec (Z.to_nat i) (length a)) as [H|H].
  - apply app_nth1. exact H.
  - apply app_nth2. exact H.
Qed.

Lemma flat_len : forall A (f : Z -> list A) m n lo, (forall k, length (f k) = m) -> length (flat_map f (zrange lo n)) = (m * n)%nat.
Proof.
  intros A f m n lo H. revert lo. induction n as [|n IH]; intros lo; [cbn; lia|].
  cbn [zrange flat_map]. rewrite app_length, H, IH. lia.
Qed.

Lemma znth_flat : forall A (d : A) (f : Z -> list A) m lo hi k i, (forall k, length (f k) = Z.to_nat m) ->
  lo <= k < hi -> 0 <= i < m ->
  znth d (flat_map f (zseq lo hi)) (m * (k - lo) + i) = znth d (f k) i.
Proof.
  intros A d f m lo hi k i H Hk Hi. unfold zseq.
  assert (G : forall n lo j, (Z.of_nat j < Z.of_nat n) ->
    nth (Z.to_nat m * j + Z.to_nat i) (flat_map f (zrange lo n)) d = nth (Z.to_nat i) (f (lo + Z.of_nat j)) d).
  { induction n as [|n IH]; intros lo' j Hj; [lia|]. cbn [zrange flat_map]. destruct j as [|j].
    - rewrite Nat.mul_0_r, Nat.add_0_l, Z.add_0_r. apply app_nth1. rewrite H. lia.
    - rewrite app_nth2 by (rewrite H; lia). rewrite H.
      replace (Z.to_nat m * S j + Z.to_nat i - Z.to_nat m)%nat with (Z.to_nat m * j + Z.to_nat i)%nat by lia.
      rewrite IH by lia. f_equal. f_equal. lia. }
  unfold znth. replace (Z.to_nat (m * (k - lo) + i)) with (Z.to_nat m * Z.to_nat (k - lo) + Z.to_nat i)%nat by nia.
  rewrite G by lia. f_equal. f_equal. lia.
Qed.

Lemma zlen_flat : forall A (f : Z -> list A) m lo hi, 0 <= m -> (forall k, length (f k) = Z.to_nat m) -> lo <= hi ->
  zlen (flat_map f (zseq lo hi)) = m * (hi - lo).
Proof. intros A f m lo hi Hm H Hl. unfold zlen, zseq. rewrite (flat_len _ f (Z.to_nat m)) by exact H. nia. Qed.

Lemma in_slice : forall A (d e : A) l a k, 0 <= a -> 0 <= k ->
  (In e (firstn (Z.to_nat k) (skipn (Z.to_nat a) l)) <-> exists m, a <= m < a + k /\ m < zlen l /\ e = znth d l m).
Proof.
  intros A d e l a k Ha Hk. split.
  - intros H. apply In_nth with (d := d) in H. destruct H as [i [Hi E]]. rewrite firstn_length, skipn_length in Hi.
    exists (a + Z.of_nat i). split; [lia|]. split; [unfold zlen; lia|]. subst e. unfold znth.
    assert (FN : forall (j n : nat) (q : list A), (j < n)%nat -> nth j (firstn n q) d = nth j q d).
    { induction j as [|j IH]; intros [|n] [|y q] Hj; cbn; try lia; auto. apply IH. lia. }
    assert (SN : forall (n j : nat) (q : list A), nth j (skipn n q) d = nth (n + j) q d).
    { induction n as [|n IH]; intros j q; [reflexivity|]. destruct q; [destruct j; reflexivity|]. cbn. apply IH. }
    rewrite FN by lia. rewrite SN. f_equal. lia.
  - intros [m [H1 [H2 ->]]]. unfold znth.
    assert (FN : forall (j n : nat) (q : list A), (j < n)%nat -> nth j (firstn n q) d = nth j q d).
    { induction j as [|j IH]; intros [|n] [|y q] Hj; cbn; try lia; auto. apply IH. lia. }
    assert (SN : forall (n j : nat) (q : list A), nth j (skipn n q) d = nth (n + j) q d).
    { induction n as [|n IH]; intros j q; [reflexivity|]. destruct q; [destruct j; reflexivity|]. cbn. apply IH. }
    replace (nth (Z.to_nat m) l d) with (nth (Z.to_nat (m - a)) (firstn (Z.to_nat k) (skipn (Z.to_nat a) l)) d).
    + apply nth_In. rewrite firstn_length, skipn_length. unfold zlen in H2. lia.
    + rewrite FN by lia. rewrite SN. f_equal. lia.
Qed.

Lemma skipn_slice : forall A (l : list A) a, skipn (Z.to_nat a) l = firstn (Z.to_nat (zlen l)) (skipn (Z.to_nat a) l).
Proof. intros A l a. rewrite firstn_all2; [reflexivity|]. rewrite skipn_length. unfold zlen. lia. Qed.

(** ** Comparing bit by bit *)

Lemma sgn_step : forall A C a c, 0 <= a < 2 -> 0 <= c < 2 ->
  Z.sgn (2 * C + c - (2 * A + a)) = (c - a) * (1 - Z.sgn (C - A)) * (1 + Z.sgn (C - A)) + Z.sgn (C - A).
Proof.
  intros A C a c Ha Hc. destruct (Z.sgn_spec (C - A)) as [[H ->]|[[H ->]|[H ->]]].
  - rewrite Z.sgn_pos by lia. lia.
  - assert (C = A) by lia. subst. replace (2 * A + c - (2 * A + a)) with (c - a) by ring.
    assert (c - a = 0 \/ c - a = 1 \/ c - a = -1) as [-> |[-> | ->]] by lia; reflexivity.
  - rewrite Z.sgn_neg by lia. lia.
Qed.

Lemma tb_bounds : forall p, 2 <= p -> 2 ^ (Z.log2 p) <= p < 2 ^ (Z.log2 p + 1) /\ 1 <= Z.log2 p.
Proof.
  intros p Hp. pose proof (Z.log2_spec p ltac:(lia)) as H. rewrite <- Z.add_1_r in H.
  split; [exact H|]. change 1 with (Z.log2 2). apply Z.log2_le_mono. lia.
Qed.

(** The only number of [bits p] bits that is -1 modulo [p]. *)
Lemma pm1_unique : forall p C, prime p -> 3 <= p -> 0 <= C < 2 ^ (Z.log2 p + 1) -> (C + 1) mod p = 0 -> C = p - 1.
Proof.
  intros p C Hp H3 HC HM. pose proof (tb_bounds p ltac:(lia)) as [B L1].
  rewrite Z.pow_add_r in HC, B by lia. change (2 ^ 1) with 2 in *.
  apply Z.mod_divide in HM; [|lia]. destruct HM as [k Hk].
  assert (k = 1 \/ k = 2) as [-> | ->] by nia; [lia|].
  exfalso. assert (E : p = 2 ^ Z.log2 p) by lia.
  assert (D : (2 | p)). { rewrite E. replace (Z.log2 p) with (1 + (Z.log2 p - 1)) by lia. rewrite Z.pow_add_r by lia. exists (2 ^ (Z.log2 p - 1)). ring. }
  apply prime_divisors in D; [|exact Hp]. lia.
Qed.

Section Rep.
Variable P : params.
Notation F := (F P).
Add Field Ff : (F_field P) (morphism (F_morph P), constants [F_const], power_tac (F_power P) [F_pow_tac]).
Local Open Scope F_scope.

(** [x] and [q] hold the numbers [A] and [C] of [m] bits, [s] their order. *)
Definition rep (m : Z) (x q s : F) (A C : Z) : Prop :=
  (0 <= A < 2 ^ m)%Z /\ (0 <= C < 2 ^ m)%Z /\ x = ofZ A /\ q = ofZ C /\ s = ofZ (Z.sgn (C - A)).

Lemma rep_zero : rep 0 f0 f0 f0 0 0.
Proof. repeat split; try reflexivity; cbn; lia. Qed.

Lemma fbit_val : forall a : F, a * (a - f1) = f0 -> exists z, (0 <= z < 2)%Z /\ a = ofZ z.
Proof.
  intros a H. apply fmul_integral in H. destruct H as [H|H].
  - exists 0%Z. split; [lia|exact H].
  - exists 1%Z. split; [lia|]. apply fsub0 in H. exact H.
Qed.

Lemma rep_step : forall m x q s A C x' q' s' a c, (0 <= m)%Z -> rep m x q s A C ->
  (0 <= a < 2)%Z -> (0 <= c < 2)%Z ->
  x' = ofZ 2 * x + ofZ a -> q' = ofZ 2 * q + ofZ c ->
  s' = (ofZ c - ofZ a) * (f1 - s) * (f1 + s) + s ->
  rep (m + 1) x' q' s' (2 * A + a) (2 * C + c).
Proof.
  intros m x q s A C x' q' s' a c Hm [HA [HC [Ex [Eq Es]]]] Ha Hc Ex' Eq' Es'. unfold rep; rewrite !Z.pow_add_r by lia.
  change (2 ^ 1)%Z with 2%Z.
  split; [lia|]. split; [lia|]. split; [|split].
  - rewrite Ex', Ex, ofZ_add, ofZ_mul. reflexivity.
  - rewrite Eq', Eq, ofZ_add, ofZ_mul. reflexivity.
  - rewrite sgn_step by assumption. rewrite Es', Es.
    rewrite ofZ_add, !ofZ_mul, ofZ_add, !ofZ_sub. reflexivity.
Qed.

Lemma rep_weaken : forall m x q s A C, rep 0 x q s A C -> (0 <= m)%Z -> rep m x q s A C /\ A = 0%Z /\ C = 0%Z.
Proof.
  intros m x q s A C [HA [HC [Ex [Eq Es]]]] Hm. change (2 ^ 0)%Z with 1%Z in *.
  assert (0 < 2 ^ m)%Z by (apply Z.pow_pos_nonneg; lia).
  assert (A = 0%Z) by lia. assert (C = 0%Z) by lia. subst A C. repeat split; try assumption; lia.
Qed.
End Rep.
Arguments rep {P}.
