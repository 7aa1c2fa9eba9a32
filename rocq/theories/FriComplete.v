(** The FRI coset component: the table its assignment fills. *)
From Coq Require Import ZArith Znumtheory List Lia Bool Field.
From Verif Require Import Base Field Plonk PlonkFacts Bits FlexModel FlexProofs PowerProofs FriModel FriProofs FriSeq FriCosets FriSound.
Import ListNotations.
Open Scope Z_scope.

Lemma div2_step : forall X e, 0 <= e -> X / 2 ^ e = 2 * (X / 2 ^ (e + 1)) + (X / 2 ^ e) mod 2 /\ X / 2 ^ e / 2 = X / 2 ^ (e + 1).
Proof.
  intros X e He. pose proof (Z.pow_pos_nonneg 2 e ltac:(lia) He) as Hp.
  assert (E : X / 2 ^ e / 2 = X / 2 ^ (e + 1)) by (rewrite Z.pow_add_r, Z.pow_1_r by lia; apply Z.div_div; lia).
  split; [|exact E]. rewrite <- E. apply Z.div_mod. lia.
Qed.

Section Complete.
Variable P : params.
Notation F := (F P).
Notation table := (table P).
Variable L : lenv P.
Implicit Types T : table.
Add Field Ff : (F_field P) (morphism (F_morph P), constants [F_const], power_tac (F_power P) [F_pow_tac]).
Local Open Scope F_scope.

Lemma fc_sgn_sgn : forall x q, fc_sgn (P := P) x q = ofZ (Z.sgn (q - x)).
Proof.
  intros x q. unfold fc_sgn. f_equal.
  destruct (Z.ltb_spec x q); destruct (Z.ltb_spec q x); cbn [Z.b2z]; lia.
Qed.

(** ** Values *)

Section Values.
Variables (l n X : Z) (omega : F).
Hypothesis Hl : (0 < l)%Z.
Hypothesis Hn : (1 <= n)%Z.
Let Q := (char P - 1)%Z.

Definition sge (e : Z) : F := ofZ (Z.sgn (Q / 2 ^ e - X / 2 ^ e)).

Definition V9 (b i : Z) : F :=
  if (i =? 0)%Z then ofZ (X / 2 ^ b) else if (i =? 1)%Z then ofZ (Q / 2 ^ b) else if (i =? 2)%Z then sge b
  else if (i =? 3)%Z then zpow omega (2 ^ b) else if (i =? 4)%Z then zpow omega (X mod 2 ^ (b + 1))
  else if (i =? 5)%Z then zpow omega (2 ^ (n - 1 - b) * (X mod 2 ^ n))
  else if (i =? 6)%Z then fopp (zpow omega (2 ^ (n - 1 - b) * (X mod 2 ^ n)))
  else if (i =? 7)%Z then ofZ ((X / 2 ^ b) mod 2) else ofZ ((Q / 2 ^ b) mod 2).

(** Number of bits before the 3-block [k] of row [i]. *)
Definition ef (i k : Z) : Z := (n + (3 * l - 1) * (i - n / l) + (k - 3 * (n mod l) - 1))%Z.

Definition V3 (i j : Z) : F :=
  let k := (j / 3)%Z in let d := (j mod 3)%Z in let lo := lo_of l n i in
  if (k <? lo)%Z then (let e := ef i lo in if (d =? 0)%Z then ofZ (X / 2 ^ e) else if (d =? 1)%Z then ofZ (Q / 2 ^ e) else sge e)
  else (let e := ef i k in if (d =? 0)%Z then ofZ ((X / 2 ^ e) mod 2) else if (d =? 1)%Z then ofZ ((Q / 2 ^ e) mod 2) else sge e).

Lemma ef_next : forall i k, ef i (k + 1) = (ef i k + 1)%Z.
Proof. intros. unfold ef. ring. Qed.
Lemma ef_wrap : forall i, ef i (3 * l) = ef (i + 1) 1.
Proof. intros. unfold ef. ring. Qed.
Lemma ef_start : ef (n / l) (lo_of l n (n / l)) = n.
Proof. unfold ef, lo_of. rewrite Z.eqb_refl. ring. Qed.
Lemma ef_ge : forall i k, (n / l <= i)%Z -> (lo_of l n i <= k)%Z -> (n <= ef i k)%Z.
Proof.
  intros i k Hi Hk. unfold ef. unfold lo_of in Hk. pose proof (Z.mod_pos_bound n l Hl).
  destruct (Z.eqb_spec i (n / l)) as [E|E]; [subst i; rewrite Z.sub_diag; lia|].
  assert (3 * l - 1 <= (3 * l - 1) * (i - n / l))%Z by nia. lia.
Qed.

Lemma sge_step : forall e, (0 <= e)%Z ->
  sge e = (ofZ ((Q / 2 ^ e) mod 2) - ofZ ((X / 2 ^ e) mod 2)) * (f1 - sge (e + 1)) * (f1 + sge (e + 1)) + sge (e + 1).
Proof.
  intros e He. unfold sge. destruct (div2_step X e He) as [EX _]. destruct (div2_step Q e He) as [EQ _].
  pose proof (Z.mod_pos_bound (X / 2 ^ e) 2 ltac:(lia)). pose proof (Z.mod_pos_bound (Q / 2 ^ e) 2 ltac:(lia)).
  rewrite EQ at 1. rewrite EX at 1. rewrite sgn_step by assumption.
  rewrite ofZ_add, !ofZ_mul, ofZ_add, !ofZ_sub. reflexivity.
Qed.

(** A table with these values satisfies the constraints. *)
Variable Y : Z -> Z -> F.
Hypothesis HB : forall b i, (0 <= b < n)%Z -> (0 <= i < 9)%Z -> bcell P l Y b i = V9 b i.
Hypothesis H3 : forall i j, (n / l <= i < fc_end P l n)%Z -> (3 * (lo_of l n i - 1) <= j < 9 * l)%Z -> Y i j = V3 i j.
Hypothesis HE : forall j, (0 <= j < 3)%Z -> Y (fc_end P l n) j = V3 (fc_end P l n) j.
Hypothesis HR : (0 <= fc_remaining P (9 * l) n)%Z.
Hypothesis HX : (0 <= X < char P)%Z.

Lemma end_pos : (n / l <= fc_end P l n /\ lo_of l n (fc_end P l n) = 1)%Z.
Proof.
  destruct (blocks_pos l n Hl Hn) as [NR1 [EN [LB [Q1 [Q2 QN]]]]].
  pose proof (lfit_spec (fc_remaining P (9 * l) n) (3 * l - 1) ltac:(lia) HR) as [HB0 _].
  assert (lfit n l <= fc_end P l n)%Z by (unfold fc_end, fc_bits_rows; lia).
  split; [destruct (0 <? n mod l)%Z; lia|apply lo_after; assumption].
Qed.
Lemma ef_end : (fc_tb P <= ef (fc_end P l n) 1)%Z /\
  ((0 < fc_remaining P (9 * l) n mod (3 * l - 1))%Z -> (n / l <= fc_end P l n - 1)%Z /\ lo_of l n (fc_end P l n - 1) = 1%Z /\
    (ef (fc_end P l n - 1) (fc_remaining P (9 * l) n mod (3 * l - 1) + 1) = fc_tb P)%Z).
Proof.
  destruct (blocks_pos l n Hl Hn) as [NR1 [EN [LB [Q1 [Q2 QN]]]]].
  pose proof (lfit_spec (fc_remaining P (9 * l) n) (3 * l - 1) ltac:(lia) HR) as [HB0 HB1]. fold (fc_bits_rows P l n) in HB0, HB1.
  pose proof (rem_rows P l n Hl HR) as RR. cbv zeta in RR.
  set (R := fc_remaining P (9 * l) n) in *. set (B := fc_bits_rows P l n) in *.
  assert (EE : fc_end P l n = (lfit n l + B)%Z) by reflexivity. rewrite EE. set (nr := lfit n l) in *.
  assert (ER : (n + (3 * l - 1) * (nr - n / l) - 3 * (n mod l) = fc_tb P - R)%Z).
  { unfold R, fc_remaining, fc_last, fc_l. rewrite w9. rewrite QN. pose proof (Z.mod_pos_bound n l Hl).
    destruct (Z.ltb_spec 0 (n mod l)); [ring|]. replace (n mod l)%Z with 0%Z by lia. ring. }
  assert (HB1' : (R <= (3 * l - 1) * B)%Z) by (rewrite Z.mul_comm; lia).
  split.
  - unfold ef. replace (nr + B - n / l)%Z with ((nr - n / l) + B)%Z by ring. rewrite Z.mul_add_distr_l. lia.
  - intros G. destruct RR as [[R0 _]|[_ [B1 RB]]]; [lia|]. 
    assert (NL : (n / l <= nr)%Z) by (destruct (0 <? n mod l)%Z; lia).
    split; [lia|]. split; [apply lo_after; lia|]. unfold ef.
    replace (nr + B - 1 - n / l)%Z with ((nr - n / l) + (B - 1))%Z by ring. rewrite Z.mul_add_distr_l. rewrite (Z.mul_comm (3 * l - 1) (B - 1)). lia.
Qed.

(** Beyond the last bit everything is zero. *)
Lemma beyond : forall e, (fc_tb P <= e)%Z -> (X / 2 ^ e = 0 /\ Q / 2 ^ e = 0)%Z /\ sge e = f0.
Proof.
  intros e He. pose proof (char_ge_2 P). destruct (tb_bounds (char P) ltac:(lia)) as [[_ TB] TL].
  assert (0 <= fc_tb P)%Z by (unfold fc_tb; lia).
  pose proof (Z.pow_le_mono_r 2 (fc_tb P) e ltac:(lia) He) as PW. unfold fc_tb in PW at 1.
  assert (E : (X / 2 ^ e = 0 /\ Q / 2 ^ e = 0)%Z) by (unfold Q; split; apply Z.div_small; lia).
  split; [exact E|]. unfold sge. destruct E as [-> ->]. reflexivity.
Qed.

Lemma V3_entry : forall i d, (0 <= d < 3)%Z -> V3 i (3 * (lo_of l n i - 1) + d) =
  (let e := ef i (lo_of l n i) in if (d =? 0)%Z then ofZ (X / 2 ^ e) else if (d =? 1)%Z then ofZ (Q / 2 ^ e) else sge e).
Proof.
  intros i d Hd. unfold V3. replace (3 * (lo_of l n i - 1) + d)%Z with ((lo_of l n i - 1) * 3 + d)%Z by ring.
  destruct (pos_div 3 (lo_of l n i - 1) d Hd) as [-> ->]. cbv zeta.
  replace (lo_of l n i - 1 <? lo_of l n i)%Z with true by (symmetry; apply Z.ltb_lt; lia). reflexivity.
Qed.
Lemma V3_bit : forall i k d, (0 <= d < 3)%Z -> (lo_of l n i <= k)%Z -> V3 i (3 * k + d) =
  (let e := ef i k in if (d =? 0)%Z then ofZ ((X / 2 ^ e) mod 2) else if (d =? 1)%Z then ofZ ((Q / 2 ^ e) mod 2) else sge e).
Proof.
  intros i k d Hd Hk. unfold V3. replace (3 * k + d)%Z with (k * 3 + d)%Z by ring.
  destruct (pos_div 3 k d Hd) as [-> ->]. cbv zeta.
  replace (k <? lo_of l n i)%Z with false by (symmetry; apply Z.ltb_ge; lia). reflexivity.
Qed.

Lemma lo_bounds : forall i, (1 <= lo_of l n i < 3 * l)%Z.
Proof. intros i. unfold lo_of. pose proof (Z.mod_pos_bound n l Hl). destruct (i =? n / l)%Z; lia. Qed.
Lemma lo_later : forall i, (n / l < i)%Z -> lo_of l n i = 1%Z.
Proof. intros i H. unfold lo_of. replace (i =? n / l)%Z with false by (symmetry; apply Z.eqb_neq; lia). reflexivity. Qed.

(** The first three cells of the rows after the transition row. *)
Lemma row_start : forall i d, (n / l < i <= fc_end P l n)%Z -> (0 <= d < 3)%Z -> Y i d =
  (let e := ef i 1 in if (d =? 0)%Z then ofZ (X / 2 ^ e) else if (d =? 1)%Z then ofZ (Q / 2 ^ e) else sge e).
Proof.
  intros i d Hi Hd. pose proof (V3_entry i d Hd) as E. rewrite lo_later in E by lia. change (3 * (1 - 1) + d)%Z with d in E. rewrite <- E.
  destruct (Z.eq_dec i (fc_end P l n)) as [-> |N]; [apply HE; exact Hd|]. apply H3; [lia|]. rewrite lo_later by lia. lia.
Qed.

Lemma values_good : first_con P Y -> good P l n Y.
Proof.
  intros GF. destruct end_pos as [EP1 EP2].
  assert (NB : forall d, (0 <= d < 3)%Z -> bcell P l Y n d = (if (d =? 0)%Z then ofZ (X / 2 ^ n) else if (d =? 1)%Z then ofZ (Q / 2 ^ n) else sge n)).
  { intros d Hd. pose proof (V3_entry (n / l) d Hd) as E. cbv zeta in E. rewrite ef_start in E.
    assert (EL : (3 * (lo_of l n (n / l) - 1) = 9 * (n mod l))%Z) by (unfold lo_of; rewrite Z.eqb_refl; ring).
    rewrite EL in E. unfold bcell. rewrite <- E. pose proof (Z.mod_pos_bound n l Hl).
    destruct (Z.eq_dec (n / l) (fc_end P l n)) as [EE|N].
    - rewrite <- EE in EP2. unfold lo_of in EP2. rewrite Z.eqb_refl in EP2. replace (n mod l)%Z with 0%Z by lia. rewrite EE. apply HE. lia.
    - apply H3; [lia|]. rewrite EL. lia. }
  assert (NX : forall b d, (0 <= b < n)%Z -> (0 <= d < 3)%Z -> bcell P l Y (b + 1) d =
    (if (d =? 0)%Z then ofZ (X / 2 ^ (b + 1)) else if (d =? 1)%Z then ofZ (Q / 2 ^ (b + 1)) else sge (b + 1))).
  { intros b d Hb Hd. destruct (Z.eq_dec (b + 1) n) as [-> |N]; [apply NB; exact Hd|]. rewrite HB by lia. unfold V9.
    assert (d = 0 \/ d = 1 \/ d = 2)%Z as [-> |[-> | ->]] by lia; reflexivity. }
  constructor.
  - intros b i Hb Hi H34 H5. destruct (div2_step X b ltac:(lia)) as [EX _]. destruct (div2_step Q b ltac:(lia)) as [EQ _].
    pose proof (Z.mod_pos_bound (X / 2 ^ b) 2 ltac:(lia)) as MX. pose proof (Z.mod_pos_bound (Q / 2 ^ b) 2 ltac:(lia)) as MQ.
    assert (BIT : forall z, (0 <= z < 2)%Z -> (f1 - ofZ z) * ofZ z = (f0 : F)).
    { intros z Hz. assert (z = 0 \/ z = 1)%Z as [-> | ->] by lia; [change (ofZ 0 : F) with (f0 : F)|change (ofZ 1 : F) with (f1 : F)]; ring. }
    assert (i = 0 \/ i = 1 \/ i = 2 \/ i = 3 \/ i = 4 \/ i = 5 \/ i = 6 \/ i = 7 \/ i = 8)%Z
      as [-> |[-> |[-> |[-> |[-> |[-> |[-> |[-> | ->]]]]]]]] by lia; unfold bcon; cbn [Z.eqb Pos.eqb].
    + rewrite NX by lia. rewrite !HB by lia. unfold V9. cbn [Z.eqb Pos.eqb]. rewrite EX at 1. rewrite ofZ_add, ofZ_mul. ring.
    + rewrite NX by lia. rewrite !HB by lia. unfold V9. cbn [Z.eqb Pos.eqb]. rewrite EQ at 1. rewrite ofZ_add, ofZ_mul. ring.
    + rewrite NX by lia. rewrite !HB by lia. unfold V9. cbn [Z.eqb Pos.eqb]. rewrite (sge_step b) by lia. ring.
    + rewrite !HB by lia. unfold V9. cbn [Z.eqb Pos.eqb].
      rewrite <- zpow_plus by (apply Z.pow_nonneg; lia). replace (2 ^ (b - 1) + 2 ^ (b - 1))%Z with (2 ^ b)%Z; [ring|].
      replace b with ((b - 1) + 1)%Z at 1 by ring. rewrite Z.pow_add_r, Z.pow_1_r by lia. ring.
    + rewrite !HB by lia. unfold V9. cbn [Z.eqb Pos.eqb]. replace (b - 1 + 1)%Z with b by ring.
      rewrite (zpow_bit P _ (ofZ ((X / 2 ^ b) mod 2)) ((X / 2 ^ b) mod 2)) by (try reflexivity; exact MX).
      rewrite mod_pow_succ by lia. rewrite zpow_plus; [|apply Z.mod_pos_bound; apply Z.pow_pos_nonneg; lia|
        apply Z.mul_nonneg_nonneg; [apply Z.pow_nonneg; lia|lia]].
      assert (E : zpow omega (2 ^ b * ((X / 2 ^ b) mod 2)) = zpow (zpow omega (2 ^ b)) ((X / 2 ^ b) mod 2)).
      { unfold zpow. rewrite <- fpow_mul. f_equal. apply Z2Nat.inj_mul; [apply Z.pow_nonneg; lia|lia]. }
      rewrite E. ring.
    + rewrite !HB by lia. unfold V9. cbn [Z.eqb Pos.eqb].
      assert (HX0 : (0 <= X mod 2 ^ n)%Z) by (apply Z.mod_pos_bound; apply Z.pow_pos_nonneg; lia).
      assert (HP : (0 <= 2 ^ (n - 1 - (b + 1)) * (X mod 2 ^ n))%Z) by (apply Z.mul_nonneg_nonneg; [apply Z.pow_nonneg; lia|exact HX0]).
      rewrite <- zpow_plus by exact HP.
      replace (2 ^ (n - 1 - (b + 1)) * (X mod 2 ^ n) + 2 ^ (n - 1 - (b + 1)) * (X mod 2 ^ n))%Z with (2 ^ (n - 1 - b) * (X mod 2 ^ n))%Z; [ring|].
      replace (n - 1 - b)%Z with ((n - 1 - (b + 1)) + 1)%Z by ring. rewrite Z.pow_add_r, Z.pow_1_r by lia. ring.
    + rewrite !HB by lia. unfold V9. cbn [Z.eqb Pos.eqb]. ring.
    + rewrite !HB by lia. unfold V9. cbn [Z.eqb Pos.eqb]. apply BIT. exact MX.
    + rewrite !HB by lia. unfold V9. cbn [Z.eqb Pos.eqb]. apply BIT. exact MQ.
  - exact GF.
  - rewrite !HB by lia. unfold V9. cbn [Z.eqb Pos.eqb]. f_equal. replace (n - 1 - (n - 1))%Z with 0%Z by ring. rewrite Z.pow_0_r, Z.mul_1_l. do 2 f_equal. ring.
  - intros i Hi. pose proof (lo_bounds i) as LB.
    assert (VS : forall t : nat, (Z.of_nat t <= 3 * l - lo_of l n i)%Z ->
      vsum P Y (3 * l) i 0 (3 * l - Z.of_nat t) = ofZ (X / 2 ^ ef i (3 * l - Z.of_nat t)) /\
      vsum P Y (3 * l) i 1 (3 * l - Z.of_nat t) = ofZ (Q / 2 ^ ef i (3 * l - Z.of_nat t))).
    { induction t as [|t IH]; intros Ht.
      - rewrite Z.sub_0_r, !vsum_hi, !ef_wrap. rewrite !row_start by lia. split; reflexivity.
      - destruct (IH ltac:(lia)) as [I0 I1]. set (k := (3 * l - Z.of_nat (S t))%Z). replace (3 * l - Z.of_nat t)%Z with (k + 1)%Z in I0, I1 by lia.
        rewrite (vsum_step P Y (3 * l) i 0 k), (vsum_step P Y (3 * l) i 1 k) by lia. rewrite I0, I1, ef_next. pose proof (ef_ge i k ltac:(lia) ltac:(lia)).
        rewrite !(H3 i) by lia. rewrite !V3_bit by lia. cbv zeta. cbn [Z.eqb Pos.eqb].
        destruct (div2_step X (ef i k) ltac:(lia)) as [EX _]. destruct (div2_step Q (ef i k) ltac:(lia)) as [EQ _].
        split; [rewrite EX at 2|rewrite EQ at 2]; rewrite ofZ_add, ofZ_mul; reflexivity. }
    specialize (VS (Z.to_nat (3 * l - lo_of l n i))). rewrite Z2Nat.id in VS by lia. replace (3 * l - (3 * l - lo_of l n i))%Z with (lo_of l n i) in VS by ring.
    destruct (VS ltac:(lia)) as [VS0 VS1]. unfold row_con. rewrite VS0, VS1.
    rewrite <- (Z.add_0_r (3 * (lo_of l n i - 1))) at 1. rewrite !(H3 i) by lia. rewrite !V3_entry by lia. rewrite V3_bit by lia. cbv zeta. cbn [Z.eqb Pos.eqb].
    split; [reflexivity|]. split; [reflexivity|]. split; [reflexivity|].
    intros k d Hk Hd. pose proof (ef_ge i k ltac:(lia) ltac:(lia)) as EG.
    pose proof (Z.mod_pos_bound (X / 2 ^ ef i k) 2 ltac:(lia)) as MX. pose proof (Z.mod_pos_bound (Q / 2 ^ ef i k) 2 ltac:(lia)) as MQ.
    assert (BIT : forall z, (0 <= z < 2)%Z -> ofZ z * (ofZ z - f1) = (f0 : F)).
    { intros z Hz. assert (z = 0 \/ z = 1)%Z as [-> | ->] by lia; [change (ofZ 0 : F) with (f0 : F)|change (ofZ 1 : F) with (f1 : F)]; ring. }
    assert (d = 0 \/ d = 1 \/ d = 2)%Z as [-> |[-> | ->]] by lia; unfold kcon; cbn [Z.eqb Pos.eqb]; cbv zeta.
    + rewrite (H3 i) by lia. rewrite V3_bit by lia. apply BIT. exact MX.
    + rewrite (H3 i) by lia. rewrite V3_bit by lia. apply BIT. exact MQ.
    + assert (NXT : (if (k + 1 =? 3 * l)%Z then Y (i + 1)%Z 2%Z else Y i (3 * (k + 1) + 2)%Z) = sge (ef i k + 1)).
      { destruct (Z.eqb_spec (k + 1) (3 * l)) as [E|E].
        - rewrite row_start by lia. cbv zeta. cbn [Z.eqb Pos.eqb]. rewrite <- ef_wrap, <- E, ef_next. reflexivity.
        - rewrite (H3 i) by lia. rewrite V3_bit by lia. cbv zeta. cbn [Z.eqb Pos.eqb]. rewrite ef_next. reflexivity. }
      rewrite NXT. rewrite <- (Z.add_0_r (3 * k)) at 2. rewrite !(H3 i) by lia. rewrite !V3_bit by lia. cbv zeta. cbn [Z.eqb Pos.eqb].
      rewrite (sge_step (ef i k)) by lia. ring.
Qed.

Lemma values_tails : tails P l n Y.
Proof.
  destruct end_pos as [EP1 EP2]. destruct ef_end as [EE1 EE2]. constructor.
  - intros j Hj. rewrite HE by exact Hj. pose proof (V3_entry (fc_end P l n) j Hj) as E. rewrite EP2 in E. change (3 * (1 - 1) + j)%Z with j in E. rewrite E.
    cbv zeta. destruct (beyond _ EE1) as [[-> ->] ->]. destruct (j =? 0)%Z; [reflexivity|]. destruct (j =? 1)%Z; reflexivity.
  - intros j HR0 Hj. destruct (EE2 HR0) as [E1 [E2 E3]]. pose proof (Z.mod_pos_bound (fc_remaining P (9 * l) n) (3 * l - 1) ltac:(lia)) as MB.
    pose proof (Z.div_mod j 3 ltac:(lia)) as D. pose proof (Z.mod_pos_bound j 3 ltac:(lia)) as M.
    rewrite H3 by (rewrite ?E2; lia). rewrite D, V3_bit by (rewrite ?E2; lia). cbv zeta.
    assert (G : (fc_tb P <= ef (fc_end P l n - 1) (j / 3))%Z) by (rewrite <- E3; unfold ef; lia).
    destruct (beyond _ G) as [[-> ->] ->]. rewrite Z.mod_0_l by lia. destruct (j mod 3 =? 0)%Z; [reflexivity|]. destruct (j mod 3 =? 1)%Z; reflexivity.
Qed.

Lemma values_first : first_con P Y.
Proof.
  assert (B0 : forall i, bcell P l Y 0 i = Y 0%Z i). { intros i. unfold bcell. rewrite Z.div_0_l, Z.mod_0_l by lia. reflexivity. }
  unfold first_con. rewrite <- !B0, !HB by lia. unfold V9. cbn [Z.eqb Pos.eqb]. rewrite Z.pow_0_r, !Z.div_1_r. split; [|split].
  - unfold Q. rewrite ofZ_sub. assert (E : (ofZ (char P) : F) = f0) by (apply (F_ext P); rewrite fval_ofZ, Z.mod_same; [reflexivity|pose proof (char_ge_2 P); lia]).
    rewrite E. change (ofZ 1 : F) with (f1 : F). ring.
  - unfold sge. rewrite Z.pow_0_r, !Z.div_1_r. destruct (Z.eq_dec X Q) as [-> |N].
    + rewrite Z.sub_diag. change (ofZ (Z.sgn 0) : F) with (f0 : F). ring.
    + rewrite Z.sgn_pos by (unfold Q in *; lia). change (ofZ 1 : F) with (f1 : F). ring.
  - pose proof (Z.mod_pos_bound X 2 ltac:(lia)). rewrite (zpow_bit P _ (ofZ (X mod 2)) (X mod 2)) by (try reflexivity; lia).
    f_equal. change (zpow omega 1) with (omega * f1). ring.
Qed.
End Values.

(** ** The cells written *)

Definition slot (c : comp) (row i j : Z) (v : F) : Z * Z * F := (W c j, (row + i)%Z, v).

Lemma down_in : forall c l row n X omega k b, (0 <= b)%Z ->
  let Q := (char P - 1)%Z in
  let r := fc_down c l row k b (X / 2 ^ b) (Q / 2 ^ b) (zpow omega (2 ^ b)) (zpow omega (X mod 2 ^ b)) in
  let b2 := (b + Z.of_nat k)%Z in
  snd r = ((X / 2 ^ b2)%Z, (Q / 2 ^ b2)%Z, zpow omega (X mod 2 ^ b2)) /\
  forall u, In u (fst r) <-> exists b' i, (b <= b' < b2)%Z /\ (0 <= i < 5 \/ 7 <= i < 9)%Z /\
    u = slot c row (b' / l) (9 * (b' mod l) + i) (V9 n X omega b' i).
Proof.
  intros c l row n X omega k. induction k as [|k IH]; intros b Hb; cbv zeta.
  - cbn [fc_down fst snd]. rewrite Z.add_0_r. split; [reflexivity|]. intros u. split; [intros []|]. intros [b' [i [H _]]]. lia.
  - specialize (IH (b + 1)%Z ltac:(lia)). cbv zeta in IH. cbn [fc_down].
    rewrite (proj2 (div2_step X b Hb)), (proj2 (div2_step (char P - 1) b Hb)).
    assert (EW : zpow omega (2 ^ b) * zpow omega (2 ^ b) = zpow omega (2 ^ (b + 1))).
    { rewrite <- zpow_plus by (apply Z.pow_nonneg; lia). f_equal. rewrite Z.pow_add_r, Z.pow_1_r by lia. ring. }
    assert (EC : (if ((X / 2 ^ b) mod 2 =? 1)%Z then zpow omega (X mod 2 ^ b) * zpow omega (2 ^ b) else zpow omega (X mod 2 ^ b)) = zpow omega (X mod 2 ^ (b + 1))).
    { rewrite mod_pow_succ by lia. pose proof (Z.mod_pos_bound (X / 2 ^ b) 2 ltac:(lia)) as M.
      destruct (Z.eqb_spec ((X / 2 ^ b) mod 2) 1) as [E|E].
      - rewrite E, Z.mul_1_r. rewrite zpow_plus; [reflexivity|apply Z.mod_pos_bound; apply Z.pow_pos_nonneg; lia|apply Z.pow_nonneg; lia].
      - replace ((X / 2 ^ b) mod 2)%Z with 0%Z by lia. rewrite Z.mul_0_r, Z.add_0_r. reflexivity. }
    rewrite EW, EC. replace (b + Z.of_nat (S k))%Z with (b + 1 + Z.of_nat k)%Z by lia.
    destruct (fc_down c l row k (b + 1) (X / 2 ^ (b + 1)) ((char P - 1) / 2 ^ (b + 1)) (zpow omega (2 ^ (b + 1))) (zpow omega (X mod 2 ^ (b + 1)))) as [ws e].
    cbn [fst snd] in *. destruct IH as [-> IH]. split; [reflexivity|]. intros u.
    rewrite in_app_iff, IH. rewrite fc_sgn_sgn. split.
    + intros [H|[b' [i [H1 H2]]]]; [|exists b', i; split; [lia|exact H2]].
      repeat (destruct H as [<-|H]; [exists b; first
        [ exists 0%Z; split; [lia|]; split; [lia|]; unfold slot; rewrite Z.add_0_r; reflexivity
        | exists 1%Z; split; [lia|]; split; [lia|]; reflexivity
        | exists 2%Z; split; [lia|]; split; [lia|]; reflexivity
        | exists 3%Z; split; [lia|]; split; [lia|]; reflexivity
        | exists 4%Z; split; [lia|]; split; [lia|]; reflexivity
        | exists 7%Z; split; [lia|]; split; [lia|]; reflexivity
        | exists 8%Z; split; [lia|]; split; [lia|]; reflexivity ]|]). destruct H.
    + intros [b' [i [H1 [H2 H3]]]]. destruct (Z.eq_dec b' b) as [-> |N]; [|right; exists b', i; split; [lia|]; split; assumption].
      left. assert (i = 0 \/ i = 1 \/ i = 2 \/ i = 3 \/ i = 4 \/ i = 7 \/ i = 8)%Z as [-> |[-> |[-> |[-> |[-> |[-> | ->]]]]]] by lia;
        subst u; unfold slot; rewrite ?Z.add_0_r; unfold V9; cbn [Z.eqb Pos.eqb]; unfold sge; cbn [In]; tauto.
Qed.

Lemma up_in : forall c l row n X omega b, (Z.of_nat b <= n)%Z -> (1 <= n)%Z ->
  forall u, In u (fc_up c l row b (zpow omega (2 ^ (n - Z.of_nat b) * (X mod 2 ^ n)))) <->
  exists b' i, (0 <= b' < Z.of_nat b)%Z /\ (5 <= i < 7)%Z /\ u = slot c row (b' / l) (9 * (b' mod l) + i) (V9 n X omega b' i).
Proof.
  intros c l row n X omega b Hb Hn. induction b as [|b IH]; intros u.
  - cbn [fc_up]. split; [intros []|]. intros [b' [i [H _]]]. lia.
  - cbn [fc_up]. rewrite in_app_iff.
    assert (HX0 : (0 <= X mod 2 ^ n)%Z) by (apply Z.mod_pos_bound; apply Z.pow_pos_nonneg; lia).
    assert (HP : (0 <= 2 ^ (n - Z.of_nat (S b)) * (X mod 2 ^ n))%Z) by (apply Z.mul_nonneg_nonneg; [apply Z.pow_nonneg; lia|exact HX0]).
    assert (ES : zpow omega (2 ^ (n - Z.of_nat (S b)) * (X mod 2 ^ n)) * zpow omega (2 ^ (n - Z.of_nat (S b)) * (X mod 2 ^ n)) =
       zpow omega (2 ^ (n - Z.of_nat b) * (X mod 2 ^ n))).
    { rewrite <- zpow_plus by exact HP. f_equal. replace (n - Z.of_nat b)%Z with (n - Z.of_nat (S b) + 1)%Z by lia. rewrite Z.pow_add_r, Z.pow_1_r by lia. ring. }
    rewrite ES, IH by lia. replace (n - Z.of_nat (S b))%Z with (n - 1 - Z.of_nat b)%Z by lia. split.
    + intros [[<-|[<-|[]]]|[b' [i [H1 H2]]]]; [exists (Z.of_nat b), 5%Z|exists (Z.of_nat b), 6%Z|exists b', i; split; [lia|exact H2]]; (split; [lia|]; split; [lia|reflexivity]).
    + intros [b' [i [H1 [H2 H3]]]]. destruct (Z.eq_dec b' (Z.of_nat b)) as [-> |N]; [|right; exists b', i; split; [lia|]; split; assumption].
      left. assert (i = 5 \/ i = 6)%Z as [-> | ->] by lia; subst u; cbn [In]; [left|right; left]; reflexivity.
Qed.

(** The cells from the 3-block [k] of row [i] on. *)
Definition after (l n i k i' j' : Z) : Prop :=
  (i < fc_end P l n /\ ((i' = i /\ 3 * k <= j' < 9 * l) \/ (i < i' < fc_end P l n /\ 0 <= j' < 9 * l) \/ (i' = fc_end P l n /\ 0 <= j' < 3)))%Z.

Lemma bits_in : forall c l row n X fuel i k, wf_comp c (9 * l) -> (0 < l)%Z -> (1 <= n)%Z ->
  (n / l <= i)%Z -> (lo_of l n i <= k < 3 * l)%Z -> ((fc_end P l n - i) * (3 * l) - k <= Z.of_nat fuel)%Z ->
  forall u, In u (fc_bits fuel c (9 * l) (fc_end P l n + 1) row i (3 * k) (X / 2 ^ ef l n i k) ((char P - 1) / 2 ^ ef l n i k)) <->
  exists i' j', after l n i k i' j' /\ u = slot c row i' j' (V3 l n X i' j').
Proof.
  intros c l row n X fuel. induction fuel as [|fuel IH]; intros i k Hwf Hl Hn Hi Hk HF u.
  - cbn [fc_bits]. split; [intros []|]. intros [i' [j' [[H _] _]]]. exfalso.
    assert (3 * l <= (fc_end P l n - i) * (3 * l))%Z by nia. lia.
  - cbn [fc_bits]. replace (fc_end P l n + 1 - 1)%Z with (fc_end P l n) by ring.
    destruct (Z.ltb_spec i (fc_end P l n)) as [G|G].
    2: { split; [intros []|]. intros [i' [j' [[H _] _]]]. lia. }
    pose proof (ef_ge l n Hl i k Hi ltac:(lia)) as EG.
    rewrite (proj2 (div2_step X (ef l n i k) ltac:(lia))), (proj2 (div2_step (char P - 1) (ef l n i k) ltac:(lia))).
    rewrite !fc_sgn_sgn. rewrite <- ef_next. rewrite in_app_iff.
    assert (HEAD : In u [ (W c (3 * k), (row + i)%Z, ofZ ((X / 2 ^ ef l n i k) mod 2)); (W c (3 * k + 1), (row + i)%Z, ofZ (((char P - 1) / 2 ^ ef l n i k) mod 2));
        (W c (3 * k + 2), (row + i)%Z, ofZ (Z.sgn ((char P - 1) / 2 ^ ef l n i k - X / 2 ^ ef l n i k))) ] <->
      exists j', (3 * k <= j' < 3 * k + 3)%Z /\ u = slot c row i j' (V3 l n X i j')).
    { pose proof (V3_bit l n X i k) as VB. split.
      - intros [<-|[<-|[<-|[]]]].
        + exists (3 * k + 0)%Z. split; [lia|]. rewrite VB by lia. unfold slot. rewrite Z.add_0_r. reflexivity.
        + exists (3 * k + 1)%Z. split; [lia|]. rewrite VB by lia. reflexivity.
        + exists (3 * k + 2)%Z. split; [lia|]. rewrite VB by lia. reflexivity.
      - intros [j' [Hj ->]]. assert (j' = 3 * k + 0 \/ j' = 3 * k + 1 \/ j' = 3 * k + 2)%Z as [-> |[-> | ->]] by lia; rewrite VB by lia; unfold slot; cbv zeta; cbn [Z.eqb Pos.eqb].
        + left. rewrite Z.add_0_r. reflexivity.
        + right. left. reflexivity.
        + right. right. left. reflexivity. }
    rewrite HEAD. clear HEAD.
    destruct (Z.eqb_spec (3 * k + 3) (9 * l)) as [E|E].
    + assert (EK : (k + 1 = 3 * l)%Z) by lia. rewrite EK, ef_wrap. rewrite in_app_iff.
      assert (L1 : lo_of l n (i + 1) = 1%Z) by (apply lo_later; lia).
      assert (HF' : ((fc_end P l n - (i + 1)) * (3 * l) - 1 <= Z.of_nat fuel)%Z).
      { replace ((fc_end P l n - (i + 1)) * (3 * l))%Z with ((fc_end P l n - i) * (3 * l) - 3 * l)%Z by ring. lia. }
      pose proof (IH (i + 1)%Z 1%Z Hwf Hl Hn ltac:(lia) ltac:(lia) HF' u) as IHn. change (3 * 1)%Z with 3%Z in IHn. rewrite IHn. clear IHn.
      assert (NEXT : In u [ (W c 0, (row + (i + 1))%Z, ofZ (X / 2 ^ ef l n (i + 1) 1)); (W c 1, (row + (i + 1))%Z, ofZ ((char P - 1) / 2 ^ ef l n (i + 1) 1));
          (W c (3 * k + 3 + 2), (row + (i + 1))%Z, ofZ (Z.sgn ((char P - 1) / 2 ^ ef l n (i + 1) 1 - X / 2 ^ ef l n (i + 1) 1))) ] <->
        exists j', (0 <= j' < 3)%Z /\ u = slot c row (i + 1) j' (V3 l n X (i + 1) j')).
      { replace (W c (3 * k + 3 + 2)) with (W c 2) by (rewrite E, Z.add_comm; symmetry; apply (W_wrap c (9 * l)); exact Hwf).
        pose proof (V3_entry l n X (i + 1)) as VE. rewrite L1 in VE. change (3 * (1 - 1))%Z with 0%Z in VE. cbn [Z.add] in VE. split.
        - intros [<-|[<-|[<-|[]]]].
          + exists 0%Z. split; [lia|]. rewrite VE by lia. reflexivity.
          + exists 1%Z. split; [lia|]. rewrite VE by lia. reflexivity.
          + exists 2%Z. split; [lia|]. rewrite VE by lia. reflexivity.
        - intros [j' [Hj ->]]. assert (j' = 0 \/ j' = 1 \/ j' = 2)%Z as [-> |[-> | ->]] by lia; rewrite VE by lia; cbn [In]; [left|right; left|right; right; left]; reflexivity. }
      rewrite NEXT. clear NEXT. unfold after. split.
      * intros [[j' [H1 H2]]|[[j' [H1 H2]]|[i' [j' [H1 H2]]]]].
        -- exists i, j'. split; [lia|exact H2].
        -- exists (i + 1)%Z, j'. split; [|exact H2]. split; [exact G|]. right. destruct (Z.eq_dec (i + 1) (fc_end P l n)); lia.
        -- exists i', j'. split; [|exact H2]. split; [exact G|]. destruct H1 as [H1 H3]. right. lia.
      * intros [i' [j' [[_ H1] H2]]]. destruct (Z.eq_dec i' i) as [Ei|Ni].
        -- subst i'. left. exists j'. split; [lia|exact H2].
        -- right. destruct (Z.eq_dec i' (i + 1)) as [Ei|Ni1].
           ++ subst i'. destruct (Z.lt_ge_cases j' 3) as [J|J]; [left; exists j'; split; [lia|exact H2]|].
              right. exists (i + 1)%Z, j'. split; [|exact H2]. lia.
           ++ right. exists i', j'. split; [|exact H2]. lia.
    + replace (3 * k + 3)%Z with (3 * (k + 1))%Z by ring. rewrite (IH i (k + 1)%Z Hwf Hl Hn Hi ltac:(lia)) by lia. unfold after. split.
      * intros [[j' [H1 H2]]|[i' [j' [H1 H2]]]]; [exists i, j'; split; [lia|exact H2]|exists i', j'; split; [lia|exact H2]].
      * intros [i' [j' [[_ H1] H2]]]. destruct (Z.eq_dec i' i) as [Ei|Ni].
        -- subst i'. destruct (Z.lt_ge_cases j' (3 * (k + 1))) as [J|J]; [left; exists j'; split; [lia|exact H2]|].
           right. exists i, j'. split; [lia|exact H2].
        -- right. exists i', j'. split; [lia|exact H2].
Qed.

(** ** Completeness *)

Definition V (l n X : Z) (omega : F) (i j : Z) : F :=
  if (i * l + j / 9 <? n)%Z then V9 n X omega (i * l + j / 9) (j mod 9) else V3 l n X i j.
Definition region (l n i j : Z) : Prop :=
  ((0 <= i /\ 0 <= j < 9 * l /\ i * l + j / 9 < n) \/
   (n / l <= i < fc_end P l n /\ 3 * (lo_of l n i - 1) <= j < 9 * l) \/ (i = fc_end P l n /\ 0 <= j < 3))%Z.

Lemma fc_assign_cells : forall T c l n omega x row, wf_comp c (9 * l) -> (0 < l)%Z -> (1 <= n)%Z -> (0 <= fc_remaining P (9 * l) n)%Z ->
  exists ws, fc_assign c n omega x row T = wsets T ws /\
    forall u, In u ws <-> exists i j, region l n i j /\ u = slot c row i j (V l n (fval (vval T x)) omega i j).
Proof.
  intros T c l n omega x row Hwf Hl Hn HR. destruct Hwf as [ND [Hw Hp]]. assert (Hwf : wf_comp c (9 * l)) by (split; [exact ND|split; assumption]).
  set (X := fval (vval T x)). unfold fc_assign, fc_l. rewrite Hw, w9, (rows_end P l n Hl). fold X. cbv zeta.
  destruct (mod9 l n Hl) as [EM ED]. rewrite EM, ED.
  pose proof (down_in c l row n X omega (Z.to_nat n) 0 ltac:(lia)) as DN. cbv zeta in DN.
  rewrite Z.pow_0_r, !Z.div_1_r, Z.mod_1_r, Z2Nat.id, Z.add_0_l in DN by lia.
  change (zpow omega 0) with (f1 : F) in DN. replace (zpow omega 1) with omega in DN by (change (zpow omega 1) with (omega * f1); ring).
  destruct (fc_down c l row (Z.to_nat n) 0 X (char P - 1) omega f1) as [ws e]. cbn [fst snd] in DN. destruct DN as [-> DN].
  eexists. split; [reflexivity|]. intros u. rewrite !in_app_iff, DN.
  pose proof (up_in c l row n X omega (Z.to_nat n) ltac:(lia) Hn u) as UP. rewrite Z2Nat.id, Z.sub_diag, Z.pow_0_r, Z.mul_1_l in UP by lia. rewrite UP.
  destruct (end_pos l n Hl Hn HR) as [EP1 EP2]. pose proof (Z.mod_pos_bound n l Hl) as ML. pose proof (Z.div_pos n l ltac:(lia) Hl) as DP.
  pose proof (Z.div_mod n l ltac:(lia)) as DM.
  assert (LO : lo_of l n (n / l) = (3 * (n mod l) + 1)%Z) by (unfold lo_of; rewrite Z.eqb_refl; reflexivity).
  pose proof (bits_in c l row n X (Z.to_nat ((fc_end P l n + 1) * (9 * l))) (n / l) (3 * (n mod l) + 1) Hwf Hl Hn ltac:(lia) ltac:(lia)) as BI.
  assert (FU : ((fc_end P l n - n / l) * (3 * l) - (3 * (n mod l) + 1) <= Z.of_nat (Z.to_nat ((fc_end P l n + 1) * (9 * l))))%Z).
  { assert ((fc_end P l n - n / l) * (3 * l) <= (fc_end P l n + 1) * (9 * l))%Z by nia. lia. }
  specialize (BI FU u). clear FU. rewrite <- LO in BI at 2 3. rewrite (ef_start l n) in BI.
  replace (3 * (3 * (n mod l) + 1))%Z with (9 * (n mod l) + 3)%Z in BI by ring. rewrite BI. clear BI.
  assert (EN : In u [ (W c (9 * (n mod l)), (row + n / l)%Z, ofZ (X / 2 ^ n)); (W c (9 * (n mod l) + 1), (row + n / l)%Z, ofZ ((char P - 1) / 2 ^ n));
       (W c (9 * (n mod l) + 2), (row + n / l)%Z, fc_sgn (X / 2 ^ n) ((char P - 1) / 2 ^ n)) ] <->
     exists j', (9 * (n mod l) <= j' < 9 * (n mod l) + 3)%Z /\ u = slot c row (n / l) j' (V3 l n X (n / l) j')).
  { rewrite fc_sgn_sgn. pose proof (V3_entry l n X (n / l)) as VE. cbv zeta in VE. rewrite (ef_start l n), LO in VE.
    replace (3 * (3 * (n mod l) + 1 - 1))%Z with (9 * (n mod l))%Z in VE by ring. split.
    - intros [<-|[<-|[<-|[]]]].
      + exists (9 * (n mod l) + 0)%Z. split; [lia|]. rewrite VE by lia. unfold slot. rewrite Z.add_0_r. reflexivity.
      + exists (9 * (n mod l) + 1)%Z. split; [lia|]. rewrite VE by lia. reflexivity.
      + exists (9 * (n mod l) + 2)%Z. split; [lia|]. rewrite VE by lia. reflexivity.
    - intros [j' [Hj ->]]. assert (j' = 9 * (n mod l) + 0 \/ j' = 9 * (n mod l) + 1 \/ j' = 9 * (n mod l) + 2)%Z as [-> |[-> | ->]] by lia;
        rewrite VE by lia; unfold slot; cbn [Z.eqb Pos.eqb].
      + left. rewrite Z.add_0_r. reflexivity.
      + right. left. reflexivity.
      + right. right. left. reflexivity. }
  rewrite EN. clear EN.
  assert (VB : forall b i, (0 <= b < n)%Z -> (0 <= i < 9)%Z -> region l n (b / l) (9 * (b mod l) + i) /\
     V l n X omega (b / l) (9 * (b mod l) + i) = V9 n X omega b i).
  { intros b i Hb Hi. pose proof (Z.div_mod b l ltac:(lia)) as D. pose proof (Z.mod_pos_bound b l Hl) as M. pose proof (Z.div_pos b l ltac:(lia) Hl) as DPb.
    unfold region, V. replace (9 * (b mod l) + i)%Z with (b mod l * 9 + i)%Z by ring. destruct (pos_div 9 (b mod l) i Hi) as [-> ->].
    replace (b / l * l + b mod l)%Z with b by lia. replace (b <? n)%Z with true by (symmetry; apply Z.ltb_lt; lia).
    split; [left; lia|reflexivity]. }
  assert (V3R : forall i j, ((n / l <= i < fc_end P l n /\ 3 * (lo_of l n i - 1) <= j < 9 * l) \/ (i = fc_end P l n /\ 0 <= j < 3))%Z ->
     V l n X omega i j = V3 l n X i j).
  { intros i j H. unfold V. replace (i * l + j / 9 <? n)%Z with false; [reflexivity|]. symmetry. apply Z.ltb_ge.
    assert (HI : (n / l <= i)%Z) by lia. assert (J0 : (3 * (lo_of l n i - 1) <= j)%Z) by (destruct H as [H|[-> H]]; [lia|rewrite EP2; lia]).
    unfold lo_of in J0. destruct (Z.eqb_spec i (n / l)) as [E|E].
    - subst i. assert (n mod l <= j / 9)%Z by (apply Z.div_le_lower_bound; lia). lia.
    - assert (0 <= j / 9)%Z by (apply Z.div_pos; lia). assert ((n / l + 1) * l <= i * l)%Z by nia. lia. }
  split.
  - intros [[b' [i [H1 [H2 ->]]]]|[[b' [i [H1 [H2 ->]]]]|[[j' [H1 ->]]|[i' [j' [H1 ->]]]]]].
    + destruct (VB b' i ltac:(lia) ltac:(lia)) as [G1 G2]. exists (b' / l)%Z, (9 * (b' mod l) + i)%Z. split; [exact G1|]. rewrite G2. reflexivity.
    + destruct (VB b' i ltac:(lia) ltac:(lia)) as [G1 G2]. exists (b' / l)%Z, (9 * (b' mod l) + i)%Z. split; [exact G1|]. rewrite G2. reflexivity.
    + assert (RG : ((n / l <= n / l < fc_end P l n /\ 3 * (lo_of l n (n / l) - 1) <= j' < 9 * l) \/ (n / l = fc_end P l n /\ 0 <= j' < 3))%Z).
      { destruct (Z.eq_dec (n / l) (fc_end P l n)) as [E|E]; [right|left; lia]. split; [exact E|]. rewrite <- E in EP2. lia. }
      exists (n / l)%Z, j'. split; [right; exact RG|]. rewrite (V3R _ _ RG). reflexivity.
    + assert (RG : ((n / l <= i' < fc_end P l n /\ 3 * (lo_of l n i' - 1) <= j' < 9 * l) \/ (i' = fc_end P l n /\ 0 <= j' < 3))%Z).
      { destruct H1 as [H0 [H1|[H1|H1]]]; [left; destruct H1 as [-> H1]; lia| |right; exact H1]. left. rewrite lo_later by lia. lia. }
      exists i', j'. split; [right; exact RG|]. rewrite (V3R _ _ RG). reflexivity.
  - intros [i [j [[H|H] ->]]].
    + pose proof (Z.div_mod j 9 ltac:(lia)) as D. pose proof (Z.mod_pos_bound j 9 ltac:(lia)) as M.
      assert (HJ : (0 <= j / 9 < l)%Z) by (split; [apply Z.div_pos; lia|apply Z.div_lt_upper_bound; lia]).
      destruct (pos_div l i (j / 9) HJ) as [D1 D2].
      assert (HI : (0 <= i * l)%Z) by (apply Z.mul_nonneg_nonneg; lia).
      assert (EV : slot c row i j (V l n X omega i j) = slot c row ((i * l + j / 9) / l) (9 * ((i * l + j / 9) mod l) + j mod 9) (V9 n X omega (i * l + j / 9) (j mod 9))).
      { rewrite D1, D2. unfold slot, V. replace (i * l + j / 9 <? n)%Z with true by (symmetry; apply Z.ltb_lt; lia). rewrite <- D. reflexivity. }
      destruct (Z.le_gt_cases 5 (j mod 9)) as [J|J]; [destruct (Z.le_gt_cases 7 (j mod 9)) as [J7|J7]|].
      * left. exists (i * l + j / 9)%Z, (j mod 9)%Z. split; [lia|]. split; [lia|exact EV].
      * right. left. exists (i * l + j / 9)%Z, (j mod 9)%Z. split; [lia|]. split; [lia|exact EV].
      * left. exists (i * l + j / 9)%Z, (j mod 9)%Z. split; [lia|]. split; [lia|exact EV].
    + rewrite (V3R i j H). right. right. destruct (Z.eq_dec i (n / l)) as [E|E].
      * subst i. destruct (Z.lt_ge_cases j (9 * (n mod l) + 3)) as [J|J].
        -- left. exists j. split; [|reflexivity]. destruct H as [H|[H1 H2]]; [lia|]. rewrite <- H1 in EP2. lia.
        -- right. exists (n / l)%Z, j. split; [|reflexivity]. unfold after. destruct H as [H|[H1 H2]]; [lia|]. rewrite <- H1 in EP2. lia.
      * right. exists i, j. split; [|reflexivity]. unfold after. destruct H as [H|H]; [|lia]. rewrite lo_later in H by lia. lia.
Qed.

Lemma fc_complete_l : forall T c l n omega x row, wf_comp c (9 * l) -> (0 < l)%Z -> (1 <= n)%Z -> (0 <= fc_remaining P (9 * l) n)%Z ->
  C c 0 = 0%Z -> outside c (fc_rows P (9 * l) n) row x -> consts_in T (fc_circuit c n omega x row) ->
  let T' := fc_assign c n omega x row T in
  sat L T' (fc_circuit c n omega x row) /\ frame c (fc_rows P (9 * l) n) row T T'.
Proof.
  intros T c l n omega x row Hwf Hl Hn HR HC HO HK T'.
  destruct (fc_assign_cells T c l n omega x row Hwf Hl Hn HR) as [ws [EW HIN]]. fold T' in EW. set (X := fval (vval T x)) in *.
  assert (Hw : wamount c = (9 * l)%Z) by (destruct Hwf as [_ [H _]]; exact H).
  destruct (end_pos l n Hl Hn HR) as [EP1 EP2]. pose proof (Z.div_pos n l ltac:(lia) Hl) as DP.
  destruct (blocks_pos l n Hl Hn) as [NR1 [_ [_ [Q1 _]]]].
  assert (NE : (lfit n l <= fc_end P l n)%Z).
  { pose proof (lfit_spec (fc_remaining P (9 * l) n) (3 * l - 1) ltac:(lia) HR) as [HB0 _]. unfold fc_end, fc_bits_rows. lia. }
  assert (RGB : forall i j, region l n i j -> (0 <= i <= fc_end P l n /\ 0 <= j < 9 * l)%Z).
  { intros i j [H|[H|H]]; [|pose proof (lo_bounds l n Hl i); lia|lia]. split; [|lia]. split; [lia|].
    assert (0 <= j / 9)%Z by (apply Z.div_pos; lia). assert (i <= (n - 1) / l)%Z by (apply Z.div_le_lower_bound; lia). lia. }
  assert (HF : frame c (fc_rows P (9 * l) n) row T T').
  { rewrite EW. apply (wsets_frame P c (9 * l)); [exact Hwf|]. intros col r v H. apply HIN in H. destruct H as [i [j [H E]]]. injection E as -> -> _.
    apply RGB in H. rewrite rows_end by exact Hl. split; [exists j; reflexivity|lia]. }
  split; [|exact HF].
  assert (RD : forall i j, region l n i j -> area P T' c row i j = V l n X omega i j).
  { intros i j H. unfold area. rewrite EW. apply wsets_read; [apply HIN; exists i, j; split; [exact H|reflexivity]|].
    intros v' H'. apply HIN in H'. destruct H' as [i' [j' [H' E]]]. injection E as E1 E2 ->. assert (i' = i) by lia.
    apply RGB in H. apply RGB in H'. assert (j' = j) by (symmetry; eapply W_inj; [exact Hwf|lia|lia|exact E1]). subst. reflexivity. }
  set (Y := area P T' c row) in *.
  assert (HB : forall b i, (0 <= b < n)%Z -> (0 <= i < 9)%Z -> bcell P l Y b i = V9 n X omega b i).
  { intros b i Hb Hi. pose proof (Z.div_mod b l ltac:(lia)) as D. pose proof (Z.mod_pos_bound b l Hl) as M. pose proof (Z.div_pos b l ltac:(lia) Hl) as DPb.
    assert (E9 : ((9 * (b mod l) + i) / 9 = b mod l /\ (9 * (b mod l) + i) mod 9 = i)%Z)
      by (replace (9 * (b mod l) + i)%Z with (b mod l * 9 + i)%Z by ring; apply pos_div; exact Hi).
    destruct E9 as [E9 E9']. assert (EB : (b / l * l + (9 * (b mod l) + i) / 9 = b)%Z) by (rewrite E9; lia).
    unfold bcell. rewrite RD; [|left; rewrite EB; lia]. unfold V. rewrite EB, E9'.
    replace (b <? n)%Z with true by (symmetry; apply Z.ltb_lt; lia). reflexivity. }
  assert (V3R : forall i j, ((n / l <= i < fc_end P l n /\ 3 * (lo_of l n i - 1) <= j < 9 * l) \/ (i = fc_end P l n /\ 0 <= j < 3))%Z ->
     Y i j = V3 l n X i j).
  { intros i j H. rewrite RD by (right; exact H). unfold V. replace (i * l + j / 9 <? n)%Z with false; [reflexivity|]. symmetry. apply Z.ltb_ge.
    pose proof (Z.mod_pos_bound n l Hl) as ML. pose proof (Z.div_mod n l ltac:(lia)) as DM.
    assert (HI : (n / l <= i)%Z) by lia. assert (J0 : (3 * (lo_of l n i - 1) <= j)%Z) by (destruct H as [H|[-> H]]; [lia|rewrite EP2; lia]).
    unfold lo_of in J0. destruct (Z.eqb_spec i (n / l)) as [E|E].
    - subst i. assert (n mod l <= j / 9)%Z by (apply Z.div_le_lower_bound; lia). lia.
    - assert (0 <= j / 9)%Z by (apply Z.div_pos; lia). assert ((n / l + 1) * l <= i * l)%Z by nia. lia. }
  assert (H3 : forall i j, (n / l <= i < fc_end P l n)%Z -> (3 * (lo_of l n i - 1) <= j < 9 * l)%Z -> Y i j = V3 l n X i j) by (intros; apply V3R; left; auto).
  assert (HE : forall j, (0 <= j < 3)%Z -> Y (fc_end P l n) j = V3 l n X (fc_end P l n) j) by (intros; apply V3R; right; auto).
  assert (HX : (0 <= X < char P)%Z) by apply fval_range.
  rewrite circuit_parts, !sat_app.
  assert (K0 : T' CConst 0%Z row = omega /\ T' CConst 0%Z (row + 1)%Z = f0).
  { pose proof (consts_in_frame P c (fc_rows P (9 * l) n) row T T' _ HF HK) as HK'. rewrite circuit_parts in HK'. rewrite HC in HK'.
    split; apply HK'; rewrite !in_app_iff; right; right; cbn [In]; tauto. }
  split; [|split].
  - apply (gates_iff P L T' c l n row Hw Hl Hn HR). fold Y.
    apply (values_good l n X omega Hl Hn Y HB H3 HE HR). exact (values_first l n X omega Hl Hn Y HB HX).
  - apply (copies_iff P L T' c l n x row Hw Hl); [apply K0|]. fold Y.
    assert (B0 : forall i, bcell P l Y 0 i = Y 0%Z i). { intros i. unfold bcell. rewrite Z.div_0_l, Z.mod_0_l by lia. reflexivity. }
    rewrite <- !B0, !HB by lia. unfold V9. cbn [Z.eqb Pos.eqb]. split; [|split].
    + rewrite (vval_frame P c _ row T T' x HF HO). rewrite Z.pow_0_r, Z.div_1_r. symmetry. apply ofZ_fval.
    + rewrite (proj1 K0). change (omega = omega * f1). ring.
    + exact (values_tails l n X Hl Hn Y H3 HE HR HX).
  - rewrite !sat_cons. cbn [holds]. rewrite HC. split; [apply K0|]. split; [apply K0|intros ? []].
Qed.
End Complete.
