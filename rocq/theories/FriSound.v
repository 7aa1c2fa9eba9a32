(** The FRI coset component: what a satisfying table holds. *)
From Coq Require Import ZArith Znumtheory List Lia Bool Field.
From Verif Require Import Base Field Plonk PlonkFacts Bits FlexModel FlexProofs PowerProofs FriModel FriProofs FriSeq FriCosets.
Import ListNotations.
Open Scope Z_scope.

Section Sound.
Variable P : params.
Notation F := (F P).
Notation table := (table P).
Variable L : lenv P.
Implicit Types T : table.
Add Field Ff : (F_field P) (morphism (F_morph P), constants [F_const], power_tac (F_power P) [F_pow_tac]).
Local Open Scope F_scope.

Lemma zpow_plus : forall (a : F) m n, (0 <= m)%Z -> (0 <= n)%Z -> zpow a (m + n) = zpow a m * zpow a n.
Proof. intros a m n Hm Hn. unfold zpow. rewrite Z2Nat.inj_add by assumption. apply fpow_add. Qed.

(** ** The 3-blocks *)

(** The sign stored with the 3-block [k] of row [i]. *)
Definition ssg (l : Z) (Y : Z -> Z -> F) (i k : Z) : F :=
  if (k =? 3 * l)%Z then Y (i + 1)%Z 2%Z else Y i (3 * k + 2)%Z.

Lemma row_rep : forall l Y i lo hi m A C, (0 < l)%Z -> (0 <= m)%Z -> (1 <= lo <= hi)%Z -> (hi <= 3 * l)%Z ->
  (forall k d, (lo <= k < 3 * l)%Z -> (0 <= d < 3)%Z -> kcon P l Y i k d = f0) ->
  rep m (vsum P Y (3 * l) i 0 hi) (vsum P Y (3 * l) i 1 hi) (ssg l Y i hi) A C ->
  exists A' C', rep (m + (hi - lo)) (vsum P Y (3 * l) i 0 lo) (vsum P Y (3 * l) i 1 lo) (ssg l Y i lo) A' C'.
Proof.
  intros l Y i lo hi m A C Hl Hm Hlo Hhi HK H0.
  assert (G : forall t : nat, (Z.of_nat t <= hi - lo)%Z -> exists A' C',
    rep (m + Z.of_nat t) (vsum P Y (3 * l) i 0 (hi - Z.of_nat t)) (vsum P Y (3 * l) i 1 (hi - Z.of_nat t)) (ssg l Y i (hi - Z.of_nat t)) A' C').
  { induction t as [|t IH]; intros Ht.
    - exists A, C. rewrite Z.add_0_r, Z.sub_0_r. exact H0.
    - destruct (IH ltac:(lia)) as [A' [C' R]].
      set (k := (hi - Z.of_nat (S t))%Z) in *. replace (hi - Z.of_nat t)%Z with (k + 1)%Z in R by lia.
      assert (Hk : (lo <= k < 3 * l)%Z) by lia.
      pose proof (HK k 0%Z Hk ltac:(lia)) as K0. pose proof (HK k 1%Z Hk ltac:(lia)) as K1. pose proof (HK k 2%Z Hk ltac:(lia)) as K2.
      unfold kcon in K0, K1, K2. cbn [Z.eqb Pos.eqb] in K0, K1, K2.
      destruct (fbit_val P _ K0) as [a [Ha Ea]]. destruct (fbit_val P _ K1) as [c [Hc Ec]].
      exists (2 * A' + a)%Z, (2 * C' + c)%Z.
      replace (m + Z.of_nat (S t))%Z with (m + Z.of_nat t + 1)%Z by lia.
      eapply rep_step; [lia|exact R|exact Ha|exact Hc| | |].
      + rewrite vsum_step by lia. rewrite Ea. reflexivity.
      + rewrite vsum_step by lia. rewrite Ec. reflexivity.
      + unfold ssg at 1. replace (k =? 3 * l)%Z with false by (symmetry; apply Z.eqb_neq; lia).
        apply fsub0 in K2. rewrite <- K2. unfold ssg. rewrite Z.add_0_r in Ea. rewrite <- Ec, <- Ea. reflexivity. }
  specialize (G (Z.to_nat (hi - lo))). rewrite Z2Nat.id in G by lia. destruct (G ltac:(lia)) as [A' [C' R]].
  replace (hi - (hi - lo))%Z with lo in R by ring. exists A', C'. exact R.
Qed.

(** The remaining number stored before the 3-blocks of row [i]. *)
Definition entry (l n : Z) (Y : Z -> Z -> F) (m i A C : Z) : Prop :=
  let k := (lo_of l n i - 1)%Z in rep m (Y i (3 * k)%Z) (Y i (3 * k + 1)%Z) (Y i (3 * k + 2)%Z) A C.

Lemma row_entry : forall l n Y i hi m A C, (0 < l)%Z -> (0 <= m)%Z -> (1 <= lo_of l n i <= hi)%Z -> (lo_of l n i < 3 * l)%Z -> (hi <= 3 * l)%Z ->
  row_con P l Y i (lo_of l n i) ->
  rep m (vsum P Y (3 * l) i 0 hi) (vsum P Y (3 * l) i 1 hi) (ssg l Y i hi) A C ->
  exists A' C', entry l n Y (m + (hi - lo_of l n i)) i A' C'.
Proof.
  intros l n Y i hi m A C Hl Hm Hlo Hlo3 Hhi [H0 [H1 [H2 HK]]] R.
  destruct (row_rep l Y i (lo_of l n i) hi m A C Hl Hm Hlo Hhi HK R) as [A' [C' R']].
  exists A', C'. unfold entry. cbv zeta. rewrite <- H0, <- H1, H2.
  unfold ssg in R'. replace (lo_of l n i =? 3 * l)%Z with false in R' by (symmetry; apply Z.eqb_neq; lia). exact R'.
Qed.

(** The copy constraints, as equations on the cells of the instance. *)
Record tails (l n : Z) (Y : Z -> Z -> F) : Prop := {
  tl_zero : forall j, (0 <= j < 3)%Z -> Y (fc_end P l n) j = f0;
  tl_pad : forall j, (0 < fc_remaining P (9 * l) n mod (3 * l - 1))%Z ->
    (3 * (fc_remaining P (9 * l) n mod (3 * l - 1) + 1) <= j < 9 * l)%Z -> Y (fc_end P l n - 1)%Z j = f0 }.

Lemma vsum_zero : forall l Y i d k, (0 <= d < 3)%Z -> (k <= 3 * l)%Z -> Y (i + 1)%Z d = f0 ->
  (forall j, (3 * k <= j < 9 * l)%Z -> Y i j = f0) -> vsum P Y (3 * l) i d k = f0.
Proof.
  intros l Y i d k Hd Hk H0 HZ.
  assert (G : forall t : nat, (Z.of_nat t <= 3 * l - k)%Z -> vsum P Y (3 * l) i d (3 * l - Z.of_nat t) = f0).
  { induction t as [|t IH]; intros Ht; [rewrite Z.sub_0_r, vsum_hi; exact H0|].
    rewrite vsum_step by lia. replace (3 * l - Z.of_nat (S t) + 1)%Z with (3 * l - Z.of_nat t)%Z by lia.
    rewrite IH by lia. rewrite HZ by lia. ring. }
  specialize (G (Z.to_nat (3 * l - k))). rewrite Z2Nat.id in G by lia.
  replace (3 * l - (3 * l - k))%Z with k in G by ring. apply G. lia.
Qed.

Lemma rem_rows : forall l n, (0 < l)%Z -> (0 <= fc_remaining P (9 * l) n)%Z ->
  let R := fc_remaining P (9 * l) n in let per := (3 * l - 1)%Z in let B := fc_bits_rows P l n in
  ((R mod per = 0 /\ R = B * per) \/ (0 < R mod per /\ 1 <= B /\ R = (B - 1) * per + R mod per))%Z.
Proof.
  intros l n Hl HR R per B. unfold B, fc_bits_rows, lfit. fold R per.
  pose proof (Z.div_mod R per ltac:(lia)). pose proof (Z.mod_pos_bound R per ltac:(lia)). pose proof (Z.div_pos R per ltac:(lia) ltac:(lia)).
  destruct (Z.ltb_spec 0 (R mod per)); lia.
Qed.

Lemma lo_after : forall l n i, (0 < l)%Z -> (1 <= n)%Z -> (lfit n l <= i)%Z -> lo_of l n i = 1%Z.
Proof.
  intros l n i Hl Hn Hi. destruct (blocks_pos l n Hl Hn) as [NR1 [EN [LB [Q1 [Q2 QN]]]]].
  unfold lo_of. destruct (Z.eqb_spec i (n / l)) as [E|E]; [|reflexivity].
  destruct (Z.ltb_spec 0 (n mod l)); [lia|]. pose proof (Z.mod_pos_bound n l Hl). lia.
Qed.

(** After the 9-blocks, the remaining number has [tb - n] bits. *)
Lemma entry_all : forall l n Y, (0 < l)%Z -> (1 <= n)%Z -> (0 <= fc_remaining P (9 * l) n)%Z ->
  good P l n Y -> tails l n Y -> exists A C, rep (fc_tb P - n) (bcell P l Y n 0) (bcell P l Y n 1) (bcell P l Y n 2) A C.
Proof.
  intros l n Y Hl Hn HR [GB GF GL GR] [TZ TP].
  destruct (blocks_pos l n Hl Hn) as [NR1 [EN [LB [Q1 [Q2 QN]]]]]. set (nr := lfit n l) in *.
  set (R := fc_remaining P (9 * l) n) in *. pose proof (rem_rows l n Hl HR) as RR. cbv zeta in RR. fold R in RR.
  set (per := (3 * l - 1)%Z) in *. set (B := fc_bits_rows P l n) in *.
  assert (EE : fc_end P l n = (nr + B)%Z) by reflexivity. rewrite EE in *.
  pose proof (lfit_spec R per ltac:(lia) HR) as [HB _]. change (lfit R per) with B in HB.
  pose proof (Z.mod_pos_bound n l Hl) as ML.
  assert (NL : (n / l <= nr)%Z) by (destruct (0 <? n mod l)%Z; lia).
  assert (LA : forall i, (nr <= i)%Z -> lo_of l n i = 1%Z) by (intros; apply lo_after; assumption).
  (* the last row with bits *)
  assert (Z0 : forall i hi, (0 <= i)%Z -> (i + 1 = nr + B)%Z -> (1 <= hi <= 3 * l)%Z -> (forall j, (3 * hi <= j < 9 * l)%Z -> Y i j = f0) ->
    rep 0 (vsum P Y (3 * l) i 0 hi) (vsum P Y (3 * l) i 1 hi) (ssg l Y i hi) 0 0).
  { intros i hi Hi Ei Hhi HZ. rewrite !vsum_zero; try lia; try exact HZ; try (rewrite Ei; apply TZ; lia).
    replace (ssg l Y i hi) with (f0 : F); [apply rep_zero|].
    unfold ssg. destruct (Z.eqb_spec hi (3 * l)); [rewrite Ei; symmetry; apply TZ; lia|symmetry; apply HZ; lia]. }
  assert (ST : forall i m A C, (0 <= m)%Z -> (n / l <= i < nr + B)%Z -> (i + 1 >= nr)%Z -> entry l n Y m (i + 1) A C ->
    exists A' C', entry l n Y (m + (3 * l - lo_of l n i)) i A' C').
  { intros i m A C Hm Hi Hi1 E. unfold entry in E. rewrite LA in E by lia. cbv zeta in E. change (3 * (1 - 1))%Z with 0%Z in E. rewrite !Z.add_0_l in E.
    assert (LO : (1 <= lo_of l n i < 3 * l)%Z) by (unfold lo_of; destruct (i =? n / l)%Z; lia).
    apply (row_entry l n Y i (3 * l) m A C); try lia; [apply GR; lia|].
    rewrite !vsum_hi. unfold ssg. rewrite Z.eqb_refl. exact E. }
  assert (EN1 : exists A C, entry l n Y R nr A C).
  { destruct RR as [[R0 RB]|[R0 [B1 RB]]].
    - assert (G : forall t : nat, (Z.of_nat t <= B)%Z -> exists A C, entry l n Y (Z.of_nat t * per) (nr + B - Z.of_nat t) A C).
      { induction t as [|t IH]; intros Ht.
        - exists 0%Z, 0%Z. unfold entry. rewrite LA by lia. cbv zeta. change (Z.of_nat 0) with 0%Z. rewrite Z.sub_0_r. change (3 * (1 - 1))%Z with 0%Z. rewrite !Z.add_0_l.
          rewrite !TZ by lia. apply rep_zero.
        - destruct (IH ltac:(lia)) as [A [C E]].
          replace (nr + B - Z.of_nat t)%Z with (nr + B - Z.of_nat (S t) + 1)%Z in E by lia.
          destruct (ST (nr + B - Z.of_nat (S t))%Z (Z.of_nat t * per)%Z A C ltac:(apply Z.mul_nonneg_nonneg; lia) ltac:(lia) ltac:(lia) E) as [A' [C' E']].
          rewrite LA in E' by lia. exists A', C'. replace (Z.of_nat (S t) * per)%Z with (Z.of_nat t * per + (3 * l - 1))%Z by lia. exact E'. }
      specialize (G (Z.to_nat B)). rewrite Z2Nat.id in G by lia. replace (nr + B - B)%Z with nr in G by ring. rewrite RB. apply G. lia.
    - pose proof (Z.mod_pos_bound R per ltac:(lia)) as MP.
      assert (G : forall t : nat, (Z.of_nat t <= B - 1)%Z -> exists A C, entry l n Y (R mod per + Z.of_nat t * per) (nr + B - 1 - Z.of_nat t) A C).
      { induction t as [|t IH]; intros Ht.
        - assert (RP := Z0 (nr + B - 1)%Z (R mod per + 1)%Z ltac:(lia) ltac:(lia) ltac:(lia)
            (fun j Hj => TP j ltac:(lia) ltac:(lia))).
          destruct (row_entry l n Y (nr + B - 1) (R mod per + 1) 0 0 0 Hl ltac:(lia) ltac:(rewrite LA; lia) ltac:(rewrite LA; lia) ltac:(lia) (GR (nr + B - 1)%Z ltac:(lia)) RP) as [A' [C' E']].
          rewrite LA in E' by lia. exists A', C'. rewrite Z.sub_0_r.
          replace (R mod per + Z.of_nat 0 * per)%Z with (0 + (R mod per + 1 - 1))%Z by lia. exact E'.
        - destruct (IH ltac:(lia)) as [A [C E]].
          replace (nr + B - 1 - Z.of_nat t)%Z with (nr + B - 1 - Z.of_nat (S t) + 1)%Z in E by lia.
          destruct (ST (nr + B - 1 - Z.of_nat (S t))%Z (R mod per + Z.of_nat t * per)%Z A C ltac:(apply Z.add_nonneg_nonneg; [lia|apply Z.mul_nonneg_nonneg; lia]) ltac:(lia) ltac:(lia) E) as [A' [C' E']].
          rewrite LA in E' by lia. exists A', C'. replace (R mod per + Z.of_nat (S t) * per)%Z with (R mod per + Z.of_nat t * per + (3 * l - 1))%Z by lia. exact E'. }
      specialize (G (Z.to_nat (B - 1))). rewrite Z2Nat.id in G by lia. replace (nr + B - 1 - (B - 1))%Z with nr in G by ring.
      replace (R mod per + (B - 1) * per)%Z with R in G by (rewrite RB at 1; ring). apply G. lia. }
  assert (EN2 : exists A C, entry l n Y (fc_tb P - n) (n / l) A C).
  { destruct EN1 as [A [C E]]. unfold R, fc_remaining, fc_last, fc_l in E. rewrite w9 in E.
    destruct (Z.ltb_spec 0 (n mod l)) as [G|G].
    - replace nr with (n / l + 1)%Z in E by lia.
      destruct (ST (n / l)%Z _ A C ltac:(unfold R, fc_remaining, fc_last, fc_l in HR; rewrite w9 in HR; rewrite (proj2 (Z.ltb_lt _ _) G) in HR; exact HR) ltac:(lia) ltac:(lia) E) as [A' [C' E']].
      exists A', C'. unfold lo_of in E' at 1. rewrite Z.eqb_refl in E'.
      replace (fc_tb P - n)%Z with (fc_tb P - n - (3 * (l - n mod l) - 1) + (3 * l - (3 * (n mod l) + 1)))%Z by ring. exact E'.
    - rewrite QN. exists A, C. rewrite Z.sub_0_r in E. exact E. }
  destruct EN2 as [A [C E]]. exists A, C. unfold entry in E. unfold lo_of in E. rewrite Z.eqb_refl in E. cbv zeta in E.
  replace (3 * (3 * (n mod l) + 1 - 1))%Z with (9 * (n mod l))%Z in E by ring.
  unfold bcell. rewrite Z.add_0_r. exact E.
Qed.

(** ** The 9-blocks *)

Lemma blocks_rep : forall l n Y, (0 < l)%Z -> (1 <= n)%Z -> (n <= fc_tb P)%Z -> good P l n Y ->
  (exists A C, rep (fc_tb P - n) (bcell P l Y n 0) (bcell P l Y n 1) (bcell P l Y n 2) A C) ->
  exists A C, rep (fc_tb P) (bcell P l Y 0 0) (bcell P l Y 0 1) (bcell P l Y 0 2) A C /\
    forall j, (0 <= j < n)%Z -> bcell P l Y j 7 = ofZ ((A / 2 ^ j) mod 2).
Proof.
  intros l n Y Hl Hn Htb [GB GF GL GR] [A0 [C0 R0]].
  assert (G : forall t : nat, (Z.of_nat t <= n)%Z -> exists A C, 
    let b := (n - Z.of_nat t)%Z in
    rep (fc_tb P - b) (bcell P l Y b 0) (bcell P l Y b 1) (bcell P l Y b 2) A C /\
    forall j, (b <= j < n)%Z -> bcell P l Y j 7 = ofZ ((A / 2 ^ (j - b)) mod 2)).
  { induction t as [|t IH]; intros Ht.
    - exists A0, C0. cbv zeta. rewrite Z.sub_0_r. split; [exact R0|]. intros; lia.
    - destruct (IH ltac:(lia)) as [A [C [R HJ]]]. set (b := (n - Z.of_nat (S t))%Z).
      replace (n - Z.of_nat t)%Z with (b + 1)%Z in R, HJ by lia.
      assert (Hb : (0 <= b < n)%Z) by lia.
      pose proof (GB b 0%Z Hb ltac:(lia) ltac:(lia) ltac:(lia)) as K0. pose proof (GB b 1%Z Hb ltac:(lia) ltac:(lia) ltac:(lia)) as K1.
      pose proof (GB b 2%Z Hb ltac:(lia) ltac:(lia) ltac:(lia)) as K2. pose proof (GB b 7%Z Hb ltac:(lia) ltac:(lia) ltac:(lia)) as K7.
      pose proof (GB b 8%Z Hb ltac:(lia) ltac:(lia) ltac:(lia)) as K8.
      unfold bcon in K0, K1, K2, K7, K8. cbn [Z.eqb Pos.eqb] in K0, K1, K2, K7, K8.
      assert (B7 : bcell P l Y b 7 * (bcell P l Y b 7 - f1) = f0) by (transitivity (fopp (f0 : F)); [rewrite <- K7|]; ring).
      assert (B8 : bcell P l Y b 8 * (bcell P l Y b 8 - f1) = f0) by (transitivity (fopp (f0 : F)); [rewrite <- K8|]; ring).
      destruct (fbit_val P _ B7) as [a [Ha Ea]]. destruct (fbit_val P _ B8) as [c [Hc Ec]].
      exists (2 * A + a)%Z, (2 * C + c)%Z. cbv zeta. split.
      + replace (fc_tb P - b)%Z with (fc_tb P - (b + 1) + 1)%Z by ring.
        eapply rep_step; [lia|exact R|exact Ha|exact Hc| | |].
        * apply fsub0 in K0. rewrite <- Ea, <- K0. ring.
        * apply fsub0 in K1. rewrite <- Ec, <- K1. ring.
        * apply fsub0 in K2. rewrite <- Ec, <- Ea, <- K2. reflexivity.
      + intros j Hj. destruct (Z.eq_dec j b) as [E|E].
        * subst j. rewrite Z.sub_diag, Z.pow_0_r, Z.div_1_r, Ea. f_equal.
          rewrite Z.add_comm, (Z.mul_comm 2), Z.mod_add, Z.mod_small by lia. reflexivity.
        * rewrite HJ by lia. f_equal. f_equal. replace (j - b)%Z with (1 + (j - (b + 1)))%Z by ring.
          rewrite Z.pow_add_r, Z.pow_1_r by lia. rewrite <- Z.div_div; [|lia|apply Z.pow_pos_nonneg; lia].
          f_equal. symmetry. rewrite Z.add_comm, (Z.mul_comm 2), Z.div_add, Z.div_small by lia. lia. }
  specialize (G (Z.to_nat n)). rewrite Z2Nat.id in G by lia. destruct (G ltac:(lia)) as [A [C [R HJ]]].
  rewrite Z.sub_diag in R, HJ. rewrite Z.sub_0_r in R. exists A, C. split; [exact R|].
  intros j Hj. rewrite (HJ j Hj), Z.sub_0_r. reflexivity.
Qed.

(** The number decomposed is the value of the input. *)
Lemma canonical : forall A C (x q s : F), (3 <= char P)%Z -> rep (fc_tb P) x q s A C -> q = fopp f1 -> s * (f1 - s) = f0 ->
  A = fval x.
Proof.
  intros A C x q s Hp [HA [HC [Ex [Eq Es]]]] Hq Hs.
  assert (EC : C = (char P - 1)%Z).
  { apply pm1_unique; [apply char_prime|exact Hp|exact HC|].
    pose proof (Z.mod_0_l (char P) ltac:(lia)) as M0. rewrite <- M0. apply (ofZ_inj P). rewrite ofZ_add, <- Eq, Hq. change (ofZ 1 : F) with (f1 : F). change (ofZ 0 : F) with (f0 : F). ring. }
  assert (HS : (Z.sgn (C - A) <> -1)%Z).
  { intros E. rewrite E in Es. apply fmul_integral in Hs.
    assert (N1 : ofZ (-1) = fopp (f1 : F)) by reflexivity || (change (-1)%Z with (- (1))%Z; rewrite ofZ_opp; reflexivity).
    rewrite N1 in Es. subst s. destruct Hs as [H|H].
    - apply (f1_neq_f0 P). transitivity (fopp (fopp f1) : F); [ring|rewrite H; ring].
    - assert (Z2 : (ofZ 2 : F) = f0). { rewrite <- H. change 2%Z with (1 + 1)%Z. rewrite ofZ_add. change (ofZ 1 : F) with (f1 : F). ring. }
      apply (f_equal fval) in Z2. rewrite fval_ofZ, Z.mod_small in Z2 by lia. change (fval (f0 : F)) with 0%Z in Z2. discriminate. }
  assert (HAC : (A <= C)%Z). { destruct (Z.le_gt_cases A C) as [H|H]; [exact H|]. rewrite (Z.sgn_neg (C - A)) in HS by lia. lia. }
  rewrite Ex, fval_ofZ. symmetry. apply Z.mod_small. lia.
Qed.

(** ** Copy constraints *)

Lemma mod9 : forall l n, (0 < l)%Z -> ((9 * n) mod (9 * l) = 9 * (n mod l) /\ 9 * n / (9 * l) = n / l)%Z.
Proof. intros l n Hl. split; [apply Z.mul_mod_distr_l; lia|apply Z.div_mul_cancel_l; lia]. Qed.

Lemma rows_end : forall l n, (0 < l)%Z -> fc_rows P (9 * l) n = (fc_end P l n + 1)%Z.
Proof.
  intros l n Hl. destruct (mod9 l n Hl) as [M D]. unfold fc_rows, fc_end, fc_bits_rows, fc_remaining, fc_last, fc_l, fc_trans. rewrite w9, w3.
  f_equal. f_equal.
  - unfold lfit. rewrite M, D. f_equal. pose proof (Z.mod_pos_bound n l Hl).
    destruct (Z.ltb_spec 0 (9 * (n mod l))); destruct (Z.ltb_spec 0 (n mod l)); lia.
  - f_equal. f_equal. rewrite M. pose proof (Z.mod_pos_bound n l Hl).
    destruct (Z.ltb_spec 0 (9 * (n mod l))); destruct (Z.ltb_spec 0 (n mod l)); try lia.
    replace (9 * l - 9 * (n mod l))%Z with (3 * (l - n mod l) * 3)%Z by ring. rewrite Z.div_mul by lia. reflexivity.
Qed.

Lemma copies_iff : forall T c l n x row, wamount c = (9 * l)%Z -> (0 < l)%Z -> T CConst 0%Z (row + 1)%Z = f0 ->
  (sat L T (fc_copies c n x row) <->
   vval T x = area P T c row 0 0 /\ T CConst 0%Z row = area P T c row 0 3 /\ tails l n (area P T c row)).
Proof.
  intros T c l n x row Hw Hl HC. unfold fc_copies. rewrite Hw, w3, (rows_end l n Hl). cbv zeta.
  rewrite !sat_app, !sat_cons, !sat_map. cbn [holds]. rewrite !vval_wcell, !vval_ccell.
  unfold area at 1 2. rewrite !Z.add_0_r.
  assert (EP : sat L T (if (0 <? fc_remaining P (9 * l) n mod (3 * l - 1))%Z
     then map (fun j => Copy (ccell 0 (row + 1)) (wcell (W c j) (row + (fc_end P l n + 1) - 2)))
       (zseq (3 * (fc_remaining P (9 * l) n mod (3 * l - 1) + 1)) (9 * l)) else []) <->
     (forall j, (0 < fc_remaining P (9 * l) n mod (3 * l - 1))%Z ->
       (3 * (fc_remaining P (9 * l) n mod (3 * l - 1) + 1) <= j < 9 * l)%Z -> area P T c row (fc_end P l n - 1) j = f0)).
  { unfold area. replace (row + (fc_end P l n + 1) - 2)%Z with (row + (fc_end P l n - 1))%Z by ring.
    destruct (Z.ltb_spec 0 (fc_remaining P (9 * l) n mod (3 * l - 1))) as [G|G].
    - rewrite sat_map. split.
      + intros H j _ Hj. specialize (H j ltac:(apply in_zseq; exact Hj)). cbn [holds] in H. rewrite vval_wcell, vval_ccell, HC in H. symmetry. exact H.
      + intros H j Hj. apply in_zseq in Hj. cbn [holds]. rewrite vval_wcell, vval_ccell, HC. symmetry. apply H; assumption.
    - split; [intros _ j H; lia|intros _ ? []]. }
  rewrite EP.
  assert (EZ : (forall a, In a (zseq 0 3) -> holds L T (Copy (ccell 0 (row + 1)) (wcell (W c a) (row + (fc_end P l n + 1) - 1)))) <->
     (forall j, (0 <= j < 3)%Z -> area P T c row (fc_end P l n) j = f0)).
  { unfold area. replace (row + (fc_end P l n + 1) - 1)%Z with (row + fc_end P l n)%Z by ring. split.
    - intros H j Hj. specialize (H j ltac:(apply in_zseq; exact Hj)). cbn [holds] in H. rewrite vval_wcell, vval_ccell, HC in H. symmetry. exact H.
    - intros H j Hj. apply in_zseq in Hj. cbn [holds]. rewrite vval_wcell, vval_ccell, HC. symmetry. apply H; assumption. }
  cbn [holds] in EZ. rewrite EZ. split.
  - intros [[H1 [H2 _]] [H3 H4]]. split; [exact H1|]. split; [exact H2|]. constructor; assumption.
  - intros [H1 [H2 [H4 H3]]]. split; [split; [exact H1|split; [exact H2|intros ? []]]|]. split; assumption.
Qed.

(** ** Soundness *)

Lemma zpow_bit : forall (a b : F) z, (0 <= z < 2)%Z -> b = ofZ z -> a * b + f1 - b = zpow a z.
Proof.
  intros a b z Hz ->. assert (z = 0 \/ z = 1)%Z as [-> | ->] by lia.
  - change (ofZ 0 : F) with (f0 : F). change (zpow a 0) with (f1 : F). ring.
  - change (ofZ 1 : F) with (f1 : F). change (zpow a 1) with (a * f1). ring.
Qed.

Lemma mod_pow_succ : forall A j, (0 <= j)%Z -> (A mod 2 ^ (j + 1) = A mod 2 ^ j + 2 ^ j * ((A / 2 ^ j) mod 2))%Z.
Proof. intros A j Hj. rewrite Z.pow_add_r, Z.pow_1_r by lia. apply Z.rem_mul_r; [pose proof (Z.pow_pos_nonneg 2 j ltac:(lia) Hj); lia|lia]. Qed.

Lemma good_values : forall l n Y omega, (3 <= char P)%Z -> (0 < l)%Z -> (1 <= n)%Z -> (0 <= fc_remaining P (9 * l) n)%Z ->
  good P l n Y -> tails l n Y -> Y 0%Z 3%Z = omega -> let X := fval (Y 0%Z 0%Z) in
  forall k, (0 <= k < n)%Z ->
   bcell P l Y (n - 1 - k) 5 = zpow omega (2 ^ k * (X mod 2 ^ n)) /\
   bcell P l Y (n - 1 - k) 6 = fopp (zpow omega (2 ^ k * (X mod 2 ^ n))) /\
   bcell P l Y (n - 1 - k) 7 = ofZ ((X / 2 ^ (n - 1 - k)) mod 2).
Proof.
  intros l n Y omega Hp Hl Hn HR HG HT HO X.
  assert (Htb : (n <= fc_tb P)%Z).
  { unfold fc_remaining, fc_last, fc_l in HR. rewrite w9 in HR. pose proof (Z.mod_pos_bound n l Hl). destruct (0 <? n mod l)%Z; lia. }
  destruct (blocks_rep l n Y Hl Hn Htb HG (entry_all l n Y Hl Hn HR HG HT)) as [A [C [R HB]]].
  destruct HG as [GB [GF1 [GF2 GF4]] GL GR].
  assert (B0 : forall i, bcell P l Y 0 i = Y 0%Z i). { intros i. unfold bcell. rewrite Z.div_0_l, Z.mod_0_l by lia. reflexivity. }
  rewrite !B0 in R. assert (EA : A = X) by (eapply canonical; eassumption). subst A.
  (* powers of omega *)
  assert (P3 : forall j : nat, (Z.of_nat j < n)%Z -> bcell P l Y (Z.of_nat j) 3 = zpow omega (2 ^ Z.of_nat j)).
  { induction j as [|j IH]; intros Hj.
    - rewrite B0, HO. change (2 ^ Z.of_nat 0)%Z with 1%Z. change (zpow omega 1) with (omega * f1). ring.
    - pose proof (GB (Z.of_nat (S j)) 3%Z ltac:(lia) ltac:(lia) ltac:(lia) ltac:(lia)) as K. unfold bcon in K. cbn [Z.eqb Pos.eqb] in K.
      apply fsub0 in K. rewrite K. replace (Z.of_nat (S j) - 1)%Z with (Z.of_nat j) by lia. rewrite IH by lia.
      replace (Z.of_nat (S j)) with (Z.of_nat j + 1)%Z by lia. rewrite Z.pow_add_r, Z.pow_1_r by lia.
      rewrite <- zpow_plus by (apply Z.pow_nonneg; lia). f_equal. ring. }
  assert (P4 : forall j : nat, (Z.of_nat j < n)%Z -> bcell P l Y (Z.of_nat j) 4 = zpow omega (X mod 2 ^ (Z.of_nat j + 1))).
  { assert (PB : forall j : Z, (0 <= j < n)%Z -> bcell P l Y j 3 * bcell P l Y j 7 + f1 - bcell P l Y j 7 = zpow omega (2 ^ j * ((X / 2 ^ j) mod 2))).
    { intros j Hj. rewrite (zpow_bit _ _ ((X / 2 ^ j) mod 2)) by (try apply HB; try apply Z.mod_pos_bound; lia).
      specialize (P3 (Z.to_nat j)). rewrite Z2Nat.id in P3 by lia. rewrite P3 by lia.
      unfold zpow. rewrite <- fpow_mul. f_equal. rewrite Z2Nat.inj_mul; [reflexivity|apply Z.pow_nonneg; lia|].
      pose proof (Z.mod_pos_bound (X / 2 ^ j) 2 ltac:(lia)). lia. }
    induction j as [|j IH]; intros Hj.
    - rewrite B0, GF4. specialize (PB 0%Z ltac:(lia)). rewrite !B0 in PB. rewrite PB. f_equal.
      cbn [Z.of_nat]. rewrite Z.pow_0_r, Z.mul_1_l, Z.div_1_r. reflexivity.
    - pose proof (GB (Z.of_nat (S j)) 4%Z ltac:(lia) ltac:(lia) ltac:(lia) ltac:(lia)) as K. unfold bcon in K. cbn [Z.eqb Pos.eqb] in K.
      apply fsub0 in K. rewrite K, PB by lia. replace (Z.of_nat (S j) - 1)%Z with (Z.of_nat j) by lia. rewrite IH by lia.
      rewrite (mod_pow_succ X (Z.of_nat (S j))) by lia. replace (Z.of_nat j + 1)%Z with (Z.of_nat (S j)) by lia.
      rewrite zpow_plus; [reflexivity|apply Z.mod_pos_bound; apply Z.pow_pos_nonneg; lia|].
      apply Z.mul_nonneg_nonneg; [apply Z.pow_nonneg; lia|apply Z.mod_pos_bound; lia]. }
  assert (P5 : forall k : nat, (Z.of_nat k < n)%Z -> bcell P l Y (n - 1 - Z.of_nat k) 5 = zpow omega (2 ^ Z.of_nat k * (X mod 2 ^ n))).
  { assert (HX : (0 <= X mod 2 ^ n)%Z) by (apply Z.mod_pos_bound; apply Z.pow_pos_nonneg; lia).
    induction k as [|k IH]; intros Hk.
    - cbn [Z.of_nat]. rewrite Z.sub_0_r, GL, Z.pow_0_r, Z.mul_1_l. specialize (P4 (Z.to_nat (n - 1))). rewrite Z2Nat.id in P4 by lia.
      rewrite P4 by lia. do 2 f_equal. f_equal. ring.
    - pose proof (GB (n - 1 - Z.of_nat (S k))%Z 5%Z ltac:(lia) ltac:(lia) ltac:(lia) ltac:(lia)) as K. unfold bcon in K. cbn [Z.eqb Pos.eqb] in K.
      apply fsub0 in K. rewrite K. replace (n - 1 - Z.of_nat (S k) + 1)%Z with (n - 1 - Z.of_nat k)%Z by lia. rewrite IH by lia.
      assert (0 <= 2 ^ Z.of_nat k * (X mod 2 ^ n))%Z by (apply Z.mul_nonneg_nonneg; [apply Z.pow_nonneg; lia|exact HX]).
      rewrite <- zpow_plus by assumption. f_equal.
      replace (Z.of_nat (S k)) with (Z.of_nat k + 1)%Z by lia. rewrite Z.pow_add_r, Z.pow_1_r by lia. ring. }
  intros k Hk. specialize (P5 (Z.to_nat k)). rewrite Z2Nat.id in P5 by lia. rewrite P5 by lia. split; [reflexivity|]. split.
  - pose proof (GB (n - 1 - k)%Z 6%Z ltac:(lia) ltac:(lia) ltac:(lia) ltac:(lia)) as K. unfold bcon in K. cbn [Z.eqb Pos.eqb] in K.
    rewrite P5 in K by lia. apply fsub0. transitivity (zpow omega (2 ^ k * (X mod 2 ^ n)) + bcell P l Y (n - 1 - k) 6); [ring|exact K].
  - apply HB. lia.
Qed.

Lemma fc_out_nth : forall c l n row k d, wamount c = (9 * l)%Z -> (0 < l)%Z -> (0 <= k < n)%Z ->
  znth d (fc_out c n row) k =
  let b := (n - 1 - k)%Z in
  (wcell (W c (9 * (b mod l) + 5)) (row + b / l), wcell (W c (9 * (b mod l) + 6)) (row + b / l), wcell (W c (9 * (b mod l) + 7)) (row + b / l)).
Proof.
  intros c l n row k d Hw Hl Hk. unfold fc_out, fc_l. rewrite Hw, w9. cbv zeta.
  set (f := fun b : Z => _). transitivity (f (n - 1 - k)%Z); [|reflexivity].
  rewrite map_rev. unfold znth.
  assert (LN : length (zseq 0 n) = Z.to_nat n) by (rewrite zseq_length; f_equal; lia).
  rewrite rev_nth by (rewrite map_length, LN; lia). rewrite map_length, LN.
  replace (Z.to_nat n - S (Z.to_nat k))%nat with (Z.to_nat (n - 1 - k)) by lia.
  apply (znth_map_zseq _ f 0 n (n - 1 - k) d). lia.
Qed.

Lemma fc_sound_l : forall T c l n omega x row, (3 <= char P)%Z -> wamount c = (9 * l)%Z -> (0 < l)%Z -> (1 <= n)%Z ->
  (0 <= fc_remaining P (9 * l) n)%Z -> C c 0 = 0%Z -> sat L T (fc_circuit c n omega x row) ->
  let X := fval (vval T x) in
  forall k d, (0 <= k < n)%Z ->
   let '(a, b, e) := znth d (fc_out c n row) k in
   vval T a = zpow omega (2 ^ k * (X mod 2 ^ n)) /\ vval T b = fopp (zpow omega (2 ^ k * (X mod 2 ^ n))) /\
   vval T e = ofZ ((X / 2 ^ (n - 1 - k)) mod 2).
Proof.
  intros T c l n omega x row Hp Hw Hl Hn HR HC HS X k d Hk.
  rewrite circuit_parts, !sat_app in HS. destruct HS as [HS1 [HS2 HS3]].
  rewrite !sat_cons in HS3. cbn [holds] in HS3. destruct HS3 as [C0 [C1 _]]. rewrite HC in C0, C1.
  apply (gates_iff P L T c l n row Hw Hl Hn HR) in HS1. apply (copies_iff T c l n x row Hw Hl C1) in HS2.
  destruct HS2 as [EX [EO HT]]. rewrite C0 in EO.
  pose proof (good_values l n (area P T c row) omega Hp Hl Hn HR HS1 HT (eq_sym EO) k Hk) as G. cbv zeta in G.
  rewrite <- EX in G. fold X in G. rewrite (fc_out_nth c l n row k d Hw Hl Hk). cbv beta iota zeta. rewrite !vval_wcell. exact G.
Qed.
End Sound.
