(** Soundness and completeness of exponentiation. *)
From Coq Require Import ZArith List Lia Bool Field.
From Verif Require Import Base Field Primes Plonk PlonkFacts Bits FieldOpsModel PowerModel.
Import ListNotations.
Open Scope Z_scope.

Lemma exp_main_spec : forall size, 0 < size ->
  1 <= exp_main size /\ size <= exp_padded size < size + 8 /\ exp_padded size = 8 * exp_main size.
Proof.
  intros size H. unfold exp_padded, exp_main. replace (size + 8 - 1) with (size + 7) by lia.
  pose proof (Z.div_mod (size + 7) 8 ltac:(lia)). pose proof (Z.mod_pos_bound (size + 7) 8 ltac:(lia)). lia.
Qed.

Section Proofs.
Variable P : params.
Notation F := (F P).
Notation table := (table P).
Variable L : lenv P.
Implicit Types T : table.
Add Field Ff : (F_field P) (morphism (F_morph P), constants [F_const], power_tac (F_power P) [F_pow_tac]).
Local Open Scope F_scope.

Definition zpow (a : F) (n : Z) : F := fpow a (Z.to_nat n).

Lemma zpow_step : forall a n d, (0 <= n)%Z -> (0 <= d < 2)%Z ->
  zpow a n * zpow a n * (a * ofZ d + (ofZ 1 - ofZ d)) = zpow a (2 * n + d).
Proof.
  intros a n d Hn Hd. unfold zpow.
  assert (D : (d = 0 \/ d = 1)%Z) by lia. destruct D as [-> | ->].
  - replace (Z.to_nat (2 * n + 0)) with (Z.to_nat n + Z.to_nat n)%nat by lia. rewrite fpow_add. ring.
  - replace (Z.to_nat (2 * n + 1)) with (S (Z.to_nat n + Z.to_nat n)) by lia. cbn [fpow]. rewrite fpow_add. ring.
Qed.

(** The cells of one row. *)
Definition bcell T c r k : F := T CWit (W c (14 - k)) r.

(** What the gate says on one row. *)
Definition exp_row T c r : Prop :=
  let base := T CWit (W c 0) r in
  let b k := bcell T c r k in
  let st a k := a * a * (base * b k + (ofZ 1 - b k)) in
  (forall k, (0 <= k < 8)%Z -> b k * (ofZ 1 - b k) = f0) /\
  (forall j, (0 <= j < 4)%Z -> T CWit (W c (2 + j)) r =
     st (st (if (j =? 0)%Z then T CWit (W c 5) (r + -1)%Z else T CWit (W c (2 + j - 1)) r) (2 * j)%Z) (2 * j + 1)%Z) /\
  T CWit (W c 1) r = fhorner (ofZ 2) b 8 + ofZ (2 ^ 8) * T CWit (W c 1) (r + -1)%Z.

Lemma case8 : forall Q : Z -> Prop,
  Q 0%Z -> Q 1%Z -> Q 2%Z -> Q 3%Z -> Q 4%Z -> Q 5%Z -> Q 6%Z -> Q 7%Z -> forall k, (0 <= k < 8)%Z -> Q k.
Proof.
  intros Q H0 H1 H2 H3 H4 H5 H6 H7 k Hk.
  assert (D : (k = 0 \/ k = 1 \/ k = 2 \/ k = 3 \/ k = 4 \/ k = 5 \/ k = 6 \/ k = 7)%Z) by lia.
  destruct D as [D|[D|[D|[D|[D|[D|[D|D]]]]]]]; rewrite D; assumption.
Qed.
Lemma case4 : forall Q : Z -> Prop,
  Q 0%Z -> Q 1%Z -> Q 2%Z -> Q 3%Z -> forall k, (0 <= k < 4)%Z -> Q k.
Proof.
  intros Q H0 H1 H2 H3 k Hk.
  assert (D : (k = 0 \/ k = 1 \/ k = 2 \/ k = 3)%Z) by lia.
  destruct D as [D|[D|[D|D]]]; rewrite D; assumption.
Qed.

Lemma exp_gate_iff : forall T c r,
  (forall e, In e (exp_gate c) -> eval T r e = f0) <-> exp_row T c r.
Proof.
  intros T c r. unfold exp_gate, exp_row, exp_sum, exp_inter, exp_step, exp_bit, exp_prev, exp_bitcol, bcell.
  change (zseq 0 4) with [0; 1; 2; 3]%Z. change (zseq 0 2) with [0; 1]%Z.
  cbn [flat_map map app tl fold_left fst snd Z.eqb].
  rewrite ?all_cons, all_nil. rewrite ?eval_bin, ?eval_evar, ?eval_ecst, ?gval_wv, ?Z.add_0_r. cbn [ebop].
  unfold fhorner. change (zseq 0 8) with [0; 1; 2; 3; 4; 5; 6; 7]%Z. cbn [fold_left].
  cbn [Z.mul Z.sub Z.add Z.opp Pos.add Pos.mul Pos.sub Pos.succ Z.pos_sub Pos.pred_double Z.succ_double Z.pred_double Z.double Pos.add_carry].
  split.
  - intros H. repeat match goal with H : _ /\ _ |- _ => destruct H as [?E H] end.
    split; [|split].
    + apply case8; cbn [Z.sub Z.add Z.opp Z.pos_sub Pos.pred_double Z.succ_double Z.pred_double Z.double]; assumption.
    + apply case4; cbn; symmetry; apply fsub0; assumption.
    + symmetry. apply fsub0. etransitivity; [|eassumption]. ring.
  - intros [H1 [H2 H3]].
    pose proof (H1 0%Z ltac:(lia)) as B0. pose proof (H1 1%Z ltac:(lia)) as B1.
    pose proof (H1 2%Z ltac:(lia)) as B2. pose proof (H1 3%Z ltac:(lia)) as B3.
    pose proof (H1 4%Z ltac:(lia)) as B4. pose proof (H1 5%Z ltac:(lia)) as B5.
    pose proof (H1 6%Z ltac:(lia)) as B6. pose proof (H1 7%Z ltac:(lia)) as B7.
    pose proof (H2 0%Z ltac:(lia)) as I0. pose proof (H2 1%Z ltac:(lia)) as I1.
    pose proof (H2 2%Z ltac:(lia)) as I2. pose proof (H2 3%Z ltac:(lia)) as I3.
    clear H1 H2.
    cbn [Z.mul Z.sub Z.add Z.opp Z.eqb Pos.eqb Pos.add Pos.mul Pos.sub Pos.succ Z.pos_sub Pos.pred_double Z.succ_double Z.pred_double Z.double Pos.add_carry] in *.
    repeat split; try assumption; try (apply fsub_eq0; symmetry; assumption).
    apply fsub_eq0. symmetry. etransitivity; [eassumption|]. ring.
Qed.

Lemma dig_bool : forall b : F, b * (ofZ 1 - b) = f0 -> exists d, (0 <= d < 2)%Z /\ b = ofZ d.
Proof.
  intros b H. apply fmul_integral in H. destruct H as [H|H].
  - exists 0%Z. split; [lia|exact H].
  - exists 1%Z. split; [lia|]. symmetry. apply fsub0. exact H.
Qed.

(** One row, with integer digits. *)
Lemma exp_row_digits : forall T c r (d : Z -> Z) base n0,
  exp_row T c r -> T CWit (W c 0) r = base -> (0 <= n0)%Z ->
  (forall k, (0 <= k < 8)%Z -> (0 <= d k < 2)%Z /\ bcell T c r k = ofZ (d k)) ->
  T CWit (W c 5) (r + -1)%Z = zpow base n0 -> T CWit (W c 1) (r + -1)%Z = ofZ n0 ->
  let n1 := (n0 * 2 ^ 8 + horner 2 d 8)%Z in
  T CWit (W c 5) r = zpow base n1 /\ T CWit (W c 1) r = ofZ n1.
Proof.
  intros T c r d base n0 [_ [HI HN]] Hb Hn0 Hd H5 H1 n1. split.
  - pose proof (HI 0%Z ltac:(lia)) as I0. pose proof (HI 1%Z ltac:(lia)) as I1.
    pose proof (HI 2%Z ltac:(lia)) as I2. pose proof (HI 3%Z ltac:(lia)) as I3. clear HI HN.
    assert (HB : forall k, (0 <= k < 8)%Z -> bcell T c r k = ofZ (d k)) by (intros; apply Hd; assumption).
    rewrite Hb in I0, I1, I2, I3. rewrite !HB in I0 by lia. rewrite !HB in I1 by lia. rewrite !HB in I2 by lia. rewrite !HB in I3 by lia.
    cbn [Z.eqb] in I0, I1, I2, I3. rewrite H5 in I0.
    pose proof (proj1 (Hd 0%Z ltac:(lia))). pose proof (proj1 (Hd 1%Z ltac:(lia))).
    pose proof (proj1 (Hd 2%Z ltac:(lia))). pose proof (proj1 (Hd 3%Z ltac:(lia))).
    pose proof (proj1 (Hd 4%Z ltac:(lia))). pose proof (proj1 (Hd 5%Z ltac:(lia))).
    pose proof (proj1 (Hd 6%Z ltac:(lia))). pose proof (proj1 (Hd 7%Z ltac:(lia))).
    change (1 =? 0)%Z with false in I1. change (2 =? 0)%Z with false in I2. change (3 =? 0)%Z with false in I3. cbv iota in I1, I2, I3.
    change (2 * 0)%Z with 0%Z in I0. change (0 + 1)%Z with 1%Z in I0. change (2 + 0)%Z with 2%Z in I0.
    rewrite !zpow_step in I0 by (try apply Hd; lia).
    change (2 + 1 - 1)%Z with 2%Z in I1. change (2 * 1)%Z with 2%Z in I1. change (2 + 1)%Z with 3%Z in I1.
    change (2 + 2 - 1)%Z with 3%Z in I2. change (2 * 2)%Z with 4%Z in I2. change (2 + 2)%Z with 4%Z in I2. change (4 + 1)%Z with 5%Z in I2.
    change (2 + 3 - 1)%Z with 4%Z in I3. change (2 * 3)%Z with 6%Z in I3. change (2 + 3)%Z with 5%Z in I3. change (6 + 1)%Z with 7%Z in I3.
    rewrite I0, !zpow_step in I1 by (try apply Hd; lia).
    rewrite I1, !zpow_step in I2 by (try apply Hd; lia).
    rewrite I2, !zpow_step in I3 by (try apply Hd; lia).
    rewrite I3. f_equal. unfold n1, horner. change (zseq 0 8) with [0; 1; 2; 3; 4; 5; 6; 7]%Z. cbn [fold_left].
    change (2 ^ 8)%Z with 256%Z. lia.
  - rewrite HN, H1. rewrite (fhorner_ofZ P 2 d) by (intros k Hk; apply Hd; exact Hk).
    rewrite <- ofZ_mul, <- ofZ_add. f_equal. unfold n1. ring.
Qed.

Lemma exp_sound_l : forall T c size base ex row,
  (0 < size)%Z -> C c 0 = W c 0 ->
  sat L T (exp_circuit c size base ex row) ->
  exists B, (0 <= B < 2 ^ exp_padded size)%Z /\ vval T ex = ofZ B /\
    vval T (exp_out c size row) = zpow (vval T base) B.
Proof.
  intros T c size base ex row Hs HC H. destruct (exp_main_spec size Hs) as [M1 [_ M3]].
  unfold exp_circuit, exp_copies in H. rewrite sat_cons, !sat_app, sat_map in H.
  destruct H as [G [[HB HC1] HK]].
  repeat rewrite sat_cons in HC1. repeat rewrite sat_cons in HK. cbn [holds] in HC1, HK.
  destruct HC1 as [E1 [E5 [EX _]]]. destruct HK as [K0 [K1 _]].
  rewrite vval_wcell, vval_ccell in E1, E5. rewrite vval_wcell in EX. rewrite HC in K0, K1.
  rewrite K0 in E1. rewrite K1 in E5. change (2 + 4 - 1)%Z with 5%Z in E5.
  unfold exp_rows in *. set (m := exp_main size) in *.
  assert (R : forall i, (0 <= i < m)%Z -> exp_row T c (row + 1 + i)).
  { intros i Hi. apply exp_gate_iff. intros e He. apply (G (row + 1 + i)%Z); [apply in_zseq; lia|exact He]. }
  assert (Hd : forall k, (0 <= k < 8 * m)%Z -> exists d, (0 <= d < 2)%Z /\ bcell T c (row + 1 + k / 8) (k mod 8) = ofZ d).
  { intros k Hk. pose proof (Z.div_mod k 8 ltac:(lia)). pose proof (Z.mod_pos_bound k 8 ltac:(lia)).
    apply dig_bool. apply R; lia. }
  apply choose_range in Hd. destruct Hd as [d Hd].
  assert (S : forall i, (0 <= i)%Z -> (i <= m)%Z ->
    T CWit (W c 5) (row + i)%Z = zpow (vval T base) (horner 2 d (8 * i)) /\
    T CWit (W c 1) (row + i)%Z = ofZ (horner 2 d (8 * i))).
  { refine (natlike_ind _ _ _).
    - intros _. rewrite Z.add_0_r. rewrite E1, E5. split; reflexivity.
    - intros i Hi IH Hle. destruct (IH ltac:(lia)) as [IH5 IH1]. unfold Z.succ.
      pose proof (exp_row_digits T c (row + 1 + i)%Z (fun k => d (8 * i + k)%Z) (vval T base) (horner 2 d (8 * i))
        (R i ltac:(lia))) as X. cbv zeta in X.
      replace (row + 1 + i + -1)%Z with (row + i)%Z in X by lia.
      replace (8 * (i + 1))%Z with (8 * i + 8)%Z by ring. rewrite horner_split by lia.
      replace (row + (i + 1))%Z with (row + 1 + i)%Z by lia.
      apply X; try assumption.
      + apply (HB (row + 1 + i)%Z). apply in_zseq. lia.
      + apply horner_bound; [lia|lia|]. intros k Hk. apply Hd. lia.
      + intros k Hk. destruct (Hd (8 * i + k)%Z ltac:(lia)) as [D1 D2]. split; [exact D1|].
        rewrite <- D2. replace (8 * i + k)%Z with (k + i * 8)%Z by ring.
        rewrite Z.div_add, Z.mod_add, Z.div_small, Z.mod_small by lia. reflexivity. }
  destruct (S m ltac:(lia) ltac:(lia)) as [S5 S1].
  exists (horner 2 d (8 * m)). rewrite M3. split; [|split].
  - apply horner_bound; [lia|lia|]. intros k Hk. apply Hd. lia.
  - rewrite <- EX, <- S1. f_equal. lia.
  - unfold exp_out, exp_rows. rewrite vval_wcell. change (2 + 4 - 1)%Z with 5%Z. rewrite <- S5. f_equal. fold m. lia.
Qed.

(** ** Completeness *)

Definition exp_pre (size e t : Z) : Z := (e / 2 ^ (exp_padded size - t))%Z.

Lemma exp_pre_S : forall size e t, (0 <= t < exp_padded size)%Z ->
  exp_pre size e (t + 1) = (2 * exp_pre size e t + Z.b2z (exp_bits size e t))%Z.
Proof.
  intros size e t Ht. unfold exp_pre, exp_bits.
  rewrite testbit_digit by lia. set (n := (exp_padded size - (t + 1))%Z).
  replace (exp_padded size - t)%Z with (n + 1)%Z by lia. replace (exp_padded size - 1 - t)%Z with n by lia.
  rewrite Z.pow_add_r by lia. rewrite <- Z.div_div by (try apply Z.pow_pos_nonneg; lia).
  change (2 ^ 1)%Z with 2%Z. pose proof (Z.div_mod (e / 2 ^ n) 2 ltac:(lia)). lia.
Qed.

Lemma exp_pre_0 : forall size e, (0 <= e < 2 ^ exp_padded size)%Z -> exp_pre size e 0 = 0%Z.
Proof. intros. unfold exp_pre. rewrite Z.sub_0_r. apply Z.div_small. exact H. Qed.
Lemma exp_pre_full : forall size e, exp_pre size e (exp_padded size) = e.
Proof. intros. unfold exp_pre. rewrite Z.sub_diag. apply Z.div_1_r. Qed.
Lemma exp_pre_nonneg : forall size e t, (0 <= e)%Z -> (t <= exp_padded size)%Z -> (0 <= exp_pre size e t)%Z.
Proof. intros. unfold exp_pre. apply Z.div_pos; [lia|apply Z.pow_pos_nonneg; lia]. Qed.

Lemma exp_acc_ok : forall size e base, (0 <= e < 2 ^ exp_padded size)%Z -> forall t, (0 <= t)%Z -> (t <= exp_padded size)%Z ->
  exp_acc (exp_bits size e) base t = zpow base (exp_pre size e t).
Proof.
  intros size e base He. refine (natlike_ind _ _ _).
  - intros _. rewrite exp_pre_0 by exact He. reflexivity.
  - intros t Ht IH Hle. unfold Z.succ. unfold exp_acc. rewrite fold_zseq_snoc by lia. fold (exp_acc (exp_bits size e) base t).
    rewrite IH by lia. rewrite Z.add_0_l || idtac. rewrite exp_pre_S by lia.
    rewrite <- zpow_step by (try apply b2z_range; apply exp_pre_nonneg; lia).
    destruct (exp_bits size e t); cbn [Z.b2z]; change (ofZ 1) with (f1 : F); change (ofZ 0) with (f0 : F); ring.
Qed.

Lemma exp_n_ok : forall size e, (0 <= e < 2 ^ exp_padded size)%Z -> forall t, (0 <= t)%Z -> (2 * t <= exp_padded size)%Z ->
  exp_n (exp_bits size e) t = (ofZ (exp_pre size e (2 * t)) : F).
Proof.
  intros size e He. refine (natlike_ind _ _ _).
  - intros _. rewrite exp_pre_0 by exact He. reflexivity.
  - intros t Ht IH Hle. unfold Z.succ. unfold exp_n. rewrite fold_zseq_snoc by lia. fold (exp_n (P := P) (exp_bits size e) t).
    rewrite IH by lia. replace (2 * (t + 1))%Z with (2 * t + 1 + 1)%Z by ring. rewrite !exp_pre_S by lia.
    rewrite !ofZ_add, !ofZ_mul, !ofZ_add, !ofZ_mul.
    destruct (exp_bits size e (2 * t)), (exp_bits size e (2 * t + 1)); cbn [Z.b2z bitF];
      change (ofZ 1) with (f1 : F); change (ofZ 0) with (f0 : F); ring.
Qed.

(** The cells an honest run (or a run with another integer [e] in place of the
    exponent) leaves behind. *)
Definition exp_filled T c size (base : F) (e row : Z) : Prop :=
  T CWit (W c 1) row = f0 /\ T CWit (W c 5) row = f1 /\
  forall i, (0 <= i < exp_main size)%Z ->
    T CWit (W c 0) (row + 1 + i)%Z = base /\
    T CWit (W c 1) (row + 1 + i)%Z = exp_n (exp_bits size e) (i * 4 + 4) /\
    (forall k, (0 <= k < 8)%Z -> bcell T c (row + 1 + i) k = bitF (exp_bits size e (i * 8 + k))) /\
    (forall j, (0 <= j < 4)%Z -> T CWit (W c (2 + j)) (row + 1 + i)%Z = exp_acc (exp_bits size e) base (i * 8 + j * 2 + 2)).

Lemma exp_writes_in : forall c size base e row col r (v : F),
  In (col, r, v) (exp_writes c size base e row) <->
  (col = W c 1 /\ r = row /\ v = f0) \/ (col = 5%Z /\ r = row /\ v = f1) \/
  exists i, (0 <= i < exp_main size)%Z /\ r = (row + 1 + i)%Z /\
   ((col = W c 0 /\ v = base) \/ (col = W c 1 /\ v = exp_n (exp_bits size e) (i * 4 + 4)) \/
    (exists k, (0 <= k < 8)%Z /\ col = W c (14 - k) /\ v = bitF (exp_bits size e (i * 8 + k))) \/
    (exists j, (0 <= j < 4)%Z /\ col = W c (2 + j) /\ v = exp_acc (exp_bits size e) base (i * 8 + j * 2 + 2))).
Proof.
  intros c size base e row col r v. unfold exp_writes. cbn [In]. change (2 + 4 - 1)%Z with 5%Z.
  rewrite in_flat_map. split.
  - intros [E|[E|[i [Hi H]]]].
    + injection E as <- <- <-. left. auto.
    + injection E as <- <- <-. right. left. auto.
    + right. right. exists i. rewrite in_zseq in Hi. split; [lia|]. cbn [In] in H. rewrite in_app_iff, in_flat_map in H.
      destruct H as [E|[[j [Hj H]]|H]].
      * injection E as <- <- <-. auto.
      * rewrite in_zseq in Hj. rewrite in_app_iff, in_map_iff in H. destruct H as [[b [E Hb]]|[E|[]]].
        -- rewrite in_zseq in Hb. injection E as <- <- <-. split; [reflexivity|]. right. right. left.
           exists (2 * j + b)%Z. split; [lia|]. split; [unfold exp_bitcol; f_equal; lia|]. f_equal. f_equal. lia.
        -- injection E as <- <- <-. split; [reflexivity|]. right. right. right. exists j. split; [lia|]. split; reflexivity.
      * destruct H as [E|[]]. injection E as <- <- <-. split; [reflexivity|]. right. left. auto.
  - intros [[-> [-> ->]]|[[-> [-> ->]]|[i [Hi [-> H]]]]]; [left; reflexivity|right; left; reflexivity|].
    right. right. exists i. split; [apply in_zseq; lia|]. cbn [In]. rewrite in_app_iff, in_flat_map.
    destruct H as [[-> ->]|[[-> ->]|[[k [Hk [-> ->]]]|[j [Hj [-> ->]]]]]].
    + left. reflexivity.
    + right. right. left. reflexivity.
    + right. left. exists (k / 2)%Z. pose proof (Z.div_mod k 2 ltac:(lia)). pose proof (Z.mod_pos_bound k 2 ltac:(lia)).
      split; [apply in_zseq; lia|]. apply in_or_app. left. apply in_map_iff. exists (k mod 2)%Z.
      split; [|apply in_zseq; lia]. unfold exp_bitcol. f_equal; [f_equal; f_equal; lia|]. f_equal. f_equal. lia.
    + right. left. exists j. split; [apply in_zseq; lia|]. apply in_or_app. right. left. reflexivity.
Qed.

Lemma exp_writes_filled : forall T c size base e row,
  wf_comp c 15 -> W c 5 = 5%Z ->
  let T' := wsets T (exp_writes c size base e row) in
  exp_filled T' c size base e row /\ ((0 < size)%Z -> frame c (exp_rows size) row T T').
Proof.
  intros T c size base e row Hwf H5 T'.
  assert (WI : forall i j, (0 <= i < 15)%Z -> (0 <= j < 15)%Z -> W c i = W c j -> i = j)
    by (intros; eapply W_inj; eauto).
  (* every entry of the list, with the column as an index *)
  assert (IN : forall i r v, (0 <= i < 15)%Z -> In (W c i, r, v) (exp_writes c size base e row) <->
    (i = 1%Z /\ r = row /\ v = f0) \/ (i = 5%Z /\ r = row /\ v = f1) \/
    exists i', (0 <= i' < exp_main size)%Z /\ r = (row + 1 + i')%Z /\
     ((i = 0%Z /\ v = base) \/ (i = 1%Z /\ v = exp_n (exp_bits size e) (i' * 4 + 4)) \/
      (exists k, (0 <= k < 8)%Z /\ i = (14 - k)%Z /\ v = bitF (exp_bits size e (i' * 8 + k))) \/
      (exists j, (0 <= j < 4)%Z /\ i = (2 + j)%Z /\ v = exp_acc (exp_bits size e) base (i' * 8 + j * 2 + 2)))).
  { intros i r v Hi. rewrite exp_writes_in. rewrite <- H5 at 1. split.
    - intros [[E R]|[[E R]|[i' [Hi' [R D]]]]].
      + left. split; [apply WI; [lia|lia|exact E]|exact R].
      + right. left. split; [apply WI; [lia|lia|exact E]|exact R].
      + right. right. exists i'. split; [exact Hi'|]. split; [exact R|].
        destruct D as [[E D]|[[E D]|[[k [Hk [E D]]]|[j [Hj [E D]]]]]].
        * left. split; [apply WI; [lia|lia|exact E]|exact D].
        * right. left. split; [apply WI; [lia|lia|exact E]|exact D].
        * right. right. left. exists k. split; [exact Hk|]. split; [apply WI; [lia|lia|exact E]|exact D].
        * right. right. right. exists j. split; [exact Hj|]. split; [apply WI; [lia|lia|exact E]|exact D].
    - intros [[-> R]|[[-> R]|[i' [Hi' [R D]]]]]; [left; auto|right; left; auto|].
      right. right. exists i'. split; [exact Hi'|]. split; [exact R|].
      destruct D as [[-> D]|[[-> D]|[[k [Hk [-> D]]]|[j [Hj [-> D]]]]]].
      + left. auto.
      + right. left. auto.
      + right. right. left. exists k. auto.
      + right. right. right. exists j. auto. }
  assert (RD : forall i r v, (0 <= i < 15)%Z -> In (W c i, r, v) (exp_writes c size base e row) ->
     (forall v', In (W c i, r, v') (exp_writes c size base e row) -> v' = v) -> T' CWit (W c i) r = v).
  { intros. apply wsets_read; assumption. }
  split.
  - split; [|split].
    + apply RD; [lia|apply IN; [lia|auto]|]. intros v' H. apply IN in H; [|lia].
      destruct H as [[_ [_ E]]|[[E _]|[i [Hi [E _]]]]]; [exact E|lia|lia].
    + apply RD; [lia|apply IN; [lia|auto]|]. intros v' H. apply IN in H; [|lia].
      destruct H as [[E _]|[[_ [_ E]]|[i [Hi [E _]]]]]; [lia|exact E|lia].
    + intros i Hi. split; [|split; [|split]].
      * apply RD; [lia|apply IN; [lia|]|].
        { right. right. exists i. split; [lia|]. split; [reflexivity|]. left. auto. }
        intros v' H. apply IN in H; [|lia].
        destruct H as [[E _]|[[E _]|[i' [Hi' [E DD]]]]]; try lia; destruct DD as [[_ D]|[[D _]|[[k [Hk [D _]]]|[j [Hj [D _]]]]]]; try lia. exact D.
      * apply RD; [lia|apply IN; [lia|]|].
        { right. right. exists i. split; [lia|]. split; [reflexivity|]. right. left. auto. }
        intros v' H. apply IN in H; [|lia].
        destruct H as [[_ [E _]]|[[E _]|[i' [Hi' [E DD]]]]]; try lia; destruct DD as [[D _]|[[_ D]|[[k [Hk [D _]]]|[j [Hj [D _]]]]]]; try lia.
        assert (i' = i) by lia. subst. reflexivity.
      * intros k Hk. unfold bcell. apply RD; [lia|apply IN; [lia|]|].
        { right. right. exists i. split; [lia|]. split; [reflexivity|]. right. right. left. exists k. auto. }
        intros v' H. apply IN in H; [|lia].
        destruct H as [[E _]|[[E _]|[i' [Hi' [E DD]]]]]; try lia; destruct DD as [[D _]|[[D _]|[[k' [Hk' [D ->]]]|[j [Hj [D _]]]]]]; try lia.
        f_equal. f_equal. lia.
      * intros j Hj. apply RD; [lia|apply IN; [lia|]|].
        { right. right. exists i. split; [lia|]. split; [reflexivity|]. right. right. right. exists j. auto. }
        intros v' H. apply IN in H; [|lia].
        destruct H as [[E _]|[[_ [E _]]|[i' [Hi' [E DD]]]]]; try lia; destruct DD as [[D _]|[[D _]|[[k' [Hk' [D _]]]|[j' [Hj' [D ->]]]]]]; try lia.
        f_equal. lia.
  - intros Hs. destruct (exp_main_spec size Hs) as [M1 _].
    apply (wsets_frame P c 15); [exact Hwf|]. intros col r v H. apply exp_writes_in in H. unfold exp_rows.
    destruct H as [[-> [-> _]]|[[-> [-> _]]|[i [Hi [-> DD]]]]]; [split; [eexists; reflexivity|lia]|split; [exists 5%Z; congruence|lia]|].
    destruct DD as [[-> _]|[[-> _]|[[k [_ [-> _]]]|[j [_ [-> _]]]]]]; (split; [eexists; reflexivity|lia]).
Qed.

Lemma exp_core : forall T c size base ex row e,
  (0 < size)%Z -> C c 0 = W c 0 ->
  exp_filled T c size (vval T base) e row -> (0 <= e < 2 ^ exp_padded size)%Z -> vval T ex = ofZ e ->
  T CConst (C c 0) row = f0 -> T CConst (C c 0) (row + 1)%Z = f1 ->
  sat L T (exp_circuit c size base ex row) /\ vval T (exp_out c size row) = zpow (vval T base) e.
Proof.
  intros T c size base ex row e Hs HC [Z1 [Z5 HR]] He Ex K0 K1.
  destruct (exp_main_spec size Hs) as [M1 [_ M3]]. set (m := exp_main size) in *.
  assert (ON : forall i, (0 <= i <= m)%Z -> T CWit (W c 1) (row + i)%Z = ofZ (exp_pre size e (8 * i))).
  { intros i Hi. destruct (Z.eq_dec i 0) as [E|E].
    - rewrite E, Z.add_0_r. rewrite exp_pre_0 by exact He. exact Z1.
    - destruct (HR (i - 1)%Z ltac:(lia)) as [_ [N _]]. replace (row + i)%Z with (row + 1 + (i - 1))%Z by lia. rewrite N.
      rewrite exp_n_ok by (try exact He; lia). f_equal. f_equal. lia. }
  assert (OA : forall i, (0 <= i <= m)%Z -> T CWit (W c 5) (row + i)%Z = zpow (vval T base) (exp_pre size e (8 * i))).
  { intros i Hi. destruct (Z.eq_dec i 0) as [E|E].
    - rewrite E, Z.add_0_r. rewrite exp_pre_0 by exact He. exact Z5.
    - destruct (HR (i - 1)%Z ltac:(lia)) as [_ [_ [_ A]]]. specialize (A 3%Z ltac:(lia)). change (2 + 3)%Z with 5%Z in A.
      replace (row + i)%Z with (row + 1 + (i - 1))%Z by lia. rewrite A.
      rewrite exp_acc_ok by (try exact He; lia). f_equal. f_equal. lia. }
  split.
  - unfold exp_circuit, exp_copies. apply sat_cons. split; [|apply sat_app; split; [apply sat_app; split|]].
    + intros r Hr ex' Hex. apply in_zseq in Hr. revert ex' Hex. apply exp_gate_iff.
      set (i := (r - row - 1)%Z). assert (Hi : (0 <= i < m)%Z) by lia.
      destruct (HR i Hi) as [H0 [H1 [HB HA]]]. replace (row + 1 + i)%Z with r in * by lia.
      assert (BB : forall k, (0 <= k < 8)%Z -> bcell T c r k = ofZ (Z.b2z (exp_bits size e (8 * i + k)))).
      { intros k Hk. rewrite HB by exact Hk. replace (i * 8 + k)%Z with (8 * i + k)%Z by lia.
        destruct (exp_bits size e (8 * i + k)); reflexivity. }
      split; [|split].
      * intros k Hk. cbv zeta. rewrite BB by exact Hk. destruct (exp_bits size e (8 * i + k)); cbn [Z.b2z];
          change (ofZ 1) with (f1 : F); change (ofZ 0) with (f0 : F); ring.
      * intros j Hj. rewrite HA by exact Hj. rewrite exp_acc_ok by (try exact He; lia). rewrite H0. rewrite !BB by lia.
        assert (PV : (if (j =? 0)%Z then T CWit (W c 5) (r + -1)%Z else T CWit (W c (2 + j - 1)) r) =
                     zpow (vval T base) (exp_pre size e (8 * i + 2 * j))).
        { destruct (j =? 0)%Z eqn:Ej; [apply Z.eqb_eq in Ej|apply Z.eqb_neq in Ej].
          - replace (r + -1)%Z with (row + i)%Z by lia. rewrite OA by lia. f_equal. f_equal. lia.
          - replace (2 + j - 1)%Z with (2 + (j - 1))%Z by lia. rewrite HA by lia.
            rewrite exp_acc_ok by (try exact He; lia). f_equal. f_equal. lia. }
        rewrite PV. rewrite zpow_step; [|apply exp_pre_nonneg; lia|apply b2z_range].
        rewrite <- exp_pre_S by lia. rewrite zpow_step; [|apply exp_pre_nonneg; lia|apply b2z_range].
        replace (8 * i + (2 * j + 1))%Z with (8 * i + 2 * j + 1)%Z by lia. rewrite <- exp_pre_S by lia.
        f_equal. f_equal. lia.
      * rewrite (fhorner_ofZ P 2 (fun k => Z.b2z (exp_bits size e (8 * i + k)))) by (intros; apply BB; assumption).
        rewrite H1. rewrite exp_n_ok by (try exact He; lia).
        replace (r + -1)%Z with (row + i)%Z by lia. rewrite ON by lia. rewrite <- ofZ_mul, <- ofZ_add. f_equal.
        replace (2 * (i * 4 + 4))%Z with (8 * i + 1 + 1 + 1 + 1 + 1 + 1 + 1 + 1)%Z by ring.
        rewrite !exp_pre_S by lia. unfold horner. change (zseq 0 8) with [0; 1; 2; 3; 4; 5; 6; 7]%Z. cbn [fold_left].
        change (2 ^ 8)%Z with 256%Z. rewrite Z.add_0_r.
        replace (8 * i + 2)%Z with (8 * i + 1 + 1)%Z by ring. replace (8 * i + 3)%Z with (8 * i + 1 + 1 + 1)%Z by ring.
        replace (8 * i + 4)%Z with (8 * i + 1 + 1 + 1 + 1)%Z by ring. replace (8 * i + 5)%Z with (8 * i + 1 + 1 + 1 + 1 + 1)%Z by ring.
        replace (8 * i + 6)%Z with (8 * i + 1 + 1 + 1 + 1 + 1 + 1)%Z by ring.
        replace (8 * i + 7)%Z with (8 * i + 1 + 1 + 1 + 1 + 1 + 1 + 1)%Z by ring.
        ring.
    + apply sat_map. intros r Hr. apply in_zseq in Hr. cbn [holds]. rewrite vval_wcell. unfold exp_rows in Hr. fold m in Hr.
      replace r with (row + 1 + (r - row - 1))%Z by lia. apply HR. lia.
    + repeat (apply sat_cons; split); [| | |apply sat_nil]; cbn [holds]; rewrite ?vval_wcell, ?vval_ccell, <- ?HC.
      * congruence.
      * change (2 + 4 - 1)%Z with 5%Z. congruence.
      * unfold exp_rows. fold m. replace (row + (m + 1) - 1)%Z with (row + m)%Z by lia. rewrite ON by lia.
        replace (8 * m)%Z with (exp_padded size) by lia. rewrite exp_pre_full. symmetry. exact Ex.
    + repeat (apply sat_cons; split); [exact K0|exact K1|apply sat_nil].
  - unfold exp_out, exp_rows. rewrite vval_wcell. fold m. change (2 + 4 - 1)%Z with 5%Z.
    replace (row + (m + 1) - 1)%Z with (row + m)%Z by lia. rewrite OA by lia.
    replace (8 * m)%Z with (exp_padded size) by lia. rewrite exp_pre_full. reflexivity.
Qed.

Lemma exp_complete_l : forall T c size base ex row,
  wf_comp c 15 -> (0 < size)%Z -> W c 5 = 5%Z -> C c 0 = W c 0 ->
  outside c (exp_rows size) row base -> outside c (exp_rows size) row ex ->
  consts_in T (exp_circuit c size base ex row) ->
  (fval (vval T ex) < 2 ^ exp_padded size)%Z ->
  exists T', exp_assign c size base ex row T = Some T' /\
    sat L T' (exp_circuit c size base ex row) /\ frame c (exp_rows size) row T T' /\
    vval T' (exp_out c size row) = zpow (vval T base) (fval (vval T ex)).
Proof.
  intros T c size base ex row Hwf Hs H5 HC Ob Oe HK He. unfold exp_assign, exp_fits.
  apply Z.ltb_lt in He as Heb. rewrite Heb.
  destruct (exp_writes_filled T c size (vval T base) (fval (vval T ex)) row Hwf H5) as [FL FR].
  specialize (FR Hs). set (T' := wsets T _) in *. exists T'. split; [reflexivity|].
  assert (EB : vval T' base = vval T base) by (eapply vval_frame; eauto).
  assert (EE : vval T' ex = vval T ex) by (eapply vval_frame; eauto).
  apply (consts_in_frame P c (exp_rows size) row T T') in HK; [|exact FR].
  rewrite <- EB in FL.
  destruct (exp_core T' c size base ex row (fval (vval T ex)) Hs HC FL) as [S O].
  - pose proof (fval_range P (vval T ex)). lia.
  - rewrite EE. symmetry. apply ofZ_fval.
  - apply HK. unfold exp_circuit. right. apply in_or_app. right. left. reflexivity.
  - apply HK. unfold exp_circuit. right. apply in_or_app. right. right. left. reflexivity.
  - split; [exact S|]. split; [exact FR|]. rewrite O, EB. reflexivity.
Qed.

(** Enough room for only one exponent. *)
Lemma exp_unique_l : forall T c size base ex row,
  (0 < size)%Z -> C c 0 = W c 0 -> (2 ^ exp_padded size <= fval (vval T ex) + char P)%Z ->
  sat L T (exp_circuit c size base ex row) ->
  vval T (exp_out c size row) = zpow (vval T base) (fval (vval T ex)).
Proof.
  intros T c size base ex row Hs HC Hp H. destruct (exp_sound_l T c size base ex row Hs HC H) as [B [HB [E O]]].
  rewrite O. f_equal. rewrite E in *. rewrite fval_ofZ in *.
  pose proof (char_ge_2 P). pose proof (Z.div_mod B (char P) ltac:(lia)). pose proof (Z.mod_pos_bound B (char P) ltac:(lia)).
  assert (B / char P = 0 \/ 1 <= B / char P)%Z by (pose proof (Z.div_pos B (char P) ltac:(lia) ltac:(lia)); lia). nia.
Qed.
End Proofs.
Arguments zpow {P}.
