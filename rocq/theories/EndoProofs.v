(** Proofs about the endomorphism scalar component. *)
From Coq Require Import ZArith List Lia Bool Field.
From Verif Require Import Base Field Plonk PlonkFacts Bits CurveSpec CurveModel.
Import ListNotations.
Open Scope Z_scope.

(** ** The accumulators over the integers *)

Definition zc (k : Z) : Z := if k =? 2 then -1 else if k =? 3 then 1 else 0.
Definition zd (k : Z) : Z := if k =? 0 then -1 else if k =? 1 then 1 else 0.
Definition zstep (st : Z * Z * Z) (k : Z) : Z * Z * Z :=
  let '(n, a, b) := st in (4 * n + k, 2 * a + zc k, 2 * b + zd k).
Definition crumbs (ks : list Z) : Prop := forall k, In k ks -> 0 <= k < 4.

Lemma testbit_crumb : forall n k i, 0 <= k < 4 -> 0 <= i ->
  Z.testbit (4 * n + k) (2 + i) = Z.testbit n i.
Proof.
  intros n k i Hk Hi. rewrite Z.add_comm with (n := 2). rewrite <- Z.shiftr_spec by lia. f_equal.
  rewrite Z.shiftr_div_pow2 by lia. change (2 ^ 2) with 4. symmetry. apply (Z.div_unique _ _ _ k); lia.
Qed.

Lemma testbit_low : forall n k, 0 <= k < 4 ->
  Z.testbit (4 * n + k) 0 = Z.testbit k 0 /\ Z.testbit (4 * n + k) 1 = Z.testbit k 1.
Proof.
  intros n k Hk. split; rewrite <- (Z.mod_pow2_bits_low _ 2) by lia; change (2 ^ 2) with 4;
    rewrite Z.add_comm, Z.mul_comm, Z.mod_add by lia; rewrite Z.mod_small by lia; reflexivity.
Qed.

Lemma zseq_shift : forall m, 0 <= m -> zseq 0 (m + 1) = 0 :: map (fun i => i + 1) (zseq 0 m).
Proof.
  intros m. apply (natlike_ind (fun m => zseq 0 (m + 1) = 0 :: map (fun i => i + 1) (zseq 0 m))); [reflexivity|].
  intros x Hx IH. unfold Z.succ. rewrite (zseq_snoc 0 (x + 1)), (zseq_snoc 0 x) by lia.
  rewrite map_app, app_comm_cons, <- IH, <- (zseq_snoc 0 x) by lia. reflexivity.
Qed.

Lemma sum_double : forall (f g : Z -> Z) l, (forall i, In i l -> f (i + 1) = 2 * g i) ->
  sumz (map f (map (fun i => i + 1) l)) = 2 * sumz (map g l).
Proof.
  intros f g l. induction l as [|x l IH]; intros H; [reflexivity|]. cbn [map sumz fold_right].
  fold (sumz (map f (map (fun i => i + 1) l))). fold (sumz (map g l)).
  rewrite IH by (intros; apply H; right; assumption). rewrite (H x) by (left; reflexivity). lia.
Qed.

Lemma digit_shift : forall n k i, 0 <= k < 4 -> 0 <= i -> digit (4 * n + k) (i + 1) = digit n i.
Proof.
  intros n k i Hk Hi. unfold digit. replace (2 * (i + 1)) with (2 + 2 * i) by lia. rewrite testbit_crumb by lia. reflexivity.
Qed.

Lemma endo_a_step : forall m n k, 0 <= m -> 0 <= k < 4 -> endo_a (m + 1) (4 * n + k) = 2 * endo_a m n + zc k.
Proof.
  intros m n k Hm Hk. unfold endo_a. rewrite (zseq_shift m Hm). cbn [map sumz fold_right].
  match goal with |- context [fold_right Z.add 0 ?l] => change (fold_right Z.add 0 l) with (sumz l) end.
  rewrite (sum_double _ (fun i => if Z.testbit n (2 * i + 1) then 2 ^ i * digit n i else 0)).
  - unfold digit at 1. change (2 * 0 + 1) with 1. change (2 * 0) with 0. destruct (testbit_low n k Hk) as [B0 B1]. rewrite B0, B1.
    rewrite (Z.pow_add_r 2 (m + 1) 1) by lia. rewrite Z.pow_0_r, Z.pow_1_r.
    assert (K : (if Z.testbit k 1 then 1 * (if Z.testbit k 0 then 1 else -1) else 0) = zc k).
    { assert (C : k = 0 \/ k = 1 \/ k = 2 \/ k = 3) by lia. destruct C as [->|[->|[->| ->]]]; reflexivity. }
    rewrite K. lia.
  - intros i Hi. apply in_zseq in Hi. replace (2 * (i + 1) + 1) with (2 + (2 * i + 1)) by lia.
    rewrite testbit_crumb, digit_shift by lia. destruct (Z.testbit n (2 * i + 1)); [|lia].
    rewrite Z.pow_add_r by lia. lia.
Qed.

Lemma endo_b_step : forall m n k, 0 <= m -> 0 <= k < 4 -> endo_b (m + 1) (4 * n + k) = 2 * endo_b m n + zd k.
Proof.
  intros m n k Hm Hk. unfold endo_b. rewrite (zseq_shift m Hm). cbn [map sumz fold_right].
  match goal with |- context [fold_right Z.add 0 ?l] => change (fold_right Z.add 0 l) with (sumz l) end.
  rewrite (sum_double _ (fun i => if Z.testbit n (2 * i + 1) then 0 else 2 ^ i * digit n i)).
  - unfold digit at 1. change (2 * 0 + 1) with 1. change (2 * 0) with 0. destruct (testbit_low n k Hk) as [B0 B1]. rewrite B0, B1.
    rewrite (Z.pow_add_r 2 (m + 1) 1) by lia. rewrite Z.pow_0_r, Z.pow_1_r.
    assert (K : (if Z.testbit k 1 then 0 else 1 * (if Z.testbit k 0 then 1 else -1)) = zd k).
    { assert (C : k = 0 \/ k = 1 \/ k = 2 \/ k = 3) by lia. destruct C as [->|[->|[->| ->]]]; reflexivity. }
    rewrite K. lia.
  - intros i Hi. apply in_zseq in Hi. replace (2 * (i + 1) + 1) with (2 + (2 * i + 1)) by lia.
    rewrite testbit_crumb, digit_shift by lia. destruct (Z.testbit n (2 * i + 1)); [lia|].
    rewrite Z.pow_add_r by lia. lia.
Qed.

(** Feeding crumbs from the top gives the number and its two halves. *)
Lemma zst_spec : forall ks, crumbs ks ->
  exists n, 0 <= n < 4 ^ zlen ks /\ fold_left zstep ks (0, 2, 2) = (n, endo_a (zlen ks) n, endo_b (zlen ks) n).
Proof.
  intros ks. pattern ks. apply rev_ind; clear ks.
  - intros _. exists 0. split; [cbn; lia|reflexivity].
  - intros k ks IH H. destruct IH as [n [Hn E]]; [intros x Hx; apply H; apply in_or_app; left; exact Hx|].
    assert (Hk : 0 <= k < 4) by (apply H; apply in_or_app; right; left; reflexivity).
    assert (LN : zlen (ks ++ [k]) = zlen ks + 1) by (unfold zlen; rewrite app_length; cbn [length]; lia).
    pose proof (zlen_nonneg _ ks). exists (4 * n + k). rewrite LN, Z.pow_add_r by lia. split; [lia|].
    rewrite fold_left_app, E. cbn [fold_left zstep]. rewrite endo_a_step, endo_b_step by lia. reflexivity.
Qed.

Section Proofs.
Variable P : params.
Notation F := (F P).
Notation table := (table P).
Variable L : lenv P.
Variable endo_r : F.
Implicit Types T : table.
Add Field Ff : (F_field P) (morphism (F_morph P), constants [F_const], power_tac (F_power P) [F_pow_tac]).
Local Open Scope F_scope.

Hypothesis big : (5 <= char P)%Z.

Lemma z_nz : forall z, (0 < z < 5)%Z -> (ofZ z : F) <> f0.
Proof. intros z Hz E. apply (f_equal fval) in E. rewrite fval_ofZ, Z.mod_small in E by lia. change (fval (f0 : F)) with (0 mod char P)%Z in E. rewrite Z.mod_0_l in E by lia. lia. Qed.
Lemma six_nz : (ofZ 6 : F) <> f0.
Proof.
  intros E. assert (K : (ofZ 2 * ofZ 3 : F) = f0) by (rewrite <- ofZ_mul; exact E).
  destruct (fmul_integral _ _ _ K) as [H|H]; revert H; apply z_nz; lia.
Qed.

Definition cF (x : F) : F :=
  ofZ 11 * finv (ofZ 6) * x + - ofZ 5 * finv (ofZ 2) * x * x + ofZ 2 * finv (ofZ 3) * x * x * x.
Definition dF (x : F) : F :=
  - f1 + ofZ 29 * finv (ofZ 6) * x + - ofZ 7 * finv (ofZ 2) * x * x + ofZ 2 * finv (ofZ 3) * x * x * x.

Lemma cF_val : forall k, (0 <= k < 4)%Z -> cF (ofZ k) = ofZ (zc k).
Proof.
  intros k Hk. pose proof six_nz. pose proof (z_nz 2 ltac:(lia)). pose proof (z_nz 3 ltac:(lia)). unfold cF.
  assert (C : (k = 0 \/ k = 1 \/ k = 2 \/ k = 3)%Z) by lia. destruct C as [->|[->|[->| ->]]]; cbn [zc Z.eqb Pos.eqb]; field; auto.
Qed.
Lemma dF_val : forall k, (0 <= k < 4)%Z -> dF (ofZ k) = ofZ (zd k).
Proof.
  intros k Hk. pose proof six_nz. pose proof (z_nz 2 ltac:(lia)). pose proof (z_nz 3 ltac:(lia)). unfold dF.
  assert (C : (k = 0 \/ k = 1 \/ k = 2 \/ k = 3)%Z) by lia. destruct C as [->|[->|[->| ->]]]; cbn [zd Z.eqb Pos.eqb]; field; auto.
Qed.

Definition es_quad (x : F) : Prop := x * (x - ofZ 1) * (x - ofZ 2) * (x - ofZ 3) = f0.

Lemma quad_crumb : forall x, es_quad x <-> exists k, (0 <= k < 4)%Z /\ x = ofZ k.
Proof.
  intros x. unfold es_quad. split.
  - intros E. destruct (fmul_integral _ _ _ E) as [E1|E1].
    + destruct (fmul_integral _ _ _ E1) as [E2|E2].
      * destruct (fmul_integral _ _ _ E2) as [E3|E3]; [exists 0%Z|exists 1%Z]; (split; [lia|]); [exact E3|lc f1 E3].
      * exists 2%Z. split; [lia|lc f1 E2].
    + exists 3%Z. split; [lia|lc f1 E1].
  - intros [k [Hk ->]]. assert (C : (k = 0 \/ k = 1 \/ k = 2 \/ k = 3)%Z) by lia.
    destruct C as [->|[->|[->| ->]]]; ring.
Qed.

(** One row: [w i] is its cell in column [W i]. *)
Definition es_row (w : Z -> F) : Prop :=
  (forall i, (7 <= i < 15)%Z -> es_quad (w i)) /\
  w 4%Z = ofZ 256 * w 2%Z + ofZ 128 * cF (w 7%Z) + ofZ 64 * cF (w 8%Z) + ofZ 32 * cF (w 9%Z) + ofZ 16 * cF (w 10%Z) +
          ofZ 8 * cF (w 11%Z) + ofZ 4 * cF (w 12%Z) + ofZ 2 * cF (w 13%Z) + cF (w 14%Z) /\
  w 5%Z = ofZ 256 * w 3%Z + ofZ 128 * dF (w 7%Z) + ofZ 64 * dF (w 8%Z) + ofZ 32 * dF (w 9%Z) + ofZ 16 * dF (w 10%Z) +
          ofZ 8 * dF (w 11%Z) + ofZ 4 * dF (w 12%Z) + ofZ 2 * dF (w 13%Z) + dF (w 14%Z) /\
  w 1%Z = ofZ 65536 * w 0%Z + ofZ 16384 * w 7%Z + ofZ 4096 * w 8%Z + ofZ 1024 * w 9%Z + ofZ 256 * w 10%Z +
          ofZ 64 * w 11%Z + ofZ 16 * w 12%Z + ofZ 4 * w 13%Z + w 14%Z.

Definition cells T c row : Z -> F := fun i => T CWit (W c i) row.

Lemma es_gate1_iff : forall T c rw,
  (forall e, In e (es_gate1 c) -> eval T rw e = f0) <-> es_row (cells T c rw).
Proof.
  intros T c rw. unfold es_gate1. cbv zeta. rewrite all_app, !all_cons, all_nil. unfold es_c, es_d.
  repeat (rewrite ?eval_bin, ?eval_evar, ?eval_ecst, ?gval_wv, ?Z.add_0_r; cbn [ebop]).
  unfold es_row. fold (cF (T CWit (W c 7) rw)) (cF (T CWit (W c 8) rw)) (cF (T CWit (W c 9) rw)) (cF (T CWit (W c 10) rw))
    (cF (T CWit (W c 11) rw)) (cF (T CWit (W c 12) rw)) (cF (T CWit (W c 13) rw)) (cF (T CWit (W c 14) rw))
    (dF (T CWit (W c 7) rw)) (dF (T CWit (W c 8) rw)) (dF (T CWit (W c 9) rw)) (dF (T CWit (W c 10) rw))
    (dF (T CWit (W c 11) rw)) (dF (T CWit (W c 12) rw)) (dF (T CWit (W c 13) rw)) (dF (T CWit (W c 14) rw)).
  unfold cells. rewrite !fsub_eq0.
  assert (Q : (forall e, In e (map (fun i => (#(wv (W c i) 0) * (#(wv (W c i) 0) - $1) * (#(wv (W c i) 0) - $2) * (#(wv (W c i) 0) - $3))%E) (zseq 7 15)) -> eval T rw e = f0) <->
     (forall i, (7 <= i < 15)%Z -> es_quad (T CWit (W c i) rw))).
  { split.
    - intros H i Hi. specialize (H _ (in_map _ _ _ (proj2 (in_zseq 7 15 i) Hi))). cbv beta in H.
      repeat (rewrite ?eval_bin, ?eval_evar, ?eval_ecst, ?gval_wv, ?Z.add_0_r in H; cbn [ebop] in H). exact H.
    - intros H e He. apply in_map_iff in He. destruct He as [i [<- Hi]]. apply in_zseq in Hi.
      repeat (rewrite ?eval_bin, ?eval_evar, ?eval_ecst, ?gval_wv, ?Z.add_0_r; cbn [ebop]). exact (H i Hi). }
  rewrite Q. tauto.
Qed.

Definition ofZ3 (t : Z * Z * Z) : F * F * F := let '(n, a, b) := t in (ofZ n, ofZ a, ofZ b).

(** A satisfied row runs eight steps of the accumulators. *)
Lemma es_row_steps : forall w st, es_row w -> (w 0%Z, w 2%Z, w 3%Z) = ofZ3 st ->
  exists ks, crumbs ks /\ length ks = 8%nat /\ (w 1%Z, w 4%Z, w 5%Z) = ofZ3 (fold_left zstep ks st).
Proof.
  intros w [[n a] b] [HQ [HA [HB HN]]] E. cbn [ofZ3] in E. injection E as E0 E2 E3.
  assert (G : forall i, (7 <= i < 15)%Z -> exists k, (0 <= k < 4)%Z /\ w i = ofZ k) by (intros i Hi; apply quad_crumb; auto).
  destruct (G 7%Z ltac:(lia)) as [k7 [K7 E7]]. destruct (G 8%Z ltac:(lia)) as [k8 [K8 E8]].
  destruct (G 9%Z ltac:(lia)) as [k9 [K9 E9]]. destruct (G 10%Z ltac:(lia)) as [k10 [K10 E10]].
  destruct (G 11%Z ltac:(lia)) as [k11 [K11 E11]]. destruct (G 12%Z ltac:(lia)) as [k12 [K12 E12]].
  destruct (G 13%Z ltac:(lia)) as [k13 [K13 E13]]. destruct (G 14%Z ltac:(lia)) as [k14 [K14 E14]].
  exists [k7; k8; k9; k10; k11; k12; k13; k14]. split; [|split; [reflexivity|]].
  - intros k [<-|[<-|[<-|[<-|[<-|[<-|[<-|[<-|[]]]]]]]]]; assumption.
  - rewrite HA, HB, HN, E0, E2, E3, E7, E8, E9, E10, E11, E12, E13, E14, !cF_val, !dF_val by assumption.
    cbn [fold_left zstep ofZ3]. rewrite <- !ofZ_mul, <- !ofZ_add. f_equal; [f_equal|]; f_equal; lia.
Qed.

Lemma es_copies_iff : forall T c x row,
  sat L T (es_copies c x row) <->
  (forall z, (1 <= z < 8)%Z -> cells T c (row + z) 0 = cells T c (row + z - 1) 1 /\
     cells T c (row + z) 2 = cells T c (row + z - 1) 4 /\ cells T c (row + z) 3 = cells T c (row + z - 1) 5) /\
  cells T c (row + 7) 1 = vval T x.
Proof.
  intros T c x row. unfold es_copies, es_rows, cells. rewrite sat_app, sat_cons. cbn [holds]. rewrite vval_wcell.
  replace (row + 8 - 1)%Z with (row + 7)%Z by lia.
  assert (S0 : sat L T [] <-> True) by (split; [auto|intros _; apply sat_nil]). rewrite S0.
  enough (K : sat L T (flat_map (fun z => [Copy (wcell (W c 0) (row + z)) (wcell (W c 1) (row + z - 1));
      Copy (wcell (W c 2) (row + z)) (wcell (W c 4) (row + z - 1)); Copy (wcell (W c 3) (row + z)) (wcell (W c 5) (row + z - 1))]) (zseq 1 8)) <->
    (forall z, (1 <= z < 8)%Z -> T CWit (W c 0) (row + z)%Z = T CWit (W c 1) (row + z - 1)%Z /\
     T CWit (W c 2) (row + z)%Z = T CWit (W c 4) (row + z - 1)%Z /\ T CWit (W c 3) (row + z)%Z = T CWit (W c 5) (row + z - 1)%Z)) by tauto.
  split.
  - intros H z Hz. apply in_zseq in Hz.
    assert (G : forall cm, In cm [Copy (wcell (W c 0) (row + z)) (wcell (W c 1) (row + z - 1));
      Copy (wcell (W c 2) (row + z)) (wcell (W c 4) (row + z - 1)); Copy (wcell (W c 3) (row + z)) (wcell (W c 5) (row + z - 1))] -> holds L T cm).
    { intros cm Hc. apply H. apply in_flat_map. exists z. auto. }
    pose proof (G _ (or_introl eq_refl)) as A1. pose proof (G _ (or_intror (or_introl eq_refl))) as A2.
    pose proof (G _ (or_intror (or_intror (or_introl eq_refl)))) as A3. cbn [holds] in A1, A2, A3. rewrite !vval_wcell in A1, A2, A3. auto.
  - intros H cm Hc. apply in_flat_map in Hc. destruct Hc as [z [Hz Hc]]. apply in_zseq in Hz. destruct (H z Hz) as [A1 [A2 A3]].
    destruct Hc as [<-|[<-|[<-|[]]]]; cbn [holds]; rewrite !vval_wcell; assumption.
Qed.

Lemma es_circuit_iff : forall T c x row,
  sat L T (es_circuit endo_r c x row) <->
  (forall r, (0 <= r < 8)%Z -> es_row (cells T c (row + r))) /\
  cells T c (row + 7) 6 = endo_r * cells T c (row + 7) 4 + cells T c (row + 7) 5 /\
  (forall z, (1 <= z < 8)%Z -> cells T c (row + z) 0 = cells T c (row + z - 1) 1 /\
     cells T c (row + z) 2 = cells T c (row + z - 1) 4 /\ cells T c (row + z) 3 = cells T c (row + z - 1) 5) /\
  cells T c (row + 7) 1 = vval T x.
Proof.
  intros T c x row. unfold es_circuit. rewrite sat_app, es_copies_iff, !sat_cons.
  assert (S0 : sat L T [] <-> True) by (split; [auto|intros _; apply sat_nil]). rewrite S0.
  assert (G1 : holds L T (Gate (es_gate1 c) (zseq row (row + es_rows))) <-> forall r, (0 <= r < 8)%Z -> es_row (cells T c (row + r))).
  { cbn [holds]. unfold es_rows. split.
    - intros H r Hr. apply es_gate1_iff. apply H. apply in_zseq. lia.
    - intros H r Hr. apply in_zseq in Hr. apply es_gate1_iff. replace r with (row + (r - row))%Z by lia. apply H. lia. }
  assert (G2 : holds L T (Gate (es_gate2 endo_r c) [(row + es_rows - 1)%Z]) <->
     cells T c (row + 7) 6 = endo_r * cells T c (row + 7) 4 + cells T c (row + 7) 5).
  { rewrite holds_gate1. unfold es_gate2, es_rows, cells. rewrite all_cons, all_nil.
    repeat (rewrite ?eval_bin, ?eval_evar, ?eval_ecst, ?gval_wv, ?Z.add_0_r; cbn [ebop]).
    replace (row + 8 - 1)%Z with (row + 7)%Z by lia. rewrite fsub_eq0. tauto. }
  rewrite G1, G2. tauto.
Qed.

(** All eight rows, started from the honest accumulators. *)
Lemma es_chain : forall T c x row, sat L T (es_circuit endo_r c x row) ->
  cells T c row 0 = f0 -> cells T c row 2 = ofZ 2 -> cells T c row 3 = ofZ 2 ->
  exists ks, crumbs ks /\ zlen ks = 64%Z /\
    (cells T c (row + 7) 1, cells T c (row + 7) 4, cells T c (row + 7) 5) = ofZ3 (fold_left zstep ks (0, 2, 2)%Z).
Proof.
  intros T c x row H I0 I2 I3. apply es_circuit_iff in H. destruct H as [HR [_ [HC _]]].
  assert (G : forall r, (0 <= r)%Z -> (r < 8)%Z -> exists ks, crumbs ks /\ zlen ks = (8 * (r + 1))%Z /\
    (cells T c (row + r) 1, cells T c (row + r) 4, cells T c (row + r) 5) = ofZ3 (fold_left zstep ks (0, 2, 2)%Z)).
  { apply (natlike_ind (fun r => (r < 8)%Z -> exists ks, crumbs ks /\ zlen ks = (8 * (r + 1))%Z /\
    (cells T c (row + r) 1, cells T c (row + r) 4, cells T c (row + r) 5) = ofZ3 (fold_left zstep ks (0, 2, 2)%Z))).
    - intros _. destruct (es_row_steps _ (0, 2, 2)%Z (HR 0%Z ltac:(lia))) as [ks [K1 [K2 K3]]].
      + rewrite Z.add_0_r. unfold ofZ3. rewrite I0, I2, I3. reflexivity.
      + exists ks. unfold zlen. rewrite K2. auto.
    - intros r Hr IH Hlt. unfold Z.succ in *. destruct (IH ltac:(lia)) as [ks [K1 [K2 K3]]].
      destruct (HC (r + 1)%Z ltac:(lia)) as [C0 [C2 C3]]. replace (row + (r + 1) - 1)%Z with (row + r)%Z in * by lia.
      destruct (es_row_steps _ (fold_left zstep ks (0, 2, 2)%Z) (HR (r + 1)%Z ltac:(lia))) as [ks' [K1' [K2' K3']]].
      + rewrite C0, C2, C3. exact K3.
      + exists (ks ++ ks'). split; [|split].
        * intros k Hk. apply in_app_or in Hk. destruct Hk; auto.
        * unfold zlen in *. rewrite app_length, K2'. lia.
        * rewrite fold_left_app. exact K3'. }
  exact (G 7%Z ltac:(lia) ltac:(lia)).
Qed.

Lemma es_sound_l : forall T c x row, (2 ^ 128 <= char P)%Z -> sat L T (es_circuit endo_r c x row) ->
  cells T c row 0 = f0 -> cells T c row 2 = ofZ 2 -> cells T c row 3 = ofZ 2 ->
  (fval (vval T x) < 2 ^ 128)%Z /\
  vval T (es_out c row) = endo_r * ofZ (endo_a 64 (fval (vval T x))) + ofZ (endo_b 64 (fval (vval T x))).
Proof.
  intros T c x row HP H I0 I2 I3. destruct (es_chain T c x row H I0 I2 I3) as [ks [K1 [K2 K3]]].
  destruct (zst_spec ks K1) as [n [Hn E]]. rewrite K2 in Hn, E. rewrite E in K3. cbn [ofZ3] in K3. injection K3 as E1 E4 E5.
  apply es_circuit_iff in H. destruct H as [_ [HO [_ HX]]].
  assert (N : fval (vval T x) = n).
  { rewrite <- HX, E1, fval_ofZ. apply Z.mod_small. change (4 ^ 64)%Z with (2 ^ 128)%Z in Hn. lia. }
  rewrite N. change (4 ^ 64)%Z with (2 ^ 128)%Z in Hn. split; [lia|].
  unfold es_out, es_rows. rewrite vval_wcell. replace (row + 8 - 1)%Z with (row + 7)%Z by lia.
  fold (cells T c (row + 7) 6). rewrite HO, E4, E5. reflexivity.
Qed.

(** ** The honest table *)

Definition kz (bit : Z -> bool) (k : Z) : Z := ((if bit (2 * k + 1) then 1 else 0) + 2 * (if bit (2 * k) then 1 else 0))%Z.

Lemma kz_range : forall bit k, (0 <= kz bit k < 4)%Z.
Proof. intros. unfold kz. destruct (bit (2 * k + 1)%Z), (bit (2 * k)%Z); lia. Qed.

Lemma es_crumb_kz : forall bit k, es_crumb bit k = (ofZ (kz bit k) : F).
Proof. intros bit k. unfold es_crumb, kz, b2f. destruct (bit (2 * k + 1)%Z), (bit (2 * k)%Z); cbn [Z.mul Z.add Pos.mul Pos.add]; ring. Qed.

Lemma triple_eq : forall a b d a' b' d' : F, a = a' -> b = b' -> d = d' -> (a, b, d) = (a', b', d').
Proof. congruence. Qed.

Lemma es_step_z : forall bit st k, es_step bit (ofZ3 st) k = ofZ3 (zstep st (kz bit k)).
Proof.
  intros bit [[n a] b] k. unfold es_step, ofZ3, zstep. rewrite es_crumb_kz. cbv zeta. rewrite !ofZ_add, !ofZ_mul. unfold kz.
  destruct (bit (2 * k + 1)%Z), (bit (2 * k)%Z);
    repeat match goal with
    | |- context [zc ?x] => let v := eval vm_compute in (zc x) in change (zc x) with v
    | |- context [zd ?x] => let v := eval vm_compute in (zd x) in change (zd x) with v
    end; apply triple_eq; ring.
Qed.

Lemma es_state_z : forall bit k, es_state bit k = ofZ3 (fold_left zstep (map (kz bit) (zseq 0 k)) (0, 2, 2)%Z).
Proof.
  intros bit k. unfold es_state. change (f0, ofZ 2, ofZ 2) with (ofZ3 (0, 2, 2)%Z).
  generalize (0, 2, 2)%Z. generalize (zseq 0 k). induction l as [|x l IH]; intros st; [reflexivity|].
  cbn [fold_left map]. rewrite es_step_z. apply IH.
Qed.

(** The cell in column [i] of honest row [r]. *)
Definition hv (bit : Z -> bool) (r i : Z) : F :=
  let '(n, a, b) := es_state bit (8 * r) in
  let '(n', a', b') := es_state bit (8 * r + 8) in
  if (i =? 0)%Z then n else if (i =? 1)%Z then n' else if (i =? 2)%Z then a else if (i =? 3)%Z then b
  else if (i =? 4)%Z then a' else if (i =? 5)%Z then b' else es_crumb bit (8 * r + (i - 7)).

Lemma es_chunk_In : forall c bit row r col rw v,
  In (col, rw, v) (es_chunk c bit row r) <->
  exists i, (0 <= i < 15)%Z /\ i <> 6%Z /\ col = W c i /\ rw = (row + r)%Z /\ v = hv bit r i.
Proof.
  intros c bit row r col rw v. unfold es_chunk, hv. destruct (es_state bit (8 * r)) as [[n a] b].
  destruct (es_state bit (8 * r + 8)) as [[n' a'] b']. rewrite !in_app_iff, in_map_iff. split.
  - intros [H|[H|H]].
    + destruct H as [E|[E|[E|[]]]]; injection E as <- <- <-; [exists 0%Z|exists 2%Z|exists 3%Z]; repeat split; lia || reflexivity.
    + destruct H as [j [E Hj]]. injection E as <- <- <-. apply in_zseq in Hj. exists (7 + j)%Z.
      repeat split; try lia. destruct (Z.eqb_spec (7 + j) 0); [lia|]. destruct (Z.eqb_spec (7 + j) 1); [lia|].
      destruct (Z.eqb_spec (7 + j) 2); [lia|]. destruct (Z.eqb_spec (7 + j) 3); [lia|]. destruct (Z.eqb_spec (7 + j) 4); [lia|].
      destruct (Z.eqb_spec (7 + j) 5); [lia|]. replace (7 + j - 7)%Z with j by lia. reflexivity.
    + destruct H as [E|[E|[E|[]]]]; injection E as <- <- <-; [exists 1%Z|exists 4%Z|exists 5%Z]; repeat split; lia || reflexivity.
  - intros [i [Hi [N6 [-> [-> ->]]]]].
    destruct (Z_lt_le_dec i 6) as [Hl|Hl].
    + assert (C : (i = 0 \/ i = 1 \/ i = 2 \/ i = 3 \/ i = 4 \/ i = 5)%Z) by lia.
      destruct C as [->|[->|[->|[->|[->| ->]]]]]; cbn [Z.eqb Pos.eqb In]; tauto.
    + right. left. exists (i - 7)%Z. split; [|apply in_zseq; lia]. replace (7 + (i - 7))%Z with i by lia.
      destruct (Z.eqb_spec i 0); [lia|]. destruct (Z.eqb_spec i 1); [lia|].
      destruct (Z.eqb_spec i 2); [lia|]. destruct (Z.eqb_spec i 3); [lia|]. destruct (Z.eqb_spec i 4); [lia|].
      destruct (Z.eqb_spec i 5); [lia|]. reflexivity.
Qed.

Definition honest (c : comp) (bit : Z -> bool) (row : Z) : list (Z * Z * F) :=
  let '(n, a, b) := es_state bit 64 in
  flat_map (es_chunk c bit row) (zseq 0 8) ++ [ (W c 6, (row + 7)%Z, (a * endo_r + b)) ].

Lemma honest_read : forall T c bit row r i, wf_comp c 15 -> (0 <= r < 8)%Z -> (0 <= i < 15)%Z -> i <> 6%Z ->
  cells (wsets T (honest c bit row)) c (row + r) i = hv bit r i.
Proof.
  intros T c bit row r i Hwf Hr Hi N6. unfold cells, honest. destruct (es_state bit 64) as [[n a] b]. apply wsets_read.
  - apply in_or_app. left. apply in_flat_map. exists r. split; [apply in_zseq; lia|].
    apply es_chunk_In. exists i. auto 6.
  - intros v H. apply in_app_or in H. destruct H as [H|[E|[]]].
    + apply in_flat_map in H. destruct H as [r' [Hr' H]]. apply es_chunk_In in H.
      destruct H as [i' [Hi' [N6' [E1 [E2 ->]]]]]. apply (W_inj c 15 _ _ Hwf Hi Hi') in E1. subst i'.
      assert (r' = r) by lia. subst r'. reflexivity.
    + exfalso. assert (E1 : W c 6 = W c i) by congruence. apply (W_inj c 15 6%Z i Hwf ltac:(lia) Hi) in E1. lia.
Qed.

Lemma honest_out : forall T c bit row, wf_comp c 15 ->
  cells (wsets T (honest c bit row)) c (row + 7) 6 = endo_r * hv bit 7 4 + hv bit 7 5.
Proof.
  intros T c bit row Hwf. unfold cells, honest, hv. cbn [Z.mul Z.add Pos.mul Pos.add Pos.succ Z.eqb Pos.eqb].
  destruct (es_state bit 56) as [[n0 a0] b0]. destruct (es_state bit 64) as [[n a] b]. rewrite wsets_app.
  unfold wsets at 1. cbn [fold_left fst snd]. rewrite wset_same. ring.
Qed.

Lemma honest_frame : forall T c bit row, wf_comp c 15 -> frame c 8 row T (wsets T (honest c bit row)).
Proof.
  intros T c bit row Hwf. apply (wsets_frame P c 15); [exact Hwf|]. intros col r v H. unfold honest in H.
  destruct (es_state bit 64) as [[n a] b]. apply in_app_or in H. destruct H as [H|[E|[]]].
  - apply in_flat_map in H. destruct H as [r' [Hr' H]]. apply in_zseq in Hr'. apply es_chunk_In in H.
    destruct H as [i [_ [_ [-> [-> _]]]]]. split; [eexists; reflexivity|lia].
  - split; [exists 6%Z; congruence|]. assert (r = row + 7)%Z by congruence. lia.
Qed.

Lemma hv_row : forall bit r, (0 <= r)%Z -> es_row (hv bit r).
Proof.
  intros bit r Hr. unfold es_row, hv. rewrite !es_state_z.
  replace (8 * r + 8)%Z with (8 * r + 1 + 1 + 1 + 1 + 1 + 1 + 1 + 1)%Z by lia.
  rewrite !(zseq_snoc 0) by lia. rewrite !map_app, !fold_left_app. cbn [map fold_left].
  destruct (fold_left zstep (map (kz bit) (zseq 0 (8 * r))) (0, 2, 2)%Z) as [[n a] b]. cbn [zstep ofZ3 Z.eqb Pos.eqb].
  split; [|split; [|split]].
  - intros i Hi. destruct (Z.eqb_spec i 0); [lia|]. destruct (Z.eqb_spec i 1); [lia|].
    destruct (Z.eqb_spec i 2); [lia|]. destruct (Z.eqb_spec i 3); [lia|]. destruct (Z.eqb_spec i 4); [lia|].
    destruct (Z.eqb_spec i 5); [lia|]. rewrite es_crumb_kz. apply quad_crumb. eexists. split; [apply kz_range|reflexivity].
  - rewrite !es_crumb_kz, !cF_val by apply kz_range. rewrite <- !ofZ_mul, <- !ofZ_add. f_equal.
    replace (8 * r + (7 - 7))%Z with (8 * r)%Z by lia. replace (8 * r + (8 - 7))%Z with (8 * r + 1)%Z by lia.
    replace (8 * r + (9 - 7))%Z with (8 * r + 1 + 1)%Z by lia. replace (8 * r + (10 - 7))%Z with (8 * r + 1 + 1 + 1)%Z by lia.
    replace (8 * r + (11 - 7))%Z with (8 * r + 1 + 1 + 1 + 1)%Z by lia. replace (8 * r + (12 - 7))%Z with (8 * r + 1 + 1 + 1 + 1 + 1)%Z by lia.
    replace (8 * r + (13 - 7))%Z with (8 * r + 1 + 1 + 1 + 1 + 1 + 1)%Z by lia. replace (8 * r + (14 - 7))%Z with (8 * r + 1 + 1 + 1 + 1 + 1 + 1 + 1)%Z by lia.
    lia.
  - rewrite !es_crumb_kz, !dF_val by apply kz_range. rewrite <- !ofZ_mul, <- !ofZ_add. f_equal.
    replace (8 * r + (7 - 7))%Z with (8 * r)%Z by lia. replace (8 * r + (8 - 7))%Z with (8 * r + 1)%Z by lia.
    replace (8 * r + (9 - 7))%Z with (8 * r + 1 + 1)%Z by lia. replace (8 * r + (10 - 7))%Z with (8 * r + 1 + 1 + 1)%Z by lia.
    replace (8 * r + (11 - 7))%Z with (8 * r + 1 + 1 + 1 + 1)%Z by lia. replace (8 * r + (12 - 7))%Z with (8 * r + 1 + 1 + 1 + 1 + 1)%Z by lia.
    replace (8 * r + (13 - 7))%Z with (8 * r + 1 + 1 + 1 + 1 + 1 + 1)%Z by lia. replace (8 * r + (14 - 7))%Z with (8 * r + 1 + 1 + 1 + 1 + 1 + 1 + 1)%Z by lia.
    lia.
  - rewrite !es_crumb_kz. rewrite <- !ofZ_mul, <- !ofZ_add. f_equal.
    replace (8 * r + (7 - 7))%Z with (8 * r)%Z by lia. replace (8 * r + (8 - 7))%Z with (8 * r + 1)%Z by lia.
    replace (8 * r + (9 - 7))%Z with (8 * r + 1 + 1)%Z by lia. replace (8 * r + (10 - 7))%Z with (8 * r + 1 + 1 + 1)%Z by lia.
    replace (8 * r + (11 - 7))%Z with (8 * r + 1 + 1 + 1 + 1)%Z by lia. replace (8 * r + (12 - 7))%Z with (8 * r + 1 + 1 + 1 + 1 + 1)%Z by lia.
    replace (8 * r + (13 - 7))%Z with (8 * r + 1 + 1 + 1 + 1 + 1 + 1)%Z by lia. replace (8 * r + (14 - 7))%Z with (8 * r + 1 + 1 + 1 + 1 + 1 + 1 + 1)%Z by lia.
    lia.
Qed.

(** The bits, read from the top, put the number together again. *)
Lemma es_bits_number : forall v k, (0 <= v < 2 ^ 128)%Z -> (0 <= k)%Z -> (k <= 64)%Z -> forall n a b,
  fold_left zstep (map (kz (es_bit 128 v)) (zseq 0 k)) (0, 2, 2)%Z = (n, a, b) -> n = (v / 2 ^ (128 - 2 * k))%Z.
Proof.
  intros v k Hv. revert k. apply (natlike_ind (fun k => (k <= 64)%Z -> forall n a b,
    fold_left zstep (map (kz (es_bit 128 v)) (zseq 0 k)) (0, 2, 2)%Z = (n, a, b) -> n = (v / 2 ^ (128 - 2 * k))%Z)).
  - intros _ n a b E. assert (n = 0%Z) by (injection E; auto). subst n. cbn [Z.mul]. rewrite Z.div_small; [reflexivity|exact Hv].
  - intros k Hk IH Hle n a b E. unfold Z.succ in *. rewrite zseq_snoc, map_app, fold_left_app in E by lia. cbn [map fold_left] in E.
    destruct (fold_left zstep (map (kz (es_bit 128 v)) (zseq 0 k)) (0, 2, 2)%Z) as [[n' a'] b'] eqn:E'.
    specialize (IH ltac:(lia) n' a' b' eq_refl). unfold zstep in E.
    assert (EN : n = (4 * n' + kz (es_bit 128 v) k)%Z) by congruence. rewrite EN, IH. unfold kz, es_bit.
    set (m := (128 - 2 * (k + 1))%Z). replace (128 - 2 * k)%Z with (m + 2)%Z by (unfold m; lia).
    replace (128 - 1 - (2 * k + 1))%Z with m by (unfold m; lia). replace (128 - 1 - 2 * k)%Z with (m + 1)%Z by (unfold m; lia).
    assert (Hm : (0 <= m)%Z) by (unfold m; lia).
    assert (B0 : (if Z.testbit v m then 1 else 0)%Z = ((v / 2 ^ m) mod 2)%Z).
    { rewrite <- (Z.testbit_spec' v m) by lia. destruct (Z.testbit v m); reflexivity. }
    assert (B1 : (if Z.testbit v (m + 1) then 1 else 0)%Z = ((v / 2 ^ (m + 1)) mod 2)%Z).
    { rewrite <- (Z.testbit_spec' v (m + 1)) by lia. destruct (Z.testbit v (m + 1)); reflexivity. }
    rewrite B0, B1. rewrite !Z.pow_add_r by lia. rewrite <- !Z.div_div by lia. change (2 ^ 1)%Z with 2%Z. change (2 ^ 2)%Z with 4%Z.
    set (u := (v / 2 ^ m)%Z). assert (D4 : (u / 4 = u / 2 / 2)%Z) by (rewrite Z.div_div by lia; reflexivity). rewrite D4.
    pose proof (Z.div_mod u 2 ltac:(lia)). pose proof (Z.div_mod (u / 2) 2 ltac:(lia)). lia.
Qed.

Lemma es_assign_honest : forall T c x row, (2 ^ 128 <= char P)%Z -> (fval (vval T x) < 2 ^ 128)%Z ->
  es_assign endo_r 128 c x row T = Some (wsets T (honest c (es_bit 128 (fval (vval T x))) row)).
Proof.
  intros T c x row HP Hx. unfold es_assign, honest.
  assert (LG : (128 <= Z.log2 (char P) + 1)%Z) by (assert (128 <= Z.log2 (char P))%Z by (apply Z.log2_le_pow2; lia); lia).
  change (0 <=? 128)%Z with true. change (128 mod 16 =? 0)%Z with true. rewrite (proj2 (Z.leb_le _ _) LG), (proj2 (Z.ltb_lt _ _) Hx).
  cbn [andb]. change (128 / 2)%Z with 64%Z. change (128 / 16)%Z with 8%Z.
  destruct (es_state (es_bit 128 (fval (vval T x))) 64) as [[n a] b]. replace (row + 8 - 1)%Z with (row + 7)%Z by lia. reflexivity.
Qed.

Lemma es_complete_l : forall T c x row, (2 ^ 128 <= char P)%Z -> wf_comp c 15 -> outside c 8 row x ->
  (fval (vval T x) < 2 ^ 128)%Z ->
  exists T', es_assign endo_r 128 c x row T = Some T' /\
    sat L T' (es_circuit endo_r c x row) /\ frame c 8 row T T' /\
    cells T' c row 0 = f0 /\ cells T' c row 2 = ofZ 2 /\ cells T' c row 3 = ofZ 2 /\
    vval T' (es_out c row) = endo_r * ofZ (endo_a 64 (fval (vval T x))) + ofZ (endo_b 64 (fval (vval T x))).
Proof.
  intros T c x row HP Hwf Ox Hx. set (bit := es_bit 128 (fval (vval T x))). exists (wsets T (honest c bit row)).
  pose proof (honest_frame T c bit row Hwf) as FR. pose proof (vval_frame P c 8 row T _ x FR Ox) as VX.
  assert (RD : forall r i, (0 <= r < 8)%Z -> (0 <= i < 15)%Z -> i <> 6%Z -> cells (wsets T (honest c bit row)) c (row + r) i = hv bit r i)
    by (intros; apply honest_read; assumption).
  assert (S : sat L (wsets T (honest c bit row)) (es_circuit endo_r c x row)).
  { apply es_circuit_iff. split; [|split; [|split]].
    - intros r Hr. pose proof (hv_row bit r ltac:(lia)) as [Q [A [B N]]]. unfold es_row.
      rewrite !(RD r) by lia. split; [|split; [exact A|split; [exact B|exact N]]].
      intros i Hi. rewrite (RD r i) by lia. apply Q. exact Hi.
    - rewrite honest_out by exact Hwf. rewrite !(RD 7%Z) by lia. reflexivity.
    - intros z Hz. replace (row + z - 1)%Z with (row + (z - 1))%Z by lia. rewrite !(RD z), !(RD (z - 1)%Z) by lia.
      unfold hv. replace (8 * (z - 1) + 8)%Z with (8 * z)%Z by lia. destruct (es_state bit (8 * (z - 1))) as [[n0 a0] b0].
      destruct (es_state bit (8 * z)) as [[n a] b]. destruct (es_state bit (8 * z + 8)) as [[n1 a1] b1]. auto.
    - rewrite (RD 7%Z) by lia. rewrite VX. unfold hv. cbn [Z.mul Z.add Pos.mul Pos.add Pos.succ Z.eqb Pos.eqb].
      destruct (es_state bit 56) as [[n0 a0] b0]. rewrite es_state_z.
      destruct (fold_left zstep (map (kz bit) (zseq 0 64)) (0, 2, 2)%Z) as [[n a] b] eqn:E. cbn [ofZ3].
      pose proof (fval_range _ (vval T x)).
      rewrite (es_bits_number (fval (vval T x)) 64 ltac:(lia) ltac:(lia) ltac:(lia) n a b E). change (128 - 2 * 64)%Z with 0%Z.
      rewrite Z.pow_0_r, Z.div_1_r. apply ofZ_fval. }
  split; [apply es_assign_honest; assumption|]. split; [exact S|]. split; [exact FR|].
  assert (K0 : forall i v, i = 0%Z /\ v = f0 \/ i = 2%Z /\ v = ofZ 2 \/ i = 3%Z /\ v = ofZ 2 -> cells (wsets T (honest c bit row)) c row i = v).
  { intros i v Hi. pose proof (RD 0%Z i ltac:(lia) ltac:(lia) ltac:(lia)) as K. rewrite Z.add_0_r in K. rewrite K.
    unfold hv. destruct (es_state bit (8 * 0 + 8)) as [[? ?] ?].
    destruct Hi as [[-> ->]|[[-> ->]|[-> ->]]]; reflexivity. }
  destruct (es_sound_l _ c x row HP S (K0 0%Z _ ltac:(auto)) (K0 2%Z _ ltac:(auto)) (K0 3%Z _ ltac:(auto))) as [_ O].
  split; [apply K0; auto|]. split; [apply K0; auto|]. split; [apply K0; auto|].
  rewrite O, VX. reflexivity.
Qed.

(** ** Free starting values *)

Fixpoint back (f : F -> F) (k : nat) (v : F) : F := match k with O => v | S k => f (back f k v) end.
Definition bn (s : F) (r : Z) : F := back (fun x => x / ofZ 65536) (Z.to_nat (8 - r)) s.
Definition bb (v : F) (r : Z) : F := back (fun x => (x + ofZ 255) / ofZ 256) (Z.to_nat (8 - r)) v.

Lemma back_step : forall f v r, (r < 8)%Z -> back f (Z.to_nat (8 - r)) v = f (back f (Z.to_nat (8 - (r + 1))) v).
Proof. intros f v r Hr. replace (Z.to_nat (8 - r)) with (S (Z.to_nat (8 - (r + 1)))) by lia. reflexivity. Qed.

Lemma pow2_nz : forall n, (ofZ (2 ^ Z.of_nat n) : F) <> f0.
Proof.
  intros n. induction n as [|n IH]; [apply (z_nz 1); lia|]. rewrite Nat2Z.inj_succ, Z.pow_succ_r, ofZ_mul by lia.
  intros K. destruct (fmul_integral _ _ _ K) as [K1|K1]; [revert K1; apply z_nz; lia|contradiction].
Qed.

(** All crumbs zero, a = 0, n and b computed backwards from the wanted values. *)
Definition free_cell (s v : F) (r i : Z) : F :=
  if (i =? 0)%Z then bn s r else if (i =? 1)%Z then bn s (r + 1)
  else if (i =? 3)%Z then bb v r else if (i =? 5)%Z then bb v (r + 1)
  else if (i =? 6)%Z then v else f0.
Definition free_table (s v : F) : table :=
  fun ty col row => match ty with CWit => free_cell s v row col | _ => s end.

Lemma free_sat : forall s v x, vty x = CPub -> sat L (free_table s v) (es_circuit endo_r (std_comp 15) x 0).
Proof.
  intros s v x Hx. apply es_circuit_iff. unfold cells. rewrite !W_std by lia.
  assert (N8 : (ofZ 256 : F) <> f0) by exact (pow2_nz 8). assert (N16 : (ofZ 65536 : F) <> f0) by exact (pow2_nz 16).
  split; [|split; [|split]].
  - intros r Hr. unfold es_row. rewrite !W_std by lia. unfold free_table, free_cell. cbn [Z.eqb Pos.eqb Z.add].
    assert (C0 : cF f0 = f0) by (unfold cF; ring). assert (D0 : dF f0 = - f1) by (unfold dF; ring). rewrite C0, D0.
    split; [|split; [|split]].
    + intros i Hi. rewrite W_std by lia. destruct (Z.eqb_spec i 0); [lia|]. destruct (Z.eqb_spec i 1); [lia|].
      destruct (Z.eqb_spec i 3); [lia|]. destruct (Z.eqb_spec i 5); [lia|]. destruct (Z.eqb_spec i 6); [lia|]. unfold es_quad. ring.
    + ring.
    + unfold bb. rewrite (back_step _ v r) by lia. field. exact N8.
    + unfold bn. rewrite (back_step _ s r) by lia. field. exact N16.
  - change (v = endo_r * f0 + v). ring.
  - intros z Hz. unfold free_table, free_cell. cbn [Z.eqb Pos.eqb].
    replace (0 + z - 1 + 1)%Z with (0 + z)%Z by lia. auto.
  - change (s = vval (free_table s v) x). unfold free_table, vval. rewrite Hx. reflexivity.
Qed.

(** ** A row the assignment does not reach *)

Lemma opt_inj : forall (A : Type) (x y : A), Some x = Some y -> x = y.
Proof. congruence. Qed.

Lemma es_assign_some : forall size T c x row, (0 <= size <= Z.log2 (char P) + 1)%Z -> (fval (vval T x) < 2 ^ size)%Z ->
  (size mod 16 = 0)%Z -> exists T', es_assign endo_r size c x row T = Some T'.
Proof.
  intros size T c x row Hs Hv Hm. unfold es_assign.
  rewrite (proj2 (Z.leb_le 0 size)), (proj2 (Z.leb_le size (Z.log2 (char P) + 1))), (proj2 (Z.ltb_lt _ _) Hv), (proj2 (Z.eqb_eq _ _) Hm) by lia.
  cbn [andb]. cbv zeta. destruct (es_state (es_bit size (fval (vval T x))) (size / 2)) as [[n a] b]. eexists. reflexivity.
Qed.

Lemma short_not_sat : forall T c x row T', wf_comp c 15 -> (2 ^ 112 <= char P)%Z -> (fval (vval T x) < 2 ^ 112)%Z ->
  (forall i, T CWit (W c i) (row + 7)%Z = f0) -> es_assign endo_r 112 c x row T = Some T' ->
  ~ sat L T' (es_circuit endo_r c x row).
Proof.
  intros T c x row T' Hwf HP Hx HZ E H. unfold es_assign in E.
  destruct (_ && _)%bool in E; [|discriminate]. change (112 / 2)%Z with 56%Z in E. change (112 / 16)%Z with 7%Z in E.
  destruct (es_state (es_bit 112 (fval (vval T x))) 56) as [[n a] b]. apply opt_inj in E. rewrite <- E in H. clear E.
  apply es_circuit_iff in H. destruct H as [HR _]. specialize (HR 7%Z ltac:(lia)).
  assert (RD : forall i, (0 <= i < 15)%Z -> cells (wsets T (flat_map (es_chunk c (es_bit 112 (fval (vval T x))) row) (zseq 0 7) ++
     [(W c 6, (row + 7 - 1)%Z, a * endo_r + b)])) c (row + 7) i = f0).
  { intros i Hi. unfold cells. rewrite wsets_other; [apply HZ|]. intros v Hin. apply in_app_or in Hin. destruct Hin as [Hin|[K|[]]].
    - apply in_flat_map in Hin. destruct Hin as [r [Hr Hin]]. apply in_zseq in Hr. apply es_chunk_In in Hin.
      destruct Hin as [i' [_ [_ [_ [K _]]]]]. lia.
    - assert (row + 7 - 1 = row + 7)%Z by congruence. lia. }
  destruct HR as [_ [_ [HB _]]]. rewrite !RD in HB by lia.
  assert (D0 : dF f0 = - f1) by (unfold dF; ring). rewrite D0 in HB.
  assert (K : (ofZ 255 : F) = f0) by (transitivity (- (f0 : F)); [rewrite HB at 1; ring|ring]). apply (f_equal fval) in K. rewrite fval_ofZ, Z.mod_small in K by lia.
  change (fval (f0 : F)) with (0 mod char P)%Z in K. rewrite Z.mod_0_l in K by lia. lia.
Qed.

End Proofs.
