(** What the gates of the zkEVM operations say about the three or four rows of an
    operation, and that honest witnesses satisfy them. *)
From Coq Require Import ZArith List Lia Bool Field.
From Verif Require Import Base Field Plonk PlonkFacts Bits CompareModel ZkevmModel ZkevmSel ZkevmArith.
Import ListNotations.
Open Scope Z_scope.

(** The word in opcode columns [c0], ..., [c0+15] of row [r]. *)
Definition word {P : params} (T : table P) (c0 r : Z) : Z :=
  wordsum (fun i => fval (T CWit (op_col (c0 + i)) r)) 16.
(** [n] cells from opcode column [c0] on hold 16-bit values. *)
Definition chunks16 {P : params} (T : table P) (c0 n r : Z) : Prop :=
  forall i, 0 <= i < n -> fval (T CWit (op_col (c0 + i)) r) < 2 ^ 16.

Lemma all_flat_map : forall A B (Q : B -> Prop) (f : A -> list B) l,
  (forall e, In e (flat_map f l) -> Q e) <-> (forall i, In i l -> forall e, In e (f i) -> Q e).
Proof.
  intros. split.
  - intros H i I e E. apply H. apply in_flat_map. exists i. auto.
  - intros H e E. apply in_flat_map in E. destruct E as [i [I E]]. eauto.
Qed.

Lemma all_map : forall A B (Q : B -> Prop) (f : A -> B) l,
  (forall e, In e (map f l) -> Q e) <-> (forall i, In i l -> Q (f i)).
Proof.
  intros. split.
  - intros H i I. apply H. apply in_map. exact I.
  - intros H e E. apply in_map_iff in E. destruct E as [i [<- I]]. auto.
Qed.

Lemma all_zseq : forall (Q : Z -> Prop) lo hi,
  (forall i, In i (zseq lo hi) -> Q i) <-> (forall i, lo <= i < hi -> Q i).
Proof. intros. split; intros H i I; apply H; apply in_zseq; exact I. Qed.

Section Ops.
Variable P : params.
Notation F := (F P).
Notation table := (table P).
Implicit Types T : table.
Add Field Ff : (F_field P) (morphism (F_morph P), constants [F_const], power_tac (F_power P) [F_pow_tac]).
Local Open Scope F_scope.

Definition oc T (i r : Z) : F := T CWit (op_col i) r.
Definition stp T (r : Z) : F := T CWit col_step r.

Lemma eval_ov : forall T r i off, eval T r (ov i off) = oc T i (r + off).
Proof. intros. unfold ov. rewrite eval_evar, gval_wv. reflexivity. Qed.

Lemma eval_step : forall T r off, eval T r (step off) = stp T (r + off).
Proof. intros. unfold step. rewrite eval_evar, gval_wv. reflexivity. Qed.

Lemma ofZ_zero : forall z, (- char P < z < char P)%Z -> (ofZ z : F) = f0 -> z = 0%Z.
Proof.
  intros z B E. unfold f0 in E. apply ofZ_inj in E. rewrite Z.mod_0_l in E by (pose proof (char_ge_2 P); lia).
  destruct (Z.eq_dec z 0); [assumption|]. apply Z.mod_divide in E; [|pose proof (char_ge_2 P); lia].
  destruct E as [k ->]. assert (k = 0)%Z by nia. lia.
Qed.

Lemma mul0_cancel : forall a b : F, a <> f0 -> (a * b = f0 <-> b = f0).
Proof.
  intros a b N. split; [|intros ->; ring]. intros E. apply fmul_integral in E. tauto.
Qed.

Lemma bool_iff : forall a : F, a * (a - f1) = f0 <-> (a = f0 \/ a = f1).
Proof. intros a. split; [apply fbool_cases|]. intros [->| ->]; ring. Qed.

Lemma fval_bool : forall a : F, a = f0 \/ a = f1 -> (0 <= fval a <= 1)%Z.
Proof.
  intros a [->| ->]; pose proof (char_ge_2 P); unfold f0, f1; rewrite fval_ofZ_small by lia; lia.
Qed.

(** ** Addition *)
Definition fgrp (f : Z -> F) (i : Z) : F :=
  f (3 * i)%Z + f (3 * i + 1)%Z * ofZ (2 ^ 16) + f (3 * i + 2)%Z * ofZ (2 ^ 32).

Lemma fgrp_ofZ : forall (f : Z -> F) (z : Z -> Z) i,
  (forall j, (3 * i <= j < 3 * i + 3)%Z -> f j = ofZ (z j)) -> fgrp f i = ofZ (grp z i).
Proof. intros f z i H. unfold fgrp, grp. rewrite !H by lia. rewrite !ofZ_add, !ofZ_mul. reflexivity. Qed.

(** The equations of the addition gates around middle row [r]. *)
Definition add_eqs T (r : Z) : Prop :=
  (forall i, (0 <= i < 5)%Z ->
     (if (i =? 0)%Z then f0 else oc T (16 + i - 1) (r + 1)) +
       fgrp (fun j => oc T j (r - 1)) i + fgrp (fun j => oc T j r) i
       - fgrp (fun j => oc T j (r + 1)) i - oc T (16 + i) (r + 1) * ofZ (2 ^ 48) = f0 /\
     (oc T (16 + i) (r + 1) = f0 \/ oc T (16 + i) (r + 1) = f1)) /\
  oc T 20 (r + 1) + oc T 15 (r - 1) + oc T 15 r - oc T 15 (r + 1) - oc T 21 (r + 1) * ofZ (2 ^ 16) = f0 /\
  (oc T 21 (r + 1) = f0 \/ oc T 21 (r + 1) = f1).

Lemma add_group_iff : forall T r b i, stp T (r - 1) <> f0 ->
  (forall e, In e (add_group b i) -> eval T r e = f0) <->
  ((if b then f0 else oc T (16 + i - 1) (r + 1)) +
       fgrp (fun j => oc T j (r - 1)) i + fgrp (fun j => oc T j r) i
       - fgrp (fun j => oc T j (r + 1)) i - oc T (16 + i) (r + 1) * ofZ (2 ^ 48) = f0 /\
     (oc T (16 + i) (r + 1) = f0 \/ oc T (16 + i) (r + 1) = f1)).
Proof.
  intros T r b i NZ. unfold add_group. rewrite !all_cons, all_nil.
  change (position 1 3) with (step (P := P) (-1)).
  assert (S : eval T r (step (-1)) = stp T (r - 1)) by apply eval_step.
  rewrite <- bool_iff.
  assert (E2 : eval T r (EBin OMul (EBin OMul (step (-1)) (ov (16 + i) 1)) (EBin OSub (ov (16 + i) 1) (ecst (ofZ 1))))
             = stp T (r - 1) * (oc T (16 + i) (r + 1) * (oc T (16 + i) (r + 1) - f1))).
  { rewrite !eval_bin, S, !eval_ov, eval_ecst. cbn [ebop]. change (ofZ 1) with (f1 : F). ring. }
  rewrite E2, (mul0_cancel _ _ NZ).
  match goal with |- eval _ _ ?e = f0 /\ _ <-> _ => assert (E1 : eval T r e = stp T (r - 1) *
   ((if b then f0 else oc T (16 + i - 1) (r + 1)) +
       fgrp (fun j => oc T j (r - 1)) i + fgrp (fun j => oc T j r) i
       - fgrp (fun j => oc T j (r + 1)) i - oc T (16 + i) (r + 1) * ofZ (2 ^ 48))) end.
  { rewrite eval_bin, S. cbn [ebop]. f_equal. unfold fgrp.
    rewrite !eval_bin. cbn [ebop]. rewrite !eval_ecst, !eval_ov, !Z.add_0_r.
    destruct b; rewrite ?eval_bin, ?eval_ov, ?Z.add_0_r; cbn [ebop]; change (r + -1)%Z with (r - 1)%Z; ring. }
  rewrite E1, (mul0_cancel _ _ NZ). tauto.
Qed.

Lemma add_gates_iff : forall T r, stp T (r - 1) <> f0 ->
  (forall e, In e (add_gates (P := P)) -> eval T r e = f0) <-> add_eqs T r.
Proof.
  intros T r NZ. unfold add_gates. rewrite !all_app, all_flat_map, !all_cons, all_nil.
  rewrite add_group_iff by exact NZ.
  change (position 1 3) with (step (P := P) (-1)).
  assert (S : eval T r (step (-1)) = stp T (r - 1)) by apply eval_step.
  assert (E2 : eval T r (EBin OMul (EBin OMul (step (-1)) (ov 21 1)) (EBin OSub (ov 21 1) (ecst (ofZ 1))))
             = stp T (r - 1) * (oc T 21 (r + 1) * (oc T 21 (r + 1) - f1))).
  { rewrite !eval_bin, S, !eval_ov, eval_ecst. cbn [ebop]. change (ofZ 1) with (f1 : F). ring. }
  rewrite E2, (mul0_cancel _ _ NZ), bool_iff.
  match goal with |- context [eval T r ?e = f0 /\ _ /\ True] => assert (E1 : eval T r e = stp T (r - 1) *
   (oc T 20 (r + 1) + oc T 15 (r - 1) + oc T 15 r - oc T 15 (r + 1) - oc T 21 (r + 1) * ofZ (2 ^ 16))) end.
  { rewrite eval_bin, S. cbn [ebop]. f_equal. rewrite !eval_bin. cbn [ebop].
    rewrite !eval_ecst, !eval_ov, !Z.add_0_r. reflexivity. }
  rewrite E1, (mul0_cancel _ _ NZ). unfold add_eqs. split.
  - intros [H0 [HM [HL [HC _]]]]. split; [|auto]. intros i I.
    destruct (Z.eqb_spec i 0) as [->|N]; [exact H0|].
    apply (add_group_iff T r false i NZ). apply HM. apply in_zseq. lia.
  - intros [H [HL HC]]. split; [exact (H 0%Z ltac:(lia))|]. split; [|auto].
    intros i I. apply in_zseq in I. apply (add_group_iff T r false i NZ).
    pose proof (H i ltac:(lia)) as G. destruct (Z.eqb_spec i 0); [lia|exact G].
Qed.

Lemma add_sound : forall T r, (2 ^ 51 < char P)%Z ->
  chunks16 T 0 16 (r - 1) -> chunks16 T 0 16 r -> chunks16 T 0 16 (r + 1) ->
  add_eqs T r -> (word T 0 (r - 1) + word T 0 r) mod 2 ^ 256 = word T 0 (r + 1).
Proof.
  intros T r BIG HA HB HR [HG [HL HC]].
  set (za := fun r i => fval (oc T i r)).
  assert (B : forall r', chunks16 T 0 16 r' -> forall i, (0 <= i < 16)%Z -> (0 <= za r' i < 2 ^ 16)%Z).
  { intros r' H i I. split; [apply fval_range|]. exact (H i I). }
  assert (G : forall r' i, fgrp (fun j => oc T j r') i = ofZ (grp (za r') i)).
  { intros r' i. apply fgrp_ofZ. intros j _. symmetry. apply ofZ_fval. }
  assert (GB : forall r' i, chunks16 T 0 16 r' -> (0 <= i < 5)%Z -> (0 <= grp (za r') i < 2 ^ 48)%Z).
  { intros r' i H I. apply grp_bound. intros j J. apply B; [exact H|lia]. }
  pose proof (groups_sound (za (r - 1)%Z) (za r) (za (r + 1)%Z) (fun i => za (r + 1)%Z (16 + i)%Z)) as GS.
  assert (W : forall r', word T 0 r' = wordsum (za r') 16) by reflexivity.
  rewrite !W. rewrite GS.
  - rewrite Z.mod_add by lia. apply Z.mod_small.
    apply (wordsum_bound (za (r + 1)%Z) 16); [lia|]. apply B. exact HR.
  - intros i I. destruct (HG i I) as [E C]. rewrite !G in E.
    assert (CB : (0 <= za (r + 1)%Z (16 + i)%Z <= 1)%Z) by (apply fval_bool; exact C).
    assert (exists ci, (0 <= ci <= 1)%Z /\ (if (i =? 0)%Z then f0 else oc T (16 + i - 1) (r + 1)) = ofZ ci /\
      ci = (if (i =? 0)%Z then 0%Z else za (r + 1)%Z (16 + (i - 1))%Z)) as [ci [CI [CE CD]]].
    { destruct (Z.eqb_spec i 0) as [->|N].
      - exists 0%Z. split; [lia|split; reflexivity].
      - exists (za (r + 1)%Z (16 + (i - 1))%Z). split; [|split; [|reflexivity]].
        + apply fval_bool. apply (HG (i - 1)%Z). lia.
        + unfold za. rewrite ofZ_fval. f_equal. lia. }
    rewrite <- CD. rewrite CE in E. rewrite <- (ofZ_fval P (oc T (16 + i) (r + 1))) in E.
    fold (za (r + 1)%Z (16 + i)%Z) in E. rewrite <- ofZ_mul, <- !ofZ_add, <- !ofZ_sub in E.
    pose proof (GB (r - 1)%Z i HA I). pose proof (GB r i HB I). pose proof (GB (r + 1)%Z i HR I).
    apply ofZ_zero in E; lia.
  - pose proof (fval_bool _ HC) as C5. pose proof (fval_bool _ (proj2 (HG 4%Z ltac:(lia)))) as C4.
    change (16 + 4)%Z with 20%Z in *. change (16 + 5)%Z with 21%Z.
    fold (za (r + 1)%Z 21%Z) in C5. fold (za (r + 1)%Z 20%Z) in C4.
    rewrite <- (ofZ_fval P (oc T 20 (r + 1))), <- (ofZ_fval P (oc T 21 (r + 1))),
      <- (ofZ_fval P (oc T 15 (r - 1))), <- (ofZ_fval P (oc T 15 r)), <- (ofZ_fval P (oc T 15 (r + 1))) in HL.
    rewrite <- ofZ_mul, <- !ofZ_add, <- !ofZ_sub in HL.
    pose proof (B (r - 1)%Z HA 15%Z ltac:(lia)). pose proof (B r HB 15%Z ltac:(lia)).
    pose proof (B (r + 1)%Z HR 15%Z ltac:(lia)). unfold za in *.
    apply ofZ_zero in HL; lia.
Qed.

(** Honest carries, computed in the field, are the integer ones. *)
Lemma fchunk_val : forall w i, (2 ^ 16 < char P)%Z -> (0 <= i)%Z -> fval (fchunk w i : F) = chunk w i.
Proof. intros w i BIG I. unfold fchunk. pose proof (chunk_range w i I). apply fval_ofZ_small. lia. Qed.

Lemma add_carry_z : forall a b n, (2 ^ 51 < char P)%Z -> add_carry P a b n = zcarry (chunk a) (chunk b) n.
Proof.
  intros a b n BIG.
  assert (K : forall c i, (0 <= i)%Z ->
    fval (add_carry_in P a b c i) = (Z.b2z c + grp (chunk a) i + grp (chunk b) i)%Z).
  { intros c i I. unfold add_carry_in, fchunk. rewrite <- !ofZ_add, <- !ofZ_mul, <- !ofZ_add.
    pose proof (chunk_range a (3 * i) ltac:(lia)). pose proof (chunk_range a (3 * i + 1) ltac:(lia)).
    pose proof (chunk_range a (3 * i + 2) ltac:(lia)). pose proof (chunk_range b (3 * i) ltac:(lia)).
    pose proof (chunk_range b (3 * i + 1) ltac:(lia)). pose proof (chunk_range b (3 * i + 2) ltac:(lia)).
    rewrite fval_ofZ_small; unfold grp; destruct c; cbn [Z.b2z]; lia. }
  induction n as [|n IH].
  - cbn [add_carry zcarry]. rewrite K by lia. reflexivity.
  - cbn [add_carry zcarry]. rewrite K by lia. rewrite IH. reflexivity.
Qed.

Lemma add_last_z : forall a b, (2 ^ 51 < char P)%Z -> add_last_carry P a b = zlast (chunk a) (chunk b).
Proof.
  intros a b BIG. unfold add_last_carry, zlast. rewrite add_carry_z by exact BIG. f_equal.
  unfold fchunk. rewrite <- !ofZ_add.
  pose proof (chunk_range a 15 ltac:(lia)). pose proof (chunk_range b 15 ltac:(lia)).
  apply fval_ofZ_small. destruct (zcarry _ _ _); cbn [Z.b2z]; lia.
Qed.

Lemma add_complete : forall T r a b w, (2 ^ 51 < char P)%Z ->
  (0 <= a < 2 ^ 256)%Z -> (0 <= b < 2 ^ 256)%Z -> w = ((a + b) mod 2 ^ 256)%Z ->
  (forall i, (0 <= i < 16)%Z -> oc T i (r - 1) = fchunk a i) ->
  (forall i, (0 <= i < 16)%Z -> oc T i r = fchunk b i) ->
  (forall i, (0 <= i < 16)%Z -> oc T i (r + 1) = fchunk w i) ->
  (forall i, (0 <= i < 5)%Z -> oc T (16 + i) (r + 1) = ofZ (Z.b2z (add_carry P a b (Z.to_nat i)))) ->
  oc T 21 (r + 1) = ofZ (Z.b2z (add_last_carry P a b)) ->
  add_eqs T r.
Proof.
  intros T r a b w BIG A B W HA HB HW HC HL.
  assert (W' : (0 <= w < 2 ^ 256)%Z) by (subst w; apply Z.mod_pos_bound; lia).
  destruct (carry_digits (chunk a) (chunk b) (chunk w)) as [D1 D2].
  { intros; apply chunk_range; lia. } { intros; apply chunk_range; lia. } { intros; apply chunk_range; lia. }
  { rewrite !word_chunks by assumption. exact W. }
  assert (BO : forall c : bool, (ofZ (Z.b2z c) : F) = f0 \/ (ofZ (Z.b2z c) : F) = f1)
    by (intros []; [right|left]; reflexivity).
  split; [|split].
  - intros i I. rewrite HC by exact I. split; [|apply BO].
    assert (CE : (if (i =? 0)%Z then f0 else oc T (16 + i - 1) (r + 1)) = ofZ (Z.b2z (zcin (chunk a) (chunk b) i))).
    { unfold zcin. destruct (Z.eqb_spec i 0) as [->|N]; [reflexivity|].
      replace (16 + i - 1)%Z with (16 + (i - 1))%Z by ring. rewrite HC by lia.
      rewrite add_carry_z by exact BIG. reflexivity. }
    rewrite CE. rewrite (fgrp_ofZ _ (chunk a)), (fgrp_ofZ _ (chunk b)), (fgrp_ofZ _ (chunk w))
      by (intros; first [apply HA|apply HB|apply HW]; lia).
    rewrite add_carry_z by exact BIG. rewrite <- ofZ_mul, <- !ofZ_add, D1 by exact I.
    rewrite <- !ofZ_sub. change (f0 : F) with (ofZ (P := P) 0). f_equal. ring.
  - change 20%Z with (16 + 4)%Z. rewrite HC, HA, HB, HW, HL by lia.
    rewrite add_carry_z, add_last_z by exact BIG. unfold fchunk.
    rewrite <- ofZ_mul, <- !ofZ_add, <- !ofZ_sub. change (f0 : F) with (ofZ (P := P) 0). f_equal.
    change (Z.to_nat 4) with 4%nat. lia.
  - rewrite HL. apply BO.
Qed.
(** ** Limb products *)
Lemma eval_sum64 : forall T r (g : Z -> Z) off k,
  eval T r (e_sum64 (fun i => ov (g i) off) k) = f_sum64 (fun i => oc T (g i) (r + off)) k.
Proof.
  intros. unfold e_sum64, f_sum64, sum64. rewrite !eval_bin. cbn [ebop]. rewrite !eval_ecst, !eval_ov. reflexivity.
Qed.

Lemma eval_sum64_0 : forall T r (g : Z -> Z) k,
  eval T r (e_sum64 (fun i => ov (g i) 0) k) = f_sum64 (fun i => oc T (g i) r) k.
Proof.
  intros. unfold e_sum64, f_sum64, sum64. rewrite !eval_bin. cbn [ebop].
  rewrite !eval_ecst, !eval_ov, !Z.add_0_r. reflexivity.
Qed.

Lemma f_sum64_ofZ : forall (f : Z -> F) (z : Z -> Z) k,
  (forall j, (4 * k <= j < 4 * k + 4)%Z -> f j = ofZ (z j)) -> f_sum64 f k = ofZ (z_sum64 z k).
Proof. intros f z k H. unfold f_sum64, z_sum64, sum64. rewrite !H by lia. rewrite !ofZ_add, !ofZ_mul. reflexivity. Qed.

Definition e_first := div_first (EBin (P := P) OAdd) (EBin OSub) (EBin OMul) (fun z => ecst (ofZ z)).
Definition e_second := div_second (EBin (P := P) OAdd) (EBin OSub) (EBin OMul) (fun z => ecst (ofZ z)).
Definition em_first := mul_first (EBin (P := P) OAdd) (EBin OSub) (EBin OMul) (fun z => ecst (ofZ z)).
Definition em_second := mul_second (EBin (P := P) OAdd) (EBin OSub) (EBin OMul) (fun z => ecst (ofZ z)).
Definition ff_first := div_first (@fadd P) (@fsub P) (@fmul P) ofZ.
Definition ff_second := div_second (@fadd P) (@fsub P) (@fmul P) ofZ.
Definition fm_first := mul_first (@fadd P) (@fsub P) (@fmul P) ofZ.
Definition fm_second := mul_second (@fadd P) (@fsub P) (@fmul P) ofZ.

Lemma ff_first_ofZ : forall (a b r q : Z -> F) (za zb zr zq : Z -> Z),
  (forall i, (0 <= i < 4)%Z -> a i = ofZ (za i)) -> (forall i, (0 <= i < 4)%Z -> b i = ofZ (zb i)) ->
  (forall i, (0 <= i < 4)%Z -> r i = ofZ (zr i)) -> (forall i, (0 <= i < 4)%Z -> q i = ofZ (zq i)) ->
  ff_first a b r q = ofZ (z_first za zb zr zq).
Proof.
  intros a b r q za zb zr zq HA HB HR HQ. unfold ff_first, z_first, div_first.
  rewrite !HA, !HB, !HR, !HQ by lia. repeat (rewrite ?ofZ_add, ?ofZ_sub, ?ofZ_mul). reflexivity.
Qed.
Lemma ff_second_ofZ : forall (a b r q : Z -> F) (za zb zr zq : Z -> Z),
  (forall i, (0 <= i < 4)%Z -> a i = ofZ (za i)) -> (forall i, (0 <= i < 4)%Z -> b i = ofZ (zb i)) ->
  (forall i, (0 <= i < 4)%Z -> r i = ofZ (zr i)) -> (forall i, (0 <= i < 4)%Z -> q i = ofZ (zq i)) ->
  ff_second a b r q = ofZ (z_second za zb zr zq).
Proof.
  intros a b r q za zb zr zq HA HB HR HQ. unfold ff_second, z_second, div_second.
  rewrite !HA, !HB, !HR, !HQ by lia. repeat (rewrite ?ofZ_add, ?ofZ_sub, ?ofZ_mul). reflexivity.
Qed.
Lemma fm_first_eq : forall a b r : Z -> F, fm_first a b r = ff_first r b a (fun _ => f0).
Proof. intros. unfold fm_first, ff_first, mul_first, div_first. ring. Qed.
Lemma fm_second_eq : forall a b r : Z -> F, fm_second a b r = ff_second r b a (fun _ => f0).
Proof. intros. unfold fm_second, ff_second, mul_second, div_second. ring. Qed.

(** [a = r * b + q] in limbs with carries [c1], ..., [c4]. *)
Definition limb_eqs (a b r q : Z -> F) (c1 c2 c3 c4 : F) : Prop :=
  ff_first a b r q - c1 * ofZ (2 ^ 128) - c2 * ofZ (2 ^ 192) = f0 /\
  ff_second a b r q + c1 + c2 * ofZ (2 ^ 64) - c3 * ofZ (2 ^ 128) - c4 * ofZ (2 ^ 192) = f0 /\
  (c2 = f0 \/ c2 = f1) /\ (exists k, (0 <= k <= 3)%Z /\ c4 = ofZ k).

Lemma four_iff : forall c : F,
  c * (c - f1) * (c - ofZ 2) * (c - ofZ 3) = f0 <-> exists k, (0 <= k <= 3)%Z /\ c = ofZ k.
Proof.
  intros c. split.
  - intros H. apply fmul_integral in H. destruct H as [H|H]; [|exists 3%Z; split; [lia|apply fsub0; exact H]].
    apply fmul_integral in H. destruct H as [H|H]; [|exists 2%Z; split; [lia|apply fsub0; exact H]].
    apply fmul_integral in H. destruct H as [H|H]; [exists 0%Z; split; [lia|exact H]|].
    exists 1%Z. split; [lia|apply fsub0; exact H].
  - intros [k [K ->]]. assert (k = 0 \/ k = 1 \/ k = 2 \/ k = 3)%Z as [->|[->|[->| ->]]] by lia.
    + change (ofZ 0) with (f0 : F). ring.
    + change (ofZ 1) with (f1 : F). ring.
    + ring.
    + ring.
Qed.

Lemma limb_eqs_sound : forall (a b r q : Z -> F) (za zb zr zq : Z -> Z) c1 c2 c3 c4 z1 z3,
  (2 ^ 196 < char P)%Z ->
  (forall i, (0 <= i < 4)%Z -> a i = ofZ (za i)) -> (forall i, (0 <= i < 4)%Z -> b i = ofZ (zb i)) ->
  (forall i, (0 <= i < 4)%Z -> r i = ofZ (zr i)) -> (forall i, (0 <= i < 4)%Z -> q i = ofZ (zq i)) ->
  limb_ok za -> limb_ok zb -> limb_ok zr -> limb_ok zq ->
  c1 = ofZ z1 -> c3 = ofZ z3 -> (0 <= z1 < 2 ^ 64)%Z -> (0 <= z3 < 2 ^ 64)%Z ->
  limb_eqs a b r q c1 c2 c3 c4 ->
  exists m, (limbs zr * limbs zb + limbs zq = limbs za + m * 2 ^ 256)%Z.
Proof.
  intros a b r q za zb zr zq c1 c2 c3 c4 z1 z3 BIG HA HB HR HQ LA LB LR LQ -> -> Z1 Z3 [E1 [E2 [C2 [k [K ->]]]]].
  rewrite (ff_first_ofZ a b r q za zb zr zq) in E1 by assumption.
  rewrite (ff_second_ofZ a b r q za zb zr zq) in E2 by assumption.
  assert (exists z2, (0 <= z2 <= 1)%Z /\ c2 = ofZ z2) as [z2 [Z2 ->]].
  { destruct C2 as [->| ->]; [exists 0%Z|exists 1%Z]; (split; [lia|reflexivity]). }
  rewrite <- !ofZ_mul in *. rewrite <- !ofZ_add in *. rewrite <- !ofZ_sub in *.
  destruct (limbs_bounds za zb zr zq LA LB LR LQ) as [B1 B2].
  apply ofZ_zero in E1; [|lia]. apply ofZ_zero in E2; [|lia].
  apply (limbs_sound za zb zr zq z1 z2 z3 k); lia.
Qed.

(** The honest carries, as mul.hpp and div.hpp compute them. *)
Definition h_first (a b r q : Z -> F) : Z := Z.shiftr (fval (ff_first a b r q)) 128.
Definition h_c1 (a b r q : Z -> F) : F := ofZ (Z.land (h_first a b r q) (2 ^ 64 - 1)).
Definition h_c2 (a b r q : Z -> F) : F := ofZ (Z.shiftr (h_first a b r q) 64).
Definition h_second (a b r q : Z -> F) : Z :=
  Z.shiftr (fval (ff_second a b r q + h_c1 a b r q + h_c2 a b r q * ofZ (2 ^ 64))) 128.
Definition h_c3 (a b r q : Z -> F) : F := ofZ (Z.land (h_second a b r q) (2 ^ 64 - 1)).
Definition h_c4 (a b r q : Z -> F) : F := ofZ (Z.shiftr (h_second a b r q) 64).

Lemma limb_eqs_complete : forall (a b r q : Z -> F) (za zb zr zq : Z -> Z) m,
  (2 ^ 196 < char P)%Z ->
  (forall i, (0 <= i < 4)%Z -> a i = ofZ (za i)) -> (forall i, (0 <= i < 4)%Z -> b i = ofZ (zb i)) ->
  (forall i, (0 <= i < 4)%Z -> r i = ofZ (zr i)) -> (forall i, (0 <= i < 4)%Z -> q i = ofZ (zq i)) ->
  limb_ok za -> limb_ok zb -> limb_ok zr -> limb_ok zq ->
  (limbs zr * limbs zb + limbs zq = limbs za + m * 2 ^ 256)%Z ->
  limb_eqs a b r q (h_c1 a b r q) (h_c2 a b r q) (h_c3 a b r q) (h_c4 a b r q) /\
  exists z1 z3, (0 <= z1 < 2 ^ 64)%Z /\ (0 <= z3 < 2 ^ 64)%Z /\
    h_c1 a b r q = ofZ z1 /\ h_c3 a b r q = ofZ z3.
Proof.
  intros a b r q za zb zr zq m BIG HA HB HR HQ LA LB LR LQ E.
  destruct (limbs_complete za zb zr zq m LA LB LR LQ E) as [Q1 [Q2 [E1 [B1 [E2 B2]]]]].
  assert (F1 : ff_first a b r q = ofZ (z_first za zb zr zq)) by (apply ff_first_ofZ; assumption).
  assert (F2 : ff_second a b r q = ofZ (z_second za zb zr zq)) by (apply ff_second_ofZ; assumption).
  assert (SH : forall x n, (0 <= n)%Z -> Z.shiftr (2 ^ n * x) n = x).
  { intros x n N. rewrite Z.shiftr_div_pow2 by lia. rewrite Z.mul_comm. apply Z.div_mul.
    apply Z.pow_nonzero; lia. }
  assert (HF : h_first a b r q = Q1).
  { unfold h_first. rewrite F1, E1. rewrite fval_ofZ_small by lia. apply SH. lia. }
  assert (LO : forall x, Z.land x (2 ^ 64 - 1) = (x mod 2 ^ 64)%Z).
  { intros x. change (2 ^ 64 - 1)%Z with (Z.ones 64). apply Z.land_ones. lia. }
  assert (C1 : h_c1 a b r q = ofZ (Q1 mod 2 ^ 64)) by (unfold h_c1; rewrite HF, LO; reflexivity).
  assert (C2 : h_c2 a b r q = ofZ (Q1 / 2 ^ 64)) by (unfold h_c2; rewrite HF, Z.shiftr_div_pow2 by lia; reflexivity).
  pose proof (Z.div_mod Q1 (2 ^ 64) ltac:(lia)) as DM1.
  pose proof (Z.mod_pos_bound Q1 (2 ^ 64) ltac:(lia)) as MB1.
  pose proof (Z.div_mod Q2 (2 ^ 64) ltac:(lia)) as DM2.
  pose proof (Z.mod_pos_bound Q2 (2 ^ 64) ltac:(lia)) as MB2.
  assert (HS : h_second a b r q = Q2).
  { unfold h_second. rewrite F2, C1, C2. rewrite <- ofZ_mul, <- !ofZ_add.
    replace (z_second za zb zr zq + Q1 mod 2 ^ 64 + Q1 / 2 ^ 64 * 2 ^ 64)%Z with (2 ^ 128 * Q2)%Z by lia.
    rewrite fval_ofZ_small by lia. apply SH. lia. }
  assert (C3 : h_c3 a b r q = ofZ (Q2 mod 2 ^ 64)) by (unfold h_c3; rewrite HS, LO; reflexivity).
  assert (C4 : h_c4 a b r q = ofZ (Q2 / 2 ^ 64)) by (unfold h_c4; rewrite HS, Z.shiftr_div_pow2 by lia; reflexivity).
  assert (D1 : (0 <= Q1 / 2 ^ 64 <= 1)%Z) by lia.
  assert (D2 : (0 <= Q2 / 2 ^ 64 <= 3)%Z) by lia.
  split.
  - unfold limb_eqs. rewrite F1, F2, C1, C2, C3, C4.
    rewrite <- !ofZ_mul. rewrite <- !ofZ_add. rewrite <- !ofZ_sub. change (f0 : F) with (ofZ (P := P) 0).
    split; [f_equal; lia|]. split; [f_equal; lia|]. split.
    + assert (Q1 / 2 ^ 64 = 0 \/ Q1 / 2 ^ 64 = 1)%Z as [->| ->] by lia; [left|right]; reflexivity.
    + exists (Q2 / 2 ^ 64)%Z. split; [exact D2|reflexivity].
  - exists (Q1 mod 2 ^ 64)%Z, (Q2 mod 2 ^ 64)%Z. auto.
Qed.

(** A 64-bit carry written in four chunks is read back. *)
Lemma fchunk64_sum : forall z, (2 ^ 196 < char P)%Z -> (0 <= z < 2 ^ 64)%Z ->
  f_sum64 (fchunk64 (ofZ z : F)) 0 = ofZ z.
Proof.
  intros z BIG B. unfold fchunk64. rewrite fval_ofZ_small by lia.
  rewrite (f_sum64_ofZ _ (chunk z)) by reflexivity. f_equal.
  rewrite <- wordsum_limb, wordsum_chunk by lia. apply Z.mod_small. exact B.
Qed.

Lemma chunk_limbs : forall w, (0 <= w < 2 ^ 256)%Z -> limbs (z_sum64 (chunk w)) = w.
Proof. intros w H. unfold limbs. rewrite <- wordsum_limbs. apply word_chunks. exact H. Qed.

Lemma chunk_limb_ok : forall w, limb_ok (z_sum64 (chunk w)).
Proof. intros w i I. apply z_sum64_bound. intros. apply chunk_range. lia. Qed.

Lemma f_sum64_chunk : forall w k, f_sum64 (fchunk w : Z -> F) k = ofZ (z_sum64 (chunk w) k).
Proof. intros. apply f_sum64_ofZ. reflexivity. Qed.

Lemma f_sum64_ext : forall (f g : Z -> F) k, (forall j, (4 * k <= j < 4 * k + 4)%Z -> f j = g j) ->
  f_sum64 f k = f_sum64 g k.
Proof. intros f g k H. unfold f_sum64, sum64. rewrite !H by lia. reflexivity. Qed.

(** *** Multiplication *)
Definition lim T (c0 r : Z) (k : Z) : F := f_sum64 (fun i => oc T (c0 + i) r) k.

Definition mul_eqs T (r : Z) : Prop :=
  limb_eqs (lim T 0 (r + 1)) (lim T 0 r) (lim T 0 (r - 1)) (fun _ => f0)
           (lim T 16 (r - 1) 0) (oc T 16 (r + 1)) (lim T 16 r 0) (oc T 17 (r + 1)).

Lemma mul_gates_iff : forall T r, stp T (r - 1) <> f0 ->
  (forall e, In e (mul_gates (P := P)) -> eval T r e = f0) <-> mul_eqs T r.
Proof.
  intros T r NZ. unfold mul_gates. rewrite !all_cons, all_nil.
  change (position 1 3) with (step (P := P) (-1)).
  assert (S : eval T r (step (-1)) = stp T (r - 1)) by apply eval_step.
  set (a := e_sum64 (fun i => ov i (-1))). set (b := e_sum64 (fun i => ov i 0)).
  set (c := e_sum64 (fun i => ov i 1)).
  set (c1 := e_sum64 (fun i => ov (16 + i)%Z (-1)) 0). set (c3 := e_sum64 (fun i => ov (16 + i)%Z 0) 0).
  assert (EA : forall k, eval T r (a k) = lim T 0 (r - 1) k) by (intros; apply eval_sum64).
  assert (EB : forall k, eval T r (b k) = lim T 0 r k)
    by (intros; apply eval_sum64_0).
  assert (EC : forall k, eval T r (c k) = lim T 0 (r + 1) k) by (intros; apply eval_sum64).
  assert (E1 : eval T r c1 = lim T 16 (r - 1) 0) by apply eval_sum64.
  assert (E3 : eval T r c3 = lim T 16 r 0)
    by apply eval_sum64_0.
  fold em_first. fold em_second.
  assert (EF : eval T r (em_first a b c) = fm_first (lim T 0 (r - 1)) (lim T 0 r) (lim T 0 (r + 1))).
  { unfold em_first, fm_first, mul_first. rewrite !eval_bin. cbn [ebop]. rewrite !EA, !EB, !EC, !eval_ecst. reflexivity. }
  assert (ES : eval T r (em_second a b c) = fm_second (lim T 0 (r - 1)) (lim T 0 r) (lim T 0 (r + 1))).
  { unfold em_second, fm_second, mul_second. rewrite !eval_bin. cbn [ebop]. rewrite !EA, !EB, !EC, !eval_ecst. reflexivity. }
  unfold mul_eqs, limb_eqs. rewrite <- fm_first_eq, <- fm_second_eq, <- EF, <- ES, <- four_iff, <- bool_iff.
  rewrite !(eval_bin P T r OMul). rewrite !eval_bin. cbn [ebop]. rewrite S, E1, E3, !eval_ov, !eval_ecst.
  change (ofZ 1) with (f1 : F).
  set (x := stp T (r - 1)) in *.
  assert (AS : forall u v w z : F, x * u * v * w * z = x * (u * v * w * z)) by (intros; ring).
  assert (AS2 : forall u v : F, x * u * v = x * (u * v)) by (intros; ring).
  rewrite AS, AS2, !(mul0_cancel _ _ NZ). tauto.
Qed.

Lemma lim_ofZ : forall T c0 r k, lim T c0 r k = ofZ (z_sum64 (fun i => fval (oc T (c0 + i) r)) k).
Proof. intros. apply f_sum64_ofZ. intros. symmetry. apply ofZ_fval. Qed.

Lemma lim_ok : forall T c0 r, chunks16 T c0 16 r -> limb_ok (z_sum64 (fun i => fval (oc T (c0 + i) r))).
Proof.
  intros T c0 r H i I. apply z_sum64_bound. intros j J. split; [apply fval_range|]. apply H. lia.
Qed.

Lemma lim1_ok : forall T c0 r, chunks16 T c0 4 r -> (0 <= z_sum64 (fun i => fval (oc T (c0 + i) r)) 0 < 2 ^ 64)%Z.
Proof.
  intros T c0 r H. apply z_sum64_bound. intros j J. split; [apply fval_range|]. apply H. lia.
Qed.

Lemma word_limbs : forall T c0 r, word T c0 r = limbs (z_sum64 (fun i => fval (oc T (c0 + i) r))).
Proof. intros. unfold word, limbs. rewrite wordsum_limbs. reflexivity. Qed.

Lemma word_bound : forall T c0 r, chunks16 T c0 16 r -> (0 <= word T c0 r < 2 ^ 256)%Z.
Proof.
  intros T c0 r H. apply (wordsum_bound _ 16); [lia|]. intros i I. split; [apply fval_range|apply H; exact I].
Qed.

Lemma mul_sound : forall T r, (2 ^ 196 < char P)%Z ->
  chunks16 T 0 20 (r - 1) -> chunks16 T 0 20 r -> chunks16 T 0 16 (r + 1) ->
  mul_eqs T r -> ((word T 0 (r - 1) * word T 0 r) mod 2 ^ 256 = word T 0 (r + 1))%Z.
Proof.
  intros T r BIG HA HB HR E. unfold mul_eqs in E.
  assert (SUB : forall r', chunks16 T 0 20 r' -> chunks16 T 0 16 r' /\ chunks16 T 16 4 r').
  { intros r' H. split; intros i I; [apply H; lia|]. apply (H (16 + i)%Z). lia. }
  destruct (SUB _ HA) as [HA1 HA2]. destruct (SUB _ HB) as [HB1 HB2].
  set (L := fun c0 r => z_sum64 (fun i => fval (oc T (c0 + i) r))).
  destruct (limb_eqs_sound (lim T 0 (r + 1)) (lim T 0 r) (lim T 0 (r - 1)) (fun _ => f0)
    (L 0%Z (r + 1)%Z) (L 0%Z r) (L 0%Z (r - 1)%Z) (fun _ => 0%Z)
    (lim T 16 (r - 1) 0) (oc T 16 (r + 1)) (lim T 16 r 0) (oc T 17 (r + 1))
    (L 16%Z (r - 1)%Z 0%Z) (L 16%Z r 0%Z) BIG) as [m EM]; try exact E;
    try (intros; apply lim_ofZ); try (apply lim_ok; assumption); try (apply lim1_ok; assumption).
  - intros. reflexivity.
  - intros i I. lia.
  - unfold L in EM. rewrite <- !word_limbs in EM. change (limbs (fun _ => 0%Z)) with 0%Z in EM.
    rewrite Z.add_0_r in EM. rewrite EM, Z.mod_add by lia. apply Z.mod_small. apply word_bound. exact HR.
Qed.

Lemma h_ext : forall (a b r q a' b' r' q' : Z -> F),
  (forall i, (0 <= i < 4)%Z -> a i = a' i) -> (forall i, (0 <= i < 4)%Z -> b i = b' i) ->
  (forall i, (0 <= i < 4)%Z -> r i = r' i) -> (forall i, (0 <= i < 4)%Z -> q i = q' i) ->
  ff_first a b r q = ff_first a' b' r' q' /\ ff_second a b r q = ff_second a' b' r' q'.
Proof.
  intros a b r q a' b' r' q' HA HB HR HQ. unfold ff_first, ff_second, div_first, div_second.
  rewrite !HA, !HB, !HR, !HQ by lia. auto.
Qed.

Lemma limb_eqs_ext : forall (a b r q a' b' r' q' : Z -> F) c1 c2 c3 c4,
  (forall i, (0 <= i < 4)%Z -> a i = a' i) -> (forall i, (0 <= i < 4)%Z -> b i = b' i) ->
  (forall i, (0 <= i < 4)%Z -> r i = r' i) -> (forall i, (0 <= i < 4)%Z -> q i = q' i) ->
  limb_eqs a b r q c1 c2 c3 c4 -> limb_eqs a' b' r' q' c1 c2 c3 c4.
Proof.
  intros a b r q a' b' r' q' c1 c2 c3 c4 HA HB HR HQ. unfold limb_eqs.
  destruct (h_ext a b r q a' b' r' q' HA HB HR HQ) as [-> ->]. auto.
Qed.

(** Honest cells around middle row [r]. *)
Definition cells T (c0 n r : Z) (f : Z -> F) : Prop := forall i, (0 <= i < n)%Z -> oc T (c0 + i) r = f i.

Lemma cells_lim : forall T c0 r w k, cells T c0 16 r (fchunk w) -> (0 <= k < 4)%Z ->
  f_sum64 (fchunk w) k = lim T c0 r k.
Proof. intros T c0 r w k H K. symmetry. apply f_sum64_ext. intros j J. apply H. lia. Qed.

Lemma cells_lim64 : forall T c0 r z, (2 ^ 196 < char P)%Z -> (0 <= z < 2 ^ 64)%Z ->
  cells T c0 4 r (fchunk64 (ofZ z)) -> lim T c0 r 0 = ofZ z.
Proof.
  intros T c0 r z BIG Z H. rewrite <- (fchunk64_sum z BIG Z). apply f_sum64_ext. intros j J. apply H. lia.
Qed.

Lemma mul_complete : forall T r a b w, (2 ^ 196 < char P)%Z ->
  (0 <= a < 2 ^ 256)%Z -> (0 <= b < 2 ^ 256)%Z -> w = ((a * b) mod 2 ^ 256)%Z ->
  let a64 := f_sum64 (fchunk a) in let b64 := f_sum64 (fchunk b) in let w64 := f_sum64 (fchunk w) in
  let z := fun _ : Z => (f0 : F) in
  cells T 0 16 (r - 1) (fchunk a) -> cells T 0 16 r (fchunk b) -> cells T 0 16 (r + 1) (fchunk w) ->
  cells T 16 4 (r - 1) (fchunk64 (h_c1 w64 b64 a64 z)) ->
  cells T 16 4 r (fchunk64 (h_c3 w64 b64 a64 z)) ->
  oc T 16 (r + 1) = h_c2 w64 b64 a64 z -> oc T 17 (r + 1) = h_c4 w64 b64 a64 z ->
  mul_eqs T r.
Proof.
  intros T r a b w BIG A B W a64 b64 w64 z HA HB HW H1 H3 H2 H4.
  assert (W' : (0 <= w < 2 ^ 256)%Z) by (subst w; apply Z.mod_pos_bound; lia).
  destruct (limb_eqs_complete w64 b64 a64 z (z_sum64 (chunk w)) (z_sum64 (chunk b)) (z_sum64 (chunk a)) (fun _ => 0%Z)
    ((a * b) / 2 ^ 256)) as [E [z1 [z3 [Z1 [Z3 [C1 C3]]]]]]; try (intros; apply f_sum64_chunk);
    try apply chunk_limb_ok; try exact BIG.
  - intros. reflexivity.
  - intros i I. lia.
  - rewrite !chunk_limbs by assumption. change (limbs (fun _ => 0%Z)) with 0%Z. subst w.
    pose proof (Z.div_mod (a * b) (2 ^ 256) ltac:(lia)). lia.
  - unfold mul_eqs. rewrite H2, H4.
    rewrite C1 in H1. rewrite C3 in H3.
    rewrite (cells_lim64 T 16 (r - 1)%Z z1 BIG Z1 H1), (cells_lim64 T 16 r z3 BIG Z3 H3), <- C1, <- C3.
    eapply limb_eqs_ext; [| | | |exact E]; intros i I; try reflexivity; apply cells_lim; assumption.
Qed.
(** ** Sums of chunks *)
Lemma rsum_chunks : forall (f : Z -> F) n, (0 <= n)%Z ->
  (forall i, (0 <= i < n)%Z -> (fval (f i) < 2 ^ 16)%Z) ->
  exists z, rsum P f 0 n = ofZ z /\ (0 <= z <= n * 2 ^ 16)%Z /\
            (z = 0%Z <-> forall i, (0 <= i < n)%Z -> fval (f i) = 0%Z).
Proof.
  intros f. apply (natlike_ind (fun n => (forall i, (0 <= i < n)%Z -> (fval (f i) < 2 ^ 16)%Z) ->
  exists z, rsum P f 0 n = ofZ z /\ (0 <= z <= n * 2 ^ 16)%Z /\
            (z = 0%Z <-> forall i, (0 <= i < n)%Z -> fval (f i) = 0%Z))).
  - intros _. exists 0%Z. split; [reflexivity|]. split; [lia|]. split; [intros; lia|reflexivity].
  - intros n N IH H. destruct IH as [z [E [B Z]]]; [intros; apply H; lia|].
    pose proof (H n ltac:(lia)). pose proof (fval_range P (f n)).
    exists (z + fval (f n))%Z. unfold Z.succ. rewrite rsum_S by lia. rewrite E, ofZ_add, ofZ_fval.
    split; [reflexivity|]. split; [lia|]. split.
    + intros S i I. destruct (Z.eq_dec i n) as [->|D]; [lia|]. apply Z; lia.
    + intros S. rewrite (S n) by lia. assert (z = 0)%Z by (apply Z; intros; apply S; lia). lia.
Qed.

Lemma fsum_rsum : forall (f : Z -> F) n, fsum f n = rsum P f 0 n.
Proof. reflexivity. Qed.

Lemma wordsum_zero : forall f n, (0 <= n)%Z -> (forall i, (0 <= i < n)%Z -> (0 <= f i)%Z) ->
  (wordsum f n = 0%Z <-> forall i, (0 <= i < n)%Z -> f i = 0%Z).
Proof.
  intros f. apply (natlike_ind (fun n => (forall i, (0 <= i < n)%Z -> (0 <= f i)%Z) ->
  (wordsum f n = 0%Z <-> forall i, (0 <= i < n)%Z -> f i = 0%Z))).
  - intros _. split; [intros; lia|reflexivity].
  - intros n N IH H. unfold Z.succ. rewrite wordsum_S by lia.
    pose proof (wordsum_nonneg f n ltac:(intros; apply H; lia)). pose proof (H n ltac:(lia)).
    assert (0 < 2 ^ (16 * n))%Z by (apply Z.pow_pos_nonneg; lia).
    specialize (IH ltac:(intros; apply H; lia)). split.
    + intros S. assert (f n = 0)%Z by nia. assert (W : wordsum f n = 0%Z) by nia.
      intros i I. destruct (Z.eq_dec i n) as [->|D]; [assumption|]. apply IH; [assumption|lia].
    + intros S. rewrite (S n) by lia. rewrite (proj2 IH); [lia|]. intros; apply S; lia.
Qed.

(** The field sum of the chunks of a word vanishes exactly for the zero word. *)
Lemma sum_word : forall T c0 r, (2 ^ 21 < char P)%Z -> chunks16 T c0 16 r ->
  (rsum P (fun i => oc T (c0 + i) r) 0 16 = f0 <-> word T c0 r = 0%Z).
Proof.
  intros T c0 r BIG H.
  destruct (rsum_chunks (fun i => oc T (c0 + i) r) 16 ltac:(lia) H) as [z [E [B Z]]]. rewrite E.
  unfold word. rewrite wordsum_zero; [|lia|intros; apply fval_range].
  rewrite <- Z. split; [|intros ->; reflexivity].
  intros S. apply ofZ_zero in S; lia.
Qed.

(** *** ISZERO *)
Definition csum T (c0 r : Z) : F := rsum P (fun i => oc T (c0 + i) r) 0 16.

Definition iszero_eqs T (r : Z) : Prop :=
  (forall i, (17 <= i < 32)%Z -> oc T i r = f0) /\
  csum T 0 r * oc T 32 r + oc T 16 r - f1 = f0 /\ csum T 0 r * oc T 16 r = f0.

Lemma eval_iszero_sum : forall T r, eval T r (iszero_sum (P := P)) = csum T 0 r.
Proof.
  intros T r. unfold iszero_sum, csum, rsum.
  change (zseq 1 16) with [1;2;3;4;5;6;7;8;9;10;11;12;13;14;15]%Z.
  change (zseq 0 16) with [0;1;2;3;4;5;6;7;8;9;10;11;12;13;14;15]%Z.
  cbn [fold_left Z.add]. rewrite !eval_bin, !eval_ov, !Z.add_0_r. cbn [ebop]. ring.
Qed.

Lemma iszero_gates_iff : forall T r,
  (forall e, In e (iszero_gates (P := P)) -> eval T r e = f0) <-> iszero_eqs T r.
Proof.
  intros T r. unfold iszero_gates, iszero_eqs. rewrite !all_app, all_map, all_zseq, !all_cons, all_nil.
  rewrite !eval_bin, eval_iszero_sum, !eval_ov, !Z.add_0_r, eval_ecst. cbn [ebop]. change (ofZ 1) with (f1 : F).
  assert (V : forall i, eval T r (ov i 0) = oc T i r) by (intros; rewrite eval_ov, Z.add_0_r; reflexivity).
  split.
  - intros [H [H1 [H2 _]]]. split; [|auto]. intros i I. rewrite <- V. auto.
  - intros [H [H1 H2]]. split; [|auto]. intros i I. rewrite V. auto.
Qed.

Lemma iszero_sound : forall T r, (2 ^ 21 < char P)%Z -> chunks16 T 0 16 r -> iszero_eqs T r ->
  word T 16 r = (if word T 0 r =? 0 then 1 else 0)%Z.
Proof.
  intros T r BIG H [H0 [H1 H2]]. pose proof (sum_word T 0 r BIG H) as S. fold (csum T 0 r) in S.
  assert (R : oc T 16 r = if (word T 0 r =? 0)%Z then f1 else f0).
  { destruct (Z.eqb_spec (word T 0 r) 0) as [E|E].
    - apply S in E. rewrite E in H1. lc f1 H1.
    - apply fmul_integral in H2. destruct H2 as [H2|H2]; [destruct (E (proj1 S H2))|exact H2]. }
  assert (V0 : fval (f0 : F) = 0%Z) by (unfold f0; apply fval_ofZ_small; pose proof (char_ge_2 P); lia).
  assert (V1 : fval (f1 : F) = 1%Z) by (unfold f1; apply fval_ofZ_small; pose proof (char_ge_2 P); lia).
  unfold word at 1.
  rewrite (wordsum_ext _ (fun i => if (i =? 0)%Z then fval (oc T 16 r) else 0%Z)).
  - transitivity (fval (oc T 16 r)).
    + unfold wordsum. change (zseq 0 16) with [0;1;2;3;4;5;6;7;8;9;10;11;12;13;14;15]%Z.
      cbn [fold_left Z.eqb Pos.eqb]. change (2 ^ (16 * 0))%Z with 1%Z. lia.
    + rewrite R. destruct (_ =? _)%Z; assumption.
  - intros i I. destruct (Z.eqb_spec i 0) as [->|N]; [reflexivity|].
    rewrite <- V0. f_equal. apply H0. lia.
Qed.

Lemma fval_small_zero : forall z, (0 <= z < char P)%Z -> (ofZ z : F) = f0 -> z = 0%Z.
Proof. intros z B E. apply ofZ_zero in E; lia. Qed.

Lemma chunk_zero : forall w, (0 <= w < 2 ^ 256)%Z -> (2 ^ 21 < char P)%Z ->
  (fsum (fchunk w : Z -> F) 16 = f0 <-> w = 0%Z).
Proof.
  intros w B BIG. rewrite fsum_rsum.
  destruct (rsum_chunks (fchunk w) 16 ltac:(lia)) as [z [E [ZB Z]]].
  { intros i I. rewrite fchunk_val by lia. apply chunk_range. lia. }
  rewrite E. rewrite <- (word_chunks w B). rewrite wordsum_zero by (lia || (intros; apply chunk_range; lia)).
  split.
  - intros S. apply fval_small_zero in S; [|lia]. intros i I. rewrite <- (fchunk_val w i) by lia. apply Z; lia.
  - intros S. rewrite (proj2 Z); [reflexivity|]. intros i I. rewrite fchunk_val by lia. auto.
Qed.

Lemma inv0_l : forall x : F, x <> f0 -> x * inv0 x = f1.
Proof.
  intros x N. unfold inv0. destruct (feqb x f0) eqn:E; [apply feqb_eq in E; contradiction|].
  transitivity (finv x * x); [ring|]. apply finv_l. exact N.
Qed.
Lemma inv0_0 : inv0 (f0 : F) = f0.
Proof. unfold inv0. rewrite feqb_refl. reflexivity. Qed.

Lemma csum_chunk : forall T c0 r w, cells T c0 16 r (fchunk w) -> csum T c0 r = fsum (fchunk w) 16.
Proof. intros T c0 r w H. rewrite fsum_rsum. apply rsum_ext. intros i I. apply H. exact I. Qed.

Lemma iszero_complete : forall T r a, (2 ^ 21 < char P)%Z -> (0 <= a < 2 ^ 256)%Z ->
  cells T 0 16 r (fchunk a) -> oc T 16 r = (if (a =? 0)%Z then f1 else f0) ->
  (forall i, (17 <= i < 32)%Z -> oc T i r = f0) -> oc T 32 r = inv0 (fsum (fchunk a) 16) ->
  iszero_eqs T r.
Proof.
  intros T r a BIG A HA HR H0 HI. split; [exact H0|].
  rewrite (csum_chunk T 0 r a HA), HR, HI. pose proof (chunk_zero a A BIG) as Z.
  destruct (Z.eqb_spec a 0) as [E|E].
  - rewrite (proj2 Z E), inv0_0. split; ring.
  - rewrite inv0_l by (intros S; apply E, Z, S). split; ring.
Qed.

Lemma and_iff_both : forall A B C D : Prop, (A <-> C) -> (B <-> D) -> (A /\ B <-> C /\ D).
Proof. tauto. Qed.

(** *** Division *)
Definition div_eqs1 T (r : Z) : Prop :=
  let b := oc T 21 r in let S := csum T 0 r in
  b * (b * S - f1) = f0 /\ S * (b * S - f1) = f0 /\
  limb_eqs (lim T 0 (r - 1)) (lim T 0 r) (lim T 0 (r + 1)) (lim T 16 (r + 1))
           (lim T 16 (r - 1) 0) (oc T 20 (r - 1)) (lim T 16 r 0) (oc T 20 r) /\
  (forall i, (0 <= i < 16)%Z -> (f1 - b * S) * oc T i (r + 1) = f0).

Definition div_eqs2 T (r : Z) : Prop :=
  let d := fun i => oc T i (r - 1) - oc T (16 + i) r in
  let t := fun i => oc T i (r + 1) in let v := fun i => oc T (16 + i) (r + 1) in
  (forall i, (0 <= i < 16)%Z ->
     t i = (if (i =? 15)%Z then v i * d i else t (i + 1)%Z + (f1 - t (i + 1)%Z) * (v i * d i)) /\
     v i * (v i * d i - f1) = f0 /\ d i * (v i * d i - f1) = f0) /\ t 0%Z = f1.

Lemma eval_bsum : forall T r off, eval T r (esum (map (fun i => ov i off) (zseq 0 16))) = csum T 0 (r + off).
Proof. intros. rewrite eval_esum. apply rsum_ext. intros. apply eval_ov. Qed.

Lemma div_gates_iff : forall T r,
  (forall e, In e (div_gates (P := P)) -> eval T r e = f0) <->
  (stp T (r - 1) = f0 \/ div_eqs1 T r) /\
  (eval T r (ss_option row_col max_height 1) = f0 \/ oc T 21 (r - 1) * csum T 0 (r - 1) = f0 \/ div_eqs2 T r).
Proof.
  intros T r. unfold div_gates. cbv zeta. rewrite app_assoc, all_app.
  apply and_iff_both.
  - rewrite all_app, !all_cons, all_nil, all_map, all_zseq.
    change (position 2 4) with (step (P := P) (-1)).
    assert (S : eval T r (step (-1)) = stp T (r - 1)) by apply eval_step.
    set (a := e_sum64 (fun i => ov i (-1))). set (b := e_sum64 (fun i => ov i 0)).
    set (c := e_sum64 (fun i => ov i 1)). set (q := e_sum64 (fun i => ov (16 + i)%Z 1)).
    set (c1 := e_sum64 (fun i => ov (16 + i)%Z (-1)) 0). set (c3 := e_sum64 (fun i => ov (16 + i)%Z 0) 0).
    assert (EA : forall k, eval T r (a k) = lim T 0 (r - 1) k) by (intros; apply eval_sum64).
    assert (EB : forall k, eval T r (b k) = lim T 0 r k) by (intros; apply eval_sum64_0).
    assert (EC : forall k, eval T r (c k) = lim T 0 (r + 1) k) by (intros; apply eval_sum64).
    assert (EQ : forall k, eval T r (q k) = lim T 16 (r + 1) k) by (intros; apply eval_sum64).
    assert (E1 : eval T r c1 = lim T 16 (r - 1) 0) by apply eval_sum64.
    assert (E3 : eval T r c3 = lim T 16 r 0) by apply eval_sum64_0.
    fold e_first. fold e_second.
    assert (EF : eval T r (e_first a b c q) = ff_first (lim T 0 (r - 1)) (lim T 0 r) (lim T 0 (r + 1)) (lim T 16 (r + 1))).
    { unfold e_first, ff_first, div_first. rewrite !eval_bin. cbn [ebop]. rewrite !EA, !EB, !EC, !EQ, !eval_ecst. reflexivity. }
    assert (ES : eval T r (e_second a b c q) = ff_second (lim T 0 (r - 1)) (lim T 0 r) (lim T 0 (r + 1)) (lim T 16 (r + 1))).
    { unfold e_second, ff_second, div_second. rewrite !eval_bin. cbn [ebop]. rewrite !EA, !EB, !EC, !EQ, !eval_ecst. reflexivity. }
    assert (BS : eval T r (esum (map (fun i => ov i 0) (zseq 0 16))) = csum T 0 r)
      by (rewrite eval_bsum, Z.add_0_r; reflexivity).
    set (ef := e_first a b c q) in *. set (es := e_second a b c q) in *.
    set (bs := esum (map (fun i => ov i 0) (zseq 0 16))) in *.
    clearbody ef es bs c1 c3. clear a b c q EA EB EC EQ.
    unfold div_eqs1, limb_eqs. rewrite <- four_iff, <- bool_iff.
    set (x := stp T (r - 1)) in *.
    assert (EM : (forall i, (0 <= i < 16)%Z -> eval T r (EBin OMul (EBin OMul (step (-1))
       (EBin OSub (ecst (ofZ 1)) (EBin OMul (ov 21 0) bs))) (ov i 1)) = f0) <->
      (forall i, (0 <= i < 16)%Z -> x * ((f1 - oc T 21 r * csum T 0 r) * oc T i (r + 1)) = f0)).
    { split; intros H i I; specialize (H i I); revert H;
        rewrite !eval_bin, S, BS, !eval_ov, eval_ecst, Z.add_0_r; cbn [ebop]; change (ofZ 1) with (f1 : F);
        intros H; rewrite <- H; ring. }
    rewrite EM. clear EM.
    rewrite !eval_bin. cbn [ebop]. rewrite S, E1, E3, EF, ES, BS, !eval_ov, !eval_ecst, !Z.add_0_r.
    change (ofZ 1) with (f1 : F). change (r + -1)%Z with (r - 1)%Z.
    assert (AS : forall u v w z : F, x * u * v * w * z = x * (u * v * w * z)) by (intros; ring).
    assert (AS2 : forall u v : F, x * u * v = x * (u * v)) by (intros; ring).
    rewrite AS, !AS2.
    destruct (F_dec P x f0) as [X|X].
    + split; [intros _; left; exact X|intros _]. rewrite X.
      repeat split; intros; ring.
    + rewrite !(mul0_cancel _ _ X). split.
      * intros [H1 H2]. right.
        assert (H2' : forall i, (0 <= i < 16)%Z -> (f1 - oc T 21 r * csum T 0 r) * oc T i (r + 1) = f0)
          by (intros i I; apply (mul0_cancel x); auto).
        tauto.
      * intros [H|H]; [contradiction|].
        assert (H2' : forall i, (0 <= i < 16)%Z -> x * ((f1 - oc T 21 r * csum T 0 r) * oc T i (r + 1)) = f0)
          by (intros i I; apply (mul0_cancel x _ X); apply H; exact I).
        tauto.
  - rewrite !all_app, !all_cons, all_flat_map, !all_nil, all_zseq.
    change (position 1 4) with (ss_option (P := P) row_col max_height 1).
    set (pos := ss_option row_col max_height 1). set (x := eval T r pos).
    assert (BS : eval T r (esum (map (fun i => ov i (-1)) (zseq 0 16))) = csum T 0 (r - 1)) by apply eval_bsum.
    set (y := oc T 21 (r - 1) * csum T 0 (r - 1)).
    assert (EY : eval T r (EBin OMul (ov 21 (-1)) (esum (map (fun i => ov i (-1)) (zseq 0 16)))) = y).
    { rewrite eval_bin, BS, eval_ov. reflexivity. }
    set (bnz := EBin OMul (ov 21 (-1)) (esum (map (fun i => ov i (-1)) (zseq 0 16)))) in *.
    set (d := fun i => oc T i (r - 1) - oc T (16 + i) r).
    assert (ED : forall i, eval T r (EBin OSub (ov i (-1)) (ov (16 + i) 0)) = d i).
    { intros i. rewrite eval_bin, !eval_ov, Z.add_0_r. reflexivity. }
    assert (EM : forall i, (forall e, In e
         [EBin OMul (EBin OMul pos bnz) (EBin OSub (EBin OSub (ov i 1) (ov (i + 1) 1))
              (EBin OMul (EBin OMul (EBin OSub (ecst (ofZ 1)) (ov (i + 1) 1)) (ov (16 + i) 1))
                 (EBin OSub (ov i (-1)) (ov (16 + i) 0))));
          EBin OMul (EBin OMul pos bnz) (EBin OMul (ov (16 + i) 1)
              (EBin OSub (EBin OMul (ov (16 + i) 1) (EBin OSub (ov i (-1)) (ov (16 + i) 0))) (ecst (ofZ 1))));
          EBin OMul (EBin OMul pos bnz) (EBin OMul (EBin OSub (ov i (-1)) (ov (16 + i) 0))
              (EBin OSub (EBin OMul (ov (16 + i) 1) (EBin OSub (ov i (-1)) (ov (16 + i) 0))) (ecst (ofZ 1))))]
         -> eval T r e = f0) <->
       (x * y * (oc T i (r + 1) - (oc T (i + 1) (r + 1) + (f1 - oc T (i + 1) (r + 1)) * (oc T (16 + i) (r + 1) * d i))) = f0 /\
        x * y * (oc T (16 + i) (r + 1) * (oc T (16 + i) (r + 1) * d i - f1)) = f0 /\
        x * y * (d i * (oc T (16 + i) (r + 1) * d i - f1)) = f0)).
    { intros i. rewrite !all_cons, all_nil. rewrite !(eval_bin P T r OMul (EBin OMul pos bnz)).
      rewrite (eval_bin P T r OMul pos bnz). fold x. rewrite EY.
      rewrite !(eval_bin P T r OMul), !ED. rewrite !(eval_bin P T r OSub (EBin OMul _ _)), !(eval_bin P T r OMul), !ED.
      rewrite !eval_bin, !eval_ov, !eval_ecst. cbn [ebop]. change (ofZ 1) with (f1 : F).
      assert (R1 : forall a b c : F, a - b - (f1 - b) * c * d i = a - (b + (f1 - b) * (c * d i))) by (intros; ring).
      rewrite Z.add_0_r. change (r + -1)%Z with (r - 1)%Z. fold (d i). rewrite R1. tauto. }
    assert (EMM : (forall i, (0 <= i < 15)%Z -> forall e, In e
         [EBin OMul (EBin OMul pos bnz) (EBin OSub (EBin OSub (ov (14 - i) 1) (ov (14 - i + 1) 1))
              (EBin OMul (EBin OMul (EBin OSub (ecst (ofZ 1)) (ov (14 - i + 1) 1)) (ov (16 + (14 - i)) 1))
                 (EBin OSub (ov (14 - i) (-1)) (ov (16 + (14 - i)) 0))));
          EBin OMul (EBin OMul pos bnz) (EBin OMul (ov (16 + (14 - i)) 1)
              (EBin OSub (EBin OMul (ov (16 + (14 - i)) 1) (EBin OSub (ov (14 - i) (-1)) (ov (16 + (14 - i)) 0))) (ecst (ofZ 1))));
          EBin OMul (EBin OMul pos bnz) (EBin OMul (EBin OSub (ov (14 - i) (-1)) (ov (16 + (14 - i)) 0))
              (EBin OSub (EBin OMul (ov (16 + (14 - i)) 1) (EBin OSub (ov (14 - i) (-1)) (ov (16 + (14 - i)) 0))) (ecst (ofZ 1))))]
         -> eval T r e = f0) <->
      (forall i, (0 <= i < 15)%Z ->
        (x * y * (oc T i (r + 1) - (oc T (i + 1) (r + 1) + (f1 - oc T (i + 1) (r + 1)) * (oc T (16 + i) (r + 1) * d i))) = f0 /\
        x * y * (oc T (16 + i) (r + 1) * (oc T (16 + i) (r + 1) * d i - f1)) = f0 /\
        x * y * (d i * (oc T (16 + i) (r + 1) * d i - f1)) = f0))).
    { split.
      - intros H i I. apply EM. specialize (H (14 - i)%Z ltac:(lia)).
        replace (14 - (14 - i))%Z with i in H by ring. exact H.
      - intros H i I. apply EM. apply H. lia. }
    rewrite EMM. clear EMM EM.
    rewrite !(eval_bin P T r OMul), !(eval_bin P T r OSub), ?(eval_bin P T r OMul), !EY, !eval_ov, !eval_ecst.
    cbn [ebop]. rewrite !Z.add_0_r. change (r + -1)%Z with (r - 1)%Z. fold x. change (ofZ 1) with (f1 : F).
    change (16 + 15)%Z with 31%Z.
    change (oc T 15 (r - 1) - oc T 31 r) with (d 15%Z).
    assert (ED15 : eval T r (EBin OSub (ov 15 (-1)) (ov 31 0)) = d 15%Z) by (exact (ED 15%Z)). rewrite !ED15.
    assert (AS : forall u v : F, x * y * u * v = x * y * (u * v)) by (intros; ring).
    rewrite !AS.
    assert (XY : x * y = f0 <-> x = f0 \/ y = f0).
    { split; [apply fmul_integral|]. intros [->| ->]; ring. }
    destruct (F_dec P (x * y) f0) as [N|N].
    + rewrite N. split; [intros _; rewrite XY in N; tauto|intros _].
      repeat split; intros; ring.
    + assert (NN : (x = f0 \/ y = f0 \/ div_eqs2 T r) <-> div_eqs2 T r) by tauto. rewrite NN.
      rewrite !(mul0_cancel _ _ N). unfold div_eqs2. fold d. split.
      * intros [[H1 [H2 [H3 _]]] [HM [H4 _]]]. split; [|apply fsub0; exact H4].
        intros i I. destruct (Z.eqb_spec i 15) as [->|D].
        -- split; [apply fsub0; exact H1|]. split; assumption.
        -- destruct (HM i ltac:(lia)) as [M1 [M2 M3]]. rewrite (mul0_cancel _ _ N) in M1; rewrite (mul0_cancel _ _ N) in M2; rewrite (mul0_cancel _ _ N) in M3.
           split; [apply fsub0; exact M1|]. split; assumption.
      * intros [H H4]. destruct (H 15%Z ltac:(lia)) as [H1 [H2 H3]]. cbn [Z.eqb Pos.eqb] in H1.
        split; [split; [apply fsub_eq0; exact H1|split; [exact H2|split; [exact H3|exact I]]]|].
        split; [|split; [apply fsub_eq0; exact H4|exact I]].
        intros i J. destruct (H i ltac:(lia)) as [M1 [M2 M3]]. destruct (Z.eqb_spec i 15); [lia|].
        rewrite !(mul0_cancel _ _ N). split; [apply fsub_eq0; exact M1|]. split; assumption.
Qed.
(** The first half of the division gate: the product relation modulo 2^256, and
    a zero divisor forces a zero quotient. *)
Lemma fval_0 : fval (f0 : F) = 0%Z.
Proof. unfold f0. apply fval_ofZ_small. pose proof (char_ge_2 P). lia. Qed.

Lemma div_sound1 : forall T r, (2 ^ 196 < char P)%Z ->
  chunks16 T 0 20 (r - 1) -> chunks16 T 0 20 r -> chunks16 T 0 32 (r + 1) -> div_eqs1 T r ->
  ((word T 0 (r + 1) * word T 0 r + word T 16 (r + 1)) mod 2 ^ 256 = word T 0 (r - 1))%Z /\
  (word T 0 r = 0%Z -> word T 0 (r + 1) = 0%Z) /\
  (word T 0 r <> 0%Z -> oc T 21 r * csum T 0 r = f1).
Proof.
  intros T r BIG HA HB HR [E1 [E2 [EL EZ]]].
  assert (B21 : (2 ^ 21 < char P)%Z).
  { assert (2 ^ 21 < 2 ^ 196)%Z by (apply Z.pow_lt_mono_r; lia). lia. }
  assert (SUB : forall r', chunks16 T 0 20 r' -> chunks16 T 0 16 r' /\ chunks16 T 16 4 r').
  { intros r' H. split; intros i I; [apply H; lia|]. apply (H (16 + i)%Z). lia. }
  destruct (SUB _ HA) as [HA1 HA2]. destruct (SUB _ HB) as [HB1 HB2].
  assert (HR1 : chunks16 T 0 16 (r + 1)) by (intros i I; apply HR; lia).
  assert (HR2 : chunks16 T 16 16 (r + 1)) by (intros i I; apply (HR (16 + i)%Z); lia).
  pose proof (sum_word T 0 r B21 HB1) as S. fold (csum T 0 r) in S.
  split; [|split].
  - set (L := fun c0 r => z_sum64 (fun i => fval (oc T (c0 + i) r))).
    destruct (limb_eqs_sound (lim T 0 (r - 1)) (lim T 0 r) (lim T 0 (r + 1)) (lim T 16 (r + 1))
      (L 0%Z (r - 1)%Z) (L 0%Z r) (L 0%Z (r + 1)%Z) (L 16%Z (r + 1)%Z)
      (lim T 16 (r - 1) 0) (oc T 20 (r - 1)) (lim T 16 r 0) (oc T 20 r)
      (L 16%Z (r - 1)%Z 0%Z) (L 16%Z r 0%Z) BIG) as [m EM]; try exact EL;
      try (intros; apply lim_ofZ); try (apply lim_ok; assumption); try (apply lim1_ok; assumption).
    unfold L in EM. rewrite <- !word_limbs in EM.
    rewrite EM, Z.mod_add by lia. apply Z.mod_small. apply word_bound. exact HA1.
  - intros Z. apply S in Z.
    unfold word. apply wordsum_zero; [lia|intros; apply fval_range|].
    intros i I. specialize (EZ i I). rewrite Z in EZ. fold (oc T (0 + i)%Z (r + 1)). change (0 + i)%Z with i.
    assert (X : oc T i (r + 1) = f0) by lc (f1 : F) EZ.
    rewrite X. apply fval_0.
  - intros N. apply fmul_integral in E2. destruct E2 as [E2|E2]; [destruct N; apply S; exact E2|].
    apply fsub0. exact E2.
Qed.

(** The second half says no more than that divisor and remainder differ. *)
Lemma div_sound2 : forall T r, div_eqs2 T r ->
  exists i, (0 <= i < 16)%Z /\ oc T i (r - 1) <> oc T (16 + i) r.
Proof.
  intros T r [H H0].
  assert (D : forall i, (0 <= i < 16)%Z -> {oc T i (r - 1) = oc T (16 + i) r} + {oc T i (r - 1) <> oc T (16 + i) r})
    by (intros; apply F_dec).
  set (all := forallb (fun i => feqb (oc T i (r - 1)) (oc T (16 + i) r)) (zseq 0 16)).
  destruct all eqn:A.
  - exfalso. unfold all in A. rewrite forallb_forall in A.
    assert (E : forall i, (0 <= i < 16)%Z -> oc T i (r - 1) - oc T (16 + i) r = f0).
    { intros i I. apply fsub_eq0. apply feqb_eq. apply A. apply in_zseq. lia. }
    assert (Z : forall n, (0 <= n)%Z -> (n < 16)%Z -> oc T (15 - n) (r + 1) = f0).
    { apply (natlike_ind (fun n => (n < 16)%Z -> oc T (15 - n) (r + 1) = f0)).
      - intros _. destruct (H 15%Z ltac:(lia)) as [X _]. cbn [Z.eqb Pos.eqb] in X.
        change (15 - 0)%Z with 15%Z. rewrite X, (E 15%Z) by lia. ring.
      - intros n N IH B. destruct (H (15 - Z.succ n)%Z ltac:(lia)) as [X _].
        destruct (Z.eqb_spec (15 - Z.succ n) 15); [lia|].
        replace (15 - Z.succ n + 1)%Z with (15 - n)%Z in X by lia.
        rewrite X, IH, E by lia. ring. }
    specialize (Z 15%Z ltac:(lia) ltac:(lia)). change (15 - 15)%Z with 0%Z in Z.
    rewrite Z in H0. symmetry in H0. exact (f1_neq_f0 P H0).
  - unfold all in A.
    assert (X : exists i, In i (zseq 0 16) /\ feqb (oc T i (r - 1)) (oc T (16 + i) r) = false).
    { clear - A. induction (zseq 0 16) as [|x l IH]; [discriminate|]. cbn [forallb] in A.
      destruct (feqb (oc T x (r - 1)) (oc T (16 + x) r)) eqn:E.
      - destruct (IH A) as [i [I1 I2]]. exists i. split; [right; exact I1|exact I2].
      - exists x. split; [left; reflexivity|exact E]. }
    destruct X as [i [I E]]. apply in_zseq in I. exists i. split; [lia|].
    intros C. rewrite C, feqb_refl in E. discriminate.
Qed.

Lemma wordsum_lt : forall f g i n, (0 <= i)%Z -> (0 <= n)%Z -> (i < n)%Z ->
  (forall j, (0 <= j < n)%Z -> (0 <= f j < 2 ^ 16)%Z) -> (forall j, (0 <= j < n)%Z -> (0 <= g j < 2 ^ 16)%Z) ->
  (forall j, (i < j < n)%Z -> (f j <= g j)%Z) -> (f i < g i)%Z -> (wordsum f n < wordsum g n)%Z.
Proof.
  intros f g i n I N. revert n N. apply (natlike_ind (fun n => (i < n)%Z ->
    (forall j, (0 <= j < n)%Z -> (0 <= f j < 2 ^ 16)%Z) -> (forall j, (0 <= j < n)%Z -> (0 <= g j < 2 ^ 16)%Z) ->
    (forall j, (i < j < n)%Z -> (f j <= g j)%Z) -> (f i < g i)%Z -> (wordsum f n < wordsum g n)%Z)); [lia|].
  intros n N IH L HF HG HLE HLT. unfold Z.succ. rewrite !wordsum_S by lia.
  assert (0 < 2 ^ (16 * n))%Z by (apply Z.pow_pos_nonneg; lia).
  destruct (Z.eq_dec i n) as [->|D].
  - pose proof (wordsum_bound f n N ltac:(intros; apply HF; lia)).
    pose proof (wordsum_nonneg g n ltac:(intros; apply HG; lia)). nia.
  - specialize (IH ltac:(lia) ltac:(intros; apply HF; lia) ltac:(intros; apply HG; lia) ltac:(intros; apply HLE; lia) HLT).
    specialize (HLE n ltac:(lia)). nia.
Qed.

Lemma wordsum_le : forall f g n, (0 <= n)%Z -> (forall j, (0 <= j < n)%Z -> (f j <= g j)%Z) ->
  (wordsum f n <= wordsum g n)%Z.
Proof.
  intros f g. apply (natlike_ind (fun n => (forall j, (0 <= j < n)%Z -> (f j <= g j)%Z) ->
    (wordsum f n <= wordsum g n)%Z)); [intros; reflexivity|].
  intros n N IH H. unfold Z.succ. rewrite !wordsum_S by lia.
  assert (0 < 2 ^ (16 * n))%Z by (apply Z.pow_pos_nonneg; lia).
  specialize (IH ltac:(intros; apply H; lia)). specialize (H n ltac:(lia)). nia.
Qed.

(** The chain of "some chunk from i on is smaller" flags. *)
Lemma lt_chain : forall b q, (0 <= q)%Z -> (q < b)%Z -> (b < 2 ^ 256)%Z ->
  let t := fun i => existsb (fun j => chunk q j <? chunk b j)%Z (zseq i 16) in
  t 0%Z = true /\ forall i, (0 <= i < 16)%Z ->
    t i = orb (t (i + 1)%Z) (negb (chunk b i =? chunk q i)%Z).
Proof.
  intros b q Q QB B t.
  assert (CB : forall w j, (0 <= j < 16)%Z -> (0 <= chunk w j < 2 ^ 16)%Z) by (intros; apply chunk_range; lia).
  assert (EX : forall i, t i = false -> forall j, (i <= j < 16)%Z -> (chunk b j <= chunk q j)%Z).
  { intros i Hf j J. unfold t in Hf.
    destruct (Z.ltb_spec (chunk q j) (chunk b j)); [|lia]. exfalso.
    assert (existsb (fun j => chunk q j <? chunk b j)%Z (zseq i 16) = true); [|congruence].
    apply existsb_exists. exists j. split; [apply in_zseq; lia|]. apply Z.ltb_lt. assumption. }
  split.
  - destruct (t 0%Z) eqn:E; [reflexivity|exfalso].
    assert (wordsum (chunk b) 16 <= wordsum (chunk q) 16)%Z.
    { apply wordsum_le; [lia|]. intros. apply (EX 0%Z E). lia. }
    rewrite !word_chunks in * by lia. lia.
  - intros i I. assert (TS : t i = orb (chunk q i <? chunk b i)%Z (t (i + 1)%Z)).
    { unfold t. rewrite (zseq_cons i 16) by lia. reflexivity. }
    rewrite TS. destruct (t (i + 1)%Z) eqn:E; [rewrite orb_true_r; reflexivity|]. rewrite orb_false_r. cbn [orb].
    destruct (Z.eqb_spec (chunk b i) (chunk q i)) as [X|X]; cbn [negb].
    + apply Z.ltb_ge. lia.
    + apply Z.ltb_lt. destruct (Z.lt_total (chunk q i) (chunk b i)) as [Y|[Y|Y]]; [exact Y|lia|exfalso].
      assert (wordsum (chunk b) 16 < wordsum (chunk q) 16)%Z.
      { apply (wordsum_lt _ _ i); try lia; try (intros; apply CB; lia).
        intros j J. apply (EX (i + 1)%Z E). lia. }
      rewrite !word_chunks in * by lia. lia.
Qed.

Lemma inv0_eqs : forall S : F,
  inv0 S * (inv0 S * S - f1) = f0 /\ S * (inv0 S * S - f1) = f0 /\ (S <> f0 -> f1 - inv0 S * S = f0).
Proof.
  intros S. destruct (F_dec P S f0) as [E|N].
  - rewrite E, inv0_0. split; [ring|]. split; [ring|]. intros C. contradiction.
  - pose proof (inv0_l _ N) as IV.
    assert (IV' : inv0 S * S - f1 = f0) by lc (f1 : F) IV. rewrite IV'.
    split; [ring|]. split; [ring|]. intros _. lc (fopp f1 : F) IV.
Qed.

Lemma quot_rem : forall a b w q, (0 <= a < 2 ^ 256)%Z -> (0 <= b < 2 ^ 256)%Z ->
  w = (if b =? 0 then 0 else a / b)%Z -> q = (if b =? 0 then a else a mod b)%Z ->
  (0 <= w < 2 ^ 256 /\ 0 <= q < 2 ^ 256 /\ w * b + q = a)%Z.
Proof.
  intros a b w q A B -> ->. generalize dependent (2 ^ 256)%Z. intros M A B.
  destruct (Z.eqb_spec b 0) as [->|N]; [lia|].
  pose proof (Z.div_mod a b N). pose proof (Z.mod_pos_bound a b ltac:(lia)).
  assert (0 <= a / b)%Z by (apply Z.div_pos; lia).
  assert (a / b <= a)%Z by (apply Z.div_le_upper_bound; nia). lia.
Qed.

Lemma div_limbs_complete : forall T r a b w q, (2 ^ 196 < char P)%Z ->
  (0 <= a < 2 ^ 256)%Z -> (0 <= b < 2 ^ 256)%Z -> (0 <= w < 2 ^ 256)%Z -> (0 <= q < 2 ^ 256)%Z ->
  (w * b + q = a)%Z ->
  let a64 := f_sum64 (fchunk a) in let b64 := f_sum64 (fchunk b) in let w64 := f_sum64 (fchunk w) in
  let q64 := f_sum64 (fchunk q) in
  cells T 0 16 (r - 1) (fchunk a) -> cells T 0 16 r (fchunk b) -> cells T 0 16 (r + 1) (fchunk w) ->
  cells T 16 16 (r + 1) (fchunk q) ->
  cells T 16 4 (r - 1) (fchunk64 (h_c1 a64 b64 w64 q64)) ->
  cells T 16 4 r (fchunk64 (h_c3 a64 b64 w64 q64)) ->
  oc T 20 (r - 1) = h_c2 a64 b64 w64 q64 -> oc T 20 r = h_c4 a64 b64 w64 q64 ->
  limb_eqs (lim T 0 (r - 1)) (lim T 0 r) (lim T 0 (r + 1)) (lim T 16 (r + 1))
           (lim T 16 (r - 1) 0) (oc T 20 (r - 1)) (lim T 16 r 0) (oc T 20 r).
Proof.
  intros T r a b w q BIG A B W Q WQ a64 b64 w64 q64 HA HB HW HQ H1 H3 H2 H4.
  destruct (limb_eqs_complete a64 b64 w64 q64 (z_sum64 (chunk a)) (z_sum64 (chunk b)) (z_sum64 (chunk w)) (z_sum64 (chunk q))
    0) as [E [z1 [z3 [Z1 [Z3 [C1 C3]]]]]]; try (intros; apply f_sum64_chunk);
    try apply chunk_limb_ok; try exact BIG.
  { rewrite !chunk_limbs by assumption. rewrite WQ. ring. }
  rewrite H2, H4.
  rewrite C1 in H1. rewrite C3 in H3.
  rewrite (cells_lim64 T 16 (r - 1)%Z z1 BIG Z1 H1), (cells_lim64 T 16 r z3 BIG Z3 H3), <- C1, <- C3.
  eapply limb_eqs_ext; [| | | |exact E]; intros i I; try reflexivity; apply cells_lim; assumption.
Qed.

Lemma div_complete1 : forall T r a b w q, (2 ^ 196 < char P)%Z ->
  (0 <= a < 2 ^ 256)%Z -> (0 <= b < 2 ^ 256)%Z ->
  w = (if b =? 0 then 0 else a / b)%Z -> q = (if b =? 0 then a else a mod b)%Z ->
  let a64 := f_sum64 (fchunk a) in let b64 := f_sum64 (fchunk b) in let w64 := f_sum64 (fchunk w) in
  let q64 := f_sum64 (fchunk q) in
  cells T 0 16 (r - 1) (fchunk a) -> cells T 0 16 r (fchunk b) -> cells T 0 16 (r + 1) (fchunk w) ->
  cells T 16 16 (r + 1) (fchunk q) ->
  cells T 16 4 (r - 1) (fchunk64 (h_c1 a64 b64 w64 q64)) ->
  cells T 16 4 r (fchunk64 (h_c3 a64 b64 w64 q64)) ->
  oc T 20 (r - 1) = h_c2 a64 b64 w64 q64 -> oc T 20 r = h_c4 a64 b64 w64 q64 ->
  oc T 21 r = inv0 (fsum (fchunk b) 16) ->
  div_eqs1 T r.
Proof.
  intros T r a b w q BIG A B W Q a64 b64 w64 q64 HA HB HW HQ H1 H3 H2 H4 HI.
  destruct (quot_rem a b w q A B W Q) as [W' [Q' WQ]].
  pose proof (div_limbs_complete T r a b w q BIG A B W' Q' WQ HA HB HW HQ H1 H3 H2 H4) as EL.
  assert (B21 : (2 ^ 21 < char P)%Z).
  { assert (2 ^ 21 < 2 ^ 196)%Z by (apply Z.pow_lt_mono_r; lia). lia. }
  pose proof (chunk_zero b B B21) as ZB.
  unfold div_eqs1. rewrite (csum_chunk T 0 r b HB), HI.
  destruct (inv0_eqs (fsum (fchunk b) 16)) as [I1 [I2 I3]].
  split; [exact I1|]. split; [exact I2|]. split; [exact EL|].
  intros i I. destruct (Z.eq_dec b 0) as [B0|B0].
  - rewrite (HW i I : oc T i (r + 1) = _).
    assert (C : fchunk w i = f0 :> F).
    { rewrite W, B0. unfold fchunk. rewrite chunk_eq by lia. cbn [Z.eqb]. rewrite Z.div_0_l by lia. reflexivity. }
    rewrite C. generalize (f1 - inv0 (fsum (fchunk (P := P) b) 16) * fsum (fchunk b) 16). intros x. ring.
  - rewrite I3 by (intros S; apply B0, ZB, S). ring.
Qed.

Lemma div_complete2 : forall T r b q, (2 ^ 21 < char P)%Z -> (0 <= q)%Z -> (q < b)%Z -> (b < 2 ^ 256)%Z ->
  cells T 0 16 (r - 1) (fchunk b) -> cells T 16 16 r (fchunk q) ->
  cells T 0 16 (r + 1) (div_t P b q) ->
  cells T 16 16 (r + 1) (fun i => inv0 (fchunk b i - fchunk q i)) ->
  div_eqs2 T r.
Proof.
  intros T r b q BIG Q QB B HB HQ HT HV.
  destruct (lt_chain b q Q QB B) as [T0 TS]. cbv zeta in T0, TS.
  set (t := fun i => existsb (fun j => chunk q j <? chunk b j)%Z (zseq i 16)) in *.
  change (t 0%Z = true) in T0.
  change (forall i, (0 <= i < 16)%Z -> t i = orb (t (i + 1)%Z) (negb (chunk b i =? chunk q i)%Z)) in TS.
  assert (DT : forall i, (0 <= i < 16)%Z -> div_t P b q i = ofZ (Z.b2z (t i))).
  { intros i I. unfold div_t, t. f_equal. f_equal.
    assert (X : forall l, (forall j, In j l -> (0 <= j < 16)%Z) ->
      existsb (fun j => (fval (fchunk (P := P) q j) <? fval (fchunk (P := P) b j))%Z) l = existsb (fun j => (chunk q j <? chunk b j)%Z) l).
    { induction l as [|x l IH]; intros H; [reflexivity|]. cbn [existsb]. rewrite IH by (intros; apply H; right; assumption).
      assert (0 <= x < 16)%Z by (apply H; left; reflexivity). rewrite !fchunk_val by lia. reflexivity. }
    apply X. intros j J. apply in_zseq in J. lia. }
  assert (V : forall i, (0 <= i < 16)%Z -> oc T (16 + i) (r + 1) * (oc T i (r - 1) - oc T (16 + i) r) =
     (if (chunk b i =? chunk q i)%Z then f0 else f1) /\
     (chunk b i = chunk q i -> oc T i (r - 1) - oc T (16 + i) r = f0)).
  { intros i I. rewrite (HB i I : oc T i (r - 1) = _), (HQ i I), (HV i I).
    destruct (Z.eqb_spec (chunk b i) (chunk q i)) as [E|E].
    - assert (X : fchunk b i - fchunk q i = (f0 : F)) by (unfold fchunk; rewrite E; ring).
      rewrite X. split; [rewrite inv0_0; ring|auto].
    - assert (X : fchunk b i - fchunk q i <> (f0 : F)).
      { intros S. apply fsub0 in S. apply E. rewrite <- (fchunk_val b i), <- (fchunk_val q i) by lia.
        rewrite S. reflexivity. }
      split; [|contradiction].
      rewrite <- (inv0_l _ X). generalize (fchunk b i - fchunk q i : F). intros x. ring. }
  unfold div_eqs2. split.
  - intros i I. destruct (V i I) as [V1 V2]. rewrite V1.
    rewrite (HT i I : oc T i (r + 1) = _), (DT i I), (TS i I).
    split.
    + destruct (Z.eqb_spec i 15) as [->|N].
      * change (t (15 + 1)%Z) with false. cbn [orb].
        destruct (chunk b 15 =? chunk q 15)%Z; reflexivity.
      * rewrite (HT (i + 1)%Z ltac:(lia) : oc T (i + 1) (r + 1) = _), (DT (i + 1)%Z) by lia.
        destruct (t (i + 1)%Z), (chunk b i =? chunk q i)%Z; cbn [orb negb Z.b2z];
          change (ofZ 1) with (f1 : F); change (ofZ 0) with (f0 : F); ring.
    + destruct (Z.eqb_spec (chunk b i) (chunk q i)) as [E|E].
      * specialize (V2 E). rewrite V2. split; [|generalize (oc T (16 + i) (r + 1)); intros; ring].
        rewrite (HV i I). rewrite (HB i I : oc T i (r - 1) = _), (HQ i I) in V2. rewrite V2, inv0_0. ring.
      * split; ring.
  - rewrite (HT 0%Z ltac:(lia) : oc T 0 (r + 1) = _), (DT 0%Z), T0 by lia. reflexivity.
Qed.
End Ops.
