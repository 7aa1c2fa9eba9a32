(** The values the variable base scalar multiplication writes meet its constraints. *)
From Coq Require Import ZArith List Lia Bool Field.
From Verif Require Import Base Field Plonk PlonkFacts Bits CurveSpec CurveModel CurveProofs VbsmSpec VbsmModel VbsmProofs VbsmTrace.
Import ListNotations.
Open Scope Z_scope.

Section Honest.
Variable P : params.
Notation F := (F P).
Variable pal : bool.
Add Field Ff : (F_field P) (morphism (F_morph P), constants [F_const], power_tac (F_power P) [F_pow_tac]).
Hypothesis big : group_order false <= char P.
Local Open Scope F_scope.

Lemma oct_ofZ : forall z, (0 <= z < 8)%Z -> oct P (ofZ z) = f0.
Proof.
  intros z Hz. assert (C : (z = 0 \/ z = 1 \/ z = 2 \/ z = 3 \/ z = 4 \/ z = 5 \/ z = 6 \/ z = 7)%Z) by lia. unfold oct.
  destruct C as [->|[->|[->|[->|[->|[->|[->| ->]]]]]]]; ring.
Qed.

Variables (xt yt b bh bc : F) (dbl inf : F * F) (ladd : F * F -> F * F -> F * F).
Notation T := (xt, yt).
Notation bit := (vb_bit P pal b bh).
Notation n := (scalar_of pal b bh).
Hypothesis S1 : pal = true -> (fval b < 2 ^ 254)%Z /\ (fval bh = 0 \/ fval bh = 1)%Z.
Hypothesis S255 : (n < 2 ^ 255)%Z.

Lemma n_range : (0 <= n < 2 ^ 255)%Z.
Proof.
  pose proof (fval_range P b) as R. pose proof (fval_range P bh) as R2. split; [|exact S255]. unfold scalar_of. destruct pal; lia.
Qed.

Lemma bit_n : forall i, (0 <= i < 255)%Z -> bit i = msb_bit 255 n i.
Proof.
  intros i Hi. unfold vb_bit, scalar_of. destruct pal; [|reflexivity].
  destruct (S1 eq_refl) as [B1 B2]. pose proof (fval_range P b) as R. cbn [andb].
  unfold msb_bit. destruct B2 as [E|E]; rewrite E.
  - rewrite andb_comm. cbn [andb Z.eqb]. f_equal. f_equal. lia.
  - rewrite Z.mul_1_r. destruct (Z.eqb_spec i 0) as [->|N]; cbn [andb].
    + change (1 =? 1)%Z with true. cbv iota. change (255 - 1 - 0)%Z with 254%Z. rewrite testbit_digit by lia.
      replace ((fval b + 2 ^ 254) / 2 ^ 254)%Z with 1%Z; [reflexivity|].
      apply (Z.div_unique _ _ 1 (fval b)); lia.
    + f_equal. rewrite !Z.testbit_eqb by lia. f_equal.
      replace (255 - 1 - i)%Z with (254 - i)%Z by lia.
      replace (2 ^ 254)%Z with (2 * 2 ^ (i - 1) * 2 ^ (254 - i))%Z at 1.
      2:{ rewrite <- Z.mul_assoc, <- Z.pow_add_r by lia. change 2%Z with (2 ^ 1)%Z at 1. rewrite <- Z.pow_add_r by lia. f_equal. lia. }
      rewrite Z.div_add by (apply Z.pow_nonzero; lia). rewrite (Z.mul_comm 2 (2 ^ (i - 1))), Z.mod_add by lia. reflexivity.
Qed.

Lemma bit_01 : forall i, (bit i = 0 \/ bit i = 1)%Z.
Proof.
  intros i. unfold vb_bit, msb_bit. destruct (pal && (i =? 0)%Z && (fval bh =? 1)%Z); [right; reflexivity|].
  destruct (Z.testbit (fval b) (255 - 1 - i)); [right|left]; reflexivity.
Qed.

Lemma n_val : forall d, (0 <= d)%Z -> vb_n P pal b bh d = ofZ (horner 2 bit (5 * d)).
Proof.
  intros d Hd. pattern d. apply natlike_ind; [reflexivity| |exact Hd]; clear d Hd.
  intros d Hd IH. unfold Z.succ. unfold vb_n. rewrite fold_zseq_snoc by lia. fold (vb_n P pal b bh d). rewrite IH.
  replace (5 * (d + 1))%Z with (5 * d + 1 + 1 + 1 + 1 + 1)%Z by lia. rewrite !horner_S by lia.
  replace (5 * d + 1 + 1)%Z with (5 * d + 2)%Z by lia. replace (5 * d + 2 + 1)%Z with (5 * d + 3)%Z by lia. replace (5 * d + 3 + 1)%Z with (5 * d + 4)%Z by lia.
  unfold vb_fbit. repeat (rewrite ?ofZ_add, ?ofZ_mul). ring.
Qed.

Lemma horner_top : forall k, (0 <= k <= 255)%Z -> horner 2 bit k = (n / 2 ^ (255 - k))%Z.
Proof.
  intros k Hk. pose proof n_range as R.
  rewrite (horner_ext 2 bit (msb_bit k (n / 2 ^ (255 - k))) k).
  - rewrite horner_bits by lia. apply Z.mod_small. split; [apply Z.div_pos; [lia|apply Z.pow_pos_nonneg; lia]|].
    apply Z.div_lt_upper_bound; [apply Z.pow_pos_nonneg; lia|]. rewrite <- Z.pow_add_r by lia. replace (255 - k + k)%Z with 255%Z by lia. lia.
  - intros i Hi. rewrite bit_n by lia. unfold msb_bit. f_equal. rewrite <- Z.shiftr_div_pow2 by lia.
    rewrite Z.shiftr_spec by lia. f_equal. lia.
Qed.

Lemma n51 : vb_n P pal b bh 51 = ofZ n.
Proof. rewrite n_val by lia. change (5 * 51)%Z with 255%Z. rewrite horner_top by lia. change (255 - 255)%Z with 0%Z. rewrite Z.pow_0_r, Z.div_1_r. reflexivity. Qed.

Lemma e2_val : vb_e2 P pal b bh = vb_n P pal b bh 25.
Proof.
  rewrite n_val by lia. change (5 * 25)%Z with 125%Z.
  assert (A : forall m, (0 <= m <= 125)%Z ->
    fold_left (fun a l => (fst a + vb_fbit P pal b bh (254 - l) * snd a, snd a * ofZ 2)) (zseq 130 (130 + m)) (f0, f1)
    = (ofZ (horner 2 (fun i => bit (125 - m + i)%Z) m), ofZ (2 ^ m))).
  { intros m [Hm Hm2]. revert Hm2. pattern m. apply natlike_ind; [| |exact Hm]; clear m Hm.
    - intros _. reflexivity.
    - intros m Hm IH H. unfold Z.succ in *. replace (130 + (m + 1))%Z with (130 + m + 1)%Z by lia. rewrite fold_zseq_snoc by lia.
      rewrite IH by lia. cbn [fst snd]. rewrite (Z.add_comm m 1). rewrite (horner_split 2 _ 1 m) by lia.
      rewrite (horner_ext 2 (fun k => bit (125 - (1 + m) + (1 + k))%Z) (fun i => bit (125 - m + i)%Z) m) by (intros; f_equal; lia).
      change 1%Z with (0 + 1)%Z at 2. rewrite horner_S, horner_0 by lia. unfold vb_fbit.
      replace (254 - (130 + m))%Z with (125 - (1 + m) + 0)%Z by lia.
      rewrite Z.pow_add_r by lia. rewrite Z.mul_0_r, Z.add_0_l. apply injective_projections; cbn [fst snd]; repeat (rewrite ?ofZ_add, ?ofZ_mul); change (ofZ (2 ^ 1) : F) with (ofZ 2 : F); ring. }
  unfold vb_e2. change 255%Z with (130 + 125)%Z. rewrite A by lia. cbn [fst]. reflexivity.
Qed.

(** The range check. *)
Notation aux := (vb_aux P pal b bh).
Notation ab := (fun i => msb_bit 255 (fval aux) (125 + i)).

Lemma ab_01 : forall i, (0 <= msb_bit 255 (fval aux) i < 2)%Z.
Proof. intros i. unfold msb_bit. destruct (Z.testbit _ _); cbn; lia. Qed.

Lemma u0_val : forall d, vb_u0 P pal b bh d = ofZ (4 * ab (6 * d) + 2 * ab (6 * d + 1) + ab (6 * d + 2))%Z.
Proof.
  intros d. unfold vb_u0, vb_abit. cbv zeta. rewrite !ofZ_add, !ofZ_mul. 
  replace (125 + d * 6)%Z with (125 + 6 * d)%Z by lia. rewrite <- !Z.add_assoc. reflexivity.
Qed.
Lemma u1_val : forall d, d <> 21%Z -> vb_u1 P pal b bh d = ofZ (4 * ab (6 * d + 3) + 2 * ab (6 * d + 4) + ab (6 * d + 5))%Z.
Proof.
  intros d Hd. unfold vb_u1, vb_abit. cbv zeta. apply Z.eqb_neq in Hd. rewrite Hd. rewrite !ofZ_add, !ofZ_mul. 
  replace (125 + d * 6)%Z with (125 + 6 * d)%Z by lia. rewrite <- !Z.add_assoc. reflexivity.
Qed.
Lemma u1_21 : vb_u1 P pal b bh 21 = ofZ (ab 129).
Proof. reflexivity. Qed.

Lemma u_val : forall d, (0 <= d <= 21)%Z -> vb_u P pal b bh d = ofZ (horner 2 ab (6 * d)).
Proof.
  intros d [Hd Hd2]. revert Hd2. pattern d. apply natlike_ind; [reflexivity| |exact Hd]; clear d Hd.
  intros d Hd IH H. unfold Z.succ in *. unfold vb_u. rewrite fold_zseq_snoc by lia. fold (vb_u P pal b bh d). rewrite IH by lia.
  rewrite u0_val, u1_val by lia.
  replace (6 * (d + 1))%Z with (6 * d + 1 + 1 + 1 + 1 + 1 + 1)%Z by lia. rewrite !horner_S by lia.
  replace (6 * d + 1 + 1)%Z with (6 * d + 2)%Z by lia. replace (6 * d + 2 + 1)%Z with (6 * d + 3)%Z by lia. replace (6 * d + 3 + 1)%Z with (6 * d + 4)%Z by lia.
  replace (6 * d + 4 + 1)%Z with (6 * d + 5)%Z by lia.
  repeat (rewrite ?ofZ_add, ?ofZ_mul). ring.
Qed.

Lemma unext_21 : vb_unext P pal b bh 21 = ofZ (fval aux mod 2 ^ 130).
Proof.
  unfold vb_unext. change (21 =? 21)%Z with true. cbv iota. rewrite u_val by lia. rewrite u0_val, u1_21.
  change (6 * 21)%Z with 126%Z.
  rewrite <- (horner_bits (fval aux) 130) by lia.
  rewrite (horner_ext 2 (msb_bit 130 (fval aux)) ab 130).
  - change 130%Z with (126 + 1 + 1 + 1 + 1)%Z. rewrite !horner_S by lia. change (126 + 1 + 1 + 1)%Z with 129%Z. change (126 + 1 + 1)%Z with 128%Z. change (126 + 2)%Z with 128%Z. change (126 + 1)%Z with 127%Z.
    repeat (rewrite ?ofZ_add, ?ofZ_mul). ring.
  - intros k Hk. unfold msb_bit. f_equal. f_equal. lia.
Qed.

Hypothesis S2 : (n < group_order pal)%Z.

Lemma high_ok : vb_fbit P pal b bh 0 * (vb_unext P pal b bh 21 - aux) = f0 /\
                vb_fbit P pal b bh 0 * (vb_e2 P pal b bh - ofZ (2 ^ 124)) = f0.
Proof.
  destruct (bit_01 0) as [E|E]; assert (FB : vb_fbit P pal b bh 0 = ofZ (bit 0)) by reflexivity; rewrite E in FB; rewrite FB.
  { change (ofZ 0 : F) with (f0 : F). assert (Z0 : forall x : F, f0 * x = f0) by (intros x; ring). split; apply Z0. }
  pose proof n_range as R.
  assert (H : (2 ^ 254 <= n)%Z).
  { rewrite bit_n in E by lia. unfold msb_bit in E. change (255 - 1 - 0)%Z with 254%Z in E. rewrite testbit_digit in E by lia.
    destruct (Z_lt_le_dec n (2 ^ 254)) as [C|C]; [|exact C]. rewrite Z.div_small in E by lia. discriminate. }
  pose proof (big_z P big) as BZ. unfold vb_tp in BZ.
  assert (NT : (n < 2 ^ 254 + 2 ^ 126)%Z) by (unfold group_order in S2; destruct pal; lia).
  split.
  - rewrite unext_21. set (l := (n - 2 ^ 254)%Z).
    assert (AX : exists z, (0 <= z < 2 ^ 130)%Z /\ aux = ofZ z).
    { unfold vb_aux. exists (if pal then l - vb_tq + 2 ^ 130 else l - vb_tp + 2 ^ 130)%Z. subst l.
      unfold group_order in S2. split.
      - unfold vb_tq, vb_tp. destruct pal; lia.
      - destruct pal.
        + destruct (S1 eq_refl) as [B1 B2]. unfold scalar_of in *.
          assert (EB : b = ofZ (fval b + 2 ^ 254 * fval bh - 2 ^ 254)).
          { destruct B2 as [B2|B2]; rewrite B2 in *; [lia|]. rewrite <- (ofZ_fval P b) at 1. f_equal. lia. }
          rewrite EB at 1. rewrite (ofZ_add P _ (2 ^ 130)), (ofZ_sub P _ vb_tq). reflexivity.
        + unfold vb_fbit. rewrite E. unfold scalar_of. rewrite (ofZ_add P _ (2 ^ 130)), (ofZ_sub P _ vb_tp), (ofZ_sub P _ (2 ^ 254)), ofZ_fval.
          change (ofZ 1 : F) with (f1 : F). ring. }
    destruct AX as [z [Hz EZ]]. rewrite EZ. rewrite fval_ofZ_small by lia. rewrite Z.mod_small by lia. ring.
  - rewrite e2_val, n_val by lia. change (5 * 25)%Z with 125%Z. rewrite horner_top by lia. change (255 - 125)%Z with 130%Z.
    replace (n / 2 ^ 130)%Z with (2 ^ 124)%Z; [ring|]. apply (Z.div_unique _ _ _ (n - 2 ^ 254)); lia.
Qed.

(** The ladder. *)
Hypothesis NA : no_axis_points bc.
Hypothesis OT : on_curve bc (Some T).
Hypothesis ED : dbl = enc (ec_add (Some T) (Some T)).
Hypothesis LA : affine_add bc inf ladd.
Hypothesis IX : fst inf <> xt.
Hypothesis RN : runs pal T n.

Lemma q_sgn : forall k, (0 <= k < 255)%Z -> vb_q P pal xt yt b bh k = sgn P (Z.testbit n (254 - k)) T.
Proof. intros k Hk. unfold vb_q, vb_fbit, sgn. rewrite bit_n by lia. reflexivity. Qed.

Lemma sgn_lenc : forall e, sgn P e T = lenc inf (if e then Some T else neg (Some T)).
Proof. intros e. rewrite <- sgn_point. reflexivity. Qed.

Lemma pt_val : forall k, (0 <= k <= 255)%Z -> vb_pt P pal ladd xt yt b bh dbl k = lenc inf (ladder (Some T) n k).
Proof.
  intros k [Hk Hk2]. revert Hk2. pattern k. apply natlike_ind; [| |exact Hk]; clear k Hk.
  - intros _. change (vb_pt P pal ladd xt yt b bh dbl 0) with dbl. rewrite ED.
    destruct (dbl_some P big bc T NA OT) as [q E]. change (ladder (Some T) n 0) with (ec_add (Some T) (Some T)). rewrite E. reflexivity.
  - intros k Hk IH H. unfold Z.succ in *. unfold vb_pt. rewrite fold_zseq_snoc by lia. fold (vb_pt P pal ladd xt yt b bh dbl k).
    rewrite IH, q_sgn, sgn_lenc by lia. rewrite ladder_S by lia.
    assert (B3 : (3 <= char P)%Z) by (pose proof (big_z P big) as B; unfold vb_tp in B; lia).
    assert (OL : on_curve bc (ladder (Some T) n k)) by (apply ladder_on; assumption).
    assert (OS : on_curve bc (if Z.testbit n (254 - k) then Some T else neg (Some T))) by (rewrite <- sgn_point; apply sgn_on; exact OT).
    rewrite LA by assumption. rewrite LA; [reflexivity| |exact OL]. apply ec_add_on; assumption.
Qed.

Notation pt := (vb_pt P pal ladd xt yt b bh dbl).
Notation sl := (vb_slope P pal ladd xt yt b bh dbl).
Notation fb := (vb_fbit P pal b bh).

Lemma pt_neq : forall k, (0 <= k < 255)%Z -> fst (pt k) <> xt.
Proof.
  intros k Hk. rewrite pt_val by lia. destruct RN as [R1 [R2 _]].
  destruct (Z.eq_dec k 254) as [->|N].
  - destruct (ladder (Some T) n 254) as [[x y]|]; [|exact IX]. exact (R2 x y eq_refl).
  - destruct (R1 k ltac:(lia)) as [x [y [x' [y' [E1 [E2 NX]]]]]]. rewrite E1. injection E2 as E2 _. rewrite E2. exact NX.
Qed.

Lemma slope_ok : forall k, (0 <= k < 255)%Z -> st_slope P T (pt k) (sl k) (fb k) = f0.
Proof.
  intros k Hk. pose proof (pt_neq k Hk) as NX. unfold st_slope, vb_slope, vb_q, inv0. cbn [fst snd].
  destruct (feqb (fst (pt k) - xt) f0) eqn:E; [apply feqb_eq in E; exfalso; apply NX; lc f1 E|]. field. 
  intros D. apply NX. lc f1 D.
Qed.

Lemma step_ok : forall k p q, (0 <= k < 255)%Z -> ladder (Some T) n k = Some p -> ladder (Some T) n (k + 1) = Some q ->
  st_x P T (pt k) (pt (k + 1)) (sl k) = f0 /\ st_y P T (pt k) (pt (k + 1)) (sl k) = f0.
Proof.
  intros k p q Hk E1 E2. pose proof (pt_neq k Hk) as NX. pose proof (slope_ok k Hk) as SL.
  rewrite !pt_val in * by lia. rewrite E1 in *. rewrite E2. cbn [lenc] in *.
  unfold vb_fbit in SL. rewrite bit_n in SL by lia.
  apply (step_complete P big bc T p (sl k) (Z.testbit n (254 - k))); try assumption.
  - rewrite <- E1. apply ladder_on; [exact big|exact NA|exact OT|lia].
  - rewrite sgn_point. rewrite ladder_S in E2 by lia. rewrite E1 in E2. exact E2.
Qed.

Notation fin := (vb_final P pal ladd xt yt b bh dbl).

Lemma inv0_l : forall x : F, x <> f0 -> x * inv0 x = f1.
Proof. intros x Hx. unfold inv0. destruct (feqb x f0) eqn:E; [apply feqb_eq in E; contradiction|]. field. exact Hx. Qed.
Lemma inv0_chk : forall x : F, (x * inv0 x - f1) * x = f0.
Proof.
  intros x. destruct (feqb x f0) eqn:E; [apply feqb_eq in E; rewrite E; ring|]. apply feqb_neq in E. rewrite inv0_l by exact E. ring.
Qed.

Lemma fin_complete : fin_ok P pal (pt 255) fin.
Proof.
  unfold fin_ok. destruct (const_neq P pal big) as [N1 [N2 N3]].
  cbv zeta. unfold vb_final. cbv zeta. 
  set (sm1 := ofZ (vb_sm1 pal) : F) in *. set (s0 := ofZ (vb_s0 pal) : F) in *. set (s1 := ofZ (vb_s1 pal) : F) in *.
  generalize (vb_n P pal b bh 51). generalize (pt 255). clearbody sm1 s0 s1. intros p m.
  assert (Z0 : forall x : F, x - x = f0) by (intros; ring).
  split; [apply inv0_chk|]. split; [rewrite <- (inv0_chk (m - sm1)) at 1; ring|]. split; [apply inv0_chk|].
  assert (D0 : forall x y : F, x <> y -> x - y <> f0) by (intros x y N E; apply N; lc f1 E).
  assert (Q0 : inv0 (f0 : F) = f0) by (unfold inv0; rewrite feqb_refl; reflexivity).
  destruct (feqb m sm1) eqn:E1; [apply feqb_eq in E1|apply feqb_neq in E1].
  { rewrite E1. rewrite (Z0 sm1), !Q0. rewrite (inv0_l (sm1 - s1)) by (apply D0; exact N2).
    assert (M0 : f0 * (sm1 - s0) * (sm1 - s1) = f0) by ring. rewrite M0. split; [ring|]. split; [ring|]. reflexivity. }
  rewrite (inv0_l (m - sm1)) by (apply D0; exact E1).
  destruct (feqb m s0) eqn:E2; [apply feqb_eq in E2|apply feqb_neq in E2].
  { rewrite E2 in *. rewrite (Z0 s0). rewrite (inv0_l (s0 - s1)) by (apply D0; exact N3).
    assert (M0 : (s0 - sm1) * f0 * (s0 - s1) = f0) by ring. rewrite M0. split; [ring|]. split; [ring|]. reflexivity. }
  destruct (feqb m s1) eqn:E3; [apply feqb_eq in E3|apply feqb_neq in E3].
  { rewrite E3 in *. rewrite (Z0 s1). assert (M0 : (s1 - sm1) * (s1 - s0) * f0 = f0) by ring. rewrite M0. split; [ring|]. split; [ring|]. reflexivity. }
  rewrite (inv0_l (m - s1)) by (apply D0; exact E3).
  rewrite (inv0_l ((m - sm1) * (m - s0) * (m - s1))).
  { split; [ring|]. split; [ring|]. reflexivity. }
  assert (MN : forall x y : F, x <> f0 -> y <> f0 -> x * y <> f0) by (intros x y Hx Hy E; apply fmul_integral in E; destruct E; contradiction).
  apply MN; [apply MN|]; apply D0; assumption.
Qed.

Lemma in_ok : if pal then bh = fb 0 /\ vb_n P pal b bh 51 = fin 11%Z + fin 9%Z * ofZ (2 ^ 254) else b = vb_n P pal b bh 51.
Proof.
  clear S2 RN.
  unfold vb_final. cbv zeta. rewrite n51. unfold vb_fbit, vb_bit, scalar_of. destruct pal.
    + destruct (S1 eq_refl) as [B1 B2]. cbn [andb]. change (0 =? 0)%Z with true. cbn [andb].
      destruct B2 as [B2|B2]; rewrite B2.
      * change (0 =? 1)%Z with false. cbv iota. unfold msb_bit. rewrite testbit_digit by lia. change (255 - 1 - 0)%Z with 254%Z.
        pose proof (fval_range P b). rewrite Z.div_small by lia. change (0 mod 2)%Z with 0%Z. split; [rewrite <- B2; symmetry; apply ofZ_fval|].
        rewrite Z.mul_0_r, Z.add_0_r, ofZ_fval. change (ofZ 0 : F) with (f0 : F). ring.
      * change (1 =? 1)%Z with true. cbv iota. split; [rewrite <- B2; symmetry; apply ofZ_fval|].
        rewrite Z.mul_1_r, ofZ_add, ofZ_fval. change (ofZ 1 : F) with (f1 : F). ring.
    + symmetry. apply ofZ_fval.
Qed.

(** Any points and slopes that pass the step constraints, with any range check
    chain that passes its own. *)
Lemma mk_ok : forall p s ui uo u0 u1 dbl0,
  p 0%Z = dbl0 -> p 255%Z = pt 255 ->
  (forall k, (0 <= k < 255)%Z -> st_slope P T (p k) (s k) (fb k) = f0) ->
  (forall k, (0 <= k < 255)%Z -> st_x P T (p k) (p (k + 1)%Z) (s k) = f0 /\ st_y P T (p k) (p (k + 1)%Z) (s k) = f0) ->
  (forall d, (0 <= d < 21)%Z -> oct P (u0 d) = f0 /\ oct P (u1 d) = f0 /\ uo d = ofZ 64 * ui d + ofZ 8 * u0 d + u1 d) ->
  (oct P (u0 21%Z) = f0 /\ u1 21%Z * (u1 21%Z - f1) = f0 /\ uo 21%Z = ofZ 16 * ui 21%Z + ofZ 2 * u0 21%Z + u1 21%Z) ->
  ui 0%Z = f0 -> (forall d, (0 <= d < 20)%Z -> uo d = ui (d + 1)%Z) ->
  fb 0 * (uo 21%Z - aux) = f0 /\ fb 0 * (vb_e2 P pal b bh - ofZ (2 ^ 124)) = f0 ->
  vb_ok P pal (mkVb T p s fb (vb_n P pal b bh) ui uo u0 u1 fin) dbl0 b bh f0.
Proof.
  intros p s ui uo u0 u1 dbl0 P0 P255 SL ST U U21 U0 UI HI.
  constructor; cbn [vt_t vt_p vt_s vt_b vt_n vt_ui vt_uo vt_u0 vt_u1 vt_f]; try assumption; try reflexivity.
  - intros k _. unfold vb_fbit. destruct (bit_01 k) as [->| ->]; ring.
  - intros k Hk. apply ST. lia.
  - intros k Hk. destruct (ST k ltac:(lia)) as [X Y]. rewrite X, Y. assert (M : forall x y : F, f0 * x * y = f0) by (intros; ring). split; apply M.
  - intros d Hd. unfold vb_n. rewrite fold_zseq_snoc by lia. reflexivity.
  - rewrite P255. exact fin_complete.
  - split; reflexivity.
  - exact e2_val.
  - exact in_ok.
Qed.

Lemma chain_ok :
  (forall d, (0 <= d < 21)%Z -> oct P (vb_u0 P pal b bh d) = f0 /\ oct P (vb_u1 P pal b bh d) = f0 /\
     vb_unext P pal b bh d = ofZ 64 * vb_u P pal b bh d + ofZ 8 * vb_u0 P pal b bh d + vb_u1 P pal b bh d) /\
  (oct P (vb_u0 P pal b bh 21) = f0 /\ vb_u1 P pal b bh 21 * (vb_u1 P pal b bh 21 - f1) = f0 /\
     vb_unext P pal b bh 21 = ofZ 16 * vb_u P pal b bh 21 + ofZ 2 * vb_u0 P pal b bh 21 + vb_u1 P pal b bh 21) /\
  (forall d, (0 <= d < 20)%Z -> vb_unext P pal b bh d = vb_u P pal b bh (d + 1)).
Proof.
  pose proof ab_01 as AB. split; [|split; [split; [|split]|]].
  - intros d Hd. split; [|split].
    + rewrite u0_val. apply oct_ofZ. pose proof (AB (125 + 6 * d)%Z). pose proof (AB (125 + (6 * d + 1))%Z). pose proof (AB (125 + (6 * d + 2))%Z). lia.
    + rewrite u1_val by lia. apply oct_ofZ. pose proof (AB (125 + (6 * d + 3))%Z). pose proof (AB (125 + (6 * d + 4))%Z). pose proof (AB (125 + (6 * d + 5))%Z). lia.
    + unfold vb_unext. destruct (Z.eqb_spec d 21) as [C|_]; [lia|]. unfold vb_u at 1. rewrite fold_zseq_snoc by lia. reflexivity.
  - rewrite u0_val. apply oct_ofZ. pose proof (AB (125 + 6 * 21)%Z). pose proof (AB (125 + (6 * 21 + 1))%Z). pose proof (AB (125 + (6 * 21 + 2))%Z). lia.
  - rewrite u1_21. pose proof (AB (125 + 129)%Z) as A. cbv beta. set (z := msb_bit 255 (fval aux) (125 + 129)) in *. clearbody z.
    assert (C : (z = 0 \/ z = 1)%Z) by lia. destruct C as [->| ->]; ring.
  - reflexivity.
  - intros d Hd. unfold vb_unext. destruct (Z.eqb_spec d 21) as [C|_]; [lia|]. reflexivity.
Qed.

Lemma spec_mask : special pal n -> fin 8%Z = f0.
Proof.
  intros S. unfold vb_final. cbv zeta. rewrite n51. destruct (shifted_const pal n) as [C1 [C2 C3]]. unfold special in S.
  rewrite C1, C2, C3 in S. destruct S as [->|[->| ->]]; ring.
Qed.

Lemma honest_ok : vb_ok P pal (vb_honest P pal ladd xt yt b bh dbl) dbl b bh f0.
Proof.
  destruct RN as [R1 [R2 R3]].
  assert (SM : forall k, (0 <= k <= 253)%Z -> exists p, ladder (Some T) n k = Some p).
  { intros k Hk. destruct (R1 k ltac:(lia)) as [x [y [x' [y' [E1 _]]]]]. exists (x, y). exact E1. }
  unfold vb_honest. constructor; cbn [vt_t vt_p vt_s vt_b vt_n vt_ui vt_uo vt_u0 vt_u1 vt_f].
  - reflexivity.
  - intros k _. unfold vb_fbit. destruct (bit_01 k) as [->| ->]; ring.
  - apply slope_ok.
  - intros k Hk. destruct (SM k ltac:(lia)) as [p E1]. destruct (SM (k + 1)%Z ltac:(lia)) as [q E2]. apply (step_ok k p q); [lia|exact E1|exact E2].
  - intros k Hk.
    assert (SD : special pal n \/ ~ special pal n).
    { unfold special. destruct (shifted_const pal n) as [C1 [C2 C3]]. rewrite C1, C2, C3.
      destruct (Z.eq_dec n (vb_sm1 pal)) as [Q1|Q1]; [auto|]. destruct (Z.eq_dec n (vb_s0 pal)) as [Q2|Q2]; [auto|]. destruct (Z.eq_dec n (vb_s1 pal)) as [Q3|Q3]; [auto|]. 
      right. intros [C|[C|C]]; contradiction. }
    destruct SD as [S|S].
    + rewrite (spec_mask S). assert (M : forall x y : F, x * f0 * y = f0) by (intros; ring). split; apply M.
    + destruct (R3 S) as [A1 A2].
      assert (SM2 : forall k, (0 <= k <= 255)%Z -> exists p, ladder (Some T) n k = Some p).
      { intros i Hi. destruct (Z_lt_le_dec i 254) as [H|H]; [apply SM; lia|]. assert (C : i = 254%Z \/ i = 255%Z) by lia.
        destruct C as [->| ->]; [destruct (ladder (Some T) n 254)|destruct (ladder (Some T) n 255)]; try contradiction; eexists; reflexivity. }
      destruct (SM2 k ltac:(lia)) as [p E1]. destruct (SM2 (k + 1)%Z ltac:(lia)) as [q E2].
      destruct (step_ok k p q ltac:(lia) E1 E2) as [X Y]. rewrite X, Y. assert (M : forall x y : F, f0 * x * y = f0) by (intros; ring). split; apply M.
  - intros d Hd. unfold vb_n. rewrite fold_zseq_snoc by lia. reflexivity.
  - exact fin_complete.
  - exact (proj1 chain_ok).
  - exact (proj1 (proj2 chain_ok)).
  - reflexivity.
  - exact (proj2 (proj2 chain_ok)).
  - reflexivity.
  - reflexivity.
  - split; reflexivity.
  - reflexivity.
  - exact e2_val.
  - reflexivity.
  - exact high_ok.
  - reflexivity.
  - exact in_ok.
Qed.
End Honest.
