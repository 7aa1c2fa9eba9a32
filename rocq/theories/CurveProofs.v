(** Proofs about the unified addition of curve points. *)
From Coq Require Import ZArith List Lia Bool Field.
From Verif Require Import Base Field Plonk PlonkFacts Bits Euler CurveSpec CurveModel.
Import ListNotations.
Open Scope Z_scope.

Section Proofs.
Variable P : params.
Notation F := (F P).
Notation table := (table P).
Variable L : lenv P.
Implicit Types T : table.
Add Field Ff : (F_field P) (morphism (F_morph P), constants [F_const], power_tac (F_power P) [F_pow_tac]).
Local Open Scope F_scope.

Hypothesis big : (3 <= char P)%Z.

Lemma two_nz : (ofZ 2 : F) <> f0.
Proof. intros E. apply (f_equal fval) in E. rewrite fval_ofZ, Z.mod_small in E by lia. discriminate. Qed.

Lemma mul_nz : forall a b : F, a <> f0 -> b <> f0 -> a * b <> f0.
Proof. intros a b A B E. destruct (fmul_integral _ a b E); auto. Qed.

Lemma cancel_l : forall a b : F, a * b = f0 -> a <> f0 -> b = f0.
Proof. intros a b E A. destruct (fmul_integral _ a b E); [contradiction|assumption]. Qed.

(** A point of the curve has no zero coordinate. *)
Lemma on_nz : forall b x y : F, no_axis_points b -> on_curve b (Some (x, y)) -> x <> f0 /\ y <> f0.
Proof.
  intros b x y [N1 N2] H. cbn [on_curve] in H. split; intros ->.
  - apply (N1 y). rewrite H. ring.
  - apply (N2 x). rewrite <- H. ring.
Qed.

(** The twelve equations of the gate. *)
Definition ua_eqs (x1 y1 x2 y2 x3 y3 g6 g7 g8 g9 s : F) : Prop :=
  let dx := x2 - x1 in
  let sy := y2 + y1 in
  let xd := x1 * x2 * x2 - x1 * x2 * x1 in
  let xs := x1 * x2 * y2 + x1 * x2 * y1 in
  let fx := s * s - x1 - x2 - x3 in
  let fy := s * (x1 - x3) - y1 - y3 in
  dx * (dx * s - (y2 - y1)) = f0 /\
  (f1 - dx * g8) * (ofZ 2 * y1 * s - ofZ 3 * x1 * x1) = f0 /\
  xd * fx = f0 /\ xd * fy = f0 /\ xs * fx = f0 /\ xs * fy = f0 /\
  (f1 - x1 * g6) * (x3 - x2) = f0 /\ (f1 - x1 * g6) * (y3 - y2) = f0 /\
  (f1 - x2 * g7) * (x3 - x1) = f0 /\ (f1 - x2 * g7) * (y3 - y1) = f0 /\
  (f1 - dx * g8 - sy * g9) * x3 = f0 /\ (f1 - dx * g8 - sy * g9) * y3 = f0.

Lemma ua_circuit_iff : forall T c px py qx qy row,
  sat L T (ua_circuit c px py qx qy row) <->
  (vval T px = T CWit (W c 0) row /\ vval T py = T CWit (W c 1) row /\
   vval T qx = T CWit (W c 2) row /\ vval T qy = T CWit (W c 3) row) /\
  ua_eqs (T CWit (W c 0) row) (T CWit (W c 1) row) (T CWit (W c 2) row) (T CWit (W c 3) row)
         (T CWit (W c 4) row) (T CWit (W c 5) row) (T CWit (W c 6) row) (T CWit (W c 7) row)
         (T CWit (W c 8) row) (T CWit (W c 9) row) (T CWit (W c 10) row).
Proof.
  intros. unfold ua_circuit, ua_gate. cbv zeta. rewrite !sat_cons, holds_gate1, !all_cons, all_nil. cbn [holds].
  repeat (rewrite ?eval_bin, ?eval_evar, ?eval_ecst, ?gval_wv, ?Z.add_0_r, ?vval_wcell; cbn [ebop]).
  unfold ua_eqs. cbv zeta. change (ofZ 1 : F) with (f1 : F).
  assert (S0 : sat L T [] <-> True) by (split; [auto|intros _; apply sat_nil]). rewrite S0. tauto.
Qed.

Lemma third_uniq : forall s x1 y1 x2 x3 y3 : F,
  s * s - x1 - x2 - x3 = f0 -> s * (x1 - x3) - y1 - y3 = f0 -> (x3, y3) = enc (third s x1 y1 x2).
Proof.
  intros s x1 y1 x2 x3 y3 A B. unfold third, enc. cbv zeta.
  assert (E : x3 = s * s - x1 - x2) by (lc (- f1) A). f_equal; [exact E|]. rewrite <- E. lc (- f1) B.
Qed.

Lemma ua_eqs_sound : forall (b : F) (p q : point P) x3 y3 g6 g7 g8 g9 s, no_axis_points b -> on_curve b p -> on_curve b q ->
  ua_eqs (fst (enc p)) (snd (enc p)) (fst (enc q)) (snd (enc q)) x3 y3 g6 g7 g8 g9 s ->
  (x3, y3) = enc (ec_add p q).
Proof.
  intros b p q x3 y3 g6 g7 g8 g9 s NA Hp Hq E. pose proof two_nz as N2.
  destruct E as [E1 [E2 [E3 [E4 [E5 [E6 [E7 [E8 [E9 [E10 [E11 E12]]]]]]]]]]].
  destruct p as [[x1 y1]|]; cbn [enc fst snd] in *.
  2:{ cbn [ec_add]. destruct (enc q) as [a d]. cbn [fst snd] in *. f_equal; [lc f1 E7|lc f1 E8]. }
  destruct q as [[x2 y2]|]; cbn [enc fst snd] in *.
  2:{ cbn [ec_add]. cbn [enc]. f_equal; [lc f1 E9|lc f1 E10]. }
  destruct (on_nz b x1 y1 NA Hp) as [X1 Y1]. destruct (on_nz b x2 y2 NA Hq) as [X2 Y2]. cbn [on_curve] in Hp, Hq.
  cbn [ec_add]. destruct (feqb x1 x2) eqn:EX; [apply feqb_eq in EX; subst x2|apply feqb_neq in EX].
  - destruct (sq_eq P y2 y1) as [EY|EY]; [rewrite Hp, Hq; reflexivity| |].
    + subst y2. assert (NE : feqb y1 (- y1) = false).
      { apply feqb_neq. intros K. apply (mul_nz (ofZ 2) y1 N2 Y1). lc f1 K. }
      rewrite NE.
      assert (XS : x1 * x1 * y1 + x1 * x1 * y1 <> f0).
      { replace (x1 * x1 * y1 + x1 * x1 * y1) with (x1 * x1 * (ofZ 2 * y1)) by ring. repeat apply mul_nz; assumption. }
      assert (S1 : s = ofZ 3 * (x1 * x1) / (ofZ 2 * y1)).
      { assert (K : ofZ 2 * y1 * s = ofZ 3 * (x1 * x1)) by (lc f1 E2). rewrite <- K. field. auto. }
      rewrite <- S1. apply third_uniq; [exact (cancel_l _ _ E5 XS)|exact (cancel_l _ _ E6 XS)].
    + subst y2. replace (- - y1) with y1 by ring. rewrite feqb_refl. cbn [enc]. f_equal; [lc f1 E11|lc f1 E12].
  - assert (DX : x2 - x1 <> f0) by (intros K; apply EX; lc (- f1) K).
    assert (XD : x1 * x2 * x2 - x1 * x2 * x1 <> f0).
    { replace (x1 * x2 * x2 - x1 * x2 * x1) with (x1 * x2 * (x2 - x1)) by ring. repeat apply mul_nz; assumption. }
    assert (S1 : s = (y2 - y1) / (x2 - x1)).
    { pose proof (cancel_l _ _ E1 DX) as K. assert (K2 : y2 - y1 = (x2 - x1) * s) by (lc (- f1) K). rewrite K2. field. exact DX. }
    rewrite <- S1. apply third_uniq; [exact (cancel_l _ _ E3 XD)|exact (cancel_l _ _ E4 XD)].
Qed.

Lemma ua_sound_l : forall T c px py qx qy row (b : F) (p q : point P), no_axis_points b -> on_curve b p -> on_curve b q ->
  sat L T (ua_circuit c px py qx qy row) ->
  (vval T px, vval T py) = enc p -> (vval T qx, vval T qy) = enc q ->
  (vval T (ua_x c row), vval T (ua_y c row)) = enc (ec_add p q).
Proof.
  intros T c px py qx qy row b p q NA Hp Hq H Ep Eq. apply ua_circuit_iff in H. destruct H as [[A1 [A2 [A3 A4]]] E].
  unfold ua_x, ua_y. rewrite !vval_wcell. eapply (ua_eqs_sound b p q); try eassumption.
  rewrite <- Ep, <- Eq. cbn [fst snd]. rewrite A1, A2, A3, A4. exact E.
Qed.

(** The model's case distinction is the group law. *)
Lemma ua_sum_spec : forall (b : F) (p q : point P), no_axis_points b -> on_curve b p -> on_curve b q ->
  ua_sum (enc p) (enc q) = enc (ec_add p q).
Proof.
  intros b p q NA Hp Hq. unfold ua_sum.
  destruct p as [[x1 y1]|]; [|cbn [enc fst snd]; rewrite feqb_refl; reflexivity].
  destruct (on_nz b x1 y1 NA Hp) as [X1 Y1]. cbn [enc fst snd].
  apply feqb_neq in X1. rewrite X1. cbn [andb].
  destruct q as [[x2 y2]|]; [|cbn [enc fst snd]; rewrite feqb_refl; reflexivity].
  destruct (on_nz b x2 y2 NA Hq) as [X2 Y2]. cbn [enc fst snd].
  apply feqb_neq in X2. rewrite X2. cbn [andb ec_add]. unfold lib_add, lib_slope. cbn [fst snd].
  assert (SW : feqb x2 x1 = feqb x1 x2).
  { destruct (feqb x1 x2) eqn:K; [apply feqb_eq in K; subst; apply feqb_refl|]. apply feqb_neq. apply feqb_neq in K. auto. }
  rewrite SW. destruct (feqb x1 x2) eqn:EX; cbn [andb]; [|reflexivity].
  assert (SY : feqb y2 (- y1) = feqb y1 (- y2)).
  { destruct (feqb y1 (- y2)) eqn:K; [apply feqb_eq in K; subst y1; replace (- - y2) with y2 by ring; apply feqb_refl|].
    apply feqb_neq. intros E. apply feqb_neq in K. apply K. subst y2. ring. }
  rewrite SY. destruct (feqb y1 (- y2)); reflexivity.
Qed.

Lemma ua_eqs_complete : forall (b : F) (p q : point P), no_axis_points b -> on_curve b p -> on_curve b q ->
  let x1 := fst (enc p) in let y1 := snd (enc p) in let x2 := fst (enc q) in let y2 := snd (enc q) in
  let same := feqb x1 x2 in
  ua_eqs x1 y1 x2 y2 (fst (ua_sum (enc p) (enc q))) (snd (ua_sum (enc p) (enc q))) (inv0 x1) (inv0 x2)
    (if same then f0 else finv (x2 - x1))
    (if same then (if feqb y1 (- y2) then f0 else finv (y2 + y1)) else f0)
    (if same then (if feqb y1 f0 then f0 else ofZ 3 * (x1 * x1) * finv (ofZ 2 * y1)) else (y2 - y1) * finv (x2 - x1)).
Proof.
  intros b p q NA Hp Hq. rewrite (ua_sum_spec b p q NA Hp Hq). pose proof two_nz as N2. cbv zeta. unfold inv0.
  destruct p as [[x1 y1]|]; [destruct (on_nz b x1 y1 NA Hp) as [X1 Y1]|]; cbn [enc fst snd ec_add].
  - destruct q as [[x2 y2]|]; [destruct (on_nz b x2 y2 NA Hq) as [X2 Y2]|]; cbn [enc fst snd].
    + cbn [on_curve] in Hp, Hq. rewrite (proj2 (feqb_neq _ x1 f0) X1), (proj2 (feqb_neq _ x2 f0) X2).
      destruct (feqb x1 x2) eqn:EX; [apply feqb_eq in EX; subst x2|apply feqb_neq in EX].
      * rewrite (proj2 (feqb_neq _ y1 f0) Y1).
        destruct (sq_eq P y2 y1) as [EY|EY]; [rewrite Hp, Hq; reflexivity| |]; subst y2.
        -- assert (NE : feqb y1 (- y1) = false).
           { apply feqb_neq. intros K. apply (mul_nz (ofZ 2) y1 N2 Y1). lc f1 K. }
           rewrite NE. unfold third, enc. cbv zeta. cbn [fst snd].
           assert (YY : y1 + y1 <> f0) by (replace (y1 + y1) with (ofZ 2 * y1) by ring; apply mul_nz; assumption).
           unfold ua_eqs. cbv zeta. repeat split; field; auto.
        -- replace (- - y1) with y1 by ring. rewrite feqb_refl. cbn [enc fst snd].
           unfold ua_eqs. cbv zeta. repeat split; field; auto.
      * unfold third, enc. cbv zeta. cbn [fst snd]. assert (DX : x2 - x1 <> f0) by (intros K; apply EX; lc (- f1) K).
        unfold ua_eqs. cbv zeta. repeat split; field; auto.
    + rewrite (proj2 (feqb_neq _ x1 f0) X1), feqb_refl.
      assert (DX : f0 - x1 <> f0) by (intros K; apply X1; lc (- f1) K).
      unfold ua_eqs. cbv zeta. repeat split; field; auto.
  - destruct q as [[x2 y2]|]; [destruct (on_nz b x2 y2 NA Hq) as [X2 Y2]|]; cbn [enc fst snd].
    + assert (X2' : f0 <> x2) by auto. rewrite (proj2 (feqb_neq _ f0 x2) X2'), (proj2 (feqb_neq _ x2 f0) X2), feqb_refl.
      assert (DX : x2 - f0 <> f0) by (intros K; apply X2; lc f1 K).
      unfold ua_eqs. cbv zeta. repeat split; field; auto.
    + rewrite feqb_refl. assert (Z0 : feqb (f0 : F) (- f0) = true) by (apply feqb_eq; ring). rewrite Z0.
      unfold ua_eqs. cbv zeta. repeat split; ring.
Qed.

Lemma ua_complete_l : forall T c px py qx qy row (b : F) (p q : point P), no_axis_points b -> on_curve b p -> on_curve b q ->
  wf_comp c 11 -> outside c 1 row px -> outside c 1 row py -> outside c 1 row qx -> outside c 1 row qy ->
  (vval T px, vval T py) = enc p -> (vval T qx, vval T qy) = enc q ->
  let T' := ua_assign c px py qx qy row T in
  sat L T' (ua_circuit c px py qx qy row) /\ frame c 1 row T T' /\
  (vval T' (ua_x c row), vval T' (ua_y c row)) = enc (ec_add p q).
Proof.
  intros T c px py qx qy row b p q NA Hp Hq Hwf O1 O2 O3 O4 Ep Eq T'.
  assert (FR : frame c 1 row T T') by (subst T'; unfold ua_assign, wsets; cbv zeta; cbn [fold_left fst snd]; frame_tac).
  assert (S : sat L T' (ua_circuit c px py qx qy row)).
  { apply ua_circuit_iff. rewrite !(vval_frame _ _ _ _ _ _ _ FR) by assumption.
    pose proof (ua_eqs_complete b p q NA Hp Hq) as E. cbv zeta in E. rewrite <- Ep, <- Eq in E. cbn [fst snd] in E.
    subst T'. unfold ua_assign, wsets. cbv zeta. cbn [fold_left fst snd].
    split; [repeat split; rd; reflexivity|]. rd. exact E. }
  split; [exact S|]. split; [exact FR|].
  eapply (ua_sound_l T' c px py qx qy row b); try eassumption;
    rewrite !(vval_frame _ _ _ _ _ _ _ FR) by assumption; assumption.
Qed.

(** ** Facts about the group law itself *)

Lemma chord_on : forall b s x1 y1 x2 y2 : F, on_curve b (Some (x1, y1)) -> on_curve b (Some (x2, y2)) ->
  (x2 - x1) * s = y2 - y1 -> x1 <> x2 -> on_curve b (third s x1 y1 x2).
Proof.
  intros b s x1 y1 x2 y2 H1 H2 E N. cbn [on_curve] in H1, H2. unfold third. cbv zeta. cbn [on_curve].
  assert (D : x2 - x1 <> f0) by (intros K; apply N; lc (- f1) K).
  assert (Y : y2 = y1 + s * (x2 - x1)) by (lc (- f1) E). subst y2.
  apply lc0_l. apply (cancel_l (x2 - x1)); [|exact D].
  lc (- (s * s - x1 - x2 - x2)) H1 (s * s - x1 - x2 - x1) H2.
Qed.

Lemma tangent_on : forall b s x1 y1 : F, on_curve b (Some (x1, y1)) ->
  ofZ 2 * y1 * s = ofZ 3 * (x1 * x1) -> on_curve b (third s x1 y1 x1).
Proof.
  intros b s x1 y1 H1 E. cbn [on_curve] in H1. unfold third. cbv zeta. cbn [on_curve].
  lc f1 H1 (s * s - x1 - x1 - x1) E.
Qed.

(** The sum of two points of the curve is a point of the curve. *)
Lemma ec_add_on : forall (b : F) (p q : point P), no_axis_points b -> on_curve b p -> on_curve b q -> on_curve b (ec_add p q).
Proof.
  intros b p q NA Hp Hq. destruct p as [[x1 y1]|]; [|exact Hq]. destruct q as [[x2 y2]|]; [|exact Hp].
  destruct (on_nz b x1 y1 NA Hp) as [X1 Y1]. cbn [ec_add].
  destruct (feqb x1 x2) eqn:EX; [apply feqb_eq in EX; subst x2|apply feqb_neq in EX].
  - destruct (feqb y1 (- y2)); [exact I|]. apply tangent_on; [exact Hp|]. pose proof two_nz. field. auto.
  - apply (chord_on b _ x1 y1 x2 y2 Hp Hq); [|exact EX]. field. intros K. apply EX. lc (- f1) K.
Qed.

Lemma ec_add_comm : forall (b : F) (p q : point P), on_curve b p -> on_curve b q -> ec_add p q = ec_add q p.
Proof.
  intros b p q Hp Hq. destruct p as [[x1 y1]|], q as [[x2 y2]|]; try reflexivity. cbn [ec_add on_curve] in *.
  assert (SW : feqb x2 x1 = feqb x1 x2).
  { destruct (feqb x1 x2) eqn:K; [apply feqb_eq in K; subst; apply feqb_refl|]. apply feqb_neq. apply feqb_neq in K. auto. }
  assert (SY : feqb y2 (- y1) = feqb y1 (- y2)).
  { destruct (feqb y1 (- y2)) eqn:K; [apply feqb_eq in K; subst y1; replace (- - y2) with y2 by ring; apply feqb_refl|].
    apply feqb_neq. intros E. apply feqb_neq in K. apply K. subst y2. ring. }
  rewrite SW, SY. destruct (feqb x1 x2) eqn:EX; [apply feqb_eq in EX; subst x2|apply feqb_neq in EX].
  - destruct (feqb y1 (- y2)) eqn:EY; [reflexivity|]. apply feqb_neq in EY.
    destruct (sq_eq P y1 y2) as [E|E]; [rewrite Hp, Hq; reflexivity|subst; reflexivity|contradiction].
  - unfold third. cbv zeta. assert (D : x2 - x1 <> f0) by (intros K; apply EX; lc (- f1) K).
    assert (D' : x1 - x2 <> f0) by (intros K; apply EX; lc f1 K).
    f_equal. f_equal; field; auto.
Qed.

Lemma ec_add_neg : forall p : point P, ec_add p (neg p) = None.
Proof.
  intros [[x y]|]; [|reflexivity]. cbn [neg ec_add]. rewrite feqb_refl. replace (- - y) with y by ring.
  rewrite feqb_refl. reflexivity.
Qed.

End Proofs.
