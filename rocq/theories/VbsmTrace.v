(** The values of the variable base scalar multiplication: what the constraints
    say about the scalar, the ladder and the final row. *)
From Coq Require Import ZArith List Lia Bool Field.
From Verif Require Import Base Field Plonk PlonkFacts Bits CurveSpec CurveModel CurveProofs VbsmSpec VbsmModel VbsmProofs.
Import ListNotations.
Open Scope Z_scope.

(** ** The special scalars *)

Lemma shifted_const : forall pal n, 
  (shifted pal (-1) n <-> n = vb_sm1 pal) /\ (shifted pal 0 n <-> n = vb_s0 pal) /\ (shifted pal 1 n <-> n = vb_s1 pal).
Proof.
  intros pal n. unfold shifted. 
  assert (U : forall y k, 0 <= k < group_order pal ->
    (if pal then 2 * k + 2 ^ 255 + 1 else k + 2 ^ 255) mod group_order pal = y mod group_order pal ->
    (0 <= n < group_order pal /\ (if pal then 2 * n + 2 ^ 255 + 1 else n + 2 ^ 255) mod group_order pal = y mod group_order pal) <-> n = k).
  { intros y k Hk E. split; [|intros ->; split; assumption]. intros [Hn E2]. rewrite <- E in E2. clear E.
    assert (G : 0 < group_order pal) by (destruct pal; reflexivity).
    assert (O : group_order pal mod 2 = 1) by (destruct pal; reflexivity).
    pose proof (Z.div_mod (if pal then 2 * n + 2 ^ 255 + 1 else n + 2 ^ 255) (group_order pal) ltac:(lia)) as D1.
    pose proof (Z.div_mod (if pal then 2 * k + 2 ^ 255 + 1 else k + 2 ^ 255) (group_order pal) ltac:(lia)) as D2.
    rewrite E2 in D1. clear E2. set (r := (if pal then 2 * k + 2 ^ 255 + 1 else k + 2 ^ 255) mod group_order pal) in *. clearbody r.
    set (q1 := (if pal then 2 * n + 2 ^ 255 + 1 else n + 2 ^ 255) / group_order pal) in *.
    set (q2 := (if pal then 2 * k + 2 ^ 255 + 1 else k + 2 ^ 255) / group_order pal) in *. clearbody q1 q2.
    set (g := group_order pal) in *. clearbody g. set (e := 2 ^ 255) in *. clearbody e.
    destruct pal.
    - assert (K : 2 * (n - k) = g * (q1 - q2)) by lia.
      assert (K2 : -2 < q1 - q2 < 2) by nia.
      assert (C : q1 - q2 = -1 \/ q1 - q2 = 0 \/ q1 - q2 = 1) by lia.
      pose proof (Z.div_mod g 2 ltac:(lia)). destruct C as [C|[C|C]]; rewrite C in K; lia.
    - assert (K : n - k = g * (q1 - q2)) by lia.
      assert (K2 : -1 < q1 - q2 < 1) by nia. nia. }
  split; [|split]; apply U; destruct pal; vm_compute; split; discriminate || reflexivity.
Qed.

Section Trace.
Variable P : params.
Notation F := (F P).
Notation vb_trace := (vb_trace P).
Variable pal : bool.
Implicit Types t p q : F * F.
Add Field Ff : (F_field P) (morphism (F_morph P), constants [F_const], power_tac (F_power P) [F_pow_tac]).

Hypothesis big : group_order false <= char P.
Lemma big_z : 2 ^ 254 + vb_tp <= char P.
Proof. exact big. Qed.

Lemma ofZ_small : forall x y, 0 <= x < 2 ^ 254 -> 0 <= y < 2 ^ 254 -> (ofZ x : F) = ofZ y -> x = y.
Proof. intros x y Hx Hy E. pose proof big_z as B. unfold vb_tp in B. apply ofZ_inj in E. rewrite !Z.mod_small in E by lia. exact E. Qed.

Local Open Scope F_scope.

Lemma bit_cases : forall b : F, b * (f1 - b) = f0 -> exists z, (z = 0 \/ z = 1)%Z /\ b = ofZ z.
Proof.
  intros b E. destruct (fbool_cases P b) as [->| ->]; [lc (fopp f1) E|exists 0%Z|exists 1%Z]; (split; [lia|reflexivity]).
Qed.

Lemma oct_cases : forall u : F, oct P u = f0 -> exists z, (0 <= z < 8)%Z /\ u = ofZ z.
Proof.
  intros u E. unfold oct in E.
  repeat (apply fmul_integral in E; destruct E as [E|E]).
  - exists 0%Z. split; [lia|exact E].
  - exists 1%Z. split; [lia|lc f1 E].
  - exists 2%Z. split; [lia|lc f1 E].
  - exists 3%Z. split; [lia|lc f1 E].
  - exists 4%Z. split; [lia|lc f1 E].
  - exists 5%Z. split; [lia|lc f1 E].
  - exists 6%Z. split; [lia|lc f1 E].
  - exists 7%Z. split; [lia|lc f1 E].
Qed.

(** One ladder step. *)
Definition sgn (e : bool) (t : F * F) : F * F := (fst t, (ofZ 2 * ofZ (Z.b2z e) - f1) * snd t).
Lemma sgn_point : forall e t, Some (sgn e t) = (if e then Some t else neg (Some t) : point P).
Proof.
  intros e [x y]. unfold sgn. destruct e; cbn [Z.b2z fst snd neg]; f_equal; f_equal; [change (ofZ 1 : F) with (f1 : F)|change (ofZ 0 : F) with (f0 : F)]; ring.
Qed.

Lemma sgn_on : forall bc e t, on_curve bc (Some t) -> on_curve bc (Some (sgn e t)).
Proof.
  intros bc e [x y] H. rewrite sgn_point. destruct e; [exact H|]. cbn [neg on_curve] in *. rewrite <- H. ring.
Qed.

Definition mid0 t p (s : F) : F * F := (s * s - fst p - fst t, s * (fst p - (s * s - fst p - fst t)) - snd p).

Section Step.
Variables (bc : F) (t p : F * F) (s : F) (e : bool).
Hypothesis NA : no_axis_points bc.
Hypothesis ON : on_curve bc (Some p).
Hypothesis OT : on_curve bc (Some t).
Hypothesis NX : fst p <> fst t.
Hypothesis SL : st_slope P t p s (ofZ (Z.b2z e)) = f0.

Notation mid := (mid0 t p s).

Lemma mid_add : ec_add (Some p) (Some (sgn e t)) = Some mid.
Proof.
  unfold st_slope in SL. destruct p as [x y], t as [xt yt]. unfold sgn, mid0. cbn [fst snd] in *. cbn [ec_add].
  destruct (feqb x xt) eqn:E; [apply feqb_eq in E; contradiction|].
  assert (D : xt - x <> f0) by (intros D; apply NX; lc (fopp f1) D).
  assert (S : ((ofZ 2 * ofZ (Z.b2z e) - f1) * yt - y) / (xt - x) = s).
  { apply (fsub0 P). assert (G : s * (xt - x) = (ofZ 2 * ofZ (Z.b2z e) - f1) * yt - y) by lc (fopp f1) SL.
    rewrite <- G. field. exact D. }
  unfold third. rewrite S. reflexivity.
Qed.
Lemma mid_on : on_curve bc (Some mid).
Proof.
  rewrite <- mid_add. apply ec_add_on; [|exact NA|exact ON|apply sgn_on; exact OT].
  pose proof big_z as B. unfold vb_tp in B. lia.
Qed.
Lemma U_mid : st_U P t p s = fst p - fst mid.
Proof. unfold st_U, mid0. cbn [fst]. ring. Qed.
Lemma V_mid : st_V P t p s = snd p - snd mid.
Proof. unfold st_V. rewrite U_mid. unfold mid0. cbn [fst snd]. ring. Qed.

Lemma step_sound : forall q, st_x P t p q s = f0 -> st_y P t p q s = f0 ->
  ec_add (ec_add (Some p) (Some (sgn e t))) (Some p) = Some q.
Proof.
  intros q EX EY. rewrite mid_add. unfold st_x, st_y in EX, EY. rewrite U_mid, V_mid in EX, EY.
  assert (YP : snd p <> f0) by (destruct p as [x y]; apply (on_nz P bc x y NA ON)).
  assert (T2 : (ofZ 2 : F) <> f0) by (apply two_nz; pose proof big_z as B; unfold vb_tp in B; lia).
  assert (D : fst p - fst mid <> f0).
  { intros D. rewrite D in EX, EY.
    assert (V0 : snd p - snd mid = f0).
    { assert (V2 : (snd p - snd mid) * (snd p - snd mid) = f0) by lc f1 EX.
      apply fmul_integral in V2. destruct V2 as [V|V]; exact V. }
    assert (V1 : snd p - snd mid = ofZ 2 * snd p).
    { unfold mid0 at 1. cbn [snd]. unfold mid0 in D. cbn [fst] in D. lc (fopp s) D. }
    rewrite V1 in V0. apply fmul_integral in V0. destruct V0; contradiction. }
  assert (XM : fst mid = s * s - fst p - fst t) by reflexivity.
  destruct mid as [xm ym]. destruct p as [x y], t as [xt yt], q as [x' y']. cbn [fst snd] in *. cbn [ec_add].
  destruct (feqb xm x) eqn:E; [apply feqb_eq in E; exfalso; apply D; rewrite E; ring|].
  unfold third.
  assert (S2 : exists s2, s2 * (x - xm) = y - ym) by (exists ((y - ym) / (x - xm)); field; exact D).
  destruct S2 as [s2 HS]. assert (ES : (y - ym) / (x - xm) = s2) by (rewrite <- HS; field; exact D). rewrite ES.
  assert (X3 : x' = s2 * s2 - xm - x).
  { apply (fsub0 P). apply (cancel_l P ((x - xm) * (x - xm))); [|apply mul_nz; exact D].
    rewrite <- HS in EX. rewrite XM in *. lc (fopp f1) EX. }
  assert (Y3 : y' = s2 * (xm - x') - ym).
  { apply (fsub0 P). apply (cancel_l P (x - xm)); [|exact D]. rewrite <- HS in EY. lc f1 EY (x - xm) HS. }
  rewrite <- X3, <- Y3. reflexivity.
Qed.

Lemma step_complete : forall q, ec_add (ec_add (Some p) (Some (sgn e t))) (Some p) = Some q ->
  st_x P t p q s = f0 /\ st_y P t p q s = f0.
Proof.
  intros q. rewrite mid_add. pose proof mid_on as OM. unfold st_x, st_y. rewrite U_mid, V_mid.
  assert (XM : fst mid = s * s - fst p - fst t) by reflexivity.
  destruct mid as [xm ym]. destruct p as [x y], t as [xt yt], q as [x' y']. cbn [fst snd] in *. cbn [ec_add].
  destruct (feqb xm x) eqn:E.
  - apply feqb_eq in E. destruct (feqb ym (- y)) eqn:EY; [discriminate|]. apply feqb_neq in EY. intros _.
    cbn [on_curve] in ON, OM. assert (Y : (ym - y) * (ym + y) = f0) by (rewrite <- E in ON; lc f1 OM (fopp f1) ON).
    apply fmul_integral in Y. destruct Y as [Y|Y]; [|exfalso; apply EY; lc f1 Y].
    assert (U0 : x - xm = f0) by (rewrite E; ring). assert (V0 : y - ym = f0) by lc (fopp f1) Y.
    rewrite U0, V0. split; ring.
  - apply feqb_neq in E. unfold third. assert (D : x - xm <> f0) by (intros D; apply E; lc (fopp f1) D).
    assert (S2 : exists s2, s2 * (x - xm) = y - ym) by (exists ((y - ym) / (x - xm)); field; exact D).
    destruct S2 as [s2 HS]. assert (ES : (y - ym) / (x - xm) = s2) by (rewrite <- HS; field; exact D). rewrite ES.
    intros Q. injection Q as Q1 Q2. rewrite <- HS. split.
    + rewrite <- Q1, XM. ring.
    + rewrite Q1 in Q2. lc (xm - x) Q2 (xm - x) HS.
Qed.
End Step.

(** ** The final row *)

Lemma const_range : (0 <= vb_sm1 pal < 2 ^ 254)%Z /\ (0 <= vb_s0 pal < 2 ^ 254)%Z /\ (0 <= vb_s1 pal < 2 ^ 254)%Z /\
  vb_sm1 pal <> vb_s0 pal /\ vb_sm1 pal <> vb_s1 pal /\ vb_s0 pal <> vb_s1 pal.
Proof. destruct pal; cbv; intuition discriminate. Qed.

Lemma const_neq : (ofZ (vb_sm1 pal) : F) <> ofZ (vb_s0 pal) /\ (ofZ (vb_sm1 pal) : F) <> ofZ (vb_s1 pal) /\ (ofZ (vb_s0 pal) : F) <> ofZ (vb_s1 pal).
Proof.
  destruct const_range as [A [B [C [D [E G]]]]]. split; [|split]; intros H; apply ofZ_small in H; try assumption; contradiction.
Qed.

Lemma fin_sound : forall t p f, fin_ok P pal p f -> f 6%Z = fst t -> f 7%Z = snd t ->
  let n := f 5%Z in
  (n = ofZ (vb_sm1 pal) -> (f 0%Z, f 1%Z) = enc (neg (Some t))) /\
  (n = ofZ (vb_s0 pal) -> (f 0%Z, f 1%Z) = enc (None : point P)) /\
  (n = ofZ (vb_s1 pal) -> (f 0%Z, f 1%Z) = enc (Some t)) /\
  (n <> ofZ (vb_sm1 pal) -> n <> ofZ (vb_s0 pal) -> n <> ofZ (vb_s1 pal) -> f 8%Z * f 2%Z = f1 /\ (f 0%Z, f 1%Z) = p).
Proof.
  intros [xt yt] [xp yp] f K E6 E7 n. unfold fin_ok in K. cbv zeta in K. fold n in K. destruct const_neq as [N1 [N2 N3]].
  set (sm1 := ofZ (vb_sm1 pal) : F) in *. set (s0 := ofZ (vb_s0 pal) : F) in *. set (s1 := ofZ (vb_s1 pal) : F) in *.
  clearbody sm1 s0 s1 n. destruct K as [K1 [K2 [K3 [K4 [K5 K6]]]]]. cbn [fst snd] in *. rewrite E6 in K4. rewrite E7 in K5. cbn [neg enc].
  assert (A1 : n <> sm1 -> (n - sm1) * f 3%Z = f1).
  { intros N. apply (fsub0 P). apply (cancel_l P (n - sm1)); [lc f1 K2|]. intros Z. apply N. lc f1 Z. }
  assert (A3 : n <> s1 -> (n - s1) * f 4%Z = f1).
  { intros N. apply (fsub0 P). apply (cancel_l P (n - s1)); [lc f1 K3|]. intros Z. apply N. lc f1 Z. }
  split; [|split; [|split]].
  - intros N. assert (M : f 8%Z = f0) by (rewrite K6, N; ring). assert (Z : (n - sm1) * f 3%Z = f0) by (rewrite N; ring).
    assert (Y : (n - s1) * f 4%Z = f1) by (apply A3; rewrite N; exact N2). rewrite M, Z, Y in K4. rewrite M, Z, Y in K5.
    rewrite K4, K5. f_equal; ring.
  - intros N. assert (M : f 8%Z = f0) by (rewrite K6, N; ring). assert (Z : (n - sm1) * f 3%Z = f1) by (apply A1; rewrite N; intros C; apply N1; symmetry; exact C).
    assert (Y : (n - s1) * f 4%Z = f1) by (apply A3; rewrite N; exact N3). rewrite M, Z, Y in K4. rewrite M, Z, Y in K5.
    rewrite K4, K5. f_equal; ring.
  - intros N. assert (M : f 8%Z = f0) by (rewrite K6, N; ring). assert (Z : (n - sm1) * f 3%Z = f1) by (apply A1; rewrite N; intros C; apply N2; symmetry; exact C).
    assert (Y : (n - s1) * f 4%Z = f0) by (rewrite N; ring). rewrite M, Z, Y in K4. rewrite M, Z, Y in K5.
    rewrite K4, K5. f_equal; ring.
  - intros Na Nb Nc.
    assert (M : f 8%Z * f 2%Z = f1).
    { apply (fsub0 P). apply (cancel_l P (f 8%Z)); [lc f1 K1|]. rewrite K6. apply mul_nz; [apply mul_nz|]; intros Z; [apply Na|apply Nb|apply Nc]; lc f1 Z. }
    split; [exact M|]. rewrite M, (A1 Na), (A3 Nc) in K4. rewrite M, (A1 Na), (A3 Nc) in K5. rewrite K4, K5. f_equal; ring.
Qed.

Lemma ofZ_const : forall N k, (0 <= N < group_order pal)%Z -> (k = vb_sm1 pal \/ k = vb_s0 pal \/ k = vb_s1 pal)%Z ->
  (ofZ N : F) = ofZ k -> N = k.
Proof.
  intros N k HN Hk E. pose proof big_z as BZ. destruct const_range as [R1 [R2 [R3 _]]].
  assert (KR : (0 <= k < 2 ^ 254)%Z) by (destruct Hk as [->|[->| ->]]; assumption).
  assert (KL : (0x224698fc0994a8dd8c46eb2100000000 <= k)%Z) by (destruct Hk as [->|[->| ->]]; destruct pal; discriminate).
  assert (HN2 : (N < 2 ^ 254 + 0x224698fc0994a8dd8c46eb2100000001)%Z) by (unfold group_order in HN; destruct pal; lia).
  unfold vb_tp in BZ. apply ofZ_inj in E. rewrite (Z.mod_small k) in E by lia.
  pose proof (Z.div_mod N (char P) ltac:(lia)) as D. rewrite E in D.
  assert (Q : (N / char P = 0 \/ N / char P = 1)%Z).
  { assert (0 <= N / char P)%Z by (apply Z.div_pos; lia). assert (N / char P < 2)%Z by (apply Z.div_lt_upper_bound; lia). lia. }
  destruct Q as [Q|Q]; rewrite Q in D; lia.
Qed.

(** ** The ladder *)

Lemma ladder_S : forall (T : point P) n k, (0 <= k)%Z ->
  ladder T n (k + 1) = ec_add (ec_add (ladder T n k) (if Z.testbit n (254 - k) then T else neg T)) (ladder T n k).
Proof. intros. unfold ladder. rewrite fold_zseq_snoc by lia. reflexivity. Qed.

Lemma dbl_some : forall bc t, no_axis_points bc -> on_curve bc (Some t) -> exists q, ec_add (Some t) (Some t) = Some q.
Proof.
  intros bc [x y] NA ON. destruct (on_nz P bc x y NA ON) as [_ NY]. cbn [ec_add]. rewrite feqb_refl.
  destruct (feqb y (- y)) eqn:E; [|eexists; reflexivity]. apply feqb_eq in E. exfalso. apply NY.
  apply (cancel_l P (ofZ 2)); [lc f1 E|]. apply two_nz. pose proof big_z as B. unfold vb_tp in B. lia.
Qed.

Lemma ladder_on : forall bc (T : point P) n k, no_axis_points bc -> on_curve bc T -> (0 <= k)%Z -> on_curve bc (ladder T n k).
Proof.
  intros bc T n k NA OT Hk. assert (B3 : (3 <= char P)%Z) by (pose proof big_z as B; unfold vb_tp in B; lia).
  pattern k. apply natlike_ind; [| |exact Hk]; clear k Hk.
  - unfold ladder. cbn. apply ec_add_on; assumption.
  - intros k Hk IH. unfold Z.succ. rewrite ladder_S by lia. apply ec_add_on; [exact B3|exact NA| |exact IH].
    apply ec_add_on; [exact B3|exact NA|exact IH|]. destruct (Z.testbit n (254 - k)); [exact OT|].
    destruct T as [[x y]|]; [|exact I]. cbn [neg on_curve] in *. rewrite <- OT. ring.
Qed.

Section Sound.
Variables (t : vb_trace) (dbl : F * F) (b bh : F).
Hypothesis K : vb_ok P pal t dbl b bh f0.

Lemma bits_exist : exists z, forall k, (0 <= k < 255)%Z -> (z k = 0 \/ z k = 1)%Z /\ vt_b t k = ofZ (z k).
Proof. apply (choose_range (fun k z => (z = 0 \/ z = 1)%Z /\ vt_b t k = ofZ z)). intros k Hk. apply bit_cases. apply (ok_bit _ _ _ _ _ _ _ K k Hk). Qed.

Lemma n_horner : forall z, (forall k, (0 <= k < 255)%Z -> vt_b t k = ofZ (z k)) ->
  forall d, (0 <= d <= 51)%Z -> vt_n t d = ofZ (horner 2 z (5 * d)).
Proof.
  intros z Hz d [Hd Hd2]. revert Hd2. pattern d. apply natlike_ind; [| |exact Hd]; clear d Hd.
  - intros _. rewrite (ok_n0 _ _ _ _ _ _ _ K). reflexivity.
  - intros d Hd IH H. unfold Z.succ in *. rewrite (ok_n _ _ _ _ _ _ _ K) by lia. rewrite IH by lia. rewrite !Hz by lia.
    replace (5 * (d + 1))%Z with (5 * d + 1 + 1 + 1 + 1 + 1)%Z by lia. rewrite !horner_S by lia.
    replace (5 * d + 1 + 1)%Z with (5 * d + 2)%Z by lia. replace (5 * d + 2 + 1)%Z with (5 * d + 3)%Z by lia. replace (5 * d + 3 + 1)%Z with (5 * d + 4)%Z by lia.
    repeat (rewrite ?ofZ_add, ?ofZ_mul). ring.
Qed.

(** The range check chain. *)
Lemma u_range : vt_ui t 21 = vt_uo t 20 -> exists u, (0 <= u < 2 ^ 130)%Z /\ vt_uo t 21 = ofZ u.
Proof.
  intros LK.
  assert (A : forall d, (0 <= d <= 21)%Z -> exists u, (0 <= u < 2 ^ (6 * d))%Z /\ vt_ui t d = ofZ u).
  { intros d [Hd Hd2]. revert Hd2. pattern d. apply natlike_ind; [| |exact Hd]; clear d Hd.
    - intros _. exists 0%Z. split; [cbn; lia|]. apply (ok_ui0 _ _ _ _ _ _ _ K).
    - intros d Hd IH H. unfold Z.succ in *. destruct (IH ltac:(lia)) as [u [Hu E]].
      destruct (ok_u _ _ _ _ _ _ _ K d ltac:(lia)) as [O0 [O1 O2]].
      destruct (oct_cases _ O0) as [z0 [Hz0 E0]]. destruct (oct_cases _ O1) as [z1 [Hz1 E1]].
      exists (64 * u + 8 * z0 + z1)%Z. split.
      + replace (6 * (d + 1))%Z with (6 * d + 6)%Z by lia. rewrite Z.pow_add_r by lia. change (2 ^ 6)%Z with 64%Z. lia.
      + assert (E2 : vt_ui t (d + 1) = vt_uo t d).
        { destruct (Z.eq_dec d 20) as [->|N]; [exact LK|]. symmetry. apply (ok_ui _ _ _ _ _ _ _ K). lia. }
        rewrite E2, O2, E, E0, E1. rewrite !ofZ_add, !ofZ_mul. reflexivity. }
  destruct (A 21%Z ltac:(lia)) as [u [Hu E]]. destruct (ok_u21 _ _ _ _ _ _ _ K) as [O0 [O1 O2]].
  destruct (oct_cases _ O0) as [z0 [Hz0 E0]]. destruct (bit_cases (vt_u1 t 21)) as [z1 [Hz1 E1]]; [lc (fopp f1) O1|].
  exists (16 * u + 2 * z0 + z1)%Z. split.
  - change (2 ^ (6 * 21))%Z with (2 ^ 126)%Z in Hu. change (2 ^ 130)%Z with (2 ^ 126 * 16)%Z. lia.
  - rewrite O2, E, E0, E1. rewrite !ofZ_add, !ofZ_mul. reflexivity.
Qed.

Lemma scalar_sound : vt_ui t 21 = vt_uo t 20 ->
  scalar_ok pal b bh /\ (0 <= scalar_of pal b bh)%Z /\ vt_n t 51 = ofZ (scalar_of pal b bh) /\
  (forall k, (0 <= k < 255)%Z -> vt_b t k = ofZ (Z.b2z (Z.testbit (scalar_of pal b bh) (254 - k)))).
Proof.
  intros LK. destruct bits_exist as [z Hz]. destruct (u_range LK) as [u [Hu EU]].
  pose proof (n_horner z (fun k Hk => proj2 (Hz k Hk))) as HN.
  assert (ZB : forall k, (0 <= k < 255)%Z -> (0 <= z k < 2)%Z) by (intros k Hk; destruct (Hz k Hk); lia).
  set (N := horner 2 z 255).
  assert (NB : (0 <= N < 2 ^ 255)%Z) by (apply horner_bound; [lia|lia|exact ZB]).
  set (low := horner 2 (fun k => z (1 + k)%Z) 254).
  assert (LB : (0 <= low < 2 ^ 254)%Z) by (apply horner_bound; [lia|lia|]; intros k Hk; apply ZB; lia).
  assert (NE : N = (z 0 * 2 ^ 254 + low)%Z).
  { unfold N. change 255%Z with (1 + 254)%Z. rewrite horner_split by lia. f_equal. }
  assert (N51 : vt_n t 51 = ofZ N) by (rewrite HN by lia; reflexivity).
  pose proof (ok_f9 _ _ _ _ _ _ _ K) as F9. rewrite (proj2 (Hz 0%Z ltac:(lia))) in F9.
  pose proof (ok_f10 _ _ _ _ _ _ _ K) as F10. rewrite (HN 25%Z ltac:(lia)) in F10. change (5 * 25)%Z with 125%Z in F10.
  pose proof (ok_f11 _ _ _ _ _ _ _ K) as F11.
  destruct (ok_high _ _ _ _ _ _ _ K) as [H1 H2]. pose proof (ok_aux _ _ _ _ _ _ _ K) as AX. pose proof (ok_in _ _ _ _ _ _ _ K) as IN.
  pose proof big_z as BZ. set (h := horner 2 z 125) in *.
  assert (HB : (0 <= h < 2 ^ 125)%Z) by (apply horner_bound; [lia|lia|]; intros k Hk; apply ZB; lia).
  set (l130 := horner 2 (fun k => z (125 + k)%Z) 130).
  assert (L130 : (0 <= l130 < 2 ^ 130)%Z) by (apply horner_bound; [lia|lia|]; intros k Hk; apply ZB; lia).
  assert (NH : N = (h * 2 ^ 130 + l130)%Z).
  { unfold N. change 255%Z with (125 + 130)%Z. rewrite horner_split by lia. reflexivity. }
  assert (DG : forall k, (0 <= k < 255)%Z -> z k = ((N / 2 ^ (255 - 1 - k)) mod 2)%Z) by (intros k Hk; apply horner_digit; [lia|exact Hk|exact ZB]).
  clearbody N low h l130.
  assert (SC : scalar_of pal b bh = N /\ scalar_ok pal b bh).
  { destruct (proj1 (Hz 0%Z ltac:(lia))) as [Z0|Z0]; rewrite Z0 in *; rewrite ?Z.mul_0_l, ?Z.add_0_l in NE.
    - (* high bit 0 *)
      assert (FV : forall x : F, x = ofZ N -> fval x = N) by (intros x ->; apply fval_ofZ_small; unfold vb_tp in BZ; lia).
      unfold scalar_ok, scalar_of. destruct pal.
      + destruct IN as [I1 I2]. rewrite (proj2 (Hz 0%Z ltac:(lia))), Z0 in I1.
        assert (EB : b = ofZ N) by (rewrite <- N51, I2, F11, F9; change (ofZ 0 : F) with (f0 : F); ring).
        assert (B0 : fval bh = 0%Z) by (rewrite I1; apply fval_ofZ_small; unfold vb_tp in BZ; lia).
        rewrite B0, (FV _ EB). split; [lia|]. split; [intros _; split; [lia|left; reflexivity]|]. unfold group_order. lia.
      + rewrite N51 in IN. rewrite (FV _ IN). split; [reflexivity|]. split; [discriminate|]. unfold group_order. lia.
    - (* high bit 1 *)
      rewrite F9 in H1, H2, AX.
      assert (F10' : ofZ h = (ofZ (2 ^ 124) : F)) by (rewrite <- F10; change (ofZ 1 : F) with (f1 : F) in H2; lc f1 H2).
      assert (EH : h = (2 ^ 124)%Z) by (apply ofZ_small; [lia|lia|exact F10']).
      assert (ELOW : low = l130) by lia.
      assert (UA : ofZ u = vt_f t 12) by (rewrite <- EU; change (ofZ 1 : F) with (f1 : F) in H1; lc f1 H1).
      assert (EB : pal = true -> b = ofZ low).
      { intros Hp. rewrite Hp in IN. destruct IN as [_ I2]. rewrite N51, F11, F9, NE in I2.
        rewrite ofZ_add, ofZ_mul in I2. change (ofZ 1 : F) with (f1 : F) in I2. lc (fopp f1) I2. }
      assert (EB2 : pal = false -> b = ofZ (2 ^ 254 + low)).
      { intros Hp. rewrite Hp in IN. rewrite IN, N51, NE. f_equal; lia. }
      unfold scalar_ok, scalar_of. destruct pal.
      + specialize (EB eq_refl). destruct IN as [I1 _]. rewrite (proj2 (Hz 0%Z ltac:(lia))), Z0 in I1.
        assert (B1 : fval bh = 1%Z) by (rewrite I1; apply fval_ofZ_small; unfold vb_tp in BZ; lia).
        assert (FB : fval b = low) by (rewrite EB; apply fval_ofZ_small; unfold vb_tp in BZ; lia).
        assert (EQ : u = (low - vb_tq + 2 ^ 130)%Z).
        { apply ofZ_small; [lia|unfold vb_tq; lia|]. rewrite UA, AX, F11, EB, ofZ_add, ofZ_sub. reflexivity. }
        rewrite B1, FB. split; [lia|]. split; [intros _; split; [lia|right; reflexivity]|].
        unfold group_order. unfold vb_tq in EQ. lia.
      + specialize (EB2 eq_refl).
        assert (EQ : u = (low - vb_tp + 2 ^ 130)%Z).
        { apply ofZ_small; [lia|unfold vb_tp; lia|]. rewrite UA, AX, F11, EB2, !ofZ_add, ofZ_sub. change (ofZ 1 : F) with (f1 : F). ring. }
        unfold vb_tp in EQ, BZ.
        assert (FB : fval b = (2 ^ 254 + low)%Z) by (rewrite EB2; apply fval_ofZ_small; lia).
        rewrite FB. split; [lia|]. split; [discriminate|]. unfold group_order. lia. }
  destruct SC as [SN SO]. rewrite SN. split; [exact SO|]. split; [lia|]. split; [exact N51|].
  intros k Hk. destruct (Hz k Hk) as [_ EK]. rewrite EK. f_equal.
  rewrite testbit_digit by lia. replace (254 - k)%Z with (255 - 1 - k)%Z by lia.
  apply DG. exact Hk.
Qed.

Variables (bc : F) (T : F * F).
Hypothesis NA : no_axis_points bc.
Hypothesis OT : on_curve bc (Some T).
Hypothesis ET : vt_t t = T.
Hypothesis ED : dbl = enc (ec_add (Some T) (Some T)).

Lemma ladder_sound : forall n, 
  (forall k, (0 <= k < 255)%Z -> vt_b t k = ofZ (Z.b2z (Z.testbit n (254 - k)))) ->
  forall k, (0 <= k <= 255)%Z ->
  (forall i, (0 <= i < k)%Z -> st_x P (vt_t t) (vt_p t i) (vt_p t (i + 1)) (vt_s t i) = f0 /\ st_y P (vt_t t) (vt_p t i) (vt_p t (i + 1)) (vt_s t i) = f0) ->
  regular (Some T) n k -> ladder (Some T) n k = Some (vt_p t k).
Proof.
  intros n HB k [Hk Hk2]. revert Hk2. pattern k. apply natlike_ind; [| |exact Hk]; clear k Hk.
  - intros _ _ _. rewrite (ok_dbl _ _ _ _ _ _ _ K), ED. destruct (dbl_some bc T NA OT) as [q E]. 
    change (ladder (Some T) n 0) with (ec_add (Some T) (Some T)). rewrite E. destruct q as [qx qy]. reflexivity.
  - intros k Hk IH H ST RG. unfold Z.succ in *.
    assert (IH' : ladder (Some T) n k = Some (vt_p t k)).
    { apply IH; [lia| |]; [intros i Hi; apply ST; lia|intros i Hi; apply RG; lia]. }
    destruct (RG k ltac:(lia)) as [x [y [xt [yt [E1 [E2 NX]]]]]]. rewrite IH' in E1. injection E1 as E1.
    injection E2 as E2.
    pose proof (ladder_on bc (Some T) n k NA OT Hk) as ON. rewrite IH' in ON.
    rewrite ladder_S, IH' by lia. rewrite <- sgn_point. rewrite <- ET.
    apply (step_sound bc (vt_t t) (vt_p t k) (vt_s t k) (Z.testbit n (254 - k))).
    + exact NA.
    + exact ON.
    + rewrite ET; exact OT.
    + rewrite ET, E2; cbn [fst]; rewrite E1; cbn [fst]; exact NX.
    + rewrite <- HB by lia. apply (ok_slope _ _ _ _ _ _ _ K). lia.
    + apply ST. lia.
    + apply ST. lia.
Qed.

Lemma trace_sound : vt_ui t 21 = vt_uo t 20 ->
  let n := scalar_of pal b bh in
  scalar_ok pal b bh /\
  ((~ special pal n -> regular (Some T) n 255) ->
   exists r, scalar_product pal (Some T) n r /\ (vt_f t 0, vt_f t 1) = enc r).
Proof.
  intros LK n. destruct (scalar_sound LK) as [SO [N0 [EN HB]]]. fold n in EN, HB, N0. split; [exact SO|]. intros RG.
  destruct (ok_f67 _ _ _ _ _ _ _ K) as [F6 F7]. rewrite ET in F6, F7.
  destruct (fin_sound T (vt_p t 255) (vt_f t) (ok_fin _ _ _ _ _ _ _ K) F6 F7) as [S1 [S2 [S3 S4]]].
  rewrite (ok_f5 _ _ _ _ _ _ _ K), EN in S1, S2, S3, S4.
  destruct (shifted_const pal n) as [C1 [C2 C3]]. destruct const_range as [_ [_ [_ [D1 [D2 D3]]]]].
  assert (SP1 : forall r, (n = vb_sm1 pal -> r = neg (Some T)) -> (n = vb_s0 pal -> r = None) -> (n = vb_s1 pal -> r = Some T) ->
    (n <> vb_sm1 pal -> n <> vb_s0 pal -> n <> vb_s1 pal -> r = ladder (Some T) n 255) -> scalar_product pal (Some T) n r).
  { intros r R1 R2 R3 R4. unfold scalar_product, special. rewrite C1, C2, C3. split; [exact R1|]. split; [exact R2|]. split; [exact R3|].
    intros C. apply R4; intros E; apply C; auto. }
  destruct (Z.eq_dec n (vb_sm1 pal)) as [E|E1].
  { exists (neg (Some T)). split; [|apply S1; f_equal; exact E]. apply SP1; intros; try congruence; contradiction. }
  destruct (Z.eq_dec n (vb_s0 pal)) as [E|E2].
  { exists None. split; [|apply S2; f_equal; exact E]. apply SP1; intros; try congruence; contradiction. }
  destruct (Z.eq_dec n (vb_s1 pal)) as [E|E3].
  { exists (Some T). split; [|apply S3; f_equal; exact E]. apply SP1; intros; try congruence; contradiction. }
  assert (NR : (0 <= n < group_order pal)%Z) by (split; [exact N0|exact (proj2 SO)]).
  destruct S4 as [M SP]; [intros C; apply E1; apply ofZ_const; auto|intros C; apply E2; apply ofZ_const; auto|intros C; apply E3; apply ofZ_const; auto|].
  exists (ladder (Some T) n 255). split.
  - apply SP1; intros; try contradiction. reflexivity.
  - rewrite (ladder_sound n HB 255%Z ltac:(lia)).
    + exact SP.
    + intros i Hi. destruct (Z_lt_le_dec i 253) as [H|H]; [apply (ok_next _ _ _ _ _ _ _ K); lia|].
      destruct (ok_last _ _ _ _ _ _ _ K i ltac:(lia)) as [X Y].
      assert (MM : forall e : F, e * vt_f t 8 * vt_f t 2 = f0 -> e = f0) by (intros e He; lc f1 He (fopp e) M).
      split; apply MM; assumption.
    + apply RG. unfold special. rewrite C1, C2, C3. intros [C|[C|C]]; contradiction.
Qed.
End Sound.
End Trace.
