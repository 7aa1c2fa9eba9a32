(** Soundness and completeness of comparison_unchecked and
    division_remainder. *)
From Coq Require Import ZArith List Lia Bool Field.
From Verif Require Import Base Field Plonk PlonkFacts Bits RangeModel RangeProofs BitModel CompareModel.
Import ListNotations.
Open Scope Z_scope.

(** The order a mode stands for, on integers. *)
Definition ordered (m : cmode) (a b : Z) : Prop :=
  match m with LT => a < b | LE => a <= b | GT => b < a | GE => b <= a | FLAG => False end.

Lemma pow2_modulus : forall P b, 0 <= b < modulus_bits P -> 2 ^ b <= char P.
Proof.
  intros P b H. unfold modulus_bits in H. pose proof (char_ge_2 P).
  pose proof (Z.log2_spec (char P) ltac:(lia)) as [L1 _].
  apply Z.le_trans with (2 ^ Z.log2 (char P)); [apply Z.pow_le_mono_r; lia|exact L1].
Qed.

Section Proofs.
Variable P : params.
Notation F := (F P).
Notation table := (table P).
Variable L : lenv P.
Implicit Types T : table.
Add Field Ff : (F_field P) (morphism (F_morph P), constants [F_const], power_tac (F_power P) [F_pow_tac]).
Local Open Scope F_scope.

Lemma inv0_r : forall d : F, d <> f0 -> d * inv0 d = f1.
Proof.
  intros d H. unfold inv0. destruct (feqb d f0) eqn:E; fdec E; [congruence|].
  field. exact H.
Qed.

Lemma mul_one_neq0 : forall a b : F, a * b - ofZ 1 = f0 -> a <> f0.
Proof.
  intros a b H ->. apply (f1_neq_f0 P). lc (- f1) H.
Qed.

(** Order from a bounded difference. *)
Lemma diff_order : forall (x y : F) N b, (2 ^ (b + 1) <= char P)%Z -> (0 <= b)%Z ->
  (fval x < 2 ^ b)%Z -> (fval y < 2 ^ b)%Z -> (0 <= N < 2 ^ b)%Z -> y - x = ofZ N ->
  (fval y - fval x = N)%Z.
Proof.
  intros x y N b Hp Hb Hx Hy HN E. rewrite Z.pow_add_r, Z.pow_1_r in Hp by lia.
  pose proof (fval_range P x). pose proof (fval_range P y).
  unfold fsub in E. apply ofZ_inj in E. rewrite (Z.mod_small N) in E by lia.
  destruct (Z_le_gt_dec (fval x) (fval y)).
  - rewrite Z.mod_small in E by lia. exact E.
  - rewrite <- (Z.mod_add _ 1) in E by lia. rewrite Z.mod_small in E by lia. lia.
Qed.

(** ** comparison_unchecked *)

Lemma cu_rows_last : forall c bits m row,
  (row + cu_rows (wamount c) bits m - 1 - cmp_bonus (wamount c) m = row + rc_rows (wamount c) bits)%Z.
Proof. intros. unfold cu_rows. lia. Qed.

Lemma cu_sound_diff : forall T c w bits m x y row,
  wamount c = w -> (3 <= w)%Z -> (0 < bits)%Z -> C c 0 = 0%Z -> m <> FLAG ->
  sat L T (cu_circuit c bits m x y row) ->
  exists N, (0 <= N < 2 ^ bits)%Z /\ (strict m = true -> ofZ N <> f0 :> F) /\
    (if greater m then vval T x - vval T y else vval T y - vval T x) = ofZ N.
Proof.
  intros T c w bits m x y row Hw H3 Hb HC Hm H.
  unfold cu_circuit in H. rewrite !sat_app in H. destruct H as [R [G CP]].
  destruct (rc_sound_l P L T c w bits _ row Hw ltac:(lia) Hb HC R) as [N [HN EN]].
  unfold cu_copies in CP. cbv zeta in CP. rewrite cu_rows_last in *.
  rewrite vval_wcell in EN. set (r := (row + rc_rows (wamount c) bits)%Z) in *.
  exists N. split; [exact HN|].
  apply sat_cons in G. destruct G as [G _]. rewrite holds_gate1 in G. unfold cu_gate in G.
  rewrite all_cons in G. destruct G as [G1 G2].
  rewrite !sat_cons in CP. destruct CP as [CX [CY _]]. cbn [holds] in CX, CY.
  eval_hyps. rewrite EN in G1.
  split.
  - intros S. rewrite S in G2. rewrite all_cons in G2. destruct G2 as [G2 _].
    rewrite eval_bin, eval_bin, eval_ecst, eval_evar, gval_wv, Z.add_0_r, EN in G2. cbn [ebop] in G2.
    eapply mul_one_neq0. exact G2.
  - destruct (greater m); rewrite CX, CY, !vval_wcell; lc (- f1) G1.
Qed.

Lemma cu_sound_l : forall T c w bits m x y row,
  wamount c = w -> (3 <= w)%Z -> (0 < bits < modulus_bits P - 1)%Z -> C c 0 = 0%Z -> m <> FLAG ->
  (fval (vval T x) < 2 ^ bits)%Z -> (fval (vval T y) < 2 ^ bits)%Z ->
  sat L T (cu_circuit c bits m x y row) ->
  ordered m (fval (vval T x)) (fval (vval T y)).
Proof.
  intros T c w bits m x y row Hw H3 Hb HC Hm Hx Hy H.
  destruct (cu_sound_diff T c w bits m x y row Hw H3 ltac:(lia) HC Hm H) as [N [HN [S E]]].
  assert (Hp : (2 ^ (bits + 1) <= char P)%Z) by (apply pow2_modulus; lia).
  destruct m; cbn in *; try congruence.
  - pose proof (diff_order _ _ N bits Hp ltac:(lia) Hx Hy HN E).
    assert (N <> 0%Z) by (intros ->; apply (S eq_refl); reflexivity). lia.
  - pose proof (diff_order _ _ N bits Hp ltac:(lia) Hx Hy HN E). lia.
  - pose proof (diff_order _ _ N bits Hp ltac:(lia) Hy Hx HN E).
    assert (N <> 0%Z) by (intros ->; apply (S eq_refl); reflexivity). lia.
  - pose proof (diff_order _ _ N bits Hp ltac:(lia) Hy Hx HN E). lia.
Qed.

Lemma fval_sub_le : forall a b : F, (fval b <= fval a)%Z -> fval (a - b) = (fval a - fval b)%Z.
Proof.
  intros a b H. unfold fsub. apply fval_ofZ_small.
  pose proof (fval_range P a). pose proof (fval_range P b). lia.
Qed.

Lemma cu_complete_l : forall T c w bits m x y row,
  wf_comp c w -> (3 <= w)%Z -> (0 < bits)%Z -> C c 0 = 0%Z ->
  outside c (cu_rows w bits m) row x -> outside c (cu_rows w bits m) row y ->
  consts_in T (cu_circuit c bits m x y row) ->
  (fval (vval T x) < 2 ^ bits)%Z -> (fval (vval T y) < 2 ^ bits)%Z ->
  ordered m (fval (vval T x)) (fval (vval T y)) ->
  let T' := cu_assign c bits m x y row T in
  sat L T' (cu_circuit c bits m x y row) /\ frame c (cu_rows w bits m) row T T'.
Proof.
  intros T c w bits m x y row Hwf H3 Hb HC HOx HOy HK Hx Hy HO T'.
  pose proof Hwf as [_ [Hw _]].
  destruct (rc_rows_spec w bits ltac:(lia) Hb) as [R1 _].
  assert (HBn : (0 <= cmp_bonus w m <= 1)%Z) by (unfold cmp_bonus; destruct (_ && _); lia).
  set (n := rc_rows w bits) in *.
  assert (En : (cu_rows w bits m = n + 1 + cmp_bonus w m)%Z) by reflexivity.
  set (r := (row + n)%Z).
  set (xv := if greater m then vval T y else vval T x).
  set (yv := if greater m then vval T x else vval T y).
  assert (Hle : (fval xv <= fval yv)%Z).
  { subst xv yv. destruct m; cbn in *; lia. }
  assert (Hyv : (fval yv < 2 ^ bits)%Z) by (subst yv; destruct (greater m); lia).
  assert (Hst : strict m = true -> yv - xv <> f0).
  { intros S E. apply fsub0 in E. subst xv yv. apply (f_equal fval) in E.
    destruct m; cbn in *; try discriminate; lia. }
  set (diff := yv - xv) in *.
  assert (Hd : (0 <= fval diff < 2 ^ bits)%Z).
  { pose proof (fval_range P diff). subst diff. rewrite fval_sub_le in * by assumption.
    pose proof (fval_range P xv). lia. }
  set (T1 := wset (wset (wset T (W c 0) r xv) (W c 1) r yv) (W c 2) r diff).
  set (T2 := rc_assign c bits (wcell (W c 2) r) row T1).
  assert (F1 : frame c 1 r T T1) by (unfold T1; frame_tac).
  assert (F2 : frame c n row T1 T2) by (apply rc_assign_frame; auto; lia).
  assert (D2 : vval T1 (wcell (W c 2) r) = diff) by (rewrite vval_wcell; unfold T1; rd; reflexivity).
  assert (FL2 : rc_filled P T2 c w bits (fval diff) row).
  { rewrite <- D2. apply rc_assign_filled; auto; lia. }
  assert (ET : T' = if strict m then if (cmp_bonus w m =? 0)%Z then wset T2 (W c 3) r (inv0 diff)
                                     else wset T2 (W c 0) (r + 1)%Z (inv0 diff) else T2).
  { unfold T', cu_assign. rewrite Hw. reflexivity. }
  assert (F3 : frame c (1 + cmp_bonus w m) r T2 T').
  { rewrite ET. destruct (strict m); [|apply frame_refl].
    destruct (cmp_bonus w m =? 0)%Z eqn:EB; [|apply Z.eqb_neq in EB]; frame_tac. }
  assert (FL3 : rc_filled P T' c w bits (fval diff) row).
  { eapply rc_filled_frame; [exact F3|lia|lia|left; fold n; lia|exact FL2]. }
  assert (FR : frame c (cu_rows w bits m) row T T').
  { eapply frame_trans; [|eapply frame_trans].
    - eapply frame_sub; [| |exact F1]; lia.
    - eapply frame_sub; [| |exact F2]; lia.
    - eapply frame_sub; [| |exact F3]; lia. }
  split; [|exact FR].
  assert (K : T' CConst 0%Z row = f0).
  { rewrite FR; [|intros [A _]; discriminate]. apply (rc_const_in P T c bits (wcell (W c 2) r) row HC).
    intros col rr v Hin. apply HK. unfold cu_circuit. apply in_or_app. left. rewrite Hw. exact Hin. }
  (* reads of the last row(s) *)
  assert (V : forall i, (0 <= i < 3)%Z -> T' CWit (W c i) r = T1 CWit (W c i) r).
  { intros i Hi. rewrite ET.
    assert (E2 : T2 CWit (W c i) r = T1 CWit (W c i) r) by (apply F2; intros [_ [_ R]]; lia).
    destruct (strict m) eqn:ES; [|exact E2].
    destruct (cmp_bonus w m =? 0)%Z eqn:EB.
    - rewrite wset_other; [exact E2|]. right. left.
      assert (Hw4 : (3 < w)%Z).
      { apply Z.eqb_eq in EB. unfold cmp_bonus in EB. rewrite ES, andb_true_r in EB.
        destruct (w <=? 3)%Z eqn:E3; [discriminate|]. apply Z.leb_gt in E3. exact E3. }
      eapply W_neq; eauto; lia.
    - rewrite wset_other; [exact E2|]. right. right. lia. }
  assert (V0 : T' CWit (W c 0) r = xv) by (rewrite V by lia; unfold T1; rd; reflexivity).
  assert (V1 : T' CWit (W c 1) r = yv) by (rewrite V by lia; unfold T1; rd; reflexivity).
  assert (V2 : T' CWit (W c 2) r = diff) by (rewrite V by lia; unfold T1; rd; reflexivity).
  unfold cu_circuit, cu_copies. cbv zeta. rewrite cu_rows_last, Hw. fold n. fold r.
  apply sat_app; split; [|apply sat_app; split].
  - apply (rc_core P L T' c w bits _ (fval diff)); auto; [lia|].
    rewrite vval_wcell, V2. symmetry. apply ofZ_fval.
  - apply sat_cons. split; [|apply sat_nil]. apply holds_gate1. unfold cu_gate. apply all_cons. split.
    + sat_goal. rewrite V0, V1, V2. unfold diff. ring.
    + destruct (strict m) eqn:ES; [|apply all_nil; exact I].
      apply all_cons. split; [|apply all_nil; exact I].
      rewrite Hw, !eval_bin, eval_evar, gval_wv, Z.add_0_r, V2, eval_ecst. cbn [ebop].
      assert (E : eval T' r (if (cmp_bonus w m =? 0)%Z then evar (wv (W c 3) 0) else evar (wv (W c 0) 1)) = inv0 diff).
      { rewrite ET. destruct (cmp_bonus w m =? 0)%Z; rewrite eval_evar, gval_wv, ?Z.add_0_r; rd; reflexivity. }
      rewrite E, inv0_r by (apply Hst; reflexivity). unfold f1. ring.
  - assert (Ex : vval T' x = vval T x) by (eapply vval_frame; eauto).
    assert (Ey : vval T' y = vval T y) by (eapply vval_frame; eauto).
    destruct (greater m) eqn:EG; sat_goal; rewrite ?vval_wcell, ?V0, ?V1, ?Ex, ?Ey; reflexivity.
Qed.

(** ** division_remainder *)

Lemma dr_sound_l : forall T c w bits (chk : bool) x y row,
  wamount c = w -> (3 <= w)%Z -> (0 < bits)%Z -> C c 0 = 0%Z ->
  (2 * bits < modulus_bits P)%Z ->
  (if chk then True else fval (vval T x) < 2 ^ bits /\ fval (vval T y) < 2 ^ bits)%Z ->
  sat L T (dr_circuit c bits chk x y row) ->
  (fval (vval T x) < 2 ^ bits)%Z /\ (fval (vval T y) < 2 ^ bits)%Z /\
  (fval (vval T (dr_quotient c row)) < 2 ^ bits)%Z /\
  exists r, (fval (vval T y) - 2 ^ bits < r <= fval (vval T y))%Z /\
    vval T (dr_remainder c row) = ofZ r /\
    (fval (vval T x) = fval (vval T y) * fval (vval T (dr_quotient c row)) + r)%Z.
Proof.
  intros T c w bits chk x y row Hw H3 Hb HC Hp Hin H.
  assert (Hpp : (0 < 2 ^ bits)%Z) by (apply Z.pow_pos_nonneg; lia).
  assert (H2 : (2 ^ (2 * bits) = 2 ^ bits * 2 ^ bits)%Z) by (rewrite <- Z.pow_add_r by lia; f_equal; lia).
  assert (Hp' : (2 ^ (2 * bits) <= char P)%Z) by (apply pow2_modulus; lia).
  rewrite H2 in Hp'. clear Hp. rename Hp' into Hp.
  assert (HB2 : (2 <= 2 ^ bits)%Z) by (change 2%Z with (2 ^ 1)%Z at 1; apply Z.pow_le_mono_r; lia).
  set (B := (2 ^ bits)%Z) in *.
  unfold dr_circuit in H. cbv zeta in H. rewrite !sat_app in H. destruct H as [G [RD [RQ [RI CP]]]].
  rewrite !sat_cons in CP. destruct CP as [CX [CY _]]. cbn [holds] in CX, CY.
  apply sat_cons in G. destruct G as [G _]. rewrite holds_gate1 in G. unfold dr_gate in G.
  rewrite !all_cons in G. destruct G as [G1 [G2 _]].
  assert (EC : forall a, gval T row (dr_gv c a) = vval T (dr_cell c a row)) by reflexivity.
  rewrite !eval_bin, !eval_evar, !EC in G1. rewrite !eval_bin, !eval_evar, !EC in G2. cbn [ebop] in G1, G2.
  rewrite <- CX in G1. rewrite <- CY in G1, G2.
  assert (HQ : (fval (vval T (dr_cell c 2 row)) < B)%Z).
  { eapply (rc_sound_small P L T c w bits); eauto; try lia. fold B. nia. }
  assert (HD : (fval (vval T (dr_cell c 4 row)) < B)%Z).
  { eapply (rc_sound_small P L T c w bits); eauto; try lia. fold B. nia. }
  assert (HXY : (fval (vval T x) < B)%Z /\ (fval (vval T y) < B)%Z).
  { destruct chk; [|exact Hin]. rewrite sat_app in RI. destruct RI as [RX RY]. rewrite CX, CY.
    split; eapply (rc_sound_small P L T c w bits); eauto; try lia; fold B; nia. }
  destruct HXY as [HX HY]. split; [exact HX|]. split; [exact HY|].
  unfold dr_quotient, dr_remainder. split; [exact HQ|].
  set (xx := vval T x) in *. set (yy := vval T y) in *. set (q := vval T (dr_cell c 2 row)) in *.
  set (rr := vval T (dr_cell c 3 row)) in *. set (d := vval T (dr_cell c 4 row)) in *.
  pose proof (fval_range P xx) as RX. pose proof (fval_range P yy) as RY.
  pose proof (fval_range P q) as RQQ. pose proof (fval_range P d) as RDD.
  exists (fval yy - fval d)%Z. split; [lia|].
  assert (ER : rr = ofZ (fval yy - fval d)).
  { rewrite ofZ_sub, !ofZ_fval. lc (- f1) G2. }
  split; [exact ER|].
  assert (EX : xx = ofZ (fval yy * fval q + (fval yy - fval d))).
  { rewrite ofZ_add, ofZ_mul, <- ER, !ofZ_fval. lc f1 G1. }
  assert (BY : (0 <= fval yy * fval q <= (B - 1) * (B - 1))%Z) by nia.
  (* the right-hand side is in (-B, p) *)
  apply (f_equal fval) in EX. rewrite fval_ofZ in EX.
  set (s := (fval yy * fval q + (fval yy - fval d))%Z) in *.
  assert (HS : (- B < s < char P)%Z) by (subst s; nia).
  destruct (Z_lt_le_dec s 0) as [Hn|Hn].
  - rewrite <- (Z.mod_add s 1) in EX by lia. rewrite Z.mod_small in EX by lia. lia.
  - rewrite Z.mod_small in EX by lia. exact EX.
Qed.

Lemma dr_bonus_range : forall w, (0 <= dr_bonus w <= 1)%Z.
Proof. intros w. unfold dr_bonus. destruct (w <? 5)%Z; lia. Qed.

Lemma dr_addr : forall w a, (3 <= w)%Z -> (0 <= a <= 4)%Z ->
  (0 <= a mod w < w)%Z /\ (0 <= a / w <= dr_bonus w)%Z /\ (a = w * (a / w) + a mod w)%Z.
Proof.
  intros w a Hw Ha. pose proof (Z.mod_pos_bound a w ltac:(lia)).
  pose proof (Z.div_mod a w ltac:(lia)).
  split; [lia|]. split; [|assumption]. unfold dr_bonus. destruct (w <? 5)%Z eqn:E.
  - split; [apply Z.div_pos; lia|]. nia.
  - apply Z.ltb_ge in E. rewrite Z.div_small by lia. lia.
Qed.

Lemma dr_cell_wset : forall T c w a b row v, wf_comp c w -> (3 <= w)%Z -> (0 <= a <= 4)%Z -> (0 <= b <= 4)%Z ->
  a <> b -> vval (wsetv T (dr_cell c a row) v) (dr_cell c b row) = vval T (dr_cell c b row).
Proof.
  intros T c w a b row v Hwf Hw Ha Hb N. pose proof Hwf as [_ [HW _]].
  destruct (dr_addr w a Hw Ha) as [A1 [A2 A3]]. destruct (dr_addr w b Hw Hb) as [B1 [B2 B3]].
  unfold wsetv, dr_cell. rewrite HW. cbn [vidx vrot wcell]. rewrite !vval_wcell. apply wset_other. right.
  destruct (Z.eq_dec (b / w) (a / w)) as [E|E]; [|right; lia].
  left. eapply W_neq; eauto. nia.
Qed.

Lemma dr_cell_wset_same : forall T c a row v, vval (wsetv T (dr_cell c a row) v) (dr_cell c a row) = v.
Proof. intros. unfold wsetv, dr_cell. cbn [vidx vrot wcell]. rewrite vval_wcell. apply wset_same. Qed.

Lemma dr_cell_frame : forall T T' c w a row s n, frame c n s T T' -> wamount c = w -> (3 <= w)%Z -> (0 <= a <= 4)%Z ->
  (row + 1 + dr_bonus w <= s)%Z -> vval T' (dr_cell c a row) = vval T (dr_cell c a row).
Proof.
  intros T T' c w a row s n HF HW Hw Ha Hs. eapply vval_frame; [exact HF|].
  destruct (dr_addr w a Hw Ha) as [A1 [A2 A3]]. unfold dr_cell. rewrite HW. intros [_ [_ R]]. cbn in R. lia.
Qed.

Lemma frame_wsetv : forall c w n r0 T T' a row v, wf_comp c w -> (3 <= w)%Z -> (0 <= a <= 4)%Z ->
  (r0 <= row)%Z -> (row + 1 + dr_bonus w <= r0 + n)%Z ->
  frame c n r0 T T' -> frame c n r0 T (wsetv T' (dr_cell c a row) v).
Proof.
  intros c w n r0 T T' a row v Hwf Hw Ha H1 H2 HF. pose proof Hwf as [_ [HW _]].
  destruct (dr_addr w a Hw Ha) as [A1 [A2 A3]]. unfold wsetv, dr_cell. rewrite HW. cbn [vidx vrot wcell].
  eapply frame_wset; eauto. lia.
Qed.

Lemma dr_complete_l : forall T c w bits (chk : bool) x y row,
  wf_comp c w -> (3 <= w)%Z -> (0 < bits)%Z -> C c 0 = 0%Z ->
  outside c (dr_rows w bits chk) row x -> outside c (dr_rows w bits chk) row y ->
  consts_in T (dr_circuit c bits chk x y row) ->
  (fval (vval T x) < 2 ^ bits)%Z -> (0 < fval (vval T y) < 2 ^ bits)%Z ->
  let T' := dr_assign c bits chk x y row T in
  sat L T' (dr_circuit c bits chk x y row) /\ frame c (dr_rows w bits chk) row T T' /\
  fval (vval T' (dr_quotient c row)) = (fval (vval T x) / fval (vval T y))%Z /\
  fval (vval T' (dr_remainder c row)) = (fval (vval T x) mod fval (vval T y))%Z.
Proof.
  intros T c w bits chk x y row Hwf H3 Hb HC HOx HOy HK Hx Hy T'.
  pose proof Hwf as [_ [Hw _]].
  destruct (rc_rows_spec w bits ltac:(lia) Hb) as [R1 _].
  pose proof (dr_bonus_range w) as HBn.
  set (n := rc_rows w bits) in *.
  assert (Hrows : (dr_rows w bits chk = (2 + 2 * Z.b2z chk) * n + 1 + dr_bonus w)%Z) by reflexivity.
  set (s := (row + 1 + dr_bonus w)%Z).
  set (xv := vval T x) in *. set (yv := vval T y) in *.
  pose proof (fval_range P xv) as RX. pose proof (fval_range P yv) as RY.
  set (q := ofZ (fval xv / fval yv) : F). set (r := ofZ (fval xv mod fval yv) : F).
  assert (Eq : dr_calc xv yv = (q, r)).
  { unfold dr_calc. destruct (fval yv =? 0)%Z eqn:E0; [apply Z.eqb_eq in E0; lia|]. reflexivity. }
  pose proof (Z.div_mod (fval xv) (fval yv) ltac:(lia)) as DM.
  pose proof (Z.mod_pos_bound (fval xv) (fval yv) ltac:(lia)) as DB.
  assert (DP : (0 <= fval xv / fval yv)%Z) by (apply Z.div_pos; lia).
  assert (DL : (fval xv / fval yv <= fval xv)%Z) by nia.
  assert (Vq : fval q = (fval xv / fval yv)%Z) by (apply fval_ofZ_small; lia).
  assert (Vr : fval r = (fval xv mod fval yv)%Z) by (apply fval_ofZ_small; lia).
  set (d := yv - r).
  assert (Vd : fval d = (fval yv - fval r)%Z) by (apply fval_sub_le; lia).
  set (T1 := wsetv (wsetv (wsetv (wsetv (wsetv T (dr_cell c 0 row) xv) (dr_cell c 1 row) yv)
              (dr_cell c 3 row) r) (dr_cell c 2 row) q) (dr_cell c 4 row) d).
  set (T2 := rc_assign c bits (dr_cell c 4 row) s T1).
  set (T3 := rc_assign c bits (dr_cell c 2 row) (s + n)%Z T2).
  set (T4 := rc_assign c bits (dr_cell c 0 row) (s + n + n)%Z T3).
  set (T5 := rc_assign c bits (dr_cell c 1 row) (s + n + n + n)%Z T4).
  assert (ET : T' = if chk then T5 else T3).
  { unfold T', dr_assign. cbv zeta. fold xv. fold yv. rewrite Eq, Hw. reflexivity. }
  assert (F1 : frame c (1 + dr_bonus w) row T T1).
  { unfold T1. repeat (eapply frame_wsetv; [exact Hwf|exact H3|lia|lia|lia|]). apply frame_refl. }
  assert (F2 : frame c n s T1 T2) by (apply rc_assign_frame; auto; lia).
  assert (F3 : frame c n (s + n) T2 T3) by (apply rc_assign_frame; auto; lia).
  assert (F4 : frame c n (s + n + n) T3 T4) by (apply rc_assign_frame; auto; lia).
  assert (F5 : frame c n (s + n + n + n) T4 T5) by (apply rc_assign_frame; auto; lia).
  assert (FR : frame c (dr_rows w bits chk) row T T').
  { assert (HR2 : (s + n + n <= row + dr_rows w bits chk)%Z)
      by (rewrite Hrows; destruct chk; cbn [Z.b2z]; subst s; lia).
    assert (HR3 : chk = true -> (s + n + n + n + n <= row + dr_rows w bits chk)%Z)
      by (intros ->; rewrite Hrows; cbn [Z.b2z]; subst s; lia).
    eapply frame_trans; [eapply frame_sub; [| |exact F1]; lia|].
    eapply frame_trans; [eapply frame_sub; [| |exact F2]; lia|].
    eapply frame_trans; [eapply frame_sub; [| |exact F3]; lia|].
    rewrite ET. destruct chk; [|apply frame_refl]. specialize (HR3 eq_refl).
    eapply frame_trans; [eapply frame_sub; [| |exact F4]; lia|eapply frame_sub; [| |exact F5]; lia]. }
  assert (C1 : forall a, (0 <= a <= 4)%Z -> vval T2 (dr_cell c a row) = vval T1 (dr_cell c a row))
    by (intros; eapply dr_cell_frame; eauto; subst s; lia).
  assert (C2 : forall a, (0 <= a <= 4)%Z -> vval T3 (dr_cell c a row) = vval T1 (dr_cell c a row))
    by (intros; rewrite <- C1 by assumption; eapply dr_cell_frame; eauto; subst s; lia).
  assert (C3 : forall a, (0 <= a <= 4)%Z -> vval T4 (dr_cell c a row) = vval T1 (dr_cell c a row))
    by (intros; rewrite <- C2 by assumption; eapply dr_cell_frame; eauto; subst s; lia).
  assert (C4 : forall a, (0 <= a <= 4)%Z -> vval T5 (dr_cell c a row) = vval T1 (dr_cell c a row))
    by (intros; rewrite <- C3 by assumption; eapply dr_cell_frame; eauto; subst s; lia).
  assert (CC : forall a, (0 <= a <= 4)%Z -> vval T' (dr_cell c a row) = vval T1 (dr_cell c a row))
    by (intros; rewrite ET; destruct chk; auto).
  assert (RD : forall T a b v, (0 <= a <= 4)%Z -> (0 <= b <= 4)%Z -> a <> b ->
     vval (wsetv T (dr_cell c a row) v) (dr_cell c b row) = vval T (dr_cell c b row))
    by (intros; eapply dr_cell_wset; eauto).
  assert (A0 : vval T1 (dr_cell c 0 row) = xv) by (unfold T1; rewrite !RD by lia; apply dr_cell_wset_same).
  assert (A1 : vval T1 (dr_cell c 1 row) = yv) by (unfold T1; rewrite !RD by lia; apply dr_cell_wset_same).
  assert (A3 : vval T1 (dr_cell c 3 row) = r) by (unfold T1; rewrite !RD by lia; apply dr_cell_wset_same).
  assert (A2 : vval T1 (dr_cell c 2 row) = q) by (unfold T1; rewrite !RD by lia; apply dr_cell_wset_same).
  assert (A4 : vval T1 (dr_cell c 4 row) = d) by (unfold T1; apply dr_cell_wset_same).
  split; [|split; [exact FR|]].
  - unfold dr_circuit. cbv zeta. rewrite Hw. fold n. fold s.
    assert (K : forall v rr, In v [4; 2; 0; 1]%Z ->
      (forall c0 : cmd P, In c0 (rc_circuit c bits (dr_cell c v row) rr) -> In c0 (dr_circuit c bits chk x y row)) ->
      T' CConst 0%Z rr = f0).
    { intros v rr _ Hin. rewrite FR; [|intros [A _]; discriminate].
      apply (rc_const_in P T c bits (dr_cell c v row) rr HC). intros col r1 v1 H1. apply HK. apply Hin. exact H1. }
    unfold dr_circuit in K. cbv zeta in K. rewrite Hw in K. fold n in K. fold s in K.
    assert (FLT : forall xv' rr, rc_filled P T3 c w bits xv' rr -> (rr + n <= s + n + n)%Z -> rc_filled P T' c w bits xv' rr).
    { intros xv' rr H Hr. rewrite ET. destruct chk; [|exact H].
      eapply rc_filled_frame; [exact F5|lia|lia|left; fold n; lia|].
      eapply rc_filled_frame; [exact F4|lia|lia|left; fold n; lia|]. exact H. }
    apply sat_app; split; [|apply sat_app; split; [|apply sat_app; split; [|apply sat_app; split]]].
    + apply sat_cons. split; [|apply sat_nil]. apply holds_gate1. unfold dr_gate.
      assert (EC : forall a, gval T' row (dr_gv c a) = vval T' (dr_cell c a row)) by reflexivity.
      apply all_cons; split; [|apply all_cons; split; [|apply all_nil; exact I]].
      * rewrite !eval_bin, !eval_evar, !EC. cbn [ebop]. rewrite !CC, A0, A1, A2, A3 by lia.
        rewrite <- (ofZ_fval P xv), <- (ofZ_fval P yv), <- (ofZ_fval P q), <- (ofZ_fval P r).
        rewrite <- ofZ_mul, <- !ofZ_sub. rewrite Vq, Vr. unfold f0. f_equal. lia.
      * rewrite !eval_bin, !eval_evar, !EC. cbn [ebop]. rewrite !CC, A1, A3, A4 by lia. unfold d. ring.
    + apply (rc_core P L T' c w bits _ (fval d)); auto; try lia.
      * apply FLT; [|lia]. eapply rc_filled_frame; [exact F3|lia|lia|left; fold n; lia|].
        rewrite <- A4. apply rc_assign_filled; auto; lia.
      * apply (K 4%Z); [cbn; auto|]. intros c0 H0. rewrite !in_app_iff. tauto.
      * rewrite CC, A4 by lia. symmetry. apply ofZ_fval.
    + apply (rc_core P L T' c w bits _ (fval q)); auto; try lia.
      * apply FLT; [|lia]. rewrite <- A2. rewrite <- (C1 2%Z) by lia. apply rc_assign_filled; auto; lia.
      * apply (K 2%Z); [cbn; auto|]. intros c0 H0. rewrite !in_app_iff. tauto.
      * rewrite CC, A2 by lia. symmetry. apply ofZ_fval.
    + destruct chk; [|apply sat_nil]. apply sat_app. split.
      * apply (rc_core P L T' c w bits _ (fval xv)); auto; try lia.
        -- rewrite ET. eapply rc_filled_frame; [exact F5|lia|lia|left; fold n; lia|].
           rewrite <- A0. rewrite <- (C2 0%Z) by lia. apply rc_assign_filled; auto; lia.
        -- apply (K 0%Z); [cbn; auto|]. intros c0 H0. rewrite !in_app_iff. tauto.
        -- rewrite CC, A0 by lia. symmetry. apply ofZ_fval.
      * apply (rc_core P L T' c w bits _ (fval yv)); auto; try lia.
        -- rewrite ET. rewrite <- A1. rewrite <- (C3 1%Z) by lia. apply rc_assign_filled; auto; lia.
        -- apply (K 1%Z); [cbn; auto|]. intros c0 H0. rewrite !in_app_iff. tauto.
        -- rewrite CC, A1 by lia. symmetry. apply ofZ_fval.
    + sat_goal.
      * rewrite CC, A0 by lia. eapply vval_frame; eauto.
      * rewrite CC, A1 by lia. eapply vval_frame; eauto.
  - unfold dr_quotient, dr_remainder. rewrite !CC, A2, A3 by lia. auto.
Qed.

Lemma dr_empty_agree_l : forall T c w bits (chk : bool) x y row,
  wf_comp c w -> (3 <= w)%Z -> (0 < bits)%Z ->
  outside c (dr_rows w bits chk) row x -> outside c (dr_rows w bits chk) row y ->
  vval (dr_empty c x y row T) (wcell (W c 0) row) = vval (dr_assign c bits chk x y row T) (dr_quotient c row) /\
  vval (dr_empty c x y row T) (wcell (W c 1) row) = vval (dr_assign c bits chk x y row T) (dr_remainder c row).
Proof.
  intros T c w bits chk x y row Hwf H3 Hb HOx HOy. pose proof Hwf as [_ [Hw _]].
  pose proof (dr_bonus_range w) as HBn.
  destruct (rc_rows_spec w bits ltac:(lia) Hb) as [R1 _].
  unfold dr_empty. cbv zeta. rewrite !vval_wcell.
  assert (N : W c 0 <> W c 1) by (eapply W_neq; eauto; lia).
  rewrite wset_same, wset_other, wset_same by (right; left; exact N).
  unfold dr_assign. cbv zeta. rewrite Hw. set (n := rc_rows w bits) in *.
  set (s := (row + 1 + dr_bonus w)%Z).
  set (T1 := wsetv _ (dr_cell c 4 row) _).
  assert (CC : forall a, (0 <= a <= 4)%Z ->
    vval (if chk then rc_assign c bits (dr_cell c 1 row) (s + n + n + n)
      (rc_assign c bits (dr_cell c 0 row) (s + n + n)
        (rc_assign c bits (dr_cell c 2 row) (s + n) (rc_assign c bits (dr_cell c 4 row) s T1)))
     else rc_assign c bits (dr_cell c 2 row) (s + n) (rc_assign c bits (dr_cell c 4 row) s T1)) (dr_cell c a row)
    = vval T1 (dr_cell c a row)).
  { intros a Ha.
    assert (ST : forall T0 v s', (s <= s')%Z -> vval (rc_assign c bits v s' T0) (dr_cell c a row) = vval T0 (dr_cell c a row)).
    { intros T0 v s' Hs. apply (dr_cell_frame T0 _ c w a row s' n); auto.
      apply (rc_assign_frame P T0 c w); auto; lia. }
    destruct chk; rewrite !ST by lia; reflexivity. }
  unfold dr_quotient, dr_remainder. rewrite !CC by lia. unfold T1.
  assert (RD : forall T a b v, (0 <= a <= 4)%Z -> (0 <= b <= 4)%Z -> a <> b ->
     vval (wsetv T (dr_cell c a row) v) (dr_cell c b row) = vval T (dr_cell c b row))
    by (intros; eapply dr_cell_wset; eauto).
  split.
  - rewrite RD, dr_cell_wset_same by lia. reflexivity.
  - rewrite !RD, dr_cell_wset_same by lia. reflexivity.
Qed.

End Proofs.
