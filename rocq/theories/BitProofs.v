(** Soundness and completeness of the bit builder, bit_decomposition,
    bit_composition and bit_shift_constant. *)
From Coq Require Import ZArith List Lia Bool Field.
From Verif Require Import Base Field Plonk PlonkFacts Bits BitModel.
Import ListNotations.
Open Scope Z_scope.

(** ** Layout arithmetic *)

(** Number of three-row gates. *)
Definition bb_gates (w bits : Z) (cb : bool) : Z := (bb_sum_bits w bits cb + 1) / 2.

Lemma bb_sum_bits_gates : forall w bits cb, 1 <= w -> 0 < bits ->
  bb_sum_bits w bits cb = 2 * bb_gates w bits cb - 1 /\ 1 <= bb_gates w bits cb.
Proof.
  intros w bits cb Hw Hb. unfold bb_gates, bb_sum_bits.
  set (k := (if 2 <=? bits + Z.b2z cb then bits + Z.b2z cb - 2 else 0) / bb_per_gate w).
  replace (1 + k * 2 + 1) with ((k + 1) * 2) by ring. rewrite Z.div_mul by lia.
  assert (0 <= k); [|lia]. subst k. apply Z.div_pos; [|unfold bb_per_gate; lia].
  destruct (2 <=? bits + Z.b2z cb) eqn:E; [apply Z.leb_le in E|]; lia.
Qed.

Lemma bb_total : forall w bits cb, 1 <= w -> 0 < bits ->
  bits + bb_padding w bits cb = bb_gates w bits cb * bb_per_gate w + 1 /\
  Z.b2z cb <= bb_padding w bits cb <= bb_per_gate w.
Proof.
  intros w bits cb Hw Hb.
  assert (Hbpg : 1 <= bb_per_gate w) by (unfold bb_per_gate; lia).
  unfold bb_gates, bb_sum_bits, bb_padding, bb_per_first_gate.
  set (g := bb_per_gate w) in *.
  destruct cb; cbn [Z.b2z].
  - assert (E2 : 2 <=? bits + 1 = true) by (apply Z.leb_le; lia). rewrite E2.
    replace (bits + 1 - 2) with (bits - 1) by lia.
    replace (1 + (bits - 1) / g * 2 + 1) with (((bits - 1) / g + 1) * 2) by ring.
    rewrite Z.div_mul by lia.
    destruct (g <? bits) eqn:E; [apply Z.ltb_lt in E|apply Z.ltb_ge in E].
    + pose proof (Z.div_mod bits g ltac:(lia)) as D. pose proof (Z.mod_pos_bound bits g ltac:(lia)) as M.
      destruct (Z.eq_dec (bits mod g) 0) as [E0|E0].
      * rewrite E0, Z.sub_0_r, Z.mod_same by lia.
        assert ((bits - 1) / g = bits / g - 1).
        { symmetry. apply Z.div_unique with (r := g - 1); [lia|]. nia. }
        nia.
      * rewrite (Z.mod_small (g - bits mod g) g) by lia.
        assert ((bits - 1) / g = bits / g).
        { symmetry. apply Z.div_unique with (r := bits mod g - 1); [lia|]. nia. }
        nia.
    + rewrite Z.div_small by lia. lia.
  - replace (bits + 0) with bits by lia.
    destruct (2 <=? bits) eqn:E2; [apply Z.leb_le in E2|apply Z.leb_gt in E2].
    + replace (1 + (bits - 2) / g * 2 + 1) with (((bits - 2) / g + 1) * 2) by ring.
      rewrite Z.div_mul by lia.
      destruct (g + 1 <? bits) eqn:E; [apply Z.ltb_lt in E|apply Z.ltb_ge in E].
      * set (b := bits - (g + 1)) in *.
        pose proof (Z.div_mod b g ltac:(lia)) as D. pose proof (Z.mod_pos_bound b g ltac:(lia)) as M.
        destruct (Z.eq_dec (b mod g) 0) as [E0|E0].
        -- rewrite E0, Z.sub_0_r, Z.mod_same by lia.
           assert ((bits - 2) / g = b / g).
           { symmetry. apply Z.div_unique with (r := g - 1); [lia|]. subst b. nia. }
           subst b. nia.
        -- rewrite (Z.mod_small (g - b mod g) g) by lia.
           assert ((bits - 2) / g = b / g + 1).
           { symmetry. apply Z.div_unique with (r := b mod g - 1); [lia|]. subst b. nia. }
           subst b. nia.
      * rewrite Z.div_small by lia. lia.
    + assert (bits = 1) by lia. subst bits. rewrite Z.div_0_l by lia.
      replace ((1 + 0 * 2 + 1) / 2) with 1 by reflexivity.
      destruct (g + 1 <? 1) eqn:E; [apply Z.ltb_lt in E|]; lia.
Qed.

Lemma bb_rows_gates : forall w bits cb, 1 <= w -> 0 < bits ->
  bb_rows w bits cb = 3 * bb_gates w bits cb.
Proof.
  intros w bits cb Hw Hb. unfold bb_rows.
  destruct (bb_total w bits cb Hw Hb) as [H1 H2].
  destruct (bb_sum_bits_gates w bits cb Hw Hb) as [H3 H4].
  replace (bits + bb_sum_bits w bits cb + bb_padding w bits cb) with (3 * bb_gates w bits cb * w)
    by (rewrite H3; unfold bb_per_gate in H1; lia).
  apply Z.div_mul. lia.
Qed.

(** Position of padded bit [n = g * per_gate + o]. *)
Lemma bb_bitpos_at : forall w g o, 1 <= w -> 0 <= g -> 1 <= o <= bb_per_gate w ->
  bb_bitpos w (g * bb_per_gate w + o) = 3 * w * g + o.
Proof.
  intros w g o Hw Hg Ho. unfold bb_bitpos.
  assert (Hbpg : 1 <= bb_per_gate w) by lia.
  assert (HL : bb_last_pos w = bb_per_gate w + 1) by (unfold bb_last_pos, bb_per_gate; lia).
  rewrite HL. destruct (bb_per_gate w + 1 <=? g * bb_per_gate w + o) eqn:E;
    [apply Z.leb_le in E|apply Z.leb_gt in E].
  - assert (1 <= g) by nia.
    assert ((g * bb_per_gate w + o - (bb_per_gate w + 1)) / bb_per_gate w = g - 1).
    { symmetry. apply Z.div_unique with (r := o - 1); [lia|]. ring. }
    rewrite H0. unfold bb_per_gate. ring.
  - assert (g = 0) by nia. subst g. lia.
Qed.

Lemma bb_bitpos_0 : forall w, 1 <= w -> bb_bitpos w 0 = 0.
Proof.
  intros w Hw. unfold bb_bitpos, bb_last_pos. destruct (3 * w - 1 <=? 0) eqn:E; [apply Z.leb_le in E; lia|].
  reflexivity.
Qed.

(** Every padded bit index is 0 or inside exactly one gate. *)
Lemma bb_index_cases : forall w n, 1 <= w -> 0 <= n ->
  n = 0 \/ exists g o, 0 <= g /\ 1 <= o <= bb_per_gate w /\ n = g * bb_per_gate w + o.
Proof.
  intros w n Hw Hn. destruct (Z.eq_dec n 0) as [->|N]; [left; reflexivity|]. right.
  assert (Hbpg : 1 <= bb_per_gate w) by (unfold bb_per_gate; lia).
  exists ((n - 1) / bb_per_gate w), ((n - 1) mod bb_per_gate w + 1).
  pose proof (Z.div_mod (n - 1) (bb_per_gate w) ltac:(lia)).
  pose proof (Z.mod_pos_bound (n - 1) (bb_per_gate w) ltac:(lia)).
  split; [apply Z.div_pos; lia|]. split; [lia|]. nia.
Qed.

Lemma bb_sumpos_even : forall w g, bb_sumpos w (2 * g) = 3 * w * g + (3 * w - 1).
Proof.
  intros w g. unfold bb_sumpos, bb_last_pos. rewrite (Z.mul_comm 2 g), Z.div_mul, Z.mod_mul by lia. ring.
Qed.

Lemma bb_sumpos_odd : forall w g, bb_sumpos w (2 * g + 1) = 3 * w * (g + 1).
Proof.
  intros w g. unfold bb_sumpos, bb_last_pos.
  rewrite (Z.mul_comm 2 g), Z.div_add_l by lia. rewrite (Z.add_comm (g * 2)), Z.mod_add by lia.
  change (1 / 2) with 0. change (1 mod 2) with 1. ring.
Qed.

Lemma step_rows_3 : forall row G, 1 <= G ->
  step_rows (row + 1) (row + 3 * G - 2) 3 = map (fun g => row + 1 + 3 * g) (zseq 0 G).
Proof.
  intros row G HG. unfold step_rows.
  assert (E : row + 1 <=? row + 3 * G - 2 = true) by (apply Z.leb_le; lia). rewrite E.
  replace (row + 3 * G - 2 - (row + 1)) with ((G - 1) * 3) by ring.
  rewrite Z.div_mul by lia. replace (G - 1 + 1) with G by ring. reflexivity.
Qed.

(** Splitting a straight position of gate [g]. *)
Lemma gate_pos_div : forall w g o, 1 <= w -> 0 <= o ->
  (3 * w * g + o) / w = 3 * g + o / w /\ (3 * w * g + o) mod w = o mod w.
Proof.
  intros w g o Hw Ho. replace (3 * w * g + o) with (o + (3 * g) * w) by ring.
  rewrite Z.div_add, Z.mod_add by lia. lia.
Qed.

Section Proofs.
Variable P : params.
Notation F := (F P).
Notation table := (table P).
Variable L : lenv P.
Implicit Types T : table.
Add Field Ff : (F_field P) (morphism (F_morph P), constants [F_const], power_tac (F_power P) [F_pow_tac]).
Local Open Scope F_scope.

Lemma modulus_bits_le : forall b, (0 <= b < modulus_bits P)%Z -> (2 ^ b <= char P)%Z.
Proof.
  intros b Hb. unfold modulus_bits in Hb. pose proof (char_ge_2 P).
  destruct (Z.log2_spec (char P)) as [H1 _]; [lia|].
  eapply Z.le_trans; [|exact H1]. apply Z.pow_le_mono_r; lia.
Qed.

(** ** Reading back writes at straight positions *)

Lemma pos_writes_read : forall T c w row (l : list (Z * F)) (val : Z -> F) n,
  wf_comp c w ->
  (forall m v, In (m, v) l -> (0 <= m)%Z /\ v = val m) ->
  (exists v, In (n, v) l) ->
  vval (wsets T (pos_writes c row l)) (bb_cell c row n) = val n.
Proof.
  intros T c w row l val n Hwf H [v Hn].
  pose proof Hwf as [_ [Hw Hpos]].
  unfold bb_cell. rewrite vval_wcell.
  assert (Hv := H n v Hn). destruct Hv as [Hn0 ->].
  apply wsets_read.
  - unfold pos_writes. apply in_map_iff. exists (n, val n). split; [reflexivity|exact Hn].
  - intros v' Hv'. unfold pos_writes in Hv'. apply in_map_iff in Hv'.
    destruct Hv' as [[m u] [E Hm]]. cbn [fst snd] in E.
    destruct (H m u Hm) as [Hm0 ->].
    injection E as E1 E2 E3. rewrite Hw in E1, E2.
    assert (Em : (m mod w = n mod w)%Z).
    { apply (W_inj c w); auto; apply Z.mod_pos_bound; lia. }
    assert (Ed : (m / w = n / w)%Z) by lia.
    assert (m = n).
    { rewrite (Z.div_mod m w) by lia. rewrite (Z.div_mod n w) by lia. rewrite Em, Ed. reflexivity. }
    subst. reflexivity.
Qed.

Lemma pos_writes_frame : forall T c w n row (l : list (Z * F)),
  wf_comp c w ->
  (forall m v, In (m, v) l -> (0 <= m < n * w)%Z) ->
  frame c n row T (wsets T (pos_writes c row l)).
Proof.
  intros T c w n row l Hwf H. pose proof Hwf as [_ [Hw Hpos]].
  apply (wsets_frame P c w); auto. intros col r v Hin. unfold pos_writes in Hin.
  apply in_map_iff in Hin. destruct Hin as [[m u] [E Hm]]. injection E as <- <- <-.
  cbn [fst snd]. split; [eexists; reflexivity|]. rewrite Hw.
  specialize (H m u Hm). split.
  - pose proof (Z.div_pos m w). lia.
  - assert (m / w < n)%Z by (apply Z.div_lt_upper_bound; lia). lia.
Qed.

(** ** The gate *)

Definition bbv (T : table) (c : comp) (row n : Z) : F := vval T (bb_cell c row n).

Lemma bb_gval : forall T c w row g k, wamount c = w -> (1 <= w)%Z -> (0 <= k)%Z ->
  gval T (row + 1 + 3 * g)%Z (bb_var c k) = bbv T c row (3 * w * g + k)%Z.
Proof.
  intros T c w row g k Hw Hw1 Hk. unfold bb_var, bbv, bb_cell. rewrite gval_wv, vval_wcell, Hw.
  destruct (gate_pos_div w g k Hw1 Hk) as [-> ->]. f_equal. lia.
Qed.

Lemma bb_gate_eval : forall T c w row g, wamount c = w -> (1 <= w)%Z ->
  eval T (row + 1 + 3 * g)%Z
    (EBin OSub (fold_left (fun e k => EBin OAdd (EBin OMul (ecst (ofZ 2)) e) (evar (bb_var c k)))
                 (zseq 1 (bb_last_pos w)) (evar (wv (W c 0) (-1)))) (evar (bb_var c (bb_last_pos w)))) =
  fhorner (ofZ 2) (fun k => bbv T c row (3 * w * g + k)%Z) (bb_last_pos w)
  - bbv T c row (3 * w * g + bb_last_pos w)%Z.
Proof.
  intros T c w row g Hw Hw1. rewrite eval_bin, eval_evar. cbn [ebop].
  rewrite (bb_gval T c w) by (auto; unfold bb_last_pos; lia). f_equal.
  apply (fold_zseq_inv (expr P) (fun i e => eval T (row + 1 + 3 * g)%Z e =
     fhorner (ofZ 2) (fun k => bbv T c row (3 * w * g + k)%Z) i)).
  - unfold bb_last_pos. lia.
  - rewrite eval_evar, gval_wv.
    change (fhorner (ofZ 2) (fun k => bbv T c row (3 * w * g + k)%Z) 1%Z)
      with (fhorner (ofZ 2) (fun k => bbv T c row (3 * w * g + k)%Z) (0 + 1)%Z).
    rewrite fhorner_S, fhorner_0 by lia. unfold bbv, bb_cell. rewrite vval_wcell, Hw.
    destruct (gate_pos_div w g 0 Hw1 ltac:(lia)) as [-> ->].
    rewrite Z.div_0_l, Z.mod_0_l by lia.
    replace (row + 1 + 3 * g + -1)%Z with (row + (3 * g + 0))%Z by lia. ring.
  - intros i e Hi IH. rewrite !eval_bin, eval_ecst, eval_evar. cbn [ebop].
    rewrite IH, fhorner_S, (bb_gval T c w) by (auto; lia). reflexivity.
Qed.

(** What the bit builder's own circuit and the sum links say about a table. *)
Lemma bb_core_sound : forall T c w bits cb row,
  wamount c = w -> (1 <= w)%Z -> (0 < bits)%Z ->
  sat L T (bb_circuit c bits cb row) -> sat L T (bb_sum_copies c bits cb row) ->
  let G := bb_gates w bits cb in
  let b n := bbv T c row (bb_bitpos w n) in
  vval T (bc_result c bits cb row) = fhorner (ofZ 2) b (G * bb_per_gate w + 1)%Z /\
  (cb = true -> forall n, (1 <= n <= G * bb_per_gate w)%Z -> b n = f0 \/ b n = f1).
Proof.
  intros T c w bits cb row Hw Hw1 Hb HS HC G b.
  destruct (bb_sum_bits_gates w bits cb Hw1 Hb) as [S1 S2]. fold G in S1, S2.
  assert (Hbpg : (1 <= bb_per_gate w)%Z) by (unfold bb_per_gate; lia).
  assert (HL : bb_last_pos w = (bb_per_gate w + 1)%Z) by (unfold bb_last_pos, bb_per_gate; lia).
  unfold bb_circuit in HS. apply sat_cons in HS. destruct HS as [HG _].
  rewrite Hw, bb_rows_gates in HG by assumption. fold G in HG. rewrite step_rows_3 in HG by lia.
  assert (GA : forall g, (0 <= g < G)%Z -> forall e, In e (bb_gate c cb) -> eval T (row + 1 + 3 * g)%Z e = f0).
  { intros g Hg e He. apply HG; [|exact He]. apply in_map_iff. exists g. split; [reflexivity|]. apply in_zseq. lia. }
  clear HG.
  assert (SUM : forall g, (0 <= g < G)%Z ->
    bbv T c row (3 * w * g + (3 * w - 1))%Z =
    bbv T c row (3 * w * g)%Z * ofZ (2 ^ bb_per_gate w) +
    fhorner (ofZ 2) (fun k => b (g * bb_per_gate w + 1 + k)%Z) (bb_per_gate w)).
  { intros g Hg. assert (E := GA g Hg _ (or_introl eq_refl)). rewrite Hw in E.
    rewrite (bb_gate_eval T c w) in E by assumption.
    apply fsub0 in E. replace (3 * w - 1)%Z with (bb_last_pos w) by reflexivity.
    rewrite <- E. rewrite HL, Z.add_comm.
    rewrite fhorner_split by lia.
    change (fhorner (ofZ 2) (fun k => bbv T c row (3 * w * g + k)%Z) 1%Z)
      with (fhorner (ofZ 2) (fun k => bbv T c row (3 * w * g + k)%Z) (0 + 1)%Z).
    rewrite fhorner_S, fhorner_0, Z.add_0_r by lia.
    replace (ofZ 2 * f0 + bbv T c row (3 * w * g)%Z) with (bbv T c row (3 * w * g)%Z) by ring.
    f_equal. apply fhorner_ext. intros k Hk. subst b. cbv beta.
    replace (g * bb_per_gate w + 1 + k)%Z with (g * bb_per_gate w + (1 + k))%Z by ring.
    rewrite bb_bitpos_at by lia. reflexivity. }
  assert (LINK : forall g, (0 <= g < G - 1)%Z ->
     bbv T c row (3 * w * g + (3 * w - 1))%Z = bbv T c row (3 * w * (g + 1))%Z).
  { intros g Hg. unfold bb_sum_copies in HC. rewrite sat_map, Hw in HC.
    specialize (HC g). rewrite in_zseq in HC.
    assert (R : (0 <= g < (bb_sum_bits w bits cb - 1 + 1) / 2)%Z).
    { rewrite S1. replace (2 * G - 1 - 1 + 1)%Z with ((G - 1) * 2 + 1)%Z by ring.
      rewrite Z.div_add_l by lia. change (1 / 2)%Z with 0%Z. lia. }
    specialize (HC R). cbn [holds] in HC. rewrite bb_sumpos_even, bb_sumpos_odd in HC. exact HC. }
  assert (ACC : forall g, (0 <= g < G)%Z ->
     bbv T c row (3 * w * g + (3 * w - 1))%Z = fhorner (ofZ 2) b ((g + 1) * bb_per_gate w + 1)%Z).
  { intros g [Hg1 Hg2]. revert Hg2. pattern g. apply natlike_ind; [| |exact Hg1]; clear g Hg1.
    - intros _. rewrite SUM by lia. rewrite Z.mul_0_r.
      replace ((0 + 1) * bb_per_gate w + 1)%Z with (1 + bb_per_gate w)%Z by ring.
      rewrite fhorner_split by lia. f_equal.
      change (fhorner (ofZ 2) b 1%Z) with (fhorner (ofZ 2) b (0 + 1)%Z).
      rewrite fhorner_S, fhorner_0 by lia. subst b. cbv beta. rewrite bb_bitpos_0 by lia. ring.
    - intros g Hg IH Hg2. unfold Z.succ in *. rewrite SUM by lia.
      rewrite <- LINK by lia. rewrite IH by lia.
      replace ((g + 1 + 1) * bb_per_gate w + 1)%Z with (((g + 1) * bb_per_gate w + 1) + bb_per_gate w)%Z by ring.
      symmetry. apply fhorner_split; nia. }
  split.
  - unfold bc_result. rewrite Hw, S1.
    replace (2 * G - 1 - 1)%Z with (2 * (G - 1))%Z by ring.
    rewrite bb_sumpos_even. fold (bbv T c row (3 * w * (G - 1) + (3 * w - 1))%Z).
    rewrite ACC by lia. f_equal. ring.
  - intros -> n Hn. destruct (bb_index_cases w n Hw1 ltac:(lia)) as [->|[g [o [Hg [Ho ->]]]]]; [lia|].
    assert (HgG : (g < G)%Z) by nia.
    subst b. cbv beta. rewrite bb_bitpos_at by lia.
    assert (E : eval T (row + 1 + 3 * g)%Z
       (EBin OMul (evar (bb_var c o)) (EBin OSub (ecst (ofZ 1)) (evar (bb_var c o)))) = f0).
    { apply GA; [lia|]. unfold bb_gate. rewrite Hw. right. apply in_map_iff.
      exists o. split; [reflexivity|]. apply in_zseq. lia. }
    rewrite !eval_bin, eval_ecst, eval_evar in E. cbn [ebop] in E. rewrite (bb_gval T c w) in E by (auto; lia).
    apply fbool_cases. change (ofZ 1 : F) with (f1 : F) in E.
    lc (- f1) E.
Qed.


(** ** Decomposition and composition: soundness *)

Lemma bb_padding_zero : forall T c w bits cb row,
  wamount c = w -> T CConst 0%Z row = f0 ->
  sat L T (bb_zero_copies c bits cb row) ->
  forall n, (0 <= n < bb_padding w bits cb)%Z -> bbv T c row (bb_bitpos w n) = f0.
Proof.
  intros T c w bits cb row Hw K H n Hn. unfold bb_zero_copies in H. rewrite sat_map, Hw in H.
  specialize (H n). rewrite in_zseq in H. specialize (H Hn). cbn [holds] in H.
  rewrite vval_ccell, K in H. symmetry. exact H.
Qed.

Lemma fhorner_padded : forall (b : Z -> F) pad n, (0 <= pad)%Z -> (0 <= n)%Z ->
  (forall k, (0 <= k < pad)%Z -> b k = f0) ->
  fhorner (ofZ 2) b (pad + n)%Z = fhorner (ofZ 2) (fun k => b (pad + k)%Z) n.
Proof.
  intros b pad n Hp Hn H. rewrite fhorner_split by lia. rewrite (fhorner_zero P 2 b pad H). ring.
Qed.

Lemma bd_sound_l : forall T c w bits msb x row,
  wamount c = w -> (1 <= w)%Z -> (0 < bits < modulus_bits P)%Z -> C c 0 = 0%Z ->
  sat L T (bd_circuit c bits x row) ->
  (fval (vval T x) < 2 ^ bits)%Z /\
  forall i, (0 <= i < bits)%Z ->
    fval (vval T (bd_result c bits msb row i)) =
    Z.b2z (Z.testbit (fval (vval T x)) (if msb then bits - 1 - i else i)).
Proof.
  intros T c w bits msb x row Hw Hw1 Hb HC H.
  unfold bd_circuit in H. rewrite !sat_app in H. destruct H as [H1 [H2 [H3 H4]]].
  apply sat_cons in H4. destruct H4 as [X _]. cbn [holds] in X.
  assert (K : T CConst 0%Z row = f0).
  { unfold bb_circuit in H1. rewrite !sat_cons in H1. destruct H1 as [_ [K _]]. cbn in K. rewrite HC in K. exact K. }
  destruct (bb_core_sound T c w bits true row Hw Hw1 ltac:(lia) H1 H3) as [R B].
  destruct (bb_total w bits true Hw1 ltac:(lia)) as [Tt Tp]. cbn [Z.b2z] in Tp.
  set (G := bb_gates w bits true) in *. set (b := fun n => bbv T c row (bb_bitpos w n)) in *.
  specialize (B eq_refl).
  pose proof (bb_padding_zero T c w bits true row Hw K H2) as PZ. fold b in PZ.
  set (pad := bb_padding w bits true) in *.
  fold (bc_result c bits true row) in X. rewrite R in X.
  replace (G * bb_per_gate w + 1)%Z with (pad + bits)%Z in X by lia.
  rewrite fhorner_padded in X by (auto; lia).
  assert (Dg : forall k, (0 <= k < bits)%Z -> exists d, (0 <= d < 2)%Z /\ b (pad + k)%Z = ofZ d).
  { intros k Hk. destruct (B (pad + k)%Z ltac:(lia)) as [E|E]; [exists 0%Z|exists 1%Z]; (split; [lia|exact E]). }
  apply choose_range in Dg. destruct Dg as [d Hd].
  rewrite (fhorner_ofZ P 2 d) in X by (intros k Hk; apply Hd; exact Hk).
  assert (N : (0 <= horner 2 d bits < 2 ^ bits)%Z).
  { apply horner_bound; [lia|lia|]. intros; apply Hd; assumption. }
  pose proof (modulus_bits_le bits ltac:(lia)) as MB.
  assert (FX : fval (vval T x) = horner 2 d bits).
  { rewrite X. apply fval_ofZ_small. lia. }
  rewrite FX. split; [lia|].
  intros i Hi. unfold bd_result. rewrite Hw. fold pad.
  set (k := if msb then i else (bits - i - 1)%Z).
  assert (Hk : (0 <= k < bits)%Z) by (subst k; destruct msb; lia).
  change (fval (b (pad + k)%Z) = Z.b2z (Z.testbit (horner 2 d bits) (if msb then (bits - 1 - i)%Z else i))).
  destruct (Hd k Hk) as [Hdk ->].
  rewrite fval_ofZ_small by (pose proof (char_ge_2 P); lia).
  rewrite testbit_digit by (destruct msb; lia).
  rewrite (horner_digit 2 d bits k) by (try lia; intros; apply Hd; assumption).
  f_equal. f_equal. f_equal. subst k. destruct msb; lia.
Qed.

Lemma bc_sound_l : forall T c w bits cb msb xs row,
  wamount c = w -> (1 <= w)%Z -> (0 < bits)%Z -> C c 0 = 0%Z ->
  sat L T (bc_circuit c bits cb msb xs row) ->
  vval T (bc_result c bits cb row) =
    fhorner (ofZ 2) (fun i => vval T (xs (bc_index bits msb i))) bits /\
  (cb = true -> forall i, (0 <= i < bits)%Z -> vval T (xs i) = f0 \/ vval T (xs i) = f1).
Proof.
  intros T c w bits cb msb xs row Hw Hw1 Hb HC H.
  unfold bc_circuit in H. cbv zeta in H. rewrite !sat_app in H. destruct H as [H1 [H2 [H4 H3]]].
  assert (K : T CConst 0%Z row = f0).
  { unfold bb_circuit in H1. rewrite !sat_cons in H1. destruct H1 as [_ [K _]]. cbn in K. rewrite HC in K. exact K. }
  destruct (bb_core_sound T c w bits cb row Hw Hw1 Hb H1 H3) as [R B].
  destruct (bb_total w bits cb Hw1 Hb) as [Tt Tp].
  pose proof (bb_padding_zero T c w bits cb row Hw K H2) as PZ.
  set (G := bb_gates w bits cb) in *. set (b := fun n => bbv T c row (bb_bitpos w n)) in *.
  set (pad := bb_padding w bits cb) in *.
  assert (IN : forall i, (0 <= i < bits)%Z -> vval T (xs (bc_index bits msb i)) = b (pad + i)%Z).
  { intros i Hi. rewrite sat_map in H4. specialize (H4 i). rewrite in_zseq, Hw in H4. apply H4. exact Hi. }
  assert (0 <= Z.b2z cb)%Z by (destruct cb; cbn; lia).
  split.
  - rewrite R. replace (G * bb_per_gate w + 1)%Z with (pad + bits)%Z by lia.
    rewrite fhorner_padded by (auto; lia). apply fhorner_ext. intros k Hk. symmetry. apply IN. exact Hk.
  - intros -> i Hi. cbn [Z.b2z] in Tp.
    replace i with (bc_index bits msb (bc_index bits msb i)) by (unfold bc_index; destruct msb; lia).
    rewrite IN by (unfold bc_index; destruct msb; lia).
    apply B; [reflexivity|]. unfold bc_index; destruct msb; lia.
Qed.

(** ** Assignment *)

Section Assign.
Variables (w bits : Z) (cb : bool) (b : Z -> Z).
Hypothesis Hw1 : (1 <= w)%Z.
Hypothesis Hb : (0 < bits)%Z.

Definition bb_pb (n : Z) : Z :=
  if (n <? bb_padding w bits cb)%Z then 0%Z else b (n - bb_padding w bits cb)%Z.
Definition bb_S (g : Z) : F :=
  fhorner (ofZ 2) (fun k => ofZ (b k)) (bb_last_pos w - bb_padding w bits cb + g * bb_per_gate w)%Z.
Definition bb_val (n : Z) : F :=
  let g := (n / (3 * w))%Z in
  let o := (n mod (3 * w))%Z in
  if (o =? 3 * w - 1)%Z then bb_S g
  else if ((o =? 0) && (0 <? g))%Z then bb_S (g - 1)
  else ofZ (bb_pb (g * bb_per_gate w + o)).

Lemma gate_split : forall g o, (0 <= o < 3 * w)%Z ->
  ((3 * w * g + o) / (3 * w) = g /\ (3 * w * g + o) mod (3 * w) = o)%Z.
Proof.
  intros g o Ho. replace (3 * w * g + o)%Z with (o + g * (3 * w))%Z by ring.
  rewrite Z.div_add, Z.mod_add by lia. rewrite Z.div_small, Z.mod_small by lia. lia.
Qed.

Lemma bb_val_bit : forall n, (0 <= n)%Z -> bb_val (bb_bitpos w n) = ofZ (bb_pb n).
Proof.
  intros n Hn. unfold bb_val. cbv zeta.
  destruct (bb_index_cases w n Hw1 Hn) as [->|[g [o [Hg [Ho ->]]]]].
  - rewrite bb_bitpos_0, Z.mod_0_l, Z.div_0_l by lia.
    destruct (0 =? 3 * w - 1)%Z eqn:E; [apply Z.eqb_eq in E; lia|]. reflexivity.
  - rewrite bb_bitpos_at by lia. unfold bb_per_gate in Ho.
    destruct (gate_split g o ltac:(lia)) as [-> ->].
    destruct (o =? 3 * w - 1)%Z eqn:E; [apply Z.eqb_eq in E; lia|].
    destruct (o =? 0)%Z eqn:E0; [apply Z.eqb_eq in E0; lia|]. reflexivity.
Qed.

Lemma bb_val_even : forall g, bb_val (bb_sumpos w (2 * g)) = bb_S g.
Proof.
  intros g. unfold bb_val. cbv zeta. rewrite bb_sumpos_even.
  destruct (gate_split g (3 * w - 1) ltac:(lia)) as [-> ->]. rewrite Z.eqb_refl. reflexivity.
Qed.

Lemma bb_val_odd : forall g, (0 <= g)%Z -> bb_val (bb_sumpos w (2 * g + 1)) = bb_S g.
Proof.
  intros g Hg. unfold bb_val. cbv zeta. rewrite bb_sumpos_odd.
  destruct (gate_split (g + 1) 0 ltac:(lia)) as [E1 E2]. rewrite Z.add_0_r in E1, E2. rewrite E1, E2.
  destruct (0 =? 3 * w - 1)%Z eqn:E; [apply Z.eqb_eq in E; lia|].
  rewrite Z.eqb_refl. destruct (0 <? g + 1)%Z eqn:E3; [|apply Z.ltb_ge in E3; lia].
  cbn [andb]. f_equal. ring.
Qed.

Lemma bb_bitpos_bound : forall n, (0 <= n <= bb_gates w bits cb * bb_per_gate w)%Z ->
  (0 <= bb_bitpos w n < 3 * w * bb_gates w bits cb)%Z.
Proof.
  intros n Hn. destruct (bb_sum_bits_gates w bits cb Hw1 Hb) as [_ S2].
  destruct (bb_index_cases w n Hw1 ltac:(lia)) as [->|[g [o [Hg [Ho ->]]]]].
  - rewrite bb_bitpos_0 by lia. nia.
  - rewrite bb_bitpos_at by lia. unfold bb_per_gate in *. assert (g < bb_gates w bits cb)%Z by nia. nia.
Qed.

Lemma bb_writes_val : forall m v, In (m, v) (bb_pos_writes w bits cb b) ->
  (0 <= m < 3 * w * bb_gates w bits cb)%Z /\ v = bb_val m.
Proof.
  intros m v H. destruct (bb_sum_bits_gates w bits cb Hw1 Hb) as [S1 S2].
  destruct (bb_total w bits cb Hw1 Hb) as [Tt Tp].
  assert (0 <= Z.b2z cb)%Z by (destruct cb; cbn; lia).
  unfold bb_pos_writes in H. cbv zeta in H. apply in_app_or in H. destruct H as [H|H]; [|apply in_app_or in H; destruct H as [H|H]].
  - apply in_map_iff in H. destruct H as [n [E Hn]]. apply in_zseq in Hn. injection E as <- <-.
    split; [apply bb_bitpos_bound; lia|]. rewrite bb_val_bit by lia. unfold bb_pb.
    destruct (n <? bb_padding w bits cb)%Z eqn:El; [reflexivity|apply Z.ltb_ge in El; lia].
  - apply in_map_iff in H. destruct H as [n [E Hn]]. apply in_zseq in Hn. injection E as <- <-.
    split; [apply bb_bitpos_bound; lia|]. rewrite bb_val_bit by lia. unfold bb_pb.
    destruct (bb_padding w bits cb + n <? bb_padding w bits cb)%Z eqn:El; [apply Z.ltb_lt in El; lia|].
    f_equal. f_equal. lia.
  - fold (bb_gates w bits cb) in H. apply in_flat_map in H. destruct H as [h [Hh H]]. apply in_zseq in Hh.
    assert (Eh : (2 * h / 2 = h)%Z) by (rewrite Z.mul_comm; apply Z.div_mul; lia).
    rewrite Eh in H. destruct H as [E|H].
    + apply pair_equal_spec in E. destruct E as [<- <-]. split; [rewrite bb_sumpos_even; nia|]. rewrite bb_val_even. reflexivity.
    + destruct (2 * h =? bb_sum_bits w bits cb - 1)%Z eqn:El; [destruct H|]. destruct H as [E|[]].
      apply Z.eqb_neq in El.
      apply pair_equal_spec in E. destruct E as [<- <-]. split; [rewrite bb_sumpos_odd; nia|]. rewrite bb_val_odd by lia. reflexivity.
Qed.

Lemma bb_writes_bit : forall n, (0 <= n <= bb_gates w bits cb * bb_per_gate w)%Z ->
  exists v : F, In (bb_bitpos w n, v) (bb_pos_writes w bits cb b).
Proof.
  intros n Hn. destruct (bb_total w bits cb Hw1 Hb) as [Tt Tp].
  unfold bb_pos_writes. destruct (Z_lt_le_dec n (bb_padding w bits cb)) as [H|H].
  - exists f0. apply in_or_app. left. apply in_map_iff. exists n. split; [reflexivity|]. apply in_zseq. lia.
  - exists (ofZ (b (n - bb_padding w bits cb))). apply in_or_app. right. apply in_or_app. left.
    apply in_map_iff. exists (n - bb_padding w bits cb)%Z. split; [|apply in_zseq; lia].
    f_equal. f_equal. lia.
Qed.

Lemma bb_writes_sum : forall g, (0 <= g < bb_gates w bits cb)%Z ->
  (exists v : F, In (bb_sumpos w (2 * g), v) (bb_pos_writes w bits cb b)) /\
  ((g < bb_gates w bits cb - 1)%Z -> exists v : F, In (bb_sumpos w (2 * g + 1), v) (bb_pos_writes w bits cb b)).
Proof.
  intros g Hg. destruct (bb_sum_bits_gates w bits cb Hw1 Hb) as [S1 S2].
  unfold bb_pos_writes. cbv zeta. fold (bb_gates w bits cb). split.
  - eexists. apply in_or_app. right. apply in_or_app. right. apply in_flat_map. exists g.
    split; [apply in_zseq; lia|]. left. reflexivity.
  - intros Hg2. eexists. apply in_or_app. right. apply in_or_app. right. apply in_flat_map. exists g.
    split; [apply in_zseq; lia|]. right.
    destruct (2 * g =? bb_sum_bits w bits cb - 1)%Z eqn:El; [apply Z.eqb_eq in El; lia|].
    left. reflexivity.
Qed.

(** The running sum is the Horner sum of the padded bits. *)
Lemma bb_S_padded : forall g, (0 <= g)%Z ->
  bb_S g = fhorner (ofZ 2) (fun k => ofZ (bb_pb k)) ((g + 1) * bb_per_gate w + 1)%Z.
Proof.
  intros g Hg. destruct (bb_total w bits cb Hw1 Hb) as [Tt Tp].
  assert (0 <= Z.b2z cb)%Z by (destruct cb; cbn; lia).
  assert (HL : bb_last_pos w = (bb_per_gate w + 1)%Z) by (unfold bb_last_pos, bb_per_gate; lia).
  unfold bb_S. rewrite HL.
  assert (1 <= bb_per_gate w)%Z by (unfold bb_per_gate; lia).
  replace ((g + 1) * bb_per_gate w + 1)%Z
    with (bb_padding w bits cb + (bb_per_gate w + 1 - bb_padding w bits cb + g * bb_per_gate w))%Z by ring.
  rewrite (fhorner_padded (fun k => ofZ (bb_pb k))).
  - apply fhorner_ext. intros k Hk. f_equal. unfold bb_pb.
    destruct (bb_padding w bits cb + k <? bb_padding w bits cb)%Z eqn:El; [apply Z.ltb_lt in El; lia|].
    f_equal. lia.
  - lia.
  - nia.
  - intros k Hk. unfold bb_pb. destruct (k <? bb_padding w bits cb)%Z eqn:El; [reflexivity|apply Z.ltb_ge in El; lia].
Qed.

(** A table whose component cells hold the honest values. *)
Definition bb_filled (c : comp) (row : Z) (T : table) : Prop :=
  forall n, (exists v : F, In (n, v) (bb_pos_writes w bits cb b)) -> bbv T c row n = bb_val n.

Lemma bb_assign_filled : forall c row T, wf_comp c w -> bb_filled c row (bb_assign c bits cb b row T).
Proof.
  intros c row T Hwf n Hn. unfold bbv, bb_assign.
  pose proof Hwf as [_ [Hw _]]. rewrite Hw.
  apply (pos_writes_read T c w row _ bb_val n Hwf); [|exact Hn].
  intros m v H. destruct (bb_writes_val m v H) as [H1 H2]. split; [lia|exact H2].
Qed.

Lemma bb_assign_frame : forall c row T, wf_comp c w ->
  frame c (bb_rows w bits cb) row T (bb_assign c bits cb b row T).
Proof.
  intros c row T Hwf. unfold bb_assign. pose proof Hwf as [_ [Hw _]]. rewrite Hw.
  apply (pos_writes_frame T c w _ row _ Hwf). intros m v H.
  destruct (bb_writes_val m v H) as [H1 _]. rewrite bb_rows_gates by assumption. nia.
Qed.

Lemma bb_filled_frame : forall c row T T2 n2 r2, wf_comp c w ->
  frame c n2 r2 T T2 -> (row + bb_rows w bits cb <= r2)%Z ->
  bb_filled c row T -> bb_filled c row T2.
Proof.
  intros c row T T2 n2 r2 Hwf HF Hr H n Hn. rewrite <- (H n Hn).
  pose proof Hwf as [_ [Hw _]].
  unfold bbv. eapply vval_frame; [exact HF|]. intros [_ [_ R]]. cbn [bb_cell wcell vrot] in R. rewrite Hw in R.
  destruct Hn as [v Hv]. destruct (bb_writes_val n v Hv) as [Hn _].
  rewrite bb_rows_gates in Hr by assumption.
  assert (n / w < 3 * bb_gates w bits cb)%Z by (apply Z.div_lt_upper_bound; nia). lia.
Qed.

Section Table.
Variables (c : comp) (row : Z) (T' : table).
Hypothesis Hwf : wf_comp c w.
Hypothesis bb_assign_read : bb_filled c row T'.

Lemma bb_assign_result : vval T' (bc_result c bits cb row) = fhorner (ofZ 2) (fun i => ofZ (b i)) bits.
Proof.
  pose proof Hwf as [_ [Hw _]]. destruct (bb_sum_bits_gates w bits cb Hw1 Hb) as [S1 S2].
  destruct (bb_total w bits cb Hw1 Hb) as [Tt Tp].
  unfold bc_result. rewrite Hw, S1.
  replace (2 * bb_gates w bits cb - 1 - 1)%Z with (2 * (bb_gates w bits cb - 1))%Z by ring.
  change (bbv T' c row (bb_sumpos w (2 * (bb_gates w bits cb - 1))) = fhorner (ofZ 2) (fun i => ofZ (b i)) bits).
  rewrite bb_assign_read by (apply bb_writes_sum; lia). rewrite bb_val_even. unfold bb_S.
  f_equal. unfold bb_last_pos, bb_per_gate in *. lia.
Qed.

Lemma bb_assign_core :
  (cb = true -> forall i, (0 <= i < bits)%Z -> (b i = 0 \/ b i = 1)%Z) ->
  T' CConst 0%Z row = f0 -> C c 0 = 0%Z ->
  sat L T' (bb_circuit c bits cb row) /\ sat L T' (bb_zero_copies c bits cb row) /\
  sat L T' (bb_sum_copies c bits cb row).
Proof.
  intros Hbit K HC.
  pose proof Hwf as [_ [Hw _]]. destruct (bb_sum_bits_gates w bits cb Hw1 Hb) as [S1 S2].
  destruct (bb_total w bits cb Hw1 Hb) as [Tt Tp].
  assert (0 <= Z.b2z cb)%Z by (destruct cb; cbn; lia).
  assert (HL : bb_last_pos w = (bb_per_gate w + 1)%Z) by (unfold bb_last_pos, bb_per_gate; lia).
  assert (Hbpg : (1 <= bb_per_gate w)%Z) by (unfold bb_per_gate; lia).
  set (G := bb_gates w bits cb) in *.
  split; [|split].
  - unfold bb_circuit. rewrite Hw, bb_rows_gates by assumption. fold G. rewrite step_rows_3 by lia.
    apply sat_cons. split; [|apply sat_cons; split; [cbn; rewrite HC; exact K|apply sat_nil]].
    intros r Hr e He. apply in_map_iff in Hr. destruct Hr as [g [<- Hg]]. apply in_zseq in Hg.
    unfold bb_gate in He. rewrite Hw in He. destruct He as [<-|He].
    + rewrite (bb_gate_eval T' c w) by assumption.
      apply fsub_eq0. rewrite HL.
      assert (E1 : bbv T' c row (3 * w * g + (bb_per_gate w + 1))%Z = bb_S g).
      { rewrite <- HL. unfold bb_last_pos. rewrite <- bb_sumpos_even.
        rewrite bb_assign_read by (apply bb_writes_sum; fold G; lia). apply bb_val_even. }
      rewrite E1, bb_S_padded by lia.
      rewrite Z.add_comm. rewrite fhorner_split by lia.
      replace ((g + 1) * bb_per_gate w + 1)%Z with ((g * bb_per_gate w + 1) + bb_per_gate w)%Z by ring.
      assert (N1 : (0 <= g * bb_per_gate w + 1)%Z) by nia.
      assert (N2 : (0 <= bb_per_gate w)%Z) by lia.
      rewrite (fhorner_split P 2 (fun k => ofZ (bb_pb k)) (g * bb_per_gate w + 1) (bb_per_gate w) N1 N2).
      change (fhorner (ofZ 2) (fun k => bbv T' c row (3 * w * g + k)%Z) 1%Z)
        with (fhorner (ofZ 2) (fun k => bbv T' c row (3 * w * g + k)%Z) (0 + 1)%Z).
      rewrite fhorner_S, fhorner_0, Z.add_0_r by lia.
      f_equal.
      * f_equal. replace (ofZ 2 * f0 + bbv T' c row (3 * w * g)%Z) with (bbv T' c row (3 * w * g)%Z) by ring.
        destruct (Z.eq_dec g 0) as [->|Ng].
        -- rewrite Z.mul_0_r. rewrite Z.mul_0_l.
           change (fhorner (ofZ 2) (fun k => ofZ (bb_pb k)) (0 + 1)%Z)
             with (ofZ 2 * f0 + ofZ (bb_pb 0) : F).
           assert (E9 : bbv T' c row 0%Z = ofZ (bb_pb 0)).
           { rewrite <- (bb_bitpos_0 w Hw1) at 1. rewrite bb_assign_read by (apply bb_writes_bit; fold G; nia).
             apply bb_val_bit. lia. }
           rewrite E9. ring.
        -- replace (3 * w * g)%Z with (3 * w * ((g - 1) + 1))%Z by ring. rewrite <- bb_sumpos_odd.
           rewrite bb_assign_read by (apply bb_writes_sum; fold G; lia).
           rewrite bb_val_odd by lia. rewrite bb_S_padded by lia. f_equal. ring.
      * apply fhorner_ext. intros k Hk. rewrite <- bb_bitpos_at by lia.
        rewrite bb_assign_read by (apply bb_writes_bit; fold G; nia).
        rewrite bb_val_bit by nia. f_equal. f_equal. ring.
    + assert (Ecb : cb = true) by (clear -He; destruct cb; [reflexivity|destruct He]).
      rewrite Ecb in He. apply in_map_iff in He. destruct He as [k [<- Hk]]. apply in_zseq in Hk.
      rewrite !eval_bin, eval_ecst, eval_evar. cbn [ebop]. rewrite (bb_gval T' c w) by (auto; lia).
      rewrite <- bb_bitpos_at by lia.
      rewrite bb_assign_read by (apply bb_writes_bit; fold G; nia).
      rewrite bb_val_bit by nia.
      assert (Eb : (bb_pb (g * bb_per_gate w + k) = 0 \/ bb_pb (g * bb_per_gate w + k) = 1)%Z).
      { unfold bb_pb. destruct (g * bb_per_gate w + k <? bb_padding w bits cb)%Z eqn:El;
          [left; reflexivity|]. apply Z.ltb_ge in El.
        apply Hbit; [exact Ecb|]. nia. }
      destruct Eb as [-> | ->]; ring.
  - unfold bb_zero_copies. rewrite Hw. apply sat_map. intros n Hn. apply in_zseq in Hn. cbn [holds].
    rewrite vval_ccell, K. change (f0 = bbv T' c row (bb_bitpos w n)).
    rewrite bb_assign_read by (apply bb_writes_bit; fold G; lia).
    rewrite bb_val_bit by lia. unfold bb_pb.
    destruct (n <? bb_padding w bits cb)%Z eqn:El; [reflexivity|apply Z.ltb_ge in El; lia].
  - unfold bb_sum_copies. rewrite Hw. apply sat_map. intros h Hh. apply in_zseq in Hh. cbn [holds].
    change (bbv T' c row (bb_sumpos w (2 * h)) = bbv T' c row (bb_sumpos w (2 * h + 1))).
    assert (h < G - 1)%Z.
    { rewrite S1 in Hh. replace (2 * G - 1 - 1 + 1)%Z with ((G - 1) * 2 + 1)%Z in Hh by ring.
      rewrite Z.div_add_l in Hh by lia. change (1 / 2)%Z with 0%Z in Hh. lia. }
    rewrite !bb_assign_read by (apply bb_writes_sum; fold G; lia).
    rewrite bb_val_even, bb_val_odd by lia. reflexivity.
Qed.

Lemma bb_assign_bit : forall i, (0 <= i < bits)%Z ->
  bbv T' c row (bb_bitpos w (bb_padding w bits cb + i)) = ofZ (b i).
Proof.
  intros i Hi. destruct (bb_total w bits cb Hw1 Hb) as [Tt Tp].
  assert (0 <= Z.b2z cb)%Z by (destruct cb; cbn; lia).
  rewrite bb_assign_read by (apply bb_writes_bit; lia). rewrite bb_val_bit by lia. f_equal. unfold bb_pb.
  destruct (bb_padding w bits cb + i <? bb_padding w bits cb)%Z eqn:El; [apply Z.ltb_lt in El; lia|].
  f_equal. lia.
Qed.

End Table.
End Assign.

(** ** Completeness *)

Lemma bb_const_in : forall T c bits cb row (l : list (cmd P)),
  C c 0 = 0%Z -> consts_in T (bb_circuit c bits cb row ++ l) -> T CConst 0%Z row = f0.
Proof.
  intros T c bits cb row l HC H. apply H. rewrite <- HC. unfold bb_circuit. right. left. reflexivity.
Qed.

Lemma bd_core : forall T' c w bits msb x row xv,
  wf_comp c w -> (0 < bits)%Z -> C c 0 = 0%Z ->
  bb_filled w bits true (msb_bit bits xv) c row T' ->
  T' CConst 0%Z row = f0 -> vval T' x = ofZ xv -> (0 <= xv < 2 ^ bits)%Z ->
  sat L T' (bd_circuit c bits x row) /\
  forall i, (0 <= i < bits)%Z ->
    vval T' (bd_result c bits msb row i) = ofZ (Z.b2z (Z.testbit xv (if msb then bits - 1 - i else i)))%Z.
Proof.
  intros T' c w bits msb x row xv Hwf Hb HC HF K Ex Hx.
  pose proof Hwf as [_ [Hw Hw0]]. assert (Hw1 : (1 <= w)%Z) by lia.
  split.
  - destruct (bb_assign_core w bits true _ Hw1 Hb c row T' Hwf HF) as [A1 [A2 A3]]; auto.
    { intros _ i _. unfold msb_bit. match goal with |- context [Z.b2z ?q] => destruct q; cbn; auto end. }
    unfold bd_circuit. rewrite !sat_app. split; [exact A1|split; [exact A2|split; [exact A3|]]].
    apply sat_cons. split; [|apply sat_nil]. cbn [holds].
    fold (bc_result c bits true row).
    rewrite (bb_assign_result w bits true _ Hw1 Hb c row T' Hwf HF).
    rewrite (fhorner_ofZ P 2 (msb_bit bits xv)) by reflexivity. rewrite horner_bits by lia.
    rewrite Z.mod_small by lia. exact Ex.
  - intros i Hi. unfold bd_result. rewrite Hw.
    set (k := if msb then i else (bits - i - 1)%Z).
    change (bbv T' c row (bb_bitpos w (bb_padding w bits true + k)) =
      ofZ (Z.b2z (Z.testbit xv (if msb then (bits - 1 - i)%Z else i)))).
    rewrite (bb_assign_bit w bits true _ Hw1 Hb c row T' HF)
      by (subst k; destruct msb; lia).
    f_equal. unfold msb_bit. f_equal. f_equal. subst k. destruct msb; lia.
Qed.

Lemma bd_complete_l : forall T c w bits msb x row,
  wf_comp c w -> (0 < bits)%Z -> C c 0 = 0%Z ->
  outside c (bb_rows w bits true) row x ->
  consts_in T (bd_circuit c bits x row) ->
  (fval (vval T x) < 2 ^ bits)%Z ->
  let T' := bd_assign c bits x row T in
  sat L T' (bd_circuit c bits x row) /\ frame c (bb_rows w bits true) row T T' /\
  forall i, (0 <= i < bits)%Z ->
    vval T' (bd_result c bits msb row i) =
    ofZ (Z.b2z (Z.testbit (fval (vval T x)) (if msb then bits - 1 - i else i)))%Z.
Proof.
  intros T c w bits msb x row Hwf Hb HC HO HK Hx T'.
  pose proof Hwf as [_ [Hw Hw0]]. assert (Hw1 : (1 <= w)%Z) by lia.
  assert (FR : frame c (bb_rows w bits true) row T T') by (apply bb_assign_frame; assumption).
  assert (K : T' CConst 0%Z row = f0).
  { rewrite FR; [|intros [A _]; discriminate]. eapply bb_const_in; eauto. }
  destruct (bd_core T' c w bits msb x row (fval (vval T x)) Hwf Hb HC) as [A1 A2]; auto.
  - apply bb_assign_filled; assumption.
  - rewrite (vval_frame P c _ _ _ _ _ FR HO). symmetry. apply ofZ_fval.
  - pose proof (fval_range P (vval T x)). lia.
Qed.

Lemma nzbit_bit : forall v : F, v = f0 \/ v = f1 -> ofZ (nzbit v) = v.
Proof.
  intros v [-> | ->]; unfold nzbit.
  - rewrite feqb_refl. reflexivity.
  - destruct (feqb f1 f0) eqn:E; [|reflexivity]. fdec E. exfalso. apply (f1_neq_f0 P). exact E.
Qed.

Lemma bc_core : forall T' c w bits cb msb xs row b,
  wf_comp c w -> (0 < bits)%Z -> C c 0 = 0%Z ->
  bb_filled w bits cb b c row T' -> T' CConst 0%Z row = f0 ->
  (forall i, (0 <= i < bits)%Z -> (b i = 0 \/ b i = 1)%Z) ->
  (forall i, (0 <= i < bits)%Z -> vval T' (xs (bc_index bits msb i)) = ofZ (b i)) ->
  sat L T' (bc_circuit c bits cb msb xs row) /\
  vval T' (bc_result c bits cb row) = ofZ (horner 2 b bits).
Proof.
  intros T' c w bits cb msb xs row b Hwf Hb HC HF K Hbit Hx.
  pose proof Hwf as [_ [Hw Hw0]]. assert (Hw1 : (1 <= w)%Z) by lia.
  split.
  - destruct (bb_assign_core w bits cb b Hw1 Hb c row T' Hwf HF) as [A1 [A2 A3]]; auto.
    unfold bc_circuit. cbv zeta. rewrite !sat_app.
    split; [exact A1|split; [exact A2|split; [|exact A3]]].
    apply sat_map. intros i Hi. apply in_zseq in Hi. cbn [holds]. rewrite Hw.
    rewrite Hx by exact Hi.
    change (ofZ (b i) = bbv T' c row (bb_bitpos w (bb_padding w bits cb + i))).
    rewrite (bb_assign_bit w bits cb _ Hw1 Hb c row T' HF) by lia. reflexivity.
  - rewrite (bb_assign_result w bits cb _ Hw1 Hb c row T' Hwf HF).
    apply fhorner_ofZ. reflexivity.
Qed.

Lemma bc_complete_l : forall T c w bits cb msb xs row,
  wf_comp c w -> (0 < bits)%Z -> C c 0 = 0%Z ->
  (forall i, (0 <= i < bits)%Z -> outside c (bb_rows w bits cb) row (xs i)) ->
  consts_in T (bc_circuit c bits cb msb xs row) ->
  (forall i, (0 <= i < bits)%Z -> vval T (xs i) = f0 \/ vval T (xs i) = f1) ->
  let T' := bc_assign c bits cb msb xs row T in
  sat L T' (bc_circuit c bits cb msb xs row) /\ frame c (bb_rows w bits cb) row T T' /\
  vval T' (bc_result c bits cb row) = fhorner (ofZ 2) (fun i => vval T (xs (bc_index bits msb i))) bits.
Proof.
  intros T c w bits cb msb xs row Hwf Hb HC HO HK Hx T'.
  pose proof Hwf as [_ [Hw Hw0]]. assert (Hw1 : (1 <= w)%Z) by lia.
  set (b := fun i => nzbit (vval T (xs (bc_index bits msb i)))).
  assert (IR : forall i, (0 <= i < bits)%Z -> (0 <= bc_index bits msb i < bits)%Z)
    by (intros i Hi; unfold bc_index; destruct msb; lia).
  assert (FR : frame c (bb_rows w bits cb) row T T') by (apply bb_assign_frame; assumption).
  assert (K : T' CConst 0%Z row = f0).
  { rewrite FR; [|intros [A _]; discriminate]. eapply bb_const_in; eauto. }
  destruct (bc_core T' c w bits cb msb xs row b Hwf Hb HC) as [A1 A2]; auto.
  - apply bb_assign_filled; assumption.
  - intros i _. subst b. cbv beta. unfold nzbit. destruct (feqb _ _); auto.
  - intros i Hi. rewrite (vval_frame P c _ _ _ _ _ FR (HO _ (IR i Hi))).
    symmetry. apply nzbit_bit. apply Hx. apply IR. exact Hi.
  - split; [exact A1|split; [exact FR|]]. rewrite A2. rewrite <- (fhorner_ofZ P 2 b (fun i => ofZ (b i))) by reflexivity.
    apply fhorner_ext. intros i Hi. apply nzbit_bit. apply Hx. apply IR. exact Hi.
Qed.

(** ** Empty assignments *)

Lemma bd_empty_l : forall T c w bits msb x row,
  wf_comp c w -> (9 <= w)%Z -> (0 < bits)%Z ->
  let T' := bd_empty c bits msb x row T in
  frame c (bits / 9 + (if bits mod 9 =? 0 then 0 else 1))%Z row T T' /\
  forall i, (0 <= i < bits)%Z ->
    vval T' (bd_result_skip c row i) =
    ofZ (Z.b2z (Z.testbit (fval (vval T x)) (if msb then bits - 1 - i else i)))%Z.
Proof.
  intros T c w bits msb x row Hwf Hw9 Hb T'. unfold T', bd_empty. split.
  - apply (wsets_frame P c w); auto. intros col r v H. apply in_map_iff in H.
    destruct H as [i [E Hi]]. apply in_zseq in Hi. injection E as <- <- <-.
    split; [eexists; reflexivity|].
    pose proof (Z.div_mod bits 9 ltac:(lia)). pose proof (Z.mod_pos_bound bits 9 ltac:(lia)).
    assert (0 <= i / 9)%Z by (apply Z.div_pos; lia).
    split; [lia|].
    destruct (bits mod 9 =? 0)%Z eqn:E; [apply Z.eqb_eq in E|apply Z.eqb_neq in E].
    + assert (i / 9 < bits / 9)%Z by (apply Z.div_lt_upper_bound; lia). lia.
    + assert (i / 9 < bits / 9 + 1)%Z by (apply Z.div_lt_upper_bound; lia). lia.
  - intros i Hi. unfold bd_result_skip. rewrite vval_wcell. apply wsets_read.
    + apply in_map_iff. exists i. split; [|apply in_zseq; lia]. f_equal. f_equal.
      unfold bd_calculate, msb_bit. f_equal. f_equal. destruct msb; lia.
    + intros v' H. apply in_map_iff in H. destruct H as [j [E Hj]]. apply in_zseq in Hj.
      apply pair_equal_spec in E. destruct E as [E <-]. apply pair_equal_spec in E. destruct E as [E1 E2].
      apply (W_inj c w) in E1; [|assumption| |];
        [|pose proof (Z.mod_pos_bound j 9 ltac:(lia)); lia|pose proof (Z.mod_pos_bound i 9 ltac:(lia)); lia].
      assert (j = i).
      { rewrite (Z.div_mod j 9), (Z.div_mod i 9) by lia. rewrite E1. replace (j / 9)%Z with (i / 9)%Z by lia. reflexivity. }
      subst j. f_equal. unfold bd_calculate, msb_bit. f_equal. f_equal. destruct msb; lia.
Qed.

Lemma bc_empty_l : forall T c w bits msb xs row,
  wf_comp c w ->
  (forall i, (0 <= i < bits)%Z -> vval T (xs i) = f0 \/ vval T (xs i) = f1) ->
  let T' := bc_empty c bits msb xs row T in
  frame c 1 row T T' /\
  vval T' (bc_result_skip c row) = fhorner (ofZ 2) (fun i => vval T (xs (bc_index bits msb i))) bits.
Proof.
  intros T c w bits msb xs row Hwf Hx T'. unfold T', bc_empty, bc_result_skip. split.
  - eapply frame_wset; eauto; [lia|apply frame_refl].
  - rewrite vval_wcell, wset_same. apply fhorner_ext. intros i Hi. apply nzbit_bit. apply Hx.
    unfold bc_index; destruct msb; lia.
Qed.

(** ** Shifts *)

(** The number composed from the shifted bits. *)
Definition shifted (bits shift : Z) (left : bool) (x : Z) : Z :=
  if left then ((x * 2 ^ shift) mod 2 ^ bits)%Z else (x / 2 ^ shift)%Z.

Definition bs_digit (bits shift : Z) (left : bool) (x i : Z) : Z :=
  if left then if (i <? bits - shift)%Z then msb_bit bits x (shift + i) else 0%Z
  else msb_bit bits x i.

Lemma bs_digits_value : forall bits shift left x, (0 < bits)%Z -> (0 <= shift <= bits)%Z -> (0 <= x < 2 ^ bits)%Z ->
  horner 2 (bs_digit bits shift left x) (bs_cbits bits shift left) = shifted bits shift left x.
Proof.
  intros bits shift left x Hb Hs Hx. unfold bs_digit, bs_cbits, shifted.
  assert (P1 : (0 < 2 ^ shift)%Z) by (apply Z.pow_pos_nonneg; lia).
  assert (P2 : (0 < 2 ^ (bits - shift))%Z) by (apply Z.pow_pos_nonneg; lia).
  assert (PB : (2 ^ bits = 2 ^ (bits - shift) * 2 ^ shift)%Z) by (rewrite <- Z.pow_add_r by lia; f_equal; lia).
  destruct left.
  - transitivity (horner 2 (fun i => if (i <? bits - shift)%Z then msb_bit bits x (shift + i) else 0%Z) ((bits - shift) + shift)); [f_equal; lia|]. rewrite horner_split by lia.
    rewrite (horner_zero 2 _ shift).
    + rewrite (horner_ext 2 _ (msb_bit (bits - shift) x) (bits - shift)).
      * rewrite horner_bits by lia. rewrite Z.add_0_r. rewrite PB.
        rewrite Z.mul_mod_distr_r by lia. reflexivity.
      * intros k Hk. destruct (k <? bits - shift)%Z eqn:E; [|apply Z.ltb_ge in E; lia].
        unfold msb_bit. f_equal. f_equal. lia.
    + intros k Hk. destruct (bits - shift + k <? bits - shift)%Z eqn:E; [apply Z.ltb_lt in E; lia|reflexivity].
  - rewrite (horner_ext 2 _ (msb_bit (bits - shift) (x / 2 ^ shift)) (bits - shift)).
    + rewrite horner_bits by lia. apply Z.mod_small. split; [apply Z.div_pos; lia|].
      apply Z.div_lt_upper_bound; [lia|]. rewrite Z.mul_comm, <- PB. lia.
    + intros k Hk. unfold msb_bit. rewrite <- Z.shiftr_div_pow2 by lia.
      rewrite Z.shiftr_spec by lia. f_equal. f_equal. lia.
Qed.

Lemma shifted_range : forall bits shift left x, (0 < bits)%Z -> (0 <= shift <= bits)%Z -> (0 <= x < 2 ^ bits)%Z ->
  (0 <= shifted bits shift left x < 2 ^ bits)%Z.
Proof.
  intros bits shift left x Hb Hs Hx. unfold shifted.
  assert (P1 : (0 < 2 ^ shift)%Z) by (apply Z.pow_pos_nonneg; lia).
  destruct left.
  - apply Z.mod_pos_bound. lia.
  - split; [apply Z.div_pos; lia|]. apply Z.le_lt_trans with x; [|lia]. apply Z.div_le_upper_bound; nia.
Qed.

Lemma bs_sound_l : forall T c w bits shift left x row,
  wamount c = w -> (1 <= w)%Z -> (0 < bits < modulus_bits P)%Z -> C c 0 = 0%Z ->
  (0 <= shift <= bits)%Z -> (left = false -> (shift < bits)%Z) ->
  sat L T (bs_circuit c bits shift left x row) ->
  (fval (vval T x) < 2 ^ bits)%Z /\
  fval (vval T (bs_result c bits shift left row)) = shifted bits shift left (fval (vval T x)).
Proof.
  intros T c w bits shift left x row Hw Hw1 Hb HC Hs Hs2 H.
  unfold bs_circuit in H. apply sat_app in H. destruct H as [HD HB].
  destruct (bd_sound_l T c w bits true x row Hw Hw1 Hb HC HD) as [X1 X2].
  set (xv := fval (vval T x)) in *.
  assert (Hxv : (0 <= xv < 2 ^ bits)%Z) by (pose proof (fval_range P (vval T x)); subst xv; lia).
  split; [exact X1|].
  assert (Hcb : (0 < bs_cbits bits shift left)%Z) by (unfold bs_cbits; destruct left; [lia|specialize (Hs2 eq_refl); lia]).
  assert (K : T CConst 0%Z row = f0).
  { unfold bd_circuit in HD. apply sat_app in HD. destruct HD as [HD _]. unfold bb_circuit in HD.
    rewrite !sat_cons in HD. destruct HD as [_ [K _]]. cbn in K. rewrite HC in K. exact K. }
  destruct (bc_sound_l _ _ _ _ _ _ _ _ Hw Hw1 Hcb HC HB) as [R _].
  unfold bs_result. rewrite Hw in *. rewrite R.
  rewrite (fhorner_ofZ P 2 (bs_digit bits shift left xv)).
  - rewrite bs_digits_value by lia. apply fval_ofZ_small.
    pose proof (shifted_range bits shift left xv). pose proof (modulus_bits_le bits). lia.
  - intros k Hk. cbn [bc_index]. unfold bs_inputs, bs_digit.
    assert (E : forall i, (0 <= i < bits)%Z -> vval T (bd_result c bits true row i) = ofZ (msb_bit bits xv i)).
    { intros i Hi. rewrite <- (ofZ_fval P (vval T (bd_result c bits true row i))). rewrite X2 by exact Hi. reflexivity. }
    unfold bs_cbits in Hk. destruct left.
    + destruct (k <? bits - shift)%Z eqn:E2; [apply Z.ltb_lt in E2; apply E; lia|].
      rewrite vval_ccell. exact K.
    + apply E. lia.
Qed.

Lemma bd_result_outside : forall c w bits msb row i n, wamount c = w -> (1 <= w)%Z -> (0 < bits)%Z ->
  (0 <= i < bits)%Z -> outside c n (row + bb_rows w bits true) (bd_result c bits msb row i).
Proof.
  intros c w bits msb row i n Hw Hw1 Hb Hi [_ [_ R]].
  unfold bd_result, bb_cell in R. cbn [wcell vrot] in R. rewrite Hw in R.
  destruct (bb_total w bits true Hw1 Hb) as [Tt Tp]. cbn [Z.b2z] in Tp.
  match type of R with context [bb_bitpos w ?k] =>
    pose proof (bb_bitpos_bound w bits true Hw1 Hb k ltac:(destruct msb; lia)) as B end.
  rewrite bb_rows_gates in R by assumption.
  match type of R with context [(bb_bitpos w ?k / w)%Z] =>
    assert (bb_bitpos w k / w < 3 * bb_gates w bits true)%Z by (apply Z.div_lt_upper_bound; nia) end.
  lia.
Qed.

Lemma bs_complete_l : forall T c w bits shift left x row,
  wf_comp c w -> (0 < bits)%Z -> C c 0 = 0%Z ->
  (0 <= shift <= bits)%Z -> (left = false -> (shift < bits)%Z) ->
  outside c (bs_rows w bits shift left) row x ->
  consts_in T (bs_circuit c bits shift left x row) ->
  (fval (vval T x) < 2 ^ bits)%Z ->
  let T' := bs_assign c bits shift left x row T in
  sat L T' (bs_circuit c bits shift left x row) /\ frame c (bs_rows w bits shift left) row T T' /\
  vval T' (bs_result c bits shift left row) = ofZ (shifted bits shift left (fval (vval T x))).
Proof.
  intros T c w bits shift left x row Hwf Hb HC Hs Hs2 HO HK Hx T'.
  pose proof Hwf as [_ [Hw Hw0]]. assert (Hw1 : (1 <= w)%Z) by lia.
  assert (Hcb : (0 < bs_cbits bits shift left)%Z) by (unfold bs_cbits; destruct left; [lia|specialize (Hs2 eq_refl); lia]).
  assert (R1 : (0 < bb_rows w bits true)%Z).
  { rewrite bb_rows_gates by lia. destruct (bb_sum_bits_gates w bits true Hw1 Hb). lia. }
  assert (R2 : (0 < bb_rows w (bs_cbits bits shift left) false)%Z).
  { rewrite bb_rows_gates by lia. destruct (bb_sum_bits_gates w (bs_cbits bits shift left) false Hw1 Hcb). lia. }
  set (xv := fval (vval T x)) in *.
  assert (Hxv : (0 <= xv < 2 ^ bits)%Z) by (pose proof (fval_range P (vval T x)); subst xv; lia).
  set (T1 := bd_assign c bits x row T).
  assert (HO1 : outside c (bb_rows w bits true) row x) by (eapply outside_sub; [| |exact HO]; unfold bs_rows; lia).
  assert (FR1 : frame c (bb_rows w bits true) row T T1) by (apply bb_assign_frame; assumption).
  assert (HK1 : consts_in T (bd_circuit c bits x row)) by (intros a e v Hin; apply HK; apply in_or_app; left; exact Hin).
  assert (K0 : T CConst 0%Z row = f0) by (eapply bb_const_in; eauto).
  set (row2 := (row + bb_rows w bits true)%Z).
  set (T2 := bc_assign c (bs_cbits bits shift left) false true (bs_inputs c bits shift left row) row2 T1).
  assert (ET : T' = T2) by (unfold T', bs_assign; rewrite Hw; reflexivity). rewrite ET.
  assert (FR2 : frame c (bb_rows w (bs_cbits bits shift left) false) row2 T1 T2) by (apply bb_assign_frame; assumption).
  assert (FR : frame c (bs_rows w bits shift left) row T T2).
  { eapply frame_trans; [eapply frame_sub; [| |exact FR1]; unfold bs_rows; lia|].
    eapply frame_sub; [| |exact FR2]; unfold bs_rows, row2; lia. }
  assert (KC : forall r, T2 CConst 0%Z r = T CConst 0%Z r) by (intros r; apply FR; intros [A _]; discriminate).
  destruct (bd_core T1 c w bits true x row xv Hwf Hb HC) as [_ D2]; auto.
  { apply bb_assign_filled; assumption. }
  { rewrite FR1; [exact K0|intros [A _]; discriminate]. }
  { rewrite (vval_frame P c _ _ _ _ _ FR1 HO1). symmetry. apply ofZ_fval. }
  destruct (bd_core T2 c w bits true x row xv Hwf Hb HC) as [S1 D3]; auto.
  { eapply bb_filled_frame; [exact Hw1|exact Hb|exact Hwf|exact FR2|unfold row2; lia|].
    apply bb_assign_filled; assumption. }
  { rewrite KC. exact K0. }
  { rewrite (vval_frame P c _ _ _ _ _ FR HO). symmetry. apply ofZ_fval. }
  assert (INP : forall (Tx : table) i, (forall i, (0 <= i < bits)%Z ->
      vval Tx (bd_result c bits true row i) = ofZ (Z.b2z (Z.testbit xv (bits - 1 - i)))%Z) ->
      Tx CConst 0%Z row = f0 -> (0 <= i < bs_cbits bits shift left)%Z ->
      vval Tx (bs_inputs c bits shift left row i) = ofZ (bs_digit bits shift left xv i)).
  { intros Tx i HT Hc Hi. unfold bs_inputs, bs_digit, bs_cbits in Hi |- *. destruct left.
    - destruct (i <? bits - shift)%Z eqn:E2; [apply Z.ltb_lt in E2; apply HT; lia|].
      rewrite vval_ccell. exact Hc.
    - apply HT. lia. }
  assert (DB : forall i, (bs_digit bits shift left xv i = 0 \/ bs_digit bits shift left xv i = 1)%Z).
  { intros i. unfold bs_digit, msb_bit. destruct left; [destruct (i <? bits - shift)%Z; [|auto]|];
      match goal with |- context [Z.b2z ?q] => destruct q; cbn; auto end. }
  assert (K2 : T2 CConst 0%Z row2 = f0).
  { rewrite KC. apply HK. unfold bs_circuit. apply in_or_app. right. rewrite Hw. fold row2.
    unfold bc_circuit. apply in_or_app. left. right. left. rewrite HC. reflexivity. }
  set (b2 := fun i => nzbit (vval T1 (bs_inputs c bits shift left row i))).
  assert (EB : forall i, (0 <= i < bs_cbits bits shift left)%Z -> b2 i = bs_digit bits shift left xv i).
  { intros i Hi. unfold b2. rewrite (INP T1); [|exact D2|rewrite FR1; [exact K0|intros [A _]; discriminate]|exact Hi].
    destruct (DB i) as [-> | ->]; unfold nzbit.
    - rewrite feqb_refl. reflexivity.
    - destruct (feqb (ofZ 1) f0) eqn:E; [|reflexivity]. fdec E. exfalso. apply (f1_neq_f0 P). exact E. }
  destruct (bc_core T2 c w (bs_cbits bits shift left) false true (bs_inputs c bits shift left row) row2
             b2 Hwf Hcb HC) as [S2 V2]; auto.
  { exact (bb_assign_filled w (bs_cbits bits shift left) false b2 Hw1 Hcb c row2 T1 Hwf). }
  { intros i Hi. rewrite EB by exact Hi. apply DB. }
  { intros i Hi. cbn [bc_index]. rewrite EB by exact Hi. apply INP; auto. rewrite KC. exact K0. }
  split; [|split; [exact FR|]].
  - unfold bs_circuit. apply sat_app. split; [exact S1|]. rewrite Hw. exact S2.
  - unfold bs_result. rewrite Hw. fold row2. rewrite V2. rewrite (horner_ext 2 _ (bs_digit bits shift left xv)) by exact EB.
    rewrite bs_digits_value by lia. reflexivity.
Qed.

(** ** The composition result as a weighted sum *)
Definition wsum (bits : Z) (msb : bool) (d : Z -> F) : F :=
  fold_left (fun a i => a + d i * ofZ (2 ^ (if msb then bits - 1 - i else i))%Z) (zseq 0 bits) f0.

Lemma fold_scale : forall (l : list Z) (k a : F) (g h : Z -> F),
  (forall i, In i l -> h i = k * g i) ->
  fold_left (fun a i => a + h i) l (k * a) = k * fold_left (fun a i => a + g i) l a.
Proof.
  induction l as [|i l IH]; intros k a g h H; [reflexivity|].
  cbn. rewrite (H i) by (left; reflexivity). rewrite <- IH with (h := h) by (intros; apply H; right; assumption).
  f_equal. ring.
Qed.

Lemma fold_acc : forall (l : list Z) (a : F) (g : Z -> F),
  fold_left (fun a i => a + g i) l a = a + fold_left (fun a i => a + g i) l f0.
Proof.
  induction l as [|i l IH]; intros a g; [cbn; ring|]. cbn. rewrite IH, (IH (f0 + g i)). ring.
Qed.

Lemma fold_ext : forall (l : list Z) (a : F) (g h : Z -> F), (forall i, In i l -> g i = h i) ->
  fold_left (fun a i => a + g i) l a = fold_left (fun a i => a + h i) l a.
Proof.
  induction l as [|i l IH]; intros a g h H; [reflexivity|]. cbn.
  rewrite (H i) by (left; reflexivity). apply IH. intros; apply H; right; assumption.
Qed.

Lemma zseq_shift0 : forall n, (0 <= n)%Z -> zseq 0 (n + 1) = 0%Z :: map (fun i => (i + 1)%Z) (zseq 0 n).
Proof.
  intros n Hn. rewrite zseq_cons by lia. f_equal.
  pattern n. apply natlike_ind; [reflexivity| |exact Hn].
  intros k Hk IH. unfold Z.succ. rewrite zseq_snoc, IH by lia.
  rewrite (zseq_snoc 0 k), map_app by lia. reflexivity.
Qed.

Lemma wsum_msb : forall d bits, (0 <= bits)%Z -> wsum bits true d = fhorner (ofZ 2) d bits.
Proof.
  intros d bits Hb. revert d. pattern bits. apply natlike_ind; [| |exact Hb].
  - intros d. rewrite fhorner_0. reflexivity.
  - intros n Hn IH d. unfold Z.succ. rewrite fhorner_S by lia. rewrite <- IH.
    unfold wsum. rewrite zseq_snoc, fold_left_app by lia. cbn [fold_left].
    replace (n + 1 - 1 - n)%Z with 0%Z by lia.
    rewrite (fold_ext _ _ (fun i => d i * ofZ (2 ^ (n + 1 - 1 - i))) (fun i => ofZ 2 * (d i * ofZ (2 ^ (n - 1 - i))))).
    + rewrite <- (fold_scale _ (ofZ 2) f0 (fun i => d i * ofZ (2 ^ (n - 1 - i))) (fun i => ofZ 2 * (d i * ofZ (2 ^ (n - 1 - i))))) by reflexivity.
      replace (ofZ 2 * f0 : F) with (f0 : F) by ring. change (ofZ (2 ^ 0)) with (f1 : F). ring.
    + intros i Hi. apply in_zseq in Hi. replace (n + 1 - 1 - i)%Z with (1 + (n - 1 - i))%Z by lia.
      rewrite Z.pow_add_r, ofZ_mul by lia. change (2 ^ 1)%Z with 2%Z. ring.
Qed.

Lemma wsum_lsb : forall d bits, (0 <= bits)%Z ->
  wsum bits false d = fhorner (ofZ 2) (fun i => d (bits - i - 1)%Z) bits.
Proof.
  intros d bits Hb. revert d. pattern bits. apply natlike_ind; [| |exact Hb].
  - intros d. rewrite fhorner_0. reflexivity.
  - intros n Hn IH d. unfold Z.succ. rewrite fhorner_S by lia.
    rewrite (fhorner_ext P _ _ (fun i => d ((n - i - 1) + 1)%Z) n) by (intros; f_equal; lia).
    rewrite <- (IH (fun i => d (i + 1)%Z)).
    unfold wsum. rewrite zseq_shift0 by lia. cbn [fold_left].
    rewrite fold_acc. replace (n + 1 - n - 1)%Z with 0%Z by lia. change (2 ^ 0)%Z with 1%Z.
    assert (E : forall (l : list Z), fold_left (fun a i => a + d i * ofZ (2 ^ i)) (map (fun i => (i + 1)%Z) l) f0 =
       fold_left (fun a i => a + d (i + 1)%Z * ofZ (2 ^ (i + 1))) l f0).
    { intros l. generalize (f0 : F). induction l; intros a0; [reflexivity|]. cbn. apply IHl. }
    rewrite E.
    rewrite (fold_ext _ _ _ (fun i => ofZ 2 * (d (i + 1)%Z * ofZ (2 ^ i)))).
    + rewrite <- (fold_scale _ (ofZ 2) f0 (fun i => d (i + 1)%Z * ofZ (2 ^ i)) (fun i => ofZ 2 * (d (i + 1)%Z * ofZ (2 ^ i)))) by reflexivity.
      replace (ofZ 2 * f0 : F) with (f0 : F) by ring. change (ofZ 1) with (f1 : F). ring.
    + intros i Hi. apply in_zseq in Hi. rewrite Z.pow_add_r, ofZ_mul by lia. change (2 ^ 1)%Z with 2%Z. ring.
Qed.

Lemma wsum_fhorner : forall bits msb d, (0 <= bits)%Z ->
  fhorner (ofZ 2) (fun i => d (bc_index bits msb i)) bits = wsum bits msb d.
Proof. intros bits [] d Hb; cbn [bc_index]; [rewrite wsum_msb|rewrite wsum_lsb]; auto. Qed.

Lemma bc_sound_w : forall T c w bits cb msb xs row,
  wamount c = w -> (1 <= w)%Z -> (0 < bits)%Z -> C c 0 = 0%Z ->
  sat L T (bc_circuit c bits cb msb xs row) ->
  vval T (bc_result c bits cb row) = wsum bits msb (fun i => vval T (xs i)) /\
  (cb = true -> forall i, (0 <= i < bits)%Z -> vval T (xs i) = f0 \/ vval T (xs i) = f1).
Proof.
  intros T c w bits cb msb xs row H1 H2 H3 H4 H5. rewrite <- wsum_fhorner by lia.
  eapply bc_sound_l; eassumption.
Qed.

Lemma bc_complete_w : forall T c w bits cb msb xs row,
  wf_comp c w -> (0 < bits)%Z -> C c 0 = 0%Z ->
  (forall i, (0 <= i < bits)%Z -> outside c (bb_rows w bits cb) row (xs i)) ->
  consts_in T (bc_circuit c bits cb msb xs row) ->
  (forall i, (0 <= i < bits)%Z -> vval T (xs i) = f0 \/ vval T (xs i) = f1) ->
  let T' := bc_assign c bits cb msb xs row T in
  sat L T' (bc_circuit c bits cb msb xs row) /\ frame c (bb_rows w bits cb) row T T' /\
  vval T' (bc_result c bits cb row) = wsum bits msb (fun i => vval T (xs i)).
Proof.
  intros T c w bits cb msb xs row H1 H2 H3 H4 H5 H6. rewrite <- wsum_fhorner by lia.
  apply bc_complete_l; assumption.
Qed.

Lemma bc_empty_w : forall T c w bits msb xs row,
  wf_comp c w -> (0 < bits)%Z ->
  (forall i, (0 <= i < bits)%Z -> vval T (xs i) = f0 \/ vval T (xs i) = f1) ->
  let T' := bc_empty c bits msb xs row T in
  frame c 1 row T T' /\
  vval T' (bc_result_skip c row) = wsum bits msb (fun i => vval T (xs i)).
Proof.
  intros T c w bits msb xs row H1 H2 H3. rewrite <- wsum_fhorner by lia.
  eapply bc_empty_l; eassumption.
Qed.

End Proofs.
