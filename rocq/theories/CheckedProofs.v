(** Soundness and completeness of comparison_checked. *)
From Coq Require Import ZArith List Lia Bool Field.
From Verif Require Import Base Field Plonk PlonkFacts Bits RangeModel RangeProofs BitModel CompareModel CompareProofs.
Import ListNotations.
Open Scope Z_scope.

(** ** Zero-padded pairs of bits *)

Lemma pbit_range : forall pb bits x i, 0 <= pbit pb bits x i < 2.
Proof. intros. unfold pbit. destruct (i <? pb); [lia|]. unfold msb_bit. apply b2z_range. Qed.

Lemma pchunk_range : forall pb bits x k, 0 <= pchunk pb bits x k < 4.
Proof.
  intros. unfold pchunk. pose proof (pbit_range pb bits x (2 * k)).
  pose proof (pbit_range pb bits x (2 * k + 1)). lia.
Qed.

Lemma pchunk_zero : forall pb bits x k, 2 * k + 1 < pb -> pchunk pb bits x k = 0.
Proof.
  intros pb bits x k H. unfold pchunk, pbit.
  destruct (2 * k <? pb) eqn:E1; [|apply Z.ltb_ge in E1; lia].
  destruct (2 * k + 1 <? pb) eqn:E2; [|apply Z.ltb_ge in E2; lia]. reflexivity.
Qed.

Lemma pchunk_first : forall pb bits x k, 2 * k < pb -> 0 <= pchunk pb bits x k < 2.
Proof.
  intros pb bits x k H. unfold pchunk.
  assert (E : pbit pb bits x (2 * k) = 0).
  { unfold pbit. destruct (2 * k <? pb) eqn:E1; [reflexivity|apply Z.ltb_ge in E1; lia]. }
  rewrite E. pose proof (pbit_range pb bits x (2 * k + 1)). lia.
Qed.

Lemma pchunk_value : forall pb bits x n, 0 <= pb -> 0 <= bits -> 2 * n = pb + bits ->
  horner 4 (pchunk pb bits x) n = x mod 2 ^ bits.
Proof.
  intros pb bits x n Hp Hb E. unfold pchunk. rewrite (horner_pairs (pbit pb bits x)) by lia.
  rewrite E, horner_split by lia. rewrite horner_zero.
  - rewrite Z.mul_0_l, Z.add_0_l, <- horner_bits by lia. apply horner_ext. intros k Hk. unfold pbit.
    destruct (pb + k <? pb) eqn:El; [apply Z.ltb_lt in El; lia|]. f_equal. lia.
  - intros k Hk. unfold pbit. destruct (k <? pb) eqn:El; [reflexivity|]. apply Z.ltb_ge in El. lia.
Qed.

(** ** Layout arithmetic *)

Definition cc_groups (w bits : Z) : Z := (cc_chunks bits + w - 2) / (w - 1).

Lemma cc_layout : forall w bits, 3 <= w -> 0 < bits ->
  1 <= cc_groups w bits /\ cc_padded w bits = cc_groups w bits * (w - 1) /\
  0 <= cc_padding w bits < w - 1 /\
  cc_padded w bits = cc_padding w bits + (bits + 1) / 2 /\
  cc_padding_bits w bits = 2 * cc_padding w bits + bits mod 2 /\
  (forall m, cc_rows w bits m = 1 + 2 * cc_groups w bits + cmp_bonus w m) /\
  (forall m, 0 <= cmp_bonus w m <= 1).
Proof.
  intros w bits Hw Hb. unfold cc_padding, cc_padding_bits, cc_rows, cc_padded. fold (cc_groups w bits).
  assert (HG : cc_groups w bits * (w - 1) - cc_chunks bits < w - 1 /\
    cc_chunks bits <= cc_groups w bits * (w - 1) /\ 1 <= cc_chunks bits /\ cc_chunks bits = (bits + 1) / 2).
  { unfold cc_groups. set (n := cc_chunks bits).
    pose proof (Z.div_mod (n + w - 2) (w - 1) ltac:(lia)).
    pose proof (Z.mod_pos_bound (n + w - 2) (w - 1) ltac:(lia)).
    assert (E : n = (bits + 1) / 2) by (unfold n, cc_chunks; f_equal; lia).
    pose proof (Z.div_mod (bits + 1) 2 ltac:(lia)). pose proof (Z.mod_pos_bound (bits + 1) 2 ltac:(lia)).
    split; [nia|]. split; [nia|]. split; [|exact E]. rewrite E in *. lia. }
  destruct HG as [H1 [H2 [H3 H4]]]. set (g := cc_groups w bits) in *.
  pose proof (Z.div_mod (bits + 1) 2 ltac:(lia)). pose proof (Z.mod_pos_bound (bits + 1) 2 ltac:(lia)).
  pose proof (Z.div_mod bits 2 ltac:(lia)). pose proof (Z.mod_pos_bound bits 2 ltac:(lia)).
  assert (1 <= g) by nia.
  split; [assumption|]. split; [reflexivity|]. split; [lia|]. split; [lia|].
  split; [lia|]. split.
  - intros m. rewrite Z.mul_assoc, Z.div_mul by lia. reflexivity.
  - intros m. unfold cmp_bonus. destruct (_ && _); lia.
Qed.

Lemma step_rows_2 : forall row G, 1 <= G ->
  step_rows (row + 1) (row + 2 * G - 1) 2 = map (fun g => row + 1 + 2 * g) (zseq 0 G).
Proof.
  intros row G HG. unfold step_rows. destruct (row + 1 <=? row + 2 * G - 1) eqn:E; [|apply Z.leb_gt in E; lia].
  replace (row + 2 * G - 1 - (row + 1)) with ((G - 1) * 2) by ring. rewrite Z.div_mul by lia.
  replace (G - 1 + 1) with G by ring. reflexivity.
Qed.

Ltac cells := lazymatch goal with
  | |- ?T CWit (W ?c ?a) ?r = ?T CWit (W ?c ?b) ?s =>
      apply (f_equal2 (fun i j => T CWit (W c i) j)); lia
  end.

Ltac inj3 E := apply pair_equal_spec in E; destruct E as [E <-];
  apply pair_equal_spec in E; destruct E as [<- <-].

Ltac zcase := match goal with
  | |- context [(?a =? ?b)%Z] => let E := fresh "E" in
      destruct (a =? b)%Z eqn:E; [apply Z.eqb_eq in E|apply Z.eqb_neq in E]; try lia
  end.

Section Proofs.
Variable P : params.
Notation F := (F P).
Notation table := (table P).
Variable L : lenv P.
Implicit Types T : table.
Add Field Ff : (F_field P) (morphism (F_morph P), constants [F_const], power_tac (F_power P) [F_pow_tac]).
Local Open Scope F_scope.

(** The cells holding chunk [k] of x and of the difference. *)
Definition ccx T (c : comp) (w row k : Z) : F :=
  T CWit (W c (k mod (w - 1) + 1)) (row + 2 * (k / (w - 1)) + 1)%Z.
Definition ccd T (c : comp) (w row k : Z) : F :=
  if (k mod (w - 1) <? w - 2)%Z then T CWit (W c (k mod (w - 1) + 2)) (row + 2 * (k / (w - 1)))%Z
  else T CWit (W c 0) (row + 2 * (k / (w - 1)) + 1)%Z.

Definition digit (n : Z) (v : F) : Prop := exists k, (0 <= k < n)%Z /\ v = ofZ k.

Lemma group_index : forall n i j, (0 < n)%Z -> (0 <= j < n)%Z ->
  ((i * n + j) mod n = j)%Z /\ ((i * n + j) / n = i)%Z.
Proof.
  intros n i j Hn Hj. split.
  - rewrite Z.add_comm, Z.mod_add by lia. apply Z.mod_small. lia.
  - rewrite Z.div_add_l, Z.div_small by lia. lia.
Qed.

Lemma ccx_ij : forall T c w row i j, (3 <= w)%Z -> (0 <= j < w - 1)%Z ->
  ccx T c w row (i * (w - 1) + j) = T CWit (W c (j + 1)) (row + 2 * i + 1)%Z.
Proof.
  intros T c w row i j Hw Hj. unfold ccx. destruct (group_index (w - 1) i j) as [-> ->]; auto. lia.
Qed.
Lemma ccd_ij : forall T c w row i j, (3 <= w)%Z -> (0 <= j < w - 2)%Z ->
  ccd T c w row (i * (w - 1) + j) = T CWit (W c (j + 2)) (row + 2 * i)%Z.
Proof.
  intros T c w row i j Hw Hj. unfold ccd. destruct (group_index (w - 1) i j) as [-> ->]; [lia|lia|].
  destruct (j <? w - 2)%Z eqn:E; [reflexivity|apply Z.ltb_ge in E; lia].
Qed.
Lemma ccd_last : forall T c w row i, (3 <= w)%Z ->
  ccd T c w row (i * (w - 1) + (w - 2)) = T CWit (W c 0) (row + 2 * i + 1)%Z.
Proof.
  intros T c w row i Hw. unfold ccd. destruct (group_index (w - 1) i (w - 2)) as [-> ->]; [lia|lia|].
  destruct (w - 2 <? w - 2)%Z eqn:E; [apply Z.ltb_lt in E; lia|reflexivity].
Qed.

Lemma fold_sum : forall T row c rot lo hi a0 (b : Z) e0,
  (lo <= hi)%Z -> eval T row e0 = fhorner (ofZ 4) (fun j => T CWit (W c (a0 + j)) (row + rot)%Z) b ->
  (0 <= b)%Z -> (lo = a0 + b)%Z ->
  eval T row (fold_left (fun e i => EBin OAdd (EBin OMul (ecst (ofZ (2 ^ 2))) e) (evar (wv (W c i) rot))) (zseq lo hi) e0) =
  fhorner (ofZ 4) (fun j => T CWit (W c (a0 + j)) (row + rot)%Z) (hi - a0).
Proof.
  intros T row c rot lo hi a0 b e0 Hlh E0 Hb Hlo.
  apply (fold_zseq_inv (expr P)
    (fun i e => eval T row e = fhorner (ofZ 4) (fun j => T CWit (W c (a0 + j)) (row + rot)%Z) (i - a0))).
  - exact Hlh.
  - rewrite E0. f_equal. lia.
  - intros i e Hi IH. rewrite !eval_bin, eval_ecst, eval_evar, gval_wv. cbn [ebop]. rewrite IH.
    replace (i + 1 - a0)%Z with ((i - a0) + 1)%Z by ring. rewrite fhorner_S by lia.
    replace (a0 + (i - a0))%Z with i by ring. reflexivity.
Qed.

Lemma fhorner_1 : forall (b : F) d, fhorner b d 1%Z = d 0%Z.
Proof. intros b d. change 1%Z with (0 + 1)%Z. rewrite fhorner_S, fhorner_0 by lia. ring. Qed.

Lemma cc_sum_x_eval : forall T c w row i, wamount c = w -> (3 <= w)%Z ->
  eval T (row + 2 * i + 1) (cc_sum_x c) =
  fhorner (ofZ 4) (fun j => ccx T c w row (i * (w - 1) + j)) (w - 1)
  + ofZ (2 ^ (2 * (w - 1))) * T CWit (W c 0) (row + 2 * i)%Z - T CWit (W c 0) (row + 2 * (i + 1))%Z.
Proof.
  intros T c w row i Hw H3. unfold cc_sum_x. cbv zeta. rewrite Hw.
  rewrite eval_bin, eval_bin, eval_bin.
  rewrite eval_ecst, !eval_evar, !gval_wv. cbn [ebop].
  rewrite (fold_sum T _ c 0 2 w 1 1) by (try lia; rewrite fhorner_1, eval_evar, gval_wv; reflexivity).
  rewrite (fhorner_ext P (ofZ 4) _ (fun j => ccx T c w row (i * (w - 1) + j))).
  - replace (row + 2 * i + 1 + -1)%Z with (row + 2 * i)%Z by ring.
    replace (row + 2 * i + 1 + 1)%Z with (row + 2 * (i + 1))%Z by ring. reflexivity.
  - intros k Hk. rewrite ccx_ij by lia. cells.
Qed.

Lemma cc_sum_d_eval : forall T c w row i, wamount c = w -> (3 <= w)%Z ->
  eval T (row + 2 * i + 1) (cc_sum_d c) =
  fhorner (ofZ 4) (fun j => ccd T c w row (i * (w - 1) + j)) (w - 1)
  + ofZ (2 ^ (2 * (w - 1))) * T CWit (W c 1) (row + 2 * i)%Z - T CWit (W c 1) (row + 2 * (i + 1))%Z.
Proof.
  intros T c w row i Hw H3. unfold cc_sum_d. cbv zeta. rewrite Hw.
  rewrite eval_bin, eval_bin, eval_bin, eval_bin, eval_bin.
  rewrite !eval_ecst, !eval_evar, !gval_wv. cbn [ebop].
  rewrite (fold_sum T _ c (-1) 3 w 2 1) by (try lia; rewrite fhorner_1, eval_evar, gval_wv; reflexivity).
  assert (E : fhorner (ofZ 4) (fun j => ccd T c w row (i * (w - 1) + j)) (w - 1) =
    ofZ 4 * fhorner (ofZ 4) (fun j => ccd T c w row (i * (w - 1) + j)) (w - 2) + T CWit (W c 0) (row + 2 * i + 1)%Z).
  { rewrite <- (ccd_last T c w row i) by lia. 
    rewrite <- (fhorner_S P (ofZ 4) (fun j => ccd T c w row (i * (w - 1) + j)) (w - 2)) by lia.
    f_equal. ring. }
  rewrite E. clear E.
  rewrite (fhorner_ext P (ofZ 4) _ (fun j => ccd T c w row (i * (w - 1) + j)) (w - 2)).
  - replace (row + 2 * i + 1 + 0)%Z with (row + 2 * i + 1)%Z by ring.
    replace (row + 2 * i + 1 + -1)%Z with (row + 2 * i)%Z by ring.
    replace (row + 2 * i + 1 + 1)%Z with (row + 2 * (i + 1))%Z by ring. reflexivity.
  - intros k Hk. rewrite ccd_ij by lia. cells.
Qed.

Lemma chunk_digit : forall T row v size, (0 <= size)%Z ->
  eval T row (chunk_expr v size) = f0 <-> digit (2 ^ size) (gval T row v).
Proof. intros. rewrite chunk_expr_roots by assumption. reflexivity. Qed.

Definition cc_step T c w row i : Prop :=
  (forall j, (0 <= j < w - 1)%Z -> digit 4 (ccx T c w row (i * (w - 1) + j)) /\ digit 4 (ccd T c w row (i * (w - 1) + j))) /\
  T CWit (W c 0) (row + 2 * (i + 1))%Z =
    fhorner (ofZ 4) (fun j => ccx T c w row (i * (w - 1) + j)) (w - 1)
    + ofZ (2 ^ (2 * (w - 1))) * T CWit (W c 0) (row + 2 * i)%Z /\
  T CWit (W c 1) (row + 2 * (i + 1))%Z =
    fhorner (ofZ 4) (fun j => ccd T c w row (i * (w - 1) + j)) (w - 1)
    + ofZ (2 ^ (2 * (w - 1))) * T CWit (W c 1) (row + 2 * i)%Z.

Lemma cc_gate1_iff : forall T c w row i, wamount c = w -> (3 <= w)%Z ->
  (forall e, In e (cc_gate1 c) -> eval T (row + 2 * i + 1) e = f0) <-> cc_step T c w row i.
Proof.
  intros T c w row i Hw H3. unfold cc_gate1. cbv zeta. rewrite Hw.
  rewrite !all_app, !all_cons, all_nil. rewrite (cc_sum_x_eval T c w), (cc_sum_d_eval T c w) by assumption.
  assert (M : forall lo rot, (forall e, In e (map (fun i => chunk_expr (wv (W c i) rot) 2) (zseq lo w)) ->
     eval T (row + 2 * i + 1) e = f0) <->
     (forall k, (lo <= k < w)%Z -> digit 4 (T CWit (W c k) (row + 2 * i + 1 + rot)%Z))).
  { intros lo rot. split.
    - intros H k Hk. specialize (H (chunk_expr (wv (W c k) rot) 2)).
      apply chunk_digit in H; [exact H|lia|]. apply in_map_iff. exists k. split; [reflexivity|apply in_zseq; lia].
    - intros H e He. apply in_map_iff in He. destruct He as [k [<- Hk]]. apply in_zseq in Hk.
      apply chunk_digit; [lia|]. apply H. lia. }
  rewrite !M. unfold cc_step. rewrite Z.add_0_r.
  replace (row + 2 * i + 1 + -1)%Z with (row + 2 * i)%Z by ring.
  split.
  - intros [A [B [SX [SD _]]]]. apply fsub0 in SX. apply fsub0 in SD.
    split; [|split; symmetry; assumption].
    intros j Hj. rewrite ccx_ij by lia. split; [apply B; lia|].
    destruct (Z.eq_dec j (w - 2)) as [->|N]; [rewrite ccd_last by lia; apply B; lia|].
    rewrite ccd_ij by lia. apply A. lia.
  - intros [A [SX SD]]. split; [|split; [|split; [|split; [|exact I]]]].
    + intros k Hk. destruct (A (k - 2)%Z ltac:(lia)) as [_ H].
      rewrite ccd_ij in H by lia. replace (k - 2 + 2)%Z with k in H by ring. exact H.
    + intros k Hk. destruct (Z.eq_dec k 0) as [->|N].
      * destruct (A (w - 2)%Z ltac:(lia)) as [_ H]. rewrite ccd_last in H by lia. exact H.
      * destruct (A (k - 1)%Z ltac:(lia)) as [H _]. rewrite ccx_ij in H by lia.
        replace (k - 1 + 1)%Z with k in H by ring. exact H.
    + rewrite SX. ring.
    + rewrite SD. ring.
Qed.

(** The running sum, unrolled. *)
Lemma sums_unroll : forall (S D : Z -> F) (d : Z -> Z) n R, (1 <= n)%Z ->
  S 0%Z = f0 ->
  (forall i, (0 <= i < R)%Z -> S (i + 1)%Z = fhorner (ofZ 4) (fun j => D (i * n + j)%Z) n + ofZ (2 ^ (2 * n)) * S i) ->
  (forall k, (0 <= k < R * n)%Z -> D k = ofZ (d k)) ->
  forall i, (0 <= i <= R)%Z -> S i = ofZ (horner 4 d (i * n)).
Proof.
  intros S D d n R Hn S0 SS HD i Hi. destruct Hi as [Hi1 Hi2]. revert Hi2. pattern i.
  apply natlike_ind; [| |exact Hi1]; clear i Hi1.
  - intros _. rewrite S0, Z.mul_0_l, horner_0. reflexivity.
  - intros i Hi IH Hi2. unfold Z.succ in *. rewrite SS by lia. rewrite IH by lia.
    rewrite (fhorner_ofZ P 4 (fun j => d (i * n + j)%Z)) by (intros; apply HD; nia).
    rewrite <- ofZ_mul, <- ofZ_add. f_equal.
    replace ((i + 1) * n)%Z with (i * n + n)%Z by ring. rewrite horner_split by nia.
    rewrite Z.pow_mul_r by lia. change (2 ^ 2)%Z with 4%Z. ring.
Qed.

(** ... and conversely. *)
Lemma sums_step : forall (S D : Z -> F) (d : Z -> Z) n R, (1 <= n)%Z ->
  (forall i, (0 <= i <= R)%Z -> S i = ofZ (horner 4 d (i * n))) ->
  (forall k, (0 <= k < R * n)%Z -> D k = ofZ (d k)) ->
  forall i, (0 <= i < R)%Z -> S (i + 1)%Z = fhorner (ofZ 4) (fun j => D (i * n + j)%Z) n + ofZ (2 ^ (2 * n)) * S i.
Proof.
  intros S D d n R Hn HS HD i Hi. rewrite !HS by lia.
  rewrite (fhorner_ofZ P 4 (fun j => d (i * n + j)%Z)) by (intros; apply HD; nia).
  rewrite <- ofZ_mul, <- ofZ_add. f_equal.
  replace ((i + 1) * n)%Z with (i * n + n)%Z by ring. rewrite horner_split by nia.
  rewrite Z.pow_mul_r by lia. change (2 ^ 2)%Z with 4%Z. ring.
Qed.

(** The number of bits the circuit really enforces. *)
Definition cc_eff (bits : Z) : Z :=
  if (bits mod 2 =? 0)%Z || cc_first (modulus_bits P) bits then bits else (bits + 1)%Z.

Lemma cc_eff_spec : forall bits, (0 < bits < modulus_bits P - 1)%Z ->
  (bits <= cc_eff bits < modulus_bits P - 1)%Z /\ ((cc_eff bits + 1) / 2 = (bits + 1) / 2)%Z /\
  ((cc_eff bits mod 2 <> 0)%Z -> cc_eff bits = bits /\ cc_first (modulus_bits P) bits = true).
Proof.
  intros bits H. unfold cc_eff. destruct (bits mod 2 =? 0)%Z eqn:E; cbn [orb].
  - apply Z.eqb_eq in E. split; [lia|]. split; [reflexivity|]. intros; contradiction.
  - apply Z.eqb_neq in E. pose proof (Z.mod_pos_bound bits 2 ltac:(lia)).
    assert (E1 : (bits mod 2 = 1)%Z) by lia.
    destruct (cc_first (modulus_bits P) bits) eqn:E2.
    + split; [lia|]. split; [reflexivity|]. auto.
    + unfold cc_first in E2. rewrite E1 in E2. cbn [negb Z.eqb andb] in E2.
      change (1 =? 0)%Z with false in E2. cbn [negb andb] in E2. apply Z.leb_gt in E2.
      change ((2 - 1) mod 2)%Z with 1%Z in E2. split; [lia|].
      pose proof (Z.div_mod bits 2 ltac:(lia)).
      assert (E3 : ((bits + 1) mod 2 = 0)%Z).
      { replace (bits + 1)%Z with (0 + (bits / 2 + 1) * 2)%Z by lia. rewrite Z.mod_add by lia. reflexivity. }
      split.
      * pose proof (Z.div_mod (bits + 1) 2 ltac:(lia)).
        pose proof (Z.div_mod (bits + 1 + 1) 2 ltac:(lia)).
        pose proof (Z.mod_pos_bound (bits + 1 + 1) 2 ltac:(lia)). lia.
      * intros. contradiction.
Qed.

Lemma cc_gate3_eval : forall T c w bits row, wamount c = w -> (3 <= w)%Z -> (0 < bits)%Z ->
  (forall e, In e (cc_gate3 c bits) -> eval T row e = f0) <->
  digit (2 ^ (bits mod 2)) (ccd T c w row (cc_padding w bits)) /\
  digit (2 ^ (bits mod 2)) (ccx T c w row (cc_padding w bits)).
Proof.
  intros T c w bits row Hw H3 Hb. destruct (cc_layout w bits H3 Hb) as [_ [_ [PB _]]].
  unfold cc_gate3. cbv zeta. rewrite Hw. rewrite !all_cons, all_nil.
  rewrite !chunk_digit by (apply Z.mod_pos_bound; lia).
  set (pad := cc_padding w bits) in *.
  assert (EX : ccx T c w row pad = gval T row (wv (W c (1 + pad)) 1)).
  { rewrite gval_wv. replace pad with (0 * (w - 1) + pad)%Z at 1 by ring. rewrite ccx_ij by lia.
    cells. }
  assert (ED : ccd T c w row pad = gval T row (if (pad =? w - 2)%Z then wv (W c 0) 1 else wv (W c (2 + pad)) 0)).
  { destruct (pad =? w - 2)%Z eqn:E.
    - apply Z.eqb_eq in E. rewrite gval_wv, E. replace (w - 2)%Z with (0 * (w - 1) + (w - 2))%Z by ring.
      rewrite ccd_last by lia. cells.
    - apply Z.eqb_neq in E. rewrite gval_wv. replace pad with (0 * (w - 1) + pad)%Z at 1 by ring.
      rewrite ccd_ij by lia. cells. }
  rewrite EX, ED. tauto.
Qed.

(** All the constraints, in terms of chunks. *)
Lemma cc_sat_iff : forall T c w bits m x y row, wamount c = w -> (3 <= w)%Z -> (0 < bits)%Z -> C c 0 = 0%Z ->
  let R := cc_groups w bits in
  let last := (row + 2 * R)%Z in
  sat L T (cc_circuit c bits m x y row) <->
  T CConst 0%Z row = f0 /\
  (forall i, (0 <= i < R)%Z -> cc_step T c w row i) /\
  T CWit (W c 2) last = T CWit (W c 0) last + T CWit (W c 1) last /\
  (strict m = true -> T CWit (W c 1) last *
     (if (cmp_bonus w m =? 0)%Z then T CWit (W c 3) last else T CWit (W c 0) (last + 1)%Z) = f1) /\
  (cc_first (modulus_bits P) bits = true ->
     digit (2 ^ (bits mod 2)) (ccd T c w row (cc_padding w bits)) /\
     digit (2 ^ (bits mod 2)) (ccx T c w row (cc_padding w bits))) /\
  T CWit (W c 0) row = f0 /\ T CWit (W c 1) row = f0 /\
  (forall k, (0 <= k < cc_padding w bits)%Z -> ccx T c w row k = f0 /\ ccd T c w row k = f0) /\
  vval T x = T CWit (W c (if greater m then 2 else 0)) last /\
  vval T y = T CWit (W c (if greater m then 0 else 2)) last.
Proof.
  intros T c w bits m x y row Hw H3 Hb HC R last.
  destruct (cc_layout w bits H3 Hb) as [G1 [G2 [PB [G3 [G4 [G5 G6]]]]]].
  fold R in G1, G2, G5. pose proof (G6 m) as HBn.
  unfold cc_circuit. cbv zeta. rewrite Hw, G5.
  replace (row + (1 + 2 * R + cmp_bonus w m) - 2 - cmp_bonus w m)%Z with (row + 2 * R - 1)%Z by ring.
  rewrite step_rows_2 by lia. replace (row + 2 * R - 1 + 1)%Z with last by (subst last; ring).
  rewrite !sat_app, !sat_cons.
  (* gate 1 *)
  assert (E1 : holds L T (Gate (cc_gate1 c) (map (fun g => row + 1 + 2 * g)%Z (zseq 0 R))) <->
               (forall i, (0 <= i < R)%Z -> cc_step T c w row i)).
  { cbn [holds]. split.
    - intros H i Hi. apply cc_gate1_iff; auto. intros e He. apply (H (row + 2 * i + 1)%Z); [|exact He].
      apply in_map_iff. exists i. split; [ring|apply in_zseq; lia].
    - intros H r Hr e He. apply in_map_iff in Hr. destruct Hr as [i [<- Hi]]. apply in_zseq in Hi.
      replace (row + 1 + 2 * i)%Z with (row + 2 * i + 1)%Z by ring.
      apply (proj2 (cc_gate1_iff T c w row i Hw H3)); [apply H; lia|exact He]. }
  rewrite E1.
  (* gate 2 *)
  assert (E2 : holds L T (Gate (cc_gate2 c m) [last]) <->
     T CWit (W c 2) last = T CWit (W c 0) last + T CWit (W c 1) last /\
     (strict m = true -> T CWit (W c 1) last *
       (if (cmp_bonus w m =? 0)%Z then T CWit (W c 3) last else T CWit (W c 0) (last + 1)%Z) = f1)).
  { rewrite holds_gate1. unfold cc_gate2. rewrite all_cons, Hw.
    rewrite !eval_bin, !eval_evar, !gval_wv, !Z.add_0_r. cbn [ebop].
    assert (EA : T CWit (W c 2) last - T CWit (W c 0) last - T CWit (W c 1) last = f0 <->
                 T CWit (W c 2) last = T CWit (W c 0) last + T CWit (W c 1) last).
    { split; intros H; [lc f1 H|rewrite H; ring]. }
    rewrite EA. destruct (strict m).
    - rewrite all_cons, all_nil.
      assert (EV : eval T last (if (cmp_bonus w m =? 0)%Z then evar (wv (W c 3) 0) else evar (wv (W c 0) 1)) =
                  (if (cmp_bonus w m =? 0)%Z then T CWit (W c 3) last else T CWit (W c 0) (last + 1)%Z)).
      { destruct (cmp_bonus w m =? 0)%Z; rewrite eval_evar, gval_wv, ?Z.add_0_r; reflexivity. }
      rewrite !eval_bin, EV, eval_evar, gval_wv, Z.add_0_r, eval_ecst. cbn [ebop].
      set (iv := if (cmp_bonus w m =? 0)%Z then _ else _).
      split.
      + intros [H1 [H2 _]]. split; [exact H1|]. intros _. lc f1 H2.
      + intros [H1 H2]. split; [exact H1|]. split; [|exact I]. rewrite H2 by reflexivity. unfold f1. ring.
    - rewrite all_nil. split; intros [H1 _]; (split; [exact H1|]); [intros; discriminate|exact I]. }
  rewrite E2.
  (* gate 3 *)
  assert (E3 : sat L T (if cc_first (modulus_bits P) bits then [Gate (cc_gate3 c bits) [row]] else []) <->
    (cc_first (modulus_bits P) bits = true ->
     digit (2 ^ (bits mod 2)) (ccd T c w row (cc_padding w bits)) /\
     digit (2 ^ (bits mod 2)) (ccx T c w row (cc_padding w bits)))).
  { destruct (cc_first (modulus_bits P) bits).
    - rewrite sat_cons, holds_gate1. rewrite (cc_gate3_eval T c w bits row Hw H3 Hb). split.
      + intros [H _] _. exact H.
      + intros H. split; [apply H; reflexivity|apply sat_nil].
    - split; [intros _ A; discriminate|intros _; apply sat_nil]. }
  rewrite E3.
  (* copies *)
  unfold cc_copies. cbv zeta. rewrite Hw, G5.
  replace (row + (1 + 2 * R + cmp_bonus w m) - 1 - cmp_bonus w m)%Z with last by (subst last; ring).
  rewrite !sat_app, !sat_cons, !sat_map. cbn [holds]. rewrite HC, !vval_ccell, !vval_wcell.
  assert (EP : forall k, (0 <= k < cc_padding w bits)%Z ->
     ccx T c w row k = T CWit (W c (k + 1)) (row + 1)%Z /\ ccd T c w row k = T CWit (W c (k + 2)) row).
  { intros k Hk. replace k with (0 * (w - 1) + k)%Z at 1 3 by ring.
    rewrite ccx_ij, ccd_ij by lia. split; cells. }
  split.
  - intros [[A1 [[A2 A2'] _]] [A3 [[[A4 [A5 _]] [A6 [A7 [A8 [A9 _]]]]] [A10 _]]]].
    rewrite A10 in *. repeat (split; [auto; fail|]).
    split; [intros k Hk; destruct (EP k Hk) as [-> ->]; split; symmetry|].
    + specialize (A6 k). rewrite in_zseq in A6. exact (A6 ltac:(lia)).
    + specialize (A7 k). rewrite in_zseq in A7. exact (A7 ltac:(lia)).
    + rewrite A8, A9. destruct (greater m); rewrite !vval_wcell; auto.
  - intros [A1 [A2 [A3 [A4 [A5 [A6 [A7 [A8 [A9 A10]]]]]]]]].
    rewrite A1, A6, A7, A9, A10.
    split; [split; [exact A2|split; [split; assumption|apply sat_nil]]|].
    split; [exact A5|]. split; [|split; [reflexivity|apply sat_nil]].
    split; [split; [reflexivity|split; [reflexivity|apply sat_nil]]|].
    split; [|split; [|split; [|split; [|apply sat_nil]]]].
    + intros k Hk. apply in_zseq in Hk. rewrite vval_wcell.
      destruct (EP k ltac:(lia)) as [<- _]. symmetry. apply A8. lia.
    + intros k Hk. apply in_zseq in Hk. rewrite vval_wcell.
      destruct (EP k ltac:(lia)) as [_ <-]. symmetry. apply A8. lia.
    + destruct (greater m); reflexivity.
    + destruct (greater m); reflexivity.
Qed.

(** ** Soundness *)

Lemma digits_exist : forall (D : Z -> F) n, (forall k, (0 <= k < n)%Z -> digit 4 (D k)) ->
  exists d : Z -> Z, forall k, (0 <= k < n)%Z -> (0 <= d k < 4)%Z /\ D k = ofZ (d k).
Proof. intros D n H. apply (choose_range (fun k d => (0 <= d < 4)%Z /\ D k = ofZ d)). exact H. Qed.

Lemma ofZ_small_eq : forall a b, (0 <= a < char P)%Z -> (0 <= b < char P)%Z -> (ofZ a : F) = ofZ b -> a = b.
Proof.
  intros a b Ha Hb E. apply (f_equal fval) in E. rewrite !fval_ofZ_small in E by lia. exact E.
Qed.

(** x and the difference really are below 2^eff and add up to y. *)
Lemma cc_sound_core : forall T c w bits m x y row,
  wamount c = w -> (3 <= w)%Z -> (0 < bits < modulus_bits P - 1)%Z -> C c 0 = 0%Z ->
  sat L T (cc_circuit c bits m x y row) ->
  let lo := fval (vval T (if greater m then y else x)) in
  let hi := fval (vval T (if greater m then x else y)) in
  (lo < 2 ^ cc_eff bits /\ lo <= hi < lo + 2 ^ cc_eff bits)%Z /\ (strict m = true -> (lo < hi)%Z).
Proof.
  intros T c w bits m x y row Hw H3 Hb HC H lo hi.
  apply (cc_sat_iff T c w bits m x y row) in H; auto; try lia.
  destruct H as [_ [G1 [G2 [G2' [G3 [Z0 [Z1 [ZP [CX CY]]]]]]]]].
  destruct (cc_layout w bits H3 ltac:(lia)) as [L1 [L2 [PB [L3 _]]]].
  destruct (cc_eff_spec bits Hb) as [EB1 [EB2 EB3]].
  set (R := cc_groups w bits) in *. set (last := (row + 2 * R)%Z) in *. set (pad := cc_padding w bits) in *.
  set (e := cc_eff bits) in *.
  assert (DA : forall k, (0 <= k < R * (w - 1))%Z -> digit 4 (ccx T c w row k) /\ digit 4 (ccd T c w row k)).
  { intros k Hk. pose proof (Z.div_mod k (w - 1) ltac:(lia)). pose proof (Z.mod_pos_bound k (w - 1) ltac:(lia)).
    replace k with (k / (w - 1) * (w - 1) + k mod (w - 1))%Z by lia.
    apply G1; [nia|lia]. }
  assert (Pad1 : digit 2 (ccd T c w row pad) /\ digit 2 (ccx T c w row pad) \/ (e mod 2 = 0)%Z).
  { destruct (Z.eq_dec (e mod 2) 0) as [Ee|Ne]; [right; exact Ee|left].
    destruct (EB3 Ne) as [Eb Ef]. specialize (G3 Ef). rewrite <- Eb in G3. 
    pose proof (Z.mod_pos_bound e 2 ltac:(lia)). assert (E1 : (e mod 2 = 1)%Z) by lia.
    rewrite E1 in G3. exact G3. }
  assert (VAL : forall (S : Z -> F) (D : Z -> F),
    S 0%Z = f0 ->
    (forall i, (0 <= i < R)%Z -> S (i + 1)%Z = fhorner (ofZ 4) (fun j => D (i * (w - 1) + j)%Z) (w - 1) + ofZ (2 ^ (2 * (w - 1))) * S i) ->
    (forall k, (0 <= k < R * (w - 1))%Z -> digit 4 (D k)) ->
    (forall k, (0 <= k < pad)%Z -> D k = f0) ->
    (digit 2 (D pad) \/ (e mod 2 = 0)%Z) ->
    exists N, (0 <= N < 2 ^ e)%Z /\ S R = ofZ N).
  { intros S D S0 SS HD HP H2. destruct (digits_exist D _ HD) as [d Hd].
    exists (horner 4 d (R * (w - 1))). split.
    - rewrite <- L2, L3, <- EB2. pose proof (char_ge_2 P).
      assert (HB2 : (2 ^ 2 <= char P)%Z) by (apply pow2_modulus; lia).
      change (2 ^ 2)%Z with 4%Z in HB2.
      assert (Hc : (0 <= pad < R * (w - 1))%Z).
      { split; [lia|]. rewrite <- L2, L3. pose proof (Z.div_mod (bits + 1) 2 ltac:(lia)).
        pose proof (Z.mod_pos_bound (bits + 1) 2 ltac:(lia)). lia. }
      apply rc_value_bound; try lia.
      + intros k Hk. destruct (Hd k ltac:(lia)) as [R1 R2]. rewrite HP in R2 by lia.
        destruct (Z.eq_dec (d k) 0) as [|N]; [assumption|exfalso].
        assert (1 < modulus_bits P)%Z by lia.
        destruct (Z_lt_le_dec (d k) (char P)) as [Q|Q].
        * apply N. symmetry. apply ofZ_small_eq; [lia|lia|exact R2].
        * lia.
      + intros k Hk. apply Hd. rewrite <- L2, L3, <- EB2. exact Hk.
      + intros Ne. destruct H2 as [[k [Hk1 Hk2]]|H2]; [|contradiction].
        destruct (Hd pad Hc) as [R1 R2]. rewrite R2 in Hk2. apply ofZ_small_eq in Hk2; lia.
    - apply (sums_unroll S D d (w - 1) R); auto; try lia. intros k Hk. apply Hd. exact Hk. }
  destruct (VAL (fun i => T CWit (W c 0) (row + 2 * i)%Z) (ccx T c w row)) as [Nx [BX EX]].
  { rewrite Z.add_0_r. exact Z0. }
  { intros i Hi. apply (G1 i Hi). }
  { intros k Hk. apply DA. exact Hk. }
  { intros k Hk. apply ZP. exact Hk. }
  { destruct Pad1 as [[_ A]|A]; auto. }
  destruct (VAL (fun i => T CWit (W c 1) (row + 2 * i)%Z) (ccd T c w row)) as [Nd [BD ED]].
  { rewrite Z.add_0_r. exact Z1. }
  { intros i Hi. apply (G1 i Hi). }
  { intros k Hk. apply DA. exact Hk. }
  { intros k Hk. apply ZP. exact Hk. }
  { destruct Pad1 as [[A _]|A]; auto. }
  cbv beta in EX, ED. fold last in EX, ED.
  assert (Hp : (2 ^ (e + 1) <= char P)%Z) by (apply pow2_modulus; lia).
  rewrite Z.pow_add_r, Z.pow_1_r in Hp by lia.
  assert (VX : lo = Nx).
  { unfold lo. destruct (greater m); [rewrite CY|rewrite CX]; rewrite EX; apply fval_ofZ_small; lia. }
  assert (VY : hi = (Nx + Nd)%Z).
  { unfold hi. destruct (greater m); [rewrite CX|rewrite CY]; rewrite G2, EX, ED, <- ofZ_add;
      apply fval_ofZ_small; lia. }
  split; [lia|]. intros S. specialize (G2' S).
  assert (Nd <> 0%Z); [|lia]. intros ->. rewrite ED in G2'. apply (f1_neq_f0 P).
  rewrite <- G2'. change (ofZ 0 : F) with (f0 : F). ring.
Qed.

Lemma cc_sound_l : forall T c w bits m x y row,
  wamount c = w -> (3 <= w)%Z -> (0 < bits < modulus_bits P - 1)%Z -> C c 0 = 0%Z -> m <> FLAG ->
  sat L T (cc_circuit c bits m x y row) ->
  ordered m (fval (vval T x)) (fval (vval T y)).
Proof.
  intros T c w bits m x y row Hw H3 Hb HC Hm H.
  destruct (cc_sound_core T c w bits m x y row Hw H3 Hb HC H) as [A B].
  destruct m; cbn in *; try congruence; try (specialize (B eq_refl)); lia.
Qed.

(** ** The assignment *)

Lemma wsets_val : forall T c w (ws : list (Z * Z * F)) (val : Z -> Z -> F), wf_comp c w ->
  (forall col r v, In (col, r, v) ws -> exists i, (0 <= i < w)%Z /\ col = W c i /\ v = val i r) ->
  forall i r, (0 <= i < w)%Z -> (exists v, In (W c i, r, v) ws) -> wsets T ws CWit (W c i) r = val i r.
Proof.
  intros T c w ws val Hwf HS i r Hi [v Hv].
  assert (Hu : forall v', In (W c i, r, v') ws -> v' = val i r).
  { intros v' Hv'. destruct (HS _ _ _ Hv') as [i' [Hi' [E ->]]]. apply (W_inj c w) in E; auto. subst. reflexivity. }
  apply wsets_read; [rewrite <- (Hu v Hv); exact Hv|exact Hu].
Qed.

Definition cc_val (c : comp) (w bits : Z) (dx dd : Z -> Z) (yv diff : F) (row : Z) (i r : Z) : F :=
  let R := cc_groups w bits in
  let o := (r - row)%Z in
  let g := (o / 2)%Z in
  if (o mod 2 =? 0)%Z then
    if (i =? 0)%Z then fhorner (ofZ 4) (fun k => ofZ (dx k)) (g * (w - 1))
    else if (i =? 1)%Z then fhorner (ofZ 4) (fun k => ofZ (dd k)) (g * (w - 1))
    else if (g =? R)%Z then if (i =? 2)%Z then yv else inv0 diff
    else ofZ (dd (g * (w - 1) + (i - 2))%Z)
  else
    if (i =? 0)%Z then if (g =? R)%Z then inv0 diff else ofZ (dd (g * (w - 1) + (w - 2))%Z)
    else ofZ (dx (g * (w - 1) + (i - 1))%Z).

Lemma even_offset : forall a i, ((a + 2 * i - a) mod 2 = 0)%Z /\ ((a + 2 * i - a) / 2 = i)%Z.
Proof.
  intros a i. replace (a + 2 * i - a)%Z with (i * 2)%Z by ring.
  rewrite Z.mod_mul, Z.div_mul by lia. auto.
Qed.
Lemma odd_offset : forall a i, ((a + 2 * i + 1 - a) mod 2 = 1)%Z /\ ((a + 2 * i + 1 - a) / 2 = i)%Z.
Proof.
  intros a i. replace (a + 2 * i + 1 - a)%Z with (1 + i * 2)%Z by ring.
  rewrite Z.mod_add, Z.div_add by lia. split; [reflexivity|]. change (1 / 2)%Z with 0%Z. lia.
Qed.

Lemma cc_writes_shape : forall c w bits m dx dd yv diff row col r v,
  wamount c = w -> (3 <= w)%Z -> (0 < bits)%Z ->
  In (col, r, v) (cc_writes c bits m dx dd yv diff row) ->
  (exists i, (0 <= i < w)%Z /\ col = W c i /\ v = cc_val c w bits dx dd yv diff row i r) /\
  (row <= r < row + cc_rows w bits m)%Z.
Proof.
  intros c w bits m dx dd yv diff row col r v Hw H3 Hb HI.
  destruct (cc_layout w bits H3 Hb) as [L1 [L2 [_ [_ [_ [L5 L6]]]]]]. specialize (L6 m).
  unfold cc_writes in HI. cbv zeta in HI. rewrite Hw in HI. rewrite L5 in *. set (R := cc_groups w bits) in *.
  assert (EG : ((1 + 2 * R + cmp_bonus w m - 1) / 2 = R)%Z).
  { replace (1 + 2 * R + cmp_bonus w m - 1)%Z with (cmp_bonus w m + R * 2)%Z by ring.
    rewrite Z.div_add, Z.div_small by lia. lia. }
  rewrite EG in HI. clear EG.
  assert (EV : forall g, (row + 2 * g + 2 = row + 2 * (g + 1))%Z) by (intros; ring).
  unfold cc_val. fold R. cbv zeta.
  rewrite !in_app_iff in HI. destruct HI as [HI|[HI|[HI|HI]]].
  - destruct HI as [E|[E|[]]]; inj3 E.
    + split; [|lia]. exists 1%Z. split; [lia|]. split; [reflexivity|].
      rewrite Z.sub_diag. reflexivity.
    + split; [|lia]. exists 0%Z. split; [lia|]. split; [reflexivity|].
      rewrite Z.sub_diag. reflexivity.
  - apply in_flat_map in HI. destruct HI as [g [Hg HI]]. apply in_zseq in Hg.
    rewrite !in_app_iff in HI. destruct HI as [HI|[HI|[HI|HI]]].
    + apply in_map_iff in HI. destruct HI as [j [E Hj]]. apply in_zseq in Hj. inj3 E.
      split; [|lia]. exists (j + 2)%Z. split; [lia|]. split; [reflexivity|].
      destruct (even_offset row g) as [-> ->]. cbn [Z.eqb]. repeat zcase. do 2 f_equal. lia.
    + destruct HI as [E|[]]. inj3 E.
      split; [|lia]. exists 0%Z. split; [lia|]. split; [reflexivity|].
      destruct (odd_offset row g) as [-> ->]. cbn [Z.eqb]. zcase. do 2 f_equal. lia.
    + apply in_map_iff in HI. destruct HI as [j [E Hj]]. apply in_zseq in Hj. inj3 E.
      split; [|lia]. exists (j + 1)%Z. split; [lia|]. split; [reflexivity|].
      destruct (odd_offset row g) as [-> ->]. cbn [Z.eqb]. zcase. do 2 f_equal. lia.
    + destruct HI as [E|[E|[]]]; inj3 E.
      * split; [|lia]. exists 0%Z. split; [lia|]. split; [reflexivity|].
        rewrite EV. destruct (even_offset row (g + 1)) as [-> ->]. reflexivity.
      * split; [|lia]. exists 1%Z. split; [lia|]. split; [reflexivity|].
        rewrite EV. destruct (even_offset row (g + 1)) as [-> ->]. reflexivity.
  - destruct HI as [E|[]]. inj3 E.
    split; [|lia]. exists 2%Z. split; [lia|]. split; [reflexivity|].
    destruct (even_offset row R) as [-> ->]. cbn [Z.eqb]. zcase. reflexivity.
  - destruct (strict m) eqn:ES; [|destruct HI].
    destruct (cmp_bonus w m =? 0)%Z eqn:EB; destruct HI as [E|[]]; inj3 E.
    + apply Z.eqb_eq in EB. split; [|lia]. exists 3%Z.
      assert (4 <= w)%Z.
      { unfold cmp_bonus in EB. rewrite ES, andb_true_r in EB. destruct (w <=? 3)%Z eqn:E3; [lia|].
        apply Z.leb_gt in E3. lia. }
      split; [lia|]. split; [reflexivity|].
      destruct (even_offset row R) as [-> ->]. cbn [Z.eqb]. zcase. reflexivity.
    + apply Z.eqb_neq in EB. split; [|lia]. exists 0%Z. split; [lia|]. split; [reflexivity|].
      destruct (odd_offset row R) as [-> ->]. cbn [Z.eqb]. zcase. reflexivity.
Qed.

Definition cc_filled T (c : comp) (w bits : Z) (m : cmode) (dx dd : Z -> Z) (yv diff : F) (row : Z) : Prop :=
  let R := cc_groups w bits in
  let last := (row + 2 * R)%Z in
  (forall k, (0 <= k < R * (w - 1))%Z -> ccx T c w row k = ofZ (dx k) /\ ccd T c w row k = ofZ (dd k)) /\
  (forall i, (0 <= i <= R)%Z -> T CWit (W c 0) (row + 2 * i)%Z = ofZ (horner 4 dx (i * (w - 1)))) /\
  (forall i, (0 <= i <= R)%Z -> T CWit (W c 1) (row + 2 * i)%Z = ofZ (horner 4 dd (i * (w - 1)))) /\
  T CWit (W c 2) last = yv /\
  (strict m = true ->
    (if (cmp_bonus w m =? 0)%Z then T CWit (W c 3) last else T CWit (W c 0) (last + 1)%Z) = inv0 diff).

Lemma cc_writes_filled : forall T c w bits m dx dd yv diff row, wf_comp c w -> (3 <= w)%Z -> (0 < bits)%Z ->
  let T' := wsets T (cc_writes c bits m dx dd yv diff row) in
  cc_filled T' c w bits m dx dd yv diff row /\ frame c (cc_rows w bits m) row T T'.
Proof.
  intros T c w bits m dx dd yv diff row Hwf H3 Hb T'.
  pose proof Hwf as [_ [Hw _]].
  destruct (cc_layout w bits H3 Hb) as [L1 [L2 [_ [_ [_ [L5 L6]]]]]]. pose proof (L6 m) as HBn.
  set (ws := cc_writes c bits m dx dd yv diff row) in *.
  set (R := cc_groups w bits) in *.
  assert (EG : ((cc_rows w bits m - 1) / 2 = R)%Z).
  { rewrite L5. replace (1 + 2 * R + cmp_bonus w m - 1)%Z with (cmp_bonus w m + R * 2)%Z by ring.
    rewrite Z.div_add, Z.div_small by lia. lia. }
  assert (RD : forall i r, (0 <= i < w)%Z -> (exists v, In (W c i, r, v) ws) ->
    T' CWit (W c i) r = cc_val c w bits dx dd yv diff row i r).
  { intros i r Hi Hv. apply (wsets_val T c w ws _ Hwf); auto.
    intros col r0 v HI. apply (cc_writes_shape c w bits m) in HI; auto. apply HI. }
  assert (IN : forall g e, (0 <= g < R)%Z ->
    In e (map (fun j => (W c (j + 2), row + 2 * g, ofZ (dd (g * (w - 1) + j)))%Z) (zseq 0 (w - 1 - 1)) ++
    [(W c 0, row + 2 * g + 1, ofZ (dd (g * (w - 1) + (w - 1) - 1)))%Z] ++
    map (fun j => (W c (j + 1), row + 2 * g + 1, ofZ (dx (g * (w - 1) + j)))%Z) (zseq 0 (w - 1)) ++
    [(W c 0, row + 2 * g + 2, fhorner (ofZ 4) (fun k => ofZ (dx k)) ((g + 1) * (w - 1)))%Z;
     (W c 1, row + 2 * g + 2, fhorner (ofZ 4) (fun k => ofZ (dd k)) ((g + 1) * (w - 1)))%Z]) -> In e ws).
  { intros g e Hg He. unfold ws, cc_writes. cbv zeta. rewrite Hw, EG. apply in_or_app. right. apply in_or_app. left.
    apply in_flat_map. exists g. split; [apply in_zseq; lia|exact He]. }
  assert (FH : forall (d : Z -> Z) n, fhorner (ofZ 4) (fun k => ofZ (d k) : F) n = ofZ (horner 4 d n)).
  { intros d n. apply fhorner_ofZ. reflexivity. }
  split.
  - split; [|split; [|split; [|split]]]; fold R.
    + intros k Hk. pose proof (Z.div_mod k (w - 1) ltac:(lia)) as DM.
      pose proof (Z.mod_pos_bound k (w - 1) ltac:(lia)) as MB.
      set (g := (k / (w - 1))%Z) in *. set (j := (k mod (w - 1))%Z) in *.
      assert (Hg : (0 <= g < R)%Z) by nia.
      assert (Ek : k = (g * (w - 1) + j)%Z) by lia. rewrite Ek. clear DM. clearbody g j. subst k.
      rewrite ccx_ij by lia. split.
      * rewrite RD; [|lia|].
        -- unfold cc_val. cbv zeta. destruct (odd_offset row g) as [-> ->]. cbn [Z.eqb]. zcase. do 2 f_equal. lia.
        -- eexists. apply (IN g); [lia|]. rewrite !in_app_iff. right. right. left. apply in_map_iff.
           exists j. split; [reflexivity|apply in_zseq; lia].
      * destruct (Z.eq_dec j (w - 2)) as [->|Nj].
        -- rewrite ccd_last by lia. rewrite RD; [|lia|].
           ++ unfold cc_val. cbv zeta. destruct (odd_offset row g) as [-> ->]. cbn [Z.eqb]. fold R. zcase. reflexivity.
           ++ eexists. apply (IN g); [lia|]. rewrite !in_app_iff. right. left. left. reflexivity.
        -- rewrite ccd_ij by lia. rewrite RD; [|lia|].
           ++ unfold cc_val. cbv zeta. destruct (even_offset row g) as [-> ->]. cbn [Z.eqb]. fold R.
              repeat zcase. do 2 f_equal. lia.
           ++ eexists. apply (IN g); [lia|]. rewrite !in_app_iff. left. apply in_map_iff.
              exists j. split; [reflexivity|apply in_zseq; lia].
    + intros i Hi. rewrite RD; [|lia|].
      * unfold cc_val. cbv zeta. destruct (even_offset row i) as [-> ->]. cbn [Z.eqb]. apply FH.
      * destruct (Z.eq_dec i 0) as [->|Ni].
        -- exists f0. unfold ws, cc_writes. cbv zeta. rewrite Z.add_0_r. right. left. reflexivity.
        -- eexists. apply (IN (i - 1)%Z); [lia|]. rewrite !in_app_iff. right. right. right. left.
           replace (row + 2 * (i - 1) + 2)%Z with (row + 2 * i)%Z by ring. reflexivity.
    + intros i Hi. rewrite RD; [|lia|].
      * unfold cc_val. cbv zeta. destruct (even_offset row i) as [-> ->]. cbn [Z.eqb]. apply FH.
      * destruct (Z.eq_dec i 0) as [->|Ni].
        -- exists f0. unfold ws, cc_writes. cbv zeta. rewrite Z.add_0_r. left. reflexivity.
        -- eexists. apply (IN (i - 1)%Z); [lia|]. rewrite !in_app_iff. right. right. right. right. left.
           replace (row + 2 * (i - 1) + 2)%Z with (row + 2 * i)%Z by ring. reflexivity.
    + rewrite RD; [|lia|].
      * unfold cc_val. cbv zeta. destruct (even_offset row R) as [-> ->]. cbn [Z.eqb]. fold R. zcase. reflexivity.
      * exists yv. unfold ws, cc_writes. cbv zeta. rewrite EG || rewrite Hw, EG.
        rewrite !in_app_iff. right. right. left. left. reflexivity.
    + intros S.
      assert (B : forall v, In v (if (cmp_bonus w m =? 0)%Z then [(W c 3, row + 2 * R, inv0 diff)%Z]
         else [(W c 0, row + 2 * R + 1, inv0 diff)%Z]) -> In v ws).
      { intros v Hv. unfold ws, cc_writes. cbv zeta. rewrite Hw, EG, S.
        rewrite !in_app_iff. right. right. right. exact Hv. }
      destruct (cmp_bonus w m =? 0)%Z eqn:EB.
      * assert (4 <= w)%Z.
        { apply Z.eqb_eq in EB. unfold cmp_bonus in EB. rewrite S, andb_true_r in EB.
          destruct (w <=? 3)%Z eqn:E3; [lia|]. apply Z.leb_gt in E3. lia. }
        rewrite RD; [|lia|exists (inv0 diff); apply B; left; reflexivity].
        unfold cc_val. cbv zeta. destruct (even_offset row R) as [-> ->]. cbn [Z.eqb]. fold R. zcase. reflexivity.
      * rewrite RD; [|lia|exists (inv0 diff); apply B; left; reflexivity].
        unfold cc_val. cbv zeta. destruct (odd_offset row R) as [-> ->]. cbn [Z.eqb]. fold R. zcase. reflexivity.
  - apply (wsets_frame P c w); auto. intros col r v HI.
    apply (cc_writes_shape c w bits m) in HI; auto. destruct HI as [[i [_ [E _]]] B].
    split; [exists i; exact E|exact B].
Qed.

(** Any chunks in range that add up satisfy the constraints. *)
Lemma cc_core : forall T' c w bits m x y row dx dd,
  wamount c = w -> (3 <= w)%Z -> (0 < bits)%Z -> C c 0 = 0%Z ->
  let N := cc_padded w bits in
  let lo := ofZ (horner 4 dx N) : F in
  let diff := ofZ (horner 4 dd N) : F in
  (forall k, (0 <= k < N)%Z -> (0 <= dx k < 4)%Z /\ (0 <= dd k < 4)%Z) ->
  (forall k, (0 <= k < cc_padding w bits)%Z -> dx k = 0%Z /\ dd k = 0%Z) ->
  (cc_first (modulus_bits P) bits = true ->
     (0 <= dx (cc_padding w bits) < 2)%Z /\ (0 <= dd (cc_padding w bits) < 2)%Z) ->
  (strict m = true -> diff <> f0) ->
  cc_filled T' c w bits m dx dd (lo + diff) diff row -> T' CConst 0%Z row = f0 ->
  vval T' x = (if greater m then lo + diff else lo) -> vval T' y = (if greater m then lo else lo + diff) ->
  sat L T' (cc_circuit c bits m x y row).
Proof.
  intros T' c w bits m x y row dx dd Hw H3 Hb HC N lo diff HR HZ HF HS FL K Ex Ey.
  apply (cc_sat_iff T' c w bits m x y row); auto.
  destruct (cc_layout w bits H3 Hb) as [L1 [L2 [PB [L3 _]]]].
  destruct FL as [FD [FX [FY [F2 FI]]]].
  set (R := cc_groups w bits) in *. set (last := (row + 2 * R)%Z) in *.
  assert (EX : T' CWit (W c 0) last = lo).
  { unfold last. rewrite FX by lia. rewrite <- L2. reflexivity. }
  assert (EY : T' CWit (W c 1) last = diff).
  { unfold last. rewrite FY by lia. rewrite <- L2. reflexivity. }
  assert (HpadN : (cc_padding w bits < N)%Z).
  { unfold N. rewrite L3. pose proof (Z.div_mod (bits + 1) 2 ltac:(lia)).
    pose proof (Z.mod_pos_bound (bits + 1) 2 ltac:(lia)). lia. }
  fold N in L2.
  split; [exact K|]. split.
  { intros i Hi. split; [|split].
    - intros j Hj. assert (Hk : (0 <= i * (w - 1) + j < R * (w - 1))%Z) by nia.
      destruct (FD _ Hk) as [-> ->]. split.
      + exists (dx (i * (w - 1) + j)%Z). split; [apply HR; lia|reflexivity].
      + exists (dd (i * (w - 1) + j)%Z). split; [apply HR; lia|reflexivity].
    - apply (sums_step (fun i => T' CWit (W c 0) (row + 2 * i)%Z) (ccx T' c w row) dx (w - 1) R); auto; try lia.
      intros k Hk. apply FD. exact Hk.
    - apply (sums_step (fun i => T' CWit (W c 1) (row + 2 * i)%Z) (ccd T' c w row) dd (w - 1) R); auto; try lia.
      intros k Hk. apply FD. exact Hk. }
  split; [rewrite F2, EX, EY; reflexivity|].
  split; [intros S; rewrite EY, FI by assumption; apply inv0_r; auto|].
  split.
  { intros Ef. specialize (HF Ef). destruct (FD (cc_padding w bits)) as [-> ->]; [lia|].
    assert (E1 : (bits mod 2 = 1)%Z).
    { unfold cc_first in Ef. apply andb_prop in Ef. destruct Ef as [Ef _]. apply negb_true_iff in Ef.
      apply Z.eqb_neq in Ef. pose proof (Z.mod_pos_bound bits 2 ltac:(lia)). lia. }
    rewrite E1. split; eexists; (split; [|reflexivity]); change (2 ^ 1)%Z with 2%Z; lia. }
  split; [replace row with (row + 2 * 0)%Z at 1 by ring; rewrite FX by lia; reflexivity|].
  split; [replace row with (row + 2 * 0)%Z at 1 by ring; rewrite FY by lia; reflexivity|].
  split.
  { intros k Hk. destruct (FD k) as [-> ->]; [lia|]. destruct (HZ k Hk) as [-> ->]. split; reflexivity. }
  rewrite Ex, Ey. destruct (greater m); rewrite F2, EX; split; reflexivity.
Qed.

Lemma cc_const_in : forall T c bits m x y row, C c 0 = 0%Z -> consts_in T (cc_circuit c bits m x y row) ->
  T CConst 0%Z row = f0.
Proof.
  intros T c bits m x y row HC H. apply (H 0%Z row f0). unfold cc_circuit. rewrite HC.
  rewrite !in_app_iff. right. right. right. left. reflexivity.
Qed.

Lemma cc_complete_l : forall T c w bits m x y row,
  wf_comp c w -> (3 <= w)%Z -> (0 < bits)%Z -> C c 0 = 0%Z ->
  outside c (cc_rows w bits m) row x -> outside c (cc_rows w bits m) row y ->
  consts_in T (cc_circuit c bits m x y row) ->
  (fval (vval T x) < 2 ^ bits)%Z -> (fval (vval T y) < 2 ^ bits)%Z ->
  ordered m (fval (vval T x)) (fval (vval T y)) ->
  let T' := cc_assign c bits m x y row T in
  sat L T' (cc_circuit c bits m x y row) /\ frame c (cc_rows w bits m) row T T'.
Proof.
  intros T c w bits m x y row Hwf H3 Hb HC HOx HOy HK Hx Hy HO T'.
  pose proof Hwf as [_ [Hw _]].
  destruct (cc_layout w bits H3 Hb) as [L1 [L2 [PB [L3 [L4 _]]]]].
  set (pb := cc_padding_bits w bits) in *.
  set (xv := if greater m then vval T y else vval T x).
  set (yv := if greater m then vval T x else vval T y).
  set (diff := yv - xv).
  set (dx := pchunk pb bits (fval xv)). set (dd := pchunk pb bits (fval diff)).
  assert (ET : T' = wsets T (cc_writes c bits m dx dd yv diff row)).
  { unfold T', cc_assign. rewrite Hw. reflexivity. }
  destruct (cc_writes_filled T c w bits m dx dd yv diff row Hwf H3 Hb) as [FL FR].
  rewrite <- ET in FL, FR. split; [|exact FR].
  assert (Hle : (fval xv <= fval yv)%Z) by (subst xv yv; destruct m; cbn in *; lia).
  assert (Hxv : (0 <= fval xv < 2 ^ bits)%Z).
  { pose proof (fval_range P xv). subst xv. destruct (greater m); lia. }
  assert (Hyv : (fval yv < 2 ^ bits)%Z) by (subst yv; destruct (greater m); lia).
  assert (Hd : (0 <= fval diff < 2 ^ bits)%Z).
  { pose proof (fval_range P diff). subst diff. rewrite fval_sub_le in * by assumption. lia. }
  pose proof (Z.mod_pos_bound bits 2 ltac:(lia)) as MB.
  assert (E2 : (2 * cc_padded w bits = pb + bits)%Z).
  { unfold pb, cc_padding_bits. ring. }
  assert (VX : (ofZ (horner 4 dx (cc_padded w bits)) : F) = xv).
  { unfold dx. rewrite pchunk_value by lia. rewrite Z.mod_small by lia. apply ofZ_fval. }
  assert (VD : (ofZ (horner 4 dd (cc_padded w bits)) : F) = diff).
  { unfold dd. rewrite pchunk_value by lia. rewrite Z.mod_small by lia. apply ofZ_fval. }
  assert (VY : xv + diff = yv) by (subst diff; ring).
  apply (cc_core T' c w bits m x y row dx dd); auto.
  - intros k Hk. split; apply pchunk_range.
  - intros k Hk. split; apply pchunk_zero; lia.
  - intros Ef.
    assert (E1 : (bits mod 2 = 1)%Z).
    { unfold cc_first in Ef. apply andb_prop in Ef. destruct Ef as [Ef _]. apply negb_true_iff in Ef.
      apply Z.eqb_neq in Ef. lia. }
    split; apply pchunk_first; lia.
  - intros S. rewrite VD. intros E. unfold diff in E. apply fsub0 in E. subst xv yv. apply (f_equal fval) in E.
    destruct m; cbn in *; try discriminate; lia.
  - rewrite VX, VD, VY. exact FL.
  - rewrite FR; [|intros [A _]; discriminate]. apply (cc_const_in T c bits m x y row HC HK).
  - rewrite VX, VD, VY. rewrite (vval_frame P c _ _ _ _ _ FR HOx). subst xv yv. destruct (greater m); reflexivity.
  - rewrite VX, VD, VY. rewrite (vval_frame P c _ _ _ _ _ FR HOy). subst xv yv. destruct (greater m); reflexivity.
Qed.

End Proofs.
