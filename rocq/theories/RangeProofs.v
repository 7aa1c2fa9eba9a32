(** Soundness and completeness of range_check. *)
From Coq Require Import ZArith List Lia Bool Field.
From Verif Require Import Base Field Plonk PlonkFacts Bits RangeModel.
Import ListNotations.
Open Scope Z_scope.

(** ** Layout arithmetic *)

Lemma rc_rows_spec : forall w bits, 2 <= w -> 0 < bits ->
  2 <= rc_rows w bits /\
  (rc_rows w bits - 2) * ((w - 1) * 2) < bits <= (rc_rows w bits - 1) * ((w - 1) * 2).
Proof.
  intros w bits Hw Hb. unfold rc_rows, rc_bits_per_row, rc_cpr.
  set (b := (w - 1) * 2). assert (0 < b) by (subst b; lia).
  pose proof (Z.div_mod (bits + b - 1) b ltac:(lia)).
  pose proof (Z.mod_pos_bound (bits + b - 1) b ltac:(lia)).
  set (q := (bits + b - 1) / b) in *.
  assert (0 < q) by nia. nia.
Qed.

Lemma rc_padding_spec : forall w bits, 2 <= w -> 0 < bits ->
  0 <= rc_padding_size w bits < w - 1 /\
  rc_padded_chunks w bits = rc_padding_size w bits + (bits + 1) / 2 /\
  0 < (bits + 1) / 2.
Proof.
  intros w bits Hw Hb. destruct (rc_rows_spec w bits Hw Hb) as [H1 H2].
  unfold rc_padding_size, rc_padded_chunks, rc_cpr.
  replace (bits + 2 - 1) with (bits + 1) by lia.
  pose proof (Z.div_mod (bits + 1) 2 ltac:(lia)).
  pose proof (Z.mod_pos_bound (bits + 1) 2 ltac:(lia)).
  set (m := (bits + 1) / 2) in *. set (r := rc_rows w bits) in *. nia.
Qed.

Lemma rc_padding_bits_spec : forall w bits, 2 <= w -> 0 < bits ->
  rc_padding_bits w bits = 2 * rc_padding_size w bits + (if bits mod 2 =? 0 then 0 else 1).
Proof.
  intros w bits Hw Hb. destruct (rc_padding_spec w bits Hw Hb) as [H1 [H2 H3]].
  unfold rc_padding_bits. rewrite H2.
  pose proof (Z.div_mod (bits + 1) 2 ltac:(lia)).
  pose proof (Z.mod_pos_bound (bits + 1) 2 ltac:(lia)).
  pose proof (Z.div_mod bits 2 ltac:(lia)).
  pose proof (Z.mod_pos_bound bits 2 ltac:(lia)).
  destruct (bits mod 2 =? 0) eqn:E; [apply Z.eqb_eq in E|apply Z.eqb_neq in E]; lia.
Qed.

Section Proofs.
Variable P : params.
Notation F := (F P).
Notation table := (table P).
Variable L : lenv P.
Implicit Types T : table.
Add Field Ff : (F_field P) (morphism (F_morph P), constants [F_const], power_tac (F_power P) [F_pow_tac]).
Local Open Scope F_scope.

(** ** The chunk constraint *)

Lemma chunk_expr_roots : forall T row v size, (0 <= size)%Z ->
  eval T row (chunk_expr v size) = f0 <->
  exists k, (0 <= k < 2 ^ size)%Z /\ gval T row v = ofZ k.
Proof.
  intros T row v size Hs. unfold chunk_expr.
  assert (H2 : (1 <= 2 ^ size)%Z) by (assert (0 < 2 ^ size)%Z by (apply Z.pow_pos_nonneg; lia); lia).
  revert H2. generalize (2 ^ size)%Z as n. intros n Hn.
  apply (fold_zseq_inv (expr P)
    (fun i e => eval T row e = f0 <-> exists k, (0 <= k < i)%Z /\ gval T row v = ofZ k)).
  - exact Hn.
  - rewrite eval_evar. split.
    + intros H. exists 0%Z. split; [lia|]. exact H.
    + intros [k [Hk E]]. replace k with 0%Z in E by lia. exact E.
  - intros i e Hi IH. rewrite !eval_bin, eval_evar, eval_ecst. cbn [ebop]. split.
    + intros H. apply fmul_integral in H. destruct H as [H|H].
      * apply IH in H. destruct H as [k [Hk E]]. exists k. split; [lia|exact E].
      * exists i. split; [lia|]. apply fsub_eq0. exact H.
    + intros [k [Hk E]]. destruct (Z.eq_dec k i) as [->|N].
      * rewrite E. ring.
      * assert (H : eval T row e = f0) by (apply IH; exists k; split; [lia|exact E]).
        rewrite H. ring.
Qed.

(** ** The running sum constraint *)

Lemma rc_sum_eval : forall T row c cpr, (1 <= cpr)%Z ->
  eval T row (rc_sum_expr c cpr) =
  fhorner (ofZ 4) (fun j => T CWit (W c (1 + j)) row) cpr
  + ofZ (2 ^ (2 * cpr)) * T CWit (W c 0) (row + -1)%Z - T CWit (W c 0) row.
Proof.
  intros T row c cpr Hc. unfold rc_sum_expr.
  rewrite !eval_bin, eval_ecst, !eval_evar, !gval_wv. cbn [ebop]. rewrite Z.add_0_r.
  f_equal. f_equal.
  apply (fold_zseq_inv (expr P)
    (fun i e => eval T row e = fhorner (ofZ 4) (fun j => T CWit (W c (1 + j)) row) i)).
  - exact Hc.
  - rewrite eval_evar, gval_wv, Z.add_0_r.
    change (fhorner (ofZ 4) (fun j => T CWit (W c (1 + j)) row) 1%Z)
      with (fhorner (ofZ 4) (fun j => T CWit (W c (1 + j)) row) (0 + 1)%Z).
    rewrite fhorner_S by lia. rewrite fhorner_0.
    replace (1 + 0)%Z with (0 + 1)%Z by lia. ring.
  - intros i e Hi IH. rewrite !eval_bin, eval_ecst, eval_evar, gval_wv, Z.add_0_r. cbn [ebop].
    rewrite IH, fhorner_S by lia. reflexivity.
Qed.

(** Horner sums row by row. *)
Lemma fhorner_rows : forall (d : Z -> F) cpr i, (0 <= cpr)%Z -> (0 <= i)%Z ->
  fhorner (ofZ 4) d ((i + 1) * cpr)%Z =
  fhorner (ofZ 4) (fun j => d (i * cpr + j)%Z) cpr + ofZ (2 ^ (2 * cpr)) * fhorner (ofZ 4) d (i * cpr)%Z.
Proof.
  intros d cpr i Hc Hi.
  rewrite (fhorner_ofZ P 4 (fun k => fval (d k)) d) by (intros; rewrite ofZ_fval; reflexivity).
  rewrite (fhorner_ofZ P 4 (fun k => fval (d k)) d) by (intros; rewrite ofZ_fval; reflexivity).
  rewrite (fhorner_ofZ P 4 (fun j => fval (d (i * cpr + j)%Z))) by (intros; rewrite ofZ_fval; reflexivity).
  rewrite <- ofZ_mul, <- ofZ_add. f_equal.
  replace ((i + 1) * cpr)%Z with (i * cpr + cpr)%Z by ring.
  rewrite horner_split by nia. rewrite Z.pow_mul_r by lia. change (2 ^ 2)%Z with 4%Z. ring.
Qed.

(** Value of a padded number with a possibly one-bit leading chunk. *)
Lemma rc_value_bound : forall (d : Z -> Z) pad bits, (0 <= pad)%Z -> (0 < bits)%Z ->
  (forall k, 0 <= k < pad -> d k = 0)%Z ->
  (forall k, 0 <= k < pad + (bits + 1) / 2 -> 0 <= d k < 4)%Z ->
  (bits mod 2 <> 0 -> 0 <= d pad < 2)%Z ->
  (0 <= horner 4 d (pad + (bits + 1) / 2) < 2 ^ bits)%Z.
Proof.
  intros d pad bits Hp Hb H0 H4 H1.
  pose proof (Z.div_mod (bits + 1) 2 ltac:(lia)) as D1.
  pose proof (Z.mod_pos_bound (bits + 1) 2 ltac:(lia)) as D2.
  pose proof (Z.div_mod bits 2 ltac:(lia)) as D3.
  pose proof (Z.mod_pos_bound bits 2 ltac:(lia)) as D4.
  set (m := ((bits + 1) / 2)%Z) in *.
  assert (Hm : (1 <= m)%Z) by lia.
  rewrite horner_split by lia. rewrite (horner_zero _ _ pad H0).
  cbn [Z.mul]. rewrite Z.add_0_l.
  set (e := fun k => d (pad + k)%Z).
  assert (He : forall k, (0 <= k < m)%Z -> (0 <= e k < 4)%Z) by (intros; apply H4; lia).
  destruct (Z.eq_dec (bits mod 2) 0) as [E|E].
  - assert (Hbits : bits = (2 * m)%Z) by lia. rewrite Hbits.
    rewrite Z.pow_mul_r by lia. apply horner_bound; auto; lia.
  - assert (Hbits : bits = (1 + 2 * (m - 1))%Z) by lia. rewrite Hbits.
    rewrite Z.pow_add_r, Z.pow_mul_r by lia. change (2 ^ 1)%Z with 2%Z. change (2 ^ 2)%Z with 4%Z.
    replace m with (1 + (m - 1))%Z at 1 2 by lia. rewrite horner_split by lia.
    assert (B : (0 <= horner 4 (fun k => e (1 + k)) (m - 1) < 4 ^ (m - 1))%Z).
    { apply horner_bound; try lia. intros; apply He; lia. }
    change (horner 4 e 1) with (horner 4 e (0 + 1)). rewrite horner_S, horner_0 by lia.
    specialize (H1 E). assert (0 <= e 0 < 2)%Z by (subst e; cbn; rewrite Z.add_0_r; exact H1).
    nia.
Qed.

(** ** Soundness *)

Lemma rc_sound_l : forall T c w bits x row,
  wamount c = w -> (2 <= w)%Z -> (0 < bits)%Z -> C c 0 = 0%Z ->
  sat L T (rc_circuit c bits x row) ->
  exists N, (0 <= N < 2 ^ bits)%Z /\ vval T x = ofZ N.
Proof.
  intros T c w bits x row Hw Hw2 Hb HC H.
  destruct (rc_rows_spec w bits Hw2 Hb) as [R1 R2].
  destruct (rc_padding_spec w bits Hw2 Hb) as [Q1 [Q2 Q3]].
  unfold rc_circuit in H. rewrite Hw in H.
  rewrite sat_cons, !sat_app in H. destruct H as [G1 [G2 [CP K]]].
  apply sat_cons in K. destruct K as [K _]. cbn in K. rewrite HC in K.
  unfold rc_copies in CP. rewrite Hw in CP.
  rewrite sat_cons, sat_app, sat_map, sat_cons in CP. destruct CP as [Z0 [ZP [X _]]].
  cbn [holds] in Z0, X. rewrite vval_ccell, vval_wcell, K in Z0. rewrite vval_wcell in X.
  set (cpr := rc_cpr w) in *. assert (Hcpr : (1 <= cpr)%Z) by (subst cpr; unfold rc_cpr; lia).
  set (R := (rc_rows w bits - 1)%Z) in *.
  set (pad := rc_padding_size w bits) in *.
  assert (Hpad : rc_padded_chunks w bits = (R * cpr)%Z) by reflexivity.
  rewrite Hpad in Q2.
  (* digits *)
  assert (Dg : forall k, (0 <= k < R * cpr)%Z -> exists d,
     (0 <= d < 4)%Z /\ T CWit (W c (1 + k mod cpr)) (row + 1 + k / cpr)%Z = ofZ d /\
     ((k < pad)%Z -> d = 0%Z) /\ (k = pad -> (bits mod 2 <> 0)%Z -> (d < 2)%Z)).
  { intros k Hk.
    pose proof (Z.div_mod k cpr ltac:(lia)) as E1.
    pose proof (Z.mod_pos_bound k cpr ltac:(lia)) as E2.
    assert (E3 : (0 <= k / cpr < R)%Z) by nia.
    destruct (Z_lt_le_dec k pad) as [Hkp|Hkp].
    - assert (E4 : (k / cpr = 0)%Z) by (apply Z.div_small; subst cpr; unfold rc_cpr in *; lia).
      exists 0%Z. split; [lia|]. split; [|split; [lia|lia]].
      rewrite E4, Z.add_0_r. rewrite E4 in E1. rewrite Z.mul_0_r, Z.add_0_l in E1. rewrite <- E1.
      specialize (ZP (1 + k)%Z). rewrite in_zseq in ZP. specialize (ZP ltac:(lia)).
      cbn [holds] in ZP. rewrite vval_ccell, vval_wcell, K in ZP. symmetry. exact ZP.
    - assert (C1 : eval T (row + 1 + k / cpr) (chunk_expr (wv (W c (1 + k mod cpr)) 0) 2) = f0).
      { apply (G1 (row + 1 + k / cpr)%Z).
        - apply in_zseq. lia.
        - unfold rc_gate1. apply in_or_app. left.
          apply in_map_iff. exists (k mod cpr)%Z. split; [reflexivity|]. apply in_zseq. lia. }
      apply chunk_expr_roots in C1; [|lia]. destruct C1 as [d [Hd Ed]].
      rewrite gval_wv, Z.add_0_r in Ed.
      destruct (Z.eq_dec k pad) as [->|Nk].
      + assert (E4 : (pad / cpr = 0)%Z) by (apply Z.div_small; subst cpr; unfold rc_cpr in *; lia).
        destruct (bits mod 2 =? 0)%Z eqn:Eo.
        * apply Z.eqb_eq in Eo. exists d. split; [exact Hd|]. split; [exact Ed|]. split; [lia|]. lia.
        * apply sat_cons in G2. destruct G2 as [G2 _]. rewrite holds_gate1 in G2.
          unfold rc_gate2 in G2. rewrite all_cons in G2. destruct G2 as [G2 _].
          rewrite Hw in G2. fold pad in G2.
          apply chunk_expr_roots in G2; [|apply Z.mod_pos_bound; lia].
          destruct G2 as [d' [Hd' Ed']]. rewrite gval_wv, Z.add_0_r in Ed'.
          apply Z.eqb_neq in Eo.
          assert (Em : (bits mod 2 = 1)%Z) by (pose proof (Z.mod_pos_bound bits 2 ltac:(lia)); lia).
          rewrite Em in Hd'. exists d'. split; [lia|]. split; [|split; [lia|intros; lia]].
          rewrite E4, Z.add_0_r. rewrite Z.mod_small by (subst cpr; unfold rc_cpr in *; lia). exact Ed'.
      + exists d. split; [exact Hd|]. split; [exact Ed|]. split; intros; lia. }
  apply choose_range in Dg. destruct Dg as [d Hd].
  (* running sums *)
  assert (S : forall i, (0 <= i <= R)%Z -> T CWit (W c 0) (row + i)%Z = ofZ (horner 4 d (i * cpr))).
  { intros i Hi. destruct Hi as [Hi1 Hi2]. revert Hi2. pattern i.
    apply natlike_ind; [| |exact Hi1]; clear i Hi1.
    - intros _. rewrite Z.add_0_r, <- Z0, horner_0 by lia. reflexivity.
    - intros i Hi IH Hi2. unfold Z.succ in *.
      assert (C2 : eval T (row + (i + 1)) (rc_sum_expr c cpr) = f0).
      { apply (G1 (row + (i + 1))%Z).
        - apply in_zseq. lia.
        - unfold rc_gate1. apply in_or_app. right. left. reflexivity. }
      rewrite rc_sum_eval in C2 by lia.
      replace (row + (i + 1) + -1)%Z with (row + i)%Z in C2 by lia.
      rewrite IH in C2 by lia.
      apply fsub0 in C2. rewrite <- C2.
      rewrite (fhorner_ofZ P 4 (fun j => d (i * cpr + j)%Z)).
      + rewrite <- ofZ_mul, <- ofZ_add. f_equal.
        replace ((i + 1) * cpr)%Z with (i * cpr + cpr)%Z by ring.
        rewrite horner_split by nia. rewrite Z.pow_mul_r by lia. change (2 ^ 2)%Z with 4%Z. ring.
      + intros j Hj. destruct (Hd (i * cpr + j)%Z) as [_ [Ed _]]; [nia|].
        rewrite <- Ed. f_equal.
        * f_equal. f_equal. replace (i * cpr + j)%Z with (j + i * cpr)%Z by ring.
          rewrite Z.mod_add by lia. rewrite Z.mod_small by lia. reflexivity.
        * replace (i * cpr + j)%Z with (i * cpr + j)%Z by ring.
          rewrite Z.div_add_l by lia. rewrite Z.div_small by lia. lia. }
  exists (horner 4 d (R * cpr)). split.
  - rewrite Q2. apply rc_value_bound; try lia.
    + intros k Hk. destruct (Hd k) as [_ [_ [Hz _]]]; [lia|]. apply Hz; lia.
    + intros k Hk. destruct (Hd k) as [Hr _]; [lia|]. exact Hr.
    + intros Ho. destruct (Hd pad) as [Hr [_ [_ Hz]]]; [lia|]. specialize (Hz eq_refl Ho). lia.
  - rewrite X. replace (row + rc_rows w bits - 1)%Z with (row + R)%Z by (subst R; lia).
    apply S. subst R; lia.
Qed.

(** ** Completeness *)

Lemma rc_chunk_range : forall w bits x k, (0 <= rc_chunk w bits x k < 4)%Z.
Proof.
  intros. unfold rc_chunk, rc_bit, msb_bit.
  assert (B : forall i, (0 <= (if i <? rc_padding_bits w bits then 0 else
     Z.b2z (Z.testbit x (bits - 1 - (i - rc_padding_bits w bits)))) < 2)%Z).
  { intros i. destruct (i <? rc_padding_bits w bits)%Z; [lia|apply b2z_range]. }
  pose proof (B (2 * k)%Z). pose proof (B (2 * k + 1)%Z). lia.
Qed.

Lemma horner_pairs : forall (b : Z -> Z) n, (0 <= n)%Z ->
  horner 4 (fun k => 2 * b (2 * k) + b (2 * k + 1))%Z n = horner 2 b (2 * n).
Proof.
  intros b n Hn. pattern n. apply natlike_ind; [| |exact Hn]; clear n Hn.
  - reflexivity.
  - intros n Hn IH. unfold Z.succ. rewrite horner_S by lia. rewrite IH.
    replace (2 * (n + 1))%Z with (2 * n + 1 + 1)%Z by ring.
    rewrite !horner_S by lia. ring.
Qed.

Lemma rc_chunks_value : forall w bits x, (2 <= w)%Z -> (0 < bits)%Z ->
  horner 4 (rc_chunk w bits x) (rc_padded_chunks w bits) = (x mod 2 ^ bits)%Z.
Proof.
  intros w bits x Hw Hb.
  destruct (rc_padding_spec w bits Hw Hb) as [Q1 [Q2 Q3]].
  pose proof (rc_padding_bits_spec w bits Hw Hb) as PB.
  assert (HP : (0 <= rc_padded_chunks w bits)%Z) by lia.
  unfold rc_chunk at 1. rewrite (horner_pairs (rc_bit w bits x)) by lia.
  assert (E : (2 * rc_padded_chunks w bits = rc_padding_bits w bits + bits)%Z)
    by (unfold rc_padding_bits; lia).
  rewrite E. rewrite horner_split; [|destruct (bits mod 2 =? 0)%Z; lia|lia].
  rewrite horner_zero.
  - rewrite Z.mul_0_l, Z.add_0_l. rewrite <- horner_bits by lia. apply horner_ext.
    intros k Hk. unfold rc_bit. destruct (rc_padding_bits w bits + k <? rc_padding_bits w bits)%Z eqn:El.
    + apply Z.ltb_lt in El. lia.
    + f_equal. lia.
  - intros k Hk. unfold rc_bit. destruct (k <? rc_padding_bits w bits)%Z eqn:El; [reflexivity|].
    apply Z.ltb_ge in El. lia.
Qed.

(** Every entry of the write list. *)
Lemma rc_writes_in : forall c w bits xv row col r (v : F),
  wamount c = w -> (2 <= w)%Z -> (0 < bits)%Z ->
  In (col, r, v) (rc_writes c bits xv row) <->
  (col = W c 0 /\ r = row /\ v = f0) \/
  (exists i j, (0 <= i < rc_rows w bits - 1)%Z /\ (0 <= j < rc_cpr w)%Z /\
     col = W c (1 + j) /\ r = (row + 1 + i)%Z /\ v = ofZ (rc_chunk w bits xv (i * rc_cpr w + j))) \/
  (exists i, (0 <= i < rc_rows w bits - 1)%Z /\ col = W c 0 /\ r = (row + 1 + i)%Z /\
     v = fhorner (ofZ 4) (fun k => ofZ (rc_chunk w bits xv k)) ((i + 1) * rc_cpr w)%Z).
Proof.
  intros c w bits xv row col r v Hw Hw2 Hb. unfold rc_writes. rewrite Hw. split.
  - intros [E|H].
    + injection E as <- <- <-. left. auto.
    + right. apply in_flat_map in H. destruct H as [i [Hi H]]. apply in_zseq in Hi.
      apply in_app_or in H. destruct H as [H|[H|[]]].
      * left. apply in_map_iff in H. destruct H as [j [E Hj]]. apply in_zseq in Hj.
        injection E as <- <- <-. exists i, j. auto 7.
      * right. injection H as <- <- <-. exists i. auto.
  - intros [[-> [-> ->]]|[[i [j [Hi [Hj [-> [-> ->]]]]]]|[i [Hi [-> [-> ->]]]]]].
    + left. reflexivity.
    + right. apply in_flat_map. exists i. split; [apply in_zseq; lia|].
      apply in_or_app. left. apply in_map_iff. exists j. split; [reflexivity|apply in_zseq; lia].
    + right. apply in_flat_map. exists i. split; [apply in_zseq; lia|].
      apply in_or_app. right. left. reflexivity.
Qed.

(** The written cells, read back. *)
Lemma rc_assign_cells : forall T c w bits x row,
  wf_comp c w -> (2 <= w)%Z -> (0 < bits)%Z ->
  let T' := rc_assign c bits x row T in
  let xv := fval (vval T x) in
  T' CWit (W c 0) row = f0 /\
  (forall i j, (0 <= i < rc_rows w bits - 1)%Z -> (0 <= j < rc_cpr w)%Z ->
     T' CWit (W c (1 + j)) (row + 1 + i)%Z = ofZ (rc_chunk w bits xv (i * rc_cpr w + j))) /\
  (forall i, (0 <= i < rc_rows w bits - 1)%Z ->
     T' CWit (W c 0) (row + 1 + i)%Z = ofZ (horner 4 (rc_chunk w bits xv) ((i + 1) * rc_cpr w))) /\
  frame c (rc_rows w bits) row T T'.
Proof.
  intros T c w bits x row Hwf Hw2 Hb T' xv.
  pose proof Hwf as [_ [Hw _]].
  assert (Hcpr : rc_cpr w = (w - 1)%Z) by reflexivity.
  assert (RD : forall i r v, (0 <= i < w)%Z ->
     In (W c i, r, v) (rc_writes c bits xv row) ->
     (forall v', In (W c i, r, v') (rc_writes c bits xv row) -> v' = v) ->
     T' CWit (W c i) r = v).
  { intros. apply wsets_read; assumption. }
  assert (NE : forall j, (0 <= j < rc_cpr w)%Z -> W c 0 <> W c (1 + j)).
  { intros j Hj. eapply W_neq; eauto; lia. }
  split; [|split; [|split]].
  - apply RD; [lia| |].
    + apply (rc_writes_in c w); auto.
    + intros v' H. apply (rc_writes_in c w) in H; auto.
      destruct H as [[_ [_ E]]|[[i [j [Hi [Hj [E1 [E2 E3]]]]]]|[i [Hi [_ [E2 _]]]]]]; [exact E|lia|lia].
  - intros i j Hi Hj. apply RD; [lia| |].
    + apply (rc_writes_in c w); auto. right. left. exists i, j. auto 7.
    + intros v' H. apply (rc_writes_in c w) in H; auto.
      destruct H as [[E _]|[[i' [j' [Hi' [Hj' [E1 [E2 E3]]]]]]|[i' [Hi' [E _]]]]].
      * exfalso. apply (NE j Hj). auto.
      * apply (W_inj c w) in E1; [|assumption|lia|lia]. assert (j' = j) by lia. assert (i' = i) by lia. subst. reflexivity.
      * exfalso. apply (NE j Hj). auto.
  - intros i Hi. rewrite <- (fhorner_ofZ P 4 (rc_chunk w bits xv) (fun k => ofZ (rc_chunk w bits xv k))) by reflexivity.
    apply RD; [lia| |].
    + apply (rc_writes_in c w); auto. right. right. exists i. auto.
    + intros v' H. apply (rc_writes_in c w) in H; auto.
      destruct H as [[_ [E _]]|[[i' [j' [Hi' [Hj' [E1 [E2 E3]]]]]]|[i' [Hi' [_ [E ->]]]]]].
      * lia.
      * exfalso. apply (NE j' Hj'). auto.
      * assert (i' = i) by lia. subst. reflexivity.
  - apply (wsets_frame P c w); auto. intros col r v H. apply (rc_writes_in c w) in H; auto.
    destruct (rc_rows_spec w bits Hw2 Hb) as [R1 _].
    destruct H as [[-> [-> _]]|[[i [j [Hi [Hj [-> [-> _]]]]]]|[i [Hi [-> [-> _]]]]]];
      (split; [eexists; reflexivity|lia]).
Qed.

Lemma ofZ_range_mod : forall x bits, (fval x < 2 ^ bits)%Z -> ofZ (fval x mod 2 ^ bits) = x :> F.
Proof.
  intros x bits H. rewrite Z.mod_small; [apply ofZ_fval|]. pose proof (fval_range P x). lia.
Qed.

Definition rc_filled (T : table) (c : comp) (w bits xv row : Z) : Prop :=
  T CWit (W c 0) row = f0 /\
  (forall i j, (0 <= i < rc_rows w bits - 1)%Z -> (0 <= j < rc_cpr w)%Z ->
     T CWit (W c (1 + j)) (row + 1 + i)%Z = ofZ (rc_chunk w bits xv (i * rc_cpr w + j))) /\
  (forall i, (0 <= i < rc_rows w bits - 1)%Z ->
     T CWit (W c 0) (row + 1 + i)%Z = ofZ (horner 4 (rc_chunk w bits xv) ((i + 1) * rc_cpr w))).

Lemma rc_assign_filled : forall T c w bits x row, wf_comp c w -> (2 <= w)%Z -> (0 < bits)%Z ->
  rc_filled (rc_assign c bits x row T) c w bits (fval (vval T x)) row.
Proof.
  intros T c w bits x row H1 H2 H3. destruct (rc_assign_cells T c w bits x row H1 H2 H3) as [A [B [D _]]].
  split; [exact A|split; [exact B|exact D]].
Qed.

Lemma rc_assign_frame : forall T c w bits x row, wf_comp c w -> (2 <= w)%Z -> (0 < bits)%Z ->
  frame c (rc_rows w bits) row T (rc_assign c bits x row T).
Proof. intros T c w bits x row H1 H2 H3. apply (rc_assign_cells T c w bits x row H1 H2 H3). Qed.

Lemma rc_filled_frame : forall T T2 c w bits xv row n2 r2,
  frame c n2 r2 T T2 -> (2 <= w)%Z -> (0 < bits)%Z ->
  (row + rc_rows w bits <= r2 \/ r2 + n2 <= row)%Z ->
  rc_filled T c w bits xv row -> rc_filled T2 c w bits xv row.
Proof.
  intros T T2 c w bits xv row n2 r2 HF Hw2 Hb Hr [A [B D]].
  destruct (rc_rows_spec w bits Hw2 Hb) as [R1 _].
  split; [|split].
  - rewrite HF; [exact A|]. intros [_ [_ R]]. lia.
  - intros i j Hi Hj. rewrite HF; [apply B; assumption|]. intros [_ [_ R]]. lia.
  - intros i Hi. rewrite HF; [apply D; assumption|]. intros [_ [_ R]]. lia.
Qed.

Lemma rc_core : forall T' c w bits x xv row,
  wf_comp c w -> (2 <= w)%Z -> (0 < bits)%Z -> C c 0 = 0%Z ->
  rc_filled T' c w bits xv row -> T' CConst 0%Z row = f0 ->
  vval T' x = ofZ xv -> (0 <= xv < 2 ^ bits)%Z ->
  sat L T' (rc_circuit c bits x row).
Proof.
  intros T' c w bits x xv row Hwf Hw2 Hb HC [Z0 [CH SM]] K Ex Hx.
  pose proof Hwf as [_ [Hw _]].
  destruct (rc_rows_spec w bits Hw2 Hb) as [R1 R2].
  destruct (rc_padding_spec w bits Hw2 Hb) as [Q1 [Q2 Q3]].
  pose proof (rc_padding_bits_spec w bits Hw2 Hb) as PB.
  assert (Hcpr : rc_cpr w = (w - 1)%Z) by reflexivity.
  (* a padding chunk is zero *)
  assert (PZ : forall k, (0 <= k < rc_padding_size w bits)%Z -> rc_chunk w bits xv k = 0%Z).
  { intros k Hk. unfold rc_chunk, rc_bit.
    destruct (2 * k <? rc_padding_bits w bits)%Z eqn:E1; [|apply Z.ltb_ge in E1; destruct (bits mod 2 =? 0)%Z; lia].
    destruct (2 * k + 1 <? rc_padding_bits w bits)%Z eqn:E2; [|apply Z.ltb_ge in E2; destruct (bits mod 2 =? 0)%Z; lia].
    reflexivity. }
  unfold rc_circuit. rewrite Hw. apply sat_cons. split; [|apply sat_app; split; [|apply sat_app; split]].
  - intros r Hr e He. apply in_zseq in Hr. unfold rc_gate1 in He. apply in_app_or in He.
    destruct He as [He|[<-|[]]].
    + apply in_map_iff in He. destruct He as [j [<- Hj]]. apply in_zseq in Hj.
      apply chunk_expr_roots; [lia|]. exists (rc_chunk w bits xv ((r - row - 1) * rc_cpr w + j)).
      split; [apply rc_chunk_range|]. rewrite gval_wv, Z.add_0_r.
      rewrite <- CH by lia. f_equal. lia.
    + rewrite rc_sum_eval by lia.
      set (i := (r - row - 1)%Z). assert (Hi : (0 <= i < rc_rows w bits - 1)%Z) by (subst i; lia).
      assert (Er : r = (row + 1 + i)%Z) by (subst i; lia).
      rewrite Er. rewrite SM by lia.
      assert (E0 : T' CWit (W c 0) (row + 1 + i + -1)%Z = ofZ (horner 4 (rc_chunk w bits xv) (i * rc_cpr w))).
      { destruct (Z.eq_dec i 0) as [->|Ni].
        - replace (row + 1 + 0 + -1)%Z with row by lia. rewrite Z0. reflexivity.
        - replace (row + 1 + i + -1)%Z with (row + 1 + (i - 1))%Z by lia.
          rewrite SM by lia. f_equal. f_equal. ring. }
      rewrite E0.
      rewrite (fhorner_ofZ P 4 (fun j => rc_chunk w bits xv (i * rc_cpr w + j)%Z)) by (intros; apply CH; lia).
      rewrite <- ofZ_mul, <- ofZ_add. apply fsub_eq0. f_equal.
      replace ((i + 1) * rc_cpr w)%Z with (i * rc_cpr w + rc_cpr w)%Z by ring.
      rewrite horner_split by nia. rewrite Z.pow_mul_r by lia. change (2 ^ 2)%Z with 4%Z. ring.
  - destruct (bits mod 2 =? 0)%Z eqn:Eo; [apply sat_nil|].
    apply sat_cons. split; [|apply sat_nil]. apply holds_gate1. unfold rc_gate2. rewrite Hw.
    apply all_cons. split; [|apply all_nil; exact I].
    apply Z.eqb_neq in Eo.
    assert (Em : (bits mod 2 = 1)%Z) by (pose proof (Z.mod_pos_bound bits 2 ltac:(lia)); lia).
    rewrite Em. apply chunk_expr_roots; [lia|].
    exists (rc_chunk w bits xv (rc_padding_size w bits)). rewrite gval_wv, Z.add_0_r. split.
    + unfold rc_chunk. assert (E1 : rc_bit w bits xv (2 * rc_padding_size w bits) = 0%Z).
      { unfold rc_bit. destruct (2 * rc_padding_size w bits <? rc_padding_bits w bits)%Z eqn:E1; [reflexivity|].
        apply Z.ltb_ge in E1. lia. }
      rewrite E1. unfold rc_bit, msb_bit. destruct (_ <? _)%Z; [lia|].
      match goal with |- context [Z.b2z ?b] => pose proof (b2z_range b) end. lia.
    + replace (row + 1)%Z with (row + 1 + 0)%Z by lia. rewrite CH by lia.
      rewrite Z.mul_0_l, Z.add_0_l. reflexivity.
  - unfold rc_copies. rewrite Hw. apply sat_cons. split; [|apply sat_app; split].
    + cbn [holds]. rewrite vval_ccell, vval_wcell, K, Z0. reflexivity.
    + apply sat_map. intros i Hi. apply in_zseq in Hi. cbn [holds].
      rewrite vval_ccell, vval_wcell, K.
      replace i with (1 + (i - 1))%Z by lia. replace (row + 1)%Z with (row + 1 + 0)%Z by lia.
      rewrite CH by lia. rewrite Z.mul_0_l, Z.add_0_l, PZ by lia. reflexivity.
    + apply sat_cons. split; [|apply sat_nil]. cbn [holds]. rewrite vval_wcell.
      replace (row + rc_rows w bits - 1)%Z with (row + 1 + (rc_rows w bits - 2))%Z by lia.
      rewrite SM by lia. rewrite Ex.
      replace ((rc_rows w bits - 2 + 1) * rc_cpr w)%Z with (rc_padded_chunks w bits)
        by (unfold rc_padded_chunks; ring).
      rewrite rc_chunks_value by lia. rewrite Z.mod_small by lia. reflexivity.
  - apply sat_cons. split; [|apply sat_nil]. cbn [holds]. rewrite HC. exact K.
Qed.

Lemma rc_const_in : forall T c bits x row, C c 0 = 0%Z ->
  consts_in T (rc_circuit c bits x row) -> T CConst 0%Z row = f0.
Proof.
  intros T c bits x row HC HK. apply HK. rewrite <- HC. unfold rc_circuit. right. apply in_or_app. right.
  apply in_or_app. right. left. reflexivity.
Qed.

Lemma rc_complete_l : forall T c w bits x row,
  wf_comp c w -> (2 <= w)%Z -> (0 < bits)%Z -> C c 0 = 0%Z ->
  outside c (rc_rows w bits) row x ->
  consts_in T (rc_circuit c bits x row) ->
  (fval (vval T x) < 2 ^ bits)%Z ->
  let T' := rc_assign c bits x row T in
  sat L T' (rc_circuit c bits x row) /\ frame c (rc_rows w bits) row T T'.
Proof.
  intros T c w bits x row Hwf Hw2 Hb HC HO HK Hx T'.
  assert (FR : frame c (rc_rows w bits) row T T') by (apply rc_assign_frame; assumption).
  split; [|exact FR]. apply (rc_core T' c w bits x (fval (vval T x))); auto.
  - apply rc_assign_filled; assumption.
  - rewrite FR; [|intros [A _]; discriminate]. eapply rc_const_in; eauto.
  - rewrite (vval_frame P c _ _ _ _ _ FR HO). symmetry. apply ofZ_fval.
  - pose proof (fval_range P (vval T x)). lia.
Qed.

(** With a chunk count fitting the field, acceptance pins the representative. *)
Lemma ofZ_small_fval : forall (x : F) N b, (0 <= N < b)%Z -> (b <= char P)%Z -> x = ofZ N -> fval x = N.
Proof. intros x N b HN Hp ->. apply fval_ofZ_small. lia. Qed.

Lemma rc_sound_small : forall T c w bits x row,
  wamount c = w -> (2 <= w)%Z -> (0 < bits)%Z -> C c 0 = 0%Z -> (2 ^ bits <= char P)%Z ->
  sat L T (rc_circuit c bits x row) -> (fval (vval T x) < 2 ^ bits)%Z.
Proof.
  intros T c w bits x row Hw Hw2 Hb HC Hp H.
  destruct (rc_sound_l T c w bits x row Hw Hw2 Hb HC H) as [N [HN E]].
  rewrite (ofZ_small_fval _ N _ HN Hp E). lia.
Qed.

End Proofs.
