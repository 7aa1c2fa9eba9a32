(** Scalars of Ed25519: the range component and the reduction. *)
From Coq Require Import ZArith List Lia Bool Field Znumtheory Zpow_facts.
From Verif Require Import Base Field Plonk PlonkFacts NonNativeModel NonNativeProofs Sha256Model Sha256Complete EdScalarModel.
Import ListNotations.
Open Scope Z_scope.

(** ** Integers *)
Definition zl (f : Z -> Z -> Z) (l : list term) : Z := fold_right (fun x s => f (fst (fst x)) (snd (fst x)) * snd x + s) 0 l.
Lemma div_next : forall x a b, 0 <= a -> 0 <= b -> x / 2 ^ a = (x / 2 ^ a) mod 2 ^ b + 2 ^ b * (x / 2 ^ (a + b)).
Proof.
  intros x a b Ha Hb. rewrite Z.pow_add_r, <- Z.div_div by (try apply Z.pow_nonneg; try apply Z.pow_pos_nonneg; lia).
  rewrite Z.add_comm. apply Z.div_mod. apply Z.pow_nonzero; lia.
Qed.
Lemma dn : forall x a b c, a + b = c -> 0 <= a -> 0 <= b -> x / 2 ^ a = (x / 2 ^ a) mod 2 ^ b + 2 ^ b * (x / 2 ^ c).
Proof. intros x a b c <-. apply div_next. Qed.
Lemma q_val : ed_q = 7237005577332262213973186563042994240857116359379907606001950938285454250989.
Proof. reflexivity. Qed.
Lemma q_pos : 0 < ed_q. Proof. reflexivity. Qed.

(** The chunks of a number. *)
Definition sum22 (f : Z -> Z) : Z :=
  f 0 + f 1 * 2 ^ 22 + f 2 * 2 ^ 44 + f 3 * 2 ^ 66 + f 4 * 2 ^ 88 + f 5 * 2 ^ 110 +
  f 6 * 2 ^ 132 + f 7 * 2 ^ 154 + f 8 * 2 ^ 176 + f 9 * 2 ^ 198 + f 10 * 2 ^ 220 + f 11 * 2 ^ 242.
Lemma sn_chunks : forall x, 0 <= x < 2 ^ 264 -> sum22 (sn_chunk x) = x.
Proof.
  intros x Hx. unfold sum22, sn_chunk.
  pose proof (div_next x (22 * 0) 22 ltac:(lia) ltac:(lia)) as D0. pose proof (div_next x (22 * 1) 22 ltac:(lia) ltac:(lia)) as D1.
  pose proof (div_next x (22 * 2) 22 ltac:(lia) ltac:(lia)) as D2. pose proof (div_next x (22 * 3) 22 ltac:(lia) ltac:(lia)) as D3.
  pose proof (div_next x (22 * 4) 22 ltac:(lia) ltac:(lia)) as D4. pose proof (div_next x (22 * 5) 22 ltac:(lia) ltac:(lia)) as D5.
  pose proof (div_next x (22 * 6) 22 ltac:(lia) ltac:(lia)) as D6. pose proof (div_next x (22 * 7) 22 ltac:(lia) ltac:(lia)) as D7.
  pose proof (div_next x (22 * 8) 22 ltac:(lia) ltac:(lia)) as D8. pose proof (div_next x (22 * 9) 22 ltac:(lia) ltac:(lia)) as D9.
  pose proof (div_next x (22 * 10) 22 ltac:(lia) ltac:(lia)) as D10. pose proof (div_next x (22 * 11) 22 ltac:(lia) ltac:(lia)) as D11.
  assert (E : x / 2 ^ (22 * 11 + 22) = 0) by (apply Z.div_small; exact Hx). rewrite E in D11. change (2 ^ (22 * 0)) with 1 in D0. rewrite Z.div_1_r in D0.
  change (22 * 0 + 22) with (22 * 1) in D0. change (22 * 1 + 22) with (22 * 2) in D1. change (22 * 2 + 22) with (22 * 3) in D2. change (22 * 3 + 22) with (22 * 4) in D3.
  change (22 * 4 + 22) with (22 * 5) in D4. change (22 * 5 + 22) with (22 * 6) in D5. change (22 * 6 + 22) with (22 * 7) in D6. change (22 * 7 + 22) with (22 * 8) in D7.
  change (22 * 8 + 22) with (22 * 9) in D8. change (22 * 9 + 22) with (22 * 10) in D9. change (22 * 10 + 22) with (22 * 11) in D10.
  change (2 ^ (22 * 0)) with 1. rewrite Z.div_1_r.
  revert D0 D1 D2 D3 D4 D5 D6 D7 D8 D9 D10 D11. clear.
  repeat match goal with |- context [?a mod 2 ^ 22] => generalize (a mod 2 ^ 22); intro end.
  generalize (x / 2 ^ (22 * 1)) (x / 2 ^ (22 * 2)) (x / 2 ^ (22 * 3)) (x / 2 ^ (22 * 4)) (x / 2 ^ (22 * 5)) (x / 2 ^ (22 * 6)) (x / 2 ^ (22 * 7)) (x / 2 ^ (22 * 8))
    (x / 2 ^ (22 * 9)) (x / 2 ^ (22 * 10)) (x / 2 ^ (22 * 11)).
  intros. lia.
Qed.
Lemma sn_chunk_range : forall x i, 0 <= sn_chunk x i < 2 ^ 22.
Proof. intros x i. apply Z.mod_pos_bound. reflexivity. Qed.
Lemma sn_chunk_top : forall x, 0 <= x < 2 ^ 253 -> sn_chunk x 11 < 2 ^ 11.
Proof.
  intros x Hx. unfold sn_chunk. assert (x / 2 ^ (22 * 11) < 2 ^ 11) by (apply Z.div_lt_upper_bound; [reflexivity|apply Hx]).
  rewrite Z.mod_small; [assumption|]. split; [apply Z.div_pos; [lia|reflexivity]|]. eapply Z.lt_trans; [eassumption|reflexivity].
Qed.
(** The chunks of the remainder. *)
Lemma rd_chunks : forall r,
  r mod 2 ^ 13 + rd_chunk r 13 * 2 ^ 13 + rd_chunk r 33 * 2 ^ 33 + rd_chunk r 53 * 2 ^ 53 + rd_chunk r 73 * 2 ^ 73 + rd_chunk r 93 * 2 ^ 93 + rd_chunk r 113 * 2 ^ 113 +
  rd_chunk r 133 * 2 ^ 133 + rd_chunk r 153 * 2 ^ 153 + rd_chunk r 173 * 2 ^ 173 + rd_chunk r 193 * 2 ^ 193 + rd_chunk r 213 * 2 ^ 213 + (r / 2 ^ 233) * 2 ^ 233 = r.
Proof.
  intros r. unfold rd_chunk.
  pose proof (dn r 0 13 13 eq_refl ltac:(lia) ltac:(lia)) as D0. change (2 ^ 0) with 1 in D0. rewrite Z.div_1_r in D0.
  pose proof (dn r 13 20 33 eq_refl ltac:(lia) ltac:(lia)) as D1. pose proof (dn r 33 20 53 eq_refl ltac:(lia) ltac:(lia)) as D2. pose proof (dn r 53 20 73 eq_refl ltac:(lia) ltac:(lia)) as D3.
  pose proof (dn r 73 20 93 eq_refl ltac:(lia) ltac:(lia)) as D4. pose proof (dn r 93 20 113 eq_refl ltac:(lia) ltac:(lia)) as D5. pose proof (dn r 113 20 133 eq_refl ltac:(lia) ltac:(lia)) as D6.
  pose proof (dn r 133 20 153 eq_refl ltac:(lia) ltac:(lia)) as D7. pose proof (dn r 153 20 173 eq_refl ltac:(lia) ltac:(lia)) as D8. pose proof (dn r 173 20 193 eq_refl ltac:(lia) ltac:(lia)) as D9.
  pose proof (dn r 193 20 213 eq_refl ltac:(lia) ltac:(lia)) as D10. pose proof (dn r 213 20 233 eq_refl ltac:(lia) ltac:(lia)) as D11.
  revert D0 D1 D2 D3 D4 D5 D6 D7 D8 D9 D10 D11. clear.
  repeat match goal with |- context [?a mod ?b] => generalize (a mod b); intro end.
  repeat match goal with |- context [r / ?b] => generalize (r / b); intro end.
  intros. lia.
Qed.
Lemma rd_low_chunks : forall r, r mod 2 ^ 13 + rd_chunk r 13 * 2 ^ 13 + rd_chunk r 33 * 2 ^ 33 + rd_chunk r 53 * 2 ^ 53 = r mod 2 ^ 73.
Proof.
  intros r. apply (Zmod_unique r (2 ^ 73) (r / 2 ^ 73)).
  - unfold rd_chunk. pose proof (Z.mod_pos_bound r (2 ^ 13) eq_refl). pose proof (Z.mod_pos_bound (r / 2 ^ 13) (2 ^ 20) eq_refl).
    pose proof (Z.mod_pos_bound (r / 2 ^ 33) (2 ^ 20) eq_refl). pose proof (Z.mod_pos_bound (r / 2 ^ 53) (2 ^ 20) eq_refl). lia.
  - unfold rd_chunk. pose proof (dn r 0 13 13 eq_refl ltac:(lia) ltac:(lia)) as D0. change (2 ^ 0) with 1 in D0. rewrite Z.div_1_r in D0.
    pose proof (dn r 13 20 33 eq_refl ltac:(lia) ltac:(lia)) as D1. pose proof (dn r 33 20 53 eq_refl ltac:(lia) ltac:(lia)) as D2. pose proof (dn r 53 20 73 eq_refl ltac:(lia) ltac:(lia)) as D3. revert D0 D1 D2 D3. clear.
    repeat match goal with |- context [?a mod ?b] => generalize (a mod b); intro end.
    repeat match goal with |- context [r / ?b] => generalize (r / b); intro end. intros. lia.
Qed.
Lemma rd_d_mod : forall r, rd_d r = r mod 2 ^ 73.
Proof.
  intros r. unfold rd_d. set (m := _ + _ + _ + _).
  assert (E : m = (2 ^ 13 - 1) + ((r / 2 ^ 13) mod 2 ^ 60) * 2 ^ 13).
  { unfold m. replace ((r / 2 ^ 13) mod 2 ^ 60) with ((r / 2 ^ 13) mod 2 ^ 20 + ((r / 2 ^ 33) mod 2 ^ 20) * 2 ^ 20 + ((r / 2 ^ 53) mod 2 ^ 20) * 2 ^ 40); [ring|].
    apply (Zmod_unique _ (2 ^ 60) (r / 2 ^ 73)).
    - pose proof (Z.mod_pos_bound (r / 2 ^ 13) (2 ^ 20) eq_refl). pose proof (Z.mod_pos_bound (r / 2 ^ 33) (2 ^ 20) eq_refl).
      pose proof (Z.mod_pos_bound (r / 2 ^ 53) (2 ^ 20) eq_refl). lia.
    - pose proof (dn r 13 20 33 eq_refl ltac:(lia) ltac:(lia)) as D1. pose proof (dn r 33 20 53 eq_refl ltac:(lia) ltac:(lia)) as D2.
      pose proof (dn r 53 20 73 eq_refl ltac:(lia) ltac:(lia)) as D3. revert D1 D2 D3. clear.
      repeat match goal with |- context [?a mod ?b] => generalize (a mod b); intro end.
      repeat match goal with |- context [r / ?b] => generalize (r / b); intro end. intros. lia. }
  clearbody m. apply Z.bits_inj'. intros i Hi. rewrite Z.land_spec. destruct (Z_lt_ge_dec i 13) as [H|H].
  - rewrite Z.mod_pow2_bits_low by lia. rewrite <- (Z.mod_pow2_bits_low m 13 i) by lia.
    replace (m mod 2 ^ 13) with (Z.ones 13); [rewrite Z.ones_spec_low by lia; apply andb_true_r|]. rewrite E, Z.mod_add by discriminate. reflexivity.
  - replace (Z.testbit m i) with (Z.testbit (m / 2 ^ 13) (i - 13)) by (rewrite Z.div_pow2_bits by lia; f_equal; lia).
    replace (m / 2 ^ 13) with ((r / 2 ^ 13) mod 2 ^ 60); [|rewrite E, Z.div_add by discriminate; reflexivity].
    destruct (Z_lt_ge_dec i 73) as [H2|H2].
    + rewrite !Z.mod_pow2_bits_low by lia. rewrite Z.div_pow2_bits by lia. replace (i - 13 + 13) with i by lia. apply andb_diag.
    + rewrite !Z.mod_pow2_bits_high by lia. apply andb_false_r.
Qed.
Lemma rd_v_chunks : forall v, (v / 2 ^ 56) * 2 ^ 56 + (v / 2 ^ 34) mod 2 ^ 22 * 2 ^ 34 + (v / 2 ^ 12) mod 2 ^ 22 * 2 ^ 12 + v mod 2 ^ 12 = v.
Proof.
  intros v. pose proof (dn v 0 12 12 eq_refl ltac:(lia) ltac:(lia)) as D0. change (2 ^ 0) with 1 in D0. rewrite Z.div_1_r in D0.
  pose proof (dn v 12 22 34 eq_refl ltac:(lia) ltac:(lia)) as D1. pose proof (dn v 34 22 56 eq_refl ltac:(lia) ltac:(lia)) as D2. revert D0 D1 D2. clear.
  repeat match goal with |- context [?a mod ?b] => generalize (a mod b); intro end.
  repeat match goal with |- context [v / ?b] => generalize (v / b); intro end. intros. lia.
Qed.
Lemma rd_q_chunks : forall q, 0 <= q < 2 ^ 67 ->
  (q / 2 ^ 47) mod 2 ^ 20 * 2 ^ 47 + (q / 2 ^ 27) mod 2 ^ 20 * 2 ^ 27 + (q / 2 ^ 7) mod 2 ^ 20 * 2 ^ 7 + q mod 2 ^ 7 = q.
Proof.
  intros q Hq. pose proof (dn q 0 7 7 eq_refl ltac:(lia) ltac:(lia)) as D0. change (2 ^ 0) with 1 in D0. rewrite Z.div_1_r in D0.
  pose proof (dn q 7 20 27 eq_refl ltac:(lia) ltac:(lia)) as D1. pose proof (dn q 27 20 47 eq_refl ltac:(lia) ltac:(lia)) as D2.
  pose proof (dn q 47 20 67 eq_refl ltac:(lia) ltac:(lia)) as D3.
  assert (E : q / 2 ^ 67 = 0) by (apply Z.div_small; exact Hq). rewrite E in D3. revert D0 D1 D2 D3. clear.
  repeat match goal with |- context [?a mod ?b] => generalize (a mod b); intro end.
  repeat match goal with |- context [q / ?b] => generalize (q / b); intro end. intros. lia.
Qed.

Section Scalar.
Variable P : params.
Notation F := (F P).
Notation table := (table P).
Variable L : lenv P.
Implicit Types T : table.
Add Field Fsc : (F_field P) (morphism (F_morph P), constants [F_const], power_tac (F_power P) [F_pow_tac]).

(** ** Sums of cells and blocks *)
Lemma lin_val : forall T c r l (f : Z -> Z -> Z), (forall i o w, In (i, o, w) l -> T CWit (W c i) (r + o) = ofZ (f i o)) ->
  eval T r (lin c l) = ofZ (zl f l).
Proof.
  intros T c r l f. induction l as [|[[i o] w] l IH]; intros H; [unfold lin, zl; cbn [fold_right]; rewrite eval_ecst; reflexivity|].
  unfold lin, zl. cbn [fold_right fst snd]. fold (lin (P := P) c l). fold (zl f l). rewrite !eval_bin, eval_evar, eval_ecst, gval_wv. cbn [ebop].
  rewrite (H i o w (or_introl eq_refl)), IH by (intros i' o' w' Hi; apply (H i' o' w'); right; exact Hi). rewrite ofZ_add, ofZ_mul. reflexivity.
Qed.
(** The numbers in the cells of a block. *)
Definition zcell T (c : comp) (row i o : Z) : Z := fval (T CWit (W c i) (row + o)).
Definition bcell T (c : comp) (row : Z) (b : list (list Z)) (i o : Z) : Z :=
  match nth_error (znth [] b o) (Z.to_nat i) with Some z => z | None => zcell T c row i o end.
Definition tells T c row n (z : Z -> Z -> Z) : Prop := forall i o, 0 <= i < 9 -> 0 <= o < n -> T CWit (W c i) (row + o) = ofZ (z i o).
Lemma tells_cells : forall T c row n, tells T c row n (zcell T c row).
Proof. intros T c row n i o _ _. symmetry. apply ofZ_fval. Qed.
Lemma tells_block : forall T c row b, wf_comp c 9 -> tells (put_block c row b T) c row (zlen b) (bcell (put_block c row b T) c row b).
Proof.
  intros T c row b Hwf i o Hi Ho. unfold bcell. destruct (nth_error (znth [] b o) (Z.to_nat i)) as [z|] eqn:E; [|symmetry; apply ofZ_fval].
  unfold put_block. apply put_at; [exact Hwf|exact Ho|exact Hi|]. unfold block_cells. rewrite E. reflexivity.
Qed.
Lemma block_frame : forall T c row b, frame c (zlen b) row T (put_block c row b T).
Proof. intros T c row b. apply put_frame. Qed.

Ltac terms z row o := intros i r w Hin; cbn [In] in Hin;
  repeat (destruct Hin as [Hin|Hin]; [injection Hin as <- <- _; cbv beta; match goal with |- _ = ofZ (z ?a ?b) => replace (row + o + _) with (row + b) by lia end|]);
  [..|contradiction].

(** ** Range *)
Lemma sn_iff : forall T c k row z, tells T c row 3 z ->
  (sat L T (sn_circuit c k row) <->
   (ofZ (z 0 0 - zl (fun i o => z i (1 + o)) sn_k_terms) = f0 :> F /\ ofZ (z 4 1 - z 0 0 - sn_d) = f0 :> F /\
    ofZ (z 4 1 - zl (fun i o => z i (1 + o)) sn_dk_terms) = f0 :> F /\ ofZ (z 0 0) = vval T k)).
Proof.
  intros T c k row z H.
  assert (A : forall l, (forall x, In x l -> 0 <= fst (fst x) < 9 /\ -1 <= snd (fst x) < 2) -> eval T (row + 1) (lin c l) = ofZ (zl (fun i o => z i (1 + o)) l)).
  { intros l Hl. apply lin_val. intros i o w Hin. destruct (Hl _ Hin) as [B1 B2]. cbn [fst snd] in B1, B2.
    replace (row + 1 + o) with (row + (1 + o)) by lia. apply H; lia. }
  unfold sn_circuit. rewrite !sat_cons, holds_gate1. unfold sn_gate. rewrite !all_cons. cbn [holds]. rewrite vval_wcell.
  rewrite !eval_bin, !eval_evar, !eval_ecst, !gval_wv. cbn [ebop].
  rewrite !A by (intros x Hx; cbn [In sn_k_terms sn_dk_terms] in Hx; repeat (destruct Hx as [<-|Hx]; [cbn [fst snd]; lia|]); contradiction).
  replace (row + 1 + -1) with (row + 0) by lia. rewrite !Z.add_0_r, !ofZ_sub.
  pose proof (H 0 0 ltac:(lia) ltac:(lia)) as E0. pose proof (H 4 1 ltac:(lia) ltac:(lia)) as E4. rewrite Z.add_0_r in E0. rewrite E0, E4.
  split; [intros [[G1 [G2 [G3 _]]] [G4 _]]; repeat apply conj; assumption|intros [G1 [G2 [G3 G4]]]; repeat apply conj; try assumption; intros x []].
Qed.

(** The chunk [i] of the scalar and of the scalar plus [sn_d]. *)
Definition sn_kc (z : Z -> Z -> Z) (i : Z) : Z := if i <? 8 then z (i + 1) 0 else z (i - 8) 1.
Definition sn_dc (z : Z -> Z -> Z) (i : Z) : Z := if i <? 4 then z (i + 5) 1 else z (i - 4) 2.
Lemma sn_k_sum : forall z, zl (fun i o => z i (1 + o)) sn_k_terms = sum22 (sn_kc z).
Proof.
  intros z. change (zl (fun i o => z i (1 + o)) sn_k_terms) with (z 1 0 * 1 + (z 2 0 * 2 ^ 22 + (z 3 0 * 2 ^ 44 + (z 4 0 * 2 ^ 66 + (z 5 0 * 2 ^ 88 + (z 6 0 * 2 ^ 110 + (z 7 0 * 2 ^ 132 +
    (z 8 0 * 2 ^ 154 + (z 0 1 * 2 ^ 176 + (z 1 1 * 2 ^ 198 + (z 2 1 * 2 ^ 220 + (z 3 1 * 2 ^ 242 + 0)))))))))))).
  change (sum22 (sn_kc z)) with (z 1 0 + z 2 0 * 2 ^ 22 + z 3 0 * 2 ^ 44 + z 4 0 * 2 ^ 66 + z 5 0 * 2 ^ 88 + z 6 0 * 2 ^ 110 + z 7 0 * 2 ^ 132 +
    z 8 0 * 2 ^ 154 + z 0 1 * 2 ^ 176 + z 1 1 * 2 ^ 198 + z 2 1 * 2 ^ 220 + z 3 1 * 2 ^ 242). ring.
Qed.
Lemma sn_d_sum : forall z, zl (fun i o => z i (1 + o)) sn_dk_terms = sum22 (sn_dc z).
Proof.
  intros z. change (zl (fun i o => z i (1 + o)) sn_dk_terms) with (z 5 1 * 1 + (z 6 1 * 2 ^ 22 + (z 7 1 * 2 ^ 44 + (z 8 1 * 2 ^ 66 + (z 0 2 * 2 ^ 88 + (z 1 2 * 2 ^ 110 + (z 2 2 * 2 ^ 132 +
    (z 3 2 * 2 ^ 154 + (z 4 2 * 2 ^ 176 + (z 5 2 * 2 ^ 198 + (z 6 2 * 2 ^ 220 + (z 7 2 * 2 ^ 242 + 0)))))))))))).
  change (sum22 (sn_dc z)) with (z 5 1 + z 6 1 * 2 ^ 22 + z 7 1 * 2 ^ 44 + z 8 1 * 2 ^ 66 + z 0 2 * 2 ^ 88 + z 1 2 * 2 ^ 110 + z 2 2 * 2 ^ 132 +
    z 3 2 * 2 ^ 154 + z 4 2 * 2 ^ 176 + z 5 2 * 2 ^ 198 + z 6 2 * 2 ^ 220 + z 7 2 * 2 ^ 242). ring.
Qed.
Lemma twelve : forall i, 0 <= i < 12 -> i = 0 \/ i = 1 \/ i = 2 \/ i = 3 \/ i = 4 \/ i = 5 \/ i = 6 \/ i = 7 \/ i = 8 \/ i = 9 \/ i = 10 \/ i = 11.
Proof. lia. Qed.
Lemma sum22_ext : forall f g, (forall i, 0 <= i < 12 -> f i = g i) -> sum22 f = sum22 g.
Proof. intros f g H. unfold sum22. rewrite !H by lia. reflexivity. Qed.
(** Any chunks with the right sums are accepted. *)
Lemma sn_write : forall T c k row dk kc dc, wf_comp c 9 -> outside c 3 row k -> let kz := fval (vval T k) in
  ofZ (kz - sum22 kc) = f0 :> F -> ofZ (dk - kz - sn_d) = f0 :> F -> ofZ (dk - sum22 dc) = f0 :> F ->
  let T' := put_block c row (sn_block kz dk kc dc) T in
  sat L T' (sn_circuit c k row) /\ frame c 3 row T T' /\
  (forall i, 0 <= i < 12 -> vval T' (sn_out c row i) = ofZ (kc i) /\ T' CWit (W c (if i <? 4 then i + 5 else i - 4)) (row + (if i <? 4 then 1 else 2)) = ofZ (dc i)).
Proof.
  intros T c k row dk kc dc Hwf O kz H1 H2 H3 T'. pose proof (block_frame T c row (sn_block kz dk kc dc)) as FR. change (zlen (sn_block kz dk kc dc)) with 3 in FR. fold T' in FR.
  pose proof (tells_block T c row (sn_block kz dk kc dc) Hwf) as TB. change (zlen (sn_block kz dk kc dc)) with 3 in TB. fold T' in TB.
  split; [|split; [exact FR|]].
  - apply (sn_iff T' c k row _ TB). rewrite sn_k_sum, sn_d_sum. set (z := bcell T' c row (sn_block kz dk kc dc)).
    assert (EK : sum22 (sn_kc z) = sum22 kc) by (apply sum22_ext; intros i Hi; destruct (twelve i Hi) as [-> |[-> |[-> |[-> |[-> |[-> |[-> |[-> |[-> |[-> |[-> | ->]]]]]]]]]]]; reflexivity).
    assert (ED : sum22 (sn_dc z) = sum22 dc) by (apply sum22_ext; intros i Hi; destruct (twelve i Hi) as [-> |[-> |[-> |[-> |[-> |[-> |[-> |[-> |[-> |[-> |[-> | ->]]]]]]]]]]]; reflexivity).
    rewrite EK, ED. change (z 0 0) with kz. change (z 4 1) with dk. repeat apply conj; [exact H1|exact H2|exact H3|].
    rewrite (vval_frame P c 3 row T T' k FR O). exact (ofZ_fval P (vval T k)).
  - assert (TB0 : forall a, 0 <= a < 9 -> T' CWit (W c a) row = ofZ (bcell T' c row (sn_block kz dk kc dc) a 0)).
    { intros a Ha. rewrite <- TB by lia. rewrite Z.add_0_r. reflexivity. }
    intros i Hi. destruct (twelve i Hi) as [-> |[-> |[-> |[-> |[-> |[-> |[-> |[-> |[-> |[-> |[-> | ->]]]]]]]]]]];
      (split; unfold sn_out; cbn [Z.ltb Z.compare Pos.compare Pos.compare_cont]; [rewrite vval_wcell|]);
      match goal with
      | |- T' CWit (W c ?a) row = _ => rewrite (TB0 a) by (vm_compute; split; congruence); reflexivity
      | |- T' CWit (W c ?a) (row + ?b) = _ => rewrite (TB a b) by (vm_compute; split; congruence); reflexivity
      end.
Qed.
Lemma sn_complete_l : forall T c k row, wf_comp c 9 -> outside c 3 row k -> fval (vval T k) < 2 ^ 263 ->
  let T' := sn_assign c k row T in let kz := fval (vval T k) in
  sat L T' (sn_circuit c k row) /\ frame c 3 row T T' /\
  (forall i, 0 <= i < 12 -> vval T' (sn_out c row i) = ofZ (sn_chunk kz i) /\
    T' CWit (W c (if i <? 4 then i + 5 else i - 4)) (row + (if i <? 4 then 1 else 2)) = ofZ (sn_chunk (kz + sn_d) i)).
Proof.
  intros T c k row Hwf O Hk. pose proof (fval_range P (vval T k)) as R. change (char P) with (char P) in R.
  assert (D : 0 <= sn_d < 2 ^ 253) by (vm_compute; split; congruence).
  apply sn_write; [exact Hwf|exact O| | |].
  - rewrite sn_chunks by (split; [apply R|]; eapply Z.lt_trans; [exact Hk|reflexivity]). rewrite Z.sub_diag. reflexivity.
  - replace (_ - _ - _) with 0 by ring. reflexivity.
  - rewrite sn_chunks; [rewrite Z.sub_diag; reflexivity|]. split; [lia|]. assert (2 ^ 263 + 2 ^ 253 < 2 ^ 264) by reflexivity. lia.
Qed.
Lemma sn_sound_l : forall T c k row, sat L T (sn_circuit c k row) ->
  vval T k = ofZ (sum22 (fun i => fval (vval T (sn_out c row i)))).
Proof.
  intros T c k row S. apply (sn_iff T c k row _ (tells_cells T c row 3)) in S. destruct S as [G1 [_ [_ G4]]]. rewrite sn_k_sum in G1.
  rewrite ofZ_sub in G1. apply (proj1 (fsub_eq0 P _ _)) in G1. rewrite <- G4, G1. f_equal. unfold sum22, sn_kc, sn_out, zcell.
  cbn [Z.ltb Z.compare Pos.compare Pos.compare_cont]. rewrite !vval_wcell, !Z.add_0_r. reflexivity.
Qed.
Lemma sum22_range : forall f, (forall i, 0 <= i < 11 -> 0 <= f i < 2 ^ 22) -> 0 <= f 11 < 2 ^ 11 -> 0 <= sum22 f < 2 ^ 253.
Proof.
  intros f H H11. unfold sum22. pose proof (H 0 ltac:(lia)). pose proof (H 1 ltac:(lia)). pose proof (H 2 ltac:(lia)). pose proof (H 3 ltac:(lia)). pose proof (H 4 ltac:(lia)).
  pose proof (H 5 ltac:(lia)). pose proof (H 6 ltac:(lia)). pose proof (H 7 ltac:(lia)). pose proof (H 8 ltac:(lia)). pose proof (H 9 ltac:(lia)). pose proof (H 10 ltac:(lia)). clear H. lia.
Qed.
Lemma sn_range_l : forall T c k row, 2 ^ 254 <= char P -> sat L T (sn_circuit c k row) ->
  (forall i, 0 <= i < 12 -> fval (vval T (sn_out c row i)) < (if i =? 11 then 2 ^ 11 else 2 ^ 22) /\
    fval (T CWit (W c (if i <? 4 then i + 5 else i - 4)) (row + (if i <? 4 then 1 else 2))) < (if i =? 11 then 2 ^ 11 else 2 ^ 22)) ->
  fval (vval T k) < ed_q /\ fval (vval T k) = sum22 (fun i => fval (vval T (sn_out c row i))).
Proof.
  intros T c k row big S HB. pose proof (sn_sound_l T c k row S) as E. apply (sn_iff T c k row _ (tells_cells T c row 3)) in S. destruct S as [_ [G2 [G3 G4]]].
  rewrite sn_d_sum in G3. set (kk := fun i => fval (vval T (sn_out c row i))) in *. set (dd := sn_dc (zcell T c row)) in *.
  assert (Rk : 0 <= sum22 kk < 2 ^ 253).
  { apply sum22_range; [intros i Hi|]; (split; [apply fval_range|]).
    - destruct (HB i ltac:(lia)) as [B _]. replace (i =? 11) with false in B by (symmetry; apply Z.eqb_neq; lia). exact B.
    - exact (proj1 (HB 11 ltac:(lia))). }
  assert (Rd : 0 <= sum22 dd < 2 ^ 253).
  { apply sum22_range; [intros i Hi|]; (split; [unfold dd, sn_dc; destruct (_ <? _); apply fval_range|]).
    - destruct (HB i ltac:(lia)) as [_ B]. replace (i =? 11) with false in B by (symmetry; apply Z.eqb_neq; lia).
      unfold dd, sn_dc, zcell. destruct (i <? 4); exact B.
    - exact (proj2 (HB 11 ltac:(lia))). }
  assert (Ek : fval (vval T k) = sum22 kk).
  { rewrite E. apply (fval_ofZ_small P). split; [apply Rk|]. eapply Z.lt_le_trans; [apply Rk|]. eapply Z.le_trans; [|exact big]. vm_compute. discriminate. }
  split; [|exact Ek]. rewrite Ek.
  assert (Z1 : zcell T c row 0 0 = sum22 kk) by (rewrite <- Ek, <- G4; unfold zcell; rewrite ofZ_fval; reflexivity).
  assert (Q : ofZ (sum22 dd - (sum22 kk + sn_d)) = f0 :> F).
  { rewrite Z1 in G2. rewrite ofZ_sub in G3. apply (proj1 (fsub_eq0 P _ _)) in G3. rewrite !ofZ_sub, G3 in G2. rewrite ofZ_sub, ofZ_add. rewrite <- G2. ring. }
  assert (D : 0 <= sn_d < 2 ^ 253) by (vm_compute; split; congruence).
  assert (D2 : sn_d = 2 ^ 253 - ed_q) by reflexivity. change (2 ^ 254) with (2 * 2 ^ 253) in big.
  apply (ofZ_zero P) in Q; [|lia]. lia.
Qed.
(** Without ranges the chunks after the first are free. *)
Lemma sn_any_l : forall T c k row (x : Z -> F), wf_comp c 9 -> outside c 3 row k ->
  exists T', frame c 3 row T T' /\ sat L T' (sn_circuit c k row) /\ forall i, 1 <= i < 12 -> vval T' (sn_out c row i) = x i.
Proof.
  intros T c k row x Hwf O. set (kz := fval (vval T k)).
  set (t := sum22 (fun i => if i =? 0 then 0 else fval (x i))).
  destruct (sn_write T c k row (kz + sn_d) (fun i => if i =? 0 then kz - t else fval (x i)) (fun i => if i =? 0 then kz + sn_d else 0) Hwf O) as [S [FR V]].
  - fold kz. replace (kz - _) with 0; [reflexivity|]. unfold t, sum22. cbn [Z.eqb Pos.eqb]. ring.
  - fold kz. replace (_ - _ - _) with 0 by ring. reflexivity.
  - replace (_ - _) with 0; [reflexivity|]. unfold sum22. cbn [Z.eqb Pos.eqb]. ring.
  - eexists. split; [exact FR|]. split; [exact S|]. intros i Hi. destruct (V i ltac:(lia)) as [V1 _]. rewrite V1.
    replace (i =? 0) with false by (symmetry; apply Z.eqb_neq; lia). apply ofZ_fval.
Qed.

(** ** Reduction *)
Lemma rd_iff : forall T c k row z, tells T c row 4 z ->
  let z1 i o := z i (1 + o) in let z2 i o := z i (2 + o) in
  let s := ofZ (zl z1 rd_s_terms - 12 * (2 ^ 20 - 1)) : F in
  (sat L T (rd_circuit c k row) <->
   (ofZ (z 4 1 - zl z1 rd_r_terms) = f0 :> F /\
    fmul s (fsub (fmul s (ofZ (z 5 1))) f1) = f0 /\ fsub (fadd (fmul s (ofZ (z 5 1))) (fmul (fsub f1 (fmul s (ofZ (z 5 1)))) (ofZ (z 6 1)))) f1 = f0 /\
    ofZ (zl z2 rd_terms - z 4 1 - zl z2 rd_q_terms * ed_q) = f0 :> F /\
    ofZ (zl z2 rd_low_terms + zl z2 rd_q_terms * rd_l - zl z2 rd_rlow_terms - z 8 3 * 2 ^ 69) = f0 :> F /\
    ofZ (z 8 3 - zl z2 rd_v_terms) = f0 :> F /\ forall i, 0 <= i < 8 -> ofZ (z i 3) = vval T (nv k i))).
Proof.
  intros T c k row z H z1 z2 s.
  assert (A : forall d l, 1 <= d <= 2 -> (forall x, In x l -> 0 <= fst (fst x) < 9 /\ -1 <= snd (fst x) < 2) ->
    eval T (row + d) (lin c l) = ofZ (zl (fun i o => z i (d + o)) l)).
  { intros d l Hd Hl. apply lin_val. intros i o w Hin. destruct (Hl _ Hin) as [B1 B2]. cbn [fst snd] in B1, B2.
    replace (row + d + o) with (row + (d + o)) by lia. apply H; lia. }
  unfold rd_circuit. rewrite sat_app, !sat_cons, !holds_gate1. unfold rd_gate1, rd_gate2. cbv zeta. rewrite !all_cons.
  rewrite !eval_bin, !eval_evar, !eval_ecst, !gval_wv. cbn [ebop].
  rewrite !A by first [lia|intros x Hx; cbn [In rd_terms rd_q_terms rd_s_terms rd_r_terms rd_low_terms rd_rlow_terms rd_v_terms] in Hx;
    repeat (destruct Hx as [<-|Hx]; [cbn [fst snd]; lia|]); contradiction].
  replace (row + 2 + 1) with (row + 3) by lia. replace (row + 2 + -1) with (row + 1) by lia. rewrite !Z.add_0_r.
  rewrite (H 4 1), (H 5 1), (H 6 1), (H 8 3) by lia. fold z1 z2. unfold s. rewrite !ofZ_sub, !ofZ_add, !ofZ_mul.
  assert (B : sat L T (map (fun i => Copy (wcell (W c i) (row + 3)) (nv k i)) (zseq 0 8)) <-> forall i, 0 <= i < 8 -> ofZ (z i 3) = vval T (nv k i)).
  { split.
    - intros S i Hi. specialize (S _ (in_map _ _ i (proj2 (in_zseq 0 8 i) Hi))). cbn [holds] in S. rewrite vval_wcell, H in S by lia. exact S.
    - intros S g Hg. apply in_map_iff in Hg. destruct Hg as [i [<- Hi]]. apply in_zseq in Hi. cbn [holds]. rewrite vval_wcell, H by lia. apply S. exact Hi. }
  rewrite B. change (ofZ 1 : F) with (f1 : F).
  split; [intros [[[G1 [G2 [G3 _]]] [[G4 [G5 [G6 _]]] _]] G7]; repeat apply conj; assumption|
    intros [G1 [G2 [G3 [G4 [G5 [G6 G7]]]]]]; repeat apply conj; try assumption; intros x []].
Qed.

(** Sums over the cells of the reduction. *)
Definition rd_wk (w : Z -> Z) : Z :=
  w 0 + w 1 * 2 ^ 64 + w 2 * 2 ^ 128 + w 3 * 2 ^ 192 + w 4 * (2 ^ 256 mod ed_q) + w 5 * (2 ^ 320 mod ed_q) + w 6 * (2 ^ 384 mod ed_q) + w 7 * (2 ^ 448 mod ed_q).
Definition rd_wc (w : Z -> Z) (q : Z) : Z :=
  w 0 + w 1 * 2 ^ 64 + w 3 * rd_m 192 + w 4 * rd_m 256 + w 5 * rd_m 320 + w 6 * rd_m 384 + w 7 * rd_m 448 + q * rd_l.
Lemma rd_terms_sum : forall z, zl (fun i o => z i (2 + o)) rd_terms = rd_wk (fun i => z i 3).
Proof.
  intros z. unfold zl, rd_terms, rd_wk. cbn [fold_right fst snd]. change (2 + 1) with 3.
  generalize (z 0 3) (z 1 3) (z 2 3) (z 3 3) (z 4 3) (z 5 3) (z 6 3) (z 7 3). intros w0 w1 w2 w3 w4 w5 w6 w7.
  change (2 ^ 256 mod ed_q) with 0xffffffffffffffffffffffffffffffec6ef5bf4737dcf70d6ec31748d98951d.
  change (2 ^ 320 mod ed_q) with 0xffffffffffffffeb2106215d086329a93b8c838d39a5e065812631a5cf5d3ed.
  change (2 ^ 384 mod ed_q) with 0x2106215d086329a7ed9ce5a30a2c131b64a7f435e4fdd9539822129a02a6271.
  change (2 ^ 448 mod ed_q) with 0xed9ce5a30a2c131b399411b7c309a3de24babbe38d1d7a979daf520a00acb65. lia.
Qed.
Lemma rd_low_sum : forall z q, zl (fun i o => z i (2 + o)) rd_low_terms + q * rd_l = rd_wc (fun i => z i 3) q.
Proof.
  intros z q. unfold zl, rd_low_terms, rd_wc. cbn [fold_right fst snd]. change (2 + 1) with 3.
  generalize (rd_m 192) (rd_m 256) (rd_m 320) (rd_m 384) (rd_m 448) rd_l. intros. ring.
Qed.
Definition rd_qz (z : Z -> Z -> Z) : Z := z 0 2 * 2 ^ 47 + z 1 2 * 2 ^ 27 + z 2 2 * 2 ^ 7 + z 3 2.
Lemma rd_q_sum : forall z, zl (fun i o => z i (2 + o)) rd_q_terms = rd_qz z.
Proof. intros z. unfold zl, rd_q_terms, rd_qz. cbn [fold_right fst snd]. change (2 + 0) with 2. lia. Qed.
Definition rd_lowz (z : Z -> Z -> Z) : Z := z 3 1 + z 2 1 * 2 ^ 13 + z 1 1 * 2 ^ 33 + z 0 1 * 2 ^ 53.
Lemma rd_rlow_sum : forall z, zl (fun i o => z i (2 + o)) rd_rlow_terms = rd_lowz z.
Proof. intros z. unfold zl, rd_rlow_terms, rd_lowz. cbn [fold_right fst snd]. change (2 + -1) with 1. ring. Qed.
Definition rd_rz (z : Z -> Z -> Z) : Z :=
  rd_lowz z + (z 8 0 + z 7 0 * 2 ^ 20 + z 6 0 * 2 ^ 40 + z 5 0 * 2 ^ 60 + z 4 0 * 2 ^ 80 + z 3 0 * 2 ^ 100 + z 2 0 * 2 ^ 120 + z 1 0 * 2 ^ 140 + z 0 0 * 2 ^ 160) * 2 ^ 73.
Lemma rd_r_sum : forall z, zl (fun i o => z i (1 + o)) rd_r_terms = rd_rz z.
Proof. intros z. unfold zl, rd_r_terms, rd_rz, rd_lowz. cbn [fold_right fst snd]. change (1 + -1) with 0. change (1 + 0) with 1. lia. Qed.
Definition rd_vz (z : Z -> Z -> Z) : Z := z 4 2 * 2 ^ 56 + z 5 2 * 2 ^ 34 + z 6 2 * 2 ^ 12 + z 7 2.
Lemma rd_v_sum : forall z, zl (fun i o => z i (2 + o)) rd_v_terms = rd_vz z.
Proof. intros z. unfold zl, rd_v_terms, rd_vz. cbn [fold_right fst snd]. change (2 + 0) with 2. ring. Qed.

(** The two gates modulo 2^73: what is left of the first equation. *)
Lemma rd_link : forall w q r rl, exists e, rd_wk w - (rl + r * 2 ^ 73) - q * ed_q = rd_wc w q - rl + e * 2 ^ 73.
Proof.
  intros w q r rl.
  exists (w 2 * 2 ^ 55 + w 3 * 2 ^ 119 + w 4 * ((2 ^ 256 mod ed_q) / 2 ^ 73) + w 5 * ((2 ^ 320 mod ed_q) / 2 ^ 73) + w 6 * ((2 ^ 384 mod ed_q) / 2 ^ 73) +
    w 7 * ((2 ^ 448 mod ed_q) / 2 ^ 73) - q * (ed_q / 2 ^ 73 + 1) - r).
  unfold rd_wk, rd_wc, rd_m, rd_l.
  pose proof (Z.div_mod (2 ^ 256 mod ed_q) (2 ^ 73) ltac:(discriminate)) as D1. pose proof (Z.div_mod (2 ^ 320 mod ed_q) (2 ^ 73) ltac:(discriminate)) as D2.
  pose proof (Z.div_mod (2 ^ 384 mod ed_q) (2 ^ 73) ltac:(discriminate)) as D3. pose proof (Z.div_mod (2 ^ 448 mod ed_q) (2 ^ 73) ltac:(discriminate)) as D4.
  pose proof (Z.div_mod ed_q (2 ^ 73) ltac:(discriminate)) as D5.
  change ((2 ^ 192 mod ed_q) mod 2 ^ 73) with 0.
  generalize dependent ((2 ^ 256 mod ed_q) mod 2 ^ 73). generalize dependent ((2 ^ 320 mod ed_q) mod 2 ^ 73). generalize dependent ((2 ^ 384 mod ed_q) mod 2 ^ 73).
  generalize dependent ((2 ^ 448 mod ed_q) mod 2 ^ 73). generalize dependent (ed_q mod 2 ^ 73).
  generalize ((2 ^ 256 mod ed_q) / 2 ^ 73) ((2 ^ 320 mod ed_q) / 2 ^ 73) ((2 ^ 384 mod ed_q) / 2 ^ 73) ((2 ^ 448 mod ed_q) / 2 ^ 73) (ed_q / 2 ^ 73).
  generalize (2 ^ 256 mod ed_q) (2 ^ 320 mod ed_q) (2 ^ 384 mod ed_q) (2 ^ 448 mod ed_q) ed_q. generalize (w 0) (w 1) (w 2) (w 3) (w 4) (w 5) (w 6) (w 7). clear.
  intros w0 w1 w2 w3 w4 w5 w6 w7 m1 m2 m3 m4 m5 d1 d2 d3 d4 d5 e5 D5 e4 D4 e3 D3 e2 D2 e1 D1. rewrite D1, D2, D3, D4, D5. ring.
Qed.

(** ** Reduction: soundness *)
Lemma rd_eqs : forall T c k row z, tells T c row 4 z -> sat L T (rd_circuit c k row) ->
  ofZ (z 4 1 - rd_rz z) = f0 :> F /\ ofZ (rd_wk (fun i => z i 3) - z 4 1 - rd_qz z * ed_q) = f0 :> F /\
  ofZ (rd_wc (fun i => z i 3) (rd_qz z) - rd_lowz z - z 8 3 * 2 ^ 69) = f0 :> F /\ ofZ (z 8 3 - rd_vz z) = f0 :> F /\
  forall i, 0 <= i < 8 -> ofZ (z i 3) = vval T (nv k i).
Proof.
  intros T c k row z TB S. apply (rd_iff T c k row z TB) in S. destruct S as [G1 [_ [_ [G4 [G5 [G6 G7]]]]]].
  rewrite rd_r_sum in G1. rewrite rd_terms_sum, rd_q_sum in G4. rewrite rd_q_sum, rd_low_sum, rd_rlow_sum in G5. rewrite rd_v_sum in G6.
  repeat apply conj; assumption.
Qed.
(** Sizes of the cells. *)
Definition rd_sizes (z : Z -> Z -> Z) : Prop :=
  (forall i, 0 <= i < 9 -> 0 <= z i 0 < 2 ^ 20) /\ (forall i, 0 <= i < 3 -> 0 <= z i 1 < 2 ^ 20) /\ 0 <= z 3 1 < 2 ^ 13 /\
  (forall i, 0 <= i < 3 -> 0 <= z i 2 < 2 ^ 20) /\ 0 <= z 3 2 < 2 ^ 7 /\ (forall i, 4 <= i < 7 -> 0 <= z i 2 < 2 ^ 22) /\ 0 <= z 7 2 < 2 ^ 12.
Lemma rd_z_bounds : forall z, rd_sizes z -> 0 <= rd_lowz z < 2 ^ 73 /\ 0 <= rd_rz z < 2 ^ 253 /\ 0 <= rd_qz z < 2 ^ 67 /\ 0 <= rd_vz z < 2 ^ 78.
Proof.
  intros z [H0 [H1 [H13 [H2 [H7 [Hv H12]]]]]].
  assert (A : 0 <= rd_lowz z < 2 ^ 73) by (unfold rd_lowz; pose proof (H1 0 ltac:(lia)); pose proof (H1 1 ltac:(lia)); pose proof (H1 2 ltac:(lia)); lia).
  split; [exact A|]. split; [|split].
  - unfold rd_rz. generalize dependent (rd_lowz z). intros l A. pose proof (H0 0 ltac:(lia)). pose proof (H0 1 ltac:(lia)). pose proof (H0 2 ltac:(lia)). pose proof (H0 3 ltac:(lia)). pose proof (H0 4 ltac:(lia)).
    pose proof (H0 5 ltac:(lia)). pose proof (H0 6 ltac:(lia)). pose proof (H0 7 ltac:(lia)). pose proof (H0 8 ltac:(lia)). lia.
  - unfold rd_qz. pose proof (H2 0 ltac:(lia)). pose proof (H2 1 ltac:(lia)). pose proof (H2 2 ltac:(lia)). lia.
  - unfold rd_vz. pose proof (Hv 4 ltac:(lia)). pose proof (Hv 5 ltac:(lia)). pose proof (Hv 6 ltac:(lia)). lia.
Qed.
Lemma rd_wk_bound : forall w, (forall i, 0 <= i < 8 -> 0 <= w i < 2 ^ 64) -> 0 <= rd_wk w < 2 ^ 67 * ed_q.
Proof.
  intros w H. unfold rd_wk. pose proof (Z.mod_pos_bound (2 ^ 256) ed_q q_pos). pose proof (Z.mod_pos_bound (2 ^ 320) ed_q q_pos).
  pose proof (Z.mod_pos_bound (2 ^ 384) ed_q q_pos). pose proof (Z.mod_pos_bound (2 ^ 448) ed_q q_pos). assert (2 ^ 192 < ed_q) by reflexivity. assert (2 ^ 128 < ed_q) by reflexivity. assert (2 ^ 64 < ed_q) by reflexivity.
  pose proof (H 0 ltac:(lia)). pose proof (H 1 ltac:(lia)). pose proof (H 2 ltac:(lia)). pose proof (H 3 ltac:(lia)). pose proof (H 4 ltac:(lia)). pose proof (H 5 ltac:(lia)). pose proof (H 6 ltac:(lia)). pose proof (H 7 ltac:(lia)).
  change (2 ^ 67) with (8 * 2 ^ 64).
  assert (M : forall a b, 0 <= a < 2 ^ 64 -> 0 <= b < ed_q -> 0 <= a * b /\ a * b <= (2 ^ 64 - 1) * ed_q).
  { intros a b Ha Hb. split; [apply Z.mul_nonneg_nonneg; lia|]. apply Z.mul_le_mono_nonneg; lia. }
  generalize dependent (2 ^ 256 mod ed_q). generalize dependent (2 ^ 320 mod ed_q). generalize dependent (2 ^ 384 mod ed_q). generalize dependent (2 ^ 448 mod ed_q).
  intros m4 B4 m3 B3 m2 B2 m1 B1.
  pose proof (M (w 1) (2 ^ 64) ltac:(assumption) ltac:(lia)). pose proof (M (w 2) (2 ^ 128) ltac:(assumption) ltac:(lia)). pose proof (M (w 3) (2 ^ 192) ltac:(assumption) ltac:(lia)).
  pose proof (M (w 4) m1 ltac:(assumption) B1). pose proof (M (w 5) m2 ltac:(assumption) B2). pose proof (M (w 6) m3 ltac:(assumption) B3). pose proof (M (w 7) m4 ltac:(assumption) B4).
  clear M H. assert (0 < ed_q) by reflexivity.
  repeat match goal with |- context [?a * ?b] => match a with w _ => generalize dependent (a * b); intros end end. lia.
Qed.
Lemma rd_wc_bound : forall w q, (forall i, 0 <= i < 8 -> 0 <= w i < 2 ^ 64) -> 0 <= q < 2 ^ 67 -> 0 <= rd_wc w q < 2 ^ 145.
Proof.
  intros w q H Hq. unfold rd_wc.
  assert (E : rd_m 192 = 0 /\ 0 <= rd_m 256 < 2 ^ 73 /\ 0 <= rd_m 320 < 2 ^ 73 /\ 0 <= rd_m 384 < 2 ^ 73 /\ 0 <= rd_m 448 < 2 ^ 73 /\ 0 <= rd_l < 2 ^ 73) by (vm_compute; repeat split; congruence).
  destruct E as [-> [E1 [E2 [E3 [E4 E5]]]]]. generalize dependent (rd_m 256). generalize dependent (rd_m 320). generalize dependent (rd_m 384). generalize dependent (rd_m 448). generalize dependent rd_l.
  intros l Hl m4 H4 m3 H3 m2 H2 m1 H1.
  assert (M : forall a b B, 0 <= a < B -> 0 <= b < 2 ^ 73 -> 0 <= a * b /\ a * b <= B * 2 ^ 73).
  { intros a b B Ha Hb. split; [apply Z.mul_nonneg_nonneg; lia|]. apply Z.mul_le_mono_nonneg; lia. }
  pose proof (M (w 4) m1 _ (H 4 ltac:(lia)) H1). pose proof (M (w 5) m2 _ (H 5 ltac:(lia)) H2). pose proof (M (w 6) m3 _ (H 6 ltac:(lia)) H3). pose proof (M (w 7) m4 _ (H 7 ltac:(lia)) H4).
  pose proof (M q l _ Hq Hl). pose proof (H 0 ltac:(lia)). pose proof (H 1 ltac:(lia)). clear M H.
  generalize dependent (w 4 * m1). generalize dependent (w 5 * m2). generalize dependent (w 6 * m3). generalize dependent (w 7 * m4). generalize dependent (q * l). intros. lia.
Qed.
Lemma rd_sound_z : forall z, 2 ^ 254 <= char P -> rd_sizes z -> (forall i, 0 <= i < 8 -> 0 <= z i 3 < 2 ^ 64) -> 0 <= z 4 1 < char P -> 0 <= z 8 3 < char P ->
  ofZ (z 4 1 - rd_rz z) = f0 :> F -> ofZ (rd_wk (fun i => z i 3) - z 4 1 - rd_qz z * ed_q) = f0 :> F ->
  ofZ (rd_wc (fun i => z i 3) (rd_qz z) - rd_lowz z - z 8 3 * 2 ^ 69) = f0 :> F -> ofZ (z 8 3 - rd_vz z) = f0 :> F ->
  0 <= z 4 1 < 2 ^ 253 /\ rd_wk (fun i => z i 3) = z 4 1 + rd_qz z * ed_q.
Proof.
  intros z big HS HW HR HV G1 G2 G3 G4. destruct (rd_z_bounds z HS) as [Bl [Br [Bq Bv]]].
  pose proof (rd_wk_bound _ HW) as Bk. pose proof (rd_wc_bound _ _ HW Bq) as Bc. cbv beta in Bk, Bc.
  assert (O : 2 ^ 253 < 2 ^ 254 /\ 2 ^ 78 < 2 ^ 254 /\ 2 ^ 78 * 2 ^ 69 < 2 ^ 254 - 2 ^ 146 /\ 2 ^ 73 < 2 ^ 254 /\ 2 ^ 145 < 2 ^ 254) by (vm_compute; repeat split).
  destruct O as [O1 [O2 [O3 [O4 O5]]]].
  apply (ofZ_zero P) in G1; [|lia]. apply (ofZ_zero P) in G4; [|lia].
  assert (E4 : z 8 3 = rd_vz z) by lia. assert (E1 : z 4 1 = rd_rz z) by lia. clear G1 G4 HV HR. rewrite E4 in G3.
  apply (ofZ_zero P) in G3.
  2:{ assert (0 <= rd_vz z * 2 ^ 69 < 2 ^ 78 * 2 ^ 69) by (split; [apply Z.mul_nonneg_nonneg; lia|apply Z.mul_lt_mono_pos_r; [reflexivity|apply Bv]]). lia. }
  split; [lia|]. rewrite E1 in G2 |- *.
  assert (E : rd_rz z = rd_lowz z + (z 8 0 + z 7 0 * 2 ^ 20 + z 6 0 * 2 ^ 40 + z 5 0 * 2 ^ 60 + z 4 0 * 2 ^ 80 + z 3 0 * 2 ^ 100 + z 2 0 * 2 ^ 120 + z 1 0 * 2 ^ 140 + z 0 0 * 2 ^ 160) * 2 ^ 73) by reflexivity.
  destruct (rd_link (fun i => z i 3) (rd_qz z) (z 8 0 + z 7 0 * 2 ^ 20 + z 6 0 * 2 ^ 40 + z 5 0 * 2 ^ 60 + z 4 0 * 2 ^ 80 + z 3 0 * 2 ^ 100 + z 2 0 * 2 ^ 120 + z 1 0 * 2 ^ 140 + z 0 0 * 2 ^ 160) (rd_lowz z)) as [e X].
  rewrite <- E in X. set (x := rd_wk (fun i => z i 3) - rd_rz z - rd_qz z * ed_q) in *.
  assert (X2 : x = (rd_vz z + e * 2 ^ 4) * 2 ^ 69).
  { rewrite X. replace (rd_wc (fun i => z i 3) (rd_qz z) - rd_lowz z) with (rd_vz z * 2 ^ 69) by lia. change (2 ^ 73) with (2 ^ 4 * 2 ^ 69). ring. }
  apply (ofZ_divide P) in G2. rewrite X2 in G2.
  assert (R : rel_prime (char P) (2 ^ 69)).
  { apply prime_rel_prime; [apply char_prime|]. intros D. apply Z.divide_pos_le in D; [|reflexivity].
    assert (2 ^ 69 < 2 ^ 254) by reflexivity. lia. }
  rewrite Z.mul_comm in G2. apply Gauss in G2; [|exact R]. destruct G2 as [f Ef]. rewrite Ef in X2.
  assert (Bx : - (2 ^ 69 * 2 ^ 254) < x < 2 ^ 69 * 2 ^ 254).
  { assert (2 ^ 67 * ed_q + 2 ^ 253 < 2 ^ 69 * 2 ^ 254) by reflexivity. assert (0 <= rd_qz z * ed_q < 2 ^ 67 * ed_q) by (split; [apply Z.mul_nonneg_nonneg; [lia|discriminate]|apply Z.mul_lt_mono_pos_r; [reflexivity|apply Bq]]).
    unfold x. lia. }
  assert (f = 0).
  { destruct (Z.eq_dec f 0) as [H|H]; [exact H|exfalso]. clearbody x. clear - big Bx X2 H. assert (2 ^ 69 * 2 ^ 254 <= Z.abs x).
    { rewrite X2, !Z.abs_mul. rewrite (Z.abs_eq (char P)) by (pose proof (char_ge_2 P); lia). change (Z.abs (2 ^ 69)) with (2 ^ 69).
      rewrite (Z.mul_comm _ (2 ^ 69)). apply Z.mul_le_mono_nonneg_l; [discriminate|]. assert (1 <= Z.abs f) by lia. pose proof (char_ge_2 P).
      apply Z.le_trans with (1 * char P); [lia|]. apply Z.mul_le_mono_nonneg_r; lia. }
    lia. }
  subst f. unfold x in X2. lia.
Qed.

(** ** Reduction: tables *)
Lemma eight : forall i, 0 <= i < 8 -> i = 0 \/ i = 1 \/ i = 2 \/ i = 3 \/ i = 4 \/ i = 5 \/ i = 6 \/ i = 7.
Proof. lia. Qed.
Definition in_words T (k : list var) (i : Z) : Z := fval (vval T (nv k i)).
Lemma words_nth : forall T k i, 0 <= i < 8 -> znth 0 (rd_words T k) i = in_words T k i.
Proof. intros T k i Hi. destruct (eight i Hi) as [-> |[-> |[-> |[-> |[-> |[-> |[-> | ->]]]]]]]; reflexivity. Qed.
Definition qsum (qs : list Z) : Z := znth 0 qs 0 * 2 ^ 47 + znth 0 qs 1 * 2 ^ 27 + znth 0 qs 2 * 2 ^ 7 + znth 0 qs 3.
Definition rd_cells (w : list Z) (r inv : Z) (qs : list Z) (v i o : Z) : Z := znth 0 (znth [] (rd_block w r inv qs v) o) i.
Lemma rd_write : forall T c k row r qs v, wf_comp c 9 -> (forall i, 0 <= i < 8 -> outside c 4 row (nv k i)) ->
  let w := rd_words T k in
  ofZ (rd_wk (in_words T k) - r - qsum qs * ed_q) = f0 :> F -> ofZ (rd_wc (in_words T k) (qsum qs) - r mod 2 ^ 73 - v * 2 ^ 69) = f0 :> F ->
  let inv := fval (finv (ofZ (rd_s r) : F)) in let T' := put_block c row (rd_block w r inv qs v) T in
  sat L T' (rd_circuit c k row) /\ frame c 4 row T T' /\ vval T' (rd_out c row) = ofZ r /\
  (forall i o, 0 <= i < 9 -> 0 <= o < 4 -> (i < 7 \/ o <> 1) -> (i < 8 \/ o <> 2) -> T' CWit (W c i) (row + o) = ofZ (rd_cells w r inv qs v i o)).
Proof.
  intros T c k row r qs v Hwf O w H1 H2 inv T'. set (b := rd_block w r inv qs v) in *.
  pose proof (block_frame T c row b) as FR. change (zlen b) with 4 in FR. fold T' in FR.
  pose proof (tells_block T c row b Hwf) as TB. change (zlen b) with 4 in TB. fold T' in TB.
  assert (EW : forall i, 0 <= i < 8 -> bcell T' c row b i 3 = in_words T k i).
  { intros i Hi. destruct (eight i Hi) as [-> |[-> |[-> |[-> |[-> |[-> |[-> | ->]]]]]]]; reflexivity. }
  split; [|split; [exact FR|split]].
  - apply (rd_iff T' c k row _ TB). rewrite rd_r_sum, rd_terms_sum, rd_q_sum, rd_low_sum, rd_rlow_sum, rd_v_sum. set (z := bcell T' c row b) in *.
    assert (EK : rd_wk (fun i => z i 3) = rd_wk (in_words T k)) by (unfold rd_wk; rewrite !EW by lia; reflexivity).
    assert (EQ : rd_qz z = qsum qs) by reflexivity.
    assert (EC : rd_wc (fun i => z i 3) (rd_qz z) = rd_wc (in_words T k) (qsum qs)) by (rewrite EQ; unfold rd_wc; rewrite !EW by lia; reflexivity).
    assert (EL : rd_lowz z = r mod 2 ^ 73) by (rewrite <- rd_low_chunks; reflexivity).
    assert (ER : rd_rz z = r).
    { etransitivity; [|exact (rd_chunks r)]. unfold rd_rz. rewrite EL, <- rd_low_chunks.
      change (z 8 0) with (rd_chunk r 73). change (z 7 0) with (rd_chunk r 93). change (z 6 0) with (rd_chunk r 113). change (z 5 0) with (rd_chunk r 133).
      change (z 4 0) with (rd_chunk r 153). change (z 3 0) with (rd_chunk r 173). change (z 2 0) with (rd_chunk r 193). change (z 1 0) with (rd_chunk r 213). change (z 0 0) with (r / 2 ^ 233).
      generalize (r mod 2 ^ 13) (r / 2 ^ 233) (rd_chunk r 13) (rd_chunk r 33) (rd_chunk r 53) (rd_chunk r 73) (rd_chunk r 93) (rd_chunk r 113) (rd_chunk r 133) (rd_chunk r 153)
        (rd_chunk r 173) (rd_chunk r 193) (rd_chunk r 213). clear. intros. lia. }
    assert (EV : rd_vz z = v) by (exact (rd_v_chunks v)).
    rewrite EK, EC, EQ, EL, ER, EV. change (z 4 1) with r. change (z 8 3) with v. change (z 5 1) with inv. change (z 6 1) with 1.
    assert (ES : zl (fun i o => z i (1 + o)) rd_s_terms - 12 * (2 ^ 20 - 1) = rd_s r).
    { unfold zl, rd_s_terms. cbn [fold_right fst snd]. change (1 + -1) with 0. change (1 + 0) with 1.
      change (z 8 0) with (rd_chunk r 73). change (z 7 0) with (rd_chunk r 93). change (z 6 0) with (rd_chunk r 113). change (z 5 0) with (rd_chunk r 133).
      change (z 4 0) with (rd_chunk r 153). change (z 3 0) with (rd_chunk r 173). change (z 2 0) with (rd_chunk r 193). change (z 1 0) with (rd_chunk r 213). change (z 0 0) with (r / 2 ^ 233).
      change (z 0 1) with (rd_chunk r 53). change (z 1 1) with (rd_chunk r 33). change (z 2 1) with (rd_chunk r 13). unfold rd_s.
      generalize (r / 2 ^ 233) (rd_chunk r 13) (rd_chunk r 33) (rd_chunk r 53) (rd_chunk r 73) (rd_chunk r 93) (rd_chunk r 113) (rd_chunk r 133) (rd_chunk r 153)
        (rd_chunk r 173) (rd_chunk r 193) (rd_chunk r 213). clear. intros. lia. }
    rewrite ES. unfold inv. rewrite ofZ_fval. change (ofZ 1 : F) with (f1 : F).
    repeat apply conj; [rewrite Z.sub_diag; reflexivity| | |exact H1|exact H2|rewrite Z.sub_diag; reflexivity|].
    + generalize (ofZ (rd_s r) : F). intros s. destruct (feqb s f0) eqn:N; [apply (feqb_eq P) in N; rewrite N; ring|apply (feqb_neq P) in N; field; exact N].
    + generalize (ofZ (rd_s r) : F). intros s. destruct (feqb s f0) eqn:N; [apply (feqb_eq P) in N; rewrite N; ring|apply (feqb_neq P) in N; field; exact N].
    + intros i Hi. rewrite (EW i Hi). rewrite (vval_frame P c 4 row T T' _ FR (O i Hi)). apply ofZ_fval.
  - unfold rd_out. rewrite vval_wcell. replace (row + 4 - 3) with (row + 1) by lia. exact (TB 4 1 ltac:(lia) ltac:(lia)).
  - intros i o Hi Ho N1 N2. rewrite (TB i o Hi Ho). f_equal. unfold rd_cells. fold b. unfold bcell.
    assert (o = 0 \/ o = 1 \/ o = 2 \/ o = 3) as [-> |[-> |[-> | ->]]] by lia;
    assert (i = 0 \/ i = 1 \/ i = 2 \/ i = 3 \/ i = 4 \/ i = 5 \/ i = 6 \/ i = 7 \/ i = 8) as [-> |[-> |[-> |[-> |[-> |[-> |[-> |[-> | ->]]]]]]]] by lia; try reflexivity; lia.
Qed.
(** The quotient and the remainder, or any other pair that fits. *)
Lemma rd_fit : forall T c k row r q, wf_comp c 9 -> (forall i, 0 <= i < 8 -> outside c 4 row (nv k i)) -> (forall i, 0 <= i < 8 -> in_words T k i < 2 ^ 64) ->
  rd_wk (in_words T k) = r + q * ed_q -> 0 <= r < 2 ^ 253 -> 0 <= q < 2 ^ 67 -> 2 ^ 64 <= char P ->
  let w := rd_words T k in let v := rd_v w q r in
  let inv := fval (finv (ofZ (rd_s r) : F)) in let T' := put_block c row (rd_block w r inv (rd_qs q) v) T in
  sat L T' (rd_circuit c k row) /\ frame c 4 row T T' /\ vval T' (rd_out c row) = ofZ r /\ rd_sizes (zcell T' c row).
Proof.
  intros T c k row r q Hwf O HW E Hr Hq big w v inv T'.
  assert (Q : qsum (rd_qs q) = q) by (exact (rd_q_chunks q Hq)).
  assert (WC : rd_c w q = rd_wc (in_words T k) q) by reflexivity.
  destruct (rd_link (in_words T k) q (r / 2 ^ 73) (r mod 2 ^ 73)) as [e X].
  replace (r mod 2 ^ 73 + r / 2 ^ 73 * 2 ^ 73) with r in X by (rewrite (Z.div_mod r (2 ^ 73)) at 1 by discriminate; ring).
  assert (X2 : rd_wc (in_words T k) q - r mod 2 ^ 73 = - e * 2 ^ 4 * 2 ^ 69) by (change (2 ^ 73) with (2 ^ 4 * 2 ^ 69) in *; lia). clear X.
  assert (V : v = - e * 2 ^ 4).
  { unfold v, rd_v. rewrite WC, rd_d_mod, X2. apply Z.div_mul. discriminate. }
  assert (HWp : forall i, 0 <= i < 8 -> 0 <= in_words T k i < 2 ^ 64) by (intros i Hi; split; [apply fval_range|apply HW; exact Hi]).
  pose proof (rd_wc_bound _ _ HWp Hq) as Bc. pose proof (Z.mod_pos_bound r (2 ^ 73) eq_refl) as Br.
  assert (Bv : 0 <= v < 2 ^ 78).
  { rewrite V. revert X2 Bc Br. clear. generalize (r mod 2 ^ 73) (rd_wc (in_words T k) q). intros a b X2 Bc Br. lia. }
  destruct (rd_write T c k row r (rd_qs q) v Hwf O) as [S [FR [VO VC]]].
  - rewrite Q, E. replace (_ - _ - _) with 0 by ring. reflexivity.
  - rewrite Q, X2, <- V. rewrite Z.sub_diag. reflexivity.
  - fold w in S, FR, VO, VC. fold inv in S, FR, VO, VC. fold T' in S, FR, VO, VC. split; [exact S|]. split; [exact FR|]. split; [exact VO|].
    assert (SM : forall x b, 0 <= x < b -> b <= 2 ^ 64 -> 0 <= fval (ofZ x : F) < b) by (intros x b' Hx Hb; rewrite (fval_ofZ_small P) by lia; exact Hx).
    assert (CH : forall e, 0 <= rd_chunk r e < 2 ^ 20) by (intros e'; apply Z.mod_pos_bound; reflexivity).
    assert (TOP : 0 <= r / 2 ^ 233 < 2 ^ 20) by (split; [apply Z.div_pos; [lia|reflexivity]|apply Z.div_lt_upper_bound; [reflexivity|apply Hr]]).
    assert (C2 : 2 ^ 20 <= 2 ^ 64 /\ 2 ^ 22 <= 2 ^ 64 /\ 2 ^ 13 <= 2 ^ 64 /\ 2 ^ 12 <= 2 ^ 64 /\ 2 ^ 7 <= 2 ^ 64) by (vm_compute; repeat split; congruence).
    destruct C2 as [K1 [K2 [K3 [K4 K5]]]].
    repeat apply conj.
    + intros i Hi. unfold zcell. rewrite VC by lia. apply SM; [|exact K1].
      assert (i = 0 \/ i = 1 \/ i = 2 \/ i = 3 \/ i = 4 \/ i = 5 \/ i = 6 \/ i = 7 \/ i = 8) as [-> |[-> |[-> |[-> |[-> |[-> |[-> |[-> | ->]]]]]]]] by lia; first [exact TOP|exact (CH _)].
    + intros i Hi. unfold zcell. rewrite VC by lia. apply SM; [|exact K1]. assert (i = 0 \/ i = 1 \/ i = 2) as [-> |[-> | ->]] by lia; exact (CH _).
    + apply fval_range.
    + unfold zcell. rewrite VC by lia. apply SM; [exact (Z.mod_pos_bound r (2 ^ 13) eq_refl)|exact K3].
    + intros i Hi. unfold zcell. rewrite VC by lia. apply SM; [|exact K1]. assert (i = 0 \/ i = 1 \/ i = 2) as [-> |[-> | ->]] by lia; apply Z.mod_pos_bound; reflexivity.
    + apply fval_range.
    + unfold zcell. rewrite VC by lia. apply SM; [exact (Z.mod_pos_bound q (2 ^ 7) eq_refl)|exact K5].
    + intros i Hi. unfold zcell. rewrite VC by lia. apply SM; [|exact K2]. assert (i = 4 \/ i = 5 \/ i = 6) as [-> |[-> | ->]] by lia.
      * split; [apply Z.div_pos; [lia|reflexivity]|apply Z.div_lt_upper_bound; [reflexivity|apply Bv]].
      * apply Z.mod_pos_bound; reflexivity.
      * apply Z.mod_pos_bound; reflexivity.
    + apply fval_range.
    + unfold zcell. rewrite VC by lia. apply SM; [exact (Z.mod_pos_bound v (2 ^ 12) eq_refl)|exact K4].
Qed.
Lemma wk_k : forall T k, rd_k (rd_words T k) = rd_wk (in_words T k).
Proof.
  intros T k. unfold rd_k, rd_wk. change (zseq 0 8) with [0; 1; 2; 3; 4; 5; 6; 7]. cbn [map fold_right]. rewrite !words_nth by lia.
  assert (E : 2 ^ (64 * 0) mod ed_q = 1 /\ 2 ^ (64 * 1) mod ed_q = 2 ^ 64 /\ 2 ^ (64 * 2) mod ed_q = 2 ^ 128 /\ 2 ^ (64 * 3) mod ed_q = 2 ^ 192) by (vm_compute; repeat split).
  destruct E as [-> [-> [-> ->]]]. change (2 ^ (64 * 4)) with (2 ^ 256). change (2 ^ (64 * 5)) with (2 ^ 320). change (2 ^ (64 * 6)) with (2 ^ 384). change (2 ^ (64 * 7)) with (2 ^ 448).
  generalize (2 ^ 256 mod ed_q) (2 ^ 320 mod ed_q) (2 ^ 384 mod ed_q) (2 ^ 448 mod ed_q). intros. ring.
Qed.
Definition rd_n (w : Z -> Z) : Z :=
  w 0 + w 1 * 2 ^ 64 + w 2 * 2 ^ 128 + w 3 * 2 ^ 192 + w 4 * 2 ^ 256 + w 5 * 2 ^ 320 + w 6 * 2 ^ 384 + w 7 * 2 ^ 448.
Lemma wk_n : forall w, rd_wk w mod ed_q = rd_n w mod ed_q.
Proof.
  intros w. assert (E : exists e, rd_n w = rd_wk w + e * ed_q); [|destruct E as [e ->]; symmetry; apply Z_mod_plus_full].
  exists (w 4 * (2 ^ 256 / ed_q) + w 5 * (2 ^ 320 / ed_q) + w 6 * (2 ^ 384 / ed_q) + w 7 * (2 ^ 448 / ed_q)). unfold rd_n, rd_wk.
  assert (N : ed_q <> 0) by discriminate.
  pose proof (Z.div_mod (2 ^ 256) ed_q N) as D1. pose proof (Z.div_mod (2 ^ 320) ed_q N) as D2. pose proof (Z.div_mod (2 ^ 384) ed_q N) as D3. pose proof (Z.div_mod (2 ^ 448) ed_q N) as D4.
  generalize dependent (2 ^ 256 mod ed_q). generalize dependent (2 ^ 320 mod ed_q). generalize dependent (2 ^ 384 mod ed_q). generalize dependent (2 ^ 448 mod ed_q).
  generalize dependent (2 ^ 256 / ed_q). generalize dependent (2 ^ 320 / ed_q). generalize dependent (2 ^ 384 / ed_q). generalize dependent (2 ^ 448 / ed_q).
  generalize dependent (2 ^ 256). generalize dependent (2 ^ 320). generalize dependent (2 ^ 384). generalize dependent (2 ^ 448). generalize (2 ^ 64) (2 ^ 128) (2 ^ 192). clear N.
  generalize ed_q. intros Q a b c p4 p3 p2 p1 d4 d3 d2 d1 m4 E4 m3 E3 m2 E2 m1 E1. subst p1 p2 p3 p4. ring.
Qed.
Lemma rd_complete_l : forall T c k row, wf_comp c 9 -> (forall i, 0 <= i < 8 -> outside c 4 row (nv k i)) -> (forall i, 0 <= i < 8 -> in_words T k i < 2 ^ 64) -> 2 ^ 64 <= char P ->
  let T' := rd_assign c k row T in
  sat L T' (rd_circuit c k row) /\ frame c 4 row T T' /\ vval T' (rd_out c row) = ofZ (rd_n (in_words T k) mod ed_q) /\ rd_sizes (zcell T' c row).
Proof.
  intros T c k row Hwf O HW big T'. unfold T', rd_assign. cbv zeta. rewrite <- wk_n, <- (wk_k T k). apply rd_fit; [exact Hwf|exact O|exact HW| | | |exact big].
  - rewrite wk_k. rewrite (Z.div_mod (rd_wk (in_words T k)) ed_q) at 1 by discriminate. ring.
  - pose proof (Z.mod_pos_bound (rd_k (rd_words T k)) ed_q q_pos) as B. split; [apply B|]. eapply Z.lt_trans; [apply B|reflexivity].
  - rewrite wk_k. pose proof (rd_wk_bound (in_words T k) (fun i Hi => conj (proj1 (fval_range P _)) (HW i Hi))) as B.
    split; [apply Z.div_pos; [apply B|exact q_pos]|]. apply Z.div_lt_upper_bound; [exact q_pos|]. rewrite Z.mul_comm. apply B.
Qed.
Lemma rd_sound_l : forall T c k row, 2 ^ 254 <= char P -> rd_sizes (zcell T c row) -> (forall i, 0 <= i < 8 -> in_words T k i < 2 ^ 64) -> sat L T (rd_circuit c k row) ->
  fval (vval T (rd_out c row)) < 2 ^ 253 /\ fval (vval T (rd_out c row)) mod ed_q = rd_n (in_words T k) mod ed_q.
Proof.
  intros T c k row big HS HW S. apply (rd_iff T c k row _ (tells_cells T c row 4)) in S. rewrite rd_r_sum, rd_terms_sum, rd_q_sum, rd_low_sum, rd_rlow_sum, rd_v_sum in S.
  set (z := zcell T c row) in *. destruct S as [G1 [_ [_ [G2 [G3 [G4 G5]]]]]].
  assert (EW : forall i, 0 <= i < 8 -> z i 3 = in_words T k i).
  { intros i Hi. unfold in_words. rewrite <- (G5 i Hi). unfold z, zcell. rewrite ofZ_fval. reflexivity. }
  assert (EK : rd_wk (fun i => z i 3) = rd_wk (in_words T k)) by (unfold rd_wk; rewrite !EW by lia; reflexivity).
  destruct (rd_sound_z z big HS) as [A B].
  - intros i Hi. rewrite (EW i Hi). split; [apply fval_range|apply HW; exact Hi].
  - apply fval_range.
  - apply fval_range.
  - exact G1.
  - exact G2.
  - exact G3.
  - exact G4.
  - unfold rd_out. rewrite vval_wcell. replace (row + 4 - 3) with (row + 1) by lia. change (fval (T CWit (W c 4) (row + 1))) with (z 4 1). split; [apply A|].
    rewrite <- wk_n, <- EK, B. symmetry. apply Z_mod_plus_full.
Qed.
(** The remainder plus the order. *)
Lemma rd_alias_l : forall T c k row, wf_comp c 9 -> (forall i, 0 <= i < 8 -> outside c 4 row (nv k i)) -> (forall i, 0 <= i < 8 -> in_words T k i < 2 ^ 64) -> 2 ^ 64 <= char P ->
  ed_q <= rd_wk (in_words T k) -> rd_n (in_words T k) mod ed_q + ed_q < 2 ^ 253 ->
  exists T', sat L T' (rd_circuit c k row) /\ frame c 4 row T T' /\ vval T' (rd_out c row) = ofZ (rd_n (in_words T k) mod ed_q + ed_q) /\ rd_sizes (zcell T' c row).
Proof.
  intros T c k row Hwf O HW big H1 H2. eexists. rewrite <- wk_n in *.
  pose proof (rd_wk_bound (in_words T k) (fun i Hi => conj (proj1 (fval_range P _)) (HW i Hi))) as B. pose proof (Z.mod_pos_bound (rd_wk (in_words T k)) ed_q q_pos) as M.
  apply (rd_fit T c k row _ (rd_wk (in_words T k) / ed_q - 1) Hwf O HW); [| | |exact big].
  - rewrite (Z.div_mod (rd_wk (in_words T k)) ed_q) at 1 by discriminate. ring.
  - split; [|exact H2]. pose proof q_pos. lia.
  - assert (A : 1 <= rd_wk (in_words T k) / ed_q) by (apply Z.div_le_lower_bound; [exact q_pos|lia]).
    assert (A2 : rd_wk (in_words T k) / ed_q < 2 ^ 67) by (apply Z.div_lt_upper_bound; [exact q_pos|]; rewrite Z.mul_comm; apply B). lia.
Qed.
(** Nothing looked up: any result. *)
Lemma rd_any_l : forall T c k row (y : F), wf_comp c 9 -> (forall i, 0 <= i < 8 -> outside c 4 row (nv k i)) -> 2 < char P -> ~ (char P | ed_q) ->
  exists T', sat L T' (rd_circuit c k row) /\ frame c 4 row T T' /\ vval T' (rd_out c row) = y.
Proof.
  intros T c k row y Hwf O H2 HQ.
  assert (N1 : ofZ ed_q <> f0 :> F) by (intros E; apply HQ; apply (ofZ_divide P); exact E).
  assert (N2 : ofZ (2 ^ 69) <> f0 :> F).
  { intros E. apply (ofZ_divide P) in E. apply (Zpow_facts.prime_power_prime (char P) 2 69) in E; [lia|lia|exact (char_prime P)|exact Znumtheory.prime_2]. }
  assert (DV : forall a b y0 : F, a <> f0 -> fsub (fsub b y0) (fmul (fmul (fsub b y0) (finv a)) a) = f0) by (intros a b y0 Na; field; exact Na).
  set (q := fval (fmul (fsub (ofZ (rd_wk (in_words T k))) y) (finv (ofZ ed_q)))).
  set (qs := [0; 0; 0; q]). assert (Q : qsum qs = q) by reflexivity.
  set (v := fval (fmul (fsub (ofZ (rd_wc (in_words T k) q) : F) (ofZ (fval y mod 2 ^ 73))) (finv (ofZ (2 ^ 69))))).
  destruct (rd_write T c k row (fval y) qs v Hwf O) as [S [FR [VO _]]].
  - rewrite Q, !ofZ_sub, ofZ_mul. unfold q. rewrite !ofZ_fval. apply DV. exact N1.
  - rewrite Q, !ofZ_sub, (ofZ_mul _ v). unfold v. rewrite !ofZ_fval. apply DV. exact N2.
  - eexists. split; [exact S|]. split; [exact FR|]. rewrite VO. apply ofZ_fval.
Qed.
End Scalar.
