(** Properties C99 to C102: scalars of Ed25519. *)
From Coq Require Import ZArith List Lia Bool.
From Verif Require Import Base Field Primes Plonk PlonkFacts NonNativeModel NonNativeProofs EdScalarModel EdScalar Examples Props_NonNative.
Import ListNotations.
Open Scope Z_scope.

(** ** Specification *)

(** The order of the group of Ed25519 (RFC 8032). *)
Definition ed_order : Z := 2 ^ 252 + 27742317777372353535851937790883648493.

(** The number whose digits to base [2^b] are [f 0], ..., [f (n-1)]. *)
Fixpoint digits (b : Z) (n : nat) (f : Z -> Z) : Z :=
  match n with O => 0 | S m => f 0 + 2 ^ b * digits b m (fun i => f (i + 1)) end.

(** The cells of the twelve chunks of the scalar plus [2^253 - ed_order]: the
    last four cells of the second row and the first eight of the third. *)
Definition sum_cell (c : comp) (row i : Z) : var := if i <? 4 then wcell (W c (i + 5)) (row + 1) else wcell (W c (i - 4)) (row + 2).
(** What looking up the chunks would ensure: 22 bits for all, [top] bits for
    the last ones. *)
Definition chunk_bits {P} (T : table P) (c : comp) (row top : Z) : Prop :=
  forall i, 0 <= i < 12 -> fval (vval T (sn_out c row i)) < 2 ^ (if i =? 11 then top else 22) /\
    fval (vval T (sum_cell c row i)) < 2 ^ (if i =? 11 then top else 22).

(** The number given by the eight words. *)
Definition words_number {P} (T : table P) (k : list var) : Z := digits 64 8 (fun i => fval (vval T (nv k i))).
Definition are_words {P} (T : table P) (k : list var) : Prop := forall i, 0 <= i < 8 -> fval (vval T (nv k i)) < 2 ^ 64.
(** What looking up the chunks of the reduction would ensure: 20 bits for the
    first row and three cells of the second, 13 for its fourth, 20, 20, 20 and
    7 for the quotient and 22, 22, 22 and 12 for the carry. *)
Definition cell_bits {P} (T : table P) (c : comp) (row b i o : Z) : Prop := fval (vval T (wcell (W c i) (row + o))) < 2 ^ b.
Definition reduction_bits {P} (T : table P) (c : comp) (row : Z) : Prop :=
  (forall i, 0 <= i < 9 -> cell_bits T c row 20 i 0) /\ (forall i, 0 <= i < 3 -> cell_bits T c row 20 i 1) /\ cell_bits T c row 13 3 1 /\
  (forall i, 0 <= i < 3 -> cell_bits T c row 20 i 2) /\ cell_bits T c row 7 3 2 /\ (forall i, 4 <= i < 7 -> cell_bits T c row 22 i 2) /\ cell_bits T c row 12 7 2.

(** *** Links with the proofs *)

Lemma order_q : ed_order = ed_q. Proof. reflexivity. Qed.
Lemma digits22 : forall f, digits 22 12 f = sum22 f.
Proof. intros f. unfold digits, sum22. cbn [Z.add Pos.add Pos.succ]. change (2 ^ 22) with 4194304. ring. Qed.
Lemma digits64 : forall f, digits 64 8 f = rd_n f.
Proof. intros f. unfold digits, rd_n. cbn [Z.add Pos.add Pos.succ]. ring. Qed.
Lemma digits64_4 : forall f, digits 64 4 f = f 0 + f 1 * 2 ^ 64 + f 2 * 2 ^ 128 + f 3 * 2 ^ 192.
Proof. intros f. unfold digits. cbn [Z.add Pos.add Pos.succ]. ring. Qed.
Lemma sum_cell_val : forall P (T : table P) c row i, vval T (sum_cell c row i) = T CWit (W c (if i <? 4 then i + 5 else i - 4)) (row + (if i <? 4 then 1 else 2)).
Proof. intros P T c row i. unfold sum_cell. destruct (i <? 4); apply vval_wcell. Qed.
Lemma sizes_iff : forall P (T : table P) c row, rd_sizes (zcell P T c row) <-> reduction_bits T c row.
Proof.
  intros P T c row. unfold rd_sizes, reduction_bits.
  assert (E : forall b i o, cell_bits T c row b i o <-> 0 <= zcell P T c row i o < 2 ^ b).
  { intros b i o. unfold cell_bits. rewrite vval_wcell. unfold zcell. pose proof (fval_range P (T CWit (W c i) (row + o))) as [R _]. tauto. }
  split; intros [H0 [H1 [H2 [H3 [H4 [H5 H6]]]]]]; (split; [|split; [|split; [|split; [|split; [|split]]]]]); try (intros i Hi); apply E; auto.
Qed.
Lemma bits_iff : forall P (T : table P) c row, chunk_bits T c row 11 ->
  forall i, 0 <= i < 12 -> fval (vval T (sn_out c row i)) < (if i =? 11 then 2 ^ 11 else 2 ^ 22) /\
    fval (T CWit (W c (if i <? 4 then i + 5 else i - 4)) (row + (if i <? 4 then 1 else 2))) < (if i =? 11 then 2 ^ 11 else 2 ^ 22).
Proof. intros P T c row H i Hi. rewrite <- sum_cell_val. specialize (H i Hi). destruct (i =? 11); exact H. Qed.

(** ** C99: the scalar range component. *)
Theorem scalar_range_chunks : forall P L (T : table P) c k row, sat L T (sn_circuit c k row) ->
  vval T k = ofZ (digits 22 12 (fun i => fval (vval T (sn_out c row i)))).
Proof. intros P L T c k row S. rewrite digits22. exact (sn_sound_l P L T c k row S). Qed.
Print Assumptions scalar_range_chunks.
Theorem scalar_range_sound_with_lookups : forall P L (T : table P) c k row, 2 ^ 254 <= char P -> sat L T (sn_circuit c k row) -> chunk_bits T c row 11 ->
  fval (vval T k) < ed_order /\ fval (vval T k) = digits 22 12 (fun i => fval (vval T (sn_out c row i))).
Proof. intros P L T c k row big S H. rewrite digits22. exact (sn_range_l P L T c k row big S (bits_iff P T c row H)). Qed.
Print Assumptions scalar_range_sound_with_lookups.
Lemma chunk_small : forall P x i, 2 ^ 22 <= char P -> fval (ofZ (sn_chunk x i) : F P) = sn_chunk x i.
Proof. intros P x i H. apply fval_ofZ_small. pose proof (sn_chunk_range x i). lia. Qed.
Theorem scalar_range_complete : forall P L (T : table P) c k row, wf_comp c 9 -> outside c 3 row k -> 2 ^ 22 <= char P -> fval (vval T k) < ed_order ->
  let T' := sn_assign c k row T in
  sat L T' (sn_circuit c k row) /\ frame c 3 row T T' /\ chunk_bits T' c row 11 /\
  digits 22 12 (fun i => fval (vval T' (sn_out c row i))) = fval (vval T k).
Proof.
  intros P L T c k row Hwf O big Hk T'. pose proof (fval_range P (vval T k)) as [R _].
  destruct (sn_complete_l P L T c k row Hwf O) as [S [FR V]]; [eapply Z.lt_trans; [exact Hk|reflexivity]|]. fold T' in S, FR, V.
  split; [exact S|]. split; [exact FR|].
  assert (E1 : 0 <= fval (vval T k) < 2 ^ 253) by (split; [exact R|eapply Z.lt_trans; [exact Hk|reflexivity]]).
  assert (E2 : 0 <= fval (vval T k) + sn_d < 2 ^ 253).
  { clear - Hk R. assert (D : ed_order + sn_d = 2 ^ 253 /\ 0 <= sn_d) by (vm_compute; split; congruence). lia. }
  split.
  - intros i Hi. destruct (V i Hi) as [V1 V2]. rewrite sum_cell_val, V1, V2, !chunk_small by exact big.
    destruct (Z.eqb_spec i 11) as [-> |N]; [split; apply sn_chunk_top; assumption|split; apply sn_chunk_range].
  - rewrite digits22. transitivity (sum22 (sn_chunk (fval (vval T k)))).
    + apply sum22_ext. intros i Hi. rewrite (proj1 (V i Hi)). apply chunk_small. exact big.
    + apply sn_chunks. split; [exact R|]. eapply Z.lt_trans; [apply E1|reflexivity].
Qed.
Print Assumptions scalar_range_complete.

(** ** C100: the component does not enforce the range. *)
Theorem scalar_range_any_scalar : forall P L (T : table P) c k row, wf_comp c 9 -> outside c 3 row k -> 2 ^ 22 <= char P -> fval (vval T k) < 2 ^ 263 ->
  let T' := sn_assign c k row T in sat L T' (sn_circuit c k row) /\ frame c 3 row T T' /\ chunk_bits T' c row 22.
Proof.
  intros P L T c k row Hwf O big Hk T'.
  destruct (sn_complete_l P L T c k row Hwf O Hk) as [S [FR V]]. fold T' in S, FR, V. split; [exact S|]. split; [exact FR|].
  intros i Hi. destruct (V i Hi) as [V1 V2]. rewrite sum_cell_val, V1, V2, !chunk_small by exact big. destruct (i =? 11); split; apply sn_chunk_range.
Qed.
Print Assumptions scalar_range_any_scalar.
Theorem scalar_range_any_chunks : forall P L (T : table P) c k row (x : Z -> F P), wf_comp c 9 -> outside c 3 row k ->
  exists T', frame c 3 row T T' /\ sat L T' (sn_circuit c k row) /\ forall i, 1 <= i < 12 -> vval T' (sn_out c row i) = x i.
Proof. exact sn_any_l. Qed.
Print Assumptions scalar_range_any_chunks.
(** A scalar equal to the order passes with 22-bit chunks. *)
Theorem scalar_range_sound_refuted : exists (T : table Pbls) c k row,
  sat (noL Pbls) T (sn_circuit c k row) /\ chunk_bits T c row 22 /\ fval (vval T k) = ed_order.
Proof.
  set (T0 := intab Pbls [ed_order]).
  destruct (scalar_range_any_scalar Pbls (noL Pbls) T0 (std_comp 9) (pin 0) 0) as [S [FR H]];
    [apply wf_std; lia|apply pin_outside|vm_compute; discriminate|vm_compute; reflexivity|].
  exists (sn_assign (std_comp 9) (pin 0) 0 T0), (std_comp 9), (pin 0), 0. split; [exact S|]. split; [exact H|].
  rewrite (vval_frame Pbls _ _ _ _ _ (pin 0) FR (pin_outside _ _ _ _)). vm_compute. reflexivity.
Qed.
Print Assumptions scalar_range_sound_refuted.

(** ** C101: the reduction modulo the order. *)
Theorem scalar_reduction_sound_with_lookups : forall P L (T : table P) c k row, 2 ^ 254 <= char P -> sat L T (rd_circuit c k row) -> are_words T k -> reduction_bits T c row ->
  let r := fval (vval T (rd_out c row)) in r < 2 ^ 253 /\ r mod ed_order = words_number T k mod ed_order.
Proof.
  intros P L T c k row big S HW HB r. unfold words_number. rewrite digits64. exact (rd_sound_l P L T c k row big (proj2 (sizes_iff P T c row) HB) HW S).
Qed.
Print Assumptions scalar_reduction_sound_with_lookups.
(** The remainder is one of two numbers. *)
Theorem scalar_reduction_two_results : forall P L (T : table P) c k row, 2 ^ 254 <= char P -> sat L T (rd_circuit c k row) -> are_words T k -> reduction_bits T c row ->
  let r := fval (vval T (rd_out c row)) in let m := words_number T k mod ed_order in r = m \/ r = m + ed_order.
Proof.
  intros P L T c k row big S HW HB r m. destruct (scalar_reduction_sound_with_lookups P L T c k row big S HW HB) as [A B]. fold r in A, B. fold m in B.
  pose proof (fval_range P (vval T (rd_out c row))) as [R _]. fold r in R.
  pose proof (Z.div_mod r ed_order ltac:(discriminate)) as D. rewrite B in D.
  assert (Q : 0 <= r / ed_order < 2) by (split; [apply Z.div_pos; [exact R|reflexivity]|apply Z.div_lt_upper_bound; [reflexivity|]; eapply Z.lt_trans; [exact A|reflexivity]]).
  assert (r / ed_order = 0 \/ r / ed_order = 1) as [E|E] by lia; rewrite E in D; [left|right]; lia.
Qed.
Print Assumptions scalar_reduction_two_results.
Theorem scalar_reduction_complete : forall P L (T : table P) c k row, wf_comp c 9 -> (forall i, 0 <= i < 8 -> outside c 4 row (nv k i)) -> are_words T k -> ed_order < char P ->
  let T' := rd_assign c k row T in
  sat L T' (rd_circuit c k row) /\ frame c 4 row T T' /\ reduction_bits T' c row /\ fval (vval T' (rd_out c row)) = words_number T k mod ed_order.
Proof.
  intros P L T c k row Hwf O HW big T'.
  destruct (rd_complete_l P L T c k row Hwf O HW) as [S [FR [V Z]]]; [eapply Z.le_trans; [|apply Z.lt_le_incl; exact big]; vm_compute; discriminate|].
  fold T' in S, FR, V, Z. split; [exact S|]. split; [exact FR|]. split; [exact (proj1 (sizes_iff P T' c row) Z)|]. rewrite V. unfold words_number. rewrite digits64, order_q.
  apply fval_ofZ_small. pose proof (Z.mod_pos_bound (rd_n (in_words P T k)) ed_q eq_refl) as B. split; [apply B|]. eapply Z.lt_trans; [apply B|exact big].
Qed.
Print Assumptions scalar_reduction_complete.

(** ** C102: the remainder is not fixed. *)
Theorem scalar_reduction_any_result : forall P L (T : table P) c k row (y : F P), wf_comp c 9 -> (forall i, 0 <= i < 8 -> outside c 4 row (nv k i)) -> 2 < char P -> ~ (char P | ed_order) ->
  exists T', sat L T' (rd_circuit c k row) /\ frame c 4 row T T' /\ vval T' (rd_out c row) = y.
Proof. exact rd_any_l. Qed.
Print Assumptions scalar_reduction_any_result.
Theorem scalar_reduction_plus_order : forall P L (T : table P) c k row, wf_comp c 9 -> (forall i, 0 <= i < 8 -> outside c 4 row (nv k i)) -> are_words T k -> 2 ^ 254 <= char P ->
  ed_order <= digits 64 4 (fun i => fval (vval T (nv k i))) -> let m := words_number T k mod ed_order in m + ed_order < 2 ^ 253 ->
  exists T', sat L T' (rd_circuit c k row) /\ frame c 4 row T T' /\ reduction_bits T' c row /\ fval (vval T' (rd_out c row)) = m + ed_order.
Proof.
  intros P L T c k row Hwf O HW big H1 m H2. assert (B64 : 2 ^ 64 <= char P) by (eapply Z.le_trans; [|exact big]; vm_compute; discriminate).
  assert (Hm : m = rd_n (in_words P T k) mod ed_q) by (unfold m, words_number; rewrite digits64; reflexivity).
  destruct (rd_alias_l P L T c k row Hwf O HW B64) as [T' [S [FR [V Z]]]].
  - rewrite digits64_4 in H1. eapply Z.le_trans; [exact H1|]. unfold rd_wk, in_words. cbv beta.
    assert (M : forall e w, 0 <= w -> 0 <= w * (2 ^ e mod ed_q)) by (intros e w Hw; apply Z.mul_nonneg_nonneg; [exact Hw|apply Z.mod_pos_bound; reflexivity]).
    pose proof (M 256 (fval (vval T (nv k 4))) (proj1 (fval_range P _))). pose proof (M 320 (fval (vval T (nv k 5))) (proj1 (fval_range P _))).
    pose proof (M 384 (fval (vval T (nv k 6))) (proj1 (fval_range P _))). pose proof (M 448 (fval (vval T (nv k 7))) (proj1 (fval_range P _))).
    clear - H H0 H3 H4. generalize dependent (fval (vval T (nv k 4)) * (2 ^ 256 mod ed_q)). generalize dependent (fval (vval T (nv k 5)) * (2 ^ 320 mod ed_q)).
    generalize dependent (fval (vval T (nv k 6)) * (2 ^ 384 mod ed_q)). generalize dependent (fval (vval T (nv k 7)) * (2 ^ 448 mod ed_q)). intros. lia.
  - rewrite <- Hm. exact H2.
  - exists T'. split; [exact S|]. split; [exact FR|]. split; [exact (proj1 (sizes_iff P T' c row) Z)|]. rewrite V, <- Hm. apply fval_ofZ_small.
    split; [unfold m; pose proof (Z.mod_pos_bound (words_number T k) ed_order eq_refl) as B; rewrite order_q in *; clear - B; assert (0 < ed_q) by reflexivity; lia|].
    eapply Z.lt_le_trans; [exact H2|]. eapply Z.le_trans; [|exact big]. vm_compute. discriminate.
Qed.
Print Assumptions scalar_reduction_plus_order.

(** *** Examples *)
Definition red_words (l : list Z) : table Pbls := intab Pbls l.
Definition ex_words : list Z := [1; 2; 3; 2 ^ 63; 5; 6; 7; 2 ^ 64 - 1].
Lemma ex_are_words : are_words (red_words ex_words) (map pin (zseq 0 8)).
Proof. intros i Hi. destruct (eight i Hi) as [-> |[-> |[-> |[-> |[-> |[-> |[-> | ->]]]]]]]; vm_compute; reflexivity. Qed.
Lemma ex_outside : forall i, 0 <= i < 8 -> outside (std_comp 9) 4 0 (nv (map pin (zseq 0 8)) i).
Proof. intros i Hi. destruct (eight i Hi) as [-> |[-> |[-> |[-> |[-> |[-> |[-> | ->]]]]]]]; apply pin_outside. Qed.
(** The largest scalar, and a reduction with a large quotient. *)
Example scalar_range_example : let T := intab Pbls [ed_order - 1] in let T' := sn_assign (std_comp 9) (pin 0) 0 T in
  fval (vval T (pin 0)) < ed_order /\ sat (noL Pbls) T' (sn_circuit (std_comp 9) (pin 0) 0) /\ chunk_bits T' (std_comp 9) 0 11.
Proof.
  intros T T'. assert (H : fval (vval T (pin 0)) < ed_order) by (vm_compute; reflexivity). split; [exact H|].
  destruct (scalar_range_complete Pbls (noL Pbls) T (std_comp 9) (pin 0) 0) as [S [_ [B _]]]; [apply wf_std; lia|apply pin_outside|vm_compute; discriminate|exact H|].
  exact (conj S B).
Qed.
Example scalar_reduction_example : let T := red_words ex_words in let k := map pin (zseq 0 8) in let T' := rd_assign (std_comp 9) k 0 T in
  sat (noL Pbls) T' (rd_circuit (std_comp 9) k 0) /\ reduction_bits T' (std_comp 9) 0 /\ are_words T' k /\ words_number T k / ed_order <> 0 /\
  fval (vval T' (rd_out (std_comp 9) 0)) = words_number T k mod ed_order.
Proof.
  intros T k T'. destruct (scalar_reduction_complete Pbls (noL Pbls) T (std_comp 9) k 0) as [S [FR [B V]]]; [apply wf_std; lia|exact ex_outside|exact ex_are_words|vm_compute; reflexivity|].
  fold T' in S, FR, B, V. split; [exact S|]. split; [exact B|]. split; [|split; [vm_compute; discriminate|exact V]].
  intros i Hi. rewrite (vval_frame Pbls _ _ _ _ _ (nv k i) FR (ex_outside i Hi)). exact (ex_are_words i Hi).
Qed.
(** Zero reduces to the order: with every chunk looked up. *)
Theorem scalar_reduction_sound_refuted : exists (T : table Pbls) c k row,
  sat (noL Pbls) T (rd_circuit c k row) /\ are_words T k /\ reduction_bits T c row /\ fval (vval T (rd_out c row)) <> words_number T k mod ed_order.
Proof.
  set (T0 := red_words [ed_order mod 2 ^ 64; (ed_order / 2 ^ 64) mod 2 ^ 64; 0; 2 ^ 60; 0; 0; 0; 0]). set (k := map pin (zseq 0 8)).
  assert (W0 : are_words T0 k) by (intros i Hi; destruct (eight i Hi) as [-> |[-> |[-> |[-> |[-> |[-> |[-> | ->]]]]]]]; vm_compute; reflexivity).
  destruct (scalar_reduction_plus_order Pbls (noL Pbls) T0 (std_comp 9) k 0) as [T' [S [FR [B V]]]];
    [apply wf_std; lia|exact ex_outside|exact W0|vm_compute; discriminate|vm_compute; discriminate|vm_compute; reflexivity|].
  exists T', (std_comp 9), k, 0. assert (E : forall i, 0 <= i < 8 -> vval T' (nv k i) = vval T0 (nv k i)) by (intros i Hi; exact (vval_frame Pbls _ _ _ _ _ _ FR (ex_outside i Hi))).
  split; [exact S|]. split; [intros i Hi; rewrite (E i Hi); exact (W0 i Hi)|]. split; [exact B|]. rewrite V.
  assert (N : words_number T' k = words_number T0 k) by (unfold words_number; rewrite !digits64; unfold rd_n; rewrite !E by lia; reflexivity).
  rewrite N. vm_compute. discriminate.
Qed.
Print Assumptions scalar_reduction_sound_refuted.
(** Nothing looked up: one reduces to two. *)
Example scalar_reduction_any_example : exists T : table Pbls, sat (noL Pbls) T (rd_circuit (std_comp 9) (map pin (zseq 0 8)) 0) /\
  words_number T (map pin (zseq 0 8)) = 1 /\ vval T (rd_out (std_comp 9) 0) = ofZ 2.
Proof.
  set (T0 := red_words [1; 0; 0; 0; 0; 0; 0; 0]). set (k := map pin (zseq 0 8)).
  destruct (scalar_reduction_any_result Pbls (noL Pbls) T0 (std_comp 9) k 0 (ofZ 2)) as [T' [S [FR V]]];
    [apply wf_std; lia|exact ex_outside|vm_compute; reflexivity| |].
  { intros H. apply Z.divide_pos_le in H; [|reflexivity]. revert H. vm_compute. intros H. apply H. reflexivity. }
  exists T'. split; [exact S|]. split; [|exact V].
  assert (E : forall i, 0 <= i < 8 -> vval T' (nv k i) = vval T0 (nv k i)) by (intros i Hi; exact (vval_frame Pbls _ _ _ _ _ _ FR (ex_outside i Hi))).
  unfold words_number. rewrite digits64. unfold rd_n. rewrite !E by lia. vm_compute. reflexivity.
Qed.
