(** Properties C57 to C60: arithmetic of the Ed25519 field on four limbs. *)
From Coq Require Import ZArith List Lia Bool Field.
From Verif Require Import Base Field Primes Plonk PlonkFacts Bits NonNativeModel NonNativeProofs NonNativeArith
  NonNativeComp NonNativeWit NonNativeMul Examples.
Import ListNotations.
Open Scope Z_scope.

(** ** Specification *)

(** The order of the field of Ed25519. *)
Definition ed25519_p : Z := 2 ^ 255 - 19.
(** The integer in limb [i] of a four-limb operand. *)
Definition limb {P} (T : table P) (A : list var) (i : Z) : Z := fval (vval T (nv A i)).
(** The number represented by four limbs of 66 bits. *)
Definition number {P} (T : table P) (A : list var) : Z :=
  limb T A 0 + limb T A 1 * 2 ^ 66 + limb T A 2 * 2 ^ 132 + limb T A 3 * 2 ^ 198.
(** Limbs of 66, 66, 66 and 57 bits. *)
Definition fits {P} (T : table P) (A : list var) : Prop :=
  limb T A 0 < 2 ^ 66 /\ limb T A 1 < 2 ^ 66 /\ limb T A 2 < 2 ^ 66 /\ limb T A 3 < 2 ^ 57.
(** The operand is the canonical form of a field element. *)
Definition canonical {P} (T : table P) (A : list var) : Prop := fits T A /\ number T A < ed25519_p.

Lemma fits_small : forall P (T : table P) A, fits T A <-> nn_small (nn_vals T A).
Proof. intros P T A. split; [apply nn_vals_small|apply nn_small_vals]. Qed.
Lemma vals_eq : forall P (T : table P) A r, nn_vals T A = nn_chop r -> 0 <= r < ed25519_p -> canonical T A /\ number T A = r.
Proof.
  intros P T A r E Hr. pose proof (canon_255 r Hr) as H. pose proof (chop_small r H) as HS. rewrite <- E in HS.
  assert (N : number T A = r) by (pose proof (chop_glue r H) as G; rewrite <- E in G; exact G).
  split; [|exact N]. split; [apply fits_small; exact HS|]. rewrite N. apply Hr.
Qed.

(** What looking the chunks of a range instance up, and tying its flag to the
    lowest chunk, would ensure: chunks of 22 bits (21, 21 and 15 in the top
    limb) and a zero flag when the lowest chunk is that of a number not below
    2^255 - 19. *)
Definition range_chunks_looked_up {P} (T : table P) (c : comp) (row : Z) : Prop :=
  let w i := fval (T CWit (W c i) row) in let n i := fval (T CWit (W c i) (row + 1)) in
  w 4 < 2 ^ 22 /\ w 5 < 2 ^ 22 /\ w 6 < 2 ^ 22 /\ w 7 < 2 ^ 22 /\
  n 0 < 2 ^ 22 /\ n 1 < 2 ^ 22 /\ n 2 < 2 ^ 22 /\ n 3 < 2 ^ 22 /\ n 4 < 2 ^ 22 /\
  n 5 < 2 ^ 21 /\ n 6 < 2 ^ 21 /\ n 7 < 2 ^ 15 /\ (2 ^ 22 - 20 < w 4 -> n 8 = 0).
Lemma looked_up_ok : forall P (T : table P) c row, range_chunks_looked_up T c row -> rg_looked P T c row.
Proof.
  intros P T c row [H0 [H1 [H2 [H3 [H4 [H5 [H6 [H7 [H8 [H9 [H10 [H11 HF]]]]]]]]]]]].
  split; [|split; [exact H9|split; [exact H10|split; [exact H11|]]]].
  - intros k Hk. assert (k = 0 \/ k = 1 \/ k = 2 \/ k = 3 \/ k = 4 \/ k = 5 \/ k = 6 \/ k = 7 \/ k = 8)
      as [-> |[-> |[-> |[-> |[-> |[-> |[-> |[-> | ->]]]]]]]] by lia; assumption.
  - intros K. specialize (HF K). apply F_ext. change (fval (f0 : F P)) with (0 mod char P). rewrite Zmod_0_l. exact HF.
Qed.

(** ** C57 the range component *)

Theorem nn_range_sound_looked_up : forall P (L : lenv P) T c A row, 2 ^ 254 <= char P ->
  sat L T (rg_circuit c A row) -> range_chunks_looked_up T c row -> canonical T A.
Proof.
  intros P L T c A row big H HL. apply looked_up_ok in HL.
  pose proof (rg_sound_l P L big T c A row H HL) as [S0 [S1 [S2 [S3 S4]]]]. split; [repeat split; assumption|exact S4].
Qed.
Print Assumptions nn_range_sound_looked_up.

Theorem nn_range_complete : forall P (L : lenv P) T c A row, 2 ^ 254 <= char P ->
  wf_comp c 9 -> (forall i, 0 <= i < 4 -> outside c 2 row (nv A i)) -> canonical T A ->
  let T' := rg_assign c A row T in
  sat L T' (rg_circuit c A row) /\ frame c 2 row T T'.
Proof. intros P L T c A row big Hwf HO [HF HN]. apply rg_complete_l; auto. apply fits_small. exact HF. Qed.
Print Assumptions nn_range_complete.

(** 2^255 - 20, the greatest element. *)
Definition nn_max_limbs : list Z := [2 ^ 66 - 20; 2 ^ 66 - 1; 2 ^ 66 - 1; 2 ^ 57 - 1].
Definition pins (k : Z) : list var := [pin k; pin (k + 1); pin (k + 2); pin (k + 3)].
Lemma pins_outside : forall k c n r i, 0 <= i < 4 -> outside c n r (nv (pins k) i).
Proof.
  intros k c n r i Hi. assert (i = 0 \/ i = 1 \/ i = 2 \/ i = 3) as [-> |[-> |[-> | ->]]] by lia; apply pin_outside.
Qed.
Example nn_range_ex : 2 ^ 254 <= char Pbls /\ wf_comp (std_comp 9) 9 /\ canonical (intab Pbls nn_max_limbs) (pins 0) /\
  number (intab Pbls nn_max_limbs) (pins 0) = ed25519_p - 1 /\
  range_chunks_looked_up (rg_assign (std_comp 9) (pins 0) 0 (intab Pbls nn_max_limbs)) (std_comp 9) 0.
Proof.
  split; [vm_compute; discriminate|]. split; [apply wf_std; lia|]. split; [repeat split; vm_compute; reflexivity|].
  split; [reflexivity|]. repeat (split; [vm_compute; reflexivity|]). intros H. vm_compute in H. discriminate.
Qed.

(** ** C58 addition, subtraction, multiplication *)

Theorem nn_add_sound_looked_up : forall P (L : lenv P) T c A B row, 2 ^ 254 <= char P ->
  sat L T (na_circuit c A B row) -> fits T A -> fits T B ->
  range_chunks_looked_up T c (row + 2) ->
  (fval (T CWit (W c 3) row) < 2 ^ 22 /\ fval (T CWit (W c 4) row) < 2 ^ 22 /\
   fval (T CWit (W c 5) row) < 2 ^ 22 /\ fval (T CWit (W c 6) row) < 2) ->
  canonical T (na_out c row) /\ number T (na_out c row) = (number T A + number T B) mod ed25519_p.
Proof.
  intros P L T c A B row big H FA FB HL [U3 [U4 [U5 U6]]]. apply looked_up_ok in HL. apply fits_small in FA, FB.
  pose proof (na_sound_l P L big T c A B row H FA FB HL) as [K1 K2]; [repeat split; try assumption; lia|].
  apply fits_small in K1. split; [|exact K2]. split; [exact K1|].
  replace (number T (na_out c row)) with ((number T A + number T B) mod ed25519_p) by (symmetry; exact K2).
  apply Z.mod_pos_bound. reflexivity.
Qed.
Print Assumptions nn_add_sound_looked_up.

Theorem nn_sub_sound_looked_up : forall P (L : lenv P) T c A B row, 2 ^ 254 <= char P ->
  sat L T (ns_circuit c A B row) -> fits T A -> fits T B ->
  range_chunks_looked_up T c (row + 2) ->
  (fval (T CWit (W c 3) row) < 2 ^ 22 /\ fval (T CWit (W c 4) row) < 2 ^ 22 /\
   fval (T CWit (W c 5) row) < 2 ^ 22 /\ fval (T CWit (W c 6) row) < 2 ^ 2) ->
  canonical T (na_out c row) /\ number T (na_out c row) = (number T A - number T B) mod ed25519_p.
Proof.
  intros P L T c A B row big H FA FB HL [U3 [U4 [U5 U6]]]. apply looked_up_ok in HL. apply fits_small in FA, FB.
  pose proof (ns_sound_l P L big T c A B row H FA FB HL) as [K1 K2]; [repeat split; try assumption|].
  apply fits_small in K1. split; [|exact K2]. split; [exact K1|].
  replace (number T (na_out c row)) with ((number T A - number T B) mod ed25519_p) by (symmetry; exact K2).
  apply Z.mod_pos_bound. reflexivity.
Qed.
Print Assumptions nn_sub_sound_looked_up.

Theorem nn_mul_sound_looked_up : forall P (L : lenv P) T c A B row, 2 ^ 254 <= char P ->
  sat L T (nm_circuit c A B row) -> fits T A -> fits T B ->
  range_chunks_looked_up T c row -> range_chunks_looked_up T c (row + 2) ->
  (let n i := fval (T CWit (W c i) (row + 6)) in
   n 0 < 2 ^ 22 /\ n 1 < 2 ^ 22 /\ n 2 < 2 ^ 22 /\ n 3 < 2 ^ 4 /\ n 4 < 2 ^ 22 /\ n 5 < 2 ^ 22 /\ n 6 < 2 ^ 22 /\ n 7 < 2 ^ 9) ->
  canonical T (nm_out c row) /\ number T (nm_out c row) = (number T A * number T B) mod ed25519_p.
Proof.
  intros P L T c A B row big H FA FB HQ HR U. apply looked_up_ok in HQ, HR. apply fits_small in FA, FB.
  pose proof (nm_sound_l P L big T c A B row H FA FB HQ HR U) as [K1 K2].
  apply fits_small in K1. split; [|exact K2]. split; [exact K1|].
  replace (number T (nm_out c row)) with ((number T A * number T B) mod ed25519_p) by (symmetry; exact K2).
  apply Z.mod_pos_bound. reflexivity.
Qed.
Print Assumptions nn_mul_sound_looked_up.

Theorem nn_add_complete : forall P (L : lenv P) T c A B row, 2 ^ 254 <= char P ->
  wf_comp c 9 -> (forall i, 0 <= i < 4 -> W c i = i) ->
  (forall i, 0 <= i < 4 -> outside c 4 row (nv A i)) -> (forall i, 0 <= i < 4 -> outside c 4 row (nv B i)) ->
  canonical T A -> canonical T B ->
  let T' := na_assign c A B row T in
  sat L T' (na_circuit c A B row) /\ frame c 4 row T T' /\
  canonical T' (na_out c row) /\ number T' (na_out c row) = (number T A + number T B) mod ed25519_p.
Proof.
  intros P L T c A B row big Hwf HW OA OB [FA NA] [FB NB] T'. apply fits_small in FA, FB.
  pose proof (na_complete_l P L big T c A B row Hwf HW OA OB FA FB NA NB) as [S [FR V]].
  split; [exact S|]. split; [exact FR|]. apply vals_eq; [exact V|apply Z.mod_pos_bound; reflexivity].
Qed.
Print Assumptions nn_add_complete.

Theorem nn_sub_complete : forall P (L : lenv P) T c A B row, 2 ^ 254 <= char P ->
  wf_comp c 9 -> (forall i, 0 <= i < 4 -> W c i = i) ->
  (forall i, 0 <= i < 4 -> outside c 4 row (nv A i)) -> (forall i, 0 <= i < 4 -> outside c 4 row (nv B i)) ->
  canonical T A -> canonical T B ->
  number T B <= number T A \/ limb T B 0 - limb T A 0 <= 2 ^ 66 - 19 ->
  let T' := ns_assign c A B row T in
  sat L T' (ns_circuit c A B row) /\ frame c 4 row T T' /\
  canonical T' (na_out c row) /\ number T' (na_out c row) = (number T A - number T B) mod ed25519_p.
Proof.
  intros P L T c A B row big Hwf HW OA OB [FA NA] [FB NB] HC T'. apply fits_small in FA, FB.
  pose proof (ns_complete_l P L big T c A B row Hwf HW OA OB FA FB NA NB HC) as [S [FR V]].
  split; [exact S|]. split; [exact FR|]. apply vals_eq; [exact V|apply Z.mod_pos_bound; reflexivity].
Qed.
Print Assumptions nn_sub_complete.

Theorem nn_mul_complete : forall P (L : lenv P) T c A B row, 2 ^ 254 <= char P ->
  wf_comp c 9 ->
  (forall i, 0 <= i < 4 -> outside c 7 row (nv A i)) -> (forall i, 0 <= i < 4 -> outside c 7 row (nv B i)) ->
  canonical T A -> canonical T B ->
  let T' := nm_assign c A B row T in
  sat L T' (nm_circuit c A B row) /\ frame c 7 row T T' /\
  canonical T' (nm_out c row) /\ number T' (nm_out c row) = (number T A * number T B) mod ed25519_p.
Proof.
  intros P L T c A B row big Hwf OA OB [FA NA] [FB NB] T'. apply fits_small in FA, FB.
  pose proof (nm_complete_l P L big T c A B row Hwf OA OB FA FB NA NB) as [S [FR V]].
  split; [exact S|]. split; [exact FR|]. apply vals_eq; [exact V|apply Z.mod_pos_bound; reflexivity].
Qed.
Print Assumptions nn_mul_complete.

(** The empty assignments give the same results. *)
Lemma nn_empty_vals : forall P (T : table P) c w row r, 2 ^ 254 <= char P -> wf_comp c w -> 4 <= w ->
  nn_vals (nn_empty r c row T) (nn_empty_out c row) = nn_chop r.
Proof.
  intros P T c w row r big Hwf Hw. rewrite <- (limbs_map P big). unfold nn_vals. apply map_ext_in. intros i Hi. apply in_zseq in Hi. f_equal.
  assert (E : nn_empty r c row T = wsets T (cells c row (map (fun i => (i, 0, ofZ (nn_limb r i))) (zseq 0 4)))).
  { unfold nn_empty, cells. rewrite map_map. cbn [fst snd]. rewrite Z.add_0_r. reflexivity. }
  rewrite E. assert (N : nv (nn_empty_out c row) i = wcell (W c i) (row + 0)).
  { rewrite Z.add_0_r. assert (i = 0 \/ i = 1 \/ i = 2 \/ i = 3) as [-> |[-> |[-> | ->]]] by lia; reflexivity. }
  rewrite N, vval_wcell, (cells_read P T c w); [|exact Hwf| |lia].
  - assert (i = 0 \/ i = 1 \/ i = 2 \/ i = 3) as [-> |[-> |[-> | ->]]] by lia; reflexivity.
  - unfold in_cols. apply forallb_forall. intros x Hx. apply in_map_iff in Hx. destruct Hx as [k [<- Hk]]. apply in_zseq in Hk. cbn [fst].
    apply andb_true_intro. split; [apply Z.leb_le; lia|apply Z.ltb_lt; lia].
Qed.
Theorem nn_empty_values : forall P (T : table P) c w A B row, 2 ^ 254 <= char P -> wf_comp c w -> 4 <= w ->
  canonical T A -> canonical T B ->
  number (na_empty c A B row T) (nn_empty_out c row) = (number T A + number T B) mod ed25519_p /\
  number (ns_empty c A B row T) (nn_empty_out c row) = (number T A - number T B) mod ed25519_p /\
  number (nm_empty c A B row T) (nn_empty_out c row) = (number T A * number T B) mod ed25519_p.
Proof.
  intros P T c w A B row big Hwf Hw [FA NA] [FB NB]. apply fits_small in FA, FB.
  pose proof (nn_glue_small _ FA NA) as [GA _]. pose proof (nn_glue_small _ FB NB) as [GB _].
  assert (K : forall r, 0 <= r < ed25519_p -> number (nn_empty r c row T) (nn_empty_out c row) = r).
  { intros r Hr. apply vals_eq; [apply (nn_empty_vals P T c w); assumption|exact Hr]. }
  unfold na_empty, ns_empty, nm_empty. rewrite GA, GB.
  repeat split; apply K; apply Z.mod_pos_bound; reflexivity.
Qed.
Print Assumptions nn_empty_values.

(** 2^255 - 20 and 3: the sum is 2 and wraps once. *)
Definition nn_in : table Pbls := intab Pbls (nn_max_limbs ++ [3; 0; 0; 0]).
Example nn_ops_ex : canonical nn_in (pins 0) /\ canonical nn_in (pins 4) /\
  limb nn_in (pins 4) 0 - limb nn_in (pins 0) 0 <= 2 ^ 66 - 19 /\
  (let T := na_assign (std_comp 9) (pins 0) (pins 4) 0 nn_in in
   map (limb T (na_out (std_comp 9) 0)) [0; 1; 2; 3] = [2; 0; 0; 0] /\
   range_chunks_looked_up T (std_comp 9) 2 /\ fval (T CWit 3 0) = 1 /\ fval (T CWit 4 0) = 0 /\ fval (T CWit 5 0) = 0 /\ fval (T CWit 6 0) = 0) /\
  (let T := ns_assign (std_comp 9) (pins 0) (pins 4) 0 nn_in in
   map (limb T (na_out (std_comp 9) 0)) [0; 1; 2; 3] = [2 ^ 66 - 23; 2 ^ 66 - 1; 2 ^ 66 - 1; 2 ^ 57 - 1] /\
   range_chunks_looked_up T (std_comp 9) 2 /\ fval (T CWit 3 0) = 1 /\ fval (T CWit 4 0) = 0 /\ fval (T CWit 5 0) = 0 /\ fval (T CWit 6 0) = 0).
Proof.
  split; [repeat split; vm_compute; reflexivity|]. split; [repeat split; vm_compute; reflexivity|]. split; [vm_compute; discriminate|].
  split; cbv zeta.
  - split; [vm_compute; reflexivity|]. split; [|repeat (split; [vm_compute; reflexivity|]); vm_compute; reflexivity].
    repeat (split; [vm_compute; reflexivity|]). intros H; vm_compute in H; discriminate.
  - split; [vm_compute; reflexivity|]. split; [|repeat (split; [vm_compute; reflexivity|]); vm_compute; reflexivity].
    repeat (split; [vm_compute; reflexivity|]). intros H; vm_compute in H; discriminate.
Qed.
Example nn_mul_ex : let T := nm_assign (std_comp 9) (pins 0) (pins 4) 0 nn_in in
  map (limb T (nm_out (std_comp 9) 0)) [0; 1; 2; 3] = [2 ^ 66 - 22; 2 ^ 66 - 1; 2 ^ 66 - 1; 2 ^ 57 - 1] /\
  range_chunks_looked_up T (std_comp 9) 0 /\ range_chunks_looked_up T (std_comp 9) 2 /\
  map (fun i => fval (T CWit i 6)) [0; 1; 2; 3; 4; 5; 6; 7] = [2; 0; 0; 0; 2; 0; 0; 0].
Proof.
  cbv zeta. split; [vm_compute; reflexivity|].
  split; [repeat (split; [vm_compute; reflexivity|]); intros H; vm_compute in H; discriminate|].
  split; [repeat (split; [vm_compute; reflexivity|]); intros H; vm_compute in H; discriminate|].
  vm_compute. reflexivity.
Qed.

(** ** C59 the range check of the circuit alone *)

(** The circuit looks nothing up and leaves the flag free: any four field
    elements pass. *)
Theorem nn_range_sound_refuted : forall P (L : lenv P) T c A row,
  wf_comp c 9 -> (forall i, 0 <= i < 4 -> outside c 2 row (nv A i)) ->
  exists T', frame c 2 row T T' /\ sat L T' (rg_circuit c A row).
Proof. intros. apply rg_free_l; assumption. Qed.
Print Assumptions nn_range_sound_refuted.
(** For instance one with all limbs out of range. *)
Example nn_range_sound_refuted_ex : exists T, sat (noL Pbls) T (rg_circuit (std_comp 9) (pins 0) 0) /\
  ~ fits T (pins 0) /\ ed25519_p < number T (pins 0) /\ limb T (pins 0) 0 = 2 ^ 70.
Proof.
  destruct (nn_range_sound_refuted Pbls (noL Pbls) (intab Pbls [2 ^ 70; 2 ^ 70; 2 ^ 70; 2 ^ 70]) (std_comp 9) (pins 0) 0
    (wf_std 9 ltac:(lia)) (pins_outside 0 _ _ _)) as [T [FR S]].
  exists T. split; [exact S|].
  assert (V : forall i, 0 <= i < 4 -> limb T (pins 0) i = 2 ^ 70).
  { intros i Hi. unfold limb. rewrite (vval_frame _ _ _ _ _ _ _ FR) by (apply pins_outside; exact Hi).
    assert (i = 0 \/ i = 1 \/ i = 2 \/ i = 3) as [-> |[-> |[-> | ->]]] by lia; vm_compute; reflexivity. }
  split; [intros [H _]; rewrite V in H by lia; discriminate|]. split; [|apply V; lia].
  unfold number. rewrite !V by lia. reflexivity.
Qed.

Lemma big_limb : forall P (T : table P) A z, 2 ^ 254 <= char P -> vval T (nv A 3) = ofZ (2 ^ 57) -> 0 <= z < ed25519_p -> number T A <> z.
Proof.
  intros P T A z big H3 Hz E. pose proof (char_big P big) as Bn.
  unfold number in E. unfold limb in E. rewrite H3 in E. rewrite (fval_ofZ_small P (2 ^ 57)) in E by (change (2 ^ 57) with 144115188075855872; lia).
  pose proof (fval_range P (vval T (nv A 0))). pose proof (fval_range P (vval T (nv A 1))). pose proof (fval_range P (vval T (nv A 2))).
  change ed25519_p with (2 ^ 57 * 2 ^ 198 - 19) in Hz.
  change (2 ^ 57) with 144115188075855872 in *. change (2 ^ 66) with 73786976294838206464 in *.
  change (2 ^ 132) with (73786976294838206464 * 73786976294838206464) in *.
  change (2 ^ 198) with (73786976294838206464 * 73786976294838206464 * 73786976294838206464) in *. lia.
Qed.

(** Next to any inputs, a wrong sum, difference or product is accepted. *)
Theorem nn_add_sound_refuted : forall P (L : lenv P) T c A B row, 2 ^ 254 <= char P ->
  wf_comp c 9 -> (forall i, 0 <= i < 4 -> outside c 4 row (nv A i)) -> (forall i, 0 <= i < 4 -> outside c 4 row (nv B i)) ->
  exists T', frame c 4 row T T' /\ sat L T' (na_circuit c A B row) /\
    number T' (na_out c row) <> (number T A + number T B) mod ed25519_p.
Proof.
  intros P L T c A B row big Hwf OA OB. destruct (na_free_l P L T c A B row f0 (ofZ (2 ^ 57)) Hwf OA OB) as [T' [FR [S [_ V]]]].
  exists T'. split; [exact FR|]. split; [exact S|]. apply big_limb; [exact big|exact V|apply Z.mod_pos_bound; reflexivity].
Qed.
Print Assumptions nn_add_sound_refuted.
Theorem nn_sub_sound_refuted : forall P (L : lenv P) T c A B row, 2 ^ 254 <= char P ->
  wf_comp c 9 -> (forall i, 0 <= i < 4 -> outside c 4 row (nv A i)) -> (forall i, 0 <= i < 4 -> outside c 4 row (nv B i)) ->
  exists T', frame c 4 row T T' /\ sat L T' (ns_circuit c A B row) /\
    number T' (na_out c row) <> (number T A - number T B) mod ed25519_p.
Proof.
  intros P L T c A B row big Hwf OA OB. destruct (ns_free_l P L T c A B row f0 (ofZ (2 ^ 57)) Hwf OA OB) as [T' [FR [S [_ V]]]].
  exists T'. split; [exact FR|]. split; [exact S|]. apply big_limb; [exact big|exact V|apply Z.mod_pos_bound; reflexivity].
Qed.
Print Assumptions nn_sub_sound_refuted.
Theorem nn_mul_sound_refuted : forall P (L : lenv P) T c A B row, 2 ^ 254 <= char P ->
  wf_comp c 9 -> (forall i, 0 <= i < 4 -> outside c 7 row (nv A i)) -> (forall i, 0 <= i < 4 -> outside c 7 row (nv B i)) ->
  exists T', frame c 7 row T T' /\ sat L T' (nm_circuit c A B row) /\
    number T' (nm_out c row) <> (number T A * number T B) mod ed25519_p.
Proof.
  intros P L T c A B row big Hwf OA OB. destruct (nm_free_l P L big T c A B row f0 f0 (ofZ (2 ^ 57)) Hwf OA OB) as [T' [FR [S [_ [_ V]]]]].
  exists T'. split; [exact FR|]. split; [exact S|]. apply big_limb; [exact big|exact V|apply Z.mod_pos_bound; reflexivity].
Qed.
Print Assumptions nn_mul_sound_refuted.
Example nn_sound_refuted_ex : 2 ^ 254 <= char Pbls /\ wf_comp (std_comp 9) 9 /\ canonical nn_in (pins 0) /\ canonical nn_in (pins 4) /\
  (forall i, 0 <= i < 4 -> outside (std_comp 9) 7 0 (nv (pins 4) i)).
Proof.
  split; [vm_compute; discriminate|]. split; [apply wf_std; lia|]. split; [repeat split; vm_compute; reflexivity|].
  split; [repeat split; vm_compute; reflexivity|]. apply pins_outside.
Qed.

(** ** C60 honest assignments *)

(** A borrow of more than one: the honest subtraction is rejected. *)
Theorem nn_sub_complete_refuted : forall P (L : lenv P) T c A B row, 2 ^ 254 <= char P ->
  wf_comp c 9 -> (forall i, 0 <= i < 4 -> W c i = i) ->
  (forall i, 0 <= i < 4 -> outside c 4 row (nv A i)) -> (forall i, 0 <= i < 4 -> outside c 4 row (nv B i)) ->
  canonical T A -> canonical T B ->
  number T A < number T B -> 2 ^ 66 - 19 < limb T B 0 - limb T A 0 ->
  ~ sat L (ns_assign c A B row T) (ns_circuit c A B row).
Proof.
  intros P L T c A B row big Hwf HW OA OB [FA NA] [FB NB] HL HC. apply fits_small in FA, FB.
  apply ns_fails_l; assumption.
Qed.
Print Assumptions nn_sub_complete_refuted.
(** 0 - (2^66 - 1). *)
Example nn_sub_complete_refuted_ex : let T := intab Pbls [0; 0; 0; 0; 2 ^ 66 - 1; 0; 0; 0] in
  canonical T (pins 0) /\ canonical T (pins 4) /\ number T (pins 0) < number T (pins 4) /\
  2 ^ 66 - 19 < limb T (pins 4) 0 - limb T (pins 0) 0 /\
  ~ sat (noL Pbls) (ns_assign (std_comp 9) (pins 0) (pins 4) 0 T) (ns_circuit (std_comp 9) (pins 0) (pins 4) 0).
Proof.
  cbv zeta. assert (K0 : canonical (intab Pbls [0; 0; 0; 0; 2 ^ 66 - 1; 0; 0; 0]) (pins 0)) by (repeat split; vm_compute; reflexivity).
  assert (K4 : canonical (intab Pbls [0; 0; 0; 0; 2 ^ 66 - 1; 0; 0; 0]) (pins 4)) by (repeat split; vm_compute; reflexivity).
  split; [exact K0|]. split; [exact K4|]. split; [vm_compute; reflexivity|]. split; [vm_compute; reflexivity|].
  apply nn_sub_complete_refuted; [vm_compute; discriminate|apply wf_std; lia|intros i Hi; apply W_std; lia|apply pins_outside|apply pins_outside|
    exact K0|exact K4|vm_compute; reflexivity|vm_compute; reflexivity].
Qed.

(** In columns 1 to 9 the honest addition 1 + 0 is rejected: the range part
    reads columns 0 to 3. *)
Definition comp_1_9 : comp := mkComp [1; 2; 3; 4; 5; 6; 7; 8; 9] [] [].
Theorem nn_add_columns_refuted : exists (T : table Pbls) c A B row,
  wf_comp c 9 /\ (forall i, 0 <= i < 4 -> outside c 4 row (nv A i)) /\ (forall i, 0 <= i < 4 -> outside c 4 row (nv B i)) /\
  canonical T A /\ canonical T B /\ ~ sat (noL Pbls) (na_assign c A B row T) (na_circuit c A B row) /\
  number (na_assign c A B row T) (na_out c row) <> (number T A + number T B) mod ed25519_p.
Proof.
  exists (intab Pbls [1; 0; 0; 0; 0; 0; 0; 0]), comp_1_9, (pins 0), (pins 4), 0.
  split; [split; [repeat constructor; cbn; intuition discriminate|split; [reflexivity|reflexivity]]|].
  split; [apply pins_outside|]. split; [apply pins_outside|].
  split; [repeat split; vm_compute; reflexivity|]. split; [repeat split; vm_compute; reflexivity|]. split.
  - intros S. apply na_parts in S. destruct S as [G _].
    assert (K : feqb (eval (na_assign comp_1_9 (pins 0) (pins 4) 0 (intab Pbls [1; 0; 0; 0; 0; 0; 0; 0])) (0 + 1) (nth 0 (na_gate comp_1_9) (ecst f0))) f0 = true).
    { rewrite G by (left; reflexivity). apply feqb_refl. }
    vm_compute in K. discriminate.
  - vm_compute. discriminate.
Qed.
Print Assumptions nn_add_columns_refuted.
