(** Circuits and witnesses of the non-native components. *)
From Coq Require Import ZArith List Lia Bool Field Znumtheory.
From Verif Require Import Base Field Plonk PlonkFacts Bits NonNativeModel NonNativeProofs NonNativeArith.
Import ListNotations.
Open Scope Z_scope.

Lemma pieces4_ok : forall x t, 0 < t -> 0 <= x < 2 ^ 66 * t ->
  x = x mod 2 ^ 22 + (x / 2 ^ 22) mod 2 ^ 22 * 2 ^ 22 + (x / 2 ^ 44) mod 2 ^ 22 * 2 ^ 44 + (x / 2 ^ 66) mod t * 2 ^ 66.
Proof.
  intros x t Ht Hx.
  change (2 ^ 44) with (2 ^ 22 * 2 ^ 22). change (2 ^ 66) with (2 ^ 22 * 2 ^ 22 * 2 ^ 22) in *.
  rewrite <- !Z.div_div by lia. assert (HM : 0 < 2 ^ 22) by reflexivity. set (M := 2 ^ 22) in *.
  pose proof (Z.div_mod x M ltac:(lia)) as D0. set (a := x / M) in *.
  pose proof (Z.div_mod a M ltac:(lia)) as D1. assert (Ea : a / M = x / (M * M)) by (unfold a; rewrite Z.div_div by lia; reflexivity).
  set (b := a / M) in *. pose proof (Z.div_mod b M ltac:(lia)) as D2.
  assert (Hb : 0 <= b / M < t).
  { rewrite Ea, Z.div_div by lia. split; [apply Z.div_pos; lia|]. apply Z.div_lt_upper_bound; lia. }
  rewrite (Z.mod_small (b / M) t) by exact Hb. set (d := b / M) in *.
  rewrite D2 in D1. rewrite D1 in D0. rewrite D0 at 1. ring.
Qed.

Section Comp.
Variable P : params.
Notation F := (F P).
Notation table := (table P).
Variable L : lenv P.
Implicit Types T : table.
Add Field Ff : (F_field P) (morphism (F_morph P), constants [F_const], power_tac (F_power P) [F_pow_tac]).
Hypothesis big : 2 ^ 254 <= char P.

(** ** Values *)

Lemma nn_vals_nth : forall T A i, 0 <= i < 4 -> znth 0 (nn_vals T A) i = fval (vval T (nv A i)).
Proof.
  intros T A i Hi. assert (i = 0 \/ i = 1 \/ i = 2 \/ i = 3) as [-> |[-> |[-> | ->]]] by lia; reflexivity.
Qed.
Lemma nn_vals_small : forall T A,
  fval (vval T (nv A 0)) < 2 ^ 66 /\ fval (vval T (nv A 1)) < 2 ^ 66 /\ fval (vval T (nv A 2)) < 2 ^ 66 /\ fval (vval T (nv A 3)) < 2 ^ 57 ->
  nn_small (nn_vals T A).
Proof.
  intros T A [H0 [H1 [H2 H3]]]. unfold nn_small. rewrite !nn_vals_nth by lia.
  repeat split; try apply fval_range; assumption.
Qed.
Lemma nn_small_vals : forall T A, nn_small (nn_vals T A) ->
  fval (vval T (nv A 0)) < 2 ^ 66 /\ fval (vval T (nv A 1)) < 2 ^ 66 /\ fval (vval T (nv A 2)) < 2 ^ 66 /\ fval (vval T (nv A 3)) < 2 ^ 57.
Proof. intros T A H. unfold nn_small in H. rewrite !nn_vals_nth in H by lia. lia. Qed.
Lemma glue_vals : forall T A, nn_glue_z (nn_vals T A) =
  fval (vval T (nv A 0)) + fval (vval T (nv A 1)) * 2 ^ 66 + fval (vval T (nv A 2)) * 2 ^ 132 + fval (vval T (nv A 3)) * 2 ^ 198.
Proof. reflexivity. Qed.

(** ** Soundness, assuming the lookups *)

(** The carry chunks of an addition or subtraction. *)
Definition carry_looked (T : table) (c : comp) (row : Z) : Prop :=
  fval (T CWit (W c 3) row) < 2 ^ 22 /\ fval (T CWit (W c 4) row) < 2 ^ 22 /\
  fval (T CWit (W c 5) row) < 2 ^ 22 /\ fval (T CWit (W c 6) row) < 4.

Lemma na_out_nv : forall c row i, 0 <= i < 4 -> nv (na_out c row) i = wcell (W c i) (row + 2).
Proof.
  intros c row i Hi. assert (i = 0 \/ i = 1 \/ i = 2 \/ i = 3) as [-> |[-> |[-> | ->]]] by lia; reflexivity.
Qed.

Lemma na_parts : forall T g c A B row, sat L T (na_circuit_of g c A B row) ->
  (forall e, In e g -> eval T (row + 1) e = f0) /\ sat L T (rg_circuit c (na_out c row) (row + 2)) /\
  T CWit (W c 0) (row + 1) = vval T (nv A 0) /\ T CWit (W c 1) (row + 1) = vval T (nv B 0) /\
  T CWit (W c 3) (row + 1) = vval T (nv A 1) /\ T CWit (W c 4) (row + 1) = vval T (nv A 2) /\
  T CWit (W c 5) (row + 1) = vval T (nv A 3) /\ T CWit (W c 6) (row + 1) = vval T (nv B 1) /\
  T CWit (W c 7) (row + 1) = vval T (nv B 2) /\ T CWit (W c 8) (row + 1) = vval T (nv B 3).
Proof.
  intros T g c A B row H. unfold na_circuit_of in H. rewrite sat_cons, sat_app in H. destruct H as [G [H R]].
  rewrite holds_gate1 in G. split; [exact G|]. split; [exact R|].
  unfold na_copies in H. repeat (rewrite sat_cons in H). cbn [holds] in H. rewrite !vval_wcell in H.
  destruct H as [H0 [H1 [H2 [H3 [H4 [H5 [H6 [H7 _]]]]]]]]. repeat (split; [assumption|]). assumption.
Qed.

Ltac rows row := replace (row + 1 + -1) with row in * by lia; replace (row + 1 + 1) with (row + 2) in * by lia.

Lemma na_sound_l : forall T c A B row, sat L T (na_circuit c A B row) ->
  nn_small (nn_vals T A) -> nn_small (nn_vals T B) -> rg_looked P T c (row + 2) -> carry_looked T c row ->
  nn_small (nn_vals T (na_out c row)) /\
  nn_glue_z (nn_vals T (na_out c row)) = (nn_glue_z (nn_vals T A) + nn_glue_z (nn_vals T B)) mod ed_p.
Proof.
  intros T c A B row H HA HB HR HU. apply na_parts in H. destruct H as [G [R [C0 [C1 [C3 [C4 [C5 [C6 [C7 C8]]]]]]]]].
  pose proof (rg_sound_l P L big T c _ _ R HR) as [S0 [S1 [S2 [S3 S4]]]].
  split; [apply nn_vals_small; repeat split; assumption|].
  pose proof (nn_small_vals T A HA) as HA'. pose proof (nn_small_vals T B HB) as HB'. rewrite !glue_vals in *.
  rewrite !na_out_nv in * by lia. rewrite !vval_wcell in *.
  rewrite <- C0, <- C3, <- C4, <- C5 in *. rewrite <- C1, <- C6, <- C7, <- C8 in *.
  unfold na_gate in G. cbv zeta in G. repeat (rewrite all_cons in G). destruct G as [G0 [G1 [G2 [G3 _]]]].
  unfold nn_carry, nn_glue_e in *. cbv zeta in *. eval_hyps. rows row.
  pose proof (add_core P big _ _ _ _ _ _ _ _ _ _ _ _ _ _ _ _ _ _ HA' HB' (conj S0 (conj S1 (conj S2 S3))) HU G1 G2 G0 G3) as K.
  rewrite K. symmetry. rewrite Z.add_comm, Z_mod_plus_full. apply Z.mod_small. split; [|exact S4].
  apply zg_bound; auto.
Qed.

Lemma ns_sound_l : forall T c A B row, sat L T (ns_circuit c A B row) ->
  nn_small (nn_vals T A) -> nn_small (nn_vals T B) -> rg_looked P T c (row + 2) -> carry_looked T c row ->
  nn_small (nn_vals T (na_out c row)) /\
  nn_glue_z (nn_vals T (na_out c row)) = (nn_glue_z (nn_vals T A) - nn_glue_z (nn_vals T B)) mod ed_p.
Proof.
  intros T c A B row H HA HB HR HU. apply na_parts in H. destruct H as [G [R [C0 [C1 [C3 [C4 [C5 [C6 [C7 C8]]]]]]]]].
  pose proof (rg_sound_l P L big T c _ _ R HR) as [S0 [S1 [S2 [S3 S4]]]].
  split; [apply nn_vals_small; repeat split; assumption|].
  pose proof (nn_small_vals T A HA) as HA'. pose proof (nn_small_vals T B HB) as HB'. rewrite !glue_vals in *.
  rewrite !na_out_nv in * by lia. rewrite !vval_wcell in *.
  rewrite <- C0, <- C3, <- C4, <- C5 in *. rewrite <- C1, <- C6, <- C7, <- C8 in *.
  unfold ns_gate in G. cbv zeta in G. repeat (rewrite all_cons in G). destruct G as [G0 [G1 [G2 [G3 _]]]].
  unfold nn_carry, nn_glue_e in *. cbv zeta in *. eval_hyps. rows row.
  pose proof (sub_core P big _ _ _ _ _ _ _ _ _ _ _ _ _ _ _ _ _ _ HA' HB' (conj S0 (conj S1 (conj S2 S3))) HU G1 G2 G0 G3) as K.
  cbv beta zeta in K. match type of K with (?a + _ - ?b = ?q * _ + ?r) => replace (a - b) with (r + (q - 1) * ed_p) by lia end.
  symmetry. rewrite Z_mod_plus_full. apply Z.mod_small. split; [|exact S4]. apply zg_bound; auto.
Qed.

(** The carry chunks of a multiplication. *)
Definition carries_looked (T : table) (c : comp) (row : Z) : Prop :=
  fval (T CWit (W c 0) row) < 2 ^ 22 /\ fval (T CWit (W c 1) row) < 2 ^ 22 /\
  fval (T CWit (W c 2) row) < 2 ^ 22 /\ fval (T CWit (W c 3) row) < 2 ^ 4 /\
  fval (T CWit (W c 4) row) < 2 ^ 22 /\ fval (T CWit (W c 5) row) < 2 ^ 22 /\
  fval (T CWit (W c 6) row) < 2 ^ 22 /\ fval (T CWit (W c 7) row) < 2 ^ 9.

Lemma nm_out_nv : forall c row i, 0 <= i < 4 -> nv (nm_out c row) i = wcell (W c (3 + i)) (row + 5).
Proof.
  intros c row i Hi. assert (i = 0 \/ i = 1 \/ i = 2 \/ i = 3) as [-> |[-> |[-> | ->]]] by lia; reflexivity.
Qed.

Lemma nm_parts : forall T c A B row, sat L T (nm_circuit c A B row) ->
  (forall e, In e (nm_gate c) -> eval T (row + 5) e = f0) /\ sat L T (rg_circuit c (nm_q c row) row) /\
  sat L T (rg_circuit c (nm_out c row) (row + 2)) /\
  (forall i, 0 <= i < 4 -> T CWit (W c i) (row + 4) = vval T (nv A i)) /\
  (forall i, 0 <= i < 4 -> T CWit (W c (i + 4)) (row + 4) = vval T (nv B i)).
Proof.
  intros T c A B row H. unfold nm_circuit in H. rewrite sat_cons, !sat_app in H. destruct H as [G [H [R1 R2]]].
  rewrite holds_gate1 in G. split; [exact G|]. split; [exact R1|]. split; [exact R2|].
  unfold nm_copies in H. rewrite sat_app in H. destruct H as [HA HB].
  split; intros i Hi; rewrite <- vval_wcell.
  - apply (HA (Copy (wcell (W c i) (row + 4)) (nv A i))). apply in_map_iff. exists i. split; [reflexivity|apply in_zseq; exact Hi].
  - apply (HB (Copy (wcell (W c (i + 4)) (row + 4)) (nv B i))). apply in_map_iff. exists i. split; [reflexivity|apply in_zseq; exact Hi].
Qed.

Lemma nm_sound_l : forall T c A B row, sat L T (nm_circuit c A B row) ->
  nn_small (nn_vals T A) -> nn_small (nn_vals T B) -> rg_looked P T c row -> rg_looked P T c (row + 2) -> carries_looked T c (row + 6) ->
  nn_small (nn_vals T (nm_out c row)) /\
  nn_glue_z (nn_vals T (nm_out c row)) = (nn_glue_z (nn_vals T A) * nn_glue_z (nn_vals T B)) mod ed_p.
Proof.
  intros T c A B row H HA HB HQ HR [U0 [U1 [U2 [U3 [U4 [U5 [U6 U7]]]]]]]. apply nm_parts in H. destruct H as [G [Q [R [CA CB]]]].
  pose proof (rg_sound_l P L big T c _ _ Q HQ) as [T0 [T1 [T2 [T3 T4]]]].
  pose proof (rg_sound_l P L big T c _ _ R HR) as [S0 [S1 [S2 [S3 S4]]]].
  split; [apply nn_vals_small; repeat split; assumption|].
  pose proof (nn_small_vals T A HA) as HA'. pose proof (nn_small_vals T B HB) as HB'. rewrite !glue_vals in *.
  change (nv (nm_q c row) 0) with (wcell (W c 8) (row + 4)) in *. change (nv (nm_q c row) 1) with (wcell (W c 0) (row + 5)) in *.
  change (nv (nm_q c row) 2) with (wcell (W c 1) (row + 5)) in *. change (nv (nm_q c row) 3) with (wcell (W c 2) (row + 5)) in *.
  rewrite !nm_out_nv in * by lia. rewrite !vval_wcell in *.
  change (3 + 0) with 3 in *. change (3 + 1) with 4 in *. change (3 + 2) with 5 in *. change (3 + 3) with 6 in *.
  rewrite <- (CA 0), <- (CA 1), <- (CA 2), <- (CA 3) in * by lia.
  rewrite <- (CB 0), <- (CB 1), <- (CB 2), <- (CB 3) in * by lia.
  change (0 + 4) with 4 in *. change (1 + 4) with 5 in *. change (2 + 4) with 6 in *. change (3 + 4) with 7 in *.
  clear CA CB HA HB.
  unfold nm_gate in G. cbv zeta in G. repeat (rewrite all_cons in G). destruct G as [G0 [G1 [G2 [G3 [G4 _]]]]].
  unfold nn_glue_e in *. cbv zeta in *. eval_hyps.
  replace (row + 5 + -1) with (row + 4) in * by lia. replace (row + 5 + 1) with (row + 6) in * by lia.
  pose proof (mul_core P big _ _ _ _ _ _ _ _ _ _ _ _ _ _ _ _ _ _ _ _ _ _ _ _ _ _ HA' HB' (conj T0 (conj T1 (conj T2 T3)))
    (conj S0 (conj S1 (conj S2 S3))) (conj U0 (conj U1 (conj U2 U3))) (conj U4 (conj U5 (conj U6 U7))) G2 G3 G0 G1 G4) as K.
  rewrite K. symmetry. rewrite Z.add_comm, Z_mod_plus_full. apply Z.mod_small. split; [|exact S4].
  apply zg_bound; auto.
Qed.
End Comp.
