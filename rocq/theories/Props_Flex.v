(** Properties C47 to C56: the flexible components of the Placeholder verifier
    and the Poseidon permutation. *)
From Coq Require Import ZArith List Lia Bool Field.
From Verif Require Import Base Field Primes Plonk PlonkFacts Bits FlexModel FlexProofs FlexPow FlexFactor
  PoseidonModel PoseidonProofs PowerProofs Examples.
Import ListNotations.
Open Scope Z_scope.

(** [b ^ n] for a non-negative integer [n]. *)
Definition fexp {P} (b : F P) (n : Z) : F P := fpow b (Z.to_nat n).

(** ** C47 additions, multiplications *)

Definition apply_op {P} (k : fop) (a b : F P) : F P := match k with FAdd => fadd a b | FMul => fmul a b end.

Theorem flex_ops_sound : forall P (L : lenv P) k T c w arr row,
  wamount c = w -> 3 <= w ->
  sat L T (fa_circuit k c arr row) ->
  map (vval T) (fa_out c (zlen arr) row) = map (fun x => apply_op k (vval T (fst x)) (vval T (snd x))) arr.
Proof.
  intros P L k T c w arr row Hw H3 H. pose proof (fa_out_len c w (zlen arr) row Hw H3 ltac:(unfold zlen; lia)) as LO.
  apply (nth_ext _ _ f0 f0); [rewrite !map_length; unfold zlen in LO; apply Nat2Z.inj; exact LO|].
  intros i Hi. rewrite map_length in Hi. unfold zlen in LO. apply Nat2Z.inj in LO. fold (zlen arr) in LO.
  pose proof (fa_sound_l P L k T c w arr row Hw H3 H (Z.of_nat i) ltac:(unfold zlen; lia)) as E. cbv zeta in E.
  unfold znth in E. rewrite Nat2Z.id in E.
  rewrite (nth_indep _ f0 (vval T (wcell 0 0))) by (rewrite map_length; lia). rewrite map_nth.
  rewrite (nth_indep _ f0 ((fun x => apply_op k (vval T (fst x)) (vval T (snd x))) (wcell 0 0, wcell 0 0))) by (rewrite map_length; lia).
  rewrite (map_nth (fun x => apply_op k (vval T (fst x)) (vval T (snd x)))). rewrite E. destruct k; reflexivity.
Qed.
Print Assumptions flex_ops_sound.

Theorem flex_ops_complete : forall P (L : lenv P) k T c w arr row,
  wf_comp c w -> 3 <= w ->
  (forall x, In x arr -> outside c (fa_rows w (zlen arr)) row (fst x) /\ outside c (fa_rows w (zlen arr)) row (snd x)) ->
  let T' := fa_assign k c arr row T in
  sat L T' (fa_circuit k c arr row) /\ frame c (fa_rows w (zlen arr)) row T T' /\
  map (vval T') (fa_out c (zlen arr) row) = map (fun x => apply_op k (vval T (fst x)) (vval T (snd x))) arr.
Proof.
  intros P L k T c w arr row Hwf H3 HO T'. destruct (fa_complete_l P L k T c w arr row Hwf H3 HO) as [S FR].
  fold T' in S, FR. split; [exact S|]. split; [exact FR|].
  rewrite (flex_ops_sound P L k T' c w arr row (proj1 (proj2 Hwf)) H3 S). apply map_ext_in. intros x Hx.
  destruct (HO x Hx) as [O1 O2]. rewrite !(vval_frame _ _ _ _ _ _ _ FR) by assumption. reflexivity.
Qed.
Print Assumptions flex_ops_complete.
Example flex_ops_ex : let T := fa_assign FMul (std_comp 7) [(pin 0, pin 1); (pin 1, pin 2); (pin 0, pin 0)] 0 (intab P97 [5; 7; 9]) in
  sat (noL P97) T (fa_circuit FMul (std_comp 7) [(pin 0, pin 1); (pin 1, pin 2); (pin 0, pin 0)] 0) /\
  map (fun v => fval (vval T v)) (fa_out (std_comp 7) 3 0) = [35; 63; 25] /\ fa_rows 7 3 = 2.
Proof. cbv zeta. split; [apply satb_sat; vm_compute; reflexivity|]. split; reflexivity. Qed.

(** ** C48 swap *)

Theorem flex_swap_sound : forall P (L : lenv P) T c b x y row,
  sat L T (fs_circuit c b x y row) ->
  (vval T b = f0 /\ vval T (fst (fs_out c row)) = vval T x /\ vval T (snd (fs_out c row)) = vval T y) \/
  (vval T b = f1 /\ vval T (fst (fs_out c row)) = vval T y /\ vval T (snd (fs_out c row)) = vval T x).
Proof. intros. eapply fs_sound_l; eassumption. Qed.
Print Assumptions flex_swap_sound.

Theorem flex_swap_complete : forall P (L : lenv P) T c b x y row,
  wf_comp c 5 -> outside c 1 row b -> outside c 1 row x -> outside c 1 row y ->
  vval T b = f0 \/ vval T b = f1 ->
  let T' := fs_assign c b x y row T in
  sat L T' (fs_circuit c b x y row) /\ frame c 1 row T T'.
Proof. intros. apply fs_complete_l; assumption. Qed.
Print Assumptions flex_swap_complete.
Example flex_swap_ex : let T := fs_assign (std_comp 5) (pin 0) (pin 1) (pin 2) 0 (intab P97 [1; 7; 9]) in
  sat (noL P97) T (fs_circuit (std_comp 5) (pin 0) (pin 1) (pin 2) 0) /\
  fval (vval T (fst (fs_out (std_comp 5) 0))) = 9 /\ fval (vval T (snd (fs_out (std_comp 5) 0))) = 7.
Proof. cbv zeta. split; [apply satb_sat; vm_compute; reflexivity|]. split; reflexivity. Qed.

(** ** C49 constant_pow *)

(** Number of base-4 digits of a positive number. *)
Definition digits4 (n : Z) : Z := Z.log2 n / 2 + 1.
Lemma digits4_len : forall n, 0 < n -> cp_len n = digits4 n.
Proof.
  intros n H. unfold cp_len, digits4. destruct (four_chunks_ok n ltac:(lia)) as [-> _].
  replace (n =? 0) with false by (symmetry; apply Z.eqb_neq; lia). reflexivity.
Qed.

(** Which exponents a component can be built for. *)
Theorem constant_pow_constructs : forall pow, 0 <= pow ->
  cp_constructs pow = false <-> exists m, 0 <= m /\ pow = 4 ^ m.
Proof. apply cp_constructs_ok. Qed.
Print Assumptions constant_pow_constructs.

(** Whatever stands in the first accumulator cell is raised along. *)
Theorem constant_pow_sound : forall P (L : lenv P) T c w pow x row,
  wamount c = w -> 3 <= w -> 0 < pow -> cp_constructs pow = true -> digits4 pow mod (w - 2) <> 0 ->
  sat L T (cp_circuit c pow x row) ->
  vval T (cp_out c pow row) = fmul (fexp (T CWit (W c 1) row) (4 ^ digits4 pow)) (fexp (vval T x) pow).
Proof.
  intros P L T c w pow x row Hw H3 Hp HC HM H. rewrite <- digits4_len in * by exact Hp.
  exact (cp_sound_l P L T c w pow x row Hw H3 Hp HC HM H).
Qed.
Print Assumptions constant_pow_sound.

Theorem constant_pow_complete : forall P (L : lenv P) T c w pow x row,
  wf_comp c w -> 3 <= w -> 0 < pow -> cp_constructs pow = true ->
  outside c (cp_rows w pow) row x ->
  let T' := cp_assign c pow x row T in
  sat L T' (cp_circuit c pow x row) /\ frame c (cp_rows w pow) row T T' /\
  (digits4 pow mod (w - 2) <> 0 -> vval T' (cp_out c pow row) = fexp (vval T x) pow).
Proof.
  intros P L T c w pow x row Hwf H3 Hp HC HO T'.
  destruct (cp_complete_l P L T c w pow x row Hwf H3 Hp HC HO) as [S [FR E]].
  split; [exact S|]. split; [exact FR|]. intros HM. rewrite <- digits4_len in HM by exact Hp.
  fold T' in E. rewrite E. replace (cp_len pow mod (w - 2) =? 0) with false by (symmetry; apply Z.eqb_neq; exact HM). reflexivity.
Qed.
Print Assumptions constant_pow_complete.
Example constant_pow_ex : let T := cp_assign (std_comp 4) 45 (pin 0) 0 (intab P97 [5]) in
  cp_constructs 45 = true /\ digits4 45 mod (4 - 2) <> 0 /\
  sat (noL P97) T (cp_circuit (std_comp 4) 45 (pin 0) 0) /\
  fval (vval T (cp_out (std_comp 4) 45 0)) = 5 ^ 45 mod 97.
Proof.
  cbv zeta. split; [reflexivity|]. split; [discriminate|]. split; [apply satb_sat; vm_compute; reflexivity|].
  vm_compute; reflexivity.
Qed.

(** ** C50: constant_pow as documented *)

(** Zero is accepted as the power of every element. *)
Theorem constant_pow_sound_refuted : forall P (L : lenv P) T c w pow x row,
  wf_comp c w -> 3 <= w -> 0 < pow -> cp_constructs pow = true ->
  outside c (cp_rows w pow) row x -> vval T x <> f0 ->
  exists T', sat L T' (cp_circuit c pow x row) /\ vval T' x = vval T x /\
    vval T' (cp_out c pow row) <> fexp (vval T' x) pow.
Proof.
  intros P L T c w pow x row Hwf H3 Hp HC HO HX.
  destruct (cp_zero_l P L T c w pow x row Hwf H3 Hp HC HO) as [T' [S [FR E]]]. exists T'. split; [exact S|].
  pose proof (vval_frame _ _ _ _ _ _ _ FR HO) as EX. split; [exact EX|]. rewrite EX, E. intros K. symmetry in K.
  revert K. unfold fexp. induction (Z.to_nat pow) as [|n IH]; cbn [fpow]; [apply f1_neq_f0|].
  intros K. apply fmul_integral in K. destruct K as [K|K]; [exact (HX K)|exact (IH K)].
Qed.
Print Assumptions constant_pow_sound_refuted.

(** When the digits fill the last row the result variable holds an earlier
    power: honest runs return [x ^ (pow / 4^(w-2))]. *)
Theorem constant_pow_output_refuted : forall P (L : lenv P) T c w pow x row,
  wf_comp c w -> 3 <= w -> 0 < pow -> cp_constructs pow = true -> digits4 pow mod (w - 2) = 0 ->
  outside c (cp_rows w pow) row x ->
  let T' := cp_assign c pow x row T in
  sat L T' (cp_circuit c pow x row) /\ vval T' x = vval T x /\
  vval T' (cp_out c pow row) = fexp (vval T' x) (pow / 4 ^ (w - 2)).
Proof.
  intros P L T c w pow x row Hwf H3 Hp HC HM HO T'.
  destruct (cp_complete_l P L T c w pow x row Hwf H3 Hp HC HO) as [S [FR E]].
  fold T' in S, FR, E. split; [exact S|]. pose proof (vval_frame _ _ _ _ _ _ _ FR HO) as EX. split; [exact EX|].
  rewrite EX, E. rewrite digits4_len by exact Hp. rewrite HM. reflexivity.
Qed.
Print Assumptions constant_pow_output_refuted.
(** The exponent 10 with four columns: the result is always 1. *)
Example constant_pow_output_ex : let T := cp_assign (std_comp 4) 10 (pin 0) 0 (intab P97 [5]) in
  cp_constructs 10 = true /\ digits4 10 mod (4 - 2) = 0 /\
  fval (vval T (cp_out (std_comp 4) 10 0)) = 1 /\ fval (fexp (ofZ 5 : F P97) 10) <> 1.
Proof. cbv zeta. split; [reflexivity|]. split; [reflexivity|]. split; [vm_compute; reflexivity|vm_compute; discriminate]. Qed.

Theorem constant_pow_constructs_refuted : forall m, 0 <= m -> cp_constructs (4 ^ m) = false.
Proof. intros m Hm. apply cp_constructs_ok; [apply Z.pow_nonneg; lia|]. exists m. split; [exact Hm|reflexivity]. Qed.
Print Assumptions constant_pow_constructs_refuted.

(** ** C51 x_index *)

(** [n] bits and the result bit: bit [i] equal to 0 contributes [2^i]. *)
Fixpoint zero_weight (zs : list Z) : Z :=
  match zs with [] => 0 | z :: r => (1 - z) + 2 * zero_weight r end.
Lemma zero_weight_ok : forall zs, zero_weight zs = xindex zs.
Proof. induction zs as [|z zs IH]; cbn; [reflexivity|]. rewrite IH. reflexivity. Qed.

Theorem x_index_sound : forall P (L : lenv P) T c w om x bs zs row,
  wamount c = w -> 3 <= w -> zlen bs mod ((w - 1) / 2) <> 0 ->
  (forall z, In z zs -> z = 0 \/ z = 1) -> map (vval T) (bs ++ [xi_out c row]) = map ofZ zs ->
  T CWit (W c 0) row = f1 ->
  sat L T (xi_circuit c om x bs row) ->
  vval T x = fexp om (zero_weight zs).
Proof.
  intros P L T c w om x bs zs row Hw H3 HM HB HZ H1 H. rewrite zero_weight_ok.
  rewrite (xi_sound_l P L T c w om x bs zs row Hw H3 HM HB HZ H), H1. unfold zpow. rewrite fpow_f1.
  apply (Rmul_1_l (F_ring P)).
Qed.
Print Assumptions x_index_sound.

Theorem x_index_complete : forall P (L : lenv P) T c w om x bs zs row,
  wf_comp c w -> 3 <= w -> 1 <= zlen bs ->
  (forall z, In z zs -> z = 0 \/ z = 1) -> map (vval T) bs = map ofZ zs ->
  fexp om (2 ^ zlen bs) = fopp f1 ->
  vval T x = fexp om (zero_weight zs) \/ vval T x = fopp (fexp om (zero_weight zs)) ->
  outside c (xi_rows w (zlen bs)) row x -> (forall b, In b bs -> outside c (xi_rows w (zlen bs)) row b) ->
  consts_in T (xi_circuit c om x bs row) ->
  exists T', xi_assign c om x bs row T = Some T' /\
  sat L T' (xi_circuit c om x bs row) /\ frame c (xi_rows w (zlen bs)) row T T' /\
  (vval T' (xi_out c row) = f1 <-> vval T x = fexp om (zero_weight zs)) /\
  (vval T' (xi_out c row) = f1 \/ vval T' (xi_out c row) = f0).
Proof.
  intros P L T c w om x bs zs row Hwf H3 HN HB HZ HOm HX OX OB HC. rewrite zero_weight_ok in *.
  destruct (xi_complete_l P L T c w om x bs zs row Hwf H3 HN HB HZ HOm HX OX OB HC) as [T' [E [S [FR O]]]].
  exists T'. split; [exact E|]. split; [exact S|]. split; [exact FR|]. rewrite O.
  change (zpow om (xindex zs)) with (fexp om (xindex zs)).
  destruct (feqb (fexp om (xindex zs)) (vval T x)) eqn:K.
  - apply feqb_eq in K. split; [|left; reflexivity]. split; auto.
  - split; [|right; reflexivity]. split; intros H.
    + exfalso. symmetry in H. exact (f1_neq_f0 _ H).
    + rewrite H, feqb_refl in K. discriminate.
Qed.
Print Assumptions x_index_complete.
(** 22 has order 4 modulo 97: one bit, five columns. *)
Definition xtab (x : Z) (b : Z) : table P97 := intab_c P97 [x; b] [22].
Example x_index_ex : exists T, xi_assign (std_comp 5) (ofZ 22) (pin 0) [pin 1] 0 (xtab 75 0) = Some T /\
  sat (noL P97) T (xi_circuit (std_comp 5) (ofZ 22) (pin 0) [pin 1] 0) /\
  fval (vval T (xi_out (std_comp 5) 0)) = 0 /\ zero_weight [0; 0] = 3 /\ 22 ^ 3 mod 97 = 75 /\
  1 mod ((5 - 1) / 2) <> 0 /\ T CWit (W (std_comp 5) 0) 0 = f1.
Proof.
  eexists. split; [reflexivity|]. split; [apply satb_sat; vm_compute; reflexivity|].
  repeat split; try reflexivity; discriminate.
Qed.

(** ** C52: x_index as documented *)

(** The result need not be a bit. *)
Theorem x_index_bit_refuted : exists T : table P97,
  sat (noL P97) T (xi_circuit (std_comp 5) (ofZ 22) (pin 0) [pin 1] 0) /\
  vval T (pin 1) = f1 /\ T CWit (W (std_comp 5) 0) 0 = f1 /\
  vval T (xi_out (std_comp 5) 0) <> f0 /\ vval T (xi_out (std_comp 5) 0) <> f1.
Proof.
  exists (wsets (xtab 1 1) [(0, 0, f1); (1, 0, ofZ 75); (2, 0, ofZ 96); (3, 0, f1); (4, 0, f1)]).
  split; [apply satb_sat; vm_compute; reflexivity|]. split; [reflexivity|]. split; [reflexivity|].
  split; apply fval_neq; vm_compute; discriminate.
Qed.
Print Assumptions x_index_bit_refuted.

(** Nor, being a bit, the right one: 1 is accepted as [22^2 = -1]. *)
Theorem x_index_sound_refuted : exists T : table P97,
  sat (noL P97) T (xi_circuit (std_comp 5) (ofZ 22) (pin 0) [pin 1] 0) /\
  vval T (pin 0) = f1 /\ map (vval T) [pin 1; xi_out (std_comp 5) 0] = map ofZ [1; 0] /\
  vval T (pin 0) <> fexp (ofZ 22) (zero_weight [1; 0]).
Proof.
  exists (wsets (xtab 1 1) [(0, 0, ofZ 33); (1, 0, f0); (2, 0, ofZ (33 * 33 * 22)); (3, 0, f1); (4, 0, f1)]).
  split; [apply satb_sat; vm_compute; reflexivity|]. split; [reflexivity|]. split; [vm_compute; reflexivity|].
  apply fval_neq; vm_compute; discriminate.
Qed.
Print Assumptions x_index_sound_refuted.

(** When the bits fill the rows the point itself is not looked at. *)
Theorem x_index_input_refuted : forall P (L : lenv P) T c w om x x' bs row,
  wamount c = w -> 3 <= w -> zlen bs mod ((w - 1) / 2) = 0 ->
  sat L T (xi_circuit c om x bs row) -> sat L T (xi_circuit c om x' bs row).
Proof.
  intros P L T c w om x x' bs row Hw H3 HM H. rewrite (xi_free_l P c w om x' x bs row Hw H3 HM). exact H.
Qed.
Print Assumptions x_index_input_refuted.
Example x_index_input_ex : sat (noL P97) (wsets (xtab 1 1) [(0, 0, f1); (1, 0, f1); (2, 0, f1); (0, 1, f1); (1, 1, f1); (2, 1, f1)])
   (xi_circuit (std_comp 3) (ofZ 22) (pin 0) [pin 1] 0) /\ 1 mod ((3 - 1) / 2) = 0.
Proof. split; [apply satb_sat; vm_compute; reflexivity|reflexivity]. Qed.

(** ** C53 pow_factor *)

(** A polynomial with its leading coefficient first. *)
Fixpoint poly_at {P} (th : F P) (cs : list (F P)) : F P :=
  match cs with [] => f0 | a :: r => fadd (fmul a (fpow th (length r))) (poly_at th r) end.
Lemma poly_at_ok : forall P (th : F P) cs, poly_at th cs = polyval P th cs.
Proof. intros P th cs. induction cs as [|a cs IH]; cbn; [reflexivity|]. rewrite IH. reflexivity. Qed.

Theorem pow_factor_sound : forall P (L : lenv P) T c B theta cs row,
  wamount c = 8 * B + 2 -> 1 <= B -> 1 <= zlen cs ->
  sat L T (pf_circuit c theta cs row) ->
  vval T (pf_out c (zlen cs - 1) row) = poly_at (vval T theta) (map (vval T) cs).
Proof. intros. rewrite poly_at_ok. eapply pf_sound_l; eassumption. Qed.
Print Assumptions pow_factor_sound.

Theorem pow_factor_complete : forall P (L : lenv P) T c B theta cs row,
  wf_comp c (8 * B + 2) -> 1 <= B -> 1 <= zlen cs ->
  let R := pf_rows (8 * B + 2) (zlen cs - 1) in
  outside c R row theta -> (forall v, In v cs -> outside c R row v) ->
  consts_in T (pf_circuit c theta cs row) ->
  let T' := pf_assign c theta cs row T in
  sat L T' (pf_circuit c theta cs row) /\ frame c R row T T' /\
  vval T' (pf_out c (zlen cs - 1) row) = poly_at (vval T theta) (map (vval T) cs).
Proof. intros. rewrite poly_at_ok. apply pf_complete_l; assumption. Qed.
Print Assumptions pow_factor_complete.

(** The number of rows is the least that fits: each holds [7B] coefficients,
    the first row one more. *)
Theorem pow_factor_rows : forall B power, 1 <= B -> 0 <= power ->
  let R := pf_rows (8 * B + 2) power in
  1 <= R /\ power + 1 <= R * (7 * B) + 1 /\ (forall R', 1 <= R' -> power + 1 <= R' * (7 * B) + 1 -> R <= R').
Proof.
  intros B power HB HP R. destruct (pf_rows_ok B power HB HP) as [R1 [R2 [R3 _]]]. fold R in R1, R2, R3.
  split; [exact R1|]. split; [lia|]. intros R' H1 H2. destruct R3 as [R3|R3]; [lia|].
  destruct (Z_le_gt_dec R R') as [K|K]; [exact K|]. exfalso.
  assert (R' * (7 * B) <= (R - 1) * (7 * B)) by (apply Z.mul_le_mono_nonneg_r; lia). lia.
Qed.
Print Assumptions pow_factor_rows.
Definition pf_cs : list var := map pin (zseq 1 11).
Example pow_factor_ex :
  let T := pf_assign (std_comp 10) (pin 0) pf_cs 0 (intab_c P97 [3; 1; 2; 3; 4; 5; 6; 7; 8; 9; 10] [0]) in
  sat (noL P97) T (pf_circuit (std_comp 10) (pin 0) pf_cs 0) /\
  fval (vval T (pf_out (std_comp 10) 9 0)) = (fold_left (fun a b => 3 * a + b) [1;2;3;4;5;6;7;8;9;10] 0) mod 97 /\
  pf_rows 10 9 = 2.
Proof.
  cbv zeta. split; [apply satb_sat; vm_compute; reflexivity|]. split; vm_compute; reflexivity.
Qed.

(** ** C54 colinear_checks *)

(** One folding step at point [x] with sign bit [b]: the line through
    [(s, y0)] and [(-s, y1)], evaluated at [alpha], is [y]. *)
Definition folds {P} (x b y0 y1 al y : F P) : Prop :=
  let s := fsub (fmul (fmul (ofZ 2) b) x) x in
  fsub (fmul (fadd al s) y0) (fmul (fsub al s) y1) = fmul (fmul (ofZ 2) s) y.
Definition chosen {P} (b y0 y1 : F P) : F P := fadd (fmul b y0) (fmul (fsub f1 b) y1).

Section Rearrange.
Variable P : params.
Add Field Ff : (F_field P) (morphism (F_morph P), constants [F_const], power_tac (F_power P) [F_pow_tac]).
Lemma fold_rearrange : forall x b y0 y1 al y : F P,
  fsub (fsub (fmul (fadd al (fsub (fmul (fmul (ofZ 2) b) x) x)) y0) (fmul (fsub al (fsub (fmul (fmul (ofZ 2) b) x) x)) y1))
       (fmul (fmul y (ofZ 2)) (fsub (fmul (fmul (ofZ 2) b) x) x)) = f0 <-> folds x b y0 y1 al y.
Proof.
  intros x b y0 y1 al y. unfold folds. cbv zeta. rewrite fsub_eq0.
  assert (E : fmul (fmul y (ofZ 2)) (fsub (fmul (fmul (ofZ 2) b) x) x) = fmul (fmul (ofZ 2) (fsub (fmul (fmul (ofZ 2) b) x) x)) y) by ring.
  rewrite E. reflexivity.
Qed.
Lemma folds0 : folds (f0 : F P) f0 f0 f0 f0 (chosen f0 f0 f0).
Proof. unfold folds, chosen. cbv zeta. ring. Qed.
End Rearrange.

(** The constraints say this about the blocks from the second of each row on. *)
Theorem colinear_exact : forall P (L : lenv P) T c w r row, wamount c = w ->
  sat L T (cl_circuit c r row) <->
  forall i b, 0 <= i < cl_rows w r -> 1 <= b < (w - 4) / 5 ->
    let v k := T CWit (W c (b * 5 + k)) (row + i) in
    folds (v 0) (v 1) (v 2) (v 3) (v 4) (chosen (v 6) (v 7) (v 8)).
Proof.
  intros P L T c w r row Hw. unfold cl_circuit. rewrite Hw, sat_cons. cbn [holds].
  assert (EV : forall b rr, eval T rr
    (let v i := evar (wv (W c (b * 5 + i)) 0) in
     let s := (ecst (ofZ 2) * v 1%Z * v 0%Z - v 0%Z)%E in
     (((v 4%Z + s) * v 2%Z - (v 4%Z - s) * v 3%Z) - (v 6%Z * v 7%Z + (ecst (ofZ 1) - v 6%Z) * v 8%Z) * ecst (ofZ 2) * s)%E) = f0 <->
    folds (T CWit (W c (b * 5 + 0)) rr) (T CWit (W c (b * 5 + 1)) rr) (T CWit (W c (b * 5 + 2)) rr) (T CWit (W c (b * 5 + 3)) rr)
      (T CWit (W c (b * 5 + 4)) rr) (chosen (T CWit (W c (b * 5 + 6)) rr) (T CWit (W c (b * 5 + 7)) rr) (T CWit (W c (b * 5 + 8)) rr))).
  { intros b rr. cbv zeta. rewrite !eval_bin, !eval_ecst, !eval_evar, !gval_wv, !Z.add_0_r. cbn [ebop]. unfold folds, chosen. cbv zeta.
    replace (b * 5 + 0) with (b * 5) by lia. change (ofZ 1) with (@f1 P). apply fold_rearrange. }
  split.
  - intros [H _] i b Hi Hb. cbv zeta. apply EV. apply (H (row + i)); [apply in_zseq; lia|].
    unfold cl_gate. rewrite Hw. fold (cl_per w). apply in_map_iff. exists b. split; [reflexivity|apply in_zseq; exact Hb].
  - intros H. split; [|intros cm []]. intros rr Hrr e He. apply in_zseq in Hrr. unfold cl_gate in He. rewrite Hw in He.
    apply in_map_iff in He. destruct He as [b [<- Hb]]. apply in_zseq in Hb. apply EV.
    specialize (H (rr - row) b ltac:(lia) Hb). cbv zeta in H. replace (row + (rr - row)) with rr in H by lia. exact H.
Qed.
Print Assumptions colinear_exact.

(** The colinearity checks over the inputs: step [k] of [r] at [x ^ (2^k)]. *)
Definition colinear {P} (T : table P) (r : Z) (inp : clin) : Prop :=
  forall k, 0 <= k < r ->
    let ys i := vval T (znth (wcell 0 0) (cl_ys inp) i) in
    let bs i := vval T (znth (wcell 0 0) (cl_bs inp) i) in
    folds (fexp (vval T (cl_x inp)) (2 ^ k)) (bs k) (ys (2 * k)) (ys (2 * k + 1))
      (vval T (znth (wcell 0 0) (cl_al inp) k))
      (chosen (bs (k + 1)) (ys (2 * k + 2)) (ys (2 * k + 3))).

(** The constraints never mention the inputs: they can be satisfied next to any
    of them. *)
Theorem colinear_sound_refuted : forall P (L : lenv P) T c w r row, wf_comp c w ->
  exists T', sat L T' (cl_circuit c r row) /\ forall v, outside c (cl_rows w r) row v -> vval T' v = vval T v.
Proof.
  intros P L T c w r row Hwf.
  set (T' := fun ty col rr => match ty with
    | CWit => if existsb (Z.eqb col) (cWs c) && ((row <=? rr) && (rr <? row + cl_rows w r)) then f0 else T ty col rr
    | _ => T ty col rr end : F P).
  pose proof (proj1 (proj2 Hwf)) as Hw.
  exists T'. split.
  - apply (colinear_exact P L T' c w r row Hw). intros i b Hi Hb. cbv beta zeta.
    assert (Z0 : forall k, 0 <= k < 9 -> T' CWit (W c (b * 5 + k)) (row + i) = f0).
    { intros k Hk. unfold T'. replace (existsb _ _) with true.
      - replace (row <=? row + i) with true by (symmetry; apply Z.leb_le; lia).
        replace (row + i <? row + cl_rows w r) with true by (symmetry; apply Z.ltb_lt; lia). reflexivity.
      - symmetry. apply existsb_exists. exists (W c (b * 5 + k)). split; [|apply Z.eqb_refl].
        apply (W_In c w). exact Hwf. }
    rewrite !Z0 by lia. apply folds0.
  - intros v Hv. apply (vval_frame P c (cl_rows w r) row); [|exact Hv].
    intros ty col rr H. unfold T'. destruct ty; try reflexivity.
    destruct (existsb (Z.eqb col) (cWs c)) eqn:E1; [|reflexivity]. cbn [andb].
    destruct ((row <=? rr) && (rr <? row + cl_rows w r)) eqn:E2; [|reflexivity]. exfalso. apply H.
    apply existsb_exists in E1. destruct E1 as [z [Hz E1]]. apply Z.eqb_eq in E1. subst z.
    apply andb_prop in E2. destruct E2 as [E2 E3]. apply Z.leb_le in E2. apply Z.ltb_lt in E3.
    split; [reflexivity|]. split; [exact Hz|lia].
Qed.
Print Assumptions colinear_sound_refuted.
(** One step at 3 with the values 5, 7, 9, 9 does not fold. *)
Definition cl_inp : clin := mkClin (pin 0) (map pin (zseq 1 5)) (map pin (zseq 5 7)) [pin 7].
Example colinear_ex : ~ colinear (intab P97 [3; 5; 7; 9; 9; 1; 0; 2]) 1 cl_inp /\
  colinear (intab P97 [3; 5; 5; 5; 5; 1; 0; 2]) 1 cl_inp.
Proof.
  split.
  - intros H. specialize (H 0 ltac:(lia)). cbv zeta in H. apply (f_equal fval) in H. vm_compute in H. discriminate.
  - intros k Hk. replace k with 0 by lia. cbv zeta. apply F_ext. vm_compute. reflexivity.
Qed.

(** ** C55 Poseidon *)

(** The permutation: 55 rounds of raising to the seventh power, multiplying by
    the matrix and adding the round's constants. *)
Fixpoint vsum {P} (l : list (F P)) : F P := match l with [] => f0 | x :: r => fadd x (vsum r) end.
Definition perm_round {P} (mds rc : Z -> Z -> F P) (r : nat) (s : list (F P)) : list (F P) :=
  map (fun j => fadd (vsum (map (fun k => fmul (mds j (Z.of_nat k)) (fpow (nth k s f0) 7)) (seq 0 3))) (rc (Z.of_nat r) j))
    [0; 1; 2].
Definition perm {P} (mds rc : Z -> Z -> F P) (s : list (F P)) : list (F P) :=
  fold_left (fun s r => perm_round mds rc r s) (seq 0 55) s.
Definition vals {P} (T : table P) (v : var * var * var) : list (F P) :=
  [vval T (fst (fst v)); vval T (snd (fst v)); vval T (snd v)].

Section PermSpec.
Variable P : params.
Add Field Ff2 : (F_field P) (morphism (F_morph P), constants [F_const], power_tac (F_power P) [F_pow_tac]).
Variables mds rc : Z -> Z -> F P.
Definition as_list (s : F P * F P * F P) : list (F P) := [fst (fst s); snd (fst s); snd s].
Lemma perm_round_ok : forall r s, perm_round mds rc r (as_list s) = as_list (ps_next mds rc (Z.of_nat r) s).
Proof.
  intros r [[a b] d]. unfold perm_round, as_list, ps_next, ps_word, t3. cbn [map fst snd seq nth vsum].
  change (0 =? 0) with true. change (1 =? 0) with false. change (1 =? 1) with true. change (2 =? 0) with false. change (2 =? 1) with false.
  cbv iota. change (Z.of_nat 0) with 0. change (Z.of_nat 1) with 1. change (Z.of_nat 2) with 2.
  f_equal; [ring|]. f_equal; [ring|]. f_equal; ring.
Qed.
Lemma perm_ok : forall s, perm mds rc (as_list s) = as_list (ps_state mds rc s rounds).
Proof.
  intros s. unfold perm, ps_state, rounds. replace (zseq 0 55) with (map Z.of_nat (seq 0 55)) by reflexivity.
  generalize (seq 0 55). intros l. revert s. induction l as [|r l IH]; intros s; [reflexivity|].
  cbn [map fold_left]. rewrite perm_round_ok. apply IH.
Qed.
Lemma last_round : forall a b d o : F P,
  fadd (fadd (fadd (fmul a f0) (fmul b f0)) (fmul d f0)) o = o.
Proof. intros. ring. Qed.
End PermSpec.

Theorem poseidon_sound : forall P (L : lenv P) mds rc T c ins row, wamount c = 15 ->
  sat L T (pos_circuit mds rc c ins row) ->
  vals T (pos_out c row) = perm mds rc (vals T ins).
Proof.
  intros P L mds rc T c ins row Hw H. pose proof (pos_sound_l P L mds rc T c ins row Hw H) as E.
  change (vals T ins) with (as_list P (ps_input T ins)). rewrite perm_ok, <- E. reflexivity.
Qed.
Print Assumptions poseidon_sound.

Theorem poseidon_complete : forall P (L : lenv P) mds rc T c ins row, wf_comp c 15 ->
  outside c pos_rows row (fst (fst ins)) -> outside c pos_rows row (snd (fst ins)) -> outside c pos_rows row (snd ins) ->
  let T' := pos_assign mds rc c ins row T in
  sat L T' (pos_circuit mds rc c ins row) /\ frame c pos_rows row T T' /\
  vals T' (pos_out c row) = perm mds rc (vals T ins).
Proof.
  intros P L mds rc T c ins row Hwf O0 O1 O2 T'.
  destruct (pos_complete_l P L mds rc T c ins row Hwf O0 O1 O2) as [S [FR E]].
  split; [exact S|]. split; [exact FR|].
  change (vals T ins) with (as_list P (ps_input T ins)). rewrite perm_ok, <- E. reflexivity.
Qed.
Print Assumptions poseidon_complete.

(** The flexible version in a circuit that has no gates yet. *)
Theorem flex_poseidon_sound : forall P (L : lenv P) mds rc T c w ins row, wamount c = w -> 3 <= w -> w mod 3 = 0 ->
  sat L T (fp_circuit mds rc [] c ins row) ->
  vals T (fp_out c row) = perm mds rc (vals T ins).
Proof.
  intros P L mds rc T c w ins row Hw H3 HM H. pose proof (fp_sound_l P L mds rc T c w ins row Hw H3 HM H) as E.
  change (vals T ins) with (as_list P (ps_input T ins)). rewrite perm_ok, <- E. reflexivity.
Qed.
Print Assumptions flex_poseidon_sound.

Theorem flex_poseidon_complete : forall P (L : lenv P) mds rc T c w ins row, wf_comp c w -> 3 <= w -> w mod 3 = 0 ->
  outside c (fp_rows w) row (fst (fst ins)) -> outside c (fp_rows w) row (snd (fst ins)) -> outside c (fp_rows w) row (snd ins) ->
  let T' := fp_assign mds rc c ins row T in
  sat L T' (fp_circuit mds rc [] c ins row) /\ frame c (fp_rows w) row T T' /\
  vals T' (fp_out c row) = perm mds rc (vals T ins).
Proof.
  intros P L mds rc T c w ins row Hwf H3 HM O0 O1 O2 T'.
  destruct (fp_complete_l P L mds rc T c w ins row Hwf H3 HM O0 O1 O2) as [S [FR E]].
  split; [exact S|]. split; [exact FR|].
  change (vals T ins) with (as_list P (ps_input T ins)). rewrite perm_ok, <- E. reflexivity.
Qed.
Print Assumptions flex_poseidon_complete.

Definition ex_mds (i j : Z) : F P7 := ofZ (1 + i + 2 * j).
Definition ex_rc (r j : Z) : F P7 := ofZ (r + j).
Definition ex_ins : var * var * var := (pin 0, pin 1, pin 2).
Example poseidon_ex : map fval (vals (pos_assign ex_mds ex_rc (std_comp 15) ex_ins 0 (intab P7 [1; 2; 3])) (pos_out (std_comp 15) 0)) =
  map fval (perm ex_mds ex_rc [ofZ 1; ofZ 2; ofZ 3]).
Proof. vm_compute. reflexivity. Qed.

(** ** C56: the flexible version after other gates *)

(** Whatever the earlier gates are, as long as they hold on the component's rows
    whatever its cells contain, any output is accepted for any input. *)
Theorem flex_poseidon_sound_refuted : forall P (L : lenv P) mds rc T c w pre ins row o0 o1 o2,
  wf_comp c w -> 3 <= w -> w mod 3 = 0 -> fp_gates_amount w <= zlen pre ->
  outside c (fp_rows w) row (fst (fst ins)) -> outside c (fp_rows w) row (snd (fst ins)) -> outside c (fp_rows w) row (snd ins) ->
  (forall T' i, frame c (fp_rows w) row T T' -> 0 <= i < fp_gates_amount w -> sat L T' [Gate (znth [] pre i) [row + i]]) ->
  exists T', sat L T' (fp_circuit mds rc pre c ins row) /\ vals T' ins = vals T ins /\
    vals T' (fp_out c row) = [o0; o1; o2].
Proof.
  intros P L mds rc T c w pre ins row o0 o1 o2 Hwf H3 HM HP O0 O1 O2 HG.
  pose proof (proj1 (proj2 Hwf)) as Hw.
  set (mds' := fun _ _ : Z => f0 : F P). set (rc' := fun _ j : Z => t3 (o0, o1, o2) j).
  destruct (fp_complete_l P L mds' rc' T c w ins row Hwf H3 HM O0 O1 O2) as [S [FR E]].
  exists (fp_assign mds' rc' c ins row T). split; [|split].
  - rewrite (fp_shadowed P mds rc c w pre ins row Hw HP). rewrite sat_app. split.
    + intros cm Hc. apply in_map_iff in Hc. destruct Hc as [i [<- Hi]]. apply in_zseq in Hi.
      apply (HG _ i FR Hi). left. reflexivity.
    + intros cm Hc. apply S. unfold fp_circuit. apply in_or_app. right. exact Hc.
  - unfold vals. rewrite !(vval_frame _ _ _ _ _ _ _ FR) by assumption. reflexivity.
  - change (vals ?t ?v) with (as_list P (ps_input t v)). rewrite E.
    change rounds with (54 + 1). unfold ps_state. rewrite fold_zseq_snoc by lia.
    unfold as_list, ps_next, ps_word, mds', rc', t3. cbn [fst snd].
    change (0 =? 0) with true. change (1 =? 0) with false. change (1 =? 1) with true. change (2 =? 0) with false. change (2 =? 1) with false.
    cbv iota. f_equal; [apply last_round|]. f_equal; [apply last_round|]. f_equal; apply last_round.
Qed.
Print Assumptions flex_poseidon_sound_refuted.

(** An earlier gate on columns 170, 171, a component 165 columns wide. *)
Definition pre_gate : list (expr P7) := [(evar (wv 170 0) - evar (wv 171 0))%E].
Example flex_poseidon_refuted_ex : exists T' : table P7,
  sat (noL P7) T' (fp_circuit ex_mds ex_rc [pre_gate] (std_comp 165) ex_ins 0) /\
  vals T' ex_ins = [ofZ 1; ofZ 2; ofZ 3] /\ vals T' (fp_out (std_comp 165) 0) = [f0; f0; f0].
Proof.
  destruct (flex_poseidon_sound_refuted P7 (noL P7) ex_mds ex_rc (intab P7 [1; 2; 3]) (std_comp 165) 165 [pre_gate] ex_ins 0 f0 f0 f0)
    as [T' H]; try (apply wf_std; lia); try lia; try reflexivity; try (apply pin_outside).
  - intros T' i FR Hi. change (fp_gates_amount 165) with 1 in Hi. replace i with 0 by lia. rewrite sat_cons. split; [|intros ? []].
    intros r Hr e He. destruct Hr as [<-|[]]. destruct He as [<-|[]]. rewrite eval_bin, !eval_evar, !gval_wv. cbn [ebop].
    rewrite !FR by (intros [_ [K _]]; unfold std_comp in K; cbn [cWs] in K; apply in_zseq in K; lia). reflexivity.
  - exists T'. exact H.
Qed.
