(** Properties C76 to C78: the native curve components for the Pasta curves. *)
From Coq Require Import ZArith List Lia Bool Field.
From Verif Require Import Base Field Primes Plonk PlonkFacts Bits CurveModel CurveSpec CurveProofs EndoProofs Pasta Examples.
Import ListNotations.
Open Scope Z_scope.

(** ** C76 unified_addition *)

Theorem unified_addition_sound : forall P (L : lenv P) T c px py qx qy row (b : F P) (p q : point P),
  3 <= char P -> no_axis_points b -> on_curve b p -> on_curve b q ->
  sat L T (ua_circuit c px py qx qy row) ->
  (vval T px, vval T py) = enc p -> (vval T qx, vval T qy) = enc q ->
  (vval T (ua_x c row), vval T (ua_y c row)) = enc (ec_add p q).
Proof. intros. eapply ua_sound_l; eassumption. Qed.
Print Assumptions unified_addition_sound.

Theorem unified_addition_complete : forall P (L : lenv P) T c px py qx qy row (b : F P) (p q : point P),
  3 <= char P -> no_axis_points b -> on_curve b p -> on_curve b q ->
  wf_comp c 11 -> outside c 1 row px -> outside c 1 row py -> outside c 1 row qx -> outside c 1 row qy ->
  (vval T px, vval T py) = enc p -> (vval T qx, vval T qy) = enc q ->
  let T' := ua_assign c px py qx qy row T in
  sat L T' (ua_circuit c px py qx qy row) /\ frame c 1 row T T' /\
  (vval T' (ua_x c row), vval T' (ua_y c row)) = enc (ec_add p q).
Proof. intros. eapply ua_complete_l; eassumption. Qed.
Print Assumptions unified_addition_complete.

(** The group law the two theorems refer to stays on the curve, is commutative
    and has inverses. *)
Theorem curve_addition_laws : forall P (b : F P) (p q : point P),
  3 <= char P -> no_axis_points b -> on_curve b p -> on_curve b q ->
  on_curve b (ec_add p q) /\ ec_add p q = ec_add q p /\ ec_add p None = p /\ ec_add p (neg p) = None.
Proof.
  intros P b p q HP HN Hp Hq. split; [|split; [|split]].
  - apply ec_add_on; assumption.
  - eapply ec_add_comm; eassumption.
  - destruct p as [[x y]|]; reflexivity.
  - apply ec_add_neg.
Qed.
Print Assumptions curve_addition_laws.

Lemma all97 : forall f : Z -> bool, forallb f (zseq 0 97) = true -> forall x : F P97, f (fval x) = true.
Proof.
  intros f H x. rewrite forallb_forall in H. apply H. apply in_zseq. pose proof (fval_range P97 x) as R.
  change (char P97) with 97 in R. lia.
Qed.
Lemma curve97 : no_axis_points (P := P97) (ofZ 5).
Proof.
  split.
  - intros y E. pose proof (all97 (fun v => negb (v * v mod 97 =? 5)) ltac:(vm_compute; reflexivity) y) as K. cbv beta in K.
    apply (f_equal fval) in E. change ((fval y * fval y) mod 97 = 5) in E.
    rewrite E in K. discriminate K.
  - intros x E. pose proof (all97 (fun v => negb (((v * v mod 97) * v mod 97 + 5) mod 97 =? 0)) ltac:(vm_compute; reflexivity) x) as K. cbv beta in K.
    apply (f_equal fval) in E. change (((fval x * fval x) mod 97 * fval x mod 97 + 5) mod 97 = 0) in E.
    rewrite E in K. discriminate K.
Qed.

Definition pt97 (x y : Z) : point P97 := Some (ofZ x, ofZ y).
Definition ua97 (l : list Z) : table P97 := ua_assign (std_comp 11) (pin 0) (pin 1) (pin 2) (pin 3) 0 (intab P97 l).
Definition ua97_ok (l : list Z) (x y : Z) : bool :=
  satb (ua97 l) (ua_circuit (std_comp 11) (pin 0) (pin 1) (pin 2) (pin 3) 0) &&
  (fval (vval (ua97 l) (ua_x (std_comp 11) 0)) =? x) && (fval (vval (ua97 l) (ua_y (std_comp 11) 0)) =? y).
(** A chord, a tangent, a neutral summand and opposite points, on y^2 = x^3 + 5. *)
Example unified_addition_ex :
  on_curve (ofZ 5) (pt97 1 43) /\ on_curve (ofZ 5) (pt97 3 41) /\
  enc (ec_add (pt97 1 43) (pt97 3 41)) = (ofZ 94, ofZ 50) /\
  ua97_ok [1; 43; 3; 41] 94 50 = true /\ ua97_ok [1; 43; 1; 43] 59 61 = true /\
  ua97_ok [0; 0; 3; 41] 3 41 = true /\ ua97_ok [1; 43; 1; 54] 0 0 = true.
Proof. 
  split; [apply feqb_eq; vm_compute; reflexivity|]. split; [apply feqb_eq; vm_compute; reflexivity|].
  split; [apply injective_projections; apply feqb_eq; vm_compute; reflexivity|]. repeat split; vm_compute; reflexivity.
Qed.

(** The hypotheses of the two theorems hold for the curves the component is
    instantiated with, over their real base fields. *)
Theorem pasta_curves_fit :
  3 <= char Ppallas /\ no_axis_points (P := Ppallas) (ofZ 5) /\
  3 <= char Pvesta /\ no_axis_points (P := Pvesta) (ofZ 5).
Proof.
  split; [rewrite char_pallas; unfold pallas_p; lia|]. split; [exact pallas_no_axis|].
  split; [rewrite char_vesta; unfold vesta_q; lia|]. exact vesta_no_axis.
Qed.
Print Assumptions pasta_curves_fit.

(** ** C77 endo_scalar *)

(** Every table that meets the circuit and starts its accumulators as
    generate_assignments does. *)
Theorem endo_scalar_sound : forall P (L : lenv P) endo_r T c x row,
  2 ^ 128 <= char P ->
  sat L T (es_circuit endo_r c x row) ->
  T CWit (W c 0) row = f0 -> T CWit (W c 2) row = ofZ 2 -> T CWit (W c 3) row = ofZ 2 ->
  let v := fval (vval T x) in
  v < 2 ^ 128 /\ vval T (es_out c row) = fadd (fmul endo_r (ofZ (endo_a 64 v))) (ofZ (endo_b 64 v)).
Proof. intros P L e T c x row HP H A B C v. apply (es_sound_l P L e ltac:(lia)); assumption. Qed.
Print Assumptions endo_scalar_sound.

Theorem endo_scalar_complete : forall P (L : lenv P) endo_r T c x row,
  2 ^ 128 <= char P -> wf_comp c 15 -> outside c 8 row x ->
  let v := fval (vval T x) in v < 2 ^ 128 ->
  exists T', es_assign endo_r 128 c x row T = Some T' /\
    sat L T' (es_circuit endo_r c x row) /\ frame c 8 row T T' /\
    T' CWit (W c 0) row = f0 /\ T' CWit (W c 2) row = ofZ 2 /\ T' CWit (W c 3) row = ofZ 2 /\
    vval T' (es_out c row) = fadd (fmul endo_r (ofZ (endo_a 64 v))) (ofZ (endo_b 64 v)).
Proof. intros P L e T c x row HP Hc HO v Hv. apply es_complete_l; try assumption; lia. Qed.
Print Assumptions endo_scalar_complete.

Example endo_scalar_ex :
  2 ^ 128 <= char Pbls /\ endo_a 64 (2 ^ 100 + 11) = 36893488147419103231 /\ endo_b 64 (2 ^ 100 + 11) = 18448995873523236868 /\
  exists T', es_assign (P := Pbls) (ofZ 7) 128 (std_comp 15) (pin 0) 0 (intab Pbls [2 ^ 100 + 11]) = Some T' /\
    sat (noL Pbls) T' (es_circuit (ofZ 7) (std_comp 15) (pin 0) 0).
Proof.
  split; [vm_compute; discriminate|]. split; [vm_compute; reflexivity|]. split; [vm_compute; reflexivity|].
  destruct (endo_scalar_complete Pbls (noL Pbls) (ofZ 7) (intab Pbls [2 ^ 100 + 11]) (std_comp 15) (pin 0) 0) as [T' [E [S _]]].
  - vm_compute; discriminate.
  - apply wf_std. lia.
  - apply pin_outside.
  - vm_compute; reflexivity.
  - exists T'. split; assumption.
Qed.

(** ** C78 endo_scalar: the starting accumulators are not constrained *)

(** Whatever the scalar, every field element is the result in some table that
    meets the circuit. *)
Theorem endo_scalar_sound_refuted : forall P (L : lenv P) endo_r s v,
  5 <= char P ->
  exists T, vval T (pin 0) = s /\ sat L T (es_circuit endo_r (std_comp 15) (pin 0) 0) /\
            vval T (es_out (std_comp 15) 0) = v.
Proof.
  intros P L e s v HP. exists (free_table P s v). split; [reflexivity|]. split; [|reflexivity].
  apply free_sat; [exact HP|reflexivity].
Qed.
Print Assumptions endo_scalar_sound_refuted.

(** Seven chunks instead of eight pass the assertions, and the table written
    does not meet the circuit. *)
Theorem endo_scalar_size_complete_refuted : forall P (L : lenv P) endo_r,
  2 ^ 112 <= char P ->
  exists T T', es_assign endo_r 112 (std_comp 15) (pin 0) 0 T = Some T' /\
    fval (vval T (pin 0)) < 2 ^ 112 /\
    ~ sat L T' (es_circuit endo_r (std_comp 15) (pin 0) 0).
Proof.
  intros P L e HP. assert (LG : 112 <= Z.log2 (char P)) by (apply Z.log2_le_pow2; lia).
  assert (V : fval (vval (intab P [12345]) (pin 0)) < 2 ^ 112) by (change (fval (ofZ 12345 : F P) < 2 ^ 112); rewrite fval_ofZ_small by lia; lia).
  destruct (es_assign_some P e 112 (intab P [12345]) (std_comp 15) (pin 0) 0 ltac:(lia) V eq_refl) as [T' E].
  exists (intab P [12345]), T'. split; [exact E|]. split; [exact V|].
  apply (short_not_sat P L e ltac:(lia) (intab P [12345]) (std_comp 15) (pin 0) 0 T'); try assumption.
  - apply wf_std; lia.
  - reflexivity.
Qed.
Print Assumptions endo_scalar_size_complete_refuted.
