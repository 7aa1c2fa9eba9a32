(** Properties of the variable base scalar multiplication component. *)
From Coq Require Import ZArith List Lia Bool.
From Verif Require Import Base Field Primes Pasta Plonk PlonkFacts Bits Examples CurveSpec CurveModel CurveProofs
  VbsmSpec VbsmModel VbsmProofs VbsmTrace VbsmHonest VbsmMain VbsmRefute VbsmExample.
Import ListNotations.
Open Scope Z_scope.

(** ** C79 variable_base_scalar_mul: what holds *)

(** In a table that meets the circuit and in which the base point of the double
    rows is the input point, the constant cell is zero and the last link of the
    range check is in place, the scalar is below the group order and the output
    is the product. *)
Theorem vbsm_sound : forall P (L : lenv P) pal T c tx ty b bh row (bc xt yt : F P),
  group_order false <= char P -> no_axis_points bc -> on_curve bc (Some (xt, yt)) ->
  sat L T (vb_circuit pal c tx ty b bh row) ->
  (vval T tx, vval T ty) = (xt, yt) ->
  (T CWit (W c 0) (row + 1), T CWit (W c 1) (row + 1)) = (xt, yt) ->
  T CConst (W c 0) (row + 1) = f0 ->
  T CWit (W c 6) (row + 101) = T CWit (W c 14) (row + 100) ->
  let n := scalar_of pal (vval T b) (vval T bh) in
  scalar_ok pal (vval T b) (vval T bh) /\
  ((~ special pal n -> regular (Some (xt, yt)) n 255) ->
   exists r, scalar_product pal (Some (xt, yt)) n r /\ (vval T (vb_x c row), vval T (vb_y c row)) = enc r).
Proof. intros. eapply vbsm_sound_l; eassumption. Qed.
Print Assumptions vbsm_sound.

(** The table the component writes meets the circuit and the three conditions. *)
Theorem vbsm_complete : forall P (L : lenv P) pal T c tx ty b bh row (bc xt yt : F P) inf ladd,
  group_order false <= char P -> no_axis_points bc -> on_curve bc (Some (xt, yt)) -> affine_add bc inf ladd -> fst inf <> xt ->
  wf_comp c 15 -> outside c vb_rows row tx -> outside c vb_rows row ty -> outside c vb_rows row b -> outside c vb_rows row bh ->
  (vval T tx, vval T ty) = (xt, yt) ->
  scalar_ok pal (vval T b) (vval T bh) -> runs pal (xt, yt) (scalar_of pal (vval T b) (vval T bh)) ->
  consts_in T (vb_circuit pal c tx ty b bh row) -> T CConst (W c 0) (row + 1) = f0 ->
  let T' := vb_assign pal ladd c tx ty b bh row T in
  sat L T' (vb_circuit pal c tx ty b bh row) /\ frame c vb_rows row T T' /\
  (T' CWit (W c 0) (row + 1), T' CWit (W c 1) (row + 1)) = (xt, yt) /\
  T' CWit (W c 6) (row + 101) = T' CWit (W c 14) (row + 100).
Proof. intros. eapply vbsm_complete_l; eassumption. Qed.
Print Assumptions vbsm_complete.

(** Where the addition of the curve is associative, the end of the ladder is the
    multiple of the base point by [2 n + 2^255 + 1]. *)
Theorem vbsm_ladder_multiple : forall P (bc : F P) (t : point P) n,
  3 <= char P -> no_axis_points bc -> ec_assoc bc -> on_curve bc t -> 0 <= n < 2 ^ 255 ->
  ladder t n 255 = ec_mul (2 * n + 2 ^ 255 + 1) t.
Proof.
  intros P bc t n B3 NA AS OT Hn. rewrite (ladder_mul P B3 bc t NA AS OT n 255 Hn ltac:(lia)).
  f_equal. change (255 - 255) with 0. rewrite Z.pow_0_r, Z.div_1_r. reflexivity.
Qed.
Print Assumptions vbsm_ladder_multiple.

(** The special scalars of the code are the ones that stand for -1, 0 and 1. *)
Theorem vbsm_special_scalars : forall pal n, 
  (shifted pal (-1) n <-> n = vb_sm1 pal) /\ (shifted pal 0 n <-> n = vb_s0 pal) /\ (shifted pal 1 n <-> n = vb_s1 pal).
Proof. exact shifted_const. Qed.
Print Assumptions vbsm_special_scalars.

(** An addition of affine points as the component expects it, with (0, 0) in place
    of the neutral element. *)
Definition dec {P} (p : F P * F P) : point P := if feqb (fst p) f0 && feqb (snd p) f0 then None else Some p.
Definition eadd {P} (p q : F P * F P) : F P * F P := lenc (f0, f0) (ec_add (dec p) (dec q)).
Lemma eadd_affine : forall P (bc : F P), no_axis_points bc -> affine_add bc (f0, f0) eadd.
Proof.
  intros P bc NA p q Hp Hq. unfold eadd.
  assert (D : forall p, on_curve bc p -> dec (lenc (f0, f0) p) = p).
  { intros [[x y]|] H; unfold dec, lenc; cbn [fst snd]; [|rewrite !feqb_refl; reflexivity].
    destruct (on_nz P bc x y NA H) as [X _]. apply feqb_neq in X. rewrite X. reflexivity. }
  rewrite !D by assumption. reflexivity.
Qed.

(** The point of order seven over the BLS12-381 scalar field, with the scalar 0:
    every hypothesis of the two theorems holds and the output is twice the point. *)
Lemma zero_not_special : forall pal, ~ special pal 0.
Proof. intros pal H. unfold special in H. destruct (shifted_const pal 0) as [A [B C]]. rewrite A, B, C in H. destruct pal; destruct H as [H|[H|H]]; discriminate H. Qed.
Definition ex_tab : table Pbls := intab Pbls [fval (fst ex7); fval (snd ex7); 0; 0].
Example vbsm_ex : forall pal,
  group_order false <= char Pbls /\ no_axis_points (P := Pbls) (ofZ 7) /\ on_curve (ofZ 7) (Some ex7) /\
  runs pal ex7 0 /\ ~ special pal 0 /\
  let c := std_comp 15 in
  let T' := vb_assign pal eadd c (pin 0) (pin 1) (pin 2) (pin 3) 0 ex_tab in
  sat (noL Pbls) T' (vb_circuit pal c (pin 0) (pin 1) (pin 2) (pin 3) 0) /\
  (vval T' (vb_x c 0), vval T' (vb_y c 0)) = ex7_2.
Proof.
  intros pal. assert (BG : group_order false <= char Pbls) by (vm_compute; discriminate).
  split; [exact BG|]. split; [exact bls_no_axis|]. split; [exact ex7_on|].
  destruct (ex7_ladder 84 ltac:(lia)) as [_ [_ L254]]. destruct (ex7_ladder 85 ltac:(lia)) as [L255 _].
  change (3 * 84 + 2) with 254 in L254. change (3 * 85) with 255 in L255.
  assert (NS : ~ special pal 0) by (apply zero_not_special).
  assert (X : fst ex7_5 <> fst ex7) by (apply feqb_neq; vm_compute; reflexivity).
  assert (R : runs pal ex7 0).
  { split; [apply ex7_regular|]. rewrite L254, L255. split; [|intros _; split; discriminate].
    intros x y E. injection E as E _. rewrite <- E. exact X. }
  split; [exact R|]. split; [exact NS|]. cbv zeta.
  assert (EI : (vval ex_tab (pin 0), vval ex_tab (pin 1)) = ex7).
  { transitivity (ofZ (fval (fst ex7)) : F Pbls, ofZ (fval (snd ex7)) : F Pbls); [reflexivity|].
    rewrite !ofZ_fval. symmetry. apply surjective_pairing. }
  assert (E0 : scalar_of pal (vval ex_tab (pin 2)) (vval ex_tab (pin 3)) = 0) by (destruct pal; vm_compute; reflexivity).
  assert (SO : scalar_ok pal (vval ex_tab (pin 2)) (vval ex_tab (pin 3))).
  { split; [intros _; split; [vm_compute; reflexivity|left; vm_compute; reflexivity]|]. rewrite E0. destruct pal; vm_compute; reflexivity. }
  assert (OX : on_curve (ofZ 7) (Some (fst ex7, snd ex7))) by (rewrite <- surjective_pairing; exact ex7_on).
  destruct (vbsm_complete Pbls (noL Pbls) pal ex_tab (std_comp 15) (pin 0) (pin 1) (pin 2) (pin 3) 0 (ofZ 7) (fst ex7) (snd ex7) (f0, f0) eadd
    BG bls_no_axis OX (eadd_affine _ _ bls_no_axis)) as [S [FR [EB EL]]];
    [|apply wf_std; lia|apply pin_outside|apply pin_outside|apply pin_outside|apply pin_outside| |exact SO| | | |].
  - cbn [fst]. intros E. destruct (on_nz _ _ _ _ bls_no_axis OX) as [Z _]. apply Z. symmetry. exact E.
  - rewrite EI. apply surjective_pairing.
  - rewrite E0. rewrite <- surjective_pairing. exact R.
  - apply consts_inb_ok. destruct pal; vm_compute; reflexivity.
  - reflexivity.
  - split; [exact S|].
    set (T' := vb_assign pal eadd (std_comp 15) (pin 0) (pin 1) (pin 2) (pin 3) 0 ex_tab) in *.
    assert (FV : forall i, vval T' (pin i) = vval ex_tab (pin i)) by (intros i; exact (vval_frame _ _ _ _ _ _ _ FR (pin_outside _ _ _ i))).
    destruct (vbsm_sound Pbls (noL Pbls) pal T' (std_comp 15) (pin 0) (pin 1) (pin 2) (pin 3) 0 (ofZ 7) (fst ex7) (snd ex7) BG bls_no_axis OX S)
      as [_ K].
    + rewrite !FV, EI. apply surjective_pairing.
    + exact EB.
    + rewrite FR; [reflexivity|]. intros [A _]. discriminate A.
    + exact EL.
    + rewrite !FV, E0 in K. destruct K as [r [[_ [_ [_ K]]] KE]].
      { intros _. rewrite <- surjective_pairing. apply ex7_regular. }
      rewrite KE, (K NS). rewrite <- surjective_pairing. rewrite L255. symmetry. reflexivity.
Qed.

(** A small curve for the associativity: y^2 = x^3 + 3 over the field of seven
    elements, a group of order 13. *)
Definition f7 : list (F P7) := map ofZ (zseq 0 7).
Definition c7 : list (point P7) := None :: map Some (filter (onb (ofZ 3)) (flat_map (fun x => map (pair x) f7) f7)).
Lemma f7_all : forall x : F P7, In x f7.
Proof.
  intros x. unfold f7. rewrite <- (ofZ_fval P7 x). apply in_map. apply in_zseq. pose proof (fval_range P7 x) as H. cbn [char P7] in H. lia.
Qed.
Lemma c7_all : forall p : point P7, on_curve (ofZ 3) p -> In p c7.
Proof.
  intros [[x y]|] H; [|left; reflexivity]. right. apply in_map. apply filter_In. split.
  - apply in_flat_map. exists x. split; [apply f7_all|]. apply in_map. apply f7_all.
  - cbn [on_curve] in H. unfold onb. cbn [fst snd]. apply feqb_eq. exact H.
Qed.
Example vbsm_ladder_multiple_ex :
  3 <= char P7 /\ no_axis_points (P := P7) (ofZ 3) /\ ec_assoc (P := P7) (ofZ 3) /\
  on_curve (P := P7) (ofZ 3) (Some (ofZ 1, ofZ 2)) /\
  ladder (P := P7) (Some (ofZ 1, ofZ 2)) 5 255 = ec_mul ((2 * 5 + 2 ^ 255 + 1) mod 13) (Some (ofZ 1, ofZ 2)) /\
  ec_mul (P := P7) 13 (Some (ofZ 1, ofZ 2)) = None.
Proof.
  split; [vm_compute; discriminate|]. split.
  { assert (A : forallb (fun x => negb (feqb (fmul x x) (ofZ 3)) && negb (feqb (fadd (fmul (fmul x x) x) (ofZ 3)) f0)) f7 = true) by (vm_compute; reflexivity).
    rewrite forallb_forall in A. split; intros x; specialize (A x (f7_all x)); apply andb_true_iff in A; destruct A as [A1 A2];
      apply negb_true_iff in A1, A2; apply feqb_neq; assumption. }
  split.
  { assert (A : forallb (fun p => forallb (fun q => forallb (fun r => peqb (ec_add (ec_add p q) r) (ec_add p (ec_add q r))) c7) c7) c7 = true)
      by (vm_compute; reflexivity).
    intros p q r Hp Hq Hr. apply c7_all in Hp, Hq, Hr. rewrite forallb_forall in A. specialize (A p Hp).
    rewrite forallb_forall in A. specialize (A q Hq). rewrite forallb_forall in A. specialize (A r Hr). apply peqb_eq. exact A. }
  split; [apply onb_on; vm_compute; reflexivity|]. split; apply peqb_eq; vm_compute; reflexivity.
Qed.

(** ** C80 variable_base_scalar_mul: what does not hold *)

(** The base field of Pallas and of Vesta. *)
Definition pasta (pal : bool) : params := if pal then Ppallas else Pvesta.
Lemma pasta_big : forall pal, group_order false <= char (pasta pal).
Proof. intros [|]; unfold pasta, group_order; cbn [char Ppallas Pvesta]; unfold pallas_t, vesta_t; lia. Qed.
Lemma pasta_no_axis : forall pal, no_axis_points (P := pasta pal) (ofZ 5).
Proof. intros [|]; [exact pallas_no_axis|exact vesta_no_axis]. Qed.

Lemma pasta_inputs : forall pal l, inputs (pasta pal) pal (intab (pasta pal) l) (std_comp 15) (pin 0) (pin 1) (pin 2) (pin 3) 0.
Proof.
  intros pal l. constructor; try apply pin_outside.
  - apply wf_std; lia.
  - apply consts_inb_ok. destruct pal; vm_compute; reflexivity.
  - reflexivity.
Qed.

(** Nothing ties the base point of the double rows to the input point.  With a
    neutral input point the output can be any pair of field elements, for every
    scalar but three. *)
Theorem vbsm_neutral_refuted : forall (pal : bool) (n : Z) (out : F (pasta pal) * F (pasta pal)),
  0 <= n < 2 ^ 254 -> ~ special pal n ->
  exists T c tx ty b bh row,
    sat (noL (pasta pal)) T (vb_circuit pal c tx ty b bh row) /\
    (vval T tx, vval T ty) = enc None /\ scalar_ok pal (vval T b) (vval T bh) /\
    scalar_of pal (vval T b) (vval T bh) = n /\
    (vval T (vb_x c row), vval T (vb_y c row)) = out.
Proof.
  intros pal n out Hn NS. set (T := intab (pasta pal) [0; 0; n; 0]).
  assert (G : 2 ^ 254 < group_order pal) by (destruct pal; vm_compute; reflexivity).
  assert (E2 : fval (vval T (pin 2)) = n).
  { change (fval (ofZ n : F (pasta pal)) = n). apply fval_ofZ_small. pose proof (pasta_big pal) as B. assert (2 ^ 254 < group_order false) by (vm_compute; reflexivity). lia. }
  assert (E3 : fval (vval T (pin 3)) = 0) by (destruct pal; vm_compute; reflexivity).
  assert (ES : scalar_of pal (vval T (pin 2)) (vval T (pin 3)) = n) by (unfold scalar_of; rewrite E2, E3; destruct pal; lia).
  assert (SO : scalar_ok pal (vval T (pin 2)) (vval T (pin 3))) by (split; [intros _; rewrite E2, E3; lia|rewrite ES; lia]).
  destruct (neutral_free (pasta pal) (noL _) pal (pasta_big pal) T (std_comp 15) (pin 0) (pin 1) (pin 2) (pin 3) 0 (ofZ 5) out
    (pasta_no_axis pal) (pasta_inputs pal _)) as [T' [S [FR EO]]].
  - destruct pal; reflexivity.
  - exact SO.
  - rewrite ES. exact NS.
  - exists T', (std_comp 15), (pin 0), (pin 1), (pin 2), (pin 3), 0.
    rewrite !(vval_frame _ _ _ _ _ _ _ FR (pin_outside _ _ _ _)).
    split; [exact S|]. split; [destruct pal; reflexivity|]. split; [exact SO|]. split; [exact ES|exact EO].
Qed.
Print Assumptions vbsm_neutral_refuted.

(** A point of the curve for which the output can be (x, 0), which is not on the
    curve, for every scalar but three. *)
Definition bad_t (pal : bool) : F (pasta pal) * F (pasta pal) :=
  if pal then (ofZ 0x2521c78825744eecc22eee84675184ed2ca8721382b5127bba20096b996ed8bf, ofZ 0x3a2f3a0fd85014b0e22db9ddf971c4c5ea3809300eee95b0aa148878183c23dd)
  else (ofZ 0x26da47f26dbf122eccd9a472b1b17e9857838f7b7377e23fdcbcd7bf58d81027, ofZ 0x39ca13feb1e5b785c37aa05b2f4e928ab3fa0eb1dfe787726f8fa0cb91f87ba8).
Definition bad_2t (pal : bool) : F (pasta pal) * F (pasta pal) :=
  match ec_add (Some (bad_t pal)) (Some (bad_t pal)) with Some p => p | None => (f0, f0) end.
Definition bad_x (pal : bool) : F (pasta pal) := ofZ (if pal then 2 else 3).

Theorem vbsm_base_refuted : forall (pal : bool) (n : Z), 0 <= n < 2 ^ 254 -> ~ special pal n ->
  exists T c tx ty b bh row (t : F (pasta pal) * F (pasta pal)),
    sat (noL (pasta pal)) T (vb_circuit pal c tx ty b bh row) /\
    (vval T tx, vval T ty) = t /\ on_curve (ofZ 5) (Some t) /\
    scalar_ok pal (vval T b) (vval T bh) /\ scalar_of pal (vval T b) (vval T bh) = n /\
    ~ (exists p, on_curve (ofZ 5) p /\ (vval T (vb_x c row), vval T (vb_y c row)) = enc p).
Proof.
  intros pal n Hn NS. set (T := intab (pasta pal) [fval (fst (bad_t pal)); fval (snd (bad_t pal)); n; 0]).
  assert (G : 2 ^ 254 < group_order pal) by (destruct pal; vm_compute; reflexivity).
  assert (E2 : fval (vval T (pin 2)) = n).
  { change (fval (ofZ n : F (pasta pal)) = n). apply fval_ofZ_small. pose proof (pasta_big pal) as B. assert (2 ^ 254 < group_order false) by (vm_compute; reflexivity). lia. }
  assert (E3 : fval (vval T (pin 3)) = 0) by (destruct pal; vm_compute; reflexivity).
  assert (ES : scalar_of pal (vval T (pin 2)) (vval T (pin 3)) = n) by (unfold scalar_of; rewrite E2, E3; destruct pal; lia).
  assert (SO : scalar_ok pal (vval T (pin 2)) (vval T (pin 3))) by (split; [intros _; rewrite E2, E3; lia|rewrite ES; lia]).
  assert (EI : (vval T (pin 0), vval T (pin 1)) = bad_t pal).
  { transitivity (ofZ (fval (fst (bad_t pal))) : F (pasta pal), ofZ (fval (snd (bad_t pal))) : F (pasta pal)); [reflexivity|].
    rewrite !ofZ_fval. symmetry. apply surjective_pairing. }
  assert (OT : on_curve (ofZ 5) (Some (bad_t pal))) by (apply onb_on; destruct pal; vm_compute; reflexivity).
  destruct (base_free (pasta pal) (noL _) pal (pasta_big pal) T (std_comp 15) (pin 0) (pin 1) (pin 2) (pin 3) 0 (ofZ 5) (bad_t pal)
    (fst (bad_2t pal)) (snd (bad_2t pal)) (bad_x pal) (pasta_no_axis pal) OT) as [T' [S [FR EO]]].
  - apply peqb_eq. destruct pal; vm_compute; reflexivity.
  - apply feqb_neq. destruct pal; vm_compute; reflexivity.
  - cbv zeta. split; apply feqb_eq; destruct pal; vm_compute; reflexivity.
  - apply pasta_inputs.
  - exact EI.
  - exact SO.
  - rewrite ES. exact NS.
  - exists T', (std_comp 15), (pin 0), (pin 1), (pin 2), (pin 3), 0, (bad_t pal).
    rewrite !(vval_frame _ _ _ _ _ _ _ FR (pin_outside _ _ _ _)).
    split; [exact S|]. split; [exact EI|]. split; [exact OT|]. split; [exact SO|]. split; [exact ES|].
    intros [p [OP E]]. rewrite EO in E. destruct p as [[x y]|].
    + cbn [enc] in E. destruct (on_nz _ _ _ _ (pasta_no_axis pal) OP) as [_ Y]. apply Y. injection E as _ E. symmetry. exact E.
    + cbn [enc] in E. apply (f_equal fst) in E. revert E. cbn [fst]. apply feqb_neq. destruct pal; vm_compute; reflexivity.
Qed.
Print Assumptions vbsm_base_refuted.
Example vbsm_refuted_ex : forall pal, 0 <= 0 < 2 ^ 254 /\ ~ special pal 0 /\ special pal (vb_s0 pal).
Proof.
  intros pal. split; [lia|]. split; [apply zero_not_special|]. right. left. apply shifted_const. reflexivity.
Qed.

(** The last link of the range check is missing: the group order itself, and more,
    is accepted as a scalar. *)
Theorem vbsm_range_refuted : forall (pal : bool) (n : Z), group_order pal <= n < 2 ^ 254 + 2 ^ 130 -> n < char (pasta pal) + 2 ^ 254 * Z.b2z pal ->
  exists T c tx ty b bh row,
    sat (noL (pasta pal)) T (vb_circuit pal c tx ty b bh row) /\
    (vval T tx, vval T ty) = enc None /\ scalar_of pal (vval T b) (vval T bh) = n /\ ~ scalar_ok pal (vval T b) (vval T bh).
Proof.
  intros pal n Hn HC. set (T := intab (pasta pal) [0; 0; n - 2 ^ 254 * Z.b2z pal; 1]).
  assert (G : 2 ^ 254 < group_order pal) by (destruct pal; vm_compute; reflexivity).
  assert (E2 : fval (vval T (pin 2)) = n - 2 ^ 254 * Z.b2z pal).
  { change (fval (ofZ (n - 2 ^ 254 * Z.b2z pal) : F (pasta pal)) = n - 2 ^ 254 * Z.b2z pal). apply fval_ofZ_small. destruct pal; cbn [Z.b2z] in *; lia. }
  assert (E3 : fval (vval T (pin 3)) = 1) by (destruct pal; vm_compute; reflexivity).
  assert (ES : scalar_of pal (vval T (pin 2)) (vval T (pin 3)) = n) by (unfold scalar_of; rewrite E2, E3; destruct pal; cbn [Z.b2z]; lia).
  destruct (range_free (pasta pal) (noL _) pal (pasta_big pal) T (std_comp 15) (pin 0) (pin 1) (pin 2) (pin 3) 0 (ofZ 5)
    (pasta_no_axis pal) (pasta_inputs pal _)) as [T' [S FR]].
  - destruct pal; reflexivity.
  - intros Hp. rewrite E2, E3, Hp. cbn [Z.b2z]. lia.
  - rewrite ES. lia.
  - exists T', (std_comp 15), (pin 0), (pin 1), (pin 2), (pin 3), 0.
    rewrite !(vval_frame _ _ _ _ _ _ _ FR (pin_outside _ _ _ _)).
    split; [exact S|]. split; [destruct pal; reflexivity|]. split; [exact ES|]. intros [_ K]. rewrite ES in K. lia.
Qed.
Print Assumptions vbsm_range_refuted.
Example vbsm_range_ex : forall pal, group_order pal < 2 ^ 254 + 2 ^ 130 /\ group_order pal < char (pasta pal) + 2 ^ 254 * Z.b2z pal.
Proof. intros [|]; vm_compute; split; reflexivity. Qed.

(** The running scalar is tied to a constant cell of the column that carries the
    number of the first witness column; where that cell is in use by another
    component, what the component writes does not meet the circuit. *)
Theorem vbsm_const_refuted : forall pal, exists (T : table (pasta pal)) c tx ty b bh row,
  wf_comp c 15 /\ consts_in T (vb_circuit pal c tx ty b bh row) /\
  scalar_ok pal (vval T b) (vval T bh) /\ on_curve (ofZ 5) (Some (vval T tx, vval T ty)) /\
  forall L ladd, ~ sat L (vb_assign pal ladd c tx ty b bh row T) (vb_circuit pal c tx ty b bh row).
Proof.
  intros pal. set (c := mkComp (zseq 1 16) [0] []).
  set (T := fun ty col row => match ty with
    | CConst => if col =? 1 then f1 else f0
    | _ => intab (pasta pal) [fval (fst (bad_t pal)); fval (snd (bad_t pal)); 0; 0] ty col row end).
  exists T, c, (pin 0), (pin 1), (pin 2), (pin 3), 0.
  assert (HW : wf_comp c 15) by (split; [apply nodup_zseq|split; reflexivity]).
  split; [exact HW|]. split; [apply consts_inb_ok; destruct pal; vm_compute; reflexivity|].
  split; [split; [intros _; split; [destruct pal; vm_compute; reflexivity|left; destruct pal; vm_compute; reflexivity]|destruct pal; vm_compute; reflexivity]|].
  split; [apply onb_on; destruct pal; vm_compute; reflexivity|].
  intros L ladd. apply (const_cell (pasta pal) L pal); [exact HW|]. change (f1 <> (f0 : F (pasta pal))). apply feqb_neq. destruct pal; vm_compute; reflexivity.
Qed.
Print Assumptions vbsm_const_refuted.
