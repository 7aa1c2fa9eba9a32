(** Properties C91 to C94: addition and doubling of Ed25519 points. *)
From Coq Require Import ZArith List Lia Bool.
From Verif Require Import Base Field Primes Plonk PlonkFacts Bits NonNativeModel NonNativeProofs NonNativeArith
  NonNativeComp NonNativeWit NonNativeMul Ed25519 EdModel EdStage EdProofs EdPoint EdFree Examples Props_NonNative.
Import ListNotations.
Open Scope Z_scope.

(** ** Specification

    [ed_add], [ed_zero], [on_ed] of Ed25519.v are the curve of RFC 8032 and its
    addition. *)

(** The point two four-limb operands stand for. *)
Definition point_of {P} (T : table P) (X Y : list var) : ed_point := (ofZ (number T X), ofZ (number T Y)).
Definition point_fits {P} (T : table P) (X Y : list var) : Prop := fits T X /\ fits T Y.
Definition point_canonical {P} (T : table P) (X Y : list var) : Prop := canonical T X /\ canonical T Y.
Definition point_outside (c : comp) (n row : Z) (X Y : list var) : Prop :=
  forall i, 0 <= i < 4 -> outside c n row (nv X i) /\ outside c n row (nv Y i).

(** What looking up the carries of an addition or a subtraction would ensure,
    and those of a multiplication. *)
Definition carry_chunks {P} (T : table P) (c : comp) (row : Z) : Prop :=
  let w i := fval (T CWit (W c i) row) in w 3 < 2 ^ 22 /\ w 4 < 2 ^ 22 /\ w 5 < 2 ^ 22 /\ w 6 < 2 ^ 2.
Definition mul_carry_chunks {P} (T : table P) (c : comp) (row : Z) : Prop :=
  let n i := fval (T CWit (W c i) row) in
  n 0 < 2 ^ 22 /\ n 1 < 2 ^ 22 /\ n 2 < 2 ^ 22 /\ n 3 < 2 ^ 4 /\ n 4 < 2 ^ 22 /\ n 5 < 2 ^ 22 /\ n 6 < 2 ^ 22 /\ n 7 < 2 ^ 9.
Definition every (f : Z -> Prop) (l : list Z) : Prop := forall o, In o l -> f o.
(** Rows of the ranges, the multiplications and the sums in an addition and in
    a doubling. *)
Definition addition_looked_up {P} (T : table P) (c : comp) (row : Z) : Prop :=
  every (fun o => range_chunks_looked_up T c (row + o)) [0; 2; 4; 6; 11; 13; 18; 20; 25; 27; 34; 38; 40; 42; 47; 49; 54; 56; 61; 63; 70; 74] /\
  every (fun o => mul_carry_chunks T c (row + o)) [10; 17; 24; 31; 46; 53; 60; 67] /\
  every (fun o => carry_chunks T c (row + o)) [32; 36; 68; 72].
Definition doubling_looked_up {P} (T : table P) (c : comp) (row : Z) : Prop :=
  every (fun o => range_chunks_looked_up T c (row + o)) [0; 2; 4; 6; 11; 13; 18; 20; 27; 31; 35; 39; 41; 43; 50; 52; 54; 61] /\
  every (fun o => mul_carry_chunks T c (row + o)) [10; 17; 24; 47; 58] /\
  every (fun o => carry_chunks T c (row + o)) [25; 29; 33; 37; 48; 59].
(** The two copies the doubling leaves out. *)
Definition doubling_copies_added {P} (T : table P) (c : comp) (row : Z) : Prop :=
  T CWit (W c 1) (row + 35) = T CWit (W c 1) (row + 61) /\ T CWit (W c 2) (row + 35) = T CWit (W c 2) (row + 61).

(** Subtractions whose honest witness the circuit accepts. *)
Definition subtracts (a b : Z) : Prop := b <= a \/ b mod 2 ^ 66 - a mod 2 ^ 66 <= 2 ^ 66 - 19.
Definition addition_subtracts (p q : ed_point) : Prop :=
  let y := snd (ed_add p q) in subtracts (fval y) (fval (fmul y (fmul (fmul (fmul (fmul (ofZ ed_d) (fst p)) (fst q)) (snd p)) (snd q)))).
Definition doubling_subtracts (p : ed_point) : Prop :=
  subtracts (fval (fmul (snd p) (snd p))) (fval (fmul (fst p) (fst p))) /\ subtracts (fval (fmul (fst p) (fst p))) (fval (fmul (snd p) (snd p))).

(** *** Links with the proofs *)

Lemma sub_ok_iff : forall a b, sub_ok a b <-> subtracts a b.
Proof. intros a b. unfold sub_ok, subtracts, nn_limb. change (2 ^ (66 * 0)) with 1. rewrite !Z.div_1_r. reflexivity. Qed.
Lemma looked_up_iff : forall P (T : table P) c row, range_chunks_looked_up T c row <-> rg_looked P T c row.
Proof.
  intros P T c row. split; [apply looked_up_ok|]. intros [H [H9 [H10 [H11 HF]]]].
  pose proof (H 0 ltac:(lia)). pose proof (H 1 ltac:(lia)). pose proof (H 2 ltac:(lia)). pose proof (H 3 ltac:(lia)). pose proof (H 4 ltac:(lia)).
  pose proof (H 5 ltac:(lia)). pose proof (H 6 ltac:(lia)). pose proof (H 7 ltac:(lia)). pose proof (H 8 ltac:(lia)).
  unfold range_chunks_looked_up. cbv zeta. repeat (split; [assumption|]). intros K. rewrite (HF K). apply fval_ofZ.
Qed.
Lemma every_cons : forall f o l, every f (o :: l) <-> f o /\ every f l.
Proof.
  intros f o l. split; [intros H; split; [apply H; left; reflexivity|intros x Hx; apply H; right; exact Hx]|intros [H1 H2] x [<-|Hx]; auto].
Qed.
Lemma every_nil : forall f, every f [] <-> True.
Proof. intros f. split; [auto|intros _ x []]. Qed.
Lemma addition_looked : forall P (T : table P) c Tx Ty Rx Ry row, addition_looked_up T c row <-> prog_looked P T c (ca_prog c Tx Ty Rx Ry 0 0 row) row.
Proof.
  intros P T c Tx Ty Rx Ry row. unfold addition_looked_up, ca_prog. cbv zeta. cbn [prog_looked st_looked st_rows].
  rewrite !every_cons, !every_nil, !looked_up_iff. rewrite !Z.add_0_r, <- !Z.add_assoc. cbn [Z.add Pos.add Pos.succ]. tauto.
Qed.
Lemma doubling_looked : forall P (T : table P) c Tx Ty row, doubling_looked_up T c row <-> prog_looked P T c (db_prog c Tx Ty 0 0 row) row.
Proof.
  intros P T c Tx Ty row. unfold doubling_looked_up, db_prog. cbv zeta. cbn [prog_looked st_looked st_rows].
  rewrite !every_cons, !every_nil, !looked_up_iff. rewrite !Z.add_0_r, <- !Z.add_assoc. cbn [Z.add Pos.add Pos.succ]. tauto.
Qed.
Lemma canonical_has : forall P (T : table P) X Y, point_canonical T X Y -> has_pt P T X Y (point_of T X Y).
Proof.
  intros P T X Y [[FX NX] [FY NY]]. apply fits_small in FX, FY. unfold has_pt, point_of. cbn [fst snd].
  assert (E : forall A, nn_small (nn_vals T A) -> number T A < ed25519_p -> has_val P T A (fval (ofZ (number T A) : F Ped))).
  { intros A SA HA. replace (fval (ofZ (number T A) : F Ped)) with (number T A); [apply canon_has; assumption|].
    pose proof (nn_glue_small _ SA HA) as [_ N]. symmetry. rewrite fval_ofZ. apply Z.mod_small. exact (conj N HA). }
  split; apply E; assumption.
Qed.
Lemma has_canonical : forall P (T : table P) X Y p, has_pt P T X Y p -> point_canonical T X Y /\ point_of T X Y = p.
Proof.
  intros P T X Y p H. split; [|exact (has_pt_val P T X Y p H)]. destruct H as [[E1 H1] [E2 H2]]. split; [apply (vals_eq P T X _ E1 H1)|apply (vals_eq P T Y _ E2 H2)].
Qed.
Lemma outside_parts : forall c n row X Y, point_outside c n row X Y -> nn_outside c n row X /\ nn_outside c n row Y.
Proof. intros c n row X Y H. split; intros i Hi; apply H; exact Hi. Qed.
Lemma consts_addition : forall P (L : lenv P) T c Tx Ty Rx Ry row, consts_in T (ca_circuit c Tx Ty Rx Ry row) -> sat L T (ca_consts c row).
Proof.
  intros P L T c Tx Ty Rx Ry row H x Hx. assert (I : In x (ca_circuit c Tx Ty Rx Ry row)).
  { rewrite (ca_circuit_prog P c Tx Ty Rx Ry 0 0 row). apply in_or_app. right. apply in_or_app. left. exact Hx. }
  unfold ca_consts in Hx. cbn [In] in Hx. repeat (destruct Hx as [<-|Hx]; [exact (H _ _ _ I)|]). contradiction.
Qed.

(** ** C91 addition *)

Theorem ed_addition_sound_looked_up : forall P (L : lenv P) T c Tx Ty Rx Ry row, 2 ^ 254 <= char P ->
  sat L T (ca_circuit c Tx Ty Rx Ry row) -> addition_looked_up T c row ->
  point_fits T Tx Ty -> point_fits T Rx Ry -> on_ed (point_of T Tx Ty) -> on_ed (point_of T Rx Ry) ->
  point_canonical T (own c row) (own c (row + 2)) /\
  point_of T (own c row) (own c (row + 2)) = ed_add (point_of T Tx Ty) (point_of T Rx Ry).
Proof.
  intros P L T c Tx Ty Rx Ry row big S HL [F1 F2] [F3 F4] O1 O2. apply (addition_looked P T c Tx Ty Rx Ry) in HL. apply fits_small in F1, F2, F3, F4.
  destruct (ca_sound_l P L big T c Tx Ty Rx Ry row S HL F1 F2 F3 F4 O1 O2) as [SX [SY [NX [NY E]]]]. apply fits_small in SX, SY.
  split; [split; split; assumption|exact E].
Qed.
Print Assumptions ed_addition_sound_looked_up.

Theorem ed_addition_complete : forall P (L : lenv P) T c Tx Ty Rx Ry row, 2 ^ 254 <= char P ->
  wf_comp c 9 -> (forall i, 0 <= i < 4 -> W c i = i) ->
  point_outside c 76 row Tx Ty -> point_outside c 76 row Rx Ry -> consts_in T (ca_circuit c Tx Ty Rx Ry row) ->
  point_canonical T Tx Ty -> point_canonical T Rx Ry -> on_ed (point_of T Tx Ty) -> on_ed (point_of T Rx Ry) ->
  addition_subtracts (point_of T Tx Ty) (point_of T Rx Ry) ->
  let T' := ca_assign c Tx Ty Rx Ry row T in
  sat L T' (ca_circuit c Tx Ty Rx Ry row) /\ frame c 76 row T T' /\ addition_looked_up T' c row /\
  point_canonical T' (own c row) (own c (row + 2)) /\
  point_of T' (own c row) (own c (row + 2)) = ed_add (point_of T Tx Ty) (point_of T Rx Ry).
Proof.
  intros P L T c Tx Ty Rx Ry row big Hwf HW O1 O2 HK C1 C2 E1 E2 HS T'.
  apply outside_parts in O1, O2. destruct O1 as [O1 O2'], O2 as [O3 O4]. apply canonical_has in C1, C2.
  destruct (ca_pt P L big T c Tx Ty Rx Ry row Hwf HW O1 O2' O3 O4 (consts_addition P L T _ _ _ _ _ _ HK) _ _ C1 C2 E1 E2) as [S [FR [LK V]]].
  { apply sub_ok_iff. exact HS. }
  split; [exact S|]. split; [exact FR|]. split; [apply (addition_looked P T' c Tx Ty Rx Ry); exact LK|]. apply has_canonical. exact V.
Qed.
Print Assumptions ed_addition_complete.

(** Two points in public input cells, and [d] where the addition at row 0
    reads it. *)
Definition ed_B : Z * Z := (15112221349535400772501151409588531511454012693041857206046113283949847762202,
                            46316835694926478169428394003475163141307993866256225615783033603165251855960).
Definition ed_B2 : Z * Z := (24727413235106541002554574571675588834622768167397638456726423682521233608206,
                             15549675580280190176352668710449542251549572066445060580507079593062643049417).
Definition two_points (p q : Z * Z) : table Pbls :=
  intab_c Pbls (nn_chop (fst p) ++ nn_chop (snd p) ++ nn_chop (fst q) ++ nn_chop (snd q)) (map (fun _ => 0) (zseq 0 51) ++ nn_chop ed_d).
Lemma pins_point : forall i j c n row, point_outside c n row (pins i) (pins j).
Proof. intros i j c n row k Hk. split; apply pins_outside; exact Hk. Qed.
Definition subtractsb (a b : Z) : bool := (b <=? a) || (b mod 2 ^ 66 - a mod 2 ^ 66 <=? 2 ^ 66 - 19).
Lemma subtractsb_iff : forall a b, subtractsb a b = true <-> subtracts a b.
Proof. intros a b. unfold subtractsb, subtracts. rewrite orb_true_iff, !Z.leb_le. reflexivity. Qed.
Lemma subtractsb_no : forall a b, subtractsb a b = false -> ~ subtracts a b.
Proof. intros a b H K. apply subtractsb_iff in K. rewrite K in H. discriminate. Qed.
Ltac canon := repeat split; vm_compute; reflexivity.
Ltac onc := apply F_ext; vm_compute; reflexivity.
Example ed_addition_ex : let T := two_points ed_B ed_B2 in let c := std_comp 9 in let C := ca_circuit c (pins 0) (pins 4) (pins 8) (pins 12) 0 in
  2 ^ 254 <= char Pbls /\ wf_comp c 9 /\ (forall i, 0 <= i < 4 -> W c i = i) /\
  point_outside c 76 0 (pins 0) (pins 4) /\ point_outside c 76 0 (pins 8) (pins 12) /\ consts_in T C /\
  point_canonical T (pins 0) (pins 4) /\ point_canonical T (pins 8) (pins 12) /\
  on_ed (point_of T (pins 0) (pins 4)) /\ on_ed (point_of T (pins 8) (pins 12)) /\
  addition_subtracts (point_of T (pins 0) (pins 4)) (point_of T (pins 8) (pins 12)).
Proof.
  cbv zeta. split; [vm_compute; discriminate|]. split; [apply wf_std; lia|]. split; [intros i Hi; apply W_std; lia|].
  split; [apply pins_point|]. split; [apply pins_point|]. split; [apply consts_inb_ok; vm_compute; reflexivity|].
  split; [canon|]. split; [canon|]. split; [onc|]. split; [onc|]. apply subtractsb_iff. vm_compute. reflexivity.
Qed.

(** ** C92 addition without lookups; honest additions that fail *)

(** Next to any two operands any eight elements are accepted as their sum. *)
Theorem ed_addition_sound_refuted : forall P (L : lenv P) T c Tx Ty Rx Ry row (x y : Z -> F P), 2 ^ 254 <= char P -> char P <> ed25519_p ->
  wf_comp c 9 -> point_outside c 76 row Tx Ty -> point_outside c 76 row Rx Ry -> consts_in T (ca_circuit c Tx Ty Rx Ry row) ->
  exists T', frame c 76 row T T' /\ sat L T' (ca_circuit c Tx Ty Rx Ry row) /\
  forall i, 0 <= i < 4 -> vval T' (nv (own c row) i) = x i /\ vval T' (nv (own c (row + 2)) i) = y i.
Proof.
  intros P L T c Tx Ty Rx Ry row x y big other Hwf O1 O2 HK. apply outside_parts in O1, O2. destruct O1 as [O1 O2'], O2 as [O3 O4].
  destruct (ca_any_l P L big other T c Tx Ty Rx Ry row x y Hwf O1 O2' O3 O4 (consts_addition P L T _ _ _ _ _ _ HK)) as [T' [FR [S [V1 V2]]]].
  exists T'. split; [exact FR|]. split; [exact S|]. intros i Hi. split; [apply V1; exact Hi|apply V2; exact Hi].
Qed.
Print Assumptions ed_addition_sound_refuted.
(** B + 2B with the result (1, 1), which is not on the curve. *)
Example ed_addition_sound_refuted_ex : exists T' : table Pbls,
  frame (std_comp 9) 76 0 (two_points ed_B ed_B2) T' /\ sat (noL Pbls) T' (ca_circuit (std_comp 9) (pins 0) (pins 4) (pins 8) (pins 12) 0) /\
  point_canonical T' (own (std_comp 9) 0) (own (std_comp 9) 2) /\ point_of T' (own (std_comp 9) 0) (own (std_comp 9) 2) = (ofZ 1, ofZ 1) /\
  ~ on_ed (ofZ 1, ofZ 1).
Proof.
  set (one := fun i => if i =? 0 then f1 else f0 : F Pbls).
  destruct (ed_addition_sound_refuted Pbls (noL Pbls) (two_points ed_B ed_B2) (std_comp 9) (pins 0) (pins 4) (pins 8) (pins 12) 0 one one) as [T' [FR [S V]]];
    [vm_compute; discriminate|vm_compute; discriminate|apply wf_std; lia|apply pins_point|apply pins_point|apply consts_inb_ok; vm_compute; reflexivity|].
  exists T'. split; [exact FR|]. split; [exact S|].
  assert (E : forall A, (forall i, 0 <= i < 4 -> vval T' (nv A i) = one i) -> canonical T' A /\ number T' A = 1).
  { intros A H. unfold canonical, fits, number, limb. rewrite !H by lia. repeat split; vm_compute; reflexivity. }
  destruct (E (own (std_comp 9) 0)) as [C1 N1]; [intros i Hi; apply V; exact Hi|]. destruct (E (own (std_comp 9) 2)) as [C2 N2]; [intros i Hi; apply (V i Hi)|].
  split; [split; assumption|]. split; [unfold point_of; rewrite N1, N2; reflexivity|].
  unfold on_ed. apply fval_neq. vm_compute. discriminate.
Qed.

(** The honest assignment breaks the circuit on every pair of points whose
    last difference does not subtract. *)
Theorem ed_addition_complete_refuted : forall P (L : lenv P) T c Tx Ty Rx Ry row, 2 ^ 254 <= char P ->
  wf_comp c 9 -> (forall i, 0 <= i < 4 -> W c i = i) ->
  point_outside c 76 row Tx Ty -> point_outside c 76 row Rx Ry -> consts_in T (ca_circuit c Tx Ty Rx Ry row) ->
  point_canonical T Tx Ty -> point_canonical T Rx Ry ->
  ~ addition_subtracts (point_of T Tx Ty) (point_of T Rx Ry) ->
  ~ sat L (ca_assign c Tx Ty Rx Ry row T) (ca_circuit c Tx Ty Rx Ry row).
Proof.
  intros P L T c Tx Ty Rx Ry row big Hwf HW O1 O2 HK C1 C2 HS.
  apply outside_parts in O1, O2. destruct O1 as [O1 O2'], O2 as [O3 O4]. apply canonical_has in C1, C2.
  apply (ca_pt_fails P L big T c Tx Ty Rx Ry row Hwf HW O1 O2' O3 O4 (consts_addition P L T _ _ _ _ _ _ HK) _ _ C1 C2).
  intros K. apply HS. apply sub_ok_iff. exact K.
Qed.
Print Assumptions ed_addition_complete_refuted.
(** Two points of the curve. *)
Definition ed_bad1 : Z * Z := (6066026302509011745623483889543869558648988314423605245887327362357269510183,
                               23360296877544859691895293517346482061306231638114662818122052450661980736325).
Definition ed_bad2 : Z * Z := (10284851522405091163877669592665574988613314008018396200818933078527875754391,
                               29181957390730832285949651046735794722954319775440750328227715154334989837720).
Example ed_addition_complete_refuted_ex : let T := two_points ed_bad1 ed_bad2 in let c := std_comp 9 in let C := ca_circuit c (pins 0) (pins 4) (pins 8) (pins 12) 0 in
  on_ed (point_of T (pins 0) (pins 4)) /\ on_ed (point_of T (pins 8) (pins 12)) /\
  ~ sat (noL Pbls) (ca_assign c (pins 0) (pins 4) (pins 8) (pins 12) 0 T) C.
Proof.
  cbv zeta. split; [onc|]. split; [onc|].
  apply ed_addition_complete_refuted; [vm_compute; discriminate|apply wf_std; lia|intros i Hi; apply W_std; lia|apply pins_point|apply pins_point|
    apply consts_inb_ok; vm_compute; reflexivity|canon|canon|apply subtractsb_no; vm_compute; reflexivity].
Qed.

(** ** C93 doubling with the missing copies *)

Theorem ed_doubling_sound_with_copies : forall P (L : lenv P) T c Tx Ty row, 2 ^ 254 <= char P ->
  sat L T (db_circuit c Tx Ty row) -> doubling_looked_up T c row -> doubling_copies_added T c row ->
  point_fits T Tx Ty -> on_ed (point_of T Tx Ty) ->
  point_canonical T (own c row) (own c (row + 2)) /\
  point_of T (own c row) (own c (row + 2)) = ed_add (point_of T Tx Ty) (point_of T Tx Ty).
Proof.
  intros P L T c Tx Ty row big S HL HM [F1 F2] O1. apply (doubling_looked P T c Tx Ty) in HL. apply fits_small in F1, F2.
  destruct (db_sound_l P L big T c Tx Ty row S HL HM F1 F2 O1) as [SX [SY [NX [NY E]]]]. apply fits_small in SX, SY.
  split; [split; split; assumption|exact E].
Qed.
Print Assumptions ed_doubling_sound_with_copies.

Theorem ed_doubling_complete : forall P (L : lenv P) T c Tx Ty row, 2 ^ 254 <= char P ->
  wf_comp c 9 -> (forall i, 0 <= i < 4 -> W c i = i) -> point_outside c 63 row Tx Ty ->
  point_canonical T Tx Ty -> on_ed (point_of T Tx Ty) -> doubling_subtracts (point_of T Tx Ty) ->
  let T' := db_assign c Tx Ty row T in
  sat L T' (db_circuit c Tx Ty row) /\ frame c 63 row T T' /\ doubling_looked_up T' c row /\ doubling_copies_added T' c row /\
  point_canonical T' (own c row) (own c (row + 2)) /\
  point_of T' (own c row) (own c (row + 2)) = ed_add (point_of T Tx Ty) (point_of T Tx Ty).
Proof.
  intros P L T c Tx Ty row big Hwf HW O1 C1 E1 [HS1 HS2] T'.
  apply outside_parts in O1. destruct O1 as [O1 O2]. apply canonical_has in C1.
  destruct (db_pt P L big T c Tx Ty row Hwf HW O1 O2 _ C1 E1) as [S [M [FR [LK V]]]].
  { split; apply sub_ok_iff; assumption. }
  split; [exact S|]. split; [exact FR|]. split; [apply (doubling_looked P T' c Tx Ty); exact LK|]. split; [exact M|]. apply has_canonical. exact V.
Qed.
Print Assumptions ed_doubling_complete.
Example ed_doubling_ex : let T := two_points ed_B ed_B in let c := std_comp 9 in
  2 ^ 254 <= char Pbls /\ wf_comp c 9 /\ (forall i, 0 <= i < 4 -> W c i = i) /\ point_outside c 63 0 (pins 0) (pins 4) /\
  point_canonical T (pins 0) (pins 4) /\ on_ed (point_of T (pins 0) (pins 4)) /\ doubling_subtracts (point_of T (pins 0) (pins 4)) /\
  ed_add (point_of T (pins 0) (pins 4)) (point_of T (pins 0) (pins 4)) = (ofZ (fst ed_B2), ofZ (snd ed_B2)).
Proof.
  cbv zeta. split; [vm_compute; discriminate|]. split; [apply wf_std; lia|]. split; [intros i Hi; apply W_std; lia|].
  split; [apply pins_point|]. split; [canon|]. split; [onc|]. split; [split; apply subtractsb_iff; vm_compute; reflexivity|].
  apply injective_projections; onc.
Qed.

(** ** C94 doubling as it is *)

(** Next to every point, and with every chunk looked up, a point with the right
    first and a wrong second coordinate is accepted. *)
Theorem ed_doubling_sound_refuted : forall P (L : lenv P) T c Tx Ty row, 2 ^ 254 <= char P ->
  wf_comp c 9 -> (forall i, 0 <= i < 4 -> W c i = i) -> point_outside c 63 row Tx Ty ->
  point_canonical T Tx Ty -> on_ed (point_of T Tx Ty) -> doubling_subtracts (point_of T Tx Ty) ->
  exists T', frame c 63 row T T' /\ sat L T' (db_circuit c Tx Ty row) /\ doubling_looked_up T' c row /\
  point_canonical T' (own c row) (own c (row + 2)) /\
  let d := ed_add (point_of T Tx Ty) (point_of T Tx Ty) in
  fst (point_of T' (own c row) (own c (row + 2))) = fst d /\ snd (point_of T' (own c row) (own c (row + 2))) <> snd d.
Proof.
  intros P L T c Tx Ty row big Hwf HW O1 C1 E1 [HS1 HS2].
  apply outside_parts in O1. destruct O1 as [O1 O2]. apply canonical_has in C1.
  destruct (db_wrong P L big T c Tx Ty row Hwf HW O1 O2 _ C1 E1) as [T' [py [NE [S [FR [LK V]]]]]].
  { split; apply sub_ok_iff; assumption. }
  exists T'. split; [exact FR|]. split; [exact S|]. split; [apply (doubling_looked P T' c Tx Ty); exact LK|].
  apply has_canonical in V. destruct V as [V ->]. split; [exact V|]. cbv zeta. cbn [fst snd]. split; [reflexivity|exact NE].
Qed.
Print Assumptions ed_doubling_sound_refuted.
