(** Properties C95 to C98: multiples of Ed25519 points. *)
From Coq Require Import ZArith List Lia Bool.
From Verif Require Import Base Field Primes Plonk PlonkFacts Bits BitModel BitProofs NonNativeModel NonNativeProofs NonNativeArith
  NonNativeComp NonNativeWit NonNativeMul Ed25519 EdModel EdStage EdProofs EdPoint EdMul Examples Props_NonNative Props_Ed.
Import ListNotations.
Open Scope Z_scope.

(** ** Specification

    [ed_times n p] is [p] added [n] times. *)

(** What looking up the chunks of one step ensures, and the two copies its
    doubling leaves out; the same for the 252 steps. *)
Definition step_looked_up {P} (T : table P) (c : comp) (row : Z) : Prop := doubling_looked_up T c (row + 2) /\ addition_looked_up T c (row + 65).
Definition step_copies_added {P} (T : table P) (c : comp) (row : Z) : Prop := doubling_copies_added T c (row + 2).
Definition step_row (n row j : Z) : Z := row + bb_rows 9 n true + 2 + 141 * j.
Definition steps_looked_up {P} (T : table P) (c : comp) (n row : Z) : Prop := forall j, 0 <= j < 252 -> step_looked_up T c (step_row n row j).
Definition steps_copies_added {P} (T : table P) (c : comp) (n row : Z) : Prop := forall j, 0 <= j < 252 -> step_copies_added T c (step_row n row j).

(** The doublings and additions on the way to [k] times [p] can be done by the
    honest prover: [m] is what has been read of [k] when its bit [252 - j] is
    next. *)
Definition multiple_subtracts (k : Z) (p : ed_point) : Prop :=
  forall j, 1 <= j < 253 -> let m := k / 2 ^ (253 - j) in
  doubling_subtracts (ed_times m p) /\ addition_subtracts (ed_times (2 * m) p) (ed_times (k / 2 ^ (252 - j) mod 2) p).

(** *** Links with the proofs *)

Lemma dbl_ok_iff : forall p, ed_dbl_ok p <-> doubling_subtracts p.
Proof. intros p. unfold ed_dbl_ok, doubling_subtracts. rewrite !sub_ok_iff. reflexivity. Qed.
Lemma add_ok_iff : forall p q, ed_add_ok p q <-> addition_subtracts p q.
Proof. intros p q. unfold ed_add_ok, addition_subtracts. cbv zeta. rewrite sub_ok_iff. reflexivity. Qed.
Lemma step_iff : forall P (T : table P) c row, pb_looked P T c row <-> step_looked_up T c row /\ step_copies_added T c row.
Proof.
  intros P T c row. unfold pb_looked, step_looked_up, step_copies_added. rewrite (doubling_looked P T c [] []), (addition_looked P T c [] [] [] []).
  split; [intros [A [B D]]; split; [split; assumption|exact B]|intros [[A D] B]; split; [exact A|split; [exact B|exact D]]].
Qed.
Lemma chunks_iff : forall P (T : table P) c row, pb_chunks P T c row <-> step_looked_up T c row.
Proof. intros P T c row. unfold pb_chunks, step_looked_up. rewrite (doubling_looked P T c [] []), (addition_looked P T c [] [] [] []). reflexivity. Qed.
Lemma fits_good : forall P (T : table P) X Y, point_fits T X Y -> good P T X Y (point_of T X Y).
Proof. intros P T X Y [FX FY]. apply fits_small in FX, FY. split; [exact FX|]. split; [exact FY|reflexivity]. Qed.
Lemma good_under : forall P (T : table P) X Y p, good P T X Y p -> under P T X Y -> point_canonical T X Y /\ point_of T X Y = p.
Proof. intros P T X Y p [GX [GY GE]] [UX UY]. apply fits_small in GX, GY. split; [split; split; assumption|exact GE]. Qed.
Lemma subtracts_fine : forall K p, multiple_subtracts K p -> forall j, 1 <= j < 253 -> let m := K / 2 ^ (253 - j) in
  ed_dbl_ok (ed_times m p) /\ ed_add_ok (ed_times (2 * m) p) (ed_times (Z.b2z (Z.testbit K (252 - j))) p).
Proof.
  intros K p H j Hj. destruct (H j Hj) as [H1 H2]. cbv zeta. rewrite dbl_ok_iff, add_ok_iff. split; [exact H1|]. rewrite Z.testbit_spec' by lia. exact H2.
Qed.
Lemma wrong_point : forall P (T : table P) X Y p, has_wrong P T X Y p ->
  point_canonical T X Y /\ fst (point_of T X Y) = fst p /\ snd (point_of T X Y) <> snd p.
Proof. intros P T X Y p [y [NE H]]. apply has_canonical in H. destruct H as [H ->]. split; [exact H|]. split; [reflexivity|exact NE]. Qed.

(** ** C95 bool scalar multiplication *)

Theorem ed_bool_multiplication_sound : forall P (L : lenv P) T c Tx Ty k row, 2 ^ 254 <= char P ->
  sat L T (bs_circuit c Tx Ty k row) ->
  (vval T k = f0 /\ point_canonical T (bs_x c row) (bs_y c row) /\ point_of T (bs_x c row) (bs_y c row) = ed_zero) \/
  (vval T k = f1 /\ forall i, 0 <= i < 4 -> limb T (bs_x c row) i = limb T Tx i /\ limb T (bs_y c row) i = limb T Ty i).
Proof.
  intros P L T c Tx Ty k row big S. destruct (bs_sound_l P L big T c Tx Ty k row S) as [[K [EX EY]]|[K [EX EY]]]; [left|right]; (split; [exact K|]).
  - apply (has_canonical P T (bs_x c row) (bs_y c row) ed_zero). split; (split; [assumption|vm_compute; split; congruence]).
  - intros i Hi. unfold limb. pose proof (f_equal (fun l => znth 0 l i) EX) as A. pose proof (f_equal (fun l => znth 0 l i) EY) as B. cbv beta in A, B.
    rewrite !nn_vals_nth in A, B by exact Hi. split; assumption.
Qed.
Print Assumptions ed_bool_multiplication_sound.

Theorem ed_bool_multiplication_complete : forall P (L : lenv P) T c Tx Ty k row, 2 ^ 254 <= char P ->
  wf_comp c 9 -> point_outside c 2 row Tx Ty -> outside c 2 row k -> vval T k = f0 \/ vval T k = f1 ->
  let T' := bs_assign c Tx Ty k row T in
  sat L T' (bs_circuit c Tx Ty k row) /\ frame c 2 row T T' /\
  (point_canonical T Tx Ty -> on_ed (point_of T Tx Ty) ->
   point_canonical T' (bs_x c row) (bs_y c row) /\ point_of T' (bs_x c row) (bs_y c row) = ed_times (fval (vval T k)) (point_of T Tx Ty)).
Proof.
  intros P L T c Tx Ty k row big Hwf O OK HB T'. apply outside_parts in O. destruct O as [OX OY].
  destruct (bs_complete_l P L T c Tx Ty k row Hwf OX OY OK HB) as [S FR]. split; [exact S|]. split; [exact FR|].
  intros C1 E1. apply has_canonical. apply canonical_has in C1.
  pose proof (bs_pt P L big T' c Tx Ty k row _ S (has_pt_frame P T T' c 2 row Tx Ty _ FR OX OY C1) E1) as H.
  unfold bit_of in H. rewrite (vval_frame P c 2 row T T' k FR OK) in H. exact H.
Qed.
Print Assumptions ed_bool_multiplication_complete.
(** The limbs of a point and a scalar in public input cells; [d] where each step
    reads it. *)
Definition mul_table (p : Z * Z) (k : Z) : table Pbls := fun ty col row =>
  match ty with
  | CPub => ofZ (znth 0 (nn_chop (fst p) ++ nn_chop (snd p) ++ [k]) row)
  | CConst => let q := (row - 151) mod 141 in if q <? 4 then ofZ (nn_limb ed_d q) else f0
  | _ => f0
  end.
Example ed_bool_multiplication_ex : let T := mul_table ed_B 1 in let c := std_comp 9 in
  2 ^ 254 <= char Pbls /\ wf_comp c 9 /\ point_outside c 2 0 (pins 0) (pins 4) /\ outside c 2 0 (pin 8) /\ vval T (pin 8) = f1 /\
  point_canonical T (pins 0) (pins 4) /\ on_ed (point_of T (pins 0) (pins 4)) /\ point_of T (pins 0) (pins 4) <> ed_zero.
Proof.
  cbv zeta. split; [vm_compute; discriminate|]. split; [apply wf_std; lia|]. split; [apply pins_point|]. split; [apply pin_outside|].
  split; [apply F_ext; vm_compute; reflexivity|]. split; [canon|]. split; [onc|].
  intros H. apply (f_equal fst) in H. revert H. apply fval_neq. vm_compute. discriminate.
Qed.

(** ** C96 one bit *)

Theorem ed_bit_multiplication_sound_with_copies : forall P (L : lenv P) T c Tx Ty Rx Ry k row, 2 ^ 254 <= char P ->
  (forall i, 0 <= i < 4 -> W c i = i) -> sat L T (pb_circuit c Tx Ty Rx Ry k row) -> step_looked_up T c row -> step_copies_added T c row ->
  point_fits T Tx Ty -> on_ed (point_of T Tx Ty) -> point_fits T Rx Ry -> on_ed (point_of T Rx Ry) ->
  (fval (vval T k) = 0 \/ fval (vval T k) = 1) /\ point_canonical T (pb_x row) (pb_y row) /\
  point_of T (pb_x row) (pb_y row) = ed_add (ed_times 2 (point_of T Rx Ry)) (ed_times (fval (vval T k)) (point_of T Tx Ty)).
Proof.
  intros P L T c Tx Ty Rx Ry k row big HW S HL HM F1 E1 F2 E2.
  destruct (pb_good P L big T c Tx Ty Rx Ry k row _ _ HW S (proj2 (step_iff P T c row) (conj HL HM)) (fits_good P T Tx Ty F1) (fits_good P T Rx Ry F2) E1 E2) as [HB [G U]].
  split; [exact HB|]. change 2 with (1 + 1). rewrite ed_times_add, ed_times_1 by (assumption || lia). exact (good_under P T _ _ _ G U).
Qed.
Print Assumptions ed_bit_multiplication_sound_with_copies.

Theorem ed_bit_multiplication_complete : forall P (L : lenv P) T c Tx Ty Rx Ry k row, 2 ^ 254 <= char P ->
  wf_comp c 9 -> (forall i, 0 <= i < 4 -> W c i = i) -> point_outside c 141 row Tx Ty -> point_outside c 141 row Rx Ry -> outside c 141 row k ->
  consts_in T (pb_circuit c Tx Ty Rx Ry k row) -> vval T k = f0 \/ vval T k = f1 ->
  point_canonical T Tx Ty -> on_ed (point_of T Tx Ty) -> point_canonical T Rx Ry -> on_ed (point_of T Rx Ry) ->
  doubling_subtracts (point_of T Rx Ry) -> addition_subtracts (ed_times 2 (point_of T Rx Ry)) (ed_times (fval (vval T k)) (point_of T Tx Ty)) ->
  let T' := pb_assign c Tx Ty Rx Ry k row T in
  sat L T' (pb_circuit c Tx Ty Rx Ry k row) /\ frame c 141 row T T' /\ step_looked_up T' c row /\ step_copies_added T' c row /\
  point_canonical T' (pb_x row) (pb_y row) /\
  point_of T' (pb_x row) (pb_y row) = ed_add (ed_times 2 (point_of T Rx Ry)) (ed_times (fval (vval T k)) (point_of T Tx Ty)).
Proof.
  intros P L T c Tx Ty Rx Ry k row big Hwf HW O1 O2 OK HK HB C1 E1 C2 E2 D A T'. apply outside_parts in O1, O2. destruct O1 as [O1 O1'], O2 as [O2 O2'].
  assert (E : ed_times 2 (point_of T Rx Ry) = ed_add (point_of T Rx Ry) (point_of T Rx Ry)).
  { change 2 with (1 + 1). rewrite ed_times_add, ed_times_1 by (assumption || lia). reflexivity. }
  rewrite E in A |- *. apply canonical_has in C1, C2. apply dbl_ok_iff in D. apply add_ok_iff in A.
  destruct (pb_complete_l P L big T c Tx Ty Rx Ry k row _ _ Hwf HW O1 O1' O2 O2' OK HK C1 C2 E1 E2) as [S [FR [LK V]]]; [|exact D|exact A|].
  { unfold bit_of. destruct HB as [-> | ->]; [left; apply fval_0|right; apply (fval_1 P big)]. }
  apply step_iff in LK. destruct LK as [LK M]. split; [exact S|]. split; [exact FR|]. split; [exact LK|]. split; [exact M|]. apply has_canonical. exact V.
Qed.
Print Assumptions ed_bit_multiplication_complete.

(** ** C97 multiplication by a scalar *)

Theorem ed_multiplication_sound_with_copies : forall P (L : lenv P) T c Tx Ty k row, 2 ^ 254 <= char P ->
  wamount c = 9 -> (forall i, 0 <= i < 4 -> W c i = i) -> C c 0 = 0 ->
  sat L T (vb_circuit c 253 true Tx Ty k row) -> steps_looked_up T c 253 row -> steps_copies_added T c 253 row ->
  point_fits T Tx Ty -> on_ed (point_of T Tx Ty) ->
  fval (vval T k) < 2 ^ 253 /\ point_canonical T (vb_x 253 row) (vb_y 253 row) /\
  point_of T (vb_x 253 row) (vb_y 253 row) = ed_times (fval (vval T k)) (point_of T Tx Ty).
Proof.
  intros P L T c Tx Ty k row big Hw HW HC S HL HM F1 E1.
  assert (M : 253 <= 253 < modulus_bits P) by (unfold modulus_bits; pose proof (Z.log2_le_mono _ _ big) as H; rewrite Z.log2_pow2 in H by lia; lia).
  assert (Hk : fval (vval T k) < 2 ^ 253).
  { unfold vb_circuit in S. cbv zeta in S. rewrite sat_app in S. apply (bd_sound_l P L T c 9 253 true k row Hw ltac:(lia) ltac:(lia) HC (proj1 S)). }
  split; [exact Hk|].
  destruct (vb_sound_l P L big T c 253 true Tx Ty k row (point_of T Tx Ty) (fval (vval T k) / 2 ^ (253 - 253)) Hw HW HC M S) as [_ [G U]];
    [intros j Hj; apply step_iff; exact (conj (HL j Hj) (HM j Hj))|apply fits_good; exact F1|exact E1|apply first_msb; [lia|split; [apply fval_range|exact Hk]]|].
  rewrite Z.div_1_r in G. exact (good_under P T _ _ _ G U).
Qed.
Print Assumptions ed_multiplication_sound_with_copies.

Theorem ed_multiplication_complete : forall P (L : lenv P) T c Tx Ty k row, 2 ^ 254 <= char P ->
  wf_comp c 9 -> (forall i, 0 <= i < 4 -> W c i = i) -> C c 0 = 0 ->
  point_outside c (vb_rows 253) row Tx Ty -> outside c (vb_rows 253) row k -> consts_in T (vb_circuit c 253 true Tx Ty k row) ->
  fval (vval T k) < 2 ^ 253 -> point_canonical T Tx Ty -> on_ed (point_of T Tx Ty) -> multiple_subtracts (fval (vval T k)) (point_of T Tx Ty) ->
  let T' := vb_assign c 253 true Tx Ty k row T in
  sat L T' (vb_circuit c 253 true Tx Ty k row) /\ frame c (vb_rows 253) row T T' /\ steps_looked_up T' c 253 row /\ steps_copies_added T' c 253 row /\
  point_canonical T' (vb_x 253 row) (vb_y 253 row) /\
  point_of T' (vb_x 253 row) (vb_y 253 row) = ed_times (fval (vval T k)) (point_of T Tx Ty).
Proof.
  intros P L T c Tx Ty k row big Hwf HW HC O OK HK Hk C1 E1 HS T'. apply outside_parts in O. destruct O as [OX OY]. apply canonical_has in C1.
  pose proof (first_msb 253 (fval (vval T k)) ltac:(lia) (conj (proj1 (fval_range P (vval T k))) Hk)) as FB. rewrite Z.div_1_r in FB.
  destruct (vb_complete_l P L big T c 253 true Tx Ty k row _ _ Hwf HW HC ltac:(lia) OX OY OK HK C1 E1 Hk FB (subtracts_fine _ _ HS)) as [S [FR [LK V]]].
  split; [exact S|]. split; [exact FR|]. split; [intros j Hj; exact (proj1 (proj1 (step_iff P T' c _) (LK j Hj)))|]. split; [intros j Hj; exact (proj2 (proj1 (step_iff P T' c _) (LK j Hj)))|].
  apply has_canonical. exact V.
Qed.
Print Assumptions ed_multiplication_complete.

(** *** Small scalars *)
Add Field Fed : (F_field Ped) (morphism (F_morph Ped), constants [F_const], power_tac (F_power Ped) [F_pow_tac]).
Lemma zero_doubles : doubling_subtracts ed_zero.
Proof. split; apply subtractsb_iff; vm_compute; reflexivity. Qed.
Lemma zero_adds : forall q, addition_subtracts ed_zero q.
Proof.
  intros q. left. replace (fmul _ _) with (f0 : Fe); [change (fval (f0 : Fe)) with 0; apply fval_canon|].
  generalize (snd (ed_add ed_zero q)). intros y. unfold ed_zero. cbn [fst snd]. generalize (ofZ ed_d : Fe). intros d. destruct q as [q1 q2]. cbn [fst snd]. clear. apply F_ext.
  assert (E : forall a b e g h : Fe, fmul h (fmul (fmul (fmul (fmul a f0) b) e) g) = f0) by (intros a b e g h; ring). rewrite E. reflexivity.
Qed.
Lemma mul_consts : forall p k n msb, bb_rows 9 n true = 33 -> consts_in (mul_table p k) (vb_circuit (std_comp 9) n msb (pins 0) (pins 4) (pin 8) 0).
Proof.
  intros p k n msb Hn. apply vb_consts; [reflexivity|]. intros j Hj. unfold vb_row0. rewrite Hn.
  assert (E : forall i, 0 <= i < 4 -> forall col, mul_table p k CConst col (0 + 33 + 2 + 141 * j + 65 + 47 + (4 + i)) = ofZ (nn_limb ed_d i)).
  { intros i Hi col. unfold mul_table. cbv zeta. replace (0 + 33 + 2 + 141 * j + 65 + 47 + (4 + i) - 151) with (i + j * 141) by lia.
    rewrite Z.mod_add, Z.mod_small by lia. replace (i <? 4) with true by (symmetry; apply Z.ltb_lt; lia). reflexivity. }
  intros col r v Hin. unfold ca_consts in Hin. cbn [In] in Hin.
  destruct Hin as [Hin|[Hin|[Hin|[Hin|[]]]]]; injection Hin as <- <- <-.
  - exact (E 0 ltac:(lia) _).
  - exact (E 1 ltac:(lia) _).
  - exact (E 2 ltac:(lia) _).
  - exact (E 3 ltac:(lia) _).
Qed.

(** As long as only zeros have been read there is nothing to check. *)
Lemma zeros_subtract : forall k p j b, 0 <= k < 2 ^ b -> 0 <= b <= 253 - j -> let m := k / 2 ^ (253 - j) in
  doubling_subtracts (ed_times m p) /\ forall q, addition_subtracts (ed_times (2 * m) p) q.
Proof.
  intros k p j b Hk Hj m. assert (E : m = 0).
  { apply Z.div_small. split; [lia|]. apply Z.lt_le_trans with (2 ^ b); [apply Hk|]. apply Z.pow_le_mono_r; lia. }
  rewrite E. change (2 * 0) with 0. rewrite ed_times_0. split; [exact zero_doubles|exact zero_adds].
Qed.
Definition ed_Bp : ed_point := (ofZ (fst ed_B), ofZ (snd ed_B)).
Lemma B_on : on_ed ed_Bp. Proof. onc. Qed.
Lemma B_doubles : doubling_subtracts ed_Bp.
Proof. split; apply subtractsb_iff; vm_compute; reflexivity. Qed.
Lemma B_adds : addition_subtracts (ed_times 2 ed_Bp) ed_Bp.
Proof. apply subtractsb_iff. vm_compute. reflexivity. Qed.
Lemma three_subtracts : multiple_subtracts 3 ed_Bp.
Proof.
  intros j Hj m. destruct (Z_le_gt_dec j 251) as [H|H].
  - destruct (zeros_subtract 3 ed_Bp j 2 ltac:(lia) ltac:(lia)) as [D A]. split; [exact D|apply A].
  - assert (j = 252) as -> by lia. change m with 1. change (3 / 2 ^ (252 - 252) mod 2) with 1. change (2 * 1) with 2.
    rewrite ed_times_1 by exact B_on. split; [exact B_doubles|exact B_adds].
Qed.
Example ed_bit_multiplication_ex : let T := mul_table ed_B 1 in let c := std_comp 9 in
  2 ^ 254 <= char Pbls /\ wf_comp c 9 /\ (forall i, 0 <= i < 4 -> W c i = i) /\ point_outside c 141 35 (pins 0) (pins 4) /\ outside c 141 35 (pin 8) /\
  consts_in T (pb_circuit c (pins 0) (pins 4) (pins 0) (pins 4) (pin 8) 35) /\ vval T (pin 8) = f1 /\
  point_canonical T (pins 0) (pins 4) /\ on_ed (point_of T (pins 0) (pins 4)) /\
  doubling_subtracts (point_of T (pins 0) (pins 4)) /\
  addition_subtracts (ed_times 2 (point_of T (pins 0) (pins 4))) (ed_times (fval (vval T (pin 8))) (point_of T (pins 0) (pins 4))).
Proof.
  cbv zeta. split; [vm_compute; discriminate|]. split; [apply wf_std; lia|]. split; [intros i Hi; apply W_std; lia|].
  split; [apply pins_point|]. split; [apply pin_outside|].
  split; [apply consts_inb_ok; vm_compute; reflexivity|].
  split; [apply F_ext; vm_compute; reflexivity|]. split; [canon|].
  replace (point_of _ _ _) with ed_Bp by (apply injective_projections; onc). replace (fval (vval _ (pin 8))) with 1 by (vm_compute; reflexivity).
  rewrite ed_times_1 by exact B_on. split; [exact B_on|]. split; [exact B_doubles|exact B_adds].
Qed.
Example ed_multiplication_ex : let T := mul_table ed_B 3 in let c := std_comp 9 in
  2 ^ 254 <= char Pbls /\ wf_comp c 9 /\ (forall i, 0 <= i < 4 -> W c i = i) /\ C c 0 = 0 /\
  point_outside c (vb_rows 253) 0 (pins 0) (pins 4) /\ outside c (vb_rows 253) 0 (pin 8) /\ consts_in T (vb_circuit c 253 true (pins 0) (pins 4) (pin 8) 0) /\
  fval (vval T (pin 8)) = 3 /\ point_canonical T (pins 0) (pins 4) /\ on_ed (point_of T (pins 0) (pins 4)) /\
  multiple_subtracts 3 (point_of T (pins 0) (pins 4)).
Proof.
  cbv zeta. split; [vm_compute; discriminate|]. split; [apply wf_std; lia|]. split; [intros i Hi; apply W_std; lia|]. split; [reflexivity|].
  split; [apply pins_point|]. split; [apply pin_outside|]. split; [apply mul_consts; vm_compute; reflexivity|]. split; [vm_compute; reflexivity|].
  split; [canon|]. split; [onc|]. replace (point_of _ _ _) with ed_Bp; [exact three_subtracts|]. apply injective_projections; onc.
Qed.

(** ** C98 multiplication as it is *)

(** For every even scalar the honest prover can handle, and with every chunk
    looked up, a point with a wrong second coordinate is accepted. *)
Theorem ed_multiplication_sound_refuted : forall P (L : lenv P) T c Tx Ty k row, 2 ^ 254 <= char P ->
  wf_comp c 9 -> (forall i, 0 <= i < 4 -> W c i = i) -> C c 0 = 0 ->
  point_outside c (vb_rows 253) row Tx Ty -> outside c (vb_rows 253) row k -> consts_in T (vb_circuit c 253 true Tx Ty k row) ->
  fval (vval T k) < 2 ^ 253 -> point_canonical T Tx Ty -> on_ed (point_of T Tx Ty) -> multiple_subtracts (fval (vval T k)) (point_of T Tx Ty) ->
  Z.even (fval (vval T k)) = true ->
  exists T', frame c (vb_rows 253) row T T' /\ sat L T' (vb_circuit c 253 true Tx Ty k row) /\ steps_looked_up T' c 253 row /\
  point_canonical T' (vb_x 253 row) (vb_y 253 row) /\
  let q := ed_times (fval (vval T k)) (point_of T Tx Ty) in
  fst (point_of T' (vb_x 253 row) (vb_y 253 row)) = fst q /\ snd (point_of T' (vb_x 253 row) (vb_y 253 row)) <> snd q.
Proof.
  intros P L T c Tx Ty k row big Hwf HW HC O OK HK Hk C1 E1 HS EV. apply outside_parts in O. destruct O as [OX OY]. apply canonical_has in C1.
  pose proof (first_msb 253 (fval (vval T k)) ltac:(lia) (conj (proj1 (fval_range P (vval T k))) Hk)) as FB. rewrite Z.div_1_r in FB.
  destruct (vb_wrong_l P L big T c 253 true Tx Ty k row _ _ Hwf HW HC ltac:(lia) OX OY OK HK C1 E1 Hk FB (proj1 (Z.even_spec _) EV) (subtracts_fine _ _ HS)) as [T' [S [FR [LK V]]]].
  exists T'. split; [exact FR|]. split; [exact S|]. split; [intros j Hj; apply chunks_iff; exact (LK j Hj)|]. apply wrong_point. exact V.
Qed.
Print Assumptions ed_multiplication_sound_refuted.
Lemma two_subtracts : multiple_subtracts 2 ed_Bp.
Proof.
  intros j Hj m. destruct (Z_le_gt_dec j 251) as [H|H].
  - destruct (zeros_subtract 2 ed_Bp j 2 ltac:(lia) ltac:(lia)) as [D A]. split; [exact D|apply A].
  - assert (j = 252) as -> by lia. change m with 1. change (2 / 2 ^ (252 - 252) mod 2) with 0.
    rewrite ed_times_0, ed_times_1 by exact B_on. split; [exact B_doubles|]. apply subtractsb_iff; vm_compute; reflexivity.
Qed.
(** Twice the base point. *)
Example ed_multiplication_sound_refuted_ex : let T := mul_table ed_B 2 in let c := std_comp 9 in
  exists T', frame c (vb_rows 253) 0 T T' /\ sat (noL Pbls) T' (vb_circuit c 253 true (pins 0) (pins 4) (pin 8) 0) /\ steps_looked_up T' c 253 0 /\
  point_of T' (vb_x 253 0) (vb_y 253 0) <> (ofZ (fst ed_B2), ofZ (snd ed_B2)).
Proof.
  cbv zeta.
  assert (EP : point_of (mul_table ed_B 2) (pins 0) (pins 4) = ed_Bp) by (apply injective_projections; onc).
  assert (EK : fval (vval (mul_table ed_B 2) (pin 8)) = 2) by (vm_compute; reflexivity).
  destruct (ed_multiplication_sound_refuted Pbls (noL Pbls) (mul_table ed_B 2) (std_comp 9) (pins 0) (pins 4) (pin 8) 0) as [T' [FR [S [LK [_ [_ NE]]]]]];
    [vm_compute; discriminate|apply wf_std; lia|intros i Hi; apply W_std; lia|reflexivity|apply pins_point|apply pin_outside|apply mul_consts; vm_compute; reflexivity|
     rewrite EK; reflexivity|canon|onc|rewrite EP, EK; exact two_subtracts|rewrite EK; reflexivity|].
  exists T'. split; [exact FR|]. split; [exact S|]. split; [exact LK|]. intros H. apply NE. rewrite H, EP, EK.
  cbn [snd]. onc.
Qed.

(** The constructor takes the number of bits and their order, the loop does not
    follow: with more bits the lowest ones are dropped, in the other order they
    are read backwards. *)
Theorem ed_multiplication_more_bits_sound : forall P (L : lenv P) T c n Tx Ty k row, 2 ^ 254 <= char P -> 253 <= n < modulus_bits P ->
  wamount c = 9 -> (forall i, 0 <= i < 4 -> W c i = i) -> C c 0 = 0 ->
  sat L T (vb_circuit c n true Tx Ty k row) -> steps_looked_up T c n row -> steps_copies_added T c n row ->
  point_fits T Tx Ty -> on_ed (point_of T Tx Ty) ->
  fval (vval T k) < 2 ^ n /\ point_canonical T (vb_x n row) (vb_y n row) /\
  point_of T (vb_x n row) (vb_y n row) = ed_times (fval (vval T k) / 2 ^ (n - 253)) (point_of T Tx Ty).
Proof.
  intros P L T c n Tx Ty k row big M Hw HW HC S HL HM F1 E1.
  assert (Hk : fval (vval T k) < 2 ^ n).
  { unfold vb_circuit in S. cbv zeta in S. rewrite sat_app in S. apply (bd_sound_l P L T c 9 n true k row Hw ltac:(lia) ltac:(lia) HC (proj1 S)). }
  split; [exact Hk|].
  destruct (vb_sound_l P L big T c n true Tx Ty k row (point_of T Tx Ty) (fval (vval T k) / 2 ^ (n - 253)) Hw HW HC M S) as [_ [G U]];
    [intros j Hj; apply step_iff; exact (conj (HL j Hj) (HM j Hj))|apply fits_good; exact F1|exact E1|apply first_msb; [lia|split; [apply fval_range|exact Hk]]|].
  exact (good_under P T _ _ _ G U).
Qed.
Print Assumptions ed_multiplication_more_bits_sound.
(** The point of order two. *)
Definition ed_two : Z * Z := (0, ed25519_p - 1).
Definition ed_twop : ed_point := (ofZ 0, ofZ (ed25519_p - 1)).
Lemma two_on : on_ed ed_twop. Proof. onc. Qed.
Lemma two_order : ed_add ed_twop ed_twop = ed_zero. Proof. apply injective_projections; onc. Qed.
Lemma two_times : forall n, 0 <= n -> ed_times (2 * n) ed_twop = ed_zero.
Proof.
  intros n Hn. pattern n. apply natlike_ind; [reflexivity| |exact Hn]. intros m Hm IH. replace (2 * Z.succ m) with (2 * m + (1 + 1)) by lia.
  rewrite !ed_times_add by (try exact two_on; lia). rewrite IH, ed_times_1 by exact two_on. rewrite two_order. apply ed_add_zero. exact ed_zero_on.
Qed.
Lemma two_not_zero : ed_twop <> ed_zero.
Proof. intros H. apply (f_equal snd) in H. revert H. apply fval_neq. vm_compute. discriminate. Qed.
Lemma mul_refuted : forall n msb k K, bb_rows 9 n true = 33 -> 253 <= n -> 0 <= k < char Pbls -> k < 2 ^ n -> first_bits n msb k K -> 0 <= K < 2 ->
  ed_times K ed_twop <> ed_times k ed_twop ->
  let T := mul_table ed_two k in let c := std_comp 9 in let T' := vb_assign c n msb (pins 0) (pins 4) (pin 8) 0 T in
  fval (vval T (pin 8)) = k /\ point_canonical T (pins 0) (pins 4) /\ on_ed (point_of T (pins 0) (pins 4)) /\
  sat (noL Pbls) T' (vb_circuit c n msb (pins 0) (pins 4) (pin 8) 0) /\ steps_looked_up T' c n 0 /\ steps_copies_added T' c n 0 /\
  point_of T' (vb_x n 0) (vb_y n 0) <> ed_times k (point_of T (pins 0) (pins 4)).
Proof.
  intros n msb k K Hr Hn Hk Hk2 FB HK NE T c T'.
  assert (EK : fval (vval T (pin 8)) = k) by (apply (fval_ofZ_small Pbls); exact Hk).
  assert (C1 : point_canonical T (pins 0) (pins 4)) by (unfold T; clear; revert k; intros k; repeat split; vm_compute; reflexivity).
  assert (EP : point_of T (pins 0) (pins 4) = ed_twop) by (unfold T; clear; revert k; intros k; apply injective_projections; onc).
  split; [exact EK|]. split; [exact C1|]. rewrite EP. split; [exact two_on|]. pose proof (canonical_has Pbls T _ _ C1) as V1. rewrite EP in V1.
  destruct (vb_complete_l Pbls (noL Pbls) ltac:(vm_compute; discriminate) T c n msb (pins 0) (pins 4) (pin 8) 0 ed_twop K) as [S [FR [LK V]]];
    [apply wf_std; lia|intros i Hi; apply W_std; lia|reflexivity|exact Hn|intros i Hi; apply pins_outside; exact Hi|intros i Hi; apply pins_outside; exact Hi|apply pin_outside|
     apply mul_consts; exact Hr|exact V1|exact two_on|rewrite EK; exact Hk2|rewrite EK; exact FB| |].
  { apply subtracts_fine. intros j Hj m. destruct (zeros_subtract K ed_twop j 1 ltac:(lia) ltac:(lia)) as [D A]. split; [exact D|apply A]. }
  split; [exact S|]. split; [intros j Hj; exact (proj1 (proj1 (step_iff _ T' c _) (LK j Hj)))|]. split; [intros j Hj; exact (proj2 (proj1 (step_iff _ T' c _) (LK j Hj)))|].
  apply has_canonical in V. destruct V as [_ V]. intros H. apply NE. rewrite <- V. exact H.
Qed.
Theorem ed_multiplication_more_bits_refuted : exists (T : table Pbls) c Tx Ty k, let T' := vb_assign c 254 true Tx Ty k 0 T in
  fval (vval T k) = 1 /\ point_canonical T Tx Ty /\ on_ed (point_of T Tx Ty) /\
  sat (noL Pbls) T' (vb_circuit c 254 true Tx Ty k 0) /\ steps_looked_up T' c 254 0 /\ steps_copies_added T' c 254 0 /\
  point_of T' (vb_x 254 0) (vb_y 254 0) <> ed_times 1 (point_of T Tx Ty).
Proof.
  exists (mul_table ed_two 1), (std_comp 9), (pins 0), (pins 4), (pin 8).
  apply (mul_refuted 254 true 1 0); [vm_compute; reflexivity|lia|split; [lia|reflexivity]|reflexivity|apply (first_msb 254 1); [lia|split; [lia|reflexivity]]|lia|].
  rewrite ed_times_1 by exact two_on. rewrite ed_times_0. intros H. apply two_not_zero. symmetry. exact H.
Qed.
Print Assumptions ed_multiplication_more_bits_refuted.
Theorem ed_multiplication_lsb_refuted : exists (T : table Pbls) c Tx Ty k, let T' := vb_assign c 253 false Tx Ty k 0 T in
  fval (vval T k) = 2 ^ 252 /\ point_canonical T Tx Ty /\ on_ed (point_of T Tx Ty) /\
  sat (noL Pbls) T' (vb_circuit c 253 false Tx Ty k 0) /\ steps_looked_up T' c 253 0 /\ steps_copies_added T' c 253 0 /\
  point_of T' (vb_x 253 0) (vb_y 253 0) <> ed_times (2 ^ 252) (point_of T Tx Ty).
Proof.
  exists (mul_table ed_two (2 ^ 252)), (std_comp 9), (pins 0), (pins 4), (pin 8).
  apply (mul_refuted 253 false (2 ^ 252) 1); [vm_compute; reflexivity|lia|split; [apply Z.pow_nonneg; lia|vm_compute; reflexivity]|vm_compute; reflexivity| |lia|].
  - split; [split; [lia|reflexivity]|]. intros j Hj. rewrite Z.pow2_bits_eqb by lia. destruct (Z.eq_dec j 252) as [-> |H]; [reflexivity|].
    replace (252 =? j) with false by (symmetry; apply Z.eqb_neq; lia). change 1 with (2 ^ 0). rewrite Z.pow2_bits_eqb by lia. apply Z.eqb_neq. lia.
  - change (2 ^ 252) with (2 * 2 ^ 251). rewrite two_times by (apply Z.pow_nonneg; lia). rewrite ed_times_1 by exact two_on. exact two_not_zero.
Qed.
Print Assumptions ed_multiplication_lsb_refuted.
