(** Properties C16, C17, C43, C44: exponentiation and square root. *)
From Coq Require Import ZArith List Lia Bool Znumtheory.
From Verif Require Import Base Field Primes Plonk PlonkFacts Bits FieldOpsModel PowerModel PowerProofs Euler SqrtProofs Examples.
Import ListNotations.
Open Scope Z_scope.

(** [b ^ n] for a non-negative integer [n]. *)
Definition power {P} (b : F P) (n : Z) : F P := fpow b (Z.to_nat n).

(** ** C16 exponentiation *)

(** Whatever table is accepted, the output is [base ^ B] for some integer [B]
    of [8 * ceil(size / 8)] bits that is congruent to the exponent. *)
Theorem exp_sound : forall P (L : lenv P) T c size base ex row,
  0 < size -> C c 0 = W c 0 ->
  sat L T (exp_circuit c size base ex row) ->
  exists B, 0 <= B < 2 ^ (8 * ((size + 7) / 8)) /\ B mod char P = fval (vval T ex) /\
    vval T (exp_out c size row) = power (vval T base) B.
Proof.
  intros P L T c size base ex row Hs HC H. destruct (exp_sound_l P L T c size base ex row Hs HC H) as [B [HB [E O]]].
  exists B. split; [|split; [rewrite E; symmetry; apply fval_ofZ|exact O]].
  unfold exp_padded, exp_main in HB. replace (size + 8 - 1) with (size + 7) in HB by lia.
  replace (8 * ((size + 7) / 8)) with ((size + 7) / 8 * 8) by lia. exact HB.
Qed.
Print Assumptions exp_sound.

(** When only one such integer exists the output is the power asked for. *)
Theorem exp_exact : forall P (L : lenv P) T c size base ex row,
  0 < size -> C c 0 = W c 0 -> 2 ^ (8 * ((size + 7) / 8)) <= fval (vval T ex) + char P ->
  sat L T (exp_circuit c size base ex row) ->
  vval T (exp_out c size row) = power (vval T base) (fval (vval T ex)).
Proof.
  intros P L T c size base ex row Hs HC Hp H. apply (exp_unique_l P L T c size base ex row Hs HC); [|exact H].
  unfold exp_padded, exp_main. replace (size + 8 - 1) with (size + 7) by lia. rewrite Z.mul_comm. exact Hp.
Qed.
Print Assumptions exp_exact.

Theorem exp_complete : forall P (L : lenv P) T c size base ex row,
  wf_comp c 15 -> 0 < size -> W c 5 = 5 -> C c 0 = W c 0 ->
  outside c (exp_rows size) row base -> outside c (exp_rows size) row ex ->
  consts_in T (exp_circuit c size base ex row) ->
  fval (vval T ex) < 2 ^ size ->
  exists T', exp_assign c size base ex row T = Some T' /\
    sat L T' (exp_circuit c size base ex row) /\ frame c (exp_rows size) row T T' /\
    vval T' (exp_out c size row) = power (vval T base) (fval (vval T ex)).
Proof.
  intros P L T c size base ex row Hwf Hs H5 HC Ob Oe HK He. apply exp_complete_l; auto.
  eapply Z.lt_le_trans; [exact He|]. apply Z.pow_le_mono_r; [lia|].
  destruct (exp_main_spec size Hs) as [_ [A _]]. lia.
Qed.
Print Assumptions exp_complete.

Definition etab : table P65537 := intab_c P65537 [3; 200] [0; 1].
Lemma etab_ok : exists T', exp_assign (std_comp 15) 8 (pin 0) (pin 1) 0 etab = Some T' /\
  sat (noL P65537) T' (exp_circuit (std_comp 15) 8 (pin 0) (pin 1) 0) /\
  fval (vval T' (pin 1)) = 200 /\ vval T' (pin 0) = ofZ 3.
Proof.
  destruct (exp_complete P65537 (noL P65537) etab (std_comp 15) 8 (pin 0) (pin 1) 0) as [T' [E [S [Fr _]]]];
    try apply pin_outside; try reflexivity.
  - apply wf_std; lia.
  - apply consts_inb_ok. vm_compute. reflexivity.
  - exists T'. split; [exact E|]. split; [exact S|]. split.
    + rewrite (vval_frame _ _ _ _ _ _ _ Fr (pin_outside _ _ _ _)). reflexivity.
    + rewrite (vval_frame _ _ _ _ _ _ _ Fr (pin_outside _ _ _ _)). reflexivity.
Qed.
Example exp_sound_ex : exists T, sat (noL P65537) T (exp_circuit (std_comp 15) 8 (pin 0) (pin 1) 0) /\
  exists B, 0 <= B < 256 /\ vval T (exp_out (std_comp 15) 8 0) = power (ofZ 3) B.
Proof.
  destruct etab_ok as [T [_ [S [_ E0]]]]. exists T. split; [exact S|].
  destruct (exp_sound P65537 (noL P65537) T (std_comp 15) 8 (pin 0) (pin 1) 0 ltac:(lia) eq_refl S) as [B [HB [_ E]]]. exists B. rewrite E0 in E. split; [exact HB|exact E].
Qed.
Example exp_exact_ex : exists T, sat (noL P65537) T (exp_circuit (std_comp 15) 8 (pin 0) (pin 1) 0) /\
  vval T (exp_out (std_comp 15) 8 0) = power (ofZ 3) 200.
Proof.
  destruct etab_ok as [T [_ [S [E1 E0]]]]. exists T. split; [exact S|].
  rewrite <- E0, <- E1. apply (exp_exact _ (noL P65537)); try reflexivity; [|exact S]. rewrite E1. vm_compute. discriminate.
Qed.
Example exp_complete_ex : wf_comp (std_comp 15) 15 /\ W (std_comp 15) 5 = 5 /\ C (std_comp 15) 0 = W (std_comp 15) 0 /\
  consts_in etab (exp_circuit (std_comp 15) 8 (pin 0) (pin 1) 0) /\ fval (vval etab (pin 1)) < 2 ^ 8.
Proof.
  split; [apply wf_std; lia|]. split; [reflexivity|]. split; [reflexivity|]. split; [|reflexivity].
  apply consts_inb_ok. vm_compute. reflexivity.
Qed.

(** ** C43: exponentiation with room for a second exponent *)

(** In every field where the exponent plus the modulus still fits, the accepted
    tables include one whose output is [base] times too large. *)
Theorem exp_exact_refuted : forall P (L : lenv P) size (b : F P) e,
  0 < size -> 0 <= e < char P -> e + char P < 2 ^ size -> b <> f0 -> b <> f1 ->
  exists T, sat L T (exp_circuit (std_comp 15) size (pin 0) (pin 1) 0) /\
    vval T (pin 0) = b /\ fval (vval T (pin 1)) = e /\
    vval T (exp_out (std_comp 15) size 0) <> power b e.
Proof.
  intros P L size b e Hs He Hp B0 B1.
  set (T0 := intab_c P [fval b; e] [0; 1]).
  assert (Hwf : wf_comp (std_comp 15) 15) by (apply wf_std; lia).
  destruct (exp_main_spec size Hs) as [_ [A _]].
  assert (V0 : vval T0 (pin 0) = b) by apply ofZ_fval.
  assert (V1 : vval T0 (pin 1) = ofZ e) by reflexivity.
  destruct (exp_writes_filled P T0 (std_comp 15) size b (e + char P) 0 Hwf eq_refl) as [FL FR].
  specialize (FR Hs). set (T := wsets T0 _) in *.
  rewrite <- (vval_frame _ _ _ _ _ _ (pin 0) FR (pin_outside _ _ _ _)) in V0.
  rewrite <- (vval_frame _ _ _ _ _ _ (pin 1) FR (pin_outside _ _ _ _)) in V1.
  destruct (exp_core P L T (std_comp 15) size (pin 0) (pin 1) 0 (e + char P)) as [S O]; auto.
  - rewrite V0. exact FL.
  - split; [lia|]. eapply Z.lt_le_trans; [exact Hp|]. apply Z.pow_le_mono_r; lia.
  - rewrite V1. symmetry. apply ofZ_wrap.
  - rewrite FR by (intros [K _]; discriminate). reflexivity.
  - rewrite FR by (intros [K _]; discriminate). reflexivity.
  - exists T. split; [exact S|]. split; [exact V0|]. split.
    + rewrite V1. apply fval_ofZ_small. lia.
    + rewrite O, V0. apply zpow_wrap; [lia|exact B0|exact B1].
Qed.
Print Assumptions exp_exact_refuted.
(** The configuration the square root component uses. *)
Example exp_exact_refuted_ex : 0 <= (bls_r - 1) / 2 < char Pbls /\ (bls_r - 1) / 2 + char Pbls < 2 ^ 256 /\
  (ofZ 5 : F Pbls) <> f0 /\ (ofZ 5 : F Pbls) <> f1.
Proof.
  split; [split; vm_compute; congruence|]. split; [vm_compute; reflexivity|].
  split; apply fval_neq; vm_compute; discriminate.
Qed.

(** The columns an instance is given are not respected: the initial one is
    written to witness column 5 whatever [W(5)] is, and the constants are read
    back from constant column number [W(0)]. *)
Theorem exp_columns_refuted : exists (T : table P97) T',
  let c := mkComp (zseq 1 16) [1] [] in
  wf_comp c 15 /\ C c 0 = W c 0 /\ consts_in T (exp_circuit c 8 (pin 0) (pin 1) 0) /\
  exp_assign c 8 (pin 0) (pin 1) 0 T = Some T' /\
  ~ sat (noL P97) T' (exp_circuit c 8 (pin 0) (pin 1) 0).
Proof.
  set (T := fun ty col row => match ty with CPub => ofZ (znth 0 [3; 10] row)
            | CConst => if (col =? 1) && (row =? 1) then f1 else f0 | _ => f0 end : F P97).
  exists T. eexists. cbv zeta. split; [|split; [reflexivity|split; [|split; [reflexivity|]]]].
  - split; [apply nodup_zseq|]. split; [reflexivity|lia].
  - apply consts_inb_ok. vm_compute. reflexivity.
  - intros S. unfold exp_circuit, exp_copies in S. apply sat_cons in S. destruct S as [_ S].
    apply sat_app in S. destruct S as [S _]. apply sat_app in S. destruct S as [_ S].
    apply sat_cons in S. destruct S as [_ S]. apply sat_cons in S. destruct S as [S _]. cbn [holds] in S.
    apply (f_equal fval) in S. vm_compute in S. discriminate.
Qed.
Print Assumptions exp_columns_refuted.

Theorem exp_constants_refuted : exists (T : table P97) T',
  let c := mkComp (zseq 0 15) [1] [] in
  wf_comp c 15 /\ W c 5 = 5 /\ consts_in T (exp_circuit c 8 (pin 0) (pin 1) 0) /\
  exp_assign c 8 (pin 0) (pin 1) 0 T = Some T' /\
  ~ sat (noL P97) T' (exp_circuit c 8 (pin 0) (pin 1) 0).
Proof.
  set (T := fun ty col row => match ty with CPub => ofZ (znth 0 [3; 10] row)
            | CConst => if (col =? 1) && (row =? 1) then f1 else f0 | _ => f0 end : F P97).
  exists T. eexists. cbv zeta. split; [|split; [reflexivity|split; [|split; [reflexivity|]]]].
  - split; [apply nodup_zseq|]. split; [reflexivity|lia].
  - apply consts_inb_ok. vm_compute. reflexivity.
  - intros S. unfold exp_circuit, exp_copies in S. apply sat_cons in S. destruct S as [_ S].
    apply sat_app in S. destruct S as [S _]. apply sat_app in S. destruct S as [_ S].
    apply sat_cons in S. destruct S as [_ S]. apply sat_cons in S. destruct S as [S _]. cbn [holds] in S.
    apply (f_equal fval) in S. vm_compute in S. discriminate.
Qed.
Print Assumptions exp_constants_refuted.

(** ** C17 square root *)

(** [x] is a square root of [y], or -1 marks that there is none. *)
Definition root_or_mark {P} (y x : F P) : Prop :=
  fmul x x = y \/ ((forall z, fmul z z <> y) /\ x = fopp f1).

(** In a field so large that [(p-1)/2 + p] does not fit in 256 bits. *)
Theorem sqrt_sound : forall P (L : lenv P) T c y row,
  2 < char P -> W c 0 = 0 -> C c 0 = 0 -> 2 ^ 256 <= (char P - 1) / 2 + char P ->
  sat L T (sqrt_circuit c y row) ->
  root_or_mark (vval T y) (vval T (sqrt_out c row)).
Proof.
  intros P L T c y row H2 HW HC Hp H. apply (sqrt_sound_l P L T c y row H2 HC HW); [|exact H].
  unfold half. lia.
Qed.
Print Assumptions sqrt_sound.

(** In every odd field whose [(p-1)/2] fits in 256 bits an honest run is
    accepted and its output is right; [fsqrt] is any function returning a root
    of every square. *)
Theorem sqrt_complete : forall P (L : lenv P) fsqrt T c y row,
  2 < char P -> (char P - 1) / 2 < 2 ^ 256 ->
  (forall a : F P, (exists z, fmul z z = a) -> fmul (fsqrt a) (fsqrt a) = a) ->
  wf_comp c 15 -> W c 0 = 0 -> W c 5 = 5 -> C c 0 = 0 ->
  outside c sqrt_rows row y -> consts_in T (sqrt_circuit c y row) ->
  exists T', sqrt_assign fsqrt c y row T = Some T' /\
    sat L T' (sqrt_circuit c y row) /\ frame c sqrt_rows row T T' /\
    root_or_mark (vval T y) (vval T' (sqrt_out c row)).
Proof. intros. apply sqrt_complete_l; assumption. Qed.
Print Assumptions sqrt_complete.

(** A 256-bit prime large enough for soundness. *)
Definition big_p : Z := 207 * 2 ^ 248 + 1.
Lemma prime_big : prime big_p.
Proof. apply (order_check_ok big_p 5 (repeat 2 130) (207 * 2 ^ 118)). vm_compute. reflexivity. Qed.
Definition Pbig : params := mkParams big_p prime_big.
Definition stab (P : params) (y : F P) : table P := fun ty col row =>
  match ty with CPub => y
  | CConst => if col =? 0 then ofZ (znth 0 [(char P - 1) / 2; 0; 1; 0; 1] row) else f0 | _ => f0 end.
Lemma stab_consts : forall P (y : F P), consts_in (stab P y) (sqrt_circuit (std_comp 15) (pin 0) 0).
Proof.
  intros P y col row v H. unfold sqrt_circuit, exp_circuit in H.
  apply in_app_or in H. destruct H as [H|H].
  { destruct H as [H|H]; [discriminate|]. apply in_app_or in H. destruct H as [H|H].
    - exfalso. unfold exp_copies in H. apply in_app_or in H. destruct H as [H|H].
      + apply in_map_iff in H. destruct H as [r [H _]]. discriminate.
      + cbn [In] in H. repeat destruct H as [H|H]; try discriminate; contradiction.
    - cbn [In] in H. destruct H as [H|[H|[]]]; injection H as <- <- <-; reflexivity. }
  apply in_app_or in H. destruct H as [H|H].
  { exfalso. unfold sqrt_ops in H. cbn [ops_circuit aop_circuit] in H.
    repeat (apply in_app_or in H; destruct H as [H|H]);
      unfold addition_circuit, subtraction_circuit, multiplication_circuit in H;
      cbn [In] in H; repeat match type of H with
        | context [if ?b then _ else _] => destruct b
        | _ \/ _ => destruct H as [H|H]
        | In _ (_ ++ _) => apply in_app_or in H
        | In _ [] => contradiction
        | In _ (_ :: _) => cbn [In] in H
        | False => contradiction
        | _ = _ => discriminate end. }
  cbn [In] in H. destruct H as [H|[H|[H|[H|[]]]]]; try discriminate; injection H as <- <- <-; reflexivity.
Qed.

Lemma stab_run : forall P (y : F P), 2 < char P -> (char P - 1) / 2 < 2 ^ 256 ->
  exists T, sat (noL P) T (sqrt_circuit (std_comp 15) (pin 0) 0) /\ vval T (pin 0) = y.
Proof.
  intros P y H2 Hh. destruct (sqrt_complete P (noL P) fsqrt_search (stab P y) (std_comp 15) (pin 0) 0) as [T [_ [S [Fr _]]]];
    try reflexivity; try assumption.
  - apply fsqrt_search_ok.
  - apply wf_std; lia.
  - apply pin_outside.
  - apply stab_consts.
  - exists T. split; [exact S|]. rewrite (vval_frame _ _ _ _ _ _ _ Fr (pin_outside _ _ _ _)). reflexivity.
Qed.
Example sqrt_sound_ex : exists T : table Pbig, sat (noL Pbig) T (sqrt_circuit (std_comp 15) (pin 0) 0) /\
  let x := vval T (sqrt_out (std_comp 15) 0) in fmul x x = ofZ 49.
Proof.
  destruct (stab_run Pbig (ofZ 49)) as [T [S E]]; [vm_compute; reflexivity|vm_compute; reflexivity|].
  exists T. split; [exact S|]. cbv zeta.
  destruct (sqrt_sound Pbig (noL Pbig) T (std_comp 15) (pin 0) 0) as [H|[H _]]; auto.
  - vm_compute; reflexivity.
  - vm_compute; discriminate.
  - rewrite E in H. exact H.
  - exfalso. rewrite E in H. apply (H (ofZ 7)). rewrite <- ofZ_mul. reflexivity.
Qed.
Example sqrt_complete_ex : 2 < char Pbls /\ (char Pbls - 1) / 2 < 2 ^ 256 /\ wf_comp (std_comp 15) 15 /\
  consts_in (stab Pbls (ofZ 49)) (sqrt_circuit (std_comp 15) (pin 0) 0) /\
  (forall a : F Pbls, (exists z, fmul z z = a) -> fmul (fsqrt_search a) (fsqrt_search a) = a).
Proof.
  split; [vm_compute; reflexivity|]. split; [vm_compute; reflexivity|]. split; [apply wf_std; lia|].
  split; [apply stab_consts|apply fsqrt_search_ok].
Qed.

(** ** C44: square roots in the smaller fields the project uses *)

(** In every field with [p = 1 mod 8] in which [(p-1)/2 + p] fits in 256 bits,
    the circuit accepts 0 as a root of some non-zero element. *)
Theorem sqrt_sound_refuted : forall P (L : lenv P), char P mod 8 = 1 -> (char P - 1) / 2 + char P < 2 ^ 256 ->
  exists T, sat L T (sqrt_circuit (std_comp 15) (pin 0) 0) /\
    vval T (sqrt_out (std_comp 15) 0) = f0 /\ vval T (pin 0) <> f0 /\
    ~ root_or_mark (vval T (pin 0)) (vval T (sqrt_out (std_comp 15) 0)).
Proof.
  intros P L H8 Hp. destruct (sqrt_wrong_root P H8) as [y [Y0 [Q E]]].
  assert (V : vval (stab P y) (pin 0) = y) by reflexivity.
  destruct (sqrt_fill_ok P L (stab P y) (std_comp 15) (pin 0) f0 (half P + char P) 0) as [S [Fr [VX _]]]; try reflexivity.
  - apply wf_std; lia.
  - apply pin_outside.
  - apply stab_consts.
  - unfold half. pose proof (char_ge_2 P). pose proof (Z.div_pos (char P - 1) 2 ltac:(lia) ltac:(lia)). lia.
  - apply ofZ_wrap.
  - rewrite V, Q. exact E.
  - eexists. split; [exact S|]. rewrite VX, (vval_frame _ _ _ _ _ _ _ Fr (pin_outside _ _ _ _)), V.
    split; [reflexivity|]. split; [exact Y0|]. apply not_root_or_mark. exact Y0.
Qed.
Print Assumptions sqrt_sound_refuted.
Example sqrt_sound_refuted_ex : char Pbls mod 8 = 1 /\ (char Pbls - 1) / 2 + char Pbls < 2 ^ 256.
Proof. split; vm_compute; reflexivity. Qed.
