(** The middle gate of the zkEVM circuit row by row: what it enforces. *)
From Coq Require Import ZArith List Lia Bool Field.
From Verif Require Import Base Field Plonk PlonkFacts Bits CompareModel ZkevmModel ZkevmSel ZkevmArith ZkevmOps.
Import ListNotations.
Open Scope Z_scope.

(** ** Reading a table *)
Definition opcode_at {P : params} (T : table P) (r : Z) (o : opcode) : Prop :=
  T CWit (sel_col 0) r = ofZ (byte o).
Definition active {P : params} (s_mid : Z) (T : table P) (r : Z) : Prop := T CSel s_mid r <> f0.

Lemma ss_w_opcodes : ss_w n_opcodes = 77. Proof. reflexivity. Qed.
Lemma ss_w_rows : ss_w max_height = 12. Proof. reflexivity. Qed.
Lemma byte_range : forall o, 0 <= byte o < n_opcodes. Proof. destruct o; unfold byte, n_opcodes; lia. Qed.
Lemma byte_inj : forall o o', byte o = byte o' -> o = o'. Proof. destruct o, o'; cbn; congruence || lia. Qed.
Lemma height_range : forall o, 1 <= height o <= 4. Proof. destruct o; cbn; lia. Qed.

Section Mid.
Variable P : params.
Notation F := (F P).
Notation table := (table P).
Implicit Types T : table.
Add Field Ff : (F_field P) (morphism (F_morph P), constants [F_const], power_tac (F_power P) [F_pow_tac]).
Local Open Scope F_scope.

Definition rmc T r : F := T CWit col_rem r.
Definition ivc T r : F := T CWit col_inv r.
Definition opc T r : F := T CWit (sel_col 0) r.
Definition state_cols : list Z := [col_pc; col_stack; col_mem; col_gas].

Definition gen_eqs (s_end : Z) T (r : Z) : Prop :=
  rmc T r * rmc T r * ivc T r - rmc T r = f0 /\
  (rmc T r * ivc T r - f1) * ivc T r = f0 /\
  rmc T r * (rmc T (r + 1) - rmc T r + f1) = f0 /\
  (f1 - stp P T r) * (opc T r - opc T (r - 1)) = f0 /\
  (f1 - ivc T (r - 1) * rmc T (r - 1)) * (f1 - stp P T r) = f0 /\
  forall c, In c state_cols -> (f1 - T CSel s_end r) * (f1 - stp P T (r + 1)) * (T CWit c (r + 1)%Z - T CWit c r) = f0.

Lemma eval_wv : forall T r c off, eval T r (evar (wv c off)) = T CWit c (r + off)%Z.
Proof. intros. rewrite eval_evar, gval_wv. reflexivity. Qed.

Lemma generic_iff : forall s_end T r,
  (forall e, In e (generic_transitions (P := P) s_end) -> eval T r e = f0) <-> gen_eqs s_end T r.
Proof.
  intros s_end T r. unfold generic_transitions, gen_eqs, step, rem, inv, opt_var. fold state_cols. rewrite all_app, all_map.
  rewrite !all_cons, all_nil.
  assert (EM : forall c, eval T r (EBin OMul (EBin OMul (EBin OSub (ecst (ofZ 1)) (evar (mkVar s_end 0 true CSel)))
       (EBin OSub (ecst (ofZ 1)) (evar (wv col_step 1)))) (EBin OSub (evar (wv c 1)) (evar (wv c 0)))) =
     (f1 - T CSel s_end r) * (f1 - stp P T (r + 1)) * (T CWit c (r + 1)%Z - T CWit c r)).
  { intros c. rewrite !eval_bin, !eval_wv, !eval_ecst, Z.add_0_r, eval_evar. cbn [ebop].
    change (ofZ 1) with (f1 : F). unfold gval. cbn [vrel vidx vrot vty]. rewrite ?Z.add_0_r. reflexivity. }
  assert (EQ : (forall c, In c state_cols -> eval T r (EBin OMul (EBin OMul (EBin OSub (ecst (ofZ 1)) (evar (mkVar s_end 0 true CSel)))
       (EBin OSub (ecst (ofZ 1)) (evar (wv col_step 1)))) (EBin OSub (evar (wv c 1)) (evar (wv c 0)))) = f0) <->
     (forall c, In c state_cols -> (f1 - T CSel s_end r) * (f1 - stp P T (r + 1)) * (T CWit c (r + 1)%Z - T CWit c r) = f0)).
  { split; intros H c C; specialize (H c C); rewrite EM in *; exact H. }
  cbv beta. rewrite EQ, !eval_bin, !eval_wv, !eval_ecst, !Z.add_0_r. cbn [ebop].
  change (ofZ 1) with (f1 : F). change (r + -1)%Z with (r - 1)%Z. unfold stp, rmc, ivc, opc. tauto.
Qed.

(** What the constraints of one opcode say on a row holding it. *)
Definition op_eqs (o : opcode) T (r : Z) : Prop :=
  (if (height o =? 1)%Z then rmc T r = f0 else rmc T r = ofZ (height o - 1) \/ stp P T r = f0) /\
  forall e, In e (op_gates o) -> eval T r e = f0.

Lemma op_constraints_iff : forall T r k o, (149 < char P)%Z -> (0 <= k < n_opcodes)%Z ->
  ss_filled sel_col n_opcodes k T r ->
  ((forall e, In e (op_constraints (P := P) o) -> eval T r e = f0) <-> (k = byte o -> op_eqs o T r)).
Proof.
  intros T r k o BIG K HF. unfold op_constraints. rewrite all_cons, all_map.
  set (opt := ss_option sel_col n_opcodes (byte o)).
  pose proof (byte_range o) as BO.
  assert (NB : (1 <= n_opcodes < char P)%Z) by (unfold n_opcodes; lia).
  pose proof (ss_option_nz P T sel_col n_opcodes k (byte o) r NB K BO HF) as NZ. fold opt in NZ.
  assert (EM : (forall x, In x (op_gates o) -> eval T r (EBin OMul opt x) = f0) <->
               (eval T r opt = f0 \/ forall x, In x (op_gates o) -> eval T r x = f0)).
  { split.
    - intros H. destruct (F_dec P (eval T r opt) f0) as [E|E]; [left; exact E|right].
      intros x X. specialize (H x X). rewrite eval_bin in H. cbn [ebop] in H. apply fmul_integral in H. tauto.
    - intros [H|H] x X; rewrite eval_bin; cbn [ebop]; [rewrite H|rewrite (H x X)]; ring. }
  rewrite EM. clear EM.
  assert (EH : eval T r (if (height o =? 1)%Z then EBin OMul opt (rem 0)
      else EBin OMul (EBin OMul opt (EBin OSub (rem 0) (ecst (ofZ (height o - 1))))) (step 0)) = f0 <->
      (eval T r opt = f0 \/ if (height o =? 1)%Z then rmc T r = f0 else rmc T r = ofZ (height o - 1) \/ stp P T r = f0)).
  { unfold rem, step. destruct (height o =? 1)%Z; rewrite !eval_bin, !eval_wv, ?eval_ecst, !Z.add_0_r; cbn [ebop]; fold (rmc T r); fold (stp P T r).
    - split; [apply fmul_integral|]. intros [E|E]; rewrite E; ring.
    - split.
      + intros H. apply fmul_integral in H. destruct H as [H|H]; [|tauto].
        apply fmul_integral in H. destruct H as [H|H]; [tauto|]. right. left. apply fsub0. exact H.
      + intros [E|[E|E]]; rewrite E; ring. }
  rewrite EH. unfold op_eqs. split.
  - intros [H1 H2] E. symmetry in E. apply NZ in E. tauto.
  - intros H. destruct (F_dec P (eval T r opt) f0) as [E|E]; [tauto|].
    apply NZ in E. symmetry in E. specialize (H E). tauto.
Qed.

Lemma middle_iff : forall s_end T r, (149 < char P)%Z ->
  ((forall e, In e (middle_gate (P := P) s_end) -> eval T r e = f0) <->
   exists k j, (0 <= k < n_opcodes)%Z /\ ss_filled sel_col n_opcodes k T r /\
     (0 <= j < max_height)%Z /\ ss_filled row_col max_height j T r /\
     gen_eqs s_end T r /\ forall o, k = byte o -> op_eqs o T r).
Proof.
  intros s_end T r BIG. unfold middle_gate. rewrite !all_app, all_flat_map, generic_iff.
  rewrite !ss_iff by (unfold n_opcodes, max_height; lia).
  assert (ALL : forall Q : opcode -> Prop, (forall o, In o all_ops -> Q o) <-> forall o, Q o).
  { intros Q. split; intros H o; [apply H; destruct o; cbn; tauto|intros _; apply H]. }
  split.
  - intros [[k [K HK]] [[j [J HJ]] [G O]]]. exists k, j. repeat (split; [assumption|]).
    intros o. apply (op_constraints_iff T r k o BIG K HK). apply O. destruct o; cbn; tauto.
  - intros [k [j [K [HK [J [HJ [G O]]]]]]]. split; [exists k; auto|]. split; [exists j; auto|].
    split; [exact G|]. intros o _. apply (op_constraints_iff T r k o BIG K HK). apply O.
Qed.

Lemma opcode_filled : forall T r k, (149 < char P)%Z -> (0 <= k < n_opcodes)%Z ->
  ss_filled sel_col n_opcodes k T r -> opc T r = ofZ k.
Proof. intros T r k BIG K H. exact (H 0%Z ltac:(rewrite ss_w_opcodes; lia)). Qed.

Lemma small_inj : forall x y, (149 < char P)%Z -> (0 <= x < 149)%Z -> (0 <= y < 149)%Z ->
  (ofZ x : F) = ofZ y -> x = y.
Proof.
  intros x y BIG X Y E. apply (f_equal (@fval P)) in E. rewrite !fval_ofZ_small in E by lia. exact E.
Qed.

Section Sound.
Variables (s_start s_end s_mid : Z).
Hypothesis BIG : (149 < char P)%Z.

Lemma row_facts : forall T r, zk_sat s_start s_end s_mid T -> active s_mid T r ->
  gen_eqs s_end T r /\ forall o, opcode_at T r o -> op_eqs o T r.
Proof.
  intros T r [_ [_ H]] A. specialize (H r A). apply (middle_iff s_end T r BIG) in H.
  destruct H as [k [j [K [HK [J [HJ [G O]]]]]]]. split; [exact G|].
  intros o E. apply O. unfold opcode_at in E. fold (opc T r) in E.
  rewrite (opcode_filled T r k BIG K HK) in E. apply small_inj in E; [exact E|exact BIG|exact K|apply byte_range].
Qed.

(** A row that starts no opcode continues the opcode of the row before it. *)
Lemma step_zero : forall T r, zk_sat s_start s_end s_mid T -> active s_mid T (r - 1) -> active s_mid T r ->
  stp P T r = f0 ->
  opc T r = opc T (r - 1) /\ rmc T (r - 1) <> f0 /\ rmc T r = rmc T (r - 1) - f1.
Proof.
  intros T r H A1 A2 S. destruct (row_facts T r H A2) as [[G1 [G2 [G3 [G4 [G5 G6]]]]] _].
  destruct (row_facts T (r - 1) H A1) as [[K1 [K2 [K3 _]]] _].
  replace (r - 1 + 1)%Z with r in K3 by lia. rewrite S in *.
  assert (N : rmc T (r - 1) <> f0).
  { intros Z. rewrite Z in G5. apply (f1_neq_f0 P). lc (f1 : F) G5. }
  split; [apply fsub0; lc (f1 : F) G4|]. split; [exact N|].
  apply fmul_integral in K3. destruct K3 as [K3|K3]; [contradiction|]. lc (f1 : F) K3.
Qed.

Lemma rem_step : forall T r, zk_sat s_start s_end s_mid T -> active s_mid T r ->
  rmc T r <> f0 -> rmc T (r + 1) = rmc T r - f1.
Proof.
  intros T r H A N. destruct (row_facts T r H A) as [[_ [_ [K3 _]]] _].
  apply fmul_integral in K3. destruct K3 as [K3|K3]; [contradiction|]. lc (f1 : F) K3.
Qed.

Lemma step_forced : forall T r, zk_sat s_start s_end s_mid T -> active s_mid T r ->
  rmc T (r - 1) = f0 -> stp P T r = f1.
Proof.
  intros T r H A E. destruct (row_facts T r H A) as [[_ [_ [_ [_ [G5 _]]]]] _]. rewrite E in G5. symmetry. apply fsub0. lc (f1 : F) G5.
Qed.

Lemma regs_frozen : forall T r c, zk_sat s_start s_end s_mid T -> active s_mid T r ->
  T CSel s_end r = f0 -> stp P T (r + 1) <> f1 -> In c state_cols -> T CWit c (r + 1)%Z = T CWit c r.
Proof.
  intros T r c H A E N C. destruct (row_facts T r H A) as [[_ [_ [_ [_ [_ G6]]]]] _]. specialize (G6 c C). rewrite E in G6.
  apply fmul_integral in G6. destruct G6 as [G6|G6]; [|apply fsub0; exact G6].
  exfalso. apply N. symmetry. apply fsub0. lc (f1 : F) G6.
Qed.

Lemma ofZ_small_neq0 : forall z, (0 < z < 149)%Z -> (ofZ z : F) <> f0.
Proof. intros z Z E. apply (small_inj z 0%Z BIG) in E; lia. Qed.

Lemma start_rem : forall T r o, zk_sat s_start s_end s_mid T -> active s_mid T r ->
  opcode_at T r o -> stp P T r <> f0 -> rmc T r = ofZ (height o - 1).
Proof.
  intros T r o H A O S. destruct (row_facts T r H A) as [_ OP]. destruct (OP o O) as [E _].
  destruct (Z.eqb_spec (height o) 1) as [X|X]; [rewrite E, X; reflexivity|]. tauto.
Qed.

(** The blocks of a satisfied trace. *)
Lemma blocks : forall T a r, zk_sat s_start s_end s_mid T -> (a <= r)%Z ->
  (forall i, (a <= i <= r)%Z -> active s_mid T i /\ exists o, opcode_at T i o) ->
  stp P T a <> f0 ->
  exists s o, (a <= s <= r)%Z /\ (r < s + height o)%Z /\ stp P T s <> f0 /\
    (forall i, (s < i <= r)%Z -> stp P T i = f0) /\
    (forall i, (s <= i <= r)%Z -> opcode_at T i o) /\
    rmc T r = ofZ (height o - 1 - (r - s)).
Proof.
  intros T a r H AR. revert AR. replace r with (a + (r - a))%Z by lia. intros AR.
  assert (D : (0 <= r - a)%Z) by lia. clear AR. revert D. generalize (r - a)%Z. clear r.
  apply (natlike_ind (fun n => (forall i, (a <= i <= a + n)%Z -> active s_mid T i /\ exists o, opcode_at T i o) ->
    stp P T a <> f0 -> exists s o, (a <= s <= a + n)%Z /\ (a + n < s + height o)%Z /\ stp P T s <> f0 /\
    (forall i, (s < i <= a + n)%Z -> stp P T i = f0) /\
    (forall i, (s <= i <= a + n)%Z -> opcode_at T i o) /\
    rmc T (a + n) = ofZ (height o - 1 - (a + n - s)))).
  - intros HA S. destruct (HA a ltac:(lia)) as [A [o O]]. exists a, o. rewrite !Z.add_0_r.
    pose proof (height_range o). split; [lia|]. split; [lia|]. split; [exact S|]. split; [|split].
    + intros i I. lia.
    + intros i I. replace i with a by lia. exact O.
    + rewrite (start_rem T a o H A O S). f_equal. lia.
  - intros n N IH HA S. destruct (HA (a + Z.succ n)%Z ltac:(lia)) as [A [o O]].
    destruct (F_dec P (stp P T (a + Z.succ n)) f0) as [E|E].
    + destruct (IH ltac:(intros; apply HA; lia) S) as [s [o' [B1 [B2 [B3 [B4 [B5 B6]]]]]]].
      destruct (HA (a + n)%Z ltac:(lia)) as [A' _].
      replace (a + n)%Z with (a + Z.succ n - 1)%Z in A' by lia.
      destruct (step_zero T (a + Z.succ n)%Z H A' A E) as [C1 [C2 C3]].
      replace (a + Z.succ n - 1)%Z with (a + n)%Z in * by lia.
      assert (X : (a + Z.succ n < s + height o')%Z).
      { pose proof (height_range o').
        destruct (Z.eq_dec (height o' - 1 - (a + n - s)) 0) as [Y|Y]; [|lia].
        rewrite Y in B6. contradiction. }
      exists s, o'. split; [lia|]. split; [exact X|]. split; [exact B3|]. split; [|split].
      * intros i I. destruct (Z.eq_dec i (a + Z.succ n)) as [->|Y]; [exact E|]. apply B4. lia.
      * intros i I. destruct (Z.eq_dec i (a + Z.succ n)) as [->|Y]; [|apply B5; lia].
        unfold opcode_at. fold (opc T (a + Z.succ n)). rewrite C1. apply (B5 (a + n)%Z). lia.
      * rewrite C3, B6. replace (height o' - 1 - (a + Z.succ n - s))%Z with (height o' - 1 - (a + n - s) - 1)%Z by lia.
        rewrite (ofZ_sub P _ 1). reflexivity.
    + exists (a + Z.succ n)%Z, o. pose proof (height_range o). split; [lia|]. split; [lia|]. split; [exact E|]. split; [|split].
      * intros i I. lia.
      * intros i I. replace i with (a + Z.succ n)%Z by lia. exact O.
      * rewrite (start_rem T _ o H A O E). f_equal. lia.
Qed.

(** The second row of a multi-row opcode, when nothing can start there. *)
Lemma second_row : forall T r o, zk_sat s_start s_end s_mid T -> active s_mid T r -> active s_mid T (r + 1) ->
  opcode_at T r o -> (height o = 3)%Z -> stp P T r <> f0 -> (exists o', opcode_at T (r + 1) o') ->
  opcode_at T (r + 1) o.
Proof.
  intros T r o H A1 A2 O HO S [o' O'].
  pose proof (start_rem T r o H A1 O S) as R. rewrite HO in R. change (3 - 1)%Z with 2%Z in R.
  assert (R1 : rmc T (r + 1) = ofZ 1).
  { rewrite (rem_step T r H A1) by (rewrite R; apply ofZ_small_neq0; lia). rewrite R. change (f1 : F) with (ofZ (P := P) 1).
    rewrite <- ofZ_sub. reflexivity. }
  assert (S1 : stp P T (r + 1) = f0).
  { destruct (F_dec P (stp P T (r + 1)) f0) as [E|E]; [exact E|exfalso].
    pose proof (start_rem T (r + 1) o' H A2 O' E) as R'. rewrite R1 in R'.
    apply (small_inj 1%Z) in R'; [|exact BIG|lia|pose proof (height_range o'); lia].
    destruct o'; cbn in R'; lia. }
  replace r with (r + 1 - 1)%Z in A1 by lia.
  destruct (step_zero T (r + 1) H A1 A2 S1) as [E _]. replace (r + 1 - 1)%Z with r in E by lia.
  unfold opcode_at. fold (opc T (r + 1)). rewrite E. exact O.
Qed.

Lemma add_sub_row : forall T r o, zk_sat s_start s_end s_mid T -> active s_mid T r -> active s_mid T (r + 1) ->
  o = ADD \/ o = SUB -> opcode_at T r o -> stp P T r <> f0 -> (exists o', opcode_at T (r + 1) o') ->
  add_eqs P T (r + 1).
Proof.
  intros T r o H A1 A2 HO O S I.
  assert (O' : opcode_at T (r + 1) o) by (apply second_row; auto; destruct HO; subst o; reflexivity).
  destruct (row_facts T (r + 1) H A2) as [_ OP]. destruct (OP o O') as [_ G].
  apply (add_gates_iff P T (r + 1)); [replace (r + 1 - 1)%Z with r by lia; exact S|].
  destruct HO; subst o; exact G.
Qed.

Lemma mul_row : forall T r, zk_sat s_start s_end s_mid T -> active s_mid T r -> active s_mid T (r + 1) ->
  opcode_at T r MUL -> stp P T r <> f0 -> (exists o', opcode_at T (r + 1) o') -> mul_eqs P T (r + 1).
Proof.
  intros T r H A1 A2 O S I.
  assert (O' : opcode_at T (r + 1) MUL) by (apply second_row; auto).
  destruct (row_facts T (r + 1) H A2) as [_ OP]. destruct (OP MUL O') as [_ G].
  apply (mul_gates_iff P T (r + 1)); [replace (r + 1 - 1)%Z with r by lia; exact S|exact G].
Qed.

Lemma iszero_row : forall T r, zk_sat s_start s_end s_mid T -> active s_mid T r -> opcode_at T r ISZERO ->
  iszero_eqs P T r.
Proof.
  intros T r H A O. destruct (row_facts T r H A) as [_ OP]. destruct (OP ISZERO O) as [_ G].
  apply iszero_gates_iff. exact G.
Qed.

Lemma div_rows : forall T r, zk_sat s_start s_end s_mid T ->
  active s_mid T r -> active s_mid T (r + 1) -> active s_mid T (r + 2) ->
  opcode_at T r DIV -> stp P T r <> f0 -> stp P T (r + 1) = f0 -> (exists o', opcode_at T (r + 2) o') ->
  div_eqs1 P T (r + 1) /\
  (T CWit (row_col 0) (r + 2)%Z = f1 -> oc P T 21 (r + 1) * csum P T 0 (r + 1) = f0 \/ div_eqs2 P T (r + 2)).
Proof.
  intros T r H A1 A2 A3 O S S1 [o' O'].
  pose proof (start_rem T r DIV H A1 O S) as R. change (height DIV - 1)%Z with 3%Z in R.
  assert (E1 : r = (r + 1 - 1)%Z) by lia. assert (E2 : (r + 2 = r + 1 + 1)%Z) by lia.
  rewrite E1 in A1. destruct (step_zero T (r + 1) H A1 A2 S1) as [C1 [C2 C3]]. rewrite <- E1 in *.
  assert (O1 : opcode_at T (r + 1) DIV) by (unfold opcode_at; fold (opc T (r + 1)); rewrite C1; exact O).
  assert (R1 : rmc T (r + 1) = ofZ 2) by (rewrite C3, R; change (f1 : F) with (ofZ (P := P) 1); rewrite <- ofZ_sub; reflexivity).
  assert (R2 : rmc T (r + 2) = ofZ 1).
  { rewrite E2, (rem_step T (r + 1) H A2) by (rewrite R1; apply ofZ_small_neq0; lia). rewrite R1.
    change (f1 : F) with (ofZ (P := P) 1). rewrite <- ofZ_sub. reflexivity. }
  assert (S2 : stp P T (r + 2) = f0).
  { destruct (F_dec P (stp P T (r + 2)) f0) as [E|E]; [exact E|exfalso].
    pose proof (start_rem T (r + 2) o' H A3 O' E) as R'. rewrite R2 in R'.
    apply (small_inj 1%Z) in R'; [|exact BIG|lia|pose proof (height_range o'); lia].
    destruct o'; cbn in R'; lia. }
  assert (E3 : (r + 1 = r + 2 - 1)%Z) by lia.
  assert (A2' := A2). rewrite E3 in A2'. destruct (step_zero T (r + 2) H A2' A3 S2) as [C4 _]. rewrite <- E3 in C4.
  assert (O2 : opcode_at T (r + 2) DIV) by (unfold opcode_at; fold (opc T (r + 2)); rewrite C4; exact O1).
  destruct (row_facts T (r + 1) H A2) as [_ OP1]. destruct (OP1 DIV O1) as [_ G1].
  apply (div_gates_iff P T (r + 1)) in G1. rewrite <- E1 in G1. split; [tauto|].
  intros RS. destruct H as [_ [_ H]]. pose proof (proj1 (middle_iff s_end T (r + 2) BIG) (H (r + 2)%Z A3)) as M.
  destruct M as [k [j [K [HK [J [HJ [G OO]]]]]]].
  assert (KJ : k = byte DIV).
  { pose proof (opcode_filled T (r + 2) k BIG K HK) as X. unfold opcode_at in O2. fold (opc T (r + 2)) in O2. rewrite X in O2.
    apply small_inj in O2; [exact O2|exact BIG|exact K|apply byte_range]. }
  destruct (OO DIV KJ) as [_ G2]. apply (div_gates_iff P T (r + 2)) in G2. destruct G2 as [_ G2].
  rewrite <- E3 in G2. destruct G2 as [G2|G2]; [exfalso|exact G2].
  assert (J1 : j = 1%Z).
  { pose proof (HJ 0%Z ltac:(rewrite ss_w_rows; lia)) as X. rewrite RS in X. change (ss_val max_height j 0) with (ofZ (P := P) j) in X.
    change (f1 : F) with (ofZ (P := P) 1) in X. unfold max_height in J.
    symmetry in X. apply small_inj in X; [exact X|exact BIG|lia|lia]. }
  revert G2. apply (ss_option_nz P T row_col max_height j 1 (r + 2)); unfold max_height in *; try lia. exact HJ.
Qed.
End Sound.
End Mid.
