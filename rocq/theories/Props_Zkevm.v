(** Properties of the zkEVM circuit: state selector, opcode gates, traces. *)
From Coq Require Import ZArith List Lia Bool.
From Verif Require Import Base Field Primes Plonk PlonkFacts Bits CompareModel Examples
  ZkevmModel ZkevmSel ZkevmArith ZkevmOps ZkevmProofs ZkevmRun.
Import ListNotations.
Open Scope Z_scope.

(** ** The state selector *)
Theorem state_selector_sound : forall P (L : lenv P) (T : table P) c n x row,
  1 <= n < char P -> sat L T (ss_circuit c n x row) ->
  exists k, 0 <= k < n /\ T CWit (W c 0) row = ofZ k /\
    forall o, 0 <= o < n -> (eval T row (ss_option (W c) n o) <> f0 <-> o = k).
Proof.
  intros P L T c n x row N H.
  assert (G : forall e, In e (ss_constraints (W c) n) -> eval T row e = f0).
  { specialize (H _ (or_introl eq_refl)). cbn [holds] in H. apply H. left. reflexivity. }
  apply (ss_iff P T (W c) n row N) in G. destruct G as [k [K HF]]. exists k. split; [exact K|]. split.
  - apply (HF 0). pose proof (ss_w_lo n ltac:(lia)). lia.
  - intros o O. apply (ss_option_nz P T (W c) n k o row N K O HF).
Qed.
Print Assumptions state_selector_sound.

Theorem state_selector_complete : forall P (L : lenv P) (T : table P) c n x row,
  1 <= n < char P -> wf_comp c (ss_w n) -> outside c 1 row x -> fval (vval T x) < n ->
  let T' := ss_assign (W c) n (vval T x) row T in
  sat L T' (ss_circuit c n x row) /\ frame c 1 row T T' /\ T' CWit (W c 0) row = vval T' x.
Proof.
  intros P L T c n x row N WF OUT V T'.
  pose proof (fval_range P (vval T x)) as VR.
  assert (FL : ss_filled (W c) n (fval (vval T x)) T' row).
  { unfold T'. rewrite <- (ofZ_fval P (vval T x)) at 2. apply ss_assign_filled; [exact N|lia|].
    intros i j I J E. apply (W_inj c (ss_w n)); assumption. }
  assert (FR : frame c 1 row T T').
  { intros ty col r NI. unfold T'. apply ss_assign_other; [|lia|lia].
    destruct ty; try (left; discriminate). destruct (Z.eq_dec r row) as [->|D]; [|tauto].
    right. right. intros j J E. apply NI. split; [reflexivity|]. split; [rewrite E; apply (W_In c (ss_w n)); exact WF|lia]. }
  split; [|split; [exact FR|]].
  - intros cm [<-|[]]. cbn [holds]. intros r [<-|[]]. apply (ss_iff P T' (W c) n row N). exists (fval (vval T x)). split; [lia|exact FL].
  - rewrite (vval_frame P c 1 row T T' x FR OUT).
    rewrite (FL 0) by (pose proof (ss_w_lo n ltac:(lia)); lia). unfold ss_val. cbn [Z.eqb]. apply ofZ_fval.
Qed.
Print Assumptions state_selector_complete.

Example state_selector_example :
  let T := ss_assign (W (std_comp 6)) 7 (ofZ 5) 2 (intab Pbls [5]) in
  wf_comp (std_comp 6) (ss_w 7) /\ sat (noL Pbls) T (ss_circuit (std_comp 6) 7 (pin 0) 2) /\
  map (fun o => feqb (eval T 2 (ss_option (W (std_comp 6)) 7 o)) f0) [0; 1; 2; 3; 4; 5; 6]
  = [true; true; true; true; true; false; true].
Proof.
  split; [change (ss_w 7) with 6; apply wf_std; lia|]. split.
  - apply satb_sat. vm_compute. reflexivity.
  - vm_compute. reflexivity.
Qed.

(** The standalone component never copies its input into W(0). *)
Theorem state_selector_input_refuted :
  exists (T : table Pbls), sat (noL Pbls) T (ss_circuit (std_comp 6) 7 (pin 0) 2) /\
    vval T (pin 0) = ofZ 5 /\ T CWit 0 2 <> vval T (pin 0).
Proof.
  exists (ss_assign (W (std_comp 6)) 7 (ofZ 1) 2 (intab Pbls [5])). split; [|split].
  - apply satb_sat. vm_compute. reflexivity.
  - reflexivity.
  - apply fval_neq. vm_compute. discriminate.
Qed.
Print Assumptions state_selector_input_refuted.

(** ** Rows of a satisfied trace *)

(** Inside a trace each row either starts an opcode or continues the one before
    it; no opcode outlives its height; after its last row a new one must start. *)
Theorem zkevm_trace_blocks : forall P s_start s_end s_mid (T : table P) a r,
  149 < char P -> zk_sat s_start s_end s_mid T -> a <= r ->
  (forall i, a <= i <= r -> active s_mid T i /\ exists o, opcode_at T i o) ->
  T CWit col_step a <> f0 ->
  exists s o, a <= s <= r /\ r < s + height o /\ T CWit col_step s <> f0 /\
    (forall i, s < i <= r -> T CWit col_step i = f0) /\
    (forall i, s <= i <= r -> opcode_at T i o) /\
    T CWit col_rem r = ofZ (height o - 1 - (r - s)) /\
    (r = s + height o - 1 -> active s_mid T (r + 1) -> T CWit col_step (r + 1) = f1).
Proof.
  intros P s_start s_end s_mid T a r BIG H AR HA S.
  destruct (blocks P s_start s_end s_mid BIG T a r H AR HA S) as [s [o [B1 [B2 [B3 [B4 [B5 B6]]]]]]].
  exists s, o. split; [exact B1|]. split; [exact B2|]. split; [exact B3|]. split; [exact B4|].
  split; [exact B5|]. split; [exact B6|].
  intros E A. apply (step_forced P s_start s_end s_mid BIG T (r + 1) H A).
  replace (r + 1 - 1) with r by lia. rewrite B6. replace (height o - 1 - (r - s)) with 0 by lia. reflexivity.
Qed.
Print Assumptions zkevm_trace_blocks.

(** The state columns can change only where a new opcode starts. *)
Theorem zkevm_state_frozen : forall P s_start s_end s_mid (T : table P) r c,
  149 < char P -> zk_sat s_start s_end s_mid T -> active s_mid T r -> T CSel s_end r = f0 ->
  T CWit col_step (r + 1) <> f1 -> In c [col_pc; col_stack; col_mem; col_gas] ->
  T CWit c (r + 1) = T CWit c r.
Proof.
  intros P s_start s_end s_mid T r c BIG H A E N C.
  exact (regs_frozen P s_start s_end s_mid BIG T r c H A E N C).
Qed.
Print Assumptions zkevm_state_frozen.

(** ** Opcodes *)
Theorem zkevm_add_sound : forall P s_start s_end s_mid (T : table P) r,
  2 ^ 51 < char P -> zk_sat s_start s_end s_mid T ->
  active s_mid T r -> active s_mid T (r + 1) ->
  opcode_at T r ADD -> T CWit col_step r <> f0 -> (exists o, opcode_at T (r + 1) o) ->
  chunks16 T 0 16 r -> chunks16 T 0 16 (r + 1) -> chunks16 T 0 16 (r + 2) ->
  word T 0 (r + 2) = (word T 0 r + word T 0 (r + 1)) mod 2 ^ 256.
Proof.
  intros P s_start s_end s_mid T r BIG H A1 A2 O S I C0 C1 C2.
  assert (E : add_eqs P T (r + 1)) by (apply (add_sub_row P s_start s_end s_mid ltac:(lia) T r ADD); auto).
  symmetry. replace (r + 2) with (r + 1 + 1) in * by lia.
  pose proof (add_sound P T (r + 1) BIG) as X. replace (r + 1 - 1) with r in X by lia. apply X; assumption.
Qed.
Print Assumptions zkevm_add_sound.

(** SUB keeps the difference in the first row and the minuend in the third. *)
Theorem zkevm_sub_sound : forall P s_start s_end s_mid (T : table P) r,
  2 ^ 51 < char P -> zk_sat s_start s_end s_mid T ->
  active s_mid T r -> active s_mid T (r + 1) ->
  opcode_at T r SUB -> T CWit col_step r <> f0 -> (exists o, opcode_at T (r + 1) o) ->
  chunks16 T 0 16 r -> chunks16 T 0 16 (r + 1) -> chunks16 T 0 16 (r + 2) ->
  word T 0 r = (word T 0 (r + 2) - word T 0 (r + 1)) mod 2 ^ 256.
Proof.
  intros P s_start s_end s_mid T r BIG H A1 A2 O S I C0 C1 C2.
  assert (E : add_eqs P T (r + 1)) by (apply (add_sub_row P s_start s_end s_mid ltac:(lia) T r SUB); auto).
  pose proof (add_sound P T (r + 1) BIG) as X. replace (r + 1 - 1) with r in X by lia.
  replace (r + 1 + 1) with (r + 2) in X by lia. rewrite <- X by assumption.
  rewrite Zminus_mod_idemp_l. replace (word T 0 r + word T 0 (r + 1) - word T 0 (r + 1)) with (word T 0 r) by lia.
  symmetry. apply Z.mod_small. apply (word_bound P). assumption.
Qed.
Print Assumptions zkevm_sub_sound.

Theorem zkevm_mul_sound : forall P s_start s_end s_mid (T : table P) r,
  2 ^ 196 < char P -> zk_sat s_start s_end s_mid T ->
  active s_mid T r -> active s_mid T (r + 1) ->
  opcode_at T r MUL -> T CWit col_step r <> f0 -> (exists o, opcode_at T (r + 1) o) ->
  chunks16 T 0 20 r -> chunks16 T 0 20 (r + 1) -> chunks16 T 0 16 (r + 2) ->
  word T 0 (r + 2) = (word T 0 r * word T 0 (r + 1)) mod 2 ^ 256.
Proof.
  intros P s_start s_end s_mid T r BIG H A1 A2 O S I C0 C1 C2.
  assert (E : mul_eqs P T (r + 1)) by (apply (mul_row P s_start s_end s_mid ltac:(lia) T r); auto).
  symmetry. replace (r + 2) with (r + 1 + 1) in * by lia.
  pose proof (mul_sound P T (r + 1) BIG) as X. replace (r + 1 - 1) with r in X by lia. apply X; assumption.
Qed.
Print Assumptions zkevm_mul_sound.

Theorem zkevm_iszero_sound : forall P s_start s_end s_mid (T : table P) r,
  2 ^ 21 < char P -> zk_sat s_start s_end s_mid T -> active s_mid T r -> opcode_at T r ISZERO ->
  chunks16 T 0 16 r ->
  word T 16 r = if word T 0 r =? 0 then 1 else 0.
Proof.
  intros P s_start s_end s_mid T r BIG H A O C.
  apply iszero_sound; [exact BIG|exact C|].
  apply (iszero_row P s_start s_end s_mid ltac:(lia) T r); assumption.
Qed.
Print Assumptions zkevm_iszero_sound.

Lemma word_def : forall P (T : table P) c r, word T c r = wordsum (fun i => fval (T CWit (op_col (c + i)) r)) 16.
Proof. intros. unfold word. reflexivity. Qed.

Lemma word_cells : forall P (T : table P) r s, chunks16 T 0 16 r -> chunks16 T 16 16 s ->
  word T 0 r = word T 16 s -> forall i, 0 <= i < 16 -> oc P T i r = oc P T (16 + i) s.
Proof.
  intros P T r s C1 C2 E i I. rewrite !word_def in E. apply F_ext.
  apply (wordsum_unique _ _ 16 ltac:(lia)) with (i := i) in E; [exact E| | |exact I].
  - intros k K. split; [apply fval_range|]. apply C1. exact K.
  - intros k K. split; [apply fval_range|]. apply C2. exact K.
Qed.

(** What DIV does enforce: the product relation modulo 2^256, a zero quotient for
    a zero divisor and, if the row selector of the third row is honest, a
    remainder different from the divisor. *)
Theorem zkevm_div_sound : forall P s_start s_end s_mid (T : table P) r,
  2 ^ 196 < char P -> zk_sat s_start s_end s_mid T ->
  active s_mid T r -> active s_mid T (r + 1) -> active s_mid T (r + 2) ->
  opcode_at T r DIV -> T CWit col_step r <> f0 -> T CWit col_step (r + 1) = f0 ->
  (exists o, opcode_at T (r + 2) o) ->
  chunks16 T 0 20 r -> chunks16 T 0 20 (r + 1) -> chunks16 T 0 32 (r + 2) ->
  let a := word T 0 r in let b := word T 0 (r + 1) in
  let q := word T 0 (r + 2) in let m := word T 16 (r + 2) in
  (q * b + m) mod 2 ^ 256 = a /\ (b = 0 -> q = 0 /\ m = a) /\
  (b <> 0 -> T CWit (row_col 0) (r + 2) = f1 -> m <> b).
Proof.
  intros P s_start s_end s_mid T r BIG H A1 A2 A3 O S S1 I C0 C1 C2. cbv zeta.
  destruct (div_rows P s_start s_end s_mid ltac:(lia) T r H A1 A2 A3 O S S1 I) as [D1 D2].
  assert (E1 : r + 1 - 1 = r) by lia. assert (E2 : r + 1 + 1 = r + 2) by lia. assert (E3 : r + 2 - 1 = r + 1) by lia.
  pose proof (div_sound1 P T (r + 1) BIG) as X. rewrite E1, E2 in X.
  destruct (X C0 C1 C2 D1) as [X1 [X2 X3]].
  pose proof (div_sound2 P T (r + 2)) as Y2. rewrite E3 in Y2.
  assert (C3 : chunks16 T 16 16 (r + 2)) by (intros i J; apply (C2 (16 + i)); lia).
  assert (C4 : chunks16 T 0 16 (r + 1)) by (intros i J; apply (C1 i); lia).
  clear X D1 C0 C1 C2.
  split; [exact X1|]. split.
  - intros B0. specialize (X2 B0). split; [exact X2|]. rewrite X2, Z.mul_0_l, Z.add_0_l in X1. rewrite <- X1. symmetry.
    apply Z.mod_small. apply (word_bound P). exact C3.
  - intros B0 RS E. specialize (X3 B0). destruct (D2 RS) as [Y|Y].
    + rewrite X3 in Y. exact (f1_neq_f0 P Y).
    + apply Y2 in Y. destruct Y as [i [J N]]. apply N. apply (word_cells P T _ _ C4 C3 (eq_sym E) i J).
Qed.
Print Assumptions zkevm_div_sound.

(** ** Honest runs *)
Theorem zkevm_program_complete : forall P s_start s_end s_mid (T : table P) start ops,
  2 ^ 196 < char P ->
  s_start <> s_end -> s_start <> s_mid -> s_end <> s_mid ->
  (forall s r, In s [s_start; s_end; s_mid] -> T CSel s r = f0) ->
  T CWit col_step (start - 1) = f0 ->
  ops <> [] -> Forall (fun x => Forall is_word (snd (fst x))) ops ->
  Forall (fun x => length (snd (fst x)) >= match fst (fst x) with ISZERO => 1 | _ => 2 end)%nat ops ->
  (forall l1 x y l2, ops = l1 ++ x :: y :: l2 -> fst (fst x) = ISZERO -> fst (fst y) = ISZERO) ->
  exists T' fin, zk_run s_start s_end s_mid T start ops = Some (T', fin) /\
    zk_sat s_start s_end s_mid T' /\ laid P T' start ops /\
    fin = start + fold_right (fun x z => height (fst (fst x)) + z) 0 ops /\
    (forall r, start <= r < fin -> active s_mid T' r) /\
    (forall c r, r < start \/ fin <= r -> T' CWit c r = T CWit c r).
Proof.
  intros P s_start s_end s_mid T start ops BIG N1 N2 N3 SZ ST NE FW DP SQ.
  assert (B149 : 149 < char P) by lia.
  assert (SQ' : seq_ok P ops).
  { clear - SQ. induction ops as [|[[o stk] g] rest IH]; [exact I|]. cbn [seq_ok]. split.
    - destruct rest as [|[[o' stk'] g'] rest']; [exact I|]. intros HO.
      assert (o = ISZERO) by (destruct o; cbn in HO; try lia; reflexivity). subst o.
      specialize (SQ [] _ _ rest' eq_refl eq_refl). cbn in SQ. subst o'. reflexivity.
    - apply IH. intros l1 x y l2 E HX. apply (SQ ((o, stk, g) :: l1) x y l2); [rewrite E; reflexivity|exact HX]. }
  destruct (zk_complete P B149 BIG s_start s_end s_mid T start ops N1 N2 N3 SZ ST NE FW SQ' DP) as [T' [fin [R [L [S [A F]]]]]].
  destruct (zk_run_laid P B149 BIG _ _ _ _ _ _ _ _ R FW) as [LD FE].
  exists T', fin. auto 10.
Qed.
Print Assumptions zkevm_program_complete.

Theorem zkevm_machine_unchanged : forall P s_mid (T : table P) cur o stk g T' cur' stk',
  2 ^ 196 < char P -> assign_opcode s_mid T cur o stk g = Some (T', cur', stk') -> stk' = stk.
Proof.
  intros P s_mid T cur o stk g T' cur' stk' BIG H.
  exact (assign_opcode_stack P ltac:(lia) BIG s_mid T cur o stk g T' cur' stk' H).
Qed.
Print Assumptions zkevm_machine_unchanged.

(** ** Concrete tables *)
Definition zt : table Pbls := fun _ _ _ => f0.
Definition eg_regs : regs Pbls := mkRegs (ofZ 1) (ofZ 2) (ofZ 3) (ofZ 4).
Definition zk_rows_ok (s_end : Z) (T : table Pbls) (rows : list Z) : bool :=
  forallb (fun r => forallb (fun e => feqb (eval T r e) f0) (middle_gate s_end)) rows.

Definition eg_prog : list (opcode * list Z * regs Pbls) :=
  [(ADD, [2 ^ 256 - 5; 12], eg_regs); (SUB, [3; 10], eg_regs); (MUL, [2 ^ 200 + 7; 2 ^ 100 + 3], eg_regs);
   (DIV, [100; 7], eg_regs); (DIV, [100; 0], eg_regs); (ISZERO, [0], eg_regs); (ISZERO, [9], eg_regs)].

Lemma bls_big : 2 ^ 196 < char Pbls. Proof. vm_compute. reflexivity. Qed.

Example zkevm_program_example :
  exists T' fin, zk_run 0 1 2 zt 1 eg_prog = Some (T', fin) /\ fin = 20 /\ zk_sat 0 1 2 T' /\
    word T' 0 3 = 7 /\ word T' 0 4 = 2 ^ 256 - 7 /\ word T' 0 12 = 14 /\ word T' 16 12 = 2.
Proof.
  assert (H1 : Forall (fun x => Forall is_word (snd (fst x))) eg_prog).
  { unfold eg_prog, is_word. repeat (constructor; cbn [fst snd]); lia. }
  assert (H2 : Forall (fun x => length (snd (fst x)) >= match fst (fst x) with ISZERO => 1 | _ => 2 end)%nat eg_prog).
  { unfold eg_prog. repeat (constructor; cbn [fst snd length]); lia. }
  assert (H3 : forall l1 x y l2, eg_prog = l1 ++ x :: y :: l2 -> fst (fst x) = ISZERO -> fst (fst y) = ISZERO).
  { unfold eg_prog. intros l1 x y l2 E HX.
    do 6 (destruct l1 as [|? l1]; [injection E as <- <- _; cbn [fst] in *; congruence|]; injection E as _ E).
    destruct l1 as [|? [|? ?]]; discriminate. }
  destruct (zkevm_program_complete Pbls 0 1 2 zt 1 eg_prog bls_big ltac:(lia) ltac:(lia) ltac:(lia)
    (fun _ _ _ => eq_refl) eq_refl ltac:(discriminate) H1 H2 H3) as [T' [fin [R [S [L [F _]]]]]].
  exists T', fin. split; [exact R|]. split; [rewrite F; reflexivity|]. split; [exact S|].
  cbn [eg_prog laid] in L.
  destruct L as [_ [_ [_ [L1 [_ [_ [_ [L2 [_ [_ [_ [_ [_ [_ [_ [L4 _]]]]]]]]]]]]]]]].
  cbn [shows] in L1, L2, L4. destruct L1 as [_ [_ L1]]. destruct L2 as [_ [_ L2]]. destruct L4 as [_ [_ [L4 L5]]].
  split; [exact L1|]. split; [exact L2|]. split; [exact L4|exact L5].
Qed.

(** ** Concrete traces: rows given cell by cell *)

(** One row: opcode, step selection, rows until the next opcode, the option
    taken by the row selector, state variables. *)
Definition row_ws (r : Z) (o : opcode) (st rm rs : Z) (g : regs Pbls) : list (Z * Z * F Pbls) :=
  map (fun j => (sel_col j, r, ss_val n_opcodes (byte o) j)) (zseq 0 (ss_w n_opcodes)) ++
  map (fun j => (row_col j, r, ss_val max_height rs j)) (zseq 0 (ss_w max_height)) ++
  [(col_pc, r, r_pc g); (col_stack, r, r_stack g); (col_mem, r, r_mem g); (col_gas, r, r_gas g);
   (col_step, r, ofZ st); (col_rem, r, ofZ rm); (col_inv, r, inv0 (ofZ rm))].

(** Rows [0 .. n-1] active, start gate on row 0, end gate on row [n-1]. *)
Definition rtab (n : Z) (ws : list (Z * Z * F Pbls)) : table Pbls :=
  wsets (fun ty c r => if ctype_eqb ty CSel && (((c =? 0) && (r =? 0)) || ((c =? 1) && (r =? n - 1))
                            || ((c =? 2) && ((0 <=? r) && (r <? n)))) then f1 else f0) ws.

Lemma wsets_sel : forall (ws : list (Z * Z * F Pbls)) T c r, wsets T ws CSel c r = T CSel c r.
Proof.
  induction ws as [|[[c' r'] v] ws IH]; intros T c r; [reflexivity|].
  change (wsets T ((c', r', v) :: ws)) with (wsets (wset T c' r' v) ws). rewrite IH. reflexivity.
Qed.

Lemma rtab_sel : forall n ws c r, rtab n ws CSel c r =
  if ((c =? 0) && (r =? 0)) || ((c =? 1) && (r =? n - 1)) || ((c =? 2) && ((0 <=? r) && (r <? n))) then f1 else f0.
Proof. intros. unfold rtab. rewrite wsets_sel. reflexivity. Qed.

Lemma rtab_sat : forall n ws, rtab n ws CWit col_step 0 = f1 ->
  zk_rows_ok 1 (rtab n ws) (zseq 0 n) = true -> zk_sat 0 1 2 (rtab n ws).
Proof.
  intros n ws S H. unfold zk_rows_ok in H. rewrite forallb_forall in H. split; [|split].
  - intros r A e [<-|[]]. rewrite rtab_sel in A. cbn [Z.eqb andb orb] in A.
    destruct (Z.eqb_spec r 0) as [D|D]; [|cbn [orb andb] in A; congruence].
    rewrite D. unfold step. rewrite eval_bin, eval_wv, eval_ecst, Z.add_0_l, S. reflexivity.
  - intros r A e [].
  - intros r A e I. rewrite rtab_sel in A. cbn [Z.eqb Pos.eqb andb orb] in A.
    assert (R : 0 <= r < n) by (destruct (Z.leb_spec 0 r), (Z.ltb_spec r n); cbn [andb] in A; try lia; congruence).
    specialize (H r (proj2 (in_zseq 0 n r) R)). rewrite forallb_forall in H. apply feqb_eq. apply H. exact I.
Qed.

Lemma rtab_active : forall n ws r, 0 <= r < n -> active 2 (rtab n ws) r.
Proof.
  intros n ws r R. unfold active. rewrite rtab_sel. cbn [Z.eqb Pos.eqb andb orb].
  destruct (Z.leb_spec 0 r), (Z.ltb_spec r n); try lia. cbn [andb]. apply f1_neq_f0.
Qed.

Lemma sat_rows_ok : forall (T : table Pbls) rows, zk_sat 0 1 2 T ->
  forallb (fun r => negb (feqb (T CSel 2 r) f0)) rows = true -> zk_rows_ok 1 T rows = true.
Proof.
  intros T rows [_ [_ H]] A. unfold zk_rows_ok. apply forallb_forall. intros r R. apply forallb_forall. intros e I.
  rewrite forallb_forall in A. specialize (A r R). apply feqb_eq. apply H; [|exact I].
  intros X. rewrite X in A. cbn in A. discriminate.
Qed.

Definition chunks16b (T : table Pbls) (c0 n r : Z) : bool :=
  forallb (fun i => fval (T CWit (op_col (c0 + i)) r) <? 2 ^ 16) (zseq 0 n).
Lemma chunks16b_ok : forall T c0 n r, chunks16b T c0 n r = true -> chunks16 T c0 n r.
Proof.
  intros T c0 n r H i I. unfold chunks16b in H. rewrite forallb_forall in H. apply Z.ltb_lt. apply H. apply in_zseq. exact I.
Qed.
Lemma rows4 : forall Q : Z -> Prop, Q 0 -> Q 1 -> Q 2 -> Q 3 -> forall r, 0 <= r < 4 -> Q r.
Proof. intros Q H0 H1 H2 H3 r R. assert (r = 0 \/ r = 1 \/ r = 2 \/ r = 3) as [->|[->|[->| ->]]] by lia; assumption. Qed.
Lemma rows3 : forall Q : Z -> Prop, Q 0 -> Q 1 -> Q 2 -> forall r, 0 <= r < 3 -> Q r.
Proof. intros Q H0 H1 H2 r R. assert (r = 0 \/ r = 1 \/ r = 2) as [->|[->| ->]] by lia; assumption. Qed.

Definition four_rows (ws : list (Z * Z * F Pbls)) : list (Z * Z * F Pbls) :=
  ws ++ row_ws 0 DIV 1 3 3 eg_regs ++ row_ws 1 DIV 0 2 2 eg_regs ++ row_ws 2 DIV 0 1 1 eg_regs ++ row_ws 3 DIV 0 0 0 eg_regs.

(** The hypotheses of [zkevm_div_sound] hold for an honest division. *)
Example zkevm_div_example :
  let T := rtab 4 (four_rows (div_writes Pbls 0 100 7 14 2)) in
  zk_sat 0 1 2 T /\ opcode_at T 0 DIV /\ T CWit col_step 0 <> f0 /\ T CWit col_step 1 = f0 /\ opcode_at T 2 DIV /\
  chunks16 T 0 20 0 /\ chunks16 T 0 20 1 /\ chunks16 T 0 32 2 /\ T CWit (row_col 0) 2 = f1 /\
  word T 0 0 = 100 /\ word T 0 1 = 7 /\ word T 0 2 = 14 /\ word T 16 2 = 2.
Proof.
  cbv zeta.
  split; [apply rtab_sat; vm_compute; reflexivity|].
  split; [vm_compute; reflexivity|]. split; [apply fval_neq; vm_compute; discriminate|].
  split; [vm_compute; reflexivity|]. split; [vm_compute; reflexivity|].
  split; [apply chunks16b_ok; vm_compute; reflexivity|]. split; [apply chunks16b_ok; vm_compute; reflexivity|].
  split; [apply chunks16b_ok; vm_compute; reflexivity|]. split; [vm_compute; reflexivity|].
  split; [vm_compute; reflexivity|]. split; [vm_compute; reflexivity|]. split; vm_compute; reflexivity.
Qed.

(** A remainder equal to the divisor, with another option in the row selector:
    3 / 3 = 0. *)
Theorem zkevm_div_row_selector_refuted :
  exists T : table Pbls, zk_sat 0 1 2 T /\ (forall r, 0 <= r < 4 -> active 2 T r /\ opcode_at T r DIV) /\
    T CWit col_step 0 = f1 /\ chunks16 T 0 20 0 /\ chunks16 T 0 20 1 /\ chunks16 T 0 32 2 /\
    word T 0 0 = 3 /\ word T 0 1 = 3 /\ word T 0 2 = 0 /\ word T 16 2 = 3.
Proof.
  exists (rtab 4 (div_writes Pbls 0 3 3 0 3 ++ row_ws 0 DIV 1 3 3 eg_regs ++ row_ws 1 DIV 0 2 2 eg_regs ++
                  row_ws 2 DIV 0 1 0 eg_regs ++ row_ws 3 DIV 0 0 0 eg_regs)).
  split; [apply rtab_sat; vm_compute; reflexivity|].
  split. { apply (rows4 (fun r => active 2 _ r /\ opcode_at _ r DIV)); (split; [apply rtab_active; lia|vm_compute; reflexivity]). }
  split; [vm_compute; reflexivity|].
  split; [apply chunks16b_ok; vm_compute; reflexivity|]. split; [apply chunks16b_ok; vm_compute; reflexivity|].
  split; [apply chunks16b_ok; vm_compute; reflexivity|].
  split; [vm_compute; reflexivity|]. split; [vm_compute; reflexivity|]. split; vm_compute; reflexivity.
Qed.
Print Assumptions zkevm_div_row_selector_refuted.

(** All selectors honest, remainder larger than the divisor: 10 / 3 = 4. *)
Theorem zkevm_div_euclid_refuted :
  exists T : table Pbls, zk_sat 0 1 2 T /\ (forall r, 0 <= r < 4 -> active 2 T r /\ opcode_at T r DIV) /\
    T CWit col_step 0 = f1 /\ (forall r, 0 <= r < 4 -> T CWit (row_col 0) r = T CWit col_rem r) /\
    chunks16 T 0 20 0 /\ chunks16 T 0 20 1 /\ chunks16 T 0 32 2 /\
    word T 0 0 = 10 /\ word T 0 1 = 3 /\ word T 0 2 = 4 /\ word T 16 2 = 2 ^ 256 - 2.
Proof.
  exists (rtab 4 (four_rows (div_writes Pbls 0 10 3 4 (2 ^ 256 - 2) ++ blk 3 0 16 (fun _ => f1)))).
  split; [apply rtab_sat; vm_compute; reflexivity|].
  split. { apply (rows4 (fun r => active 2 _ r /\ opcode_at _ r DIV)); (split; [apply rtab_active; lia|vm_compute; reflexivity]). }
  split; [vm_compute; reflexivity|].
  split. { apply (rows4 (fun r => rtab _ _ CWit (row_col 0) r = rtab _ _ CWit col_rem r)); vm_compute; reflexivity. }
  split; [apply chunks16b_ok; vm_compute; reflexivity|]. split; [apply chunks16b_ok; vm_compute; reflexivity|].
  split; [apply chunks16b_ok; vm_compute; reflexivity|].
  split; [vm_compute; reflexivity|]. split; [vm_compute; reflexivity|]. split; vm_compute; reflexivity.
Qed.
Print Assumptions zkevm_div_euclid_refuted.

(** Opcode cells are not range checked: 0 + 0 with result cells 65536 and -1. *)
Definition three_rows (r0 : Z) (o : opcode) (g : regs Pbls) : list (Z * Z * F Pbls) :=
  row_ws r0 o 1 2 2 g ++ row_ws (r0 + 1) o 0 1 1 g ++ row_ws (r0 + 2) o 0 0 0 g.

Theorem zkevm_add_range_refuted :
  exists T : table Pbls, zk_sat 0 1 2 T /\ (forall r, 0 <= r < 3 -> active 2 T r /\ opcode_at T r ADD) /\
    T CWit col_step 0 = f1 /\ word T 0 0 = 0 /\ word T 0 1 = 0 /\
    word T 0 2 <> 0 /\ word T 0 2 mod 2 ^ 256 <> 0.
Proof.
  exists (rtab 3 (add_writes Pbls 0 0 0 0 ++ three_rows 0 ADD eg_regs ++ [(op_col 0, 2, ofZ 65536); (op_col 1, 2, ofZ (-1))])).
  split; [apply rtab_sat; vm_compute; reflexivity|].
  split. { apply (rows3 (fun r => active 2 _ r /\ opcode_at _ r ADD)); (split; [apply rtab_active; lia|vm_compute; reflexivity]). }
  split; [vm_compute; reflexivity|]. split; [vm_compute; reflexivity|]. split; [vm_compute; reflexivity|].
  split; vm_compute; discriminate.
Qed.
Print Assumptions zkevm_add_range_refuted.

(** An opcode of four rows can be cut short: a DIV row followed by an ADD that
    starts on the next row; the trace shows 10 / 3 with quotient 13. *)
Theorem zkevm_div_cut_refuted :
  exists T : table Pbls, zk_sat 0 1 2 T /\ (forall r, 0 <= r < 4 -> active 2 T r) /\
    (forall r, 0 <= r < 4 -> T CWit (row_col 0) r = T CWit col_rem r) /\
    opcode_at T 0 DIV /\ T CWit col_step 0 = f1 /\ T CWit col_rem 0 = ofZ (height DIV - 1) /\
    opcode_at T 1 ADD /\ T CWit col_step 1 = f1 /\ (forall r, 1 <= r < 4 -> opcode_at T r ADD) /\
    word T 0 0 = 10 /\ word T 0 1 = 3 /\ word T 0 2 = 13.
Proof.
  exists (rtab 4 (blk 0 0 16 (fchunk 10) ++ add_writes Pbls 1 3 13 16 ++ row_ws 0 DIV 1 3 3 eg_regs ++ three_rows 1 ADD eg_regs)).
  split; [apply rtab_sat; vm_compute; reflexivity|].
  split. { intros r R. apply rtab_active. exact R. }
  split. { apply (rows4 (fun r => rtab _ _ CWit (row_col 0) r = rtab _ _ CWit col_rem r)); vm_compute; reflexivity. }
  split; [vm_compute; reflexivity|]. split; [vm_compute; reflexivity|]. split; [vm_compute; reflexivity|].
  split; [vm_compute; reflexivity|]. split; [vm_compute; reflexivity|].
  split. { intros r R. assert (r = 1 \/ r = 2 \/ r = 3) as [->|[->| ->]] by lia; vm_compute; reflexivity. }
  split; [vm_compute; reflexivity|]. split; vm_compute; reflexivity.
Qed.
Print Assumptions zkevm_div_cut_refuted.

(** An honest run that executes ADD right after ISZERO is rejected. *)
Theorem zkevm_iszero_add_refuted :
  exists T' fin, zk_run 0 1 2 zt 1 [(ISZERO, [9], eg_regs); (ADD, [5; 6], eg_regs)] = Some (T', fin) /\
    ~ zk_sat 0 1 2 T'.
Proof.
  destruct (zk_run 0 1 2 zt 1 [(ISZERO, [9], eg_regs); (ADD, [5; 6], eg_regs)]) as [[T' fin]|] eqn:R.
  - exists T', fin. split; [reflexivity|]. intros H.
    assert (X : match zk_run 0 1 2 zt 1 [(ISZERO, [9], eg_regs); (ADD, [5; 6], eg_regs)] with
                | Some (T, _) => forallb (fun r => negb (feqb (T CSel 2 r) f0)) [1; 2; 3; 4] && negb (zk_rows_ok 1 T [1; 2; 3; 4])
                | None => false end = true) by (vm_compute; reflexivity).
    rewrite R in X. apply andb_true_iff in X. destruct X as [X1 X2].
    rewrite (sat_rows_ok T' [1; 2; 3; 4] H X1) in X2. discriminate.
  - exfalso. assert (X : match zk_run 0 1 2 zt 1 [(ISZERO, [9], eg_regs); (ADD, [5; 6], eg_regs)] with
                | Some _ => true | None => false end = true) by (vm_compute; reflexivity).
    rewrite R in X. discriminate.
Qed.
Print Assumptions zkevm_iszero_add_refuted.

(** Nothing relates the state variables of two consecutive opcodes: any two
    register files can follow each other. *)
Theorem zkevm_registers_free : forall g1 g2 : regs Pbls,
  exists T : table Pbls, zk_sat 0 1 2 T /\ (forall r, 0 <= r < 6 -> active 2 T r) /\
    opcode_at T 0 ADD /\ opcode_at T 3 ADD /\ T CWit col_step 0 = f1 /\ T CWit col_step 3 = f1 /\
    T CWit col_pc 0 = r_pc g1 /\ T CWit col_pc 3 = r_pc g2 /\
    T CWit col_stack 0 = r_stack g1 /\ T CWit col_stack 3 = r_stack g2 /\
    T CWit col_gas 0 = r_gas g1 /\ T CWit col_gas 3 = r_gas g2.
Proof.
  intros g1 g2.
  destruct (zkevm_program_complete Pbls 0 1 2 zt 0 [(ADD, [1; 2], g1); (ADD, [3; 4], g2)] bls_big ltac:(lia) ltac:(lia) ltac:(lia)
    (fun _ _ _ => eq_refl) eq_refl ltac:(discriminate)) as [T' [fin [R [S [L [F [A _]]]]]]].
  - unfold is_word. repeat (constructor; cbn [fst snd]); lia.
  - repeat (constructor; cbn [fst snd length]); lia.
  - intros l1 x y l2 E HX. destruct l1 as [|? [|? [|? ?]]]; try discriminate. injection E as <- _ _. discriminate.
  - exists T'. cbn [laid] in L. destruct L as [L1 [_ [L2 [_ [L3 [_ [L4 _]]]]]]].
    destruct (L2 0 ltac:(cbn; lia)) as [B1 [B2 [B3 [_ B5]]]]. destruct (L4 0 ltac:(cbn; lia)) as [D1 [D2 [D3 [_ D5]]]].
    split; [exact S|]. split; [intros r Hr; apply A; rewrite F; cbn; lia|].
    repeat split; assumption.
Qed.
Print Assumptions zkevm_registers_free.

Theorem zkevm_pc_refuted :
  exists T : table Pbls, zk_sat 0 1 2 T /\ (forall r, 0 <= r < 6 -> active 2 T r) /\
    opcode_at T 0 ADD /\ opcode_at T 3 ADD /\ T CWit col_step 0 = f1 /\ T CWit col_step 3 = f1 /\
    T CWit col_pc 0 = ofZ 7 /\ T CWit col_pc 3 <> ofZ 8 /\ T CWit col_stack 3 <> fsub (T CWit col_stack 0) f1.
Proof.
  destruct (zkevm_registers_free (mkRegs (ofZ 7) (ofZ 2) (ofZ 0) (ofZ 9)) (mkRegs (ofZ 1000) (ofZ 500) (ofZ 0) (ofZ 10000)))
    as [T [S [A [B1 [B2 [B3 [B4 [B5 [B6 [B7 [B8 _]]]]]]]]]]].
  cbn [r_pc r_stack] in *. exists T. repeat (split; [assumption|]). rewrite B6, B7, B8.
  split; apply fval_neq; vm_compute; discriminate.
Qed.
Print Assumptions zkevm_pc_refuted.

(** The hypotheses of the other soundness theorems hold for honest rows. *)
Definition three_ex (o : opcode) (ws : list (Z * Z * F Pbls)) (n a b c : Z) : Prop :=
  let T := rtab 3 (ws ++ three_rows 0 o eg_regs) in
  zk_sat 0 1 2 T /\ active 2 T 0 /\ active 2 T 1 /\ opcode_at T 0 o /\ T CWit col_step 0 <> f0 /\ opcode_at T 1 o /\
  chunks16 T 0 n 0 /\ chunks16 T 0 n 1 /\ chunks16 T 0 16 2 /\ word T 0 0 = a /\ word T 0 1 = b /\ word T 0 2 = c.

Ltac three_tac :=
  unfold three_ex; cbv zeta; split; [apply rtab_sat; vm_compute; reflexivity|];
  split; [apply rtab_active; lia|]; split; [apply rtab_active; lia|];
  split; [vm_compute; reflexivity|]; split; [apply fval_neq; vm_compute; discriminate|];
  split; [vm_compute; reflexivity|]; split; [apply chunks16b_ok; vm_compute; reflexivity|];
  split; [apply chunks16b_ok; vm_compute; reflexivity|]; split; [apply chunks16b_ok; vm_compute; reflexivity|];
  split; [vm_compute; reflexivity|]; split; vm_compute; reflexivity.

Example zkevm_add_example : three_ex ADD (add_writes Pbls 0 (2 ^ 256 - 5) 12 7) 16 (2 ^ 256 - 5) 12 7.
Proof. three_tac. Qed.
Example zkevm_sub_example : three_ex SUB (add_writes Pbls 0 (2 ^ 256 - 7) 10 3) 16 (2 ^ 256 - 7) 10 3.
Proof. three_tac. Qed.
Example zkevm_mul_example :
  three_ex MUL (mul_writes Pbls 0 (2 ^ 200 + 7) (2 ^ 100 + 3) (3 * 2 ^ 200 + 7 * 2 ^ 100 + 21)) 20
    (2 ^ 200 + 7) (2 ^ 100 + 3) (3 * 2 ^ 200 + 7 * 2 ^ 100 + 21).
Proof. three_tac. Qed.
Example zkevm_iszero_example :
  let T := rtab 2 (iszero_writes Pbls 0 0 ++ iszero_writes Pbls 1 (2 ^ 255) ++
                   row_ws 0 ISZERO 1 0 0 eg_regs ++ row_ws 1 ISZERO 1 0 0 eg_regs) in
  zk_sat 0 1 2 T /\ active 2 T 0 /\ active 2 T 1 /\ opcode_at T 0 ISZERO /\ opcode_at T 1 ISZERO /\
  chunks16 T 0 16 0 /\ chunks16 T 0 16 1 /\ word T 0 0 = 0 /\ word T 16 0 = 1 /\ word T 0 1 = 2 ^ 255 /\ word T 16 1 = 0.
Proof.
  cbv zeta. split; [apply rtab_sat; vm_compute; reflexivity|].
  split; [apply rtab_active; lia|]. split; [apply rtab_active; lia|].
  split; [vm_compute; reflexivity|]. split; [vm_compute; reflexivity|].
  split; [apply chunks16b_ok; vm_compute; reflexivity|]. split; [apply chunks16b_ok; vm_compute; reflexivity|].
  split; [vm_compute; reflexivity|]. split; [vm_compute; reflexivity|]. split; vm_compute; reflexivity.
Qed.
(** Trace hypotheses: three rows of ADD, all steps as the theorem describes. *)
Example zkevm_trace_example :
  let T := rtab 3 (add_writes Pbls 0 1 2 3 ++ three_rows 0 ADD eg_regs) in
  zk_sat 0 1 2 T /\ (forall i, 0 <= i <= 2 -> active 2 T i /\ exists o, opcode_at T i o) /\ T CWit col_step 0 <> f0 /\
  T CSel 1 0 = f0 /\ T CWit col_step 1 <> f1.
Proof.
  cbv zeta. split; [apply rtab_sat; vm_compute; reflexivity|]. split.
  - intros i I. split; [apply rtab_active; lia|]. exists ADD. assert (i = 0 \/ i = 1 \/ i = 2) as [->|[->| ->]] by lia; vm_compute; reflexivity.
  - split; [apply fval_neq; vm_compute; discriminate|]. split; [vm_compute; reflexivity|apply fval_neq; vm_compute; discriminate].
Qed.
