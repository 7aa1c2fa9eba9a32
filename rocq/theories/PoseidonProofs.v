(** Proofs about the Poseidon components. *)
From Coq Require Import ZArith List Lia Bool Field.
From Verif Require Import Base Field Plonk PlonkFacts Bits FlexModel FlexProofs FlexPow PoseidonModel.
Import ListNotations.
Open Scope Z_scope.

Section Proofs.
Variable P : params.
Notation F := (F P).
Notation table := (table P).
Variable L : lenv P.
Variable mds rc : Z -> Z -> F.
Implicit Types T : table.
Add Field Ff : (F_field P) (morphism (F_morph P), constants [F_const], power_tac (F_power P) [F_pow_tac]).
Local Open Scope F_scope.

(** Cell [j] of state [r] when a row holds [cap] states. *)
Definition ps_at T c cap row r j : F := T CWit (W c (3 * (r mod cap) + j)) (row + r / cap)%Z.

Lemma ps_con_iff : forall T c r j i0 out rw,
  eval T rw (ps_con mds rc c r j i0 out) = f0 <->
  gval T rw out = ps_word mds rc r (T CWit (W c i0) rw, T CWit (W c (i0 + 1)) rw, T CWit (W c (i0 + 2)) rw) j.
Proof.
  intros T c r j i0 out rw. unfold ps_con. rewrite !eval_bin, !eval_pow, !eval_ecst, !eval_evar, !gval_wv, !Z.add_0_r.
  cbn [ebop]. unfold ps_word, t3. cbn [Z.eqb Pos.eqb fst snd]. split; intros H; [apply fsub0; exact H|rewrite H; ring].
Qed.

(** One satisfied round. *)
Definition ps_round T c cap row r : Prop := forall j, (0 <= j < 3)%Z ->
  ps_at T c cap row (r + 1) j =
  ps_word mds rc r (ps_at T c cap row r 0, ps_at T c cap row r 1, ps_at T c cap row r 2) j.

Lemma ps_chain : forall T c cap row s n, (0 <= n)%Z ->
  (forall j, (0 <= j < 3)%Z -> ps_at T c cap row 0 j = t3 s j) ->
  (forall r, (0 <= r < n)%Z -> ps_round T c cap row r) ->
  forall r, (0 <= r)%Z -> (r <= n)%Z -> forall j, (0 <= j < 3)%Z -> ps_at T c cap row r j = t3 (ps_state mds rc s r) j.
Proof.
  intros T c cap row s n Hn H0 HR.
  apply (natlike_ind (fun r => (r <= n)%Z -> forall j, (0 <= j < 3)%Z -> ps_at T c cap row r j = t3 (ps_state mds rc s r) j)).
  - intros _ j Hj. apply H0. exact Hj.
  - intros r Hr IH Hle j Hj. unfold Z.succ in *. rewrite HR by lia. specialize (IH ltac:(lia)).
    rewrite !IH by lia. unfold ps_state. rewrite fold_zseq_snoc by lia. fold (ps_state mds rc s r).
    unfold ps_next, t3 at 4. assert (J : (j = 0 \/ j = 1 \/ j = 2)%Z) by lia.
    destruct J as [->|[->| ->]]; reflexivity.
Qed.

Lemma ps_copies_iff : forall T c cap ins row, (1 <= cap)%Z ->
  (sat L T (ps_copies c ins row) <-> forall j, (0 <= j < 3)%Z -> ps_at T c cap row 0 j = t3 (ps_input T ins) j).
Proof.
  intros T c cap ins row Hc. unfold ps_copies. rewrite !sat_cons. cbn [holds]. rewrite !vval_wcell.
  unfold ps_at, ps_input. rewrite Z.mod_0_l, Z.div_0_l, Z.add_0_r by lia. cbn [Z.mul Z.add]. split.
  - intros [A [B [D _]]] j Hj. assert (J : (j = 0 \/ j = 1 \/ j = 2)%Z) by lia. destruct J as [->|[->| ->]]; assumption.
  - intros H. split; [apply (H 0%Z); lia|]. split; [apply (H 1%Z); lia|]. split; [apply (H 2%Z); lia|]. intros cm [].
Qed.

(** ** The gates, round by round *)

Lemma fp_amounts : forall w, (3 <= w)%Z -> (w mod 3 = 0)%Z ->
  (1 <= fp_cap w)%Z /\ w = (3 * fp_cap w)%Z /\ (0 <= fp_gates_amount w)%Z /\ (0 <= fp_rows w)%Z /\
  (rounds <= fp_gates_amount w * fp_cap w < rounds + fp_cap w)%Z /\
  (rounds + 1 <= fp_rows w * fp_cap w < rounds + 1 + fp_cap w)%Z.
Proof.
  intros w Hw HM. pose proof (Z.div_mod w 3 ltac:(lia)) as D. unfold fp_gates_amount, fp_rows, fp_cap.
  set (cap := (w / 3)%Z) in *. assert (C1 : (1 <= cap)%Z) by lia.
  destruct (ceil_rows_spec rounds cap) as [G0 G1]; [lia|unfold rounds; lia|].
  destruct (ceil_rows_spec (rounds + 1) cap) as [R0 R1]; [lia|unfold rounds; lia|]. repeat split; lia.
Qed.

Lemma ps_round_next : forall T c cap w row g b, w = (3 * cap)%Z -> (1 <= cap)%Z -> (0 <= b < cap)%Z -> forall j,
  gval T (row + g) (if (3 * b + 5 <? w)%Z then wv (W c (3 * b + 3 + j)) 0 else wv (W c j) 1) =
  ps_at T c cap row (g * cap + b + 1) j.
Proof.
  intros T c cap w row g b Hw Hc Hb j. unfold ps_at.
  destruct (3 * b + 5 <? w)%Z eqn:E; [apply Z.ltb_lt in E|apply Z.ltb_ge in E]; rewrite gval_wv.
  - replace (g * cap + b + 1)%Z with (g * cap + (b + 1))%Z by lia. destruct (pos_div cap g (b + 1) ltac:(lia)) as [-> ->].
    f_equal; first [lia | f_equal; lia].
  - replace (g * cap + b + 1)%Z with ((g + 1) * cap + 0)%Z by lia. destruct (pos_div cap (g + 1) 0 ltac:(lia)) as [-> ->].
    f_equal; first [lia | f_equal; lia].
Qed.

Lemma fp_gate_iff : forall T c w row g, wamount c = w -> (3 <= w)%Z -> (w mod 3 = 0)%Z ->
  (holds L T (Gate (fp_gate mds rc c g) [row + g])%Z <->
   forall b, (0 <= b < fp_cap w)%Z -> (g * fp_cap w + b < rounds)%Z -> ps_round T c (fp_cap w) row (g * fp_cap w + b)).
Proof.
  intros T c w row g Hw H3 HM. destruct (fp_amounts w H3 HM) as [C1 [EW _]]. set (cap := fp_cap w) in *.
  rewrite holds_gate1. unfold fp_gate. rewrite Hw. fold cap. cbv zeta. split.
  - intros H b Hb Hr j Hj.
    specialize (H (ps_con mds rc c (g * cap + b) j (3 * b)
      (if (3 * b + 5 <? w)%Z then wv (W c (3 * b + 3 + j)) 0 else wv (W c j) 1))).
    rewrite ps_con_iff, (ps_round_next T c cap w row g b EW C1 Hb j) in H. rewrite H.
    + unfold ps_at. destruct (pos_div cap g b Hb) as [-> ->]. rewrite Z.add_0_r. reflexivity.
    + apply in_flat_map. exists b. split; [apply in_zseq; lia|].
      replace (g * cap + b <? rounds)%Z with true by (symmetry; apply Z.ltb_lt; lia).
      apply in_map_iff. exists j. split; [reflexivity|apply in_zseq; lia].
  - intros H e He. apply in_flat_map in He. destruct He as [b [Hb He]]. apply in_zseq in Hb.
    destruct (g * cap + b <? rounds)%Z eqn:E; [apply Z.ltb_lt in E|destruct He].
    apply in_map_iff in He. destruct He as [j [<- Hj]]. apply in_zseq in Hj.
    rewrite ps_con_iff, (ps_round_next T c cap w row g b EW C1 Hb j), (H b Hb E j Hj).
    unfold ps_at. destruct (pos_div cap g b Hb) as [-> ->]. rewrite Z.add_0_r. reflexivity.
Qed.

Lemma fp_circuit_iff : forall T c w ins row, wamount c = w -> (3 <= w)%Z -> (w mod 3 = 0)%Z ->
  (sat L T (fp_circuit mds rc [] c ins row) <->
   (forall r, (0 <= r < rounds)%Z -> ps_round T c (fp_cap w) row r) /\
   (forall j, (0 <= j < 3)%Z -> ps_at T c (fp_cap w) row 0 j = t3 (ps_input T ins) j)).
Proof.
  intros T c w ins row Hw H3 HM. destruct (fp_amounts w H3 HM) as [C1 [EW [G0 [R0 [G1 R1]]]]].
  unfold fp_circuit. rewrite sat_app, (ps_copies_iff T c (fp_cap w)) by exact C1. rewrite sat_map, Hw.
  cbn [app]. set (cap := fp_cap w) in *. set (G := fp_gates_amount w) in *.
  assert (EG : forall i, (0 <= i < G)%Z -> znth [] (fp_gates mds rc c) i = fp_gate mds rc c i).
  { intros i Hi. unfold fp_gates. rewrite Hw. fold G. rewrite (znth_map_zseq _ (fp_gate mds rc c)) by lia. f_equal. }
  assert (GK : (forall a, In a (zseq 0 G) -> holds L T (Gate (znth [] (fp_gates mds rc c) a) [(row + a)%Z])) <->
     (forall r, (0 <= r < rounds)%Z -> ps_round T c cap row r)).
  { split.
    - intros H r Hr. pose proof (Z.div_mod r cap ltac:(lia)) as D. pose proof (Z.mod_pos_bound r cap ltac:(lia)) as M.
      assert (Q : (0 <= r / cap < G)%Z) by (split; [apply Z.div_pos; lia|apply Z.div_lt_upper_bound; lia]).
      specialize (H (r / cap)%Z (proj2 (in_zseq 0 G (r / cap)) Q)). rewrite EG in H by exact Q.
      rewrite (fp_gate_iff T c w) in H by assumption. specialize (H (r mod cap)%Z M ltac:(fold cap; lia)). fold cap in H.
      replace (r / cap * cap + r mod cap)%Z with r in H by lia. exact H.
    - intros H g Hg. apply in_zseq in Hg. rewrite EG by exact Hg. rewrite (fp_gate_iff T c w) by assumption. fold cap.
      intros b Hb Hr. apply H. assert (0 <= g * cap)%Z by (apply Z.mul_nonneg_nonneg; lia). lia. }
  rewrite GK. reflexivity.
Qed.

Lemma fp_out_at : forall T c w row, wamount c = w -> (3 <= w)%Z -> (w mod 3 = 0)%Z ->
  ps_input T (fp_out c row) =
  (ps_at T c (fp_cap w) row rounds 0, ps_at T c (fp_cap w) row rounds 1, ps_at T c (fp_cap w) row rounds 2).
Proof.
  intros T c w row Hw H3 HM. destruct (fp_amounts w H3 HM) as [C1 [EW [G0 [R0 [G1 R1]]]]].
  unfold ps_input, fp_out. rewrite Hw. cbn [fst snd]. rewrite !vval_wcell. unfold ps_at, fp_last.
  set (cap := fp_cap w) in *.
  assert (K : (fp_rows w - 1 = rounds / cap /\
     (if ((rounds + 1) mod cap =? 0) then cap * 3 else (rounds + 1) mod cap * 3) = 3 * (rounds mod cap) + 3)%Z).
  { pose proof (Z.div_mod (rounds + 1) cap ltac:(lia)) as D. pose proof (Z.mod_pos_bound (rounds + 1) cap ltac:(lia)) as M.
    set (R := fp_rows w) in *. assert (RE : R = ((rounds + 1) / cap + (if (rounds + 1) mod cap =? 0 then 0 else 1))%Z).
    { unfold R, fp_rows, ceil_rows. fold cap. destruct ((rounds + 1) mod cap =? 0)%Z; lia. }
    destruct ((rounds + 1) mod cap =? 0)%Z eqn:E; [apply Z.eqb_eq in E|apply Z.eqb_neq in E].
    - assert (rounds / cap = (rounds + 1) / cap - 1)%Z by (symmetry; apply (Z.div_unique _ _ _ (cap - 1)%Z); lia).
      assert (rounds mod cap = cap - 1)%Z by (symmetry; apply (Z.mod_unique _ _ ((rounds + 1) / cap - 1)%Z); lia). lia.
    - assert (rounds / cap = (rounds + 1) / cap)%Z by (symmetry; apply (Z.div_unique _ _ _ ((rounds + 1) mod cap - 1)%Z); lia).
      assert (rounds mod cap = (rounds + 1) mod cap - 1)%Z by (symmetry; apply (Z.mod_unique _ _ ((rounds + 1) / cap)%Z); lia). lia. }
  destruct K as [K1 K2]. rewrite K2. replace (row + fp_rows w - 1)%Z with (row + rounds / cap)%Z by lia.
  f_equal; [f_equal|]; f_equal; f_equal; lia.
Qed.

Lemma fp_sound_l : forall T c w ins row, wamount c = w -> (3 <= w)%Z -> (w mod 3 = 0)%Z ->
  sat L T (fp_circuit mds rc [] c ins row) ->
  ps_input T (fp_out c row) = ps_state mds rc (ps_input T ins) rounds.
Proof.
  intros T c w ins row Hw H3 HM H. rewrite (fp_circuit_iff T c w) in H by assumption. destruct H as [HR H0].
  rewrite (fp_out_at T c w) by assumption.
  rewrite !(ps_chain T c (fp_cap w) row _ rounds ltac:(unfold rounds; lia) H0 HR rounds) by (unfold rounds; lia).
  destruct (ps_state mds rc (ps_input T ins) rounds) as [[a b] d]. reflexivity.
Qed.

(** ** Filling *)

Lemma ps_cells_In : forall c cap row s col r v,
  In (col, r, v) (ps_cells mds rc c cap row s) <->
  exists k j, (0 <= k < rounds + 1)%Z /\ (0 <= j < 3)%Z /\ col = W c (3 * (k mod cap) + j) /\ r = (row + k / cap)%Z /\
    v = t3 (ps_state mds rc s k) j.
Proof.
  intros. unfold ps_cells. rewrite in_flat_map. split.
  - intros [k [Hk H]]. apply in_map_iff in H. destruct H as [j [E Hj]]. injection E as <- <- <-.
    apply in_zseq in Hk. apply in_zseq in Hj. exists k, j. auto 6.
  - intros [k [j [Hk [Hj [-> [-> ->]]]]]]. exists k. split; [apply in_zseq; lia|].
    apply in_map_iff. exists j. split; [reflexivity|apply in_zseq; lia].
Qed.

Lemma ps_cells_read : forall T c w cap row s k j, wf_comp c w -> (1 <= cap)%Z -> (3 * cap <= w)%Z ->
  (0 <= k < rounds + 1)%Z -> (0 <= j < 3)%Z ->
  ps_at (wsets T (ps_cells mds rc c cap row s)) c cap row k j = t3 (ps_state mds rc s k) j.
Proof.
  intros T c w cap row s k j Hwf Hc Hw Hk Hj. unfold ps_at. apply wsets_read.
  - apply ps_cells_In. exists k, j. auto 6.
  - intros v' H. apply ps_cells_In in H. destruct H as [k' [j' [Hk' [Hj' [E1 [E2 ->]]]]]].
    pose proof (Z.mod_pos_bound k cap ltac:(lia)). pose proof (Z.mod_pos_bound k' cap ltac:(lia)).
    assert (EC : (3 * (k mod cap) + j = 3 * (k' mod cap) + j')%Z) by (eapply W_inj; [eassumption|lia|lia|exact E1]).
    assert (k' = k). { rewrite (Z.div_mod k cap), (Z.div_mod k' cap) by lia. replace (k' / cap)%Z with (k / cap)%Z by lia. lia. }
    subst k'. assert (j' = j) by lia. subst. reflexivity.
Qed.

Lemma ps_cells_frame : forall T c w cap row s rows, wf_comp c w -> (1 <= cap)%Z -> (rounds + 1 <= rows * cap)%Z ->
  frame c rows row T (wsets T (ps_cells mds rc c cap row s)).
Proof.
  intros T c w cap row s rows Hwf Hc Hr. apply (wsets_frame P c w); [exact Hwf|].
  intros col r v H. apply ps_cells_In in H. destruct H as [k [j [Hk [Hj [-> [-> _]]]]]].
  split; [eexists; reflexivity|]. assert (0 <= k / cap)%Z by (apply Z.div_pos; lia).
  assert (k / cap < rows)%Z by (apply Z.div_lt_upper_bound; lia). lia.
Qed.

Lemma ps_state_round : forall s r j, (0 <= r)%Z -> (0 <= j < 3)%Z ->
  t3 (ps_state mds rc s (r + 1)) j =
  ps_word mds rc r (t3 (ps_state mds rc s r) 0, t3 (ps_state mds rc s r) 1, t3 (ps_state mds rc s r) 2) j.
Proof.
  intros s r j Hr Hj. unfold ps_state at 1. rewrite fold_zseq_snoc by lia. fold (ps_state mds rc s r).
  destruct (ps_state mds rc s r) as [[a b] d]. unfold ps_next. assert (J : (j = 0 \/ j = 1 \/ j = 2)%Z) by lia.
  destruct J as [->|[->| ->]]; reflexivity.
Qed.

Lemma fp_complete_l : forall T c w ins row, wf_comp c w -> (3 <= w)%Z -> (w mod 3 = 0)%Z ->
  outside c (fp_rows w) row (fst (fst ins)) -> outside c (fp_rows w) row (snd (fst ins)) ->
  outside c (fp_rows w) row (snd ins) ->
  let T' := fp_assign mds rc c ins row T in
  sat L T' (fp_circuit mds rc [] c ins row) /\ frame c (fp_rows w) row T T' /\
  ps_input T' (fp_out c row) = ps_state mds rc (ps_input T ins) rounds.
Proof.
  intros T c w ins row Hwf H3 HM O0 O1 O2 T'. pose proof (proj1 (proj2 Hwf)) as Hw.
  destruct (fp_amounts w H3 HM) as [C1 [EW [G0 [R0 [G1 R1]]]]].
  assert (ET : T' = wsets T (ps_cells mds rc c (fp_cap w) row (ps_input T ins))) by (unfold T', fp_assign; rewrite Hw; reflexivity).
  assert (HF : frame c (fp_rows w) row T T') by (rewrite ET; apply (ps_cells_frame T c w); [exact Hwf|lia|lia]).
  assert (EI : ps_input T' ins = ps_input T ins).
  { unfold ps_input. rewrite !(vval_frame P c (fp_rows w) row T T') by assumption. reflexivity. }
  assert (RD : forall k j, (0 <= k < rounds + 1)%Z -> (0 <= j < 3)%Z ->
     ps_at T' c (fp_cap w) row k j = t3 (ps_state mds rc (ps_input T ins) k) j).
  { intros k j Hk Hj. rewrite ET. apply (ps_cells_read T c w); [exact Hwf|lia|lia|exact Hk|exact Hj]. }
  assert (S : sat L T' (fp_circuit mds rc [] c ins row)).
  { apply (fp_circuit_iff T' c w); [assumption|assumption|assumption|]. rewrite EI. split.
    - intros r Hr j Hj. rewrite !RD by lia. apply ps_state_round; lia.
    - intros j Hj. rewrite RD by (unfold rounds; lia). reflexivity. }
  split; [exact S|]. split; [exact HF|]. rewrite (fp_sound_l T' c w ins row) by assumption. rewrite EI. reflexivity.
Qed.

(** ** The fixed-width component is the flexible one with correct selectors *)

Lemma pos_gate_fp : forall c g, wamount c = 15%Z -> (0 <= g < 11)%Z ->
  pos_gate mds rc c (5 * g) = fp_gate mds rc c g.
Proof.
  intros c g Hw Hg. unfold fp_gate. rewrite Hw. cbv zeta. change (fp_cap 15) with 5%Z.
  change (zseq 0 5) with [0;1;2;3;4]%Z. change (zseq 0 3) with [0;1;2]%Z. cbn [flat_map map].
  assert (K : forall b, (0 <= b < 5)%Z -> (g * 5 + b <? rounds)%Z = true) by (intros b Hb; apply Z.ltb_lt; unfold rounds; lia).
  replace (5 * g)%Z with (g * 5)%Z by lia. revert K. generalize (g * 5)%Z as z. intros z K.
  rewrite !K by lia. rewrite Z.add_0_r. reflexivity.
Qed.

Lemma pos_circuit_fp : forall c ins row, wamount c = 15%Z ->
  pos_circuit mds rc c ins row = fp_circuit mds rc [] c ins row.
Proof.
  intros c ins row Hw. unfold pos_circuit, fp_circuit. f_equal. rewrite Hw. change (fp_gates_amount 15) with 11%Z.
  apply map_ext_in. intros i Hi. apply in_zseq in Hi. cbn [app]. unfold fp_gates. rewrite Hw.
  change (fp_gates_amount 15) with 11%Z. rewrite (znth_map_zseq _ (fp_gate mds rc c)) by lia.
  rewrite pos_gate_fp by (assumption || lia). reflexivity.
Qed.

Lemma pos_out_fp : forall c row, wamount c = 15%Z -> pos_out c row = fp_out c row.
Proof. intros c row Hw. unfold pos_out, fp_out. rewrite Hw. reflexivity. Qed.

Lemma pos_sound_l : forall T c ins row, wamount c = 15%Z -> sat L T (pos_circuit mds rc c ins row) ->
  ps_input T (pos_out c row) = ps_state mds rc (ps_input T ins) rounds.
Proof.
  intros T c ins row Hw H. rewrite pos_circuit_fp in H by exact Hw. rewrite pos_out_fp by exact Hw.
  apply (fp_sound_l T c 15); [exact Hw|lia|reflexivity|exact H].
Qed.

Lemma pos_complete_l : forall T c ins row, wf_comp c 15 ->
  outside c pos_rows row (fst (fst ins)) -> outside c pos_rows row (snd (fst ins)) -> outside c pos_rows row (snd ins) ->
  let T' := pos_assign mds rc c ins row T in
  sat L T' (pos_circuit mds rc c ins row) /\ frame c pos_rows row T T' /\
  ps_input T' (pos_out c row) = ps_state mds rc (ps_input T ins) rounds.
Proof.
  intros T c ins row Hwf O0 O1 O2. pose proof (proj1 (proj2 Hwf)) as Hw.
  rewrite pos_circuit_fp, pos_out_fp by exact Hw. unfold pos_assign.
  pose proof (fp_complete_l T c 15 ins row Hwf ltac:(lia) eq_refl O0 O1 O2) as H. unfold fp_assign in H. rewrite Hw in H.
  exact H.
Qed.

(** ** Gates under earlier selectors *)

(** With enough gates in the circuit beforehand none of the component's gates
    is enabled. *)
Lemma fp_shadowed : forall c w pre ins row, wamount c = w -> (fp_gates_amount w <= zlen pre)%Z ->
  fp_circuit mds rc pre c ins row =
  map (fun i => Gate (znth [] pre i) [row + i]%Z) (zseq 0 (fp_gates_amount w)) ++ ps_copies c ins row.
Proof.
  intros c w pre ins row Hw HL. unfold fp_circuit. rewrite Hw. f_equal. apply map_ext_in. intros i Hi. apply in_zseq in Hi.
  f_equal. unfold znth. apply app_nth1. unfold zlen in HL. lia.
Qed.

End Proofs.
