(** C81, C82: the SHA-256 compression component (sha256_process). *)
From Coq Require Import ZArith List Lia Bool.
From Verif Require Import Base Field Plonk PlonkFacts Examples Pasta Sha256Spec Sha256Model Sha256Sparse Sha256Words Sha256View Sha256Sound Sha256Honest Sha256Complete.
Import ListNotations.
Open Scope Z_scope.

(** A component on nine distinct witness columns whose 24 input cells lie
    outside its rows and hold 32-bit words, over a field above 2^128, with
    the round constants in place. *)
Definition sha_setup (P : params) (c : comp) (st wd : Z -> var) (row : Z) (T : table P) : Prop :=
  2 ^ 128 < char P /\ wf_comp c 9 /\
  (forall k, 0 <= k < 8 -> outside c sp_rows row (st k) /\ fval (vval T (st k)) < 2 ^ 32) /\
  (forall k, 0 <= k < 16 -> outside c sp_rows row (wd k) /\ fval (vval T (wd k)) < 2 ^ 32) /\
  consts_in T (sp_circuit c st wd row).

Lemma words_in : forall P (T : table P) (v : Z -> var) n, (forall k, 0 <= k < n -> fval (vval T (v k)) < 2 ^ 32) ->
  words (map (fun i => fval (vval T (v i))) (zseq 0 n)).
Proof.
  intros P T v n H. apply Forall_forall. intros x Hx. apply in_map_iff in Hx. destruct Hx as [k [<- Hk]]. apply in_zseq in Hk.
  split; [apply fval_range|apply H, Hk].
Qed.

Lemma abs_words : forall s, isstate (abs s) -> isw (c_a s) /\ isw (c_e s).
Proof. intros s [A [_ [_ [_ [E _]]]]]. split; assumption. Qed.
Lemma fin_full : forall s k, znth 0 (gen_fin s (c_a s) (c_e s)) k = znth 0 (sst_list (abs s)) k.
Proof. reflexivity. Qed.

(** [calculate] is the compression function of FIPS 180-4. *)
Theorem sha256_calculate : forall P h m, 2 ^ 128 < char P -> Forall (fun x => 0 <= x < 2 ^ 32) h -> Forall (fun x => 0 <= x < 2 ^ 32) m ->
  length m = 16%nat -> sp_calculate P h m = sha_compress h m.
Proof. intros P h m big Hh Hm Hl. apply (calculate_ok P big); [exact Hh|exact Hm|unfold zlen; rewrite Hl; reflexivity]. Qed.

(** The table of [generate_assignments] satisfies the circuit and holds the
    new hash value. *)
Theorem sha256_process_complete : forall P c st wd row (T : table P), sha_setup P c st wd row T ->
  let T' := sp_assign c st wd row T in
  sat sha_lenv T' (sp_circuit c st wd row) /\ frame c sp_rows row T T' /\
  map (fun k => fval (vval T' (sp_out c row k))) (zseq 0 8) = sha_compress (in_state P st T) (in_words P wd T).
Proof.
  intros P c st wd row T [big [wf [Hs [Hw K]]]] T'.
  assert (h_ok : words (in_state P st T)) by (apply words_in; intros; apply Hs; assumption).
  assert (m_ok : words (in_words P wd T)) by (apply words_in; intros; apply Hw; assumption).
  set (s := c_states P (sp_words P (in_words P wd T) 48) 64 (c_init (in_state P st T))).
  assert (Ml : zlen (in_words P wd T) = 16) by (apply m_len).
  assert (Iab : isstate (abs s)).
  { unfold s. apply k_w. apply (states_ok P big); [|exact h_ok|lia]. rewrite (sp_words_eq P big) by (assumption || lia). apply sched_words; [lia|exact m_ok]. }
  destruct (abs_words s Iab) as [Ia Ie].
  assert (ET : T' = gen_table P c st wd row T (in_state P st T) (in_words P wd T) (c_a s) (c_e s) false) by reflexivity.
  split; [|split].
  - rewrite ET. apply (gen_sat P big c wf st wd row T (fun k Hk => proj1 (Hs k Hk)) (fun k Hk => proj1 (Hw k Hk)) K h_ok m_ok); [exact h_ok|exact m_ok|exact Ml|exact Ia|exact Ie].
  - apply put_frame.
  - rewrite ET. unfold sha_compress. apply map_ext_in. intros k Hk. apply in_zseq in Hk.
    rewrite (gen_out P c wf) by (lia || discriminate).
    rewrite fval_ofZ_small.
    + f_equal. f_equal. fold s. rewrite fin_full. unfold s. rewrite (sp_words_eq P big) by (assumption || lia). change (16 + 48) with 64.
      rewrite (proj2 (states_ok P big _ _ 64 (sched_words _ 64 ltac:(lia) m_ok) h_ok ltac:(lia))). reflexivity.
    + match goal with |- 0 <= ?x mod _ < _ => pose proof (Z.mod_pos_bound x (2 ^ 32) ltac:(lia)) end. lia.
Qed.

(** The same table also meets the copy constraints the circuit lacks. *)
Theorem sha256_process_missing_copies_hold : forall P c st wd row (T : table P), sha_setup P c st wd row T ->
  let T' := sp_assign c st wd row T in
  sat sha_lenv T' (sp_missing P c st wd row) /\ sparse_ok P c st row T'.
Proof.
  intros P c st wd row T [big [wf [Hs [Hw K]]]] T'.
  assert (h_ok : words (in_state P st T)) by (apply words_in; intros; apply Hs; assumption).
  assert (m_ok : words (in_words P wd T)) by (apply words_in; intros; apply Hw; assumption).
  set (s := c_states P (sp_words P (in_words P wd T) 48) 64 (c_init (in_state P st T))).
  assert (ET : T' = gen_table P c st wd row T (in_state P st T) (in_words P wd T) (c_a s) (c_e s) false) by reflexivity.
  rewrite ET. apply (gen_missing P big c wf st wd row T (fun k Hk => proj1 (Hs k Hk)) (fun k Hk => proj1 (Hw k Hk)) m_ok);
    [exact h_ok|exact m_ok|apply m_len|reflexivity..].
Qed.

(** Any satisfying table holds the message schedule. *)
Theorem sha256_schedule_sound : forall P c st wd row (T : table P), 2 ^ 128 < char P -> fval (vval T (wd 0)) < 2 ^ 32 ->
  sat sha_lenv T (sp_circuit c st wd row) ->
  forall t, 0 <= t < 48 -> fval (T CWit (W c 0) (row + (2 + 5 * t + 2))) = znth 0 (sha_schedule (in_words P wd T) 64) (16 + t).
Proof.
  intros P c st wd row T big H0 S t Ht. assert (I0 : isw (fval (vval T (wd 0)))) by (split; [apply fval_range|exact H0]).
  rewrite (schedule_sound P big c st wd row T S I0 t Ht). apply (isw_char P big).
  pose proof (proj1 (sp_view_iff P c st wd row T) S) as V.
  apply (schedule_words P big c st wd row T V I0). lia.
Qed.

(** What the circuit does guarantee: with the absent copy constraints added,
    the sparse forms of the input state in place and reduced outputs, the
    outputs are the new hash value. *)
Theorem sha256_process_sound_with_missing_copies : forall P c st wd row (T : table P), 2 ^ 128 < char P ->
  (forall k, 0 <= k < 8 -> fval (vval T (st k)) < 2 ^ 32) -> fval (vval T (wd 0)) < 2 ^ 32 ->
  sat sha_lenv T (sp_circuit c st wd row) -> sat sha_lenv T (sp_missing P c st wd row) -> sparse_ok P c st row T ->
  (forall k, 0 <= k < 8 -> fval (vval T (sp_out c row k)) < 2 ^ 32) ->
  map (fun k => fval (vval T (sp_out c row k))) (zseq 0 8) = sha_compress (in_state P st T) (in_words P wd T).
Proof.
  intros P c st wd row T big Hs Hw S M SP Ho. apply (process_sound P big); try assumption;
    try (intros k Hk; split; [apply fval_range|auto]). split; [apply fval_range|exact Hw].
Qed.

(** ** The circuit alone does not bind the output *)

(** Whatever the inputs, a satisfying table exists whose outputs 1-3 and 5-7
    come from the rounds on any other state and block, and whose outputs 0
    and 4 are any two words. *)
Theorem sha256_process_sound_refuted : forall P c st wd row (T : table P), sha_setup P c st wd row T ->
  forall h' m' z0 z4, Forall (fun x => 0 <= x < 2 ^ 32) h' -> Forall (fun x => 0 <= x < 2 ^ 32) m' -> length m' = 16%nat ->
  0 <= z0 < 2 ^ 32 -> 0 <= z4 < 2 ^ 32 ->
  exists T', frame c sp_rows row T T' /\ sat sha_lenv T' (sp_circuit c st wd row) /\
    fval (vval T' (sp_out c row 0)) = z0 /\ fval (vval T' (sp_out c row 4)) = z4 /\
    forall k, 0 <= k < 8 -> k <> 0 -> k <> 4 -> fval (vval T' (sp_out c row k)) =
      (fval (vval T (st k)) + znth 0 (sst_list (sha_rounds (sha_schedule m' 64) 64 (list_sst h'))) k) mod 2 ^ 32.
Proof.
  intros P c st wd row T [big [wf [Hs [Hw K]]]] h' m' z0 z4 Hh' Hm' Hl Z0 Z4.
  assert (h_ok : words (in_state P st T)) by (apply words_in; intros; apply Hs; assumption).
  assert (m_ok : words (in_words P wd T)) by (apply words_in; intros; apply Hw; assumption).
  set (h := in_state P st T) in *.
  assert (Lm : zlen m' = 16) by (unfold zlen; rewrite Hl; reflexivity).
  exists (gen_table P c st wd row T h' m' ((z0 - znth 0 h 0) mod w32) ((z4 - znth 0 h 4) mod w32) false).
  assert (R : forall x : Z, fval (ofZ (x mod 2 ^ 32) : F P) = x mod 2 ^ 32).
  { intros x. apply fval_ofZ_small. pose proof (Z.mod_pos_bound x (2 ^ 32) ltac:(lia)). lia. }
  assert (B : forall a z, 0 <= z < 2 ^ 32 -> (a + (z - a) mod w32) mod 2 ^ 32 = z).
  { intros a z Hz. unfold w32. change 4294967296 with (2 ^ 32). rewrite Zplus_mod_idemp_r. replace (a + (z - a)) with z by ring. apply Z.mod_small, Hz. }
  split; [apply put_frame|]. split; [|split; [|split]].
  - apply (gen_sat P big c wf st wd row T (fun k Hk => proj1 (Hs k Hk)) (fun k Hk => proj1 (Hw k Hk)) K h_ok m_ok); [exact Hh'|exact Hm'|exact Lm|apply isw_mod|apply isw_mod].
  - rewrite (gen_out P c wf) by (lia || discriminate). rewrite R. exact (B (znth 0 h 0) z0 Z0).
  - rewrite (gen_out P c wf) by (lia || discriminate). rewrite R. exact (B (znth 0 h 4) z4 Z4).
  - intros k Hk N0 N4. rewrite (gen_out P c wf) by (lia || discriminate). rewrite R.
    rewrite (fin_rest P big h' m') by assumption. f_equal. f_equal. apply in_state_at. exact Hk.
Qed.

(** Nor are the outputs reduced. *)
Theorem sha256_process_output_range_refuted : forall P c st wd row (T : table P), sha_setup P c st wd row T ->
  0 < fval (vval T (st 0)) ->
  exists T', frame c sp_rows row T T' /\ sat sha_lenv T' (sp_circuit c st wd row) /\ 2 ^ 32 <= fval (vval T' (sp_out c row 0)).
Proof.
  intros P c st wd row T [big [wf [Hs [Hw K]]]] H0.
  assert (h_ok : words (in_state P st T)) by (apply words_in; intros; apply Hs; assumption).
  assert (m_ok : words (in_words P wd T)) by (apply words_in; intros; apply Hw; assumption).
  assert (I0 := words_at (in_state P st T) 0 h_ok). assert (E0 := in_state_at P st T 0 ltac:(lia)).
  assert (Ml : zlen (in_words P wd T) = 16) by (apply m_len).
  exists (gen_table P c st wd row T (in_state P st T) (in_words P wd T) (2 ^ 32 - 1) 0 true).
  split; [apply put_frame|]. split.
  - apply (gen_sat P big c wf st wd row T (fun k Hk => proj1 (Hs k Hk)) (fun k Hk => proj1 (Hw k Hk)) K h_ok m_ok); [exact h_ok|exact m_ok|exact Ml|unfold isw, w32; lia|unfold isw, w32; lia].
  - rewrite (gen_out0 P c wf) by reflexivity. unfold isw, w32 in I0. rewrite fval_ofZ_small by lia. lia.
Qed.

(** ** The hypotheses are met: one block, "abc", in the Pallas scalar field *)

Definition sha_tab : table Ppallas := fun ty col row =>
  match ty with
  | CPub => ofZ (znth 0 (sha_iv ++ sha_abc) row)
  | CConst => ofZ (znth 0 round_constant ((row - 245) / 8))
  | _ => f0
  end.
Definition sha_st (k : Z) : var := pin k.
Definition sha_wd (k : Z) : var := pin (8 + k).

Lemma sha_tab_small : forall k, 0 <= k < 24 -> fval (sha_tab CPub 0 k) = znth 0 (sha_iv ++ sha_abc) k.
Proof.
  intros k Hk. unfold sha_tab. apply fval_ofZ_small. assert (A : words (sha_iv ++ sha_abc)) by (repeat constructor; discriminate).
  pose proof (words_at _ k A) as B. unfold isw, w32 in B. assert (2 ^ 128 < char Ppallas) by reflexivity. lia.
Qed.
Lemma sha_tab_32 : forall k, 0 <= k < 24 -> fval (sha_tab CPub 0 k) < 2 ^ 32.
Proof.
  intros k Hk. rewrite sha_tab_small by exact Hk. assert (A : words (sha_iv ++ sha_abc)) by (repeat constructor; discriminate).
  apply (words_at _ k A).
Qed.
Example sha_setup_ex : sha_setup Ppallas (std_comp 9) sha_st sha_wd 0 sha_tab.
Proof.
  split; [reflexivity|]. split; [apply wf_std; lia|]. split; [|split].
  - intros k Hk. split; [apply pin_outside|]. apply (sha_tab_32 k). lia.
  - intros k Hk. split; [apply pin_outside|]. apply (sha_tab_32 (8 + k)). lia.
  - intros col r v H. unfold sp_circuit in H. apply in_app_or in H. destruct H as [H|H].
    + apply in_map_iff in H. destruct H as [i [E Hi]].
      assert (Er := f_equal (fun x => match x with SetConst _ a _ => a | _ => 0 end) E).
      assert (Ev := f_equal (fun x => match x with SetConst _ _ a => a | _ => f0 end) E). cbv beta iota in Er, Ev.
      rewrite <- Ev. unfold sha_tab. replace (r - 245) with (i * 8) by lia. rewrite Z.div_mul by lia. reflexivity.
    + exfalso. apply in_app_or in H. destruct H as [H|H].
      * unfold sp_gates in H. repeat (destruct H as [H|H]; [discriminate|]). destruct H.
      * revert H. generalize (ofZ 0 : F Ppallas). intros _ H. unfold sp_copies in H.
        repeat (apply in_app_or in H; destruct H as [H|H]).
        all: try (apply in_map_iff in H; destruct H as [x [E _]]; discriminate).
        all: try (repeat (destruct H as [H|H]; [discriminate|]); destruct H; fail).
Qed.
Example sha_in_ex : in_state Ppallas sha_st sha_tab = sha_iv /\ in_words Ppallas sha_wd sha_tab = sha_abc.
Proof.
  split.
  - transitivity (map (znth 0 sha_iv) (zseq 0 8)); [|reflexivity]. apply map_ext_in. intros k Hk. apply in_zseq in Hk.
    unfold vval, sha_st. cbn [pin vty vidx vrot]. rewrite sha_tab_small by lia. unfold znth. apply app_nth1. cbn. lia.
  - transitivity (map (znth 0 sha_abc) (zseq 0 16)); [|reflexivity]. apply map_ext_in. intros k Hk. apply in_zseq in Hk.
    unfold vval, sha_wd. cbn [pin vty vidx vrot]. rewrite sha_tab_small by lia. unfold znth. rewrite app_nth2 by (cbn [sha_iv length]; lia).
    f_equal. cbn [sha_iv length]. lia.
Qed.
Example sha_honest_ex : map (fun k => fval (vval (sp_assign (std_comp 9) sha_st sha_wd 0 sha_tab) (sp_out (std_comp 9) 0 k))) (zseq 0 8) =
  [0xba7816bf; 0x8f01cfea; 0x414140de; 0x5dae2223; 0xb00361a3; 0x96177a9c; 0xb410ff61; 0xf20015ad].
Proof.
  destruct (sha256_process_complete _ _ _ _ _ _ sha_setup_ex) as [_ [_ E]]. rewrite E.
  destruct sha_in_ex as [-> ->]. exact sha_compress_abc.
Qed.
(** A satisfying table for the block "abc" with another hash value. *)
Theorem sha256_process_wrong_hash_refuted : exists T', sat sha_lenv T' (sp_circuit (std_comp 9) sha_st sha_wd 0) /\
  in_state Ppallas sha_st T' = sha_iv /\ in_words Ppallas sha_wd T' = sha_abc /\
  map (fun k => fval (vval T' (sp_out (std_comp 9) 0 k))) (zseq 0 8) <> sha_compress sha_iv sha_abc.
Proof.
  assert (A : Forall (fun x => 0 <= x < 2 ^ 32) sha_iv) by (repeat constructor; discriminate).
  assert (B : Forall (fun x => 0 <= x < 2 ^ 32) sha_abc) by (repeat constructor; discriminate).
  destruct (sha256_process_sound_refuted _ _ _ _ _ _ sha_setup_ex sha_iv sha_abc 0 0 A B eq_refl ltac:(lia) ltac:(lia)) as [T' [Fr [S [E0 _]]]].
  exists T'. destruct sha_in_ex as [E1 E2]. split; [exact S|]. split; [|split].
  - rewrite <- E1. apply map_ext. intros k. unfold sha_st. rewrite (vval_frame _ _ _ _ _ _ _ Fr (pin_outside _ _ _ _)). reflexivity.
  - rewrite <- E2. apply map_ext. intros k. unfold sha_wd. rewrite (vval_frame _ _ _ _ _ _ _ Fr (pin_outside _ _ _ _)). reflexivity.
  - rewrite sha_compress_abc. intros E. apply (f_equal (fun l => znth 0 l 0)) in E. rewrite znth_map_zseq in E by lia.
    change (0 + 0) with 0 in E. rewrite E0 in E. discriminate.
Qed.
(** The table of the assignment meets every hypothesis of the conditional
    soundness theorem. *)
Example sha_missing_ex : let T' := sp_assign (std_comp 9) sha_st sha_wd 0 sha_tab in
  sat sha_lenv T' (sp_missing Ppallas (std_comp 9) sha_st sha_wd 0) /\ sparse_ok Ppallas (std_comp 9) sha_st 0 T'.
Proof. exact (sha256_process_missing_copies_hold _ _ _ _ _ _ sha_setup_ex). Qed.

Print Assumptions sha256_calculate.
Print Assumptions sha256_process_complete.
Print Assumptions sha256_process_missing_copies_hold.
Print Assumptions sha256_schedule_sound.
Print Assumptions sha256_process_sound_with_missing_copies.
Print Assumptions sha256_process_sound_refuted.
Print Assumptions sha256_process_output_range_refuted.
Print Assumptions sha256_process_wrong_hash_refuted.
