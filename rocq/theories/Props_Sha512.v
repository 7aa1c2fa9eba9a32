(** C111, C112: the SHA-512 compression component (sha512_process). *)
From Coq Require Import ZArith List Lia Bool.
From Verif Require Import Base Field Plonk PlonkFacts Examples Pasta Sha256Model Sha256View Sha256Complete Sha512Spec Sha512Model Sha512Words Sha512Complete.
Import ListNotations.
Open Scope Z_scope.

(** A component on nine distinct witness columns whose 24 input cells lie
    outside its rows and hold 64-bit words, over a field above 2^180, with the
    round constants where the circuit puts them. *)
Definition sha5_setup (P : params) (c : comp) (st wd : Z -> var) (row : Z) (T : table P) : Prop :=
  2 ^ 180 < char P /\ wf_comp c 9 /\
  (forall k, 0 <= k < 8 -> outside c q_rows row (st k) /\ fval (vval T (st k)) < 2 ^ 64) /\
  (forall k, 0 <= k < 16 -> outside c q_rows row (wd k) /\ fval (vval T (wd k)) < 2 ^ 64) /\
  consts_in T (q_circuit c st wd row).

Lemma qwords_in : forall P (T : table P) (v : Z -> var) n, (forall k, 0 <= k < n -> fval (vval T (v k)) < 2 ^ 64) ->
  qwords (map (fun i => fval (vval T (v i))) (zseq 0 n)).
Proof.
  intros P T v n H. apply Forall_forall. intros x Hx. apply in_map_iff in Hx. destruct Hx as [k [<- Hk]]. apply in_zseq in Hk.
  split; [apply fval_range|apply H, Hk].
Qed.

Lemma c_list_abs : forall s, c_list s = s5_list (abs5 s).
Proof. reflexivity. Qed.

Section Rows.
Variable P : params.
Add Ring Fr : (F_ring P).

(** The output rows of the assignment. *)
Lemma honest_in : forall h o q k, 0 <= q < 2 -> 0 <= k < 4 -> blk P (q_out_block P h o) (2 * q) k = Some (ofZ (znth 0 h (k + 4 * q))).
Proof.
  intros h o q k Hq Hk. assert (q = 0 \/ q = 1) as [->| ->] by lia;
    assert (k = 0 \/ k = 1 \/ k = 2 \/ k = 3) as [->|[->|[->| ->]]] by lia; reflexivity.
Qed.
Lemma honest_out : forall h o q k, 0 <= q < 2 -> 0 <= k < 4 ->
  blk P (q_out_block P h o) (2 * q + 1) k = Some (ofZ ((znth 0 h (k + 4 * q) + znth 0 o (k + 4 * q)) mod 2 ^ 64)).
Proof.
  intros h o q k Hq Hk. assert (q = 0 \/ q = 1) as [->| ->] by lia;
    assert (k = 0 \/ k = 1 \/ k = 2 \/ k = 3) as [->|[->|[->| ->]]] by lia; reflexivity.
Qed.
Lemma honest_sum : forall h o q k, 0 <= q < 2 -> 0 <= k < 4 -> exists b y g,
  blk P (q_out_block P h o) (2 * q) (k + 4) = Some b /\ blk P (q_out_block P h o) (2 * q + 1) k = Some y /\
  blk P (q_out_block P h o) (2 * q + 1) (k + 4) = Some g /\ fadd y (fmul (m64 P) g) = fadd (ofZ (znth 0 h (k + 4 * q))) b.
Proof.
  intros h o q k Hq Hk. set (s := znth 0 h (k + 4 * q) + znth 0 o (k + 4 * q)).
  exists (ofZ (znth 0 o (k + 4 * q))), (ofZ (s mod 2 ^ 64)), (ofZ ((s - s mod 2 ^ 64) / 2 ^ 64)).
  split; [|split; [exact (honest_out h o q k Hq Hk)|split]].
  1, 2: assert (q = 0 \/ q = 1) as [->| ->] by lia; assert (k = 0 \/ k = 1 \/ k = 2 \/ k = 3) as [->|[->|[->| ->]]] by lia; reflexivity.
  change (m64 P) with (ofZ (2 ^ 64) : F P). rewrite <- ofZ_mul, <- !ofZ_add. f_equal. fold s.
  pose proof (Z.div_mod s (2 ^ 64) ltac:(lia)) as D. replace (s - s mod 2 ^ 64) with ((s / 2 ^ 64) * 2 ^ 64) by lia. rewrite Z.div_mul by lia. lia.
Qed.

(** Output rows with the words [y]. *)
Definition forged (h : list Z) (y : Z -> F P) : list (list (F P)) :=
  let a i := ofZ (znth 0 h i) in
  let b i := fsub (y i) (ofZ (znth 0 h i)) in
  [ [a 0; a 1; a 2; a 3; b 0; b 1; b 2; b 3]; [y 0; y 1; y 2; y 3; f0; f0; f0; f0];
    [a 4; a 5; a 6; a 7; b 4; b 5; b 6; b 7]; [y 4; y 5; y 6; y 7; f0; f0; f0; f0] ].
Lemma forged_in : forall h y q k, 0 <= q < 2 -> 0 <= k < 4 -> blk P (forged h y) (2 * q) k = Some (ofZ (znth 0 h (k + 4 * q))).
Proof.
  intros h o q k Hq Hk. assert (q = 0 \/ q = 1) as [->| ->] by lia;
    assert (k = 0 \/ k = 1 \/ k = 2 \/ k = 3) as [->|[->|[->| ->]]] by lia; reflexivity.
Qed.
Lemma forged_out : forall h y q k, 0 <= q < 2 -> 0 <= k < 4 -> blk P (forged h y) (2 * q + 1) k = Some (y (k + 4 * q)).
Proof.
  intros h o q k Hq Hk. assert (q = 0 \/ q = 1) as [->| ->] by lia;
    assert (k = 0 \/ k = 1 \/ k = 2 \/ k = 3) as [->|[->|[->| ->]]] by lia; reflexivity.
Qed.
Lemma forged_sum : forall h y q k, 0 <= q < 2 -> 0 <= k < 4 -> exists b z g,
  blk P (forged h y) (2 * q) (k + 4) = Some b /\ blk P (forged h y) (2 * q + 1) k = Some z /\
  blk P (forged h y) (2 * q + 1) (k + 4) = Some g /\ fadd z (fmul (m64 P) g) = fadd (ofZ (znth 0 h (k + 4 * q))) b.
Proof.
  intros h y q k Hq Hk. exists (fsub (y (k + 4 * q)) (ofZ (znth 0 h (k + 4 * q)))), (y (k + 4 * q)), f0.
  split; [|split; [exact (forged_out h y q k Hq Hk)|split]].
  1, 2: assert (q = 0 \/ q = 1) as [->| ->] by lia; assert (k = 0 \/ k = 1 \/ k = 2 \/ k = 3) as [->|[->|[->| ->]]] by lia; reflexivity.
  ring.
Qed.
End Rows.

(** ** C111 *)

(** The table of [generate_assignments] satisfies the circuit exactly when the
    round constants are also in the constant column of the index of the first
    witness column; nothing outside the component's rows changes. *)
Theorem sha512_process_exact : forall P L c st wd row (T : table P), sha5_setup P c st wd row T ->
  let T' := q_assign c st wd row T in
  (sat L T' (q_circuit c st wd row) <-> forall t, 0 <= t < 80 -> T CConst (W c 0) (row + 389 + 9 * t) = ofZ (znth 0 s5_K t)) /\
  frame c q_rows row T T'.
Proof.
  intros P L c st wd row T [big [wf [Hs [Hw K]]]] T'.
  assert (h_ok := qwords_in P T st 8 (fun k Hk => proj2 (Hs k Hk))). assert (m_ok := qwords_in P T wd 16 (fun k Hk => proj2 (Hw k Hk))).
  split; [|apply put_frame]. rewrite <- q_rc_K.
  apply (q_sat_iff P big L c wf st wd row T (fun k Hk => proj1 (Hs k Hk)) (fun k Hk => proj1 (Hw k Hk)) K h_ok m_ok).
  - intros q k Hq Hk. apply honest_in; assumption.
  - intros q k Hq Hk. apply honest_sum; assumption.
Qed.
Print Assumptions sha512_process_exact.

(** Whatever columns it uses, the outputs are the new hash value. *)
Theorem sha512_process_value : forall P c st wd row (T : table P), sha5_setup P c st wd row T ->
  map (fun k => fval (vval (q_assign c st wd row T) (q_out c row k))) (zseq 0 8) =
  s5_compress (map (fun i => fval (vval T (st i))) (zseq 0 8)) (map (fun i => fval (vval T (wd i))) (zseq 0 16)).
Proof.
  intros P c st wd row T [big [wf [Hs [Hw K]]]].
  assert (h_ok := qwords_in P T st 8 (fun k Hk => proj2 (Hs k Hk))). assert (m_ok := qwords_in P T wd 16 (fun k Hk => proj2 (Hw k Hk))).
  set (h := map (fun i => fval (vval T (st i))) (zseq 0 8)) in *. set (m := map (fun i => fval (vval T (wd i))) (zseq 0 16)) in *.
  unfold s5_compress. apply map_ext_in. intros k Hk. apply in_zseq in Hk.
  set (s := q_states P (q_words P m 64) 80 (q_init h)).
  assert (V : vval (q_assign c st wd row T) (q_out c row (k mod 4 + 4 * (k / 4))) = ofZ ((znth 0 h (k mod 4 + 4 * (k / 4)) + znth 0 (c_list s) (k mod 4 + 4 * (k / 4))) mod 2 ^ 64)).
  { assert (Q : 0 <= k / 4 < 2) by (split; [apply Z.div_pos; lia|apply Z.div_lt_upper_bound; lia]).
    assert (R := Z.mod_pos_bound k 4 ltac:(lia)).
    exact (q_out_val P c wf st wd row T (q_out_block P h (c_list s)) (k / 4) (k mod 4) _ Q R (honest_out P h (c_list s) (k / 4) (k mod 4) Q R)). }
  replace (k mod 4 + 4 * (k / 4)) with k in V by (pose proof (Z.div_mod k 4 ltac:(lia)); lia). rewrite V.
  match goal with |- context [?x mod 2 ^ 64] => pose proof (Z.mod_pos_bound x (2 ^ 64) ltac:(lia)) end.
  rewrite fval_ofZ_small by lia. unfold w64. change (2 ^ 64) with 18446744073709551616. f_equal. f_equal.
  assert (Lm : zlen m = 16) by reflexivity.
  assert (E : abs5 s = s5_rounds (s5_schedule m 80) 80 (list_s5 h)).
  { unfold s. rewrite (q_words_eq P big m 64 m_ok Lm) by lia. apply (q_states_ok P big); [apply s5_sched_words; [lia|exact m_ok]|exact h_ok|lia]. }
  rewrite c_list_abs, E. reflexivity.
Qed.
Print Assumptions sha512_process_value.

(** When the two column indices agree, the component is complete. *)
Theorem sha512_process_complete : forall P L c st wd row (T : table P), sha5_setup P c st wd row T -> C c 0 = W c 0 ->
  let T' := q_assign c st wd row T in
  sat L T' (q_circuit c st wd row) /\ frame c q_rows row T T' /\
  map (fun k => fval (vval T' (q_out c row k))) (zseq 0 8) =
  s5_compress (map (fun i => fval (vval T (st i))) (zseq 0 8)) (map (fun i => fval (vval T (wd i))) (zseq 0 16)).
Proof.
  intros P L c st wd row T H E T'. destruct (sha512_process_exact P L c st wd row T H) as [S Fr].
  split; [|split; [exact Fr|exact (sha512_process_value P c st wd row T H)]].
  apply S. intros t Ht. rewrite <- q_rc_K. destruct H as [_ [_ [_ [_ K]]]].
  apply (K (W c 0)). unfold q_circuit, q_consts. apply in_or_app. left. apply in_map_iff. exists t. rewrite <- E. split; [|apply in_zseq; lia].
  f_equal. lia.
Qed.
Print Assumptions sha512_process_complete.

(** ** The hypotheses are met: one block, "abc", in the Pallas scalar field *)

Definition s5_tab (col : Z) : table Ppallas := fun ty k row =>
  match ty with
  | CPub => ofZ (znth 0 (s5_iv ++ s5_abc) row)
  | CConst => if k =? col then ofZ (znth 0 s5_K ((row - 389) / 9)) else f0
  | _ => f0
  end.
Definition s5_st (k : Z) : var := pin k.
Definition s5_wd (k : Z) : var := pin (8 + k).

Lemma s5_tab_words : qwords (s5_iv ++ s5_abc).
Proof. repeat constructor; discriminate. Qed.
Lemma s5_tab_small : forall col k, 0 <= k < 24 -> fval (s5_tab col CPub 0 k) = znth 0 (s5_iv ++ s5_abc) k.
Proof.
  intros col k Hk. unfold s5_tab. apply fval_ofZ_small. pose proof (qwords_at _ k s5_tab_words) as B.
  unfold isq, w64 in B. assert (2 ^ 180 < char Ppallas) by reflexivity. lia.
Qed.
Lemma s5_tab_64 : forall col k, 0 <= k < 24 -> fval (s5_tab col CPub 0 k) < 2 ^ 64.
Proof. intros col k Hk. rewrite s5_tab_small by exact Hk. apply (qwords_at _ k s5_tab_words). Qed.
Lemma q_set_only : forall P c st wd row k r (v : F P), In (SetConst k r v) (q_circuit c st wd row) ->
  exists i, 0 <= i < 80 /\ k = C c 0 /\ r = row + 389 + i * 9 /\ v = ofZ (znth 0 q_rc i).
Proof.
  intros P c st wd row k r v H. unfold q_circuit in H. apply in_app_or in H. destruct H as [H|H].
  - apply in_map_iff in H. destruct H as [i [E Hi]]. exists i. apply in_zseq in Hi. split; [lia|].
    assert (Ek := f_equal (fun x => match x with SetConst a _ _ => a | _ => 0 end) E).
    assert (Er := f_equal (fun x => match x with SetConst _ a _ => a | _ => 0 end) E).
    assert (Ev := f_equal (fun x => match x with SetConst _ _ a => a | _ => f0 end) E). cbv beta iota in Ek, Er, Ev. auto.
  - exfalso. apply in_app_or in H. destruct H as [H|H].
    + unfold q_gates in H. repeat (destruct H as [H|H]; [discriminate|]). destruct H.
    + unfold q_copies in H. repeat (apply in_app_or in H; destruct H as [H|H]).
      all: try (apply in_map_iff in H; destruct H as [x [E _]]; discriminate).
      all: try (apply in_flat_map in H; destruct H as [x [_ H]]).
      all: repeat (destruct H as [H|H]; [discriminate|]); destruct H.
Qed.
Definition comp_at (k : Z) : comp := mkComp (zseq 0 9) [k] [].
Example sha5_setup_ex : forall col, sha5_setup Ppallas (comp_at col) s5_st s5_wd 0 (s5_tab col).
Proof.
  intros col. split; [reflexivity|]. split; [apply (wf_std 9); lia|]. split; [|split].
  - intros k Hk. split; [intros [X _]; discriminate|]. apply (s5_tab_64 col k). lia.
  - intros k Hk. split; [intros [X _]; discriminate|]. apply (s5_tab_64 col (8 + k)). lia.
  - intros k r v H. apply q_set_only in H. destruct H as [i [Hi [-> [-> ->]]]]. rewrite q_rc_K. unfold s5_tab.
    change (C (comp_at col) 0) with col. rewrite Z.eqb_refl. replace (0 + 389 + i * 9 - 389) with (i * 9) by lia. rewrite Z.div_mul by lia. reflexivity.
Qed.
Example s5_in_ex : forall col, map (fun i => fval (vval (s5_tab col) (s5_st i))) (zseq 0 8) = s5_iv /\
  map (fun i => fval (vval (s5_tab col) (s5_wd i))) (zseq 0 16) = s5_abc.
Proof.
  intros col. split.
  - transitivity (map (znth 0 s5_iv) (zseq 0 8)); [|reflexivity]. apply map_ext_in. intros k Hk. apply in_zseq in Hk.
    unfold vval, s5_st. cbn [pin vty vidx vrot]. rewrite s5_tab_small by lia. unfold znth. apply app_nth1. cbn. lia.
  - transitivity (map (znth 0 s5_abc) (zseq 0 16)); [|reflexivity]. apply map_ext_in. intros k Hk. apply in_zseq in Hk.
    unfold vval, s5_wd. cbn [pin vty vidx vrot]. rewrite s5_tab_small by lia. unfold znth. rewrite app_nth2 by (cbn [s5_iv length]; lia).
    f_equal. cbn [s5_iv length]. lia.
Qed.
Example sha512_honest_ex : C (comp_at 0) 0 = W (comp_at 0) 0 /\
  map (fun k => fval (vval (q_assign (comp_at 0) s5_st s5_wd 0 (s5_tab 0)) (q_out (comp_at 0) 0 k))) (zseq 0 8) = s5_abc_hash.
Proof.
  split; [reflexivity|]. rewrite (sha512_process_value _ _ _ _ _ _ (sha5_setup_ex 0)).
  destruct (s5_in_ex 0) as [-> ->]. exact s5_compress_abc.
Qed.

(** ** C112 *)

(** Whatever the inputs, any eight field elements are the outputs of a
    satisfying table. *)
Theorem sha512_process_sound_refuted : forall P L c st wd row (T : table P), sha5_setup P c st wd row T -> C c 0 = W c 0 ->
  forall y : Z -> F P, exists T', frame c q_rows row T T' /\ sat L T' (q_circuit c st wd row) /\
    forall k, 0 <= k < 8 -> vval T' (q_out c row k) = y k.
Proof.
  intros P L c st wd row T [big [wf [Hs [Hw K]]]] E y.
  assert (h_ok := qwords_in P T st 8 (fun k Hk => proj2 (Hs k Hk))). assert (m_ok := qwords_in P T wd 16 (fun k Hk => proj2 (Hw k Hk))).
  set (ob := forged P (map (fun i => fval (vval T (st i))) (zseq 0 8)) y).
  exists (q_table P c st wd row T ob). split; [apply put_frame|]. split.
  - apply (q_sat_iff P big L c wf st wd row T (fun k Hk => proj1 (Hs k Hk)) (fun k Hk => proj1 (Hw k Hk)) K h_ok m_ok).
    + intros q k Hq Hk. apply forged_in; assumption.
    + intros q k Hq Hk. apply forged_sum; assumption.
    + intros t Ht. apply (K (W c 0)). unfold q_circuit, q_consts. apply in_or_app. left. apply in_map_iff. exists t. rewrite <- E.
      split; [f_equal; lia|apply in_zseq; lia].
  - intros k Hk. assert (Q : 0 <= k / 4 < 2) by (split; [apply Z.div_pos; lia|apply Z.div_lt_upper_bound; lia]).
    assert (R := Z.mod_pos_bound k 4 ltac:(lia)).
    pose proof (q_out_val P c wf st wd row T ob (k / 4) (k mod 4) _ Q R (forged_out P _ y (k / 4) (k mod 4) Q R)) as V.
    replace (k mod 4 + 4 * (k / 4)) with k in V by (pose proof (Z.div_mod k 4 ltac:(lia)); lia). exact V.
Qed.
Print Assumptions sha512_process_sound_refuted.

(** A satisfying table for the block "abc" with the hash value 0. *)
Theorem sha512_process_wrong_hash_refuted : exists (T' : table Ppallas), forall L,
  sat L T' (q_circuit (comp_at 0) s5_st s5_wd 0) /\
  map (fun i => fval (vval T' (s5_st i))) (zseq 0 8) = s5_iv /\ map (fun i => fval (vval T' (s5_wd i))) (zseq 0 16) = s5_abc /\
  (forall k, 0 <= k < 8 -> fval (vval T' (q_out (comp_at 0) 0 k)) = 0) /\ s5_compress s5_iv s5_abc <> [0; 0; 0; 0; 0; 0; 0; 0].
Proof.
  exists (q_table Ppallas (comp_at 0) s5_st s5_wd 0 (s5_tab 0) (forged Ppallas (map (fun i => fval (vval (s5_tab 0) (s5_st i))) (zseq 0 8)) (fun _ => f0))).
  intros L. destruct (sha5_setup_ex 0) as [big [wf [Hs [Hw K]]]].
  assert (h_ok := qwords_in _ _ s5_st 8 (fun k Hk => proj2 (Hs k Hk))). assert (m_ok := qwords_in _ _ s5_wd 16 (fun k Hk => proj2 (Hw k Hk))).
  split; [|split; [|split; [|split]]].
  - apply (q_sat_iff Ppallas big L (comp_at 0) wf s5_st s5_wd 0 (s5_tab 0) (fun k Hk => proj1 (Hs k Hk)) (fun k Hk => proj1 (Hw k Hk)) K h_ok m_ok).
    + intros q k Hq Hk. apply forged_in; assumption.
    + intros q k Hq Hk. apply forged_sum; assumption.
    + intros t Ht. apply (K 0). unfold q_circuit, q_consts. apply in_or_app. left. apply in_map_iff. exists t.
      split; [change (C (comp_at 0) 0) with 0; f_equal; lia|apply in_zseq; lia].
  - rewrite <- (proj1 (s5_in_ex 0)). apply map_ext_in. reflexivity.
  - rewrite <- (proj2 (s5_in_ex 0)). apply map_ext_in. reflexivity.
  - intros k Hk. assert (Q : 0 <= k / 4 < 2) by (split; [apply Z.div_pos; lia|apply Z.div_lt_upper_bound; lia]).
    assert (R := Z.mod_pos_bound k 4 ltac:(lia)).
    pose proof (q_out_val Ppallas (comp_at 0) wf s5_st s5_wd 0 (s5_tab 0) _ (k / 4) (k mod 4) _ Q R (forged_out Ppallas (map (fun i => fval (vval (s5_tab 0) (s5_st i))) (zseq 0 8)) (fun _ => f0) (k / 4) (k mod 4) Q R)) as V.
    replace (k mod 4 + 4 * (k / 4)) with k in V by (pose proof (Z.div_mod k 4 ltac:(lia)); lia). rewrite V. reflexivity.
  - rewrite s5_compress_abc. discriminate.
Qed.
Print Assumptions sha512_process_wrong_hash_refuted.

(** The gate reads the round constant in the constant column of the index of
    the first {e witness} column, the circuit puts it in the component's constant
    column: with any other constant column the assigned table is rejected. *)
Theorem sha512_process_columns_refuted : forall col, col <> 0 ->
  sha5_setup Ppallas (comp_at col) s5_st s5_wd 0 (s5_tab col) /\
  forall L, ~ sat L (q_assign (comp_at col) s5_st s5_wd 0 (s5_tab col)) (q_circuit (comp_at col) s5_st s5_wd 0).
Proof.
  intros col N. split; [apply sha5_setup_ex|]. intros L S.
  assert (S' := proj1 (proj1 (sha512_process_exact _ L _ _ _ _ _ (sha5_setup_ex col))) S 0 ltac:(lia)). clear S. rename S' into S.
  unfold s5_tab in S. change (W (comp_at col) 0) with 0 in S. rewrite (proj2 (Z.eqb_neq 0 col)) in S by lia.
  apply (f_equal (@fval Ppallas)) in S. vm_compute in S. discriminate.
Qed.
Print Assumptions sha512_process_columns_refuted.
