(** sha512_process: the table written by the assignment satisfies the circuit
    exactly when the round constants also stand where the gate reads them, and
    the output rows are free. *)
From Coq Require Import ZArith List Lia Bool Field.
From Verif Require Import Base Field Plonk PlonkFacts Bits Sha512Spec Sha256Model Sha256Sparse Sha256Words Sha256Gadgets Sha256Blocks Sha256View Sha256Honest Sha256Complete Sha512Model Sha512Words.
Import ListNotations.
Open Scope Z_scope.

(** ** The integers of the specification *)

Definition isst5 (s : s5st) : Prop :=
  isq (d_a s) /\ isq (d_b s) /\ isq (d_c s) /\ isq (d_d s) /\ isq (d_e s) /\ isq (d_f s) /\ isq (d_g s) /\ isq (d_h s).
Lemma isst5_round : forall k w s, isst5 s -> isst5 (s5_round k w s).
Proof. intros k w s [A [B [C [D [E [G [H I]]]]]]]. unfold isst5; cbn [s5_round d_a d_b d_c d_d d_e d_f d_g d_h]. repeat (apply conj; [first [assumption|apply isq_mod]|]). assumption. Qed.
Lemma t1_bound5 : forall k w s, isst5 s -> isq k -> isq w -> 0 <= s5_t1 k w s < 5 * w64.
Proof.
  intros k w s [_ [_ [_ [_ [E [G [H I]]]]]]] Hk Hw. unfold s5_t1. pose proof (isq_S1 _ E) as A. pose proof (isq_ch _ _ _ E G H) as B.
  unfold isq in *. lia.
Qed.
Lemma t2_bound5 : forall s, isst5 s -> 0 <= s5_t2 s < 2 * w64.
Proof.
  intros s [A [B [C _]]]. unfold s5_t2. pose proof (isq_S0 _ A) as X. pose proof (isq_maj _ _ _ A B C) as Y. unfold isq in *. lia.
Qed.

Definition qwords (m : list Z) : Prop := Forall isq m.
Lemma qwords_at : forall m k, qwords m -> isq (znth 0 m k).
Proof.
  intros m k H. unfold znth. destruct (nth_in_or_default (Z.to_nat k) m 0) as [I|E].
  - unfold qwords in H. rewrite Forall_forall in H. apply H, I.
  - rewrite E. split; [discriminate|reflexivity].
Qed.
Lemma s5_sched_S : forall m n, 16 <= n -> s5_schedule m (n + 1) = s5_schedule m n ++ [s5_next (s5_schedule m n) n].
Proof. intros m n Hn. unfold s5_schedule. rewrite zseq_snoc by lia. rewrite fold_left_app. reflexivity. Qed.
Lemma s5_sched_words : forall m n, 16 <= n -> qwords m -> qwords (s5_schedule m n).
Proof.
  intros m n Hn Hm. revert n Hn. apply Zlt_lower_bound_ind with (z := 16). intros n IH Hn. destruct (Z.eq_dec n 16) as [->|N]; [exact Hm|].
  replace n with (n - 1 + 1) by lia. rewrite s5_sched_S by lia. apply Forall_app. split; [apply IH; lia|]. repeat constructor; apply isq_mod.
Qed.
Lemma zlen_s5_sched : forall m n, 16 <= n -> zlen m = 16 -> zlen (s5_schedule m n) = n.
Proof.
  intros m n Hn Hm. revert n Hn. apply Zlt_lower_bound_ind with (z := 16). intros n IH Hn. destruct (Z.eq_dec n 16) as [->|N]; [exact Hm|].
  replace n with (n - 1 + 1) by lia. rewrite s5_sched_S, zlen_app, IH by lia. reflexivity.
Qed.
Lemma s5_sched_stable : forall m a b k, zlen m = 16 -> 16 <= a -> a <= b -> 0 <= k < a -> znth 0 (s5_schedule m b) k = znth 0 (s5_schedule m a) k.
Proof.
  intros m a b k Hm Ha Hb Hk. revert b Hb. apply Zlt_lower_bound_ind with (z := a). intros b IH Hb. destruct (Z.eq_dec b a) as [->|N]; [reflexivity|].
  replace b with (b - 1 + 1) by lia. rewrite s5_sched_S by lia. rewrite znth_app_l by (rewrite zlen_s5_sched; lia). apply IH. lia.
Qed.
Lemma s5_sched_rec : forall m n r, zlen m = 16 -> 0 <= r -> r + 16 < n -> let w := s5_schedule m n in
  znth 0 w (r + 16) = (s5_s1 (znth 0 w (r + 14)) + znth 0 w (r + 9) + s5_s0 (znth 0 w (r + 1)) + znth 0 w r) mod w64.
Proof.
  intros m n r Hm Hr Hn w. unfold w. rewrite (s5_sched_stable m (r + 16 + 1) n) by lia. rewrite s5_sched_S by lia.
  rewrite znth_last by (apply zlen_s5_sched; lia). unfold s5_next.
  replace (r + 16 - 2) with (r + 14) by lia. replace (r + 16 - 7) with (r + 9) by lia.
  replace (r + 16 - 15) with (r + 1) by lia. replace (r + 16 - 16) with r by lia.
  rewrite !(s5_sched_stable m (r + 16) n) by lia. reflexivity.
Qed.
Lemma s5_rounds_S : forall w n s, 0 <= n -> s5_rounds w (n + 1) s = s5_round (znth 0 s5_K n) (znth 0 w n) (s5_rounds w n s).
Proof. intros. unfold s5_rounds. rewrite zseq_snoc, fold_left_app by lia. reflexivity. Qed.
Lemma q_rc_K : q_rc = s5_K.
Proof. reflexivity. Qed.
Lemma rc_ok : forall r, isq (znth 0 q_rc r).
Proof. intros r. apply qwords_at. rewrite q_rc_K. unfold s5_K. repeat (apply Forall_cons; [split; [discriminate|reflexivity]|]). apply Forall_nil. Qed.
Lemma carry_lim5 : forall s m, 0 <= s < m * w64 -> 0 <= s / 2 ^ 64 < m.
Proof. intros s m H. unfold w64 in H. split; [apply Z.div_pos; lia|]. apply Z.div_lt_upper_bound; lia. Qed.

(** ** The integers of the assignment, and one block *)

Section Honest5.
Variable P : params.
Hypothesis big : 2 ^ 180 < char P.
Notation F := (F P).
Notation table := (table P).
Implicit Types T : table.
Variable c : comp.
Add Field Ff : (F_field P) (morphism (F_morph P), constants [F_const], power_tac (F_power P) [F_pow_tac]).
Local Open Scope F_scope.

Lemma fred5 : forall z, (0 <= z < 2 ^ 180)%Z -> fred P z = z.
Proof. intros. apply Z.mod_small. lia. Qed.
Lemma q_v4_eq : forall e, q_v4 P e = sn 7 e 0 64.
Proof.
  intros e. unfold q_v4. cbv zeta. rewrite <- (parts_qe 7 e). apply fred5. pose proof (sn_bound 7 e 0 64 ltac:(lia) ltac:(lia)) as B.
  change (7 ^ (64 - 0))%Z with (7 ^ 64)%Z in B. lia.
Qed.
Lemma q_v0_eq : forall e, q_v0 P e = sn 4 e 0 64.
Proof.
  intros e. unfold q_v0. cbv zeta. rewrite <- (parts_qc 4 e). apply fred5. pose proof (sn_bound 4 e 0 64 ltac:(lia) ltac:(lia)) as B.
  change (4 ^ (64 - 0))%Z with (4 ^ 64)%Z in B. lia.
Qed.
Lemma ok_S1 : forall x, isq x -> five_ok 7 (q_sp_S1 (sas 64 7 x q_e_sizes)) (s5_S1 x) (q_S1_of P x).
Proof.
  intros x Hx. unfold q_S1_of. pose proof (bound_S1 x) as B. rewrite fred5 by lia. rewrite sum_S1, <- val5_S1 by exact Hx.
  apply five_rss; [lia|apply (E_facts _ (len_bits64 x) (small_lbits 64 x))..].
Qed.

Definition abs5 (s : cst) : s5st := mkS5 (c_a s) (c_b s) (c_c s) (c_d s) (c_e s) (c_f s) (c_g s) (c_h s).
Record cok5 (s : cst) : Prop := {
  q_w : isst5 (abs5 s);
  q_1 : v_1 s = sn 4 (c_b s) 0 64; q_2 : v_2 s = sn 4 (c_c s) 0 64;
  q_5 : v_5 s = sn 7 (c_f s) 0 64; q_6 : v_6 s = sn 7 (c_g s) 0 64 }.

Lemma ok_ch5 : forall s, cok5 s ->
  four_ok 7 (sn 7 (c_e s) 0 64 + 2 * sn 7 (c_f s) 0 64 + 3 * sn 7 (c_g s) 0 64) (s5_ch (c_e s) (c_f s) (c_g s)) (q_ch_of P s).
Proof.
  intros s [[_ [_ [_ [_ [E [G [H _]]]]]]] _ _ K5 K6]. unfold q_ch_of. rewrite q_v4_eq, K5, K6.
  change (sn 7 (c_e s) 0 64) with (numl 7 (lbits 64 (c_e s))). change (sn 7 (c_f s) 0 64) with (numl 7 (lbits 64 (c_f s))).
  change (sn 7 (c_g s) 0 64) with (numl 7 (lbits 64 (c_g s))).
  rewrite <- numl_ch3 by (rewrite !len_bits64; reflexivity). rewrite <- val5_ch by assumption.
  apply four_rss; [lia|apply zip3_length; apply len_bits64|].
  eapply (small_zip3 2); [intros; lia| | |]; apply small_lbits.
Qed.
Lemma ok_maj5 : forall s, cok5 s ->
  four_ok 4 (sn 4 (c_a s) 0 64 + sn 4 (c_b s) 0 64 + sn 4 (c_c s) 0 64) (s5_maj (c_a s) (c_b s) (c_c s)) (q_maj_of P s).
Proof.
  intros s [[A [B [C _]]] K1 K2 _ _]. unfold q_maj_of. rewrite q_v0_eq, K1, K2.
  change (sn 4 (c_a s) 0 64) with (numl 4 (lbits 64 (c_a s))). change (sn 4 (c_b s) 0 64) with (numl 4 (lbits 64 (c_b s))).
  change (sn 4 (c_c s) 0 64) with (numl 4 (lbits 64 (c_c s))).
  rewrite <- numl_add3 by (rewrite !len_bits64; reflexivity). rewrite <- val5_maj by assumption.
  apply four_rss; [lia|apply zip3_length; apply len_bits64|].
  eapply (small_zip3 2); [intros; lia| | |]; apply small_lbits.
Qed.
Lemma q_t1_eq : forall k w s, cok5 s -> q_tmp1 P k w s = s5_t1 k w (abs5 s).
Proof.
  intros k w s H. unfold q_tmp1, s5_t1. cbn [abs5 d_h d_e d_f d_g].
  rewrite (f4_join _ _ _ _ (ok_ch5 s H)). rewrite (f5_join _ _ _ _ (ok_S1 (c_e s) ltac:(apply (q_w _ H)))). reflexivity.
Qed.
Lemma q_asum_eq : forall k w s, cok5 s -> q_asum P k w s = (s5_t1 k w (abs5 s) + s5_t2 (abs5 s))%Z.
Proof.
  intros k w s H. unfold q_asum, s5_t2. rewrite q_t1_eq by exact H. cbn [abs5 d_a d_b d_c].
  rewrite (f4_join _ _ _ _ (ok_maj5 s H)). rewrite (f5_join _ _ _ _ (ok_S0 (c_a s) ltac:(apply (q_w _ H)))). ring.
Qed.
Lemma step_abs5 : forall k w s, cok5 s -> isq k -> isq w -> cok5 (q_step P k w s) /\ abs5 (q_step P k w s) = s5_round k w (abs5 s).
Proof.
  intros k w s H Hk Hw. pose proof (q_w _ H) as I. pose proof (t1_bound5 k w _ I Hk Hw) as B1. pose proof (t2_bound5 _ I) as B2.
  assert (E : abs5 (q_step P k w s) = s5_round k w (abs5 s)).
  { unfold q_step, s5_round, q_anew, q_enew, q_esum. unfold abs5 at 1. cbn [c_a c_b c_c c_d c_e c_f c_g c_h].
    rewrite q_asum_eq, q_t1_eq by exact H. destruct I as [Ia [Ib [Ic [Id _]]]]. cbn [abs5 d_a d_b d_c d_d] in Id.
    rewrite !fred5 by (unfold isq, w64 in *; lia). rewrite (Z.add_comm (s5_t1 k w (abs5 s)) (c_d s)). reflexivity. }
  split; [|exact E]. constructor.
  - rewrite E. apply isst5_round, I.
  - exact (q_v0_eq (c_a s)).
  - exact (q_1 _ H).
  - exact (q_v4_eq (c_e s)).
  - exact (q_5 _ H).
Qed.
Lemma q_carry_eq : forall s, (0 <= s < 2 ^ 180)%Z -> q_carry P s (fred P s mod 2 ^ 64)%Z = ofZ (s / 2 ^ 64).
Proof.
  intros s Hs. unfold q_carry. rewrite fred5 by exact Hs. rewrite <- ofZ_sub.
  replace (s - s mod 2 ^ 64)%Z with (s / 2 ^ 64 * 2 ^ 64)%Z by (pose proof (Z.div_mod s (2 ^ 64) ltac:(lia)); lia).
  rewrite ofZ_mul. field. intros E. change (f0 : F) with (ofZ 0 : F) in E. apply ofZ_inj in E. rewrite !Z.mod_small in E by lia. discriminate.
Qed.

(** ** Blocks *)
Variable T : table.
Variable i : Z.
Notation t k m := (T CWit (W c k%Z) (i + m)%Z).

Ltac rows_goal :=
  repeat match goal with |- context [(?i + (?a + ?b))%Z] =>
    is_var i; let k := eval vm_compute in (a + b)%Z in change (i + (a + b))%Z with (i + k)%Z end.
Ltac ev_goal :=
  repeat (rewrite ?eval_bin, ?eval_evar, ?eval_ecst, ?gval_at, ?gval_k; cbn [ebop]); rows_goal.
Ltac reads R := repeat match goal with |- context [T CWit (W c ?k) (i + ?m)%Z] =>
    rewrite (R m k _ ltac:(lia) ltac:(lia) eq_refl) end.
Ltac open_goal := rewrite ?gh_cons, ?gh_nil;
  ev_goal; repeat match goal with |- _ /\ _ => split end; try exact I.
Ltac atoms := repeat match goal with |- context [znth 0%Z ?l ?k] => generalize (znth 0%Z l k); intro end;
  repeat match goal with |- context [at1 ?l ?k] => generalize (at1 l k); intro end.
Ltac lift := apply fsub_eq0; rewrite <- ?ofZ_mul, <- ?ofZ_add, <- ?ofZ_mul, <- ?ofZ_add; apply (f_equal ofZ).

Lemma bit_c : forall k, (0 <= k < 2)%Z -> let x := ofZ k : F in (x - ofZ 1) * x = f0.
Proof. intros k H. assert (k = 0 \/ k = 1)%Z as [->| ->] by lia; cbv zeta; ring. Qed.

Section Msg.
Variables (ws : list Z) (r : Z).
Hypothesis R : forall m k v, (0 <= m < 6)%Z -> (0 <= k < 9)%Z -> blk P (q_msg_block P ws r) m k = Some v -> t k m = v.
Let a := znth 0%Z ws (r + 1).
Let b := znth 0%Z ws (r + 14).
Let x := znth 0%Z ws (r + 16).
Hypothesis (Ia : isq a) (Ib : isq b) (I9 : isq (znth 0%Z ws (r + 9))) (I0 : isq (znth 0%Z ws r)).
Hypothesis Ex : x = (fred P (q_msg_sum ws r) mod 2 ^ 64)%Z.

Lemma q_msg_sum_eq : q_msg_sum ws r = (s5_s1 b + znth 0 ws (r + 9) + s5_s0 a + znth 0 ws r)%Z.
Proof.
  unfold q_msg_sum. cbv zeta. fold a b. rewrite <- (f5_join _ _ _ _ (ok_s0 a Ia)), <- (f5_join _ _ _ _ (ok_s1 b Ib)).
  unfold q_join. lia.
Qed.
Lemma q_msg_bound : (0 <= q_msg_sum ws r < 4 * w64)%Z.
Proof. rewrite q_msg_sum_eq. pose proof (isq_s0 a Ia) as A. pose proof (isq_s1 b Ib) as B. unfold isq in *. lia. Qed.

Lemma q_s0_honest : gh P T (i + 1) (q_s0_gate P c).
Proof.
  pose proof (ok_s0 a Ia) as OK. pose proof (parts_qa a Ia) as PO. cbv zeta in PO. destruct (bits_qa a) as [B0 B2].
  unfold q_s0_gate. open_goal; reads R; fold a.
  - lift. exact PO.
  - apply bit_c. exact B0.
  - apply bit_c. exact B2.
  - lift. rewrite (f5_sum4 _ _ _ OK). unfold q_sp_s0. atoms. ring.
Qed.
Lemma q_msg_honest : gh P T (i + 3) (q_msg_gate P c).
Proof.
  pose proof q_msg_bound as MB. pose proof (carry_lim5 _ _ MB) as CB.
  assert (EC : q_carry P (q_msg_sum ws r) x = ofZ (q_msg_sum ws r / 2 ^ 64)) by (rewrite Ex; apply q_carry_eq; unfold w64 in MB; lia).
  unfold q_msg_gate. open_goal; reads R; fold a b x; rewrite ?EC.
  - unfold m64. lift. rewrite Ex. rewrite fred5 by (unfold w64 in MB; lia). pose proof (Z.div_mod (q_msg_sum ws r) (2 ^ 64) ltac:(lia)) as E.
    change 18446744073709551616%Z with (2 ^ 64)%Z. transitivity (q_msg_sum ws r); [lia|]. unfold q_msg_sum. cbv zeta. fold a b. lia.
  - apply (prod4_c P). exact CB.
Qed.
Lemma q_s1_honest : gh P T (i + 4) (q_s1_gate P c).
Proof.
  pose proof (ok_s1 b Ib) as OK. pose proof (parts_qb b Ib) as PO. cbv zeta in PO. pose proof (top_qb b) as B5.
  unfold q_s1_gate. open_goal; reads R; fold b.
  - lift. exact PO.
  - apply (prod8_c P). exact B5.
  - lift. rewrite (f5_sum4 _ _ _ OK). unfold q_sp_s1. atoms. ring.
Qed.
End Msg.

Section Cmp.
Variables (kc wr : Z) (s : cst).
Hypothesis R : forall m k v, (0 <= m < 9)%Z -> (0 <= k < 9)%Z -> blk P (q_cmp_block P kc wr s) m k = Some v -> t k m = v.
Hypothesis Hs : cok5 s.
Hypothesis (Ik : isq kc) (Iw : isq wr).

Lemma q_esum_bound : (0 <= q_esum P kc wr s < 6 * w64)%Z.
Proof.
  unfold q_esum. rewrite q_t1_eq by exact Hs. pose proof (t1_bound5 kc wr _ (q_w _ Hs) Ik Iw). destruct (q_w _ Hs) as [_ [_ [_ [D _]]]].
  unfold isq in D. cbn [abs5 d_d] in D. lia.
Qed.
Lemma q_asum_bound : (0 <= q_asum P kc wr s < 7 * w64)%Z.
Proof. rewrite q_asum_eq by exact Hs. pose proof (t1_bound5 kc wr _ (q_w _ Hs) Ik Iw). pose proof (t2_bound5 _ (q_w _ Hs)). lia. Qed.

Lemma q_S1_honest : gh P T (i + 1) (q_S1_gate P c).
Proof.
  pose proof (q_w _ Hs) as [_ [_ [_ [_ [Ie _]]]]]. cbn [abs5 d_e] in Ie. pose proof (ok_S1 _ Ie) as O1.
  pose proof (parts_qe 2 (c_e s)) as PE. cbv zeta in PE. rewrite (sn_word _ Ie) in PE.
  unfold q_S1_gate. open_goal; reads R.
  - lift. exact PE.
  - lift. rewrite q_v4_eq. exact (parts_qe 7 (c_e s)).
  - lift. rewrite (f5_sum _ _ _ _ O1). unfold q_sp_S1. atoms. ring.
Qed.
Lemma q_S0_honest : gh P T (i + 7) (q_S0_gate P c).
Proof.
  pose proof (q_w _ Hs) as [Ia _]. cbn [abs5 d_a] in Ia.
  pose proof (parts_qc 2 (c_a s)) as PA. cbv zeta in PA. rewrite (sn_word _ Ia) in PA.
  unfold q_S0_gate. open_goal; reads R.
  - lift. exact PA.
  - lift. rewrite q_v0_eq. exact (parts_qc 4 (c_a s)).
Qed.
Lemma q_maj_honest : gh P T (i + 6) (q_maj_gate P c).
Proof.
  unfold q_maj_gate. open_goal; reads R. lift. rewrite q_v0_eq, (q_1 _ Hs), (q_2 _ Hs). rewrite (f4_sum4 _ _ _ (ok_maj5 _ Hs)). reflexivity.
Qed.
Lemma q_ch_honest : gh P T (i + 2) (q_ch_gate P c).
Proof.
  unfold q_ch_gate. open_goal; reads R. lift. rewrite q_v4_eq, (q_5 _ Hs), (q_6 _ Hs). rewrite (f4_sum _ _ _ _ (ok_ch5 _ Hs)). reflexivity.
Qed.
Lemma e_const : forall u v (y : F), ofZ u - (v + y) = f0 -> v = ofZ (u - kc) -> y = ofZ kc.
Proof. intros u v y H E. rewrite E, ofZ_sub in H. transitivity (ofZ kc - f0 : F); [rewrite <- H|]; ring. Qed.
(** The gate for the new [e] holds exactly when it reads the round constant. *)
Lemma q_e_honest : gh P T (i + 3) (q_e_gate P c) <-> T CConst (W c 0) (i + 3)%Z = ofZ kc.
Proof.
  pose proof q_esum_bound as EB. pose proof (carry_lim5 _ _ EB) as CE.
  assert (EE : q_carry P (q_esum P kc wr s) (q_enew P kc wr s) = ofZ (q_esum P kc wr s / 2 ^ 64)) by (apply q_carry_eq; unfold w64 in EB; lia).
  unfold q_e_gate. rewrite ?gh_cons, ?gh_nil. ev_goal. reads R. rewrite EE. split.
  - intros [H _]. apply (e_const _ _ _ H). rewrite <- ?ofZ_mul, <- ?ofZ_add, <- ?ofZ_mul, <- ?ofZ_add. apply (f_equal ofZ).
    unfold q_tmp1, q_join, q_join4. lia.
  - intros H. rewrite H. repeat match goal with |- _ /\ _ => split end; try exact I.
    + lift. unfold q_tmp1, q_join, q_join4. lia.
    + unfold m64. lift. unfold q_enew. rewrite fred5 by (unfold w64 in EB; lia). change 18446744073709551616%Z with (2 ^ 64)%Z.
      pose proof (Z.div_mod (q_esum P kc wr s) (2 ^ 64) ltac:(lia)) as E. transitivity (q_esum P kc wr s); [unfold q_esum; lia|lia].
    + apply (prod6_c P). exact CE.
Qed.
Lemma q_a_honest : gh P T (i + 5) (q_a_gate P c).
Proof.
  pose proof q_asum_bound as AB. pose proof (carry_lim5 _ _ AB) as CA.
  assert (EA : q_carry P (q_asum P kc wr s) (q_anew P kc wr s) = ofZ (q_asum P kc wr s / 2 ^ 64)) by (apply q_carry_eq; unfold w64 in AB; lia).
  unfold q_a_gate. open_goal; reads R; rewrite ?EA.
  - unfold m64. lift. unfold q_anew. rewrite fred5 by (unfold w64 in AB; lia). change 18446744073709551616%Z with (2 ^ 64)%Z.
    pose proof (Z.div_mod (q_asum P kc wr s) (2 ^ 64) ltac:(lia)) as E. transitivity (q_asum P kc wr s); [lia|unfold q_asum, q_join, q_join4; lia].
  - apply (prod7_c P). exact CA.
Qed.
End Cmp.

Lemma q_out_honest : (forall k, (0 <= k < 4)%Z -> t k 1 + m64 P * t (k + 4) 1 = t k 0 + t (k + 4) 0) -> gh P T (i + 0) (q_out_gate P c).
Proof.
  intros H. unfold q_out_gate. open_goal; apply fsub_eq0.
  - exact (H 0%Z ltac:(lia)).
  - exact (H 1%Z ltac:(lia)).
  - exact (H 2%Z ltac:(lia)).
  - exact (H 3%Z ltac:(lia)).
Qed.
End Honest5.

(** ** The schedule and the states of the assignment *)

Section Ints5.
Variable P : params.
Hypothesis big : 2 ^ 180 < char P.

Lemma q_msg_next : forall ws r, qwords ws -> fred P (q_msg_sum ws r) mod 2 ^ 64 =
  (s5_s1 (znth 0 ws (r + 14)) + znth 0 ws (r + 9) + s5_s0 (znth 0 ws (r + 1)) + znth 0 ws r) mod w64.
Proof.
  intros ws r H. pose proof (qwords_at ws (r + 1) H) as I1. pose proof (qwords_at ws (r + 14) H) as I14.
  pose proof (qwords_at ws (r + 9) H) as I9. pose proof (qwords_at ws r H) as I0.
  rewrite (fred5 P big); [rewrite (q_msg_sum_eq ws r I1 I14); reflexivity|].
  pose proof (q_msg_bound ws r I1 I14 I9 I0). unfold w64 in *. lia.
Qed.
Lemma q_words_eq : forall m n, qwords m -> zlen m = 16 -> 0 <= n -> q_words P m n = s5_schedule m (16 + n).
Proof.
  intros m n Hm Hl Hn. revert n Hn. apply Zlt_lower_bound_ind with (z := 0). intros n IH Hn. destruct (Z.eq_dec n 0) as [->|N]; [reflexivity|].
  replace (16 + n) with (16 + (n - 1) + 1) by lia. rewrite s5_sched_S by lia. unfold q_words. replace n with (n - 1 + 1) at 1 by lia.
  rewrite zseq_snoc by lia. rewrite fold_left_app. cbn [fold_left]. fold (q_words P m (n - 1)). rewrite IH by lia. f_equal. f_equal.
  rewrite q_msg_next by (apply s5_sched_words; [lia|exact Hm]). unfold s5_next.
  replace (16 + (n - 1) - 2) with (n - 1 + 14) by lia. replace (16 + (n - 1) - 7) with (n - 1 + 9) by lia.
  replace (16 + (n - 1) - 15) with (n - 1 + 1) by lia. replace (16 + (n - 1) - 16) with (n - 1) by lia. reflexivity.
Qed.
Lemma q_init_ok : forall h, qwords h -> cok5 (q_init h) /\ abs5 (q_init h) = list_s5 h.
Proof.
  intros h H. split; [|reflexivity]. constructor; try exact (sparse64_eq _ _). unfold abs5, q_init, isst5. cbn [c_a c_b c_c c_d c_e c_f c_g c_h d_a d_b d_c d_d d_e d_f d_g d_h].
  repeat (apply conj; [apply qwords_at, H|]). apply qwords_at, H.
Qed.
Lemma q_states_S : forall ws n s, 0 <= n -> q_states P ws (n + 1) s = q_step P (znth 0 q_rc n) (znth 0 ws n) (q_states P ws n s).
Proof. intros ws n s Hn. unfold q_states. rewrite zseq_snoc by lia. rewrite fold_left_app. reflexivity. Qed.
Lemma q_states_ok : forall ws h n, qwords ws -> qwords h -> 0 <= n ->
  cok5 (q_states P ws n (q_init h)) /\ abs5 (q_states P ws n (q_init h)) = s5_rounds ws n (list_s5 h).
Proof.
  intros ws h n Hw Hh Hn. revert n Hn. apply Zlt_lower_bound_ind with (z := 0). intros n IH Hn. destruct (Z.eq_dec n 0) as [->|N].
  { exact (q_init_ok h Hh). }
  replace n with (n - 1 + 1) by lia. rewrite q_states_S, s5_rounds_S by lia. destruct (IH (n - 1) ltac:(lia)) as [A E].
  destruct (step_abs5 P big (znth 0 q_rc (n - 1)) (znth 0 ws (n - 1)) _ A (rc_ok _) (qwords_at ws _ Hw)) as [B E'].
  split; [exact B|]. rewrite E', E, q_rc_K. reflexivity.
Qed.
End Ints5.

(** ** Tables *)

Section Tables5.
Variable P : params.
Hypothesis big : 2 ^ 180 < char P.
Notation F := (F P).
Notation table := (table P).
Variable L : lenv P.
Variable c : comp.
Hypothesis wf : wf_comp c 9.
Variables (st wd : Z -> var) (row : Z).
Variable T : table.
Hypothesis st_out : forall k, 0 <= k < 8 -> outside c q_rows row (st k).
Hypothesis wd_out : forall k, 0 <= k < 16 -> outside c q_rows row (wd k).
Hypothesis K_in : consts_in T (q_circuit c st wd row).
Let h := map (fun i => fval (vval T (st i))) (zseq 0 8).
Let m := map (fun i => fval (vval T (wd i))) (zseq 0 16).
Hypothesis h_ok : qwords h.
Hypothesis m_ok : qwords m.

(** The four output rows are any rows that begin with the input state and
    add up. *)
Variable ob : list (list F).
Hypothesis ob_in : forall q k, 0 <= q < 2 -> 0 <= k < 4 -> blk P ob (2 * q) k = Some (ofZ (znth 0 h (k + 4 * q))).
Hypothesis ob_sum : forall q k, 0 <= q < 2 -> 0 <= k < 4 -> exists b y g,
  blk P ob (2 * q) (k + 4) = Some b /\ blk P ob (2 * q + 1) k = Some y /\ blk P ob (2 * q + 1) (k + 4) = Some g /\
  fadd y (fmul (m64 P) g) = fadd (ofZ (znth 0 h (k + 4 * q))) b.

Let ws := q_words P m 64.
Let cs t := q_states P ws t (q_init h).
Definition q_table : table := put c row q_rows (q_cell P h ws cs ob) T.
Notation T' := q_table.

Lemma q_m_len : zlen m = 16.
Proof. unfold m, zlen. rewrite map_length. reflexivity. Qed.
Lemma q_ws_eq : ws = s5_schedule m 80.
Proof. unfold ws. rewrite (q_words_eq P big m 64 m_ok q_m_len) by lia. reflexivity. Qed.
Lemma q_ws_words : qwords ws.
Proof. rewrite q_ws_eq. apply s5_sched_words; [lia|exact m_ok]. Qed.
Lemma q_cs_good : forall t, 0 <= t -> cok5 (cs t) /\ abs5 (cs t) = s5_rounds ws t (list_s5 h).
Proof. intros t Ht. apply (q_states_ok P big); [exact q_ws_words|exact h_ok|exact Ht]. Qed.
Lemma q_cs_S : forall t, 0 <= t -> cs (t + 1) = q_step P (znth 0 q_rc t) (znth 0 ws t) (cs t).
Proof. intros t Ht. apply q_states_S. exact Ht. Qed.

Lemma q_frame : frame c q_rows row T T'.
Proof. apply put_frame. Qed.
Lemma q_st : forall k, 0 <= k < 8 -> vval T' (st k) = ofZ (znth 0 h k).
Proof.
  intros k Hk. rewrite (vval_frame P c q_rows row T T' (st k) q_frame (st_out k Hk)).
  unfold h. rewrite znth_map_zseq by lia. rewrite Z.add_0_l, ofZ_fval. reflexivity.
Qed.
Lemma q_wd : forall k, 0 <= k < 16 -> vval T' (wd k) = ofZ (znth 0 ws k).
Proof.
  intros k Hk. rewrite (vval_frame P c q_rows row T T' (wd k) q_frame (wd_out k Hk)).
  rewrite q_ws_eq, (s5_sched_stable m 16 80) by (exact q_m_len || lia). change (s5_schedule m 16) with m.
  unfold m. rewrite znth_map_zseq by lia. rewrite Z.add_0_l, ofZ_fval. reflexivity.
Qed.
Lemma q_at : forall o k v, 0 <= o < 1110 -> 0 <= k < 9 -> q_cell P h ws cs ob o k = Some v -> T' CWit (W c k) (row + o) = v.
Proof. intros o k v Ho Hk E. apply put_at; assumption. Qed.
Lemma q_at_inp : forall o k v, 0 <= o < 2 -> 0 <= k < 9 -> blk P (q_inp_block P h) o k = Some v -> T' CWit (W c k) (row + o) = v.
Proof. intros o k v Ho Hk E. apply q_at; [lia|exact Hk|]. unfold q_cell. rewrite (proj2 (Z.ltb_lt _ 2)) by lia. exact E. Qed.
Lemma q_at_msg : forall r q k v, 0 <= r < 64 -> 0 <= q < 6 -> 0 <= k < 9 -> blk P (q_msg_block P ws r) q k = Some v ->
  T' CWit (W c k) (row + (2 + 6 * r) + q) = v.
Proof.
  intros r q k v Hr Hq Hk E. rewrite <- Z.add_assoc. apply q_at; [lia|exact Hk|]. unfold q_cell.
  rewrite (proj2 (Z.ltb_ge _ 2)) by lia. rewrite (proj2 (Z.ltb_lt _ 386)) by lia.
  replace (2 + 6 * r + q - 2) with (q + r * 6) by lia. rewrite Z.div_add, Z.mod_add by lia.
  rewrite Z.div_small, Z.mod_small by lia. exact E.
Qed.
Lemma q_at_cmp : forall r q k v, 0 <= r < 80 -> 0 <= q < 9 -> 0 <= k < 9 ->
  blk P (q_cmp_block P (znth 0 q_rc r) (znth 0 ws r) (cs r)) q k = Some v -> T' CWit (W c k) (row + (386 + 9 * r) + q) = v.
Proof.
  intros r q k v Hr Hq Hk E. rewrite <- Z.add_assoc. apply q_at; [lia|exact Hk|]. unfold q_cell.
  rewrite (proj2 (Z.ltb_ge _ 2)) by lia. rewrite (proj2 (Z.ltb_ge _ 386)) by lia. rewrite (proj2 (Z.ltb_lt _ 1106)) by lia.
  replace (386 + 9 * r + q - 386) with (q + r * 9) by lia. rewrite Z.div_add, Z.mod_add by lia.
  rewrite Z.div_small, Z.mod_small by lia. exact E.
Qed.
Lemma q_at_out : forall q k v, 0 <= q < 4 -> 0 <= k < 9 -> blk P ob q k = Some v -> T' CWit (W c k) (row + (1106 + q)) = v.
Proof.
  intros q k v Hq Hk E. apply q_at; [lia|exact Hk|]. unfold q_cell.
  rewrite (proj2 (Z.ltb_ge _ 2)), (proj2 (Z.ltb_ge _ 386)), (proj2 (Z.ltb_ge _ 1106)) by lia.
  replace (1106 + q - 1106) with q by lia. exact E.
Qed.

Lemma q_gate_sel : forall g b e step n, 0 < step -> b <= e -> (e - b) / step = n - 1 ->
  (holds L T' (Gate g (sel_rows b e step)) <-> forall k, 0 <= k < n -> gh P T' (b + step * k) g).
Proof.
  intros g b e step n Hs He Hn. cbn [holds]. split.
  - intros H k Hk x Hx. apply H; [|exact Hx]. apply sel_iff; [assumption..|]. exists k. split; [lia|reflexivity].
  - intros H r Hr x Hx. apply sel_iff in Hr; [|assumption..]. destruct Hr as [k [Hk ->]]. exact (H k ltac:(lia) x Hx).
Qed.
Ltac count a b s := replace ((a - b) / s) with (0 + (a - b) / s) by lia.

Lemma q_msg_gates : forall r, 0 <= r < 64 -> let i := row + (2 + 6 * r) in
  gh P T' (i + 1) (q_s0_gate P c) /\ gh P T' (i + 3) (q_msg_gate P c) /\ gh P T' (i + 4) (q_s1_gate P c).
Proof.
  intros r Hr i.
  assert (R : forall q k v, 0 <= q < 6 -> 0 <= k < 9 -> blk P (q_msg_block P ws r) q k = Some v -> T' CWit (W c k) (i + q) = v)
    by (intros; apply q_at_msg; assumption).
  assert (X : znth 0 ws (r + 16) = fred P (q_msg_sum ws r) mod 2 ^ 64).
  { rewrite (q_msg_next P big ws r q_ws_words). rewrite q_ws_eq. apply s5_sched_rec; [exact q_m_len|lia..]. }
  repeat apply conj.
  - apply (q_s0_honest P c T' i ws r R). apply qwords_at, q_ws_words.
  - apply (q_msg_honest P big c T' i ws r R); try (apply qwords_at, q_ws_words). exact X.
  - apply (q_s1_honest P c T' i ws r R). apply qwords_at, q_ws_words.
Qed.
Lemma q_cmp_gates : forall r, 0 <= r < 80 -> let i := row + (386 + 9 * r) in
  gh P T' (i + 1) (q_S1_gate P c) /\ gh P T' (i + 7) (q_S0_gate P c) /\ gh P T' (i + 2) (q_ch_gate P c) /\
  gh P T' (i + 6) (q_maj_gate P c) /\ gh P T' (i + 5) (q_a_gate P c) /\
  (gh P T' (i + 3) (q_e_gate P c) <-> T CConst (W c 0) (i + 3) = ofZ (znth 0 q_rc r)).
Proof.
  intros r Hr i. destruct (q_cs_good r ltac:(lia)) as [Q _]. pose proof (rc_ok r) as Ik. pose proof (qwords_at ws r q_ws_words) as Iw.
  assert (R : forall q k v, 0 <= q < 9 -> 0 <= k < 9 -> blk P (q_cmp_block P (znth 0 q_rc r) (znth 0 ws r) (cs r)) q k = Some v ->
    T' CWit (W c k) (i + q) = v) by (intros; apply q_at_cmp; assumption).
  split; [|split; [|split; [|split; [|split]]]].
  - apply (q_S1_honest P big c T' i _ _ _ R Q).
  - apply (q_S0_honest P big c T' i _ _ _ R Q).
  - apply (q_ch_honest P big c T' i _ _ _ R Q).
  - apply (q_maj_honest P big c T' i _ _ _ R Q).
  - apply (q_a_honest P big c T' i _ _ _ R Q Ik Iw).
  - rewrite <- (q_frame CConst (W c 0) (i + 3)) by (intros [Y _]; discriminate). apply (q_e_honest P big c T' i _ _ _ R Q Ik Iw).
Qed.
Lemma q_out_gates : forall q, 0 <= q < 2 -> gh P T' (row + (1106 + 2 * q)) (q_out_gate P c).
Proof.
  intros q Hq. rewrite <- (Z.add_0_r (row + (1106 + 2 * q))). apply q_out_honest. intros k Hk.
  destruct (ob_sum q k Hq Hk) as [b [y [g [Eb [Ey [Eg S]]]]]].
  rewrite Z.add_0_r. rewrite (q_at_out (2 * q) k _ ltac:(lia) ltac:(lia) (ob_in q k Hq Hk)).
  rewrite (q_at_out (2 * q) (k + 4) _ ltac:(lia) ltac:(lia) Eb). rewrite <- !Z.add_assoc.
  rewrite (q_at_out (2 * q + 1) k _ ltac:(lia) ltac:(lia) Ey). rewrite (q_at_out (2 * q + 1) (k + 4) _ ltac:(lia) ltac:(lia) Eg). exact S.
Qed.
Lemma q_sat_flat : forall A (f : A -> list (cmd P)) l, sat L T' (flat_map f l) <-> forall x, In x l -> sat L T' (f x).
Proof.
  intros. unfold sat. split.
  - intros H x Hx e He. apply H. apply in_flat_map. exists x. auto.
  - intros H e He. apply in_flat_map in He. destruct He as [x [Hx He]]. exact (H x Hx e He).
Qed.
Lemma q_sat_map : forall A (f : A -> cmd P) l, (forall x, In x l -> holds L T' (f x)) -> sat L T' (map f l).
Proof. intros A f l H e He. apply in_map_iff in He. destruct He as [x [<- Hx]]. exact (H x Hx). Qed.

(** The copy constraints. *)
Lemma q_copies_ok : sat L T' (q_copies P c st wd row).
Proof.
  unfold q_copies. rewrite !sat_app.
  assert (M : forall r q k v o, 0 <= r < 64 -> 0 <= q < 6 -> 0 <= k < 9 -> blk P (q_msg_block P ws r) q k = Some v ->
    o = 2 + 6 * r + q -> T' CWit (W c k) (row + o) = v).
  { intros r q k v o Hr Hq Hk E ->. rewrite Z.add_assoc. apply q_at_msg; assumption. }
  assert (N : forall r q k v o, 0 <= r < 80 -> 0 <= q < 9 -> 0 <= k < 9 -> blk P (q_cmp_block P (znth 0 q_rc r) (znth 0 ws r) (cs r)) q k = Some v ->
    o = 386 + 9 * r + q -> T' CWit (W c k) (row + o) = v).
  { intros r q k v o Hr Hq Hk E ->. rewrite Z.add_assoc. apply q_at_cmp; assumption. }
  assert (C0 : cs 0 = q_init h) by reflexivity.
  repeat match goal with |- _ /\ _ => split end.
  - apply q_sat_map. intros k Hk. apply in_zseq in Hk. cbn [holds]. rewrite vval_wcell, q_wd by lia.
    rewrite (M (k - 1) 0 0 _ _ ltac:(lia) ltac:(lia) ltac:(lia) eq_refl) by lia. f_equal. f_equal. lia.
  - apply q_sat_map. intros k Hk. apply in_zseq in Hk. cbn [holds]. rewrite vval_wcell, q_wd by lia.
    rewrite (M (k - 9) 2 7 _ _ ltac:(lia) ltac:(lia) ltac:(lia) eq_refl) by lia. f_equal. f_equal. lia.
  - apply q_sat_map. intros k Hk. apply in_zseq in Hk. cbn [holds]. rewrite vval_wcell, q_wd by lia.
    rewrite (M k 2 8 _ _ ltac:(lia) ltac:(lia) ltac:(lia) eq_refl) by lia. reflexivity.
  - apply q_sat_map. intros k Hk. apply in_zseq in Hk. cbn [holds]. rewrite vval_wcell, q_wd by lia.
    rewrite (M (k - 14) 5 0 _ _ ltac:(lia) ltac:(lia) ltac:(lia) eq_refl) by lia. f_equal. f_equal. lia.
  - rewrite !sat_cons. cbn [holds]. rewrite !vval_wcell.
    rewrite (q_at_inp 1 5 _ ltac:(lia) ltac:(lia) eq_refl), (q_at_inp 1 6 _ ltac:(lia) ltac:(lia) eq_refl),
      (q_at_inp 1 1 _ ltac:(lia) ltac:(lia) eq_refl), (q_at_inp 1 2 _ ltac:(lia) ltac:(lia) eq_refl).
    rewrite (N 0 2 6 _ _ ltac:(lia) ltac:(lia) ltac:(lia) eq_refl) by lia. rewrite (N 0 3 6 _ _ ltac:(lia) ltac:(lia) ltac:(lia) eq_refl) by lia.
    rewrite (N 0 6 6 _ _ ltac:(lia) ltac:(lia) ltac:(lia) eq_refl) by lia. rewrite (N 0 5 6 _ _ ltac:(lia) ltac:(lia) ltac:(lia) eq_refl) by lia.
    rewrite C0. cbn [q_init v_1 v_2 v_5 v_6]. split; [reflexivity|split; [reflexivity|split; [reflexivity|split; [reflexivity|apply sat_nil]]]].
  - apply q_sat_flat. intros r Hr. apply in_zseq in Hr. rewrite !sat_cons. cbn [holds]. rewrite !vval_wcell.
    rewrite (N (r + 1) 2 6 _ (386 + 9 * r + 2 + 9) ltac:(lia) ltac:(lia) ltac:(lia) eq_refl) by lia.
    rewrite (N (r + 1) 3 6 _ (386 + 9 * r + 3 + 9) ltac:(lia) ltac:(lia) ltac:(lia) eq_refl) by lia.
    rewrite (N (r + 1) 5 6 _ (386 + 9 * r + 5 + 9) ltac:(lia) ltac:(lia) ltac:(lia) eq_refl) by lia.
    rewrite (N (r + 1) 6 6 _ (386 + 9 * r + 6 + 9) ltac:(lia) ltac:(lia) ltac:(lia) eq_refl) by lia.
    rewrite (N r 2 5 _ (386 + 9 * r + 2) ltac:(lia) ltac:(lia) ltac:(lia) eq_refl) by lia.
    rewrite (N r 2 6 _ (386 + 9 * r + 2) ltac:(lia) ltac:(lia) ltac:(lia) eq_refl) by lia.
    rewrite (N r 6 6 _ (386 + 9 * r + 6) ltac:(lia) ltac:(lia) ltac:(lia) eq_refl) by lia.
    rewrite (N r 6 5 _ (386 + 9 * r + 6) ltac:(lia) ltac:(lia) ltac:(lia) eq_refl) by lia.
    rewrite q_cs_S by lia. cbn [q_step v_1 v_2 v_5 v_6]. split; [reflexivity|split; [reflexivity|split; [reflexivity|split; [reflexivity|apply sat_nil]]]].
  - rewrite !sat_cons. cbn [holds]. rewrite !vval_wcell, !q_st by lia.
    rewrite (N 0 8 0 _ _ ltac:(lia) ltac:(lia) ltac:(lia) eq_refl) by lia. rewrite (N 0 3 7 _ _ ltac:(lia) ltac:(lia) ltac:(lia) eq_refl) by lia.
    rewrite (N 0 0 0 _ _ ltac:(lia) ltac:(lia) ltac:(lia) eq_refl) by lia. rewrite (N 0 3 8 _ _ ltac:(lia) ltac:(lia) ltac:(lia) eq_refl) by lia.
    rewrite C0. cbn [q_init c_a c_d c_e c_h]. split; [reflexivity|split; [reflexivity|split; [reflexivity|split; [reflexivity|apply sat_nil]]]].
  - assert (O : forall q k, 0 <= q < 2 -> 0 <= k < 4 -> T' CWit (W c k) (row + (1106 + 2 * q)) = ofZ (znth 0 h (k + 4 * q)))
      by (intros q k Hq Hk; apply q_at_out; [lia|lia|apply ob_in; assumption]).
    rewrite !sat_cons. cbn [holds]. rewrite !vval_wcell, !q_st by lia.
    split; [exact (O 0 0 ltac:(lia) ltac:(lia))|]. split; [exact (O 0 1 ltac:(lia) ltac:(lia))|].
    split; [exact (O 0 2 ltac:(lia) ltac:(lia))|]. split; [exact (O 0 3 ltac:(lia) ltac:(lia))|].
    split; [exact (O 1 0 ltac:(lia) ltac:(lia))|]. split; [exact (O 1 1 ltac:(lia) ltac:(lia))|].
    split; [exact (O 1 2 ltac:(lia) ltac:(lia))|]. split; [exact (O 1 3 ltac:(lia) ltac:(lia))|]. apply sat_nil.
Qed.

Lemma q_gh_row : forall r r' g, r = r' -> gh P T' r g -> gh P T' r' g.
Proof. intros. subst. assumption. Qed.
Lemma q_sat_iff : sat L T' (q_circuit c st wd row) <->
  forall r, 0 <= r < 80 -> T CConst (W c 0) (row + 389 + 9 * r) = ofZ (znth 0 q_rc r).
Proof.
  unfold q_circuit. rewrite !sat_app.
  assert (D : forall n a b s k, a - b = n -> n / s = k -> (a - b) / s = k) by (intros; subst; reflexivity).
  assert (G : holds L T' (Gate (q_e_gate P c) (sel_rows (row + 386 + 3) (row + 386 + 719) 9)) <->
    forall r, 0 <= r < 80 -> T CConst (W c 0) (row + 389 + 9 * r) = ofZ (znth 0 q_rc r)).
  { rewrite (q_gate_sel _ _ _ _ 80) by (first [lia | apply (D 716); [lia|reflexivity]]). split; intros H r Hr.
    - specialize (H r Hr). apply (q_gh_row _ (row + (386 + 9 * r) + 3)) in H; [|lia]. apply (q_cmp_gates r Hr) in H.
      rewrite <- H. f_equal. lia.
    - apply (q_gh_row (row + (386 + 9 * r) + 3)); [lia|]. apply (q_cmp_gates r Hr). rewrite <- (H r Hr). f_equal. lia. }
  split.
  - intros [_ [H _]]. apply G. apply H. unfold q_gates. cbn [In]. tauto.
  - intros H. apply G in H. split; [|split; [|exact q_copies_ok]].
    + unfold q_consts. apply q_sat_map. intros k Hk. cbn [holds]. rewrite (q_frame CConst) by (intros [Y _]; discriminate).
      apply K_in. unfold q_circuit, q_consts. apply in_or_app. left. apply in_map_iff. exists k. split; [reflexivity|exact Hk].
    + unfold q_gates. cbv zeta. rewrite !sat_cons.
      assert (S1 : forall g o, (forall r, 0 <= r < 64 -> gh P T' (row + (2 + 6 * r) + o) g) -> 0 < o < 6 ->
        holds L T' (Gate g (sel_rows (row + 2 + o) (row + 2 + 383) 6))).
      { intros g o Hg Ho. apply (q_gate_sel _ _ _ _ 64); [lia|lia| |intros r Hr; apply (q_gh_row (row + (2 + 6 * r) + o)); [lia|apply Hg, Hr]].
        apply (D (383 - o)); [lia|]. assert (o = 1 \/ o = 2 \/ o = 3 \/ o = 4 \/ o = 5) as [->|[->|[->|[->| ->]]]] by lia; reflexivity. }
      assert (S2 : forall g o, (forall r, 0 <= r < 80 -> gh P T' (row + (386 + 9 * r) + o) g) -> 0 < o < 8 ->
        holds L T' (Gate g (sel_rows (row + 386 + o) (row + 386 + 719) 9))).
      { intros g o Hg Ho. apply (q_gate_sel _ _ _ _ 80); [lia|lia| |intros r Hr; apply (q_gh_row (row + (386 + 9 * r) + o)); [lia|apply Hg, Hr]].
        apply (D (719 - o)); [lia|]. assert (o = 1 \/ o = 2 \/ o = 3 \/ o = 4 \/ o = 5 \/ o = 6 \/ o = 7) as [->|[->|[->|[->|[->|[->| ->]]]]]] by lia; reflexivity. }
      split; [apply S1; [intros r Hr; apply (q_msg_gates r Hr)|lia]|]. split; [apply S1; [intros r Hr; apply (q_msg_gates r Hr)|lia]|].
      split; [apply S1; [intros r Hr; apply (q_msg_gates r Hr)|lia]|].
      split; [apply S2; [intros r Hr; apply (q_cmp_gates r Hr)|lia]|]. split; [apply S2; [intros r Hr; apply (q_cmp_gates r Hr)|lia]|].
      split; [apply S2; [intros r Hr; apply (q_cmp_gates r Hr)|lia]|]. split; [apply S2; [intros r Hr; apply (q_cmp_gates r Hr)|lia]|].
      split; [exact H|]. split; [apply S2; [intros r Hr; apply (q_cmp_gates r Hr)|lia]|]. split; [|apply sat_nil].
      apply (q_gate_sel _ _ _ _ 2); [lia|lia|apply (D 2); [lia|reflexivity]|]. intros q Hq.
      apply (q_gh_row (row + (1106 + 2 * q))); [lia|apply q_out_gates, Hq].
Qed.
Lemma q_out_val : forall q k v, 0 <= q < 2 -> 0 <= k < 4 -> blk P ob (2 * q + 1) k = Some v -> vval T' (q_out c row (k + 4 * q)) = v.
Proof.
  intros q k v Hq Hk E. unfold q_out. assert (q = 0 \/ q = 1) as [->| ->] by lia.
  - rewrite (proj2 (Z.ltb_lt _ 4)) by lia. rewrite vval_wcell. rewrite <- (q_at_out (2 * 0 + 1) k v ltac:(lia) ltac:(lia) E).
    unfold q_rows. f_equal; [f_equal; lia|lia].
  - rewrite (proj2 (Z.ltb_ge _ 4)) by lia. rewrite vval_wcell. rewrite <- (q_at_out (2 * 1 + 1) k v ltac:(lia) ltac:(lia) E).
    unfold q_rows. f_equal; [f_equal; lia|lia].
Qed.
End Tables5.
