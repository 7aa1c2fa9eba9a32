(** sha256_process: the table written by the assignment satisfies the circuit,
    and so do tables whose output has nothing to do with the message. *)
From Coq Require Import ZArith List Lia Bool.
From Verif Require Import Base Field Plonk PlonkFacts Bits Sha256Spec Sha256Model Sha256Sparse Sha256Words Sha256Gadgets Sha256Blocks Sha256View Sha256Sound Sha256Honest.
Import ListNotations.
Open Scope Z_scope.

(** ** Writing a block of cells *)

Lemma pos_in_nth : forall l n i, NoDup l -> (n < length l)%nat -> pos_in l (nth n l 0) i = Some (i + Z.of_nat n).
Proof.
  induction l as [|y l IH]; intros n i ND Hn; [cbn in Hn; lia|].
  inversion ND as [|y' l' Hy ND']; subst. destruct n as [|n]; cbn [nth pos_in].
  - rewrite Z.eqb_refl. f_equal. lia.
  - cbn [length] in Hn. destruct (Z.eqb_spec y (nth n l 0)) as [E|E].
    + exfalso. apply Hy. rewrite E. apply nth_In. lia.
    + rewrite IH by (assumption || lia). f_equal. lia.
Qed.
Lemma pos_in_W : forall c w k, wf_comp c w -> 0 <= k < w -> pos_in (cWs c) (W c k) 0 = Some k.
Proof.
  intros c w k [ND [Hw _]] Hk. unfold wamount in Hw. unfold W. rewrite cidx_in_range by lia. unfold znth.
  unfold zlen in Hw. rewrite pos_in_nth by (assumption || lia). f_equal. lia.
Qed.
Lemma pos_in_In : forall l x i k, pos_in l x i = Some k -> In x l.
Proof.
  induction l as [|y l IH]; intros x i k H; cbn in H; [discriminate|]. destruct (Z.eqb_spec y x) as [E|E]; [left; exact E|right; eapply IH, H].
Qed.

Section Put.
Variable P : params.
Notation F := (F P).
Notation table := (table P).

Lemma put_at : forall c row n cell (T : table) o k v, wf_comp c 9 -> 0 <= o < n -> 0 <= k < 9 -> cell o k = Some v ->
  put c row n cell T CWit (W c k) (row + o) = v.
Proof.
  intros c row n cell T o k v wf Ho Hk E. unfold put. rewrite (pos_in_W c 9 k wf Hk).
  rewrite (proj2 (Z.leb_le row (row + o)) ltac:(lia)), (proj2 (Z.ltb_lt (row + o) (row + n)) ltac:(lia)). cbn [andb].
  replace (row + o - row) with o by lia. rewrite E. reflexivity.
Qed.
Lemma put_frame : forall c row n cell (T : table), frame c n row T (put c row n cell T).
Proof.
  intros c row n cell T ty col r H. unfold put. destruct (ctype_eqb ty CWit) eqn:Et; [|reflexivity].
  destruct (Z.leb_spec row r); [|reflexivity]. destruct (Z.ltb_spec r (row + n)); [|reflexivity]. cbn [andb].
  destruct (pos_in (cWs c) col 0) eqn:E; [|reflexivity]. exfalso. apply H. split; [destruct ty; (reflexivity || discriminate)|].
  split; [eapply pos_in_In, E|lia].
Qed.
End Put.

(** ** Any assignment with consistent rounds satisfies the circuit *)

Section Reads.
Variable P : params.
Hypothesis big : 2 ^ 128 < char P.
Notation F := (F P).
Notation table := (table P).
Notation L := (@sha_lenv P).
Variable c : comp.
Variables (st wd : Z -> var) (row : Z).
Variable T : table.
Notation at_ k o := (T CWit (W c k%Z) (row + (o))%Z).
Variables (ws cw : list Z) (cs : Z -> cst) (fin : list Z).
Notation rk t := (znth 0 round_constant t).

Hypothesis R_const : forall r, 0 <= r < 64 -> T CConst (C c 0) (row + (242 + 8 * r) + 3) = ofZ (rk r).
Hypothesis R_msg : forall r m k v, 0 <= r < 48 -> 0 <= m < 5 -> 0 <= k < 9 -> msg_cell P ws r m k = Some v ->
  T CWit (W c k) (row + (2 + 5 * r) + m) = v.
Hypothesis R_cmp : forall r m k v, 0 <= r < 64 -> 0 <= m < 8 -> 0 <= k < 9 -> cmp_cell P (rk r) (znth 0 cw r) (cs r) m k = Some v ->
  T CWit (W c k) (row + (242 + 8 * r) + m) = v.
Hypothesis R_fin : forall k, 0 <= k < 4 -> T CWit (W c (k + 4)) (row + 754) = ofZ (znth 0 fin k) /\
  T CWit (W c (k + 4)) (row + 756) = ofZ (znth 0 fin (k + 4)).
Hypothesis R_chk : forall q k v, 0 <= q < 4 -> 0 <= k < 9 -> chk_cell P fin q k = Some v -> T CWit (W c k) (row + (758 + q)) = v.
Hypothesis R_st : forall k, 0 <= k < 4 -> T CWit (W c k) (row + 754) = vval T (st k) /\ T CWit (W c k) (row + 756) = vval T (st (k + 4)).
Hypothesis R_wd : forall k, 0 <= k < 16 -> vval T (wd k) = ofZ (znth 0 ws k).
Hypothesis H_out : forall q, 0 <= q < 2 -> gh P T (row + (754 + 2 * q)) (out_gate P c).
Hypothesis ws_ok : forall k, 0 <= k < 64 -> isw (znth 0 ws k).
Hypothesis ws_next : forall r, 0 <= r < 48 -> znth 0 ws (r + 16) = fred P (msg_sum ws r) mod 2 ^ 32.
Hypothesis cw_ok : forall k, 0 <= k < 64 -> isw (znth 0 cw k).
Hypothesis cs_ok : forall r, 0 <= r < 64 -> cok (cs r).
Hypothesis cs_next : forall r, 0 <= r < 63 -> cs (r + 1) = c_step P (rk r) (znth 0 cw r) (cs r).
Hypothesis fin_ok : forall k, 0 <= k < 8 -> isw (znth 0 fin k).
Hypothesis fin_is : znth 0 fin 1 = c_a (cs 63) /\ znth 0 fin 2 = c_a (cs 62) /\ znth 0 fin 3 = c_a (cs 61) /\
  znth 0 fin 5 = c_e (cs 63) /\ znth 0 fin 6 = c_e (cs 62) /\ znth 0 fin 7 = c_e (cs 61).

Lemma wv_is : forall k, 0 <= k < 64 -> wv_at P c wd row T k = ofZ (znth 0 ws k).
Proof.
  intros k Hk. destruct (Z_lt_le_dec k 16) as [K|K].
  - rewrite wv_lo by exact K. apply R_wd. lia.
  - rewrite (wv_hi P c wd row T k _ K eq_refl). rewrite Z.add_assoc. 
    rewrite (R_msg (k - 16) 2 0 _ ltac:(lia) ltac:(lia) ltac:(lia) eq_refl). replace (k - 16 + 16) with k by lia. reflexivity.
Qed.
Lemma msg0 : forall r k v, 0 <= r < 48 -> 0 <= k < 9 -> msg_cell P ws r 0 k = Some v -> T CWit (W c k) (row + (2 + 5 * r)) = v.
Proof. intros. rewrite <- (Z.add_0_r (row + (2 + 5 * r))). apply R_msg; (assumption || lia). Qed.
Lemma cmp0 : forall r k v, 0 <= r < 64 -> 0 <= k < 9 -> cmp_cell P (rk r) (znth 0 cw r) (cs r) 0 k = Some v ->
  T CWit (W c k) (row + (242 + 8 * r)) = v.
Proof. intros. rewrite <- (Z.add_0_r (row + (242 + 8 * r))). apply R_cmp; (assumption || lia). Qed.
Lemma rk_ok : forall r, isw (rk r).
Proof. intros r. rewrite K_same. apply isw_K. Qed.

Lemma reads_view : sp_view P c st wd row T.
Proof.
  constructor.
  - exact R_const.
  - intros r Hr. apply (msg_honest P big c T _ ws r); try (apply ws_ok; lia).
    + intros m k v Hm Hk E. exact (R_msg r m k v Hr Hm Hk E).
    + apply ws_next. exact Hr.
  - intros r Hr. apply (cmp_honest P big c T _ (rk r) (znth 0 cw r) (cs r)).
    + intros m k v Hm Hk E. exact (R_cmp r m k v Hr Hm Hk E).
    + apply R_const. exact Hr.
    + apply cs_ok. exact Hr.
    + apply rk_ok.
    + apply cw_ok. exact Hr.
  - exact H_out.
  - intros q Hq. apply (chk_honest P c T _ fin q).
    + intros k v Hk E. exact (R_chk q k v Hq Hk E).
    + apply fin_ok. lia.
    + apply fin_ok. lia.
  - intros r Hr i. unfold i. rewrite !wv_is by lia. repeat apply conj.
    + exact (msg0 r 0 _ Hr ltac:(lia) eq_refl).
    + exact (R_msg r 1 0 _ Hr ltac:(lia) ltac:(lia) eq_refl).
    + exact (R_msg r 1 1 _ Hr ltac:(lia) ltac:(lia) eq_refl).
    + exact (R_msg r 4 0 _ Hr ltac:(lia) ltac:(lia) eq_refl).
    + transitivity (ofZ (znth 0 ws (r + 16)) : F);
        [exact (R_msg r 2 0 _ Hr ltac:(lia) ltac:(lia) eq_refl)|symmetry; exact (R_msg r 4 8 _ Hr ltac:(lia) ltac:(lia) eq_refl)].
  - intros r Hr i i'. unfold i, i'. pose proof (cs_next r Hr) as E. repeat apply conj.
    + rewrite (cmp0 (r + 1) 0 _ ltac:(lia) ltac:(lia) eq_refl), (R_cmp r 3 4 _ ltac:(lia) ltac:(lia) ltac:(lia) eq_refl), E. reflexivity.
    + rewrite (R_cmp (r + 1) 7 0 _ ltac:(lia) ltac:(lia) ltac:(lia) eq_refl), (R_cmp r 5 2 _ ltac:(lia) ltac:(lia) ltac:(lia) eq_refl), E. reflexivity.
    + rewrite (R_cmp (r + 1) 5 1 _ ltac:(lia) ltac:(lia) ltac:(lia) eq_refl), (R_cmp r 5 0 _ ltac:(lia) ltac:(lia) ltac:(lia) eq_refl), E. reflexivity.
    + rewrite (R_cmp (r + 1) 5 4 _ ltac:(lia) ltac:(lia) ltac:(lia) eq_refl), (R_cmp r 5 1 _ ltac:(lia) ltac:(lia) ltac:(lia) eq_refl), E. reflexivity.
    + rewrite (R_cmp (r + 1) 1 1 _ ltac:(lia) ltac:(lia) ltac:(lia) eq_refl), (R_cmp r 1 0 _ ltac:(lia) ltac:(lia) ltac:(lia) eq_refl), E. reflexivity.
    + rewrite (R_cmp (r + 1) 3 0 _ ltac:(lia) ltac:(lia) ltac:(lia) eq_refl), (R_cmp r 1 1 _ ltac:(lia) ltac:(lia) ltac:(lia) eq_refl), E. reflexivity.
  - destruct fin_is as [E1 [E2 [E3 [E5 [E6 E7]]]]].
    destruct (R_fin 1 ltac:(lia)) as [A1 A5]. destruct (R_fin 2 ltac:(lia)) as [A2 A6]. destruct (R_fin 3 ltac:(lia)) as [A3 A7].
    cbn [Z.add Pos.add Pos.succ] in A1, A2, A3, A5, A6, A7. rewrite A1, A2, A3, A5, A6, A7, E1, E2, E3, E5, E6, E7.
    assert (Y7 : forall r o, 0 <= r < 64 -> o = 242 + 8 * r + 7 -> at_ 0 o = ofZ (c_a (cs r))).
    { intros r o Hr ->. rewrite <- (R_cmp r 7 0 _ Hr ltac:(lia) ltac:(lia) eq_refl). f_equal. lia. }
    assert (Y0 : forall r o, 0 <= r < 64 -> o = 242 + 8 * r -> at_ 0 o = ofZ (c_e (cs r))).
    { intros r o Hr ->. exact (cmp0 r 0 _ Hr ltac:(lia) eq_refl). }
    rewrite (Y7 63 753), (Y7 62 745), (Y7 61 737), (Y0 63 746), (Y0 62 738), (Y0 61 730) by lia. repeat apply conj; reflexivity.
  - exact R_st.
  - destruct (R_fin 0 ltac:(lia)) as [A0 A4].
    destruct (R_fin 1 ltac:(lia)) as [A1 A5]. destruct (R_fin 2 ltac:(lia)) as [A2 A6]. destruct (R_fin 3 ltac:(lia)) as [A3 A7].
    cbn [Z.add Pos.add Pos.succ] in A0, A1, A2, A3, A4, A5, A6, A7. rewrite A0, A1, A2, A3, A4, A5, A6, A7.
    pose proof (R_chk 0 3 _ ltac:(lia) ltac:(lia) eq_refl) as B0. pose proof (R_chk 0 7 _ ltac:(lia) ltac:(lia) eq_refl) as B1.
    pose proof (R_chk 1 3 _ ltac:(lia) ltac:(lia) eq_refl) as B2. pose proof (R_chk 1 7 _ ltac:(lia) ltac:(lia) eq_refl) as B3.
    pose proof (R_chk 2 3 _ ltac:(lia) ltac:(lia) eq_refl) as B4. pose proof (R_chk 2 7 _ ltac:(lia) ltac:(lia) eq_refl) as B5.
    pose proof (R_chk 3 3 _ ltac:(lia) ltac:(lia) eq_refl) as B6. pose proof (R_chk 3 7 _ ltac:(lia) ltac:(lia) eq_refl) as B7.
    change (758 + 0) with 758 in *. change (758 + 1) with 759 in *. change (758 + 2) with 760 in *. change (758 + 3) with 761 in *.
    rewrite B0, B1, B2, B3, B4, B5, B6, B7. repeat apply conj; reflexivity.
Qed.
End Reads.

(** ** The integers of the assignment *)

Definition words (m : list Z) : Prop := Forall isw m.
Lemma words_at : forall m k, words m -> isw (znth 0 m k).
Proof.
  intros m k H. unfold znth. destruct (nth_in_or_default (Z.to_nat k) m 0) as [I|E].
  - unfold words in H. rewrite Forall_forall in H. apply H, I.
  - rewrite E. split; [discriminate|reflexivity].
Qed.
Lemma sched_S : forall m n, 16 <= n -> sha_schedule m (n + 1) = sha_schedule m n ++ [sha_next (sha_schedule m n) n].
Proof. intros m n Hn. unfold sha_schedule. rewrite zseq_snoc by lia. rewrite fold_left_app. reflexivity. Qed.
Lemma sched_16 : forall m, sha_schedule m 16 = m.
Proof. reflexivity. Qed.
Lemma sched_words : forall m n, 16 <= n -> words m -> words (sha_schedule m n).
Proof.
  intros m n Hn Hm. revert n Hn. apply Zlt_lower_bound_ind with (z := 16). intros n IH Hn. destruct (Z.eq_dec n 16) as [->|N]; [exact Hm|].
  replace n with (n - 1 + 1) by lia. rewrite sched_S by lia. apply Forall_app. split; [apply IH; lia|]. repeat constructor; apply isw_mod.
Qed.
Lemma znth_app_l : forall (a b : list Z) k, 0 <= k < zlen a -> znth 0 (a ++ b) k = znth 0 a k.
Proof. intros a b k Hk. unfold znth, zlen in *. apply app_nth1. lia. Qed.
Lemma znth_last : forall (a : list Z) x k, zlen a = k -> znth 0 (a ++ [x]) k = x.
Proof. intros a x k <-. unfold znth, zlen. rewrite app_nth2 by lia. rewrite Nat2Z.id, Nat.sub_diag. reflexivity. Qed.
Lemma sched_stable : forall m a b k, zlen m = 16 -> 16 <= a -> a <= b -> 0 <= k < a -> znth 0 (sha_schedule m b) k = znth 0 (sha_schedule m a) k.
Proof.
  intros m a b k Hm Ha Hb Hk. revert b Hb. apply Zlt_lower_bound_ind with (z := a). intros b IH Hb. destruct (Z.eq_dec b a) as [->|N]; [reflexivity|].
  replace b with (b - 1 + 1) by lia. rewrite sched_S by lia. rewrite znth_app_l by (rewrite zlen_sched; lia). apply IH. lia.
Qed.
Lemma sched_rec : forall m n r, zlen m = 16 -> 0 <= r -> r + 16 < n -> let w := sha_schedule m n in
  znth 0 w (r + 16) = (sha_s1 (znth 0 w (r + 14)) + znth 0 w (r + 9) + sha_s0 (znth 0 w (r + 1)) + znth 0 w r) mod w32.
Proof.
  intros m n r Hm Hr Hn w. unfold w. rewrite (sched_stable m (r + 16 + 1) n) by lia. rewrite sched_S by lia.
  rewrite znth_last by (apply zlen_sched; lia). unfold sha_next.
  replace (r + 16 - 2) with (r + 14) by lia. replace (r + 16 - 7) with (r + 9) by lia.
  replace (r + 16 - 15) with (r + 1) by lia. replace (r + 16 - 16) with r by lia.
  rewrite !(sched_stable m (r + 16) n) by lia. reflexivity.
Qed.

Section Ints.
Variable P : params.
Hypothesis big : 2 ^ 128 < char P.

Lemma msg_next : forall ws r, words ws -> fred P (msg_sum ws r) mod 2 ^ 32 =
  (sha_s1 (znth 0 ws (r + 14)) + znth 0 ws (r + 9) + sha_s0 (znth 0 ws (r + 1)) + znth 0 ws r) mod w32.
Proof.
  intros ws r H. pose proof (words_at ws (r + 1) H) as I1. pose proof (words_at ws (r + 14) H) as I14.
  pose proof (words_at ws (r + 9) H) as I9. pose proof (words_at ws r H) as I0.
  rewrite (fred_small P big); [rewrite (msg_sum_eq ws r I1 I14); reflexivity|].
  pose proof (msg_bound ws r I1 I14 I9 I0). unfold w32 in *. lia.
Qed.
Lemma sp_words_eq : forall m n, words m -> zlen m = 16 -> 0 <= n -> sp_words P m n = sha_schedule m (16 + n).
Proof.
  intros m n Hm Hl Hn. revert n Hn. apply Zlt_lower_bound_ind with (z := 0). intros n IH Hn. destruct (Z.eq_dec n 0) as [->|N]; [reflexivity|].
  replace (16 + n) with (16 + (n - 1) + 1) by lia. rewrite sched_S by lia. unfold sp_words. replace n with (n - 1 + 1) at 1 by lia.
  rewrite zseq_snoc by lia. rewrite fold_left_app. cbn [fold_left]. fold (sp_words P m (n - 1)). rewrite IH by lia. f_equal. f_equal.
  rewrite msg_next by (apply sched_words; [lia|exact Hm]). unfold sha_next.
  replace (16 + (n - 1) - 2) with (n - 1 + 14) by lia. replace (16 + (n - 1) - 7) with (n - 1 + 9) by lia.
  replace (16 + (n - 1) - 15) with (n - 1 + 1) by lia. replace (16 + (n - 1) - 16) with (n - 1) by lia. reflexivity.
Qed.

Lemma init_ok : forall h, words h -> cok (c_init h) /\ abs (c_init h) = list_sst h.
Proof.
  intros h H. assert (S : forall B x, sparse32 B x = numl B (lbits 32 x)) by (intros; unfold sparse32; rewrite sas_32; reflexivity).
  split; [|reflexivity]. constructor; try exact (S _ _). unfold abs, c_init, isstate. cbn [c_a c_b c_c c_d c_e c_f c_g c_h s_a s_b s_c s_d s_e s_f s_g s_h].
  repeat (apply conj; [apply words_at, H|]). apply words_at, H.
Qed.
Lemma states_S : forall ws n s, 0 <= n -> c_states P ws (n + 1) s = c_step P (znth 0 round_constant n) (znth 0 ws n) (c_states P ws n s).
Proof. intros ws n s Hn. unfold c_states. rewrite zseq_snoc by lia. rewrite fold_left_app. reflexivity. Qed.
Lemma states_ok : forall ws h n, words ws -> words h -> 0 <= n ->
  cok (c_states P ws n (c_init h)) /\ abs (c_states P ws n (c_init h)) = sha_rounds ws n (list_sst h).
Proof.
  intros ws h n Hw Hh Hn. revert n Hn. apply Zlt_lower_bound_ind with (z := 0). intros n IH Hn. destruct (Z.eq_dec n 0) as [->|N].
  { exact (init_ok h Hh). }
  replace n with (n - 1 + 1) by lia. rewrite states_S, sha_rounds_S by lia. destruct (IH (n - 1) ltac:(lia)) as [A E].
  destruct (step_abs P big (znth 0 round_constant (n - 1)) (znth 0 ws (n - 1)) _ A (rk_ok _) (words_at ws _ Hw)) as [B E'].
  split; [exact B|]. rewrite E', E, K_same. reflexivity.
Qed.
Lemma list_abs : forall s, c_list s = sst_list (abs s).
Proof. reflexivity. Qed.

(** [calculate] is the compression function. *)
Theorem calculate_ok : forall h m, words h -> words m -> zlen m = 16 -> sp_calculate P h m = sha_compress h m.
Proof.
  intros h m Hh Hm Hl. unfold sp_calculate, sha_compress. cbv zeta. rewrite sp_words_eq by (assumption || lia).
  change (16 + 48) with 64. rewrite list_abs. rewrite (proj2 (states_ok _ h 64 (sched_words m 64 ltac:(lia) Hm) Hh ltac:(lia))). reflexivity.
Qed.
End Ints.

(** ** Tables *)

Section Tables.
Variable P : params.
Hypothesis big : 2 ^ 128 < char P.
Notation F := (F P).
Notation table := (table P).
Notation L := (@sha_lenv P).
Variable c : comp.
Hypothesis wf : wf_comp c 9.
Variables (st wd : Z -> var) (row : Z).
Variable T : table.
Hypothesis st_out : forall k, 0 <= k < 8 -> outside c sp_rows row (st k).
Hypothesis wd_out : forall k, 0 <= k < 16 -> outside c sp_rows row (wd k).
Hypothesis K_in : consts_in T (sp_circuit c st wd row).
Let h := in_state P st T.
Let m := in_words P wd T.
Hypothesis h_ok : words h.
Hypothesis m_ok : words m.

(** The compression rounds may run on another state [h'] and other words [m'];
    the values added to words 0 and 4 of the state are free; with [u] the
    first output is left unreduced. *)
Variables (h' m' : list Z) (y0 y4 : Z) (u : bool).
Hypothesis h'_ok : words h'.
Hypothesis m'_ok : words m'.
Hypothesis m'_len : zlen m' = 16.
Hypothesis y0_ok : isw y0.
Hypothesis y4_ok : isw y4.

Definition gen_fin (s : cst) (z0 z4 : Z) : list Z := [z0; c_b s; c_c s; c_d s; z4; c_f s; c_g s; c_h s].
Definition gen_cell (h ws cw : list Z) (cs : Z -> cst) (fin : list Z) (o k : Z) : option F :=
  if u && (o =? 755) && (k =? 0) then Some (ofZ (znth 0 h 0 + znth 0 fin 0))
  else if u && (o =? 755) && (k =? 4) then Some (ofZ 0)
  else sp_cell P h ws cw cs fin o k.
Let ws := sp_words P m 48.
Let cw := sp_words P m' 48.
Let cs t := c_states P cw t (c_init h').
Let fin := gen_fin (cs 64) y0 y4.
Definition gen_table : table := put c row sp_rows (gen_cell h ws cw cs fin) T.
Notation T' := gen_table.

Lemma m_len : zlen m = 16.
Proof. unfold m, in_words. unfold zlen. rewrite map_length. reflexivity. Qed.
Lemma ws_eq : ws = sha_schedule m 64.
Proof. unfold ws. rewrite (sp_words_eq P big m 48 m_ok m_len) by lia. reflexivity. Qed.
Lemma cw_eq : cw = sha_schedule m' 64.
Proof. unfold cw. rewrite (sp_words_eq P big m' 48 m'_ok m'_len) by lia. reflexivity. Qed.
Lemma ws_words : words ws.
Proof. rewrite ws_eq. apply sched_words; [lia|exact m_ok]. Qed.
Lemma cw_words : words cw.
Proof. rewrite cw_eq. apply sched_words; [lia|exact m'_ok]. Qed.
Lemma cs_good : forall t, 0 <= t -> cok (cs t) /\ abs (cs t) = sha_rounds cw t (list_sst h').
Proof. intros t Ht. apply (states_ok P big); [exact cw_words|exact h'_ok|exact Ht]. Qed.
Lemma cs_S : forall t, 0 <= t -> cs (t + 1) = c_step P (znth 0 round_constant t) (znth 0 cw t) (cs t).
Proof. intros t Ht. apply states_S. exact Ht. Qed.

Lemma cs_new : forall t, 0 <= t -> c_a (cs (t + 1)) = anew_of P (znth 0 round_constant t) (znth 0 cw t) (cs t) /\
  c_e (cs (t + 1)) = enew_of P (znth 0 round_constant t) (znth 0 cw t) (cs t).
Proof. intros t Ht. rewrite cs_S by exact Ht. split; reflexivity. Qed.

Lemma gen_frame : frame c sp_rows row T T'.
Proof. apply put_frame. Qed.
Lemma gen_st : forall k, 0 <= k < 8 -> vval T' (st k) = ofZ (znth 0 h k).
Proof.
  intros k Hk. rewrite (vval_frame P c sp_rows row T T' (st k) gen_frame (st_out k Hk)).
  unfold h, in_state. rewrite znth_map_zseq by lia. rewrite Z.add_0_l, ofZ_fval. reflexivity.
Qed.
Lemma gen_wd : forall k, 0 <= k < 16 -> vval T' (wd k) = ofZ (znth 0 m k).
Proof.
  intros k Hk. rewrite (vval_frame P c sp_rows row T T' (wd k) gen_frame (wd_out k Hk)).
  unfold m, in_words. rewrite znth_map_zseq by lia. rewrite Z.add_0_l, ofZ_fval. reflexivity.
Qed.
Lemma gen_at : forall o k v, 0 <= o < 762 -> 0 <= k < 9 -> gen_cell h ws cw cs fin o k = Some v -> T' CWit (W c k) (row + o) = v.
Proof. intros o k v Ho Hk E. apply put_at; assumption. Qed.
Lemma gen_ne : forall o k, o <> 755 -> gen_cell h ws cw cs fin o k = sp_cell P h ws cw cs fin o k.
Proof. intros o k Ho. unfold gen_cell. rewrite (proj2 (Z.eqb_neq o 755) Ho). rewrite andb_false_r. reflexivity. Qed.
Lemma at_msg : forall r q k v, 0 <= r < 48 -> 0 <= q < 5 -> 0 <= k < 9 -> msg_cell P ws r q k = Some v ->
  T' CWit (W c k) (row + (2 + 5 * r) + q) = v.
Proof.
  intros r q k v Hr Hq Hk E. rewrite <- Z.add_assoc. apply gen_at; [lia|exact Hk|]. rewrite gen_ne by lia. unfold sp_cell.
  rewrite (proj2 (Z.ltb_ge _ 2)) by lia. rewrite (proj2 (Z.ltb_lt _ 242)) by lia.
  replace (2 + 5 * r + q - 2) with (q + r * 5) by lia. rewrite Z.div_add, Z.mod_add by lia.
  rewrite Z.div_small, Z.mod_small by lia. exact E.
Qed.
Lemma at_cmp : forall r q k v, 0 <= r < 64 -> 0 <= q < 8 -> 0 <= k < 9 ->
  cmp_cell P (znth 0 round_constant r) (znth 0 cw r) (cs r) q k = Some v -> T' CWit (W c k) (row + (242 + 8 * r) + q) = v.
Proof.
  intros r q k v Hr Hq Hk E. rewrite <- Z.add_assoc. apply gen_at; [lia|exact Hk|]. rewrite gen_ne by lia. unfold sp_cell.
  rewrite (proj2 (Z.ltb_ge _ 2)) by lia. rewrite (proj2 (Z.ltb_ge _ 242)) by lia. rewrite (proj2 (Z.ltb_lt _ 754)) by lia.
  replace (242 + 8 * r + q - 242) with (q + r * 8) by lia. rewrite Z.div_add, Z.mod_add by lia.
  rewrite Z.div_small, Z.mod_small by lia. exact E.
Qed.
Lemma at_chk : forall q k v, 0 <= q < 4 -> 0 <= k < 9 -> chk_cell P fin q k = Some v -> T' CWit (W c k) (row + (758 + q)) = v.
Proof.
  intros q k v Hq Hk E. apply gen_at; [lia|exact Hk|]. rewrite gen_ne by lia. unfold sp_cell.
  rewrite (proj2 (Z.ltb_ge _ 2)), (proj2 (Z.ltb_ge _ 242)), (proj2 (Z.ltb_ge _ 754)), (proj2 (Z.ltb_ge _ 756)), (proj2 (Z.ltb_ge _ 758)) by lia.
  replace (758 + q - 758) with q by lia. exact E.
Qed.
(** Rows 754-757, both halves: [q] is 0 or 1. *)
Lemma at_out : forall q e k v, 0 <= q < 2 -> 0 <= e < 2 -> 0 <= k < 9 -> (e = 1 -> q = 0 -> u = false \/ k <> 0 /\ k <> 4) ->
  out_cell P h fin (4 * q) e k = Some v -> T' CWit (W c k) (row + (754 + 2 * q) + e) = v.
Proof.
  intros q e k v Hq He Hk N E. rewrite <- Z.add_assoc. apply gen_at; [lia|exact Hk|].
  assert (G : gen_cell h ws cw cs fin (754 + 2 * q + e) k = sp_cell P h ws cw cs fin (754 + 2 * q + e) k).
  { destruct (Z.eq_dec (754 + 2 * q + e) 755) as [X|X]; [|apply gen_ne, X]. unfold gen_cell. rewrite X.
    destruct (N ltac:(lia) ltac:(lia)) as [->|[N0 N4]]; [reflexivity|].
    rewrite (proj2 (Z.eqb_neq k 0) N0), (proj2 (Z.eqb_neq k 4) N4). rewrite !andb_false_r. reflexivity. }
  rewrite G. unfold sp_cell.
  rewrite (proj2 (Z.ltb_ge _ 2)), (proj2 (Z.ltb_ge _ 242)), (proj2 (Z.ltb_ge _ 754)) by lia.
  assert (q = 0 \/ q = 1) as [->| ->] by lia.
  - rewrite (proj2 (Z.ltb_lt _ 756)) by lia. replace (754 + 2 * 0 + e - 754) with e by lia. exact E.
  - rewrite (proj2 (Z.ltb_ge _ 756)), (proj2 (Z.ltb_lt _ 758)) by lia. replace (754 + 2 * 1 + e - 756) with e by lia. exact E.
Qed.
Lemma cell_lo0 : forall q k, 0 <= k < 4 -> out_cell P h fin (4 * q) 0 k = Some (ofZ (znth 0 h (k + 4 * q))).
Proof.
  intros q k Hk. unfold out_cell. rewrite (proj2 (Z.ltb_lt k 4)), (proj2 (Z.leb_le 0 k)), (proj2 (Z.ltb_lt k 8)) by lia. reflexivity.
Qed.
Lemma cell_hi0 : forall q k, 0 <= k < 4 -> out_cell P h fin (4 * q) 0 (k + 4) = Some (ofZ (znth 0 fin (k + 4 * q))).
Proof.
  intros q k Hk. unfold out_cell. rewrite (proj2 (Z.ltb_ge (k + 4) 4)), (proj2 (Z.leb_le 0 (k + 4))), (proj2 (Z.ltb_lt (k + 4) 8)) by lia.
  replace (k + 4 - 4 + 4 * q) with (k + 4 * q) by lia. reflexivity.
Qed.
Lemma cell_lo1 : forall q k, 0 <= k < 4 -> out_cell P h fin (4 * q) 1 k = Some (ofZ ((znth 0 h (k + 4 * q) + znth 0 fin (k + 4 * q)) mod 2 ^ 32)).
Proof.
  intros q k Hk. unfold out_cell. rewrite (proj2 (Z.ltb_lt k 4)), (proj2 (Z.leb_le 0 k)), (proj2 (Z.ltb_lt k 8)) by lia. reflexivity.
Qed.
Lemma cell_hi1 : forall q k, 0 <= k < 4 -> out_cell P h fin (4 * q) 1 (k + 4) = Some (ofZ ((znth 0 h (k + 4 * q) + znth 0 fin (k + 4 * q)) / 2 ^ 32)).
Proof.
  intros q k Hk. unfold out_cell. rewrite (proj2 (Z.ltb_ge (k + 4) 4)), (proj2 (Z.leb_le 0 (k + 4))), (proj2 (Z.ltb_lt (k + 4) 8)) by lia.
  replace (k + 4 - 4 + 4 * q) with (k + 4 * q) by lia. cbn [andb]. set (x := znth 0 h (k + 4 * q) + znth 0 fin (k + 4 * q)).
  replace (x - x mod 2 ^ 32) with (x / 2 ^ 32 * 2 ^ 32) by (pose proof (Z.div_mod x (2 ^ 32) ltac:(lia)); lia).
  rewrite Z.div_mul by lia. reflexivity.
Qed.

Lemma back_a : forall t, 0 <= t -> c_b (cs (t + 1)) = c_a (cs t) /\ c_c (cs (t + 1)) = c_b (cs t) /\ c_d (cs (t + 1)) = c_c (cs t) /\
  c_f (cs (t + 1)) = c_e (cs t) /\ c_g (cs (t + 1)) = c_f (cs t) /\ c_h (cs (t + 1)) = c_g (cs t).
Proof. intros t Ht. rewrite cs_S by exact Ht. repeat apply conj; reflexivity. Qed.
Lemma gen_fin_words : forall s z0 z4, isstate (abs s) -> isw z0 -> isw z4 -> words (gen_fin s z0 z4).
Proof.
  intros s z0 z4 [A [B [C [D [E [G [H I]]]]]]] Z0 Z4. unfold gen_fin.
  repeat (apply Forall_cons; [assumption|]). apply Forall_nil.
Qed.
Lemma fin_words : words fin.
Proof. apply gen_fin_words; [apply (k_w _ (proj1 (cs_good 64 ltac:(lia))))|exact y0_ok|exact y4_ok]. Qed.

Lemma gen_sat : sat L T' (sp_circuit c st wd row).
Proof.
  apply sp_view_iff. apply (reads_view P big c st wd row T' ws cw cs fin).
  - intros r Hr. rewrite (gen_frame CConst) by (intros [X _]; discriminate).
    apply K_in. unfold sp_circuit. apply in_or_app. left. unfold sp_consts. apply in_map_iff. exists r.
    split; [f_equal; lia|apply in_zseq; lia].
  - exact at_msg.
  - exact at_cmp.
  - intros k Hk. split.
    + pose proof (at_out 0 0 (k + 4) _ ltac:(lia) ltac:(lia) ltac:(lia) ltac:(lia) (cell_hi0 0 k Hk)) as E.
      rewrite <- Z.add_assoc in E. replace (k + 4 * 0) with k in E by lia. exact E.
    + pose proof (at_out 1 0 (k + 4) _ ltac:(lia) ltac:(lia) ltac:(lia) ltac:(lia) (cell_hi0 1 k Hk)) as E.
      rewrite <- Z.add_assoc in E. exact E.
  - exact at_chk.
  - intros k Hk. split.
    + pose proof (at_out 0 0 k _ ltac:(lia) ltac:(lia) ltac:(lia) ltac:(lia) (cell_lo0 0 k Hk)) as E.
      rewrite <- Z.add_assoc in E. replace (k + 4 * 0) with k in E by lia. rewrite gen_st by lia. exact E.
    + pose proof (at_out 1 0 k _ ltac:(lia) ltac:(lia) ltac:(lia) ltac:(lia) (cell_lo0 1 k Hk)) as E.
      rewrite <- Z.add_assoc in E. rewrite gen_st by lia. exact E.
  - intros k Hk. rewrite gen_wd by exact Hk. rewrite ws_eq. f_equal. symmetry. apply (sched_stable m 16 64); [exact m_len|lia..].
  - intros q Hq. rewrite <- (Z.add_0_r (row + (754 + 2 * q))). apply out_honest. intros k Hk.
    pose proof (words_at h (k + 4 * q) h_ok) as Ih. pose proof (words_at fin (k + 4 * q) fin_words) as If. unfold isw, w32 in Ih, If.
    set (x := znth 0 h (k + 4 * q) + znth 0 fin (k + 4 * q)).
    assert (A0 := at_out q 0 k _ Hq ltac:(lia) ltac:(lia) ltac:(lia) (cell_lo0 q k Hk)).
    assert (B0 := at_out q 0 (k + 4) _ Hq ltac:(lia) ltac:(lia) ltac:(lia) (cell_hi0 q k Hk)).
    assert (D : (u = true /\ q = 0 /\ k = 0) \/ (q = 0 -> u = false \/ k <> 0)) by (destruct u; [|right; auto]; destruct (Z.eq_dec q 0); [|right; lia];
      destruct (Z.eq_dec k 0); [left; auto|right; auto]).
    destruct D as [[U [-> ->]]|D].
    + exists (znth 0 h (0 + 4 * 0)), (znth 0 fin (0 + 4 * 0)), x, 0. repeat apply conj; try assumption; try (unfold x; lia).
      * rewrite <- Z.add_assoc. apply gen_at; [lia..|]. unfold gen_cell. rewrite U. reflexivity.
      * rewrite <- Z.add_assoc. apply gen_at; [lia..|]. unfold gen_cell. rewrite U. reflexivity.
    + exists (znth 0 h (k + 4 * q)), (znth 0 fin (k + 4 * q)), (x mod 2 ^ 32), (x / 2 ^ 32). repeat apply conj; try assumption.
      * apply at_out; [exact Hq|lia..| |apply cell_lo1; exact Hk]. intros _ Q. destruct (D Q) as [X|X]; [left; exact X|right; lia].
      * apply at_out; [exact Hq|lia..| |apply cell_hi1; exact Hk]. intros _ Q. destruct (D Q) as [X|X]; [left; exact X|right; lia].
      * pose proof (Z.div_mod x (2 ^ 32) ltac:(lia)). unfold x in *. lia.
      * apply Z.div_pos; unfold x; lia.
      * apply Z.div_lt_upper_bound; unfold x; lia.
  - intros k Hk. apply words_at, ws_words.
  - intros r Hr. rewrite (msg_next P big ws r ws_words). rewrite ws_eq. apply sched_rec; [exact m_len|lia..].
  - intros k Hk. apply words_at, cw_words.
  - intros r Hr. apply cs_good. lia.
  - intros r Hr. apply cs_S. lia.
  - intros k Hk. apply words_at, fin_words.
  - destruct (back_a 63 ltac:(lia)) as [A1 [A2 [A3 [A4 [A5 A6]]]]]. destruct (back_a 62 ltac:(lia)) as [B1 [B2 [B3 [B4 [B5 B6]]]]].
    destruct (back_a 61 ltac:(lia)) as [C1 [C2 [C3 [C4 [C5 C6]]]]]. change (63 + 1) with 64 in *. change (62 + 1) with 63 in *. change (61 + 1) with 62 in *.
    unfold fin, gen_fin. clearbody cs.
    change (c_b (cs 64) = c_a (cs 63) /\ c_c (cs 64) = c_a (cs 62) /\ c_d (cs 64) = c_a (cs 61) /\
            c_f (cs 64) = c_e (cs 63) /\ c_g (cs 64) = c_e (cs 62) /\ c_h (cs 64) = c_e (cs 61)).
    repeat apply conj; congruence.
Qed.

Lemma gen_out : forall k, 0 <= k < 8 -> (u = true -> k <> 0) -> 
  vval T' (sp_out c row k) = ofZ ((znth 0 h k + znth 0 fin k) mod 2 ^ 32).
Proof.
  intros k Hk U. unfold sp_out. destruct (Z.ltb_spec k 4) as [K|K]; rewrite vval_wcell.
  - assert (A := at_out 0 1 k _ ltac:(lia) ltac:(lia) ltac:(lia) ltac:(intros _ _; destruct u; [right; specialize (U eq_refl); lia|left; reflexivity]) (cell_lo1 0 k ltac:(lia))).
    replace (k + 4 * 0) with k in A by lia. rewrite <- A. f_equal. lia.
  - assert (A := at_out 1 1 (k - 4) _ ltac:(lia) ltac:(lia) ltac:(lia) ltac:(lia) (cell_lo1 1 (k - 4) ltac:(lia))).
    replace (k - 4 + 4 * 1) with k in A by lia. rewrite <- A. f_equal. lia.
Qed.
Lemma gen_out0 : u = true -> vval T' (sp_out c row 0) = ofZ (znth 0 h 0 + y0).
Proof.
  intros U. unfold sp_out. rewrite (proj2 (Z.ltb_lt 0 4)) by lia. rewrite vval_wcell. replace (row + 762 - 7) with (row + 755) by lia.
  apply gen_at; [lia..|]. unfold gen_cell. rewrite U. reflexivity.
Qed.
Lemma fin_rest : forall k, 0 <= k < 8 -> k <> 0 -> k <> 4 -> znth 0 fin k = znth 0 (sst_list (sha_rounds (sha_schedule m' 64) 64 (list_sst h'))) k.
Proof.
  intros k Hk N0 N4. destruct (cs_good 64 ltac:(lia)) as [_ E]. rewrite <- cw_eq, <- E. unfold fin. generalize (cs 64). intros s.
  assert (k = 1 \/ k = 2 \/ k = 3 \/ k = 5 \/ k = 6 \/ k = 7) as [->|[->|[->|[->|[->| ->]]]]] by lia; reflexivity.
Qed.
(** With the rounds run on the inputs themselves the absent copies hold too. *)
Lemma gen_missing : h' = h -> m' = m -> y0 = c_a (cs 64) -> y4 = c_e (cs 64) ->
  sat L T' (sp_missing P c st wd row) /\ sparse_ok P c st row T'.
Proof.
  intros Eh Em E0 E4.
  assert (Ecw : cw = ws) by (unfold cw, ws; rewrite Em; reflexivity).
  assert (C0 : cs 0 = c_init h) by (unfold cs; rewrite Eh; reflexivity).
  assert (B0 := back_a 0 ltac:(lia)). assert (B1 := back_a 1 ltac:(lia)). change (0 + 1) with 1 in B0. change (1 + 1) with 2 in B1.
  destruct B0 as [B01 [B02 [B03 [B04 [B05 B06]]]]]. destruct B1 as [B11 [B12 [B13 [B14 [B15 B16]]]]]. rewrite C0 in *.
  assert (Ya : forall r, 0 <= r < 64 -> T' CWit (W c 0) (row + (242 + 8 * r + 7)) = ofZ (c_a (cs r))).
  { intros r Hr. rewrite Z.add_assoc. exact (at_cmp r 7 0 _ Hr ltac:(lia) ltac:(lia) eq_refl). }
  assert (Ye : forall r, 0 <= r < 64 -> T' CWit (W c 0) (row + (242 + 8 * r)) = ofZ (c_e (cs r))).
  { intros r Hr. rewrite <- (Z.add_0_r (row + (242 + 8 * r))). exact (at_cmp r 0 0 _ Hr ltac:(lia) ltac:(lia) eq_refl). }
  assert (Yd : forall r, 0 <= r < 64 -> T' CWit (W c 1) (row + (242 + 8 * r + 3)) = ofZ (c_d (cs r))).
  { intros r Hr. rewrite Z.add_assoc. exact (at_cmp r 3 1 _ Hr ltac:(lia) ltac:(lia) eq_refl). }
  assert (Yh : forall r, 0 <= r < 64 -> T' CWit (W c 2) (row + (242 + 8 * r + 3)) = ofZ (c_h (cs r))).
  { intros r Hr. rewrite Z.add_assoc. exact (at_cmp r 3 2 _ Hr ltac:(lia) ltac:(lia) eq_refl). }
  assert (Yw : forall r, 0 <= r < 64 -> T' CWit (W c 3) (row + (242 + 8 * r + 3)) = ofZ (znth 0 cw r)).
  { intros r Hr. rewrite Z.add_assoc. exact (at_cmp r 3 3 _ Hr ltac:(lia) ltac:(lia) eq_refl). }
  assert (Far : forall r, 3 <= r -> c_d (cs r) = c_a (cs (r - 3)) /\ c_h (cs r) = c_e (cs (r - 3))).
  { intros r Hr. destruct (back_a (r - 1) ltac:(lia)) as [_ [_ [X1 [_ [_ X2]]]]]. destruct (back_a (r - 2) ltac:(lia)) as [_ [X3 [_ [_ [X4 _]]]]].
    destruct (back_a (r - 3) ltac:(lia)) as [X5 [_ [_ [X6 _]]]]. replace (r - 1 + 1) with r in * by lia.
    replace (r - 2 + 1) with (r - 1) in * by lia. replace (r - 3 + 1) with (r - 2) in * by lia. split; congruence. }
  split.
  - unfold sp_missing. apply sat_app. split.
    + apply sat_flat. intros r Hr. apply in_zseq in Hr. rewrite !sat_cons. cbn [holds]. rewrite !vval_wcell, Yd, Yh, Yw by exact Hr.
      split; [|split; [|split; [|apply sat_nil]]].
      * unfold d_src. destruct (Z.ltb_spec r 3) as [K|K].
        -- rewrite gen_st by lia. f_equal. assert (r = 0 \/ r = 1 \/ r = 2) as [->|[->| ->]] by lia; [rewrite C0; reflexivity|exact B03|rewrite B13; exact B02].
        -- rewrite vval_wcell, Ya by lia. f_equal. apply Far. exact K.
      * unfold h_src. destruct (Z.ltb_spec r 3) as [K|K].
        -- rewrite gen_st by lia. f_equal. assert (r = 0 \/ r = 1 \/ r = 2) as [->|[->| ->]] by lia; [rewrite C0; reflexivity|exact B06|rewrite B16; exact B05].
        -- rewrite vval_wcell, Ye by lia. f_equal. apply Far. exact K.
      * unfold w_src. rewrite Ecw. destruct (Z.ltb_spec r 16) as [K|K].
        -- rewrite gen_wd by lia. f_equal. rewrite ws_eq. apply (sched_stable m 16 64); [exact m_len|lia..].
        -- rewrite vval_wcell. rewrite Z.add_assoc. rewrite (at_msg (r - 16) 2 0 _ ltac:(lia) ltac:(lia) ltac:(lia) eq_refl).
           replace (r - 16 + 16) with r by lia. reflexivity.
    + rewrite !sat_cons. cbn [holds]. rewrite !vval_wcell. split; [|split; [|split; [|split; [|apply sat_nil]]]].
      * rewrite gen_st by lia. transitivity (ofZ (c_a (cs 0)) : F); [exact (Ya 0 ltac:(lia))|rewrite C0; reflexivity].
      * rewrite gen_st by lia. transitivity (ofZ (c_e (cs 0)) : F); [exact (Ye 0 ltac:(lia))|rewrite C0; reflexivity].
      * transitivity (ofZ (c_a (cs 64)) : F).
        -- pose proof (at_out 0 0 (0 + 4) _ ltac:(lia) ltac:(lia) ltac:(lia) ltac:(lia) (cell_hi0 0 0 ltac:(lia))) as E.
           rewrite <- Z.add_assoc in E. rewrite <- E0. exact E.
        -- symmetry. pose proof (at_cmp 63 5 2 _ ltac:(lia) ltac:(lia) ltac:(lia) eq_refl) as E. rewrite <- Z.add_assoc in E.
           change (242 + 8 * 63 + 5) with 751 in E. rewrite E, <- (proj1 (cs_new 63 ltac:(lia))). reflexivity.
      * transitivity (ofZ (c_e (cs 64)) : F).
        -- pose proof (at_out 1 0 (0 + 4) _ ltac:(lia) ltac:(lia) ltac:(lia) ltac:(lia) (cell_hi0 1 0 ltac:(lia))) as E.
           rewrite <- Z.add_assoc in E. rewrite <- E4. exact E.
        -- symmetry. pose proof (at_cmp 63 3 4 _ ltac:(lia) ltac:(lia) ltac:(lia) eq_refl) as E. rewrite <- Z.add_assoc in E.
           change (242 + 8 * 63 + 3) with 749 in E. rewrite E, <- (proj2 (cs_new 63 ltac:(lia))). reflexivity.
  - assert (Eis : in_state P st T' = h).
    { unfold h, in_state. apply map_ext_in. intros k Hk. apply in_zseq in Hk. rewrite (vval_frame P c sp_rows row T T' (st k) gen_frame (st_out k Hk)). reflexivity. }
    destruct (cs_good 0 ltac:(lia)) as [Q _]. rewrite C0 in Q. unfold sparse_ok. rewrite Eis. repeat apply conj.
    + transitivity (ofZ (v_1 (cs 0)) : F); [pose proof (at_cmp 0 5 1 _ ltac:(lia) ltac:(lia) ltac:(lia) eq_refl) as E; rewrite <- Z.add_assoc in E; exact E|].
      rewrite C0, (k_1 _ Q). reflexivity.
    + transitivity (ofZ (v_2 (cs 0)) : F); [pose proof (at_cmp 0 5 4 _ ltac:(lia) ltac:(lia) ltac:(lia) eq_refl) as E; rewrite <- Z.add_assoc in E; exact E|].
      rewrite C0, (k_2 _ Q). reflexivity.
    + transitivity (ofZ (v_5 (cs 0)) : F); [pose proof (at_cmp 0 1 1 _ ltac:(lia) ltac:(lia) ltac:(lia) eq_refl) as E; rewrite <- Z.add_assoc in E; exact E|].
      rewrite C0, (k_5 _ Q). reflexivity.
    + transitivity (ofZ (v_6 (cs 0)) : F); [pose proof (at_cmp 0 3 0 _ ltac:(lia) ltac:(lia) ltac:(lia) eq_refl) as E; rewrite <- Z.add_assoc in E; exact E|].
      rewrite C0, (k_6 _ Q). reflexivity.
Qed.
End Tables.
