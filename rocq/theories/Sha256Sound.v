(** Soundness of the message schedule of sha256_process, and of the whole
    component once the missing copy constraints are added. *)
From Coq Require Import ZArith List String Lia Bool Field.
From Verif Require Import Base Field Plonk PlonkFacts Bits Sha256Spec Sha256Model Sha256Sparse Sha256Words Sha256Gadgets Sha256Blocks Sha256View.
Import ListNotations.
Open Scope Z_scope.

(** ** Facts about the specification *)

Lemma sched_from : forall z m n, (forall r, 0 <= r < 48 -> z (r + 16) = (sha_s1 (z (r + 14)) + z (r + 9) + sha_s0 (z (r + 1)) + z r) mod w32) ->
  m = map z (zseq 0 16) -> 16 <= n <= 64 -> sha_schedule m n = map z (zseq 0 n).
Proof.
  intros z m n Hz Hm Hn. unfold sha_schedule.
  replace n with (n - 16 + 16) by lia. assert (Hk : 0 <= n - 16 <= 48) by lia. clear Hn. revert Hk. generalize (n - 16). clear n.
  intros k Hk. assert (H0 : 0 <= k) by lia. revert Hk. pattern k. apply natlike_ind; [| |exact H0]; clear k H0.
  - intros _. exact Hm.
  - intros k Hk IH Hk'. replace (Z.succ k + 16) with (k + 16 + 1) by lia. rewrite !zseq_snoc by lia.
    rewrite fold_left_app, map_app, IH by lia. cbn [fold_left map]. f_equal. f_equal. unfold sha_next.
    rewrite !znth_map_zseq by lia. rewrite Hz by lia.
    replace (0 + (k + 16 - 2)) with (k + 14) by lia. replace (0 + (k + 16 - 7)) with (k + 9) by lia.
    replace (0 + (k + 16 - 15)) with (k + 1) by lia. replace (0 + (k + 16 - 16)) with k by lia. reflexivity.
Qed.

Lemma zlen_sched : forall m n, 16 <= n -> zlen m = 16 -> zlen (sha_schedule m n) = n.
Proof.
  intros m n Hn Hm. unfold sha_schedule. replace n with (n - 16 + 16) by lia. assert (H0 : 0 <= n - 16) by lia. clear Hn.
  revert H0. generalize (n - 16). clear n. intros k Hk. pattern k. apply natlike_ind; [| |exact Hk]; clear k Hk.
  - exact Hm.
  - intros k Hk IH. replace (Z.succ k + 16) with (k + 16 + 1) by lia. rewrite zseq_snoc, fold_left_app by lia. cbn [fold_left].
    rewrite zlen_app, IH. unfold zlen. cbn. lia.
Qed.

Lemma sha_rounds_S : forall w n s, 0 <= n -> sha_rounds w (n + 1) s = sha_round (znth 0 sha_K n) (znth 0 w n) (sha_rounds w n s).
Proof. intros. unfold sha_rounds. rewrite zseq_snoc, fold_left_app by lia. reflexivity. Qed.
Lemma sha_rounds_0 : forall w s, sha_rounds w 0 s = s.
Proof. reflexivity. Qed.

Definition isstate (s : sst) : Prop :=
  isw (s_a s) /\ isw (s_b s) /\ isw (s_c s) /\ isw (s_d s) /\ isw (s_e s) /\ isw (s_f s) /\ isw (s_g s) /\ isw (s_h s).
Lemma isst_round : forall k w s, isstate s -> isstate (sha_round k w s).
Proof. intros k w s [A [B [C [D [E [G [H I]]]]]]]. unfold isstate; cbn [sha_round s_a s_b s_c s_d s_e s_f s_g s_h]. repeat (apply conj; [first [assumption|apply isw_mod]|]). assumption. Qed.
Lemma isst_rounds : forall w n s, 0 <= n -> isstate s -> isstate (sha_rounds w n s).
Proof.
  intros w n s Hn Hs. pattern n. apply natlike_ind; [exact Hs| |exact Hn]. intros x Hx IH. unfold Z.succ. rewrite sha_rounds_S by exact Hx.
  apply isst_round, IH.
Qed.

Lemma s_d_back : forall w s r, 3 <= r -> s_d (sha_rounds w r s) = s_a (sha_rounds w (r - 3) s).
Proof.
  intros w s r Hr. replace r with (r - 3 + 1 + 1 + 1) at 1 by lia. rewrite !sha_rounds_S by lia. reflexivity.
Qed.
Lemma s_h_back : forall w s r, 3 <= r -> s_h (sha_rounds w r s) = s_e (sha_rounds w (r - 3) s).
Proof.
  intros w s r Hr. replace r with (r - 3 + 1 + 1 + 1) at 1 by lia. rewrite !sha_rounds_S by lia. reflexivity.
Qed.

Lemma K_same : round_constant = sha_K.
Proof. reflexivity. Qed.
Lemma isw_K : forall r, isw (znth 0 sha_K r).
Proof.
  assert (A : Forall isw sha_K) by (repeat constructor; discriminate).
  intros r. unfold znth. destruct (nth_in_or_default (Z.to_nat r) sha_K 0) as [H|H].
  - rewrite Forall_forall in A. apply A. exact H.
  - rewrite H. split; [discriminate|reflexivity].
Qed.

Section Sound.
Variable P : params.
Hypothesis big : 2 ^ 128 < char P.
Notation F := (F P).
Notation table := (table P).
Notation L := (@sha_lenv P).
Variable c : comp.
Variables (st wd : Z -> var) (row : Z).
Variable T : table.
Notation at_ k o := (T CWit (W c k%Z) (row + (o))%Z).

Definition in_state : list Z := map (fun i => fval (vval T (st i))) (zseq 0 8).
Definition in_words : list Z := map (fun i => fval (vval T (wd i))) (zseq 0 16).

Lemma isw_char : forall x, isw x -> fval (ofZ x : F) = x.
Proof. intros x H. apply fval_ofZ_small. unfold isw, w32 in H. lia. Qed.

Section Schedule.
Hypothesis V : sp_view P c st wd row T.
Hypothesis w0_ok : isw (fval (vval T (wd 0))).
Notation wv_ k := (wv_at P c wd row T k).

Lemma words_ok : forall k, 0 <= k < 64 -> isw (fval (wv_ k)).
Proof.
  intros k Hk. destruct (Z.eq_dec k 0) as [->|N].
  { rewrite wv_lo by lia. exact w0_ok. }
  enough (exists x, isw x /\ wv_ k = ofZ x) as [x [Ix ->]] by (rewrite isw_char; exact Ix).
  destruct (Z_lt_le_dec k 16) as [K|K].
  - destruct (v_msg _ _ _ _ _ _ V (k - 1) ltac:(lia)) as [G [H _]]. destruct (sigma0_sound P big c T _ G H) as [a [Ia [Ea _]]].
    exists a. split; [exact Ia|]. rewrite <- Ea, Z.add_0_r.
    destruct (v_words _ _ _ _ _ _ V (k - 1) ltac:(lia)) as [E _]. rewrite E. f_equal. lia.
  - destruct (v_msg _ _ _ _ _ _ V (k - 16) ltac:(lia)) as [_ [_ [_ [M [G H]]]]].
    destruct (sigma1_sound P big c T _ G H M) as [_ [x [Ix Ex]]]. exists x. split; [exact Ix|].
    destruct (v_words _ _ _ _ _ _ V (k - 16) ltac:(lia)) as [_ [_ [_ [_ E]]]]. rewrite <- Ex, <- E.
    rewrite (wv_hi P c wd row T k _ K eq_refl). f_equal. lia.
Qed.

Lemma schedule_step : forall r, 0 <= r < 48 ->
  fval (wv_ (r + 16)) = (sha_s1 (fval (wv_ (r + 14))) + fval (wv_ (r + 9)) + sha_s0 (fval (wv_ (r + 1))) + fval (wv_ r)) mod w32.
Proof.
  intros r Hr. destruct (v_msg _ _ _ _ _ _ V r Hr) as [G0 [H0 [G [M [G1 H1]]]]].
  destruct (v_words _ _ _ _ _ _ V r Hr) as [E1 [E9 [E0 [E14 E16]]]].
  destruct (sigma0_sound P big c T _ G0 H0) as [a [Ia [Ea Sa]]]. destruct (sigma1_sound P big c T _ G1 H1 M) as [[b [Ib [Eb Sb]]] _].
  pose proof (words_ok (r + 1) ltac:(lia)) as I1. pose proof (words_ok (r + 14) ltac:(lia)) as I14.
  assert (Xa : a = fval (wv_ (r + 1))). { rewrite <- E1, <- (Z.add_0_r (row + (2 + 5 * r))), Ea. symmetry. apply isw_char, Ia. }
  assert (Xb : b = fval (wv_ (r + 14))). { rewrite <- E14, Eb. symmetry. apply isw_char, Ib. }
  rewrite <- Xa, <- Xb.
  apply (msg_sound P big c T (row + (2 + 5 * r)) (fval (wv_ r)) (fval (wv_ (r + 9))) a b (fval (wv_ (r + 16))) G);
    try (apply words_ok; lia); try assumption; rewrite ofZ_fval; try assumption.
  rewrite (wv_hi P c wd row T (r + 16) _ ltac:(lia) eq_refl). f_equal. lia.
Qed.

Lemma in_words_eq : in_words = map (fun k => fval (wv_ k)) (zseq 0 16).
Proof. apply map_ext_in. intros k Hk. apply in_zseq in Hk. rewrite wv_lo by lia. reflexivity. Qed.

Lemma schedule_words : forall k, 0 <= k < 64 -> wv_ k = ofZ (znth 0 (sha_schedule in_words 64) k) /\ isw (znth 0 (sha_schedule in_words 64) k).
Proof.
  intros k Hk. rewrite (sched_from (fun k => fval (wv_ k)) in_words 64 schedule_step in_words_eq) by lia.
  rewrite znth_map_zseq by lia. rewrite Z.add_0_l, ofZ_fval. split; [reflexivity|apply words_ok, Hk].
Qed.
End Schedule.

(** The message schedule cells hold the message schedule. *)
Theorem schedule_sound : sat L T (sp_circuit c st wd row) -> isw (fval (vval T (wd 0))) ->
  forall t, 0 <= t < 48 -> at_ 0 (2 + 5 * t + 2) = ofZ (znth 0 (sha_schedule in_words 64) (16 + t)).
Proof.
  intros S I0 t Ht. apply sp_view_iff in S. destruct (schedule_words S I0 (16 + t) ltac:(lia)) as [E _].
  rewrite <- E. rewrite (wv_hi P c wd row T (16 + t) _ ltac:(lia) eq_refl). f_equal. lia.
Qed.

(** ** With the missing copy constraints *)

(** The cell that should hold the input of compression round [r]. *)
Definition d_src (r : Z) : var := if r <? 3 then st (3 - r) else wcell (W c 0) (row + (242 + 8 * (r - 3) + 7)).
Definition h_src (r : Z) : var := if r <? 3 then st (7 - r) else wcell (W c 0) (row + (242 + 8 * (r - 3))).
Definition w_src (r : Z) : var := if r <? 16 then wd r else wcell (W c 0) (row + (2 + 5 * (r - 16) + 2)).
Definition sp_missing : list (cmd P) :=
  flat_map (fun r => [Copy (wcell (W c 1) (row + (242 + 8 * r + 3))) (d_src r);
                      Copy (wcell (W c 2) (row + (242 + 8 * r + 3))) (h_src r);
                      Copy (wcell (W c 3) (row + (242 + 8 * r + 3))) (w_src r)]) (zseq 0 64) ++
  [Copy (wcell (W c 0) (row + 249)) (st 0); Copy (wcell (W c 0) (row + 242)) (st 4);
   Copy (wcell (W c 4) (row + 754)) (wcell (W c 2) (row + 751)); Copy (wcell (W c 4) (row + 756)) (wcell (W c 4) (row + 749))].
(** The sparse forms of b, c, f and g in the first round, which no constraint ties to the input state either. *)
Definition sparse_ok : Prop :=
  at_ 1 247 = ofZ (numl 4 (lbits 32 (znth 0 in_state 1))) /\ at_ 4 247 = ofZ (numl 4 (lbits 32 (znth 0 in_state 2))) /\
  at_ 1 243 = ofZ (numl 7 (lbits 32 (znth 0 in_state 5))) /\ at_ 0 245 = ofZ (numl 7 (lbits 32 (znth 0 in_state 6))).

Section Rounds.
Hypothesis V : sp_view P c st wd row T.
Hypothesis M : sat L T sp_missing.
Hypothesis SP : sparse_ok.
Hypothesis Ist : forall k, 0 <= k < 8 -> isw (fval (vval T (st k))).
Hypothesis Iw0 : isw (fval (vval T (wd 0))).
Let ws := sha_schedule in_words 64.
Let S r := sha_rounds ws r (list_sst in_state).
Notation I_ r := (row + (242 + 8 * r))%Z.

Lemma in_state_at : forall k, 0 <= k < 8 -> znth 0 in_state k = fval (vval T (st k)).
Proof. intros k Hk. unfold in_state. rewrite znth_map_zseq by lia. f_equal. Qed.
Lemma in_state_of : forall k, 0 <= k < 8 -> vval T (st k) = ofZ (znth 0 in_state k).
Proof. intros k Hk. rewrite in_state_at, ofZ_fval by exact Hk. reflexivity. Qed.

Lemma isS : forall r, 0 <= r -> isstate (S r).
Proof.
  intros r Hr. apply isst_rounds; [exact Hr|]. unfold list_sst, isstate. cbn [s_a s_b s_c s_d s_e s_f s_g s_h].
  rewrite !in_state_at by lia. repeat (apply conj; [apply Ist; lia|]). apply Ist; lia.
Qed.
Lemma S_S : forall r, 0 <= r -> S (r + 1) = sha_round (znth 0 sha_K r) (znth 0 ws r) (S r).
Proof. intros r Hr. apply sha_rounds_S, Hr. Qed.

Definition inv (r : Z) : Prop :=
  T CWit (W c 0) (I_ r) = ofZ (s_e (S r)) /\ T CWit (W c 0) (I_ r + 7) = ofZ (s_a (S r)) /\
  T CWit (W c 1) (I_ r + 5) = ofZ (numl 4 (lbits 32 (s_b (S r)))) /\ T CWit (W c 4) (I_ r + 5) = ofZ (numl 4 (lbits 32 (s_c (S r)))) /\
  T CWit (W c 1) (I_ r + 1) = ofZ (numl 7 (lbits 32 (s_f (S r)))) /\ T CWit (W c 0) (I_ r + 3) = ofZ (numl 7 (lbits 32 (s_g (S r)))).

Lemma missing_r : forall r, 0 <= r < 64 -> T CWit (W c 1) (I_ r + 3) = vval T (d_src r) /\
  T CWit (W c 2) (I_ r + 3) = vval T (h_src r) /\ T CWit (W c 3) (I_ r + 3) = vval T (w_src r).
Proof.
  intros r Hr. assert (M' := M). unfold sp_missing in M'. rewrite sat_app, sat_flat in M'. destruct M' as [M' _].
  assert (K : In r (zseq 0 64)) by (apply in_zseq; exact Hr). apply M' in K. rewrite !sat_cons in K. cbn [holds] in K.
  rewrite !vval_wcell in K. destruct K as [K1 [K2 [K3 _]]]. rewrite <- K1, <- K2, <- K3. repeat split; f_equal; lia.
Qed.

Lemma round_inputs : forall r, 0 <= r < 64 -> (forall q, 0 <= q <= r -> inv q) -> cmp_in P c T (I_ r) (znth 0 ws r) (S r).
Proof.
  intros r Hr H. destruct (missing_r r Hr) as [Md [Mh Mw]]. destruct (H r ltac:(lia)) as [_ [_ [Hb [Hc [Hf Hg]]]]].
  constructor; [| | |exact Hb|exact Hc|exact Hf|exact Hg].
  - rewrite Md. unfold d_src. destruct (Z.ltb_spec r 3) as [K|K].
    + rewrite in_state_of by lia. f_equal. assert (r = 0 \/ r = 1 \/ r = 2) as [->|[->| ->]] by lia; reflexivity.
    + rewrite vval_wcell. destruct (H (r - 3) ltac:(lia)) as [_ [Ha _]]. unfold S in *. rewrite s_d_back by exact K. rewrite <- Ha. f_equal. lia.
  - rewrite Mh. unfold h_src. destruct (Z.ltb_spec r 3) as [K|K].
    + rewrite in_state_of by lia. f_equal. assert (r = 0 \/ r = 1 \/ r = 2) as [->|[->| ->]] by lia; reflexivity.
    + rewrite vval_wcell. destruct (H (r - 3) ltac:(lia)) as [Ha _]. unfold S in *. rewrite s_h_back by exact K. exact Ha.
  - rewrite Mw. destruct (schedule_words V Iw0 r Hr) as [E _]. fold ws in E. rewrite <- E. unfold w_src, wv_at.
    destruct (Z.ltb_spec r 16); reflexivity.
Qed.

Lemma round_ok : forall r, 0 <= r < 64 -> (forall q, 0 <= q <= r -> inv q) ->
  T CWit (W c 2) (I_ r + 5) = ofZ (s_a (S (r + 1))) /\ (forall x, isw x -> T CWit (W c 4) (I_ r + 3) = ofZ x -> x = s_e (S (r + 1))) /\
  T CWit (W c 0) (I_ r + 5) = ofZ (numl 4 (lbits 32 (s_a (S r)))) /\ T CWit (W c 0) (I_ r + 1) = ofZ (numl 7 (lbits 32 (s_e (S r)))).
Proof.
  intros r Hr H. destruct (H r ltac:(lia)) as [He [Ha _]]. rewrite S_S by lia. rewrite <- (Z.add_0_r (I_ r)) in He.
  apply (cmp_sound P big c T (I_ r) _ _ (S r) (v_cmp _ _ _ _ _ _ V r Hr)); try assumption.
  - apply isS. lia.
  - apply isw_K.
  - apply (schedule_words V Iw0 r Hr).
  - rewrite (v_const _ _ _ _ _ _ V r Hr). reflexivity.
  - apply round_inputs; assumption.
Qed.

Lemma missing_0 : at_ 0 249 = vval T (st 0) /\ at_ 0 242 = vval T (st 4) /\ at_ 4 754 = at_ 2 751 /\ at_ 4 756 = at_ 4 749.
Proof.
  assert (M' := M). unfold sp_missing in M'. rewrite sat_app, !sat_cons in M'. cbn [holds] in M'. rewrite !vval_wcell in M'. tauto.
Qed.

Lemma inv_0 : inv 0.
Proof.
  destruct missing_0 as [M1 [M2 _]]. destruct SP as [S1 [S2 [S3 S4]]]. unfold inv. change (S 0) with (list_sst in_state).
  cbn [list_sst s_a s_b s_c s_e s_f s_g]. rewrite <- !in_state_of by lia.
  replace (row + (242 + 8 * 0)) with (row + 242) by lia. rewrite <- !Z.add_assoc. repeat split; assumption.
Qed.

Lemma all_inv : forall n, 0 <= n <= 63 -> forall r, 0 <= r <= n -> inv r.
Proof.
  intros n Hn. assert (H0 : 0 <= n) by lia. revert Hn. pattern n. apply natlike_ind; [| |exact H0]; clear n H0.
  - intros _ r Hr. replace r with 0 by lia. exact inv_0.
  - intros n Hn IH Hn' r Hr. specialize (IH ltac:(lia)). destruct (Z.eq_dec r (n + 1)) as [->|N]; [|apply IH; lia].
    destruct (round_ok n ltac:(lia) IH) as [A [E [SA SE]]].
    destruct (v_next _ _ _ _ _ _ V n ltac:(lia)) as [N1 [N2 [N3 [N4 [N5 N6]]]]].
    destruct (IH n ltac:(lia)) as [_ [_ [Hb [Hc [Hf Hg]]]]].
    destruct (cmp_words P big c T _ (v_cmp _ _ _ _ _ _ V (n + 1) ltac:(lia))) as [e [a [x [Ie [_ [_ [Ee _]]]]]]].
    rewrite Z.add_0_r in Ee. rewrite N1 in Ee. pose proof (E e Ie Ee) as X.
    unfold inv. rewrite N1, N2, N3, N4, N5, N6, A, Ee, X, SA, SE, Hb, Hf. rewrite S_S by lia. repeat split; reflexivity.
Qed.

Lemma fin_ok : forall k, 0 <= k < 8 -> isw (znth 0 (sst_list (S 64)) k) /\
  (if k <? 4 then T CWit (W c (k + 4)) (row + 754) else T CWit (W c k) (row + 756)) = ofZ (znth 0 (sst_list (S 64)) k).
Proof.
  assert (A := all_inv 63 ltac:(lia)). destruct (round_ok 63 ltac:(lia) A) as [Xa [Xe _]]. change (63 + 1) with 64 in *.
  replace (row + (242 + 8 * 63) + 5) with (row + 751) in Xa by lia. replace (row + (242 + 8 * 63) + 3) with (row + 749) in Xe by lia.
  destruct missing_0 as [_ [_ [M3 M4]]]. destruct (v_fin _ _ _ _ _ _ V) as [F1 [F2 [F3 [F4 [F5 F6]]]]].
  destruct (isS 64 ltac:(lia)) as [I0 [I1 [I2 [I3 [I4 [I5 [I6 I7]]]]]]].
  destruct (v_range _ _ _ _ _ _ V) as [_ [_ [_ [_ [R5 _]]]]].
  destruct (chk_sound P big c T _ (proj1 (v_chk _ _ _ _ _ _ V 2 ltac:(lia))) (proj2 (v_chk _ _ _ _ _ _ V 2 ltac:(lia)))) as [[x [Ix Ex]] _].
  change (758 + 2) with 760 in Ex. rewrite <- R5, M4 in Ex. pose proof (Xe x Ix Ex) as X.
  destruct (A 63 ltac:(lia)) as [E63 [A63 _]]. destruct (A 62 ltac:(lia)) as [E62 [A62 _]]. destruct (A 61 ltac:(lia)) as [E61 [A61 _]].
  replace (row + (242 + 8 * 63) + 7) with (row + 753) in A63 by lia. replace (row + (242 + 8 * 62) + 7) with (row + 745) in A62 by lia.
  replace (row + (242 + 8 * 61) + 7) with (row + 737) in A61 by lia. change (242 + 8 * 63) with 746 in E63.
  change (242 + 8 * 62) with 738 in E62. change (242 + 8 * 61) with 730 in E61.
  assert (B1 : s_b (S 64) = s_a (S 63)) by (change 64 with (63 + 1); rewrite S_S by lia; reflexivity).
  assert (B2 : s_c (S 64) = s_a (S 62)) by (change 64 with (62 + 1 + 1); rewrite !S_S by lia; reflexivity).
  assert (B3 : s_d (S 64) = s_a (S 61)) by (change 64 with (61 + 1 + 1 + 1); rewrite !S_S by lia; reflexivity).
  assert (C1 : s_f (S 64) = s_e (S 63)) by (change 64 with (63 + 1); rewrite S_S by lia; reflexivity).
  assert (C2 : s_g (S 64) = s_e (S 62)) by (change 64 with (62 + 1 + 1); rewrite !S_S by lia; reflexivity).
  assert (C3 : s_h (S 64) = s_e (S 61)) by (change 64 with (61 + 1 + 1 + 1); rewrite !S_S by lia; reflexivity).
  intros k Hk. assert (k = 0 \/ k = 1 \/ k = 2 \/ k = 3 \/ k = 4 \/ k = 5 \/ k = 6 \/ k = 7) as [->|[->|[->|[->|[->|[->|[->| ->]]]]]]] by lia;
    unfold sst_list.
  - split; [exact I0|]. change (at_ 4 754 = ofZ (s_a (S 64))). rewrite M3. exact Xa.
  - split; [exact I1|]. change (at_ 5 754 = ofZ (s_b (S 64))). rewrite <- F1, B1. exact A63.
  - split; [exact I2|]. change (at_ 6 754 = ofZ (s_c (S 64))). rewrite <- F2, B2. exact A62.
  - split; [exact I3|]. change (at_ 7 754 = ofZ (s_d (S 64))). rewrite <- F3, B3. exact A61.
  - split; [exact I4|]. change (at_ 4 756 = ofZ (s_e (S 64))). rewrite M4, Ex, X. reflexivity.
  - split; [exact I5|]. change (at_ 5 756 = ofZ (s_f (S 64))). rewrite <- F4, C1. exact E63.
  - split; [exact I6|]. change (at_ 6 756 = ofZ (s_g (S 64))). rewrite <- F5, C2. exact E62.
  - split; [exact I7|]. change (at_ 7 756 = ofZ (s_h (S 64))). rewrite <- F6, C3. exact E61.
Qed.

Lemma outputs_ok : forall k, 0 <= k < 8 -> isw (fval (vval T (sp_out c row k))) ->
  fval (vval T (sp_out c row k)) = znth 0 (sha_compress in_state in_words) k.
Proof.
  intros k Hk Io. unfold sha_compress. rewrite znth_map_zseq by lia. rewrite Z.add_0_l. fold ws. fold (S 64).
  destruct (fin_ok k Hk) as [If Ef]. rewrite (in_state_at k Hk). unfold sp_out in *. destruct (Z.ltb_spec k 4) as [K|K].
  - destruct (v_st _ _ _ _ _ _ V k ltac:(lia)) as [Es _].
    apply (out_sound P big c T (row + (754 + 2 * 0)) (v_out _ _ _ _ _ _ V 0 ltac:(lia)) k); try assumption; try (apply Ist; lia); try lia.
    + rewrite ofZ_fval. exact Es.
    + rewrite ofZ_fval, vval_wcell. f_equal. lia.
  - destruct (v_st _ _ _ _ _ _ V (k - 4) ltac:(lia)) as [_ Es]. replace (k - 4 + 4) with k in Es by lia.
    apply (out_sound P big c T (row + (754 + 2 * 1)) (v_out _ _ _ _ _ _ V 1 ltac:(lia)) (k - 4)); try assumption; try (apply Ist; lia); try lia.
    + rewrite ofZ_fval. exact Es.
    + replace (k - 4 + 4) with k by lia. exact Ef.
    + rewrite ofZ_fval, vval_wcell. f_equal. lia.
Qed.
End Rounds.

Theorem process_sound : sat L T (sp_circuit c st wd row) -> sat L T sp_missing -> sparse_ok ->
  (forall k, 0 <= k < 8 -> isw (fval (vval T (st k)))) -> isw (fval (vval T (wd 0))) ->
  (forall k, 0 <= k < 8 -> isw (fval (vval T (sp_out c row k)))) ->
  map (fun k => fval (vval T (sp_out c row k))) (zseq 0 8) = sha_compress in_state in_words.
Proof.
  intros S M SP Is Iw Io. apply sp_view_iff in S.
  transitivity (map (znth 0 (sha_compress in_state in_words)) (zseq 0 8)).
  - apply map_ext_in. intros k Hk. apply in_zseq in Hk. apply outputs_ok; auto.
  - reflexivity.
Qed.

End Sound.
