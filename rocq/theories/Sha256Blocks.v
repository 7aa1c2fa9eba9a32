(** sha256_process, block by block: what the gates of one message round, of
    one compression round and of the output rows say. *)
From Coq Require Import ZArith List String Lia Bool Field.
From Verif Require Import Base Field Plonk PlonkFacts Bits Sha256Spec Sha256Model Sha256Sparse Sha256Words Sha256Gadgets.
Import ListNotations.
Open Scope Z_scope.

Lemma wsum_bound : forall B v0 v1 v2 v3, 0 < B -> fit8 B v0 v1 v2 v3 -> 0 <= wsum B v0 v1 v2 v3 < B ^ 32.
Proof.
  intros B v0 v1 v2 v3 HB [H0 [H1 [H2 H3]]]. unfold wsum.
  change (B ^ 32) with (B ^ (8 + (8 + (8 + 8)))). change (B ^ 24) with (B ^ (8 + (8 + 8))). change (B ^ 16) with (B ^ (8 + 8)).
  rewrite !Z.pow_add_r by lia. generalize dependent (B ^ 8). intros q H0 H1 H2 H3. 
  assert (A : 0 <= v0 + v1 * q <= q * q - 1) by nia. assert (A' : 0 <= v2 + v3 * q <= q * q - 1) by nia.
  replace (v0 + v1 * q + v2 * (q * q) + v3 * (q * (q * q))) with (v0 + v1 * q + (v2 + v3 * q) * (q * q)) by ring.
  replace (q * (q * (q * q))) with (q * q * (q * q)) by ring.
  generalize dependent (v2 + v3 * q). generalize dependent (v0 + v1 * q). intros; nia.
Qed.
Lemma bound_sigma0 : forall a, 0 <= sp_sigma0 (sas 32 4 a a_sizes) < 4 ^ 32.
Proof. intros a. rewrite sas_a, sum_sigma0 by apply len_bits. destruct (bits_facts a) as [L S]. apply numl_bound32; [lia|apply (D_facts _ L S)..]. Qed.
Lemma bound_sigma1 : forall a, 0 <= sp_sigma1 (sas 32 4 a b_sizes) < 4 ^ 32.
Proof. intros a. rewrite sas_b, sum_sigma1 by apply len_bits. destruct (bits_facts a) as [L S]. apply numl_bound32; [lia|apply (D_facts _ L S)..]. Qed.
Lemma bound_Sigma0 : forall a, 0 <= sp_Sigma0 (sas 32 4 a c_sizes) < 4 ^ 32.
Proof. intros a. rewrite sas_c, sum_Sigma0 by apply len_bits. destruct (bits_facts a) as [L S]. apply numl_bound32; [lia|apply (D_facts _ L S)..]. Qed.
Lemma bound_Sigma1 : forall a, 0 <= sp_Sigma1 (sas 32 7 a e_sizes) < 7 ^ 32.
Proof. intros a. rewrite sas_e, sum_Sigma1 by apply len_bits. destruct (bits_facts a) as [L S]. apply numl_bound32; [lia|apply (D_facts _ L S)..]. Qed.
Lemma bound_bits : forall B a, 2 <= B -> 0 <= numl B (lbits 32 a) < B ^ 32.
Proof. intros B a HB. destruct (bits_facts a) as [L S]. apply numl_bound32; [lia|exact L|apply (small_le 2); assumption]. Qed.
Lemma bound14 : forall B a, 2 <= B -> 0 <= numl B (lbits 14 a) < B ^ 14.
Proof.
  intros B a HB. pose proof (numl_bound B (lbits 14 a) ltac:(lia) (small_le 2 B _ HB (small_lbits 14 a))) as H.
  rewrite zlen_lbits in H by lia. exact H.
Qed.

Section Blocks.
Variable P : params.
Hypothesis big : 2 ^ 128 < char P.
Notation F := (F P).
Notation table := (table P).
Implicit Types T : table.
Variable c : comp.
Add Field Ff : (F_field P) (morphism (F_morph P), constants [F_const], power_tac (F_power P) [F_pow_tac]).
Local Open Scope F_scope.

Definition gh T (r : Z) (g : list (expr P)) : Prop := forall e, In e g -> eval T r e = f0.
Definition lh T (r : Z) (g : list (string * list (expr P))) : Prop :=
  forall t es, In (t, es) g -> sha_lenv t (map (eval T r) es).

Lemma gh_cons : forall T r e g, gh T r (e :: g) <-> eval T r e = f0 /\ gh T r g.
Proof. intros. unfold gh. apply all_cons. Qed.
Lemma gh_nil : forall T r, gh T r [] <-> True.
Proof. intros. unfold gh. apply all_nil. Qed.
Lemma lh_cons : forall T r t es g, lh T r ((t, es) :: g) <-> sha_lenv t (map (eval T r) es) /\ lh T r g.
Proof.
  intros. unfold lh. split.
  - intros H. split; [apply H; left; reflexivity|]. intros. apply H. right. assumption.
  - intros [H H'] t' es' [E|I]; [injection E as <- <-; exact H|apply H', I].
Qed.
Lemma lh_nil : forall T r, lh T r [] <-> True.
Proof. intros. unfold lh. split; [auto|]. intros _ t es []. Qed.

Lemma lh_full4 : forall T r x y g, lh T r (full4 P x y :: g) <-> sparse_row P 4 (eval T r x) (eval T r y) /\ lh T r g.
Proof. intros. unfold full4. rewrite lh_cons. reflexivity. Qed.
Lemma lh_first4 : forall T r x g, lh T r (first4 P x :: g) <-> (exists j, (0 <= j < 2 ^ 14)%Z /\ eval T r x = ofZ j) /\ lh T r g.
Proof. intros. unfold first4. rewrite lh_cons. rewrite <- (first_iff P 4). reflexivity. Qed.
Lemma lh_full7 : forall T r x y g, lh T r (full7 P x y :: g) <-> sparse_row P 7 (eval T r x) (eval T r y) /\ lh T r g.
Proof. intros. unfold full7. rewrite lh_cons. reflexivity. Qed.
Lemma lh_first7 : forall T r x g, lh T r (first7 P x :: g) <-> (exists j, (0 <= j < 2 ^ 14)%Z /\ eval T r x = ofZ j) /\ lh T r g.
Proof. intros. unfold first7. rewrite lh_cons. rewrite <- (first_iff P 7). reflexivity. Qed.
Lemma lh_rev4 : forall T r x y g, lh T r (rev4 P x y :: g) <-> reverse4_row P (eval T r x) (eval T r y) /\ lh T r g.
Proof. intros. unfold rev4. rewrite lh_cons. reflexivity. Qed.
Lemma lh_rev7 : forall T r x y g, lh T r (rev7 P x y :: g) <-> reverse7_row P (eval T r x) (eval T r y) /\ lh T r g.
Proof. intros. unfold rev7. rewrite lh_cons. reflexivity. Qed.
Lemma lh_maj : forall T r x y g, lh T r (lmaj P x y :: g) <-> maj_row P (eval T r x) (eval T r y) /\ lh T r g.
Proof. intros. unfold lmaj. rewrite lh_cons. reflexivity. Qed.
Lemma lh_ch : forall T r x y g, lh T r (lch P x y :: g) <-> ch_row P (eval T r x) (eval T r y) /\ lh T r g.
Proof. intros. unfold lch. rewrite lh_cons. reflexivity. Qed.

Lemma gval_at : forall T i m k rot, gval T (i + m) (wv k rot) = T CWit k (i + (m + rot))%Z.
Proof. intros. rewrite gval_wv. f_equal. lia. Qed.

Lemma gval_k : forall T i m k, gval T (i + m) (mkVar k 0 true CConst) = T CConst k (i + m)%Z.
Proof. intros. unfold gval. cbn. f_equal. lia. Qed.

Ltac rows_in H :=
  repeat match type of H with context [(?i + (?a + ?b))%Z] =>
    is_var i; let k := eval vm_compute in (a + b)%Z in change (i + (a + b))%Z with (i + k)%Z in H end.
Ltac rows_goal :=
  repeat match goal with |- context [(?i + (?a + ?b))%Z] =>
    is_var i; let k := eval vm_compute in (a + b)%Z in change (i + (a + b))%Z with (i + k)%Z end.
Ltac ev H :=
  repeat (rewrite ?eval_bin, ?eval_evar, ?eval_ecst, ?gval_at, ?gval_k in H; cbn [ebop] in H); rows_in H.
Ltac ev_goal :=
  repeat (rewrite ?eval_bin, ?eval_evar, ?eval_ecst, ?gval_at, ?gval_k; cbn [ebop]); rows_goal.
Ltac open_g H d := unfold d in H; rewrite ?gh_cons, ?gh_nil in H; ev H.
Ltac open_l H d :=
  unfold d in H;
  repeat first [rewrite lh_full4 in H|rewrite lh_first4 in H|rewrite lh_full7 in H|rewrite lh_first7 in H
               |rewrite lh_rev4 in H|rewrite lh_rev7 in H|rewrite lh_maj in H|rewrite lh_ch in H|rewrite lh_nil in H];
  ev H.
(** Field equation between integers to integer equation. *)
Ltac fz H := rewrite <- ?ofZ_mul, <- ?ofZ_add, <- ?ofZ_mul, <- ?ofZ_add in H; rewrite ?fsub_eq0 in H;
  rewrite <- ?ofZ_mul, <- ?ofZ_add in H.

Ltac sp H j := apply sparse_row_iff in H; destruct H as [j [?B [?X ?Y]]].

Variable T : table.
Variable i : Z.
Notation t k m := (T CWit (W c k%Z) (i + m)%Z).
Definition cat8 (x0 x1 x2 x3 : F) : F := x0 + x1 * ofZ (2 ^ 8) + x2 * ofZ (2 ^ 16) + x3 * ofZ (2 ^ 24).

Lemma prod8 : forall x : F, (x - ofZ 7) * (x - ofZ 6) * (x - ofZ 5) * (x - ofZ 4) * (x - ofZ 3) * (x - ofZ 2) * (x - ofZ 1) * x = f0 ->
  exists k, (0 <= k < 8)%Z /\ x = ofZ k.
Proof.
  intros x H. repeat (apply fmul_integral in H; destruct H as [H|H]); rewrite ?fsub_eq0 in H; eexists; split; try exact H; try lia.
Qed.


Lemma prod4 : forall x : F, (x - ofZ 3) * (x - ofZ 2) * (x - ofZ 1) * x = f0 -> exists k, (0 <= k < 4)%Z /\ x = ofZ k.
Proof.
  intros x H. repeat (apply fmul_integral in H; destruct H as [H|H]); rewrite ?fsub_eq0 in H; eexists; split; try exact H; try lia.
Qed.
Lemma prod6 : forall x : F, (x - ofZ 5) * (x - ofZ 4) * (x - ofZ 3) * (x - ofZ 2) * (x - ofZ 1) * x = f0 -> exists k, (0 <= k < 6)%Z /\ x = ofZ k.
Proof.
  intros x H. repeat (apply fmul_integral in H; destruct H as [H|H]); rewrite ?fsub_eq0 in H; eexists; split; try exact H; try lia.
Qed.
Lemma prod7 : forall x : F, (x - ofZ 6) * (x - ofZ 5) * (x - ofZ 4) * (x - ofZ 3) * (x - ofZ 2) * (x - ofZ 1) * x = f0 ->
  exists k, (0 <= k < 7)%Z /\ x = ofZ k.
Proof.
  intros x H. repeat (apply fmul_integral in H; destruct H as [H|H]); rewrite ?fsub_eq0 in H; eexists; split; try exact H; try lia.
Qed.
Lemma prod2 : forall x : F, x * (x - ofZ 1) = f0 -> exists k, (0 <= k < 2)%Z /\ x = ofZ k.
Proof.
  intros x H. repeat (apply fmul_integral in H; destruct H as [H|H]); rewrite ?fsub_eq0 in H; eexists; split; try exact H; try lia.
Qed.

(** A looked-up chunk of [s] bits. *)
Definition chk (B s : Z) (x y : F) : Prop := exists j, (0 <= j < 2 ^ s)%Z /\ x = ofZ j /\ y = ofZ (numl B (lbits 14 j)).
Lemma chk14 : forall B x y, sparse_row P B x y -> chk B 14 x y.
Proof. intros B x y H. apply sparse_row_iff in H. exact H. Qed.
Lemma chk_mul : forall B s k x y, sparse_row P B x y -> (exists j, (0 <= j < 2 ^ 14)%Z /\ x * ofZ k = ofZ j) ->
  (0 <= s <= 14)%Z -> k = (2 ^ (14 - s))%Z -> chk B s x y.
Proof.
  intros B s k x y H [j' [Hj' E']] Hs Ek. apply sparse_row_iff in H. destruct H as [j [Hj [X Y]]]. exists j. split; [|auto].
  rewrite X in E'. assert (Kp : (0 < k)%Z) by (rewrite Ek; apply Z.pow_pos_nonneg; lia).
  assert (M : (2 ^ s * k = 2 ^ 14)%Z) by (rewrite Ek, <- Z.pow_add_r by lia; f_equal; lia).
  assert (Kl : (k <= 2 ^ 14)%Z) by (rewrite Ek; apply Z.pow_le_mono_r; lia).
  apply (mult_bound P big) in E'; [|lia|lia|lia]. split; [lia|]. nia.
Qed.
Lemma chk_prod : forall B s x y, sparse_row P B x y -> (exists k, (0 <= k < 2 ^ s)%Z /\ x = ofZ k) -> (0 <= s <= 14)%Z -> chk B s x y.
Proof.
  intros B s x y H [k [Hk E]] Hs. apply sparse_row_iff in H. destruct H as [j [Hj [X Y]]]. exists j. split; [|auto].
  assert (L : (2 ^ s <= 2 ^ 14)%Z) by (apply Z.pow_le_mono_r; lia). rewrite X in E.
  apply (zeq P big) in E; [lia| |]; (split; [lia|]; apply Z.lt_trans with (2 ^ 14)%Z; [lia|reflexivity]).
Qed.

Lemma byte_range : forall v, (0 <= img r_xor 4 v < 256)%Z /\ (0 <= img r_xor 7 v < 256)%Z /\ (0 <= img r_maj 4 v < 256)%Z /\ (0 <= img r_ch 7 v < 256)%Z.
Proof.
  intros v. repeat apply conj; apply img_range; try lia; try (intros; apply r_xor_range); first [apply r_maj_range|apply r_ch_range].
Qed.

Lemma cat8_imgs : forall f B x0 x1 x2 x3 v0 v1 v2 v3,
  x0 = ofZ (img f B v0) -> x1 = ofZ (img f B v1) -> x2 = ofZ (img f B v2) -> x3 = ofZ (img f B v3) ->
  cat8 x0 x1 x2 x3 = ofZ (imgs f B v0 v1 v2 v3).
Proof. intros. subst. unfold cat8, imgs. rewrite !ofZ_add, !ofZ_mul. reflexivity. Qed.

Lemma four_rev4 : forall x0 x1 x2 x3 y0 y1 y2 y3, reverse4_row P x0 y0 -> reverse4_row P x1 y1 -> reverse4_row P x2 y2 -> reverse4_row P x3 y3 ->
  exists v0 v1 v2 v3, fit8 4 v0 v1 v2 v3 /\ y0 = ofZ v0 /\ y1 = ofZ v1 /\ y2 = ofZ v2 /\ y3 = ofZ v3 /\
    cat8 x0 x1 x2 x3 = ofZ (imgs r_xor 4 v0 v1 v2 v3).
Proof.
  intros x0 x1 x2 x3 y0 y1 y2 y3 H0 H1 H2 H3. apply rev4_iff in H0, H1, H2, H3.
  destruct H0 as [v0 [B0 [X0 Y0]]], H1 as [v1 [B1 [X1 Y1]]], H2 as [v2 [B2 [X2 Y2]]], H3 as [v3 [B3 [X3 Y3]]].
  exists v0, v1, v2, v3. repeat (split; [first [exact Y0|exact Y1|exact Y2|exact Y3|exact (conj B0 (conj B1 (conj B2 B3)))]|]). apply cat8_imgs; assumption.
Qed.
Lemma four_rev7 : forall x0 x1 x2 x3 y0 y1 y2 y3, reverse7_row P x0 y0 -> reverse7_row P x1 y1 -> reverse7_row P x2 y2 -> reverse7_row P x3 y3 ->
  exists v0 v1 v2 v3, fit8 7 v0 v1 v2 v3 /\ y0 = ofZ v0 /\ y1 = ofZ v1 /\ y2 = ofZ v2 /\ y3 = ofZ v3 /\
    cat8 x0 x1 x2 x3 = ofZ (imgs r_xor 7 v0 v1 v2 v3).
Proof.
  intros x0 x1 x2 x3 y0 y1 y2 y3 H0 H1 H2 H3. apply rev7_sound in H0, H1, H2, H3.
  destruct H0 as [v0 [B0 [X0 Y0]]], H1 as [v1 [B1 [X1 Y1]]], H2 as [v2 [B2 [X2 Y2]]], H3 as [v3 [B3 [X3 Y3]]].
  exists v0, v1, v2, v3. repeat (split; [first [exact Y0|exact Y1|exact Y2|exact Y3|exact (conj B0 (conj B1 (conj B2 B3)))]|]). apply cat8_imgs; assumption.
Qed.
Lemma four_maj : forall x0 x1 x2 x3 y0 y1 y2 y3, maj_row P x0 y0 -> maj_row P x1 y1 -> maj_row P x2 y2 -> maj_row P x3 y3 ->
  exists v0 v1 v2 v3, fit8 4 v0 v1 v2 v3 /\ y0 = ofZ v0 /\ y1 = ofZ v1 /\ y2 = ofZ v2 /\ y3 = ofZ v3 /\
    cat8 x0 x1 x2 x3 = ofZ (imgs r_maj 4 v0 v1 v2 v3).
Proof.
  intros x0 x1 x2 x3 y0 y1 y2 y3 H0 H1 H2 H3. apply maj_iff in H0, H1, H2, H3.
  destruct H0 as [v0 [B0 [X0 Y0]]], H1 as [v1 [B1 [X1 Y1]]], H2 as [v2 [B2 [X2 Y2]]], H3 as [v3 [B3 [X3 Y3]]].
  exists v0, v1, v2, v3. repeat (split; [first [exact Y0|exact Y1|exact Y2|exact Y3|exact (conj B0 (conj B1 (conj B2 B3)))]|]). apply cat8_imgs; assumption.
Qed.
Lemma four_ch : forall x0 x1 x2 x3 y0 y1 y2 y3, ch_row P x0 y0 -> ch_row P x1 y1 -> ch_row P x2 y2 -> ch_row P x3 y3 ->
  exists v0 v1 v2 v3, fit8 7 v0 v1 v2 v3 /\ y0 = ofZ v0 /\ y1 = ofZ v1 /\ y2 = ofZ v2 /\ y3 = ofZ v3 /\
    cat8 x0 x1 x2 x3 = ofZ (imgs r_ch 7 v0 v1 v2 v3).
Proof.
  intros x0 x1 x2 x3 y0 y1 y2 y3 H0 H1 H2 H3. apply ch_iff in H0, H1, H2, H3.
  destruct H0 as [v0 [B0 [X0 Y0]]], H1 as [v1 [B1 [X1 Y1]]], H2 as [v2 [B2 [X2 Y2]]], H3 as [v3 [B3 [X3 Y3]]].
  exists v0, v1, v2, v3. repeat (split; [first [exact Y0|exact Y1|exact Y2|exact Y3|exact (conj B0 (conj B1 (conj B2 B3)))]|]). apply cat8_imgs; assumption.
Qed.

Lemma zeq_sum : forall B v0 v1 v2 v3 s, (0 < B)%Z -> (B ^ 32 < 2 ^ 128)%Z -> fit8 B v0 v1 v2 v3 -> (0 <= s < B ^ 32)%Z ->
  (ofZ (wsum B v0 v1 v2 v3) : F) = ofZ s -> wsum B v0 v1 v2 v3 = s.
Proof. intros B v0 v1 v2 v3 s HB HL Hv Hs E. pose proof (wsum_bound B v0 v1 v2 v3 HB Hv). apply (zeq P big); [lia|lia|exact E]. Qed.

Lemma sigma0_sound : gh T (i + 1) (sg0_gate P c) -> lh T (i + 1) (sg0_lookup P c) ->
  exists a, isw a /\ t 0 0 = ofZ a /\ cat8 (t 1 2) (t 2 2) (t 3 2) (t 4 2) = ofZ (sha_s0 a).
Proof.
  intros G K. open_g G sg0_gate. open_l K sg0_lookup.
  destruct G as [G1 [G2 [G3 _]]]. destruct K as [K1 [K2 [K3 [K4 [K5 [K6 [K7 [K8 [K9 [K10 _]]]]]]]]]].
  apply prod8 in G2. apply (chk_prod 4 3) in K1; [|exact G2|lia].
  apply (chk_mul 4 4 1024) in K3; [|exact K2|lia|reflexivity]. apply (chk_mul 4 11 8) in K5; [|exact K4|lia|reflexivity].
  apply chk14 in K6.
  destruct K1 as [j0 [B0 [X0 Y0]]], K3 as [j1 [B1 [X1 Y1]]], K5 as [j2 [B2 [X2 Y2]]], K6 as [j3 [B3 [X3 Y3]]].
  destruct (four_rev4 _ _ _ _ _ _ _ _ K7 K8 K9 K10) as [v0 [v1 [v2 [v3 [Fv [V0 [V1 [V2 [V3 EV]]]]]]]]].
  destruct (word_a j0 j1 j2 j3 B0 B1 B2 B3) as [Ia Sa]. revert Ia Sa.
  set (a := (j0 + j1 * 2 ^ 3 + j2 * 2 ^ 7 + j3 * 2 ^ 18)%Z). intros Ia Sa.
  exists a. split; [exact Ia|]. split.
  - rewrite X0, X1, X2, X3 in G1. fz G1. exact G1.
  - rewrite EV. f_equal. apply get_sigma0; [exact Ia|exact Fv|].
    apply zeq_sum; [reflexivity|reflexivity|exact Fv|apply bound_sigma0|].
    rewrite V0, V1, V2, V3, Y0, Y1, Y2, Y3 in G3. fz G3. rewrite Sa. exact G3.
Qed.

(** A 32-bit range check on three chunks. *)
Lemma range32 : forall x0 x1 x2 y : F, x0 + x1 * ofZ (2 ^ 14) + x2 * ofZ (2 ^ 28) - y = f0 ->
  (exists j, (0 <= j < 2 ^ 14)%Z /\ x0 = ofZ j) -> (exists j, (0 <= j < 2 ^ 14)%Z /\ x1 = ofZ j) ->
  (exists j, (0 <= j < 2 ^ 14)%Z /\ x2 = ofZ j) -> (exists j, (0 <= j < 2 ^ 14)%Z /\ x2 * ofZ (2 ^ 10) = ofZ j) ->
  exists x, isw x /\ y = ofZ x.
Proof.
  intros x0 x1 x2 y E [j0 [B0 X0]] [j1 [B1 X1]] [j2 [B2 X2]] [j3 [B3 X3]].
  rewrite X2 in X3. apply (mult_bound P big) in X3; [|lia|lia|lia].
  exists (j0 + j1 * 2 ^ 14 + j2 * 2 ^ 28)%Z. split; [unfold isw, w32; lia|].
  rewrite X0, X1, X2 in E. fz E. symmetry. exact E.
Qed.

Lemma sigma1_sound : gh T (i + 4) (sg1_gate P c) -> lh T (i + 4) (sg1_lookup P c) -> lh T (i + 2) (msg_lookup P c) ->
  (exists b, isw b /\ t 0 4 = ofZ b /\ cat8 (t 5 2) (t 6 2) (t 7 2) (t 8 2) = ofZ (sha_s1 b)) /\
  exists x, isw x /\ t 8 4 = ofZ x.
Proof.
  intros G K M. open_g G sg1_gate. open_l K sg1_lookup. open_l M msg_lookup.
  destruct G as [G1 [G2 [G3 [G4 _]]]].
  destruct K as [K1 [K2 [K3 [K4 [K5 [K6 [K7 [K8 [K9 [K10 [K11 [_ _]]]]]]]]]]]]. destruct M as [M1 [M2 [M3 [M4 _]]]].
  split; [|eapply range32; eassumption].
  apply prod4 in G2. apply (chk_prod 4 2) in K6; [|exact G2|lia].
  apply (chk_mul 4 10 16) in K2; [|exact K1|lia|reflexivity]. apply (chk_mul 4 7 128) in K4; [|exact K3|lia|reflexivity].
  apply (chk_mul 4 13 2) in K7; [|exact K5|lia|reflexivity].
  destruct K2 as [j0 [B0 [X0 Y0]]], K4 as [j1 [B1 [X1 Y1]]], K6 as [j2 [B2 [X2 Y2]]], K7 as [j3 [B3 [X3 Y3]]].
  destruct (four_rev4 _ _ _ _ _ _ _ _ M1 M2 M3 M4) as [v0 [v1 [v2 [v3 [Fv [V0 [V1 [V2 [V3 EV]]]]]]]]].
  destruct (word_b j0 j1 j2 j3 B0 B1 B2 B3) as [Ia Sa]. revert Ia Sa.
  set (a := (j0 + j1 * 2 ^ 10 + j2 * 2 ^ 17 + j3 * 2 ^ 19)%Z). intros Ia Sa.
  exists a. split; [exact Ia|]. split.
  - rewrite X0, X1, X2, X3 in G1. fz G1. exact G1.
  - rewrite EV. f_equal. apply get_sigma1; [exact Ia|exact Fv|].
    apply zeq_sum; [reflexivity|reflexivity|exact Fv|apply bound_sigma1|].
    rewrite V0, V1, V2, V3, Y0, Y1, Y2, Y3 in G3. fz G3. rewrite Sa. exact G3.
Qed.

Lemma mod_carry : forall x k s, isw x -> (x + 4294967296 * k = s)%Z -> (x = s mod w32)%Z.
Proof.
  intros x k s Hx E. apply (Z.mod_unique_pos s w32 k x); [exact Hx|]. unfold w32. lia.
Qed.

Lemma msg_sound : forall w0 w9 a b x, gh T (i + 2) (msg_gate P c) ->
  isw w0 -> isw w9 -> isw a -> isw b -> isw x ->
  t 1 1 = ofZ w0 -> t 0 1 = ofZ w9 -> t 0 2 = ofZ x ->
  cat8 (t 1 2) (t 2 2) (t 3 2) (t 4 2) = ofZ (sha_s0 a) -> cat8 (t 5 2) (t 6 2) (t 7 2) (t 8 2) = ofZ (sha_s1 b) ->
  x = ((sha_s1 b + w9 + sha_s0 a + w0) mod w32)%Z.
Proof.
  intros w0 w9 a b x G I0 I9 Ia Ib Ix E0 E9 Ex Ea Eb. open_g G msg_gate. destruct G as [G1 [G2 _]].
  apply prod4 in G2. destruct G2 as [k [Hk Ek]].
  apply isw_s0 in Ia. apply isw_s1 in Ib. revert Ia Ib Ea Eb. generalize (sha_s0 a) (sha_s1 b). intros s0 s1 Ia Ib Ea Eb.
  assert (E : ofZ x + ofZ 4294967296 * ofZ k = ofZ s1 + ofZ w9 + ofZ s0 + (ofZ w0 : F)).
  { rewrite <- Ea, <- Eb, <- E0, <- E9, <- Ex, <- Ek. unfold cat8. apply fsub_eq0. rewrite <- G1. unfold m32. ring. }
  fz E. apply (zeq P big) in E; [apply (mod_carry x k); assumption| |]; unfold isw, w32 in *; lia.
Qed.

Lemma Sigma1_sound : gh T (i + 1) (Sg1_gate P c) -> lh T (i + 1) (Sg1_lookup P c) ->
  exists e, isw e /\ t 0 0 = ofZ e /\ t 0 1 = ofZ (numl 7 (lbits 32 e)) /\
    cat8 (t 5 2) (t 6 2) (t 7 2) (t 8 2) = ofZ (sha_S1 e).
Proof.
  intros G K. open_g G Sg1_gate. open_l K Sg1_lookup. destruct G as [G1 [G2 [G3 _]]].
  destruct K as [K1 [K2 [K3 [K4 [K5 [K6 [K7 [K8 [K9 [K10 [K11 _]]]]]]]]]]].
  apply chk14 in K2. apply (chk_mul 7 5 512) in K4; [|exact K3|lia|reflexivity].
  apply chk14 in K6. apply (chk_mul 7 7 128) in K7; [|exact K5|lia|reflexivity].
  destruct K2 as [j0 [B0 [X0 Y0]]], K4 as [j1 [B1 [X1 Y1]]], K6 as [j2 [B2 [X2 Y2]]], K7 as [j3 [B3 [X3 Y3]]].
  destruct (four_rev7 _ _ _ _ _ _ _ _ K8 K9 K10 K11) as [v0 [v1 [v2 [v3 [Fv [V0 [V1 [V2 [V3 EV]]]]]]]]].
  rewrite V0, V1, V2, V3, Y0, Y1, Y2, Y3 in G3. fz G3.
  assert (S6 : (0 <= j0 < 2 ^ 6)%Z).
  { apply (six_bits 7); [lia|lia|exact B0|].
    pose proof (wsum_bound 7 v0 v1 v2 v3 eq_refl Fv) as Wb. unfold wsum in Wb.
    pose proof (bound14 7 j0 ltac:(lia)) as N0. pose proof (bound14 7 j1 ltac:(lia)) as N1.
    pose proof (bound14 7 j2 ltac:(lia)) as N2. pose proof (bound14 7 j3 ltac:(lia)) as N3.
    revert G3 N0 N1 N2 N3. generalize (numl 7 (lbits 14 j0)) (numl 7 (lbits 14 j1)) (numl 7 (lbits 14 j2)) (numl 7 (lbits 14 j3)).
    intros n0 n1 n2 n3 G3 N0 N1 N2 N3. apply (zeq P big) in G3; [lia| |]; lia. }
  destruct (word_e j0 j1 j2 j3 S6 B1 B2 B3) as [Ia Sa]. revert Ia Sa.
  set (a := (j0 + j1 * 2 ^ 6 + j2 * 2 ^ 11 + j3 * 2 ^ 25)%Z). intros Ia Sa.
  exists a. split; [exact Ia|]. split; [|split].
  - rewrite X0, X1, X2, X3 in G1. fz G1. exact G1.
  - rewrite Y0, Y1, Y2, Y3 in G2. fz G2. rewrite sparse_e, Sa. exact G2.
  - rewrite EV. f_equal. apply get_Sigma1; [exact Ia|exact Fv|].
    apply zeq_sum; [reflexivity|reflexivity|exact Fv|apply bound_Sigma1|]. rewrite Sa.
    etransitivity; [|etransitivity; [exact G3|]]; [reflexivity|]. unfold sp_Sigma1. nth4. apply (f_equal ofZ). ring.
Qed.

Lemma Sigma0_sound : gh T (i + 6) (Sg0_gate P c) -> lh T (i + 6) (Sg0_lookup P c) ->
  (exists a, isw a /\ t 0 7 = ofZ a /\ t 0 5 = ofZ (numl 4 (lbits 32 a)) /\
    cat8 (t 5 5) (t 6 5) (t 7 5) (t 8 5) = ofZ (sha_S0 a)) /\
  exists x, isw x /\ t 2 5 = ofZ x.
Proof.
  intros G K. open_g G Sg0_gate. open_l K Sg0_lookup. destruct G as [G1 [G2 [G3 [G4 [G5 _]]]]].
  destruct K as [K1 [K2 [K3 [K4 [K5 [K6 [K7 [K8 [K9 [K10 [K11 [K12 [K13 [K14 [K15 [_ [_ _]]]]]]]]]]]]]]]]].
  split; [|eapply range32; eassumption].
  apply prod4 in G3. apply (chk_prod 4 2) in K2; [|exact G3|lia].
  apply (chk_mul 4 11 8) in K4; [|exact K1|lia|reflexivity]. apply (chk_mul 4 9 32) in K6; [|exact K3|lia|reflexivity].
  apply (chk_mul 4 10 16) in K7; [|exact K5|lia|reflexivity].
  destruct K2 as [j0 [B0 [X0 Y0]]], K4 as [j1 [B1 [X1 Y1]]], K6 as [j2 [B2 [X2 Y2]]], K7 as [j3 [B3 [X3 Y3]]].
  destruct (four_rev4 _ _ _ _ _ _ _ _ K8 K9 K10 K11) as [v0 [v1 [v2 [v3 [Fv [V0 [V1 [V2 [V3 EV]]]]]]]]].
  destruct (word_c j0 j1 j2 j3 B0 B1 B2 B3) as [Ia Sa]. revert Ia Sa.
  set (a := (j0 + j1 * 2 ^ 2 + j2 * 2 ^ 13 + j3 * 2 ^ 22)%Z). intros Ia Sa.
  exists a. split; [exact Ia|]. split; [|split].
  - rewrite X0, X1, X2, X3 in G1. fz G1. exact G1.
  - rewrite Y0, Y1, Y2, Y3 in G2. fz G2. rewrite sparse_c, Sa. exact G2.
  - rewrite EV. f_equal. apply get_Sigma0; [exact Ia|exact Fv|].
    apply zeq_sum; [reflexivity|reflexivity|exact Fv|apply bound_Sigma0|].
    rewrite V0, V1, V2, V3, Y0, Y1, Y2, Y3 in G4. fz G4. rewrite Sa. exact G4.
Qed.

Lemma maj_sound : forall x y z, gh T (i + 4) (maj_gate P c) -> lh T (i + 4) (maj_lookup P c) -> isw x -> isw y -> isw z ->
  t 0 5 = ofZ (numl 4 (lbits 32 x)) -> t 1 5 = ofZ (numl 4 (lbits 32 y)) -> t 4 5 = ofZ (numl 4 (lbits 32 z)) ->
  cat8 (t 5 4) (t 6 4) (t 7 4) (t 8 4) = ofZ (sha_maj x y z).
Proof.
  intros x y z G K X Y Z Ex Ey Ez. open_g G maj_gate. open_l K maj_lookup. destruct G as [G1 _].
  destruct K as [K1 [K2 [K3 [K4 _]]]].
  destruct (four_maj _ _ _ _ _ _ _ _ K1 K2 K3 K4) as [v0 [v1 [v2 [v3 [Fv [V0 [V1 [V2 [V3 EV]]]]]]]]].
  rewrite EV. f_equal. apply get_maj; [assumption..|].
  rewrite V0, V1, V2, V3, Ex, Ey, Ez in G1. fz G1. change (ofZ (wsum 4 v0 v1 v2 v3) = ofZ (numl 4 (lbits 32 x) + numl 4 (lbits 32 y) + numl 4 (lbits 32 z)) :> F) in G1.
  pose proof (wsum_bound 4 v0 v1 v2 v3 eq_refl Fv). pose proof (bound_bits 4 x ltac:(lia)). pose proof (bound_bits 4 y ltac:(lia)).
  pose proof (bound_bits 4 z ltac:(lia)). apply (zeq P big) in G1; [exact G1| |]; lia.
Qed.

Lemma ch_sound : forall x y z, gh T (i + 2) (ch_gate P c) -> lh T (i + 2) (ch_lookup P c) -> isw x -> isw y -> isw z ->
  t 0 1 = ofZ (numl 7 (lbits 32 x)) -> t 1 1 = ofZ (numl 7 (lbits 32 y)) -> t 0 3 = ofZ (numl 7 (lbits 32 z)) ->
  cat8 (t 5 3) (t 6 3) (t 7 3) (t 8 3) = ofZ (sha_ch x y z).
Proof.
  intros x y z G K X Y Z Ex Ey Ez. open_g G ch_gate. open_l K ch_lookup. destruct G as [G1 _].
  destruct K as [K1 [K2 [K3 [K4 _]]]].
  destruct (four_ch _ _ _ _ _ _ _ _ K1 K2 K3 K4) as [v0 [v1 [v2 [v3 [Fv [V0 [V1 [V2 [V3 EV]]]]]]]]].
  rewrite EV. f_equal. apply get_ch; [assumption..|].
  rewrite V0, V1, V2, V3, Ex, Ey, Ez in G1. fz G1. change (ofZ (wsum 7 v0 v1 v2 v3) = ofZ (numl 7 (lbits 32 x) + 2 * numl 7 (lbits 32 y) + 3 * numl 7 (lbits 32 z)) :> F) in G1.
  pose proof (wsum_bound 7 v0 v1 v2 v3 eq_refl Fv). pose proof (bound_bits 7 x ltac:(lia)). pose proof (bound_bits 7 y ltac:(lia)).
  pose proof (bound_bits 7 z ltac:(lia)). apply (zeq P big) in G1; [exact G1| |]; lia.
Qed.

Definition cmp_block : Prop :=
  gh T (i + 1) (Sg1_gate P c) /\ lh T (i + 1) (Sg1_lookup P c) /\ gh T (i + 6) (Sg0_gate P c) /\ lh T (i + 6) (Sg0_lookup P c) /\
  gh T (i + 3) (enew_gate P c) /\ gh T (i + 4) (anew_gate P c) /\ gh T (i + 4) (maj_gate P c) /\ lh T (i + 4) (maj_lookup P c) /\
  gh T (i + 2) (ch_gate P c) /\ lh T (i + 2) (ch_lookup P c).

(** The state read from the cells of a round. *)
Record cmp_in (w : Z) (s : sst) : Prop := {
  ci_d : t 1 3 = ofZ (s_d s); ci_h : t 2 3 = ofZ (s_h s); ci_w : t 3 3 = ofZ w;
  ci_b : t 1 5 = ofZ (numl 4 (lbits 32 (s_b s))); ci_c : t 4 5 = ofZ (numl 4 (lbits 32 (s_c s)));
  ci_f : t 1 1 = ofZ (numl 7 (lbits 32 (s_f s))); ci_g : t 0 3 = ofZ (numl 7 (lbits 32 (s_g s))) }.
Definition isst (s : sst) : Prop :=
  isw (s_a s) /\ isw (s_b s) /\ isw (s_c s) /\ isw (s_d s) /\ isw (s_e s) /\ isw (s_f s) /\ isw (s_g s) /\ isw (s_h s).

Lemma cmp_words : cmp_block -> exists e a x, isw e /\ isw a /\ isw x /\ t 0 0 = ofZ e /\ t 0 7 = ofZ a /\ t 2 5 = ofZ x.
Proof.
  intros [G1 [K1 [G2 [K2 _]]]]. destruct (Sigma1_sound G1 K1) as [e [Ie [E _]]].
  destruct (Sigma0_sound G2 K2) as [[a [Ia [A _]]] [x [Ix X]]]. exists e, a, x. repeat (split; [assumption|]). assumption.
Qed.

Lemma zeq32 : forall x y, isw x -> isw y -> (ofZ x : F) = ofZ y -> x = y.
Proof. intros x y X Y. unfold isw, w32 in *. apply (zeq P big); lia. Qed.

Lemma cmp_sound : forall kc w s, cmp_block -> isst s -> isw kc -> isw w -> T CConst (C c 0) (i + 3)%Z = ofZ kc -> cmp_in w s ->
  t 0 0 = ofZ (s_e s) -> t 0 7 = ofZ (s_a s) ->
  let s' := sha_round kc w s in
  t 2 5 = ofZ (s_a s') /\ (forall x, isw x -> t 4 3 = ofZ x -> x = s_e s') /\
  t 0 5 = ofZ (numl 4 (lbits 32 (s_a s))) /\ t 0 1 = ofZ (numl 7 (lbits 32 (s_e s))).
Proof.
  intros kc w s [G1 [K1 [G2 [K2 [G3 [G4 [G5 [K5 [G6 K6]]]]]]]]] Is Ik Iw Ek [Ed Eh Ew Eb Ec Ef Eg] Ee Ea s'.
  destruct Is as [Ia [Ib [Ic [Id [Ie [If [Ig Ih]]]]]]].
  destruct (Sigma1_sound G1 K1) as [e [Ie' [E [Es ES1]]]]. destruct (Sigma0_sound G2 K2) as [[a [Ia' [A [As ES0]]]] [x [Ix X]]].
  rewrite Ee in E. apply zeq32 in E; [|assumption..]. subst e. rewrite Ea in A. apply zeq32 in A; [|assumption..]. subst a.
  pose proof (maj_sound _ _ _ G5 K5 Ia Ib Ic As Eb Ec) as EM. pose proof (ch_sound _ _ _ G6 K6 Ie If Ig Es Ef Eg) as EC.
  open_g G3 enew_gate. open_g G4 anew_gate. destruct G3 as [G31 [G32 [G33 _]]]. destruct G4 as [G41 [G42 _]].
  apply prod6 in G33. destruct G33 as [k1 [Hk1 Ek1]]. apply prod7 in G42. destruct G42 as [k2 [Hk2 Ek2]].
  assert (ET : t 4 4 = ofZ (sha_t1 kc w s)).
  { unfold sha_t1. rewrite !ofZ_add, <- ES1, <- EC, <- Eh, <- Ek, <- Ew. unfold cat8. apply fsub_eq0. rewrite <- G31. ring. }
  pose proof (isw_S1 _ Ie) as J1. pose proof (isw_ch _ _ _ Ie If Ig) as J2. pose proof (isw_S0 _ Ia) as J3. pose proof (isw_maj _ _ _ Ia Ib Ic) as J4.
  assert (BT : (0 <= sha_t1 kc w s < 5 * w32)%Z) by (unfold sha_t1, isw in *; lia).
  assert (BT2 : (0 <= sha_t2 s < 2 * w32)%Z) by (unfold sha_t2, isw in *; lia).
  split; [|split; [|split]].
  - rewrite X. f_equal. cbn [s' sha_round s_a].
    assert (Eq : (ofZ x + ofZ 4294967296 * ofZ k2 : F) = ofZ (sha_t1 kc w s) + ofZ (sha_t2 s)).
    { unfold sha_t2. rewrite ofZ_add, <- ET, <- ES0, <- EM, <- X, <- Ek2. unfold cat8. apply fsub_eq0. rewrite <- G41. unfold m32. ring. }
    fz Eq. apply (zeq P big) in Eq; [apply (mod_carry x k2); assumption| |]; unfold isw, w32 in *; lia.
  - intros y Iy Ey. cbn [s' sha_round s_e].
    assert (Eq : (ofZ y + ofZ 4294967296 * ofZ k1 : F) = ofZ (s_d s) + ofZ (sha_t1 kc w s)).
    { rewrite <- ET, <- Ey, <- Ek1, <- Ed. apply fsub_eq0. rewrite <- G32. unfold m32. ring. }
    fz Eq. apply (zeq P big) in Eq; [apply (mod_carry y k1); assumption| |]; unfold isw, w32 in *; lia.
  - exact As.
  - exact Es.
Qed.

Lemma out_sound : gh T i (out_gate P c) -> forall k x y z, (0 <= k < 4)%Z -> isw x -> isw y -> isw z ->
  T CWit (W c k) i = ofZ x -> T CWit (W c (k + 4)%Z) i = ofZ y -> T CWit (W c k) (i + 1)%Z = ofZ z -> (z = (x + y) mod w32)%Z.
Proof.
  intros G k x y z Hk X Y Z Ex Ey Ez. replace i with (i + 0)%Z in G by lia. open_g G out_gate.
  destruct G as [G1 [G2 [G3 [G4 [G5 [G6 [G7 [G8 _]]]]]]]]. rewrite Z.add_0_r in *.
  apply prod2 in G5, G6, G7, G8. destruct G5 as [k0 [R0 E0]], G6 as [k1 [R1 E1]], G7 as [k2 [R2 E2]], G8 as [k3 [R3 E3]].
  assert (Q : forall q, (0 <= q < 2)%Z -> ofZ z + m32 P * ofZ q - (ofZ x + ofZ y) = f0 -> (z = (x + y) mod w32)%Z).
  { intros q Hq E. unfold m32 in E. fz E. apply (zeq P big) in E; [apply (mod_carry z q); assumption| |]; unfold isw, w32 in *; lia. }
  assert (k = 0 \/ k = 1 \/ k = 2 \/ k = 3)%Z as [->|[->|[->| ->]]] by lia; cbn [Z.add Pos.add Pos.succ] in Ey.
  - rewrite E0, Ex, Ey, Ez in G1. exact (Q k0 R0 G1).
  - rewrite E1, Ex, Ey, Ez in G2. exact (Q k1 R1 G2).
  - rewrite E2, Ex, Ey, Ez in G3. exact (Q k2 R2 G3).
  - rewrite E3, Ex, Ey, Ez in G4. exact (Q k3 R3 G4).
Qed.

Lemma chk_sound : gh T i (chk_gate P c) -> lh T i (chk_lookup P c) ->
  (exists x, isw x /\ T CWit (W c 3) i = ofZ x) /\ exists x, isw x /\ T CWit (W c 7) i = ofZ x.
Proof.
  intros G K. replace i with (i + 0)%Z in G, K by lia. open_g G chk_gate. open_l K chk_lookup. rewrite Z.add_0_r in *.
  destruct G as [G1 [G2 _]]. destruct K as [K1 [K2 [K3 [K4 [K5 [K6 [K7 [K8 _]]]]]]]]. split; eapply range32; eassumption.
Qed.

End Blocks.
