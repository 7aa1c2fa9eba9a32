(** sha256_process: the values written by the assignment satisfy the gates of
    each block. *)
From Coq Require Import ZArith List Lia Bool Field.
From Verif Require Import Base Field Plonk PlonkFacts Bits Sha256Spec Sha256Model Sha256Sparse Sha256Words Sha256Gadgets Sha256Blocks Sha256View Sha256Sound.
Import ListNotations.
Open Scope Z_scope.

Lemma lim14_eq : forall x s, 0 <= s -> lim14 x s = (x / 2 ^ s) mod 2 ^ 14.
Proof. intros x s Hs. unfold lim14. change (2 ^ 14 - 1) with (Z.ones 14). rewrite Z.land_ones by lia. rewrite Z.shiftr_div_pow2 by lia. reflexivity. Qed.
Lemma lim14_range : forall x s, 0 <= s -> 0 <= lim14 x s < 2 ^ 14.
Proof. intros. rewrite lim14_eq by assumption. apply Z.mod_pos_bound. reflexivity. Qed.
Lemma lim14_top : forall x, isw x -> 0 <= lim14 x 28 < 16.
Proof.
  intros x Hx. rewrite lim14_eq by lia. unfold isw, w32 in Hx. assert (0 <= x / 2 ^ 28 < 16).
  { split; [apply Z.div_pos; lia|]. apply Z.div_lt_upper_bound; lia. }
  rewrite Z.mod_small by lia. assumption.
Qed.
Lemma lim14_sum : forall x, isw x -> lim14 x 0 + lim14 x 14 * 2 ^ 14 + lim14 x 28 * 2 ^ 28 = x.
Proof.
  intros x Hx. pose proof (lim14_top x Hx) as B. rewrite !lim14_eq in * by lia. unfold isw, w32 in Hx.
  change (2 ^ 0) with 1. rewrite Z.div_1_r. change (2 ^ 28) with (2 ^ 14 * 2 ^ 14) in *. rewrite <- Z.div_div in * by lia.
  set (y := x / 2 ^ 14) in *.
  assert (E : y / 2 ^ 14 = (y / 2 ^ 14) mod 2 ^ 14). { symmetry. apply Z.mod_small. split; [apply Z.div_pos; [apply Z.div_pos; lia|lia]|].
    apply Z.div_lt_upper_bound; [lia|]. apply Z.div_lt_upper_bound; lia. }
  rewrite <- E. pose proof (Z.div_mod x (2 ^ 14) ltac:(lia)) as E1. pose proof (Z.div_mod y (2 ^ 14) ltac:(lia)) as E2. fold y in E1. lia.
Qed.

Lemma sigma0_of_eq : forall a, sigma0_of a = chunks r_xor 4 (D_s0 (lbits 32 a)).
Proof. intros a. destruct (bits_facts a) as [L S]. unfold sigma0_of. rewrite sas_a, sum_sigma0 by exact L. apply rss_D; [lia|apply (D_facts _ L S)..]. Qed.
Lemma sigma1_of_eq : forall a, sigma1_of a = chunks r_xor 4 (D_s1 (lbits 32 a)).
Proof. intros a. destruct (bits_facts a) as [L S]. unfold sigma1_of. rewrite sas_b, sum_sigma1 by exact L. apply rss_D; [lia|apply (D_facts _ L S)..]. Qed.
Lemma Sigma0_of_eq : forall a, Sigma0_of a = chunks r_xor 4 (D_S0 (lbits 32 a)).
Proof. intros a. destruct (bits_facts a) as [L S]. unfold Sigma0_of. rewrite sas_c, sum_Sigma0 by exact L. apply rss_D; [lia|apply (D_facts _ L S)..]. Qed.

(** What the tables and linear constraints need from a list of chunks. *)
Record chunk_ok (f : Z -> Z) (B v : Z) (r : Z) (l : list (Z * Z)) : Prop := {
  ck_sum : at1 l 0 + at1 l 1 * B ^ 8 + at1 l 2 * B ^ 16 + at1 l 3 * B ^ 24 = v;
  ck_pair : forall k, 0 <= k < 4 -> 0 <= at1 l k < B ^ 8 /\ at0 l k = img f B (at1 l k);
  ck_join : join8 l = r }.
Lemma chunk_ok_D : forall f B D, 0 < B -> length D = 32%nat -> small B D -> chunk_ok f B (numl B D) (numl 2 (map f D)) (chunks f B D).
Proof. intros. constructor; [apply chunks_sum; assumption|intros; apply chunk_pair; assumption|apply join8_chunks; assumption]. Qed.

Lemma ok_sigma0 : forall a, isw a -> chunk_ok r_xor 4 (sp_sigma0 (sas 32 4 a a_sizes)) (sha_s0 a) (sigma0_of a).
Proof.
  intros a Ha. destruct (bits_facts a) as [L S]. rewrite sigma0_of_eq, sas_a, sum_sigma0, <- val_s0 by assumption.
  apply chunk_ok_D; [lia|apply (D_facts _ L S)..].
Qed.
Lemma ok_sigma1 : forall a, isw a -> chunk_ok r_xor 4 (sp_sigma1 (sas 32 4 a b_sizes)) (sha_s1 a) (sigma1_of a).
Proof.
  intros a Ha. destruct (bits_facts a) as [L S]. rewrite sigma1_of_eq, sas_b, sum_sigma1, <- val_s1 by assumption.
  apply chunk_ok_D; [lia|apply (D_facts _ L S)..].
Qed.
Lemma ok_Sigma0 : forall a, isw a -> chunk_ok r_xor 4 (sp_Sigma0 (sas 32 4 a c_sizes)) (sha_S0 a) (Sigma0_of a).
Proof.
  intros a Ha. destruct (bits_facts a) as [L S]. rewrite Sigma0_of_eq, sas_c, sum_Sigma0, <- val_S0 by assumption.
  apply chunk_ok_D; [lia|apply (D_facts _ L S)..].
Qed.

(** What the tables and linear constraints need from the chunks of a word. *)
Record parts_ok (s0 s1 s2 s3 B a : Z) (l2 lB : list Z) : Prop := {
  po_sum : a = znth 0 l2 0 + znth 0 l2 1 * 2 ^ s0 + znth 0 l2 2 * 2 ^ (s0 + s1) + znth 0 l2 3 * 2 ^ (s0 + s1 + s2);
  po_0 : 0 <= znth 0 l2 0 < 2 ^ s0; po_1 : 0 <= znth 0 l2 1 < 2 ^ s1;
  po_2 : 0 <= znth 0 l2 2 < 2 ^ s2; po_3 : 0 <= znth 0 l2 3 < 2 ^ s3;
  po_sp : forall k, 0 <= k < 4 -> znth 0 lB k = numl B (lbits 14 (znth 0 l2 k)) }.
Lemma parts_ok_gen : forall s0 s1 s2 s3 B a, 0 <= s0 <= 14 -> 0 <= s1 <= 14 -> 0 <= s2 <= 14 -> 0 <= s3 <= 14 ->
  s0 + s1 + s2 + s3 = 32 -> isw a -> parts_ok s0 s1 s2 s3 B a (parts s0 s1 s2 s3 2 a) (parts s0 s1 s2 s3 B a).
Proof.
  intros s0 s1 s2 s3 B a H0 H1 H2 H3 E Ha. rewrite parts2 by assumption. constructor; nth4; try (apply chunk_range; lia).
  - apply (chunk_all s0 s1 s2 s3 a); try lia. assumption.
  - intros k Hk. assert (k = 0 \/ k = 1 \/ k = 2 \/ k = 3) as [->|[->|[->| ->]]] by lia; unfold parts; nth4; reflexivity.
Qed.
Lemma ok_a : forall B a, isw a -> parts_ok 3 4 11 14 B a (sas 32 2 a a_sizes) (sas 32 B a a_sizes).
Proof. intros B a Ha. rewrite !parts_a by exact Ha. apply parts_ok_gen; (lia || exact Ha). Qed.
Lemma ok_b : forall B a, isw a -> parts_ok 10 7 2 13 B a (sas 32 2 a b_sizes) (sas 32 B a b_sizes).
Proof. intros B a Ha. rewrite !parts_b by exact Ha. apply parts_ok_gen; (lia || exact Ha). Qed.
Lemma ok_c : forall B a, isw a -> parts_ok 2 11 9 10 B a (sas 32 2 a c_sizes) (sas 32 B a c_sizes).
Proof. intros B a Ha. rewrite !parts_c by exact Ha. apply parts_ok_gen; (lia || exact Ha). Qed.
Lemma ok_e : forall B a, isw a -> parts_ok 6 5 14 7 B a (sas 32 2 a e_sizes) (sas 32 B a e_sizes).
Proof. intros B a Ha. rewrite !parts_e by exact Ha. apply parts_ok_gen; (lia || exact Ha). Qed.

Lemma carry_lim : forall s m, (0 <= s < m * w32) -> (0 <= s / 2 ^ 32 < m).
Proof. intros s m H. unfold w32 in H. split; [apply Z.div_pos; lia|]. apply Z.div_lt_upper_bound; lia. Qed.

Section Honest.
Variable P : params.
Hypothesis big : 2 ^ 128 < char P.
Notation F := (F P).
Notation table := (table P).
Implicit Types T : table.
Variable c : comp.
Add Field Ff : (F_field P) (morphism (F_morph P), constants [F_const], power_tac (F_power P) [F_pow_tac]).
Local Open Scope F_scope.

Lemma fred_small : forall z, (0 <= z < 2 ^ 128)%Z -> fred P z = z.
Proof. intros. apply Z.mod_small. lia. Qed.
Lemma v4_eq : forall e, v4_of P e = numl 7 (lbits 32 e).
Proof.
  intros e. unfold v4_of. rewrite (sparse_e 7 e). cbv zeta. apply fred_small.
  pose proof (sparse_e 7 e) as E. cbv zeta in E. rewrite <- E. pose proof (bound_bits 7 e ltac:(lia)). lia.
Qed.
Lemma v0_eq : forall e, v0_of P e = numl 4 (lbits 32 e).
Proof.
  intros e. unfold v0_of. rewrite (sparse_c 4 e). cbv zeta. apply fred_small.
  pose proof (sparse_c 4 e) as E. cbv zeta in E. rewrite <- E. pose proof (bound_bits 4 e ltac:(lia)). lia.
Qed.
Lemma Sigma1_of_eq : forall a, Sigma1_of P a = chunks r_xor 7 (D_S1 (lbits 32 a)).
Proof.
  intros a. unfold Sigma1_of. rewrite fred_small; [apply Sigma1_chunks|]. pose proof (bound_Sigma1 a). lia.
Qed.
Lemma ok_Sigma1 : forall a, isw a -> chunk_ok r_xor 7 (sp_Sigma1 (sas 32 7 a e_sizes)) (sha_S1 a) (Sigma1_of P a).
Proof.
  intros a Ha. destruct (bits_facts a) as [L S]. rewrite Sigma1_of_eq, sas_e, sum_Sigma1, <- val_S1 by assumption.
  apply chunk_ok_D; [lia|apply (D_facts _ L S)..].
Qed.

(** The invariant of the state of the assignment. *)
Definition abs (s : cst) : sst := mkS (c_a s) (c_b s) (c_c s) (c_d s) (c_e s) (c_f s) (c_g s) (c_h s).
Record cok (s : cst) : Prop := {
  k_w : isstate (abs s);
  k_1 : v_1 s = numl 4 (lbits 32 (c_b s)); k_2 : v_2 s = numl 4 (lbits 32 (c_c s));
  k_5 : v_5 s = numl 7 (lbits 32 (c_f s)); k_6 : v_6 s = numl 7 (lbits 32 (c_g s)) }.

Lemma ok_ch : forall s, cok s ->
  chunk_ok r_ch 7 (numl 7 (lbits 32 (c_e s)) + 2 * numl 7 (lbits 32 (c_f s)) + 3 * numl 7 (lbits 32 (c_g s)))
    (sha_ch (c_e s) (c_f s) (c_g s)) (ch_of P s).
Proof.
  intros s [[_ [_ [_ [_ [E [G [H _]]]]]]] _ _ K5 K6]. unfold ch_of. rewrite v4_eq, K5, K6.
  destruct (ch_facts (lbits 32 (c_e s)) (lbits 32 (c_f s)) (lbits 32 (c_g s))) as [L S]; try apply len_bits; try apply small_lbits.
  rewrite <- numl_ch3 by (rewrite !len_bits; reflexivity). rewrite rss_D by (assumption || lia).
  rewrite <- val_ch by assumption. apply chunk_ok_D; [lia|assumption..].
Qed.
Lemma ok_maj : forall s, cok s ->
  chunk_ok r_maj 4 (numl 4 (lbits 32 (c_a s)) + numl 4 (lbits 32 (c_b s)) + numl 4 (lbits 32 (c_c s)))
    (sha_maj (c_a s) (c_b s) (c_c s)) (maj_of P s).
Proof.
  intros s [[A [B [C _]]] K1 K2 _ _]. unfold maj_of. rewrite v0_eq, K1, K2.
  destruct (maj_facts (lbits 32 (c_a s)) (lbits 32 (c_b s)) (lbits 32 (c_c s))) as [L S]; try apply len_bits; try apply small_lbits.
  rewrite <- numl_add3 by (rewrite !len_bits; reflexivity). rewrite rss_D by (assumption || lia).
  rewrite <- val_maj by assumption. apply chunk_ok_D; [lia|assumption..].
Qed.

Lemma t1_eq : forall k w s, cok s -> tmp1_of P k w s = sha_t1 k w (abs s).
Proof.
  intros k w s H. unfold tmp1_of, sha_t1. cbn [abs s_h s_e s_f s_g].
  rewrite (ck_join _ _ _ _ _ (ok_ch s H)). rewrite (ck_join _ _ _ _ _ (ok_Sigma1 (c_e s) ltac:(apply (k_w _ H)))). reflexivity.
Qed.
Lemma asum_eq : forall k w s, cok s -> asum_of P k w s = (sha_t1 k w (abs s) + sha_t2 (abs s))%Z.
Proof.
  intros k w s H. unfold asum_of, sha_t2. rewrite t1_eq by exact H. cbn [abs s_a s_b s_c].
  rewrite (ck_join _ _ _ _ _ (ok_maj s H)). rewrite (ck_join _ _ _ _ _ (ok_Sigma0 (c_a s) ltac:(apply (k_w _ H)))). ring.
Qed.
Lemma t1_bound : forall k w s, isstate s -> isw k -> isw w -> (0 <= sha_t1 k w s < 5 * w32)%Z.
Proof.
  intros k w s [_ [_ [_ [_ [E [G [H I]]]]]]] Hk Hw. unfold sha_t1. pose proof (isw_S1 _ E) as A. pose proof (isw_ch _ _ _ E G H) as B.
  unfold isw in *. lia.
Qed.
Lemma t2_bound : forall s, isstate s -> (0 <= sha_t2 s < 2 * w32)%Z.
Proof.
  intros s [A [B [C _]]]. unfold sha_t2. pose proof (isw_S0 _ A) as X. pose proof (isw_maj _ _ _ A B C) as Y. unfold isw in *. lia.
Qed.
Lemma step_abs : forall k w s, cok s -> isw k -> isw w -> cok (c_step P k w s) /\ abs (c_step P k w s) = sha_round k w (abs s).
Proof.
  intros k w s H Hk Hw. pose proof (k_w _ H) as I. pose proof (t1_bound k w _ I Hk Hw) as B1. pose proof (t2_bound _ I) as B2.
  assert (E : abs (c_step P k w s) = sha_round k w (abs s)).
  { unfold c_step, sha_round, anew_of, enew_of, esum_of. unfold abs at 1. cbn [c_a c_b c_c c_d c_e c_f c_g c_h].
    rewrite asum_eq, t1_eq by exact H. destruct I as [Ia [Ib [Ic [Id _]]]]. cbn [abs s_a s_b s_c s_d] in Id.
    rewrite !fred_small by (unfold isw, w32 in *; lia). rewrite (Z.add_comm (sha_t1 k w (abs s)) (c_d s)). reflexivity. }
  split; [|exact E]. constructor.
  - rewrite E. apply isst_round, I.
  - exact (v0_eq (c_a s)).
  - exact (k_1 _ H).
  - exact (v4_eq (c_e s)).
  - exact (k_5 _ H).
Qed.

Lemma fcarry_eq : forall s, (0 <= s < 2 ^ 128)%Z -> fcarry P s (fred P s mod 2 ^ 32)%Z = ofZ (s / 2 ^ 32).
Proof.
  intros s Hs. unfold fcarry. rewrite fred_small by exact Hs. rewrite <- ofZ_sub.
  replace (s - s mod 2 ^ 32)%Z with (s / 2 ^ 32 * 2 ^ 32)%Z by (pose proof (Z.div_mod s (2 ^ 32) ltac:(lia)); lia).
  rewrite ofZ_mul. field. intros E. change (f0 : F) with (ofZ 0 : F) in E. apply (zeq P big) in E; [discriminate|split; [discriminate|reflexivity]..].
Qed.

(** ** Blocks *)
Variable T : table.
Variable i : Z.
Notation t k m := (T CWit (W c k%Z) (i + m)%Z).

Ltac rows_goal :=
  repeat match goal with |- context [(?i + (?a + ?b))%Z] =>
    is_var i; let k := eval vm_compute in (a + b)%Z in change (i + (a + b))%Z with (i + k)%Z end.
Ltac ev_goal :=
  repeat (rewrite ?eval_bin, ?eval_evar, ?eval_ecst, ?gval_at, ?gval_k; cbn [ebop]); rows_goal.
Ltac reads R := repeat match goal with |- context [T CWit (W c ?k) (i + ?m)%Z] =>
    rewrite (R m k _ ltac:(lia) ltac:(lia) eq_refl) end.
Ltac open_goal := rewrite ?gh_cons, ?gh_nil;
  repeat first [rewrite lh_full4|rewrite lh_first4|rewrite lh_full7|rewrite lh_first7
               |rewrite lh_rev4|rewrite lh_rev7|rewrite lh_maj|rewrite lh_ch|rewrite lh_nil];
  ev_goal; repeat match goal with |- _ /\ _ => split end; try exact I.
(** Integer identity behind a linear constraint. *)
Ltac lift := apply fsub_eq0; rewrite <- ?ofZ_mul, <- ?ofZ_add, <- ?ofZ_mul, <- ?ofZ_add; apply (f_equal ofZ).

Lemma mk_first : forall j : Z, (0 <= j < 2 ^ 14)%Z -> exists j', (0 <= j' < 2 ^ 14)%Z /\ (ofZ j : F) = ofZ j'.
Proof. intros j H. exists j. auto. Qed.
Lemma mk_first_mul : forall j k : Z, (0 <= j * k < 2 ^ 14)%Z -> exists j', (0 <= j' < 2 ^ 14)%Z /\ (ofZ j * ofZ k : F) = ofZ j'.
Proof. intros j k H. exists (j * k)%Z. split; [exact H|]. symmetry. apply ofZ_mul. Qed.
Lemma mk_full : forall B j, (0 <= j < 2 ^ 14)%Z -> sparse_row P B (ofZ j) (ofZ (numl B (lbits 14 j))).
Proof. intros B j H. apply sparse_row_iff. exists j. auto. Qed.
Lemma mk_rev4 : forall v r l k, chunk_ok r_xor 4 v r l -> (0 <= k < 4)%Z -> reverse4_row P (ofZ (at0 l k)) (ofZ (at1 l k)).
Proof. intros v r l k H Hk. destruct (ck_pair _ _ _ _ _ H k Hk) as [A E]. apply rev4_iff. exists (at1 l k). rewrite E. auto. Qed.
Lemma mk_maj : forall v r l k, chunk_ok r_maj 4 v r l -> (0 <= k < 4)%Z -> maj_row P (ofZ (at0 l k)) (ofZ (at1 l k)).
Proof. intros v r l k H Hk. destruct (ck_pair _ _ _ _ _ H k Hk) as [A E]. apply maj_iff. exists (at1 l k). rewrite E. auto. Qed.
Lemma mk_ch : forall v r l k, chunk_ok r_ch 7 v r l -> (0 <= k < 4)%Z -> ch_row P (ofZ (at0 l k)) (ofZ (at1 l k)).
Proof. intros v r l k H Hk. destruct (ck_pair _ _ _ _ _ H k Hk) as [A E]. apply ch_iff. exists (at1 l k). rewrite E. auto. Qed.
Lemma mk_rev7 : forall e k, isw e -> (0 <= k < 4)%Z -> reverse7_row P (ofZ (at0 (Sigma1_of P e) k)) (ofZ (at1 (Sigma1_of P e) k)).
Proof. intros e k He Hk. exists e, k. split; [exact He|]. split; [exact Hk|]. rewrite Sigma1_of_eq, Sigma1_chunks. auto. Qed.

Ltac cases k := let H := fresh in
  match goal with K : (0 <= k < ?n)%Z |- _ => 
    assert (H : In k (zseq 0 n)) by (apply in_zseq; exact K); cbn in H;
    repeat (destruct H as [<-|H]; [|]); [..|contradiction H] end.
Lemma prod8_c : forall k, (0 <= k < 8)%Z -> let x := ofZ k : F in
  (x - ofZ 7) * (x - ofZ 6) * (x - ofZ 5) * (x - ofZ 4) * (x - ofZ 3) * (x - ofZ 2) * (x - ofZ 1) * x = f0.
Proof. intros k H. assert (k = 0 \/ k = 1 \/ k = 2 \/ k = 3 \/ k = 4 \/ k = 5 \/ k = 6 \/ k = 7)%Z as [->|[->|[->|[->|[->|[->|[->| ->]]]]]]] by lia; cbv zeta; ring. Qed.
Lemma prod4_c : forall k, (0 <= k < 4)%Z -> let x := ofZ k : F in (x - ofZ 3) * (x - ofZ 2) * (x - ofZ 1) * x = f0.
Proof. intros k H. assert (k = 0 \/ k = 1 \/ k = 2 \/ k = 3)%Z as [->|[->|[->| ->]]] by lia; cbv zeta; ring. Qed.
Lemma prod6_c : forall k, (0 <= k < 6)%Z -> let x := ofZ k : F in
  (x - ofZ 5) * (x - ofZ 4) * (x - ofZ 3) * (x - ofZ 2) * (x - ofZ 1) * x = f0.
Proof. intros k H. assert (k = 0 \/ k = 1 \/ k = 2 \/ k = 3 \/ k = 4 \/ k = 5)%Z as [->|[->|[->|[->|[->| ->]]]]] by lia; cbv zeta; ring. Qed.
Lemma prod7_c : forall k, (0 <= k < 7)%Z -> let x := ofZ k : F in
  (x - ofZ 6) * (x - ofZ 5) * (x - ofZ 4) * (x - ofZ 3) * (x - ofZ 2) * (x - ofZ 1) * x = f0.
Proof. intros k H. assert (k = 0 \/ k = 1 \/ k = 2 \/ k = 3 \/ k = 4 \/ k = 5 \/ k = 6)%Z as [->|[->|[->|[->|[->|[->| ->]]]]]] by lia; cbv zeta; ring. Qed.
Lemma prod2_c : forall k, (0 <= k < 2)%Z -> let x := ofZ k : F in x * (x - ofZ 1) = f0.
Proof. intros k H. assert (k = 0 \/ k = 1)%Z as [->| ->] by lia; cbv zeta; ring. Qed.

Lemma mk_sp : forall s0 s1 s2 s3 B a l2 lB k, parts_ok s0 s1 s2 s3 B a l2 lB ->
  (0 <= s0 <= 14)%Z -> (0 <= s1 <= 14)%Z -> (0 <= s2 <= 14)%Z -> (0 <= s3 <= 14)%Z -> (0 <= k < 4)%Z ->
  sparse_row P B (ofZ (znth 0%Z l2 k)) (ofZ (znth 0%Z lB k)).
Proof.
  intros s0 s1 s2 s3 B a l2 lB k [_ A0 A1 A2 A3 Hs] H0 H1 H2 H3 Hk. rewrite (Hs k Hk). apply mk_full.
  assert (M : forall s, (0 <= s <= 14)%Z -> (2 ^ s <= 2 ^ 14)%Z) by (intros; apply Z.pow_le_mono_r; lia).
  pose proof (M _ H0). pose proof (M _ H1). pose proof (M _ H2). pose proof (M _ H3).
  assert (k = 0 \/ k = 1 \/ k = 2 \/ k = 3)%Z as [->|[->|[->| ->]]] by lia; lia.
Qed.
Ltac ranges PO := pose proof (po_0 _ _ _ _ _ _ _ _ PO); pose proof (po_1 _ _ _ _ _ _ _ _ PO);
  pose proof (po_2 _ _ _ _ _ _ _ _ PO); pose proof (po_3 _ _ _ _ _ _ _ _ PO).
Ltac look OK PO :=
  first [ apply (mk_rev4 _ _ _ _ OK); lia | apply (mk_maj _ _ _ _ OK); lia | apply (mk_ch _ _ _ _ OK); lia
        | apply (mk_sp _ _ _ _ _ _ _ _ _ PO); lia | apply mk_first_mul; ranges PO; lia ].

Section Msg.
Variables (ws : list Z) (r : Z).
Hypothesis R : forall m k v, (0 <= m < 5)%Z -> (0 <= k < 9)%Z -> msg_cell P ws r m k = Some v -> t k m = v.
Let a := znth 0%Z ws (r + 1).
Let b := znth 0%Z ws (r + 14).
Let x := znth 0%Z ws (r + 16).
Hypothesis (Ia : isw a) (Ib : isw b) (I9 : isw (znth 0%Z ws (r + 9))) (I0 : isw (znth 0%Z ws r)).
Hypothesis Ex : x = (fred P (msg_sum ws r) mod 2 ^ 32)%Z.

Lemma sigma0_honest : gh P T (i + 1) (sg0_gate P c) /\ lh P T (i + 1) (sg0_lookup P c).
Proof.
  pose proof (ok_sigma0 a Ia) as OK. pose proof (ok_a 4 a Ia) as PO.
  split; [unfold sg0_gate|unfold sg0_lookup]; open_goal; reads R; fold a; try (look OK PO).
  - lift. exact (po_sum _ _ _ _ _ _ _ _ PO).
  - apply prod8_c. exact (po_0 _ _ _ _ _ _ _ _ PO).
  - lift. exact (ck_sum _ _ _ _ _ OK).
Qed.

Lemma msg_sum_eq : msg_sum ws r = (sha_s1 b + znth 0 ws (r + 9) + sha_s0 a + znth 0 ws r)%Z.
Proof.
  unfold msg_sum. cbv zeta. fold a b. rewrite <- (ck_join _ _ _ _ _ (ok_sigma0 a Ia)), <- (ck_join _ _ _ _ _ (ok_sigma1 b Ib)).
  unfold join8. lia.
Qed.
Lemma msg_bound : (0 <= msg_sum ws r < 4 * w32)%Z.
Proof. rewrite msg_sum_eq. pose proof (isw_s0 a Ia) as A. pose proof (isw_s1 b Ib) as B. unfold isw in *. lia. Qed.
Lemma x_eq : x = (msg_sum ws r mod w32)%Z.
Proof. rewrite Ex. pose proof msg_bound. rewrite fred_small by (unfold w32 in *; lia). reflexivity. Qed.
Lemma x_word : isw x.
Proof. rewrite x_eq. apply isw_mod. Qed.

Lemma msg_honest : msg_block P c T i.
Proof.
  destruct sigma0_honest as [G0 K0]. pose proof (ok_sigma0 a Ia) as OK0. pose proof (ok_sigma1 b Ib) as OK. pose proof (ok_b 4 b Ib) as PO.
  pose proof msg_bound as MB. pose proof (carry_lim _ _ MB) as CB.
  assert (EC : fcarry P (msg_sum ws r) x = ofZ (msg_sum ws r / 2 ^ 32)) by (rewrite Ex; apply fcarry_eq; unfold w32 in MB; lia).
  pose proof x_word as Xw. pose proof (lim14_range x 0 ltac:(lia)). pose proof (lim14_range x 14 ltac:(lia)). pose proof (lim14_top x Xw).
  apply conj; [exact G0|]. apply conj; [exact K0|].
  apply conj; [|apply conj; [|apply conj]]; [unfold msg_gate|unfold msg_lookup|unfold sg1_gate|unfold sg1_lookup];
    open_goal; reads R; fold a b x; rewrite ?EC; try (look OK PO); try (apply mk_first_mul; lia); try (apply mk_first; lia).
  - unfold m32. lift. rewrite x_eq. unfold w32. pose proof (Z.div_mod (msg_sum ws r) (2 ^ 32) ltac:(lia)) as E.
    change 4294967296%Z with (2 ^ 32)%Z. transitivity (msg_sum ws r); [lia|]. unfold msg_sum. cbv zeta. fold a b. lia.
  - apply prod4_c. exact CB.
  - lift. exact (po_sum _ _ _ _ _ _ _ _ PO).
  - apply prod4_c. exact (po_2 _ _ _ _ _ _ _ _ PO).
  - lift. exact (ck_sum _ _ _ _ _ OK).
  - lift. apply lim14_sum. exact Xw.
Qed.
End Msg.

Section Cmp.
Variables (kc wr : Z) (s : cst).
Hypothesis R : forall m k v, (0 <= m < 8)%Z -> (0 <= k < 9)%Z -> cmp_cell P kc wr s m k = Some v -> t k m = v.
Hypothesis Rk : T CConst (C c 0) (i + 3)%Z = ofZ kc.
Hypothesis Hs : cok s.
Hypothesis (Ik : isw kc) (Iw : isw wr).

Lemma esum_eq : esum_of P kc wr s = (sha_t1 kc wr (abs s) + c_d s)%Z.
Proof. unfold esum_of. rewrite t1_eq by exact Hs. reflexivity. Qed.
Lemma esum_bound : (0 <= esum_of P kc wr s < 6 * w32)%Z.
Proof.
  rewrite esum_eq. pose proof (t1_bound kc wr _ (k_w _ Hs) Ik Iw). destruct (k_w _ Hs) as [_ [_ [_ [D _]]]]. unfold isw in D. cbn [abs s_d] in D. lia.
Qed.
Lemma asum_bound : (0 <= asum_of P kc wr s < 7 * w32)%Z.
Proof. rewrite asum_eq by exact Hs. pose proof (t1_bound kc wr _ (k_w _ Hs) Ik Iw). pose proof (t2_bound _ (k_w _ Hs)). lia. Qed.
Lemma enew_eq : enew_of P kc wr s = (esum_of P kc wr s mod 2 ^ 32)%Z.
Proof. unfold enew_of. rewrite fred_small; [reflexivity|]. pose proof esum_bound. unfold w32 in *. lia. Qed.
Lemma anew_eq : anew_of P kc wr s = (asum_of P kc wr s mod 2 ^ 32)%Z.
Proof. unfold anew_of. rewrite fred_small; [reflexivity|]. pose proof asum_bound. unfold w32 in *. lia. Qed.

Lemma cmp_honest : cmp_block P c T i.
Proof.
  pose proof (k_w _ Hs) as [Ia [_ [_ [_ [Ie _]]]]]. cbn [abs s_a s_e] in Ia, Ie.
  pose proof (ok_Sigma1 _ Ie) as O1. pose proof (ok_Sigma0 _ Ia) as O0. pose proof (ok_ch _ Hs) as OC. pose proof (ok_maj _ Hs) as OM.
  pose proof (ok_e 7 _ Ie) as PE. pose proof (ok_c 4 _ Ia) as PA.
  pose proof esum_bound as EB. pose proof asum_bound as AB. pose proof (carry_lim _ _ EB) as CE. pose proof (carry_lim _ _ AB) as CA.
  assert (EE : fcarry P (esum_of P kc wr s) (enew_of P kc wr s) = ofZ (esum_of P kc wr s / 2 ^ 32)) by (apply fcarry_eq; unfold w32 in EB; lia).
  assert (EA : fcarry P (asum_of P kc wr s) (anew_of P kc wr s) = ofZ (asum_of P kc wr s / 2 ^ 32)) by (apply fcarry_eq; unfold w32 in AB; lia).
  assert (We : isw (enew_of P kc wr s)) by (rewrite enew_eq; apply isw_mod). assert (Wa : isw (anew_of P kc wr s)) by (rewrite anew_eq; apply isw_mod).
  pose proof (lim14_range (enew_of P kc wr s) 0 ltac:(lia)). pose proof (lim14_range (enew_of P kc wr s) 14 ltac:(lia)). pose proof (lim14_top _ We).
  pose proof (lim14_range (anew_of P kc wr s) 0 ltac:(lia)). pose proof (lim14_range (anew_of P kc wr s) 14 ltac:(lia)). pose proof (lim14_top _ Wa).
  unfold cmp_block. repeat apply conj;
   [unfold Sg1_gate|unfold Sg1_lookup|unfold Sg0_gate|unfold Sg0_lookup|unfold enew_gate|unfold anew_gate
   |unfold maj_gate|unfold maj_lookup|unfold ch_gate|unfold ch_lookup];
   open_goal; reads R; rewrite ?Rk, ?EE, ?EA.
  all: try (look O0 PA). all: try (look OM PE). all: try (look OC PE).
  all: try (apply mk_rev7; [exact Ie|lia]). all: try (apply mk_first_mul; lia). all: try (apply mk_first; lia).
  - abstract (lift ; exact (po_sum _ _ _ _ _ _ _ _ PE)).
  - abstract (lift ; rewrite v4_eq ; exact (sparse_e 7 (c_e s))).
  - abstract (lift; transitivity (sp_Sigma1 (sas 32 7 (c_e s) e_sizes)); [exact (ck_sum _ _ _ _ _ O1)|]; unfold sp_Sigma1;
      generalize (znth 0%Z (sas 32 7 (c_e s) e_sizes) 0), (znth 0%Z (sas 32 7 (c_e s) e_sizes) 1),
        (znth 0%Z (sas 32 7 (c_e s) e_sizes) 2), (znth 0%Z (sas 32 7 (c_e s) e_sizes) 3); intros; ring).
  - abstract (lift ; exact (po_sum _ _ _ _ _ _ _ _ PA)).
  - abstract (lift ; rewrite v0_eq ; exact (sparse_c 4 (c_a s))).
  - abstract (apply prod4_c ; exact (po_0 _ _ _ _ _ _ _ _ PA)).
  - abstract (lift ; exact (ck_sum _ _ _ _ _ O0)).
  - abstract (lift ; apply lim14_sum ; exact Wa).
  - abstract (lift ; unfold tmp1_of, join8 ; lia).
  - abstract (unfold m32 ; lift ; rewrite enew_eq ; change 4294967296%Z with (2 ^ 32)%Z ; pose proof (Z.div_mod (esum_of P kc wr s) (2 ^ 32) ltac:(lia)) as E ; transitivity (esum_of P kc wr s); [lia|unfold esum_of; lia]).
  - abstract (apply prod6_c ; exact CE).
  - abstract (unfold m32 ; lift ; rewrite anew_eq ; change 4294967296%Z with (2 ^ 32)%Z ; pose proof (Z.div_mod (asum_of P kc wr s) (2 ^ 32) ltac:(lia)) as E ; transitivity (asum_of P kc wr s); [lia|unfold asum_of, join8; lia]).
  - abstract (apply prod7_c ; exact CA).
  - abstract (lift ; rewrite v0_eq, (k_1 _ Hs), (k_2 _ Hs) ; exact (ck_sum _ _ _ _ _ OM)).
  - abstract (lift ; rewrite v4_eq, (k_5 _ Hs), (k_6 _ Hs) ; exact (ck_sum _ _ _ _ _ OC)).
  - abstract (lift ; apply lim14_sum ; exact We).
Qed.
End Cmp.

Lemma chk_honest : forall o q, (forall k v, (0 <= k < 9)%Z -> chk_cell P o q k = Some v -> T CWit (W c k) i = v) ->
  isw (znth 0%Z o (2 * q)) -> isw (znth 0%Z o (2 * q + 1)) -> gh P T i (chk_gate P c) /\ lh P T i (chk_lookup P c).
Proof.
  intros o q R0 Ix Iy.
  assert (R : forall m k v, (0 <= m < 1)%Z -> (0 <= k < 9)%Z -> chk_cell P o q k = Some v -> t k m = v).
  { intros m k v Hm Hk E. replace (i + m)%Z with i by lia. apply R0; assumption. }
  pose proof (lim14_range (znth 0%Z o (2 * q)) 0 ltac:(lia)). pose proof (lim14_range (znth 0%Z o (2 * q)) 14 ltac:(lia)). pose proof (lim14_top _ Ix).
  pose proof (lim14_range (znth 0%Z o (2 * q + 1)) 0 ltac:(lia)). pose proof (lim14_range (znth 0%Z o (2 * q + 1)) 14 ltac:(lia)). pose proof (lim14_top _ Iy).
  rewrite <- (Z.add_0_r i).
  split; [unfold chk_gate|unfold chk_lookup]; open_goal; reads R; try (apply mk_first_mul; lia); try (apply mk_first; lia).
  - lift. apply lim14_sum. exact Ix.
  - lift. apply lim14_sum. exact Iy.
Qed.

Lemma out_honest : (forall k, (0 <= k < 4)%Z -> exists a b z q, t k 0 = ofZ a /\ t (k + 4) 0 = ofZ b /\ t k 1 = ofZ z /\ t (k + 4) 1 = ofZ q /\
    (z + 2 ^ 32 * q = a + b)%Z /\ (0 <= q < 2)%Z) -> gh P T (i + 0) (out_gate P c).
Proof.
  intros H. unfold out_gate. rewrite ?gh_cons, ?gh_nil. ev_goal.
  destruct (H 0%Z ltac:(lia)) as [a0 [b0 [z0 [q0 [A0 [B0 [Z0 [Q0 [E0 R0]]]]]]]]].
  destruct (H 1%Z ltac:(lia)) as [a1 [b1 [z1 [q1 [A1 [B1 [Z1 [Q1 [E1 R1]]]]]]]]].
  destruct (H 2%Z ltac:(lia)) as [a2 [b2 [z2 [q2 [A2 [B2 [Z2 [Q2 [E2 R2]]]]]]]]].
  destruct (H 3%Z ltac:(lia)) as [a3 [b3 [z3 [q3 [A3 [B3 [Z3 [Q3 [E3 R3]]]]]]]]].
  cbn [Z.add Pos.add Pos.succ] in B0, B1, B2, B3, Q0, Q1, Q2, Q3.
  rewrite A0, A1, A2, A3, B0, B1, B2, B3, Z0, Z1, Z2, Z3, Q0, Q1, Q2, Q3. unfold m32.
  repeat apply conj; try exact I; try (apply prod2_c; assumption); lift; assumption.
Qed.
End Honest.
