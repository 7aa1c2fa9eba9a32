(** Properties C128 and C129: the generators of the reverse tables. *)
From Coq Require Import ZArith List Lia Permutation.
From Verif Require Import Base Field Plonk Bits Pasta Sha256Spec Sha256Model Sha256Sparse Sha256Words Sha256Gadgets Sha256Honest ShaTableModel.
Import ListNotations.
Open Scope Z_scope.

(** ** Specification *)

(** A number from its digits, least significant first. *)
Fixpoint tg_num (b : Z) (ds : list Z) : Z := match ds with [] => 0 | d :: r => d + b * tg_num b r end.
(** A row of the base-4 table: eight digits and their parities. *)
Definition tg_row4 (p : Z * Z) : Prop :=
  exists ds, length ds = 8%nat /\ Forall (fun d => 0 <= d < 4) ds /\ p = (tg_num 2 (map (fun d => d mod 2) ds), tg_num 4 ds).

(** ** Lemmas *)

Lemma tg_num_eq : forall b l, tg_num b l = numl b l.
Proof. induction l as [|d l IH]; [reflexivity|]. cbn [tg_num]. rewrite IH. reflexivity. Qed.
Lemma r_xor_mod : forall d, r_xor d = d mod 2.
Proof. intros. unfold r_xor. change 1 with (Z.ones 1). rewrite Z.land_ones by lia. reflexivity. Qed.

Lemma words_in : forall ts tn w, 0 <= ts -> 0 < tn -> (tn | 2 ^ ts) -> In w (tg_words ts tn) <-> 0 <= w < 2 ^ ts.
Proof.
  intros ts tn w Hs Hn [q E]. unfold tg_words, tg_worker. rewrite E, Z.div_mul by lia.
  assert (P : 0 < q * tn) by (rewrite <- E; apply Z.pow_pos_nonneg; lia). assert (Q : 0 < q) by nia.
  rewrite in_app_iff, in_flat_map. split.
  - intros [H|[i [Hi H]]]; [apply in_zseq in H; lia|]. apply in_zseq in Hi. apply in_zseq in H. nia.
  - intros H. right. exists (w / q). pose proof (Z.div_mod w q ltac:(lia)). pose proof (Z.mod_pos_bound w q Q). split; apply in_zseq.
    + split; [apply Z.div_pos; lia|]. apply Z.div_lt_upper_bound; lia.
    + lia.
Qed.
Lemma words_bound : forall ts tn w, 0 <= ts -> 0 < tn -> In w (tg_words ts tn) -> 0 <= w < 2 ^ ts.
Proof.
  intros ts tn w Hs Hn. unfold tg_words, tg_worker. assert (P : 0 < 2 ^ ts) by (apply Z.pow_pos_nonneg; lia).
  pose proof (Z.mul_div_le (2 ^ ts) tn Hn). assert (0 <= 2 ^ ts / tn) by (apply Z.div_pos; lia).
  rewrite in_app_iff, in_flat_map. intros [H1|[i [Hi H1]]]; [apply in_zseq in H1; lia|]. apply in_zseq in Hi. apply in_zseq in H1. nia.
Qed.
(** All but fewer than [tn] words are visited. *)
Lemma words_most : forall ts tn w, 0 <= ts -> 0 < tn -> 0 <= w -> w + tn <= 2 ^ ts -> In w (tg_words ts tn).
Proof.
  intros ts tn w Hs Hn H0 H1. unfold tg_words, tg_worker. rewrite in_app_iff, in_flat_map. right.
  pose proof (Z.div_mod (2 ^ ts) tn ltac:(lia)) as E. pose proof (Z.mod_pos_bound (2 ^ ts) tn Hn) as M.
  set (q := 2 ^ ts / tn) in *. assert (Q : 0 < q) by nia.
  exists (w / q). pose proof (Z.div_mod w q ltac:(lia)). pose proof (Z.mod_pos_bound w q Q). split; apply in_zseq.
  - split; [apply Z.div_pos; lia|]. apply Z.div_lt_upper_bound; lia.
  - lia.
Qed.
Lemma pairs_in : forall l p, In p (tg_pairs l) <-> exists k, 0 <= k < 4 /\ p = (at0 l k, at1 l k).
Proof.
  intros l p. unfold tg_pairs. rewrite in_map_iff. split.
  - intros [k [E H]]. exists k. split; [cbn in H; lia|auto].
  - intros [k [H E]]. exists k. split; [auto|]. assert (k = 0 \/ k = 1 \/ k = 2 \/ k = 3) by lia. cbn. intuition.
Qed.
Lemma chunk_row : forall v r l k, chunk_ok r_xor 4 v r l -> 0 <= k < 4 -> tg_row4 (at0 l k, at1 l k).
Proof.
  intros v r l k H Hk. destruct (ck_pair _ _ _ _ _ H k Hk) as [A E]. exists (digs 4 8 (at1 l k)).
  split; [reflexivity|]. split; [apply small_digs; lia|]. rewrite !tg_num_eq, E. unfold img. apply pair_equal_spec. split.
  - f_equal. apply map_ext. intros d. apply r_xor_mod.
  - rewrite numl_digs by lia. symmetry. apply Z.mod_small. exact A.
Qed.
Lemma iter4_row : forall i p, 0 <= i < 2 ^ 32 -> In p (tg_iter4 32 i) -> tg_row4 p.
Proof.
  intros i p Hi H. unfold tg_iter4 in H. rewrite !in_app_iff, !pairs_in in H. destruct H as [[k [Hk ->]]|[[k [Hk ->]]|[k [Hk ->]]]].
  - exact (chunk_row _ _ _ _ (ok_sigma0 i Hi) Hk).
  - exact (chunk_row _ _ _ _ (ok_sigma1 i Hi) Hk).
  - exact (chunk_row _ _ _ _ (ok_Sigma0 i Hi) Hk).
Qed.

Lemma pairs_join : forall l, tg_num 256 (map fst (tg_pairs l)) = join8 l.
Proof. intros l. unfold tg_pairs, join8. cbn [map fst tg_num]. ring. Qed.

(** The word whose function Sigma0 has the given digits in its low byte: the
    three rotations read disjoint bits. *)
Definition un (c : Z) (ds : list Z) : list Z := map (fun d => if c <=? d then 1 else 0) ds.
Definition tg_wit (ds : list Z) : list Z := [0; 0] ++ un 1 ds ++ [0; 0; 0] ++ un 2 ds ++ [0] ++ un 3 ds ++ [0; 0].
Lemma un_small : forall c ds, small 2 (un c ds).
Proof. intros. apply Forall_map. apply Forall_forall. intros d _. destruct (c <=? d); lia. Qed.
Lemma un_sum : forall d, 0 <= d < 4 -> (if 1 <=? d then 1 else 0) + (if 2 <=? d then 1 else 0) + (if 3 <=? d then 1 else 0) = d.
Proof. intros d H. assert (d = 0 \/ d = 1 \/ d = 2 \/ d = 3) as [->|[->|[->| ->]]] by lia; reflexivity. Qed.
Lemma wit_low : forall ds, length ds = 8%nat -> small 4 ds -> sl 0 8 (D_S0 (tg_wit ds)) = ds.
Proof.
  intros ds L S. do 8 (destruct ds as [|? ds]; [discriminate L|]). destruct ds; [|discriminate L].
  unfold small in S. repeat match goal with H : Forall _ (_ :: _) |- _ => apply Forall_inv in H as ?; apply Forall_inv_tail in H end.
  cbn -[Z.leb Z.add]. repeat rewrite un_sum by assumption. reflexivity.
Qed.
Lemma row_iter4 : forall p, tg_row4 p -> exists i, 0 <= i < 2 ^ 30 /\ In p (tg_iter4 32 i).
Proof.
  intros p [ds [L [S ->]]]. pose (l := tg_wit ds).
  assert (Z32 : zlen l = 32). { unfold l, tg_wit, un, zlen. rewrite !app_length, !map_length, L. reflexivity. }
  assert (S2 : small 2 l). { unfold l, tg_wit. repeat (apply small_app; [try apply un_small; repeat constructor; lia|]). repeat constructor; lia. }
  exists (numl 2 l). split.
  { pose (h := [0; 0] ++ un 1 ds ++ [0; 0; 0] ++ un 2 ds ++ [0] ++ un 3 ds).
    assert (E : l = h ++ [0; 0]) by (unfold l, tg_wit, h; rewrite <- !app_assoc; reflexivity).
    assert (Z30 : zlen h = 30) by (unfold h, un, zlen; rewrite !app_length, !map_length, L; reflexivity).
    rewrite E in S2 |- *. apply Forall_app in S2. destruct S2 as [S2 _]. pose proof (numl_bound 2 h ltac:(lia) S2) as B.
    rewrite numl_app, Z30 in *. change (numl 2 [0; 0]) with 0. lia. }
  unfold tg_iter4. rewrite !in_app_iff. right. right. apply pairs_in. exists 0. split; [lia|].
  change (rss r_xor 4 (sp_Sigma0 (sas 32 4 (numl 2 l) c_sizes)) sigma_sizes) with (Sigma0_of (numl 2 l)).
  rewrite Sigma0_of_eq, lbits_numl by (assumption || lia). unfold chunks, at0, at1.
  match goal with |- context [znth (0, 0) (?a :: ?b) 0] => change (znth (0, 0) (a :: b) 0) with a end. cbn [fst snd]. unfold l. rewrite wit_low, !tg_num_eq by assumption. f_equal. f_equal. apply map_ext. intros d. symmetry. apply r_xor_mod.
Qed.
(** Clearing a bit that no digit of the chunk reads. *)
Definition put (b : nat) (d : Z) (l : list Z) : list Z := firstn b l ++ d :: skipn (S b) l.
Definition unread (k : Z) : nat := if k =? 0 then 24%nat else if k =? 1 then 31%nat else if k =? 2 then 21%nat else 29%nat.
Lemma unread_chunk : forall l k, length l = 32%nat -> 0 <= k < 4 ->
  znth (0, 0) (chunks r_xor 7 (D_S1 (put (unread k) 0 l))) k = znth (0, 0) (chunks r_xor 7 (D_S1 l)) k.
Proof.
  intros l k H Hk. list32 l H. unfold chunks. assert (k = 0 \/ k = 1 \/ k = 2 \/ k = 3) as [->|[->|[->| ->]]] by lia; reflexivity.
Qed.
Lemma put_num : forall b l, (b < length l)%nat -> numl 2 (put b 1 l) = numl 2 (put b 0 l) + 2 ^ Z.of_nat b.
Proof.
  intros b l H. unfold put. rewrite !numl_app. unfold zlen. rewrite firstn_length_le by lia.
  change (numl 2 (1 :: skipn (S b) l)) with (1 + 2 * numl 2 (skipn (S b) l)).
  change (numl 2 (0 :: skipn (S b) l)) with (0 + 2 * numl 2 (skipn (S b) l)). ring.
Qed.
Lemma put_small : forall b d l, 0 <= d < 2 -> small 2 l -> small 2 (put b d l).
Proof.
  assert (A : forall n (l : list Z), small 2 l -> small 2 (firstn n l) /\ small 2 (skipn n l)).
  { intros n l S. rewrite <- (firstn_skipn n l) in S. apply Forall_app in S. exact S. }
  intros b d l Hd S. apply Forall_app. split; [apply A; exact S|]. constructor; [exact Hd|]. apply (A (1 + b)%nat). exact S.
Qed.
Lemma put_len : forall b d l, (b < length l)%nat -> length (put b d l) = length l.
Proof. intros b d l H. unfold put. rewrite app_length. cbn [length]. rewrite firstn_length_le, skipn_length by lia. lia. Qed.
Lemma iter7_low : forall i p, In p (tg_iter7 32 i) -> exists w, 0 <= w /\ w + 2 ^ 21 <= 2 ^ 32 /\ In p (tg_iter7 32 w).
Proof.
  intros i p H. apply pairs_in in H. destruct H as [k [Hk ->]]. rewrite Sigma1_chunks. destruct (bits_facts i) as [L S].
  set (l := lbits 32 i) in *. set (b := unread k).
  assert (Hb : (21 <= b < 32)%nat) by (unfold b, unread; destruct (k =? 0), (k =? 1), (k =? 2); lia).
  assert (L0 := put_len b 0 l ltac:(lia)). assert (L1 := put_len b 1 l ltac:(lia)).
  assert (S0 := put_small b 0 l ltac:(lia) S). assert (S1 := put_small b 1 l ltac:(lia) S).
  assert (Z0 : zlen (put b 0 l) = 32) by (unfold zlen; lia). assert (Z1 : zlen (put b 1 l) = 32) by (unfold zlen; lia).
  assert (B0 := numl_bound 2 _ ltac:(lia) S0). assert (B1 := numl_bound 2 _ ltac:(lia) S1). rewrite Z1 in B1. rewrite put_num in B1 by lia.
  assert (2 ^ 21 <= 2 ^ Z.of_nat b) by (apply Z.pow_le_mono_r; lia).
  exists (numl 2 (put b 0 l)). split; [lia|]. split; [lia|]. apply pairs_in. exists k. split; [exact Hk|].
  rewrite Sigma1_chunks, lbits_numl by (assumption || lia). unfold at0, at1, b. rewrite !(unread_chunk l k) by (lia || assumption). reflexivity.
Qed.
Lemma perm_in : forall (iter : Z -> list (Z * Z)) ts tn run p, 0 <= ts -> 0 < tn -> (tn | 2 ^ ts) -> Permutation run (tg_words ts tn) ->
  (In p (tg_table iter run) <-> exists w, 0 <= w < 2 ^ ts /\ In p (iter w)).
Proof.
  intros iter ts tn run p Hs Hn D R. unfold tg_table. rewrite in_flat_map.
  split; intros [w [A B]]; exists w; (split; [|exact B]).
  - apply (words_in ts tn w Hs Hn D). exact (Permutation_in w R A).
  - apply (Permutation_in w (Permutation_sym R)). apply (words_in ts tn w Hs Hn D). exact A.
Qed.

(** ** C128 *)

(** With a number of threads that divides the number of words, every order of
    the visits gives the same set: the pairs of all the words. *)
Theorem shatab_threads : forall (iter : Z -> list (Z * Z)) ts tn run tn' run' p, 0 <= ts -> 0 < tn -> (tn | 2 ^ ts) -> 0 < tn' -> (tn' | 2 ^ ts) ->
  Permutation run (tg_words ts tn) -> Permutation run' (tg_words ts tn') ->
  (In p (tg_table iter run) <-> In p (tg_table iter run')).
Proof. intros. rewrite (perm_in iter ts tn run p), (perm_in iter ts tn' run' p) by assumption. reflexivity. Qed.
Print Assumptions shatab_threads.

(** With any number of threads up to [2^21] the base-4 table has exactly the
    rows of eight digits and their parities. *)
Theorem shatab_base4 : forall tn run p, 0 < tn <= 2 ^ 21 -> Permutation run (tg_words 32 tn) ->
  (In p (tg_table (tg_iter4 32) run) <-> tg_row4 p).
Proof.
  intros tn run p Hn R. unfold tg_table. rewrite in_flat_map. split.
  - intros [w [A B]]. apply (iter4_row w p); [|exact B]. apply (words_bound 32 tn); [lia|lia|]. exact (Permutation_in w R A).
  - intros H. destruct (row_iter4 p H) as [w [A B]]. exists w. split; [|exact B]. apply (Permutation_in w (Permutation_sym R)).
    apply words_most; lia.
Qed.
Print Assumptions shatab_base4.
(** And the base-7 table has the chunks of all the words, the unvisited ones
    included. *)
Theorem shatab_base7 : forall tn run p, 0 < tn <= 2 ^ 21 -> Permutation run (tg_words 32 tn) ->
  (In p (tg_table (tg_iter7 32) run) <-> exists w, 0 <= w < 2 ^ 32 /\ In p (tg_iter7 32 w)).
Proof.
  intros tn run p Hn R. unfold tg_table. rewrite in_flat_map. split.
  - intros [w [A B]]. exists w. split; [|exact B]. apply (words_bound 32 tn); [lia|lia|]. exact (Permutation_in w R A).
  - intros [i [_ H]]. destruct (iter7_low i p H) as [w [A [B C]]]. exists w. split; [|exact C].
    apply (Permutation_in w (Permutation_sym R)). apply words_most; lia.
Qed.
Print Assumptions shatab_base7.

(** The generated sets are the tables the SHA-256 component looks up. *)
Theorem shatab_lookup4 : forall P tn run x y, 0 < tn <= 2 ^ 21 -> Permutation run (tg_words 32 tn) ->
  (reverse4_row P x y <-> exists p, In p (tg_table (tg_iter4 32) run) /\ x = ofZ (fst p) /\ y = ofZ (snd p)).
Proof.
  intros P tn run x y Hn R. rewrite rev4_iff. split.
  - intros [v [Hv [-> ->]]]. exists (img r_xor 4 v, v). split; [|auto]. apply (shatab_base4 tn run _ Hn R).
    exists (digs 4 8 v). split; [reflexivity|]. split; [apply small_digs; lia|]. rewrite !tg_num_eq. unfold img. apply pair_equal_spec. split.
    + f_equal. apply map_ext. intros d. apply r_xor_mod.
    + rewrite numl_digs by lia. symmetry. apply Z.mod_small. exact Hv.
  - intros [p [H [-> ->]]]. apply (shatab_base4 tn run _ Hn R) in H. destruct H as [ds [L [S ->]]]. cbn [fst snd]. rewrite !tg_num_eq.
    assert (Z8 : zlen ds = 8) by (unfold zlen; rewrite L; reflexivity).
    assert (B := numl_bound 4 ds ltac:(lia) S). rewrite Z8 in B. exists (numl 4 ds). split; [exact B|]. split; [|reflexivity].
    f_equal. unfold img. f_equal. transitivity (map r_xor ds); [apply map_ext; intros; symmetry; apply r_xor_mod|]. f_equal.
    apply (numl_inj 4); [lia|exact S|apply small_digs; lia|rewrite L; reflexivity|].
    rewrite numl_digs by lia. symmetry. apply Z.mod_small. exact B.
Qed.
Print Assumptions shatab_lookup4.
Theorem shatab_lookup7 : forall P tn run x y, 0 < tn <= 2 ^ 21 -> Permutation run (tg_words 32 tn) ->
  (reverse7_row P x y <-> exists p, In p (tg_table (tg_iter7 32) run) /\ x = ofZ (fst p) /\ y = ofZ (snd p)).
Proof.
  intros P tn run x y Hn R. split.
  - intros [i [k [Hi [Hk [-> ->]]]]]. eexists (_, _). split; [|split; reflexivity].
    apply (shatab_base7 tn run _ Hn R). exists i. split; [exact Hi|]. apply pairs_in. exists k. auto.
  - intros [p [H [-> ->]]]. apply (shatab_base7 tn run _ Hn R) in H. destruct H as [i [Hi H]].
    apply pairs_in in H. destruct H as [k [Hk ->]]. exists i, k. auto.
Qed.
Print Assumptions shatab_lookup7.

(** The pairs of one word: their first halves are the bytes of the functions of
    SHA-256 at this word. *)
Theorem shatab_word4 : forall i, 0 <= i < 2 ^ 32 -> exists a b c, tg_iter4 32 i = a ++ b ++ c /\
  (length a = 4 /\ length b = 4 /\ length c = 4)%nat /\
  tg_num 256 (map fst a) = sha_s0 i /\ tg_num 256 (map fst b) = sha_s1 i /\ tg_num 256 (map fst c) = sha_S0 i.
Proof.
  intros i Hi. eexists _, _, _. split; [reflexivity|]. split; [repeat split|].
  split; [|split]; [rewrite <- (ck_join _ _ _ _ _ (ok_sigma0 i Hi))|rewrite <- (ck_join _ _ _ _ _ (ok_sigma1 i Hi))|
    rewrite <- (ck_join _ _ _ _ _ (ok_Sigma0 i Hi))]; apply pairs_join.
Qed.
Print Assumptions shatab_word4.
Theorem shatab_word7 : forall i, 0 <= i < 2 ^ 32 -> length (tg_iter7 32 i) = 4%nat /\ tg_num 256 (map fst (tg_iter7 32 i)) = sha_S1 i.
Proof.
  intros i Hi. split; [reflexivity|]. unfold tg_iter7. rewrite pairs_join, Sigma1_chunks, <- val_S1 by exact Hi.
  destruct (bits_facts i) as [L S]. refine (ck_join _ _ _ _ _ (chunk_ok_D _ _ _ _ _ _)); [lia|apply (D_facts _ L S)..].
Qed.
Print Assumptions shatab_word7.

Example shatab_ex : tg_words 3 2 = [0; 0; 1; 2; 3; 4; 5; 6; 7] /\ tg_assert 6 /\ (2 | 2 ^ 32).
Proof. split; [reflexivity|]. split; [right; split; [reflexivity|lia]|]. exists (2 ^ 31). reflexivity. Qed.
Example shatab_row_ex : tg_row4 (tg_num 2 [1; 0; 1; 0; 0; 0; 0; 0], tg_num 4 [3; 2; 1; 0; 0; 0; 0; 0]).
Proof. exists [3; 2; 1; 0; 0; 0; 0; 0]. split; [reflexivity|]. split; [repeat constructor; lia|reflexivity]. Qed.

(** ** C129 *)

(** The check on the number of threads accepts six, and then the last four
    words are visited by no thread. *)
Theorem shatab_words_refuted : exists tn w, tg_assert tn /\ 0 <= w < 2 ^ 32 /\ ~ In w (tg_words 32 tn).
Proof.
  exists 6, (2 ^ 32 - 1). split; [right; split; [reflexivity|lia]|]. split; [lia|].
  unfold tg_words, tg_worker. rewrite in_app_iff, in_flat_map. change (2 ^ 32 / 6) with 715827882.
  intros [H|[i [Hi H]]]; apply in_zseq in H; [lia|]. apply in_zseq in Hi. lia.
Qed.
Print Assumptions shatab_words_refuted.
(** Also for a size at which the words can be counted. *)
Theorem shatab_small_refuted : exists tn, tg_assert tn /\ tg_words 3 tn = [0; 0; 1; 2; 3; 4; 5].
Proof. exists 6. split; [right; split; [reflexivity|lia]|reflexivity]. Qed.
Print Assumptions shatab_small_refuted.
