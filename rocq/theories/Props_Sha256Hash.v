(** C83, C84, C85, C86: decomposition and the SHA-256 component. *)
From Coq Require Import ZArith List Lia Bool Field.
From Verif Require Import Base Field Plonk PlonkFacts PvTape Examples Pasta Sha256Spec Sha256Model Sha256Words Sha256View Sha256Sound Sha256Complete Props_Sha256 Sha256HashSpec Sha256HashModel Sha256Dec Sha256HashProofs.
Import ListNotations.
Open Scope Z_scope.

(** ** decomposition *)

(** Word [k] of two numbers, most significant first: what the eight outputs
    stand for. *)
Definition be_words (x y : Z) : list Z :=
  map (fun k => (x / 2 ^ (32 * (3 - k))) mod 2 ^ 32) (zseq 0 4) ++ map (fun k => (y / 2 ^ (32 * (3 - k))) mod 2 ^ 32) (zseq 0 4).

Definition dec_setup (P : params) (c : comp) (a b : var) (row : Z) (T : table P) : Prop :=
  2 ^ 128 < char P /\ wf_comp c 9 /\ outside c dec_rows row a /\ outside c dec_rows row b.

Lemma be_words_at : forall x y k, 0 <= k < 8 -> znth 0 (be_words x y) k = if k <? 4 then word_of x (3 - k) else word_of y (7 - k).
Proof.
  intros x y k Hk. unfold be_words. assert (E : forall f : Z -> Z, zlen (map f (zseq 0 4)) = 4) by (intros f; reflexivity).
  destruct (Z.ltb_spec k 4).
  - rewrite znth_l by (rewrite E; lia). rewrite znth_map_zseq by lia. reflexivity.
  - rewrite znth_r by (rewrite E; lia). rewrite E, znth_map_zseq by lia. unfold word_of. do 3 f_equal. lia.
Qed.
Lemma list8 : forall (f : Z -> Z) l, length l = 8%nat -> (forall k, 0 <= k < 8 -> f k = znth 0 l k) -> map f (zseq 0 8) = l.
Proof.
  intros f l Hl H. transitivity (map (znth 0 l) (zseq 0 8)).
  - apply map_ext_in. intros k Hk. apply in_zseq in Hk. apply H, Hk.
  - do 8 (destruct l as [|? l]; [discriminate|]). destruct l; [reflexivity|discriminate].
Qed.

Theorem decomposition_calculate : forall x y, dec_calculate x y = be_words x y.
Proof.
  intros x y. unfold dec_calculate, be_words. rewrite !dec_pair_eq by lia. reflexivity.
Qed.

Theorem decomposition_complete : forall P L c a b row (T : table P), dec_setup P c a b row T ->
  fval (vval T a) < 2 ^ 128 -> fval (vval T b) < 2 ^ 128 ->
  let T' := dec_assign c a b row T in
  sat L T' (dec_circuit c a b row) /\ frame c dec_rows row T T' /\
  map (fun k => fval (vval T' (dec_out c row k))) (zseq 0 8) = be_words (fval (vval T a)) (fval (vval T b)).
Proof.
  intros P L c a b row T [big [wf [Oa Ob]]] Ha Hb T'.
  destruct (dec_honest P L c a b row wf T Oa Ob Ha Hb) as [S O]. split; [exact S|]. split; [apply dec_frame|].
  apply list8; [reflexivity|]. intros k Hk. unfold T'. rewrite (O k Hk), be_words_at by exact Hk.
  apply fval_ofZ_small. destruct (k <? 4); match goal with |- 0 <= word_of ?x ?i < _ => pose proof (word_range x i) end; lia.
Qed.

Theorem decomposition_sound_with_range_checks : forall P L c a b row (T : table P), 2 ^ 128 < char P -> sat L T (dec_circuit c a b row) ->
  (forall k, 0 <= k < 8 -> fval (T CWit (W c k) row) < 2 ^ 16 /\ fval (T CWit (W c k) (row + 2)) < 2 ^ 16) ->
  fval (vval T a) < 2 ^ 128 /\ fval (vval T b) < 2 ^ 128 /\
  map (fun k => fval (vval T (dec_out c row k))) (zseq 0 8) = be_words (fval (vval T a)) (fval (vval T b)).
Proof.
  intros P L c a b row T big S Hc.
  destruct (dec_out_sound P big L c a b row T S) as [A [B O]].
  - apply (dec_small_chunks P big L c a b row T S). intros k Hk. rewrite Z.add_0_r. exact (Hc k Hk).
  - split; [exact A|]. split; [exact B|]. apply list8; [reflexivity|]. intros k Hk. rewrite (O k Hk), be_words_at by exact Hk. reflexivity.
Qed.

(** Without the range checks the circuit fixes nothing but one word of each
    half: any six field elements are accepted as the other words, for any
    inputs, even those that have no decomposition. *)
Section DecBad.
Variable P : params.
Notation F := (F P).
Notation table := (table P).
Add Field Ff : (F_field P) (morphism (F_morph P), constants [F_const], power_tac (F_power P) [F_pow_tac]).
Local Open Scope F_scope.
Definition dec_rest (x w1 w2 w3 : F) : F := (x - (w3 + w2 * ofZ (2 ^ 32) + w1 * ofZ (2 ^ 64))) * finv (ofZ (2 ^ 96)).
Definition dec_bad (x y w1 w2 w3 w5 w6 w7 : F) (o k : Z) : option F :=
  let w0 := dec_rest x w1 w2 w3 in let w4 := dec_rest y w5 w6 w7 in
  Some (znth f0 (if (o =? 0)%Z then [w3; f0; w2; f0; w1; f0; w0; f0; x]
                 else if (o =? 2)%Z then [w7; f0; w6; f0; w5; f0; w4; f0; y]
                 else [w0; w1; w2; w3; w4; w5; w6; w7; f0]) k).
Lemma dec_rest_eq : (2 ^ 128 < char P)%Z -> forall x w1 w2 w3, x = w3 + w2 * ofZ (2 ^ 32) + w1 * ofZ (2 ^ 64) + dec_rest x w1 w2 w3 * ofZ (2 ^ 96).
Proof.
  intros big x w1 w2 w3. unfold dec_rest. generalize (ofZ (2 ^ 32) : F). generalize (ofZ (2 ^ 64) : F).
  assert (N : (ofZ (2 ^ 96) : F) <> f0).
  { intros E. apply (f_equal fval) in E. rewrite fval_ofZ_small in E by lia. change (f0 : F) with (ofZ 0 : F) in E. rewrite fval_ofZ_small in E by lia. lia. }
  revert N. generalize (ofZ (2 ^ 96) : F). intros z N u v.
  pose proof (finv_l P z N) as I. revert I. generalize (finv z). intros i I.
  transitivity (w3 + v * w2 + u * w1 + (x - (w3 + w2 * v + w1 * u)) * (i * z)); [rewrite I|]; ring.
Qed.
Lemma dec_low : forall x : F, x = x + f0 * ofZ 65536.
Proof. intros x. generalize (ofZ 65536 : F). intros y. ring. Qed.
End DecBad.

Theorem decomposition_sound_refuted : forall P L c a b row (T : table P), dec_setup P c a b row T ->
  forall w1 w2 w3 w5 w6 w7 : F P, exists T', frame c dec_rows row T T' /\ sat L T' (dec_circuit c a b row) /\
    vval T' (dec_out c row 1) = w1 /\ vval T' (dec_out c row 2) = w2 /\ vval T' (dec_out c row 3) = w3 /\
    vval T' (dec_out c row 5) = w5 /\ vval T' (dec_out c row 6) = w6 /\ vval T' (dec_out c row 7) = w7.
Proof.
  intros P L c a b row T [big [wf [Oa Ob]]] w1 w2 w3 w5 w6 w7.
  set (T' := put c row 3 (dec_bad P (vval T a) (vval T b) w1 w2 w3 w5 w6 w7) T).
  assert (Fr : frame c dec_rows row T T') by apply put_frame. exists T'. split; [exact Fr|].
  assert (A : forall o k v, 0 <= o < 3 -> 0 <= k < 9 -> dec_bad P (vval T a) (vval T b) w1 w2 w3 w5 w6 w7 o k = Some v -> T' CWit (W c k) (row + o) = v).
  { intros o k v Ho Hk E. apply (put_at P c row 3 _ T o k v wf Ho Hk E). }
  split.
  - apply dec_iff. rewrite (vval_frame P c dec_rows row T T' a Fr Oa), (vval_frame P c dec_rows row T T' b Fr Ob).
    repeat match goal with |- context [T' CWit (W c ?k) (row + ?o)] => rewrite (A o k _ ltac:(lia) ltac:(lia) eq_refl) end.
    split; [reflexivity|]. split; [reflexivity|]. split; (split; [apply (dec_rest_eq P big)|repeat apply conj; apply dec_low]).
  - unfold dec_out. rewrite !vval_wcell. repeat apply conj.
    + exact (A 1 1 _ ltac:(lia) ltac:(lia) eq_refl).
    + exact (A 1 2 _ ltac:(lia) ltac:(lia) eq_refl).
    + exact (A 1 3 _ ltac:(lia) ltac:(lia) eq_refl).
    + exact (A 1 5 _ ltac:(lia) ltac:(lia) eq_refl).
    + exact (A 1 6 _ ltac:(lia) ltac:(lia) eq_refl).
    + exact (A 1 7 _ ltac:(lia) ltac:(lia) eq_refl).
Qed.

(** ** sha256 *)

(** Four inputs outside the component, and the constants in place. *)
Definition sh_setup (P : params) (c : comp) (b : Z -> var) (row : Z) (T : table P) : Prop :=
  2 ^ 128 < char P /\ wf_comp c 9 /\ (forall k, 0 <= k < 4 -> outside c sh_rows row (b k)) /\
  (forall k, 0 <= k < 4 -> fval (vval T (b k)) < 2 ^ 128) /\ consts_in T (sh_circuit c b row).

(** The 64 bytes the inputs stand for: four big-endian 16-byte numbers. *)
Definition sh_message (P : params) (b : Z -> var) (T : table P) : list Z :=
  flat_map (fun k => be_bytes 16 (fval (vval T (b k)))) (zseq 0 4).

Lemma sh_message_eq : forall P b (T : table P), sh_message P b T = msg_bytes (in_nums P b T).
Proof. intros. unfold sh_message, msg_bytes, in_nums. rewrite flat_map_concat_map, (flat_map_concat_map (be_bytes 16)), map_map. reflexivity. Qed.
Lemma sh_digest : forall P b (T : table P), sha256_words (sh_message P b T) = st_2 P b T.
Proof. intros. rewrite sh_message_eq. apply sha256_64. rewrite zlen_msg. reflexivity. Qed.

Lemma join_digest : forall s, (forall k, 0 <= znth 0 s k < 2 ^ 32) -> length s = 8%nat ->
  be_bytes 16 (sh_join s 0) ++ be_bytes 16 (sh_join s 4) = flat_map (be_bytes 4) s.
Proof.
  intros s H Hl. unfold sh_join. rewrite !join_bytes by apply H. rewrite <- !app_assoc.
  do 8 (destruct s as [|? s]; [discriminate|]). destruct s; [|discriminate]. cbn [flat_map]. rewrite app_nil_r. reflexivity.
Qed.
Lemma compress_len : forall h m, length (sha_compress h m) = 8%nat.
Proof. intros. unfold sha_compress. cbv zeta. rewrite map_length. reflexivity. Qed.

(** The gate of the last two rows. *)
Section Last.
Variable P : params.
Variable L : lenv P.
Variable c : comp.
Variable row : Z.
Local Open Scope F_scope.
Lemma sh_gate_iff : forall T : table P, sat L T [Gate (sh_gate P c) [(row + 1530)%Z]] <->
  (T CWit (W c 1) (row + 1531)%Z = T CWit (W c 7) (row + 1530)%Z + T CWit (W c 6) (row + 1530)%Z * ofZ (2 ^ 32) +
      T CWit (W c 5) (row + 1530)%Z * ofZ (2 ^ 64) + T CWit (W c 4) (row + 1530)%Z * ofZ (2 ^ 96) /\
   T CWit (W c 0) (row + 1531)%Z = T CWit (W c 3) (row + 1530)%Z + T CWit (W c 2) (row + 1530)%Z * ofZ (2 ^ 32) +
      T CWit (W c 1) (row + 1530)%Z * ofZ (2 ^ 64) + T CWit (W c 0) (row + 1530)%Z * ofZ (2 ^ 96)).
Proof.
  intros T. unfold sh_gate. rewrite !sat_cons, holds_gate1, !all_cons, all_nil.
  repeat (rewrite ?eval_bin, ?eval_evar, ?eval_ecst, ?gval_wv, ?Z.add_0_r, ?vval_wcell; cbn [ebop]).
  replace (row + 1530 + 1)%Z with (row + 1531)%Z by lia.
  assert (S0 : sat L T [] <-> True) by (split; [auto|intros _; apply sat_nil]). rewrite S0.
  rewrite !fsub_eq0. tauto.
Qed.
End Last.

Lemma sh_circuit_app : forall P L c b row (T : table P), sat L T (sh_circuit c b row) <->
  sat L T (sh_consts P c row ++ dec_circuit (sh_sub c) (b 0) (b 1) row ++ dec_circuit (sh_sub c) (b 2) (b 3) (row + 3) ++
     sp_circuit (sh_sub c) (sh_st1 c row) (sh_wd1 c row) (row + 6) ++ sp_circuit (sh_sub c) (sh_st2 c row) (sh_wd2 c row) (row + 768)) /\
  sat L T [Gate (sh_gate P c) [row + 1530]].
Proof. intros. unfold sh_circuit. rewrite !sat_app. tauto. Qed.

Lemma sh_out_at : forall P c row k (T : table P), vval T (sh_out c row k) = T CWit (W c k) (row + 1530 + 1).
Proof. intros. unfold sh_out. rewrite vval_wcell. f_equal. change sh_rows with 1532. lia. Qed.

(** Two joined numbers hold the digest. *)
Lemma last_digest : forall P (v : Z -> F P) s w0 w1, 2 ^ 128 < char P -> (forall k, 0 <= k < 8 -> v k = ofZ (znth 0 s k)) ->
  (forall k, 0 <= znth 0 s k < 2 ^ 32) -> length s = 8%nat ->
  w0 = fadd (fadd (fadd (v 3) (fmul (v 2) (ofZ (2 ^ 32)))) (fmul (v 1) (ofZ (2 ^ 64)))) (fmul (v 0) (ofZ (2 ^ 96))) ->
  w1 = fadd (fadd (fadd (v 7) (fmul (v 6) (ofZ (2 ^ 32)))) (fmul (v 5) (ofZ (2 ^ 64)))) (fmul (v 4) (ofZ (2 ^ 96))) ->
  fval w0 = sh_join s 0 /\ fval w1 = sh_join s 4.
Proof.
  intros P v s w0 w1 big V R Hl E0 E1. rewrite E0, E1, !V by lia. rewrite !ofZ_join4.
  assert (X : forall i, 0 <= sh_join s i < char P).
  { intros i. unfold sh_join.
    pose proof (word_sum_range (znth 0 s (i + 3)) (znth 0 s (i + 2)) (znth 0 s (i + 1)) (znth 0 s i) (R _) (R _) (R _) (R _)). lia. }
  pose proof (X 0) as X0. pose proof (X 4) as X4. split; apply fval_ofZ_small; assumption.
Qed.

Lemma sh_assign_eq : forall P c b row (T : table P), sh_assign c b row T =
  put c (row + 1530) 2 (sh_last (fun i => vval (T4 P c b row T) (sh_state c row i))) (T4 P c b row T).
Proof. intros. reflexivity. Qed.

(** The last two rows of the honest table. *)
Lemma last_rows : forall P L c row (U : table P) v, wf_comp c 9 ->
  let T' := put c (row + 1530) 2 (sh_last v) U in
  sat L T' [Gate (sh_gate P c) [row + 1530]] /\ frame c 2 (row + 1530) U T' /\
  vval T' (sh_out c row 0) = fadd (fadd (fadd (v 3) (fmul (v 2) (ofZ (2 ^ 32)))) (fmul (v 1) (ofZ (2 ^ 64)))) (fmul (v 0) (ofZ (2 ^ 96))) /\
  vval T' (sh_out c row 1) = fadd (fadd (fadd (v 7) (fmul (v 6) (ofZ (2 ^ 32)))) (fmul (v 5) (ofZ (2 ^ 64)))) (fmul (v 4) (ofZ (2 ^ 96))).
Proof.
  intros P L c row U v wf T'.
  assert (A : forall o k w, 0 <= o < 2 -> 0 <= k < 9 -> sh_last v o k = Some w -> T' CWit (W c k) (row + 1530 + o) = w).
  { intros o k w Ho Hk E. apply (put_at P c (row + 1530) 2 _ U o k w wf Ho Hk E). }
  assert (A0 : forall k, 0 <= k < 8 -> T' CWit (W c k) (row + 1530) = v k).
  { intros k Hk. rewrite <- (Z.add_0_r (row + 1530)). apply A; [lia|lia|]. unfold sh_last. cbn [Z.eqb]. rewrite (proj2 (Z.ltb_lt k 8)) by lia. reflexivity. }
  assert (B0 := A 1 0 _ ltac:(lia) ltac:(lia) eq_refl). assert (B1 := A 1 1 _ ltac:(lia) ltac:(lia) eq_refl).
  cbn [Z.add Pos.add Pos.succ] in B0, B1.
  split; [|split; [apply put_frame|rewrite !sh_out_at; split; [exact B0|exact B1]]].
  apply sh_gate_iff. rewrite !A0 by lia. replace (row + 1531) with (row + 1530 + 1) by lia. split; [exact B1|exact B0].
Qed.

(** The table of [generate_assignments] satisfies the circuit and holds the
    SHA-256 digest of the 64-byte message. *)
Theorem sha256_complete : forall P c b row (T : table P), sh_setup P c b row T ->
  let T' := sh_assign c b row T in
  sat sha_lenv T' (sh_circuit c b row) /\ frame c sh_rows row T T' /\
  be_bytes 16 (fval (vval T' (sh_out c row 0))) ++ be_bytes 16 (fval (vval T' (sh_out c row 1))) = sha256 (sh_message P b T).
Proof.
  intros P c b row T [big [wf [Ob [Hb K]]]]. cbv zeta. rewrite sh_assign_eq.
  pose proof (upper_sat P big c wf b row T Ob Hb K) as S.
  pose proof (f14 P c wf b row T) as Fr.
  destruct (sp_2 P big c wf b row T Ob Hb K) as [_ O].
  assert (R : forall k, 0 <= znth 0 (st_2 P b T) k < 2 ^ 32) by (intros k; apply compress_w).
  assert (Rl : length (st_2 P b T) = 8%nat) by (apply compress_len).
  unfold sha256. rewrite sh_digest. revert O R Rl. generalize (st_2 P b T) as s. revert S Fr. generalize (T4 P c b row T) as U.
  intros U S Fr s O R Rl.
  assert (V : forall k, 0 <= k < 8 -> vval U (sh_state c row k) = ofZ (znth 0 s k)).
  { intros k Hk. rewrite <- O, znth_map_zseq by lia. rewrite ofZ_fval. reflexivity. }
  destruct (last_rows P sha_lenv c row U (fun i => vval U (sh_state c row i)) wf) as [G [FU [E0 E1]]].
  revert G FU E0 E1. generalize (put c (row + 1530) 2 (sh_last (fun i => vval U (sh_state c row i))) U). intros T' G FU E0 E1.
  split; [|split].
  - apply sh_circuit_app. split; [exact (S T' FU)|exact G].
  - change sh_rows with 1532. eapply frame_trans; [eapply frame_sub; [| |exact Fr]; lia|]. eapply frame_sub; [| |exact FU]; lia.
  - destruct (last_digest P _ s _ _ big V R Rl E0 E1) as [-> ->]. apply join_digest; assumption.
Qed.

(** [calculate]: the two halves of the digest. *)
Theorem sha256_hash_calculate : forall P x, 2 ^ 128 < char P -> length x = 4%nat ->
  flat_map (be_bytes 16) (sh_calculate P x) = sha256 (flat_map (be_bytes 16) x).
Proof.
  intros P x big Hl. unfold sh_calculate. cbv zeta.
  assert (Hz : zlen x = 4) by (unfold zlen; rewrite Hl; reflexivity).
  assert (Ew : dec_calculate (znth 0 x 0) (znth 0 x 1) ++ dec_calculate (znth 0 x 2) (znth 0 x 3) = map (be_word (flat_map (be_bytes 16) x)) (zseq 0 16)).
  { rewrite !decomposition_calculate. unfold be_words. rewrite <- !app_assoc.
    change (zseq 0 16) with (map (fun r => 4 * 0 + r) (zseq 0 4) ++ map (fun r => 4 * 1 + r) (zseq 0 4) ++ map (fun r => 4 * 2 + r) (zseq 0 4) ++ map (fun r => 4 * 3 + r) (zseq 0 4)).
    rewrite !map_app, !map_map.
    assert (E : forall q, 0 <= q < 4 -> map (fun k => (znth 0 x q / 2 ^ (32 * (3 - k))) mod 2 ^ 32) (zseq 0 4) = map (fun r => be_word (flat_map (be_bytes 16) x) (4 * q + r)) (zseq 0 4)).
    { intros q Hq. apply map_ext_in. intros r Hr. apply in_zseq in Hr. symmetry. apply (msg_word x q r); lia. }
    rewrite <- !E by lia. reflexivity. }
  rewrite Ew. unfold sha256. rewrite (sha256_64 (flat_map (be_bytes 16) x)) by (change (flat_map (be_bytes 16) x) with (msg_bytes x); rewrite zlen_msg, Hz; reflexivity).
  assert (Wl : length (map (be_word (flat_map (be_bytes 16) x)) (zseq 0 16)) = 16%nat) by (rewrite map_length; reflexivity).
  assert (Wb : Forall (fun y => 0 <= y < 2 ^ 32) (map (be_word (flat_map (be_bytes 16) x)) (zseq 0 16))).
  { rewrite <- Ew, !decomposition_calculate. apply Forall_forall. intros y Hy. unfold be_words in Hy. rewrite <- !map_app in Hy || idtac.
    repeat (apply in_app_or in Hy; destruct Hy as [Hy|Hy]); apply in_map_iff in Hy; destruct Hy as [k [<- _]]; apply Z.mod_pos_bound; reflexivity. }
  revert Wl Wb. generalize (map (be_word (flat_map (be_bytes 16) x)) (zseq 0 16)). intros w Wl Wb.
  change sh_iv with sha_iv.
  rewrite (sha256_calculate P sha_iv w big) by (assumption || (repeat constructor; discriminate)).
  assert (R : Forall (fun y => 0 <= y < 2 ^ 32) (sha_compress sha_iv w)).
  { apply Forall_forall. intros y Hy. apply (In_nth _ _ 0) in Hy. destruct Hy as [n [Hn <-]].
    pose proof (compress_w sha_iv w (Z.of_nat n)) as R. unfold znth in R. rewrite Nat2Z.id in R. exact R. }
  revert R. generalize (sha_compress sha_iv w). intros h R.
  rewrite (sha256_calculate P h sh_pad big) by (assumption || reflexivity || (repeat constructor; discriminate)).
  cbn [flat_map]. rewrite app_nil_r. apply join_digest; [intros k; apply compress_w|apply compress_len].
Qed.

(** ** What the circuit guarantees *)

(** What no constraint of one compression ensures (C81, C82): the absent
    copies, the sparse forms of the input state, and reduced outputs. *)
Definition sp_bound (P : params) (c : comp) (st wd : Z -> var) (row : Z) (T : table P) : Prop :=
  sat sha_lenv T (sp_missing P c st wd row) /\ sparse_ok P c st row T /\ (forall k, 0 <= k < 8 -> fval (vval T (sp_out c row k)) < 2 ^ 32).
(** The copies that [generate_copy_constraints] (lines 383-391) leaves out:
    the last but one row repeats the final state. *)
Definition sh_missing (P : params) (c : comp) (row : Z) : list (cmd P) :=
  map (fun k => Copy (wcell (W c k) (row + 1530)) (sh_state c row k)) (zseq 0 8).
Definition sh_bound (P : params) (c : comp) (row : Z) (T : table P) : Prop :=
  fval (vval T (sh_wd1 c row 0)) < 2 ^ 32 /\ sat sha_lenv T (sh_missing P c row) /\
  sp_bound P (sh_sub c) (sh_st1 c row) (sh_wd1 c row) (row + 6) T /\
  sp_bound P (sh_sub c) (sh_st2 c row) (sh_wd2 c row) (row + 768) T.

Theorem sha256_sound_with_missing_copies : forall P c b row (T : table P), 2 ^ 128 < char P -> wf_comp c 9 ->
  sat sha_lenv T (sh_circuit c b row) -> sh_bound P c row T ->
  (forall k, 0 <= k < 4 -> fval (vval T (b k)) < 2 ^ 128) /\
  be_bytes 16 (fval (vval T (sh_out c row 0))) ++ be_bytes 16 (fval (vval T (sh_out c row 1))) = sha256 (sh_message P b T).
Proof.
  intros P c b row T big wf S [W0 [Mc [[M1 [SP1 O1]] [M2 [SP2 O2]]]]].
  apply sh_circuit_app in S. destruct S as [S G]. rewrite !sat_app in S. destruct S as [Sk [D1 [D2 [S1 S2]]]].
  assert (Iv : forall k, 0 <= k < 8 -> vval T (sh_st1 c row k) = ofZ (znth 0 sha_iv k)).
  { intros k Hk. refine (Sk (SetConst (C c 0) (row + k) (ofZ (znth 0 sh_iv k))) _). unfold sh_consts. apply in_or_app. left. apply in_map_iff.
    exists k. split; [reflexivity|apply in_zseq, Hk]. }
  assert (Pd : forall k, 0 <= k < 16 -> vval T (sh_wd2 c row k) = ofZ (znth 0 sh_pad k)).
  { intros k Hk. refine (Sk (SetConst (C c 0) (row + 8 + k) (ofZ (znth 0 sh_pad k))) _). unfold sh_consts. apply in_or_app. right. apply in_map_iff.
    exists k. split; [reflexivity|apply in_zseq, Hk]. }
  assert (sm : forall x, 0 <= x < 2 ^ 32 -> fval (ofZ x : F P) = x) by (intros x Hx; apply fval_ofZ_small; lia).
  assert (I0 : isw (fval (vval T (sh_wd1 c row 0)))) by (split; [apply fval_range|exact W0]).
  assert (Wk : forall k, 0 <= k < 16 -> fval (vval T (sh_wd1 c row k)) < 2 ^ 32).
  { intros k Hk. pose proof (proj1 (sp_view_iff P (sh_sub c) (sh_st1 c row) (sh_wd1 c row) (row + 6) T) S1) as V.
    destruct (schedule_words P big _ _ _ _ T V I0 k ltac:(lia)) as [E I]. rewrite wv_lo in E by lia. rewrite E, sm; [apply I|exact I]. }
  assert (d1 : forall k, 0 <= k < 8 -> fval (vval T (dec_out (sh_sub c) row k)) < 2 ^ 32).
  { intros k Hk. pose proof (Wk k ltac:(lia)) as X. unfold sh_wd1 in X. rewrite (proj2 (Z.ltb_lt k 8)) in X by lia. exact X. }
  assert (d2 : forall k, 0 <= k < 8 -> fval (vval T (dec_out (sh_sub c) (row + 3) k)) < 2 ^ 32).
  { intros k Hk. pose proof (Wk (k + 8) ltac:(lia)) as X. unfold sh_wd1 in X. rewrite (proj2 (Z.ltb_ge (k + 8) 8)) in X by lia. rewrite Z.add_simpl_r in X. exact X. }
  destruct (dec_out_sound P big _ _ _ _ _ T D1 d1) as [A0 [A1 E1]]. destruct (dec_out_sound P big _ _ _ _ _ T D2 d2) as [A2 [A3 E2]].
  split.
  { intros k Hk. assert (C4 : k = 0 \/ k = 1 \/ k = 2 \/ k = 3) by lia. destruct C4 as [->|[->|[->| ->]]]; assumption. }
  assert (Ew : in_words P (sh_wd1 c row) T = blk P b T).
  { unfold in_words. transitivity (map (znth 0 (blk P b T)) (zseq 0 16)); [|unfold blk; apply map_ext_in; intros k Hk; apply in_zseq in Hk; rewrite znth_map_zseq by lia; reflexivity].
    apply map_ext_in. intros k Hk. apply in_zseq in Hk. unfold sh_wd1. destruct (Z.ltb_spec k 8) as [H|H].
    - rewrite E1 by lia. destruct (Z.ltb_spec k 4).
      + change k with (4 * 0 + k) at 2. rewrite blk_at, in_nums_at by lia. reflexivity.
      + replace k with (4 * 1 + (k - 4)) at 2 by lia. rewrite blk_at, in_nums_at by lia. f_equal. lia.
    - rewrite E2 by lia. destruct (Z.ltb_spec (k - 8) 4).
      + replace k with (4 * 2 + (k - 8)) at 2 by lia. rewrite blk_at, in_nums_at by lia. reflexivity.
      + replace k with (4 * 3 + (k - 12)) at 2 by lia. rewrite blk_at, in_nums_at by lia. f_equal. lia. }
  assert (Es : in_state P (sh_st1 c row) T = sha_iv).
  { unfold in_state. transitivity (map (znth 0 sha_iv) (zseq 0 8)); [|reflexivity].
    apply map_ext_in. intros k Hk. apply in_zseq in Hk. rewrite Iv by lia. apply sm. exact (words_at sha_iv k ltac:(repeat constructor; discriminate)). }
  assert (Ep : in_words P (sh_wd2 c row) T = sh_pad).
  { unfold in_words. transitivity (map (znth 0 sh_pad) (zseq 0 16)); [|reflexivity].
    apply map_ext_in. intros k Hk. apply in_zseq in Hk. rewrite Pd by lia. apply sm. exact (words_at sh_pad k ltac:(repeat constructor; discriminate)). }
  assert (R1 : map (fun k => fval (vval T (sp_out (sh_sub c) (row + 6) k))) (zseq 0 8) = st_1 P b T).
  { unfold st_1. rewrite <- Ew, <- Es. apply (sha256_process_sound_with_missing_copies P _ _ _ _ T big); try assumption.
    intros k Hk. rewrite Iv by exact Hk. rewrite sm; exact (proj2 (words_at sha_iv k ltac:(repeat constructor; discriminate))) || exact (words_at sha_iv k ltac:(repeat constructor; discriminate)). }
  assert (R2 : map (fun k => fval (vval T (sh_state c row k))) (zseq 0 8) = st_2 P b T).
  { unfold st_2. rewrite <- Ep, <- R1. apply (sha256_process_sound_with_missing_copies P _ _ _ _ T big); try assumption.
    rewrite Pd by lia. rewrite sm by (split; [discriminate|reflexivity]). reflexivity. }
  assert (R : forall k, 0 <= znth 0 (st_2 P b T) k < 2 ^ 32) by (intros k; apply compress_w).
  assert (Rl : length (st_2 P b T) = 8%nat) by (apply compress_len).
  unfold sha256. rewrite sh_digest. revert R2 R Rl. generalize (st_2 P b T) as s. intros s R2 R Rl.
  assert (V : forall k, 0 <= k < 8 -> T CWit (W c k) (row + 1530) = ofZ (znth 0 s k)).
  { intros k Hk. assert (X : holds sha_lenv T (Copy (wcell (W c k) (row + 1530)) (sh_state c row k) : cmd P)).
    { apply Mc. apply in_map_iff. exists k. split; [reflexivity|apply in_zseq, Hk]. }
    cbn [holds] in X. rewrite vval_wcell in X. rewrite X, <- R2, znth_map_zseq by lia. rewrite ofZ_fval. reflexivity. }
  apply sh_gate_iff in G. destruct G as [G1 G0].
  rewrite !sh_out_at. replace (row + 1530 + 1) with (row + 1531) by lia.
  destruct (last_digest P (fun k => T CWit (W c k) (row + 1530)) s _ _ big V R Rl G0 G1) as [-> ->]. apply join_digest; assumption.
Qed.

(** The honest table has all of it. *)
Lemma bound_agree : forall P c st wd row (T U : table P), (forall k o, 0 <= o < 762 -> U CWit (W c k) (row + o) = T CWit (W c k) (row + o)) ->
  (forall k, 0 <= k < 8 -> vval U (st k) = vval T (st k)) -> (forall k, 0 <= k < 16 -> vval U (wd k) = vval T (wd k)) ->
  sp_bound P c st wd row T -> sp_bound P c st wd row U.
Proof.
  intros P c st wd row T U A As Aw [M [SP O]]. split; [|split].
  - assert (X : forall v w, vval U v = vval T v -> vval U w = vval T w -> holds sha_lenv T (Copy v w : cmd P) -> holds sha_lenv U (Copy v w : cmd P)).
    { intros v w E1 E2. cbn [holds]. rewrite E1, E2. auto. }
    intros x Hx. pose proof (M x Hx) as Mx. revert Mx. unfold sp_missing in Hx. apply in_app_or in Hx. destruct Hx as [Hx|Hx].
    + apply in_flat_map in Hx. destruct Hx as [r [Hr Hx]]. apply in_zseq in Hr.
      destruct Hx as [<-|[<-|[<-|[]]]]; apply X; rewrite ?vval_wcell; try (apply A; lia); unfold d_src, h_src, w_src;
        match goal with |- context [?a <? ?n] => destruct (Z.ltb_spec a n) end; try (apply As; lia); try (apply Aw; lia); rewrite !vval_wcell; apply A; lia.
    + destruct Hx as [<-|[<-|[<-|[<-|[]]]]]; apply X; rewrite ?vval_wcell; try (apply A; lia); try (apply As; lia).
  - unfold sparse_ok in SP |- *. rewrite !A by lia.
    assert (E : in_state P st U = in_state P st T).
    { unfold in_state. apply map_ext_in. intros k Hk. apply in_zseq in Hk. rewrite As by lia. reflexivity. }
    rewrite E. exact SP.
  - intros k Hk. pose proof (O k Hk) as X. unfold sp_out in X |- *. change sp_rows with 762 in X |- *. destruct (k <? 4); rewrite vval_wcell in X |- *;
      [replace (row + 762 - 7) with (row + 755) in X |- * by lia|replace (row + 762 - 5) with (row + 757) in X |- * by lia]; rewrite A by lia; exact X.
Qed.

Lemma bound_1 : forall P c b row (T : table P), sh_setup P c b row T ->
  sp_bound P (sh_sub c) (sh_st1 c row) (sh_wd1 c row) (row + 6) (T3 P c b row T).
Proof.
  intros P c b row T [big [wf [Ob [Hb K]]]]. pose proof (setup_1 P big c wf b row T Ob Hb K) as S1.
  destruct (sha256_process_missing_copies_hold _ _ _ _ _ _ S1) as [M SP]. split; [exact M|]. split; [exact SP|].
  intros k Hk. destruct (sp_1 P big c wf b row T Ob Hb K) as [_ O].
  replace (fval (vval (T3 P c b row T) (sp_out (sh_sub c) (row + 6) k))) with (znth 0 (st_1 P b T) k) by (rewrite <- O, znth_map_zseq by lia; reflexivity).
  apply compress_w.
Qed.
Lemma bound_2 : forall P c b row (T : table P), sh_setup P c b row T ->
  sp_bound P (sh_sub c) (sh_st2 c row) (sh_wd2 c row) (row + 768) (T4 P c b row T).
Proof.
  intros P c b row T [big [wf [Ob [Hb K]]]]. pose proof (setup_2 P big c wf b row T Ob Hb K) as S1.
  destruct (sha256_process_missing_copies_hold _ _ _ _ _ _ S1) as [M SP]. split; [exact M|]. split; [exact SP|].
  intros k Hk. destruct (sp_2 P big c wf b row T Ob Hb K) as [_ O].
  replace (fval (vval (T4 P c b row T) (sp_out (sh_sub c) (row + 768) k))) with (znth 0 (st_2 P b T) k) by (rewrite <- O, znth_map_zseq by lia; reflexivity).
  apply compress_w.
Qed.

(** A change confined to the last two rows keeps what the compressions have. *)
Lemma bound_upper : forall P c b row (T U : table P), sh_setup P c b row T -> frame c 2 (row + 1530) (T4 P c b row T) U ->
  fval (vval U (sh_wd1 c row 0)) < 2 ^ 32 /\
  sp_bound P (sh_sub c) (sh_st1 c row) (sh_wd1 c row) (row + 6) U /\ sp_bound P (sh_sub c) (sh_st2 c row) (sh_wd2 c row) (row + 768) U.
Proof.
  intros P c b row T U St FU. pose proof (bound_1 P c b row T St) as B1. pose proof (bound_2 P c b row T St) as B2.
  destruct St as [big [wf [Ob [Hb K]]]].
  pose proof (setup_1 P big c wf b row T Ob Hb K) as [_ [_ [_ [Hw _]]]].
  assert (F3 : frame c 764 (row + 768) (T3 P c b row T) U).
  { eapply frame_trans; [eapply frame_sub; [| |exact (f4_ P c wf b row T)]; lia|]. eapply frame_sub; [| |exact FU]; lia. }
  assert (F2 : frame c 1526 (row + 6) (T2 P c b row T) U).
  { eapply frame_trans; [eapply frame_sub; [| |exact (f3_ P c wf b row T)]; lia|]. eapply frame_sub; [| |exact F3]; lia. }
  assert (Wo : forall n r k, row + 6 <= r -> outside c n r (sh_wd1 c row k)).
  { intros n r k Hr. unfold sh_wd1. destruct (k <? 8); intros [_ [_ X]]; unfold dec_out in X; cbn [wcell vrot] in X; lia. }
  split; [|split].
  - rewrite (vval_frame P c 1526 (row + 6) _ U _ F2) by (apply Wo; lia). apply (Hw 0). lia.
  - revert B1. apply bound_agree.
    + intros k o Ho. apply F3. intros [_ [_ X]]. lia.
    + intros k Hk. apply (vval_frame P c _ _ _ _ _ F3). intros [X _]. discriminate.
    + intros k Hk. apply (vval_frame P c _ _ _ _ _ F3). apply Wo. lia.
  - revert B2. apply bound_agree.
    + intros k o Ho. apply FU. intros [_ [_ X]]. lia.
    + intros k Hk. apply (vval_frame P c _ _ _ _ _ FU). intros [_ [_ X]]. pose proof (proj1 (sp_out_row (sh_sub c) (row + 6) k)). unfold sh_st2 in X. lia.
    + intros k Hk. apply (vval_frame P c _ _ _ _ _ FU). intros [X _]. discriminate.
Qed.

Theorem sha256_missing_copies_hold : forall P c b row (T : table P), sh_setup P c b row T -> sh_bound P c row (sh_assign c b row T).
Proof.
  intros P c b row T St. rewrite sh_assign_eq.
  pose proof (fun U => bound_upper P c b row T U St) as B. destruct St as [big [wf _]]. revert B. generalize (T4 P c b row T) as U. intros U B.
  set (v := fun i => vval U (sh_state c row i)).
  assert (FU : frame c 2 (row + 1530) U (put c (row + 1530) 2 (sh_last v) U)) by apply put_frame.
  destruct (B _ FU) as [B0 [B1 B2]]. split; [exact B0|]. split; [|split; [exact B1|exact B2]].
  intros x Hx. apply in_map_iff in Hx. destruct Hx as [k [<- Hk]]. apply in_zseq in Hk. cbn [holds]. rewrite vval_wcell.
  rewrite (vval_frame P c _ _ _ _ (sh_state c row k) FU).
  - rewrite <- (Z.add_0_r (row + 1530)) at 2. apply (put_at P c (row + 1530) 2 _ U 0 k _ wf); [lia|lia|].
    unfold sh_last. cbn [Z.eqb]. rewrite (proj2 (Z.ltb_lt k 8)) by lia. reflexivity.
  - intros [_ [_ X]]. pose proof (proj1 (sp_out_row (sh_sub c) (row + 768) k)). unfold sh_state in X. lia.
Qed.

(** ** The circuit alone does not bind the output *)

Definition sh_bad (P : params) (y0 y1 : F P) (o k : Z) : option (F P) :=
  if o =? 0 then Some (if k =? 3 then y0 else if k =? 7 then y1 else f0)
  else if k =? 0 then Some y0 else if k =? 1 then Some y1 else None.

Section ShBad.
Variable P : params.
Notation F := (F P).
Add Field Ff2 : (F_field P) (morphism (F_morph P), constants [F_const], power_tac (F_power P) [F_pow_tac]).
Lemma sh_zero : forall y : F, y = fadd (fadd (fadd y (fmul f0 (ofZ (2 ^ 32)))) (fmul f0 (ofZ (2 ^ 64)))) (fmul f0 (ofZ (2 ^ 96))).
Proof. intros y. generalize (ofZ (2 ^ 32) : F). generalize (ofZ (2 ^ 64) : F). generalize (ofZ (2 ^ 96) : F). intros. ring. Qed.
End ShBad.

(** Whatever the message, any two field elements are accepted as its digest,
    even when both compressions are bound. *)
Theorem sha256_sound_refuted : forall P c b row (T : table P), sh_setup P c b row T -> forall y0 y1 : F P,
  exists T', frame c sh_rows row T T' /\ sat sha_lenv T' (sh_circuit c b row) /\
    sp_bound P (sh_sub c) (sh_st1 c row) (sh_wd1 c row) (row + 6) T' /\ sp_bound P (sh_sub c) (sh_st2 c row) (sh_wd2 c row) (row + 768) T' /\
    vval T' (sh_out c row 0) = y0 /\ vval T' (sh_out c row 1) = y1.
Proof.
  intros P c b row T St y0 y1. pose proof (fun U => bound_upper P c b row T U St) as B. destruct St as [big [wf [Ob [Hb K]]]].
  pose proof (upper_sat P big c wf b row T Ob Hb K) as S. pose proof (f14 P c wf b row T) as Fr.
  revert B S Fr. generalize (T4 P c b row T) as U. intros U B S Fr.
  assert (FU : frame c 2 (row + 1530) U (put c (row + 1530) 2 (sh_bad P y0 y1) U)) by apply put_frame.
  assert (A : forall o k w, 0 <= o < 2 -> 0 <= k < 9 -> sh_bad P y0 y1 o k = Some w -> put c (row + 1530) 2 (sh_bad P y0 y1) U CWit (W c k) (row + 1530 + o) = w).
  { intros o k w Ho Hk E. apply (put_at P c (row + 1530) 2 _ U o k w wf Ho Hk E). }
  revert FU A. generalize (put c (row + 1530) 2 (sh_bad P y0 y1) U). intros T' FU A.
  assert (A0 : forall k w, 0 <= k < 9 -> sh_bad P y0 y1 0 k = Some w -> T' CWit (W c k) (row + 1530) = w).
  { intros k w Hk E. rewrite <- (Z.add_0_r (row + 1530)). apply A; [lia|exact Hk|exact E]. }
  assert (B0 := A 1 0 _ ltac:(lia) ltac:(lia) eq_refl). assert (B1 := A 1 1 _ ltac:(lia) ltac:(lia) eq_refl).
  exists T'. split.
  { change sh_rows with 1532. eapply frame_trans; [eapply frame_sub; [| |exact Fr]; lia|]. eapply frame_sub; [| |exact FU]; lia. }
  split.
  { apply sh_circuit_app. split; [exact (S T' FU)|]. apply sh_gate_iff. replace (row + 1531) with (row + 1530 + 1) by lia. rewrite B0, B1.
    rewrite (A0 0 _ ltac:(lia) eq_refl), (A0 1 _ ltac:(lia) eq_refl), (A0 2 _ ltac:(lia) eq_refl), (A0 3 _ ltac:(lia) eq_refl),
      (A0 4 _ ltac:(lia) eq_refl), (A0 5 _ ltac:(lia) eq_refl), (A0 6 _ ltac:(lia) eq_refl), (A0 7 _ ltac:(lia) eq_refl).
    split; apply sh_zero. }
  destruct (B T' FU) as [_ [X1 X2]]. split; [exact X1|]. split; [exact X2|]. rewrite !sh_out_at. split; assumption.
Qed.

(** ** Examples *)

(** Two numbers as public inputs, and their eight words. *)
Definition dec_nums : list Z := [0x0102030405060708090a0b0c0d0e0f10; 0xffeeddccbbaa99887766554433221100].
Definition dec_tab : table Ppallas := intab Ppallas dec_nums.
Lemma intab_small : forall l k, Forall (fun x => 0 <= x < 2 ^ 128) l -> fval (vval (intab Ppallas l) (pin k)) = znth 0 l k /\ znth 0 l k < 2 ^ 128.
Proof.
  intros l k H. assert (B : 0 <= znth 0 l k < 2 ^ 128).
  { unfold znth. destruct (nth_in_or_default (Z.to_nat k) l 0) as [I| ->]; [|lia]. exact (proj1 (Forall_forall _ _) H _ I). }
  split; [|lia]. unfold vval, intab, pin. cbn [vty vidx vrot]. apply fval_ofZ_small. assert (2 ^ 128 < char Ppallas) by reflexivity. lia.
Qed.
Lemma dec_nums_ok : Forall (fun x => 0 <= x < 2 ^ 128) dec_nums.
Proof. repeat constructor; discriminate. Qed.
Example dec_setup_ex : dec_setup Ppallas (std_comp 9) (pin 0) (pin 1) 5 dec_tab /\
  fval (vval dec_tab (pin 0)) < 2 ^ 128 /\ fval (vval dec_tab (pin 1)) < 2 ^ 128.
Proof.
  split; [split; [reflexivity|]; split; [apply wf_std; lia|]; split; apply pin_outside|].
  unfold dec_tab. split; [rewrite (proj1 (intab_small dec_nums 0 dec_nums_ok))|rewrite (proj1 (intab_small dec_nums 1 dec_nums_ok))]; apply intab_small, dec_nums_ok.
Qed.
Example dec_words_ex : be_words (znth 0 dec_nums 0) (znth 0 dec_nums 1) =
  [0x01020304; 0x05060708; 0x090a0b0c; 0x0d0e0f10; 0xffeeddcc; 0xbbaa9988; 0x77665544; 0x33221100].
Proof. vm_compute. reflexivity. Qed.
(** The honest table has chunks below 2^16. *)
Lemma dec_honest_chunks : forall P c a b row (T : table P), dec_setup P c a b row T -> fval (vval T a) < 2 ^ 128 -> fval (vval T b) < 2 ^ 128 ->
  forall k, 0 <= k < 8 -> fval (dec_assign c a b row T CWit (W c k) row) < 2 ^ 16 /\ fval (dec_assign c a b row T CWit (W c k) (row + 2)) < 2 ^ 16.
Proof.
  intros P c a b row T [big [wf _]] Ha Hb k Hk. unfold dec_assign.
  assert (N0 : k =? 8 = false) by (apply Z.eqb_neq; lia).
  assert (E : forall o, o = 0 \/ o = 2 -> exists x, dec_cell (P := P) (fval (vval T a)) (fval (vval T b)) o k = Some (ofZ (dec_chunk x k))).
  { intros o [->| ->]; unfold dec_cell; cbn [Z.eqb]; rewrite N0; eexists; reflexivity. }
  destruct (E 0 (or_introl eq_refl)) as [x0 E0]. destruct (E 2 (or_intror eq_refl)) as [x2 E2].
  pose proof (put_at P c row dec_rows _ T 0 k _ wf ltac:(unfold dec_rows; lia) ltac:(lia) E0) as A0. rewrite Z.add_0_r in A0.
  pose proof (put_at P c row dec_rows _ T 2 k _ wf ltac:(unfold dec_rows; lia) ltac:(lia) E2) as A2. rewrite A0, A2.
  assert (R : forall x, 0 <= dec_chunk x k < 2 ^ 16).
  { intros x. unfold dec_chunk. change 65535 with (Z.ones 16). rewrite Z.land_ones by lia. apply Z.mod_pos_bound. reflexivity. }
  pose proof (R x0). pose proof (R x2). rewrite !fval_ofZ_small by lia. lia.
Qed.

(** The bytes 0, 1, ..., 63 as four public inputs; iv, padding and round
    constants in the constant column. *)
Definition sh_nums : list Z :=
  [0x000102030405060708090a0b0c0d0e0f; 0x101112131415161718191a1b1c1d1e1f; 0x202122232425262728292a2b2c2d2e2f; 0x303132333435363738393a3b3c3d3e3f].
Definition sh_tab : table Ppallas := fun ty col row =>
  match ty with
  | CPub => ofZ (znth 0 sh_nums row)
  | CConst => ofZ (if row <? 24 then znth 0 (sh_iv ++ sh_pad) row
                   else if row <? 768 then znth 0 round_constant ((row - 251) / 8) else znth 0 round_constant ((row - 1013) / 8))
  | _ => f0
  end.
Lemma sh_nums_ok : Forall (fun x => 0 <= x < 2 ^ 128) sh_nums.
Proof. repeat constructor; discriminate. Qed.
Lemma sh_nums_at : forall k, fval (vval sh_tab (pin k)) = znth 0 sh_nums k /\ znth 0 sh_nums k < 2 ^ 128.
Proof. intros k. exact (intab_small sh_nums k sh_nums_ok). Qed.

Lemma sp_setconst : forall P c st wd row col r v, In (SetConst col r v : cmd P) (sp_circuit c st wd row) ->
  exists i, 0 <= i < 64 /\ r = row + 245 + i * 8 /\ v = ofZ (znth 0 round_constant i).
Proof.
  intros P c st wd row col r v H. unfold sp_circuit in H. apply in_app_or in H. destruct H as [H|H].
  - apply in_map_iff in H. destruct H as [i [E Hi]]. apply in_zseq in Hi.
    assert (Er := f_equal (fun x => match x with SetConst _ a _ => a | _ => 0 end) E).
    assert (Ev := f_equal (fun x => match x with SetConst _ _ a => a | _ => f0 end) E). cbv beta iota in Er, Ev.
    exists i. split; [exact Hi|]. split; [symmetry; exact Er|symmetry; exact Ev].
  - exfalso. apply in_app_or in H. destruct H as [H|H].
    * unfold sp_gates in H. repeat (destruct H as [H|H]; [discriminate|]). destruct H.
    * unfold sp_copies in H. repeat (apply in_app_or in H; destruct H as [H|H]).
      all: try (apply in_map_iff in H; destruct H as [x [E _]]; discriminate).
      all: try (repeat (destruct H as [H|H]; [discriminate|]); destruct H; fail).
Qed.
Lemma sh_setconst : forall P c b row col r v, In (SetConst col r v : cmd P) (sh_circuit c b row) ->
  (exists i, 0 <= i < 8 /\ r = row + i /\ v = ofZ (znth 0 sh_iv i)) \/ (exists i, 0 <= i < 16 /\ r = row + 8 + i /\ v = ofZ (znth 0 sh_pad i)) \/
  (exists i, 0 <= i < 64 /\ r = row + 251 + i * 8 /\ v = ofZ (znth 0 round_constant i)) \/
  (exists i, 0 <= i < 64 /\ r = row + 1013 + i * 8 /\ v = ofZ (znth 0 round_constant i)).
Proof.
  intros P c b row col r v H. unfold sh_circuit in H. apply in_app_or in H. destruct H as [H|H].
  - unfold sh_consts in H. apply in_app_or in H. destruct H as [H|H]; apply in_map_iff in H; destruct H as [i [E Hi]]; apply in_zseq in Hi;
      assert (Er := f_equal (fun x => match x with SetConst _ a _ => a | _ => 0 end) E);
      assert (Ev := f_equal (fun x => match x with SetConst _ _ a => a | _ => f0 end) E); cbv beta iota in Er, Ev; symmetry in Er, Ev.
    + left. exists i. auto.
    + right. left. exists i. auto.
  - apply in_app_or in H. destruct H as [H|H]; [repeat (destruct H as [H|H]; [discriminate|]); destruct H|].
    apply in_app_or in H. destruct H as [H|H]; [repeat (destruct H as [H|H]; [discriminate|]); destruct H|].
    apply in_app_or in H. destruct H as [H|H]; [|apply in_app_or in H; destruct H as [H|H]; [|destruct H as [H|[]]; discriminate]].
    + right. right. left. apply sp_setconst in H. destruct H as [i [Hi [Hr Hv]]]. exists i. split; [exact Hi|]. split; [lia|exact Hv].
    + right. right. right. apply sp_setconst in H. destruct H as [i [Hi [Hr Hv]]]. exists i. split; [exact Hi|]. split; [lia|exact Hv].
Qed.

Example sh_setup_ex : sh_setup Ppallas (std_comp 9) pin 0 sh_tab.
Proof.
  split; [reflexivity|]. split; [apply wf_std; lia|]. split; [|split].
  - intros k Hk. apply pin_outside.
  - intros k Hk. destruct (sh_nums_at k) as [-> H]. exact H.
  - intros col r v H. apply sh_setconst in H. unfold sh_tab. destruct H as [H|[H|[H|H]]]; destruct H as [i [Hi [-> ->]]]; apply (f_equal ofZ).
    + rewrite (proj2 (Z.ltb_lt _ _)) by lia. rewrite Z.add_0_l. rewrite znth_l by (change (zlen sh_iv) with 8; lia). reflexivity.
    + rewrite (proj2 (Z.ltb_lt _ _)) by lia. rewrite znth_r by (change (zlen sh_iv) with 8; lia). f_equal. change (zlen sh_iv) with 8. lia.
    + rewrite (proj2 (Z.ltb_ge _ _)) by lia. rewrite (proj2 (Z.ltb_lt _ _)) by lia. f_equal. replace (0 + 251 + i * 8 - 251) with (i * 8) by lia. apply Z.div_mul. lia.
    + rewrite (proj2 (Z.ltb_ge _ _)) by lia. rewrite (proj2 (Z.ltb_ge _ _)) by lia. f_equal. replace (0 + 1013 + i * 8 - 1013) with (i * 8) by lia. apply Z.div_mul. lia.
Qed.
Example sh_message_ex : sh_message Ppallas pin sh_tab = zseq 0 64.
Proof.
  unfold sh_message. change (zseq 0 4) with [0; 1; 2; 3]. cbn [flat_map]. rewrite !(fun k => proj1 (sh_nums_at k)). vm_compute. reflexivity.
Qed.
(** The digest of these bytes, as computed by other implementations. *)
Example sh_digest_ex : be_val (sha256 (zseq 0 64)) = 0xfdeab9acf3710362bd2658cdc9a29e8f9c757fcf9811603a8c447cd1d9151108.
Proof. vm_compute. reflexivity. Qed.
Example sh_honest_ex : let T' := sh_assign (std_comp 9) pin 0 sh_tab in
  be_val (be_bytes 16 (fval (vval T' (sh_out (std_comp 9) 0 0))) ++ be_bytes 16 (fval (vval T' (sh_out (std_comp 9) 0 1)))) =
  0xfdeab9acf3710362bd2658cdc9a29e8f9c757fcf9811603a8c447cd1d9151108.
Proof.
  cbv zeta. destruct (sha256_complete _ _ _ _ _ sh_setup_ex) as [_ [_ E]]. rewrite sh_message_ex in E. rewrite <- sh_digest_ex. exact (f_equal be_val E).
Qed.
Example sh_bound_ex : sh_bound Ppallas (std_comp 9) 0 (sh_assign (std_comp 9) pin 0 sh_tab).
Proof. exact (sha256_missing_copies_hold _ _ _ _ _ sh_setup_ex). Qed.
(** A satisfying table for these bytes with the all-zero digest. *)
Theorem sha256_wrong_digest_refuted : exists T', sat sha_lenv T' (sh_circuit (std_comp 9) pin 0) /\ sh_message Ppallas pin T' = zseq 0 64 /\
  be_bytes 16 (fval (vval T' (sh_out (std_comp 9) 0 0))) ++ be_bytes 16 (fval (vval T' (sh_out (std_comp 9) 0 1))) <> sha256 (zseq 0 64).
Proof.
  destruct (sha256_sound_refuted _ _ _ _ _ sh_setup_ex f0 f0) as [T' [Fr [S [_ [_ [E0 E1]]]]]]. exists T'. split; [exact S|]. split.
  - rewrite <- sh_message_ex. unfold sh_message. rewrite !flat_map_concat_map. apply (f_equal (@concat Z)). apply map_ext. intros k.
    rewrite (vval_frame _ _ _ _ _ _ _ Fr (pin_outside _ _ _ _)). reflexivity.
  - rewrite E0, E1. intros E. apply (f_equal be_val) in E. rewrite sh_digest_ex in E. vm_compute in E. discriminate.
Qed.

Print Assumptions decomposition_calculate.
Print Assumptions decomposition_complete.
Print Assumptions decomposition_sound_with_range_checks.
Print Assumptions decomposition_sound_refuted.
Print Assumptions sha256_hash_calculate.
Print Assumptions sha256_complete.
Print Assumptions sha256_missing_copies_hold.
Print Assumptions sha256_sound_with_missing_copies.
Print Assumptions sha256_sound_refuted.
Print Assumptions sha256_wrong_digest_refuted.
