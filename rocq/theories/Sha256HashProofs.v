(** sha256.hpp: composition of the two decompositions and the two
    compressions, and the digest as bytes. *)
From Coq Require Import ZArith List Lia Bool.
From Verif Require Import Base Field Plonk PlonkFacts PvTape Sha256Spec Sha256Model Sha256Words Sha256View Sha256Sound Sha256Complete Props_Sha256 Sha256HashSpec Sha256HashModel Sha256Dec.
Import ListNotations.
Open Scope Z_scope.

(** ** The digest of four numbers *)

Lemma byte_word : forall x q j, 0 <= q -> 0 <= j < 4 -> word_of x q / 256 ^ j mod 256 = x / 256 ^ (4 * q + j) mod 256.
Proof.
  intros x q j Hq Hj. unfold word_of. replace (256 ^ (4 * q + j)) with (2 ^ (32 * q) * 256 ^ j).
  2: { change 256 with (2 ^ 8). rewrite <- !Z.pow_mul_r, <- Z.pow_add_r by lia. f_equal. lia. }
  rewrite <- Z.div_div by (try apply Z.pow_nonzero; try apply Z.pow_pos_nonneg; lia).
  generalize (x / 2 ^ (32 * q)). intros y. pose proof (Z.div_mod y (2 ^ 32) ltac:(lia)) as E. 
  set (k := y / 2 ^ 32) in *. set (r := y mod 2 ^ 32) in *. rewrite E.
  assert (K : exists m, 2 ^ 32 = 256 ^ j * (256 * m)).
  { exists (256 ^ (3 - j)). assert (J : j = 0 \/ j = 1 \/ j = 2 \/ j = 3) by lia. destruct J as [->|[->|[->| ->]]]; reflexivity. }
  destruct K as [m K]. rewrite K. 
  replace (256 ^ j * (256 * m) * k + r) with (r + m * k * 256 * 256 ^ j) by ring.
  rewrite Z.div_add by (apply Z.pow_nonzero; lia). rewrite Z.mod_add by lia. reflexivity.
Qed.

Lemma be4 : forall x k, 0 <= k ->
  be_val (map (fun j => x / 256 ^ (k + (3 - j)) mod 256) (zseq 0 4)) = x / 256 ^ k mod 2 ^ 32.
Proof.
  intros x k Hk. change (zseq 0 4) with [0; 1; 2; 3]. cbn [map be_val fold_left]. unfold be_val. cbn [fold_left].
  change (3 - 0) with 3. change (3 - 1) with 2. change (3 - 2) with 1. change (3 - 3) with 0. rewrite Z.add_0_r.
  rewrite !(Z.pow_add_r 256 k) by lia. rewrite <- !Z.div_div by (try apply Z.pow_nonzero; lia).
  generalize (x / 256 ^ k). intros y. change (256 ^ 3) with 16777216. change (256 ^ 2) with 65536. change (256 ^ 1) with 256.
  assert (A : y mod 2 ^ 32 = y mod 256 + 256 * (y / 256 mod 16777216)) by (rewrite <- mod_split by lia; reflexivity).
  assert (B : y / 256 mod 16777216 = y / 256 mod 256 + 256 * (y / 65536 mod 65536)).
  { change 16777216 with (256 * 65536). rewrite mod_split, Z.div_div by lia. reflexivity. }
  assert (D : y / 65536 mod 65536 = y / 65536 mod 256 + 256 * (y / 16777216 mod 256)).
  { transitivity (y / 65536 mod (256 * 256)); [reflexivity|]. rewrite mod_split, Z.div_div by lia. reflexivity. }
  rewrite A, B, D. lia.
Qed.

Lemma zlen_be : forall n x, 0 <= n -> zlen (be_bytes n x) = n.
Proof. intros n x Hn. unfold be_bytes, zlen. rewrite map_length. fold (zlen (zseq 0 n)). rewrite zlen_zseq by lia. lia. Qed.
Lemma znth_be : forall n x i, 0 <= i < n -> znth 0 (be_bytes n x) i = x / 256 ^ (n - 1 - i) mod 256.
Proof. intros n x i Hi. unfold be_bytes. rewrite znth_map_zseq by lia. rewrite Z.add_0_l. reflexivity. Qed.

(** The 64 bytes of four 128-bit numbers. *)
Definition msg_bytes (x : list Z) : list Z := flat_map (be_bytes 16) x.

Lemma zlen_msg : forall x, zlen (msg_bytes x) = 16 * zlen x.
Proof.
  induction x as [|y x IH]; [reflexivity|]. unfold msg_bytes in *. cbn [flat_map]. rewrite zlen_app, IH, zlen_be by lia.
  unfold zlen. cbn [length]. lia.
Qed.
Lemma znth_msg : forall x q j, 0 <= q < zlen x -> 0 <= j < 16 ->
  znth 0 (msg_bytes x) (16 * q + j) = znth 0 x q / 256 ^ (15 - j) mod 256.
Proof.
  induction x as [|y x IH]; intros q j Hq Hj; [unfold zlen in Hq; cbn in Hq; lia|]. unfold msg_bytes. cbn [flat_map]. fold (msg_bytes x).
  destruct (Z.eq_dec q 0) as [->|N].
  - rewrite znth_l by (rewrite zlen_be; lia). rewrite znth_be by lia. reflexivity.
  - rewrite znth_r by (rewrite zlen_be; lia). rewrite zlen_be by lia.
    replace (16 * q + j - 16) with (16 * (q - 1) + j) by lia. rewrite IH; [|unfold zlen in *; cbn [length] in Hq; lia|exact Hj].
    rewrite (znth_S _ _ _ _ q) by lia. reflexivity.
Qed.

Lemma msg_word : forall x q r, 0 <= q < zlen x -> 0 <= r < 4 -> be_word (msg_bytes x) (4 * q + r) = word_of (znth 0 x q) (3 - r).
Proof.
  intros x q r Hq Hr. unfold be_word, word_of.
  transitivity (be_val (map (fun j => znth 0 x q / 256 ^ (4 * (3 - r) + (3 - j)) mod 256) (zseq 0 4))).
  - f_equal. apply map_ext_in. intros j Hj. apply in_zseq in Hj.
    replace (4 * (4 * q + r) + j) with (16 * q + (4 * r + j)) by lia. rewrite znth_msg by lia. f_equal. f_equal. f_equal. lia.
  - rewrite be4 by lia. f_equal. f_equal. change 256 with (2 ^ 8). rewrite <- Z.pow_mul_r by lia. f_equal. lia.
Qed.

Lemma padded64 : forall l, zlen l = 64 ->
  sha_padded l = l ++ [128; 0; 0; 0] ++ map (fun _ => 0) (zseq 0 58) ++ [2; 0].
Proof. intros l H. unfold sha_padded. rewrite H. reflexivity. Qed.

Lemma sha256_64 : forall l, zlen l = 64 -> sha256_words l = sha_compress (sha_compress sha_iv (map (be_word l) (zseq 0 16))) sh_pad.
Proof.
  intros l Hl. unfold sha256_words. rewrite padded64 by exact Hl. cbv zeta. set (t := [128; 0; 0; 0] ++ _ ++ [2; 0]).
  assert (Ht : zlen t = 64) by reflexivity. rewrite zlen_app, Hl, Ht. change ((64 + 64) / 64) with 2. change (zseq 0 2) with [0; 1]. cbn [fold_left].
  assert (B0 : sha_block (l ++ t) 0 = map (be_word l) (zseq 0 16)).
  { unfold sha_block. apply map_ext_in. intros i Hi. apply in_zseq in Hi. unfold be_word. f_equal. apply map_ext_in. intros j Hj. apply in_zseq in Hj.
    rewrite znth_l by lia. reflexivity. }
  assert (B1 : sha_block (l ++ t) 1 = sh_pad).
  { transitivity (map (be_word t) (zseq 0 16)); [|reflexivity]. unfold sha_block. apply map_ext_in. intros i Hi. apply in_zseq in Hi.
    unfold be_word. f_equal. apply map_ext_in. intros j Hj. apply in_zseq in Hj. rewrite znth_r by lia. f_equal. lia. }
  rewrite B0, B1. reflexivity.
Qed.

Lemma join_bytes : forall a b c d, 0 <= a < 2 ^ 32 -> 0 <= b < 2 ^ 32 -> 0 <= c < 2 ^ 32 -> 0 <= d < 2 ^ 32 ->
  be_bytes 16 (a + b * 2 ^ 32 + c * 2 ^ 64 + d * 2 ^ 96) = be_bytes 4 d ++ be_bytes 4 c ++ be_bytes 4 b ++ be_bytes 4 a.
Proof.
  intros a b c d Ha Hb Hc Hd. destruct (word_uniq a b c d Ha Hb Hc Hd) as [A [B [C D]]]. cbv zeta in A, B, C, D.
  set (x := a + _ + _ + _) in *. clearbody x. rewrite <- A, <- B, <- C, <- D. clear.
  unfold be_bytes. change (zseq 0 16) with [0; 1; 2; 3; 4; 5; 6; 7; 8; 9; 10; 11; 12; 13; 14; 15]. change (zseq 0 4) with [0; 1; 2; 3].
  cbn [map app]. rewrite !byte_word by lia. reflexivity.
Qed.

(** ** The instances *)

Lemma sub_ws : forall c, wf_comp c 9 -> cWs (sh_sub c) = cWs c.
Proof.
  intros c [_ [H _]]. unfold sh_sub. cbn [cWs]. unfold W, cidx, wamount in *. rewrite H. revert H. generalize (cWs c). intros l H.
  do 9 (destruct l as [|? l]; [discriminate|]). destruct l; [reflexivity|]. exfalso. unfold zlen in H. cbn [length] in H. lia.
Qed.
Lemma sub_W : forall c k, wf_comp c 9 -> W (sh_sub c) k = W c k.
Proof. intros c k wf. unfold W. rewrite sub_ws by exact wf. reflexivity. Qed.
Lemma sub_C : forall c, C (sh_sub c) 0 = C c 0.
Proof. reflexivity. Qed.
Lemma sub_wf : forall c, wf_comp c 9 -> wf_comp (sh_sub c) 9.
Proof. intros c wf. unfold wf_comp, wamount. rewrite sub_ws by exact wf. exact wf. Qed.
Lemma sub_area : forall c n r ty col q, wf_comp c 9 -> in_area (sh_sub c) n r ty col q <-> in_area c n r ty col q.
Proof. intros c n r ty col q wf. unfold in_area. rewrite sub_ws by exact wf. reflexivity. Qed.
Lemma sub_frame : forall P c n r (T T' : table P), wf_comp c 9 -> frame (sh_sub c) n r T T' -> frame c n r T T'.
Proof. intros P c n r T T' wf H ty col q N. apply H. rewrite sub_area by exact wf. exact N. Qed.
Lemma sub_outside : forall c n r v, wf_comp c 9 -> outside c n r v -> outside (sh_sub c) n r v.
Proof. intros c n r v wf H. unfold outside. rewrite sub_area by exact wf. exact H. Qed.

(** ** Cells read by the compression *)

Lemma sel_bounds : forall b e step r, 0 < step -> b <= e -> In r (sel_rows b e step) -> b <= r <= e.
Proof.
  intros b e step r Hs He H. apply sel_iff in H; [|assumption..]. destruct H as [k [Hk ->]].
  pose proof (Z.mul_div_le (e - b) step Hs). nia.
Qed.

Section SpReads.
Variable P : params.
Variable c : comp.
Variables (st wd : Z -> var) (row : Z).
Variable Q : ctype -> Z -> Z -> Prop.
Hypothesis HQ : forall k o, 0 <= o < 762 -> Q CWit (W c k) (row + o).
Hypothesis HC : forall col r, Q CConst col r.
Hypothesis Hst : forall k, 0 <= k < 8 -> var_reads Q (st k).
Hypothesis Hwd : forall k, 0 <= k < 16 -> var_reads Q (wd k).

Lemma Qr : forall k r, row <= r < row + 762 -> Q CWit (W c k) r.
Proof. intros k r Hr. replace r with (row + (r - row)) by lia. apply HQ. lia. Qed.
Lemma Qv : forall k o, 0 <= o < 762 -> var_reads Q (wcell (W c k) (row + o)).
Proof. intros. unfold var_reads. cbn [wcell vty vidx vrot]. apply HQ. lia. Qed.

Ltac eread := cbn [expr_reads]; repeat apply conj;
  first [apply reads_ecst|apply reads_wv; apply Qr; lia|intros v [<-|[]]; apply HC].
Ltac gread := let r := fresh "r" in let Hr := fresh "Hr" in let e := fresh "e" in let He := fresh "He" in
  intros r Hr e He; apply sel_bounds in Hr; [|lia..];
  match type of He with In _ (?g _ _) => unfold g in He | In _ (?g _) => unfold g in He end; cbn [In] in He;
  repeat (destruct He as [<-|He]; [eread|]); destruct He.
Ltac lread := let r := fresh "r" in let Hr := fresh "Hr" in let t := fresh "t" in let es := fresh "es" in let Hes := fresh "Hes" in
  let e := fresh "e" in let He := fresh "He" in
  intros r Hr t es Hes e He; apply sel_bounds in Hr; [|lia..];
  match type of Hes with In _ (?g _ _) => unfold g in Hes | In _ (?g _) => unfold g in Hes end; cbn [In] in Hes;
  repeat (destruct Hes as [Hes|Hes]; [injection Hes as <- <-; cbn [In] in He; repeat (destruct He as [<-|He]; [eread|]); destruct He|]); destruct Hes.

Lemma sp_gates_reads : reads Q (sp_gates P c row).
Proof.
  unfold sp_gates. cbv zeta. rewrite !reads_cons. repeat apply conj; [..|apply reads_nil].
  all: cbn [cmd_reads]; first [gread|lread].
Qed.
Lemma sp_copies_reads : reads Q (sp_copies P c st wd row).
Proof.
  unfold sp_copies. rewrite !reads_app. repeat apply conj.
  all: first
    [ apply reads_map; intros i Hi; apply in_zseq in Hi; split; [apply Qv; lia|apply Hwd; lia]
    | apply reads_flat; intros i Hi; apply in_zseq in Hi;
      rewrite ?reads_app; repeat apply conj;
      repeat match goal with |- context [?a <=? ?b] => destruct (Z.leb_spec a b) end;
      rewrite ?reads_cons; repeat apply conj; try apply reads_nil; cbn [cmd_reads];
      first [apply Qv; lia|apply Hst; lia]
    | rewrite !reads_cons; repeat apply conj; try apply reads_nil; apply Qv; lia
    | idtac ].
Qed.
Lemma sp_reads : reads Q (sp_circuit (P := P) c st wd row).
Proof.
  unfold sp_circuit. rewrite !reads_app. split; [|split; [exact sp_gates_reads|exact sp_copies_reads]].
  unfold sp_consts. apply reads_map. intros i Hi. apply HC.
Qed.
End SpReads.

(** ** The assignment *)

Section Hash.
Variable P : params.
Hypothesis big : 2 ^ 128 < char P.
Notation F := (F P).
Notation table := (table P).
Notation L := (@sha_lenv P).
Variable c : comp.
Hypothesis wf : wf_comp c 9.
Variable b : Z -> var.
Variable row : Z.
Variable T : table.
Hypothesis Ob : forall k, 0 <= k < 4 -> outside c sh_rows row (b k).
Hypothesis Hb : forall k, 0 <= k < 4 -> fval (vval T (b k)) < 2 ^ 128.
Hypothesis K : consts_in T (sh_circuit c b row).
Notation sub := (sh_sub c).

(** The four inputs and the sixteen words of the block. *)
Definition in_nums : list Z := map (fun k => fval (vval T (b k))) (zseq 0 4).
Definition blk : list Z := map (be_word (msg_bytes in_nums)) (zseq 0 16).
Definition st_1 : list Z := sha_compress sha_iv blk.
Definition st_2 : list Z := sha_compress st_1 sh_pad.

Lemma in_nums_at : forall k, 0 <= k < 4 -> znth 0 in_nums k = fval (vval T (b k)).
Proof. intros k Hk. unfold in_nums. rewrite znth_map_zseq by lia. reflexivity. Qed.

(** The five tables. *)
Definition T1 : table := dec_assign sub (b 0) (b 1) row T.
Definition T2 : table := dec_assign sub (b 2) (b 3) (row + 3) T1.
Definition T3 : table := sp_assign sub (sh_st1 c row) (sh_wd1 c row) (row + 6) T2.
Definition T4 : table := sp_assign sub (sh_st2 c row) (sh_wd2 c row) (row + 768) T3.

Lemma f1_ : frame c 3 row T T1.
Proof. apply sub_frame; [exact wf|]. apply dec_frame. Qed.
Lemma f2_ : frame c 3 (row + 3) T1 T2.
Proof. apply sub_frame; [exact wf|]. apply dec_frame. Qed.
Lemma f3_ : frame c 762 (row + 6) T2 T3.
Proof. apply sub_frame; [exact wf|]. apply put_frame. Qed.
Lemma f4_ : frame c 762 (row + 768) T3 T4.
Proof. apply sub_frame; [exact wf|]. apply put_frame. Qed.
Lemma f12 : frame c 6 row T T2.
Proof.
  eapply frame_trans; [eapply frame_sub; [| |exact f1_]; lia|]. eapply frame_sub; [| |exact f2_]; lia.
Qed.
Lemma f14 : frame c 1530 row T T4.
Proof.
  eapply frame_trans; [eapply frame_sub; [| |exact f12]; lia|]. eapply frame_trans; [eapply frame_sub; [| |exact f3_]; lia|].
  eapply frame_sub; [| |exact f4_]; lia.
Qed.

Lemma const_frame : forall n r (U U' : table) col q, frame c n r U U' -> U' CConst col q = U CConst col q.
Proof. intros n r U U' col q H. apply H. intros [A _]. discriminate. Qed.

(** The constants. *)
Lemma K_iv : forall k, 0 <= k < 8 -> T CConst (C c 0) (row + k) = ofZ (znth 0 sha_iv k).
Proof.
  intros k Hk. apply K. unfold sh_circuit, sh_consts. apply in_or_app. left. apply in_or_app. left. apply in_map_iff.
  exists k. split; [reflexivity|apply in_zseq; exact Hk].
Qed.
Lemma K_pad : forall k, 0 <= k < 16 -> T CConst (C c 0) (row + 8 + k) = ofZ (znth 0 sh_pad k).
Proof.
  intros k Hk. apply K. unfold sh_circuit, sh_consts. apply in_or_app. left. apply in_or_app. right. apply in_map_iff.
  exists k. split; [reflexivity|apply in_zseq; exact Hk].
Qed.
Lemma K_1 : consts_in T (sp_circuit sub (sh_st1 c row) (sh_wd1 c row) (row + 6)).
Proof. intros col r v H. apply K. unfold sh_circuit. do 3 (apply in_or_app; right). apply in_or_app. left. exact H. Qed.
Lemma K_2 : consts_in T (sp_circuit sub (sh_st2 c row) (sh_wd2 c row) (row + 768)).
Proof. intros col r v H. apply K. unfold sh_circuit. do 4 (apply in_or_app; right). apply in_or_app. left. exact H. Qed.

Lemma small : forall x, 0 <= x < 2 ^ 32 -> fval (ofZ x : F) = x.
Proof. intros x Hx. apply fval_ofZ_small. lia. Qed.
Lemma iv_w : forall k, 0 <= znth 0 sha_iv k < 2 ^ 32.
Proof. intros k. assert (A : words sha_iv) by (repeat constructor; discriminate). apply (words_at _ k A). Qed.
Lemma pad_w : forall k, 0 <= znth 0 sh_pad k < 2 ^ 32.
Proof. intros k. assert (A : words sh_pad) by (repeat constructor; discriminate). apply (words_at _ k A). Qed.

Lemma Ob_n : forall n r k, row <= r -> r + n <= row + sh_rows -> 0 <= k < 4 -> outside c n r (b k).
Proof. intros n r k H1 H2 Hk. apply (outside_sub c sh_rows row); [assumption..|]. apply Ob, Hk. Qed.
Lemma rows_is : sh_rows = 1532.
Proof. reflexivity. Qed.

(** Decompositions. *)
Lemma in_1 : forall k, 0 <= k < 4 -> vval T1 (b k) = vval T (b k).
Proof. intros k Hk. apply (vval_frame P c 3 row); [exact f1_|apply Ob_n; rewrite ?rows_is; lia]. Qed.
Lemma dec_1 : sat L T1 (dec_circuit sub (b 0) (b 1) row) /\
  forall k, 0 <= k < 8 -> vval T1 (dec_out sub row k) = ofZ (if k <? 4 then word_of (znth 0 in_nums 0) (3 - k) else word_of (znth 0 in_nums 1) (7 - k)).
Proof.
  rewrite !in_nums_at by lia. apply (dec_honest P L sub _ _ row (sub_wf c wf)).
  1,2: apply sub_outside; [exact wf|]; apply Ob_n; rewrite ?rows_is; lia.
  1,2: apply Hb; lia.
Qed.
Lemma dec_2 : sat L T2 (dec_circuit sub (b 2) (b 3) (row + 3)) /\
  forall k, 0 <= k < 8 -> vval T2 (dec_out sub (row + 3) k) = ofZ (if k <? 4 then word_of (znth 0 in_nums 2) (3 - k) else word_of (znth 0 in_nums 3) (7 - k)).
Proof.
  rewrite !in_nums_at by lia. rewrite <- !in_1 by lia. apply (dec_honest P L sub _ _ (row + 3) (sub_wf c wf)).
  1,2: apply sub_outside; [exact wf|]; apply Ob_n; rewrite ?rows_is; lia.
  1,2: rewrite in_1 by lia; apply Hb; lia.
Qed.

Lemma blk_at : forall q r, 0 <= q < 4 -> 0 <= r < 4 -> znth 0 blk (4 * q + r) = word_of (znth 0 in_nums q) (3 - r).
Proof.
  intros q r Hq Hr. unfold blk. rewrite znth_map_zseq by lia. rewrite Z.add_0_l. apply msg_word; [|exact Hr].
  unfold in_nums, zlen. rewrite map_length. change (Z.of_nat (length (zseq 0 4))) with 4. exact Hq.
Qed.

Lemma wd_1 : forall k, 0 <= k < 16 -> vval T2 (sh_wd1 c row k) = ofZ (znth 0 blk k).
Proof.
  intros k Hk. unfold sh_wd1. destruct (Z.ltb_spec k 8) as [H|H].
  - rewrite (vval_frame P c 3 (row + 3) T1 T2); [|exact f2_|intros [_ [_ X]]; unfold dec_out in X; cbn [wcell vrot] in X; lia].
    rewrite (proj2 dec_1) by lia. apply (f_equal ofZ). destruct (Z.ltb_spec k 4).
    + rewrite <- (blk_at 0 k) by lia. reflexivity.
    + rewrite <- (Z.sub_add 4 k) at 2. replace (k - 4 + 4) with (4 * 1 + (k - 4)) by lia. rewrite blk_at by lia. f_equal. lia.
  - rewrite (proj2 dec_2) by lia. apply (f_equal ofZ). destruct (Z.ltb_spec (k - 8) 4).
    + replace k with (4 * 2 + (k - 8)) at 2 by lia. rewrite blk_at by lia. f_equal.
    + replace k with (4 * 3 + (k - 12)) at 2 by lia. rewrite blk_at by lia. f_equal. lia.
Qed.
Lemma blk_w : forall k, 0 <= k < 16 -> 0 <= znth 0 blk k < 2 ^ 32.
Proof.
  intros k Hk. pose proof (Z.div_mod k 4 ltac:(lia)) as E. pose proof (Z.mod_pos_bound k 4 ltac:(lia)). rewrite E, blk_at; [apply word_range| |lia].
  split; [apply Z.div_pos; lia|apply Z.div_lt_upper_bound; lia].
Qed.

(** First compression. *)
Lemma st1_val : forall k, 0 <= k < 8 -> vval T2 (sh_st1 c row k) = ofZ (znth 0 sha_iv k).
Proof. intros k Hk. unfold vval, sh_st1. cbn [ccell vty vidx vrot]. rewrite (const_frame _ _ _ _ _ _ f12). apply K_iv, Hk. Qed.
Lemma dec_out_outside : forall r n q k, r + 1 < q \/ q + n <= r + 1 -> outside sub n q (dec_out sub r k).
Proof. intros r n q k H [_ [_ X]]. unfold dec_out in X. cbn [wcell vrot] in X. lia. Qed.
Lemma setup_1 : sha_setup P sub (sh_st1 c row) (sh_wd1 c row) (row + 6) T2.
Proof.
  split; [exact big|]. split; [apply sub_wf, wf|]. split; [|split].
  - intros k Hk. split; [intros [X _]; discriminate|]. rewrite st1_val by exact Hk. rewrite small by apply iv_w. apply iv_w.
  - intros k Hk. split.
    + unfold sh_wd1. destruct (k <? 8); apply dec_out_outside; lia.
    + rewrite wd_1 by exact Hk. rewrite small; apply blk_w, Hk.
  - eapply consts_in_frame; [exact f12|exact K_1].
Qed.
Lemma in_st1 : in_state P (sh_st1 c row) T2 = sha_iv.
Proof.
  transitivity (map (znth 0 sha_iv) (zseq 0 8)); [|reflexivity]. apply map_ext_in. intros k Hk. apply in_zseq in Hk.
  rewrite st1_val by exact Hk. apply small, iv_w.
Qed.
Lemma in_wd1 : in_words P (sh_wd1 c row) T2 = blk.
Proof.
  transitivity (map (znth 0 blk) (zseq 0 16)).
  - apply map_ext_in. intros k Hk. apply in_zseq in Hk. rewrite wd_1 by exact Hk. apply small, blk_w, Hk.
  - unfold blk. apply map_ext_in. intros k Hk. apply in_zseq in Hk. rewrite znth_map_zseq by lia. reflexivity.
Qed.
Lemma sp_1 : sat L T3 (sp_circuit sub (sh_st1 c row) (sh_wd1 c row) (row + 6)) /\
  map (fun k => fval (vval T3 (sp_out sub (row + 6) k))) (zseq 0 8) = st_1.
Proof.
  destruct (sha256_process_complete P sub _ _ _ T2 setup_1) as [S [_ O]]. split; [exact S|]. rewrite in_st1, in_wd1 in O. exact O.
Qed.

(** Second compression. *)
Lemma compress_w : forall h m k, 0 <= znth 0 (sha_compress h m) k < 2 ^ 32.
Proof.
  intros h m k. assert (A : words (sha_compress h m)).
  { unfold sha_compress. cbv zeta. apply Forall_forall. intros x Hx. apply in_map_iff in Hx. destruct Hx as [i [<- _]]. apply isw_mod. }
  apply (words_at _ k A).
Qed.
Lemma st2_val : forall k, 0 <= k < 8 -> fval (vval T3 (sh_st2 c row k)) = znth 0 st_1 k.
Proof. intros k Hk. rewrite <- (proj2 sp_1). rewrite znth_map_zseq by lia. reflexivity. Qed.
Lemma wd2_val : forall k, 0 <= k < 16 -> vval T3 (sh_wd2 c row k) = ofZ (znth 0 sh_pad k).
Proof.
  intros k Hk. unfold vval, sh_wd2. cbn [ccell vty vidx vrot]. rewrite (const_frame _ _ _ _ _ _ f3_), (const_frame _ _ _ _ _ _ f12). apply K_pad, Hk.
Qed.
Lemma sp_out_row : forall cc r k, r + 755 <= vrot (sp_out cc r k) <= r + 757 /\ vty (sp_out cc r k) = CWit.
Proof. intros cc r k. unfold sp_out. destruct (k <? 4); cbn [wcell vrot vty]; split; (reflexivity || lia). Qed.
Lemma setup_2 : sha_setup P sub (sh_st2 c row) (sh_wd2 c row) (row + 768) T3.
Proof.
  split; [exact big|]. split; [apply sub_wf, wf|]. split; [|split].
  - intros k Hk. split.
    + intros [_ [_ X]]. pose proof (proj1 (sp_out_row sub (row + 6) k)). unfold sh_st2 in X. lia.
    + rewrite st2_val by exact Hk. apply compress_w.
  - intros k Hk. split; [intros [X _]; discriminate|]. rewrite wd2_val by exact Hk. rewrite small by apply pad_w. apply pad_w.
  - eapply consts_in_frame; [exact f3_|]. eapply consts_in_frame; [exact f12|exact K_2].
Qed.
Lemma in_st2 : in_state P (sh_st2 c row) T3 = st_1.
Proof. rewrite <- (proj2 sp_1). reflexivity. Qed.
Lemma in_wd2 : in_words P (sh_wd2 c row) T3 = sh_pad.
Proof.
  transitivity (map (znth 0 sh_pad) (zseq 0 16)); [|reflexivity]. apply map_ext_in. intros k Hk. apply in_zseq in Hk.
  rewrite wd2_val by exact Hk. apply small, pad_w.
Qed.
Lemma sp_2 : sat L T4 (sp_circuit sub (sh_st2 c row) (sh_wd2 c row) (row + 768)) /\
  map (fun k => fval (vval T4 (sp_out sub (row + 768) k))) (zseq 0 8) = st_2.
Proof.
  destruct (sha256_process_complete P sub _ _ _ T3 setup_2) as [S [_ O]]. split; [exact S|]. rewrite in_st2, in_wd2 in O. exact O.
Qed.

(** Everything above the two last rows survives what is written there. *)
Lemma upper_sat : forall U : table, frame c 2 (row + 1530) T4 U ->
  sat L U (sh_consts P c row ++ dec_circuit sub (b 0) (b 1) row ++ dec_circuit sub (b 2) (b 3) (row + 3) ++
           sp_circuit sub (sh_st1 c row) (sh_wd1 c row) (row + 6) ++ sp_circuit sub (sh_st2 c row) (sh_wd2 c row) (row + 768)).
Proof.
  intros U FU.
  assert (F1 : frame c 1529 (row + 3) T1 U).
  { eapply frame_trans; [eapply frame_sub; [| |exact f2_]; lia|]. eapply frame_trans; [eapply frame_sub; [| |exact f3_]; lia|].
    eapply frame_trans; [eapply frame_sub; [| |exact f4_]; lia|]. eapply frame_sub; [| |exact FU]; lia. }
  assert (F2 : frame c 1526 (row + 6) T2 U).
  { eapply frame_trans; [eapply frame_sub; [| |exact f3_]; lia|].
    eapply frame_trans; [eapply frame_sub; [| |exact f4_]; lia|]. eapply frame_sub; [| |exact FU]; lia. }
  assert (F3 : frame c 764 (row + 768) T3 U).
  { eapply frame_trans; [eapply frame_sub; [| |exact f4_]; lia|]. eapply frame_sub; [| |exact FU]; lia. }
  assert (F0 : frame c 1532 row T U).
  { eapply frame_trans; [eapply frame_sub; [| |exact f1_]; lia|]. eapply frame_sub; [| |exact F1]; lia. }
  rewrite !sat_app. repeat apply conj.
  - intros x Hx. unfold sh_consts in Hx. apply in_app_or in Hx. destruct Hx as [Hx|Hx]; apply in_map_iff in Hx; destruct Hx as [k [<- Hk]]; apply in_zseq in Hk;
      cbn [holds]; rewrite (const_frame _ _ _ _ _ _ F0); [apply K_iv|apply K_pad]; exact Hk.
  - apply (sat_frame P L c 1529 (row + 3) T1 U); [exact F1| |exact (proj1 dec_1)]. apply dec_reads.
    + intros k o Ho [_ [_ X]]. lia.
    + unfold var_reads. apply Ob_n; rewrite ?rows_is; lia.
    + unfold var_reads. apply Ob_n; rewrite ?rows_is; lia.
  - apply (sat_frame P L c 1526 (row + 6) T2 U); [exact F2| |exact (proj1 dec_2)]. apply dec_reads.
    + intros k o Ho [_ [_ X]]. lia.
    + unfold var_reads. apply Ob_n; rewrite ?rows_is; lia.
    + unfold var_reads. apply Ob_n; rewrite ?rows_is; lia.
  - apply (sat_frame P L c 764 (row + 768) T3 U); [exact F3| |exact (proj1 sp_1)]. apply sp_reads.
    + intros k o Ho [_ [_ X]]. lia.
    + intros col r [X _]. discriminate.
    + intros k Hk [X _]. discriminate.
    + intros k Hk. unfold sh_wd1. destruct (k <? 8); intros [_ [_ X]]; unfold dec_out in X; cbn [wcell vrot] in X; lia.
  - apply (sat_frame P L c 2 (row + 1530) T4 U); [exact FU| |exact (proj1 sp_2)]. apply sp_reads.
    + intros k o Ho [_ [_ X]]. lia.
    + intros col r [X _]. discriminate.
    + intros k Hk [_ [_ X]]. pose proof (proj1 (sp_out_row sub (row + 6) k)). unfold sh_st2 in X. lia.
    + intros k Hk [X _]. discriminate.
Qed.
End Hash.
