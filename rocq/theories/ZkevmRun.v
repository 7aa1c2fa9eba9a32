(** Witness generation of the zkEVM circuit: the rows it fills, and that the
    filled rows satisfy the gates. *)
From Coq Require Import ZArith List Lia Bool Field.
From Verif Require Import Base Field Plonk PlonkFacts Bits CompareModel ZkevmModel ZkevmSel ZkevmArith ZkevmOps ZkevmProofs.
Import ListNotations.
Open Scope Z_scope.

Section Run.
Variable P : params.
Notation F := (F P).
Notation table := (table P).
Implicit Types T : table.
Add Field Ff : (F_field P) (morphism (F_morph P), constants [F_const], power_tac (F_power P) [F_pow_tac]).
Local Open Scope F_scope.

(** ** Gates that are switched off *)
Lemma mul0l : forall T r a b, eval T r a = f0 -> eval T r (EBin OMul a b) = f0.
Proof. intros T r a b E. rewrite eval_bin. cbn [ebop]. rewrite E. ring. Qed.

Lemma add_gates_off : forall T r, stp P T (r - 1) = f0 ->
  forall e, In e (add_gates (P := P)) -> eval T r e = f0.
Proof.
  intros T r S. assert (E : eval T r (step (-1)) = f0) by (rewrite eval_step; exact S).
  unfold add_gates. rewrite !all_app, all_flat_map.
  assert (G : forall b i e, In e (add_group b i) -> eval T r e = f0).
  { intros b i. unfold add_group. change (position 1 3) with (step (P := P) (-1)).
    destruct b; rewrite !all_cons, all_nil; repeat split; repeat apply mul0l; exact E. }
  split; [apply G|]. split; [intros; eapply G; eassumption|].
  change (position 1 3) with (step (P := P) (-1)).
  rewrite !all_cons, all_nil; repeat split; repeat apply mul0l; exact E.
Qed.

Lemma mul_gates_off : forall T r, stp P T (r - 1) = f0 ->
  forall e, In e (mul_gates (P := P)) -> eval T r e = f0.
Proof.
  intros T r S. assert (E : eval T r (step (-1)) = f0) by (rewrite eval_step; exact S).
  unfold mul_gates. change (position 1 3) with (step (P := P) (-1)).
  rewrite !all_cons, all_nil; repeat split; repeat apply mul0l; exact E.
Qed.

(** ** Filled rows *)
Definition row_filled T (r : Z) (o : opcode) (g : regs P) (st : F) (rm : Z) : Prop :=
  ss_filled sel_col n_opcodes (byte o) T r /\ ss_filled row_col max_height rm T r /\
  T CWit col_pc r = r_pc g /\ T CWit col_stack r = r_stack g /\
  T CWit col_mem r = r_mem g /\ T CWit col_gas r = r_gas g /\
  stp P T r = st /\ rmc P T r = ofZ rm /\ ivc P T r = inv0 (ofZ rm).

Lemma col_sel : forall j, (0 <= j < ss_w n_opcodes)%Z -> (7 <= sel_col j < 84)%Z.
Proof. intros j. rewrite ss_w_opcodes. unfold sel_col. lia. Qed.
Lemma col_row : forall j, (0 <= j < ss_w max_height)%Z -> (148 <= row_col j < 160)%Z.
Proof. intros j. rewrite ss_w_rows. unfold row_col. rewrite ss_w_opcodes. lia. Qed.
Lemma col_op : forall j, (0 <= j < 64)%Z -> (84 <= op_col j < 148)%Z.
Proof. intros j. unfold op_col. rewrite ss_w_opcodes. lia. Qed.

Hypothesis BIG : (149 < char P)%Z.

Lemma row_assign_filled : forall T row o g st rm, (0 <= rm < max_height)%Z ->
  row_filled (row_assign T row o g st (ofZ rm) (inv0 (ofZ rm))) row o g st rm.
Proof.
  intros T row o g st rm RM. unfold row_assign.
  set (T1 := wset T (sel_col 0) row (ofZ (byte o))).
  set (T2 := ss_assign sel_col n_opcodes (T1 CWit (sel_col 0) row) row T1).
  set (T3 := wset T2 (row_col 0) row (ofZ rm)).
  set (T4 := ss_assign row_col max_height (T3 CWit (row_col 0) row) row T3).
  pose proof (byte_range o) as BO.
  assert (V1 : T1 CWit (sel_col 0) row = ofZ (byte o)) by apply wset_same.
  assert (V3 : T3 CWit (row_col 0) row = ofZ rm) by apply wset_same.
  assert (F2 : ss_filled sel_col n_opcodes (byte o) T2 row).
  { unfold T2. rewrite V1. apply ss_assign_filled; [unfold n_opcodes; lia|exact BO|].
    intros i j _ _. unfold sel_col. lia. }
  assert (F4 : ss_filled row_col max_height rm T4 row).
  { unfold T4. rewrite V3. apply ss_assign_filled; [unfold max_height; lia|exact RM|].
    intros i j _ _. unfold row_col. lia. }
  assert (VR : fval (ofZ (P := P) rm) = rm) by (apply fval_ofZ_small; unfold max_height in RM; lia).
  assert (F2' : ss_filled sel_col n_opcodes (byte o) T4 row).
  { intros j J. unfold T4. pose proof (col_sel j J). rewrite ss_assign_other.
    - unfold T3. rewrite wset_other by (right; left; pose proof (col_row 0 ltac:(rewrite ss_w_rows; lia)); lia). apply F2. exact J.
    - right. right. intros i I. pose proof (col_row i I). lia.
    - unfold max_height. lia.
    - rewrite V3, VR. exact RM. }
  pose proof (col_sel 0 ltac:(rewrite ss_w_opcodes; lia)) as S0.
  unfold row_filled. split; [|split].
  - intros j J. pose proof (col_sel j J) as SJ. destruct (Z.eq_dec j 0) as [->|N].
    + rewrite wset_same. reflexivity.
    + rewrite !wset_other; [apply F2'; exact J|..]; right; left; unfold sel_col, col_pc, col_stack, col_mem, col_gas, col_rem, col_inv, col_step in *; lia.
  - intros j J. pose proof (col_row j J). rewrite !wset_other; [apply F4; exact J|..]; right; left;
      unfold sel_col, col_pc, col_stack, col_mem, col_gas, col_rem, col_inv, col_step in *; lia.
  - assert (C : (sel_col 0 <> col_pc /\ sel_col 0 <> col_stack /\ sel_col 0 <> col_mem /\ sel_col 0 <> col_gas /\
       sel_col 0 <> col_rem /\ sel_col 0 <> col_inv /\ sel_col 0 <> col_step)%Z)
      by (unfold sel_col, col_pc, col_stack, col_mem, col_gas, col_rem, col_inv, col_step; lia).
    unfold stp, rmc, ivc.
    repeat split; rewrite !wset_if, !Z.eqb_refl; cbn; reflexivity.
Qed.

Lemma row_assign_other : forall T row o g st rm iv ty c r, (0 <= fval rm < max_height)%Z ->
  (ty <> CWit \/ r <> row \/ (84 <= c < 148)%Z) ->
  row_assign T row o g st rm iv ty c r = T ty c r.
Proof.
  intros T row o g st rm iv ty c r RM H. unfold row_assign.
  pose proof (col_sel 0 ltac:(rewrite ss_w_opcodes; lia)) as S0.
  pose proof (col_row 0 ltac:(rewrite ss_w_rows; lia)) as R0.
  assert (H' : forall c', (c' < 84 \/ 148 <= c')%Z -> ty <> CWit \/ c <> c' \/ r <> row).
  { intros c' C'. destruct H as [H|[H|H]]; [tauto|tauto|]. right. left. lia. }
  rewrite !wset_other by (apply H'; unfold col_pc, col_stack, col_mem, col_gas, col_rem, col_inv, col_step; lia).
  rewrite ss_assign_other.
  - rewrite wset_other by (apply H'; lia). rewrite ss_assign_other.
    + apply wset_other. apply H'. lia.
    + destruct H as [H|[H|H]]; [tauto|tauto|]. right. right. intros j J. pose proof (col_sel j J). lia.
    + unfold n_opcodes. lia.
    + rewrite wset_same. pose proof (byte_range o) as BO. rewrite fval_ofZ_small; [exact BO|]. unfold n_opcodes in BO. lia.
  - destruct H as [H|[H|H]]; [tauto|tauto|]. right. right. intros j J. pose proof (col_row j J). lia.
  - unfold max_height. lia.
  - rewrite wset_same. exact RM.
Qed.

Lemma rows_assign_other : forall n T row o g st rm iv ty c r, (Z.of_nat n <= fval rm + 1 < max_height)%Z ->
  (ty <> CWit \/ r < row \/ row + Z.of_nat n <= r \/ (84 <= c < 148))%Z ->
  rows_assign T row n o g st rm iv ty c r = T ty c r.
Proof.
  induction n as [|n IH]; intros T row o g st rm iv ty c r RM H; [reflexivity|]. cbn [rows_assign].
  assert (F1 : fval rm <> 0%Z -> fval (rm - f1) = (fval rm - 1)%Z).
  { intros N. rewrite <- (ofZ_fval P rm) at 1. change (f1 : F) with (ofZ (P := P) 1). rewrite <- ofZ_sub.
    pose proof (fval_range P rm). apply fval_ofZ_small. lia. }
  destruct n as [|m].
  - cbn [rows_assign]. apply row_assign_other; [pose proof (fval_range P rm); lia|].
    destruct H as [H|[H|[H|H]]]; [tauto|right; left; lia|right; left; lia|tauto].
  - rewrite IH.
    + apply row_assign_other; [pose proof (fval_range P rm); lia|].
      destruct H as [H|[H|[H|H]]]; [tauto|right; left; lia|right; left; lia|tauto].
    + rewrite F1 by lia. lia.
    + destruct H as [H|[H|[H|H]]]; [tauto|right; left; lia|right; right; left; lia|tauto].
Qed.

Lemma row_filled_ext : forall T T' r o g st rm, (forall c, T' CWit c r = T CWit c r) ->
  row_filled T r o g st rm -> row_filled T' r o g st rm.
Proof.
  intros T T' r o g st rm E [A [B C]]. unfold row_filled, stp, rmc, ivc. rewrite !E.
  split; [intros j J; rewrite E; apply A; exact J|]. split; [intros j J; rewrite E; apply B; exact J|]. exact C.
Qed.

Lemma rows_assign_filled : forall n T row o g st k, (Z.of_nat n <= k + 1 < max_height)%Z ->
  forall i, (0 <= i < Z.of_nat n)%Z ->
  row_filled (rows_assign T row n o g st (ofZ k) (inv0 (ofZ k))) (row + i) o g (if (i =? 0)%Z then st else f0) (k - i).
Proof.
  induction n as [|n IH]; intros T row o g st k K i I; [lia|]. cbn [rows_assign].
  assert (FK : fval (ofZ (P := P) k) = k) by (apply fval_ofZ_small; unfold max_height in K; lia).
  assert (E : ofZ k - f1 = ofZ (P := P) (k - 1)) by (rewrite ofZ_sub; reflexivity).
  rewrite E. destruct (Z.eqb_spec i 0) as [->|N].
  - rewrite Z.add_0_r, Z.sub_0_r. apply (row_filled_ext (row_assign T row o g st (ofZ k) (inv0 (ofZ k)))).
    + intros c. destruct n as [|m]; [reflexivity|]. apply rows_assign_other; [|right; left; lia].
      rewrite fval_ofZ_small; unfold max_height in *; lia.
    + apply row_assign_filled. unfold max_height in *. lia.
  - specialize (IH (row_assign T row o g st (ofZ k) (inv0 (ofZ k))) (row + 1)%Z o g f0 (k - 1)%Z ltac:(lia) (i - 1)%Z ltac:(lia)).
    replace (row + 1 + (i - 1))%Z with (row + i)%Z in IH by lia. replace (k - 1 - (i - 1))%Z with (k - i)%Z in IH by lia.
    destruct (i - 1 =? 0)%Z; exact IH.
Qed.

Lemma enable_rows_val : forall n T sel row ty c r,
  enable_rows T sel row n ty c r =
  if (ctype_eqb ty CSel && (c =? sel) && (row <=? r) && (r <? row + Z.of_nat n))%Z%bool then f1 else T ty c r.
Proof.
  induction n as [|n IH]; intros T sel row ty c r; cbn [enable_rows].
  - destruct (Z.leb_spec row r), (Z.ltb_spec r (row + Z.of_nat 0)); try lia; rewrite ?andb_false_r; reflexivity.
  - rewrite IH. unfold sset.
    destruct (ctype_eqb ty CSel), (c =? sel)%Z; cbn [andb]; try reflexivity.
    destruct (Z.leb_spec (row + 1) r), (Z.ltb_spec r (row + 1 + Z.of_nat n)),
      (Z.leb_spec row r), (Z.ltb_spec r (row + Z.of_nat (S n))), (Z.eqb_spec r row); cbn [andb]; try lia; reflexivity.
Qed.

(** ** The cells written by an operation *)
Definition written T (ws : list (Z * Z * F)) : Prop := forall c r v, In (c, r, v) ws -> T CWit c r = v.

Lemma in_blk : forall row c0 n (f : Z -> F) c r v, In (c, r, v) (blk row c0 n f) <->
  exists i, (0 <= i < n)%Z /\ c = op_col (c0 + i) /\ r = row /\ v = f i.
Proof.
  intros. unfold blk. rewrite in_map_iff. split.
  - intros [i [E I]]. injection E as <- <- <-. apply in_zseq in I. exists i. auto.
  - intros [i [I [-> [-> ->]]]]. exists i. split; [reflexivity|]. apply in_zseq. lia.
Qed.

Lemma written_cells : forall T ws row c0 n f, written T ws -> incl (blk row c0 n f) ws -> cells P T c0 n row f.
Proof.
  intros T ws row c0 n f H I i J. apply H. apply I. apply in_blk. exists i. auto.
Qed.

(** Blocks of cells that do not overlap are read back as written. *)
Definition bdisj (x y : Z * Z * Z * (Z -> F)) : Prop :=
  let '(r1, c1, n1, _) := x in let '(r2, c2, n2, _) := y in
  (r1 <> r2 \/ c1 + n1 <= c2 \/ c2 + n2 <= c1)%Z.
Definition bblk (x : Z * Z * Z * (Z -> F)) : list (Z * Z * F) := let '(r, c, n, f) := x in blk r c n f.

Lemma blocks_unique : forall bs, ForallOrdPairs bdisj bs ->
  forall c r v v', In (c, r, v) (flat_map bblk bs) -> In (c, r, v') (flat_map bblk bs) -> v' = v.
Proof.
  assert (X : forall x y c r v v', bdisj x y -> In (c, r, v) (bblk x) -> In (c, r, v') (bblk y) -> False).
  { intros [[[r1 c1] n1] g1] [[[r2 c2] n2] g2] c r v v' D I1 I2. cbn [bblk bdisj] in *.
    apply in_blk in I1. apply in_blk in I2. destruct I1 as [i [I [-> [-> ->]]]].
    destruct I2 as [j [J [E [-> ->]]]]. unfold op_col in E. lia. }
  intros bs D. induction D as [|x l DX DL IH]; intros c r v v' I1 I2; [destruct I1|].
  cbn [flat_map] in *. apply in_app_or in I1. apply in_app_or in I2.
  assert (Y : forall v v', In (c, r, v) (bblk x) -> In (c, r, v') (flat_map bblk l) -> False).
  { intros w w' J1 J2. apply in_flat_map in J2. destruct J2 as [y [Y1 Y2]].
    rewrite Forall_forall in DX. exact (X x y c r w w' (DX y Y1) J1 Y2). }
  destruct I1 as [I1|I1], I2 as [I2|I2].
  - destruct x as [[[r1 c1] n1] g1]. cbn [bblk] in *. apply in_blk in I1. apply in_blk in I2.
    destruct I1 as [i [I [E1 [-> ->]]]]. destruct I2 as [j [J [E [_ ->]]]]. f_equal. subst c. unfold op_col in E. lia.
  - destruct (Y _ _ I1 I2).
  - destruct (Y _ _ I2 I1).
  - exact (IH c r v v' I1 I2).
Qed.

Lemma blocks_written : forall bs T, ForallOrdPairs bdisj bs -> written (wsets T (flat_map bblk bs)) (flat_map bblk bs).
Proof.
  intros bs T D c r v I. apply wsets_read; [exact I|]. intros v' I'. exact (blocks_unique bs D c r v v' I I').
Qed.

Definition bin (cur h : Z) (x : Z * Z * Z * (Z -> F)) : Prop :=
  let '(r, c, n, _) := x in (cur <= r < cur + h /\ 0 <= c /\ c + n <= 64)%Z.

Lemma blocks_in : forall cur h bs c r v, Forall (bin cur h) bs -> In (c, r, v) (flat_map bblk bs) ->
  (84 <= c < 148 /\ cur <= r < cur + h)%Z.
Proof.
  intros cur h bs c r v B I. apply in_flat_map in I. destruct I as [[[[r1 c1] n1] g1] [I1 I2]].
  rewrite Forall_forall in B. specialize (B _ I1). cbn [bin bblk] in *. apply in_blk in I2.
  destruct I2 as [i [I [-> [-> ->]]]]. pose proof (col_op (c1 + i) ltac:(lia)). lia.
Qed.

Ltac fop := repeat (first [apply FOP_nil | apply FOP_cons | apply Forall_nil | apply Forall_cons]);
            cbn [bdisj bin]; lia.

Lemma op_assign_facts : forall o cur stk ws stk' T, op_assign P o cur stk = Some (ws, stk') ->
  stk' = stk /\ written (wsets T ws) ws /\
  forall c r v, In (c, r, v) ws -> (84 <= c < 148 /\ cur <= r < cur + height o)%Z.
Proof.
  intros o cur stk ws stk' T H.
  assert (K : stk' = stk /\ exists bs, ws = flat_map bblk bs /\ ForallOrdPairs bdisj bs /\ Forall (bin cur (height o)) bs).
  { destruct o; destruct stk as [|a [|b s]]; cbn [op_assign] in H; try discriminate; injection H as <- <-;
      (split; [reflexivity|]); cbn [height].
    - exists [(cur, 0, 16, fchunk a); (cur + 1, 0, 16, fchunk b); (cur + 2, 0, 16, fchunk (word_mod (a + b)));
              (cur + 2, 16, 5, fun i => ofZ (Z.b2z (add_carry P a b (Z.to_nat i))));
              (cur + 2, 21, 1, fun _ => ofZ (Z.b2z (add_last_carry P a b)))]%Z.
      split; [unfold add_writes; cbn [flat_map bblk]; rewrite app_nil_r; reflexivity|]. split; fop.
    - eexists [(cur, 0, 16, _); (cur, 16, 4, _); (cur + 1, 0, 16, _); (cur + 1, 16, 4, _);
               (cur + 2, 0, 16, _); (cur + 2, 16, 1, _); (cur + 2, 17, 1, _)]%Z.
      split; [unfold mul_writes; cbn [flat_map bblk]; rewrite app_nil_r; reflexivity|]. split; fop.
    - exists [(cur, 0, 16, fchunk (word_mod (a - b))); (cur + 1, 0, 16, fchunk b); (cur + 2, 0, 16, fchunk a);
              (cur + 2, 16, 5, fun i => ofZ (Z.b2z (add_carry P (word_mod (a - b)) b (Z.to_nat i))));
              (cur + 2, 21, 1, fun _ => ofZ (Z.b2z (add_last_carry P (word_mod (a - b)) b)))]%Z.
      split; [unfold add_writes; cbn [flat_map bblk]; rewrite app_nil_r; reflexivity|]. split; fop.
    - eexists [(cur, 0, 16, _); (cur, 16, 4, _); (cur, 20, 1, _); (cur + 1, 0, 16, _); (cur + 1, 16, 4, _);
               (cur + 1, 20, 1, _); (cur + 1, 21, 1, _); (cur + 2, 0, 16, _); (cur + 2, 16, 16, _);
               (cur + 3, 0, 16, _); (cur + 3, 16, 16, _)]%Z.
      split; [unfold div_writes; cbn [flat_map bblk]; rewrite app_nil_r; reflexivity|]. split; fop.
    - eexists [(cur, 0, 16, _); (cur, 16, 1, _); (cur, 17, 15, _); (cur, 32, 1, _)]%Z.
      split; [unfold iszero_writes; cbn [flat_map bblk]; rewrite app_nil_r; reflexivity|]. split; fop.
    - eexists [(cur, 0, 16, _); (cur, 16, 1, _); (cur, 17, 15, _); (cur, 32, 1, _)]%Z.
      split; [unfold iszero_writes; cbn [flat_map bblk]; rewrite app_nil_r; reflexivity|]. split; fop. }
  destruct K as [K1 [bs [-> [K2 K3]]]]. split; [exact K1|]. split; [apply blocks_written; exact K2|].
  intros c r v I. exact (blocks_in cur _ bs c r v K3 I).
Qed.

Hypothesis BIG2 : (2 ^ 196 < char P)%Z.
Definition is_word (w : Z) : Prop := (0 <= w < 2 ^ 256)%Z.

Ltac wcells H := eapply written_cells; [exact H|]; unfold add_writes, mul_writes, div_writes, iszero_writes;
  intros ? ?; repeat (rewrite in_app_iff); tauto.

Lemma pow_small : forall k, (0 <= k <= 196)%Z -> (2 ^ k < char P)%Z.
Proof. intros k K. assert (2 ^ k <= 2 ^ 196)%Z by (apply Z.pow_le_mono_r; lia). lia. Qed.

Lemma add_rows_ok : forall T s a b w, is_word a -> is_word b -> w = ((a + b) mod 2 ^ 256)%Z ->
  written T (add_writes P s a b w) -> add_eqs P T (s + 1).
Proof.
  intros T s a b w A B W H.
  assert (C1 : cells P T 0 16 s (fchunk a)) by wcells H.
  assert (C2 : cells P T 0 16 (s + 1) (fchunk b)) by wcells H.
  assert (C3 : cells P T 0 16 (s + 2) (fchunk w)) by wcells H.
  assert (C4 : cells P T 16 5 (s + 2) (fun i => ofZ (Z.b2z (add_carry P a b (Z.to_nat i))))) by wcells H.
  assert (C5 : cells P T 21 1 (s + 2) (fun _ => ofZ (Z.b2z (add_last_carry P a b)))) by wcells H.
  apply (add_complete P T (s + 1) a b w (pow_small 51 ltac:(lia)) A B W);
    replace (s + 1 - 1)%Z with s by lia; replace (s + 1 + 1)%Z with (s + 2)%Z by lia.
  - exact C1. - exact C2. - exact C3. - exact C4. - exact (C5 0%Z ltac:(lia)).
Qed.

Lemma sub_word : forall a b, is_word a -> is_word b -> a = ((word_mod (a - b) + b) mod 2 ^ 256)%Z.
Proof.
  intros a b A B. unfold word_mod, is_word in *. rewrite Z.add_mod_idemp_l by lia.
  replace (a - b + b)%Z with a by lia. symmetry. apply Z.mod_small. exact A.
Qed.
Lemma word_mod_word : forall x, is_word (word_mod x).
Proof. intros x. apply Z.mod_pos_bound. lia. Qed.

Lemma mul_rows_ok : forall T s a b w, is_word a -> is_word b -> w = word_mod (a * b) ->
  written T (mul_writes P s a b w) -> mul_eqs P T (s + 1).
Proof.
  intros T s a b w A B W H.
  set (a64 := f_sum64 (fchunk (P := P) a)). set (b64 := f_sum64 (fchunk (P := P) b)).
  set (w64 := f_sum64 (fchunk (P := P) w)). set (z := fun _ : Z => (f0 : F)).
  assert (E1 : fm_first P a64 b64 w64 = ff_first P w64 b64 a64 z) by apply fm_first_eq.
  assert (E2 : fm_second P a64 b64 w64 = ff_second P w64 b64 a64 z) by apply fm_second_eq.
  assert (H1 : h_c1 P w64 b64 a64 z = ofZ (Z.land (Z.shiftr (fval (fm_first P a64 b64 w64)) 128) (2 ^ 64 - 1)))
    by (unfold h_c1, h_first; rewrite <- E1; reflexivity).
  assert (H2 : h_c2 P w64 b64 a64 z = ofZ (Z.shiftr (Z.shiftr (fval (fm_first P a64 b64 w64)) 128) 64))
    by (unfold h_c2, h_first; rewrite <- E1; reflexivity).
  assert (H3 : h_second P w64 b64 a64 z = Z.shiftr (fval (fm_second P a64 b64 w64 + h_c1 P w64 b64 a64 z +
                h_c2 P w64 b64 a64 z * ofZ (2 ^ 64))) 128) by (unfold h_second; rewrite <- E2; reflexivity).
  assert (HW : mul_writes P s a b w =
    blk s 0 16 (fchunk a) ++ blk s 16 4 (fchunk64 (h_c1 P w64 b64 a64 z)) ++
    blk (s + 1)%Z 0 16 (fchunk b) ++ blk (s + 1)%Z 16 4 (fchunk64 (h_c3 P w64 b64 a64 z)) ++
    blk (s + 2)%Z 0 16 (fchunk w) ++ blk (s + 2)%Z 16 1 (fun _ => h_c2 P w64 b64 a64 z) ++
    blk (s + 2)%Z 17 1 (fun _ => h_c4 P w64 b64 a64 z)).
  { unfold h_c3, h_c4. rewrite H3, H1, H2. reflexivity. }
  rewrite HW in H. clear HW H1 H2 H3 E1 E2.
  assert (C1 : cells P T 0 16 s (fchunk a)) by wcells H.
  assert (C2 : cells P T 0 16 (s + 1) (fchunk b)) by wcells H.
  assert (C3 : cells P T 0 16 (s + 2) (fchunk w)) by wcells H.
  assert (C4 : cells P T 16 4 s (fchunk64 (h_c1 P w64 b64 a64 z))) by wcells H.
  assert (C5 : cells P T 16 4 (s + 1) (fchunk64 (h_c3 P w64 b64 a64 z))) by wcells H.
  assert (C6 : cells P T 16 1 (s + 2) (fun _ => h_c2 P w64 b64 a64 z)) by wcells H.
  assert (C7 : cells P T 17 1 (s + 2) (fun _ => h_c4 P w64 b64 a64 z)) by wcells H.
  apply (mul_complete P T (s + 1) a b w BIG2 A B W);
    replace (s + 1 - 1)%Z with s by lia; replace (s + 1 + 1)%Z with (s + 2)%Z by lia; try assumption.
  - exact (C6 0%Z ltac:(lia)).
  - exact (C7 0%Z ltac:(lia)).
Qed.

Lemma div_rows_ok : forall T s a b w q, is_word a -> is_word b ->
  w = (if b =? 0 then 0 else a / b)%Z -> q = (if b =? 0 then a else a mod b)%Z ->
  written T (div_writes P s a b w q) ->
  div_eqs1 P T (s + 1) /\ (oc P T 21 (s + 1) * csum P T 0 (s + 1) = f0 \/ div_eqs2 P T (s + 2)).
Proof.
  intros T s a b w q A B W Q H.
  set (a64 := f_sum64 (fchunk (P := P) a)). set (b64 := f_sum64 (fchunk (P := P) b)).
  set (w64 := f_sum64 (fchunk (P := P) w)). set (q64 := f_sum64 (fchunk (P := P) q)).
  assert (HW : div_writes P s a b w q =
    blk s 0 16 (fchunk a) ++ blk s 16 4 (fchunk64 (h_c1 P a64 b64 w64 q64)) ++ blk s 20 1 (fun _ => h_c2 P a64 b64 w64 q64) ++
    blk (s + 1)%Z 0 16 (fchunk b) ++ blk (s + 1)%Z 16 4 (fchunk64 (h_c3 P a64 b64 w64 q64)) ++
    blk (s + 1)%Z 20 1 (fun _ => h_c4 P a64 b64 w64 q64) ++
    blk (s + 1)%Z 21 1 (fun _ => inv0 (fsum (fchunk b) 16)) ++
    blk (s + 2)%Z 0 16 (fchunk w) ++ blk (s + 2)%Z 16 16 (fchunk q) ++
    blk (s + 3)%Z 0 16 (div_t P b q) ++
    blk (s + 3)%Z 16 16 (fun i => inv0 (fsub (fchunk b i) (fchunk q i)))).
  { unfold div_writes, h_c3, h_c4, h_second, h_c1, h_c2, h_first, ff_first, ff_second. cbv zeta.
    fold a64 b64 w64 q64. reflexivity. }
  rewrite HW in H. clear HW.
  assert (C1 : cells P T 0 16 s (fchunk a)) by wcells H.
  assert (C2 : cells P T 0 16 (s + 1) (fchunk b)) by wcells H.
  assert (C3 : cells P T 0 16 (s + 2) (fchunk w)) by wcells H.
  assert (C3' : cells P T 16 16 (s + 2) (fchunk q)) by wcells H.
  assert (C4 : cells P T 16 4 s (fchunk64 (h_c1 P a64 b64 w64 q64))) by wcells H.
  assert (C5 : cells P T 16 4 (s + 1) (fchunk64 (h_c3 P a64 b64 w64 q64))) by wcells H.
  assert (C6 : cells P T 20 1 s (fun _ => h_c2 P a64 b64 w64 q64)) by wcells H.
  assert (C7 : cells P T 20 1 (s + 1) (fun _ => h_c4 P a64 b64 w64 q64)) by wcells H.
  assert (C8 : cells P T 21 1 (s + 1) (fun _ => inv0 (fsum (fchunk b) 16))) by wcells H.
  assert (C9 : cells P T 0 16 (s + 3) (div_t P b q)) by wcells H.
  assert (C10 : cells P T 16 16 (s + 3) (fun i => inv0 (fsub (fchunk b i) (fchunk q i)))) by wcells H.
  pose proof (C8 0%Z ltac:(lia)) as C8'. change (21 + 0)%Z with 21%Z in C8'.
  split.
  - apply (div_complete1 P T (s + 1) a b w q BIG2 A B W Q);
    replace (s + 1 - 1)%Z with s by lia; replace (s + 1 + 1)%Z with (s + 2)%Z by lia; try assumption.
    + exact (C6 0%Z ltac:(lia)).
    + exact (C7 0%Z ltac:(lia)).
  - destruct (Z.eqb_spec b 0) as [B0|B0].
    + left. rewrite (csum_chunk P T 0 (s + 1) b C2).
      rewrite (proj2 (chunk_zero P b B (pow_small 21 ltac:(lia))) B0).
      generalize (oc P T 21 (s + 1)). intros x. ring.
    + right. pose proof (Z.mod_pos_bound a b ltac:(unfold is_word in *; lia)).
      apply (div_complete2 P T (s + 2) b q (pow_small 21 ltac:(lia)));
        replace (s + 2 - 1)%Z with (s + 1)%Z by lia; replace (s + 2 + 1)%Z with (s + 3)%Z by lia;
        try assumption; try (unfold is_word in *; lia).
Qed.

Lemma iszero_row_ok : forall T s a, is_word a -> written T (iszero_writes P s a) -> iszero_eqs P T s.
Proof.
  intros T s a A H.
  assert (C1 : cells P T 0 16 s (fchunk a)) by wcells H.
  assert (C2 : cells P T 16 1 s (fun _ => if (a =? 0)%Z then f1 else f0)) by wcells H.
  assert (C3 : cells P T 17 15 s (fun _ => f0)) by wcells H.
  assert (C4 : cells P T 32 1 s (fun _ => inv0 (fsum (fchunk a) 16))) by wcells H.
  apply (iszero_complete P T s a (pow_small 21 ltac:(lia)) A C1).
  - exact (C2 0%Z ltac:(lia)).
  - intros i I. specialize (C3 (i - 17)%Z ltac:(lia)). replace (17 + (i - 17))%Z with i in C3 by lia. exact C3.
  - exact (C4 0%Z ltac:(lia)).
Qed.

(** All gates of the operation on all its rows. *)
Lemma op_gates_ok : forall T o s stk ws, op_assign P o s stk = Some (ws, stk) -> Forall is_word stk -> written T ws ->
  (1 < height o -> stp P T (s - 1) = f0)%Z -> stp P T s = f1 ->
  (forall i, (0 < i < height o)%Z -> stp P T (s + i) = f0) ->
  (forall i, (0 <= i < height o)%Z -> ss_filled row_col max_height (height o - 1 - i) T (s + i)) ->
  forall i, (0 <= i < height o)%Z -> forall e, In e (op_gates o) -> eval T (s + i) e = f0.
Proof.
  intros T o s stk ws OA FW WR SP S0 SN RS i I.
  assert (ST : (1 < height o)%Z -> i <> 1%Z -> stp P T (s + i - 1) = f0).
  { intros HH N. destruct (Z.eq_dec i 0) as [->|N0]; [rewrite Z.add_0_r; apply SP; exact HH|].
    replace (s + i - 1)%Z with (s + (i - 1))%Z by lia. apply SN. lia. }
  assert (S1 : stp P T (s + 1 - 1) <> f0).
  { replace (s + 1 - 1)%Z with s by lia. rewrite S0. apply f1_neq_f0. }
  assert (W2 : forall a b st, stk = a :: b :: st -> is_word a /\ is_word b).
  { intros a b st E. rewrite E in FW. inversion FW as [|? ? X1 X2]; inversion X2; auto. }
  destruct o; cbn [height] in *; cbn [op_gates].
  - destruct stk as [|a [|b st]]; cbn [op_assign] in OA; try discriminate. injection OA as <-.
    destruct (W2 a b st eq_refl) as [A B].
    destruct (Z.eq_dec i 1) as [->|N]; [|apply add_gates_off; apply ST; lia].
    apply add_gates_iff; [exact S1|]. eapply add_rows_ok; [exact A|exact B| |exact WR]. reflexivity.
  - destruct stk as [|a [|b st]]; cbn [op_assign] in OA; try discriminate. injection OA as <-.
    destruct (W2 a b st eq_refl) as [A B].
    destruct (Z.eq_dec i 1) as [->|N]; [|apply mul_gates_off; apply ST; lia].
    apply mul_gates_iff; [exact S1|]. eapply mul_rows_ok; [exact A|exact B| |exact WR]. reflexivity.
  - destruct stk as [|a [|b st]]; cbn [op_assign] in OA; try discriminate. injection OA as <-.
    destruct (W2 a b st eq_refl) as [A B].
    destruct (Z.eq_dec i 1) as [->|N]; [|apply add_gates_off; apply ST; lia].
    apply add_gates_iff; [exact S1|]. eapply add_rows_ok; [apply word_mod_word|exact B| |exact WR]. apply sub_word; assumption.
  - destruct stk as [|a [|b st]]; cbn [op_assign] in OA; try discriminate. injection OA as <-.
    destruct (W2 a b st eq_refl) as [A B].
    destruct (div_rows_ok T s a b _ _ A B eq_refl eq_refl WR) as [D1 D2].
    apply div_gates_iff. split.
    + destruct (Z.eq_dec i 1) as [->|N]; [right; exact D1|left; apply ST; lia].
    + destruct (Z.eq_dec i 2) as [->|N].
      * right. replace (s + 2 - 1)%Z with (s + 1)%Z by lia. exact D2.
      * left. rewrite (ss_option_val P T row_col max_height (4 - 1 - i) 1 (s + i)); unfold max_height in *; try lia.
        -- destruct (Z.eqb_spec 1 (4 - 1 - i)) as [E|E]; [lia|reflexivity].
        -- apply RS. exact I.
  - destruct stk as [|a st]; cbn [op_assign] in OA; try discriminate. injection OA as <-.
    assert (i = 0%Z) by lia. subst i. rewrite Z.add_0_r. apply iszero_gates_iff.
    inversion FW; subst. eapply iszero_row_ok; [eassumption|exact WR].
Qed.

(** ** One opcode *)
Definition block T (s : Z) (o : opcode) (stk : list Z) (g : regs P) : Prop :=
  (exists ws, op_assign P o s stk = Some (ws, stk) /\ written T ws) /\
  forall i, (0 <= i < height o)%Z -> row_filled T (s + i) o g (if (i =? 0)%Z then f1 else f0) (height o - 1 - i).

Lemma block_ext : forall T T' s o stk g,
  (forall c r, (s <= r < s + height o)%Z -> T' CWit c r = T CWit c r) -> block T s o stk g -> block T' s o stk g.
Proof.
  intros T T' s o stk g E [[ws [OA WR]] RF]. split.
  - exists ws. split; [exact OA|]. intros c r v I. rewrite E; [apply WR; exact I|].
    destruct (op_assign_facts o s stk ws stk T OA) as [_ [_ X]]. destruct (X c r v I). lia.
  - intros i I. apply (row_filled_ext T); [|apply RF; exact I]. intros c. apply E. lia.
Qed.

Lemma assign_opcode_ok : forall s_mid T cur o stk g T' cur' stk',
  assign_opcode s_mid T cur o stk g = Some (T', cur', stk') ->
  cur' = (cur + height o)%Z /\ stk' = stk /\ block T' cur o stk g /\
  (forall c r, (r < cur \/ cur' <= r)%Z -> T' CWit c r = T CWit c r) /\
  (forall ty c r, ty <> CWit -> T' ty c r =
     if (ctype_eqb ty CSel && (c =? s_mid) && (cur <=? r) && (r <? cur'))%Z%bool then f1 else T ty c r).
Proof.
  intros s_mid T cur o stk g T' cur' stk' H. unfold assign_opcode in H.
  destruct (op_assign P o cur stk) as [[ws stk1]|] eqn:OA; [|discriminate]. injection H as <- <- <-.
  destruct (op_assign_facts o cur stk ws stk1 T OA) as [-> [WR IN]].
  pose proof (height_range o) as HR.
  assert (HN : Z.of_nat (Z.to_nat (height o)) = height o) by lia.
  assert (K : (Z.of_nat (Z.to_nat (height o)) <= (height o - 1) + 1 < max_height)%Z) by (unfold max_height; lia).
  assert (KF : (Z.of_nat (Z.to_nat (height o)) <= fval (ofZ (P := P) (height o - 1)) + 1 < max_height)%Z)
    by (rewrite fval_ofZ_small; [exact K|lia]).
  set (T1 := wsets T ws) in *. set (T2 := enable_rows T1 s_mid cur (Z.to_nat (height o))).
  split; [reflexivity|]. split; [reflexivity|]. split; [split|split].
  - exists ws. split; [exact OA|]. intros c r v I. destruct (IN c r v I) as [C R].
    rewrite rows_assign_other; [|exact KF|right; right; right; exact C].
    unfold T2. rewrite enable_rows_val. cbn [ctype_eqb andb]. apply WR. exact I.
  - intros i I. apply rows_assign_filled; [exact K|]. lia.
  - intros c r R. rewrite rows_assign_other; [|exact KF|lia].
    unfold T2. rewrite enable_rows_val. cbn [ctype_eqb andb]. apply wsets_other.
    intros v I. destruct (IN c r v I). lia.
  - intros ty c r N. rewrite rows_assign_other; [|exact KF|left; exact N].
    unfold T2. rewrite enable_rows_val, HN. destruct (_ && _ && _ && _)%bool; [reflexivity|].
    apply wsets_wit_const. exact N.
Qed.

Lemma block_step : forall T s o stk g, block T s o stk g ->
  stp P T s = f1 /\ forall i, (0 < i < height o)%Z -> stp P T (s + i) = f0.
Proof.
  intros T s o stk g [_ RF]. pose proof (height_range o). split.
  - destruct (RF 0%Z ltac:(lia)) as [_ [_ [_ [_ [_ [_ [S _]]]]]]]. rewrite Z.add_0_r in S. exact S.
  - intros i I. destruct (RF i ltac:(lia)) as [_ [_ [_ [_ [_ [_ [S _]]]]]]].
    destruct (Z.eqb_spec i 0); [lia|exact S].
Qed.

(** ** The middle gate on the rows of one opcode *)
Lemma block_middle : forall s_end T s o stk g, block T s o stk g -> Forall is_word stk ->
  (1 < height o -> stp P T (s - 1) = f0)%Z ->
  (T CSel s_end (s + height o - 1)%Z = f1 \/ stp P T (s + height o) = f1) ->
  forall i, (0 <= i < height o)%Z -> forall e, In e (middle_gate (P := P) s_end) -> eval T (s + i) e = f0.
Proof.
  intros s_end T s o stk g B FW SP NX i I. pose proof (height_range o) as HR.
  destruct (block_step T s o stk g B) as [S0 SN]. destruct B as [[ws [OA WR]] RF].
  apply (middle_iff P s_end T (s + i) BIG). exists (byte o), (height o - 1 - i)%Z.
  destruct (RF i I) as [F1 [F2 [R1 [R2 [R3 [R4 [R5 [R6 R7]]]]]]]].
  split; [apply byte_range|]. split; [exact F1|]. split; [unfold max_height; lia|]. split; [exact F2|]. split.
  - assert (RI : forall z, (0 <= z < 10)%Z -> (z <> 0)%Z -> ofZ z * inv0 (ofZ z) = (f1 : F)).
    { intros z Z N. apply inv0_l. intros E. apply (ofZ_small_neq0 P BIG z); [lia|exact E]. }
    set (k := (height o - 1 - i)%Z) in *.
    assert (K : k = 0%Z \/ ofZ k * inv0 (ofZ k) = (f1 : F)).
    { destruct (Z.eq_dec k 0) as [E|E]; [left; exact E|right]. apply RI; [subst k; lia|exact E]. }
    unfold gen_eqs. rewrite R6, R7. repeat split.
    + destruct K as [K|K]; [rewrite K; change (ofZ 0) with (f0 : F); ring|].
      lc (ofZ k : F) K.
    + destruct K as [K|K]; [rewrite K; change (ofZ 0) with (f0 : F); rewrite inv0_0; ring|].
      lc (inv0 (ofZ k) : F) K.
    + destruct (Z.eq_dec i (height o - 1)) as [E|E].
      * assert (k = 0)%Z by (subst k; lia). rewrite H. change (ofZ 0) with (f0 : F). ring.
      * destruct (RF (i + 1)%Z ltac:(lia)) as [_ [_ [_ [_ [_ [_ [_ [X _]]]]]]]].
        replace (s + (i + 1))%Z with (s + i + 1)%Z in X by lia. rewrite X.
        replace (height o - 1 - (i + 1))%Z with (k - 1)%Z by (subst k; lia). rewrite ofZ_sub.
        change (ofZ 1) with (f1 : F). ring.
    + destruct (Z.eq_dec i 0) as [E|E].
      * subst i. rewrite Z.add_0_r, S0. ring.
      * destruct (RF (i - 1)%Z ltac:(lia)) as [G1 _]. unfold opc.
        rewrite (F1 0%Z) by (rewrite ss_w_opcodes; lia).
        replace (s + i - 1)%Z with (s + (i - 1))%Z by lia.
        rewrite (G1 0%Z) by (rewrite ss_w_opcodes; lia). ring.
    + destruct (Z.eq_dec i 0) as [E|E].
      * subst i. rewrite Z.add_0_r, S0. ring.
      * destruct (RF (i - 1)%Z ltac:(lia)) as [_ [_ [_ [_ [_ [_ [_ [X Y]]]]]]]].
        replace (s + i - 1)%Z with (s + (i - 1))%Z by lia. rewrite X, Y.
        pose proof (RI (height o - 1 - (i - 1))%Z ltac:(lia) ltac:(lia)) as Q.
        generalize dependent (stp P T (s + i)). intros x _.
        lc (fopp (f1 - x) : F) Q.
    + destruct (Z.eq_dec i (height o - 1)) as [E|E].
      * intros c _. subst i. replace (s + (height o - 1) + 1)%Z with (s + height o)%Z by lia.
        replace (s + (height o - 1))%Z with (s + height o - 1)%Z by lia.
        destruct NX as [NX|NX]; rewrite NX; ring.
      * destruct (RF (i + 1)%Z ltac:(lia)) as [_ [_ [Y1 [Y2 [Y3 [Y4 _]]]]]].
        replace (s + (i + 1))%Z with (s + i + 1)%Z in * by lia.
        intros c C. cbn [state_cols In] in C.
        assert (X : T CWit c (s + i + 1)%Z = T CWit c (s + i)%Z).
        { destruct C as [<-|[<-|[<-|[<-|[]]]]]; congruence. }
        rewrite X. ring.
  - intros o' E. apply byte_inj in E. subst o'. split.
    + rewrite R6. destruct (Z.eqb_spec (height o) 1) as [E|E].
      * replace (height o - 1 - i)%Z with 0%Z by lia. reflexivity.
      * destruct (Z.eq_dec i 0) as [->|N]; [left; f_equal; lia|right; apply SN; lia].
    + apply (op_gates_ok T o s stk ws); auto. intros j J. apply (RF j J).
Qed.

(** ** Whole runs *)
(** No ISZERO directly before an opcode of several rows. *)
Fixpoint seq_ok (ops : list (opcode * list Z * regs P)) : Prop :=
  match ops with
  | (o, _, _) :: rest =>
      match rest with
      | (o', _, _) :: _ => (height o = 1 -> height o' = 1)%Z
      | [] => True
      end /\ seq_ok rest
  | [] => True
  end.

Definition first_ok T (cur : Z) (ops : list (opcode * list Z * regs P)) : Prop :=
  match ops with (o, _, _) :: _ => (1 < height o)%Z -> stp P T (cur - 1) = f0 | [] => True end.

Lemma run_ok : forall s_mid ops T cur T' cur', run_ops s_mid T cur ops = Some (T', cur') ->
  Forall (fun x => Forall is_word (snd (fst x))) ops -> seq_ok ops -> first_ok T cur ops ->
  (cur <= cur')%Z /\ (ops <> [] -> cur < cur' /\ stp P T' cur = f1)%Z /\
  (forall c r, (r < cur \/ cur' <= r)%Z -> T' CWit c r = T CWit c r) /\
  (forall ty c r, ty <> CWit -> T' ty c r =
     if (ctype_eqb ty CSel && (c =? s_mid) && (cur <=? r) && (r <? cur'))%Z%bool then f1 else T ty c r) /\
  forall r, (cur <= r < cur')%Z -> exists s o stk g, block T' s o stk g /\ Forall is_word stk /\
    (s <= r < s + height o)%Z /\ (1 < height o -> stp P T' (s - 1) = f0)%Z /\
    (s + height o = cur' \/ stp P T' (s + height o) = f1)%Z.
Proof.
  intros s_mid ops. induction ops as [|[[o stk] g] rest IH]; intros T cur T' cur' H FW SQ FO.
  - cbn in H. injection H as <- <-. split; [lia|]. split; [congruence|]. split; [auto|]. split.
    + intros ty c r N. destruct (Z.leb_spec cur r), (Z.ltb_spec r cur); try lia; rewrite ?andb_false_r; reflexivity.
    + intros r R. lia.
  - cbn [run_ops] in H. destruct (assign_opcode s_mid T cur o stk g) as [[[T1 cur1] stk1]|] eqn:AO; [|discriminate].
    destruct (assign_opcode_ok _ _ _ _ _ _ _ _ _ AO) as [C1 [_ [B [E1 E2]]]].
    pose proof (height_range o) as HR. inversion FW as [|? ? FW1 FW2]; subst. cbn [fst snd] in FW1.
    set (cur1 := (cur + height o)%Z) in *.
    destruct (block_step _ _ _ _ _ B) as [S0 SN].
    assert (FO1 : first_ok T1 cur1 rest).
    { destruct rest as [|[[o' stk'] g'] rest']; [exact I|]. cbn [seq_ok] in SQ. destruct SQ as [SQ _].
      cbn [first_ok]. intros HO'. destruct (Z.eq_dec (height o) 1) as [HO|HO]; [specialize (SQ HO); lia|].
      unfold cur1. replace (cur + height o - 1)%Z with (cur + (height o - 1))%Z by lia. apply SN. lia. }
    assert (SQ1 : seq_ok rest) by (destruct rest; [exact I|apply SQ]).
    destruct (IH T1 cur1 T' cur' H FW2 SQ1 FO1) as [L [NE [K1 [K2 K3]]]].
    assert (B' : block T' cur o stk g).
    { apply (block_ext T1); [|exact B]. intros c r R. apply K1. lia. }
    destruct (block_step _ _ _ _ _ B') as [S0' SN'].
    split; [lia|]. split; [intros _; split; [lia|exact S0']|]. split; [|split].
    + intros c r R. rewrite K1 by lia. apply E1. lia.
    + intros ty c r N. rewrite K2, E2 by exact N.
      destruct (ctype_eqb ty CSel), (c =? s_mid)%Z; cbn [andb]; try reflexivity.
      destruct (Z.leb_spec cur1 r), (Z.ltb_spec r cur'), (Z.leb_spec cur r), (Z.ltb_spec r cur1); cbn [andb]; try lia; reflexivity.
    + intros r R. destruct (Z_lt_dec r cur1) as [D|D].
      * exists cur, o, stk, g. split; [exact B'|]. split; [exact FW1|]. split; [unfold cur1 in D; lia|]. split.
        -- intros HO. unfold stp. rewrite K1, E1 by lia. apply FO. exact HO.
        -- destruct rest as [|x rest']; [left; cbn in H; injection H as _ <-; reflexivity|right].
           apply NE. congruence.
      * apply K3. lia.
Qed.

Lemma run_defined : forall s_mid ops T cur,
  Forall (fun x => length (snd (fst x)) >= match fst (fst x) with ISZERO => 1 | _ => 2 end)%nat ops ->
  exists T' cur', run_ops s_mid T cur ops = Some (T', cur').
Proof.
  intros s_mid ops. induction ops as [|[[o stk] g] rest IH]; intros T cur H; [exists T, cur; reflexivity|].
  inversion H as [|? ? H1 H2]; subst. cbn [fst snd] in H1. cbn [run_ops].
  destruct (assign_opcode s_mid T cur o stk g) as [[[T1 cur1] stk1]|] eqn:AO; [apply IH; exact H2|exfalso].
  unfold assign_opcode in AO. destruct o, stk as [|a [|b st]]; cbn in H1; cbn [op_assign] in AO; try discriminate; lia.
Qed.

Lemma zk_complete : forall s_start s_end s_mid T start ops,
  s_start <> s_end -> s_start <> s_mid -> s_end <> s_mid ->
  (forall s r, In s [s_start; s_end; s_mid] -> T CSel s r = f0) ->
  T CWit col_step (start - 1)%Z = f0 ->
  ops <> [] -> Forall (fun x => Forall is_word (snd (fst x))) ops -> seq_ok ops ->
  Forall (fun x => length (snd (fst x)) >= match fst (fst x) with ISZERO => 1 | _ => 2 end)%nat ops ->
  exists T' fin, zk_run s_start s_end s_mid T start ops = Some (T', fin) /\ (start < fin)%Z /\
    zk_sat s_start s_end s_mid T' /\
    (forall r, (start <= r < fin)%Z -> active s_mid T' r) /\
    (forall c r, (r < start \/ fin <= r)%Z -> T' CWit c r = T CWit c r).
Proof.
  intros s_start s_end s_mid T start ops N1 N2 N3 SZ ST NE FW SQ DP.
  set (T0 := sset (sset T s_start start) s_mid start).
  destruct (run_defined s_mid ops T0 start DP) as [T1 [fin R]].
  assert (SS : forall T sel row c r, sset T sel row CSel c r = if ((c =? sel) && (r =? row))%Z%bool then f1 else T CSel c r) by reflexivity.
  assert (SW : forall T sel row c r, sset T sel row CWit c r = T CWit c r) by reflexivity.
  assert (FO : first_ok T0 start ops).
  { destruct ops as [|[[o stk] g] rest]; [exact I|]. intros _. exact ST. }
  destruct (run_ok s_mid ops T0 start T1 fin R FW SQ FO) as [L [NE' [K1 [K2 K3]]]].
  destruct (NE' NE) as [L' S0].
  exists (sset T1 s_end (fin - 1)), fin. split; [unfold zk_run; fold T0; rewrite R; reflexivity|].
  split; [exact L'|].
  assert (E0 : forall s r, In s [s_start; s_end; s_mid] -> T0 CSel s r =
     if ((s =? s_mid) && (r =? start))%Z%bool then f1 else if ((s =? s_start) && (r =? start))%Z%bool then f1 else f0).
  { intros s r I. unfold T0. rewrite !SS. rewrite SZ by exact I. reflexivity. }
  split; [split; [|split]|split].
  - intros r A e I. cbn in I. destruct I as [<-|[]].
    rewrite SS, K2, E0 in A by (discriminate || (cbn; tauto)).
    destruct (Z.eqb_spec s_start s_end); [contradiction|]. destruct (Z.eqb_spec s_start s_mid); [contradiction|].
    rewrite Z.eqb_refl in A. cbn [ctype_eqb andb] in A.
    destruct (Z.eqb_spec r start) as [D|D]; [|congruence]. rewrite D.
    unfold step. rewrite eval_bin, eval_wv, eval_ecst, Z.add_0_r. cbn [ebop]. rewrite SW.
    change (stp P T1 start - ofZ 1 = f0). rewrite S0. change (ofZ 1) with (f1 : F). ring.
  - intros r A e [].
  - intros r A.
    assert (RR : (start <= r < fin)%Z).
    { rewrite SS, K2, E0 in A by (discriminate || (cbn; tauto)).
      destruct (Z.eqb_spec s_mid s_end); [congruence|]. destruct (Z.eqb_spec s_mid s_start); [congruence|].
      rewrite Z.eqb_refl in A. cbn [ctype_eqb andb] in A.
      destruct (Z.leb_spec start r), (Z.ltb_spec r fin), (Z.eqb_spec r start); cbn [andb] in A; try lia; congruence. }
    destruct (K3 r RR) as [s [o [stk [g [B [FS [SR [SP NX]]]]]]]].
    replace r with (s + (r - s))%Z by lia.
    apply (block_middle s_end _ s o stk g).
    + apply (block_ext T1); [reflexivity|exact B].
    + exact FS.
    + exact SP.
    + destruct NX as [NX|NX]; [left|right; exact NX].
      rewrite SS, NX, !Z.eqb_refl. reflexivity.
    + lia.
  - intros r RR. unfold active. rewrite SS, K2, E0 by (discriminate || (cbn; tauto)).
    destruct (Z.eqb_spec s_mid s_end); [congruence|]. rewrite Z.eqb_refl. cbn [ctype_eqb andb].
    destruct (Z.leb_spec start r), (Z.ltb_spec r fin); cbn [andb]; try lia. apply f1_neq_f0.
  - intros c r RR. rewrite SW, K1 by exact RR. reflexivity.
Qed.

(** ** What a run leaves in the table *)

(** Words shown by the rows of one opcode: operands and result. *)
Definition shows T (s : Z) (o : opcode) (stk : list Z) : Prop :=
  match o, stk with
  | ADD, a :: b :: _ => (word T 0 s = a /\ word T 0 (s + 1) = b /\ word T 0 (s + 2) = (a + b) mod 2 ^ 256)%Z
  | SUB, a :: b :: _ => (word T 0 (s + 2) = a /\ word T 0 (s + 1) = b /\ word T 0 s = (a - b) mod 2 ^ 256)%Z
  | MUL, a :: b :: _ => (word T 0 s = a /\ word T 0 (s + 1) = b /\ word T 0 (s + 2) = (a * b) mod 2 ^ 256)%Z
  | DIV, a :: b :: _ => (word T 0 s = a /\ word T 0 (s + 1) = b /\
      word T 0 (s + 2) = (if b =? 0 then 0 else a / b) /\
      word T 16 (s + 2) = (if b =? 0 then a else a mod b))%Z
  | ISZERO, a :: _ => (word T 0 s = a /\ word T 16 s = (if a =? 0 then 1 else 0))%Z
  | _, _ => False
  end.

(** The opcodes of a program lie one after the other from row [s] on. *)
Fixpoint laid T (s : Z) (ops : list (opcode * list Z * regs P)) : Prop :=
  match ops with
  | [] => True
  | (o, stk, g) :: rest =>
      T CWit col_step s = f1 /\
      (forall i, (0 < i < height o)%Z -> T CWit col_step (s + i)%Z = f0) /\
      (forall i, (0 <= i < height o)%Z -> opcode_at T (s + i) o /\
         T CWit col_pc (s + i)%Z = r_pc g /\ T CWit col_stack (s + i)%Z = r_stack g /\
         T CWit col_mem (s + i)%Z = r_mem g /\ T CWit col_gas (s + i)%Z = r_gas g) /\
      shows T s o stk /\ laid T (s + height o) rest
  end.

Lemma cells_word : forall T c0 r w, is_word w -> cells P T c0 16 r (fchunk w) -> word T c0 r = w.
Proof.
  intros T c0 r w W H. unfold word. transitivity (wordsum (chunk w) 16); [|apply word_chunks; exact W]. apply wordsum_ext.
  intros i I. rewrite <- (fchunk_val P w i) by (try lia; apply (pow_small 16); lia). f_equal. apply H. exact I.
Qed.

Lemma block_shows : forall T s o stk g, block T s o stk g -> Forall is_word stk -> shows T s o stk.
Proof.
  intros T s o stk g [[ws [OA WR]] _] FW.
  assert (W2 : forall a b st, stk = a :: b :: st -> is_word a /\ is_word b).
  { intros a b st E. rewrite E in FW. inversion FW as [|? ? X1 X2]; inversion X2; auto. }
  destruct o.
  - destruct stk as [|a [|b st]]; cbn [op_assign] in OA; try discriminate. injection OA as <-.
    destruct (W2 a b st eq_refl) as [A B]. cbn [shows].
    split; [|split]; (apply cells_word; [assumption || apply word_mod_word|wcells WR]).
  - destruct stk as [|a [|b st]]; cbn [op_assign] in OA; try discriminate. injection OA as <-.
    destruct (W2 a b st eq_refl) as [A B]. cbn [shows]. unfold mul_writes in WR. cbv zeta in WR.
    split; [|split]; (apply cells_word; [assumption || apply word_mod_word|wcells WR]).
  - destruct stk as [|a [|b st]]; cbn [op_assign] in OA; try discriminate. injection OA as <-.
    destruct (W2 a b st eq_refl) as [A B]. cbn [shows].
    split; [|split]; (apply cells_word; [assumption || apply word_mod_word|wcells WR]).
  - destruct stk as [|a [|b st]]; cbn [op_assign] in OA; try discriminate. injection OA as <-.
    destruct (W2 a b st eq_refl) as [A B]. cbn [shows]. unfold div_writes in WR. cbv zeta in WR.
    destruct (quot_rem a b _ _ A B eq_refl eq_refl) as [Q1 [Q2 _]].
    split; [|split; [|split]]; (apply cells_word; [assumption|wcells WR]).
  - destruct stk as [|a st]; cbn [op_assign] in OA; try discriminate. injection OA as <-.
    inversion FW; subst. cbn [shows].
    assert (IZ : iszero_eqs P T s) by (apply (iszero_row_ok T s a); assumption).
    assert (C : cells P T 0 16 s (fchunk a)) by wcells WR.
    assert (WA : word T 0 s = a) by (apply cells_word; assumption).
    split; [exact WA|]. transitivity (if word T 0 s =? 0 then 1 else 0)%Z; [|rewrite WA; reflexivity].
    apply iszero_sound; [apply (pow_small 21); lia| |exact IZ].
    intros i I. change (fval (oc P T (0 + i) s) < 2 ^ 16)%Z. rewrite (C i I).
    rewrite fchunk_val by (try lia; apply (pow_small 16); lia). apply chunk_range. lia.
Qed.

Lemma laid_ext : forall ops T T' s, (forall c r, (s <= r)%Z -> T' CWit c r = T CWit c r) -> laid T s ops -> laid T' s ops.
Proof.
  induction ops as [|[[o stk] g] rest IH]; intros T T' s E H; [exact I|].
  cbn [laid] in *. destruct H as [H1 [H2 [H3 [H4 H5]]]]. pose proof (height_range o) as HR.
  assert (WE : forall c0 r, (s <= r)%Z -> word T' c0 r = word T c0 r).
  { intros c0 r R. unfold word. apply wordsum_ext. intros i _. rewrite E by exact R. reflexivity. }
  split; [rewrite E by lia; exact H1|]. split; [intros i I; rewrite E by lia; apply H2; exact I|]. split.
  - intros i I. unfold opcode_at. rewrite !E by lia. apply H3. exact I.
  - split.
    + destruct o, stk as [|a [|b st]]; cbn [shows height] in *; rewrite ?WE by lia; assumption.
    + apply (IH T); [intros; apply E; lia|exact H5].
Qed.

Lemma run_laid : forall s_mid ops T cur T' cur', run_ops s_mid T cur ops = Some (T', cur') ->
  Forall (fun x => Forall is_word (snd (fst x))) ops ->
  laid T' cur ops /\ cur' = (cur + fold_right (fun x z => height (fst (fst x)) + z) 0 ops)%Z /\
  forall c r, (r < cur)%Z -> T' CWit c r = T CWit c r.
Proof.
  intros s_mid ops. induction ops as [|[[o stk] g] rest IH]; intros T cur T' cur' H FW.
  - cbn in H. injection H as <- <-. split; [exact I|]. split; [cbn; lia|auto].
  - cbn [run_ops] in H. destruct (assign_opcode s_mid T cur o stk g) as [[[T1 cur1] stk1]|] eqn:AO; [|discriminate].
    destruct (assign_opcode_ok _ _ _ _ _ _ _ _ _ AO) as [C1 [_ [B [E1 E2]]]].
    pose proof (height_range o) as HR. inversion FW as [|? ? FW1 FW2]; subst. cbn [fst snd] in FW1.
    destruct (IH T1 (cur + height o)%Z T' cur' H FW2) as [L [C K]].
    assert (B' : block T' cur o stk g).
    { apply (block_ext T1); [|exact B]. intros c r R. apply K. lia. }
    destruct (block_step _ _ _ _ _ B') as [S0 SN].
    split; [|split].
    + cbn [laid]. split; [exact S0|]. split; [exact SN|]. split; [|split; [|exact L]].
      * intros i I. destruct B' as [_ RF]. destruct (RF i I) as [F1 [_ [R1 [R2 [R3 [R4 _]]]]]].
        split; [|tauto]. exact (F1 0%Z ltac:(rewrite ss_w_opcodes; lia)).
      * apply (block_shows T' cur o stk g); assumption.
    + cbn [fold_right fst]. lia.
    + intros c r R. rewrite K, E1 by lia. reflexivity.
Qed.

Lemma zk_run_laid : forall s_start s_end s_mid T start ops T' fin,
  zk_run s_start s_end s_mid T start ops = Some (T', fin) ->
  Forall (fun x => Forall is_word (snd (fst x))) ops ->
  laid T' start ops /\ fin = (start + fold_right (fun x z => height (fst (fst x)) + z) 0 ops)%Z.
Proof.
  intros s_start s_end s_mid T start ops T' fin H FW. unfold zk_run in H.
  destruct (run_ops s_mid _ start ops) as [[T1 cur]|] eqn:R; [|discriminate]. injection H as <- <-.
  destruct (run_laid _ _ _ _ _ _ R FW) as [L [C _]]. split; [|exact C].
  apply (laid_ext ops T1); [reflexivity|exact L].
Qed.

(** The machine stack is handed back unchanged. *)
Lemma assign_opcode_stack : forall s_mid T cur o stk g T' cur' stk',
  assign_opcode s_mid T cur o stk g = Some (T', cur', stk') -> stk' = stk.
Proof. intros. destruct (assign_opcode_ok _ _ _ _ _ _ _ _ _ H) as [_ [E _]]. exact E. Qed.
End Run.
