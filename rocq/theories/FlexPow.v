(** constant_pow and x_index: what the gates enforce, what they leave open. *)
From Coq Require Import ZArith List Lia Bool Field.
From Verif Require Import Base Field Primes Plonk PlonkFacts Bits PowerModel PowerProofs FlexModel FlexProofs.
Import ListNotations.
Open Scope Z_scope.

(** ** Digits *)

Lemma log2_loop_ok : forall fuel r pow, 0 <= r -> Z.log2_up pow - r <= Z.of_nat fuel ->
  log2_loop fuel (2 ^ r) pow r = Z.max r (Z.log2_up pow).
Proof.
  induction fuel as [|fuel IH]; intros r pow Hr Hf; cbn [log2_loop].
  - lia.
  - destruct (2 ^ r <? pow) eqn:E; [apply Z.ltb_lt in E|apply Z.ltb_ge in E].
    + replace (2 ^ r * 2) with (2 ^ (r + 1)) by (rewrite Z.pow_add_r by lia; reflexivity).
      rewrite IH by lia. apply Z.log2_up_lt_pow2 in E; [lia|]. pose proof (Z.pow_pos_nonneg 2 r). lia.
    + pose proof (Z.log2_up_le_mono _ _ E) as M. rewrite Z.log2_up_pow2 in M by lia. lia.
Qed.

Lemma it_log2_ok : forall pow, it_log2 pow = Z.log2_up pow.
Proof.
  intros pow. unfold it_log2. pose proof (log2_loop_ok (Z.to_nat (Z.log2 pow) + 1) 0 pow) as H. cbn [Z.pow Z.pow_pos Pos.iter] in H.
  change (2 ^ 0) with 1 in H. rewrite H.
  - pose proof (Z.log2_up_nonneg pow). lia.
  - lia.
  - pose proof (Z.le_log2_up_succ_log2 pow). pose proof (Z.log2_nonneg pow). lia.
Qed.

Lemma log2_div4 : forall n, 4 <= n -> Z.log2 (n / 4) = Z.log2 n - 2.
Proof.
  intros n H. change 4 with (2 ^ 2). rewrite <- Z.shiftr_div_pow2 by lia. rewrite Z.log2_shiftr by lia.
  assert (2 <= Z.log2 n) by (change 2 with (Z.log2 4); apply Z.log2_le_mono; lia). lia.
Qed.

Lemma four_loop_ok : forall fuel n, 0 <= n < 4 ^ Z.of_nat fuel ->
  zlen (four_loop fuel n) = (if n =? 0 then 0 else Z.log2 n / 2 + 1) /\
  Forall (fun d => 0 <= d < 4) (four_loop fuel n) /\
  fold_left (fun a d => 4 * a + d) (four_loop fuel n) 0 = n.
Proof.
  induction fuel as [|fuel IH]; intros n Hn.
  - change (4 ^ Z.of_nat 0) with 1 in Hn. assert (n = 0) by lia. subst. split; [reflexivity|]. split; [constructor|reflexivity].
  - cbn [four_loop]. destruct (0 <? n) eqn:E; [apply Z.ltb_lt in E|apply Z.ltb_ge in E].
    + pose proof (Z.mod_pos_bound n 4 ltac:(lia)). pose proof (Z.div_mod n 4 ltac:(lia)).
      replace (4 ^ Z.of_nat (S fuel)) with (4 * 4 ^ Z.of_nat fuel) in Hn
        by (replace (Z.of_nat (S fuel)) with (Z.of_nat fuel + 1) by lia; rewrite Z.pow_add_r by lia; lia).
      destruct (IH (n / 4)) as [LN [F V]].
      { split; [apply Z.div_pos; lia|apply Z.div_lt_upper_bound; lia]. }
      split; [|split].
      * replace (n =? 0) with false by (symmetry; apply Z.eqb_neq; lia).
        unfold zlen in *. rewrite app_length. cbn [length]. rewrite Nat2Z.inj_add, LN.
        destruct (Z_lt_ge_dec n 4) as [H4|H4].
        -- rewrite Z.div_small by lia. cbn [Z.eqb].
           assert (Z.log2 n < 2) by (apply Z.log2_lt_pow2; lia). pose proof (Z.log2_nonneg n).
           rewrite Z.div_small by lia. lia.
        -- replace (n / 4 =? 0) with false
             by (symmetry; apply Z.eqb_neq; pose proof (Z.div_le_lower_bound n 4 1); lia).
           rewrite log2_div4 by lia.
           replace (Z.log2 n) with (Z.log2 n - 2 + 1 * 2) at 2 by lia. rewrite Z.div_add by lia. lia.
      * apply Forall_app. split; [exact F|]. constructor; [lia|constructor].
      * rewrite fold_left_app, V. cbn [fold_left]. lia.
    + assert (n = 0) by lia. subst. split; [reflexivity|]. split; [constructor|reflexivity].
Qed.

Lemma four_chunks_ok : forall n, 0 <= n ->
  zlen (four_chunks n) = (if n =? 0 then 0 else Z.log2 n / 2 + 1) /\
  Forall (fun d => 0 <= d < 4) (four_chunks n) /\
  fold_left (fun a d => 4 * a + d) (four_chunks n) 0 = n.
Proof.
  intros n H. apply four_loop_ok. split; [exact H|].
  pose proof (Z.log2_nonneg n). replace (Z.of_nat (Z.to_nat (Z.log2 n) + 1)) with (Z.log2 n + 1) by lia.
  destruct (Z.eq_dec n 0) as [->|N]; [reflexivity|].
  apply Z.lt_le_trans with (2 ^ (Z.log2 n + 1)).
  - pose proof (Z.log2_spec n ltac:(lia)). lia.
  - apply Z.pow_le_mono_l. lia.
Qed.

(** The constructor's assertion fails exactly for the powers of four. *)
Lemma cp_constructs_ok : forall pow, 0 <= pow ->
  (cp_constructs pow = false <-> exists m, 0 <= m /\ pow = 4 ^ m).
Proof.
  intros pow Hp. unfold cp_constructs. rewrite it_log2_ok. destruct (four_chunks_ok pow Hp) as [-> _].
  rewrite Z.eqb_neq. destruct (pow =? 0) eqn:E; [apply Z.eqb_eq in E|apply Z.eqb_neq in E].
  - subst. change ((Z.log2_up 0 + 1) / 2) with 0. split; [lia|]. intros [m [Hm H]].
    pose proof (Z.pow_pos_nonneg 4 m). lia.
  - assert (K : Z.log2_up pow = if (2 ^ Z.log2 pow =? pow)%Z then Z.log2 pow else Z.log2 pow + 1).
    { pose proof (Z.log2_nonneg pow). pose proof (Z.log2_spec pow ltac:(lia)) as S.
      destruct (2 ^ Z.log2 pow =? pow) eqn:E2; [apply Z.eqb_eq in E2|apply Z.eqb_neq in E2].
      - rewrite <- E2 at 1. apply Z.log2_up_pow2. lia.
      - apply Z.log2_up_unique; [lia|]. unfold Z.succ in S. replace (Z.pred (Z.log2 pow + 1)) with (Z.log2 pow) by lia. lia. }
    rewrite K. pose proof (Z.log2_nonneg pow) as N.
    pose proof (Z.div_mod (Z.log2 pow) 2 ltac:(lia)) as D. pose proof (Z.mod_pos_bound (Z.log2 pow) 2 ltac:(lia)) as M.
    pose proof (Z.div_mod (Z.log2 pow + 1) 2 ltac:(lia)). pose proof (Z.mod_pos_bound (Z.log2 pow + 1) 2 ltac:(lia)).
    pose proof (Z.div_mod (Z.log2 pow + 1 + 1) 2 ltac:(lia)). pose proof (Z.mod_pos_bound (Z.log2 pow + 1 + 1) 2 ltac:(lia)).
    destruct (2 ^ Z.log2 pow =? pow) eqn:E2; [apply Z.eqb_eq in E2|apply Z.eqb_neq in E2].
    + split.
      * intros H3. exists (Z.log2 pow / 2). split; [lia|]. change 4 with (2 ^ 2). rewrite <- Z.pow_mul_r by lia.
        replace (2 * (Z.log2 pow / 2)) with (Z.log2 pow) by lia. lia.
      * intros [m [Hm H3]].
        assert (Z.log2 pow = 2 * m) by (rewrite H3; change 4 with (2 ^ 2); rewrite <- Z.pow_mul_r by lia; apply Z.log2_pow2; lia).
        lia.
    + split; [lia|]. intros [m [Hm H3]]. exfalso. apply E2.
      assert (L2 : Z.log2 pow = 2 * m) by (rewrite H3; change 4 with (2 ^ 2); rewrite <- Z.pow_mul_r by lia; apply Z.log2_pow2; lia).
      rewrite L2, H3. change 4 with (2 ^ 2). rewrite <- Z.pow_mul_r by lia. reflexivity.
Qed.

(** The number written by the first [t] digits. *)
Definition pre4 (ds : list Z) (t : Z) : Z := fold_left (fun a k => 4 * a + znth 0 ds k) (zseq 0 t) 0.

Lemma pre4_S : forall ds t, 0 <= t -> pre4 ds (t + 1) = 4 * pre4 ds t + znth 0 ds t.
Proof. intros. unfold pre4. apply fold_zseq_snoc. exact H. Qed.

Lemma fold_znth : forall A B (d0 : B) (f : A -> B -> A) (ds : list B) (a : A),
  fold_left (fun a k => f a (znth d0 ds k)) (zseq 0 (zlen ds)) a = fold_left f ds a.
Proof.
  intros A B d0 f ds. induction ds as [|d ds IH] using rev_ind; intros a; [reflexivity|].
  unfold zlen. rewrite app_length. cbn [length]. rewrite Nat2Z.inj_add.
  change (Z.of_nat 1) with 1. rewrite fold_zseq_snoc by lia. rewrite fold_left_app. cbn [fold_left].
  replace (znth d0 (ds ++ [d]) (Z.of_nat (length ds))) with d
    by (unfold znth; rewrite Nat2Z.id, app_nth2, Nat.sub_diag by lia; reflexivity). f_equal.
  rewrite <- IH. unfold zlen.
  assert (G : forall l a, (forall k, In k l -> 0 <= k < Z.of_nat (length ds)) ->
     fold_left (fun a k => f a (znth d0 (ds ++ [d]) k)) l a = fold_left (fun a k => f a (znth d0 ds k)) l a).
  { induction l as [|k l IHl]; intros b Hl; [reflexivity|]. cbn [fold_left].
    rewrite IHl by (intros; apply Hl; right; assumption). f_equal. f_equal. unfold znth. apply app_nth1.
    specialize (Hl k (or_introl eq_refl)). lia. }
  apply G. intros k Hk. apply in_zseq in Hk. lia.
Qed.

Lemma pre4_full : forall n, 0 <= n -> pre4 (four_chunks n) (zlen (four_chunks n)) = n.
Proof.
  intros n H. unfold pre4. rewrite (fold_znth Z Z 0 (fun a d => 4 * a + d)). apply four_chunks_ok. exact H.
Qed.

Lemma digit4_range : forall n k, 0 <= n -> 0 <= k < zlen (four_chunks n) -> 0 <= znth 0 (four_chunks n) k < 4.
Proof.
  intros n k Hn Hk. destruct (four_chunks_ok n Hn) as [_ [F _]].
  apply (proj1 (Forall_forall _ _) F). apply znth_In. exact Hk.
Qed.

Lemma pre4_nonneg : forall n t, 0 <= n -> 0 <= t <= zlen (four_chunks n) -> 0 <= pre4 (four_chunks n) t.
Proof.
  intros n t Hn [H0 Ht]. revert t H0 Ht.
  apply (natlike_ind (fun t => t <= zlen (four_chunks n) -> 0 <= pre4 (four_chunks n) t)).
  - intros _. unfold pre4. cbn. lia.
  - intros t Ht IH Hle. unfold Z.succ in *. rewrite pre4_S by lia.
    pose proof (digit4_range n t Hn ltac:(lia)). lia.
Qed.

(** The leading digits are a quotient. *)
Lemma pre4_div : forall n t, 0 <= n -> 0 <= t <= zlen (four_chunks n) ->
  pre4 (four_chunks n) t = n / 4 ^ (zlen (four_chunks n) - t).
Proof.
  intros n t Hn Ht. set (ds := four_chunks n) in *.
  assert (G : forall k, 0 <= k -> k <= zlen ds -> pre4 ds (zlen ds - k) = n / 4 ^ k).
  { apply (natlike_ind (fun k => k <= zlen ds -> pre4 ds (zlen ds - k) = n / 4 ^ k)).
    - intros _. rewrite Z.sub_0_r, Z.pow_0_r, Z.div_1_r. apply pre4_full. exact Hn.
    - intros k Hk IH Hle. unfold Z.succ in *. specialize (IH ltac:(lia)).
      replace (zlen ds - k) with (zlen ds - (k + 1) + 1) in IH by lia. rewrite pre4_S in IH by lia.
      pose proof (digit4_range n (zlen ds - (k + 1)) Hn ltac:(fold ds; lia)) as DR. fold ds in DR.
      rewrite Z.pow_add_r, <- Z.div_div by (try apply Z.pow_pos_nonneg; lia). rewrite <- IH. change (4 ^ 1) with 4.
      rewrite Z.mul_comm, Z.div_add_l by lia. rewrite Z.div_small by lia. lia. }
  rewrite <- (G (zlen ds - t)) by lia. f_equal. lia.
Qed.

Section Proofs.
Variable P : params.
Notation F := (F P).
Notation table := (table P).
Variable L : lenv P.
Implicit Types T : table.
Add Field Ff : (F_field P) (morphism (F_morph P), constants [F_const], power_tac (F_power P) [F_pow_tac]).
Local Open Scope F_scope.

(** ** constant_pow *)

(** Where the value after [k] digits stands. *)
Definition cp_col (per k : Z) : Z := if (k =? 0)%Z then 1%Z else ((k - 1) mod per + 2)%Z.
Definition cp_row (per k : Z) : Z := if (k =? 0)%Z then 0%Z else ((k - 1) / per)%Z.
Definition cp_cell T c per row k : F := T CWit (W c (cp_col per k)) (row + cp_row per k)%Z.

Definition cp_len (pow : Z) : Z := zlen (four_chunks pow).

Lemma cp_rows_spec : forall w pow, (3 <= w)%Z -> (0 <= pow)%Z -> cp_constructs pow = true ->
  cp_rows w pow = ceil_rows (cp_len pow) (w - 2) /\ (0 <= cp_rows w pow)%Z /\
  (cp_len pow <= cp_rows w pow * (w - 2) < cp_len pow + (w - 2))%Z.
Proof.
  intros w pow Hw Hp HC. unfold cp_constructs in HC. apply Z.eqb_eq in HC.
  assert (E : cp_rows w pow = ceil_rows (cp_len pow) (w - 2)) by (unfold cp_rows, cp_len; rewrite HC; reflexivity).
  split; [exact E|]. rewrite E. apply ceil_rows_spec; [lia|apply zlen_nonneg].
Qed.

Lemma cp_gate_iff : forall T c w pow i r, wamount c = w -> 
  ((forall e, In e (cp_gate c pow i) -> eval T r e = f0) <->
   forall b, (0 <= b < w - 2)%Z -> (i * (w - 2) + b < cp_len pow)%Z ->
     T CWit (W c (b + 2)) r = fpow (T CWit (W c (b + 1)) r) 4 *
       fpow (T CWit (W c 0) r) (Z.to_nat (znth 0%Z (four_chunks pow) (i * (w - 2) + b)))).
Proof.
  intros T c w pow i r Hw. unfold cp_gate. rewrite Hw. cbv zeta. fold (cp_len pow). split.
  - intros H b Hb Hl. apply fsub0.
    rewrite <- (H (#(wv (W c (b + 2)) 0) - EPow #(wv (W c (b + 1)) 0) 4 *
       EPow #(wv (W c 0) 0) (Z.to_nat (znth 0%Z (four_chunks pow) (i * (w - 2) + b))))%E).
    + rewrite !eval_bin, !eval_pow, !eval_evar, !gval_wv, !Z.add_0_r. reflexivity.
    + apply in_flat_map. exists b. split; [apply in_zseq; lia|].
      replace (i * (w - 2) + b <? cp_len pow)%Z with true by (symmetry; apply Z.ltb_lt; lia). left. reflexivity.
  - intros H e He. apply in_flat_map in He. destruct He as [b [Hb He]]. apply in_zseq in Hb.
    destruct (i * (w - 2) + b <? cp_len pow)%Z eqn:E; [apply Z.ltb_lt in E|destruct He].
    destruct He as [<-|[]]. rewrite !eval_bin, !eval_pow, !eval_evar, !gval_wv, !Z.add_0_r. cbn [ebop].
    rewrite H by lia. ring.
Qed.

Lemma cp_copies_iff : forall T c w pow x row, wamount c = w ->
  (sat L T (cp_copies c pow x row) <->
   (forall i, (0 <= i < cp_rows w pow)%Z -> vval T x = T CWit (W c 0) (row + i)%Z) /\
   (forall i, (1 <= i < cp_rows w pow)%Z -> T CWit (W c 1) (row + i)%Z = T CWit (W c (w - 1)) (row + i - 1)%Z)).
Proof.
  intros T c w pow x row Hw. unfold cp_copies. rewrite Hw. cbv zeta. split.
  - intros H. split; intros i Hi.
    + apply (H (Copy x (wcell (W c 0) (row + i)))). apply in_flat_map. exists i.
      split; [apply in_zseq; lia|]. left. reflexivity.
    + apply (H (Copy (wcell (W c 1) (row + i)) (wcell (W c (w - 1)) (row + i - 1)))). apply in_flat_map. exists i.
      split; [apply in_zseq; lia|]. right.
      replace (i =? 0)%Z with false by (symmetry; apply Z.eqb_neq; lia). left. reflexivity.
  - intros [H1 H2] cm Hc. apply in_flat_map in Hc. destruct Hc as [i [Hi Hc]]. apply in_zseq in Hi.
    destruct Hc as [<-|Hc]; [cbn [holds]; rewrite vval_wcell; apply H1; lia|].
    destruct (i =? 0)%Z eqn:E; [destruct Hc|apply Z.eqb_neq in E]. destruct Hc as [<-|[]].
    cbn [holds]. rewrite !vval_wcell. apply H2. lia.
Qed.

(** The circuit, as one equation per digit. *)
Lemma cp_circuit_iff : forall T c w pow x row, wamount c = w -> (3 <= w)%Z -> (0 <= pow)%Z -> cp_constructs pow = true ->
  (sat L T (cp_circuit c pow x row) <->
   (forall k, (0 <= k < cp_len pow)%Z ->
     T CWit (W c (k mod (w - 2) + 2)) (row + k / (w - 2))%Z =
     fpow (T CWit (W c (k mod (w - 2) + 1)) (row + k / (w - 2))%Z) 4 *
     fpow (T CWit (W c 0) (row + k / (w - 2))%Z) (Z.to_nat (znth 0%Z (four_chunks pow) k))) /\
   (forall i, (0 <= i < cp_rows w pow)%Z -> vval T x = T CWit (W c 0) (row + i)%Z) /\
   (forall i, (1 <= i < cp_rows w pow)%Z -> T CWit (W c 1) (row + i)%Z = T CWit (W c (w - 1)) (row + i - 1)%Z)).
Proof.
  intros T c w pow x row Hw H3 Hp HC. destruct (cp_rows_spec w pow H3 Hp HC) as [_ [R0 R1]].
  unfold cp_circuit. rewrite sat_app, (cp_copies_iff T c w) by exact Hw. rewrite sat_map, Hw.
  assert (G : (forall a, In a (zseq 0 (cp_rows w pow)) -> holds L T (Gate (cp_gate c pow a) [row + a])%Z) <->
    (forall k, (0 <= k < cp_len pow)%Z ->
     T CWit (W c (k mod (w - 2) + 2)) (row + k / (w - 2))%Z =
     fpow (T CWit (W c (k mod (w - 2) + 1)) (row + k / (w - 2))%Z) 4 *
     fpow (T CWit (W c 0) (row + k / (w - 2))%Z) (Z.to_nat (znth 0%Z (four_chunks pow) k)))).
  { split.
    - intros H k Hk. pose proof (Z.div_mod k (w - 2) ltac:(lia)) as D. pose proof (Z.mod_pos_bound k (w - 2) ltac:(lia)) as M.
      assert (Q : (0 <= k / (w - 2) < cp_rows w pow)%Z)
        by (split; [apply Z.div_pos; lia|apply Z.div_lt_upper_bound; lia]).
      specialize (H (k / (w - 2))%Z ltac:(apply in_zseq; lia)). rewrite holds_gate1 in H.
      rewrite (cp_gate_iff T c w) in H by exact Hw.
      specialize (H (k mod (w - 2))%Z M ltac:(lia)).
      replace (k / (w - 2) * (w - 2) + k mod (w - 2))%Z with k in H by lia. exact H.
    - intros H i Hi. apply in_zseq in Hi. rewrite holds_gate1. rewrite (cp_gate_iff T c w) by exact Hw.
      intros b Hb Hl. assert (0 <= i * (w - 2))%Z by nia. specialize (H (i * (w - 2) + b)%Z ltac:(lia)).
      destruct (pos_div (w - 2) i b Hb) as [E1 E2]. rewrite E1, E2 in H. exact H. }
  rewrite G. reflexivity.
Qed.

Lemma cp_prev : forall T c w pow row k, wamount c = w -> (3 <= w)%Z -> (0 <= k < cp_len pow)%Z ->
  (cp_len pow <= cp_rows w pow * (w - 2))%Z ->
  (forall i, (1 <= i < cp_rows w pow)%Z -> T CWit (W c 1) (row + i)%Z = T CWit (W c (w - 1)) (row + i - 1)%Z) ->
  T CWit (W c (k mod (w - 2) + 1)) (row + k / (w - 2))%Z = cp_cell T c (w - 2) row k.
Proof.
  intros T c w pow row k Hw H3 Hk HL HC. unfold cp_cell, cp_col, cp_row.
  pose proof (Z.div_mod k (w - 2) ltac:(lia)) as D. pose proof (Z.mod_pos_bound k (w - 2) ltac:(lia)) as M.
  destruct (k =? 0)%Z eqn:E0; [apply Z.eqb_eq in E0|apply Z.eqb_neq in E0].
  - subst k. rewrite Z.mod_0_l, Z.div_0_l by lia. reflexivity.
  - assert (Q : (0 <= k / (w - 2) < cp_rows w pow)%Z)
      by (split; [apply Z.div_pos; lia|apply Z.div_lt_upper_bound; lia]).
    destruct (Z.eq_dec (k mod (w - 2)) 0) as [Z0|Z0].
    + rewrite Z0. assert (Q1 : (1 <= k / (w - 2))%Z) by nia. change (0 + 1)%Z with 1%Z. rewrite HC by lia.
      replace (k - 1)%Z with ((k / (w - 2) - 1) * (w - 2) + (w - 3))%Z by lia.
      destruct (pos_div (w - 2) (k / (w - 2) - 1) (w - 3) ltac:(lia)) as [-> ->].
      replace (w - 3 + 2)%Z with (w - 1)%Z by lia. f_equal. lia.
    + replace (k - 1)%Z with (k / (w - 2) * (w - 2) + (k mod (w - 2) - 1))%Z by lia.
      destruct (pos_div (w - 2) (k / (w - 2)) (k mod (w - 2) - 1) ltac:(lia)) as [-> ->].
      replace (k mod (w - 2) - 1 + 2)%Z with (k mod (w - 2) + 1)%Z by lia. reflexivity.
Qed.

Lemma cp_next : forall T c per row k, (0 <= k)%Z ->
  cp_cell T c per row (k + 1) = T CWit (W c (k mod per + 2)) (row + k / per)%Z.
Proof.
  intros T c per row k Hk. unfold cp_cell, cp_col, cp_row.
  replace (k + 1 =? 0)%Z with false by (symmetry; apply Z.eqb_neq; lia).
  replace (k + 1 - 1)%Z with k by lia. reflexivity.
Qed.

Lemma fpow_fmul : forall (a b : F) n, fpow (a * b) n = fpow a n * fpow b n.
Proof. intros a b n. induction n as [|n IH]; cbn [fpow]; [ring|rewrite IH; ring]. Qed.

Lemma zpow_4 : forall (s x : F) m t d, (0 <= m)%Z -> (0 <= t)%Z -> (0 <= d)%Z ->
  fpow (zpow s m * zpow x t) 4 * fpow x (Z.to_nat d) = zpow s (4 * m) * zpow x (4 * t + d).
Proof.
  intros s x m t d Hm Ht Hd. unfold zpow. rewrite fpow_fmul.
  replace (Z.to_nat (4 * m)) with (Z.to_nat m * 4)%nat by lia.
  replace (Z.to_nat (4 * t + d)) with (Z.to_nat t * 4 + Z.to_nat d)%nat by lia.
  rewrite fpow_add, !fpow_mul. ring.
Qed.

(** Every satisfying table computes the power from whatever stands in the
    first accumulator cell. *)
Lemma cp_chain : forall T c w pow x row, wamount c = w -> (3 <= w)%Z -> (0 <= pow)%Z -> cp_constructs pow = true ->
  sat L T (cp_circuit c pow x row) ->
  forall k, (0 <= k)%Z -> (k <= cp_len pow)%Z ->
  cp_cell T c (w - 2) row k =
  zpow (T CWit (W c 1) row) (4 ^ k) * zpow (vval T x) (pre4 (four_chunks pow) k).
Proof.
  intros T c w pow x row Hw H3 Hp HC H. destruct (cp_rows_spec w pow H3 Hp HC) as [_ [R0 R1]].
  rewrite (cp_circuit_iff T c w) in H by assumption. destruct H as [HG [HX HP]].
  apply (natlike_ind (fun k => (k <= cp_len pow)%Z -> cp_cell T c (w - 2) row k =
    zpow (T CWit (W c 1) row) (4 ^ k) * zpow (vval T x) (pre4 (four_chunks pow) k))).
  - intros _. unfold cp_cell, cp_col, cp_row. cbn [Z.eqb]. rewrite Z.add_0_r. change (4 ^ 0)%Z with 1%Z.
    replace (pre4 (four_chunks pow) 0) with 0%Z by reflexivity. unfold zpow. change (Z.to_nat 0) with 0%nat.
    change (Z.to_nat 1) with 1%nat. cbn [fpow]. ring.
  - intros k Hk IH Hle. unfold Z.succ in *. specialize (IH ltac:(lia)). rewrite cp_next by lia.
    rewrite HG by lia. rewrite (cp_prev T c w pow) by (assumption || lia). rewrite IH.
    assert (Q : (0 <= k / (w - 2) < cp_rows w pow)%Z)
      by (split; [apply Z.div_pos; lia|apply Z.div_lt_upper_bound; lia]).
    rewrite <- HX by exact Q.
    pose proof (digit4_range pow k Hp ltac:(fold (cp_len pow); lia)).
    rewrite zpow_4; [|apply Z.lt_le_incl, Z.pow_pos_nonneg; lia|apply pre4_nonneg; fold (cp_len pow); lia|lia].
    rewrite Z.pow_add_r by lia. change (4 ^ 1)%Z with 4%Z. rewrite pre4_S by lia. f_equal. f_equal. lia.
Qed.

Lemma cp_out_cell : forall T c w pow row, wamount c = w -> (3 <= w)%Z -> (0 < pow)%Z -> cp_constructs pow = true ->
  (cp_len pow mod (w - 2) <> 0)%Z -> vval T (cp_out c pow row) = cp_cell T c (w - 2) row (cp_len pow).
Proof.
  intros T c w pow row Hw H3 Hp HC HM. unfold cp_out. rewrite Hw, vval_wcell. fold (cp_len pow).
  destruct (cp_rows_spec w pow H3 ltac:(lia) HC) as [_ [R0 R1]].
  unfold cp_cell, cp_col, cp_row. pose proof (zlen_nonneg _ (four_chunks pow)) as LN. fold (cp_len pow) in LN.
  pose proof (Z.div_mod (cp_len pow) (w - 2) ltac:(lia)) as D. pose proof (Z.mod_pos_bound (cp_len pow) (w - 2) ltac:(lia)) as M.
  destruct (cp_len pow =? 0)%Z eqn:E; [apply Z.eqb_eq in E; rewrite E, Z.mod_0_l in HM by lia; lia|apply Z.eqb_neq in E].
  assert (RR : (cp_rows w pow = cp_len pow / (w - 2) + 1)%Z) by nia.
  replace (cp_len pow - 1)%Z with (cp_len pow / (w - 2) * (w - 2) + (cp_len pow mod (w - 2) - 1))%Z by lia.
  destruct (pos_div (w - 2) (cp_len pow / (w - 2)) (cp_len pow mod (w - 2) - 1) ltac:(lia)) as [-> ->].
  rewrite RR. f_equal; [f_equal; lia|lia].
Qed.

Lemma cp_out_early : forall T c w pow row, wamount c = w -> (3 <= w)%Z -> (0 < pow)%Z -> cp_constructs pow = true ->
  (cp_len pow mod (w - 2) = 0)%Z ->
  vval T (cp_out c pow row) = T CWit (W c 1) (row + (cp_len pow / (w - 2) - 1))%Z /\ cp_rows w pow = (cp_len pow / (w - 2))%Z.
Proof.
  intros T c w pow row Hw H3 Hp HC HM. unfold cp_out. rewrite Hw, vval_wcell. fold (cp_len pow).
  destruct (cp_rows_spec w pow H3 ltac:(lia) HC) as [E [R0 R1]].
  assert (RR : cp_rows w pow = (cp_len pow / (w - 2))%Z).
  { rewrite E. unfold ceil_rows. rewrite HM. reflexivity. }
  split; [|exact RR]. rewrite HM, RR. f_equal. lia.
Qed.

Lemma cp_len_pos : forall pow, (0 < pow)%Z -> (0 < cp_len pow)%Z.
Proof.
  intros pow H. unfold cp_len. destruct (four_chunks_ok pow ltac:(lia)) as [-> _].
  replace (pow =? 0)%Z with false by (symmetry; apply Z.eqb_neq; lia).
  assert (0 <= Z.log2 pow / 2)%Z by (apply Z.div_pos; [apply Z.log2_nonneg|lia]). lia.
Qed.

Lemma cp_sound_l : forall T c w pow x row, wamount c = w -> (3 <= w)%Z -> (0 < pow)%Z -> cp_constructs pow = true ->
  (cp_len pow mod (w - 2) <> 0)%Z ->
  sat L T (cp_circuit c pow x row) ->
  vval T (cp_out c pow row) = zpow (T CWit (W c 1) row) (4 ^ cp_len pow) * zpow (vval T x) pow.
Proof.
  intros T c w pow x row Hw H3 Hp HC HM H. rewrite (cp_out_cell T c w) by assumption.
  rewrite (cp_chain T c w pow x row) by (assumption || lia || apply zlen_nonneg). f_equal. f_equal. apply pre4_full. lia.
Qed.

(** ** Filling *)

Lemma cp_acc_S : forall (x : F) ds t, (0 <= t)%Z ->
  cp_acc x ds (t + 1) = fpow (cp_acc x ds t) 4 * fpow x (Z.to_nat (znth 0%Z ds t)).
Proof. intros. unfold cp_acc. apply fold_zseq_snoc. exact H. Qed.

Lemma cp_acc_val : forall (x : F) pow t, (0 <= pow)%Z -> (0 <= t)%Z -> (t <= cp_len pow)%Z ->
  cp_acc x (four_chunks pow) t = zpow x (pre4 (four_chunks pow) t).
Proof.
  intros x pow t Hp Ht. revert t Ht.
  apply (natlike_ind (fun t => (t <= cp_len pow)%Z -> cp_acc x (four_chunks pow) t = zpow x (pre4 (four_chunks pow) t))).
  - intros _. reflexivity.
  - intros t Ht IH Hle. unfold Z.succ in *. rewrite cp_acc_S, pre4_S, IH by lia.
    pose proof (digit4_range pow t Hp ltac:(fold (cp_len pow); lia)).
    pose proof (zpow_4 f1 x 0 (pre4 (four_chunks pow) t) (znth 0 (four_chunks pow) t) ltac:(lia)
      ltac:(apply pre4_nonneg; fold (cp_len pow); lia) ltac:(lia)) as E.
    change (zpow f1 (4 * 0)) with (f1 : F) in E. change (zpow f1 0) with (f1 : F) in E.
    replace (f1 * zpow x (pre4 (four_chunks pow) t)) with (zpow x (pre4 (four_chunks pow) t)) in E by ring.
    rewrite E. ring.
Qed.

(** A chain of cells that starts anywhere and follows the gates satisfies the
    circuit. *)
Lemma cp_fill : forall T c w pow x row (acc : Z -> F), wf_comp c w -> (3 <= w)%Z -> (0 < pow)%Z -> cp_constructs pow = true ->
  outside c (cp_rows w pow) row x ->
  (forall k, (0 <= k < cp_len pow)%Z -> acc (k + 1)%Z = fpow (acc k) 4 * fpow (vval T x) (Z.to_nat (znth 0%Z (four_chunks pow) k))) ->
  forall val, (forall i j, (0 <= i < cp_rows w pow)%Z -> (0 <= j < w)%Z ->
    (j = 0 -> val i j = vval T x)%Z /\
    ((1 <= j)%Z -> (i * (w - 2) + (j - 1) <= cp_len pow)%Z -> val i j = acc (i * (w - 2) + (j - 1))%Z)) ->
  let T' := wsets T (grid c row (cp_rows w pow) w val) in
  sat L T' (cp_circuit c pow x row) /\ frame c (cp_rows w pow) row T T'.
Proof.
  intros T c w pow x row acc Hwf H3 Hp HC HO HA val HV T'. pose proof (proj1 (proj2 Hwf)) as Hw.
  destruct (cp_rows_spec w pow H3 ltac:(lia) HC) as [_ [R0 R1]].
  assert (HF : frame c (cp_rows w pow) row T T') by (apply (grid_frame P T c w); exact Hwf).
  split; [|exact HF].
  assert (RD : forall i j, (0 <= i < cp_rows w pow)%Z -> (0 <= j < w)%Z -> T' CWit (W c j) (row + i)%Z = val i j).
  { intros i j Hi Hj. apply (grid_read P T c w); [exact Hwf|lia|lia|lia]. }
  apply (cp_circuit_iff T' c w); [assumption|assumption|lia|assumption|]. split; [|split].
  - intros k Hk. pose proof (Z.div_mod k (w - 2) ltac:(lia)) as D. pose proof (Z.mod_pos_bound k (w - 2) ltac:(lia)) as M.
    assert (Q : (0 <= k / (w - 2) < cp_rows w pow)%Z)
      by (split; [apply Z.div_pos; lia|apply Z.div_lt_upper_bound; lia]).
    rewrite !RD by lia.
    rewrite (proj2 (HV (k / (w - 2))%Z (k mod (w - 2) + 2)%Z ltac:(lia) ltac:(lia))) by lia.
    rewrite (proj2 (HV (k / (w - 2))%Z (k mod (w - 2) + 1)%Z ltac:(lia) ltac:(lia))) by lia.
    rewrite (proj1 (HV (k / (w - 2))%Z 0%Z ltac:(lia) ltac:(lia))) by reflexivity.
    replace (k / (w - 2) * (w - 2) + (k mod (w - 2) + 2 - 1))%Z with (k + 1)%Z by lia.
    replace (k / (w - 2) * (w - 2) + (k mod (w - 2) + 1 - 1))%Z with k by lia.
    apply HA. lia.
  - intros i Hi. rewrite RD by lia. rewrite (proj1 (HV i 0%Z ltac:(lia) ltac:(lia))) by reflexivity.
    eapply vval_frame; eauto.
  - intros i Hi. rewrite RD by lia. replace (row + i - 1)%Z with (row + (i - 1))%Z by lia. rewrite RD by lia.
    rewrite (proj2 (HV i 1%Z ltac:(lia) ltac:(lia))) by nia.
    rewrite (proj2 (HV (i - 1)%Z (w - 1)%Z ltac:(lia) ltac:(lia))) by nia. f_equal. lia.
Qed.

Lemma cp_complete_l : forall T c w pow x row, wf_comp c w -> (3 <= w)%Z -> (0 < pow)%Z -> cp_constructs pow = true ->
  outside c (cp_rows w pow) row x ->
  let T' := cp_assign c pow x row T in
  sat L T' (cp_circuit c pow x row) /\ frame c (cp_rows w pow) row T T' /\
  vval T' (cp_out c pow row) =
    zpow (vval T x) (if (cp_len pow mod (w - 2) =? 0)%Z then pow / 4 ^ (w - 2) else pow).
Proof.
  intros T c w pow x row Hwf H3 Hp HC HO T'. pose proof (proj1 (proj2 Hwf)) as Hw.
  destruct (cp_rows_spec w pow H3 ltac:(lia) HC) as [_ [R0 R1]]. pose proof (cp_len_pos pow Hp) as LP.
  assert (ET : T' = wsets T (grid c row (cp_rows w pow) w (cp_val (vval T x) w pow))) by (unfold T', cp_assign; rewrite Hw; reflexivity).
  assert (HV : forall i j, (0 <= i < cp_rows w pow)%Z -> (0 <= j < w)%Z ->
    (j = 0 -> cp_val (vval T x) w pow i j = vval T x)%Z /\
    ((1 <= j)%Z -> (i * (w - 2) + (j - 1) <= cp_len pow)%Z ->
       cp_val (vval T x) w pow i j = cp_acc (vval T x) (four_chunks pow) (i * (w - 2) + (j - 1))%Z)).
  { intros i j Hi Hj. unfold cp_val. fold (cp_len pow). cbv zeta. split.
    - intros ->. reflexivity.
    - intros H1 H2. replace (j =? 0)%Z with false by (symmetry; apply Z.eqb_neq; lia).
      destruct (j =? 1)%Z eqn:E1; [apply Z.eqb_eq in E1|apply Z.eqb_neq in E1].
      + subst j. f_equal. lia.
      + replace (i * (w - 2) + (j - 2) <? cp_len pow)%Z with true by (symmetry; apply Z.ltb_lt; lia). f_equal. lia. }
  assert (HA : forall k, (0 <= k < cp_len pow)%Z -> cp_acc (vval T x) (four_chunks pow) (k + 1)%Z =
     fpow (cp_acc (vval T x) (four_chunks pow) k) 4 * fpow (vval T x) (Z.to_nat (znth 0%Z (four_chunks pow) k)))
    by (intros k Hk; apply cp_acc_S; lia).
  destruct (cp_fill T c w pow x row (cp_acc (vval T x) (four_chunks pow)) Hwf H3 Hp HC HO HA _ HV) as [S FR].
  rewrite <- ET in S, FR. split; [exact S|]. split; [exact FR|].
  assert (RD : forall i j, (0 <= i < cp_rows w pow)%Z -> (0 <= j < w)%Z -> T' CWit (W c j) (row + i)%Z = cp_val (vval T x) w pow i j).
  { intros i j Hi Hj. rewrite ET. apply (grid_read P T c w); [exact Hwf|lia|lia|lia]. }
  destruct (cp_len pow mod (w - 2) =? 0)%Z eqn:EM; [apply Z.eqb_eq in EM|apply Z.eqb_neq in EM].
  - destruct (cp_out_early T' c w pow row Hw H3 Hp HC EM) as [-> RR].
    pose proof (Z.div_mod (cp_len pow) (w - 2) ltac:(lia)) as D.
    assert (1 <= cp_len pow / (w - 2))%Z by nia.
    rewrite RD by lia. rewrite (proj2 (HV (cp_len pow / (w - 2) - 1)%Z 1%Z ltac:(lia) ltac:(lia))) by nia.
    rewrite cp_acc_val by nia. rewrite pre4_div by (fold (cp_len pow); nia). fold (cp_len pow). f_equal. f_equal. f_equal. nia.
  - rewrite (cp_sound_l T' c w pow x row) by assumption.
    replace (T' CWit (W c 1) row) with (T' CWit (W c 1) (row + 0)%Z) by (f_equal; lia).
    rewrite RD by nia. rewrite (proj2 (HV 0%Z 1%Z ltac:(nia) ltac:(lia))) by lia.
    cbn [Z.mul Z.sub Z.add Z.opp Z.pos_sub]. change (cp_acc (vval T x) (four_chunks pow) 0) with (f1 : F).
    rewrite (vval_frame P c (cp_rows w pow) row T T' x FR HO).
    unfold zpow at 1. assert (O : forall n, fpow (f1 : F) n = f1) by (induction n as [|n IHn]; cbn [fpow]; [reflexivity|rewrite IHn; ring]).
    rewrite O. ring.
Qed.

(** Zero is accepted as the power of anything. *)
Lemma cp_zero_l : forall T c w pow x row, wf_comp c w -> (3 <= w)%Z -> (0 < pow)%Z -> cp_constructs pow = true ->
  outside c (cp_rows w pow) row x ->
  exists T', sat L T' (cp_circuit c pow x row) /\ frame c (cp_rows w pow) row T T' /\ vval T' (cp_out c pow row) = f0.
Proof.
  intros T c w pow x row Hwf H3 Hp HC HO. pose proof (proj1 (proj2 Hwf)) as Hw.
  destruct (cp_rows_spec w pow H3 ltac:(lia) HC) as [_ [R0 R1]]. pose proof (cp_len_pos pow Hp) as LP.
  set (val := fun (i j : Z) => if (j =? 0)%Z then vval T x else (f0 : F)).
  destruct (cp_fill T c w pow x row (fun _ => f0) Hwf H3 Hp HC HO) with (val := val) as [S FR].
  - intros k Hk. cbn [fpow]. ring.
  - intros i j Hi Hj. unfold val. split; [intros ->; reflexivity|]. intros H1 _.
    replace (j =? 0)%Z with false by (symmetry; apply Z.eqb_neq; lia). reflexivity.
  - exists (wsets T (grid c row (cp_rows w pow) w val)). split; [exact S|]. split; [exact FR|].
    unfold cp_out. rewrite Hw, vval_wcell. fold (cp_len pow).
    pose proof (Z.mod_pos_bound (cp_len pow) (w - 2) ltac:(lia)).
    replace (row + cp_rows w pow - 1)%Z with (row + (cp_rows w pow - 1))%Z by lia.
    rewrite (grid_read P T c w) by (try assumption; nia). unfold val.
    replace (cp_len pow mod (w - 2) + 1 =? 0)%Z with false by (symmetry; apply Z.eqb_neq; lia). reflexivity.
Qed.

(** ** x_index *)

Lemma xi_rows_spec : forall w n, (3 <= w)%Z -> (0 <= n)%Z ->
  (1 <= xi_per w)%Z /\ (2 * xi_per w < w)%Z /\ (0 <= xi_rows w n)%Z /\
  (n <= xi_rows w n * xi_per w < n + xi_per w)%Z /\
  ((n < xi_rows w n * xi_per w)%Z <-> (n mod xi_per w <> 0)%Z).
Proof.
  intros w n Hw Hn. unfold xi_rows. fold (xi_per w).
  assert (P1 : (1 <= xi_per w)%Z) by (unfold xi_per; apply Z.div_le_lower_bound; lia).
  assert (P2 : (2 * xi_per w < w)%Z) by (unfold xi_per; pose proof (Z.mul_div_le (w - 1) 2 ltac:(lia)); lia).
  destruct (ceil_rows_spec (2 * n) (xi_per w * 2)) as [R0 R1]; [lia|lia|].
  assert (R2 : (n <= ceil_rows (2 * n) (xi_per w * 2) * xi_per w < n + xi_per w)%Z) by lia.
  repeat (split; [assumption || lia|]). pose proof (Z.div_mod n (xi_per w) ltac:(lia)) as D.
  pose proof (Z.mod_pos_bound n (xi_per w) ltac:(lia)) as M. set (R := ceil_rows (2 * n) (xi_per w * 2)) in *. split; intros H.
  - intros E. rewrite E in D. assert (R = n / xi_per w + 1 \/ R <= n / xi_per w \/ n / xi_per w + 2 <= R)%Z as [|[|]] by lia; nia.
  - assert (n / xi_per w + 1 <= R)%Z by nia. nia.
Qed.

Definition xi_col (k : Z) : Z -> Z := fun per => if (k =? 0)%Z then 0%Z else (((k - 1) mod per) * 2 + 2)%Z.
Definition xi_cell T c per row k : F := T CWit (W c (xi_col k per)) (row + cp_row per k)%Z.
Definition xi_bit T c per row k : F := T CWit (W c ((k mod per) * 2 + 1)) (row + k / per)%Z.

Lemma xi_next : forall T c per row k, (0 <= k)%Z ->
  xi_cell T c per row (k + 1) = T CWit (W c ((k mod per) * 2 + 2)) (row + k / per)%Z.
Proof.
  intros T c per row k Hk. unfold xi_cell, xi_col, cp_row.
  replace (k + 1 =? 0)%Z with false by (symmetry; apply Z.eqb_neq; lia).
  replace (k + 1 - 1)%Z with k by lia. reflexivity.
Qed.

Lemma xi_prev : forall T c per row rows k, (1 <= per)%Z -> (0 <= k < rows * per)%Z ->
  (forall i, (1 <= i < rows)%Z -> T CWit (W c (per * 2)) (row + i - 1)%Z = T CWit (W c 0) (row + i)%Z) ->
  T CWit (W c ((k mod per) * 2)) (row + k / per)%Z = xi_cell T c per row k.
Proof.
  intros T c per row rows k H1 Hk HC. unfold xi_cell, xi_col, cp_row.
  pose proof (Z.div_mod k per ltac:(lia)) as D. pose proof (Z.mod_pos_bound k per ltac:(lia)) as M.
  destruct (k =? 0)%Z eqn:E0; [apply Z.eqb_eq in E0|apply Z.eqb_neq in E0].
  - subst k. rewrite Z.mod_0_l, Z.div_0_l by lia. reflexivity.
  - assert (Q : (0 <= k / per < rows)%Z)
      by (split; [apply Z.div_pos; lia|apply Z.div_lt_upper_bound; lia]).
    destruct (Z.eq_dec (k mod per) 0) as [Z0|Z0].
    + rewrite Z0. assert (Q1 : (1 <= k / per)%Z) by nia. change (0 * 2)%Z with 0%Z. rewrite <- HC by lia.
      replace (k - 1)%Z with ((k / per - 1) * per + (per - 1))%Z by lia.
      destruct (pos_div per (k / per - 1) (per - 1) ltac:(lia)) as [-> ->].
      replace ((per - 1) * 2 + 2)%Z with (per * 2)%Z by lia. f_equal. lia.
    + replace (k - 1)%Z with (k / per * per + (k mod per - 1))%Z by lia.
      destruct (pos_div per (k / per) (k mod per - 1) ltac:(lia)) as [-> ->].
      replace ((k mod per - 1) * 2 + 2)%Z with (k mod per * 2)%Z by lia. reflexivity.
Qed.

Lemma xi_gate_iff : forall T c w r, wamount c = w ->
  ((forall e, In e (xi_gate c) -> eval T r e = f0) <->
   forall b, (0 <= b < xi_per w)%Z ->
     T CWit (W c (b * 2 + 2)) r =
     T CWit (W c (b * 2)) r * T CWit (W c (b * 2)) r *
     (T CWit (W c (b * 2 + 1)) r + T CConst (C c 0) r - T CConst (C c 0) r * T CWit (W c (b * 2 + 1)) r)).
Proof.
  intros T c w r Hw. unfold xi_gate. rewrite Hw. cbv zeta. split.
  - intros H b Hb. apply fsub0.
    rewrite <- (H _ (in_map _ _ b (proj2 (in_zseq 0 (xi_per w) b) Hb))).
    rewrite !eval_bin, !eval_evar, !gval_wv, !Z.add_0_r. unfold gval. cbn [vrel vty vidx vrot]. rewrite !Z.add_0_r. reflexivity.
  - intros H e He. apply in_map_iff in He. destruct He as [b [<- Hb]]. apply in_zseq in Hb.
    rewrite !eval_bin, !eval_evar, !gval_wv, !Z.add_0_r. unfold gval. cbn [vrel vty vidx vrot]. rewrite !Z.add_0_r.
    cbn [ebop]. rewrite H by lia. ring.
Qed.

Lemma xi_copies_iff : forall T c w x bs row, wamount c = w -> (3 <= w)%Z ->
  (sat L T (xi_copies c x bs row) <->
   (forall i, (1 <= i < xi_rows w (zlen bs))%Z -> T CWit (W c (xi_per w * 2)) (row + i - 1)%Z = T CWit (W c 0) (row + i)%Z) /\
   (forall k, (1 <= k <= zlen bs)%Z -> (k < xi_rows w (zlen bs) * xi_per w)%Z ->
      vval T (znth (wcell 0 0) bs (zlen bs - k)) = xi_bit T c (xi_per w) row k) /\
   ((zlen bs < xi_rows w (zlen bs) * xi_per w)%Z -> vval T x = xi_cell T c (xi_per w) row (zlen bs + 1))).
Proof.
  intros T c w x bs row Hw H3. pose proof (zlen_nonneg _ bs) as LN.
  destruct (xi_rows_spec w (zlen bs) H3 LN) as [P1 [P2 [R0 [R1 R2]]]].
  unfold xi_copies. rewrite Hw. cbv zeta. fold (xi_per w). set (n := zlen bs) in *. set (per := xi_per w) in *.
  set (rows := xi_rows w n) in *. rewrite xi_next by lia. split.
  - intros H.
    assert (HI : forall i cm, (0 <= i < rows)%Z ->
       In cm ((if (i =? 0)%Z then [] else [Copy (wcell (W c (per * 2)) (row + i - 1)) (wcell (W c 0) (row + i))]) ++
       flat_map (fun b => if (i * per + b <=? n)%Z then
        (if (i * per + b =? 0)%Z then [] else [Copy (znth (wcell 0 0) bs (n - (i * per + b))) (wcell (W c (b * 2 + 1)) (row + i))]) ++
        (if (i * per + b + 1 =? n + 1)%Z then [Copy x (wcell (W c (b * 2 + 2)) (row + i))] else [])
      else []) (zseq 0 per)) -> holds L T cm).
    { intros i cm Hi Hc. apply H. apply in_flat_map. exists i. split; [apply in_zseq; lia|]. exact Hc. }
    clear H. split; [|split].
    + intros i Hi. specialize (HI i (Copy (wcell (W c (per * 2)) (row + i - 1)) (wcell (W c 0) (row + i))) ltac:(lia)).
      cbn [holds] in HI. rewrite !vval_wcell in HI. apply HI. apply in_or_app. left.
      replace (i =? 0)%Z with false by (symmetry; apply Z.eqb_neq; lia). left. reflexivity.
    + intros k Hk Hk2. pose proof (Z.div_mod k per ltac:(lia)) as D. pose proof (Z.mod_pos_bound k per ltac:(lia)) as M.
      assert (Q : (0 <= k / per < rows)%Z)
        by (split; [apply Z.div_pos; lia|apply Z.div_lt_upper_bound; lia]).
      specialize (HI (k / per)%Z (Copy (znth (wcell 0 0) bs (n - k)) (wcell (W c (k mod per * 2 + 1)) (row + k / per))) Q).
      cbn [holds] in HI. rewrite !vval_wcell in HI. apply HI. apply in_or_app. right. apply in_flat_map.
      exists (k mod per)%Z. split; [apply in_zseq; lia|]. replace (k / per * per + k mod per)%Z with k by lia.
      replace (k <=? n)%Z with true by (symmetry; apply Z.leb_le; lia).
      replace (k =? 0)%Z with false by (symmetry; apply Z.eqb_neq; lia). left. reflexivity.
    + intros Hk2. pose proof (Z.div_mod n per ltac:(lia)) as D. pose proof (Z.mod_pos_bound n per ltac:(lia)) as M.
      assert (Q : (0 <= n / per < rows)%Z)
        by (split; [apply Z.div_pos; lia|apply Z.div_lt_upper_bound; lia]).
      specialize (HI (n / per)%Z (Copy x (wcell (W c (n mod per * 2 + 2)) (row + n / per))) Q).
      cbn [holds] in HI. rewrite !vval_wcell in HI. apply HI. apply in_or_app. right. apply in_flat_map.
      exists (n mod per)%Z. split; [apply in_zseq; lia|]. replace (n / per * per + n mod per)%Z with n by lia.
      rewrite Z.leb_refl, Z.eqb_refl. apply in_or_app. right. left. reflexivity.
  - intros [HA [HB HX]] cm Hc. apply in_flat_map in Hc. destruct Hc as [i [Hi Hc]]. apply in_zseq in Hi.
    apply in_app_or in Hc. destruct Hc as [Hc|Hc].
    + destruct (i =? 0)%Z eqn:E; [destruct Hc|apply Z.eqb_neq in E]. destruct Hc as [<-|[]].
      cbn [holds]. rewrite !vval_wcell. apply HA. lia.
    + apply in_flat_map in Hc. destruct Hc as [b [Hb Hc]]. apply in_zseq in Hb.
      assert (IB : (0 <= i * per)%Z) by (apply Z.mul_nonneg_nonneg; lia).
      assert (IR : (i * per + b < rows * per)%Z) by nia.
      destruct (pos_div per i b Hb) as [E1 E2].
      destruct (i * per + b <=? n)%Z eqn:E; [apply Z.leb_le in E|destruct Hc].
      apply in_app_or in Hc. destruct Hc as [Hc|Hc].
      * destruct (i * per + b =? 0)%Z eqn:E3; [destruct Hc|apply Z.eqb_neq in E3]. destruct Hc as [<-|[]].
        cbn [holds]. rewrite vval_wcell, HB by lia. unfold xi_bit. rewrite E1, E2. reflexivity.
      * destruct (i * per + b + 1 =? n + 1)%Z eqn:E3; [apply Z.eqb_eq in E3|destruct Hc]. destruct Hc as [<-|[]].
        cbn [holds]. rewrite vval_wcell, HX by lia.
        replace n with (i * per + b)%Z by lia. rewrite E1, E2. reflexivity.
Qed.

Lemma xi_circuit_iff : forall T c w om x bs row, wamount c = w -> (3 <= w)%Z ->
  let n := zlen bs in let per := xi_per w in let rows := xi_rows w n in
  (sat L T (xi_circuit c om x bs row) <->
   (forall k, (0 <= k < rows * per)%Z ->
      T CWit (W c (k mod per * 2 + 2)) (row + k / per)%Z =
      T CWit (W c (k mod per * 2)) (row + k / per)%Z * T CWit (W c (k mod per * 2)) (row + k / per)%Z *
      (xi_bit T c per row k + om - om * xi_bit T c per row k)) /\
   (forall i, (1 <= i < rows)%Z -> T CWit (W c (per * 2)) (row + i - 1)%Z = T CWit (W c 0) (row + i)%Z) /\
   (forall k, (1 <= k <= n)%Z -> (k < rows * per)%Z ->
      vval T (znth (wcell 0 0) bs (n - k)) = xi_bit T c per row k) /\
   ((n < rows * per)%Z -> vval T x = xi_cell T c per row (n + 1)) /\
   (forall i, (0 <= i < rows)%Z -> T CConst (C c 0) (row + i)%Z = om)).
Proof.
  intros T c w om x bs row Hw H3 n per rows. pose proof (zlen_nonneg _ bs) as LN.
  destruct (xi_rows_spec w n H3 LN) as [P1 [P2 [R0 [R1 R2]]]]. fold per rows in P1, P2, R0, R1, R2.
  unfold xi_circuit. rewrite Hw. fold n. fold rows. rewrite sat_cons, sat_app, (xi_copies_iff T c w) by assumption.
  fold n per rows.
  assert (CK : sat L T (map (fun i => SetConst (C c 0) (row + i)%Z om) (zseq 0 rows)) <->
     (forall i, (0 <= i < rows)%Z -> T CConst (C c 0) (row + i)%Z = om)).
  { rewrite sat_map. split.
    - intros H i Hi. exact (H i (proj2 (in_zseq 0 rows i) Hi)).
    - intros H i Hi. apply in_zseq in Hi. exact (H i Hi). }
  rewrite CK.
  assert (GK : holds L T (Gate (xi_gate c) (zseq row (row + rows))) <->
    (forall i b, (0 <= i < rows)%Z -> (0 <= b < per)%Z ->
     T CWit (W c (b * 2 + 2)) (row + i)%Z =
     T CWit (W c (b * 2)) (row + i)%Z * T CWit (W c (b * 2)) (row + i)%Z *
     (T CWit (W c (b * 2 + 1)) (row + i)%Z + T CConst (C c 0) (row + i)%Z -
      T CConst (C c 0) (row + i)%Z * T CWit (W c (b * 2 + 1)) (row + i)%Z))).
  { cbn [holds]. split.
    - intros H i b Hi Hb. specialize (H (row + i)%Z (proj2 (in_zseq row (row + rows) (row + i)) ltac:(lia))).
      rewrite (xi_gate_iff T c w) in H by exact Hw. apply H. exact Hb.
    - intros H r Hr. apply in_zseq in Hr. replace r with (row + (r - row))%Z by lia. rewrite (xi_gate_iff T c w) by exact Hw.
      intros b Hb. apply H; [lia|exact Hb]. }
  rewrite GK. split.
  - intros [HG [[HA [HB HX]] HK]]. repeat (split; [|assumption]); try tauto.
    split; [|tauto]. intros k Hk.
    pose proof (Z.div_mod k per ltac:(lia)) as D. pose proof (Z.mod_pos_bound k per ltac:(lia)) as M.
    assert (Q : (0 <= k / per < rows)%Z)
      by (split; [apply Z.div_pos; lia|apply Z.div_lt_upper_bound; lia]).
    rewrite (HG (k / per)%Z (k mod per)%Z Q M). rewrite HK by exact Q. reflexivity.
  - intros [HG [HA [HB [HX HK]]]]. split; [|tauto]. intros i b Hi Hb.
    assert (IB : (0 <= i * per)%Z) by (apply Z.mul_nonneg_nonneg; lia).
    assert (IR : (i * per + b < rows * per)%Z) by nia.
    specialize (HG (i * per + b)%Z ltac:(lia)). unfold xi_bit in HG. destruct (pos_div per i b Hb) as [E1 E2].
    rewrite E1, E2 in HG. rewrite HK by lia. exact HG.
Qed.

(** The power of the root of unity that little-endian selection bits stand
    for: bit [i] equal to 0 contributes [2^i]. *)
Fixpoint xindex (zs : list Z) : Z :=
  match zs with [] => 0%Z | z :: r => (1 - z + 2 * xindex r)%Z end.
Definition is_bits (zs : list Z) : Prop := forall z, In z zs -> z = 0%Z \/ z = 1%Z.

Lemma xindex_nonneg : forall zs, is_bits zs -> (0 <= xindex zs)%Z.
Proof.
  induction zs as [|z zs IH]; intros HB; cbn [xindex]; [lia|].
  assert (0 <= xindex zs)%Z by (apply IH; intros y Hy; apply HB; right; exact Hy).
  destruct (HB z (or_introl eq_refl)); lia.
Qed.

Lemma xindex_app : forall zs z, xindex (zs ++ [z]) = (xindex zs + 2 ^ zlen zs * (1 - z))%Z.
Proof.
  induction zs as [|y zs IH]; intros z; cbn [app xindex]; [change (2 ^ zlen (@nil Z))%Z with 1%Z; lia|].
  rewrite IH. unfold zlen. cbn [length]. rewrite Nat2Z.inj_succ, Z.pow_succ_r by lia. lia.
Qed.

Lemma fpow_f1 : forall n, fpow (f1 : F) n = f1.
Proof. induction n as [|n IHn]; cbn [fpow]; [reflexivity|rewrite IHn; ring]. Qed.

Lemma xi_fold : forall (om s : F) zs, is_bits zs ->
  fold_right (fun b a => xi_step om a b) s (map (@ofZ P) zs) = zpow s (2 ^ zlen zs) * zpow om (xindex zs).
Proof.
  intros om s. induction zs as [|z zs IH]; intros HB; cbn [map fold_right xindex].
  - change (2 ^ zlen (@nil Z))%Z with 1%Z. unfold zpow. change (Z.to_nat 1) with 1%nat. change (Z.to_nat 0) with 0%nat.
    cbn [fpow]. ring.
  - assert (HB' : is_bits zs) by (intros y Hy; apply HB; right; exact Hy).
    rewrite IH by exact HB'. pose proof (xindex_nonneg zs HB') as N. unfold xi_step.
    assert (E : zlen (z :: zs) = (zlen zs + 1)%Z) by (unfold zlen; cbn [length]; lia). rewrite E.
    pose proof (zlen_nonneg _ zs) as LN. rewrite Z.pow_add_r by lia. change (2 ^ 1)%Z with 2%Z. unfold zpow.
    assert (PN : (0 <= 2 ^ zlen zs)%Z) by (apply Z.lt_le_incl, Z.pow_pos_nonneg; lia).
    replace (Z.to_nat (2 ^ zlen zs * 2)) with (Z.to_nat (2 ^ zlen zs) + Z.to_nat (2 ^ zlen zs))%nat by lia.
    rewrite fpow_add. destruct (HB z (or_introl eq_refl)) as [->| ->].
    + replace (Z.to_nat (1 - 0 + 2 * xindex zs)) with (1 + (Z.to_nat (xindex zs) + Z.to_nat (xindex zs)))%nat by lia.
      rewrite !fpow_add. cbn [fpow]. change (ofZ 0) with (f0 : F). ring.
    + replace (Z.to_nat (1 - 1 + 2 * xindex zs)) with (Z.to_nat (xindex zs) + Z.to_nat (xindex zs))%nat by lia.
      rewrite !fpow_add. change (ofZ 1) with (f1 : F). ring.
Qed.

Lemma xi_chain : forall T c w om x bs row, wamount c = w -> (3 <= w)%Z ->
  sat L T (xi_circuit c om x bs row) ->
  forall k, (0 <= k)%Z -> (k <= xi_rows w (zlen bs) * xi_per w)%Z ->
  xi_cell T c (xi_per w) row k =
  fold_left (fun a k => xi_step om a (xi_bit T c (xi_per w) row k)) (zseq 0 k) (T CWit (W c 0) row).
Proof.
  intros T c w om x bs row Hw H3 H. pose proof (zlen_nonneg _ bs) as LN.
  destruct (xi_rows_spec w (zlen bs) H3 LN) as [P1 [P2 [R0 [R1 R2]]]].
  rewrite (xi_circuit_iff T c w) in H by assumption. destruct H as [HG [HA [HB [HX HK]]]].
  apply (natlike_ind (fun k => (k <= xi_rows w (zlen bs) * xi_per w)%Z -> xi_cell T c (xi_per w) row k =
    fold_left (fun a k => xi_step om a (xi_bit T c (xi_per w) row k)) (zseq 0 k) (T CWit (W c 0) row))).
  - intros _. unfold xi_cell, xi_col, cp_row. cbn [Z.eqb]. rewrite Z.add_0_r. reflexivity.
  - intros k Hk IH Hle. unfold Z.succ in *. specialize (IH ltac:(lia)). rewrite fold_zseq_snoc by lia. rewrite <- IH.
    rewrite xi_next by lia. rewrite HG by lia.
    rewrite (xi_prev T c (xi_per w) row (xi_rows w (zlen bs)) k) by (assumption || lia). unfold xi_step. ring.
Qed.

Lemma fold_ext_In : forall A B (f g : A -> B -> A) l a, (forall a b, In b l -> f a b = g a b) -> fold_left f l a = fold_left g l a.
Proof.
  induction l as [|b l IH]; intros a H; [reflexivity|]. cbn [fold_left]. rewrite H by (left; reflexivity).
  apply IH. intros; apply H; right; assumption.
Qed.

Lemma znth_rev : forall A (d : A) l k, (1 <= k <= zlen l)%Z -> znth d (rev l) (k - 1) = znth d l (zlen l - k).
Proof.
  intros A d l k Hk. unfold znth, zlen in *. rewrite rev_nth by lia. f_equal. lia.
Qed.

Lemma znth_cons : forall A (d a : A) l k, (1 <= k)%Z -> znth d (a :: l) k = znth d l (k - 1).
Proof.
  intros A d a l k Hk. unfold znth. replace (Z.to_nat k) with (S (Z.to_nat (k - 1))) by lia. reflexivity.
Qed.

Lemma xi_bitlist : forall T (bs : list var) (d b0 : F) k, (1 <= k <= zlen bs)%Z ->
  znth d (b0 :: map (vval T) (rev bs)) k = vval T (znth (wcell 0 0) bs (zlen bs - k)).
Proof.
  intros T bs d b0 k Hk. rewrite znth_cons by lia. rewrite (znth_map _ _ (vval T) (wcell 0 0)) by (unfold zlen in *; rewrite rev_length; lia).
  rewrite znth_rev by lia. reflexivity.
Qed.

Lemma xi_sound_l : forall T c w om x bs zs row, wamount c = w -> (3 <= w)%Z ->
  (zlen bs mod xi_per w <> 0)%Z ->
  is_bits zs -> map (vval T) (bs ++ [xi_out c row]) = map (@ofZ P) zs ->
  sat L T (xi_circuit c om x bs row) ->
  vval T x = zpow (T CWit (W c 0) row) (2 ^ (zlen bs + 1)) * zpow om (xindex zs).
Proof.
  intros T c w om x bs zs row Hw H3 HM HB HZ H. pose proof (zlen_nonneg _ bs) as LN.
  destruct (xi_rows_spec w (zlen bs) H3 LN) as [P1 [P2 [R0 [R1 R2]]]].
  apply R2 in HM. pose proof (xi_chain T c w om x bs row Hw H3 H (zlen bs + 1) ltac:(lia) ltac:(lia)) as CH.
  rewrite (xi_circuit_iff T c w) in H by assumption. destruct H as [HG [HA [HBb [HX HK]]]].
  rewrite HX by exact HM. rewrite CH.
  rewrite (fold_ext_In _ _ _ (fun a k => xi_step om a (znth f0 (vval T (xi_out c row) :: map (vval T) (rev bs)) k))).
  2:{ intros a k Hk. apply in_zseq in Hk. f_equal. destruct (Z.eq_dec k 0) as [->|N].
      - unfold xi_bit, xi_out. rewrite vval_wcell, Z.mod_0_l, Z.div_0_l by lia. rewrite Z.add_0_r. reflexivity.
      - rewrite xi_bitlist by lia. symmetry. apply HBb; lia. }
  replace (zlen bs + 1)%Z with (zlen (vval T (xi_out c row) :: map (vval T) (rev bs)))
    by (unfold zlen; cbn [length]; rewrite map_length, rev_length; lia).
  rewrite (fold_znth _ _ f0 (xi_step om)).
  replace (zlen (vval T (xi_out c row) :: map (vval T) (rev bs))) with (zlen zs)
    by (apply (f_equal (@length F)) in HZ; rewrite !map_length, app_length in HZ; unfold zlen; cbn [length] in *;
        rewrite map_length, rev_length; lia).
  replace (vval T (xi_out c row) :: map (vval T) (rev bs)) with (rev (map (vval T) (bs ++ [xi_out c row])))
    by (rewrite map_app, rev_app_distr, map_rev; reflexivity).
  rewrite <- fold_left_rev_right, rev_involutive, HZ. rewrite xi_fold by exact HB.
  reflexivity.
Qed.

Lemma xi_acc_S : forall (om : F) l t, (0 <= t)%Z -> xi_acc om l (t + 1) = xi_step om (xi_acc om l t) (znth f1 l t).
Proof. intros om l t Ht. unfold xi_acc. rewrite fold_zseq_snoc by exact Ht. reflexivity. Qed.

Lemma xi_bits_ok : forall T om x bs zs, is_bits zs -> map (vval T) bs = map (@ofZ P) zs ->
  vval T x = zpow om (xindex zs) \/ vval T x = fopp (zpow om (xindex zs)) ->
  xi_bits T om x bs =
  Some ((if feqb (zpow om (xindex zs)) (vval T x) then f1 else f0) :: map (vval T) (rev bs)).
Proof.
  intros T om x bs zs HB HZ HX. unfold xi_bits.
  assert (E : fold_left (fun t b => t * t * (b + om * (f1 - b))) (map (vval T) (rev bs)) f1 = zpow om (xindex zs)).
  { rewrite (fold_ext_In _ _ _ (xi_step om)) by (intros; unfold xi_step; ring).
    rewrite map_rev, <- fold_left_rev_right, rev_involutive, HZ.
    rewrite (xi_fold om f1 zs HB). unfold zpow at 1. rewrite fpow_f1. ring. }
  rewrite E. cbv zeta. destruct HX as [HX|HX]; rewrite HX.
  - rewrite feqb_refl. reflexivity.
  - replace (fopp (fopp (zpow om (xindex zs)))) with (zpow om (xindex zs)) by ring. rewrite feqb_refl, orb_true_r. reflexivity.
Qed.

Lemma xi_complete_l : forall T c w om x bs zs row, wf_comp c w -> (3 <= w)%Z ->
  (1 <= zlen bs)%Z ->
  is_bits zs -> map (vval T) bs = map (@ofZ P) zs ->
  zpow om (2 ^ zlen bs) = fopp f1 ->
  vval T x = zpow om (xindex zs) \/ vval T x = fopp (zpow om (xindex zs)) ->
  outside c (xi_rows w (zlen bs)) row x -> (forall b, In b bs -> outside c (xi_rows w (zlen bs)) row b) ->
  consts_in T (xi_circuit c om x bs row) ->
  exists T', xi_assign c om x bs row T = Some T' /\
  sat L T' (xi_circuit c om x bs row) /\ frame c (xi_rows w (zlen bs)) row T T' /\
  vval T' (xi_out c row) = if feqb (zpow om (xindex zs)) (vval T x) then f1 else f0.
Proof.
  intros T c w om x bs zs row Hwf H3 HN HB HZ HOm HX OX OB HCn. pose proof (proj1 (proj2 Hwf)) as Hw.
  pose proof (zlen_nonneg _ bs) as LN. destruct (xi_rows_spec w (zlen bs) H3 LN) as [P1 [P2 [R0 [R1 R2]]]].
  unfold xi_assign. rewrite (xi_bits_ok T om x bs zs HB HZ HX). rewrite Hw.
  set (b0 := if feqb (zpow om (xindex zs)) (vval T x) then f1 else f0 : F).
  set (l := b0 :: map (vval T) (rev bs)).
  eexists. split; [reflexivity|].
  set (per := xi_per w) in *. set (rows := xi_rows w (zlen bs)) in *. set (T' := wsets T _).
  assert (HF : frame c rows row T T') by (apply (grid_frame P T c w); exact Hwf).
  assert (RA : forall k, (0 <= k < rows * per)%Z -> (0 <= k / per < rows)%Z /\ (0 <= k mod per < per)%Z /\ k = (k / per * per + k mod per)%Z).
  { intros k Hk. pose proof (Z.div_mod k per ltac:(lia)) as D. pose proof (Z.mod_pos_bound k per ltac:(lia)) as M.
    split; [split; [apply Z.div_pos; lia|apply Z.div_lt_upper_bound; lia]|]. split; [exact M|lia]. }
  assert (RE : forall i b, (0 <= i < rows)%Z -> (0 <= b <= per)%Z ->
     T' CWit (W c (b * 2)) (row + i)%Z = xi_acc om l (i * per + b)).
  { intros i b Hi Hb. unfold T'. rewrite (grid_read P T c w) by (try assumption; lia).
    unfold xi_val. rewrite Z.mod_mul, Z.div_mul by lia. reflexivity. }
  assert (RB : forall i b, (0 <= i < rows)%Z -> (0 <= b < per)%Z ->
     T' CWit (W c (b * 2 + 1)) (row + i)%Z = znth f1 l (i * per + b)).
  { intros i b Hi Hb. unfold T'. rewrite (grid_read P T c w) by (try assumption; lia).
    unfold xi_val. destruct (pos_div 2 b 1 ltac:(lia)) as [E1 E2]. rewrite E1, E2. reflexivity. }
  assert (BK : forall k, (0 <= k < rows * per)%Z -> xi_bit T' c per row k = znth f1 l k).
  { intros k Hk. destruct (RA k Hk) as [A1 [A2 A3]]. unfold xi_bit. rewrite RB by lia. rewrite <- A3. reflexivity. }
  assert (XA : (zlen bs < rows * per)%Z -> vval T x = xi_acc om l (zlen bs + 1)).
  { intros _. unfold xi_acc. replace (zlen bs + 1)%Z with (zlen l) by (unfold l, zlen; cbn [length]; rewrite map_length, rev_length; lia).
    rewrite (fold_znth _ _ f1 (xi_step om)).
    assert (Z0 : exists z0, (z0 = 0 \/ z0 = 1)%Z /\ b0 = ofZ z0 /\
        (z0 = 1%Z -> vval T x = zpow om (xindex zs)) /\ (z0 = 0%Z -> vval T x = fopp (zpow om (xindex zs)))).
    { unfold b0. destruct (feqb (zpow om (xindex zs)) (vval T x)) eqn:E.
      - apply feqb_eq in E. exists 1%Z. repeat split; auto; lia.
      - exists 0%Z. repeat split; auto; [lia|]. intros _. destruct HX as [HX|HX]; [|exact HX].
        rewrite HX, feqb_refl in E. discriminate. }
    destruct Z0 as [z0 [HZ0 [EB [X1 X0]]]].
    replace l with (rev (map (@ofZ P) (zs ++ [z0])))
      by (unfold l; rewrite map_app, rev_app_distr, <- HZ, EB, map_rev; reflexivity).
    rewrite <- fold_left_rev_right, rev_involutive. rewrite xi_fold.
    2:{ intros z Hz. apply in_app_or in Hz. destruct Hz as [Hz|[<-|[]]]; [apply HB; exact Hz|exact HZ0]. }
    unfold zpow at 1. rewrite fpow_f1, xindex_app. pose proof (xindex_nonneg zs HB) as XN.
    assert (EL : zlen zs = zlen bs) by (apply (f_equal (@length F)) in HZ; rewrite !map_length in HZ; unfold zlen; lia).
    rewrite EL. assert (PN : (0 <= 2 ^ zlen bs)%Z) by (apply Z.lt_le_incl, Z.pow_pos_nonneg; lia).
    destruct HZ0 as [->| ->].
    - rewrite X0 by reflexivity. unfold zpow in *. replace (Z.to_nat (xindex zs + 2 ^ zlen bs * (1 - 0)))
        with (Z.to_nat (xindex zs) + Z.to_nat (2 ^ zlen bs))%nat by lia. rewrite fpow_add, HOm. ring.
    - rewrite X1 by reflexivity. replace (xindex zs + 2 ^ zlen bs * (1 - 1))%Z with (xindex zs) by lia. ring. }
  split; [|split; [exact HF|]].
  - apply (xi_circuit_iff T' c w); [assumption|assumption|]. fold per rows. split; [|split; [|split; [|split]]].
    + intros k Hk. destruct (RA k Hk) as [A1 [A2 A3]]. rewrite BK by exact Hk.
      replace (k mod per * 2 + 2)%Z with ((k mod per + 1) * 2)%Z by lia. rewrite !RE by lia.
      replace (k / per * per + (k mod per + 1))%Z with (k + 1)%Z by lia. rewrite <- A3.
      rewrite xi_acc_S by lia. unfold xi_step. ring.
    + intros i Hi. replace (row + i - 1)%Z with (row + (i - 1))%Z by lia. rewrite RE by lia.
      replace 0%Z with (0 * 2)%Z by reflexivity. rewrite RE by lia. f_equal. lia.
    + intros k Hk1 Hk2. rewrite BK by lia. unfold l. rewrite xi_bitlist by lia.
      apply (vval_frame P c rows row); [exact HF|]. apply OB. apply znth_In. lia.
    + intros Hlt. rewrite xi_next by lia. destruct (RA (zlen bs) ltac:(lia)) as [A1 [A2 A3]].
      replace (zlen bs mod per * 2 + 2)%Z with ((zlen bs mod per + 1) * 2)%Z by lia. rewrite RE by lia.
      replace (zlen bs / per * per + (zlen bs mod per + 1))%Z with (zlen bs + 1)%Z by lia.
      rewrite <- XA by exact Hlt. apply (vval_frame P c rows row); assumption.
    + intros i Hi. unfold T'. rewrite wsets_wit_const by discriminate. apply HCn. unfold xi_circuit. right. apply in_or_app. right.
      apply in_map_iff. exists i. split; [reflexivity|]. apply in_zseq. rewrite Hw. fold rows. lia.
  - unfold xi_out. rewrite vval_wcell. replace 1%Z with (0 * 2 + 1)%Z by reflexivity.
    replace row with (row + 0)%Z by lia. rewrite RB by nia. reflexivity.
Qed.

Lemma flat_map_ext_in : forall A B (f g : A -> list B) l, (forall a, In a l -> f a = g a) -> flat_map f l = flat_map g l.
Proof.
  induction l as [|a l IH]; intros H; [reflexivity|]. cbn [flat_map]. rewrite H by (left; reflexivity). f_equal.
  apply IH. intros; apply H; right; assumption.
Qed.

(** When the bits fill the rows exactly the circuit does not mention [x]. *)
Lemma xi_free_l : forall c w (om : F) x x' bs row, wamount c = w -> (3 <= w)%Z ->
  (zlen bs mod xi_per w = 0)%Z -> xi_circuit c om x bs row = xi_circuit c om x' bs row.
Proof.
  intros c w om x x' bs row Hw H3 HM. pose proof (zlen_nonneg _ bs) as LN.
  destruct (xi_rows_spec w (zlen bs) H3 LN) as [P1 [P2 [R0 [R1 R2]]]].
  unfold xi_circuit. f_equal. f_equal. unfold xi_copies. rewrite Hw. apply flat_map_ext_in. intros i Hi. f_equal.
  apply flat_map_ext_in. intros b Hb. apply in_zseq in Hi. apply in_zseq in Hb. cbv zeta.
  assert (i * xi_per w + b < xi_rows w (zlen bs) * xi_per w)%Z by nia.
  assert (xi_rows w (zlen bs) * xi_per w <= zlen bs)%Z by lia.
  replace (i * xi_per w + b + 1 =? zlen bs + 1)%Z with false by (symmetry; apply Z.eqb_neq; lia). reflexivity.
Qed.
End Proofs.
