(** Proofs about the state selector of the zkEVM circuit (state_selector.hpp). *)
From Coq Require Import ZArith List Lia Bool Field.
From Verif Require Import Base Field Plonk PlonkFacts Bits CompareModel ZkevmModel.
Import ListNotations.
Open Scope Z_scope.

Lemma ss_w_lo : forall n, 1 <= n -> 3 <= ss_w n.
Proof. intros n H. unfold ss_w. pose proof (Z.div_le_lower_bound (n + 1) 2 1). lia. Qed.

Lemma ss_w_hi : forall n, 1 <= n -> ss_w n - 2 <= n.
Proof. intros n H. unfold ss_w. pose proof (Z.div_le_upper_bound (n + 1) 2 n). lia. Qed.

Lemma ss_w_pair : forall n k, 0 <= k < n -> 1 <= k / 2 + 1 < ss_w n - 1.
Proof.
  intros n k H. unfold ss_w.
  pose proof (Z.div_pos k 2). pose proof (Z.div_le_mono (k + 2) (n + 1) 2).
  replace (k + 2) with (k + 1 * 2) in H1 by ring. rewrite Z.div_add in H1 by lia. lia.
Qed.

(** The cells of a selector on [n] options that selects option [k]. *)
Definition ss_val {P : params} (n k j : Z) : F P :=
  if j =? 0 then ofZ k else if j =? ss_w n - 1 then ofZ (k mod 2)
  else if j =? k / 2 + 1 then f1 else f0.

Definition ss_filled {P : params} (col : Z -> Z) (n k : Z) (T : table P) (r : Z) : Prop :=
  forall j, 0 <= j < ss_w n -> T CWit (col j) r = ss_val n k j.

Section Sel.
Variable P : params.
Notation F := (F P).
Notation table := (table P).
Implicit Types T : table.
Add Field Ff : (F_field P) (morphism (F_morph P), constants [F_const], power_tac (F_power P) [F_pow_tac]).
Local Open Scope F_scope.

Definition rsum (f : Z -> F) (lo hi : Z) : F := fold_left (fun s i => s + f i) (zseq lo hi) f0.

Lemma rsum_nil : forall f lo hi, (hi <= lo)%Z -> rsum f lo hi = f0.
Proof. intros. unfold rsum. rewrite zseq_nil by lia. reflexivity. Qed.

Lemma rsum_S : forall f lo hi, (lo <= hi)%Z -> rsum f lo (hi + 1) = rsum f lo hi + f hi.
Proof. intros. unfold rsum. rewrite zseq_snoc by lia. rewrite fold_left_app. reflexivity. Qed.

Lemma rsum_ext : forall f g lo hi, (forall i, (lo <= i < hi)%Z -> f i = g i) -> rsum f lo hi = rsum g lo hi.
Proof.
  intros f g lo hi. destruct (Z_le_gt_dec lo hi) as [L|G]; [|intros; rewrite !rsum_nil by lia; reflexivity].
  replace hi with (lo + (hi - lo))%Z by ring. assert (0 <= hi - lo)%Z as N by lia.
  revert N. generalize (hi - lo)%Z as n. intros n N. revert n N.
  apply (natlike_ind (fun n => (forall i, (lo <= i < lo + n)%Z -> f i = g i) -> rsum f lo (lo + n) = rsum g lo (lo + n))).
  - intros _. rewrite !rsum_nil by lia. reflexivity.
  - intros n N IH H. unfold Z.succ. rewrite Z.add_assoc, !rsum_S by lia. rewrite IH by (intros; apply H; lia).
    rewrite H by lia. reflexivity.
Qed.

Lemma range_ind : forall (Q : Z -> Prop) lo, Q lo ->
  (forall hi, (lo <= hi)%Z -> Q hi -> Q (hi + 1)%Z) -> forall hi, (lo <= hi)%Z -> Q hi.
Proof.
  intros Q lo H0 HS hi H. replace hi with (lo + (hi - lo))%Z by ring.
  assert (0 <= hi - lo)%Z as N by lia. revert N. generalize (hi - lo)%Z as n. clear H hi.
  apply natlike_ind.
  - rewrite Z.add_0_r. exact H0.
  - intros n N IH. unfold Z.succ. rewrite Z.add_assoc. apply HS; [lia|exact IH].
Qed.

Lemma eval_esum_acc : forall T r (es : list (expr P)) acc,
  eval T r (fold_left (EBin OAdd) es acc) = fold_left (fun s e => s + eval T r e) es (eval T r acc).
Proof.
  intros T r es. induction es as [|e es IH]; intros acc; [reflexivity|]. cbn [fold_left].
  rewrite IH. reflexivity.
Qed.

Lemma fold_left_map : forall A B C (f : A -> C -> A) (g : B -> C) l a,
  fold_left f (map g l) a = fold_left (fun s x => f s (g x)) l a.
Proof. intros A B C f g l. induction l as [|x l IH]; intros a; [reflexivity|]. cbn. apply IH. Qed.

Lemma eval_esum : forall T r (g : Z -> expr P) lo hi,
  eval T r (esum (map g (zseq lo hi))) = rsum (fun i => eval T r (g i)) lo hi.
Proof. intros. unfold esum, rsum. rewrite eval_esum_acc, fold_left_map. reflexivity. Qed.

(** One-hot vectors. *)
Lemma onehot_count : forall f lo hi, (lo <= hi)%Z ->
  (forall i, (lo <= i < hi)%Z -> f i = f0 \/ f i = f1) ->
  exists m, (0 <= m <= hi - lo)%Z /\ rsum f lo hi = ofZ m /\
    (m = 0%Z -> forall i, (lo <= i < hi)%Z -> f i = f0) /\
    (m = 1%Z -> exists k, (lo <= k < hi)%Z /\ forall i, (lo <= i < hi)%Z -> f i = if (i =? k)%Z then f1 else f0).
Proof.
  intros f lo hi H. revert hi H. apply (range_ind (fun hi =>
   (forall i, (lo <= i < hi)%Z -> f i = f0 \/ f i = f1) ->
   exists m, (0 <= m <= hi - lo)%Z /\ rsum f lo hi = ofZ m /\
    (m = 0%Z -> forall i, (lo <= i < hi)%Z -> f i = f0) /\
    (m = 1%Z -> exists k, (lo <= k < hi)%Z /\ forall i, (lo <= i < hi)%Z -> f i = if (i =? k)%Z then f1 else f0))).
  - intros _. exists 0%Z. split; [lia|split; [apply rsum_nil; lia|split; intros; lia]].
  - intros hi L IH B. destruct IH as [m [M [S [Z0 Z1]]]]; [intros; apply B; lia|].
    rewrite rsum_S by lia. rewrite S. destruct (B hi ltac:(lia)) as [E|E]; rewrite E.
    + exists m. split; [lia|split; [ring|split]].
      * intros M0 i Hi. destruct (Z.eq_dec i hi) as [->|N]; [exact E|]. apply Z0; [exact M0|lia].
      * intros M1. destruct (Z1 M1) as [k [K Hk]]. exists k. split; [lia|].
        intros i Hi. destruct (Z.eq_dec i hi) as [->|N]; [|apply Hk; lia].
        rewrite E. destruct (Z.eqb_spec hi k); [lia|reflexivity].
    + exists (m + 1)%Z. split; [lia|split; [rewrite ofZ_add; reflexivity|split]].
      * intros; lia.
      * intros M1. assert (m = 0%Z) as M0 by lia. exists hi. split; [lia|].
        intros i Hi. destruct (Z.eqb_spec i hi) as [->|N]; [exact E|]. apply Z0; [exact M0|lia].
Qed.

Lemma onehot_unique : forall f lo hi, (lo <= hi)%Z -> (hi - lo < char P)%Z ->
  (forall i, (lo <= i < hi)%Z -> f i = f0 \/ f i = f1) -> rsum f lo hi = f1 ->
  exists k, (lo <= k < hi)%Z /\ forall i, (lo <= i < hi)%Z -> f i = if (i =? k)%Z then f1 else f0.
Proof.
  intros f lo hi L C B S. destruct (onehot_count f lo hi L B) as [m [M [E [_ H1]]]].
  apply H1. rewrite S in E. pose proof (char_ge_2 P). unfold f1 in E. apply ofZ_inj in E.
  rewrite !Z.mod_small in E by lia. lia.
Qed.

Lemma onehot_sum : forall (g : Z -> F) k lo hi, (lo <= hi)%Z ->
  rsum (fun i => g i * (if (i =? k)%Z then f1 else f0)) lo hi
  = if ((lo <=? k) && (k <? hi))%Z%bool then g k else f0.
Proof.
  intros g k lo. apply range_ind.
  - rewrite rsum_nil by lia. destruct (Z.leb_spec lo k), (Z.ltb_spec k lo); try lia; reflexivity.
  - intros hi L IH. rewrite rsum_S by lia. rewrite IH.
    destruct (Z.eqb_spec hi k) as [->|N].
    + destruct (Z.leb_spec lo k), (Z.ltb_spec k k), (Z.ltb_spec k (k + 1)); try lia; cbn; ring.
    + destruct (Z.leb_spec lo k), (Z.ltb_spec k hi), (Z.ltb_spec k (hi + 1)); try lia; cbn; ring.
Qed.

Lemma ofZ_small_inj : forall a b, (0 <= a < char P)%Z -> (0 <= b < char P)%Z ->
  (ofZ a : F) = ofZ b -> a = b.
Proof. intros a b A B E. apply ofZ_inj in E. rewrite !Z.mod_small in E by lia. exact E. Qed.

(** The constraints accept exactly the filled selectors. *)
Lemma ss_iff : forall T col n r, (1 <= n < char P)%Z ->
  (forall e, In e (ss_constraints col n) -> eval T r e = f0) <->
  exists k, (0 <= k < n)%Z /\ ss_filled col n k T r.
Proof.
  intros T col n r N.
  pose proof (ss_w_lo n ltac:(lia)) as WL. pose proof (ss_w_hi n ltac:(lia)) as WH.
  unfold ss_constraints. rewrite !all_app.
  set (w := ss_w n) in *.
  set (x := fun i => T CWit (col i) r).
  assert (V : forall i, eval T r (evar (wv (col i) 0)) = x i).
  { intros i. rewrite eval_evar, gval_wv, Z.add_0_r. reflexivity. }
  assert (S1 : eval T r (esum (map (fun i => evar (wv (col i) 0)) (zseq 1 (w - 1)))) = rsum x 1 (w - 1)).
  { rewrite eval_esum. apply rsum_ext. intros i _. apply V. }
  assert (S2 : eval T r (esum (map (fun i => ETerm (ofZ (2 * (i - 1))) [wv (col i) 0]) (zseq 1 (w - 1))))
             = rsum (fun i => ofZ (2 * (i - 1)) * x i) 1 (w - 1)).
  { rewrite eval_esum. apply rsum_ext. intros i _. rewrite eval_term1, gval_wv, Z.add_0_r. reflexivity. }
  rewrite !all_cons, all_nil, !eval_bin, S1, S2, !V. cbn [ebop]. rewrite !eval_ecst.
  split.
  - intros [HB [[H1 [H2 [H3 _]]] H4]].
    assert (B : forall i, (1 <= i < w - 1)%Z -> x i = f0 \/ x i = f1).
    { intros i Hi. apply fbool_cases. rewrite <- V.
      apply (HB (EBin OMul (evar (wv (col i) 0)) (EBin OSub (evar (wv (col i) 0)) (ecst (ofZ 1))))).
      apply in_map_iff. exists i. split; [reflexivity|apply in_zseq; lia]. }
    apply fsub0 in H1.
    destruct (onehot_unique x 1 (w - 1) ltac:(lia) ltac:(lia) B H1) as [j [J HJ]].
    rewrite (rsum_ext _ (fun i => ofZ (2 * (i - 1)) * (if (i =? j)%Z then f1 else f0))) in H2
      by (intros i Hi; rewrite HJ by lia; reflexivity).
    rewrite onehot_sum in H2 by lia.
    destruct (Z.leb_spec 1 j), (Z.ltb_spec j (w - 1)); try lia. cbn [andb] in H2. apply fsub0 in H2.
    assert (exists b, (0 <= b < 2)%Z /\ x (w - 1)%Z = ofZ b) as [b [Hb Eb]].
    { destruct (fbool_cases _ _ H3) as [E|E]; [exists 0%Z|exists 1%Z]; (split; [lia|exact E]). }
    assert (D1 : ((2 * (j - 1) + b) / 2 = j - 1)%Z).
    { rewrite Z.add_comm, Z.mul_comm, Z.div_add by lia. rewrite Z.div_small by lia. lia. }
    assert (D2 : ((2 * (j - 1) + b) mod 2 = b)%Z).
    { rewrite Z.add_comm, Z.mul_comm, Z.mod_add by lia. apply Z.mod_small. lia. }
    exists (2 * (j - 1) + b)%Z. split.
    { split; [lia|]. subst w. unfold ss_w in *.
      destruct (Z.eqb_spec (n mod 2) 0) as [E|E].
      - assert (n = 2 * (n / 2))%Z by (rewrite (Z.div_mod n 2) at 1; lia).
        assert ((n + 1) / 2 = n / 2)%Z.
        { rewrite H5 at 1. rewrite Z.add_comm, Z.mul_comm, Z.div_add by lia. reflexivity. }
        lia.
      - pose proof (Z.mod_pos_bound n 2 ltac:(lia)).
        assert (n = 2 * (n / 2) + 1)%Z by (rewrite (Z.div_mod n 2) at 1; lia).
        assert ((n + 1) / 2 = n / 2 + 1)%Z.
        { rewrite H6 at 1. replace (2 * (n / 2) + 1 + 1)%Z with (0 + (n / 2 + 1) * 2)%Z by ring.
          rewrite Z.div_add by lia. reflexivity. }
        rewrite H7 in *. rewrite all_cons, eval_bin, !V in H4. destruct H4 as [H4 _]. cbn [ebop] in H4.
        rewrite HJ in H4 by lia. rewrite Eb in H4.
        destruct (Z.eqb_spec (n / 2 + 1 + 2 - 2) j) as [J'|J'].
        + assert (b = 0)%Z.
          { apply fmul_integral in H4. destruct H4 as [H4|H4]; [destruct (f1_neq_f0 P H4)|].
            apply ofZ_small_inj in H4; pose proof (char_ge_2 P); lia. }
          lia.
        + lia. }
    intros i Hi. unfold ss_val. fold w.
    destruct (Z.eqb_spec i 0) as [->|I0].
    { change (T CWit (col 0%Z) r) with (x 0%Z). rewrite <- H2, Eb, ofZ_add. reflexivity. }
    destruct (Z.eqb_spec i (w - 1)) as [->|I1].
    { change (x (w - 1)%Z = ofZ ((2 * (j - 1) + b) mod 2)). rewrite D2. exact Eb. }
    rewrite D1. replace (j - 1 + 1)%Z with j by ring. apply HJ. lia.
  - intros [k [K HF]].
    pose proof (ss_w_pair n k K) as PK. fold w in PK.
    assert (X0 : x 0%Z = ofZ k).
    { unfold x. rewrite HF by (fold w; lia). reflexivity. }
    assert (XW : x (w - 1)%Z = ofZ (k mod 2)).
    { unfold x. rewrite HF by (fold w; lia). unfold ss_val. fold w.
      destruct (Z.eqb_spec (w - 1) 0); [lia|]. rewrite Z.eqb_refl. reflexivity. }
    assert (XI : forall i, (1 <= i < w - 1)%Z -> x i = if (i =? k / 2 + 1)%Z then f1 else f0).
    { intros i Hi. unfold x. rewrite HF by (fold w; lia). unfold ss_val. fold w.
      destruct (Z.eqb_spec i 0); [lia|]. destruct (Z.eqb_spec i (w - 1)); [lia|]. reflexivity. }
    pose proof (Z.mod_pos_bound k 2 ltac:(lia)) as KM.
    assert (PB : x (w - 1)%Z * (x (w - 1)%Z - f1) = f0).
    { rewrite XW. assert (k mod 2 = 0 \/ k mod 2 = 1)%Z as [->| ->] by lia.
      - change (ofZ 0) with (f0 : F). ring.
      - change (ofZ 1) with (f1 : F). ring. }
    split.
    { intros e He. apply in_map_iff in He. destruct He as [i [<- Hi]]. apply in_zseq in Hi.
      rewrite !eval_bin, V. cbn [ebop]. rewrite eval_ecst, XI by lia.
      change (ofZ 1) with (f1 : F). destruct (i =? _)%Z; ring. }
    split; [split; [|split; [|split; [exact PB|exact I]]]|].
    + rewrite (rsum_ext _ (fun i => f1 * (if (i =? k / 2 + 1)%Z then f1 else f0)))
        by (intros i Hi; rewrite XI by lia; ring).
      rewrite onehot_sum by lia.
      destruct (Z.leb_spec 1 (k / 2 + 1)), (Z.ltb_spec (k / 2 + 1) (w - 1)); try lia. cbn [andb].
      change (ofZ 1) with (f1 : F). ring.
    + rewrite (rsum_ext _ (fun i => ofZ (2 * (i - 1)) * (if (i =? k / 2 + 1)%Z then f1 else f0)))
        by (intros i Hi; rewrite XI by lia; ring).
      rewrite onehot_sum by lia.
      destruct (Z.leb_spec 1 (k / 2 + 1)), (Z.ltb_spec (k / 2 + 1) (w - 1)); try lia. cbn [andb].
      rewrite X0, XW. replace (2 * (k / 2 + 1 - 1))%Z with (2 * (k / 2))%Z by ring.
      rewrite <- ofZ_add, <- Z.div_mod by lia. ring.
    + destruct (Z.eqb_spec (n mod 2) 0) as [E|E]; [apply all_nil; exact I|].
      apply all_cons. split; [|apply all_nil; exact I]. rewrite eval_bin, !V. cbn [ebop].
      rewrite XI by lia. rewrite XW.
      destruct (Z.eqb_spec (w - 2) (k / 2 + 1)) as [Q|Q]; [|ring].
      assert (k mod 2 = 0)%Z as ->; [|change (ofZ 0) with (f0 : F); ring].
      subst w. unfold ss_w in *. pose proof (Z.mod_pos_bound n 2 ltac:(lia)).
      assert (n = 2 * (n / 2) + 1)%Z by (rewrite (Z.div_mod n 2) at 1; lia).
      assert ((n + 1) / 2 = n / 2 + 1)%Z.
      { rewrite H0 at 1. replace (2 * (n / 2) + 1 + 1)%Z with (0 + (n / 2 + 1) * 2)%Z by ring.
        rewrite Z.div_add by lia. reflexivity. }
      rewrite H1 in Q. pose proof (Z.div_mod k 2 ltac:(lia)). lia.
Qed.

(** An option expression is non-zero exactly for the selected option. *)
Lemma ss_option_val : forall T col n k o r, (1 <= n < char P)%Z -> (0 <= k < n)%Z -> (0 <= o < n)%Z ->
  ss_filled col n k T r ->
  eval T r (ss_option col n o) = if (o =? k)%Z then (if (o mod 2 =? 0)%Z then - f1 else f1) else f0.
Proof.
  intros T col n k o r N K O HF.
  pose proof (ss_w_pair n k K) as PK. pose proof (ss_w_pair n o O) as PO.
  pose proof (Z.mod_pos_bound k 2 ltac:(lia)) as MK. pose proof (Z.mod_pos_bound o 2 ltac:(lia)) as MO.
  pose proof (Z.div_mod k 2 ltac:(lia)) as DK. pose proof (Z.div_mod o 2 ltac:(lia)) as DO.
  assert (XW : T CWit (col (ss_w n - 1)%Z) r = ofZ (k mod 2)).
  { rewrite HF by lia. unfold ss_val. destruct (Z.eqb_spec (ss_w n - 1) 0); [lia|].
    rewrite Z.eqb_refl. reflexivity. }
  assert (XO : T CWit (col (o / 2 + 1)%Z) r = if (o / 2 =? k / 2)%Z then f1 else f0).
  { rewrite HF by lia. unfold ss_val. destruct (Z.eqb_spec (o / 2 + 1) 0); [lia|].
    destruct (Z.eqb_spec (o / 2 + 1) (ss_w n - 1)); [lia|].
    destruct (Z.eqb_spec (o / 2 + 1) (k / 2 + 1)), (Z.eqb_spec (o / 2) (k / 2)); try lia; reflexivity. }
  unfold ss_option.
  destruct (Z.eqb_spec (o mod 2) 0) as [E|E];
    rewrite !eval_bin, !eval_evar, !gval_wv, !Z.add_0_r, ?eval_ecst, XW, XO; cbn [ebop];
    (destruct (Z.eqb_spec (o / 2) (k / 2)) as [Q|Q]; [|destruct (Z.eqb_spec o k); [subst; lia|ring]]).
  - destruct (Z.eqb_spec o k) as [->|N'].
    + rewrite E. change (ofZ 0) with (f0 : F). change (ofZ 1) with (f1 : F). ring.
    + assert (k mod 2 = 1)%Z as -> by lia. change (ofZ 1) with (f1 : F). ring.
  - destruct (Z.eqb_spec o k) as [->|N'].
    + assert (k mod 2 = 1)%Z as -> by lia. change (ofZ 1) with (f1 : F). ring.
    + assert (k mod 2 = 0)%Z as -> by lia. change (ofZ 0) with (f0 : F). ring.
Qed.

Lemma fopp1_neq0 : - (f1 : F) <> f0.
Proof. intros E. apply (f1_neq_f0 P). transitivity (- (- (f1 : F))); [ring|]. rewrite E. ring. Qed.

Lemma ss_option_nz : forall T col n k o r, (1 <= n < char P)%Z -> (0 <= k < n)%Z -> (0 <= o < n)%Z ->
  ss_filled col n k T r -> (eval T r (ss_option col n o) <> f0 <-> o = k).
Proof.
  intros T col n k o r N K O HF. rewrite (ss_option_val T col n k o r) by assumption.
  destruct (Z.eqb_spec o k) as [E|E].
  - split; [auto|intros _]. destruct (_ =? _)%Z; [apply fopp1_neq0|apply f1_neq_f0].
  - split; [intros H; destruct (H eq_refl)|contradiction].
Qed.

(** Witness generation fills the selector and touches nothing else. *)
Lemma ss_assign_other : forall T col n idx row ty c r,
  ty <> CWit \/ r <> row \/ (forall j, (0 <= j < ss_w n)%Z -> c <> col j) ->
  (1 <= n)%Z -> (0 <= fval idx < n)%Z ->
  ss_assign col n idx row T ty c r = T ty c r.
Proof.
  intros T col n idx row ty c r H N I. unfold ss_assign.
  pose proof (ss_w_lo n N) as WL.
  assert (PI : (1 <= Z.shiftr (fval idx) 1 + 1 < ss_w n - 1)%Z).
  { rewrite Z.shiftr_div_pow2 by lia. change (2 ^ 1)%Z with 2%Z. apply ss_w_pair. lia. }
  assert (G : forall j v T', (0 <= j < ss_w n)%Z -> wset T' (col j) row v ty c r = T' ty c r).
  { intros j v T' J. apply wset_other. destruct H as [H|[H|H]]; auto. }
  rewrite !G by lia.
  destruct (ctype_eqb ty CWit) eqn:E.
  - apply ctype_eqb_eq in E. subst ty. rewrite wsets_other.
    + apply G. lia.
    + intros v Hv. apply in_map_iff in Hv. destruct Hv as [i [Ei Hi]]. apply in_zseq in Hi.
      injection Ei as E1 E2 E3. destruct H as [H|[H|H]]; [congruence|congruence|]. apply (H i ltac:(lia)). congruence.
  - rewrite wsets_wit_const; [apply G; lia|]. intros ->. discriminate.
Qed.

Lemma ss_assign_filled : forall T col n k row, (1 <= n < char P)%Z -> (0 <= k < n)%Z ->
  (forall i j, (0 <= i < ss_w n)%Z -> (0 <= j < ss_w n)%Z -> col i = col j -> i = j) ->
  ss_filled col n k (ss_assign col n (ofZ k) row T) row.
Proof.
  intros T col n k row N K INJ j J. unfold ss_assign.
  rewrite fval_ofZ_small by lia.
  pose proof (ss_w_lo n ltac:(lia)) as WL. pose proof (ss_w_pair n k K) as PK.
  rewrite Z.shiftr_div_pow2 by lia. change (2 ^ 1)%Z with 2%Z.
  assert (LA : Z.land k 1 = (k mod 2)%Z) by (change 1%Z with (Z.ones 1); rewrite Z.land_ones by lia; reflexivity).
  rewrite LA.
  unfold ss_val.
  assert (G : forall i v T', (0 <= i < ss_w n)%Z -> i <> j -> wset T' (col i) row v CWit (col j) row = T' CWit (col j) row).
  { intros i v T' I D. apply wset_other. right. left. intros E. apply D. apply INJ; [lia|lia|congruence]. }
  destruct (Z.eqb_spec j (ss_w n - 1)) as [->|J1].
  { rewrite wset_same. destruct (Z.eqb_spec (ss_w n - 1) 0); [lia|reflexivity]. }
  rewrite (G (ss_w n - 1)%Z) by lia.
  destruct (Z.eqb_spec j (k / 2 + 1)) as [->|J2].
  { rewrite wset_same. destruct (Z.eqb_spec (k / 2 + 1) 0); [lia|reflexivity]. }
  rewrite (G (k / 2 + 1)%Z) by lia.
  destruct (Z.eqb_spec j 0) as [->|J0].
  - rewrite wsets_other; [apply wset_same|]. intros v Hv. apply in_map_iff in Hv.
    destruct Hv as [i [Ei Hi]]. apply in_zseq in Hi. injection Ei as Ec Ev.
    apply INJ in Ec; lia.
  - apply wsets_read.
    + apply in_map_iff. exists j. split; [reflexivity|]. apply in_zseq. lia.
    + intros v Hv. apply in_map_iff in Hv. destruct Hv as [i [Ei Hi]]. congruence.
Qed.
End Sel.
