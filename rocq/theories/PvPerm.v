(** Soundness and completeness of permutation_argument_verifier. *)
From Coq Require Import ZArith List Lia Bool Field.
From Verif Require Import Base Field Plonk PlonkFacts Bits FlexModel FlexProofs PvModel PvSpec PvTape PvGate PvLoops PvF1 PvF3.
Import ListNotations.
Open Scope Z_scope.

Section Perm.
Variable P : params.
Notation F := (F P).
Notation table := (table P).
Variable L : lenv P.
Implicit Types T : table.
Add Field Ff : (F_field P) (morphism (F_morph P), constants [F_const], power_tac (F_power P) [F_pow_tac]).
Local Open Scope F_scope.

Notation at_ T c j row k := (T CWit (W c j) (row + k)%Z).

(** One step of the running product in column [col], which reads column [scol]. *)
Definition pv_step T c (t1 t2 : F) (col scol row k : Z) : Prop :=
  at_ T c col row k = at_ T c col row (k - 1) * (at_ T c 1 row k + at_ T c scol row k * t1 + t2).
Definition pv_chain T c (t1 t2 : F) (col scol m row : Z) : Prop :=
  at_ T c col row 0 = at_ T c 1 row 0 + at_ T c scol row 0 * t1 + t2 /\
  forall k, (1 <= k < m)%Z -> pv_step T c t1 t2 col scol row k.
Definition pv_fin T c (m row : Z) : Prop :=
  at_ T c 0 row m = at_ T c 3 row m * (f1 - at_ T c 1 row (m + 1)) /\
  at_ T c 4 row m = (f1 - at_ T c 1 row m - at_ T c 2 row m) *
    (at_ T c 3 row (m + 1) * at_ T c 5 row (m - 1) - at_ T c 1 row (m + 1) * at_ T c 0 row (m - 1)) /\
  at_ T c 2 row (m + 1) = at_ T c 1 row (m + 1) * at_ T c 1 row (m + 1) /\
  at_ T c 0 row (m + 1) = at_ T c 1 row m * (at_ T c 2 row (m + 1) - at_ T c 1 row (m + 1)).
Definition pv_ins T c (i : pv_in) (row : Z) : Prop :=
  let m := zlen (pv_f i) in
  (forall k, (0 <= k < m)%Z ->
     at_ T c 1 row k = vval T (znth dvar (pv_f i) k) /\ at_ T c 2 row k = vval T (znth dvar (pv_se i) k) /\
     at_ T c 3 row k = vval T (if Z.odd k then pv_t2 i else pv_t1 i) /\ at_ T c 4 row k = vval T (znth dvar (pv_ss i) k)) /\
  at_ T c 1 row m = vval T (pv_ql i) /\ at_ T c 2 row m = vval T (pv_qp i) /\ at_ T c 3 row m = vval T (pv_l0 i) /\
  at_ T c 1 row (m + 1) = vval T (pv_v i) /\ at_ T c 3 row (m + 1) = vval T (pv_vz i).

Lemma pv_copies_iff : forall T c i row, sat L T (pv_copies c i row) <-> pv_ins T c i row.
Proof.
  intros T c i row. unfold pv_copies, pv_ins. cbv zeta. rewrite sat_app, sat_flat, !sat_cons. cbn [holds]. rewrite !vval_wcell.
  replace (row + zlen (pv_f i) + 1)%Z with (row + (zlen (pv_f i) + 1))%Z by lia.
  assert (E : (forall a, In a (zseq 0 (zlen (pv_f i))) ->
      sat L T [Copy (wcell (W c 1) (row + a)) (znth dvar (pv_f i) a); Copy (wcell (W c 2) (row + a)) (znth dvar (pv_se i) a);
               Copy (wcell (W c 3) (row + a)) (if Z.odd a then pv_t2 i else pv_t1 i); Copy (wcell (W c 4) (row + a)) (znth dvar (pv_ss i) a)]) <->
    (forall k, (0 <= k < zlen (pv_f i))%Z ->
     at_ T c 1 row k = vval T (znth dvar (pv_f i) k) /\ at_ T c 2 row k = vval T (znth dvar (pv_se i) k) /\
     at_ T c 3 row k = vval T (if Z.odd k then pv_t2 i else pv_t1 i) /\ at_ T c 4 row k = vval T (znth dvar (pv_ss i) k))).
  { split; intros H k Hk; specialize (H k); rewrite in_zseq in *; specialize (H Hk).
    - rewrite !sat_cons in H. cbn [holds] in H. rewrite !vval_wcell in H. tauto.
    - rewrite !sat_cons. cbn [holds]. rewrite !vval_wcell. pose proof (sat_nil P L T). tauto. }
  rewrite E. pose proof (sat_nil P L T). tauto.
Qed.

Lemma pv_gates_iff : forall T c i row, (2 <= zlen (pv_f i))%Z -> pv_ins T c i row ->
  let m := zlen (pv_f i) in let t1 := vval T (pv_t1 i) in let t2 := vval T (pv_t2 i) in
  (sat L T ([ Gate (pv_gate1 c) [row]; Gate (pv_gate2 c) (zsteps (row + 2) (row + m - m mod 2) 2) ] ++
     (if Z.odd m then [ Gate (pv_gate3 c) [row + m - 1]%Z ] else []) ++ [ Gate (pv_gate4 c) [row + m]%Z ]) <->
   pv_chain T c t1 t2 0 2 m row /\ pv_chain T c t1 t2 5 4 m row /\ pv_fin T c m row).
Proof.
  intros T c i row Hm [HI _] m t1 t2. fold m in Hm, HI.
  assert (TH : forall k, (0 <= k < m)%Z -> at_ T c 3 row k = if Z.odd k then t2 else t1).
  { intros k Hk. destruct (HI k Hk) as [_ [_ [-> _]]]. destruct (Z.odd k); reflexivity. }
  assert (G1 : holds L T (Gate (pv_gate1 c) [row]) <->
     (at_ T c 0 row 0 = at_ T c 1 row 0 + at_ T c 2 row 0 * t1 + t2 /\ at_ T c 5 row 0 = at_ T c 1 row 0 + at_ T c 4 row 0 * t1 + t2 /\
      pv_step T c t1 t2 0 2 row 1 /\ pv_step T c t1 t2 5 4 row 1)).
  { rewrite holds_gate1. unfold pv_gate1, pv_c3, pv_c4, pv_step. rewrite !all_cons, all_nil. eval_norm. change (1 - 1)%Z with 0%Z.
    rewrite !Z.add_0_r. pose proof (TH 0%Z ltac:(lia)) as H0. pose proof (TH 1%Z ltac:(lia)) as H1.
    change (Z.odd 0) with false in H0. change (Z.odd 1) with true in H1. cbv iota in H0, H1. rewrite Z.add_0_r in H0.
    rewrite H0, H1.
    assert (A : forall x y z w : F, x - y - z - w = f0 <-> x = y + z + w).
    { intros x y z w. split; intros X; [|rewrite X; ring]. apply fsub_eq0. rewrite <- X. ring. }
    rewrite !A, !fsub_eq0. tauto. }
  assert (OS : forall k, Z.odd (k + 1) = negb (Z.odd k)) by (intros k; rewrite Z.add_1_r, Z.odd_succ, <- Z.negb_odd; reflexivity).
  assert (G2 : forall k, (2 <= k < m - m mod 2)%Z -> (k mod 2 = 0)%Z ->
     ((forall e, In e (pv_gate2 c) -> eval T (row + k) e = f0) <->
      pv_step T c t1 t2 0 2 row k /\ pv_step T c t1 t2 5 4 row k /\ pv_step T c t1 t2 0 2 row (k + 1) /\ pv_step T c t1 t2 5 4 row (k + 1))).
  { intros k Hk Ek. assert (Hk1 : (k + 1 < m)%Z) by (clear - Hk Ek; zd).
    assert (OK : Z.odd k = false) by (rewrite Zmod_odd in Ek; destruct (Z.odd k); [discriminate|reflexivity]).
    unfold pv_gate2, pv_c3, pv_c4, pv_step. rewrite !all_cons, all_nil. eval_norm.
    replace (k + 1 - 1)%Z with k by lia. replace (row + k + 1)%Z with (row + (k + 1))%Z by lia.
    replace (row + k + -1)%Z with (row + (k - 1))%Z by lia. rewrite ?Z.add_0_r.
    pose proof (TH k ltac:(lia)) as H0. pose proof (TH (k + 1)%Z ltac:(lia)) as H1.
    rewrite OS, OK in H1. rewrite OK in H0. cbn [negb] in H1. rewrite H0, H1. rewrite !fsub_eq0. tauto. }
  assert (G3 : Z.odd m = true ->
     (holds L T (Gate (pv_gate3 c) [row + m - 1]%Z) <-> pv_step T c t1 t2 0 2 row (m - 1) /\ pv_step T c t1 t2 5 4 row (m - 1))).
  { intros OM. pose proof (Zmod_odd m) as MM. rewrite OM in MM. assert (Hm3 : (3 <= m)%Z) by (clear - Hm MM; zd).
    assert (O1 : Z.odd (m - 1) = false).
    { pose proof (OS (m - 1)%Z) as X. replace (m - 1 + 1)%Z with m in X by lia. rewrite OM in X. destruct (Z.odd (m - 1)); [discriminate|reflexivity]. }
    assert (O2 : Z.odd (m - 2) = true).
    { pose proof (OS (m - 2)%Z) as X. replace (m - 2 + 1)%Z with (m - 1)%Z in X by lia. rewrite O1 in X. destruct (Z.odd (m - 2)); [reflexivity|discriminate]. }
    rewrite holds_gate1. unfold pv_gate3, pv_step. rewrite !all_cons, all_nil. eval_norm.
    replace (row + m - 1 + -1)%Z with (row + (m - 1 - 1))%Z by lia. replace (row + m - 1)%Z with (row + (m - 1))%Z by lia.
    rewrite ?Z.add_0_r.
    pose proof (TH (m - 1)%Z ltac:(lia)) as H0. pose proof (TH (m - 1 - 1)%Z ltac:(lia)) as H1.
    replace (Z.odd (m - 1 - 1)) with true in H1 by (rewrite <- O2; f_equal; lia). rewrite O1 in H0.
    rewrite H0, H1. rewrite !fsub_eq0. tauto. }
  assert (G4 : holds L T (Gate (pv_gate4 c) [row + m]%Z) <-> pv_fin T c m row).
  { rewrite holds_gate1. unfold pv_gate4, pv_fin. rewrite !all_cons, all_nil. eval_norm.
    replace (row + m + 1)%Z with (row + (m + 1))%Z by lia. replace (row + m + -1)%Z with (row + (m - 1))%Z by lia.
    rewrite ?Z.add_0_r. rewrite !fsub_eq0. change (ofZ 1 : F) with (f1 : F). tauto. }
  rewrite sat_app, sat_app, !sat_cons, G1, G4.
  pose proof (Zmod_odd m) as MM.
  assert (GR : holds L T (Gate (pv_gate2 c) (zsteps (row + 2) (row + m - m mod 2) 2)) <->
    (forall k, (2 <= k < m - m mod 2)%Z -> pv_step T c t1 t2 0 2 row k /\ pv_step T c t1 t2 5 4 row k)).
  { cbn [holds]. split.
    - intros H k Hk. assert (E : (k = 2 * (k / 2) \/ k = 2 * (k / 2) + 1)%Z) by (clear; zd).
      destruct E as [E|E].
      + assert (X : forall e, In e (pv_gate2 c) -> eval T (row + k) e = f0).
        { apply H. apply in_zsteps; [lia|]. exists (k / 2 - 1)%Z. lia. }
        apply (G2 k Hk) in X; [tauto|clear - E; zd].
      + assert (K2 : (2 <= 2 * (k / 2) < m - m mod 2)%Z) by lia.
        assert (X : forall e, In e (pv_gate2 c) -> eval T (row + 2 * (k / 2)) e = f0).
        { apply H. apply in_zsteps; [lia|]. exists (k / 2 - 1)%Z. lia. }
        apply (G2 _ K2) in X; [|clear; zd]. replace (2 * (k / 2) + 1)%Z with k in X by lia. tauto.
    - intros H r Hr. apply in_zsteps in Hr; [|lia]. destruct Hr as [q [Hq [-> Hl]]].
      replace (row + 2 + 2 * q)%Z with (row + (2 + 2 * q))%Z by lia.
      assert (K1 : (2 + 2 * q + 1 < m - m mod 2)%Z).
      { assert ((m - m mod 2) mod 2 = 0)%Z by (clear; zd). clear - Hl H0. zd. }
      apply (G2 (2 + 2 * q)%Z ltac:(lia)); [clear; zd|].
      pose proof (H (2 + 2 * q)%Z ltac:(lia)). pose proof (H (2 + 2 * q + 1)%Z ltac:(lia)). tauto. }
  rewrite GR. clear GR. pose proof (sat_nil P L T) as SN. unfold pv_chain.
  destruct (Z.odd m) eqn:OM.
  - rewrite sat_cons, (G3 eq_refl). rewrite MM. split.
    + intros [[[A1 [A2 [A3 A4]]] [A5 _]] [[[A6 A7] _] [A8 _]]].
      assert (ST : forall k, (1 <= k < m)%Z -> pv_step T c t1 t2 0 2 row k /\ pv_step T c t1 t2 5 4 row k).
      { intros k Hk. destruct (Z.eq_dec k 1) as [-> |N1]; [tauto|].
        destruct (Z.eq_dec k (m - 1)) as [-> |N2]; [tauto|]. apply A5. lia. }
      repeat split; try assumption; try apply A8; intros k Hk; apply (ST k Hk).
    + intros [[A1 A2] [[A3 A4] A5]]. assert (3 <= m)%Z by (clear - Hm MM; zd).
      repeat split; try assumption; try (apply A2; lia); try (apply A4; lia); try apply A5.
  - rewrite MM. split.
    + intros [[[A1 [A2 [A3 A4]]] [A5 _]] [_ [A8 _]]].
      assert (ST : forall k, (1 <= k < m)%Z -> pv_step T c t1 t2 0 2 row k /\ pv_step T c t1 t2 5 4 row k).
      { intros k Hk. destruct (Z.eq_dec k 1) as [-> |N1]; [tauto|]. apply A5. lia. }
      repeat split; try assumption; try apply A8; intros k Hk; apply (ST k Hk).
    + intros [[A1 A2] [[A3 A4] A5]].
      repeat split; try assumption; try (apply A2; lia); try (apply A4; lia); try apply A5.
Qed.

Lemma pv_circuit_iff : forall T c i row, (2 <= zlen (pv_f i))%Z ->
  let m := zlen (pv_f i) in let t1 := vval T (pv_t1 i) in let t2 := vval T (pv_t2 i) in
  (sat L T (pv_circuit c i row) <->
   pv_ins T c i row /\ pv_chain T c t1 t2 0 2 m row /\ pv_chain T c t1 t2 5 4 m row /\ pv_fin T c m row).
Proof.
  intros T c i row Hm m t1 t2. unfold pv_circuit. cbv zeta. fold m.
  rewrite app_assoc, app_assoc, sat_app, pv_copies_iff. rewrite <- app_assoc. split.
  - intros [A B]. split; [exact B|]. apply (pv_gates_iff T c i row Hm B). exact A.
  - intros [A B]. split; [|exact A]. apply (pv_gates_iff T c i row Hm A). exact B.
Qed.

Lemma pv_prod_S : forall T i ss k, (0 <= k)%Z -> pv_prod T i ss (k + 1) =
  pv_prod T i ss k * (vval T (znth dvar (pv_f i) k) + vval T (pv_t1 i) * vval T (znth dvar ss k) + vval T (pv_t2 i)).
Proof. intros. unfold pv_prod. rewrite fold_zseq_snoc by lia. reflexivity. Qed.

(** The products of the permutation argument. *)
Definition pv_value T (i : pv_in) (ss : list var) : F :=
  list_prod (map (fun fs => vval T (fst fs) + vval T (pv_t1 i) * vval T (snd fs) + vval T (pv_t2 i)) (combine (pv_f i) ss)).

Lemma firstn_snoc : forall A (l : list A) n d, (n < length l)%nat -> firstn (S n) l = firstn n l ++ [nth n l d].
Proof.
  intros A l. induction l as [|x l IH]; intros [|n] d H; cbn [length firstn nth app] in *; try lia; [reflexivity|].
  f_equal. apply IH. lia.
Qed.

Lemma pv_prod_value : forall T i ss, zlen ss = zlen (pv_f i) -> pv_prod T i ss (zlen (pv_f i)) = pv_value T i ss.
Proof.
  intros T i ss E. unfold pv_value.
  assert (G : forall k, (0 <= k < zlen (pv_f i) + 1)%Z ->
    pv_prod T i ss k = list_prod (map (fun fs => vval T (fst fs) + vval T (pv_t1 i) * vval T (snd fs) + vval T (pv_t2 i)) (firstn (Z.to_nat k) (combine (pv_f i) ss)))).
  { apply (zind _ (zlen (pv_f i) + 1)).
    - reflexivity.
    - intros j Hj Hl IH. rewrite pv_prod_S, IH by lia. replace (Z.to_nat (j + 1)) with (S (Z.to_nat j)) by lia.
      rewrite (firstn_snoc _ _ _ (dvar, dvar)) by (rewrite combine_length; unfold zlen in *; lia).
      rewrite combine_nth by (unfold zlen in *; lia). rewrite map_app. cbn [map fst snd]. rewrite list_prod_snoc. reflexivity. }
  rewrite G by (unfold zlen; lia). do 2 f_equal. apply firstn_all2. rewrite combine_length. unfold zlen. lia.
Qed.

Lemma pv_cells : forall T c i row ss col scol, (1 <= zlen (pv_f i))%Z ->
  (forall k, (0 <= k < zlen (pv_f i))%Z -> at_ T c 1 row k = vval T (znth dvar (pv_f i) k) /\ at_ T c scol row k = vval T (znth dvar ss k)) ->
  pv_chain T c (vval T (pv_t1 i)) (vval T (pv_t2 i)) col scol (zlen (pv_f i)) row ->
  forall k, (0 <= k < zlen (pv_f i))%Z -> at_ T c col row k = pv_prod T i ss (k + 1).
Proof.
  intros T c i row ss col scol Hm HI [H0 HS]. apply (zind _ (zlen (pv_f i))).
  - rewrite pv_prod_S by lia. rewrite H0. destruct (HI 0%Z ltac:(lia)) as [-> ->]. change (pv_prod T i ss 0) with (f1 : F). ring.
  - intros j Hj Hl IH. pose proof (HS (j + 1)%Z ltac:(lia)) as X. unfold pv_step in X.
    replace (j + 1 - 1)%Z with j in X by lia. rewrite X, IH. destruct (HI (j + 1)%Z ltac:(lia)) as [-> ->].
    rewrite (pv_prod_S T i ss (j + 1)) by lia. ring.
Qed.

Lemma pv_sound_l : forall T c i row, (2 <= zlen (pv_f i))%Z -> zlen (pv_se i) = zlen (pv_f i) -> zlen (pv_ss i) = zlen (pv_f i) ->
  sat L T (pv_circuit c i row) ->
  let '(o1, o2, o3) := pv_out c (zlen (pv_f i)) row in
  vval T o1 = vval T (pv_l0 i) * (f1 - vval T (pv_v i)) /\
  vval T o2 = (f1 - (vval T (pv_ql i) + vval T (pv_qp i))) *
    (vval T (pv_vz i) * pv_value T i (pv_ss i) - vval T (pv_v i) * pv_value T i (pv_se i)) /\
  vval T o3 = vval T (pv_ql i) * (vval T (pv_v i) * vval T (pv_v i) - vval T (pv_v i)).
Proof.
  intros T c i row Hm E1 E2 H. apply pv_circuit_iff in H; [|exact Hm]. destruct H as [HI [HE [HS HF]]].
  unfold pv_out, pv_rows. cbv beta iota zeta. rewrite !vval_wcell.
  set (m := zlen (pv_f i)) in *.
  replace (row + (m + 2) - 2)%Z with (row + m)%Z by lia. replace (row + (m + 2) - 1)%Z with (row + (m + 1))%Z by lia.
  destruct HF as [F1 [F2 [F3 F4]]]. destruct HI as [HI [I1 [I2 [I3 [I4 I5]]]]]. fold m in HI, I1, I2, I3, I4, I5.
  assert (C0 : at_ T c 0 row (m - 1) = pv_value T i (pv_se i)).
  { rewrite (pv_cells T c i row (pv_se i) 0 2); [| |intros k Hk; destruct (HI k Hk) as [A [B _]]; auto|exact HE|]; fold m; try lia.
    replace (m - 1 + 1)%Z with m by lia. apply pv_prod_value. exact E1. }
  assert (C5 : at_ T c 5 row (m - 1) = pv_value T i (pv_ss i)).
  { rewrite (pv_cells T c i row (pv_ss i) 5 4); [| |intros k Hk; destruct (HI k Hk) as [A [_ [_ B]]]; auto|exact HS|]; fold m; try lia.
    replace (m - 1 + 1)%Z with m by lia. apply pv_prod_value. exact E2. }
  rewrite F4, F3, F1, F2, C0, C5, I1, I2, I3, I4, I5. repeat split; ring.
Qed.

Lemma pv_complete_l : forall T c w i row, wf_comp c w -> (6 <= w)%Z -> (2 <= zlen (pv_f i))%Z ->
  zlen (pv_se i) = zlen (pv_f i) -> zlen (pv_ss i) = zlen (pv_f i) ->
  let n := pv_rows (zlen (pv_f i)) in
  (forall x, In x (pv_f i ++ pv_se i ++ pv_ss i ++ [pv_l0 i; pv_v i; pv_vz i; pv_ql i; pv_qp i; pv_t1 i; pv_t2 i]) -> outside c n row x) ->
  let T' := pv_assign c i row T in
  sat L T' (pv_circuit c i row) /\ frame c n row T T'.
Proof.
  intros T c w i row Hwf Hw Hm E1 E2 n Ho T'. set (m := zlen (pv_f i)) in *.
  assert (Wn : forall a b, (0 <= a < 6)%Z -> (0 <= b < 6)%Z -> a <> b -> W c a <> W c b).
  { intros a b Ha Hb. apply (W_neq c w); [exact Hwf|lia|lia]. }
  set (body := fun k => [ (W c 0, (row + k)%Z, pv_prod T i (pv_se i) (k + 1)); (W c 1, (row + k)%Z, vval T (znth dvar (pv_f i) k));
        (W c 2, (row + k)%Z, vval T (znth dvar (pv_se i) k)); (W c 4, (row + k)%Z, vval T (znth dvar (pv_ss i) k));
        (W c 5, (row + k)%Z, pv_prod T i (pv_ss i) (k + 1));
        (W c 3, (row + k)%Z, if Z.odd k then vval T (pv_t2 i) else vval T (pv_t1 i)) ]).
  assert (FT : frame c n row T T').
  { subst T'. unfold pv_assign. cbv zeta. apply (wsets_frame P c w); [exact Hwf|]. intros col r v H. apply in_app_or in H.
    unfold n, pv_rows. destruct H as [H|H].
    - apply in_flat_map in H. destruct H as [k [Hk H]]. apply in_zseq in Hk. fold m in Hk.
      repeat (destruct H as [H|H]; [injection H as <- <- <-; split; [eexists; reflexivity|lia]|]). destruct H.
    - fold m in H. repeat (destruct H as [H|H]; [injection H as <- <- <-; split; [eexists; reflexivity|lia]|]). destruct H. }
  assert (Vo : forall x, In x (pv_f i ++ pv_se i ++ pv_ss i ++ [pv_l0 i; pv_v i; pv_vz i; pv_ql i; pv_qp i; pv_t1 i; pv_t2 i]) -> vval T' x = vval T x).
  { intros x Hx. apply (vval_frame P c n row T T'); [exact FT|apply Ho; exact Hx]. }
  assert (Vf : forall k, (0 <= k < m)%Z -> vval T' (znth dvar (pv_f i) k) = vval T (znth dvar (pv_f i) k)).
  { intros k Hk. apply Vo. apply in_or_app. left. apply znth_In. exact Hk. }
  assert (Ve : forall k, (0 <= k < m)%Z -> vval T' (znth dvar (pv_se i) k) = vval T (znth dvar (pv_se i) k)).
  { intros k Hk. apply Vo. apply in_or_app. right. apply in_or_app. left. apply znth_In. lia. }
  assert (Vs : forall k, (0 <= k < m)%Z -> vval T' (znth dvar (pv_ss i) k) = vval T (znth dvar (pv_ss i) k)).
  { intros k Hk. apply Vo. apply in_or_app. right. apply in_or_app. right. apply in_or_app. left. apply znth_In. lia. }
  assert (Vt : forall x, In x [pv_l0 i; pv_v i; pv_vz i; pv_ql i; pv_qp i; pv_t1 i; pv_t2 i] -> vval T' x = vval T x).
  { intros x Hx. apply Vo. rewrite !in_app_iff. tauto. }
  clear Vo.
  (* Reading the loop rows. *)
  assert (RB : forall j k v, (0 <= k < m)%Z -> (0 <= j < 6)%Z -> In (W c j, (row + k)%Z, v) (body k) -> at_ T' c j row k = v).
  { intros j k v Hk Hj Hin. subst T'. unfold pv_assign. cbv zeta. fold m. apply wsets_read.
    - apply in_or_app. left. apply in_flat_map. exists k. split; [apply in_zseq; exact Hk|exact Hin].
    - assert (UB : forall v', In (W c j, (row + k)%Z, v') (body k) -> v' = v).
      { intros v' H. unfold body in *.
        repeat (destruct Hin as [Hin|Hin]; [pose proof (f_equal (fun x => fst (fst x)) Hin) as A1;
          pose proof (f_equal snd Hin) as A3; cbn [fst snd] in A1, A3; rewrite <- A3; clear A3 Hin;
          repeat (destruct H as [H|H]; [pose proof (f_equal (fun x => fst (fst x)) H) as B1;
             pose proof (f_equal snd H) as B3; cbn [fst snd] in B1, B3; first [rewrite <- B3; reflexivity|
               exfalso; rewrite <- B1 in A1; revert A1; apply Wn; lia]|]); destruct H|]).
        destruct Hin. }
      intros v' H. apply in_app_or in H. destruct H as [H|H].
      + apply in_flat_map in H. destruct H as [k' [Hk' H]].
        assert (k' = k).
        { repeat (destruct H as [H|H]; [apply (f_equal (fun x => snd (fst x))) in H; cbn [fst snd] in H; lia|]). destruct H. }
        subst k'. apply UB. exact H.
      + exfalso. repeat (destruct H as [H|H]; [apply (f_equal (fun x => snd (fst x))) in H; cbn [fst snd] in H; lia|]). destruct H. }
  set (tail := [ (W c 0, (row + m)%Z, (vval T (pv_l0 i) * (f1 - vval T (pv_v i)))); (W c 1, (row + m)%Z, vval T (pv_ql i)); (W c 2, (row + m)%Z, vval T (pv_qp i)); (W c 3, (row + m)%Z, vval T (pv_l0 i));
      (W c 4, (row + m)%Z, ((f1 - (vval T (pv_ql i) + vval T (pv_qp i))) * (vval T (pv_vz i) * pv_prod T i (pv_ss i) m - vval T (pv_v i) * pv_prod T i (pv_se i) m)));
      (W c 0, (row + m + 1)%Z, (vval T (pv_ql i) * (vval T (pv_v i) * vval T (pv_v i) - vval T (pv_v i)))); (W c 1, (row + m + 1)%Z, vval T (pv_v i));
      (W c 2, (row + m + 1)%Z, (vval T (pv_v i) * vval T (pv_v i))); (W c 3, (row + m + 1)%Z, vval T (pv_vz i)) ]).
  assert (RT : forall j k v, (0 <= j < 6)%Z -> In (W c j, (row + k)%Z, v) tail -> at_ T' c j row k = v).
  { intros j k v Hj Hin. subst T'. unfold pv_assign. cbv zeta. fold m. fold tail. apply wsets_read.
    - apply in_or_app. right. exact Hin.
    - assert (Hk : (m <= k)%Z).
      { unfold tail in Hin. repeat (destruct Hin as [Hin|Hin]; [apply (f_equal (fun x => snd (fst x))) in Hin; cbn [fst snd] in Hin; lia|]). destruct Hin. }
      assert (UB : forall v', In (W c j, (row + k)%Z, v') tail -> v' = v).
      { intros v' H. unfold tail in *.
        repeat (destruct Hin as [Hin|Hin]; [pose proof (f_equal (fun x => fst (fst x)) Hin) as A1; pose proof (f_equal (fun x => snd (fst x)) Hin) as A2;
          pose proof (f_equal snd Hin) as A3; cbn [fst snd] in A1, A2, A3; rewrite <- A3; clear A3 Hin;
          repeat (destruct H as [H|H]; [pose proof (f_equal (fun x => fst (fst x)) H) as B1; pose proof (f_equal (fun x => snd (fst x)) H) as B2;
             pose proof (f_equal snd H) as B3; cbn [fst snd] in B1, B2, B3; first [lia|rewrite <- B3; reflexivity|
               exfalso; rewrite <- B1 in A1; revert A1; apply Wn; lia]|]); destruct H|]).
        destruct Hin. }
      intros v' H. apply in_app_or in H. destruct H as [H|H]; [|apply UB; exact H].
      exfalso. apply in_flat_map in H. destruct H as [k' [Hk' H]]. apply in_zseq in Hk'.
      repeat (destruct H as [H|H]; [apply (f_equal (fun x => snd (fst x))) in H; cbn [fst snd] in H; lia|]). destruct H. }
  assert (SC : sat L T' (pv_circuit c i row)).
  { apply pv_circuit_iff; [exact Hm|]. cbv zeta. fold m.
    assert (B0 : forall k, (0 <= k < m)%Z -> at_ T' c 0 row k = pv_prod T i (pv_se i) (k + 1)) by (intros k Hk; apply (RB 0%Z); [exact Hk|lia|unfold body; cbn [In]; auto]).
    assert (B1 : forall k, (0 <= k < m)%Z -> at_ T' c 1 row k = vval T (znth dvar (pv_f i) k)) by (intros k Hk; apply (RB 1%Z); [exact Hk|lia|unfold body; cbn [In]; auto]).
    assert (B2 : forall k, (0 <= k < m)%Z -> at_ T' c 2 row k = vval T (znth dvar (pv_se i) k)) by (intros k Hk; apply (RB 2%Z); [exact Hk|lia|unfold body; cbn [In]; auto]).
    assert (B4 : forall k, (0 <= k < m)%Z -> at_ T' c 4 row k = vval T (znth dvar (pv_ss i) k)) by (intros k Hk; apply (RB 4%Z); [exact Hk|lia|unfold body; cbn [In]; auto]).
    assert (B5 : forall k, (0 <= k < m)%Z -> at_ T' c 5 row k = pv_prod T i (pv_ss i) (k + 1)) by (intros k Hk; apply (RB 5%Z); [exact Hk|lia|unfold body; cbn [In]; auto 10]).
    assert (B3 : forall k, (0 <= k < m)%Z -> at_ T' c 3 row k = if Z.odd k then vval T (pv_t2 i) else vval T (pv_t1 i)) by (intros k Hk; apply (RB 3%Z); [exact Hk|lia|unfold body; cbn [In]; auto 10]).
    assert (X1 : (row + m + 1 = row + (m + 1))%Z) by lia.
    assert (VT1 : vval T' (pv_t1 i) = vval T (pv_t1 i)) by (apply Vt; cbn [In]; auto 10).
    assert (VT2 : vval T' (pv_t2 i) = vval T (pv_t2 i)) by (apply Vt; cbn [In]; auto 10).
    assert (M0 : at_ T' c 0 row m = vval T (pv_l0 i) * (f1 - vval T (pv_v i))) by (apply (RT 0%Z); [lia|unfold tail; cbn [In]; auto 10]).
    assert (M1 : at_ T' c 1 row m = vval T (pv_ql i)) by (apply (RT 1%Z); [lia|unfold tail; cbn [In]; auto 10]).
    assert (M2 : at_ T' c 2 row m = vval T (pv_qp i)) by (apply (RT 2%Z); [lia|unfold tail; cbn [In]; auto 10]).
    assert (M3 : at_ T' c 3 row m = vval T (pv_l0 i)) by (apply (RT 3%Z); [lia|unfold tail; cbn [In]; auto 10]).
    assert (M4 : at_ T' c 4 row m = (f1 - (vval T (pv_ql i) + vval T (pv_qp i))) * (vval T (pv_vz i) * pv_prod T i (pv_ss i) m - vval T (pv_v i) * pv_prod T i (pv_se i) m)) by (apply (RT 4%Z); [lia|unfold tail; cbn [In]; auto 12]).
    assert (N0 : at_ T' c 0 row (m + 1) = vval T (pv_ql i) * (vval T (pv_v i) * vval T (pv_v i) - vval T (pv_v i))) by (apply (RT 0%Z); [lia|unfold tail; cbn [In]; rewrite X1; auto 12]).
    assert (N1 : at_ T' c 1 row (m + 1) = vval T (pv_v i)) by (apply (RT 1%Z); [lia|unfold tail; cbn [In]; rewrite X1; auto 12]).
    assert (N2 : at_ T' c 2 row (m + 1) = vval T (pv_v i) * vval T (pv_v i)) by (apply (RT 2%Z); [lia|unfold tail; cbn [In]; rewrite X1; auto 12]).
    assert (N3 : at_ T' c 3 row (m + 1) = vval T (pv_vz i)) by (apply (RT 3%Z); [lia|unfold tail; cbn [In]; rewrite X1; auto 12]).
    split; [|split; [|split]].
    - unfold pv_ins. fold m. split.
      + intros k Hk. rewrite B1, B2, B3, B4, Vf, Ve, Vs by exact Hk. repeat split. destruct (Z.odd k); symmetry; assumption.
      + rewrite M1, M2, M3, N1, N3. repeat split; symmetry; apply Vt; cbn [In]; auto 10.
    - rewrite VT1, VT2. split.
      + rewrite B0, B1, B2 by lia. rewrite pv_prod_S by lia. change (pv_prod T i (pv_se i) 0) with (f1 : F). ring.
      + intros k Hk. unfold pv_step. rewrite !B0, B1, B2 by lia. replace (k - 1 + 1)%Z with k by lia. rewrite pv_prod_S by lia. ring.
    - rewrite VT1, VT2. split.
      + rewrite B5, B1, B4 by lia. rewrite pv_prod_S by lia. change (pv_prod T i (pv_ss i) 0) with (f1 : F). ring.
      + intros k Hk. unfold pv_step. rewrite !B5, B1, B4 by lia. replace (k - 1 + 1)%Z with k by lia. rewrite pv_prod_S by lia. ring.
    - unfold pv_fin. rewrite M0, M1, M2, M3, M4, N0, N1, N2, N3, B0, B5 by lia. replace (m - 1 + 1)%Z with m by lia.
      repeat split; ring. }
  split; [exact SC|exact FT].
Qed.

End Perm.
