(** Soundness and completeness of the FRI interpolation and array-swap
    components. *)
From Coq Require Import ZArith List Lia Bool Field.
From Verif Require Import Base Field Plonk PlonkFacts Bits FlexModel FlexProofs FriModel.
Import ListNotations.
Open Scope Z_scope.

Lemma flat_all : forall A B (f : A -> list B) l (Q : B -> Prop),
  (forall e, In e (flat_map f l) -> Q e) <-> (forall b, In b l -> forall e, In e (f b) -> Q e).
Proof.
  intros A B f l Q. split.
  - intros H b Hb e He. apply H. apply in_flat_map. exists b. auto.
  - intros H e He. apply in_flat_map in He. destruct He as [b [Hb He]]. eauto.
Qed.

Section Proofs.
Variable P : params.
Notation F := (F P).
Notation table := (table P).
Variable L : lenv P.
Implicit Types T : table.
Add Field Ff : (F_field P) (morphism (F_morph P), constants [F_const], power_tac (F_power P) [F_pow_tac]).
Local Open Scope F_scope.

(** ** Interpolation *)

Lemma li_sound_l : forall T c s y0 y1 alpha row, (ofZ 2 : F) <> f0 ->
  sat L T (li_circuit c s y0 y1 alpha row) -> vval T s <> f0 ->
  vval T (li_out c row) = vval T y0 + (vval T y1 - vval T y0) * (vval T s - vval T alpha) / (ofZ 2 * vval T s).
Proof.
  intros T c s y0 y1 alpha row H2 H Hs. unfold li_circuit, li_gate in H. cbv zeta in H. sat_hyp H. eval_hyps.
  destruct H as [[G _] [E0 [E1 [E2 [E3 _]]]]]. unfold li_out. rewrite !vval_wcell in *.
  rewrite E0, E1, E2, E3 in G.
  assert (K : ofZ 2 * vval T s * (T CWit (W c 4) row - vval T y0) = (vval T y1 - vval T y0) * (vval T s - vval T alpha)).
  { apply fsub0. rewrite <- G. ring. }
  rewrite <- K. field. auto.
Qed.

(** When [s] is zero the equation says nothing about the output. *)
Lemma li_exact_l : forall T c s y0 y1 alpha row,
  sat L T (li_circuit c s y0 y1 alpha row) ->
  ofZ 2 * vval T s * (vval T (li_out c row) - vval T y0) = (vval T y1 - vval T y0) * (vval T s - vval T alpha).
Proof.
  intros T c s y0 y1 alpha row H. unfold li_circuit, li_gate in H. cbv zeta in H. sat_hyp H. eval_hyps.
  destruct H as [[G _] [E0 [E1 [E2 [E3 _]]]]]. unfold li_out. rewrite !vval_wcell in *.
  rewrite E0, E1, E2, E3 in G. apply fsub0. rewrite <- G. ring.
Qed.

Lemma li_complete_l : forall T c s y0 y1 alpha row, (ofZ 2 : F) <> f0 -> wf_comp c 5 ->
  outside c 1 row s -> outside c 1 row y0 -> outside c 1 row y1 -> outside c 1 row alpha ->
  vval T s <> f0 ->
  let T' := li_assign c s y0 y1 alpha row T in
  sat L T' (li_circuit c s y0 y1 alpha row) /\ frame c 1 row T T'.
Proof.
  intros T c s y0 y1 alpha row H2 Hwf Os O0 O1 Oa Hs T'.
  unfold T', li_assign, wsets. cbn [fold_left fst snd]. cbv zeta. split; [|frame_tac].
  unfold li_circuit, li_gate. cbv zeta. sat_goal; rd; try reflexivity.
  field. auto.
Qed.

(** ** Array swap *)

Lemma as_rows_spec : forall w half, (5 <= w)%Z -> (0 <= half)%Z ->
  (0 < as_per w /\ 4 * as_per w + 1 <= w /\ 0 <= as_rows w half /\ half <= as_rows w half * as_per w)%Z.
Proof.
  intros w half Hw Hh. unfold as_rows, as_per.
  pose proof (Z.div_mod (w - 1) 4 ltac:(lia)). pose proof (Z.mod_pos_bound (w - 1) 4 ltac:(lia)).
  set (q := ((w - 1) / 4)%Z) in *. assert (0 < q)%Z by lia.
  pose proof (Z.div_mod (2 * half + q - 1) q ltac:(lia)). pose proof (Z.mod_pos_bound (2 * half + q - 1) q ltac:(lia)).
  assert (0 <= (2 * half + q - 1) / q)%Z by (apply Z.div_pos; lia). nia.
Qed.

Lemma as_pairs_In : forall w half i b k, In (b, k) (as_pairs w half i) <->
  (0 <= b < as_per w)%Z /\ k = (i * as_per w + b)%Z /\ (k < half)%Z.
Proof.
  intros w half i b k. unfold as_pairs. rewrite in_flat_map. split.
  - intros [x [Hx H]]. apply in_zseq in Hx. destruct (Z.ltb_spec (2 * (i * as_per w + x)) (2 * half)) as [Hl|]; [|contradiction].
    destruct H as [H|[]]. injection H as <- <-. lia.
  - intros [Hb [-> Hk]]. exists b. split; [apply in_zseq; lia|].
    replace (2 * (i * as_per w + b) <? 2 * half)%Z with true by (symmetry; apply Z.ltb_lt; lia). left. reflexivity.
Qed.

Lemma as_pos : forall w half k, (5 <= w)%Z -> (0 <= k < half)%Z ->
  (0 <= k mod as_per w < as_per w /\ 0 <= k / as_per w < as_rows w half /\ k / as_per w * as_per w + k mod as_per w = k)%Z.
Proof.
  intros w half k H5 Hk. destruct (as_rows_spec w half H5 ltac:(lia)) as [A [B [C1 D]]].
  split; [apply Z.mod_pos_bound; lia|]. split; [|pose proof (Z.div_mod k (as_per w) ltac:(lia)); lia].
  split; [apply Z.div_pos; lia|]. apply Z.div_lt_upper_bound; nia.
Qed.

Lemma as_copies_sat : forall T c w t arr row, wamount c = w -> (5 <= w)%Z ->
  (sat L T (as_copies c t arr row) <->
   (forall i, (0 <= i < as_rows w (zlen arr / 2))%Z -> vval T t = T CWit (W c 0) (row + i)%Z) /\
   forall k, (0 <= k < zlen arr / 2)%Z ->
     vval T (znth (wcell 0 0) arr (2 * k)) = T CWit (W c (1 + 4 * (k mod as_per w))) (row + k / as_per w)%Z /\
     vval T (znth (wcell 0 0) arr (2 * k + 1)) = T CWit (W c (1 + 4 * (k mod as_per w) + 1)) (row + k / as_per w)%Z).
Proof.
  intros T c w t arr row Hw H5. unfold as_copies. rewrite Hw. cbv zeta.
  destruct (as_rows_spec w (zlen arr / 2) H5 ltac:(apply Z.div_pos; [apply zlen_nonneg|lia])) as [A [B [C1 D]]]. split.
  - intros H. split.
    + intros i Hi. pose proof (H (Copy t (wcell (W c 0) (row + i)))) as G. cbn [holds] in G. rewrite vval_wcell in G.
      apply G. apply in_flat_map. exists i. split; [apply in_zseq; lia|left; reflexivity].
    + intros k Hk. destruct (as_pos w _ k H5 Hk) as [Pb [Pi E]].
      assert (IN : In (k mod as_per w, k)%Z (as_pairs w (zlen arr / 2) (k / as_per w))) by (apply as_pairs_In; lia).
      split.
      * pose proof (H (Copy (znth (wcell 0 0) arr (2 * k)) (wcell (W c (1 + 4 * (k mod as_per w))) (row + k / as_per w)))) as G.
        cbn [holds] in G. rewrite vval_wcell in G. apply G. apply in_flat_map. exists (k / as_per w)%Z. split; [apply in_zseq; lia|].
        right. apply in_flat_map. eexists. split; [exact IN|]. left. reflexivity.
      * pose proof (H (Copy (znth (wcell 0 0) arr (2 * k + 1)) (wcell (W c (1 + 4 * (k mod as_per w) + 1)) (row + k / as_per w)))) as G.
        cbn [holds] in G. rewrite vval_wcell in G. apply G. apply in_flat_map. exists (k / as_per w)%Z. split; [apply in_zseq; lia|].
        right. apply in_flat_map. eexists. split; [exact IN|]. right. left. reflexivity.
  - intros [HT HA] cm Hc. apply in_flat_map in Hc. destruct Hc as [i [Hi [<-|Hc]]]; apply in_zseq in Hi.
    + cbn [holds]. rewrite vval_wcell. apply HT. lia.
    + apply in_flat_map in Hc. destruct Hc as [[b k] [Hin Hc]]. apply as_pairs_In in Hin. destruct Hin as [Hb [Ek Hk]].
      destruct (pos_div (as_per w) i b Hb) as [E1 E2]. rewrite <- Ek in E1, E2.
      assert (0 <= k)%Z by nia. destruct (HA k ltac:(lia)) as [G1 G2]. rewrite E1, E2 in G1, G2.
      destruct Hc as [<-|[<-|[]]]; cbn [holds]; rewrite vval_wcell; assumption.
Qed.

Lemma as_gate_iff : forall T c r,
  (forall e, In e (as_gate c) -> eval T r e = f0) <->
  (forall b, (0 <= b < as_per (wamount c))%Z ->
     let t := T CWit (W c 0) r in let x := T CWit (W c (1 + 4 * b)) r in let y := T CWit (W c (1 + 4 * b + 1)) r in
     T CWit (W c (1 + 4 * b + 2)) r = x * (f1 - t) + y * t /\
     T CWit (W c (1 + 4 * b + 3)) r = y * (f1 - t) + x * t).
Proof.
  intros T c r. unfold as_gate. cbv zeta. rewrite flat_all.
  assert (K : forall b, (0 <= b < as_per (wamount c))%Z <-> In b (zseq 0 (as_per (wamount c)))) by (intros b; symmetry; apply in_zseq).
  split; intros H b Hb; apply K in Hb; specialize (H b Hb).
  - rewrite !all_cons in H. destruct H as [H1 [H2 _]]. rewrite !eval_bin, !eval_evar, eval_ecst, !gval_wv, !Z.add_0_r in H1, H2.
    cbn [ebop] in H1, H2. change (ofZ 1 : F) with (f1 : F) in H1, H2.
    split; apply fsub0; [rewrite <- H1|rewrite <- H2]; ring.
  - rewrite !all_cons. destruct H as [H1 H2].
    split; [|split; [|intros e []]]; rewrite !eval_bin, !eval_evar, eval_ecst, !gval_wv, !Z.add_0_r; cbn [ebop];
      [rewrite H1|rewrite H2]; change (ofZ 1 : F) with (f1 : F); ring.
Qed.

(** The results, in order. *)
Lemma as_out_nth : forall c w half row, wamount c = w -> (5 <= w)%Z -> (0 <= half)%Z ->
  as_out c half row =
  flat_map (fun k => [wcell (W c (1 + 4 * (k mod as_per w) + 2)) (row + k / as_per w);
                      wcell (W c (1 + 4 * (k mod as_per w) + 3)) (row + k / as_per w)]) (zseq 0 half).
Proof.
  intros c w half row Hw H5 Hh. unfold as_out. rewrite Hw.
  destruct (as_rows_spec w half H5 Hh) as [A [B [C1 D]]].
  set (f := fun k => [wcell (W c (1 + 4 * (k mod as_per w) + 2)) (row + k / as_per w);
                      wcell (W c (1 + 4 * (k mod as_per w) + 3)) (row + k / as_per w)]).
  assert (R : forall i, flat_map (fun bk => let '(b, _) := bk in
      [wcell (W c (1 + 4 * b + 2)) (row + i); wcell (W c (1 + 4 * b + 3)) (row + i)]) (as_pairs w half i) =
      flat_map f (zseq (Z.min (i * as_per w) half) (Z.min ((i + 1) * as_per w) half))).
  { intros i. unfold as_pairs.
    assert (G : forall m, (Z.of_nat m <= as_per w)%Z ->
      flat_map (fun bk => let '(b, _) := bk in [wcell (W c (1 + 4 * b + 2)) (row + i); wcell (W c (1 + 4 * b + 3)) (row + i)])
        (flat_map (fun b => let k := (i * as_per w + b)%Z in if (2 * k <? 2 * half)%Z then [(b, k)] else []) (zseq 0 (Z.of_nat m))) =
      flat_map f (zseq (Z.min (i * as_per w) half) (Z.min (i * as_per w + Z.of_nat m) half))).
    { induction m as [|m IH]; intros Hm.
      - cbn [Z.of_nat]. rewrite !zseq_nil by lia. reflexivity.
      - replace (Z.of_nat (S m)) with (Z.of_nat m + 1)%Z in * by lia.
        rewrite zseq_snoc, flat_map_app, flat_map_app, IH by lia. cbn [flat_map]. cbv zeta. rewrite app_nil_r.
        destruct (Z.ltb_spec (2 * (i * as_per w + Z.of_nat m)) (2 * half)) as [E|E].
        + replace (Z.min (i * as_per w + Z.of_nat m) half) with (i * as_per w + Z.of_nat m)%Z by lia.
          replace (Z.min (i * as_per w + (Z.of_nat m + 1)) half) with (i * as_per w + Z.of_nat m + 1)%Z by lia.
          rewrite (zseq_snoc _ (i * as_per w + Z.of_nat m)) by lia. rewrite flat_map_app. cbn [flat_map]. unfold f at 3. cbv beta.
          destruct (pos_div (as_per w) i (Z.of_nat m) ltac:(lia)) as [-> ->]. reflexivity.
        + cbn [flat_map]. rewrite app_nil_r. f_equal. f_equal. lia. }
    specialize (G (Z.to_nat (as_per w))). rewrite Z2Nat.id in G by lia. etransitivity; [exact (G ltac:(lia))|]. f_equal. f_equal. f_equal. ring. }
  assert (G : forall m, flat_map (fun i => flat_map (fun bk => let '(b, _) := bk in
      [wcell (W c (1 + 4 * b + 2)) (row + i); wcell (W c (1 + 4 * b + 3)) (row + i)]) (as_pairs w half i)) (zseq 0 (Z.of_nat m)) =
    flat_map f (zseq 0 (Z.min (Z.of_nat m * as_per w) half))).
  { induction m as [|m IH].
    - cbn [Z.of_nat]. rewrite (zseq_nil 0 0), (zseq_nil 0 (Z.min _ _)) by lia. reflexivity.
    - replace (Z.of_nat (S m)) with (Z.of_nat m + 1)%Z by lia.
      rewrite zseq_snoc, flat_map_app, IH by lia. cbn [flat_map]. rewrite app_nil_r, R.
      rewrite <- flat_map_app. f_equal. rewrite <- zseq_app; [reflexivity|].
      assert (0 <= Z.of_nat m * as_per w)%Z by nia. assert (Z.of_nat m * as_per w <= (Z.of_nat m + 1) * as_per w)%Z by nia. lia. }
  specialize (G (Z.to_nat (as_rows w half))). rewrite Z2Nat.id in G by lia. rewrite G. f_equal. f_equal. lia.
Qed.

Lemma znth_pairs : forall A (f g : Z -> A) d n k, (0 <= k < n)%Z ->
  znth d (flat_map (fun k => [f k; g k]) (zseq 0 n)) (2 * k) = f k /\
  znth d (flat_map (fun k => [f k; g k]) (zseq 0 n)) (2 * k + 1) = g k.
Proof.
  intros A f g d n k Hk.
  assert (G : forall m lo j, (Z.of_nat j < Z.of_nat m)%Z ->
    nth (2 * j) (flat_map (fun k => [f k; g k]) (zrange lo m)) d = f (lo + Z.of_nat j)%Z /\
    nth (2 * j + 1) (flat_map (fun k => [f k; g k]) (zrange lo m)) d = g (lo + Z.of_nat j)%Z).
  { induction m as [|m IH]; intros lo j Hj; [lia|]. cbn [zrange flat_map app]. destruct j as [|j].
    - cbn. rewrite Z.add_0_r. auto.
    - replace (2 * S j)%nat with (S (S (2 * j))) by lia. cbn [Nat.add nth].
      destruct (IH (lo + 1)%Z j ltac:(lia)) as [-> ->]. split; f_equal; lia. }
  unfold znth, zseq. destruct (G (Z.to_nat (n - 0)) 0%Z (Z.to_nat k) ltac:(lia)) as [G1 G2].
  replace (Z.to_nat (2 * k)) with (2 * Z.to_nat k)%nat by lia.
  replace (Z.to_nat (2 * k + 1)) with (2 * Z.to_nat k + 1)%nat by lia.
  rewrite G1, G2. split; f_equal; lia.
Qed.

Lemma as_sound_l : forall T c w t arr row, wamount c = w -> (5 <= w)%Z ->
  sat L T (as_circuit c t arr row) ->
  forall k, (0 <= k < zlen arr / 2)%Z ->
    let x := vval T (znth (wcell 0 0) arr (2 * k)) in let y := vval T (znth (wcell 0 0) arr (2 * k + 1)) in
    let o := as_out c (zlen arr / 2) row in
    vval T (znth (wcell 0 0) o (2 * k)) = x * (f1 - vval T t) + y * vval T t /\
    vval T (znth (wcell 0 0) o (2 * k + 1)) = y * (f1 - vval T t) + x * vval T t.
Proof.
  intros T c w t arr row Hw H5 H k Hk x y o. unfold as_circuit in H. rewrite sat_cons in H. destruct H as [HG HC].
  apply (as_copies_sat T c w t arr row Hw H5) in HC. destruct HC as [HT HA].
  destruct (as_pos w _ k H5 Hk) as [Pb [Pi E]]. destruct (HA k Hk) as [H1 H2]. specialize (HT _ Pi).
  unfold o. rewrite (as_out_nth c w) by (try assumption; lia).
  destruct (znth_pairs _ (fun k => wcell (W c (1 + 4 * (k mod as_per w) + 2)) (row + k / as_per w))
     (fun k => wcell (W c (1 + 4 * (k mod as_per w) + 3)) (row + k / as_per w)) (wcell 0 0) (zlen arr / 2) k Hk) as [-> ->].
  rewrite !vval_wcell. cbn [holds] in HG. specialize (HG (row + k / as_per w)%Z). rewrite Hw in HG.
  assert (IR : In (row + k / as_per w)%Z (zseq row (row + as_rows w (zlen arr / 2)))) by (apply in_zseq; lia).
  specialize (HG IR). rewrite as_gate_iff, Hw in HG. specialize (HG _ Pb). cbv zeta in HG.
  rewrite <- HT, <- H1, <- H2 in HG. exact HG.
Qed.

Lemma as_complete_l : forall T c w t arr row, wf_comp c w -> (5 <= w)%Z -> zlen arr = (2 * (zlen arr / 2))%Z ->
  outside c (as_rows w (zlen arr / 2)) row t ->
  (forall x, In x arr -> outside c (as_rows w (zlen arr / 2)) row x) ->
  vval T t = f0 \/ vval T t = f1 ->
  let T' := as_assign c t arr row T in
  sat L T' (as_circuit c t arr row) /\ frame c (as_rows w (zlen arr / 2)) row T T'.
Proof.
  intros T c w t arr row Hwf H5 HE Ot OA Hb T'. pose proof (proj1 (proj2 Hwf)) as Hw.
  set (h := (zlen arr / 2)%Z) in *. assert (0 <= h)%Z by (apply Z.div_pos; [apply zlen_nonneg|lia]).
  destruct (as_rows_spec w h H5 ltac:(lia)) as [A [B [C1 D]]].
  assert (FR : frame c (as_rows w h) row T T').
  { unfold T', as_assign. rewrite Hw. apply (grid_frame P T c w). exact Hwf. }
  split; [|exact FR].
  assert (RD : forall i j, (0 <= i < as_rows w h)%Z -> (0 <= j < 1 + 4 * as_per w)%Z ->
     T' CWit (W c j) (row + i)%Z = as_val T w t arr i j).
  { intros i j Hi Hj. unfold T', as_assign. rewrite Hw. apply (grid_read P T c w); [exact Hwf|lia|fold h; lia|lia]. }
  assert (RV : forall i b, (0 <= i < as_rows w h)%Z -> (0 <= b < as_per w)%Z ->
     let k := (i * as_per w + b)%Z in
     let x := if (2 * k <? zlen arr)%Z then vval T (znth (wcell 0 0) arr (2 * k)) else f0 in
     let y := if (2 * k <? zlen arr)%Z then vval T (znth (wcell 0 0) arr (2 * k + 1)) else f0 in
     T' CWit (W c 0) (row + i)%Z = vval T t /\
     T' CWit (W c (1 + 4 * b)) (row + i)%Z = x /\ T' CWit (W c (1 + 4 * b + 1)) (row + i)%Z = y /\
     T' CWit (W c (1 + 4 * b + 2)) (row + i)%Z = (if feqb (vval T t) f0 then x else y) /\
     T' CWit (W c (1 + 4 * b + 3)) (row + i)%Z = (if feqb (vval T t) f0 then y else x)).
  { intros i b Hi Hbb k x y. split; [rewrite RD by lia; reflexivity|].
    assert (V : forall d, (0 <= d < 4)%Z -> T' CWit (W c (1 + 4 * b + d)) (row + i)%Z =
       (if (2 * k <? zlen arr)%Z then
          if (d =? 0)%Z then vval T (znth (wcell 0 0) arr (2 * k)) else if (d =? 1)%Z then vval T (znth (wcell 0 0) arr (2 * k + 1))
          else if feqb (vval T t) f0 then (if (d =? 2)%Z then vval T (znth (wcell 0 0) arr (2 * k)) else vval T (znth (wcell 0 0) arr (2 * k + 1)))
               else (if (d =? 2)%Z then vval T (znth (wcell 0 0) arr (2 * k + 1)) else vval T (znth (wcell 0 0) arr (2 * k)))
        else f0)).
    { intros d Hd. rewrite RD by lia. unfold as_val.
      replace (1 + 4 * b + d =? 0)%Z with false by (symmetry; apply Z.eqb_neq; lia).
      replace (1 + 4 * b + d - 1)%Z with (b * 4 + d)%Z by lia. destruct (pos_div 4 b d Hd) as [-> ->]. cbv zeta. reflexivity. }
    replace (1 + 4 * b)%Z with (1 + 4 * b + 0)%Z at 1 by lia.
    rewrite !V by lia. unfold x, y. cbn [Z.eqb Pos.eqb].
    destruct (2 * k <? zlen arr)%Z; [repeat split|]. destruct (feqb (vval T t) f0); auto. }
  unfold as_circuit. apply sat_cons. split.
  - cbn [holds]. intros r Hr. rewrite as_gate_iff, Hw in *. intros b Hbb. apply in_zseq in Hr. fold h in Hr.
    replace r with (row + (r - row))%Z by lia. destruct (RV (r - row)%Z b ltac:(lia) Hbb) as [-> [-> [-> [-> ->]]]].
    destruct (feqb (vval T t) f0) eqn:E.
    + apply feqb_eq in E. rewrite E. split; ring.
    + destruct Hb as [Hb|Hb]; [rewrite Hb, feqb_refl in E; discriminate|]. rewrite Hb. split; ring.
  - apply (as_copies_sat T' c w t arr row Hw H5). fold h. split.
    + intros i Hi. destruct (RV i 0%Z Hi ltac:(lia)) as [-> _]. eapply vval_frame; eauto.
    + intros k Hk. destruct (as_pos w h k H5 Hk) as [Pb [Pi E]].
      destruct (RV _ _ Pi Pb) as [_ [R1 [R2 _]]]. rewrite E in R1, R2.
      replace (2 * k <? zlen arr)%Z with true in R1, R2 by (symmetry; apply Z.ltb_lt; lia).
      rewrite R1, R2. split; eapply vval_frame; try exact FR; apply OA; apply znth_In; lia.
Qed.
End Proofs.
