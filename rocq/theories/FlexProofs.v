(** Soundness and completeness of the flexible additions, multiplications and
    swap components; facts about rectangles of cells. *)
From Coq Require Import ZArith List Lia Bool Field.
From Verif Require Import Base Field Plonk PlonkFacts Bits FlexModel.
Import ListNotations.
Open Scope Z_scope.

Lemma ceil_rows_spec : forall n per, 0 < per -> 0 <= n ->
  0 <= ceil_rows n per /\ n <= ceil_rows n per * per < n + per.
Proof.
  intros n per Hp Hn. unfold ceil_rows.
  pose proof (Z.div_mod n per ltac:(lia)) as D. pose proof (Z.mod_pos_bound n per Hp) as M.
  pose proof (Z.div_pos n per Hn Hp) as Q.
  destruct (n mod per =? 0) eqn:E; [apply Z.eqb_eq in E|apply Z.eqb_neq in E]; nia.
Qed.

Lemma pos_div : forall per i b, 0 <= b < per -> (i * per + b) / per = i /\ (i * per + b) mod per = b.
Proof.
  intros per i b H. rewrite Z.add_comm, Z.div_add, Z.mod_add by lia.
  rewrite Z.div_small, Z.mod_small by lia. lia.
Qed.

Lemma slots_In : forall rows per n r b, 
  In (r, b) (slots rows per n) <-> 0 <= r < rows /\ 0 <= b < per /\ r * per + b < n.
Proof.
  intros rows per n r b. unfold slots. rewrite filter_In, in_flat_map. cbn [fst snd]. rewrite Z.ltb_lt. split.
  - intros [[i [Hi H]] Hn]. apply in_map_iff in H. destruct H as [j [E Hj]]. injection E as <- <-.
    rewrite in_zseq in Hi, Hj. lia.
  - intros [H1 [H2 H3]]. split; [|lia]. exists r. split; [apply in_zseq; lia|].
    apply in_map_iff. exists b. split; [reflexivity|apply in_zseq; lia].
Qed.

(** The positions in order. *)
Lemma slots_row : forall per n r, 0 < per ->
  filter (fun rb => fst rb * per + snd rb <? n) (map (fun b => (r, b)) (zseq 0 per)) =
  map (fun k => (k / per, k mod per)) (zseq (Z.min (r * per) n) (Z.min ((r + 1) * per) n)).
Proof.
  intros per n r Hp.
  assert (G : forall m, (Z.of_nat m <= per) ->
    filter (fun rb => fst rb * per + snd rb <? n) (map (fun b => (r, b)) (zseq 0 (Z.of_nat m))) =
    map (fun k => (k / per, k mod per)) (zseq (Z.min (r * per) n) (Z.min (r * per + Z.of_nat m) n))).
  { induction m as [|m IH]; intros Hm.
    - cbn [Z.of_nat]. rewrite !zseq_nil by lia. reflexivity.
    - replace (Z.of_nat (S m)) with (Z.of_nat m + 1) in * by lia.
      rewrite zseq_snoc, map_app, filter_app, IH by lia. cbn [map filter fst snd].
      destruct (r * per + Z.of_nat m <? n) eqn:E; [apply Z.ltb_lt in E|apply Z.ltb_ge in E].
      + replace (Z.min (r * per + Z.of_nat m) n) with (r * per + Z.of_nat m) by lia.
        replace (Z.min (r * per + (Z.of_nat m + 1)) n) with (r * per + Z.of_nat m + 1) by lia.
        rewrite (zseq_snoc _ (r * per + Z.of_nat m)) by lia. rewrite map_app. cbn [map].
        destruct (pos_div per r (Z.of_nat m) ltac:(lia)) as [-> ->]. reflexivity.
      + rewrite app_nil_r. f_equal. f_equal. lia. }
  specialize (G (Z.to_nat per)). rewrite Z2Nat.id in G by lia. rewrite G by lia.
  f_equal. f_equal. f_equal. ring.
Qed.

Lemma slots_map : forall rows per n, 0 < per -> 0 <= n -> 0 <= rows -> n <= rows * per ->
  slots rows per n = map (fun k => (k / per, k mod per)) (zseq 0 n).
Proof.
  intros rows per n Hp Hn Hr Hc. unfold slots.
  assert (G : forall m, filter (fun rb => fst rb * per + snd rb <? n)
      (flat_map (fun r => map (fun b => (r, b)) (zseq 0 per)) (zseq 0 (Z.of_nat m))) =
    map (fun k => (k / per, k mod per)) (zseq 0 (Z.min (Z.of_nat m * per) n))).
  { induction m as [|m IH].
    - cbn [Z.of_nat]. rewrite (zseq_nil 0 0), (zseq_nil 0 (Z.min (0 * per) n)) by lia. reflexivity.
    - replace (Z.of_nat (S m)) with (Z.of_nat m + 1) by lia.
      rewrite zseq_snoc, flat_map_app, filter_app, IH by lia. cbn [flat_map]. rewrite app_nil_r, slots_row by lia.
      rewrite <- map_app. f_equal. rewrite <- zseq_app; [reflexivity|].
      assert (0 <= Z.of_nat m * per) by nia. assert (Z.of_nat m * per <= (Z.of_nat m + 1) * per) by nia. lia. }
  specialize (G (Z.to_nat rows)). rewrite Z2Nat.id in G by lia. rewrite G.
  f_equal. f_equal. lia.
Qed.

Section Proofs.
Variable P : params.
Notation F := (F P).
Notation table := (table P).
Variable L : lenv P.
Implicit Types T : table.
Add Field Ff : (F_field P) (morphism (F_morph P), constants [F_const], power_tac (F_power P) [F_pow_tac]).
Local Open Scope F_scope.

(** ** Rectangles *)

Lemma grid_In : forall c row rows w (val : Z -> Z -> F) col r v,
  In (col, r, v) (grid c row rows w val) <->
  exists i j, (0 <= i < rows)%Z /\ (0 <= j < w)%Z /\ col = W c j /\ r = (row + i)%Z /\ v = val i j.
Proof.
  intros. unfold grid. rewrite in_flat_map. split.
  - intros [i [Hi H]]. apply in_map_iff in H. destruct H as [j [E Hj]]. injection E as <- <- <-.
    rewrite in_zseq in Hi, Hj. exists i, j. auto 6.
  - intros [i [j [Hi [Hj [-> [-> ->]]]]]]. exists i. split; [apply in_zseq; lia|].
    apply in_map_iff. exists j. split; [reflexivity|apply in_zseq; lia].
Qed.

Lemma grid_read : forall T c w row rows w' (val : Z -> Z -> F) i j, wf_comp c w -> (w' <= w)%Z ->
  (0 <= i < rows)%Z -> (0 <= j < w')%Z ->
  wsets T (grid c row rows w' val) CWit (W c j) (row + i)%Z = val i j.
Proof.
  intros T c w row rows w' val i j Hwf Hw Hi Hj. apply wsets_read.
  - apply grid_In. exists i, j. auto 6.
  - intros v' H. apply grid_In in H. destruct H as [i' [j' [Hi' [Hj' [E1 [E2 ->]]]]]].
    assert (i' = i) by lia. assert (j' = j) by (symmetry; eapply W_inj; [eassumption|lia|lia|exact E1]).
    subst. reflexivity.
Qed.

Lemma grid_frame : forall T c w row rows w' (val : Z -> Z -> F), wf_comp c w ->
  frame c rows row T (wsets T (grid c row rows w' val)).
Proof.
  intros T c w row rows w' val Hwf. apply (wsets_frame P c w); [exact Hwf|].
  intros col r v H. apply grid_In in H. destruct H as [i [j [Hi [Hj [-> [-> _]]]]]].
  split; [exists j; reflexivity|lia].
Qed.

(** ** Additions and multiplications *)

Lemma fa_rows_spec : forall w n, (3 <= w)%Z -> (0 <= n)%Z ->
  (0 < fa_per w /\ fa_per w * 3 <= w /\ 0 <= fa_rows w n /\ n <= fa_rows w n * fa_per w < n + fa_per w)%Z.
Proof.
  intros w n Hw Hn. unfold fa_rows, fa_per.
  pose proof (Z.div_mod w 3 ltac:(lia)). pose proof (Z.mod_pos_bound w 3 ltac:(lia)).
  destruct (ceil_rows_spec (3 * n) (w / 3 * 3) ltac:(lia) ltac:(lia)) as [A B]. nia.
Qed.

Lemma fop_eval : forall k T r (a b : expr P), eval T r (fop_e k a b) = fop_v k (eval T r a) (eval T r b).
Proof. intros [] T r a b; reflexivity. Qed.

Lemma fa_gate_iff : forall k T c r,
  (forall e, In e (fa_gate k c) -> eval T r e = f0) <->
  (forall b, (0 <= b < fa_per (wamount c))%Z ->
     T CWit (W c (b * 3 + 2)) r = fop_v k (T CWit (W c (b * 3)) r) (T CWit (W c (b * 3 + 1)) r)).
Proof.
  intros k T c r. unfold fa_gate. split.
  - intros H b Hb. symmetry. apply fsub0. rewrite <- (H _ (in_map _ _ b (proj2 (in_zseq 0 _ b) Hb))).
    rewrite eval_bin, fop_eval, !eval_evar, !gval_wv, !Z.add_0_r. reflexivity.
  - intros H e He. apply in_map_iff in He. destruct He as [b [<- Hb]]. apply in_zseq in Hb.
    rewrite eval_bin, fop_eval, !eval_evar, !gval_wv, !Z.add_0_r. cbn [ebop]. rewrite H by exact Hb. ring.
Qed.

Lemma fa_copies_sat : forall T c w arr row, wamount c = w -> (3 <= w)%Z ->
  (sat L T (fa_copies c arr row) <->
   forall k, (0 <= k < zlen arr)%Z ->
     let x := znth (wcell 0 0, wcell 0 0) arr k in
     vval T (fst x) = T CWit (W c (3 * (k mod fa_per w))) (row + k / fa_per w)%Z /\
     vval T (snd x) = T CWit (W c (3 * (k mod fa_per w) + 1)) (row + k / fa_per w)%Z).
Proof.
  intros T c w arr row Hw Hw3.
  destruct (fa_rows_spec w (zlen arr) Hw3 (zlen_nonneg _ arr)) as [A [B [C1 D]]].
  unfold fa_copies. rewrite Hw. rewrite slots_map by (try apply zlen_nonneg; lia). cbv zeta. split.
  - intros H k Hk.
    assert (E : (k / fa_per w * fa_per w + k mod fa_per w = k)%Z)
      by (pose proof (Z.div_mod k (fa_per w) ltac:(lia)); lia).
    assert (IN : In (k / fa_per w, k mod fa_per w)%Z (map (fun k => (k / fa_per w, k mod fa_per w)%Z) (zseq 0 (zlen arr))))
      by (apply in_map_iff; exists k; split; [reflexivity|apply in_zseq; lia]).
    split.
    + pose proof (H (Copy (fst (znth (wcell 0 0, wcell 0 0) arr k)) (wcell (W c (3 * (k mod fa_per w))) (row + k / fa_per w)))) as G.
      apply G. apply in_flat_map. eexists. split; [exact IN|]. cbn [fst snd]. rewrite E. left. reflexivity.
    + pose proof (H (Copy (snd (znth (wcell 0 0, wcell 0 0) arr k)) (wcell (W c (3 * (k mod fa_per w) + 1)) (row + k / fa_per w)))) as G.
      apply G. apply in_flat_map. eexists. split; [exact IN|]. cbn [fst snd]. rewrite E. right. left. reflexivity.
  - intros H cm Hc. apply in_flat_map in Hc. destruct Hc as [[r b] [Hin Hc]].
    apply in_map_iff in Hin. destruct Hin as [k [E Hk]]. injection E as <- <-. apply in_zseq in Hk.
    cbn [fst snd] in Hc.
    assert (E : (k / fa_per w * fa_per w + k mod fa_per w = k)%Z)
      by (pose proof (Z.div_mod k (fa_per w) ltac:(lia)); lia).
    rewrite E in Hc. destruct (H k ltac:(lia)) as [H1 H2].
    destruct Hc as [<-|[<-|[]]]; cbn [holds]; rewrite vval_wcell; assumption.
Qed.

Lemma fa_out_nth : forall c w n row k d, wamount c = w -> (3 <= w)%Z -> (0 <= k < n)%Z ->
  znth d (fa_out c n row) k = wcell (W c (k mod fa_per w * 3 + 2)) (row + k / fa_per w).
Proof.
  intros c w n row k d Hw H3 Hk.
  destruct (fa_rows_spec w n H3 ltac:(lia)) as [A [B [C1 D]]].
  unfold fa_out. rewrite Hw, slots_map by lia. rewrite map_map.
  rewrite znth_map_zseq by lia. cbn [fst snd]. rewrite Z.add_0_l. reflexivity.
Qed.

Lemma fa_out_len : forall c w n row, wamount c = w -> (3 <= w)%Z -> (0 <= n)%Z -> zlen (fa_out c n row) = n.
Proof.
  intros c w n row Hw H3 Hn.
  destruct (fa_rows_spec w n H3 ltac:(lia)) as [A [B [C1 D]]].
  unfold fa_out. rewrite Hw, slots_map by lia. unfold zlen. rewrite !map_length, zseq_length. lia.
Qed.

Lemma fa_pos : forall w n k, (3 <= w)%Z -> (0 <= k < n)%Z ->
  (0 <= k mod fa_per w < fa_per w /\ 0 <= k / fa_per w < fa_rows w n)%Z.
Proof.
  intros w n k H3 Hk. destruct (fa_rows_spec w n H3 ltac:(lia)) as [A [B [C1 D]]].
  split; [apply Z.mod_pos_bound; lia|]. split; [apply Z.div_pos; lia|]. apply Z.div_lt_upper_bound; nia.
Qed.

Lemma fa_sound_l : forall k T c w arr row, wamount c = w -> (3 <= w)%Z ->
  sat L T (fa_circuit k c arr row) ->
  forall i, (0 <= i < zlen arr)%Z ->
    let x := znth (wcell 0 0, wcell 0 0) arr i in
    vval T (znth (wcell 0 0) (fa_out c (zlen arr) row) i) = fop_v k (vval T (fst x)) (vval T (snd x)).
Proof.
  intros k T c w arr row Hw H3 H i Hi x. unfold fa_circuit in H. rewrite sat_cons in H.
  destruct H as [HG HC]. apply (proj1 (fa_copies_sat T c w arr row Hw H3)) with (k := i) in HC; [|exact Hi].
  cbv zeta in HC. fold x in HC. destruct HC as [H1 H2].
  rewrite (fa_out_nth c w) by assumption. rewrite vval_wcell.
  destruct (fa_pos w (zlen arr) i H3 Hi) as [B R].
  assert (G := HG (row + i / fa_per w)%Z). cbn [holds] in HG.
  assert (GR : In (row + i / fa_per w)%Z (zseq row (row + fa_rows (wamount c) (zlen arr)))) by (apply in_zseq; rewrite Hw; lia).
  specialize (HG _ GR). rewrite fa_gate_iff in HG. rewrite Hw in HG. rewrite HG by exact B.
  rewrite H1, H2. rewrite (Z.mul_comm 3). reflexivity.
Qed.

Lemma fa_complete_l : forall k T c w arr row, wf_comp c w -> (3 <= w)%Z ->
  (forall x, In x arr -> outside c (fa_rows w (zlen arr)) row (fst x) /\ outside c (fa_rows w (zlen arr)) row (snd x)) ->
  let T' := fa_assign k c arr row T in
  sat L T' (fa_circuit k c arr row) /\ frame c (fa_rows w (zlen arr)) row T T'.
Proof.
  intros k T c w arr row Hwf H3 HO T'. pose proof (proj1 (proj2 Hwf)) as Hw.
  destruct (fa_rows_spec w (zlen arr) H3 (zlen_nonneg _ arr)) as [A [B [C1 D]]].
  assert (HF : frame c (fa_rows w (zlen arr)) row T T').
  { unfold T', fa_assign. rewrite Hw. apply (grid_frame T c w); exact Hwf. }
  split; [|exact HF].
  assert (RD : forall i j, (0 <= i < fa_rows w (zlen arr))%Z -> (0 <= j < w)%Z ->
     T' CWit (W c j) (row + i)%Z = fa_val k T w arr i j).
  { intros i j Hi Hj. unfold T', fa_assign. rewrite Hw. apply (grid_read T c w); [exact Hwf|lia|lia|lia]. }
  assert (M : forall b d, (0 <= d < 3)%Z -> ((b * 3 + d) / 3 = b /\ (b * 3 + d) mod 3 = d)%Z)
    by (intros; apply pos_div; lia).
  assert (RV : forall i b, (0 <= i < fa_rows w (zlen arr))%Z -> (0 <= b < fa_per w)%Z ->
     let cur := (i * fa_per w + b)%Z in
     let x := znth (wcell 0 0, wcell 0 0) arr cur in
     T' CWit (W c (b * 3)) (row + i)%Z = (if (cur <? zlen arr)%Z then vval T (fst x) else f0) /\
     T' CWit (W c (b * 3 + 1)) (row + i)%Z = (if (cur <? zlen arr)%Z then vval T (snd x) else f0) /\
     T' CWit (W c (b * 3 + 2)) (row + i)%Z = (if (cur <? zlen arr)%Z then fop_v k (vval T (fst x)) (vval T (snd x)) else f0)).
  { intros i b Hi Hb cur x.
    rewrite !RD by lia. unfold fa_val.
    replace (b * 3 <? fa_per w * 3)%Z with true by (symmetry; apply Z.ltb_lt; lia).
    replace (b * 3 + 1 <? fa_per w * 3)%Z with true by (symmetry; apply Z.ltb_lt; lia).
    replace (b * 3 + 2 <? fa_per w * 3)%Z with true by (symmetry; apply Z.ltb_lt; lia).
    destruct (M b 1%Z ltac:(lia)) as [-> ->]. destruct (M b 2%Z ltac:(lia)) as [-> ->].
    rewrite Z.div_mul, Z.mod_mul by lia. cbn [Z.eqb Pos.eqb]. auto. }
  unfold fa_circuit. apply sat_cons. split.
  - cbn [holds]. intros r Hr. rewrite fa_gate_iff. rewrite Hw in *. intros b Hb.
    apply in_zseq in Hr. replace r with (row + (r - row))%Z by lia.
    destruct (RV (r - row)%Z b ltac:(lia) Hb) as [-> [-> ->]].
    destruct (_ <? _)%Z; [reflexivity|]. destruct k; cbn [fop_v]; ring.
  - apply (fa_copies_sat T' c w arr row Hw H3). intros i Hi x.
    destruct (fa_pos w (zlen arr) i H3 Hi) as [Bi Ri].
    destruct (RV _ _ Ri Bi) as [E1 [E2 _]].
    replace (i / fa_per w * fa_per w + i mod fa_per w)%Z with i in E1, E2
      by (pose proof (Z.div_mod i (fa_per w) ltac:(lia)); lia).
    replace (i <? zlen arr)%Z with true in E1, E2 by (symmetry; apply Z.ltb_lt; lia).
    rewrite !(Z.mul_comm 3), E1, E2. fold x.
    destruct (HO x ltac:(apply znth_In; exact Hi)) as [O1 O2].
    split; eapply vval_frame; eauto.
Qed.

(** ** Swap *)

Lemma fs_sound_l : forall T c b x y row,
  sat L T (fs_circuit c b x y row) ->
  (vval T b = f0 /\ vval T (fst (fs_out c row)) = vval T x /\ vval T (snd (fs_out c row)) = vval T y) \/
  (vval T b = f1 /\ vval T (fst (fs_out c row)) = vval T y /\ vval T (snd (fs_out c row)) = vval T x).
Proof.
  intros T c b x y row H. unfold fs_circuit, fs_gate in H. cbv zeta in H. sat_hyp H. eval_hyps.
  destruct H as [[G0 [G1 [G2 _]]] [E0 [E1 [E2 _]]]]. cbn [fs_out fst snd]. rewrite !vval_wcell in *.
  rewrite E0, E1, E2. rewrite <- E0 in *. 
  apply fmul_integral in G0. destruct G0 as [Z0|Z1].
  - left. rewrite Z0 in *. split; [reflexivity|]. split; apply fsub0; [rewrite <- G1|rewrite <- G2]; ring.
  - right. apply fsub0 in Z1. change (ofZ 1 : F) with (f1 : F) in *. rewrite Z1 in *. split; [reflexivity|].
    split; apply fsub0; [rewrite <- G1|rewrite <- G2]; ring.
Qed.

Lemma fs_complete_l : forall T c b x y row, wf_comp c 5 ->
  outside c 1 row b -> outside c 1 row x -> outside c 1 row y ->
  vval T b = f0 \/ vval T b = f1 ->
  let T' := fs_assign c b x y row T in
  sat L T' (fs_circuit c b x y row) /\ frame c 1 row T T'.
Proof.
  intros T c b x y row Hwf Ob Ox Oy Hb T'.
  unfold T', fs_assign, wsets. cbn [fold_left fst snd]. cbv zeta. split; [|frame_tac].
  unfold fs_circuit, fs_gate. cbv zeta. sat_goal; rd; try reflexivity.
  - destruct Hb as [-> | ->]; ring.
  - destruct (feqb (vval T b) f0) eqn:E.
    + apply feqb_eq in E. rewrite E. ring.
    + destruct Hb as [Hb|Hb]; [rewrite Hb, feqb_refl in E; discriminate|]. rewrite Hb. ring.
  - destruct (feqb (vval T b) f0) eqn:E.
    + apply feqb_eq in E. rewrite E. ring.
    + destruct Hb as [Hb|Hb]; [rewrite Hb, feqb_refl in E; discriminate|]. rewrite Hb. ring.
Qed.
End Proofs.
