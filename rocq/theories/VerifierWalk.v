(** The verifier's program, loop by loop: rows used, scoping, and the meaning of
    its comparisons. *)
From Coq Require Import ZArith List Lia Bool.
From Verif Require Import Base Field Plonk PlonkFacts Bits FlexModel FlexProofs FlexPow PoseidonModel PoseidonProofs
  VerifierModel VerifierSpec VerifierSteps.
Import ListNotations.
Open Scope Z_scope.

Lemma Forall2_zseq : forall A (d : A) (R : Z -> A -> Prop) n l, Forall2 R (zseq 0 n) l -> forall i, 0 <= i < n -> R i (znth d l i).
Proof.
  intros A d R n. unfold zseq.
  assert (K : forall m a l, Forall2 R (zrange a m) l -> forall i, 0 <= i < Z.of_nat m -> R (a + i) (znth d l i)).
  { induction m as [|m IH]; intros a l HF i Hi; [lia|]. cbn [zrange] in HF. inversion HF as [|x y l1 l2 H1 H2]; subst.
    destruct (Z.eq_dec i 0) as [->|NI]; [rewrite Z.add_0_r; exact H1|].
    specialize (IH (a + 1) l2 H2 (i - 1) ltac:(lia)). replace (a + 1 + (i - 1)) with (a + i) in IH by lia.
    replace i with (i - 1 + 1) at 2 by lia. unfold znth in *. replace (Z.to_nat (i - 1 + 1)) with (S (Z.to_nat (i - 1))) by lia. exact IH. }
  intros l HF i Hi. specialize (K _ _ _ HF i ltac:(lia)). exact K.
Qed.
Lemma squeeze_length : forall P (H : F P -> F P -> F P -> F P) l s, length (squeeze H s l) = length l.
Proof. intros P H l. induction l as [|a l IH]; intros s; [reflexivity|]. cbn [squeeze length]. rewrite IH. reflexivity. Qed.

Section Walk.
Variable P : params.
Notation F := (F P).
Notation table := (table P).
Variable mds rc : Z -> Z -> F.
Variable c : comp.
Variable w pow r : Z.
Variable sw : Z -> comp * Z.
Hypothesis Hwf : wf_comp c w.
Hypothesis H9 : 9 <= w.
Hypothesis HM : w mod 3 = 0.
Hypothesis Hpow : 0 < pow.
Hypothesis Hcp : cp_constructs pow = true.
Hypothesis Hr : 0 <= r.
Variable row0 e : Z.
Hypothesis Hsw : forall k, 0 <= k -> wf_comp (fst (sw k)) 5.
Hypothesis Hsep : forall k col, 0 <= k -> In col (cWs c) -> In col (cWs (fst (sw k))) -> ~ row0 <= snd (sw k) < e.
Hypothesis Hdis : forall k k' col, 0 <= k -> 0 <= k' -> k <> k' ->
  In col (cWs (fst (sw k))) -> In col (cWs (fst (sw k'))) -> snd (sw k) <> snd (sw k').
Variable z : mode P.
Variable T : table.

Notation ndr := (endr c pow r sw).
Notation dfs := (defs P mds rc c pow r sw z T).
Notation oky := (oks P c pow r sw z T).
Notation scp := (scoped c pow r sw e).
Notation od := (old c sw e).
Notation ps := (fp_rows w).
Notation H := (hash3 P mds rc).

Definition inr (p : prog) (row n : Z) : Prop := row0 <= row /\ 0 <= n /\ ndr p row n <= e.

Record Step (p : prog) (row n : Z) (V Q : Prop) (p' : prog) (row' n' : Z) : Prop := mkStep {
  st_end : ndr p row n = ndr p' row' n';
  st_row : row <= row'; st_n : n <= n';
  st_sc : scp p' row' n' -> scp p row n;
  st_ok : dfs p row n -> V /\ dfs p' row' n' /\ (oky p row n <-> Q /\ oky p' row' n') }.

Lemma step_inr : forall p row n V Q p' row' n', Step p row n V Q p' row' n' -> inr p row n -> inr p' row' n'.
Proof. intros p row n V Q p' row' n' [E R N _ _] [A [B D]]. unfold inr. rewrite <- E. lia. Qed.

Lemma step_refl : forall p row n, Step p row n True True p row n.
Proof. intros. split; try lia; tauto. Qed.

Lemma step_trans : forall p row n V1 Q1 p1 row1 n1 V2 Q2 p2 row2 n2,
  Step p row n V1 Q1 p1 row1 n1 -> Step p1 row1 n1 V2 Q2 p2 row2 n2 ->
  Step p row n (V1 /\ V2) (Q1 /\ Q2) p2 row2 n2.
Proof.
  intros p row n V1 Q1 p1 row1 n1 V2 Q2 p2 row2 n2 [E1 R1 N1 S1 O1] [E2 R2 N2 S2 O2].
  split; [congruence|lia|lia|tauto|]. intros D. destruct (O1 D) as [A1 [D1 B1]]. destruct (O2 D1) as [A2 [D2 B2]].
  split; [tauto|]. split; [exact D2|]. rewrite B1, B2. tauto.
Qed.

Lemma step_conv : forall p row n V Q p' row' n' (V' Q' : Prop),
  Step p row n V Q p' row' n' -> (V -> V') -> (V -> (Q <-> Q')) -> Step p row n V' Q' p' row' n'.
Proof.
  intros p row n V Q p' row' n' V' Q' [E R N S O] HV HQ. split; [assumption..|]. intros D. destruct (O D) as [A [D' B]].
  split; [exact (HV A)|]. split; [exact D'|]. rewrite B, (HQ A). reflexivity.
Qed.

Lemma step_at : forall p row n V Q p' row' n' row2 n2,
  Step p row n V Q p' row' n' -> row' = row2 -> n' = n2 -> Step p row n V Q p' row2 n2.
Proof. intros. subst. assumption. Qed.

(** ** Calls *)

Lemma step_hash : forall a b d k row n, inr (PHash a b d k) row n -> od row n a -> od row n b -> od row n d ->
  Step (PHash a b d k) row n (vval T (hout c row) = H (vval T a) (vval T b) (vval T d)) True (k (hout c row)) (row + ps) n /\
  od (row + ps) n (hout c row).
Proof.
  intros a b d k row n [I1 [I2 I3]] Oa Ob Od. pose proof (fp_rows_pos w H9 HM) as RP.
  pose proof (Hw c w Hwf) as EW. cbn [endr] in I3. rewrite EW in I3.
  pose proof (endr_ge c w pow r sw Hwf H9 HM Hpow Hcp Hr (k (hout c row)) (row + ps) n) as GE. split.
  - split; cbn [endr scoped defs oks]; rewrite ?EW; try lia; try tauto.
  - unfold hout, fp_out. cbv zeta. rewrite EW. cbn [snd]. apply (old_W c w sw Hwf row0 e Hsep); lia.
Qed.

Lemma step_swap : forall b x y k row n, inr (PSwap b x y k) row n -> od row n b -> od row n x -> od row n y ->
  Step (PSwap b x y k) row n
    (is_bit P (vval T b) -> swapped P (vval T b) (vval T x) (vval T y) (vval T (so1 sw n)) (vval T (so2 sw n)))
    (is_bit P (vval T b)) (k (so1 sw n) (so2 sw n)) row (n + 1) /\
  od row (n + 1) (so1 sw n) /\ od row (n + 1) (so2 sw n).
Proof.
  intros b x y k row n [I1 [I2 I3]] Ob Ox Oy. split; [|split].
  - split; cbn [endr scoped defs oks]; cbv zeta; try lia; try tauto; try reflexivity.
  - apply (old_sw c sw row0 e Hsw Hsep Hdis); lia.
  - apply (old_sw c sw row0 e Hsw Hsep Hdis); lia.
Qed.

Lemma step_copy : forall a b k row n, od row n a -> od row n b ->
  Step (PCopy a b k) row n True (vval T a = vval T b) k row n.
Proof. intros a b k row n Oa Ob. split; cbn [endr scoped defs oks]; try lia; try tauto. Qed.

Lemma step_pow : forall x k row n, inr (PPow x k) row n -> od row n x ->
  Step (PPow x k) row n (md_pow z (vval T x) (vval T (cp_out c pow row))) True (k (cp_out c pow row)) (row + cp_rows w pow) n /\
  od (row + cp_rows w pow) n (cp_out c pow row).
Proof.
  intros x k row n [I1 [I2 I3]] Ox. pose proof (cp_rows_nn w pow H9 Hpow Hcp) as RC.
  pose proof (Hw c w Hwf) as EW. cbn [endr] in I3. rewrite EW in I3.
  pose proof (endr_ge c w pow r sw Hwf H9 HM Hpow Hcp Hr (k (cp_out c pow row)) (row + cp_rows w pow) n) as GE. split.
  - split; cbn [endr scoped defs oks]; rewrite ?EW; try lia; try tauto.
  - destruct (cp_rows_spec w pow ltac:(lia) ltac:(lia) Hcp) as [_ [R0 R1]]. pose proof (cp_len_pos pow Hpow) as LP.
    unfold cp_out. rewrite EW. apply (old_W c w sw Hwf row0 e Hsep); [lia| |lia]. nia.
Qed.

Lemma step_idx : forall x bs k row n, od row n x -> (forall b, In b bs -> od row n b) ->
  Step (PIdx x bs k) row n True (md_idx z (vval T x) (map (vval T) bs)) k (row + xi_rows w (zlen bs)) n.
Proof.
  intros x bs k row n Ox Ob. pose proof (xi_rows_nn w H9 (zlen bs) (zlen_nonneg _ bs)) as RX.
  pose proof (Hw c w Hwf) as EW. split; cbn [endr scoped defs oks]; rewrite ?EW; try lia; try tauto.
Qed.

Definition md_in (inp : clin) : Prop :=
  md_col z (vval T (cl_x inp)) (map (vval T) (cl_ys inp)) (map (vval T) (cl_bs inp)) (map (vval T) (cl_al inp)).
Lemma step_col : forall inp k row n, (forall v, In v (cl_x inp :: cl_ys inp ++ cl_bs inp ++ cl_al inp) -> od row n v) ->
  Step (PCol inp k) row n True (md_in inp) k (row + cl_rows w r) n.
Proof.
  intros inp k row n Oc. pose proof (cl_rows_nn w r H9 Hr) as RL.
  pose proof (Hw c w Hwf) as EW. split; cbn [endr scoped defs oks]; rewrite ?EW; try lia; try tauto.
Qed.

(** ** Loops *)

Variable lam m : Z.
Variable sizes : list Z.
Variable inp : vin.
Variable zerov vk0v vk1v : var.
Hypothesis Hm : 0 <= m.
Hypothesis Hsz : forall s, In s sizes -> 0 < s.
Hypothesis Hrm : r <= m + 1.
Hypothesis Oz : forall row n, od row n zerov.
Hypothesis O0 : forall row n, od row n vk0v.
Hypothesis O1 : forall row n, od row n vk1v.
Hypothesis Hz : vval T zerov = f0.
Hypothesis Hin1 : forall l, l = vi_comms inp \/ l = vi_roots inp -> forall i, od row0 0 (znth dv l i).
Hypothesis Hchal : od row0 0 (vi_chal inp).
Hypothesis Hin2 : forall l, In l [vi_pos inp; vi_vals inp; vi_hashes inp; vi_rvals inp; vi_rhashes inp] ->
  forall i j, od row0 0 (v2 l i j).

Lemma od_mono : forall row n row' n' v, od row n v -> row <= row' -> n <= n' -> od row' n' v.
Proof. intros row n row' n' v O A B. exact (old_mono c sw e row n row' n' v A B O). Qed.
Lemma od_in2 : forall l row n i j, In l [vi_pos inp; vi_vals inp; vi_hashes inp; vi_rvals inp; vi_rhashes inp] ->
  row0 <= row -> 0 <= n -> od row n (v2 l i j).
Proof. intros l row n i j Hl A B. exact (od_mono _ _ _ _ _ (Hin2 l Hl i j) A B). Qed.

Definition vv (l : list (list var)) (i j : Z) : F := vval T (v2 l i j).

(** Path read by a Merkle loop. *)
Fixpoint mpath (i : Z) (hs : list (list var)) (l : list Z) (ch : Z) : list (F * F) :=
  match l with [] => [] | t :: l => (vv (vi_pos inp) i t, vv hs i ch) :: mpath i hs l (ch + 1) end.

Lemma zlen_cons : forall A (a : A) l, zlen (a :: l) = zlen l + 1.
Proof. intros. unfold zlen. cbn [length]. lia. Qed.

Lemma merkle_step : forall i hs, hs = vi_hashes inp \/ hs = vi_rhashes inp -> forall l ch h k row n,
  inr (pmerkle inp zerov i hs l (ch, h) k) row n -> od row n h ->
  exists h',
    Step (pmerkle inp zerov i hs l (ch, h) k) row n
      (all_bits (mpath i hs l ch) -> vval T h' = climb H (vval T h) (mpath i hs l ch)) (all_bits (mpath i hs l ch))
      (k (ch + zlen l, h')) (row + ps * zlen l) (n + zlen l) /\
    od (row + ps * zlen l) (n + zlen l) h'.
Proof.
  intros i hs Hhs. induction l as [|t l IH]; intros ch h k row n I0 Oh.
  - exists h. change (zlen (@nil Z)) with 0. rewrite Z.mul_0_r, !Z.add_0_r. split; [|exact Oh].
    eapply step_conv; [apply step_refl| |].
    + intros _ _. reflexivity.
    + intros _. split; [intros _ b s []|tauto].
  - assert (HL : In hs [vi_pos inp; vi_vals inp; vi_hashes inp; vi_rvals inp; vi_rhashes inp])
      by (destruct Hhs as [-> | ->]; cbn [In]; tauto).
    assert (HP : In (vi_pos inp) [vi_pos inp; vi_vals inp; vi_hashes inp; vi_rvals inp; vi_rhashes inp]) by (left; reflexivity).
    pose proof I0 as I0'. destruct I0' as [A1 [A2 A3]].
    set (k2 := fun h' => pmerkle inp zerov i hs l (ch + 1, h') k).
    set (k1 := fun a b => PHash zerov a b k2).
    change (pmerkle inp zerov i hs (t :: l) (ch, h) k) with (PSwap (v2 (vi_pos inp) i t) (v2 hs i ch) h k1) in *.
    destruct (step_swap _ _ _ k1 row n I0 (od_in2 _ row n i t HP A1 A2) (od_in2 _ row n i ch HL A1 A2) Oh) as [S1 [B1 B2]].
    pose proof (step_inr _ _ _ _ _ _ _ _ S1 I0) as I1. unfold k1 in I1 at 1.
    destruct (step_hash _ _ _ k2 row (n + 1) I1 (Oz _ _) B1 B2) as [S2 B3].
    pose proof (step_inr _ _ _ _ _ _ _ _ S2 I1) as I2.
    destruct (IH (ch + 1) (hout c row) k (row + ps) (n + 1) I2 B3) as [h' [S3 B4]].
    exists h'. rewrite zlen_cons. split; [|replace (row + ps * (zlen l + 1)) with (row + ps + ps * zlen l) by lia;
                         replace (n + (zlen l + 1)) with (n + 1 + zlen l) by lia; exact B4].
    pose proof (step_trans _ _ _ _ _ _ _ _ _ _ _ _ _ (step_trans _ _ _ _ _ _ _ _ _ _ _ _ _ S1 S2) S3) as S.
    replace (ch + (zlen l + 1)) with (ch + 1 + zlen l) by lia.
    eapply step_at; [eapply step_conv; [exact S| |]|lia|lia].
    + intros [[V1 V2] V3] AB. cbn [mpath climb fst snd] in *.
      assert (Bt : is_bit P (vv (vi_pos inp) i t)) by (exact (AB _ _ (or_introl eq_refl))).
      rewrite V3 by (intros b s Hin; exact (AB b s (or_intror Hin))). f_equal. rewrite V2, Hz.
      destruct (V1 Bt) as [E1 E2]. rewrite E1, E2. fold (vv (vi_pos inp) i t). fold (vv hs i ch).
      destruct (feqb (vv (vi_pos inp) i t) f0); reflexivity.
    + intros _. cbn [mpath]. split.
      * intros [[Q1 _] Q3] b s [E|Hin]; [injection E as <- <-; exact Q1|exact (Q3 b s Hin)].
      * intros AB. split; [split; [exact (AB _ _ (or_introl eq_refl))|exact I]|]. intros b s Hin. exact (AB b s (or_intror Hin)).
Qed.

(** Values read by a leaf loop. *)
Fixpoint lvals (i : Z) (l : list Z) (cur : Z) : list (F * F) :=
  match l with [] => [] | _ :: l => (vv (vi_vals inp) i cur, vv (vi_vals inp) i (cur + 1)) :: lvals i l (cur + 2) end.

Lemma leaf_step : forall i l cur s last k row n,
  inr (pleaf inp i l (cur, s, last) k) row n -> od row n s -> od row n last ->
  exists s' last',
    Step (pleaf inp i l (cur, s, last) k) row n (vval T s' = absorb H (vval T s) (lvals i l cur)) True
      (k (cur + 2 * zlen l, s', last')) (row + ps * zlen l) n /\
    od (row + ps * zlen l) n s' /\ od (row + ps * zlen l) n last' /\ ((l = [] /\ s' = s /\ last' = last) \/ last' = s').
Proof.
  intros i. induction l as [|t l IH]; intros cur s last k row n I0 Os Ol.
  - exists s, last. change (zlen (@nil Z)) with 0. rewrite !Z.mul_0_r, !Z.add_0_r. split; [|tauto].
    eapply step_conv; [apply step_refl| |]; [reflexivity|tauto].
  - assert (HP : In (vi_vals inp) [vi_pos inp; vi_vals inp; vi_hashes inp; vi_rvals inp; vi_rhashes inp]) by (cbn [In]; tauto).
    pose proof I0 as I0'. destruct I0' as [A1 [A2 A3]].
    set (k1 := fun h => pleaf inp i l (cur + 2, h, h) k).
    change (pleaf inp i (t :: l) (cur, s, last) k) with (PHash s (v2 (vi_vals inp) i cur) (v2 (vi_vals inp) i (cur + 1)) k1) in *.
    destruct (step_hash _ _ _ k1 row n I0 Os (od_in2 _ row n i cur HP A1 A2) (od_in2 _ row n i (cur + 1) HP A1 A2)) as [S1 B1].
    pose proof (step_inr _ _ _ _ _ _ _ _ S1 I0) as I1.
    destruct (IH (cur + 2) (hout c row) (hout c row) k (row + ps) n I1 B1 B1) as [s' [last' [S2 [B2 [B3 B4]]]]].
    exists s', last'. rewrite zlen_cons.
    replace (row + ps * (zlen l + 1)) with (row + ps + ps * zlen l) by lia.
    replace (cur + 2 * (zlen l + 1)) with (cur + 2 + 2 * zlen l) by lia. split; [|split; [exact B2|split; [exact B3|]]].
    + eapply step_conv; [exact (step_trans _ _ _ _ _ _ _ _ _ _ _ _ _ S1 S2)| |tauto].
      intros [V1 V2]. cbn [lvals absorb fst snd]. rewrite V2, V1. reflexivity.
    + right. destruct B4 as [[_ [-> ->]]|E]; [reflexivity|exact E].
Qed.

Lemma zlen_zseq0 : forall n, 0 <= n -> zlen (zseq 0 n) = n.
Proof. intros n Hn. unfold zlen. rewrite zseq_length. lia. Qed.

Notation sz j := (znth 0 sizes j).
Definition broot (j : Z) : F := vval T (if j =? 0 then vk1v else znth dv (vi_comms inp) (j - 1)).
Fixpoint bq (i : Z) (l : list Z) (cur ch : Z) : Prop :=
  match l with
  | [] => True
  | j :: l =>
      opens H (absorb H f0 (lvals i (zseq 0 (sz j)) cur)) (mpath i (vi_hashes inp) (zseq 0 m) ch) (broot j) /\
      bq i l (cur + 2 * sz j) (ch + m)
  end.

Lemma batches_step : forall i l, (forall j, In j l -> 0 <= j < zlen sizes) -> forall cur ch last k row n,
  inr (pbatches m sizes inp zerov vk1v i l (cur, ch, last) k) row n -> od row n last ->
  exists st' n', Step (pbatches m sizes inp zerov vk1v i l (cur, ch, last) k) row n True (bq i l cur ch)
      (k st') (row + ps * lsum (fun j => sz j + m) l) n' /\
    od (row + ps * lsum (fun j => sz j + m) l) n' (snd st').
Proof.
  intros i. induction l as [|j l IH]; intros Hl cur ch last k row n I0 Ol.
  - exists (cur, ch, last), n. cbn [lsum]. rewrite Z.mul_0_r, Z.add_0_r. split; [|exact Ol].
    eapply step_conv; [apply step_refl|tauto|]. cbn [bq]. tauto.
  - assert (SP : 0 < sz j) by (apply Hsz; apply znth_In; apply Hl; left; reflexivity).
    set (rt := if j =? 0 then vk1v else znth dv (vi_comms inp) (j - 1)).
    set (k2 := fun (st1 : Z * var * var) (st2 : Z * var) =>
       PCopy (snd st2) rt (pbatches m sizes inp zerov vk1v i l (fst (fst st1), fst st2, snd st2) k)).
    set (k1 := fun st1 : Z * var * var => pmerkle inp zerov i (vi_hashes inp) (zseq 0 m) (ch, snd st1) (k2 st1)).
    change (pbatches m sizes inp zerov vk1v i (j :: l) (cur, ch, last) k) with
      (pleaf inp i (zseq 0 (sz j)) (cur, zerov, last) k1) in *.
    destruct (leaf_step i (zseq 0 (sz j)) cur zerov last k1 row n I0 (Oz _ _) Ol) as [s' [last' [S1 [B1 [B2 B3]]]]].
    rewrite zlen_zseq0 in * by lia. destruct B3 as [[B3 _]|B3]; [rewrite zseq_cons in B3 by lia; discriminate|]. subst last'.
    pose proof (step_inr _ _ _ _ _ _ _ _ S1 I0) as I1.
    destruct (merkle_step i (vi_hashes inp) (or_introl eq_refl) (zseq 0 m) ch s' (k2 (cur + 2 * sz j, s', s')) _ n I1 B1) as [h' [S2 B4]].
    rewrite zlen_zseq0 in * by lia.
    pose proof (step_inr _ _ _ _ _ _ _ _ S2 I1) as I2.
    set (k3 := pbatches m sizes inp zerov vk1v i l (cur + 2 * sz j, ch + m, h') k).
    change (k2 (cur + 2 * sz j, s', s') (ch + m, h')) with (PCopy h' rt k3) in *.
    assert (OR : od (row + ps * sz j + ps * m) (n + m) rt).
    { unfold rt. destruct (j =? 0); [apply O1|]. destruct I2 as [X1 [X2 _]].
      apply (od_mono row0 0); [apply Hin1; left; reflexivity|lia|lia]. }
    pose proof (step_copy h' rt k3 _ _ B4 OR) as S3.
    pose proof (step_inr _ _ _ _ _ _ _ _ S3 I2) as I3.
    destruct (IH (fun q Hq => Hl q (or_intror Hq)) (cur + 2 * sz j) (ch + m) h' k _ _ I3 B4) as [st' [n' [S4 B5]]].
    exists st', n'. cbn [lsum].
    replace (row + ps * (sz j + m + lsum (fun q => sz q + m) l)) with
      (row + ps * sz j + ps * m + ps * lsum (fun q => sz q + m) l) by lia.
    split; [|exact B5].
    eapply step_conv; [exact (step_trans _ _ _ _ _ _ _ _ _ _ _ _ _ (step_trans _ _ _ _ _ _ _ _ _ _ _ _ _
       (step_trans _ _ _ _ _ _ _ _ _ _ _ _ _ S1 S2) S3) S4)|tauto|].
    intros [[[V1 V2] _] _]. cbn [bq]. unfold opens. rewrite V1, Hz in V2. unfold broot. fold rt. split.
    + intros [[[_ Q1] Q2] Q3]. split; [|exact Q3]. split; [exact Q1|]. rewrite <- (V2 Q1). exact Q2.
    + intros [[Q1 Q2] Q3]. split; [|exact Q3]. split; [tauto|]. rewrite (V2 Q1). exact Q2.
Qed.

Fixpoint rq (i : Z) (l : list Z) (cur ch : Z) (y0 y1 : F) : Prop :=
  match l with
  | [] => True
  | j :: l =>
      opens H (H f0 y0 y1) (mpath i (vi_rhashes inp) (zseq 0 (m - j)) ch) (vval T (znth dv (vi_roots inp) j)) /\
      rq i l (cur + 1) (ch + (m - j)) (vv (vi_rvals inp) i (cur * 2)) (vv (vi_rvals inp) i (cur * 2 + 1))
  end.

Lemma rounds_step : forall i l, (forall j, In j l -> 1 <= j <= m) -> forall cur ch y last k row n,
  inr (prounds m inp zerov i l (cur, ch, y, last) k) row n -> od row n (fst y) -> od row n (snd y) -> od row n last ->
  exists st' n', Step (prounds m inp zerov i l (cur, ch, y, last) k) row n True (rq i l cur ch (vval T (fst y)) (vval T (snd y)))
      (k st') (row + ps * lsum (fun j => 1 + (m - j)) l) n' /\
    od (row + ps * lsum (fun j => 1 + (m - j)) l) n' (snd st').
Proof.
  intros i. induction l as [|j l IH]; intros Hl cur ch y last k row n I0 Oy0 Oy1 Ol.
  - exists (cur, ch, y, last), n. cbn [lsum]. rewrite Z.mul_0_r, Z.add_0_r. split; [|exact Ol].
    eapply step_conv; [apply step_refl|tauto|]. cbn [rq]. tauto.
  - assert (HP : In (vi_rvals inp) [vi_pos inp; vi_vals inp; vi_hashes inp; vi_rvals inp; vi_rhashes inp]) by (cbn [In]; tauto).
    assert (HJ : 1 <= j <= m) by (apply Hl; left; reflexivity).
    set (y' := (v2 (vi_rvals inp) i (cur * 2), v2 (vi_rvals inp) i (cur * 2 + 1))).
    set (k2 := fun st2 : Z * var => PCopy (snd st2) (znth dv (vi_roots inp) j)
       (prounds m inp zerov i l (cur + 1, fst st2, y', snd st2) k)).
    set (k1 := fun h => pmerkle inp zerov i (vi_rhashes inp) (zseq 0 (m - j)) (ch, h) k2).
    assert (EP : prounds m inp zerov i (j :: l) (cur, ch, y, last) k = PHash zerov (fst y) (snd y) k1).
    { unfold prounds. cbn [pfold fst snd]. replace (j =? 0) with false by (symmetry; apply Z.eqb_neq; lia). reflexivity. }
    rewrite EP in *. clear EP.
    destruct (step_hash _ _ _ k1 row n I0 (Oz _ _) Oy0 Oy1) as [S1 B1].
    pose proof (step_inr _ _ _ _ _ _ _ _ S1 I0) as I1.
    destruct (merkle_step i (vi_rhashes inp) (or_intror eq_refl) (zseq 0 (m - j)) ch (hout c row) k2 _ n I1 B1) as [h' [S2 B4]].
    rewrite zlen_zseq0 in * by lia.
    pose proof (step_inr _ _ _ _ _ _ _ _ S2 I1) as I2.
    set (k3 := prounds m inp zerov i l (cur + 1, ch + (m - j), y', h') k).
    change (k2 (ch + (m - j), h')) with (PCopy h' (znth dv (vi_roots inp) j) k3) in *.
    pose proof I2 as [X1 [X2 _]].
    assert (OR : od (row + ps + ps * (m - j)) (n + (m - j)) (znth dv (vi_roots inp) j))
      by (apply (od_mono row0 0); [apply Hin1; right; reflexivity|lia|lia]).
    pose proof (step_copy h' (znth dv (vi_roots inp) j) k3 _ _ B4 OR) as S3.
    pose proof (step_inr _ _ _ _ _ _ _ _ S3 I2) as I3.
    destruct (IH (fun q Hq => Hl q (or_intror Hq)) (cur + 1) (ch + (m - j)) y' h' k _ _ I3) as [st' [n' [S4 B5]]];
      [apply od_in2; assumption|apply od_in2; assumption|exact B4|].
    exists st', n'. cbn [lsum].
    replace (row + ps * (1 + (m - j) + lsum (fun q => 1 + (m - q)) l)) with
      (row + ps + ps * (m - j) + ps * lsum (fun q => 1 + (m - q)) l) by lia.
    split; [|exact B5].
    eapply step_conv; [exact (step_trans _ _ _ _ _ _ _ _ _ _ _ _ _ (step_trans _ _ _ _ _ _ _ _ _ _ _ _ _
       (step_trans _ _ _ _ _ _ _ _ _ _ _ _ _ S1 S2) S3) S4)|tauto|].
    intros [[[V1 V2] _] _]. cbn [rq]. unfold opens. rewrite V1, Hz in V2. split.
    + intros [[[_ Q1] Q2] Q3]. split; [|exact Q3]. split; [exact Q1|]. rewrite <- (V2 Q1). exact Q2.
    + intros [[Q1 Q2] Q3]. split; [|exact Q3]. split; [tauto|]. rewrite (V2 Q1). exact Q2.
Qed.

Hypothesis Hr1 : 1 <= r.

Definition qrows : Z := lsum (fun j => sz j + m) (zseq 0 (zlen sizes)) + lsum (fun j => 1 + (m - j)) (zseq 1 r).
Definition qq (i : Z) : Prop :=
  bq i (zseq 0 (zlen sizes)) 0 0 /\
  rq i (zseq 1 r) 1 m (vv (vi_rvals inp) i 0) (vv (vi_rvals inp) i 1).

Lemma queries_step : forall l last k row n,
  inr (pqueries r m sizes inp zerov vk1v l last k) row n -> od row n last ->
  exists last' n', Step (pqueries r m sizes inp zerov vk1v l last k) row n True (forall i, In i l -> qq i)
      (k last') (row + ps * qrows * zlen l) n'.
Proof.
  induction l as [|i l IH]; intros last k row n I0 Ol.
  - exists last, n. change (zlen (@nil Z)) with 0. rewrite Z.mul_0_r, Z.add_0_r.
    eapply step_conv; [apply step_refl|tauto|]. intros _. split; [intros _ i []|tauto].
  - assert (HP : In (vi_rvals inp) [vi_pos inp; vi_vals inp; vi_hashes inp; vi_rvals inp; vi_rhashes inp]) by (cbn [In]; tauto).
    set (k2 := fun st : Z * Z * (var * var) * var => pqueries r m sizes inp zerov vk1v l (snd st) k).
    set (k1 := fun st : Z * Z * var => prounds m inp zerov i (zseq 0 r) (0, 0, (dv, dv), snd st) k2).
    change (pqueries r m sizes inp zerov vk1v (i :: l) last k) with
      (pbatches m sizes inp zerov vk1v i (zseq 0 (zlen sizes)) (0, 0, last) k1) in *.
    destruct (batches_step i (zseq 0 (zlen sizes)) (fun j Hj => proj1 (in_zseq _ _ _) Hj) 0 0 last k1 row n I0 Ol) as [st1 [n1 [S1 B1]]].
    pose proof (step_inr _ _ _ _ _ _ _ _ S1 I0) as I1.
    set (y1 := (v2 (vi_rvals inp) i 0, v2 (vi_rvals inp) i 1)).
    assert (E1 : k1 st1 = prounds m inp zerov i (zseq 1 r) (1, m, y1, snd st1) k2).
    { unfold k1, prounds. rewrite (zseq_cons 0 r) by lia. reflexivity. }
    rewrite E1 in *. destruct I1 as [X1 [X2 X3]].
    destruct (rounds_step i (zseq 1 r)) with (cur := 1) (ch := m) (y := y1) (last := snd st1) (k := k2)
      (row := row + ps * lsum (fun j => sz j + m) (zseq 0 (zlen sizes))) (n := n1) as [st2 [n2 [S2 B2]]].
    + intros j Hj. apply in_zseq in Hj. lia.
    + split; [exact X1|split; [exact X2|exact X3]].
    + apply od_in2; assumption.
    + apply od_in2; assumption.
    + exact B1.
    + pose proof (step_inr _ _ _ _ _ _ _ _ S2 (conj X1 (conj X2 X3))) as I2.
      destruct (IH (snd st2) k _ _ I2 B2) as [last' [n' S3]]. exists last', n'. rewrite zlen_cons. unfold qrows in *.
      eapply step_at; [eapply step_conv; [exact (step_trans _ _ _ _ _ _ _ _ _ _ _ _ _ (step_trans _ _ _ _ _ _ _ _ _ _ _ _ _ S1 S2) S3)|tauto|]|lia|reflexivity].
      intros _. split.
      * intros [[Q1 Q2] Q3] q [<-|Hq]; [split; assumption|exact (Q3 q Hq)].
      * intros Q. split; [exact (Q i (or_introl eq_refl))|]. intros q Hq. exact (Q q (or_intror Hq)).
Qed.

(** ** Chains *)

Lemma chain_step : forall l s k row n,
  inr (pfold l (fun (_ : Z) s k => PHash s zerov zerov k) s k) row n -> od row n s ->
  exists s', Step (pfold l (fun (_ : Z) s k => PHash s zerov zerov k) s k) row n
     (vval T s' = absorb H (vval T s) (map (fun _ => (f0, f0)) l)) True (k s') (row + ps * zlen l) n /\
   od (row + ps * zlen l) n s'.
Proof.
  induction l as [|t l IH]; intros s k row n I0 Os.
  - exists s. change (zlen (@nil Z)) with 0. rewrite !Z.mul_0_r, !Z.add_0_r. split; [|exact Os].
    eapply step_conv; [apply step_refl| |]; [reflexivity|tauto].
  - set (k1 := fun s => pfold l (fun (_ : Z) s k => PHash s zerov zerov k) s k).
    change (pfold (t :: l) (fun (_ : Z) s k => PHash s zerov zerov k) s k) with (PHash s zerov zerov k1) in *.
    destruct (step_hash _ _ _ k1 row n I0 Os (Oz _ _) (Oz _ _)) as [S1 B1].
    pose proof (step_inr _ _ _ _ _ _ _ _ S1 I0) as I1.
    destruct (IH (hout c row) k _ _ I1 B1) as [s' [S2 B2]]. exists s'. rewrite zlen_cons.
    replace (row + ps * (zlen l + 1)) with (row + ps + ps * zlen l) by lia. split; [|exact B2].
    eapply step_conv; [exact (step_trans _ _ _ _ _ _ _ _ _ _ _ _ _ S1 S2)| |tauto].
    intros [V1 V2]. cbn [map absorb fst snd]. rewrite V2, V1, Hz. reflexivity.
Qed.

Lemma list_step : forall (g : Z -> var), (forall i row n, row0 <= row -> 0 <= n -> od row n (g i)) -> forall l st k row n,
  inr (pfold l (fun i (st : var * list var) k => PHash (fst st) (g i) zerov (fun h => k (h, snd st ++ [h]))) st k) row n ->
  od row n (fst st) -> (forall x, In x (snd st) -> od row n x) ->
  exists st', Step (pfold l (fun i (st : var * list var) k => PHash (fst st) (g i) zerov (fun h => k (h, snd st ++ [h]))) st k) row n
     (vval T (fst st') = absorb H (vval T (fst st)) (map (fun i => (vval T (g i), f0)) l) /\
      map (vval T) (snd st') = map (vval T) (snd st) ++ squeeze H (vval T (fst st)) (map (fun i => vval T (g i)) l)) True
     (k st') (row + ps * zlen l) n /\
   od (row + ps * zlen l) n (fst st') /\ (forall x, In x (snd st') -> od (row + ps * zlen l) n x).
Proof.
  intros g Hg. induction l as [|t l IH]; intros st k row n I0 Os Ol.
  - exists st. change (zlen (@nil Z)) with 0. rewrite !Z.mul_0_r, !Z.add_0_r. split; [|split; assumption].
    eapply step_conv; [apply step_refl| |tauto]. intros _. split; [reflexivity|]. cbn [map squeeze]. rewrite app_nil_r. reflexivity.
  - set (k1 := fun h => pfold l (fun i (st : var * list var) k => PHash (fst st) (g i) zerov (fun h => k (h, snd st ++ [h]))) (h, snd st ++ [h]) k).
    match goal with |- context [pfold (t :: l) ?f st k] => change (pfold (t :: l) f st k) with (PHash (fst st) (g t) zerov k1) in * end.
    pose proof I0 as [X1 [X2 _]].
    destruct (step_hash _ _ _ k1 row n I0 Os (Hg t row n X1 X2) (Oz _ _)) as [S1 B1].
    pose proof (step_inr _ _ _ _ _ _ _ _ S1 I0) as I1.
    destruct (IH (hout c row, snd st ++ [hout c row]) k _ _ I1 B1) as [st' [S2 [B2 B3]]].
    + cbn [snd]. intros x Hx. apply in_app_or in Hx. destruct Hx as [Hx|[<-|[]]]; [|exact B1].
      pose proof (fp_rows_pos w H9 HM). apply (od_mono row n); [exact (Ol x Hx)|lia|lia].
    + exists st'. rewrite zlen_cons. replace (row + ps * (zlen l + 1)) with (row + ps + ps * zlen l) by lia.
      split; [|split; assumption].
      eapply step_conv; [exact (step_trans _ _ _ _ _ _ _ _ _ _ _ _ _ S1 S2)| |tauto].
      intros [V1 [V2 V3]]. cbn [fst snd] in V2, V3. rewrite map_app in V3. cbn [map] in V3. rewrite V1, Hz in V2, V3.
      cbn [map absorb squeeze fst snd]. split; [exact V2|]. rewrite V3, <- app_assoc. reflexivity.
Qed.

Lemma od_znth : forall l i row n, (forall x, In x l -> od row n x) -> od row n (znth dv l i).
Proof.
  intros l i row n Hl. unfold znth. destruct (nth_in_or_default (Z.to_nat i) l dv) as [Hi|E]; [exact (Hl _ Hi)|].
  rewrite E. intros [Ht _]. discriminate.
Qed.

Lemma pows_step : forall fx l acc k row n,
  inr (pfold l (fun i xs k => PPow (znth dv fx i) (fun y => k (xs ++ [y]))) acc k) row n ->
  (forall x, In x fx -> od row n x) -> (forall x, In x acc -> od row n x) ->
  exists xs, Step (pfold l (fun i xs k => PPow (znth dv fx i) (fun y => k (xs ++ [y]))) acc k) row n
     (Forall2 (fun i y => md_pow z (vval T (znth dv fx i)) (vval T y)) l xs) True (k (acc ++ xs)) (row + cp_rows w pow * zlen l) n /\
   (forall x, In x (acc ++ xs) -> od (row + cp_rows w pow * zlen l) n x).
Proof.
  intros fx. pose proof (cp_rows_nn w pow H9 Hpow Hcp) as RC. induction l as [|t l IH]; intros acc k row n I0 Of Oa.
  - exists []. rewrite app_nil_r. change (zlen (@nil Z)) with 0. rewrite !Z.mul_0_r, !Z.add_0_r. split; [|assumption].
    eapply step_conv; [apply step_refl| |]; [intros _; constructor|tauto].
  - set (k1 := fun y => pfold l (fun i xs k => PPow (znth dv fx i) (fun y => k (xs ++ [y]))) (acc ++ [y]) k).
    match goal with |- context [pfold (t :: l) ?f acc k] => change (pfold (t :: l) f acc k) with (PPow (znth dv fx t) k1) in * end.
    destruct (step_pow _ k1 row n I0 (od_znth fx t row n Of)) as [S1 B1].
    pose proof (step_inr _ _ _ _ _ _ _ _ S1 I0) as I1.
    destruct (IH (acc ++ [cp_out c pow row]) k _ _ I1) as [xs [S2 B2]].
    + intros x Hx. apply (od_mono row n); [exact (Of x Hx)|lia|lia].
    + intros x Hx. apply in_app_or in Hx. destruct Hx as [Hx|[<-|[]]]; [|exact B1].
      apply (od_mono row n); [exact (Oa x Hx)|lia|lia].
    + exists (cp_out c pow row :: xs). rewrite zlen_cons. rewrite <- app_assoc in S2, B2. cbn [app] in S2, B2.
      replace (row + cp_rows w pow * (zlen l + 1)) with (row + cp_rows w pow + cp_rows w pow * zlen l) by lia.
      split; [|exact B2].
      eapply step_conv; [exact (step_trans _ _ _ _ _ _ _ _ _ _ _ _ _ S1 S2)| |tauto].
      intros [V1 V2]. constructor; assumption.
Qed.

Lemma idx_step : forall xs l k row n, row0 <= row -> 0 <= n ->
  (forall x, In x xs -> od row n x) ->
  Step (pfold l (fun i (_ : unit) k => PIdx (znth dv xs i) (map (fun j => v2 (vi_pos inp) i j) (zseq 0 m)) (k tt)) tt k) row n
    True (forall i, In i l -> md_idx z (vval T (znth dv xs i)) (map (fun j => vv (vi_pos inp) i j) (zseq 0 m))) (k tt) (row + xi_rows w m * zlen l) n.
Proof.
  intros xs. pose proof (xi_rows_nn w H9 m Hm) as RX.
  assert (HP : In (vi_pos inp) [vi_pos inp; vi_vals inp; vi_hashes inp; vi_rvals inp; vi_rhashes inp]) by (cbn [In]; tauto).
  induction l as [|t l IH]; intros k row n A1 A2 Ox.
  - change (zlen (@nil Z)) with 0. rewrite !Z.mul_0_r, !Z.add_0_r.
    eapply step_conv; [apply step_refl|tauto|]. intros _. split; [intros _ i []|tauto].
  - set (k1 := pfold l (fun i (_ : unit) k => PIdx (znth dv xs i) (map (fun j => v2 (vi_pos inp) i j) (zseq 0 m)) (k tt)) tt k).
    match goal with |- context [pfold (t :: l) ?f tt k] =>
      change (pfold (t :: l) f tt k) with (PIdx (znth dv xs t) (map (fun j => v2 (vi_pos inp) t j) (zseq 0 m)) k1) end.
    assert (EL : zlen (map (fun j => v2 (vi_pos inp) t j) (zseq 0 m)) = m)
      by (unfold zlen; rewrite map_length; change (Z.of_nat (length (zseq 0 m))) with (zlen (zseq 0 m)); apply zlen_zseq0; exact Hm).
    pose proof (step_idx (znth dv xs t) (map (fun j => v2 (vi_pos inp) t j) (zseq 0 m)) k1 row n (od_znth xs t row n Ox)) as S1.
    rewrite EL, map_map in S1. specialize (S1 ltac:(intros b Hb; apply in_map_iff in Hb; destruct Hb as [q [<- _]]; apply od_in2; assumption)).
    assert (Ox' : forall x, In x xs -> od (row + xi_rows w m) n x)
      by (intros x Hx; apply (od_mono row n); [exact (Ox x Hx)|lia|lia]).
    pose proof (IH k (row + xi_rows w m) n ltac:(lia) A2 Ox') as S2. rewrite zlen_cons.
    eapply step_at; [eapply step_conv; [exact (step_trans _ _ _ _ _ _ _ _ _ _ _ _ _ S1 S2)|tauto|]|lia|reflexivity].
    intros _. split.
    + intros [Q1 Q2] i [<-|Hi]; [exact Q1|exact (Q2 i Hi)].
    + intros Q. split; [exact (Q t (or_introl eq_refl))|]. intros i Hi. exact (Q i (or_intror Hi)).
Qed.

Lemma cols_step : forall (g : Z -> clin) l k row n,
  (forall i row' v, row <= row' -> In v (cl_x (g i) :: cl_ys (g i) ++ cl_bs (g i) ++ cl_al (g i)) -> od row' n v) ->
  Step (pfold l (fun i (_ : unit) k => PCol (g i) (k tt)) tt k) row n True (forall i, In i l -> md_in (g i)) (k tt) (row + cl_rows w r * zlen l) n.
Proof.
  intros g. pose proof (cl_rows_nn w r H9 Hr) as RL. induction l as [|t l IH]; intros k row n Og.
  - change (zlen (@nil Z)) with 0. rewrite !Z.mul_0_r, !Z.add_0_r.
    eapply step_conv; [apply step_refl|tauto|]. intros _. split; [intros _ i []|tauto].
  - set (k1 := pfold l (fun i (_ : unit) k => PCol (g i) (k tt)) tt k).
    change (pfold (t :: l) (fun i (_ : unit) k => PCol (g i) (k tt)) tt k) with (PCol (g t) k1).
    pose proof (step_col (g t) k1 row n (fun v Hv => Og t row v ltac:(lia) Hv)) as S1.
    pose proof (IH k (row + cl_rows w r) n (fun i row' v Hr' Hv => Og i row' v ltac:(lia) Hv)) as S2. rewrite zlen_cons.
    eapply step_at; [eapply step_conv; [exact (step_trans _ _ _ _ _ _ _ _ _ _ _ _ _ S1 S2)|tauto|]|lia|reflexivity].
    intros _. split.
    + intros [Q1 Q2] i [<-|Hi]; [exact Q1|exact (Q2 i Hi)].
    + intros Q. split; [exact (Q t (or_introl eq_refl))|]. intros i Hi. exact (Q i (or_intror Hi)).
Qed.

(** ** The closed form of the comparisons *)

Definition prf : vproof P :=
  mkVpr (fun j => vval T (znth dv (vi_comms inp) j)) (fun j => vval T (znth dv (vi_roots inp) j)) (vval T (vi_chal inp))
    (vv (vi_pos inp)) (vv (vi_vals inp)) (vv (vi_hashes inp)) (vv (vi_rvals inp)) (vv (vi_rhashes inp)).

Lemma mpath_map : forall i hs b ch,
  mpath i hs (zseq 0 b) ch = map (fun t => (vv (vi_pos inp) i t, vv hs i (ch + t))) (zseq 0 b).
Proof.
  intros i hs b ch. unfold zseq.
  assert (K : forall n a ch, mpath i hs (zrange a n) ch = map (fun t => (vv (vi_pos inp) i t, vv hs i (ch + (t - a)))) (zrange a n)).
  { induction n as [|n IH]; intros a ch0; [reflexivity|]. cbn [zrange mpath map]. rewrite IH. f_equal.
    - f_equal. f_equal. lia.
    - apply map_ext. intros t. f_equal. f_equal. lia. }
  rewrite K. apply map_ext. intros t. f_equal. f_equal. lia.
Qed.
Lemma lvals_map : forall i b cur,
  lvals i (zseq 0 b) cur = map (fun t => (vv (vi_vals inp) i (cur + 2 * t), vv (vi_vals inp) i (cur + 2 * t + 1))) (zseq 0 b).
Proof.
  intros i b cur. unfold zseq.
  assert (K : forall n a cur, lvals i (zrange a n) cur =
     map (fun t => (vv (vi_vals inp) i (cur + 2 * (t - a)), vv (vi_vals inp) i (cur + 2 * (t - a) + 1))) (zrange a n)).
  { induction n as [|n IH]; intros a cur0; [reflexivity|]. cbn [zrange lvals map]. rewrite IH. f_equal.
    - f_equal; f_equal; lia.
    - apply map_ext. intros t. f_equal; f_equal; lia. }
  rewrite K. apply map_ext. intros t. f_equal; f_equal; lia.
Qed.
Lemma lsum_app : forall f l1 l2, lsum f (l1 ++ l2) = lsum f l1 + lsum f l2.
Proof. intros f l1 l2. induction l1 as [|x l1 IH]; cbn [app lsum]; lia. Qed.
Lemma lsum_snoc : forall f a, 0 <= a -> lsum f (zseq 0 (a + 1)) = lsum f (zseq 0 a) + f a.
Proof. intros f a Ha. rewrite zseq_snoc by lia. rewrite lsum_app. cbn [lsum]. lia. Qed.

Lemma bq_iff : forall i n a, 0 <= a -> zlen sizes - a = Z.of_nat n ->
  (bq i (zseq a (zlen sizes)) (2 * lsum (fun q => sz q) (zseq 0 a)) (m * a) <->
   forall j, a <= j < zlen sizes -> batch_ok H m sizes (vval T vk1v) prf i j).
Proof.
  intros i. induction n as [|n IH]; intros a Ha Hn.
  - rewrite zseq_nil by lia. cbn [bq]. split; [intros _ j Hj; lia|tauto].
  - rewrite zseq_cons by lia. cbn [bq].
    replace (2 * lsum (fun q => sz q) (zseq 0 a) + 2 * sz a) with (2 * lsum (fun q => sz q) (zseq 0 (a + 1)))
      by (rewrite lsum_snoc by lia; lia).
    replace (m * a + m) with (m * (a + 1)) by lia. rewrite IH by lia.
    assert (BO : batch_ok H m sizes (vval T vk1v) prf i a <->
      opens H (absorb H f0 (lvals i (zseq 0 (sz a)) (2 * lsum (fun q => sz q) (zseq 0 a)))) (mpath i (vi_hashes inp) (zseq 0 m) (m * a)) (broot a)).
    { unfold batch_ok. cbv zeta. rewrite lvals_map, mpath_map. unfold broot. destruct (a =? 0); reflexivity. }
    rewrite <- BO. split.
    + intros [Q1 Q2] j Hj. assert (j = a \/ a + 1 <= j < zlen sizes) as [->|Hj'] by lia; [exact Q1|exact (Q2 j Hj')].
    + intros Q. split; [apply Q; lia|]. intros j Hj. apply Q. lia.
Qed.

Lemma rq_iff : forall i n a, 1 <= a -> r - a = Z.of_nat n ->
  (rq i (zseq a r) a (lsum (fun q => m - q) (zseq 0 a)) (vv (vi_rvals inp) i (2 * (a - 1))) (vv (vi_rvals inp) i (2 * (a - 1) + 1)) <->
   forall j, a <= j < r -> round_ok H m prf i j).
Proof.
  intros i. induction n as [|n IH]; intros a Ha Hn.
  - rewrite zseq_nil by lia. cbn [rq]. split; [intros _ j Hj; lia|tauto].
  - rewrite zseq_cons by lia. cbn [rq].
    replace (lsum (fun q => m - q) (zseq 0 a) + (m - a)) with (lsum (fun q => m - q) (zseq 0 (a + 1)))
      by (rewrite lsum_snoc by lia; lia).
    replace (a * 2) with (2 * (a + 1 - 1)) by lia. rewrite IH by lia.
    assert (BO : round_ok H m prf i a <->
      opens H (H f0 (vv (vi_rvals inp) i (2 * (a - 1))) (vv (vi_rvals inp) i (2 * (a - 1) + 1)))
        (mpath i (vi_rhashes inp) (zseq 0 (m - a)) (lsum (fun q => m - q) (zseq 0 a))) (vval T (znth dv (vi_roots inp) a))).
    { unfold round_ok. cbv zeta. rewrite mpath_map. reflexivity. }
    rewrite <- BO. split.
    + intros [Q1 Q2] j Hj. assert (j = a \/ a + 1 <= j < r) as [->|Hj'] by lia; [exact Q1|exact (Q2 j Hj')].
    + intros Q. split; [apply Q; lia|]. intros j Hj. apply Q. lia.
Qed.

Lemma qq_iff : forall i, qq i <->
  (forall j, 0 <= j < zlen sizes -> batch_ok H m sizes (vval T vk1v) prf i j) /\
  (forall j, 1 <= j < r -> round_ok H m prf i j).
Proof.
  intros i. unfold qq. pose proof (zlen_nonneg _ sizes) as LN.
  pose proof (bq_iff i (Z.to_nat (zlen sizes)) 0 ltac:(lia) ltac:(lia)) as B.
  pose proof (rq_iff i (Z.to_nat (r - 1)) 1 ltac:(lia) ltac:(lia)) as R.
  change (lsum (fun q => sz q) (zseq 0 0)) with 0 in B. rewrite !Z.mul_0_r in B.
  change (lsum (fun q => m - q) (zseq 0 1)) with (m - 0 + 0) in R. replace (m - 0 + 0) with m in R by lia.
  change (2 * (1 - 1)) with 0 in R. change (0 + 1) with 1 in R. rewrite B, R. reflexivity.
Qed.

Lemma absorb_app : forall l1 l2 s, absorb H s (l1 ++ l2) = absorb H (absorb H s l1) l2.
Proof. induction l1 as [|x l1 IH]; intros l2 s; [reflexivity|]. cbn [app absorb]. apply IH. Qed.

(** ** The whole program *)

Hypothesis Hlam : 0 <= lam.
Definition vrows : Z :=
  ps * 15 + ps * r + ps * lam + cp_rows w pow * lam + xi_rows w m * lam + cl_rows w r * lam + ps * qrows * lam.

Lemma verifier_step : inr (pverifier lam r m sizes inp zerov vk0v vk1v) row0 0 ->
  exists n' xs als, Step (pverifier lam r m sizes inp zerov vk0v vk1v) row0 0
    (map (vval T) als = fri_alphas H r (vval T vk0v) (vval T vk1v) prf /\
     forall i, 0 <= i < lam -> md_pow z (znth f0 (fri_xs H lam r (vval T vk0v) (vval T vk1v) prf) i) (vval T (znth dv xs i)))
    (verifier_checks H lam r m sizes (vval T vk0v) (vval T vk1v) prf /\
     forall i, 0 <= i < lam ->
       md_idx z (vval T (znth dv xs i)) (map (fun j => vv (vi_pos inp) i j) (zseq 0 m)) /\
       md_in (pcol_in r inp zerov i xs als)) PEnd (row0 + vrows) n'.
Proof.
  intros I0. unfold pverifier in *. cbv zeta in *.
  assert (OC : forall i row n, row0 <= row -> 0 <= n -> od row n (znth dv (vi_comms inp) i))
    by (intros i row n A1 A2; apply (od_mono row0 0); [apply Hin1; left; reflexivity|exact A1|exact A2]).
  assert (ORt : forall i row n, row0 <= row -> 0 <= n -> od row n (znth dv (vi_roots inp) i))
    by (intros i row n A1 A2; apply (od_mono row0 0); [apply Hin1; right; reflexivity|exact A1|exact A2]).
  pose proof (fp_rows_pos w H9 HM) as RP.
  destruct (step_hash _ _ _ _ _ _ I0 (Oz _ _) (O0 _ _) (O1 _ _)) as [S1 B1]. cbv beta in S1.
  pose proof (step_inr _ _ _ _ _ _ _ _ S1 I0) as I1. clear I0.
  destruct (step_hash _ _ _ _ _ _ I1 B1 (OC _ _ _ (proj1 I1) (proj1 (proj2 I1))) (Oz _ _)) as [S2 B2]. cbv beta in S2.
  pose proof (step_inr _ _ _ _ _ _ _ _ S2 I1) as I2. clear I1.
  destruct (step_hash _ _ _ _ _ _ I2 B2 (Oz _ _) (Oz _ _)) as [S3 B3]. cbv beta in S3.
  pose proof (step_inr _ _ _ _ _ _ _ _ S3 I2) as I3. clear I2.
  destruct (step_hash _ _ _ _ _ _ I3 B3 (OC _ _ _ (proj1 I3) (proj1 (proj2 I3))) (Oz _ _)) as [S4 B4]. cbv beta in S4.
  pose proof (step_inr _ _ _ _ _ _ _ _ S4 I3) as I4. clear I3.
  destruct (chain_step _ _ _ _ _ I4 B4) as [al [S5 B5]]. cbv beta in S5.
  pose proof (step_inr _ _ _ _ _ _ _ _ S5 I4) as I5. clear I4.
  destruct (step_hash _ _ _ _ _ _ I5 B5 (OC _ _ _ (proj1 I5) (proj1 (proj2 I5))) (Oz _ _)) as [S6 B6]. cbv beta in S6.
  pose proof (step_inr _ _ _ _ _ _ _ _ S6 I5) as I6. clear I5.
  pose proof I6 as [X6 [Y6 _]].
  match type of I6 with inr (PCopy ?a ?b ?k) ?row ?n =>
    pose proof (step_copy a b k row n B6 (od_mono _ _ _ _ _ Hchal X6 Y6)) as S7 end.
  pose proof (step_inr _ _ _ _ _ _ _ _ S7 I6) as I7. clear I6.
  destruct (step_hash _ _ _ _ _ _ I7 B6 (O1 _ _) (OC _ _ _ (proj1 I7) (proj1 (proj2 I7)))) as [S8 B8]. cbv beta in S8.
  pose proof (step_inr _ _ _ _ _ _ _ _ S8 I7) as I8. clear I7.
  destruct (step_hash _ _ _ _ _ _ I8 B8 (OC _ _ _ (proj1 I8) (proj1 (proj2 I8))) (OC _ _ _ (proj1 I8) (proj1 (proj2 I8)))) as [S9 B9].
  cbv beta in S9. pose proof (step_inr _ _ _ _ _ _ _ _ S9 I8) as I9. clear I8.
  destruct (list_step (fun i => znth dv (vi_roots inp) i) ORt _ _ _ _ _ I9 B9 ltac:(intros x [])) as [st1 [S10 [B10 A10]]]. cbv beta in S10.
  pose proof (step_inr _ _ _ _ _ _ _ _ S10 I9) as I10. clear I9.
  destruct (list_step (fun _ => zerov) (fun _ row n _ _ => Oz row n) _ _ _ _ _ I10 B10 ltac:(intros x [])) as [st2 [S11 [B11 A11]]]. cbv beta in S11.
  pose proof (step_inr _ _ _ _ _ _ _ _ S11 I10) as I11. clear I10.
  destruct (pows_step _ _ _ _ _ _ I11 A11 ltac:(intros x [])) as [xs [S12 B12]]. cbn [app] in S12, B12. cbv beta in S12.
  pose proof (step_inr _ _ _ _ _ _ _ _ S12 I11) as I12. clear I11.
  match type of I12 with inr (pfold ?l _ _ ?k) ?row ?n =>
    pose proof (idx_step xs l k row n (proj1 I12) (proj1 (proj2 I12)) B12) as S13 end. cbv beta in S13.
  pose proof (step_inr _ _ _ _ _ _ _ _ S13 I12) as I13. clear I12.
  match type of I13 with inr (pfold ?l _ _ ?k) ?row ?n =>
    pose proof (cols_step (fun i => pcol_in r inp zerov i xs (snd st1)) l k row n) as S14 end. cbv beta in S14.
  match type of S14 with ?A -> _ => assert (OC14 : A) end.
  { pose proof (st_row _ _ _ _ _ _ _ _ S11) as R11. pose proof (st_row _ _ _ _ _ _ _ _ S12) as R12. pose proof (st_row _ _ _ _ _ _ _ _ S13) as R13.
    pose proof I13 as [X13 [Y13 _]].
    assert (OX : forall row' x, row0 + ps + ps + ps + ps + ps * zlen (zseq 0 8) + ps + ps + ps + ps * zlen (zseq 0 r) + ps * zlen (zseq 0 lam) + cp_rows w pow * zlen (zseq 0 lam) <= row' -> In x xs -> od row' 0 x)
      by (intros row' x Hx Hi; apply (od_mono _ _ _ _ _ (B12 x Hi)); lia).
    assert (OA : forall row' x, row0 + ps + ps + ps + ps + ps * zlen (zseq 0 8) + ps + ps + ps + ps * zlen (zseq 0 r) <= row' -> In x (snd st1) -> od row' 0 x)
      by (intros row' x Hx Hi; apply (od_mono _ _ _ _ _ (A10 x Hi)); lia).
    intros i row' v Hr' Hv. unfold pcol_in in Hv. cbn [cl_x cl_ys cl_bs cl_al] in Hv. destruct Hv as [<-|Hv].
    - apply od_znth. intros x Hx. apply OX; [lia|exact Hx].
    - apply in_app_or in Hv as [Hv|Hv]; [|apply in_app_or in Hv as [Hv|Hv]].
      + destruct Hv as [<-|[<-|Hv]]; [apply Oz|apply Oz|]. apply in_flat_map in Hv as [j [_ [<-|[<-|[]]]]]; (apply od_in2; [cbn [In]; tauto|lia|lia]).
      + destruct Hv as [<-|Hv]; [apply Oz|]. apply in_map_iff in Hv as [j [<- _]]. apply od_in2; [cbn [In]; tauto|lia|lia].
      + apply in_map_iff in Hv as [j [<- _]]. apply od_znth. intros x Hx. apply OA; [lia|exact Hx]. }
  specialize (S14 OC14).
  pose proof (step_inr _ _ _ _ _ _ _ _ S14 I13) as I14. clear I13.
  change (zlen (zseq 0 8)) with 8 in *. rewrite !(zlen_zseq0 lam Hlam) in *. rewrite (zlen_zseq0 r Hr) in *.
  assert (B14 : od (row0 + ps + ps + ps + ps + ps * 8 + ps + ps + ps + ps * r + ps * lam + cp_rows w pow * lam + xi_rows w m * lam + cl_rows w r * lam) 0 (fst st2)).
  { apply (od_mono _ _ _ _ _ B11); [|lia]. pose proof (st_row _ _ _ _ _ _ _ _ S12). pose proof (st_row _ _ _ _ _ _ _ _ S13).
    pose proof (st_row _ _ _ _ _ _ _ _ S14). lia. }
  destruct (queries_step (zseq 0 lam) (fst st2) (fun _ => PEnd) _ _ I14 B14) as [last' [n' S15]].
  rewrite (zlen_zseq0 lam Hlam) in S15. cbv beta in S15. exists n', xs, (snd st1).
  pose proof (step_trans _ _ _ _ _ _ _ _ _ _ _ _ _ S1 (step_trans _ _ _ _ _ _ _ _ _ _ _ _ _ S2 (step_trans _ _ _ _ _ _ _ _ _ _ _ _ _ S3
    (step_trans _ _ _ _ _ _ _ _ _ _ _ _ _ S4 (step_trans _ _ _ _ _ _ _ _ _ _ _ _ _ S5 (step_trans _ _ _ _ _ _ _ _ _ _ _ _ _ S6
    (step_trans _ _ _ _ _ _ _ _ _ _ _ _ _ S7 (step_trans _ _ _ _ _ _ _ _ _ _ _ _ _ S8 (step_trans _ _ _ _ _ _ _ _ _ _ _ _ _ S9
    (step_trans _ _ _ _ _ _ _ _ _ _ _ _ _ S10 (step_trans _ _ _ _ _ _ _ _ _ _ _ _ _ S11 (step_trans _ _ _ _ _ _ _ _ _ _ _ _ _ S12
    (step_trans _ _ _ _ _ _ _ _ _ _ _ _ _ S13 (step_trans _ _ _ _ _ _ _ _ _ _ _ _ _ S14 S15)))))))))))))) as S.
  eapply step_at; [eapply step_conv; [exact S| |]|unfold vrows; lia|reflexivity].
  - clear - Hlam Hz Hr1. intros [V1 [V2 [V3 [V4 [V5 [V6 [_ [V8 [V9 [V10 [V11 [V12 _]]]]]]]]]]]].
    cbn [fst snd] in V10, V11.
    assert (TH : vval T (hout c (row0 + ps + ps + ps + ps + ps * 8 + ps + ps)) = fri_start H (vval T vk0v) (vval T vk1v) prf).
    { unfold fri_start. rewrite !absorb_app. change (map (fun _ : Z => (f0, f0)) (zseq 0 8)) with (repeat (f0 : F, f0 : F) 8) in V5.
      cbn [absorb fst snd]. rewrite V9, V8, V6, V5, V4, V3, V2, V1, Hz. reflexivity. }
    destruct V10 as [V10 V10']. destruct V11 as [_ V11]. rewrite V10, TH in V11. rewrite TH in V10'.
    split; [exact V10'|]. intros i Hi. cbn [map app] in V11. rewrite Hz in V11.
    pose proof (Forall2_zseq _ dv _ _ _ V12 i Hi) as K. cbv beta in K.
    assert (EX : vval T (znth dv (snd st2) i) = znth f0 (fri_xs H lam r (vval T vk0v) (vval T vk1v) prf) i).
    { assert (V11' : map (vval T) (snd st2) = fri_xs H lam r (vval T vk0v) (vval T vk1v) prf) by exact V11. rewrite <- V11'. symmetry. apply (znth_map _ _ (vval T) dv).
      apply (f_equal (@length F)) in V11. rewrite map_length, squeeze_length, map_length, zseq_length in V11. unfold zlen. lia. }
    rewrite EX in K. exact K.
  - clear - Hlam Hz Hr1. intros [V1 [V2 [V3 [V4 [V5 [V6 [_ [_ [_ [_ [_ _]]]]]]]]]]].
    assert (TR : absorb H f0 ([(vval T vk0v, vval T vk1v); (pr_comm prf 0, f0); (f0, f0); (pr_comm prf 1, f0)] ++
             repeat (f0, f0) 8 ++ [(pr_comm prf 2, f0)]) =
             vval T (hout c (row0 + ps + ps + ps + ps + ps * 8))).
    { rewrite !absorb_app. change (map (fun _ : Z => (f0, f0)) (zseq 0 8)) with (repeat (f0 : F, f0 : F) 8) in V5.
      cbn [absorb fst snd]. rewrite V6, V5, V4, V3, V2, V1, Hz. reflexivity. }
    unfold verifier_checks, transcript_ok. rewrite TR. split.
    + intros [_ [_ [_ [_ [_ [_ [Q7 [_ [_ [_ [_ [_ [Q13 [Q14 Q15]]]]]]]]]]]]]]. split.
      * split; [exact Q7|]. intros i Hi. apply qq_iff. apply Q15. apply in_zseq. exact Hi.
      * intros i Hi. split; [apply Q13; apply in_zseq; exact Hi|apply Q14; apply in_zseq; exact Hi].
    + intros [[Q7 Q15] QI]. repeat (split; [exact I|]). split; [exact Q7|]. repeat (split; [exact I|]).
      split; [intros i Hi; apply in_zseq in Hi; apply QI; exact Hi|]. split; [intros i Hi; apply in_zseq in Hi; apply QI; exact Hi|].
      intros i Hi. apply qq_iff. apply Q15. apply in_zseq in Hi. exact Hi.
Qed.
End Walk.
