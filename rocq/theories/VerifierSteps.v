(** Programs of component calls: what a satisfied circuit says about each call,
    and how to fill a table so that only the comparisons are left to check. *)
From Coq Require Import ZArith List Lia Bool Ring Field.
From Verif Require Import Base Field Plonk PlonkFacts Bits FlexModel FlexProofs FlexPow PowerProofs PoseidonModel PoseidonProofs
  Props_Flex ColinearProofs VerifierModel.
Import ListNotations.
Open Scope Z_scope.

(** What is known of a power, and asked of the arguments of x_index and
    colinear_checks. *)
Record mode (P : params) := mkMode {
  md_pow : F P -> F P -> Prop;
  md_idx : F P -> list (F P) -> Prop;
  md_col : F P -> list (F P) -> list (F P) -> list (F P) -> Prop }.
Arguments mkMode {P}. Arguments md_pow {P}. Arguments md_idx {P}. Arguments md_col {P}.
Definition m_any {P} : mode P := mkMode (fun _ _ => True) (fun _ _ => True) (fun _ _ _ _ => True).
Definition m_zero {P} : mode P := mkMode (fun _ y => y = f0) (fun x _ => x = f0) (fun _ _ _ _ => True).

Section Steps.
Variable P : params.
Notation F := (F P).
Notation table := (table P).
Add Field Ff : (F_field P) (morphism (F_morph P), constants [F_const], power_tac (F_power P) [F_pow_tac]).
Variable L : lenv P.
Variable mds rc : Z -> Z -> F.
Variable c : comp.
Variable w : Z.
Variable pow : Z.
Variable omega : F.
Variable r : Z.
Variable sw : Z -> comp * Z.
Hypothesis Hwf : wf_comp c w.
Hypothesis H9 : 9 <= w.
Hypothesis HM : w mod 3 = 0.
Hypothesis Hpow : 0 < pow.
Hypothesis Hcp : cp_constructs pow = true.
Hypothesis Hr : 0 <= r.

Notation cmpl := (compile mds rc [] c pow omega r sw).
Notation ndr := (endr c pow r sw).

Definition hash3 (a b d : F) : F := snd (ps_state mds rc (a, b, d) rounds).
Definition so1 (n : Z) : var := fst (fs_out (fst (sw n)) (snd (sw n))).
Definition so2 (n : Z) : var := snd (fs_out (fst (sw n)) (snd (sw n))).
Definition is_bit (x : F) : Prop := x = f0 \/ x = f1.
Definition swapped (b x y o1 o2 : F) : Prop :=
  o1 = (if feqb b f0 then x else y) /\ o2 = (if feqb b f0 then y else x).

(** Results of the calls. *)
Fixpoint defs (z : mode P) (T : table) (p : prog) (row n : Z) : Prop :=
  match p with
  | PEnd => True
  | PHash a b d k =>
      vval T (hout c row) = hash3 (vval T a) (vval T b) (vval T d) /\
      defs z T (k (hout c row)) (row + fp_rows (wamount c)) n
  | PSwap b x y k =>
      (is_bit (vval T b) -> swapped (vval T b) (vval T x) (vval T y) (vval T (so1 n)) (vval T (so2 n))) /\
      defs z T (k (so1 n) (so2 n)) row (n + 1)
  | PCopy a b k => defs z T k row n
  | PPow x k =>
      md_pow z (vval T x) (vval T (cp_out c pow row)) /\
      defs z T (k (cp_out c pow row)) (row + cp_rows (wamount c) pow) n
  | PIdx x bs k => defs z T k (row + xi_rows (wamount c) (zlen bs)) n
  | PCol inp k => defs z T k (row + cl_rows (wamount c) r) n
  end.
(** Comparisons. *)
Fixpoint oks (z : mode P) (T : table) (p : prog) (row n : Z) : Prop :=
  match p with
  | PEnd => True
  | PHash a b d k => oks z T (k (hout c row)) (row + fp_rows (wamount c)) n
  | PSwap b x y k => is_bit (vval T b) /\ oks z T (k (so1 n) (so2 n)) row (n + 1)
  | PCopy a b k => vval T a = vval T b /\ oks z T k row n
  | PPow x k => oks z T (k (cp_out c pow row)) (row + cp_rows (wamount c) pow) n
  | PIdx x bs k => md_idx z (vval T x) (map (vval T) bs) /\ oks z T k (row + xi_rows (wamount c) (zlen bs)) n
  | PCol inp k =>
      md_col z (vval T (cl_x inp)) (map (vval T) (cl_ys inp)) (map (vval T) (cl_bs inp)) (map (vval T) (cl_al inp)) /\ oks z T k (row + cl_rows (wamount c) r) n
  end.

Lemma Hw : wamount c = w.
Proof. exact (proj1 (proj2 Hwf)). Qed.

Lemma fp_rows_pos : 1 <= fp_rows w.
Proof. destruct (fp_amounts w ltac:(lia) HM) as [C1 [EW [G0 [R0 [G1 R1]]]]]. unfold rounds in *. nia. Qed.
Lemma cp_rows_nn : 0 <= cp_rows w pow.
Proof. destruct (cp_rows_spec w pow ltac:(lia) ltac:(lia) Hcp) as [_ [R0 R1]]. exact R0. Qed.
Lemma xi_rows_nn : forall n, 0 <= n -> 0 <= xi_rows w n.
Proof. intros n Hn. apply (xi_rows_spec w n ltac:(lia) Hn). Qed.
Lemma cl_rows_nn : 0 <= cl_rows w r.
Proof.
  unfold cl_rows. destruct (ceil_rows_spec (5 * r + 4 - 4) ((w - 4) / 5)) as [R0 _]; [|lia|exact R0].
  apply Z.div_str_pos. lia.
Qed.

Lemma endr_ge : forall p row n, row <= ndr p row n.
Proof.
  pose proof fp_rows_pos. pose proof cp_rows_nn. pose proof cl_rows_nn.
  induction p as [|a b d k IH|b x y k IH|a b k IH|x k IH|x bs k IH|inp k IH]; intros row n; cbn [endr]; rewrite ?Hw; cbv zeta.
  - lia.
  - specialize (IH (hout c row) (row + fp_rows w) n). lia.
  - apply IH.
  - apply IH.
  - specialize (IH (cp_out c pow row) (row + cp_rows w pow) n). lia.
  - specialize (IH (row + xi_rows w (zlen bs)) n). pose proof (xi_rows_nn (zlen bs) (zlen_nonneg _ bs)). lia.
  - specialize (IH (row + cl_rows w r) n). lia.
Qed.

(** ** A satisfied circuit *)

Lemma fs_swapped : forall T cs b x y row, sat L T (fs_circuit cs b x y row) ->
  is_bit (vval T b) /\
  swapped (vval T b) (vval T x) (vval T y) (vval T (fst (fs_out cs row))) (vval T (snd (fs_out cs row))).
Proof.
  intros T cs b x y row H. destruct (fs_sound_l P L T cs b x y row H) as [[E [E1 E2]]|[E [E1 E2]]].
  - split; [left; exact E|]. unfold swapped. rewrite E, feqb_refl. split; assumption.
  - split; [right; exact E|]. unfold swapped. rewrite E.
    replace (feqb (f1 : F) f0) with false; [split; assumption|].
    symmetry. apply Bool.not_true_iff_false. intros K. apply feqb_eq in K. exact (f1_neq_f0 P K).
Qed.

Lemma compile_sound : forall p row n T, sat L T (cmpl p row n) -> defs m_any T p row n /\ oks m_any T p row n.
Proof.
  induction p as [|a b d k IH|b x y k IH|a b k IH|x k IH|x bs k IH|inp k IH]; intros row n T H; cbn [compile defs oks] in *.
  - split; exact I.
  - rewrite sat_app in H. destruct H as [H1 H2]. destruct (IH _ _ _ _ H2) as [D O].
    pose proof (fp_sound_l P L mds rc T c w (a, b, d) row Hw ltac:(lia) HM H1) as E.
    split; [|exact O]. split; [|exact D]. unfold hash3. exact (f_equal snd E).
  - cbv zeta in H. rewrite sat_app in H. destruct H as [H1 H2]. destruct (IH _ _ _ _ _ H2) as [D O].
    apply fs_swapped in H1. destruct H1 as [B S]. split; [|split; [exact B|exact O]]. split; [|exact D]. intros _. exact S.
  - rewrite sat_cons in H. destruct H as [H1 H2]. destruct (IH _ _ _ H2) as [D O]. split; [exact D|]. split; [exact H1|exact O].
  - rewrite sat_app in H. destruct H as [H1 H2]. destruct (IH _ _ _ _ H2) as [D O]. split; [|exact O]. split; [exact I|exact D].
  - rewrite sat_app in H. destruct H as [H1 H2]. destruct (IH _ _ _ H2) as [D O]. split; [exact D|]. split; [exact I|exact O].
  - rewrite sat_app in H. destruct H as [H1 H2]. destruct (IH _ _ _ H2) as [D O]. split; [exact D|]. split; [exact I|exact O].
Qed.

(** ** Cells *)

Variable row0 e : Z.
Hypothesis Hsw : forall k, 0 <= k -> wf_comp (fst (sw k)) 5.
Hypothesis Hsep : forall k col, 0 <= k -> In col (cWs c) -> In col (cWs (fst (sw k))) -> ~ row0 <= snd (sw k) < e.
Hypothesis Hdis : forall k k' col, 0 <= k -> 0 <= k' -> k <> k' ->
  In col (cWs (fst (sw k))) -> In col (cWs (fst (sw k'))) -> snd (sw k) <> snd (sw k').

(** Cells not yet written at [row] and swap [n]. *)
Definition free (row n : Z) (ty : ctype) (col rw : Z) : Prop :=
  ty = CWit /\ ((In col (cWs c) /\ row <= rw < e) \/ exists k, n <= k /\ In col (cWs (fst (sw k))) /\ rw = snd (sw k)).
Definition keeps (row n : Z) (T T' : table) : Prop :=
  forall ty col rw, ~ free row n ty col rw -> T' ty col rw = T ty col rw.
Definition old (row n : Z) (v : var) : Prop := ~ free row n (vty v) (vidx v) (vrot v).

Lemma free_mono : forall row n row' n' ty col rw, row <= row' -> n <= n' -> free row' n' ty col rw -> free row n ty col rw.
Proof.
  intros row n row' n' ty col rw H1 H2 [Ht [[Hc Hrw]|[k [Hk X]]]]; split; try exact Ht.
  - left. split; [exact Hc|lia].
  - right. exists k. split; [lia|exact X].
Qed.
Lemma old_mono : forall row n row' n' v, row <= row' -> n <= n' -> old row n v -> old row' n' v.
Proof. intros row n row' n' v H1 H2 H K. apply H. exact (free_mono _ _ _ _ _ _ _ H1 H2 K). Qed.
Lemma keeps_vval : forall row n T T' v, keeps row n T T' -> old row n v -> vval T' v = vval T v.
Proof. intros row n T T' v K O. unfold vval. apply K. exact O. Qed.
Lemma keeps_const : forall row n T T' col rw, keeps row n T T' -> T' CConst col rw = T CConst col rw.
Proof. intros row n T T' col rw K. apply K. intros [Ht _]. discriminate. Qed.
Lemma keeps_consts_in : forall row n T T' cs, keeps row n T T' -> consts_in T cs -> consts_in T' cs.
Proof. intros row n T T' cs K H col rw v Hin. rewrite (keeps_const row n T T' col rw K). apply H. exact Hin. Qed.
Lemma frame_keeps : forall row n T T' rows, frame c rows row T T' -> row + rows <= e -> keeps row n T T'.
Proof.
  intros row n T T' rows HF HE ty col rw NF. apply HF. intros [-> [Hc Hrw]]. apply NF. split; [reflexivity|]. left. split; [exact Hc|lia].
Qed.
Lemma keeps_trans : forall row n row' n' T T1 T', row <= row' -> n <= n' -> keeps row n T T1 -> keeps row' n' T1 T' -> keeps row n T T'.
Proof.
  intros row n row' n' T T1 T' H1 H2 K1 K2 ty col rw NF. rewrite K2; [apply K1; exact NF|].
  intros K. apply NF. exact (free_mono _ _ _ _ _ _ _ H1 H2 K).
Qed.
Lemma old_outside : forall row n rows v, row + rows <= e -> old row n v -> outside c rows row v.
Proof.
  intros row n rows v HE O [Ht [Hc Hrw]]. apply O. split; [exact Ht|]. left. split; [exact Hc|lia].
Qed.
Lemma old_outside_sw : forall row n v, old row n v -> outside (fst (sw n)) 1 (snd (sw n)) v.
Proof.
  intros row n v O [Ht [Hc Hrw]]. apply O. split; [exact Ht|]. right. exists n. split; [lia|]. split; [exact Hc|lia].
Qed.
(** A cell of an earlier row of the instance is kept. *)
Lemma keeps_W : forall row n T T' j rw, keeps row n T T' -> 0 <= n -> row0 <= rw < row -> row <= e ->
  T' CWit (W c j) rw = T CWit (W c j) rw.
Proof.
  intros row n T T' j rw K Hn H1 H2. apply K. intros [_ [[_ X]|[k [Hk [Hc X]]]]]; [lia|].
  apply (Hsep k (W c j)); [lia|exact (W_In c w j Hwf)|exact Hc|lia].
Qed.
Lemma old_W : forall row n j rw, 0 <= n -> row0 <= rw < row -> row <= e -> old row n (wcell (W c j) rw).
Proof.
  intros row n j rw Hn H1 H2 [_ [[_ X]|[k [Hk [Hc X]]]]]; cbn [wcell vty vidx vrot] in *; [lia|].
  apply (Hsep k (W c j)); [lia|exact (W_In c w j Hwf)|exact Hc|lia].
Qed.
Lemma old_sw : forall row n j k, 0 <= k < n -> row0 <= row -> old row n (wcell (W (fst (sw k)) j) (snd (sw k))).
Proof.
  intros row n j k Hk H1 [_ [[Hc X]|[k' [Hk' [Hc X]]]]]; cbn [wcell vty vidx vrot] in *;
    pose proof (W_In _ 5 j (Hsw k ltac:(lia))) as HI.
  - apply (Hsep k (W (fst (sw k)) j)); [lia|exact Hc|exact HI|lia].
  - exact (Hdis k k' _ ltac:(lia) ltac:(lia) ltac:(lia) HI Hc X).
Qed.
Lemma old_const : forall row n col rw, old row n (ccell col rw).
Proof. intros row n col rw [Ht _]. discriminate. Qed.

(** ** Scoping *)

(** Every argument is available when the call is made. *)
Fixpoint scoped (p : prog) (row n : Z) : Prop :=
  match p with
  | PEnd => True
  | PHash a b d k =>
      old row n a /\ old row n b /\ old row n d /\ scoped (k (hout c row)) (row + fp_rows (wamount c)) n
  | PSwap b x y k => old row n b /\ old row n x /\ old row n y /\ scoped (k (so1 n) (so2 n)) row (n + 1)
  | PCopy a b k => old row n a /\ old row n b /\ scoped k row n
  | PPow x k => old row n x /\ scoped (k (cp_out c pow row)) (row + cp_rows (wamount c) pow) n
  | PIdx x bs k => old row n x /\ (forall b, In b bs -> old row n b) /\ scoped k (row + xi_rows (wamount c) (zlen bs)) n
  | PCol inp k =>
      (forall v, In v (cl_x inp :: cl_ys inp ++ cl_bs inp ++ cl_al inp) -> old row n v) /\ scoped k (row + cl_rows (wamount c) r) n
  end.

(** ** Filling *)

Lemma build_hash : forall T T' ins row n, row0 <= row -> 0 <= n -> row + fp_rows w <= e ->
  old row n (fst (fst ins)) -> old row n (snd (fst ins)) -> old row n (snd ins) ->
  keeps (row + fp_rows w) n (fp_assign mds rc c ins row T) T' ->
  sat L T' (fp_circuit mds rc [] c ins row).
Proof.
  intros T T' ins row n HR Hn HE O0 O1 O2 K. pose proof fp_rows_pos as RP.
  destruct (fp_complete_l P L mds rc T c w ins row Hwf ltac:(lia) HM) as [S [FR _]];
    [apply (old_outside row n); assumption..|].
  set (T1 := fp_assign mds rc c ins row T) in *. rewrite (fp_circuit_iff P L mds rc T1 c w ins row Hw ltac:(lia) HM) in S.
  apply (fp_circuit_iff P L mds rc T' c w ins row Hw ltac:(lia) HM). destruct S as [S1 S2].
  destruct (fp_amounts w ltac:(lia) HM) as [C1 [EW [G0 [R0 [G1 R1]]]]].
  assert (A : forall k j, 0 <= k < rounds + 1 -> ps_at P T' c (fp_cap w) row k j = ps_at P T1 c (fp_cap w) row k j).
  { intros k j Hk. unfold ps_at. assert (0 <= k / fp_cap w) by (apply Z.div_pos; lia).
    assert (k / fp_cap w < fp_rows w) by (apply Z.div_lt_upper_bound; lia).
    apply (keeps_W (row + fp_rows w) n); [exact K|lia|lia|lia]. }
  assert (IE : ps_input T' ins = ps_input T1 ins).
  { unfold ps_input. rewrite !(keeps_vval (row + fp_rows w) n T1 T') by
      (first [exact K | apply (old_mono row n); [lia|lia|assumption]]). reflexivity. }
  split.
  - intros k Hk j Hj. rewrite !A by lia. apply S1; lia.
  - intros j Hj. rewrite A, IE by (unfold rounds; lia). apply S2. exact Hj.
Qed.

Lemma build_pow : forall T x row n, row0 <= row -> 0 <= n -> row + cp_rows w pow <= e -> old row n x ->
  exists T1, keeps row n T T1 /\ vval T1 (cp_out c pow row) = f0 /\
    forall T', keeps (row + cp_rows w pow) n T1 T' ->
      vval T' (cp_out c pow row) = f0 /\ sat L T' (cp_circuit c pow x row).
Proof.
  intros T x row n HR Hn HE O. destruct (cp_zero_l P L T c w pow x row Hwf ltac:(lia) Hpow Hcp) as [T1 [S [FR Z0]]];
    [apply (old_outside row n); assumption|].
  exists T1. split; [exact (frame_keeps row n T T1 _ FR HE)|]. split; [exact Z0|]. intros T' K.
  destruct (cp_rows_spec w pow ltac:(lia) ltac:(lia) Hcp) as [_ [R0 R1]]. pose proof (cp_len_pos pow Hpow) as LP.
  assert (KW : forall i j, 0 <= i < cp_rows w pow -> T' CWit (W c j) (row + i) = T1 CWit (W c j) (row + i)).
  { intros i j Hi. apply (keeps_W (row + cp_rows w pow) n); [exact K|lia|lia|lia]. }
  split.
  - rewrite <- Z0. unfold cp_out. rewrite Hw, !vval_wcell.
    replace (row + cp_rows w pow - 1) with (row + (cp_rows w pow - 1)) by lia. apply KW. nia.
  - apply (cp_circuit_iff P L T1 c w pow x row Hw ltac:(lia) ltac:(lia) Hcp) in S. destruct S as [S1 [S2 S3]].
    apply (cp_circuit_iff P L T' c w pow x row Hw ltac:(lia) ltac:(lia) Hcp).
    split; [|split].
    + intros k Hk. assert (Q : 0 <= k / (w - 2) < cp_rows w pow)
        by (split; [apply Z.div_pos; lia|apply Z.div_lt_upper_bound; lia]).
      rewrite !KW by exact Q. apply S1. exact Hk.
    + intros i Hi. rewrite KW by exact Hi. rewrite (keeps_vval _ n T1 T' x K); [apply S2; exact Hi|].
      apply (old_mono row n); [lia|lia|exact O].
    + intros i Hi. rewrite KW by lia. replace (row + i - 1) with (row + (i - 1)) by lia. rewrite KW by lia.
      replace (row + (i - 1)) with (row + i - 1) by lia. apply S3. exact Hi.
Qed.

(** All running values zero. *)
Definition xi_zero (T : table) (bs : list var) (i j : Z) : F :=
  let k := i * xi_per w + j / 2 in
  if j mod 2 =? 0 then f0 else vval T (znth (wcell 0 0) bs (zlen bs - k)).

Lemma build_idx : forall T x bs row n, row0 <= row -> 0 <= n -> row + xi_rows w (zlen bs) <= e ->
  old row n x -> (forall b, In b bs -> old row n b) ->
  consts_in T (xi_circuit c omega x bs row) ->
  exists T1, keeps row n T T1 /\
    forall T', keeps (row + xi_rows w (zlen bs)) n T1 T' -> vval T' x = f0 -> sat L T' (xi_circuit c omega x bs row).
Proof.
  intros T x bs row n HR Hn HE Ox Ob HC. pose proof (zlen_nonneg _ bs) as LN.
  destruct (xi_rows_spec w (zlen bs) ltac:(lia) LN) as [P1 [P2 [R0 [R1 R2]]]].
  set (rows := xi_rows w (zlen bs)) in *. set (per := xi_per w) in *.
  set (T1 := wsets T (grid c row rows w (xi_zero T bs))).
  assert (FR : frame c rows row T T1) by (apply (grid_frame P T c w); exact Hwf).
  exists T1. split; [exact (frame_keeps row n T T1 _ FR HE)|]. intros T' K Z0.
  assert (RD : forall i j, 0 <= i < rows -> 0 <= j < w -> T' CWit (W c j) (row + i) = xi_zero T bs i j).
  { intros i j Hi Hj. rewrite (keeps_W (row + rows) n T1 T' j (row + i)) by (first [exact K|lia]).
    apply (grid_read P T c w); [exact Hwf|lia|lia|lia]. }
  assert (EV : forall i b, 0 <= i < rows -> 0 <= b <= per -> T' CWit (W c (b * 2)) (row + i) = f0).
  { intros i b Hi Hb. rewrite RD by lia. unfold xi_zero. cbv zeta. rewrite Z.mod_mul by lia. reflexivity. }
  assert (OD : forall i b, 0 <= i < rows -> 0 <= b < per ->
     T' CWit (W c (b * 2 + 1)) (row + i) = vval T (znth (wcell 0 0) bs (zlen bs - (i * per + b)))).
  { intros i b Hi Hb. rewrite RD by lia. unfold xi_zero. cbv zeta. fold per.
    replace ((b * 2 + 1) mod 2) with 1 by (apply (Z.mod_unique _ _ b); lia).
    replace ((b * 2 + 1) / 2) with b by (apply (Z.div_unique _ _ _ 1); lia). reflexivity. }
  assert (DV : forall k, 0 <= k < rows * per -> 0 <= k / per < rows /\ 0 <= k mod per < per /\ k / per * per + k mod per = k).
  { intros k Hk. pose proof (Z.div_mod k per ltac:(lia)). pose proof (Z.mod_pos_bound k per ltac:(lia)).
    split; [split; [apply Z.div_pos; lia|apply Z.div_lt_upper_bound; lia]|]. lia. }
  apply (xi_circuit_iff P L T' c w omega x bs row Hw ltac:(lia)). cbv zeta. fold per rows.
  split; [|split; [|split; [|split]]].
  - intros k Hk. destruct (DV k Hk) as [Q [M _]]. replace (k mod per * 2 + 2) with ((k mod per + 1) * 2) by lia.
    rewrite !EV by lia. ring.
  - intros i Hi. replace (row + i - 1) with (row + (i - 1)) by lia. rewrite EV by lia.
    replace 0 with (0 * 2) by lia. rewrite EV by lia. reflexivity.
  - intros k Hk Hk2. destruct (DV k ltac:(lia)) as [Q [M D]]. unfold xi_bit. rewrite OD by lia. rewrite D.
    assert (OB : old row n (znth (wcell 0 0) bs (zlen bs - k))) by (apply Ob; apply znth_In; lia).
    rewrite (keeps_vval _ n T1 T' _ K) by (apply (old_mono row n); [lia|lia|exact OB]).
    apply (vval_frame P c rows row T T1 _ FR). apply (old_outside row n); assumption.
  - intros Hk. rewrite Z0. rewrite (xi_next P) by lia. destruct (DV (zlen bs) ltac:(lia)) as [Q [M _]].
    replace (zlen bs mod per * 2 + 2) with ((zlen bs mod per + 1) * 2) by lia. rewrite EV by lia. reflexivity.
  - intros i Hi. rewrite (keeps_const _ n T1 T' _ _ K). rewrite (FR CConst) by (intros [? _]; discriminate).
    apply (HC (C c 0) (row + i) omega). unfold xi_circuit. rewrite Hw. fold rows. right. apply in_or_app. right.
    apply (in_map (fun i => SetConst (C c 0) (row + i) omega)). apply in_zseq. lia.
Qed.

Lemma build_col : forall T row n, row0 <= row -> 0 <= n -> row + cl_rows w r <= e ->
  exists T1, keeps row n T T1 /\
    forall T', keeps (row + cl_rows w r) n T1 T' -> sat L T' (cl_circuit c r row).
Proof.
  intros T row n HR Hn HE. set (T1 := wsets T (grid c row (cl_rows w r) w (fun _ _ => (f0 : F)))).
  assert (FR : frame c (cl_rows w r) row T T1) by (apply (grid_frame P T c w); exact Hwf).
  exists T1. split; [exact (frame_keeps row n T T1 _ FR HE)|]. intros T' K. unfold cl_circuit. rewrite Hw.
  rewrite sat_cons. split; [|apply sat_nil]. intros rw Hrw ex Hex. apply in_zseq in Hrw.
  assert (RD : forall j, 0 <= j < w -> T' CWit (W c j) rw = f0).
  { intros j Hj. replace rw with (row + (rw - row)) by lia.
    rewrite (keeps_W (row + cl_rows w r) n T1 T' j) by (first [exact K|lia]).
    apply (grid_read P T c w); [exact Hwf|lia|lia|lia]. }
  unfold cl_gate in Hex. rewrite Hw in Hex. apply in_map_iff in Hex. destruct Hex as [b [<- Hb]]. apply in_zseq in Hb.
  unfold cl_per in Hb. pose proof (Z.mul_div_le (w - 4) 5 ltac:(lia)).
  cbv zeta. rewrite !eval_bin, !eval_evar, !gval_wv, !Z.add_0_r. rewrite !RD by lia. cbn [ebop]. ring.
Qed.

Lemma build_swap : forall T b x y row n, row0 <= row -> 0 <= n ->
  old row n b -> old row n x -> old row n y ->
  let T1 := fs_assign (fst (sw n)) b x y (snd (sw n)) T in
  keeps row n T T1 /\
  forall T', keeps row (n + 1) T1 T' ->
    (is_bit (vval T' b) -> swapped (vval T' b) (vval T' x) (vval T' y) (vval T' (so1 n)) (vval T' (so2 n)) /\
       sat L T' (fs_circuit (fst (sw n)) b x y (snd (sw n)))).
Proof.
  intros T b x y row n HR Hn Ob Ox Oy T1. pose proof (Hsw n Hn) as Hs. set (cs := fst (sw n)) in *. set (rs := snd (sw n)) in *.
  assert (FR : frame cs 1 rs T T1).
  { unfold T1, fs_assign. cbv zeta. apply (wsets_frame P cs 5); [exact Hs|].
    intros col rw v Hin. cbn [In] in Hin. destruct Hin as [E|[E|[E|[E|[E|[]]]]]]; injection E as <- <- <-;
      (split; [eexists; reflexivity|lia]). }
  assert (KP : keeps row n T T1).
  { intros ty col rw NF. apply FR. intros [-> [Hc Hrw]]. apply NF. split; [reflexivity|]. right. exists n. split; [lia|]. split; [exact Hc|fold rs; lia]. }
  split; [exact KP|]. intros T' K Bt.
  assert (OM : forall v, old row n v -> old row (n + 1) v) by (intros v; apply old_mono; lia).
  assert (VE : forall v, old row n v -> vval T' v = vval T v).
  { intros v Hv. rewrite (keeps_vval row (n + 1) T1 T' v K (OM v Hv)). exact (keeps_vval row n T T1 v KP Hv). }
  rewrite !VE in Bt by assumption.
  destruct (fs_complete_l P L T cs b x y rs Hs) as [S _]; try (apply (old_outside_sw row n); assumption); [exact Bt|].
  fold T1 in S.
  assert (VC : forall j, T' CWit (W cs j) rs = T1 CWit (W cs j) rs).
  { intros j. pose proof (keeps_vval row (n + 1) T1 T' (wcell (W cs j) rs) K (old_sw row (n + 1) j n ltac:(lia) HR)) as E.
    rewrite !vval_wcell in E. exact E. }
  assert (S' : sat L T' (fs_circuit cs b x y rs)).
  { unfold fs_circuit in *. rewrite !sat_cons in *. destruct S as [S1 [S2 [S3 [S4 _]]]].
    split; [|split; [|split; [|split; [|apply sat_nil]]]].
    - rewrite holds_gate1 in *. intros ex Hex. specialize (S1 ex Hex). rewrite <- S1. unfold fs_gate in Hex. cbv zeta in Hex.
      cbn [In] in Hex. destruct Hex as [<-|[<-|[<-|[]]]]; rewrite !eval_bin, !eval_evar, !gval_wv, !Z.add_0_r, ?VC; reflexivity.
    - cbn [holds] in *. rewrite !vval_wcell, VC in *. rewrite VE by exact Ob. rewrite <- S2. symmetry. exact (keeps_vval row n T T1 b KP Ob).
    - cbn [holds] in *. rewrite !vval_wcell, VC in *. rewrite VE by exact Ox. rewrite <- S3. symmetry. exact (keeps_vval row n T T1 x KP Ox).
    - cbn [holds] in *. rewrite !vval_wcell, VC in *. rewrite VE by exact Oy. rewrite <- S4. symmetry. exact (keeps_vval row n T T1 y KP Oy). }
  split; [|exact S']. exact (proj2 (fs_swapped T' cs b x y rs S')).
Qed.

Lemma consts_app : forall (T : table) l1 l2, consts_in T (l1 ++ l2) -> consts_in T l1 /\ consts_in T l2.
Proof. intros T l1 l2 H. split; intros col rw v Hin; apply H; apply in_or_app; [left|right]; exact Hin. Qed.

Lemma build : forall p row n T, scoped p row n -> row0 <= row -> 0 <= n -> ndr p row n <= e ->
  consts_in T (cmpl p row n) ->
  exists T', keeps row n T T' /\ defs m_zero T' p row n /\ (oks m_zero T' p row n -> sat L T' (cmpl p row n)).
Proof.
  pose proof fp_rows_pos as RP. pose proof cp_rows_nn as RC. pose proof cl_rows_nn as RL.
  induction p as [|a b d k IH|b x y k IH|a b k IH|x k IH|x bs k IH|inp k IH]; intros row n T SC HR Hn HE HC;
    cbn [compile defs oks scoped endr] in *; rewrite ?Hw in *; cbv zeta in *.
  - exists T. split; [intros ? ? ? _; reflexivity|]. split; [exact I|]. intros _. apply sat_nil.
  - destruct SC as [Oa [Ob [Od SC]]]. pose proof (endr_ge (k (hout c row)) (row + fp_rows w) n) as GE.
    apply consts_app in HC. destruct HC as [_ HC]. set (T1 := fp_assign mds rc c (a, b, d) row T).
    destruct (fp_complete_l P L mds rc T c w (a, b, d) row Hwf ltac:(lia) HM) as [_ [FR _]];
      [apply (old_outside row n); [lia|assumption]..|]. fold T1 in FR.
    assert (K1 : keeps row n T T1) by (apply (frame_keeps row n T T1 _ FR); lia).
    destruct (IH _ (row + fp_rows w) n T1 SC ltac:(lia) Hn HE (keeps_consts_in _ _ _ _ _ K1 HC)) as [T' [K [D O]]].
    pose proof (build_hash T T' (a, b, d) row n HR Hn ltac:(lia) Oa Ob Od K) as S.
    exists T'. split; [exact (keeps_trans row n (row + fp_rows w) n T T1 T' ltac:(lia) ltac:(lia) K1 K)|]. split.
    + split; [|exact D]. pose proof (fp_sound_l P L mds rc T' c w (a, b, d) row Hw ltac:(lia) HM S) as E.
      unfold hash3. exact (f_equal snd E).
    + intros OK. rewrite sat_app. split; [exact S|exact (O OK)].
  - destruct SC as [Ob [Ox [Oy SC]]]. apply consts_app in HC. destruct HC as [_ HC].
    destruct (build_swap T b x y row n HR Hn Ob Ox Oy) as [K1 B]. set (T1 := fs_assign (fst (sw n)) b x y (snd (sw n)) T) in *.
    destruct (IH _ _ row (n + 1) T1 SC HR ltac:(lia) HE (keeps_consts_in _ _ _ _ _ K1 HC)) as [T' [K [D O]]].
    exists T'. split; [exact (keeps_trans row n row (n + 1) T T1 T' ltac:(lia) ltac:(lia) K1 K)|]. split.
    + split; [|exact D]. intros Bt. exact (proj1 (B T' K Bt)).
    + intros [Bt OK]. rewrite sat_app. split; [exact (proj2 (B T' K Bt))|exact (O OK)].
  - destruct SC as [Oa [Ob SC]].
    destruct (IH row n T SC HR Hn HE) as [T' [K [D O]]]; [intros col rw v Hin; apply HC; right; exact Hin|].
    exists T'. split; [exact K|]. split; [exact D|]. intros [E OK]. rewrite sat_cons. split; [exact E|exact (O OK)].
  - destruct SC as [Ox SC]. pose proof (endr_ge (k (cp_out c pow row)) (row + cp_rows w pow) n) as GE.
    apply consts_app in HC. destruct HC as [_ HC].
    destruct (build_pow T x row n HR Hn ltac:(lia) Ox) as [T1 [K1 [_ B]]].
    destruct (IH _ (row + cp_rows w pow) n T1 SC ltac:(lia) Hn HE (keeps_consts_in _ _ _ _ _ K1 HC)) as [T' [K [D O]]].
    destruct (B T' K) as [Z0 S].
    exists T'. split; [exact (keeps_trans row n (row + cp_rows w pow) n T T1 T' ltac:(lia) ltac:(lia) K1 K)|]. split.
    + split; [exact Z0|exact D].
    + intros OK. rewrite sat_app. split; [exact S|exact (O OK)].
  - destruct SC as [Ox [Ob SC]]. pose proof (endr_ge k (row + xi_rows w (zlen bs)) n) as GE.
    pose proof (xi_rows_nn (zlen bs) (zlen_nonneg _ bs)) as RX.
    apply consts_app in HC. destruct HC as [HC1 HC].
    destruct (build_idx T x bs row n HR Hn ltac:(lia) Ox Ob HC1) as [T1 [K1 B]].
    destruct (IH (row + xi_rows w (zlen bs)) n T1 SC ltac:(lia) Hn HE (keeps_consts_in _ _ _ _ _ K1 HC)) as [T' [K [D O]]].
    exists T'. split; [exact (keeps_trans row n (row + xi_rows w (zlen bs)) n T T1 T' ltac:(lia) ltac:(lia) K1 K)|]. split; [exact D|].
    intros [Z0 OK]. rewrite sat_app. split; [exact (B T' K Z0)|exact (O OK)].
  - destruct SC as [_ SC]. pose proof (endr_ge k (row + cl_rows w r) n) as GE. apply consts_app in HC. destruct HC as [_ HC].
    destruct (build_col T row n HR Hn ltac:(lia)) as [T1 [K1 B]].
    destruct (IH (row + cl_rows w r) n T1 SC ltac:(lia) Hn HE (keeps_consts_in _ _ _ _ _ K1 HC)) as [T' [K [D O]]].
    exists T'. split; [exact (keeps_trans row n (row + cl_rows w r) n T T1 T' ltac:(lia) ltac:(lia) K1 K)|]. split; [exact D|].
    intros [_ OK]. rewrite sat_app. split; [exact (B T' K)|exact (O OK)].
Qed.

(** ** The assignment *)

(** What the assignment computes and asks for. *)
Definition m_honest : mode P := mkMode
  (fun x y => y = zpow x (if cp_len pow mod (w - 2) =? 0 then pow / 4 ^ (w - 2) else pow))
  (fun x bs => exists zs, is_bits zs /\ bs = map (@ofZ P) zs /\ 1 <= zlen zs /\ zpow omega (2 ^ zlen zs) = fopp f1 /\
     (x = zpow omega (xindex zs) \/ x = fopp (zpow omega (xindex zs))))
  (fun x ys bs al => zlen ys = 2 * r + 2 /\ zlen bs = r + 1 /\ zlen al = r /\
     forall k, 0 <= k < r -> k mod cl_per w <> 0 ->
       folds (fexp x (2 ^ k)) (znth f0 bs k) (znth f0 ys (2 * k)) (znth f0 ys (2 * k + 1)) (znth f0 al k)
         (chosen (znth f0 bs (k + 1)) (znth f0 ys (2 * k + 2)) (znth f0 ys (2 * k + 3)))).

(** A satisfied call stays satisfied. *)
Lemma keep_pow : forall T1 T' x row n, row0 <= row -> 0 <= n -> row + cp_rows w pow <= e -> old row n x ->
  sat L T1 (cp_circuit c pow x row) -> keeps (row + cp_rows w pow) n T1 T' -> sat L T' (cp_circuit c pow x row).
Proof.
  intros T1 T' x row n HR Hn HE O S K.
  destruct (cp_rows_spec w pow ltac:(lia) ltac:(lia) Hcp) as [_ [R0 R1]]. pose proof (cp_len_pos pow Hpow) as LP.
  assert (KW : forall i j, 0 <= i < cp_rows w pow -> T' CWit (W c j) (row + i) = T1 CWit (W c j) (row + i)).
  { intros i j Hi. apply (keeps_W (row + cp_rows w pow) n); [exact K|lia|lia|lia]. }
  apply (cp_circuit_iff P L T1 c w pow x row Hw ltac:(lia) ltac:(lia) Hcp) in S. destruct S as [S1 [S2 S3]].
  apply (cp_circuit_iff P L T' c w pow x row Hw ltac:(lia) ltac:(lia) Hcp).
  split; [|split].
  - intros k Hk. assert (Q : 0 <= k / (w - 2) < cp_rows w pow)
      by (split; [apply Z.div_pos; lia|apply Z.div_lt_upper_bound; lia]).
    rewrite !KW by exact Q. apply S1. exact Hk.
  - intros i Hi. rewrite KW by exact Hi. rewrite (keeps_vval _ n T1 T' x K); [apply S2; exact Hi|].
    apply (old_mono row n); [lia|lia|exact O].
  - intros i Hi. rewrite KW by lia. replace (row + i - 1) with (row + (i - 1)) by lia. rewrite KW by lia.
    replace (row + (i - 1)) with (row + i - 1) by lia. apply S3. exact Hi.
Qed.
Lemma keep_idx : forall T1 T' x bs row n, row0 <= row -> 0 <= n -> row + xi_rows w (zlen bs) <= e ->
  old row n x -> (forall b, In b bs -> old row n b) ->
  sat L T1 (xi_circuit c omega x bs row) -> keeps (row + xi_rows w (zlen bs)) n T1 T' -> sat L T' (xi_circuit c omega x bs row).
Proof.
  intros T1 T' x bs row n HR Hn HE Ox Ob S K. pose proof (zlen_nonneg _ bs) as LN.
  destruct (xi_rows_spec w (zlen bs) ltac:(lia) LN) as [P1 [P2 [R0 [R1 R2]]]].
  apply (xi_circuit_iff P L T1 c w omega x bs row Hw ltac:(lia)) in S. cbv zeta in S.
  apply (xi_circuit_iff P L T' c w omega x bs row Hw ltac:(lia)). cbv zeta.
  set (rows := xi_rows w (zlen bs)) in *. set (per := xi_per w) in *.
  assert (KW : forall i j, 0 <= i < rows -> T' CWit (W c j) (row + i) = T1 CWit (W c j) (row + i)).
  { intros i j Hi. apply (keeps_W (row + rows) n); [exact K|lia|lia|lia]. }
  assert (DV : forall k, 0 <= k < rows * per -> 0 <= k / per < rows).
  { intros k Hk. split; [apply Z.div_pos; lia|apply Z.div_lt_upper_bound; lia]. }
  assert (OV : forall v, old row n v -> vval T' v = vval T1 v)
    by (intros v Hv; apply (keeps_vval _ n _ _ _ K); apply (old_mono row n); [lia|lia|exact Hv]).
  assert (KB : forall k, 0 <= k < rows * per -> xi_bit P T' c per row k = xi_bit P T1 c per row k)
    by (intros k Hk; unfold xi_bit; apply KW, DV, Hk).
  destruct S as [S1 [S2 [S3 [S4 S5]]]]. split; [|split; [|split; [|split]]].
  - intros k Hk. rewrite KB, !KW by (first [exact Hk|apply DV; exact Hk]). apply S1. exact Hk.
  - intros i Hi. replace (row + i - 1) with (row + (i - 1)) by lia. rewrite !KW by lia.
    replace (row + (i - 1)) with (row + i - 1) by lia. apply S2. exact Hi.
  - intros k Hk Hk2. rewrite KB by lia. rewrite OV by (apply Ob; apply znth_In; lia). apply S3; assumption.
  - intros Hk. rewrite OV by exact Ox. rewrite (S4 Hk). rewrite !(xi_next P) by lia. symmetry. apply KW. apply DV. lia.
  - intros i Hi. rewrite (keeps_const _ n T1 T' _ _ K). apply S5. exact Hi.
Qed.
Lemma keep_col : forall T1 T' row n, row0 <= row -> 0 <= n -> row + cl_rows w r <= e ->
  sat L T1 (cl_circuit c r row) -> keeps (row + cl_rows w r) n T1 T' -> sat L T' (cl_circuit c r row).
Proof.
  intros T1 T' row n HR Hn HE S K. rewrite (colinear_exact P L T1 c w r row Hw) in S. rewrite (colinear_exact P L T' c w r row Hw). intros i b Hi Hb. specialize (S i b Hi Hb).
  cbv beta zeta in *. rewrite !(keeps_W (row + cl_rows w r) n T1 T') by (first [exact K|lia]). exact S.
Qed.

(** The assignment with failed assertions ignored. *)
Fixpoint fill (p : prog) (row n : Z) (T : table) : table :=
  match p with
  | PEnd => T
  | PHash a b d k => fill (k (hout c row)) (row + fp_rows (wamount c)) n (fp_assign mds rc c (a, b, d) row T)
  | PSwap b x y k => fill (k (so1 n) (so2 n)) row (n + 1) (fs_assign (fst (sw n)) b x y (snd (sw n)) T)
  | PCopy a b k => fill k row n T
  | PPow x k => fill (k (cp_out c pow row)) (row + cp_rows (wamount c) pow) n (cp_assign c pow x row T)
  | PIdx x bs k =>
      fill k (row + xi_rows (wamount c) (zlen bs)) n (match xi_assign c omega x bs row T with Some T1 => T1 | None => T end)
  | PCol inp k => fill k (row + cl_rows (wamount c) r) n (cl_assign c r inp row T)
  end.

Hypothesis H2 : char P <> 2.

Lemma znth_map0 : forall (T : table) l i, 0 <= i < zlen l -> znth f0 (map (vval T) l) i = vval T (znth (wcell 0 0) l i).
Proof. intros T l i Hi. apply (znth_map _ _ (vval T) (wcell 0 0)). exact Hi. Qed.

Lemma honest : forall p q row n T, scoped p row n -> row0 <= row -> 0 <= n -> ndr p row n <= e ->
  consts_in T (cmpl p row n) -> let T' := fill p row n T in
  keeps row n T T' /\ defs m_honest T' p row n /\
  (oks m_honest T' p row n -> assign mds rc c pow omega r sw q p row n T = Some T' /\ sat L T' (cmpl p row n)).
Proof.
  pose proof fp_rows_pos as RP. pose proof cp_rows_nn as RC. pose proof cl_rows_nn as RL.
  induction p as [|a b d k IH|b x y k IH|a b k IH|x k IH|x bs k IH|inp k IH]; intros q row n T SC HR Hn HE HC;
    cbn [compile defs oks scoped endr fill assign] in *; rewrite ?Hw in *; cbv zeta in *.
  - split; [intros ? ? ? _; reflexivity|]. split; [exact I|]. intros _. split; [reflexivity|apply sat_nil].
  - destruct SC as [Oa [Ob [Od SC]]]. pose proof (endr_ge (k (hout c row)) (row + fp_rows w) n) as GE.
    apply consts_app in HC. destruct HC as [_ HC]. set (T1 := fp_assign mds rc c (a, b, d) row T).
    destruct (fp_complete_l P L mds rc T c w (a, b, d) row Hwf ltac:(lia) HM) as [_ [FR _]];
      [apply (old_outside row n); [lia|assumption]..|]. fold T1 in FR.
    assert (K1 : keeps row n T T1) by (apply (frame_keeps row n T T1 _ FR); lia).
    destruct (IH _ q (row + fp_rows w) n T1 SC ltac:(lia) Hn HE (keeps_consts_in _ _ _ _ _ K1 HC)) as [K [D O]].
    set (T' := fill _ _ _ _) in *.
    pose proof (build_hash T T' (a, b, d) row n HR Hn ltac:(lia) Oa Ob Od K) as S.
    split; [exact (keeps_trans row n (row + fp_rows w) n T T1 T' ltac:(lia) ltac:(lia) K1 K)|]. split.
    + split; [|exact D]. pose proof (fp_sound_l P L mds rc T' c w (a, b, d) row Hw ltac:(lia) HM S) as E.
      unfold hash3. exact (f_equal snd E).
    + intros OK. destruct (O OK) as [A1 A2]. split; [exact A1|]. rewrite sat_app. split; [exact S|exact A2].
  - destruct SC as [Ob [Ox [Oy SC]]]. apply consts_app in HC. destruct HC as [_ HC].
    destruct (build_swap T b x y row n HR Hn Ob Ox Oy) as [K1 B]. set (T1 := fs_assign (fst (sw n)) b x y (snd (sw n)) T) in *.
    destruct (IH _ _ q row (n + 1) T1 SC HR ltac:(lia) HE (keeps_consts_in _ _ _ _ _ K1 HC)) as [K [D O]].
    change (fst (fs_out (fst (sw n)) (snd (sw n)))) with (so1 n) in *. change (snd (fs_out (fst (sw n)) (snd (sw n)))) with (so2 n) in *.
    set (T' := fill _ _ _ _) in *.
    split; [exact (keeps_trans row n row (n + 1) T T1 T' ltac:(lia) ltac:(lia) K1 K)|]. split.
    + split; [|exact D]. intros Bt. exact (proj1 (B T' K Bt)).
    + intros [Bt OK]. destruct (O OK) as [A1 A2]. split; [exact A1|]. rewrite sat_app. split; [exact (proj2 (B T' K Bt))|exact A2].
  - destruct SC as [Oa [Ob SC]].
    destruct (IH (q - 1) row n T SC HR Hn HE) as [K [D O]]; [intros col rw v Hin; apply HC; right; exact Hin|].
    set (T' := fill _ _ _ _) in *.
    split; [exact K|]. split; [exact D|]. intros [E OK]. destruct (O OK) as [A1 A2]. rewrite sat_cons. split; [|split; [exact E|exact A2]].
    rewrite !(keeps_vval row n T T') in E by assumption. rewrite E, feqb_refl, andb_false_r. exact A1.
  - destruct SC as [Ox SC]. pose proof (endr_ge (k (cp_out c pow row)) (row + cp_rows w pow) n) as GE.
    apply consts_app in HC. destruct HC as [_ HC].
    destruct (cp_complete_l P L T c w pow x row Hwf ltac:(lia) Hpow Hcp) as [S [FR V]]; [apply (old_outside row n); [lia|assumption]|].
    set (T1 := cp_assign c pow x row T) in *.
    assert (K1 : keeps row n T T1) by (apply (frame_keeps row n T T1 _ FR); lia).
    destruct (IH _ q (row + cp_rows w pow) n T1 SC ltac:(lia) Hn HE (keeps_consts_in _ _ _ _ _ K1 HC)) as [K [D O]].
    set (T' := fill _ _ _ _) in *.
    pose proof (keeps_trans row n (row + cp_rows w pow) n T T1 T' ltac:(lia) ltac:(lia) K1 K) as KT.
    split; [exact KT|]. split.
    + split; [|exact D]. cbn [md_pow m_honest]. rewrite (keeps_vval row n T T' x KT Ox), <- V.
      destruct (cp_rows_spec w pow ltac:(lia) ltac:(lia) Hcp) as [_ [R0 R1]]. pose proof (cp_len_pos pow Hpow) as LP.
      apply (keeps_vval _ n T1 T' _ K). unfold cp_out. apply old_W; [exact Hn|rewrite Hw; nia|lia].
    + intros OK. destruct (O OK) as [A1 A2]. split; [exact A1|]. rewrite sat_app. split; [|exact A2].
      exact (keep_pow T1 T' x row n HR Hn ltac:(lia) Ox S K).
  - destruct SC as [Ox [Ob SC]]. pose proof (endr_ge k (row + xi_rows w (zlen bs)) n) as GE.
    pose proof (xi_rows_nn (zlen bs) (zlen_nonneg _ bs)) as RX.
    apply consts_app in HC. destruct HC as [HC1 HC]. set (oT := xi_assign c omega x bs row T) in *.
    set (T1 := match oT with Some T1 => T1 | None => T end).
    assert (K1 : keeps row n T T1).
    { unfold T1. destruct oT as [T2|] eqn:EO; [|intros ? ? ? _; reflexivity]. unfold oT, xi_assign in EO. cbv zeta in EO.
      destruct (xi_bits T omega x bs) as [l|]; [|discriminate]. injection EO as <-. rewrite Hw.
      apply (frame_keeps row n T _ (xi_rows w (zlen bs))); [|lia]. apply (grid_frame P T c w); exact Hwf. }
    destruct (IH q (row + xi_rows w (zlen bs)) n T1 SC ltac:(lia) Hn HE (keeps_consts_in _ _ _ _ _ K1 HC)) as [K [D O]].
    set (T' := fill _ _ _ _) in *.
    pose proof (keeps_trans row n (row + xi_rows w (zlen bs)) n T T1 T' ltac:(lia) ltac:(lia) K1 K) as KT.
    split; [exact KT|]. split; [exact D|].
    intros [MI OK]. destruct (O OK) as [A1 A2]. cbn [md_idx m_honest] in MI. rewrite (keeps_vval row n T T' x KT Ox) in MI.
    rewrite (map_ext_in (vval T') (vval T) bs) in MI by (intros v Hv; apply (keeps_vval row n T T' v KT); apply Ob; exact Hv).
    destruct MI as [zs [B1 [B2 [B3 [B4 B5]]]]].
    assert (EL : zlen zs = zlen bs) by (apply (f_equal zlen) in B2; unfold zlen in *; rewrite !map_length in B2; lia).
    destruct (xi_complete_l P L T c w omega x bs zs row Hwf ltac:(lia) ltac:(lia) B1 B2 ltac:(rewrite <- EL; exact B4) B5) as [T2 [E2 [S _]]];
      [apply (old_outside row n); [lia|exact Ox]|intros v Hv; apply (old_outside row n); [lia|apply Ob; exact Hv]|exact HC1|].
    fold oT in E2. assert (ET : T1 = T2) by (unfold T1; rewrite E2; reflexivity).
    rewrite E2, <- ET. split; [exact A1|]. rewrite sat_app. split; [|exact A2].
    rewrite <- ET in S. exact (keep_idx T1 T' x bs row n HR Hn ltac:(lia) Ox Ob S K).
  - destruct SC as [Oi SC]. pose proof (endr_ge k (row + cl_rows w r) n) as GE. apply consts_app in HC. destruct HC as [_ HC].
    set (T1 := cl_assign c r inp row T).
    assert (K1 : keeps row n T T1) by (apply (frame_keeps row n T T1 (cl_rows w r)); [apply cl_frame; assumption|lia]).
    destruct (IH q (row + cl_rows w r) n T1 SC ltac:(lia) Hn HE (keeps_consts_in _ _ _ _ _ K1 HC)) as [K [D O]].
    set (T' := fill _ _ _ _) in *.
    pose proof (keeps_trans row n (row + cl_rows w r) n T T1 T' ltac:(lia) ltac:(lia) K1 K) as KT.
    split; [exact KT|]. split; [exact D|].
    intros [MC OK]. destruct (O OK) as [A1 A2]. split; [exact A1|]. rewrite sat_app. split; [|exact A2].
    assert (VO : forall v, In v (cl_x inp :: cl_ys inp ++ cl_bs inp ++ cl_al inp) -> vval T' v = vval T v)
      by (intros v Hv; apply (keeps_vval row n T T' v KT); apply Oi; exact Hv).
    cbn [md_col m_honest] in MC. rewrite (VO (cl_x inp)) in MC by (left; reflexivity).
    rewrite (map_ext_in (vval T') (vval T) (cl_ys inp)), (map_ext_in (vval T') (vval T) (cl_bs inp)), (map_ext_in (vval T') (vval T) (cl_al inp)) in MC
      by (intros v Hv; apply VO; right; rewrite !in_app_iff; tauto).
    destruct MC as [L1 [L2 [L3 FO]]]. unfold zlen in L1, L2, L3. rewrite map_length in L1, L2, L3.
    apply (keep_col T1 T' row n HR Hn ltac:(lia)); [|exact K].
    apply cl_complete_l with (w := w); try assumption; try lia.
    + intros v Hv. apply (old_outside row n); [lia|]. apply Oi. right. exact Hv.
    + intros j Hj Nj. specialize (FO j Hj Nj). rewrite !znth_map0 in FO by (unfold zlen; lia). exact FO.
Qed.

End Steps.
