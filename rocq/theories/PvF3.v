(** Soundness and completeness of f3_loop, for the widths where they hold. *)
From Coq Require Import ZArith List Lia Bool Field.
From Verif Require Import Base Field Plonk PlonkFacts Bits FlexModel FlexProofs PvModel PvSpec PvTape PvGate PvLoops PvF1.
Import ListNotations.
Open Scope Z_scope.

Lemma f3_rows_eq : forall w m, 4 <= w -> 1 <= m -> f3_rows w m = (4 * m - 1) / w + 1.
Proof. intros w m Hw Hm. unfold f3_rows. apply ceil_rows_pred; lia. Qed.

Lemma in_zsteps4 : forall s hi j, 0 <= s <= 3 -> (In j (zsteps s hi 4) <-> (0 <= j < hi /\ j mod 4 = s)).
Proof.
  intros s hi j Hs. rewrite in_zsteps by lia. split.
  - intros [k [Hk [E Hh]]]. zd.
  - intros [H1 H2]. exists ((j - s) / 4). zd.
Qed.

(** Positions row by row. *)
Lemma tape_le : forall w x r j, 0 < w -> 0 <= j < w ->
  (r * w + j <= x <-> r < x / w \/ (r = x / w /\ j <= x mod w)).
Proof.
  intros w x r j Hw Hj. pose proof (Z.div_mod x w ltac:(lia)) as D.
  pose proof (Z.mod_pos_bound x w ltac:(lia)) as M.
  set (R := x / w) in *. set (k := x mod w) in *. clearbody R k. split.
  - intros H. destruct (Z.lt_trichotomy r R) as [|[E|G]]; [tauto|subst r; right; split; lia|].
    assert ((R + 1) * w <= r * w) by (apply Z.mul_le_mono_nonneg_r; lia). lia.
  - intros [H|[-> H]]; [|lia].
    assert ((r + 1) * w <= R * w) by (apply Z.mul_le_mono_nonneg_r; lia). lia.
Qed.

(** The selector used for column [j]. *)
Definition f3_idx (w j : Z) : Z := if w mod 4 =? 0 then j / 4 + 1 else if w mod 4 =? 2 then j / 2 + 1 else j + 1.

Lemma f3_start : forall w r j, 4 <= w -> 0 <= r ->
  let x := w mod 4 in
  let st := if x =? 0 then 3 else if x =? 2 then 3 - 2 * (r mod 2)
                 else if r mod 4 =? 0 then 3 else (3 - x) + (x - 2) * (r mod 4 - 1) in
  0 <= st <= 3 /\ (j mod 4 = st <-> (r * w + j) mod 4 = 3).
Proof.
  intros w r j Hw Hr. cbv zeta.
  assert (R2 : r mod 2 = (r mod 4) mod 2) by zd.
  pose proof (Z.div_mod w 4 ltac:(lia)) as Dw. pose proof (Z.mod_pos_bound w 4 ltac:(lia)) as Mw.
  pose proof (Z.div_mod r 4 ltac:(lia)) as Dr. pose proof (Z.mod_pos_bound r 4 ltac:(lia)) as Mr.
  pose proof (Z.div_mod j 4 ltac:(lia)) as Dj. pose proof (Z.mod_pos_bound j 4 ltac:(lia)) as Mj.
  rewrite R2. clear R2.
  set (a := w mod 4) in *. set (b := r mod 4) in *. set (d := j mod 4) in *.
  set (qw := w / 4) in *. set (qr := r / 4) in *. set (qj := j / 4) in *.
  clearbody a b d qw qr qj.
  assert (E : (r * w + j) mod 4 = (b * a + d) mod 4).
  { replace (r * w + j) with (b * a + d + (qr * w + b * qw + qj) * 4).
    - apply Z.mod_add. lia.
    - subst w r j. ring. }
  rewrite E. clear E.
  assert (Ha : a = 0 \/ a = 1 \/ a = 2 \/ a = 3) by lia. assert (Hb : b = 0 \/ b = 1 \/ b = 2 \/ b = 3) by lia.
  assert (Hd : d = 0 \/ d = 1 \/ d = 2 \/ d = 3) by lia. clear Mw Mr Mj Dw Dr Dj.
  destruct Ha as [-> |[-> |[-> | ->]]], Hb as [-> |[-> |[-> | ->]]], Hd as [-> |[-> |[-> | ->]]]; cbn;
    (split; [split; discriminate|split; intros; try reflexivity; try discriminate]).
Qed.

Lemma f3_enabled_spec : forall w m ir, 4 <= w -> 1 <= m ->
  (In ir (f3_enabled w m) <-> ir = (0, 0) \/
   exists i, (1 <= i < m \/ (i = 0 /\ f3_rows w m = 1)) /\ ir = (f3_idx w ((4 * i + 3) mod w), (4 * i + 3) / w)).
Proof.
  intros w m ir Hw Hm. unfold f3_enabled. cbv zeta. rewrite (last_mod (4 * m) w) by lia.
  pose proof (f3_rows_eq w m Hw Hm) as N. set (n := f3_rows w m) in *.
  assert (N1 : n - 1 = (4 * m - 1) / w) by lia.
  assert (N0 : 0 <= n - 1) by (rewrite N1; apply Z.div_pos; lia).
  pose proof (Z.mod_pos_bound (4 * m - 1) w ltac:(lia)) as ML.
  rewrite in_app_iff. cbn [In].
  assert (EQ : (((0, 0) = ir \/ False) <-> ir = (0, 0))) by (split; [intros [H|[]]; symmetry; exact H|intros ->; left; reflexivity]).
  rewrite EQ. clear EQ.
  assert (G : forall X Y : Prop, (X <-> Y) -> (ir = (0, 0) \/ X <-> ir = (0, 0) \/ Y)) by tauto.
  apply G. clear G.
  change (fun j => (if w mod 4 =? 0 then j / 4 + 1 else if w mod 4 =? 2 then j / 2 + 1 else j + 1, n - 1)) with (fun j => (f3_idx w j, n - 1)).
  rewrite in_app_iff, in_flat_map, in_map_iff. split.
  - intros [[r [Hr H]]|[j [E H]]].
    + apply in_zseq in Hr. apply in_map_iff in H. destruct H as [j [E H]]. apply filter_In in H. destruct H as [H K].
      destruct (f3_start w r j Hw ltac:(lia)) as [S1 S2]. apply (in_zsteps4 _ _ _ S1) in H. destruct H as [H1 H2].
      apply S2 in H2.
      assert (LE : r * w + j <= 4 * m - 1) by (apply tape_le; [lia|exact H1|left; lia]).
      destruct (pos_div w r j H1) as [P1 P2].
      assert (PP : 0 <= r * w) by (apply Z.mul_nonneg_nonneg; lia).
      assert (NZ : r * w + j <> 3).
      { intros X. destruct (Z.eq_dec r 0) as [-> |Hz].
        - assert (j = 3) by lia. subst j. discriminate.
        - assert (1 * w <= r * w) by (apply Z.mul_le_mono_nonneg_r; lia). lia. }
      set (p := r * w + j) in *. exists (p / 4).
      assert (Ep : 4 * (p / 4) + 3 = p) by (clear - H2; zd). rewrite Ep.
      split; [left; lia|]. rewrite P1, P2. symmetry. exact E.
    + destruct (f3_start w (n - 1) j Hw N0) as [S1 S2]. apply (in_zsteps4 _ _ _ S1) in H. destruct H as [H1 H2].
      assert (Hj : 0 <= j < w) by lia.
      apply S2 in H2.
      assert (LE : (n - 1) * w + j <= 4 * m - 1) by (apply tape_le; [lia|exact Hj|right; split; [exact N1|lia]]).
      destruct (pos_div w (n - 1) j Hj) as [P1 P2].
      assert (0 <= (n - 1) * w) by (apply Z.mul_nonneg_nonneg; lia).
      assert (NZ : (n - 1) * w + j = 3 -> n = 1).
      { intros X. destruct (Z.eq_dec n 1) as [|Hz]; [assumption|].
        assert (1 * w <= (n - 1) * w) by (apply Z.mul_le_mono_nonneg_r; lia). lia. }
      set (p := (n - 1) * w + j) in *. exists (p / 4).
      assert (Ep : 4 * (p / 4) + 3 = p) by (clear - H2; zd). rewrite Ep.
      split; [|rewrite P1, P2; symmetry; exact E].
      destruct (Z.eq_dec (p / 4) 0) as [X|X]; [right; split; [exact X|apply NZ; lia]|left; lia].
  - intros [i [Hi ->]]. set (p := 4 * i + 3).
    assert (Hp : 0 <= p <= 4 * m - 1) by (unfold p; lia).
    pose proof (Z.div_mod p w ltac:(lia)) as D. pose proof (Z.mod_pos_bound p w ltac:(lia)) as Hj.
    assert (R0 : 0 <= p / w) by (apply Z.div_pos; lia).
    set (r := p / w) in *. set (j := p mod w) in *.
    assert (Ep : r * w + j = p) by lia.
    assert (LE : r * w + j <= 4 * m - 1) by lia.
    apply tape_le in LE; [|lia|exact Hj].
    assert (P2 : (r * w + j) mod 4 = 3) by (rewrite Ep; unfold p; clear; zd).
    destruct (Z.eq_dec r (n - 1)) as [E|E].
    + right. exists j. split; [rewrite E; reflexivity|]. destruct (f3_start w (n - 1) j Hw N0) as [S1 S2].
      apply (in_zsteps4 _ _ _ S1). split; [lia|]. apply S2. rewrite <- E. exact P2.
    + left. exists r. split; [apply in_zseq; lia|]. apply in_map_iff. exists j. split; [reflexivity|].
      apply filter_In. destruct (f3_start w r j Hw R0) as [S1 S2]. split.
      * apply (in_zsteps4 _ _ _ S1). split; [lia|]. apply S2. exact P2.
      * destruct (Z.eqb_spec r 0) as [X|X]; [|reflexivity]. destruct (Z.eqb_spec j 3) as [Y|Y]; [|reflexivity].
        exfalso. rewrite X, Y in Ep. unfold p in Ep. destruct Hi as [Hi|[_ Hi]]; lia.
Qed.

Section F3.
Variable P : params.
Notation F := (F P).
Notation table := (table P).
Variable L : lenv P.
Implicit Types T : table.
Add Field Ff : (F_field P) (morphism (F_morph P), constants [F_const], power_tac (F_power P) [F_pow_tac]).
Local Open Scope F_scope.
Notation cl T c row p := (cell T c 0 (wamount c) row p).

(** ** The gates *)

Definition f3_back c (j t : Z) : expr P :=
  if (t <=? j)%Z then wvar P c (j - t) 0 else wvar P c (j - t + wamount c) (-1).
Definition f3_gen c (j : Z) : expr P :=
  f3_con (wvar P c j 0) (f3_back c j 4) (f3_back c j 3) (f3_back c j 2) (f3_back c j 1).
Definition f3_first c : expr P :=
  EBin OSub (wvar P c 3 0) (EBin OMul (EBin OSub (wvar P c 1 0) (wvar P c 2 0)) (wvar P c 0 0)).

(** Widths at which every column has its own constraint. *)
Definition f3_ok (w : Z) : Prop := w = 4%Z \/ (w mod 4 <> 0)%Z.

Lemma f3_mid_gen : forall c j, (4 <= j)%Z -> f3_mid (P:=P) c j = f3_gen c j.
Proof.
  intros c j H. unfold f3_gen, f3_back.
  rewrite (proj2 (Z.leb_le 4 j)), (proj2 (Z.leb_le 3 j)), (proj2 (Z.leb_le 2 j)), (proj2 (Z.leb_le 1 j)) by lia. reflexivity.
Qed.

Lemma f3_gate_at : forall c j, (4 <= wamount c)%Z -> f3_ok (wamount c) -> (0 <= j < wamount c)%Z ->
  (wamount c = 4 -> j = 3)%Z -> (wamount c mod 4 = 2 -> j mod 2 = 1)%Z ->
  (0 <= f3_idx (wamount c) j < zlen (f3_gates (P:=P) c))%Z /\
  znth (ecst f0) (f3_gates c) (f3_idx (wamount c) j) = f3_gen c j.
Proof.
  intros c j Hw Hok Hj H4 H2.
  assert (E0 : (3 - 4 + wamount c = wamount c - 1)%Z) by lia.
  assert (E1 : (1 - 4 + wamount c = wamount c - 3)%Z) by lia.
  assert (E2 : (1 - 3 + wamount c = wamount c - 2)%Z) by lia.
  assert (E3 : (1 - 2 + wamount c = wamount c - 1)%Z) by lia.
  assert (E4 : (0 - 4 + wamount c = wamount c - 4)%Z) by lia.
  assert (E5 : (0 - 3 + wamount c = wamount c - 3)%Z) by lia.
  assert (E6 : (0 - 2 + wamount c = wamount c - 2)%Z) by lia.
  assert (E7 : (0 - 1 + wamount c = wamount c - 1)%Z) by lia.
  assert (E8 : (2 - 4 + wamount c = wamount c - 2)%Z) by lia.
  assert (E9 : (2 - 3 + wamount c = wamount c - 1)%Z) by lia.
  assert (G0 : f3_gen c 0 = f3_con (wvar P c 0 0) (wvar P c (wamount c - 4) (-1)) (wvar P c (wamount c - 3) (-1))
      (wvar P c (wamount c - 2) (-1)) (wvar P c (wamount c - 1) (-1))).
  { unfold f3_gen, f3_back. cbn [Z.leb Z.compare Pos.compare Pos.compare_cont].
    change (0 - 1 + wamount c)%Z with ((0 - 1) + wamount c)%Z. rewrite E4, E5, E6, E7. reflexivity. }
  assert (G1 : f3_gen c 1 = f3_wrap1 (P:=P) c).
  { unfold f3_gen, f3_back. cbn [Z.leb Z.compare Pos.compare Pos.compare_cont]. rewrite E1, E2, E3. reflexivity. }
  assert (G2 : f3_gen c 2 = f3_con (wvar P c 2 0) (wvar P c (wamount c - 2) (-1)) (wvar P c (wamount c - 1) (-1))
      (wvar P c 0 0) (wvar P c 1 0)).
  { unfold f3_gen, f3_back. cbn [Z.leb Z.compare Pos.compare Pos.compare_cont]. rewrite E8, E9. reflexivity. }
  assert (G3 : f3_gen c 3 = f3_wrap (P:=P) c).
  { unfold f3_gen, f3_back. cbn [Z.leb Z.compare Pos.compare Pos.compare_cont]. rewrite E0. reflexivity. }
  unfold f3_gates, f3_idx. cbv zeta.
  destruct (Z.eqb_spec (wamount c mod 4) 0) as [X0|X0]; [|destruct (Z.eqb_spec (wamount c mod 4) 2) as [X2|X2]].
  - destruct Hok as [W4|W4]; [|contradiction]. rewrite (H4 W4) in *. change (3 / 4 + 1)%Z with 1%Z.
    rewrite W4. change (zsteps 7 4 4) with (@nil Z). cbn [map app]. split; [unfold zlen; cbn [length]; lia|].
    rewrite <- G3. reflexivity.
  - specialize (H2 X2). clear H4. cbn [app].
    assert (LL : (zlen (zsteps 5 (wamount c) 2) = wamount c / 2 - 2)%Z).
    { rewrite zlen_zsteps by lia. clear - Hw X2. zd. }
    rewrite !zlen_cons, zlen_map, LL. split; [clear - Hj H2 Hw X2; zd|].
    destruct (Z.eq_dec j 1) as [-> |N1]; [change (1 / 2 + 1)%Z with 1%Z; symmetry; exact G1|].
    destruct (Z.eq_dec j 3) as [-> |N3]; [change (3 / 2 + 1)%Z with 2%Z; symmetry; exact G3|].
    assert (Hj5 : (5 <= j)%Z) by (clear - N1 N3 H2 Hj; zd).
    rewrite !znth_S by (clear - Hj5; zd).
    assert (EJ : (5 + 2 * (j / 2 + 1 - 1 - 1 - 1) = j)%Z) by (clear - H2; zd).
    rewrite znth_zsteps; [|lia|clear - Hj5; zd|lia]. rewrite EJ. apply f3_mid_gen. lia.
  - cbn [app]. clear H4 H2.
    rewrite !zlen_cons, zlen_map, zlen_zseq. split; [lia|].
    destruct (Z.eq_dec j 0) as [-> |N0]; [change (0 + 1)%Z with 1%Z; symmetry; exact G0|].
    destruct (Z.eq_dec j 1) as [-> |N1]; [change (1 + 1)%Z with 2%Z; symmetry; exact G1|].
    destruct (Z.eq_dec j 2) as [-> |N2]; [change (2 + 1)%Z with 3%Z; symmetry; exact G2|].
    destruct (Z.eq_dec j 3) as [-> |N3]; [change (3 + 1)%Z with 4%Z; symmetry; exact G3|].
    rewrite !znth_S by lia. rewrite znth_map_zseq by lia.
    replace (4 + (j + 1 - 1 - 1 - 1 - 1 - 1))%Z with j by lia. apply f3_mid_gen. lia.
Qed.

Lemma f3_back_eval : forall T c row p t, (4 <= wamount c)%Z -> (1 <= t <= 4)%Z ->
  eval T (row + p / wamount c) (f3_back c (p mod wamount c) t) = cl T c row (p - t).
Proof.
  intros T c row p t Hw Ht. pose proof (Z.mod_pos_bound p (wamount c) ltac:(lia)) as M.
  unfold f3_back, wvar. destruct (Z.leb_spec t (p mod wamount c)) as [H|H]; eval_norm.
  - rewrite cell_back by lia. f_equal; try lia; f_equal; lia.
  - rewrite cell_prev by lia. f_equal; try lia; f_equal; lia.
Qed.

Lemma f3_gen_eval : forall T c row p, (4 <= wamount c)%Z ->
  eval T (row + p / wamount c) (f3_gen c (p mod wamount c)) =
  cl T c row p - (cl T c row (p - 4) + (cl T c row (p - 2) - cl T c row (p - 1)) * cl T c row (p - 3)).
Proof.
  intros T c row p Hw. unfold f3_gen, f3_con.
  repeat (rewrite eval_bin; cbn [ebop]). rewrite !f3_back_eval by lia. unfold wvar. eval_norm. rewrite (cell_at P T c 0 (wamount c) row p).
  rewrite !Z.add_0_r. ring.
Qed.

(** ** What the constraints say *)

Definition f3_ins T c (al s t : list var) (row : Z) : Prop :=
  forall i, (0 <= i < zlen s)%Z ->
    cl T c row (4 * i) = vval T (znth dvar al i) /\ cl T c row (4 * i + 1) = vval T (znth dvar s i) /\
    cl T c row (4 * i + 2) = vval T (znth dvar t i).
Definition f3_sums T c (m row : Z) : Prop :=
  cl T c row 3 = (cl T c row 1 - cl T c row 2) * cl T c row 0 /\
  (forall i, (1 <= i < m)%Z ->
    cl T c row (4 * i + 3) = cl T c row (4 * i - 1) + (cl T c row (4 * i + 1) - cl T c row (4 * i + 2)) * cl T c row (4 * i)) /\
  (f3_rows (wamount c) m = 1%Z -> T CWit (W c (wamount c - 1)) (row - 1)%Z = f0).

Lemma f3_copies_iff : forall T c al s t row, (4 <= wamount c)%Z -> (1 <= zlen s)%Z ->
  (sat L T (f3_copies c al s t row) <-> f3_ins T c al s t row).
Proof.
  intros T c al s t row Hw Hm. unfold f3_copies. cbv zeta. rewrite sat_flat.
  set (w := wamount c) in *. set (m := zlen s) in *. set (n := f3_rows w m).
  pose proof (f3_rows_eq w m Hw Hm) as N. fold n in N. rewrite (last_mod (4 * m) w) by lia.
  pose proof (Z.mod_pos_bound (4 * m - 1) w ltac:(lia)) as ML.
  assert (Cmd : forall p, let j := (p mod w)%Z in let r := (p / w)%Z in let tmp := p in
    forall cs, cs = (if (tmp mod 4 =? 0)%Z then [ Copy (wcell (W c j) (row + r)) (znth dvar al (tmp / 4)) ]
      else if (tmp mod 4 =? 1)%Z then [ Copy (wcell (W c j) (row + r)) (znth dvar s (tmp / 4)) ]
      else if (tmp mod 4 =? 2)%Z then [ Copy (wcell (W c j) (row + r)) (znth dvar t (tmp / 4)) ]
      else []) ->
    (sat L T cs <-> (p mod 4 = 0%Z -> cl T c row p = vval T (znth dvar al (p / 4))) /\
       (p mod 4 = 1%Z -> cl T c row p = vval T (znth dvar s (p / 4))) /\
       (p mod 4 = 2%Z -> cl T c row p = vval T (znth dvar t (p / 4))))).
  { intros p j r tmp cs ->. subst tmp. rewrite cell_at. fold w. fold j. fold r. rewrite Z.add_0_r.
    pose proof (Z.mod_pos_bound p 4 ltac:(lia)).
    destruct (Z.eqb_spec (p mod 4) 0) as [E0|E0]; [|destruct (Z.eqb_spec (p mod 4) 1) as [E1|E1]; [|destruct (Z.eqb_spec (p mod 4) 2) as [E2|E2]]].
    - rewrite sat_cons, E0. cbn [holds]. rewrite vval_wcell. pose proof (sat_nil P L T).
      split; [intros [A _]; repeat split; intros; try discriminate; exact A|intros [A _]; split; [apply A; reflexivity|assumption]].
    - rewrite sat_cons, E1. cbn [holds]. rewrite vval_wcell. pose proof (sat_nil P L T).
      split; [intros [A _]; repeat split; intros; try discriminate; exact A|intros [_ [A _]]; split; [apply A; reflexivity|assumption]].
    - rewrite sat_cons, E2. cbn [holds]. rewrite vval_wcell. pose proof (sat_nil P L T).
      split; [intros [A _]; repeat split; intros; try discriminate; exact A|intros [_ [_ A]]; split; [apply A; reflexivity|assumption]].
    - split; [intros _; repeat split; intros; contradiction|intros _; apply sat_nil]. }
  split.
  - intros H.
    assert (G : forall p, (0 <= p < 4 * m)%Z -> (p mod 4 = 0%Z -> cl T c row p = vval T (znth dvar al (p / 4))) /\
       (p mod 4 = 1%Z -> cl T c row p = vval T (znth dvar s (p / 4))) /\
       (p mod 4 = 2%Z -> cl T c row p = vval T (znth dvar t (p / 4)))).
    { intros p Hp. apply (Cmd p _ eq_refl). pose proof (Z.div_mod p w ltac:(lia)) as D. pose proof (Z.mod_pos_bound p w ltac:(lia)) as M.
      assert (R0 : (0 <= p / w)%Z) by (apply Z.div_pos; lia).
      assert (LE : (p / w * w + p mod w <= 4 * m - 1)%Z) by lia.
      apply tape_le in LE; [|lia|exact M].
      assert (Hr : In (p / w)%Z (zseq 0 n)) by (apply in_zseq; lia).
      specialize (H _ Hr). rewrite sat_flat in H. specialize (H (p mod w)%Z).
      replace (p / w * w + p mod w)%Z with p in H by lia. apply H.
      apply in_zseq. split; [lia|]. destruct (Z.eqb_spec (p / w) (n - 1)); lia. }
    intros i Hi. split; [|split].
    + pose proof (proj1 (G (4 * i)%Z ltac:(lia)) ltac:(clear; zd)) as A. replace (4 * i / 4)%Z with i in A by (clear; zd). exact A.
    + pose proof (proj1 (proj2 (G (4 * i + 1)%Z ltac:(lia))) ltac:(clear; zd)) as A. replace ((4 * i + 1) / 4)%Z with i in A by (clear; zd). exact A.
    + pose proof (proj2 (proj2 (G (4 * i + 2)%Z ltac:(lia))) ltac:(clear; zd)) as A. replace ((4 * i + 2) / 4)%Z with i in A by (clear; zd). exact A.
  - intros HI r Hr. apply in_zseq in Hr. apply sat_flat. intros j Hj. apply in_zseq in Hj.
    assert (Hj' : (0 <= j < w)%Z) by (destruct (r =? n - 1)%Z; lia).
    destruct (pos_div w r j Hj') as [P1 P2].
    assert (LE : (r * w + j <= 4 * m - 1)%Z).
    { apply tape_le; [lia|exact Hj'|]. destruct (Z.eqb_spec r (n - 1)) as [E|E]; [right; lia|left; lia]. }
    assert (0 <= r * w)%Z by (apply Z.mul_nonneg_nonneg; lia).
    set (p := (r * w + j)%Z) in *. rewrite <- P1, <- P2. apply (Cmd p _ eq_refl).
    assert (X : (0 <= p / 4 < m)%Z) by (assert (0 <= p)%Z by (subst p; lia); clear - H0 LE; zd).
    destruct (HI _ X) as [A [B D]]. repeat split; intros E.
    + replace p with (4 * (p / 4))%Z at 1 by (clear - E; zd). exact A.
    + replace p with (4 * (p / 4) + 1)%Z at 1 by (clear - E; zd). exact B.
    + replace p with (4 * (p / 4) + 2)%Z at 1 by (clear - E; zd). exact D.
Qed.

Lemma f3_gates_pos : forall c, (0 <= 0 < zlen (f3_gates (P:=P) c))%Z.
Proof. intros c. unfold f3_gates. cbv zeta. rewrite zlen_app. unfold zlen at 1. cbn [length].
  match goal with |- (_ <= _ < _ + zlen ?x)%Z => assert (0 <= zlen x)%Z by (unfold zlen; lia) end. lia. Qed.

Lemma f3_first_eval : forall T c row, (4 <= wamount c)%Z ->
  eval T row (znth (ecst f0) (f3_gates c) 0) = cl T c row 3 - (cl T c row 1 - cl T c row 2) * cl T c row 0.
Proof.
  intros T c row Hw. unfold f3_gates. cbv zeta. match goal with |- eval _ _ (znth _ ([?a] ++ ?b) 0) = _ => change (znth (ecst f0) ([a] ++ b) 0) with a end.
  eval_norm. rewrite !cell_at. rewrite !Z.mod_small, !Z.div_small by lia. rewrite !Z.add_0_r. reflexivity.
Qed.

Lemma f3_at : forall c i, (4 <= wamount c)%Z -> f3_ok (wamount c) -> (0 <= i)%Z ->
  let j := ((4 * i + 3) mod wamount c)%Z in
  (0 <= f3_idx (wamount c) j < zlen (f3_gates (P:=P) c))%Z /\
  znth (ecst f0) (f3_gates c) (f3_idx (wamount c) j) = f3_gen c j.
Proof.
  intros c i Hw Hok Hi. cbv zeta. pose proof (Z.mod_pos_bound (4 * i + 3) (wamount c) ltac:(lia)) as M.
  apply f3_gate_at; [exact Hw|exact Hok|exact M| |].
  - intros ->. clear. zd.
  - intros X. pose proof (Z.div_mod (4 * i + 3) (wamount c) ltac:(lia)) as D.
    assert (E : (wamount c = 2 * (wamount c / 2))%Z) by (clear - X; zd).
    set (q := ((4 * i + 3) / wamount c)%Z) in *. set (j := ((4 * i + 3) mod wamount c)%Z) in *. clearbody q j.
    rewrite E in D. assert (EJ : (j = 1 + (2 * i + 1 - wamount c / 2 * q) * 2)%Z) by lia.
    rewrite EJ. rewrite Z.mod_add by lia. reflexivity.
Qed.

Lemma f3_meets_iff : forall T c al s t row, (4 <= wamount c)%Z -> f3_ok (wamount c) -> (1 <= zlen s)%Z ->
  f3_ins T c al s t row ->
  ((forall ir, In ir (f3_enabled (wamount c) (zlen s)) -> holds L T (enable (f3_gates (P:=P) c) (row + snd ir) (fst ir))) <->
   f3_sums T c (zlen s) row).
Proof.
  intros T c al s t row Hw Hok Hm HI.
  assert (A : holds L T (enable (f3_gates (P:=P) c) (row + 0) 0) <->
     cl T c row 3 = (cl T c row 1 - cl T c row 2) * cl T c row 0).
  { rewrite holds_enable by (apply f3_gates_pos). rewrite Z.add_0_r, f3_first_eval by exact Hw. apply fsub_eq0. }
  assert (B : forall i, (0 <= i)%Z ->
     (holds L T (enable (f3_gates (P:=P) c) (row + (4 * i + 3) / wamount c) (f3_idx (wamount c) ((4 * i + 3) mod wamount c))) <->
     cl T c row (4 * i + 3) = cl T c row (4 * i - 1) + (cl T c row (4 * i + 1) - cl T c row (4 * i + 2)) * cl T c row (4 * i))).
  { intros i Hi. destruct (f3_at c i Hw Hok Hi) as [X Y].
    rewrite holds_enable by exact X. rewrite Y, f3_gen_eval by exact Hw. rewrite fsub_eq0.
    replace (4 * i + 3 - 4)%Z with (4 * i - 1)%Z by lia. replace (4 * i + 3 - 3)%Z with (4 * i)%Z by lia.
    replace (4 * i + 3 - 2)%Z with (4 * i + 1)%Z by lia. replace (4 * i + 3 - 1)%Z with (4 * i + 2)%Z by lia. reflexivity. }
  assert (CM : cl T c row (4 * 0 - 1) = T CWit (W c (wamount c - 1)) (row - 1)%Z).
  { change (4 * 0 - 1)%Z with (0 - 1)%Z. pose proof (cell_prev P T c 0 (wamount c) row 0 1 ltac:(lia)) as X.
    rewrite Z.mod_0_l, Z.div_0_l in X by lia. rewrite X by lia. f_equal; [f_equal|]; lia. }
  split.
  - intros H.
    assert (H0 : cl T c row 3 = (cl T c row 1 - cl T c row 2) * cl T c row 0).
    { apply A. apply (H (0, 0)%Z). apply f3_enabled_spec; auto. }
    split; [exact H0|]. split.
    + intros i Hi. apply (B i ltac:(lia)). apply (H (_, _)). apply f3_enabled_spec; [exact Hw|exact Hm|]. right. exists i. auto.
    + intros N1.
      assert (H1 : cl T c row (4 * 0 + 3) = cl T c row (4 * 0 - 1) + (cl T c row (4 * 0 + 1) - cl T c row (4 * 0 + 2)) * cl T c row (4 * 0)).
      { apply (B 0%Z ltac:(lia)). apply (H (_, _)). apply f3_enabled_spec; [exact Hw|exact Hm|]. right. exists 0%Z. auto. }
      rewrite CM in H1. change (4 * 0 + 3)%Z with 3%Z in H1. change (4 * 0 + 1)%Z with 1%Z in H1. change (4 * 0 + 2)%Z with 2%Z in H1.
      change (4 * 0)%Z with 0%Z in H1. rewrite H0 in H1.
      transitivity ((cl T c row 1 - cl T c row 2) * cl T c row 0 - (cl T c row 1 - cl T c row 2) * cl T c row 0); [|ring].
      rewrite H1 at 1. ring.
  - intros [G1 [G2 G3]] ir Hir. apply f3_enabled_spec in Hir; [|exact Hw|exact Hm].
    destruct Hir as [-> |[i [Hi ->]]]; [apply A; exact G1|]. cbn [fst snd]. apply B; [lia|].
    destruct Hi as [Hi|[-> N1]]; [apply G2; exact Hi|]. rewrite CM, (G3 N1).
    change (4 * 0 + 3)%Z with 3%Z. change (4 * 0 + 1)%Z with 1%Z. change (4 * 0 + 2)%Z with 2%Z. change (4 * 0)%Z with 0%Z.
    rewrite G1. ring.
Qed.

Lemma f3_circuit_iff : forall T c al s t row, (4 <= wamount c)%Z -> f3_ok (wamount c) -> (1 <= zlen s)%Z ->
  (sat L T (f3_circuit c al s t row) <-> f3_ins T c al s t row /\ f3_sums T c (zlen s) row).
Proof.
  intros T c al s t row Hw Hok Hm. unfold f3_circuit. rewrite sat_app, sat_map, f3_copies_iff by assumption.
  split.
  - intros [A B]. rewrite f3_meets_iff in A by eassumption. auto.
  - intros [A B]. split; [|exact A]. rewrite (f3_meets_iff T c al s t row Hw Hok Hm A). exact B.
Qed.

(** ** Sums *)

Lemma f3_sum_S : forall T al s t k, (0 <= k)%Z ->
  f3_sum T al s t (k + 1) = f3_sum T al s t k + (vval T (znth dvar s k) - vval T (znth dvar t k)) * vval T (znth dvar al k).
Proof. intros. unfold f3_sum. rewrite fold_zseq_snoc by lia. reflexivity. Qed.
Lemma list_sum_snoc : forall (l : list F) x, list_sum (l ++ [x]) = list_sum l + x.
Proof. induction l as [|y l IH]; intros x; cbn [app list_sum fold_right] in *; [ring|]. unfold list_sum in *. rewrite IH. ring. Qed.

(** What f3_loop computes. *)
Definition f3_value T (al s t : list var) : F :=
  list_sum (map (fun ast => vval T (fst ast) * (vval T (fst (snd ast)) - vval T (snd (snd ast)))) (combine al (combine s t))).

Lemma f3_sum_value : forall T al s t, zlen al = zlen s -> zlen t = zlen s -> f3_sum T al s t (zlen s) = f3_value T al s t.
Proof.
  intros T al s t Ea Et. unfold f3_value.
  assert (G : forall k, (0 <= k < zlen s + 1)%Z ->
    f3_sum T al s t k = list_sum (map (fun ast => vval T (fst ast) * (vval T (fst (snd ast)) - vval T (snd (snd ast)))) (firstn (Z.to_nat k) (combine al (combine s t))))).
  { apply (zind _ (zlen s + 1)).
    - reflexivity.
    - intros j Hj Hl IH. rewrite f3_sum_S, IH by lia.
      assert (X : firstn (Z.to_nat (j + 1)) (combine al (combine s t)) = firstn (Z.to_nat j) (combine al (combine s t)) ++ [(znth dvar al j, (znth dvar s j, znth dvar t j))]).
      { replace (Z.to_nat (j + 1)) with (S (Z.to_nat j)) by lia. unfold znth.
        assert (LT : (Z.to_nat j < length (combine al (combine s t)))%nat) by (rewrite !combine_length; unfold zlen in *; lia).
        rewrite <- (combine_nth s t (Z.to_nat j) dvar dvar) by (unfold zlen in *; lia).
        rewrite <- (combine_nth al (combine s t) (Z.to_nat j) dvar (dvar, dvar)) by (rewrite combine_length; unfold zlen in *; lia).
        generalize (Z.to_nat j) LT. generalize (combine al (combine s t)). clear.
        intros l. induction l as [|x l IH]; intros [|n] H; cbn [length firstn nth app] in *; try lia; [reflexivity|].
        rewrite (IH n) by lia. reflexivity. }
      rewrite X, map_app. cbn [map fst snd]. rewrite list_sum_snoc. ring. }
  rewrite G by (unfold zlen; lia). do 2 f_equal. apply firstn_all2. rewrite !combine_length. unfold zlen. lia.
Qed.

Lemma f3_out_cell : forall T c m row, (4 <= wamount c)%Z -> (1 <= m)%Z -> vval T (f3_out c m row) = cl T c row (4 * m - 1).
Proof.
  intros T c m row Hw Hm. unfold f3_out. cbv zeta. rewrite (last_mod (4 * m) (wamount c)) by lia.
  rewrite vval_wcell, cell_at, f3_rows_eq by assumption. f_equal; [f_equal|]; lia.
Qed.

Lemma f3_cells : forall T c al s t row, (1 <= zlen s)%Z -> f3_ins T c al s t row -> f3_sums T c (zlen s) row ->
  forall k, (0 <= k < zlen s)%Z -> cl T c row (4 * k + 3) = f3_sum T al s t (k + 1).
Proof.
  intros T c al s t row Hm HI [H0 [HP _]]. apply (zind _ (zlen s)).
  - change (4 * 0 + 3)%Z with 3%Z. rewrite f3_sum_S by lia. rewrite H0.
    destruct (HI 0%Z ltac:(lia)) as [A [B D]]. change (4 * 0)%Z with 0%Z in A. change (4 * 0 + 1)%Z with 1%Z in B. change (4 * 0 + 2)%Z with 2%Z in D. rewrite A, B, D.
    change (f3_sum T al s t 0) with (f0 : F). ring.
  - intros j Hj Hl IH. rewrite (HP (j + 1)%Z) by lia. replace (4 * (j + 1) - 1)%Z with (4 * j + 3)%Z by lia. rewrite IH.
    destruct (HI (j + 1)%Z ltac:(lia)) as [A [B D]]. rewrite A, B, D. symmetry. apply f3_sum_S. lia.
Qed.

Lemma f3_sound_l : forall T c al s t row, (4 <= wamount c)%Z -> f3_ok (wamount c) -> (1 <= zlen s)%Z ->
  zlen al = zlen s -> zlen t = zlen s ->
  sat L T (f3_circuit c al s t row) ->
  vval T (f3_out c (zlen s) row) = f3_value T al s t.
Proof.
  intros T c al s t row Hw Hok Hm Ea Et H. apply f3_circuit_iff in H; [|exact Hw|exact Hok|exact Hm]. destruct H as [HI HP].
  rewrite f3_out_cell by assumption. replace (4 * zlen s - 1)%Z with (4 * (zlen s - 1) + 3)%Z by lia.
  rewrite (f3_cells T c al s t row Hm HI HP) by lia. replace (zlen s - 1 + 1)%Z with (zlen s) by lia.
  apply f3_sum_value; assumption.
Qed.

(** ** Completeness *)

Lemma f3_complete_l : forall T c w al s t row, wf_comp c w -> (4 <= w)%Z -> f3_ok w -> (1 <= zlen s)%Z ->
  zlen al = zlen s -> zlen t = zlen s ->
  let n := f3_rows w (zlen s) in
  (forall x, In x al -> outside c n row x) -> (forall x, In x s -> outside c n row x) -> (forall x, In x t -> outside c n row x) ->
  (n = 1%Z -> T CWit (W c (w - 1)) (row - 1)%Z = f0) ->
  let T' := f3_assign c al s t row T in
  sat L T' (f3_circuit c al s t row) /\ frame c n row T T' /\
  vval T' (f3_out c (zlen s) row) = f3_value T al s t.
Proof.
  intros T c w al s t row Hwf Hw Hok Hm Ea Et n Oa Os Ot Hz T'.
  pose proof (proj1 (proj2 Hwf)) as Ew. pose proof (f3_rows_eq w (zlen s) Hw Hm) as N. fold n in N.
  set (m := zlen s) in *.
  assert (Hdiv : forall p, (0 <= p < 4 * m)%Z -> (0 <= p / w <= (4 * m - 1) / w)%Z).
  { intros p Hp. split; [apply Z.div_pos; lia|apply Z.div_le_mono; lia]. }
  assert (ET : T' = wsets T (map (fun i => (W c (i mod w + 0), (row + i / w)%Z, f3_val T al s t i)) (zseq 0 (4 * m)) ++ [])).
  { subst T'. unfold f3_assign. cbv zeta. rewrite Ew. fold m. rewrite app_nil_r. f_equal. apply map_ext. intros i.
    rewrite Z.add_0_r. reflexivity. }
  assert (FT : frame c n row T T').
  { rewrite ET. apply (wsets_frame P c w); [exact Hwf|]. intros col r v H. rewrite app_nil_r in H.
    apply in_map_iff in H; destruct H as [i [E Hi]]; apply in_zseq in Hi;
      injection E as <- <- <-; (split; [eexists; reflexivity|]).
    specialize (Hdiv i Hi). lia. }
  assert (Vo : forall x, outside c n row x -> vval T' x = vval T x).
  { intros x Hx. apply (vval_frame P c n row T T'); assumption. }
  assert (R : forall p, (0 <= p < 4 * m)%Z -> cl T' c row p = f3_val T al s t p).
  { intros p Hp. rewrite cell_at, ET, Ew.
    apply (strip_read P T c w 0 w row (4 * m) (f3_val T al s t)); [exact Hwf|lia|lia|lia|exact Hp|].
    intros v []. }
  assert (RI : f3_ins T' c al s t row).
  { intros i Hi. rewrite !R by (fold m in Hi; lia). unfold f3_val.
    replace ((4 * i) mod 4)%Z with 0%Z by (clear; zd). replace ((4 * i + 1) mod 4)%Z with 1%Z by (clear; zd).
    replace ((4 * i + 2) mod 4)%Z with 2%Z by (clear; zd).
    replace (4 * i / 4)%Z with i by (clear; zd). replace ((4 * i + 1) / 4)%Z with i by (clear; zd).
    replace ((4 * i + 2) / 4)%Z with i by (clear; zd). cbn [Z.eqb Pos.eqb].
    repeat split; symmetry; apply Vo; [apply Oa|apply Os|apply Ot]; apply znth_In; fold m in Hi; lia. }
  assert (RP : f3_sums T' c m row).
  { assert (H3 : forall i, (0 <= i < m)%Z -> cl T' c row (4 * i + 3) = f3_sum T al s t (i + 1)).
    { intros i Hi. rewrite R by lia. unfold f3_val.
      replace ((4 * i + 3) mod 4)%Z with 3%Z by (clear; zd). replace ((4 * i + 3) / 4)%Z with i by (clear; zd). reflexivity. }
    assert (HA : forall i, (0 <= i < m)%Z -> cl T' c row (4 * i) = vval T (znth dvar al i)).
    { intros i Hi. rewrite (proj1 (RI i Hi)). apply Vo, Oa, znth_In. lia. }
    assert (HS : forall i, (0 <= i < m)%Z -> cl T' c row (4 * i + 1) = vval T (znth dvar s i)).
    { intros i Hi. rewrite (proj1 (proj2 (RI i Hi))). apply Vo, Os, znth_In. exact Hi. }
    assert (HT : forall i, (0 <= i < m)%Z -> cl T' c row (4 * i + 2) = vval T (znth dvar t i)).
    { intros i Hi. rewrite (proj2 (proj2 (RI i Hi))). apply Vo, Ot, znth_In. lia. }
    split; [|split].
    - pose proof (H3 0%Z ltac:(lia)) as A. pose proof (HA 0%Z ltac:(lia)) as B. pose proof (HS 0%Z ltac:(lia)) as D. pose proof (HT 0%Z ltac:(lia)) as E.
      change (4 * 0 + 3)%Z with 3%Z in A. change (4 * 0)%Z with 0%Z in B. change (4 * 0 + 1)%Z with 1%Z in D. change (4 * 0 + 2)%Z with 2%Z in E.
      rewrite A, B, D, E, f3_sum_S by lia. change (f3_sum T al s t 0) with (f0 : F). ring.
    - intros i Hi. replace (4 * i - 1)%Z with (4 * (i - 1) + 3)%Z by lia. rewrite !H3, HA, HS, HT by lia.
      replace (i - 1 + 1)%Z with i by lia. apply f3_sum_S. lia.
    - rewrite Ew. fold n. intros N1. rewrite FT; [apply Hz; exact N1|].
      intros [_ [_ X]]. lia. }
  assert (S : sat L T' (f3_circuit c al s t row)).
  { apply f3_circuit_iff; [lia|rewrite Ew; exact Hok|exact Hm|]. auto. }
  split; [exact S|]. split; [exact FT|].
  unfold m. rewrite (f3_sound_l T' c al s t row ltac:(lia) ltac:(rewrite Ew; exact Hok) Hm Ea Et S).
  unfold f3_value. f_equal. apply map_ext_in. intros [a [b d]] Hab. cbn [fst snd].
  pose proof (in_combine_r _ _ _ _ Hab) as Hbd.
  rewrite (Vo a), (Vo b), (Vo d); [reflexivity| | |].
  - apply Ot. eapply in_combine_r; exact Hbd.
  - apply Os. eapply in_combine_l; exact Hbd.
  - apply Oa. eapply in_combine_l; exact Hab.
Qed.

(** ** The cells read *)

Lemma f3_gen_reads : forall (Q : ctype -> Z -> Z -> Prop) c j r,
  (forall k, Q CWit (W c k) r) -> (j <= 3 -> Q CWit (W c (j - 4 + wamount c)) (r - 1) /\
    (j < 3 -> forall k, Q CWit (W c k) (r - 1)))%Z ->
  expr_reads Q r (f3_gen c j).
Proof.
  intros Q c j r H1 H2. unfold f3_gen, f3_con, f3_back, wvar. cbn [expr_reads].
  assert (BK : forall t, (1 <= t <= 4)%Z -> expr_reads Q r (if (t <=? j)%Z then (evar (wv (W c (j - t)) 0) : expr P) else evar (wv (W c (j - t + wamount c)) (-1)))).
  { intros t Ht. destruct (Z.leb_spec t j); apply reads_wv; [rewrite Z.add_0_r; apply H1|].
    change (r + -1)%Z with (r - 1)%Z. destruct (H2 ltac:(lia)) as [A B].
    destruct (Z.eq_dec t 4) as [-> |Nt]; [exact A|apply B; lia]. }
  repeat split; try (apply BK; lia); apply reads_wv; rewrite Z.add_0_r; apply H1.
Qed.

Lemma f3_reads : forall (Q : ctype -> Z -> Z -> Prop) c al s t row, (4 <= wamount c)%Z -> f3_ok (wamount c) -> (1 <= zlen s)%Z ->
  zlen al = zlen s -> zlen t = zlen s ->
  (forall j r, (row <= r < row + f3_rows (wamount c) (zlen s))%Z -> Q CWit (W c j) r) ->
  Q CWit (W c (wamount c - 1)) (row - 1)%Z ->
  (forall x, In x al -> var_reads Q x) -> (forall x, In x s -> var_reads Q x) -> (forall x, In x t -> var_reads Q x) ->
  reads Q (f3_circuit (P:=P) c al s t row).
Proof.
  intros Q c al s t row Hw Hok Hm Ea Et HQ Hp Ha Hs Ht. unfold f3_circuit. rewrite reads_app.
  pose proof (f3_rows_eq (wamount c) (zlen s) Hw Hm) as N. split.
  - apply reads_map. intros ir Hir. apply f3_enabled_spec in Hir; [|exact Hw|exact Hm]. apply enable_reads. intros _.
    destruct Hir as [-> |[i [Hi ->]]].
    + cbn [fst snd]. unfold f3_gates. cbv zeta.
      match goal with |- expr_reads _ _ (znth _ ([?a] ++ ?b) 0) => change (znth (ecst f0) ([a] ++ b) 0) with a end.
      cbn [expr_reads]. assert (0 <= (4 * zlen s - 1) / wamount c)%Z by (apply Z.div_pos; lia).
      repeat split; apply reads_wv; apply HQ; lia.
    + cbn [fst snd]. destruct (f3_at c i Hw Hok ltac:(lia)) as [_ ->].
      set (p := (4 * i + 3)%Z). assert (Hpp : (3 <= p <= 4 * zlen s - 1)%Z) by (unfold p; lia).
      pose proof (Z.div_mod p (wamount c) ltac:(lia)) as D. pose proof (Z.mod_pos_bound p (wamount c) ltac:(lia)) as M.
      assert (R0 : (0 <= p / wamount c)%Z) by (apply Z.div_pos; lia).
      assert (R1 : (p / wamount c <= (4 * zlen s - 1) / wamount c)%Z) by (apply Z.div_le_mono; lia).
      apply f3_gen_reads; [intros k; apply HQ; lia|]. intros Hj.
      destruct (Z.eq_dec (p / wamount c) 0) as [Z0|Z0].
      * rewrite Z0 in *. assert (Ej : (p mod wamount c = 3)%Z) by lia. rewrite Ej. split; [|lia].
        replace (3 - 4 + wamount c)%Z with (wamount c - 1)%Z by lia. rewrite Z.add_0_r. exact Hp.
      * split; [apply HQ; lia|]. intros _ k. apply HQ. lia.
  - unfold f3_copies. cbv zeta. apply reads_flat. intros r Hr. apply in_zseq in Hr.
    rewrite (last_mod (4 * zlen s) (wamount c)) by lia.
    apply reads_flat. intros j Hj. apply in_zseq in Hj.
    pose proof (Z.mod_pos_bound (4 * zlen s - 1) (wamount c) ltac:(lia)) as ML.
    assert (Hj' : (0 <= j < wamount c)%Z) by (destruct (r =? _)%Z; lia).
    assert (0 <= r * wamount c)%Z by (apply Z.mul_nonneg_nonneg; lia).
    assert (LE : (r * wamount c + j <= 4 * zlen s - 1)%Z).
    { apply tape_le; [lia|exact Hj'|]. destruct (Z.eqb_spec r (f3_rows (wamount c) (zlen s) - 1)) as [E|E]; [right; lia|left; lia]. }
    set (tmp := (r * wamount c + j)%Z) in *.
    assert (X : (0 <= tmp / 4 < zlen s)%Z) by (assert (0 <= tmp)%Z by (subst tmp; lia); clear - H0 LE; zd).
    destruct (Z.eqb_spec (tmp mod 4) 0) as [E0|E0]; [|destruct (Z.eqb_spec (tmp mod 4) 1) as [E1|E1]; [|destruct (Z.eqb_spec (tmp mod 4) 2) as [E2|E2]; [|apply reads_nil]]];
      (apply reads_cons; split; [|apply reads_nil]); (split; [apply (HQ j (row + r)%Z); lia|]).
    + apply Ha, znth_In. lia.
    + apply Hs, znth_In. exact X.
    + apply Ht, znth_In. lia.
Qed.

End F3.
