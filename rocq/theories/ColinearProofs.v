(** The assignment of colinear_checks: it satisfies the gates when the inputs
    fold. *)
From Coq Require Import ZArith List Lia Bool Ring Field.
From Verif Require Import Base Field Plonk PlonkFacts Bits FlexModel FlexProofs FlexPow PowerProofs Props_Flex.
Import ListNotations.
Open Scope Z_scope.

(** The pairs (row, block) in the order of the loops. *)
Lemma pairs_flat : forall per rows, 0 < per -> 0 <= rows ->
  flat_map (fun i => map (fun b => (i, b)) (zseq 0 per)) (zseq 0 rows) = map (fun k => (k / per, k mod per)) (zseq 0 (rows * per)).
Proof.
  intros per rows Hp Hr. pattern rows. apply natlike_ind; [reflexivity| |exact Hr]. clear rows Hr.
  intros rows Hr IH. unfold Z.succ. rewrite zseq_snoc by lia. rewrite flat_map_app, IH. cbn [flat_map]. rewrite app_nil_r.
  rewrite (zseq_app 0 (rows * per) ((rows + 1) * per)) by nia. rewrite map_app. f_equal.
  replace ((rows + 1) * per) with (rows * per + per) by lia.
  assert (K : forall n, 0 <= n -> n <= per -> map (fun b => (rows, b)) (zseq 0 n) = map (fun k => (k / per, k mod per)) (zseq (rows * per) (rows * per + n))).
  { intros n Hn. pattern n. apply natlike_ind; [| |exact Hn]; clear n Hn.
    - intros _. rewrite !zseq_nil by lia. reflexivity.
    - intros n Hn IHn Hle. unfold Z.succ in *. rewrite zseq_snoc by lia. rewrite Z.add_assoc, zseq_snoc by lia.
      rewrite !map_app, IHn by lia. f_equal. cbn [map]. do 2 f_equal.
      + rewrite Z.div_add_l by lia. rewrite Z.div_small by lia. lia.
      + rewrite Z.add_comm, Z.mod_add by lia. rewrite Z.mod_small by lia. reflexivity. }
  apply K; lia.
Qed.

Section Col.
Variable P : params.
Notation F := (F P).
Notation table := (table P).
Add Field Ff : (F_field P) (morphism (F_morph P), constants [F_const], power_tac (F_power P) [F_pow_tac]).
Variable L : lenv P.
Variable c : comp.
Variable w r row : Z.
Variable inp : clin.
Hypothesis Hwf : wf_comp c w.
Hypothesis H9 : 9 <= w.
Hypothesis Hr : 0 <= r.
Notation per := (cl_per w).
Notation rows := (cl_rows w r).

Lemma cl_per_spec : 1 <= per /\ 5 * per + 4 <= w.
Proof. unfold cl_per. pose proof (Z.mul_div_le (w - 4) 5 ltac:(lia)). split; [apply Z.div_le_lower_bound; lia|lia]. Qed.
Lemma cl_rows_nonneg : 0 <= rows.
Proof.
  pose proof cl_per_spec as [A _]. unfold cl_rows, ceil_rows. fold per.
  assert (0 <= (5 * r + 4 - 4) / per) by (apply Z.div_pos; lia). destruct (_ =? _); lia.
Qed.

(** One iteration. *)
Definition cl_step (st : table * F) (ib : Z * Z) : table * F :=
  let '(T, x) := st in
  let '(i, b) := ib in
  let cur := i * per + b in
  if cur <? r then (wsets T (cl_block c T inp row i b cur x), fmul x x)
  else (wsets T (cl_fake c T row i b), x).
Lemma cl_assign_eq : forall T, cl_assign c r inp row T =
  fst (fold_left (fun st k => cl_step st (k / per, k mod per)) (zseq 0 (rows * per)) (T, vval T (cl_x inp))).
Proof.
  intros T. unfold cl_assign. rewrite (proj1 (proj2 Hwf)). pose proof cl_per_spec as [A _]. rewrite pairs_flat by (first [lia|apply cl_rows_nonneg]).
  cbv zeta. f_equal. generalize (T, vval T (cl_x inp)). induction (zseq 0 (rows * per)) as [|k l IH]; intros st; [reflexivity|].
  cbn [map fold_left]. apply IH.
Qed.

Lemma frame_refl : forall T : table, frame c rows row T T.
Proof. intros T ty col rw _. reflexivity. Qed.
Lemma cl_step_frame : forall T0 T x i b, 0 <= i < rows -> frame c rows row T0 T -> frame c rows row T0 (fst (cl_step (T, x) (i, b))).
Proof.
  intros T0 T x i b Hi FR.
  assert (K : frame c rows row T (fst (cl_step (T, x) (i, b)))).
  { unfold cl_step. cbv zeta. destruct (i * per + b <? r); cbn [fst]; apply (wsets_frame P c w); try exact Hwf;
      intros col rw v Hin; unfold cl_block, cl_fake in Hin; cbv zeta in Hin; cbn [In] in Hin;
      repeat (destruct Hin as [Hin|Hin]; [injection Hin as <- <- <-; split; [eexists; reflexivity|lia]|]); destruct Hin. }
  intros ty col rw N. rewrite K by exact N. apply FR. exact N.
Qed.
Lemma cl_frame : forall T : table, frame c rows row T (cl_assign c r inp row T).
Proof.
  intros T. rewrite cl_assign_eq. pose proof cl_per_spec as [A _].
  assert (K : forall l st, (forall k, In k l -> 0 <= k < rows * per) -> frame c rows row T (fst st) ->
    frame c rows row T (fst (fold_left (fun st k => cl_step st (k / per, k mod per)) l st))).
  { induction l as [|k l IH]; intros [T1 x] HL FR; [exact FR|]. cbn [fold_left]. apply IH; [intros q Hq; apply HL; right; exact Hq|].
    apply cl_step_frame; [|exact FR]. specialize (HL k (or_introl eq_refl)).
    split; [apply Z.div_pos; lia|apply Z.div_lt_upper_bound; lia]. }
  apply K; [|apply frame_refl]. intros k Hk. apply in_zseq in Hk. exact Hk.
Qed.

Variable T0 : table.
Hypothesis H2 : char P <> 2.
Hypothesis Hys : zlen (cl_ys inp) = 2 * r + 2.
Hypothesis Hbs : zlen (cl_bs inp) = r + 1.
Hypothesis Hal : zlen (cl_al inp) = r.
Hypothesis Ho : forall v, In v (cl_ys inp ++ cl_bs inp ++ cl_al inp) -> outside c rows row v.
Notation ys i := (vval T0 (znth (wcell 0 0) (cl_ys inp) i)).
Notation bs i := (vval T0 (znth (wcell 0 0) (cl_bs inp) i)).
Notation al i := (vval T0 (znth (wcell 0 0) (cl_al inp) i)).
Notation X k := (fexp (vval T0 (cl_x inp)) (2 ^ k)).
Hypothesis Hf : forall k, 0 <= k < r -> k mod per <> 0 ->
  folds (X k) (bs k) (ys (2 * k)) (ys (2 * k + 1)) (al k) (chosen (bs (k + 1)) (ys (2 * k + 2)) (ys (2 * k + 3))).

Definition cl_cell (T : table) (k t : Z) : F := T CWit (W c (k mod per * 5 + t)) (row + k / per).
Definition cl_holds (T : table) (k : Z) : Prop :=
  folds (cl_cell T k 0) (cl_cell T k 1) (cl_cell T k 2) (cl_cell T k 3) (cl_cell T k 4)
    (chosen (cl_cell T k 6) (cl_cell T k 7) (cl_cell T k 8)).
Record cl_inv (n : Z) (st : table * F) : Prop := {
  ci_frame : frame c rows row T0 (fst st);
  ci_x : n <= r -> snd st = X n;
  ci_done : forall k, 0 <= k < n -> k mod per <> 0 -> cl_holds (fst st) k;
  ci_next : 0 < n <= r -> n mod per <> 0 ->
    cl_cell (fst st) n 0 = X n /\ cl_cell (fst st) n 1 = bs n /\ cl_cell (fst st) n 2 = ys (2 * n) /\ cl_cell (fst st) n 3 = ys (2 * n + 1) }.

Lemma znth_In' : forall A (d : A) l i, 0 <= i < zlen l -> In (znth d l i) l.
Proof. intros A d l i Hi. unfold znth. apply nth_In. unfold zlen in Hi. lia. Qed.

Lemma X_next : forall k, 0 <= k -> X (k + 1) = fmul (X k) (X k).
Proof.
  intros k Hk. unfold fexp. rewrite Z.pow_add_r by lia. replace (Z.to_nat (2 ^ k * 2 ^ 1)) with (Z.to_nat (2 ^ k) + Z.to_nat (2 ^ k))%nat
    by (pose proof (Z.pow_nonneg 2 k); lia).
  induction (Z.to_nat (2 ^ k)) as [|n IH] at 1 3; cbn [Nat.add fpow]; [ring|]. rewrite IH. ring.
Qed.

(** Reading what one iteration wrote. *)
Lemma col_neq : forall b b' t t', 0 <= b < per -> 0 <= b' < per -> 0 <= t < 9 -> 0 <= t' < 9 -> b * 5 + t <> b' * 5 + t' ->
  W c (b * 5 + t) <> W c (b' * 5 + t').
Proof.
  intros b b' t t' Hb Hb' Ht Ht' N E. apply N. pose proof cl_per_spec. apply (W_inj c w); [exact Hwf|lia|lia|exact E].
Qed.
Lemma blk_read : forall (T : table) b R (f : Z -> F) ts t, 0 <= b < per -> (forall q, In q ts -> 0 <= q < 9) -> In t ts ->
  wsets T (map (fun t => (W c (b * 5 + t), R, f t)) ts) CWit (W c (b * 5 + t)) R = f t.
Proof.
  intros T b R f ts t Hb HT Hin. apply wsets_read; [apply (in_map (fun t => (W c (b * 5 + t), R, f t))); exact Hin|].
  intros v Hv. apply in_map_iff in Hv as [q [E Hq]]. injection E as E <-.
  destruct (Z.eq_dec q t) as [->|N]; [reflexivity|]. exfalso. apply (col_neq b b q t Hb Hb (HT q Hq) (HT t Hin)); [lia|exact E].
Qed.
Lemma blk_other : forall (T : table) b R (f : Z -> F) ts b' t R', 0 <= b < per -> 0 <= b' < per -> 0 <= t < 9 -> (forall q, In q ts -> 0 <= q < 9) ->
  (R' = R -> ~ In (b' * 5 + t - b * 5) ts) ->
  wsets T (map (fun t => (W c (b * 5 + t), R, f t)) ts) CWit (W c (b' * 5 + t)) R' = T CWit (W c (b' * 5 + t)) R'.
Proof.
  intros T b R f ts b' t R' Hb Hb' Ht HT N. apply wsets_other. intros v Hv. apply in_map_iff in Hv as [q [E Hq]]. injection E as E E2 _.
  destruct (Z.eq_dec (b * 5 + q) (b' * 5 + t)) as [EQ|NE].
  - apply N; [symmetry; exact E2|]. replace (b' * 5 + t - b * 5) with q by lia. exact Hq.
  - exact (col_neq b b' q t Hb Hb' (HT q Hq) Ht NE E).
Qed.

Definition t9 : list Z := [0; 1; 2; 3; 4; 5; 6; 7; 8].
Definition t5 : list Z := [4; 5; 6; 7; 8].
Lemma t9_in : forall q, In q t9 <-> 0 <= q < 9.
Proof. intros q. unfold t9. cbn [In]. lia. Qed.
Lemma t5_in : forall q, In q t5 <-> 4 <= q < 9.
Proof. intros q. unfold t5. cbn [In]. lia. Qed.

Lemma inp_vals : forall T, frame c rows row T0 T ->
  (forall i, 0 <= i < 2 * r + 2 -> vval T (znth (wcell 0 0) (cl_ys inp) i) = ys i) /\
  (forall i, 0 <= i < r + 1 -> vval T (znth (wcell 0 0) (cl_bs inp) i) = bs i) /\
  (forall i, 0 <= i < r -> vval T (znth (wcell 0 0) (cl_al inp) i) = al i).
Proof.
  intros T FR. split; [|split]; intros i Hi; apply (vval_frame P c rows row T0 T _ FR); apply Ho; rewrite !in_app_iff.
  - left. apply znth_In'. lia.
  - right. left. apply znth_In'. lia.
  - right. right. apply znth_In'. lia.
Qed.
Lemma two_nz : (ofZ 2 : F) <> f0.
Proof.
  pose proof (char_ge_2 P). intros E. apply ofZ_inj in E. rewrite Z.mod_0_l, Z.mod_small in E; lia.
Qed.

Lemma divmod_succ : forall n, 0 <= n -> (n + 1) mod per <> 0 -> (n + 1) / per = n / per /\ (n + 1) mod per = n mod per + 1.
Proof.
  intros n Hn N. pose proof cl_per_spec as [A _]. pose proof (Z.div_mod n per ltac:(lia)) as D. pose proof (Z.mod_pos_bound n per ltac:(lia)) as M.
  destruct (Z.eq_dec (n mod per + 1) per) as [E|NE].
  - exfalso. apply N. replace (n + 1) with ((n / per + 1) * per) by nia. apply Z.mod_mul. lia.
  - split; symmetry; [apply (Z.div_unique _ _ _ (n mod per + 1))|apply (Z.mod_unique _ _ (n / per))]; lia.
Qed.

Lemma cl_inv_step : forall n st, 0 <= n < rows * per -> cl_inv n st -> cl_inv (n + 1) (cl_step st (n / per, n mod per)).
Proof.
  intros n [T x] Hn I. pose proof cl_per_spec as [A A2]. pose proof (Z.div_mod n per ltac:(lia)) as D. pose proof (Z.mod_pos_bound n per ltac:(lia)) as M.
  assert (HI : 0 <= n / per < rows) by (split; [apply Z.div_pos; lia|apply Z.div_lt_upper_bound; lia]).
  pose proof (cl_step_frame T0 T x (n / per) (n mod per) HI (ci_frame _ _ I)) as FR.
  pose proof (ci_frame _ _ I) as FR0. cbn [fst] in FR0. destruct (inp_vals T FR0) as [VY [VB VA]].
  assert (EC : n / per * per + n mod per = n) by lia.
  (* earlier blocks are not changed *)
  assert (KEEP : (forall k t, 0 <= k < n -> k mod per <> 0 -> 0 <= t < 9 -> cl_cell (fst (cl_step (T, x) (n / per, n mod per))) k t = cl_cell T k t) ->
    forall k, 0 <= k < n -> k mod per <> 0 -> cl_holds (fst (cl_step (T, x) (n / per, n mod per))) k).
  { intros E k Hk Nk. pose proof (ci_done _ _ I k Hk Nk) as K. cbn [fst] in K. unfold cl_holds in *. rewrite !E by (assumption || lia). exact K. }
  assert (PREV : forall k, 0 <= k < n -> k / per = n / per -> k mod per < n mod per).
  { intros k Hk E. pose proof (Z.div_mod k per ltac:(lia)). rewrite E in *. lia. }
  unfold cl_step in *. cbv zeta in *. rewrite EC in *. destruct (Z.ltb_spec n r) as [LT|GE]; cbn [fst snd] in *.
  - set (vs := [x; bs n; ys (2 * n); ys (2 * n + 1); al n; fmul x x; bs (n + 1); ys (2 * (n + 1)); ys (2 * (n + 1) + 1)]).
    assert (EB : cl_block c T inp row (n / per) (n mod per) n x = map (fun t => (W c (n mod per * 5 + t), row + n / per, znth f0 vs t)) t9).
    { unfold cl_block. cbv zeta. rewrite VA, !VY, !VB by lia. reflexivity. }
    rewrite EB in *. set (T1 := wsets T _) in *.
    assert (RD : forall t, 0 <= t < 9 -> cl_cell T1 n t = znth f0 vs t).
    { intros t Ht. unfold cl_cell, T1. apply (blk_read T (n mod per) _ (znth f0 vs) t9); [exact M|intros q; apply t9_in|apply t9_in; exact Ht]. }
    pose proof (ci_x _ _ I ltac:(lia)) as EX. cbn [snd] in EX.
    assert (CN : n mod per <> 0 -> forall t, 0 <= t < 4 -> cl_cell T n t = znth f0 vs t).
    { intros Nn t Ht. assert (0 < n) by (destruct (Z.eq_dec n 0) as [->|]; [rewrite Z.mod_0_l in Nn; lia|lia]).
      destruct (ci_next _ _ I ltac:(lia) Nn) as [N0 [N1 [N2 N3]]]. cbn [fst] in *.
      assert (t = 0 \/ t = 1 \/ t = 2 \/ t = 3) as [->|[->|[->| ->]]] by lia;
        [rewrite N0, <- EX|rewrite N1|rewrite N2|rewrite N3]; reflexivity. }
    split; cbn [fst snd].
    + exact FR.
    + intros _. rewrite X_next, EX by lia. reflexivity.
    + intros k Hk Nk. destruct (Z.eq_dec k n) as [->|NE].
      * unfold cl_holds. rewrite !RD by lia. pose proof (Hf n ltac:(lia) Nk) as K. rewrite <- EX in K.
        replace (2 * n + 2) with (2 * (n + 1)) in K by lia. replace (2 * n + 3) with (2 * (n + 1) + 1) in K by lia. exact K.
      * apply KEEP; [|lia|exact Nk]. clear k Hk Nk NE. intros k t Hk Nk Ht. unfold cl_cell.
        pose proof (Z.mod_pos_bound k per ltac:(lia)) as Mk.
        destruct (Z.eq_dec (k / per) (n / per)) as [Eq|Nq].
        -- pose proof (PREV k Hk Eq) as LTb.
           destruct (Z_lt_le_dec (k mod per * 5 + t) (n mod per * 5)) as [LO|HI2].
           ++ apply blk_other; [exact M|exact Mk|exact Ht|intros q; apply t9_in|]. intros _ K. apply t9_in in K. lia.
           ++ assert (Ek : k mod per = n mod per - 1) by lia. rewrite Eq.
              replace (k mod per * 5 + t) with (n mod per * 5 + (t - 5)) by lia.
              fold (cl_cell T1 n (t - 5)). fold (cl_cell T n (t - 5)). rewrite RD, CN by lia. reflexivity.
        -- apply blk_other; [exact M|exact Mk|exact Ht|intros q; apply t9_in|]. intros K. lia.
    + intros Hn1 Nn1. destruct (divmod_succ n ltac:(lia) Nn1) as [E1 E2].
      assert (SH : forall t, 0 <= t < 4 -> cl_cell T1 (n + 1) t = cl_cell T1 n (t + 5)).
      { intros t Ht. unfold cl_cell. rewrite E1, E2. replace ((n mod per + 1) * 5 + t) with (n mod per * 5 + (t + 5)) by lia. reflexivity. }
      rewrite !SH, !RD by lia. rewrite X_next, <- EX by lia. repeat split.
  - set (s := fsub (fmul (fmul (ofZ 2) (cl_cell T n 1)) (cl_cell T n 0)) (cl_cell T n 0)).
    set (v8 := fmul (fsub (fmul (fadd f0 s) (cl_cell T n 2)) (fmul (fsub f0 s) (cl_cell T n 3)))
               (if feqb s f0 then f0 else finv (fmul (ofZ 2) s))).
    set (vs := [f0; fmul (cl_cell T n 0) (cl_cell T n 0); f0; f0; v8]).
    assert (EB : cl_fake c T row (n / per) (n mod per) = map (fun t => (W c (n mod per * 5 + t), row + n / per, znth f0 vs (t - 4))) t5) by reflexivity.
    rewrite EB in *. set (T1 := wsets T _) in *.
    assert (RD : forall t, 4 <= t < 9 -> cl_cell T1 n t = znth f0 vs (t - 4)).
    { intros t Ht. unfold cl_cell, T1. apply (blk_read T (n mod per) _ (fun t => znth f0 vs (t - 4)) t5); [exact M|intros q Hq; apply t5_in in Hq; lia|apply t5_in; exact Ht]. }
    assert (SM : forall k t, 0 <= k <= n -> 0 <= t < 9 -> (k = n -> t < 4) -> cl_cell T1 k t = cl_cell T k t).
    { intros k t Hk Ht Hkt. unfold cl_cell. pose proof (Z.mod_pos_bound k per ltac:(lia)) as Mk.
      apply blk_other; [exact M|exact Mk|exact Ht|intros q Hq; apply t5_in in Hq; lia|]. intros ER K. apply t5_in in K.
      destruct (Z.eq_dec k n) as [->|NE]; [specialize (Hkt eq_refl); lia|]. pose proof (PREV k ltac:(lia) ltac:(lia)). lia. }
    split; cbn [fst snd].
    + exact FR.
    + intros K. lia.
    + intros k Hk Nk. destruct (Z.eq_dec k n) as [->|NE].
      * unfold cl_holds. rewrite (SM n 0), (SM n 1), (SM n 2), (SM n 3) by lia. rewrite !RD by lia.
        change (znth f0 vs (4 - 4)) with (f0 : F). change (znth f0 vs (6 - 4)) with (f0 : F). change (znth f0 vs (7 - 4)) with (f0 : F).
        change (znth f0 vs (8 - 4)) with v8. unfold folds, chosen. cbv zeta. fold s.
        unfold v8. destruct (feqb s f0) eqn:ES.
        -- apply feqb_eq in ES. rewrite ES. ring.
        -- assert (NS : s <> f0) by (intros K; apply feqb_eq in K; congruence). field. split; [exact NS|exact two_nz].
      * apply KEEP; [|lia|exact Nk]. clear k Hk Nk NE. intros k t Hk Nk Ht. apply SM; lia.
    + intros K. lia.
Qed.

Lemma cl_complete_l : sat L (cl_assign c r inp row T0) (cl_circuit c r row).
Proof.
  pose proof cl_per_spec as [A _]. pose proof cl_rows_nonneg as RN.
  assert (K : forall n, 0 <= n -> n <= rows * per ->
    cl_inv n (fold_left (fun st k => cl_step st (k / per, k mod per)) (zseq 0 n) (T0, vval T0 (cl_x inp)))).
  { intros n Hn. pattern n. apply natlike_ind; [| |exact Hn]; clear n Hn.
    - intros _. change (zseq 0 0) with (@nil Z). cbn [fold_left]. split; cbn [fst snd].
      + apply frame_refl.
      + intros _. change (2 ^ 0) with 1. unfold fexp. change (Z.to_nat 1) with 1%nat. cbn [fpow]. ring.
      + intros k Hk. lia.
      + intros K. lia.
    - intros n Hn IH Hle. unfold Z.succ in *. rewrite zseq_snoc, fold_left_app by lia. cbn [fold_left]. apply cl_inv_step; [lia|apply IH; lia]. }
  specialize (K (rows * per) ltac:(nia) ltac:(lia)). rewrite cl_assign_eq.
  apply (colinear_exact P L _ c w r row (proj1 (proj2 Hwf))). intros i b Hi Hb v. fold per in Hb.
  pose proof (ci_done _ _ K (i * per + b) ltac:(nia)) as D.
  assert (E1 : (i * per + b) mod per = b) by (rewrite Z.add_comm, Z.mod_add by lia; apply Z.mod_small; lia).
  assert (E2 : (i * per + b) / per = i) by (rewrite Z.div_add_l, Z.div_small by lia; lia).
  unfold cl_holds, cl_cell in D. rewrite E1, E2 in D. apply D. lia.
Qed.
End Col.
