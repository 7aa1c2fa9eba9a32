(** Soundness and completeness of f1_loop. *)
From Coq Require Import ZArith List Lia Bool Field.
From Verif Require Import Base Field Plonk PlonkFacts Bits FlexModel FlexProofs PvModel PvSpec PvTape PvGate PvLoops.
Import ListNotations.
Open Scope Z_scope.

Lemma f1_rows_eq : forall w m, 4 <= w -> 1 <= m -> f1_rows w m = Z.max 1 ((3 * m - 1) / (w - 1)) + 1.
Proof. intros w m Hw Hm. unfold f1_rows. rewrite ceil_rows_pred by lia. lia. Qed.

Section F1.
Variable P : params.
Notation F := (F P).
Notation table := (table P).
Variable L : lenv P.
Implicit Types T : table.
Add Field Ff : (F_field P) (morphism (F_morph P), constants [F_const], power_tac (F_power P) [F_pow_tac]).
Local Open Scope F_scope.
Notation cl T c row p := (cell T c 1 (wamount c - 1) row p).
Notation factor := (f1_factor P).

Definition f1_col0 T c (beta gamma : var) (n row : Z) : Prop :=
  forall r, (0 <= r < n)%Z -> T CWit (W c 0) (row + r)%Z = if f1_is_beta (wamount c) r then vval T beta else vval T gamma.
Definition f1_ins T c (s t : list var) (row : Z) : Prop :=
  forall i, (0 <= i < zlen s)%Z ->
    cl T c row (3 * i) = vval T (znth dvar s i) /\ cl T c row (3 * i + 1) = vval T (znth dvar t i).
Definition f1_prods T c (be ga : F) (m row : Z) : Prop :=
  cl T c row 2 = factor be ga (cl T c row 0) (cl T c row 1) /\
  forall i, (1 <= i < m)%Z ->
    cl T c row (3 * i + 2) = cl T c row (3 * i - 1) * factor be ga (cl T c row (3 * i)) (cl T c row (3 * i + 1)).

Lemma f1_copies_iff : forall T c beta gamma s t row, (4 <= wamount c)%Z -> (1 <= zlen s)%Z ->
  (sat L T (f1_copies c beta gamma s t row) <->
   f1_col0 T c beta gamma (f1_rows (wamount c) (zlen s)) row /\ f1_ins T c s t row).
Proof.
  intros T c beta gamma s t row Hw Hm. unfold f1_copies. cbv zeta. rewrite sat_flat.
  set (w := wamount c) in *. set (m := zlen s) in *. set (n := f1_rows w m).
  pose proof (f1_rows_eq w m Hw Hm) as N. fold n in N.
  assert (PQ : forall r j tmp, (0 <= r)%Z -> (1 <= j < w)%Z -> tmp = (r * (w - 1) + j)%Z ->
     (tmp < 3 * m)%Z -> (tmp mod 3 = 1 -> (0 <= tmp / 3 < m)%Z /\ vval T (wcell (W c j) (row + r)) = cl T c row (3 * (tmp / 3)))%Z /\
     (tmp mod 3 = 2 -> (0 <= tmp / 3 < m)%Z /\ vval T (wcell (W c j) (row + r)) = cl T c row (3 * (tmp / 3) + 1))%Z).
  { intros r j tmp Hr Hj -> Ht. destruct (strip_pos w r j Hw Hj) as [A B].
    assert (0 <= r * (w - 1))%Z by (apply Z.mul_nonneg_nonneg; lia).
    set (tmp := (r * (w - 1) + j)%Z) in *.
    split; intros E; (split; [clear - E Ht H Hj; subst tmp; zd|]); rewrite vval_wcell, cell_at; fold w.
    - replace (3 * (tmp / 3))%Z with (tmp - 1)%Z by (clear - E; zd). rewrite A, B. reflexivity.
    - replace (3 * (tmp / 3) + 1)%Z with (tmp - 1)%Z by (clear - E; zd). rewrite A, B. reflexivity. }
  split.
  - intros H. split.
    + intros r Hr. specialize (H r (proj2 (in_zseq _ _ _) Hr)). apply sat_cons in H. destruct H as [H _].
      cbn [holds] in H. rewrite vval_wcell in H. rewrite H. fold w. destruct (f1_is_beta w r); reflexivity.
    + assert (G : forall p, (0 <= p < 3 * m - 1)%Z ->
        sat L T (let tmp := (p + 1)%Z in if (3 * m <=? tmp)%Z then []
          else if (tmp mod 3 =? 1)%Z then [ Copy (wcell (W c (p mod (w - 1) + 1)) (row + p / (w - 1))) (znth dvar s (tmp / 3)) ]
          else if (tmp mod 3 =? 2)%Z then [ Copy (wcell (W c (p mod (w - 1) + 1)) (row + p / (w - 1))) (znth dvar t (tmp / 3)) ]
          else [])).
      { intros p Hp. pose proof (Z.div_mod p (w - 1) ltac:(lia)) as D. pose proof (Z.mod_pos_bound p (w - 1) ltac:(lia)) as M.
        assert (R0 : (0 <= p / (w - 1))%Z) by (apply Z.div_pos; lia).
        assert (LE : (p <= 3 * m - 2)%Z) by lia.
        set (r := (p / (w - 1))%Z) in *. set (j := (p mod (w - 1) + 1)%Z) in *.
        assert (Hj : (1 <= j < w)%Z) by lia.
        assert (LE' : (r * (w - 1) + j - 1 <= 3 * m - 1)%Z) by lia.
        apply strip_le in LE'; [|lia|lia|exact Hj].
        assert (Hr : In r (zseq 0 n)) by (apply in_zseq; lia).
        specialize (H r Hr). apply sat_cons in H. destruct H as [_ H]. rewrite sat_flat in H.
        assert (Ep : (r * (w - 1) + j = p + 1)%Z) by lia.
        specialize (H j). rewrite Ep in H. apply H. apply in_zseq. split; [lia|].
        destruct (Z.eqb_spec r (n - 1)) as [E|E]; [|lia].
        pose proof (last_mod (3 * m) (w - 1) ltac:(lia) ltac:(lia)) as LM.
        destruct (Z.eqb_spec ((3 * m) mod (w - 1)) 0) as [Z0|Z0]; [lia|].
        rewrite LM. destruct LE' as [X|[X Y]]; [lia|].
        pose proof (Z.div_mod (3 * m - 1) (w - 1) ltac:(lia)) as D2. rewrite <- X in D2. lia. }
      intros i Hi. split.
      * specialize (G (3 * i)%Z ltac:(lia)). cbv zeta in G. rewrite (proj2 (Z.leb_gt (3 * m) (3 * i + 1))) in G by lia.
        replace ((3 * i + 1) mod 3)%Z with 1%Z in G by (clear; zd). change (1 =? 1)%Z with true in G. cbv iota in G.
        replace ((3 * i + 1) / 3)%Z with i in G by (clear; zd).
        apply sat_cons in G. destruct G as [G _]. cbn [holds] in G. rewrite vval_wcell in G. exact G.
      * specialize (G (3 * i + 1)%Z ltac:(lia)). cbv zeta in G. rewrite (proj2 (Z.leb_gt (3 * m) (3 * i + 1 + 1))) in G by lia.
        replace ((3 * i + 1 + 1) mod 3)%Z with 2%Z in G by (clear; zd). change (2 =? 1)%Z with false in G. change (2 =? 2)%Z with true in G. cbv iota in G.
        replace ((3 * i + 1 + 1) / 3)%Z with i in G by (clear; zd).
        apply sat_cons in G. destruct G as [G _]. cbn [holds] in G. rewrite vval_wcell in G. exact G.
  - intros [H0 HI] r Hr. apply in_zseq in Hr. apply sat_cons. split.
    + cbn [holds]. rewrite vval_wcell, (H0 r Hr). fold w. destruct (f1_is_beta w r); reflexivity.
    + apply sat_flat. intros j Hj. apply in_zseq in Hj.
      assert (Hj' : (1 <= j < w)%Z).
      { pose proof (Z.mod_pos_bound (3 * m) (w - 1) ltac:(lia)).
        destruct (r =? n - 1)%Z; [destruct ((3 * m) mod (w - 1) =? 0)%Z|]; lia. }
      set (tmp := (r * (w - 1) + j)%Z).
      destruct (Z.leb_spec (3 * m) tmp) as [B|B]; [apply sat_nil|].
      destruct (PQ r j tmp ltac:(lia) Hj' eq_refl B) as [Q1 Q2].
      destruct (Z.eqb_spec (tmp mod 3) 1) as [E1|E1].
      * apply sat_cons. split; [|apply sat_nil]. cbn [holds]. destruct (Q1 E1) as [X ->]. apply HI. exact X.
      * destruct (Z.eqb_spec (tmp mod 3) 2) as [E2|E2]; [|apply sat_nil].
        apply sat_cons. split; [|apply sat_nil]. cbn [holds]. destruct (Q2 E2) as [X ->]. apply HI. exact X.
Qed.

Lemma f1_gates_pos : forall c, (4 <= wamount c)%Z -> (0 <= 0 < zlen (f1_gates (P:=P) c))%Z.
Proof. intros c Hw. unfold f1_gates. cbv zeta. rewrite zlen_app. unfold zlen at 1. cbn [length]. 
  match goal with |- (_ <= _ < _ + zlen ?x)%Z => assert (0 <= zlen x)%Z by (unfold zlen; lia) end. lia. Qed.

Lemma f1_first_eval : forall T c row, (4 <= wamount c)%Z ->
  eval T row (znth (ecst f0) (f1_gates c) 0) =
  cl T c row 2 - factor (T CWit (W c 0) row) (T CWit (W c 0) (row + 1)%Z) (cl T c row 0) (cl T c row 1).
Proof.
  intros T c row Hw. rewrite f1_gates_eq by exact Hw. change ([f1_first P c] ++ ?x) with (f1_first P c :: x). rewrite znth_0.
  unfold f1_first, f1_body, wvar. eval_norm. rewrite !cell_at. rewrite !Z.mod_small, !Z.div_small by lia.
  rewrite !Z.add_0_r. change (2 + 1)%Z with 3%Z. change (0 + 1)%Z with 1%Z. change (1 + 1)%Z with 2%Z.
  unfold f1_factor. reflexivity.
Qed.

Lemma f1_gates_iff : forall T c beta gamma m row, (4 <= wamount c)%Z -> (1 <= m)%Z ->
  f1_col0 T c beta gamma (f1_rows (wamount c) m) row ->
  ((forall ir, In ir (f1_enabled (wamount c) m) -> holds L T (enable (f1_gates (P:=P) c) (row + snd ir) (fst ir))) <->
   f1_prods T c (vval T beta) (vval T gamma) m row).
Proof.
  intros T c beta gamma m row Hw Hm H0. pose proof (f1_rows_eq (wamount c) m Hw Hm) as N.
  assert (A : holds L T (enable (f1_gates (P:=P) c) (row + 0) 0) <->
     cl T c row 2 = factor (vval T beta) (vval T gamma) (cl T c row 0) (cl T c row 1)).
  { rewrite holds_enable by (apply f1_gates_pos; exact Hw). rewrite f1_first_eval by exact Hw.
    rewrite fsub_eq0. rewrite (H0 0%Z) by lia. rewrite Z.add_0_r, (H0 1%Z) by lia.
    assert (B0 : f1_is_beta (wamount c) 0 = true) by (unfold f1_is_beta; destruct (_ =? _)%Z; reflexivity).
    assert (B1 : f1_is_beta (wamount c) 1 = false) by (unfold f1_is_beta; destruct (_ =? _)%Z; reflexivity).
    rewrite B0, B1. reflexivity. }
  assert (B : forall i, (1 <= i < m)%Z -> let ir := f1_at (wamount c) (f1_rows (wamount c) m) i in
     (holds L T (enable (f1_gates (P:=P) c) (row + snd ir) (fst ir)) <->
     cl T c row (3 * i + 2) = cl T c row (3 * i - 1) * factor (vval T beta) (vval T gamma) (cl T c row (3 * i)) (cl T c row (3 * i + 1)))).
  { intros i Hi. destruct (f1_at_gate P c m i Hw Hi) as [rr [b [g [idx [E [Hidx [Eg [Hr [Hrr [Hb [Bb [Hg [Bg _]]]]]]]]]]]]].
    cbv zeta. rewrite E. cbn [fst snd]. rewrite holds_enable by exact Hidx. rewrite Eg.
    replace (row + ((3 * i + 2) / (wamount c - 1) - rr))%Z with (row + (3 * i + 2) / (wamount c - 1) - rr)%Z by lia.
    rewrite f1_gen_eval by exact Hw. rewrite fsub_eq0. rewrite (H0 _ Hb), (H0 _ Hg), Bb, Bg.
    replace (3 * i + 2 - 3)%Z with (3 * i - 1)%Z by lia. replace (3 * i + 2 - 2)%Z with (3 * i)%Z by lia.
    replace (3 * i + 2 - 1)%Z with (3 * i + 1)%Z by lia. reflexivity. }
  split.
  - intros H. split.
    + apply A. apply (H (0, 0)%Z). apply f1_enabled_spec; auto.
    + intros i Hi. apply (B i Hi). apply H. apply f1_enabled_spec; [exact Hw|exact Hm|]. right. exists i. auto.
  - intros [G1 G2] ir Hir. apply f1_enabled_spec in Hir; [|exact Hw|exact Hm].
    destruct Hir as [-> |[i [Hi ->]]]; [apply A; exact G1|]. apply (B i Hi). apply G2. exact Hi.
Qed.

Lemma f1_meets_iff : forall T c beta gamma s t row, (4 <= wamount c)%Z -> (1 <= zlen s)%Z ->
  (sat L T (f1_circuit c beta gamma s t row) <->
   f1_col0 T c beta gamma (f1_rows (wamount c) (zlen s)) row /\ f1_ins T c s t row /\
   f1_prods T c (vval T beta) (vval T gamma) (zlen s) row).
Proof.
  intros T c beta gamma s t row Hw Hm. unfold f1_circuit. rewrite sat_app, sat_map, f1_copies_iff by assumption.
  split.
  - intros [A [B D]]. rewrite f1_gates_iff in A by eassumption. auto.
  - intros [A [B D]]. rewrite f1_gates_iff by eassumption. auto.
Qed.

(** ** Products *)

Definition f1_prod T (be ga : F) (s t : list var) (k : Z) : F :=
  fold_left (fun h i => h * factor be ga (vval T (znth dvar s i)) (vval T (znth dvar t i))) (zseq 0 k) f1.
Lemma f1_prod_S : forall T be ga s t k, (0 <= k)%Z ->
  f1_prod T be ga s t (k + 1) = f1_prod T be ga s t k * factor be ga (vval T (znth dvar s k)) (vval T (znth dvar t k)).
Proof. intros. unfold f1_prod. rewrite fold_zseq_snoc by lia. reflexivity. Qed.
Lemma f1_h_prod : forall T beta gamma s t k, f1_h T beta gamma s t k = f1_prod T (vval T beta) (vval T gamma) s t k.
Proof. reflexivity. Qed.
Lemma list_prod_snoc : forall (l : list F) x, list_prod (l ++ [x]) = list_prod l * x.
Proof. induction l as [|y l IH]; intros x; cbn [app list_prod fold_right] in *; [ring|]. unfold list_prod in *. rewrite IH. ring. Qed.

(** What f1_loop computes. *)
Definition f1_value T (be ga : F) (s t : list var) : F :=
  list_prod (map (fun st => factor be ga (vval T (fst st)) (vval T (snd st))) (combine s t)).

Lemma f1_prod_value : forall T be ga s t, zlen s = zlen t -> f1_prod T be ga s t (zlen s) = f1_value T be ga s t.
Proof.
  intros T be ga s t E. unfold f1_value.
  assert (G : forall k, (0 <= k < zlen s + 1)%Z ->
    f1_prod T be ga s t k = list_prod (map (fun st => factor be ga (vval T (fst st)) (vval T (snd st))) (firstn (Z.to_nat k) (combine s t)))).
  { apply (zind _ (zlen s + 1)).
    - reflexivity.
    - intros j Hj Hl IH. rewrite f1_prod_S, IH by lia.
      assert (X : firstn (Z.to_nat (j + 1)) (combine s t) = firstn (Z.to_nat j) (combine s t) ++ [(znth dvar s j, znth dvar t j)]).
      { replace (Z.to_nat (j + 1)) with (S (Z.to_nat j)) by lia. unfold znth.
        assert (LT : (Z.to_nat j < length (combine s t))%nat) by (rewrite combine_length; unfold zlen in *; lia).
        rewrite <- (combine_nth s t (Z.to_nat j) dvar dvar) by (unfold zlen in *; lia).
        generalize (Z.to_nat j) LT. generalize (combine s t). clear.
        intros l. induction l as [|x l IH]; intros [|n] H; cbn [length firstn nth app] in *; try lia; [reflexivity|].
        rewrite (IH n) by lia. reflexivity. }
      rewrite X, map_app. cbn [map]. rewrite list_prod_snoc. reflexivity. }
  rewrite G by (unfold zlen; lia). do 2 f_equal. apply firstn_all2. rewrite combine_length. unfold zlen. lia.
Qed.

Lemma f1_out_cell : forall T c m row, (4 <= wamount c)%Z -> (1 <= m)%Z -> vval T (f1_out c m row) = cl T c row (3 * m - 1).
Proof.
  intros T c m row Hw Hm. unfold f1_out. cbv zeta. rewrite (last_mod (3 * m) (wamount c - 1)) by lia.
  destruct (Z.leb_spec (3 * m + 1) (wamount c)) as [H|H]; rewrite vval_wcell, cell_at.
  - rewrite (Z.div_small (3 * m - 1)) by lia. rewrite Z.add_0_r. reflexivity.
  - destruct (f1_rows_big (wamount c) m Hw ltac:(lia)) as [E _]. f_equal. lia.
Qed.

Lemma f1_cells : forall T c be ga s t row, (1 <= zlen s)%Z -> f1_ins T c s t row -> f1_prods T c be ga (zlen s) row ->
  forall k, (0 <= k < zlen s)%Z -> cl T c row (3 * k + 2) = f1_prod T be ga s t (k + 1).
Proof.
  intros T c be ga s t row Hm HI [H0 HP]. apply (zind _ (zlen s)).
  - change (3 * 0 + 2)%Z with 2%Z. rewrite f1_prod_S by lia. rewrite H0.
    destruct (HI 0%Z ltac:(lia)) as [A B]. change (3 * 0)%Z with 0%Z in A. change (3 * 0 + 1)%Z with 1%Z in B. rewrite A, B.
    change (f1_prod T be ga s t 0) with (f1 : F). ring.
  - intros j Hj Hl IH. rewrite (HP (j + 1)%Z) by lia. replace (3 * (j + 1) - 1)%Z with (3 * j + 2)%Z by lia. rewrite IH.
    destruct (HI (j + 1)%Z ltac:(lia)) as [A B]. rewrite A, B. symmetry. apply f1_prod_S. lia.
Qed.

Lemma f1_sound_l : forall T c beta gamma s t row, (4 <= wamount c)%Z -> (1 <= zlen s)%Z -> zlen s = zlen t ->
  sat L T (f1_circuit c beta gamma s t row) ->
  vval T (f1_out c (zlen s) row) = f1_value T (vval T beta) (vval T gamma) s t.
Proof.
  intros T c beta gamma s t row Hw Hm E H. apply f1_meets_iff in H; [|exact Hw|exact Hm]. destruct H as [_ [HI HP]].
  rewrite f1_out_cell by assumption. replace (3 * zlen s - 1)%Z with (3 * (zlen s - 1) + 2)%Z by lia.
  rewrite (f1_cells T c _ _ s t row Hm HI HP) by lia. replace (zlen s - 1 + 1)%Z with (zlen s) by lia.
  apply f1_prod_value. exact E.
Qed.

(** ** Completeness *)

Lemma f1_complete_l : forall T c w beta gamma s t row, wf_comp c w -> (4 <= w)%Z -> (1 <= zlen s)%Z -> zlen s = zlen t ->
  let n := f1_rows w (zlen s) in
  outside c n row beta -> outside c n row gamma ->
  (forall x, In x s -> outside c n row x) -> (forall x, In x t -> outside c n row x) ->
  let T' := f1_assign c beta gamma s t row T in
  sat L T' (f1_circuit c beta gamma s t row) /\ frame c n row T T' /\
  vval T' (f1_out c (zlen s) row) = f1_value T (vval T beta) (vval T gamma) s t.
Proof.
  intros T c w beta gamma s t row Hwf Hw Hm Est n Ob Og Os Ot T'.
  pose proof (proj1 (proj2 Hwf)) as Ew. pose proof (f1_rows_eq w (zlen s) Hw Hm) as N. fold n in N.
  set (m := zlen s) in *.
  assert (Hdiv : forall p, (0 <= p < 3 * m)%Z -> (0 <= p / (w - 1) <= (3 * m - 1) / (w - 1))%Z).
  { intros p Hp. split; [apply Z.div_pos; lia|apply Z.div_le_mono; lia]. }
  assert (FT : frame c n row T T').
  { subst T'. unfold f1_assign. cbv zeta. apply (wsets_frame P c w); [exact Hwf|]. rewrite Ew. intros col r v H. apply in_app_or in H.
    destruct H as [H|H]; apply in_map_iff in H; destruct H as [i [E Hi]]; apply in_zseq in Hi;
      injection E as <- <- <-; (split; [eexists; reflexivity|]).
    - fold m in Hi. specialize (Hdiv i Hi). lia.
    - fold m in Hi. lia. }
  assert (Vo : forall x, outside c n row x -> vval T' x = vval T x).
  { intros x Hx. apply (vval_frame P c n row T T'); assumption. }
  assert (R : forall p, (0 <= p < 3 * m)%Z -> cl T' c row p = f1_val T beta gamma s t p).
  { intros p Hp. rewrite cell_at. subst T'. unfold f1_assign. cbv zeta. rewrite Ew. fold m.
    apply (strip_read P T c w 1 (w - 1) row (3 * m) (f1_val T beta gamma s t)); [exact Hwf|lia|lia|lia|exact Hp|].
    intros v H. apply in_map_iff in H. destruct H as [r [E _]]. injection E as E1 _ _.
    pose proof (Z.mod_pos_bound p (w - 1) ltac:(lia)).
    revert E1. apply (W_neq c w); [exact Hwf|lia|lia|lia]. }
  assert (R0 : f1_col0 T' c beta gamma n row).
  { intros r Hr. rewrite (Vo _ Ob), (Vo _ Og). rewrite Ew. subst T'. unfold f1_assign. cbv zeta. rewrite Ew. fold m.
    apply wsets_read.
    - apply in_or_app. right. apply in_map_iff. exists r. split; [reflexivity|apply in_zseq; lia].
    - intros v' H. apply in_app_or in H. destruct H as [H|H]; apply in_map_iff in H; destruct H as [i [E Hi]].
      + exfalso. injection E as E1 _ _. pose proof (Z.mod_pos_bound i (w - 1) ltac:(lia)). revert E1. apply (W_neq c w); [exact Hwf|lia|lia|lia].
      + injection E as E2 E3. assert (i = r) by lia. subst i. symmetry. exact E3. }
  assert (RI : f1_ins T' c s t row).
  { intros i Hi. rewrite !R by (fold m in Hi; lia). unfold f1_val.
    replace ((3 * i) mod 3)%Z with 0%Z by (clear; zd). replace ((3 * i + 1) mod 3)%Z with 1%Z by (clear; zd).
    replace (3 * i / 3)%Z with i by (clear; zd). replace ((3 * i + 1) / 3)%Z with i by (clear; zd). cbn [Z.eqb Pos.eqb].
    split; symmetry; apply Vo; [apply Os|apply Ot]; apply znth_In; fold m; lia. }
  assert (RP : f1_prods T' c (vval T' beta) (vval T' gamma) m row).
  { rewrite (Vo _ Ob), (Vo _ Og).
    assert (H2 : forall i, (0 <= i < m)%Z -> cl T' c row (3 * i + 2) = f1_prod T (vval T beta) (vval T gamma) s t (i + 1)).
    { intros i Hi. rewrite R by lia. unfold f1_val.
      replace ((3 * i + 2) mod 3)%Z with 2%Z by (clear; zd). replace ((3 * i + 2) / 3)%Z with i by (clear; zd). cbn [Z.eqb Pos.eqb].
      apply f1_h_prod. }
    assert (HS : forall i, (0 <= i < m)%Z -> cl T' c row (3 * i) = vval T (znth dvar s i)).
    { intros i Hi. rewrite (proj1 (RI i Hi)). apply Vo, Os, znth_In. exact Hi. }
    assert (HT : forall i, (0 <= i < m)%Z -> cl T' c row (3 * i + 1) = vval T (znth dvar t i)).
    { intros i Hi. rewrite (proj2 (RI i Hi)). apply Vo, Ot, znth_In. lia. }
    split.
    - pose proof (H2 0%Z ltac:(lia)) as A. pose proof (HS 0%Z ltac:(lia)) as B. pose proof (HT 0%Z ltac:(lia)) as D.
      change (3 * 0 + 2)%Z with 2%Z in A. change (3 * 0)%Z with 0%Z in B. change (3 * 0 + 1)%Z with 1%Z in D.
      rewrite A, B, D, f1_prod_S by lia. change (f1_prod T (vval T beta) (vval T gamma) s t 0) with (f1 : F). ring.
    - intros i Hi. replace (3 * i - 1)%Z with (3 * (i - 1) + 2)%Z by lia. rewrite !H2, HS, HT by lia.
      replace (i - 1 + 1)%Z with i by lia. apply f1_prod_S. lia. }
  assert (S : sat L T' (f1_circuit c beta gamma s t row)).
  { apply f1_meets_iff; [lia|exact Hm|]. rewrite Ew. fold m. fold n. auto. }
  split; [exact S|]. split; [exact FT|].
  unfold m. rewrite (f1_sound_l T' c beta gamma s t row ltac:(lia) Hm Est S). rewrite (Vo _ Ob), (Vo _ Og).
  unfold f1_value. f_equal. apply map_ext_in. intros [a b] Hab. cbn [fst snd].
  rewrite (Vo a), (Vo b); [reflexivity|apply Ot; eapply in_combine_r; exact Hab|apply Os; eapply in_combine_l; exact Hab].
Qed.

(** ** The cells read *)

Lemma f1_gen_reads : forall (Q : ctype -> Z -> Z -> Prop) c rr b g j r, (4 <= wamount c)%Z ->
  (forall k, Q CWit (W c k) (r + rr)%Z) -> (j <= 3 -> forall k, Q CWit (W c k) (r + (rr - 1))%Z)%Z ->
  (forall k, Q CWit (W c k) (r + b)%Z) -> (forall k, Q CWit (W c k) (r + g)%Z) ->
  expr_reads Q r (f1_gen P c rr b g j).
Proof.
  intros Q c rr b g j r Hw H1 H2 H3 H4. unfold f1_gen, f1_con, f1_body, f1_back, wvar. cbn [expr_reads].
  assert (BK : forall t, (1 <= t <= 3)%Z -> expr_reads Q r (if (t <? j)%Z then (evar (wv (W c (j - t)) rr) : expr P) else evar (wv (W c (j - t + (wamount c - 1))) (rr - 1)))).
  { intros t Ht. destruct (Z.ltb_spec t j); apply reads_wv; [apply H1|apply H2; lia]. }
  repeat split; try (apply BK; lia); try (apply reads_wv; auto); try apply reads_ecst.
Qed.

Lemma f1_reads : forall (Q : ctype -> Z -> Z -> Prop) c beta gamma s t row, (4 <= wamount c)%Z -> (1 <= zlen s)%Z -> zlen s = zlen t ->
  (forall j r, (row <= r < row + f1_rows (wamount c) (zlen s))%Z -> Q CWit (W c j) r) ->
  var_reads Q beta -> var_reads Q gamma -> (forall x, In x s -> var_reads Q x) -> (forall x, In x t -> var_reads Q x) ->
  reads Q (f1_circuit (P:=P) c beta gamma s t row).
Proof.
  intros Q c beta gamma s t row Hw Hm E HQ Hb Hg Hs Ht. unfold f1_circuit. rewrite reads_app.
  pose proof (f1_rows_eq (wamount c) (zlen s) Hw Hm) as N. split.
  - apply reads_map. intros ir Hir. apply f1_enabled_spec in Hir; [|exact Hw|exact Hm]. apply enable_reads. intros _.
    destruct Hir as [-> |[i [Hi ->]]].
    + cbn [fst snd]. rewrite f1_gates_eq by exact Hw. change ([f1_first P c] ++ ?x) with (f1_first P c :: x). rewrite znth_0.
      unfold f1_first, f1_body, wvar. cbn [expr_reads].
      repeat split; try (apply reads_wv; apply HQ; lia); apply reads_ecst.
    + destruct (f1_at_gate P c (zlen s) i Hw Hi) as [rr [b [g [idx [E1 [Hidx [Eg [Hr [Hrr [Hbb [Bb [Hgg [Bg [Rn J3]]]]]]]]]]]]]].
      rewrite E1. cbn [fst snd]. rewrite Eg. apply f1_gen_reads; [exact Hw| | | |].
      * intros k. apply HQ. lia.
      * intros Hj k. apply HQ. 
        assert ((3 * i + 2) / (wamount c - 1) <> 0)%Z by (intros X; apply J3 in X; lia). lia.
      * intros k. apply HQ. lia.
      * intros k. apply HQ. lia.
  - unfold f1_copies. cbv zeta. apply reads_flat. intros r Hr. apply in_zseq in Hr. apply reads_cons. split.
    + split; [apply (HQ 0%Z (row + r)%Z); lia|]. destruct (f1_is_beta (wamount c) r); assumption.
    + apply reads_flat. intros j Hj. apply in_zseq in Hj.
      assert (0 <= r * (wamount c - 1))%Z by (apply Z.mul_nonneg_nonneg; lia).
      set (tmp := (r * (wamount c - 1) + j)%Z). destruct (Z.leb_spec (3 * zlen s) tmp) as [B|B]; [apply reads_nil|].
      assert (X : (tmp mod 3 <> 0 -> 0 <= tmp / 3 < zlen s)%Z) by (assert (0 <= tmp)%Z by (subst tmp; lia); clear - H0 B; zd).
      destruct (Z.eqb_spec (tmp mod 3) 1) as [E1|E1]; [|destruct (Z.eqb_spec (tmp mod 3) 2) as [E2|E2]; [|apply reads_nil]];
        (apply reads_cons; split; [|apply reads_nil]); (split; [apply (HQ j (row + r)%Z); lia|]).
      * apply Hs, znth_In, X. lia.
      * apply Ht, znth_In. rewrite <- E. apply X. lia.
Qed.

End F1.
