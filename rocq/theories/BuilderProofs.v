(** Proofs about BuilderModel.v. *)
From Coq Require Import ZArith List Lia Bool Permutation.
From Verif Require Import Base Field Plonk PlonkFacts AssignModel AssignProofs BuilderModel.
Import ListNotations.
Open Scope Z_scope.

Section Proofs.
Variable P : params.
Notation F := (F P).
Notation expr := (expr P).

(** ** Moving gates *)
Lemma evalv_gval : forall (T : table P) row e, eval T row e = evalv (gval T row) e.
Proof.
  intros T row e. induction e; cbn; auto.
  - rewrite IHe. reflexivity.
  - rewrite IHe1, IHe2. reflexivity.
Qed.

Lemma evalv_ext : forall (r1 r2 : var -> F) e, (forall v, r1 v = r2 v) -> evalv r1 e = evalv r2 e.
Proof.
  intros r1 r2 e H. induction e; cbn.
  - revert coeff. induction vars as [|v vs IH]; intros c0; cbn; [reflexivity|]. rewrite H. apply IH.
  - rewrite IHe. reflexivity.
  - rewrite IHe1, IHe2. reflexivity.
Qed.

Lemma move_evalv : forall f (rho : var -> F) e, evalv rho (move f e) = evalv (fun v => rho (f v)) e.
Proof.
  intros f rho e. induction e; cbn.
  - revert coeff. induction vars as [|v vs IH]; intros c0; cbn; [reflexivity|]. apply IH.
  - rewrite IHe. reflexivity.
  - destruct o; cbn; rewrite IHe1, IHe2; reflexivity.
Qed.

Lemma move_id_l : forall e : expr, move (fun v => v) e = e.
Proof.
  induction e; cbn.
  - rewrite map_id. reflexivity.
  - rewrite IHe. reflexivity.
  - destruct o; rewrite IHe1, IHe2; reflexivity.
Qed.

Lemma move_comp_l : forall f g (e : expr), move f (move g e) = move (fun v => f (g v)) e.
Proof.
  intros f g. induction e; cbn.
  - rewrite map_map. reflexivity.
  - rewrite IHe. reflexivity.
  - destruct o; cbn; rewrite IHe1, IHe2; reflexivity.
Qed.

(** Reading a table through a renaming of columns and shift of rows. *)
Lemma move_table_l : forall f (T T2 : table P) row row2 e,
  (forall v, gval T row (f v) = gval T2 row2 v) -> eval T row (move f e) = eval T2 row2 e.
Proof.
  intros f T T2 row row2 e H. rewrite !evalv_gval, move_evalv. apply evalv_ext. exact H.
Qed.

(** ** Identifiers do not depend on the order of the constraints *)
Lemma gid_ltb_total : forall a b : gid P, gid_ltb a b = false -> gid_ltb b a = false -> a = b.
Proof.
  intros [a1 a2] [b1 b2] H1 H2. unfold gid_ltb in *. cbn in *.
  apply orb_false_iff in H1, H2. rewrite !andb_false_iff, !Z.ltb_ge, !Z.eqb_neq in *.
  f_equal; apply F_ext; lia.
Qed.

Lemma gid_ltb_trans : forall a b c : gid P, gid_ltb a b = true -> gid_ltb b c = true -> gid_ltb a c = true.
Proof.
  intros [a1 a2] [b1 b2] [c1 c2] H1 H2. unfold gid_ltb in *. cbn in *.
  apply orb_true_iff in H1, H2. apply orb_true_iff.
  rewrite !andb_true_iff, !Z.ltb_lt, !Z.eqb_eq in *. lia.
Qed.

Lemma gid_ltb_asym : forall a b : gid P, gid_ltb a b = true -> gid_ltb b a = false.
Proof.
  intros [a1 a2] [b1 b2] H. unfold gid_ltb in *. cbn in *.
  apply orb_true_iff in H. apply orb_false_iff.
  rewrite andb_true_iff, !Z.ltb_lt, !Z.eqb_eq in H. rewrite andb_false_iff, !Z.ltb_ge, Z.eqb_neq. lia.
Qed.

Lemma ins_comm : forall (x y : gid P) l, ins x (ins y l) = ins y (ins x l).
Proof.
  intros x y l. induction l as [|z l IH]; cbn [ins].
  - destruct (gid_ltb y x) eqn:E1; destruct (gid_ltb x y) eqn:E2; cbn [ins]; rewrite ?E1, ?E2; auto.
    + pose proof (gid_ltb_asym _ _ E1). congruence.
    + rewrite (gid_ltb_total _ _ E1 E2). reflexivity.
  - destruct (gid_ltb z y) eqn:Zy; destruct (gid_ltb z x) eqn:Zx; cbn [ins]; rewrite ?Zy, ?Zx.
    + rewrite IH. reflexivity.
    + destruct (gid_ltb x y) eqn:XY.
      * reflexivity.
      * exfalso. destruct (gid_ltb y x) eqn:YX.
        -- pose proof (gid_ltb_trans _ _ _ Zy YX). congruence.
        -- pose proof (gid_ltb_total _ _ XY YX). subst. congruence.
    + destruct (gid_ltb y x) eqn:YX.
      * reflexivity.
      * exfalso. destruct (gid_ltb x y) eqn:XY.
        -- pose proof (gid_ltb_trans _ _ _ Zx XY). congruence.
        -- pose proof (gid_ltb_total _ _ XY YX). subst. congruence.
    + destruct (gid_ltb y x) eqn:E1; destruct (gid_ltb x y) eqn:E2; cbn [ins]; rewrite ?Zy, ?Zx; auto.
      * pose proof (gid_ltb_asym _ _ E1). congruence.
      * rewrite (gid_ltb_total _ _ E1 E2). reflexivity.
Qed.

Lemma sortg_perm : forall l l' : list (gid P), Permutation l l' -> sortg l = sortg l'.
Proof.
  intros l l' H. unfold sortg. induction H; cbn; auto.
  - rewrite IHPermutation. reflexivity.
  - apply ins_comm.
  - congruence.
Qed.

Lemma gate_gid_perm : forall vs (cs cs' : list expr), Permutation cs cs' -> gate_gid vs cs = gate_gid vs cs'.
Proof. intros vs cs cs' H. unfold gate_gid. rewrite (sortg_perm _ (map (eval_constraint vs) cs')); auto. apply Permutation_map. exact H. Qed.

Lemma lookup_gid_perm : forall vs (cs cs' : list (lcons P)), Permutation cs cs' -> lookup_gid vs cs = lookup_gid vs cs'.
Proof. intros vs cs cs' H. unfold lookup_gid. rewrite (sortg_perm _ (map (eval_lookup vs) cs')); auto. apply Permutation_map. exact H. Qed.

Lemma gate_gid_equal : forall vs (cs cs' : list expr),
  Forall2 (fun e e' => forall rho, evalv rho e = evalv rho e') cs cs' -> gate_gid vs cs = gate_gid vs cs'.
Proof.
  intros vs cs cs' H. unfold gate_gid. f_equal. f_equal. induction H; cbn; [reflexivity|].
  rewrite IHForall2. f_equal. unfold eval_constraint. rewrite !H. reflexivity.
Qed.

Lemma nth_cells : forall (s : astate P) sel r,
  let col := match nth_error (a_sel s) sel with Some c => c | None => [] end in
  nth r col f0 = a_table s CSel (Z.of_nat sel) (Z.of_nat r).
Proof.
  intros s sel r col. cbn [a_table]. rewrite cells_cell2. unfold cell2. subst col.
  destruct (nth_error (a_sel s) sel) as [c|]; [|destruct r; reflexivity].
  destruct (nth_error c r) as [x|] eqn:E.
  - apply nth_error_nth. exact E.
  - apply nth_overflow. apply nth_error_None. exact E.
Qed.

(** ** Meaning of the lookup check *)
Lemma feqbl_eq : forall a b : list F, feqbl a b = true <-> a = b.
Proof.
  unfold feqbl. induction a as [|x a IH]; intros [|y b]; cbn; try (split; [discriminate|discriminate]).
  - split; auto.
  - specialize (IH b). rewrite !andb_true_iff in *. rewrite feqb_eq. split.
    + intros [A [B D]]. subst y. f_equal. apply IH. auto.
    + intros E. injection E as -> ->. destruct (proj2 IH eq_refl) as [A B]. auto.
Qed.

(** The tuple is a row of the static table's columns, or one of the rows the
    dynamic table's selector marks. *)
Definition in_table (te : tenv P) (s : astate P) (t : nat) (vals : list F) : Prop :=
  match te t with
  | None => False
  | Some (TStatic cols idx) =>
      length idx = length vals /\
      exists k, (k < length (nth 0 cols []))%nat /\
        forall l i v, nth_error idx l = Some i -> nth_error vals l = Some v ->
          match nth_error cols i with Some c => nth k c f0 | None => f0 end = v
  | Some (TDynamic tag options) =>
      exists r o, a_table s CSel (Z.of_nat tag) (Z.of_nat r) <> f0 /\ In o options /\
        vals = map (eval (a_table s) (Z.of_nat r)) o
  end.

Lemma forallb_combine : forall A B (f : A * B -> bool) (a : list A) (b : list B),
  forallb f (combine a b) = true <->
  (forall l x y, nth_error a l = Some x -> nth_error b l = Some y -> f (x, y) = true).
Proof.
  intros A B f. induction a as [|x a IH]; intros [|y b]; cbn.
  - split; [intros _ [|l]; discriminate|reflexivity].
  - split; [intros _ [|l]; discriminate|reflexivity].
  - split; [intros _ [|l] ? ?; discriminate|reflexivity].
  - rewrite andb_true_iff, IH. split.
    + intros [H1 H2] [|l] u v; cbn; [intros E1 E2; injection E1 as <-; injection E2 as <-; exact H1|apply H2].
    + intros H. split; [apply (H O); reflexivity|]. intros l. apply (H (S l)).
Qed.

Lemma lookup_check_spec : forall te s row t es,
  lookup_check te s row (t, es) = Some true <-> in_table te s t (map (eval (a_table s) row) es).
Proof.
  intros te s row t es. unfold lookup_check, in_table. cbn [fst snd].
  destruct (te t) as [[cols idx|tag options]|].
  - destruct (length idx =? length (map (eval (a_table s) row) es))%nat eqn:El.
    + apply Nat.eqb_eq in El. split.
      * intros E. injection E as E. split; [exact El|]. apply existsb_exists in E. destruct E as [k [Hk Hm]].
        apply in_seq in Hk. exists k. split; [lia|]. unfold row_matches in Hm. rewrite forallb_combine in Hm.
        intros l i v E1 E2. specialize (Hm l i v E1 E2). cbn in Hm. apply feqb_eq. exact Hm.
      * intros [_ [k [Hk Hm]]]. f_equal. apply existsb_exists. exists k. split; [apply in_seq; lia|].
        unfold row_matches. apply forallb_combine. intros l i v E1 E2. cbn. apply feqb_eq. eapply Hm; eauto.
    + apply Nat.eqb_neq in El. split; [discriminate|]. intros [E _]. congruence.
  - split.
    + intros E. injection E as E. apply existsb_exists in E. destruct E as [v [Hv Em]].
      apply feqbl_eq in Em. subst v. unfold load_dynamic in Hv. cbv zeta in Hv. apply in_flat_map in Hv.
      destruct Hv as [r [Hr Hv]]. rewrite nth_cells in Hv.
      destruct (feqb (a_table s CSel (Z.of_nat tag) (Z.of_nat r)) f0) eqn:Ez; [destruct Hv|].
      apply in_map_iff in Hv. destruct Hv as [o [E Ho]]. exists r, o. split; [|auto].
      intros X. rewrite X, feqb_refl in Ez. discriminate.
    + intros [r [o [Hs [Ho E]]]]. f_equal. apply existsb_exists. eexists. split; [|apply feqbl_eq; reflexivity].
      unfold load_dynamic. cbv zeta. apply in_flat_map. exists r. rewrite nth_cells.
      assert (Hr : (r < length (match nth_error (a_sel s) tag with Some c => c | None => [] end))%nat).
      { match goal with |- (r < length ?c)%nat => destruct (Nat.lt_ge_cases r (length c)) as [L|L]; [exact L|] end.
        exfalso. apply Hs. rewrite <- nth_cells. apply nth_overflow. exact L. }
      split; [apply in_seq; lia|].
      destruct (feqb (a_table s CSel (Z.of_nat tag) (Z.of_nat r)) f0) eqn:Ez; [apply feqb_eq in Ez; congruence|].
      rewrite E. apply in_map. exact Ho.
  - split; [discriminate|intros []].
Qed.

(** ** The builder *)

(** Two gates meaning the same on every row of every table. *)
Definition equiv (cs1 cs2 : list expr) : Prop := forall (T : table P) row,
  (forall e, In e cs1 -> eval T row e = f0) <-> (forall e, In e cs2 -> eval T row e = f0).
Definition lequiv (cs1 cs2 : list (lcons P)) : Prop := forall te s row,
  (forall e, In e cs1 -> in_table te s (fst e) (map (eval (a_table s) row) (snd e))) <->
  (forall e, In e cs2 -> in_table te s (fst e) (map (eval (a_table s) row) (snd e))).

(** Identifier and constraints of a call that goes through the identifier map. *)
Definition gate_call (vs : vset P) (o : bcall P) : option (gid P * list expr) :=
  match o with
  | BGate cs => Some (gate_gid vs cs, cs)
  | BGate1 e => Some (gate_gid1 vs e, [e])
  | _ => None
  end.
Definition lookup_call (vs : vset P) (o : bcall P) : option (gid P * list (lcons P)) :=
  match o with
  | BLookup cs => Some (lookup_gid vs cs, cs)
  | BLookup1 e => Some (lookup_gid1 vs e, [e])
  | _ => None
  end.
(** The random values separate the gates that occur in the history. *)
Definition separates (vs : vset P) (h : list (bcall P)) : Prop :=
  (forall o1 o2 g cs1 cs2, In o1 h -> In o2 h ->
     gate_call vs o1 = Some (g, cs1) -> gate_call vs o2 = Some (g, cs2) -> equiv cs1 cs2) /\
  (forall o1 o2 g cs1 cs2, In o1 h -> In o2 h ->
     lookup_call vs o1 = Some (g, cs1) -> lookup_call vs o2 = Some (g, cs2) -> lequiv cs1 cs2).

(** Constraints of a call that asks for a gate. *)
Definition gate_of (o : bcall P) : option (list expr) :=
  match o with BGate cs | BGateOn _ cs => Some cs | BGate1 e => Some [e] | _ => None end.
Definition lookup_of (o : bcall P) : option (list (lcons P)) :=
  match o with BLookup cs | BLookupOn _ cs => Some cs | BLookup1 e => Some [e] | _ => None end.

Lemma equiv_refl : forall cs, equiv cs cs.
Proof. intros cs T row. reflexivity. Qed.
Lemma lequiv_refl : forall cs, lequiv cs cs.
Proof. intros cs T s row. reflexivity. Qed.

Lemma gid_eqb_eq : forall a b : gid P, gid_eqb a b = true <-> a = b.
Proof.
  intros [a1 a2] [b1 b2]. unfold gid_eqb. cbn. rewrite andb_true_iff, !feqb_eq.
  split; [intros [-> ->]; reflexivity|intros E; injection E as -> ->; auto].
Qed.

Lemma find_gid_some : forall (m : list (gid P * nat)) g n, find_gid m g = Some n -> In (g, n) m.
Proof.
  induction m as [|[g' n'] m IH]; intros g n H; cbn in H; [discriminate|].
  destruct (gid_eqb g' g) eqn:E; [|right; auto].
  apply gid_eqb_eq in E. injection H as <-. left. congruence.
Qed.

Definition greqs (rs : list (bcall P * option nat)) (n : nat) (cs : list expr) : Prop :=
  exists o, In (o, Some n) rs /\ gate_of o = Some cs.
Definition lreqs (rs : list (bcall P * option nat)) (n : nat) (cs : list (lcons P)) : Prop :=
  exists o, In (o, Some n) rs /\ lookup_of o = Some cs.

Record inv (vs : vset P) (c : cstate P) (past : list (bcall P)) (rs : list (bcall P * option nat)) : Prop := {
  i_g1 : forall n cs, In (n, cs) (c_gates c) -> greqs rs n cs;
  i_g2 : forall n cs, greqs rs n cs -> exists cs', In (n, cs') (c_gates c) /\ equiv cs cs';
  i_g3 : forall g n, In (g, n) (c_gmap c) -> exists o cs, In o past /\ gate_call vs o = Some (g, cs) /\ In (n, cs) (c_gates c);
  i_l1 : forall n cs, In (n, cs) (c_lgates c) -> lreqs rs n cs;
  i_l2 : forall n cs, lreqs rs n cs -> exists cs', In (n, cs') (c_lgates c) /\ lequiv cs cs';
  i_l3 : forall g n, In (g, n) (c_lmap c) -> exists o cs, In o past /\ lookup_call vs o = Some (g, cs) /\ In (n, cs) (c_lgates c);
  i_c : forall a b, In (a, b) (c_copies c) <-> In (BCopy a b) past /\ a <> b /\ is_private a = false /\ is_private b = false
}.

Lemma greqs_snoc : forall rs o r n cs,
  greqs (rs ++ [(o, r)]) n cs <-> greqs rs n cs \/ (r = Some n /\ gate_of o = Some cs).
Proof.
  intros. unfold greqs. split.
  - intros [o' [Hin G]]. apply in_app_or in Hin. destruct Hin as [Hin|[E|[]]]; [left; eauto|].
    injection E as -> ->. auto.
  - intros [[o' [Hin G]]|[-> G]]; [exists o'|exists o]; split; auto; apply in_or_app; cbn; auto.
Qed.
Lemma lreqs_snoc : forall rs o r n cs,
  lreqs (rs ++ [(o, r)]) n cs <-> lreqs rs n cs \/ (r = Some n /\ lookup_of o = Some cs).
Proof.
  intros. unfold lreqs. split.
  - intros [o' [Hin G]]. apply in_app_or in Hin. destruct Hin as [Hin|[E|[]]]; [left; eauto|].
    injection E as -> ->. auto.
  - intros [[o' [Hin G]]|[-> G]]; [exists o'|exists o]; split; auto; apply in_or_app; cbn; auto.
Qed.

Lemma copies_other : forall a b (past : list (bcall P)) o,
  (forall a b, o <> BCopy a b) ->
  (In (BCopy a b) past <-> In (BCopy a b) (past ++ [o])).
Proof.
  intros a b past o H. rewrite in_app_iff. cbn. split; [auto|].
  intros [A|[A|[]]]; [auto|]. exfalso. eapply H; eauto.
Qed.

Lemma bstep_inv : forall vs c s o c' s' r past rs,
  inv vs c past rs -> separates vs (past ++ [o]) ->
  bstep vs (c, s) o = Some ((c', s'), r) -> inv vs c' (past ++ [o]) (rs ++ [(o, r)]).
Proof.
  intros vs c s o c' s' r past rs [G1 G2 G3 L1 L2 L3 CC] [S1 S2] H.
  assert (PIN : forall x, In x past -> In x (past ++ [o])) by (intros; apply in_or_app; auto).
  assert (OIN : In o (past ++ [o])) by (apply in_or_app; cbn; auto).
  (* adding through the identifier map *)
  assert (AG : forall g cs, gate_call vs o = Some (g, cs) -> lookup_of o = None -> (forall a b, o <> BCopy a b) ->
      gate_of o = Some cs -> forall c'' n, add_gate c g cs = (c'', n) -> inv vs c'' (past ++ [o]) (rs ++ [(o, Some n)])).
  { intros g cs GC LN NC GO c'' n A. unfold add_gate in A. destruct (find_gid (c_gmap c) g) as [m|] eqn:Ef.
    - apply pair_equal_spec in A. destruct A as [<- <-]. apply find_gid_some in Ef.
      destruct (G3 g m Ef) as [o0 [cs0 [I0 [C0 I1]]]].
      split.
      + intros n cs' Hin. apply greqs_snoc. left. auto.
      + intros n cs' R. apply greqs_snoc in R. destruct R as [R|[E1 E2]]; [auto|].
        assert (m = n) by congruence. assert (cs = cs') by congruence. subst n cs'.
        exists cs0. split; [exact I1|]. eapply S1; [exact OIN|apply PIN; exact I0|exact GC|exact C0].
      + intros g' n' Hin. destruct (G3 g' n' Hin) as [o1 [cs1 [A1 A2]]]. exists o1, cs1. auto.
      + intros n cs' Hin. apply lreqs_snoc. left. auto.
      + intros n cs' R. apply lreqs_snoc in R. destruct R as [R|[E1 E2]]; [auto|congruence].
      + intros g' n' Hin. destruct (L3 g' n' Hin) as [o1 [cs1 [A1 A2]]]. exists o1, cs1. auto.
      + intros a b. rewrite <- copies_other by exact NC. apply CC.
    - apply pair_equal_spec in A. destruct A as [<- <-].
      split; cbn [c_gates c_lgates c_copies c_gmap c_lmap].
      + intros n cs' Hin. apply greqs_snoc. apply in_app_or in Hin. destruct Hin as [Hin|[E|[]]]; [left; auto|].
        injection E as <- <-. right. auto.
      + intros n cs' R. apply greqs_snoc in R. destruct R as [R|[E1 E2]].
        * destruct (G2 n cs' R) as [cs0 [I0 Q0]]. exists cs0. split; [apply in_or_app; auto|exact Q0].
        * exists cs'. split; [|apply equiv_refl]. apply in_or_app. right. left. congruence.
      + intros g' n' [E|Hin].
        * injection E as <- <-. exists o, cs. split; [exact OIN|]. split; [exact GC|]. apply in_or_app. cbn. auto.
        * destruct (G3 g' n' Hin) as [o1 [cs1 [A1 [A2 A3]]]]. exists o1, cs1. split; [auto|]. split; [auto|].
          apply in_or_app. auto.
      + intros n cs' Hin. apply lreqs_snoc. left. auto.
      + intros n cs' R. apply lreqs_snoc in R. destruct R as [R|[E1 E2]]; [auto|congruence].
      + intros g' n' Hin. destruct (L3 g' n' Hin) as [o1 [cs1 [A1 A2]]]. exists o1, cs1. auto.
      + intros a b. rewrite <- copies_other by exact NC. apply CC. }
  assert (AL : forall g cs, lookup_call vs o = Some (g, cs) -> gate_of o = None -> (forall a b, o <> BCopy a b) ->
      lookup_of o = Some cs -> forall c'' n, add_lookup c g cs = (c'', n) -> inv vs c'' (past ++ [o]) (rs ++ [(o, Some n)])).
  { intros g cs GC LN NC GO c'' n A. unfold add_lookup in A. destruct (find_gid (c_lmap c) g) as [m|] eqn:Ef.
    - apply pair_equal_spec in A. destruct A as [<- <-]. apply find_gid_some in Ef.
      destruct (L3 g m Ef) as [o0 [cs0 [I0 [C0 I1]]]].
      split.
      + intros n cs' Hin. apply greqs_snoc. left. auto.
      + intros n cs' R. apply greqs_snoc in R. destruct R as [R|[E1 E2]]; [auto|congruence].
      + intros g' n' Hin. destruct (G3 g' n' Hin) as [o1 [cs1 [A1 A2]]]. exists o1, cs1. auto.
      + intros n cs' Hin. apply lreqs_snoc. left. auto.
      + intros n cs' R. apply lreqs_snoc in R. destruct R as [R|[E1 E2]]; [auto|].
        assert (m = n) by congruence. assert (cs = cs') by congruence. subst n cs'.
        exists cs0. split; [exact I1|]. eapply S2; [exact OIN|apply PIN; exact I0|exact GC|exact C0].
      + intros g' n' Hin. destruct (L3 g' n' Hin) as [o1 [cs1 [A1 A2]]]. exists o1, cs1. auto.
      + intros a b. rewrite <- copies_other by exact NC. apply CC.
    - apply pair_equal_spec in A. destruct A as [<- <-].
      split; cbn [c_gates c_lgates c_copies c_gmap c_lmap].
      + intros n cs' Hin. apply greqs_snoc. left. auto.
      + intros n cs' R. apply greqs_snoc in R. destruct R as [R|[E1 E2]]; [auto|congruence].
      + intros g' n' Hin. destruct (G3 g' n' Hin) as [o1 [cs1 [A1 A2]]]. exists o1, cs1. auto.
      + intros n cs' Hin. apply lreqs_snoc. apply in_app_or in Hin. destruct Hin as [Hin|[E|[]]]; [left; auto|].
        injection E as <- <-. right. auto.
      + intros n cs' R. apply lreqs_snoc in R. destruct R as [R|[E1 E2]].
        * destruct (L2 n cs' R) as [cs0 [I0 Q0]]. exists cs0. split; [apply in_or_app; auto|exact Q0].
        * exists cs'. split; [|apply lequiv_refl]. apply in_or_app. right. left. congruence.
      + intros g' n' [E|Hin].
        * injection E as <- <-. exists o, cs. split; [exact OIN|]. split; [exact GC|]. apply in_or_app. cbn. auto.
        * destruct (L3 g' n' Hin) as [o1 [cs1 [A1 [A2 A3]]]]. exists o1, cs1. split; [auto|]. split; [auto|].
          apply in_or_app. auto.
      + intros a b. rewrite <- copies_other by exact NC. apply CC. }
  (* calls that leave gates, lookup gates and maps alone *)
  assert (AN : gate_of o = None -> lookup_of o = None -> forall c'' r',
     c_gates c'' = c_gates c -> c_lgates c'' = c_lgates c -> c_gmap c'' = c_gmap c -> c_lmap c'' = c_lmap c ->
     (forall a b, In (a, b) (c_copies c'') <-> In (BCopy a b) (past ++ [o]) /\ a <> b /\ is_private a = false /\ is_private b = false) ->
     inv vs c'' (past ++ [o]) (rs ++ [(o, r')])).
  { intros GN LN c'' r' E1 E2 E3 E4 E5. split; rewrite ?E1, ?E2, ?E3, ?E4.
    - intros n cs' Hin. apply greqs_snoc. left. auto.
    - intros n cs' R. apply greqs_snoc in R. destruct R as [R|[X1 X2]]; [auto|congruence].
    - intros g' n' Hin. destruct (G3 g' n' Hin) as [o1 [cs1 [A1 A2]]]. exists o1, cs1. auto.
    - intros n cs' Hin. apply lreqs_snoc. left. auto.
    - intros n cs' R. apply lreqs_snoc in R. destruct R as [R|[X1 X2]]; [auto|congruence].
    - intros g' n' Hin. destruct (L3 g' n' Hin) as [o1 [cs1 [A1 A2]]]. exists o1, cs1. auto.
    - exact E5. }
  assert (CO : (forall a b, o <> BCopy a b) -> forall a b,
     In (a, b) (c_copies c) <-> In (BCopy a b) (past ++ [o]) /\ a <> b /\ is_private a = false /\ is_private b = false).
  { intros NC a b. rewrite <- copies_other by exact NC. apply CC. }
  destruct o; cbn [bstep] in H.
  - destruct (add_gate c (gate_gid vs cs) cs) as [c0 n] eqn:E. injection H as <- <- <-.
    eapply AG; try reflexivity; [discriminate|exact E].
  - destruct (add_gate c (gate_gid1 vs c0) [c0]) as [c1 n] eqn:E. injection H as <- <- <-.
    eapply AG; try reflexivity; [discriminate|exact E].
  - injection H as <- <- <-. split; cbn [c_gates c_lgates c_copies c_gmap c_lmap].
    + intros n cs' Hin. apply greqs_snoc. apply in_app_or in Hin. destruct Hin as [Hin|[E|[]]]; [left; auto|].
      injection E as <- <-. right. auto.
    + intros n cs' R. apply greqs_snoc in R. destruct R as [R|[E1 E2]].
      * destruct (G2 n cs' R) as [cs0 [I0 Q0]]. exists cs0. split; [apply in_or_app; auto|exact Q0].
      * exists cs'. split; [|apply equiv_refl]. apply in_or_app. right. left. cbn in E2. congruence.
    + intros g' n' Hin. destruct (G3 g' n' Hin) as [o1 [cs1 [A1 [A2 A3]]]]. exists o1, cs1.
      split; [auto|split; [auto|apply in_or_app; auto]].
    + intros n cs' Hin. apply lreqs_snoc. left. auto.
    + intros n cs' R. apply lreqs_snoc in R. destruct R as [R|[E1 E2]]; [auto|discriminate].
    + intros g' n' Hin. destruct (L3 g' n' Hin) as [o1 [cs1 [A1 A2]]]. exists o1, cs1. auto.
    + apply CO. discriminate.
  - destruct (add_lookup c (lookup_gid vs cs) cs) as [c0 n] eqn:E. injection H as <- <- <-.
    eapply AL; try reflexivity; [discriminate|exact E].
  - destruct (add_lookup c (lookup_gid1 vs c0) [c0]) as [c1 n] eqn:E. injection H as <- <- <-.
    eapply AL; try reflexivity; [discriminate|exact E].
  - injection H as <- <- <-. split; cbn [c_gates c_lgates c_copies c_gmap c_lmap].
    + intros n cs' Hin. apply greqs_snoc. left. auto.
    + intros n cs' R. apply greqs_snoc in R. destruct R as [R|[E1 E2]]; [auto|discriminate].
    + intros g' n' Hin. destruct (G3 g' n' Hin) as [o1 [cs1 [A1 A2]]]. exists o1, cs1. auto.
    + intros n cs' Hin. apply lreqs_snoc. apply in_app_or in Hin. destruct Hin as [Hin|[E|[]]]; [left; auto|].
      injection E as <- <-. right. auto.
    + intros n cs' R. apply lreqs_snoc in R. destruct R as [R|[E1 E2]].
      * destruct (L2 n cs' R) as [cs0 [I0 Q0]]. exists cs0. split; [apply in_or_app; auto|exact Q0].
      * exists cs'. split; [|apply lequiv_refl]. apply in_or_app. right. left. cbn in E2. congruence.
    + intros g' n' Hin. destruct (L3 g' n' Hin) as [o1 [cs1 [A1 [A2 A3]]]]. exists o1, cs1.
      split; [auto|split; [auto|apply in_or_app; auto]].
    + apply CO. discriminate.
  - injection H as <- <- <-. apply AN; try reflexivity. cbn [c_copies]. apply CO. discriminate.
  - injection H as <- <- <-.
    assert (E1 : c_gates (add_copy c a b) = c_gates c /\ c_lgates (add_copy c a b) = c_lgates c /\
                 c_gmap (add_copy c a b) = c_gmap c /\ c_lmap (add_copy c a b) = c_lmap c).
    { unfold add_copy. destruct (var_eqb a b); [auto|]. destruct (is_private a || is_private b); auto. }
    destruct E1 as [E1 [E2 [E3 E4]]]. apply AN; auto.
    intros x y. rewrite in_app_iff. unfold add_copy.
    destruct (var_eqb a b) eqn:Eab.
    + apply var_eqb_eq in Eab. subst b. rewrite CC. split; [tauto|].
      intros [[A|[A|[]]] [B D]]; [tauto|]. injection A as <- <-. congruence.
    + assert (Nab : a <> b) by (intros E; apply var_eqb_eq in E; congruence).
      destruct (is_private a || is_private b) eqn:Ep.
      * rewrite CC. split; [tauto|]. intros [[A|[A|[]]] [B D]]; [tauto|].
        injection A as <- <-. apply orb_true_iff in Ep. destruct D; destruct Ep; congruence.
      * apply orb_false_iff in Ep. destruct Ep as [Pa Pb]. cbn [c_copies]. rewrite in_app_iff, CC. cbn [In].
        split.
        -- intros [A|[A|[]]]; [tauto|]. injection A as <- <-. tauto.
        -- intros [[A|[A|[]]] [B D]]; [tauto|]. injection A as <- <-. auto.
  - destruct (astep s o) as [s1|] eqn:Es; [|discriminate]. injection H as <- <- <-.
    apply AN; try reflexivity. apply CO. discriminate.
Qed.

Lemma separates_prefix : forall vs a b, separates vs (a ++ b) -> separates vs a.
Proof.
  intros vs a b [S1 S2]. split; intros o1 o2 g cs1 cs2 I1 I2; [apply S1|apply S2]; apply in_or_app; auto.
Qed.

Lemma bruns_inv : forall (vs : vset P) h c s c' s' rs past rs0,
  inv vs c past rs0 -> separates vs (past ++ h) ->
  bruns vs (c, s) h = Some ((c', s'), rs) -> inv vs c' (past ++ h) (rs0 ++ rs).
Proof.
  induction h as [|o h IH]; intros c s c' s' rs past rs0 I S H; cbn [bruns] in H.
  - injection H as <- <- <-. rewrite !app_nil_r. exact I.
  - destruct (bstep vs (c, s) o) as [[[c1 s1] r]|] eqn:E; [|discriminate].
    destruct (bruns vs (c1, s1) h) as [[[c2 s2] rs2]|] eqn:E2; [|discriminate].
    injection H as <- <- <-.
    change (o :: h) with ([o] ++ h) in *. change ((o, r) :: rs2) with ([(o, r)] ++ rs2).
    rewrite !app_assoc in *. eapply IH; [|exact S|exact E2].
    eapply bstep_inv; [exact I|eapply separates_prefix; exact S|exact E].
Qed.

(** The assignment part of a history. *)
Definition aops (h : list (bcall P)) : list (aop P) :=
  flat_map (fun o => match o with BA a => [a] | _ => [] end) h.

Lemma bruns_aruns : forall (vs : vset P) h c s c' s' rs,
  bruns vs (c, s) h = Some ((c', s'), rs) -> aruns s (aops h) = Some s'.
Proof.
  induction h as [|o h IH]; intros c s c' s' rs H; cbn [bruns] in H.
  - injection H as <- <- <-. reflexivity.
  - destruct (bstep vs (c, s) o) as [[[c1 s1] r]|] eqn:E; [|discriminate].
    destruct (bruns vs (c1, s1) h) as [[[c2 s2] rs2]|] eqn:E2; [|discriminate].
    injection H as <- <- <-. apply IH in E2.
    destruct o; cbn [bstep] in E; cbn [aops flat_map app];
      try (match type of E with context [add_gate ?x ?y ?z] => destruct (add_gate x y z) end);
      try (match type of E with context [add_lookup ?x ?y ?z] => destruct (add_lookup x y z) end);
      try (injection E as <- <- <-; exact E2).
    destruct (astep s o) as [s3|] eqn:Es; [|discriminate]. injection E as <- <- <-.
    cbn [aruns]. rewrite Es. exact E2.
Qed.

Lemma in_aops : forall h a, In a (aops h) <-> In (BA a) h.
Proof.
  intros h a. unfold aops. rewrite in_flat_map. split.
  - intros [o [Hin Ho]]. destruct o; cbn in Ho; try tauto. destruct Ho as [<-|[]]. exact Hin.
  - intros H. exists (BA a). split; [exact H|]. cbn. auto.
Qed.

(** The last write to a selector cell when selectors are only enabled. *)
Lemma last_write_sel : forall (h : list (aop P)) i r,
  (forall c r v, ~ In (ASelector c r v) h) ->
  (In (AEnable i r) h -> last_write h (LSel i r) = Some f1) /\
  (~ In (AEnable i r) h -> last_write h (LSel i r) = None).
Proof.
  intros h i r N. unfold last_write.
  assert (G : forall acc, (acc = None \/ acc = Some f1) ->
     let res := fold_left (fun acc o => match effect o (LSel i r) with Some x => x | None => acc end) h acc in
     (In (AEnable i r) h -> res = Some f1) /\ (~ In (AEnable i r) h -> res = acc)).
  { clear -N. induction h as [|o h IH]; intros acc Ha; cbn [fold_left].
    - split; [intros []|reflexivity].
    - assert (N' : forall c r v, ~ In (ASelector c r v) h) by (intros c0 r0 v0 Hin; apply (N c0 r0 v0); right; exact Hin).
      specialize (IH N').
      assert (D : (o = AEnable i r /\ effect o (LSel i r) = Some (Some f1)) \/
                  (o <> AEnable i r /\ effect o (LSel i r) = None)).
      { destruct o; cbn; try (right; split; [discriminate|reflexivity]).
        - exfalso. apply (N c r0 v). left. reflexivity.
        - destruct ((c =? i)%nat && (r0 =? r)%nat) eqn:E.
          + apply andb_true_iff in E. rewrite !Nat.eqb_eq in E. destruct E as [-> ->]. left. auto.
          + right. split; [|reflexivity]. intros X. injection X as -> ->. rewrite !Nat.eqb_refl in E. discriminate. }
      destruct D as [[-> ->]|[No ->]].
      + destruct (IH (Some f1)) as [A B]; [auto|]. split; [|intros X; exfalso; apply X; left; reflexivity].
        intros _. destruct (in_dec (fun a b : bool => bool_dec a b) true [true]) as [_|X]; [|exfalso; apply X; left; reflexivity].
        assert (Dc : In (AEnable i r) h \/ ~ In (AEnable i r) h).
        { clear. induction h as [|o h [I|I]]; [right; intros []|left; right; exact I|].
          assert (D : o = AEnable i r \/ o <> AEnable i r).
          { destruct o; try (right; discriminate).
            destruct (Nat.eq_dec c i) as [->|]; [|right; congruence].
            destruct (Nat.eq_dec r0 r) as [->|]; [left; reflexivity|right; congruence]. }
          destruct D as [->|D]; [left; left; reflexivity|]. right. intros [E|E]; auto. }
        destruct Dc as [Dc|Dc]; [apply A; exact Dc|apply B; exact Dc].
      + destruct (IH acc Ha) as [A B]. split.
        * intros [E|E]; [congruence|apply A; exact E].
        * intros E. apply B. intros X. apply E. right. exact X. }
  apply (G None). auto.
Qed.


Lemma f1_feqb : feqb (f1 : F) f0 = false.
Proof. destruct (feqb f1 f0) eqn:E; [|reflexivity]. apply feqb_eq in E. exfalso. apply (f1_neq_f0 P). exact E. Qed.

Lemma sel_rows_spec : forall w p c k h (s : astate P) sel r, aruns (a_new P w p c k) h = Some s ->
  (forall c r v, ~ In (ASelector c r v) h) ->
  (In r (sel_rows s sel) <-> In (AEnable sel r) h).
Proof.
  intros w p c k h s sel r H N. unfold sel_rows.
  set (col := match nth_error (a_sel s) sel with Some c => c | None => [] end).
  rewrite filter_In, in_seq, andb_true_iff, negb_true_iff, Nat.ltb_lt.
  assert (E : nth r col f0 = match last_write h (LSel sel r) with Some v => v | None => f0 end).
  { unfold col. rewrite nth_cells. eapply sel_table_l; eauto. }
  destruct (last_write_sel h sel r N) as [A B]. split.
  - intros [_ [Hl Hn]].
    destruct (allocated_rows_l P w p c k h s H) as [AR _].
    assert (Dc : In (AEnable sel r) h \/ ~ In (AEnable sel r) h).
    { clear. induction h as [|o h [I|I]]; [right; intros []|left; right; exact I|].
      assert (D : o = AEnable sel r \/ o <> AEnable sel r).
      { destruct o; try (right; discriminate).
        destruct (Nat.eq_dec c sel) as [->|]; [|right; congruence].
        destruct (Nat.eq_dec r0 r) as [->|]; [left; reflexivity|right; congruence]. }
      destruct D as [->|D]; [left; left; reflexivity|]. right. intros [E|E]; auto. }
    destruct Dc as [Dc|Dc]; [exact Dc|]. rewrite (B Dc) in E. rewrite E in Hn. rewrite feqb_refl in Hn. discriminate.
  - intros Hin. rewrite (A Hin) in E.
    destruct (allocated_rows_l P w p c k h s H) as [AR _]. specialize (AR _ r Hin eq_refl).
    split; [lia|]. split.
    + destruct (Nat.lt_ge_cases r (length col)) as [L|L]; [exact L|].
      rewrite nth_overflow in E by exact L. exfalso. apply (f1_neq_f0 P). congruence.
    + rewrite E. apply f1_feqb.
Qed.

Lemma all_ok_true : forall l, all_ok l = Some true <-> (forall x, In x l -> x = Some true).
Proof.
  induction l as [|x l IH]; cbn.
  - split; [intros _ x []|reflexivity].
  - destruct x as [[]|]; (split; [intros H|intros H]).
    + intros x [<-|Hin]; [reflexivity|]. apply IH; assumption.
    + apply IH. intros x Hin. apply H. auto.
    + discriminate.
    + specialize (H (Some false) (or_introl eq_refl)). discriminate.
    + discriminate.
    + specialize (H None (or_introl eq_refl)). discriminate.
Qed.

(** ** What the caller asked for *)
(** [s] meets every request of the history, read off the calls and the
    selectors they returned. *)
Definition meets (te : tenv P) (s : astate P) (rs : list (bcall P * option nat)) : Prop :=
  (forall o sel cs row e, In (o, Some sel) rs -> gate_of o = Some cs -> In (BA (AEnable sel row), None) rs ->
     In e cs -> eval (a_table s) (Z.of_nat row) e = f0) /\
  (forall o sel cs row e, In (o, Some sel) rs -> lookup_of o = Some cs -> In (BA (AEnable sel row), None) rs ->
     In e cs -> in_table te s (fst e) (map (eval (a_table s) (Z.of_nat row)) (snd e))) /\
  (forall a b, In (BCopy a b, None) rs -> is_private a = false -> is_private b = false -> a <> b ->
     exists v, var_value s a = Some v /\ var_value s b = Some v).

Lemma bruns_calls : forall (vs : vset P) h c s c' s' rs,
  bruns vs (c, s) h = Some ((c', s'), rs) -> map fst rs = h.
Proof.
  induction h as [|o h IH]; intros c s c' s' rs H; cbn [bruns] in H.
  - injection H as <- <- <-. reflexivity.
  - destruct (bstep vs (c, s) o) as [[[c1 s1] r]|] eqn:E; [|discriminate].
    destruct (bruns vs (c1, s1) h) as [[[c2 s2] rs2]|] eqn:E2; [|discriminate].
    injection H as <- <- <-. cbn. f_equal. eapply IH; eauto.
Qed.

Lemma bruns_none : forall (vs : vset P) h c s c' s' rs o r,
  bruns vs (c, s) h = Some ((c', s'), rs) -> In (o, r) rs ->
  match o with BCopy _ _ | BA _ => r = None | _ => True end.
Proof.
  induction h as [|o h IH]; intros c s c' s' rs o0 r0 H Hin; cbn [bruns] in H.
  - injection H as <- <- <-. destruct Hin.
  - destruct (bstep vs (c, s) o) as [[[c1 s1] r]|] eqn:E; [|discriminate].
    destruct (bruns vs (c1, s1) h) as [[[c2 s2] rs2]|] eqn:E2; [|discriminate].
    injection H as <- <- <-. destruct Hin as [Hin|Hin]; [|eapply IH; eauto].
    injection Hin as <- <-. destruct o; auto; cbn in E.
    + injection E as _ _ <-. reflexivity.
    + destruct (astep s o); [|discriminate]. injection E as _ _ <-. reflexivity.
Qed.

Lemma builder_l : forall (vs : vset P) te w p k n h c s rs,
  bruns vs (c_new, a_new P w p k n) h = Some ((c, s), rs) ->
  separates vs h -> (forall i r v, ~ In (BA (ASelector i r v)) h) ->
  (is_satisfied te c s = Some true <-> meets te s rs).
Proof.
  intros vs te w p k n h c s rs H SEP NS.
  assert (I : inv vs c h rs).
  { apply (bruns_inv vs h c_new (a_new P w p k n) c s rs [] []); [|exact SEP|exact H].
    split; cbn; try (intros ? ? []; fail); try (intros ? ? [o [[] _]]; fail); intros a b; tauto. }
  pose proof (bruns_aruns _ _ _ _ _ _ _ H) as HA.
  pose proof (bruns_calls _ _ _ _ _ _ _ H) as HC.
  assert (SR : forall sel r, In r (sel_rows s sel) <-> In (BA (AEnable sel r), None) rs).
  { intros sel r. rewrite (sel_rows_spec w p k n (aops h) s sel r HA); [|intros c0 r0 v0 X; apply in_aops in X; eapply NS; eauto].
    rewrite in_aops. rewrite <- HC. rewrite in_map_iff. split.
    - intros [[o r0] [E Hin]]. cbn in E. subst o.
      pose proof (bruns_none _ _ _ _ _ _ _ _ _ H Hin) as E. cbn in E. subst r0. exact Hin.
    - intros Hin. exists (BA (AEnable sel r), None). auto. }
  assert (CPY : forall a b, In (BCopy a b) h <-> In (BCopy a b, None) rs).
  { intros a b. rewrite <- HC, in_map_iff. split.
    - intros [[o r0] [E Hin]]. cbn in E. subst o.
      pose proof (bruns_none _ _ _ _ _ _ _ _ _ H Hin) as E. cbn in E. subst r0. exact Hin.
    - intros Hin. exists (BCopy a b, None). auto. }
  destruct I as [G1 G2 _ L1 L2 _ CC].
  unfold is_satisfied. rewrite all_ok_true. split.
  - intros A. split; [|split].
    + intros o sel cs row e Hin Hg He Hc.
      destruct (G2 sel cs) as [cs' [Hin' Eq]]; [exists o; auto|].
      apply (proj2 (Eq (a_table s) (Z.of_nat row))); [|exact Hc].
      intros e' He'.
      assert (X : Some (feqb (eval (a_table s) (Z.of_nat row) e') f0) = Some true).
      { apply A. apply in_or_app. left. apply in_flat_map. exists (sel, cs'). split; [exact Hin'|].
        apply in_flat_map. exists row. split; [apply SR; exact He|].
        apply in_map_iff. exists e'. auto. }
      injection X as X. apply feqb_eq. exact X.
    + intros o sel cs row e Hin Hg He Hc.
      destruct (L2 sel cs) as [cs' [Hin' Eq]]; [exists o; auto|].
      apply (proj2 (Eq te s (Z.of_nat row))); [|exact Hc].
      intros [t' es'] He'. apply lookup_check_spec. apply A. apply in_or_app. right. apply in_or_app. left.
      apply in_flat_map. exists (sel, cs'). split; [exact Hin'|].
      apply in_flat_map. exists row. split; [apply SR; exact He|].
      apply in_map_iff. exists (t', es'). auto.
    + intros a b Hin Pa Pb Nab.
      assert (X : In (a, b) (c_copies c)) by (apply CC; rewrite CPY; auto).
      assert (Y : match var_value s a, var_value s b with Some x, Some y => Some (feqb x y) | _, _ => None end = Some true).
      { apply A. apply in_or_app. right. apply in_or_app. right. apply in_map_iff. exists (a, b). auto. }
      destruct (var_value s a) as [x|]; [|discriminate]. destruct (var_value s b) as [y|]; [|discriminate].
      injection Y as Y. apply feqb_eq in Y. subst y. exists x. auto.
  - intros [M1 [M2 M3]] x Hx. apply in_app_or in Hx. destruct Hx as [Hx|Hx]; [|apply in_app_or in Hx; destruct Hx as [Hx|Hx]].
    + apply in_flat_map in Hx. destruct Hx as [[sel cs] [Hin Hx]]. apply in_flat_map in Hx.
      destruct Hx as [row [Hr Hx]]. apply in_map_iff in Hx. destruct Hx as [e [<- He]]. cbn in *.
      destruct (G1 sel cs Hin) as [o [Ho Hg]]. f_equal. apply feqb_eq.
      eapply M1; eauto. apply SR. exact Hr.
    + apply in_flat_map in Hx. destruct Hx as [[sel cs] [Hin Hx]]. apply in_flat_map in Hx.
      destruct Hx as [row [Hr Hx]]. apply in_map_iff in Hx. destruct Hx as [e [<- He]]. cbn in *.
      destruct (L1 sel cs Hin) as [o [Ho Hg]]. destruct e as [t es]. apply lookup_check_spec.
      eapply (M2 o sel cs row (t, es)); eauto. apply SR. exact Hr.
    + apply in_map_iff in Hx. destruct Hx as [[a b] [<- Hin]]. cbn.
      apply CC in Hin. destruct Hin as [Hin [Nab [Pa Pb]]]. apply CPY in Hin.
      destruct (M3 a b Hin Pa Pb Nab) as [v [-> ->]]. rewrite feqb_refl. reflexivity.
Qed.

(** ** Selectors chosen by the circuit *)

(** What a call without explicit selector asks for: the selector of a gate, of a
    lookup gate, or a new one. *)
Inductive skey := KGate (g : gid P) | KLookup (g : gid P) | KFresh.
Definition skey_of (vs : vset P) (o : bcall P) : option skey :=
  match o with
  | BGate cs => Some (KGate (gate_gid vs cs))
  | BGate1 e => Some (KGate (gate_gid1 vs e))
  | BLookup cs => Some (KLookup (lookup_gid vs cs))
  | BLookup1 e => Some (KLookup (lookup_gid1 vs e))
  | BDynamic => Some KFresh
  | _ => None
  end.
Definition look (c : cstate P) (k : skey) : option nat :=
  match k with KGate g => find_gid (c_gmap c) g | KLookup g => find_gid (c_lmap c) g | KFresh => None end.

Lemma find_gid_cons : forall (g g' : gid P) n m,
  find_gid ((g, n) :: m) g = Some n /\ (g' <> g -> find_gid ((g, n) :: m) g' = find_gid m g').
Proof.
  intros g g' n m. cbn. split.
  - rewrite (proj2 (gid_eqb_eq g g) eq_refl). reflexivity.
  - intros N. destruct (gid_eqb g g') eqn:E; [|reflexivity]. apply gid_eqb_eq in E. congruence.
Qed.

Lemma bstep_key : forall vs c s o c' s' r, bstep vs (c, s) o = Some ((c', s'), r) ->
  match skey_of vs o with
  | None => c_next c' = c_next c /\ forall k, look c' k = look c k
  | Some k =>
      (exists n, r = Some n /\ look c k = Some n /\ c_next c' = c_next c /\ forall k', look c' k' = look c k') \/
      (r = Some (c_next c) /\ look c k = None /\ c_next c' = S (c_next c) /\
       (k <> KFresh -> look c' k = Some (c_next c)) /\ forall k', k' <> k -> look c' k' = look c k')
  end.
Proof.
  intros vs c s o c' s' r H.
  destruct o; cbn [bstep skey_of] in *.
  - unfold add_gate in H. destruct (find_gid (c_gmap c) (gate_gid vs cs)) as [n|] eqn:E; injection H as <- <- <-.
    + left. exists n. auto.
    + right. split; [reflexivity|]. split; [exact E|]. split; [reflexivity|]. cbn [look c_gmap c_lmap]. split.
      * intros _. apply (proj1 (find_gid_cons _ (f0, f0) _ _)).
      * intros [g'|g'|] N; cbn [look c_gmap c_lmap]; try reflexivity. apply find_gid_cons. congruence.
  - unfold add_gate in H. destruct (find_gid (c_gmap c) (gate_gid1 vs c0)) as [n|] eqn:E; injection H as <- <- <-.
    + left. exists n. auto.
    + right. split; [reflexivity|]. split; [exact E|]. split; [reflexivity|]. cbn [look c_gmap c_lmap]. split.
      * intros _. apply (proj1 (find_gid_cons _ (f0, f0) _ _)).
      * intros [g'|g'|] N; cbn [look c_gmap c_lmap]; try reflexivity. apply find_gid_cons. congruence.
  - injection H as <- <- <-. split; [reflexivity|]. intros [g|g|]; reflexivity.
  - unfold add_lookup in H. destruct (find_gid (c_lmap c) (lookup_gid vs cs)) as [n|] eqn:E; injection H as <- <- <-.
    + left. exists n. auto.
    + right. split; [reflexivity|]. split; [exact E|]. split; [reflexivity|]. cbn [look c_gmap c_lmap]. split.
      * intros _. apply (proj1 (find_gid_cons _ (f0, f0) _ _)).
      * intros [g'|g'|] N; cbn [look c_gmap c_lmap]; try reflexivity. apply find_gid_cons. congruence.
  - unfold add_lookup in H. destruct (find_gid (c_lmap c) (lookup_gid1 vs c0)) as [n|] eqn:E; injection H as <- <- <-.
    + left. exists n. auto.
    + right. split; [reflexivity|]. split; [exact E|]. split; [reflexivity|]. cbn [look c_gmap c_lmap]. split.
      * intros _. apply (proj1 (find_gid_cons _ (f0, f0) _ _)).
      * intros [g'|g'|] N; cbn [look c_gmap c_lmap]; try reflexivity. apply find_gid_cons. congruence.
  - injection H as <- <- <-. split; [reflexivity|]. intros [g|g|]; reflexivity.
  - injection H as <- <- <-. right. split; [reflexivity|]. split; [reflexivity|]. split; [reflexivity|]. split; [congruence|].
    intros [g|g|] N; reflexivity.
  - injection H as <- <- <-. unfold add_copy. destruct (var_eqb a b); [auto|].
    destruct (is_private a || is_private b); [auto|]. split; [reflexivity|]. intros [g|g|]; reflexivity.
  - destruct (astep s o); [|discriminate]. injection H as <- <- <-. auto.
Qed.

Definition same_sel (ki kj : skey) : Prop := ki = kj /\ ki <> KFresh.
Record kinv (vs : vset P) (c : cstate P) (rs : list (bcall P * option nat)) : Prop := mkKinv {
  k_lt : forall k n, look c k = Some n -> (n < c_next c)%nat;
  k_inj : forall k k' n, look c k = Some n -> look c k' = Some n -> k = k';
  k_ent : forall i o n k, nth_error rs i = Some (o, Some n) -> skey_of vs o = Some k ->
     (n < c_next c)%nat /\ (k <> KFresh -> look c k = Some n) /\ (k = KFresh -> forall k', look c k' <> Some n);
  k_pair : forall i j oi oj n m ki kj, (i < j)%nat ->
     nth_error rs i = Some (oi, Some n) -> nth_error rs j = Some (oj, Some m) ->
     skey_of vs oi = Some ki -> skey_of vs oj = Some kj -> (n = m <-> same_sel ki kj)
}.

Lemma nth_error_snoc : forall A (l : list A) a i x, nth_error (l ++ [a]) i = Some x ->
  ((i < length l)%nat /\ nth_error l i = Some x) \/ (i = length l /\ x = a).
Proof.
  intros A l a i x H. destruct (Nat.lt_ge_cases i (length l)) as [L|L].
  - rewrite nth_error_app1 in H by exact L. auto.
  - rewrite nth_error_app2 in H by exact L. destruct (i - length l)%nat as [|k] eqn:E.
    + cbn in H. injection H as <-. right. split; [lia|reflexivity].
    + cbn in H. destruct k; discriminate.
Qed.

Lemma skey_dec : forall a b : skey, a = b \/ a <> b.
Proof.
  intros a b. destruct a as [g|g|], b as [g'|g'|]; try (right; discriminate); try (left; reflexivity).
  - destruct (gid_eqb g g') eqn:E; [left; apply gid_eqb_eq in E; congruence|].
    right. intros X. injection X as <-. rewrite (proj2 (gid_eqb_eq g g) eq_refl) in E. discriminate.
  - destruct (gid_eqb g g') eqn:E; [left; apply gid_eqb_eq in E; congruence|].
    right. intros X. injection X as <-. rewrite (proj2 (gid_eqb_eq g g) eq_refl) in E. discriminate.
Qed.

Lemma bstep_kinv : forall vs c s o c' s' r rs, kinv vs c rs ->
  bstep vs (c, s) o = Some ((c', s'), r) -> kinv vs c' (rs ++ [(o, r)]).
Proof.
  intros vs c s o c' s' r rs [LT INJ ENT PAIR] H. apply bstep_key in H.
  destruct (skey_of vs o) as [k|] eqn:Ek.
  - destruct H as [[n [-> [Hl [Hn Heq]]]]|[-> [Hl [Hn [Hk Hoth]]]]].
    + split.
      * intros k' n' E. rewrite Hn. rewrite Heq in E. eauto.
      * intros k1 k2 n'. rewrite !Heq. apply INJ.
      * intros i o' n' k' E Ek'. rewrite Hn.
        apply nth_error_snoc in E. destruct E as [[_ E]|[_ E]].
        -- destruct (ENT _ _ _ _ E Ek') as [A [B D]]. split; [exact A|].
           split; [rewrite Heq; exact B|]. intros X k2. rewrite Heq. apply D; exact X.
        -- injection E as -> ->. rewrite Ek in Ek'. injection Ek' as <-.
           split; [eauto|]. split; [intros _; rewrite Heq; exact Hl|]. intros ->. discriminate.
      * intros i j oi oj n1 m ki kj Hij Ei Ej Ki Kj.
        apply nth_error_snoc in Ej. destruct Ej as [[Lj Ej]|[-> Ej]].
        -- rewrite nth_error_app1 in Ei by lia. exact (PAIR i j oi oj _ _ _ _ Hij Ei Ej Ki Kj).
        -- rewrite nth_error_app1 in Ei by lia. injection Ej as -> ->.
           rewrite Ek in Kj. injection Kj as <-. destruct (ENT _ _ _ _ Ei Ki) as [A [B D]]. unfold same_sel.
           destruct (skey_dec ki KFresh) as [->|N].
           ++ split; [|intros [_ X]; congruence]. intros <-. exfalso. apply (D eq_refl k). exact Hl.
           ++ specialize (B N). split.
              ** intros <-. split; [|exact N]. eapply INJ; eauto.
              ** intros [-> _]. congruence.
    + assert (OLD : forall k' n', look c k' = Some n' -> look c' k' = Some n').
      { intros k' n' E. rewrite Hoth; [exact E|]. intros ->. congruence. }
      assert (NEW : forall k' n', look c' k' = Some n' -> look c k' = Some n' \/ (k' = k /\ n' = c_next c)).
      { intros k' n' E. destruct (skey_dec k' k) as [->|N]; [|rewrite Hoth in E by exact N; auto].
        right. split; [reflexivity|]. destruct (skey_dec k KFresh) as [->|N]; [discriminate|].
        rewrite (Hk N) in E. congruence. }
      split.
      * intros k' n' E. rewrite Hn. apply NEW in E. destruct E as [E|[_ ->]]; [apply LT in E; lia|lia].
      * intros k1 k2 n' E1 E2. apply NEW in E1, E2. destruct E1 as [E1|[-> ->]], E2 as [E2|[-> X]].
        -- eapply INJ; eauto.
        -- apply LT in E1. lia.
        -- apply LT in E2. lia.
        -- reflexivity.
      * intros i o' n' k' E Ek'. rewrite Hn.
        apply nth_error_snoc in E. destruct E as [[_ E]|[_ E]].
        -- destruct (ENT _ _ _ _ E Ek') as [A [B D]]. split; [lia|].
           split; [intros N; apply OLD; auto|]. intros X k2 E2. apply NEW in E2.
           destruct E2 as [E2|[_ ->]]; [eapply D; eauto|lia].
        -- injection E as -> ->. rewrite Ek in Ek'. injection Ek' as <-.
           split; [lia|]. split; [exact Hk|]. intros -> k2 E2. pose proof E2 as E3. apply NEW in E2.
           destruct E2 as [E2|[-> _]]; [apply LT in E2; lia|discriminate].
      * intros i j oi oj n1 m ki kj Hij Ei Ej Ki Kj.
        apply nth_error_snoc in Ej. destruct Ej as [[Lj Ej]|[-> Ej]].
        -- rewrite nth_error_app1 in Ei by lia. exact (PAIR i j oi oj _ _ _ _ Hij Ei Ej Ki Kj).
        -- rewrite nth_error_app1 in Ei by lia. injection Ej as -> ->.
           rewrite Ek in Kj. injection Kj as <-. destruct (ENT _ _ _ _ Ei Ki) as [A [B D]]. unfold same_sel.
           split; [intros ->; lia|]. intros [-> N]. specialize (B N). congruence.
  - destruct H as [Hn Heq]. split.
    + intros k' n' E. rewrite Hn. rewrite Heq in E. eauto.
    + intros k1 k2 n'. rewrite !Heq. apply INJ.
    + intros i o' n' k' E Ek'. rewrite Hn. apply nth_error_snoc in E. destruct E as [[_ E]|[_ E]].
      * destruct (ENT _ _ _ _ E Ek') as [A [B D]]. split; [exact A|].
        split; [rewrite Heq; exact B|]. intros X k2. rewrite Heq. apply D; exact X.
      * injection E as -> _. congruence.
    + intros i j oi oj n1 m ki kj Hij Ei Ej Ki Kj.
      apply nth_error_snoc in Ej. destruct Ej as [[Lj Ej]|[-> Ej]].
      * rewrite nth_error_app1 in Ei by lia. exact (PAIR i j oi oj _ _ _ _ Hij Ei Ej Ki Kj).
      * injection Ej as -> _. congruence.
Qed.

Lemma bruns_kinv : forall vs h c s c' s' rs rs0, kinv vs c rs0 ->
  bruns vs (c, s) h = Some ((c', s'), rs) -> kinv vs c' (rs0 ++ rs).
Proof.
  intros vs. induction h as [|o h IH]; intros c s c' s' rs rs0 I H; cbn [bruns] in H.
  - injection H as <- <- <-. rewrite app_nil_r. exact I.
  - destruct (bstep vs (c, s) o) as [[[c1 s1] r]|] eqn:E; [|discriminate].
    destruct (bruns vs (c1, s1) h) as [[[c2 s2] rs2]|] eqn:E2; [|discriminate].
    injection H as <- <- <-. change ((o, r) :: rs2) with ([(o, r)] ++ rs2). rewrite app_assoc.
    eapply IH; [|exact E2]. eapply bstep_kinv; eauto.
Qed.

Lemma builder_selectors_l : forall vs s0 h c s rs i j oi oj n m ki kj,
  bruns vs (c_new, s0) h = Some ((c, s), rs) -> (i < j)%nat ->
  nth_error rs i = Some (oi, Some n) -> nth_error rs j = Some (oj, Some m) ->
  skey_of vs oi = Some ki -> skey_of vs oj = Some kj -> (n = m <-> ki = kj /\ ki <> KFresh).
Proof.
  intros vs s0 h c s rs i j oi oj n m ki kj H.
  assert (I : kinv vs c_new []).
  { split.
    - intros [g|g|] x E; discriminate.
    - intros [g|g|] k2 x E; discriminate.
    - intros [|i0] ? ? ? E; discriminate.
    - intros [|i0] ? ? ? ? ? ? ? _ E; discriminate. }
  exact (k_pair _ _ _ (bruns_kinv vs h c_new s0 c s rs [] I H) i j oi oj n m ki kj).
Qed.
End Proofs.
