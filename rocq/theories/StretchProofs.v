(** Lemmas about the component stretcher. *)
From Coq Require Import ZArith String List Lia Bool.
From Verif Require Import Base Field Plonk PlonkFacts AssignModel AssignProofs BuilderModel BuilderProofs FinalizeModel ConnectModel ConnectProofs PackModel StretchModel.
Import ListNotations.
Open Scope Z_scope.

(** ** Lines *)
Section Lines.
Variables (z : zones) (zmap : Z -> Z).
Notation group := (group z zmap).
Notation line := (line z zmap).

Definition before (g i : Z) : Z := Z.of_nat (length (filter (fun j => group j =? g) (zseq 0 i))).
Lemma line_before : forall i, line i = before (group i) i.
Proof. reflexivity. Qed.
Lemma before_step : forall g i, 0 <= i -> before g (i + 1) = before g i + (if group i =? g then 1 else 0).
Proof.
  intros g i H. unfold before. rewrite zseq_snoc by lia. rewrite filter_app, app_length. cbn [filter]. destruct (group i =? g); cbn [length]; lia.
Qed.
Lemma before_mono : forall g i j, 0 <= i <= j -> before g i <= before g j.
Proof.
  intros g i j [H0 H]. replace j with (i + Z.of_nat (Z.to_nat (j - i))) by lia. generalize (Z.to_nat (j - i)). induction n as [|n IH]; [rewrite Z.add_0_r; lia|].
  replace (i + Z.of_nat (S n)) with (i + Z.of_nat n + 1) by lia. rewrite before_step by lia. destruct (group (i + Z.of_nat n) =? g); lia.
Qed.
Lemma line_next : forall i, 0 <= i -> group i = group (i + 1) -> line (i + 1) = line i + 1.
Proof. intros i H E. rewrite !line_before, <- E, before_step by exact H. rewrite Z.eqb_refl. reflexivity. Qed.
Lemma line_inj : forall i j, 0 <= i -> 0 <= j -> group i = group j -> line i = line j -> i = j.
Proof.
  assert (L : forall i j, 0 <= i < j -> group i = group j -> line i < line j).
  { intros i j [H0 H] E. rewrite !line_before, <- E.
    pose proof (before_mono (group i) (i + 1) j ltac:(lia)). rewrite before_step, Z.eqb_refl in H1 by lia. lia. }
  intros i j Hi Hj E El. destruct (Z.lt_trichotomy i j) as [X|[X|X]]; [|exact X|]; exfalso.
  - pose proof (L i j ltac:(lia) E). lia.
  - pose proof (L j i ltac:(lia) (eq_sym E)). lia.
Qed.

(** Places of constants. *)
Lemma place_other : forall R vs asg rm rm' x, place_consts z zmap R asg rm vs = Some rm' -> (forall v, In v vs -> vrot v <> x) -> rm' x = rm x.
Proof.
  intros R. induction vs as [|v vs IH]; intros asg rm rm' x H Hx; cbn [place_consts] in H; destruct (first_free asg R); try discriminate.
  - injection H as <-. reflexivity.
  - destruct ((0 <=? vrot v) && (vrot v <? R)); [|discriminate].
    rewrite (IH _ _ _ x H) by (intros; apply Hx; right; assumption). unfold put.
    destruct (x =? vrot v) eqn:E; [|reflexivity]. apply Z.eqb_eq in E. exfalso. apply (Hx v); [left; reflexivity|auto].
Qed.
Lemma place_some : forall R vs asg rm rm' x, place_consts z zmap R asg rm vs = Some rm' -> rm x <> None \/ (exists v, In v vs /\ vrot v = x) -> rm' x <> None.
Proof.
  intros R. induction vs as [|v vs IH]; intros asg rm rm' x H Hx; cbn [place_consts] in H; destruct (first_free asg R); try discriminate.
  - injection H as <-. destruct Hx as [Hx|[v [[] _]]]. exact Hx.
  - destruct ((0 <=? vrot v) && (vrot v <? R)); [|discriminate]. apply (IH _ _ _ x H). unfold put.
    destruct (x =? vrot v) eqn:E; [left; discriminate|]. destruct Hx as [Hx|[w [[<-|Hw] E2]]]; [left; exact Hx| |right; eauto].
    apply Z.eqb_neq in E. congruence.
Qed.
(** The places are distinct and were not taken. *)
Lemma place_inj : forall R vs asg rm rm', place_consts z zmap R asg rm vs = Some rm' ->
  forall tk : Z -> bool, (forall k, tk k = true -> asg k = true) ->
  (forall x p, rm x = Some p -> asg p = true /\ tk p = false) -> (forall x y p, rm x = Some p -> rm y = Some p -> x = y) ->
  (forall x p, rm' x = Some p -> tk p = false) /\ (forall x y p, rm' x = Some p -> rm' y = Some p -> x = y).
Proof.
  intros R. induction vs as [|v vs IH]; intros asg rm rm' H tk Ht Ha Hi; cbn [place_consts] in H; destruct (first_free asg R) as [f|] eqn:Ef; try discriminate.
  - injection H as <-. split; [intros x p Hx; apply (Ha x p Hx)|exact Hi].
  - destruct ((0 <=? vrot v) && (vrot v <? R)); [|discriminate]. cbv zeta in H.
    set (p := if asg (line (vrot v)) then f else line (vrot v)) in *.
    assert (Fp : asg p = false).
    { unfold p. destruct (asg (line (vrot v))) eqn:E; [|exact E]. apply find_some in Ef. destruct Ef as [_ Ef]. destruct (asg f); [discriminate|reflexivity]. }
    apply (IH _ _ _ H tk).
    + intros k Hk. unfold mark1. rewrite (Ht k Hk). apply orb_true_r.
    + intros x q Hq. unfold put in Hq. unfold mark1. destruct (x =? vrot v) eqn:E.
      * injection Hq as <-. rewrite Z.eqb_refl. split; [reflexivity|]. destruct (tk p) eqn:Et; [|reflexivity]. apply Ht in Et. congruence.
      * destruct (Ha x q Hq) as [A B]. rewrite A. split; [apply orb_true_r|exact B].
    + intros x y q Hx Hy. unfold put in Hx, Hy. destruct (x =? vrot v) eqn:E1; destruct (y =? vrot v) eqn:E2.
      * apply Z.eqb_eq in E1. apply Z.eqb_eq in E2. congruence.
      * injection Hx as <-. destruct (Ha y p Hy). congruence.
      * injection Hy as <-. destruct (Ha x p Hx). congruence.
      * eapply Hi; eauto.
Qed.
End Lines.

Section Proofs.
Context {P : params}.
Notation F := (F P).
Notation table := (table P).

Lemma evalv_in : forall (r1 r2 : var -> F) (e : expr P), (forall v, In v (evars e) -> r1 v = r2 v) -> evalv r1 e = evalv r2 e.
Proof.
  intros r1 r2. induction e as [k vs|e IH n|o a IHa b IHb]; intros H; cbn [evalv evars] in *.
  - revert k. induction vs as [|v vs IH]; intros k; [reflexivity|]. cbn [fold_left]. rewrite (H v (or_introl eq_refl)). apply IH. intros; apply H; right; assumption.
  - rewrite IH by exact H. reflexivity.
  - rewrite IHa, IHb; [reflexivity| |]; intros; apply H, in_or_app; auto.
Qed.
Lemma eval_move : forall f (T T2 : table) row row2 e, (forall v, In v (evars e) -> gval T row (f v) = gval T2 row2 v) ->
  eval T row (move f e) = eval T2 row2 e.
Proof. intros f T T2 row row2 e H. rewrite !evalv_gval, move_evalv. apply evalv_in. exact H. Qed.

(** ** Constants *)
Definition consistent (cs : list (cmd P)) : Prop := forall c r v v', In (SetConst c r v) cs -> In (SetConst c r v') cs -> v = v'.
Lemma run_consts_set : forall (cs : list (cmd P)) (T : table) c r v, consistent cs -> In (SetConst c r v) cs -> run_consts T cs CConst c r = v.
Proof.
  intros cs T c r v Hc Hin.
  assert (G : forall cs (T : table) c r v, (forall v', In (SetConst c r v') cs -> v' = v) -> (In (SetConst c r v) cs \/ T CConst c r = v) -> run_consts T cs CConst c r = v).
  { clear. unfold run_consts. induction cs as [|x cs IH]; intros T c r v Hv H; cbn [fold_left].
    - destruct H as [[]|H]. exact H.
    - assert (Hv' : forall v', In (SetConst c r v') cs -> v' = v) by (intros; apply Hv; right; assumption).
      apply IH; [exact Hv'|]. destruct H as [[H|H]|H].
      + subst x. right. apply cset_same.
      + left. exact H.
      + right. destruct x; try exact H. unfold cset. cbn [ctype_eqb]. destruct ((c =? col) && (r =? row)) eqn:E; cbn; [|exact H].
        apply andb_true_iff in E. destruct E as [E1 E2]. apply Z.eqb_eq in E1. apply Z.eqb_eq in E2. subst. apply Hv. left. reflexivity. }
  apply G; [|left; exact Hin]. intros v' H'. eapply Hc; eauto.
Qed.
Lemma run_consts_other : forall (cs : list (cmd P)) (T : table) ty c r, ty <> CConst -> run_consts T cs ty c r = T ty c r.
Proof.
  intros cs T ty c r Ht. unfold run_consts. revert T. induction cs as [|x cs IH]; intros T; [reflexivity|]. cbn [fold_left]. rewrite IH. destruct x; try reflexivity.
  unfold cset. destruct ty; try reflexivity. congruence.
Qed.

(** ** The original circuit *)
Definition const_at (s : astate P) (i : Z) : option F := match a_const s with col :: _ => if 0 <=? i then nth_error col (Z.to_nat i) else None | [] => None end.
(** What a table must meet for the original component, rows [0..R). *)
Definition meets (c : cstate P) (s : astate P) (R : Z) (T : table) : Prop :=
  (forall sel cs row e, In (sel, cs) (c_gates c) -> on s 0 R sel row -> In e cs -> eval T row e = f0) /\
  (forall a b, In (a, b) (c_copies c) -> vval T a = vval T b) /\
  (forall i v, const_at s i = Some v -> T CConst 0 i = v).
Definition copied (c : cstate P) (v : var) : Prop := exists a b, In (a, b) (c_copies c) /\ (v = a \/ v = b).
(** The components that can be stretched: no lookups, a gate per selector, one
    constant column, gates reading witnesses of the component's rows and
    constants of their own row that no copy constraint mentions, copies between
    the component's cells, constants and inputs. *)
Definition regular (c : cstate P) (s : astate P) (R W : Z) (n : nat) : Prop :=
  c_lgates c = [] /\ NoDup (map fst (c_gates c)) /\
  (forall sel cs, In (sel, cs) (c_gates c) -> (sel < length (c_gates c))%nat) /\
  length (a_const s) = 1%nat /\
  (forall sel cs row e v, In (sel, cs) (c_gates c) -> on s 0 R sel row -> In e cs -> In v (evars e) ->
     vrel v = true /\ 0 <= row + vrot v < R /\
     ((vty v = CWit /\ 0 <= vidx v < W) \/
      (vty v = CConst /\ vidx v = 0 /\ vrot v = 0 /\ const_at s row <> None /\ forall w, copied c w -> vty w = CConst -> vrot w <> row))) /\
  (forall v, copied c v -> vrel v = false /\
     ((vty v = CWit /\ 0 <= vidx v < W /\ 0 <= vrot v < R) \/
      (vty v = CConst /\ vidx v = 0 /\ 0 <= vrot v < R /\ const_at s (vrot v) <> None) \/
      (vty v = CPub /\ vidx v = 0 /\ 0 <= vrot v < Z.of_nat n))).
(** The table of the original component contained in a stretched one. *)
Definition unstretch (z : zones) (zmap : Z -> Z) (W start : Z) (s : astate P) (T : table) : table :=
  fun ty col row =>
    match ty with
    | CWit => T CWit (group z zmap row * W + col) (start + line z zmap row)
    | CConst => match const_at s row with Some v => v | None => f0 end
    | _ => T ty col row
    end.

Section Main.
Variables (c : cstate P) (s : astate P) (R W start : Z) (n : nat) (z : zones) (zmap : Z -> Z) (cvs : list var) (rm : Z -> option Z).
Hypothesis HR : 0 <= R.
Hypothesis Hreg : regular c s R W n.
Hypothesis Hz : stretch_zones c s R = Some z.
Hypothesis Hcv : forall v, In v cvs <-> copied c v /\ vty v = CConst.
Hypothesis Hrm : place_consts z zmap R (taken z zmap (prio c s R)) (fun _ => None) cvs = Some rm.
Let ng := Z.of_nat (length (c_gates c)).
Notation group := (group z zmap).
Notation line := (line z zmap).

Lemma range_of_gate : forall sel cs, In (sel, cs) (c_gates c) -> range_of (c_gates c) sel = flat_map evars cs.
Proof.
  destruct Hreg as [_ [ND _]]. intros sel cs H. unfold range_of. revert H ND. generalize (@nil var). generalize (c_gates c).
  induction l as [|[s' cs'] l IH]; intros acc H ND; [destruct H|]. cbn [map fst] in ND. inversion ND as [|x y Hn Hd]; subst. cbn [fold_left fst snd].
  destruct H as [H|H].
  - injection H as -> ->. rewrite Nat.eqb_refl. clear IH ND Hd. revert Hn. generalize (flat_map evars cs). induction l as [|[s' cs'] l IH]; intros a Hn; [reflexivity|].
    cbn [fold_left fst snd]. destruct (Nat.eqb s' sel) eqn:E; [apply Nat.eqb_eq in E; subst; exfalso; apply Hn; left; reflexivity|]. apply IH. intros X; apply Hn; right; exact X.
  - apply IH; [exact H|exact Hd].
Qed.

Lemma zones_size : z_size z = R + ng + 1 /\ (forall a b, In (a, b) (joins c s R) -> z_rep z a = z_rep z b).
Proof.
  unfold stretch_zones in Hz. destruct (_ && _) eqn:E in Hz; [|discriminate]. fold ng in Hz.
  revert Hz. generalize (joins c s R). intros l H.
  assert (K : forall l z0 z1, unions z0 l = Some z1 -> forall a b, In (a, b) l -> z_in z0 a = true /\ z_in z0 b = true).
  { clear. induction l as [|[a b] l IH]; intros z0 z1 H a0 b0 Hin; [destruct Hin|]. cbn [unions] in H. unfold union_set in H.
    destruct (z_in z0 a && z_in z0 b) eqn:E; [|discriminate]. destruct Hin as [Hin|Hin].
    - injection Hin as <- <-. apply andb_true_iff in E. exact E.
    - apply (IH _ _ H a0 b0 Hin). }
  destruct (unions_spec l (z_new (R + ng + 1)) (K _ _ _ H)) as [z' [E' [S [A _]]]]. rewrite H in E'. injection E' as <-.
  split; [exact S|exact A].
Qed.
Lemma z_in_row : forall i, 0 <= i < R -> z_in z i = true.
Proof. intros i Hi. destruct zones_size as [S _]. unfold z_in. rewrite S. apply andb_true_iff. split; [apply Z.leb_le|apply Z.ltb_lt]; unfold ng; lia. Qed.

Lemma in_joins : forall sel cs row a b, In (sel, cs) (c_gates c) -> on s 0 R sel row -> In (a, b) (row_joins R ng (flat_map evars cs) sel row) -> In (a, b) (joins c s R).
Proof.
  intros sel cs row a b Hg Ho H. unfold joins. apply in_flat_map. exists (sel, cs). split; [exact Hg|]. cbn [fst]. rewrite (range_of_gate _ _ Hg).
  apply in_flat_map. exists row. split; [apply enabled_spec; [lia|exact Ho]|exact H].
Qed.
Lemma connects_in : forall (cs : list (expr P)) e v b, In e cs -> In v (evars e) -> is_const v = b -> connects (flat_map evars cs) b (vrot v) = true.
Proof.
  intros cs e v b He Hv Hb. unfold connects. apply existsb_exists. exists v. split; [apply in_flat_map; eauto|]. rewrite Hb, Z.eqb_refl, eqb_reflx. reflexivity.
Qed.

Ltac joinrep Hg Ho Hj := apply (proj2 zones_size); eapply (in_joins _ _ _ _ _ Hg Ho); unfold row_joins; cbv zeta; repeat rewrite in_app_iff; Hj.

(** A witness a gate reads is in the group of the gate, at its distance. *)
Lemma rot_cases : forall sel cs e v, In (sel, cs) (c_gates c) -> In e cs -> In v (evars e) -> vrot v = -1 \/ vrot v = 0 \/ vrot v = 1.
Proof.
  intros sel cs e v Hg He Hv. unfold stretch_zones in Hz. destruct (_ && _) eqn:E in Hz; [|discriminate]. apply andb_true_iff in E. destruct E as [E _].
  rewrite forallb_forall in E. specialize (E _ Hg). cbn [snd] in E. rewrite forallb_forall in E.
  specialize (E v ltac:(apply in_flat_map; eauto)). apply andb_true_iff in E. destruct E as [A B]. apply Z.leb_le in A. apply Z.leb_le in B. lia.
Qed.
Lemma gate_wit : forall sel cs row e v, In (sel, cs) (c_gates c) -> on s 0 R sel row -> In e cs -> In v (evars e) -> vty v = CWit -> 0 <= row + vrot v < R ->
  group (R + Z.of_nat sel) = group (row + vrot v) /\ line (row + vrot v) = line row + vrot v.
Proof.
  intros sel cs row e v Hg Ho He Hv Ht Hin.
  assert (Hc : is_const v = false) by (unfold is_const; rewrite Ht; reflexivity).
  pose proof (connects_in cs e v false He Hv Hc) as Hcn. pose proof Ho as [Hrow _].
  assert (G : forall a b, z_rep z a = z_rep z b -> group a = group b) by (intros a b X; unfold StretchModel.group; rewrite X; reflexivity).
  destruct (rot_cases sel cs e v Hg He Hv) as [E|[E|E]]; rewrite E in *.
  - assert (A : z_rep z (row - 1) = z_rep z row) by (joinrep Hg Ho ltac:(rewrite Hcn; left; left; reflexivity)).
    assert (B : z_rep z (row - 1) = z_rep z (R + Z.of_nat sel)) by (joinrep Hg Ho ltac:(rewrite Hcn; left; right; left; reflexivity)).
    apply G in A. apply G in B. replace (row + -1) with (row - 1) by lia. split; [auto|].
    pose proof (line_next z zmap (row - 1) ltac:(lia)) as L. replace (row - 1 + 1) with row in L by lia. specialize (L A). lia.
  - assert (B : z_rep z row = z_rep z (R + Z.of_nat sel)) by (joinrep Hg Ho ltac:(rewrite Hcn; right; left; left; reflexivity)).
    apply G in B. rewrite !Z.add_0_r. auto.
  - assert (A : z_rep z row = z_rep z (row + 1)) by (joinrep Hg Ho ltac:(rewrite Hcn; right; right; left; left; reflexivity)).
    assert (B : z_rep z (row + 1) = z_rep z (R + Z.of_nat sel)) by (joinrep Hg Ho ltac:(rewrite Hcn; right; right; left; right; left; reflexivity)).
    apply G in A. apply G in B. split; [auto|]. apply line_next; [lia|exact A].
Qed.
Lemma in_prio : forall row, In row (prio c s R) <-> exists sel cs e v, In (sel, cs) (c_gates c) /\ on s 0 R sel row /\ In e cs /\ In v (evars e) /\ vty v = CConst.
Proof.
  intros row. destruct Hreg as [_ [_ [_ [_ [Hgv _]]]]]. unfold prio. rewrite in_flat_map. split.
  - intros [[sel cs] [Hg H]]. cbn [fst] in H. rewrite (range_of_gate _ _ Hg) in H. apply in_flat_map in H. destruct H as [r [Hr H]]. apply enabled_spec in Hr; [|lia].
    assert (K : forall rot, connects (flat_map evars cs) true rot = true -> rot = 0 /\ exists e v, In e cs /\ In v (evars e) /\ vty v = CConst).
    { intros rot X. unfold connects in X. apply existsb_exists in X. destruct X as [v [Hv X]]. apply andb_true_iff in X. destruct X as [X1 X2].
      apply Z.eqb_eq in X2. apply in_flat_map in Hv. destruct Hv as [e [He Hv]]. apply Bool.eqb_prop in X1. unfold is_const in X1. apply ctype_eqb_eq in X1.
      destruct (Hgv sel cs r e v Hg Hr He Hv) as [_ [_ [[Y _]|[_ [_ [Y _]]]]]]; [congruence|]. split; [lia|eauto]. }
    unfold row_prio in H. rewrite !in_app_iff in H.
    destruct H as [H|[H|H]]; match type of H with context [connects _ _ ?k] => destruct (connects (flat_map evars cs) true k) eqn:Ec; [|destruct H] end;
      destruct (K _ Ec) as [E [e [v [He [Hv Ht]]]]]; try discriminate. destruct H as [<-|[]]. exists sel, cs, e, v. auto.
  - intros [sel [cs [e [v [Hg [Ho [He [Hv Ht]]]]]]]]. exists (sel, cs). split; [exact Hg|]. cbn [fst]. rewrite (range_of_gate _ _ Hg). apply in_flat_map. exists row.
    split; [apply enabled_spec; [lia|exact Ho]|]. destruct (Hgv sel cs row e v Hg Ho He Hv) as [_ [_ [[Y _]|[_ [_ [Y _]]]]]]; [congruence|].
    pose proof (connects_in cs e v true He Hv ltac:(unfold is_const; rewrite Ht; reflexivity)) as X. rewrite Y in X. unfold row_prio. rewrite X, !in_app_iff. right. left. left. reflexivity.
Qed.
Lemma prio_range : forall row, In row (prio c s R) -> 0 <= row < R.
Proof. intros row H. apply in_prio in H. destruct H as [sel [cs [e [v [_ [[Ho _] _]]]]]]. lia. Qed.
Lemma prio_group : forall i j, In i (prio c s R) -> In j (prio c s R) -> group i = group j.
Proof.
  assert (K : forall i, In i (prio c s R) -> z_rep z i = z_rep z (R + ng)).
  { intros i H. apply in_prio in H. destruct H as [sel [cs [e [v [Hg [Ho [He [Hv Ht]]]]]]]].
    destruct Hreg as [_ [_ [_ [_ [Hgv _]]]]]. destruct (Hgv sel cs i e v Hg Ho He Hv) as [_ [_ [[Y _]|[_ [_ [Y _]]]]]]; [congruence|].
    pose proof (connects_in cs e v true He Hv ltac:(unfold is_const; rewrite Ht; reflexivity)) as X. rewrite Y in X.
    joinrep Hg Ho ltac:(rewrite X; do 4 right; left; left; reflexivity). }
  intros i j Hi Hj. unfold StretchModel.group. rewrite (K i Hi), (K j Hj). reflexivity.
Qed.
Lemma prio_unplaced : forall i, In i (prio c s R) -> rm i = None.
Proof.
  intros i H. apply (place_other _ _ _ _ _ _ _ i Hrm). intros v Hv E. apply Hcv in Hv. destruct Hv as [Hv Ht].
  apply in_prio in H. destruct H as [sel [cs [e [w [Hg [Ho [He [Hw Hwt]]]]]]]].
  destruct Hreg as [_ [_ [_ [_ [Hgv _]]]]]. destruct (Hgv sel cs i e w Hg Ho He Hw) as [_ [_ [[Y _]|[_ [_ [_ [_ Y]]]]]]]; [congruence|]. exact (Y v Hv Ht E).
Qed.

(** ** The commands *)
Definition place (i : Z) : Z := match rm i with Some p => p | None => line i end.
Lemma in_consts : forall x, In x (move_consts z zmap R start s rm (prio c s R)) <->
  exists i v, 0 <= i < R /\ const_at s i = Some v /\ (rm i <> None \/ In i (prio c s R)) /\ x = SetConst 0 (start + place i) v.
Proof.
  intros x. destruct Hreg as [_ [_ [_ [Hone _]]]]. unfold move_consts, const_at. destruct (a_const s) as [|col [|? ?]] eqn:Ec; try discriminate.
  cbn [length seq combine]. destruct col as [|v0 col].
  - split; [intros []|]. intros [i [v [Hi [Hv _]]]]. destruct (0 <=? i); [destruct (Z.to_nat i); discriminate|discriminate].
  - rewrite in_flat_map. split.
    + intros [i [Hi H]]. apply in_zseq in Hi. cbn [flat_map] in H. rewrite app_nil_r in H.
      destruct (nth_error (v0 :: col) (Z.to_nat i)) as [v|] eqn:Ev; [|destruct H]. exists i, v.
      assert (E0 : (0 <=? i) = true) by (apply Z.leb_le; lia). rewrite E0. unfold place. destruct (rm i) as [p|] eqn:Ep.
      * destruct H as [<-|[]]. repeat split; auto; try lia. left. discriminate.
      * destruct (existsb (Z.eqb i) (prio c s R)) eqn:Ex; [|destruct H]. destruct H as [<-|[]]. repeat split; auto; try lia. right.
        apply existsb_exists in Ex. destruct Ex as [j [Hj E]]. apply Z.eqb_eq in E. subst. exact Hj.
    + intros [i [v [Hi [Hv [Hp ->]]]]]. exists i. split; [apply in_zseq; lia|]. cbn [flat_map]. rewrite app_nil_r.
      destruct (0 <=? i); [|discriminate]. rewrite Hv. unfold place. destruct (rm i) as [p|]; [left; reflexivity|].
      destruct Hp as [Hp|Hp]; [congruence|].
      replace (existsb (Z.eqb i) (prio c s R)) with true; [left; reflexivity|]. symmetry. apply existsb_exists. exists i. split; [exact Hp|apply Z.eqb_refl].
Qed.
(** The places of the constants are distinct. *)
Lemma place_distinct : forall i j, 0 <= i < R -> 0 <= j < R -> (rm i <> None \/ In i (prio c s R)) -> (rm j <> None \/ In j (prio c s R)) -> place i = place j -> i = j.
Proof.
  intros i j Hi Hj Pi Pj E.
  destruct (place_inj z zmap R cvs _ _ _ Hrm (taken z zmap (prio c s R)) ltac:(auto) ltac:(discriminate) ltac:(discriminate)) as [A B].
  assert (T : forall k, In k (prio c s R) -> taken z zmap (prio c s R) (line k) = true).
  { intros k Hk. unfold taken. apply existsb_exists. exists k. split; [exact Hk|apply Z.eqb_refl]. }
  unfold place in E. destruct (rm i) as [p|] eqn:Ei; destruct (rm j) as [q|] eqn:Ej.
  - subst q. eapply B; eauto.
  - destruct Pj as [Pj|Pj]; [congruence|]. apply T in Pj. rewrite <- E in Pj. rewrite (A i p Ei) in Pj. discriminate.
  - destruct Pi as [Pi|Pi]; [congruence|]. apply T in Pi. rewrite E in Pi. rewrite (A j q Ej) in Pi. discriminate.
  - destruct Pi as [Pi|Pi]; [congruence|]. destruct Pj as [Pj|Pj]; [congruence|].
    apply (line_inj z zmap); try lia. apply prio_group; assumption.
Qed.
Lemma in_gates : forall x, In x (move_gates z zmap W R start (c_gates c) s) <->
  exists sel cs, In (sel, cs) (c_gates c) /\ x = Gate (map (move (move_gate_var z zmap W R sel)) cs) (map (fun i => start + line i) (enabled s sel 0 R)).
Proof.
  intros x. destruct Hreg as [_ [ND _]]. unfold move_gates.
  assert (K : forall k sel cs, nth_error (c_gates c) k = Some (sel, cs) -> existsb (fun g : nat * list (expr P) => Nat.eqb (fst g) sel) (skipn (S k) (c_gates c)) = false).
  { intros k sel cs H. revert k H ND. generalize (c_gates c). induction l as [|[s' cs'] l IH]; intros k H ND'; [destruct k; discriminate|]. inversion ND' as [|a b Hn Hd]; subst.
    destruct k as [|k].
    - cbn in H. injection H as -> ->. cbn [skipn]. destruct (existsb (fun g => Nat.eqb (fst g) sel) l) eqn:E; [|reflexivity].
      apply existsb_exists in E. destruct E as [g [Hg E]]. apply Nat.eqb_eq in E. exfalso. apply Hn. cbn [fst]. rewrite <- E. apply in_map. exact Hg.
    - cbn [nth_error] in H. cbn [skipn]. apply (IH k H Hd). }
  assert (Kc : forall (l : list (nat * list (expr P))) b k g, In (k, g) (combine (seq b (length l)) l) <-> exists j, k = (b + j)%nat /\ nth_error l j = Some g).
  { clear. induction l as [|y l IH]; intros b k g; cbn [length seq combine].
    - split; [intros []|intros [j [_ H]]; destruct j; discriminate].
    - split.
      + intros [H|H]; [injection H as <- <-; exists 0%nat; split; [lia|reflexivity]|]. apply IH in H. destruct H as [j [-> H]]. exists (S j). split; [lia|exact H].
      + intros [j [-> H]]. destruct j as [|j]; [left; cbn in H; injection H as ->; f_equal; lia|]. right. apply IH. exists j. split; [lia|exact H]. }
  rewrite in_map_iff. split.
  - intros [[k [sel cs]] [E H]]. apply Kc in H. destruct H as [j [-> H]]. cbn [Nat.add] in E. rewrite (K j sel cs H) in E. exists sel, cs. split; [eapply nth_error_In; eauto|auto].
  - intros [sel [cs [H ->]]]. apply In_nth_error in H. destruct H as [j H]. exists (j, (sel, cs)). split; [rewrite (K j sel cs H); reflexivity|]. apply Kc. exists j. split; [lia|exact H].
Qed.

Let ins := converted n.
Lemma nth_converted : forall v, vty v = CPub -> vidx v = 0 -> 0 <= vrot v < Z.of_nat n -> vrel v = false -> deconvert_var ins v = Some v.
Proof.
  intros [i r rel t] Ht Hi Hr Hv. cbn in *. subst. unfold deconvert_var, ins, converted. cbn [vrot]. replace (0 <=? r) with true by (symmetry; apply Z.leb_le; lia).
  rewrite nth_error_map, nth_error_nth' with (d := 0%nat) by (rewrite seq_length; lia). rewrite seq_nth by lia. cbn. do 2 f_equal. lia.
Qed.
Lemma moved_copied : forall v, copied c v -> exists v', move_copied z zmap W start ins rm v = Some v' /\
  ((vty v = CWit /\ v' = wcell (group (vrot v) * W + vidx v) (start + line (vrot v))) \/
   (vty v = CConst /\ rm (vrot v) <> None /\ v' = ccell 0 (start + place (vrot v))) \/ (vty v = CPub /\ v' = v)).
Proof.
  intros v Hv. destruct Hreg as [_ [_ [_ [_ [_ Hcp]]]]]. destruct (Hcp v Hv) as [Hrel [[A [B D]]|[[A [B [D E]]]|[A [B D]]]]]; unfold move_copied, move_var; rewrite A.
  - rewrite Hrel, (z_in_row _ D). cbn [negb andb]. eexists. split; [reflexivity|]. left. auto.
  - assert (N : rm (vrot v) <> None) by (apply (place_some _ _ _ _ _ _ _ _ Hrm); right; exists v; split; [apply Hcv; auto|reflexivity]).
    unfold place. destruct (rm (vrot v)) as [p|]; [|congruence]. rewrite B, Hrel. eexists. split; [reflexivity|]. right. left. auto.
  - rewrite nth_converted by assumption. eexists. split; [reflexivity|]. auto.
Qed.
Lemma move_copies_spec : exists cp, move_copies (P := P) z zmap W start ins rm (c_copies c) = Some cp /\
  forall x, In x cp <-> exists a b a' b', In (a, b) (c_copies c) /\ move_copied z zmap W start ins rm a = Some a' /\ move_copied z zmap W start ins rm b = Some b' /\ x = Copy a' b'.
Proof.
  assert (K : forall a b, In (a, b) (c_copies c) -> copied c a /\ copied c b) by (intros a b H; split; exists a, b; auto).
  revert K. generalize (c_copies c). induction l as [|[a b] l IH]; intros K; cbn [move_copies].
  - exists []. split; [reflexivity|]. intros x. split; [intros []|intros [a [b [a' [b' [[] _]]]]]].
  - destruct IH as [cp [E H]]; [intros; apply K; right; assumption|]. destruct (K a b (or_introl eq_refl)) as [Ka Kb].
    destruct (moved_copied a Ka) as [a' [Ea _]]. destruct (moved_copied b Kb) as [b' [Eb _]]. rewrite Ea, Eb, E. eexists. split; [reflexivity|].
    intros x. split.
    + intros [<-|Hx]; [exists a, b, a', b'; auto using in_eq|]. apply H in Hx. destruct Hx as [a0 [b0 [a1 [b1 [X [Y [Z1 ->]]]]]]]. exists a0, b0, a1, b1. auto using in_cons.
    + intros [a0 [b0 [a1 [b1 [[X|X] [Y [Z1 ->]]]]]]]; [injection X as <- <-; rewrite Ea in Y; rewrite Eb in Z1; injection Y as <-; injection Z1 as <-; left; reflexivity|].
      right. apply H. exists a0, b0, a1, b1. auto.
Qed.

Lemma move_circuit_spec : exists cmds, move_circuit z zmap W R start ins c s rm = Some cmds /\
  forall x, In x cmds <->
    (exists sel cs, In (sel, cs) (c_gates c) /\ x = Gate (map (move (move_gate_var z zmap W R sel)) cs) (map (fun i => start + line i) (enabled s sel 0 R))) \/
    (exists i v, 0 <= i < R /\ const_at s i = Some v /\ (rm i <> None \/ In i (prio c s R)) /\ x = SetConst 0 (start + place i) v) \/
    (exists a b a' b', In (a, b) (c_copies c) /\ move_copied z zmap W start ins rm a = Some a' /\ move_copied z zmap W start ins rm b = Some b' /\ x = Copy a' b').
Proof.
  destruct move_copies_spec as [cp [E H]]. unfold move_circuit. rewrite E. eexists. split; [reflexivity|]. intros x. rewrite !in_app_iff, in_gates, in_consts, H. tauto.
Qed.

Lemma stretch_sound_l : forall L cmds T, move_circuit z zmap W R start ins c s rm = Some cmds -> sat L T cmds -> meets c s R (unstretch z zmap W start s T).
Proof.
  intros L cmds T Hc HS. destruct move_circuit_spec as [cmds' [E H]]. rewrite Hc in E. injection E as <-.
  assert (HK : forall i v, 0 <= i < R -> const_at s i = Some v -> rm i <> None \/ In i (prio c s R) -> T CConst 0 (start + place i) = v).
  { intros i v Hi Hv Hp. apply (HS (SetConst 0 (start + place i) v)). apply H. right. left. exists i, v. auto. }
  split; [|split].
  - intros sel cs row e Hg Ho He.
    assert (X : eval T (start + line row) (move (move_gate_var z zmap W R sel) e) = f0).
    { apply (HS (Gate (map (move (move_gate_var z zmap W R sel)) cs) (map (fun i => start + line i) (enabled s sel 0 R)))).
      - apply H. left. exists sel, cs. auto.
      - apply in_map_iff. exists row. split; [reflexivity|]. apply enabled_spec; [lia|exact Ho].
      - apply in_map. exact He. }
    rewrite <- X. symmetry. apply eval_move. intros v Hv.
    destruct (proj1 (proj2 (proj2 (proj2 (proj2 Hreg)))) sel cs row e v Hg Ho He Hv) as [Hrel [Hin [[Ht Hx]|[Ht [Hx [Hr0 [Hk Hnc]]]]]]].
    + destruct (gate_wit sel cs row e v Hg Ho He Hv Ht Hin) as [G1 G2]. unfold gval, move_gate_var, unstretch. rewrite Ht. cbn [vty vidx vrot vrel]. rewrite Hrel, G1, G2. f_equal. lia.
    + unfold gval, move_gate_var, unstretch. rewrite Ht; cbv iota; rewrite Ht, Hrel, Hx, Hr0, !Z.add_0_r. destruct (const_at s row) as [k|] eqn:Ek; [|congruence].
      assert (Hp : In row (prio c s R)) by (apply in_prio; exists sel, cs, e, v; auto).
      rewrite <- (HK row k ltac:(lia) Ek (or_intror Hp)). unfold place. rewrite (prio_unplaced row Hp). reflexivity.
  - intros a b Hab.
    assert (V : forall v, copied c v -> exists v', move_copied z zmap W start ins rm v = Some v' /\ vval T v' = vval (unstretch z zmap W start s T) v).
    { intros v Hv. destruct (moved_copied v Hv) as [v' [E' D]]. exists v'. split; [exact E'|].
      destruct D as [[Ht ->]|[[Ht [Hn ->]]|[Ht ->]]]; unfold vval, unstretch; rewrite Ht; [reflexivity| |reflexivity].
      destruct (proj2 (proj2 (proj2 (proj2 (proj2 Hreg)))) v Hv) as [_ [[A _]|[[_ [_ [Hr Hk]]]|[A _]]]]; try congruence.
      destruct (const_at s (vrot v)) as [k|] eqn:Ek; [|congruence]. cbn. apply HK; auto. }
    destruct (V a ltac:(exists a, b; auto)) as [a' [Ea Va]]. destruct (V b ltac:(exists a, b; auto)) as [b' [Eb Vb]]. rewrite <- Va, <- Vb.
    apply (HS (Copy a' b')). apply H. right. right. exists a, b, a', b'. auto.
  - intros i v Hv. unfold unstretch. rewrite Hv. reflexivity.
Qed.

(** ** Assignments *)
Definition wvalue (s2 : astate P) (w i : Z) : option F := match nth_error (a_wit s2) (Z.to_nat w) with Some col => nth_error col (Z.to_nat i) | None => None end.
Definition wstep (s2 : astate P) (i : Z) (T : table) (w : Z) : table :=
  match nth_error (a_wit s2) (Z.to_nat w) with
  | Some col => match nth_error col (Z.to_nat i) with
                | Some v => wset T (w + W * group i) (start + line i) v
                | None => T
                end
  | None => T
  end.
Lemma wstep_other : forall s2 i T w ty a b, ty <> CWit \/ a <> w + W * group i \/ b <> start + line i -> wstep s2 i T w ty a b = T ty a b.
Proof.
  intros s2 i T w ty a b H. unfold wstep. destruct (nth_error (a_wit s2) (Z.to_nat w)) as [col|]; [|reflexivity]. destruct (nth_error col (Z.to_nat i)); [|reflexivity].
  unfold wset. destruct (ctype_eqb ty CWit && ((a =? w + W * group i) && (b =? start + line i))) eqn:E; [|reflexivity]. exfalso.
  apply andb_true_iff in E. destruct E as [E1 E]. apply andb_true_iff in E. destruct E as [E2 E3]. apply ctype_eqb_eq in E1. apply Z.eqb_eq in E2. apply Z.eqb_eq in E3. tauto.
Qed.
Lemma wstep_same : forall s2 i T w, wstep s2 i T w CWit (w + W * group i) (start + line i) =
  match wvalue s2 w i with Some v => v | None => T CWit (w + W * group i) (start + line i) end.
Proof.
  intros s2 i T w. unfold wstep, wvalue. destruct (nth_error (a_wit s2) (Z.to_nat w)) as [col|]; [|reflexivity]. destruct (nth_error col (Z.to_nat i)); [|reflexivity]. apply wset_same.
Qed.
Lemma cell_inj : forall w i w' i', 0 <= w < W -> 0 <= w' < W -> 0 <= i -> 0 <= i' ->
  w + W * group i = w' + W * group i' -> line i = line i' -> w = w' /\ i = i'.
Proof.
  intros w i w' i' Hw Hw' Hi Hi' E El. assert (G : group i = group i') by nia. split; [nia|]. apply (line_inj z zmap); assumption.
Qed.
Lemma move_assignment_cell : forall s2 T,
  (forall ty a b, ty <> CWit -> move_assignment z zmap W R start s2 T ty a b = T ty a b) /\
  (forall w i, 0 <= w < W -> 0 <= i < R -> move_assignment z zmap W R start s2 T CWit (group i * W + w) (start + line i) =
     match wvalue s2 w i with Some v => v | None => T CWit (group i * W + w) (start + line i) end) /\
  (forall a b, (forall w i, 0 <= w < W -> 0 <= i < R -> a <> group i * W + w \/ b <> start + line i) -> move_assignment z zmap W R start s2 T CWit a b = T CWit a b).
Proof.
  intros s2 T. unfold move_assignment.
  change (fold_left _ (zseq 0 R) T) with (fold_left (fun T0 i => fold_left (wstep s2 i) (zseq 0 W) T0) (zseq 0 R) T).
  set (inv := fun m k (T1 : table) =>
    (forall ty a b, ty <> CWit -> T1 ty a b = T ty a b) /\
    (forall w i, 0 <= w < W -> 0 <= i < m \/ i = m /\ w < k -> T1 CWit (w + W * group i) (start + line i) = match wvalue s2 w i with Some v => v | None => T CWit (w + W * group i) (start + line i) end) /\
    (forall a b, (forall w i, 0 <= w < W -> 0 <= i < m \/ i = m /\ w < k -> a <> w + W * group i \/ b <> start + line i) -> T1 CWit a b = T CWit a b)).
  assert (S : forall m k T1, 0 <= m -> 0 <= k < W -> inv m k T1 -> inv m (k + 1) (wstep s2 m T1 k)).
  { intros m k T1 Hm Hk [A [B D]]. split; [|split].
    - intros ty a b Ht. rewrite wstep_other by auto. apply A. exact Ht.
    - intros w i Hw Hi. destruct (Z.eq_dec i m) as [->|Hne]; [destruct (Z.eq_dec w k) as [->|Hne]|].
      + rewrite wstep_same. destruct (wvalue s2 k m); [reflexivity|]. apply D. intros w' i' Hw' Hi'.
        destruct (Z.eq_dec (k + W * group m) (w' + W * group i')) as [E|E]; [|left; exact E]. right. intros E'.
        destruct (cell_inj k m w' i') as [X Y]; lia.
      + rewrite wstep_other; [apply B; [exact Hw|lia]|]. right. left. intros E. apply Hne. lia.
      + rewrite wstep_other; [apply B; [exact Hw|lia]|]. right.
        destruct (Z.eq_dec (w + W * group i) (k + W * group m)) as [E|E]; [|left; exact E]. right. intros E'.
        destruct (cell_inj w i k m) as [X Y]; lia.
    - intros a b Hab. rewrite wstep_other; [|right; apply Hab; lia]. apply D. intros w i Hw Hi. apply Hab; [exact Hw|lia]. }
  assert (I : inv R 0 (fold_left (fun T0 i => fold_left (wstep s2 i) (zseq 0 W) T0) (zseq 0 R) T)).
  { apply (fold_zseq_inv _ (fun m T1 => inv m 0 T1)); [exact HR| |].
    - split; [reflexivity|]. split; [intros w i Hw [X|X]; lia|reflexivity].
    - intros m T1 Hm HI.
      destruct (Z.le_gt_cases 0 W) as [HW|HW].
      + assert (J : inv m W (fold_left (wstep s2 m) (zseq 0 W) T1)).
        { apply (fold_zseq_inv _ (fun k T2 => inv m k T2)); [exact HW|exact HI|]. intros k T2 Hk. apply S; lia. }
        destruct J as [A [B D]]. split; [exact A|]. split; [intros w i Hw Hi; apply B; lia|]. intros a b Hab. apply D. intros w i Hw Hi. apply Hab; lia.
      + rewrite zseq_nil by lia. cbn [fold_left]. destruct HI as [A [B D]]. split; [exact A|]. split; [intros; lia|]. intros a b Hab. apply D. intros; lia. }
  destruct I as [A [B D]]. split; [exact A|]. split.
  - intros w i Hw Hi. replace (group i * W + w) with (w + W * group i) by ring. apply B; [exact Hw|lia].
  - intros a b Hab. apply D. intros w i Hw Hi. replace (w + W * group i) with (group i * W + w) by ring. apply Hab; lia.
Qed.

Lemma wvalue_table : forall s2 w i, 0 <= w -> 0 <= i -> a_table s2 CWit w i = match wvalue s2 w i with Some v => v | None => f0 end.
Proof.
  intros s2 w i Hw Hi. cbn [a_table]. replace w with (Z.of_nat (Z.to_nat w)) at 1 by lia. replace i with (Z.of_nat (Z.to_nat i)) at 1 by lia. rewrite cells_cell2. reflexivity.
Qed.
Lemma const_table : forall (s2 : astate P) i, a_const s2 = a_const s -> 0 <= i -> a_table s2 CConst 0 i = match const_at s i with Some v => v | None => f0 end.
Proof.
  intros s2 i E Hi. cbn [a_table]. rewrite E. replace 0 with (Z.of_nat 0) at 1 by reflexivity. replace i with (Z.of_nat (Z.to_nat i)) at 1 by lia. rewrite cells_cell2.
  unfold const_at, cell2. destruct (a_const s) as [|col l]; [reflexivity|]. cbn [nth_error]. replace (0 <=? i) with true by (symmetry; apply Z.leb_le; lia). reflexivity.
Qed.

Lemma stretch_complete_l : forall L s2 cmds T, move_circuit z zmap W R start ins c s rm = Some cmds ->
  a_const s2 = a_const s -> meets c s R (a_table s2) ->
  (forall k, 0 <= k < Z.of_nat n -> T CPub 0 k = a_table s2 CPub 0 k) ->
  (forall w i, 0 <= w < W -> 0 <= i < R -> T CWit (group i * W + w) (start + line i) = f0) ->
  sat L (move_assignment z zmap W R start s2 (run_consts T cmds)) cmds.
Proof.
  intros L s2 cmds T Hc Hk [M1 [M2 _]] Hp Hw. destruct move_circuit_spec as [cmds' [E H]]. rewrite Hc in E. injection E as <-.
  set (T1 := move_assignment z zmap W R start s2 (run_consts T cmds)).
  destruct (move_assignment_cell s2 (run_consts T cmds)) as [A [B _]]. fold T1 in A, B.
  assert (Cs : consistent cmds).
  { intros a b v v' H1 H2. apply H in H1. apply H in H2.
    destruct H1 as [[? [? [_ X]]]|[[i [w [Hi [Hv [Hq X]]]]]|[? [? [? [? [_ [_ [_ X]]]]]]]]]; try discriminate.
    destruct H2 as [[? [? [_ Y]]]|[[j [w' [Hj [Hv' [Hq' Y]]]]]|[? [? [? [? [_ [_ [_ Y]]]]]]]]]; try discriminate.
    injection X as -> -> ->. injection Y as Y ->. assert (i = j) by (apply place_distinct; auto; lia). subst j. congruence. }
  assert (K : forall i, 0 <= i < R -> const_at s i <> None -> rm i <> None \/ In i (prio c s R) -> T1 CConst 0 (start + place i) = a_table s2 CConst 0 i).
  { intros i Hi Hn Hq. rewrite const_table by (auto; lia). destruct (const_at s i) as [v|] eqn:Ev; [|congruence]. rewrite A by discriminate.
    apply run_consts_set; [exact Cs|]. apply H. right. left. exists i, v. auto. }
  assert (Wt : forall w i, 0 <= w < W -> 0 <= i < R -> T1 CWit (group i * W + w) (start + line i) = a_table s2 CWit w i).
  { intros w i Hw' Hi. rewrite B by assumption. rewrite wvalue_table by lia. destruct (wvalue s2 w i); [reflexivity|]. rewrite run_consts_other by discriminate. apply Hw; assumption. }
  intros x Hx. apply H in Hx. destruct Hx as [[sel [cs [Hg ->]]]|[[i [v [Hi [Hv [Hq ->]]]]]|[a [b [a' [b' [Hab [Ea [Eb ->]]]]]]]]].
  - cbn [holds]. intros r Hr e' He'. apply in_map_iff in Hr. destruct Hr as [row [<- Ho]]. apply enabled_spec in Ho; [|lia]. apply in_map_iff in He'. destruct He' as [e [<- He]].
    rewrite <- (M1 sel cs row e Hg Ho He). apply eval_move. intros v Hv.
    destruct (proj1 (proj2 (proj2 (proj2 (proj2 Hreg)))) sel cs row e v Hg Ho He Hv) as [Hrel [Hin [[Ht Hx]|[Ht [Hx [Hr0 [Hkn Hnc]]]]]]].
    + destruct (gate_wit sel cs row e v Hg Ho He Hv Ht Hin) as [G1 G2]. unfold gval, move_gate_var. rewrite Ht. cbn [vty vidx vrot vrel]. rewrite Hrel, G1.
      rewrite <- (Wt (vidx v) (row + vrot v) Hx Hin). rewrite G2. f_equal. lia.
    + assert (Hq : In row (prio c s R)) by (apply in_prio; exists sel, cs, e, v; auto).
      unfold gval, move_gate_var. rewrite Ht; cbv iota; rewrite Ht, Hrel, Hx, Hr0, !Z.add_0_r. rewrite Hr0, Z.add_0_r in Hin. rewrite <- (K row Hin Hkn (or_intror Hq)). unfold place. rewrite (prio_unplaced row Hq). reflexivity.
  - cbn [holds]. rewrite (K i Hi) by (auto; congruence). rewrite const_table by (auto; lia). rewrite Hv. reflexivity.
  - cbn [holds].
    assert (V : forall v v', copied c v -> move_copied z zmap W start ins rm v = Some v' -> vval T1 v' = vval (a_table s2) v).
    { intros v v' Hv Ev. destruct (moved_copied v Hv) as [v1 [E1 D]]. rewrite Ev in E1. injection E1 as <-.
      destruct (proj2 (proj2 (proj2 (proj2 (proj2 Hreg)))) v Hv) as [_ [[X1 [X2 X3]]|[[X1 [X2 [X3 X4]]]|[X1 [X2 X3]]]]].
      - destruct D as [[_ ->]|[[Y _]|[Y _]]]; try congruence. unfold vval. rewrite X1. cbn [vty vidx vrot wcell]. apply Wt; assumption.
      - destruct D as [[Y _]|[[_ [Y ->]]|[Y _]]]; try congruence. unfold vval. rewrite X1, X2. cbn [vty vidx vrot ccell]. apply K; auto.
      - destruct D as [[Y _]|[[Y _]|[_ ->]]]; try congruence. unfold vval. rewrite X1, X2. rewrite A by discriminate. rewrite run_consts_other by discriminate. apply Hp. exact X3. }
    rewrite (V a a' ltac:(exists a, b; auto) Ea), (V b b' ltac:(exists a, b; auto) Eb). apply M2. exact Hab.
Qed.

Lemma result_value : forall T v, vty v = CWit -> vrel v = false -> 0 <= vrot v < R ->
  exists v', move_result z zmap W start ins v = Some v' /\ vval T v' = vval (unstretch z zmap W start s T) v.
Proof.
  intros T v Ht Hr Hv. unfold move_result, move_var. rewrite Ht, Hr, (z_in_row _ Hv). cbn [negb andb]. eexists. split; [reflexivity|]. unfold vval, unstretch. rewrite Ht. reflexivity.
Qed.
End Main.
End Proofs.
