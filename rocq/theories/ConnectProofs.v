(** Lemmas about the connectedness check. *)
From Coq Require Import ZArith List Lia Bool.
From Verif Require Import Base Field Plonk AssignModel AssignProofs BuilderModel BuilderProofs FinalizeModel ConnectModel.
Import ListNotations.
Open Scope Z_scope.

(** ** Disjoint sets *)
Lemma unions_spec : forall l z, (forall a b, In (a, b) l -> z_in z a = true /\ z_in z b = true) ->
  exists z', unions z l = Some z' /\ z_size z' = z_size z /\
    (forall a b, In (a, b) l -> z_rep z' a = z_rep z' b) /\
    (forall x y, z_rep z x = z_rep z y -> z_rep z' x = z_rep z' y) /\
    (forall R : Z -> Z -> Prop, (forall x y, R x y -> R y x) -> (forall x y w, R x y -> R y w -> R x w) ->
       (forall x y, z_rep z x = z_rep z y -> R x y) -> (forall a b, In (a, b) l -> R a b) ->
       forall x y, z_rep z' x = z_rep z' y -> R x y).
Proof.
  induction l as [|[a b] l IH]; intros z H; cbn [unions].
  - exists z. repeat split; auto. intros a b [].
  - unfold union_set. destruct (H a b (or_introl eq_refl)) as [Ha Hb]. rewrite Ha, Hb. cbn [andb].
    cbv zeta. set (z1 := mkZ (z_size z) (fun x => if z_rep z x =? z_rep z a then z_rep z b else z_rep z x)).
    destruct (IH z1) as [z' [E [S [A [B C]]]]].
    { intros a0 b0 Hin. exact (H a0 b0 (or_intror Hin)). }
    assert (K : forall x y, z_rep z x = z_rep z y -> z_rep z1 x = z_rep z1 y) by (intros x y Hxy; cbn; rewrite Hxy; reflexivity).
    exists z'. split; [exact E|]. split; [exact S|]. split; [|split].
    + intros a0 b0 [X|X]; [|apply A; exact X]. injection X as <- <-. apply B. cbn. rewrite Z.eqb_refl.
      destruct (z_rep z b =? z_rep z a); reflexivity.
    + intros x y Hxy. apply B, K, Hxy.
    + intros R Sy Tr R1 R2. apply C; [exact Sy|exact Tr| |intros; apply R2; right; assumption].
      intros x y Hxy. cbn in Hxy. pose proof (R2 a b (or_introl eq_refl)) as Rab.
      destruct (z_rep z x =? z_rep z a) eqn:Ex; destruct (z_rep z y =? z_rep z a) eqn:Ey;
        try (apply Z.eqb_eq in Ex; apply R1 in Ex); try (apply Z.eqb_eq in Ey; apply R1 in Ey).
      * eapply Tr; [exact Ex|]. apply Sy. exact Ey.
      * eapply Tr; [exact Ex|]. eapply Tr; [exact Rab|]. apply R1. exact Hxy.
      * eapply Tr; [apply R1; exact Hxy|]. eapply Tr; [apply Sy; exact Rab|]. apply Sy. exact Ey.
      * apply R1. exact Hxy.
Qed.

Lemma inb_spec : forall x l, inb x l = true <-> In x l.
Proof.
  intros x l. unfold inb. rewrite existsb_exists. split.
  - intros [y [H E]]. apply Z.eqb_eq in E. subst y. exact H.
  - intros H. exists x. split; [exact H|apply Z.eqb_refl].
Qed.
Lemma finds_spec : forall z l, (forall a, In a l -> z_in z a = true) -> finds z l = Some (map (z_rep z) l).
Proof.
  induction l as [|a l IH]; intros H; [reflexivity|]. cbn [finds fold_right map]. unfold find_set at 1. rewrite (H a (or_introl eq_refl)).
  fold (finds z l). rewrite IH; [reflexivity|]. intros; apply H; right; assumption.
Qed.
Lemma all_ok_bool : forall l, all_ok (map Some l) = Some (forallb (fun b => b) l).
Proof. induction l as [|[] l IH]; cbn; auto. Qed.
Lemma all_in_spec : forall z e l, (forall a, In a l -> z_in z a = true) ->
  exists b, all_in z e l = Some b /\ (b = true <-> forall a, In a l -> In (z_rep z a) e).
Proof.
  intros z e l H. exists (forallb (fun b => b) (map (fun a => inb (z_rep z a) e) l)). split.
  - unfold all_in. rewrite <- all_ok_bool, map_map. f_equal. apply map_ext_in. intros a Ha. unfold find_set. rewrite (H a Ha). reflexivity.
  - rewrite forallb_forall. split.
    + intros A a Ha. apply inb_spec. apply A. apply in_map_iff. exists a. auto.
    + intros A x Hx. apply in_map_iff in Hx. destruct Hx as [a [<- Ha]]. apply inb_spec. auto.
Qed.

Section Proofs.
Context {P : params}.
Notation F := (F P).

(** ** What it means for cells to be connected *)
Definition cell := (ctype * Z * Z)%type.
(** The cell a gate on row [row] reads by a variable, and the cell of a copied
    variable. *)
Definition gcell (row : Z) (v : var) : cell := (vty v, vidx v, if vrel v then row + vrot v else vrot v).
Definition acell (v : var) : cell := (vty v, vidx v, vrot v).
(** Selector [sel] is on in a row of the range. *)
Definition on (s : astate P) (start rows : Z) (sel : nat) (row : Z) : Prop :=
  start <= row < start + rows /\ a_table s CSel (Z.of_nat sel) row <> f0.
(** A gate or lookup gate reads the variable. *)
Definition reads (c : cstate P) (sel k : nat) (v : var) : Prop :=
  (exists cs e, nth_error (c_gates c) k = Some (sel, cs) /\ In e cs /\ In v (evars e)).
Definition lreads (c : cstate P) (sel k : nat) (v : var) : Prop :=
  (exists cs l e, nth_error (c_lgates c) k = Some (sel, cs) /\ In l cs /\ In e (snd l) /\ In v (evars e)).
(** Cells joined by a chain of gates on rows where they are on, and of copy
    constraints. *)
Inductive linked (c : cstate P) (s : astate P) (start rows : Z) : cell -> cell -> Prop :=
| l_refl x : linked c s start rows x x
| l_sym x y : linked c s start rows x y -> linked c s start rows y x
| l_trans x y z : linked c s start rows x y -> linked c s start rows y z -> linked c s start rows x z
| l_gate sel k row u v : on s start rows sel row -> reads c sel k u -> reads c sel k v -> linked c s start rows (gcell row u) (gcell row v)
| l_lookup sel k row u v : on s start rows sel row -> lreads c sel k u -> lreads c sel k v -> linked c s start rows (gcell row u) (gcell row v)
| l_copy a b : In (a, b) (c_copies c) -> linked c s start rows (acell a) (acell b).
(** Cells some constraint mentions. *)
Definition constrained (c : cstate P) (s : astate P) (start rows : Z) (x : cell) : Prop :=
  (exists sel k row v, on s start rows sel row /\ (reads c sel k v \/ lreads c sel k v) /\ x = gcell row v) \/
  (exists a b, In (a, b) (c_copies c) /\ (x = acell a \/ x = acell b)).

(** The cells the check tells apart. *)
Definition okcell (s : astate P) (start rows n : Z) (x : cell) : Prop :=
  let '(t, i, r) := x in
  match t with
  | CWit => 0 <= i < Z.of_nat (length (a_wit s)) /\ start <= r < start + rows
  | CConst => i = 0 /\ start <= r < start + rows
  | CPub => i = 0 /\ 0 <= r < n
  | CSel => False
  end.

Lemma enabled_spec : forall (s : astate P) sel start rows row, 0 <= start ->
  (In row (enabled s sel start rows) <-> on s start rows sel row).
Proof.
  intros s sel start rows row H0. unfold enabled, on. cbv zeta.
  set (col := match nth_error (a_sel s) sel with Some c => c | None => [] end).
  rewrite filter_In, in_map_iff, negb_true_iff.
  assert (N : 0 <= row -> nth (Z.to_nat row) col f0 = a_table s CSel (Z.of_nat sel) row).
  { intros Hr. unfold col. rewrite nth_cells. rewrite Z2Nat.id by exact Hr. reflexivity. }
  split.
  - intros [[k [E Hk]] Hn]. apply in_seq in Hk. split; [lia|]. rewrite <- N by lia. intros X. rewrite X, feqb_refl in Hn. discriminate.
  - intros [Hr Hn]. rewrite <- N in Hn by lia. split.
    + exists (Z.to_nat (row - start)). split; [lia|]. apply in_seq.
      assert (Hl : (Z.to_nat row < length col)%nat).
      { destruct (Nat.lt_ge_cases (Z.to_nat row) (length col)) as [L|L]; [exact L|]. rewrite nth_overflow in Hn by exact L. congruence. }
      lia.
    + destruct (feqb (nth (Z.to_nat row) col f0) f0) eqn:E; [|reflexivity]. apply feqb_eq in E. congruence.
Qed.

Lemma in_var_sets : forall (c : cstate P) sel l, In (sel, l) (var_sets c) ->
  exists k, (forall v, In v l <-> reads c sel k v) \/ (forall v, In v l <-> lreads c sel k v).
Proof.
  intros c sel l H. unfold var_sets in H. apply in_app_or in H. destruct H as [H|H]; apply in_map_iff in H; destruct H as [[sel' cs] [E H]]; cbn in E; injection E as <- <-;
    apply In_nth_error in H; destruct H as [k H]; exists k; [left|right]; intros v.
  - rewrite in_flat_map. unfold reads. split.
    + intros [e [A B]]. exists cs, e. auto.
    + intros [cs' [e [A [B D]]]]. rewrite H in A. injection A as <-. eauto.
  - rewrite in_flat_map. unfold lreads. split.
    + intros [[t es] [A B]]. apply in_flat_map in B. destruct B as [e [B D]]. exists cs, (t, es), e. auto.
    + intros [cs' [x [e [A [B [D G]]]]]]. apply (eq_trans (eq_sym H)) in A. injection A as <-. exists x. split; [exact B|]. apply in_flat_map. eauto.
Qed.
Lemma var_sets_reads : forall (c : cstate P) sel k v, reads c sel k v -> exists l, In (sel, l) (var_sets c) /\ forall u, reads c sel k u -> In u l.
Proof.
  intros c sel k v [cs [e [A [B D]]]]. exists (flat_map evars cs). split.
  - unfold var_sets. apply in_or_app. left. apply in_map_iff. exists (sel, cs). split; [reflexivity|]. eapply nth_error_In; eauto.
  - intros u [cs' [e' [A' [B' D']]]]. rewrite A in A'. injection A' as <-. apply in_flat_map. eauto.
Qed.
Lemma var_sets_lreads : forall (c : cstate P) sel k v, lreads c sel k v -> exists l, In (sel, l) (var_sets c) /\ forall u, lreads c sel k u -> In u l.
Proof.
  intros c sel k v [cs [x [e [A [B [D G]]]]]]. exists (flat_map (fun l => flat_map evars (snd l)) cs). split.
  - unfold var_sets. apply in_or_app. right. apply in_map_iff. exists (sel, cs). split; [reflexivity|]. eapply nth_error_In; eauto.
  - intros u [cs' [x' [e' [A' [B' [D' G']]]]]]. apply (eq_trans (eq_sym A)) in A'. injection A' as <-. apply in_flat_map. exists x'. split; [exact B'|]. apply in_flat_map. eauto.
Qed.

(** A labelling constant along every constraint is constant on linked cells. *)
Lemma linked_label : forall (c : cstate P) s start rows A (f : cell -> A),
  (forall sel k row u v, on s start rows sel row -> reads c sel k u -> reads c sel k v -> f (gcell row u) = f (gcell row v)) ->
  (forall sel k row u v, on s start rows sel row -> lreads c sel k u -> lreads c sel k v -> f (gcell row u) = f (gcell row v)) ->
  (forall a b, In (a, b) (c_copies c) -> f (acell a) = f (acell b)) ->
  forall x y, linked c s start rows x y -> f x = f y.
Proof. intros c s start rows A f H1 H2 H3 x y H. induction H; eauto; congruence. Qed.

Section Fit.
Variables (c : cstate P) (s : astate P) (inputs outputs : list var) (start rows : Z).
Let n := Z.of_nat (length inputs).
Hypothesis Hs : 0 <= start.
Hypothesis Hr : 0 <= rows.
Hypothesis Hc : length (a_const s) = 1%nat.
Hypothesis Hg : forall sel k row v, on s start rows sel row -> reads c sel k v \/ lreads c sel k v ->
  vrel v = true /\ vty v <> CPub /\ okcell s start rows n (gcell row v).
Hypothesis Hcp : forall a b, In (a, b) (c_copies c) -> okcell s start rows n (acell a) /\ okcell s start rows n (acell b).
Hypothesis Hio : forall v, In v (inputs ++ outputs) -> okcell s start rows n (acell v).

Let rs := row_size s.
Lemma rs_val : rs = Z.of_nat (length (a_wit s)) + 1.
Proof. unfold rs, row_size. rewrite Hc. reflexivity. Qed.

Definition addr (x : cell) : Z :=
  let '(t, i, r) := x in
  match t with
  | CPub => rs * rows + r
  | CWit => (r - start) * rs + i
  | _ => (r - start) * rs + rs - 1
  end.
Definition cellof (a : Z) : cell :=
  if rs * rows <=? a then (CPub, 0, a - rs * rows)
  else if a mod rs =? rs - 1 then (CConst, 0, start + a / rs) else (CWit, a mod rs, start + a / rs).

Lemma addr_copy : forall v, copy_var_address rs start rows v = addr (acell v).
Proof. intros v. unfold copy_var_address, addr, acell. destruct (vty v); reflexivity. Qed.
Lemma addr_gate : forall row v, vrel v = true -> vty v <> CPub -> gate_var_address rs start row v = addr (gcell row v).
Proof.
  intros row v R T. unfold gate_var_address, addr, gcell. rewrite R. destruct (vty v); try congruence; replace (row + vrot v - start) with (row - start + vrot v) by ring; reflexivity.
Qed.
Lemma addr_cellof : forall x, okcell s start rows n x -> cellof (addr x) = x.
Proof.
  intros [[t i] r] H. pose proof rs_val as V. unfold okcell in H. unfold cellof, addr. destruct t.
  - destruct H as [H1 H2].
    replace (rs * rows <=? (r - start) * rs + i) with false by (symmetry; apply Z.leb_gt; nia).
    assert (M : ((r - start) * rs + i) mod rs = i) by (rewrite Z.add_comm, Z_mod_plus_full; apply Z.mod_small; lia).
    assert (D : ((r - start) * rs + i) / rs = r - start) by (rewrite Z.add_comm, Z_div_plus_full, Z.div_small by lia; lia).
    rewrite M, D. replace (i =? rs - 1) with false by (symmetry; apply Z.eqb_neq; lia). do 2 f_equal; lia.
  - destruct H as [-> H]. replace (rs * rows <=? rs * rows + r) with true by (symmetry; apply Z.leb_le; lia). f_equal. ring.
  - destruct H as [-> H].
    replace (rs * rows <=? (r - start) * rs + rs - 1) with false by (symmetry; apply Z.leb_gt; nia).
    assert (E : (r - start) * rs + rs - 1 = (rs - 1) + (r - start) * rs) by ring. rewrite E.
    rewrite Z_mod_plus_full, Z.mod_small, Z.eqb_refl by lia. rewrite Z_div_plus_full, Z.div_small by lia. do 2 f_equal; lia.
  - destruct H.
Qed.
Lemma addr_in : forall x, okcell s start rows n x -> 0 <= addr x < rs * rows + n.
Proof.
  intros [[t i] r] H. pose proof rs_val as V. unfold okcell in H. unfold addr. assert (0 <= n) by (unfold n; lia). destruct t; [nia| |nia|destruct H].
  destruct H as [_ H]. nia.
Qed.
Lemma zones_spec : exists z, generate_zones c s inputs start rows = Some z /\
  (forall x, okcell s start rows n x -> z_in z (addr x) = true) /\
  (forall x y, okcell s start rows n x -> okcell s start rows n y ->
     (z_rep z (addr x) = z_rep z (addr y) <-> linked c s start rows x y)).
Proof.
  unfold generate_zones. fold rs. fold n.
  set (l := flat_map (mark_set s start rows) (var_sets c) ++ _).
  assert (Zin : forall x, okcell s start rows n x -> z_in (z_new (rs * rows + n)) (addr x) = true).
  { intros x Hx. apply addr_in in Hx. unfold z_in, z_new. cbn [z_size]. apply andb_true_iff. split; [apply Z.leb_le|apply Z.ltb_lt]; lia. }
  (* every pair of the list is a link of two cells that fit *)
  assert (L : forall a b, In (a, b) l -> exists x y, a = addr x /\ b = addr y /\ okcell s start rows n x /\ okcell s start rows n y /\ linked c s start rows x y).
  { intros a b H. unfold l in H. apply in_app_or in H. destruct H as [H|H].
    - apply in_flat_map in H. destruct H as [[sel vs] [Hv H]]. unfold mark_set in H. apply in_flat_map in H. destruct H as [row [Hrow H]].
      apply in_map_iff in H. destruct H as [v [E H]]. cbn [fst snd] in *. apply enabled_spec in Hrow; [|exact Hs].
      assert (Hh : In (hd v vs) vs) by (destruct vs; [destruct H|left; reflexivity]).
      injection E as <- <-. fold rs.
      destruct (in_var_sets c sel vs Hv) as [k [K|K]].
      + apply K in H. apply K in Hh. destruct (Hg sel k row v Hrow (or_introl H)) as [A1 [A2 A3]].
        destruct (Hg sel k row _ Hrow (or_introl Hh)) as [B1 [B2 B3]].
        exists (gcell row v), (gcell row (hd v vs)). rewrite !addr_gate by assumption. repeat split; auto. eapply l_gate; eauto.
      + apply K in H. apply K in Hh. destruct (Hg sel k row v Hrow (or_intror H)) as [A1 [A2 A3]].
        destruct (Hg sel k row _ Hrow (or_intror Hh)) as [B1 [B2 B3]].
        exists (gcell row v), (gcell row (hd v vs)). rewrite !addr_gate by assumption. repeat split; auto. eapply l_lookup; eauto.
    - apply in_map_iff in H. destruct H as [[u v] [E H]]. cbn [fst snd] in E. fold rs in E. rewrite !addr_copy in E. injection E as <- <-.
      destruct (Hcp u v H). exists (acell u), (acell v). repeat split; auto. apply l_copy. exact H. }
  destruct (unions_spec l (z_new (rs * rows + n))) as [z [E [S [A [_ C]]]]].
  { intros a b H. destruct (L a b H) as [x [y [-> [-> [Hx [Hy _]]]]]]. split; apply Zin; assumption. }
  exists z. split; [exact E|]. split.
  { intros x Hx. specialize (Zin x Hx). unfold z_in in *. rewrite S. exact Zin. }
  (* gates relate all their variables through the first *)
  assert (G : forall sel vs row u v, on s start rows sel row -> In (sel, vs) (var_sets c) -> In u vs -> In v vs ->
    (forall w, In w vs -> vrel w = true /\ vty w <> CPub) -> z_rep z (addr (gcell row u)) = z_rep z (addr (gcell row v))).
  { intros sel vs row u v Ho Hv Hu Hw Hrel.
    assert (X : forall w, In w vs -> z_rep z (addr (gcell row w)) = z_rep z (addr (gcell row (hd u vs)))).
    { intros w Hw'. apply A. unfold l. apply in_or_app. left. apply in_flat_map. exists (sel, vs). split; [exact Hv|].
      unfold mark_set. apply in_flat_map. exists row. split; [apply enabled_spec; [exact Hs|exact Ho]|].
      apply in_map_iff. exists w. split; [|exact Hw']. cbn [snd]. fold rs.
      assert (Hh : In (hd u vs) vs) by (destruct vs; [destruct Hu|left; reflexivity]).
      replace (hd w vs) with (hd u vs) by (destruct vs; [destruct Hu|reflexivity]).
      destruct (Hrel w Hw') as [? ?]. destruct (Hrel _ Hh) as [? ?]. rewrite !addr_gate by assumption. reflexivity. }
    rewrite (X u Hu), (X v Hw). reflexivity. }
  intros x y Hx Hy. split.
  - intros Hr'. rewrite <- (addr_cellof x Hx), <- (addr_cellof y Hy).
    apply (C (fun a b => linked c s start rows (cellof a) (cellof b))).
    + intros; apply l_sym; assumption.
    + intros; eapply l_trans; eassumption.
    + intros a b Hab. cbn in Hab. subst. apply l_refl.
    + intros a b H. destruct (L a b H) as [u [v [-> [-> [Hu [Hv' HL]]]]]]. rewrite !addr_cellof by assumption. exact HL.
    + exact Hr'.
  - intros HL. clear Hx Hy. induction HL; try congruence.
    + destruct (var_sets_reads c sel k u H0) as [vs [V1 V2]].
      destruct (in_var_sets c sel vs V1) as [k' K].
      eapply G; eauto. intros w Hw. destruct K as [K|K]; apply K in Hw; edestruct Hg as [? [? ?]]; try eassumption; [left; eassumption|auto|right; eassumption|auto].
    + destruct (var_sets_lreads c sel k u H0) as [vs [V1 V2]].
      destruct (in_var_sets c sel vs V1) as [k' K].
      eapply G; eauto. intros w Hw. destruct K as [K|K]; apply K in Hw; edestruct Hg as [? [? ?]]; try eassumption; [left; eassumption|auto|right; eassumption|auto].
    + apply A. unfold l. apply in_or_app. right. apply in_map_iff. exists (a, b). split; [|exact H]. cbn [fst snd]. fold rs. rewrite !addr_copy. reflexivity.
Qed.

Definition strongly : Prop := forall u v, In u (inputs ++ outputs) -> In v (inputs ++ outputs) -> linked c s start rows (acell u) (acell v).
Definition weakly : Prop :=
  (forall o, In o outputs -> exists i, In i inputs /\ linked c s start rows (acell o) (acell i)) /\
  (forall i, In i inputs -> exists o, In o outputs /\ linked c s start rows (acell i) (acell o)).
Definition no_islands : Prop :=
  forall x, constrained c s start rows x -> exists v, In v (inputs ++ outputs) /\ linked c s start rows x (acell v).

Lemma constrained_ok : forall x, constrained c s start rows x -> okcell s start rows n x.
Proof.
  intros x [[sel [k [row [v [A [B ->]]]]]]|[a [b [A B]]]].
  - destruct (Hg sel k row v A B) as [_ [_ X]]. exact X.
  - destruct (Hcp a b A) as [X Y]. destruct B as [->| ->]; assumption.
Qed.

Lemma all_in_cells : forall z (l1 l2 : list cell),
  (forall x, okcell s start rows n x -> z_in z (addr x) = true) ->
  (forall x y, okcell s start rows n x -> okcell s start rows n y -> (z_rep z (addr x) = z_rep z (addr y) <-> linked c s start rows x y)) ->
  (forall x, In x l1 -> okcell s start rows n x) -> (forall x, In x l2 -> okcell s start rows n x) ->
  exists b, all_in z (map (z_rep z) (map addr l1)) (map addr l2) = Some b /\
    (b = true <-> forall x, In x l2 -> exists y, In y l1 /\ linked c s start rows x y).
Proof.
  intros z l1 l2 Zi Zr H1 H2.
  destruct (all_in_spec z (map (z_rep z) (map addr l1)) (map addr l2)) as [b [E B]].
  { intros a Ha. apply in_map_iff in Ha. destruct Ha as [x [<- Hx]]. apply Zi, H2, Hx. }
  exists b. split; [exact E|]. rewrite B. split.
  - intros X x Hx. specialize (X (addr x) (in_map addr _ _ Hx)). apply in_map_iff in X. destruct X as [a [Ea Ha]].
    apply in_map_iff in Ha. destruct Ha as [y [<- Hy]]. exists y. split; [exact Hy|]. apply Zr; auto.
  - intros X a Ha. apply in_map_iff in Ha. destruct Ha as [x [<- Hx]]. destruct (X x Hx) as [y [Hy L]].
    replace (z_rep z (addr x)) with (z_rep z (addr y)); [apply in_map, in_map, Hy|]. symmetry. apply Zr; auto.
Qed.
Lemma map_addr : forall l, map (copy_var_address rs start rows) l = map addr (map acell l).
Proof. intros l. rewrite map_map. apply map_ext. apply addr_copy. Qed.
Lemma in_acell : forall l x, In x (map acell l) -> exists v, In v l /\ x = acell v.
Proof. intros l x H. apply in_map_iff in H. destruct H as [v [<- H]]. eauto. Qed.

Lemma check_spec : forall t isl, (t = KStrong -> inputs <> []) ->
  exists b, check_connectedness c s inputs outputs start rows t isl = Some b /\
    (b = true <-> match t with
                  | KNone => True
                  | KWeak => weakly
                  | KStrong => strongly
                  end /\ (isl = true -> t <> KNone -> no_islands)).
Proof.
  intros t isl Hne.
  assert (Hi : forall x, In x (map acell inputs) -> okcell s start rows n x).
  { intros x Hx. apply in_acell in Hx. destruct Hx as [v [Hv ->]]. apply Hio, in_or_app. auto. }
  assert (Ho : forall x, In x (map acell outputs) -> okcell s start rows n x).
  { intros x Hx. apply in_acell in Hx. destruct Hx as [v [Hv ->]]. apply Hio, in_or_app. auto. }
  assert (Hb : forall x, In x (map acell (inputs ++ outputs)) -> okcell s start rows n x).
  { intros x Hx. apply in_acell in Hx. destruct Hx as [v [Hv ->]]. apply Hio. auto. }
  destruct zones_spec as [z [Ez [Zi Zr]]].
  assert (Fi : forall l, (forall x, In x (map acell l) -> okcell s start rows n x) -> finds z (map addr (map acell l)) = Some (map (z_rep z) (map addr (map acell l)))).
  { intros l Hl. apply finds_spec. intros a Ha. apply in_map_iff in Ha. destruct Ha as [x [<- Hx]]. apply Zi, Hl, Hx. }
  assert (ISL : exists b, check_islands c s z inputs outputs start rows = Some b /\ (b = true <-> no_islands)).
  { unfold check_islands. fold rs. rewrite map_addr, Fi by exact Hb.
    set (cells := flat_map (fun g => flat_map (fun row => map (gcell row) (snd g)) (enabled s (fst g) start rows)) (var_sets c) ++
                  flat_map (fun ab : var * var => [acell (fst ab); acell (snd ab)]) (c_copies c)).
    assert (CC : forall x, In x cells <-> constrained c s start rows x).
    { intros x. unfold cells, constrained. rewrite in_app_iff. split; (intros [H|H]; [left|right]).
      - apply in_flat_map in H. destruct H as [[sel vs] [Hv H]]. apply in_flat_map in H. destruct H as [row [Hrow H]]. cbn [fst snd] in *.
        apply in_map_iff in H. destruct H as [v [<- H]]. apply enabled_spec in Hrow; [|exact Hs].
        destruct (in_var_sets c sel vs Hv) as [k [K|K]]; exists sel, k, row, v; (split; [exact Hrow|split; [|reflexivity]]); [left|right]; apply K; exact H.
      - apply in_flat_map in H. destruct H as [[u v] [H X]]. cbn in X. exists u, v. split; [exact H|]. destruct X as [X|[X|[]]]; auto.
      - destruct H as [sel [k [row [v [A [[B|B] ->]]]]]]; apply in_flat_map.
        + destruct (var_sets_reads c sel k v B) as [vs [V1 V2]]. exists (sel, vs). split; [exact V1|]. apply in_flat_map. exists row. split; [apply enabled_spec; assumption|]. apply in_map. auto.
        + destruct (var_sets_lreads c sel k v B) as [vs [V1 V2]]. exists (sel, vs). split; [exact V1|]. apply in_flat_map. exists row. split; [apply enabled_spec; assumption|]. apply in_map. auto.
      - destruct H as [a [b [H X]]]. apply in_flat_map. exists (a, b). split; [exact H|]. cbn. destruct X as [->| ->]; auto. }
    match goal with |- context [all_in z _ ?l] => replace l with (map addr cells) end.
    2:{ unfold cells. rewrite map_app, !flat_map_concat_map, !concat_map, !map_map. f_equal.
        - f_equal. apply map_ext_in. intros [sel vs] Hv. cbn [fst snd]. rewrite !flat_map_concat_map, concat_map, map_map. f_equal.
          apply map_ext_in. intros row Hrow. rewrite map_map. apply map_ext_in. intros v Hin. symmetry. apply enabled_spec in Hrow; [|exact Hs].
          destruct (in_var_sets c sel vs Hv) as [k [K|K]]; apply K in Hin;
            [destruct (Hg sel k row v Hrow (or_introl Hin)) as [? [? ?]]|destruct (Hg sel k row v Hrow (or_intror Hin)) as [? [? ?]]]; apply addr_gate; assumption. }
    destruct (all_in_cells z (map acell (inputs ++ outputs)) cells Zi Zr Hb) as [b [Eb B]].
    { intros x Hx. apply constrained_ok, CC, Hx. }
    exists b. split; [exact Eb|]. rewrite B. unfold no_islands. split.
    - intros X x Hx. destruct (X x (proj2 (CC x) Hx)) as [y [Hy L]]. apply in_acell in Hy. destruct Hy as [v [Hv ->]]. eauto.
    - intros X x Hx. destruct (X x (proj1 (CC x) Hx)) as [v [Hv L]]. exists (acell v). split; [apply in_map, Hv|exact L]. }
  assert (MAIN : t <> KNone -> exists b, (match t with KWeak => check_weak z inputs outputs (row_size s) start rows | _ => check_strong z inputs outputs (row_size s) start rows end) = Some b /\
    (b = true <-> match t with KNone => True | KWeak => weakly | KStrong => strongly end)).
  { intros Ht. fold rs. destruct t; [congruence| |].
    - unfold check_weak. rewrite !map_addr, !Fi by assumption.
      destruct (all_in_cells z (map acell inputs) (map acell outputs) Zi Zr Hi Ho) as [b1 [E1 B1]].
      destruct (all_in_cells z (map acell outputs) (map acell inputs) Zi Zr Ho Hi) as [b2 [E2 B2]].
      rewrite E1, E2. exists (b1 && b2). split; [destruct b1; reflexivity|].
      rewrite andb_true_iff, B1, B2. unfold weakly. split; intros [X Y]; split.
      + intros o H. destruct (X (acell o) (in_map acell _ _ H)) as [y [Hy L]]. apply in_acell in Hy. destruct Hy as [v [Hv ->]]. eauto.
      + intros o H. destruct (Y (acell o) (in_map acell _ _ H)) as [y [Hy L]]. apply in_acell in Hy. destruct Hy as [v [Hv ->]]. eauto.
      + intros x H. apply in_acell in H. destruct H as [o [H ->]]. destruct (X o H) as [v [Hv L]]. exists (acell v). split; [apply in_map, Hv|exact L].
      + intros x H. apply in_acell in H. destruct H as [o [H ->]]. destruct (Y o H) as [v [Hv L]]. exists (acell v). split; [apply in_map, Hv|exact L].
    - specialize (Hne eq_refl).
      assert (X : exists i0 l, inputs = i0 :: l) by (destruct inputs as [|i0 l]; [congruence|eauto]). destruct X as [i0 [l0 EI]].
      assert (H0 : In i0 (inputs ++ outputs)) by (rewrite EI; left; reflexivity).
      assert (CS : check_strong z inputs outputs rs start rows = all_in z (map (z_rep z) (map addr [acell i0])) (map addr (map acell (inputs ++ outputs)))).
      { unfold check_strong. rewrite map_addr. replace (match inputs with [] => None | i1 :: _ => match find_set z (copy_var_address rs start rows i1) with Some e => all_in z [e] (map addr (map acell (inputs ++ outputs))) | None => None end end)
          with (match find_set z (copy_var_address rs start rows i0) with Some e => all_in z [e] (map addr (map acell (inputs ++ outputs))) | None => None end) by (rewrite EI; reflexivity).
        rewrite addr_copy. unfold find_set. rewrite Zi by (apply Hio; exact H0). reflexivity. }
      rewrite CS.
      destruct (all_in_cells z [acell i0] (map acell (inputs ++ outputs)) Zi Zr) as [b [E B]].
      { intros x [<-|[]]. apply Hio. exact H0. }
      { exact Hb. }
      exists b. split; [exact E|]. rewrite B. unfold strongly. split.
      + intros X u v Hu Hv. destruct (X (acell u) (in_map acell _ _ Hu)) as [y [[<-|[]] L1]]. destruct (X (acell v) (in_map acell _ _ Hv)) as [y [[<-|[]] L2]].
        eapply l_trans; [exact L1|]. apply l_sym. exact L2.
      + intros X x Hx. apply in_acell in Hx. destruct Hx as [v [Hv ->]]. exists (acell i0). split; [left; reflexivity|]. auto. }
  unfold check_connectedness. destruct t.
  - exists true. split; [reflexivity|]. split; [|reflexivity]. intros _. split; [exact I|]. intros _ X. congruence.
  - rewrite Ez. destruct MAIN as [b [E B]]; [discriminate|]. cbv zeta. rewrite E. destruct ISL as [bi [Ei Bi]]. destruct isl.
    + exists (b && bi). split; [rewrite Ei; destruct b; reflexivity|]. rewrite andb_true_iff, B, Bi. split; [intros [X Y]; auto|intros [X Y]; split; [exact X|apply Y; [reflexivity|discriminate]]].
    + exists b. split; [reflexivity|]. rewrite B. split; [intros X; split; [exact X|discriminate]|tauto].
  - rewrite Ez. destruct MAIN as [b [E B]]; [discriminate|]. cbv zeta. rewrite E. destruct ISL as [bi [Ei Bi]]. destruct isl.
    + exists (b && bi). split; [rewrite Ei; destruct b; reflexivity|]. rewrite andb_true_iff, B, Bi. split; [intros [X Y]; auto|intros [X Y]; split; [exact X|apply Y; [reflexivity|discriminate]]].
    + exists b. split; [reflexivity|]. rewrite B. split; [intros X; split; [exact X|discriminate]|tauto].
Qed.
End Fit.
End Proofs.
