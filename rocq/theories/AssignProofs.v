(** Proofs about AssignModel.v. *)
From Coq Require Import ZArith List Lia Bool.
From Verif Require Import Base Field Plonk PlonkFacts AssignModel.
Import ListNotations.
Open Scope Z_scope.

(** ** Specification: last value written *)

Inductive loc := LWit (c r : nat) | LPub (c r : nat) | LConst (c r : nat) | LSel (c r : nat)
               | LShared (c r : nat) | LPriv (i : nat).

Section Spec.
Variable P : params.
Notation F := (F P).

(** [Some (Some v)]: the call stores [v] at the location; [Some None]: the call
    erases it; [None]: the call does not concern it. *)
Definition effect (o : aop P) (l : loc) : option (option F) :=
  match o, l with
  | AWitness c r v, LWit c' r' => if (c =? c')%nat && (r =? r')%nat then Some (Some v) else None
  | APublic c r v, LPub c' r' => if (c =? c')%nat && (r =? r')%nat then Some (Some v) else None
  | AConstant c r v, LConst c' r' => if (c =? c')%nat && (r =? r')%nat then Some (Some v) else None
  | ASelector c r v, LSel c' r' => if (c =? c')%nat && (r =? r')%nat then Some (Some v) else None
  | AEnable c r, LSel c' r' => if (c =? c')%nat && (r =? r')%nat then Some (Some f1) else None
  | AShared c r v, LShared c' r' => if (c =? c')%nat && (r =? r')%nat then Some (Some v) else None
  | APrivate i v, LPriv i' => if (i =? i')%nat then Some (Some v) else None
  | AResizePrivate n, LPriv i' => if (n <=? i')%nat then Some None else None
  | _, _ => None
  end.
Definition last_write (h : list (aop P)) (l : loc) : option F :=
  fold_left (fun acc o => match effect o l with Some x => x | None => acc end) h None.
End Spec.
Arguments effect {P}. Arguments last_write {P}.

(** The variable naming a location. *)
Definition var_of (l : loc) : var :=
  match l with
  | LWit c r => mkVar (Z.of_nat c) (Z.of_nat r) false CWit
  | LPub c r => mkVar (Z.of_nat c) (Z.of_nat r) false CPub
  | LConst c r => mkVar (Z.of_nat c) (Z.of_nat r) false CConst
  | LSel c r => mkVar (Z.of_nat c) (Z.of_nat r) false CSel
  | LShared c r => mkVar (Z.of_nat c + 1) (Z.of_nat r) false CPub
  | LPriv i => mkVar priv_index (Z.of_nat i) false CPub
  end.
(** Locations that [var_value] can name: not selectors, only public column 0;
    column numbers below the reserved ones. *)
Definition nameable (l : loc) : Prop :=
  match l with
  | LWit c _ | LConst c _ => Z.of_nat c < bconst_index
  | LPub c _ => c = O
  | LSel _ _ => False
  | LShared c _ => Z.of_nat c + 1 < bconst_index
  | LPriv _ => True
  end.

Section Proofs.
Variable P : params.
Notation F := (F P).
Implicit Types (s : astate P) (h : list (aop P)).

Lemma upd_length : forall A (l : list A) i v, length (upd l i v) = length l.
Proof. induction l; intros [|i] v; cbn; auto. Qed.

Lemma nth_upd_same : forall A (l : list A) i v, (i < length l)%nat -> nth_error (upd l i v) i = Some v.
Proof. induction l; intros [|i] v H; cbn in *; try lia; auto. apply IHl. lia. Qed.

Lemma nth_upd_other : forall A (l : list A) i j v, i <> j -> nth_error (upd l i v) j = nth_error l j.
Proof. induction l; intros [|i] [|j] v H; cbn; auto; try congruence. Qed.

Lemma grow_length : forall n (l : list F), length (grow n l) = Nat.max n (length l).
Proof. intros. unfold grow. rewrite app_length, repeat_length. lia. Qed.

Lemma grow_nth : forall n (l : list F) i, (i < length l)%nat -> nth_error (grow n l) i = nth_error l i.
Proof. intros. unfold grow. apply nth_error_app1. assumption. Qed.

Lemma grow_nth_new : forall n (l : list F) i v,
  nth_error (grow n l) i = Some v -> nth_error l i = Some v \/ (nth_error l i = None /\ v = f0).
Proof.
  intros n l i v H. unfold grow in H. destruct (Nat.lt_ge_cases i (length l)) as [A|A].
  - rewrite nth_error_app1 in H by assumption. auto.
  - right. split; [apply nth_error_None; assumption|].
    rewrite nth_error_app2 in H by assumption. apply nth_error_In in H. apply repeat_spec in H. exact H.
Qed.

Lemma set_cell_same : forall (l : list F) r v, nth_error (set_cell l r v) r = Some v.
Proof. intros. apply nth_upd_same. rewrite grow_length. lia. Qed.

Lemma set_cell_other : forall (l : list F) r i v x, r <> i ->
  nth_error l i = Some x -> nth_error (set_cell l r v) i = Some x.
Proof.
  intros l r i v x H E. unfold set_cell. rewrite nth_upd_other by assumption.
  rewrite grow_nth; [assumption|]. apply nth_error_Some. congruence.
Qed.

Lemma set_cell_other_inv : forall (l : list F) r i v x, r <> i ->
  nth_error (set_cell l r v) i = Some x -> nth_error l i = Some x \/ (nth_error l i = None /\ x = f0).
Proof.
  intros l r i v x H E. unfold set_cell in E. rewrite nth_upd_other in E by assumption.
  eapply grow_nth_new; eauto.
Qed.

(** Reading a location directly. *)
Definition cell2 (cols : list (list F)) (c r : nat) : option F :=
  match nth_error cols c with Some col => nth_error col r | None => None end.
Definition readl s (l : loc) : option F :=
  match l with
  | LWit c r => cell2 (a_wit s) c r
  | LPub c r => cell2 (a_pub s) c r
  | LConst c r => cell2 (a_const s) c r
  | LSel c r => cell2 (a_sel s) c r
  | LShared c r => cell2 (a_shared s) c r
  | LPriv i => nth_error (a_priv s) i
  end.

Lemma set_col_same : forall cols cols' c r (v : F), set_col cols c r v = Some cols' -> cell2 cols' c r = Some v.
Proof.
  intros cols cols' c r v H. unfold set_col in H. destruct (nth_error cols c) as [col|] eqn:E; [|discriminate].
  injection H as <-. unfold cell2. rewrite nth_upd_same by (apply nth_error_Some; congruence).
  apply set_cell_same.
Qed.

Lemma set_col_other : forall cols cols' c r (v : F) c' r' x, set_col cols c r v = Some cols' ->
  ~ (c = c' /\ r = r') -> cell2 cols c' r' = Some x -> cell2 cols' c' r' = Some x.
Proof.
  intros cols cols' c r v c' r' x H N E. unfold set_col in H.
  destruct (nth_error cols c) as [col|] eqn:Ec; [|discriminate]. injection H as <-. unfold cell2 in *.
  destruct (Nat.eq_dec c c') as [<-|Nc].
  - rewrite nth_upd_same by (apply nth_error_Some; congruence). rewrite Ec in E.
    apply set_cell_other; auto.
  - rewrite nth_upd_other by assumption. exact E.
Qed.

Lemma set_col_other_inv : forall cols cols' c r (v : F) c' r' x, set_col cols c r v = Some cols' ->
  ~ (c = c' /\ r = r') -> cell2 cols' c' r' = Some x ->
  cell2 cols c' r' = Some x \/ (cell2 cols c' r' = None /\ x = f0).
Proof.
  intros cols cols' c r v c' r' x H N E. unfold set_col in H.
  destruct (nth_error cols c) as [col|] eqn:Ec; [|discriminate]. injection H as <-. unfold cell2 in *.
  destruct (Nat.eq_dec c c') as [<-|Nc].
  - rewrite nth_upd_same in E by (apply nth_error_Some; congruence). rewrite Ec.
    eapply set_cell_other_inv; [|exact E]. intros ->. apply N. auto.
  - rewrite nth_upd_other in E by assumption. auto.
Qed.

Ltac loceq := repeat match goal with
  | |- context [(?a =? ?b)%nat && (?c =? ?d)%nat] =>
      let E := fresh "E" in
      destruct ((a =? b)%nat && (c =? d)%nat) eqn:E;
      [apply andb_true_iff in E; let E1 := fresh in let E2 := fresh in
       destruct E as [E1 E2]; apply Nat.eqb_eq in E1; apply Nat.eqb_eq in E2; subst
      |apply andb_false_iff in E; rewrite !Nat.eqb_neq in E]
  end.

Lemma astep_read : forall s s' o l, astep s o = Some s' ->
  match effect o l with
  | Some (Some v) => readl s' l = Some v
  | Some None => readl s' l = None
  | None => (forall x, readl s l = Some x -> readl s' l = Some x) /\
            (forall x, readl s' l = Some x -> readl s l = Some x \/ (readl s l = None /\ x = f0))
  end.
Proof.
  intros s s' o l H.
  assert (SAME : forall s s' l, readl s l = readl s' l ->
    (forall x, readl s l = Some x -> readl s' l = Some x) /\
            (forall x, readl s' l = Some x -> readl s l = Some x \/ (readl s l = None /\ x = f0))).
  { intros a b l0 E. rewrite E. split; auto. }
  destruct o; cbn [astep] in H;
    try (match type of H with context [set_col ?a ?b ?c ?d] => destruct (set_col a b c d) as [k|] eqn:SC; [|discriminate] end;
         injection H as <-; destruct l; cbn [effect];
         try (apply SAME; reflexivity);
         cbn [readl a_wit a_pub a_const a_sel a_shared a_priv]; loceq; [eapply set_col_same; eassumption
                |split; intros x Hx; [eapply set_col_other|eapply set_col_other_inv]; try eassumption; tauto]).
  - injection H as <-. destruct l; cbn [effect]; try (apply SAME; reflexivity); cbn [readl a_priv].
    destruct (i =? i0)%nat eqn:E; [apply Nat.eqb_eq in E; subst; apply set_cell_same|].
    apply Nat.eqb_neq in E.
    split; intros x Hx; [eapply set_cell_other|eapply set_cell_other_inv]; eassumption.
  - injection H as <-. destruct l; cbn [effect]; try (apply SAME; reflexivity); cbn [readl a_priv].
    destruct (n <=? i)%nat eqn:E; [apply Nat.leb_le in E|apply Nat.leb_gt in E].
    + apply nth_error_None. rewrite grow_length. rewrite firstn_length. lia.
    + assert (FN : forall (l0 : list F) k m, (k < m)%nat -> nth_error (firstn m l0) k = nth_error l0 k).
      { induction l0; intros [|k] [|m] Hk; cbn; auto; try lia. apply IHl0. lia. }
      split; intros x Hx.
      * rewrite grow_nth; [rewrite FN by lia; exact Hx|].
        rewrite firstn_length. assert (i < length (a_priv s))%nat by (apply nth_error_Some; congruence). lia.
      * apply grow_nth_new in Hx. rewrite FN in Hx by lia. exact Hx.
  - injection H as <-. apply SAME. destruct l; reflexivity.
  - injection H as <-. apply SAME. destruct l; reflexivity.
  - destruct (find_const (a_bconst s) v); injection H as <-; apply SAME; destruct l; reflexivity.
Qed.

(** A cell that was never written holds zero, if it exists. *)
Definition rel (acc rd : option F) : Prop :=
  match acc with Some v => rd = Some v | None => rd = None \/ rd = Some f0 end.

Lemma astep_rel : forall s s' o l acc, astep s o = Some s' -> rel acc (readl s l) ->
  rel (match effect o l with Some x => x | None => acc end) (readl s' l).
Proof.
  intros s s' o l acc H R. pose proof (astep_read s s' o l H) as E.
  destruct (effect o l) as [[v|]|]; cbn.
  - exact E.
  - left. exact E.
  - destruct E as [E1 E2]. destruct acc as [v|]; cbn in *.
    + auto.
    + destruct (readl s' l) as [x|] eqn:Ex; [|auto]. right.
      destruct (E2 x eq_refl) as [A|[A B]]; [|subst; reflexivity].
      destruct R as [R|R]; congruence.
Qed.

Lemma aruns_rel : forall h s s' l acc, aruns s h = Some s' -> rel acc (readl s l) ->
  rel (fold_left (fun acc o => match effect o l with Some x => x | None => acc end) h acc) (readl s' l).
Proof.
  induction h as [|o h IH]; intros s s' l acc H R; cbn in *.
  - injection H as <-. exact R.
  - destruct (astep s o) as [s1|] eqn:E; [|discriminate]. eapply IH; [exact H|]. eapply astep_rel; eauto.
Qed.

Lemma cell2_empty : forall n i r, cell2 (repeat [] n) i r = None.
Proof.
  intros n i r. unfold cell2. destruct (nth_error (repeat [] n) i) as [x|] eqn:E; [|reflexivity].
  apply nth_error_In, repeat_spec in E. subst. destruct r; reflexivity.
Qed.

Lemma readl_new : forall w p c k l, readl (a_new P w p c k) l = None.
Proof.
  intros w p c k l. destruct l; cbn [readl a_new a_wit a_pub a_const a_sel a_shared a_priv];
    try apply cell2_empty.
  - apply (cell2_empty 1).
  - destruct i; reflexivity.
Qed.

Lemma var_value_readl : forall s l, nameable l -> var_value s (var_of l) = readl s l.
Proof.
  intros s l H. unfold bconst_index in H.
  assert (GC : forall cols c r, get_col cols (Z.of_nat c) (Z.of_nat r) = cell2 cols c r).
  { intros cols c r. unfold get_col, cell2.
    destruct (Z.of_nat c <? 0) eqn:E1; [apply Z.ltb_lt in E1; lia|].
    destruct (Z.of_nat r <? 0) eqn:E2; [apply Z.ltb_lt in E2; lia|]. cbn. rewrite !Nat2Z.id. reflexivity. }
  destruct l as [c r|c r|c r|c r|c r|i]; cbn [nameable] in H; unfold var_value; cbn [var_of vidx vrot vty];
    unfold priv_index, bpriv_index, bconst_index in *.
  - rewrite !(proj2 (Z.eqb_neq _ _)) by lia. apply GC.
  - subst c. cbn. apply (GC _ O).
  - rewrite !(proj2 (Z.eqb_neq _ _)) by lia. apply GC.
  - destruct H.
  - rewrite !(proj2 (Z.eqb_neq _ _)) by lia.
    rewrite (proj2 (Z.ltb_lt 0 _)) by lia. replace (Z.of_nat c + 1 - 1) with (Z.of_nat c) by lia. apply GC.
  - rewrite Z.eqb_refl. unfold get_cell.
    destruct (Z.of_nat i <? 0) eqn:E2; [apply Z.ltb_lt in E2; lia|]. rewrite Nat2Z.id. reflexivity.
Qed.

Lemma var_value_last_l : forall w p c k h s l, aruns (a_new P w p c k) h = Some s -> nameable l ->
  match last_write h l with
  | Some v => var_value s (var_of l) = Some v
  | None => var_value s (var_of l) = None \/ var_value s (var_of l) = Some f0
  end.
Proof.
  intros w p c k h s l H N. rewrite var_value_readl by exact N.
  assert (R0 : rel None (readl (a_new P w p c k) l)) by (left; apply readl_new).
  exact (aruns_rel h _ _ l None H R0).
Qed.

(** The gates' view of the table. *)
Lemma cells_cell2 : forall cols c r, cells cols (Z.of_nat c) (Z.of_nat r) = match cell2 cols c r with Some v => v | None => (f0 : F) end.
Proof.
  intros cols c r. unfold cells, get_col, cell2.
  destruct (Z.of_nat c <? 0) eqn:E1; [apply Z.ltb_lt in E1; lia|].
  destruct (Z.of_nat r <? 0) eqn:E2; [apply Z.ltb_lt in E2; lia|]. cbn. rewrite !Nat2Z.id. reflexivity.
Qed.

Lemma cells_neg : forall cols c r, c < 0 \/ r < 0 -> cells cols c r = f0 :> F.
Proof.
  intros cols c r H. unfold cells, get_col.
  destruct (c <? 0) eqn:E1; [reflexivity|]. destruct (r <? 0) eqn:E2; [reflexivity|].
  apply Z.ltb_ge in E1, E2. lia.
Qed.

Lemma sel_table_l : forall w p c k h s i r, aruns (a_new P w p c k) h = Some s ->
  a_table s CSel (Z.of_nat i) (Z.of_nat r) = match last_write h (LSel i r) with Some v => v | None => f0 end.
Proof.
  intros w p c k h s i r H. cbn [a_table]. rewrite cells_cell2.
  assert (R0 : rel None (readl (a_new P w p c k) (LSel i r))) by (left; apply readl_new).
  pose proof (aruns_rel h _ _ (LSel i r) None H R0) as R. unfold last_write.
  destruct (fold_left _ h None) as [v|]; cbn in R; [rewrite R; reflexivity|].
  destruct R as [-> | ->]; reflexivity.
Qed.

(** ** Allocated rows *)
Definition row_of (o : aop P) : option nat :=
  match o with AWitness _ r _ | AConstant _ r _ | AEnable _ r => Some r | _ => None end.

Lemma astep_rows : forall s s' o, astep s o = Some s' ->
  a_rows s' = match row_of o with Some r => Z.max (a_rows s) (Z.of_nat r + 1) | None => a_rows s end.
Proof.
  intros s s' o H. destruct o; cbn in *;
    try (match type of H with context [set_col ?a ?b ?c ?d] => destruct (set_col a b c d); [|discriminate] end);
    try (injection H as <-; reflexivity).
  destruct (find_const (a_bconst s) v); injection H as <-; reflexivity.
Qed.

Lemma aruns_rows : forall h s s', aruns s h = Some s' -> 0 <= a_rows s ->
  a_rows s <= a_rows s' /\
  (forall o r, In o h -> row_of o = Some r -> Z.of_nat r < a_rows s') /\
  (a_rows s' = a_rows s \/ exists o r, In o h /\ row_of o = Some r /\ a_rows s' = Z.of_nat r + 1).
Proof.
  induction h as [|o h IH]; intros s s' H H0; cbn in H.
  - injection H as <-. split; [lia|]. split; [intros o r []|auto].
  - destruct (astep s o) as [s1|] eqn:E; [|discriminate]. pose proof (astep_rows s s1 o E) as R.
    destruct (IH s1 s' H) as [I1 [I2 I3]]; [destruct (row_of o); lia|].
    split; [destruct (row_of o); lia|]. split.
    + intros o' r [<-|Hin] Er; [rewrite Er in R; lia|eauto].
    + destruct I3 as [I3|[o' [r [A [B D]]]]]; [|right; exists o', r; auto with datatypes].
      destruct (row_of o) as [r|] eqn:Er; [|left; lia].
      destruct (Z.le_gt_cases (Z.of_nat r + 1) (a_rows s)); [left; lia|].
      right. exists o, r. split; [left; reflexivity|]. split; [exact Er|lia].
Qed.

Lemma allocated_rows_l : forall w p c k h s, aruns (a_new P w p c k) h = Some s ->
  (forall o r, In o h -> row_of o = Some r -> Z.of_nat r < a_rows s) /\
  (a_rows s = 0 \/ exists o r, In o h /\ row_of o = Some r /\ a_rows s = Z.of_nat r + 1).
Proof.
  intros w p c k h s H. destruct (aruns_rows h _ _ H) as [_ [A B]]; [cbn; lia|]. auto.
Qed.

(** ** Batched constants and variables *)
Lemma find_const_spec : forall l (v : F),
  match find_const l v with
  | Some i => nth_error l i = Some v
  | None => ~ In v l
  end.
Proof.
  induction l as [|x l IH]; intros v; cbn; [tauto|].
  destruct (feqb x v) eqn:E; [apply feqb_eq in E; subst; reflexivity|].
  specialize (IH v). destruct (find_const l v); cbn; [exact IH|].
  intros [->|Hin]; [rewrite feqb_refl in E; discriminate|auto].
Qed.

Lemma find_const_lt : forall l (v : F) i, find_const l v = Some i -> (i < length l)%nat.
Proof. intros l v i H. pose proof (find_const_spec l v) as S. rewrite H in S. apply nth_error_Some. congruence. Qed.

Lemma find_const_app : forall l m (v : F) i, find_const l v = Some i -> find_const (l ++ m) v = Some i.
Proof.
  induction l as [|x l IH]; intros m v i H; cbn in *; [discriminate|].
  destruct (feqb x v); [exact H|]. destruct (find_const l v) eqn:E; [|discriminate].
  rewrite (IH m v n E). exact H.
Qed.

Lemma find_const_snoc : forall l (v : F), find_const l v = None -> find_const (l ++ [v]) v = Some (length l).
Proof.
  induction l as [|x l IH]; intros v H; cbn in *; [rewrite feqb_refl; reflexivity|].
  destruct (feqb x v); [discriminate|]. destruct (find_const l v) eqn:E; [discriminate|].
  rewrite IH by exact E. reflexivity.
Qed.

Lemma bconst_grows : forall h s s', aruns s h = Some s' -> exists m, a_bconst s' = a_bconst s ++ m.
Proof.
  induction h as [|o h IH]; intros s s' H; cbn in H.
  - injection H as <-. exists []. rewrite app_nil_r. reflexivity.
  - destruct (astep s o) as [s1|] eqn:E; [|discriminate]. destruct (IH s1 s' H) as [m Em].
    assert (E1 : exists m1, a_bconst s1 = a_bconst s ++ m1).
    { destruct o; cbn in E;
        try (match type of E with context [set_col ?a ?b ?c ?d] => destruct (set_col a b c d); [|discriminate] end);
        try (injection E as <-; exists []; rewrite app_nil_r; reflexivity).
      destruct (find_const (a_bconst s) v); injection E as <-; [exists []; rewrite app_nil_r|exists [v]]; reflexivity. }
    destruct E1 as [m1 E1]. exists (m1 ++ m). rewrite Em, E1, app_assoc. reflexivity.
Qed.

(** The variable a call returned keeps naming that constant. *)
Lemma batch_const_l : forall s v s1 h s2, astep s (AAddBatchConst v) = Some s1 -> aruns s1 h = Some s2 ->
  var_value s2 (batch_const_var s v) = Some v /\
  (forall v', batch_const_var s2 v' = batch_const_var s v <-> v' = v).
Proof.
  intros s v s1 h s2 H1 H2. destruct (bconst_grows h s1 s2 H2) as [m Em].
  assert (exists i, find_const (a_bconst s1) v = Some i /\ batch_const_var s v = mkVar bconst_index (Z.of_nat i) false CConst)
    as [i [Fi Ei]].
  { cbn in H1. unfold batch_const_var. destruct (find_const (a_bconst s) v) as [i|] eqn:Ef; injection H1 as <-.
    - exists i. auto.
    - exists (length (a_bconst s)). split; [apply find_const_snoc; exact Ef|reflexivity]. }
  assert (F2 : find_const (a_bconst s2) v = Some i) by (rewrite Em; apply find_const_app; exact Fi).
  pose proof (find_const_spec (a_bconst s2) v) as S2. rewrite F2 in S2.
  split.
  - rewrite Ei. unfold var_value. cbn [vidx vrot]. unfold priv_index, bpriv_index, bconst_index.
    rewrite (proj2 (Z.eqb_neq (2 ^ 64 - 3) (2 ^ 64 - 1))) by lia.
    rewrite (proj2 (Z.eqb_neq (2 ^ 64 - 3) (2 ^ 64 - 2))) by lia. rewrite Z.eqb_refl.
    unfold get_cell. destruct (Z.of_nat i <? 0) eqn:E2; [apply Z.ltb_lt in E2; lia|]. rewrite Nat2Z.id. exact S2.
  - intros v'. split; [|intros ->; unfold batch_const_var at 1; rewrite F2; symmetry; exact Ei].
    intros E. rewrite Ei in E. unfold batch_const_var in E. pose proof (find_const_spec (a_bconst s2) v') as S3.
    destruct (find_const (a_bconst s2) v') as [j|] eqn:Ej.
    + injection E as E. assert (j = i) by lia. subst j. congruence.
    + injection E as E. exfalso. pose proof (find_const_lt _ _ _ F2). lia.
Qed.

Lemma bpriv_grows : forall h s s' i x,
  aruns s h = Some s' -> nth_error (a_bpriv s) i = Some x ->
  (forall v, ~ In (ABatchPrivate i v) h) -> nth_error (a_bpriv s') i = Some x.
Proof.
  induction h as [|o h IH]; intros s s' i x H Hx N; cbn in H.
  - injection H as <-. exact Hx.
  - destruct (astep s o) as [s1|] eqn:E; [|discriminate]. apply (IH s1); auto.
    + destruct o; cbn in E;
        try (match type of E with context [set_col ?a ?b ?c ?d] => destruct (set_col a b c d); [|discriminate] end);
        try (injection E as <-; exact Hx).
      * injection E as <-. cbn. apply set_cell_other; [|exact Hx]. intros ->. apply (N v). left. reflexivity.
      * injection E as <-. cbn. rewrite nth_error_app1; [exact Hx|]. apply nth_error_Some. congruence.
      * destruct (find_const (a_bconst s) v); injection E as <-; exact Hx.
    + intros v Hin. apply (N v). right. exact Hin.
Qed.

Lemma bpriv_length : forall h s s', aruns s h = Some s' -> (length (a_bpriv s) <= length (a_bpriv s'))%nat.
Proof.
  induction h as [|o h IH]; intros s s' H; cbn in H.
  - injection H as <-. lia.
  - destruct (astep s o) as [s1|] eqn:E; [|discriminate]. specialize (IH s1 s' H).
    apply Nat.le_trans with (length (a_bpriv s1)); [|exact IH].
    destruct o; cbn in E;
      try (match type of E with context [set_col ?a ?b ?c ?d] => destruct (set_col a b c d); [|discriminate] end);
      try (injection E as <-; cbn; lia).
    + injection E as <-. cbn. unfold set_cell. rewrite upd_length, grow_length. lia.
    + injection E as <-. cbn. rewrite app_length. lia.
    + destruct (find_const (a_bconst s) v); injection E as <-; cbn; lia.
Qed.

Lemma batch_var_l : forall s v s1 h s2, astep s (AAddBatch v) = Some s1 -> aruns s1 h = Some s2 ->
  batch_var s2 <> batch_var s /\
  ((forall x, ~ In (ABatchPrivate (length (a_bpriv s)) x) h) -> var_value s2 (batch_var s) = Some v).
Proof.
  intros s v s1 h s2 H1 H2. cbn in H1. injection H1 as <-.
  pose proof (bpriv_length h _ _ H2) as Hl. cbn in Hl. rewrite app_length in Hl. cbn in Hl. split.
  - unfold batch_var. intros E. injection E as E. lia.
  - intros N. unfold var_value, batch_var. cbn [vidx vrot]. unfold priv_index, bpriv_index.
    rewrite (proj2 (Z.eqb_neq (2 ^ 64 - 2) (2 ^ 64 - 1))) by lia. rewrite Z.eqb_refl.
    unfold get_cell. destruct (Z.of_nat (length (a_bpriv s)) <? 0) eqn:E2; [apply Z.ltb_lt in E2; lia|].
    rewrite Nat2Z.id. eapply bpriv_grows; [exact H2| |exact N]. cbn.
    rewrite nth_error_app2, Nat.sub_diag by lia. reflexivity.
Qed.

End Proofs.
