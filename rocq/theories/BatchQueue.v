(** Proofs about the queue of batched component calls. *)
From Coq Require Import ZArith List Lia Bool.
From Verif Require Import Base Field Plonk AssignModel AssignProofs BatchModel BatchProofs.
Import ListNotations.
Open Scope Z_scope.

Section Queue.
Variable P : params.
Notation F := (F P).
Implicit Types s : astate P.
Variable before : list var -> list var -> bool.
Variable comps : nat -> bcomp P.
Notation add := (add_input before comps).
Notation runs := (qruns before comps).

Lemma vars_eqb_eq : forall a b, vars_eqb a b = true <-> a = b.
Proof.
  induction a as [|x a IH]; intros [|y b]; cbn [vars_eqb]; try (split; [discriminate|congruence]); try (split; reflexivity).
  rewrite andb_true_iff, var_eqb_eq, IH. split; [intros [-> ->]; reflexivity|intros E; injection E; auto].
Qed.
Lemma insert_In : forall e es x, In x (insert_entry before e es) <-> x = e \/ In x es.
Proof.
  intros e es x. induction es as [|y es IH]; cbn [insert_entry].
  - cbn. split; [intros [H|[]]; auto|intros [->|[]]; auto].
  - destruct (before (e_in e) (e_in y)); cbn [In]; [split; intros [H|H]; auto|]. rewrite IH. split; [intros [H|[H|H]]|intros [H|[H|H]]]; auto.
Qed.
Lemma find_In : forall es i e, find_entry es i = Some e -> In e es /\ e_in e = i.
Proof. intros es i e H. apply find_some in H. rewrite vars_eqb_eq in H. exact H. Qed.
Lemma find_no : forall es i e, find_entry es i = None -> In e es -> e_in e <> i.
Proof. intros es i e H HI E. pose proof (find_none _ _ H e HI) as N. cbn in N. rewrite (proj2 (vars_eqb_eq _ _) E) in N. discriminate. Qed.
Lemma mark_In : forall i es x, In x (mark_done i es) <->
  exists e, In e es /\ ((e_in e = i /\ x = mkE (e_in e) (e_res e) true) \/ (e_in e <> i /\ x = e)).
Proof.
  intros i es x. unfold mark_done. rewrite in_map_iff. split; intros [e H]; exists e.
  - destruct H as [H1 H2]. split; [exact H2|]. destruct (vars_eqb (e_in e) i) eqn:E.
    + left. apply vars_eqb_eq in E. auto.
    + right. split; [intros X; apply (proj2 (vars_eqb_eq _ _)) in X; congruence|auto].
  - destruct H as [H1 [[H2 ->]|[H2 ->]]]; (split; [|exact H1]); destruct (vars_eqb (e_in e) i) eqn:E; auto.
    + exfalso. rewrite (proj2 (vars_eqb_eq _ _) H2) in E. discriminate.
    + exfalso. apply vars_eqb_eq in E. contradiction.
Qed.

(** ** The batch store *)
Definition slot (s : astate P) (v : var) : Prop := bvar v /\ 0 <= vrot v < Z.of_nat (length (a_bpriv s)).
Definition same_rest (s s' : astate P) : Prop :=
  a_wit s' = a_wit s /\ a_pub s' = a_pub s /\ a_const s' = a_const s /\ a_sel s' = a_sel s /\ a_shared s' = a_shared s /\
  a_priv s' = a_priv s /\ a_bconst s' = a_bconst s /\ a_rows s' = a_rows s.

Lemma var_value_bvar : forall s v, bvar v -> var_value s v = get_cell (a_bpriv s) (vrot v).
Proof. intros s v [i ->]. reflexivity. Qed.
Lemma var_value_rest : forall s (s' : astate P) v, same_rest s s' -> vidx v <> bpriv_index -> var_value s' v = var_value s v.
Proof.
  intros s s' v [H1 [H2 [H3 [H4 [H5 [H6 [H7 H8]]]]]]] N. unfold var_value. rewrite H1, H2, H3, H5, H6, H7.
  destruct (vidx v =? priv_index); [reflexivity|]. destruct (Z.eqb_spec (vidx v) bpriv_index); [contradiction|]. reflexivity.
Qed.
Lemma var_value_store : forall s v, vidx v = bpriv_index -> var_value s v = get_cell (a_bpriv s) (vrot v).
Proof. intros s v E. unfold var_value. rewrite E. reflexivity. Qed.
Lemma get_cell_some : forall (l : list F) i x, get_cell l i = Some x -> 0 <= i < Z.of_nat (length l).
Proof.
  intros l i x H. unfold get_cell in H. destruct (i <? 0) eqn:E; [discriminate|]. apply Z.ltb_ge in E.
  assert (Z.to_nat i < length l)%nat by (apply nth_error_Some; congruence). lia.
Qed.

Lemma add_vars_spec : forall xs s s' vs, add_batch_vars s xs = (s', vs) ->
  same_rest s s' /\ a_bpriv s' = a_bpriv s ++ xs /\
  vs = map (fun n => mkVar bpriv_index (Z.of_nat (length (a_bpriv s) + n)) false CPub) (seq 0 (length xs)).
Proof.
  induction xs as [|x xs IH]; intros s s' vs H; cbn [add_batch_vars] in H.
  - injection H as <- <-. rewrite app_nil_r. repeat split.
  - destruct (add_batch_vars _ xs) as [s2 ws] eqn:E. injection H as <- <-. destruct (IH _ _ _ E) as [A [B C]].
    destruct A as [A1 [A2 [A3 [A4 [A5 [A6 [A7 A8]]]]]]]. cbn in *. split; [repeat split; assumption|]. split.
    + rewrite B, <- app_assoc. reflexivity.
    + unfold batch_var. rewrite Nat.add_0_r. f_equal. rewrite C, <- seq_shift, map_map. apply map_ext. intros n. rewrite app_length. cbn [length]. do 2 f_equal. lia.
Qed.
Lemma fresh_vars : forall (b : nat) n v, In v (map (fun n => mkVar bpriv_index (Z.of_nat (b + n)) false CPub) (seq 0 n)) ->
  bvar v /\ Z.of_nat b <= vrot v < Z.of_nat (b + n).
Proof. intros b n v H. apply in_map_iff in H. destruct H as [j [<- H]]. apply in_seq in H. cbn. split; [eexists; reflexivity|lia]. Qed.
Lemma fresh_nodup : forall (b : nat) n, NoDup (map (fun n => mkVar bpriv_index (Z.of_nat (b + n)) false CPub) (seq 0 n)).
Proof. intros b n. apply FinFun.Injective_map_NoDup; [|apply seq_NoDup]. intros x y E. injection E. lia. Qed.

Lemma fill_spec_q : forall vs xs s, (forall v, In v vs -> slot s v) -> length vs = length xs -> NoDup vs ->
  let s' := fill_vars s vs xs in
  same_rest s s' /\ length (a_bpriv s') = length (a_bpriv s) /\
  (forall n v x, nth_error vs n = Some v -> nth_error xs n = Some x -> get_cell (a_bpriv s') (vrot v) = Some x) /\
  (forall i, (forall v, In v vs -> vrot v <> i) -> get_cell (a_bpriv s') i = get_cell (a_bpriv s) i).
Proof.
  induction vs as [|v vs IH]; intros [|x xs] s HS HL ND; cbn in HL; try discriminate; cbv zeta; cbn [fill_vars].
  - split; [repeat split|]. split; [reflexivity|]. split; [intros [|n] v x H; discriminate|reflexivity].
  - inversion_clear ND as [|? ? NI ND'].
    set (s1 := mkA _ _ _ _ _ _ (set_cell (a_bpriv s) (Z.to_nat (vrot v)) x) _ _).
    destruct (HS v (or_introl eq_refl)) as [BV RV].
    assert (LEN : length (a_bpriv s1) = length (a_bpriv s)) by (unfold s1, set_cell; cbn; rewrite upd_length, grow_length; lia).
    assert (OTH : forall i, vrot v <> i -> get_cell (a_bpriv s1) i = get_cell (a_bpriv s) i).
    { intros i N. unfold get_cell. destruct (i <? 0) eqn:E; [reflexivity|]. apply Z.ltb_ge in E. unfold s1, set_cell. cbn [a_bpriv].
      rewrite nth_upd_other by lia. destruct (Nat.lt_ge_cases (Z.to_nat i) (length (a_bpriv s))) as [L|L]; [apply grow_nth; exact L|].
      assert (GL : length (grow (S (Z.to_nat (vrot v))) (a_bpriv s)) = length (a_bpriv s)) by (rewrite grow_length; lia).
      rewrite (proj2 (nth_error_None _ _)) by lia. symmetry. apply nth_error_None. exact L. }
    specialize (IH xs s1 ltac:(intros w Hw; destruct (HS w (or_intror Hw)) as [S1 S2]; split; [exact S1|rewrite LEN; exact S2]) ltac:(lia) ND').
    cbv zeta in IH. destruct IH as [A [B [C D]]]. split; [|split; [congruence|split]].
    + destruct A as [A1 [A2 [A3 [A4 [A5 [A6 [A7 A8]]]]]]]. repeat split; assumption.
    + intros [|n] w y H1 H2; cbn in H1, H2.
      * injection H1 as <-. injection H2 as <-. rewrite D.
        -- unfold get_cell. destruct (vrot v <? 0) eqn:E; [apply Z.ltb_lt in E; lia|]. apply set_cell_same.
        -- intros w Hw E. apply NI. destruct (HS w (or_intror Hw)) as [[i ->] _]. destruct BV as [j ->]. cbn in E. subst. exact Hw.
      * apply (C n w y H1 H2).
    + intros i Hi. rewrite D by (intros w Hw; apply Hi; right; exact Hw). apply OTH. apply Hi. left. reflexivity.
Qed.

(** ** Well-formed queues *)
Definition qwf (st : qstate P) : Prop :=
  let '(s, m) := st in
  (forall k e, In e (m k) -> length (e_res e) = length (b_out (comps k)) /\ NoDup (e_res e) /\ forall v, In v (e_res e) -> slot s v) /\
  (forall k e e', In e (m k) -> In e' (m k) -> e_in e = e_in e' -> e = e') /\
  (forall k k' e e' v, In e (m k) -> In e' (m k') -> In v (e_res e) -> In v (e_res e') -> k = k' /\ e = e') /\
  (forall k, NoDup (m k)).
Definition has (st : qstate P) (k : nat) (i vs : list var) : Prop := exists d, In (mkE i vs d) (snd st k).
Definition done (st : qstate P) (k : nat) (i vs : list var) : Prop := In (mkE i vs true) (snd st k).

Lemma b_outs_length : forall (B : bcomp P) xs, length (b_outs B xs) = length (b_out B).
Proof. intros. unfold b_outs. apply map_length. Qed.

Lemma insert_nodup : forall e es, ~ In e es -> NoDup es -> NoDup (insert_entry before e es).
Proof.
  intros e es N ND. induction es as [|y es IH]; cbn [insert_entry]; [constructor; [intros []|constructor]|].
  destruct (before (e_in e) (e_in y)); [constructor; assumption|]. inversion_clear ND as [|? ? NY ND'].
  constructor; [rewrite insert_In; intros [->|H]; [apply N; left; reflexivity|contradiction]|]. apply IH; [intros H; apply N; right; exact H|exact ND'].
Qed.

Lemma new_wf : forall s m k i d xs s' vs, qwf (s, m) -> find_entry (m k) i = None -> length xs = length (b_out (comps k)) ->
  add_batch_vars s xs = (s', vs) -> qwf (s', upd_batch m k (insert_entry before (mkE i vs d) (m k))) /\ (forall k' e v, In e (m k') -> In v (e_res e) -> ~ In v vs).
Proof.
  intros s m k i d xs s' vs [Q1 [Q2 [Q3 Q4]]] FN LX H. destruct (add_vars_spec _ _ _ _ H) as [SR [BP VS]].
  assert (FRESH : forall k' e v, In e (m k') -> In v (e_res e) -> ~ In v vs).
  { intros k' e v He Hv HV. rewrite VS in HV. apply fresh_vars in HV. destruct (Q1 k' e He) as [_ [_ S]]. destruct (S v Hv) as [_ R]. lia. }
  split; [|exact FRESH].
  assert (INV : forall k' e, In e (upd_batch m k (insert_entry before (mkE i vs d) (m k)) k') -> (k' = k /\ e = mkE i vs d) \/ In e (m k')).
  { intros k' e He. unfold upd_batch in He. destruct (k' =? k)%nat eqn:E; [|right; exact He]. apply Nat.eqb_eq in E. subst k'.
    apply insert_In in He. destruct He as [->|He]; auto. }
  split; [|split; [|split]].
  - intros k' e He. destruct (INV k' e He) as [[-> ->]|Ho].
    + cbn [e_res]. rewrite VS. rewrite map_length, seq_length. split; [exact LX|]. split; [apply fresh_nodup|].
      intros v Hv. apply fresh_vars in Hv. split; [apply Hv|]. rewrite BP, app_length. lia.
    + destruct (Q1 k' e Ho) as [A [B C]]. split; [exact A|]. split; [exact B|]. intros v Hv. destruct (C v Hv) as [C1 C2]. split; [exact C1|]. rewrite BP, app_length. lia.
  - intros k' e e' He He' EQ. destruct (INV k' e He) as [[E1 E2]|Ho], (INV k' e' He') as [[E3 E4]|Ho'].
    + congruence.
    + subst. exfalso. apply (find_no _ _ _ FN Ho'). symmetry. exact EQ.
    + subst. exfalso. apply (find_no _ _ _ FN Ho). exact EQ.
    + apply (Q2 k'); assumption.
  - intros k1 k2 e e' v He He' Hv Hv'. destruct (INV k1 e He) as [[E1 E2]|Ho], (INV k2 e' He') as [[E3 E4]|Ho'].
    + split; congruence.
    + subst. exfalso. apply (FRESH k2 e' v Ho' Hv'). exact Hv.
    + subst. exfalso. apply (FRESH k1 e v Ho Hv). exact Hv'.
    + apply (Q3 k1 k2 e e' v); assumption.
  - intros k'. unfold upd_batch. destruct (k' =? k)%nat; [|apply Q4]. apply insert_nodup; [|apply Q4].
    intros X. apply (find_no _ _ _ FN X). reflexivity.
Qed.

Lemma mark_wf : forall s s' m k i, qwf (s, m) -> length (a_bpriv s') = length (a_bpriv s) -> qwf (s', upd_batch m k (mark_done i (m k))).
Proof.
  intros s s' m k i [Q1 [Q2 [Q3 Q4]]] LEN.
  assert (INV : forall k' x, In x (upd_batch m k (mark_done i (m k)) k') -> exists e, In e (m k') /\ e_in x = e_in e /\ e_res x = e_res e /\
     x = (if (k' =? k)%nat && vars_eqb (e_in e) i then mkE (e_in e) (e_res e) true else e)).
  { intros k' x Hx. unfold upd_batch in Hx. destruct (k' =? k)%nat eqn:E; [|exists x; auto]. apply Nat.eqb_eq in E. subst k'.
    unfold mark_done in Hx. apply in_map_iff in Hx. destruct Hx as [e [<- He]]. exists e. cbn [andb]. destruct (vars_eqb (e_in e) i); auto. }
  split; [|split; [|split]].
  - intros k' x Hx. destruct (INV k' x Hx) as [e [He [_ [E _]]]]. rewrite E. destruct (Q1 k' e He) as [A [B C]]. split; [exact A|]. split; [exact B|].
    intros v Hv. destruct (C v Hv) as [C1 C2]. split; [exact C1|]. rewrite LEN. exact C2.
  - intros k' x x' Hx Hx' EQ. destruct (INV k' x Hx) as [e [He [E1 [_ E2]]]]. destruct (INV k' x' Hx') as [e' [He' [E1' [_ E2']]]].
    assert (e = e') by (apply (Q2 k'); [assumption|assumption|rewrite <- E1, EQ; exact E1']). subst e'. etransitivity; [exact E2|symmetry; exact E2'].
  - intros k1 k2 x x' v Hx Hx' Hv Hv'. destruct (INV k1 x Hx) as [e [He [_ [E1 E2]]]]. destruct (INV k2 x' Hx') as [e' [He' [_ [E1' E2']]]].
    rewrite E1 in Hv. rewrite E1' in Hv'. destruct (Q3 k1 k2 e e' v He He' Hv Hv') as [-> ->]. split; [reflexivity|]. etransitivity; [exact E2|symmetry; exact E2'].
  - intros k'. unfold upd_batch. destruct (k' =? k)%nat; [|apply Q4]. unfold mark_done.
    assert (INJ : forall l : list entry, NoDup l -> (forall a b, In a l -> In b l -> e_in a = e_in b -> a = b) ->
      NoDup (map (fun e => if vars_eqb (e_in e) i then mkE (e_in e) (e_res e) true else e) l)).
    { induction l as [|a l IH]; intros ND HU; [constructor|]. inversion_clear ND as [|? ? NA ND']. cbn [map]. constructor.
      - rewrite in_map_iff. intros [b [E Hb]]. apply NA. assert (EI : e_in b = e_in a).
        { apply (f_equal e_in) in E. destruct (vars_eqb (e_in a) i), (vars_eqb (e_in b) i); cbn in E; congruence. }
        rewrite (HU a b (or_introl eq_refl) (or_intror Hb) (eq_sym EI)). exact Hb.
      - apply IH; [exact ND'|]. intros x y Hx Hy. apply HU; right; assumption. }
    apply INJ; [apply Q4|]. intros a b Ha Hb. apply (Q2 k); assumption.
Qed.

Lemma has_insert : forall s s' m k i vs d k' i' vs', has (s, m) k' i' vs' -> has (s', upd_batch m k (insert_entry before (mkE i vs d) (m k))) k' i' vs'.
Proof.
  intros s s' m k i vs d k' i' vs' [d' H]. exists d'. cbn [snd] in *. unfold upd_batch. destruct (k' =? k)%nat eqn:E; [|exact H].
  apply Nat.eqb_eq in E. subst k'. apply insert_In. right. exact H.
Qed.
Lemma has_mark : forall s s' m k i k' i' vs', has (s, m) k' i' vs' -> has (s', upd_batch m k (mark_done i (m k))) k' i' vs'.
Proof.
  intros s s' m k i k' i' vs' [d' H]. cbn [snd] in *. unfold has. cbn [snd]. unfold upd_batch. destruct (k' =? k)%nat eqn:E; [|exists d'; exact H].
  apply Nat.eqb_eq in E. subst k'. destruct (vars_eqb i' i) eqn:EV.
  - exists true. apply mark_In. eexists. split; [exact H|]. left. cbn. apply vars_eqb_eq in EV. auto.
  - exists d'. apply mark_In. eexists. split; [exact H|]. right. cbn. split; [|reflexivity]. intros ->. rewrite (proj2 (vars_eqb_eq i i) eq_refl) in EV. discriminate.
Qed.

Lemma add_step : forall st k i b st' vs, qwf st -> add st k i b = Some (st', vs) ->
  qwf st' /\ has st' k i vs /\ (b = false -> done st' k i vs) /\
  (forall k' i' vs', has st k' i' vs' -> has st' k' i' vs') /\ (forall k' i' vs', done st k' i' vs' -> done st' k' i' vs').
Proof.
  intros [s m] k i b st' vs Q H. cbn [add_input] in H. destruct (find_entry (m k) i) as [e|] eqn:FE.
  - destruct (find_In _ _ _ FE) as [IE EI]. destruct e as [ei er ed]. cbn [e_in e_res e_done] in *. subst ei.
    destruct (ed || b) eqn:DB.
    + injection H as <- <-. split; [exact Q|]. split; [exists ed; exact IE|]. split; [|auto]. intros ->. rewrite orb_false_r in DB. subst ed. exact IE.
    + destruct (values s i) as [xs|] eqn:VX; [|discriminate]. injection H as <- <-.
      pose proof Q as [Q1 [Q2 [Q3 Q4]]]. destruct (Q1 k _ IE) as [L1 [L2 L3]]. cbn [e_res] in *.
      destruct (fill_spec_q er (b_outs (comps k) xs) s L3 ltac:(rewrite b_outs_length; exact L1) L2) as [SR [LEN _]].
      assert (DN : done (fill_vars s er (b_outs (comps k) xs), upd_batch m k (mark_done i (m k))) k i er).
      { unfold done. cbn [snd]. unfold upd_batch. rewrite Nat.eqb_refl. apply mark_In. eexists. split; [exact IE|]. left. auto. }
      split; [apply (mark_wf s); assumption|]. split; [exists true; exact DN|]. split; [auto|]. split; [intros; eapply has_mark; eassumption|].
      intros k' i' vs' HD. unfold done in *. cbn [snd] in *. unfold upd_batch. destruct (k' =? k)%nat eqn:E; [|exact HD].
      apply Nat.eqb_eq in E. subst k'. apply mark_In. exists (mkE i' vs' true). split; [exact HD|]. cbn [e_in e_res].
      destruct (vars_eqb i' i) eqn:EV; [left; apply vars_eqb_eq in EV; auto|right]. split; [|reflexivity]. intros ->. rewrite (proj2 (vars_eqb_eq i i) eq_refl) in EV. discriminate.
  - assert (G : forall d xs s' ws, length xs = length (b_out (comps k)) -> add_batch_vars s xs = (s', ws) ->
      qwf (s', upd_batch m k (insert_entry before (mkE i ws d) (m k))) /\ In (mkE i ws d) (upd_batch m k (insert_entry before (mkE i ws d) (m k)) k) /\
      (forall k' i' vs', has (s, m) k' i' vs' -> has (s', upd_batch m k (insert_entry before (mkE i ws d) (m k))) k' i' vs') /\
      (forall k' i' vs', done (s, m) k' i' vs' -> done (s', upd_batch m k (insert_entry before (mkE i ws d) (m k))) k' i' vs')).
    { intros d xs s' ws LX HA. split; [eapply new_wf; eassumption|]. split; [unfold upd_batch; rewrite Nat.eqb_refl; apply insert_In; left; reflexivity|].
      split; [intros; apply (has_insert s); assumption|]. intros k' i' vs' HD. unfold done in *. cbn [snd] in *. unfold upd_batch.
      destruct (k' =? k)%nat eqn:E; [|exact HD]. apply Nat.eqb_eq in E. subst k'. apply insert_In. right. exact HD. }
    destruct b.
    + destruct (add_batch_vars s _) as [s' ws] eqn:E in H. injection H as <- <-. destruct (G false _ s' ws ltac:(rewrite map_length; reflexivity) E) as [G1 [G2 G3]].
      split; [exact G1|]. split; [exists false; exact G2|]. split; [discriminate|exact G3].
    + destruct (values s i) as [xs|] eqn:VX; [|discriminate]. destruct (add_batch_vars s _) as [s' ws] eqn:E in H. injection H as <- <-.
      destruct (G true _ s' ws (b_outs_length _ _) E) as [G1 [G2 G3]]. split; [exact G1|]. split; [exists true; exact G2|]. split; [auto|exact G3].
Qed.

Lemma op_wf : forall s s' m o, qwf (s, m) -> astep s o = Some s' -> qwf (s', m).
Proof.
  intros s s' m o [Q1 [Q2 [Q3 Q4]]] H. assert (L : (length (a_bpriv s) <= length (a_bpriv s'))%nat) by (apply (bpriv_length P [o]); cbn; rewrite H; reflexivity).
  split; [|auto]. intros k e He. destruct (Q1 k e He) as [A [B C]]. split; [exact A|]. split; [exact B|].
  intros v Hv. destruct (C v Hv) as [C1 C2]. split; [exact C1|]. lia.
Qed.

(** ** Histories *)
Lemma runs_wf : forall h st st' rs, runs st h = Some (st', rs) -> qwf st ->
  qwf st' /\ length rs = length h /\
  (forall k i vs, has st k i vs -> has st' k i vs) /\ (forall k i vs, done st k i vs -> done st' k i vs) /\
  (forall n k i b vs, nth_error h n = Some (QAdd k i b) -> nth_error rs n = Some vs -> has st' k i vs /\ (b = false -> done st' k i vs)).
Proof.
  induction h as [|c h IH]; intros st st' rs H Q; cbn [qruns] in H.
  - injection H as <- <-. split; [exact Q|]. split; [reflexivity|]. split; [auto|]. split; [auto|]. intros [|n]; discriminate.
  - destruct c as [k i b|o].
    + destruct (add st k i b) as [[st1 vs]|] eqn:E; [|discriminate]. destruct (runs st1 h) as [[st2 r]|] eqn:E2; [|discriminate]. injection H as <- <-.
      destruct (add_step _ _ _ _ _ _ Q E) as [A1 [A2 [A3 [A4 A5]]]]. destruct (IH _ _ _ E2 A1) as [B1 [B2 [B3 [B4 B5]]]].
      split; [exact B1|]. split; [cbn; congruence|]. split; [auto|]. split; [auto|].
      intros [|n] k' i' b' vs' H1 H2; cbn in H1, H2; [|eapply B5; eassumption].
      injection H1 as <- <- <-. injection H2 as <-. auto.
    + destruct (astep (fst st) o) as [s1|] eqn:E; [|discriminate]. destruct (runs (s1, snd st) h) as [[st2 r]|] eqn:E2; [|discriminate]. injection H as <- <-.
      destruct st as [s m]. cbn [fst snd] in *. destruct (IH _ _ _ E2 (op_wf _ _ _ _ Q E)) as [B1 [B2 [B3 [B4 B5]]]].
      split; [exact B1|]. split; [cbn; congruence|]. split; [intros k i vs X; apply B3; exact X|]. split; [intros k i vs X; apply B4; exact X|].
      intros [|n] k' i' b' vs' H1 H2; cbn in H1, H2; [discriminate|eapply B5; eassumption].
Qed.
Lemma add_from : forall st k i b st' vs k' e, add st k i b = Some (st', vs) -> In e (snd st' k') ->
  (exists e0, In e0 (snd st k') /\ e_in e0 = e_in e) \/ (k' = k /\ e_in e = i).
Proof.
  intros [s m] k i b st' vs k' e H HE. cbn [add_input] in H.
  assert (INS : forall ws d, In e (upd_batch m k (insert_entry before (mkE i ws d) (m k)) k') -> (exists e0, In e0 (m k') /\ e_in e0 = e_in e) \/ (k' = k /\ e_in e = i)).
  { intros ws d X. unfold upd_batch in X. destruct (k' =? k)%nat eqn:E; [|left; eauto]. apply Nat.eqb_eq in E. apply insert_In in X.
    destruct X as [->|X]; [right; auto|left; subst; eauto]. }
  destruct (find_entry (m k) i) as [e1|] eqn:FE.
  - destruct (e_done e1 || b); [injection H as <- <-; left; eauto|]. destruct (values s i); [|discriminate]. injection H as <- <-.
    cbn [snd] in *. unfold upd_batch in HE. destruct (k' =? k)%nat eqn:E; [|left; eauto]. apply Nat.eqb_eq in E. apply mark_In in HE.
    destruct HE as [e0 [H0 [[E1 ->]|[E1 ->]]]]; left; exists e0; subst; auto.
  - destruct b.
    + destruct (add_batch_vars s _) in H. injection H as <- <-. eapply INS. exact HE.
    + destruct (values s i); [|discriminate]. destruct (add_batch_vars s _) in H. injection H as <- <-. eapply INS. exact HE.
Qed.
Lemma runs_from : forall h st st' rs k e, runs st h = Some (st', rs) -> In e (snd st' k) ->
  (exists e0, In e0 (snd st k) /\ e_in e0 = e_in e) \/ exists b, In (QAdd k (e_in e) b) h.
Proof.
  induction h as [|c h IH]; intros st st' rs k e H HE; cbn [qruns] in H.
  - injection H as <- <-. left. eauto.
  - destruct c as [k1 i b|o].
    + destruct (add st k1 i b) as [[st1 vs]|] eqn:E; [|discriminate]. destruct (runs st1 h) as [[st2 r]|] eqn:E2; [|discriminate]. injection H as <- <-.
      destruct (IH _ _ _ _ _ E2 HE) as [[e0 [H0 E0]]|[b' H0]]; [|right; exists b'; right; exact H0].
      destruct (add_from _ _ _ _ _ _ _ _ E H0) as [[e1 [H1 E1]]|[-> E1]]; [left; exists e1; split; congruence|].
      right. exists b. left. congruence.
    + destruct (astep (fst st) o) as [s1|] eqn:E; [|discriminate]. destruct (runs (s1, snd st) h) as [[st2 r]|] eqn:E2; [|discriminate]. injection H as <- <-.
      destruct (IH _ _ _ _ _ E2 HE) as [H0|[b' H0]]; [left; exact H0|right; exists b'; right; exact H0].
Qed.
Lemma empty_wf : forall s, qwf (s, fun _ => []).
Proof.
  intros s. split; [intros k e []|]. split; [intros k e e' []|]. split; [intros k k' e e' v []|]. intros k. constructor.
Qed.

Lemma has_unique : forall st k i vs vs', qwf st -> has st k i vs -> has st k i vs' -> vs = vs'.
Proof. intros [s m] k i vs vs' [_ [Q2 _]] [d H] [d' H']. assert (E : mkE i vs d = mkE i vs' d') by (apply (Q2 k); auto). congruence. Qed.
Lemma has_disjoint : forall st k i vs k' i' vs' v, qwf st -> has st k i vs -> has st k' i' vs' -> In v vs -> In v vs' -> k = k' /\ i = i'.
Proof.
  intros [s m] k i vs k' i' vs' v [_ [_ [Q3 _]]] [d H] [d' H'] HV HV'. destruct (Q3 k k' _ _ v H H' HV HV') as [-> E]. split; congruence.
Qed.

(** The batches of a well-formed queue meet the conditions of finalisation. *)
Definition batches (m : nat -> list entry) (ks : list nat) : list (bcomp P * list entry) := map (fun k => (comps k, m k)) ks.
Lemma nodup_app : forall A (a b : list A), NoDup a -> NoDup b -> (forall v, In v a -> ~ In v b) -> NoDup (a ++ b).
Proof.
  induction a as [|x a IH]; intros b NA NB D; cbn [app]; [exact NB|]. inversion_clear NA as [|? ? N NA']. constructor.
  - rewrite in_app_iff. intros [H|H]; [contradiction|]. apply (D x (or_introl eq_refl) H).
  - apply IH; [exact NA'|exact NB|]. intros v Hv. apply D. right. exact Hv.
Qed.
Lemma batches_wf : forall s m ks W, qwf (s, m) -> NoDup ks -> (forall k, In k ks -> 1 <= b_w (comps k) <= W) ->
  (forall k e, In e (m k) -> length (e_in e) = length (b_in (comps k)) /\ forall v, In v (e_in e) -> vrel v = false) ->
  wf_batches P W (batches m ks).
Proof.
  intros s m ks W [Q1 [Q2 [Q3 Q4]]] ND HW HI. split.
  - intros B es HB. apply in_map_iff in HB. destruct HB as [k [E HK]]. injection E as <- <-. split; [apply HW; exact HK|].
    intros e He. destruct (Q1 k e He) as [A [_ C]]. destruct (HI k e He) as [I1 I2]. split; [exact I1|]. split; [exact A|]. split; [|exact I2].
    intros v Hv. apply (C v Hv).
  - unfold batches. rewrite flat_map_concat_map, map_map, <- flat_map_concat_map. cbn [snd].
    assert (G : forall A B (f : A -> list B) l, NoDup l -> (forall a, In a l -> NoDup (f a)) ->
      (forall a b v, In a l -> In b l -> In v (f a) -> In v (f b) -> a = b) -> NoDup (flat_map f l)).
    { clear. intros A B f l. induction l as [|a l IH]; intros ND HF HD; cbn [flat_map]; [constructor|]. inversion_clear ND as [|? ? NA ND'].
      apply nodup_app; [apply HF; left; reflexivity| |].
      - apply IH; [exact ND'|intros b Hb; apply HF; right; exact Hb|]. intros x y v Hx Hy. apply HD; right; assumption.
      - intros v HV HV'. apply in_flat_map in HV'. destruct HV' as [b [Hb HV']]. apply NA.
        rewrite (HD a b v (or_introl eq_refl) (or_intror Hb) HV HV'). exact Hb. }
    apply G; [exact ND| |].
    + intros k _. apply G; [apply Q4|intros e He; apply (Q1 k e He)|]. intros e e' v He He' Hv Hv'. apply (Q3 k k e e' v); assumption.
    + intros k k' v _ _ Hv Hv'. apply in_flat_map in Hv. apply in_flat_map in Hv'. destruct Hv as [e [He Hv]]. destruct Hv' as [e' [He' Hv']].
      apply (Q3 k k' e e' v); assumption.
Qed.

(** ** Values *)
(** A result variable whose value has not been computed yet. *)
Definition pending (st : qstate P) (v : var) : Prop := exists k e, In e (snd st k) /\ e_done e = false /\ In v (e_res e).
(** Assignment calls do not use values that are not there yet, and other writes
    do not change a value that has been read. *)
Definition careful (st : qstate P) (c : qcall P) : Prop :=
  match c with
  | QAdd k i b => b = false -> forall v, In v i -> ~ exists w, pending st w /\ vidx v = vidx w /\ vrot v = vrot w
  | QOp o => forall s' v x, astep (fst st) o = Some s' -> var_value (fst st) v = Some x -> var_value s' v = Some x
  end.
Fixpoint all_careful (st : qstate P) (h : list (qcall P)) : Prop :=
  match h with
  | [] => True
  | c :: h => careful st c /\ forall st' vs, runs st [c] = Some (st', vs) -> all_careful st' h
  end.
(** Every computed result is the component's result on the values of its inputs. *)
Definition consistent (st : qstate P) : Prop := forall k e, In e (snd st k) -> e_done e = true ->
  exists xs, values (fst st) (e_in e) = Some xs /\ values (fst st) (e_res e) = Some (b_outs (comps k) xs).
Definition settled (st : qstate P) : Prop := forall k e v, In e (snd st k) -> e_done e = true -> In v (e_in e) ->
  ~ exists w, pending st w /\ vidx v = vidx w /\ vrot v = vrot w.

Lemma values_ext : forall s s' vs xs, values s vs = Some xs -> (forall v x, In v vs -> var_value s v = Some x -> var_value s' v = Some x) -> values s' vs = Some xs.
Proof.
  intros s s' vs. induction vs as [|v vs IH]; intros xs H HE; cbn [values] in *; [exact H|].
  destruct (var_value s v) as [x|] eqn:EV; [|discriminate]. destruct (values s vs) as [ys|]; [|discriminate].
  rewrite (HE v x (or_introl eq_refl) EV), (IH ys eq_refl); [exact H|]. intros w y Hw. apply HE. right. exact Hw.
Qed.
Lemma values_nth : forall s vs xs, length vs = length xs -> (forall n v x, nth_error vs n = Some v -> nth_error xs n = Some x -> var_value s v = Some x) -> values s vs = Some xs.
Proof.
  intros s vs. induction vs as [|v vs IH]; intros [|x xs] HL H; cbn in HL; try discriminate; cbn [values]; [reflexivity|].
  rewrite (H O v x eq_refl eq_refl), (IH xs); [reflexivity|lia|]. intros n w y H1 H2. apply (H (S n)); assumption.
Qed.
Lemma values_In : forall s vs xs v, values s vs = Some xs -> In v vs -> exists x, var_value s v = Some x.
Proof.
  intros s vs. induction vs as [|w vs IH]; intros xs v H HI; [destruct HI|]. cbn [values] in H. destruct HI as [->|HI].
  - destruct (var_value s v) as [x|]; [|discriminate]. eauto.
  - destruct (var_value s w); [|discriminate]. destruct (values s vs) as [ys|]; [|discriminate]. eapply IH; eauto.
Qed.

Lemma grow_value : forall s s' xs v x, same_rest s s' -> a_bpriv s' = a_bpriv s ++ xs -> var_value s v = Some x -> var_value s' v = Some x.
Proof.
  intros s s' xs v x SR BP H. destruct (Z.eq_dec (vidx v) bpriv_index) as [E|E].
  - rewrite var_value_store in H |- * by exact E. pose proof (get_cell_some _ _ _ H) as R. rewrite BP. unfold get_cell in *.
    destruct (vrot v <? 0); [exact H|]. rewrite nth_error_app1 by lia. exact H.
  - rewrite (var_value_rest s s'); assumption.
Qed.

Lemma step_values : forall st k i b st' vs, qwf st -> consistent st -> settled st -> careful st (QAdd k i b) ->
  add st k i b = Some (st', vs) -> consistent st' /\ settled st'.
Proof.
  intros [s m] k i b st' vs Q CO SE CA H. pose proof Q as [Q1 [Q2 [Q3 Q4]]]. cbn [add_input] in H.
  destruct (find_entry (m k) i) as [e|] eqn:FE.
  - destruct (find_In _ _ _ FE) as [IE EI]. destruct e as [ei er ed]. cbn [e_in e_res e_done] in *. subst ei.
    destruct (ed || b) eqn:DB; [injection H as <- <-; auto|]. apply orb_false_iff in DB. destruct DB as [-> ->].
    destruct (values s i) as [xs|] eqn:VX; [|discriminate]. injection H as <- <-. specialize (CA eq_refl).
    destruct (Q1 k _ IE) as [L1 [L2 L3]]. cbn [e_res] in *.
    destruct (fill_spec_q er (b_outs (comps k) xs) s L3 ltac:(rewrite b_outs_length; exact L1) L2) as [SR [LEN [SET OTH]]].
    set (s' := fill_vars s er (b_outs (comps k) xs)) in *.
    assert (PV : forall v, In v er -> pending (s, m) v) by (intros v Hv; exists k; eexists; split; [exact IE|auto]).
    assert (KEEP : forall v x, (~ exists w, pending (s, m) w /\ vidx v = vidx w /\ vrot v = vrot w) -> var_value s v = Some x -> var_value s' v = Some x).
    { intros v x NP HV. destruct (Z.eq_dec (vidx v) bpriv_index) as [E|E]; [|rewrite (var_value_rest s s'); assumption].
      rewrite var_value_store in HV |- * by exact E. rewrite OTH; [exact HV|]. intros w Hw EW. apply NP. exists w. split; [apply PV; exact Hw|].
      destruct (L3 w Hw) as [[j ->] _]. cbn in *. auto. }
    assert (PD : forall w, pending (s', upd_batch m k (mark_done i (m k))) w -> pending (s, m) w).
    { intros w [k' [x [Hx [D Hw]]]]. cbn [snd] in *. unfold upd_batch in Hx. destruct (k' =? k)%nat eqn:E; [|exists k', x; auto].
      apply mark_In in Hx. destruct Hx as [e [He [[_ ->]|[_ ->]]]]; [discriminate|]. exists k, e. auto. }
    assert (INV : forall k' x, In x (upd_batch m k (mark_done i (m k)) k') -> (k' = k /\ x = mkE i er true) \/ (In x (m k') /\ ~ (k' = k /\ e_in x = i))).
    { intros k' x Hx. unfold upd_batch in Hx. destruct (k' =? k)%nat eqn:E; [|right; split; [exact Hx|intros [-> _]; rewrite Nat.eqb_refl in E; discriminate]].
      apply Nat.eqb_eq in E. subst k'. apply mark_In in Hx. destruct Hx as [e [He [[E1 ->]|[E1 ->]]]].
      - left. split; [reflexivity|]. assert (e = mkE i er false) by (apply (Q2 k); auto). subst e. reflexivity.
      - right. split; [exact He|]. intros [_ X]. contradiction. }
    split.
    + intros k' x Hx D. cbn [fst snd] in *. destruct (INV k' x Hx) as [[-> ->]|[Ho NO]].
      * exists xs. cbn [e_in e_res]. split; [apply (values_ext s); [exact VX|]; intros v y Hv; apply KEEP; apply CA; exact Hv|].
        apply values_nth; [rewrite b_outs_length; exact L1|]. intros n v y H1 H2. destruct (L3 v (nth_error_In _ _ H1)) as [BV _].
        rewrite var_value_bvar by exact BV. eapply SET; eassumption.
      * destruct (CO k' x Ho D) as [ys [Y1 Y2]]. cbn [fst] in *. exists ys. split.
        -- apply (values_ext s); [exact Y1|]. intros v y Hv. apply KEEP. apply (SE k' x v); assumption.
        -- apply (values_ext s); [exact Y2|]. intros v y Hv. apply KEEP. intros [w [[k2 [e2 [P1 [P2 P3]]]] [E1 E2]]]. cbn [snd] in *.
           destruct (Q1 k' x Ho) as [_ [_ SX]]. destruct (SX v Hv) as [[j Ej] _]. destruct (Q1 k2 e2 P1) as [_ [_ S2]]. destruct (S2 w P3) as [[j2 Ej2] _].
           assert (v = w) by (subst v w; cbn in *; congruence). destruct (Q3 k' k2 x e2 v Ho P1 Hv ltac:(congruence)) as [_ ->]. congruence.
    + intros k' x v Hx D Hv [w [PW E]]. apply PD in PW. cbn [snd] in Hx. destruct (INV k' x Hx) as [[-> ->]|[Ho NO]].
      * cbn [e_in] in Hv. apply (CA v Hv). eauto.
      * apply (SE k' x v Ho D Hv). eauto.
  - assert (G : forall d ys s' ws, length ys = length (b_out (comps k)) -> add_batch_vars s ys = (s', ws) ->
      (d = true -> exists xs, values s i = Some xs /\ ys = b_outs (comps k) xs) ->
      (d = true -> forall v, In v i -> ~ exists w, pending (s, m) w /\ vidx v = vidx w /\ vrot v = vrot w) ->
      consistent (s', upd_batch m k (insert_entry before (mkE i ws d) (m k))) /\ settled (s', upd_batch m k (insert_entry before (mkE i ws d) (m k)))).
    { intros d ys s' ws LY HA HD HC. destruct (add_vars_spec _ _ _ _ HA) as [SR [BP VS]].
      assert (KEEP : forall v x, var_value s v = Some x -> var_value s' v = Some x) by (intros v x HV; eapply grow_value; eassumption).
      assert (INV : forall k' e, In e (upd_batch m k (insert_entry before (mkE i ws d) (m k)) k') -> (k' = k /\ e = mkE i ws d) \/ In e (m k')).
      { intros k' e He. unfold upd_batch in He. destruct (k' =? k)%nat eqn:E; [|right; exact He]. apply Nat.eqb_eq in E. subst k'.
        apply insert_In in He. destruct He as [->|He]; auto. }
      split.
      - intros k' x Hx D. cbn [fst snd] in *. destruct (INV k' x Hx) as [[-> ->]|Ho].
        + cbn in D. destruct (HD D) as [xs [X1 X2]]. exists xs. cbn [e_in e_res]. split; [apply (values_ext s); auto|].
          rewrite <- X2. apply values_nth; [rewrite VS, map_length, seq_length; reflexivity|]. intros n v y H1 H2.
          rewrite VS, nth_error_map in H1. assert (NL : (n < length ys)%nat) by (apply nth_error_Some; congruence).
          rewrite (nth_error_nth' _ O) in H1 by (rewrite seq_length; exact NL). rewrite seq_nth in H1 by exact NL. cbn in H1. injection H1 as <-.
          rewrite var_value_bvar by (eexists; reflexivity). cbn [vrot]. unfold get_cell. destruct (_ <? 0) eqn:E; [apply Z.ltb_lt in E; lia|].
          rewrite Nat2Z.id, BP, nth_error_app2 by lia. replace (length (a_bpriv s) + n - length (a_bpriv s))%nat with n by lia. exact H2.
        + destruct (CO k' x Ho D) as [xs [Y1 Y2]]. cbn [fst] in *. exists xs. split; apply (values_ext s); auto.
      - intros k' x v Hx D Hv [w [[k2 [e2 [P1 [P2 P3]]]] [E1 E2]]]. cbn [snd] in *.
        destruct (INV k2 e2 P1) as [[-> ->]|Po].
        + (* a fresh pending variable was not readable before *)
          cbn in P2, P3. subst d. rewrite VS in P3. apply fresh_vars in P3. destruct P3 as [[j Ej] RW].
          destruct (INV k' x Hx) as [[-> ->]|Ho]; [discriminate|]. destruct (CO k' x Ho D) as [xs [Y1 _]]. cbn [fst] in *.
          destruct (values_In _ _ _ _ Y1 Hv) as [y Hy]. rewrite var_value_store in Hy by (rewrite E1, Ej; reflexivity).
          apply get_cell_some in Hy. lia.
        + destruct (INV k' x Hx) as [[-> ->]|Ho].
          * cbn in D, Hv. apply (HC D v Hv). exists w. split; [exists k2, e2; auto|auto].
          * apply (SE k' x v Ho D Hv). exists w. split; [exists k2, e2; auto|auto]. }
    destruct b.
    + destruct (add_batch_vars s _) as [s' ws] eqn:E in H. injection H as <- <-. eapply G; [|exact E| |]; try discriminate. rewrite map_length. reflexivity.
    + destruct (values s i) as [xs|] eqn:VX; [|discriminate]. destruct (add_batch_vars s _) as [s' ws] eqn:E in H. injection H as <- <-.
      eapply G; [apply (b_outs_length (comps k) xs)|exact E| |]; [intros _; exists xs; auto|]. intros _. apply CA. reflexivity.
Qed.

Lemma runs_values : forall h st st' rs, runs st h = Some (st', rs) -> qwf st -> consistent st -> settled st -> all_careful st h -> consistent st' /\ settled st'.
Proof.
  induction h as [|c h IH]; intros st st' rs H Q CO SE AC; cbn [qruns] in H.
  - injection H as <- <-. auto.
  - destruct AC as [CA NX]. destruct c as [k i b|o].
    + cbn [qruns] in NX. destruct (add st k i b) as [[st1 vs]|] eqn:E; [|discriminate]. destruct (runs st1 h) as [[st2 r]|] eqn:E2; [|discriminate]. injection H as <- <-.
      destruct (step_values _ _ _ _ _ _ Q CO SE CA E) as [A B]. destruct (add_step _ _ _ _ _ _ Q E) as [Q' _].
      eapply IH; [exact E2|exact Q'|exact A|exact B|]. eapply NX. reflexivity.
    + cbn [qruns] in NX. destruct (astep (fst st) o) as [s1|] eqn:E; [|discriminate]. destruct (runs (s1, snd st) h) as [[st2 r]|] eqn:E2; [|discriminate]. injection H as <- <-.
      destruct st as [s m]. cbn [fst snd careful] in *.
      eapply IH; [exact E2|eapply op_wf; eassumption| | |eapply NX; reflexivity].
      * intros k e He D. cbn [fst snd] in *. destruct (CO k e He D) as [xs [X1 X2]]. cbn [fst] in *. exists xs. split; apply (values_ext s); eauto.
      * intros k e v He D Hv [w [[k2 [e2 PW]] EW]]. apply (SE k e v He D Hv). exists w. split; [exists k2, e2; exact PW|exact EW].
Qed.
End Queue.
