(** Proofs about programs of batched calls (EvalModel.v). *)
From Coq Require Import ZArith List Lia Bool Field.
From Verif Require Import Base Field Plonk PlonkFacts FieldOpsModel AssignModel AssignProofs BuilderModel BuilderProofs FinalizeModel FinalizeProofs BatchModel BatchProofs BatchQueue EvalModel.
Import ListNotations.
Open Scope Z_scope.

Section Proofs.
Variable P : params.
Notation F := (F P).
Notation table := (table P).
Notation expr := (expr P).
Add Field Ff : (F_field P) (morphism (F_morph P), constants [F_const], power_tac (F_power P) [F_pow_tac]).
Variable before : list var -> list var -> bool.
Variable comps : nat -> bcomp P.
Notation runs := (qruns before comps).
Notation exec := (exec before comps).
Notation qwf := (qwf P comps).
Notation has := (has P).
Notation done := (done P).

(** ** What an expression means for given values of its variables *)
Fixpoint meaning (g : var -> F) (e : expr) : F :=
  match e with
  | ETerm c vs => fmul c (fold_right fmul f1 (map g vs))
  | EPow e n => fpow (meaning g e) n
  | EBin OAdd a b => fadd (meaning g a) (meaning g b)
  | EBin OSub a b => fsub (meaning g a) (meaning g b)
  | EBin OMul a b => fmul (meaning g a) (meaning g b)
  end.
Lemma meaning_eval : forall (T : table) row e, eval T row e = meaning (gval T row) e.
Proof.
  intros T row. induction e as [c vs|e IH n|o a IHa b IHb]; cbn [eval meaning].
  - revert c. induction vs as [|v vs IH]; intros c; cbn [fold_left fold_right map]; [ring|]. rewrite IH. ring.
  - rewrite IH. reflexivity.
  - rewrite IHa, IHb. destruct o; reflexivity.
Qed.

(** ** Logs *)
Lemma exec_bind : forall A B (p : prog P A) (f : A -> prog P B) fc st,
  exec fc st (bind p f) =
  match exec fc st p with
  | Some (st1, h1, a) => match exec fc st1 (f a) with Some (st2, h2, b) => Some (st2, h1 ++ h2, b) | None => None end
  | None => None
  end.
Proof.
  intros A B p f fc. induction p as [a| |x k IH|c a b k IH]; intros st; cbn [bind EvalModel.exec].
  - destruct (exec fc st (f a)) as [[[st2 h2] b]|]; reflexivity.
  - reflexivity.
  - destruct (astep (fst st) (AAddBatchConst x)) as [s'|]; [|reflexivity]. rewrite IH.
    destruct (exec fc (s', snd st) (k _)) as [[[st1 h1] a]|]; [|reflexivity]. destruct (exec fc st1 (f a)) as [[[st2 h2] b]|]; reflexivity.
  - destruct (add_input before comps st c [a; b] fc) as [[st0 [|v vs]]|]; try reflexivity. rewrite IH.
    destruct (exec fc st0 (k v)) as [[[st1 h1] a']|]; [|reflexivity]. destruct (exec fc st1 (f a')) as [[[st2 h2] b']|]; reflexivity.
Qed.
Lemma exec_log : forall A (p : prog P A) fc st st' h a, exec fc st p = Some (st', h, a) -> exists rs, runs st h = Some (st', rs).
Proof.
  intros A p fc. induction p as [a| |x k IH|c a b k IH]; intros st st' h r H; cbn [EvalModel.exec] in H.
  - injection H as <- <- <-. exists []. reflexivity.
  - discriminate.
  - destruct (astep (fst st) (AAddBatchConst x)) as [s'|] eqn:E; [|discriminate].
    destruct (exec fc (s', snd st) (k _)) as [[[st1 h1] a']|] eqn:E2; [|discriminate]. injection H as <- <- <-.
    destruct (IH _ _ _ _ _ E2) as [rs R]. cbn [qruns]. rewrite E, R. eauto.
  - destruct (add_input before comps st c [a; b] fc) as [[st0 [|v vs]]|] eqn:E; try discriminate.
    destruct (exec fc st0 (k v)) as [[[st1 h1] a']|] eqn:E2; [|discriminate]. injection H as <- <- <-.
    destruct (IH _ _ _ _ _ E2) as [rs R]. cbn [qruns]. rewrite E, R. eauto.
Qed.
Lemma exec_flags : forall A (p : prog P A) fc st st' h a k i b, exec fc st p = Some (st', h, a) -> In (QAdd k i b) h -> b = fc.
Proof.
  intros A p fc. induction p as [a| |x kt IH|c a b0 kt IH]; intros st st' h r k i b H HI; cbn [EvalModel.exec] in H.
  - injection H as <- <- <-. destruct HI.
  - discriminate.
  - destruct (astep (fst st) (AAddBatchConst x)) as [s'|] eqn:E; [|discriminate].
    destruct (exec fc (s', snd st) (kt _)) as [[[st1 h1] a']|] eqn:E2; [|discriminate]. injection H as <- <- <-.
    destruct HI as [HI|HI]; [discriminate|eauto].
  - destruct (add_input before comps st c [a; b0] fc) as [[st0 [|v vs]]|] eqn:E; try discriminate.
    destruct (exec fc st0 (kt v)) as [[[st1 h1] a']|] eqn:E2; [|discriminate]. injection H as <- <- <-.
    destruct HI as [HI|HI]; [congruence|eauto].
Qed.

(** ** Growth *)
Definition le (st st' : qstate P) : Prop :=
  (forall k i vs, has st k i vs -> has st' k i vs) /\ exists l, a_bconst (fst st') = a_bconst (fst st) ++ l.
Lemma le_refl : forall st, le st st.
Proof. intros st. split; [auto|exists []; rewrite app_nil_r; reflexivity]. Qed.
Lemma le_trans : forall a b c, le a b -> le b c -> le a c.
Proof. intros a b c [H1 [l1 E1]] [H2 [l2 E2]]. split; [auto|]. exists (l1 ++ l2). rewrite E2, E1, app_assoc. reflexivity. Qed.
Lemma fill_bconst : forall vs xs (s : astate P), a_bconst (fill_vars s vs xs) = a_bconst s.
Proof. induction vs as [|v vs IH]; intros [|x xs] s; cbn [fill_vars]; try reflexivity. rewrite IH. reflexivity. Qed.
Lemma add_bconst : forall st k i b st' vs, add_input before comps st k i b = Some (st', vs) -> a_bconst (fst st') = a_bconst (fst st).
Proof.
  intros [s m] k i b st' vs H. cbn [add_input] in H. destruct (find_entry (m k) i) as [e|].
  - destruct (e_done e || b); [injection H as <- <-; reflexivity|]. destruct (values s i) as [xs|]; [|discriminate]. injection H as <- <-.
    cbn [fst]. apply fill_bconst.
  - destruct b.
    + destruct (add_batch_vars s _) as [s1 ws] eqn:E. injection H as <- <-. apply add_vars_spec in E. cbn [fst]. apply E.
    + destruct (values s i) as [xs|]; [|discriminate]. destruct (add_batch_vars s _) as [s1 ws] eqn:E. injection H as <- <-. apply add_vars_spec in E. cbn [fst]. apply E.
Qed.
Lemma step_bconst : forall (s s' : astate P) o, astep s o = Some s' -> exists l, a_bconst s' = a_bconst s ++ l.
Proof.
  intros s s' o H. assert (N : a_bconst s' = a_bconst s -> exists l, a_bconst s' = a_bconst s ++ l) by (intros ->; exists []; rewrite app_nil_r; reflexivity).
  destruct o; cbn [astep] in H;
    repeat match type of H with match ?x with _ => _ end = _ => destruct x; try discriminate H end; injection H as <-;
    solve [apply N; reflexivity|eexists; reflexivity].
Qed.
Lemma runs_le : forall h st st' rs, qwf st -> runs st h = Some (st', rs) -> qwf st' /\ le st st'.
Proof.
  intros h st st' rs Q H. destruct (runs_wf P before comps h _ _ _ H Q) as [Q' [_ [HH _]]]. split; [exact Q'|]. split; [exact HH|].
  clear Q Q' HH. revert st st' rs H. induction h as [|c h IH]; intros st st' rs H; cbn [qruns] in H.
  - injection H as <- <-. exists []. rewrite app_nil_r. reflexivity.
  - destruct c as [k i b|o].
    + destruct (add_input before comps st k i b) as [[st1 vs]|] eqn:E; [|discriminate]. destruct (runs st1 h) as [[st2 r]|] eqn:E2; [|discriminate]. injection H as <- <-.
      destruct (IH _ _ _ E2) as [l EL]. exists l. rewrite EL, (add_bconst _ _ _ _ _ _ E). reflexivity.
    + destruct (astep (fst st) o) as [s1|] eqn:E; [|discriminate]. destruct (runs (s1, snd st) h) as [[st2 r]|] eqn:E2; [|discriminate]. injection H as <- <-.
      destruct (IH _ _ _ E2) as [l EL]. destruct (step_bconst _ _ _ E) as [l0 E0]. cbn [fst] in EL. exists (l0 ++ l). rewrite EL, E0, app_assoc. reflexivity.
Qed.
Lemma exec_le : forall A (p : prog P A) fc st st' h a, qwf st -> exec fc st p = Some (st', h, a) -> qwf st' /\ le st st'.
Proof. intros A p fc st st' h a Q H. destruct (exec_log _ _ _ _ _ _ _ H) as [rs R]. eapply runs_le; eassumption. Qed.

(** The constant a batched constant variable stands for. *)
Definition const_at (s : astate P) (v : var) (x : F) : Prop :=
  exists j, v = mkVar bconst_index (Z.of_nat j) false CConst /\ nth_error (a_bconst s) j = Some x.
Lemma find_const_spec : forall (l : list F) x j, find_const l x = Some j -> nth_error l j = Some x /\ forall l', find_const (l ++ l') x = Some j.
Proof.
  induction l as [|y l IH]; intros x j H; cbn [find_const] in H; [discriminate|].
  destruct (feqb y x) eqn:E.
  - injection H as <-. apply feqb_eq in E. subst y. split; [reflexivity|]. intros l'. cbn [app find_const]. rewrite (proj2 (feqb_eq _ _ _) eq_refl). reflexivity.
  - destruct (find_const l x) as [n|] eqn:E2; [|discriminate]. injection H as <-. destruct (IH _ _ E2) as [A B]. split; [exact A|].
    intros l'. cbn [app find_const]. rewrite E, B. reflexivity.
Qed.
Lemma find_const_new : forall (l : list F) x l', find_const l x = None -> find_const ((l ++ [x]) ++ l') x = Some (length l).
Proof.
  induction l as [|y l IH]; intros x l' H; cbn [app find_const length] in *.
  - rewrite (proj2 (feqb_eq _ _ _) eq_refl). reflexivity.
  - destruct (feqb y x); [discriminate|]. destruct (find_const l x) eqn:E; [discriminate|]. rewrite IH by exact E. reflexivity.
Qed.
Lemma const_step : forall (s s' : astate P) x, astep s (AAddBatchConst x) = Some s' ->
  const_at s' (batch_const_var s x) x /\
  forall s2 l, a_bconst s2 = a_bconst s' ++ l -> batch_const_var s2 x = batch_const_var s x.
Proof.
  intros s s' x H. cbn [astep] in H. unfold batch_const_var. destruct (find_const (a_bconst s) x) as [j|] eqn:E; injection H as <-; cbn [a_bconst].
  - destruct (find_const_spec _ _ _ E) as [A B]. split; [exists j; auto|]. intros s2 l ->. rewrite B. reflexivity.
  - split.
    + exists (length (a_bconst s)). split; [reflexivity|]. cbn [a_bconst]. rewrite nth_error_app2, Nat.sub_diag by lia. reflexivity.
    + intros s2 l ->. rewrite find_const_new by exact E. reflexivity.
Qed.
Lemma const_at_le : forall st st' v x, le st st' -> const_at (fst st) v x -> const_at (fst st') v x.
Proof.
  intros st st' v x [_ [l E]] [j [EV N]]. exists j. split; [exact EV|]. rewrite E, nth_error_app1; [exact N|]. apply nth_error_Some. congruence.
Qed.

(** ** Readings *)
Definition opf (k : nat) : F -> F -> F := match k with O => fmul | 1%nat => fadd | _ => fsub end.
Section Reading.
Variable V : var -> F.
Fixpoint wp {A} (p : prog P A) (Q : A -> Prop) : Prop :=
  match p with
  | Ret a => Q a
  | Fail => True
  | Const x k => forall v, V v = x -> wp (k v) Q
  | Op c a b k => (c < 3)%nat /\ forall v, V v = opf c (V a) (V b) -> wp (k v) Q
  end.
Lemma wp_mono : forall A (p : prog P A) (Q Q' : A -> Prop), (forall a, Q a -> Q' a) -> wp p Q -> wp p Q'.
Proof.
  intros A p Q Q' HQ. induction p as [a| |x k IH|c a b k IH]; cbn [wp]; auto. intros [Hc H]. split; auto.
Qed.
Lemma wp_bind : forall A B (p : prog P A) (f : A -> prog P B) Q, wp p (fun a => wp (f a) Q) -> wp (bind p f) Q.
Proof.
  intros A B p f Q. induction p as [a| |x k IH|c a b k IH]; cbn [wp bind]; auto. intros [Hc H]. split; auto.
Qed.
(** The reading respects the calls of [h] and the constants. *)
Definition respects (h : list (qcall P)) (st : qstate P) : Prop :=
  (forall k a b fc o vs, (k < 3)%nat -> In (QAdd k [a; b] fc) h -> has st k [a; b] (o :: vs) -> V o = opf k (V a) (V b)) /\
  (forall v x, const_at (fst st) v x -> V v = x).
Lemma exec_wp : forall A (p : prog P A) fc st st' h a (Q : A -> Prop),
  qwf st -> exec fc st p = Some (st', h, a) -> respects h st' -> wp p Q -> Q a.
Proof.
  intros A p fc. induction p as [a| |x k IH|c a b k IH]; intros st st' h r Q W H [R1 R2] HW; cbn [EvalModel.exec wp] in *.
  - injection H as <- <- <-. exact HW.
  - discriminate.
  - destruct (astep (fst st) (AAddBatchConst x)) as [s'|] eqn:E; [|discriminate].
    destruct (exec fc (s', snd st) (k _)) as [[[st1 h1] a']|] eqn:E2; [|discriminate]. injection H as <- <- <-.
    destruct st as [s m]. cbn [fst snd] in *. pose proof (op_wf P comps _ _ _ _ W E) as W'. destruct (exec_le _ _ _ _ _ _ _ W' E2) as [_ LE].
    apply (IH _ _ _ _ _ Q W' E2).
    + split; [|exact R2]. intros. eapply R1; [eassumption|right; eassumption|eassumption].
    + apply HW. apply R2. eapply (const_at_le (s', m)); [exact LE|]. apply (proj1 (const_step _ _ _ E)).
  - destruct (add_input before comps st c [a; b] fc) as [[st0 [|v vs]]|] eqn:E; try discriminate.
    destruct (exec fc st0 (k v)) as [[[st1 h1] a']|] eqn:E2; [|discriminate]. injection H as <- <- <-.
    destruct (add_step P before comps _ _ _ _ _ _ W E) as [W' [HS _]]. destruct (exec_le _ _ _ _ _ _ _ W' E2) as [_ LE].
    destruct HW as [Hc HW]. apply (IH _ _ _ _ _ Q W' E2).
    + split; [|exact R2]. intros. eapply R1; [eassumption|right; eassumption|eassumption].
    + apply HW. eapply R1; [exact Hc|left; reflexivity|]. apply LE. exact HS.
Qed.

(** *** Meaning of the visitor *)
Variable mp : var -> option var.
Variable g : var -> F.
Lemma wp_vars : forall vs acc (Q : var -> Prop), (forall v u, In v vs -> mp v = Some u -> V u = g v) ->
  (forall o, V o = fmul (V acc) (fold_right fmul f1 (map g vs)) -> Q o) -> wp (ev_vars mp vs acc) Q.
Proof.
  induction vs as [|v vs IH]; intros acc Q HM HQ; cbn [ev_vars wp fold_right map] in *; [apply HQ; ring|].
  destruct (mp v) as [u|] eqn:E; [|exact I]. split; [unfold k_mul; lia|]. intros o HO. apply IH; [intros w z Hw; apply HM; right; exact Hw|].
  intros o' HO'. apply HQ. rewrite HO', HO. cbn [k_mul opf]. rewrite (HM v u (or_introl eq_refl) E). ring.
Qed.
Lemma wp_pow : forall fuel n res x (Q : var -> Prop), (1 <= n <= fuel)%nat ->
  (forall o, V o = fmul (V res) (fpow (V x) n) -> Q o) -> wp (ev_pow fuel n res x) Q.
Proof.
  induction fuel as [|fuel IH]; intros n res x Q HN HQ; [lia|]. cbn [ev_pow]. destruct (n <=? 1)%nat eqn:E1.
  - apply Nat.leb_le in E1. assert (n = 1)%nat by lia. subst n. split; [unfold k_mul; lia|]. intros o HO. apply HQ. rewrite HO. cbn [k_mul opf fpow]. ring.
  - apply Nat.leb_gt in E1. destruct (Nat.even n) eqn:EV; cbn [wp]; (split; [unfold k_mul; lia|]); intros o HO; cbn [k_mul opf] in HO.
    + apply Nat.even_spec in EV. destruct EV as [m Em]. subst n. replace (Nat.div2 (2 * m)) with m by (symmetry; apply Nat.div2_double).
      apply IH; [lia|]. intros o' HO'. apply HQ. rewrite HO', HO. replace (2 * m)%nat with (m + m)%nat by lia. rewrite fpow_add.
      f_equal. clear. induction m as [|m IH]; cbn [fpow]; [ring|]. rewrite IH. ring.
    + destruct n as [|n]; [lia|]. replace (S n - 1)%nat with n by lia. apply IH; [lia|]. intros o' HO'. apply HQ. rewrite HO', HO. cbn [fpow]. ring.
Qed.
Lemma wp_ev : forall (e : expr) (Q : var -> Prop), (forall v u, In v (evars e) -> mp v = Some u -> V u = g v) ->
  (forall o, V o = meaning g e -> Q o) -> wp (ev mp e) Q.
Proof.
  induction e as [c vs|e IH n|o a IHa b IHb]; intros Q HM HQ; cbn [ev evars] in *.
  - unfold ev_term. cbn [meaning] in HQ. destruct vs as [|v vs]; [intros o HO; apply HQ; rewrite HO; cbn [map fold_right]; ring|]. destruct (mp v) as [u|] eqn:E; [|exact I].
    pose proof (HM v u (or_introl eq_refl) E) as HU. cbn [fold_right map] in HQ. destruct (feqb c f1) eqn:EC.
    + apply feqb_eq in EC. subst c. apply wp_vars; [intros; apply HM; auto; right; assumption|]. intros o HO. apply HQ. rewrite HO, HU. ring.
    + intros k HK. split; [unfold k_mul; lia|]. intros p HP. apply wp_vars; [intros; apply HM; auto; right; assumption|]. intros o HO. apply HQ.
      rewrite HO, HP, HK. cbn [k_mul opf]. rewrite HU. ring.
  - destruct n as [|n]; [exact I|]. apply wp_bind. apply IH; [exact HM|]. intros x HX. destruct (S n =? 1)%nat eqn:E.
    + apply Nat.eqb_eq in E. injection E as ->. cbn [wp]. apply HQ. cbn [meaning fpow]. rewrite HX. ring.
    + intros one H1. apply wp_pow; [lia|]. intros o HO. apply HQ. rewrite HO, H1, HX. cbn [meaning]. ring.
  - apply wp_bind. apply IHa; [intros v u Hv; apply HM; apply in_or_app; auto|]. intros x HX. apply wp_bind. apply IHb; [intros v u Hv; apply HM; apply in_or_app; auto|].
    intros y HY. split; [destruct o; cbv; lia|]. intros z HZ. apply HQ. rewrite HZ, HX, HY. destruct o; reflexivity.
Qed.
End Reading.

(** ** Repetition *)
Definition erase (c : qcall P) : qcall P := match c with QAdd k i _ => QAdd k i false | c => c end.
Lemma exec_again : forall A (p : prog P A) fc fc' st st1 h a st2 st3 h' a',
  qwf st -> qwf st2 -> exec fc st p = Some (st1, h, a) -> le st1 st2 -> exec fc' st2 p = Some (st3, h', a') ->
  a' = a /\ map erase h' = map erase h.
Proof.
  intros A p fc fc'. induction p as [a| |x k IH|c a b k IH]; intros st st1 h r st2 st3 h' r' W W2 H LE H'; cbn [EvalModel.exec] in *.
  - injection H as <- <- <-. injection H' as <- <- <-. auto.
  - discriminate.
  - destruct (astep (fst st) (AAddBatchConst x)) as [s1|] eqn:E; [|discriminate].
    destruct (exec fc (s1, snd st) (k _)) as [[[t1 g1] r1]|] eqn:E1; [|discriminate]. injection H as <- <- <-.
    destruct (astep (fst st2) (AAddBatchConst x)) as [s2|] eqn:E2; [|discriminate].
    destruct (exec fc' (s2, snd st2) (k _)) as [[[t2 g2] r2]|] eqn:E3; [|discriminate]. injection H' as <- <- <-.
    destruct st as [s m]. destruct st2 as [s0 m0]. cbn [fst snd] in *.
    pose proof (op_wf P comps _ _ _ _ W E) as W'. pose proof (op_wf P comps _ _ _ _ W2 E2) as W2'.
    destruct (exec_le _ _ _ _ _ _ _ W' E1) as [Wt LE1].
    assert (EV : batch_const_var s0 x = batch_const_var s x).
    { destruct (le_trans _ _ _ LE1 LE) as [_ [l EL]]. apply (proj2 (const_step _ _ _ E) s0 l). exact EL. }
    rewrite EV in E3. refine ((fun X => _) (fun LL => IH _ _ _ _ _ _ _ _ _ W' W2' E1 LL E3)). destruct X as [-> EH].
    + apply (le_trans _ _ _ LE). split; [intros ? ? ? X; exact X|]. destruct (step_bconst _ _ _ E2) as [l EL]. exists l. exact EL.
    + split; [reflexivity|]. cbn [map]. rewrite EH. reflexivity.
  - destruct (add_input before comps st c [a; b] fc) as [[t [|v vs]]|] eqn:E; try discriminate.
    destruct (exec fc t (k v)) as [[[t1 g1] r1]|] eqn:E1; [|discriminate]. injection H as <- <- <-.
    destruct (add_input before comps st2 c [a; b] fc') as [[t' [|v' vs']]|] eqn:E2; try discriminate.
    destruct (exec fc' t' (k v')) as [[[t2 g2] r2]|] eqn:E3; [|discriminate]. injection H' as <- <- <-.
    destruct (add_step P before comps _ _ _ _ _ _ W E) as [W' [HS _]]. destruct (add_step P before comps _ _ _ _ _ _ W2 E2) as [W2' [HS2 [_ [MO _]]]].
    destruct (exec_le _ _ _ _ _ _ _ W' E1) as [Wt LE1].
    assert (EV : v' = v).
    { pose proof (MO _ _ _ (proj1 (le_trans _ _ _ LE1 LE) _ _ _ HS)) as HS'. pose proof (has_unique P comps _ _ _ _ _ W2' HS2 HS') as X. congruence. }
    subst v'. refine ((fun X => _) (fun LL => IH _ _ _ _ _ _ _ _ _ W' W2' E1 LL E3)). destruct X as [-> EH].
    + apply (le_trans _ _ _ LE). split; [exact MO|]. exists []. rewrite app_nil_r. apply (add_bconst _ _ _ _ _ _ E2).
    + split; [reflexivity|]. cbn [map erase]. rewrite EH. reflexivity.
Qed.

(** ** Definedness *)
Fixpoint uses {A} (K : var -> Prop) (p : prog P A) (Q : (var -> Prop) -> A -> Prop) : Prop :=
  match p with
  | Ret a => Q K a
  | Fail => False
  | Const x k => forall v, uses (fun u => K u \/ u = v) (k v) Q
  | Op c a b k => (c < 3)%nat /\ K a /\ K b /\ forall v, uses (fun u => K u \/ u = v) (k v) Q
  end.
Lemma uses_bind : forall A B (p : prog P A) (f : A -> prog P B) K Q, uses K p (fun K' a => uses K' (f a) Q) -> uses K (bind p f) Q.
Proof.
  intros A B p f K Q. revert K. induction p as [a| |x k IH|c a b k IH]; intros K; cbn [uses bind]; auto. intros [Hc [Ha [Hb H]]]. repeat split; auto.
Qed.
Definition internal (v : var) : Prop := (exists r, v = mkVar bpriv_index r false CPub) \/ exists r, v = mkVar bconst_index r false CConst.
Hypothesis ONE : forall k, (k < 3)%nat -> length (b_out (comps k)) = 1%nat.
Lemma add_out : forall st k i b st' vs, qwf st -> (k < 3)%nat -> add_input before comps st k i b = Some (st', vs) ->
  exists v, vs = [v] /\ exists r, v = mkVar bpriv_index r false CPub.
Proof.
  intros st k i b st' vs W Hk H. destruct (add_step P before comps _ _ _ _ _ _ W H) as [W' [[d HS] _]]. destruct st' as [s' m']. cbn [snd] in HS.
  destruct W' as [Q1 _]. destruct (Q1 _ _ HS) as [L [_ SL]]. cbn [e_res] in *. rewrite (ONE k Hk) in L.
  destruct vs as [|v [|? ?]]; try discriminate L. exists v. split; [reflexivity|]. destruct (SL v (or_introl eq_refl)) as [BV _]. exact BV.
Qed.
Lemma const_internal : forall (s : astate P) x, internal (batch_const_var s x).
Proof. intros s x. right. unfold batch_const_var. destruct (find_const _ _); eexists; reflexivity. Qed.
Lemma uses_inputs : forall A (p : prog P A) K Q fc st st' h a, qwf st -> uses K p Q -> exec fc st p = Some (st', h, a) ->
  forall k i b, In (QAdd k i b) h -> (k < 3)%nat /\ length i = 2%nat /\ forall v, In v i -> K v \/ internal v.
Proof.
  intros A p. induction p as [a| |x kt IH|c a b0 kt IH]; intros K Q fc st st' h r W U H k i b HI; cbn [EvalModel.exec uses] in *.
  - injection H as <- <- <-. destruct HI.
  - discriminate.
  - destruct (astep (fst st) (AAddBatchConst x)) as [s'|] eqn:E; [|discriminate].
    destruct (exec fc (s', snd st) (kt _)) as [[[st1 h1] a']|] eqn:E2; [|discriminate]. injection H as <- <- <-.
    destruct HI as [HI|HI]; [discriminate|]. destruct st as [s m]. cbn [fst snd] in *.
    destruct (IH _ _ _ _ _ _ _ _ (op_wf P comps _ _ _ _ W E) (U _) E2 _ _ _ HI) as [A1 [A2 A3]].
    split; [exact A1|]. split; [exact A2|]. intros v Hv. destruct (A3 v Hv) as [[X|X]|X]; auto. subst v. right. apply const_internal.
  - destruct U as [Hc [Ka [Kb U]]]. destruct (add_input before comps st c [a; b0] fc) as [[st0 [|v vs]]|] eqn:E; try discriminate.
    destruct (exec fc st0 (kt v)) as [[[st1 h1] a']|] eqn:E2; [|discriminate]. injection H as <- <- <-.
    destruct (add_step P before comps _ _ _ _ _ _ W E) as [W' _]. destruct (add_out _ _ _ _ _ _ W Hc E) as [v0 [EV BV]]. injection EV as <- ->.
    destruct HI as [HI|HI].
    + injection HI as <- <- <-. split; [exact Hc|]. split; [reflexivity|]. intros u [<-|[<-|[]]]; auto.
    + destruct (IH _ _ _ _ _ _ _ _ W' (U _) E2 _ _ _ HI) as [A1 [A2 A3]]. split; [exact A1|]. split; [exact A2|].
      intros u Hu. destruct (A3 u Hu) as [[X|X]|X]; auto. subst u. right. left. exact BV.
Qed.
Lemma uses_result : forall A (p : prog P A) (K : var -> Prop) Q fc st st' h a, qwf st -> uses K p Q -> exec fc st p = Some (st', h, a) ->
  exists K' : var -> Prop, (forall v, K' v -> K v \/ internal v) /\ Q K' a.
Proof.
  intros A p. induction p as [a| |x kt IH|c a b0 kt IH]; intros K Q fc st st' h r W U H; cbn [EvalModel.exec uses] in *.
  - injection H as <- <- <-. exists K. auto.
  - discriminate.
  - destruct (astep (fst st) (AAddBatchConst x)) as [s'|] eqn:E; [|discriminate].
    destruct (exec fc (s', snd st) (kt _)) as [[[st1 h1] a']|] eqn:E2; [|discriminate]. injection H as <- <- <-. destruct st as [s m]. cbn [fst snd] in *.
    destruct (IH _ _ _ _ _ _ _ _ (op_wf P comps _ _ _ _ W E) (U _) E2) as [K' [A1 A2]]. exists K'. split; [|exact A2].
    intros v Hv. destruct (A1 v Hv) as [[X|X]|X]; auto. subst v. right. apply const_internal.
  - destruct U as [Hc [Ka [Kb U]]]. destruct (add_input before comps st c [a; b0] fc) as [[st0 [|v vs]]|] eqn:E; try discriminate.
    destruct (exec fc st0 (kt v)) as [[[st1 h1] a']|] eqn:E2; [|discriminate]. injection H as <- <- <-.
    destruct (add_step P before comps _ _ _ _ _ _ W E) as [W' _]. destruct (add_out _ _ _ _ _ _ W Hc E) as [v0 [EV BV]]. injection EV as <- ->.
    destruct (IH _ _ _ _ _ _ _ _ W' (U _) E2) as [K' [A1 A2]]. exists K'. split; [|exact A2].
    intros u Hu. destruct (A1 u Hu) as [[X|X]|X]; auto. subst u. right. left. exact BV.
Qed.
Lemma const_total : forall (s : astate P) x, exists s', astep s (AAddBatchConst x) = Some s'.
Proof. intros s x. cbn [astep]. destruct (find_const (a_bconst s) x); eauto. Qed.
Lemma uses_circuit : forall A (p : prog P A) K Q st, qwf st -> uses K p Q -> exists st' h a, exec true st p = Some (st', h, a).
Proof.
  intros A p. induction p as [a| |x kt IH|c a b0 kt IH]; intros K Q st W U; cbn [EvalModel.exec uses] in *.
  - eauto.
  - contradiction.
  - destruct (const_total (fst st) x) as [s' E]. rewrite E. destruct st as [s m]. cbn [fst snd] in *.
    destruct (IH _ _ _ _ (op_wf P comps _ _ _ _ W E) (U (batch_const_var s x))) as [st' [h [r H]]]. rewrite H. eauto.
  - destruct U as [Hc [Ka [Kb U]]]. assert (X : exists y, add_input before comps st c [a; b0] true = Some y).
    { destruct st as [s m]. cbn [add_input]. destruct (find_entry (m c) [a; b0]) as [e|]; [rewrite orb_true_r; eauto|]. destruct (add_batch_vars s _) as [s1 ws]. eauto. }
    destruct X as [[st0 vs] E]. rewrite E. destruct (add_step P before comps _ _ _ _ _ _ W E) as [W' _]. destruct (add_out _ _ _ _ _ _ W Hc E) as [v [-> _]].
    destruct (IH _ _ _ _ W' (U v)) as [st' [h [r H]]]. rewrite H. eauto.
Qed.

(** *** Assignment *)
Definition clean (st : qstate P) (v : var) : Prop := ~ exists w, pending P st w /\ vidx v = vidx w /\ vrot v = vrot w.
Definition known (st : qstate P) (v : var) : Prop := (exists x, var_value (fst st) v = Some x) /\ clean st v.
Lemma values_known : forall st i, (forall v, In v i -> known st v) -> exists xs, values (fst st) i = Some xs.
Proof.
  intros st i. induction i as [|v i IH]; intros H; cbn [values]; [eauto|]. destruct (H v (or_introl eq_refl)) as [[x ->] _].
  destruct IH as [xs ->]; [intros; apply H; right; assumption|]. eauto.
Qed.
Lemma done_known : forall st k i vs v, qwf st -> consistent P comps st -> done st k i vs -> In v vs -> known st v.
Proof.
  intros [s m] k i vs v [Q1 [Q2 [Q3 Q4]]] CO D Hv. unfold BatchQueue.done in D. cbn [snd] in D. split.
  - destruct (CO k _ D eq_refl) as [xs [_ V]]. cbn [e_res] in V. eapply values_In; eassumption.
  - intros [w [[k' [e [He [Hd Hw]]]] [E1 E2]]]. cbn [snd] in He.
    destruct (Q1 k _ D) as [_ [_ S1]]. destruct (S1 v Hv) as [[r ->] _]. destruct (Q1 k' _ He) as [_ [_ S2]]. destruct (S2 w Hw) as [[r' ->] _].
    cbn in E2. subst r'. destruct (Q3 k k' _ _ _ D He Hv Hw) as [_ <-]. discriminate Hd.
Qed.
Lemma add_known : forall st k i, qwf st -> consistent P comps st -> settled P st -> (forall v, In v i -> known st v) ->
  exists st' vs, add_input before comps st k i false = Some (st', vs) /\ careful P st (QAdd k i false) /\
    (forall v, known st v -> known st' v /\ var_value (fst st') v = var_value (fst st) v) /\ forall v, In v vs -> known st' v.
Proof.
  intros st k i W CO SE HK. destruct (values_known st i HK) as [xs HX].
  assert (CA : careful P st (QAdd k i false)) by (intros _ v Hv; apply HK; exact Hv).
  assert (X : exists st' vs, add_input before comps st k i false = Some (st', vs) /\ forall v, known st v -> known st' v /\ var_value (fst st') v = var_value (fst st) v).
  { pose proof W as [Q1 [Q2 [Q3 Q4]]] || idtac. destruct st as [s m]. destruct W as [Q1 [Q2 [Q3 Q4]]]. cbn [add_input fst] in *. destruct (find_entry (m k) i) as [e|] eqn:FE.
    - destruct (e_done e) eqn:D; cbn [orb]; [do 2 eexists; split; [reflexivity|auto]|]. rewrite HX. do 2 eexists. split; [reflexivity|].
      destruct (find_In _ _ _ FE) as [IE EI]. destruct (Q1 _ _ IE) as [L1 [ND SL]].
      destruct (fill_spec_q P (e_res e) (b_outs (comps k) xs) s SL ltac:(rewrite b_outs_length; exact L1) ND) as [SR [_ [_ OTH]]].
      intros v [[x HV] CL]. assert (SAME : var_value (fill_vars s (e_res e) (b_outs (comps k) xs)) v = var_value s v).
      { destruct (Z.eq_dec (vidx v) bpriv_index) as [E|E]; [|apply var_value_rest; assumption]. rewrite !var_value_store by exact E. apply OTH.
        intros w Hw EW. apply CL. exists w. split; [exists k, e; auto|]. destruct (SL w Hw) as [[r ->] _]. auto. }
      cbn [fst] in *. split; [split; [exists x; cbn [fst]; congruence|]|exact SAME].
      intros [w [[k' [e' [He [Hd Hw]]]] EW]]. apply CL. exists w. split; [|exact EW]. cbn [snd] in He. unfold upd_batch in He.
      destruct (k' =? k)%nat eqn:EK; [|exists k', e'; auto]. apply Nat.eqb_eq in EK. subst k'. apply mark_In in He. destruct He as [e0 [H0 [[_ ->]|[_ ->]]]]; [discriminate Hd|].
      exists k, e0. auto.
    - rewrite HX. destruct (add_batch_vars s (b_outs (comps k) xs)) as [s1 ws] eqn:AV. do 2 eexists. split; [reflexivity|].
      destruct (add_vars_spec _ _ _ _ _ AV) as [SR [BP _]]. intros v [[x HV] CL]. cbn [fst] in *.
      pose proof (grow_value P _ _ _ _ _ SR BP HV) as HV'. split; [split; [exists x; exact HV'|]|congruence].
      intros [w [[k' [e' [He [Hd Hw]]]] EW]]. apply CL. exists w. split; [|exact EW]. cbn [snd] in He. unfold upd_batch in He.
      destruct (k' =? k)%nat eqn:EK; [|exists k', e'; auto]. apply Nat.eqb_eq in EK. subst k'. apply insert_In in He. destruct He as [->|He]; [discriminate Hd|].
      exists k, e'. auto. }
  destruct X as [st' [vs [E PR]]]. exists st', vs. split; [exact E|]. split; [exact CA|]. split; [exact PR|].
  intros v Hv. destruct (add_step P before comps _ _ _ _ _ _ W E) as [W' [_ [D _]]]. destruct (step_values P before comps _ _ _ _ _ _ W CO SE CA E) as [CO' _].
  eapply done_known; [exact W'|exact CO'|apply D; reflexivity|exact Hv].
Qed.
Lemma const_known : forall s m x s', qwf (s, m) -> astep s (AAddBatchConst x) = Some s' ->
  careful P (s, m) (QOp (AAddBatchConst x)) /\ (forall v, known (s, m) v -> known (s', m) v /\ var_value s' v = var_value s v) /\
  known (s', m) (batch_const_var s x).
Proof.
  intros s m x s' W E. assert (PR : forall v y, var_value s v = Some y -> var_value s' v = Some y).
  { intros v y HV. cbn [astep] in E. destruct (find_const (a_bconst s) x); injection E as <-; [exact HV|].
    unfold var_value in *. cbn [a_priv a_bpriv a_bconst a_shared a_pub a_wit a_const]. destruct (vidx v =? priv_index); [exact HV|]. destruct (vidx v =? bpriv_index); [exact HV|].
    destruct (vidx v =? bconst_index); [|exact HV]. unfold get_cell in *. destruct (vrot v <? 0); [exact HV|]. rewrite nth_error_app1; [exact HV|]. apply nth_error_Some. congruence. }
  split; [|split].
  - intros s2 v y E2 HV. cbn [fst] in *. rewrite E in E2. injection E2 as <-. apply PR. exact HV.
  - intros v [[y HV] CL]. cbn [fst] in *. split; [split; [exists y; apply PR; exact HV|exact CL]|]. rewrite HV. apply PR. exact HV.
  - destruct (proj1 (const_step _ _ _ E)) as [j [EV NV]]. rewrite EV. split.
    + exists x. cbn [fst]. unfold var_value. cbn [vidx vrot]. cbv [priv_index bpriv_index bconst_index]. cbn -[Z.of_nat get_cell a_bconst]. unfold get_cell.
      rewrite Nat2Z.id. destruct (Z.ltb_spec (Z.of_nat j) 0); [lia|]. exact NV.
    + intros [w [[k [e [He [_ Hw]]]] [E1 _]]]. cbn [snd] in He. destruct W as [Q1 _]. destruct (Q1 k e He) as [_ [_ SL]]. destruct (SL w Hw) as [[r ->] _]. discriminate E1.
Qed.
Lemma uses_assign : forall A (p : prog P A) (K : var -> Prop) Q st, qwf st -> consistent P comps st -> settled P st -> (forall v, K v -> known st v) -> uses K p Q ->
  exists st' h a (K' : var -> Prop), exec false st p = Some (st', h, a) /\ all_careful P before comps st h /\
    (forall v, known st v -> known st' v /\ var_value (fst st') v = var_value (fst st) v) /\
    (forall v, K' v -> known st' v) /\ Q K' a.
Proof.
  intros A p. induction p as [a| |x kt IH|c a b0 kt IH]; intros K Q st W CO SE HK U; cbn [EvalModel.exec uses] in *.
  - exists st, [], a, K. split; [reflexivity|]. split; [exact I|]. auto.
  - contradiction.
  - destruct (const_total (fst st) x) as [s' E]. destruct st as [s m]. cbn [fst snd] in *. rewrite E.
    destruct (const_known _ _ _ _ W E) as [CA [PR KN]].
    destruct (runs_values P before comps [QOp (AAddBatchConst x)] (s, m) (s', m) [[]]) as [CO' SE']; try assumption.
    { cbn [qruns fst snd]. rewrite E. reflexivity. } { split; [exact CA|]. intros; exact I. }
    destruct (IH (batch_const_var s x) (fun u => K u \/ u = batch_const_var s x) Q (s', m) (op_wf P comps _ _ _ _ W E) CO' SE') as [st' [h [r [K' [EX [AC [PR' [KN' HQ]]]]]]]].
    { intros v [HV|HV]; [apply PR, HK, HV|subst v; exact KN]. } { apply U. }
    rewrite EX. exists st', (QOp (AAddBatchConst x) :: h), r, K'. split; [reflexivity|]. split.
    { split; [exact CA|]. intros st2 vs R. cbn [qruns fst snd] in R. rewrite E in R. injection R as <- <-. exact AC. }
    split; [|auto]. intros v HV. destruct (PR v HV) as [K1 E1]. destruct (PR' v K1) as [K2 E2]. cbn [fst] in *. split; [exact K2|congruence].
  - destruct U as [Hc [Ka [Kb U]]]. destruct (add_known st c [a; b0] W CO SE) as [st1 [vs [E [CA [PR KN]]]]]; [intros v [<-|[<-|[]]]; auto|].
    rewrite E. destruct (add_step P before comps _ _ _ _ _ _ W E) as [W' _]. destruct (step_values P before comps _ _ _ _ _ _ W CO SE CA E) as [CO' SE'].
    destruct (add_out _ _ _ _ _ _ W Hc E) as [v [-> _]].
    destruct (IH v (fun u => K u \/ u = v) Q st1 W' CO' SE') as [st' [h [r [K' [EX [AC [PR' [KN' HQ]]]]]]]].
    { intros u [HU|HU]; [apply PR, HK, HU|subst u; apply KN; left; reflexivity]. } { apply U. }
    rewrite EX. exists st', (QAdd c [a; b0] false :: h), r, K'. split; [reflexivity|]. split.
    { split; [exact CA|]. intros st2 vs R. cbn [qruns] in R. rewrite E in R. injection R as <- <-. exact AC. }
    split; [|auto]. intros u HU. destruct (PR u HU) as [K1 E1]. destruct (PR' u K1) as [K2 E2]. split; [exact K2|congruence].
Qed.

(** Circuit calls do not disturb what is known. *)
Lemma circuit_known : forall A (p : prog P A) st st' h a, qwf st -> exec true st p = Some (st', h, a) ->
  all_careful P before comps st h /\ forall v, known st v -> known st' v /\ var_value (fst st') v = var_value (fst st) v.
Proof.
  intros A p. induction p as [a| |x kt IH|c a b0 kt IH]; intros st st' h r W H; cbn [EvalModel.exec] in H.
  - injection H as <- <- <-. split; [exact I|auto].
  - discriminate.
  - destruct (astep (fst st) (AAddBatchConst x)) as [s'|] eqn:E; [|discriminate].
    destruct (exec true (s', snd st) (kt _)) as [[[st1 h1] a']|] eqn:E2; [|discriminate]. injection H as <- <- <-. destruct st as [s m]. cbn [fst snd] in *.
    destruct (const_known _ _ _ _ W E) as [CA [PR _]]. destruct (IH _ _ _ _ _ (op_wf P comps _ _ _ _ W E) E2) as [AC PR']. split.
    + split; [exact CA|]. intros st2 vs R. cbn [qruns fst snd] in R. rewrite E in R. injection R as <- <-. exact AC.
    + intros v HV. destruct (PR v HV) as [K1 E1]. destruct (PR' v K1) as [K2 E3]. cbn [fst] in *. split; [exact K2|congruence].
  - destruct (add_input before comps st c [a; b0] true) as [[st0 [|v vs]]|] eqn:E; try discriminate.
    destruct (exec true st0 (kt v)) as [[[st1 h1] a']|] eqn:E2; [|discriminate]. injection H as <- <- <-.
    destruct (add_step P before comps _ _ _ _ _ _ W E) as [W' _]. destruct (IH _ _ _ _ _ W' E2) as [AC PR']. split.
    + split; [intros X; discriminate X|]. intros st2 ws R. cbn [qruns] in R. rewrite E in R. injection R as <- <-. exact AC.
    + intros u HU. assert (KN : known st0 u /\ var_value (fst st0) u = var_value (fst st) u).
      { destruct st as [s m]. cbn [add_input] in E. destruct (find_entry (m c) [a; b0]) as [e|] eqn:FE; [rewrite orb_true_r in E; injection E as <- _; auto|].
        destruct (add_batch_vars s _) as [s1 ws] eqn:AV. injection E as <- _. destruct (add_vars_spec _ _ _ _ _ AV) as [SR [BP VS]].
        destruct HU as [[x HV] CL]. cbn [fst] in *. pose proof (grow_value P _ _ _ _ _ SR BP HV) as HV'. split; [split; [exists x; exact HV'|]|congruence].
        intros [w [[k' [e' [He [Hd Hw]]]] [EW1 EW2]]]. cbn [snd] in He. unfold upd_batch in He.
        assert (OLD : In e' (m k') -> False) by (intros X; apply CL; exists w; split; [exists k', e'; auto|auto]).
        destruct (k' =? c)%nat eqn:EK; [|exact (OLD He)]. apply Nat.eqb_eq in EK. subst k'. apply insert_In in He. destruct He as [->|He]; [|exact (OLD He)].
        cbn [e_res] in Hw. rewrite VS in Hw. apply fresh_vars in Hw. destruct Hw as [[r0 ->] RG]. cbn in EW1, EW2, RG. rewrite var_value_store in HV by exact EW1.
        apply get_cell_some in HV. lia. }
      destruct KN as [K1 E1]. destruct (PR' u K1) as [K2 E3]. split; [exact K2|congruence].
Qed.
Lemma careful_app : forall h1 h2 st st1 rs, runs st h1 = Some (st1, rs) -> all_careful P before comps st h1 -> all_careful P before comps st1 h2 ->
  all_careful P before comps st (h1 ++ h2).
Proof.
  induction h1 as [|c h1 IH]; intros h2 st st1 rs R A1 A2; cbn [qruns app] in *; [injection R as <- <-; exact A2|].
  destruct A1 as [CA NX]. split; [exact CA|]. intros st' vs E. specialize (NX _ _ E). cbn [qruns] in E. destruct c as [k i b|o].
  - destruct (add_input before comps st k i b) as [[t ws]|]; [|discriminate]. injection E as <- <-. destruct (runs t h1) as [[t1 r]|] eqn:R1; [|discriminate]. injection R as <- <-.
    eapply IH; eassumption.
  - destruct (astep (fst st) o) as [t|]; [|discriminate]. injection E as <- <-. destruct (runs (t, snd st) h1) as [[t1 r]|] eqn:R1; [|discriminate]. injection R as <- <-.
    eapply IH; eassumption.
Qed.
Lemma runs_app : forall h1 h2 st st1 rs1 st2 rs2, runs st h1 = Some (st1, rs1) -> runs st1 h2 = Some (st2, rs2) -> runs st (h1 ++ h2) = Some (st2, rs1 ++ rs2).
Proof.
  induction h1 as [|c h1 IH]; intros h2 st st1 rs1 st2 rs2 R R2; cbn [qruns app] in *; [injection R as <- <-; exact R2|]. destruct c as [k i b|o].
  - destruct (add_input before comps st k i b) as [[t ws]|]; [|discriminate]. destruct (runs t h1) as [[t1 r]|] eqn:R1; [|discriminate]. injection R as <- <-.
    rewrite (IH _ _ _ _ _ _ R1 R2). reflexivity.
  - destruct (astep (fst st) o) as [t|]; [|discriminate]. destruct (runs (t, snd st) h1) as [[t1 r]|] eqn:R1; [|discriminate]. injection R as <- <-.
    rewrite (IH _ _ _ _ _ _ R1 R2). reflexivity.
Qed.
Lemma runs_split : forall h1 h2 st st2 rs, runs st (h1 ++ h2) = Some (st2, rs) -> exists st1 rs1 rs2, runs st h1 = Some (st1, rs1) /\ runs st1 h2 = Some (st2, rs2) /\ rs = rs1 ++ rs2.
Proof.
  induction h1 as [|c h1 IH]; intros h2 st st2 rs R; cbn [qruns app] in *; [exists st, [], rs; auto|]. destruct c as [k i b|o].
  - destruct (add_input before comps st k i b) as [[t ws]|]; [|discriminate]. destruct (runs t (h1 ++ h2)) as [[t1 r]|] eqn:R1; [|discriminate]. injection R as <- <-.
    destruct (IH _ _ _ _ R1) as [a [b1 [c [-> [H2 ->]]]]]. do 3 eexists. split; [reflexivity|]. split; [exact H2|reflexivity].
  - destruct (astep (fst st) o) as [t|]; [|discriminate]. destruct (runs (t, snd st) (h1 ++ h2)) as [[t1 r]|] eqn:R1; [|discriminate]. injection R as <- <-.
    destruct (IH _ _ _ _ R1) as [a [b1 [c [-> [H2 ->]]]]]. do 3 eexists. split; [reflexivity|]. split; [exact H2|reflexivity].
Qed.

(** *** The visitor is defined when its variables are mapped and its powers positive *)
Fixpoint pos_powers (e : expr) : Prop :=
  match e with
  | ETerm _ _ => True
  | EPow e n => (1 <= n)%nat /\ pos_powers e
  | EBin _ a b => pos_powers a /\ pos_powers b
  end.
Section Uses.
Variable mp : var -> option var.
Lemma uses_vars : forall vs acc (K : var -> Prop) (Q : (var -> Prop) -> var -> Prop), K acc -> (forall v, In v vs -> exists u, mp v = Some u /\ K u) ->
  (forall (K' : var -> Prop) o, (forall u, K u -> K' u) -> K' o -> Q K' o) -> uses K (ev_vars mp vs acc) Q.
Proof.
  induction vs as [|v vs IH]; intros acc K Q HA HM HQ; cbn [ev_vars uses]; [apply HQ; auto|].
  destruct (HM v (or_introl eq_refl)) as [u [-> KU]]. split; [unfold k_mul; lia|]. split; [exact HA|]. split; [exact KU|].
  intros o. apply IH; [auto|intros w Hw; destruct (HM w (or_intror Hw)) as [z [Z1 Z2]]; eauto|]. intros K' o' HK. apply HQ. auto.
Qed.
Lemma uses_pow : forall fuel n res x (K : var -> Prop) (Q : (var -> Prop) -> var -> Prop), (1 <= n <= fuel)%nat -> K res -> K x ->
  (forall (K' : var -> Prop) o, (forall u, K u -> K' u) -> K' o -> Q K' o) -> uses K (ev_pow fuel n res x) Q.
Proof.
  induction fuel as [|fuel IH]; intros n res x K Q HN HR HX HQ; [lia|]. cbn [ev_pow]. destruct (n <=? 1)%nat eqn:E1.
  - cbn [uses]. split; [unfold k_mul; lia|]. split; [exact HR|]. split; [exact HX|]. intros o. apply HQ; auto.
  - apply Nat.leb_gt in E1. destruct (Nat.even n) eqn:EV; cbn [uses]; (split; [unfold k_mul; lia|]); (split; [auto|]); (split; [auto|]); intros o.
    + apply Nat.even_spec in EV. destruct EV as [m Em]. subst n. replace (Nat.div2 (2 * m)) with m by (symmetry; apply Nat.div2_double).
      apply IH; [lia|auto|auto|]. intros K' o' HK. apply HQ. auto.
    + apply IH; [lia|auto|auto|]. intros K' o' HK. apply HQ. auto.
Qed.
Lemma uses_ev : forall (e : expr) (K : var -> Prop) (Q : (var -> Prop) -> var -> Prop), pos_powers e -> (forall v, In v (evars e) -> exists u, mp v = Some u /\ K u) ->
  (forall (K' : var -> Prop) o, (forall u, K u -> K' u) -> K' o -> Q K' o) -> uses K (ev mp e) Q.
Proof.
  induction e as [c vs|e IH n|o a IHa b IHb]; intros K Q HP HM HQ; cbn [ev evars pos_powers] in *.
  - unfold ev_term. destruct vs as [|v vs]; [intros o; apply HQ; auto|]. destruct (HM v (or_introl eq_refl)) as [u [-> KU]].
    destruct (feqb c f1).
    + apply uses_vars; [exact KU|intros w Hw; apply HM; right; exact Hw|exact HQ].
    + cbn [uses]. intros k. split; [unfold k_mul; lia|]. split; [auto|]. split; [auto|]. intros o. apply uses_vars; [auto| |].
      * intros w Hw. destruct (HM w (or_intror Hw)) as [z [Z1 Z2]]. eauto.
      * intros K' o' HK. apply HQ. auto.
  - destruct HP as [HN HP]. destruct n as [|n]; [lia|]. apply uses_bind. apply IH; [exact HP|exact HM|]. intros K1 x HK HX. destruct (S n =? 1)%nat eqn:E.
    + cbn [uses]. apply HQ; auto.
    + cbn [uses]. intros one. apply uses_pow; [lia|auto|auto|]. intros K' o HK'. apply HQ. auto.
  - destruct HP as [HPa HPb]. apply uses_bind. apply IHa; [exact HPa|intros v Hv; apply HM; apply in_or_app; auto|]. intros K1 x HK HX.
    apply uses_bind. apply IHb; [exact HPb| |].
    + intros v Hv. destruct (HM v) as [u [U1 U2]]; [apply in_or_app; auto|]. eauto.
    + intros K2 y HK2 HY. cbn [uses]. split; [destruct o; cbv; lia|]. split; [auto|]. split; [auto|]. intros z. apply HQ; auto.
Qed.
End Uses.
End Proofs.
