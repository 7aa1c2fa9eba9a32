(** Proofs about [finalize_constant_batches]. *)
From Coq Require Import ZArith List Lia Bool Sorted.
From Verif Require Import Base Field Plonk AssignModel AssignProofs BuilderModel BuilderProofs FinalizeModel.
Import ListNotations.
Open Scope Z_scope.

(** ** Marking *)
Lemma nth_upd_true : forall u i k, (i < length u)%nat -> nth k (upd u i true) false = if (k =? i)%nat then true else nth k u false.
Proof.
  induction u as [|b u IH]; intros i k H; cbn in H; [lia|]. destruct i as [|i], k as [|k]; cbn; try reflexivity.
  apply IH. lia.
Qed.
Lemma mark_none : forall l, fold_left mark l None = None.
Proof. induction l as [|i l IH]; [reflexivity|exact IH]. Qed.
Lemma mark_ok : forall l u u', Forall (fun i => 0 <= i) l -> fold_left mark l (Some u) = Some u' ->
  length u' = length u /\ (forall k, nth k u false = true -> nth k u' false = true) /\
  forall i, In i l -> i < Z.of_nat (length u) /\ nth (Z.to_nat i) u' false = true.
Proof.
  induction l as [|i l IH]; intros u u' H E; cbn [fold_left mark] in E.
  - injection E as <-. split; [reflexivity|]. split; [auto|]. intros i [].
  - inversion_clear H as [|? ? Hi Hl]. destruct (i <? Z.of_nat (length u)) eqn:EI; [apply Z.ltb_lt in EI|rewrite mark_none in E; discriminate].
    destruct (IH _ _ Hl E) as [A [B C]]. rewrite upd_length in A, C. split; [exact A|]. split.
    + intros k Hk. apply B. rewrite nth_upd_true by lia. destruct (k =? Z.to_nat i)%nat; [reflexivity|exact Hk].
    + intros j [->|Hj]; [|apply C; exact Hj]. split; [exact EI|]. apply B. rewrite nth_upd_true by lia. rewrite Nat.eqb_refl. reflexivity.
Qed.
Lemma mark_defined : forall l u, (forall i, In i l -> i < Z.of_nat (length u)) -> exists u', fold_left mark l (Some u) = Some u'.
Proof.
  induction l as [|i l IH]; intros u H; cbn [fold_left mark]; [eauto|].
  replace (i <? Z.of_nat (length u)) with true by (symmetry; apply Z.ltb_lt; apply H; left; reflexivity).
  apply IH. intros j Hj. rewrite upd_length. apply H. right. exact Hj.
Qed.

(** ** Slots *)
Lemma skip_ok : forall fuel u k, (length u <= k + fuel)%nat -> (k <= skip fuel u k)%nat /\ nth (skip fuel u k) u false = false.
Proof.
  induction fuel as [|f IH]; intros u k H; cbn [skip].
  - split; [lia|]. apply nth_overflow. lia.
  - destruct (nth k u false) eqn:E; [|split; [lia|exact E]]. destruct (IH u (S k) ltac:(lia)) as [A B]. split; [lia|exact B].
Qed.
Lemma slots_ok : forall n u k, length (slots n u k) = n /\ StronglySorted lt (slots n u k) /\
  forall x, In x (slots n u k) -> (k <= x)%nat /\ nth x u false = false.
Proof.
  induction n as [|n IH]; intros u k; cbn [slots].
  - split; [reflexivity|]. split; [constructor|intros x []].
  - destruct (skip_ok (length u) u k ltac:(lia)) as [A B]. set (k' := skip (length u) u k) in *.
    destruct (IH u (S k')) as [L [SS G]]. split; [cbn; lia|]. split.
    + constructor; [exact SS|]. apply Forall_forall. intros x Hx. apply G in Hx. lia.
    + intros x [<-|Hx]; [auto|]. apply G in Hx. split; [lia|tauto].
Qed.
Lemma sorted_nodup : forall l, StronglySorted lt l -> NoDup l.
Proof.
  induction 1 as [|x l H IH FA]; constructor; [|exact IH]. intros Hx. rewrite Forall_forall in FA. specialize (FA x Hx). lia.
Qed.
Lemma sorted_last : forall l x, StronglySorted lt l -> In x l -> (x <= last l 0)%nat.
Proof.
  induction l as [|y l IH]; intros x H Hx; [destruct Hx|]. inversion_clear H as [|? ? H' FA].
  destruct l as [|z l]; [destruct Hx as [<-|[]]; cbn; lia|]. change (last (y :: z :: l) 0%nat) with (last (z :: l) 0%nat).
  destruct Hx as [<-|Hx]; [|apply IH; assumption]. rewrite Forall_forall in FA.
  specialize (FA z (or_introl eq_refl)). specialize (IH z H' (or_introl eq_refl)). lia.
Qed.

Section Proofs.
Variable P : params.
Notation F := (F P).
Notation expr := (expr P).
Implicit Types s : astate P.

Lemma eval_vars_ext : forall (T T' : table P) r (e : expr), (forall v, In v (evars e) -> gval T r v = gval T' r v) -> eval T r e = eval T' r e.
Proof.
  intros T T' r e. induction e as [c vs|e IH n|o a IHa b IHb]; cbn [evars eval]; intros H.
  - revert c. induction vs as [|v vs IH]; intros c; cbn [fold_left]; [reflexivity|].
    rewrite (H v (or_introl eq_refl)). apply IH. intros w Hw. apply H. right. exact Hw.
  - rewrite IH by exact H. reflexivity.
  - rewrite IHa, IHb; [reflexivity| |]; intros v Hv; apply H; apply in_or_app; auto.
Qed.

(** ** Writing the constants *)
Definition writes (col start : nat) (l : list (nat * F)) : list (aop P) :=
  map (fun kv => AConstant col (start + fst kv) (snd kv)) l.
Lemma set_col_cells : forall cols cols' c r (v : F) c' r', set_col cols c r v = Some cols' ->
  ~ (c' = Z.of_nat c /\ r' = Z.of_nat r) -> cells cols' c' r' = cells cols c' r'.
Proof.
  intros cols cols' c r v c' r' H N.
  destruct (Z.lt_ge_cases c' 0) as [A|A]; [rewrite !cells_neg by auto; reflexivity|].
  destruct (Z.lt_ge_cases r' 0) as [B|B]; [rewrite !cells_neg by auto; reflexivity|].
  rewrite <- (Z2Nat.id c' A), <- (Z2Nat.id r' B), !cells_cell2.
  assert (N' : ~ (c = Z.to_nat c' /\ r = Z.to_nat r')) by (intros [-> ->]; apply N; rewrite !Z2Nat.id by lia; auto).
  destruct (cell2 P cols (Z.to_nat c') (Z.to_nat r')) as [x|] eqn:E1.
  - rewrite (set_col_other P _ _ _ _ _ _ _ x H N' E1). reflexivity.
  - destruct (cell2 P cols' (Z.to_nat c') (Z.to_nat r')) as [x|] eqn:E2; [|reflexivity].
    destruct (set_col_other_inv P _ _ _ _ _ _ _ x H N' E2) as [E3|[_ ->]]; [congruence|reflexivity].
Qed.
Lemma writes_run : forall col start l s s', aruns s (writes col start l) = Some s' -> NoDup (map fst l) ->
  (a_wit s' = a_wit s /\ a_pub s' = a_pub s /\ a_sel s' = a_sel s /\ a_shared s' = a_shared s /\ a_priv s' = a_priv s /\
   a_bpriv s' = a_bpriv s /\ a_bconst s' = a_bconst s) /\ a_rows s <= a_rows s' /\
  (forall c r, (c = Z.of_nat col -> forall k, In k (map fst l) -> r <> Z.of_nat (start + k)) ->
     cells (a_const s') c r = cells (a_const s) c r) /\
  (forall c r x, (c = col -> forall k, In k (map fst l) -> r <> (start + k)%nat) ->
     cell2 P (a_const s) c r = Some x -> cell2 P (a_const s') c r = Some x) /\
  (forall k v, In (k, v) l -> cell2 P (a_const s') col (start + k) = Some v).
Proof.
  intros col start l. induction l as [|[k v] l IH]; intros s s' E ND; cbn [writes map aruns] in E.
  - injection E as <-. repeat split; auto; try lia. intros k v [].
  - cbn [astep fst snd] in E. destruct (set_col (a_const s) col (start + k) v) as [cs|] eqn:ES; [|discriminate].
    cbn [map] in ND. inversion_clear ND as [|? ? NI ND'].
    destruct (IH _ _ E ND') as [[A1 [A2 [A3 [A4 [A5 [A6 A7]]]]]] [B [C [D G]]]].
    cbn [a_wit a_pub a_sel a_shared a_priv a_bpriv a_bconst a_rows a_const fst] in *.
    split; [auto 10|]. split; [unfold bump in B; lia|]. split; [|split].
    + intros c r H. rewrite C by (intros Hc k' Hk'; apply H; [exact Hc|right; exact Hk']).
      eapply set_col_cells; [exact ES|]. intros [Hc Hr]. apply (H Hc k); [left; reflexivity|exact Hr].
    + intros c r x H Hx. apply D; [intros Hc k' Hk'; apply H; [exact Hc|right; exact Hk']|].
      eapply set_col_other; [exact ES| |exact Hx]. intros [Hc Hr]. apply (H (eq_sym Hc) k); [left; reflexivity|auto].
    + intros k' v' [Eq|Hin]; [|apply G; exact Hin]. injection Eq as <- <-. apply D.
      * intros _ k' Hk' Eq. assert (k' = k) by lia. subst k'. apply NI. exact Hk'.
      * eapply set_col_same. exact ES.
Qed.
Lemma writes_defined : forall col start l s, nth_error (a_const s) col <> None -> exists s', aruns s (writes col start l) = Some s'.
Proof.
  intros col start l. induction l as [|[k v] l IH]; intros s H; cbn [writes map aruns]; [eauto|].
  cbn [astep fst snd]. unfold set_col. destruct (nth_error (a_const s) col) as [c0|] eqn:E; [|congruence].
  apply IH. cbn [a_const]. rewrite nth_upd_same; [discriminate|]. apply nth_error_Some. congruence.
Qed.

Lemma writes_col : forall col start l s s', aruns s (writes col start l) = Some s' -> l <> [] -> nth_error (a_const s) col <> None.
Proof.
  intros col start [|[k v] l] s s' H N; [congruence|]. cbn [writes map aruns astep fst snd] in H. unfold set_col in H.
  destruct (nth_error (a_const s) col); discriminate.
Qed.

(** ** The specification's side conditions *)
Definition small (v : var) : Prop := - 2 ^ 31 <= vrot v < 2 ^ 31.
(** Selector columns hold zeros and ones on allocated rows. *)
Definition tidy s : Prop :=
  0 <= a_rows s < 2 ^ 62 /\ (forall cs, In cs (a_const s) -> Z.of_nat (length cs) < 2 ^ 62) /\
  Z.of_nat (length (a_const s)) < bconst_index /\
  forall sel cl, nth_error (a_sel s) sel = Some cl -> Z.of_nat (length cl) <= a_rows s /\ forall x, In x cl -> x = f0 \/ x = f1.
(** A gate variable on the column is seen by the search on row [r]. *)
Definition tracked (col start : nat) (r : Z) (v : var) : Prop :=
  vty v = CConst -> vidx v = Z.of_nat col ->
  small v /\ vrel v = true /\
  (r + vrot v < Z.of_nat start \/ ((vrot v < 0 \/ Z.of_nat start <= vrot v) /\ Z.of_nat start - 1 <= r)).
Definition gates_tracked (c : cstate P) s (col start : nat) : Prop :=
  (forall sel cs e v r, In (sel, cs) (c_gates c) -> In e cs -> In v (evars e) ->
     a_table s CSel (Z.of_nat sel) (Z.of_nat r) = f1 -> tracked col start (Z.of_nat r) v) /\
  (forall sel ls t es e v r, In (sel, ls) (c_lgates c) -> In (t, es) ls -> In e es -> In v (evars e) ->
     a_table s CSel (Z.of_nat sel) (Z.of_nat r) = f1 -> tracked col start (Z.of_nat r) v).
(** Options of dynamic lookup tables do not read the column. *)
Definition tables_clear (te : tenv P) (col : nat) : Prop :=
  forall t tag opts o e v, te t = Some (TDynamic tag opts) -> In o opts -> In e o -> In v (evars e) ->
    vty v = CConst -> vidx v <> Z.of_nat col.
(** Copy constraints name cells that have a value, and no selectors. *)
Definition copies_read (c : cstate P) s : Prop :=
  forall a b x, In (a, b) (c_copies c) -> x = a \/ x = b -> vty x <> CSel /\ exists y, var_value s x = Some y.

(** ** Main argument *)
Lemma enabled_rows_In : forall s start sel (r : nat), start - 1 <= Z.of_nat r -> a_table s CSel (Z.of_nat sel) (Z.of_nat r) = f1 ->
  In (Z.of_nat r) (enabled_rows s start sel).
Proof.
  intros s start sel r H E. unfold enabled_rows. pose proof (nth_cells P s sel r) as N. cbn zeta in N.
  set (cl := match nth_error (a_sel s) sel with Some c => c | None => [] end) in *. rewrite <- N in E.
  apply filter_In. split.
  - apply in_map. apply in_seq. destruct (Nat.lt_ge_cases r (length cl)) as [A|A]; [lia|].
    rewrite nth_overflow in E by exact A. exfalso. apply (f1_neq_f0 P). auto.
  - rewrite Nat2Z.id. apply andb_true_iff. split; [apply Z.leb_le; exact H|]. apply feqb_eq. exact E.
Qed.
Lemma wrap64_small : forall z, 0 <= z < 2 ^ 64 -> wrap64 z = z.
Proof. intros z H. apply Z.mod_small. exact H. Qed.
Lemma wrap64_nonneg : forall z, 0 <= wrap64 z.
Proof. intros z. apply Z.mod_pos_bound. reflexivity. Qed.

Section Main.
Variables (c : cstate P) (s : astate P) (col start : nat) (u : list bool).
Hypothesis TD : tidy s.
Hypothesis START : (0 < start)%nat.
Hypothesis USED : used_constants c s col start = Some u.

Let size := match nth_error (a_const s) col with Some l => length l | None => O end.

Lemma size_small : Z.of_nat size < 2 ^ 62.
Proof.
  unfold size. destruct TD as [_ [H _]]. destruct (nth_error (a_const s) col) as [l|] eqn:E; [|reflexivity].
  apply H. eapply nth_error_In. exact E.
Qed.
Let allmarks := copy_marks c (Z.of_nat col) (Z.of_nat start) ++ gate_marks c s (Z.of_nat col) (Z.of_nat start) ++
  lookup_marks c s (Z.of_nat col) (Z.of_nat start).
Lemma marks_nonneg : Forall (fun i => 0 <= i) allmarks.
Proof.
  unfold allmarks. apply Forall_forall. intros i H. apply in_app_or in H. destruct H as [H|H]; [|apply in_app_or in H; destruct H as [H|H]].
  - unfold copy_marks in H. apply in_flat_map in H. destruct H as [ab [_ H]]. apply in_map_iff in H. destruct H as [v [<- _]]. apply wrap64_nonneg.
  - unfold gate_marks in H. apply in_flat_map in H. destruct H as [g [_ H]]. unfold rows_marks in H. apply in_flat_map in H. destruct H as [v [_ H]].
    apply in_map_iff in H. destruct H as [r [<- _]]. apply wrap64_nonneg.
  - unfold lookup_marks in H. apply in_flat_map in H. destruct H as [g [_ H]]. unfold rows_marks in H. apply in_flat_map in H. destruct H as [v [_ H]].
    apply in_map_iff in H. destruct H as [r [<- _]]. apply wrap64_nonneg.
Qed.
Lemma used_spec : (start < size)%nat -> forall i, In i allmarks -> i < Z.of_nat (size - start) /\ nth (Z.to_nat i) u false = true.
Proof.
  intros H i Hi. unfold used_constants in USED. fold size in USED. apply Nat.ltb_lt in H. rewrite H in USED.
  destruct (mark_ok _ _ _ marks_nonneg USED) as [A [_ B]]. rewrite repeat_length in B. apply B. exact Hi.
Qed.

(** A row of the column that a tracked gate variable reads is not a slot. *)
Lemma rows_marks_In : forall sel vs v r, In v vs -> vty v = CConst -> vidx v = Z.of_nat col ->
  Z.of_nat start <= wrap64 (vrot v) -> Z.of_nat start - 1 <= Z.of_nat r ->
  a_table s CSel (Z.of_nat sel) (Z.of_nat r) = f1 ->
  In (wrap64 (Z.of_nat r + vrot v - Z.of_nat start)) (rows_marks s (Z.of_nat col) (Z.of_nat start) sel vs).
Proof.
  intros sel vs v r Hv HT HI HW HR HE. unfold rows_marks. apply in_flat_map. exists v. split.
  - apply filter_In. split; [exact Hv|]. unfold var_check. rewrite HT, HI, Z.eqb_refl. cbn. apply Z.leb_le. exact HW.
  - apply in_map_iff. exists (Z.of_nat r). split; [reflexivity|]. apply enabled_rows_In; assumption.
Qed.
Lemma read_not_slot : forall sel vs v r k,
  (forall i, In i (rows_marks s (Z.of_nat col) (Z.of_nat start) sel vs) -> In i allmarks) ->
  In v vs -> vty v = CConst -> vidx v = Z.of_nat col -> tracked col start (Z.of_nat r) v -> Z.of_nat r < a_rows s ->
  a_table s CSel (Z.of_nat sel) (Z.of_nat r) = f1 -> nth k u false = false ->
  (start < size)%nat -> Z.of_nat r + vrot v <> Z.of_nat (start + k).
Proof.
  intros sel vs v r k SUB Hv HT HI TR HR HE HK HS EQ. destruct (TR HT HI) as [SM [_ [TR'|[TR1 TR2]]]]; [lia|].
  unfold small in SM. destruct TD as [RB _].
  assert (W : Z.of_nat start <= wrap64 (vrot v)).
  { destruct TR1 as [N|N].
    - unfold wrap64. rewrite <- (Z_mod_plus_full _ 1). rewrite Z.mod_small by lia. pose proof size_small. lia.
    - rewrite wrap64_small by lia. exact N. }
  pose proof (SUB _ (rows_marks_In sel vs v r Hv HT HI W TR2 HE)) as IN.
  rewrite wrap64_small in IN by lia. apply used_spec in IN; [|exact HS]. destruct IN as [_ IN].
  replace (Z.to_nat (Z.of_nat r + vrot v - Z.of_nat start)) with k in IN by lia. congruence.
Qed.

Variable s' : astate P.
Let ks := slots (length (a_bconst s)) u 0.
Hypothesis RUN : aruns s (writes col start (combine ks (a_bconst s))) = Some s'.

Lemma ks_length : length ks = length (a_bconst s).
Proof. apply slots_ok. Qed.
Lemma ks_fst : map fst (combine ks (a_bconst s)) = ks.
Proof.
  pose proof ks_length as L. revert L. generalize ks. generalize (a_bconst s). intros l. induction l as [|x l IH]; intros [|k l'] L; cbn in *; try discriminate; [reflexivity|].
  rewrite IH by lia. reflexivity.
Qed.
Lemma run_facts :
  (a_wit s' = a_wit s /\ a_pub s' = a_pub s /\ a_sel s' = a_sel s /\ a_shared s' = a_shared s /\ a_priv s' = a_priv s /\
   a_bpriv s' = a_bpriv s /\ a_bconst s' = a_bconst s) /\ a_rows s <= a_rows s' /\
  (forall c r, (c = Z.of_nat col -> forall k, In k ks -> r <> Z.of_nat (start + k)) ->
     cells (a_const s') c r = cells (a_const s) c r) /\
  (forall c r x, (c = col -> forall k, In k ks -> r <> (start + k)%nat) ->
     cell2 P (a_const s) c r = Some x -> cell2 P (a_const s') c r = Some x) /\
  (forall k v, In (k, v) (combine ks (a_bconst s)) -> cell2 P (a_const s') col (start + k) = Some v).
Proof.
  pose proof (writes_run col start _ s s' RUN) as W. rewrite ks_fst in W. apply W. apply sorted_nodup. apply slots_ok.
Qed.

(** Gate reads on enabled rows are unchanged when the column is longer than
    [start]; otherwise only rows below [start] exist. *)
Lemma gval_same : forall sel vs v r,
  (forall i, In i (rows_marks s (Z.of_nat col) (Z.of_nat start) sel vs) -> In i allmarks) ->
  In v vs -> tracked col start (Z.of_nat r) v -> Z.of_nat r < a_rows s ->
  a_table s CSel (Z.of_nat sel) (Z.of_nat r) = f1 ->
  ((size <= start)%nat -> vty v = CConst -> vidx v = Z.of_nat col -> Z.of_nat r + vrot v < Z.of_nat start) ->
  gval (a_table s') (Z.of_nat r) v = gval (a_table s) (Z.of_nat r) v.
Proof.
  intros sel vs v r SUB Hv TR HR HE HSZ. destruct run_facts as [[A1 [A2 [A3 [A4 [A5 [A6 A7]]]]]] [B [C [D G]]]].
  unfold gval. destruct (vty v) eqn:TY; cbn [a_table]; rewrite ?A1, ?A2, ?A3; try reflexivity.
  apply C. intros HI k Hk. destruct (TR TY HI) as [_ [RL _]]. rewrite RL.
  destruct (Nat.le_gt_cases size start) as [Z1|Z1].
  - specialize (HSZ Z1 eq_refl HI). lia.
  - eapply read_not_slot; try eassumption. apply slots_ok in Hk. apply Hk.
Qed.
Lemma gval_clear : forall v r, (vty v = CConst -> vidx v <> Z.of_nat col) -> gval (a_table s') r v = gval (a_table s) r v.
Proof.
  intros v r H. destruct run_facts as [[A1 [A2 [A3 [A4 [A5 [A6 A7]]]]]] [B [C [D G]]]].
  unfold gval. destruct (vty v) eqn:TY; cbn [a_table]; rewrite ?A1, ?A2, ?A3; try reflexivity.
  apply C. intros HI. exfalso. apply (H eq_refl HI).
Qed.

(** Values of variables in copy constraints. *)
Lemma get_col_cell2 : forall (cols : list (list F)) i r, 0 <= i -> 0 <= r -> get_col cols i r = cell2 P cols (Z.to_nat i) (Z.to_nat r).
Proof.
  intros cols i r Hi Hr. unfold get_col, cell2.
  destruct (i <? 0) eqn:E1; [apply Z.ltb_lt in E1; lia|]. destruct (r <? 0) eqn:E2; [apply Z.ltb_lt in E2; lia|]. reflexivity.
Qed.
Lemma get_col_Some : forall (cols : list (list F)) i r y, get_col cols i r = Some y ->
  0 <= i /\ 0 <= r /\ exists cl, nth_error cols (Z.to_nat i) = Some cl /\ nth_error cl (Z.to_nat r) = Some y.
Proof.
  intros cols i r y H. unfold get_col in H. destruct (i <? 0) eqn:E1; [discriminate|]. destruct (r <? 0) eqn:E2; [discriminate|].
  apply Z.ltb_ge in E1, E2. cbn in H. split; [exact E1|]. split; [exact E2|].
  destruct (nth_error cols (Z.to_nat i)) as [cl|]; [|discriminate]. exists cl. auto.
Qed.

Lemma copy_value : forall a b x y, In (a, b) (c_copies c) -> x = a \/ x = b -> vty x <> CSel ->
  nth_error (a_const s) col <> None ->
  var_value s x = Some y -> var_value s' (subst_const col start ks x) = Some y.
Proof.
  intros a b x y Hab Hx NS HC HV. destruct run_facts as [[A1 [A2 [A3 [A4 [A5 [A6 A7]]]]]] [B [C [D G]]]].
  destruct TD as [_ [_ [TB _]]].
  assert (COL : Z.of_nat col < bconst_index).
  { assert (col < length (a_const s))%nat by (apply nth_error_Some; exact HC). lia. }
  unfold subst_const.
  destruct ((vidx x =? bconst_index) && negb (vrel x) && ctype_eqb (vty x) CConst && (0 <=? vrot x)) eqn:ES.
  - rewrite !andb_true_iff, Z.eqb_eq, Z.leb_le in ES. destruct ES as [[[E1 _] _] E2].
    unfold var_value in HV. rewrite E1 in HV. change (bconst_index =? priv_index) with false in HV. change (bconst_index =? bpriv_index) with false in HV.
    rewrite Z.eqb_refl in HV. unfold get_cell in HV. destruct (vrot x <? 0) eqn:E3; [discriminate|].
    destruct (nth_error ks (Z.to_nat (vrot x))) as [k|] eqn:EK.
    + pose proof (G k y) as GK.
      assert (IN : In (k, y) (combine ks (a_bconst s))).
      { revert HV EK. generalize (Z.to_nat (vrot x)). clear. generalize (a_bconst s) ks. intros l l'. revert l.
        induction l' as [|k' l' IH]; intros [|y' l] n H1 H2; destruct n; cbn in *; try discriminate.
        - left. congruence.
        - right. eapply IH; eassumption. }
      specialize (GK IN). unfold var_value. cbn [vidx vty vrot].
      unfold priv_index, bpriv_index, bconst_index in *.
      destruct (Z.eqb_spec (Z.of_nat col) (2 ^ 64 - 1)); [lia|]. destruct (Z.eqb_spec (Z.of_nat col) (2 ^ 64 - 2)); [lia|].
      destruct (Z.eqb_spec (Z.of_nat col) (2 ^ 64 - 3)); [lia|]. rewrite get_col_cell2 by lia. rewrite !Nat2Z.id. exact GK.
    + exfalso. apply nth_error_None in EK. rewrite ks_length in EK. assert (Z.to_nat (vrot x) < length (a_bconst s))%nat by (apply nth_error_Some; congruence). lia.
  - unfold var_value in *. rewrite A5, A6, A7. destruct (vidx x =? priv_index); [exact HV|]. destruct (vidx x =? bpriv_index); [exact HV|].
    destruct (vidx x =? bconst_index); [exact HV|]. destruct (vty x) eqn:TY; rewrite ?A1, ?A2, ?A4; try exact HV; [|congruence].
    apply get_col_Some in HV. destruct HV as [I1 [I2 [cl [N1 N2]]]]. rewrite get_col_cell2 by assumption.
    apply D; [|unfold cell2; rewrite N1; exact N2].
    intros EC k Hk EQ.
    assert (RS : (Z.to_nat (vrot x) < size)%nat). { unfold size. rewrite <- EC, N1. apply nth_error_Some. congruence. }
    pose proof size_small as SZ.
    assert (IN : In (wrap64 (vrot x - Z.of_nat start)) allmarks).
    { unfold allmarks. apply in_or_app. left. unfold copy_marks. apply in_flat_map. exists (a, b). split; [exact Hab|].
      apply in_map_iff. exists x. split; [reflexivity|]. apply filter_In. split; [cbn; destruct Hx; auto|].
      unfold var_check. rewrite TY. assert (E : vidx x = Z.of_nat col) by lia. rewrite E, Z.eqb_refl. cbn. apply Z.leb_le.
      rewrite wrap64_small by lia. lia. }
    apply used_spec in IN; [|lia]. rewrite wrap64_small in IN by lia. destruct IN as [_ IN].
    apply slots_ok in Hk. destruct Hk as [_ Hk].
    replace (Z.to_nat (vrot x - Z.of_nat start)) with k in IN by lia. congruence.
Qed.
End Main.

Lemma filter_seq_same : forall (f : nat -> bool) m n, (m <= n)%nat -> (forall r, (m <= r)%nat -> f r = false) ->
  filter f (seq 0 n) = filter f (seq 0 m).
Proof.
  intros f m n H Hf. replace n with (m + (n - m))%nat by lia. rewrite seq_app, filter_app.
  replace (filter f (seq (0 + m) (n - m))) with (@nil nat); [apply app_nil_r|].
  symmetry. cbn [Nat.add]. generalize (n - m)%nat. assert (G : forall k j, (m <= j)%nat -> filter f (seq j k) = []).
  { induction k as [|k IH]; intros j Hj; cbn [seq filter]; [reflexivity|]. rewrite Hf by exact Hj. apply IH. lia. }
  intros k. apply G. lia.
Qed.
Lemma sel_rows_same : forall s s' sel, tidy s -> a_sel s' = a_sel s -> a_rows s <= a_rows s' -> sel_rows s' sel = sel_rows s sel.
Proof.
  intros s s' sel TD E H. unfold sel_rows. rewrite E. destruct TD as [TR [_ [_ T]]].
  apply filter_seq_same; [lia|]. intros r Hr. destruct (nth_error (a_sel s) sel) as [cl|] eqn:N.
  - destruct (T sel cl N) as [L _]. replace (r <? length cl)%nat with false; [reflexivity|]. symmetry. apply Nat.ltb_ge. lia.
  - reflexivity.
Qed.
Lemma sel_rows_In : forall s sel r, tidy s -> In r (sel_rows s sel) ->
  Z.of_nat r < a_rows s /\ a_table s CSel (Z.of_nat sel) (Z.of_nat r) = f1.
Proof.
  intros s sel r TD H. unfold sel_rows in H. apply filter_In in H. destruct H as [H1 H2]. apply in_seq in H1.
  destruct TD as [TR [_ [_ T]]]. split; [lia|]. rewrite <- (nth_cells P s sel r).
  apply andb_true_iff in H2. destruct H2 as [H2 H3]. apply Nat.ltb_lt in H2. apply negb_true_iff in H3.
  destruct (nth_error (a_sel s) sel) as [cl|] eqn:N; [|cbn in H2; lia]. destruct (T sel cl N) as [_ G].
  destruct (G _ (nth_In cl f0 H2)) as [E|E]; [|exact E]. rewrite E in H3. exfalso. assert (feqb (f0 : F) f0 = true) by (apply feqb_eq; reflexivity). congruence.
Qed.

(** Without a cell at or past [start], gates must not read there. *)
Definition gates_inside (c : cstate P) s (col start : nat) : Prop :=
  match nth_error (a_const s) col with Some l => (length l <= start)%nat | None => True end ->
  (forall sel cs e v r, In (sel, cs) (c_gates c) -> In e cs -> In v (evars e) ->
     a_table s CSel (Z.of_nat sel) (Z.of_nat r) = f1 -> vty v = CConst -> vidx v = Z.of_nat col -> Z.of_nat r + vrot v < Z.of_nat start) /\
  (forall sel ls t es e v r, In (sel, ls) (c_lgates c) -> In (t, es) ls -> In e es -> In v (evars e) ->
     a_table s CSel (Z.of_nat sel) (Z.of_nat r) = f1 -> vty v = CConst -> vidx v = Z.of_nat col -> Z.of_nat r + vrot v < Z.of_nat start).

Lemma flat_map_ext_in : forall A B (f g : A -> list B) l, (forall x, In x l -> f x = g x) -> flat_map f l = flat_map g l.
Proof.
  induction l as [|x l IH]; intros H; cbn; [reflexivity|]. rewrite (H x (or_introl eq_refl)), IH; [reflexivity|]. intros y Hy. apply H. right. exact Hy.
Qed.

Lemma finalize_inv : forall c s col start c' s' next, finalize_constants c s col start = Some (c', s', next) ->
  (a_bconst s = [] /\ c' = c /\ s' = s /\ next = start) \/
  (a_bconst s <> [] /\ (0 < start)%nat /\ exists u, used_constants c s col start = Some u /\
   let ks := slots (length (a_bconst s)) u 0 in
   aruns s (writes col start (combine ks (a_bconst s))) = Some s' /\
   c' = mkC (c_gates c) (c_lgates c) (map (fun ab => (subst_const col start ks (fst ab), subst_const col start ks (snd ab))) (c_copies c))
          (c_gmap c) (c_lmap c) (c_next c) /\ next = (start + S (last ks 0))%nat).
Proof.
  intros c s col start c' s' next H. unfold finalize_constants in H. destruct (a_bconst s) as [|x l] eqn:E.
  - injection H as <- <- <-. left. auto.
  - right. split; [discriminate|]. destruct (Nat.eqb_spec start 0) as [|N]; [discriminate|]. split; [lia|].
    destruct (used_constants c s col start) as [u|]; [|discriminate]. exists u. split; [reflexivity|]. cbv zeta in H |- *.
    unfold writes. destruct (aruns s _) as [s1|] eqn:ER; [|discriminate]. injection H as <- <- <-. auto.
Qed.

Lemma finalize_preserves_l : forall te c s col start c' s' next,
  tidy s -> gates_tracked c s col start -> gates_inside c s col start -> tables_clear te col -> copies_read c s ->
  finalize_constants c s col start = Some (c', s', next) -> is_satisfied te c' s' = is_satisfied te c s.
Proof.
  intros te c s col start c' s' next TD [GT LT] GI TC CR H. apply finalize_inv in H.
  destruct H as [[_ [-> [-> _]]]|[NE [ST [u [HU [HR [-> _]]]]]]]; [reflexivity|].
  set (ks := slots (length (a_bconst s)) u 0) in *.
  pose proof (run_facts s col start u ST s' HR) as RF. destruct RF as [[A1 [A2 [A3 [A4 [A5 [A6 A7]]]]]] [B _]].
  assert (CE : nth_error (a_const s) col <> None).
  { apply (writes_col col start (combine ks (a_bconst s)) s s' HR). intros E. apply (f_equal (@length (nat * F))) in E.
    rewrite combine_length in E. assert (KL : length ks = length (a_bconst s)) by apply slots_ok. rewrite KL, Nat.min_id in E.
    destruct (a_bconst s); [congruence|discriminate]. }
  assert (GIs : (match nth_error (a_const s) col with Some l => length l | None => O end <= start)%nat ->
    match nth_error (a_const s) col with Some l => (length l <= start)%nat | None => True end).
  { destruct (nth_error (a_const s) col); auto. }
  unfold is_satisfied. cbn [c_gates c_lgates c_copies]. f_equal. f_equal; [|f_equal].
  - apply flat_map_ext_in. intros [sel cs] Hg. cbn [fst snd]. rewrite (sel_rows_same s s' sel TD A3 B).
    apply flat_map_ext_in. intros r Hr. apply sel_rows_In in Hr; [|exact TD]. destruct Hr as [Hr1 Hr2].
    apply map_ext_in. intros e He. do 2 f_equal. apply eval_vars_ext. intros v Hv.
    eapply (gval_same c s col start u TD ST HU s' HR sel (flat_map evars cs) v r).
    + intros i Hi. apply in_or_app. right. apply in_or_app. left. unfold gate_marks. apply in_flat_map. exists (sel, cs). auto.
    + apply in_flat_map. exists e. auto.
    + eapply GT; eassumption.
    + exact Hr1.
    + exact Hr2.
    + intros SZ TY IX. destruct (GI (GIs SZ)) as [G _]. eapply G; eassumption.
  - apply flat_map_ext_in. intros [sel ls] Hg. cbn [fst snd]. rewrite (sel_rows_same s s' sel TD A3 B).
    apply flat_map_ext_in. intros r Hr. apply sel_rows_In in Hr; [|exact TD]. destruct Hr as [Hr1 Hr2].
    apply map_ext_in. intros [t es] Ht. unfold lookup_check. cbn [fst snd].
    assert (EV : map (eval (a_table s') (Z.of_nat r)) es = map (eval (a_table s) (Z.of_nat r)) es).
    { apply map_ext_in. intros e He. apply eval_vars_ext. intros v Hv.
      eapply (gval_same c s col start u TD ST HU s' HR sel (flat_map (fun l => flat_map evars (snd l)) ls) v r).
      - intros i Hi. apply in_or_app. right. apply in_or_app. right. unfold lookup_marks. apply in_flat_map. exists (sel, ls). auto.
      - apply in_flat_map. exists (t, es). split; [exact Ht|]. apply in_flat_map. exists e. auto.
      - eapply LT; eassumption.
      - exact Hr1.
      - exact Hr2.
      - intros SZ TY IX. destruct (GI (GIs SZ)) as [_ G]. eapply G; eassumption. }
    rewrite EV. destruct (te t) as [[cols idx|tag opts]|] eqn:ET; try reflexivity. do 2 f_equal.
    unfold load_dynamic. rewrite A3. apply flat_map_ext_in. intros r' _. destruct (feqb _ _); [reflexivity|].
    apply map_ext_in. intros o Ho. apply map_ext_in. intros e He. apply eval_vars_ext. intros v Hv.
    apply (gval_clear s col start u ST s' HR). intros TY. eapply TC; eassumption.
  - rewrite map_map. apply map_ext_in. intros [a b] Hab. cbn [fst snd].
    destruct (CR a b a Hab (or_introl eq_refl)) as [N1 [y1 V1]]. destruct (CR a b b Hab (or_intror eq_refl)) as [N2 [y2 V2]].
    rewrite V1, V2.
    pose proof (copy_value c s col start u TD ST HU s' HR a b a y1 Hab (or_introl eq_refl) N1 CE V1) as W1.
    pose proof (copy_value c s col start u TD ST HU s' HR a b b y2 Hab (or_intror eq_refl) N2 CE V2) as W2.
    fold ks in W1, W2. rewrite W1, W2. reflexivity.
Qed.

(** Where the constants are. *)
Lemma finalize_places_l : forall c s col start c' s' next,
  tidy s -> finalize_constants c s col start = Some (c', s', next) ->
  exists place : list nat, length place = length (a_bconst s) /\ NoDup place /\
    (forall r, In r place -> (start <= r < next)%nat) /\
    (forall i r v, nth_error place i = Some r -> nth_error (a_bconst s) i = Some v -> cell2 P (a_const s') col r = Some v) /\
    (forall i a b x, In (a, b) (c_copies c) -> x = a \/ x = b -> x = mkVar bconst_index (Z.of_nat i) false CConst ->
       (i < length (a_bconst s))%nat ->
       exists r, nth_error place i = Some r /\ subst_const col start (map (fun r => r - start)%nat place) x = mkVar (Z.of_nat col) (Z.of_nat r) false CConst) /\
    c_copies c' = map (fun ab => (subst_const col start (map (fun r => r - start)%nat place) (fst ab),
                                  subst_const col start (map (fun r => r - start)%nat place) (snd ab))) (c_copies c) /\
    (forall i r, ~ (i = col /\ In r place) -> forall x, cell2 P (a_const s) i r = Some x -> cell2 P (a_const s') i r = Some x) /\
    a_wit s' = a_wit s /\ a_pub s' = a_pub s /\ a_sel s' = a_sel s /\ a_bconst s' = a_bconst s /\
    c_gates c' = c_gates c /\ c_lgates c' = c_lgates c.
Proof.
  intros c s col start c' s' next TD H. apply finalize_inv in H.
  assert (SUBNIL : forall x, subst_const col start [] x = x).
  { intros x. unfold subst_const. destruct (_ && _); [|reflexivity]. destruct (Z.to_nat (vrot x)); reflexivity. }
  destruct H as [[E [-> [-> ->]]]|[NE [ST [u [HU [HR [-> ->]]]]]]].
  - exists []. rewrite E. split; [reflexivity|]. split; [constructor|]. split; [intros r []|]. split; [intros [|i] r v H; discriminate|].
    split; [intros i a b x _ _ _ H; cbn in H; lia|]. split.
    + cbn [map]. rewrite <- (map_id (c_copies c)) at 1. apply map_ext. intros [a b]. cbn [fst snd]. rewrite !SUBNIL. reflexivity.
    + auto 10.
  - set (ks := slots (length (a_bconst s)) u 0) in *. destruct (slots_ok (length (a_bconst s)) u 0) as [L [SS SK]]. fold ks in L, SS, SK.
    destruct (run_facts s col start u ST s' HR) as [[A1 [A2 [A3 [A4 [A5 [A6 A7]]]]]] [B [C [D G]]]]. fold ks in C, D, G.
    exists (map (fun k => start + k)%nat ks).
    assert (MM : map (fun r => r - start)%nat (map (fun k => start + k)%nat ks) = ks).
    { rewrite map_map. rewrite <- (map_id ks) at 2. apply map_ext. intros k. lia. }
    rewrite MM. split; [rewrite map_length; exact L|]. split.
    { apply FinFun.Injective_map_NoDup; [intros x y E; lia|]. apply sorted_nodup. exact SS. }
    split. { intros r Hr. apply in_map_iff in Hr. destruct Hr as [k [<- Hk]]. pose proof (sorted_last _ _ SS Hk). lia. }
    split.
    { intros i r v H1 H2. rewrite nth_error_map in H1. destruct (nth_error ks i) as [k|] eqn:EK; [|discriminate]. injection H1 as <-.
      apply G. clear - H2 EK. revert i EK H2. generalize (a_bconst s). induction ks as [|k' l IH]; intros [|y l'] [|i] H1 H2; cbn in *; try discriminate.
      - left. congruence.
      - right. eapply IH; eassumption. }
    split.
    { intros i a b x _ _ -> Hi. destruct (nth_error ks i) as [k|] eqn:EK; [|apply nth_error_None in EK; lia].
      exists (start + k)%nat. rewrite nth_error_map, EK. split; [reflexivity|].
      unfold subst_const. cbn [vidx vrel vty vrot]. rewrite Z.eqb_refl. cbn [negb andb ctype_eqb].
      destruct (0 <=? Z.of_nat i) eqn:E0; [|apply Z.leb_gt in E0; lia]. rewrite Nat2Z.id, EK. reflexivity. }
    split; [reflexivity|]. split.
    { intros i r N x Hx. apply D; [|exact Hx]. intros -> k Hk ->. apply N. split; [reflexivity|]. apply in_map_iff. exists k. auto. }
    cbn [c_gates c_lgates]. auto 10.
Qed.

(** The call is defined. *)
Lemma finalize_defined_l : forall c s col start, tidy s -> (0 < start)%nat -> nth_error (a_const s) col <> None ->
  (forall a b x, In (a, b) (c_copies c) -> x = a \/ x = b -> vty x = CConst -> vidx x = Z.of_nat col ->
     0 <= vrot x < Z.of_nat (match nth_error (a_const s) col with Some l => length l | None => O end)) ->
  (forall sel cs e v, In (sel, cs) (c_gates c) -> In e cs -> In v (evars e) -> vty v = CConst -> vidx v <> Z.of_nat col) ->
  (forall sel ls t es e v, In (sel, ls) (c_lgates c) -> In (t, es) ls -> In e es -> In v (evars e) -> vty v = CConst -> vidx v <> Z.of_nat col) ->
  exists r, finalize_constants c s col start = Some r.
Proof.
  intros c s col start TD ST CE HC HG HL. unfold finalize_constants. destruct (a_bconst s) as [|x0 l0] eqn:EB; [eauto|].
  destruct (Nat.eqb_spec start 0) as [|_]; [lia|].
  assert (U : exists u, used_constants c s col start = Some u).
  { unfold used_constants. set (size := match nth_error (a_const s) col with Some l => length l | None => O end) in *.
    assert (SZ : Z.of_nat size < 2 ^ 62).
    { unfold size. destruct TD as [_ [H _]]. destruct (nth_error (a_const s) col) as [l|] eqn:E; [|reflexivity]. apply H. eapply nth_error_In. exact E. }
    destruct (start <? size)%nat eqn:E; [apply Nat.ltb_lt in E|eauto]. apply mark_defined. rewrite repeat_length.
    assert (RM : forall sel vs, (forall v, In v vs -> vty v = CConst -> vidx v <> Z.of_nat col) -> rows_marks s (Z.of_nat col) (Z.of_nat start) sel vs = []).
    { intros sel vs Hv. unfold rows_marks. replace (filter (var_check (Z.of_nat col) (Z.of_nat start)) vs) with (@nil var); [reflexivity|].
      symmetry. induction vs as [|v vs IH]; cbn [filter]; [reflexivity|]. rewrite IH by (intros w Hw; apply Hv; right; exact Hw).
      unfold var_check. destruct (ctype_eqb (vty v) CConst) eqn:E1; [|reflexivity]. apply ctype_eqb_eq in E1.
      destruct (Z.eqb_spec (vidx v) (Z.of_nat col)) as [E2|]; [|reflexivity]. exfalso. apply (Hv v (or_introl eq_refl) E1 E2). }
    intros i Hi. apply in_app_or in Hi. destruct Hi as [Hi|Hi]; [|apply in_app_or in Hi; destruct Hi as [Hi|Hi]].
    - unfold copy_marks in Hi. apply in_flat_map in Hi. destruct Hi as [[a b] [Hab Hi]]. apply in_map_iff in Hi. destruct Hi as [v [<- Hv]].
      apply filter_In in Hv. destruct Hv as [Hv HK]. unfold var_check in HK. rewrite !andb_true_iff, ctype_eqb_eq, Z.eqb_eq, Z.leb_le in HK.
      destruct HK as [[K1 K2] K3]. assert (R : 0 <= vrot v < Z.of_nat size).
      { apply (HC a b v Hab); [|exact K1|exact K2]. cbn in Hv. destruct Hv as [<-|[<-|[]]]; auto. }
      rewrite wrap64_small in K3 by lia. rewrite wrap64_small by lia. lia.
    - exfalso. unfold gate_marks in Hi. apply in_flat_map in Hi. destruct Hi as [[sel cs] [Hg Hi]]. cbn [fst snd] in Hi. rewrite RM in Hi; [destruct Hi|].
      intros v Hv. apply in_flat_map in Hv. destruct Hv as [e [He Hv]]. eapply HG; eassumption.
    - exfalso. unfold lookup_marks in Hi. apply in_flat_map in Hi. destruct Hi as [[sel ls] [Hg Hi]]. cbn [fst snd] in Hi. rewrite RM in Hi; [destruct Hi|].
      intros v Hv. apply in_flat_map in Hv. destruct Hv as [[t es] [Ht Hv]]. cbn [snd] in Hv. apply in_flat_map in Hv. destruct Hv as [e [He Hv]]. eapply HL; eassumption. }
  destruct U as [u ->]. cbv zeta. destruct (writes_defined col start (combine (slots (length (x0 :: l0)) u 0) (x0 :: l0)) s CE) as [s' E].
  unfold writes in E. rewrite E. eauto.
Qed.
End Proofs.
