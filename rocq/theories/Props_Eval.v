(** Expression evaluation and the final polynomial check: components that consist
    of batched additions, subtractions and multiplications. *)
From Coq Require Import ZArith List Lia Bool Field.
From Verif Require Import Base Field Primes Plonk PlonkFacts FieldOpsModel AssignModel AssignProofs BuilderModel BuilderProofs FinalizeModel FinalizeProofs BatchModel BatchProofs BatchQueue Props_Batch EvalModel EvalProofs EvalPoly Examples.
Import ListNotations.
Open Scope Z_scope.

(** The first three component types are the arithmetic ones. *)
Definition std_arith {P} (comps : nat -> bcomp P) : Prop :=
  comps k_mul = mul_comp /\ comps k_add = add_comp /\ comps k_sub = sub_comp.
(** The table holds the batched constants in the reserved column. *)
Definition holds_constants {P} (s : astate P) (T : table P) : Prop :=
  forall j x, nth_error (a_bconst s) j = Some x -> T CConst bconst_index (Z.of_nat j) = x.
(** The history contains the calls of a program that ran from the state reached by
    then and gave back [r]. *)
Definition ran {P A} before comps (s : astate P) (h : list (qcall P)) (fc : bool) (p : prog P A) (r : A) : Prop :=
  exists h1 hh h2 st1 rs1 st2, h = h1 ++ hh ++ h2 /\ qruns before comps (s, fun _ => []) h1 = Some (st1, rs1) /\
    exec before comps fc st1 p = Some (st2, hh, r).

Section Arith.
Variable P : params.
Add Field Ff : (F_field P) (morphism (F_morph P), constants [F_const], power_tac (F_power P) [F_pow_tac]).
Variable comps : nat -> bcomp P.
Hypothesis STD : std_arith comps.
Lemma std_case : forall k, (k < 3)%nat -> exists cs, comps k = mkB 3 cs [0; 1] [2] (arith_row (opf P k)) /\
  cs = match k with O => multiplication_gate (std_comp 3) | 1%nat => addition_gate (std_comp 3) | _ => subtraction_gate (std_comp 3) end.
Proof.
  intros k Hk. destruct STD as [S0 [S1 S2]]. destruct k as [|[|[|k]]]; [| | |lia].
  - change 0%nat with k_mul. rewrite S0. eexists. split; reflexivity.
  - change 1%nat with k_add. rewrite S1. eexists. split; reflexivity.
  - change 2%nat with k_sub. rewrite S2. eexists. split; reflexivity.
Qed.
Lemma std_one : forall k, (k < 3)%nat -> length (b_out (comps k)) = 1%nat.
Proof. intros k Hk. destruct (std_case k Hk) as [cs [-> _]]. reflexivity. Qed.
Lemma std_gate : forall k (T : table P) r, (k < 3)%nat -> (forall c, In c (b_cs (comps k)) -> eval T r c = f0) ->
  T CWit 2 r = opf P k (T CWit 0 r) (T CWit 1 r).
Proof.
  intros k T r Hk H. destruct (std_case k Hk) as [cs [E EC]]. rewrite E in H. cbn [b_cs] in H. subst cs. destruct k as [|[|[|k]]]; [| | |lia];
    specialize (H _ (or_introl eq_refl)); revert H; eval_norm; rewrite ?W_std by lia; rewrite Z.add_0_r; intros H; apply (proj1 (fsub_eq0 _ _ _)) in H; symmetry; exact H.
Qed.
Lemma std_honest : forall k, (k < 3)%nat -> honest P (comps k) (fun _ => True).
Proof.
  intros k Hk. destruct (std_case k Hk) as [cs [E EC]]. rewrite E. split; cbn [b_in b_out b_w b_row b_cs].
  - intros [|x [|y [|? ?]]] _ HL; try discriminate HL. split; [reflexivity|]. split; [|reflexivity].
    intros T r HT e He. pose proof (HT 0 ltac:(lia)) as H0. pose proof (HT 1 ltac:(lia)) as H1. pose proof (HT 2 ltac:(lia)) as H2.
    change (nth (Z.to_nat 0) (arith_row (opf P k) [x; y]) f0) with x in H0. change (nth (Z.to_nat 1) (arith_row (opf P k) [x; y]) f0) with y in H1.
    change (nth (Z.to_nat 2) (arith_row (opf P k) [x; y]) f0) with (opf P k x y) in H2.
    subst cs. destruct k as [|[|[|k]]]; [| | |lia]; destruct He as [<-|[]]; eval_norm; rewrite ?W_std by lia; rewrite Z.add_0_r, H0, H1, H2; apply fsub_eq0; reflexivity.
  - cbn. lia.
Qed.
End Arith.

Lemma called_of_has : forall P before comps (s : astate P) h st rs k i b vs, qruns before comps (s, fun _ => []) h = Some (st, rs) ->
  In (QAdd k i b) h -> has P st k i vs -> called h rs k i b vs.
Proof.
  intros P before comps s h st rs k i b vs H HI HA. destruct (runs_wf P before comps h _ _ _ H (empty_wf P comps s)) as [Q [LR [_ [_ HC]]]].
  apply In_nth_error in HI. destruct HI as [n Hn]. destruct (nth_error rs n) as [ws|] eqn:E.
  - destruct (HC _ _ _ _ _ Hn E) as [HA' _]. rewrite (has_unique P comps _ _ _ _ _ Q HA HA'). exists n. auto.
  - apply nth_error_None in E. assert (n < length h)%nat by (apply nth_error_Some; congruence). lia.
Qed.
(** A reading of the final state respects the calls of every program. *)
Lemma ran_respects : forall P A before comps (s : astate P) h st rs fc (p : prog P A) r V (Q : A -> Prop),
  qruns before comps (s, fun _ => []) h = Some (st, rs) -> ran before comps s h fc p r ->
  (forall k a b b' o, (k < 3)%nat -> called h rs k [a; b] b' [o] -> V o = opf P k (V a) (V b)) ->
  (forall v x, const_at P (fst st) v x -> V v = x) -> (forall k, (k < 3)%nat -> length (b_out (comps k)) = 1%nat) ->
  wp P V p Q -> Q r.
Proof.
  intros P A before comps s h st rs fc p r V Q H [h1 [hh [h2 [st1 [rs1 [st2 [-> [R1 EX]]]]]]]] HV HC ONE HW.
  pose proof (runs_wf P before comps _ _ _ _ R1 (empty_wf P comps s)) as [Q1 _].
  destruct (exec_log _ _ _ _ _ _ _ _ _ _ EX) as [rs2 R2]. destruct (runs_le P before comps _ _ _ _ Q1 R2) as [Q2 LE2].
  assert (LE3 : le P st2 st).
  { apply runs_split in H. destruct H as [t1 [r1 [r2 [E1 [E2 _]]]]]. rewrite R1 in E1. injection E1 as <- <-. apply runs_split in E2. destruct E2 as [t2 [r3 [r4 [E3 [E4 _]]]]].
    rewrite R2 in E3. injection E3 as <- <-. eapply runs_le; eassumption. }
  eapply (exec_wp P before comps V A p fc st1 st2 hh r Q Q1 EX); [|exact HW]. split.
  - intros k a b fc' o vs Hk HI HA. apply (HV k a b fc'); [exact Hk|].
    assert (EV : vs = []).
    { destruct HA as [d HA]. destruct st2 as [s2 m2]. destruct Q2 as [Q2 _]. destruct (Q2 k _ HA) as [L _]. cbn [e_res] in L. rewrite (ONE k Hk) in L. destruct vs; [reflexivity|discriminate L]. }
    subst vs. eapply called_of_has; [exact H| |apply LE3; exact HA]. apply in_or_app. right. apply in_or_app. left. exact HI.
  - intros v x HX. apply HC. eapply const_at_le; [exact LE3|exact HX].
Qed.

(** ** C74: expression evaluation *)

(** Soundness: in a table that satisfies the finalised circuit, the batch
    variables can be read such that every evaluation in the history, of either
    kind, gave the value of its expression at the mapped variables.  The same
    reading satisfies the rest of the circuit and relates all other calls. *)
Theorem expression_evaluation_sound : forall P before comps (s : astate P) h s' m rs ks W start cmds L (T : table P) (R : nat -> list (F P) -> list (F P) -> Prop),
  std_arith comps ->
  qruns before comps (s, fun _ => []) h = Some ((s', m), rs) -> well_called comps h -> fitting comps h ks W ->
  (forall k T r, In k ks -> (forall c, In c (b_cs (comps k)) -> eval T r c = f0) ->
     R k (map (fun c => T CWit c r) (b_in (comps k))) (map (fun c => T CWit c r) (b_out (comps k)))) ->
  no_store_reads P cmds -> holds_constants s' T ->
  sat L T (final_circuit W (batches P comps m ks) start cmds) ->
  exists T' : table P,
    (forall ty c r, ~ (ty = CPub /\ c = bpriv_index) -> T' ty c r = T ty c r) /\
    sat L T' cmds /\
    (forall k i b vs, called h rs k i b vs -> R k (map (vval T') i) (map (vval T') vs)) /\
    forall fc mp e out g, ran before comps s h fc (ev mp e) out ->
      (forall v u, In v (evars e) -> mp v = Some u -> vval T' u = g v) -> vval T' out = meaning P g e.
Proof.
  intros P before comps s h s' m rs ks W start cmds L T R STD H WC FT HR NS HC SAT.
  destruct (batch_sound P before comps s h s' m rs ks W start cmds L T
    (fun k xs ys => R k xs ys /\ ((k < 3)%nat -> match xs, ys with [x; y], [z] => z = opf P k x y | _, _ => True end)) H WC FT) as [T' [FR [RS CALLS]]]; try assumption.
  { intros k T0 r HK G. split; [apply HR; assumption|]. intros Hk. pose proof (std_gate P comps STD k T0 r Hk G) as X.
    destruct (std_case P comps STD k Hk) as [cs [E _]]. rewrite E. exact X. }
  exists T'. split; [exact FR|]. split; [exact RS|]. split; [intros k i b vs HCL; apply (CALLS k i b vs HCL)|].
  intros fc mp e out g RAN HM. refine (ran_respects P var before comps s h _ rs fc (ev mp e) out (vval T') (fun o => vval T' o = meaning P g e) H RAN _ _ (std_one P comps STD) _).
  - intros k a b b' o Hk HCL. destruct (CALLS _ _ _ _ HCL) as [_ X]. apply (X Hk).
  - intros v x [j [-> NJ]]. cbn [fst] in NJ. unfold vval. cbn [vty vidx vrot]. rewrite FR by (intros [X _]; discriminate X). apply HC. exact NJ.
  - apply wp_ev with (g := g); [exact HM|auto].
Qed.
Print Assumptions expression_evaluation_sound.

(** Values: when every variable of the expression is mapped to a variable whose
    value is there, generate_assignments is defined, the value of its result is that of
    the expression, and it changes no value that was there before. *)
Theorem expression_evaluation_value : forall P before comps (s : astate P) h1 st1 rs1 mp e g,
  std_arith comps -> qruns before comps (s, fun _ => []) h1 = Some (st1, rs1) -> all_careful P before comps (s, fun _ => []) h1 ->
  pos_powers P e ->
  (forall v, In v (evars e) -> exists u, mp v = Some u /\ clean P st1 u /\ var_value (fst st1) u = Some (g v)) ->
  exists st2 hh out, exec before comps false st1 (ev mp e) = Some (st2, hh, out) /\
    var_value (fst st2) out = Some (meaning P g e) /\ clean P st2 out /\
    all_careful P before comps (s, fun _ => []) (h1 ++ hh) /\
    forall v, known P st1 v -> known P st2 v /\ var_value (fst st2) v = var_value (fst st1) v.
Proof.
  intros P before comps s h1 st1 rs1 mp e g STD R1 AC PP HM.
  pose proof (runs_wf P before comps _ _ _ _ R1 (empty_wf P comps s)) as [Q1 _].
  destruct (runs_values P before comps h1 _ _ _ R1 (empty_wf P comps s)) as [CO SE]; [intros ? ? []|intros ? ? ? []|exact AC|].
  assert (U : uses P (known P st1) (ev mp e) (fun K o => K o)).
  { apply uses_ev; [exact PP| |auto]. intros v Hv. destruct (HM v Hv) as [u [E [CL V]]]. exists u. split; [exact E|]. split; [eauto|exact CL]. }
  destruct (uses_assign P before comps (std_one P comps STD) _ _ _ _ st1 Q1 CO SE (fun v K => K) U) as [st2 [hh [out [K' [EX [AC2 [PR [KN KO]]]]]]]].
  exists st2, hh, out. split; [exact EX|]. destruct (KN out KO) as [[x VX] CL].
  destruct (exec_log _ _ _ _ _ _ _ _ _ _ EX) as [rs2 R2]. destruct (runs_le P before comps _ _ _ _ Q1 R2) as [Q2 _].
  destruct (runs_values P before comps hh _ _ _ R2 Q1 CO SE AC2) as [CO2 _].
  set (V := fun v => match var_value (fst st2) v with Some x => x | None => f0 end).
  assert (VO : V out = meaning P g e).
  { refine (exec_wp P before comps V _ (ev mp e) false st1 st2 hh out (fun o => V o = meaning P g e) Q1 EX _ _).
    - split.
      + intros k a b fc o vs Hk HI HA. pose proof (exec_flags _ _ _ _ _ _ _ _ _ _ _ _ _ EX HI) as ->.
        assert (D : done P st2 k [a; b] (o :: vs)).
        { destruct (runs_wf P before comps _ _ _ _ R2 Q1) as [_ [LR [_ [_ HC]]]]. apply In_nth_error in HI. destruct HI as [n Hn]. destruct (nth_error rs2 n) as [ws|] eqn:E.
          - destruct (HC _ _ _ _ _ Hn E) as [HA' D]. rewrite (has_unique P comps _ _ _ _ _ Q2 HA HA'). apply D. reflexivity.
          - apply nth_error_None in E. assert (n < length hh)%nat by (apply nth_error_Some; congruence). lia. }
        destruct (CO2 k _ D eq_refl) as [xs [V1 V2]]. cbn [e_in e_res values] in V1, V2. unfold V.
        destruct (var_value (fst st2) a) as [xa|]; [|discriminate V1]. destruct (var_value (fst st2) b) as [xb|]; [|discriminate V1]. injection V1 as <-.
        destruct (var_value (fst st2) o) as [xo|]; [|discriminate V2]. destruct (values (fst st2) vs); [|discriminate V2].
        destruct (std_case P comps STD k Hk) as [cs [E _]]. rewrite E in V2. injection V2 as <- _. reflexivity.
      + intros v y [j [-> NJ]]. unfold V, var_value. cbn [vidx vrot]. cbv [priv_index bpriv_index bconst_index]. cbn -[Z.of_nat get_cell a_bconst fst].
        unfold get_cell. rewrite Nat2Z.id. destruct (Z.ltb_spec (Z.of_nat j) 0); [lia|]. rewrite NJ. reflexivity.
    - apply wp_ev with (g := g); [|auto]. intros v u Hv EU. destruct (HM v Hv) as [u' [E [CLU VU]]]. rewrite EU in E. injection E as <-.
      unfold V. rewrite (proj2 (PR u (conj (ex_intro _ _ VU) CLU))), VU. reflexivity. }
  split; [unfold V in VO; rewrite VX in VO; congruence|]. split; [exact CL|]. split; [eapply careful_app; eassumption|exact PR].
Qed.
Print Assumptions expression_evaluation_value.

(** Both sides agree: an evaluation made later, by generate_circuit or
    generate_assignments, gives back the same variable and makes the same calls.
    generate_circuit is defined without any values. *)
Theorem expression_evaluation_agrees : forall P before comps (s : astate P) h1 st1 rs1 mp e fc st2 hh out h2 st3 rs2,
  std_arith comps -> qruns before comps (s, fun _ => []) h1 = Some (st1, rs1) ->
  exec before comps fc st1 (ev mp e) = Some (st2, hh, out) -> qruns before comps st2 h2 = Some (st3, rs2) ->
  (pos_powers P e -> (forall v, In v (evars e) -> mp v <> None) -> exec before comps true st3 (ev mp e) <> None) /\
  forall fc' st4 hh' out', exec before comps fc' st3 (ev mp e) = Some (st4, hh', out') ->
    out' = out /\ forall k i, In (QAdd k i fc') hh' <-> In (QAdd k i fc) hh.
Proof.
  intros P before comps s h1 st1 rs1 mp e fc st2 hh out h2 st3 rs2 STD R1 EX R2.
  pose proof (runs_wf P before comps _ _ _ _ R1 (empty_wf P comps s)) as [Q1 _]. destruct (exec_le _ _ _ _ _ _ _ _ _ _ Q1 EX) as [Q2 _].
  destruct (runs_le P before comps _ _ _ _ Q2 R2) as [Q3 LE]. split.
  - intros PP HM. destruct (uses_circuit P before comps (std_one P comps STD) _ (ev mp e) (fun _ => True) (fun _ _ => True) st3 Q3) as [a [b [c E]]]; [|congruence].
    apply uses_ev; [exact PP| |auto]. intros v Hv. specialize (HM v Hv). destruct (mp v) as [u|]; [eauto|congruence].
  - intros fc' st4 hh' out' EX'. destruct (exec_again P before comps _ _ _ _ _ _ _ _ _ _ _ _ Q1 Q3 EX LE EX') as [-> EH]. split; [reflexivity|].
    assert (ER : forall f st st' h r k i, exec before comps f st (ev mp e) = Some (st', h, r) -> (In (QAdd k i f) h <-> In (QAdd k i false) (map (erase P) h))).
    { intros f st st' h r k i E. rewrite in_map_iff. split.
      - intros HI. exists (QAdd k i f). auto.
      - intros [[k' i' b|o] [E1 HI]]; [|discriminate E1]. injection E1 as -> ->. rewrite <- (exec_flags _ _ _ _ _ _ _ _ _ _ _ _ _ E HI). exact HI. }
    intros k i. rewrite (ER _ _ _ _ _ _ _ EX'), (ER _ _ _ _ _ _ _ EX), EH. reflexivity.
Qed.
Print Assumptions expression_evaluation_agrees.

(** ** C75: the final polynomial check *)

(** Soundness: in a table that satisfies the finalised circuit, with the copy
    constraints of the component among its commands, the polynomial with the given
    coefficients takes the first value at the point and the second value at its
    negative, for every point. *)
Theorem final_polynomial_sound : forall P before comps (s : astate P) h s' m rs ks W start cmds L (T : table P),
  std_arith comps ->
  qruns before comps (s, fun _ => []) h = Some ((s', m), rs) -> well_called comps h -> fitting comps h ks W ->
  no_store_reads P cmds -> holds_constants s' T ->
  sat L T (final_circuit W (batches P comps m ks) start cmds) ->
  exists T' : table P,
    (forall ty c r, ~ (ty = CPub /\ c = bpriv_index) -> T' ty c r = T ty c r) /\
    sat L T' cmds /\
    forall cs pts cc, (forall c, In c cs -> vrel c = false) ->
      ran before comps s h true (fp_circuit cs pts) cc -> incl cc cmds ->
      forall p v v', In (p, v, v') pts ->
        poly P (map (vval T') cs) (vval T' p) = vval T' v /\ poly P (map (vval T') cs) (fopp (vval T' p)) = vval T' v'.
Proof.
  intros P before comps s h s' m rs ks W start cmds L T STD H WC FT NS HC SAT.
  destruct (batch_sound P before comps s h s' m rs ks W start cmds L T
    (fun k xs ys => (k < 3)%nat -> match xs, ys with [x; y], [z] => z = opf P k x y | _, _ => True end) H WC FT) as [T' [FR [RS CALLS]]]; try assumption.
  { intros k T0 r HK G Hk. pose proof (std_gate P comps STD k T0 r Hk G) as X.
    destruct (std_case P comps STD k Hk) as [cs [E _]]. rewrite E. exact X. }
  exists T'. split; [exact FR|]. split; [exact RS|]. intros cs pts cc ABS RAN INC.
  refine (ran_respects P _ before comps s h _ rs true (fp_circuit cs pts) cc (vval T') (fun l => incl l cmds -> checks P cs (vval T') pts) H RAN _ _ (std_one P comps STD) _ INC).
  - intros k a b b' o Hk HCL. apply (CALLS _ _ _ _ HCL Hk).
  - intros v x [j [-> NJ]]. cbn [fst] in NJ. unfold vval. cbn [vty vidx vrot]. rewrite FR by (intros [X _]; discriminate X). apply HC. exact NJ.
  - intros zero HZ. apply wp_points; [exact ABS|exact HZ|]. intros l HL IN. apply HL. intros a b HI. apply (RS _ (IN _ HI)).
Qed.
Print Assumptions final_polynomial_sound.

(** Both parts of the component run one after the other, in either order. *)
Definition fp_both {P} before comps (st : qstate P) cs pts (st' : qstate P) (h : list (qcall P)) (cc : list (cmd P)) : Prop :=
  (exists st1 ha hc, exec before comps false st (fp_assign cs pts) = Some (st1, ha, tt) /\
     exec before comps true st1 (fp_circuit cs pts) = Some (st', hc, cc) /\ h = ha ++ hc) \/
  (exists st1 ha hc, exec before comps true st (fp_circuit cs pts) = Some (st1, hc, cc) /\
     exec before comps false st1 (fp_assign cs pts) = Some (st', ha, tt) /\ h = hc ++ ha).

Section Both.
Variable P : params.
Variable before : list var -> list var -> bool.
Variable comps : nat -> bcomp P.
Hypothesis STD : std_arith comps.
Variable cs : list var.
Variable pts : list (var * var * var).
Hypothesis ABS : forall c, In c cs -> vrel c = false.
Hypothesis NE : cs <> [].
Let ONE := std_one P comps STD.

Lemma circuit_parts : forall fc st st' h cc, exec before comps fc st (fp_circuit cs pts) = Some (st', h, cc) ->
  exists s1 h1 l, astep (fst st) (AAddBatchConst f0) = Some s1 /\ exec before comps fc (s1, snd st) (fp_outs P cs pts) = Some (st', h1, l) /\
    h = QOp (AAddBatchConst f0) :: h1 /\ cc = copies P (batch_const_var (fst st) f0) l.
Proof.
  intros fc st st' h cc H. unfold fp_circuit in H. cbn [exec] in H. destruct (astep (fst st) (AAddBatchConst f0)) as [s1|]; [|discriminate].
  rewrite points_outs in H. destruct (exec before comps fc (s1, snd st) (fp_outs P cs pts)) as [[[a b] c]|] eqn:E; [|discriminate]. cbn [result] in H. injection H as <- <- <-.
  exists s1, b, c. auto.
Qed.
Lemma assign_parts : forall fc st st' h r, exec before comps fc st (fp_assign cs pts) = Some (st', h, r) -> exists l, exec before comps fc st (fp_outs P cs pts) = Some (st', h, l).
Proof.
  intros fc st st' h r H. rewrite assign_outs in H. destruct (exec before comps fc st (fp_outs P cs pts)) as [[[a b] c]|]; [|discriminate]. cbn [result] in H. injection H as <- <- _. eauto.
Qed.
Lemma uses_inputs_k : forall (K : var -> Prop), (forall v, In v (inputs cs pts) -> K v) -> uses P K (fp_outs P cs pts) (fun K' l => forall o o', In (o, o') l -> K' o /\ K' o').
Proof. intros K HK. apply uses_outs; auto. Qed.
(** What one of the calls looks like. *)
Lemma outs_calls : forall fc st st' h l, qwf P comps st -> exec before comps fc st (fp_outs P cs pts) = Some (st', h, l) ->
  (forall k i b, In (QAdd k i b) h -> b = fc /\ (k < 3)%nat /\ length i = 2%nat /\ forall v, In v i -> In v (inputs cs pts) \/ internal v) /\
  (forall o o', In (o, o') l -> (In o (inputs cs pts) \/ internal o) /\ (In o' (inputs cs pts) \/ internal o')).
Proof.
  intros fc st st' h l W E. pose proof (uses_inputs_k (fun v => In v (inputs cs pts)) (fun v H => H)) as U. split.
  - intros k i b HI. split; [eapply exec_flags; eassumption|]. eapply uses_inputs; eassumption.
  - destruct (uses_result P before comps ONE _ _ _ _ _ _ _ _ _ W U E) as [K' [A B]]. intros o o' HI. destruct (B o o' HI). auto.
Qed.
Lemma both_spec : forall st st' h cc, qwf P comps st -> consistent P comps st -> settled P st ->
  (forall v, In v (inputs cs pts) -> known P st v) -> fp_both before comps st cs pts st' h cc ->
  exists rs, qruns before comps st h = Some (st', rs) /\ all_careful P before comps st h /\
  (forall k i b, In (QAdd k i b) h -> (k < 3)%nat /\ length i = 2%nat /\ (forall v, In v i -> In v (inputs cs pts) \/ internal v) /\ In (QAdd k i false) h) /\
  (forall V, respects P V h st' -> checks P cs V pts -> forall a b, In (Copy a b) cc -> V a = V b) /\
  (forall c, In c cc -> exists a b, c = Copy a b /\ (In a (inputs cs pts) \/ internal a) /\ (In b (inputs cs pts) \/ internal b)).
Proof.
  intros st st' h cc W CO SE HK B.
  assert (COPIES : forall zero l, (forall o o', In (o, o') l -> (In o (inputs cs pts) \/ internal o) /\ (In o' (inputs cs pts) \/ internal o')) -> internal zero ->
    forall c, In c (copies P zero l) -> exists a b, c = Copy a b /\ (In a (inputs cs pts) \/ internal a) /\ (In b (inputs cs pts) \/ internal b)).
  { intros zero l HL HZ c Hc. apply in_flat_map in Hc. destruct Hc as [[o o'] [HO Hc]]. destruct (HL o o' HO). cbn [fst snd] in Hc. destruct Hc as [<-|[<-|[]]]; eauto 6. }
  assert (VALS : forall t t' hc V, qwf P comps t -> exec before comps true t (fp_circuit cs pts) = Some (t', hc, cc) -> respects P V hc t' -> checks P cs V pts ->
    forall a b, In (Copy a b) cc -> V a = V b).
  { intros t t' hc V Wt E RS CK. refine (exec_wp P before comps V _ (fp_circuit cs pts) true t t' hc cc (fun l => forall a b, In (Copy a b) l -> V a = V b) Wt E RS _).
    intros zero HZ. apply wp_points; [exact ABS|exact HZ|]. intros l HL. apply HL. exact CK. }
  assert (SAME : forall t t' hh l t1 t1' hh' l' b b' k i c, qwf P comps t -> exec before comps b t (fp_outs P cs pts) = Some (t', hh, l) -> qwf P comps t1 -> le P t' t1 ->
    exec before comps b' t1 (fp_outs P cs pts) = Some (t1', hh', l') -> (In (QAdd k i c) hh' -> In (QAdd k i b) hh) /\ (In (QAdd k i c) hh -> In (QAdd k i b') hh')).
  { intros t t' hh l t1 t1' hh' l' b b' k i c Wt E Wt1 LE E'. destruct (exec_again P before comps _ _ _ _ _ _ _ _ _ _ _ _ Wt Wt1 E LE E') as [_ EH].
    assert (ER : forall f u u' g r c0, exec before comps f u (fp_outs P cs pts) = Some (u', g, r) -> (In (QAdd k i c0) g -> In (QAdd k i false) (map (erase P) g)) /\ (In (QAdd k i false) (map (erase P) g) -> In (QAdd k i f) g)).
    { intros f u u' g r c0 X. split; [intros HI; apply in_map_iff; exists (QAdd k i c0); auto|]. intros HI. apply in_map_iff in HI. destruct HI as [[k' i' b0|o] [E1 HI]]; [|discriminate E1].
      injection E1 as -> ->. rewrite <- (exec_flags _ _ _ _ _ _ _ _ _ _ _ _ _ X HI). exact HI. }
    split; intros HI.
    - apply (ER _ _ _ _ _ false E). rewrite <- EH. apply (ER _ _ _ _ _ c E'). exact HI.
    - apply (ER _ _ _ _ _ false E'). rewrite EH. apply (ER _ _ _ _ _ c E). exact HI. }
  destruct B as [[st1 [ha [hc [EA [EC ->]]]]]|[st1 [ha [hc [EC [EA ->]]]]]].
  - destruct (assign_parts _ _ _ _ _ EA) as [l0 EA']. destruct (circuit_parts _ _ _ _ _ EC) as [s1 [h1 [l [ES [EC' [-> ECC]]]]]].
    destruct (exec_log _ _ _ _ _ _ _ _ _ _ EA') as [ra RA]. destruct (exec_log _ _ _ _ _ _ _ _ _ _ EC) as [rc RC].
    destruct (runs_le P before comps _ _ _ _ W RA) as [W1 LE1]. assert (W1' : qwf P comps (s1, snd st1)) by (destruct st1; eapply op_wf; eassumption).
    destruct (runs_le P before comps _ _ _ _ W1 RC) as [W2 LE2].
    destruct (outs_calls _ _ _ _ _ W EA') as [CA _]. destruct (outs_calls _ _ _ _ _ W1' EC') as [CC CR].
    assert (LES : le P st1 (s1, snd st1)).
    { split; [intros ? ? ? X; exact X|]. destruct (step_bconst _ _ _ _ ES) as [lb EL]. exists lb. exact EL. }
    exists (ra ++ rc). split; [eapply runs_app; eassumption|]. split; [|split; [|split]].
    + eapply careful_app; [exact RA| |eapply circuit_known; eassumption].
      destruct (uses_assign P before comps ONE _ (fp_outs P cs pts) (fun v => In v (inputs cs pts)) _ st W CO SE HK (uses_inputs_k _ (fun v H => H))) as [t [g [r [K' [E [AC _]]]]]].
      rewrite EA' in E. injection E as <- <- <-. exact AC.
    + intros k i b HI. apply in_app_or in HI. destruct HI as [HI|[HI|HI]]; [|discriminate HI|].
      * destruct (CA _ _ _ HI) as [-> [X1 [X2 X3]]]. split; [exact X1|]. split; [exact X2|]. split; [exact X3|]. apply in_or_app. left. exact HI.
      * destruct (CC _ _ _ HI) as [_ [X1 [X2 X3]]]. split; [exact X1|]. split; [exact X2|]. split; [exact X3|]. apply in_or_app. left.
        apply (SAME _ _ _ _ _ _ _ _ _ _ k i b W EA' W1' LES EC'). exact HI.
    + intros V [R1 R2] CK. apply (VALS _ _ _ V W1 EC); [|exact CK]. split; [|exact R2]. intros k a b fc o vs Hk HI. apply (R1 k a b fc o vs Hk). apply in_or_app. right. exact HI.
    + subst cc. apply COPIES; [exact CR|apply const_internal].
  - destruct (assign_parts _ _ _ _ _ EA) as [l0 EA']. destruct (circuit_parts _ _ _ _ _ EC) as [s1 [h1 [l [ES [EC' [EH ECC]]]]]].
    destruct (exec_log _ _ _ _ _ _ _ _ _ _ EC) as [rc RC]. destruct (exec_log _ _ _ _ _ _ _ _ _ _ EA') as [ra RA].
    destruct (runs_le P before comps _ _ _ _ W RC) as [W1 LE1]. assert (W1' : qwf P comps (s1, snd st)) by (destruct st; eapply op_wf; eassumption).
    destruct (runs_le P before comps _ _ _ _ W1 RA) as [W2 LE2].
    destruct (outs_calls _ _ _ _ _ W1 EA') as [CA _]. destruct (outs_calls _ _ _ _ _ W1' EC') as [CC CR].
    destruct (circuit_known _ _ _ _ _ _ _ _ _ W EC) as [ACC KC].
    destruct (runs_values P before comps hc _ _ _ RC W CO SE ACC) as [CO1 SE1].
    exists (rc ++ ra). split; [eapply runs_app; eassumption|]. split; [|split; [|split]].
    + eapply careful_app; [exact RC|exact ACC|].
      destruct (uses_assign P before comps ONE _ (fp_outs P cs pts) (fun v => In v (inputs cs pts)) _ st1 W1 CO1 SE1 (fun v H => proj1 (KC v (HK v H))) (uses_inputs_k _ (fun v H => H))) as [t [g [r [K' [E [AC _]]]]]].
      rewrite EA' in E. injection E as <- <- <-. exact AC.
    + intros k i b HI. apply in_app_or in HI. destruct HI as [HI|HI].
      * rewrite EH in HI. destruct HI as [HI|HI]; [discriminate HI|].
        destruct (CC _ _ _ HI) as [_ [X1 [X2 X3]]]. split; [exact X1|]. split; [exact X2|]. split; [exact X3|]. apply in_or_app. right.
        apply (SAME _ _ _ _ _ _ _ _ _ _ k i b W1' EC' W1 (le_refl P st1) EA'). exact HI.
      * destruct (CA _ _ _ HI) as [-> [X1 [X2 X3]]]. split; [exact X1|]. split; [exact X2|]. split; [exact X3|]. apply in_or_app. right. exact HI.
    + intros V [R1 R2] CK. apply (VALS _ _ _ V W EC); [|exact CK]. split.
      * intros k a b fc o vs Hk HI HA. apply (R1 k a b fc o vs Hk); [apply in_or_app; left; exact HI|apply LE2; exact HA].
      * intros v x HX. apply R2. eapply const_at_le; eassumption.
    + subst cc. apply COPIES; [exact CR|apply const_internal].
Qed.
(** Both orders are defined. *)
Lemma both_defined : forall st, qwf P comps st -> consistent P comps st -> settled P st -> (forall v, In v (inputs cs pts) -> known P st v) ->
  (exists st1 ha st' hc cc, exec before comps false st (fp_assign cs pts) = Some (st1, ha, tt) /\ exec before comps true st1 (fp_circuit cs pts) = Some (st', hc, cc)) /\
  (exists st1 hc cc st' ha, exec before comps true st (fp_circuit cs pts) = Some (st1, hc, cc) /\ exec before comps false st1 (fp_assign cs pts) = Some (st', ha, tt)).
Proof.
  intros st W CO SE HK. pose proof (uses_inputs_k (fun v => In v (inputs cs pts)) (fun v H => H)) as U.
  assert (CIRC : forall t, qwf P comps t -> exists t' hc cc, exec before comps true t (fp_circuit cs pts) = Some (t', hc, cc)).
  { intros t Wt. unfold fp_circuit. cbn [exec]. destruct (const_total P (fst t) f0) as [s1 ES]. rewrite ES, points_outs. assert (W1 : qwf P comps (s1, snd t)) by (destruct t; eapply op_wf; eassumption).
    destruct (uses_circuit P before comps ONE _ _ _ _ _ W1 U) as [a [b [c E]]]. rewrite E. cbn [result]. eauto. }
  split.
  - destruct (uses_assign P before comps ONE _ _ _ _ st W CO SE HK U) as [st1 [ha [l [_ [E _]]]]]. destruct (exec_le _ _ _ _ _ _ _ _ _ _ W E) as [W1 _].
    destruct (CIRC st1 W1) as [st' [hc [cc EC]]]. exists st1, ha, st', hc, cc. split; [|exact EC]. rewrite assign_outs, E. reflexivity.
  - destruct (CIRC st W) as [st1 [hc [cc EC]]]. destruct (exec_log _ _ _ _ _ _ _ _ _ _ EC) as [rc RC]. destruct (runs_le P before comps _ _ _ _ W RC) as [W1 _].
    destruct (circuit_known _ _ _ _ _ _ _ _ _ W EC) as [ACC KC]. destruct (runs_values P before comps hc _ _ _ RC W CO SE ACC) as [CO1 SE1].
    destruct (uses_assign P before comps ONE _ _ _ _ st1 W1 CO1 SE1 (fun v H => proj1 (KC v (HK v H))) U) as [st' [ha [l [_ [E _]]]]].
    exists st1, hc, cc, st', ha. split; [exact EC|]. rewrite assign_outs, E. reflexivity.
Qed.
End Both.

(** Completeness: after a history that meets the conditions of [batch_complete],
    with the values of all inputs there, both functions are defined in either order;
    if the polynomial takes the given values, the finalised table satisfies the
    finalised circuit including the copy constraints of the component. *)
Theorem final_polynomial_defined : forall P before comps (s : astate P) h0 st0 rs0 cs pts,
  std_arith comps -> qruns before comps (s, fun _ => []) h0 = Some (st0, rs0) -> all_careful P before comps (s, fun _ => []) h0 ->
  cs <> [] -> (forall v, In v (inputs cs pts) -> vrel v = false /\ known P st0 v) ->
  (exists st1 ha st' hc cc, exec before comps false st0 (fp_assign cs pts) = Some (st1, ha, tt) /\ exec before comps true st1 (fp_circuit cs pts) = Some (st', hc, cc)) /\
  (exists st1 hc cc st' ha, exec before comps true st0 (fp_circuit cs pts) = Some (st1, hc, cc) /\ exec before comps false st1 (fp_assign cs pts) = Some (st', ha, tt)).
Proof.
  intros P before comps s h0 st0 rs0 cs pts STD R0 AC NE HI. pose proof (runs_wf P before comps _ _ _ _ R0 (empty_wf P comps s)) as [Q0 _].
  destruct (runs_values P before comps h0 _ _ _ R0 (empty_wf P comps s)) as [CO SE]; [intros ? ? []|intros ? ? ? []|exact AC|].
  apply both_defined; auto; [intros c Hc; apply HI; apply in_or_app; auto|]. intros v Hv. apply HI. exact Hv.
Qed.
Print Assumptions final_polynomial_defined.

Theorem final_polynomial_complete : forall P before comps (s : astate P) h0 st0 rs0 cs pts s' m h cc rs ks W start cmds L (T : table P) (ok : nat -> list (F P) -> Prop),
  let bs := batches P comps m ks in let next := snd (finalize_all W bs start) in
  std_arith comps -> qruns before comps (s, fun _ => []) h0 = Some (st0, rs0) -> all_careful P before comps (s, fun _ => []) h0 ->
  cs <> [] -> (forall v, In v (inputs cs pts) -> vrel v = false /\ known P st0 v /\ clear_var W start next v) ->
  fp_both before comps st0 cs pts (s', m) h cc ->
  qruns before comps (s, fun _ => []) (h0 ++ h) = Some ((s', m), rs) ->
  well_called comps h0 -> fitting comps (h0 ++ h) ks W ->
  (forall k i b, In (QAdd k i b) h0 -> In (QAdd k i false) h0) ->
  (forall k, In k ks -> (3 <= k)%nat -> honest P (comps k) (ok k)) ->
  (forall k i b, In (QAdd k i b) h0 -> ((3 <= k)%nat -> ok k (map (vval T) i)) /\ forall v, In v i -> clear_var W start next v) ->
  (forall k i b vs v x, called (h0 ++ h) rs k i b vs -> In v i \/ In v vs -> var_value s' v = Some x -> vval T v = x) ->
  holds_constants s' T ->
  (forall p v v', In (p, v, v') pts -> poly P (map (vval T) cs) (vval T p) = vval T v /\ poly P (map (vval T) cs) (fopp (vval T p)) = vval T v') ->
  rest_clear P W bs start cmds -> sat L T cmds ->
  sat L (final_table W bs start T) (final_circuit W bs start (cmds ++ cc)) /\
  forall ty c r, ~ (ty = CWit /\ start <= r < next /\ 0 <= c < W) -> final_table W bs start T ty c r = T ty c r.
Proof.
  intros P before comps s h0 st0 rs0 cs pts s' m h cc rs ks W start cmds L T ok bs next STD R0 AC NE HI FB R WC FT BOTH HON OK REP HC CK RC SAT.
  pose proof (runs_wf P before comps _ _ _ _ R0 (empty_wf P comps s)) as [Q0 _].
  destruct (runs_values P before comps h0 _ _ _ R0 (empty_wf P comps s)) as [CO SE]; [intros ? ? []|intros ? ? ? []|exact AC|].
  destruct (both_spec P before comps STD cs pts) with (st := st0) (st' := (s', m)) (h := h) (cc := cc) as [rs1 [R1 [AC1 [CALLS [VALS COP]]]]]; auto.
  { intros c Hc. apply HI. apply in_or_app. auto. } { intros v Hv. apply HI. exact Hv. }
  assert (ACA : all_careful P before comps (s, fun _ => []) (h0 ++ h)) by (eapply careful_app; eassumption).
  pose proof (runs_wf P before comps _ _ _ _ R (empty_wf P comps s)) as [Q [LR [_ [_ HCL]]]].
  destruct (runs_values P before comps _ _ _ _ R (empty_wf P comps s)) as [CO' _]; [intros ? ? []|intros ? ? ? []|exact ACA|].
  assert (INT : forall v, internal v -> vrel v = false /\ clear_var W start next v).
  { intros v [[r ->]|[r ->]]; (split; [reflexivity|]); intros [X _]; discriminate X. }
  assert (CLR : forall v, In v (inputs cs pts) \/ internal v -> vrel v = false /\ clear_var W start next v).
  { intros v [Hv|Hv]; [|apply INT; exact Hv]. destruct (HI v Hv) as [A [_ B]]. auto. }
  assert (RESP : respects P (vval T) h (s', m)).
  { split.
    - intros k a b fc o vs Hk HIN HA. destruct (CALLS _ _ _ HIN) as [_ [_ [_ HF]]].
      assert (HF' : In (QAdd k [a; b] false) (h0 ++ h)) by (apply in_or_app; right; exact HF).
      pose proof (called_of_has P before comps s _ _ _ _ _ _ _ R HF' HA) as CL. pose proof CL as [n [N1 N2]].
      destruct (HCL _ _ _ _ _ N1 N2) as [_ D]. specialize (D eq_refl).
      destruct (CO' k _ D eq_refl) as [xs [V1 V2]]. cbn [e_in e_res values fst] in V1, V2.
      destruct (var_value s' a) as [xa|] eqn:Ea; [|discriminate V1]. destruct (var_value s' b) as [xb|] eqn:Eb; [|discriminate V1]. injection V1 as <-.
      destruct (var_value s' o) as [xo|] eqn:Eo; [|discriminate V2]. destruct (values s' vs); [|discriminate V2].
      destruct (std_case P comps STD k Hk) as [cc0 [E _]]. rewrite E in V2. injection V2 as EO _.
      rewrite (REP _ _ _ _ a xa CL ltac:(left; left; reflexivity) Ea), (REP _ _ _ _ b xb CL ltac:(left; right; left; reflexivity) Eb), (REP _ _ _ _ o xo CL ltac:(right; left; reflexivity) Eo).
      exact EO.
    - intros v x [j [-> NJ]]. apply HC. exact NJ. }
  refine (batch_complete P before comps s (h0 ++ h) s' m rs ks W start (cmds ++ cc) L T (fun k xs => (3 <= k)%nat -> ok k xs) R ACA _ FT _ _ _ REP _ _).
  - intros k i b HIN. apply in_app_or in HIN. destruct HIN as [HIN|HIN]; [apply (WC k i b HIN)|]. destruct (CALLS _ _ _ HIN) as [Hk [L2 [HV _]]].
    split; [|intros v Hv; apply (CLR v (HV v Hv))]. destruct (std_case P comps STD k Hk) as [c0 [-> _]]. exact L2.
  - intros k i b HIN. apply in_app_or in HIN. apply in_or_app. destruct HIN as [HIN|HIN]; [left; eapply BOTH; eassumption|right; eapply CALLS; eassumption].
  - intros k HK. destruct (Nat.lt_ge_cases k 3) as [Hk|Hk].
    + destruct (std_honest P comps STD k Hk) as [A B]. split; [intros xs _; apply A; exact I|exact B].
    + destruct (HON k HK Hk) as [A B]. split; [intros xs HX; apply A; apply HX; exact Hk|exact B].
  - intros k i b HIN. apply in_app_or in HIN. destruct HIN as [HIN|HIN]; [apply (OK k i b HIN)|]. destruct (CALLS _ _ _ HIN) as [Hk [_ [HV _]]].
    split; [intros; lia|]. intros v Hv. apply (CLR v (HV v Hv)).
  - destruct RC as [RG [RL RK]]. split; [|split].
    + intros c0 rows e v r HIN. apply in_app_or in HIN. destruct HIN as [HIN|HIN]; [eapply RG; eassumption|]. destruct (COP _ HIN) as [a [b [X _]]]. discriminate X.
    + intros ls rows t es e v r HIN. apply in_app_or in HIN. destruct HIN as [HIN|HIN]; [eapply RL; eassumption|]. destruct (COP _ HIN) as [a [b [X _]]]. discriminate X.
    + intros a b x HIN HX. apply in_app_or in HIN. destruct HIN as [HIN|HIN]; [eapply RK; eassumption|]. destruct (COP _ HIN) as [a' [b' [X [A B]]]]. injection X as <- <-.
      destruct HX as [-> | ->]; apply CLR; assumption.
  - intros c Hc. apply in_app_or in Hc. destruct Hc as [Hc|Hc]; [apply SAT; exact Hc|]. destruct (COP _ Hc) as [a [b [-> _]]]. cbn [holds]. apply (VALS (vval T) RESP CK). exact Hc.
Qed.
Print Assumptions final_polynomial_complete.

(** ** Examples *)
Definition comps_ev (k : nat) : bcomp P97 := match k with O => mul_comp | 1%nat => add_comp | _ => sub_comp end.
Example ev_std : std_arith comps_ev.
Proof. split; [|split]; reflexivity. Qed.
(** Coefficients 2, 3, 5, the point 4, and the values 49 and 25 at 4 and -4. *)
Definition s_ev : astate P97 := mkA (repeat [] 7) [[ofZ 2; ofZ 3; ofZ 5; ofZ 4; ofZ 49; ofZ 25]] [] [[]] [[]] [] [] [] 0.
Definition cs_ev : list var := [pubv 0; pubv 1; pubv 2].
Definition pts_ev : list (var * var * var) := [(pubv 3, pubv 4, pubv 5)].
Definition st_ev : qstate P97 := (s_ev, fun _ => []).
Lemma inputs_ev : forall v, In v (inputs cs_ev pts_ev) -> vrel v = false /\ known P97 st_ev v /\ vty v = CPub.
Proof.
  intros v Hv. cbn in Hv. repeat (destruct Hv as [<-|Hv]; [split; [reflexivity|]; split; [|reflexivity]; split; [eexists; vm_compute; reflexivity|intros [w [[k [e [[] _]]] _]]]|]). destruct Hv.
Qed.
Example ex_poly_defined :
  (exists st1 ha st' hc cc, exec last_in comps_ev false st_ev (fp_assign cs_ev pts_ev) = Some (st1, ha, tt) /\ exec last_in comps_ev true st1 (fp_circuit cs_ev pts_ev) = Some (st', hc, cc)) /\
  (exists st1 hc cc st' ha, exec last_in comps_ev true st_ev (fp_circuit cs_ev pts_ev) = Some (st1, hc, cc) /\ exec last_in comps_ev false st1 (fp_assign cs_ev pts_ev) = Some (st', ha, tt)).
Proof.
  apply (final_polynomial_defined P97 last_in comps_ev s_ev [] st_ev [] cs_ev pts_ev ev_std eq_refl I); [discriminate|].
  intros v Hv. destruct (inputs_ev v Hv) as [A [B _]]. auto.
Qed.
(** The whole component in seven columns, circuit first. *)
Definition T_of (s : astate P97) : table P97 := fun ty c r =>
  if ctype_eqb ty CPub && (c =? bpriv_index) then match get_cell (a_bpriv s) r with Some x => x | None => f0 end
  else if ctype_eqb ty CConst && (c =? bconst_index) then match get_cell (a_bconst s) r with Some x => x | None => f0 end
  else a_table s ty c r.
Example ex_poly_complete : forall L, exists s' m h cc,
  fp_both last_in comps_ev st_ev cs_ev pts_ev (s', m) h cc /\ length h = 21%nat /\ length cc = 2%nat /\
  let bs := batches P97 comps_ev m [0; 1; 2]%nat in
  snd (finalize_all 7 bs 4) = 9 /\ sat L (final_table 7 bs 4 (T_of s')) (final_circuit 7 bs 4 cc).
Proof.
  intros L.
  assert (X : exists s' m hc cc ha st1, exec last_in comps_ev true st_ev (fp_circuit cs_ev pts_ev) = Some (st1, hc, cc) /\
     exec last_in comps_ev false st1 (fp_assign cs_ev pts_ev) = Some ((s', m), ha, tt) /\
     exists rs, qruns last_in comps_ev (s_ev, fun _ => []) (hc ++ ha) = Some ((s', m), rs) /\
     length (hc ++ ha) = 21%nat /\ length cc = 2%nat /\ snd (finalize_all 7 (batches P97 comps_ev m [0; 1; 2]%nat) 4) = 9 /\
     (forall k i b vs v x, called (hc ++ ha) rs k i b vs -> In v i \/ In v vs -> var_value s' v = Some x -> vval (T_of s') v = x) /\
     holds_constants s' (T_of s') /\ (forall k i b, In (QAdd k i b) (hc ++ ha) -> In k [0; 1; 2]%nat) /\
     (forall p v v', In (p, v, v') pts_ev -> poly P97 (map (vval (T_of s')) cs_ev) (vval (T_of s') p) = vval (T_of s') v /\ poly P97 (map (vval (T_of s')) cs_ev) (fopp (vval (T_of s') p)) = vval (T_of s') v')).
  { do 6 eexists. split; [vm_compute; reflexivity|]. split; [vm_compute; reflexivity|]. eexists. split; [vm_compute; reflexivity|]. split; [reflexivity|]. split; [reflexivity|]. split; [vm_compute; reflexivity|].
    split; [|split; [|split]].
    - intros k i b vs v x [n [C1 C2]] HV HX.
      do 21 (destruct n as [|n]; [cbn in C1, C2; first [discriminate C1|injection C1 as <- <- <-; injection C2 as <-; cbn [In] in HV; repeat (destruct HV as [HV|HV]); try contradiction; subst v; vm_compute in HX |- *; congruence]|]).
      cbn in C1. destruct n; discriminate C1.
    - intros j x Hj. destruct j as [|j]; [injection Hj as <-; reflexivity|cbn in Hj; destruct j; discriminate Hj].
    - intros k i b HI. cbn in HI. repeat (destruct HI as [E|HI]; [first [discriminate E|injection E as <- <- <-; cbn; auto]|]). destruct HI.
    - intros p v v' [E|[]]. injection E as <- <- <-. split; apply feqb_eq; vm_compute; reflexivity. }
  destruct X as [s' [m [hc [cc [ha [st1 [EC [EA [rs [R [LH [LC [NX [REP [HC [KS CK]]]]]]]]]]]]]]]].
  exists s', m, (hc ++ ha), cc. assert (FB : fp_both last_in comps_ev st_ev cs_ev pts_ev (s', m) (hc ++ ha) cc) by (right; exists st1, ha, hc; auto).
  split; [exact FB|]. split; [exact LH|]. split; [exact LC|]. split; [exact NX|].
  refine (proj1 (final_polynomial_complete P97 last_in comps_ev s_ev [] st_ev [] cs_ev pts_ev s' m (hc ++ ha) cc rs [0; 1; 2]%nat 7 4 [] L (T_of s') (fun _ _ => True)
    ev_std eq_refl I ltac:(discriminate) _ FB R _ _ _ _ _ REP HC CK _ _)).
  - intros v Hv. destruct (inputs_ev v Hv) as [A [B C]]. split; [exact A|]. split; [exact B|]. intros [D _]. congruence.
  - intros k i b [].
  - split; [repeat constructor; cbn; intuition discriminate|]. split; [|exact KS]. intros k [<-|[<-|[<-|[]]]]; cbn; lia.
  - intros k i b [].
  - intros k [<-|[<-|[<-|[]]]] Hk; lia.
  - intros k i b [].
  - split; [intros ? ? ? ? ? []|]. split; [intros ? ? ? ? ? ? ? []|intros ? ? ? []].
  - intros c [].
Qed.

(** [3 x y + x ^ 5 - 7] at [x = 2], [y = 5], of value 55: the calls, the value, and the same
    variable again from generate_circuit. *)
Definition e_ev : expr P97 := EBin OSub (EBin OAdd (ETerm (ofZ 3) [wv 0 0; wv 1 (-1)]) (EPow (ETerm f1 [wv 0 0]) 5)) (ETerm (ofZ 7) []).
Definition mp_ev (v : var) : option var := if var_eqb v (wv 0 0) then Some (pubv 0) else if var_eqb v (wv 1 (-1)) then Some (pubv 2) else None.
Example ex_eval : exists st2 hh out, exec last_in comps_ev false st_ev (ev mp_ev e_ev) = Some (st2, hh, out) /\
  var_value (fst st2) out = Some (ofZ 55) /\ length hh = 11%nat /\
  exists st4 hh', exec last_in comps_ev true st2 (ev mp_ev e_ev) = Some (st4, hh', out) /\ length hh' = 11%nat.
Proof.
  destruct (expression_evaluation_value P97 last_in comps_ev s_ev [] st_ev [] mp_ev e_ev (fun v => if var_eqb v (wv 0 0) then ofZ 2 else ofZ 5) ev_std eq_refl I) as [st2 [hh [out [E [V _]]]]].
  - cbn. repeat split; lia.
  - intros v Hv. cbn in Hv. destruct Hv as [<-|[<-|[<-|[]]]]; (eexists; split; [vm_compute; reflexivity|]; split; [intros [w [[k [e [[] _]]] _]]|vm_compute; reflexivity]).
  - assert (EX : exists a b c, exec last_in comps_ev false st_ev (ev mp_ev e_ev) = Some (a, b, c) /\ length b = 11%nat /\ exists d g, exec last_in comps_ev true a (ev mp_ev e_ev) = Some (d, g, c) /\ length g = 11%nat).
    { do 3 eexists. split; [vm_compute; reflexivity|]. split; [reflexivity|]. do 2 eexists. split; [vm_compute; reflexivity|reflexivity]. }
    destruct EX as [a [b [c [E1 [L1 [d [g [E2 L2]]]]]]]]. rewrite E in E1. injection E1 as <- <- <-.
    exists st2, hh, out. split; [exact E|]. split; [rewrite V; vm_compute; reflexivity|]. split; [exact L1|]. exists d, g. auto.
Qed.
(** A circuit that evaluates the expression and exposes the result: a satisfying
    table has the value of the expression in its public input. *)
Section Ring97.
Add Field F97 : (F_field P97) (morphism (F_morph P97), constants [F_const], power_tac (F_power P97) [F_pow_tac]).
Lemma ev_ring : forall x y : F P97,
  fsub (fadd (fmul (ofZ 3) (fmul x (fmul y f1))) (fpow (fmul f1 (fmul x f1)) 5)) (fmul (ofZ 7) f1) = fsub (fadd (fmul (ofZ 3) (fmul x y)) (fpow x 5)) (ofZ 7).
Proof. intros. ring. Qed.
End Ring97.
Example ex_eval_sound : forall L T m s' rs hh st2 out,
  exec last_in comps_ev true st_ev (ev mp_ev e_ev) = Some (st2, hh, out) ->
  qruns last_in comps_ev (s_ev, fun _ => []) hh = Some ((s', m), rs) ->
  T CConst bconst_index 0 = ofZ 3 -> T CConst bconst_index 1 = f1 -> T CConst bconst_index 2 = ofZ 7 ->
  sat L T (final_circuit 7 (batches P97 comps_ev m [0; 1; 2]%nat) 4 [Copy out (pubv 5)]) ->
  T CPub 0 5 = fsub (fadd (fmul (ofZ 3) (fmul (T CPub 0 0) (T CPub 0 2))) (fpow (T CPub 0 0) 5)) (ofZ 7).
Proof.
  intros L T m s' rs hh st2 out EX R C0 C1 C2 SAT.
  assert (X : exists a b c, exec last_in comps_ev true st_ev (ev mp_ev e_ev) = Some (a, b, c) /\ well_called comps_ev b /\ (forall k i f, In (QAdd k i f) b -> In k [0; 1; 2]%nat) /\
     (forall d r, qruns last_in comps_ev (s_ev, fun _ => []) b = Some (d, r) -> a_bconst (fst d) = [ofZ 3; f1; ofZ 7]) /\ vrel c = false).
  { do 3 eexists. split; [vm_compute; reflexivity|]. split; [|split; [|split]].
    - intros k i b HI. cbn in HI. repeat (destruct HI as [E|HI]; [first [discriminate E|injection E as <- <- <-; split; [reflexivity|]; cbn; intros v Hv; repeat (destruct Hv as [<-|Hv]; [reflexivity|]); destruct Hv]|]). destruct HI.
    - intros k i b HI. cbn in HI. repeat (destruct HI as [E|HI]; [first [discriminate E|injection E as <- <- <-; cbn; auto]|]). destruct HI.
    - intros d r E. vm_compute in E. injection E as <- <-. vm_compute. reflexivity.
    - reflexivity. }
  destruct X as [a [b [c [E [WC [KS [BC RV]]]]]]]. rewrite EX in E. injection E as <- <- <-. specialize (BC _ _ R). cbn [fst] in BC.
  destruct (expression_evaluation_sound P97 last_in comps_ev s_ev hh s' m rs [0; 1; 2]%nat 7 4 [Copy out (pubv 5)] L T (fun _ _ _ => True) ev_std R WC) as [T' [FR [RS [_ EV]]]]; auto.
  - split; [repeat constructor; cbn; intuition discriminate|]. split; [|exact KS]. intros k [<-|[<-|[<-|[]]]]; cbn; lia.
  - split; [intros ? ? ? ? [Y|[]]; discriminate Y|]. split; [intros ? ? ? ? ? ? [Y|[]]; discriminate Y|]. intros x y [Y|[]]. injection Y as <- <-. split; [exact RV|reflexivity].
  - intros j x Hj. rewrite BC in Hj. destruct j as [|[|[|j]]]; cbn in Hj; [injection Hj as <-; assumption..|destruct j; discriminate Hj].
  - assert (PUB : forall r, T CPub 0 r = T' CPub 0 r) by (intros r; symmetry; apply FR; intros [_ Y]; discriminate Y).
    rewrite !PUB. change (T' CPub 0 5) with (vval T' (pubv 5)). rewrite <- (RS _ (or_introl eq_refl) : vval T' out = vval T' (pubv 5)).
    rewrite (EV true mp_ev e_ev out (fun v => if var_eqb v (wv 0 0) then T' CPub 0 0 else T' CPub 0 2)).
    + unfold e_ev. cbn [meaning map fold_right]. change (var_eqb (wv 0 0) (wv 0 0)) with true. change (var_eqb (wv 1 (-1)) (wv 0 0)) with false.
      generalize (T' CPub 0 0) (T' CPub 0 2). exact ev_ring.
    + exists [], hh, [], st_ev, [], st2. rewrite app_nil_r. auto.
    + intros v u Hv. cbn in Hv. destruct Hv as [<-|[<-|[<-|[]]]]; vm_compute; intros Y; injection Y as <-; reflexivity.
Qed.
