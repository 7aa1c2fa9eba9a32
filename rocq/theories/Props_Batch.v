(** Component batching: include/nil/blueprint/component_batch.hpp. *)
From Coq Require Import ZArith List Lia Bool Field.
From Verif Require Import Base Field Primes Plonk PlonkFacts AssignModel AssignProofs BuilderModel BuilderProofs FinalizeModel BatchModel BatchProofs BatchQueue.
Import ListNotations.
Open Scope Z_scope.

(** ** C25: queueing *)

(** [called h rs k i b vs]: the history contains an [add_input] of component [k] on
    inputs [i], from generate_circuit or not, that returned [vs]. *)
Definition called {P} (h : list (qcall P)) (rs : list (list var)) (k : nat) (i : list var) (b : bool) (vs : list var) : Prop :=
  exists n, nth_error h n = Some (QAdd k i b) /\ nth_error rs n = Some vs.

(** Equal calls get the same result variables; different calls get variables
    that have nothing in common.  All of them are distinct slots of the batch store. *)
Theorem batch_queue_shares : forall P before comps (s : astate P) h st rs k i b vs k' i' b' vs',
  qruns before comps (s, fun _ => []) h = Some (st, rs) -> called h rs k i b vs -> called h rs k' i' b' vs' ->
  ((k = k' /\ i = i') -> vs = vs') /\
  (~ (k = k' /\ i = i') -> forall v, In v vs -> ~ In v vs') /\
  NoDup vs /\ length vs = length (b_out (comps k)) /\ (forall v, In v vs -> exists r, v = mkVar bpriv_index r false CPub).
Proof.
  intros P before comps s h st rs k i b vs k' i' b' vs' H [n [C1 C2]] [n' [C1' C2']].
  destruct (runs_wf P before comps h _ _ _ H (empty_wf P comps s)) as [Q [_ [_ [_ HC]]]].
  destruct (HC _ _ _ _ _ C1 C2) as [HA _]. destruct (HC _ _ _ _ _ C1' C2') as [HA' _]. split; [|split].
  - intros [<- <-]. eapply has_unique; eassumption.
  - intros N v Hv Hv'. apply N. eapply has_disjoint; eassumption.
  - destruct st as [s' m]. destruct HA as [d HA]. destruct Q as [Q1 _]. destruct (Q1 k _ HA) as [L [ND SL]]. cbn [e_res] in *.
    split; [exact ND|]. split; [exact L|]. intros v Hv. destruct (SL v Hv) as [BV _]. exact BV.
Qed.
Print Assumptions batch_queue_shares.

(** The value of the result variables is the component's result on the values of
    the inputs, for every call made by generate_assignments, at the end of any
    history in which no such call reads a result that has not been computed and
    no other write changes an assigned cell. *)
Theorem batch_queue_values : forall P before comps (s : astate P) h st rs k i vs,
  qruns before comps (s, fun _ => []) h = Some (st, rs) -> all_careful P before comps (s, fun _ => []) h ->
  called h rs k i false vs ->
  exists xs, values (fst st) i = Some xs /\ values (fst st) vs = Some (b_outs (comps k) xs).
Proof.
  intros P before comps s h st rs k i vs H AC [n [C1 C2]].
  destruct (runs_wf P before comps h _ _ _ H (empty_wf P comps s)) as [_ [_ [_ [_ HC]]]]. destruct (HC _ _ _ _ _ C1 C2) as [_ HD].
  destruct (runs_values P before comps h _ _ _ H (empty_wf P comps s)) as [CO _]; [intros ? ? []|intros ? ? ? []|exact AC|].
  apply (CO k _ (HD eq_refl) eq_refl).
Qed.
Print Assumptions batch_queue_values.

(** ** C25: finalisation *)

(** Calls have the arity of the component, with absolute variables. *)
Definition well_called {P} (comps : nat -> bcomp P) (h : list (qcall P)) : Prop :=
  forall k i b, In (QAdd k i b) h -> length i = length (b_in (comps k)) /\ forall v, In v i -> vrel v = false.
(** The components [ks] fit into [W] columns and are all that was called. *)
Definition fitting {P} (comps : nat -> bcomp P) (h : list (qcall P)) (ks : list nat) (W : Z) : Prop :=
  NoDup ks /\ (forall k, In k ks -> 1 <= b_w (comps k) <= W) /\ (forall k i b, In (QAdd k i b) h -> In k ks).

Lemma batches_of_run : forall P before comps (s : astate P) h s' m rs ks W,
  qruns before comps (s, fun _ => []) h = Some ((s', m), rs) -> well_called comps h -> fitting comps h ks W ->
  wf_batches P W (batches P comps m ks).
Proof.
  intros P before comps s h s' m rs ks W H WC [ND [HW _]].
  destruct (runs_wf P before comps h _ _ _ H (empty_wf P comps s)) as [Q _]. apply (batches_wf P comps s'); try assumption.
  intros k e He. destruct (runs_from P before comps h _ _ _ k e H He) as [[e0 [[] _]]|[b HB]]. apply (WC k _ b HB).
Qed.

(** Soundness: whatever table satisfies the finalised circuit, there is a reading
    of the batch variables that satisfies the rest of the circuit as it was
    written and under which every queued call is related as the component
    demands. *)
Theorem batch_sound : forall P before comps (s : astate P) h s' m rs ks W start cmds L (T : table P) (R : nat -> list (F P) -> list (F P) -> Prop),
  qruns before comps (s, fun _ => []) h = Some ((s', m), rs) -> well_called comps h -> fitting comps h ks W ->
  (forall k T r, In k ks -> (forall c, In c (b_cs (comps k)) -> eval T r c = f0) ->
     R k (map (fun c => T CWit c r) (b_in (comps k))) (map (fun c => T CWit c r) (b_out (comps k)))) ->
  no_store_reads P cmds ->
  sat L T (final_circuit W (batches P comps m ks) start cmds) ->
  exists T' : table P,
    (forall ty c r, ~ (ty = CPub /\ c = bpriv_index) -> T' ty c r = T ty c r) /\
    sat L T' cmds /\
    forall k i b vs, called h rs k i b vs -> R k (map (vval T') i) (map (vval T') vs).
Proof.
  intros P before comps s h s' m rs ks W start cmds L T R H WC FT HR NS SAT.
  pose proof (batches_of_run _ _ _ _ _ _ _ _ _ _ H WC FT) as WF. exists (resolved P W (batches P comps m ks) start T). split; [|split].
  - intros ty c r N. unfold resolved. destruct (_ && _) eqn:E; [|reflexivity]. rewrite andb_true_iff, ctype_eqb_eq, Z.eqb_eq in E. contradiction.
  - eapply rest_sound; eassumption.
  - intros k i b vs [n [C1 C2]]. destruct (runs_wf P before comps h _ _ _ H (empty_wf P comps s)) as [_ [_ [_ [_ HC]]]].
    destruct (HC _ _ _ _ _ C1 C2) as [[d HA] _]. cbn [snd] in HA. assert (IK : In k ks) by (eapply FT; eapply nth_error_In; exact C1).
    apply (entry_sound P W (batches P comps m ks) start cmds L T WF SAT (comps k) (m k) (mkE i vs d) (R k)); [|exact HA|].
    + unfold batches. apply in_map_iff. exists k. auto.
    + intros T0 r G. apply HR; assumption.
Qed.
Print Assumptions batch_sound.

(** Completeness: if the component's own assignment is honest, every call was also
    made by generate_assignments, and the table holds the values of the
    assignment object, then the finalised table satisfies the finalised circuit, and
    nothing outside the rows used for the batches changes. *)
Theorem batch_complete : forall P before comps (s : astate P) h s' m rs ks W start cmds L (T : table P) (ok : nat -> list (F P) -> Prop),
  let bs := batches P comps m ks in let next := snd (finalize_all W bs start) in
  qruns before comps (s, fun _ => []) h = Some ((s', m), rs) -> all_careful P before comps (s, fun _ => []) h ->
  well_called comps h -> fitting comps h ks W ->
  (forall k i b, In (QAdd k i b) h -> In (QAdd k i false) h) ->
  (forall k, In k ks -> honest P (comps k) (ok k)) ->
  (forall k i b, In (QAdd k i b) h -> ok k (map (vval T) i) /\ forall v, In v i -> clear_var W start next v) ->
  (forall k i b vs v x, called h rs k i b vs -> In v i \/ In v vs -> var_value s' v = Some x -> vval T v = x) ->
  rest_clear P W bs start cmds -> sat L T cmds ->
  sat L (final_table W bs start T) (final_circuit W bs start cmds) /\
  forall ty c r, ~ (ty = CWit /\ start <= r < next /\ 0 <= c < W) -> final_table W bs start T ty c r = T ty c r.
Proof.
  intros P before comps s h s' m rs ks W start cmds L T ok bs next H AC WC FT BOTH HON OK REP RC SAT.
  pose proof (batches_of_run _ _ _ _ _ _ _ _ _ _ H WC FT) as WF. fold bs in WF.
  pose proof (runs_wf P before comps h _ _ _ H (empty_wf P comps s)) as [Q [LR [_ [_ HC]]]].
  destruct (runs_values P before comps h _ _ _ H (empty_wf P comps s)) as [CO _]; [intros ? ? []|intros ? ? ? []|exact AC|].
  assert (CALL : forall k i b, In (QAdd k i b) h -> exists vs, called h rs k i b vs).
  { intros k i b HI. apply In_nth_error in HI. destruct HI as [n Hn]. destruct (nth_error rs n) as [vs|] eqn:E.
    - exists vs, n. auto.
    - apply nth_error_None in E. assert (n < length h)%nat by (apply nth_error_Some; congruence). lia. }
  assert (VAL : forall vs xs, (forall v x, In v vs -> var_value s' v = Some x -> vval T v = x) -> values s' vs = Some xs -> map (vval T) vs = xs).
  { induction vs as [|v vs IH]; intros xs HV HX; cbn [values map] in *; [congruence|]. destruct (var_value s' v) as [x|] eqn:E; [|discriminate].
    destruct (values s' vs) as [ys|]; [|discriminate]. injection HX as <-. f_equal; [apply HV; [left; reflexivity|exact E]|]. apply IH; [|reflexivity].
    intros w y Hw. apply HV. right. exact Hw. }
  assert (INK : forall B es, In (B, es) bs -> exists k, In k ks /\ B = comps k /\ es = m k).
  { intros B es HB. unfold bs, batches in HB. apply in_map_iff in HB. destruct HB as [k [E HK]]. injection E as <- <-. eauto. }
  (* one predicate per batch *)
  set (okB := fun (B : bcomp P) (xs : list (F P)) => length xs = length (b_in B) -> 
       length (b_row B xs) = Z.to_nat (b_w B) /\
       (forall T r, (forall c, 0 <= c < b_w B -> T CWit c r = nth (Z.to_nat c) (b_row B xs) f0) -> forall e, In e (b_cs B) -> eval T r e = f0) /\
       (map (fun c => nth (Z.to_nat c) (b_row B xs) f0) (b_in B) = xs)).
  assert (HON' : forall B es, In (B, es) bs -> honest P B (okB B)).
  { intros B es HB. destruct (INK B es HB) as [k [HK [-> ->]]]. split; [|apply (HON k HK)]. intros xs HX HL. apply HX. exact HL. }
  assert (ENT : forall B es e, In (B, es) bs -> In e es ->
    (forall v, In v (e_in e) -> clear_var W start next v) /\ okB B (map (vval T) (e_in e)) /\
    map (vval T) (e_res e) = b_outs B (map (vval T) (e_in e))).
  { intros B es e HB He. destruct (INK B es HB) as [k [HK [-> ->]]].
    destruct (runs_from P before comps h _ _ _ k e H He) as [[e0 [[] _]]|[b HI]]. destruct (OK k _ b HI) as [O1 O2].
    split; [exact O2|]. split; [intros HL; apply (HON k HK); assumption|].
    pose proof (BOTH _ _ _ HI) as HI'. destruct (CALL _ _ _ HI') as [vs CL]. pose proof CL as [n [C1 C2]]. destruct (HC _ _ _ _ _ C1 C2) as [_ HD].
    specialize (HD eq_refl). unfold done in HD. cbn [snd] in HD.
    assert (EE : e = mkE (e_in e) vs true) by (destruct Q as [_ [Q2 _]]; apply (Q2 k); [exact He|exact HD|reflexivity]).
    assert (EV : e_res e = vs) by (rewrite EE; reflexivity).
    destruct (CO k e He ltac:(rewrite EE; reflexivity)) as [xs [X1 X2]]. cbn [fst] in *.
    rewrite (VAL (e_in e) xs); [|intros v x Hv; eapply REP; [exact CL|left; exact Hv]|exact X1].
    apply VAL; [|exact X2]. intros v x Hv. eapply REP; [exact CL|right; rewrite <- EV; exact Hv]. }
  split.
  - eapply complete_l; eassumption.
  - intros ty c r N. eapply cells_complete; eassumption.
Qed.
Print Assumptions batch_complete.

(** Geometry: all instances, including those that only fill up the last row, lie in
    the rows given back to the caller and do not overlap. *)
Theorem batch_slots : forall P W (bs : list (bcomp P * list entry)) start, (forall B es, In (B, es) bs -> 1 <= b_w B <= W) ->
  let '(rs, next) := finalize_all W bs start in
  let all := flat_map (fun br => map (pair (fst br)) (fr_placed (snd br) ++ fr_fill (snd br))) rs in
  start <= next /\
  (forall B es e, In (B, es) bs -> In e es -> exists p, In (B, p) all /\ p_in p = e_in e /\ p_res p = e_res e) /\
  (forall B p, In (B, p) all -> start <= p_row p < next /\ 0 <= p_off p /\ p_off p + b_w B <= W) /\
  (forall i j B p B' p', (i < j)%nat -> nth_error all i = Some (B, p) -> nth_error all j = Some (B', p') ->
     p_row p <> p_row p' \/ p_off p + b_w B <= p_off p' \/ p_off p' + b_w B' <= p_off p).
Proof.
  intros P W bs start HW. pose proof (ops_geometry P W bs start HW) as [G1 G2]. pose proof (finalize_all_In P W bs start HW) as [NX FI].
  destruct (finalize_all W bs start) as [rs next] eqn:E. cbn [fst snd] in *. split; [exact NX|]. split; [|split; [|exact G2]].
  - intros B es e HB He. destruct (FI B es HB) as [st [_ [_ IN]]]. apply In_nth_error in He. destruct He as [n Hn].
    pose proof (finalize_spec P W B es st _ (HW B es HB) eq_refl) as FS. cbv zeta in FS. destruct FS as [_ [_ [LE [N _]]]].
    destruct (nth_error (fr_placed (finalize_batch W B es st)) n) as [p|] eqn:NP.
    + destruct (N n p NP) as [e' [E1 [E2 E3]]]. rewrite Hn in E1. injection E1 as <-. exists p. split; [|auto].
      apply in_flat_map. eexists. split; [exact IN|]. cbn [fst snd]. apply in_map. apply in_or_app. left. eapply nth_error_In. exact NP.
    + apply nth_error_None in NP. assert (n < length es)%nat by (apply nth_error_Some; congruence). lia.
  - intros B p HP. destruct (G1 B p HP) as [A [B0 [C _]]]. auto.
Qed.
Print Assumptions batch_slots.

(** ** Examples *)
(** Multiplication (components/algebra/fields/plonk/multiplication.hpp) on columns 0 to 2. *)
Definition mulB : bcomp P97 :=
  mkB 3 [(# (wv 0 0) * # (wv 1 0) - # (wv 2 0))%E] [0; 1] [2] (fun xs => match xs with [x; y] => [x; y; fmul x y] | _ => [] end).
Definition comps_ex (k : nat) : bcomp P97 := mulB.
Definition pubv (r : Z) : var := mkVar 0 r false CPub.
Definition resv (r : Z) : var := mkVar bpriv_index r false CPub.
Definition s_ex : astate P97 := mkA (repeat [] 7) [[ofZ 3; ofZ 5; ofZ 75]] [] [[]] [[]] [] [] [] 0.
(** Two equal calls, a call on the first result and a square, in seven columns. *)
Definition h_ex : list (qcall P97) :=
  [QAdd 0 [pubv 0; pubv 1] true; QAdd 0 [pubv 0; pubv 1] false; QAdd 0 [resv 0; pubv 1] false;
   QAdd 0 [pubv 1; pubv 1] false; QAdd 0 [pubv 0; pubv 1] false].
Definition last_in (a b : list var) : bool := false.
Definition rs_ex : list (list var) := [[resv 0]; [resv 0]; [resv 1]; [resv 2]; [resv 0]].
Definition m_ex (k : nat) : list entry :=
  match k with
  | O => [mkE [pubv 0; pubv 1] [resv 0] true; mkE [resv 0; pubv 1] [resv 1] true; mkE [pubv 1; pubv 1] [resv 2] true]
  | _ => []
  end.
Definition s_ex' : astate P97 := mkA (repeat [] 7) [[ofZ 3; ofZ 5; ofZ 75]] [] [[]] [[]] [] [ofZ 15; ofZ 75; ofZ 25] [] 0.

Example ex_run : exists m, qruns last_in comps_ex (s_ex, fun _ => []) h_ex = Some ((s_ex', m), rs_ex) /\ forall k, m k = m_ex k.
Proof. eexists. split; [vm_compute; reflexivity|]. intros [|k]; reflexivity. Qed.

Example ex_careful : all_careful P97 last_in comps_ex (s_ex, fun _ => []) h_ex.
Proof.
  unfold h_ex. cbn [all_careful].
  Ltac go := split; [intros _ v Hv [w [[k [e [H1 [H2 H3]]]] [E1 E2]]]; destruct k as [|k]; vm_compute in H1; repeat (destruct H1 as [<-|H1]; [try discriminate H2|]); try destruct H1|
    intros st' vs E; vm_compute in E; injection E as <- <-].
  split; [discriminate|]. intros st' vs E. vm_compute in E. injection E as <- <-.
  go. { vm_compute in H3. destruct H3 as [<-|[]]. vm_compute in Hv. destruct Hv as [<-|[<-|[]]]; discriminate E1. }
  go. go. go. exact I.
Qed.

(** The three calls take two rows; the finalised circuit with the result of the
    second call copied to the public input is satisfied. *)
Definition T_ex : table P97 := fun ty c r => if ctype_eqb ty CPub && (c =? bpriv_index) then match get_cell (a_bpriv s_ex') r with Some x => x | None => f0 end else a_table s_ex' ty c r.
Definition rest_ex : list (cmd P97) := [Copy (resv 1) (pubv 2)].
Example ex_complete : forall L m, qruns last_in comps_ex (s_ex, fun _ => []) h_ex = Some ((s_ex', m), rs_ex) ->
  let bs := batches P97 comps_ex m [0%nat] in
  snd (finalize_all 7 bs 4) = 6 /\
  sat L (final_table 7 bs 4 T_ex) (final_circuit 7 bs 4 rest_ex) /\ final_table 7 bs 4 T_ex CWit 5 4 = ofZ 75.
Proof.
  intros L m H bs. destruct ex_run as [m' [R M]]. rewrite H in R. injection R as <-.
  assert (NX : snd (finalize_all 7 bs 4) = 6) by (unfold bs, batches; cbn [map]; rewrite M; reflexivity).
  split; [exact NX|]. split.
  - refine (proj1 (batch_complete P97 last_in comps_ex s_ex h_ex s_ex' m rs_ex [0%nat] 7 4 rest_ex L T_ex (fun _ _ => True) H ex_careful _ _ _ _ _ _ _ _)).
    + intros k i b HI. cbn in HI. repeat (destruct HI as [E|HI]; [injection E as <- <- <-; split; [reflexivity|]; cbn; intros v Hv; repeat (destruct Hv as [<-|Hv]; [reflexivity|]); destruct Hv|]). destruct HI.
    + split; [repeat constructor; intros []|]. split; [cbn; lia|]. intros k i b HI. cbn in HI. repeat (destruct HI as [E|HI]; [injection E as <- <- <-; left; reflexivity|]). destruct HI.
    + intros k i b HI. cbn in HI. repeat (destruct HI as [E|HI]; [injection E as <- <- <-; cbn; tauto|]). destruct HI.
    + intros k _. split; [|cbn; intros c HC; lia]. intros [|x [|y [|? ?]]] _ HL; try discriminate HL. split; [reflexivity|]. split; [|reflexivity].
      intros T r HT e [<-|[]]. pose proof (HT 0 ltac:(cbn; lia)) as H0. pose proof (HT 1 ltac:(cbn; lia)) as H1. pose proof (HT 2 ltac:(cbn; lia)) as H2.
      cbn in H0, H1, H2. eval_norm. rewrite Z.add_0_r, H0, H1, H2. apply fsub_eq0. reflexivity.
    + intros k i b HI. split; [exact I|]. cbn in HI. repeat (destruct HI as [E|HI]; [injection E as <- <- <-; intros v Hv [X _]; cbn in Hv; repeat (destruct Hv as [<-|Hv]; [discriminate X|]); destruct Hv|]). destruct HI.
    + intros k i b vs v x [n [C1 C2]] HV HX.
      destruct n as [|[|[|[|[|n]]]]]; cbn in C1, C2; [injection C1 as <- <- <-; injection C2 as <-..|destruct n; discriminate C1];
        cbn [In] in HV; repeat (destruct HV as [HV|HV]); try contradiction; subst v; vm_compute in HX |- *; congruence.
    + split; [intros ? ? ? ? ? [E|[]]; discriminate E|]. split; [intros ? ? ? ? ? ? ? [E|[]]; discriminate E|].
      intros a b x [E|[]] HX. injection E as <- <-. destruct HX as [-> | ->]; (split; [reflexivity|intros [X _]; discriminate X]).
    + intros c [<-|[]]. vm_compute. reflexivity.
  - unfold bs, batches. cbn [map]. rewrite M. vm_compute. reflexivity.
Qed.

(** Soundness on the same history: the public input of a satisfying table is the
    product of the three factors. *)
Example ex_sound : forall L T m, qruns last_in comps_ex (s_ex, fun _ => []) h_ex = Some ((s_ex', m), rs_ex) ->
  sat L T (final_circuit 7 (batches P97 comps_ex m [0%nat]) 4 rest_ex) ->
  T CPub 0 2 = fmul (fmul (T CPub 0 0) (T CPub 0 1)) (T CPub 0 1).
Proof.
  intros L T m H SAT.
  destruct (batch_sound P97 last_in comps_ex s_ex h_ex s_ex' m rs_ex [0%nat] 7 4 rest_ex L T
    (fun _ xs ys => exists x y z, xs = [x; y] /\ ys = [z] /\ z = fmul x y)) with (1 := H) as [T' [FR [RS CALLS]]].
  - intros k i b HI. cbn in HI. repeat (destruct HI as [E|HI]; [injection E as <- <- <-; split; [reflexivity|]; cbn; intros v Hv; repeat (destruct Hv as [<-|Hv]; [reflexivity|]); destruct Hv|]). destruct HI.
  - split; [repeat constructor; intros []|]. split; [cbn; lia|]. intros k i b HI. cbn in HI. repeat (destruct HI as [E|HI]; [injection E as <- <- <-; left; reflexivity|]). destruct HI.
  - intros k T0 r _ G. specialize (G _ (or_introl eq_refl)). revert G. eval_norm. rewrite Z.add_0_r. intros G. apply (proj1 (fsub_eq0 _ _ _)) in G.
    do 3 eexists. split; [reflexivity|]. split; [reflexivity|]. symmetry. exact G.
  - split; [intros ? ? ? ? [E|[]]; discriminate E|]. split; [intros ? ? ? ? ? ? [E|[]]; discriminate E|].
    intros a b [E|[]]. injection E as <- <-. split; reflexivity.
  - exact SAT.
  - destruct (CALLS O [pubv 0; pubv 1] true [resv 0]) as [x1 [y1 [z1 [E1 [F1 G1]]]]]; [exists O; split; reflexivity|].
    destruct (CALLS O [resv 0; pubv 1] false [resv 1]) as [x2 [y2 [z2 [E2 [F2 G2]]]]]; [exists 2%nat; split; reflexivity|].
    injection E1 as A1 B1. injection E2 as A2 B2. injection F1 as C1. injection F2 as C2.
    assert (R : vval T' (resv 1) = vval T' (pubv 2)) by (apply (RS _ (or_introl eq_refl))).
    assert (PUB : forall r, T CPub 0 r = T' CPub 0 r) by (intros r; symmetry; apply FR; intros [_ X]; discriminate X).
    rewrite !PUB. change (T' CPub 0 2) with (vval T' (pubv 2)). change (T' CPub 0 0) with (vval T' (pubv 0)). change (T' CPub 0 1) with (vval T' (pubv 1)).
    congruence.
Qed.
