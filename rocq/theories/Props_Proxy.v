(** Property theorems: several provers sharing one circuit and one assignment
    through proxies (C103), the check of one prover's part (C104), calls that a
    proxy does not pass on (C105), and shared variables (C106). *)
From Coq Require Import ZArith List Lia Bool.
From Verif Require Import Base Field Plonk PlonkFacts AssignModel AssignProofs BuilderModel BuilderProofs ProxyModel ProxyProofs Examples.
Import ListNotations.
Open Scope Z_scope.

(** A new circuit and assignment with a new proxy for every number. *)
Definition x0 (P : params) (w p k n : nat) : xstate P := ((c_new, a_new P w p k n), fun _ => x_new (a_new P w p k n)).

(** ** C103 *)

(** The shared objects go through the forwarded calls, in order, and return to
    each caller what they would return without proxies; each proxy's own objects
    go through its other calls.  [forwarded] lists the calls. *)
Theorem proxies_transparent : forall P (vs : vset P) h c s ps c' s' ps' rs,
  xruns vs ((c, s), ps) h = Some (((c', s'), ps'), rs) ->
  bruns vs (c, s) (fwd h) = Some ((c', s'), fwdr rs) /\
  (forall i, bruns vs (x_c (ps i), x_a (ps i)) (own i h) = Some ((x_c (ps' i), x_a (ps' i)), ownr i rs)) /\
  map fst rs = h.
Proof. exact @xruns_split. Qed.
Print Assumptions proxies_transparent.

(** What a proxy reports as used: the gates and lookup gates whose selector was
    returned to it, the rows it wrote. *)
Theorem proxies_used : forall P (vs : vset P) w p k n h c s ps rs i, xruns vs (x0 P w p k n) h = Some (((c, s), ps), rs) ->
  (forall j, In j (x_gates (ps i)) <-> exists g o, nth_error (c_gates c) j = Some g /\ In (i, o, Some (fst g)) rs /\ gate_req o = true) /\
  (forall j, In j (x_lgates (ps i)) <-> exists g o, nth_error (c_lgates c) j = Some g /\ In (i, o, Some (fst g)) rs /\ lookup_req o = true) /\
  (forall r, In r (x_rows (ps i)) <-> exists o, In (i, o) h /\ writes_row o r) /\
  (forall r, In r (x_srows (ps i)) <-> exists o, In (i, o) h /\ writes_sel o r).
Proof.
  intros P vs w p k n h c s ps rs i H. pose proof (run_inv _ _ _ _ _ _ _ _ _ _ H) as I.
  destruct (xruns_split _ _ _ _ _ _ _ _ _ H) as [_ [_ Hr]].
  assert (M : forall Q : bcall P -> Prop, (exists o x, In (i, o, x) rs /\ Q o) <-> exists o, In (i, o) h /\ Q o).
  { intros Q. rewrite <- Hr. split.
    - intros [o [x [A B]]]. exists o. split; [exact (in_map fst _ _ A)|exact B].
    - intros [o [A B]]. apply in_map_iff in A. destruct A as [[[j o'] x] [E A]]. cbn in E. injection E as -> ->. eauto. }
  split; [|split; [|split]].
  - intros j. rewrite (v_g _ _ _ I). split; [intros [g [A [o [B D]]]]; eauto|intros [g [o [A [B D]]]]; exists g; split; [exact A|exists o; auto]].
  - intros j. rewrite (v_l _ _ _ I). split; [intros [g [A [o [B D]]]]; eauto|intros [g [o [A [B D]]]]; exists g; split; [exact A|exists o; auto]].
  - intros r. rewrite (v_r _ _ _ I). apply (M (fun o => writes_row o r)).
  - intros r. rewrite (v_s _ _ _ I). apply (M (fun o => writes_sel o r)).
Qed.
Print Assumptions proxies_used.

(** Copy constraints: the positions exist, a proxy reports those it asked for,
    and each constraint is reported by a proxy that asked for it. *)
Theorem proxies_used_copies : forall P (vs : vset P) w p k n h c s ps rs, xruns vs (x0 P w p k n) h = Some (((c, s), ps), rs) ->
  (forall i j, In j (x_copies (ps i)) -> (j < length (c_copies c))%nat) /\
  (forall i a b, In (i, BCopy a b, None) rs -> a <> b -> is_private a = false -> is_private b = false ->
     exists j, In j (x_copies (ps i)) /\ nth_error (c_copies c) j = Some (a, b)) /\
  (forall j a b, nth_error (c_copies c) j = Some (a, b) -> exists i, In (i, BCopy a b, None) rs /\ In j (x_copies (ps i))).
Proof.
  intros P vs w p k n h c s ps rs H. pose proof (run_inv _ _ _ _ _ _ _ _ _ _ H) as [_ _ _ _ _ C1 C2 C3 _ _]. auto.
Qed.
Print Assumptions proxies_used_copies.

(** If every call is a forwarded one, selectors are only enabled, and each proxy
    enables selectors returned to it, then the parts reported as used, checked
    against the shared assignment, make up the whole circuit. *)
Theorem proxies_parts_cover : forall P (vs : vset P) w p k n h c s ps rs, xruns vs (x0 P w p k n) h = Some (((c, s), ps), rs) ->
  (forall i o, In (i, o) h -> forwarded o = true) ->
  (forall i sel r v, ~ In (i, BA (ASelector sel r v)) h) ->
  (forall i sel r, In (i, BA (AEnable sel r)) h -> exists o, In (i, o, Some sel) rs) ->
  forall te, is_satisfied te c s = Some true <->
    forall i, check_part te c s (a_sel s) (x_value ((c, s), ps) i) (ps i) = Some true.
Proof. exact @parts_cover_l. Qed.
Print Assumptions proxies_parts_cover.

Definition wx (i rot : Z) : expr P97 := ETerm f1 [mkVar i rot true CWit].
Definition vs9 : vset P97 :=
  mkVset P97 (fun b v => ofZ (5 * vidx v + 3 * vrot v + if b then 7 else 11)) (fun n => ofZ (13 + 2 * Z.of_nat n))
         (fun n => ofZ (17 + Z.of_nat n)) (fun n => ofZ (29 + 3 * Z.of_nat n)).
Definition te9 : tenv P97 := fun t => Some (TStatic [[ofZ 4; ofZ 9]] [O]).
(** Two provers: both ask for the first gate, each on a row of its own, the
    second for a lookup too, and they are tied by a copy. *)
Definition hist2 (x : Z) : list (nat * bcall P97) :=
  [(0, BGate [EBin OSub (wx 0 0) (wx 1 0)]); (0, BA (AWitness 0 2 (ofZ 4))); (0, BA (AWitness 1 2 (ofZ 4))); (0, BA (AEnable 0 2));
   (1, BGate [EBin OSub (wx 0 0) (wx 1 0)]); (1, BLookup [(O, [wx 1 0])]);
   (1, BA (AWitness 0 3 (ofZ x))); (1, BA (AWitness 1 3 (ofZ x))); (1, BA (AEnable 0 3)); (1, BA (AEnable 1 3));
   (1, BCopy (wcell 0 2) (wcell 0 3))]%nat.
Definition fin {A B} (d : A) (r : option (A * B)) : A := match r with Some (a, _) => a | None => d end.
Definition st2 (x : Z) : xstate P97 := fin (x0 P97 2 1 1 4) (xruns vs9 (x0 P97 2 1 1 4) (hist2 x)).
Example proxies_example : forall x, In x [4; 5; 9] ->
  option_map (fun r => map snd (snd r)) (xruns vs9 (x0 P97 2 1 1 4) (hist2 x)) = Some [Some 0; None; None; None; Some 0; Some 1; None; None; None; None; None]%nat /\
  map (fun i => (x_gates (snd (st2 x) i), x_lgates (snd (st2 x) i), x_copies (snd (st2 x) i), x_srows (snd (st2 x) i))) [0; 1; 2]%nat =
    [([0], [], [], [2]); ([0], [0], [0], [3]); ([], [], [], [])]%nat /\
  (forall i o, In (i, o) (hist2 x) -> forwarded o = true) /\ (forall i sel r v, ~ In (i, BA (ASelector sel r v)) (hist2 x)) /\
  is_satisfied te9 (fst (fst (st2 x))) (snd (fst (st2 x))) = Some (x =? 4) /\
  map (fun i => check_part te9 (fst (fst (st2 x))) (snd (fst (st2 x))) (a_sel (snd (fst (st2 x)))) (x_value (st2 x) i) (snd (st2 x) i)) [0; 1; 2]%nat =
    [Some true; Some (x =? 4); Some true].
Proof.
  intros x Hx. cbn in Hx. destruct Hx as [<-|[<-|[<-|[]]]].
  all: split; [vm_compute; reflexivity|]; split; [vm_compute; reflexivity|].
  all: split; [intros i o H; cbn in H; repeat (destruct H as [H|H]; [injection H as <- <-; reflexivity|]); destruct H|].
  all: split; [intros i sel r v H; cbn in H; repeat (destruct H as [H|H]; [discriminate|]); destruct H|].
  all: vm_compute; auto.
Qed.

(** ** C104 *)

(** The check of a circuit proxy and an assignment proxy compares copied
    variables, and nothing else. *)
Theorem proxy_check_copies_only : forall P (vs : vset P) w p k n h c s ps rs te i,
  xruns vs (x0 P w p k n) h = Some (((c, s), ps), rs) ->
  (x_satisfied te ((c, s), ps) i = Some true <->
   forall j a b, In j (x_copies (ps i)) -> nth_error (c_copies c) j = Some (a, b) ->
     exists v, x_value ((c, s), ps) i a = Some v /\ x_value ((c, s), ps) i b = Some v).
Proof. intros P vs w p k n h c s ps rs te i H. exact (proxy_check_l vs w p k n h c s ps rs H te i). Qed.
Print Assumptions proxy_check_copies_only.

Definition lie : list (nat * bcall P97) :=
  [(0, BGate1 (EBin OSub (wx 0 0) (wx 1 0))); (0, BA (AWitness 0 2 (ofZ 4))); (0, BA (AWitness 1 2 (ofZ 5))); (0, BA (AEnable 0 2));
   (1, BLookup [(O, [wx 1 0])]); (1, BA (AWitness 1 3 (ofZ 5))); (1, BA (AEnable 1 3))]%nat.
(** A violated gate in one part and a violated lookup in another: no proxy
    objects, though the circuit does, and though the parts do when their
    selectors are read from the shared assignment. *)
Theorem proxy_check_refuted : exists (vs : vset P97) h c s ps rs te,
  xruns vs (x0 P97 2 1 1 4) h = Some (((c, s), ps), rs) /\
  (forall i o, In (i, o) h -> forwarded o = true) /\ (forall i sel r v, ~ In (i, BA (ASelector sel r v)) h) /\
  (forall i sel r, In (i, BA (AEnable sel r)) h -> exists o, In (i, o, Some sel) rs) /\
  is_satisfied te c s = Some false /\
  (forall i, (i < 2)%nat -> check_part te c s (a_sel s) (x_value ((c, s), ps) i) (ps i) = Some false) /\
  (forall i, x_satisfied te ((c, s), ps) i = Some true).
Proof.
  destruct (xruns vs9 (x0 P97 2 1 1 4) lie) as [[[[c s] ps] rs]|] eqn:E; [|exfalso; vm_compute in E; discriminate].
  exists vs9, lie, c, s, ps, rs, te9. split; [exact E|].
  pose proof (proxies_transparent _ _ _ _ _ _ _ _ _ _ E) as [B _].
  assert (Ec : c_copies c = []).
  { transitivity (c_copies (fst (fst (fin (x0 P97 2 1 1 4) (xruns vs9 (x0 P97 2 1 1 4) lie))))); [rewrite E; reflexivity|vm_compute; reflexivity]. }
  split; [intros i o H; cbn in H; repeat (destruct H as [H|H]; [injection H as <- <-; reflexivity|]); destruct H|].
  split; [intros i sel r v H; cbn in H; repeat (destruct H as [H|H]; [discriminate|]); destruct H|].
  split; [|split; [|split]].
  - intros i sel r H.
    assert (Er : option_map (fun r => map (fun x => (fst (fst x), snd x)) (snd r)) (xruns vs9 (x0 P97 2 1 1 4) lie) =
      Some [(0, Some 0); (0, None); (0, None); (0, None); (1, Some 1); (1, None); (1, None)]%nat) by (vm_compute; reflexivity).
    rewrite E in Er. cbn [option_map snd] in Er. injection Er as Er.
    assert (G : In (i, Some sel) (map (fun x => (fst (fst x), snd x)) rs)).
    { rewrite Er. cbn in H. repeat (destruct H as [H|H]; [try discriminate H; injection H as <- <- _; cbn; auto 8|]). destruct H. }
    apply in_map_iff in G. destruct G as [[[i' o] x] [G1 G2]]. cbn in G1. injection G1 as -> ->. eauto.
  - transitivity (is_satisfied te9 (fst (fst (fin (x0 P97 2 1 1 4) (xruns vs9 (x0 P97 2 1 1 4) lie)))) (snd (fst (fin (x0 P97 2 1 1 4) (xruns vs9 (x0 P97 2 1 1 4) lie))))); [rewrite E; reflexivity|vm_compute; reflexivity].
  - intros i Hi.
    assert (X : (let st := fin (x0 P97 2 1 1 4) (xruns vs9 (x0 P97 2 1 1 4) lie) in
      check_part te9 (fst (fst st)) (snd (fst st)) (a_sel (snd (fst st))) (x_value st i) (snd st i)) = Some false).
    { destruct i as [|[|i]]; [vm_compute; reflexivity|vm_compute; reflexivity|lia]. }
    rewrite E in X. exact X.
  - intros i. apply (proxy_check_copies_only _ _ _ _ _ _ _ _ _ _ _ te9 i E). intros j a b _ Hj. rewrite Ec in Hj. destruct j; discriminate.
Qed.
Print Assumptions proxy_check_refuted.

(** ** C105 *)

(** A gate added to a given selector through a proxy is not in the circuit: the
    same calls without proxies give a circuit that is not satisfied. *)
Theorem proxy_gate_on_selector_refuted : exists (vs : vset P97) h te c s ps rs c1 s1 rs1,
  xruns vs (x0 P97 2 1 1 4) (map (fun o => (O, o)) h) = Some (((c, s), ps), rs) /\
  bruns vs (c_new, a_new P97 2 1 1 4) h = Some ((c1, s1), rs1) /\ map res3 rs = rs1 /\
  is_satisfied te c s = Some true /\ is_satisfied te c1 s1 = Some false.
Proof.
  set (h := [BGate [wx 0 0]; BGateOn 0 [EBin OSub (wx 0 0) (wx 1 0)]; BA (AWitness 0 2 (ofZ 0)); BA (AWitness 1 2 (ofZ 5)); BA (AEnable 0 2)]).
  destruct (xruns vs9 (x0 P97 2 1 1 4) (map (fun o => (O, o)) h)) as [[[[c s] ps] rs]|] eqn:E; [|exfalso; vm_compute in E; discriminate].
  destruct (bruns vs9 (c_new, a_new P97 2 1 1 4) h) as [[[c1 s1] rs1]|] eqn:E1; [|exfalso; vm_compute in E1; discriminate].
  exists vs9, h, te9, c, s, ps, rs, c1, s1, rs1. split; [exact E|]. split; [exact E1|].
  pose proof (xruns_split _ _ _ _ _ _ _ _ _ E) as [B [_ Hr]].
  split.
  - vm_compute in E1. injection E1 as _ _ <-.
    assert (X : option_map (fun r => map snd (snd r)) (xruns vs9 (x0 P97 2 1 1 4) (map (fun o => (O, o)) h)) = Some [Some 0; Some 0; None; None; None]%nat) by (vm_compute; reflexivity).
    rewrite E in X. cbn [option_map snd] in X. injection X as X.
    assert (Y : forall l : list (nat * bcall P97 * option nat), map res3 l = combine (map (fun x => snd (fst x)) l) (map snd l)).
    { induction l as [|[[a b] d] l IH]; [reflexivity|]. cbn. f_equal. exact IH. }
    rewrite Y, X. replace (map (fun x => snd (fst x)) rs) with (map snd (map fst rs)) by (rewrite map_map; reflexivity).
    rewrite Hr, map_map. reflexivity.
  - split; [|vm_compute in E1; injection E1 as <- <- <-; vm_compute; reflexivity].
    transitivity (is_satisfied te9 (fst (fst (fin (x0 P97 2 1 1 4) (xruns vs9 (x0 P97 2 1 1 4) (map (fun o => (O, o)) h)))))
      (snd (fst (fin (x0 P97 2 1 1 4) (xruns vs9 (x0 P97 2 1 1 4) (map (fun o => (O, o)) h)))))); [rewrite E; reflexivity|vm_compute; reflexivity].
Qed.
Print Assumptions proxy_gate_on_selector_refuted.

(** A selector for a dynamic table handed out by a proxy belongs to a gate. *)
Theorem proxy_dynamic_selector_refuted : exists (vs : vset P97) st rs g,
  xruns vs (x0 P97 2 1 1 4) [(O, BGate1 g); (O, BDynamic)] = Some (st, rs) /\
  map snd rs = [Some 0; Some 0]%nat /\ nth_error (c_gates (fst (fst st))) 0 = Some (O, [g]).
Proof.
  destruct (xruns vs9 (x0 P97 2 1 1 4) [(O, BGate1 (wx 0 0)); (O, BDynamic)]) as [[st rs]|] eqn:E; [|exfalso; vm_compute in E; discriminate].
  exists vs9, st, rs, (wx 0 0). split; [exact E|].
  assert (X : option_map (fun r => (map snd (snd r), c_gates (fst (fst (fst r))))) (xruns vs9 (x0 P97 2 1 1 4) [(O, BGate1 (wx 0 0)); (O, BDynamic)]) =
    Some ([Some 0; Some 0]%nat, [(O, [wx 0 0])])) by (vm_compute; reflexivity).
  rewrite E in X. cbn in X. injection X as X1 X2. split; [exact X1|]. exact (f_equal (fun l => nth_error l 0) X2).
Qed.
Print Assumptions proxy_dynamic_selector_refuted.

(** Two proxies hand out one batch variable for two values. *)
Theorem proxy_batch_refuted : exists (vs : vset P97) v0 v1 st rs,
  xruns vs (x0 P97 2 1 1 4) [(0, BA (AAddBatch v0)); (1, BA (AAddBatch v1))]%nat = Some (st, rs) /\ v0 <> v1 /\
  let b := batch_var (x_a (snd (x0 P97 2 1 1 4) 0%nat)) in
  b = batch_var (x_a (snd (fin (x0 P97 2 1 1 4) (xruns vs (x0 P97 2 1 1 4) [(0%nat, BA (AAddBatch v0))])) 1%nat)) /\
  x_value st 0 b = Some v0 /\ x_value st 1 b = Some v1.
Proof.
  destruct (xruns vs9 (x0 P97 2 1 1 4) [(0, BA (AAddBatch (ofZ 3))); (1, BA (AAddBatch (ofZ 4)))]%nat) as [[st rs]|] eqn:E; [|exfalso; vm_compute in E; discriminate].
  exists vs9, (ofZ 3), (ofZ 4), st, rs. split; [exact E|]. split; [intros X; apply (f_equal fval) in X; vm_compute in X; discriminate|].
  assert (S : st = fin (x0 P97 2 1 1 4) (xruns vs9 (x0 P97 2 1 1 4) [(0, BA (AAddBatch (ofZ 3))); (1, BA (AAddBatch (ofZ 4)))]%nat)) by (rewrite E; reflexivity).
  rewrite S. split; [|split]; vm_compute; reflexivity.
Qed.
Print Assumptions proxy_batch_refuted.

(** A copy of a variable to itself makes a proxy report a constraint it never
    asked for. *)
Theorem proxy_copy_mark_refuted : exists (vs : vset P97) h c s ps rs j a b,
  xruns vs (x0 P97 2 1 1 4) h = Some (((c, s), ps), rs) /\
  In j (x_copies (ps 1%nat)) /\ nth_error (c_copies c) j = Some (a, b) /\ ~ In (1%nat, BCopy a b) h.
Proof.
  set (h := [(0, BCopy (wcell 0 0) (wcell 1 0)); (1, BCopy (wcell 1 1) (wcell 1 1))]%nat : list (nat * bcall P97)).
  destruct (xruns vs9 (x0 P97 2 1 1 4) h) as [[[[c s] ps] rs]|] eqn:E; [|exfalso; vm_compute in E; discriminate].
  exists vs9, h, c, s, ps, rs, 0%nat, (wcell 0 0), (wcell 1 0). split; [exact E|].
  assert (X : option_map (fun r => (x_copies (snd (fst r) 1%nat), c_copies (fst (fst (fst r))))) (xruns vs9 (x0 P97 2 1 1 4) h) =
    Some ([0]%nat, [(wcell 0 0, wcell 1 0)])) by (vm_compute; reflexivity).
  rewrite E in X. cbn in X. injection X as X1 X2. rewrite X1, X2. split; [left; reflexivity|]. split; [reflexivity|].
  intros H. cbn in H. destruct H as [H|[H|[]]]; discriminate.
Qed.
Print Assumptions proxy_copy_mark_refuted.

(** ** C106 *)

(** The variable returned by [save_shared_var] is new, has the value of the
    given one for every proxy, and no variable that had a value changes. *)
Theorem save_shared_var_correct : forall P (st : xstate P) i v st' w, save_shared st i v = Some (st', w) ->
  (exists x, x_value st i v = Some x /\ forall j, x_value st' j w = Some x) /\
  (forall j u x, x_value st j u = Some x -> x_value st' j u = Some x) /\
  (forall j, x_value st j w = None).
Proof. exact @save_shared_l. Qed.
Print Assumptions save_shared_var_correct.

Theorem save_shared_var_vector : forall P l (st : xstate P) i st' ws, save_shared_all st i l = Some (st', ws) ->
  Forall2 (fun v w => exists x, x_value st' i v = Some x /\ forall j, x_value st' j w = Some x) l ws /\
  (forall j u x, x_value st j u = Some x -> x_value st' j u = Some x) /\
  NoDup ws /\ (forall w j, In w ws -> x_value st j w = None).
Proof. exact @save_shared_all_l. Qed.
Print Assumptions save_shared_var_vector.

(** It succeeds for every variable with a value. *)
Theorem save_shared_var_defined : forall P (vs : vset P) w p k n h c s ps rs i v x,
  xruns vs (x0 P w p k n) h = Some (((c, s), ps), rs) -> x_value ((c, s), ps) i v = Some x -> save_shared ((c, s), ps) i v <> None.
Proof.
  intros P vs w p k n h c s ps rs i v x H Hv.
  assert (G : forall h (s s' : astate P), aruns s h = Some s' -> length (a_shared s') = length (a_shared s)).
  { induction h0 as [|o h0 IH]; intros s0 s1 A; cbn in A; [injection A as <-; reflexivity|].
    destruct (astep s0 o) as [s2|] eqn:E; [|discriminate]. rewrite (IH _ _ A). clear - E.
    destruct o; cbn [astep] in E; try (match type of E with context [set_col ?a ?b ?c ?d] => destruct (set_col a b c d) eqn:Es end; [|discriminate]);
      try (injection E as <-; reflexivity).
    - injection E as <-. cbn. unfold set_col in Es. destruct (nth_error (a_shared s0) c); [|discriminate]. injection Es as <-. apply upd_length.
    - destruct (find_const (a_bconst s0) v); injection E as <-; reflexivity. }
  pose proof (proj1 (xruns_split _ _ _ _ _ _ _ _ _ H)) as B. apply bruns_aruns in B. apply G in B. cbn in B.
  destruct (a_shared s) as [|col rest] eqn:Es; [discriminate|]. eapply save_shared_total; eauto.
Qed.
Print Assumptions save_shared_var_defined.

Example save_shared_example :
  match save_shared_all (st2 9) 1 [wcell 0 2; wcell 1 3] with
  | Some (st', ws) => ws = [mkVar 1 0 false CPub; mkVar 1 1 false CPub] /\
      map (fun j => map (fun w => option_map fval (x_value st' j w)) ws) [0; 1; 5]%nat = [[Some 4; Some 9]; [Some 4; Some 9]; [Some 4; Some 9]]
  | None => False
  end.
Proof. vm_compute. auto. Qed.

(** ** C113 *)

(** A variable of a table column, not one of the private or batch stores. *)
Definition stored (v : var) : Prop := vidx v <> priv_index /\ vidx v <> bpriv_index /\ vidx v <> bconst_index.

(** With checking on, a proxy reads a witness exactly in the rows in which a
    write went through it, a constant there and in the columns of lookup
    tables, and everything else as without checking. *)
Theorem proxy_checked_value : forall P (vs : vset P) w p k n h c s ps rs lc i v,
  xruns vs (x0 P w p k n) h = Some (((c, s), ps), rs) ->
  let seen := exists r o, In (i, o) h /\ writes_row o r /\ vrot v = Z.of_nat r in
  (forall y, x_value_checked lc ((c, s), ps) i v = Some y -> x_value ((c, s), ps) i v = Some y) /\
  (stored v -> vty v = CWit -> seen -> x_value_checked lc ((c, s), ps) i v = x_value ((c, s), ps) i v) /\
  (stored v -> vty v = CWit -> ~ seen -> x_value_checked lc ((c, s), ps) i v = None) /\
  (stored v -> vty v = CConst -> seen \/ lc (vidx v) = true -> x_value_checked lc ((c, s), ps) i v = x_value ((c, s), ps) i v) /\
  (stored v -> vty v = CConst -> ~ seen -> lc (vidx v) = false -> x_value_checked lc ((c, s), ps) i v = None) /\
  (~ stored v \/ vty v = CPub -> x_value_checked lc ((c, s), ps) i v = x_value ((c, s), ps) i v).
Proof.
  intros P vs w p k n h c s ps rs lc i v H seen.
  destruct (proxies_used P vs w p k n h c s ps rs i H) as [_ [_ [U _]]].
  assert (X : existsb (fun r => Z.of_nat r =? vrot v) (x_rows (ps i)) = true <-> seen).
  { rewrite existsb_exists. split.
    - intros [r [Hr E]]. apply Z.eqb_eq in E. apply U in Hr. destruct Hr as [o [A B]]. exists r, o. auto.
    - intros [r [o [A [B E]]]]. exists r. split; [apply U; exists o; auto|apply Z.eqb_eq; auto]. }
  assert (S : (vidx v =? priv_index) || (vidx v =? bpriv_index) || (vidx v =? bconst_index) = false <-> stored v).
  { unfold stored. rewrite !orb_false_iff, !Z.eqb_neq. tauto. }
  unfold x_value_checked. cbn [snd]. cbv zeta.
  destruct (existsb (fun r => Z.of_nat r =? vrot v) (x_rows (ps i)));
    destruct ((vidx v =? priv_index) || (vidx v =? bpriv_index) || (vidx v =? bconst_index)).
  all: cbn [negb andb].
  all: split; [intros y; destruct (vty v), (lc (vidx v)); cbn; congruence|].
  all: split; [intros A E; rewrite ?E; cbn; try reflexivity; intros B; exfalso; first [apply X in B; discriminate|apply S in A; discriminate]|].
  all: split; [intros A E B; rewrite ?E; cbn; try reflexivity; exfalso; first [apply B, X; reflexivity|apply S in A; discriminate]|].
  all: split; [intros A E B; rewrite ?E; cbn; rewrite ?andb_false_r; first [reflexivity | destruct B as [B|B]; [exfalso; first [apply X in B; discriminate|apply S in A; discriminate]|rewrite B; reflexivity]]|].
  all: split; [intros A E B B'; rewrite ?E; cbn; rewrite ?B'; try reflexivity; exfalso; first [apply B, X; reflexivity|apply S in A; discriminate]|].
  all: intros [A|E]; rewrite ?E; cbn; try reflexivity; exfalso; apply A, S; reflexivity.
Qed.
Print Assumptions proxy_checked_value.

(** The second prover reads its own row, not the first one's. *)
Example proxy_checked_example : stored (wcell 0 3) /\
  map (fun r => option_map fval (x_value_checked (fun _ => false) (st2 9) 1 (wcell 0 r))) [2; 3] = [None; Some 9] /\
  map (fun r => option_map fval (x_value (st2 9) 1 (wcell 0 r))) [2; 3] = [Some 4; Some 9].
Proof. split; [repeat split; discriminate|]. vm_compute. auto. Qed.
