(** Property theorems: the circuit builder and the satisfiability check (C01),
    the gate mover (C02), the stores behind variables (C28), gate identifiers
    (C30) and selectors written by hand (C31). *)
From Coq Require Import ZArith List Lia Bool Permutation.
From Verif Require Import Base Field Plonk PlonkFacts AssignModel AssignProofs BuilderModel BuilderProofs Examples.
Import ListNotations.
Open Scope Z_scope.

(** ** C01 *)

(** [meets], [separates], [in_table], [gate_of] and [lookup_of] are the
    specification, in BuilderProofs.v.  [vs] is any outcome of the random
    choices behind gate identifiers that does not confuse two different gates
    of this history. *)
Theorem builder_satisfied_iff_requests : forall P (vs : vset P) te w p k n h c s rs,
  bruns vs (c_new, a_new P w p k n) h = Some ((c, s), rs) ->
  separates P vs h -> (forall i r v, ~ In (BA (ASelector i r v)) h) ->
  (is_satisfied te c s = Some true <-> meets P te s rs).
Proof. exact builder_l. Qed.
Print Assumptions builder_satisfied_iff_requests.

(** Two calls that let the circuit choose the selector get the same one exactly
    when both ask for the same gate (or the same lookup gate): by identifier. *)
Theorem builder_selectors : forall P (vs : vset P) s0 h c s rs i j oi oj n m ki kj,
  bruns vs (c_new, s0) h = Some ((c, s), rs) -> (i < j)%nat ->
  nth_error rs i = Some (oi, Some n) -> nth_error rs j = Some (oj, Some m) ->
  skey_of P vs oi = Some ki -> skey_of P vs oj = Some kj -> (n = m <-> ki = kj /\ ki <> KFresh P).
Proof. exact builder_selectors_l. Qed.
Print Assumptions builder_selectors.

Definition vs97 : vset P97 :=
  mkVset P97 (fun b v => ofZ (5 * vidx v + 3 * vrot v + if b then 7 else 11)) (fun n => ofZ (13 + 2 * Z.of_nat n))
         (fun n => ofZ (17 + Z.of_nat n)) (fun n => ofZ (29 + 3 * Z.of_nat n)).
Definition wv (i rot : Z) : expr P97 := ETerm f1 [mkVar i rot true CWit].
(** Three gates, the first requested twice; a lookup; a copy. *)
Definition hist97 (x : Z) : list (bcall P97) :=
  [BGate [EBin OSub (wv 0 0) (wv 1 0)]; BGate1 (EBin OAdd (wv 0 0) (wv 1 1));
   BGate [EBin OSub (wv 0 0) (wv 1 0)]; BLookup [(O, [wv 1 0])];
   BCopy (mkVar 0 2 false CWit) (mkVar 1 2 false CWit);
   BA (AWitness 0 2 (ofZ x)); BA (AWitness 1 2 (ofZ x)); BA (AWitness 1 3 (ofZ (- x)));
   BA (AEnable 0 2); BA (AEnable 1 2); BA (AEnable 2 2)].
Definition te97 : tenv P97 := fun t => Some (TStatic [[ofZ 4; ofZ 9]] [O]).

Lemma separates97 : forall x, separates P97 vs97 (hist97 x).
Proof.
  intros x. split; intros o1 o2 g cs1 cs2 H1 H2 G1 G2; cbn [hist97 In] in H1, H2;
    repeat match type of H1 with _ \/ _ => destruct H1 as [<-|H1] end; try (destruct H1);
    repeat match type of H2 with _ \/ _ => destruct H2 as [<-|H2] end; try (destruct H2); try discriminate;
    (assert (E1 : option_map snd (Some (g, cs1)) = option_map snd (Some (g, cs1))) by reflexivity;
     assert (E2 : option_map snd (Some (g, cs2)) = option_map snd (Some (g, cs2))) by reflexivity;
     rewrite <- G1 in E1 at 1; rewrite <- G2 in E2 at 1; cbn in E1, E2;
     injection E1 as <-; injection E2 as <-; try apply equiv_refl; try apply lequiv_refl;
     exfalso;
     apply (f_equal (option_map (fun x => fval (fst (fst x))))) in G1;
     apply (f_equal (option_map (fun x => fval (fst (fst x))))) in G2;
     pose proof (eq_trans G1 (eq_sym G2)) as E;
     vm_compute in E; discriminate).
Qed.

Example builder_example : forall x, In x [4; 5; 9] -> exists c s rs,
  bruns vs97 (c_new, a_new P97 2 1 1 4) (hist97 x) = Some ((c, s), rs) /\
  separates P97 vs97 (hist97 x) /\ (forall i r v, ~ In (BA (ASelector i r v)) (hist97 x)) /\
  map snd rs = [Some 0; Some 1; Some 0; Some 2; None; None; None; None; None; None; None]%nat /\
  length (c_gates c) = 2%nat /\
  is_satisfied te97 c s = Some (negb (x =? 5)).
Proof.
  intros x Hx. destruct (bruns vs97 (c_new, a_new P97 2 1 1 4) (hist97 x)) as [[[c s] rs]|] eqn:E;
    [|exfalso; cbn in Hx; destruct Hx as [<-|[<-|[<-|[]]]]; vm_compute in E; discriminate].
  exists c, s, rs. split; [reflexivity|]. split; [apply separates97|].
  split.
  { intros i r v H. cbn in H. repeat (destruct H as [H|H]; [discriminate|]). destruct H. }
  cbn in Hx. destruct Hx as [<-|[<-|[<-|[]]]]; vm_compute in E; injection E as <- <- <-; vm_compute; auto.
Qed.

Example builder_selectors_example :
  let g := EBin OSub (wv 0 0) (wv 1 0) in
  option_map (fun r => map snd (snd r))
    (bruns vs97 (c_new, a_new P97 2 1 1 4) [BGate [g]; BDynamic; BGate [g]; BLookup [(O, [wv 1 0])]; BDynamic; BGate1 g]) =
  Some [Some 0; Some 1; Some 0; Some 2; Some 3; Some 4]%nat.
Proof. vm_compute. reflexivity. Qed.

(** ** C02 *)

Theorem gate_mover_renames : forall P f (rho : var -> F P) e,
  evalv rho (move f e) = evalv (fun v => rho (f v)) e.
Proof. exact move_evalv. Qed.
Print Assumptions gate_mover_renames.

(** On tables: if the renamed variables read in one table at one row what the
    original variables read in another table at another row, the moved
    constraint takes there the value of the original. *)
Theorem gate_mover_table : forall P f (T T2 : table P) row row2 e,
  (forall v, gval T row (f v) = gval T2 row2 v) -> eval T row (move f e) = eval T2 row2 e.
Proof. exact move_table_l. Qed.
Print Assumptions gate_mover_table.

Theorem gate_mover_identity : forall P (e : expr P), move (fun v => v) e = e.
Proof. exact move_id_l. Qed.
Print Assumptions gate_mover_identity.

Theorem gate_mover_composes : forall P f g (e : expr P), move f (move g e) = move (fun v => f (g v)) e.
Proof. exact move_comp_l. Qed.
Print Assumptions gate_mover_composes.

(** Moving three columns to the right. *)
Example gate_mover_example :
  let f v := mkVar (vidx v + 3) (vrot v) (vrel v) (vty v) in
  let e := EBin OSub (EBin OMul (wv 0 0) (wv 1 1)) (EPow (wv 2 0) 2) in
  let T2 := fun ty col row => ofZ (col + 2 * row + 1) : F P97 in
  let T := fun ty col row => T2 ty (col - 3) row in
  (forall v, gval T 5 (f v) = gval T2 5 v) /\ eval T 5 (move f e) = eval T2 5 e /\ eval T2 5 e <> f0 /\
  eval T2 5 (move f e) <> eval T2 5 e.
Proof.
  cbv zeta. assert (H : forall v, gval (P := P97) (fun ty col row => ofZ (col - 3 + 2 * row + 1)) 5 (mkVar (vidx v + 3) (vrot v) (vrel v) (vty v))
     = gval (P := P97) (fun ty col row => ofZ (col + 2 * row + 1)) 5 v).
  { intros [i r l t]. unfold gval. cbn. f_equal. lia. }
  split; [exact H|]. split; [apply gate_mover_table; exact H|].
  split; apply fval_neq; vm_compute; discriminate.
Qed.

(** ** C28 *)

(** [last_write], [var_of] and [nameable] are the specification, in
    AssignProofs.v. A location never written is out of range or zero. *)
Theorem var_value_last_write : forall P w p c k h (s : astate P) l,
  aruns (a_new P w p c k) h = Some s -> nameable l ->
  match last_write h l with
  | Some v => var_value s (var_of l) = Some v
  | None => var_value s (var_of l) = None \/ var_value s (var_of l) = Some f0
  end.
Proof. exact var_value_last_l. Qed.
Print Assumptions var_value_last_write.

Theorem allocated_rows_spec : forall P w p c k h (s : astate P),
  aruns (a_new P w p c k) h = Some s ->
  (forall o r, In o h -> row_of P o = Some r -> Z.of_nat r < a_rows s) /\
  (a_rows s = 0 \/ exists o r, In o h /\ row_of P o = Some r /\ a_rows s = Z.of_nat r + 1).
Proof. exact allocated_rows_l. Qed.
Print Assumptions allocated_rows_spec.

(** The variable returned for a batched constant names that constant in every
    later state, and the same constant always gets the same variable. *)
Theorem batch_constant_variable : forall P (s : astate P) v s1 h s2,
  astep s (AAddBatchConst v) = Some s1 -> aruns s1 h = Some s2 ->
  var_value s2 (batch_const_var s v) = Some v /\
  (forall v', batch_const_var s2 v' = batch_const_var s v <-> v' = v).
Proof. exact batch_const_l. Qed.
Print Assumptions batch_constant_variable.

Theorem batch_variable : forall P (s : astate P) v s1 h s2,
  astep s (AAddBatch v) = Some s1 -> aruns s1 h = Some s2 ->
  batch_var s2 <> batch_var s /\
  ((forall v', ~ In (ABatchPrivate (length (a_bpriv s)) v') h) -> var_value s2 (batch_var s) = Some v).
Proof. exact batch_var_l. Qed.
Print Assumptions batch_variable.

Example var_value_example :
  let h := [AWitness 1 4 (ofZ 8); APublic 0 2 (ofZ 3); APrivate 1 (ofZ 6); AWitness 1 4 (ofZ 9);
            AShared 0 0 (ofZ 2); AConstant 0 7 (ofZ 5); AAddBatchConst (ofZ 12); AAddBatch (ofZ 13); AResizePrivate 1] in
  exists s : astate P97, aruns (a_new P97 2 1 1 1) h = Some s /\ a_rows s = 8 /\
   map (last_write h) [LWit 1 4; LPub 0 2; LPriv 1; LShared 0 0; LConst 0 7; LWit 0 0] =
     [Some (ofZ 9); Some (ofZ 3); None; Some (ofZ 2); Some (ofZ 5); None] /\
   Forall nameable [LWit 1 4; LPub 0 2; LPriv 1; LShared 0 0; LConst 0 7; LWit 0 0] /\
   batch_const_var s (ofZ 12) <> batch_const_var s (ofZ 14).
Proof.
  eexists. split; [vm_compute; reflexivity|]. split; [reflexivity|]. split; [reflexivity|].
  split; [repeat constructor; vm_compute; reflexivity|]. vm_compute. discriminate.
Qed.

(** A variable for a public column above zero does not read that column, and a
    selector variable does not read the selector. *)
Theorem public_column_variable_refuted : exists (s : astate P97) v,
  aruns (a_new P97 1 2 1 1) [APublic 1 0 v] = Some s /\
  last_write [APublic 1 0 v] (LPub 1 0) = Some v /\ var_value s (var_of (LPub 1 0)) <> Some v.
Proof. eexists. exists (ofZ 5). split; [reflexivity|]. split; [reflexivity|]. vm_compute. discriminate. Qed.
Print Assumptions public_column_variable_refuted.

Theorem selector_variable_refuted : exists (s : astate P97) h,
  aruns (a_new P97 1 1 1 1) h = Some s /\
  last_write h (LSel 0 0) = Some f1 /\ var_value s (var_of (LSel 0 0)) = Some (ofZ 5).
Proof. eexists. exists [AConstant 0 0 (ofZ 5); AEnable 0 0]. split; [reflexivity|]. split; reflexivity. Qed.
Print Assumptions selector_variable_refuted.

(** ** C30 *)

Theorem gate_id_order : forall P (vs : vset P) cs cs', Permutation cs cs' -> gate_gid vs cs = gate_gid vs cs'.
Proof. exact gate_gid_perm. Qed.
Print Assumptions gate_id_order.

Theorem lookup_gate_id_order : forall P (vs : vset P) cs cs', Permutation cs cs' -> lookup_gid vs cs = lookup_gid vs cs'.
Proof. exact lookup_gid_perm. Qed.
Print Assumptions lookup_gate_id_order.

Theorem gate_id_equal_polynomials : forall P (vs : vset P) cs cs',
  Forall2 (fun e e' => forall rho : var -> F P, evalv rho e = evalv rho e') cs cs' -> gate_gid vs cs = gate_gid vs cs'.
Proof. exact gate_gid_equal. Qed.
Print Assumptions gate_id_equal_polynomials.

Example gate_id_example :
  let a := EBin OMul (wv 0 0) (wv 1 0) in
  let a' := EBin OMul (wv 1 0) (wv 0 0) in
  let b := EPow (wv 2 1) 2 in
  a <> a' /\ (forall rho, evalv rho a = evalv rho a') /\
  gate_gid vs97 [a; b] = gate_gid vs97 [b; a'] /\ gate_gid vs97 [a; b] <> gate_gid vs97 [a].
Proof.
  cbv zeta. split; [discriminate|].
  assert (E : forall rho : var -> F P97, evalv rho (EBin OMul (wv 0 0) (wv 1 0)) = evalv rho (EBin OMul (wv 1 0) (wv 0 0))).
  { intros rho. cbn [evalv ebop]. apply F_ext. cbn. f_equal. apply Z.mul_comm. }
  split; [exact E|]. split.
  - rewrite (gate_id_order _ vs97 _ _ (perm_swap _ _ [])). apply gate_id_equal_polynomials.
    repeat constructor. exact E.
  - intros X. apply (f_equal (fun g => fval (fst g))) in X. vm_compute in X. discriminate.
Qed.

(** Whatever the random values: two lookups of an identically zero input in two
    different tables get one identifier, so the second is never added. *)
Definition zlookup (t : nat) : lcons P97 := (t, [ETerm f0 []]).
Definition tez : tenv P97 := fun t => Some (TStatic [[ofZ (Z.of_nat t)]] [O]).
Definition histz : list (bcall P97) :=
  [BLookup [zlookup 0]; BLookup [zlookup 1]; BA (AEnable 0 0)].

Theorem lookup_gate_id_collision_refuted : forall vs : vset P97,
  lookup_gid vs [zlookup 0] = lookup_gid vs [zlookup 1] /\ ~ lequiv P97 [zlookup 0] [zlookup 1] /\
  exists c s rs, bruns vs (c_new, a_new P97 1 1 1 1) histz = Some ((c, s), rs) /\
    is_satisfied tez c s = Some true /\ ~ meets P97 tez s rs.
Proof.
  intros vs.
  assert (Z1 : forall x : F P97, fmul x f0 = f0) by (intros x; apply F_ext; cbn; rewrite Z.mul_0_r; reflexivity).
  assert (ZE : forall t, eval_lookup vs (zlookup t) = (f0, f0)).
  { intros t. unfold eval_lookup, zlookup. cbn. rewrite !Z1. reflexivity. }
  assert (G : forall t, lookup_gid vs [zlookup t] = (f0, f0)).
  { intros t. unfold lookup_gid. cbn [map]. rewrite ZE. unfold sortg, combine_mults. cbn. rewrite Z1. reflexivity. }
  split; [rewrite !G; reflexivity|].
  assert (N1 : forall s : astate P97, ~ in_table P97 tez s 1 [f0]).
  { intros s [_ [k [Hk X]]]. cbn in Hk. specialize (X O O f0 eq_refl eq_refl). cbn in X. assert (k = O) by lia. subst k.
    cbn in X. apply (f_equal fval) in X. vm_compute in X. discriminate. }
  assert (Y0 : forall s : astate P97, in_table P97 tez s 0 [f0]).
  { intros s. split; [reflexivity|]. exists O. split; [cbn; lia|]. intros [|[|l]] i v; cbn; try discriminate.
    intros E1 E2. injection E1 as <-. injection E2 as <-. cbn. apply F_ext. reflexivity. }
  split.
  { intros E. specialize (E tez (a_new P97 1 1 1 1) 0). apply (N1 (a_new P97 1 1 1 1)).
    apply (proj1 E) with (e := zlookup 1); [|left; reflexivity].
    intros e [<-|[]]. apply Y0. }
  assert (R : exists c s rs, bruns vs (c_new, a_new P97 1 1 1 1) histz = Some ((c, s), rs) /\
     is_satisfied tez c s = Some true /\
     rs = [(BLookup [zlookup 0], Some O); (BLookup [zlookup 1], Some O); (BA (AEnable 0 0), None)]).
  { unfold histz. cbn [bruns]. unfold bstep at 1. rewrite G.
    unfold add_lookup at 1. cbn [c_lmap c_new find_gid]. cbv beta iota zeta.
    unfold bstep at 1. rewrite G. unfold add_lookup at 1.
    cbn [c_lmap find_gid c_gates c_lgates c_copies c_gmap c_next].
    change (gid_eqb (f0, f0) (f0, f0)) with true. cbv beta iota zeta. cbn [bstep].
    eexists. eexists. eexists. split; [cbn; reflexivity|]. split; [vm_compute; reflexivity|reflexivity]. }
  destruct R as [c [s [rs [R1 [R2 R3]]]]]. exists c, s, rs. split; [exact R1|]. split; [exact R2|]. subst rs.
  intros [_ [M _]]. eapply (N1 _). apply (M (BLookup [zlookup 1]) O [zlookup 1] O (zlookup 1)).
  - right. left. reflexivity.
  - reflexivity.
  - right. right. left. reflexivity.
  - left. reflexivity.
Qed.
Print Assumptions lookup_gate_id_collision_refuted.

(** ** C31 *)

(** A selector set through the raw accessor [selector(i, r) = 1] below the last
    allocated row is not seen by the check: the constraint fails there and the
    check still answers yes. *)
Theorem raw_selector_unchecked_refuted : forall vs : vset P97, exists c s rs,
  let e := ETerm f1 [] in
  bruns vs (c_new, a_new P97 1 1 1 1) [BGate1 e; BA (ASelector 0 3 f1)] = Some ((c, s), rs) /\
  map snd rs = [Some O; None] /\ a_table s CSel 0 3 = f1 /\ eval (a_table s) 3 e <> f0 /\
  is_satisfied (fun _ => None) c s = Some true.
Proof.
  intros vs. eexists. eexists. eexists. split; [reflexivity|]. split; [reflexivity|]. split; [reflexivity|].
  split; [apply fval_neq; vm_compute; discriminate|]. vm_compute. reflexivity.
Qed.
Print Assumptions raw_selector_unchecked_refuted.
