(** What the point addition accepts when no chunk is looked up. *)
From Coq Require Import ZArith Znumtheory List Lia Bool Field.
From Verif Require Import Base Field Plonk PlonkFacts Bits PvTape NonNativeModel NonNativeProofs NonNativeArith
  NonNativeComp NonNativeWit NonNativeMul Ed25519 EdModel EdStage EdProofs.
Import ListNotations.
Open Scope Z_scope.

Section Free.
Variable P : params.
Notation F := (F P).
Notation table := (table P).
Variable L : lenv P.
Hypothesis big : 2 ^ 254 <= char P.
Hypothesis other : char P <> ed_p.
Implicit Types T : table.

Add Field Ffree : (F_field P) (morphism (F_morph P), constants [F_const], power_tac (F_power P) [F_pow_tac]).

Ltac na_side :=
  lazymatch goal with
  | |- wf_comp _ _ => eassumption
  | |- nn_outside _ _ _ _ => eassumption
  | |- in_cols _ _ = _ => reflexivity
  | |- in_rows _ _ = _ => reflexivity
  | |- distinct _ _ = _ => reflexivity
  | |- look _ _ _ = _ /\ _ => repeat split
  | |- forall j m, _ -> look (rg_free _ _ _ _ _ _) _ _ = None => apply rg_free_other
  | _ => idtac
  end.

Ltac rw row := repeat match goal with |- context [row + ?a + ?b] =>
  let s := eval vm_compute in (a + b) in replace (row + a + b) with (row + s) by (clear; lia) end.
Ltac mem := cbn [In]; repeat (first [left; reflexivity | right]).

Lemma ed_p_nonzero : (ofZ ed_p : F) <> f0.
Proof.
  intros H. apply ofZ_divide in H. pose proof (char_big P big) as Bn. apply other.
  pose proof prime_25519 as PR. change (2 ^ 255 - 19) with ed_p in PR.
  apply prime_divisors in H; [|exact PR]. assert (0 < ed_p) by reflexivity. lia.
Qed.

Local Open Scope F_scope.
Lemma div_back : forall a b : F, b <> f0 -> a * finv b * b = a.
Proof. intros a b H. rewrite <- (Rmul_assoc (F_ring P)), finv_l by exact H. ring. Qed.

(** Any four elements are a product. *)
Lemma nm_any_l : forall T c A B row r0 r1 r2 r3, wf_comp c 9 -> nn_outside c 7 row A -> nn_outside c 7 row B ->
  exists T', frame c 7 row T T' /\ sat L T' (nm_circuit c A B row) /\
    forall i, (0 <= i < 4)%Z -> vval T' (nv (nm_out c row) i) = znth f0 [r0; r1; r2; r3] i.
Proof.
  intros T c A B row r0 r1 r2 r3 Hwf OA OB. set (x i := vval T (nv A i)). set (y i := vval T (nv B i)).
  set (gl (x0 x1 x2 x3 : F) := x0 + x1 * ofZ (2 ^ 66) + x2 * ofZ (2 ^ 132) + x3 * ofZ (2 ^ 198)).
  set (q0 := (gl (x 0%Z) (x 1%Z) (x 2%Z) (x 3%Z) * gl (y 0%Z) (y 1%Z) (y 2%Z) (y 3%Z) - gl r0 r1 r2 r3) * finv (ofZ ed_p)).
  set (p i := ofZ (nn_m i) : F).
  set (t0 := x 0%Z * y 0%Z + p 0%Z * q0).
  set (t1 := x 1%Z * y 0%Z + x 0%Z * y 1%Z + p 0%Z * f0 + p 1%Z * q0).
  set (t2 := x 2%Z * y 0%Z + x 0%Z * y 2%Z + x 1%Z * y 1%Z + p 2%Z * q0 + f0 * p 0%Z + p 1%Z * f0).
  set (t3 := x 3%Z * y 0%Z + y 3%Z * x 0%Z + x 1%Z * y 2%Z + y 1%Z * x 2%Z + p 3%Z * q0 + f0 * p 0%Z + p 1%Z * f0 + f0 * p 2%Z).
  set (u0 := (t0 - r0 + t1 * ofZ (2 ^ 66) - r1 * ofZ (2 ^ 66)) * finv (ofZ (2 ^ 132))).
  set (u1 := (t2 - r2 + t3 * ofZ (2 ^ 66) - r3 * ofZ (2 ^ 66) + u0) * finv (ofZ (2 ^ 125))).
  set (rq := rg_free P q0 f0 f0 f0 0). set (rr := rg_free P r0 r1 r2 r3 2).
  set (T' := wsets T (cells c row (nm_list P (x 0%Z) (x 1%Z) (x 2%Z) (x 3%Z) (y 0%Z) (y 1%Z) (y 2%Z) (y 3%Z) q0 f0 f0 f0 r0 r1 r2 r3 u0 u1
               u0 f0 f0 f0 u1 f0 f0 f0 ++ (rq ++ rr)))).
  assert (HO : forall j m, (4 <= m)%Z -> look (rq ++ rr) j m = None).
  { intros j m Hm. rewrite look_app. unfold rq, rr. rewrite !rg_free_high by lia. reflexivity. }
  assert (HQ : look (rq ++ rr) 0 0 = Some q0 /\ look (rq ++ rr) 1 0 = Some f0 /\ look (rq ++ rr) 2 0 = Some f0 /\ look (rq ++ rr) 3 0 = Some f0) by (repeat split).
  assert (HR : look (rq ++ rr) 0 2 = Some r0 /\ look (rq ++ rr) 1 2 = Some r1 /\ look (rq ++ rr) 2 2 = Some r2 /\ look (rq ++ rr) 3 2 = Some r3) by (repeat split).
  exists T'. split; [apply nm_frame; [exact Hwf|reflexivity]|]. split.
  - apply nm_sat; [exact Hwf|exact OA|exact OB|reflexivity|reflexivity|exact HQ|exact HR|exact HO| | |].
    + apply nm_gate_ok; [exact Hwf|reflexivity|exact HO| | | | |]; fold (x 0%Z) (x 1%Z) (x 2%Z) (x 3%Z) (y 0%Z) (y 1%Z) (y 2%Z) (y 3%Z).
      * fold (p 0%Z) (p 1%Z). fold t0 t1. unfold u0. apply div_back, pow2_nonzero; [exact big|lia].
      * fold (p 0%Z) (p 1%Z) (p 2%Z) (p 3%Z). fold t2 t3. unfold u1. apply div_back, pow2_nonzero; [exact big|lia].
      * ring.
      * ring.
      * assert (Q : q0 * ofZ ed_p = gl (x 0%Z) (x 1%Z) (x 2%Z) (x 3%Z) * gl (y 0%Z) (y 1%Z) (y 2%Z) (y 3%Z) - gl r0 r1 r2 r3) by (apply div_back, ed_p_nonzero).
        fold (gl (x 0%Z) (x 1%Z) (x 2%Z) (x 3%Z)) (gl (y 0%Z) (y 1%Z) (y 2%Z) (y 3%Z)) (gl r0 r1 r2 r3).
        transitivity (q0 * ofZ ed_p + gl r0 r1 r2 r3).
        -- rewrite Q. generalize (gl r0 r1 r2 r3). intros. ring.
        -- generalize (ofZ ed_p : F) (ofZ (2 ^ 66) : F) (ofZ (2 ^ 132) : F) (ofZ (2 ^ 198) : F) (gl r0 r1 r2 r3). clearbody q0. intros. ring.
    + unfold T'. rewrite cells_app, wsets_app. eapply rg_free_ok. apply (cells_has_l P _ c 9 row []); [exact Hwf|reflexivity|reflexivity|reflexivity|].
      intros j m z I. apply rg_free_other.
      unfold rq, rg_free in I. cbv zeta in I. cbn [In] in I. repeat (destruct I as [I|I]; [injection I as _ <- _; reflexivity|]). contradiction.
    + unfold T'. rewrite cells_app, wsets_app. eapply rg_free_ok. apply has_free_shift.
      apply (cells_has P _ c 9); [exact Hwf|reflexivity|reflexivity|reflexivity].
  - intros i Hi. apply nm_out_val; [exact Hwf|reflexivity|exact HO|exact Hi].
Qed.

(** Limb by limb, a sum; and a difference, next to the limbs of the modulus
    folded into two. *)
Lemma na_any_l : forall T c A B row, wf_comp c 9 -> nn_outside c 4 row A -> nn_outside c 4 row B ->
  exists T', frame c 4 row T T' /\ sat L T' (na_circuit c A B row) /\
    forall i, (0 <= i < 4)%Z -> vval T' (nv (na_out c row) i) = vval T (nv A i) + vval T (nv B i).
Proof.
  intros T c A B row Hwf OA OB. set (x i := vval T (nv A i)). set (y i := vval T (nv B i)).
  pose proof (na_free_of P L (na_gate c) T c A B row (x 0%Z + y 0%Z) (x 1%Z + y 1%Z) (x 2%Z + y 2%Z) (x 3%Z + y 3%Z) Hwf OA OB) as K. cbv zeta in K.
  destruct K as [K1 [K2 K3]].
  - apply na_gate_ok; na_side; fold (x 0%Z) (x 1%Z) (x 2%Z) (x 3%Z) (y 0%Z) (y 1%Z) (y 2%Z) (y 3%Z); rewrite ?pow132, ?pow198; ring.
  - eexists. split; [exact K1|]. split; [exact K2|]. intros i Hi. rewrite K3 by exact Hi.
    destruct (four i Hi) as [-> |[-> |[-> | ->]]]; reflexivity.
Qed.
Definition p_fold (i : Z) : F := znth f0 [ofZ (nn_limb ed_p 0); ofZ (2 ^ 189 - 1); f0; f0] i.
Lemma ns_any_l : forall T c A B row, wf_comp c 9 -> nn_outside c 4 row A -> nn_outside c 4 row B ->
  exists T', frame c 4 row T T' /\ sat L T' (ns_circuit c A B row) /\
    forall i, (0 <= i < 4)%Z -> vval T' (nv (na_out c row) i) = vval T (nv A i) - vval T (nv B i) + p_fold i.
Proof.
  intros T c A B row Hwf OA OB. set (x i := vval T (nv A i)). set (y i := vval T (nv B i)).
  set (e1 := ofZ (2 ^ 189 - 1) : F). set (e0 := ofZ (nn_limb ed_p 0) : F).
  assert (EP : (ofZ ed_p : F) = e0 + e1 * ofZ (2 ^ 66)).
  { unfold e0, e1. rewrite <- ofZ_mul, <- ofZ_add. f_equal. }
  pose proof (na_free_of P L (ns_gate c) T c A B row (x 0%Z - y 0%Z + e0) (x 1%Z - y 1%Z + e1) (x 2%Z - y 2%Z + f0) (x 3%Z - y 3%Z + f0) Hwf OA OB) as K. cbv zeta in K.
  destruct K as [K1 [K2 K3]].
  - apply ns_gate_ok; na_side; fold (x 0%Z) (x 1%Z) (x 2%Z) (x 3%Z) (y 0%Z) (y 1%Z) (y 2%Z) (y 3%Z); rewrite ?EP; rewrite ?pow132, ?pow198;
      fold e0; clearbody e0 e1; ring.
  - eexists. split; [exact K1|]. split; [exact K2|]. intros i Hi. rewrite K3 by exact Hi.
    destruct (four i Hi) as [-> |[-> |[-> | ->]]]; reflexivity.
Qed.
(** Any four elements pass the range component on its own row. *)
Lemma put_any_l : forall T c row (f : Z -> F), wf_comp c 9 ->
  exists T', frame c 2 row T T' /\ sat L T' (rg_circuit c (own c row) row) /\
    forall i, (0 <= i < 4)%Z -> vval T' (nv (own c row) i) = f i.
Proof.
  intros T c row f Hwf. set (T' := wsets T (cells c row ([] ++ rg_free P (f 0%Z) (f 1%Z) (f 2%Z) (f 3%Z) 0))).
  assert (HH : has P T' c row (rg_free P (f 0%Z) (f 1%Z) (f 2%Z) (f 3%Z) 0)) by (apply (cells_has P T c 9 row []); auto).
  exists T'. split; [apply (cells_frame P T c 9); auto|]. split.
  - unfold rg_circuit. apply sat_cons. split; [eapply rg_free_ok; exact HH|]. apply rg_copies_ok. intros i Hi. rewrite own_nv by exact Hi. reflexivity.
  - intros i Hi. rewrite own_nv, vval_wcell by exact Hi. rewrite <- (Z.add_0_r row). apply HH.
    destruct (four i Hi) as [-> |[-> |[-> | ->]]]; unfold rg_free; cbv zeta; cbn [In]; tauto.
Qed.

(** ** Chains *)
Definition fenv := list (list var * (Z -> F)).
Inductive fevals (c : comp) : list stage -> Z -> fenv -> fenv -> Prop :=
| fv_nil : forall row K, fevals c [] row K K
| fv_put : forall v f l row K K', fevals c l (row + 2)%Z ((own c row, f) :: K) K' -> fevals c (SPut v :: l) row K K'
| fv_mul : forall A B a b f l row K K', In (A, a) K -> In (B, b) K ->
    fevals c l (row + 7)%Z ((nm_out c row, f) :: K) K' -> fevals c (SMul A B :: l) row K K'
| fv_add : forall A B a b l row K K', In (A, a) K -> In (B, b) K ->
    fevals c l (row + 4)%Z ((na_out c row, fun i => a i + b i) :: K) K' -> fevals c (SAdd A B :: l) row K K'
| fv_sub : forall A B a b l row K K', In (A, a) K -> In (B, b) K ->
    fevals c l (row + 4)%Z ((na_out c row, fun i => a i - b i + p_fold i) :: K) K' -> fevals c (SSub A B :: l) row K K'.
Local Open Scope Z_scope.
Definition has_f T (A : list var) (f : Z -> F) : Prop := forall i, 0 <= i < 4 -> vval T (nv A i) = f i.

Lemma st_free : forall c s row T (K : fenv) l K' n, wf_comp c 9 -> 0 <= n ->
  fevals c (s :: l) row K K' ->
  (forall A a, In (A, a) K -> has_f T A a /\ nn_outside c (st_rows s + n) row A) ->
  exists r T', fevals c l (row + st_rows s) ((st_out c s row, r) :: K) K' /\
  sat L T' (st_circuit P c s row) /\ frame c (st_rows s) row T T' /\ has_f T' (st_out c s row) r /\
  (forall A, In A (st_ops s) -> nn_outside c (st_rows s + n) row A).
Proof.
  intros c s row T K l K' n Hwf Hn E HK.
  assert (OS : forall A, nn_outside c (st_rows s + n) row A -> nn_outside c (st_rows s) row A).
  { intros A HO i Hi. apply (outside_split c (st_rows s) n row); [pose proof (st_rows_pos s); lia|exact Hn|apply HO; exact Hi]. }
  destruct s as [v|A B|A B|A B]; cbn [st_rows st_out st_circuit st_ops] in *; inversion E; subst; clear E.
  - match goal with X : fevals c l _ ((_, f) :: K) K' |- _ => exists f end. destruct (put_any_l T c row f Hwf) as [T' [FR [S V]]]. exists T'.
    split; [assumption|]. split; [exact S|]. split; [exact FR|]. split; [exact V|intros A []].
  - match goal with X : In (A, a) K, Y : In (B, b) K |- _ => destruct (HK _ _ X) as [VA OA]; destruct (HK _ _ Y) as [VB OB] end.
    exists f. destruct (nm_any_l T c A B row (f 0) (f 1) (f 2) (f 3) Hwf (OS _ OA) (OS _ OB)) as [T' [FR [S V]]]. exists T'.
    split; [assumption|]. split; [exact S|]. split; [exact FR|]. split; [|intros A' [<-|[<-|[]]]; assumption].
    intros i Hi. rewrite V by exact Hi. destruct (four i Hi) as [-> |[-> |[-> | ->]]]; reflexivity.
  - match goal with X : In (A, a) K, Y : In (B, b) K |- _ => destruct (HK _ _ X) as [VA OA]; destruct (HK _ _ Y) as [VB OB] end.
    eexists. destruct (na_any_l T c A B row Hwf (OS _ OA) (OS _ OB)) as [T' [FR [S V]]]. exists T'.
    split; [eassumption|]. split; [exact S|]. split; [exact FR|]. split; [|intros A' [<-|[<-|[]]]; assumption].
    intros i Hi. rewrite V, VA, VB by exact Hi. reflexivity.
  - match goal with X : In (A, a) K, Y : In (B, b) K |- _ => destruct (HK _ _ X) as [VA OA]; destruct (HK _ _ Y) as [VB OB] end.
    eexists. destruct (ns_any_l T c A B row Hwf (OS _ OA) (OS _ OB)) as [T' [FR [S V]]]. exists T'.
    split; [eassumption|]. split; [exact S|]. split; [exact FR|]. split; [|intros A' [<-|[<-|[]]]; assumption].
    intros i Hi. rewrite V, VA, VB by exact Hi. reflexivity.
Qed.

Lemma prog_free : forall c, wf_comp c 9 -> forall l row T K K', fevals c l row K K' ->
  (forall A a, In (A, a) K -> has_f T A a /\ nn_outside c (prog_rows l) row A) ->
  exists T', sat L T' (prog_circuit P c l row) /\ frame c (prog_rows l) row T T' /\ (forall A a, In (A, a) K' -> has_f T' A a).
Proof.
  intros c Hwf l. induction l as [|s l IH]; intros row T K K' E HK.
  - inversion E; subst. exists T. split; [intros x []|]. split; [apply frame_refl|]. intros A a H. apply HK. exact H.
  - cbn [prog_rows prog_circuit] in *. pose proof (prog_rows_pos l) as Hn. pose proof (st_rows_pos s) as Hs.
    destruct (st_free c s row T K l K' (prog_rows l) Hwf Hn E HK) as [r [T1 [E' [S [FR [V OP]]]]]].
    assert (HK1 : forall A a, In (A, a) ((st_out c s row, r) :: K) -> has_f T1 A a /\ nn_outside c (prog_rows l) (row + st_rows s) A).
    { intros A a [X|X].
      - injection X as <- <-. split; [exact V|apply st_out_outside].
      - destruct (HK A a X) as [VA OA]. split.
        + intros i Hi. rewrite (vval_frame P c _ _ _ _ _ FR); [apply VA; exact Hi|].
          apply (outside_split c (st_rows s) (prog_rows l) row); [lia|exact Hn|apply OA; exact Hi].
        + intros i Hi. apply (outside_split c (st_rows s) (prog_rows l) row); [lia|exact Hn|apply OA; exact Hi]. }
    destruct (IH _ T1 _ _ E' HK1) as [T2 [S' [FR' KV]]]. exists T2. split; [|split; [|exact KV]].
    + apply sat_app. split; [|exact S']. apply (sat_frame P L c (prog_rows l) (row + st_rows s) T1 T2); [exact FR'| |exact S].
      apply st_reads; [intros i r' Hr; apply fresh_own; lia|]. intros A HA i Hi.
      apply (outside_split c (st_rows s) (prog_rows l) row); [lia|exact Hn|apply OP; assumption].
    + eapply frame_trans; [apply (frame_sub P c (st_rows s + prog_rows l) row (st_rows s) row); [lia|lia|exact FR]|].
      apply (frame_sub P c (st_rows s + prog_rows l) row (prog_rows l) (row + st_rows s)); [lia|lia|exact FR'].
Qed.

(** ** Addition *)
(** Any eight elements are accepted as the sum of any two points. *)
Lemma ca_any_l : forall T c Tx Ty Rx Ry row (fx fy : Z -> F), wf_comp c 9 ->
  nn_outside c 76 row Tx -> nn_outside c 76 row Ty -> nn_outside c 76 row Rx -> nn_outside c 76 row Ry ->
  sat L T (ca_consts c row) ->
  exists T', frame c 76 row T T' /\ sat L T' (ca_circuit c Tx Ty Rx Ry row) /\
  (forall i, 0 <= i < 4 -> vval T' (nv (own c row) i) = fx i) /\ (forall i, 0 <= i < 4 -> vval T' (nv (own c (row + 2)) i) = fy i).
Proof.
  intros T c Tx Ty Rx Ry row fx fy Hwf O1 O2 O3 O4 SC.
  set (D := d_vars c (row + 47)). set (lk A := fun i => vval T (nv A i)).
  set (z := fun _ : Z => f0 : F).
  set (K := [(Tx, lk Tx); (Ty, lk Ty); (Rx, lk Rx); (Ry, lk Ry); (D, lk D)] : fenv).
  assert (E : exists K', fevals c (ca_prog c Tx Ty Rx Ry 0 0 row) row K K' /\
    In (own c row, fx) K' /\ In (own c (row + 2), fy) K' /\
    In (na_out c (row + 32), fun i => fadd (z i) (z i)) K' /\ In (na_out c (row + 36), fun i => fadd (p_fold i) (z i)) K' /\
    In (na_out c (row + 68), fun i => fadd (fx i) (fsub f0 (fx i))) K' /\
    In (na_out c (row + 72), fun i => fadd (fsub (fy i) (fy i)) (p_fold i)) K').
  { eexists. split.
    - unfold ca_prog. cbv zeta. fold D. apply (fv_put c _ fx). apply (fv_put c _ fy). rw row.
      apply (fv_mul c Tx Ry (lk Tx) (lk Ry) z); [mem|mem|]. rw row. apply (fv_mul c Ty Rx (lk Ty) (lk Rx) z); [mem|mem|]. rw row.
      apply (fv_mul c Tx Rx (lk Tx) (lk Rx) p_fold); [mem|mem|]. rw row. apply (fv_mul c Ty Ry (lk Ty) (lk Ry) z); [mem|mem|]. rw row.
      apply (fv_add c _ _ z z); [mem|mem|]. rw row. apply (fv_add c _ _ p_fold z); [mem|mem|]. rw row.
      apply (fv_mul c _ _ z z z); [mem|mem|]. rw row. apply (fv_mul c _ _ (lk D) z z); [mem|mem|]. rw row.
      apply (fv_mul c _ _ fx z (fun i => fsub f0 (fx i))); [mem|mem|]. rw row.
      apply (fv_mul c _ _ fy z fy); [mem|mem|]. rw row.
      apply (fv_add c _ _ fx (fun i => fsub f0 (fx i))); [mem|mem|]. rw row.
      apply (fv_sub c _ _ fy fy); [mem|mem|]. rw row. apply fv_nil.
    - repeat apply conj; mem. }
  destruct E as [K' [E [I1 [I2 [I3 [I4 [I5 I6]]]]]]].
  destruct (prog_free c Hwf _ row T K K' E) as [T' [SP [FR KV]]].
  { change (prog_rows (ca_prog c Tx Ty Rx Ry 0 0 row)) with 76. intros A a HA. unfold K in HA. cbn [In] in HA.
    repeat (destruct HA as [HA|HA]; [injection HA as <- <-|]); [split; [intros i Hi; reflexivity|assumption]..| |contradiction].
    split; [intros i Hi; reflexivity|]. intros i Hi. unfold D. rewrite d_vars_nv by exact Hi. apply ccell_outside. }
  change (prog_rows (ca_prog c Tx Ty Rx Ry 0 0 row)) with 76 in FR.
  exists T'. split; [exact FR|]. split; [|split; [apply (KV _ _ I1)|apply (KV _ _ I2)]].
  rewrite (ca_circuit_prog P c Tx Ty Rx Ry 0 0 row). rewrite !sat_app. split; [exact SP|]. split.
  - intros x Hx'. specialize (SC x Hx'). unfold ca_consts in Hx'. cbn [In] in Hx'.
    repeat (destruct Hx' as [<-|Hx']; [cbn [holds] in *; rewrite FR; [exact SC|intros [X _]; discriminate]|]). contradiction.
  - apply KV in I3, I4, I5, I6. unfold ca_copies. apply sat_app. split; intros x Hx; apply in_map_iff in Hx; destruct Hx as [i [<- Hi]]; apply in_zseq in Hi; cbn [holds].
    + specialize (I3 i Hi). specialize (I5 i Hi). rewrite na_out_nv in I3, I5 by exact Hi.
      replace (row + 76 - 4 - 2) with (row + 68 + 2) by lia. rewrite I3, I5. unfold z. ring.
    + specialize (I4 i Hi). specialize (I6 i Hi). rewrite na_out_nv in I4, I6 by exact Hi.
      replace (row + 76 - 2) with (row + 72 + 2) by lia. rewrite I4, I6. unfold z. ring.
Qed.
End Free.
