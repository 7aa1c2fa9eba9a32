(** Point-level forms of addition and doubling. *)
From Coq Require Import ZArith List Lia Bool Field.
From Verif Require Import Base Field Plonk PlonkFacts Bits PvTape NonNativeModel NonNativeProofs NonNativeArith
  NonNativeComp NonNativeWit NonNativeMul Ed25519 EdModel EdStage EdProofs.
Import ListNotations.
Open Scope Z_scope.

Add Field Fed : (F_field Ped) (morphism (F_morph Ped), constants [F_const], power_tac (F_power Ped) [F_pow_tac]).

(** The subtractions the honest assignments make. *)
Definition ed_add_ok (p q : ed_point) : Prop :=
  let y := snd (ed_add p q) in sub_ok (fval y) (fval (y * (ofZ ed_d * fst p * fst q * snd p * snd q))%F).
Definition ed_dbl_ok (p : ed_point) : Prop :=
  sub_ok (fval (snd p * snd p)%F) (fval (fst p * fst p)%F) /\ sub_ok (fval (fst p * fst p)%F) (fval (snd p * snd p)%F).

Lemma mod_fval : forall a (e : Fe), (ofZ a : Fe) = e -> a mod ed_p = fval e.
Proof. intros a e <-. symmetry. exact (fval_ofZ Ped a). Qed.
Lemma ca_k2_fval : forall tx ty rx ry (y : Fe),
  ca_k2 tx ty rx ry (fval y) = fval (y * (ofZ ed_d * ez tx * ez rx * ez ty * ez ry))%F.
Proof.
  intros tx ty rx ry y. unfold ca_k2, ca_k0, ca_t0, ca_t1. apply mod_fval. rewrite ofZ_mul, ofZ_fval, ez_mod, ofZ_mul, ez_mod, ofZ_mul, !ez_mod, !ofZ_mul.
  generalize (ofZ ed_d : Fe) (ofZ tx : Fe) (ofZ ty : Fe) (ofZ rx : Fe) (ofZ ry : Fe). intros. ring.
Qed.
Lemma db_t0_fval : forall ty, db_t0 ty = fval (ez ty * ez ty)%F. Proof. intros. apply mod_fval. apply ofZ_mul. Qed.
Lemma db_t1_fval : forall tx, db_t1 tx = fval (ez tx * ez tx)%F. Proof. intros. apply mod_fval. apply ofZ_mul. Qed.

(** A second value of the last check of the doubling with the same lowest and
    highest limbs. *)
Lemma flip_limb : forall v, 0 <= v < ed_p -> exists v', 0 <= v' < ed_p /\ v' <> v /\ nn_limb v' 0 = nn_limb v 0 /\ nn_limb v' 3 = nn_limb v 3.
Proof.
  intros v Hv. set (B := 2 ^ 66). assert (HB : 0 < B) by reflexivity.
  pose proof (Z.div_mod v B ltac:(lia)) as E0. set (q := v / B) in *. set (l0 := v mod B) in *.
  assert (H0 : 0 <= l0 < B) by (apply Z.mod_pos_bound; exact HB).
  pose proof (Z.div_mod q B ltac:(lia)) as E1. set (q2 := q / B) in *. set (l1 := q mod B) in *.
  assert (H1 : 0 <= l1 < B) by (apply Z.mod_pos_bound; exact HB).
  assert (LV : forall m, 0 <= m < B -> let w := B * (B * q2 + m) + l0 in nn_limb w 0 = l0 /\ nn_limb w 3 = (q2 / B) mod B).
  { intros m Hm w. unfold nn_limb. change (2 ^ (66 * 0)) with 1. rewrite Z.div_1_r. change (2 ^ (66 * 3)) with (B * (B * B)). fold B.
    assert (W1 : w / B = B * q2 + m). { unfold w. rewrite Z.mul_comm, Z.add_comm, Z.div_add by lia. rewrite Z.div_small by lia. lia. }
    assert (W2 : w / (B * B) = q2). { rewrite <- Z.div_div, W1 by lia. rewrite Z.mul_comm, Z.add_comm, Z.div_add by lia. rewrite Z.div_small by lia. lia. }
    split.
    - unfold w. rewrite Z.mul_comm, Z.add_comm, Z.mod_add by lia. apply Z.mod_small. exact H0.
    - f_equal. rewrite Z.mul_assoc, <- Z.div_div, W2 by lia. reflexivity. }
  assert (EV : v = B * (B * q2 + l1) + l0) by lia.
  assert (Q2 : 0 <= q2) by (apply Z.div_pos; [apply Z.div_pos; lia|lia]).
  assert (PB : ed_p = B * (B * (2 ^ 123 - 1) + (B - 1)) + (B - 19)) by reflexivity.
  pose proof (LV l1 H1) as [A0 A3]. rewrite <- EV in A0, A3.
  destruct (Z.eq_dec l1 0) as [Z|N].
  - exists (B * (B * q2 + 1) + l0). pose proof (LV 1 ltac:(lia)) as [B0 B3]. rewrite A0, A3.
    assert (19 < B) by reflexivity. generalize dependent B. intros B. intros. assert (q2 <= 2 ^ 123 - 1) by nia. split; [nia|]. split; [nia|]. split; assumption.
  - exists (B * (B * q2 + (l1 - 1)) + l0). pose proof (LV (l1 - 1) ltac:(lia)) as [B0 B3]. rewrite A0, A3.
    split; [nia|]. split; [nia|]. split; assumption.
Qed.
Ltac push := repeat first [rewrite ez_mod | rewrite ofZ_mul | rewrite ofZ_add | rewrite ofZ_sub].
Lemma db_t10_any : forall tx ty v, on_ed (ez tx, ez ty) -> 0 <= v < ed_p -> exists py : Fe, db_t10 tx ty (fval py) = v.
Proof.
  intros tx ty v H Hv. pose proof (ed_den_m _ _ _ _ H H) as D. unfold on_ed in H.
  exists (ez v / (f1 - ofZ ed_d * ez tx * ez tx * ez ty * ez ty))%F.
  rewrite <- (Z.mod_small v ed_p) at 2 by exact Hv. unfold db_t10, db_t6, db_t1, db_t0. apply ez_eq. push. rewrite !ofZ_fval. revert H D.
  generalize (ofZ ed_d : Fe) (ofZ tx : Fe) (ofZ ty : Fe) (ofZ v : Fe). clear. intros d x y v H D.
  assert (D' : (f1 - d * x * x * y * y)%F = (f1 + f1 + x * x - y * y)%F).
  { transitivity ((f1 + f1 - (f1 + d * (x * x) * (y * y)))%F); [ring|rewrite <- H; ring]. }
  rewrite D' in *. field. exact D.
Qed.

Section Point.
Variable P : params.
Notation F := (F P).
Notation table := (table P).
Variable L : lenv P.
Hypothesis big : 2 ^ 254 <= char P.
Implicit Types T : table.

Definition has_pt T (X Y : list var) (p : ed_point) : Prop := has_val P T X (fval (fst p)) /\ has_val P T Y (fval (snd p)).
Lemma has_pt_val : forall T X Y p, has_pt T X Y p -> pt_val T X Y = p.
Proof. intros T X Y p [HX HY]. rewrite (pt_has P T X Y _ _ HX HY). apply pt_fval. Qed.
Lemma pt_fst_snd : forall p : ed_point, (ez (fval (fst p)), ez (fval (snd p))) = p.
Proof. intros [x y]. cbn [fst snd]. rewrite !ofZ_fval. reflexivity. Qed.

Lemma ca_pt : forall T c Tx Ty Rx Ry row, wf_comp c 9 -> (forall i, 0 <= i < 4 -> W c i = i) ->
  nn_outside c 76 row Tx -> nn_outside c 76 row Ty -> nn_outside c 76 row Rx -> nn_outside c 76 row Ry ->
  sat L T (ca_consts c row) ->
  forall p q, has_pt T Tx Ty p -> has_pt T Rx Ry q -> on_ed p -> on_ed q -> ed_add_ok p q ->
  let T' := ca_assign c Tx Ty Rx Ry row T in
  sat L T' (ca_circuit c Tx Ty Rx Ry row) /\ frame c 76 row T T' /\ prog_looked P T' c (ca_prog c Tx Ty Rx Ry 0 0 row) row /\
  has_pt T' (own c row) (own c (row + 2)) (ed_add p q).
Proof.
  intros T c Tx Ty Rx Ry row Hwf HW O1 O2 O3 O4 SC p q [V1 V2] [V3 V4] C1 C2 OK T'.
  rewrite <- (pt_fst_snd p) in C1. rewrite <- (pt_fst_snd q) in C2.
  pose proof (ca_complete_l P L big T c Tx Ty Rx Ry row Hwf HW O1 O2 O3 O4 SC _ _ _ _ V1 V2 V3 V4 C1 C2) as K.
  cbv zeta in K. rewrite !pt_fst_snd in K. apply K. rewrite ca_k2_fval, !ofZ_fval. exact OK.
Qed.
Lemma ca_pt_fails : forall T c Tx Ty Rx Ry row, wf_comp c 9 -> (forall i, 0 <= i < 4 -> W c i = i) ->
  nn_outside c 76 row Tx -> nn_outside c 76 row Ty -> nn_outside c 76 row Rx -> nn_outside c 76 row Ry ->
  sat L T (ca_consts c row) ->
  forall p q, has_pt T Tx Ty p -> has_pt T Rx Ry q -> ~ ed_add_ok p q ->
  ~ sat L (ca_assign c Tx Ty Rx Ry row T) (ca_circuit c Tx Ty Rx Ry row).
Proof.
  intros T c Tx Ty Rx Ry row Hwf HW O1 O2 O3 O4 SC p q [V1 V2] [V3 V4] OK.
  pose proof (ca_fails_l P L big T c Tx Ty Rx Ry row Hwf HW O1 O2 O3 O4 SC _ _ _ _ V1 V2 V3 V4) as K.
  cbv zeta in K. rewrite !pt_fst_snd in K. apply K. rewrite ca_k2_fval, !ofZ_fval. exact OK.
Qed.
Lemma db_pt : forall T c Tx Ty row, wf_comp c 9 -> (forall i, 0 <= i < 4 -> W c i = i) ->
  nn_outside c 63 row Tx -> nn_outside c 63 row Ty ->
  forall p, has_pt T Tx Ty p -> on_ed p -> ed_dbl_ok p ->
  let T' := db_assign c Tx Ty row T in
  sat L T' (db_circuit c Tx Ty row) /\ db_missing P T' c row /\ frame c 63 row T T' /\ prog_looked P T' c (db_prog c Tx Ty 0 0 row) row /\
  has_pt T' (own c row) (own c (row + 2)) (ed_add p p).
Proof.
  intros T c Tx Ty row Hwf HW O1 O2 p [V1 V2] C1 [OK1 OK2] T'. rewrite <- (pt_fst_snd p) in C1.
  pose proof (db_complete_l P L big T c Tx Ty row Hwf HW O1 O2 _ _ V1 V2 C1) as K.
  cbv zeta in K. rewrite !pt_fst_snd, db_t0_fval, db_t1_fval, !ofZ_fval in K. apply K; assumption.
Qed.
(** A wrong second coordinate passes, with every chunk looked up. *)
Lemma db_wrong : forall T c Tx Ty row, wf_comp c 9 -> (forall i, 0 <= i < 4 -> W c i = i) ->
  nn_outside c 63 row Tx -> nn_outside c 63 row Ty ->
  forall p, has_pt T Tx Ty p -> on_ed p -> ed_dbl_ok p ->
  exists T' py, py <> snd (ed_add p p) /\
  sat L T' (db_circuit c Tx Ty row) /\ frame c 63 row T T' /\ prog_looked P T' c (db_prog c Tx Ty 0 0 row) row /\
  has_pt T' (own c row) (own c (row + 2)) (fst (ed_add p p), py).
Proof.
  intros T c Tx Ty row Hwf HW O1 O2 p [V1 V2] C1 [OK1 OK2]. rewrite <- (pt_fst_snd p) in C1.
  set (tx := fval (fst p)) in *. set (ty := fval (snd p)) in *. set (r := ed_add p p).
  destruct (flip_limb (db_t5 tx ty) ltac:(apply Z.mod_pos_bound; reflexivity)) as [v [Hv [NV [L0 L3]]]].
  destruct (db_t10_any tx ty v C1 Hv) as [py Hpy].
  pose proof (proj2 (db_ints tx ty (fval (fst r)) (fval (snd r)) C1)) as CI. rewrite pt_fst_snd in CI.
  assert (E : ed_add (ez tx, ez ty) (ez tx, ez ty) = r) by (unfold tx, ty; rewrite pt_fst_snd; reflexivity). destruct (CI E) as [Z0 Z1].
  pose proof (db_write_l P L big T c Tx Ty (fval (fst r)) (fval py) row Hwf HW O1 O2 (fval_canon _) (fval_canon _) tx ty V1 V2) as K. cbv zeta in K.
  rewrite db_t0_fval, db_t1_fval in K. unfold tx, ty in K. rewrite !ofZ_fval in K. specialize (K OK1 OK2). fold tx ty in K. destruct K as [S [_ K]].
  exists (db_write c Tx Ty (fval (fst r)) (fval py) row T), py. split; [|split; [apply S; [exact Z0|rewrite Hpy; auto|rewrite Hpy; auto]|exact K]].
  intros ->. apply NV. rewrite <- Hpy. symmetry. exact Z1.
Qed.

(** ** What the circuits read *)
Lemma prog_reads : forall c l row (Q : ctype -> Z -> Z -> Prop),
  (forall i r, row <= r < row + prog_rows l -> Q CWit (W c i) r) ->
  (forall s, In s l -> forall A, In A (st_ops s) -> forall i, 0 <= i < 4 -> var_reads Q (nv A i)) ->
  reads Q (prog_circuit P c l row).
Proof.
  intros c l. induction l as [|s l IH]; intros row Q H HI; cbn [prog_circuit prog_rows] in *; [apply reads_nil|].
  pose proof (st_rows_pos s). pose proof (prog_rows_pos l). apply reads_app. split.
  - apply st_reads; [intros i r Hr; apply H; lia|]. intros A HA. apply (HI s); [left; reflexivity|exact HA].
  - apply IH; [intros i r Hr; apply H; lia|]. intros s' Hs. apply (HI s'). right. exact Hs.
Qed.
Section PR.
Variables (c : comp) (Q : ctype -> Z -> Z -> Prop).
Definition ops_read (A : list var) : Prop := forall i, 0 <= i < 4 -> var_reads Q (nv A i).
Lemma own_ops : forall row, (forall i, Q CWit (W c i) row) -> ops_read (own c row).
Proof. intros row H i Hi. rewrite own_nv by exact Hi. apply H. Qed.
Lemma nm_ops : forall row, (forall i, Q CWit (W c i) (row + 5)) -> ops_read (nm_out c row).
Proof. intros row H i Hi. rewrite nm_out_nv by exact Hi. apply H. Qed.
Lemma na_ops : forall row, (forall i, Q CWit (W c i) (row + 2)) -> ops_read (na_out c row).
Proof. intros row H i Hi. rewrite na_out_nv by exact Hi. apply H. Qed.
Lemma ca_reads : forall Tx Ty Rx Ry row, (forall i r, row <= r < row + 76 -> Q CWit (W c i) r) -> (forall r, Q CConst (C c 0) r) ->
  ops_read Tx -> ops_read Ty -> ops_read Rx -> ops_read Ry -> reads (P := P) Q (ca_circuit c Tx Ty Rx Ry row).
Proof.
  intros Tx Ty Rx Ry row H HC H1 H2 H3 H4. rewrite (ca_circuit_prog P c Tx Ty Rx Ry 0 0 row). apply reads_app. split; [|apply reads_app; split].
  - apply prog_reads; [exact H|]. unfold ca_prog. cbv zeta. intros s Hs A HA.
    repeat (destruct Hs as [<-|Hs]; [cbn [st_ops In] in HA;
      repeat (destruct HA as [<-|HA]; [first [assumption | apply own_ops; intros i; apply H; lia | apply nm_ops; intros i; apply H; lia
        | apply na_ops; intros i; apply H; lia | intros i Hi; rewrite d_vars_nv by exact Hi; apply HC]|]); contradiction|]). contradiction.
  - unfold ca_consts. repeat (apply reads_cons; split; [apply HC|]). apply reads_nil.
  - unfold ca_copies. apply reads_app. split; apply reads_map; intros i Hi; split; apply H; cbn; lia.
Qed.
Lemma db_reads : forall Tx Ty row, (forall i r, row <= r < row + 63 -> Q CWit (W c i) r) ->
  ops_read Tx -> ops_read Ty -> reads (P := P) Q (db_circuit c Tx Ty row).
Proof.
  intros Tx Ty row H H1 H2. rewrite (db_circuit_prog P c Tx Ty 0 0 row). apply reads_app. split.
  - apply prog_reads; [exact H|]. unfold db_prog. cbv zeta. intros s Hs A HA.
    repeat (destruct Hs as [<-|Hs]; [cbn [st_ops In] in HA;
      repeat (destruct HA as [<-|HA]; [first [assumption | apply own_ops; intros i; apply H; lia | apply nm_ops; intros i; apply H; lia
        | apply na_ops; intros i; apply H; lia]|]); contradiction|]). contradiction.
  - unfold db_copies. apply reads_app. split; apply reads_map; intros i Hi; split; apply H; cbn; lia.
Qed.
End PR.
End Point.
