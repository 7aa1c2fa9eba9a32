(** Chains of operations on four-limb elements, as the components on points
    are built: each operation sits below the one before. *)
From Coq Require Import ZArith List Lia Bool.
From Verif Require Import Base Field Plonk PlonkFacts Bits PvTape NonNativeModel NonNativeProofs NonNativeArith
  NonNativeComp NonNativeWit NonNativeMul Ed25519 EdModel.
Import ListNotations.
Open Scope Z_scope.

Lemma four : forall i, 0 <= i < 4 -> i = 0 \/ i = 1 \/ i = 2 \/ i = 3.
Proof. lia. Qed.

Inductive stage := SPut (v : Z) | SMul (A B : list var) | SAdd (A B : list var) | SSub (A B : list var).
Definition st_rows (s : stage) : Z := match s with SPut _ => 2 | SMul _ _ => 7 | _ => 4 end.
Definition st_out (c : comp) (s : stage) (row : Z) : list var :=
  match s with SPut _ => own c row | SMul _ _ => nm_out c row | _ => na_out c row end.
Fixpoint prog_rows (l : list stage) : Z := match l with [] => 0 | s :: l => st_rows s + prog_rows l end.
Lemma st_rows_pos : forall s, 2 <= st_rows s <= 7.
Proof. intros [v|A B|A B|A B]; cbn; lia. Qed.
Lemma prog_rows_pos : forall l, 0 <= prog_rows l.
Proof. induction l as [|s l IH]; cbn [prog_rows]; [lia|]. pose proof (st_rows_pos s). lia. Qed.

(** Values of a chain: [K] maps operands to values; [Q] and [R] restrict the
    written values and the subtractions. *)
Definition env := list (list var * Z).
Inductive evals (c : comp) (Q : Z -> Z -> Prop) (R : Z -> Z -> Prop) : list stage -> Z -> env -> env -> Prop :=
| ev_nil : forall row K, evals c Q R [] row K K
| ev_put : forall v l row K K', Q row v -> evals c Q R l (row + 2) ((own c row, v) :: K) K' -> evals c Q R (SPut v :: l) row K K'
| ev_mul : forall A B a b l row K K', In (A, a) K -> In (B, b) K ->
    evals c Q R l (row + 7) ((nm_out c row, (a * b) mod ed_p) :: K) K' -> evals c Q R (SMul A B :: l) row K K'
| ev_add : forall A B a b l row K K', In (A, a) K -> In (B, b) K ->
    evals c Q R l (row + 4) ((na_out c row, (a + b) mod ed_p) :: K) K' -> evals c Q R (SAdd A B :: l) row K K'
| ev_sub : forall A B a b l row K K', In (A, a) K -> In (B, b) K -> R a b ->
    evals c Q R l (row + 4) ((na_out c row, (a - b) mod ed_p) :: K) K' -> evals c Q R (SSub A B :: l) row K K'.

(** A subtraction of honest values that does not fail. *)
Definition sub_ok (a b : Z) : Prop := b <= a \/ nn_limb b 0 - nn_limb a 0 <= 2 ^ 66 - 19.

Section Stage.
Variable P : params.
Notation F := (F P).
Notation table := (table P).
Variable L : lenv P.
Hypothesis big : 2 ^ 254 <= char P.
Implicit Types T : table.

Definition st_circuit (c : comp) (s : stage) (row : Z) : list (cmd P) :=
  match s with
  | SPut _ => rg_circuit c (own c row) row
  | SMul A B => nm_circuit c A B row
  | SAdd A B => na_circuit c A B row
  | SSub A B => ns_circuit c A B row
  end.
Definition st_assign (c : comp) (s : stage) (row : Z) (T : table) : table :=
  match s with
  | SPut v => put_range c v row T
  | SMul A B => nm_assign c A B row T
  | SAdd A B => na_assign c A B row T
  | SSub A B => ns_assign c A B row T
  end.
Definition st_looked (T : table) (c : comp) (s : stage) (row : Z) : Prop :=
  match s with
  | SPut _ => rg_looked P T c row
  | SMul _ _ => rg_looked P T c row /\ rg_looked P T c (row + 2) /\ carries_looked P T c (row + 6)
  | _ => rg_looked P T c (row + 2) /\ carry_looked P T c row
  end.
Fixpoint prog_circuit (c : comp) (l : list stage) (row : Z) : list (cmd P) :=
  match l with [] => [] | s :: l => st_circuit c s row ++ prog_circuit c l (row + st_rows s) end.
Fixpoint prog_assign (c : comp) (l : list stage) (row : Z) (T : table) : table :=
  match l with [] => T | s :: l => prog_assign c l (row + st_rows s) (st_assign c s row T) end.
Fixpoint prog_looked (T : table) (c : comp) (l : list stage) (row : Z) : Prop :=
  match l with [] => True | s :: l => st_looked T c s row /\ prog_looked T c l (row + st_rows s) end.

(** ** Soundness *)

Definition small_val T (A : list var) (a : Z) : Prop := nn_small (nn_vals T A) /\ nn_glue_z (nn_vals T A) = a.
Lemma prog_sound : forall c T l row K K' (R : Z -> Z -> Prop),
  evals c (fun r v => v = nn_glue_z (nn_vals T (own c r))) R l row K K' ->
  sat L T (prog_circuit c l row) -> prog_looked T c l row ->
  (forall A a, In (A, a) K -> small_val T A a) -> (forall A a, In (A, a) K' -> small_val T A a).
Proof.
  intros c T l row K K' R E. induction E as [row K|v l row K K' HQ E IH|A B a b l row K K' IA IB E IH|A B a b l row K K' IA IB E IH|A B a b l row K K' IA IB HR E IH];
    intros S HL HK; [exact HK| | | |]; cbn [prog_circuit prog_looked st_circuit st_looked st_rows] in S, HL; rewrite sat_app in S;
    destruct S as [S S']; destruct HL as [H HL]; apply (IH S' HL); intros A' a' [X|X]; try (apply HK; exact X); injection X as <- <-.
  - pose proof (rg_sound_l P L big T c _ _ S H) as [S0 [S1 [S2 [S3 _]]]].
    split; [apply nn_vals_small; repeat split; assumption|symmetry; exact HQ].
  - destruct (HK _ _ IA) as [SA VA]. destruct (HK _ _ IB) as [SB VB]. destruct H as [H1 [H2 H3]].
    pose proof (nm_sound_l P L big T c A B row S SA SB H1 H2 H3) as [K1 K2]. rewrite VA, VB in K2. split; assumption.
  - destruct (HK _ _ IA) as [SA VA]. destruct (HK _ _ IB) as [SB VB]. destruct H as [H1 H2].
    pose proof (na_sound_l P L big T c A B row S SA SB H1 H2) as [K1 K2]. rewrite VA, VB in K2. split; assumption.
  - destruct (HK _ _ IA) as [SA VA]. destruct (HK _ _ IB) as [SB VB]. destruct H as [H1 H2].
    pose proof (ns_sound_l P L big T c A B row S SA SB H1 H2) as [K1 K2]. rewrite VA, VB in K2. split; assumption.
Qed.

(** ** What the honest range writes *)

Lemma own_nv : forall c row i, 0 <= i < 4 -> nv (own c row) i = wcell (W c i) row.
Proof. intros c row i Hi. destruct (four i Hi) as [-> |[-> |[-> | ->]]]; reflexivity. Qed.
Lemma rg_cell_assign : forall c ins row T k, wf_comp c 9 -> 0 <= k < 12 ->
  rg_cell P (rg_assign c ins row T) c row k = fval (ofZ (rg_chunk (nn_vals T ins) k) : F).
Proof.
  intros c ins row T k Hwf Hk. rewrite rg_assign_cells0. unfold rg_cell. rewrite <- (Z.add_0_r row) at 2.
  destruct (Z.ltb_spec k 4) as [H4|H4]; rewrite (cells_read P T c 9) by (auto; lia).
  - destruct (four k ltac:(lia)) as [-> |[-> |[-> | ->]]]; reflexivity.
  - assert (k = 4 \/ k = 5 \/ k = 6 \/ k = 7 \/ k = 8 \/ k = 9 \/ k = 10 \/ k = 11) as [-> |[-> |[-> |[-> |[-> |[-> |[-> | ->]]]]]]] by lia; reflexivity.
Qed.
Lemma rg_chunk_range : forall v k, 0 <= rg_chunk v k /\ rg_chunk v k < 2 ^ (if k / 3 =? 3 then (if k mod 3 =? 2 then 15 else 21) else 22).
Proof.
  intros v k. unfold rg_chunk. cbv zeta. destruct (k / 3 =? 3); [destruct (k mod 3 =? 2)|]; apply Z.mod_pos_bound; reflexivity.
Qed.
Lemma fval_le : forall z m, 0 <= z -> z < m -> fval (ofZ z : F) < m.
Proof.
  intros z m H0 H1. rewrite fval_ofZ. pose proof (char_ge_2 P). pose proof (Z.mod_le z (char P) H0 ltac:(lia)). lia.
Qed.
Lemma rg_assign_looked : forall c ins row T, wf_comp c 9 -> rg_looked P (rg_assign c ins row T) c row.
Proof.
  intros c ins row T Hwf.
  assert (K : forall k m, 0 <= k < 12 -> (if k / 3 =? 3 then (if k mod 3 =? 2 then 15 else 21) else 22) = m ->
    rg_cell P (rg_assign c ins row T) c row k < 2 ^ m).
  { intros k m Hk E. rewrite rg_cell_assign by assumption. pose proof (rg_chunk_range (nn_vals T ins) k) as [H0 H1]. rewrite E in H1. apply fval_le; assumption. }
  split.
  - intros k Hk. apply K; [lia|]. assert (k / 3 < 3) by (apply Z.div_lt_upper_bound; lia). destruct (Z.eqb_spec (k / 3) 3); [lia|reflexivity].
  - split; [apply K; [lia|reflexivity]|]. split; [apply K; [lia|reflexivity]|]. split; [apply K; [lia|reflexivity]|].
    rewrite rg_cell_assign by (auto; lia). intros H. rewrite rg_assign_cells0, (cells_read P T c 9) by (auto; lia). 
    cbn [look rg_list]. change (0 + 1) with 1. cbn [Z.eqb Pos.eqb andb].
    pose proof (rg_chunk_range (nn_vals T ins) 0) as [H0 H1]. cbn [Z.eqb] in H1.
    destruct (Z.ltb_spec (2 ^ 22 - 20) (rg_chunk (nn_vals T ins) 0)) as [X|X]; [reflexivity|]. exfalso.
    assert (fval (ofZ (rg_chunk (nn_vals T ins) 0) : F) < 2 ^ 22 - 19) by (apply fval_le; lia). lia.
Qed.
Lemma rg_assign_vals : forall c ins row T, wf_comp c 9 -> nn_vals (rg_assign c ins row T) (own c row) = nn_vals T ins.
Proof.
  intros c ins row T Hwf. unfold nn_vals. apply map_ext_in. intros i Hi. apply in_zseq in Hi. rewrite own_nv by exact Hi.
  rewrite vval_wcell, rg_assign_cells0. rewrite <- (Z.add_0_r row) at 2. rewrite (cells_read P T c 9) by (auto; lia).
  rewrite <- nn_vals_nth by exact Hi.
  assert (X : forall j, 0 <= j < 4 -> fval (ofZ (znth 0 (nn_vals T ins) j) : F) = znth 0 (nn_vals T ins) j).
  { intros j Hj. rewrite nn_vals_nth by exact Hj. rewrite ofZ_fval. reflexivity. }
  destruct (four i Hi) as [-> |[-> |[-> | ->]]]; cbn [look rg_list Z.eqb Pos.eqb andb]; apply X; lia.
Qed.
(** The chunks of the lowest limb. *)
Lemma rg_assign_chunk : forall c ins row T k, wf_comp c 9 -> 0 <= k < 3 ->
  rg_assign c ins row T CWit (W c (4 + k)) row = ofZ (rg_chunk (nn_vals (rg_assign c ins row T) (own c row)) k).
Proof.
  intros c ins row T k Hwf Hk. rewrite rg_assign_vals by exact Hwf. rewrite rg_assign_cells0. rewrite <- (Z.add_0_r row) at 2.
  rewrite (cells_read P T c 9) by (auto; lia).
  assert (k = 0 \/ k = 1 \/ k = 2) as [-> |[-> | ->]] by lia; reflexivity.
Qed.

(** ** Frames *)

Lemma cell_frame : forall c n r T T' i row, frame c n r T T' -> row < r \/ r + n <= row -> T' CWit (W c i) row = T CWit (W c i) row.
Proof. intros c n r T T' i row HF H. apply HF. intros [_ [_ X]]. lia. Qed.
Lemma rg_looked_frame : forall c n r T T' row, frame c n r T T' -> row + 2 <= r \/ r + n <= row -> rg_looked P T c row -> rg_looked P T' c row.
Proof.
  intros c n r T T' row HF H [H0 [H1 [H2 [H3 H4]]]].
  assert (E : forall k, rg_cell P T' c row k = rg_cell P T c row k).
  { intros k. unfold rg_cell. destruct (k <? 4); rewrite (cell_frame c n r T T') by (auto; lia); reflexivity. }
  split; [intros k Hk; rewrite E; auto|]. rewrite !E. split; [exact H1|]. split; [exact H2|]. split; [exact H3|].
  intros X. rewrite (cell_frame c n r T T') by (auto; lia). auto.
Qed.
Lemma carry_looked_frame : forall c n r T T' row, frame c n r T T' -> row + 1 <= r \/ r + n <= row -> carry_looked P T c row -> carry_looked P T' c row.
Proof. intros c n r T T' row HF H X. unfold carry_looked in *. rewrite !(cell_frame c n r T T') by (auto; lia). exact X. Qed.
Lemma carries_looked_frame : forall c n r T T' row, frame c n r T T' -> row + 1 <= r \/ r + n <= row -> carries_looked P T c row -> carries_looked P T' c row.
Proof. intros c n r T T' row HF H X. unfold carries_looked in *. rewrite !(cell_frame c n r T T') by (auto; lia). exact X. Qed.
Lemma st_looked_frame : forall c s n r T T' row, frame c n r T T' -> row + st_rows s <= r -> st_looked T c s row -> st_looked T' c s row.
Proof.
  intros c s n r T T' row HF H X. destruct s as [v|A B|A B|A B]; cbn [st_looked st_rows] in *.
  - eapply rg_looked_frame; eauto.
  - destruct X as [X1 [X2 X3]]. split; [eapply rg_looked_frame; eauto; lia|]. split; [eapply rg_looked_frame; eauto; lia|].
    eapply carries_looked_frame; eauto; lia.
  - destruct X as [X1 X2]. split; [eapply rg_looked_frame; eauto; lia|eapply carry_looked_frame; eauto; lia].
  - destruct X as [X1 X2]. split; [eapply rg_looked_frame; eauto; lia|eapply carry_looked_frame; eauto; lia].
Qed.

(** ** The honest chunks meet the lookups *)

Lemma rg_assign_frame : forall c ins row T, wf_comp c 9 -> frame c 2 row T (rg_assign c ins row T).
Proof. intros c ins row T Hwf. rewrite rg_assign_cells0. apply (cells_frame P T c 9); auto. Qed.
Lemma mod_lt : forall u m, 0 < m -> fval (ofZ (u mod m) : F) < m.
Proof. intros u m Hm. pose proof (Z.mod_pos_bound u m Hm). apply fval_le; lia. Qed.
Lemma na_write_looked : forall c a b q u r top row T, wf_comp c 9 -> 0 < top <= 4 ->
  let T' := na_write c a b q u r top row T in rg_looked P T' c (row + 2) /\ carry_looked P T' c row.
Proof.
  intros c a b q u r top row T Hwf Ht T'. unfold T', na_write. cbv zeta. split; [apply rg_assign_looked; exact Hwf|].
  eapply carry_looked_frame; [apply rg_assign_frame; exact Hwf|lia|]. 
  match goal with |- carry_looked P (wsets T ?l) c row => set (l0 := l) end.
  set (z x := ofZ x : F) in *.
  assert (E : l0 = cells c row
   [(0, 1, z (znth 0 a 0)); (1, 1, z (znth 0 b 0)); (2, 1, z q);
    (3, 1, z (znth 0 a 1)); (4, 1, z (znth 0 a 2)); (5, 1, z (znth 0 a 3));
    (6, 1, z (znth 0 b 1)); (7, 1, z (znth 0 b 2)); (8, 1, z (znth 0 b 3));
    (3, 0, z (u mod 2 ^ 22)); (4, 0, z ((u / 2 ^ 22) mod 2 ^ 22)); (5, 0, z ((u / 2 ^ 44) mod 2 ^ 22));
    (6, 0, z ((u / 2 ^ 66) mod top)); (7, 0, z u);
    (0, 2, z (nn_limb r 0)); (1, 2, z (nn_limb r 1));
    (2, 2, z (nn_limb r 2)); (3, 2, z (nn_limb r 3))]).
  { unfold l0, cells. cbn [map fst snd]. rewrite !Z.add_0_r. reflexivity. }
  rewrite E. unfold carry_looked. rewrite <- (Z.add_0_r row) at 2 4 6 8. rewrite !(cells_read P T c 9) by (auto; lia).
  cbn [look Z.eqb Pos.eqb andb]. unfold z. repeat split; try (apply mod_lt; reflexivity).
  eapply Z.lt_le_trans; [apply mod_lt|]; lia.
Qed.
Lemma nm_assign_looked : forall c A B row T, wf_comp c 9 ->
  let T' := nm_assign c A B row T in rg_looked P T' c row /\ rg_looked P T' c (row + 2) /\ carries_looked P T' c (row + 6).
Proof.
  intros c A B row T Hwf T'. unfold T', nm_assign. cbv zeta.
  match goal with |- context [rg_assign c (nm_q c row) row (wsets T ?l)] => set (l0 := l) end.
  split; [|split].
  - eapply rg_looked_frame; [apply rg_assign_frame; exact Hwf|lia|]. apply rg_assign_looked. exact Hwf.
  - apply rg_assign_looked. exact Hwf.
  - eapply carries_looked_frame; [apply rg_assign_frame; exact Hwf|lia|].
    eapply carries_looked_frame; [apply rg_assign_frame; exact Hwf|lia|].
    unfold l0. clear l0 T'.
    match goal with |- context [(W c 0, row + 6, ofZ (?u mod 2 ^ 22))] => set (u0 := u) end.
    match goal with |- context [(W c 4, row + 6, ofZ (?u mod 2 ^ 22))] => set (u1 := u) end.
    match goal with |- carries_looked P (wsets T (?e1 :: ?e2 :: ?e3 :: ?e4 :: ?e5 :: ?e6 :: ?e7 :: ?e8 :: ?e9 :: ?e10 :: ?e11 :: ?e12 :: ?e13 :: ?e14 :: ?e15 :: ?e16 :: ?e17 :: ?e18 :: ?l)) _ _ =>
      change (carries_looked P (wsets T ([e1; e2; e3; e4; e5; e6; e7; e8; e9; e10; e11; e12; e13; e14; e15; e16; e17; e18] ++ l)) c (row + 6)) end.
    rewrite wsets_app. match goal with |- context [wsets (wsets T ?l) _] => generalize (wsets T l) end. intros T1.
    match goal with |- context [wsets T1 ?l] =>
      replace l with (cells c row [(0, 6, ofZ (u0 mod 2 ^ 22) : F); (1, 6, ofZ ((u0 / 2 ^ 22) mod 2 ^ 22));
        (2, 6, ofZ ((u0 / 2 ^ 44) mod 2 ^ 22)); (3, 6, ofZ ((u0 / 2 ^ 66) mod 2 ^ 4));
        (4, 6, ofZ (u1 mod 2 ^ 22)); (5, 6, ofZ ((u1 / 2 ^ 22) mod 2 ^ 22));
        (6, 6, ofZ ((u1 / 2 ^ 44) mod 2 ^ 22)); (7, 6, ofZ ((u1 / 2 ^ 66) mod 2 ^ 9))]) by reflexivity end.
    clearbody u0 u1. unfold carries_looked. rewrite !(cells_read P T1 c 9) by (auto; lia).
    cbn [look Z.eqb Pos.eqb andb]. repeat split; apply mod_lt; reflexivity.
Qed.
Lemma st_assign_looked : forall c s row T, wf_comp c 9 -> st_looked (st_assign c s row T) c s row.
Proof.
  intros c s row T Hwf. destruct s as [v|A B|A B|A B]; cbn [st_looked st_assign].
  - apply rg_assign_looked. exact Hwf.
  - apply nm_assign_looked. exact Hwf.
  - unfold na_assign. cbv zeta. apply na_write_looked; [exact Hwf|lia].
  - unfold ns_assign. cbv zeta. apply na_write_looked; [exact Hwf|lia].
Qed.
(** The chunks of the lowest limb of a sum. *)
Definition low_chunks T (c : comp) (row : Z) (r : Z) : Prop :=
  forall k, 0 <= k < 3 -> T CWit (W c (4 + k)) (row + 2) = ofZ (rg_chunk (nn_chop r) k).
Lemma na_assign_chunks : forall c A B row T r, wf_comp c 9 ->
  nn_vals (na_assign c A B row T) (na_out c row) = nn_chop r -> low_chunks (na_assign c A B row T) c row r.
Proof.
  intros c A B row T r Hwf E k Hk. rewrite <- E. unfold na_assign, na_write. cbv zeta. change (na_out c row) with (own c (row + 2)).
  apply rg_assign_chunk; assumption.
Qed.

(** ** Cells read by a stage *)

Lemma fresh_own : forall c m r i row, row < r \/ r + m <= row -> ~ in_area c m r CWit (W c i) row.
Proof. intros c m r i row H [_ [_ X]]. lia. Qed.
Lemma outside_split : forall c n m r v, 0 <= n -> 0 <= m -> outside c (n + m) r v -> outside c n r v /\ outside c m (r + n) v.
Proof. intros c n m r v Hn Hm H. split; intros [X [Y Z]]; apply H; (split; [exact X|split; [exact Y|lia]]). Qed.

Section Reads.
Variable Q : ctype -> Z -> Z -> Prop.
Ltac er := repeat first [apply conj | apply reads_ecst | apply reads_wv].
Lemma rg_reads : forall c ins row,
  (forall i r, row <= r < row + 2 -> Q CWit (W c i) r) -> (forall i, 0 <= i < 4 -> var_reads Q (nv ins i)) ->
  reads Q (rg_circuit (P := P) c ins row).
Proof.
  intros c ins row H HI. unfold rg_circuit. apply reads_cons. split.
  - intros r [<-|[]] e He. unfold rg_gate in He. cbv zeta in He. cbn [In] in He. unfold rg_sum in He. cbv zeta in He.
    repeat (destruct He as [<-|He]; [er; apply H; lia|]). contradiction.
  - unfold rg_copies. apply reads_flat. intros i Hi. apply in_zseq in Hi. destruct (var_eqb _ _); [apply reads_nil|].
    apply reads_cons. split; [|apply reads_nil]. split; [apply H; cbn; lia|apply HI; exact Hi].
Qed.
Lemma na_of_reads : forall g c A B row,
  (forall e, In e g -> expr_reads Q (row + 1) e) ->
  (forall i r, row <= r < row + 4 -> Q CWit (W c i) r) -> (forall i, 0 <= i < 4 -> var_reads Q (nv A i)) -> (forall i, 0 <= i < 4 -> var_reads Q (nv B i)) ->
  reads Q (na_circuit_of (P := P) g c A B row).
Proof.
  intros g c A B row HG H HA HB. unfold na_circuit_of. apply reads_cons. split; [intros r [<-|[]]; exact HG|]. apply reads_app. split.
  - unfold na_copies. repeat (apply reads_cons; split; [split; [apply H; cbn; lia|first [apply HA; lia|apply HB; lia]]|]). apply reads_nil.
  - apply rg_reads; [intros i r Hr; apply H; lia|]. intros i Hi. rewrite na_out_nv by exact Hi. apply H. cbn. lia.
Qed.
Lemma na_reads : forall c A B row,
  (forall i r, row <= r < row + 4 -> Q CWit (W c i) r) -> (forall i, 0 <= i < 4 -> var_reads Q (nv A i)) -> (forall i, 0 <= i < 4 -> var_reads Q (nv B i)) ->
  reads Q (na_circuit (P := P) c A B row).
Proof.
  intros c A B row H HA HB. apply na_of_reads; auto. intros e He. unfold na_gate in He. cbv zeta in He. cbn [In] in He. unfold nn_carry, nn_glue_e in He. cbv zeta in He.
  repeat (destruct He as [<-|He]; [er; apply H; lia|]). contradiction.
Qed.
Lemma ns_reads : forall c A B row,
  (forall i r, row <= r < row + 4 -> Q CWit (W c i) r) -> (forall i, 0 <= i < 4 -> var_reads Q (nv A i)) -> (forall i, 0 <= i < 4 -> var_reads Q (nv B i)) ->
  reads Q (ns_circuit (P := P) c A B row).
Proof.
  intros c A B row H HA HB. apply na_of_reads; auto. intros e He. unfold ns_gate in He. cbv zeta in He. cbn [In] in He. unfold nn_carry, nn_glue_e in He. cbv zeta in He.
  repeat (destruct He as [<-|He]; [er; apply H; lia|]). contradiction.
Qed.
Lemma nm_reads : forall c A B row,
  (forall i r, row <= r < row + 7 -> Q CWit (W c i) r) -> (forall i, 0 <= i < 4 -> var_reads Q (nv A i)) -> (forall i, 0 <= i < 4 -> var_reads Q (nv B i)) ->
  reads Q (nm_circuit (P := P) c A B row).
Proof.
  intros c A B row H HA HB. unfold nm_circuit. apply reads_cons. split.
  - intros r [<-|[]] e He. unfold nm_gate in He. cbv zeta in He. cbn [In] in He. unfold nn_glue_e in He. cbv zeta in He.
    repeat (destruct He as [<-|He]; [er; apply H; lia|]). contradiction.
  - apply reads_app. split; [unfold nm_copies; apply reads_app; split; apply reads_map; intros i Hi; apply in_zseq in Hi|apply reads_app; split; apply rg_reads].
    + split; [apply H; cbn; lia|apply HA; exact Hi].
    + split; [apply H; cbn; lia|apply HB; exact Hi].
    + intros i r Hr; apply H; lia.
    + intros i Hi. destruct (four i Hi) as [-> |[-> |[-> | ->]]];
        [exact (H 8 (row + 4) ltac:(lia))|exact (H 0 (row + 5) ltac:(lia))|exact (H 1 (row + 5) ltac:(lia))|exact (H 2 (row + 5) ltac:(lia))].
    + intros i r Hr; apply H; lia.
    + intros i Hi. rewrite nm_out_nv by exact Hi. apply H. cbn. lia.
Qed.
End Reads.

(** The operands of a stage. *)
Definition st_ops (s : stage) : list (list var) := match s with SPut _ => [] | SMul A B | SAdd A B | SSub A B => [A; B] end.
Lemma st_reads : forall c s row (Q : ctype -> Z -> Z -> Prop),
  (forall i r, row <= r < row + st_rows s -> Q CWit (W c i) r) -> (forall A, In A (st_ops s) -> forall i, 0 <= i < 4 -> var_reads Q (nv A i)) ->
  reads Q (st_circuit c s row).
Proof.
  intros c s row Q H HI. destruct s as [v|A B|A B|A B]; cbn [st_circuit st_rows st_ops] in *.
  - apply rg_reads; [exact H|]. intros i Hi. rewrite own_nv by exact Hi. apply H. cbn. lia.
  - apply nm_reads; [exact H| |]; apply HI; cbn; auto.
  - apply na_reads; [exact H| |]; apply HI; cbn; auto.
  - apply ns_reads; [exact H| |]; apply HI; cbn; auto.
Qed.

(** ** Completeness *)

Definition has_val T (A : list var) (a : Z) : Prop := nn_vals T A = nn_chop a /\ 0 <= a < ed_p.
Lemma has_val_facts : forall T A a, has_val T A a -> nn_small (nn_vals T A) /\ nn_glue_z (nn_vals T A) = a /\ nn_glue_z (nn_vals T A) < ed_p.
Proof.
  intros T A a [E H]. rewrite E. pose proof (canon_255 a H) as H'. rewrite chop_glue by exact H'. split; [apply chop_small; exact H'|]. split; [reflexivity|apply H].
Qed.
Lemma has_val_frame : forall T T' c n r A a, frame c n r T T' -> nn_outside c n r A -> has_val T A a -> has_val T' A a.
Proof.
  intros T T' c n r A a HF HO [E H]. split; [|exact H]. rewrite <- E. unfold nn_vals. apply map_ext_in. intros i Hi. apply in_zseq in Hi.
  rewrite (vval_frame P c n r T T') by (auto; apply HO; exact Hi). reflexivity.
Qed.
Lemma limb0_val : forall T A a, has_val T A a -> fval (vval T (nv A 0)) = nn_limb a 0.
Proof. intros T A a [E _]. rewrite <- (nn_vals_nth P T A 0) by lia. rewrite E. reflexivity. Qed.

Lemma put_range_ok : forall c v row T, wf_comp c 9 -> 0 <= v < ed_p ->
  let T' := put_range c v row T in
  sat L T' (rg_circuit c (own c row) row) /\ frame c 2 row T T' /\ has_val T' (own c row) v.
Proof.
  intros c v row T Hwf Hv T'. set (T1 := nn_empty v c row T).
  assert (E : T1 = wsets T (cells c row (map (fun i => (i, 0, ofZ (nn_limb v i))) (zseq 0 4)))).
  { unfold T1, nn_empty, cells. rewrite map_map. cbn [fst snd]. rewrite Z.add_0_r. reflexivity. }
  assert (F1 : frame c 2 row T T1).
  { rewrite E. apply (cells_frame P T c 9); auto. }
  assert (V1 : nn_vals T1 (own c row) = nn_chop v).
  { rewrite <- (limbs_map P big). unfold nn_vals. apply map_ext_in. intros i Hi. apply in_zseq in Hi. f_equal. rewrite own_nv, vval_wcell by exact Hi.
    rewrite E. rewrite <- (Z.add_0_r row) at 2. rewrite (cells_read P T c 9) by (auto; lia). destruct (four i Hi) as [-> |[-> |[-> | ->]]]; reflexivity. }
  pose proof (canon_255 v Hv) as Hv'.
  assert (S1 : nn_small (nn_vals T1 (own c row))) by (rewrite V1; apply chop_small; exact Hv').
  assert (G1 : nn_glue_z (nn_vals T1 (own c row)) < ed_p) by (rewrite V1, chop_glue by exact Hv'; apply Hv).
  assert (VV : nn_vals T' (own c row) = nn_vals T1 (own c row)) by (apply rg_assign_vals; exact Hwf).
  split; [|split].
  - unfold rg_circuit. apply sat_cons. split.
    + apply (rg_honest P L big T' c row (nn_vals T1 (own c row))); [exact S1|exact G1|]. unfold T', put_range. fold T1. rewrite rg_assign_cells0.
      apply (cells_has P T1 c 9 row []); auto.
    + apply rg_copies_ok. intros i Hi. rewrite own_nv, vval_wcell by exact Hi. reflexivity.
  - eapply frame_trans; [exact F1|]. apply rg_assign_frame. exact Hwf.
  - split; [rewrite VV; exact V1|exact Hv].
Qed.

Lemma st_complete : forall c s row T (K : env) l K' n, wf_comp c 9 -> (forall i, 0 <= i < 4 -> W c i = i) -> 0 <= n ->
  evals c (fun _ v => 0 <= v < ed_p) sub_ok (s :: l) row K K' ->
  (forall A a, In (A, a) K -> has_val T A a /\ nn_outside c (st_rows s + n) row A) ->
  exists r, evals c (fun _ v => 0 <= v < ed_p) sub_ok l (row + st_rows s) ((st_out c s row, r) :: K) K' /\
  let T' := st_assign c s row T in
  sat L T' (st_circuit c s row) /\ frame c (st_rows s) row T T' /\ has_val T' (st_out c s row) r /\
  (forall A, In A (st_ops s) -> nn_outside c (st_rows s + n) row A).
Proof.
  intros c s row T K l K' n Hwf HW Hn E HK.
  assert (OS : forall A, nn_outside c (st_rows s + n) row A -> nn_outside c (st_rows s) row A).
  { intros A HO i Hi. apply (outside_split c (st_rows s) n row); [pose proof (st_rows_pos s); lia|exact Hn|apply HO; exact Hi]. }
  destruct s as [v|A B|A B|A B]; cbn [st_rows st_out st_assign st_circuit st_ops] in *; inversion E; subst; clear E.
  - exists v. split; [assumption|]. cbv zeta. match goal with X : 0 <= v < ed_p |- _ => pose proof (put_range_ok c v row T Hwf X) as [S [FR V]] end.
    split; [exact S|]. split; [exact FR|]. split; [exact V|]. intros A [].
  - match goal with X : In (A, a) K, Y : In (B, b) K |- _ => destruct (HK _ _ X) as [VA OA]; destruct (HK _ _ Y) as [VB OB] end. exists ((a * b) mod ed_p). split; [assumption|]. cbv zeta.
    pose proof (has_val_facts T A a VA) as [SA [GA PA]]. pose proof (has_val_facts T B b VB) as [SB [GB PB]].
    pose proof (nm_complete_l P L big T c A B row Hwf (OS _ OA) (OS _ OB) SA SB PA PB) as [S [FR V]]. rewrite GA, GB in V.
    split; [exact S|]. split; [exact FR|]. split; [split; [exact V|apply Z.mod_pos_bound; reflexivity]|].
    intros A' [<-|[<-|[]]]; assumption.
  - match goal with X : In (A, a) K, Y : In (B, b) K |- _ => destruct (HK _ _ X) as [VA OA]; destruct (HK _ _ Y) as [VB OB] end. exists ((a + b) mod ed_p). split; [assumption|]. cbv zeta.
    pose proof (has_val_facts T A a VA) as [SA [GA PA]]. pose proof (has_val_facts T B b VB) as [SB [GB PB]].
    pose proof (na_complete_l P L big T c A B row Hwf HW (OS _ OA) (OS _ OB) SA SB PA PB) as [S [FR V]]. rewrite GA, GB in V.
    split; [exact S|]. split; [exact FR|]. split; [split; [exact V|apply Z.mod_pos_bound; reflexivity]|].
    intros A' [<-|[<-|[]]]; assumption.
  - match goal with X : In (A, a) K, Y : In (B, b) K |- _ => destruct (HK _ _ X) as [VA OA]; destruct (HK _ _ Y) as [VB OB] end. exists ((a - b) mod ed_p). split; [assumption|]. cbv zeta.
    pose proof (has_val_facts T A a VA) as [SA [GA PA]]. pose proof (has_val_facts T B b VB) as [SB [GB PB]].
    pose proof (ns_complete_l P L big T c A B row Hwf HW (OS _ OA) (OS _ OB) SA SB PA PB) as NC. rewrite GA, GB in NC.
    rewrite (limb0_val T A a VA), (limb0_val T B b VB) in NC. match goal with X : sub_ok a b |- _ => specialize (NC X) end. destruct NC as [S [FR V]].
    split; [exact S|]. split; [exact FR|]. split; [split; [exact V|apply Z.mod_pos_bound; reflexivity]|].
    intros A' [<-|[<-|[]]]; assumption.
Qed.

(** The sums of the chain have their low chunks next to them. *)
Fixpoint sums_chunks T (c : comp) (l : list stage) (row : Z) : Prop :=
  match l with
  | [] => True
  | s :: l => (match s with SAdd _ _ => forall r, has_val T (na_out c row) r -> low_chunks T c row r | _ => True end) /\
              sums_chunks T c l (row + st_rows s)
  end.
Lemma st_out_row : forall c s row i, 0 <= i < 4 -> exists j r, nv (st_out c s row) i = wcell (W c j) r /\ row <= r < row + st_rows s.
Proof.
  intros c s row i Hi. destruct s as [v|A B|A B|A B]; cbn [st_out st_rows].
  - exists i, row. rewrite own_nv by exact Hi. split; [reflexivity|lia].
  - exists (3 + i), (row + 5). rewrite nm_out_nv by exact Hi. split; [reflexivity|lia].
  - exists i, (row + 2). rewrite na_out_nv by exact Hi. split; [reflexivity|lia].
  - exists i, (row + 2). rewrite na_out_nv by exact Hi. split; [reflexivity|lia].
Qed.
Lemma st_out_outside : forall c s row m, nn_outside c m (row + st_rows s) (st_out c s row).
Proof. intros c s row m i Hi. destruct (st_out_row c s row i Hi) as [j [r [-> Hr]]]. apply (fresh_own c m (row + st_rows s) j r). lia. Qed.

Lemma prog_complete : forall c, wf_comp c 9 -> (forall i, 0 <= i < 4 -> W c i = i) -> forall l row T K K',
  evals c (fun _ v => 0 <= v < ed_p) sub_ok l row K K' ->
  (forall A a, In (A, a) K -> has_val T A a /\ nn_outside c (prog_rows l) row A) ->
  let T' := prog_assign c l row T in
  sat L T' (prog_circuit c l row) /\ frame c (prog_rows l) row T T' /\ prog_looked T' c l row /\ sums_chunks T' c l row /\
  (forall A a, In (A, a) K' -> has_val T' A a).
Proof.
  intros c Hwf HW l. induction l as [|s l IH]; intros row T K K' E HK T'.
  - inversion E; subst. cbn [prog_assign prog_circuit prog_rows prog_looked sums_chunks] in *. unfold T'.
    split; [intros x []|]. split; [apply frame_refl|]. split; [exact I|]. split; [exact I|]. intros A a H. apply HK. exact H.
  - cbn [prog_rows] in HK. pose proof (prog_rows_pos l) as Hn.
    destruct (st_complete c s row T K l K' (prog_rows l) Hwf HW Hn E HK) as [r [E' [S [FR [V OP]]]]]. set (T1 := st_assign c s row T) in *.
    pose proof (st_rows_pos s) as Hs.
    assert (HK1 : forall A a, In (A, a) ((st_out c s row, r) :: K) -> has_val T1 A a /\ nn_outside c (prog_rows l) (row + st_rows s) A).
    { intros A a [X|X].
      - injection X as <- <-. split; [exact V|apply st_out_outside].
      - destruct (HK A a X) as [VA OA]. split.
        + apply (has_val_frame T T1 c (st_rows s) row A a FR); [|exact VA]. intros i Hi. apply (outside_split c (st_rows s) (prog_rows l) row); [lia|exact Hn|apply OA; exact Hi].
        + intros i Hi. apply (outside_split c (st_rows s) (prog_rows l) row); [lia|exact Hn|apply OA; exact Hi]. }
    pose proof (IH _ T1 _ _ E' HK1) as [S' [FR' [LK [SC KV]]]]. unfold T'. cbn [prog_assign prog_circuit prog_rows prog_looked sums_chunks]. fold T1.
    set (T2 := prog_assign c l (row + st_rows s) T1) in *.
    split; [|split; [|split; [|split]]].
    + apply sat_app. split; [|exact S']. apply (sat_frame P L c (prog_rows l) (row + st_rows s) T1 T2); [exact FR'| |exact S].
      apply st_reads; [intros i r' Hr; apply fresh_own; lia|]. intros A HA i Hi.
      apply (outside_split c (st_rows s) (prog_rows l) row); [lia|exact Hn|apply OP; assumption].
    + eapply frame_trans; [apply (frame_sub P c (st_rows s + prog_rows l) row (st_rows s) row); [lia|lia|exact FR]|].
      apply (frame_sub P c (st_rows s + prog_rows l) row (prog_rows l) (row + st_rows s)); [lia|lia|exact FR'].
    + split; [|exact LK]. eapply st_looked_frame; [exact FR'|lia|]. apply st_assign_looked. exact Hwf.
    + split; [|exact SC]. destruct s as [v|A B|A B|A B]; try exact I. cbn [st_rows st_out] in *.
      intros r' [HV _] k Hk.
      rewrite (cell_frame c (prog_rows l) (row + 4) T1 T2) by (auto; lia).
      apply (na_assign_chunks c A B row T r' Hwf); [|exact Hk]. fold T1. rewrite <- HV. unfold nn_vals. apply map_ext_in. intros i Hi. apply in_zseq in Hi.
      rewrite na_out_nv, !vval_wcell by exact Hi. rewrite (cell_frame c (prog_rows l) (row + 4) T1 T2) by (auto; lia). reflexivity.
    + exact KV.
Qed.
End Stage.
