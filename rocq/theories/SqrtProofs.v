(** Proofs about the square root component. *)
From Coq Require Import ZArith List Lia Bool Field.
From Verif Require Import Base Field Primes Plonk PlonkFacts Bits FieldOpsModel FieldOpsProofs PowerModel PowerProofs Euler.
Import ListNotations.
Open Scope Z_scope.

Section Proofs.
Variable P : params.
Notation F := (F P).
Notation table := (table P).
Implicit Types T : table.
Add Field Ff : (F_field P) (morphism (F_morph P), constants [F_const], power_tac (F_power P) [F_pow_tac]).
Local Open Scope F_scope.
Variable L : lenv P.

Definition aopf (k : aop) (x y : F) : F :=
  match k with AAdd => x + y | ASub => x - y | AMul => x * y end.

Lemma aop_sound : forall T k c x y row, sat L T (aop_circuit k c x y row) ->
  vval T (wcell (W c 2) row) = aopf k (vval T x) (vval T y).
Proof.
  intros T k c x y row H. destruct k; cbn [aop_circuit aopf] in *.
  - apply addition_sound_l in H. exact H.
  - apply subtraction_sound_l in H. exact H.
  - apply multiplication_sound_l in H. exact H.
Qed.

Definition aop_cells T (k : aop) (c : comp) (x y : var) (row : Z) : Prop :=
  T CWit (W c 0) row = vval T x /\ T CWit (W c 1) row = vval T y /\
  T CWit (W c 2) row = aopf k (vval T x) (vval T y).

Lemma aop_cells_sat : forall T k c x y row, aop_cells T k c x y row -> sat L T (aop_circuit k c x y row).
Proof.
  intros T k c x y row [A [B D]]. destruct k; cbn [aop_circuit aopf] in *.
  - unfold addition_circuit, addition_gate. sat_goal; repeat split; rewrite ?vval_wcell, ?A, ?B, ?D; try reflexivity; try exact I; try ring.
  - unfold subtraction_circuit, subtraction_gate. sat_goal; repeat split; rewrite ?vval_wcell, ?A, ?B, ?D; try reflexivity; try exact I; try ring.
  - unfold multiplication_circuit, multiplication_gate.
    apply sat_cons; split; [|apply sat_app; split].
    + sat_goal. rewrite A, B, D. ring.
    + destruct (var_eqb x (wcell (W c 0) row)); sat_goal. rewrite ?vval_wcell, A. reflexivity.
    + destruct (var_eqb y (wcell (W c 1) row)); sat_goal. rewrite ?vval_wcell, B. reflexivity.
Qed.

(** Inputs not touched by the [n] rows from [r], or the own first cell. *)
Definition ready (c : comp) (n r : Z) (x y : var) : Prop :=
  (outside c n r x /\ outside c n r y) \/ (x = wcell (W c 0) r /\ y = x).

Lemma aop_run : forall T k c n x y row, wf_comp c 3 -> (0 < n)%Z -> ready c n row x y ->
  let T' := aop_assign k c x y row T in
  aop_cells T' k c x y row /\ frame c 1 row T T'.
Proof.
  intros T k c n x y row Hwf Hn HR0 T'.
  assert (HR : ready c 1 row x y).
  { destruct HR0 as [[Hx Hy]|HR0]; [left|right; exact HR0]. split; eapply outside_sub; try eassumption; lia. }
  assert (E : T' = wset (wset (wset T (W c 0) row (vval T x)) (W c 1) row (vval T y)) (W c 2) row
                     (aopf k (vval T x) (vval T y))).
  { unfold T'. destruct HR as [[Hx Hy]|[Hx Hy]].
    - destruct k; cbn [aop_assign aopf]; unfold addition_assign, subtraction_assign, multiplication_assign; cbv zeta; rd; reflexivity.
    - subst y. rewrite Hx.
      destruct k; cbn [aop_assign aopf]; unfold addition_assign, subtraction_assign, multiplication_assign; cbv zeta;
        rd; reflexivity. }
  rewrite E. clear E T'. split; [|frame_tac].
  assert (K : forall v, vval (wset (wset (wset T (W c 0) row (vval T x)) (W c 1) row (vval T y)) (W c 2) row v) x = vval T x
     /\ vval (wset (wset (wset T (W c 0) row (vval T x)) (W c 1) row (vval T y)) (W c 2) row v) y = vval T y).
  { intros v. destruct HR as [[Hx Hy]|[Hx Hy]].
    - split; rd; reflexivity.
    - subst y. rewrite Hx. split; rd; reflexivity. }
  unfold aop_cells. rewrite (proj1 (K _)), (proj2 (K _)).
  split; [rd; reflexivity|split; rd; reflexivity].
Qed.

Fixpoint ops_ready (c : comp) (ops : list (aop * var * var)) (row : Z) : Prop :=
  match ops with
  | [] => True
  | (k, x, y) :: ops => ready c (zlen ops + 1) row x y /\ ops_ready c ops (row + 1)
  end.
Fixpoint ops_cells T (c : comp) (ops : list (aop * var * var)) (row : Z) : Prop :=
  match ops with
  | [] => True
  | (k, x, y) :: ops => aop_cells T k c x y row /\ ops_cells T c ops (row + 1)
  end.

Lemma ops_run : forall c ops row T, wf_comp c 3 -> ops_ready c ops row ->
  let T' := ops_assign c ops row T in
  ops_cells T' c ops row /\ frame c (zlen ops) row T T'.
Proof.
  intros c ops. induction ops as [|[[k x] y] ops IH]; intros row T Hwf HR T'; unfold T'.
  - split; [exact I|apply frame_refl].
  - cbn [ops_assign ops_ready ops_cells] in *. destruct HR as [R1 R2].
    assert (NN : (0 <= zlen ops)%Z) by (unfold zlen; lia).
    set (T1 := aop_assign k c x y row T). destruct (aop_run T k c (zlen ops + 1)%Z x y row Hwf ltac:(lia) R1) as [[A [B D]] Fr]. fold T1 in A, B, D, Fr.
    destruct (IH (row + 1)%Z T1 Hwf R2) as [IC IF]. set (T2 := ops_assign c ops (row + 1) T1) in *.
    assert (ZL : zlen ((k, x, y) :: ops) = (zlen ops + 1)%Z) by (unfold zlen; cbn [length]; lia).
    assert (RowK : forall col, T2 CWit col row = T1 CWit col row).
    { intros col. apply IF. intros [_ [_ HH]]. lia. }
    assert (VK : vval T2 x = vval T1 x /\ vval T2 y = vval T1 y).
    { destruct R1 as [[Hx Hy]|[Hx Hy]].
      - split; eapply vval_frame; try exact IF; intros [U1 [U2 U3]].
        + apply Hx. repeat split; auto; lia.
        + apply Hy. repeat split; auto; lia.
      - subst y. rewrite Hx, !vval_wcell, RowK. auto. }
    split; [split; [|exact IC]|].
    + unfold aop_cells. rewrite !RowK, (proj1 VK), (proj2 VK). auto.
    + rewrite ZL. apply frame_trans with T1.
      * eapply frame_sub; [| |exact Fr]; lia.
      * eapply frame_sub; [| |exact IF]; lia.
Qed.

Lemma ops_cells_sat : forall T c ops row, ops_cells T c ops row -> sat L T (ops_circuit c ops row).
Proof.
  intros T c ops. induction ops as [|[[k x] y] ops IH]; intros row H; cbn [ops_circuit ops_cells] in *.
  - apply sat_nil.
  - destruct H as [H1 H2]. apply sat_app. split; [apply aop_cells_sat; exact H1|apply IH; exact H2].
Qed.

(** The constraint system of sqrt on the values. *)
Definition sqrt_poly (q y x one : F) : F :=
  q * (q + one) * (y - x * x) + q * (one - q) * (x + one) + (one - q) * (q + one) * (x * x).

Lemma sqrt_ops_value : forall T c y x q one r,
  sat L T (ops_circuit (sqrt_acomp c) (sqrt_ops c y x q one r) r) ->
  vval T (wcell (W c 2) (r + 12)) = sqrt_poly (vval T q) (vval T y) (vval T x) (vval T one).
Proof.
  intros T c y x q one r H. unfold sqrt_ops in H. cbv zeta in H.
  cbn [ops_circuit] in H.
  rewrite <- !Z.add_assoc in H. cbn [Z.add] in H.
  repeat (apply sat_app in H; let A := fresh "A" in destruct H as [A H]; apply aop_sound in A).
  clear H.
  change (W (sqrt_acomp c) 2) with (W c 2) in *. cbn [aopf] in *.
  cbn [Pos.add Pos.succ] in *.
  replace (r + 0)%Z with r in * by lia.
  rewrite A11, A10, A9, A8, A7, A6, A5, A4, A3, A2, A1, A0, A. unfold sqrt_poly. ring.
Qed.

Lemma W_ecomp : forall c i, (0 <= i < 15)%Z -> W (sqrt_ecomp c) i = W c i.
Proof.
  intros c i H. assert (i = 0 \/ i = 1 \/ i = 2 \/ i = 3 \/ i = 4 \/ i = 5 \/ i = 6 \/ i = 7 \/ i = 8 \/ i = 9 \/
    i = 10 \/ i = 11 \/ i = 12 \/ i = 13 \/ i = 14)%Z as D by lia.
  repeat destruct D as [->|D]; try subst i; reflexivity.
Qed.

Lemma ecomp_cols : forall c, wf_comp c 15 -> cWs (sqrt_ecomp c) = cWs c.
Proof.
  intros c [_ [H _]]. unfold wamount, zlen in H. unfold sqrt_ecomp. cbn [cWs].
  assert (E : length (cWs c) = 15%nat) by lia.
  unfold W. destruct c as [ws cs ps]. cbn [cWs] in *.
  do 16 (destruct ws as [|? ws]; [try discriminate E|]); [reflexivity|discriminate E].
Qed.
Definition sqrt_spec (y x : F) : Prop := x * x = y \/ ((forall z, z * z <> y) /\ x = - f1).

Lemma sqrt_poly_spec : forall y x : F, (2 < char P)%Z ->
  sqrt_poly (zpow y (half P)) y x f1 = f0 -> sqrt_spec y x.
Proof.
  intros y x H E. pose proof (two_neq0 P H) as N2. unfold sqrt_spec, zpow in *.
  destruct (F_dec P y f0) as [Y|Y].
  - left. rewrite Y in *. rewrite pow_half_0 in E by exact H. unfold sqrt_poly in E.
    rewrite <- E. ring.
  - destruct (pow_half_cases P y H Y) as [Q|Q]; rewrite Q in E; unfold sqrt_poly in E.
    + left. assert (D : (f1 + f1) * (y - x * x) = f0) by (rewrite <- E; ring).
      apply fmul_integral in D. destruct D as [D|D]; [contradiction|]. symmetry. apply fsub0. exact D.
    + right. split; [apply nonsquare; assumption|].
      assert (D : (f1 + f1) * (x + f1) = f0).
      { transitivity (- (f0 : F)); [rewrite <- E|]; ring. }
      apply fmul_integral in D. destruct D as [D|D]; [contradiction|]. apply fsub0. rewrite <- D. ring.
Qed.

Lemma sqrt_spec_poly : forall y x : F, (2 < char P)%Z ->
  sqrt_spec y x -> sqrt_poly (zpow y (half P)) y x f1 = f0.
Proof.
  intros y x H S. unfold sqrt_spec, zpow in *. destruct (F_dec P y f0) as [Y|Y].
  - rewrite Y in *. rewrite pow_half_0 by exact H. unfold sqrt_poly.
    destruct S as [S|[S _]]; [|exfalso; apply (S f0); ring]. rewrite S. ring.
  - destruct (pow_half_cases P y H Y) as [Q|Q]; rewrite Q; unfold sqrt_poly.
    + destruct S as [S|[S _]]; [rewrite S; ring|]. exfalso. destruct (euler P y H Q) as [z Hz]. exact (S z Hz).
    + destruct S as [S|[_ S]]; [exfalso; exact (nonsquare P y H Q x S)|]. rewrite S. ring.
Qed.

Lemma sqrt_sat_parts : forall T c y row, C c 0 = 0%Z ->
  sat L T (sqrt_circuit c y row) ->
  sat L T (exp_circuit (sqrt_ecomp c) 256 y (sqrt_exp row) (row + 3)) /\
  vval T (sqrt_exp row) = ofZ (half P) /\
  sqrt_poly (vval T (sqrt_q c row)) (vval T y) (vval T (sqrt_out c row)) f1 = f0.
Proof.
  intros T c y row HC H. unfold sqrt_circuit in H. rewrite HC in H.
  apply sat_app in H. destruct H as [HE H]. apply sat_app in H. destruct H as [HO H].
  apply sqrt_ops_value in HO. sat_hyp H. destruct H as [CZ [K0 [K1 [K2 _]]]].
  split; [exact HE|]. split; [exact K0|].
  change (T CConst 0%Z (row + 2)%Z) with (vval T (sqrt_one row)) in K2. rewrite K2 in HO.
  unfold sqrt_out. rewrite <- HO. replace (sqrt_r0 row + 12)%Z with (row + sqrt_rows - 1)%Z by (unfold sqrt_r0, sqrt_rows; lia).
  rewrite <- CZ. exact K1.
Qed.

Lemma sqrt_sound_l : forall T c y row,
  (2 < char P)%Z -> C c 0 = 0%Z -> W c 0 = 0%Z -> (2 ^ 256 <= char P + half P)%Z ->
  sat L T (sqrt_circuit c y row) -> sqrt_spec (vval T y) (vval T (sqrt_out c row)).
Proof.
  intros T c y row H2 HC HW Hp H. apply sqrt_sat_parts in H; [|exact HC]. destruct H as [HE [K E]].
  assert (FH : fval (vval T (sqrt_exp row)) = half P).
  { rewrite K. apply fval_ofZ_small. unfold half. split; [apply Z.div_pos; lia|].
    apply Z.div_lt_upper_bound; lia. }
  apply exp_unique_l in HE; [|lia|change (C (sqrt_ecomp c) 0) with (C c 0); rewrite W_ecomp by lia; congruence|].
  - rewrite FH in HE. unfold sqrt_q in E. rewrite HE in E. apply sqrt_poly_spec; assumption.
  - rewrite FH. change (exp_padded 256) with 256%Z. lia.
Qed.

(** Any exponent congruent to (p-1)/2 and any root of the resulting polynomial
    can be completed to a satisfying table. *)
Definition sqrt_fill (c : comp) (y : var) (x : F) (e row : Z) (T : table) : table :=
  let r := sqrt_r0 row in
  ops_assign (sqrt_acomp c) (sqrt_ops c y (wcell (W c 0) r) (sqrt_q c row) (sqrt_one row) r) r
    (wset (wsets T (exp_writes (sqrt_ecomp c) 256 (vval T y) e (row + 3))) (W c 0) r x).

Lemma wf_acomp : forall c, wf_comp c 15 -> wf_comp (sqrt_acomp c) 3.
Proof.
  intros c Hwf. split; [|split; [reflexivity|lia]]. cbn [cWs sqrt_acomp].
  assert (N : forall i j, (0 <= i < 15)%Z -> (0 <= j < 15)%Z -> W c i = W c j -> i = j) by (intros; eapply W_inj; eauto).
  repeat constructor; cbn [In]; intros D; repeat destruct D as [D|D]; try contradiction; apply N in D; lia.
Qed.
Lemma wf_ecomp : forall c, wf_comp c 15 -> wf_comp (sqrt_ecomp c) 15.
Proof. intros c H. unfold wf_comp, wamount. rewrite ecomp_cols by exact H. exact H. Qed.
Lemma acomp_frame : forall c n r T T', wf_comp c 15 -> frame (sqrt_acomp c) n r T T' -> frame c n r T T'.
Proof.
  intros c n r T T' Hwf H ty col row N. apply H. intros [A [B D]]. apply N. split; [exact A|]. split; [|exact D].
  cbn [cWs sqrt_acomp In] in B. destruct B as [<-|[<-|[<-|[]]]]; eapply W_In; eauto.
Qed.
Lemma ecomp_frame : forall c n r T T', wf_comp c 15 -> frame (sqrt_ecomp c) n r T T' -> frame c n r T T'.
Proof.
  intros c n r T T' Hwf H ty col row N. apply H. unfold in_area in *. rewrite ecomp_cols by exact Hwf. exact N.
Qed.

Lemma before_row : forall c n col r r', (r' < r)%Z -> outside c n r (wcell col r').
Proof. intros c n col r r' H [_ [_ HH]]. cbn [vrot wcell] in HH. lia. Qed.
Lemma before_const : forall c n col r r', outside c n r (ccell col r').
Proof. intros c n col r r' [HH _]. discriminate HH. Qed.

Lemma sqrt_fill_ok : forall T c y x e row,
  wf_comp c 15 -> W c 5 = 5%Z -> W c 0 = 0%Z -> C c 0 = 0%Z ->
  outside c sqrt_rows row y ->
  consts_in T (sqrt_circuit c y row) ->
  (0 <= e < 2 ^ 256)%Z -> ofZ e = (ofZ (half P) : F) ->
  sqrt_poly (zpow (vval T y) e) (vval T y) x f1 = f0 ->
  let T' := sqrt_fill c y x e row T in
  sat L T' (sqrt_circuit c y row) /\ frame c sqrt_rows row T T' /\ vval T' (sqrt_out c row) = x /\
  vval T' (sqrt_q c row) = zpow (vval T y) e /\
  frame c 13 (sqrt_r0 row) (wsets T (exp_writes (sqrt_ecomp c) 256 (vval T y) e (row + 3))) T'.
Proof.
  intros T c y x e row Hwf H5 H0 HC Hy HK He Ee HP T'.
  set (r := sqrt_r0 row) in *.
  set (ops := sqrt_ops c y (wcell (W c 0) r) (sqrt_q c row) (sqrt_one row) r) in *.
  set (T1 := wsets T (exp_writes (sqrt_ecomp c) 256 (vval T y) e (row + 3))) in *.
  set (T2 := wset T1 (W c 0) r x) in *.
  assert (DT : T' = ops_assign (sqrt_acomp c) ops r T2) by reflexivity.
  assert (R33 : exp_rows 256 = 33%Z) by reflexivity. assert (R49 : sqrt_rows = 49%Z) by reflexivity.
  assert (RR : r = (row + 36)%Z) by (unfold r, sqrt_r0; lia).
  destruct (exp_writes_filled P T (sqrt_ecomp c) 256 (vval T y) e (row + 3) (wf_ecomp c Hwf)) as [FL FR].
  { rewrite W_ecomp by lia. exact H5. }
  specialize (FR ltac:(lia)). fold T1 in FL, FR.
  assert (F1 : frame c 33 (row + 3) T T1) by (apply ecomp_frame; [exact Hwf|exact FR]).
  assert (F2 : frame c 1 r T1 T2) by (unfold T2; frame_tac).
  assert (RD : ops_ready (sqrt_acomp c) ops r).
  { unfold ops, sqrt_ops. cbv zeta. cbn [ops_ready].
    assert (BQ : forall i n, (0 <= i)%Z -> outside (sqrt_acomp c) n (r + i) (sqrt_q c row)).
    { intros i n Hi. unfold sqrt_q, exp_out. apply before_row. lia. }
    assert (BY : outside (sqrt_acomp c) 11 (r + 2) y).
    { intros [A [B D]]. apply Hy. split; [exact A|]. split; [|lia].
      cbn [cWs sqrt_acomp In] in B. destruct B as [<-|[<-|[<-|[]]]]; eapply W_In; eauto. }
    split; [right; split; reflexivity|].
    rewrite <- !Z.add_assoc. cbn [Z.add Pos.add Pos.succ].
    repeat split; left; split; first [apply BQ; lia | exact BY | apply before_const | apply before_row; lia]. }
  destruct (ops_run (sqrt_acomp c) ops r T2 (wf_acomp c Hwf) RD) as [OC OF]. rewrite <- DT in OC, OF.
  change (zlen ops) with 13%Z in OF.
  assert (F3 : frame c 13 r T2 T') by (apply acomp_frame; [exact Hwf|exact OF]).
  assert (FF : frame c sqrt_rows row T T').
  { apply frame_trans with T1; [eapply frame_sub; [| |exact F1]; lia|].
    apply frame_trans with T2; [eapply frame_sub; [| |exact F2]; lia|].
    eapply frame_sub; [| |exact F3]; lia. }
  assert (F12 : frame c 13 r T1 T').
  { apply frame_trans with T2; [eapply frame_sub; [| |exact F2]; lia|exact F3]. }
  assert (LOW : forall col k, (k < r)%Z -> T' CWit col k = T1 CWit col k).
  { intros col k Hk. apply F12. intros [_ [_ D]]. lia. }
  assert (VY : vval T' y = vval T y) by (eapply vval_frame; [exact FF|exact Hy]).
  assert (KC : consts_in T' (sqrt_circuit c y row)) by (eapply consts_in_frame; [exact FF|exact HK]).
  assert (KK : T' CConst 0%Z row = ofZ (half P) /\ T' CConst 0%Z (row + 1)%Z = f0 /\ T' CConst 0%Z (row + 2)%Z = f1 /\
               T' CConst 0%Z (row + 3)%Z = f0 /\ T' CConst 0%Z (row + 3 + 1)%Z = f1).
  { rewrite <- HC. repeat split; apply KC; unfold sqrt_circuit, exp_circuit; change (C (sqrt_ecomp c) 0) with (C c 0).
    - apply in_or_app; right. apply in_or_app; right. right; left; reflexivity.
    - apply in_or_app; right. apply in_or_app; right. right; right; left; reflexivity.
    - apply in_or_app; right. apply in_or_app; right. right; right; right; left; reflexivity.
    - apply in_or_app; left. right. apply in_or_app; right. left; reflexivity.
    - apply in_or_app; left. right. apply in_or_app; right. right; left; reflexivity. }
  destruct KK as [K0 [K1 [K2 [K3 K4]]]].
  assert (FL' : exp_filled P T' (sqrt_ecomp c) 256 (vval T' y) e (row + 3)).
  { rewrite VY. destruct FL as [A [B D]]. split; [rewrite LOW by lia; exact A|]. split; [rewrite LOW by lia; exact B|].
    intros i Hi. change (exp_main 256) with 32%Z in Hi. destruct (D i Hi) as [D1 [D2 [D3 D4]]].
    split; [rewrite LOW by lia; exact D1|]. split; [rewrite LOW by lia; exact D2|].
    split; intros k Hk; [unfold bcell in *|]; rewrite LOW by lia; [apply D3|apply D4]; exact Hk. }
  destruct (exp_core P L T' (sqrt_ecomp c) 256 y (sqrt_exp row) (row + 3) e) as [SE OE].
  { lia. } { change (C (sqrt_ecomp c) 0) with (C c 0). rewrite W_ecomp by lia. congruence. }
  { exact FL'. } { exact He. } { unfold sqrt_exp. rewrite vval_ccell, K0. symmetry. exact Ee. }
  { change (C (sqrt_ecomp c) 0) with (C c 0). rewrite HC. exact K3. }
  { change (C (sqrt_ecomp c) 0) with (C c 0). rewrite HC. exact K4. }
  assert (VX : vval T' (wcell (W c 0) r) = x).
  { rewrite vval_wcell.
    (* the first cell keeps what was written before the arithmetic *)
    assert (EO : exists rest, ops = (AMul, wcell (W c 0) r, wcell (W c 0) r) :: rest /\ zlen rest = 12%Z)
      by (eexists; split; reflexivity).
    destruct EO as [rest [EO ZR]]. clearbody ops. subst ops. cbn [ops_assign ops_ready] in DT, RD. destruct RD as [_ RD].
    destruct (ops_run (sqrt_acomp c) rest (r + 1) (aop_assign AMul (sqrt_acomp c) (wcell (W c 0) r) (wcell (W c 0) r) r T2)
      (wf_acomp c Hwf) RD) as [_ G]. rewrite <- DT, ZR in G.
    rewrite (G CWit (W c 0) r) by (intros [_ [_ D]]; lia).
    cbn [aop_assign]. unfold multiplication_assign. cbv zeta.
    pose proof (wf_acomp c Hwf) as Hwf3.
    change (wcell (W c 0) r) with (wcell (W (sqrt_acomp c) 0) r). change (W c 0) with (W (sqrt_acomp c) 0).
    rd. unfold T2. change (W c 0) with (W (sqrt_acomp c) 0). rd. reflexivity. }
  apply ops_cells_sat in OC.
  pose proof (sqrt_ops_value T' c y _ _ _ r OC) as V. rewrite VX in V.
  assert (VQ : vval T' (sqrt_q c row) = zpow (vval T y) e) by (unfold sqrt_q; rewrite OE, VY; reflexivity).
  rewrite VQ, VY in V. change (vval T' (sqrt_one row)) with (T' CConst 0%Z (row + 2)%Z) in V. rewrite K2, HP in V.
  split; [|split; [exact FF|split; [exact VX|split; [exact VQ|exact F12]]]].
  unfold sqrt_circuit. fold r. fold ops. apply sat_app. split; [exact SE|]. apply sat_app. split; [exact OC|].
  repeat (apply sat_cons; split); [| | | |apply sat_nil]; cbn [holds]; rewrite ?HC; try assumption.
  unfold sqrt_zero. rewrite vval_ccell, K1. replace (row + sqrt_rows - 1)%Z with (r + 12)%Z by (rewrite R49; lia).
  symmetry. exact V.
Qed.

Lemma sqrt_complete_l : forall fsqrt T c y row,
  (2 < char P)%Z -> (half P < 2 ^ 256)%Z ->
  (forall a : F, (exists z, z * z = a) -> fsqrt a * fsqrt a = a) ->
  wf_comp c 15 -> W c 5 = 5%Z -> W c 0 = 0%Z -> C c 0 = 0%Z ->
  outside c sqrt_rows row y ->
  consts_in T (sqrt_circuit c y row) ->
  exists T', sqrt_assign fsqrt c y row T = Some T' /\
    sat L T' (sqrt_circuit c y row) /\ frame c sqrt_rows row T T' /\
    sqrt_spec (vval T y) (vval T' (sqrt_out c row)).
Proof.
  intros fsqrt T c y row H2 Hh Hsq Hwf H5 H0 HC Hy HK.
  assert (KE : vval T (sqrt_exp row) = ofZ (half P)).
  { unfold sqrt_exp. rewrite vval_ccell, <- HC. apply HK. unfold sqrt_circuit.
    apply in_or_app; right. apply in_or_app; right. right; left; reflexivity. }
  pose proof (odd_half P H2) as OH.
  assert (FH : fval (vval T (sqrt_exp row)) = half P) by (rewrite KE; apply fval_ofZ_small; lia).
  set (q := zpow (vval T y) (half P)).
  set (x := if feqb q f0 || feqb q f1 then fsqrt (vval T y) else - f1).
  assert (QC : (q = f0 \/ q = f1 \/ q = - f1) /\ sqrt_spec (vval T y) x).
  { pose proof (two_neq0 P H2) as N2. pose proof (f1_neq_f0 P) as N1.
    assert (NM : (- f1 : F) <> f0) by (intros E; apply N1; transitivity (- - f1 : F); [ring|rewrite E; ring]).
    assert (NN : (- f1 : F) <> f1).
    { intros E. apply N2. rewrite <- E at 1. ring. }
    unfold x, q, zpow. destruct (F_dec P (vval T y) f0) as [Y|Y].
    - rewrite Y, pow_half_0 by exact H2. split; [auto|]. rewrite feqb_refl. cbn [orb]. left. apply Hsq. exists f0. ring.
    - destruct (pow_half_cases P (vval T y) H2 Y) as [Q|Q]; rewrite Q; split; auto.
      + rewrite feqb_refl, orb_true_r. left. apply Hsq. apply euler; assumption.
      + replace (feqb (- f1) f0) with false by (symmetry; apply feqb_neq; exact NM).
        replace (feqb (- f1) f1) with false by (symmetry; apply feqb_neq; exact NN). cbn [orb].
        right. split; [apply nonsquare; assumption|reflexivity]. }
  destruct QC as [QC SP].
  destruct (sqrt_fill_ok T c y x (half P) row) as [S [FR [VX [VQ FF]]]]; auto; try lia.
  { apply sqrt_spec_poly; assumption. }
  exists (sqrt_fill c y x (half P) row T). split; [|split; [exact S|split; [exact FR|rewrite VX; exact SP]]].
  unfold sqrt_assign, exp_assign. rewrite FH. unfold exp_fits. change (exp_padded 256) with 256%Z.
  replace (half P <? 2 ^ 256)%Z with true by (symmetry; apply Z.ltb_lt; exact Hh).
  set (T1 := wsets T _).
  assert (F1 : frame c 33 (row + 3) T T1).
  { apply ecomp_frame; [exact Hwf|].
    refine (proj2 (exp_writes_filled P T (sqrt_ecomp c) 256 (vval T y) (half P) (row + 3) (wf_ecomp c Hwf) _) _); [|lia].
    rewrite W_ecomp by lia. exact H5. }
  assert (Y1 : vval T1 y = vval T y).
  { eapply vval_frame; [exact F1|]. eapply outside_sub; [| |exact Hy]; change sqrt_rows with 49%Z; lia. }
  assert (Q1 : vval T1 (sqrt_q c row) = q).
  { unfold q. rewrite <- VQ. unfold sqrt_q, exp_out. rewrite !vval_wcell. symmetry.
    apply FF. intros [_ [_ D]]. unfold sqrt_r0 in D. lia. }
  rewrite Q1, Y1. replace (wcell 0 (sqrt_r0 row)) with (wcell (W c 0) (sqrt_r0 row)) by (rewrite H0; reflexivity).
  unfold sqrt_fill. cbv zeta. fold T1. unfold x.
  destruct (feqb q f0) eqn:E0; [reflexivity|]. destruct (feqb q f1) eqn:E1; [reflexivity|]. cbn [orb].
  destruct QC as [Q|[Q|Q]]; rewrite Q in *.
  - rewrite feqb_refl in E0. discriminate.
  - rewrite feqb_refl in E1. discriminate.
  - rewrite feqb_refl. reflexivity.
Qed.
Lemma zpow_wrap : forall (b : F) e, (0 <= e)%Z -> b <> f0 -> b <> f1 -> zpow b (e + char P) <> zpow b e.
Proof.
  intros b e He B0 B1 K. unfold zpow in K. pose proof (char_ge_2 P). rewrite Z2Nat.inj_add in K by lia. rewrite fpow_add in K.
  replace (Z.to_nat (char P)) with (S (Z.to_nat (char P - 1))) in K by lia. cbn [fpow] in K.
  rewrite fermat in K by exact B0.
  assert (N : forall n, fpow b n <> f0).
  { induction n as [|n IH]; cbn [fpow]; [apply f1_neq_f0|]. intros D. apply fmul_integral in D. destruct D; contradiction. }
  apply B1. apply fsub0. assert (Z0 : fpow b (Z.to_nat e) * (b - f1) = f0).
  { transitivity (fpow b (Z.to_nat e) * (b * f1) - fpow b (Z.to_nat e)); [ring|]. rewrite K. ring. }
  apply fmul_integral in Z0. destruct Z0 as [Z0|Z0]; [exfalso; exact (N _ Z0)|exact Z0].
Qed.

Lemma ofZ_wrap : forall e, ofZ (e + char P) = (ofZ e : F).
Proof. intros e. apply ofZ_mod. rewrite <- (Z.mul_1_l (char P)) at 1. apply Z_mod_plus_full. Qed.
Lemma not_root_or_mark : forall y : F, y <> f0 -> ~ sqrt_spec y f0.
Proof.
  intros y Y0 [R|[_ R]]; [apply Y0; rewrite <- R; ring|].
  apply (f1_neq_f0 P). transitivity (- - f1 : F); [ring|]. rewrite <- R. ring.
Qed.

(** A square root exists as a function: search. *)
Definition fsqrt_search (a : F) : F :=
  match find (fun z => feqb (ofZ z * ofZ z) a) (zseq 0 (char P)) with Some z => ofZ z | None => f0 end.
Lemma fsqrt_search_ok : forall a, (exists z, z * z = a) -> fsqrt_search a * fsqrt_search a = a.
Proof.
  intros a [z Hz]. unfold fsqrt_search. destruct (find _ _) as [y|] eqn:E.
  - apply find_some in E. destruct E as [_ E]. apply feqb_eq. exact E.
  - exfalso. assert (IZ : In (fval z) (zseq 0 (char P))) by (apply in_zseq; pose proof (fval_range P z); lia).
    apply (find_none _ _ E) in IZ. cbv beta in IZ. rewrite !ofZ_fval, Hz, feqb_refl in IZ. discriminate.
Qed.

(** In a field with an eighth root of unity, with room for one more exponent. *)
Lemma sqrt_wrong_root : (char P mod 8 = 1)%Z -> exists y : F, y <> f0 /\ zpow y (half P + char P) = y /\
  sqrt_poly y y f0 f1 = f0.
Proof.
  intros H8. assert (H2 : (2 < char P)%Z).
  { pose proof (char_ge_2 P). destruct (Z.eq_dec (char P) 2) as [E|E]; [rewrite E in H8; discriminate|lia]. }
  pose proof (odd_half P H2) as OH.
  assert (D4 : exists k, (0 <= k)%Z /\ half P = (4 * k)%Z).
  { pose proof (Z.div_mod (char P) 8 ltac:(lia)). exists (char P / 8)%Z. split; [apply Z.div_pos; lia|lia]. }
  destruct D4 as [k [Hk E4]].
  assert (S1 : fpow (- f1 : F) (Z.to_nat (half P)) = f1).
  { rewrite E4. replace (Z.to_nat (4 * k)) with (2 * (2 * Z.to_nat k))%nat by lia. rewrite fpow_mul.
    replace (fpow (- f1 : F) 2) with (f1 : F) by (cbn; ring). apply fpow_1. }
  destruct (euler P (- f1) H2 S1) as [i Hi].
  assert (NM : (- f1 : F) <> f0).
  { intros E. apply (f1_neq_f0 P). transitivity (- - f1 : F); [ring|rewrite E; ring]. }
  assert (I0 : i <> f0) by (intros E; apply NM; rewrite <- Hi, E; ring).
  assert (S2 : fpow i (Z.to_nat (half P)) = f1).
  { rewrite E4. replace (Z.to_nat (4 * k)) with (4 * Z.to_nat k)%nat by lia. rewrite fpow_mul.
    replace (fpow i 4) with ((i * i) * (i * i)) by (cbn; ring). rewrite Hi. replace (- f1 * - f1) with (f1 : F) by ring.
    apply fpow_1. }
  exists i. split; [exact I0|]. split.
  - unfold zpow. rewrite Z2Nat.inj_add by lia. rewrite fpow_add, S2.
    replace (Z.to_nat (char P)) with (S (Z.to_nat (char P - 1))) by lia. cbn [fpow]. rewrite fermat by exact I0. ring.
  - unfold sqrt_poly. transitivity (i * (i * i + f1)); [ring|]. rewrite Hi. ring.
Qed.
End Proofs.
Arguments fsqrt_search {P}. Arguments sqrt_spec {P}. Arguments sqrt_poly {P}. Arguments sqrt_fill {P}.
