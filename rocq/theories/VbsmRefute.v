(** Satisfying tables of the variable base scalar multiplication with wrong outputs
    or scalars. *)
From Coq Require Import ZArith List Lia Bool Field.
From Verif Require Import Base Field Plonk PlonkFacts Bits CurveSpec CurveModel CurveProofs VbsmSpec VbsmModel VbsmProofs VbsmTrace VbsmHonest VbsmMain.
Import ListNotations.
Open Scope Z_scope.

Section Refute.
Variable P : params.
Notation F := (F P).
Notation table := (table P).
Variable L : lenv P.
Variable pal : bool.
Implicit Types T : table.
Hypothesis big : group_order false <= char P.
Add Field Ff : (F_field P) (morphism (F_morph P), constants [F_const], power_tac (F_power P) [F_pow_tac]).
Local Open Scope F_scope.

(** Inputs of the component in a table, and the cells it relies on. *)
Record inputs (T : table) (c : comp) (tx ty b bh : var) (row : Z) : Prop := mkInputs {
  in_wf : wf_comp c 15;
  in_tx : outside c vb_rows row tx; in_ty : outside c vb_rows row ty;
  in_b : outside c vb_rows row b; in_bh : outside c vb_rows row bh;
  in_consts : consts_in T (vb_circuit pal c tx ty b bh row);
  in_zero : T CConst (W c 0) (row + 1)%Z = f0 }.

Lemma pt255 : forall xt yt b bh dbl out, vb_pt P pal (fun _ _ => out) xt yt b bh dbl 255 = out.
Proof. intros. unfold vb_pt. change 255%Z with (254 + 1)%Z. rewrite fold_zseq_snoc by lia. reflexivity. Qed.

Lemma final_out : forall xt yt b bh dbl out, scalar_ok pal b bh -> ~ special pal (scalar_of pal b bh) ->
  (vb_final P pal (fun _ _ => out) xt yt b bh dbl 0%Z, vb_final P pal (fun _ _ => out) xt yt b bh dbl 1%Z) = out.
Proof.
  intros xt yt b bh dbl out [S1 S2] NS.
  assert (S255 : (scalar_of pal b bh < 2 ^ 255)%Z) by (unfold group_order in S2; destruct pal; lia).
  pose proof (n_range P pal b bh S1 S255) as NR.
  unfold vb_final. cbv zeta. rewrite pt255. rewrite (n51 P pal b bh S1 S255).
  assert (N : forall k, (k = vb_sm1 pal \/ k = vb_s0 pal \/ k = vb_s1 pal)%Z -> feqb (ofZ (scalar_of pal b bh)) (ofZ k : F) = false).
  { intros k Hk. apply feqb_neq. intros E. apply (ofZ_const P pal big) in E; [|lia|exact Hk]. apply NS. unfold special.
    destruct (shifted_const pal (scalar_of pal b bh)) as [C1 [C2 C3]]. rewrite C1, C2, C3, E. exact Hk. }
  rewrite !N by auto. symmetry. apply surjective_pairing.
Qed.

(** A neutral base point: the last step may go anywhere. *)
Lemma neutral_free : forall T c tx ty b bh row (bc : F) (out : F * F),
  no_axis_points bc -> inputs T c tx ty b bh row -> (vval T tx, vval T ty) = enc (None : point P) ->
  scalar_ok pal (vval T b) (vval T bh) -> ~ special pal (scalar_of pal (vval T b) (vval T bh)) ->
  exists T', sat L T' (vb_circuit pal c tx ty b bh row) /\ frame c vb_rows row T T' /\
    (vval T' (vb_x c row), vval T' (vb_y c row)) = out.
Proof.
  intros T c tx ty b bh row bc out NA [Hwf OX OY OB OH CI CW] EI SO NS.
  pose proof SO as [S1 S2]. assert (S255 : (scalar_of pal (vval T b) (vval T bh) < 2 ^ 255)%Z) by (unfold group_order in S2; destruct pal; lia).
  set (B := vval T b) in *. set (BH := vval T bh) in *.
  destruct (chain_ok P pal B BH) as [U [U21 UI]].
  assert (K : vb_ok P pal (mkVb (f0, f0) (fun k => if (k =? 255)%Z then out else (f0, f0)) (fun _ => f0) (vb_fbit P pal B BH) (vb_n P pal B BH)
                (vb_u P pal B BH) (vb_unext P pal B BH) (vb_u0 P pal B BH) (vb_u1 P pal B BH)
                (vb_final P pal (fun _ _ => out) f0 f0 B BH (f0, f0))) (enc (ec_add (None : point P) None)) B BH f0).
  { apply (mk_ok P pal big f0 f0 B BH (f0, f0) (fun _ _ => out) S1 S255); try assumption.
    - reflexivity.
    - rewrite pt255. reflexivity.
    - intros k Hk. destruct (Z.eqb_spec k 255); [lia|]. unfold st_slope. cbn [fst snd]. ring.
    - intros k Hk. destruct (Z.eqb_spec k 255); [lia|]. unfold st_x, st_y, st_V, st_U. cbn [fst snd]. split; ring.
    - reflexivity.
    - exact (high_ok P pal big B BH S1 S255 S2). }
  destruct (realize P L pal big T c tx ty b bh row bc None _ NA I Hwf OX OY OB OH EI K CI CW) as [_ [S [FR M]]].
  eexists. split; [exact S|]. split; [exact FR|].
  unfold vb_x, vb_y. rewrite !vval_wcell. rewrite !(m_fin P c _ row _ M) by lia. cbn [vt_f]. apply final_out; assumption.
Qed.

(** A base point [t] with [2 t = (a, w)] and a value [x] such that the point
    (x, 0) in place of [t] makes every step stay in (x, 0). *)
Lemma base_free : forall T c tx ty b bh row (bc : F) (t : F * F) (a w x : F),
  no_axis_points bc -> on_curve bc (Some t) -> ec_add (Some t) (Some t) = Some (a, w) -> a <> x ->
  (let s := w / (a - x) in st_x P (x, f0) (a, w) (x, f0) s = f0 /\ st_y P (x, f0) (a, w) (x, f0) s = f0) ->
  inputs T c tx ty b bh row -> (vval T tx, vval T ty) = t ->
  scalar_ok pal (vval T b) (vval T bh) -> ~ special pal (scalar_of pal (vval T b) (vval T bh)) ->
  exists T', sat L T' (vb_circuit pal c tx ty b bh row) /\ frame c vb_rows row T T' /\
    (vval T' (vb_x c row), vval T' (vb_y c row)) = (x, f0).
Proof.
  intros T c tx ty b bh row bc t a w x NA OT ED AX ST [Hwf OX OY OB OH CI CW] EI SO NS.
  pose proof SO as [S1 S2]. assert (S255 : (scalar_of pal (vval T b) (vval T bh) < 2 ^ 255)%Z) by (unfold group_order in S2; destruct pal; lia).
  set (B := vval T b) in *. set (BH := vval T bh) in *. cbv zeta in ST. set (s0 := w / (a - x)) in *.
  assert (ES : (a - x) * s0 = w) by (subst s0; field; intros D; apply AX; lc f1 D). clearbody s0.
  destruct (chain_ok P pal B BH) as [U [U21 UI]].
  assert (K : vb_ok P pal (mkVb (x, f0) (fun k => if (k =? 0)%Z then (a, w) else (x, f0)) (fun k => if (k =? 0)%Z then s0 else f0) (vb_fbit P pal B BH) (vb_n P pal B BH)
                (vb_u P pal B BH) (vb_unext P pal B BH) (vb_u0 P pal B BH) (vb_u1 P pal B BH)
                (vb_final P pal (fun _ _ => (x, f0)) x f0 B BH (x, f0))) (enc (ec_add (Some t) (Some t))) B BH f0).
  { rewrite ED. apply (mk_ok P pal big x f0 B BH (x, f0) (fun _ _ => (x, f0)) S1 S255); try assumption.
    - reflexivity.
    - rewrite pt255. reflexivity.
    - intros k Hk. unfold st_slope. destruct (Z.eqb_spec k 0); cbn [fst snd]; [lc f1 ES|ring].
    - intros k Hk. destruct (Z.eqb_spec (k + 1) 0); [lia|]. destruct (Z.eqb_spec k 0); [exact ST|].
      unfold st_x, st_y, st_V, st_U. cbn [fst snd]. split; ring.
    - reflexivity.
    - exact (high_ok P pal big B BH S1 S255 S2). }
  destruct (realize P L pal big T c tx ty b bh row bc (Some t) _ NA OT Hwf OX OY OB OH EI K CI CW) as [_ [S [FR M]]].
  eexists. split; [exact S|]. split; [exact FR|].
  unfold vb_x, vb_y. rewrite !vval_wcell. rewrite !(m_fin P c _ row _ M) by lia. cbn [vt_f]. apply final_out; assumption.
Qed.

(** The range check does not hold back a scalar of the form [2^254 + l] with [l]
    up to 130 bits, whatever the group order. *)
Lemma range_free : forall T c tx ty b bh row (bc : F),
  no_axis_points bc -> inputs T c tx ty b bh row -> (vval T tx, vval T ty) = enc (None : point P) ->
  (pal = true -> (fval (vval T b) < 2 ^ 254)%Z /\ fval (vval T bh) = 1%Z) ->
  (2 ^ 254 <= scalar_of pal (vval T b) (vval T bh) < 2 ^ 254 + 2 ^ 130)%Z ->
  exists T', sat L T' (vb_circuit pal c tx ty b bh row) /\ frame c vb_rows row T T'.
Proof.
  intros T c tx ty b bh row bc NA [Hwf OX OY OB OH CI CW] EI HB NR.
  set (B := vval T b) in *. set (BH := vval T bh) in *.
  assert (S1 : pal = true -> (fval B < 2 ^ 254)%Z /\ (fval BH = 0 \/ fval BH = 1)%Z) by (intros Hp; destruct (HB Hp); auto).
  assert (S255 : (scalar_of pal B BH < 2 ^ 255)%Z) by lia.
  destruct (chain_ok P pal B BH) as [U [U21 UI]].
  assert (T16 : (ofZ 16 : F) <> f0).
  { intros E. pose proof (big_z P big) as BZ. unfold vb_tp in BZ. apply (ofZ_inj P 16 0) in E. rewrite !Z.mod_small in E by lia. discriminate. }
  set (ax := vb_aux P pal B BH).
  assert (K : vb_ok P pal (mkVb (f0, f0) (fun k => (f0, f0)) (fun _ => f0) (vb_fbit P pal B BH) (vb_n P pal B BH)
                (fun d => if (d =? 21)%Z then ax / ofZ 16 else vb_u P pal B BH d) (fun d => if (d =? 21)%Z then ax else vb_unext P pal B BH d)
                (fun d => if (d =? 21)%Z then f0 else vb_u0 P pal B BH d) (fun d => if (d =? 21)%Z then f0 else vb_u1 P pal B BH d)
                (vb_final P pal (fun _ _ => (f0, f0)) f0 f0 B BH (f0, f0))) (enc (ec_add (None : point P) None)) B BH f0).
  { apply (mk_ok P pal big f0 f0 B BH (f0, f0) (fun _ _ => (f0, f0)) S1 S255).
    - reflexivity.
    - rewrite pt255. reflexivity.
    - intros k Hk. unfold st_slope. cbn [fst snd]. ring.
    - intros k Hk. unfold st_x, st_y, st_V, st_U. cbn [fst snd]. split; ring.
    - intros d Hd. destruct (Z.eqb_spec d 21); [lia|]. apply U. exact Hd.
    - change (21 =? 21)%Z with true. cbv iota. split; [unfold oct; ring|]. split; [ring|]. field. exact T16.
    - reflexivity.
    - intros d Hd. destruct (Z.eqb_spec d 21); [lia|]. destruct (Z.eqb_spec (d + 1) 21); [lia|]. apply UI. exact Hd.
    - change (21 =? 21)%Z with true. cbv iota. fold ax. split; [ring|].
      rewrite (e2_val P pal B BH), (n_val P pal B BH) by lia. change (5 * 25)%Z with 125%Z. rewrite (horner_top P pal B BH S1 S255) by lia.
      change (255 - 125)%Z with 130%Z.
      replace (scalar_of pal B BH / 2 ^ 130)%Z with (2 ^ 124)%Z; [|apply (Z.div_unique _ _ _ (scalar_of pal B BH - 2 ^ 254)); lia].
      assert (Z0 : forall y z : F, y * (z - z) = f0) by (intros; ring). apply Z0. }
  destruct (realize P L pal big T c tx ty b bh row bc None _ NA I Hwf OX OY OB OH EI K CI CW) as [_ [S [FR _]]].
  eexists. split; [exact S|exact FR].
Qed.

(** The running scalar starts at the constant cell in the column of the witness
    column W(0): what the component writes never fits another value there. *)
Lemma n0_cell : forall T c row t, wf_comp c 15 -> vt_n t 0 = f0 ->
  wsets T (vb_cells c row t) CWit (W c 4) (row + 1)%Z = f0 /\
  wsets T (vb_cells c row t) CConst (W c 0) (row + 1)%Z = T CConst (W c 0) (row + 1)%Z.
Proof.
  intros T c row t Hwf E. pose proof (matches_wsets P c row t T Hwf) as M.
  pose proof (m_n4 P c _ row t M 0 ltac:(lia)) as A. replace (row + 1 + 2 * 0)%Z with (row + 1)%Z in A by lia.
  split; [rewrite A; exact E|]. apply wsets_wit_const. discriminate.
Qed.
Lemma links_n0 : forall T c b bh row, links P pal c T b bh row -> T CWit (W c 4) (row + 1)%Z = T CConst (W c 0) (row + 1)%Z.
Proof. intros T c b bh row LK. destruct LK as [_ [_ [_ [_ [_ [_ [_ [E _]]]]]]]]. exact E. Qed.
Lemma const_cell : forall T c tx ty b bh row ladd, wf_comp c 15 -> T CConst (W c 0) (row + 1)%Z <> f0 ->
  ~ sat L (vb_assign pal ladd c tx ty b bh row T) (vb_circuit pal c tx ty b bh row).
Proof.
  intros T c tx ty b bh row ladd Hwf NZ S. apply vb_circuit_iff in S.
  destruct S as [_ [_ [_ [_ [_ [_ [_ LK]]]]]]]. apply links_n0 in LK. apply NZ.
  unfold vb_assign in LK. cbv zeta in LK.
  match type of LK with wsets ?T1 (vb_cells c row ?t) _ _ _ = _ => destruct (n0_cell T1 c row t Hwf eq_refl) as [A1 A2] end.
  rewrite A1, A2 in LK. symmetry. rewrite LK. unfold ua_assign. cbv zeta. apply wsets_wit_const. discriminate.
Qed.
End Refute.
