(** lookup_argument_verifier: soundness and completeness. *)
From Coq Require Import ZArith List Lia Bool Field.
From Verif Require Import Base Field Plonk PlonkFacts Bits FieldOpsModel FieldOpsProofs FlexModel FlexProofs
  PvModel PvSpec PvTape PvGate PvLoops PvF1 PvF3 PvStage PvLookup.
Import ListNotations.
Open Scope Z_scope.

Lemma slice_eq : forall A (d : A) l lo n, 0 <= lo -> 0 <= n -> lo + n <= zlen l ->
  map (fun i => znth d l i) (zseq lo (lo + n)) = firstn (Z.to_nat n) (skipn (Z.to_nat lo) l).
Proof.
  intros A d l lo n Hlo Hn. revert lo Hlo. pattern n. apply natlike_ind; [| |exact Hn]; clear n Hn.
  - intros lo Hlo H. rewrite zseq_nil by lia. reflexivity.
  - intros n Hn IH lo Hlo H. rewrite zseq_cons by lia. cbn [map].
    rewrite (skipn_znth A d l lo) by lia. replace (Z.to_nat (Z.succ n)) with (S (Z.to_nat n)) by lia. cbn [firstn]. f_equal.
    replace (lo + Z.succ n) with (lo + 1 + n) by lia. apply IH; lia.
Qed.

Lemma plan_shift : forall w sh nh ng nv nf row,
  lp_end (lv_plan_of w sh nh ng nv nf row) = row + lp_end (lv_plan_of w sh nh ng nv nf 0).
Proof. intros. unfold lv_plan_of. cbn [lp_end]. lia. Qed.

Section Lookup.
Variable P : params.
Notation F := (F P).
Notation table := (table P).
Variable L : lenv P.
Implicit Types T : table.
Add Field Ff : (F_field P) (morphism (F_morph P), constants [F_const], power_tac (F_power P) [F_pow_tac]).
Local Open Scope F_scope.

Definition tabs_vals T (tabs : list lk_table) : list (F * list (list F)) :=
  map (fun t => (vval T (kt_sel t), map (fun o => map (vval T) (fst o)) (kt_opts t))) tabs.
Definition stabs_vals T (tabs : list lk_table) : list (F * list (list F)) :=
  map (fun t => (vval T (kt_ssel t), map (fun o => map (vval T) (snd o)) (kt_opts t))) tabs.
Definition gates_vals T (gates : list lk_gate) : list (F * list (F * list F)) :=
  map (fun g => (vval T (kg_sel g), map (fun k => (vval T (fst k), map (vval T) (snd k))) (kg_cons g))) gates.

(** The four terms of the lookup argument on the values of the inputs. *)
Definition lookup_terms T (x : lv_in) (tabs : list lk_table) (gates : list lk_gate) (o0 o1 o2 o3 : F) : Prop :=
  let v := vval T in
  let m := Z.to_nat (lk_counts tabs gates) in
  let th := v (lv_theta x) in let be := v (lv_beta x) in let ga := v (lv_gamma x) in
  let vl := v (lv_v x) in let l0 := v (lv_l0 x) in let ql := v (lv_ql x) in
  let mask := f1 - (ql + v (lv_qb x)) in
  let smask := f1 - (v (lv_qls x) + v (lv_qbs x)) in
  let srt := map v (lv_sorted x) in
  let s0 := firstn m srt in let s1 := firstn m (skipn m srt) in let s2 := skipn (2 * m) srt in
  let gv := gate_vals th (gates_vals T gates) in
  let tv := table_vals th mask 1 (tabs_vals T tabs) in
  let stv := table_vals th smask 1 (stabs_vals T tabs) in
  let h := plookup_prod be ga (combine s0 s1) in
  let g := plookup_prod be ga (combine gv gv) * plookup_prod be ga (combine tv stv) in
  o0 = (f1 - vl) * l0 /\
  o1 = ql * (vl * vl - vl) /\
  o2 = mask * (v (lv_vs x) * h - vl * g) /\
  o3 = l0 * weighted_diff (combine (map v (lv_alphas x)) (combine (tl s0) s2)).

(** ** The circuit as a list of stages *)

Definition tjs (tabs : list lk_table) := njobs kt_opts 0 tabs.
Definition gjs (gates : list lk_gate) := njobs kg_cons 0 gates.

Definition lv_stages1 (c : comp) (sh : lv_shape) (x : lv_in) tabs gates (row : Z) : list stage :=
  tstages c x row (tjs tabs) (row + 2) ++ gstages c x (gjs gates) ++ [ SF1 (lv_beta x) (lv_gamma x) (lv_s0 x) (lv_s1 x) ].
Definition lv_stages2 (c : comp) (sh : lv_shape) (x : lv_in) (row : Z) : list stage :=
  let p := lv_plan_run (wamount c) sh x row in
  let tv := lv_touts c sh (lv_jobs (ls_options sh)) (row + 2) in
  let gv := lv_gouts c sh (lv_jobs (ls_gates sh)) 0 (lp_gate p) in
  [ SF1 (lv_beta x) (lv_gamma x) gv gv; SF1 (lv_beta x) (lv_gamma x) (map fst tv) (map snd tv);
    SMul (f1_out c (zlen gv) (lp_g1 p)) (f1_out c (zlen tv) (lp_g2 p)) ].

Section Input.
Variables (c : comp) (sh : lv_shape) (x : lv_in) (tabs : list lk_table) (gates : list lk_gate) (row : Z).
Hypothesis HI : lk_inputs sh x tabs gates.
Hypothesis HZ : lk_sizes x tabs gates.
Hypothesis Hw : (4 <= wamount c)%Z.
Let w := wamount c.
Let p := lv_plan_run w sh x row.
Let nv := zlen (flat_map kt_opts tabs).
Let ng := zlen (flat_map kg_cons gates).

Lemma lk_tj : lv_jobs (ls_options sh) = map fst (tjs tabs).
Proof. destruct HI as [_ [_ [E _]]]. rewrite E. apply jobs_eq. Qed.
Lemma lk_gj : lv_jobs (ls_gates sh) = map fst (gjs gates).
Proof. destruct HI as [E _]. rewrite E. apply jobs_eq. Qed.
Lemma lk_nv : zlen (lv_jobs (ls_options sh)) = nv.
Proof. rewrite lk_tj, zlen_map. apply njobs_len. Qed.
Lemma lk_ng : zlen (lv_jobs (ls_gates sh)) = ng.
Proof. rewrite lk_gj, zlen_map. apply njobs_len. Qed.
Lemma lk_k : lv_k x = (nv + ng)%Z.
Proof.
  destruct HZ as [_ [_ [_ [_ [E _]]]]]. unfold lv_k. rewrite E. unfold lk_counts. fold nv ng.
  replace (3 * (nv + ng) - 1 + 1)%Z with ((nv + ng) * 3)%Z by lia. apply Z.div_mul. lia.
Qed.
Lemma lk_pos : (1 <= nv /\ 1 <= ng)%Z.
Proof. destruct HZ as [_ [_ [A [B _]]]]. split; assumption. Qed.
Lemma lk_plan : lv_plan_rows w sh row = p.
Proof.
  unfold lv_plan_rows, p, lv_plan_run. rewrite lk_nv, lk_ng, lk_k. cbv zeta. f_equal; lia.
Qed.
Lemma lk_rows : (row + lv_rows w sh)%Z = lp_end p.
Proof. unfold lv_rows. rewrite <- lk_plan. unfold lv_plan_rows. cbv zeta. rewrite (plan_shift _ _ _ _ _ _ row). reflexivity. Qed.

Lemma lk_tab : forall j, In j (tjs tabs) -> exists t, In t tabs /\ In (snd j) (kt_opts t) /\ (0 <= fst j < zlen tabs)%Z /\
  znth dvar (lv_tsel x) (fst j) = kt_sel t /\ znth dvar (lv_stsel x) (fst j) = kt_ssel t /\ znth 0%Z (ls_columns sh) (fst j) = kt_cols t.
Proof.
  intros j Hj. destruct HI as [_ [_ [_ [E4 [_ [_ [_ [E8 [E9 _]]]]]]]]].
  destruct (njobs_in _ _ kt_opts (mkTab dvar dvar 0%Z []) tabs 0%Z j Hj) as [R [I1 I2]]. rewrite Z.sub_0_r in *.
  exists (znth (mkTab dvar dvar 0%Z []) tabs (fst j)). split; [exact I1|]. split; [exact I2|]. split; [lia|].
  rewrite E4, E8, E9.
  assert (MM : forall A (f : lk_table -> A) d, znth d (map f tabs) (fst j) = f (znth (mkTab dvar dvar 0%Z []) tabs (fst j))).
  { intros A f d. unfold znth. rewrite (nth_indep _ d (f (mkTab dvar dvar 0%Z []))).
    - apply map_nth.
    - rewrite map_length. unfold zlen in R. lia. }
  rewrite !MM. repeat split; reflexivity.
Qed.
Lemma lk_tjok : tj_ok sh (tjs tabs).
Proof.
  intros j Hj. destruct (lk_tab j Hj) as [t [It [Io [_ [_ [_ E]]]]]]. rewrite E. destruct HZ as [H _].
  destruct (H t It) as [A B]. specialize (B _ Io). split; [exact A|exact B].
Qed.
Lemma lk_tj_len : forall j, In j (tjs tabs) -> (1 <= zlen (fst (snd j)) /\ zlen (snd (snd j)) = zlen (fst (snd j)))%Z.
Proof. intros j Hj. destruct (lk_tjok j Hj) as [A [B C]]. lia. Qed.
Lemma lk_gate_of : forall j, In j (gjs gates) -> exists g, In g gates /\ In (snd j) (kg_cons g) /\
  znth dvar (lv_gsel x) (fst j) = kg_sel g.
Proof.
  intros j Hj. destruct HI as [_ [_ [_ [_ [E5 _]]]]].
  destruct (njobs_in _ _ kg_cons (mkLg dvar []) gates 0%Z j Hj) as [R [I1 I2]]. rewrite Z.sub_0_r in *.
  exists (znth (mkLg dvar []) gates (fst j)). split; [exact I1|]. split; [exact I2|].
  rewrite E5. unfold znth. rewrite (nth_indep _ dvar (kg_sel (mkLg dvar []))).
  - apply map_nth.
  - rewrite map_length. unfold zlen in R. lia.
Qed.
Lemma lk_gj_len : forall j, In j (gjs gates) -> (1 <= zlen (snd (snd j)))%Z.
Proof. intros j Hj. destruct (lk_gate_of j Hj) as [g [A [B _]]]. destruct HZ as [_ [H _]]. exact (H g _ A B). Qed.

Lemma lk_tloop : lv_tcircuit (P:=P) c sh x row (map fst (tjs tabs)) (row + 2) 0 = sts_circuit c (tstages c x row (tjs tabs) (row + 2)) (row + 2) /\
  (forall T, lv_tassign c sh x row (map fst (tjs tabs)) (row + 2) 0 T = sts_assign c (tstages c x row (tjs tabs) (row + 2)) (row + 2) T) /\
  sts_rows w (tstages c x row (tjs tabs) (row + 2)) = lv_tloop_rows w sh (map fst (tjs tabs)).
Proof.
  destruct HI as [_ [_ [_ [_ [_ [_ [_ [_ [_ [E10 E11]]]]]]]]]].
  apply tloop_eq; [apply lk_tjok|lia| |].
  - rewrite E10. unfold tjs. symmetry. apply njobs_flat.
  - rewrite E11. unfold tjs. symmetry. apply njobs_flat.
Qed.
Lemma lk_ins : zdrop 0 (ls_inputs sh) = map (fun j => zlen (snd (snd j))) (gjs gates).
Proof.
  destruct HI as [_ [E2 _]]. rewrite E2. unfold gjs, zdrop. cbn [Z.to_nat skipn].
  symmetry. apply (njobs_snd _ _ _ kg_cons (fun k => zlen (snd k))).
Qed.
Lemma lk_gloop : forall r, lv_gcircuit (P:=P) c sh x (map fst (gjs gates)) 0 r 0 = sts_circuit c (gstages c x (gjs gates)) r /\
  (forall T, lv_gassign c sh x (map fst (gjs gates)) 0 r 0 T = sts_assign c (gstages c x (gjs gates)) r T) /\
  sts_rows w (gstages c x (gjs gates)) = lv_gloop_rows w sh (map fst (gjs gates)) 0.
Proof.
  intros r. destruct HI as [_ [_ [_ [_ [_ [E6 [E7 _]]]]]]].
  apply gloop_eq; [lia|lia|exact lk_ins| |].
  - rewrite E6. unfold gjs, zdrop. cbn [Z.to_nat skipn]. symmetry. apply (njobs_snd _ _ _ kg_cons fst).
  - rewrite E7. unfold gjs, zdrop. cbn [Z.to_nat skipn]. symmetry. apply (njobs_flat _ _ _ kg_cons snd).
Qed.

Lemma zlen_s0 : zlen (lv_s0 x) = (nv + ng)%Z /\ zlen (lv_s1 x) = (nv + ng)%Z /\ zlen (lv_s2 x) = (nv + ng - 1)%Z /\ zlen (tl (lv_s0 x)) = (nv + ng - 1)%Z.
Proof.
  pose proof lk_pos as [A B]. unfold lv_s0, lv_s1, lv_s2, lv_slice. rewrite lk_k.
  rewrite (zseq_cons 0 (nv + ng)) by lia. cbn [map tl]. rewrite zlen_cons, !zlen_map, !zlen_zseq. lia.
Qed.

Lemma lk_gate_row : lp_gate p = (row + 2 + sts_rows w (tstages c x row (tjs tabs) (row + 2)))%Z.
Proof. unfold p, lv_plan_run, lv_plan_of. cbv zeta. cbn [lp_gate]. rewrite lk_tj, (proj2 (proj2 lk_tloop)). reflexivity. Qed.
Lemma lk_h_row : lp_h p = (lp_gate p + sts_rows w (gstages c x (gjs gates)))%Z.
Proof. unfold p, lv_plan_run, lv_plan_of. cbv zeta. cbn [lp_h lp_gate]. rewrite lk_gj, (proj2 (proj2 (lk_gloop 0%Z))). reflexivity. Qed.
Lemma lk_rows_rest : lp_g1 p = (lp_h p + f1_rows w (nv + ng))%Z /\ lp_g2 p = (lp_g1 p + f1_rows w ng)%Z /\
  lp_gm p = (lp_g2 p + f1_rows w nv)%Z /\ lp_f3 p = (lp_gm p + 1)%Z /\ lp_fm p = (lp_f3 p + f3_rows w (nv + ng - 1))%Z /\
  lp_a p = (lp_fm p + 1)%Z /\ lp_b p = (lp_a p + 4 / w + 1)%Z /\ lp_end p = (lp_b p + 5 / w + 1)%Z.
Proof.
  unfold p, lv_plan_run, lv_plan_of. cbv zeta. cbn [lp_gate lp_h lp_g1 lp_g2 lp_gm lp_f3 lp_fm lp_a lp_b lp_end].
  rewrite lk_nv, lk_ng, lk_k. repeat split; reflexivity.
Qed.

Lemma touts_len : forall J r, zlen (lv_touts c sh J r) = zlen J.
Proof. intros J. induction J as [|i J IH]; intros r; cbn [lv_touts]; [reflexivity|]. rewrite !zlen_cons, IH. reflexivity. Qed.
Lemma gouts_len : forall J k r, zlen (lv_gouts c sh J k r) = zlen J.
Proof. intros J. induction J as [|i J IH]; intros k r; cbn [lv_gouts]; [reflexivity|]. rewrite !zlen_cons, IH. reflexivity. Qed.

Definition lk_tv := lv_touts c sh (lv_jobs (ls_options sh)) (row + 2).
Definition lk_gv := lv_gouts c sh (lv_jobs (ls_gates sh)) 0 (lp_gate p).
Lemma lk_tv_len : zlen lk_tv = nv.
Proof. unfold lk_tv. rewrite touts_len. apply lk_nv. Qed.
Lemma lk_gv_len : zlen lk_gv = ng.
Proof. unfold lk_gv. rewrite gouts_len. apply lk_ng. Qed.

Lemma lk_circuit : lv_circuit (P:=P) c sh x row =
  lv_consts c x row ++ sts_circuit c (lv_stages1 c sh x tabs gates row ++ lv_stages2 c sh x row) (row + 2) ++
  f3_circuit c (lv_alphas x) (tl (lv_s0 x)) (lv_s2 x) (lp_f3 p) ++
  multiplication_circuit c (f3_out c (lv_k x - 1) (lp_f3 p)) (lv_l0 x) (lp_fm p) ++
  [ Gate (lv_mask_gate c) [row; (row + 1)%Z]; Gate (lv_gate_a c) [lp_a p]; Gate (lv_gate_b c) [lp_b p] ] ++
  lv_copies c sh x row.
Proof.
  destruct lk_rows_rest as [R1 [R2 [R3 _]]].
  unfold lv_circuit. cbv zeta. fold w. fold p. rewrite lk_tj, lk_gj. rewrite (proj1 lk_tloop), (proj1 (lk_gloop _)).
  f_equal. unfold lv_stages1, lv_stages2. cbv zeta. rewrite !sts_circuit_app. fold w. fold p. rewrite <- !lk_gate_row.
  rewrite <- !app_assoc. f_equal. f_equal. rewrite !sts_rows_app. fold w.
  cbn [sts_circuit st_circuit sts_rows st_rows app]. fold w. rewrite !app_nil_r, !Z.add_0_r. rewrite <- !app_assoc.
  rewrite lk_tj, lk_gj.
  assert (Z1 : zlen (lv_gouts c sh (map fst (gjs gates)) 0 (lp_gate p)) = ng) by (rewrite <- lk_gj; apply lk_gv_len).
  assert (Z2 : zlen (map fst (lv_touts c sh (map fst (tjs tabs)) (row + 2))) = nv) by (rewrite zlen_map, <- lk_tj; apply lk_tv_len).
  rewrite Z1, Z2, (proj1 zlen_s0). rewrite <- lk_h_row. 
  replace (row + 2 + (sts_rows w (tstages c x row (tjs tabs) (row + 2)) + (sts_rows w (gstages c x (gjs gates)) + f1_rows w (nv + ng))))%Z with (lp_g1 p)
    by (rewrite R1, lk_h_row, lk_gate_row; lia).
  rewrite <- R2, <- R3. reflexivity.
Qed.

(** ** Soundness *)

Lemma tval_spec : forall T (th mask : F) (sel : lk_table -> var) (pr : list var * list var -> list var) l k (f : Z -> F),
  (forall i, (0 <= i < zlen l)%Z -> f (k + i)%Z = ofZ (k + 1 + i)) -> forall s : Z -> var,
  (forall i, (0 <= i < zlen l)%Z -> s (k + i)%Z = sel (znth (mkTab dvar dvar 0%Z []) l i)) ->
  map (fun j => tval P T th (s (fst j)) (f (fst j)) (pr (snd j)) mask) (njobs kt_opts k l) =
  table_vals th mask (k + 1)%Z (map (fun t => (vval T (sel t), map (fun o => map (vval T) (pr o)) (kt_opts t))) l).
Proof.
  intros T th mask sel pr l. induction l as [|t l IH]; intros k f Hf s Hs; [reflexivity|].
  cbn [njobs map table_vals]. rewrite map_app, !map_map. cbn [fst snd].
  pose proof (zlen_nonneg _ l) as Hl.
  f_equal.
  - apply map_ext. intros o. unfold tval. pose proof (Hf 0%Z) as F0. pose proof (Hs 0%Z) as S0. rewrite zlen_cons in F0, S0.
    rewrite !Z.add_0_r in F0. rewrite Z.add_0_r in S0. rewrite F0, S0 by lia. rewrite znth_0. reflexivity.
  - apply IH.
    + intros i Hi. replace (k + 1 + i)%Z with (k + (1 + i))%Z by lia. rewrite Hf by (rewrite zlen_cons; lia). f_equal. lia.
    + intros i Hi. replace (k + 1 + i)%Z with (k + (1 + i))%Z by lia. rewrite Hs by (rewrite zlen_cons; lia).
      rewrite znth_S by lia. do 2 f_equal. lia.
Qed.

Lemma gval_spec : forall T (th : F) l k (s : Z -> var),
  (forall i, (0 <= i < zlen l)%Z -> s (k + i)%Z = kg_sel (znth (mkLg dvar []) l i)) ->
  map (fun j => vval T (s (fst j)) * theta_sum th 0 (vval T (fst (snd j)) :: map (vval T) (snd (snd j)))) (njobs kg_cons k l) =
  gate_vals th (gates_vals T l).
Proof.
  intros T th l. induction l as [|g l IH]; intros k s Hs; [reflexivity|].
  cbn [njobs map gate_vals gates_vals flat_map fst snd]. rewrite map_app, !map_map. cbn [fst snd].
  pose proof (zlen_nonneg _ l) as Hl. f_equal.
  - apply map_ext. intros o. pose proof (Hs 0%Z) as S0. rewrite zlen_cons in S0. rewrite Z.add_0_r in S0. rewrite S0 by lia. reflexivity.
  - apply IH. intros i Hi. replace (k + 1 + i)%Z with (k + (1 + i))%Z by lia. rewrite Hs by (rewrite zlen_cons; lia).
    rewrite znth_S by lia. do 2 f_equal. lia.
Qed.

Lemma znth_map_in : forall A B (f : A -> B) d d' (l : list A) i, (0 <= i < zlen l)%Z -> znth d' (map f l) i = f (znth d l i).
Proof.
  intros A B f d d' l i H. unfold znth. rewrite (nth_indep _ d' (f d)).
  - apply map_nth.
  - rewrite map_length. unfold zlen in H. lia.
Qed.

Lemma lk_tvals : forall T, sat L T (lv_consts c x row) ->
  sat L T (sts_circuit c (tstages c x row (tjs tabs) (row + 2)) (row + 2)) ->
  map (vval T) (map fst lk_tv) = table_vals (vval T (lv_theta x)) (T CWit (W c 2) row) 1 (tabs_vals T tabs) /\
  map (vval T) (map snd lk_tv) = table_vals (vval T (lv_theta x)) (T CWit (W c 2) (row + 1)%Z) 1 (stabs_vals T tabs).
Proof.
  intros T HC HS. destruct HI as [_ [_ [_ [_ [_ [_ [_ [E8 [E9 _]]]]]]]]].
  pose proof (tloop_sound P L T c x row (tjs tabs) (row + 2)%Z Hw lk_tj_len HS sh lk_tjok) as S.
  unfold lk_tv. rewrite lk_tj.
  assert (CV : forall i, (0 <= i < zlen tabs)%Z -> T CConst (C c 0) (row + (0 + i))%Z = ofZ (0 + 1 + i)).
  { intros i Hi. assert (H : holds L T (SetConst (C c 0) (row + i) (ofZ (1 + i)))).
    { apply HC. unfold lv_consts. apply in_map_iff. exists i. split; [reflexivity|]. apply in_zseq. rewrite E8, zlen_map. lia. }
    cbn [holds] in H. rewrite !Z.add_0_l. exact H. }
  split.
  - transitivity (map fst (map (fun q => (vval T (fst q), vval T (snd q))) (lv_touts c sh (map fst (tjs tabs)) (row + 2)))).
    { rewrite !map_map. reflexivity. }
    rewrite S, map_map. cbn [fst].
    apply (tval_spec T _ _ kt_sel fst tabs 0%Z (fun i => T CConst (C c 0) (row + i)%Z) CV (fun i => znth dvar (lv_tsel x) i)).
    intros i Hi. rewrite E8, Z.add_0_l. apply znth_map_in. exact Hi.
  - transitivity (map snd (map (fun q => (vval T (fst q), vval T (snd q))) (lv_touts c sh (map fst (tjs tabs)) (row + 2)))).
    { rewrite !map_map. reflexivity. }
    rewrite S, map_map. cbn [snd].
    apply (tval_spec T _ _ kt_ssel snd tabs 0%Z (fun i => T CConst (C c 0) (row + i)%Z) CV (fun i => znth dvar (lv_stsel x) i)).
    intros i Hi. rewrite E9, Z.add_0_l. apply znth_map_in. exact Hi.
Qed.

Lemma lk_gvals : forall T, sat L T (sts_circuit c (gstages c x (gjs gates)) (lp_gate p)) ->
  map (vval T) lk_gv = gate_vals (vval T (lv_theta x)) (gates_vals T gates).
Proof.
  intros T HS. destruct HI as [_ [_ [_ [_ [E5 _]]]]].
  unfold lk_gv. rewrite lk_gj.
  rewrite (gloop_sound P L T c sh x (gjs gates) 0%Z (lp_gate p) Hw ltac:(lia) lk_gj_len lk_ins HS).
  apply (gval_spec T _ gates 0%Z (fun i => znth dvar (lv_gsel x) i)).
  intros i Hi. rewrite E5, Z.add_0_l. apply znth_map_in. exact Hi.
Qed.

Lemma lk_h_cell : lv_copies (P:=P) c sh x row =
  [ Copy (wcell (W c 0) row) (lv_ql x); Copy (wcell (W c 0) (row + 1)) (lv_qls x);
    Copy (wcell (W c 1) row) (lv_qb x); Copy (wcell (W c 1) (row + 1)) (lv_qbs x);
    Copy (wcell (W c 0) (lp_a p)) (lv_v x); Copy (wcell (W c 1) (lp_a p)) (lv_l0 x);
    Copy (wcell (W c 3) (lp_a p)) (lv_ql x);
    Copy (wcell (W c 0) (lp_b p)) (lv_v x); Copy (wcell (W c 1) (lp_b p)) (wcell (W c 2) row);
    Copy (wcell (W c 2) (lp_b p)) (f1_out c (nv + ng) (lp_h p)); Copy (wcell (W c 3) (lp_b p)) (lv_vs x);
    Copy (wcell (W c (4 mod w)) (lp_b p + 4 / w)) (wcell (W c 2) (lp_gm p)) ].
Proof.
  unfold lv_copies. cbv zeta. fold w. rewrite lk_plan, lk_nv, lk_ng. unfold f1_out. cbv zeta. fold w.
  destruct lk_rows_rest as [R1 _].
  match goal with |- context [W c (if ?b then ?x1 else ?x2)] => set (col := W c (if b then x1 else x2)) end.
  assert (E : wcell col (lp_g1 p - (if (3 * (nv + ng) + 1 <=? w)%Z then 2%Z else 1%Z)) =
    if (3 * (nv + ng) + 1 <=? w)%Z then wcell col (lp_h p) else wcell col (lp_h p + f1_rows w (nv + ng) - 1)).
  { destruct (Z.leb_spec (3 * (nv + ng) + 1) w) as [H|H]; f_equal; [|lia].
    pose proof lk_pos as [A B].
    assert (f1_rows w (nv + ng) = 2%Z); [|lia]. unfold f1_rows. rewrite ceil_rows_pred by lia. rewrite Z.div_small by lia. reflexivity. }
  rewrite E. reflexivity.
Qed.

Lemma map_tl : forall A B (f : A -> B) l, map f (tl l) = tl (map f l).
Proof. intros A B f [|a l]; reflexivity. Qed.

Lemma lk_slices : forall T, let m := Z.to_nat (lk_counts tabs gates) in
  map (vval T) (lv_s0 x) = firstn m (map (vval T) (lv_sorted x)) /\
  map (vval T) (lv_s1 x) = firstn m (skipn m (map (vval T) (lv_sorted x))) /\
  map (vval T) (lv_s2 x) = skipn (2 * m) (map (vval T) (lv_sorted x)).
Proof.
  intros T m. pose proof lk_pos as [A B]. destruct HZ as [_ [_ [_ [_ [E _]]]]].
  assert (Em : lk_counts tabs gates = (nv + ng)%Z) by reflexivity. rewrite Em in E.
  unfold lv_s0, lv_s1, lv_s2, lv_slice. rewrite lk_k.
  assert (M : m = Z.to_nat (nv + ng)) by reflexivity. clearbody m. subst m.
  split; [|split].
  - change (nv + ng)%Z with (0 + (nv + ng))%Z at 1. rewrite slice_eq by lia. rewrite firstn_map. reflexivity.
  - replace (2 * (nv + ng))%Z with ((nv + ng) + (nv + ng))%Z by lia. rewrite slice_eq by lia.
    rewrite skipn_map, firstn_map. reflexivity.
  - replace (3 * (nv + ng) - 1)%Z with (2 * (nv + ng) + (nv + ng - 1))%Z by lia. rewrite slice_eq by lia.
    rewrite firstn_all2.
    + rewrite skipn_map. do 2 f_equal. lia.
    + rewrite skipn_length. unfold zlen in E. lia.
Qed.

Lemma combine_map2 : forall A B (f : A -> B) (a b : list A),
  combine (map f a) (map f b) = map (fun q => (f (fst q), f (snd q))) (combine a b).
Proof. intros A B f a. induction a as [|y a IH]; intros [|z b]; cbn [map combine fst snd]; try reflexivity. rewrite IH. reflexivity. Qed.
Lemma combine_map3 : forall A B (f : A -> B) (a b d : list A),
  combine (map f a) (combine (map f b) (map f d)) = map (fun q => (f (fst q), (f (fst (snd q)), f (snd (snd q))))) (combine a (combine b d)).
Proof.
  intros A B f a b d. rewrite combine_map2. revert a. generalize (combine b d). clear b d.
  intros l a. revert l. induction a as [|y a IH]; intros [|z l]; cbn [map combine fst snd]; try reflexivity. rewrite IH. reflexivity.
Qed.
Lemma f1_value_spec : forall T be ga s t, f1_value P T be ga s t = plookup_prod be ga (combine (map (vval T) s) (map (vval T) t)).
Proof. intros T be ga s t. unfold f1_value, plookup_prod. rewrite combine_map2, map_map. reflexivity. Qed.
Lemma f3_value_spec : forall T al s t,
  f3_value P T al s t = weighted_diff (combine (map (vval T) al) (combine (map (vval T) s) (map (vval T) t))).
Proof. intros T al s t. unfold f3_value, weighted_diff. rewrite combine_map3, map_map. reflexivity. Qed.

(** The last gates and the copy constraints, on cells. *)
Definition lk_cells T : Prop :=
  let A i := T CWit (W c (i mod w)) (lp_a p + i / w)%Z in
  let B i := T CWit (W c (i mod w)) (lp_b p + i / w)%Z in
  T CWit (W c 2) row = f1 - (T CWit (W c 1) row + T CWit (W c 0) row) /\
  T CWit (W c 2) (row + 1)%Z = f1 - (T CWit (W c 1) (row + 1)%Z + T CWit (W c 0) (row + 1)%Z) /\
  T CWit (W c 0) row = vval T (lv_ql x) /\ T CWit (W c 1) row = vval T (lv_qb x) /\
  T CWit (W c 0) (row + 1)%Z = vval T (lv_qls x) /\ T CWit (W c 1) (row + 1)%Z = vval T (lv_qbs x) /\
  A 0%Z = vval T (lv_v x) /\ A 1%Z = vval T (lv_l0 x) /\ A 3%Z = vval T (lv_ql x) /\
  A 2%Z = (f1 - A 0%Z) * A 1%Z /\ A 4%Z = A 3%Z * (A 0%Z * A 0%Z - A 0%Z) /\
  B 0%Z = vval T (lv_v x) /\ B 1%Z = T CWit (W c 2) row /\ B 2%Z = vval T (f1_out c (nv + ng) (lp_h p)) /\
  B 3%Z = vval T (lv_vs x) /\ B 4%Z = T CWit (W c 2) (lp_gm p) /\
  B 5%Z = B 1%Z * (B 3%Z * B 2%Z - B 0%Z * B 4%Z).

Lemma sub0 : forall a b : F, a - b = f0 <-> a = b.
Proof. intros a b. split; intros H; [|rewrite H; ring]. replace a with ((a - b) + b) by ring. rewrite H. ring. Qed.

Lemma lk_cells_iff : forall T, sat L T ([ Gate (lv_mask_gate c) [row; (row + 1)%Z]; Gate (lv_gate_a c) [lp_a p]; Gate (lv_gate_b c) [lp_b p] ] ++ lv_copies c sh x row) <-> lk_cells T.
Proof.
  intros T. rewrite lk_h_cell. cbn [app].
  assert (SM : forall i, (0 <= i < 4)%Z -> (i mod w = i /\ i / w = 0)%Z).
  { intros i Hi. unfold w. split; [apply Z.mod_small|apply Z.div_small]; lia. }
  rewrite !sat_cons.
  assert (G1 : holds L T (Gate (lv_mask_gate c) [row; (row + 1)%Z]) <->
    T CWit (W c 2) row = f1 - (T CWit (W c 1) row + T CWit (W c 0) row) /\
    T CWit (W c 2) (row + 1)%Z = f1 - (T CWit (W c 1) (row + 1)%Z + T CWit (W c 0) (row + 1)%Z)).
  { cbn [holds]. split.
    - intros H. pose proof (H row (or_introl eq_refl) _ (or_introl eq_refl)) as H1.
      pose proof (H (row + 1)%Z (or_intror (or_introl eq_refl)) _ (or_introl eq_refl)) as H2.
      eval_hyps. split; apply sub0; assumption.
    - intros [H1 H2] r [<-|[<-|[]]] e [<-|[]]; eval_norm; rewrite !Z.add_0_r; apply sub0; assumption. }
  rewrite G1. clear G1. rewrite !holds_gate1. unfold lv_gate_a, lv_gate_b. fold w. rewrite !all_cons, !all_nil.
  unfold lk_cells. cbv zeta.
  rewrite !(proj1 (SM 0%Z ltac:(lia))), !(proj2 (SM 0%Z ltac:(lia))), !(proj1 (SM 1%Z ltac:(lia))), !(proj2 (SM 1%Z ltac:(lia))).
  rewrite !(proj1 (SM 2%Z ltac:(lia))), !(proj2 (SM 2%Z ltac:(lia))), !(proj1 (SM 3%Z ltac:(lia))), !(proj2 (SM 3%Z ltac:(lia))).
  eval_norm. rewrite !Z.add_0_r. rewrite !sub0. cbn [holds]. rewrite !vval_wcell.
  pose proof (sat_nil P L T) as SN. clear - SN. tauto.
Qed.

Lemma lk_sound : forall T, f3_ok w -> sat L T (lv_circuit c sh x row) ->
  let '(o0, o1, o2, o3) := lv_out c sh row in
  lookup_terms T x tabs gates (vval T o0) (vval T o1) (vval T o2) (vval T o3).
Proof.
  intros T Hok H. rewrite lk_circuit in H. rewrite sat_app in H. destruct H as [HC H]. rewrite sat_app in H. destruct H as [HS H].
  rewrite sat_app in H. destruct H as [H3 H]. rewrite sat_app in H. destruct H as [HM H]. apply lk_cells_iff in H.
  unfold lv_stages1 in HS. rewrite <- !app_assoc in HS.
  rewrite sts_circuit_app, sat_app in HS. destruct HS as [HT HS]. rewrite sts_circuit_app, sat_app in HS. destruct HS as [HG HS].
  fold w in HG, HS. rewrite <- lk_gate_row in HG, HS. rewrite <- lk_h_row in HS.
  destruct (lk_tvals T HC HT) as [V1 V2]. pose proof (lk_gvals T HG) as V3.
  unfold lv_stages2 in HS. cbv zeta in HS. cbn [app sts_circuit st_circuit st_rows] in HS. fold w in HS. fold p in HS.
  fold lk_tv in HS. fold lk_gv in HS.
  destruct lk_rows_rest as [R1 [R2 [R3 [R4 [R5 [R6 [R7 R8]]]]]]]. destruct zlen_s0 as [Z0 [Z1 [Z2 Z3]]].
  pose proof lk_pos as [N1 N2].
  rewrite zlen_map, lk_tv_len, lk_gv_len, Z0 in HS. rewrite <- R1, <- R2, <- R3 in HS. rewrite !sat_app in HS.
  destruct HS as [S1 [S2 [S3 [S4 _]]]].
  apply f1_sound_l in S1; [|exact Hw|lia|lia]. rewrite Z0 in S1.
  apply f1_sound_l in S2; [|exact Hw|rewrite lk_gv_len; lia|reflexivity]. rewrite lk_gv_len in S2.
  apply f1_sound_l in S3; [|exact Hw|rewrite zlen_map, lk_tv_len; lia|rewrite !zlen_map; reflexivity]. rewrite zlen_map, lk_tv_len in S3.
  apply multiplication_sound_l in S4. apply multiplication_sound_l in HM.
  assert (EA : zlen (lv_alphas x) = (nv + ng - 1)%Z) by (destruct HZ as [_ [_ [_ [_ [_ E]]]]]; exact E).
  apply f3_sound_l in H3; [|exact Hw|exact Hok|lia|lia|lia]. rewrite Z3 in H3.
  rewrite lk_k, H3 in HM. rewrite S2, S3 in S4.
  rewrite f1_value_spec in S1, S4. rewrite f1_value_spec in S4. rewrite f3_value_spec in HM.
  rewrite V1, V2, V3 in S4. destruct (lk_slices T) as [L0 [L1 L2]]. rewrite L0, L1 in S1. rewrite map_tl, L0, L2 in HM.
  unfold multiplication_result in S4, HM. rewrite vval_wcell in S4, HM.
  unfold lk_cells in H. cbv zeta in H.
  destruct H as [M1 [M2 [M3 [M4 [M5 [M6 [A0 [A1 [A3 [A2 [A4 [B0 [B1 [B2 [B3 [B4 B5]]]]]]]]]]]]]]]].
  unfold lv_out. cbv zeta. fold w. replace (row + lv_rows w sh)%Z with (lp_end p) by (symmetry; apply lk_rows).
  replace (lp_end p - (4 / w + 5 / w + 2) + 2 / w)%Z with (lp_a p + 2 / w)%Z by lia.
  replace (lp_end p - (4 / w + 5 / w + 2) + 4 / w)%Z with (lp_a p + 4 / w)%Z by lia.
  replace (lp_end p - 1)%Z with (lp_b p + 5 / w)%Z by lia.
  replace (lp_end p - (4 / w + 5 / w + 2) - 1)%Z with (lp_fm p) by lia.
  rewrite !vval_wcell. unfold lookup_terms. cbv zeta.
  rewrite M4, M3 in M1. rewrite M6, M5 in M2. rewrite M1, M2 in S4.
  split; [rewrite A2, A0, A1; reflexivity|]. split; [rewrite A4, A3, A0; reflexivity|]. split.
  - rewrite B5, B4, B3, B2, B1, B0, M1, S1, S4.
    replace (vval T (lv_ql x) + vval T (lv_qb x)) with (vval T (lv_qb x) + vval T (lv_ql x)) by ring.
    replace (vval T (lv_qls x) + vval T (lv_qbs x)) with (vval T (lv_qbs x) + vval T (lv_qls x)) by ring. reflexivity.
  - rewrite HM. ring.
Qed.

(** ** Completeness *)

Definition lv_vars : list var :=
  [ lv_theta x; lv_beta x; lv_gamma x; lv_v x; lv_vs x; lv_ql x; lv_qls x; lv_qb x; lv_qbs x; lv_l0 x ] ++
  lv_alphas x ++ lv_gsel x ++ lv_gids x ++ lv_gin x ++ lv_tsel x ++ lv_topt x ++ lv_stsel x ++ lv_stopt x ++ lv_sorted x.

Lemma touts_in : forall J r q, (forall i, In i J -> (1 <= znth 0 (ls_columns sh) i)%Z) -> In q (lv_touts c sh J r) ->
  exists r1 r2, q = (wcell (W c 2) r1, wcell (W c 2) r2) /\ (r <= r1 < r + lv_tloop_rows w sh J)%Z /\ (r <= r2 < r + lv_tloop_rows w sh J)%Z.
Proof.
  intros J. induction J as [|i J IH]; intros r q HJ H; [destruct H|]. cbn [lv_touts lv_tloop_rows] in *. fold w in H.
  assert (G : (1 <= gc_rows w (znth 0 (ls_columns sh) i))%Z) by (apply gc_rows_pos; [unfold w; lia|apply HJ; left; reflexivity]).
  assert (N : forall J', (forall i, In i J' -> (1 <= znth 0 (ls_columns sh) i)%Z) -> (0 <= lv_tloop_rows w sh J')%Z).
  { intros J'. induction J' as [|k J' IHn]; intros Hn; cbn [lv_tloop_rows]; [lia|].
    assert (1 <= gc_rows w (znth 0 (ls_columns sh) k))%Z by (apply gc_rows_pos; [unfold w; lia|apply Hn; left; reflexivity]).
    assert (0 <= lv_tloop_rows w sh J')%Z by (apply IHn; intros; apply Hn; right; assumption). unfold lv_trows. lia. }
  assert (N0 : (0 <= lv_tloop_rows w sh J)%Z) by (apply N; intros; apply HJ; right; assumption).
  unfold lv_trows in *. destruct H as [<-|H].
  - unfold multiplication_result. eexists _, _. split; [reflexivity|]. lia.
  - apply IH in H; [|intros; apply HJ; right; assumption]. destruct H as [r1 [r2 [-> [A B]]]].
    exists r1, r2. split; [reflexivity|]. lia.
Qed.
Lemma gouts_in : forall J k r q, (forall i, (k <= i < k + zlen J)%Z -> (1 <= znth 0 (ls_inputs sh) i)%Z) -> In q (lv_gouts c sh J k r) ->
  exists j r1, q = wcell (W c j) r1 /\ (r <= r1 < r + lv_gloop_rows w sh J k)%Z.
Proof.
  intros J. induction J as [|i J IH]; intros k r q HJ H; [destruct H|]. cbn [lv_gouts lv_gloop_rows] in *. fold w in H.
  pose proof (zlen_nonneg _ J) as HL. rewrite zlen_cons in HJ.
  assert (G : (1 <= gc_rows w (znth 0 (ls_inputs sh) k))%Z) by (apply gc_rows_pos; [unfold w; lia|apply HJ; lia]).
  assert (N : forall J' k', (forall i, (k' <= i < k' + zlen J')%Z -> (1 <= znth 0 (ls_inputs sh) i)%Z) -> (0 <= lv_gloop_rows w sh J' k')%Z).
  { intros J'. induction J' as [|y J' IHn]; intros k' Hn; cbn [lv_gloop_rows]; [lia|].
    pose proof (zlen_nonneg _ J') as HL'. rewrite zlen_cons in Hn.
    assert (1 <= gc_rows w (znth 0 (ls_inputs sh) k'))%Z by (apply gc_rows_pos; [unfold w; lia|apply Hn; lia]).
    assert (0 <= lv_gloop_rows w sh J' (k' + 1))%Z by (apply IHn; intros; apply Hn; lia). lia. }
  assert (N0 : (0 <= lv_gloop_rows w sh J (k + 1))%Z) by (apply N; intros; apply HJ; lia).
  destruct H as [<-|H].
  - unfold gc_out. fold w. eexists _, _. split; [reflexivity|]. lia.
  - apply IH in H; [|intros; apply HJ; lia]. destruct H as [j [r1 [-> A]]]. exists j, r1. split; [reflexivity|]. lia.
Qed.

Lemma lk_tv_in : forall q, In q lk_tv -> exists r1 r2, q = (wcell (W c 2) r1, wcell (W c 2) r2) /\
  (row + 2 <= r1 < lp_gate p)%Z /\ (row + 2 <= r2 < lp_gate p)%Z.
Proof.
  intros q Hq. unfold lk_tv in Hq. rewrite lk_tj in Hq. rewrite lk_gate_row, (proj2 (proj2 lk_tloop)).
  apply touts_in; [|exact Hq]. intros i Hi. apply in_map_iff in Hi. destruct Hi as [j [<- Hj]]. apply (proj1 (lk_tjok j Hj)).
Qed.
Lemma lk_gv_in : forall q, In q lk_gv -> exists j r1, q = wcell (W c j) r1 /\ (lp_gate p <= r1 < lp_h p)%Z.
Proof.
  intros q Hq. unfold lk_gv in Hq. rewrite lk_gj in Hq. rewrite lk_h_row, (proj2 (proj2 (lk_gloop 0%Z))).
  apply gouts_in; [|exact Hq]. intros i Hi. rewrite zlen_map in Hi. pose proof lk_ins as E. unfold zdrop in E. cbn [Z.to_nat skipn] in E.
  rewrite E. rewrite (znth_map_in _ _ (fun j => zlen (snd (snd j))) (0%Z, (dvar, []))) by lia. apply lk_gj_len. apply znth_In. lia.
Qed.

Lemma f1_out_in : forall m r, exists j r', f1_out c m r = wcell (W c j) r' /\ (r <= r' < r + f1_rows w m)%Z.
Proof.
  intros m r. unfold f1_out. cbv zeta. fold w. pose proof (f1_rows_ge w m) as G.
  destruct (3 * m + 1 <=? w)%Z; eexists _, _; (split; [reflexivity|lia]).
Qed.

Hypothesis HO : forall v, In v lv_vars -> outside c (lv_rows w sh) row v.

Lemma lk_in_slice : forall lo hi v, (0 <= lo)%Z -> (hi <= zlen (lv_sorted x))%Z -> In v (lv_slice x lo hi) -> In v (lv_sorted x).
Proof.
  intros lo hi v H1 H2 H. unfold lv_slice in H. apply in_map_iff in H. destruct H as [i [<- Hi]]. apply in_zseq in Hi. apply znth_In. lia.
Qed.
Lemma in_tl : forall A (l : list A) a, In a (tl l) -> In a l.
Proof. intros A [|b l] a H; [destruct H|right; exact H]. Qed.
Lemma lk_in_s : forall v, In v (lv_s0 x) \/ In v (lv_s1 x) \/ In v (lv_s2 x) -> outside c (lv_rows w sh) row v.
Proof.
  intros v H. apply HO. unfold lv_vars. rewrite !in_app_iff. do 9 right. pose proof lk_pos as [A B].
  destruct HZ as [_ [_ [_ [_ [E _]]]]]. unfold lk_counts in E. fold nv ng in E.
  unfold lv_s0, lv_s1, lv_s2 in H. rewrite lk_k in H.
  destruct H as [H|[H|H]]; (eapply lk_in_slice; [| |exact H]); lia.
Qed.

Lemma lk_valid : sts_valid c (lv_rows w sh) row (row + 2) (lv_stages1 c sh x tabs gates row ++ lv_stages2 c sh x row).
Proof.
  pose proof lk_pos as [N1 N2]. destruct zlen_s0 as [Z0 [Z1 [Z2 Z3]]].
  destruct HI as [_ [_ [_ [_ [E5 [E6 [E7 [E8 [E9 [E10 E11]]]]]]]]]].
  assert (OH : forall v, In v [ lv_theta x; lv_beta x; lv_gamma x ] -> outside c (lv_rows w sh) row v).
  { intros v Hv. apply HO. unfold lv_vars. apply in_or_app. left. cbn [In] in *. tauto. }
  unfold lv_stages1. rewrite <- !app_assoc. apply sts_valid_app. split; [|apply sts_valid_app; split].
  - apply (tstages_valid c x _ row row (tjs tabs) (row + 2)%Z w eq_refl Hw); [lia|lia|apply lk_tj_len|apply OH; cbn [In]; tauto|].
    intros j Hj. destruct (lk_tab j Hj) as [t [It [Io [_ [S1 [S2 _]]]]]].
    split; [|split].
    + rewrite S1. apply HO. unfold lv_vars. rewrite !in_app_iff. rewrite E8. do 5 right. left. apply in_map. exact It.
    + rewrite S2. apply HO. unfold lv_vars. rewrite !in_app_iff. rewrite E9. do 7 right. left. apply in_map. exact It.
    + intros v Hv. apply HO. unfold lv_vars. rewrite !in_app_iff. rewrite E10, E11. destruct Hv as [Hv|Hv].
      * do 6 right. left. apply in_flat_map. exists t. split; [exact It|]. apply in_flat_map. exists (snd j). split; assumption.
      * do 8 right. left. apply in_flat_map. exists t. split; [exact It|]. apply in_flat_map. exists (snd j). split; assumption.
  - apply gstages_valid; [apply lk_gj_len|apply OH; cbn [In]; tauto|].
    intros j Hj. destruct (lk_gate_of j Hj) as [g [Ig [Ik S1]]]. split; [|split].
    + rewrite S1. apply HO. unfold lv_vars. rewrite !in_app_iff. rewrite E5. do 2 right. left. apply in_map. exact Ig.
    + apply HO. unfold lv_vars. rewrite !in_app_iff. rewrite E6. do 3 right. left. apply in_flat_map. exists g. split; [exact Ig|]. apply in_map. exact Ik.
    + intros v Hv. apply HO. unfold lv_vars. rewrite !in_app_iff. rewrite E7. do 4 right. left. apply in_flat_map. exists g. split; [exact Ig|].
      apply in_flat_map. exists (snd j). split; assumption.
  - fold w. rewrite <- lk_gate_row, <- lk_h_row. unfold lv_stages2. cbv zeta. fold w. fold p. fold lk_tv. fold lk_gv.
    cbn [app sts_valid st_ok st_vars st_rows]. fold w. rewrite !zlen_map, lk_tv_len, lk_gv_len, Z0, Z1.
    destruct lk_rows_rest as [R1 [R2 [R3 _]]]. rewrite <- R1, <- R2, <- R3.
    pose proof (f1_rows_ge w (nv + ng)) as G1. pose proof (f1_rows_ge w ng) as G2. pose proof (f1_rows_ge w nv) as G3.
    assert (GR : (row + 2 <= lp_gate p <= lp_h p)%Z).
    { pose proof lk_tv_in as Q1. pose proof lk_gv_in as Q2. pose proof lk_tv_len as Q3. pose proof lk_gv_len as Q4.
      destruct lk_tv as [|q1 l1]; [unfold zlen in Q3; cbn in Q3; lia|]. destruct lk_gv as [|q2 l2]; [unfold zlen in Q4; cbn in Q4; lia|].
      destruct (Q1 q1 (or_introl eq_refl)) as [r1 [r2 [_ [X _]]]]. destruct (Q2 q2 (or_introl eq_refl)) as [j2 [r3 [_ Y]]]. lia. }
    split; [lia|]. split.
    { intros v [<-|[<-|Hv]]; [left; apply OH; cbn [In]; tauto|left; apply OH; cbn [In]; tauto|].
      left. apply lk_in_s. apply in_app_iff in Hv. tauto. }
    split; [lia|]. split.
    { intros v [<-|[<-|Hv]]; [left; apply OH; cbn [In]; tauto|left; apply OH; cbn [In]; tauto|].
      assert (Hv' : In v lk_gv) by (apply in_app_iff in Hv; tauto). destruct (lk_gv_in v Hv') as [j [r1 [-> X]]].
      apply prior_cell. lia. }
    split; [lia|]. split.
    { intros v [<-|[<-|Hv]]; [left; apply OH; cbn [In]; tauto|left; apply OH; cbn [In]; tauto|].
      apply in_app_iff in Hv. destruct Hv as [Hv|Hv]; apply in_map_iff in Hv; destruct Hv as [q [<- Hq]];
        destruct (lk_tv_in q Hq) as [r1 [r2 [-> [X Y]]]]; cbn [fst snd]; apply prior_cell; lia. }
    split; [exact I|]. split; [|exact I].
    intros v [<-|[<-|[]]].
    + destruct (f1_out_in ng (lp_g1 p)) as [j [r' [-> X]]]. apply prior_cell. lia.
    + destruct (f1_out_in nv (lp_g2 p)) as [j [r' [-> X]]]. apply prior_cell. lia.
Qed.

Definition lk_T1 T : table :=
  wsets T [ (W c 0, row, vval T (lv_ql x)); (W c 1, row, vval T (lv_qb x)); (W c 2, row, f1 - (vval T (lv_ql x) + vval T (lv_qb x)));
            (W c 0, (row + 1)%Z, vval T (lv_qls x)); (W c 1, (row + 1)%Z, vval T (lv_qbs x));
            (W c 2, (row + 1)%Z, f1 - (vval T (lv_qls x) + vval T (lv_qbs x))) ].
Definition lk_T4 T := sts_assign c (lv_stages1 c sh x tabs gates row) (row + 2) (lk_T1 T).
Definition lk_T5 T := f1_assign c (lv_beta x) (lv_gamma x) lk_gv lk_gv (lp_g1 p) (lk_T4 T).
Definition lk_T6 T := f1_assign c (lv_beta x) (lv_gamma x) (map fst lk_tv) (map snd lk_tv) (lp_g2 p) (lk_T5 T).
Definition lk_T7 T := multiplication_assign c (f1_out c ng (lp_g1 p)) (f1_out c nv (lp_g2 p)) (lp_gm p) (lk_T6 T).
Definition lk_T8 T := f3_assign c (lv_alphas x) (tl (lv_s0 x)) (lv_s2 x) (lp_f3 p) (lk_T7 T).
Definition lk_T9 T := multiplication_assign c (f3_out c (nv + ng - 1) (lp_f3 p)) (lv_l0 x) (lp_fm p) (lk_T8 T).
Definition lk_h T := vval (lk_T4 T) (f1_out c (nv + ng) (lp_h p)).
Definition lk_g T := vval (lk_T5 T) (f1_out c ng (lp_g1 p)) * vval (lk_T6 T) (f1_out c nv (lp_g2 p)).
Definition lk_blockA T : list F :=
  let vl := vval T (lv_v x) in let l0 := vval T (lv_l0 x) in let ql := vval T (lv_ql x) in
  [ vl; l0; (f1 - vl) * l0; ql; ql * (vl * vl - vl) ].
Definition lk_blockB T : list F :=
  let vl := vval T (lv_v x) in let vls := vval T (lv_vs x) in let mask := f1 - (vval T (lv_ql x) + vval T (lv_qb x)) in
  [ vl; mask; lk_h T; vls; lk_g T; mask * (vls * lk_h T - vl * lk_g T) ].

Lemma lk_blocks_len : forall T, zlen (lk_blockA T) = 5%Z /\ zlen (lk_blockB T) = 6%Z.
Proof. intros T. split; reflexivity. Qed.

Lemma lk_stages1_rows : sts_rows w (lv_stages1 c sh x tabs gates row) = (lp_g1 p - (row + 2))%Z.
Proof.
  destruct lk_rows_rest as [R1 _]. unfold lv_stages1. rewrite !sts_rows_app. cbn [sts_rows st_rows].
  rewrite (proj1 zlen_s0). rewrite R1, lk_h_row, lk_gate_row. lia.
Qed.

Lemma lk_assign : forall T, lv_assign c sh x row T = wsets (lk_T9 T) (lv_block c (lp_a p) (lk_blockA T) ++ lv_block c (lp_b p) (lk_blockB T)).
Proof.
  intros T. unfold lv_assign. cbv zeta. fold w. fold p. fold lk_tv lk_gv. rewrite lk_tj, lk_gj, lk_gv_len, lk_tv_len.
  rewrite (proj1 (proj2 lk_tloop)), (proj1 (proj2 (lk_gloop (lp_gate p)))). rewrite lk_k.
  assert (E4 : f1_assign c (lv_beta x) (lv_gamma x) (lv_s0 x) (lv_s1 x) (lp_h p)
     (sts_assign c (gstages c x (gjs gates)) (lp_gate p) (sts_assign c (tstages c x row (tjs tabs) (row + 2)) (row + 2) (lk_T1 T))) = lk_T4 T).
  { unfold lk_T4, lv_stages1. rewrite !sts_assign_app. cbn [sts_assign st_assign]. fold w. rewrite <- lk_gate_row, <- lk_h_row. reflexivity. }
  unfold lk_T1 in E4. rewrite !E4. reflexivity.
Qed.

Lemma lk_stages2_eq : lv_stages2 c sh x row = [ SF1 (lv_beta x) (lv_gamma x) lk_gv lk_gv; SF1 (lv_beta x) (lv_gamma x) (map fst lk_tv) (map snd lk_tv);
    SMul (f1_out c ng (lp_g1 p)) (f1_out c nv (lp_g2 p)) ].
Proof. unfold lv_stages2. cbv zeta. fold w. fold p. fold lk_tv lk_gv. rewrite lk_gv_len, lk_tv_len. reflexivity. Qed.

(** The cells of the two last blocks. *)
Lemma lv_block_in : forall r (vals : list F) col q v, In (col, q, v) (lv_block c r vals) ->
  exists i, (0 <= i < zlen vals)%Z /\ col = W c (i mod w) /\ q = (r + i / w)%Z /\ v = znth f0 vals i.
Proof.
  intros r vals col q v H. unfold lv_block in H. fold w in H. apply in_map_iff in H. destruct H as [i [E Hi]]. apply in_zseq in Hi.
  exists i. split; [lia|]. pose proof (f_equal (fun z => fst (fst z)) E) as E1. pose proof (f_equal (fun z => snd (fst z)) E) as E2.
  pose proof (f_equal snd E) as E3. cbn [fst snd] in E1, E2, E3. auto.
Qed.

Lemma lk_gm_range : (row <= lp_gm p < row + lv_rows w sh)%Z.
Proof.
  destruct lk_rows_rest as [R1 [R2 [R3 [R4 [R5 [R6 [R7 R8]]]]]]]. pose proof lk_pos as [N1 N2].
  pose proof lk_rows as EN. fold p in EN.
  pose proof lk_valid as VB. apply sts_valid_app in VB. destruct VB as [VB1 _].
  pose proof (sts_rows_nonneg c _ row _ _ Hw VB1) as NS. fold w in NS. rewrite lk_stages1_rows in NS.
  pose proof (f1_rows_ge w ng) as G2. pose proof (f1_rows_ge w nv) as G3.
  assert (0 <= 4 / w)%Z by (apply Z.div_pos; unfold w; lia). assert (0 <= 5 / w)%Z by (apply Z.div_pos; unfold w; lia).
  assert (G4 : (1 <= f3_rows w (nv + ng - 1))%Z).
  { rewrite f3_rows_eq by (unfold w; lia). assert (0 <= (4 * (nv + ng - 1) - 1) / w)%Z by (apply Z.div_pos; unfold w; lia). lia. }
  lia.
Qed.

Lemma lk_complete : forall T, wf_comp c w -> f3_ok w ->
  (f3_rows w (nv + ng - 1) = 1%Z -> T CWit (W c (w - 1)) (lp_gm p) = f0) ->
  consts_in T (lv_circuit c sh x row) ->
  let T' := lv_assign c sh x row T in
  sat L T' (lv_circuit c sh x row) /\ frame c (lv_rows w sh) row T T'.
Proof.
  intros T Hwf Hok Hz HC T'.
  set (N := lv_rows w sh) in *. assert (EN : (row + N)%Z = lp_end p) by apply lk_rows.
  destruct lk_rows_rest as [R1 [R2 [R3 [R4 [R5 [R6 [R7 R8]]]]]]]. destruct zlen_s0 as [Z0 [Z1 [Z2 Z3]]]. pose proof lk_pos as [N1 N2].
  assert (D4 : (0 <= 4 / w <= 1)%Z) by (split; [apply Z.div_pos; unfold w; lia|apply Z.div_le_upper_bound; unfold w; lia]).
  assert (D5 : (0 <= 5 / w <= 1)%Z) by (split; [apply Z.div_pos; unfold w; lia|apply Z.lt_succ_r; apply Z.div_lt_upper_bound; unfold w; lia]).
  pose proof lk_valid as VA. fold N in VA. pose proof VA as VB. apply sts_valid_app in VB. destruct VB as [VB1 VB2].
  fold w in VB2. rewrite lk_stages1_rows in VB2. replace (row + 2 + (lp_g1 p - (row + 2)))%Z with (lp_g1 p) in VB2 by lia.
  rewrite lk_stages2_eq in VA, VB2.
  pose proof (sts_rows_nonneg c N row _ _ Hw VB1) as NS. fold w in NS. rewrite lk_stages1_rows in NS.
  pose proof (f1_rows_ge w ng) as G2. pose proof (f1_rows_ge w nv) as G3.
  assert (G4 : (1 <= f3_rows w (nv + ng - 1))%Z).
  { rewrite f3_rows_eq by (unfold w; lia). assert (0 <= (4 * (nv + ng - 1) - 1) / w)%Z by (apply Z.div_pos; unfold w; lia). lia. }
  (* the whole run of stages *)
  assert (SR : sts_rows w (lv_stages1 c sh x tabs gates row ++
      [ SF1 (lv_beta x) (lv_gamma x) lk_gv lk_gv; SF1 (lv_beta x) (lv_gamma x) (map fst lk_tv) (map snd lk_tv);
        SMul (f1_out c ng (lp_g1 p)) (f1_out c nv (lp_g2 p)) ]) = (lp_f3 p - (row + 2))%Z).
  { rewrite sts_rows_app, lk_stages1_rows. cbn [sts_rows st_rows]. rewrite zlen_map, lk_gv_len, lk_tv_len. lia. }
  destruct (sts_complete P L c w N row _ (row + 2)%Z (lk_T1 T) Hwf Hw VA ltac:(lia) ltac:(rewrite SR; lia)) as [S7 F17].
  rewrite SR in F17. rewrite sts_assign_app in S7, F17. fold (lk_T4 T) in S7, F17. fold w in S7, F17. rewrite lk_stages1_rows in S7, F17.
  replace (row + 2 + (lp_g1 p - (row + 2)))%Z with (lp_g1 p) in S7, F17 by lia.
  assert (E7 : sts_assign c [ SF1 (lv_beta x) (lv_gamma x) lk_gv lk_gv; SF1 (lv_beta x) (lv_gamma x) (map fst lk_tv) (map snd lk_tv);
        SMul (f1_out c ng (lp_g1 p)) (f1_out c nv (lp_g2 p)) ] (lp_g1 p) (lk_T4 T) = lk_T7 T).
  { cbn [sts_assign st_assign st_rows]. fold w. rewrite zlen_map, lk_gv_len, lk_tv_len, <- R2, <- R3. reflexivity. }
  rewrite E7 in S7, F17.
  (* frames of the last stages *)
  cbn [sts_valid st_rows] in VB2. fold w in VB2. rewrite zlen_map, lk_gv_len, lk_tv_len, <- R2, <- R3 in VB2.
  destruct VB2 as [K1 [K2 [K3 [K4 [K5 [K6 _]]]]]].
  destruct (st_complete P L c w (SF1 (lv_beta x) (lv_gamma x) lk_gv lk_gv) (lp_g1 p) (lk_T4 T) Hwf Hw K1) as [_ F45].
  { intros v Hv. cbn [st_rows]. rewrite lk_gv_len. apply (prior_outside c N row); [apply K2; exact Hv|lia|lia]. }
  destruct (st_complete P L c w (SF1 (lv_beta x) (lv_gamma x) (map fst lk_tv) (map snd lk_tv)) (lp_g2 p) (lk_T5 T) Hwf Hw K3) as [_ F56].
  { intros v Hv. cbn [st_rows]. rewrite zlen_map, lk_tv_len. apply (prior_outside c N row); [apply K4; exact Hv|lia|lia]. }
  cbn [st_rows st_assign] in F45, F56. rewrite zlen_map, lk_tv_len in F56. rewrite lk_gv_len in F45. fold (lk_T5 T) in F45. fold (lk_T6 T) in F56.
  destruct (mul_complete P L (lk_T6 T) c w (f1_out c ng (lp_g1 p)) (f1_out c nv (lp_g2 p)) (lp_gm p) Hwf ltac:(unfold w; lia)) as [_ [F67 O7]].
  { apply (prior_outside c N row); [apply K6; left; reflexivity|lia|lia]. }
  { apply (prior_outside c N row); [apply K6; right; left; reflexivity|lia|lia]. }
  fold (lk_T7 T) in F67, O7.
  (* the sum loop *)
  assert (Z7 : f3_rows w (nv + ng - 1) = 1%Z -> lk_T7 T CWit (W c (w - 1)) (lp_f3 p - 1)%Z = f0).
  { intros E1. rewrite <- (Hz E1). replace (lp_f3 p - 1)%Z with (lp_gm p) by lia.
    transitivity (lk_T6 T CWit (W c (w - 1)) (lp_gm p)).
    - unfold lk_T7, multiplication_assign. cbv zeta. rewrite !wset_other; try reflexivity; right; left; apply (W_neq c w _ _ Hwf); unfold w; lia.
    - transitivity (lk_T5 T CWit (W c (w - 1)) (lp_gm p)); [apply F56; intros [_ [_ X]]; lia|].
      transitivity (lk_T4 T CWit (W c (w - 1)) (lp_gm p)); [apply F45; intros [_ [_ X]]; lia|].
      destruct (sts_complete P L c w N row _ (row + 2)%Z (lk_T1 T) Hwf Hw VB1 ltac:(lia) ltac:(rewrite lk_stages1_rows; lia)) as [_ F14].
      rewrite lk_stages1_rows in F14. fold (lk_T4 T) in F14.
      transitivity (lk_T1 T CWit (W c (w - 1)) (lp_gm p)); [apply F14; intros [_ [_ X]]; lia|].
      unfold lk_T1. apply wsets_other. intros v Hv. cbn [In] in Hv.
      repeat (destruct Hv as [Hv|Hv]; [apply (f_equal (fun z => snd (fst z))) in Hv; cbn [fst snd] in Hv; lia|]). exact Hv. }
  assert (OV : forall v, In v lv_vars -> outside c N row v) by exact HO.
  assert (EA : zlen (lv_alphas x) = (nv + ng - 1)%Z) by (destruct HZ as [_ [_ [_ [_ [_ E]]]]]; exact E).
  assert (OA : forall v, In v (lv_alphas x) -> outside c N row v).
  { intros v Hv. apply OV. unfold lv_vars. rewrite !in_app_iff. tauto. }
  assert (OS0 : forall v, In v (tl (lv_s0 x)) -> outside c N row v).
  { intros v Hv. apply lk_in_s. left. apply in_tl. exact Hv. }
  assert (OS2 : forall v, In v (lv_s2 x) -> outside c N row v).
  { intros v Hv. apply lk_in_s. right. right. exact Hv. }
  assert (SUB : forall v n r, outside c N row v -> (row <= r)%Z -> (r + n <= row + N)%Z -> outside c n r v).
  { intros v n r Hv H1 H2. eapply outside_sub; [| |exact Hv]; lia. }
  destruct (f3_complete_l P L (lk_T7 T) c w (lv_alphas x) (tl (lv_s0 x)) (lv_s2 x) (lp_f3 p) Hwf Hw Hok ltac:(lia) ltac:(lia) ltac:(lia)) as [S8 [F78 _]].
  { rewrite Z3. intros v Hv. apply SUB; [apply OA; exact Hv|lia|lia]. }
  { rewrite Z3. intros v Hv. apply SUB; [apply OS0; exact Hv|lia|lia]. }
  { rewrite Z3. intros v Hv. apply SUB; [apply OS2; exact Hv|lia|lia]. }
  { rewrite Z3. exact Z7. }
  rewrite Z3 in F78. fold (lk_T8 T) in S8, F78.
  assert (O3 : exists j r', f3_out c (nv + ng - 1) (lp_f3 p) = wcell (W c j) r' /\ (lp_f3 p <= r' < lp_fm p)%Z).
  { unfold f3_out. cbv zeta. fold w. eexists _, _. split; [reflexivity|]. lia. }
  destruct O3 as [j3 [r3 [O3 O3r]]].
  assert (OL0 : outside c N row (lv_l0 x)) by (apply OV; unfold lv_vars; apply in_or_app; left; cbn [In]; tauto).
  destruct (mul_complete P L (lk_T8 T) c w (f3_out c (nv + ng - 1) (lp_f3 p)) (lv_l0 x) (lp_fm p) Hwf ltac:(unfold w; lia)) as [S9 [F89 _]].
  { rewrite O3. apply (prior_outside c N row (lp_fm p)); [apply prior_cell; lia|lia|lia]. }
  { apply SUB; [exact OL0|lia|lia]. }
  fold (lk_T9 T) in S9, F89.
  (* the last blocks *)
  destruct (lk_blocks_len T) as [BLA BLB].
  assert (FB : frame c (4 / w + 1 + 5 / w + 1) (lp_a p) (lk_T9 T) T').
  { unfold T'. rewrite lk_assign. apply (wsets_frame P c w); [exact Hwf|]. intros col q v H. apply in_app_iff in H.
    destruct H as [H|H]; apply lv_block_in in H; destruct H as [i [Hi [-> [-> _]]]]; (split; [eexists; reflexivity|]);
      rewrite ?BLA, ?BLB in Hi.
    - assert (0 <= i / w)%Z by (apply Z.div_pos; unfold w; lia). assert (i / w <= 4 / w)%Z by (apply Z.div_le_mono; unfold w; lia). lia.
    - assert (0 <= i / w)%Z by (apply Z.div_pos; unfold w; lia). assert (i / w <= 5 / w)%Z by (apply Z.div_le_mono; unfold w; lia). lia. }
  assert (BD : forall i k, (0 <= i <= 4)%Z -> (0 <= k <= 5)%Z -> (lp_a p + i / w < lp_b p + k / w)%Z).
  { intros i k Hi Hk. assert (0 <= k / w)%Z by (apply Z.div_pos; unfold w; lia). assert (i / w <= 4 / w)%Z by (apply Z.div_le_mono; unfold w; lia). lia. }
  assert (INJ : forall i k, (W c (i mod w) = W c (k mod w) -> i / w = k / w -> i = k)%Z).
  { intros i k E1 E2. apply (W_inj c w _ _ Hwf) in E1; [|apply Z.mod_pos_bound; unfold w; lia|apply Z.mod_pos_bound; unfold w; lia].
    rewrite (Z.div_mod i w), (Z.div_mod k w) by (unfold w; lia). rewrite E1, E2. reflexivity. }
  assert (BA : forall i, (0 <= i <= 4)%Z -> T' CWit (W c (i mod w)) (lp_a p + i / w)%Z = znth f0 (lk_blockA T) i).
  { intros i Hi. unfold T'. rewrite lk_assign. apply wsets_read.
    - apply in_or_app. left. unfold lv_block. fold w. apply in_map_iff. exists i. split; [reflexivity|]. apply in_zseq. rewrite BLA. lia.
    - intros v Hv. apply in_app_iff in Hv. destruct Hv as [Hv|Hv]; apply lv_block_in in Hv; destruct Hv as [k [Hk [E1 [E2 ->]]]];
        rewrite ?BLA, ?BLB in Hk.
      + assert (i = k) by (apply INJ; [exact E1|lia]). subst k. reflexivity.
      + pose proof (BD i k Hi ltac:(lia)). lia. }
  assert (BB : forall i, (0 <= i <= 5)%Z -> T' CWit (W c (i mod w)) (lp_b p + i / w)%Z = znth f0 (lk_blockB T) i).
  { intros i Hi. unfold T'. rewrite lk_assign. apply wsets_read.
    - apply in_or_app. right. unfold lv_block. fold w. apply in_map_iff. exists i. split; [reflexivity|]. apply in_zseq. rewrite BLB. lia.
    - intros v Hv. apply in_app_iff in Hv. destruct Hv as [Hv|Hv]; apply lv_block_in in Hv; destruct Hv as [k [Hk [E1 [E2 ->]]]];
        rewrite ?BLA, ?BLB in Hk.
      + pose proof (BD k i ltac:(lia) Hi). lia.
      + assert (i = k) by (apply INJ; [exact E1|lia]). subst k. reflexivity. }
  (* frames to the end *)
  assert (FT : forall T2 r, frame c (lp_end p - r) r T2 T' -> forall v, var_reads (fun ty col q => ~ in_area c (lp_end p - r) r ty col q) v -> vval T' v = vval T2 v).
  { intros T2 r HF v Hv. unfold vval. apply HF. exact Hv. }
  assert (F9 : frame c (lp_end p - lp_a p) (lp_a p) (lk_T9 T) T') by (eapply frame_sub; [| |exact FB]; lia).
  assert (F8 : frame c (lp_end p - lp_fm p) (lp_fm p) (lk_T8 T) T').
  { apply (frame_trans P c _ _ (lk_T8 T) (lk_T9 T) T'); (eapply frame_sub; [| |eassumption]); lia. }
  assert (F7 : frame c (lp_end p - lp_f3 p) (lp_f3 p) (lk_T7 T) T').
  { apply (frame_trans P c _ _ (lk_T7 T) (lk_T8 T) T'); (eapply frame_sub; [| |eassumption]); lia. }
  assert (F6 : frame c (lp_end p - lp_gm p) (lp_gm p) (lk_T6 T) T').
  { apply (frame_trans P c _ _ (lk_T6 T) (lk_T7 T) T'); (eapply frame_sub; [| |eassumption]); lia. }
  assert (F5 : frame c (lp_end p - lp_g2 p) (lp_g2 p) (lk_T5 T) T').
  { apply (frame_trans P c _ _ (lk_T5 T) (lk_T6 T) T'); (eapply frame_sub; [| |eassumption]); lia. }
  assert (F4 : frame c (lp_end p - lp_g1 p) (lp_g1 p) (lk_T4 T) T').
  { apply (frame_trans P c _ _ (lk_T4 T) (lk_T5 T) T'); (eapply frame_sub; [| |eassumption]); lia. }
  assert (FR1 : frame c (lp_end p - (row + 2)) (row + 2) (lk_T1 T) T').
  { apply (frame_trans P c _ _ (lk_T1 T) (lk_T7 T) T'); (eapply frame_sub; [| |eassumption]); lia. }
  assert (F01 : frame c 2 row T (lk_T1 T)).
  { unfold lk_T1. apply (wsets_frame P c w); [exact Hwf|]. intros col q v Hv. cbn [In] in Hv.
    repeat (destruct Hv as [Hv|Hv]; [pose proof (f_equal (fun z => fst (fst z)) Hv) as E1; pose proof (f_equal (fun z => snd (fst z)) Hv) as E2;
      cbn [fst snd] in E1, E2; split; [eexists; symmetry; exact E1|lia]|]). destruct Hv. }
  assert (F0 : frame c N row T T').
  { apply (frame_trans P c N row T (lk_T1 T) T'); (eapply frame_sub; [| |eassumption]); lia. }
  split; [|exact F0].
  assert (VV : forall v, In v lv_vars -> vval T' v = vval T v).
  { intros v Hv. apply (vval_frame P c N row T T'); [exact F0|apply OV; exact Hv]. }
  assert (VH : forall v, In v [ lv_theta x; lv_beta x; lv_gamma x; lv_v x; lv_vs x; lv_ql x; lv_qls x; lv_qb x; lv_qbs x; lv_l0 x ] -> vval T' v = vval T v).
  { intros v Hv. apply VV. unfold lv_vars. apply in_or_app. left. exact Hv. }
  rewrite lk_circuit. rewrite !sat_app. split; [|split; [|split; [|split]]].
  - (* constants *)
    pose proof (consts_in_frame P c N row T T' _ F0 HC) as HC'. intros cm Hcm. unfold lv_consts in Hcm.
    apply in_map_iff in Hcm. destruct Hcm as [i [<- Hi]]. cbn [holds]. apply HC'. unfold lv_circuit. cbv zeta. apply in_or_app. left.
    unfold lv_consts. apply in_map_iff. exists i. split; [reflexivity|exact Hi].
  - rewrite lk_stages2_eq. apply (sat_frame P L c _ _ (lk_T7 T) T' _ F7); [|exact S7].
    apply (sts_reads P _ c N row _ (row + 2)%Z Hw VA); [lia| |].
    + intros j r Hr [_ [_ X]]. unfold w in SR; rewrite SR in Hr. lia.
    + intros v Hv. apply SUB; [exact Hv|lia|lia].
  - apply (sat_frame P L c _ _ (lk_T8 T) T' _ F8); [|exact S8]. apply f3_reads; [exact Hw|exact Hok|lia|lia|lia| | | | |].
    + intros j r Hr [_ [_ X]]. rewrite Z3 in Hr. fold w in Hr. lia.
    + intros [_ [_ X]]. lia.
    + intros v Hv. apply SUB; [apply OA; exact Hv|lia|lia].
    + intros v Hv. apply SUB; [apply OS0; exact Hv|lia|lia].
    + intros v Hv. apply SUB; [apply OS2; exact Hv|lia|lia].
  - rewrite lk_k. apply (sat_frame P L c _ _ (lk_T9 T) T' _ F9); [|exact S9]. apply mul_reads.
    + intros j [_ [_ X]]. lia.
    + rewrite O3. intros [_ [_ X]]. unfold wcell in X. cbn [vrot] in X. lia.
    + apply SUB; [exact OL0|lia|lia].
  - rewrite <- sat_app. apply lk_cells_iff. unfold lk_cells. cbv zeta.
    rewrite !BA, !BB by lia.
    assert (M : forall i r, (row <= r < row + 2)%Z -> T' CWit (W c i) r = lk_T1 T CWit (W c i) r).
    { intros i r Hr. apply FR1. intros [_ [_ X]]. lia. }
    rewrite !M by lia.
    assert (WN : forall i j, (0 <= i < 3)%Z -> (0 <= j < 3)%Z -> W c i = W c j -> i = j).
    { intros i j Hi Hj E. apply (W_inj c w _ _ Hwf) in E; [exact E|unfold w; lia|unfold w; lia]. }
    assert (MR : forall i r v, In (i, r, v) [ (0%Z, row, vval T (lv_ql x)); (1%Z, row, vval T (lv_qb x)); (2%Z, row, f1 - (vval T (lv_ql x) + vval T (lv_qb x)));
            (0%Z, (row + 1)%Z, vval T (lv_qls x)); (1%Z, (row + 1)%Z, vval T (lv_qbs x));
            (2%Z, (row + 1)%Z, f1 - (vval T (lv_qls x) + vval T (lv_qbs x))) ] -> lk_T1 T CWit (W c i) r = v).
    { intros i r v Hv. unfold lk_T1. apply wsets_read.
      - cbn [In] in *. repeat (destruct Hv as [Hv|Hv]; [injection Hv as <- <- <-; tauto|]). destruct Hv.
      - intros v' Hv'. cbn [In] in Hv, Hv'.
        repeat (destruct Hv as [Hv|Hv]; [pose proof (f_equal (fun z => fst (fst z)) Hv) as e1; pose proof (f_equal (fun z => snd (fst z)) Hv) as e2;
           pose proof (f_equal snd Hv) as e3; cbn [fst snd] in e1, e2, e3; clear Hv; subst i r v;
           repeat (destruct Hv' as [Hv'|Hv']; [pose proof (f_equal (fun z => fst (fst z)) Hv') as e4; pose proof (f_equal (fun z => snd (fst z)) Hv') as e5;
             pose proof (f_equal snd Hv') as e6; cbn [fst snd] in e4, e5, e6; clear Hv'; try (exfalso; lia); try (symmetry; exact e6);
             (apply WN in e4; [exfalso; lia|lia|lia])|]); destruct Hv'|]). destruct Hv. }
    rewrite !(MR 0%Z row _ (or_introl eq_refl)), !(MR 1%Z row _ (or_intror (or_introl eq_refl))), !(MR 2%Z row _ (or_intror (or_intror (or_introl eq_refl)))).
    rewrite !(MR 0%Z (row + 1)%Z _ (or_intror (or_intror (or_intror (or_introl eq_refl))))),
      !(MR 1%Z (row + 1)%Z _ (or_intror (or_intror (or_intror (or_intror (or_introl eq_refl)))))),
      !(MR 2%Z (row + 1)%Z _ (or_intror (or_intror (or_intror (or_intror (or_intror (or_introl eq_refl))))))).
    rewrite !(VH (lv_ql x)), !(VH (lv_qls x)), !(VH (lv_qb x)), !(VH (lv_qbs x)), !(VH (lv_v x)), !(VH (lv_l0 x)), !(VH (lv_vs x)) by (cbn [In]; tauto).
    unfold lk_blockA, lk_blockB. cbv zeta. cbn [znth Z.to_nat nth].
    assert (HH : vval T' (f1_out c (nv + ng) (lp_h p)) = lk_h T).
    { unfold lk_h. destruct (f1_out_in (nv + ng) (lp_h p)) as [j [r' [-> X]]]. rewrite !vval_wcell. apply F4. intros [_ [_ Y]]. lia. }
    assert (GG : T' CWit (W c 2) (lp_gm p) = lk_g T).
    { transitivity (lk_T7 T CWit (W c 2) (lp_gm p)); [apply F7; intros [_ [_ Y]]; lia|].
      unfold multiplication_result in O7. rewrite vval_wcell in O7. rewrite O7. unfold lk_g. f_equal.
      destruct (f1_out_in ng (lp_g1 p)) as [j [r' [-> X]]]. rewrite !vval_wcell. apply F56. intros [_ [_ Y]]. lia. }
    rewrite HH, GG. repeat split; try reflexivity; ring.
Qed.

End Input.
End Lookup.
