(** C72, C73: lookup_argument_verifier. *)
From Coq Require Import ZArith List Lia Bool Field.
From Verif Require Import Base Field Plonk PlonkFacts Examples Bits FieldOpsModel FieldOpsProofs FlexModel FlexProofs
  PvModel PvSpec PvTape PvGate PvLoops PvF1 PvF3 PvStage PvLookup PvLookupMain Props_Pv.
Import ListNotations.
Open Scope Z_scope.

(** ** C72 the four terms of the lookup argument *)

(** At four columns, or when the number of columns is not a multiple of four. *)
Theorem lookup_verifier_sound : forall P (L : lenv P) T c sh x tabs gates row,
  lk_inputs sh x tabs gates -> lk_sizes x tabs gates -> 4 <= wamount c -> wamount c = 4 \/ wamount c mod 4 <> 0 ->
  sat L T (lv_circuit c sh x row) ->
  let '(o0, o1, o2, o3) := lv_out c sh row in
  lookup_terms P T x tabs gates (vval T o0) (vval T o1) (vval T o2) (vval T o3).
Proof. intros P L T c sh x tabs gates row HI HZ Hw Ho. exact (lk_sound P L c sh x tabs gates row HI HZ Hw T Ho). Qed.
Print Assumptions lookup_verifier_sound.

Lemma lookup_terms_agree : forall P (T T' : table P) sh x tabs gates o0 o1 o2 o3, lk_inputs sh x tabs gates ->
  (forall v, In v (lv_vars x) -> vval T' v = vval T v) ->
  lookup_terms P T' x tabs gates o0 o1 o2 o3 -> lookup_terms P T x tabs gates o0 o1 o2 o3.
Proof.
  intros P T T' sh x tabs gates o0 o1 o2 o3 HI HV H. destruct HI as [_ [_ [_ [_ [I1 [I2 [I3 [I4 [I5 [I6 I7]]]]]]]]]].
  assert (HH : forall v, In v [ lv_theta x; lv_beta x; lv_gamma x; lv_v x; lv_vs x; lv_ql x; lv_qls x; lv_qb x; lv_qbs x; lv_l0 x ] -> vval T' v = vval T v).
  { intros v Hv. apply HV. unfold lv_vars. apply in_or_app. left. exact Hv. }
  assert (ES : map (vval T') (lv_sorted x) = map (vval T) (lv_sorted x)).
  { apply map_ext_in. intros v Hv. apply HV. unfold lv_vars. rewrite !in_app_iff. tauto. }
  assert (EA : map (vval T') (lv_alphas x) = map (vval T) (lv_alphas x)).
  { apply map_ext_in. intros v Hv. apply HV. unfold lv_vars. rewrite !in_app_iff. tauto. }
  assert (EG : gates_vals P T' gates = gates_vals P T gates).
  { unfold gates_vals. apply map_ext_in. intros g Hg. f_equal.
    - apply HV. unfold lv_vars. rewrite !in_app_iff. rewrite I1. do 2 right. left. apply in_map. exact Hg.
    - apply map_ext_in. intros k Hk. f_equal.
      + apply HV. unfold lv_vars. rewrite !in_app_iff. rewrite I2. do 3 right. left. apply in_flat_map. exists g. split; [exact Hg|]. apply in_map. exact Hk.
      + apply map_ext_in. intros v Hv. apply HV. unfold lv_vars. rewrite !in_app_iff. rewrite I3. do 4 right. left.
        apply in_flat_map. exists g. split; [exact Hg|]. apply in_flat_map. exists k. split; assumption. }
  assert (ET : tabs_vals P T' tabs = tabs_vals P T tabs).
  { unfold tabs_vals. apply map_ext_in. intros t Ht. f_equal.
    - apply HV. unfold lv_vars. rewrite !in_app_iff. rewrite I4. do 5 right. left. apply in_map. exact Ht.
    - apply map_ext_in. intros k Hk. apply map_ext_in. intros v Hv. apply HV. unfold lv_vars. rewrite !in_app_iff. rewrite I6. do 6 right. left.
      apply in_flat_map. exists t. split; [exact Ht|]. apply in_flat_map. exists k. split; assumption. }
  assert (EU : stabs_vals P T' tabs = stabs_vals P T tabs).
  { unfold stabs_vals. apply map_ext_in. intros t Ht. f_equal.
    - apply HV. unfold lv_vars. rewrite !in_app_iff. rewrite I5. do 7 right. left. apply in_map. exact Ht.
    - apply map_ext_in. intros k Hk. apply map_ext_in. intros v Hv. apply HV. unfold lv_vars. rewrite !in_app_iff. rewrite I7. do 8 right. left.
      apply in_flat_map. exists t. split; [exact Ht|]. apply in_flat_map. exists k. split; assumption. }
  unfold lookup_terms in *. cbv zeta in *. rewrite EG, ET, EU, ES, EA in H.
  rewrite (HH (lv_theta x)), (HH (lv_beta x)), (HH (lv_gamma x)), (HH (lv_v x)), (HH (lv_vs x)), (HH (lv_ql x)), (HH (lv_qls x)),
    (HH (lv_qb x)), (HH (lv_qbs x)), (HH (lv_l0 x)) in H by (cbn [In]; tauto).
  exact H.
Qed.

(** When the sum loop fits one row, the last column must still hold zeros. *)
Theorem lookup_verifier_complete : forall P (L : lenv P) T c w sh x tabs gates row,
  lk_inputs sh x tabs gates -> lk_sizes x tabs gates -> wf_comp c w -> 4 <= w -> w = 4 \/ w mod 4 <> 0 ->
  let n := lv_rows w sh in
  (forall v, In v (lv_vars x) -> outside c n row v) ->
  (4 * (lk_counts tabs gates - 1) <= w -> forall r, row <= r < row + n -> T CWit (W c (w - 1)) r = f0) ->
  consts_in T (lv_circuit c sh x row) ->
  let T' := lv_assign c sh x row T in
  sat L T' (lv_circuit c sh x row) /\ frame c n row T T' /\
  let '(o0, o1, o2, o3) := lv_out c sh row in
  lookup_terms P T x tabs gates (vval T' o0) (vval T' o1) (vval T' o2) (vval T' o3).
Proof.
  intros P L T c w sh x tabs gates row HI HZ Hwf Hw Ho n HO Hz HC T'.
  assert (Ew : w = wamount c) by (destruct Hwf as [_ [<- _]]; reflexivity). subst w.
  destruct (lk_complete P L c sh x tabs gates row HI HZ Hw HO T Hwf Ho) as [S Fr].
  - intros E. apply Hz.
    + rewrite f3_rows_eq in E by (destruct HZ as [_ [_ [A [B _]]]]; lia). unfold lk_counts.
      assert (Hd : (4 * (zlen (flat_map kt_opts tabs) + zlen (flat_map kg_cons gates) - 1) - 1) / wamount c = 0) by lia.
      destruct HZ as [_ [_ [A [B _]]]]. apply Z.div_small_iff in Hd; lia.
    + exact (lk_gm_range P c sh x tabs gates row HI HZ Hw HO).
  - exact HC.
  - split; [exact S|]. split; [exact Fr|].
    pose proof (lookup_verifier_sound P L T' c sh x tabs gates row HI HZ Hw Ho S) as X.
    destruct (lv_out c sh row) as [[[o0 o1] o2] o3]. eapply lookup_terms_agree; [exact HI| |exact X].
    intros v Hv. apply (vval_frame P c n row T T'); [exact Fr|apply HO; exact Hv].
Qed.
Print Assumptions lookup_verifier_complete.

(** Two tables, of one and of two columns, with two options and one; two gates. *)
Definition lkx_tabs : list lk_table :=
  [ mkTab (pin 28) (pin 29) 1 [ ([pin 30], [pin 31]); ([pin 32], [pin 33]) ];
    mkTab (pin 34) (pin 35) 2 [ ([pin 36; pin 37], [pin 38; pin 39]) ] ].
Definition lkx_gates : list lk_gate :=
  [ mkLg (pin 40) [ (pin 41, [pin 42]) ]; mkLg (pin 43) [ (pin 44, [pin 45; pin 46]) ] ].
Definition lkx_sh : lv_shape := mkShape [1; 1] [1; 2] [2; 1] [1; 2].
Definition lkx : lv_in :=
  mkLv (pin 0) (pin 1) (pin 2) (pinl 10 4) (pin 3) (pin 4) (pin 5) (pin 6) (pin 7) (pin 8) (pin 9)
    [pin 40; pin 43] [pin 41; pin 44] [pin 42; pin 45; pin 46] [pin 28; pin 34] [pin 30; pin 32; pin 36; pin 37]
    [pin 29; pin 35] [pin 31; pin 33; pin 38; pin 39] (pinl 14 14).
Definition lkx_tab : table P97 :=
  intab_c P97 [ 2; 3; 5; 7; 11; 4; 6; 8; 9; 10;  1; 2; 3; 4;  1; 2; 3; 4; 5; 6; 7; 8; 9; 10; 21; 22; 23; 24;
    1; 2; 30; 31; 32; 33;  1; 3; 40; 41; 42; 43;  1; 1; 30;  1; 2; 40; 41 ] [1; 2].

Example lookup_verifier_ex : forall w, w = 4 \/ w = 7 ->
  lk_inputs lkx_sh lkx lkx_tabs lkx_gates /\ lk_sizes lkx lkx_tabs lkx_gates /\ wf_comp (std_comp w) w /\ (w = 4 \/ w mod 4 <> 0) /\
  (forall v, In v (lv_vars lkx) -> outside (std_comp w) (lv_rows w lkx_sh) 0 v) /\
  consts_in lkx_tab (lv_circuit (std_comp w) lkx_sh lkx 0) /\
  sat (noL P97) (lv_assign (std_comp w) lkx_sh lkx 0 lkx_tab) (lv_circuit (std_comp w) lkx_sh lkx 0) /\
  let '(o0, o1, o2, o3) := lv_out (std_comp w) lkx_sh 0 in
  let o v := fval (vval (lv_assign (std_comp w) lkx_sh lkx 0 lkx_tab) v) in
  let f s t := 4 * 5 + s + 3 * t in
  o o0 = (1 - 7) * 10 mod 97 /\ o o1 = 4 * (7 * 7 - 7) mod 97 /\
  o o2 = (1 - 12) * (11 * (f 1 6 * f 2 7 * f 3 8 * f 4 9 * f 5 10) -
     7 * (f (1 + 2 * 30) (1 + 2 * 30) * f (2 + 2 * 40 + 4 * 41) (2 + 2 * 40 + 4 * 41) *
      (f (-11 * (1 + 2 * 30)) (-14 * (2 * (1 + 2 * 31))) * f (-11 * (1 + 2 * 32)) (-14 * (2 * (1 + 2 * 33))) *
       f (-11 * (2 + 2 * 40 + 4 * 41)) (-14 * (3 * (2 + 2 * 42 + 4 * 43)))))) mod 97 /\
  o o3 = 10 * (1 * (2 - 21) + 2 * (3 - 22) + 3 * (4 - 23) + 4 * (5 - 24)) mod 97.
Proof.
  intros w Hw. split; [repeat split|].
  split; [|].
  { split; [|split; [|split; [|split; [|split]]]].
    - intros t Ht. cbn [In lkx_tabs] in Ht. repeat (destruct Ht as [<-|Ht]; [split; [cbn [kt_cols]; lia|intros o Hoo; cbn [In kt_opts] in Hoo;
        repeat (destruct Hoo as [<-|Hoo]; [split; reflexivity|]); destruct Hoo]|]). destruct Ht.
    - intros g k Hg Hk. cbn [In lkx_gates] in Hg. repeat (destruct Hg as [<-|Hg]; [cbn [In kg_cons] in Hk;
        repeat (destruct Hk as [<-|Hk]; [vm_compute; discriminate|]); destruct Hk|]). destruct Hg.
    - vm_compute. discriminate.
    - vm_compute. discriminate.
    - vm_compute. reflexivity.
    - vm_compute. reflexivity. }
  assert (HV : forall v, In v (lv_vars lkx) -> outside (std_comp w) (lv_rows w lkx_sh) 0 v).
  { intros v Hv. assert (vty v = CPub) as E.
    { clear - Hv. unfold lv_vars, lkx, pinl in Hv. cbn in Hv. repeat (destruct Hv as [<-|Hv]; [reflexivity|]). destruct Hv. }
    intros [X _]. rewrite E in X. discriminate. }
  destruct Hw as [-> | ->]; (split; [apply wf_std; lia|]); (split; [first [left; reflexivity|right; discriminate]|]);
    (split; [exact HV|]); (split; [apply consts_inb_ok; vm_compute; reflexivity|]);
    (split; [apply satb_sat; vm_compute; reflexivity|]); vm_compute; repeat split.
Qed.

(** ** C73 eight or twelve columns *)

(** Adding the given values to the given witness cells. *)
Fixpoint wadds (T : table P97) (l : list (Z * Z * Z)) : table P97 :=
  match l with [] => T | (c, r, d) :: l' => wadds (wset T c r (fadd (T CWit c r) (ofZ d))) l' end.

(** One table of one column with two options, and one gate. *)
Definition lkr_tabs : list lk_table := [ mkTab (pin 28) (pin 29) 1 [ ([pin 30], [pin 31]); ([pin 32], [pin 33]) ] ].
Definition lkr_gates : list lk_gate := [ mkLg (pin 40) [ (pin 41, [pin 42]) ] ].
Definition lkr_sh : lv_shape := mkShape [1] [1] [2] [1].
Definition lkr : lv_in :=
  mkLv (pin 0) (pin 1) (pin 2) (pinl 10 2) (pin 3) (pin 4) (pin 5) (pin 6) (pin 7) (pin 8) (pin 9)
    [pin 40] [pin 41] [pin 42] [pin 28] [pin 30; pin 32] [pin 29] [pin 31; pin 33] (pinl 14 8).

(** The running sum of the fourth term is not determined by the row before: a
    table with a wrong fourth term is accepted. *)
Theorem lookup_verifier_wide_sound_refuted : forall w, w = 8 \/ w = 12 -> exists T : table P97,
  wf_comp (std_comp w) w /\ lk_inputs lkr_sh lkr lkr_tabs lkr_gates /\ lk_sizes lkr lkr_tabs lkr_gates /\
  sat (noL P97) T (lv_circuit (std_comp w) lkr_sh lkr 0) /\
  let '(o0, o1, o2, o3) := lv_out (std_comp w) lkr_sh 0 in
  ~ lookup_terms P97 T lkr lkr_tabs lkr_gates (vval T o0) (vval T o1) (vval T o2) (vval T o3).
Proof.
  intros w Hw. set (p := lv_plan_run w lkr_sh lkr 0).
  exists (wadds (lv_assign (std_comp w) lkr_sh lkr 0 lkx_tab) [(7, lp_f3 p, 1); (0, lp_fm p, 1); (2, lp_fm p, 10)]).
  split; [destruct Hw as [-> | ->]; apply wf_std; lia|]. split; [repeat split|]. split.
  { split; [|split; [|split; [|split; [|split]]]].
    - intros t [<-|[]]. split; [cbn [kt_cols]; lia|]. intros o [<-|[<-|[]]]; split; reflexivity.
    - intros g k [<-|[]] [<-|[]]. vm_compute. discriminate.
    - vm_compute. discriminate.
    - vm_compute. discriminate.
    - vm_compute. reflexivity.
    - vm_compute. reflexivity. }
  subst p.
  destruct Hw as [-> | ->]; (split; [apply satb_sat; vm_compute; reflexivity|]);
    (match goal with |- context [lv_out ?a ?b ?d] => let o' := eval vm_compute in (lv_out a b d) in change (lv_out a b d) with o' end); cbv beta iota zeta;
    intros [_ [_ [_ H]]]; apply (f_equal fval) in H; vm_compute in H; discriminate.
Qed.
Print Assumptions lookup_verifier_wide_sound_refuted.

(** With at most [w / 4 + 1] values the sum loop is one row, and the verifier is
    accepted only if the last cell of the row before it, which
    generate_assignments never writes, holds 0. *)
Definition lks_tabs : list lk_table := [ mkTab (pin 28) (pin 29) 1 [ ([pin 30], [pin 31]) ] ].
Definition lks_gates : list lk_gate := [ mkLg (pin 40) [ (pin 41, [pin 42]) ] ].
Definition lks_sh : lv_shape := mkShape [1] [1] [1] [1].
Definition lks : lv_in :=
  mkLv (pin 0) (pin 1) (pin 2) [pin 10] (pin 3) (pin 4) (pin 5) (pin 6) (pin 7) (pin 8) (pin 9)
    [pin 40] [pin 41] [pin 42] [pin 28] [pin 30] [pin 29] [pin 31] (pinl 14 5).
Theorem lookup_verifier_single_row_complete_refuted : exists T : table P97,
  wf_comp (std_comp 5) 5 /\ lk_inputs lks_sh lks lks_tabs lks_gates /\ lk_sizes lks lks_tabs lks_gates /\
  (forall v, In v (lv_vars lks) -> outside (std_comp 5) (lv_rows 5 lks_sh) 0 v) /\
  consts_in T (lv_circuit (std_comp 5) lks_sh lks 0) /\
  ~ sat (noL P97) (lv_assign (std_comp 5) lks_sh lks 0 T) (lv_circuit (std_comp 5) lks_sh lks 0).
Proof.
  exists (wset lkx_tab 4 (lp_gm (lv_plan_run 5 lks_sh lks 0)) f1). split; [apply wf_std; lia|].
  split; [repeat split|]. split; [|split; [|split]].
  - split; [|split; [|split; [|split; [|split]]]].
    + intros t [<-|[]]. split; [cbn [kt_cols]; lia|]. intros o [<-|[]]. split; reflexivity.
    + intros g k [<-|[]] [<-|[]]. vm_compute. discriminate.
    + vm_compute. discriminate.
    + vm_compute. discriminate.
    + vm_compute. reflexivity.
    + vm_compute. reflexivity.
  - intros v Hv. assert (vty v = CPub) as E.
    { clear - Hv. unfold lv_vars, lks, pinl in Hv. cbn in Hv. repeat (destruct Hv as [<-|Hv]; [reflexivity|]). destruct Hv. }
    intros [X _]. rewrite E in X. discriminate.
  - apply consts_inb_ok. vm_compute. reflexivity.
  - intros S. unfold lv_circuit in S. cbv zeta in S. rewrite !sat_app in S.
    destruct S as [_ [_ [_ [_ [_ [_ [_ [S _]]]]]]]]. unfold f3_circuit in S.
    match type of S with sat _ ?T0 (map ?f ?l ++ _) =>
      assert (H : holds (noL P97) T0 (enable (f3_gates (std_comp 5)) (lp_f3 (lv_plan_run 5 lks_sh lks 0)) 4));
      [apply S; apply in_or_app; left; apply in_map_iff; exists (4, 0); split; [reflexivity|vm_compute; tauto]|] end.
    unfold enable in H. rewrite holds_gate1 in H. specialize (H _ (or_introl eq_refl)). apply (f_equal fval) in H. vm_compute in H. discriminate.
Qed.
Print Assumptions lookup_verifier_single_row_complete_refuted.
