(** Proofs about from_limbs and to_limbs. *)
From Coq Require Import ZArith List Lia Bool.
From Verif Require Import Base Field Plonk PlonkFacts Bits RangeModel RangeProofs LimbsModel.
Import ListNotations.
Open Scope Z_scope.

Notation B64 := 18446744073709551616.

(** ** Four words of a number below 2^256 *)

Definition word64 (n i : Z) : Z := (n / 2 ^ (64 * i)) mod 2 ^ 64.

Lemma word64_range : forall n i, 0 <= word64 n i < B64.
Proof. intros n i. apply (Z.mod_pos_bound _ B64). lia. Qed.
Lemma word64_land : forall n i, 0 <= i -> Z.land (Z.shiftr n (64 * i)) tl_mask = word64 n i.
Proof.
  intros n i Hi. unfold word64. rewrite Z.shiftr_div_pow2 by lia. change tl_mask with (Z.ones 64). apply Z.land_ones. lia.
Qed.
Lemma word64_eq : forall n, word64 n 0 = n mod B64 /\ word64 n 1 = n / B64 mod B64 /\ word64 n 2 = n / B64 / B64 mod B64 /\ word64 n 3 = n / B64 / B64 / B64 mod B64.
Proof.
  intros n. unfold word64. change (64 * 0) with 0. change (64 * 1) with 64. change (64 * 2) with (64 + 64). change (64 * 3) with (64 + 64 + 64).
  rewrite !Z.pow_add_r by lia. change (2 ^ 64) with B64. rewrite Z.pow_0_r, Z.div_1_r, <- !Z.div_div by lia. auto.
Qed.
Lemma words4 : forall n, 0 <= n < 2 ^ 256 -> n = word64 n 0 + B64 * word64 n 1 + B64 * B64 * word64 n 2 + B64 * B64 * B64 * word64 n 3.
Proof.
  intros n Hn. destruct (word64_eq n) as [-> [-> [-> ->]]]. change (2 ^ 256) with (B64 * B64 * B64 * B64) in Hn.
  pose proof (Z.div_mod n B64 ltac:(lia)). pose proof (Z.mod_pos_bound n B64 ltac:(lia)). set (n1 := n / B64) in *.
  pose proof (Z.div_mod n1 B64 ltac:(lia)). pose proof (Z.mod_pos_bound n1 B64 ltac:(lia)). set (n2 := n1 / B64) in *.
  pose proof (Z.div_mod n2 B64 ltac:(lia)). pose proof (Z.mod_pos_bound n2 B64 ltac:(lia)). set (n3 := n2 / B64) in *.
  rewrite (Z.mod_small n3) by lia. lia.
Qed.
Lemma words_unique : forall n a0 a1 a2 a3, 0 <= a0 < B64 -> 0 <= a1 < B64 -> 0 <= a2 < B64 -> 0 <= a3 < B64 ->
  n = a0 + B64 * a1 + B64 * B64 * a2 + B64 * B64 * B64 * a3 -> word64 n 0 = a0 /\ word64 n 1 = a1 /\ word64 n 2 = a2 /\ word64 n 3 = a3.
Proof.
  intros n a0 a1 a2 a3 H0 H1 H2 H3 E. assert (Hn : 0 <= n < 2 ^ 256) by (change (2 ^ 256) with (B64 * B64 * B64 * B64); lia).
  pose proof (words4 n Hn) as D. pose proof (word64_range n 0). pose proof (word64_range n 1). pose proof (word64_range n 2). pose proof (word64_range n 3).
  lia.
Qed.

(** The sum with carries of two numbers whose sum is below 2^256. *)
Lemma carries : forall v c, 0 <= v < 2 ^ 256 -> 0 <= c < 2 ^ 256 -> v + c < 2 ^ 256 -> exists k0 k1 k2,
  (k0 = 0 \/ k0 = 1) /\ (k1 = 0 \/ k1 = 1) /\ (k2 = 0 \/ k2 = 1) /\
  word64 v 0 + word64 c 0 = word64 (v + c) 0 + B64 * k0 /\ word64 v 1 + word64 c 1 + k0 = word64 (v + c) 1 + B64 * k1 /\
  word64 v 2 + word64 c 2 + k1 = word64 (v + c) 2 + B64 * k2 /\ word64 v 3 + word64 c 3 + k2 = word64 (v + c) 3.
Proof.
  intros v c Hv Hc Hs. pose proof (words4 v Hv) as V. pose proof (words4 c Hc) as D. pose proof (words4 (v + c) ltac:(lia)) as S.
  pose proof (word64_range v 0). pose proof (word64_range v 1). pose proof (word64_range v 2). pose proof (word64_range v 3).
  pose proof (word64_range c 0). pose proof (word64_range c 1). pose proof (word64_range c 2). pose proof (word64_range c 3).
  pose proof (word64_range (v + c) 0). pose proof (word64_range (v + c) 1). pose proof (word64_range (v + c) 2). pose proof (word64_range (v + c) 3).
  set (s3 := word64 (v + c) 3) in *. set (s2 := word64 (v + c) 2) in *. set (s1 := word64 (v + c) 1) in *. set (s0 := word64 (v + c) 0) in *.
  set (c3 := word64 c 3) in *. set (c2 := word64 c 2) in *. set (c1 := word64 c 1) in *. set (c0 := word64 c 0) in *.
  set (v3 := word64 v 3) in *. set (v2 := word64 v 2) in *. set (v1 := word64 v 1) in *. set (v0 := word64 v 0) in *.
  clearbody s0 s1 s2 s3 c0 c1 c2 c3 v0 v1 v2 v3.
  set (k0 := s1 + B64 * s2 + B64 * B64 * s3 - (v1 + c1) - B64 * (v2 + c2) - B64 * B64 * (v3 + c3)).
  set (k1 := s2 + B64 * s3 - (v2 + c2) - B64 * (v3 + c3)). set (k2 := s3 - (v3 + c3)).
  exists k0, k1, k2.
  assert (E0 : v0 + c0 = s0 + B64 * k0) by (unfold k0; lia).
  assert (K0 : k0 = 0 \/ k0 = 1) by lia.
  assert (E1 : v1 + c1 + k0 = s1 + B64 * k1) by (unfold k0, k1; lia).
  assert (K1 : k1 = 0 \/ k1 = 1) by lia.
  assert (E2 : v2 + c2 + k1 = s2 + B64 * k2) by (unfold k1, k2; lia).
  assert (K2 : k2 = 0 \/ k2 = 1) by lia.
  assert (E3 : v3 + c3 + k2 = s3) by (unfold k2; lia).
  auto 10.
Qed.

(** ** The columns of the range check *)

Lemma tl_sub_ws : forall c, wf_comp c 15 -> cWs (tl_sub c) = cWs c.
Proof.
  intros c [_ [H _]]. unfold tl_sub. cbn [cWs]. unfold W, cidx, wamount in *. rewrite H. revert H. generalize (cWs c). intros l H.
  do 15 (destruct l as [|? l]; [discriminate|]). destruct l; [reflexivity|]. exfalso. unfold zlen in H. cbn [length] in H. lia.
Qed.
Lemma tl_sub_W : forall c k, wf_comp c 15 -> W (tl_sub c) k = W c k.
Proof. intros c k wf. unfold W. rewrite tl_sub_ws by exact wf. reflexivity. Qed.
Lemma tl_sub_wf : forall c, wf_comp c 15 -> wf_comp (tl_sub c) 15.
Proof. intros c wf. unfold wf_comp, wamount. rewrite tl_sub_ws by exact wf. exact wf. Qed.
Lemma tl_sub_frame : forall P c n r (T T' : table P), wf_comp c 15 -> frame c n r T T' <-> frame (tl_sub c) n r T T'.
Proof. intros P c n r T T' wf. unfold frame, in_area. rewrite tl_sub_ws by exact wf. reflexivity. Qed.
Lemma tl_rc_is : tl_rc = 4.
Proof. reflexivity. Qed.

Section Limbs.
Variable P : params.
Notation F := (F P).
Notation table := (table P).
Variable L : lenv P.
Add Field Flimbs : (F_field P).

Lemma small0 : forall z, - char P < z < char P -> (ofZ z : F) = f0 -> z = 0.
Proof.
  intros z Hz E. apply (f_equal (@fval P)) in E. unfold f0 in E. rewrite !fval_ofZ in E. rewrite Z.mod_0_l in E by (pose proof (char_ge_2 P); lia).
  pose proof (char_ge_2 P). apply Z.mod_divide in E; [|lia]. destruct E as [q E]. assert (q < 1) by nia. assert (-1 < q) by nia. assert (q = 0) by lia. subst q. lia.
Qed.

(** ** from_limbs *)

Lemma fl_sound : forall c a b row (T : table), sat L T (fl_circuit c a b row) ->
  vval T (fl_out c row) = ofZ (fval (vval T a) + 2 ^ 64 * fval (vval T b)).
Proof.
  intros c a b row T H. unfold fl_circuit in H. rewrite !sat_cons in H. destruct H as [G [A [B _]]].
  specialize (G row (or_introl eq_refl) _ (or_introl eq_refl)). cbn [holds] in A, B.
  rewrite !eval_bin, !eval_evar, eval_ecst, !gval_wv in G. cbn [ebop] in G. rewrite !Z.add_0_r in G.
  rewrite vval_wcell in A, B. rewrite A, B in G. unfold fl_out. rewrite vval_wcell.
  rewrite ofZ_add, ofZ_mul, !ofZ_fval. apply fsub0 in G. rewrite <- G. ring.
Qed.
Lemma fl_complete : forall c a b row (T : table), wf_comp c 3 -> outside c 1 row a -> outside c 1 row b ->
  let T' := fl_assign c a b row T in sat L T' (fl_circuit c a b row) /\ frame c 1 row T T'.
Proof.
  intros c a b row T wf Oa Ob T'.
  assert (Fr : frame c 1 row T T').
  { apply (wsets_frame P c 3); [exact wf|]. intros col r v [E|[E|[E|[]]]]; injection E as <- <- <-; (split; [eauto|lia]). }
  split; [|exact Fr].
  assert (N : forall i j, 0 <= i < 3 -> 0 <= j < 3 -> i <> j -> W c i <> W c j) by (intros i j Hi Hj Hn E; apply Hn, (W_inj c 3); assumption).
  assert (R : forall v k, In (W c k, row, v) [(W c 0, row, vval T a); (W c 1, row, vval T b); (W c 2, row, fadd (fmul (fpow (ofZ 2) 64) (vval T b)) (vval T a))] ->
    0 <= k < 3 -> T' CWit (W c k) row = v).
  { intros v k Hin Hk. apply wsets_read; [exact Hin|]. intros v' Hin'.
    assert (X : k = 0 \/ k = 1 \/ k = 2) by lia.
    pose proof (N 0 1 ltac:(lia) ltac:(lia) ltac:(lia)). pose proof (N 0 2 ltac:(lia) ltac:(lia) ltac:(lia)). pose proof (N 1 2 ltac:(lia) ltac:(lia) ltac:(lia)).
    cbn [In] in Hin, Hin'. destruct X as [->|[->| ->]];
      destruct Hin as [E|[E|[E|[]]]]; destruct Hin' as [E'|[E'|[E'|[]]]]; apply pair_equal_spec in E; destruct E as [E ?]; apply pair_equal_spec in E; destruct E as [? _]; apply pair_equal_spec in E'; destruct E' as [E' ?]; apply pair_equal_spec in E'; destruct E' as [? _]; congruence. }
  assert (R0 := R _ 0 (or_introl eq_refl) ltac:(lia)). assert (R1 := R _ 1 (or_intror (or_introl eq_refl)) ltac:(lia)).
  assert (R2 := R _ 2 (or_intror (or_intror (or_introl eq_refl))) ltac:(lia)).
  unfold fl_circuit. rewrite !sat_cons. split; [|split; [|split; [|apply sat_nil]]].
  - intros r [<-|[]] e [<-|[]]. rewrite !eval_bin, !eval_evar, eval_ecst, !gval_wv. cbn [ebop]. rewrite !Z.add_0_r, R0, R1, R2.
    assert (E : fpow (ofZ 2 : F) 64 = ofZ (2 ^ 64)) by (symmetry; exact (ofZ_pow P 2 64)). rewrite E. ring.
  - cbn [holds]. rewrite vval_wcell, R0. symmetry. apply (vval_frame P c 1 row T T' a Fr Oa).
  - cbn [holds]. rewrite vval_wcell, R1. symmetry. apply (vval_frame P c 1 row T T' b Fr Ob).
Qed.

(** ** to_limbs *)

Hypothesis big : 2 ^ 66 < char P <= 2 ^ 256.
Variable c : comp.
Hypothesis wf : wf_comp c 15.
Hypothesis ccol : C c 0 = 0.
Variable x : var.
Variable row : Z.

Lemma c_range : 0 <= tl_c P < 2 ^ 256.
Proof. unfold tl_c. change (Z.shiftl 1 256) with (2 ^ 256). lia. Qed.
Lemma cc_word : forall i, 0 <= i -> tl_cc P i = word64 (tl_c P) i.
Proof. intros i Hi. apply word64_land, Hi. Qed.

Ltac norm Ew H := repeat first [rewrite eval_bin in H | rewrite eval_evar in H | rewrite eval_ecst in H | rewrite gval_wv in H]; cbn [ebop] in H;
  rewrite ?Z.add_0_r in H; repeat rewrite Ew in H; repeat first [rewrite <- ofZ_mul in H | rewrite <- ofZ_add in H | rewrite <- ofZ_sub in H].

Lemma tl_sound : forall T : table, sat L T (tl_circuit c x row) ->
  forall i, 0 <= i < 4 -> fval (vval T (tl_out c row i)) = word64 (fval (vval T x)) i.
Proof.
  intros T H. unfold tl_circuit in H. rewrite sat_cons, sat_app, sat_cons in H. destruct H as [G [R [X _]]].
  specialize (G row (or_introl eq_refl)). cbn [holds] in X. rewrite vval_wcell in X.
  assert (B : forall k, 0 <= k < 8 -> fval (vval T (tl_var c row k)) < B64).
  { intros k Hk. apply (rc_sound_small P L T (tl_sub c) 15 64 _ (tl_rc_row row k)); [apply (tl_sub_wf c wf)|lia|lia|exact ccol|change (2 ^ 64) with B64; change (2 ^ 66) with (4 * B64) in big; lia|].
    intros g Hg. apply R. apply in_flat_map. exists k. split; [apply in_zseq; exact Hk|exact Hg]. }
  set (w := fun k => fval (T CWit (W c k) row)).
  assert (Bw : forall k, 1 <= k <= 8 -> 0 <= w k < B64).
  { intros k Hk. split; [apply fval_range|].
    assert (Hc : k = 1 \/ k = 2 \/ k = 3 \/ k = 4 \/ k = 5 \/ k = 6 \/ k = 7 \/ k = 8) by lia.
    destruct Hc as [->|[->|[->|[->|[->|[->|[->| ->]]]]]]];
      [exact (B 0 ltac:(lia))|exact (B 2 ltac:(lia))|exact (B 4 ltac:(lia))|exact (B 6 ltac:(lia))|exact (B 1 ltac:(lia))|exact (B 3 ltac:(lia))|exact (B 5 ltac:(lia))|exact (B 7 ltac:(lia))]. }
  assert (Ew : forall k, T CWit (W c k) row = ofZ (w k)) by (intros k; symmetry; apply ofZ_fval).
  assert (Bit : forall k, (forall e, e = (EBin OMul (evar (wv (W c k) 0)) (EBin OSub (evar (wv (W c k) 0)) (ecst (ofZ 1)))) -> eval T row e = f0) -> w k = 0 \/ w k = 1).
  { intros k E. specialize (E _ eq_refl). rewrite !eval_bin, !eval_evar, eval_ecst, !gval_wv in E. cbn [ebop] in E. rewrite Z.add_0_r in E.
    unfold w. destruct (fbool_cases _ _ E) as [-> | ->]; unfold f0, f1; rewrite fval_ofZ_small by (pose proof (char_ge_2 P); lia); auto. }
  assert (K9 : w 9 = 0 \/ w 9 = 1) by (apply Bit; intros e ->; apply G; unfold tl_gate; cbn; tauto).
  assert (K10 : w 10 = 0 \/ w 10 = 1) by (apply Bit; intros e ->; apply G; unfold tl_gate; cbn; tauto).
  assert (K11 : w 11 = 0 \/ w 11 = 1) by (apply Bit; intros e ->; apply G; unfold tl_gate; cbn; tauto).
  clear Bit. unfold tl_gate in G. cbv zeta in G.
  assert (G1 := G _ (or_introl eq_refl)). assert (G2 := G _ (or_intror (or_introl eq_refl))). assert (G3 := G _ (or_intror (or_intror (or_introl eq_refl)))).
  assert (G4 := G _ (or_intror (or_intror (or_intror (or_introl eq_refl))))). assert (G5 := G _ (or_intror (or_intror (or_intror (or_intror (or_introl eq_refl)))))).
  clear G. norm Ew G1. norm Ew G2. norm Ew G3. norm Ew G4. norm Ew G5.
  rewrite !cc_word in G2, G3, G4, G5 by lia.
  change (Z.shiftl 1 64) with B64 in *. change (2 ^ 66) with (4 * B64) in big.
  pose proof (word64_range (tl_c P) 0). pose proof (word64_range (tl_c P) 1). pose proof (word64_range (tl_c P) 2). pose proof (word64_range (tl_c P) 3).
  pose proof (Bw 1 ltac:(lia)). pose proof (Bw 2 ltac:(lia)). pose proof (Bw 3 ltac:(lia)). pose proof (Bw 4 ltac:(lia)).
  pose proof (Bw 5 ltac:(lia)). pose proof (Bw 6 ltac:(lia)). pose proof (Bw 7 ltac:(lia)). pose proof (Bw 8 ltac:(lia)).
  apply small0 in G2; [|lia]. apply small0 in G3; [|lia]. apply small0 in G4; [|lia]. apply small0 in G5; [|lia].
  pose proof (words4 _ c_range) as D. assert (Dc : tl_c P = B64 * B64 * B64 * B64 - char P) by reflexivity.
  set (v := w 1 + B64 * w 2 + B64 * B64 * w 3 + B64 * B64 * B64 * w 4).
  assert (Hv : 0 <= v < char P) by (unfold v; lia).
  assert (Vx : fval (vval T x) = v).
  { rewrite <- X, Ew. rewrite <- (fval_ofZ_small P v Hv). f_equal. symmetry. apply fsub_eq0. rewrite <- ofZ_sub. rewrite <- G1. f_equal. unfold v.
    change (2 ^ 64) with B64. change (2 ^ 128) with (B64 * B64). change (2 ^ 192) with (B64 * B64 * B64). ring. }
  rewrite Vx. destruct (words_unique v (w 1) (w 2) (w 3) (w 4)) as [W0 [W1 [W2 W3]]]; auto.
  intros i Hi. assert (Hc : i = 0 \/ i = 1 \/ i = 2 \/ i = 3) by lia.
  destruct Hc as [->|[->|[->| ->]]]; [rewrite W0|rewrite W1|rewrite W2|rewrite W3]; reflexivity.
Qed.

(** The assigned cells. *)
Lemma carry_is : forall b k, k = 0 \/ k = 1 -> tl_carry P (b + B64 * k) b = ofZ k.
Proof.
  intros b k [-> | ->]; unfold tl_carry.
  - rewrite (proj2 (Z.ltb_ge b (b + B64 * 0))) by lia. replace (b - (b + B64 * 0)) with 0 by lia. rewrite Z.shiftr_0_l, Z.sub_0_r.
    apply F_ext. rewrite !fval_ofZ. rewrite Z.mod_same, Z.mod_0_l by (pose proof (char_ge_2 P); lia). reflexivity.
  - rewrite (proj2 (Z.ltb_lt b (b + B64 * 1))) by lia. replace (b + B64 * 1 - b) with B64 by lia. reflexivity.
Qed.
Lemma cells_are : forall v, 0 <= v < char P -> exists k0 k1 k2,
  (k0 = 0 \/ k0 = 1) /\ (k1 = 0 \/ k1 = 1) /\ (k2 = 0 \/ k2 = 1) /\ let b := v + tl_c P in let c := tl_c P in
  word64 v 0 + word64 c 0 = word64 b 0 + B64 * k0 /\ word64 v 1 + word64 c 1 + k0 = word64 b 1 + B64 * k1 /\
  word64 v 2 + word64 c 2 + k1 = word64 b 2 + B64 * k2 /\ word64 v 3 + word64 c 3 + k2 = word64 b 3 /\
  tl_cells P v = map (fun z => ofZ z : F) [v; word64 v 0; word64 v 1; word64 v 2; word64 v 3; word64 b 0; word64 b 1; word64 b 2; word64 b 3; k0; k1; k2].
Proof.
  intros v Hv. pose proof c_range as Hc. assert (Dc : tl_c P = 2 ^ 256 - char P) by reflexivity.
  destruct (carries v (tl_c P)) as [k0 [k1 [k2 [K0 [K1 [K2 [E0 [E1 [E2 E3]]]]]]]]]; [lia|exact Hc|lia|].
  exists k0, k1, k2. split; [exact K0|]. split; [exact K1|]. split; [exact K2|]. intros b cc.
  split; [exact E0|]. split; [exact E1|]. split; [exact E2|]. split; [exact E3|].
  assert (Sm : forall z, 0 <= z < B64 -> fval (ofZ z : F) = z) by (intros z Hz; apply fval_ofZ_small; change (2 ^ 66) with (4 * B64) in big; lia).
  destruct (word64_eq v) as [V0 [V1 [V2 V3]]].
  pose proof (Z.div_mod v B64 ltac:(lia)) as D0. pose proof (Z.div_mod (v / B64) B64 ltac:(lia)) as D1. pose proof (Z.div_mod (v / B64 / B64) B64 ltac:(lia)) as D2.
  unfold tl_cells. cbv zeta. rewrite !cc_word by lia. rewrite !word64_land by lia. rewrite !Z.shiftl_mul_pow2, !Z.shiftr_div_pow2 by lia.
  change (2 ^ 64) with B64. rewrite !Z.div_mul by lia.
  replace (v - v / B64 * B64) with (word64 v 0) by lia. replace (v / B64 - v / B64 / B64 * B64) with (word64 v 1) by lia.
  replace (v / B64 / B64 - v / B64 / B64 / B64 * B64) with (word64 v 2) by lia.
  assert (X3 : v / B64 / B64 / B64 = word64 v 3).
  { rewrite V3. symmetry. apply Z.mod_small. rewrite !Z.div_div by lia. split; [apply Z.div_pos; lia|]. apply Z.div_lt_upper_bound; [lia|].
    change (B64 * (B64 * B64) * B64) with (2 ^ 256). lia. }
  rewrite X3. cbn [map]. rewrite (Sm (word64 v 0)), (Sm (word64 v 1)), (Sm (word64 v 2)) by apply word64_range.
  fold b cc. fold b cc in E0. rewrite E0, (carry_is _ k0 K0). rewrite (Sm k0) by lia. replace (word64 v 1 + k0 + word64 cc 1) with (word64 b 1 + B64 * k1) by (unfold b, cc; lia).
  rewrite (carry_is _ k1 K1), (Sm k1) by lia. replace (word64 v 2 + k1 + word64 cc 2) with (word64 b 2 + B64 * k2) by (unfold b, cc; lia).
  rewrite (carry_is _ k2 K2). reflexivity.
Qed.

Variable T : table.
Hypothesis Ox : outside c tl_rows row x.
Hypothesis K : consts_in T (tl_circuit c x row).
Let v := fval (vval T x).
Let T1 := wsets T (map (fun k => (W c k, row, znth f0 (tl_cells P v) k)) (zseq 0 12)).
Let T' := tl_assign c x row T.

Lemma T1_frame : frame c 1 row T T1.
Proof.
  apply (wsets_frame P c 15); [exact wf|]. intros col r u H. apply in_map_iff in H. destruct H as [k [E _]].
  apply pair_equal_spec in E. destruct E as [E _]. apply pair_equal_spec in E. destruct E as [<- <-]. split; [eauto|lia].
Qed.
Lemma T1_at : forall k, 0 <= k < 12 -> T1 CWit (W c k) row = znth f0 (tl_cells P v) k.
Proof.
  intros k Hk. apply wsets_read.
  - apply in_map_iff. exists k. split; [reflexivity|apply in_zseq; exact Hk].
  - intros u H. apply in_map_iff in H. destruct H as [j [E Hj]]. apply in_zseq in Hj.
    apply pair_equal_spec in E. destruct E as [E <-]. apply pair_equal_spec in E. destruct E as [E _].
    apply (W_inj c 15) in E; [subst j; reflexivity|exact wf|lia|lia].
Qed.
Lemma steps : frame c (8 * 4) (row + 1) T1 T' /\
  forall k, 0 <= k < 8 -> rc_filled P T' (tl_sub c) 15 64 (fval (vval T1 (tl_var c row k))) (row + 1 + k * 4).
Proof.
  unfold T', tl_assign. fold v. fold T1.
  apply (fold_zseq_inv table (fun m U => frame c (m * 4) (row + 1) T1 U /\
    forall k, 0 <= k < m -> rc_filled P U (tl_sub c) 15 64 (fval (vval T1 (tl_var c row k))) (row + 1 + k * 4))); [lia| |].
  - split; [intros ty col r _; reflexivity|lia].
  - intros m U Hm [Fr Fi]. unfold tl_rc_row. rewrite tl_rc_is.
    assert (A : frame (tl_sub c) 4 (row + 1 + m * 4) U (rc_assign (tl_sub c) 64 (tl_var c row m) (row + 1 + m * 4) U))
      by (apply (rc_assign_frame P U (tl_sub c) 15 64); [apply tl_sub_wf, wf|lia|lia]).
    assert (A' := proj2 (tl_sub_frame P c 4 _ _ _ wf) A).
    split; [eapply frame_trans; [eapply frame_sub; [| |exact Fr]; lia|eapply frame_sub; [| |exact A']; lia]|].
    intros k Hk. destruct (Z.eq_dec k m) as [->|Nk].
    + assert (E : vval U (tl_var c row m) = vval T1 (tl_var c row m)).
      { apply (vval_frame P c (m * 4) (row + 1) T1 U _ Fr). intros [_ [_ X]]. unfold tl_var, wcell in X. cbn [vrot] in X. lia. }
      rewrite <- E. apply rc_assign_filled; [apply tl_sub_wf, wf|lia|lia].
    + eapply rc_filled_frame; [exact A|lia|lia|left; change (rc_rows 15 64) with 4; lia|]. apply Fi. lia.
Qed.
Lemma T'_frame : frame c tl_rows row T T'.
Proof.
  change tl_rows with 33. eapply frame_trans; [eapply frame_sub; [| |exact T1_frame]; lia|].
  eapply frame_sub; [| |exact (proj1 steps)]; lia.
Qed.
Lemma T'_low : forall ty k, T' ty k row = T1 ty k row.
Proof. intros ty k. apply (proj1 steps). intros [_ [_ X]]. lia. Qed.
Lemma tl_const : forall k, 0 <= k < 8 -> T' CConst 0 (row + 1 + k * 4) = f0.
Proof.
  intros k Hk. rewrite T'_frame by (intros [X _]; discriminate).
  apply (rc_const_in P T (tl_sub c) 64 (tl_var c row k) (row + 1 + k * 4)); [exact ccol|].
  intros col r u H. apply K. unfold tl_circuit. right. apply in_or_app. left. apply in_flat_map. exists k. split; [apply in_zseq; exact Hk|exact H].
Qed.

Lemma tl_complete : sat L T' (tl_circuit c x row) /\ frame c tl_rows row T T'.
Proof.
  split; [|exact T'_frame].
  destruct (cells_are v (fval_range P _)) as [k0 [k1 [k2 [K0 [K1 [K2 [E0 [E1 [E2 [E3 Cl]]]]]]]]]].
  assert (R : forall k, 0 <= k < 12 -> T' CWit (W c k) row = znth f0 (tl_cells P v) k) by (intros k Hk; rewrite T'_low; apply T1_at, Hk).
  unfold tl_circuit. rewrite sat_cons, sat_app, sat_cons. split; [|split; [|split; [|apply sat_nil]]].
  - intros r [<-|[]] e He. unfold tl_gate in He. cbv zeta in He. rewrite Cl in R.
    assert (R0 : T' CWit (W c 0) row = ofZ (v)) by (rewrite R by lia; reflexivity).
    assert (R1 : T' CWit (W c 1) row = ofZ (word64 v 0)) by (rewrite R by lia; reflexivity).
    assert (R2 : T' CWit (W c 2) row = ofZ (word64 v 1)) by (rewrite R by lia; reflexivity).
    assert (R3 : T' CWit (W c 3) row = ofZ (word64 v 2)) by (rewrite R by lia; reflexivity).
    assert (R4 : T' CWit (W c 4) row = ofZ (word64 v 3)) by (rewrite R by lia; reflexivity).
    assert (R5 : T' CWit (W c 5) row = ofZ (word64 (v + tl_c P) 0)) by (rewrite R by lia; reflexivity).
    assert (R6 : T' CWit (W c 6) row = ofZ (word64 (v + tl_c P) 1)) by (rewrite R by lia; reflexivity).
    assert (R7 : T' CWit (W c 7) row = ofZ (word64 (v + tl_c P) 2)) by (rewrite R by lia; reflexivity).
    assert (R8 : T' CWit (W c 8) row = ofZ (word64 (v + tl_c P) 3)) by (rewrite R by lia; reflexivity).
    assert (R9 : T' CWit (W c 9) row = ofZ (k0)) by (rewrite R by lia; reflexivity).
    assert (R10 : T' CWit (W c 10) row = ofZ (k1)) by (rewrite R by lia; reflexivity).
    assert (R11 : T' CWit (W c 11) row = ofZ (k2)) by (rewrite R by lia; reflexivity).
    clear R. cbv zeta in E0, E1, E2, E3.
    assert (Hv : 0 <= v < 2 ^ 256) by (pose proof (fval_range P (vval T x)); unfold v; lia). pose proof (words4 v Hv) as D.
    assert (Z0 : forall z, z = 0 -> (ofZ z : F) = f0) by (intros z ->; reflexivity).
    cbn [In] in He.
    repeat (destruct He as [<-|He]; [repeat first [rewrite eval_bin | rewrite eval_evar | rewrite eval_ecst | rewrite gval_wv]; cbn [ebop];
      rewrite ?Z.add_0_r, ?R0, ?R1, ?R2, ?R3, ?R4, ?R5, ?R6, ?R7, ?R8, ?R9, ?R10, ?R11, ?cc_word by lia;
      repeat first [rewrite <- ofZ_mul | rewrite <- ofZ_add | rewrite <- ofZ_sub]; apply Z0; change (Z.shiftl 1 64) with B64;
      change (2 ^ 64) with B64; change (2 ^ 128) with (B64 * B64); change (2 ^ 192) with (B64 * B64 * B64); first [lia|nia]|]). destruct He.
  - intros g Hg. apply in_flat_map in Hg. destruct Hg as [k [Hk Hg]]. apply in_zseq in Hk. revert g Hg. unfold tl_rc_row. rewrite tl_rc_is.
    change (sat L T' (rc_circuit (tl_sub c) 64 (tl_var c row k) (row + 1 + k * 4))).
    apply (rc_core P L T' (tl_sub c) 15 64 _ (fval (vval T1 (tl_var c row k)))); [apply tl_sub_wf, wf|lia|lia|exact ccol|apply (proj2 steps), Hk|apply tl_const, Hk| |].
    + rewrite ofZ_fval. unfold vval, tl_var, wcell. cbn [vty vidx vrot]. apply T'_low.
    + split; [apply fval_range|]. unfold vval, tl_var, wcell. cbn [vty vidx vrot].
      assert (Q : 0 <= k / 2 < 4) by (split; [apply Z.div_pos; lia|apply Z.div_lt_upper_bound; lia]).
      assert (Hj : exists j, 1 <= j < 9 /\ j = (if k mod 2 =? 0 then 1 + k / 2 else 5 + k / 2)) by (destruct (k mod 2 =? 0); eexists; (split; [|reflexivity]); lia).
      destruct Hj as [j [Hj <-]]. rewrite T1_at by lia. rewrite Cl.
      assert (Ub : forall z, 0 <= z < B64 -> fval (ofZ z : F) < 2 ^ 64).
      { intros z Hz. rewrite fval_ofZ. pose proof (Z.mod_le z (char P) ltac:(lia) ltac:(pose proof (char_ge_2 P); lia)). change (2 ^ 64) with B64. lia. }
      assert (Hc : j = 1 \/ j = 2 \/ j = 3 \/ j = 4 \/ j = 5 \/ j = 6 \/ j = 7 \/ j = 8) by lia.
      destruct Hc as [->|[->|[->|[->|[->|[->|[->| ->]]]]]]]; apply Ub, word64_range.
  - cbn [holds]. rewrite vval_wcell, R by lia. rewrite Cl. transitivity (vval T x); [apply ofZ_fval|]. symmetry. apply (vval_frame P c tl_rows row T T' x T'_frame Ox).
Qed.
End Limbs.
