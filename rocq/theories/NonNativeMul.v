(** Witnesses of non-native multiplication. *)
From Coq Require Import ZArith List Lia Bool Field Znumtheory Zpow_facts.
From Verif Require Import Base Field Plonk PlonkFacts Bits NonNativeModel NonNativeProofs NonNativeArith NonNativeComp NonNativeWit.
Import ListNotations.
Open Scope Z_scope.

(** ** Integers *)
Section MulInts.
Variables x0 x1 x2 x3 y0 y1 y2 y3 q0 q1 q2 q3 r0 r1 r2 r3 : Z.
Let zg a b c d := a + b * 2 ^ 66 + c * 2 ^ 132 + d * 2 ^ 198.
Hypothesis X : 0 <= x0 < 2 ^ 66 /\ 0 <= x1 < 2 ^ 66 /\ 0 <= x2 < 2 ^ 66 /\ 0 <= x3 < 2 ^ 57.
Hypothesis Y : 0 <= y0 < 2 ^ 66 /\ 0 <= y1 < 2 ^ 66 /\ 0 <= y2 < 2 ^ 66 /\ 0 <= y3 < 2 ^ 57.
Hypothesis Q : 0 <= q0 < 2 ^ 66 /\ 0 <= q1 < 2 ^ 66 /\ 0 <= q2 < 2 ^ 66 /\ 0 <= q3 < 2 ^ 57.
Hypothesis R : 0 <= r0 < 2 ^ 66 /\ 0 <= r1 < 2 ^ 66 /\ 0 <= r2 < 2 ^ 66 /\ 0 <= r3 < 2 ^ 57.
Hypothesis E : zg x0 x1 x2 x3 * zg y0 y1 y2 y3 = zg q0 q1 q2 q3 * ed_p + zg r0 r1 r2 r3.
Let t0 := x0 * y0 + nn_m 0 * q0.
Let t1 := x1 * y0 + x0 * y1 + nn_m 0 * q1 + nn_m 1 * q0.
Let t2 := x2 * y0 + x0 * y2 + x1 * y1 + nn_m 2 * q0 + q2 * nn_m 0 + nn_m 1 * q1.
Let t3 := x3 * y0 + y3 * x0 + x1 * y2 + y1 * x2 + nn_m 3 * q0 + q3 * nn_m 0 + nn_m 1 * q2 + q1 * nn_m 2.
Let v0 := t0 - r0 + t1 * 2 ^ 66 - r1 * 2 ^ 66.

Lemma mul_ints : exists u0 u1, v0 = u0 * 2 ^ 132 /\ t2 - r2 + t3 * 2 ^ 66 - r3 * 2 ^ 66 + u0 = u1 * 2 ^ 125 /\
  0 <= u0 < 2 ^ 66 * 2 ^ 4 /\ 0 <= u1 < 2 ^ 66 * 2 ^ 9.
Proof.
  set (h := x1 * y3 + x2 * y2 + x3 * y1 + 432345564227567616 * q1
            + 2 ^ 66 * (x2 * y3 + x3 * y2 + 432345564227567616 * q2) + 2 ^ 132 * (x3 * y3 + 432345564227567616 * q3)).
  set (w := t2 - r2 + t3 * 2 ^ 66 - r3 * 2 ^ 66).
  assert (ID : v0 + 2 ^ 132 * w = 2 ^ 257 * (zg q0 q1 q2 q3 - 128 * h)).
  { apply Zminus_eq. rewrite <- (proj2 (Z.sub_move_0_r _ _) E). unfold v0, w, h, t0, t1, t2, t3, zg.
    rewrite ed_p_val. change (nn_m 0) with 19. change (nn_m 1) with 0. change (nn_m 2) with 0. change (nn_m 3) with 432345564227567616.
    clear. ring. }
  set (u0 := 2 ^ 125 * (zg q0 q1 q2 q3 - 128 * h) - w).
  assert (V0 : v0 = u0 * 2 ^ 132).
  { unfold u0. clear - ID. clearbody v0 w h zg. change (2 ^ 257) with (2 ^ 125 * 2 ^ 132) in ID. lia. }
  set (u1 := zg q0 q1 q2 q3 - 128 * h).
  assert (V1 : w + u0 = u1 * 2 ^ 125) by (unfold u0, u1; lia).
  exists u0, u1. split; [exact V0|]. split; [exact V1|].
  pose proof (mul_bd x0 y0 (2 ^ 66) (2 ^ 66) ltac:(lia) ltac:(lia)) as M00.
  pose proof (mul_bd x0 y1 (2 ^ 66) (2 ^ 66) ltac:(lia) ltac:(lia)) as M01.
  pose proof (mul_bd x0 y2 (2 ^ 66) (2 ^ 66) ltac:(lia) ltac:(lia)) as M02.
  pose proof (mul_bd y3 x0 (2 ^ 57) (2 ^ 66) ltac:(lia) ltac:(lia)) as M03.
  pose proof (mul_bd x1 y0 (2 ^ 66) (2 ^ 66) ltac:(lia) ltac:(lia)) as M10.
  pose proof (mul_bd x1 y1 (2 ^ 66) (2 ^ 66) ltac:(lia) ltac:(lia)) as M11.
  pose proof (mul_bd x1 y2 (2 ^ 66) (2 ^ 66) ltac:(lia) ltac:(lia)) as M12.
  pose proof (mul_bd x2 y0 (2 ^ 66) (2 ^ 66) ltac:(lia) ltac:(lia)) as M20.
  pose proof (mul_bd y1 x2 (2 ^ 66) (2 ^ 66) ltac:(lia) ltac:(lia)) as M21.
  pose proof (mul_bd x3 y0 (2 ^ 57) (2 ^ 66) ltac:(lia) ltac:(lia)) as M30.
  assert (B0 : - 2 ^ 132 < v0 < 2 ^ 132 * 2 ^ 68).
  { clear ID V0 V1 E u0 u1 w h. unfold v0, t0, t1. change (nn_m 0) with 19. change (nn_m 1) with 0.
    revert M00 M01 M10. generalize (x0 * y0) (x0 * y1) (x1 * y0). intros. clear M02 M03 M11 M12 M20 M21 M30. change (2 ^ 68) with 295147905179352825856. lits. lia. }
  assert (B1 : - 2 ^ 124 < w < 2 ^ 200 - 2 ^ 100).
  { clear ID V0 V1 E u0 u1 h. unfold w, t2, t3. change (nn_m 0) with 19. change (nn_m 1) with 0. change (nn_m 2) with 0. change (nn_m 3) with 432345564227567616.
    revert M02 M11 M20 M30 M03 M12 M21. generalize (x0 * y2) (x1 * y1) (x2 * y0) (x3 * y0) (y3 * x0) (x1 * y2) (y1 * x2). intros. clear M00 M01 M10.
    change (2 ^ 124) with 21267647932558653966460912964485513216. change (2 ^ 100) with 1267650600228229401496703205376.
    change (2 ^ 200) with 1606938044258990275541962092341162602522202993782792835301376. lits. lia. }
  clear - V0 V1 B0 B1. clearbody u0 u1 v0 w.
  change (2 ^ 68) with 295147905179352825856 in *. change (2 ^ 124) with 21267647932558653966460912964485513216 in *.
  change (2 ^ 100) with 1267650600228229401496703205376 in *.
  change (2 ^ 200) with 1606938044258990275541962092341162602522202993782792835301376 in *. lits.
  assert (0 <= u0 < 295147905179352825856) by lia. split; lia.
Qed.
End MulInts.

Section Mul.
Variable P : params.
Notation F := (F P).
Notation table := (table P).
Variable L : lenv P.
Implicit Types T : table.
Add Field Ff : (F_field P) (morphism (F_morph P), constants [F_const], power_tac (F_power P) [F_pow_tac]).

Definition nm_list (x0 x1 x2 x3 y0 y1 y2 y3 q0 q1 q2 q3 r0 r1 r2 r3 u0 u1 n0 n1 n2 n3 n4 n5 n6 n7 : F) : list (Z * Z * F) :=
  [(0, 4, x0); (1, 4, x1); (2, 4, x2); (3, 4, x3); (4, 4, y0); (5, 4, y1); (6, 4, y2); (7, 4, y3);
   (8, 4, q0); (0, 5, q1); (1, 5, q2); (2, 5, q3); (3, 5, r0); (4, 5, r1); (5, 5, r2); (6, 5, r3); (7, 5, u0); (8, 5, u1);
   (0, 6, n0); (1, 6, n1); (2, 6, n2); (3, 6, n3); (4, 6, n4); (5, 6, n5); (6, 6, n6); (7, 6, n7)].

Section NmSat.
Variables (T : table) (c : comp) (A B : list var) (row : Z).
Variables q0 q1 q2 q3 r0 r1 r2 r3 u0 u1 n0 n1 n2 n3 n4 n5 n6 n7 : F.
Hypothesis wf : wf_comp c 9.
Hypothesis OA : nn_outside c 7 row A.
Hypothesis OB : nn_outside c 7 row B.
Let x i := vval T (nv A i).
Let y i := vval T (nv B i).
Variables rq rr : list (Z * Z * F).
Hypothesis rl_cols : in_cols 9 (rq ++ rr) = true.
Hypothesis rl_rows : in_rows 7 (rq ++ rr) = true.
Hypothesis rq_0 : look (rq ++ rr) 0 0 = Some q0 /\ look (rq ++ rr) 1 0 = Some q1 /\ look (rq ++ rr) 2 0 = Some q2 /\ look (rq ++ rr) 3 0 = Some q3.
Hypothesis rr_0 : look (rq ++ rr) 0 2 = Some r0 /\ look (rq ++ rr) 1 2 = Some r1 /\ look (rq ++ rr) 2 2 = Some r2 /\ look (rq ++ rr) 3 2 = Some r3.
Hypothesis rl_other : forall j m, 4 <= m -> look (rq ++ rr) j m = None.
Let l := nm_list (x 0) (x 1) (x 2) (x 3) (y 0) (y 1) (y 2) (y 3) q0 q1 q2 q3 r0 r1 r2 r3 u0 u1 n0 n1 n2 n3 n4 n5 n6 n7 ++ (rq ++ rr).
Let T' := wsets T (cells c row l).

Lemma nm_frame : frame c 7 row T T'.
Proof.
  apply (cells_frame P T c 9); [exact wf|]. unfold l, in_rows. rewrite forallb_app. fold (in_rows 7 (rq ++ rr)). rewrite rl_rows. reflexivity.
Qed.
Lemma nm_read : forall j m, 0 <= j < 9 -> T' CWit (W c j) (row + m) = match look l j m with Some v => v | None => T CWit (W c j) (row + m) end.
Proof.
  intros j m Hj. apply (cells_read P T c 9); [exact wf| |exact Hj]. unfold l, in_cols. rewrite forallb_app. fold (in_cols 9 (rq ++ rr)). rewrite rl_cols. reflexivity.
Qed.
Ltac rdl := rewrite nm_read by lia; unfold l; rewrite look_app; rewrite ?rl_other by lia; reflexivity.
Lemma nm_out_val : forall i, 0 <= i < 4 -> vval T' (nv (nm_out c row) i) = znth f0 [r0; r1; r2; r3] i.
Proof.
  intros i Hi. rewrite nm_out_nv by exact Hi. rewrite vval_wcell.
  assert (i = 0 \/ i = 1 \/ i = 2 \/ i = 3) as [-> |[-> |[-> | ->]]] by lia; rdl.
Qed.
Lemma nm_q_val : forall i, 0 <= i < 4 -> vval T' (nv (nm_q c row) i) = znth f0 [q0; q1; q2; q3] i.
Proof.
  intros i Hi.
  assert (i = 0 \/ i = 1 \/ i = 2 \/ i = 3) as [-> |[-> |[-> | ->]]] by lia;
  (change (nv (nm_q c row) 0) with (wcell (W c 8) (row + 4)) || change (nv (nm_q c row) 1) with (wcell (W c 0) (row + 5)) ||
   change (nv (nm_q c row) 2) with (wcell (W c 1) (row + 5)) || change (nv (nm_q c row) 3) with (wcell (W c 2) (row + 5))); rewrite vval_wcell; rdl.
Qed.

Lemma nm_sat :
  (forall e, In e (nm_gate c) -> eval T' (row + 5) e = f0) -> holds L T' (Gate (rg_gate c) [row]) -> holds L T' (Gate (rg_gate c) [row + 2]) ->
  sat L T' (nm_circuit c A B row).
Proof.
  intros G R1 R2. unfold nm_circuit. apply sat_cons. split; [apply holds_gate1; exact G|].
  apply sat_app. split; [|apply sat_app; split].
  - assert (CA : forall i, 0 <= i < 4 -> vval T' (nv A i) = x i) by (intros i Hi; apply (vval_frame P c 7 row T T' _ nm_frame); apply OA; exact Hi).
    assert (CB : forall i, 0 <= i < 4 -> vval T' (nv B i) = y i) by (intros i Hi; apply (vval_frame P c 7 row T T' _ nm_frame); apply OB; exact Hi).
    unfold nm_copies. change (zseq 0 4) with [0; 1; 2; 3]. cbn [map app].
    change (0 + 4) with 4. change (1 + 4) with 5. change (2 + 4) with 6. change (3 + 4) with 7.
    repeat (apply sat_cons; split; [cbn [holds]; rewrite vval_wcell, ?CA, ?CB by lia; rdl|]). apply sat_nil.
  - unfold rg_circuit. apply sat_cons. split; [exact R1|]. apply rg_copies_ok. intros i Hi. rewrite nm_q_val by exact Hi.
    rewrite <- (Z.add_0_r row) at 1. rewrite nm_read by lia. unfold l. rewrite look_app. destruct rq_0 as [E0 [E1 [E2 E3]]].
    assert (i = 0 \/ i = 1 \/ i = 2 \/ i = 3) as [-> |[-> |[-> | ->]]] by lia; rewrite ?E0, ?E1, ?E2, ?E3; reflexivity.
  - unfold rg_circuit. apply sat_cons. split; [exact R2|]. apply rg_copies_ok. intros i Hi. rewrite nm_out_val by exact Hi.
    rewrite nm_read by lia. unfold l. rewrite look_app. destruct rr_0 as [E0 [E1 [E2 E3]]].
    assert (i = 0 \/ i = 1 \/ i = 2 \/ i = 3) as [-> |[-> |[-> | ->]]] by lia; rewrite ?E0, ?E1, ?E2, ?E3; reflexivity.
Qed.

Local Open Scope F_scope.
Let gl (x0 x1 x2 x3 : F) := x0 + x1 * ofZ (2 ^ 66) + x2 * ofZ (2 ^ 132) + x3 * ofZ (2 ^ 198).
Let p i : F := ofZ (nn_m i).
Let t0 := x 0%Z * y 0%Z + p 0%Z * q0.
Let t1 := x 1%Z * y 0%Z + x 0%Z * y 1%Z + p 0%Z * q1 + p 1%Z * q0.
Let t2 := x 2%Z * y 0%Z + x 0%Z * y 2%Z + x 1%Z * y 1%Z + p 2%Z * q0 + q2 * p 0%Z + p 1%Z * q1.
Let t3 := x 3%Z * y 0%Z + y 3%Z * x 0%Z + x 1%Z * y 2%Z + y 1%Z * x 2%Z + p 3%Z * q0 + q3 * p 0%Z + p 1%Z * q2 + q1 * p 2%Z.
Lemma nm_gate_ok :
  u0 * ofZ (2 ^ 132) = t0 - r0 + t1 * ofZ (2 ^ 66) - r1 * ofZ (2 ^ 66) ->
  u1 * ofZ (2 ^ 125) = t2 - r2 + t3 * ofZ (2 ^ 66) - r3 * ofZ (2 ^ 66) + u0 ->
  u0 = n0 + n1 * ofZ (2 ^ 22) + n2 * ofZ (2 ^ 44) + n3 * ofZ (2 ^ 66) ->
  u1 = n4 + n5 * ofZ (2 ^ 22) + n6 * ofZ (2 ^ 44) + n7 * ofZ (2 ^ 66) ->
  gl (x 0) (x 1) (x 2) (x 3) * gl (y 0) (y 1) (y 2) (y 3) = gl q0 q1 q2 q3 * ofZ ed_p + gl r0 r1 r2 r3 ->
  forall e, In e (nm_gate c) -> eval T' (row + 5)%Z e = f0.
Proof.
  intros E0 E1 E2 E3 E4.
  assert (X0 : T' CWit (W c 0) (row + 4)%Z = x 0%Z) by rdl. assert (X1 : T' CWit (W c 1) (row + 4)%Z = x 1%Z) by rdl.
  assert (X2 : T' CWit (W c 2) (row + 4)%Z = x 2%Z) by rdl. assert (X3 : T' CWit (W c 3) (row + 4)%Z = x 3%Z) by rdl.
  assert (Y0 : T' CWit (W c 4) (row + 4)%Z = y 0%Z) by rdl. assert (Y1 : T' CWit (W c 5) (row + 4)%Z = y 1%Z) by rdl.
  assert (Y2 : T' CWit (W c 6) (row + 4)%Z = y 2%Z) by rdl. assert (Y3 : T' CWit (W c 7) (row + 4)%Z = y 3%Z) by rdl.
  assert (Q0 : T' CWit (W c 8) (row + 4)%Z = q0) by rdl. assert (Q1 : T' CWit (W c 0) (row + 5)%Z = q1) by rdl.
  assert (Q2 : T' CWit (W c 1) (row + 5)%Z = q2) by rdl. assert (Q3 : T' CWit (W c 2) (row + 5)%Z = q3) by rdl.
  assert (R0 : T' CWit (W c 3) (row + 5)%Z = r0) by rdl. assert (R1 : T' CWit (W c 4) (row + 5)%Z = r1) by rdl.
  assert (R2 : T' CWit (W c 5) (row + 5)%Z = r2) by rdl. assert (R3 : T' CWit (W c 6) (row + 5)%Z = r3) by rdl.
  assert (U0 : T' CWit (W c 7) (row + 5)%Z = u0) by rdl. assert (U1 : T' CWit (W c 8) (row + 5)%Z = u1) by rdl.
  assert (N0 : T' CWit (W c 0) (row + 6)%Z = n0) by rdl. assert (N1 : T' CWit (W c 1) (row + 6)%Z = n1) by rdl.
  assert (N2 : T' CWit (W c 2) (row + 6)%Z = n2) by rdl. assert (N3 : T' CWit (W c 3) (row + 6)%Z = n3) by rdl.
  assert (N4 : T' CWit (W c 4) (row + 6)%Z = n4) by rdl. assert (N5 : T' CWit (W c 5) (row + 6)%Z = n5) by rdl.
  assert (N6 : T' CWit (W c 6) (row + 6)%Z = n6) by rdl. assert (N7 : T' CWit (W c 7) (row + 6)%Z = n7) by rdl.
  unfold nm_gate. cbv zeta. repeat (rewrite all_cons). unfold nn_glue_e. cbv zeta. eval_norm.
  rewrite !Z.add_0_r. replace (row + 5 + -1)%Z with (row + 4)%Z by lia. replace (row + 5 + 1)%Z with (row + 6)%Z by lia.
  rewrite X0, X1, X2, X3, Y0, Y1, Y2, Y3, Q0, Q1, Q2, Q3, R0, R1, R2, R3, U0, U1, N0, N1, N2, N3, N4, N5, N6, N7.
  split; [apply fsub_eq0; exact E0|]. split; [apply fsub_eq0; exact E1|]. split; [apply fsub_eq0; exact E2|].
  split; [apply fsub_eq0; exact E3|]. split; [apply fsub_eq0; exact E4|]. intros e [].
Qed.
End NmSat.

Lemma rg_list_high : forall v k j m, k + 2 <= m -> look (rg_list P v k) j m = None.
Proof.
  intros v k j m Hm. unfold rg_list. cbv zeta. cbn [look].
  assert (E2 : (m =? k) = false) by (apply Z.eqb_neq; lia). assert (E3 : (m =? k + 1) = false) by (apply Z.eqb_neq; lia).
  rewrite E2, E3, !andb_false_r. reflexivity.
Qed.
Lemma rg_free_high : forall x0 x1 x2 x3 k j m, k + 2 <= m -> look (rg_free P x0 x1 x2 x3 k) j m = None.
Proof.
  intros x0 x1 x2 x3 k j m Hm. unfold rg_free. cbv zeta. cbn [look].
  assert (E2 : (m =? k) = false) by (apply Z.eqb_neq; lia). assert (E3 : (m =? k + 1) = false) by (apply Z.eqb_neq; lia).
  rewrite E2, E3, !andb_false_r. reflexivity.
Qed.
Lemma cells_has_l : forall T c w row (a b d : list (Z * Z * F)), wf_comp c w -> in_cols w (a ++ b ++ d) = true -> in_cols w b = true ->
  distinct P b = true -> (forall j m x, In (j, m, x) b -> look d j m = None) -> has P (wsets T (cells c row (a ++ b ++ d))) c row b.
Proof.
  intros T c w row a b d Hwf HC HB HD HN j m x I. rewrite (cells_read P T c w) by (auto; unfold in_cols in HB; rewrite forallb_forall in HB;
    specialize (HB _ I); cbn [fst] in HB; apply andb_prop in HB; destruct HB as [B1 B2]; apply Z.leb_le in B1; apply Z.ltb_lt in B2; lia).
  rewrite look_app, look_app, (look_in P b j m x HD I), (HN j m x I). reflexivity.
Qed.

Section Honest.
Hypothesis big : 2 ^ 254 <= char P.

Lemma nm_assign_cells : forall c row T x0 x1 x2 x3 y0 y1 y2 y3 q r (u0 u1 n0 n1 n2 n3 n4 n5 n6 n7 : F), wf_comp c 9 ->
  let T1 := wsets T (cells c row (nm_list x0 x1 x2 x3 y0 y1 y2 y3 (ofZ (nn_limb q 0)) (ofZ (nn_limb q 1)) (ofZ (nn_limb q 2)) (ofZ (nn_limb q 3))
     (ofZ (nn_limb r 0)) (ofZ (nn_limb r 1)) (ofZ (nn_limb r 2)) (ofZ (nn_limb r 3)) u0 u1 n0 n1 n2 n3 n4 n5 n6 n7)) in
  rg_assign c (nm_out c row) (row + 2) (rg_assign c (nm_q c row) row T1) =
  wsets T (cells c row (nm_list x0 x1 x2 x3 y0 y1 y2 y3 (ofZ (nn_limb q 0)) (ofZ (nn_limb q 1)) (ofZ (nn_limb q 2)) (ofZ (nn_limb q 3))
     (ofZ (nn_limb r 0)) (ofZ (nn_limb r 1)) (ofZ (nn_limb r 2)) (ofZ (nn_limb r 3)) u0 u1 n0 n1 n2 n3 n4 n5 n6 n7
     ++ (rg_list P (nn_chop q) 0 ++ rg_list P (nn_chop r) 2))).
Proof.
  intros c row T x0 x1 x2 x3 y0 y1 y2 y3 q r u0 u1 n0 n1 n2 n3 n4 n5 n6 n7 Hwf T1.
  assert (VQ : nn_vals T1 (nm_q c row) = nn_chop q).
  { rewrite <- (limbs_map P big). unfold nn_vals. apply map_ext_in. intros i Hi. apply in_zseq in Hi. f_equal.
    assert (i = 0 \/ i = 1 \/ i = 2 \/ i = 3) as [-> |[-> |[-> | ->]]] by lia;
    (change (nv (nm_q c row) 0) with (wcell (W c 8) (row + 4)) || change (nv (nm_q c row) 1) with (wcell (W c 0) (row + 5)) ||
     change (nv (nm_q c row) 2) with (wcell (W c 1) (row + 5)) || change (nv (nm_q c row) 3) with (wcell (W c 2) (row + 5)));
    rewrite vval_wcell; unfold T1; rewrite (cells_read P T c 9) by (auto; lia); reflexivity. }
  rewrite (rg_assign_cells0 P c (nm_q c row) row T1), VQ. set (T2 := wsets T1 _).
  assert (VR : nn_vals T2 (nm_out c row) = nn_chop r).
  { rewrite <- (limbs_map P big). unfold nn_vals. apply map_ext_in. intros i Hi. apply in_zseq in Hi. f_equal.
    rewrite nm_out_nv by exact Hi. rewrite vval_wcell. unfold T2. rewrite (cells_read P T1 c 9) by (auto; lia).
    rewrite rg_list_high by lia. unfold T1. rewrite (cells_read P T c 9) by (auto; lia).
    assert (i = 0 \/ i = 1 \/ i = 2 \/ i = 3) as [-> |[-> |[-> | ->]]] by lia; reflexivity. }
  rewrite rg_assign_cells, VR. unfold T2, T1. rewrite !cells_app, !wsets_app. reflexivity.
Qed.

Ltac zq := repeat first [rewrite <- ofZ_mul | rewrite <- ofZ_add | rewrite <- ofZ_sub]; f_equal.

Lemma nm_complete_l : forall T c A B row, wf_comp c 9 -> nn_outside c 7 row A -> nn_outside c 7 row B ->
  nn_small (nn_vals T A) -> nn_small (nn_vals T B) -> nn_glue_z (nn_vals T A) < ed_p -> nn_glue_z (nn_vals T B) < ed_p ->
  let T' := nm_assign c A B row T in
  sat L T' (nm_circuit c A B row) /\ frame c 7 row T T' /\
  nn_vals T' (nm_out c row) = nn_chop ((nn_glue_z (nn_vals T A) * nn_glue_z (nn_vals T B)) mod ed_p).
Proof.
  intros T c A B row Hwf OA OB SA SB PA PB T'.
  pose proof (nn_glue_small _ SA PA) as [GA NA]. pose proof (nn_glue_small _ SB PB) as [GB NB].
  unfold T', nm_assign. cbv zeta. rewrite GA, GB. clear T'.
  set (a := nn_glue_z (nn_vals T A)) in *. set (b := nn_glue_z (nn_vals T B)) in *. set (r := (a * b) mod ed_p).
  assert (Hr : 0 <= r < ed_p) by (apply Z.mod_pos_bound; reflexivity).
  pose proof (Z.div_mod (a * b) ed_p ltac:(discriminate)) as DM. fold r in DM.
  set (q := (a * b - r) / ed_p).
  assert (Hq : q = (a * b) / ed_p).
  { unfold q. replace (a * b - r) with ((a * b) / ed_p * ed_p) by lia. apply Z.div_mul. discriminate. }
  assert (Qr : 0 <= q < ed_p).
  { rewrite Hq. split; [apply Z.div_pos; [apply Z.mul_nonneg_nonneg; lia|reflexivity]|apply Z.div_lt_upper_bound; [reflexivity|]].
    apply Z.mul_lt_mono_nonneg; lia. }
  rewrite <- Hq in DM. clearbody q. clear Hq.
  pose proof (limbs_ok r (canon_255 r Hr)) as [LR RB]. pose proof (limbs_ok q (canon_255 q Qr)) as [LQ QB].
  assert (DA : a = nn_glue_z (nn_vals T A)) by reflexivity. assert (DB : b = nn_glue_z (nn_vals T B)) by reflexivity.
  rewrite glue_z_eq in DA, DB. rewrite !nn_vals_nth in DA, DB by lia. rewrite !nn_vals_nth by lia.
  unfold nn_small in SA, SB. rewrite !nn_vals_nth in SA, SB by lia.
  set (x i := fval (vval T (nv A i))) in *. set (y i := fval (vval T (nv B i))) in *.
  fold (x 0) (x 1) (x 2) (x 3) in DA, SA. fold (y 0) (y 1) (y 2) (y 3) in DB, SB. fold (x 0) (x 1) (x 2) (x 3) (y 0) (y 1) (y 2) (y 3).
  assert (DE : (x 0 + x 1 * 2 ^ 66 + x 2 * 2 ^ 132 + x 3 * 2 ^ 198) * (y 0 + y 1 * 2 ^ 66 + y 2 * 2 ^ 132 + y 3 * 2 ^ 198) =
    (nn_limb q 0 + nn_limb q 1 * 2 ^ 66 + nn_limb q 2 * 2 ^ 132 + nn_limb q 3 * 2 ^ 198) * ed_p +
    (nn_limb r 0 + nn_limb r 1 * 2 ^ 66 + nn_limb r 2 * 2 ^ 132 + nn_limb r 3 * 2 ^ 198)).
  { rewrite <- DA, <- DB, <- LQ, <- LR. rewrite DM. ring. }
  pose proof (mul_ints _ _ _ _ _ _ _ _ _ _ _ _ _ _ _ _ SA SB QB RB DE) as [u0 [u1 [E0 [E1 [B0 B1]]]]].
  pose proof (char_big P big) as Bn. rewrite E0.
  assert (U0 : fval (ofZ (u0 * 2 ^ 132) : F) / 2 ^ 132 = u0).
  { rewrite fval_ofZ_small by (clear - B0 Bn; lits; lia). apply Z.div_mul. discriminate. }
  rewrite U0. rewrite E1.
  assert (U1 : fval (ofZ (u1 * 2 ^ 125) : F) / 2 ^ 125 = u1).
  { rewrite fval_ofZ_small by (clear - B1 Bn; lits; lia). apply Z.div_mul. discriminate. }
  rewrite U1.
  match goal with |- context [rg_assign c (nm_q c row) row (wsets T ?l0)] =>
    replace l0 with (cells c row (nm_list (ofZ (x 0)) (ofZ (x 1)) (ofZ (x 2)) (ofZ (x 3)) (ofZ (y 0)) (ofZ (y 1)) (ofZ (y 2)) (ofZ (y 3))
     (ofZ (nn_limb q 0)) (ofZ (nn_limb q 1)) (ofZ (nn_limb q 2)) (ofZ (nn_limb q 3))
     (ofZ (nn_limb r 0)) (ofZ (nn_limb r 1)) (ofZ (nn_limb r 2)) (ofZ (nn_limb r 3)) (ofZ u0) (ofZ u1 : F)
     (ofZ (u0 mod 2 ^ 22)) (ofZ ((u0 / 2 ^ 22) mod 2 ^ 22)) (ofZ ((u0 / 2 ^ 44) mod 2 ^ 22)) (ofZ ((u0 / 2 ^ 66) mod 2 ^ 4))
     (ofZ (u1 mod 2 ^ 22)) (ofZ ((u1 / 2 ^ 22) mod 2 ^ 22)) (ofZ ((u1 / 2 ^ 44) mod 2 ^ 22)) (ofZ ((u1 / 2 ^ 66) mod 2 ^ 9)))) by reflexivity end.
  rewrite nm_assign_cells by exact Hwf. unfold x, y. rewrite !ofZ_fval.
  assert (HR : look (rg_list P (nn_chop q) 0 ++ rg_list P (nn_chop r) 2) 0 2 = Some (ofZ (nn_limb r 0)) /\
     look (rg_list P (nn_chop q) 0 ++ rg_list P (nn_chop r) 2) 1 2 = Some (ofZ (nn_limb r 1)) /\
     look (rg_list P (nn_chop q) 0 ++ rg_list P (nn_chop r) 2) 2 2 = Some (ofZ (nn_limb r 2)) /\
     look (rg_list P (nn_chop q) 0 ++ rg_list P (nn_chop r) 2) 3 2 = Some (ofZ (nn_limb r 3))) by (repeat split).
  assert (HQ : look (rg_list P (nn_chop q) 0 ++ rg_list P (nn_chop r) 2) 0 0 = Some (ofZ (nn_limb q 0)) /\
     look (rg_list P (nn_chop q) 0 ++ rg_list P (nn_chop r) 2) 1 0 = Some (ofZ (nn_limb q 1)) /\
     look (rg_list P (nn_chop q) 0 ++ rg_list P (nn_chop r) 2) 2 0 = Some (ofZ (nn_limb q 2)) /\
     look (rg_list P (nn_chop q) 0 ++ rg_list P (nn_chop r) 2) 3 0 = Some (ofZ (nn_limb q 3))) by (repeat split).
  assert (HO : forall j m, 4 <= m -> look (rg_list P (nn_chop q) 0 ++ rg_list P (nn_chop r) 2) j m = None).
  { intros j m Hm. rewrite look_app, !rg_list_high by lia. reflexivity. }
  assert (H1 : forall T0, has P (wsets T0 (cells c row ([] ++ rg_list P (nn_chop q) 0 ++ rg_list P (nn_chop r) 2))) c row (rg_list P (nn_chop q) 0)).
  { intros T0. apply (cells_has_l T0 c 9); [exact Hwf|reflexivity|reflexivity|reflexivity|].
    intros j m z I. apply rg_list_other.
    unfold rg_list in I. cbv zeta in I. cbn [In] in I. repeat (destruct I as [I|I]; [injection I as _ <- _; reflexivity|]). contradiction. }
  assert (H2 : forall T0, has P (wsets T0 (cells c row (rg_list P (nn_chop q) 0 ++ rg_list P (nn_chop r) 2))) c (row + 2) (rg_list P (nn_chop r) 0)).
  { intros T0. apply has_rg_shift. apply (cells_has P T0 c 9); [exact Hwf|reflexivity|reflexivity|reflexivity]. }
  split; [|split].
  - apply nm_sat; [exact Hwf|exact OA|exact OB|reflexivity|reflexivity|exact HQ|exact HR|exact HO| | |].
    + apply nm_gate_ok; [exact Hwf|reflexivity|exact HO| | | | |].
      * rewrite <- (ofZ_fval P (vval T (nv A 0))), <- (ofZ_fval P (vval T (nv B 0))), <- (ofZ_fval P (vval T (nv A 1))), <- (ofZ_fval P (vval T (nv B 1))).
        fold (x 0) (y 0) (x 1) (y 1). zq. symmetry. exact E0.
      * rewrite <- (ofZ_fval P (vval T (nv A 0))), <- (ofZ_fval P (vval T (nv B 0))), <- (ofZ_fval P (vval T (nv A 1))), <- (ofZ_fval P (vval T (nv B 1))),
         <- (ofZ_fval P (vval T (nv A 2))), <- (ofZ_fval P (vval T (nv B 2))), <- (ofZ_fval P (vval T (nv A 3))), <- (ofZ_fval P (vval T (nv B 3))).
        fold (x 0) (y 0) (x 1) (y 1) (x 2) (y 2) (x 3) (y 3). zq. symmetry. exact E1.
      * zq. apply pieces4_ok; [reflexivity|exact B0].
      * zq. apply pieces4_ok; [reflexivity|exact B1].
      * rewrite <- (ofZ_fval P (vval T (nv A 0))), <- (ofZ_fval P (vval T (nv B 0))), <- (ofZ_fval P (vval T (nv A 1))), <- (ofZ_fval P (vval T (nv B 1))),
         <- (ofZ_fval P (vval T (nv A 2))), <- (ofZ_fval P (vval T (nv B 2))), <- (ofZ_fval P (vval T (nv A 3))), <- (ofZ_fval P (vval T (nv B 3))).
        fold (x 0) (y 0) (x 1) (y 1) (x 2) (y 2) (x 3) (y 3). zq. exact DE.
    + rewrite cells_app, wsets_app. eapply rg_honest; [exact big| | |apply H1].
      * apply chop_small, canon_255, Qr.
      * rewrite chop_glue by (apply canon_255, Qr). apply Qr.
    + rewrite cells_app, wsets_app. eapply rg_honest; [exact big| | |apply H2].
      * apply chop_small, canon_255, Hr.
      * rewrite chop_glue by (apply canon_255, Hr). apply Hr.
  - apply nm_frame; [exact Hwf|reflexivity].
  - transitivity (map (fun i => fval (ofZ (nn_limb r i) : F)) (zseq 0 4)); [|apply limbs_map; exact big].
    unfold nn_vals. apply map_ext_in. intros i Hi. apply in_zseq in Hi. f_equal.
    rewrite nm_out_val; [|exact Hwf|reflexivity|exact HO|exact Hi].
    assert (i = 0 \/ i = 1 \/ i = 2 \/ i = 3) as [-> |[-> |[-> | ->]]] by lia; reflexivity.
Qed.

Lemma pow2_nonzero : forall k, 0 <= k -> (ofZ (2 ^ k) : F) <> f0.
Proof.
  intros k Hk H. apply ofZ_divide in H. assert (R : rel_prime (char P) (2 ^ k)).
  { apply rel_prime_Zpower_r; [exact Hk|]. apply prime_rel_prime; [apply char_prime|]. intros K. pose proof (char_big P big).
    apply Z.divide_pos_le in K; lia. }
  pose proof (char_big P big). assert (D : (char P | 1)).
  { destruct R as [_ _ R]. apply R; [apply Z.divide_refl|exact H]. }
  apply Z.divide_pos_le in D; lia.
Qed.

(** An unchecked witness with three limbs of the result chosen freely. *)
Local Open Scope F_scope.
Lemma nm_free_l : forall T c A B row t1 t2 t3, wf_comp c 9 -> nn_outside c 7 row A -> nn_outside c 7 row B ->
  exists T', frame c 7 row T T' /\ sat L T' (nm_circuit c A B row) /\
    vval T' (nv (nm_out c row) 1) = t1 /\ vval T' (nv (nm_out c row) 2) = t2 /\ vval T' (nv (nm_out c row) 3) = t3.
Proof.
  intros T c A B row t1 t2 t3 Hwf OA OB. set (x i := vval T (nv A i)). set (y i := vval T (nv B i)).
  set (gl (x0 x1 x2 x3 : F) := x0 + x1 * ofZ (2 ^ 66) + x2 * ofZ (2 ^ 132) + x3 * ofZ (2 ^ 198)).
  set (r0 := gl (x 0%Z) (x 1%Z) (x 2%Z) (x 3%Z) * gl (y 0%Z) (y 1%Z) (y 2%Z) (y 3%Z) - t1 * ofZ (2 ^ 66) - t2 * ofZ (2 ^ 132) - t3 * ofZ (2 ^ 198)).
  set (u0 := (x 0%Z * y 0%Z - r0 + (x 1%Z * y 0%Z + x 0%Z * y 1%Z) * ofZ (2 ^ 66) - t1 * ofZ (2 ^ 66)) * finv (ofZ (2 ^ 132))).
  set (u1 := (x 2%Z * y 0%Z + x 0%Z * y 2%Z + x 1%Z * y 1%Z - t2 + (x 3%Z * y 0%Z + y 3%Z * x 0%Z + x 1%Z * y 2%Z + y 1%Z * x 2%Z) * ofZ (2 ^ 66)
              - t3 * ofZ (2 ^ 66) + u0) * finv (ofZ (2 ^ 125))).
  set (rq := rg_free P f0 f0 f0 f0 0). set (rr := rg_free P r0 t1 t2 t3 2).
  set (T' := wsets T (cells c row (nm_list (x 0%Z) (x 1%Z) (x 2%Z) (x 3%Z) (y 0%Z) (y 1%Z) (y 2%Z) (y 3%Z) f0 f0 f0 f0 r0 t1 t2 t3 u0 u1
               u0 f0 f0 f0 u1 f0 f0 f0 ++ (rq ++ rr)))).
  assert (HO : forall j m, (4 <= m)%Z -> look (rq ++ rr) j m = None).
  { intros j m Hm. rewrite look_app. unfold rq, rr. rewrite !rg_free_high by lia. reflexivity. }
  assert (HQ : look (rq ++ rr) 0 0 = Some f0 /\ look (rq ++ rr) 1 0 = Some f0 /\ look (rq ++ rr) 2 0 = Some f0 /\ look (rq ++ rr) 3 0 = Some f0) by (repeat split).
  assert (HR : look (rq ++ rr) 0 2 = Some r0 /\ look (rq ++ rr) 1 2 = Some t1 /\ look (rq ++ rr) 2 2 = Some t2 /\ look (rq ++ rr) 3 2 = Some t3) by (repeat split).
  exists T'. split; [apply nm_frame; [exact Hwf|reflexivity]|]. split.
  - apply nm_sat; [exact Hwf|exact OA|exact OB|reflexivity|reflexivity|exact HQ|exact HR|exact HO| | |].
    + assert (Z0 : (ofZ 0 : F) = f0) by reflexivity.
      apply nm_gate_ok; [exact Hwf|reflexivity|exact HO| | | | |]; fold (x 0%Z) (x 1%Z) (x 2%Z) (x 3%Z) (y 0%Z) (y 1%Z) (y 2%Z) (y 3%Z).
      * unfold u0. clearbody r0. rewrite <- (Rmul_assoc (F_ring P)), finv_l by (apply pow2_nonzero; lia).
        generalize (ofZ (nn_m 0) : F) (ofZ (nn_m 1) : F) (ofZ (2 ^ 66) : F). intros. ring.
      * unfold u1. clearbody u0 r0. rewrite <- (Rmul_assoc (F_ring P)), finv_l by (apply pow2_nonzero; lia).
        generalize (ofZ (nn_m 0) : F) (ofZ (nn_m 1) : F) (ofZ (nn_m 2) : F) (ofZ (nn_m 3) : F) (ofZ (2 ^ 66) : F). intros. ring.
      * ring.
      * ring.
      * unfold r0, gl. generalize (ofZ ed_p : F) (ofZ (2 ^ 66) : F) (ofZ (2 ^ 132) : F) (ofZ (2 ^ 198) : F). intros. ring.
    + unfold T'. rewrite cells_app, wsets_app. eapply rg_free_ok. apply (cells_has_l _ c 9 row []); [exact Hwf|reflexivity|reflexivity|reflexivity|].
      intros j m z I. apply rg_free_other.
      unfold rq, rg_free in I. cbv zeta in I. cbn [In] in I. repeat (destruct I as [I|I]; [injection I as _ <- _; reflexivity|]). contradiction.
    + unfold T'. rewrite cells_app, wsets_app. eapply rg_free_ok. apply has_free_shift.
      apply (cells_has P _ c 9); [exact Hwf|reflexivity|reflexivity|reflexivity].
  - assert (V : forall i, (0 <= i < 4)%Z -> vval T' (nv (nm_out c row) i) = znth f0 [r0; t1; t2; t3] i).
    { intros i Hi. apply nm_out_val; [exact Hwf|reflexivity|exact HO|exact Hi]. }
    split; [apply (V 1%Z); lia|]. split; [apply (V 2%Z); lia|apply (V 3%Z); lia].
Qed.
End Honest.
End Mul.
