(** Multiples of Ed25519 points: bool scalar, one bit, a variable scalar. *)
From Coq Require Import ZArith List Lia Bool Field.
From Verif Require Import Base Field Plonk PlonkFacts Bits PvTape BitModel BitProofs NonNativeModel NonNativeProofs NonNativeArith
  NonNativeComp NonNativeWit NonNativeMul Ed25519 EdModel EdStage EdProofs EdPoint.
Import ListNotations.
Open Scope Z_scope.

Section Mul.
Variable P : params.
Notation F := (F P).
Notation table := (table P).
Variable L : lenv P.
Hypothesis big : 2 ^ 254 <= char P.
Implicit Types T : table.

Add Field Fmul : (F_field P) (morphism (F_morph P), constants [F_const], power_tac (F_power P) [F_pow_tac]).

(** ** Bool scalar *)
Lemma bs_x_nv : forall c row i, 0 <= i < 4 -> nv (bs_x c row) i = wcell (W c (5 + i)) (row + 1).
Proof. intros c row i Hi. destruct (four i Hi) as [-> |[-> |[-> | ->]]]; reflexivity. Qed.
Lemma bs_y_nv : forall c row i, 0 <= i < 4 -> nv (bs_y c row) i = wcell (W c (5 + i)) row.
Proof. intros c row i Hi. destruct (four i Hi) as [-> |[-> |[-> | ->]]]; reflexivity. Qed.
Lemma vals_of : forall T A (f : Z -> F), (forall i, 0 <= i < 4 -> vval T (nv A i) = f i) -> nn_vals T A = map (fun i => fval (f i)) (zseq 0 4).
Proof. intros T A f H. unfold nn_vals. apply map_ext_in. intros i Hi. apply in_zseq in Hi. rewrite H by exact Hi. reflexivity. Qed.
Lemma fval_0 : fval (f0 : F) = 0. Proof. apply Zmod_0_l. Qed.
Lemma fval_1 : fval (f1 : F) = 1.
Proof. pose proof (char_big P big). apply Z.mod_small. lia. Qed.

Ltac c5 := change (5 + 0) with 5; change (5 + 1) with 6; change (5 + 2) with 7; change (5 + 3) with 8.
Lemma bs_sound_l : forall T c Tx Ty k row, sat L T (bs_circuit c Tx Ty k row) ->
  (vval T k = f0 /\ nn_vals T (bs_x c row) = nn_chop 0 /\ nn_vals T (bs_y c row) = nn_chop 1) \/
  (vval T k = f1 /\ nn_vals T (bs_x c row) = nn_vals T Tx /\ nn_vals T (bs_y c row) = nn_vals T Ty).
Proof.
  intros T c Tx Ty k row S. unfold bs_circuit in S. rewrite sat_cons in S. destruct S as [G S]. rewrite holds_gate1 in G.
  unfold bs_copies in S. rewrite !sat_app, !sat_cons in S. destruct S as [S1 [[K1 _] [S2 [K2 _]]]]. cbn [holds] in K1, K2. rewrite vval_wcell in K1, K2.
  assert (X : forall i, 0 <= i < 4 -> T CWit (W c i) (row + 1) = vval T (nv Tx i)).
  { intros i Hi. specialize (S1 _ (in_map _ _ i (proj2 (in_zseq 0 4 i) Hi))). cbn [holds] in S1. rewrite vval_wcell in S1. exact S1. }
  assert (Y : forall i, 0 <= i < 4 -> T CWit (W c i) row = vval T (nv Ty i)).
  { intros i Hi. specialize (S2 _ (in_map _ _ i (proj2 (in_zseq 0 4 i) Hi))). cbn [holds] in S2. rewrite vval_wcell in S2. exact S2. }
  unfold bs_gate in G. cbv zeta in G. repeat (rewrite all_cons in G). destruct G as [G1 [G2 [G3 [G4 [G5 [G6 [G7 [G8 [G9 [G10 _]]]]]]]]]]. eval_hyps.
  rewrite K2 in G1, G3, G4, G5, G6. rewrite K1 in G7, G8, G9, G10.
  rewrite (X 0) in G7 by lia. rewrite (X 1) in G8 by lia. rewrite (X 2) in G9 by lia. rewrite (X 3) in G10 by lia.
  rewrite (Y 0) in G3 by lia. rewrite (Y 1) in G4 by lia. rewrite (Y 2) in G5 by lia. rewrite (Y 3) in G6 by lia.
  apply (proj1 (fsub_eq0 P _ _)) in G3, G4, G5, G6, G7, G8, G9, G10.
  apply fmul_integral in G1. destruct G1 as [G1|G1].
  - left. split; [exact G1|]. rewrite G1 in G3, G4, G5, G6, G7, G8, G9, G10. split.
    + rewrite (vals_of T (bs_x c row) (fun _ => f0)); [change (zseq 0 4) with [0; 1; 2; 3]; cbn [map]; rewrite fval_0; reflexivity|]. intros i Hi. rewrite bs_x_nv, vval_wcell by exact Hi.
      destruct (four i Hi) as [-> |[-> |[-> | ->]]]; c5; rewrite ?G7, ?G8, ?G9, ?G10; ring.
    + rewrite (vals_of T (bs_y c row) (fun i => if i =? 0 then f1 else f0)); [change (zseq 0 4) with [0; 1; 2; 3]; cbn [map Z.eqb]; rewrite fval_0, fval_1; reflexivity|]. intros i Hi. rewrite bs_y_nv, vval_wcell by exact Hi.
      destruct (four i Hi) as [-> |[-> |[-> | ->]]]; cbn [Z.eqb]; c5; rewrite ?G3, ?G4, ?G5, ?G6; ring.
  - right. apply (proj1 (fsub_eq0 P _ _)) in G1. split; [exact G1|]. rewrite G1 in G3, G4, G5, G6, G7, G8, G9, G10. split.
    + unfold nn_vals. apply map_ext_in. intros i Hi. apply in_zseq in Hi. f_equal. rewrite bs_x_nv, vval_wcell by exact Hi.
      destruct (four i Hi) as [-> |[-> |[-> | ->]]]; c5; rewrite ?G7, ?G8, ?G9, ?G10; ring.
    + unfold nn_vals. apply map_ext_in. intros i Hi. apply in_zseq in Hi. f_equal. rewrite bs_y_nv, vval_wcell by exact Hi.
      destruct (four i Hi) as [-> |[-> |[-> | ->]]]; c5; rewrite ?G3, ?G4, ?G5, ?G6; ring.
Qed.

Lemma bs_assign_cells : forall c Tx Ty k row T, exists l,
  bs_assign c Tx Ty k row T = wsets T (cells c row l) /\ in_cols 9 l = true /\ in_rows 2 l = true /\ distinct P l = true /\
  (let x i := vval T (nv Tx i) in let y i := vval T (nv Ty i) in let b := vval T k in
   l = [(0, 0, y 0); (1, 0, y 1); (2, 0, y 2); (3, 0, y 3); (4, 0, b);
    (5, 0, fadd (fmul b (y 0)) (fsub f1 b)); (6, 0, fmul b (y 1)); (7, 0, fmul b (y 2)); (8, 0, fmul b (y 3));
    (0, 1, x 0); (1, 1, x 1); (2, 1, x 2); (3, 1, x 3); (4, 1, b);
    (5, 1, fmul b (x 0)); (6, 1, fmul b (x 1)); (7, 1, fmul b (x 2)); (8, 1, fmul b (x 3))]).
Proof.
  intros c Tx Ty k row T. eexists. split; [|split; [|split; [|split; [|cbv zeta; reflexivity]]]]; [|reflexivity|reflexivity|reflexivity].
  unfold bs_assign. cbv zeta. unfold cells. cbn [map fst snd]. rewrite Z.add_0_r. reflexivity.
Qed.
Lemma bs_complete_l : forall T c Tx Ty k row, wf_comp c 9 -> nn_outside c 2 row Tx -> nn_outside c 2 row Ty -> outside c 2 row k ->
  (vval T k = f0 \/ vval T k = f1) ->
  let T' := bs_assign c Tx Ty k row T in
  sat L T' (bs_circuit c Tx Ty k row) /\ frame c 2 row T T'.
Proof.
  intros T c Tx Ty k row Hwf OX OY OK HB T'. destruct (bs_assign_cells c Tx Ty k row T) as [l [E [HC [HR [HD EL]]]]].
  assert (FR : frame c 2 row T T') by (unfold T'; rewrite E; apply (cells_frame P T c 9); assumption).
  assert (H : has P T' c row l).
  { unfold T'. rewrite E. apply (cells_has P T c 9 row [] l Hwf HC HC HD). }
  assert (X : forall i, 0 <= i < 4 -> vval T' (nv Tx i) = vval T (nv Tx i)) by (intros i Hi; apply (vval_frame P c 2 row _ _ _ FR (OX i Hi))).
  assert (Y : forall i, 0 <= i < 4 -> vval T' (nv Ty i) = vval T (nv Ty i)) by (intros i Hi; apply (vval_frame P c 2 row _ _ _ FR (OY i Hi))).
  assert (K : vval T' k = vval T k) by (apply (vval_frame P c 2 row _ _ _ FR OK)).
  split; [|exact FR]. clearbody T'. clear E HC HR HD FR. cbv zeta in EL. subst l.
  pose proof (H 0 0 _ (or_introl eq_refl)) as Y0.
  pose proof (H 1 0 _ ltac:(do 1 right; left; reflexivity)) as Y1.
  pose proof (H 2 0 _ ltac:(do 2 right; left; reflexivity)) as Y2.
  pose proof (H 3 0 _ ltac:(do 3 right; left; reflexivity)) as Y3.
  pose proof (H 4 0 _ ltac:(do 4 right; left; reflexivity)) as Y4.
  pose proof (H 5 0 _ ltac:(do 5 right; left; reflexivity)) as Y5.
  pose proof (H 6 0 _ ltac:(do 6 right; left; reflexivity)) as Y6.
  pose proof (H 7 0 _ ltac:(do 7 right; left; reflexivity)) as Y7.
  pose proof (H 8 0 _ ltac:(do 8 right; left; reflexivity)) as Y8.
  pose proof (H 0 1 _ ltac:(do 9 right; left; reflexivity)) as X0.
  pose proof (H 1 1 _ ltac:(do 10 right; left; reflexivity)) as X1.
  pose proof (H 2 1 _ ltac:(do 11 right; left; reflexivity)) as X2.
  pose proof (H 3 1 _ ltac:(do 12 right; left; reflexivity)) as X3.
  pose proof (H 4 1 _ ltac:(do 13 right; left; reflexivity)) as X4.
  pose proof (H 5 1 _ ltac:(do 14 right; left; reflexivity)) as X5.
  pose proof (H 6 1 _ ltac:(do 15 right; left; reflexivity)) as X6.
  pose proof (H 7 1 _ ltac:(do 16 right; left; reflexivity)) as X7.
  pose proof (H 8 1 _ ltac:(do 17 right; left; reflexivity)) as X8.
  rewrite Z.add_0_r in Y0, Y1, Y2, Y3, Y4, Y5, Y6, Y7, Y8. clear H. unfold bs_circuit. rewrite sat_cons. split.
  - rewrite holds_gate1. unfold bs_gate. cbv zeta. repeat (rewrite all_cons). eval_norm. rewrite !Z.add_0_r.
    rewrite Y0, Y1, Y2, Y3, Y4, Y5, Y6, Y7, Y8, X0, X1, X2, X3, X4, X5, X6, X7, X8. clear -HB. revert HB.
    generalize (vval T k) (vval T (nv Tx 0)) (vval T (nv Tx 1)) (vval T (nv Tx 2)) (vval T (nv Tx 3)) (vval T (nv Ty 0)) (vval T (nv Ty 1)) (vval T (nv Ty 2)) (vval T (nv Ty 3)).
    intros b x0 x1 x2 x3 y0 y1 y2 y3 HB.
    split; [destruct HB as [-> | ->]; ring|]. repeat (split; [ring|]). intros e [].
  - unfold bs_copies. rewrite !sat_app, !sat_cons. repeat apply conj.
    + intros g Hg. apply in_map_iff in Hg. destruct Hg as [i [<- Hi]]. apply in_zseq in Hi. cbn [holds]. rewrite vval_wcell, X by exact Hi.
      destruct (four i Hi) as [-> |[-> |[-> | ->]]]; assumption.
    + cbn [holds]. rewrite vval_wcell, K. exact X4.
    + intros g [].
    + intros g Hg. apply in_map_iff in Hg. destruct Hg as [i [<- Hi]]. apply in_zseq in Hi. cbn [holds]. rewrite vval_wcell, Y by exact Hi.
      destruct (four i Hi) as [-> |[-> |[-> | ->]]]; assumption.
    + cbn [holds]. rewrite vval_wcell, K. exact Y4.
    + intros g [].
Qed.
Lemma bs_reads : forall c (Q : ctype -> Z -> Z -> Prop) Tx Ty k row, (forall i r, row <= r < row + 2 -> Q CWit (W c i) r) ->
  ops_read Q Tx -> ops_read Q Ty -> var_reads Q k -> reads (P := P) Q (bs_circuit c Tx Ty k row).
Proof.
  intros c Q Tx Ty k row H HX HY HK. unfold bs_circuit. apply reads_cons. split.
  - intros r [<-|[]] e He. unfold bs_gate in He. cbv zeta in He. cbn [In] in He.
    repeat (destruct He as [<-|He]; [repeat first [apply conj | apply reads_ecst | apply reads_wv]; apply H; lia|]). contradiction.
  - unfold bs_copies. repeat (apply reads_app; split); try (apply reads_cons; split; [|apply reads_nil]).
    + apply reads_map. intros i Hi. apply in_zseq in Hi. split; [apply H; cbn; lia|apply HX; exact Hi].
    + split; [apply H; cbn; lia|exact HK].
    + apply reads_map. intros i Hi. apply in_zseq in Hi. split; [apply H; cbn; lia|apply HY; exact Hi].
    + split; [apply H; cbn; lia|exact HK].
Qed.

(** The bit as a number, and the values of limbs. *)
Definition good T (X Y : list var) (p : ed_point) : Prop := nn_small (nn_vals T X) /\ nn_small (nn_vals T Y) /\ pt_val T X Y = p.
Lemma has_good : forall T X Y p, has_pt P T X Y p -> good T X Y p.
Proof.
  intros T X Y p H. pose proof (has_pt_val P T X Y p H) as E. destruct H as [HX HY].
  split; [apply (has_val_facts P T X _ HX)|]. split; [apply (has_val_facts P T Y _ HY)|exact E].
Qed.
Definition bit_of T (k : var) : Z := fval (vval T k).
Lemma bs_good : forall T c Tx Ty k row t, sat L T (bs_circuit c Tx Ty k row) -> good T Tx Ty t -> on_ed t ->
  (bit_of T k = 0 \/ bit_of T k = 1) /\ good T (bs_x c row) (bs_y c row) (ed_times (bit_of T k) t).
Proof.
  intros T c Tx Ty k row t S [GX [GY GE]] Ht. destruct (bs_sound_l T c Tx Ty k row S) as [[K [EX EY]]|[K [EX EY]]]; unfold bit_of; rewrite K, ?fval_0, ?fval_1.
  - split; [left; reflexivity|]. unfold good. unfold pt_val. rewrite EX, EY. rewrite ed_times_0.
    split; [vm_compute; repeat split; congruence|]. split; [vm_compute; repeat split; congruence|]. unfold ed_zero. f_equal; apply F_ext; vm_compute; reflexivity.
  - split; [right; reflexivity|]. unfold good, pt_val. rewrite EX, EY. rewrite ed_times_1 by exact Ht. split; [exact GX|]. split; [exact GY|exact GE].
Qed.
Lemma bs_pt : forall T c Tx Ty k row t, sat L T (bs_circuit c Tx Ty k row) -> has_pt P T Tx Ty t -> on_ed t ->
  has_pt P T (bs_x c row) (bs_y c row) (ed_times (bit_of T k) t).
Proof.
  intros T c Tx Ty k row t S [HX HY] Ht. destruct (bs_sound_l T c Tx Ty k row S) as [[K [EX EY]]|[K [EX EY]]]; unfold bit_of; rewrite K, ?fval_0, ?fval_1.
  - rewrite ed_times_0. unfold has_pt, has_val. rewrite EX, EY. split; split; try reflexivity; vm_compute; split; congruence.
  - rewrite ed_times_1 by exact Ht. unfold has_pt, has_val. rewrite EX, EY. split; [exact HX|exact HY].
Qed.
(** ** One bit *)
Definition pb_looked T (c : comp) (row : Z) : Prop :=
  prog_looked P T c (db_prog c [] [] 0 0 (row + 2)) (row + 2) /\ db_missing P T c (row + 2) /\ prog_looked P T c (ca_prog c [] [] [] [] 0 0 (row + 65)) (row + 65).
Lemma db_looked_any : forall T c Tx Ty Tx' Ty' row, prog_looked P T c (db_prog c Tx Ty 0 0 row) row -> prog_looked P T c (db_prog c Tx' Ty' 0 0 row) row.
Proof. intros T c Tx Ty Tx' Ty' row H. exact H. Qed.
Lemma ca_looked_any : forall T c Tx Ty Rx Ry Tx' Ty' Rx' Ry' row, prog_looked P T c (ca_prog c Tx Ty Rx Ry 0 0 row) row -> prog_looked P T c (ca_prog c Tx' Ty' Rx' Ry' 0 0 row) row.
Proof. intros T c Tx Ty Rx Ry Tx' Ty' Rx' Ry' row H. exact H. Qed.
Lemma pb_own : forall c row, (forall i, 0 <= i < 4 -> W c i = i) -> pb_x row = own c (row + 65) /\ pb_y row = own c (row + 67).
Proof.
  intros c row HW. unfold pb_x, pb_y. replace (row + 141 - 76) with (row + 65) by lia. replace (row + 65 + 2) with (row + 67) by lia.
  split; unfold own; change (zseq 0 4) with [0; 1; 2; 3]; cbn [map]; rewrite !HW by lia; reflexivity.
Qed.
Lemma pb_good : forall T c Tx Ty Rx Ry k row t r, (forall i, 0 <= i < 4 -> W c i = i) ->
  sat L T (pb_circuit c Tx Ty Rx Ry k row) -> pb_looked T c row -> good T Tx Ty t -> good T Rx Ry r -> on_ed t -> on_ed r ->
  (bit_of T k = 0 \/ bit_of T k = 1) /\ good T (pb_x row) (pb_y row) (ed_add (ed_add r r) (ed_times (bit_of T k) t)) /\
  nn_glue_z (nn_vals T (pb_x row)) < ed_p /\ nn_glue_z (nn_vals T (pb_y row)) < ed_p.
Proof.
  intros T c Tx Ty Rx Ry k row t r HW S [LD [M LC]] Gt [RX [RY RE]] Ht Hr. destruct (pb_own c row HW) as [-> ->].
  unfold pb_circuit in S. rewrite !sat_app in S. destruct S as [S1 [S2 S3]].
  destruct (bs_good T c Tx Ty k row t S1 Gt Ht) as [HB [BX [BY BE]]]. split; [exact HB|].
  destruct (db_sound_l P L big T c Rx Ry (row + 2) S2 LD M RX RY) as [DX [DY [_ [_ DE]]]]; [rewrite RE; exact Hr|]. rewrite RE in DE.
  replace (row + 2 + 2) with (row + 4) in * by lia.
  destruct (ca_sound_l P L big T c _ _ _ _ (row + 65) S3 LC DX DY BX BY) as [CX [CY [NX [NY CE]]]].
  { rewrite DE. apply ed_add_closed; exact Hr. }
  { rewrite BE. apply ed_times_on; [lia|exact Ht]. }
  replace (row + 65 + 2) with (row + 67) in * by lia. rewrite DE, BE in CE.
  split; [split; [exact CX|split; [exact CY|exact CE]]|]. split; assumption.
Qed.

Lemma prog_looked_frame : forall c l n r T T' row, frame c n r T T' -> row + prog_rows l <= r -> prog_looked P T c l row -> prog_looked P T' c l row.
Proof.
  intros c l. induction l as [|s l IH]; intros n r T T' row HF H X; [exact I|]. cbn [prog_looked prog_rows] in *. destruct X as [X1 X2].
  assert (0 <= prog_rows l) by (clear; induction l as [|s l IH]; cbn [prog_rows]; [lia|]; destruct s; cbn [st_rows]; lia).
  split; [eapply st_looked_frame; eauto; lia|]. eapply IH; eauto. lia.
Qed.
Lemma pb_looked_frame : forall c n r T T' row, frame c n r T T' -> row + 141 <= r -> pb_looked T c row -> pb_looked T' c row.
Proof.
  intros c n r T T' row HF H [X1 [[M1 M2] X3]]. split; [|split].
  - eapply prog_looked_frame; [exact HF| |exact X1]. cbn [prog_rows]. change (prog_rows (db_prog c [] [] 0 0 (row + 2))) with 63. lia.
  - split; rewrite !(cell_frame P c n r T T') by (auto; lia); assumption.
  - eapply prog_looked_frame; [exact HF| |exact X3]. change (prog_rows (ca_prog c [] [] [] [] 0 0 (row + 65))) with 76. lia.
Qed.
Lemma outside_ops : forall c n r A, nn_outside c n r A -> ops_read (fun ty col row => ~ in_area c n r ty col row) A.
Proof. intros c n r A H i Hi. exact (H i Hi). Qed.
Lemma nn_outside_sub : forall c n r n' r' A, r <= r' -> r' + n' <= r + n -> nn_outside c n r A -> nn_outside c n' r' A.
Proof. intros c n r n' r' A H1 H2 H i Hi. eapply outside_sub; eauto. Qed.
Lemma own_outside : forall c n r row, row < r \/ r + n <= row -> nn_outside c n r (own c row).
Proof. intros c n r row H i Hi. rewrite own_nv by exact Hi. exact (fresh_own c n r i row H). Qed.
Lemma bsx_outside : forall c n r row, row + 2 <= r -> nn_outside c n r (bs_x c row).
Proof. intros c n r row H i Hi. rewrite bs_x_nv by exact Hi. exact (fresh_own c n r (5 + i) (row + 1) ltac:(lia)). Qed.
Lemma bsy_outside : forall c n r row, row + 2 <= r -> nn_outside c n r (bs_y c row).
Proof. intros c n r row H i Hi. rewrite bs_y_nv by exact Hi. exact (fresh_own c n r (5 + i) row ltac:(lia)). Qed.
Lemma has_pt_frame : forall T T' c n r X Y p, frame c n r T T' -> nn_outside c n r X -> nn_outside c n r Y -> has_pt P T X Y p -> has_pt P T' X Y p.
Proof. intros T T' c n r X Y p HF OX OY [HX HY]. split; eapply has_val_frame; eauto. Qed.
Lemma pb_reads : forall c n r Tx Ty Rx Ry k row, row + 141 <= r ->
  nn_outside c n r Tx -> nn_outside c n r Ty -> nn_outside c n r Rx -> nn_outside c n r Ry -> outside c n r k ->
  reads (P := P) (fun ty col row => ~ in_area c n r ty col row) (pb_circuit c Tx Ty Rx Ry k row).
Proof.
  intros c n r Tx Ty Rx Ry k row H O1 O2 O3 O4 OK. unfold pb_circuit. apply reads_app. split; [|apply reads_app; split].
  - apply bs_reads; [intros i q Hq; apply fresh_own; lia|apply outside_ops; assumption|apply outside_ops; assumption|exact OK].
  - apply db_reads; [intros i q Hq; apply fresh_own; lia|apply outside_ops; assumption|apply outside_ops; assumption].
  - apply ca_reads; [intros i q Hq; apply fresh_own; lia|intros q [A _]; discriminate| | | |]; apply outside_ops;
      [apply own_outside; lia|apply own_outside; lia|apply bsx_outside; lia|apply bsy_outside; lia].
Qed.
Lemma ca_consts_sat : forall T c Tx Ty Rx Ry row, consts_in T (ca_circuit c Tx Ty Rx Ry row) -> sat L T (ca_consts c row).
Proof.
  intros T c Tx Ty Rx Ry row H x Hx. assert (I : In x (ca_circuit c Tx Ty Rx Ry row)).
  { rewrite (ca_circuit_prog P c Tx Ty Rx Ry 0 0 row). apply in_or_app. right. apply in_or_app. left. exact Hx. }
  unfold ca_consts in Hx. cbn [In] in Hx. repeat (destruct Hx as [<-|Hx]; [exact (H _ _ _ I)|]). contradiction.
Qed.
Lemma consts_app : forall T (a b : list (cmd P)), consts_in T (a ++ b) -> consts_in T a /\ consts_in T b.
Proof. intros T a b H. split; intros col r v I; apply H; apply in_or_app; [left|right]; exact I. Qed.

Lemma pb_complete_l : forall T c Tx Ty Rx Ry k row t r, wf_comp c 9 -> (forall i, 0 <= i < 4 -> W c i = i) ->
  nn_outside c 141 row Tx -> nn_outside c 141 row Ty -> nn_outside c 141 row Rx -> nn_outside c 141 row Ry -> outside c 141 row k ->
  consts_in T (pb_circuit c Tx Ty Rx Ry k row) ->
  has_pt P T Tx Ty t -> has_pt P T Rx Ry r -> on_ed t -> on_ed r -> (bit_of T k = 0 \/ bit_of T k = 1) ->
  ed_dbl_ok r -> ed_add_ok (ed_add r r) (ed_times (bit_of T k) t) ->
  let T' := pb_assign c Tx Ty Rx Ry k row T in
  sat L T' (pb_circuit c Tx Ty Rx Ry k row) /\ frame c 141 row T T' /\ pb_looked T' c row /\
  has_pt P T' (pb_x row) (pb_y row) (ed_add (ed_add r r) (ed_times (bit_of T k) t)).
Proof.
  intros T c Tx Ty Rx Ry k row t r Hwf HW O1 O2 O3 O4 OK HK Gt Gr Ht Hr HB D A T'. destruct (pb_own c row HW) as [-> ->].
  unfold pb_circuit in HK. apply consts_app in HK. destruct HK as [_ HK]. apply consts_app in HK. destruct HK as [_ HK].
  set (T1 := bs_assign c Tx Ty k row T). set (T2 := db_assign c Rx Ry (row + 2) T1).
  assert (ET : T' = ca_assign c (own c (row + 2)) (own c (row + 4)) (bs_x c row) (bs_y c row) (row + 65) T2) by reflexivity.
  clearbody T'.
  destruct (bs_complete_l T c Tx Ty k row Hwf) as [S1 F1];
    [eapply nn_outside_sub; [| |exact O1]; lia|eapply nn_outside_sub; [| |exact O2]; lia|eapply outside_sub; [| |exact OK]; lia| |].
  { unfold bit_of in HB. destruct HB as [HB|HB]; [left|right]; apply F_ext; rewrite HB; symmetry; [apply fval_0|apply fval_1]. }
  fold T1 in S1, F1.
  assert (B1 : bit_of T1 k = bit_of T k) by (unfold bit_of; rewrite (vval_frame P c 2 row T T1 k F1); [reflexivity|eapply outside_sub; [| |exact OK]; lia]).
  assert (Gt1 : has_pt P T1 Tx Ty t) by (eapply has_pt_frame; [exact F1| | |exact Gt]; (eapply nn_outside_sub; [| |eassumption]; lia)).
  assert (Gr1 : has_pt P T1 Rx Ry r) by (eapply has_pt_frame; [exact F1| | |exact Gr]; (eapply nn_outside_sub; [| |eassumption]; lia)).
  pose proof (bs_pt T1 c Tx Ty k row t S1 Gt1 Ht) as Gb. rewrite B1 in Gb.
  destruct (db_pt P L big T1 c Rx Ry (row + 2) Hwf HW) with (p := r) as [S2 [M2 [F2 [L2 G2]]]];
    [eapply nn_outside_sub; [| |exact O3]; lia|eapply nn_outside_sub; [| |exact O4]; lia|exact Gr1|exact Hr|exact D|].
  fold T2 in S2, M2, F2, L2, G2. replace (row + 2 + 2) with (row + 4) in G2 by lia.
  assert (Gb2 : has_pt P T2 (bs_x c row) (bs_y c row) (ed_times (bit_of T k) t)).
  { eapply has_pt_frame; [exact F2| | |exact Gb]; [apply bsx_outside; lia|apply bsy_outside; lia]. }
  destruct (ca_pt P L big T2 c (own c (row + 2)) (own c (row + 4)) (bs_x c row) (bs_y c row) (row + 65) Hwf HW) with (p := ed_add r r) (q := ed_times (bit_of T k) t)
    as [S3 [F3 [L3 G3]]];
    [apply own_outside; lia|apply own_outside; lia|apply bsx_outside; lia|apply bsy_outside; lia| |exact G2|exact Gb2|apply ed_add_closed; exact Hr|
     apply ed_times_on; [lia|exact Ht]|exact A|].
  { eapply ca_consts_sat. eapply consts_in_frame; [exact F2|]. eapply consts_in_frame; [exact F1|]. exact HK. }
  rewrite <- ET in S3, F3, L3, G3. replace (row + 65 + 2) with (row + 67) in G3 by lia.
  split; [|split; [|split]].
  - unfold pb_circuit. rewrite !sat_app. split; [|split; [|exact S3]].
    + eapply sat_frame; [exact F3| |eapply sat_frame; [exact F2| |exact S1]].
      * apply bs_reads; [intros i q Hq; apply fresh_own; lia|apply outside_ops; (eapply nn_outside_sub; [| |eassumption]; lia)|apply outside_ops; (eapply nn_outside_sub; [| |eassumption]; lia)|].
        eapply (outside_sub _ _ _ 76 (row + 65)) in OK; [exact OK|lia|lia].
      * apply bs_reads; [intros i q Hq; apply fresh_own; lia|apply outside_ops; (eapply nn_outside_sub; [| |eassumption]; lia)|apply outside_ops; (eapply nn_outside_sub; [| |eassumption]; lia)|].
        eapply (outside_sub _ _ _ 63 (row + 2)) in OK; [exact OK|lia|lia].
    + eapply sat_frame; [exact F3| |exact S2].
      apply db_reads; [intros i q Hq; apply fresh_own; lia|apply outside_ops; (eapply nn_outside_sub; [| |eassumption]; lia)|apply outside_ops; (eapply nn_outside_sub; [| |eassumption]; lia)].
  - eapply frame_trans; [eapply frame_sub; [| |exact F1]; lia|]. eapply frame_trans; [eapply frame_sub; [| |exact F2]; lia|]. eapply frame_sub; [| |exact F3]; lia.
  - split; [|split].
    + eapply prog_looked_frame; [exact F3| |exact L2]. change (prog_rows (db_prog c [] [] 0 0 (row + 2))) with 63. lia.
    + destruct M2 as [M2 M2']. split; rewrite !(cell_frame P c 76 (row + 65) T2 T') by (auto; lia); assumption.
    + exact L3.
  - exact G3.
Qed.

(** ** All bits *)
Fixpoint vb_last (f : Z -> list var) (A : list var) (bits : list var) (row : Z) : list var :=
  match bits with [] => A | _ :: bits => vb_last f (f row) bits (row + 141) end.
Fixpoint vb_looked T (c : comp) (bits : list var) (row : Z) : Prop :=
  match bits with [] => True | _ :: bits => pb_looked T c row /\ vb_looked T c bits (row + 141) end.
Fixpoint vb_number T (bits : list var) (m : Z) : Z :=
  match bits with [] => m | b :: bits => vb_number T bits (2 * m + bit_of T b) end.
Definition under T (X Y : list var) : Prop := nn_glue_z (nn_vals T X) < ed_p /\ nn_glue_z (nn_vals T Y) < ed_p.

Lemma next_times : forall m b t, 0 <= m -> 0 <= b -> on_ed t ->
  ed_add (ed_add (ed_times m t) (ed_times m t)) (ed_times b t) = ed_times (2 * m + b) t.
Proof. intros m b t Hm Hb Ht. rewrite <- !ed_times_add by (assumption || lia). f_equal. lia. Qed.

Lemma steps_good : forall T c Tx Ty t bits Rx Ry row m, (forall i, 0 <= i < 4 -> W c i = i) ->
  sat L T (vb_steps c Tx Ty bits Rx Ry row) -> vb_looked T c bits row -> good T Tx Ty t -> on_ed t -> 0 <= m -> good T Rx Ry (ed_times m t) ->
  good T (vb_last pb_x Rx bits row) (vb_last pb_y Ry bits row) (ed_times (vb_number T bits m) t) /\
  (bits <> [] -> under T (vb_last pb_x Rx bits row) (vb_last pb_y Ry bits row)).
Proof.
  intros T c Tx Ty t bits. induction bits as [|b bits IH]; intros Rx Ry row m HW S HL Gt Ht Hm Gr.
  - split; [exact Gr|]. intros K. destruct (K eq_refl).
  - cbn [vb_steps vb_looked vb_last vb_number] in *. rewrite sat_app in S. destruct S as [S1 S2], HL as [L1 L2].
    destruct (pb_good T c Tx Ty Rx Ry b row t _ HW S1 L1 Gt Gr Ht (ed_times_on m t Hm Ht)) as [HB [G U]].
    rewrite next_times in G by (assumption || lia).
    destruct (IH (pb_x row) (pb_y row) (row + 141) (2 * m + bit_of T b) HW S2 L2 Gt Ht ltac:(lia) G) as [G' U'].
    split; [exact G'|]. intros _. destruct bits as [|b' bits]; [exact U|]. apply U'. discriminate.
Qed.

(** The doublings and additions the honest prover makes. *)
Fixpoint vb_fine T (t : ed_point) (bits : list var) (m : Z) : Prop :=
  match bits with
  | [] => True
  | b :: bits => ed_dbl_ok (ed_times m t) /\ ed_add_ok (ed_times (2 * m) t) (ed_times (bit_of T b) t) /\ vb_fine T t bits (2 * m + bit_of T b)
  end.
Lemma bit_frame : forall T T' c n r b, frame c n r T T' -> outside c n r b -> bit_of T' b = bit_of T b.
Proof. intros T T' c n r b HF HO. unfold bit_of. rewrite (vval_frame P c n r T T' b HF HO). reflexivity. Qed.
Lemma fine_frame : forall T T' c n r t bits m, frame c n r T T' -> (forall b, In b bits -> outside c n r b) -> vb_fine T t bits m -> vb_fine T' t bits m.
Proof.
  intros T T' c n r t bits. induction bits as [|b bits IH]; intros m HF HO H; [exact I|]. cbn [vb_fine] in *.
  rewrite (bit_frame T T' c n r b HF (HO b (or_introl eq_refl))). destruct H as [H1 [H2 H3]]. split; [exact H1|]. split; [exact H2|].
  apply IH; [exact HF| |exact H3]. intros x Hx. apply HO. right. exact Hx.
Qed.
Lemma number_frame : forall T T' c n r bits m, frame c n r T T' -> (forall b, In b bits -> outside c n r b) -> vb_number T' bits m = vb_number T bits m.
Proof.
  intros T T' c n r bits. induction bits as [|b bits IH]; intros m HF HO; [reflexivity|]. cbn [vb_number].
  rewrite (bit_frame T T' c n r b HF (HO b (or_introl eq_refl))). apply IH; [exact HF|]. intros x Hx. apply HO. right. exact Hx.
Qed.
Definition len (bits : list var) : Z := Z.of_nat (length bits).
Lemma len_cons : forall b bits, len (b :: bits) = len bits + 1. Proof. intros. unfold len. cbn [length]. lia. Qed.
Lemma pb_outside : forall c n r row, (forall i, 0 <= i < 4 -> W c i = i) -> row + 141 <= r -> nn_outside c n r (pb_x row) /\ nn_outside c n r (pb_y row).
Proof. intros c n r row HW H. destruct (pb_own c row HW) as [-> ->]. split; apply own_outside; lia. Qed.

Lemma steps_complete : forall c Tx Ty t, wf_comp c 9 -> (forall i, 0 <= i < 4 -> W c i = i) -> on_ed t ->
  forall bits Rx Ry row m T, let n := 141 * len bits in
  nn_outside c n row Tx -> nn_outside c n row Ty -> nn_outside c n row Rx -> nn_outside c n row Ry -> (forall b, In b bits -> outside c n row b) ->
  consts_in T (vb_steps c Tx Ty bits Rx Ry row) ->
  has_pt P T Tx Ty t -> 0 <= m -> has_pt P T Rx Ry (ed_times m t) -> (forall b, In b bits -> bit_of T b = 0 \/ bit_of T b = 1) ->
  vb_fine T t bits m ->
  let T' := vb_steps_assign c Tx Ty bits Rx Ry row T in
  sat L T' (vb_steps c Tx Ty bits Rx Ry row) /\ frame c n row T T' /\ vb_looked T' c bits row /\
  has_pt P T' (vb_last pb_x Rx bits row) (vb_last pb_y Ry bits row) (ed_times (vb_number T bits m) t).
Proof.
  intros c Tx Ty t Hwf HW Ht. induction bits as [|b bits IH]; intros Rx Ry row m T n O1 O2 O3 O4 OB HK Gt Hm Gr HB HF T'.
  - unfold T'. cbn [vb_steps_assign vb_steps vb_last vb_number vb_looked]. split; [intros x []|]. split; [intros ty col q _; reflexivity|]. split; [exact I|exact Gr].
  - cbn [vb_steps vb_fine] in HK, HF. apply consts_app in HK. destruct HK as [HK1 HK2]. destruct HF as [D [A HF]].
    assert (NN : n = 141 + 141 * len bits) by (unfold n; rewrite len_cons; lia). assert (N0 : 0 <= len bits) by (unfold len; lia). clearbody n.
    set (T1 := pb_assign c Tx Ty Rx Ry b row T).
    assert (ET : T' = vb_steps_assign c Tx Ty bits (pb_x row) (pb_y row) (row + 141) T1) by reflexivity. clearbody T'.
    pose proof (HB b (or_introl eq_refl)) as HBb. pose proof (OB b (or_introl eq_refl)) as OBb.
    destruct (pb_complete_l T c Tx Ty Rx Ry b row t (ed_times m t) Hwf HW) as [S1 [F1 [L1 G1]]];
      [(eapply nn_outside_sub; [| |eassumption]; lia)|(eapply nn_outside_sub; [| |eassumption]; lia)|(eapply nn_outside_sub; [| |eassumption]; lia)|
       (eapply nn_outside_sub; [| |eassumption]; lia)|eapply outside_sub; [| |exact OBb]; lia|exact HK1|exact Gt|exact Gr|exact Ht|apply ed_times_on; assumption|exact HBb|exact D| |].
    { replace (ed_add (ed_times m t) (ed_times m t)) with (ed_times (2 * m) t); [exact A|]. rewrite <- ed_times_add by assumption. f_equal. lia. }
    fold T1 in S1, F1, L1, G1. rewrite next_times in G1 by (assumption || lia).
    assert (OB1 : forall x, In x bits -> outside c 141 row x) by (intros x Hx; eapply outside_sub; [| |exact (OB x (or_intror Hx))]; lia).
    assert (OB2 : forall x, In x bits -> outside c (141 * len bits) (row + 141) x) by (intros x Hx; eapply outside_sub; [| |exact (OB x (or_intror Hx))]; lia).
    destruct (pb_outside c (141 * len bits) (row + 141) row HW ltac:(lia)) as [PX PY].
    destruct (IH (pb_x row) (pb_y row) (row + 141) (2 * m + bit_of T b) T1) as [S2 [F2 [L2 G2]]];
      [(eapply nn_outside_sub; [| |eassumption]; lia)|(eapply nn_outside_sub; [| |eassumption]; lia)|exact PX|exact PY|exact OB2|
       eapply consts_in_frame; [exact F1|exact HK2]| |lia|exact G1| | |].
    { eapply has_pt_frame; [exact F1| | |exact Gt]; (eapply nn_outside_sub; [| |eassumption]; lia). }
    { intros x Hx. rewrite (bit_frame T T1 c 141 row x F1 (OB1 x Hx)). apply HB. right. exact Hx. }
    { eapply fine_frame; [exact F1|exact OB1|exact HF]. }
    rewrite <- ET in S2, F2, L2, G2. rewrite (number_frame T T1 c 141 row bits _ F1 OB1) in G2.
    cbn [vb_steps vb_looked vb_last vb_number]. split; [|split; [|split]].
    + rewrite sat_app. split; [|exact S2]. eapply sat_frame; [exact F2| |exact S1].
      apply pb_reads; [lia|(eapply nn_outside_sub; [| |eassumption]; lia)|(eapply nn_outside_sub; [| |eassumption]; lia)|(eapply nn_outside_sub; [| |eassumption]; lia)|
        (eapply nn_outside_sub; [| |eassumption]; lia)|eapply outside_sub; [| |exact OBb]; lia].
    + eapply frame_trans; [eapply frame_sub; [| |exact F1]; lia|eapply frame_sub; [| |exact F2]; lia].
    + split; [eapply pb_looked_frame; [exact F2|lia|exact L1]|exact L2].
    + exact G2.
Qed.

(** The last output and the number of the bits of [k]. *)
Lemma last_nth : forall f bits A row, bits <> [] -> vb_last f A bits row = f (row + 141 * len bits - 141).
Proof.
  intros f bits. induction bits as [|b bits IH]; intros A row H; [destruct (H eq_refl)|]. cbn [vb_last]. rewrite len_cons.
  destruct bits as [|b' bits]; [cbn [vb_last]; f_equal; unfold len; cbn [length]; lia|]. rewrite IH by discriminate. f_equal. lia.
Qed.
Lemma half_bit : forall k n, 0 <= n -> k / 2 ^ n = 2 * (k / 2 ^ (n + 1)) + Z.b2z (Z.testbit k n).
Proof.
  intros k n Hn. rewrite <- (Z.add_0_l n) at 3. rewrite <- Z.div_pow2_bits by lia. rewrite Z.pow_add_r, <- Z.div_div by (try apply Z.pow_nonzero; lia).
  change (2 ^ 1) with 2. rewrite Z.bit0_odd. rewrite (Z.div_mod (k / 2 ^ n) 2) at 1 by lia. rewrite Zmod_odd. unfold Z.b2z. reflexivity.
Qed.
Lemma number_bits : forall T (f : Z -> var) k n i, 0 <= i <= n -> (forall j, 0 <= j < n -> bit_of T (f j) = Z.b2z (Z.testbit k (n - 1 - j))) ->
  forall l, l = zseq i n -> vb_number T (map f l) (k / 2 ^ (n - i)) = k.
Proof.
  intros T f k n i Hi HB l. revert i Hi. induction l as [|x l IH]; intros i Hi E.
  - cbn [map vb_number]. assert (i = n). { destruct (Z.eq_dec i n) as [e|e]; [exact e|]. unfold zseq in E. replace (Z.to_nat (n - i)) with (S (Z.to_nat (n - i - 1))) in E by lia. discriminate. }
    subst i. rewrite Z.sub_diag. apply Z.div_1_r.
  - assert (i < n). { destruct (Z.eq_dec i n) as [e|e]; [|lia]. subst. unfold zseq in E. rewrite Z.sub_diag in E. discriminate. }
    unfold zseq in E. replace (Z.to_nat (n - i)) with (S (Z.to_nat (n - (i + 1)))) in E by lia. cbn [zrange] in E. injection E as E1 E2. subst x. cbn [map vb_number].
    rewrite HB by lia. replace (n - i) with ((n - 1 - i) + 1) by lia. rewrite <- half_bit by lia.
    replace (n - 1 - i) with (n - (i + 1)) by lia. apply IH; [lia|]. rewrite E2. unfold zseq. reflexivity.
Qed.

Lemma zseq_split : forall i n x l, i <= n -> x :: l = zseq i n -> i < n /\ x = i /\ l = zseq (i + 1) n.
Proof.
  intros i n x l Hi E. assert (i < n). { destruct (Z.eq_dec i n) as [e|e]; [|lia]. subst. unfold zseq in E. rewrite Z.sub_diag in E. discriminate. }
  unfold zseq in E. replace (Z.to_nat (n - i)) with (S (Z.to_nat (n - (i + 1)))) in E by lia. cbn [zrange] in E. injection E as E1 E2. auto.
Qed.
Lemma fine_bits : forall T (f : Z -> var) k n t i, 0 <= i <= n -> (forall j, 0 <= j < n -> bit_of T (f j) = Z.b2z (Z.testbit k (n - 1 - j))) ->
  (forall j, i <= j < n -> let m := k / 2 ^ (n - j) in ed_dbl_ok (ed_times m t) /\ ed_add_ok (ed_times (2 * m) t) (ed_times (Z.b2z (Z.testbit k (n - 1 - j))) t)) ->
  forall l, l = zseq i n -> vb_fine T t (map f l) (k / 2 ^ (n - i)).
Proof.
  intros T f k n t i Hi HB HF l. revert i Hi HF. induction l as [|x l IH]; intros i Hi HF E; [exact I|].
  destruct (zseq_split i n x l ltac:(lia) E) as [H [-> E2]]. cbn [map vb_fine]. rewrite HB by lia. destruct (HF i ltac:(lia)) as [H1 H2].
  split; [exact H1|]. split; [exact H2|]. replace (n - i) with ((n - 1 - i) + 1) by lia. rewrite <- half_bit by lia.
  replace (n - 1 - i) with (n - (i + 1)) by lia. apply IH; [lia| |exact E2]. intros j Hj. apply HF. lia.
Qed.
Lemma looked_all : forall T c bits row, vb_looked T c bits row <-> forall j, 0 <= j < len bits -> pb_looked T c (row + 141 * j).
Proof.
  intros T c bits. induction bits as [|b bits IH]; intros row; cbn [vb_looked].
  - split; [|auto]. intros _ j Hj. unfold len in Hj. cbn [length] in Hj. lia.
  - rewrite IH, len_cons. split.
    + intros [H0 H] j Hj. destruct (Z.eq_dec j 0) as [e|e]; [subst j; replace (row + 141 * 0) with row by lia; exact H0|].
      replace (row + 141 * j) with (row + 141 + 141 * (j - 1)) by lia. apply H. lia.
    + intros H. assert (0 <= len bits) by (unfold len; lia). split; [replace row with (row + 141 * 0) by lia; apply H; lia|].
      intros j Hj. replace (row + 141 + 141 * j) with (row + 141 * (j + 1)) by lia. apply H. lia.
Qed.

Lemma top_bit : forall k, 0 <= k < 2 ^ 253 -> k / 2 ^ 252 = Z.b2z (Z.testbit k 252).
Proof. intros k Hk. rewrite half_bit by lia. change (252 + 1) with 253. rewrite (Z.div_small k (2 ^ 253)) by exact Hk. lia. Qed.
Lemma vb_len : forall c n msb row, len (map (vb_bit c n msb row) (zseq 1 253)) = 252.
Proof. intros. unfold len. rewrite map_length. reflexivity. Qed.
Lemma vb_not_nil : forall c n msb row, map (vb_bit c n msb row) (zseq 1 253) <> [].
Proof. intros c n msb row H. apply (f_equal len) in H. rewrite vb_len in H. discriminate. Qed.
Lemma vb_last_x : forall c n msb row A, vb_last pb_x A (map (vb_bit c n msb row) (zseq 1 253)) (vb_row0 n row + 2) = vb_x n row.
Proof. intros. rewrite last_nth by apply vb_not_nil. rewrite vb_len. unfold vb_x. f_equal. unfold vb_row0, vb_rows. lia. Qed.
Lemma vb_last_y : forall c n msb row A, vb_last pb_y A (map (vb_bit c n msb row) (zseq 1 253)) (vb_row0 n row + 2) = vb_y n row.
Proof. intros. rewrite last_nth by apply vb_not_nil. rewrite vb_len. unfold vb_y. f_equal. unfold vb_row0, vb_rows. lia. Qed.

(** [K] has the first 253 outputs as its bits, most significant first. *)
Definition first_bits (n : Z) (msb : bool) (k K : Z) : Prop :=
  0 <= K < 2 ^ 253 /\ forall j, 0 <= j < 253 -> Z.testbit K (252 - j) = Z.testbit k (if msb then n - 1 - j else j).
Lemma first_msb : forall n k, 253 <= n -> 0 <= k < 2 ^ n -> first_bits n true k (k / 2 ^ (n - 253)).
Proof.
  intros n k Hn Hk. split.
  - split; [apply Z.div_pos; [lia|apply Z.pow_pos_nonneg; lia]|]. apply Z.div_lt_upper_bound; [apply Z.pow_pos_nonneg; lia|]. rewrite <- Z.pow_add_r by lia.
    replace (n - 253 + 253) with n by lia. lia.
  - intros j Hj. rewrite Z.div_pow2_bits by lia. f_equal. lia.
Qed.

Lemma vb_sound_l : forall T c n msb Tx Ty k row t K, wamount c = 9 -> (forall i, 0 <= i < 4 -> W c i = i) -> C c 0 = 0 ->
  253 <= n < modulus_bits P ->
  sat L T (vb_circuit c n msb Tx Ty k row) -> (forall j, 0 <= j < 252 -> pb_looked T c (vb_row0 n row + 2 + 141 * j)) ->
  good T Tx Ty t -> on_ed t -> first_bits n msb (fval (vval T k)) K ->
  fval (vval T k) < 2 ^ n /\ good T (vb_x n row) (vb_y n row) (ed_times K t) /\ under T (vb_x n row) (vb_y n row).
Proof.
  intros T c n msb Tx Ty k row t K Hw HW HC Hn S HL Gt Ht [RK HK]. unfold vb_circuit in S. cbv zeta in S. rewrite !sat_app in S. destruct S as [S1 [S2 S3]].
  destruct (bd_sound_l P L T c 9 n msb k row Hw ltac:(lia) ltac:(lia) HC S1) as [Hk HB]. split; [exact Hk|].
  assert (HB' : forall j, 0 <= j < 253 -> bit_of T (vb_bit c n msb row j) = Z.b2z (Z.testbit K (253 - 1 - j))).
  { intros j Hj. change (253 - 1 - j) with (252 - j). rewrite HK by exact Hj. apply HB. lia. } clear HB.
  destruct (bs_good T c Tx Ty _ _ t S2 Gt Ht) as [B0 G0].
  pose proof (HB' 0 ltac:(lia)) as E0. change (253 - 1 - 0) with 252 in E0. rewrite <- top_bit in E0 by exact RK.
  assert (N0 : 0 <= K / 2 ^ 252) by (apply Z.div_pos; [apply RK|reflexivity]).
  rewrite E0 in G0.
  destruct (steps_good T c Tx Ty t _ _ _ _ (K / 2 ^ 252) HW S3) as [G U]; [apply looked_all; rewrite vb_len; exact HL|exact Gt|exact Ht|exact N0|exact G0|].
  rewrite vb_last_x, vb_last_y in G, U.
  change (K / 2 ^ 252) with (K / 2 ^ (253 - 1)) in G. rewrite (number_bits T (vb_bit c n msb row) K 253 1 ltac:(lia) HB' _ eq_refl) in G.
  split; [exact G|apply U; apply vb_not_nil].
Qed.

(** The cells of the bits. *)
Lemma bitpos_lt : forall w n, 1 <= w -> 0 < n -> forall i, 0 <= i < n -> bb_bitpos w (bb_padding w n true + i) / w < bb_rows w n true.
Proof.
  intros w n Hw Hn i Hi. destruct (bb_total w n true Hw Hn) as [Tt Tp].
  destruct (bb_writes_bit P w n true (fun _ => 0) Hw Hn (bb_padding w n true + i)) as [v Hv]; [cbn [Z.b2z] in Tp; lia|].
  destruct (bb_writes_val P w n true (fun _ => 0) Hw Hn _ v Hv) as [R _]. rewrite bb_rows_gates by assumption. apply Z.div_lt_upper_bound; [lia|]. lia.
Qed.
Lemma vb_bit_rows : forall c n msb row j m r, wamount c = 9 -> 253 <= n -> 0 <= j < 253 -> vb_row0 n row <= r -> outside c m r (vb_bit c n msb row j).
Proof.
  intros c n msb row j m r Hw Hn Hj Hr [_ [_ X]]. unfold vb_bit, bd_result, bb_cell in X. cbv zeta in X. cbn [vrot wcell] in X. rewrite Hw in X.
  pose proof (bitpos_lt 9 n ltac:(lia) ltac:(lia) (if msb then j else n - j - 1) ltac:(destruct msb; lia)) as B.
  unfold vb_row0 in Hr. lia.
Qed.

Lemma vb_start : forall T c n msb Tx Ty k row t K, wf_comp c 9 -> C c 0 = 0 -> 253 <= n ->
  nn_outside c (vb_rows n) row Tx -> nn_outside c (vb_rows n) row Ty -> outside c (vb_rows n) row k -> consts_in T (vb_circuit c n msb Tx Ty k row) ->
  has_pt P T Tx Ty t -> on_ed t -> fval (vval T k) < 2 ^ n -> first_bits n msb (fval (vval T k)) K ->
  let r0 := vb_row0 n row in let bl := map (vb_bit c n msb row) (zseq 1 253) in
  let T2 := bs_assign c Tx Ty (vb_bit c n msb row 0) r0 (bd_assign c n k row T) in
  (nn_outside c (141 * 252) (r0 + 2) Tx /\ nn_outside c (141 * 252) (r0 + 2) Ty /\
   nn_outside c (141 * 252) (r0 + 2) (bs_x c r0) /\ nn_outside c (141 * 252) (r0 + 2) (bs_y c r0) /\
   (forall b, In b bl -> outside c (141 * 252) (r0 + 2) b) /\
   consts_in T2 (vb_steps c Tx Ty bl (bs_x c r0) (bs_y c r0) (r0 + 2)) /\
   has_pt P T2 Tx Ty t /\ 0 <= K / 2 ^ 252 /\ has_pt P T2 (bs_x c r0) (bs_y c r0) (ed_times (K / 2 ^ 252) t) /\
   (forall b, In b bl -> bit_of T2 b = 0 \/ bit_of T2 b = 1) /\
   (forall j, 0 <= j < 253 -> bit_of T2 (vb_bit c n msb row j) = Z.b2z (Z.testbit K (253 - 1 - j)))) /\
  forall T', frame c (141 * 252) (r0 + 2) T2 T' -> sat L T' (vb_steps c Tx Ty bl (bs_x c r0) (bs_y c r0) (r0 + 2)) ->
    sat L T' (vb_circuit c n msb Tx Ty k row) /\ frame c (vb_rows n) row T T'.
Proof.
  intros T c n msb Tx Ty k row t K Hwf HC Hn OX OY OK HK Gt Ht Hk [RK FB] r0 bl T2'. set (kv := fval (vval T k)) in *.
  assert (Hkv : 0 <= kv < 2 ^ n) by (split; [apply (fval_range P)|exact Hk]).
  pose proof Hwf as [_ [Hw _]].
  assert (RR : vb_rows n = bb_rows 9 n true + 2 + 141 * 252) by (unfold vb_rows; lia).
  assert (R0 : 0 < bb_rows 9 n true).
  { rewrite bb_rows_gates by lia. destruct (bb_sum_bits_gates 9 n true ltac:(lia) ltac:(lia)). lia. }
  set (n0 := bb_rows 9 n true) in *. unfold r0 in *. clear r0. set (row0 := vb_row0 n row) in *. assert (ER : row0 = row + n0) by reflexivity.
  unfold vb_circuit in HK. cbv zeta in HK. apply consts_app in HK. destruct HK as [HK1 HK]. apply consts_app in HK. destruct HK as [_ HK3]. fold row0 in HK3.
  set (T1 := bd_assign c n k row T). fold T1 in T2'. set (T2 := bs_assign c Tx Ty (vb_bit c n msb row 0) row0 T1). change T2' with T2. clear T2'.
  fold bl in HK3.
  assert (K0 : T CConst 0 row = f0) by (eapply bb_const_in; [exact HC|exact HK1]).
  assert (F1 : frame c n0 row T T1) by (apply bb_assign_frame; [lia|lia|exact Hwf]).
  assert (FILL : bb_filled P 9 n true (msb_bit n kv) c row T1) by (apply bb_assign_filled; [lia|lia|exact Hwf]).
  assert (OK1 : outside c n0 row k) by (eapply outside_sub; [| |exact OK]; lia).
  assert (CORE : forall TT, frame c (2 + 141 * 252) row0 T1 TT -> sat L TT (bd_circuit c n k row) /\
    forall j, 0 <= j < 253 -> bit_of TT (vb_bit c n msb row j) = Z.b2z (Z.testbit K (253 - 1 - j))).
  { intros TT FT. destruct (bd_core P L TT c 9 n msb k row kv Hwf ltac:(lia) HC) as [S D].
    - eapply bb_filled_frame; [lia|lia|exact Hwf|exact FT|fold n0; lia|exact FILL].
    - rewrite FT by (intros [A _]; discriminate). rewrite F1 by (intros [A _]; discriminate). exact K0.
    - rewrite (vval_frame P c _ _ _ _ _ FT) by (eapply outside_sub; [| |exact OK]; lia). rewrite (vval_frame P c _ _ _ _ _ F1 OK1). symmetry. apply ofZ_fval.
    - exact Hkv.
    - split; [exact S|]. intros j Hj. change (253 - 1 - j) with (252 - j). rewrite FB by exact Hj. unfold bit_of, vb_bit. rewrite D by lia.
      destruct (Z.testbit kv (if msb then n - 1 - j else j)); [apply fval_1|apply fval_0]. }
  assert (G1 : has_pt P T1 Tx Ty t) by (eapply has_pt_frame; [exact F1| | |exact Gt]; (eapply nn_outside_sub; [| |eassumption]; lia)).
  destruct (CORE T1 ltac:(intros ty col q _; reflexivity)) as [_ B1].
  destruct (bs_complete_l T1 c Tx Ty (vb_bit c n msb row 0) row0 Hwf) as [S2 F2];
    [(eapply nn_outside_sub; [| |eassumption]; lia)|(eapply nn_outside_sub; [| |eassumption]; lia)|apply vb_bit_rows; [exact Hw|lia|lia|unfold row0; lia]| |].
  { pose proof (B1 0 ltac:(lia)) as E. unfold bit_of in E. destruct (Z.testbit K (253 - 1 - 0)); [right|left]; apply F_ext; rewrite E; symmetry; [apply fval_1|apply fval_0]. }
  fold T2 in S2, F2.
  assert (G2 : has_pt P T2 Tx Ty t) by (eapply has_pt_frame; [exact F2| | |exact G1]; (eapply nn_outside_sub; [| |eassumption]; lia)).
  destruct (CORE T2 ltac:(eapply frame_sub; [| |exact F2]; lia)) as [_ B2].
  pose proof (bs_pt T2 c Tx Ty _ row0 t S2 G2 Ht) as GB. rewrite (B2 0 ltac:(lia)) in GB. change (253 - 1 - 0) with 252 in GB. rewrite <- top_bit in GB by exact RK.
  assert (BL : forall b, In b bl -> exists j, b = vb_bit c n msb row j /\ 1 <= j < 253).
  { intros b Hb. unfold bl in Hb. apply in_map_iff in Hb. destruct Hb as [j [<- Hj]]. apply in_zseq in Hj. exists j. split; [reflexivity|exact Hj]. }
  split.
  { split; [eapply nn_outside_sub; [| |exact OX]; lia|]. split; [eapply nn_outside_sub; [| |exact OY]; lia|]. split; [apply bsx_outside; lia|]. split; [apply bsy_outside; lia|].
    split. { intros b Hb. destruct (BL b Hb) as [j [-> Hj]]. apply vb_bit_rows; [exact Hw|lia|lia|unfold row0; lia]. }
    split. { eapply consts_in_frame; [exact F2|]. eapply consts_in_frame; [exact F1|exact HK3]. }
    split; [exact G2|]. split; [apply Z.div_pos; [apply RK|reflexivity]|]. split; [exact GB|].
    split. { intros b Hb. destruct (BL b Hb) as [j [-> Hj]]. rewrite B2 by lia. destruct (Z.testbit K (253 - 1 - j)); [right|left]; reflexivity. }
    exact B2. }
  intros T' F3 S3.
  assert (F23 : frame c (2 + 141 * 252) row0 T1 T') by (eapply frame_trans; [eapply frame_sub; [| |exact F2]; lia|eapply frame_sub; [| |exact F3]; lia]).
  destruct (CORE T' F23) as [S1 _]. split.
  - unfold vb_circuit. cbv zeta. rewrite !sat_app. fold row0. fold bl. split; [exact S1|]. split; [|exact S3].
    eapply sat_frame; [exact F3| |exact S2].
    apply bs_reads; [intros i q Hq; apply fresh_own; lia|apply outside_ops; (eapply nn_outside_sub; [| |eassumption]; lia)|apply outside_ops; (eapply nn_outside_sub; [| |eassumption]; lia)|].
    apply vb_bit_rows; [exact Hw|lia|lia|unfold row0; lia].
  - eapply frame_trans; [eapply frame_sub; [| |exact F1]; lia|eapply frame_sub; [| |exact F23]; lia].
Qed.

Lemma vb_complete_l : forall T c n msb Tx Ty k row t K, wf_comp c 9 -> (forall i, 0 <= i < 4 -> W c i = i) -> C c 0 = 0 -> 253 <= n ->
  nn_outside c (vb_rows n) row Tx -> nn_outside c (vb_rows n) row Ty -> outside c (vb_rows n) row k -> consts_in T (vb_circuit c n msb Tx Ty k row) ->
  has_pt P T Tx Ty t -> on_ed t -> fval (vval T k) < 2 ^ n -> first_bits n msb (fval (vval T k)) K ->
  (forall j, 1 <= j < 253 -> let m := K / 2 ^ (253 - j) in
     ed_dbl_ok (ed_times m t) /\ ed_add_ok (ed_times (2 * m) t) (ed_times (Z.b2z (Z.testbit K (252 - j))) t)) ->
  let T' := vb_assign c n msb Tx Ty k row T in
  sat L T' (vb_circuit c n msb Tx Ty k row) /\ frame c (vb_rows n) row T T' /\ (forall j, 0 <= j < 252 -> pb_looked T' c (vb_row0 n row + 2 + 141 * j)) /\
  has_pt P T' (vb_x n row) (vb_y n row) (ed_times K t).
Proof.
  intros T c n msb Tx Ty k row t K Hwf HW HC Hn OX OY OK HK Gt Ht Hk FB HF T'.
  destruct (vb_start T c n msb Tx Ty k row t K Hwf HC Hn OX OY OK HK Gt Ht Hk FB) as [[A1 [A2 [A3 [A4 [A5 [A6 [A7 [A8 [A9 [A10 B2]]]]]]]]]] W].
  cbv zeta in W. set (r0 := vb_row0 n row) in *. set (bl := map (vb_bit c n msb row) (zseq 1 253)) in *.
  set (T2 := bs_assign c Tx Ty (vb_bit c n msb row 0) r0 (bd_assign c n k row T)) in *.
  assert (ET : T' = vb_steps_assign c Tx Ty bl (bs_x c r0) (bs_y c r0) (r0 + 2) T2) by reflexivity. clearbody T'.
  assert (LL : len bl = 252) by apply vb_len.
  destruct (steps_complete c Tx Ty t Hwf HW Ht bl (bs_x c r0) (bs_y c r0) (r0 + 2) (K / 2 ^ 252) T2) as [S3 [F3 [L3 G3]]]; rewrite ?LL in *; try assumption.
  { change 252 with (253 - 1). apply (fine_bits T2 (vb_bit c n msb row) K 253 t 1); [lia|exact B2| |reflexivity].
    intros j Hj. replace (253 - 1 - j) with (252 - j) by lia. apply HF. lia. }
  rewrite <- ET in S3, F3, L3, G3. destruct (W T' F3 S3) as [S F].
  unfold bl in G3. change (K / 2 ^ 252) with (K / 2 ^ (253 - 1)) in G3. rewrite (number_bits T2 (vb_bit c n msb row) K 253 1 ltac:(lia) B2 _ eq_refl) in G3.
  unfold r0 in G3. rewrite vb_last_x, vb_last_y in G3.
  split; [exact S|]. split; [exact F|]. split; [|exact G3].
  pose proof (proj1 (looked_all _ _ _ _) L3) as L4. rewrite LL in L4. exact L4.
Qed.

(** ** A wrong product *)
Lemma ca_zero_pt : forall T c Tx Ty Rx Ry row, wf_comp c 9 -> (forall i, 0 <= i < 4 -> W c i = i) ->
  nn_outside c 76 row Tx -> nn_outside c 76 row Ty -> nn_outside c 76 row Rx -> nn_outside c 76 row Ry ->
  sat L T (ca_consts c row) -> forall p, has_pt P T Tx Ty p -> has_pt P T Rx Ry ed_zero ->
  exists T', sat L T' (ca_circuit c Tx Ty Rx Ry row) /\ frame c 76 row T T' /\ prog_looked P T' c (ca_prog c Tx Ty Rx Ry 0 0 row) row /\
  has_pt P T' (own c row) (own c (row + 2)) p.
Proof.
  intros T c Tx Ty Rx Ry row Hwf HW O1 O2 O3 O4 SC p [V1 V2] [V3 V4].
  set (tx := fval (fst p)) in *. set (ty := fval (snd p)) in *.
  change (fval (fst ed_zero)) with 0 in V3. change (fval (snd ed_zero)) with 1 in V4.
  assert (RX : 0 <= tx < ed_p) by apply fval_canon. assert (RY : 0 <= ty < ed_p) by apply fval_canon.
  assert (K0 : ca_k0 tx ty 0 1 = 0).
  { assert (T1 : ca_t1 ty 0 = 0) by (unfold ca_t1; rewrite Z.mul_0_r; apply Zmod_0_l). unfold ca_k0. rewrite T1, Z.mul_0_r. reflexivity. }
  assert (K2 : ca_k2 tx ty 0 1 ty = 0) by (unfold ca_k2; rewrite K0, Z.mul_0_r; apply Zmod_0_l).
  pose proof (ca_write_l P L big T c Tx Ty Rx Ry tx ty row Hwf HW O1 O2 O3 O4 SC RX RY tx ty 0 1 V1 V2 V3 V4) as Kw. cbv zeta in Kw.
  destruct Kw as [S [F [LK [HX HY]]]]; [left; rewrite K2; apply RY|].
  exists (ca_write c Tx Ty Rx Ry tx ty row T). split; [apply S|split; [exact F|split; [exact LK|split; assumption]]].
  - unfold ca_z0, ca_k3, ca_t0, ca_t1. rewrite K0, Z.mul_0_r, Zmod_0_l, Z.mul_0_r, Zmod_0_l, Z.mul_1_r, (Z.mod_small tx) by exact RX. reflexivity.
  - unfold ca_z1, ca_k4, ca_t2, ca_t3. rewrite K2, Z.mul_0_r, Zmod_0_l, Z.mul_1_r, (Z.mod_small ty) by exact RY. f_equal. lia.
Qed.
Definition pb_chunks T (c : comp) (row : Z) : Prop :=
  prog_looked P T c (db_prog c [] [] 0 0 (row + 2)) (row + 2) /\ prog_looked P T c (ca_prog c [] [] [] [] 0 0 (row + 65)) (row + 65).
Lemma pb_chunks_frame : forall c n r T T' row, frame c n r T T' -> row + 141 <= r -> pb_chunks T c row -> pb_chunks T' c row.
Proof.
  intros c n r T T' row HF H [X1 X3]. split.
  - eapply prog_looked_frame; [exact HF| |exact X1]. change (prog_rows (db_prog c [] [] 0 0 (row + 2))) with 63. lia.
  - eapply prog_looked_frame; [exact HF| |exact X3]. change (prog_rows (ca_prog c [] [] [] [] 0 0 (row + 65))) with 76. lia.
Qed.
(** A point with the right first and a wrong second coordinate. *)
Definition has_wrong T (X Y : list var) (p : ed_point) : Prop := exists y, y <> snd p /\ has_pt P T X Y (fst p, y).

Lemma pb_wrong : forall T c Tx Ty Rx Ry k row t r, wf_comp c 9 -> (forall i, 0 <= i < 4 -> W c i = i) ->
  nn_outside c 141 row Tx -> nn_outside c 141 row Ty -> nn_outside c 141 row Rx -> nn_outside c 141 row Ry -> outside c 141 row k ->
  consts_in T (pb_circuit c Tx Ty Rx Ry k row) ->
  has_pt P T Tx Ty t -> has_pt P T Rx Ry r -> on_ed t -> on_ed r -> bit_of T k = 0 -> ed_dbl_ok r ->
  exists T', sat L T' (pb_circuit c Tx Ty Rx Ry k row) /\ frame c 141 row T T' /\ pb_chunks T' c row /\
  has_wrong T' (pb_x row) (pb_y row) (ed_add r r).
Proof.
  intros T c Tx Ty Rx Ry k row t r Hwf HW O1 O2 O3 O4 OK HK Gt Gr Ht Hr HB D. destruct (pb_own c row HW) as [-> ->].
  unfold pb_circuit in HK. apply consts_app in HK. destruct HK as [_ HK]. apply consts_app in HK. destruct HK as [_ HK].
  set (T1 := bs_assign c Tx Ty k row T).
  destruct (bs_complete_l T c Tx Ty k row Hwf) as [S1 F1];
    [eapply nn_outside_sub; [| |exact O1]; lia|eapply nn_outside_sub; [| |exact O2]; lia|eapply outside_sub; [| |exact OK]; lia| |].
  { left. apply F_ext. rewrite fval_0. exact HB. }
  fold T1 in S1, F1.
  assert (B1 : bit_of T1 k = 0) by (rewrite <- HB; apply (bit_frame T T1 c 2 row k F1); eapply outside_sub; [| |exact OK]; lia).
  assert (Gt1 : has_pt P T1 Tx Ty t) by (eapply has_pt_frame; [exact F1| | |exact Gt]; (eapply nn_outside_sub; [| |eassumption]; lia)).
  assert (Gr1 : has_pt P T1 Rx Ry r) by (eapply has_pt_frame; [exact F1| | |exact Gr]; (eapply nn_outside_sub; [| |eassumption]; lia)).
  pose proof (bs_pt T1 c Tx Ty k row t S1 Gt1 Ht) as Gb. rewrite B1, ed_times_0 in Gb.
  destruct (db_wrong P L big T1 c Rx Ry (row + 2) Hwf HW) with (p := r) as [T2 [y [NE [S2 [F2 [L2 G2]]]]]];
    [eapply nn_outside_sub; [| |exact O3]; lia|eapply nn_outside_sub; [| |exact O4]; lia|exact Gr1|exact Hr|exact D|].
  replace (row + 2 + 2) with (row + 4) in G2 by lia.
  assert (Gb2 : has_pt P T2 (bs_x c row) (bs_y c row) ed_zero).
  { eapply has_pt_frame; [exact F2| | |exact Gb]; [apply bsx_outside; lia|apply bsy_outside; lia]. }
  destruct (ca_zero_pt T2 c (own c (row + 2)) (own c (row + 4)) (bs_x c row) (bs_y c row) (row + 65) Hwf HW) with (p := (fst (ed_add r r), y)) as [T' [S3 [F3 [L3 G3]]]];
    [apply own_outside; lia|apply own_outside; lia|apply bsx_outside; lia|apply bsy_outside; lia| |exact G2|exact Gb2|].
  { eapply ca_consts_sat. eapply consts_in_frame; [exact F2|]. eapply consts_in_frame; [exact F1|]. exact HK. }
  replace (row + 65 + 2) with (row + 67) in G3 by lia. exists T'.
  split; [|split; [|split]].
  - unfold pb_circuit. rewrite !sat_app. split; [|split; [|exact S3]].
    + eapply sat_frame; [exact F3| |eapply sat_frame; [exact F2| |exact S1]].
      * apply bs_reads; [intros i q Hq; apply fresh_own; lia|apply outside_ops; (eapply nn_outside_sub; [| |eassumption]; lia)|apply outside_ops; (eapply nn_outside_sub; [| |eassumption]; lia)|].
        eapply (outside_sub _ _ _ 76 (row + 65)) in OK; [exact OK|lia|lia].
      * apply bs_reads; [intros i q Hq; apply fresh_own; lia|apply outside_ops; (eapply nn_outside_sub; [| |eassumption]; lia)|apply outside_ops; (eapply nn_outside_sub; [| |eassumption]; lia)|].
        eapply (outside_sub _ _ _ 63 (row + 2)) in OK; [exact OK|lia|lia].
    + eapply sat_frame; [exact F3| |exact S2].
      apply db_reads; [intros i q Hq; apply fresh_own; lia|apply outside_ops; (eapply nn_outside_sub; [| |eassumption]; lia)|apply outside_ops; (eapply nn_outside_sub; [| |eassumption]; lia)].
  - eapply frame_trans; [eapply frame_sub; [| |exact F1]; lia|]. eapply frame_trans; [eapply frame_sub; [| |exact F2]; lia|]. eapply frame_sub; [| |exact F3]; lia.
  - split; [|exact L3]. eapply prog_looked_frame; [exact F3| |exact L2]. change (prog_rows (db_prog c [] [] 0 0 (row + 2))) with 63. lia.
  - exists y. split; [exact NE|exact G3].
Qed.

Lemma steps_wrong : forall c Tx Ty t, wf_comp c 9 -> (forall i, 0 <= i < 4 -> W c i = i) -> on_ed t ->
  forall bits Rx Ry row m T, let n := 141 * len bits in bits <> [] -> Z.Even (vb_number T bits m) ->
  nn_outside c n row Tx -> nn_outside c n row Ty -> nn_outside c n row Rx -> nn_outside c n row Ry -> (forall b, In b bits -> outside c n row b) ->
  consts_in T (vb_steps c Tx Ty bits Rx Ry row) ->
  has_pt P T Tx Ty t -> 0 <= m -> has_pt P T Rx Ry (ed_times m t) -> (forall b, In b bits -> bit_of T b = 0 \/ bit_of T b = 1) ->
  vb_fine T t bits m ->
  exists T', sat L T' (vb_steps c Tx Ty bits Rx Ry row) /\ frame c n row T T' /\ (forall j, 0 <= j < len bits -> pb_chunks T' c (row + 141 * j)) /\
  has_wrong T' (vb_last pb_x Rx bits row) (vb_last pb_y Ry bits row) (ed_times (vb_number T bits m) t).
Proof.
  intros c Tx Ty t Hwf HW Ht. induction bits as [|b bits IH]; intros Rx Ry row m T n NN EV O1 O2 O3 O4 OB HK Gt Hm Gr HB HF.
  { destruct (NN eq_refl). } clear NN.
  cbn [vb_steps vb_fine vb_number] in HK, HF, EV. apply consts_app in HK. destruct HK as [HK1 HK2]. destruct HF as [D [A HF]].
  assert (NN : n = 141 + 141 * len bits) by (unfold n; rewrite len_cons; lia). assert (N0 : 0 <= len bits) by (unfold len; lia). clearbody n.
  pose proof (HB b (or_introl eq_refl)) as HBb. pose proof (OB b (or_introl eq_refl)) as OBb.
  assert (X1 : nn_outside c 141 row Tx) by (eapply nn_outside_sub; [| |eassumption]; lia).
  assert (X2 : nn_outside c 141 row Ty) by (eapply nn_outside_sub; [| |eassumption]; lia).
  assert (X3 : nn_outside c 141 row Rx) by (eapply nn_outside_sub; [| |eassumption]; lia).
  assert (X4 : nn_outside c 141 row Ry) by (eapply nn_outside_sub; [| |eassumption]; lia).
  assert (X5 : outside c 141 row b) by (eapply outside_sub; [| |exact OBb]; lia).
  destruct bits as [|b' bits].
  - cbn [vb_number] in EV. assert (B0 : bit_of T b = 0) by (destruct EV as [q Hq]; lia).
    destruct (pb_wrong T c Tx Ty Rx Ry b row t (ed_times m t) Hwf HW X1 X2 X3 X4 X5 HK1 Gt Gr Ht (ed_times_on m t Hm Ht) B0 D) as [T' [S [F [LK WR]]]].
    exists T'. cbn [vb_steps vb_last vb_number]. rewrite app_nil_r. replace n with 141 by (rewrite NN; unfold len; cbn [length]; lia).
    split; [exact S|]. split; [exact F|]. split.
    + intros j Hj. unfold len in Hj. cbn [length] in Hj. replace (row + 141 * j) with row by lia. exact LK.
    + rewrite B0. replace (ed_times (2 * m + 0) t) with (ed_add (ed_times m t) (ed_times m t)); [exact WR|]. rewrite <- ed_times_add by assumption. f_equal. lia.
  - set (bl := b' :: bits) in *. set (T1 := pb_assign c Tx Ty Rx Ry b row T).
    destruct (pb_complete_l T c Tx Ty Rx Ry b row t (ed_times m t) Hwf HW X1 X2 X3 X4 X5 HK1 Gt Gr Ht (ed_times_on m t Hm Ht) HBb D) as [S1 [F1 [L1 G1]]].
    { replace (ed_add (ed_times m t) (ed_times m t)) with (ed_times (2 * m) t); [exact A|]. rewrite <- ed_times_add by assumption. f_equal. lia. }
    clear X1 X2 X3 X4 X5. fold T1 in S1, F1, L1, G1. rewrite next_times in G1 by (assumption || lia).
    assert (OB1 : forall x, In x bl -> outside c 141 row x) by (intros x Hx; eapply outside_sub; [| |exact (OB x (or_intror Hx))]; lia).
    assert (OB2 : forall x, In x bl -> outside c (141 * len bl) (row + 141) x) by (intros x Hx; eapply outside_sub; [| |exact (OB x (or_intror Hx))]; lia).
    destruct (pb_outside c (141 * len bl) (row + 141) row HW ltac:(lia)) as [PX PY].
    destruct (IH (pb_x row) (pb_y row) (row + 141) (2 * m + bit_of T b) T1) as [T' [S2 [F2 [L2 G2]]]];
      [discriminate| |(eapply nn_outside_sub; [| |eassumption]; lia)|(eapply nn_outside_sub; [| |eassumption]; lia)|exact PX|exact PY|exact OB2|
       eapply consts_in_frame; [exact F1|exact HK2]| |lia|exact G1| | |].
    { rewrite (number_frame T T1 c 141 row bl _ F1 OB1). exact EV. }
    { eapply has_pt_frame; [exact F1| | |exact Gt]; (eapply nn_outside_sub; [| |eassumption]; lia). }
    { intros x Hx. rewrite (bit_frame T T1 c 141 row x F1 (OB1 x Hx)). apply HB. right. exact Hx. }
    { eapply fine_frame; [exact F1|exact OB1|exact HF]. }
    rewrite (number_frame T T1 c 141 row bl _ F1 OB1) in G2.
    exists T'. cbn [vb_steps vb_last]. change (vb_number T (b :: bl) m) with (vb_number T bl (2 * m + bit_of T b)). split; [|split; [|split]].
    + rewrite sat_app. split; [|exact S2]. eapply sat_frame; [exact F2| |exact S1].
      apply pb_reads; [lia|(eapply nn_outside_sub; [| |eassumption]; lia)|(eapply nn_outside_sub; [| |eassumption]; lia)|(eapply nn_outside_sub; [| |eassumption]; lia)|
        (eapply nn_outside_sub; [| |eassumption]; lia)|eapply outside_sub; [| |exact OBb]; lia].
    + eapply frame_trans; [eapply frame_sub; [| |exact F1]; lia|eapply frame_sub; [| |exact F2]; lia].
    + intros j Hj. rewrite (len_cons b bl) in Hj. destruct (Z.eq_dec j 0) as [e|e].
      * subst j. replace (row + 141 * 0) with row by lia. destruct L1 as [LD [_ LC]]. eapply pb_chunks_frame; [exact F2|lia|split; assumption].
      * replace (row + 141 * j) with (row + 141 + 141 * (j - 1)) by lia. apply L2. lia.
    + exact G2.
Qed.

Lemma vb_wrong_l : forall T c n msb Tx Ty k row t K, wf_comp c 9 -> (forall i, 0 <= i < 4 -> W c i = i) -> C c 0 = 0 -> 253 <= n ->
  nn_outside c (vb_rows n) row Tx -> nn_outside c (vb_rows n) row Ty -> outside c (vb_rows n) row k -> consts_in T (vb_circuit c n msb Tx Ty k row) ->
  has_pt P T Tx Ty t -> on_ed t -> fval (vval T k) < 2 ^ n -> first_bits n msb (fval (vval T k)) K -> Z.Even K ->
  (forall j, 1 <= j < 253 -> let m := K / 2 ^ (253 - j) in
     ed_dbl_ok (ed_times m t) /\ ed_add_ok (ed_times (2 * m) t) (ed_times (Z.b2z (Z.testbit K (252 - j))) t)) ->
  exists T', sat L T' (vb_circuit c n msb Tx Ty k row) /\ frame c (vb_rows n) row T T' /\ (forall j, 0 <= j < 252 -> pb_chunks T' c (vb_row0 n row + 2 + 141 * j)) /\
  has_wrong T' (vb_x n row) (vb_y n row) (ed_times K t).
Proof.
  intros T c n msb Tx Ty k row t K Hwf HW HC Hn OX OY OK HK Gt Ht Hk FB EV HF.
  destruct (vb_start T c n msb Tx Ty k row t K Hwf HC Hn OX OY OK HK Gt Ht Hk FB) as [[A1 [A2 [A3 [A4 [A5 [A6 [A7 [A8 [A9 [A10 B2]]]]]]]]]] W].
  cbv zeta in W. set (r0 := vb_row0 n row) in *. set (bl := map (vb_bit c n msb row) (zseq 1 253)) in *.
  set (T2 := bs_assign c Tx Ty (vb_bit c n msb row 0) r0 (bd_assign c n k row T)) in *.
  assert (LL : len bl = 252) by apply vb_len.
  assert (NB : vb_number T2 bl (K / 2 ^ 252) = K) by (change (K / 2 ^ 252) with (K / 2 ^ (253 - 1)); exact (number_bits T2 (vb_bit c n msb row) K 253 1 ltac:(lia) B2 _ eq_refl)).
  destruct (steps_wrong c Tx Ty t Hwf HW Ht bl (bs_x c r0) (bs_y c r0) (r0 + 2) (K / 2 ^ 252) T2) as [T' [S3 [F3 [L3 G3]]]]; rewrite ?LL in *; try assumption.
  { apply vb_not_nil. }
  { rewrite NB. exact EV. }
  { change 252 with (253 - 1). apply (fine_bits T2 (vb_bit c n msb row) K 253 t 1); [lia|exact B2| |reflexivity].
    intros j Hj. replace (253 - 1 - j) with (252 - j) by lia. apply HF. lia. }
  rewrite NB in G3. destruct (W T' F3 S3) as [S F]. exists T'. unfold bl, r0 in G3. rewrite vb_last_x, vb_last_y in G3.
  split; [exact S|]. split; [exact F|]. split; [exact L3|exact G3].
Qed.

(** ** The constants *)
Definition not_set (x : cmd P) : bool := match x with SetConst _ _ _ => false | _ => true end.
Lemma not_set_ok : forall cs, forallb not_set cs = true -> forall col r v, ~ In (SetConst col r v) cs.
Proof. intros cs H col r v Hin. rewrite forallb_forall in H. discriminate (H _ Hin). Qed.
Lemma rg_no_set : forall c ins row, forallb not_set (rg_circuit c ins row) = true.
Proof.
  intros c ins row. unfold rg_circuit. cbn [forallb not_set andb]. unfold rg_copies. change (zseq 0 4) with [0; 1; 2; 3]. cbn [flat_map].
  rewrite !forallb_app. repeat match goal with |- context [if ?b then _ else _] => destruct b end; reflexivity.
Qed.
Lemma prog_no_set : forall c l row, forallb not_set (prog_circuit P c l row) = true.
Proof.
  intros c l. induction l as [|s l IH]; intros row; [reflexivity|]. cbn [prog_circuit]. rewrite forallb_app, IH, andb_true_r.
  destruct s; cbn [st_circuit]; [apply rg_no_set|unfold nm_circuit|unfold na_circuit, na_circuit_of|unfold ns_circuit, na_circuit_of];
    cbn [forallb not_set andb]; rewrite !forallb_app, ?rg_no_set; reflexivity.
Qed.
Lemma steps_consts : forall T c Tx Ty bits Rx Ry row,
  (forall j, 0 <= j < len bits -> consts_in T (ca_consts c (row + 141 * j + 65))) -> consts_in T (vb_steps c Tx Ty bits Rx Ry row).
Proof.
  intros T c Tx Ty bits. induction bits as [|b bits IH]; intros Rx Ry row H col r v Hin; [destruct Hin|].
  cbn [vb_steps] in Hin. rewrite len_cons in H. assert (N : 0 <= len bits) by (unfold len; lia). apply in_app_or in Hin. destruct Hin as [Hin|Hin].
  - unfold pb_circuit in Hin. apply in_app_or in Hin. destruct Hin as [Hin|Hin]; [destruct (not_set_ok (bs_circuit c Tx Ty b row) eq_refl _ _ _ Hin)|].
    apply in_app_or in Hin. destruct Hin as [Hin|Hin].
    + rewrite (db_circuit_prog P c Rx Ry 0 0 (row + 2)) in Hin. apply in_app_or in Hin. destruct Hin as [Hin|Hin]; [destruct (not_set_ok _ (prog_no_set _ _ _) _ _ _ Hin)|].
      destruct (not_set_ok (db_copies c (row + 2)) eq_refl _ _ _ Hin).
    + rewrite (ca_circuit_prog P c _ _ _ _ 0 0 (row + 65)) in Hin. apply in_app_or in Hin. destruct Hin as [Hin|Hin]; [destruct (not_set_ok _ (prog_no_set _ _ _) _ _ _ Hin)|].
      apply in_app_or in Hin. destruct Hin as [Hin|Hin]; [|destruct (not_set_ok (ca_copies c (row + 65)) eq_refl _ _ _ Hin)].
      specialize (H 0 ltac:(lia)). replace (row + 141 * 0 + 65) with (row + 65) in H by lia. exact (H _ _ _ Hin).
  - eapply IH; [|exact Hin]. intros j Hj. replace (row + 141 + 141 * j + 65) with (row + 141 * (j + 1) + 65) by lia. apply H. lia.
Qed.
Lemma vb_consts : forall T c n msb Tx Ty k row, T CConst (C c 0) row = f0 ->
  (forall j, 0 <= j < 252 -> consts_in T (ca_consts c (vb_row0 n row + 2 + 141 * j + 65))) -> consts_in T (vb_circuit c n msb Tx Ty k row).
Proof.
  intros T c n msb Tx Ty k row H0 H col r v Hin. unfold vb_circuit in Hin. cbv zeta in Hin. apply in_app_or in Hin. destruct Hin as [Hin|Hin].
  - unfold bd_circuit in Hin. apply in_app_or in Hin. destruct Hin as [Hin|Hin].
    { unfold bb_circuit in Hin. cbv zeta in Hin. cbn [In] in Hin. destruct Hin as [Hin|[Hin|[]]]; [discriminate|]. injection Hin as <- <- <-. exact H0. }
    apply in_app_or in Hin. destruct Hin as [Hin|Hin]; [unfold bb_zero_copies in Hin; cbv zeta in Hin; apply in_map_iff in Hin; destruct Hin as [x [E _]]; discriminate|].
    apply in_app_or in Hin. destruct Hin as [Hin|[Hin|[]]]; [|discriminate].
    unfold bb_sum_copies in Hin; cbv zeta in Hin; apply in_map_iff in Hin; destruct Hin as [x [E _]]; discriminate.
  - apply in_app_or in Hin. destruct Hin as [Hin|Hin]; [destruct (not_set_ok (bs_circuit c Tx Ty (vb_bit c n msb row 0) (vb_row0 n row)) eq_refl _ _ _ Hin)|].
    revert Hin. apply steps_consts. rewrite vb_len. exact H.
Qed.

End Mul.
