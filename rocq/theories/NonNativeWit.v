(** Witnesses of the non-native components: the honest ones and unchecked ones. *)
From Coq Require Import ZArith List Lia Bool Field Znumtheory.
From Verif Require Import Base Field Plonk PlonkFacts Bits NonNativeModel NonNativeProofs NonNativeArith NonNativeComp.
Import ListNotations.
Open Scope Z_scope.

Section Wit.
Variable P : params.
Notation F := (F P).
Notation table := (table P).
Variable L : lenv P.
Implicit Types T : table.
Add Field Ff : (F_field P) (morphism (F_morph P), constants [F_const], power_tac (F_power P) [F_pow_tac]).

(** ** Lists of writes *)
Lemma look_app : forall (a b : list (Z * Z * F)) j m,
  look (a ++ b) j m = match look b j m with Some v => Some v | None => look a j m end.
Proof.
  intros a b j m. induction a as [|[[j' m'] v] a IH]; [cbn; destruct (look b j m); reflexivity|].
  cbn [app look]. rewrite IH. destruct (look b j m); [reflexivity|]. reflexivity.
Qed.
Fixpoint distinct (l : list (Z * Z * F)) : bool :=
  match l with [] => true | (j, m, _) :: r => forallb (fun x => negb ((fst (fst x) =? j) && (snd (fst x) =? m))) r && distinct r end.
Lemma look_none : forall (l : list (Z * Z * F)) j m,
  forallb (fun x => negb ((fst (fst x) =? j) && (snd (fst x) =? m))) l = true -> look l j m = None.
Proof.
  induction l as [|[[j' m'] v] l IH]; intros j m H; [reflexivity|]. cbn [forallb fst snd] in H. apply andb_prop in H.
  destruct H as [H1 H2]. cbn [look]. rewrite IH by exact H2. rewrite Z.eqb_sym, (Z.eqb_sym m).
  apply negb_true_iff in H1. rewrite H1. reflexivity.
Qed.
Lemma look_in : forall (l : list (Z * Z * F)) j m x, distinct l = true -> In (j, m, x) l -> look l j m = Some x.
Proof.
  induction l as [|[[j' m'] v] l IH]; intros j m x D I; [contradiction|]. cbn [distinct] in D. apply andb_prop in D.
  destruct D as [D1 D2]. cbn [look]. destruct I as [E|I].
  - injection E as -> -> ->. rewrite look_none by exact D1. rewrite !Z.eqb_refl. reflexivity.
  - rewrite (IH _ _ _ D2 I). reflexivity.
Qed.
Lemma cells_has : forall T c w row (a b : list (Z * Z * F)), wf_comp c w -> in_cols w (a ++ b) = true -> in_cols w b = true ->
  distinct b = true -> has P (wsets T (cells c row (a ++ b))) c row b.
Proof.
  intros T c w row a b Hwf HC HB HD j m x I. rewrite (cells_read P T c w) by (auto; unfold in_cols in HB; rewrite forallb_forall in HB;
    specialize (HB _ I); cbn [fst] in HB; apply andb_prop in HB; destruct HB as [B1 B2]; apply Z.leb_le in B1; apply Z.ltb_lt in B2; lia).
  rewrite look_app, (look_in b j m x HD I). reflexivity.
Qed.
Lemma has_rg_shift : forall T c row v k, has P T c row (rg_list P v k) -> has P T c (row + k) (rg_list P v 0).
Proof.
  intros T c row v k H j m x I. replace (row + k + m) with (row + (k + m)) by lia. apply H.
  unfold rg_list in *. cbv zeta in *. cbn [In] in *.
  repeat (destruct I as [I|I]; [injection I as <- <- <-; rewrite ?Z.add_0_r, ?Z.add_0_l; tauto|]). contradiction.
Qed.
Lemma has_free_shift : forall T c row x0 x1 x2 x3 k, has P T c row (rg_free P x0 x1 x2 x3 k) -> has P T c (row + k) (rg_free P x0 x1 x2 x3 0).
Proof.
  intros T c row x0 x1 x2 x3 k H j m x I. replace (row + k + m) with (row + (k + m)) by lia. apply H.
  unfold rg_free in *. cbv zeta in *. cbn [In] in *.
  repeat (destruct I as [I|I]; [injection I as <- <- <-; rewrite ?Z.add_0_r, ?Z.add_0_l; tauto|]). contradiction.
Qed.

Definition nn_outside (c : comp) (n row : Z) (A : list var) : Prop := forall i, 0 <= i < 4 -> outside c n row (nv A i).

(** ** Range *)
Lemma rg_copies_ok : forall T c ins row, (forall i, 0 <= i < 4 -> T CWit (W c i) row = vval T (nv ins i)) -> sat L T (rg_copies c ins row).
Proof.
  intros T c ins row H x I. unfold rg_copies in I. apply in_flat_map in I. destruct I as [i [I J]]. apply in_zseq in I.
  destruct (var_eqb (wcell (W c i) row) (nv ins i)); [contradiction|]. destruct J as [<-|[]]. cbn [holds]. rewrite vval_wcell. apply H. exact I.
Qed.

Lemma rg_complete_l : 2 ^ 254 <= char P -> forall T c ins row, wf_comp c 9 -> nn_outside c 2 row ins ->
  nn_small (nn_vals T ins) -> nn_glue_z (nn_vals T ins) < ed_p ->
  let T' := rg_assign c ins row T in
  sat L T' (rg_circuit c ins row) /\ frame c 2 row T T'.
Proof.
  intros big T c ins row Hwf HO Hs Hp T'.
  assert (FR : frame c 2 row T T').
  { unfold T'. rewrite rg_assign_cells0. apply (cells_frame P T c 9); auto. }
  assert (HH : has P T' c row (rg_list P (nn_vals T ins) 0)).
  { unfold T'. rewrite rg_assign_cells0. apply (cells_has T c 9 row []); auto. }
  split; [|exact FR]. unfold rg_circuit. apply sat_cons. split.
  - apply (rg_honest P L big T' c row (nn_vals T ins)); auto.
  - apply rg_copies_ok. intros i Hi. rewrite (vval_frame P c 2 row T T') by (auto; apply HO; exact Hi).
    rewrite <- (ofZ_fval P (vval T (nv ins i))), <- nn_vals_nth by exact Hi. rewrite <- (Z.add_0_r row). apply HH.
    assert (i = 0 \/ i = 1 \/ i = 2 \/ i = 3) as [-> |[-> |[-> | ->]]] by lia; unfold rg_list; cbv zeta; cbn [In]; tauto.
Qed.

Lemma rg_free_l : forall T c ins row, wf_comp c 9 -> nn_outside c 2 row ins ->
  exists T', frame c 2 row T T' /\ sat L T' (rg_circuit c ins row).
Proof.
  intros T c ins row Hwf HO. set (x i := vval T (nv ins i)).
  set (T' := wsets T (cells c row ([] ++ rg_free P (x 0) (x 1) (x 2) (x 3) 0))).
  assert (FR : frame c 2 row T T') by (apply (cells_frame P T c 9); auto).
  assert (HH : has P T' c row (rg_free P (x 0) (x 1) (x 2) (x 3) 0)) by (apply (cells_has T c 9 row []); auto).
  exists T'. split; [exact FR|]. unfold rg_circuit. apply sat_cons. split; [eapply rg_free_ok; exact HH|].
  apply rg_copies_ok. intros i Hi. rewrite (vval_frame P c 2 row T T') by (auto; apply HO; exact Hi). fold (x i). rewrite <- (Z.add_0_r row). apply HH.
  assert (i = 0 \/ i = 1 \/ i = 2 \/ i = 3) as [-> |[-> |[-> | ->]]] by lia; unfold rg_free; cbv zeta; cbn [In]; tauto.
Qed.

(** ** Addition and subtraction *)
Definition na_list (x0 x1 x2 x3 y0 y1 y2 y3 q u3 u4 u5 u6 u r0 r1 r2 r3 : F) : list (Z * Z * F) :=
  [(0, 1, x0); (1, 1, y0); (2, 1, q); (3, 1, x1); (4, 1, x2); (5, 1, x3); (6, 1, y1); (7, 1, y2); (8, 1, y3);
   (3, 0, u3); (4, 0, u4); (5, 0, u5); (6, 0, u6); (7, 0, u); (0, 2, r0); (1, 2, r1); (2, 2, r2); (3, 2, r3)].

Lemma na_write_cells : forall c a b q u r top row T, wf_comp c 9 -> (forall i, 0 <= i < 4 -> W c i = i) ->
  let z x := ofZ x : F in
  na_write c a b q u r top row T =
  wsets T (cells c row (na_list (z (znth 0 a 0)) (z (znth 0 a 1)) (z (znth 0 a 2)) (z (znth 0 a 3))
    (z (znth 0 b 0)) (z (znth 0 b 1)) (z (znth 0 b 2)) (z (znth 0 b 3)) (z q)
    (z (u mod 2 ^ 22)) (z ((u / 2 ^ 22) mod 2 ^ 22)) (z ((u / 2 ^ 44) mod 2 ^ 22)) (z ((u / 2 ^ 66) mod top)) (z u)
    (z (nn_limb r 0)) (z (nn_limb r 1)) (z (nn_limb r 2)) (z (nn_limb r 3))
   ++ rg_list P (map (fun i => fval (z (nn_limb r i))) (zseq 0 4)) 2)).
Proof.
  intros c a b q u r top row T Hwf HW z. unfold na_write. cbv zeta. fold z.
  set (l := na_list _ _ _ _ _ _ _ _ _ _ _ _ _ _ _ _ _ _).
  match goal with |- rg_assign _ _ _ (wsets T ?l0) = _ => replace l0 with (cells c row l) end.
  2:{ unfold l, na_list, cells. cbn [map fst snd]. rewrite !Z.add_0_r. reflexivity. }
  rewrite rg_assign_cells. rewrite cells_app, wsets_app. f_equal. f_equal. f_equal.
  unfold nn_vals. apply map_ext_in. intros i Hi. apply in_zseq in Hi. f_equal.
  assert (E : nv (map (fun i => wcell i (row + 2)) (zseq 0 4)) i = wcell (W c i) (row + 2)).
  { rewrite HW by exact Hi. assert (i = 0 \/ i = 1 \/ i = 2 \/ i = 3) as [-> |[-> |[-> | ->]]] by lia; reflexivity. }
  rewrite E, vval_wcell. rewrite (cells_read P T c 9) by (auto; lia).
  assert (i = 0 \/ i = 1 \/ i = 2 \/ i = 3) as [-> |[-> |[-> | ->]]] by lia; reflexivity.
Qed.

(** The gate rows of an addition or subtraction with given cells. *)
Section NaSat.
Variables (T : table) (c : comp) (A B : list var) (row : Z).
Variables q u3 u4 u5 u6 u r0 r1 r2 r3 : F.
Hypothesis wf : wf_comp c 9.
Hypothesis OA : nn_outside c 4 row A.
Hypothesis OB : nn_outside c 4 row B.
Let x i := vval T (nv A i).
Let y i := vval T (nv B i).
Variable rl : list (Z * Z * F).
Hypothesis rl_cols : in_cols 9 rl = true.
Hypothesis rl_rows : in_rows 4 rl = true.
Hypothesis rl_0 : look rl 0 2 = Some r0 /\ look rl 1 2 = Some r1 /\ look rl 2 2 = Some r2 /\ look rl 3 2 = Some r3.
Hypothesis rl_other : forall j m, m < 2 -> look rl j m = None.
Let l := na_list (x 0) (x 1) (x 2) (x 3) (y 0) (y 1) (y 2) (y 3) q u3 u4 u5 u6 u r0 r1 r2 r3 ++ rl.
Let T' := wsets T (cells c row l).

Lemma na_frame : frame c 4 row T T'.
Proof.
  apply (cells_frame P T c 9); [exact wf|]. unfold l, in_rows. rewrite forallb_app. fold (in_rows 4 rl). rewrite rl_rows. reflexivity.
Qed.
Lemma na_read : forall j m, 0 <= j < 9 -> T' CWit (W c j) (row + m) = match look l j m with Some v => v | None => T CWit (W c j) (row + m) end.
Proof.
  intros j m Hj. apply (cells_read P T c 9); [exact wf| |exact Hj]. unfold l, in_cols. rewrite forallb_app. fold (in_cols 9 rl). rewrite rl_cols. reflexivity.
Qed.
Lemma na_out_val : forall i, 0 <= i < 4 -> vval T' (nv (na_out c row) i) = znth f0 [r0; r1; r2; r3] i.
Proof.
  intros i Hi. rewrite na_out_nv by exact Hi. rewrite vval_wcell, na_read by lia. unfold l. rewrite look_app.
  destruct rl_0 as [E0 [E1 [E2 E3]]].
  assert (i = 0 \/ i = 1 \/ i = 2 \/ i = 3) as [-> |[-> |[-> | ->]]] by lia; rewrite ?E0, ?E1, ?E2, ?E3; reflexivity.
Qed.

Ltac rdl := rewrite na_read by lia; unfold l; rewrite look_app; rewrite ?rl_other by lia; reflexivity.

Lemma na_sat : forall g,
  (forall e, In e g -> eval T' (row + 1) e = f0) -> holds L T' (Gate (rg_gate c) [row + 2]) ->
  sat L T' (na_circuit_of g c A B row).
Proof.
  intros g G R. unfold na_circuit_of. apply sat_cons. split; [apply holds_gate1; exact G|]. apply sat_app. split.
  - unfold na_copies.
    assert (CA : forall i, 0 <= i < 4 -> vval T' (nv A i) = x i) by (intros i Hi; apply (vval_frame P c 4 row T T' _ na_frame); apply OA; exact Hi).
    assert (CB : forall i, 0 <= i < 4 -> vval T' (nv B i) = y i) by (intros i Hi; apply (vval_frame P c 4 row T T' _ na_frame); apply OB; exact Hi).
    repeat (apply sat_cons; split; [cbn [holds]; rewrite vval_wcell, ?CA, ?CB by lia; rdl|]). apply sat_nil.
  - unfold rg_circuit. apply sat_cons. split; [exact R|]. apply rg_copies_ok. intros i Hi. rewrite na_out_nv by exact Hi. rewrite vval_wcell. reflexivity.
Qed.

Lemma na_cells : 
  T' CWit (W c 0) (row + 1) = x 0 /\ T' CWit (W c 1) (row + 1) = y 0 /\ T' CWit (W c 2) (row + 1) = q /\
  T' CWit (W c 3) (row + 1) = x 1 /\ T' CWit (W c 4) (row + 1) = x 2 /\ T' CWit (W c 5) (row + 1) = x 3 /\
  T' CWit (W c 6) (row + 1) = y 1 /\ T' CWit (W c 7) (row + 1) = y 2 /\ T' CWit (W c 8) (row + 1) = y 3 /\
  T' CWit (W c 3) row = u3 /\ T' CWit (W c 4) row = u4 /\ T' CWit (W c 5) row = u5 /\ T' CWit (W c 6) row = u6 /\ T' CWit (W c 7) row = u /\
  T' CWit (W c 0) (row + 2) = r0 /\ T' CWit (W c 1) (row + 2) = r1 /\ T' CWit (W c 2) (row + 2) = r2 /\ T' CWit (W c 3) (row + 2) = r3.
Proof.
  destruct rl_0 as [E0 [E1 [E2 E3]]].
  repeat (split; [try (replace (T' CWit (W c 3) row) with (T' CWit (W c 3) (row + 0)) by (rewrite Z.add_0_r; reflexivity));
    try (replace (T' CWit (W c 4) row) with (T' CWit (W c 4) (row + 0)) by (rewrite Z.add_0_r; reflexivity));
    try (replace (T' CWit (W c 5) row) with (T' CWit (W c 5) (row + 0)) by (rewrite Z.add_0_r; reflexivity));
    try (replace (T' CWit (W c 6) row) with (T' CWit (W c 6) (row + 0)) by (rewrite Z.add_0_r; reflexivity));
    try (replace (T' CWit (W c 7) row) with (T' CWit (W c 7) (row + 0)) by (rewrite Z.add_0_r; reflexivity));
    rewrite na_read by lia; unfold l; rewrite look_app; rewrite ?E0, ?E1, ?E2, ?E3; rewrite ?rl_other by lia; reflexivity|]).
  rewrite na_read by lia; unfold l; rewrite look_app; rewrite ?E3; reflexivity.
Qed.

Local Open Scope F_scope.
Let gl (x0 x1 x2 x3 : F) := x0 + x1 * ofZ (2 ^ 66) + x2 * ofZ (2 ^ 132) + x3 * ofZ (2 ^ 198).
Lemma na_gate_ok :
  u * ofZ (2 ^ 66) = x 0 + y 0 + ofZ (nn_m 0) * q - r0 -> q * (q - ofZ 1) = f0 ->
  u = u3 + u4 * ofZ (2 ^ 22) + u5 * ofZ (2 ^ 44) + u6 * ofZ (2 ^ 66) ->
  gl (x 0) (x 1) (x 2) (x 3) + gl (y 0) (y 1) (y 2) (y 3) = q * ofZ ed_p + gl r0 r1 r2 r3 ->
  forall e, In e (na_gate c) -> eval T' (row + 1) e = f0.
Proof.
  intros E0 E1 E2 E3. destruct na_cells as [C0 [C1 [C2 [C3 [C4 [C5 [C6 [C7 [C8 [U3 [U4 [U5 [U6 [U7 [R0 [R1 [R2 R3]]]]]]]]]]]]]]]]].
  unfold na_gate. cbv zeta. repeat (rewrite all_cons). unfold nn_carry, nn_glue_e. cbv zeta. eval_norm.
  rewrite !Z.add_0_r. replace (row + 1 + -1)%Z with row by lia. replace (row + 1 + 1)%Z with (row + 2)%Z by lia.
  rewrite C0, C1, C2, C3, C4, C5, C6, C7, C8, U3, U4, U5, U6, U7, R0, R1, R2, R3.
  split; [apply fsub_eq0; exact E0|]. split; [exact E1|]. split; [apply fsub_eq0; exact E2|].
  split; [apply fsub_eq0; exact E3|]. intros e [].
Qed.
Lemma ns_gate_ok :
  u * ofZ (2 ^ 66) = x 0 + ofZ (nn_m 0) * q + ofZ (nn_limb ed_p 0) - y 0 - r0 -> q * (q - ofZ 1) = f0 ->
  u = u3 + u4 * ofZ (2 ^ 22) + u5 * ofZ (2 ^ 44) + u6 * ofZ (2 ^ 66) ->
  gl (x 0) (x 1) (x 2) (x 3) + ofZ ed_p - gl (y 0) (y 1) (y 2) (y 3) - ofZ ed_p * q = gl r0 r1 r2 r3 ->
  forall e, In e (ns_gate c) -> eval T' (row + 1) e = f0.
Proof.
  intros E0 E1 E2 E3. destruct na_cells as [C0 [C1 [C2 [C3 [C4 [C5 [C6 [C7 [C8 [U3 [U4 [U5 [U6 [U7 [R0 [R1 [R2 R3]]]]]]]]]]]]]]]]].
  unfold ns_gate. cbv zeta. repeat (rewrite all_cons). unfold nn_carry, nn_glue_e. cbv zeta. eval_norm.
  rewrite !Z.add_0_r. replace (row + 1 + -1)%Z with row by lia. replace (row + 1 + 1)%Z with (row + 2)%Z by lia.
  rewrite C0, C1, C2, C3, C4, C5, C6, C7, C8, U3, U4, U5, U6, U7, R0, R1, R2, R3.
  split; [apply fsub_eq0; exact E0|]. split; [exact E1|]. split; [apply fsub_eq0; exact E2|].
  split; [apply fsub_eq0; exact E3|]. intros e [].
Qed.
End NaSat.

Lemma rg_list_other : forall v j m, m < 2 -> look (rg_list P v 2) j m = None.
Proof.
  intros v j m Hm. unfold rg_list. cbv zeta. cbn [look]. change (2 + 1) with 3.
  assert (E2 : (m =? 2) = false) by (apply Z.eqb_neq; lia). assert (E3 : (m =? 3) = false) by (apply Z.eqb_neq; lia).
  rewrite E2, E3, !andb_false_r. reflexivity.
Qed.
Lemma rg_free_other : forall x0 x1 x2 x3 j m, m < 2 -> look (rg_free P x0 x1 x2 x3 2) j m = None.
Proof.
  intros x0 x1 x2 x3 j m Hm. unfold rg_free. cbv zeta. cbn [look]. change (2 + 1) with 3.
  assert (E2 : (m =? 2) = false) by (apply Z.eqb_neq; lia). assert (E3 : (m =? 3) = false) by (apply Z.eqb_neq; lia).
  rewrite E2, E3, !andb_false_r. reflexivity.
Qed.

Ltac na_side :=
  lazymatch goal with
  | |- wf_comp _ _ => eassumption
  | |- nn_outside _ _ _ _ => eassumption
  | |- in_cols _ _ = _ => reflexivity
  | |- in_rows _ _ = _ => reflexivity
  | |- distinct _ = _ => reflexivity
  | |- look _ _ _ = _ /\ _ => repeat split
  | |- forall j m, _ -> look (rg_list _ _ _) _ _ = None => apply rg_list_other
  | |- forall j m, _ -> look (rg_free _ _ _ _ _ _) _ _ = None => apply rg_free_other
  | _ => idtac
  end.

Section Honest.
Hypothesis big : 2 ^ 254 <= char P.

Lemma limb_val : forall r i, fval (ofZ (nn_limb r i) : F) = nn_limb r i.
Proof.
  intros r i. apply fval_ofZ_small. pose proof (char_big P big). unfold nn_limb.
  pose proof (Z.mod_pos_bound (r / 2 ^ (66 * i)) (2 ^ 66) ltac:(reflexivity)). lits. lia.
Qed.
Lemma limbs_map : forall r, map (fun i => fval (ofZ (nn_limb r i) : F)) (zseq 0 4) = nn_chop r.
Proof. intros r. unfold nn_chop. apply map_ext. intros i. apply limb_val. Qed.
Lemma chop_glue : forall r, 0 <= r < 2 ^ 255 -> nn_glue_z (nn_chop r) = r.
Proof.
  intros r Hr. pose proof (limbs_ok r Hr) as [E _]. rewrite glue_z_eq.
  change (znth 0 (nn_chop r) 0) with (nn_limb r 0). change (znth 0 (nn_chop r) 1) with (nn_limb r 1).
  change (znth 0 (nn_chop r) 2) with (nn_limb r 2). change (znth 0 (nn_chop r) 3) with (nn_limb r 3). symmetry. exact E.
Qed.
Lemma chop_small : forall r, 0 <= r < 2 ^ 255 -> nn_small (nn_chop r).
Proof. intros r Hr. pose proof (limbs_ok r Hr) as [_ H]. exact H. Qed.
Lemma canon_255 : forall r, 0 <= r < ed_p -> 0 <= r < 2 ^ 255.
Proof. intros r Hr. rewrite ed_p_val in Hr. change (2 ^ 255) with 57896044618658097711785492504343953926634992332820282019728792003956564819968. lia. Qed.

(** The limbs of the result of the witness. *)
Lemma na_vals_of : forall T c row r,
  (forall i, 0 <= i < 4 -> vval T (nv (na_out c row) i) = znth f0 [ofZ (nn_limb r 0); ofZ (nn_limb r 1); ofZ (nn_limb r 2); ofZ (nn_limb r 3)] i) ->
  nn_vals T (na_out c row) = nn_chop r.
Proof.
  intros T c row r H. rewrite <- limbs_map. unfold nn_vals. apply map_ext_in. intros i Hi. apply in_zseq in Hi. rewrite H by exact Hi. f_equal.
  assert (i = 0 \/ i = 1 \/ i = 2 \/ i = 3) as [-> |[-> |[-> | ->]]] by lia; reflexivity.
Qed.

(** What is common to the witnesses of addition and subtraction. *)
Lemma na_wit : forall T c A B row q u r top g, wf_comp c 9 -> (forall i, 0 <= i < 4 -> W c i = i) ->
  nn_outside c 4 row A -> nn_outside c 4 row B -> 0 <= r < ed_p ->
  let T' := na_write c (nn_vals T A) (nn_vals T B) q u r top row T in
  ((forall e, In e g -> eval T' (row + 1) e = f0) -> sat L T' (na_circuit_of g c A B row)) /\
  frame c 4 row T T' /\ nn_vals T' (na_out c row) = nn_chop r /\
  T' = wsets T (cells c row (na_list (vval T (nv A 0)) (vval T (nv A 1)) (vval T (nv A 2)) (vval T (nv A 3))
    (vval T (nv B 0)) (vval T (nv B 1)) (vval T (nv B 2)) (vval T (nv B 3)) (ofZ q)
    (ofZ (u mod 2 ^ 22)) (ofZ ((u / 2 ^ 22) mod 2 ^ 22)) (ofZ ((u / 2 ^ 44) mod 2 ^ 22)) (ofZ ((u / 2 ^ 66) mod top)) (ofZ u)
    (ofZ (nn_limb r 0)) (ofZ (nn_limb r 1)) (ofZ (nn_limb r 2)) (ofZ (nn_limb r 3)) ++ rg_list P (nn_chop r) 2)).
Proof.
  intros T c A B row q u r top g Hwf HW OA OB Hr T'.
  assert (E : T' = wsets T (cells c row (na_list (vval T (nv A 0)) (vval T (nv A 1)) (vval T (nv A 2)) (vval T (nv A 3))
    (vval T (nv B 0)) (vval T (nv B 1)) (vval T (nv B 2)) (vval T (nv B 3)) (ofZ q)
    (ofZ (u mod 2 ^ 22)) (ofZ ((u / 2 ^ 22) mod 2 ^ 22)) (ofZ ((u / 2 ^ 44) mod 2 ^ 22)) (ofZ ((u / 2 ^ 66) mod top)) (ofZ u)
    (ofZ (nn_limb r 0)) (ofZ (nn_limb r 1)) (ofZ (nn_limb r 2)) (ofZ (nn_limb r 3)) ++ rg_list P (nn_chop r) 2))).
  { unfold T'. rewrite na_write_cells by assumption. cbv beta zeta. rewrite limbs_map, !nn_vals_nth, !ofZ_fval by lia. reflexivity. }
  assert (RL : look (rg_list P (nn_chop r) 2) 0 2 = Some (ofZ (nn_limb r 0)) /\ look (rg_list P (nn_chop r) 2) 1 2 = Some (ofZ (nn_limb r 1)) /\
    look (rg_list P (nn_chop r) 2) 2 2 = Some (ofZ (nn_limb r 2)) /\ look (rg_list P (nn_chop r) 2) 3 2 = Some (ofZ (nn_limb r 3))) by (repeat split).
  assert (HH : has P T' c row (rg_list P (nn_chop r) 2)) by (rewrite E; apply (cells_has T c 9); na_side).
  split; [|split; [|split; [|exact E]]].
  - intros G. rewrite E. apply na_sat; na_side.
    + rewrite E in G. exact G.
    + rewrite E in HH. apply has_rg_shift in HH. eapply rg_honest; [exact big| | |exact HH].
      * apply chop_small, canon_255, Hr.
      * rewrite chop_glue by (apply canon_255, Hr). apply Hr.
  - rewrite E. apply na_frame; na_side.
  - apply na_vals_of. rewrite E. apply na_out_val; na_side.
Qed.

Lemma nn_glue_small : forall v, nn_small v -> nn_glue_z v < ed_p -> nn_glue v = nn_glue_z v /\ 0 <= nn_glue_z v.
Proof.
  intros v [H0 [H1 [H2 H3]]] Hp. assert (0 <= nn_glue_z v) by (rewrite glue_z_eq; lits; lia). split; [|assumption].
  unfold nn_glue. apply Z.mod_small. lia.
Qed.

(** Turn an equation between images of integers into one between integers. *)
Ltac zq := repeat first [rewrite <- ofZ_mul | rewrite <- ofZ_add | rewrite <- ofZ_sub]; f_equal.

Lemma na_complete_l : forall T c A B row, wf_comp c 9 -> (forall i, 0 <= i < 4 -> W c i = i) ->
  nn_outside c 4 row A -> nn_outside c 4 row B ->
  nn_small (nn_vals T A) -> nn_small (nn_vals T B) -> nn_glue_z (nn_vals T A) < ed_p -> nn_glue_z (nn_vals T B) < ed_p ->
  let T' := na_assign c A B row T in
  sat L T' (na_circuit c A B row) /\ frame c 4 row T T' /\
  nn_vals T' (na_out c row) = nn_chop ((nn_glue_z (nn_vals T A) + nn_glue_z (nn_vals T B)) mod ed_p).
Proof.
  intros T c A B row Hwf HW OA OB SA SB PA PB T'.
  pose proof (nn_glue_small _ SA PA) as [GA NA]. pose proof (nn_glue_small _ SB PB) as [GB NB].
  unfold T', na_assign. cbv zeta. rewrite GA, GB. clear T'.
  set (a := nn_glue_z (nn_vals T A)) in *. set (b := nn_glue_z (nn_vals T B)) in *. set (r := (a + b) mod ed_p).
  assert (Hr : 0 <= r < ed_p) by (apply Z.mod_pos_bound; reflexivity).
  pose proof (Z.div_mod (a + b) ed_p ltac:(discriminate)) as DM. fold r in DM.
  set (q := (a + b - r) / ed_p).
  assert (Hq : q = (a + b) / ed_p).
  { unfold q. replace (a + b - r) with ((a + b) / ed_p * ed_p) by lia. apply Z.div_mul. discriminate. }
  assert (Qr : 0 <= q < 2).
  { rewrite Hq. split; [apply Z.div_pos; [lia|reflexivity]|apply Z.div_lt_upper_bound; [reflexivity|lia]]. }
  rewrite <- Hq in DM. clearbody q.
  pose proof (limbs_ok r (canon_255 r Hr)) as [LR LB].
  assert (ql : nn_limb q 0 = q).
  { unfold nn_limb. change (2 ^ (66 * 0)) with 1. rewrite Z.div_1_r. apply Z.mod_small. lits. lia. }
  rewrite ql. change (nn_m 0) with 19.
  assert (DA : a = nn_glue_z (nn_vals T A)) by reflexivity. assert (DB : b = nn_glue_z (nn_vals T B)) by reflexivity.
  rewrite glue_z_eq in DA, DB. unfold nn_small in SA, SB. rewrite !nn_vals_nth in DA, DB, SA, SB by lia. rewrite !nn_vals_nth by lia.
  set (x i := fval (vval T (nv A i))) in *. set (y i := fval (vval T (nv B i))) in *.
  fold (x 0) (x 1) (x 2) (x 3) in DA, SA. fold (y 0) (y 1) (y 2) (y 3) in DB, SB. fold (x 0) (y 0).
  pose proof (char_big P big) as Bn.
  assert (EV : exists k, x 0 + y 0 + 19 * q - nn_limb r 0 = k * 2 ^ 66 /\ 0 <= k <= 2).
  { exists (q * 784637716923335095479473677900958302012794430558004314112 + (nn_limb r 1 - x 1 - y 1)
            + (nn_limb r 2 - x 2 - y 2) * 2 ^ 66 + (nn_limb r 3 - x 3 - y 3) * 2 ^ 132).
    match goal with |- ?l = ?k * _ /\ _ => assert (K : l = k * 2 ^ 66) by (rewrite ed_p_val in DM; lits; lia) end.
    split; [exact K|]. revert K. generalize (q * 784637716923335095479473677900958302012794430558004314112 + (nn_limb r 1 - x 1 - y 1)
            + (nn_limb r 2 - x 2 - y 2) * 2 ^ 66 + (nn_limb r 3 - x 3 - y 3) * 2 ^ 132). clear - SA SB LB Qr. intros. lits. lia. }
  destruct EV as [k [EK BK]].
  assert (UK : fval (ofZ (x 0 + y 0 + 19 * q - nn_limb r 0) : F) / 2 ^ 66 = k).
  { rewrite EK. rewrite fval_ofZ_small by (lits; lia). apply Z.div_mul. discriminate. }
  rewrite UK.
  pose proof (na_wit T c A B row q k r 2 (na_gate c) Hwf HW OA OB Hr) as [HS [HF [HV E]]].
  split; [|split; [exact HF|exact HV]].
  apply HS. rewrite E. apply na_gate_ok; na_side.
  - change (nn_m 0) with 19. rewrite <- (ofZ_fval P (vval T (nv A 0))), <- (ofZ_fval P (vval T (nv B 0))). fold (x 0) (y 0). zq. lia.
  - assert (q = 0 \/ q = 1) as [-> | ->] by lia; apply F_ext; rewrite <- ofZ_sub, <- ofZ_mul; reflexivity.
  - zq. apply pieces4_ok; [lia|]. lits. lia.
  - rewrite <- (ofZ_fval P (vval T (nv A 0))), <- (ofZ_fval P (vval T (nv B 0))), <- (ofZ_fval P (vval T (nv A 1))), <- (ofZ_fval P (vval T (nv B 1))),
      <- (ofZ_fval P (vval T (nv A 2))), <- (ofZ_fval P (vval T (nv B 2))), <- (ofZ_fval P (vval T (nv A 3))), <- (ofZ_fval P (vval T (nv B 3))).
    fold (x 0) (y 0) (x 1) (y 1) (x 2) (y 2) (x 3) (y 3). zq. rewrite <- LR, <- DA, <- DB. lia.
Qed.

(** The integers of an honest subtraction. *)
Section SubInts.
Variables (T : table) (A B : list var).
Hypothesis SA : nn_small (nn_vals T A).
Hypothesis SB : nn_small (nn_vals T B).
Hypothesis PA : nn_glue_z (nn_vals T A) < ed_p.
Hypothesis PB : nn_glue_z (nn_vals T B) < ed_p.
Let a := nn_glue_z (nn_vals T A).
Let b := nn_glue_z (nn_vals T B).
Let r := (a - b) mod ed_p.
Let q := (a + ed_p - b - r) / ed_p.
Lemma sub_ints : 0 <= r < ed_p /\ a + ed_p - b = q * ed_p + r /\ (a < b -> q = 0) /\ (b <= a -> q = 1) /\
  exists k, fval (vval T (nv A 0)) + (2 ^ 66 - 19) - fval (vval T (nv B 0)) + 19 * q - nn_limb r 0 = k * 2 ^ 66 /\ -1 <= k <= 1.
Proof.
  pose proof (nn_glue_small _ SA PA) as [_ NA]. pose proof (nn_glue_small _ SB PB) as [_ NB].
  fold a in NA, PA. fold b in NB, PB.
  assert (Hr : 0 <= r < ed_p) by (apply Z.mod_pos_bound; reflexivity).
  pose proof (Z.div_mod (a - b) ed_p ltac:(discriminate)) as DM. fold r in DM.
  assert (Hq : q = (a - b) / ed_p + 1).
  { unfold q. replace (a + ed_p - b - r) with (((a - b) / ed_p + 1) * ed_p) by lia. apply Z.div_mul. discriminate. }
  assert (Q0 : a < b -> q = 0).
  { intros H. rewrite Hq. enough ((a - b) / ed_p = -1) by lia. symmetry. apply (Z.div_unique (a - b) ed_p (-1) (a - b + ed_p)); lia. }
  assert (Q1 : b <= a -> q = 1).
  { intros H. rewrite Hq. rewrite Z.div_small by lia. reflexivity. }
  assert (Qr : q = 0 \/ q = 1) by (destruct (Z.lt_ge_cases a b) as [H|H]; [left; auto|right; auto]).
  assert (DM' : a + ed_p - b = q * ed_p + r) by (rewrite Hq; lia).
  split; [exact Hr|]. split; [exact DM'|]. split; [exact Q0|]. split; [exact Q1|]. clear Q0 Q1 Hq DM. clearbody q.
  pose proof (limbs_ok r (canon_255 r Hr)) as [LR LB]. clearbody r.
  assert (DA : a = nn_glue_z (nn_vals T A)) by reflexivity. assert (DB : b = nn_glue_z (nn_vals T B)) by reflexivity.
  clearbody a b. rewrite glue_z_eq in DA, DB. clear NA NB PA PB. pose proof SA as SA'. pose proof SB as SB'.
  unfold nn_small in SA', SB'. rewrite !nn_vals_nth in DA, DB, SA', SB' by lia.
  set (x i := fval (vval T (nv A i))) in *. set (y i := fval (vval T (nv B i))) in *.
  fold (x 0) (x 1) (x 2) (x 3) in DA, SA'. fold (y 0) (y 1) (y 2) (y 3) in DB, SB'. fold (x 0) (y 0).
  exists ((q - 1) * 784637716923335095479473677900958302012794430558004314112 + 1 + (nn_limb r 1 - x 1 + y 1)
            + (nn_limb r 2 - x 2 + y 2) * 2 ^ 66 + (nn_limb r 3 - x 3 + y 3) * 2 ^ 132).
  match goal with |- ?l = ?k * _ /\ _ => assert (K : l = k * 2 ^ 66) by (rewrite ed_p_val in DM'; lits; lia) end.
  split; [exact K|]. revert K. generalize ((q - 1) * 784637716923335095479473677900958302012794430558004314112 + 1 + (nn_limb r 1 - x 1 + y 1)
            + (nn_limb r 2 - x 2 + y 2) * 2 ^ 66 + (nn_limb r 3 - x 3 + y 3) * 2 ^ 132). clear - SA' SB' LB Qr. intros. lits. lia.
Qed.
End SubInts.

Lemma ns_complete_l : forall T c A B row, wf_comp c 9 -> (forall i, 0 <= i < 4 -> W c i = i) ->
  nn_outside c 4 row A -> nn_outside c 4 row B ->
  nn_small (nn_vals T A) -> nn_small (nn_vals T B) -> nn_glue_z (nn_vals T A) < ed_p -> nn_glue_z (nn_vals T B) < ed_p ->
  nn_glue_z (nn_vals T B) <= nn_glue_z (nn_vals T A) \/ fval (vval T (nv B 0)) - fval (vval T (nv A 0)) <= 2 ^ 66 - 19 ->
  let T' := ns_assign c A B row T in
  sat L T' (ns_circuit c A B row) /\ frame c 4 row T T' /\
  nn_vals T' (na_out c row) = nn_chop ((nn_glue_z (nn_vals T A) - nn_glue_z (nn_vals T B)) mod ed_p).
Proof.
  intros T c A B row Hwf HW OA OB SA SB PA PB HC T'.
  pose proof (sub_ints T A B SA SB PA PB) as [Hr [DM [Q0 [Q1 [k [EK BK]]]]]].
  pose proof (nn_glue_small _ SA PA) as [GA NA]. pose proof (nn_glue_small _ SB PB) as [GB NB].
  unfold T', ns_assign. cbv zeta. rewrite GA, GB. clear T'.
  set (a := nn_glue_z (nn_vals T A)) in *. set (b := nn_glue_z (nn_vals T B)) in *. set (r := (a - b) mod ed_p) in *.
  set (q := (a + ed_p - b - r) / ed_p) in *.
  assert (Qr : q = 0 \/ q = 1) by (destruct (Z.lt_ge_cases a b) as [H|H]; [left; auto|right; auto]).
  assert (ql : nn_limb q 0 = q).
  { unfold nn_limb. change (2 ^ (66 * 0)) with 1. rewrite Z.div_1_r. apply Z.mod_small. lits. lia. }
  rewrite ql. change (nn_m 0) with 19. rewrite ed_p_limb0. rewrite !nn_vals_nth by lia.
  pose proof (limbs_ok r (canon_255 r Hr)) as [LR LB].
  assert (DA : a = nn_glue_z (nn_vals T A)) by reflexivity. assert (DB : b = nn_glue_z (nn_vals T B)) by reflexivity.
  rewrite glue_z_eq in DA, DB. rewrite !nn_vals_nth in DA, DB by lia.
  unfold nn_small in SA, SB. rewrite !nn_vals_nth in SA, SB by lia.
  set (x i := fval (vval T (nv A i))) in *. set (y i := fval (vval T (nv B i))) in *.
  fold (x 0) (x 1) (x 2) (x 3) in DA, SA. fold (y 0) (y 1) (y 2) (y 3) in DB, SB. fold (x 0) (y 0). fold (x 0) (y 0) in EK, HC.
  assert (K0 : 0 <= k).
  { destruct (Z.lt_ge_cases a b) as [H|H]; [specialize (Q0 H)|specialize (Q1 H)]; clear - EK SA SB LB HC H Q0 Q1; clearbody q r a b; lits; lia. }
  pose proof (char_big P big) as Bn.
  assert (UK : fval (ofZ (x 0 + (2 ^ 66 - 19) - y 0 + 19 * q - nn_limb r 0) : F) / 2 ^ 66 = k).
  { rewrite EK. rewrite fval_ofZ_small by (lits; lia). apply Z.div_mul. discriminate. }
  rewrite UK.
  pose proof (na_wit T c A B row q k r 4 (ns_gate c) Hwf HW OA OB Hr) as [HS [HF [HV E]]].
  split; [|split; [exact HF|exact HV]].
  apply HS. rewrite E. apply ns_gate_ok; na_side.
  - change (nn_m 0) with 19. rewrite ed_p_limb0. rewrite <- (ofZ_fval P (vval T (nv A 0))), <- (ofZ_fval P (vval T (nv B 0))). fold (x 0) (y 0). zq. lia.
  - destruct Qr as [-> | ->]; apply F_ext; rewrite <- ofZ_sub, <- ofZ_mul; reflexivity.
  - zq. apply pieces4_ok; [lia|]. lits. lia.
  - rewrite <- (ofZ_fval P (vval T (nv A 0))), <- (ofZ_fval P (vval T (nv B 0))), <- (ofZ_fval P (vval T (nv A 1))), <- (ofZ_fval P (vval T (nv B 1))),
      <- (ofZ_fval P (vval T (nv A 2))), <- (ofZ_fval P (vval T (nv B 2))), <- (ofZ_fval P (vval T (nv A 3))), <- (ofZ_fval P (vval T (nv B 3))).
    fold (x 0) (y 0) (x 1) (y 1) (x 2) (y 2) (x 3) (y 3). zq. rewrite <- LR, <- DA, <- DB. lia.
Qed.

Lemma ns_fails_l : forall T c A B row, wf_comp c 9 -> (forall i, 0 <= i < 4 -> W c i = i) ->
  nn_outside c 4 row A -> nn_outside c 4 row B ->
  nn_small (nn_vals T A) -> nn_small (nn_vals T B) -> nn_glue_z (nn_vals T A) < ed_p -> nn_glue_z (nn_vals T B) < ed_p ->
  nn_glue_z (nn_vals T A) < nn_glue_z (nn_vals T B) -> 2 ^ 66 - 19 < fval (vval T (nv B 0)) - fval (vval T (nv A 0)) ->
  ~ sat L (ns_assign c A B row T) (ns_circuit c A B row).
Proof.
  intros T c A B row Hwf HW OA OB SA SB PA PB HL HC HS.
  pose proof (sub_ints T A B SA SB PA PB) as [Hr [DM [Q0 [_ [k [EK BK]]]]]]. specialize (Q0 HL).
  pose proof (nn_glue_small _ SA PA) as [GA NA]. pose proof (nn_glue_small _ SB PB) as [GB NB].
  unfold ns_assign in HS. cbv zeta in HS. rewrite GA, GB in HS.
  set (a := nn_glue_z (nn_vals T A)) in *. set (b := nn_glue_z (nn_vals T B)) in *. set (r := (a - b) mod ed_p) in *.
  rewrite Q0 in *. change (nn_limb 0 0) with 0 in HS. rewrite ed_p_limb0 in HS. rewrite !nn_vals_nth in HS by lia.
  rewrite !Z.mul_0_r in *. rewrite EK in HS.
  assert (k = -1).
  { pose proof (limbs_ok r (canon_255 r Hr)) as [_ LB]. clear - EK BK HC LB. clearbody r. lits. lia. }
  subst k. set (u := fval (ofZ (-1 * 2 ^ 66) : F) / 2 ^ 66) in *.
  assert (HX : sat L (na_write c (nn_vals T A) (nn_vals T B) 0 u r 4 row T) (ns_circuit c A B row)) by exact HS.
  pose proof (na_wit T c A B row 0 u r 4 (ns_gate c) Hwf HW OA OB Hr) as [_ [_ [_ E]]].
  apply na_parts in HX. destruct HX as [G _]. rewrite E in G.
  match type of G with forall e, _ -> eval (wsets T (cells c row (na_list ?x0 ?x1 ?x2 ?x3 ?y0 ?y1 ?y2 ?y3 ?q ?u3 ?u4 ?u5 ?u6 ?u ?r0 ?r1 ?r2 ?r3 ++ ?rl))) _ _ = _ =>
    pose proof (na_cells T c A B row q u3 u4 u5 u6 u r0 r1 r2 r3 Hwf rl) as NC end.
  specialize (NC eq_refl (conj eq_refl (conj eq_refl (conj eq_refl eq_refl))) (rg_list_other _)). cbv zeta in NC.
  set (T' := wsets T _) in *. clearbody T'.
  destruct NC as [C0 [C1 [C2 [C3 [C4 [C5 [C6 [C7 [C8 [U3 [U4 [U5 [U6 [U7 [R0 _]]]]]]]]]]]]]]].
  unfold ns_gate in G. cbv zeta in G. rewrite all_cons in G. destruct G as [G _].
  unfold nn_carry, nn_glue_e in G. cbv zeta in G. eval_hyps.
  replace (row + 1 + -1) with row in G by lia. replace (row + 1 + 1) with (row + 2) in G by lia.
  rewrite C0, C1, C2, U7, R0 in G. rewrite ed_p_limb0 in G.
  rewrite <- (ofZ_fval P (vval T (nv A 0))), <- (ofZ_fval P (vval T (nv B 0))) in G.
  assert (G' : (ofZ (u * 2 ^ 66 - (-1 * 2 ^ 66)) : F) = f0).
  { rewrite <- EK. rewrite <- G. change (ofZ 0 : F) with (@f0 P). repeat rewrite ?ofZ_sub, ?ofZ_add, ?ofZ_mul. change (ofZ 0 : F) with (@f0 P). ring. }
  apply ofZ_divide in G'. pose proof (char_big P big) as Bn.
  assert (EU : u = (char P - 2 ^ 66) / 2 ^ 66).
  { unfold u. rewrite fval_ofZ. f_equal. symmetry. apply (Z.mod_unique _ _ (-1)); lits; lia. }
  assert (EW : u = char P / 2 ^ 66 - 1).
  { rewrite EU. replace (char P - 2 ^ 66) with (char P + (-1) * 2 ^ 66) by lia. rewrite Z.div_add by discriminate. lia. }
  pose proof (Z.div_mod (char P) (2 ^ 66) ltac:(discriminate)) as D. pose proof (Z.mod_pos_bound (char P) (2 ^ 66) ltac:(reflexivity)) as MB.
  assert (MZ : char P mod 2 ^ 66 <> 0).
  { intros Z0. assert (DV : (2 | char P)). { exists (2 ^ 65 * (char P / 2 ^ 66)). change (2 ^ 66) with (2 ^ 65 * 2) in D at 1. lia. }
    destruct (prime_divisors _ (char_prime P) 2 DV) as [H|[H|[H|H]]]; lia. }
  apply Z.divide_pos_le in G'; lits; lia.
Qed.
End Honest.

(** ** Unchecked witnesses *)
Local Open Scope F_scope.
Lemma pow132 : (ofZ (2 ^ 132) : F) = ofZ (2 ^ 66) * ofZ (2 ^ 66).
Proof. rewrite <- ofZ_mul. reflexivity. Qed.
Lemma pow198 : (ofZ (2 ^ 198) : F) = ofZ (2 ^ 66) * ofZ (2 ^ 66) * ofZ (2 ^ 66).
Proof. rewrite <- !ofZ_mul. reflexivity. Qed.

Lemma na_free_of : forall g T c A B row r0 r1 r2 r3, wf_comp c 9 -> nn_outside c 4 row A -> nn_outside c 4 row B ->
  let T' := wsets T (cells c row (na_list (vval T (nv A 0)) (vval T (nv A 1)) (vval T (nv A 2)) (vval T (nv A 3))
    (vval T (nv B 0)) (vval T (nv B 1)) (vval T (nv B 2)) (vval T (nv B 3)) f0 f0 f0 f0 f0 f0 r0 r1 r2 r3 ++ rg_free P r0 r1 r2 r3 2)) in
  (forall e, In e g -> eval T' (row + 1)%Z e = f0) ->
  frame c 4 row T T' /\ sat L T' (na_circuit_of g c A B row) /\
  (forall i, (0 <= i < 4)%Z -> vval T' (nv (na_out c row) i) = znth f0 [r0; r1; r2; r3] i).
Proof.
  intros g T c A B row r0 r1 r2 r3 Hwf OA OB T' G.
  assert (HH : has P T' c row (rg_free P r0 r1 r2 r3 2)) by (apply (cells_has T c 9); na_side).
  split; [|split].
  - apply na_frame; na_side.
  - apply na_sat; na_side.
    + exact G.
    + apply has_free_shift in HH. eapply rg_free_ok. exact HH.
  - apply na_out_val; na_side.
Qed.

Lemma na_free_l : forall T c A B row t2 t3, wf_comp c 9 -> nn_outside c 4 row A -> nn_outside c 4 row B ->
  exists T', frame c 4 row T T' /\ sat L T' (na_circuit c A B row) /\
    vval T' (nv (na_out c row) 2) = t2 /\ vval T' (nv (na_out c row) 3) = t3.
Proof.
  intros T c A B row t2 t3 Hwf OA OB. set (x i := vval T (nv A i)). set (y i := vval T (nv B i)).
  set (r0 := x 0%Z + y 0%Z).
  set (r1 := x 1%Z + y 1%Z + ofZ (2 ^ 66) * (x 2%Z + y 2%Z - t2) + ofZ (2 ^ 66) * ofZ (2 ^ 66) * (x 3%Z + y 3%Z - t3)).
  pose proof (na_free_of (na_gate c) T c A B row r0 r1 t2 t3 Hwf OA OB) as K. cbv zeta in K.
  destruct K as [K1 [K2 K3]].
  - apply na_gate_ok; na_side; fold (x 0%Z) (x 1%Z) (x 2%Z) (x 3%Z) (y 0%Z) (y 1%Z) (y 2%Z) (y 3%Z); unfold r0, r1; rewrite ?pow132, ?pow198; ring.
  - eexists. split; [exact K1|]. split; [exact K2|]. split; [apply (K3 2%Z); lia|apply (K3 3%Z); lia].
Qed.

Lemma ns_free_l : forall T c A B row t2 t3, wf_comp c 9 -> nn_outside c 4 row A -> nn_outside c 4 row B ->
  exists T', frame c 4 row T T' /\ sat L T' (ns_circuit c A B row) /\
    vval T' (nv (na_out c row) 2) = t2 /\ vval T' (nv (na_out c row) 3) = t3.
Proof.
  intros T c A B row t2 t3 Hwf OA OB. set (x i := vval T (nv A i)). set (y i := vval T (nv B i)).
  set (e1 := ofZ (2 ^ 189 - 1) : F).
  set (r0 := x 0%Z + ofZ (nn_limb ed_p 0) - y 0%Z).
  set (r1 := x 1%Z + e1 - y 1%Z + ofZ (2 ^ 66) * (x 2%Z - y 2%Z - t2) + ofZ (2 ^ 66) * ofZ (2 ^ 66) * (x 3%Z - y 3%Z - t3)).
  assert (EP : (ofZ ed_p : F) = ofZ (nn_limb ed_p 0) + e1 * ofZ (2 ^ 66)).
  { unfold e1. rewrite <- ofZ_mul, <- ofZ_add. f_equal. }
  pose proof (na_free_of (ns_gate c) T c A B row r0 r1 t2 t3 Hwf OA OB) as K. cbv zeta in K.
  destruct K as [K1 [K2 K3]].
  - apply ns_gate_ok; na_side; fold (x 0%Z) (x 1%Z) (x 2%Z) (x 3%Z) (y 0%Z) (y 1%Z) (y 2%Z) (y 3%Z); rewrite ?EP; unfold r0, r1; rewrite ?pow132, ?pow198;
      generalize (ofZ (nn_limb ed_p 0) : F); intros; clearbody e1; ring.
  - eexists. split; [exact K1|]. split; [exact K2|]. split; [apply (K3 2%Z); lia|apply (K3 3%Z); lia].
Qed.
End Wit.
