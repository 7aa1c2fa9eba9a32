(** Proofs about the non-native field components. *)
From Coq Require Import ZArith List Lia Bool Field Znumtheory.
From Verif Require Import Base Field Plonk PlonkFacts Bits NonNativeModel.
Import ListNotations.
Open Scope Z_scope.

(** ** Integers *)

Lemma ed_p_val : ed_p = 57896044618658097711785492504343953926634992332820282019728792003956564819949.
Proof. reflexivity. Qed.
Lemma nn_m_vals : nn_m 0 = 19 /\ nn_m 1 = 0 /\ nn_m 2 = 0 /\ nn_m 3 = 432345564227567616.
Proof. repeat split; reflexivity. Qed.
Lemma ed_p_limb0 : nn_limb ed_p 0 = 2 ^ 66 - 19.
Proof. reflexivity. Qed.

(** The four limbs of a number below 2^255. *)
Lemma limbs_ok : forall x, 0 <= x < 2 ^ 255 ->
  x = nn_limb x 0 + nn_limb x 1 * 2 ^ 66 + nn_limb x 2 * 2 ^ 132 + nn_limb x 3 * 2 ^ 198 /\
  0 <= nn_limb x 0 < 2 ^ 66 /\ 0 <= nn_limb x 1 < 2 ^ 66 /\ 0 <= nn_limb x 2 < 2 ^ 66 /\ 0 <= nn_limb x 3 < 2 ^ 57.
Proof.
  intros x Hx. unfold nn_limb.
  change (66 * 0) with 0. change (66 * 1) with 66. change (66 * 2) with 132. change (66 * 3) with 198.
  change (2 ^ 0) with 1. rewrite Z.div_1_r.
  assert (E1 : x / 2 ^ 132 = x / 2 ^ 66 / 2 ^ 66) by (rewrite Z.div_div by lia; reflexivity).
  assert (E2 : x / 2 ^ 198 = x / 2 ^ 66 / 2 ^ 66 / 2 ^ 66) by (rewrite !Z.div_div by lia; reflexivity).
  rewrite E1, E2. set (M := 2 ^ 66).
  assert (HM : M = 73786976294838206464) by reflexivity.
  pose proof (Z.div_mod x M ltac:(lia)). pose proof (Z.mod_pos_bound x M ltac:(lia)).
  set (a := x / M) in *. pose proof (Z.div_mod a M ltac:(lia)). pose proof (Z.mod_pos_bound a M ltac:(lia)).
  set (b := a / M) in *. pose proof (Z.div_mod b M ltac:(lia)). pose proof (Z.mod_pos_bound b M ltac:(lia)).
  set (d := b / M) in *.
  change (2 ^ 255) with (2 ^ 57 * (73786976294838206464 * 73786976294838206464 * 73786976294838206464)) in Hx.
  assert (Hd : 0 <= d < 2 ^ 57) by (change (2 ^ 57) with 144115188075855872 in *; lia).
  rewrite (Z.mod_small d M) by (change (2 ^ 57) with 144115188075855872 in Hd; lia).
  change (2 ^ 132) with (73786976294838206464 * 73786976294838206464).
  change (2 ^ 198) with (73786976294838206464 * 73786976294838206464 * 73786976294838206464).
  split; [lia|]. repeat split; lia.
Qed.

(** Three pieces of a limb. *)
Lemma pieces_ok : forall x k j, 0 <= k -> 0 <= j -> 0 <= x < 2 ^ (k + k + j) ->
  x = x mod 2 ^ k + (x / 2 ^ k) mod 2 ^ k * 2 ^ k + (x / 2 ^ (k + k)) mod 2 ^ j * 2 ^ (k + k) /\
  0 <= x mod 2 ^ k < 2 ^ k /\ 0 <= (x / 2 ^ k) mod 2 ^ k < 2 ^ k /\ 0 <= (x / 2 ^ (k + k)) mod 2 ^ j < 2 ^ j.
Proof.
  intros x k j Hk Hj Hx. rewrite !Z.pow_add_r in * by lia.
  assert (HM : 0 < 2 ^ k) by (apply Z.pow_pos_nonneg; lia). assert (HJ : 0 < 2 ^ j) by (apply Z.pow_pos_nonneg; lia).
  set (M := 2 ^ k) in *. set (J := 2 ^ j) in *.
  pose proof (Z.div_mod x M ltac:(lia)). pose proof (Z.mod_pos_bound x M ltac:(lia)).
  rewrite <- Z.div_div by lia.
  set (a := x / M) in *. pose proof (Z.div_mod a M ltac:(lia)). pose proof (Z.mod_pos_bound a M ltac:(lia)).
  assert (Hb : 0 <= a / M < J).
  { unfold a. rewrite Z.div_div by lia. split; [apply Z.div_pos; lia|]. apply Z.div_lt_upper_bound; lia. }
  rewrite (Z.mod_small (a / M) J) by exact Hb. set (b := a / M) in *.
  split; [|auto]. rewrite H1 in H. rewrite H at 1. ring.
Qed.

(** A cell of a short list of writes, given by column number and row offset. *)
Section Cells.
Variable P : params.
Notation F := (F P).
Notation table := (table P).
Definition cells (c : comp) (row : Z) (l : list (Z * Z * F)) : list (Z * Z * F) :=
  map (fun x => (W c (fst (fst x)), row + snd (fst x), snd x)) l.
Fixpoint look (l : list (Z * Z * F)) (j m : Z) : option F :=
  match l with
  | [] => None
  | (j', m', v) :: r => match look r j m with
                        | Some v' => Some v'
                        | None => if (j =? j') && (m =? m') then Some v else None
                        end
  end.
Definition in_cols (w : Z) (l : list (Z * Z * F)) : bool := forallb (fun x => (0 <=? fst (fst x)) && (fst (fst x) <? w)) l.
Definition in_rows (n : Z) (l : list (Z * Z * F)) : bool := forallb (fun x => (0 <=? snd (fst x)) && (snd (fst x) <? n)) l.

Lemma cells_read : forall (T : table) c w row l j m, wf_comp c w -> in_cols w l = true -> 0 <= j < w ->
  wsets T (cells c row l) CWit (W c j) (row + m) =
  match look l j m with Some v => v | None => T CWit (W c j) (row + m) end.
Proof.
  intros T c w row l j m Hwf HC Hj. revert T. induction l as [|[[j' m'] v] l IH]; intros T; [reflexivity|].
  cbn [in_cols forallb fst snd] in HC. apply andb_prop in HC. destruct HC as [HC1 HC2].
  apply andb_prop in HC1. destruct HC1 as [C1 C2]. apply Z.leb_le in C1. apply Z.ltb_lt in C2.
  cbn [cells map fst snd]. unfold wsets. cbn [fold_left fst snd].
  change (wsets (wset T (W c j') (row + m') v) (cells c row l) CWit (W c j) (row + m) =
          match look ((j', m', v) :: l) j m with Some v => v | None => T CWit (W c j) (row + m) end).
  rewrite IH by exact HC2. cbn [look]. destruct (look l j m) as [v'|]; [reflexivity|].
  destruct (Z.eqb_spec j j') as [->|N]; cbn [andb].
  - destruct (Z.eqb_spec m m') as [->|N]; [apply wset_same|]. apply wset_other. right. right. lia.
  - apply wset_other. right. left. apply (W_neq c w); auto; lia.
Qed.

Lemma cells_frame : forall (T : table) c w n row l, wf_comp c w -> in_rows n l = true ->
  frame c n row T (wsets T (cells c row l)).
Proof.
  intros T c w n row l Hwf HR. apply (wsets_frame P c w); [exact Hwf|].
  intros col r v H. unfold cells in H. apply in_map_iff in H. destruct H as [[[j m] v'] [E H]]. cbn [fst snd] in E. injection E as <- <- <-.
  split; [exists j; reflexivity|]. unfold in_rows in HR. rewrite forallb_forall in HR. specialize (HR _ H). cbn [fst snd] in HR.
  apply andb_prop in HR. destruct HR as [R1 R2]. apply Z.leb_le in R1. apply Z.ltb_lt in R2. lia.
Qed.

Lemma cells_app : forall c row a b, cells c row (a ++ b) = cells c row a ++ cells c row b.
Proof. intros. apply map_app. Qed.
End Cells.
Arguments cells {P}. Arguments look {P}. Arguments in_cols {P}. Arguments in_rows {P}.

Section Proofs.
Variable P : params.
Notation F := (F P).
Notation table := (table P).
Variable L : lenv P.
Implicit Types T : table.
Add Field Ff : (F_field P) (morphism (F_morph P), constants [F_const], power_tac (F_power P) [F_pow_tac]).
Local Open Scope F_scope.

Lemma ofZ_zero : forall z, (- char P < z < char P)%Z -> (ofZ z : F) = f0 -> z = 0%Z.
Proof.
  intros z Hz H. change (f0 : F) with (ofZ 0 : F) in H. apply ofZ_inj in H. rewrite Zmod_0_l in H.
  apply Z.mod_divide in H; [|lia]. destruct H as [k H].
  destruct (Z.eq_dec k 0) as [->|N]; [lia|]. exfalso. assert (k <= -1 \/ 1 <= k)%Z by lia.
  pose proof (char_ge_2 P). nia.
Qed.
Lemma ofZ_divide : forall z, (ofZ z : F) = f0 -> (char P | z)%Z.
Proof.
  intros z H. change (f0 : F) with (ofZ 0 : F) in H. apply ofZ_inj in H. rewrite Zmod_0_l in H.
  apply Z.mod_divide in H; [|pose proof (char_ge_2 P); lia]. exact H.
Qed.

(** The chunk cells of a range instance, and what a lookup of the chunks and a
    comparison of the first one would ensure. *)
Definition rg_cell (T : table) (c : comp) (row k : Z) : Z :=
  if (k <? 4)%Z then fval (T CWit (W c (4 + k)) row) else fval (T CWit (W c (k - 4)) (row + 1)%Z).
Definition rg_looked (T : table) (c : comp) (row : Z) : Prop :=
  (forall k, 0 <= k < 9 -> rg_cell T c row k < 2 ^ 22)%Z /\
  (rg_cell T c row 9 < 2 ^ 21)%Z /\ (rg_cell T c row 10 < 2 ^ 21)%Z /\ (rg_cell T c row 11 < 2 ^ 15)%Z /\
  ((2 ^ 22 - 20 < rg_cell T c row 0)%Z -> T CWit (W c 8) (row + 1)%Z = f0).

Lemma rg_copy : forall T c ins row, sat L T (rg_copies c ins row) ->
  forall i, (0 <= i < 4)%Z -> vval T (nv ins i) = T CWit (W c i) row.
Proof.
  intros T c ins row H i Hi.
  destruct (var_eqb (wcell (W c i) row) (nv ins i)) eqn:E.
  - apply var_eqb_eq in E. rewrite <- E. apply vval_wcell.
  - assert (K : holds L T (Copy (wcell (W c i) row) (nv ins i))).
    { apply H. unfold rg_copies. apply in_flat_map. exists i. split; [apply in_zseq; exact Hi|].
      rewrite E. left. reflexivity. }
    cbn [holds] in K. rewrite vval_wcell in K. symmetry. exact K.
Qed.

Hypothesis big : (2 ^ 254 <= char P)%Z.

Lemma big_n : (28948022309329048855892746252171976963317496166410141009864396001978282409984 <= char P)%Z.
Proof. exact big. Qed.

(** A linear equation between cells with small values holds of the values. *)
Lemma lin3 : forall (x a b d : F) s t, (0 <= s)%Z -> (0 <= t)%Z ->
  x - (a + b * ofZ s + d * ofZ t) = f0 -> (fval a + fval b * s + fval d * t < char P)%Z ->
  fval x = (fval a + fval b * s + fval d * t)%Z.
Proof.
  intros x a b d s t Hs Ht E B. rewrite <- (ofZ_fval P a), <- (ofZ_fval P b), <- (ofZ_fval P d) in E.
  apply (proj1 (fsub_eq0 _ _ _)) in E. rewrite E. rewrite <- !ofZ_mul, <- !ofZ_add. apply fval_ofZ_small.
  pose proof (fval_range P a). pose proof (fval_range P b). pose proof (fval_range P d).
  pose proof (Z.mul_nonneg_nonneg (fval b) s ltac:(lia) ltac:(lia)).
  pose proof (Z.mul_nonneg_nonneg (fval d) t ltac:(lia) ltac:(lia)). lia.
Qed.

Ltac lits := change (2 ^ 15)%Z with 32768%Z in *; change (2 ^ 21)%Z with 2097152%Z in *; change (2 ^ 22)%Z with 4194304%Z in *;
  change (2 ^ 42)%Z with 4398046511104%Z in *; change (2 ^ 44)%Z with 17592186044416%Z in *;
  change (2 ^ 57)%Z with 144115188075855872%Z in *; change (2 ^ 66)%Z with 73786976294838206464%Z in *;
  change (2 ^ 132)%Z with (73786976294838206464 * 73786976294838206464)%Z in *;
  change (2 ^ 198)%Z with (73786976294838206464 * 73786976294838206464 * 73786976294838206464)%Z in *;
  change (2 ^ 125)%Z with 42535295865117307932921825928971026432%Z in *;
  change (2 ^ 255)%Z with (144115188075855872 * 73786976294838206464 * 73786976294838206464 * 73786976294838206464)%Z in *;
  change (2 ^ 257)%Z with 231584178474632390847141970017375815706539969331281128078915168015826259279872%Z in *;
  change (2 ^ 254)%Z with 28948022309329048855892746252171976963317496166410141009864396001978282409984%Z in *.

Lemma rg_core : forall (x0 x1 x2 x3 k0 k1 k2 k3 k4 k5 k6 k7 k8 k9 k10 k11 xi fl : F),
  let s := k1 + k2 + k3 + k4 + k5 + k6 + k7 + k8 + k9 + k10 + k11 - ofZ (2 * 2 ^ 21) - ofZ (8 * 2 ^ 22) - ofZ (2 ^ 15) + ofZ 11 in
  x0 - (k0 + k1 * ofZ (2 ^ 22) + k2 * ofZ (2 ^ 44)) = f0 -> x1 - (k3 + k4 * ofZ (2 ^ 22) + k5 * ofZ (2 ^ 44)) = f0 ->
  x2 - (k6 + k7 * ofZ (2 ^ 22) + k8 * ofZ (2 ^ 44)) = f0 -> x3 - (k9 + k10 * ofZ (2 ^ 21) + k11 * ofZ (2 ^ 42)) = f0 ->
  s * (xi * s - ofZ 1) = f0 -> xi * s + (ofZ 1 - xi * s) * fl - ofZ 1 = f0 ->
  (fval k0 < 2 ^ 22 -> fval k1 < 2 ^ 22 -> fval k2 < 2 ^ 22 -> fval k3 < 2 ^ 22 -> fval k4 < 2 ^ 22 -> fval k5 < 2 ^ 22 ->
   fval k6 < 2 ^ 22 -> fval k7 < 2 ^ 22 -> fval k8 < 2 ^ 22 -> fval k9 < 2 ^ 21 -> fval k10 < 2 ^ 21 -> fval k11 < 2 ^ 15 ->
   (2 ^ 22 - 20 < fval k0 -> fl = f0) ->
   fval x0 < 2 ^ 66 /\ fval x1 < 2 ^ 66 /\ fval x2 < 2 ^ 66 /\ fval x3 < 2 ^ 57 /\
   fval x0 + fval x1 * 2 ^ 66 + fval x2 * 2 ^ 132 + fval x3 * 2 ^ 198 < ed_p)%Z.
Proof.
  intros x0 x1 x2 x3 k0 k1 k2 k3 k4 k5 k6 k7 k8 k9 k10 k11 xi fl s E0 E1 E2 E3 ES EF B0 B1 B2 B3 B4 B5 B6 B7 B8 B9 B10 B11 BF.
  pose proof (fval_range P k0) as R0. pose proof (fval_range P k1) as R1. pose proof (fval_range P k2) as R2. pose proof (fval_range P k3) as R3.
  pose proof (fval_range P k4) as R4. pose proof (fval_range P k5) as R5. pose proof (fval_range P k6) as R6. pose proof (fval_range P k7) as R7.
  pose proof (fval_range P k8) as R8. pose proof (fval_range P k9) as R9. pose proof (fval_range P k10) as R10. pose proof (fval_range P k11) as R11.
  pose proof big_n as Bn.
  apply lin3 in E0; [|lits; lia..]. apply lin3 in E1; [|lits; lia..]. apply lin3 in E2; [|lits; lia..]. apply lin3 in E3; [|lits; lia..].
  assert (Hs : s = ofZ (fval k1 + fval k2 + fval k3 + fval k4 + fval k5 + fval k6 + fval k7 + fval k8 + fval k9 + fval k10 + fval k11
                        - 2 * 2 ^ 21 - 8 * 2 ^ 22 - 2 ^ 15 + 11)).
  { unfold s. rewrite <- (ofZ_fval P k1), <- (ofZ_fval P k2), <- (ofZ_fval P k3), <- (ofZ_fval P k4), <- (ofZ_fval P k5),
      <- (ofZ_fval P k6), <- (ofZ_fval P k7), <- (ofZ_fval P k8), <- (ofZ_fval P k9), <- (ofZ_fval P k10), <- (ofZ_fval P k11) at 1.
    rewrite <- !ofZ_add, <- !ofZ_sub, <- !ofZ_add. reflexivity. }
  assert (FL : s = f0 -> fl = f1).
  { intros E. rewrite E in EF. change (ofZ 1 : F) with (@f1 P) in EF. lc (@f1 P) EF. }
  assert (Q : (2 ^ 22 - 20 < fval k0)%Z -> s <> f0).
  { intros K E. specialize (FL E). rewrite (BF K) in FL. symmetry in FL. apply f1_neq_f0 in FL. exact FL. }
  clear ES EF FL BF. rewrite E0, E1, E2, E3. clear E0 E1 E2 E3. rewrite Hs in Q. clear Hs s.
  rewrite ed_p_val.
  assert (Q2 : (2 ^ 22 - 20 < fval k0 -> fval k1 + fval k2 + fval k3 + fval k4 + fval k5 + fval k6 + fval k7 + fval k8 + fval k9 + fval k10 + fval k11
               < 2 * 2 ^ 21 + 8 * 2 ^ 22 + 2 ^ 15 - 11)%Z).
  { intros K. specialize (Q K). destruct (Z.lt_ge_cases (fval k1 + fval k2 + fval k3 + fval k4 + fval k5 + fval k6 + fval k7 + fval k8 + fval k9 + fval k10 + fval k11)
      (2 * 2 ^ 21 + 8 * 2 ^ 22 + 2 ^ 15 - 11)) as [Y|Y]; [exact Y|]. exfalso. apply Q.
    match goal with |- ofZ ?z = _ => replace z with 0%Z by (lits; lia) end. reflexivity. }
  clear Q. lits. repeat split; lia.
Qed.

Lemma rg_sound_l : forall T c ins row, sat L T (rg_circuit c ins row) -> rg_looked T c row ->
  let x i := fval (vval T (nv ins i)) in
  (x 0 < 2 ^ 66 /\ x 1 < 2 ^ 66 /\ x 2 < 2 ^ 66 /\ x 3 < 2 ^ 57 /\ nn_glue_z (nn_vals T ins) < ed_p)%Z.
Proof.
  intros T c ins row H [K [K9 [K10 [K11 KF]]]] x. unfold rg_circuit in H. rewrite sat_cons in H. destruct H as [G CP].
  pose proof (rg_copy T c ins row CP) as V.
  unfold nn_glue_z, nn_vals. change (zseq 0 4) with [0; 1; 2; 3]%Z. cbn [map].
  unfold znth. change (Z.to_nat 0) with 0%nat. change (Z.to_nat 1) with 1%nat. change (Z.to_nat 2) with 2%nat. change (Z.to_nat 3) with 3%nat.
  cbn [nth]. fold (x 0%Z) (x 1%Z) (x 2%Z) (x 3%Z).
  assert (X : forall i, (0 <= i < 4)%Z -> x i = fval (T CWit (W c i) row)) by (intros i Hi; unfold x; rewrite V by exact Hi; reflexivity).
  rewrite !X by lia. clear X V x CP.
  unfold rg_gate in G. cbv zeta in G. rewrite holds_gate1 in G.
  repeat (rewrite all_cons in G). destruct G as [G0 [G1 [G2 [G3 [G4 [G5 _]]]]]].
  unfold rg_sum in *. cbv zeta in *. eval_hyps.
  eapply rg_core; [exact G0|exact G1|exact G2|exact G3|exact G4|exact G5|..].
  - exact (K 0%Z ltac:(lia)).
  - exact (K 1%Z ltac:(lia)).
  - exact (K 2%Z ltac:(lia)).
  - exact (K 3%Z ltac:(lia)).
  - exact (K 4%Z ltac:(lia)).
  - exact (K 5%Z ltac:(lia)).
  - exact (K 6%Z ltac:(lia)).
  - exact (K 7%Z ltac:(lia)).
  - exact (K 8%Z ltac:(lia)).
  - exact K9.
  - exact K10.
  - exact K11.
  - exact KF.
Qed.

(** ** Range: the honest witness and an unchecked one *)

Definition rg_list (v : list Z) (k : Z) : list (Z * Z * F) :=
  let ch k := ofZ (rg_chunk v k) in
  [(0, k, ofZ (znth 0 v 0)); (1, k, ofZ (znth 0 v 1)); (2, k, ofZ (znth 0 v 2)); (3, k, ofZ (znth 0 v 3));
    (4, k, ch 0); (5, k, ch 1); (6, k, ch 2); (7, k, ch 3); (8, k, rg_xi v);
    (0, k + 1, ch 4); (1, k + 1, ch 5); (2, k + 1, ch 6); (3, k + 1, ch 7);
    (4, k + 1, ch 8); (5, k + 1, ch 9); (6, k + 1, ch 10); (7, k + 1, ch 11);
    (8, k + 1, if 2 ^ 22 - 20 <? rg_chunk v 0 then f0 else f1)]%Z.
Lemma rg_assign_cells : forall c ins row k T,
  rg_assign c ins (row + k) T = wsets T (cells c row (rg_list (nn_vals T ins) k)).
Proof.
  intros. unfold rg_assign, rg_list. cbv zeta. f_equal. unfold cells. cbn [map fst snd]. rewrite !Z.add_assoc. reflexivity.
Qed.
Lemma rg_assign_cells0 : forall c ins row T,
  rg_assign c ins row T = wsets T (cells c row (rg_list (nn_vals T ins) 0)).
Proof. intros. rewrite <- rg_assign_cells, Z.add_0_r. reflexivity. Qed.

(** The cells of a table at the given places. *)
Definition has (T : table) (c : comp) (row : Z) (l : list (Z * Z * F)) : Prop :=
  forall j m x, In (j, m, x) l -> T CWit (W c j) (row + m)%Z = x.

Definition nn_small (v : list Z) : Prop :=
  (0 <= znth 0 v 0 < 2 ^ 66 /\ 0 <= znth 0 v 1 < 2 ^ 66 /\ 0 <= znth 0 v 2 < 2 ^ 66 /\ 0 <= znth 0 v 3 < 2 ^ 57)%Z.

Lemma rg_chunks : forall v, nn_small v ->
  (znth 0 v 0 = rg_chunk v 0 + rg_chunk v 1 * 2 ^ 22 + rg_chunk v 2 * 2 ^ 44 /\
   znth 0 v 1 = rg_chunk v 3 + rg_chunk v 4 * 2 ^ 22 + rg_chunk v 5 * 2 ^ 44 /\
   znth 0 v 2 = rg_chunk v 6 + rg_chunk v 7 * 2 ^ 22 + rg_chunk v 8 * 2 ^ 44 /\
   znth 0 v 3 = rg_chunk v 9 + rg_chunk v 10 * 2 ^ 21 + rg_chunk v 11 * 2 ^ 42 /\
   (forall k, 0 <= k < 9 -> 0 <= rg_chunk v k < 2 ^ 22) /\ 0 <= rg_chunk v 9 < 2 ^ 21 /\ 0 <= rg_chunk v 10 < 2 ^ 21 /\
   0 <= rg_chunk v 11 < 2 ^ 15)%Z.
Proof.
  intros v [H0 [H1 [H2 H3]]].
  pose proof (pieces_ok _ 22 22 ltac:(lia) ltac:(lia) H0) as [A0 [B0 [C0 D0]]].
  pose proof (pieces_ok _ 22 22 ltac:(lia) ltac:(lia) H1) as [A1 [B1 [C1 D1]]].
  pose proof (pieces_ok _ 22 22 ltac:(lia) ltac:(lia) H2) as [A2 [B2 [C2 D2]]].
  pose proof (pieces_ok _ 21 15 ltac:(lia) ltac:(lia) H3) as [A3 [B3 [C3 D3]]].
  change (22 + 22)%Z with 44%Z in *. change (21 + 21)%Z with 42%Z in *.
  change (rg_chunk v 0) with ((znth 0 v 0 / 1) mod 2 ^ 22)%Z. change (rg_chunk v 1) with ((znth 0 v 0 / 2 ^ 22) mod 2 ^ 22)%Z.
  change (rg_chunk v 2) with ((znth 0 v 0 / 2 ^ 44) mod 2 ^ 22)%Z.
  change (rg_chunk v 3) with ((znth 0 v 1 / 1) mod 2 ^ 22)%Z. change (rg_chunk v 4) with ((znth 0 v 1 / 2 ^ 22) mod 2 ^ 22)%Z.
  change (rg_chunk v 5) with ((znth 0 v 1 / 2 ^ 44) mod 2 ^ 22)%Z.
  change (rg_chunk v 6) with ((znth 0 v 2 / 1) mod 2 ^ 22)%Z. change (rg_chunk v 7) with ((znth 0 v 2 / 2 ^ 22) mod 2 ^ 22)%Z.
  change (rg_chunk v 8) with ((znth 0 v 2 / 2 ^ 44) mod 2 ^ 22)%Z.
  change (rg_chunk v 9) with ((znth 0 v 3 / 1) mod 2 ^ 21)%Z. change (rg_chunk v 10) with ((znth 0 v 3 / 2 ^ 21) mod 2 ^ 21)%Z.
  change (rg_chunk v 11) with ((znth 0 v 3 / 2 ^ 42) mod 2 ^ 15)%Z.
  rewrite !Z.div_1_r. repeat (split; [assumption|]). split; [|repeat (split; [assumption|]); assumption].
  intros k Hk. unfold rg_chunk. destruct (Z.eqb_spec (k / 3) 3) as [E|_].
  - exfalso. assert (k / 3 < 3)%Z by (apply Z.div_lt_upper_bound; lia). lia.
  - apply Z.mod_pos_bound. reflexivity.
Qed.

Lemma glue_z_eq : forall v, nn_glue_z v =
  (znth 0 v 0 + znth 0 v 1 * 2 ^ 66 + znth 0 v 2 * 2 ^ 132 + znth 0 v 3 * 2 ^ 198)%Z.
Proof. reflexivity. Qed.

Lemma rg_gate_of : forall T c row, 
  let w i := T CWit (W c i) row in let n i := T CWit (W c i) (row + 1)%Z in
  let s := w 5%Z + w 6%Z + w 7%Z + n 0%Z + n 1%Z + n 2%Z + n 3%Z + n 4%Z + n 5%Z + n 6%Z + n 7%Z
           - ofZ (2 * 2 ^ 21) - ofZ (8 * 2 ^ 22) - ofZ (2 ^ 15) + ofZ 11 in
  w 0%Z = w 4%Z + w 5%Z * ofZ (2 ^ 22) + w 6%Z * ofZ (2 ^ 44) ->
  w 1%Z = w 7%Z + n 0%Z * ofZ (2 ^ 22) + n 1%Z * ofZ (2 ^ 44) ->
  w 2%Z = n 2%Z + n 3%Z * ofZ (2 ^ 22) + n 4%Z * ofZ (2 ^ 44) ->
  w 3%Z = n 5%Z + n 6%Z * ofZ (2 ^ 21) + n 7%Z * ofZ (2 ^ 42) ->
  (s <> f0 -> w 8%Z = finv s) -> (s = f0 -> n 8%Z = f1) ->
  holds L T (Gate (rg_gate c) [row]).
Proof.
  intros T c row w n s E0 E1 E2 E3 E4 E5.
  unfold rg_gate. cbv zeta. rewrite holds_gate1. repeat (rewrite all_cons).
  unfold rg_sum. cbv zeta.
  assert (Z1 : (ofZ 1 : F) = f1) by reflexivity.
  assert (X : s = f0 \/ w 8%Z * s = f1).
  { destruct (feqb s f0) eqn:E; [left; apply feqb_eq; exact E|right].
    rewrite E4 by (intros K; rewrite K, feqb_refl in E; discriminate). apply finv_l.
    intros K. rewrite K, feqb_refl in E. discriminate. }
  eval_norm. rewrite !Z.add_0_r. fold (w 0%Z) (w 1%Z) (w 2%Z) (w 3%Z) (w 4%Z) (w 5%Z) (w 6%Z) (w 7%Z) (w 8%Z).
  fold (n 0%Z) (n 1%Z) (n 2%Z) (n 3%Z) (n 4%Z) (n 5%Z) (n 6%Z) (n 7%Z) (n 8%Z). fold s.
  split; [apply fsub_eq0; exact E0|]. split; [apply fsub_eq0; exact E1|]. split; [apply fsub_eq0; exact E2|].
  split; [apply fsub_eq0; exact E3|]. rewrite Z1.
  split; [|split; [|intros e []]].
  - destruct X as [X|X]; [rewrite X; ring|rewrite X; ring].
  - destruct X as [X|X]; [rewrite (E5 X), X; ring|rewrite X; ring].
Qed.

Lemma rg_honest : forall T c row v, nn_small v -> (nn_glue_z v < ed_p)%Z -> has T c row (rg_list v 0) ->
  holds L T (Gate (rg_gate c) [row]).
Proof.
  intros T c row v Hv Hp Hh. pose proof (rg_chunks v Hv) as [A0 [A1 [A2 [A3 [B [B9 [B10 B11]]]]]]].
  assert (R : forall j m x, In (j, m, x) (rg_list v 0) -> T CWit (W c j) (row + m)%Z = x) by exact Hh.
  assert (R0 : forall j x, In (j, 0, x)%Z (rg_list v 0) -> T CWit (W c j) row = x).
  { intros j x I. rewrite <- (Z.add_0_r row). apply R. exact I. }
  unfold rg_list in R, R0. cbv zeta in R, R0. change (0 + 1)%Z with 1%Z in R, R0.
  Ltac pick := repeat (first [left; reflexivity | right]).
  rewrite glue_z_eq, ed_p_val in Hp.
  set (s := (rg_chunk v 1 + rg_chunk v 2 + rg_chunk v 3 + rg_chunk v 4 + rg_chunk v 5 + rg_chunk v 6 + rg_chunk v 7 +
             rg_chunk v 8 + rg_chunk v 9 + rg_chunk v 10 + rg_chunk v 11 - 2 * 2 ^ 21 - 8 * 2 ^ 22 - 2 ^ 15 + 11)%Z).
  pose proof (B 0%Z ltac:(lia)). pose proof (B 1%Z ltac:(lia)). pose proof (B 2%Z ltac:(lia)).
  pose proof (B 3%Z ltac:(lia)). pose proof (B 4%Z ltac:(lia)). pose proof (B 5%Z ltac:(lia)).
  pose proof (B 6%Z ltac:(lia)). pose proof (B 7%Z ltac:(lia)). pose proof (B 8%Z ltac:(lia)).
  assert (XI : (rg_xi v : F) = if feqb (ofZ s : F) f0 then f0 else finv (ofZ s)).
  { unfold rg_xi. change (zseq 1 12) with [1; 2; 3; 4; 5; 6; 7; 8; 9; 10; 11]%Z. cbn [fold_left].
    match goal with |- context [ofZ ?z] => replace z with s end; [reflexivity|].
    change (rg_max 1) with (2 ^ 22 - 1)%Z. change (rg_max 2) with (2 ^ 22 - 1)%Z. change (rg_max 3) with (2 ^ 22 - 1)%Z.
    change (rg_max 4) with (2 ^ 22 - 1)%Z. change (rg_max 5) with (2 ^ 22 - 1)%Z. change (rg_max 6) with (2 ^ 22 - 1)%Z.
    change (rg_max 7) with (2 ^ 22 - 1)%Z. change (rg_max 8) with (2 ^ 22 - 1)%Z. change (rg_max 9) with (2 ^ 21 - 1)%Z.
    change (rg_max 10) with (2 ^ 21 - 1)%Z. change (rg_max 11) with (2 ^ 15 - 1)%Z. unfold s. lia. }
  pose proof big_n as Bn.
  assert (FL : (ofZ s : F) = f0 -> (2 ^ 22 - 20 <? rg_chunk v 0)%Z = false).
  { intros E. apply ofZ_zero in E; [|unfold s; lits; lia]. apply Z.ltb_ge. unfold s in E. lits. lia. }
  apply rg_gate_of; cbv zeta.
  - rewrite (R0 0%Z _ ltac:(pick)), (R0 4%Z _ ltac:(pick)), (R0 5%Z _ ltac:(pick)), (R0 6%Z _ ltac:(pick)).
    rewrite <- !ofZ_mul, <- !ofZ_add. rewrite <- A0. reflexivity.
  - rewrite (R0 1%Z _ ltac:(pick)), (R0 7%Z _ ltac:(pick)), (R 0%Z 1%Z _ ltac:(pick)), (R 1%Z 1%Z _ ltac:(pick)).
    rewrite <- !ofZ_mul, <- !ofZ_add. rewrite <- A1. reflexivity.
  - rewrite (R0 2%Z _ ltac:(pick)), (R 2%Z 1%Z _ ltac:(pick)), (R 3%Z 1%Z _ ltac:(pick)), (R 4%Z 1%Z _ ltac:(pick)).
    rewrite <- !ofZ_mul, <- !ofZ_add. rewrite <- A2. reflexivity.
  - rewrite (R0 3%Z _ ltac:(pick)), (R 5%Z 1%Z _ ltac:(pick)), (R 6%Z 1%Z _ ltac:(pick)), (R 7%Z 1%Z _ ltac:(pick)).
    rewrite <- !ofZ_mul, <- !ofZ_add. rewrite <- A3. reflexivity.
  - rewrite (R0 5%Z _ ltac:(pick)), (R0 6%Z _ ltac:(pick)), (R0 7%Z _ ltac:(pick)), (R 0%Z 1%Z _ ltac:(pick)), (R 1%Z 1%Z _ ltac:(pick)),
      (R 2%Z 1%Z _ ltac:(pick)), (R 3%Z 1%Z _ ltac:(pick)), (R 4%Z 1%Z _ ltac:(pick)), (R 5%Z 1%Z _ ltac:(pick)),
      (R 6%Z 1%Z _ ltac:(pick)), (R 7%Z 1%Z _ ltac:(pick)), (R0 8%Z _ ltac:(pick)).
    rewrite <- !ofZ_add, <- !ofZ_sub, <- !ofZ_add. fold s. rewrite XI. intros N.
    destruct (feqb (ofZ s : F) f0) eqn:E; [|reflexivity]. apply feqb_eq in E. contradiction.
  - rewrite (R0 5%Z _ ltac:(pick)), (R0 6%Z _ ltac:(pick)), (R0 7%Z _ ltac:(pick)), (R 0%Z 1%Z _ ltac:(pick)), (R 1%Z 1%Z _ ltac:(pick)),
      (R 2%Z 1%Z _ ltac:(pick)), (R 3%Z 1%Z _ ltac:(pick)), (R 4%Z 1%Z _ ltac:(pick)), (R 5%Z 1%Z _ ltac:(pick)),
      (R 6%Z 1%Z _ ltac:(pick)), (R 7%Z 1%Z _ ltac:(pick)), (R 8%Z 1%Z _ ltac:(pick)).
    rewrite <- !ofZ_add, <- !ofZ_sub, <- !ofZ_add. fold s. intros E. rewrite (FL E). reflexivity.
Qed.

(** A witness the gate accepts for any four field elements. *)
Definition rg_free (x0 x1 x2 x3 : F) (k : Z) : list (Z * Z * F) :=
  let s := x1 + x2 + x3 - ofZ (2 * 2 ^ 21) - ofZ (8 * 2 ^ 22) - ofZ (2 ^ 15) + ofZ 11 in
  [(0, k, x0); (1, k, x1); (2, k, x2); (3, k, x3);
    (4, k, x0); (5, k, f0); (6, k, f0); (7, k, x1); (8, k, finv s);
    (0, k + 1, f0); (1, k + 1, f0); (2, k + 1, x2); (3, k + 1, f0);
    (4, k + 1, f0); (5, k + 1, x3); (6, k + 1, f0); (7, k + 1, f0);
    (8, k + 1, f1)]%Z.
Lemma rg_free_ok : forall T c row x0 x1 x2 x3, has T c row (rg_free x0 x1 x2 x3 0) ->
  holds L T (Gate (rg_gate c) [row]).
Proof.
  intros T c row x0 x1 x2 x3 R.
  assert (R0 : forall j x, In (j, 0, x)%Z (rg_free x0 x1 x2 x3 0) -> T CWit (W c j) row = x).
  { intros j x I. rewrite <- (Z.add_0_r row). apply R. exact I. }
  unfold has, rg_free in R, R0. cbv zeta in R, R0. change (0 + 1)%Z with 1%Z in R, R0.
  apply rg_gate_of; cbv zeta;
  rewrite ?(R0 0%Z _ ltac:(pick)), ?(R0 1%Z _ ltac:(pick)), ?(R0 2%Z _ ltac:(pick)), ?(R0 3%Z _ ltac:(pick)), ?(R0 4%Z _ ltac:(pick)),
    ?(R0 5%Z _ ltac:(pick)), ?(R0 6%Z _ ltac:(pick)), ?(R0 7%Z _ ltac:(pick)), ?(R0 8%Z _ ltac:(pick)),
    ?(R 0%Z 1%Z _ ltac:(pick)), ?(R 1%Z 1%Z _ ltac:(pick)),
      ?(R 2%Z 1%Z _ ltac:(pick)), ?(R 3%Z 1%Z _ ltac:(pick)), ?(R 4%Z 1%Z _ ltac:(pick)), ?(R 5%Z 1%Z _ ltac:(pick)),
      ?(R 6%Z 1%Z _ ltac:(pick)), ?(R 7%Z 1%Z _ ltac:(pick)), ?(R 8%Z 1%Z _ ltac:(pick)).
  - ring.
  - ring.
  - ring.
  - ring.
  - intros N. f_equal. ring.
  - reflexivity.
Qed.
End Proofs.
