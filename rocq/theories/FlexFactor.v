(** Proofs about pow_factor.hpp. *)
From Coq Require Import ZArith List Lia Bool Field.
From Verif Require Import Base Field Plonk PlonkFacts Bits FlexModel FlexProofs FlexPow PowerProofs.
Import ListNotations.
Open Scope Z_scope.

(** ** Row counts *)

Lemma pf_cap_ok : forall B, 1 <= B -> pf_cap (8 * B + 2) = 7 * B + 1.
Proof.
  intros B HB. unfold pf_cap. destruct (8 * B + 2 =? 10) eqn:E; [apply Z.eqb_eq in E; lia|].
  replace (8 * B + 2 - 10) with ((B - 1) * 8) by lia. rewrite Z.div_mul by lia. lia.
Qed.

Lemma pf_total_ok : forall w fuel vars rows, 2 <= pf_cap w -> 1 <= vars -> vars <= Z.of_nat fuel ->
  let R := pf_total fuel w vars rows - rows in
  1 <= R /\ vars <= R * (pf_cap w - 1) + 1 /\ (R = 1 \/ (R - 1) * (pf_cap w - 1) + 1 < vars).
Proof.
  intros w fuel. induction fuel as [|fuel IH]; intros vars rows HC HV HF; [lia|].
  cbn [pf_total]. cbv zeta. set (cap := pf_cap w) in *.
  destruct (vars <=? cap) eqn:E; [apply Z.leb_le in E; replace (rows + 1 - rows) with 1 by lia; lia|apply Z.leb_gt in E].
  pose proof (Z.div_mod vars cap ltac:(lia)) as D. pose proof (Z.mod_pos_bound vars cap ltac:(lia)) as M.
  set (q := vars / cap) in *. set (r := vars mod cap) in *.
  assert (Q1 : 1 <= q) by nia.
  assert (QC : q <= q * (cap - 1)) by nia.
  destruct (IH (r + q) (rows + q) HC) as [I1 [I2 I3]]; [lia|nia|]. cbv zeta in I1, I2, I3.
  set (X := pf_total fuel w (r + q) (rows + q)) in *.
  replace (X - rows) with (X - (rows + q) + q) by lia. set (R := X - (rows + q)) in *.
  split; [lia|]. split; [nia|]. destruct I3 as [I3|I3]; [|right; nia]. rewrite I3.
  right. assert (q + r <> 1) by (intros A; assert (q = 1) by lia; assert (r = 0) by lia; nia). nia.
Qed.

Lemma pf_rows_ok : forall B power, 1 <= B -> 0 <= power ->
  1 <= pf_rows (8 * B + 2) power /\
  power <= pf_rows (8 * B + 2) power * (7 * B) /\
  (pf_rows (8 * B + 2) power = 1 \/ (pf_rows (8 * B + 2) power - 1) * (7 * B) < power) /\
  pf_padding (8 * B + 2) power = pf_rows (8 * B + 2) power * (7 * B) - power.
Proof.
  intros B power HB HP. unfold pf_padding. rewrite pf_cap_ok by exact HB.
  destruct (pf_total_ok (8 * B + 2) (Z.to_nat (power + 1)) (power + 1) 0) as [I1 [I2 I3]];
    [rewrite pf_cap_ok by exact HB; lia|lia|lia|]. cbv zeta in I1, I2, I3. rewrite pf_cap_ok in I2, I3 by exact HB.
  rewrite Z.sub_0_r in *. fold (pf_rows (8 * B + 2) power) in *. set (R := pf_rows (8 * B + 2) power) in *.
  replace (7 * B + 1 - 1) with (7 * B) in * by lia. lia.
Qed.

Section Proofs.
Variable P : params.
Notation F := (F P).
Notation table := (table P).
Variable L : lenv P.
Implicit Types T : table.
Add Field Ff : (F_field P) (morphism (F_morph P), constants [F_const], power_tac (F_power P) [F_pow_tac]).
Local Open Scope F_scope.

(** The value of a polynomial whose first coefficient is the leading one. *)
Fixpoint polyval (th : F) (cs : list F) : F :=
  match cs with [] => f0 | a :: r => a * fpow th (length r) + polyval th r end.

Lemma horner_fold : forall (th : F) l a,
  fold_left (fun a b => a * th + b) l a = a * fpow th (length l) + polyval th l.
Proof.
  intros th l. induction l as [|b l IH]; intros a; cbn [fold_left length polyval fpow]; [ring|].
  rewrite IH. ring.
Qed.

Lemma polyval_zeros : forall (th : F) n l, polyval th (repeat f0 n ++ l) = polyval th l.
Proof. intros th n l. induction n as [|n IH]; cbn [repeat app polyval]; [reflexivity|]. rewrite IH. ring. Qed.

Lemma pf_acc_S : forall (th : F) vs t, (1 <= t)%Z -> pf_acc th vs (t + 1) = pf_acc th vs t * th + znth f0 vs t.
Proof. intros th vs t Ht. unfold pf_acc. apply fold_zseq_snoc. exact Ht. Qed.

Lemma pf_acc_full : forall (th : F) vs, (1 <= zlen vs)%Z -> pf_acc th vs (zlen vs) = polyval th vs.
Proof.
  intros th vs Hv. transitivity (fold_left (fun a b => a * th + b) vs f0).
  - rewrite <- (fold_znth _ _ f0). rewrite (zseq_cons 0) by lia. cbn [fold_left Z.add].
    unfold pf_acc. f_equal. ring.
  - rewrite horner_fold. ring.
Qed.

(** ** The copy-constraint loop *)

Definition st (m : Z) : Z := if (m =? 0)%Z then 2%Z else (m + 2 + (m - 1) / 7)%Z.

Definition pf_link T c (theta : var) (row0 r : Z) : Prop :=
  T CWit (W c (wamount c - 1)) (row0 + r - 1)%Z = T CWit (W c 1) (row0 + r)%Z /\
  vval T theta = T CWit (W c 0) (row0 + r)%Z.

Lemma pf_loop_iff : forall T c B theta row0 rows vs i m, wamount c = (8 * B + 2)%Z -> (1 <= B)%Z ->
  (0 <= m <= 7 * B)%Z ->
  (sat L T (pf_loop c theta row0 rows vs (st m) (row0 + i)) <->
   (forall k, (0 <= k < zlen vs)%Z ->
      let j := (i * (7 * B) + m + k)%Z in
      vval T (znth (wcell 0 0) vs k) =
      T CWit (W c (j mod (7 * B) + (j mod (7 * B)) / 7 + 2)) (row0 + j / (7 * B))%Z) /\
   (forall r, (i < r < rows)%Z -> (r * (7 * B) < i * (7 * B) + m + zlen vs)%Z -> pf_link T c theta row0 r)).
Proof.
  intros T c B theta row0 rows vs. induction vs as [|v vs IH]; intros i m Hw HB Hm.
  - cbn [pf_loop]. split; [|intros _ cm []]. intros _. split; [intros k Hk; change (zlen (@nil var)) with 0%Z in Hk; lia|].
    intros r Hr Hlt. change (zlen (@nil var)) with 0%Z in Hlt. nia.
  - assert (EL : zlen (v :: vs) = (zlen vs + 1)%Z) by (unfold zlen; cbn [length]; lia). rewrite EL.
    pose proof (zlen_nonneg _ vs) as LN. cbn [pf_loop]. rewrite Hw. cbv zeta.
    destruct (Z.eq_dec m (7 * B)) as [E|N].
    + assert (S1 : (st m = 8 * B + 1)%Z).
      { unfold st. replace (m =? 0)%Z with false by (symmetry; apply Z.eqb_neq; lia). subst m.
        replace (7 * B - 1)%Z with ((B - 1) * 7 + 6)%Z by lia. destruct (pos_div 7 (B - 1) 6 ltac:(lia)) as [-> _]. lia. }
      rewrite S1. replace ((8 * B + 1 - 9) mod 8 =? 0)%Z with true
        by (symmetry; apply Z.eqb_eq; replace (8 * B + 1 - 9)%Z with ((B - 1) * 8)%Z by lia; apply Z.mod_mul; lia).
      replace (9 <=? 8 * B + 1)%Z with true by (symmetry; apply Z.leb_le; lia). cbn [andb].
      replace (8 * B + 2 - 1 <=? 8 * B + 1 + 1)%Z with true by (symmetry; apply Z.leb_le; lia).
      replace 3%Z with (st 1) by reflexivity. rewrite sat_app, sat_cons. rewrite <- Z.add_assoc.
      rewrite (IH (i + 1)%Z 1%Z Hw HB) by lia. cbn [holds]. rewrite vval_wcell.
      assert (LK : sat L T (if (row0 + (i + 1) <? row0 + rows)%Z then
            [Copy (wcell (W c (8 * B + 2 - 1)) (row0 + i)) (wcell (W c 1) (row0 + (i + 1)));
             Copy theta (wcell (W c 0) (row0 + (i + 1)))] else []) <-> ((i + 1 < rows)%Z -> pf_link T c theta row0 (i + 1)%Z)).
      { unfold pf_link. rewrite Hw. replace (row0 + (i + 1) - 1)%Z with (row0 + i)%Z by lia.
        destruct (row0 + (i + 1) <? row0 + rows)%Z eqn:E1; [apply Z.ltb_lt in E1|apply Z.ltb_ge in E1].
        - rewrite !sat_cons. cbn [holds]. rewrite !vval_wcell. split; [intros [A [A' _]] _; split; assumption|].
          intros A. destruct (A ltac:(lia)) as [A1 A2]. split; [exact A1|]. split; [exact A2|]. intros cm [].
        - split; [lia|]. intros _ cm []. }
      rewrite LK. split.
      * intros [HL [HV [HC HR]]]. split.
        -- intros k Hk. destruct (Z.eq_dec k 0) as [->|NK].
           ++ replace (i * (7 * B) + m + 0)%Z with ((i + 1) * (7 * B) + 0)%Z by lia.
              destruct (pos_div (7 * B) (i + 1) 0 ltac:(lia)) as [-> ->]. exact HV.
           ++ rewrite znth_cons by lia. specialize (HC (k - 1)%Z ltac:(lia)). cbv zeta in HC.
              replace ((i + 1) * (7 * B) + 1 + (k - 1))%Z with (i * (7 * B) + m + k)%Z in HC by lia. exact HC.
        -- intros r Hr Hlt. destruct (Z.eq_dec r (i + 1)) as [->|NR]; [apply HL; lia|]. apply HR; lia.
      * intros [HC HR]. split; [intros Hi; apply HR; lia|]. split; [|split].
        -- specialize (HC 0%Z ltac:(lia)). cbv zeta in HC.
           replace (i * (7 * B) + m + 0)%Z with ((i + 1) * (7 * B) + 0)%Z in HC by lia.
           destruct (pos_div (7 * B) (i + 1) 0 ltac:(lia)) as [E1 E2]. rewrite E1, E2 in HC. exact HC.
        -- intros k Hk. specialize (HC (k + 1)%Z ltac:(lia)). cbv zeta in HC. rewrite znth_cons in HC by lia.
           replace (k + 1 - 1)%Z with k in HC by lia.
           replace (i * (7 * B) + m + (k + 1))%Z with ((i + 1) * (7 * B) + 1 + k)%Z in HC by lia. exact HC.
        -- intros r Hr Hlt. apply HR; lia.
    + assert (S1 : ((if ((st m - 9) mod 8 =? 0) && (9 <=? st m) then st m + 1 else st m) = m + m / 7 + 2)%Z).
      { unfold st. destruct (m =? 0)%Z eqn:E0; [apply Z.eqb_eq in E0; subst m; reflexivity|apply Z.eqb_neq in E0].
        pose proof (Z.div_mod m 7 ltac:(lia)) as D. pose proof (Z.mod_pos_bound m 7 ltac:(lia)) as M.
        destruct (Z.eq_dec (m mod 7) 0) as [Z0|Z0].
        - replace (m - 1)%Z with ((m / 7 - 1) * 7 + 6)%Z by lia. destruct (pos_div 7 (m / 7 - 1) 6 ltac:(lia)) as [-> _].
          replace (m + 2 + (m / 7 - 1) - 9)%Z with ((m / 7 - 1) * 8)%Z by lia. rewrite Z.mod_mul by lia.
          replace (9 <=? m + 2 + (m / 7 - 1))%Z with true by (symmetry; apply Z.leb_le; lia). cbn [andb Z.eqb]. lia.
        - replace (m - 1)%Z with (m / 7 * 7 + (m mod 7 - 1))%Z by lia. destruct (pos_div 7 (m / 7) (m mod 7 - 1) ltac:(lia)) as [-> _].
          replace (m + 2 + m / 7 - 9)%Z with ((m / 7 - 1) * 8 + (m mod 7 + 1))%Z by lia.
          destruct (pos_div 8 (m / 7 - 1) (m mod 7 + 1) ltac:(lia)) as [_ ->].
          replace (m mod 7 + 1 =? 0)%Z with false by (symmetry; apply Z.eqb_neq; lia). cbn [andb]. lia. }
      rewrite S1. assert (m / 7 <= B - 1)%Z by (assert (m / 7 < B)%Z by (apply Z.div_lt_upper_bound; lia); lia).
      replace (8 * B + 2 - 1 <=? m + m / 7 + 2)%Z with false by (symmetry; apply Z.leb_gt; lia).
      replace (m + m / 7 + 2 + 1)%Z with (st (m + 1)).
      2:{ unfold st. replace (m + 1 =? 0)%Z with false by (symmetry; apply Z.eqb_neq; lia).
          replace (m + 1 - 1)%Z with m by lia. lia. }
      rewrite sat_cons, (IH i (m + 1)%Z Hw HB) by lia. cbn [holds]. rewrite vval_wcell. split.
      * intros [HV [HC HR]]. split.
        -- intros k Hk. destruct (Z.eq_dec k 0) as [->|NK].
           ++ rewrite Z.add_0_r. destruct (pos_div (7 * B) i m ltac:(lia)) as [-> ->]. exact HV.
           ++ rewrite znth_cons by lia. specialize (HC (k - 1)%Z ltac:(lia)). cbv zeta in HC.
              replace (i * (7 * B) + (m + 1) + (k - 1))%Z with (i * (7 * B) + m + k)%Z in HC by lia. exact HC.
        -- intros r Hr Hlt. apply HR; lia.
      * intros [HC HR]. split; [|split].
        -- specialize (HC 0%Z ltac:(lia)). cbv zeta in HC. rewrite Z.add_0_r in HC.
           destruct (pos_div (7 * B) i m ltac:(lia)) as [E1 E2]. rewrite E1, E2 in HC. exact HC.
        -- intros k Hk. specialize (HC (k + 1)%Z ltac:(lia)). cbv zeta in HC. rewrite znth_cons in HC by lia.
           replace (k + 1 - 1)%Z with k in HC by lia.
           replace (i * (7 * B) + m + (k + 1))%Z with (i * (7 * B) + (m + 1) + k)%Z in HC by lia. exact HC.
        -- intros r Hr Hlt. apply HR; lia.
Qed.

(** ** The circuit as equations *)

Definition horner7 (th a : F) (c : Z -> F) : F :=
  (((((((a * th + c 0%Z) * th + c 1%Z) * th + c 2%Z) * th + c 3%Z) * th + c 4%Z) * th + c 5%Z) * th + c 6%Z).

Lemma pf_gate_iff : forall T c B r, wamount c = (8 * B + 2)%Z -> (1 <= B)%Z ->
  ((forall e, In e (pf_gate c) -> eval T r e = f0) <->
   forall b, (0 <= b < B)%Z ->
     T CWit (W c (8 * b + 9)) r =
     horner7 (T CWit (W c 0) r) (T CWit (W c (8 * b + 1)) r) (fun o => T CWit (W c (8 * b + o + 2)) r)).
Proof.
  intros T c B r Hw HB. unfold pf_gate. rewrite Hw. replace (8 * B + 2 - 2)%Z with (B * 8)%Z by lia.
  rewrite Z.div_mul by lia. cbv zeta.
  assert (EV : forall b, eval T r (fold_left (fun e i => e * #(wv (W c 0) 0) + #(wv (W c (1 + 8 * b + i)%Z) 0)) (zseq 1 8) #(wv (W c (1 + 8 * b)%Z) 0)
    - #(wv (W c (1 + 8 * b + 8)%Z) 0))%E =
    horner7 (T CWit (W c 0) r) (T CWit (W c (8 * b + 1)) r) (fun o => T CWit (W c (8 * b + o + 2)) r) - T CWit (W c (8 * b + 9)) r).
  { intros b. change (zseq 1 8) with [1;2;3;4;5;6;7]%Z. cbn [fold_left]. rewrite !eval_bin, !eval_evar, !gval_wv, !Z.add_0_r.
    cbn [ebop]. unfold horner7.
    replace (1 + 8 * b)%Z with (8 * b + 1)%Z by lia.
    repeat match goal with |- context [(8 * b + 1 + ?k)%Z] => replace (8 * b + 1 + k)%Z with (8 * b + (k - 1) + 2)%Z by lia end.
    cbn [Z.sub Z.add Z.opp Z.pos_sub Pos.pred_double]. replace (8 * b + 9)%Z with (8 * b + 7 + 2)%Z by lia. reflexivity. }
  split.
  - intros H b Hb. specialize (H _ (in_map _ _ b (proj2 (in_zseq 0 B b) Hb))). cbv beta in H. rewrite EV in H.
    apply fsub0 in H. symmetry. exact H.
  - intros H e He. apply in_map_iff in He. destruct He as [b [<- Hb]]. apply in_zseq in Hb.
    rewrite EV, H by exact Hb. ring.
Qed.

Lemma pf_circuit_iff : forall T c B theta cs row, wamount c = (8 * B + 2)%Z -> (1 <= B)%Z -> (1 <= zlen cs)%Z ->
  let R := pf_rows (8 * B + 2) (zlen cs - 1) in
  let vs := map (vval T) (pf_padded c (zlen cs - 1) cs row) in
  (sat L T (pf_circuit c theta cs row) <->
   T CConst (C c 0) row = f0 /\
   (forall i b, (0 <= i < R)%Z -> (0 <= b < B)%Z ->
     T CWit (W c (8 * b + 9)) (row + i)%Z =
     horner7 (T CWit (W c 0) (row + i)%Z) (T CWit (W c (8 * b + 1)) (row + i)%Z) (fun o => T CWit (W c (8 * b + o + 2)) (row + i)%Z)) /\
   (forall i, (0 <= i < R)%Z -> vval T theta = T CWit (W c 0) (row + i)%Z) /\
   (forall i, (1 <= i < R)%Z -> T CWit (W c (8 * B + 1)) (row + i - 1)%Z = T CWit (W c 1) (row + i)%Z) /\
   znth f0 vs 0 = T CWit (W c 1) row /\
   (forall i b o, (0 <= i < R)%Z -> (0 <= b < B)%Z -> (0 <= o < 7)%Z ->
     znth f0 vs ((i * B + b) * 7 + o + 1) = T CWit (W c (8 * b + o + 2)) (row + i)%Z)).
Proof.
  intros T c B theta cs row Hw HB HC R vs.
  destruct (pf_rows_ok B (zlen cs - 1) HB ltac:(lia)) as [R1 [R2 [_ RP]]]. fold R in R1, R2, RP.
  assert (VL : zlen (pf_padded c (zlen cs - 1) cs row) = (R * (7 * B) + 1)%Z).
  { unfold pf_padded. rewrite Hw, RP. unfold zlen in *. rewrite app_length, repeat_length. lia. }
  unfold pf_circuit. rewrite Hw. fold R. rewrite !sat_cons. cbn [holds]. rewrite vval_wcell.
  destruct (pf_padded c (zlen cs - 1) cs row) as [|v0 ps] eqn:EP; [change (zlen (@nil var)) with 0%Z in VL; nia|].
  assert (PL : zlen ps = (R * (7 * B))%Z) by (unfold zlen in *; cbn [length] in VL; lia).
  assert (GK : (forall r, In r (zseq row (row + R)) -> forall e, In e (pf_gate c) -> eval T r e = f0) <->
    (forall i b, (0 <= i < R)%Z -> (0 <= b < B)%Z ->
     T CWit (W c (8 * b + 9)) (row + i)%Z =
     horner7 (T CWit (W c 0) (row + i)%Z) (T CWit (W c (8 * b + 1)) (row + i)%Z) (fun o => T CWit (W c (8 * b + o + 2)) (row + i)%Z))).
  { split.
    - intros H i b Hi Hb. specialize (H (row + i)%Z (proj2 (in_zseq row (row + R) (row + i)) ltac:(lia))).
      rewrite (pf_gate_iff T c B) in H by assumption. apply H. exact Hb.
    - intros H r Hr. apply in_zseq in Hr. replace r with (row + (r - row))%Z by lia. rewrite (pf_gate_iff T c B) by assumption.
      intros b Hb. apply H; [lia|exact Hb]. }
  rewrite GK.
  assert (LK : sat L T (pf_loop c theta row R (v0 :: ps) 1 row) <->
    vval T v0 = T CWit (W c 1) row /\ sat L T (pf_loop c theta row R ps (st 0) (row + 0))).
  { cbn [pf_loop]. rewrite Hw. cbv zeta.
    change (if ((1 - 9) mod 8 =? 0)%Z && (9 <=? 1)%Z then (1 + 1)%Z else 1%Z) with 1%Z.
    replace (8 * B + 2 - 1 <=? 1)%Z with false by (symmetry; apply Z.leb_gt; lia).
    change (1 + 1)%Z with (st 0). rewrite sat_cons, Z.add_0_r. cbn [holds]. rewrite vval_wcell. reflexivity. }
  rewrite LK, (pf_loop_iff T c B theta row R ps 0 0 Hw HB ltac:(lia)). rewrite PL.
  assert (PK : (forall k, (0 <= k < R * (7 * B))%Z -> let j := (0 * (7 * B) + 0 + k)%Z in
      vval T (znth (wcell 0 0) ps k) = T CWit (W c (j mod (7 * B) + j mod (7 * B) / 7 + 2)) (row + j / (7 * B))%Z) <->
    (forall i b o, (0 <= i < R)%Z -> (0 <= b < B)%Z -> (0 <= o < 7)%Z ->
     znth f0 vs ((i * B + b) * 7 + o + 1) = T CWit (W c (8 * b + o + 2)) (row + i)%Z)).
  { assert (AB : forall i b o, (0 <= i < R)%Z -> (0 <= b < B)%Z -> (0 <= o < 7)%Z ->
      let k := ((i * B + b) * 7 + o)%Z in (0 <= k < R * (7 * B))%Z /\ (k mod (7 * B) = 7 * b + o /\ k / (7 * B) = i)%Z /\
      znth f0 vs (k + 1) = vval T (znth (wcell 0 0) ps k) /\ ((7 * b + o) / 7 = b)%Z).
    { intros i b o Hi Hb Ho k.
      assert (IB : (0 <= i * B)%Z) by (apply Z.mul_nonneg_nonneg; lia).
      assert (KB : (0 <= k)%Z) by (unfold k; lia). assert (K2 : (k < R * (7 * B))%Z) by (unfold k; nia).
      split; [lia|]. replace k with (i * (7 * B) + (7 * b + o))%Z by (unfold k; lia).
      destruct (pos_div (7 * B) i (7 * b + o) ltac:(lia)) as [-> ->]. split; [split; reflexivity|]. split.
      - replace (i * (7 * B) + (7 * b + o))%Z with k by (unfold k; lia).
        unfold vs. cbn [map]. rewrite znth_cons by lia. replace (k + 1 - 1)%Z with k by lia.
        apply (znth_map _ _ (vval T)). lia.
      - replace (7 * b + o)%Z with (b * 7 + o)%Z by lia. apply (pos_div 7 b o). lia. }
    split.
    - intros H i b o Hi Hb Ho. destruct (AB i b o Hi Hb Ho) as [A1 [[A2 A3] [A4 A5]]]. cbv zeta in *.
      specialize (H _ A1). cbv zeta in H. rewrite A4, H.
      replace (0 * (7 * B) + 0 + ((i * B + b) * 7 + o))%Z with ((i * B + b) * 7 + o)%Z by lia. rewrite A2, A3, A5. f_equal. f_equal. lia.
    - intros H k Hk. cbv zeta.
      pose proof (Z.div_mod k 7 ltac:(lia)) as D. pose proof (Z.mod_pos_bound k 7 ltac:(lia)) as M.
      pose proof (Z.div_mod (k / 7) B ltac:(lia)) as D'. pose proof (Z.mod_pos_bound (k / 7) B ltac:(lia)) as M'.
      assert (K0 : (0 <= k / 7)%Z) by (apply Z.div_pos; lia).
      assert (Q : (0 <= k / 7 / B < R)%Z).
      { split; [apply Z.div_pos; lia|]. apply Z.div_lt_upper_bound; [lia|]. apply Z.div_lt_upper_bound; lia. }
      destruct (AB (k / 7 / B)%Z ((k / 7) mod B)%Z (k mod 7)%Z Q M' M) as [A1 [[A2 A3] [A4 A5]]]. cbv zeta in *.
      specialize (H (k / 7 / B)%Z ((k / 7) mod B)%Z (k mod 7)%Z Q M' M). rewrite A4 in H.
      replace ((k / 7 / B * B + (k / 7) mod B) * 7 + k mod 7)%Z with k in * by lia. rewrite H.
      replace (0 * (7 * B) + 0 + k)%Z with k by lia. rewrite A2, A3, A5. f_equal. f_equal. lia. }
  rewrite PK. unfold vs at 1. cbn [map]. change (znth f0 (vval T v0 :: map (vval T) ps) 0) with (vval T v0).
  unfold pf_link. rewrite Hw. replace (8 * B + 2 - 1)%Z with (8 * B + 1)%Z by lia. split.
  - intros [HK [HG [HT [HV [HP HR]]]]].
    assert (HR' : forall r, (1 <= r < R)%Z -> T CWit (W c (8 * B + 1)) (row + r - 1)%Z = T CWit (W c 1) (row + r)%Z /\
        vval T theta = T CWit (W c 0) (row + r)%Z) by (intros r Hr; apply HR; nia).
    repeat (split; [assumption|]). split.
    { intros i Hi. destruct (Z.eq_dec i 0) as [->|N]; [rewrite Z.add_0_r; exact HT|]. apply HR'. lia. }
    split; [intros i Hi; apply HR'; lia|]. split; assumption.
  - intros [HK [HG [HT [HL [HV HP]]]]]. repeat (split; [assumption|]). split.
    { specialize (HT 0%Z ltac:(lia)). rewrite Z.add_0_r in HT. exact HT. }
    split; [exact HV|]. split; [exact HP|]. intros r Hr _. split; [apply HL; lia|apply HT; lia].
Qed.

Lemma pf_acc_7 : forall (th : F) vs t, (1 <= t)%Z ->
  pf_acc th vs (t + 7) = horner7 th (pf_acc th vs t) (fun o => znth f0 vs (t + o)).
Proof.
  intros th vs t Ht. unfold horner7.
  replace (t + 7)%Z with (t + 1 + 1 + 1 + 1 + 1 + 1 + 1)%Z by lia. rewrite !pf_acc_S by lia.
  replace (t + 1 + 1)%Z with (t + 2)%Z by lia. replace (t + 2 + 1)%Z with (t + 3)%Z by lia.
  replace (t + 3 + 1)%Z with (t + 4)%Z by lia. replace (t + 4 + 1)%Z with (t + 5)%Z by lia.
  replace (t + 5 + 1)%Z with (t + 6)%Z by lia. rewrite Z.add_0_r. reflexivity.
Qed.

Lemma horner7_ext : forall th a c c', (forall o, (0 <= o < 7)%Z -> c o = c' o) -> horner7 th a c = horner7 th a c'.
Proof. intros th a c c' H. unfold horner7. rewrite !H by lia. reflexivity. Qed.

Lemma pf_padded_val : forall T c power cs row, T CConst (C c 0) row = f0 ->
  map (vval T) (pf_padded c power cs row) =
  repeat f0 (Z.to_nat (pf_padding (wamount c) power)) ++ map (vval T) cs.
Proof.
  intros T c power cs row H. unfold pf_padded. rewrite map_app. f_equal.
  induction (Z.to_nat (pf_padding (wamount c) power)) as [|n IH]; cbn [repeat map]; [reflexivity|].
  rewrite IH, vval_ccell, H. reflexivity.
Qed.

Lemma pf_sound_l : forall T c B theta cs row, wamount c = (8 * B + 2)%Z -> (1 <= B)%Z -> (1 <= zlen cs)%Z ->
  sat L T (pf_circuit c theta cs row) ->
  vval T (pf_out c (zlen cs - 1) row) = polyval (vval T theta) (map (vval T) cs).
Proof.
  intros T c B theta cs row Hw HB HC H.
  destruct (pf_rows_ok B (zlen cs - 1) HB ltac:(lia)) as [R1 [R2 [_ RP]]].
  rewrite (pf_circuit_iff T c B) in H by assumption. cbv zeta in H.
  set (R := pf_rows (8 * B + 2) (zlen cs - 1)) in *.
  set (vs := map (vval T) (pf_padded c (zlen cs - 1) cs row)) in *.
  destruct H as [HK [HG [HT [HL [HV HP]]]]].
  assert (VL : zlen vs = (R * (7 * B) + 1)%Z).
  { unfold vs, pf_padded. rewrite Hw, RP. unfold zlen in *. rewrite map_length, app_length, repeat_length. lia. }
  assert (CH : forall i, (0 <= i)%Z -> (i < R)%Z -> forall b, (0 <= b)%Z -> (b <= B)%Z ->
     T CWit (W c (8 * b + 1)) (row + i)%Z = pf_acc (vval T theta) vs ((i * B + b) * 7 + 1)).
  { apply (natlike_ind (fun i => (i < R)%Z -> forall b, (0 <= b)%Z -> (b <= B)%Z ->
     T CWit (W c (8 * b + 1)) (row + i)%Z = pf_acc (vval T theta) vs ((i * B + b) * 7 + 1))).
    - intros H0. apply (natlike_ind (fun b => (b <= B)%Z ->
        T CWit (W c (8 * b + 1)) (row + 0)%Z = pf_acc (vval T theta) vs ((0 * B + b) * 7 + 1))).
      + intros _. rewrite Z.add_0_r. change (8 * 0 + 1)%Z with 1%Z. rewrite <- HV. reflexivity.
      + intros b Hb IH Hle. unfold Z.succ in *. replace (8 * (b + 1) + 1)%Z with (8 * b + 9)%Z by lia.
        rewrite HG by lia. rewrite IH by lia. rewrite <- HT by lia.
        replace ((0 * B + (b + 1)) * 7 + 1)%Z with (b * 7 + 1 + 7)%Z by lia. rewrite pf_acc_7 by lia.
        replace ((0 * B + b) * 7 + 1)%Z with (b * 7 + 1)%Z by lia. apply horner7_ext. intros o Ho.
        rewrite <- (HP 0%Z b o) by lia. f_equal. lia.
    - intros i Hi IHi HiR. unfold Z.succ in *.
      assert (IB : (0 <= i * B)%Z) by (apply Z.mul_nonneg_nonneg; lia).
      apply (natlike_ind (fun b => (b <= B)%Z ->
        T CWit (W c (8 * b + 1)) (row + (i + 1))%Z = pf_acc (vval T theta) vs (((i + 1) * B + b) * 7 + 1))).
      + intros _. change (8 * 0 + 1)%Z with 1%Z. rewrite <- HL by lia.
        replace (row + (i + 1) - 1)%Z with (row + i)%Z by lia. rewrite IHi by lia. f_equal. lia.
      + intros b Hb IH Hle. unfold Z.succ in *. replace (8 * (b + 1) + 1)%Z with (8 * b + 9)%Z by lia.
        rewrite HG by lia. rewrite IH by lia. rewrite <- HT by lia.
        replace (((i + 1) * B + (b + 1)) * 7 + 1)%Z with (((i + 1) * B + b) * 7 + 1 + 7)%Z by lia. rewrite pf_acc_7 by lia.
        apply horner7_ext. intros o Ho. rewrite <- (HP (i + 1)%Z b o) by lia. f_equal. lia. }
  unfold pf_out. rewrite Hw, vval_wcell. fold R.
  replace (8 * B + 2 - 1)%Z with (8 * B + 1)%Z by lia. replace (row + R - 1)%Z with (row + (R - 1))%Z by lia.
  rewrite CH by lia. replace (((R - 1) * B + B) * 7 + 1)%Z with (zlen vs) by lia.
  rewrite pf_acc_full by nia. unfold vs. rewrite pf_padded_val by exact HK. apply polyval_zeros.
Qed.

Lemma pf_complete_l : forall T c B theta cs row, wf_comp c (8 * B + 2) -> (1 <= B)%Z -> (1 <= zlen cs)%Z ->
  let R := pf_rows (8 * B + 2) (zlen cs - 1) in
  outside c R row theta -> (forall v, In v cs -> outside c R row v) ->
  consts_in T (pf_circuit c theta cs row) ->
  let T' := pf_assign c theta cs row T in
  sat L T' (pf_circuit c theta cs row) /\ frame c R row T T' /\
  vval T' (pf_out c (zlen cs - 1) row) = polyval (vval T theta) (map (vval T) cs).
Proof.
  intros T c B theta cs row Hwf HB HC R OT OV HK T'. pose proof (proj1 (proj2 Hwf)) as Hw.
  destruct (pf_rows_ok B (zlen cs - 1) HB ltac:(lia)) as [R1 [R2 [_ RP]]]. fold R in R1, R2, RP.
  assert (K0 : T CConst (C c 0) row = f0) by (apply HK; left; reflexivity).
  set (T1 := cset T (C c 0) row f0).
  assert (E1 : forall ty a b, T1 ty a b = T ty a b).
  { intros ty a b. unfold T1, cset. destruct ty; try reflexivity.
    destruct ((a =? C c 0) && (b =? row))%Z eqn:E; [|reflexivity]. apply andb_prop in E. destruct E as [Ea Eb].
    apply Z.eqb_eq in Ea. apply Z.eqb_eq in Eb. subst. symmetry. exact K0. }
  assert (V1 : forall v, vval T1 v = vval T v) by (intros v; apply E1).
  set (vs := map (vval T1) (pf_padded c (zlen cs - 1) cs row)).
  assert (ET : T' = wsets T1 (grid c row R (8 * B + 2) (pf_val (vval T1 theta) vs (7 * B + 1)))).
  { unfold T', pf_assign. cbv zeta. rewrite Hw, pf_cap_ok by exact HB. reflexivity. }
  assert (F1 : frame c R row T1 T') by (rewrite ET; apply (grid_frame P T1 c (8 * B + 2)); exact Hwf).
  assert (HF : frame c R row T T') by (intros ty a b N; rewrite F1 by exact N; apply E1).
  assert (VF : forall v, outside c R row v -> vval T' v = vval T v) by (intros v Hv; eapply vval_frame; eauto).
  assert (VL : zlen vs = (R * (7 * B) + 1)%Z).
  { unfold vs, pf_padded. rewrite Hw, RP. unfold zlen in *. rewrite map_length, app_length, repeat_length. lia. }
  assert (VS : map (vval T') (pf_padded c (zlen cs - 1) cs row) = vs).
  { unfold vs. apply map_ext_in. intros v Hv. rewrite V1. apply VF. unfold pf_padded in Hv.
    apply in_app_or in Hv. destruct Hv as [Hv|Hv]; [|apply OV; exact Hv]. apply repeat_spec in Hv. subst v.
    unfold outside, in_area. cbn. intros [N _]. discriminate. }
  assert (RD : forall i j, (0 <= i < R)%Z -> (0 <= j < 8 * B + 2)%Z ->
     T' CWit (W c j) (row + i)%Z = pf_val (vval T theta) vs (7 * B + 1) i j).
  { intros i j Hi Hj. rewrite ET, V1. apply (grid_read P T1 c (8 * B + 2)); [exact Hwf|lia|lia|lia]. }
  assert (RA : forall i b, (0 <= i < R)%Z -> (0 <= b <= B)%Z ->
     T' CWit (W c (8 * b + 1)) (row + i)%Z = pf_acc (vval T theta) vs ((i * B + b) * 7 + 1)).
  { intros i b Hi Hb. rewrite RD by lia. unfold pf_val.
    replace (8 * b + 1 =? 0)%Z with false by (symmetry; apply Z.eqb_neq; lia).
    replace (8 * b + 1 - 1)%Z with (b * 8)%Z by lia. rewrite Z.mod_mul, Z.div_mul by lia. cbn [Z.eqb]. f_equal. lia. }
  assert (RC : forall i b o, (0 <= i < R)%Z -> (0 <= b < B)%Z -> (0 <= o < 7)%Z ->
     T' CWit (W c (8 * b + o + 2)) (row + i)%Z = znth f0 vs ((i * B + b) * 7 + o + 1)).
  { intros i b o Hi Hb Ho. rewrite RD by lia. unfold pf_val.
    replace (8 * b + o + 2 =? 0)%Z with false by (symmetry; apply Z.eqb_neq; lia).
    replace (8 * b + o + 2 - 1)%Z with (b * 8 + (o + 1))%Z by lia. destruct (pos_div 8 b (o + 1) ltac:(lia)) as [-> ->].
    replace (o + 1 =? 0)%Z with false by (symmetry; apply Z.eqb_neq; lia). f_equal. lia. }
  assert (S : sat L T' (pf_circuit c theta cs row)).
  { apply (pf_circuit_iff T' c B); [assumption|assumption|assumption|]. cbv zeta. fold R. rewrite VS.
    split; [rewrite HF; [exact K0|intros [N _]; discriminate]|]. split; [|split; [|split; [|split]]].
    - intros i b Hi Hb. replace (8 * b + 9)%Z with (8 * (b + 1) + 1)%Z by lia. rewrite !RA by lia.
      replace ((i * B + (b + 1)) * 7 + 1)%Z with ((i * B + b) * 7 + 1 + 7)%Z by lia.
      assert (IB : (0 <= i * B)%Z) by (apply Z.mul_nonneg_nonneg; lia). rewrite pf_acc_7 by lia.
      rewrite (RD i 0%Z) by lia. change (pf_val (vval T theta) vs (7 * B + 1) i 0) with (vval T theta).
      apply horner7_ext. intros o Ho. rewrite RC by lia. f_equal. lia.
    - intros i Hi. rewrite RD by lia. rewrite VF by exact OT. reflexivity.
    - intros i Hi. replace (row + i - 1)%Z with (row + (i - 1))%Z by lia. rewrite RA by lia.
      change (W c 1) with (W c (8 * 0 + 1)). rewrite RA by lia. f_equal. lia.
    - replace (T' CWit (W c 1) row) with (T' CWit (W c (8 * 0 + 1)) (row + 0)%Z) by (rewrite Z.add_0_r; reflexivity).
      rewrite RA by lia. reflexivity.
    - intros i b o Hi Hb Ho. symmetry. apply RC; assumption. }
  split; [exact S|]. split; [exact HF|]. rewrite (pf_sound_l T' c B theta cs row) by assumption.
  rewrite VF by exact OT. f_equal. apply map_ext_in. intros v Hv. apply VF, OV, Hv.
Qed.
End Proofs.
