(** The FRI coset component: what its gates say. *)
From Coq Require Import ZArith Znumtheory List Lia Bool Field.
From Verif Require Import Base Field Plonk PlonkFacts Bits FlexModel FlexProofs FriModel FriProofs FriSeq.
Import ListNotations.
Open Scope Z_scope.

Lemma lfit_spec : forall o pl, 0 < pl -> 0 <= o ->
  0 <= lfit o pl /\ o <= lfit o pl * pl < o + pl.
Proof.
  intros o pl Hp Ho. unfold lfit.
  pose proof (Z.div_mod o pl ltac:(lia)). pose proof (Z.mod_pos_bound o pl Hp). pose proof (Z.div_pos o pl Ho Hp).
  destruct (Z.ltb_spec 0 (o mod pl)); nia.
Qed.

Lemma skipn_flat : forall A (f : Z -> list A) m a lo hi, (forall k, length (f k) = Z.to_nat m) -> 0 <= m -> 0 <= a <= hi - lo ->
  skipn (Z.to_nat (m * a)) (flat_map f (zseq lo hi)) = flat_map f (zseq (lo + a) hi).
Proof.
  intros A f m a lo hi H Hm Ha. rewrite (zseq_app lo (lo + a) hi) by lia. rewrite flat_map_app.
  assert (E : Z.to_nat (m * a) = length (flat_map f (zseq lo (lo + a)))).
  { unfold zseq. rewrite (flat_len _ f (Z.to_nat m)) by exact H. nia. }
  rewrite E, skipn_app, skipn_all, Nat.sub_diag. reflexivity.
Qed.

Section Gates.
Variable P : params.
Notation F := (F P).
Notation table := (table P).
Variable L : lenv P.
Implicit Types T : table.
Add Field Ff : (F_field P) (morphism (F_morph P), constants [F_const], power_tac (F_power P) [F_pow_tac]).
Local Open Scope F_scope.

(** ** Constraints as equations between cells *)

(** [Y i j] is the cell in the [i]-th row, [j]-th column of the instance. *)
Definition area T c row : Z -> Z -> F := fun i j => T CWit (W c j) (row + i)%Z.

(** Cell [i] of the [b]-th 9-block. *)
Definition bcell (l : Z) (Y : Z -> Z -> F) (b i : Z) : F := Y (b / l)%Z (9 * (b mod l) + i)%Z.

(** Constraint [i] of the [b]-th 9-block. *)
Definition bcon (l : Z) (Y : Z -> Z -> F) (b i : Z) : F :=
  let X := bcell l Y in
  if (i =? 0)%Z then X b 0%Z - ofZ 2 * X (b + 1)%Z 0%Z - X b 7%Z
  else if (i =? 1)%Z then X b 1%Z - ofZ 2 * X (b + 1)%Z 1%Z - X b 8%Z
  else if (i =? 2)%Z then (X b 8%Z - X b 7%Z) * (f1 - X (b + 1)%Z 2%Z) * (f1 + X (b + 1)%Z 2%Z) + X (b + 1)%Z 2%Z - X b 2%Z
  else if (i =? 3)%Z then X b 3%Z - X (b - 1)%Z 3%Z * X (b - 1)%Z 3%Z
  else if (i =? 4)%Z then X b 4%Z - X (b - 1)%Z 4%Z * (X b 3%Z * X b 7%Z + f1 - X b 7%Z)
  else if (i =? 5)%Z then X b 5%Z - X (b + 1)%Z 5%Z * X (b + 1)%Z 5%Z
  else if (i =? 6)%Z then X b 5%Z + X b 6%Z
  else if (i =? 7)%Z then (f1 - X b 7%Z) * X b 7%Z
  else (f1 - X b 8%Z) * X b 8%Z.

Lemma next_pos : forall l b, (0 < l)%Z ->
  ((b mod l + 1) mod l = (b + 1) mod l /\ b / l + (b mod l + 1) / l = (b + 1) / l)%Z.
Proof.
  intros l b Hl. pose proof (Z.div_mod b l ltac:(lia)) as D.
  split; [rewrite Z.add_mod_idemp_l by lia; reflexivity|].
  replace (b + 1)%Z with ((b mod l + 1) + (b / l) * l)%Z by lia. rewrite Z.div_add by lia. lia.
Qed.
Lemma prev_pos : forall l b, (0 < l)%Z ->
  ((l + b mod l - 1) mod l = (b - 1) mod l /\ b / l + (if (b mod l =? 0)%Z then -1 else 0) = (b - 1) / l)%Z.
Proof.
  intros l b Hl. pose proof (Z.div_mod b l ltac:(lia)) as D. pose proof (Z.mod_pos_bound b l Hl) as M. split.
  - replace (b - 1)%Z with ((b mod l - 1) + (b / l) * l)%Z by lia. rewrite Z.mod_add by lia.
    replace (l + b mod l - 1)%Z with ((b mod l - 1) + 1 * l)%Z by lia. apply Z.mod_add. lia.
  - replace (b - 1)%Z with ((b mod l - 1) + (b / l) * l)%Z by lia. rewrite Z.div_add by lia.
    destruct (Z.eqb_spec (b mod l) 0) as [E|E].
    + rewrite E. replace ((0 - 1) / l)%Z with (-1)%Z; [lia|]. apply Z.div_unique with (r := (l - 1)%Z); lia.
    + rewrite (Z.div_small (b mod l - 1)) by lia. lia.
Qed.

Ltac nine_cases i := 
  match goal with H : (0 <= i < 9)%Z |- _ =>
    assert (i = 0 \/ i = 1 \/ i = 2 \/ i = 3 \/ i = 4 \/ i = 5 \/ i = 6 \/ i = 7 \/ i = 8)%Z
      as [-> |[-> |[-> |[-> |[-> |[-> |[-> |[-> | ->]]]]]]]] by lia end.

Lemma block_eval : forall T c l row b i, (0 < l)%Z -> (0 <= i < 9)%Z ->
  eval T (row + b / l)%Z (znth (ecst f0) (fc_block c l (b mod l)) i) = bcon l (area T c row) b i.
Proof.
  intros T c l row b i Hl Hi. destruct (next_pos l b Hl) as [N1 N2]. destruct (prev_pos l b Hl) as [P1 P2].
  unfold fc_block. rewrite N1, P1.
  nine_cases i; cbv [znth Z.to_nat Pos.to_nat Pos.iter_op Init.Nat.add nth];
    rewrite ?eval_bin, ?eval_evar, ?eval_ecst, ?gval_wv, <- ?Z.add_assoc, ?N2, ?P2, ?Z.add_0_r; cbn [ebop];
    unfold bcon, bcell, area; cbn [Z.eqb Pos.eqb]; rewrite ?Z.add_0_r; reflexivity.
Qed.

Definition nine_len : forall c l k, length (fc_block (P := P) c l k) = Z.to_nat 9 := fun c l k => eq_refl.

(** Constraint [m] of the list of a row of 9-blocks. *)
Definition mcon (l : Z) (Y : Z -> Z -> F) (i m : Z) : F := bcon l Y (i * l + m / 9)%Z (m mod 9)%Z.

Lemma nine_nth : forall T c l row i m, wamount c = (9 * l)%Z -> (0 < l)%Z -> (0 <= m < 9 * l)%Z ->
  eval T (row + i)%Z (znth (ecst f0) (fc_nine c) m) = mcon l (area T c row) i m.
Proof.
  intros T c l row i m Hw Hl Hm. unfold fc_nine, fc_l. rewrite Hw.
  replace (9 * l / 9)%Z with l by (rewrite Z.mul_comm, Z.div_mul; lia). cbv zeta.
  pose proof (Z.div_mod m 9 ltac:(lia)) as D. pose proof (Z.mod_pos_bound m 9 ltac:(lia)) as M.
  assert (HJ : (0 <= m / 9 < l)%Z) by (split; [apply Z.div_pos; lia|apply Z.div_lt_upper_bound; lia]).
  replace m with (9 * (m / 9 - 0) + m mod 9)%Z at 1 by lia.
  rewrite (znth_flat _ _ (fc_block c l) 9) by (try apply nine_len; lia).
  unfold mcon. rewrite <- (block_eval T c l row) by lia.
  destruct (pos_div l i (m / 9) HJ) as [-> ->]. reflexivity.
Qed.

Lemma nine_zlen : forall c l, wamount c = (9 * l)%Z -> (0 < l)%Z -> zlen (fc_nine (P := P) c) = (9 * l)%Z.
Proof.
  intros c l Hw Hl. unfold fc_nine, fc_l. rewrite Hw.
  replace (9 * l / 9)%Z with l by (rewrite Z.mul_comm, Z.div_mul; lia). cbv zeta.
  rewrite (zlen_flat _ _ 9) by (try apply nine_len; lia). lia.
Qed.

Lemma nine_slice : forall T c l row i a k, wamount c = (9 * l)%Z -> (0 < l)%Z -> (0 <= a)%Z -> (0 <= k)%Z ->
  ((forall e, In e (firstn (Z.to_nat k) (skipn (Z.to_nat a) (fc_nine c))) -> eval T (row + i)%Z e = f0) <->
   (forall m, (a <= m < a + k)%Z -> (m < 9 * l)%Z -> mcon l (area T c row) i m = f0)).
Proof.
  intros T c l row i a k Hw Hl Ha Hk. split.
  - intros H m H1 H2. rewrite <- (nine_nth T c l row i m Hw Hl) by lia. apply H.
    apply (in_slice _ (ecst f0)); [exact Ha|exact Hk|]. exists m. rewrite (nine_zlen c l Hw Hl). auto.
  - intros H e He. apply (in_slice _ (ecst f0)) in He; [|exact Ha|exact Hk]. destruct He as [m [H1 [H2 ->]]].
    rewrite (nine_zlen c l Hw Hl) in H2. rewrite (nine_nth T c l row i m Hw Hl) by lia. apply H; lia.
Qed.

Lemma nine_all : forall T c l row i, wamount c = (9 * l)%Z -> (0 < l)%Z ->
  ((forall e, In e (fc_nine c) -> eval T (row + i)%Z e = f0) <->
   (forall m, (0 <= m < 9 * l)%Z -> mcon l (area T c row) i m = f0)).
Proof.
  intros T c l row i Hw Hl.
  assert (E : fc_nine (P := P) c = firstn (Z.to_nat (9 * l)) (skipn (Z.to_nat 0) (fc_nine c))).
  { rewrite firstn_all2; [reflexivity|]. cbn [Z.to_nat skipn]. pose proof (nine_zlen c l Hw Hl) as K. unfold zlen in K. lia. }
  rewrite E, (nine_slice T c l row i 0 (9 * l) Hw Hl ltac:(lia) ltac:(lia)).
  split; intros H m Hm; intros; apply H; lia.
Qed.

Definition first_con (Y : Z -> Z -> F) : Prop :=
  Y 0%Z 1%Z = fopp f1 /\ Y 0%Z 2%Z * (f1 - Y 0%Z 2%Z) = f0 /\ Y 0%Z 4%Z = Y 0%Z 3%Z * Y 0%Z 7%Z + f1 - Y 0%Z 7%Z.
Lemma first_all : forall T c row,
  (forall e, In e (fc_first c) -> eval T (row + 0)%Z e = f0) <-> first_con (area T c row).
Proof.
  intros T c row. unfold fc_first. cbv zeta. rewrite !all_cons, all_nil.
  rewrite !eval_bin, !eval_evar, !eval_ecst, !gval_wv, !Z.add_0_r. cbn [ebop]. change (ofZ 1 : F) with (f1 : F).
  unfold first_con, area. rewrite !Z.add_0_r. split.
  - intros [H1 [H2 [H3 _]]]. split; [|split; [exact H2|]].
    + apply fsub0. rewrite <- H1. ring.
    + symmetry. apply fsub0. exact H3.
  - intros [H1 [H2 H3]]. split; [rewrite H1; ring|]. split; [exact H2|]. split; [rewrite H3; ring|exact I].
Qed.

(** Constraint [d] of the [k]-th 3-block of row [i]. *)
Definition kcon (l : Z) (Y : Z -> Z -> F) (i k d : Z) : F :=
  let nx := if (k + 1 =? 3 * l)%Z then Y (i + 1)%Z 2%Z else Y i (3 * (k + 1) + 2)%Z in
  if (d =? 2)%Z then (Y i (3 * k + 1)%Z - Y i (3 * k)%Z) * (f1 - nx) * (f1 + nx) + nx - Y i (3 * k + 2)%Z
  else Y i (3 * k + d)%Z * (Y i (3 * k + d)%Z - f1).

Lemma bit_all : forall T c l row i k, (0 < l)%Z -> (0 <= k < 3 * l)%Z ->
  ((forall e, In e (fc_bit c (9 * l) k) -> eval T (row + i)%Z e = f0) <->
   (forall d, (0 <= d < 3)%Z -> kcon l (area T c row) i k d = f0)).
Proof.
  intros T c l row i k Hl Hk. unfold fc_bit. cbv zeta. rewrite !all_cons, all_nil.
  rewrite !eval_bin, !eval_evar, !eval_ecst, !gval_wv, !Z.add_0_r. cbn [ebop]. change (ofZ 1 : F) with (f1 : F).
  assert (N : T CWit (W c ((3 * k + 5) mod (9 * l))) (row + i + (if (3 * k + 3 =? 9 * l) then 1 else 0))%Z =
    (if (k + 1 =? 3 * l)%Z then area T c row (i + 1)%Z 2%Z else area T c row i (3 * (k + 1) + 2)%Z)).
  { unfold area. destruct (Z.eqb_spec (3 * k + 3) (9 * l)) as [E|E].
    - replace (k + 1 =? 3 * l)%Z with true by (symmetry; apply Z.eqb_eq; lia).
      replace (3 * k + 5)%Z with (2 + 1 * (9 * l))%Z by lia. rewrite Z.mod_add, Z.mod_small by lia.
      f_equal. ring.
    - replace (k + 1 =? 3 * l)%Z with false by (symmetry; apply Z.eqb_neq; lia).
      rewrite Z.mod_small by lia. f_equal; [f_equal; ring|ring]. }
  rewrite N. unfold kcon. split.
  - intros [H1 [H2 [H3 _]]] d Hd. assert (d = 0 \/ d = 1 \/ d = 2)%Z as [-> |[-> | ->]] by lia; cbn [Z.eqb Pos.eqb]; rewrite ?Z.add_0_r; assumption.
  - intros H. pose proof (H 0%Z ltac:(lia)) as H0. pose proof (H 1%Z ltac:(lia)) as H1. pose proof (H 2%Z ltac:(lia)) as H2.
    cbn [Z.eqb Pos.eqb] in *. rewrite ?Z.add_0_r in *. auto.
Qed.

(** The value stored before the 3-blocks [k ..] of row [i]. *)
Definition vsum (Y : Z -> Z -> F) (hi i d k : Z) : F :=
  fold_left (fun e k => ofZ 2 * e + Y i (3 * k + d)%Z) (rev (zseq k hi)) (Y (i + 1)%Z d).
Lemma vsum_hi : forall Y hi i d, vsum Y hi i d hi = Y (i + 1)%Z d.
Proof. intros. unfold vsum. rewrite zseq_nil by lia. reflexivity. Qed.
Lemma vsum_step : forall Y hi i d k, (k < hi)%Z -> vsum Y hi i d k = ofZ 2 * vsum Y hi i d (k + 1)%Z + Y i (3 * k + d)%Z.
Proof. intros Y hi i d k H. unfold vsum. rewrite (zseq_cons k hi H). cbn [rev]. rewrite fold_left_app. reflexivity. Qed.
Lemma sum_eval : forall T c row i lo hi d, 
  eval T (row + i)%Z (fc_sum c lo hi d) = vsum (area T c row) hi i d lo.
Proof.
  intros T c row i lo hi d. unfold fc_sum, vsum.
  assert (G : forall ks e v, eval T (row + i)%Z e = v ->
    eval T (row + i)%Z (fold_left (fun e k => ($2 * e + #(wv (W c (3 * k + d)) 0))%E) ks e) =
    fold_left (fun e k => ofZ 2 * e + area T c row i (3 * k + d)%Z) ks v).
  { induction ks as [|k ks IH]; intros e v H; [exact H|]. cbn [fold_left]. apply IH.
    rewrite !eval_bin, eval_ecst, eval_evar, gval_wv, H, Z.add_0_r. reflexivity. }
  apply G. rewrite eval_evar, gval_wv. unfold area. f_equal. ring.
Qed.

(** Row [i] holds the 3-blocks [lo .. 3l - 1]. *)
Definition row_con (l : Z) (Y : Z -> Z -> F) (i lo : Z) : Prop :=
  vsum Y (3 * l) i 0 lo = Y i (3 * (lo - 1))%Z /\ vsum Y (3 * l) i 1 lo = Y i (3 * (lo - 1) + 1)%Z /\
  Y i (3 * (lo - 1) + 2)%Z = Y i (3 * lo + 2)%Z /\
  (forall k d, (lo <= k < 3 * l)%Z -> (0 <= d < 3)%Z -> kcon l Y i k d = f0).

Lemma bits_all : forall T c l row i lo, (0 < l)%Z -> (0 <= lo)%Z ->
  ((forall e, In e (flat_map (fc_bit c (9 * l)) (zseq lo (3 * l))) -> eval T (row + i)%Z e = f0) <->
   (forall k d, (lo <= k < 3 * l)%Z -> (0 <= d < 3)%Z -> kcon l (area T c row) i k d = f0)).
Proof.
  intros T c l row i lo Hl Hlo. rewrite flat_all. split.
  - intros H k d Hk Hd. apply (proj1 (bit_all T c l row i k Hl ltac:(lia))); [|exact Hd]. apply H. apply in_zseq. exact Hk.
  - intros H k Hk. apply in_zseq in Hk. apply (bit_all T c l row i k Hl ltac:(lia)). intros d Hd. apply H; assumption.
Qed.

Lemma w3 : forall l, (9 * l / 3 = 3 * l)%Z.
Proof. intros l. replace (9 * l)%Z with (3 * l * 3)%Z by ring. apply Z.div_mul. lia. Qed.
Lemma w9 : forall l, (9 * l / 9 = l)%Z.
Proof. intros l. rewrite Z.mul_comm. apply Z.div_mul. lia. Qed.

Lemma line_all : forall T c l row i, wamount c = (9 * l)%Z -> (0 < l)%Z ->
  ((forall e, In e (fc_bit_line c) -> eval T (row + i)%Z e = f0) <-> row_con l (area T c row) i 1).
Proof.
  intros T c l row i Hw Hl. unfold fc_bit_line. rewrite Hw, w3. cbv zeta.
  rewrite all_app, !all_cons, all_nil, bits_all by lia.
  rewrite !eval_bin, !sum_eval, !eval_evar, !gval_wv, !Z.add_0_r. cbn [ebop]. rewrite !fsub_eq0.
  unfold row_con. change (3 * (1 - 1))%Z with 0%Z. rewrite !Z.add_0_l. change (3 * 1 + 2)%Z with 5%Z.
  unfold area at 2 4 5 6. tauto.
Qed.

Lemma bit_len : forall c w k, length (fc_bit (P := P) c w k) = Z.to_nat 3.
Proof. reflexivity. Qed.

Lemma gate1_all : forall T c l row, wamount c = (9 * l)%Z -> (0 < l)%Z ->
  ((forall e, In e (fc_gate1 c) -> eval T (row + 0)%Z e = f0) <->
   first_con (area T c row) /\ forall m, (0 <= m < 3 \/ 5 <= m < 9 * l)%Z -> mcon l (area T c row) 0 m = f0).
Proof.
  intros T c l row Hw Hl. unfold fc_gate1.
  assert (E1 : firstn 3 (fc_nine (P := P) c) = firstn (Z.to_nat 3) (skipn (Z.to_nat 0) (fc_nine c))) by reflexivity.
  assert (E2 : skipn 5 (fc_nine (P := P) c) = firstn (Z.to_nat (9 * l)) (skipn (Z.to_nat 5) (fc_nine c))).
  { rewrite firstn_all2; [reflexivity|]. rewrite skipn_length. pose proof (nine_zlen c l Hw Hl) as K. unfold zlen in K. lia. }
  rewrite E1, E2, !all_app, first_all, (nine_slice T c l row 0 0 3 Hw Hl ltac:(lia) ltac:(lia)),
    (nine_slice T c l row 0 5 (9 * l) Hw Hl ltac:(lia) ltac:(lia)).
  split.
  - intros [H1 [H2 H3]]. split; [exact H2|]. intros m [Hm|Hm]; [apply H1|apply H3]; lia.
  - intros [H1 H2]. split; [|split; [exact H1|]]; intros; apply H2; lia.
Qed.

Definition last_block (l n : Z) : Z := if (0 <? n mod l)%Z then (n mod l)%Z else l.

Lemma gate3_all : forall T c l n row i, wamount c = (9 * l)%Z -> (0 < l)%Z -> (0 <= n)%Z ->
  ((1 < lfit n l)%Z \/ i = 0%Z) ->
  let Y := area T c row in let last := last_block l n in
  ((forall e, In e (fc_gate3 c n) -> eval T (row + i)%Z e = f0) <->
   (forall m, (0 <= m < 3 \/ 5 <= m < 9 * last - 4 \/ 9 * last - 3 <= m < 9 * last)%Z -> mcon l Y i m = f0) /\
   ((1 < lfit n l)%Z -> mcon l Y i 3 = f0 /\ mcon l Y i 4 = f0) /\
   ((lfit n l <= 1)%Z -> first_con Y) /\
   Y i (9 * (last - 1) + 5)%Z = Y i (9 * (last - 1) + 4)%Z /\
   ((0 < n mod l)%Z -> row_con l Y i (3 * (n mod l) + 1))).
Proof.
  intros T c l n row i Hw Hl Hn Hi Y last.
  pose proof (Z.mod_pos_bound n l Hl) as ML.
  assert (LB : (1 <= last <= l)%Z) by (unfold last, last_block; destruct (Z.ltb_spec 0 (n mod l)); lia).
  unfold fc_gate3, fc_last, fc_nine_rows, fc_l. rewrite Hw, w9, w3. cbv zeta.
  change (if (0 <? n mod l)%Z then (n mod l)%Z else l) with last.
  assert (E1 : firstn 3 (fc_nine (P := P) c) = firstn (Z.to_nat 3) (skipn (Z.to_nat 0) (fc_nine c))) by reflexivity.
  change (skipn 5 (fc_nine (P := P) c)) with (skipn (Z.to_nat 5) (fc_nine (P := P) c)).
  rewrite E1, !all_app, !all_cons, all_nil, (nine_slice T c l row i 0 3 Hw Hl ltac:(lia) ltac:(lia)),
    (nine_slice T c l row i 5 (9 * (last - 1)) Hw Hl ltac:(lia) ltac:(lia)).
  rewrite !(nine_nth T c l row i) by (try assumption; lia).
  rewrite eval_bin, !eval_evar, !gval_wv, !Z.add_0_r. cbn [ebop]. rewrite fsub_eq0.
  assert (EF : (forall e, In e (if (1 <? lfit n l)%Z then [znth (ecst f0) (fc_nine c) 3; znth (ecst f0) (fc_nine c) 4] else fc_first c) ->
      eval T (row + i)%Z e = f0) <->
     ((1 < lfit n l)%Z -> mcon l Y i 3 = f0 /\ mcon l Y i 4 = f0) /\ ((lfit n l <= 1)%Z -> first_con Y)).
  { destruct (Z.ltb_spec 1 (lfit n l)) as [G|G].
    - rewrite !all_cons, all_nil, !(nine_nth T c l row i) by (try assumption; lia). fold Y. split; [|intros [H _]].
      + intros [H1 [H2 _]]. split; [auto|lia].
      + destruct (H G). auto.
    - destruct Hi as [Hi|Hi]; [lia|]. rewrite Hi, first_all. fold Y. split; [intros H; split; [lia|auto]|intros [_ H]; auto]. }
  rewrite EF.
  assert (EB : (forall e, In e (if (0 <? n mod l)%Z then
       [ (fc_sum c (3 * (n mod l) + 1) (3 * l) 0 - #(wv (W c (9 * (n mod l))) 0))%E;
         (fc_sum c (3 * (n mod l) + 1) (3 * l) 1 - #(wv (W c (9 * (n mod l) + 1)) 0))%E;
         (#(wv (W c (9 * (n mod l) + 2)) 0) - #(wv (W c (9 * (n mod l) + 5)) 0))%E ] ++
       skipn (Z.to_nat (9 * (n mod l) + 3)) (fc_bit_line c) else []) -> eval T (row + i)%Z e = f0) <->
     ((0 < n mod l)%Z -> row_con l Y i (3 * (n mod l) + 1))).
  { destruct (Z.ltb_spec 0 (n mod l)) as [G|G]; [|rewrite all_nil; split; [intros; lia|auto]].
    assert (ES : skipn (Z.to_nat (9 * (n mod l) + 3)) (fc_bit_line c) = flat_map (fc_bit (P := P) c (9 * l)) (zseq (3 * (n mod l) + 1) (3 * l))).
    { unfold fc_bit_line. rewrite Hw, w3. cbv zeta. replace (Z.to_nat (9 * (n mod l) + 3)) with (3 + Z.to_nat (3 * (3 * (n mod l))))%nat by lia.
      cbn [Nat.add app skipn]. rewrite (skipn_flat _ (fc_bit c (9 * l)) 3) by (try apply bit_len; lia). f_equal. f_equal. ring. }
    rewrite ES, all_app, !all_cons, all_nil, bits_all by lia.
    rewrite !eval_bin, !sum_eval, !eval_evar, !gval_wv, !Z.add_0_r. cbn [ebop]. rewrite !fsub_eq0.
    unfold row_con. replace (3 * (3 * (n mod l) + 1 - 1))%Z with (9 * (n mod l))%Z by ring.
    replace (3 * (3 * (n mod l) + 1) + 2)%Z with (9 * (n mod l) + 5)%Z by ring. fold Y.
    change (T CWit (W c (9 * (n mod l))) (row + i)%Z) with (Y i (9 * (n mod l))%Z).
    change (T CWit (W c (9 * (n mod l) + 1)) (row + i)%Z) with (Y i (9 * (n mod l) + 1)%Z).
    change (T CWit (W c (9 * (n mod l) + 2)) (row + i)%Z) with (Y i (9 * (n mod l) + 2)%Z).
    change (T CWit (W c (9 * (n mod l) + 5)) (row + i)%Z) with (Y i (9 * (n mod l) + 5)%Z). tauto. }
  rewrite EB. fold Y. change (T CWit (W c (9 * (last - 1) + 5)) (row + i)%Z) with (Y i (9 * (last - 1) + 5)%Z).
  change (T CWit (W c (9 * (last - 1) + 4)) (row + i)%Z) with (Y i (9 * (last - 1) + 4)%Z).
  split.
  - intros [H1 [H2 [H3 [[H4 [H5 [H6 [H7 _]]]] H8]]]].
    split; [|tauto]. intros m [Hm|[Hm|Hm]]; [apply H1; lia|apply H3; lia|].
    assert (m = 9 * (last - 1) + 6 \/ m = 9 * (last - 1) + 7 \/ m = 9 * (last - 1) + 8)%Z as [-> |[-> | ->]] by lia; assumption.
  - intros [H1 [H2 [H3 [H4 H5]]]].
    split; [intros; apply H1; lia|]. split; [tauto|]. split; [intros; apply H1; lia|].
    split; [|exact H5]. split; [exact H4|]. repeat split; apply H1; lia.
Qed.

(** ** All gates of the component *)

Definition fc_bits_rows (l n : Z) : Z := lfit (fc_remaining P (9 * l) n) (3 * l - 1).
(** The last row of the component, counted from the first. *)
Definition fc_end (l n : Z) : Z := (lfit n l + fc_bits_rows l n)%Z.
Definition lo_of (l n i : Z) : Z := if (i =? n / l)%Z then (3 * (n mod l) + 1)%Z else 1%Z.

Record good (l n : Z) (Y : Z -> Z -> F) : Prop := {
  gd_blocks : forall b i, (0 <= b < n)%Z -> (0 <= i < 9)%Z -> (i = 3 \/ i = 4 -> 0 < b)%Z -> (i = 5 -> b < n - 1)%Z -> bcon l Y b i = f0;
  gd_first : first_con Y;
  gd_last : bcell l Y (n - 1) 5 = bcell l Y (n - 1) 4;
  gd_rows : forall i, (n / l <= i < fc_end l n)%Z -> row_con l Y i (lo_of l n i) }.

Lemma blocks_pos : forall l n, (0 < l)%Z -> (1 <= n)%Z ->
  let nr := lfit n l in
  (1 <= nr /\ n = (nr - 1) * l + last_block l n /\ 1 <= last_block l n <= l /\
   (n - 1) / l = nr - 1 /\ (n - 1) mod l = last_block l n - 1 /\
   n / l = (if 0 <? n mod l then nr - 1 else nr))%Z.
Proof.
  intros l n Hl Hn nr. unfold nr, lfit, last_block.
  pose proof (Z.div_mod n l ltac:(lia)) as D. pose proof (Z.mod_pos_bound n l Hl) as M. pose proof (Z.div_pos n l ltac:(lia) Hl) as Q.
  destruct (Z.ltb_spec 0 (n mod l)) as [G|G].
  - assert (E : (n - 1 = n / l * l + (n mod l - 1))%Z) by lia.
    destruct (pos_div l (n / l) (n mod l - 1) ltac:(lia)) as [E1 E2]. rewrite <- E in E1, E2. rewrite E1, E2. repeat split; try lia.
  - assert (1 <= n / l)%Z by nia.
    assert (E : (n - 1 = (n / l - 1) * l + (l - 1))%Z) by lia.
    destruct (pos_div l (n / l - 1) (l - 1) ltac:(lia)) as [E1 E2]. rewrite <- E in E1, E2. rewrite E1, E2. repeat split; try lia.
Qed.

Definition gates_part (c : comp) (n row : Z) : list (cmd P) :=
  let w := wamount c in
  let nr := fc_nine_rows w n in
  let rem := fc_remaining P w n in
  (if (1 <? nr)%Z then [Gate (fc_gate1 c) [row]] else []) ++
  (if (2 <? nr)%Z then [Gate (fc_nine c) (zseq (row + 1) (row + nr - 1))] else []) ++
  [Gate (fc_gate3 c n) [(row + nr - 1)%Z]] ++
  (if (0 <? rem)%Z then [Gate (fc_bit_line c) (zseq (row + nr) (row + nr + lfit rem (w / 3 - 1)))] else []).

Lemma circuit_parts : forall c n omega x row,
  fc_circuit c n omega x row = gates_part c n row ++ fc_copies c n x row ++ [SetConst (C c 0) row omega; SetConst (C c 0) (row + 1) f0].
Proof. intros. unfold fc_circuit, gates_part. cbv zeta. rewrite <- !app_assoc. reflexivity. Qed.

Lemma gates_iff : forall T c l n row, wamount c = (9 * l)%Z -> (0 < l)%Z -> (1 <= n)%Z -> (0 <= fc_remaining P (9 * l) n)%Z ->
  (sat L T (gates_part c n row) <-> good l n (area T c row)).
Proof.
  intros T c l n row Hw Hl Hn HR. set (Y := area T c row).
  destruct (blocks_pos l n Hl Hn) as [NR1 [EN [LB [Q1 [Q2 QN]]]]]. set (nr := lfit n l) in *. set (last := last_block l n) in *.
  pose proof (lfit_spec (fc_remaining P (9 * l) n) (3 * l - 1) ltac:(lia) HR) as [BR0 BR]. fold (fc_bits_rows l n) in BR0, BR.
  assert (EQ : sat L T (gates_part c n row) <->
    ((1 < nr)%Z -> first_con Y /\ forall m, (0 <= m < 3 \/ 5 <= m < 9 * l)%Z -> mcon l Y 0 m = f0) /\
    (forall i, (0 < i < nr - 1)%Z -> forall m, (0 <= m < 9 * l)%Z -> mcon l Y i m = f0) /\
    ((forall m, (0 <= m < 3 \/ 5 <= m < 9 * last - 4 \/ 9 * last - 3 <= m < 9 * last)%Z -> mcon l Y (nr - 1) m = f0) /\
     ((1 < nr)%Z -> mcon l Y (nr - 1) 3 = f0 /\ mcon l Y (nr - 1) 4 = f0) /\
     ((nr <= 1)%Z -> first_con Y) /\
     Y (nr - 1)%Z (9 * (last - 1) + 5)%Z = Y (nr - 1)%Z (9 * (last - 1) + 4)%Z /\
     ((0 < n mod l)%Z -> row_con l Y (nr - 1) (3 * (n mod l) + 1))) /\
    (forall i, (nr <= i < fc_end l n)%Z -> row_con l Y i 1)).
  { unfold gates_part, fc_nine_rows, fc_l. rewrite Hw, w9, w3. fold nr. cbv zeta. rewrite !sat_app.
    assert (S1 : sat L T (if (1 <? nr)%Z then [Gate (fc_gate1 c) [row]] else []) <->
       ((1 < nr)%Z -> first_con Y /\ forall m, (0 <= m < 3 \/ 5 <= m < 9 * l)%Z -> mcon l Y 0 m = f0)).
    { destruct (Z.ltb_spec 1 nr) as [G|G].
      - rewrite sat_cons, holds_gate1. pose proof (gate1_all T c l row Hw Hl) as K. rewrite Z.add_0_r in K. rewrite K. fold Y.
        split; [intros [H _] _; exact H|intros H; split; [exact (H G)|intros ? []]].
      - split; [lia|intros _ ? []]. }
    assert (S2 : sat L T (if (2 <? nr)%Z then [Gate (fc_nine c) (zseq (row + 1) (row + nr - 1))] else []) <->
       (forall i, (0 < i < nr - 1)%Z -> forall m, (0 <= m < 9 * l)%Z -> mcon l Y i m = f0)).
    { destruct (Z.ltb_spec 2 nr) as [G|G].
      - rewrite sat_cons. cbn [holds]. split.
        + intros [H _] i Hi. apply (nine_all T c l row i Hw Hl). apply H. apply in_zseq. lia.
        + intros H. split; [|intros ? []]. intros r Hr. apply in_zseq in Hr. replace r with (row + (r - row))%Z by ring.
          apply (nine_all T c l row _ Hw Hl). apply H. lia.
      - split; [intros _ i Hi; lia|intros _ ? []]. }
    assert (S3 := gate3_all T c l n row (nr - 1) Hw Hl ltac:(lia) ltac:(fold nr; lia)). cbv zeta in S3. fold Y nr last in S3.
    assert (S3' : sat L T [Gate (fc_gate3 c n) [(row + nr - 1)%Z]] <-> (forall e, In e (fc_gate3 c n) -> eval T (row + (nr - 1))%Z e = f0)).
    { rewrite sat_cons, holds_gate1. replace (row + nr - 1)%Z with (row + (nr - 1))%Z by ring. split; [intros [H _]; exact H|intros H; split; [exact H|intros ? []]]. }
    assert (S4 : sat L T (if (0 <? fc_remaining P (9 * l) n)%Z then
         [Gate (fc_bit_line c) (zseq (row + nr) (row + nr + lfit (fc_remaining P (9 * l) n) (3 * l - 1)))] else []) <->
       (forall i, (nr <= i < fc_end l n)%Z -> row_con l Y i 1)).
    { unfold fc_end. fold nr. fold (fc_bits_rows l n). destruct (Z.ltb_spec 0 (fc_remaining P (9 * l) n)) as [G|G].
      - rewrite sat_cons. cbn [holds]. split.
        + intros [H _] i Hi. apply (line_all T c l row i Hw Hl). apply H. apply in_zseq. lia.
        + intros H. split; [|intros ? []]. intros r Hr. apply in_zseq in Hr. replace r with (row + (r - row))%Z by ring.
          apply (line_all T c l row _ Hw Hl). apply H. lia.
      - split; [intros _ i Hi; nia|intros _ ? []]. }
    rewrite S1, S2, S3', S3, S4. tauto. }
  rewrite EQ. clear EQ. split.
  - intros [H1 [H2 [[H3 [H4 [H5 [H6 H7]]]] H8]]].
    assert (HM : forall b i, (0 <= b < n)%Z -> (0 <= i < 9)%Z -> bcon l Y b i = mcon l Y (b / l) (9 * (b mod l) + i)).
    { intros b i Hb Hi. unfold mcon. replace (9 * (b mod l) + i)%Z with (b mod l * 9 + i)%Z by ring.
      destruct (pos_div 9 (b mod l) i Hi) as [-> ->]. f_equal. pose proof (Z.div_mod b l ltac:(lia)). lia. }
    constructor.
    + intros b i Hb Hi H34 H5'. rewrite HM by assumption.
      pose proof (Z.div_mod b l ltac:(lia)) as D. pose proof (Z.mod_pos_bound b l Hl) as M.
      pose proof (Z.div_pos b l ltac:(lia) Hl) as Q.
      assert (QU : (b / l <= nr - 1)%Z) by (assert (b / l < nr)%Z; [apply Z.div_lt_upper_bound; nia|lia]).
      destruct (Z.eq_dec (b / l) (nr - 1)) as [E|E].
      * rewrite E. assert (ML : (b mod l < last)%Z) by nia.
        destruct (Z.eq_dec i 5) as [E5|E5]; [subst i; apply H3; assert (b mod l <> last - 1)%Z by nia; lia|].
        destruct (Z.eq_dec (b mod l) 0) as [E0|E0].
        -- destruct (Z.eq_dec i 3) as [E3|E3]; [subst i; rewrite E0; apply H4; assert (0 < b)%Z by lia; nia|].
           destruct (Z.eq_dec i 4) as [E4|E4]; [subst i; rewrite E0; apply H4; assert (0 < b)%Z by lia; nia|].
           apply H3. lia.
        -- apply H3. destruct (Z.eq_dec (b mod l) (last - 1)); lia.
      * destruct (Z.eq_dec (b / l) 0) as [E0|E0].
        -- rewrite E0. apply H1; [lia|]. destruct (Z.eq_dec (b mod l) 0); [|lia].
           assert (b = 0)%Z by lia. assert (i <> 3 /\ i <> 4)%Z by lia. lia.
        -- apply H2; lia.
    + destruct (Z.le_gt_cases nr 1) as [G|G]; [apply H5; exact G|apply H1; exact G].
    + unfold bcell. rewrite Q1, Q2. exact H6.
    + intros i Hi. unfold lo_of. destruct (Z.eqb_spec i (n / l)) as [E|E].
      * destruct (Z.ltb_spec 0 (n mod l)) as [G|G].
        -- rewrite E, QN. apply H7. exact G.
        -- replace (n mod l)%Z with 0%Z by (pose proof (Z.mod_pos_bound n l Hl); lia). apply H8. lia.
      * apply H8. destruct (0 <? n mod l)%Z; lia.
  - intros [GB GF GL GR].
    assert (HM : forall i m, (0 <= i)%Z -> (0 <= m < 9 * l)%Z -> (i * l + m / 9 < n)%Z -> (m mod 9 = 3 \/ m mod 9 = 4 -> 0 < i * l + m / 9)%Z ->
        (m mod 9 = 5 -> i * l + m / 9 < n - 1)%Z -> mcon l Y i m = f0).
    { intros i m Hi Hm Hb H34 H5. unfold mcon. apply GB; try assumption.
      - split; [|exact Hb]. pose proof (Z.div_pos m 9 ltac:(lia) ltac:(lia)). nia.
      - apply Z.mod_pos_bound. lia. }
    split; [|split; [|split]].
    + intros G. split; [exact GF|]. intros m Hm.
      pose proof (Z.div_mod m 9 ltac:(lia)) as D. pose proof (Z.mod_pos_bound m 9 ltac:(lia)) as M.
      apply HM; try lia; nia.
    + intros i Hi m Hm. pose proof (Z.div_mod m 9 ltac:(lia)) as D. pose proof (Z.mod_pos_bound m 9 ltac:(lia)) as M.
      assert (m / 9 < l)%Z by lia. assert (0 <= m / 9)%Z by lia. apply HM; try lia; nia.
    + split; [|split; [|split; [|split]]].
      * intros m Hm. pose proof (Z.div_mod m 9 ltac:(lia)) as D. pose proof (Z.mod_pos_bound m 9 ltac:(lia)) as M.
        apply HM; try lia; nia.
      * intros G. split; apply HM; try lia; cbn; nia.
      * intros _. exact GF.
      * unfold bcell in GL. rewrite Q1, Q2 in GL. exact GL.
      * intros G. specialize (GR (nr - 1)%Z). unfold lo_of in GR. replace (0 <? n mod l)%Z with true in QN by (symmetry; apply Z.ltb_lt; exact G).
        rewrite QN, Z.eqb_refl in GR. apply GR. unfold fc_end. fold nr. lia.
    + intros i Hi. specialize (GR i). unfold lo_of in GR. destruct (Z.eqb_spec i (n / l)) as [E|E].
      * destruct (Z.ltb_spec 0 (n mod l)) as [G|G]; [lia|].
        replace (n mod l)%Z with 0%Z in GR by (pose proof (Z.mod_pos_bound n l Hl); lia). apply GR. lia.
      * apply GR. destruct (0 <? n mod l)%Z; lia.
Qed.

End Gates.
