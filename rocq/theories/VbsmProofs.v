(** Proofs about the variable base scalar multiplication. *)
From Coq Require Import ZArith List Lia Bool Field.
From Verif Require Import Base Field Plonk PlonkFacts Bits CurveSpec CurveModel CurveProofs VbsmSpec VbsmModel.
Import ListNotations.
Open Scope Z_scope.

Lemma five_split : forall k, exists d j, k = 5 * d + j /\ 0 <= j < 5.
Proof. intros k. exists (k / 5), (k mod 5). pose proof (Z.mod_pos_bound k 5). pose proof (Z.div_mod k 5). lia. Qed.
Lemma five_div : forall d j, 0 <= j < 5 -> (5 * d + j) / 5 = d /\ (5 * d + j) mod 5 = j.
Proof.
  intros d j Hj. rewrite Z.add_comm, Z.mul_comm. rewrite Z.div_add, Z.mod_add by lia.
  rewrite Z.div_small, Z.mod_small by lia. split; lia.
Qed.

Section Proofs.
Variable P : params.
Notation F := (F P).
Notation table := (table P).
Notation vb_trace := (vb_trace P).
Variable L : lenv P.
Variable pal : bool.
Implicit Types T : table.
Implicit Types t p q : F * F.
Add Field Ff : (F_field P) (morphism (F_morph P), constants [F_const], power_tac (F_power P) [F_pow_tac]).
Local Open Scope F_scope.

(** ** The constraints over values *)

Definition st_slope t p (s b : F) : F := (fst p - fst t) * s - (snd p - (ofZ 2 * b - f1) * snd t).
Definition st_U t p (s : F) : F := ofZ 2 * fst p - s * s + fst t.
Definition st_V t p (s : F) : F := ofZ 2 * snd p - s * st_U t p s.
Definition st_x t p q (s : F) : F := st_V t p s * st_V t p s - st_U t p s * st_U t p s * (fst q - fst t + s * s).
Definition st_y t p q (s : F) : F := (snd q + snd p) * st_U t p s - (fst p - fst q) * st_V t p s.
Definition oct (u : F) : F :=
  u * (u - ofZ 1) * (u - ofZ 2) * (u - ofZ 3) * (u - ofZ 4) * (u - ofZ 5) * (u - ofZ 6) * (u - ofZ 7).

(** The final row against the last point and the running scalar. *)
Definition fin_ok (p : F * F) (f : Z -> F) : Prop :=
  let sm1 := ofZ (vb_sm1 pal) in let s0 := ofZ (vb_s0 pal) in let s1 := ofZ (vb_s1 pal) in
  let d := (f 5%Z - sm1) * f 3%Z - (f 5%Z - s1) * f 4%Z in
  (f 8%Z * f 2%Z - f1) * f 8%Z = f0 /\
  ((f 5%Z - sm1) * f 3%Z - f1) * (f 5%Z - sm1) = f0 /\
  ((f 5%Z - s1) * f 4%Z - f1) * (f 5%Z - s1) = f0 /\
  f 0%Z = f 8%Z * f 2%Z * fst p + d * d * f 6%Z /\
  f 1%Z = f 8%Z * f 2%Z * snd p + d * f 7%Z /\
  f 8%Z = (f 5%Z - sm1) * (f 5%Z - s0) * (f 5%Z - s1).

Record vb_ok (t : vb_trace) (dbl : F * F) (b bh z : F) : Prop := mkOk {
  ok_dbl : vt_p t 0 = dbl;
  ok_bit : forall k, (0 <= k < 255)%Z -> vt_b t k * (f1 - vt_b t k) = f0;
  ok_slope : forall k, (0 <= k < 255)%Z -> st_slope (vt_t t) (vt_p t k) (vt_s t k) (vt_b t k) = f0;
  ok_next : forall k, (0 <= k < 253)%Z ->
    st_x (vt_t t) (vt_p t k) (vt_p t (k + 1)) (vt_s t k) = f0 /\ st_y (vt_t t) (vt_p t k) (vt_p t (k + 1)) (vt_s t k) = f0;
  ok_last : forall k, (253 <= k < 255)%Z ->
    st_x (vt_t t) (vt_p t k) (vt_p t (k + 1)) (vt_s t k) * vt_f t 8 * vt_f t 2 = f0 /\
    st_y (vt_t t) (vt_p t k) (vt_p t (k + 1)) (vt_s t k) * vt_f t 8 * vt_f t 2 = f0;
  ok_n : forall d, (0 <= d < 51)%Z ->
    vt_n t (d + 1) = ofZ 32 * vt_n t d + ofZ 16 * vt_b t (5 * d) + ofZ 8 * vt_b t (5 * d + 1) +
                     ofZ 4 * vt_b t (5 * d + 2) + ofZ 2 * vt_b t (5 * d + 3) + vt_b t (5 * d + 4);
  ok_fin : fin_ok (vt_p t 255) (vt_f t);
  ok_u : forall d, (0 <= d < 21)%Z -> oct (vt_u0 t d) = f0 /\ oct (vt_u1 t d) = f0 /\
    vt_uo t d = ofZ 64 * vt_ui t d + ofZ 8 * vt_u0 t d + vt_u1 t d;
  ok_u21 : oct (vt_u0 t 21) = f0 /\ vt_u1 t 21 * (vt_u1 t 21 - f1) = f0 /\
    vt_uo t 21 = ofZ 16 * vt_ui t 21 + ofZ 2 * vt_u0 t 21 + vt_u1 t 21;
  ok_ui0 : vt_ui t 0 = f0;
  ok_ui : forall d, (0 <= d < 20)%Z -> vt_uo t d = vt_ui t (d + 1);
  ok_n0 : vt_n t 0 = z;
  ok_f5 : vt_f t 5 = vt_n t 51;
  ok_f67 : vt_f t 6 = fst (vt_t t) /\ vt_f t 7 = snd (vt_t t);
  ok_f9 : vt_f t 9 = vt_b t 0;
  ok_f10 : vt_f t 10 = vt_n t 25;
  ok_f11 : vt_f t 11 = b;
  ok_high : vt_f t 9 * (vt_uo t 21 - vt_f t 12) = f0 /\ vt_f t 9 * (vt_f t 10 - ofZ (2 ^ 124)) = f0;
  ok_aux : vt_f t 12 = if pal then vt_f t 11 - ofZ vb_tq + ofZ (2 ^ 130)
                       else vt_f t 11 - vt_f t 9 * ofZ (2 ^ 254) - ofZ vb_tp + ofZ (2 ^ 130);
  ok_in : if pal then bh = vt_b t 0 /\ vt_n t 51 = vt_f t 11 + vt_f t 9 * ofZ (2 ^ 254) else b = vt_n t 51
}.

(** ** Gates *)

Lemma fpow2 : forall x : F, fpow x 2 = x * x.
Proof. intros x. cbn [fpow]. ring. Qed.

Section Table.
Variables (c : comp) (T : table).
Notation w i r := (T CWit (W c i%Z) r%Z).

Lemma eval_bit : forall r a k, eval T r (vb_bit_check P c a k) = w (2 + k) (r + a + 1) * (f1 - w (2 + k) (r + a + 1)).
Proof. intros. unfold vb_bit_check. cbv zeta. eval_norm. rewrite Z.add_assoc. reflexivity. Qed.
Lemma eval_slope : forall r a k, eval T r (vb_slope_cs P c a k) =
  st_slope (w 0 (r + a), w 1 (r + a)) (w (vb_in k) (r + a), w (vb_in k + 1) (r + a)) (w (7 + k) (r + a + 1)) (w (2 + k) (r + a + 1)).
Proof. intros. unfold vb_slope_cs. cbv zeta. eval_norm. rewrite Z.add_assoc. reflexivity. Qed.
Lemma eval_U : forall r a k, eval T r (vb_U P c a k) =
  st_U (w 0 (r + a), w 1 (r + a)) (w (vb_in k) (r + a), w (vb_in k + 1) (r + a)) (w (7 + k) (r + a + 1)).
Proof. intros. unfold vb_U. cbv zeta. eval_norm. rewrite Z.add_assoc, fpow2. reflexivity. Qed.
Lemma eval_V : forall r a k, eval T r (vb_V P c a k) =
  st_V (w 0 (r + a), w 1 (r + a)) (w (vb_in k) (r + a), w (vb_in k + 1) (r + a)) (w (7 + k) (r + a + 1)).
Proof. intros. unfold vb_V. cbv zeta. eval_norm. rewrite eval_U. rewrite Z.add_assoc. reflexivity. Qed.
Lemma eval_x : forall r a k, eval T r (vb_x_cs P c a k) =
  st_x (w 0 (r + a), w 1 (r + a)) (w (vb_in k) (r + a), w (vb_in k + 1) (r + a))
    (w (vb_out k) (r + vb_orot k a), w (vb_out k + 1) (r + vb_orot k a)) (w (7 + k) (r + a + 1)).
Proof. intros. unfold vb_x_cs. cbv zeta. eval_norm. rewrite eval_U, eval_V, Z.add_assoc, fpow2, Z.add_0_r. reflexivity. Qed.
Lemma eval_y : forall r a k, eval T r (vb_y_cs P c a k) =
  st_y (w 0 (r + a), w 1 (r + a)) (w (vb_in k) (r + a), w (vb_in k + 1) (r + a))
    (w (vb_out k) (r + vb_orot k a), w (vb_out k + 1) (r + vb_orot k a)) (w (7 + k) (r + a + 1)).
Proof. intros. unfold vb_y_cs. cbv zeta. eval_norm. rewrite eval_U, eval_V, Z.add_0_r. reflexivity. Qed.
Lemma eval_n : forall r a, eval T r (vb_n_cs P c a) = f0 <->
  w 5 (r + a) = ofZ 32 * w 4 (r + a) + ofZ 16 * w 2 (r + a + 1) + ofZ 8 * w 3 (r + a + 1) +
                ofZ 4 * w 4 (r + a + 1) + ofZ 2 * w 5 (r + a + 1) + w 6 (r + a + 1).
Proof. intros. unfold vb_n_cs. cbv zeta. eval_norm. rewrite Z.add_assoc. apply fsub_eq0. Qed.
Lemma eval_oct : forall r i a, eval T r (vb_oct P (evar (wv (W c i) a))) = oct (w i (r + a)).
Proof. intros. unfold vb_oct. eval_norm. reflexivity. Qed.

Lemma all_map_zseq : forall (f : Z -> expr P) (g : Z -> F) lo hi r, (forall k, eval T r (f k) = g k) ->
  ((forall e, In e (map f (zseq lo hi)) -> eval T r e = f0) <-> (forall k, (lo <= k < hi)%Z -> g k = f0)).
Proof.
  intros f g lo hi r E. split.
  - intros H k Hk. rewrite <- E. apply H. apply in_map. apply in_zseq. exact Hk.
  - intros H e He. apply in_map_iff in He. destruct He as [k [<- Hk]]. rewrite E. apply H. apply in_zseq. exact Hk.
Qed.

(** The cells of step [k] of the double row starting at row [i]. *)
Definition cin (i k : Z) : F * F := (w (vb_in k) i, w (vb_in k + 1) i).
Definition cout (i k : Z) : F * F := let r := if (k =? 4)%Z then (i + 1)%Z else i in (w (vb_out k) r, w (vb_out k + 1) r).
Definition ct (i : Z) : F * F := (w 0 i, w 1 i).

Definition drow_bits (i : Z) : Prop :=
  (forall k, (0 <= k < 5)%Z -> w (2 + k) (i + 1) * (f1 - w (2 + k) (i + 1)) = f0) /\
  (forall k, (0 <= k < 5)%Z -> st_slope (ct i) (cin i k) (w (7 + k) (i + 1)) (w (2 + k) (i + 1)) = f0) /\
  w 5 i = ofZ 32 * w 4 i + ofZ 16 * w 2 (i + 1) + ofZ 8 * w 3 (i + 1) + ofZ 4 * w 4 (i + 1) + ofZ 2 * w 5 (i + 1) + w 6 (i + 1).
Definition drow_next (i k : Z) (m : F -> F) : Prop :=
  m (st_x (ct i) (cin i k) (cout i k) (w (7 + k) (i + 1))) = f0 /\ m (st_y (ct i) (cin i k) (cout i k) (w (7 + k) (i + 1))) = f0.

Lemma cout_rot : forall r a k, (w (vb_out k) (r + vb_orot k a), w (vb_out k + 1) (r + vb_orot k a)) = cout (r + a) k.
Proof. intros. unfold cout, vb_orot. destruct (k =? 4)%Z; [rewrite Z.add_assoc|]; reflexivity. Qed.
Lemma eval_x' : forall r a k, eval T r (vb_x_cs P c a k) = st_x (ct (r + a)) (cin (r + a) k) (cout (r + a) k) (w (7 + k) (r + a + 1)).
Proof. intros. rewrite eval_x, cout_rot. reflexivity. Qed.
Lemma eval_y' : forall r a k, eval T r (vb_y_cs P c a k) = st_y (ct (r + a)) (cin (r + a) k) (cout (r + a) k) (w (7 + k) (r + a + 1)).
Proof. intros. rewrite eval_y, cout_rot. reflexivity. Qed.
Lemma eval_mask : forall r e, eval T r (EBin OMul (EBin OMul e (evar (wv (W c 8) 1))) (evar (wv (W c 2) 1))) = eval T r e * w 8 (r + 1) * w 2 (r + 1).
Proof. intros. eval_norm. reflexivity. Qed.
Lemma eval_xm : forall r a k, eval T r (EBin OMul (EBin OMul (vb_x_cs P c a k) (evar (wv (W c 8) 1))) (evar (wv (W c 2) 1))) =
  st_x (ct (r + a)) (cin (r + a) k) (cout (r + a) k) (w (7 + k) (r + a + 1)) * w 8 (r + 1) * w 2 (r + 1).
Proof. intros. rewrite eval_mask, eval_x'. reflexivity. Qed.
Lemma eval_ym : forall r a k, eval T r (EBin OMul (EBin OMul (vb_y_cs P c a k) (evar (wv (W c 8) 1))) (evar (wv (W c 2) 1))) =
  st_y (ct (r + a)) (cin (r + a) k) (cout (r + a) k) (w (7 + k) (r + a + 1)) * w 8 (r + 1) * w 2 (r + 1).
Proof. intros. rewrite eval_mask, eval_y'. reflexivity. Qed.

Lemma gate1_iff : forall r, (forall e, In e (vb_gate1 c) -> eval T r e = f0) <->
  drow_bits r /\ (forall k, (0 <= k < 5)%Z -> drow_next r k (fun e => e)).
Proof.
  intros r. unfold vb_gate1. rewrite !all_app.
  rewrite (all_map_zseq _ _ 0 5 r (eval_bit r 0)), (all_map_zseq _ _ 0 5 r (eval_slope r 0)),
    (all_map_zseq _ _ 0 5 r (eval_x' r 0)), (all_map_zseq _ _ 0 5 r (eval_y' r 0)).
  rewrite all_cons, all_nil, eval_n. unfold drow_bits, drow_next, cin, ct. rewrite !Z.add_0_r. split.
  - intros [B [S [X [Y [N _]]]]]. split; [split; [|split]; assumption|]. intros k Hk. split; [apply X|apply Y]; exact Hk.
  - intros [[B [S N]] XY]. split; [exact B|]. split; [exact S|]. split; [intros k Hk; apply (XY k Hk)|].
    split; [intros k Hk; apply (XY k Hk)|]. split; [exact N|exact I].
Qed.

Definition grow (r : Z) : Prop :=
  let f i := w i (r + 1) in
  fin_ok (ct r) f /\
  oct (w 12 r) = f0 /\ w 13 r * (w 13 r - f1) = f0 /\ w 14 r = ofZ 16 * w 6 (r - 1) + ofZ 2 * w 12 r + w 13 r /\
  (f 9%Z * (w 14 r - f 12%Z) = f0 /\ f 9%Z * (f 10%Z - ofZ (2 ^ 124)) = f0) /\
  f 12%Z = (if pal then f 11%Z - ofZ vb_tq + ofZ (2 ^ 130) else f 11%Z - f 9%Z * ofZ (2 ^ 254) - ofZ vb_tp + ofZ (2 ^ 130)) /\
  (if pal then w 5 (r - 1) = f 11%Z + f 9%Z * ofZ (2 ^ 254) else True).

Lemma gate2_iff : forall r, (forall e, In e (vb_gate2 pal c) -> eval T r e = f0) <->
  drow_bits (r - 1) /\ (forall k, (0 <= k < 3)%Z -> drow_next (r - 1) k (fun e => e)) /\
  (forall k, (3 <= k < 5)%Z -> drow_next (r - 1) k (fun e => e * w 8 (r + 1) * w 2 (r + 1))) /\ grow r.
Proof.
  intros r. unfold vb_gate2. cbv zeta. rewrite !all_app.
  rewrite (all_map_zseq _ _ 0 5 r (eval_bit r (-1))), (all_map_zseq _ _ 0 5 r (eval_slope r (-1))),
    (all_map_zseq _ _ 0 3 r (eval_x' r (-1))), (all_map_zseq _ _ 0 3 r (eval_y' r (-1))),
    (all_map_zseq _ _ 3 5 r (eval_xm r (-1))), (all_map_zseq _ _ 3 5 r (eval_ym r (-1))).
  rewrite !all_cons, all_nil, eval_n, eval_oct.
  unfold drow_bits, drow_next, grow, fin_ok, cin, ct. cbv zeta. cbn [fst snd].
  replace (r + -1)%Z with (r - 1)%Z by lia.
  assert (E28 : forall x y : F, x - y = f0 <-> x = y) by (intros; apply fsub_eq0).
  match goal with |- context [?a = f0 /\ ?b = f0 /\ True] => set (c28 := a); set (c29 := b) end.
  assert (I28 : c28 = f0 <-> w 12 (r + 1) = (if pal then w 11 (r + 1) - ofZ vb_tq + ofZ (2 ^ 130) else w 11 (r + 1) - w 9 (r + 1) * ofZ (2 ^ 254) - ofZ vb_tp + ofZ (2 ^ 130))).
  { unfold c28. destruct pal; eval_norm; split; intros E; [lc f1 E|lc f1 E|lc f1 E|lc f1 E]. }
  assert (I29 : c29 = f0 <-> (if pal then w 5 (r - 1) = w 11 (r + 1) + w 9 (r + 1) * ofZ (2 ^ 254) else True)).
  { unfold c29. destruct pal; eval_norm; replace (r + -1)%Z with (r - 1)%Z by lia; split; intros E; [lc f1 E|lc f1 E|exact I|ring]. }
  rewrite I28, I29. clear I28 I29. clearbody c28 c29. clear c28 c29.
  set (c28 := w 12 (r + 1) = _). set (c29 := if pal then _ else _). clearbody c28 c29.
  repeat (rewrite ?eval_bin, ?eval_evar, ?eval_ecst, ?gval_wv; cbn [ebop]).
  replace (r + -1)%Z with (r - 1)%Z by lia. rewrite !Z.add_0_r. change (ofZ 1 : F) with (f1 : F).
  split.
  - intros [B [S [X [XM [Y [YM [N [C17 [C18 [C19 [C20 [C21 [C22 [C23 [C24 [C25 [C26 [C27 [C28 [C29 _]]]]]]]]]]]]]]]]]]]].
    split; [split; [|split]; assumption|]. split; [intros k Hk; split; [apply X|apply Y]; exact Hk|].
    split; [intros k Hk; split; [apply XM|apply YM]; exact Hk|].
    split; [|split; [exact C23|split; [exact C24|split; [lc f1 C25|split; [split; assumption|split; assumption]]]]].
    repeat split; try assumption; [lc (fopp f1) C20|lc (fopp f1) C21|lc f1 C22].
  - intros [[B [S N]] [XY [XYM [[F1 [F2 [F3 [F4 [F5 F6]]]]] [C23 [C24 [C25 [[C26 C27] [C28 C29]]]]]]]]].
    split; [exact B|]. split; [exact S|]. split; [intros k Hk; apply (XY k Hk)|]. split; [intros k Hk; apply (XYM k Hk)|].
    split; [intros k Hk; apply (XY k Hk)|]. split; [intros k Hk; apply (XYM k Hk)|].
    repeat split; try assumption; [lc (fopp f1) F4|lc (fopp f1) F5|lc f1 F6|lc f1 C25].
Qed.

Definition arow (r : Z) : Prop :=
  oct (w 12 (r + 1)) = f0 /\ oct (w 13 (r + 1)) = f0 /\ w 14 (r + 1) = ofZ 64 * w 6 r + ofZ 8 * w 12 (r + 1) + w 13 (r + 1).
Lemma gate3_iff : forall r, (forall e, In e (vb_gate3 c) -> eval T r e = f0) <-> arow r.
Proof.
  intros r. unfold vb_gate3. cbv zeta. rewrite !all_cons, all_nil, !eval_oct. eval_norm. rewrite Z.add_0_r. unfold arow.
  split; [intros [A [B [C _]]]|intros [A [B C]]]; repeat split; try assumption; lc f1 C.
Qed.

Lemma sat_flat2 : forall (f g : Z -> cmd P) lo hi,
  sat L T (flat_map (fun d => [f d; g d]) (zseq lo hi)) <-> (forall d, (lo <= d < hi)%Z -> holds L T (f d) /\ holds L T (g d)).
Proof.
  intros f g lo hi. split.
  - intros H d Hd. split; apply H; apply in_flat_map; exists d; (split; [apply in_zseq; exact Hd|cbn; auto]).
  - intros H e He. apply in_flat_map in He. destruct He as [d [Hd E]]. apply in_zseq in Hd. destruct (H d Hd). cbn in E. destruct E as [<-|[<-|[]]]; assumption.
Qed.
Lemma sat_mapz : forall (f : Z -> cmd P) lo hi,
  sat L T (map f (zseq lo hi)) <-> (forall d, (lo <= d < hi)%Z -> holds L T (f d)).
Proof.
  intros f lo hi. rewrite sat_map. split; intros H d Hd; apply H; apply in_zseq; exact Hd.
Qed.
Lemma gate_rows : forall es f lo hi,
  holds L T (Gate es (map f (zseq lo hi))) <-> (forall d, (lo <= d < hi)%Z -> forall e, In e es -> eval T (f d) e = f0).
Proof.
  intros es f lo hi. cbn [holds]. split.
  - intros H d Hd e He. apply H; [apply in_map; apply in_zseq; exact Hd|exact He].
  - intros H r Hr e He. apply in_map_iff in Hr. destruct Hr as [d [<- Hd]]. apply H; [apply in_zseq; exact Hd|exact He].
Qed.

Variables (b bh : var) (row : Z).

Definition links : Prop :=
  (w 2 (row + 1) = vval T (ua_x (vb_add c) row) /\ w 3 (row + 1) = vval T (ua_y (vb_add c) row)) /\
  (forall d, (0 <= d < 50)%Z -> ct (row + 1 + 2 * d) = ct (row + 1 + 2 * (d + 1))) /\
  (forall d, (0 <= d < 50)%Z -> cin (row + 1 + 2 * (d + 1)) 0 = cout (row + 1 + 2 * d) 4) /\
  (forall d, (0 <= d < 50)%Z -> w 4 (row + 1 + 2 * (d + 1)) = w 5 (row + 1 + 2 * d)) /\
  w 5 (row + 103) = w 5 (row + 101) /\ w 6 (row + 103) = w 0 (row + 101) /\ w 7 (row + 103) = w 1 (row + 101) /\
  w 4 (row + 1) = T CConst (W c 0) (row + 1)%Z /\
  (if pal then vval T bh = w 2 (row + 2) else vval T b = w 5 (row + 101)) /\
  T CConst (C c 0) (row + 1)%Z = w 6 (row + 59) /\
  (forall d, (0 <= d < 20)%Z -> w 14 (row + 59 + 2 * d + 1) = w 6 (row + 59 + 2 * (d + 1))) /\
  w 2 (row + 2) = w 9 (row + 103) /\ w 5 (row + 49) = w 10 (row + 103) /\ vval T b = w 11 (row + 103).

Lemma copies_iff : sat L T (vb_copies pal c b bh row) <-> links.
Proof.
  unfold vb_copies. cbv zeta. rewrite !sat_app, !sat_cons, !sat_flat2, !sat_mapz.
  assert (S0 : sat L T [] <-> True) by (split; [auto|intros _; apply sat_nil]). rewrite S0.
  assert (IP : holds L T (if pal then Copy bh (wcell (W c 2) (row + 1 + 1)) else Copy b (wcell (W c 5) (row + 1 + 100))) <->
               (if pal then vval T bh = w 2 (row + 2) else vval T b = w 5 (row + 101))).
  { replace (row + 1 + 1)%Z with (row + 2)%Z by lia. replace (row + 1 + 100)%Z with (row + 101)%Z by lia. destruct pal; reflexivity. }
  rewrite IP. clear IP. cbn [holds]. rewrite ?vval_wcell, ?vval_ccell.
  replace (row + 1 + 58)%Z with (row + 59)%Z by lia. replace (row + 1 + 102)%Z with (row + 103)%Z by lia.
  replace (row + 1 + 48)%Z with (row + 49)%Z by lia. replace (row + 1 + 1)%Z with (row + 2)%Z by lia.
  unfold links. set (hb := if pal then _ else _). clearbody hb. split.
  - intros [[A1 [A2 _]] [B [D [E [[F1 [F2 [F3 [F4 [F5 [F6 _]]]]]] [G [H1 [H2 [H3 _]]]]]]]]].
    repeat split; try assumption.
    + intros d Hd. destruct (B d Hd) as [E1 E2]. cbn [holds] in E1, E2. rewrite !vval_wcell in E1, E2. unfold ct.
      replace (row + 1 + 2 * (d + 1))%Z with (row + 1 + 2 * d + 2)%Z by lia. rewrite E1, E2. reflexivity.
    + intros d Hd. destruct (D (d + 1)%Z ltac:(lia)) as [E1 E2]. cbn [holds] in E1, E2. rewrite !vval_wcell in E1, E2. unfold cin, cout.
      change (vb_in 0) with 2%Z. change (vb_out 4) with 0%Z. change (4 =? 4)%Z with true. cbv iota. change (2 + 1)%Z with 3%Z. change (0 + 1)%Z with 1%Z.
      rewrite E1, E2. replace (row + 1 + 2 * (d + 1) - 1)%Z with (row + 1 + 2 * d + 1)%Z by lia. reflexivity.
    + intros d Hd. pose proof (E (d + 1)%Z ltac:(lia)) as E1. cbn [holds] in E1. rewrite !vval_wcell in E1. rewrite E1.
      replace (row + 1 + 2 * (d + 1) - 2)%Z with (row + 1 + 2 * d)%Z by lia. reflexivity.
    + intros d Hd. pose proof (G d Hd) as E1. cbn [holds] in E1. rewrite !vval_wcell in E1. rewrite E1. f_equal. lia.
  - intros [[A1 A2] [B [D [E [F1 [F2 [F3 [F4 [F5 [F6 [G [H1 [H2 H3]]]]]]]]]]]]].
    repeat split; try assumption.
    + cbn [holds]. rewrite !vval_wcell. pose proof (B d H) as K. unfold ct in K. injection K as K1 K2.
      replace (row + 1 + 2 * d + 2)%Z with (row + 1 + 2 * (d + 1))%Z by lia. exact K1.
    + cbn [holds]. rewrite !vval_wcell. pose proof (B d H) as K. unfold ct in K. injection K as K1 K2.
      replace (row + 1 + 2 * d + 2)%Z with (row + 1 + 2 * (d + 1))%Z by lia. exact K2.
    + cbn [holds]. rewrite !vval_wcell. pose proof (D (d - 1)%Z ltac:(lia)) as K. unfold cin, cout in K. injection K as K1 K2.
      replace (row + 1 + 2 * d - 1)%Z with (row + 1 + 2 * (d - 1) + 1)%Z by lia. replace (d - 1 + 1)%Z with d in K1 by lia. exact K1.
    + cbn [holds]. rewrite !vval_wcell. pose proof (D (d - 1)%Z ltac:(lia)) as K. unfold cin, cout in K. injection K as K1 K2.
      replace (row + 1 + 2 * d - 1)%Z with (row + 1 + 2 * (d - 1) + 1)%Z by lia. replace (d - 1 + 1)%Z with d in K2 by lia. exact K2.
    + intros d H. cbn [holds]. rewrite !vval_wcell. pose proof (E (d - 1)%Z ltac:(lia)) as K. replace (d - 1 + 1)%Z with d in K by lia. rewrite K. f_equal. lia.
    + intros d H. cbn [holds]. rewrite !vval_wcell. rewrite (G d H). f_equal. lia.
Qed.

Definition vb_holds (tx ty : var) : Prop :=
  T CConst (C c 0) (row + 1)%Z = f0 /\
  (forall d, (0 <= d < 51)%Z -> drow_bits (row + 1 + 2 * d)) /\
  (forall d k, (0 <= d < 51)%Z -> (0 <= k < 5)%Z -> (5 * d + k < 253)%Z -> drow_next (row + 1 + 2 * d) k (fun e => e)) /\
  (forall k, (3 <= k < 5)%Z -> drow_next (row + 101) k (fun e => e * w 8 (row + 103) * w 2 (row + 103))) /\
  grow (row + 102) /\
  (forall d, (0 <= d < 21)%Z -> arow (row + 59 + 2 * d)) /\
  sat L T (ua_circuit (vb_add c) tx ty tx ty row) /\ links.

Lemma vb_circuit_iff : forall tx ty, sat L T (vb_circuit pal c tx ty b bh row) <-> vb_holds tx ty.
Proof.
  intros tx ty. unfold vb_circuit. rewrite !sat_app, !sat_cons, copies_iff, !gate_rows, holds_gate1, gate2_iff.
  assert (S0 : sat L T [] <-> True) by (split; [auto|intros _; apply sat_nil]). rewrite S0. cbn [holds].
  replace (row + 102 - 1)%Z with (row + 101)%Z by lia. replace (row + 102 + 1)%Z with (row + 103)%Z by lia.
  unfold vb_holds. split.
  - intros [[C0 [G1 [[GB [G2 [G2m GR]]] [G3 _]]]] [UA LK]]. split; [exact C0|]. split.
    { intros d Hd. destruct (Z.eq_dec d 50) as [->|N]; [replace (row + 1 + 2 * 50)%Z with (row + 101)%Z by lia; exact GB|].
      exact (proj1 (proj1 (gate1_iff _) (G1 d ltac:(lia)))). }
    split.
    { intros d k Hd Hk Hdk. destruct (Z.eq_dec d 50) as [->|N].
      - replace (row + 1 + 2 * 50)%Z with (row + 101)%Z by lia. apply G2. lia.
      - exact (proj2 (proj1 (gate1_iff _) (G1 d ltac:(lia))) k Hk). }
    split; [exact G2m|]. split; [exact GR|]. split; [|split; [exact UA|exact LK]].
    intros d Hd. exact (proj1 (gate3_iff _) (G3 d Hd)).
  - intros [C0 [GB [GN [GM [GR [G3 [UA LK]]]]]]]. split; [|split; [exact UA|exact LK]]. split; [exact C0|]. split.
    { intros d Hd. apply gate1_iff. split; [apply GB; lia|]. intros k Hk. apply GN; lia. }
    split.
    { replace (row + 101)%Z with (row + 1 + 2 * 50)%Z by lia. split; [apply GB; lia|]. split; [intros k Hk; apply GN; lia|].
      split; [|exact GR]. replace (row + 1 + 2 * 50)%Z with (row + 101)%Z by lia. exact GM. }
    split; [|exact I]. intros d Hd. apply gate3_iff. apply G3. exact Hd.
Qed.

(** ** Reading a satisfying table *)

Definition tr_of : vb_trace :=
  mkVb (ct (row + 1))
    (fun k => if (k =? 255)%Z then ct (row + 102) else cin (row + 1 + 2 * (k / 5)) (k mod 5))
    (fun k => w (7 + k mod 5) (row + 1 + 2 * (k / 5) + 1))
    (fun k => w (2 + k mod 5) (row + 1 + 2 * (k / 5) + 1))
    (fun d => if (d =? 51)%Z then w 5 (row + 101) else w 4 (row + 1 + 2 * d))
    (fun d => w 6 (row + 59 + 2 * d)) (fun d => w 14 (row + 59 + 2 * d + 1))
    (fun d => w 12 (row + 59 + 2 * d + 1)) (fun d => w 13 (row + 59 + 2 * d + 1))
    (fun i => w i (row + 103)).

Lemma tr_ct : links -> forall d, (0 <= d < 51)%Z -> ct (row + 1 + 2 * d) = ct (row + 1).
Proof.
  intros [_ [B _]] d [Hd Hd2]. revert Hd2. pattern d. apply natlike_ind; [| |exact Hd]; clear d Hd.
  - intros _. f_equal. lia.
  - intros d Hd IH H. unfold Z.succ in *. rewrite <- (B d ltac:(lia)). apply IH. lia.
Qed.
Lemma tr_p : forall d j, (0 <= d < 51)%Z -> (0 <= j < 5)%Z -> vt_p tr_of (5 * d + j) = cin (row + 1 + 2 * d) j.
Proof.
  intros d j Hd Hj. cbn [vt_p tr_of]. destruct (5 * d + j =? 255)%Z eqn:E; [apply Z.eqb_eq in E; lia|].
  destruct (five_div d j Hj) as [-> ->]. reflexivity.
Qed.
Lemma tr_p' : links -> forall d j, (0 <= d < 51)%Z -> (0 <= j < 5)%Z -> vt_p tr_of (5 * d + j + 1) = cout (row + 1 + 2 * d) j.
Proof.
  intros [_ [_ [D _]]] d j Hd Hj. destruct (Z.eq_dec j 4) as [->|N].
  - destruct (Z.eq_dec d 50) as [->|Nd].
    + cbn [vt_p tr_of]. change (5 * 50 + 4 + 1 =? 255)%Z with true. cbv iota. unfold cout, ct. change (4 =? 4)%Z with true. cbv iota zeta.
      change (vb_out 4) with 0%Z. replace (row + 1 + 2 * 50 + 1)%Z with (row + 102)%Z by lia. reflexivity.
    + replace (5 * d + 4 + 1)%Z with (5 * (d + 1) + 0)%Z by lia. rewrite tr_p by lia. apply D. lia.
  - rewrite <- Z.add_assoc. rewrite tr_p by lia. assert (C : (j = 0 \/ j = 1 \/ j = 2 \/ j = 3)%Z) by lia.
    destruct C as [->|[->|[->| ->]]]; reflexivity.
Qed.
Lemma tr_s : forall d j, (0 <= j < 5)%Z -> vt_s tr_of (5 * d + j) = w (7 + j) (row + 1 + 2 * d + 1).
Proof. intros d j Hj. cbn [vt_s tr_of]. destruct (five_div d j Hj) as [-> ->]. reflexivity. Qed.
Lemma tr_b : forall d j, (0 <= j < 5)%Z -> vt_b tr_of (5 * d + j) = w (2 + j) (row + 1 + 2 * d + 1).
Proof. intros d j Hj. cbn [vt_b tr_of]. destruct (five_div d j Hj) as [-> ->]. reflexivity. Qed.
Lemma tr_n : forall d, (0 <= d < 51)%Z -> vt_n tr_of d = w 4 (row + 1 + 2 * d).
Proof. intros d Hd. cbn [vt_n tr_of]. destruct (d =? 51)%Z eqn:E; [apply Z.eqb_eq in E; lia|reflexivity]. Qed.
Lemma tr_n' : links -> forall d, (0 <= d < 51)%Z -> vt_n tr_of (d + 1) = w 5 (row + 1 + 2 * d).
Proof.
  intros [_ [_ [_ [E _]]]] d Hd. destruct (Z.eq_dec d 50) as [->|N].
  - cbn [vt_n tr_of]. change (50 + 1 =? 51)%Z with true. cbv iota. f_equal. lia.
  - rewrite tr_n by lia. apply E. lia.
Qed.

Lemma vb_ok_of : forall tx ty, vb_holds tx ty ->
  vb_ok tr_of (vval T (ua_x (vb_add c) row), vval T (ua_y (vb_add c) row)) (vval T b) (vval T bh) (T CConst (W c 0) (row + 1)%Z).
Proof.
  intros tx ty [C0 [GB [GN [GM [GR [G3 [_ LK]]]]]]]. pose proof (tr_ct LK) as CT. pose proof (tr_p' LK) as TP'. pose proof (tr_n' LK) as TN'.
  destruct LK as [[A1 A2] [B [D [E [F5 [F6 [F7 [F4 [IB [FC [G [H1 [H2 H3]]]]]]]]]]]]].
  assert (TT : vt_t tr_of = ct (row + 1)) by reflexivity.
  assert (B0 : vt_b tr_of 0 = w 2 (row + 2)) by (change 0%Z with (5 * 0 + 0)%Z at 1; rewrite tr_b by lia; change (2 + 0)%Z with 2%Z; f_equal; lia).
  unfold grow in GR. replace (row + 102 + 1)%Z with (row + 103)%Z in GR by lia. replace (row + 102 - 1)%Z with (row + 101)%Z in GR by lia.
  destruct GR as [GF [GO [GU1 [GU [GH [GA GP]]]]]].
  constructor.
  - change 0%Z with (5 * 0 + 0)%Z. rewrite tr_p by lia. unfold cin. change (vb_in 0) with 2%Z. change (2 + 1)%Z with 3%Z.
    replace (row + 1 + 2 * 0)%Z with (row + 1)%Z by lia. rewrite A1, A2. reflexivity.
  - intros k Hk. destruct (five_split k) as [d [j [-> Hj]]]. rewrite tr_b by lia. apply (GB d ltac:(lia)). lia.
  - intros k Hk. destruct (five_split k) as [d [j [-> Hj]]]. rewrite tr_b, tr_s, tr_p, TT by lia. rewrite <- (CT d) by lia. apply (GB d ltac:(lia)). lia.
  - intros k Hk. destruct (five_split k) as [d [j [-> Hj]]]. rewrite TP', tr_s, tr_p, TT by lia. rewrite <- (CT d) by lia. apply (GN d j); lia.
  - intros k Hk. destruct (five_split k) as [d [j [-> Hj]]]. rewrite TP', tr_s, tr_p, TT by lia. rewrite <- (CT d) by lia.
    assert (d = 50)%Z by lia. subst d. replace (row + 1 + 2 * 50)%Z with (row + 101)%Z by lia. apply (GM j). lia.
  - intros d Hd. rewrite TN', tr_n by lia. replace (5 * d)%Z with (5 * d + 0)%Z at 1 by lia. rewrite !tr_b by lia. apply (GB d Hd).
  - exact GF.
  - intros d Hd. apply (G3 d Hd).
  - cbn [vt_u0 vt_u1 vt_uo vt_ui tr_of]. replace (row + 59 + 2 * 21 + 1)%Z with (row + 102)%Z by lia. replace (row + 59 + 2 * 21)%Z with (row + 101)%Z by lia.
    split; [exact GO|]. split; [exact GU1|exact GU].
  - cbn [vt_ui tr_of]. replace (row + 59 + 2 * 0)%Z with (row + 59)%Z by lia. rewrite <- FC. exact C0.
  - intros d Hd. apply (G d Hd).
  - rewrite tr_n by lia. replace (row + 1 + 2 * 0)%Z with (row + 1)%Z by lia. exact F4.
  - exact F5.
  - rewrite TT, <- (CT 50%Z) by lia. replace (row + 1 + 2 * 50)%Z with (row + 101)%Z by lia. split; [exact F6|exact F7].
  - cbn [vt_f tr_of]. etransitivity; [symmetry; exact H1|symmetry; exact B0].
  - rewrite tr_n by lia. change 25%Z with (24 + 1)%Z. rewrite E by lia. cbn [vt_f tr_of]. rewrite <- H2. f_equal. lia.
  - symmetry. exact H3.
  - cbn [vt_f vt_uo tr_of]. replace (row + 59 + 2 * 21 + 1)%Z with (row + 102)%Z by lia. exact GH.
  - exact GA.
  - destruct pal; [split; [rewrite B0; exact IB|exact GP]|exact IB].
Qed.

(** ** Building a satisfying table from a trace *)

Variable t : vb_trace.
Definition matches : Prop := forall col r v, In (col, r, v) (vb_cells c row t) -> T CWit col r = v.
Hypothesis M : matches.

Lemma m_row : forall d, (0 <= d < 51)%Z -> forall col r v, In (col, r, v) (vb_double_row P c row t d) -> T CWit col r = v.
Proof.
  intros d Hd col r v H. apply M. apply in_or_app. left. apply in_flat_map. exists d. split; [apply in_zseq; exact Hd|exact H].
Qed.
Lemma m_aux : forall d, (0 <= d < 22)%Z -> forall col r v, In (col, r, v) (vb_aux_row P c row t d) -> T CWit col r = v.
Proof.
  intros d Hd col r v H. apply M. apply in_or_app. right. apply in_or_app. left. apply in_flat_map. exists d. split; [apply in_zseq; exact Hd|exact H].
Qed.
Lemma m_fin : forall i, (0 <= i < 13)%Z -> w i (row + 103) = vt_f t i.
Proof.
  intros i Hi. apply M. apply in_or_app. right. apply in_or_app. right. unfold vb_final_row.
  apply (in_map (fun i => (W c i, (row + 103)%Z, vt_f t i))). cbn [In]. lia.
Qed.

Ltac mrow d Hd := apply (m_row d Hd); unfold vb_double_row; cbv zeta; cbn [In];
  repeat first [left; reflexivity | right].

Lemma m_ct : forall d, (0 <= d < 51)%Z -> ct (row + 1 + 2 * d) = vt_t t.
Proof. intros d Hd. unfold ct. apply injective_projections; cbn [fst snd]; mrow d Hd. Qed.
Lemma m_in : forall d j, (0 <= d < 51)%Z -> (0 <= j < 5)%Z -> cin (row + 1 + 2 * d) j = vt_p t (5 * d + j).
Proof.
  intros d j Hd Hj. unfold cin. assert (C : (j = 0 \/ j = 1 \/ j = 2 \/ j = 3 \/ j = 4)%Z) by lia.
  destruct C as [->|[->|[->|[->| ->]]]]; rewrite ?Z.add_0_r; apply injective_projections; cbn [fst snd]; mrow d Hd.
Qed.
Lemma m_out : forall d j, (0 <= d < 51)%Z -> (0 <= j < 5)%Z -> cout (row + 1 + 2 * d) j = vt_p t (5 * d + j + 1).
Proof.
  intros d j Hd Hj. replace (5 * d + j + 1)%Z with (5 * d + (j + 1))%Z by lia. unfold cout. assert (C : (j = 0 \/ j = 1 \/ j = 2 \/ j = 3 \/ j = 4)%Z) by lia.
  destruct C as [->|[->|[->|[->| ->]]]]; apply injective_projections; cbn [fst snd]; mrow d Hd.
Qed.
Lemma m_s : forall d j, (0 <= d < 51)%Z -> (0 <= j < 5)%Z -> w (7 + j) (row + 1 + 2 * d + 1) = vt_s t (5 * d + j).
Proof.
  intros d j Hd Hj. assert (C : (j = 0 \/ j = 1 \/ j = 2 \/ j = 3 \/ j = 4)%Z) by lia.
  destruct C as [->|[->|[->|[->| ->]]]]; rewrite ?Z.add_0_r; mrow d Hd.
Qed.
Lemma m_b : forall d j, (0 <= d < 51)%Z -> (0 <= j < 5)%Z -> w (2 + j) (row + 1 + 2 * d + 1) = vt_b t (5 * d + j).
Proof.
  intros d j Hd Hj. assert (C : (j = 0 \/ j = 1 \/ j = 2 \/ j = 3 \/ j = 4)%Z) by lia.
  destruct C as [->|[->|[->|[->| ->]]]]; rewrite ?Z.add_0_r; mrow d Hd.
Qed.
Lemma m_n4 : forall d, (0 <= d < 51)%Z -> w 4 (row + 1 + 2 * d) = vt_n t d.
Proof. intros d Hd. mrow d Hd. Qed.
Lemma m_n5 : forall d, (0 <= d < 51)%Z -> w 5 (row + 1 + 2 * d) = vt_n t (d + 1).
Proof. intros d Hd. mrow d Hd. Qed.
Lemma m_ui : forall d, (0 <= d < 22)%Z -> w 6 (row + 59 + 2 * d) = vt_ui t d.
Proof. intros d Hd. apply (m_aux d Hd). left. reflexivity. Qed.
Lemma m_u0 : forall d, (0 <= d < 22)%Z -> w 12 (row + 59 + 2 * d + 1) = vt_u0 t d.
Proof. intros d Hd. apply (m_aux d Hd). right. left. reflexivity. Qed.
Lemma m_u1 : forall d, (0 <= d < 22)%Z -> w 13 (row + 59 + 2 * d + 1) = vt_u1 t d.
Proof. intros d Hd. apply (m_aux d Hd). right. right. left. reflexivity. Qed.
Lemma m_uo : forall d, (0 <= d < 22)%Z -> w 14 (row + 59 + 2 * d + 1) = vt_uo t d.
Proof. intros d Hd. apply (m_aux d Hd). right. right. right. left. reflexivity. Qed.

Lemma vb_holds_of : forall tx ty,
  T CConst (C c 0) (row + 1)%Z = f0 -> sat L T (ua_circuit (vb_add c) tx ty tx ty row) ->
  vb_ok t (vval T (ua_x (vb_add c) row), vval T (ua_y (vb_add c) row)) (vval T b) (vval T bh) (T CConst (W c 0) (row + 1)%Z) ->
  vb_holds tx ty.
Proof.
  intros tx ty C0 UA K. destruct K as [Kdbl Kbit Kslope Knext Klast Kn Kfin Ku Ku21 Kui0 Kui Kn0 Kf5 Kf67 Kf9 Kf10 Kf11 Khigh Kaux Kin].
  assert (R101 : (row + 101 = row + 1 + 2 * 50)%Z) by lia. assert (R102 : (row + 102 = row + 1 + 2 * 50 + 1)%Z) by lia.
  assert (B2 : w 2 (row + 2) = vt_b t 0).
  { replace (row + 2)%Z with (row + 1 + 2 * 0 + 1)%Z by lia. change 2%Z with (2 + 0)%Z at 1. rewrite m_b by lia. reflexivity. }
  assert (N51 : w 5 (row + 101) = vt_n t 51) by (rewrite R101, m_n5 by lia; reflexivity).
  assert (C102 : ct (row + 102) = vt_p t 255).
  { rewrite R102. change (ct (row + 1 + 2 * 50 + 1)) with (cout (row + 1 + 2 * 50) 4). rewrite m_out by lia. reflexivity. }
  assert (A101 : forall i, w i (row + 102) = w i (row + 59 + 2 * 21 + 1)) by (intros; f_equal; lia).
  assert (U101 : w 6 (row + 101) = vt_ui t 21) by (replace (row + 101)%Z with (row + 59 + 2 * 21)%Z by lia; apply m_ui; lia).
  split; [exact C0|]. split; [|split; [|split; [|split; [|split; [|split; [exact UA|]]]]]].
  - intros d Hd. split; [|split].
    + intros k Hk. rewrite m_b by lia. apply Kbit. lia.
    + intros k Hk. rewrite m_b, m_s, m_in, m_ct by lia. apply Kslope. lia.
    + rewrite m_n5, m_n4 by lia. rewrite (Kn d Hd). rewrite (m_b d 0 Hd ltac:(lia) : w 2 _ = _), (m_b d 1 Hd ltac:(lia) : w 3 _ = _),
        (m_b d 2 Hd ltac:(lia) : w 4 _ = _), (m_b d 3 Hd ltac:(lia) : w 5 _ = _), (m_b d 4 Hd ltac:(lia) : w 6 _ = _). rewrite Z.add_0_r. reflexivity.
  - intros d k Hd Hk Hdk. unfold drow_next. rewrite m_ct, m_in, m_out, m_s by lia. apply Knext. lia.
  - intros k Hk. unfold drow_next. rewrite R101. rewrite m_ct, m_in, m_out, m_s, !m_fin by lia. apply Klast. lia.
  - unfold grow. replace (row + 102 + 1)%Z with (row + 103)%Z by lia. replace (row + 102 - 1)%Z with (row + 101)%Z by lia.
    unfold fin_ok. rewrite !m_fin by lia. rewrite C102, !A101, m_u0, m_u1, m_uo, U101, N51 by lia.
    destruct Ku21 as [O1 [O2 O3]]. split; [exact Kfin|]. split; [exact O1|]. split; [exact O2|]. split; [exact O3|].
    split; [exact Khigh|]. split; [exact Kaux|]. destruct pal; [exact (proj2 Kin)|exact I].
  - intros d Hd. unfold arow. rewrite m_u0, m_u1, m_uo, m_ui by lia. apply Ku. exact Hd.
  - unfold links. rewrite !m_fin by lia. rewrite N51, B2.
    assert (E0 : cin (row + 1) 0 = vt_p t 0) by (replace (row + 1)%Z with (row + 1 + 2 * 0)%Z at 1 by lia; rewrite m_in by lia; reflexivity).
    rewrite Kdbl in E0. injection E0 as E1 E2.
    assert (E3 : ct (row + 101) = vt_t t) by (rewrite R101; apply m_ct; lia).
    split; [split; [exact E1|exact E2]|]. split; [intros d Hd; rewrite !m_ct by lia; reflexivity|].
    split; [intros d Hd; rewrite m_in, m_out by lia; f_equal; lia|].
    split; [intros d Hd; rewrite m_n4, m_n5 by lia; reflexivity|].
    split; [exact Kf5|]. destruct Kf67 as [E6 E7].
    split; [rewrite E6, <- E3; reflexivity|]. split; [rewrite E7, <- E3; reflexivity|].
    split; [replace (row + 1)%Z with (row + 1 + 2 * 0)%Z at 1 by lia; rewrite m_n4 by lia; exact Kn0|].
    split; [destruct pal; [exact (proj1 Kin)|exact Kin]|].
    split; [replace (row + 59)%Z with (row + 59 + 2 * 0)%Z by lia; rewrite m_ui, Kui0 by lia; exact C0|].
    split; [intros d Hd; rewrite m_uo, m_ui by lia; apply Kui; exact Hd|].
    split; [symmetry; exact Kf9|]. split; [|symmetry; exact Kf11].
    replace (row + 49)%Z with (row + 1 + 2 * 24)%Z by lia. rewrite m_n5 by lia. symmetry. exact Kf10.
Qed.
End Table.
End Proofs.
