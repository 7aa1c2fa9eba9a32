(** Soundness and completeness of comparison_flag. *)
From Coq Require Import ZArith List Lia Bool Field.
From Verif Require Import Base Field Plonk PlonkFacts Bits RangeModel RangeProofs BitModel CompareModel CompareProofs
  CheckedProofs.
Import ListNotations.
Open Scope Z_scope.

(** ** Comparing by digits *)

Lemma horner_compare : forall d e n, 0 <= n -> 0 <= d n < 4 -> 0 <= e n < 4 ->
  (horner 4 d (n + 1) ?= horner 4 e (n + 1)) =
  match horner 4 d n ?= horner 4 e n with Eq => d n ?= e n | s => s end.
Proof.
  intros d e n Hn Hd He. rewrite !horner_S by lia.
  destruct (Z.compare_spec (horner 4 d n) (horner 4 e n)) as [E|E|E].
  - rewrite E. destruct (Z.compare_spec (d n) (e n)) as [E2|E2|E2].
    + apply Z.compare_eq_iff. lia.
    + apply Z.compare_lt_iff. lia.
    + apply Z.compare_gt_iff. lia.
  - apply Z.compare_lt_iff. lia.
  - apply Z.compare_gt_iff. lia.
Qed.

(** ** Layout arithmetic *)

Definition cf_groups (w bits : Z) : Z := (bits + cf_cmp w * 2 - 1) / (cf_cmp w * 2).

Lemma cf_cmp_spec : forall w, 3 <= w -> 1 <= cf_cmp w /\ (w = 2 * cf_cmp w + 1 \/ w = 2 * cf_cmp w + 2).
Proof.
  intros w H. unfold cf_cmp. pose proof (Z.div_mod (w - 3) 2 ltac:(lia)).
  pose proof (Z.mod_pos_bound (w - 3) 2 ltac:(lia)). lia.
Qed.

Lemma cf_layout : forall w bits, 3 <= w -> 0 < bits ->
  1 <= cf_groups w bits /\ cf_gates w bits = cf_groups w bits /\
  cf_padded w bits = cf_groups w bits * cf_cmp w /\
  cf_rows w bits = 2 * cf_groups w bits + 1 + cf_bonus w /\ 0 <= cf_bonus w <= 1 /\
  0 <= cf_padding w bits < cf_cmp w /\
  cf_padded w bits = cf_padding w bits + (bits + 1) / 2 /\
  cf_padding_bits w bits = 2 * cf_padding w bits + bits mod 2.
Proof.
  intros w bits Hw Hb. destruct (cf_cmp_spec w Hw) as [H1 _].
  unfold cf_padding, cf_padding_bits, cf_padded, cf_gates, cf_rows. fold (cf_groups w bits).
  set (n := cf_cmp w) in *. set (g := cf_groups w bits).
  assert (HB : 0 <= cf_bonus w <= 1) by (unfold cf_bonus; destruct (w <=? 3); lia).
  assert (HG : bits <= g * (n * 2) < bits + n * 2).
  { unfold g, cf_groups. fold n. pose proof (Z.div_mod (bits + n * 2 - 1) (n * 2) ltac:(lia)).
    pose proof (Z.mod_pos_bound (bits + n * 2 - 1) (n * 2) ltac:(lia)). nia. }
  assert (E1 : (g * 2 + 1 + cf_bonus w - 1) / 2 = g).
  { replace (g * 2 + 1 + cf_bonus w - 1) with (cf_bonus w + g * 2) by ring.
    rewrite Z.div_add, Z.div_small by lia. lia. }
  rewrite E1.
  pose proof (Z.div_mod (g * n * 2 - bits) 2 ltac:(lia)). pose proof (Z.mod_pos_bound (g * n * 2 - bits) 2 ltac:(lia)).
  pose proof (Z.div_mod (bits + 1) 2 ltac:(lia)). pose proof (Z.mod_pos_bound (bits + 1) 2 ltac:(lia)).
  pose proof (Z.div_mod bits 2 ltac:(lia)). pose proof (Z.mod_pos_bound bits 2 ltac:(lia)).
  assert (1 <= g) by nia.
  repeat split; try lia.
Qed.

(** The check of the first chunk of an odd number of bits looks at the right
    two cells. *)
Definition cf_ok (w bits : Z) : bool :=
  (bits mod 2 =? 0) || negb (w mod 2 =? 0) || (cf_padding w bits <? cf_cmp w - 1).

Section Proofs.
Variable P : params.
Notation F := (F P).
Notation table := (table P).
Variable L : lenv P.
Implicit Types T : table.
Add Field Ff : (F_field P) (morphism (F_morph P), constants [F_const], power_tac (F_power P) [F_pow_tac]).
Local Open Scope F_scope.

Lemma W_wrap' : forall c w i, wamount c = w -> (0 < w)%Z -> W c (i + w) = W c i.
Proof.
  intros c w i Hw Hp. unfold W, cidx. unfold wamount in Hw. rewrite Hw.
  f_equal. replace (w + (i + w))%Z with ((w + i) + 1 * w)%Z by ring. apply Z.mod_add. lia.
Qed.

(** ** The specification of the result *)

Definition enc (s : comparison) : F := match s with Eq => f0 | Gt => f1 | Lt => cf_g end.
(** FLAG: the sign of x - y; otherwise 1 exactly when the relation holds. *)
Definition cmp_out (m : cmode) (s : comparison) : F :=
  match m, s with
  | FLAG, Eq => ofZ 0 | FLAG, Gt => ofZ 1 | FLAG, Lt => ofZ (-1)
  | LT, Lt | LE, Lt | LE, Eq | GT, Gt | GE, Gt | GE, Eq => ofZ 1
  | _, _ => ofZ 0
  end.

Hypothesis char_big : (8 < char P)%Z.

Lemma ofZ_neq : forall a b, (-8 <= a - b <= 8)%Z -> a <> b -> (ofZ a : F) <> ofZ b.
Proof.
  intros a b H N E. apply ofZ_inj in E.
  assert (D : ((a - b) mod char P = 0)%Z) by (rewrite Zminus_mod, E, Z.sub_diag; apply Z.mod_0_l; lia).
  apply Z.mod_divide in D; [|lia]. destruct D as [k Dk].
  destruct (Z.eq_dec k 0) as [->|Nk]; [lia|]. assert (Z.abs (a - b) = Z.abs k * char P)%Z by (rewrite Dk, Z.abs_mul, (Z.abs_eq (char P)) by lia; reflexivity).
  nia.
Qed.

Lemma cf_g_ofZ : (cf_g : F) = ofZ (-4).
Proof. unfold cf_g. rewrite <- ofZ_opp. reflexivity. Qed.
Lemma g_neq0 : (cf_g : F) <> f0.
Proof. rewrite cf_g_ofZ. apply (ofZ_neq (-4) 0); lia. Qed.
Lemma g_neq1 : (cf_g : F) <> f1.
Proof. rewrite cf_g_ofZ. apply (ofZ_neq (-4) 1); lia. Qed.
Lemma f01 : (f1 : F) <> f0.
Proof. apply f1_neq_f0. Qed.

Lemma enc_inj : forall s t, enc s = enc t -> s = t.
Proof.
  intros s t E. pose proof g_neq0. pose proof g_neq1. pose proof f01.
  destruct s, t; cbn in E; congruence.
Qed.

Lemma flag_values : forall f : F, f * (f - f1) * (f - cf_g) = f0 <-> exists s, f = enc s.
Proof.
  intros f. split.
  - intros H. apply fmul_integral in H. destruct H as [H|H].
    + apply fmul_integral in H. destruct H as [H|H]; [exists Eq; exact H|]. apply fsub0 in H. exists Gt. exact H.
    + apply fsub0 in H. exists Lt. exact H.
  - intros [s ->]. destruct s; cbn; ring.
Qed.

(** The flag constraints of one chunk pair. *)
Definition flag_ok (t f f' x y : F) : Prop :=
  t - ((x - y) * (f1 - f) * (f - cf_g) * (fopp (finv cf_g)) + f) = f0 /\
  t * (f' - f1) * (f' - cf_g) = f0 /\ digit P 4 (t - f').

Definition next (s r : comparison) : comparison := match s with Eq => r | _ => s end.

Lemma digit_ofZ : forall k, (-5 <= k <= 7)%Z -> digit P 4 (ofZ k) -> (0 <= k < 4)%Z.
Proof.
  intros k Hk [j [Hj E]]. destruct (Z.eq_dec k j) as [->|N]; [exact Hj|].
  destruct (Z_le_dec (k - j) 8); [|lia]. exfalso. revert E. apply ofZ_neq; lia.
Qed.

Lemma temp_value : forall t s a b,
  t - ((ofZ a - ofZ b) * (f1 - enc s) * (enc s - cf_g) * (fopp (finv cf_g)) + enc s) = f0 ->
  t = match s with Eq => ofZ (a - b) | _ => enc s end.
Proof.
  intros t s a b H. pose proof g_neq0. apply fsub0 in H. rewrite H, ofZ_sub. destruct s; cbn [enc]; field; assumption.
Qed.

Lemma flag_step_sound : forall t s s' a b, (0 <= a < 4)%Z -> (0 <= b < 4)%Z ->
  flag_ok t (enc s) (enc s') (ofZ a) (ofZ b) -> s' = next s (a ?= b)%Z.
Proof.
  intros t s s' a b Ha Hb [H1 [H2 H3]]. apply temp_value in H1.
  assert (E1 : (f1 : F) = ofZ 1) by reflexivity. assert (E0 : (f0 : F) = ofZ 0) by reflexivity.
  destruct s; cbn [next].
  - rewrite H1 in *. destruct s'; cbn [enc] in *.
    + apply fmul_integral in H2. destruct H2 as [H2|H2].
      * apply fmul_integral in H2. destruct H2 as [H2|H2].
        -- destruct (Z.compare_spec a b) as [|N|N]; [reflexivity| |];
             exfalso; revert H2; rewrite E0; apply ofZ_neq; lia.
        -- exfalso. apply f01. apply fsub0 in H2. symmetry. exact H2.
      * exfalso. apply g_neq0. apply fsub0 in H2. symmetry. exact H2.
    + rewrite cf_g_ofZ, <- ofZ_sub in H3. apply digit_ofZ in H3; [|lia].
      symmetry. apply Z.compare_lt_iff. lia.
    + rewrite E1, <- ofZ_sub in H3. apply digit_ofZ in H3; [|lia].
      symmetry. apply Z.compare_gt_iff. lia.
  - cbn [enc] in H1. rewrite H1 in *. destruct s'; cbn [enc] in *; [|reflexivity|].
    + exfalso. apply fmul_integral in H2. destruct H2 as [H2|H2].
      * apply fmul_integral in H2. destruct H2 as [H2|H2]; [exact (g_neq0 H2)|].
        apply fsub0 in H2. apply f01. symmetry. exact H2.
      * apply fsub0 in H2. apply g_neq0. symmetry. exact H2.
    + rewrite E1, cf_g_ofZ, <- ofZ_sub in H3. apply digit_ofZ in H3; lia.
  - cbn [enc] in H1. rewrite H1 in *. destruct s'; cbn [enc] in *; [| |reflexivity].
    + exfalso. apply fmul_integral in H2. destruct H2 as [H2|H2].
      * apply fmul_integral in H2. destruct H2 as [H2|H2]; [exact (f01 H2)|].
        apply fsub0 in H2. apply f01. symmetry. exact H2.
      * apply fsub0 in H2. apply g_neq0. symmetry. exact H2.
    + rewrite E1, cf_g_ofZ, <- ofZ_sub in H3. apply digit_ofZ in H3; lia.
Qed.

Lemma flag_step_complete : forall s a b, (0 <= a < 4)%Z -> (0 <= b < 4)%Z ->
  flag_ok (match s with Eq => ofZ (a - b) | _ => enc s end) (enc s) (enc (next s (a ?= b)%Z)) (ofZ a) (ofZ b).
Proof.
  intros s a b Ha Hb. pose proof g_neq0.
  assert (E1 : (f1 : F) = ofZ 1) by reflexivity. assert (E0 : (f0 : F) = ofZ 0) by reflexivity.
  split; [|split].
  - rewrite ofZ_sub. destruct s; cbn [enc]; field; assumption.
  - destruct s; cbn [enc next]; [|ring|ring]. destruct (Z.compare_spec a b) as [E|E|E]; cbn [enc]; [|ring|ring].
    rewrite E, Z.sub_diag, E0. ring.
  - destruct s; cbn [enc next].
    + destruct (Z.compare_spec a b) as [E|E|E]; cbn [enc].
      * exists 0%Z. split; [lia|]. rewrite E, Z.sub_diag, E0. ring.
      * exists (a - b + 4)%Z. split; [lia|]. rewrite cf_g_ofZ, <- ofZ_sub. f_equal; lia.
      * exists (a - b - 1)%Z. split; [lia|]. rewrite E1, <- ofZ_sub. reflexivity.
    + exists 0%Z. split; [lia|]. rewrite <- E0. ring.
    + exists 0%Z. split; [lia|]. rewrite <- E0. ring.
Qed.

(** ** The final constraint *)

Lemma cf_gate2_iff : forall T row c m s,
  gval T row (if (cf_bonus (wamount c) =? 0)%Z then wv (W c 2) 0 else wv (W c 2) (-1)) = enc s ->
  (forall e, In e (cf_gate2 c m) -> eval T row e = f0) <->
  gval T row (if (cf_bonus (wamount c) =? 0)%Z then wv (W c 3) 0 else wv (W c 0) 0) = cmp_out m s.
Proof.
  intros T row c m s Hf. unfold cf_gate2. cbv zeta. rewrite all_cons, all_nil.
  set (fv := if (cf_bonus (wamount c) =? 0)%Z then wv (W c 2) 0 else wv (W c 2) (-1)) in *.
  set (ov := if (cf_bonus (wamount c) =? 0)%Z then wv (W c 3) 0 else wv (W c 0) 0).
  assert (EF : eval T row (if (cf_bonus (wamount c) =? 0)%Z then evar (wv (W c 2) 0) else evar (wv (W c 2) (-1))) = enc s).
  { rewrite <- Hf. subst fv. destruct (_ =? _)%Z; apply eval_evar. }
  assert (EO : eval T row (if (cf_bonus (wamount c) =? 0)%Z then evar (wv (W c 3) 0) else evar (wv (W c 0) 0)) = gval T row ov).
  { subst ov. destruct (_ =? _)%Z; apply eval_evar. }
  set (o := gval T row ov) in *. clearbody o.
  pose proof g_neq0 as N0. pose proof g_neq1 as N1.
  assert (N2 : (cf_g - f1 : F) <> f0) by (apply fsub_neq0; exact N1).
  assert (N3 : (f1 - cf_g : F) <> f0) by (apply fsub_neq0; intros E; apply N1; symmetry; exact E).
  assert (N4 : (- (cf_g - f1) : F) <> f0) by (intros E; apply N3; rewrite <- E; ring).
  assert (E1 : (ofZ 1 : F) = f1) by reflexivity. assert (E0 : (ofZ 0 : F) = f0) by reflexivity.
  assert (EM : (ofZ (-1) : F) = - f1) by (change (-1)%Z with (- (1))%Z; rewrite ofZ_opp; reflexivity).
  assert (KEY : forall v : F, (o - v = f0 /\ True) <-> o = v).
  { intros v. split; [intros [H _]; apply fsub0; exact H|intros ->; split; [ring|exact I]]. }
  destruct m; rewrite !eval_bin, ?eval_bin, EO, ?EF, ?eval_ecst; cbn [ebop];
    rewrite <- KEY;
    match goal with |- (?a = f0 /\ True) <-> (?b = f0 /\ True) =>
      assert (EAB : a = b); [|rewrite EAB; reflexivity] end;
    destruct s; cbn [enc cmp_out]; rewrite ?E1, ?E0, ?EM; field; repeat split; assumption.
Qed.

(** ** Cells *)

Definition cfx T (c : comp) (w row k : Z) : F :=
  let n := cf_cmp w in
  T CWit (W c (if (k mod n <? n - 1)%Z then 3 + 2 * (k mod n) else 0)%Z) (row + 2 * (k / n) + 1)%Z.
Definition cfy T (c : comp) (w row k : Z) : F :=
  let n := cf_cmp w in
  T CWit (W c (if (k mod n <? n - 1)%Z then 3 + 2 * (k mod n) + 1 else 1)%Z) (row + 2 * (k / n) + 1)%Z.
Definition cft T (c : comp) (w row k : Z) : F :=
  let n := cf_cmp w in
  if (k mod n <? n - 1)%Z then T CWit (W c (3 + 2 * (k mod n))) (row + 2 * (k / n))%Z
  else T CWit (W c 2) (row + 2 * (k / n) + 1)%Z.
(** The flag before chunk [k]. *)
Definition cff T (c : comp) (w row k : Z) : F :=
  let n := cf_cmp w in T CWit (W c (2 + 2 * (k mod n))) (row + 2 * (k / n))%Z.

Lemma cfx_ij : forall T c w row i j, (3 <= w)%Z -> (0 <= j < cf_cmp w - 1)%Z ->
  cfx T c w row (i * cf_cmp w + j) = T CWit (W c (3 + 2 * j)) (row + 2 * i + 1)%Z /\
  cfy T c w row (i * cf_cmp w + j) = T CWit (W c (3 + 2 * j + 1)) (row + 2 * i + 1)%Z /\
  cft T c w row (i * cf_cmp w + j) = T CWit (W c (3 + 2 * j)) (row + 2 * i)%Z /\
  cff T c w row (i * cf_cmp w + j) = T CWit (W c (2 + 2 * j)) (row + 2 * i)%Z /\
  cff T c w row (i * cf_cmp w + j + 1) = T CWit (W c (3 + 2 * j + 1)) (row + 2 * i)%Z.
Proof.
  intros T c w row i j Hw Hj. destruct (cf_cmp_spec w Hw) as [H1 _]. unfold cfx, cfy, cft, cff. cbv zeta.
  destruct (group_index (cf_cmp w) i j) as [E1 E2]; [lia|lia|]. rewrite E1, E2.
  replace (i * cf_cmp w + j + 1)%Z with (i * cf_cmp w + (j + 1))%Z by ring.
  destruct (group_index (cf_cmp w) i (j + 1)) as [E3 E4]; [lia|lia|]. rewrite E3, E4.
  destruct (j <? cf_cmp w - 1)%Z eqn:E; [|apply Z.ltb_ge in E; lia].
  repeat split; cells.
Qed.

Lemma cfx_last : forall T c w row i, (3 <= w)%Z -> let n := cf_cmp w in
  cfx T c w row (i * n + (n - 1)) = T CWit (W c 0) (row + 2 * i + 1)%Z /\
  cfy T c w row (i * n + (n - 1)) = T CWit (W c 1) (row + 2 * i + 1)%Z /\
  cft T c w row (i * n + (n - 1)) = T CWit (W c 2) (row + 2 * i + 1)%Z /\
  cff T c w row (i * n + (n - 1)) = T CWit (W c (2 + 2 * (n - 1))) (row + 2 * i)%Z /\
  cff T c w row (i * n + (n - 1) + 1) = T CWit (W c 2) (row + 2 * (i + 1))%Z.
Proof.
  intros T c w row i Hw n. destruct (cf_cmp_spec w Hw) as [H1 _]. unfold cfx, cfy, cft, cff. cbv zeta. fold n in H1. fold n.
  destruct (group_index n i (n - 1)) as [E1 E2]; [lia|lia|]. rewrite E1, E2.
  replace (i * n + (n - 1) + 1)%Z with ((i + 1) * n + 0)%Z by ring.
  destruct (group_index n (i + 1) 0) as [E3 E4]; [lia|lia|]. rewrite E3, E4.
  destruct (n - 1 <? n - 1)%Z eqn:E; [apply Z.ltb_lt in E; lia|].
  repeat split; cells.
Qed.

Lemma cff_start : forall T c w row i, (3 <= w)%Z ->
  cff T c w row (i * cf_cmp w) = T CWit (W c 2) (row + 2 * i)%Z.
Proof.
  intros T c w row i Hw. destruct (cf_cmp_spec w Hw) as [H1 _]. unfold cff. cbv zeta.
  rewrite Z.mod_mul, Z.div_mul by lia. reflexivity.
Qed.

Lemma cf_difference_iff : forall T row t f,
  eval T row (cf_difference t f) = f0 <-> digit P 4 (gval T row t - gval T row f).
Proof.
  intros T row t f. unfold cf_difference. change (zseq 1 (2 ^ 2)) with [1; 2; 3]%Z. cbn [fold_left].
  rewrite !eval_bin, !eval_evar, !eval_ecst. cbn [ebop].
  set (d := gval T row t - gval T row f). split.
  - intros H. apply fmul_integral in H. destruct H as [H|H]; [|exists 3%Z; split; [lia|apply fsub0; exact H]].
    apply fmul_integral in H. destruct H as [H|H]; [|exists 2%Z; split; [lia|apply fsub0; exact H]].
    apply fmul_integral in H. destruct H as [H|H]; [|exists 1%Z; split; [lia|apply fsub0; exact H]].
    exists 0%Z. split; [lia|exact H].
  - intros [k [Hk E]]. rewrite E. assert (E0 : (ofZ 0 : F) = f0) by reflexivity.
    assert (K : (k = 0 \/ k = 1 \/ k = 2 \/ k = 3)%Z) by lia.
    destruct K as [-> |[-> |[-> | ->]]]; rewrite ?E0; ring.
Qed.

Lemma cf_sum_eval : forall T c w row i j (D : Z -> F), wamount c = w -> (3 <= w)%Z ->
  (forall k, (0 <= k < cf_cmp w - 1)%Z -> D (i * cf_cmp w + k)%Z = T CWit (W c (3 + 2 * k + j)) (row + 2 * i + 1)%Z) ->
  D (i * cf_cmp w + (cf_cmp w - 1))%Z = T CWit (W c j) (row + 2 * i + 1)%Z ->
  eval T (row + 2 * i + 1) (cf_sum c j) =
  T CWit (W c j) (row + 2 * (i + 1))%Z -
  (fhorner (ofZ 4) (fun k => D (i * cf_cmp w + k)%Z) (cf_cmp w)
   + ofZ (2 ^ (2 * cf_cmp w)) * T CWit (W c j) (row + 2 * i)%Z).
Proof.
  intros T c w row i j D Hw H3 HD HL. destruct (cf_cmp_spec w H3) as [H1 _]. unfold cf_sum. rewrite Hw.
  set (n := cf_cmp w) in *.
  rewrite eval_bin, eval_bin, eval_bin, eval_ecst, !eval_evar, !gval_wv. cbn [ebop].
  assert (E : eval T (row + 2 * i + 1)
     (fold_left (fun e i0 => EBin OAdd (EBin OMul (ecst (ofZ (2 ^ 2))) e) (evar (wv (W c (3 + 2 * i0 + j)) 0)))
        (zseq 0 (n - 1)) (evar (wv (W c j) (-1)))) =
     fhorner (ofZ 4) (fun k => D (i * n + k)%Z) (n - 1) + ofZ (4 ^ (n - 1)) * T CWit (W c j) (row + 2 * i)%Z).
  { apply (fold_zseq_inv (expr P) (fun k e => eval T (row + 2 * i + 1) e =
      fhorner (ofZ 4) (fun k => D (i * n + k)%Z) k + ofZ (4 ^ k) * T CWit (W c j) (row + 2 * i)%Z)).
    - lia.
    - rewrite eval_evar, gval_wv, fhorner_0. change (4 ^ 0)%Z with 1%Z.
      replace (row + 2 * i + 1 + -1)%Z with (row + 2 * i)%Z by ring.
      change (ofZ 1 : F) with (f1 : F). ring.
    - intros k e Hk IH. rewrite !eval_bin, eval_ecst, eval_evar, gval_wv, IH, Z.add_0_r. cbn [ebop].
      rewrite fhorner_S by lia. rewrite HD by lia. rewrite Z.pow_add_r, Z.pow_1_r, ofZ_mul by lia.
      change (2 ^ 2)%Z with 4%Z. ring. }
  change (ofZ (2 ^ 2) : F) with (ofZ 4 : F) in *. rewrite E.
  assert (E2 : fhorner (ofZ 4) (fun k => D (i * n + k)%Z) n =
     ofZ 4 * fhorner (ofZ 4) (fun k => D (i * n + k)%Z) (n - 1) + T CWit (W c j) (row + 2 * i + 1)%Z).
  { rewrite <- HL. rewrite <- (fhorner_S P (ofZ 4) (fun k => D (i * n + k)%Z) (n - 1)) by lia. f_equal. ring. }
  rewrite E2. rewrite Z.add_0_r.
  replace (row + 2 * i + 1 + 1)%Z with (row + 2 * (i + 1))%Z by ring.
  assert (E3 : (ofZ (2 ^ (2 * n)) : F) = ofZ 4 * ofZ (4 ^ (n - 1))).
  { rewrite <- ofZ_mul. f_equal. rewrite Z.pow_mul_r by lia. change (2 ^ 2)%Z with 4%Z.
    rewrite <- Z.pow_succ_r by lia. f_equal. lia. }
  rewrite E3. ring.
Qed.

Definition cf_step T c w row i : Prop :=
  (forall j, (0 <= j < cf_cmp w)%Z -> let k := (i * cf_cmp w + j)%Z in
     digit P 4 (cfx T c w row k) /\ digit P 4 (cfy T c w row k) /\
     (exists s, cff T c w row (k + 1) = enc s) /\
     flag_ok (cft T c w row k) (cff T c w row k) (cff T c w row (k + 1)) (cfx T c w row k) (cfy T c w row k)) /\
  T CWit (W c 0) (row + 2 * (i + 1))%Z =
    fhorner (ofZ 4) (fun j => cfx T c w row (i * cf_cmp w + j)) (cf_cmp w)
    + ofZ (2 ^ (2 * cf_cmp w)) * T CWit (W c 0) (row + 2 * i)%Z /\
  T CWit (W c 1) (row + 2 * (i + 1))%Z =
    fhorner (ofZ 4) (fun j => cfy T c w row (i * cf_cmp w + j)) (cf_cmp w)
    + ofZ (2 ^ (2 * cf_cmp w)) * T CWit (W c 1) (row + 2 * i)%Z.

Lemma all_flat_map : forall A B (f : A -> list B) l (Q : B -> Prop),
  (forall e, In e (flat_map f l) -> Q e) <-> (forall a, In a l -> forall e, In e (f a) -> Q e).
Proof.
  intros A B f l Q. split.
  - intros H a Ha e He. apply H. apply in_flat_map. exists a. auto.
  - intros H e He. apply in_flat_map in He. destruct He as [a [Ha He]]. eapply H; eauto.
Qed.
Lemma all_map : forall A B (f : A -> B) l (Q : B -> Prop),
  (forall e, In e (map f l) -> Q e) <-> (forall a, In a l -> Q (f a)).
Proof.
  intros A B f l Q. split.
  - intros H a Ha. apply H. apply in_map. exact Ha.
  - intros H e He. apply in_map_iff in He. destruct He as [a [<- Ha]]. apply H. exact Ha.
Qed.

Lemma eval_flag_values : forall T row v,
  eval T row (cf_flag_values v) = f0 <-> exists s, gval T row v = enc s.
Proof.
  intros T row v. unfold cf_flag_values. rewrite !eval_bin, !eval_evar, !eval_ecst. cbn [ebop].
  change (ofZ 1 : F) with (f1 : F). apply flag_values.
Qed.

Lemma eval_flag_ok : forall T row t f f' x y,
  (eval T row (cf_t_update t f x y) = f0 /\ eval T row (cf_t_f t f') = f0 /\ eval T row (cf_difference t f') = f0) <->
  flag_ok (gval T row t) (gval T row f) (gval T row f') (gval T row x) (gval T row y).
Proof.
  intros T row t f f' x y. rewrite cf_difference_iff. unfold cf_t_update, cf_t_f, flag_ok.
  rewrite !eval_bin, !eval_evar, !eval_ecst. cbn [ebop]. reflexivity.
Qed.

Lemma cf_gate1_iff : forall T c w row i, wamount c = w -> (3 <= w)%Z ->
  (forall e, In e (cf_gate1 c) -> eval T (row + 2 * i + 1) e = f0) <-> cf_step T c w row i.
Proof.
  intros T c w row i Hw H3. destruct (cf_cmp_spec w H3) as [H1 _].
  unfold cf_gate1. cbv zeta. rewrite Hw.
  set (n := cf_cmp w) in *. set (r := (row + 2 * i + 1)%Z).
  rewrite !all_app, all_flat_map, all_map, all_flat_map, !all_cons, !all_nil.
  unfold r. rewrite (cf_sum_eval T c w row i 0 (cfx T c w row)), (cf_sum_eval T c w row i 1 (cfy T c w row)); auto.
  2:{ intros k Hk. apply (cfx_ij T c w row i k H3 Hk). }
  2:{ apply (cfx_last T c w row i H3). }
  2:{ intros k Hk. destruct (cfx_ij T c w row i k H3 Hk) as [-> _]. cells. }
  2:{ apply (cfx_last T c w row i H3). }
  fold n. fold r.
  rewrite !eval_flag_values, !gval_wv.
  (* one chunk pair: constraints versus named cells *)
  assert (A : (forall a, In a (zseq 0 n) -> forall e,
      In e [chunk_expr (wv (W c (2 * a + (if (a =? 0)%Z then 0 else 1))) 0) 2;
            chunk_expr (wv (W c (2 * a + (if (a =? 0)%Z then 0 else 1) + 1)) 0) 2] -> eval T r e = f0) <->
      (forall j, (0 <= j < n)%Z -> digit P 4 (cfx T c w row (i * n + j)) /\ digit P 4 (cfy T c w row (i * n + j)))).
  { destruct (cfx_last T c w row i H3) as [X0 [Y0 _]]. fold n in X0, Y0.
    split.
    - intros H j Hj. destruct (Z.eq_dec j (n - 1)) as [->|Nj].
      + specialize (H 0%Z ltac:(apply in_zseq; lia)). rewrite !all_cons, all_nil in H.
        rewrite !chunk_digit in H by lia. rewrite !gval_wv, !Z.add_0_r in H. cbn [Z.eqb] in H.
        rewrite X0, Y0. split; apply H.
      + specialize (H (j + 1)%Z ltac:(apply in_zseq; lia)). rewrite !all_cons, all_nil in H.
        rewrite !chunk_digit in H by lia. rewrite !gval_wv, !Z.add_0_r in H.
        destruct (j + 1 =? 0)%Z eqn:E; [apply Z.eqb_eq in E; lia|].
        destruct (cfx_ij T c w row i j H3 ltac:(fold n; lia)) as [X1 [Y1 _]]. fold n in X1, Y1. rewrite X1, Y1.
        replace (2 * (j + 1) + 1)%Z with (3 + 2 * j)%Z in H by ring. split; apply H.
    - intros H a Ha. apply in_zseq in Ha. rewrite !all_cons, all_nil. rewrite !chunk_digit by lia.
      rewrite !gval_wv, !Z.add_0_r. destruct (a =? 0)%Z eqn:E.
      + apply Z.eqb_eq in E. subst a. destruct (H (n - 1)%Z ltac:(lia)) as [B1 B2].
        rewrite X0 in B1. rewrite Y0 in B2. auto.
      + apply Z.eqb_neq in E. destruct (H (a - 1)%Z ltac:(lia)) as [B1 B2].
        destruct (cfx_ij T c w row i (a - 1) H3 ltac:(fold n; lia)) as [X1 [Y1 _]]. fold n in X1, Y1.
        rewrite X1 in B1. rewrite Y1 in B2.
        replace (2 * a + 1)%Z with (3 + 2 * (a - 1))%Z by ring. auto. }
  rewrite A. clear A.
  assert (B : ((forall a, In a (zseq 1 n) -> eval T r (cf_flag_values (wv (W c (2 + 2 * a)) (-1))) = f0) /\
               (exists s, T CWit (W c 2) (r + 1)%Z = enc s)) <->
              (forall j, (0 <= j < n)%Z -> exists s, cff T c w row (i * n + j + 1) = enc s)).
  { destruct (cfx_last T c w row i H3) as [_ [_ [_ [_ F0]]]]. fold n in F0.
    replace (r + 1)%Z with (row + 2 * (i + 1))%Z by (subst r; ring).
    split.
    - intros [H H'] j Hj. destruct (Z.eq_dec j (n - 1)) as [->|Nj]; [rewrite F0; exact H'|].
      specialize (H (j + 1)%Z ltac:(apply in_zseq; lia)). rewrite eval_flag_values, gval_wv in H.
      destruct (cfx_ij T c w row i j H3 ltac:(fold n; lia)) as [_ [_ [_ [_ F1]]]]. fold n in F1. rewrite F1.
      replace (2 + 2 * (j + 1))%Z with (3 + 2 * j + 1)%Z in H by ring.
      replace (r + -1)%Z with (row + 2 * i)%Z in H by (subst r; ring). exact H.
    - intros H. split.
      + intros a Ha. apply in_zseq in Ha. rewrite eval_flag_values, gval_wv.
        destruct (cfx_ij T c w row i (a - 1) H3 ltac:(fold n; lia)) as [_ [_ [_ [_ F1]]]]. fold n in F1.
        specialize (H (a - 1)%Z ltac:(lia)). rewrite F1 in H.
        replace (2 + 2 * a)%Z with (3 + 2 * (a - 1) + 1)%Z by ring.
        replace (r + -1)%Z with (row + 2 * i)%Z by (subst r; ring). exact H.
      + specialize (H (n - 1)%Z ltac:(lia)). rewrite F0 in H. exact H. }
  set (FV1 := forall a, In a (zseq 1 n) -> _) in *. set (FV2 := exists s, T CWit (W c 2) (r + 1)%Z = enc s) in *.
  (* the flag updates *)
  assert (D : ((forall a, In a (zseq 0 (n - 1)) -> forall e,
      In e [cf_t_update (wv (W c (3 + 2 * a)) (-1)) (wv (W c (2 + 2 * a)) (-1)) (wv (W c (3 + 2 * a)) 0) (wv (W c (3 + 2 * a + 1)) 0);
            cf_t_f (wv (W c (3 + 2 * a)) (-1)) (wv (W c (3 + 2 * a + 1)) (-1));
            cf_difference (wv (W c (3 + 2 * a)) (-1)) (wv (W c (3 + 2 * a + 1)) (-1))] -> eval T r e = f0) /\
      (eval T r (cf_t_update (wv (W c 2) 0) (wv (W c (2 + 2 * (n - 1))) (-1)) (wv (W c 0) 0) (wv (W c 1) 0)) = f0 /\
       eval T r (cf_t_f (wv (W c 2) 0) (wv (W c 2) 1)) = f0 /\
       eval T r (cf_difference (wv (W c 2) 0) (wv (W c 2) 1)) = f0)) <->
      (forall j, (0 <= j < n)%Z -> let k := (i * n + j)%Z in
        flag_ok (cft T c w row k) (cff T c w row k) (cff T c w row (k + 1)) (cfx T c w row k) (cfy T c w row k))).
  { rewrite eval_flag_ok, !gval_wv, !Z.add_0_r.
    replace (r + 1)%Z with (row + 2 * (i + 1))%Z by (subst r; ring).
    replace (r + -1)%Z with (row + 2 * i)%Z by (subst r; ring).
    assert (ALL : forall a, (0 <= a < n - 1)%Z ->
      (forall e, In e [cf_t_update (wv (W c (3 + 2 * a)) (-1)) (wv (W c (2 + 2 * a)) (-1)) (wv (W c (3 + 2 * a)) 0) (wv (W c (3 + 2 * a + 1)) 0);
            cf_t_f (wv (W c (3 + 2 * a)) (-1)) (wv (W c (3 + 2 * a + 1)) (-1));
            cf_difference (wv (W c (3 + 2 * a)) (-1)) (wv (W c (3 + 2 * a + 1)) (-1))] -> eval T r e = f0) <->
      flag_ok (cft T c w row (i * n + a)) (cff T c w row (i * n + a)) (cff T c w row (i * n + a + 1))
        (cfx T c w row (i * n + a)) (cfy T c w row (i * n + a))).
    { intros a Ha. rewrite !all_cons, all_nil.
      destruct (cfx_ij T c w row i a H3 ltac:(fold n; lia)) as [X1 [Y1 [T1 [F1 F2]]]].
      fold n in X1, Y1, T1, F1, F2. rewrite X1, Y1, T1, F1, F2.
      pose proof (eval_flag_ok T r (wv (W c (3 + 2 * a)) (-1)) (wv (W c (2 + 2 * a)) (-1)) (wv (W c (3 + 2 * a + 1)) (-1))
        (wv (W c (3 + 2 * a)) 0) (wv (W c (3 + 2 * a + 1)) 0)) as Q.
      rewrite !gval_wv, !Z.add_0_r in Q. replace (r + -1)%Z with (row + 2 * i)%Z in Q by (subst r; ring).
      fold r. rewrite <- Q. tauto. }
    destruct (cfx_last T c w row i H3) as [X0 [Y0 [T0 [F0 F0']]]]. fold n in X0, Y0, T0, F0, F0'. fold r in X0, Y0, T0.
    split.
    - intros [H H'] j Hj. cbv zeta. destruct (Z.eq_dec j (n - 1)) as [->|Nj].
      + rewrite X0, Y0, T0, F0, F0'. exact H'.
      + apply ALL; [lia|]. apply H. apply in_zseq. lia.
    - intros H. split.
      + intros a Ha. apply in_zseq in Ha. apply ALL; [lia|]. apply H. lia.
      + specialize (H (n - 1)%Z ltac:(lia)). cbv zeta in H. rewrite X0, Y0, T0, F0, F0' in H. exact H. }
  set (FU1 := forall a, In a (zseq 0 (n - 1)) -> _) in *.
  set (u1 := eval T r (cf_t_update _ _ _ _) = f0) in *. set (u2 := eval T r (cf_t_f _ _) = f0) in *.
  set (u3 := eval T r (cf_difference _ _) = f0) in *.
  unfold cf_step. fold n. cbv zeta.
  split.
  - intros [A [B1 [[B2 _] [D1 [D2 [D3 [D4 [S1 [S2 _]]]]]]]]].
    apply fsub0 in S1. apply fsub0 in S2.
    pose proof (proj1 B (conj B1 B2)) as BB. pose proof (proj1 D (conj D1 (conj D2 (conj D3 D4)))) as DD.
    split; [|split; assumption]. intros j Hj. specialize (DD j Hj). cbv zeta in DD.
    destruct (A j Hj) as [A1 A2]. split; [exact A1|]. split; [exact A2|]. split; [apply BB; exact Hj|exact DD].
  - intros [H [S1 S2]].
    assert (A : forall j, (0 <= j < n)%Z -> digit P 4 (cfx T c w row (i * n + j)) /\ digit P 4 (cfy T c w row (i * n + j))).
    { intros j Hj. destruct (H j Hj) as [A1 [A2 _]]. auto. }
    assert (BB : forall j, (0 <= j < n)%Z -> exists s, cff T c w row (i * n + j + 1) = enc s).
    { intros j Hj. apply (H j Hj). }
    assert (DD : forall j, (0 <= j < n)%Z -> let k := (i * n + j)%Z in
        flag_ok (cft T c w row k) (cff T c w row k) (cff T c w row (k + 1)) (cfx T c w row k) (cfy T c w row k)).
    { intros j Hj. apply (H j Hj). }
    apply B in BB. apply D in DD. destruct BB as [B1 B2]. destruct DD as [D1 [D2 [D3 D4]]].
    split; [exact A|]. split; [exact B1|]. split; [split; [exact B2|exact I]|]. split; [exact D1|].
    split; [exact D2|]. split; [exact D3|]. split; [exact D4|].
    split; [rewrite S1; ring|]. split; [rewrite S2; ring|exact I].
Qed.

(** All the constraints, in terms of chunks, temporaries and flags. *)
Lemma cf_sat_iff : forall T c w bits m x y row, wamount c = w -> (3 <= w)%Z -> (0 < bits)%Z -> C c 0 = 0%Z ->
  let R := cf_groups w bits in
  let last := (row + 2 * R)%Z in
  let pad := cf_padding w bits in
  (forall s, T CWit (W c 2) last = enc s ->
  (sat L T (cf_circuit c bits m x y row) <->
  T CConst 0%Z row = f0 /\
  (forall i, (0 <= i < R)%Z -> cf_step T c w row i) /\
  vval T (cf_result c bits row) = cmp_out m s /\
  ((bits mod 2 = 1)%Z -> digit P 2 (T CWit (W c (3 + 2 * pad)) (row + 1)%Z) /\
                         digit P 2 (T CWit (W c (3 + 2 * pad + 1)) (row + 1)%Z)) /\
  T CWit (W c 0) row = f0 /\ T CWit (W c 1) row = f0 /\ T CWit (W c 2) row = f0 /\
  (forall k, (0 <= k < pad)%Z -> cfx T c w row k = f0 /\ cfy T c w row k = f0) /\
  vval T x = T CWit (W c 0) last /\
  vval T y = T CWit (W c 1) last)) /\
  (sat L T (cf_circuit c bits m x y row) -> exists s, T CWit (W c 2) last = enc s).
Proof.
  intros T c w bits m x y row Hw H3 Hb HC R last pad.
  destruct (cf_layout w bits H3 Hb) as [G1 [_ [_ [G3 [GB [PB _]]]]]].
  destruct (cf_cmp_spec w H3) as [N1 _].
  fold R in G1, G3. fold pad in PB.
  (* gate 1 *)
  assert (E1 : holds L T (Gate (cf_gate1 c) (map (fun g => row + 1 + 2 * g)%Z (zseq 0 R))) <->
               (forall i, (0 <= i < R)%Z -> cf_step T c w row i)).
  { cbn [holds]. split.
    - intros H i Hi. apply cf_gate1_iff; auto. intros e He. apply (H (row + 2 * i + 1)%Z); [|exact He].
      apply in_map_iff. exists i. split; [ring|apply in_zseq; lia].
    - intros H r Hr e He. apply in_map_iff in Hr. destruct Hr as [i [<- Hi]]. apply in_zseq in Hi.
      replace (row + 1 + 2 * i)%Z with (row + 2 * i + 1)%Z by ring.
      apply (proj2 (cf_gate1_iff T c w row i Hw H3)); [apply H; lia|exact He]. }
  assert (ES : step_rows (row + 1) (row + cf_rows w bits - 2 - cf_bonus w) 2 = map (fun g => row + 1 + 2 * g)%Z (zseq 0 R)).
  { rewrite G3. replace (row + (2 * R + 1 + cf_bonus w) - 2 - cf_bonus w)%Z with (row + 2 * R - 1)%Z by ring.
    apply step_rows_2. lia. }
  split.
  2:{ unfold cf_circuit. cbv zeta. rewrite Hw, ES, !sat_app, !sat_cons, E1. intros [[H _] _].
      specialize (H (R - 1)%Z ltac:(lia)). destruct H as [H _].
      specialize (H (cf_cmp w - 1)%Z ltac:(lia)). destruct H as [_ [_ [[s Hs] _]]]. exists s.
      destruct (cfx_last T c w row (R - 1) H3) as [_ [_ [_ [_ F0]]]]. rewrite F0 in Hs.
      replace (R - 1 + 1)%Z with R in Hs by ring. exact Hs. }
  intros s Hs. unfold cf_circuit. cbv zeta. rewrite Hw, ES, !sat_app, !sat_cons, E1.
  (* gate 2 *)
  assert (E2 : holds L T (Gate (cf_gate2 c m) [row + cf_rows w bits - 1]%Z) <->
               vval T (cf_result c bits row) = cmp_out m s).
  { rewrite holds_gate1. rewrite (cf_gate2_iff T _ c m s).
    - unfold cf_result. rewrite Hw. destruct (cf_bonus w =? 0)%Z; rewrite gval_wv, vval_wcell, Z.add_0_r; reflexivity.
    - rewrite Hw, G3. destruct (cf_bonus w =? 0)%Z eqn:EB; rewrite gval_wv, <- Hs; subst last.
      + apply Z.eqb_eq in EB. rewrite EB. cells.
      + apply Z.eqb_neq in EB. replace (cf_bonus w) with 1%Z by lia. cells. }
  rewrite E2.
  (* gate 3 *)
  assert (E3 : sat L T (if (bits mod 2 =? 0)%Z then [] else [Gate (cf_gate3 c bits) [row + 1]%Z]) <->
    ((bits mod 2 = 1)%Z -> digit P 2 (T CWit (W c (3 + 2 * pad)) (row + 1)%Z) /\
                           digit P 2 (T CWit (W c (3 + 2 * pad + 1)) (row + 1)%Z))).
  { pose proof (Z.mod_pos_bound bits 2 ltac:(lia)) as MB.
    destruct (bits mod 2 =? 0)%Z eqn:E; [apply Z.eqb_eq in E|apply Z.eqb_neq in E].
    - split; [intros _ A; lia|intros _; apply sat_nil].
    - assert (EM : (bits mod 2 = 1)%Z) by lia.
      rewrite sat_cons, holds_gate1. unfold cf_gate3. cbv zeta. rewrite Hw, EM. fold pad. rewrite !all_cons, all_nil.
      rewrite !chunk_digit by lia. rewrite !gval_wv, !Z.add_0_r. change (2 ^ 1)%Z with 2%Z. split.
      + intros [[A [B _]] _] _. auto.
      + intros H. specialize (H eq_refl). split; [tauto|apply sat_nil]. }
  rewrite E3.
  (* copies *)
  unfold cf_copies. cbv zeta. rewrite Hw, G3.
  replace (row + (2 * R + 1 + cf_bonus w) - 1 - cf_bonus w)%Z with last by (subst last; ring).
  rewrite !sat_app, !sat_cons, sat_map. cbn [holds]. rewrite HC, !vval_wcell.
  assert (EP : forall k, (0 <= k < pad)%Z ->
     cfx T c w row k = T CWit (W c (3 + 2 * k)) (row + 1)%Z /\ cfy T c w row k = T CWit (W c (3 + 2 * k + 1)) (row + 1)%Z).
  { intros k Hk. destruct (cfx_ij T c w row 0 k H3 ltac:(lia)) as [X1 [Y1 _]].
    replace (0 * cf_cmp w + k)%Z with k in X1, Y1 by ring. rewrite X1, Y1. split; cells. }
  assert (FM : sat L T (flat_map (fun i => [Copy (ccell 0 row) (wcell (W c (3 + 2 * i)) (row + 1));
                      Copy (ccell 0 row) (wcell (W c (3 + 2 * i + 1)) (row + 1))]) (zseq 0 pad)) <->
     (forall k, (0 <= k < pad)%Z -> T CConst 0%Z row = T CWit (W c (3 + 2 * k)) (row + 1)%Z /\
                                   T CConst 0%Z row = T CWit (W c (3 + 2 * k + 1)) (row + 1)%Z)).
  { unfold sat. rewrite all_flat_map. split.
    - intros H k Hk. specialize (H k ltac:(apply in_zseq; lia)). rewrite !all_cons in H.
      destruct H as [A [B _]]. cbn [holds] in A, B. rewrite vval_ccell, vval_wcell in A, B. auto.
    - intros H a Ha. apply in_zseq in Ha. destruct (H a ltac:(lia)) as [A B].
      rewrite !all_cons, all_nil. cbn [holds]. rewrite !vval_ccell, !vval_wcell. auto. }
  fold pad. rewrite FM.
  split.
  - intros [[A1 [A2 _]] [A3 [[A4 [A5 [A6 [A7 _]]]] [A8 _]]]].
    assert (ZZ : forall i, (0 <= i < 3)%Z -> T CWit (W c i) row = f0).
    { intros i Hi. specialize (A4 i). rewrite in_zseq in A4. specialize (A4 ltac:(lia)).
      rewrite vval_ccell, vval_wcell, A8 in A4. symmetry. exact A4. }
    split; [exact A8|]. split; [exact A1|]. split; [exact A2|]. split; [exact A3|].
    split; [apply ZZ; lia|]. split; [apply ZZ; lia|]. split; [apply ZZ; lia|].
    split; [|auto]. intros k Hk. destruct (EP k Hk) as [-> ->]. destruct (A5 k Hk) as [B1 B2].
    rewrite A8 in B1, B2. auto.
  - intros [A1 [A2 [A3 [A4 [A5 [A6 [A7 [A8 [A9 A10]]]]]]]]].
    split; [split; [exact A2|split; [exact A3|apply sat_nil]]|].
    split; [exact A4|]. split; [|split; [exact A1|apply sat_nil]].
    split; [|split; [|split; [exact A9|split; [exact A10|apply sat_nil]]]].
    + intros i Hi. apply in_zseq in Hi. rewrite vval_ccell, vval_wcell, A1.
      assert (K : (i = 0 \/ i = 1 \/ i = 2)%Z) by lia. destruct K as [-> |[-> | ->]]; auto.
    + intros k Hk. destruct (EP k Hk) as [<- <-]. rewrite A1. destruct (A8 k Hk) as [-> ->]. auto.
Qed.

(** ** Soundness *)

(** What the constraints say, with nothing assumed about the sizes. *)
Lemma cf_sound_digits : forall T c w bits m x y row,
  wamount c = w -> (3 <= w)%Z -> (0 < bits)%Z -> C c 0 = 0%Z ->
  sat L T (cf_circuit c bits m x y row) ->
  let e := if cf_ok w bits then bits else (bits + 1)%Z in
  exists X Y, (0 <= X < 2 ^ bits /\ 0 <= Y < 2 ^ e)%Z /\ vval T x = ofZ X /\ vval T y = ofZ Y /\
    vval T (cf_result c bits row) = cmp_out m (X ?= Y)%Z.
Proof.
  intros T c w bits m x y row Hw H3 Hb HC H e.
  destruct (cf_sat_iff T c w bits m x y row Hw H3 Hb HC) as [IFF EX].
  destruct (EX H) as [s Hs]. apply (IFF s Hs) in H. clear IFF EX.
  destruct H as [_ [G1 [G2 [G3 [Z0 [Z1 [Z2 [ZP [CX CY]]]]]]]]].
  destruct (cf_layout w bits H3 Hb) as [L1 [_ [L2 [_ [_ [PB [L3 _]]]]]]].
  destruct (cf_cmp_spec w H3) as [N1 N2].
  set (R := cf_groups w bits) in *. set (last := (row + 2 * R)%Z) in *. set (pad := cf_padding w bits) in *.
  set (n := cf_cmp w) in *.
  pose proof (Z.mod_pos_bound bits 2 ltac:(lia)) as MB.
  pose proof (Z.div_mod bits 2 ltac:(lia)) as DM.
  pose proof (Z.div_mod (bits + 1) 2 ltac:(lia)) as DM1. pose proof (Z.mod_pos_bound (bits + 1) 2 ltac:(lia)) as MB1.
  assert (Hc : (0 <= pad < R * n)%Z) by (rewrite <- L2, L3; lia).
  assert (ST : forall k, (0 <= k < R * n)%Z ->
     digit P 4 (cfx T c w row k) /\ digit P 4 (cfy T c w row k) /\
     (exists s, cff T c w row (k + 1) = enc s) /\
     flag_ok (cft T c w row k) (cff T c w row k) (cff T c w row (k + 1)) (cfx T c w row k) (cfy T c w row k)).
  { intros k Hk. pose proof (Z.div_mod k n ltac:(lia)). pose proof (Z.mod_pos_bound k n ltac:(lia)).
    assert (Hi : (0 <= k / n < R)%Z) by nia. destruct (G1 _ Hi) as [G _].
    specialize (G (k mod n)%Z). fold n in G. specialize (G ltac:(lia)). cbv zeta in G.
    replace (k / n * n + k mod n)%Z with k in G by lia. exact G. }
  destruct (digits_exist P (cfx T c w row) (R * n)) as [dx Hdx]; [intros k Hk; apply ST; exact Hk|].
  destruct (digits_exist P (cfy T c w row) (R * n)) as [dy Hdy]; [intros k Hk; apply ST; exact Hk|].
  (* sums *)
  assert (SX : T CWit (W c 0) last = ofZ (horner 4 dx (R * n))).
  { apply (sums_unroll P (fun i => T CWit (W c 0) (row + 2 * i)%Z) (cfx T c w row) dx n R); try lia.
    - rewrite Z.add_0_r. exact Z0.
    - intros i Hi. apply (G1 i Hi).
    - intros k Hk. apply Hdx. exact Hk. }
  assert (SY : T CWit (W c 1) last = ofZ (horner 4 dy (R * n))).
  { apply (sums_unroll P (fun i => T CWit (W c 1) (row + 2 * i)%Z) (cfy T c w row) dy n R); try lia.
    - rewrite Z.add_0_r. exact Z1.
    - intros i Hi. apply (G1 i Hi).
    - intros k Hk. apply Hdy. exact Hk. }
  (* flags *)
  assert (FL : forall k, (0 <= k <= R * n)%Z -> cff T c w row k = enc (horner 4 dx k ?= horner 4 dy k)%Z).
  { intros k [Hk1 Hk2]. revert Hk2. pattern k. apply natlike_ind; [| |exact Hk1]; clear k Hk1.
    - intros _. rewrite !horner_0. cbn [Z.compare enc].
      pose proof (cff_start T c w row 0 H3) as A. rewrite Z.mul_0_l in A. rewrite A, Z.add_0_r. exact Z2.
    - intros k Hk IH Hk2. unfold Z.succ in *. specialize (IH ltac:(lia)).
      destruct (ST k ltac:(lia)) as [_ [_ [[s' Es'] FO]]].
      destruct (Hdx k ltac:(lia)) as [X1 X2]. destruct (Hdy k ltac:(lia)) as [Y1 Y2].
      rewrite X2, Y2, IH, Es' in FO. apply flag_step_sound in FO; auto.
      rewrite Es', FO. rewrite horner_compare by lia. destruct (horner 4 dx k ?= horner 4 dy k)%Z; reflexivity. }
  assert (Es : s = (horner 4 dx (R * n) ?= horner 4 dy (R * n))%Z).
  { apply enc_inj. rewrite <- FL by lia. rewrite <- Hs. unfold n. rewrite cff_start by assumption. reflexivity. }
  (* bounds *)
  assert (PX : forall k, (0 <= k < pad)%Z -> dx k = 0%Z /\ dy k = 0%Z).
  { intros k Hk. destruct (ZP k Hk) as [A B].
    destruct (Hdx k ltac:(lia)) as [X1 X2]. destruct (Hdy k ltac:(lia)) as [Y1 Y2].
    rewrite A in X2. rewrite B in Y2. split; symmetry; apply (ofZ_small_eq P); auto; lia. }
  assert (CHK : (bits mod 2 = 1)%Z -> (0 <= dx pad < 2)%Z /\ (cf_ok w bits = true -> (0 <= dy pad < 2)%Z)).
  { intros E1. specialize (G3 E1). destruct G3 as [A B].
    destruct (Hdx pad Hc) as [X1 X2]. destruct (Hdy pad Hc) as [Y1 Y2].
    assert (GO : forall d v, (0 <= d < 4)%Z -> v = ofZ d -> digit P 2 v -> (0 <= d < 2)%Z).
    { intros d v Hd Ev [k [Hk Ek]]. rewrite Ev in Ek. apply (ofZ_small_eq P) in Ek; lia. }
    destruct (Z_lt_le_dec pad (n - 1)) as [Lp|Lp].
    - destruct (cfx_ij T c w row 0 pad H3 ltac:(fold n; lia)) as [XX [YY _]]. fold n in XX, YY.
      rewrite Z.mul_0_l, Z.add_0_l, Z.mul_0_r, Z.add_0_r in XX, YY. rewrite <- XX in A. rewrite <- YY in B.
      split; [|intros _]; eapply GO; eauto.
    - assert (Ep : pad = (n - 1)%Z) by lia.
      destruct (cfx_last T c w row 0 H3) as [XX [YY _]]. fold n in XX, YY.
      rewrite Z.mul_0_l, Z.add_0_l, Z.mul_0_r, Z.add_0_r, <- Ep in XX, YY.
      destruct N2 as [N2|N2].
      + replace (3 + 2 * pad)%Z with (0 + w)%Z in A by lia. replace (3 + 2 * pad + 1)%Z with (1 + w)%Z in B by lia.
        rewrite (W_wrap' c w) in A, B by lia. rewrite <- XX in A. rewrite <- YY in B.
        split; [|intros _]; eapply GO; eauto.
      + replace (3 + 2 * pad + 1)%Z with (0 + w)%Z in B by lia. rewrite (W_wrap' c w) in B by lia. rewrite <- XX in B.
        split; [eapply GO; eauto|]. unfold cf_ok. intros O. exfalso.
        apply orb_prop in O. destruct O as [O|O]; [apply orb_prop in O; destruct O as [O|O]|].
        * apply Z.eqb_eq in O. lia.
        * apply negb_true_iff, Z.eqb_neq in O. apply O. rewrite N2.
          replace (2 * n + 2)%Z with (0 + (n + 1) * 2)%Z by ring. rewrite Z.mod_add by lia. reflexivity.
        * apply Z.ltb_lt in O. fold pad in O. fold n in O. lia. }
  exists (horner 4 dx (R * n)), (horner 4 dy (R * n)).
  split; [split|].
  - rewrite <- L2, L3. apply rc_value_bound; [lia|lia| | |].
    + intros k Hk. apply PX. exact Hk.
    + intros k Hk. apply Hdx. rewrite <- L2, L3. exact Hk.
    + intros E. apply CHK. lia.
  - rewrite <- L2, L3. unfold e. destruct (cf_ok w bits) eqn:O.
    + apply rc_value_bound; [lia|lia| | |].
      * intros k Hk. apply PX. exact Hk.
      * intros k Hk. apply Hdy. rewrite <- L2, L3. exact Hk.
      * intros E. apply CHK; [lia|reflexivity].
    + assert (O1 : (bits mod 2 = 1)%Z).
      { unfold cf_ok in O. destruct (bits mod 2 =? 0)%Z eqn:E; [discriminate|]. apply Z.eqb_neq in E. lia. }
      replace ((bits + 1) / 2)%Z with ((bits + 1 + 1) / 2)%Z.
      2:{ pose proof (Z.div_mod (bits + 1 + 1) 2 ltac:(lia)). pose proof (Z.mod_pos_bound (bits + 1 + 1) 2 ltac:(lia)). lia. }
      apply rc_value_bound; [lia|lia| | |lia].
      * intros k Hk. apply PX. exact Hk.
      * intros k Hk. apply Hdy. rewrite <- L2, L3.
        pose proof (Z.div_mod (bits + 1 + 1) 2 ltac:(lia)). pose proof (Z.mod_pos_bound (bits + 1 + 1) 2 ltac:(lia)). lia.
  - rewrite CX, CY, G2, Es. auto.
Qed.

Lemma cf_sound_l : forall T c w bits m x y row,
  wamount c = w -> (3 <= w)%Z -> (0 < bits < modulus_bits P)%Z -> C c 0 = 0%Z ->
  (cf_ok w bits = true \/ bits + 1 < modulus_bits P)%Z ->
  sat L T (cf_circuit c bits m x y row) ->
  (fval (vval T x) < 2 ^ bits)%Z /\
  (fval (vval T y) < 2 ^ (if cf_ok w bits then bits else bits + 1))%Z /\
  vval T (cf_result c bits row) = cmp_out m (fval (vval T x) ?= fval (vval T y))%Z.
Proof.
  intros T c w bits m x y row Hw H3 Hb HC Hok H.
  destruct (cf_sound_digits T c w bits m x y row Hw H3 ltac:(lia) HC H) as [X [Y [[BX BY] [EX [EY ER]]]]].
  cbv zeta in BY. set (e := if cf_ok w bits then bits else (bits + 1)%Z) in *.
  assert (Pb : (2 ^ bits <= char P)%Z) by (apply pow2_modulus; lia).
  assert (Pe : (2 ^ e <= char P)%Z).
  { subst e. destruct (cf_ok w bits); [exact Pb|]. apply pow2_modulus. destruct Hok; [discriminate|lia]. }
  assert (VX : fval (vval T x) = X) by (rewrite EX; apply fval_ofZ_small; lia).
  assert (VY : fval (vval T y) = Y) by (rewrite EY; apply fval_ofZ_small; lia).
  rewrite VX, VY. split; [lia|]. split; [lia|exact ER].
Qed.

(** ** The assignment *)

Lemma cf_flag_value : forall dx dy k, (0 <= k)%Z ->
  (forall j, (0 <= j < k)%Z -> (0 <= dx j < 4)%Z /\ (0 <= dy j < 4)%Z) ->
  cf_flag dx dy k = enc (horner 4 dx k ?= horner 4 dy k)%Z.
Proof.
  intros dx dy k Hk. pattern k. apply natlike_ind; [| |exact Hk]; clear k Hk.
  - intros _. reflexivity.
  - intros k Hk IH H. unfold Z.succ in *. unfold cf_flag. rewrite fold_zseq_snoc by lia.
    fold (cf_flag dx dy k : F). rewrite IH by (intros; apply H; lia).
    destruct (H k ltac:(lia)) as [Hx Hy]. rewrite horner_compare by lia.
    destruct (horner 4 dx k ?= horner 4 dy k)%Z; cbn [enc].
    + rewrite feqb_refl. destruct (Z.compare_spec (dx k) (dy k)) as [E|E|E]; cbn [enc].
      * rewrite E, Z.ltb_irrefl, Z.eqb_refl. reflexivity.
      * destruct (dy k <? dx k)%Z eqn:E1; [apply Z.ltb_lt in E1; lia|].
        destruct (dx k =? dy k)%Z eqn:E2; [apply Z.eqb_eq in E2; lia|]. reflexivity.
      * destruct (dy k <? dx k)%Z eqn:E1; [reflexivity|apply Z.ltb_ge in E1; lia].
    + rewrite (proj2 (feqb_neq P _ _) g_neq0). reflexivity.
    + rewrite (proj2 (feqb_neq P _ _) f01). reflexivity.
Qed.

Lemma cf_temp_value : forall dx dy k s, cf_flag dx dy k = enc s ->
  cf_temp dx dy k = match s with Eq => ofZ (dx k - dy k) | _ => enc s end.
Proof.
  intros dx dy k s E. unfold cf_temp. rewrite E. destruct s; cbn [enc].
  - rewrite feqb_refl. reflexivity.
  - rewrite (proj2 (feqb_neq P _ _) g_neq0). reflexivity.
  - rewrite (proj2 (feqb_neq P _ _) f01). reflexivity.
Qed.

Lemma cf_output_value : forall m s, cf_output m (enc s) = cmp_out m s.
Proof.
  intros m s. pose proof g_neq0 as N0. pose proof g_neq1 as N1. pose proof f01 as N2.
  assert (A1 : feqb (cf_g : F) f0 = false) by (apply feqb_neq; exact N0).
  assert (A2 : feqb (cf_g : F) f1 = false) by (apply feqb_neq; exact N1).
  assert (A3 : feqb (f0 : F) cf_g = false) by (apply feqb_neq; congruence).
  assert (A4 : feqb (f1 : F) cf_g = false) by (apply feqb_neq; congruence).
  assert (A5 : feqb (f1 : F) f0 = false) by (apply feqb_neq; congruence).
  assert (A6 : feqb (f0 : F) f1 = false) by (apply feqb_neq; congruence).
  assert (E1 : (ofZ 1 : F) = f1) by reflexivity. assert (E0 : (ofZ 0 : F) = f0) by reflexivity.
  assert (EM : (ofZ (-1) : F) = - f1) by (change (-1)%Z with (- (1))%Z; rewrite ofZ_opp; reflexivity).
  destruct m, s; cbn [enc cf_output cmp_out]; rewrite ?feqb_refl, ?A1, ?A2, ?A3, ?A4, ?A5, ?A6, ?E1, ?E0, ?EM;
    reflexivity.
Qed.

Definition cf_val (w bits : Z) (m : cmode) (dx dy : Z -> Z) (row : Z) (i r : Z) : F :=
  let n := cf_cmp w in
  let R := cf_groups w bits in
  let o := (r - row)%Z in
  let g := (o / 2)%Z in
  let j := ((i - 3) / 2)%Z in
  let out := cf_output m (cf_flag dx dy (cf_padded w bits)) in
  if (o mod 2 =? 0)%Z then
    if (i =? 0)%Z then fhorner (ofZ 4) (fun k => ofZ (dx k)) (g * n)
    else if (i =? 1)%Z then fhorner (ofZ 4) (fun k => ofZ (dy k)) (g * n)
    else if (i =? 2)%Z then cf_flag dx dy (g * n)
    else if (g =? R)%Z then out
    else if ((i - 3) mod 2 =? 0)%Z then cf_temp dx dy (g * n + j)
    else cf_flag dx dy (g * n + j + 1)
  else
    if (i =? 0)%Z then if (g =? R)%Z then out else ofZ (dx (g * n + (n - 1))%Z)
    else if (i =? 1)%Z then ofZ (dy (g * n + (n - 1))%Z)
    else if (i =? 2)%Z then cf_temp dx dy (g * n + (n - 1))
    else if ((i - 3) mod 2 =? 0)%Z then ofZ (dx (g * n + j)%Z)
    else ofZ (dy (g * n + j)%Z).

Lemma slot_even : forall j, ((3 + j * 2 - 3) mod 2 = 0)%Z /\ ((3 + j * 2 - 3) / 2 = j)%Z.
Proof. intros j. replace (3 + j * 2 - 3)%Z with (j * 2)%Z by ring. rewrite Z.mod_mul, Z.div_mul by lia. auto. Qed.
Lemma slot_odd : forall j, ((3 + j * 2 + 1 - 3) mod 2 = 1)%Z /\ ((3 + j * 2 + 1 - 3) / 2 = j)%Z.
Proof.
  intros j. replace (3 + j * 2 + 1 - 3)%Z with (1 + j * 2)%Z by ring. rewrite Z.mod_add, Z.div_add by lia.
  split; [reflexivity|]. change (1 / 2)%Z with 0%Z. lia.
Qed.

Lemma cf_writes_shape : forall c w bits m dx dy row col r v,
  wamount c = w -> (3 <= w)%Z -> (0 < bits)%Z ->
  In (col, r, v) (cf_writes c bits m dx dy row) ->
  (exists i, (0 <= i < w)%Z /\ col = W c i /\ v = cf_val w bits m dx dy row i r /\
             (((r - row) mod 2 = 1)%Z -> (i <= 2 * cf_cmp w)%Z)) /\
  (row <= r < row + cf_rows w bits)%Z.
Proof.
  intros c w bits m dx dy row col r v Hw H3 Hb HI.
  destruct (cf_layout w bits H3 Hb) as [L1 [LG [L2 [LR [LB _]]]]].
  destruct (cf_cmp_spec w H3) as [N1 N2].
  unfold cf_writes in HI. cbv zeta in HI. rewrite Hw, LG in HI. rewrite LR. unfold cf_val. cbv zeta.
  set (R := cf_groups w bits) in *. set (n := cf_cmp w) in *.
  assert (EV : forall g, (row + 2 * g + 2 = row + 2 * (g + 1))%Z) by (intros; ring).
  rewrite !in_app_iff in HI. destruct HI as [HI|[HI|HI]].
  - destruct HI as [E|[E|[E|[]]]]; inj3 E; (split; [|lia]).
    + exists 2%Z. split; [lia|]. split; [reflexivity|]. rewrite Z.sub_diag. split; [reflexivity|discriminate].
    + exists 1%Z. split; [lia|]. split; [reflexivity|]. rewrite Z.sub_diag. split; [reflexivity|discriminate].
    + exists 0%Z. split; [lia|]. split; [reflexivity|]. rewrite Z.sub_diag. split; [reflexivity|discriminate].
  - apply in_flat_map in HI. destruct HI as [g [Hg HI]]. apply in_zseq in Hg.
    rewrite in_app_iff in HI. destruct HI as [HI|HI].
    + apply in_flat_map in HI. destruct HI as [j [Hj HI]]. apply in_zseq in Hj.
      destruct HI as [E|[E|[E|[E|[]]]]]; inj3 E; (split; [|lia]).
      * exists (3 + j * 2)%Z. split; [lia|]. split; [reflexivity|]. destruct (odd_offset row g) as [-> ->].
        destruct (slot_even j) as [-> ->]. cbn [Z.eqb]. repeat zcase. split; [reflexivity|lia].
      * exists (3 + j * 2 + 1)%Z. split; [lia|]. split; [reflexivity|]. destruct (odd_offset row g) as [-> ->].
        destruct (slot_odd j) as [-> ->]. cbn [Z.eqb]. repeat zcase. split; [reflexivity|lia].
      * exists (3 + j * 2)%Z. split; [lia|]. split; [reflexivity|]. destruct (even_offset row g) as [-> ->].
        destruct (slot_even j) as [-> ->]. cbn [Z.eqb]. repeat zcase. split; [reflexivity|lia].
      * exists (3 + j * 2 + 1)%Z. split; [lia|]. split; [reflexivity|]. destruct (even_offset row g) as [-> ->].
        destruct (slot_odd j) as [-> ->]. cbn [Z.eqb]. repeat zcase. split; [reflexivity|lia].
    + assert (EK : (g * n + n - 1 = g * n + (n - 1))%Z) by ring.
      assert (EK1 : (g * n + (n - 1) + 1 = (g + 1) * n)%Z) by ring.
      rewrite EK, EK1 in HI.
      destruct HI as [E|[E|[E|[E|[E|[E|[]]]]]]]; inj3 E; (split; [|lia]).
      * exists 0%Z. split; [lia|]. split; [reflexivity|]. destruct (odd_offset row g) as [-> ->]. cbn [Z.eqb].
        zcase. split; [reflexivity|lia].
      * exists 1%Z. split; [lia|]. split; [reflexivity|]. destruct (odd_offset row g) as [-> ->]. cbn [Z.eqb].
        split; [reflexivity|lia].
      * exists 2%Z. split; [lia|]. split; [reflexivity|]. destruct (odd_offset row g) as [-> ->]. cbn [Z.eqb].
        split; [reflexivity|lia].
      * exists 2%Z. split; [lia|]. split; [reflexivity|]. rewrite EV. destruct (even_offset row (g + 1)) as [-> ->].
        cbn [Z.eqb]. split; [reflexivity|lia].
      * exists 0%Z. split; [lia|]. split; [reflexivity|]. rewrite EV. destruct (even_offset row (g + 1)) as [-> ->].
        cbn [Z.eqb]. split; [reflexivity|lia].
      * exists 1%Z. split; [lia|]. split; [reflexivity|]. rewrite EV. destruct (even_offset row (g + 1)) as [-> ->].
        cbn [Z.eqb]. split; [reflexivity|lia].
  - destruct HI as [E|[]].
    destruct (cf_bonus w =? 0)%Z eqn:EB; [apply Z.eqb_eq in EB|apply Z.eqb_neq in EB]; inj3 E; (split; [|lia]).
    + assert (4 <= w)%Z.
      { unfold cf_bonus in EB. destruct (w <=? 3)%Z eqn:E3; [lia|]. apply Z.leb_gt in E3. lia. }
      exists 3%Z. split; [lia|]. split; [reflexivity|]. destruct (even_offset row R) as [-> ->]. cbn [Z.eqb].
      rewrite Z.eqb_refl. split; [reflexivity|lia].
    + exists 0%Z. split; [lia|]. split; [reflexivity|]. destruct (odd_offset row R) as [-> ->]. cbn [Z.eqb].
      rewrite Z.eqb_refl. split; [reflexivity|lia].
Qed.

Definition cf_filled T (c : comp) (w bits : Z) (m : cmode) (dx dy : Z -> Z) (row : Z) : Prop :=
  let R := cf_groups w bits in
  let n := cf_cmp w in
  (forall k, (0 <= k < R * n)%Z -> cfx T c w row k = ofZ (dx k) /\ cfy T c w row k = ofZ (dy k) /\
                                   cft T c w row k = cf_temp dx dy k) /\
  (forall k, (0 <= k <= R * n)%Z -> cff T c w row k = cf_flag dx dy k) /\
  (forall i, (0 <= i <= R)%Z -> T CWit (W c 0) (row + 2 * i)%Z = ofZ (horner 4 dx (i * n))) /\
  (forall i, (0 <= i <= R)%Z -> T CWit (W c 1) (row + 2 * i)%Z = ofZ (horner 4 dy (i * n))) /\
  vval T (cf_result c bits row) = cf_output m (cf_flag dx dy (cf_padded w bits)).

Lemma cf_writes_filled : forall T c w bits m dx dy row, wf_comp c w -> (3 <= w)%Z -> (0 < bits)%Z ->
  let T' := wsets T (cf_writes c bits m dx dy row) in
  cf_filled T' c w bits m dx dy row /\ frame c (cf_rows w bits) row T T' /\
  (forall i, (2 * cf_cmp w < i < w)%Z -> T' CWit (W c i) (row + 1)%Z = T CWit (W c i) (row + 1)%Z).
Proof.
  intros T c w bits m dx dy row Hwf H3 Hb T'.
  pose proof Hwf as [_ [Hw _]].
  destruct (cf_layout w bits H3 Hb) as [L1 [LG [L2 [LR [LB _]]]]].
  destruct (cf_cmp_spec w H3) as [N1 N2].
  set (ws := cf_writes c bits m dx dy row) in *.
  set (R := cf_groups w bits) in *. set (n := cf_cmp w) in *.
  assert (RD : forall i r, (0 <= i < w)%Z -> (exists v, In (W c i, r, v) ws) ->
    T' CWit (W c i) r = cf_val w bits m dx dy row i r).
  { intros i r Hi Hv. apply (wsets_val P T c w ws _ Hwf); auto.
    intros col r0 v HI. apply (cf_writes_shape c w bits m) in HI; auto.
    destruct HI as [[i' [A [B [D _]]]] _]. exists i'. auto. }
  assert (IN : forall g e, (0 <= g < R)%Z ->
    In e (flat_map (fun j =>
      [(W c (3 + j * 2), row + 2 * g + 1, ofZ (dx (g * n + j))); (W c (3 + j * 2 + 1), row + 2 * g + 1, ofZ (dy (g * n + j)));
       (W c (3 + j * 2), row + 2 * g, cf_temp dx dy (g * n + j)); (W c (3 + j * 2 + 1), row + 2 * g, cf_flag dx dy (g * n + j + 1))]%Z)
      (zseq 0 (n - 1)) ++
    [(W c 0, row + 2 * g + 1, ofZ (dx (g * n + n - 1))); (W c 1, row + 2 * g + 1, ofZ (dy (g * n + n - 1)));
     (W c 2, row + 2 * g + 1, cf_temp dx dy (g * n + n - 1)); (W c 2, row + 2 * g + 2, cf_flag dx dy (g * n + n - 1 + 1));
     (W c 0, row + 2 * g + 2, fhorner (ofZ 4) (fun k => ofZ (dx k)) (g * n + n - 1 + 1));
     (W c 1, row + 2 * g + 2, fhorner (ofZ 4) (fun k => ofZ (dy k)) (g * n + n - 1 + 1))]%Z) -> In e ws).
  { intros g e Hg He. unfold ws, cf_writes. cbv zeta. rewrite Hw, LG. apply in_or_app. right. apply in_or_app. left.
    apply in_flat_map. exists g. split; [apply in_zseq; lia|exact He]. }
  assert (FH : forall (d : Z -> Z) k, fhorner (ofZ 4) (fun k => ofZ (d k) : F) k = ofZ (horner 4 d k)).
  { intros d k. apply fhorner_ofZ. reflexivity. }
  assert (INJ : forall g j e, (0 <= g < R)%Z -> (0 <= j < n - 1)%Z ->
    In e [(W c (3 + j * 2), row + 2 * g + 1, ofZ (dx (g * n + j))); (W c (3 + j * 2 + 1), row + 2 * g + 1, ofZ (dy (g * n + j)));
       (W c (3 + j * 2), row + 2 * g, cf_temp dx dy (g * n + j)); (W c (3 + j * 2 + 1), row + 2 * g, cf_flag dx dy (g * n + j + 1))]%Z
    -> In e ws).
  { intros g j e Hg Hj He. apply (IN g e Hg). apply in_or_app. left. apply in_flat_map. exists j.
    split; [apply in_zseq; lia|exact He]. }
  assert (INL : forall g e, (0 <= g < R)%Z -> In e 
    [(W c 0, row + 2 * g + 1, ofZ (dx (g * n + n - 1))); (W c 1, row + 2 * g + 1, ofZ (dy (g * n + n - 1)));
     (W c 2, row + 2 * g + 1, cf_temp dx dy (g * n + n - 1)); (W c 2, row + 2 * g + 2, cf_flag dx dy (g * n + n - 1 + 1));
     (W c 0, row + 2 * g + 2, fhorner (ofZ 4) (fun k => ofZ (dx k)) (g * n + n - 1 + 1));
     (W c 1, row + 2 * g + 2, fhorner (ofZ 4) (fun k => ofZ (dy k)) (g * n + n - 1 + 1))]%Z -> In e ws).
  { intros g e Hg He. apply (IN g e Hg). apply in_or_app. right. exact He. }
  (* reading the three running cells of an even row *)
  assert (EVEN : forall i q, (0 <= q < 3)%Z -> (0 <= i <= R)%Z -> exists v, In (W c q, (row + 2 * i)%Z, v) ws).
  { intros i q Hq Hi. destruct (Z.eq_dec i 0) as [->|Ni].
    - exists f0. unfold ws, cf_writes. cbv zeta. rewrite Z.add_0_r.
      assert (K : (q = 0 \/ q = 1 \/ q = 2)%Z) by lia. destruct K as [-> |[-> | ->]]; cbn; auto.
    - assert (E : (row + 2 * i = row + 2 * (i - 1) + 2)%Z) by ring. rewrite E.
      assert (K : (q = 0 \/ q = 1 \/ q = 2)%Z) by lia. destruct K as [-> |[-> | ->]].
      + eexists. apply (INL (i - 1)%Z); [lia|]. do 4 right. left. reflexivity.
      + eexists. apply (INL (i - 1)%Z); [lia|]. do 5 right. left. reflexivity.
      + eexists. apply (INL (i - 1)%Z); [lia|]. do 3 right. left. reflexivity. }
  split; [|split].
  - split; [|split; [|split; [|split]]]; fold R; fold n.
    + intros k Hk. pose proof (Z.div_mod k n ltac:(lia)) as DM.
      pose proof (Z.mod_pos_bound k n ltac:(lia)) as MB.
      set (g := (k / n)%Z) in *. set (j := (k mod n)%Z) in *.
      assert (Hg : (0 <= g < R)%Z) by nia.
      assert (Ek : k = (g * n + j)%Z) by lia. rewrite Ek. clear DM. clearbody g j. subst k.
      destruct (Z.eq_dec j (n - 1)) as [->|Nj].
      * destruct (cfx_last T' c w row g H3) as [X0 [Y0 [T0 _]]]. fold n in X0, Y0, T0. rewrite X0, Y0, T0.
        split; [|split].
        -- rewrite RD; [|lia|eexists; apply (INL g); [lia|]; left; reflexivity].
           unfold cf_val. cbv zeta. destruct (odd_offset row g) as [-> ->]. cbn [Z.eqb]. fold R. zcase. reflexivity.
        -- rewrite RD; [|lia|eexists; apply (INL g); [lia|]; right; left; reflexivity].
           unfold cf_val. cbv zeta. destruct (odd_offset row g) as [-> ->]. reflexivity.
        -- rewrite RD; [|lia|eexists; apply (INL g); [lia|]; right; right; left; reflexivity].
           unfold cf_val. cbv zeta. destruct (odd_offset row g) as [-> ->]. reflexivity.
      * destruct (cfx_ij T' c w row g j H3 ltac:(fold n; lia)) as [X0 [Y0 [T0 _]]]. fold n in X0, Y0, T0. rewrite X0, Y0, T0.
        rewrite (Z.mul_comm 2 j).
        split; [|split].
        -- rewrite RD; [|lia|eexists; apply (INJ g j); [lia|lia|]; left; reflexivity].
           unfold cf_val. cbv zeta. destruct (odd_offset row g) as [-> ->]. destruct (slot_even j) as [-> ->].
           cbn [Z.eqb]. repeat zcase. reflexivity.
        -- rewrite RD; [|lia|eexists; apply (INJ g j); [lia|lia|]; right; left; reflexivity].
           unfold cf_val. cbv zeta. destruct (odd_offset row g) as [-> ->]. destruct (slot_odd j) as [-> ->].
           cbn [Z.eqb]. repeat zcase. reflexivity.
        -- rewrite RD; [|lia|eexists; apply (INJ g j); [lia|lia|]; right; right; left; reflexivity].
           unfold cf_val. cbv zeta. destruct (even_offset row g) as [-> ->]. destruct (slot_even j) as [-> ->].
           cbn [Z.eqb]. fold R. repeat zcase. reflexivity.
    + intros k Hk. pose proof (Z.div_mod k n ltac:(lia)) as DM.
      pose proof (Z.mod_pos_bound k n ltac:(lia)) as MB.
      set (g := (k / n)%Z) in *. set (j := (k mod n)%Z) in *.
      assert (Hg : (0 <= g <= R)%Z) by nia.
      assert (Ek : k = (g * n + j)%Z) by lia. rewrite Ek.
      assert (Hj : (j = 0 \/ (1 <= j /\ g < R))%Z) by nia. clear DM. clearbody g j. subst k.
      destruct (Z.eq_dec j 0) as [->|Nj].
      * rewrite Z.add_0_r. unfold n. rewrite cff_start by lia. fold n.
        rewrite RD; [|lia|apply EVEN; lia].
        unfold cf_val. cbv zeta. destruct (even_offset row g) as [-> ->]. cbn [Z.eqb]. fold n. reflexivity.
      * destruct (cfx_ij T' c w row g (j - 1) H3 ltac:(fold n; lia)) as [_ [_ [_ [_ F0]]]]. fold n in F0.
        replace (g * n + (j - 1) + 1)%Z with (g * n + j)%Z in F0 by ring. rewrite F0.
        rewrite (Z.mul_comm 2 (j - 1)).
        rewrite RD; [|lia|eexists; apply (INJ g (j - 1)%Z); [lia|lia|]; right; right; right; left; reflexivity].
        unfold cf_val. cbv zeta. destruct (even_offset row g) as [-> ->]. destruct (slot_odd (j - 1)) as [-> ->].
        cbn [Z.eqb]. fold R. repeat zcase. fold n. f_equal. ring.
    + intros i Hi. rewrite RD; [|lia|apply EVEN; lia].
      unfold cf_val. cbv zeta. destruct (even_offset row i) as [-> ->]. cbn [Z.eqb]. apply FH.
    + intros i Hi. rewrite RD; [|lia|apply EVEN; lia].
      unfold cf_val. cbv zeta. destruct (even_offset row i) as [-> ->]. cbn [Z.eqb]. apply FH.
    + unfold cf_result. rewrite Hw, LR, vval_wcell.
      assert (IL : In (if (cf_bonus w =? 0)%Z then (W c 3, row + 2 * R, cf_output m (cf_flag dx dy (cf_padded w bits)))%Z
         else (W c 0, row + 2 * R + 1, cf_output m (cf_flag dx dy (cf_padded w bits)))%Z) ws).
      { unfold ws, cf_writes. cbv zeta. rewrite Hw, LG. rewrite !in_app_iff. right. right. left. reflexivity. }
      destruct (cf_bonus w =? 0)%Z eqn:EB.
      * apply Z.eqb_eq in EB. assert (4 <= w)%Z.
        { unfold cf_bonus in EB. destruct (w <=? 3)%Z eqn:E3; [lia|]. apply Z.leb_gt in E3. lia. }
        replace (row + (2 * R + 1 + cf_bonus w) - 1)%Z with (row + 2 * R)%Z by lia.
        rewrite RD; [|lia|eexists; exact IL].
        unfold cf_val. cbv zeta. destruct (even_offset row R) as [-> ->]. cbn [Z.eqb]. fold R. rewrite Z.eqb_refl. reflexivity.
      * apply Z.eqb_neq in EB. replace (row + (2 * R + 1 + cf_bonus w) - 1)%Z with (row + 2 * R + 1)%Z by lia.
        rewrite RD; [|lia|eexists; exact IL].
        unfold cf_val. cbv zeta. destruct (odd_offset row R) as [-> ->]. cbn [Z.eqb]. fold R. rewrite Z.eqb_refl. reflexivity.
  - apply (wsets_frame P c w); auto. intros col r v HI.
    apply (cf_writes_shape c w bits m) in HI; auto. destruct HI as [[i [_ [E _]]] B].
    split; [exists i; exact E|exact B].
  - intros i Hi. apply wsets_other. intros v HI.
    apply (cf_writes_shape c w bits m) in HI; auto. destruct HI as [[i' [A [B [_ D]]]] _].
    apply (W_inj c w) in B; auto; [|lia]. subst i'. fold n in D.
    replace (row + 1 - row)%Z with 1%Z in D by ring. specialize (D eq_refl). lia.
Qed.

(** Any chunks in range satisfy the constraints. *)
Lemma cf_core : forall T' c w bits m x y row dx dy,
  wamount c = w -> (3 <= w)%Z -> (0 < bits)%Z -> C c 0 = 0%Z ->
  let N := cf_padded w bits in
  let pad := cf_padding w bits in
  (forall k, (0 <= k < N)%Z -> (0 <= dx k < 4)%Z /\ (0 <= dy k < 4)%Z) ->
  (forall k, (0 <= k < pad)%Z -> dx k = 0%Z /\ dy k = 0%Z) ->
  ((bits mod 2 = 1)%Z -> digit P 2 (T' CWit (W c (3 + 2 * pad)) (row + 1)%Z) /\
                         digit P 2 (T' CWit (W c (3 + 2 * pad + 1)) (row + 1)%Z)) ->
  cf_filled T' c w bits m dx dy row -> T' CConst 0%Z row = f0 ->
  vval T' x = ofZ (horner 4 dx N) -> vval T' y = ofZ (horner 4 dy N) ->
  sat L T' (cf_circuit c bits m x y row) /\
  vval T' (cf_result c bits row) = cmp_out m (horner 4 dx N ?= horner 4 dy N)%Z.
Proof.
  intros T' c w bits m x y row dx dy Hw H3 Hb HC N pad HR HZ H2 FL K Ex Ey.
  destruct (cf_layout w bits H3 Hb) as [L1 [_ [L2 [_ [_ [PB [L3 _]]]]]]].
  destruct (cf_cmp_spec w H3) as [N1 N2].
  destruct FL as [FD [FF [FX [FY FO]]]].
  set (R := cf_groups w bits) in *. set (last := (row + 2 * R)%Z) in *. set (n := cf_cmp w) in *. fold N in L2, L3, FO.
  assert (FV : forall k, (0 <= k <= R * n)%Z -> cff T' c w row k = enc (horner 4 dx k ?= horner 4 dy k)%Z).
  { intros k Hk. rewrite FF by lia. apply cf_flag_value; [lia|]. intros j Hj. apply HR. lia. }
  assert (HL : T' CWit (W c 2) last = enc (horner 4 dx N ?= horner 4 dy N)%Z).
  { rewrite L2. rewrite <- FV by lia. unfold n. rewrite cff_start by lia. reflexivity. }
  assert (RES : vval T' (cf_result c bits row) = cmp_out m (horner 4 dx N ?= horner 4 dy N)%Z).
  { rewrite FO. rewrite cf_flag_value by (try lia; auto). apply cf_output_value. }
  split; [|exact RES].
  apply (proj1 (cf_sat_iff T' c w bits m x y row Hw H3 Hb HC) _ HL).
  split; [exact K|]. split.
  { intros i Hi. fold R in Hi. split; [|split].
    - fold n. intros j Hj k. assert (Hk : (0 <= k < R * n)%Z) by (subst k; nia).
      destruct (FD k Hk) as [-> [-> ->]]. destruct (HR k ltac:(lia)) as [HX HY].
      rewrite (FV k ltac:(lia)), (FV (k + 1)%Z ltac:(lia)).
      split; [exists (dx k); auto|]. split; [exists (dy k); auto|].
      split; [eexists; reflexivity|].
      rewrite horner_compare by lia.
      rewrite (cf_temp_value dx dy k (horner 4 dx k ?= horner 4 dy k)%Z).
      + assert (EN : forall s r, match s with Eq => r | Lt => Lt | Gt => Gt end = next s r) by (intros [] ?; reflexivity).
        rewrite EN. apply flag_step_complete; assumption.
      + rewrite <- FF by lia. apply FV. lia.
    - apply (sums_step P (fun i => T' CWit (W c 0) (row + 2 * i)%Z) (cfx T' c w row) dx n R); auto; try lia.
      intros k Hk. apply FD. exact Hk.
    - apply (sums_step P (fun i => T' CWit (W c 1) (row + 2 * i)%Z) (cfy T' c w row) dy n R); auto; try lia.
      intros k Hk. apply FD. exact Hk. }
  split; [exact RES|]. split; [exact H2|].
  split; [replace row with (row + 2 * 0)%Z at 1 by ring; rewrite FX by lia; reflexivity|].
  split; [replace row with (row + 2 * 0)%Z at 1 by ring; rewrite FY by lia; reflexivity|].
  split.
  { pose proof (cff_start T' c w row 0 H3) as A. rewrite Z.mul_0_l, Z.mul_0_r, Z.add_0_r in A. rewrite <- A.
    rewrite FV by nia. reflexivity. }
  split.
  { fold pad. intros k Hk. assert (Hk2 : (0 <= k < R * n)%Z).
    { pose proof (Z.div_mod (bits + 1) 2 ltac:(lia)). pose proof (Z.mod_pos_bound (bits + 1) 2 ltac:(lia)). 
      rewrite <- L2, L3. fold pad. lia. }
    destruct (FD k Hk2) as [-> [-> _]]. destruct (HZ k Hk) as [-> ->]. split; reflexivity. }
  fold R. fold last. unfold last. rewrite FX, FY by lia. rewrite Ex, Ey, L2. split; reflexivity.
Qed.

Lemma cf_const_in : forall T c bits m x y row, C c 0 = 0%Z -> consts_in T (cf_circuit c bits m x y row) ->
  T CConst 0%Z row = f0.
Proof.
  intros T c bits m x y row HC H. apply (H 0%Z row f0). unfold cf_circuit. rewrite HC.
  rewrite !in_app_iff. right. right. right. left. reflexivity.
Qed.

Lemma cf_complete_l : forall T c w bits m x y row,
  wf_comp c w -> (3 <= w)%Z -> (0 < bits)%Z -> C c 0 = 0%Z ->
  (cf_ok w bits = true \/ T CWit (W c (w - 1)) (row + 1)%Z = f0) ->
  outside c (cf_rows w bits) row x -> outside c (cf_rows w bits) row y ->
  consts_in T (cf_circuit c bits m x y row) ->
  (fval (vval T x) < 2 ^ bits)%Z -> (fval (vval T y) < 2 ^ bits)%Z ->
  let T' := cf_assign c bits m x y row T in
  sat L T' (cf_circuit c bits m x y row) /\ frame c (cf_rows w bits) row T T' /\
  vval T' (cf_result c bits row) = cmp_out m (fval (vval T x) ?= fval (vval T y))%Z.
Proof.
  intros T c w bits m x y row Hwf H3 Hb HC Hok HOx HOy HK Hx Hy T'.
  pose proof Hwf as [_ [Hw _]].
  destruct (cf_layout w bits H3 Hb) as [L1 [_ [L2 [_ [_ [PB [L3 L4]]]]]]].
  destruct (cf_cmp_spec w H3) as [N1 N2].
  set (pb := cf_padding_bits w bits) in *. set (pad := cf_padding w bits) in *.
  set (dx := pchunk pb bits (fval (vval T x))). set (dy := pchunk pb bits (fval (vval T y))).
  assert (ET : T' = wsets T (cf_writes c bits m dx dy row)).
  { unfold T', cf_assign. rewrite Hw. reflexivity. }
  destruct (cf_writes_filled T c w bits m dx dy row Hwf H3 Hb) as [FL [FR FU]].
  rewrite <- ET in FL, FR, FU.
  pose proof (Z.mod_pos_bound bits 2 ltac:(lia)) as MB.
  pose proof (fval_range P (vval T x)) as RX. pose proof (fval_range P (vval T y)) as RY.
  assert (E2 : (2 * cf_padded w bits = pb + bits)%Z) by (unfold pb, cf_padding_bits; ring).
  assert (VX : horner 4 dx (cf_padded w bits) = fval (vval T x)).
  { unfold dx. rewrite pchunk_value by lia. apply Z.mod_small. lia. }
  assert (VY : horner 4 dy (cf_padded w bits) = fval (vval T y)).
  { unfold dy. rewrite pchunk_value by lia. apply Z.mod_small. lia. }
  assert (HpadN : (0 <= pad < cf_groups w bits * cf_cmp w)%Z).
  { rewrite <- L2, L3. pose proof (Z.div_mod (bits + 1) 2 ltac:(lia)).
    pose proof (Z.mod_pos_bound (bits + 1) 2 ltac:(lia)). lia. }
  assert (CORE : sat L T' (cf_circuit c bits m x y row) /\
    vval T' (cf_result c bits row) = cmp_out m (horner 4 dx (cf_padded w bits) ?= horner 4 dy (cf_padded w bits))%Z).
  { apply (cf_core T' c w bits m x y row dx dy); auto.
    - intros k Hk. split; apply pchunk_range.
    - intros k Hk. split; apply pchunk_zero; fold pad in Hk; lia.
    - fold pad. intros E1.
      assert (DX : digit P 2 (cfx T' c w row pad) /\ digit P 2 (cfy T' c w row pad)).
      { destruct FL as [FD _]. destruct (FD pad HpadN) as [-> [-> _]].
        split; eexists; (split; [|reflexivity]); apply pchunk_first; lia. }
      destruct (Z_lt_le_dec pad (cf_cmp w - 1)) as [Lp|Lp].
      + destruct (cfx_ij T' c w row 0 pad H3 ltac:(lia)) as [XX [YY _]].
        rewrite Z.mul_0_l, Z.add_0_l, Z.mul_0_r, Z.add_0_r in XX, YY. rewrite <- XX, <- YY. exact DX.
      + assert (Ep : pad = (cf_cmp w - 1)%Z) by lia.
        destruct (cfx_last T' c w row 0 H3) as [XX [YY _]].
        rewrite Z.mul_0_l, Z.add_0_l, Z.mul_0_r, Z.add_0_r, <- Ep in XX, YY.
        destruct N2 as [N2|N2].
        * replace (3 + 2 * pad)%Z with (0 + w)%Z by lia. replace (0 + w + 1)%Z with (1 + w)%Z by lia.
          rewrite !(W_wrap' c w) by lia. rewrite <- XX, <- YY. exact DX.
        * destruct Hok as [Hok|Hok].
          { exfalso. unfold cf_ok in Hok.
            apply orb_prop in Hok. destruct Hok as [O|O]; [apply orb_prop in O; destruct O as [O|O]|].
            - apply Z.eqb_eq in O. lia.
            - apply negb_true_iff, Z.eqb_neq in O. apply O. rewrite N2.
              replace (2 * cf_cmp w + 2)%Z with (0 + (cf_cmp w + 1) * 2)%Z by ring. rewrite Z.mod_add by lia. reflexivity.
            - apply Z.ltb_lt in O. fold pad in O. lia. }
          replace (3 + 2 * pad)%Z with (w - 1)%Z by lia. replace (w - 1 + 1)%Z with (0 + w)%Z by lia.
          rewrite (W_wrap' c w) by lia. rewrite <- XX. split; [|apply DX].
          rewrite FU by lia. rewrite Hok. exists 0%Z. split; [lia|reflexivity].
    - rewrite FR; [|intros [A _]; discriminate]. apply (cf_const_in T c bits m x y row HC HK).
    - rewrite VX, ofZ_fval. apply (vval_frame P c _ _ _ _ _ FR HOx).
    - rewrite VY, ofZ_fval. apply (vval_frame P c _ _ _ _ _ FR HOy). }
  rewrite VX, VY in CORE. destruct CORE as [C1 C2]. auto.
Qed.

(** The value computed without a table, and the one read after
    generate_empty_assignments. *)
Lemma cf_calculate_l : forall w bits m (xv yv : F), (3 <= w)%Z -> (0 < bits)%Z ->
  cf_calculate w bits m xv yv = cmp_out m (fval xv mod 2 ^ bits ?= fval yv mod 2 ^ bits)%Z.
Proof.
  intros w bits m xv yv H3 Hb. destruct (cf_layout w bits H3 Hb) as [L1 [_ [L2 [_ [_ [PB [L3 L4]]]]]]].
  pose proof (Z.mod_pos_bound bits 2 ltac:(lia)) as MB. destruct (cf_cmp_spec w H3) as [N1 N2].
  unfold cf_calculate. cbv zeta. rewrite cf_flag_value.
  - rewrite cf_output_value. rewrite !pchunk_value; try lia; [reflexivity| |]; unfold cf_padding_bits; ring.
  - nia.
  - intros j Hj. split; apply pchunk_range.
Qed.

Lemma cf_empty_agree_l : forall T c w bits m x y row,
  wf_comp c w -> (3 <= w)%Z -> (0 < bits)%Z ->
  vval (cf_empty c bits m x y row T) (cf_empty_result c row) =
  vval (cf_assign c bits m x y row T) (cf_result c bits row).
Proof.
  intros T c w bits m x y row Hwf H3 Hb. pose proof Hwf as [_ [Hw _]].
  destruct (cf_writes_filled T c w bits m (pchunk (cf_padding_bits w bits) bits (fval (vval T x)))
    (pchunk (cf_padding_bits w bits) bits (fval (vval T y))) row Hwf H3 Hb) as [[_ [_ [_ [_ FO]]]] _].
  unfold cf_assign. rewrite Hw. rewrite FO. unfold cf_empty, cf_empty_result. rewrite vval_wcell, wset_same, Hw. reflexivity.
Qed.

End Proofs.
