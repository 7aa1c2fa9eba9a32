(** Proofs about gate_component and basic_constraints_verifier. *)
From Coq Require Import ZArith List Lia Bool Field.
From Verif Require Import Base Field Plonk PlonkFacts Bits FieldOpsModel FieldOpsProofs
  FlexModel FlexProofs PvModel PvSpec PvTape.
Import ListNotations.
Open Scope Z_scope.

(** ** The enabled selectors of gate_component *)

(** The index of the last selector and its row. *)
Definition gc_final (w d : Z) : Z * Z :=
  ((if gc_extra w d then gc_last w d + 3 else w + gc_last w d + 3), gc_rows w d - 1).

Lemma gc_rows_eq : forall w d, 3 <= w -> 1 <= d ->
  gc_rows w d = (2 * d - 1) / (w - 1) + 1 + (if gc_extra w d then 1 else 0).
Proof. intros w d Hw Hd. unfold gc_rows. rewrite ceil_rows_pred by lia. lia. Qed.

Lemma even_steps : forall hi i, In i (zsteps 2 hi 2) <-> 1 <= i < hi /\ i mod 2 = 0.
Proof.
  intros hi i. rewrite in_zsteps by lia. pose proof (Z.div_mod i 2 ltac:(lia)). split.
  - intros [k [K1 [K2 K3]]]. split; [lia|]. replace i with ((k + 1) * 2) by lia. apply Z.mod_mul. lia.
  - intros [K1 K2]. exists (i / 2 - 1). lia.
Qed.
Lemma odd_steps : forall hi i, In i (zsteps 1 hi 2) <-> 1 <= i < hi /\ (1 + i) mod 2 = 0.
Proof.
  intros hi i. rewrite in_zsteps by lia. pose proof (Z.div_mod (1 + i) 2 ltac:(lia)). split.
  - intros [k [K1 [K2 K3]]]. split; [lia|]. replace (1 + i) with ((k + 1) * 2) by lia. apply Z.mod_mul. lia.
  - intros [K1 K2]. exists ((1 + i) / 2 - 1). lia.
Qed.

Lemma in_tmp : forall v r hi i, 0 <= r ->
  (In i (zsteps (2 - v mod 2 * (r mod 2)) hi 2) <-> 1 <= i < hi /\ (r * v + i) mod 2 = 0).
Proof.
  intros v r hi i Hr.
  assert (M : (r * v + i) mod 2 = ((r mod 2) * (v mod 2) + i) mod 2).
  { rewrite (Zplus_mod (r * v)), (Zmult_mod r v), <- Zplus_mod. reflexivity. }
  rewrite M. clear M.
  pose proof (Z.mod_pos_bound r 2 ltac:(lia)) as B1. pose proof (Z.mod_pos_bound v 2 ltac:(lia)) as B2.
  revert B1 B2. generalize (r mod 2). generalize (v mod 2). intros b a B1 B2.
  assert (Ha : a = 0 \/ a = 1) by lia. assert (Hb : b = 0 \/ b = 1) by lia.
  destruct Ha as [-> | ->], Hb as [-> | ->]; [apply even_steps|apply even_steps|apply even_steps|apply odd_steps].
Qed.

(** The pairs enabled for the running sums: position [p] of the strip. *)
Definition gc_odd (w d : Z) (ir : Z * Z) : Prop :=
  exists k, 1 <= k < d /\ ir = ((2 * k + 1) mod (w - 1) + 1, (2 * k + 1) / (w - 1)).

Lemma gc_odd_alt : forall w d i r, 3 <= w ->
  (gc_odd w d (i, r) <->
   0 <= r /\ 1 <= i < w /\ (r * (w - 1) + i) mod 2 = 0 /\ 3 <= r * (w - 1) + i - 1 <= 2 * d - 1).
Proof.
  intros w d i r Hw. unfold gc_odd. split.
  - intros [k [Hk E]]. pose proof (f_equal fst E) as E1. pose proof (f_equal snd E) as E2.
    cbn [fst snd] in E1, E2. subst i r. clear E.
    pose proof (Z.div_mod (2 * k + 1) (w - 1) ltac:(lia)) as D.
    pose proof (Z.mod_pos_bound (2 * k + 1) (w - 1) ltac:(lia)) as M.
    assert (0 <= (2 * k + 1) / (w - 1)) by (apply Z.div_pos; lia).
    replace ((2 * k + 1) / (w - 1) * (w - 1) + ((2 * k + 1) mod (w - 1) + 1)) with (2 * k + 2) by lia.
    split; [lia|]. split; [lia|]. split; [|lia]. replace (2 * k + 2) with ((k + 1) * 2) by lia. apply Z.mod_mul. lia.
  - intros [Hr [Hi [Ev Rg]]].
    pose proof (Z.div_mod (r * (w - 1) + i) 2 ltac:(lia)) as D. rewrite Ev in D.
    exists ((r * (w - 1) + i) / 2 - 1). split; [lia|].
    replace (2 * ((r * (w - 1) + i) / 2 - 1) + 1) with (r * (w - 1) + (i - 1)) by lia.
    destruct (pos_div (w - 1) r (i - 1) ltac:(lia)) as [-> ->]. f_equal. lia.
Qed.

Lemma gc_enabled_spec : forall w d ir, 3 <= w -> 1 <= d ->
  (In ir (gc_enabled w d) <-> ir = (0, 0) \/ gc_odd w d ir \/ ir = gc_final w d).
Proof.
  intros w d [i r] Hw Hd. rewrite gc_odd_alt by lia.
  unfold gc_enabled, gc_final. pose proof (gc_rows_eq w d Hw Hd) as N.
  assert (La : gc_last w d = (2 * d - 1) mod (w - 1) + 1) by reflexivity.
  pose proof (Z.div_mod (2 * d - 1) (w - 1) ltac:(lia)) as D.
  pose proof (Z.mod_pos_bound (2 * d - 1) (w - 1) ltac:(lia)) as M.
  assert (R0 : 0 <= (2 * d - 1) / (w - 1)) by (apply Z.div_pos; lia).
  remember (gc_last w d) as last eqn:El. remember (gc_rows w d) as n eqn:En.
  remember ((2 * d - 1) / (w - 1)) as R eqn:ER. remember (gc_extra w d) as ex eqn:Eex.
  clear El En Eex ER.
  assert (HD : 2 * d - 1 = R * (w - 1) + last - 1) by lia.
  assert (HL : 1 <= last < w) by lia. clear D La M.
  (* positions up to the last one, row by row *)
  assert (LT : forall r i, 1 <= i < w ->
     (r * (w - 1) + i - 1 <= 2 * d - 1 <-> r < R \/ (r = R /\ i <= last))).
  { clear - HD HL Hw. intros r i Hi. rewrite HD. split.
    - intros H. destruct (Z.lt_trichotomy r R) as [|[E|G]]; [tauto|subst; right; split; lia|].
      assert ((R + 1) * (w - 1) <= r * (w - 1)) by (apply Z.mul_le_mono_nonneg_r; lia). lia.
    - intros [H|[-> H]]; [|lia].
      assert ((r + 1) * (w - 1) <= R * (w - 1)) by (apply Z.mul_le_mono_nonneg_r; lia). lia. }
  assert (G3 : forall r i, 1 <= r -> 1 <= i < w -> (r * (w - 1) + i) mod 2 = 0 -> 3 <= r * (w - 1) + i - 1).
  { clear - Hw. intros r i Hr Hi E.
    assert (1 * (w - 1) <= r * (w - 1)) by (apply Z.mul_le_mono_nonneg_r; lia).
    assert (r * (w - 1) + i <> 3); [|lia]. intros X. rewrite X in E. discriminate. }
  rewrite in_app_iff. cbn [In].
  assert (F0 : forall hi, In (i, r) (map (fun i => (i, 0)) (zsteps 4 (hi + 1) 2)) <->
               r = 0 /\ 4 <= i <= hi /\ i mod 2 = 0).
  { clear. intros hi. rewrite in_map_iff. setoid_rewrite in_zsteps; [|lia]. split.
    - intros [x [E [k [K1 [K2 K3]]]]]. injection E as -> <-. split; [reflexivity|]. split; [lia|].
      rewrite K2. replace (4 + 2 * k) with ((k + 2) * 2) by lia. apply Z.mod_mul. lia.
    - intros [-> [H1 H2]]. exists i. split; [reflexivity|]. exists (i / 2 - 2).
      pose proof (Z.div_mod i 2 ltac:(lia)). lia. }
  assert (FR : forall r0 hi, 0 <= r0 ->
     (In (i, r) (map (fun i => (i, r0)) (zsteps (2 - (w - 1) mod 2 * (r0 mod 2)) hi 2)) <->
      r = r0 /\ 1 <= i < hi /\ (r * (w - 1) + i) mod 2 = 0)).
  { clear. intros r0 hi Hr. rewrite in_map_iff. setoid_rewrite in_tmp; [|lia]. split.
    - intros [x [E H]]. injection E as -> <-. tauto.
    - intros [-> H]. exists i. tauto. }
  assert (FM : forall hi, In (i, r) (flat_map (fun r0 => map (fun i => (i, r0))
       (zsteps (2 - (w - 1) mod 2 * (r0 mod 2)) w 2)) (zseq 1 hi)) <->
      1 <= r < hi /\ 1 <= i < w /\ (r * (w - 1) + i) mod 2 = 0).
  { intros hi. rewrite in_flat_map. split.
    - intros [r0 [H1 H2]]. apply in_zseq in H1. apply FR in H2; [|lia]. destruct H2 as [-> H2]. tauto.
    - intros [H1 H2]. exists r. split; [apply in_zseq; lia|]. apply FR; [lia|]. tauto. }
  cbn beta zeta in *. rewrite in_app_iff, F0.
  (* the first row *)
  assert (Z0 : forall hi, hi < w -> (r = 0 /\ 4 <= i <= hi /\ i mod 2 = 0 <->
      r = 0 /\ 1 <= i <= hi /\ (r * (w - 1) + i) mod 2 = 0 /\ 3 <= r * (w - 1) + i - 1)).
  { clear. intros hi Hhi. split.
    - intros [-> H]. rewrite Z.mul_0_l, Z.add_0_l. repeat split; try lia; try tauto.
    - intros [-> H]. rewrite Z.mul_0_l, Z.add_0_l in H. repeat split; try lia; try tauto. }
  assert (EQ : forall a b : Z * Z, a = b <-> b = a) by (intros; split; congruence).
  rewrite (EQ (0, 0)). clear EQ.
  assert (MAIN : forall X Y : Prop, (X <-> Y) -> forall A : Prop, (A \/ False \/ X) -> A \/ Y) by tauto. clear MAIN.
  destruct (Z.ltb_spec 1 n) as [Hn|Hn].
  2:{ assert (R = 0) by (destruct ex; lia). assert (ex = false) by (destruct ex; [lia|reflexivity]). subst ex R.
      replace n with 1 by lia. cbn [Z.eqb Pos.eqb orb].
      rewrite Z0 by lia. cbn [In]. change (1 - 1) with 0.
      assert (E : (r = 0 /\ 1 <= i <= last /\ (r * (w - 1) + i) mod 2 = 0 /\ 3 <= r * (w - 1) + i - 1) <->
              (0 <= r /\ 1 <= i < w /\ (r * (w - 1) + i) mod 2 = 0 /\ 3 <= r * (w - 1) + i - 1 <= 2 * d - 1)).
      { split.
        - intros [-> [A [B Cc]]]. repeat split; try lia; try tauto. 
        - intros [A [B [Cc [E1 E2]]]]. apply LT in E2; [|lia]. repeat split; try lia; try tauto. }
      rewrite E. split; [intros [[H|[]]|[H|[]]]|intros [H|[H|H]]]; try tauto; try (symmetry in H; tauto). }
  rewrite !in_app_iff, FM.
  assert (P0 : forall hi Q1 Q2 Q3 : Prop, True) by tauto. clear P0.
  destruct ex; cbn [andb negb orb].
  - (* a row of its own for the result *)
    assert (N2 : n = R + 2) by lia. clear N. subst n. replace (R + 2 - 2) with R by lia.
    destruct (Z.eqb_spec (R + 2) 1) as [?|_]; [lia|]. cbn [orb].
    destruct (Z.eqb_spec (R + 2) 2) as [E2|E2]; cbn [andb].
    + assert (R = 0) by lia. subst R. change (Z.max 1 0) with 1. change (1 =? 0) with false. cbn [In app].
      change (0 + 2 - 1) with 1. rewrite Z0 by lia.
      assert (E : (r = 0 /\ 1 <= i <= last /\ (r * (w - 1) + i) mod 2 = 0 /\ 3 <= r * (w - 1) + i - 1) <->
              (0 <= r /\ 1 <= i < w /\ (r * (w - 1) + i) mod 2 = 0 /\ 3 <= r * (w - 1) + i - 1 <= 2 * d - 1)).
      { split.
        - intros [-> [A [B Cc]]]. repeat split; try lia; try tauto.
        - intros [A [B [Cc [X1 X2]]]]. apply LT in X2; [|lia]. repeat split; try lia; try tauto. }
      rewrite E. split; [intros [[H|[]]|[H|[H|[[]|[H|[]]]]]]|intros [H|[H|H]]]; try tauto; try (symmetry in H; tauto); try lia.
    + replace (Z.max 1 R) with R by lia. rewrite Z.eqb_refl. rewrite FR by lia. cbn [In].
      replace (R + 2 - 1) with (R + 1) by lia. rewrite Z0 by lia.
      assert (E : (r = 0 /\ 1 <= i <= w - 1 /\ (r * (w - 1) + i) mod 2 = 0 /\ 3 <= r * (w - 1) + i - 1) \/
                  (1 <= r < R /\ 1 <= i < w /\ (r * (w - 1) + i) mod 2 = 0) \/
                  (r = R /\ 1 <= i < last + 1 /\ (r * (w - 1) + i) mod 2 = 0) <->
              (0 <= r /\ 1 <= i < w /\ (r * (w - 1) + i) mod 2 = 0 /\ 3 <= r * (w - 1) + i - 1 <= 2 * d - 1)).
      { split.
        - intros [[A [B [Cc X]]]|[[A [B Cc]]|[A [B Cc]]]].
          + repeat split; try lia; try tauto; apply LT; lia.
          + repeat split; try lia; try tauto; first [apply LT; lia|apply G3; try lia; tauto].
          + repeat split; try lia; try tauto; first [apply LT; lia|apply G3; try lia; tauto].
        - intros [A [B [Cc [X1 X2]]]]. apply LT in X2; [|lia].
          destruct (Z.eq_dec r 0); [left; repeat split; try lia; tauto|].
          destruct X2 as [X2|[X2 X3]]; [right; left|right; right]; repeat split; try lia; tauto. }
      rewrite <- E. clear.
      split; [intros [[H|[]]|[H|[H|[H|[H|[]]]]]]|intros [H|[[H|[H|H]]|H]]]; try tauto; try (symmetry in H; tauto).
  - assert (N2 : n = R + 1) by lia. clear N. subst n.
    destruct (Z.eqb_spec (R + 1) 1) as [?|_]; [lia|]. cbn [orb]. rewrite andb_false_r.
    replace (R + 1 - 2) with (R - 1) by lia. replace (R + 1 - 1) with R by lia.
    destruct (Z.eq_dec R 1) as [E1|E1].
    + subst R. change (1 - 1) with 0. change (Z.max 1 0) with 1. change (1 =? 0) with false. cbn [andb app].
      rewrite in_app_iff, FR by lia. cbn [In]. rewrite Z0 by lia.
      assert (E : (r = 0 /\ 1 <= i <= w - 1 /\ (r * (w - 1) + i) mod 2 = 0 /\ 3 <= r * (w - 1) + i - 1) \/
                  (r = 1 /\ 1 <= i < last + 1 /\ (r * (w - 1) + i) mod 2 = 0) <->
              (0 <= r /\ 1 <= i < w /\ (r * (w - 1) + i) mod 2 = 0 /\ 3 <= r * (w - 1) + i - 1 <= 2 * d - 1)).
      { split.
        - intros [[A [B [Cc X]]]|[A [B Cc]]].
          + repeat split; try lia; try tauto; apply LT; lia.
          + repeat split; try lia; try tauto; first [apply LT; lia|apply G3; try lia; tauto].
        - intros [A [B [Cc [X1 X2]]]]. apply LT in X2; [|lia].
          destruct (Z.eq_dec r 0); [left; repeat split; try lia; tauto|].
          destruct X2 as [X2|[X2 X3]]; [lia|right]; repeat split; try lia; tauto. }
      rewrite <- E. clear.
      split; [intros [[H|[]]|[H|[H|[[]|[H|[H|[]]]]]]]|intros [H|[[H|H]|H]]]; try tauto; try (symmetry in H; tauto); try lia.
    + replace (Z.max 1 (R - 1)) with (R - 1) by lia. rewrite Z.eqb_refl. cbn [andb].
      rewrite in_app_iff, !FR by lia. cbn [In]. rewrite Z0 by lia. replace (R - 1 + 1) with R by lia.
      assert (E : (r = 0 /\ 1 <= i <= w - 1 /\ (r * (w - 1) + i) mod 2 = 0 /\ 3 <= r * (w - 1) + i - 1) \/
                  (1 <= r < R - 1 /\ 1 <= i < w /\ (r * (w - 1) + i) mod 2 = 0) \/
                  (r = R - 1 /\ 1 <= i < w /\ (r * (w - 1) + i) mod 2 = 0) \/
                  (r = R /\ 1 <= i < last + 1 /\ (r * (w - 1) + i) mod 2 = 0) <->
              (0 <= r /\ 1 <= i < w /\ (r * (w - 1) + i) mod 2 = 0 /\ 3 <= r * (w - 1) + i - 1 <= 2 * d - 1)).
      { split.
        - intros [[A [B [Cc X]]]|[[A [B Cc]]|[[A [B Cc]]|[A [B Cc]]]]].
          + repeat split; try lia; try tauto; apply LT; lia.
          + repeat split; try lia; try tauto; first [apply LT; lia|apply G3; try lia; tauto].
          + repeat split; try lia; try tauto; first [apply LT; lia|apply G3; try lia; tauto].
          + repeat split; try lia; try tauto; first [apply LT; lia|apply G3; try lia; tauto].
        - intros [A [B [Cc [X1 X2]]]]. apply LT in X2; [|lia].
          destruct (Z.eq_dec r 0); [left; repeat split; try lia; tauto|].
          destruct (Z.eq_dec r (R - 1)); [right; right; left; repeat split; try lia; tauto|].
          destruct X2 as [X2|[X2 X3]]; [right; left|right; right; right]; repeat split; try lia; tauto. }
      rewrite <- E. clear.
      split; [intros [[H|[]]|[H|[H|[H|[H|[H|[]]]]]]]|intros [H|[[H|[H|[H|H]]]|H]]]; try tauto; try (symmetry in H; tauto).
Qed.

Section Gate.
Variable P : params.
Notation F := (F P).
Notation table := (table P).
Variable L : lenv P.
Implicit Types T : table.
Add Field Ff : (F_field P) (morphism (F_morph P), constants [F_const], power_tac (F_power P) [F_pow_tac]).
Local Open Scope F_scope.

(** ** Sums of powers *)

Lemma theta_sum_shift : forall (th : F) l k, theta_sum th k l = fpow th k * theta_sum th 0 l.
Proof.
  intros th l. induction l as [|x l IH]; intros k; cbn [theta_sum]; [ring|].
  rewrite (IH (S k)), (IH 1%nat). cbn [fpow]. ring.
Qed.
Lemma theta_sum_cons : forall (th : F) x l, theta_sum th 0 (x :: l) = x + th * theta_sum th 0 l.
Proof. intros th x l. cbn [theta_sum]. rewrite (theta_sum_shift th l 1). cbn [fpow]. ring. Qed.
Lemma theta_sum_app : forall (th : F) a b k, theta_sum th k (a ++ b) = theta_sum th k a + theta_sum th (k + length a) b.
Proof.
  intros th a b. induction a as [|x a IH]; intros k; cbn [app theta_sum length].
  - rewrite Nat.add_0_r. ring.
  - rewrite IH. replace (S k + length a)%nat with (k + S (length a))%nat by lia. ring.
Qed.

Lemma skipn_znth : forall A (d : A) l i, (0 <= i < zlen l)%Z ->
  skipn (Z.to_nat i) l = znth d l i :: skipn (Z.to_nat (i + 1)) l.
Proof.
  intros A d l i H. unfold zlen, znth in *. replace (Z.to_nat (i + 1)) with (S (Z.to_nat i)) by lia.
  assert (Hn : (Z.to_nat i < length l)%nat) by lia. clear H. revert Hn. generalize (Z.to_nat i) as n.
  induction l as [|a l IH]; intros n H; cbn [length] in H; [lia|].
  destruct n; [reflexivity|]. cbn [skipn nth]. rewrite IH by lia. reflexivity.
Qed.

Lemma gc_sum_step : forall T th cs k, (0 <= k)%Z ->
  gc_sum T th cs (k + 1) = vval T th * (gc_sum T th cs k + vval T (znth dvar cs (zlen cs - 1 - k))).
Proof. intros T th cs k Hk. unfold gc_sum. rewrite fold_zseq_snoc by lia. reflexivity. Qed.

Lemma gc_sum_spec : forall T th cs k, (0 <= k < zlen cs)%Z ->
  gc_sum T th cs k = vval T th * theta_sum (vval T th) 0 (map (vval T) (skipn (Z.to_nat (zlen cs - k)) cs)).
Proof.
  intros T th cs k Hk. pattern k. apply (zind _ (zlen cs)); [| |exact Hk].
  - unfold gc_sum. rewrite zseq_nil by lia. cbn [fold_left].
    rewrite skipn_all2 by (unfold zlen; lia). cbn [map theta_sum]. ring.
  - intros j Hj Hj2 IH. rewrite gc_sum_step, IH by lia.
    replace (zlen cs - (j + 1))%Z with (zlen cs - 1 - j)%Z by lia.
    rewrite (skipn_znth _ dvar cs (zlen cs - 1 - j)) by lia. cbn [map]. rewrite theta_sum_cons.
    replace (zlen cs - 1 - j + 1)%Z with (zlen cs - j)%Z by lia. ring.
Qed.

Lemma gc_total : forall T th cs, (1 <= zlen cs)%Z ->
  gc_sum T th cs (zlen cs - 1) + vval T (znth dvar cs 0) = theta_sum (vval T th) 0 (map (vval T) cs).
Proof.
  intros T th cs H. rewrite gc_sum_spec by lia. replace (zlen cs - (zlen cs - 1))%Z with 1%Z by lia.
  pose proof (skipn_znth _ dvar cs 0 ltac:(lia)) as E. cbn [Z.to_nat skipn] in E.
  transitivity (theta_sum (vval T th) 0 (map (vval T) (znth dvar cs 0 :: skipn (Z.to_nat (0 + 1)) cs))).
  - cbn [map]. rewrite theta_sum_cons. change (0 + 1)%Z with 1%Z. ring.
  - f_equal. f_equal. symmetry. exact E.
Qed.

(** ** The gates *)

Lemma gc_gates_len : forall c, (3 <= wamount c)%Z -> zlen (gc_gates (P:=P) c) = (2 * wamount c)%Z.
Proof.
  intros c Hw. unfold gc_gates. rewrite !zlen_app, !zlen_map, !zlen_zseq. unfold zlen at 1 2. cbn [length]. lia.
Qed.

Notation cl T c row p := (cell T c 1 (wamount c - 1) row p).

Lemma gc_gate_first : forall T c r, eval T r (znth (ecst f0) (gc_gates (P:=P) c) 0) =
  T CWit (W c 2) r - T CWit (W c 1) r * T CWit (W c 0) r.
Proof.
  intros T c r. unfold gc_gates. cbn [app]. rewrite znth_0. eval_norm. rewrite !Z.add_0_r. reflexivity.
Qed.

Lemma gc_gate_mid : forall T c row p, (3 <= wamount c)%Z -> (2 <= p)%Z ->
  eval T (row + p / (wamount c - 1)) (znth (ecst f0) (gc_gates (P:=P) c) (p mod (wamount c - 1) + 1)) =
  cl T c row p - T CWit (W c 0) (row + p / (wamount c - 1))%Z * (cl T c row (p - 1) + cl T c row (p - 2)).
Proof.
  intros T c row p Hw Hp. pose proof (Z.mod_pos_bound p (wamount c - 1) ltac:(lia)) as M.
  rewrite (cell_at _ _ _ _ _ _ p).
  destruct (Z.eq_dec (p mod (wamount c - 1)) 0) as [E0|E0].
  - rewrite !cell_prev by lia. rewrite E0. unfold gc_gates. cbn [app]. change (0 + 1)%Z with 1%Z.
    rewrite znth_S by lia. change (1 - 1)%Z with 0%Z. rewrite znth_0. eval_norm. rewrite !Z.add_0_r.
    replace (0 + (wamount c - 1))%Z with (wamount c - 1)%Z by lia.
    replace (1 - 2 + (wamount c - 1))%Z with (wamount c - 2)%Z by lia. reflexivity.
  - rewrite cell_back by lia. destruct (Z.eq_dec (p mod (wamount c - 1)) 1) as [E1|E1].
    + rewrite cell_prev by lia. rewrite E1. unfold gc_gates. cbn [app]. change (1 + 1)%Z with 2%Z.
      rewrite !znth_S by lia. change (2 - 1 - 1)%Z with 0%Z. rewrite znth_0. eval_norm. rewrite !Z.add_0_r.
      change (2 - 1)%Z with 1%Z.
      replace (2 - 2 + (wamount c - 1))%Z with (wamount c - 1)%Z by lia. reflexivity.
    + rewrite cell_back by lia. unfold gc_gates. rewrite znth_r by (unfold zlen; cbn [length]; lia).
      rewrite znth_l by (rewrite zlen_map, zlen_zseq; unfold zlen; cbn [length]; lia).
      rewrite znth_map_zseq by (unfold zlen; cbn [length]; lia). unfold zlen. cbn [length].
      eval_norm. rewrite !Z.add_0_r.
      replace (3 + (p mod (wamount c - 1) + 1 - Z.of_nat 3))%Z with (p mod (wamount c - 1) + 1)%Z by lia.
      reflexivity.
Qed.

Lemma gc_gate_extra : forall T c r last, (3 <= wamount c)%Z -> (wamount c - 3 <= last <= wamount c - 1)%Z ->
  eval T r (znth (ecst f0) (gc_gates (P:=P) c) (last + 3)) =
  T CWit (W c (wamount c - 1)) r - T CWit (W c 1) r * (T CWit (W c 0) r + T CWit (W c last) (r - 1)%Z).
Proof.
  intros T c r last Hw Hl. unfold gc_gates. rewrite znth_r by (unfold zlen; cbn [length]; lia).
  rewrite znth_r by (rewrite zlen_map, zlen_zseq; unfold zlen; cbn [length]; lia).
  rewrite zlen_map, zlen_zseq. unfold zlen. cbn [length].
  assert (E : (last = wamount c - 3 \/ last = wamount c - 2 \/ last = wamount c - 1)%Z) by lia.
  destruct E as [-> |[-> | ->]].
  - replace (wamount c - 3 + 3 - Z.of_nat 3 - Z.max 0 (wamount c - 3))%Z with 0%Z by lia.
    cbn [app]. rewrite znth_0. eval_norm. rewrite !Z.add_0_r. reflexivity.
  - replace (wamount c - 2 + 3 - Z.of_nat 3 - Z.max 0 (wamount c - 3))%Z with 1%Z by lia.
    cbn [app]. rewrite znth_S by lia. change (1 - 1)%Z with 0%Z. rewrite znth_0. eval_norm. rewrite !Z.add_0_r. reflexivity.
  - replace (wamount c - 1 + 3 - Z.of_nat 3 - Z.max 0 (wamount c - 3))%Z with 2%Z by lia.
    cbn [app]. rewrite !znth_S by lia. change (2 - 1 - 1)%Z with 0%Z. rewrite znth_0. eval_norm. rewrite !Z.add_0_r. reflexivity.
Qed.

Lemma gc_gate_same : forall T c r last, (3 <= wamount c)%Z -> (1 <= last < wamount c - 3)%Z ->
  eval T r (znth (ecst f0) (gc_gates (P:=P) c) (wamount c + last + 3)) =
  T CWit (W c (wamount c - 1)) r - T CWit (W c (last + 2)) r * (T CWit (W c (last + 1)) r + T CWit (W c last) r).
Proof.
  intros T c r last Hw Hl. unfold gc_gates. rewrite znth_r by (unfold zlen; cbn [length]; lia).
  rewrite znth_r by (rewrite zlen_map, zlen_zseq; unfold zlen; cbn [length]; lia).
  rewrite zlen_map, zlen_zseq.
  rewrite znth_r by (unfold zlen; cbn [length]; lia).
  rewrite znth_map_zseq by (unfold zlen; cbn [length]; lia). unfold zlen. cbn [length].
  eval_norm. rewrite !Z.add_0_r.
  replace (2 + (wamount c + last + 3 - Z.of_nat 3 - Z.max 0 (wamount c - 3) - Z.of_nat 3))%Z with (last + 2)%Z by lia.
  replace (last + 2 - 1)%Z with (last + 1)%Z by lia. replace (last + 2 - 2)%Z with last by lia. reflexivity.
Qed.

(** ** Soundness *)

(** What the circuit asks, in terms of the strip of cells. *)
Definition gc_meets T c (theta : var) (cs : list var) (q : var) (row : Z) : Prop :=
  let w := wamount c in let d := (zlen cs - 1)%Z in let n := gc_rows w d in
  let j := if gc_extra w d then 0%Z else (gc_last w d + 1)%Z in
  (forall r, (0 <= r <= (2 * d - 1) / (w - 1))%Z -> T CWit (W c 0) (row + r)%Z = vval T theta) /\
  (forall k, (0 <= k < d)%Z -> cl T c row (2 * k) = vval T (znth dvar cs (d - k))) /\
  cl T c row 1 = cl T c row 0 * T CWit (W c 0) row /\
  (forall k, (1 <= k < d)%Z -> cl T c row (2 * k + 1) =
     T CWit (W c 0) (row + (2 * k + 1) / (w - 1))%Z * (cl T c row (2 * k) + cl T c row (2 * k - 1))) /\
  T CWit (W c j) (row + n - 1)%Z = vval T (znth dvar cs 0) /\
  T CWit (W c (j + 1)) (row + n - 1)%Z = vval T q /\
  T CWit (W c (w - 1)) (row + n - 1)%Z =
    T CWit (W c (j + 1)) (row + n - 1)%Z * (T CWit (W c j) (row + n - 1)%Z + cl T c row (2 * d - 1)).

Lemma gc_last_next : forall w d, (3 <= w)%Z -> (1 <= d)%Z -> gc_extra w d = false ->
  ((2 * d) mod (w - 1) = gc_last w d)%Z.
Proof.
  intros w d Hw Hd E. unfold gc_extra in E. apply Z.leb_gt in E. unfold gc_last in *.
  pose proof (Z.div_mod (2 * d - 1) (w - 1) ltac:(lia)) as D.
  pose proof (Z.mod_pos_bound (2 * d - 1) (w - 1) ltac:(lia)) as M.
  replace (2 * d)%Z with ((2 * d - 1) / (w - 1) * (w - 1) + ((2 * d - 1) mod (w - 1) + 1))%Z at 1 by lia.
  apply pos_div. lia.
Qed.

Lemma gc_meets_iff : forall T c theta cs q row, (3 <= wamount c)%Z -> (2 <= zlen cs)%Z ->
  (sat L T (gc_circuit c theta cs q row) <-> gc_meets T c theta cs q row).
Proof.
  intros T c theta cs q row Hw Hcs. unfold gc_circuit, gc_meets, gc_copies. cbv zeta.
  set (w := wamount c) in *. set (d := (zlen cs - 1)%Z).
  assert (Hd : (1 <= d)%Z) by (subst d; lia).
  pose proof (gc_rows_eq w d Hw Hd) as N.
  assert (Hlast : (1 <= gc_last w d <= w - 1)%Z).
  { unfold gc_last. pose proof (Z.mod_pos_bound (2 * d - 1) (w - 1) ltac:(lia)). lia. }
  rewrite !sat_app, !sat_map, !sat_cons.
  assert (GS : (forall ir, In ir (gc_enabled w d) -> holds L T (enable (gc_gates (P:=P) c) (row + snd ir) (fst ir))) <->
     (cl T c row 1 = cl T c row 0 * T CWit (W c 0) row /\
      (forall k, (1 <= k < d)%Z -> cl T c row (2 * k + 1) =
        T CWit (W c 0) (row + (2 * k + 1) / (w - 1))%Z * (cl T c row (2 * k) + cl T c row (2 * k - 1))) /\
      T CWit (W c (w - 1)) (row + gc_rows w d - 1)%Z =
        T CWit (W c ((if gc_extra w d then 0%Z else (gc_last w d + 1)%Z) + 1)) (row + gc_rows w d - 1)%Z *
        (T CWit (W c (if gc_extra w d then 0%Z else (gc_last w d + 1)%Z)) (row + gc_rows w d - 1)%Z + cl T c row (2 * d - 1)))).
  { assert (H00 : holds L T (enable (gc_gates (P:=P) c) (row + 0) 0) <-> cl T c row 1 = cl T c row 0 * T CWit (W c 0) row).
    { rewrite holds_enable by (rewrite gc_gates_len by assumption; fold w; lia).
      rewrite gc_gate_first. unfold cell. rewrite !Z.mod_small, !Z.div_small by (fold w; lia).
      rewrite !Z.add_0_r. change (1 + 1)%Z with 2%Z. change (0 + 1)%Z with 1%Z. apply fsub_eq0. }
    assert (Hk : forall k, (1 <= k < d)%Z ->
       (holds L T (enable (gc_gates (P:=P) c) (row + (2 * k + 1) / (w - 1)) ((2 * k + 1) mod (w - 1) + 1)) <->
        cl T c row (2 * k + 1) =
        T CWit (W c 0) (row + (2 * k + 1) / (w - 1))%Z * (cl T c row (2 * k) + cl T c row (2 * k - 1)))).
    { intros k Hk. pose proof (Z.mod_pos_bound (2 * k + 1) (w - 1) ltac:(lia)).
      rewrite holds_enable by (rewrite gc_gates_len by assumption; fold w; lia).
      unfold w. rewrite gc_gate_mid by lia.
      replace (2 * k + 1 - 1)%Z with (2 * k)%Z by lia. replace (2 * k + 1 - 2)%Z with (2 * k - 1)%Z by lia.
      apply fsub_eq0. }
    assert (Hf : holds L T (enable (gc_gates (P:=P) c) (row + snd (gc_final w d)) (fst (gc_final w d))) <->
      T CWit (W c (w - 1)) (row + gc_rows w d - 1)%Z =
        T CWit (W c ((if gc_extra w d then 0%Z else (gc_last w d + 1)%Z) + 1)) (row + gc_rows w d - 1)%Z *
        (T CWit (W c (if gc_extra w d then 0%Z else (gc_last w d + 1)%Z)) (row + gc_rows w d - 1)%Z + cl T c row (2 * d - 1))).
    { unfold gc_final. cbn [fst snd]. rewrite cell_at. fold w.
      replace ((2 * d - 1) mod (w - 1) + 1)%Z with (gc_last w d) by reflexivity.
      destruct (gc_extra w d) eqn:Ex; unfold gc_extra in Ex.
      - apply Z.leb_le in Ex. rewrite holds_enable by (rewrite gc_gates_len by assumption; fold w; lia).
        rewrite gc_gate_extra by (fold w; lia). fold w.
        replace (row + (gc_rows w d - 1) - 1)%Z with (row + (2 * d - 1) / (w - 1))%Z by lia.
        replace (row + (gc_rows w d - 1))%Z with (row + gc_rows w d - 1)%Z by lia. apply fsub_eq0.
      - apply Z.leb_gt in Ex. rewrite holds_enable by (rewrite gc_gates_len by assumption; fold w; lia).
        unfold w at 2. rewrite gc_gate_same by (fold w; lia). fold w.
        replace (row + (2 * d - 1) / (w - 1))%Z with (row + gc_rows w d - 1)%Z by lia.
        replace (row + (gc_rows w d - 1))%Z with (row + gc_rows w d - 1)%Z by lia.
        replace (gc_last w d + 1 + 1)%Z with (gc_last w d + 2)%Z by lia. apply fsub_eq0. }
    rewrite <- Hf, <- H00. split.
    - intros H. split; [exact (H (0%Z, 0%Z) (proj2 (gc_enabled_spec w d _ Hw Hd) (or_introl eq_refl)))|].
      split; [|exact (H _ (proj2 (gc_enabled_spec w d _ Hw Hd) (or_intror (or_intror eq_refl))))].
      intros k Hkk. apply Hk; [exact Hkk|].
      apply (H ((2 * k + 1) mod (w - 1) + 1, (2 * k + 1) / (w - 1))%Z).
      apply (gc_enabled_spec w d _ Hw Hd). right. left. exists k. split; [exact Hkk|reflexivity].
    - intros [G1 [G2 G3]] ir Hir. apply (gc_enabled_spec w d _ Hw Hd) in Hir.
      destruct Hir as [-> |[[k [Hkk ->]]| ->]]; [exact G1| |exact G3]. apply Hk; [exact Hkk|]. apply G2. exact Hkk. }
  rewrite GS. clear GS. cbn [holds]. rewrite !vval_wcell.
  assert (CC : (forall a, In a (zseq 0 d) -> vval T (wcell (W c ((2 * a) mod (w - 1) + 1)) (row + 2 * a / (w - 1))) =
                                   vval T (znth dvar cs (d - a))) <->
     (forall k, (0 <= k < d)%Z -> cl T c row (2 * k) = vval T (znth dvar cs (d - k)))).
  { split; intros H k Hk; [specialize (H k (proj2 (in_zseq _ _ _) Hk)); rewrite vval_wcell in H; exact H|].
    rewrite vval_wcell. apply H. apply in_zseq. exact Hk. }
  rewrite CC. clear CC.
  assert (TH : ((forall a, In a (zseq 0 (gc_rows w d - 1)) -> vval T (wcell (W c 0) (row + a)) = vval T theta) /\
      sat L T (if gc_extra w d then [] else [Copy (wcell (W c 0) (row + gc_rows w d - 1)) theta])) <->
     (forall r, (0 <= r <= (2 * d - 1) / (w - 1))%Z -> T CWit (W c 0) (row + r)%Z = vval T theta)).
  { destruct (gc_extra w d); split.
    - intros [H _] r Hr. specialize (H r). rewrite vval_wcell in H. apply H. apply in_zseq. lia.
    - intros H. split; [|apply sat_nil]. intros a Ha. apply in_zseq in Ha. rewrite vval_wcell. apply H. lia.
    - intros [H1 H2] r Hr. rewrite sat_cons in H2. destruct H2 as [H2 _]. cbn [holds] in H2. rewrite vval_wcell in H2.
      destruct (Z.eq_dec r (gc_rows w d - 1)) as [-> |Hne].
      + replace (row + (gc_rows w d - 1))%Z with (row + gc_rows w d - 1)%Z by lia. exact H2.
      + specialize (H1 r). rewrite vval_wcell in H1. apply H1. apply in_zseq. lia.
    - intros H. split; [intros a Ha; apply in_zseq in Ha; rewrite vval_wcell; apply H; lia|].
      apply sat_cons. split; [|apply sat_nil]. cbn [holds]. rewrite vval_wcell.
      replace (row + gc_rows w d - 1)%Z with (row + (gc_rows w d - 1))%Z by lia. apply H.
      assert (0 <= (2 * d - 1) / (w - 1))%Z by (apply Z.div_pos; lia). lia. }
  assert (J : (if gc_extra w d then 0%Z else ((2 * d) mod (w - 1) + 1)%Z) = (if gc_extra w d then 0%Z else (gc_last w d + 1)%Z)).
  { destruct (gc_extra w d) eqn:Ex; [reflexivity|]. rewrite gc_last_next by assumption. reflexivity. }
  rewrite J. rewrite <- TH. pose proof (sat_nil P L T). tauto.
Qed.

Lemma gc_strip : forall T c theta cs q row, (3 <= wamount c)%Z -> (2 <= zlen cs)%Z ->
  gc_meets T c theta cs q row ->
  forall k, (0 <= k < zlen cs - 1)%Z -> cl T c row (2 * k + 1) = gc_sum T theta cs (k + 1).
Proof.
  intros T c theta cs q row Hw Hcs [Th [Cc [H1 [HS _]]]] k Hk. set (d := (zlen cs - 1)%Z) in *.
  assert (Hle : forall j, (0 <= j < d)%Z -> (0 <= (2 * j + 1) / (wamount c - 1) <= (2 * d - 1) / (wamount c - 1))%Z).
  { intros j Hj. split; [apply Z.div_pos; lia|apply Z.div_le_mono; lia]. }
  pattern k. apply (zind _ d); [| |exact Hk].
  - rewrite gc_sum_step by lia. change (2 * 0 + 1)%Z with 1%Z. rewrite H1.
    specialize (Cc 0%Z ltac:(lia)). change (2 * 0)%Z with 0%Z in Cc. rewrite Cc.
    pose proof (Th 0%Z ltac:(split; [lia|apply Z.div_pos; lia])) as E. rewrite Z.add_0_r in E. rewrite E.
    unfold gc_sum. rewrite zseq_nil by lia. cbn [fold_left]. fold d. ring.
  - intros j Hj Hj2 IH. rewrite gc_sum_step, HS by lia.
    rewrite Th by (apply Hle; lia). rewrite Cc by lia.
    replace (2 * (j + 1) - 1)%Z with (2 * j + 1)%Z by lia. rewrite IH. fold d. ring.
Qed.

Lemma gc_sound_l : forall T c theta cs q row, (3 <= wamount c)%Z -> (2 <= zlen cs)%Z ->
  sat L T (gc_circuit c theta cs q row) ->
  vval T (gc_out c (zlen cs - 1) row) = vval T q * theta_sum (vval T theta) 0 (map (vval T) cs).
Proof.
  intros T c theta cs q row Hw Hcs H. apply gc_meets_iff in H; try assumption.
  pose proof (gc_strip T c theta cs q row Hw Hcs H (zlen cs - 2) ltac:(lia)) as S.
  destruct H as [_ [_ [_ [_ [C0 [Q E]]]]]].
  unfold gc_out. rewrite vval_wcell. rewrite E, Q, C0.
  replace (2 * (zlen cs - 1) - 1)%Z with (2 * (zlen cs - 2) + 1)%Z by lia. rewrite S.
  replace (zlen cs - 2 + 1)%Z with (zlen cs - 1)%Z by lia. rewrite <- gc_total by lia. ring.
Qed.

(** ** Completeness *)

Lemma gc_rows_pos : forall w d, (3 <= w)%Z -> (1 <= d)%Z -> (1 <= gc_rows w d)%Z.
Proof.
  intros w d Hw Hd. rewrite gc_rows_eq by assumption.
  assert (0 <= (2 * d - 1) / (w - 1))%Z by (apply Z.div_pos; lia). destruct (gc_extra w d); lia.
Qed.

Lemma gc_complete_l : forall T c w theta cs q row, wf_comp c w -> (3 <= w)%Z -> (2 <= zlen cs)%Z ->
  let n := gc_rows w (zlen cs - 1) in
  outside c n row theta -> (forall x, In x cs -> outside c n row x) -> outside c n row q ->
  let T' := gc_assign c theta cs q row T in
  sat L T' (gc_circuit c theta cs q row) /\ frame c n row T T' /\
  vval T' (gc_out c (zlen cs - 1) row) = vval T q * theta_sum (vval T theta) 0 (map (vval T) cs).
Proof.
  intros T c w theta cs q row Hwf Hw Hcs n Oth Ocs Oq T'.
  pose proof (proj1 (proj2 Hwf)) as Ew.
  set (d := (zlen cs - 1)%Z) in *. assert (Hd : (1 <= d)%Z) by (subst d; lia).
  pose proof (gc_rows_eq w d Hw Hd) as N. fold n in N.
  set (R := ((2 * d - 1) / (w - 1))%Z) in *. assert (HR : (0 <= R)%Z) by (apply Z.div_pos; lia).
  assert (Hlast : (1 <= gc_last w d <= w - 1)%Z).
  { unfold gc_last. pose proof (Z.mod_pos_bound (2 * d - 1) (w - 1) ltac:(lia)). lia. }
  set (ws := map (fun i => (W c (i mod (w - 1) + 1), (row + i / (w - 1))%Z, gc_val T theta cs i)) (zseq 0 (2 * d)) ++
     map (fun r => (W c 0, (row + r)%Z, vval T theta)) (zseq 0 (R + 1))).
  set (T1 := wsets T ws).
  set (j := if gc_extra w d then 0%Z else (gc_last w d + 1)%Z).
  assert (Hj : (0 <= j)%Z /\ (j + 1 < w - 1 \/ (j = 0 /\ gc_extra w d = true))%Z).
  { subst j. destruct (gc_extra w d) eqn:Ex; [lia|]. unfold gc_extra in Ex. apply Z.leb_gt in Ex. lia. }
  assert (Hdiv : forall p, (0 <= p < 2 * d)%Z -> (0 <= p / (w - 1) <= R)%Z).
  { intros p Hp. split; [apply Z.div_pos; lia|apply Z.div_le_mono; lia]. }
  assert (F1 : frame c n row T T1).
  { apply (wsets_frame P c w); [exact Hwf|]. intros col r v H. apply in_app_or in H.
    destruct H as [H|H]; apply in_map_iff in H; destruct H as [i [E Hi]]; apply in_zseq in Hi;
      injection E as <- <- <-; (split; [eexists; reflexivity|]).
    - specialize (Hdiv i Hi). destruct (gc_extra w d); lia.
    - destruct (gc_extra w d); lia. }
  assert (ET : T' = wset (wset (wset T1 (W c j) (row + n - 1) (vval T1 (znth dvar cs 0)))
                         (W c (j + 1)) (row + n - 1) (vval T q)) (W c (w - 1)) (row + n - 1)
                         (vval T q * (gc_sum T theta cs d + vval T (znth dvar cs 0)))).
  { subst T'. unfold gc_assign. cbv zeta. rewrite Ew. fold d. fold R. fold ws. fold T1.
    replace (row + (R + (if gc_extra w d then 1 else 0)))%Z with (row + n - 1)%Z by lia.
    assert (J : (if gc_extra w d then 0%Z else ((2 * d) mod (w - 1) + 1)%Z) = j).
    { subst j. destruct (gc_extra w d) eqn:Ex; [reflexivity|]. rewrite gc_last_next by assumption. reflexivity. }
    rewrite J. reflexivity. }
  assert (In0 : forall i, (0 <= i < zlen cs)%Z -> In (znth dvar cs i) cs) by (intros i Hi; apply znth_In; exact Hi).
  assert (FT : frame c n row T T').
  { rewrite ET. assert (1 <= n)%Z by (apply gc_rows_pos; assumption).
    repeat (eapply frame_wset; [exact Hwf|lia|]). exact F1. }
  assert (Vt : vval T' theta = vval T theta) by (apply (vval_frame P c n row T T'); [exact FT|exact Oth]).
  assert (Vq : vval T' q = vval T q) by (apply (vval_frame P c n row T T'); [exact FT|exact Oq]).
  assert (Vc : forall i, (0 <= i < zlen cs)%Z -> vval T' (znth dvar cs i) = vval T (znth dvar cs i)).
  { intros i Hi. apply (vval_frame P c n row T T'); [exact FT|]. apply Ocs, In0, Hi. }
  assert (Vc1 : vval T1 (znth dvar cs 0) = vval T (znth dvar cs 0)).
  { apply (vval_frame P c n row T T1); [exact F1|]. apply Ocs, In0. lia. }
  assert (JJ : gc_extra w d = false -> j = (gc_last w d + 1)%Z) by (intros E; subst j; rewrite E; reflexivity).
  (* the strip *)
  assert (RB : forall p, (0 <= p < 2 * d)%Z -> cell T' c 1 (w - 1) row p = gc_val T theta cs p).
  { intros p Hp. unfold cell. rewrite ET.
    pose proof (Z.mod_pos_bound p (w - 1) ltac:(lia)) as M. pose proof (Hdiv p Hp) as D.
    assert (NE : (p / (w - 1) < n - 1 \/ p / (w - 1) = n - 1 /\ gc_extra w d = false /\ p mod (w - 1) + 1 <= gc_last w d)%Z).
    { destruct (gc_extra w d); [lia|]. destruct (Z.eq_dec (p / (w - 1)) R) as [E|E]; [|lia].
      right. split; [lia|]. split; [reflexivity|]. unfold gc_last.
      pose proof (Z.div_mod p (w - 1) ltac:(lia)). pose proof (Z.div_mod (2 * d - 1) (w - 1) ltac:(lia)) as D2.
      fold R in D2. rewrite E in *. lia. }
    assert (G : forall k, (k = j \/ k = j + 1 \/ k = w - 1)%Z ->
       CWit <> CWit \/ W c (p mod (w - 1) + 1) <> W c k \/ (row + p / (w - 1) <> row + n - 1)%Z).
    { intros k Hk. destruct NE as [NE|[_ [NE2 NE3]]]; [right; right; lia|]. right. left.
      apply (W_neq c w); [exact Hwf|lia| |]; specialize (JJ NE2); lia. }
    rewrite !wset_other by (apply G; lia).
    unfold T1, ws. apply (strip_read P T c w); [exact Hwf|lia|lia|lia|exact Hp|].
    intros v Hin. apply in_map_iff in Hin. destruct Hin as [i [E Hi]]. injection E as E _ _.
    apply (W_neq c w 0 (p mod (w - 1) + 1) Hwf) in E; [exact E|lia|lia|lia]. }
  assert (RT : forall r, (0 <= r <= R)%Z -> T' CWit (W c 0) (row + r)%Z = vval T theta).
  { intros r Hr. rewrite ET.
    assert (G : forall k, (k = j \/ k = j + 1 \/ k = w - 1)%Z ->
       CWit <> CWit \/ W c 0 <> W c k \/ (row + r <> row + n - 1)%Z).
    { intros k Hk. destruct (gc_extra w d) eqn:Ex; [right; right; lia|]. right. left.
      specialize (JJ eq_refl). apply (W_neq c w); [exact Hwf|lia|lia|lia]. }
    rewrite !wset_other by (apply G; lia).
    unfold T1, ws. apply wsets_read.
    - apply in_or_app. right. apply in_map_iff. exists r. split; [reflexivity|apply in_zseq; lia].
    - intros v' H. apply in_app_or in H. destruct H as [H|H]; apply in_map_iff in H; destruct H as [i [E Hi]].
      + exfalso. injection E as E _ _. pose proof (Z.mod_pos_bound i (w - 1) ltac:(lia)).
        apply (W_neq c w (i mod (w - 1) + 1) 0 Hwf) in E; [exact E|lia|lia|lia].
      + injection E as _ <-. reflexivity. }
  assert (RJ : T' CWit (W c j) (row + n - 1)%Z = vval T (znth dvar cs 0)).
  { rewrite ET. rewrite (wset_other _ _ _ _ _ _ (W c j)), (wset_other _ _ _ _ _ _ (W c j)), wset_same, Vc1; [reflexivity| |];
      (right; left; apply (W_neq c w); [exact Hwf|lia|lia|lia]). }
  assert (RQ : T' CWit (W c (j + 1)) (row + n - 1)%Z = vval T q).
  { rewrite ET. rewrite (wset_other _ _ _ _ _ _ (W c (j + 1))), wset_same; [reflexivity|].
    right. left. apply (W_neq c w); [exact Hwf|lia|lia|lia]. }
  assert (RO : T' CWit (W c (w - 1)) (row + n - 1)%Z = vval T q * (gc_sum T theta cs d + vval T (znth dvar cs 0))).
  { rewrite ET. apply wset_same. }
  assert (V0 : forall k, (0 <= k)%Z -> gc_val T theta cs (2 * k) = vval T (znth dvar cs (d - k))).
  { intros k Hk. unfold gc_val. rewrite (Z.mul_comm 2), Z.mod_mul, Z.div_mul by lia. reflexivity. }
  assert (V1 : forall k, (0 <= k)%Z -> gc_val T theta cs (2 * k + 1) = gc_sum T theta cs (k + 1)).
  { intros k Hk. unfold gc_val.
    replace ((2 * k + 1) mod 2)%Z with 1%Z by (rewrite Z.add_comm, Z.mul_comm, Z.mod_add by lia; reflexivity).
    replace ((2 * k + 1) / 2)%Z with k by (rewrite Z.add_comm, Z.mul_comm, Z.div_add by lia; reflexivity).
    reflexivity. }
  split; [|split; [exact FT|]].
  - apply gc_meets_iff; [rewrite Ew; exact Hw|exact Hcs|].
    unfold gc_meets. cbv zeta. rewrite Ew. fold d. fold n. fold j. fold R.
    split; [intros r Hr; rewrite RT, Vt by lia; reflexivity|].
    split; [intros k Hk; rewrite RB, V0, Vc by lia; reflexivity|].
    split.
    { rewrite !RB by lia. pose proof (RT 0%Z ltac:(lia)) as E. rewrite Z.add_0_r in E. rewrite E.
      pose proof (V1 0%Z ltac:(lia)) as A. pose proof (V0 0%Z ltac:(lia)) as B.
      change (2 * 0 + 1)%Z with 1%Z in A. change (2 * 0)%Z with 0%Z in B. rewrite A, B.
      rewrite gc_sum_step by lia. fold d. unfold gc_sum. rewrite zseq_nil by lia. cbn [fold_left]. ring. }
    split.
    { intros k Hk. rewrite !RB by lia. rewrite RT by (apply Hdiv; lia).
      rewrite V0, V1, gc_sum_step by lia. fold d.
      replace (2 * k - 1)%Z with (2 * (k - 1) + 1)%Z by lia. rewrite V1 by lia.
      replace (k - 1 + 1)%Z with k by lia. ring. }
    split; [rewrite RJ, Vc by lia; reflexivity|]. split; [rewrite RQ, Vq; reflexivity|].
    rewrite RO, RQ, RJ, RB by lia. replace (2 * d - 1)%Z with (2 * (d - 1) + 1)%Z by lia.
    rewrite V1 by lia. replace (d - 1 + 1)%Z with d by lia. ring.
  - unfold gc_out. rewrite vval_wcell, Ew. fold d. fold n. rewrite RO. f_equal.
    apply gc_total. lia.
Qed.

(** ** The cells the circuit reads *)

Lemma gc_gate_reads : forall (Q : ctype -> Z -> Z -> Prop) c r i, (3 <= wamount c)%Z -> (0 <= i < 2 * wamount c)%Z ->
  (forall j, Q CWit (W c j) r) ->
  ((1 <= i <= 2 \/ wamount c <= i <= wamount c + 2)%Z -> forall j, Q CWit (W c j) (r - 1)%Z) ->
  expr_reads Q r (znth (ecst f0) (gc_gates (P:=P) c) i).
Proof.
  intros Q c r i Hw Hi H0 H1.
  assert (R0 : forall j, expr_reads Q r (evar (P:=P) (wv (W c j) 0))).
  { intros j. apply reads_wv. rewrite Z.add_0_r. apply H0. }
  assert (R1 : (1 <= i <= 2 \/ wamount c <= i <= wamount c + 2)%Z ->
               forall j, expr_reads Q r (evar (P:=P) (wv (W c j) (-1)))).
  { intros H j. apply reads_wv. apply (H1 H j). }
  unfold gc_gates.
  destruct (Z.ltb_spec i 3) as [A|A].
  - assert (E : (i = 0 \/ i = 1 \/ i = 2)%Z) by lia.
    destruct E as [-> |[-> | ->]]; cbv [znth Z.to_nat Pos.to_nat Pos.iter_op Init.Nat.add nth app];
      cbn [expr_reads]; repeat split; try apply R0; apply R1; lia.
  - rewrite znth_r by (unfold zlen; cbn [length]; lia).
    destruct (Z.ltb_spec i (wamount c)) as [B|B].
    + rewrite znth_l by (rewrite zlen_map, zlen_zseq; unfold zlen; cbn [length]; lia).
      rewrite znth_map_zseq by (unfold zlen; cbn [length]; lia). cbn [expr_reads]. repeat split; apply R0.
    + rewrite znth_r by (rewrite zlen_map, zlen_zseq; unfold zlen; cbn [length]; lia).
      rewrite zlen_map, zlen_zseq.
      destruct (Z.ltb_spec i (wamount c + 3)) as [D|D].
      * assert (E : (i = wamount c \/ i = wamount c + 1 \/ i = wamount c + 2)%Z) by lia.
        rewrite znth_l by (unfold zlen; cbn [length]; lia). unfold zlen at 1. cbn [length].
        assert (R1' := R1 ltac:(lia)). clear R1 H1.
        destruct E as [-> |[-> | ->]].
        -- replace (wamount c - Z.of_nat 3 - Z.max 0 (wamount c - 3))%Z with 0%Z by lia.
           rewrite znth_0. cbn [expr_reads]. repeat split; first [apply R0|apply R1'].
        -- replace (wamount c + 1 - Z.of_nat 3 - Z.max 0 (wamount c - 3))%Z with 1%Z by lia.
           cbv [znth Z.to_nat Pos.to_nat Pos.iter_op Init.Nat.add nth].
           cbn [expr_reads]. repeat split; first [apply R0|apply R1'].
        -- replace (wamount c + 2 - Z.of_nat 3 - Z.max 0 (wamount c - 3))%Z with 2%Z by lia.
           cbv [znth Z.to_nat Pos.to_nat Pos.iter_op Init.Nat.add nth].
           cbn [expr_reads]. repeat split; first [apply R0|apply R1'].
      * rewrite znth_r by (unfold zlen; cbn [length]; lia).
        rewrite znth_map_zseq by (unfold zlen; cbn [length]; lia).
        cbn [expr_reads]. repeat split; apply R0.
Qed.

Lemma enable_reads : forall (Q : ctype -> Z -> Z -> Prop) (gs : list (expr P)) r i,
  ((0 <= i < zlen gs)%Z -> expr_reads Q r (znth (ecst f0) gs i)) -> cmd_reads Q (enable gs r i).
Proof.
  intros Q gs r i H. unfold enable. cbn [cmd_reads]. intros r' [<-|[]] e He.
  destruct ((0 <=? i)%Z && (i <? zlen gs)%Z) eqn:E; [|destruct He].
  destruct He as [<-|[]]. apply H. apply andb_prop in E. destruct E as [E1 E2].
  apply Z.leb_le in E1. apply Z.ltb_lt in E2. lia.
Qed.

Lemma gc_reads : forall (Q : ctype -> Z -> Z -> Prop) c theta cs q row, (3 <= wamount c)%Z -> (2 <= zlen cs)%Z ->
  (forall j r, (row <= r < row + gc_rows (wamount c) (zlen cs - 1))%Z -> Q CWit (W c j) r) ->
  var_reads Q theta -> (forall x, In x cs -> var_reads Q x) -> var_reads Q q ->
  reads Q (gc_circuit (P:=P) c theta cs q row).
Proof.
  intros Q c theta cs q row Hw Hcs HQ Ht Hc Hq. unfold gc_circuit, gc_copies. cbv zeta.
  set (w := wamount c) in *. set (d := (zlen cs - 1)%Z) in *. assert (Hd : (1 <= d)%Z) by (subst d; lia).
  pose proof (gc_rows_eq w d Hw Hd) as N.
  assert (R0 : (0 <= (2 * d - 1) / (w - 1))%Z) by (apply Z.div_pos; lia).
  assert (VW : forall j r, (row <= r < row + gc_rows w d)%Z -> var_reads Q (wcell (W c j) r)).
  { intros j r Hr. apply (HQ j r Hr). }
  assert (In0 : forall i, (0 <= i < zlen cs)%Z -> In (znth dvar cs i) cs) by (intros i Hi; apply znth_In; exact Hi).
  rewrite !reads_app, !reads_cons. split; [|split; [|split; [|split; [|split; [|split]]]]].
  - apply reads_map. intros ir Hir. apply (gc_enabled_spec w d _ Hw Hd) in Hir.
    apply enable_reads. rewrite gc_gates_len by assumption. intros Hi.
    destruct Hir as [-> |[[k [Hk ->]]| ->]].
    + cbn [fst snd]. apply gc_gate_reads; [assumption|fold w; lia|intros j; apply HQ; destruct (gc_extra w d); lia|].
      fold w. lia.
    + cbn [fst snd]. pose proof (Z.div_mod (2 * k + 1) (w - 1) ltac:(lia)) as D.
      pose proof (Z.mod_pos_bound (2 * k + 1) (w - 1) ltac:(lia)) as M.
      assert ((2 * k + 1) / (w - 1) <= (2 * d - 1) / (w - 1))%Z by (apply Z.div_le_mono; lia).
      assert (0 <= (2 * k + 1) / (w - 1))%Z by (apply Z.div_pos; lia).
      apply gc_gate_reads; [assumption|fold w; lia|intros j; apply HQ; destruct (gc_extra w d); lia|].
      fold w. intros HH j. apply HQ.
      assert ((2 * k + 1) / (w - 1) <> 0)%Z by (intros X; rewrite X in D; lia). destruct (gc_extra w d); lia.
    + unfold gc_final in *. cbn [fst snd] in *.
      assert (Hlast : (1 <= gc_last w d <= w - 1)%Z).
      { unfold gc_last. pose proof (Z.mod_pos_bound (2 * d - 1) (w - 1) ltac:(lia)). lia. }
      apply gc_gate_reads; [assumption|exact Hi|intros j; apply HQ; destruct (gc_extra w d); lia|].
      fold w. destruct (gc_extra w d); [|lia]. intros _ j. apply HQ. lia.
  - apply reads_map. intros a Ha. apply in_zseq in Ha. split; [apply VW; lia|exact Ht].
  - destruct (gc_extra w d); [apply reads_nil|]. apply reads_cons. split; [|apply reads_nil].
    split; [apply VW; lia|exact Ht].
  - apply reads_map. intros a Ha. apply in_zseq in Ha. split.
    + apply VW. assert (2 * a / (w - 1) <= (2 * d - 1) / (w - 1))%Z by (apply Z.div_le_mono; lia).
      assert (0 <= 2 * a / (w - 1))%Z by (apply Z.div_pos; lia). destruct (gc_extra w d); lia.
    + apply Hc, In0. subst d. lia.
  - split; [apply VW; destruct (gc_extra w d); lia|apply Hc, In0; lia].
  - split; [apply VW; destruct (gc_extra w d); lia|exact Hq].
  - apply reads_nil.
Qed.

(** ** The multiplication called for a gate with one constraint *)

Lemma mul_complete : forall T c w x y row, wf_comp c w -> (3 <= w)%Z -> outside c 1 row x -> outside c 1 row y ->
  let T' := multiplication_assign c x y row T in
  sat L T' (multiplication_circuit c x y row) /\ frame c 1 row T T' /\
  vval T' (multiplication_result c row) = vval T x * vval T y.
Proof.
  intros T c w x y row Hwf Hw Ox Oy T'. subst T'. unfold multiplication_assign. cbv zeta.
  assert (F1 : forall v, frame c 1 row T (wset T (W c 0) row v)) by (intros; frame_tac).
  assert (F2 : forall v v', frame c 1 row T (wset (wset T (W c 0) row v) (W c 1) row v')) by (intros; frame_tac).
  rewrite (vval_frame P c 1 row _ _ y (F1 _) Oy), (vval_frame P c 1 row _ _ x (F2 _ _) Ox), (vval_frame P c 1 row _ _ y (F2 _ _) Oy).
  set (T' := wset _ (W c 2) row _).
  assert (FT : frame c 1 row T T') by (subst T'; frame_tac).
  assert (Vx : vval T' x = vval T x) by (apply (vval_frame P c 1 row T T'); assumption).
  assert (Vy : vval T' y = vval T y) by (apply (vval_frame P c 1 row T T'); assumption).
  assert (R0 : T' CWit (W c 0) row = vval T x) by (subst T'; rd; reflexivity).
  assert (R1 : T' CWit (W c 1) row = vval T y) by (subst T'; rd; reflexivity).
  assert (R2 : T' CWit (W c 2) row = vval T x * vval T y) by (subst T'; rd; reflexivity).
  split; [|split; [exact FT|unfold multiplication_result; rewrite vval_wcell; exact R2]].
  unfold multiplication_circuit, multiplication_gate. sat_goal.
  - rewrite R0, R1, R2. ring.
  - destruct (var_eqb x (wcell (W c 0) row)); sat_goal. rewrite vval_wcell, R0. exact Vx.
  - destruct (var_eqb y (wcell (W c 1) row)); sat_goal. rewrite vval_wcell, R1, Vy. reflexivity.
Qed.

Lemma mul_reads : forall (Q : ctype -> Z -> Z -> Prop) c x y row,
  (forall j, Q CWit (W c j) row) -> var_reads Q x -> var_reads Q y ->
  reads Q (multiplication_circuit (P:=P) c x y row).
Proof.
  intros Q c x y row HQ Hx Hy. unfold multiplication_circuit, multiplication_gate.
  assert (V : forall j, var_reads Q (wcell (W c j) row)) by (intros j; apply HQ).
  apply reads_cons. split.
  - intros r [<-|[]] e [<-|[]]. cbn [expr_reads].
    repeat split; apply reads_wv; rewrite Z.add_0_r; apply HQ.
  - apply reads_app. split; [destruct (var_eqb x _)|destruct (var_eqb y _)]; try apply reads_nil;
      (apply reads_cons; split; [|apply reads_nil]; split; auto).
Qed.

(** ** One gate of basic_constraints_verifier *)

Lemma bc_one_sound : forall T c theta cs q row, (3 <= wamount c)%Z -> (1 <= zlen cs)%Z ->
  sat L T (bc_one_circuit c theta cs q row) ->
  vval T (bc_one_out c (zlen cs) row) = vval T q * theta_sum (vval T theta) 0 (map (vval T) cs).
Proof.
  intros T c theta cs q row Hw Hcs H. unfold bc_one_circuit, bc_one_out in *.
  destruct (Z.eqb_spec (zlen cs) 1) as [E|E]; [|apply gc_sound_l; [assumption|lia|exact H]].
  rewrite (multiplication_sound_l P L T c _ _ _ H). destruct cs as [|x [|y cs]]; cbn in E, Hcs; try lia.
  change (znth dvar [x] 0) with x. cbn [map theta_sum fpow]. ring.
Qed.

Lemma bc_one_rows_pos : forall w g, (3 <= w)%Z -> (1 <= g)%Z -> (1 <= bc_one_rows w g)%Z.
Proof.
  intros w g Hw Hg. unfold bc_one_rows. destruct (Z.eqb_spec g 1); [lia|]. apply gc_rows_pos; lia.
Qed.

Lemma bc_one_complete : forall T c w theta cs q row, wf_comp c w -> (3 <= w)%Z -> (1 <= zlen cs)%Z ->
  let n := bc_one_rows w (zlen cs) in
  outside c n row theta -> (forall x, In x cs -> outside c n row x) -> outside c n row q ->
  let T' := bc_one_assign c theta cs q row T in
  sat L T' (bc_one_circuit c theta cs q row) /\ frame c n row T T' /\
  vval T' (bc_one_out c (zlen cs) row) = vval T q * theta_sum (vval T theta) 0 (map (vval T) cs).
Proof.
  intros T c w theta cs q row Hwf Hw Hcs n Oth Ocs Oq T'. subst n T'.
  unfold bc_one_circuit, bc_one_out, bc_one_rows, bc_one_assign in *.
  destruct (Z.eqb_spec (zlen cs) 1) as [E|E].
  - destruct cs as [|x [|y cs]]; cbn in E, Hcs; try lia. change (znth dvar [x] 0) with x.
    destruct (mul_complete T c w x q row Hwf Hw (Ocs x (or_introl eq_refl)) Oq) as [A [B D]].
    split; [exact A|]. split; [exact B|]. rewrite D. cbn [map theta_sum fpow]. ring.
  - apply (gc_complete_l T c w); try assumption. lia.
Qed.

Lemma bc_one_reads : forall (Q : ctype -> Z -> Z -> Prop) c theta cs q row, (3 <= wamount c)%Z -> (1 <= zlen cs)%Z ->
  (forall j r, (row <= r < row + bc_one_rows (wamount c) (zlen cs))%Z -> Q CWit (W c j) r) ->
  var_reads Q theta -> (forall x, In x cs -> var_reads Q x) -> var_reads Q q ->
  reads Q (bc_one_circuit (P:=P) c theta cs q row).
Proof.
  intros Q c theta cs q row Hw Hcs HQ Ht Hc Hq. unfold bc_one_circuit, bc_one_rows in *.
  destruct (Z.eqb_spec (zlen cs) 1) as [E|E].
  - apply mul_reads; [intros j; apply HQ; lia| |exact Hq]. apply Hc, znth_In. lia.
  - apply gc_reads; try assumption. lia.
Qed.

(** ** All the gates *)

Definition g_sizes (gs : list (var * list var)) : list Z := map (fun g => zlen (snd g)) gs.
Definition g_cs (gs : list (var * list var)) : list var := flat_map snd gs.
Definition g_qs (gs : list (var * list var)) : list var := map fst gs.
Definition g_vals T (gs : list (var * list var)) : list (F * list F) :=
  map (fun g => (vval T (fst g), map (vval T) (snd g))) gs.
Definition g_outs (th : F) (vs : list (F * list F)) : list F := map (fun g => fst g * theta_sum th 0 (snd g)) vs.

Lemma ztake_app : forall A (a b : list A), ztake (zlen a) (a ++ b) = a.
Proof.
  intros A a b. unfold ztake, zlen. rewrite Nat2Z.id. rewrite firstn_app, firstn_all.
  replace (length a - length a)%nat with 0%nat by lia. cbn [firstn]. apply app_nil_r.
Qed.
Lemma zdrop_app : forall A (a b : list A), zdrop (zlen a) (a ++ b) = b.
Proof.
  intros A a b. unfold zdrop, zlen. rewrite Nat2Z.id, skipn_app, skipn_all.
  replace (length a - length a)%nat with 0%nat by lia. reflexivity.
Qed.

Lemma bc_loop_sound : forall T c theta gs row, (3 <= wamount c)%Z -> (forall g, In g gs -> (1 <= zlen (snd g))%Z) ->
  sat L T (bc_circuits c theta (g_sizes gs) (g_cs gs) (g_qs gs) row) ->
  map (vval T) (bc_outs c (g_sizes gs) row) = g_outs (vval T theta) (g_vals T gs).
Proof.
  intros T c theta gs. induction gs as [|[q cs] gs IH]; intros row Hw Hg H; [reflexivity|].
  cbn [g_sizes g_cs g_qs map flat_map bc_circuits bc_outs g_vals g_outs fst snd] in *.
  rewrite ztake_app, zdrop_app in H. apply sat_app in H. destruct H as [H1 H2].
  change (znth dvar (q :: map fst gs) 0) with q in H1. change (zdrop 1 (q :: map fst gs)) with (map fst gs) in H2.
  f_equal.
  - apply bc_one_sound; [exact Hw|apply (Hg _ (or_introl eq_refl))|exact H1].
  - apply IH; [exact Hw|intros g Hin; apply Hg; right; exact Hin|exact H2].
Qed.

Lemma bc_loop_rows_nonneg : forall w gs, (3 <= w)%Z -> (forall g, In g gs -> (1 <= zlen (snd g))%Z) ->
  (0 <= bc_loop_rows w (g_sizes gs))%Z.
Proof.
  intros w gs Hw. induction gs as [|[q cs] gs IH]; intros Hg; cbn [g_sizes map bc_loop_rows snd]; [lia|].
  pose proof (bc_one_rows_pos w (zlen cs) Hw (Hg _ (or_introl eq_refl))).
  assert (0 <= bc_loop_rows w (g_sizes gs))%Z by (apply IH; intros g Hin; apply Hg; right; exact Hin).
  unfold g_sizes in *. lia.
Qed.

Definition g_outside c n row (gs : list (var * list var)) : Prop :=
  forall g, In g gs -> outside c n row (fst g) /\ (forall x, In x (snd g) -> outside c n row x).

Lemma g_vals_frame : forall c n row T T' gs, frame c n row T T' -> g_outside c n row gs -> g_vals T' gs = g_vals T gs.
Proof.
  intros c n row T T' gs HF HO. apply map_ext_in. intros g Hg. destruct (HO g Hg) as [A B]. f_equal.
  - apply (vval_frame P c n row T T'); assumption.
  - apply map_ext_in. intros x Hx. apply (vval_frame P c n row T T'); auto.
Qed.

Lemma bc_outs_in : forall c w sizes row x, (3 <= w)%Z -> wamount c = w -> (forall g, In g sizes -> (1 <= g)%Z) ->
  In x (bc_outs c sizes row) -> exists j r, x = wcell (W c j) r /\ (row <= r < row + bc_loop_rows w sizes)%Z.
Proof.
  intros c w sizes. induction sizes as [|g gs IH]; intros row x Hw Ew Hs H; [destruct H|].
  cbn [bc_outs bc_loop_rows] in *.
  pose proof (bc_one_rows_pos w g Hw (Hs g (or_introl eq_refl))) as P1.
  assert (P2 : (0 <= bc_loop_rows w gs)%Z).
  { assert (forall l, (forall g, In g l -> (1 <= g)%Z) -> (0 <= bc_loop_rows w l)%Z) as G.
    { intros l. induction l as [|a l IHl]; intros Ha; cbn [bc_loop_rows]; [lia|].
      pose proof (bc_one_rows_pos w a Hw (Ha a (or_introl eq_refl))).
      assert (0 <= bc_loop_rows w l)%Z by (apply IHl; intros; apply Ha; right; assumption). lia. }
    apply G. intros; apply Hs; right; assumption. }
  destruct H as [<-|H].
  - unfold bc_one_out, multiplication_result, gc_out. unfold bc_one_rows in *. rewrite Ew.
    destruct (g =? 1)%Z; eexists; eexists; (split; [reflexivity|lia]).
  - rewrite Ew in H. apply IH in H; [|assumption|assumption|intros; apply Hs; right; assumption].
    destruct H as [j [r [-> Hr]]]. exists j, r. split; [reflexivity|lia].
Qed.

Lemma bc_loop_complete : forall c w theta gs row T, wf_comp c w -> (3 <= w)%Z ->
  (forall g, In g gs -> (1 <= zlen (snd g))%Z) ->
  let n := bc_loop_rows w (g_sizes gs) in
  outside c n row theta -> g_outside c n row gs ->
  let T' := bc_assigns c theta (g_sizes gs) (g_cs gs) (g_qs gs) row T in
  sat L T' (bc_circuits c theta (g_sizes gs) (g_cs gs) (g_qs gs) row) /\ frame c n row T T' /\
  map (vval T') (bc_outs c (g_sizes gs) row) = g_outs (vval T theta) (g_vals T gs).
Proof.
  intros c w theta gs. induction gs as [|[q cs] gs IH]; intros row T Hwf Hw Hg n Oth Og T'.
  { split; [apply sat_nil|]. split; [apply frame_refl|reflexivity]. }
  pose proof (proj1 (proj2 Hwf)) as Ew.
  assert (Hg' : forall g, In g gs -> (1 <= zlen (snd g))%Z) by (intros g Hin; apply Hg; right; exact Hin).
  assert (Hcs : (1 <= zlen cs)%Z) by (apply (Hg _ (or_introl eq_refl))).
  pose proof (bc_one_rows_pos w (zlen cs) Hw Hcs) as P1. pose proof (bc_loop_rows_nonneg w gs Hw Hg') as P2.
  set (n1 := bc_one_rows w (zlen cs)) in *. set (n2 := bc_loop_rows w (g_sizes gs)) in *.
  assert (En : n = (n1 + n2)%Z) by reflexivity. clearbody n. subst n.
  subst T'. cbn [g_sizes g_cs g_qs map flat_map bc_circuits bc_assigns bc_outs g_vals g_outs fst snd] in *.
  rewrite ztake_app, zdrop_app.
  change (znth dvar (q :: map fst gs) 0) with q. change (zdrop 1 (q :: map fst gs)) with (map fst gs).
  rewrite Ew. fold n1. fold (g_sizes gs) (g_cs gs) (g_qs gs) (g_vals T gs).
  set (T1 := bc_one_assign c theta cs q row T).
  destruct (Og (q, cs) (or_introl eq_refl)) as [Oq Ocs]. cbn [fst snd] in Oq, Ocs.
  assert (SB : forall x, outside c (n1 + n2) row x -> outside c n1 row x /\ outside c n2 (row + n1) x).
  { intros x Hx. split; (eapply outside_sub; [| |exact Hx]); lia. }
  destruct (bc_one_complete T c w theta cs q row Hwf Hw Hcs) as [S1 [F1 O1]]; fold n1;
    [apply SB; assumption|intros x Hx; apply SB; auto|apply SB; assumption|].
  fold n1 in F1. fold T1 in S1, F1, O1.
  destruct (IH (row + n1)%Z T1 Hwf Hw Hg') as [S2 [F2 O2]]; fold n2;
    [apply SB; assumption| |].
  { intros g Hin. destruct (Og g (or_intror Hin)) as [A B]. split; [apply SB; exact A|intros x Hx; apply SB; auto]. }
  fold n2 in F2. set (T' := bc_assigns c theta (g_sizes gs) (g_cs gs) (g_qs gs) (row + n1) T1) in *.
  assert (FT : frame c (n1 + n2) row T T').
  { apply (frame_trans P c (n1 + n2) row T T1 T').
    - eapply frame_sub; [| |exact F1]; lia.
    - eapply frame_sub; [| |exact F2]; lia. }
  split; [|split; [exact FT|]].
  - apply sat_app. split; [|exact S2].
    apply (sat_frame P L c n2 (row + n1)%Z T1 T' _ F2); [|exact S1].
    assert (OV : forall x, outside c (n1 + n2) row x -> var_reads (fun ty col row0 => ~ in_area c n2 (row + n1) ty col row0) x).
    { intros x Hx. apply SB in Hx. exact (proj2 Hx). }
    apply bc_one_reads; [lia|exact Hcs| |apply OV; exact Oth|intros x Hx; apply OV; auto|apply OV; exact Oq].
    intros j r Hr [_ [_ X]]. rewrite Ew in Hr. fold n1 in Hr. lia.
  - f_equal.
    + rewrite <- O1. unfold bc_one_out, multiplication_result, gc_out. rewrite Ew.
      unfold n1, bc_one_rows in F2. destruct (Z.eqb_spec (zlen cs) 1) as [E|E].
      * rewrite !vval_wcell. apply F2. intros [_ [_ X]]. lia.
      * rewrite !vval_wcell. apply F2. intros [_ [_ X]]. lia.
    + rewrite O2. transitivity (g_outs (vval T theta) (g_vals T gs)); [|reflexivity]. f_equal.
      * apply (vval_frame P c n1 row T T1); [exact F1|apply SB; exact Oth].
      * apply (g_vals_frame c n1 row T T1 gs F1). intros g Hin. destruct (Og g (or_intror Hin)) as [A B].
        split; [apply SB; exact A|intros x Hx; apply SB; auto].
Qed.

Lemma bc_loop_reads : forall (Q : ctype -> Z -> Z -> Prop) c w theta gs row, wf_comp c w -> (3 <= w)%Z ->
  (forall g, In g gs -> (1 <= zlen (snd g))%Z) ->
  (forall j r, (row <= r < row + bc_loop_rows w (g_sizes gs))%Z -> Q CWit (W c j) r) ->
  var_reads Q theta -> (forall g, In g gs -> var_reads Q (fst g) /\ (forall x, In x (snd g) -> var_reads Q x)) ->
  reads Q (bc_circuits (P:=P) c theta (g_sizes gs) (g_cs gs) (g_qs gs) row).
Proof.
  intros Q c w theta gs. induction gs as [|[q cs] gs IH]; intros row Hwf Hw Hg HQ Ht Hr; [apply reads_nil|].
  pose proof (proj1 (proj2 Hwf)) as Ew.
  assert (Hg' : forall g, In g gs -> (1 <= zlen (snd g))%Z) by (intros g Hin; apply Hg; right; exact Hin).
  assert (Hcs : (1 <= zlen cs)%Z) by (apply (Hg _ (or_introl eq_refl))).
  pose proof (bc_one_rows_pos w (zlen cs) Hw Hcs) as P1. pose proof (bc_loop_rows_nonneg w gs Hw Hg') as P2.
  cbn [g_sizes g_cs g_qs map flat_map bc_circuits bc_loop_rows fst snd] in *. rewrite ztake_app, zdrop_app, Ew.
  change (znth dvar (q :: map fst gs) 0) with q. change (zdrop 1 (q :: map fst gs)) with (map fst gs).
  unfold g_sizes in P2. destruct (Hr _ (or_introl eq_refl)) as [Hq Hc]. cbn [fst snd] in Hq, Hc.
  apply reads_app. split.
  - apply bc_one_reads; try assumption; [lia|]. rewrite Ew. intros j r Hj. apply HQ. lia.
  - apply IH; try assumption.
    + intros j r Hj. apply HQ. unfold g_sizes in Hj. lia.
    + intros g Hin. apply Hr. right. exact Hin.
Qed.

(** ** The final gate *)

Fixpoint gsum (th : F) (k : nat) (sizes : list Z) (vals : list F) : F :=
  match sizes, vals with
  | g :: gs, x :: xs => fpow th k * x + gsum th (k + Z.to_nat g) gs xs
  | _, _ => f0
  end.

Lemma fpow_add : forall (a : F) m n, fpow a (m + n) = fpow a m * fpow a n.
Proof. intros a m n. induction m; cbn [Nat.add fpow]; [ring|rewrite IHm; ring]. Qed.

Lemma gsum_gates : forall (th : F) (vs : list (F * list F)) k,
  gsum th k (map (fun g => zlen (snd g)) vs) (g_outs th vs) = gates_sum th k vs.
Proof.
  intros th vs. induction vs as [|[q cs] vs IH]; intros k; [reflexivity|].
  cbn [map g_outs gsum gates_sum fst snd]. unfold zlen at 1. rewrite Nat2Z.id.
  fold (g_outs th vs). rewrite IH, (theta_sum_shift th cs k). ring.
Qed.

Lemma bc_final_zeros : forall zero sizes G j sum m i, (0 <= m)%Z -> (i + m <= sum)%Z -> forall hi, (i + m <= hi)%Z ->
  bc_final_loop zero sizes G j sum (zseq i hi) = repeat zero (Z.to_nat m) ++ bc_final_loop zero sizes G j sum (zseq (i + m) hi).
Proof.
  intros zero sizes G j sum m i Hm. revert i. pattern m. apply natlike_ind; [| |exact Hm]; clear m Hm.
  - intros i _ hi _. rewrite Z.add_0_r. reflexivity.
  - intros m Hm IH i Hi hi Hhi. rewrite (zseq_cons i hi) by lia. cbn [bc_final_loop].
    destruct (Z.eqb_spec i sum) as [E|E]; [lia|]. replace (Z.to_nat (Z.succ m)) with (S (Z.to_nat m)) by lia.
    cbn [repeat app]. f_equal. rewrite IH by lia. f_equal. f_equal. f_equal. lia.
Qed.

Lemma theta_zeros : forall (th : F) n k, theta_sum th k (repeat f0 n) = f0.
Proof. intros th n. induction n as [|n IH]; intros k; cbn [repeat theta_sum]; [reflexivity|]. rewrite IH. ring. Qed.

Lemma map_rep : forall A B (f : A -> B) a n, map f (repeat a n) = repeat (f a) n.
Proof. intros A B f a n. induction n; cbn [repeat map]; [reflexivity|rewrite IHn; reflexivity]. Qed.

Lemma zsum_app : forall a b, (zsum (a ++ b) = zsum a + zsum b)%Z.
Proof. intros a b. induction a as [|x a IH]; cbn [app zsum fold_right]; [reflexivity|]. unfold zsum in *. lia. Qed.
Lemma zsum_nonneg : forall l, (forall g, In g l -> (1 <= g)%Z) -> (0 <= zsum l)%Z.
Proof.
  intros l. induction l as [|x l IH]; intros H; unfold zsum in *; cbn [fold_right]; [lia|].
  pose proof (H x (or_introl eq_refl)). assert (0 <= fold_right Z.add 0 l)%Z by (apply IH; intros; apply H; right; assumption). lia.
Qed.
Lemma in_removelast : forall A (l : list A) x, In x (removelast l) -> In x l.
Proof.
  intros A l. induction l as [|a [|b l] IH]; intros x H; [destruct H|destruct H|].
  change (removelast (a :: b :: l)) with (a :: removelast (b :: l)) in H. destruct H as [<-|H]; [left; reflexivity|right; auto].
Qed.

Lemma bc_final_sum : forall T zero (th : F), vval T zero = f0 -> forall rest pre Grest Gpre k,
  rest <> [] -> (forall g, In g rest -> (1 <= g)%Z) -> length Grest = length rest -> zlen Gpre = zlen pre ->
  theta_sum th k (map (vval T) (bc_final_loop zero (pre ++ rest) (Gpre ++ Grest) (zlen pre) (zsum pre)
    (zseq (zsum pre) (zsum pre + zsum (removelast rest) + 1)))) = gsum th k rest (map (vval T) Grest).
Proof.
  intros T zero th Hz rest. induction rest as [|s rest IH]; intros pre Grest Gpre k Hne Hs HL HP; [contradiction|].
  destruct Grest as [|x Grest]; [discriminate|]. cbn [map gsum].
  assert (NN : (0 <= zsum (removelast (s :: rest)))%Z).
  { apply zsum_nonneg. intros g Hg. apply Hs. apply in_removelast. exact Hg. }
  rewrite zseq_cons by lia. cbn [bc_final_loop]. rewrite Z.eqb_refl. cbn [map theta_sum].
  assert (EG : znth dvar (Gpre ++ x :: Grest) (zlen pre) = x).
  { rewrite znth_r by lia. rewrite HP, Z.sub_diag. reflexivity. }
  assert (ES : znth 0%Z (pre ++ s :: rest) (zlen pre) = s).
  { rewrite znth_r by lia. rewrite Z.sub_diag. reflexivity. }
  rewrite EG, ES. f_equal.
  destruct rest as [|s2 rest].
  - cbn [removelast zsum fold_right]. rewrite zseq_nil by lia. destruct Grest; [|discriminate]. reflexivity.
  - change (removelast (s :: s2 :: rest)) with (s :: removelast (s2 :: rest)) in *.
    assert (Hs1 : (1 <= s)%Z) by (apply Hs; left; reflexivity).
    assert (NN2 : (0 <= zsum (removelast (s2 :: rest)))%Z).
    { apply zsum_nonneg. intros g Hg. apply Hs. right. apply in_removelast. exact Hg. }
    change (zsum (s :: removelast (s2 :: rest))) with (s + zsum (removelast (s2 :: rest)))%Z in *.
    rewrite (bc_final_zeros _ _ _ _ _ (s - 1) (zsum pre + 1)) by lia.
    rewrite map_app, map_rep, Hz, theta_sum_app, theta_zeros, repeat_length.
    specialize (IH (pre ++ [s]) Grest (Gpre ++ [x]) (k + Z.to_nat s)%nat ltac:(discriminate)).
    rewrite <- IH; [|intros g Hg; apply Hs; right; exact Hg|cbn [length] in *; lia|rewrite !zlen_app; cbn; lia].
    rewrite <- !app_assoc. cbn [app]. rewrite zsum_app, zlen_app. change (zsum [s]) with (s + 0)%Z.
    change (zlen [s]) with 1%Z.
    replace (zsum pre + (s + 0))%Z with (zsum pre + s)%Z by lia.
    replace (zsum pre + 1 + (s - 1))%Z with (zsum pre + s)%Z by lia.
    replace (zsum pre + (s + zsum (removelast (s2 :: rest))) + 1)%Z with (zsum pre + s + zsum (removelast (s2 :: rest)) + 1)%Z by lia.
    replace (S k + Z.to_nat (s - 1))%nat with (k + Z.to_nat s)%nat by lia. ring.
Qed.

Lemma bc_outs_length : forall c sizes row, length (bc_outs c sizes row) = length sizes.
Proof. intros c sizes. induction sizes as [|g gs IH]; intros row; cbn [bc_outs length]; [reflexivity|]. rewrite IH. reflexivity. Qed.

Lemma bc_final_len : forall zero sizes G is j sum, length (bc_final_loop zero sizes G j sum is) = length is.
Proof.
  intros zero sizes G is. induction is as [|i is IH]; intros j sum; [reflexivity|]. cbn [bc_final_loop].
  destruct (i =? sum)%Z; cbn [length]; rewrite IH; reflexivity.
Qed.

Lemma bc_final_in : forall zero rest pre Grest Gpre x,
  rest <> [] -> (forall g, In g rest -> (1 <= g)%Z) -> length Grest = length rest -> zlen Gpre = zlen pre ->
  In x (bc_final_loop zero (pre ++ rest) (Gpre ++ Grest) (zlen pre) (zsum pre)
    (zseq (zsum pre) (zsum pre + zsum (removelast rest) + 1))) -> x = zero \/ In x Grest.
Proof.
  intros zero rest. induction rest as [|s rest IH]; intros pre Grest Gpre y Hne Hs HL HP H; [contradiction|].
  destruct Grest as [|x Grest]; [discriminate|].
  assert (NN : (0 <= zsum (removelast (s :: rest)))%Z).
  { apply zsum_nonneg. intros g Hg. apply Hs. apply in_removelast. exact Hg. }
  rewrite zseq_cons in H by lia. cbn [bc_final_loop] in H. rewrite Z.eqb_refl in H.
  assert (EG : znth dvar (Gpre ++ x :: Grest) (zlen pre) = x).
  { rewrite znth_r by lia. rewrite HP, Z.sub_diag. reflexivity. }
  assert (ES : znth 0%Z (pre ++ s :: rest) (zlen pre) = s).
  { rewrite znth_r by lia. rewrite Z.sub_diag. reflexivity. }
  rewrite EG, ES in H. destruct H as [<-|H]; [right; left; reflexivity|].
  destruct rest as [|s2 rest].
  - cbn [removelast zsum fold_right] in H. rewrite zseq_nil in H by lia. destruct H.
  - change (removelast (s :: s2 :: rest)) with (s :: removelast (s2 :: rest)) in *.
    assert (Hs1 : (1 <= s)%Z) by (apply Hs; left; reflexivity).
    assert (NN2 : (0 <= zsum (removelast (s2 :: rest)))%Z).
    { apply zsum_nonneg. intros g Hg. apply Hs. right. apply in_removelast. exact Hg. }
    change (zsum (s :: removelast (s2 :: rest))) with (s + zsum (removelast (s2 :: rest)))%Z in *.
    rewrite (bc_final_zeros _ _ _ _ _ (s - 1) (zsum pre + 1)) in H by lia.
    apply in_app_or in H. destruct H as [H|H]; [left; apply repeat_spec in H; exact H|].
    assert (D : y = zero \/ In y Grest); [|destruct D; [left|right; right]; assumption].
    apply (IH (pre ++ [s]) Grest (Gpre ++ [x]));
      [discriminate|intros g Hg; apply Hs; right; exact Hg|cbn [length] in *; lia|rewrite !zlen_app; cbn; lia|].
    rewrite <- !app_assoc. cbn [app]. rewrite zsum_app, zlen_app. change (zsum [s]) with (s + 0)%Z.
    change (zlen [s]) with 1%Z.
    replace (zsum pre + (s + 0))%Z with (zsum pre + s)%Z by lia.
    replace (zsum pre + 1 + (s - 1))%Z with (zsum pre + s)%Z in H by lia.
    replace (zsum pre + (s + zsum (removelast (s2 :: rest))) + 1)%Z with (zsum pre + s + zsum (removelast (s2 :: rest)) + 1)%Z in H by lia.
    exact H.
Qed.

Lemma bc_final_spec : forall T c row sizes (th : F), T CConst (C c 0) row = f0 ->
  sizes <> [] -> (forall g, In g sizes -> (1 <= g)%Z) ->
  theta_sum th 0 (map (vval T) (bc_final_inputs c sizes row)) = gsum th 0 sizes (map (vval T) (bc_outs c sizes row)).
Proof.
  intros T c row sizes th Hz Hne Hs. unfold bc_final_inputs, bc_total.
  pose proof (bc_final_sum T (ccell (C c 0) row) th Hz sizes [] (bc_outs c sizes row) [] 0%nat Hne Hs (bc_outs_length c sizes row) eq_refl) as E.
  cbn [app] in E. change (zlen (@nil Z)) with 0%Z in E. change (zsum []) with 0%Z in E.
  replace (zsum (removelast sizes) + 1)%Z with (0 + zsum (removelast sizes) + 1)%Z by lia. exact E.
Qed.

Lemma bc_total_len : forall c sizes row, (2 <= zlen sizes)%Z -> (forall g, In g sizes -> (1 <= g)%Z) ->
  zlen (bc_final_inputs c sizes row) = (bc_total sizes + 1)%Z /\ (1 <= bc_total sizes)%Z.
Proof.
  intros c sizes row H2 Hs.
  assert (A : (1 <= bc_total sizes)%Z).
  { unfold bc_total. destruct sizes as [|a [|b l]]; unfold zlen in H2; cbn [length] in H2; try lia.
    change (removelast (a :: b :: l)) with (a :: removelast (b :: l)).
    pose proof (Hs a (or_introl eq_refl)).
    assert (0 <= zsum (removelast (b :: l)))%Z by (apply zsum_nonneg; intros g Hg; apply Hs; right; apply in_removelast; exact Hg).
    unfold zsum in *. cbn [fold_right]. lia. }
  split; [|exact A]. unfold bc_final_inputs, zlen. rewrite bc_final_len, zseq_length. lia.
Qed.

Lemma g_sizes_vals : forall T gs, map (fun g => zlen (snd g)) (g_vals T gs) = g_sizes gs.
Proof.
  intros T gs. unfold g_vals, g_sizes. rewrite map_map. apply map_ext. intros g. cbn [snd]. apply zlen_map.
Qed.
Lemma g_sizes_pos : forall gs, (forall g, In g gs -> (1 <= zlen (snd g))%Z) -> forall g, In g (g_sizes gs) -> (1 <= g)%Z.
Proof. intros gs H g Hg. apply in_map_iff in Hg. destruct Hg as [x [<- Hx]]. auto. Qed.

(** ** basic_constraints_verifier *)

Lemma bc_sound_l : forall T c theta gs row, (3 <= wamount c)%Z -> gs <> [] ->
  (forall g, In g gs -> (1 <= zlen (snd g))%Z) ->
  sat L T (bc_circuit c theta (g_sizes gs) (g_cs gs) (g_qs gs) row) ->
  vval T (bc_out c (g_sizes gs) row) = gates_sum (vval T theta) 0 (g_vals T gs).
Proof.
  intros T c theta gs row Hw Hne Hg H. unfold bc_circuit in H. apply sat_app in H. destruct H as [H1 H2].
  pose proof (bc_loop_sound T c theta gs row Hw Hg H1) as LS.
  unfold bc_out, bc_rows. pose proof (g_sizes_pos gs Hg) as HP.
  destruct (Z.ltb_spec 1 (zlen (g_sizes gs))) as [L1|L1].
  - assert (Hne2 : (zlen (g_sizes gs) =? 1)%Z = false) by (apply Z.eqb_neq; lia). rewrite Hne2. cbn [andb].
    apply sat_app in H2. destruct H2 as [K H2]. rewrite !sat_cons in K. destruct K as [K0 [K1 _]]. cbn [holds] in K0, K1.
    destruct (bc_total_len c (g_sizes gs) row ltac:(lia) HP) as [LEN TP].
    apply gc_sound_l in H2; [|exact Hw|lia]. rewrite LEN in H2. replace (bc_total (g_sizes gs) + 1 - 1)%Z with (bc_total (g_sizes gs)) in H2 by lia.
    unfold gc_out in H2.
    replace (row + (bc_loop_rows (wamount c) (g_sizes gs) + gc_rows (wamount c) (bc_total (g_sizes gs))) - 1)%Z
      with (row + bc_loop_rows (wamount c) (g_sizes gs) + gc_rows (wamount c) (bc_total (g_sizes gs)) - 1)%Z by lia.
    rewrite H2, vval_ccell, K1.
    assert (Hne3 : g_sizes gs <> []) by (destruct gs; [contradiction|discriminate]).
    rewrite (bc_final_spec T c row (g_sizes gs) _ K0 Hne3 HP), LS.
    rewrite <- (g_sizes_vals T gs), gsum_gates. ring.
  - destruct gs as [|[q cs] gs]; [contradiction|]. destruct gs as [|g2 gs]; [|unfold zlen in L1; cbn in L1; lia].
    cbn [g_sizes map snd fst] in *. change (zlen [zlen cs]) with 1%Z. change (1 =? 1)%Z with true.
    change (znth 0%Z [zlen cs] 0) with (zlen cs). cbn [andb bc_loop_rows].
    cbn [bc_outs map g_vals g_outs fst snd] in LS. injection LS as LS.
    cbn [g_vals map gates_sum fst snd].
    transitivity (vval T q * theta_sum (vval T theta) 0 (map (vval T) cs)); [|ring]. rewrite <- LS.
    unfold bc_one_out, bc_one_rows, multiplication_result, gc_out.
    destruct (Z.eqb_spec (zlen cs) 1) as [E|E]; f_equal; f_equal; lia.
Qed.

Lemma bc_complete_l : forall T c w theta gs row, wf_comp c w -> (3 <= w)%Z -> gs <> [] ->
  (forall g, In g gs -> (1 <= zlen (snd g))%Z) ->
  let n := bc_rows w (g_sizes gs) in
  outside c n row theta -> g_outside c n row gs ->
  consts_in T (bc_circuit c theta (g_sizes gs) (g_cs gs) (g_qs gs) row) ->
  let T' := bc_assign c theta (g_sizes gs) (g_cs gs) (g_qs gs) row T in
  sat L T' (bc_circuit c theta (g_sizes gs) (g_cs gs) (g_qs gs) row) /\ frame c n row T T' /\
  vval T' (bc_out c (g_sizes gs) row) = gates_sum (vval T theta) 0 (g_vals T gs).
Proof.
  intros T c w theta gs row Hwf Hw Hne Hg n Oth Og KI T'. pose proof (proj1 (proj2 Hwf)) as Ew.
  pose proof (bc_loop_rows_nonneg w gs Hw Hg) as LN. pose proof (g_sizes_pos gs Hg) as HP.
  set (n1 := bc_loop_rows w (g_sizes gs)) in *.
  set (n2 := if (1 <? zlen (g_sizes gs))%Z then gc_rows w (bc_total (g_sizes gs)) else 0%Z).
  assert (En : n = (n1 + n2)%Z) by reflexivity.
  assert (N2 : (0 <= n2)%Z).
  { subst n2. destruct (Z.ltb_spec 1 (zlen (g_sizes gs))); [|lia].
    destruct (bc_total_len c (g_sizes gs) row ltac:(lia) HP) as [_ TP]. pose proof (gc_rows_pos w _ Hw TP). lia. }
  assert (SB : forall x, outside c n row x -> outside c n1 row x /\ outside c n2 (row + n1) x).
  { intros x Hx. split; (eapply outside_sub; [| |exact Hx]); lia. }
  destruct (bc_loop_complete c w theta gs row T Hwf Hw Hg) as [S1 [F1 O1]]; fold n1;
    [apply SB; exact Oth|intros g Hin; destruct (Og g Hin) as [A B]; split; [apply SB; exact A|intros x Hx; apply SB; auto]|].
  fold n1 in F1. set (T1 := bc_assigns c theta (g_sizes gs) (g_cs gs) (g_qs gs) row T) in *.
  assert (SC : sat L T' (bc_circuit c theta (g_sizes gs) (g_cs gs) (g_qs gs) row) /\ frame c n row T T').
  { subst T'. unfold bc_assign, bc_circuit. fold T1. cbv zeta. rewrite Ew. fold n1.
    destruct (Z.ltb_spec 1 (zlen (g_sizes gs))) as [L1|L1].
    - destruct (bc_total_len c (g_sizes gs) row ltac:(lia) HP) as [LEN TP].
      assert (KK : T CConst (C c 0) row = f0 /\ T CConst (C c 0) (row + 1)%Z = f1).
      { unfold bc_circuit in KI. rewrite (proj2 (Z.ltb_lt 1 (zlen (g_sizes gs))) L1) in KI.
        split; apply KI; apply in_or_app; right; [left|right; left]; reflexivity. }
      assert (E2 : n2 = gc_rows w (zlen (bc_final_inputs c (g_sizes gs) row) - 1)).
      { subst n2. rewrite LEN. f_equal. lia. }
      assert (OG : forall x, In x (bc_final_inputs c (g_sizes gs) row) -> outside c n2 (row + n1) x).
      { intros x Hx. unfold bc_final_inputs, bc_total in Hx.
        assert (D : x = ccell (C c 0) row \/ In x (bc_outs c (g_sizes gs) row)).
        { apply (bc_final_in (ccell (C c 0) row) (g_sizes gs) [] (bc_outs c (g_sizes gs) row) []);
            [destruct gs; [contradiction|discriminate]|exact HP|apply bc_outs_length|reflexivity|exact Hx]. }
        destruct D as [-> |Hin].
        - intros [X _]. discriminate.
        - apply (bc_outs_in c w) in Hin; [|exact Hw|exact Ew|exact HP].
          destruct Hin as [j [r [-> Hr]]]. fold n1 in Hr. intros [_ [_ X]]. cbn in X. lia. }
      destruct (gc_complete_l T1 c w theta (bc_final_inputs c (g_sizes gs) row) (ccell (C c 0) (row + 1)) (row + n1) Hwf Hw ltac:(lia))
        as [S2 [F2 O2]]; try rewrite <- E2;
        [apply SB; exact Oth|exact OG|intros [X _]; discriminate|].
      rewrite <- E2 in F2. set (T2 := gc_assign c theta (bc_final_inputs c (g_sizes gs) row) (ccell (C c 0) (row + 1)) (row + n1) T1) in *.
      assert (FT : frame c n row T T2).
      { apply (frame_trans P c n row T T1 T2); (eapply frame_sub; [| |eassumption]); lia. }
      split; [|exact FT]. apply sat_app. split; [|apply sat_app; split].
      + apply (sat_frame P L c n2 (row + n1)%Z T1 T2 _ F2); [|exact S1].
        apply (bc_loop_reads _ c w); try assumption.
        * fold n1. intros j r Hr [_ [_ X]]. lia.
        * apply SB. exact Oth.
        * intros g Hin. destruct (Og g Hin) as [A B]. split; [apply SB; exact A|intros x Hx; apply SB; auto].
      + destruct KK as [K0 K1]. apply sat_cons. split; [|apply sat_cons; split; [|apply sat_nil]]; cbn [holds].
        * rewrite FT; [exact K0|intros [X _]; discriminate].
        * rewrite FT; [exact K1|intros [X _]; discriminate].
      + exact S2.
    - split; [|eapply frame_sub; [| |exact F1]; lia]. apply sat_app. split; [exact S1|apply sat_nil]. }
  destruct SC as [SC FT]. split; [exact SC|]. split; [exact FT|].
  rewrite (bc_sound_l T' c theta gs row ltac:(lia) Hne Hg SC). f_equal.
  - apply (vval_frame P c n row T T'); assumption.
  - apply (g_vals_frame c n row T T' gs FT Og).
Qed.

End Gate.
