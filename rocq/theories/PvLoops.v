(** Proofs about f1_loop and f3_loop. *)
From Coq Require Import ZArith List Lia Bool Field.
From Verif Require Import Base Field Plonk PlonkFacts Bits FlexModel FlexProofs PvModel PvSpec PvTape PvGate.
Import ListNotations.
Open Scope Z_scope.

Lemma zsteps_cons : forall lo hi step, 0 < step -> lo < hi -> zsteps lo hi step = lo :: zsteps (lo + step) hi step.
Proof.
  intros lo hi step Hs Hl. unfold zsteps.
  replace ((hi - lo + step - 1) / step) with ((hi - (lo + step) + step - 1) / step + 1).
  2:{ replace (hi - lo + step - 1) with (hi - (lo + step) + step - 1 + 1 * step) by lia. rewrite Z.div_add by lia. reflexivity. }
  set (k := (hi - (lo + step) + step - 1) / step).
  assert (0 <= k) by (apply Z.div_pos; lia).
  rewrite (zseq_cons 0 (k + 1)) by lia. cbn [map]. f_equal; [lia|].
  unfold zseq. replace (k + 1 - (0 + 1)) with (k - 0) by lia.
  generalize (Z.to_nat (k - 0)). intros n. change (0 + 1) with 1.
  assert (G : forall a b, b = a + 1 -> map (fun x => lo + step * x) (zrange b n) = map (fun x => lo + step + step * x) (zrange a n)).
  { clear. induction n as [|n IH]; intros a b E; [reflexivity|]. cbn [zrange map]. f_equal; [lia|]. apply IH. lia. }
  apply G. reflexivity.
Qed.

Ltac zd := Z.to_euclidean_division_equations; lia.

Section Loops.
Variable P : params.
Notation F := (F P).
Notation table := (table P).
Variable L : lenv P.
Implicit Types T : table.
Add Field Ff : (F_field P) (morphism (F_morph P), constants [F_const], power_tac (F_power P) [F_pow_tac]).
Local Open Scope F_scope.

(** ** f1_loop: the gates *)

Definition wvar c (i rot : Z) : expr P := evar (wv (W c i) rot).

(** The expression for the cell [t] positions back from column [j] of relative
    row [rr], in strips of [w - 1] columns. *)
Definition f1_back c (j rr t : Z) : expr P :=
  if (t <? j)%Z then wvar c (j - t) rr else wvar c (j - t + (wamount c - 1)) (rr - 1).
Definition f1_gen c (rr b g j : Z) : expr P :=
  f1_con (wvar c j rr) (f1_back c j rr 3) (wvar c 0 b) (wvar c 0 g) (f1_back c j rr 2) (f1_back c j rr 1).

Lemma f1_row_gen : forall c start rr b g, (4 <= start)%Z ->
  f1_row (P:=P) c start rr b g = map (f1_gen c rr b g) (zsteps start (wamount c) 3).
Proof.
  intros c start rr b g Hs. unfold f1_row. apply map_ext_in. intros j Hj. apply in_zsteps in Hj; [|lia].
  destruct Hj as [k [Hk [E _]]]. unfold f1_gen, f1_back.
  rewrite (proj2 (Z.ltb_lt 3 j)), (proj2 (Z.ltb_lt 2 j)), (proj2 (Z.ltb_lt 1 j)) by lia. reflexivity.
Qed.

Definition f1_sec c (s rr b g : Z) : list (expr P) := map (f1_gen c rr b g) (zsteps s (wamount c) 3).

Lemma f1_sec_cons : forall c s rr b g, (1 <= s <= 3)%Z -> (4 <= wamount c)%Z ->
  f1_sec c s rr b g = [f1_gen c rr b g s] ++ f1_row c (s + 3) rr b g.
Proof.
  intros c s rr b g Hs Hw. unfold f1_sec. rewrite zsteps_cons by lia. cbn [map app]. f_equal.
  symmetry. apply f1_row_gen. lia.
Qed.

Definition f1_first c : expr P :=
  EBin OSub (wvar c 3 0) (f1_body (wvar c 0 0) (wvar c 0 1) (wvar c 1 0) (wvar c 2 0)).

Lemma f1_gates_eq : forall c, (4 <= wamount c)%Z -> f1_gates (P:=P) c =
  [f1_first c] ++ f1_sec c 3 0 0 1 ++
  (if (wamount c mod 3 =? 1)%Z then f1_sec c 3 0 (-1) 0 ++ f1_sec c 3 0 0 (-1)
   else if (wamount c mod 3 =? 2)%Z then f1_sec c 2 0 (-1) 0 ++ f1_sec c 1 0 0 (-1) ++ f1_sec c 3 1 0 (-1)
   else f1_sec c 1 0 (-1) 0 ++ f1_sec c 2 0 0 (-1) ++ f1_sec c 3 1 0 (-1)).
Proof.
  intros c Hw. unfold f1_gates. cbv zeta.
  assert (E1 : (1 - 3 + (wamount c - 1) = wamount c - 3)%Z) by lia.
  assert (E2 : (1 - 2 + (wamount c - 1) = wamount c - 2)%Z) by lia.
  assert (E3 : (2 - 3 + (wamount c - 1) = wamount c - 2)%Z) by lia.
  assert (E4 : (1 - 1 + (wamount c - 1) = wamount c - 1)%Z) by lia.
  assert (E5 : (2 - 2 + (wamount c - 1) = wamount c - 1)%Z) by lia.
  assert (E6 : (3 - 3 + (wamount c - 1) = wamount c - 1)%Z) by lia.
  rewrite !f1_sec_cons by lia. rewrite <- !app_assoc.
  unfold f1_gen, f1_back. cbn [Z.ltb Z.compare Pos.compare Pos.compare_cont].
  change (3 - 2)%Z with 1%Z. change (3 - 1)%Z with 2%Z. change (2 - 1)%Z with 1%Z. change (0 - 1)%Z with (-1)%Z. 
  rewrite ?E1, ?E2, ?E3, ?E4, ?E5, ?E6. reflexivity.
Qed.

Notation cl T c row p := (cell T c 1 (wamount c - 1) row p).

Lemma f1_back_eval : forall T c row p rr t, (4 <= wamount c)%Z -> (1 <= t <= 3)%Z ->
  eval T (row + p / (wamount c - 1) - rr) (f1_back c (p mod (wamount c - 1) + 1) rr t) = cl T c row (p - t).
Proof.
  intros T c row p rr t Hw Ht. pose proof (Z.mod_pos_bound p (wamount c - 1) ltac:(lia)) as M.
  unfold f1_back, wvar. destruct (Z.ltb_spec t (p mod (wamount c - 1) + 1)) as [H|H]; eval_norm.
  - rewrite cell_back by lia. f_equal; try lia; f_equal; lia.
  - rewrite cell_prev by lia. f_equal; try lia; f_equal; lia.
Qed.

Definition f1_factor (be ga s t : F) : F := (f1 + be) * ga + s + be * t.

Lemma f1_gen_eval : forall T c row p rr b g, (4 <= wamount c)%Z ->
  eval T (row + p / (wamount c - 1) - rr) (f1_gen c rr b g (p mod (wamount c - 1) + 1)) =
  cl T c row p - cl T c row (p - 3) *
    f1_factor (T CWit (W c 0) (row + (p / (wamount c - 1) - rr + b))%Z) (T CWit (W c 0) (row + (p / (wamount c - 1) - rr + g))%Z)
      (cl T c row (p - 2)) (cl T c row (p - 1)).
Proof.
  intros T c row p rr b g Hw. unfold f1_gen, f1_con, f1_body.
  repeat (rewrite eval_bin; cbn [ebop]). rewrite !f1_back_eval by lia. unfold wvar. eval_norm. rewrite cell_at.
  unfold f1_factor. change (ofZ 1 : F) with (f1 : F).
  replace (row + p / (wamount c - 1) - rr + rr)%Z with (row + p / (wamount c - 1))%Z by lia.
  replace (row + p / (wamount c - 1) - rr + b)%Z with (row + (p / (wamount c - 1) - rr + b))%Z by lia.
  replace (row + p / (wamount c - 1) - rr + g)%Z with (row + (p / (wamount c - 1) - rr + g))%Z by lia.
  reflexivity.
Qed.

(** ** f1_loop: the enabled selectors *)

(** Selector and row used for the product after factor [i]. *)
Definition f1_at (w n i : Z) : Z * Z :=
  let p := (3 * i + 2)%Z in
  let r := (p / (w - 1))%Z in
  let j := (p mod (w - 1) + 1)%Z in
  if (w mod 3 =? 1)%Z then
    ((if (r =? n - 1)%Z then 2 - r mod 2 else r mod 2) * (w / 3) + j / 3, r)%Z
  else
    let z := (if (r =? n - 1) && (r mod 3 =? 0) then 1 else 0)%Z in
    if (w mod 3 =? 2)%Z then ((r mod 3) * (w / 3) + (j + r mod 3) / 3 + z * (w - 1), r - z)%Z
    else ((r mod 3) * (w / 3) + (j + r mod 3) / 3 - (if r mod 3 =? 2 then 1 else 0) + z * (w - 1), r - z)%Z.

(** Columns of a row that hold running products. *)
Lemma f1_col : forall w r j, (4 <= w)%Z -> (0 <= r)%Z -> (1 <= j < w)%Z ->
  ((r * (w - 1) + j - 1) mod 3 = 2 <->
   (j mod 3 = (if w mod 3 =? 1 then 0 else if w mod 3 =? 2 then (3 - r mod 3) mod 3 else r mod 3)))%Z.
Proof.
  intros w r j Hw Hr Hj.
  pose proof (Z.div_mod w 3 ltac:(lia)) as Dw. pose proof (Z.mod_pos_bound w 3 ltac:(lia)) as Mw.
  pose proof (Z.div_mod r 3 ltac:(lia)) as Dr. pose proof (Z.mod_pos_bound r 3 ltac:(lia)) as Mr.
  pose proof (Z.div_mod j 3 ltac:(lia)) as Dj. pose proof (Z.mod_pos_bound j 3 ltac:(lia)) as Mj.
  set (a := (w mod 3)%Z) in *. set (b := (r mod 3)%Z) in *. set (d := (j mod 3)%Z) in *.
  set (qw := (w / 3)%Z) in *. set (qr := (r / 3)%Z) in *. set (qj := (j / 3)%Z) in *.
  clearbody a b d qw qr qj.
  assert (E : ((r * (w - 1) + j - 1) mod 3 = (b * (a + 2) + d + 2) mod 3)%Z).
  { replace (r * (w - 1) + j - 1)%Z with
      (b * (a + 2) + d + 2 + (qr * (w - 1) + b * qw + qj - 1 - b) * 3)%Z.
    - apply Z.mod_add. lia.
    - subst w r j. ring. }
  rewrite E. clear E.
  assert (Ha : (a = 0 \/ a = 1 \/ a = 2)%Z) by lia. assert (Hb : (b = 0 \/ b = 1 \/ b = 2)%Z) by lia.
  assert (Hd : (d = 0 \/ d = 1 \/ d = 2)%Z) by lia. clear Mw Mr Mj.
  destruct Ha as [-> |[-> | ->]], Hb as [-> |[-> | ->]], Hd as [-> |[-> | ->]]; cbn; split; intros; try reflexivity; try discriminate.
Qed.


Lemma in_zsteps3 : forall s hi j, (1 <= s <= 3)%Z ->
  (In j (zsteps s hi 3) <-> (1 <= j < hi /\ j mod 3 = s mod 3)%Z).
Proof.
  intros s hi j Hs. rewrite in_zsteps by lia. split.
  - intros [k [Hk [E Hh]]]. split; [lia|]. rewrite E. rewrite Z.mul_comm. apply Z.mod_add. lia.
  - intros [H1 H2]. exists ((j - s) / 3)%Z. zd.
Qed.

Lemma f1_rows_big : forall w m, (4 <= w)%Z -> (w < 3 * m + 1)%Z ->
  (f1_rows w m - 1 = (3 * m - 1) / (w - 1) /\ 1 <= f1_rows w m - 1)%Z.
Proof.
  intros w m Hw Hm. unfold f1_rows. rewrite ceil_rows_pred by lia.
  assert (1 <= (3 * m - 1) / (w - 1))%Z by (apply Z.div_le_lower_bound; lia). lia.
Qed.

(** Positions in the strip of [w - 1] columns. *)
Lemma strip_pos : forall w r j, (4 <= w)%Z -> (1 <= j < w)%Z ->
  ((r * (w - 1) + j - 1) / (w - 1) = r /\ (r * (w - 1) + j - 1) mod (w - 1) + 1 = j)%Z.
Proof.
  intros w r j Hw Hj. replace (r * (w - 1) + j - 1)%Z with (r * (w - 1) + (j - 1))%Z by lia.
  destruct (pos_div (w - 1) r (j - 1) ltac:(lia)) as [-> ->]. lia.
Qed.
Lemma strip_le : forall w x r j, (4 <= w)%Z -> (0 <= x)%Z -> (1 <= j < w)%Z ->
  (r * (w - 1) + j - 1 <= x <-> r < x / (w - 1) \/ (r = x / (w - 1) /\ j <= x mod (w - 1) + 1))%Z.
Proof.
  intros w x r j Hw Hx Hj. pose proof (Z.div_mod x (w - 1) ltac:(lia)) as D.
  pose proof (Z.mod_pos_bound x (w - 1) ltac:(lia)) as M.
  set (R := (x / (w - 1))%Z) in *. set (k := (x mod (w - 1))%Z) in *. clearbody R k. split.
  - intros H. destruct (Z.lt_trichotomy r R) as [|[E|G]]; [tauto|subst r; right; split; lia|].
    assert ((R + 1) * (w - 1) <= r * (w - 1))%Z by (apply Z.mul_le_mono_nonneg_r; lia). lia.
  - intros [H|[-> H]]; [|lia].
    assert ((r + 1) * (w - 1) <= R * (w - 1))%Z by (apply Z.mul_le_mono_nonneg_r; lia). lia.
Qed.

Lemma f1_enum : forall (A : Z -> Z -> Z * Z) (B : Z -> Z * Z) (st : Z -> Z) w m n ir, (4 <= w)%Z ->
  (n - 1 = (3 * m - 1) / (w - 1))%Z -> (1 <= n - 1)%Z -> (1 <= m)%Z ->
  (forall r, (0 <= r)%Z -> (1 <= st r <= 3 /\
     forall j, 1 <= j < w -> (j mod 3 = st r mod 3 <-> (r * (w - 1) + j - 1) mod 3 = 2))%Z) ->
  (In ir (flat_map (fun r => map (A r) (filter (fun j => negb ((r =? 0) && (j =? 3))%Z) (zsteps (st r) w 3))) (zseq 0 (n - 1)) ++
          map B (zsteps (st (n - 1)%Z) ((3 * m - 1) mod (w - 1) + 1 + 1) 3)) <->
   exists i, (1 <= i < m)%Z /\ ir =
     let p := (3 * i + 2)%Z in let r := (p / (w - 1))%Z in let j := (p mod (w - 1) + 1)%Z in
     if (r =? n - 1)%Z then B j else A r j).
Proof.
  intros A B st w m n ir Hw En Hn Hm Hst.
  pose proof (Z.mod_pos_bound (3 * m - 1) (w - 1) ltac:(lia)) as ML. cbv zeta.
  rewrite in_app_iff, in_flat_map, in_map_iff. split.
  - intros [[r [Hr H]]|[j [E H]]].
    + apply in_zseq in Hr. apply in_map_iff in H. destruct H as [j [E H]]. apply filter_In in H. destruct H as [H K].
      destruct (Hst r ltac:(lia)) as [S1 S2]. apply (in_zsteps3 _ _ _ S1) in H. destruct H as [H1 H2].
      apply S2 in H2; [|lia]. assert (LE : (r * (w - 1) + j - 1 <= 3 * m - 1)%Z) by (apply (strip_le w (3 * m - 1) r j Hw); [lia|exact H1|left; rewrite <- En; lia]).
      destruct (strip_pos w r j Hw H1) as [P1 P2].
      assert (NZ : (r * (w - 1) + j - 1 <> 2)%Z).
      { intros X. destruct (Z.eq_dec r 0) as [-> |Hz].
        - assert (j = 3)%Z by lia. subst j. discriminate.
        - assert (1 * (w - 1) <= r * (w - 1))%Z by (apply Z.mul_le_mono_nonneg_r; lia). lia. }
      assert (PP : (0 <= r * (w - 1))%Z) by (apply Z.mul_nonneg_nonneg; lia).
      set (p := (r * (w - 1) + j - 1)%Z) in *. exists (p / 3)%Z.
      assert (Ep : (3 * (p / 3) + 2 = p)%Z) by (clear - H2; zd).
      assert (Hp : (0 <= p)%Z) by lia. rewrite Ep.
      split; [clear - Ep NZ LE Hp; lia|].
      rewrite P1, P2. rewrite (proj2 (Z.eqb_neq r (n - 1))) by lia. symmetry. exact E.
    + destruct (Hst (n - 1)%Z ltac:(lia)) as [S1 S2]. apply (in_zsteps3 _ _ _ S1) in H. destruct H as [H1 H2].
      assert (Hj : (1 <= j < w)%Z) by lia.
      apply S2 in H2; [|lia].
      assert (LE : ((n - 1) * (w - 1) + j - 1 <= 3 * m - 1)%Z) by (apply (strip_le w (3 * m - 1) (n - 1) j Hw); [lia|exact Hj|right; split; [exact En|lia]]).
      destruct (strip_pos w (n - 1) j Hw Hj) as [P1 P2].
      assert (1 * (w - 1) <= (n - 1) * (w - 1))%Z by (apply Z.mul_le_mono_nonneg_r; lia).
      set (p := ((n - 1) * (w - 1) + j - 1)%Z) in *. exists (p / 3)%Z.
      assert (Ep : (3 * (p / 3) + 2 = p)%Z) by (clear - H2; zd). rewrite Ep.
      split; [lia|]. rewrite P1, P2, Z.eqb_refl. symmetry. exact E.
  - intros [i [Hi ->]]. set (p := (3 * i + 2)%Z).
    pose proof (Z.div_mod p (w - 1) ltac:(lia)) as D. pose proof (Z.mod_pos_bound p (w - 1) ltac:(lia)) as M.
    assert (R0 : (0 <= p / (w - 1))%Z) by (apply Z.div_pos; subst p; lia).
    set (r := (p / (w - 1))%Z) in *. set (j := (p mod (w - 1) + 1)%Z) in *.
    assert (Hj : (1 <= j < w)%Z) by lia.
    assert (Ep : p = (r * (w - 1) + j - 1)%Z) by lia.
    assert (LE : (r * (w - 1) + j - 1 <= 3 * m - 1)%Z) by lia.
    apply strip_le in LE; [|lia|lia|exact Hj].
    assert (P2 : ((r * (w - 1) + j - 1) mod 3 = 2)%Z).
    { rewrite <- Ep. unfold p. clear. zd. }
    destruct (Z.eqb_spec r (n - 1)) as [E|E].
    + right. exists j. split; [reflexivity|]. destruct (Hst (n - 1)%Z ltac:(lia)) as [S1 S2].
      apply (in_zsteps3 _ _ _ S1). split; [lia|]. apply S2; [lia|]. rewrite <- E. exact P2.
    + left. exists r. split; [apply in_zseq; lia|]. apply in_map_iff. exists j. split; [reflexivity|].
      apply filter_In. destruct (Hst r R0) as [S1 S2]. split.
      * apply (in_zsteps3 _ _ _ S1). split; [lia|]. apply S2; [lia|]. exact P2.
      * destruct (Z.eqb_spec r 0) as [X|X]; [|reflexivity]. destruct (Z.eqb_spec j 3) as [Y|Y]; [|reflexivity].
        exfalso. rewrite X, Y in Ep. unfold p in Ep. lia.
Qed.

Lemma f1_last : forall w m, (4 <= w)%Z -> (1 <= m)%Z ->
  (if (3 * m) mod (w - 1) =? 0 then w - 1 else (3 * m) mod (w - 1))%Z = ((3 * m - 1) mod (w - 1) + 1)%Z.
Proof. intros w m Hw Hm. apply (last_mod (3 * m) (w - 1)); lia. Qed.

Lemma f1_enabled_spec : forall w m ir, (4 <= w)%Z -> (1 <= m)%Z ->
  (In ir (f1_enabled w m) <-> ir = (0, 0)%Z \/ exists i, (1 <= i < m)%Z /\ ir = f1_at w (f1_rows w m) i).
Proof.
  intros w m ir Hw Hm. unfold f1_enabled. cbv zeta. rewrite f1_last by assumption.
  rewrite in_app_iff. cbn [In].
  assert (EQ : (((0, 0)%Z = ir \/ False) <-> ir = (0, 0)%Z)) by (split; [intros [H|[]]; symmetry; exact H|intros ->; left; reflexivity]).
  rewrite EQ. clear EQ.
  assert (G : forall X Y : Prop, (X <-> Y) -> (ir = (0, 0)%Z \/ X <-> ir = (0, 0)%Z \/ Y)) by tauto.
  apply G. clear G.
  destruct (Z.ltb_spec w (3 * m + 1)) as [Hb|Hb].
  - destruct (f1_rows_big w m Hw Hb) as [N1 N2]. set (n := f1_rows w m) in *.
    pose proof (Z.mod_pos_bound w 3 ltac:(lia)) as Mw.
    destruct (Z.eqb_spec (w mod 3) 1) as [W1|W1]; [|destruct (Z.eqb_spec (w mod 3) 2) as [W2|W2]].
    + pose proof (f1_enum (fun r j => ((r mod 2) * (w / 3) + j / 3, r)%Z)
        (fun j => ((2 - (n - 1) mod 2) * (w / 3) + j / 3, n - 1)%Z) (fun _ => 3%Z) w m n ir Hw N1 N2 Hm) as E.
      cbv beta in E. rewrite E; clear E.
      * split; intros [i [Hi H]]; exists i; (split; [exact Hi|]); revert H; cbv zeta; unfold f1_at; cbv zeta;
          rewrite W1; change (1 =? 1)%Z with true; cbv iota;
          destruct (Z.eqb_spec ((3 * i + 2) / (w - 1)) (n - 1)) as [X|X]; try (rewrite X); intros; assumption.
      * intros r Hr. split; [lia|]. intros j Hj. pose proof (f1_col w r j Hw Hr Hj) as FC. rewrite W1 in FC.
        symmetry. exact FC.
    + pose proof (f1_enum (fun r j => ((r mod 3) * (w / 3) + (j + r mod 3) / 3, r)%Z)
        (fun j => let r := (n - 1)%Z in let z := (if r mod 3 =? 0 then 1 else 0)%Z in
                  ((r mod 3) * (w / 3) + (j + r mod 3) / 3 + z * (w - 1), r - z)%Z) (fun r => 3 - r mod 3)%Z w m n ir Hw N1 N2 Hm) as E.
      cbv beta zeta in E. rewrite E; clear E.
      * split; intros [i [Hi H]]; exists i; (split; [exact Hi|]); revert H; cbv zeta; unfold f1_at; cbv zeta;
          rewrite W2; change (2 =? 1)%Z with false; change (2 =? 2)%Z with true; cbv iota;
          destruct (Z.eqb_spec ((3 * i + 2) / (w - 1)) (n - 1)) as [X|X]; cbn [andb]; try (rewrite X);
          rewrite ?Z.mul_0_l, ?Z.add_0_r, ?Z.sub_0_r; intros; assumption.
      * intros r Hr. pose proof (Z.mod_pos_bound r 3 ltac:(lia)). split; [lia|]. intros j Hj. pose proof (f1_col w r j Hw Hr Hj) as FC. rewrite W2 in FC.
        symmetry. exact FC.
    + pose proof (f1_enum (fun r j => ((r mod 3) * (w / 3) + (j + r mod 3) / 3 - (if r mod 3 =? 2 then 1 else 0), r)%Z)
        (fun j => let r := (n - 1)%Z in let z := (if r mod 3 =? 0 then 1 else 0)%Z in
                  ((r mod 3) * (w / 3) + (j + r mod 3) / 3 - (if r mod 3 =? 2 then 1 else 0) + z * (w - 1), r - z)%Z)
        (fun r => r mod 3 + 3 * (if r mod 3 =? 0 then 1 else 0))%Z w m n ir Hw N1 N2 Hm) as E.
      cbv beta zeta in E. rewrite E; clear E.
      * split; intros [i [Hi H]]; exists i; (split; [exact Hi|]); revert H; cbv zeta; unfold f1_at; cbv zeta;
          rewrite (proj2 (Z.eqb_neq (w mod 3) 1) W1), (proj2 (Z.eqb_neq (w mod 3) 2) W2);
          destruct (Z.eqb_spec ((3 * i + 2) / (w - 1)) (n - 1)) as [X|X]; cbn [andb]; try (rewrite X);
          rewrite ?Z.mul_0_l, ?Z.add_0_r, ?Z.sub_0_r; intros; assumption.
      * intros r Hr. pose proof (Z.mod_pos_bound r 3 ltac:(lia)). split; [destruct (Z.eqb_spec (r mod 3) 0); lia|].
        intros j Hj. pose proof (f1_col w r j Hw Hr Hj) as FC.
        rewrite (proj2 (Z.eqb_neq (w mod 3) 1) W1), (proj2 (Z.eqb_neq (w mod 3) 2) W2) in FC.
        rewrite (Z.mul_comm 3), Z.mod_add, Z.mod_mod by lia. symmetry. exact FC.
  - assert (N2 : f1_rows w m = 2%Z).
    { unfold f1_rows. rewrite ceil_rows_pred by lia. rewrite Z.div_small by lia. reflexivity. }
    rewrite N2. rewrite Z.mod_small by lia. rewrite in_map_iff.
    assert (AT : forall i, (1 <= i < m)%Z -> f1_at w 2 i = ((3 * i + 3) / 3, 0)%Z).
    { intros i Hi. unfold f1_at. cbv zeta. rewrite (Z.div_small (3 * i + 2) (w - 1)), (Z.mod_small (3 * i + 2) (w - 1)) by lia.
      change (0 =? 2 - 1)%Z with false. cbn [andb]. change (0 mod 2)%Z with 0%Z. change (0 mod 3)%Z with 0%Z.
      rewrite !Z.mul_0_l, !Z.add_0_r, Z.sub_0_r. change (0 =? 2)%Z with false. cbv iota.
      replace (3 * i + 2 + 1)%Z with (3 * i + 3)%Z by lia. rewrite Z.sub_0_r, Z.add_0_l.
      destruct (w mod 3 =? 1)%Z; [reflexivity|]. destruct (w mod 3 =? 2)%Z; reflexivity. }
    split.
    + intros [j [E H]]. apply in_zsteps in H; [|lia]. destruct H as [k [Hk [E2 Hh]]]. exists (k + 1)%Z.
      split; [lia|]. rewrite AT by lia. rewrite <- E. f_equal. f_equal. lia.
    + intros [i [Hi ->]]. rewrite AT by lia. exists (3 * i + 3)%Z. split; [reflexivity|]. apply in_zsteps; [lia|].
      exists (i - 1)%Z. lia.
Qed.

(** ** The gate behind each selector *)

Lemma f1_sec_len : forall c s rr b g, (1 <= s <= 3)%Z -> (4 <= wamount c)%Z -> zlen (f1_sec c s rr b g) = ((wamount c - s + 2) / 3)%Z.
Proof.
  intros c s rr b g Hs Hw. unfold f1_sec. rewrite zlen_map, zlen_zsteps by lia.
  replace (wamount c - s + 3 - 1)%Z with (wamount c - s + 2)%Z by lia.
  assert (0 <= (wamount c - s + 2) / 3)%Z by (apply Z.div_pos; lia). lia.
Qed.
Lemma f1_sec_nth : forall c s rr b g k d, (1 <= s <= 3)%Z -> (0 <= k)%Z -> (s + 3 * k < wamount c)%Z ->
  znth d (f1_sec c s rr b g) k = f1_gen c rr b g (s + 3 * k).
Proof. intros c s rr b g k d Hs Hk Hw. unfold f1_sec. apply znth_zsteps; lia. Qed.

Lemma f1_at_gate : forall c m i, (4 <= wamount c)%Z -> (1 <= i < m)%Z ->
  let w := wamount c in let n := f1_rows w m in
  let r := ((3 * i + 2) / (w - 1))%Z in let j := ((3 * i + 2) mod (w - 1) + 1)%Z in
  exists rr b g idx, f1_at w n i = (idx, r - rr)%Z /\ (0 <= idx < zlen (f1_gates (P:=P) c))%Z /\
    znth (ecst f0) (f1_gates c) idx = f1_gen c rr b g j /\ (0 <= r - rr)%Z /\ (rr = 0 \/ rr = 1)%Z /\
    (0 <= r - rr + b < n)%Z /\ f1_is_beta w (r - rr + b) = true /\
    (0 <= r - rr + g < n)%Z /\ f1_is_beta w (r - rr + g) = false /\ (0 <= r < n)%Z /\ (r = 0 -> 3 < j)%Z.
Proof.
  intros c m i Hw Hi. cbv zeta. unfold f1_at. cbv zeta.
  set (w := wamount c) in *. set (n := f1_rows w m). set (p := (3 * i + 2)%Z).
  pose proof (Z.div_mod p (w - 1) ltac:(lia)) as D. pose proof (Z.mod_pos_bound p (w - 1) ltac:(lia)) as M.
  assert (R0 : (0 <= p / (w - 1))%Z) by (apply Z.div_pos; subst p; lia).
  assert (RL : (p / (w - 1) <= (3 * m - 1) / (w - 1))%Z) by (apply Z.div_le_mono; subst p; lia).
  assert (Nn : (2 <= n /\ (3 * m - 1) / (w - 1) <= n - 1)%Z).
  { subst n. unfold f1_rows. rewrite ceil_rows_pred by lia. lia. }
  set (r := (p / (w - 1))%Z) in *. set (j := (p mod (w - 1) + 1)%Z) in *.
  assert (Hj : (1 <= j < w)%Z) by lia.
  assert (Ep : p = (r * (w - 1) + j - 1)%Z) by lia.
  assert (P2 : ((r * (w - 1) + j - 1) mod 3 = 2)%Z).
  { rewrite <- Ep. unfold p. clear. zd. }
  apply f1_col in P2; [|lia|exact R0|exact Hj].
  assert (J3 : (r = 0 -> 3 < j)%Z) by (intros X; rewrite X in Ep; unfold p in Ep; lia).
  assert (Rn : (0 <= r < n)%Z) by lia.
  rewrite f1_gates_eq by assumption. fold w.
  clear Ep D M RL. clearbody r j n. clear p.
  pose proof (f1_sec_len c 3) as L3. pose proof (f1_sec_len c 2) as L2. pose proof (f1_sec_len c 1) as L1.
  fold w in L3, L2, L1.
  assert (LF : zlen [f1_first c] = 1%Z) by reflexivity.
  unfold f1_is_beta.
  destruct (Z.eqb_spec (w mod 3) 1) as [W1|W1]; [|destruct (Z.eqb_spec (w mod 3) 2) as [W2|W2]].
  - (* w = 3k + 1 *)
    assert (EJ : f1_gen c = f1_gen c) by reflexivity.
    assert (H0 : (exists q, j = 3 * q /\ 1 <= q <= w / 3)%Z) by (exists (j / 3)%Z; clear - P2 Hj W1; zd).
    destruct H0 as [q [Eq Hq]]. assert (EK : (j / 3 = q)%Z) by (clear - Eq; zd). rewrite EK.
    set (k := (w / 3)%Z) in *. assert (Wk : (w = 3 * k + 1)%Z) by (subst k; clear - W1; zd).
    assert (LL : ((w - 3 + 2) / 3 = k)%Z) by (rewrite Wk; clear; zd).
    assert (Pk : (0 < k)%Z) by lia. clearbody k.
    rewrite !zlen_app, LF, !L3 by lia. rewrite LL.
    destruct (Z.eqb_spec r (n - 1)) as [El|El].
    + destruct (Z.eq_dec (r mod 2) 0) as [Ev|Ev].
      * exists 0%Z, 0%Z, (-1)%Z, (2 * k + q)%Z. rewrite Ev. split; [f_equal; lia|]. split; [lia|].
        split; [|repeat split; try lia; try (apply Z.eqb_eq); try (apply Z.eqb_neq); clear - Ev R0; zd].
        rewrite znth_r by lia. rewrite LF. rewrite znth_r by (rewrite L3 by lia; lia). rewrite L3, LL by lia.
        rewrite znth_r by (rewrite L3 by lia; lia). rewrite L3, LL by lia.
        rewrite f1_sec_nth by (fold w; lia). f_equal. lia.
      * assert (Od : (r mod 2 = 1)%Z) by (clear - Ev; zd).
        exists 0%Z, (-1)%Z, 0%Z, (k + q)%Z. rewrite Od. split; [f_equal; lia|]. split; [lia|].
        split; [|repeat split; try lia; try (apply Z.eqb_eq); try (apply Z.eqb_neq); clear - Od R0; zd].
        rewrite znth_r by lia. rewrite LF. rewrite znth_r by (rewrite L3 by lia; lia). rewrite L3, LL by lia.
        rewrite znth_l by (rewrite L3 by lia; lia).
        rewrite f1_sec_nth by (fold w; lia). f_equal. lia.
    + destruct (Z.eq_dec (r mod 2) 0) as [Ev|Ev].
      * exists 0%Z, 0%Z, 1%Z, q. rewrite Ev. split; [f_equal; lia|]. split; [lia|].
        split; [|repeat split; try lia; try (apply Z.eqb_eq); try (apply Z.eqb_neq); clear - Ev R0; zd].
        rewrite znth_r by lia. rewrite LF. rewrite znth_l by (rewrite L3 by lia; lia).
        rewrite f1_sec_nth by (fold w; lia). f_equal. lia.
      * assert (Od : (r mod 2 = 1)%Z) by (clear - Ev; zd).
        exists 0%Z, (-1)%Z, 0%Z, (k + q)%Z. rewrite Od. split; [f_equal; lia|]. split; [lia|].
        split; [|repeat split; try lia; try (apply Z.eqb_eq); try (apply Z.eqb_neq); clear - Od R0; zd].
        rewrite znth_r by lia. rewrite LF. rewrite znth_r by (rewrite L3 by lia; lia). rewrite L3, LL by lia.
        rewrite znth_l by (rewrite L3 by lia; lia).
        rewrite f1_sec_nth by (fold w; lia). f_equal. lia.
  - (* w = 3k + 2 *)
    set (k := (w / 3)%Z) in *. assert (Wk : (w = 3 * k + 2)%Z) by (subst k; clear - W2; zd).
    assert (Pk : (0 < k)%Z) by lia. clearbody k.
    assert (LL3 : ((w - 3 + 2) / 3 = k)%Z) by (rewrite Wk; clear; zd).
    assert (LL2 : ((w - 2 + 2) / 3 = k)%Z) by (rewrite Wk; clear; zd).
    assert (LL1 : ((w - 1 + 2) / 3 = k + 1)%Z) by (rewrite Wk; clear; zd).
    rewrite !zlen_app, LF, !L3, !L2, !L1 by lia. rewrite LL1, LL2, LL3.
    pose proof (Z.mod_pos_bound r 3 ltac:(lia)) as Mr.
    assert (Hr : (r mod 3 = 0 \/ r mod 3 = 1 \/ r mod 3 = 2)%Z) by lia.
    destruct Hr as [Hr|[Hr|Hr]]; rewrite Hr in P2.
    + (* column 3 q *)
      change ((3 - 0) mod 3)%Z with 0%Z in P2.
      assert (H0 : (exists q, j = 3 * q /\ 1 <= q <= k)%Z) by (exists (j / 3)%Z; clear - P2 Hj Wk; zd).
      destruct H0 as [q [Eq Hq]]. rewrite Hr. change (0 =? 0)%Z with true. rewrite andb_true_r.
      assert (EK : ((j + 0) / 3 = q)%Z) by (clear - Eq; zd). rewrite EK.
      destruct (Z.eqb_spec r (n - 1)) as [El|El].
      * exists 1%Z, 0%Z, (-1)%Z, (3 * k + 1 + q)%Z. split; [f_equal; lia|]. split; [lia|].
        assert (3 <= r)%Z by (clear - Hr El Nn; zd).
        split; [|repeat split; try lia; try (apply negb_true_iff, Z.eqb_neq); try (apply negb_false_iff, Z.eqb_eq); clear - Hr; zd].
        rewrite znth_r by lia. rewrite LF. rewrite znth_r by (rewrite L3 by lia; lia). rewrite L3, LL3 by lia.
        rewrite znth_r by (rewrite L2 by lia; lia). rewrite L2, LL2 by lia.
        rewrite znth_r by (rewrite L1 by lia; lia). rewrite L1, LL1 by lia.
        rewrite f1_sec_nth by (fold w; lia). f_equal. lia.
      * exists 0%Z, 0%Z, 1%Z, q. split; [f_equal; lia|]. split; [lia|].
        split; [|repeat split; try lia; try (apply negb_true_iff, Z.eqb_neq); try (apply negb_false_iff, Z.eqb_eq); clear - Hr; zd].
        rewrite znth_r by lia. rewrite LF. rewrite znth_l by (rewrite L3 by lia; lia).
        rewrite f1_sec_nth by (fold w; lia). f_equal. lia.
    + change ((3 - 1) mod 3)%Z with 2%Z in P2.
      assert (H0 : (exists q, j = 3 * q + 2 /\ 0 <= q < k)%Z) by (exists (j / 3)%Z; clear - P2 Hj Wk; zd).
      destruct H0 as [q [Eq Hq]]. rewrite Hr. change (1 =? 0)%Z with false. rewrite andb_false_r.
      assert (EK : ((j + 1) / 3 = q + 1)%Z) by (clear - Eq; zd). rewrite EK.
      exists 0%Z, (-1)%Z, 0%Z, (k + q + 1)%Z. split; [f_equal; lia|]. split; [lia|].
      assert (1 <= r)%Z by (clear - Hr R0; zd).
      split; [|repeat split; try lia; try (apply negb_true_iff, Z.eqb_neq); try (apply negb_false_iff, Z.eqb_eq); clear - Hr; zd].
      rewrite znth_r by lia. rewrite LF. rewrite znth_r by (rewrite L3 by lia; lia). rewrite L3, LL3 by lia.
      rewrite znth_l by (rewrite L2 by lia; lia).
      rewrite f1_sec_nth by (fold w; lia). f_equal. lia.
    + change ((3 - 2) mod 3)%Z with 1%Z in P2.
      assert (H0 : (exists q, j = 3 * q + 1 /\ 0 <= q <= k)%Z) by (exists (j / 3)%Z; clear - P2 Hj Wk; zd).
      destruct H0 as [q [Eq Hq]]. rewrite Hr. change (2 =? 0)%Z with false. rewrite andb_false_r.
      assert (EK : ((j + 2) / 3 = q + 1)%Z) by (clear - Eq; zd). rewrite EK.
      exists 0%Z, 0%Z, (-1)%Z, (2 * k + q + 1)%Z. split; [f_equal; lia|]. split; [lia|].
      assert (1 <= r)%Z by (clear - Hr R0; zd).
      split; [|repeat split; try lia; try (apply negb_true_iff, Z.eqb_neq); try (apply negb_false_iff, Z.eqb_eq); clear - Hr; zd].
      rewrite znth_r by lia. rewrite LF. rewrite znth_r by (rewrite L3 by lia; lia). rewrite L3, LL3 by lia.
      rewrite znth_r by (rewrite L2 by lia; lia). rewrite L2, LL2 by lia.
      rewrite znth_l by (rewrite L1 by lia; lia).
      rewrite f1_sec_nth by (fold w; lia). f_equal. lia.
  - (* w = 3k *)
    set (k := (w / 3)%Z) in *. assert (Wk : (w = 3 * k)%Z) by (subst k; clear - W1 W2; zd).
    assert (Pk : (1 < k)%Z) by lia. clearbody k.
    assert (LL3 : ((w - 3 + 2) / 3 = k - 1)%Z) by (rewrite Wk; clear; zd).
    assert (LL2 : ((w - 2 + 2) / 3 = k)%Z) by (rewrite Wk; clear; zd).
    assert (LL1 : ((w - 1 + 2) / 3 = k)%Z) by (rewrite Wk; clear; zd).
    rewrite !zlen_app, LF, !L3, !L2, !L1 by lia. rewrite LL1, LL2, LL3.
    pose proof (Z.mod_pos_bound r 3 ltac:(lia)) as Mr.
    assert (Hr : (r mod 3 = 0 \/ r mod 3 = 1 \/ r mod 3 = 2)%Z) by lia.
    destruct Hr as [Hr|[Hr|Hr]]; rewrite Hr in P2.
    + assert (H0 : (exists q, j = 3 * q /\ 1 <= q < k)%Z) by (exists (j / 3)%Z; clear - P2 Hj Wk; zd).
      destruct H0 as [q [Eq Hq]]. rewrite Hr. change (0 =? 0)%Z with true. rewrite andb_true_r.
      change (0 =? 2)%Z with false. cbv iota.
      assert (EK : ((j + 0) / 3 = q)%Z) by (clear - Eq; zd). rewrite EK.
      destruct (Z.eqb_spec r (n - 1)) as [El|El].
      * exists 1%Z, 0%Z, (-1)%Z, (3 * k - 1 + q)%Z. split; [f_equal; lia|]. split; [lia|].
        assert (3 <= r)%Z by (clear - Hr El Nn; zd).
        split; [|repeat split; try lia; try (apply negb_true_iff, Z.eqb_neq); try (apply negb_false_iff, Z.eqb_eq); clear - Hr; zd].
        rewrite znth_r by lia. rewrite LF. rewrite znth_r by (rewrite L3 by lia; lia). rewrite L3, LL3 by lia.
        rewrite znth_r by (rewrite L1 by lia; lia). rewrite L1, LL1 by lia.
        rewrite znth_r by (rewrite L2 by lia; lia). rewrite L2, LL2 by lia.
        rewrite f1_sec_nth by (fold w; lia). f_equal. lia.
      * exists 0%Z, 0%Z, 1%Z, q. split; [f_equal; lia|]. split; [lia|].
        split; [|repeat split; try lia; try (apply negb_true_iff, Z.eqb_neq); try (apply negb_false_iff, Z.eqb_eq); clear - Hr; zd].
        rewrite znth_r by lia. rewrite LF. rewrite znth_l by (rewrite L3 by lia; lia).
        rewrite f1_sec_nth by (fold w; lia). f_equal. lia.
    + assert (H0 : (exists q, j = 3 * q + 1 /\ 0 <= q < k)%Z) by (exists (j / 3)%Z; clear - P2 Hj Wk; zd).
      destruct H0 as [q [Eq Hq]]. rewrite Hr. change (1 =? 0)%Z with false. rewrite andb_false_r.
      change (1 =? 2)%Z with false. cbv iota.
      assert (EK : ((j + 1) / 3 = q)%Z) by (clear - Eq; zd). rewrite EK.
      exists 0%Z, (-1)%Z, 0%Z, (k + q)%Z. split; [f_equal; lia|]. split; [lia|].
      assert (1 <= r)%Z by (clear - Hr R0; zd).
      split; [|repeat split; try lia; try (apply negb_true_iff, Z.eqb_neq); try (apply negb_false_iff, Z.eqb_eq); clear - Hr; zd].
      rewrite znth_r by lia. rewrite LF. rewrite znth_r by (rewrite L3 by lia; lia). rewrite L3, LL3 by lia.
      rewrite znth_l by (rewrite L1 by lia; lia).
      rewrite f1_sec_nth by (fold w; lia). f_equal. lia.
    + assert (H0 : (exists q, j = 3 * q + 2 /\ 0 <= q < k)%Z) by (exists (j / 3)%Z; clear - P2 Hj Wk; zd).
      destruct H0 as [q [Eq Hq]]. rewrite Hr. change (2 =? 0)%Z with false. rewrite andb_false_r.
      change (2 =? 2)%Z with true. cbv iota.
      assert (EK : ((j + 2) / 3 = q + 1)%Z) by (clear - Eq; zd). rewrite EK.
      exists 0%Z, 0%Z, (-1)%Z, (2 * k + q)%Z. split; [f_equal; lia|]. split; [lia|].
      assert (1 <= r)%Z by (clear - Hr R0; zd).
      split; [|repeat split; try lia; try (apply negb_true_iff, Z.eqb_neq); try (apply negb_false_iff, Z.eqb_eq); clear - Hr; zd].
      rewrite znth_r by lia. rewrite LF. rewrite znth_r by (rewrite L3 by lia; lia). rewrite L3, LL3 by lia.
      rewrite znth_r by (rewrite L1 by lia; lia). rewrite L1, LL1 by lia.
      rewrite znth_l by (rewrite L2 by lia; lia).
      rewrite f1_sec_nth by (fold w; lia). f_equal. lia.
Qed.

End Loops.
