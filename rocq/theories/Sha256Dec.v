(** decomposition.hpp: what the circuit says, what the assignment writes. *)
From Coq Require Import ZArith List Lia Bool.
From Verif Require Import Base Field Plonk PlonkFacts PvTape Sha256Spec Sha256Model Sha256Words Sha256Complete Sha256HashSpec Sha256HashModel.
Import ListNotations.
Open Scope Z_scope.

(** ** Chunks and words of a number *)

Definition word_of (x i : Z) : Z := x / 2 ^ (32 * i) mod 2 ^ 32.

Lemma dec_chunk_eq : forall x i, 0 <= i -> dec_chunk x i = x / 2 ^ (16 * i) mod 2 ^ 16.
Proof.
  intros x i Hi. unfold dec_chunk. change 65535 with (Z.ones 16). rewrite Z.land_ones by lia. rewrite Z.shiftr_div_pow2 by lia. reflexivity.
Qed.
Lemma dec_chunk_range : forall x i, 0 <= i -> 0 <= dec_chunk x i < 2 ^ 16.
Proof. intros x i Hi. rewrite dec_chunk_eq by exact Hi. apply Z.mod_pos_bound. reflexivity. Qed.
Lemma mod_split : forall y a b, 0 < a -> 0 < b -> y mod (a * b) = y mod a + a * (y / a mod b).
Proof. intros y a b Ha Hb. rewrite Z.rem_mul_r by lia. reflexivity. Qed.
Lemma dec_pair_eq : forall x i, 0 <= i -> dec_pair x i = word_of x i.
Proof.
  intros x i Hi. unfold dec_pair, word_of. rewrite !dec_chunk_eq by lia.
  replace (16 * (2 * i)) with (32 * i) by lia. replace (16 * (2 * i + 1)) with (32 * i + 16) by lia.
  rewrite Z.pow_add_r, <- Z.div_div by lia. change (2 ^ 32) with (2 ^ 16 * 2 ^ 16). rewrite mod_split by lia. 
  change 65536 with (2 ^ 16). lia.
Qed.
Lemma word_range : forall x i, 0 <= word_of x i < 2 ^ 32.
Proof. intros. apply Z.mod_pos_bound. reflexivity. Qed.
Lemma word_join : forall x, 0 <= x < 2 ^ 128 ->
  word_of x 0 + word_of x 1 * 2 ^ 32 + word_of x 2 * 2 ^ 64 + word_of x 3 * 2 ^ 96 = x.
Proof.
  intros x Hx. unfold word_of. change (32 * 0) with 0. change (32 * 1) with 32. change (32 * 2) with 64. change (32 * 3) with 96.
  rewrite Z.pow_0_r, Z.div_1_r.
  assert (A : x = x mod 2 ^ 32 + 2 ^ 32 * (x / 2 ^ 32 mod 2 ^ 96)).
  { rewrite <- mod_split by lia. symmetry. apply Z.mod_small. exact Hx. }
  assert (B : x / 2 ^ 32 mod 2 ^ 96 = x / 2 ^ 32 mod 2 ^ 32 + 2 ^ 32 * (x / 2 ^ 64 mod 2 ^ 64)).
  { change (2 ^ 96) with (2 ^ 32 * 2 ^ 64). rewrite mod_split, Z.div_div by lia. reflexivity. }
  assert (D : x / 2 ^ 64 mod 2 ^ 64 = x / 2 ^ 64 mod 2 ^ 32 + 2 ^ 32 * (x / 2 ^ 96 mod 2 ^ 32)).
  { transitivity (x / 2 ^ 64 mod (2 ^ 32 * 2 ^ 32)); [reflexivity|]. rewrite mod_split, Z.div_div by lia. reflexivity. }
  set (p0 := x mod 2 ^ 32) in *. set (p1 := x / 2 ^ 32 mod 2 ^ 32) in *. set (p2 := x / 2 ^ 64 mod 2 ^ 32) in *. set (p3 := x / 2 ^ 96 mod 2 ^ 32) in *.
  rewrite D in B. rewrite B in A. clear -A.
  lia.
Qed.
Lemma word_uniq : forall a b c d, 0 <= a < 2 ^ 32 -> 0 <= b < 2 ^ 32 -> 0 <= c < 2 ^ 32 -> 0 <= d < 2 ^ 32 ->
  let x := a + b * 2 ^ 32 + c * 2 ^ 64 + d * 2 ^ 96 in
  word_of x 0 = a /\ word_of x 1 = b /\ word_of x 2 = c /\ word_of x 3 = d.
Proof.
  intros a b c d Ha Hb Hc Hd x. unfold word_of. change (32 * 0) with 0. change (32 * 1) with 32. change (32 * 2) with 64. change (32 * 3) with 96.
  rewrite Z.pow_0_r, Z.div_1_r.
  assert (D1 : x / 2 ^ 32 = b + c * 2 ^ 32 + d * 2 ^ 64) by (symmetry; apply (Z.div_unique_pos _ _ _ a); unfold x; lia).
  assert (D2 : x / 2 ^ 64 = c + d * 2 ^ 32) by (symmetry; apply (Z.div_unique_pos _ _ _ (a + b * 2 ^ 32)); unfold x; lia).
  assert (D3 : x / 2 ^ 96 = d) by (symmetry; apply (Z.div_unique_pos _ _ _ (a + b * 2 ^ 32 + c * 2 ^ 64)); unfold x; lia).
  rewrite D1, D2, D3. repeat apply conj; symmetry.
  - apply (Z.mod_unique_pos _ _ (b + c * 2 ^ 32 + d * 2 ^ 64)); unfold x; lia.
  - apply (Z.mod_unique_pos _ _ (c + d * 2 ^ 32)); lia.
  - apply (Z.mod_unique_pos _ _ d); lia.
  - apply (Z.mod_unique_pos _ _ 0); lia.
Qed.
Lemma word_sum_range : forall a b c d, 0 <= a < 2 ^ 32 -> 0 <= b < 2 ^ 32 -> 0 <= c < 2 ^ 32 -> 0 <= d < 2 ^ 32 ->
  0 <= a + b * 2 ^ 32 + c * 2 ^ 64 + d * 2 ^ 96 < 2 ^ 128.
Proof. intros. lia. Qed.

(** ** The circuit *)

Section Dec.
Variable P : params.
Hypothesis big : 2 ^ 128 < char P.
Notation F := (F P).
Notation table := (table P).
Variable L : lenv P.
Variable c : comp.
Variables (a b : var) (row : Z).
Local Open Scope F_scope.
Notation at_ T k o := (T CWit (W c k%Z) (row + o)%Z).

Definition dec_half (x w0 w1 w2 w3 c0 c1 c2 c3 c4 c5 c6 c7 : F) : Prop :=
  x = w3 + w2 * ofZ (2 ^ 32) + w1 * ofZ (2 ^ 64) + w0 * ofZ (2 ^ 96) /\
  w3 = c0 + c1 * ofZ 65536 /\ w2 = c2 + c3 * ofZ 65536 /\ w1 = c4 + c5 * ofZ 65536 /\ w0 = c6 + c7 * ofZ 65536.

Lemma dec_iff : forall T : table, sat L T (dec_circuit c a b row) <->
  vval T a = at_ T 8 0 /\ vval T b = at_ T 8 2 /\
  dec_half (at_ T 8 0) (at_ T 0 1) (at_ T 1 1) (at_ T 2 1) (at_ T 3 1)
           (at_ T 0 0) (at_ T 1 0) (at_ T 2 0) (at_ T 3 0) (at_ T 4 0) (at_ T 5 0) (at_ T 6 0) (at_ T 7 0) /\
  dec_half (at_ T 8 2) (at_ T 4 1) (at_ T 5 1) (at_ T 6 1) (at_ T 7 1)
           (at_ T 0 2) (at_ T 1 2) (at_ T 2 2) (at_ T 3 2) (at_ T 4 2) (at_ T 5 2) (at_ T 6 2) (at_ T 7 2).
Proof.
  intros T. unfold dec_circuit, dec_gate. rewrite !sat_cons, holds_gate1, !all_cons, all_nil. cbn [holds].
  repeat (rewrite ?eval_bin, ?eval_evar, ?eval_ecst, ?gval_wv, ?Z.add_0_r, ?vval_wcell; cbn [ebop]).
  replace (row + 1 + -1)%Z with row by lia. replace (row + 1 + 1)%Z with (row + 2)%Z by lia.
  unfold dec_half. assert (S0 : sat L T [] <-> True) by (split; [auto|intros _; apply sat_nil]). rewrite S0.
  rewrite !fsub_eq0. tauto.
Qed.

Lemma Qrow : forall Q : ctype -> Z -> Z -> Prop, (forall k o, (0 <= o < 3)%Z -> Q CWit (W c k) (row + o)%Z) ->
  forall k r, (row <= r < row + 3)%Z -> Q CWit (W c k) r.
Proof. intros Q HQ k r Hr. replace r with (row + (r - row))%Z by lia. apply HQ. lia. Qed.
Lemma dec_reads : forall Q : ctype -> Z -> Z -> Prop, (forall k o, (0 <= o < 3)%Z -> Q CWit (W c k) (row + o)%Z) ->
  var_reads Q a -> var_reads Q b -> reads Q (dec_circuit (P := P) c a b row).
Proof.
  intros Q HQ Ha Hb. unfold dec_circuit. rewrite !reads_cons. repeat apply conj.
  - intros r [<-|[]] e He. unfold dec_gate in He.
    cbn [In] in He. repeat (destruct He as [<-|He]; [cbn [expr_reads]; repeat apply conj;
      first [apply reads_ecst|apply reads_wv; apply (Qrow Q HQ); lia]|]).
    destruct He.
  - exact Ha.
  - unfold var_reads. cbn [wcell vty vidx vrot]. rewrite <- (Z.add_0_r row). apply HQ. lia.
  - exact Hb.
  - unfold var_reads. cbn [wcell vty vidx vrot]. apply HQ. lia.
  - apply reads_nil.
Qed.

(** ** Any table with small chunks holds the words of its inputs *)

Lemma ofZ_join : forall x y : Z, (ofZ x : F) + ofZ y * ofZ 65536 = ofZ (x + y * 65536).
Proof. intros. rewrite ofZ_add, ofZ_mul. reflexivity. Qed.
Lemma ofZ_join4 : forall x y z t : Z, (ofZ x : F) + ofZ y * ofZ (2 ^ 32) + ofZ z * ofZ (2 ^ 64) + ofZ t * ofZ (2 ^ 96) =
  ofZ (x + y * 2 ^ 32 + z * 2 ^ 64 + t * 2 ^ 96).
Proof. intros. rewrite !ofZ_add, !ofZ_mul. reflexivity. Qed.

Lemma words_sound : forall x w0 w1 w2 w3 : F,
  x = w3 + w2 * ofZ (2 ^ 32) + w1 * ofZ (2 ^ 64) + w0 * ofZ (2 ^ 96) ->
  fval w0 < 2 ^ 32 -> fval w1 < 2 ^ 32 -> fval w2 < 2 ^ 32 -> fval w3 < 2 ^ 32 ->
  fval x < 2 ^ 128 /\ fval w0 = word_of (fval x) 3 /\ fval w1 = word_of (fval x) 2 /\ fval w2 = word_of (fval x) 1 /\ fval w3 = word_of (fval x) 0.
Proof.
  intros x w0 w1 w2 w3 E H0 H1 H2 H3.
  rewrite <- (ofZ_fval P w0), <- (ofZ_fval P w1), <- (ofZ_fval P w2), <- (ofZ_fval P w3), ofZ_join4 in E.
  pose proof (fval_range P w0). pose proof (fval_range P w1). pose proof (fval_range P w2). pose proof (fval_range P w3).
  assert (R := word_sum_range (fval w3) (fval w2) (fval w1) (fval w0) ltac:(lia) ltac:(lia) ltac:(lia) ltac:(lia)).
  rewrite E, fval_ofZ_small by lia. 
  destruct (word_uniq (fval w3) (fval w2) (fval w1) (fval w0)) as [A0 [A1 [A2 A3]]]; try lia.
Qed.
Lemma chunk_word : forall w x y : F, w = x + y * ofZ 65536 -> fval x < 65536 -> fval y < 65536 -> fval w < 2 ^ 32.
Proof.
  intros w x y E Hx Hy. rewrite <- (ofZ_fval P x), <- (ofZ_fval P y), ofZ_join in E.
  pose proof (fval_range P x). pose proof (fval_range P y). rewrite E, fval_ofZ_small by lia. lia.
Qed.

Lemma dec_out_sound : forall T : table, sat L T (dec_circuit c a b row) ->
  (forall k, (0 <= k < 8)%Z -> fval (vval T (dec_out c row k)) < 2 ^ 32) ->
  fval (vval T a) < 2 ^ 128 /\ fval (vval T b) < 2 ^ 128 /\
  forall k, (0 <= k < 8)%Z -> fval (vval T (dec_out c row k)) = (if k <? 4 then word_of (fval (vval T a)) (3 - k) else word_of (fval (vval T b)) (7 - k))%Z.
Proof.
  intros T S Hw. apply dec_iff in S. destruct S as [-> [-> [[E _] [E' _]]]].
  unfold dec_out in *.
  destruct (words_sound _ _ _ _ _ E (Hw 0%Z ltac:(lia)) (Hw 1%Z ltac:(lia)) (Hw 2%Z ltac:(lia)) (Hw 3%Z ltac:(lia))) as [Ha [A0 [A1 [A2 A3]]]].
  destruct (words_sound _ _ _ _ _ E' (Hw 4%Z ltac:(lia)) (Hw 5%Z ltac:(lia)) (Hw 6%Z ltac:(lia)) (Hw 7%Z ltac:(lia))) as [Hb [B0 [B1 [B2 B3]]]].
  split; [exact Ha|]. split; [exact Hb|]. intros k Hk. rewrite vval_wcell.
  assert (K : k = 0%Z \/ k = 1%Z \/ k = 2%Z \/ k = 3%Z \/ k = 4%Z \/ k = 5%Z \/ k = 6%Z \/ k = 7%Z) by lia.
  destruct K as [->|[->|[->|[->|[->|[->|[->| ->]]]]]]]; cbn [Z.ltb Z.compare Pos.compare Pos.compare_cont];
    [exact A0|exact A1|exact A2|exact A3|exact B0|exact B1|exact B2|exact B3].
Qed.

Lemma dec_small_chunks : forall T : table, sat L T (dec_circuit c a b row) ->
  (forall k, (0 <= k < 8)%Z -> fval (at_ T k 0) < 65536 /\ fval (at_ T k 2) < 65536) ->
  forall k, (0 <= k < 8)%Z -> fval (vval T (dec_out c row k)) < 2 ^ 32.
Proof.
  intros T S Hc k Hk. apply dec_iff in S. destruct S as [_ [_ [[_ [E3 [E2 [E1 E0]]]] [_ [E7 [E6 [E5 E4]]]]]]].
  unfold dec_out. rewrite vval_wcell.
  assert (K : k = 0%Z \/ k = 1%Z \/ k = 2%Z \/ k = 3%Z \/ k = 4%Z \/ k = 5%Z \/ k = 6%Z \/ k = 7%Z) by lia.
  destruct K as [->|[->|[->|[->|[->|[->|[->| ->]]]]]]];
   [eapply chunk_word; [exact E0|apply Hc; lia|apply Hc; lia]|eapply chunk_word; [exact E1|apply Hc; lia|apply Hc; lia]|
    eapply chunk_word; [exact E2|apply Hc; lia|apply Hc; lia]|eapply chunk_word; [exact E3|apply Hc; lia|apply Hc; lia]|
    eapply chunk_word; [exact E4|apply Hc; lia|apply Hc; lia]|eapply chunk_word; [exact E5|apply Hc; lia|apply Hc; lia]|
    eapply chunk_word; [exact E6|apply Hc; lia|apply Hc; lia]|eapply chunk_word; [exact E7|apply Hc; lia|apply Hc; lia]].
Qed.

(** ** The assignment *)

Hypothesis wf : wf_comp c 9.

Lemma dec_pair_word : forall x i, (0 <= i)%Z -> (ofZ (dec_pair x i) : F) = ofZ (dec_chunk x (2 * i)) + ofZ (dec_chunk x (2 * i + 1)) * ofZ 65536.
Proof. intros x i Hi. rewrite ofZ_join. f_equal. unfold dec_pair. lia. Qed.

Lemma dec_half_honest : forall x, (0 <= x < 2 ^ 128)%Z ->
  dec_half (ofZ x) (ofZ (dec_pair x 3)) (ofZ (dec_pair x 2)) (ofZ (dec_pair x 1)) (ofZ (dec_pair x 0))
    (ofZ (dec_chunk x 0)) (ofZ (dec_chunk x 1)) (ofZ (dec_chunk x 2)) (ofZ (dec_chunk x 3))
    (ofZ (dec_chunk x 4)) (ofZ (dec_chunk x 5)) (ofZ (dec_chunk x 6)) (ofZ (dec_chunk x 7)).
Proof.
  intros x Hx. unfold dec_half. repeat apply conj.
  - rewrite ofZ_join4. apply (f_equal ofZ). rewrite !dec_pair_eq by lia. symmetry. apply word_join, Hx.
  - exact (dec_pair_word x 0 ltac:(lia)).
  - exact (dec_pair_word x 1 ltac:(lia)).
  - exact (dec_pair_word x 2 ltac:(lia)).
  - exact (dec_pair_word x 3 ltac:(lia)).
Qed.

Lemma dec_at : forall (T : table) o k v, (0 <= o < 3)%Z -> (0 <= k < 9)%Z ->
  dec_cell (fval (vval T a)) (fval (vval T b)) o k = Some v -> at_ (dec_assign c a b row T) k o = v.
Proof. intros T o k v Ho Hk E. apply (put_at P c row 3 _ T o k v wf Ho Hk E). Qed.
Lemma dec_frame : forall T : table, frame c 3 row T (dec_assign c a b row T).
Proof. intros T. apply put_frame. Qed.

Lemma dec_honest : forall T : table, outside c 3 row a -> outside c 3 row b ->
  (fval (vval T a) < 2 ^ 128)%Z -> (fval (vval T b) < 2 ^ 128)%Z ->
  sat L (dec_assign c a b row T) (dec_circuit c a b row) /\
  forall k, (0 <= k < 8)%Z -> vval (dec_assign c a b row T) (dec_out c row k) =
    ofZ (if k <? 4 then word_of (fval (vval T a)) (3 - k) else word_of (fval (vval T b)) (7 - k))%Z.
Proof.
  intros T Oa Ob Ha Hb. pose proof (fval_range P (vval T a)) as Ra. pose proof (fval_range P (vval T b)) as Rb. split.
  - apply dec_iff. rewrite (vval_frame P c 3 row T _ a (dec_frame T) Oa), (vval_frame P c 3 row T _ b (dec_frame T) Ob).
    repeat match goal with |- context [dec_assign c a b row T CWit (W c ?k) (row + ?o)%Z] =>
      rewrite (dec_at T o k _ ltac:(lia) ltac:(lia) eq_refl) end.
    rewrite !ofZ_fval. split; [reflexivity|]. split; [reflexivity|]. split.
    + generalize (dec_half_honest _ (conj (proj1 Ra) Ha)). rewrite ofZ_fval. exact (fun H => H).
    + generalize (dec_half_honest _ (conj (proj1 Rb) Hb)). rewrite ofZ_fval. exact (fun H => H).
  - intros k Hk. unfold dec_out. rewrite vval_wcell.
    assert (K : k = 0%Z \/ k = 1%Z \/ k = 2%Z \/ k = 3%Z \/ k = 4%Z \/ k = 5%Z \/ k = 6%Z \/ k = 7%Z) by lia.
    assert (X : forall x i, (0 <= i)%Z -> (ofZ (dec_pair x i) : F) = ofZ (word_of x i)) by (intros x i Hi; rewrite dec_pair_eq by exact Hi; reflexivity).
    destruct K as [->|[->|[->|[->|[->|[->|[->| ->]]]]]]].
    + rewrite (dec_at T 1 0 _ ltac:(lia) ltac:(lia) eq_refl). exact (X _ 3%Z ltac:(lia)).
    + rewrite (dec_at T 1 1 _ ltac:(lia) ltac:(lia) eq_refl). exact (X _ 2%Z ltac:(lia)).
    + rewrite (dec_at T 1 2 _ ltac:(lia) ltac:(lia) eq_refl). exact (X _ 1%Z ltac:(lia)).
    + rewrite (dec_at T 1 3 _ ltac:(lia) ltac:(lia) eq_refl). exact (X _ 0%Z ltac:(lia)).
    + rewrite (dec_at T 1 4 _ ltac:(lia) ltac:(lia) eq_refl). exact (X _ 3%Z ltac:(lia)).
    + rewrite (dec_at T 1 5 _ ltac:(lia) ltac:(lia) eq_refl). exact (X _ 2%Z ltac:(lia)).
    + rewrite (dec_at T 1 6 _ ltac:(lia) ltac:(lia) eq_refl). exact (X _ 1%Z ltac:(lia)).
    + rewrite (dec_at T 1 7 _ ltac:(lia) ltac:(lia) eq_refl). exact (X _ 0%Z ltac:(lia)).
Qed.
End Dec.
