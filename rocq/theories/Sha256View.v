(** The constraints of sha256_process, sorted by block. *)
From Coq Require Import ZArith List String Lia Bool Field.
From Verif Require Import Base Field Plonk PlonkFacts Bits Sha256Spec Sha256Model Sha256Sparse Sha256Words Sha256Gadgets Sha256Blocks.
Import ListNotations.
Open Scope Z_scope.

Lemma sel_iff : forall b e step r, 0 < step -> b <= e -> (In r (sel_rows b e step) <-> exists k, 0 <= k <= (e - b) / step /\ r = b + step * k).
Proof.
  intros b e step r Hs He. unfold sel_rows. rewrite in_map_iff. split.
  - intros [k [<- Hk]]. apply in_zseq in Hk. exists k. split; [lia|reflexivity].
  - intros [k [Hk ->]]. exists k. split; [reflexivity|]. apply in_zseq. lia.
Qed.

Section View.
Variable P : params.
Notation F := (F P).
Notation table := (table P).
Variable c : comp.
Variables (st wd : Z -> var) (row : Z).
Variable T : table.
Notation L := (@sha_lenv P).
Notation at_ k o := (T CWit (W c k%Z) (row + (o))%Z).

Lemma sat_flat : forall A (f : A -> list (cmd P)) l, sat L T (flat_map f l) <-> forall x, In x l -> sat L T (f x).
Proof.
  intros. unfold sat. split.
  - intros H x Hx e He. apply H. apply in_flat_map. exists x. auto.
  - intros H e He. apply in_flat_map in He. destruct He as [x [Hx He]]. exact (H x Hx e He).
Qed.

Lemma gate_sel : forall g b e step, 0 < step -> b <= e ->
  (holds L T (Gate g (sel_rows b e step)) <-> forall k, 0 <= k <= (e - b) / step -> gh P T (b + step * k) g).
Proof.
  intros g b e step Hs He. cbn [holds]. split.
  - intros H k Hk x Hx. apply H; [|exact Hx]. apply sel_iff; [assumption..|]. exists k. auto.
  - intros H r Hr x Hx. apply sel_iff in Hr; [|assumption..]. destruct Hr as [k [Hk ->]]. exact (H k Hk x Hx).
Qed.
Lemma lookup_sel : forall g b e step, 0 < step -> b <= e ->
  (holds L T (LookupGate g (sel_rows b e step)) <-> forall k, 0 <= k <= (e - b) / step -> lh P T (b + step * k) g).
Proof.
  intros g b e step Hs He. cbn [holds]. split.
  - intros H k Hk x es Hx. apply H; [|exact Hx]. apply sel_iff; [assumption..|]. exists k. auto.
  - intros H r Hr x es Hx. apply sel_iff in Hr; [|assumption..]. destruct Hr as [k [Hk ->]]. exact (H k Hk x es Hx).
Qed.

Definition msg_block (i : Z) : Prop :=
  gh P T (i + 1) (sg0_gate P c) /\ lh P T (i + 1) (sg0_lookup P c) /\ gh P T (i + 2) (msg_gate P c) /\ lh P T (i + 2) (msg_lookup P c) /\
  gh P T (i + 4) (sg1_gate P c) /\ lh P T (i + 4) (sg1_lookup P c).

(** Word [k] of the message schedule as the circuit holds it. *)
Definition wv_at (k : Z) : F := if k <? 16 then vval T (wd k) else at_ 0 (2 + 5 * (k - 16) + 2).

Record sp_view : Prop := {
  v_const : forall r, 0 <= r < 64 -> T CConst (C c 0) (row + (242 + 8 * r) + 3) = ofZ (znth 0 round_constant r);
  v_msg : forall r, 0 <= r < 48 -> msg_block (row + (2 + 5 * r));
  v_cmp : forall r, 0 <= r < 64 -> cmp_block P c T (row + (242 + 8 * r));
  v_out : forall q, 0 <= q < 2 -> gh P T (row + (754 + 2 * q)) (out_gate P c);
  v_chk : forall q, 0 <= q < 4 -> gh P T (row + (758 + q)) (chk_gate P c) /\ lh P T (row + (758 + q)) (chk_lookup P c);
  v_words : forall r, 0 <= r < 48 -> let i := row + (2 + 5 * r) in
    T CWit (W c 0) i = wv_at (r + 1) /\ T CWit (W c 0) (i + 1) = wv_at (r + 9) /\ T CWit (W c 1) (i + 1) = wv_at r /\
    T CWit (W c 0) (i + 4) = wv_at (r + 14) /\ T CWit (W c 0) (i + 2) = T CWit (W c 8) (i + 4);
  v_next : forall r, 0 <= r < 63 -> let i := row + (242 + 8 * r) in let i' := row + (242 + 8 * (r + 1)) in
    T CWit (W c 0) i' = T CWit (W c 4) (i + 3) /\ T CWit (W c 0) (i' + 7) = T CWit (W c 2) (i + 5) /\
    T CWit (W c 1) (i' + 5) = T CWit (W c 0) (i + 5) /\ T CWit (W c 4) (i' + 5) = T CWit (W c 1) (i + 5) /\
    T CWit (W c 1) (i' + 1) = T CWit (W c 0) (i + 1) /\ T CWit (W c 0) (i' + 3) = T CWit (W c 1) (i + 1);
  v_fin : at_ 0 753 = at_ 5 754 /\ at_ 0 745 = at_ 6 754 /\ at_ 0 737 = at_ 7 754 /\
          at_ 0 746 = at_ 5 756 /\ at_ 0 738 = at_ 6 756 /\ at_ 0 730 = at_ 7 756;
  v_st : forall k, 0 <= k < 4 -> T CWit (W c k) (row + 754) = vval T (st k) /\ T CWit (W c k) (row + 756) = vval T (st (k + 4));
  v_range : at_ 4 754 = at_ 3 758 /\ at_ 5 754 = at_ 7 758 /\ at_ 6 754 = at_ 3 759 /\ at_ 7 754 = at_ 7 759 /\
            at_ 4 756 = at_ 3 760 /\ at_ 5 756 = at_ 7 760 /\ at_ 6 756 = at_ 3 761 /\ at_ 7 756 = at_ 7 761 }.

Lemma gh_row : forall r r' g, r = r' -> gh P T r g -> gh P T r' g.
Proof. intros. subst. assumption. Qed.
Lemma lh_row : forall r r' g, r = r' -> lh P T r g -> lh P T r' g.
Proof. intros. subst. assumption. Qed.

Lemma view_gates : sat L T (sp_gates P c row) <->
  (forall r, 0 <= r < 48 -> msg_block (row + (2 + 5 * r))) /\
  (forall r, 0 <= r < 64 -> cmp_block P c T (row + (242 + 8 * r))) /\
  (forall q, 0 <= q < 2 -> gh P T (row + (754 + 2 * q)) (out_gate P c)) /\
  (forall q, 0 <= q < 4 -> gh P T (row + (758 + q)) (chk_gate P c) /\ lh P T (row + (758 + q)) (chk_lookup P c)).
Proof.
  unfold sp_gates. rewrite !sat_cons.
  repeat (rewrite gate_sel by lia). repeat (rewrite lookup_sel by lia).
  replace ((row + 2 + 239 - (row + 2 + 1)) / 5) with 47 by (replace (row + 2 + 239 - (row + 2 + 1)) with 238 by lia; reflexivity).
  replace ((row + 2 + 239 - (row + 2 + 2)) / 5) with 47 by (replace (row + 2 + 239 - (row + 2 + 2)) with 237 by lia; reflexivity).
  replace ((row + 2 + 239 - (row + 2 + 4)) / 5) with 47 by (replace (row + 2 + 239 - (row + 2 + 4)) with 235 by lia; reflexivity).
  replace ((row + 242 + 511 - (row + 242 + 1)) / 8) with 63 by (replace (row + 242 + 511 - (row + 242 + 1)) with 510 by lia; reflexivity).
  replace ((row + 242 + 511 - (row + 242 + 6)) / 8) with 63 by (replace (row + 242 + 511 - (row + 242 + 6)) with 505 by lia; reflexivity).
  replace ((row + 242 + 511 - (row + 242 + 3)) / 8) with 63 by (replace (row + 242 + 511 - (row + 242 + 3)) with 508 by lia; reflexivity).
  replace ((row + 242 + 511 - (row + 242 + 4)) / 8) with 63 by (replace (row + 242 + 511 - (row + 242 + 4)) with 507 by lia; reflexivity).
  replace ((row + 242 + 511 - (row + 242 + 2)) / 8) with 63 by (replace (row + 242 + 511 - (row + 242 + 2)) with 509 by lia; reflexivity).
  replace ((row + 754 + 2 - (row + 754)) / 2) with 1 by (replace (row + 754 + 2 - (row + 754)) with 2 by lia; reflexivity).
  replace ((row + 754 + 4 + 3 - (row + 754 + 4)) / 1) with 3 by (replace (row + 754 + 4 + 3 - (row + 754 + 4)) with 3 by lia; reflexivity).
  split.
  - intros [H1 [H2 [H3 [H4 [H5 [H6 [H7 [H8 [H9 [H10 [H11 [H12 [H13 [H14 [H15 [H16 [H17 [H18 [H19 _]]]]]]]]]]]]]]]]]]].
    split; [|split; [|split]].
    + intros r Hr. unfold msg_block.
      repeat apply conj; [eapply gh_row; [|apply (H1 r)] | eapply lh_row; [|apply (H2 r)] | eapply gh_row; [|apply (H3 r)]
        | eapply lh_row; [|apply (H4 r)] | eapply gh_row; [|apply (H5 r)] | eapply lh_row; [|apply (H6 r)] ]; lia.
    + intros r Hr. unfold cmp_block.
      repeat apply conj; [eapply gh_row; [|apply (H7 r)] | eapply lh_row; [|apply (H8 r)] | eapply gh_row; [|apply (H9 r)]
        | eapply lh_row; [|apply (H10 r)] | eapply gh_row; [|apply (H11 r)] | eapply gh_row; [|apply (H12 r)]
        | eapply gh_row; [|apply (H13 r)] | eapply lh_row; [|apply (H14 r)] | eapply gh_row; [|apply (H15 r)] | eapply lh_row; [|apply (H16 r)] ]; lia.
    + intros q Hq. eapply gh_row; [|apply (H17 q)]; lia.
    + intros q Hq. split; [eapply gh_row; [|apply (H18 q)]|eapply lh_row; [|apply (H19 q)]]; lia.
  - intros [A [B [C D]]].
    repeat match goal with |- _ /\ _ => split end; try apply sat_nil; intros k Hk.
    all: try (destruct (A k ltac:(lia)) as [A1 [A2 [A3 [A4 [A5 A6]]]]];
      first [ eapply gh_row; [|exact A1]; lia | eapply lh_row; [|exact A2]; lia | eapply gh_row; [|exact A3]; lia
            | eapply lh_row; [|exact A4]; lia | eapply gh_row; [|exact A5]; lia | eapply lh_row; [|exact A6]; lia ]; fail).
    all: try (destruct (B k ltac:(lia)) as [A1 [A2 [A3 [A4 [A5 [A6 [A7 [A8 [A9 A10]]]]]]]]];
      first [ eapply gh_row; [|exact A1]; lia | eapply lh_row; [|exact A2]; lia | eapply gh_row; [|exact A3]; lia
            | eapply lh_row; [|exact A4]; lia | eapply gh_row; [|exact A5]; lia | eapply gh_row; [|exact A6]; lia
            | eapply gh_row; [|exact A7]; lia | eapply lh_row; [|exact A8]; lia | eapply gh_row; [|exact A9]; lia | eapply lh_row; [|exact A10]; lia ]; fail).
    + eapply gh_row; [|exact (C k ltac:(lia))]; lia.
    + eapply gh_row; [|exact (proj1 (D k ltac:(lia)))]; lia.
    + eapply lh_row; [|exact (proj2 (D k ltac:(lia)))]; lia.
Qed.

Lemma wv_lo : forall k, k < 16 -> wv_at k = vval T (wd k).
Proof. intros k H. unfold wv_at. rewrite (proj2 (Z.ltb_lt k 16) H). reflexivity. Qed.
Lemma wv_hi : forall k o, 16 <= k -> o = 2 + 5 * (k - 16) + 2 -> wv_at k = at_ 0 o.
Proof. intros k o H ->. unfold wv_at. rewrite (proj2 (Z.ltb_ge k 16) H). reflexivity. Qed.

Definition words_view : Prop := forall r, 0 <= r < 48 -> let i := row + (2 + 5 * r) in
    T CWit (W c 0) i = wv_at (r + 1) /\ T CWit (W c 0) (i + 1) = wv_at (r + 9) /\ T CWit (W c 1) (i + 1) = wv_at r /\
    T CWit (W c 0) (i + 4) = wv_at (r + 14) /\ T CWit (W c 0) (i + 2) = T CWit (W c 8) (i + 4).

Lemma sat_mapi : forall A (f : A -> cmd P) l, sat L T (map f l) <-> forall x, In x l -> holds L T (f x).
Proof. intros. apply sat_map. Qed.
Lemma sat_if : forall (b : bool) x, sat L T (if b then [x] else []) <-> (b = true -> holds L T x).
Proof.
  intros b x. destruct b; [rewrite sat_cons|]; split; intros H; try tauto; try discriminate; [|apply sat_nil].
  split; [apply H; reflexivity|apply sat_nil].
Qed.

Definition words_copies : list (cmd P) :=
  map (fun i => Copy (wcell (W c 0) (row + (2 + (i - 1) * 5))) (wd i)) (zseq 1 16) ++
  map (fun i => Copy (wcell (W c 0) (row + (2 + (i - 9) * 5 + 1))) (wd i)) (zseq 9 16) ++
  map (fun i => Copy (wcell (W c 1) (row + (2 + i * 5 + 1))) (wd i)) (zseq 0 16) ++
  map (fun i => Copy (wcell (W c 0) (row + (2 + (i - 14) * 5 + 4))) (wd i)) (zseq 14 16) ++
  flat_map (fun r =>
    (if 2 <=? r then [Copy (wcell (W c 0) (row + (2 + r * 5 + 4))) (wcell (W c 0) (row + (2 + (r - 2) * 5 + 2)))] else []) ++
    (if 7 <=? r then [Copy (wcell (W c 0) (row + (2 + r * 5 + 1))) (wcell (W c 0) (row + (2 + (r - 7) * 5 + 2)))] else []) ++
    (if 15 <=? r then [Copy (wcell (W c 0) (row + (2 + r * 5))) (wcell (W c 0) (row + (2 + (r - 15) * 5 + 2)))] else []) ++
    (if 16 <=? r then [Copy (wcell (W c 1) (row + (2 + r * 5 + 1))) (wcell (W c 0) (row + (2 + (r - 16) * 5 + 2)))] else []) ++
    [Copy (wcell (W c 0) (row + (2 + r * 5 + 2))) (wcell (W c 8) (row + (2 + r * 5 + 4)))]) (zseq 0 48).

Ltac cellrow := match goal with |- T CWit ?a ?x = T CWit ?a ?y => replace x with y by lia; reflexivity end.
Lemma cellr : forall k x y v, T CWit k x = v -> x = y -> T CWit k y = v.
Proof. intros. subst. reflexivity. Qed.
Lemma cell2 : forall k k' x y x' y', T CWit k x = T CWit k' x' -> x = y -> x' = y' -> T CWit k y = T CWit k' y'.
Proof. intros. subst. assumption. Qed.

Lemma view_words : sat L T words_copies <-> words_view.
Proof.
  unfold words_copies. rewrite !sat_app, !sat_mapi, sat_flat. cbn [holds]. split.
  - intros [A0 [B0 [C0 [D0 E]]]] r Hr i.
    assert (A : forall x, 1 <= x < 16 -> T CWit (W c 0) (row + (2 + (x - 1) * 5)) = vval T (wd x)) by (intros; apply A0, in_zseq; assumption).
    assert (B : forall x, 9 <= x < 16 -> T CWit (W c 0) (row + (2 + (x - 9) * 5 + 1)) = vval T (wd x)) by (intros; apply B0, in_zseq; assumption).
    assert (C : forall x, 0 <= x < 16 -> T CWit (W c 1) (row + (2 + x * 5 + 1)) = vval T (wd x)) by (intros; apply C0, in_zseq; assumption).
    assert (D : forall x, 14 <= x < 16 -> T CWit (W c 0) (row + (2 + (x - 14) * 5 + 4)) = vval T (wd x)) by (intros; apply D0, in_zseq; assumption).
    clear A0 B0 C0 D0. assert (E' := E r (proj2 (in_zseq _ _ _) Hr)). rewrite !sat_app, !sat_if, sat_cons in E'. cbn [holds] in E'.
    destruct E' as [E1 [E2 [E3 [E4 [E5 _]]]]]. rewrite !vval_wcell in *.
    split; [|split; [|split; [|split]]].
    + destruct (Z_lt_le_dec (r + 1) 16) as [K|K].
      * rewrite wv_lo by exact K. eapply cellr; [apply (A (r + 1)); lia|unfold i; lia].
      * rewrite (wv_hi (r + 1) _ K eq_refl). eapply cell2; [apply E3; apply Z.leb_le; lia|unfold i; lia..].
    + destruct (Z_lt_le_dec (r + 9) 16) as [K|K].
      * rewrite wv_lo by exact K. eapply cellr; [apply (B (r + 9)); lia|unfold i; lia].
      * rewrite (wv_hi (r + 9) _ K eq_refl). eapply cell2; [apply E2; apply Z.leb_le; lia|unfold i; lia..].
    + destruct (Z_lt_le_dec r 16) as [K|K].
      * rewrite wv_lo by exact K. eapply cellr; [apply (C r); lia|unfold i; lia].
      * rewrite (wv_hi r _ K eq_refl). eapply cell2; [apply E4; apply Z.leb_le; lia|unfold i; lia..].
    + destruct (Z_lt_le_dec (r + 14) 16) as [K|K].
      * rewrite wv_lo by exact K. eapply cellr; [apply (D (r + 14)); lia|unfold i; lia].
      * rewrite (wv_hi (r + 14) _ K eq_refl). eapply cell2; [apply E1; apply Z.leb_le; lia|unfold i; lia..].
    + eapply cell2; [exact E5|unfold i; lia..].
  - intros V. repeat match goal with |- _ /\ _ => split end.
    + intros x Hx. apply in_zseq in Hx. rewrite vval_wcell, <- wv_lo by lia. replace x with (x - 1 + 1) at 2 by lia.
      eapply cellr; [apply (V (x - 1)); lia|lia].
    + intros x Hx. apply in_zseq in Hx. rewrite vval_wcell, <- wv_lo by lia. replace x with (x - 9 + 9) at 2 by lia.
      eapply cellr; [apply (V (x - 9)); lia|lia].
    + intros x Hx. apply in_zseq in Hx. rewrite vval_wcell, <- wv_lo by lia.
      eapply cellr; [apply (V x); lia|lia].
    + intros x Hx. apply in_zseq in Hx. rewrite vval_wcell, <- wv_lo by lia. replace x with (x - 14 + 14) at 2 by lia.
      eapply cellr; [apply (V (x - 14)); lia|lia].
    + intros r Hr. apply in_zseq in Hr. rewrite !sat_app, !sat_if, sat_cons. cbn [holds]. rewrite !vval_wcell.
      destruct (V r Hr) as [V1 [V2 [V3 [V4 V5]]]].
      split; [|split; [|split; [|split; [|split; [|apply sat_nil]]]]].
      * intros K. apply Z.leb_le in K. rewrite (wv_hi (r + 14) _ ltac:(lia) eq_refl) in V4. eapply cell2; [exact V4|lia..].
      * intros K. apply Z.leb_le in K. rewrite (wv_hi (r + 9) _ ltac:(lia) eq_refl) in V2. eapply cell2; [exact V2|lia..].
      * intros K. apply Z.leb_le in K. rewrite (wv_hi (r + 1) _ ltac:(lia) eq_refl) in V1. eapply cell2; [exact V1|lia..].
      * intros K. apply Z.leb_le in K. rewrite (wv_hi r _ ltac:(lia) eq_refl) in V3. eapply cell2; [exact V3|lia..].
      * eapply cell2; [exact V5|lia..].
Qed.

Theorem sp_view_iff : sat L T (sp_circuit c st wd row) <-> sp_view.
Proof.
  assert (EC : sp_copies P c st wd row = words_copies ++ skipn 0 (
    flat_map (fun r =>
    [Copy (wcell (W c 0) (row + (242 + r * 8))) (wcell (W c 4) (row + (242 + (r - 1) * 8 + 3)));
     Copy (wcell (W c 0) (row + (242 + r * 8 + 7))) (wcell (W c 2) (row + (242 + (r - 1) * 8 + 5)));
     Copy (wcell (W c 1) (row + (242 + r * 8 + 5))) (wcell (W c 0) (row + (242 + (r - 1) * 8 + 5)));
     Copy (wcell (W c 4) (row + (242 + r * 8 + 5))) (wcell (W c 1) (row + (242 + (r - 1) * 8 + 5)));
     Copy (wcell (W c 1) (row + (242 + r * 8 + 1))) (wcell (W c 0) (row + (242 + (r - 1) * 8 + 1)));
     Copy (wcell (W c 0) (row + (242 + r * 8 + 3))) (wcell (W c 1) (row + (242 + (r - 1) * 8 + 1)))]) (zseq 1 64) ++
    [Copy (wcell (W c 0) (row + 753)) (wcell (W c 5) (row + 754)); Copy (wcell (W c 0) (row + 745)) (wcell (W c 6) (row + 754));
     Copy (wcell (W c 0) (row + 737)) (wcell (W c 7) (row + 754)); Copy (wcell (W c 0) (row + 746)) (wcell (W c 5) (row + 756));
     Copy (wcell (W c 0) (row + 738)) (wcell (W c 6) (row + 756)); Copy (wcell (W c 0) (row + 730)) (wcell (W c 7) (row + 756))] ++
    flat_map (fun i => [Copy (wcell (W c i) (row + 754)) (st i); Copy (wcell (W c i) (row + 756)) (st (i + 4))]) (zseq 0 4) ++
    [Copy (wcell (W c 4) (row + 754)) (wcell (W c 3) (row + 758)); Copy (wcell (W c 5) (row + 754)) (wcell (W c 7) (row + 758));
     Copy (wcell (W c 6) (row + 754)) (wcell (W c 3) (row + 759)); Copy (wcell (W c 7) (row + 754)) (wcell (W c 7) (row + 759));
     Copy (wcell (W c 4) (row + 756)) (wcell (W c 3) (row + 760)); Copy (wcell (W c 5) (row + 756)) (wcell (W c 7) (row + 760));
     Copy (wcell (W c 6) (row + 756)) (wcell (W c 3) (row + 761)); Copy (wcell (W c 7) (row + 756)) (wcell (W c 7) (row + 761))])).
  { unfold sp_copies, words_copies. rewrite <- !app_assoc. reflexivity. }
  unfold sp_circuit. rewrite EC. cbn [skipn]. clear EC.
  rewrite !sat_app, view_gates, view_words. unfold sp_consts. rewrite sat_mapi, !sat_flat. rewrite !sat_cons. cbn [holds].
  rewrite !vval_wcell. split.
  - intros [A [[B1 [B2 [B3 B4]]] [C [D [E [G H]]]]]]. constructor.
    + intros r Hr. rewrite <- (A r (proj2 (in_zseq _ _ _) Hr)). f_equal. lia.
    + exact B1.
    + exact B2.
    + exact B3.
    + exact B4.
    + exact C.
    + intros r Hr i i'. assert (D' : In (r + 1) (zseq 1 64)) by (apply in_zseq; lia). apply D in D'. rewrite !sat_cons in D'. cbn [holds] in D'.
      rewrite !vval_wcell in D'. destruct D' as [D1 [D2 [D3 [D4 [D5 [D6 _]]]]]].
      unfold i, i'.
      repeat apply conj; [eapply cell2; [exact D1|lia..] | eapply cell2; [exact D2|lia..] | eapply cell2; [exact D3|lia..]
        | eapply cell2; [exact D4|lia..] | eapply cell2; [exact D5|lia..] | eapply cell2; [exact D6|lia..] ].
    + destruct E as [E1 [E2 [E3 [E4 [E5 [E6 _]]]]]]. repeat (split; [assumption|]). assumption.
    + intros k Hk. assert (G' := G k (proj2 (in_zseq _ _ _) Hk)). rewrite !sat_cons in G'. cbn [holds] in G'. rewrite !vval_wcell in G'. tauto.
    + destruct H as [E1 [E2 [E3 [E4 [E5 [E6 [E7 [E8 _]]]]]]]]. repeat (split; [assumption|]). assumption.
  - intros V. destruct V as [V1 V2 V3 V4 V5 V6 V7 V8 V9 V10].
    split; [|split; [|split; [|split; [|split; [|split]]]]].
    + intros r Hr. apply in_zseq in Hr. rewrite <- (V1 r Hr). f_equal. lia.
    + repeat (split; [assumption|]). assumption.
    + exact V6.
    + intros r Hr. apply in_zseq in Hr. rewrite !sat_cons. cbn [holds]. rewrite !vval_wcell.
      destruct (V7 (r - 1) ltac:(lia)) as [D1 [D2 [D3 [D4 [D5 D6]]]]].
      repeat apply conj; [eapply cell2; [exact D1|lia..] | eapply cell2; [exact D2|lia..] | eapply cell2; [exact D3|lia..]
        | eapply cell2; [exact D4|lia..] | eapply cell2; [exact D5|lia..] | eapply cell2; [exact D6|lia..] | apply sat_nil ].
    + destruct V8 as [E1 [E2 [E3 [E4 [E5 E6]]]]]. repeat (split; [assumption|]). apply sat_nil.
    + intros k Hk. apply in_zseq in Hk. rewrite !sat_cons. cbn [holds]. rewrite !vval_wcell. destruct (V9 k Hk). repeat (split; [assumption|]). apply sat_nil.
    + destruct V10 as [E1 [E2 [E3 [E4 [E5 [E6 [E7 E8]]]]]]]. repeat (split; [assumption|]). apply sat_nil.
Qed.

End View.
