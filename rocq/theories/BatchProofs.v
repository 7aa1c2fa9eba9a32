(** Proofs about component batching: placement, soundness, completeness. *)
From Coq Require Import ZArith List Lia Bool.
From Verif Require Import Base Field Plonk PlonkFacts AssignModel BuilderModel BuilderProofs FinalizeModel FinalizeProofs BatchModel.
Import ListNotations.
Open Scope Z_scope.

Section Proofs.
Variable P : params.
Notation F := (F P).
Notation expr := (expr P).
Notation table := (table P).
Implicit Types T : table.

(** ** Placement *)
Lemma place_spec : forall W w k es row j, 1 <= w -> k = W / w -> 0 <= j < k ->
  let '(ps, (row', off')) := place W w es row (j * w) in
  length ps = length es /\
  (forall n p, nth_error ps n = Some p -> exists e, nth_error es n = Some e /\ p_in p = e_in e /\ p_res p = e_res e /\
     p_row p = row + (j + Z.of_nat n) / k /\ p_off p = ((j + Z.of_nat n) mod k) * w) /\
  row' = row + (j + Z.of_nat (length es)) / k /\ off' = ((j + Z.of_nat (length es)) mod k) * w.
Proof.
  intros W w k es. induction es as [|e es IH]; intros row j Hw Hk Hj; cbn [place].
  - split; [reflexivity|]. split; [intros [|n] p H; discriminate|]. cbn [length Z.of_nat]. rewrite Z.add_0_r.
    rewrite Z.div_small, Z.mod_small by lia. split; lia.
  - assert (KW : k * w <= W /\ W < (k + 1) * w).
    { subst k. pose proof (Z.mul_div_le W w ltac:(lia)). pose proof (Z.mul_succ_div_gt W w ltac:(lia)). lia. }
    rewrite Z.geb_leb. destruct (W <=? j * w + w + w - 1) eqn:E; [apply Z.leb_le in E|apply Z.leb_gt in E].
    + assert (J : j + 1 = k) by nia. specialize (IH (row + 1) 0 Hw Hk ltac:(lia)). rewrite Z.mul_0_l in IH.
      destruct (place W w es (row + 1) 0) as [ps [row' off']]. destruct IH as [A [B [C D]]].
      assert (DV : forall n, (j + Z.of_nat (S n)) / k = 1 + (0 + Z.of_nat n) / k /\ (j + Z.of_nat (S n)) mod k = (0 + Z.of_nat n) mod k).
      { intros n. rewrite !Z.add_0_l. replace (j + Z.of_nat (S n)) with (Z.of_nat n + 1 * k) by lia. rewrite Z.div_add, Z_mod_plus_full by lia. split; [lia|reflexivity]. }
      split; [cbn; lia|]. split.
      * intros [|n] p H; cbn [nth_error] in H.
        -- injection H as <-. exists e. cbn [nth_error p_in p_res p_row p_off Z.of_nat]. rewrite Z.add_0_r, Z.div_small, Z.mod_small by lia. repeat split; auto; lia.
        -- destruct (B n p H) as [e' [E1 [E2 [E3 [E4 E5]]]]]. exists e'. destruct (DV n) as [D1 D2]. rewrite D1, D2. repeat split; auto; lia.
      * cbn [length]. destruct (DV (length es)) as [D1 D2]. rewrite D1, D2. split; [lia|exact D].
    + assert (J : j + 1 < k) by nia. specialize (IH row (j + 1) Hw Hk ltac:(lia)).
      replace ((j + 1) * w) with (j * w + w) in IH by ring.
      destruct (place W w es row (j * w + w)) as [ps [row' off']]. destruct IH as [A [B [C D]]].
      assert (DV : forall n, j + Z.of_nat (S n) = j + 1 + Z.of_nat n) by (intros n; lia).
      split; [cbn; lia|]. split.
      * intros [|n] p H; cbn [nth_error] in H.
        -- injection H as <-. exists e. cbn [nth_error p_in p_res p_row p_off Z.of_nat]. rewrite Z.add_0_r, Z.div_small, Z.mod_small by lia. repeat split; auto; lia.
        -- destruct (B n p H) as [e' [E1 [E2 [E3 [E4 E5]]]]]. exists e'. rewrite DV. repeat split; auto.
      * cbn [length]. rewrite DV. auto.
Qed.

Lemma fill_spec : forall fuel W w k i row j, 1 <= w -> k = W / w -> 0 <= j <= k -> k - j <= Z.of_nat fuel ->
  Z.of_nat (length (fill fuel W w i row (j * w))) = k - j /\
  forall n p, nth_error (fill fuel W w i row (j * w)) n = Some p -> p_in p = i /\ p_row p = row /\ p_off p = (j + Z.of_nat n) * w.
Proof.
  induction fuel as [|f IH]; intros W w k i row j Hw Hk Hj Hf.
  - cbn. split; [lia|]. intros [|n] p H; discriminate.
  - assert (KW : k * w <= W /\ W < (k + 1) * w).
    { subst k. pose proof (Z.mul_div_le W w ltac:(lia)). pose proof (Z.mul_succ_div_gt W w ltac:(lia)). lia. }
    cbn [fill]. destruct (j * w + w - 1 <? W) eqn:E; [apply Z.ltb_lt in E|apply Z.ltb_ge in E].
    + assert (JK : j < k) by nia. specialize (IH W w k i row (j + 1) Hw Hk ltac:(lia) ltac:(lia)).
      replace ((j + 1) * w) with (j * w + w) in IH by ring. destruct IH as [A B]. split; [cbn [length]; lia|].
      intros [|n] p H; cbn [nth_error] in H.
      * injection H as <-. cbn [p_in p_row p_off Z.of_nat]. repeat split; auto; lia.
      * destruct (B n p H) as [B1 [B2 B3]]. repeat split; auto. rewrite B3. f_equal. lia.
    + assert (JK : j = k) by nia. cbn. split; [lia|]. intros [|n] p H; discriminate.
Qed.

(** All instances of one batch, in order of placement. *)
Definition instances (r : fresult P) : list placed := fr_placed r ++ fr_fill r.

Lemma finalize_spec : forall W B es start r, 1 <= b_w B <= W -> finalize_batch W B es start = r ->
  let k := W / b_w B in
  1 <= k /\ k * b_w B <= W /\ length (fr_placed r) = length es /\
  (forall n p, nth_error (fr_placed r) n = Some p -> exists e, nth_error es n = Some e /\ p_in p = e_in e /\ p_res p = e_res e) /\
  (forall n p, nth_error (instances r) n = Some p -> p_row p = start + Z.of_nat n / k /\ p_off p = (Z.of_nat n mod k) * b_w B) /\
  Z.of_nat (length (instances r)) = k * (fr_next r - start) /\ start <= fr_next r /\
  (forall p, In p (instances r) -> exists e, In e es /\ p_in p = e_in e) /\
  fr_map r = flat_map (fun p => combine (p_res p) (result_cells B p)) (fr_placed r) /\
  (es = [] -> fr_cmds r = []) /\
  (es <> [] -> exists rows, fr_cmds r = Gate (scaled W B) rows :: flat_map (instance_copies B) (fr_placed r) /\
     (forall x, In x rows -> start <= x < fr_next r) /\ (forall p, In p (fr_placed r) -> In (p_row p) rows)).
Proof.
  intros W B es start r Hw <-. cbv zeta. set (k := W / b_w B).
  assert (K1 : 1 <= k) by (apply Z.div_le_lower_bound; lia).
  assert (KW : k * b_w B <= W) by (unfold k; rewrite Z.mul_comm; apply Z.mul_div_le; lia).
  split; [exact K1|]. split; [exact KW|].
  destruct es as [|e0 es].
  - cbn. split; [reflexivity|]. split; [intros [|n] p H; discriminate|]. split; [intros [|n] p H; discriminate|].
    split; [rewrite Z.sub_diag, Z.mul_0_r; reflexivity|]. split; [lia|]. split; [intros p []|]. split; [reflexivity|]. split; [reflexivity|congruence].
  - pose proof (place_spec W (b_w B) k (e0 :: es) start 0 ltac:(lia) eq_refl ltac:(lia)) as PS. rewrite Z.mul_0_l in PS.
    set (all := e0 :: es) in *. unfold finalize_batch. fold all. change (match all with [] => mkFR P [] [] [] [] start | _ :: _ => _ end) with
      (let '(ps, (row, off)) := place W (b_w B) all start 0 in
       let again := negb (off =? 0) && (off + b_w B - 1 <? W) in
       let fs := if again then fill (Z.to_nat W) W (b_w B) (e_in e0) row off else [] in
       mkFR P (Gate (scaled W B) (map p_row (filter (fun p => p_off p =? 0) ps)) :: flat_map (instance_copies B) ps)
         (flat_map (fun p => combine (p_res p) (result_cells B p)) ps) ps fs (if again then row + 1 else row)).
    destruct (place W (b_w B) all start 0) as [ps [row off]]. destruct PS as [A [S [C D]]]. rewrite Z.add_0_l in C, D.
    set (len := Z.of_nat (length all)) in *. pose proof (Z.mod_pos_bound len k ltac:(lia)) as MB. pose proof (Z.div_mod len k ltac:(lia)) as DM.
    assert (AG : negb (off =? 0) && (off + b_w B - 1 <? W) = negb (len mod k =? 0)).
    { rewrite D. destruct (Z.eqb_spec (len mod k) 0) as [E|E].
      - rewrite E, Z.mul_0_l. reflexivity.
      - destruct (Z.eqb_spec (len mod k * b_w B) 0) as [E'|E']; [nia|]. cbn [negb andb]. apply Z.ltb_lt. assert ((len mod k + 1) * b_w B <= k * b_w B) by (apply Z.mul_le_mono_nonneg_r; lia). lia. }
    cbv zeta. rewrite AG. unfold instances. cbn [fr_placed fr_fill fr_next fr_map fr_cmds].
    assert (FS : forall q, q = (if negb (len mod k =? 0) then fill (Z.to_nat W) W (b_w B) (e_in e0) row off else []) ->
      Z.of_nat (length (ps ++ q)) = k * ((if negb (len mod k =? 0) then row + 1 else row) - start) /\
      (forall n p, nth_error (ps ++ q) n = Some p -> p_row p = start + Z.of_nat n / k /\ p_off p = (Z.of_nat n mod k) * b_w B) /\
      forall p, In p q -> p_in p = e_in e0).
    { intros q Hq. assert (PL : forall n p, nth_error ps n = Some p -> p_row p = start + Z.of_nat n / k /\ p_off p = (Z.of_nat n mod k) * b_w B).
      { intros n p H. destruct (S n p H) as [e [_ [_ [_ [E4 E5]]]]]. rewrite Z.add_0_l in E4, E5. auto. }
      destruct (Z.eqb_spec (len mod k) 0) as [E|E]; cbn [negb] in Hq |- *.
      - subst q. rewrite app_nil_r. split; [rewrite A; fold len; rewrite C; nia|]. split; [exact PL|intros p []].
      - destruct (fill_spec (Z.to_nat W) W (b_w B) k (e_in e0) row (len mod k) ltac:(lia) eq_refl ltac:(lia)) as [FL FN].
        { rewrite Z2Nat.id by lia. nia. }
        rewrite <- D, <- Hq in FL, FN. split; [rewrite app_length, Nat2Z.inj_add, FL, A; fold len; rewrite C; nia|]. split.
        + intros n p H. destruct (Nat.lt_ge_cases n (length ps)) as [L|L].
          * rewrite nth_error_app1 in H by exact L. apply PL. exact H.
          * rewrite nth_error_app2 in H by exact L.
            assert (NL : (n - length ps < length q)%nat) by (apply nth_error_Some; congruence).
            destruct (FN _ p H) as [_ [F2 F3]].
            assert (EN : Z.of_nat n = (len / k) * k + (len mod k + Z.of_nat (n - length ps))) by (unfold len in *; lia).
            assert (BD : len mod k + Z.of_nat (n - length ps) < k) by lia.
            rewrite EN. rewrite (Z.add_comm (len / k * k)). rewrite Z.div_add, Z_mod_plus_full by lia.
            rewrite Z.div_small, Z.mod_small by lia. rewrite F2, F3, C. split; [lia|reflexivity].
        + intros p Hp. apply In_nth_error in Hp. destruct Hp as [n Hn]. apply (FN n p Hn). }
    destruct (FS _ eq_refl) as [F1 [F2 F3]]. split; [exact A|]. split.
    { intros n p H. destruct (S n p H) as [e [E1 [E2 [E3 _]]]]. eauto. }
    split; [exact F2|]. split; [exact F1|].
    assert (LE : start <= row) by (rewrite C; pose proof (Z.div_pos len k ltac:(lia) ltac:(lia)); lia).
    split; [destruct (len mod k =? 0); cbn [negb]; lia|]. split.
    { intros p Hp. apply in_app_or in Hp. destruct Hp as [Hp|Hp].
      - apply In_nth_error in Hp. destruct Hp as [n Hn]. destruct (S n p Hn) as [e [E1 [E2 _]]]. exists e. split; [eapply nth_error_In; exact E1|exact E2].
      - exists e0. split; [left; reflexivity|]. apply F3. exact Hp. }
    split; [reflexivity|]. split; [discriminate|]. intros _. eexists. split; [reflexivity|].
    assert (PB : forall n p, nth_error ps n = Some p -> start <= p_row p < (if negb (len mod k =? 0) then row + 1 else row)).
    { intros n p H. destruct (S n p H) as [e [_ [_ [_ [E4 _]]]]]. rewrite Z.add_0_l in E4.
      assert (n < length all)%nat by (rewrite <- A; apply nth_error_Some; congruence).
      pose proof (Z.div_pos (Z.of_nat n) k ltac:(lia) ltac:(lia)). split; [lia|]. rewrite E4.
      destruct (Z.eqb_spec (len mod k) 0) as [E|E]; cbn [negb]; rewrite C.
      - assert (Z.of_nat n / k < len / k) by (apply Z.div_lt_upper_bound; unfold len in *; nia). lia.
      - assert (Z.of_nat n / k <= len / k) by (apply Z.div_le_mono; unfold len; lia). lia. }
    split.
    + intros x Hx. apply in_map_iff in Hx. destruct Hx as [p [<- Hp]]. apply filter_In in Hp. destruct Hp as [Hp _].
      apply In_nth_error in Hp. destruct Hp as [n Hn]. apply (PB n p Hn).
    + intros p Hp. apply In_nth_error in Hp. destruct Hp as [n Hn]. destruct (S n p Hn) as [e [E1 [_ [_ [E4 _]]]]]. rewrite Z.add_0_l in E4.
      assert (NL : (n < length all)%nat) by (rewrite <- A; apply nth_error_Some; congruence).
      set (q := Z.of_nat n / k) in *. pose proof (Z.div_mod (Z.of_nat n) k ltac:(lia)) as QM. fold q in QM. pose proof (Z.mod_pos_bound (Z.of_nat n) k ltac:(lia)) as QB.
      assert (Q0 : 0 <= q) by (apply Z.div_pos; lia).
      assert (N0 : (Z.to_nat (k * q) < length ps)%nat) by (rewrite A; nia).
      destruct (nth_error ps (Z.to_nat (k * q))) as [p0|] eqn:N; [|apply nth_error_None in N; lia].
      destruct (S _ p0 N) as [_ [_ [_ [_ [G4 G5]]]]]. rewrite Z.add_0_l, Z2Nat.id, (Z.mul_comm k q) in G4, G5 by nia.
      rewrite Z.div_mul in G4 by lia. rewrite Z.mod_mul, Z.mul_0_l in G5 by lia.
      apply in_map_iff. exists p0. split; [lia|]. apply filter_In. split; [eapply nth_error_In; exact N|]. apply Z.eqb_eq. exact G5.
Qed.

(** ** The scaled gate *)
Lemma move_pointwise : forall f (e : expr), (forall v, f v = v) -> move f e = e.
Proof.
  intros f e H. induction e as [c vs|e IH n|o a IHa b IHb]; cbn [move].
  - f_equal. induction vs as [|v vs IHv]; cbn; [reflexivity|]. rewrite H, IHv. reflexivity.
  - rewrite IH. reflexivity.
  - rewrite IHa, IHb. destruct o; reflexivity.
Qed.
Lemma shift_0 : forall v, shift 0 v = v.
Proof. intros [i r l t]. unfold shift. cbn. rewrite Z.add_0_r. reflexivity. Qed.
Lemma scaled_In : forall W (B : bcomp P) e', 1 <= W / b_w B ->
  (In e' (scaled W B) <-> exists t e, 0 <= t < W / b_w B /\ In e (b_cs B) /\ e' = move (shift (t * b_w B)) e).
Proof.
  intros W B e' HK. unfold scaled. rewrite in_app_iff, in_flat_map. split.
  - intros [H|[i [Hi H]]].
    + exists 0, e'. split; [lia|]. split; [exact H|]. rewrite Z.mul_0_l. symmetry. apply move_pointwise. exact shift_0.
    + apply in_seq in Hi. apply in_map_iff in H. destruct H as [e [<- He]]. exists (Z.of_nat i), e. split; [lia|auto].
  - intros [t [e [Ht [He ->]]]]. destruct (Z.eq_dec t 0) as [->|N].
    + left. rewrite Z.mul_0_l, move_pointwise by exact shift_0. exact He.
    + right. exists (Z.to_nat t). split; [apply in_seq; lia|]. apply in_map_iff. exists e. rewrite Z2Nat.id by lia. auto.
Qed.
(** The table seen from column [off] on. *)
Definition tshift (off : Z) T : table := fun ty c r => T ty (c + off) r.
Lemma eval_shift : forall off T r (e : expr), eval T r (move (shift off) e) = eval (tshift off T) r e.
Proof. intros off T r e. apply move_table_l. intros v. reflexivity. Qed.

(** ** Batches *)
Definition bvar (v : var) : Prop := exists i, v = mkVar bpriv_index i false CPub.
Definition wf_entry (B : bcomp P) (e : entry) : Prop :=
  length (e_in e) = length (b_in B) /\ length (e_res e) = length (b_out B) /\
  (forall v, In v (e_res e) -> bvar v) /\ (forall v, In v (e_in e) -> vrel v = false).
Definition wf_batches (W : Z) (bs : list (bcomp P * list entry)) : Prop :=
  (forall B es, In (B, es) bs -> 1 <= b_w B <= W /\ forall e, In e es -> wf_entry B e) /\
  NoDup (flat_map (fun be => flat_map e_res (snd be)) bs).

Lemma finalize_all_In : forall W (bs : list (bcomp P * list entry)) start, (forall B es, In (B, es) bs -> 1 <= b_w B <= W) ->
  start <= snd (finalize_all W bs start) /\
  forall B es, In (B, es) bs -> exists st, start <= st /\ fr_next (finalize_batch W B es st) <= snd (finalize_all W bs start) /\
    In (B, finalize_batch W B es st) (fst (finalize_all W bs start)).
Proof.
  intros W bs. induction bs as [|[B es] bs IH]; intros start H; cbn [finalize_all].
  - split; [cbn; lia|]. intros B es [].
  - pose proof (finalize_spec W B es start _ (H B es (or_introl eq_refl)) eq_refl) as FS. cbv zeta in FS. destruct FS as [_ [_ [_ [_ [_ [_ [FN _]]]]]]].
    specialize (IH (fr_next (finalize_batch W B es start)) ltac:(intros B' es' H'; apply (H B' es'); right; exact H')).
    destruct (finalize_all W bs (fr_next (finalize_batch W B es start))) as [rs next]. cbn [fst snd] in *. destruct IH as [I1 I2].
    split; [lia|]. intros B' es' [E|H'].
    + injection E as <- <-. exists start. split; [lia|]. split; [exact I1|left; reflexivity].
    + destruct (I2 B' es' H') as [st [J1 [J2 J3]]]. exists st. split; [lia|]. split; [exact J2|right; exact J3].
Qed.
Lemma finalize_all_inv : forall W (bs : list (bcomp P * list entry)) start B r, In (B, r) (fst (finalize_all W bs start)) ->
  exists es st, In (B, es) bs /\ r = finalize_batch W B es st.
Proof.
  intros W bs. induction bs as [|[B0 es] bs IH]; intros start B r H; cbn [finalize_all] in H; [destruct H|].
  destruct (finalize_all W bs _) as [rs next] eqn:E. cbn [fst] in H. destruct H as [H|H].
  - injection H as <- <-. exists es, start. split; [left; reflexivity|reflexivity].
  - specialize (IH (fr_next (finalize_batch W B0 es start)) B r). rewrite E in IH. destruct (IH H) as [es' [st [A1 A2]]].
    exists es', st. split; [right; exact A1|exact A2].
Qed.

Lemma combine_fst : forall A B (a : list A) (b : list B), length a = length b -> map fst (combine a b) = a.
Proof. induction a as [|x a IH]; intros [|y b] H; cbn in *; try discriminate; [reflexivity|]. rewrite IH by lia. reflexivity. Qed.
Lemma in_combine_nth : forall A B (a : list A) (b : list B) x y, In (x, y) (combine a b) <-> exists n, nth_error a n = Some x /\ nth_error b n = Some y.
Proof.
  induction a as [|x' a IH]; intros [|y' b] x y; cbn [combine In]; try (split; [intros []|intros [[|n] [H1 H2]]; discriminate]).
  rewrite IH. split.
  - intros [E|[n H]]; [injection E as <- <-; exists O; auto|exists (S n); exact H].
  - intros [[|n] [H1 H2]]; cbn in *; [left; congruence|right; exists n; auto].
Qed.
Lemma flat_map_nth : forall A B C (f : A -> list C) (g : B -> list C) (a : list A) (b : list B),
  length a = length b -> (forall n x y, nth_error a n = Some x -> nth_error b n = Some y -> f x = g y) -> flat_map f a = flat_map g b.
Proof.
  induction a as [|x a IH]; intros [|y b] L H; cbn in *; try discriminate; [reflexivity|].
  rewrite (H O x y eq_refl eq_refl), (IH b); [reflexivity|lia|]. intros n u v H1 H2. apply (H (S n)); assumption.
Qed.
Lemma map_flat_map : forall A B C (f : B -> C) (g : A -> list B) l, map f (flat_map g l) = flat_map (fun x => map f (g x)) l.
Proof. induction l as [|x l IH]; cbn; [reflexivity|]. rewrite map_app, IH. reflexivity. Qed.

Lemma map_keys : forall W (bs : list (bcomp P * list entry)) start, (forall B es, In (B, es) bs -> 1 <= b_w B <= W /\ forall e, In e es -> wf_entry B e) ->
  map fst (all_map (fst (finalize_all W bs start))) = flat_map (fun be => flat_map e_res (snd be)) bs.
Proof.
  intros W bs. induction bs as [|[B es] bs IH]; intros start H; cbn [finalize_all]; [reflexivity|].
  specialize (IH (fr_next (finalize_batch W B es start)) ltac:(intros B' es' H'; apply H; right; exact H')).
  destruct (finalize_all W bs _) as [rs next]. cbn [fst] in *. unfold all_map in *. cbn [flat_map snd]. rewrite map_app, IH. f_equal.
  destruct (H B es (or_introl eq_refl)) as [HW HE].
  pose proof (finalize_spec W B es start _ HW eq_refl) as FS. cbv zeta in FS. destruct FS as [_ [_ [L [N [_ [_ [_ [_ [M _]]]]]]]]].
  rewrite M, map_flat_map. apply flat_map_nth; [exact L|]. intros n p e Hp He. destruct (N n p Hp) as [e' [E1 [_ E2]]].
  rewrite He in E1. injection E1 as <-. rewrite E2. apply combine_fst. unfold result_cells. rewrite map_length.
  apply HE. eapply nth_error_In. exact He.
Qed.

Lemma replace_key : forall m k v, NoDup (map fst m) -> In (k, v) m -> replace_var m k = v.
Proof.
  intros m k v ND HI. unfold replace_var. destruct (find (fun kv => var_eqb (fst kv) k) (rev m)) as [[k' v']|] eqn:E.
  - apply find_some in E. destruct E as [E1 E2]. cbn in E2. apply var_eqb_eq in E2. subst k'. apply in_rev in E1. cbn.
    clear - ND HI E1. induction m as [|[a b] m IH]; [destruct HI|]. cbn in ND. inversion_clear ND as [|? ? N ND'].
    destruct HI as [H|H], E1 as [H'|H'].
    + congruence.
    + injection H as -> ->. exfalso. apply N. apply in_map_iff. exists (k, v'). auto.
    + injection H' as -> ->. exfalso. apply N. apply in_map_iff. exists (k, v). auto.
    + apply IH; assumption.
  - exfalso. apply in_rev in HI. pose proof (find_none _ _ E _ HI) as N. cbn in N. rewrite (proj2 (var_eqb_eq k k) eq_refl) in N. discriminate.
Qed.
Lemma replace_other : forall m v, ~ In v (map fst m) -> replace_var m v = v.
Proof.
  intros m v H. unfold replace_var. destruct (find (fun kv => var_eqb (fst kv) v) (rev m)) as [[k' v']|] eqn:E; [|reflexivity].
  apply find_some in E. destruct E as [E1 E2]. cbn in E2. apply var_eqb_eq in E2. subst k'. apply in_rev in E1.
  exfalso. apply H. apply in_map_iff. exists (v, v'). auto.
Qed.

(** ** Soundness *)
Section Sound.
Variables (W : Z) (bs : list (bcomp P * list entry)) (start : Z) (cmds : list (cmd P)) (L : lenv P) (T : table).
Hypothesis WF : wf_batches W bs.
Let rs := fst (finalize_all W bs start).
Let m := all_map rs.

(** The batch variables read as the cells they were replaced by. *)
Definition resolved : table := fun ty c r =>
  if ctype_eqb ty CPub && (c =? bpriv_index) then vval T (replace_var m (mkVar bpriv_index r false CPub)) else T ty c r.

Lemma nodup_m : NoDup (map fst m).
Proof. unfold m, rs. rewrite map_keys by apply WF. apply WF. Qed.
Lemma keys_bvar : forall v, In v (map fst m) -> bvar v.
Proof.
  intros v H. unfold m, rs in H. rewrite map_keys in H by apply WF. apply in_flat_map in H. destruct H as [[B es] [H1 H2]].
  apply in_flat_map in H2. destruct H2 as [e [H2 H3]]. destruct WF as [WE _]. destruct (WE B es H1) as [_ HE]. apply (HE e H2). exact H3.
Qed.
Lemma resolved_vval : forall v, vrel v = false -> vval resolved v = vval T (replace_var m v).
Proof.
  intros v HR. unfold vval at 1, resolved. destruct (ctype_eqb (vty v) CPub && (vidx v =? bpriv_index)) eqn:E.
  - apply andb_true_iff in E. rewrite ctype_eqb_eq, Z.eqb_eq in E. destruct E as [E1 E2]. destruct v as [a b c d]. cbn in *. subst. reflexivity.
  - rewrite replace_other; [reflexivity|]. intros H. apply keys_bvar in H. destruct H as [i ->]. cbn in E. discriminate.
Qed.
Lemma replace_wcell : forall c r, replace_var m (wcell c r) = wcell c r.
Proof. intros c r. apply replace_other. intros H. apply keys_bvar in H. destruct H as [i H]. discriminate. Qed.

Lemma instance_in : forall B es e n, In (B, es) bs -> nth_error es n = Some e ->
  exists st p, In (B, finalize_batch W B es st) rs /\ nth_error (fr_placed (finalize_batch W B es st)) n = Some p /\
    p_in p = e_in e /\ p_res p = e_res e.
Proof.
  intros B es e n HB HE. destruct WF as [WE _]. destruct (finalize_all_In W bs start ltac:(intros; eapply WE; eassumption)) as [_ FI].
  destruct (FI B es HB) as [st [_ [_ IN]]]. destruct (WE B es HB) as [HW _].
  pose proof (finalize_spec W B es st _ HW eq_refl) as FS. cbv zeta in FS. destruct FS as [_ [_ [LE [N _]]]].
  destruct (nth_error (fr_placed (finalize_batch W B es st)) n) as [p|] eqn:NP.
  - destruct (N n p NP) as [e' [E1 [E2 E3]]]. rewrite HE in E1. injection E1 as <-. exists st, p. auto.
  - apply nth_error_None in NP. assert (n < length es)%nat by (apply nth_error_Some; congruence). lia.
Qed.

Hypothesis SAT : sat L T (final_circuit W bs start cmds).

Lemma entry_sound : forall B es e (R : list F -> list F -> Prop), In (B, es) bs -> In e es ->
  (forall T r, (forall c, In c (b_cs B) -> eval T r c = f0) -> R (map (fun c => T CWit c r) (b_in B)) (map (fun c => T CWit c r) (b_out B))) ->
  R (map (vval resolved) (e_in e)) (map (vval resolved) (e_res e)).
Proof.
  intros B es e R HB HE HR. apply In_nth_error in HE. destruct HE as [n HN].
  destruct (instance_in B es e n HB HN) as [st [p [IN [NP [PI PR]]]]]. pose proof NP as IP. apply nth_error_In in IP.
  destruct WF as [WE _]. destruct (WE B es HB) as [HW HEW]. destruct (HEW e (nth_error_In _ _ HN)) as [W1 [W2 [W3 W4]]].
  pose proof (finalize_spec W B es st _ HW eq_refl) as FS. cbv zeta in FS. set (r := finalize_batch W B es st) in *.
  destruct FS as [K1 [KW [_ [_ [POS [_ [_ [_ [MP [_ CM]]]]]]]]]].
  destruct CM as [rows [CM [_ ROWS]]]; [intros ->; destruct n; discriminate|].
  assert (IC : forall c, In c (fr_cmds r) -> holds L T (replace_cmd m c)).
  { intros c Hc. apply SAT. unfold final_circuit. apply in_map_iff. exists c. split; [reflexivity|]. apply in_or_app. right.
    apply in_flat_map. exists (B, r). auto. }
  rewrite CM in IC. pose proof (IC _ (or_introl eq_refl)) as GATE. cbn [replace_cmd holds] in GATE.
  assert (NI : nth_error (instances r) n = Some p) by (unfold instances; rewrite nth_error_app1; [exact NP|apply nth_error_Some; congruence]).
  destruct (POS n p NI) as [_ PO].
  assert (G : forall c, In c (b_cs B) -> eval (tshift (p_off p) T) (p_row p) c = f0).
  { intros c Hc. rewrite <- eval_shift. apply GATE; [apply ROWS; exact IP|]. apply scaled_In; [exact K1|].
    exists (Z.of_nat n mod (W / b_w B)), c. split; [apply Z.mod_pos_bound; lia|]. split; [exact Hc|]. rewrite PO. reflexivity. }
  specialize (HR _ _ G). unfold tshift in HR.
  replace (map (vval resolved) (e_in e)) with (map (fun c => T CWit (c + p_off p) (p_row p)) (b_in B)).
  - replace (map (vval resolved) (e_res e)) with (map (fun c => T CWit (c + p_off p) (p_row p)) (b_out B)); [exact HR|].
    rewrite <- PR in W2, W3 |- *.
    assert (KV : forall k v, In (k, v) (combine (p_res p) (result_cells B p)) -> vval resolved k = vval T v).
    { intros k v H. rewrite resolved_vval.
      - f_equal. apply replace_key; [exact nodup_m|]. unfold m, all_map. apply in_flat_map. exists (B, r). split; [exact IN|].
        cbn [snd]. rewrite MP. apply in_flat_map. exists p. auto.
      - apply in_combine_l in H. apply W3 in H. destruct H as [i ->]. reflexivity. }
    unfold result_cells in KV. revert W2 KV. generalize (p_res p) (b_out B). intros l l'. revert l. induction l' as [|c l' IH]; intros [|k l] HL KV; cbn in HL; try discriminate; [reflexivity|].
    cbn [map]. f_equal.
    + rewrite (KV k _ (or_introl eq_refl)). unfold vval. cbn [wcell vty vidx vrot]. f_equal. lia.
    + apply IH; [lia|]. intros k' v' H. apply KV. right. exact H.
  - rewrite <- PI in W1, W4 |- *.
    assert (CP : forall v c, In (v, c) (combine (p_in p) (b_in B)) -> vval resolved v = T CWit (p_off p + c) (p_row p)).
    { intros v c H. assert (HC : holds L T (replace_cmd m (Copy v (wcell (p_off p + c) (p_row p))))).
      { apply IC. right. apply in_flat_map. exists p. split; [exact IP|]. unfold instance_copies. apply in_map_iff. exists (v, c). auto. }
      cbn [replace_cmd holds] in HC. rewrite replace_wcell in HC. rewrite resolved_vval, HC; [reflexivity|]. apply W4. apply in_combine_l in H. exact H. }
    revert W1 CP. generalize (p_in p) (b_in B). intros l l'. revert l. induction l' as [|c l' IH]; intros [|k l] HL CP; cbn in HL; try discriminate; [reflexivity|].
    cbn [map]. f_equal.
    + rewrite (CP k c (or_introl eq_refl)). f_equal. lia.
    + apply IH; [lia|]. intros k' v' H. apply CP. right. exact H.
Qed.

(** Gates and lookups of the rest of the circuit do not read the store. *)
Definition no_store_reads : Prop :=
  (forall cs rows e v, In (Gate cs rows) cmds -> In e cs -> In v (evars e) -> vidx v <> bpriv_index) /\
  (forall ls rows t es e v, In (LookupGate ls rows) cmds -> In (t, es) ls -> In e es -> In v (evars e) -> vidx v <> bpriv_index) /\
  (forall a b, In (Copy a b) cmds -> vrel a = false /\ vrel b = false).

Lemma rest_sound : no_store_reads -> sat L resolved cmds.
Proof.
  intros [HG [HL HC]] c Hc.
  assert (H : holds L T (replace_cmd m c)).
  { apply SAT. unfold final_circuit. apply in_map_iff. exists c. split; [reflexivity|]. apply in_or_app. left. exact Hc. }
  assert (EV : forall r e, (forall v, In v (evars e) -> vidx v <> bpriv_index) -> eval resolved r e = eval T r e).
  { intros r e HV. apply eval_vars_ext. intros v Hv. unfold gval, resolved. destruct (Z.eqb_spec (vidx v) bpriv_index) as [E|E]; [exfalso; apply (HV v Hv E)|].
    rewrite andb_false_r. reflexivity. }
  destruct c as [cs rows|ls rows|a b|col row v]; cbn [replace_cmd holds] in *.
  - intros r Hr e He. rewrite EV; [apply H; assumption|]. intros v Hv. eapply HG; eassumption.
  - intros r Hr t es He. replace (map (eval resolved r) es) with (map (eval T r) es); [apply H; assumption|].
    apply map_ext_in. intros e Hee. symmetry. apply EV. intros v Hv. eapply HL; eassumption.
  - destruct (HC a b Hc) as [H1 H2]. rewrite !resolved_vval by assumption. exact H.
  - unfold resolved. cbn. exact H.
Qed.
End Sound.

(** ** Completeness *)
(** What is expected of the component's own assignment. *)
Definition honest (B : bcomp P) (ok : list F -> Prop) : Prop :=
  (forall xs, ok xs -> length xs = length (b_in B) -> length (b_row B xs) = Z.to_nat (b_w B) /\
     (forall T r, (forall c, 0 <= c < b_w B -> T CWit c r = nth (Z.to_nat c) (b_row B xs) f0) -> forall e, In e (b_cs B) -> eval T r e = f0) /\
     (map (fun c => nth (Z.to_nat c) (b_row B xs) f0) (b_in B) = xs)) /\
  (forall c, In c (b_in B) \/ In c (b_out B) -> 0 <= c < b_w B).

Lemma write_row_spec : forall B T p xs, xs = map (vval T) (p_in p) -> length (b_row B xs) = Z.to_nat (b_w B) ->
  (forall c, 0 <= c < b_w B -> write_row B T p CWit (p_off p + c) (p_row p) = nth (Z.to_nat c) (b_row B xs) f0) /\
  (forall ty c r, ~ (ty = CWit /\ r = p_row p /\ p_off p <= c < p_off p + b_w B) -> write_row B T p ty c r = T ty c r).
Proof.
  intros B T p xs -> HL. unfold write_row. set (row := b_row B (map (vval T) (p_in p))) in *.
  assert (G : forall (l : list F) (s : nat) T0,
    let T1 := fold_left (fun T cx => wset T (p_off p + fst cx) (p_row p) (snd cx)) (combine (map Z.of_nat (seq s (length l))) l) T0 in
    (forall n, (n < length l)%nat -> T1 CWit (p_off p + Z.of_nat (s + n)) (p_row p) = nth n l f0) /\
    (forall ty c r, ~ (ty = CWit /\ r = p_row p /\ p_off p + Z.of_nat s <= c < p_off p + Z.of_nat (s + length l)) -> T1 ty c r = T0 ty c r)).
  { induction l as [|x l IH]; intros s T0; cbn [length seq map combine fold_left fst snd].
    - split; [intros n H; lia|reflexivity].
    - specialize (IH (S s) (wset T0 (p_off p + Z.of_nat s) (p_row p) x)). cbv zeta in IH. destruct IH as [I1 I2]. cbv zeta. split.
      + intros [|n] Hn; cbn [nth].
        * rewrite I2 by (intros [_ [_ HC]]; lia). unfold wset. rewrite Nat.add_0_r, !Z.eqb_refl. reflexivity.
        * replace (s + S n)%nat with (S s + n)%nat by lia. apply I1. lia.
      + intros ty c r H. rewrite I2 by (intros [H1 [H2 H3]]; apply H; repeat split; auto; lia).
        unfold wset. destruct (ctype_eqb ty CWit && ((c =? p_off p + Z.of_nat s) && (r =? p_row p))) eqn:E; [|reflexivity].
        rewrite !andb_true_iff, ctype_eqb_eq, !Z.eqb_eq in E. exfalso. apply H. destruct E as [E1 [E2 E3]]. repeat split; auto; lia. }
  specialize (G row 0%nat T). cbv zeta in G. rewrite <- HL. destruct G as [G1 G2]. split.
  - intros c Hc. specialize (G1 (Z.to_nat c) ltac:(lia)). cbn [Nat.add] in G1. rewrite Z2Nat.id in G1 by lia. exact G1.
  - intros ty c r H. apply G2. intros [H1 [H2 H3]]. apply H. repeat split; auto; lia.
Qed.

Definition inside (W lo hi : Z) (ty : ctype) (c r : Z) : Prop := ty = CWit /\ lo <= r < hi /\ 0 <= c < W.
Definition clear_var (W lo hi : Z) (v : var) : Prop := ~ inside W lo hi (vty v) (vidx v) (vrot v).

(** A sequence of row writes on disjoint rectangles. *)
Lemma writes_spec : forall W lo hi (ops : list (bcomp P * placed)) T0 T,
  (forall ty c r, ~ inside W lo hi ty c r -> T ty c r = T0 ty c r) ->
  (forall B p, In (B, p) ops -> lo <= p_row p < hi /\ 0 <= p_off p /\ p_off p + b_w B <= W /\
     length (b_row B (map (vval T0) (p_in p))) = Z.to_nat (b_w B) /\ (forall v, In v (p_in p) -> clear_var W lo hi v)) ->
  (forall i j B p B' p', (i < j)%nat -> nth_error ops i = Some (B, p) -> nth_error ops j = Some (B', p') ->
     p_row p <> p_row p' \/ p_off p + b_w B <= p_off p' \/ p_off p' + b_w B' <= p_off p) ->
  let T' := fold_left (fun T bp => write_row (fst bp) T (snd bp)) ops T in
  (forall B p, In (B, p) ops -> forall c, 0 <= c < b_w B -> T' CWit (p_off p + c) (p_row p) = nth (Z.to_nat c) (b_row B (map (vval T0) (p_in p))) f0) /\
  (forall ty c r, (forall B p, In (B, p) ops -> ~ (ty = CWit /\ r = p_row p /\ p_off p <= c < p_off p + b_w B)) -> T' ty c r = T ty c r).
Proof.
  intros W lo hi ops. induction ops as [|[B p] ops IH]; intros T0 T HT HO HD; cbv zeta; cbn [fold_left fst snd].
  - split; [intros B p []|reflexivity].
  - destruct (HO B p (or_introl eq_refl)) as [O1 [O2 [O3 [O4 O5]]]].
    assert (XS : map (vval T0) (p_in p) = map (vval T) (p_in p)).
    { apply map_ext_in. intros v Hv. unfold vval. symmetry. apply HT. apply O5. exact Hv. }
    destruct (write_row_spec B T p _ XS O4) as [WR1 WR2].
    specialize (IH T0 (write_row B T p)). cbv zeta in IH. destruct IH as [I1 I2].
    + intros ty c r H. rewrite WR2; [apply HT; exact H|]. intros [-> [-> Hc]]. apply H. split; [reflexivity|]. lia.
    + intros B' p' H'. apply HO. right. exact H'.
    + intros i j B1 p1 B2 p2 Hij H1 H2. apply (HD (S i) (S j)); [lia|exact H1|exact H2].
    + split.
      * intros B' p' [E|H'] c Hc; [|apply I1; assumption]. injection E as <- <-.
        rewrite I2; [apply WR1; exact Hc|]. intros B2 p2 H2 [_ [E1 E2]]. apply In_nth_error in H2. destruct H2 as [j Hj].
        destruct (HD O (S j) B p B2 p2 ltac:(lia) eq_refl Hj) as [D|[D|D]]; [congruence|lia|lia].
      * intros ty c r H. rewrite I2 by (intros B' p' H'; apply H; right; exact H'). apply WR2. apply H. left. reflexivity.
Qed.

Definition ops_of (rs : list (bcomp P * fresult P)) : list (bcomp P * placed) := flat_map (fun br => map (pair (fst br)) (instances (snd br))) rs.
Lemma final_table_ops : forall W (bs : list (bcomp P * list entry)) start T,
  final_table W bs start T = fold_left (fun T bp => write_row (fst bp) T (snd bp)) (ops_of (fst (finalize_all W bs start))) T.
Proof.
  intros W bs start T. unfold final_table, ops_of. generalize (fst (finalize_all W bs start)). intros rs. revert T.
  assert (FM : forall B l T, fold_left (fun T (bp : bcomp P * placed) => write_row (fst bp) T (snd bp)) (map (pair B) l) T = fold_left (write_row B) l T).
  { intros B l. induction l as [|p l IHl]; intros T; cbn; [reflexivity|]. apply IHl. }
  induction rs as [|[B r] rs IH]; intros T; cbn [fold_left flat_map fst snd]; [reflexivity|].
  rewrite (fold_left_app _ (map (pair B) (instances r))), FM. apply IH.
Qed.

(** Geometry of all instances. *)
Lemma ops_geometry : forall W (bs : list (bcomp P * list entry)) start, (forall B es, In (B, es) bs -> 1 <= b_w B <= W) ->
  (forall B p, In (B, p) (ops_of (fst (finalize_all W bs start))) ->
     start <= p_row p < snd (finalize_all W bs start) /\ 0 <= p_off p /\ p_off p + b_w B <= W /\
     exists es e, In (B, es) bs /\ In e es /\ p_in p = e_in e) /\
  (forall i j B p B' p', (i < j)%nat -> nth_error (ops_of (fst (finalize_all W bs start))) i = Some (B, p) ->
     nth_error (ops_of (fst (finalize_all W bs start))) j = Some (B', p') ->
     p_row p <> p_row p' \/ p_off p + b_w B <= p_off p' \/ p_off p' + b_w B' <= p_off p).
Proof.
  intros W bs. induction bs as [|[B es] bs IH]; intros start H; cbn [finalize_all].
  - cbn. split; [intros B p []|intros [|i] j B p B' p' _ E; discriminate].
  - pose proof (H B es (or_introl eq_refl)) as HW.
    pose proof (finalize_spec W B es start _ HW eq_refl) as FS. cbv zeta in FS. set (r := finalize_batch W B es start) in *.
    destruct FS as [K1 [KW [_ [_ [POS [LEN [LE [SRC _]]]]]]]]. set (k := W / b_w B) in *.
    assert (H' : forall B' es', In (B', es') bs -> 1 <= b_w B' <= W) by (intros B' es' X; apply (H B' es'); right; exact X).
    specialize (IH (fr_next r) H'). pose proof (finalize_all_In W bs (fr_next r) H') as [NX _].
    destruct (finalize_all W bs (fr_next r)) as [rs next]. cbn [fst snd] in *. destruct IH as [I1 I2].
    assert (OWN : forall n p, nth_error (instances r) n = Some p -> start <= p_row p < fr_next r /\ 0 <= p_off p /\ p_off p + b_w B <= W).
    { intros n p Hn. destruct (POS n p Hn) as [R1 R2]. assert (NL : (n < length (instances r))%nat) by (apply nth_error_Some; congruence).
      pose proof (Z.mod_pos_bound (Z.of_nat n) k ltac:(lia)). pose proof (Z.div_pos (Z.of_nat n) k ltac:(lia) ltac:(lia)).
      assert (Z.of_nat n / k < fr_next r - start) by (apply Z.div_lt_upper_bound; lia).
      split; [lia|]. rewrite R2. split; [nia|]. nia. }
    unfold ops_of in *. cbn [flat_map fst snd].
    assert (MAPN : forall i B1 p1, nth_error (map (pair B) (instances r)) i = Some (B1, p1) -> B1 = B /\ nth_error (instances r) i = Some p1).
    { intros i B1 p1 E. rewrite nth_error_map in E. destruct (nth_error (instances r) i) as [q|]; [|discriminate]. injection E as <- <-. auto. }
    split.
    + intros B1 p1 H1. apply in_app_or in H1. destruct H1 as [H1|H1].
      * apply In_nth_error in H1. destruct H1 as [n Hn]. apply MAPN in Hn. destruct Hn as [-> Hn].
        destruct (OWN n p1 Hn) as [Q1 [Q2 Q3]]. split; [lia|]. split; [exact Q2|]. split; [exact Q3|].
        destruct (SRC p1 (nth_error_In _ _ Hn)) as [e [E1 E2]]. exists es, e. split; [left; reflexivity|auto].
      * destruct (I1 B1 p1 H1) as [Q1 [Q2 [Q3 [es1 [e1 [Q4 Q5]]]]]]. split; [lia|]. split; [exact Q2|]. split; [exact Q3|].
        exists es1, e1. split; [right; exact Q4|exact Q5].
    + intros i j B1 p1 B2 p2 Hij E1 E2.
      set (own := map (pair B) (instances r)) in *.
      destruct (Nat.lt_ge_cases j (length own)) as [L2|L2].
      * rewrite nth_error_app1 in E1 by lia. rewrite nth_error_app1 in E2 by lia.
        apply MAPN in E1. apply MAPN in E2. destruct E1 as [-> E1]. destruct E2 as [-> E2].
        destruct (POS i p1 E1) as [R1 R2]. destruct (POS j p2 E2) as [S1 S2].
        destruct (Z.eq_dec (p_row p1) (p_row p2)) as [ER|ER]; [right|left; exact ER].
        assert (QE : Z.of_nat i / k = Z.of_nat j / k) by lia.
        pose proof (Z.div_mod (Z.of_nat i) k ltac:(lia)) as D1. pose proof (Z.div_mod (Z.of_nat j) k ltac:(lia)) as D2. rewrite QE in D1.
        left. rewrite R2, S2. assert (Z.of_nat i mod k + 1 <= Z.of_nat j mod k) by lia. nia.
      * rewrite nth_error_app2 in E2 by exact L2. destruct (Nat.lt_ge_cases i (length own)) as [L1|L1].
        -- rewrite nth_error_app1 in E1 by exact L1. apply MAPN in E1. destruct E1 as [-> E1].
           destruct (OWN i p1 E1) as [Q1 _]. apply nth_error_In, I1 in E2. left. lia.
        -- rewrite nth_error_app2 in E1 by exact L1. apply (I2 (i - length own)%nat (j - length own)%nat); [lia|exact E1|exact E2].
Qed.

Section Complete.
Variables (W : Z) (bs : list (bcomp P * list entry)) (start : Z) (cmds : list (cmd P)) (L : lenv P) (T : table) (ok : bcomp P -> list F -> Prop).
Hypothesis WF : wf_batches W bs.
Let rs := fst (finalize_all W bs start).
Let next := snd (finalize_all W bs start).
Let m := all_map rs.
Hypothesis HON : forall B es, In (B, es) bs -> honest B (ok B).
(** Input variables are not in the rows used for the batches, and the stored
    values are the component's results. *)
Hypothesis ENT : forall B es e, In (B, es) bs -> In e es ->
  (forall v, In v (e_in e) -> clear_var W start next v) /\ ok B (map (vval T) (e_in e)) /\
  map (vval T) (e_res e) = b_outs B (map (vval T) (e_in e)).

Let T' := final_table W bs start T.
Lemma wfw : forall B es, In (B, es) bs -> 1 <= b_w B <= W.
Proof. intros B es H. destruct WF as [WE _]. apply (WE B es H). Qed.

Lemma cells_complete :
  (forall B p, In (B, p) (ops_of rs) -> forall c, 0 <= c < b_w B -> T' CWit (p_off p + c) (p_row p) = nth (Z.to_nat c) (b_row B (map (vval T) (p_in p))) f0) /\
  (forall ty c r, ~ inside W start next ty c r -> T' ty c r = T ty c r).
Proof.
  destruct (ops_geometry W bs start wfw) as [G1 G2]. fold rs next in G1, G2. unfold T'. rewrite final_table_ops. fold rs.
  destruct (writes_spec W start next (ops_of rs) T T) as [A B].
  - reflexivity.
  - intros B p H. destruct (G1 B p H) as [Q1 [Q2 [Q3 [es [e [Q4 [Q5 Q6]]]]]]]. split; [exact Q1|]. split; [exact Q2|]. split; [exact Q3|].
    destruct (ENT B es e Q4 Q5) as [E1 [E2 _]]. rewrite Q6. split; [|exact E1].
    destruct (HON B es Q4) as [HB _]. apply (HB _ E2). rewrite map_length. destruct WF as [WE _]. apply (WE B es Q4). exact Q5.
  - exact G2.
  - split; [exact A|]. intros ty c r H. apply B. intros B0 p0 H0 [-> [-> Hc]]. apply H. destruct (G1 B0 p0 H0) as [Q1 [Q2 [Q3 _]]]. split; [reflexivity|lia].
Qed.

Lemma value_complete : forall v, vrel v = false -> clear_var W start next v -> vval T' (replace_var m v) = vval T v.
Proof.
  intros v HR HC. destruct cells_complete as [CC FR]. pose proof (nodup_m W bs start WF) as ND. fold rs m in ND.
  destruct (in_dec (fun a b => match bool_dec (var_eqb a b) true with left H => left (proj1 (var_eqb_eq a b) H) | right H => right (fun E => H (proj2 (var_eqb_eq a b) E)) end) v (map fst m)) as [K|K].
  - apply in_map_iff in K. destruct K as [[k cell] [E K]]. cbn in E. subst k. rewrite (replace_key m v cell ND K).
    unfold m, all_map in K. apply in_flat_map in K. destruct K as [[B r] [KR KM]]. cbn [snd] in KM.
    destruct (finalize_all_inv W bs start B r KR) as [es [st [HB ->]]].
    pose proof (finalize_spec W B es st _ (wfw B es HB) eq_refl) as FS. cbv zeta in FS. set (r := finalize_batch W B es st) in *.
    destruct FS as [_ [_ [_ [NE [_ [_ [_ [_ [MP _]]]]]]]]]. rewrite MP in KM. apply in_flat_map in KM. destruct KM as [p [Hp KM]].
    apply in_combine_nth in KM. destruct KM as [i [K1 K2]]. unfold result_cells in K2. rewrite nth_error_map in K2.
    destruct (nth_error (b_out B) i) as [c|] eqn:EO; [|discriminate]. injection K2 as <-.
    pose proof Hp as Hp'. apply In_nth_error in Hp'. destruct Hp' as [n Hn]. destruct (NE n p Hn) as [e [E1 [E2 E3]]].
    destruct (ENT B es e HB (nth_error_In _ _ E1)) as [_ [_ EQ]]. destruct (HON B es HB) as [_ RNG].
    unfold vval at 1. cbn [wcell vty vidx vrot]. rewrite (CC B p).
    + rewrite E2. apply (f_equal (fun l => nth_error l i)) in EQ. unfold b_outs in EQ. rewrite !nth_error_map, <- E3, K1, EO in EQ. cbn in EQ. congruence.
    + unfold ops_of. apply in_flat_map. exists (B, r). split; [exact KR|]. cbn [fst snd]. apply in_map. unfold instances. apply in_or_app. left. exact Hp.
    + apply RNG. right. eapply nth_error_In. exact EO.
  - rewrite replace_other by exact K. unfold vval. apply FR. exact HC.
Qed.

(** The rest of the circuit does not look at the rows used for the batches. *)
Definition rest_clear : Prop :=
  (forall cs rows e v r, In (Gate cs rows) cmds -> In r rows -> In e cs -> In v (evars e) ->
     ~ inside W start next (vty v) (vidx v) (if vrel v then r + vrot v else vrot v)) /\
  (forall ls rows t es e v r, In (LookupGate ls rows) cmds -> In r rows -> In (t, es) ls -> In e es -> In v (evars e) ->
     ~ inside W start next (vty v) (vidx v) (if vrel v then r + vrot v else vrot v)) /\
  (forall a b x, In (Copy a b) cmds -> x = a \/ x = b -> vrel x = false /\ clear_var W start next x).

Lemma complete_l : rest_clear -> sat L T cmds -> sat L T' (final_circuit W bs start cmds).
Proof.
  intros [RG [RL RC]] SAT c' Hc'. unfold final_circuit in Hc'. apply in_map_iff in Hc'. destruct Hc' as [c [<- Hc]]. fold rs in Hc |- *. fold m.
  destruct cells_complete as [CC FR].
  assert (EV : forall r e, (forall v, In v (evars e) -> ~ inside W start next (vty v) (vidx v) (if vrel v then r + vrot v else vrot v)) -> eval T' r e = eval T r e).
  { intros r e HV. apply eval_vars_ext. intros v Hv. unfold gval. apply FR. apply HV. exact Hv. }
  apply in_app_or in Hc. destruct Hc as [Hc|Hc].
  - pose proof (SAT c Hc) as H. destruct c as [cs rows|ls rows|a b|col row v]; cbn [replace_cmd holds] in *.
    + intros r Hr e He. rewrite EV; [apply H; assumption|]. intros v Hv. eapply RG; eassumption.
    + intros r Hr t es He. replace (map (eval T' r) es) with (map (eval T r) es); [apply H; assumption|].
      apply map_ext_in. intros e Hee. symmetry. apply EV. intros v Hv. eapply RL; eassumption.
    + destruct (RC a b a Hc (or_introl eq_refl)) as [A1 A2]. destruct (RC a b b Hc (or_intror eq_refl)) as [B1 B2].
      rewrite !value_complete by assumption. exact H.
    + rewrite FR; [exact H|]. intros [X _]. discriminate.
  - apply in_flat_map in Hc. destruct Hc as [[B r] [KR Hc]]. cbn [snd] in Hc.
    destruct (finalize_all_inv W bs start B r KR) as [es [st [HB ->]]]. pose proof (wfw B es HB) as HW.
    pose proof (finalize_spec W B es st _ HW eq_refl) as FS. cbv zeta in FS. set (r := finalize_batch W B es st) in *. set (k := W / b_w B) in *.
    destruct FS as [K1 [KW [_ [NE [POS [LEN [LE [SRC [_ [CM0 CM]]]]]]]]]].
    assert (ES : es <> []) by (intros ->; rewrite (CM0 eq_refl) in Hc; destruct Hc). destruct (CM ES) as [rows [CE [CR _]]]. rewrite CE in Hc. clear CM CM0.
    destruct (HON B es HB) as [HH RNG].
    assert (OP : forall p, In p (instances r) -> In (B, p) (ops_of rs)).
    { intros p Hp. unfold ops_of. apply in_flat_map. exists (B, r). split; [exact KR|]. cbn [fst snd]. apply in_map. exact Hp. }
    assert (IN : forall p, In p (instances r) -> ok B (map (vval T) (p_in p)) /\ length (map (vval T) (p_in p)) = length (b_in B) /\
      (forall v, In v (p_in p) -> vrel v = false /\ clear_var W start next v)).
    { intros p Hp. destruct (SRC p Hp) as [e [E1 E2]]. destruct (ENT B es e HB E1) as [V1 [V2 _]]. rewrite E2, map_length.
      destruct WF as [WE _]. destruct (WE B es HB) as [_ HE]. destruct (HE e E1) as [L1 [_ [_ L2]]]. split; [exact V2|]. split; [exact L1|]. auto. }
    destruct Hc as [<-|Hc]; cbn [replace_cmd holds].
    + intros x Hx e' He'. apply scaled_In in He'; [|exact K1]. destruct He' as [t [e [Ht [He ->]]]]. fold k in Ht. rewrite eval_shift.
      specialize (CR x Hx).
      assert (NN : (Z.to_nat ((x - st) * k + t) < length (instances r))%nat) by nia.
      destruct (nth_error (instances r) (Z.to_nat ((x - st) * k + t))) as [p|] eqn:NP; [|apply nth_error_None in NP; lia].
      destruct (POS _ p NP) as [R1 R2]. rewrite Z2Nat.id in R1, R2 by nia.
      rewrite (Z.add_comm ((x - st) * k) t), Z.div_add, Z.div_small in R1 by lia. rewrite (Z.add_comm ((x - st) * k) t), Z_mod_plus_full, Z.mod_small in R2 by lia.
      apply nth_error_In in NP. destruct (IN p NP) as [O1 [O2 _]]. destruct (HH _ O1 O2) as [_ [HG _]]. apply HG; [|exact He].
      intros c Hc. unfold tshift. rewrite <- R2. replace x with (p_row p) by lia. rewrite Z.add_comm. apply CC; [apply OP; exact NP|exact Hc].
    + apply in_flat_map in Hc. destruct Hc as [p [Hp Hc]]. unfold instance_copies in Hc. apply in_map_iff in Hc. destruct Hc as [[v col] [<- Hvc]].
      assert (NP : In p (instances r)) by (unfold instances; apply in_or_app; left; exact Hp).
      destruct (IN p NP) as [O1 [O2 O3]]. destruct (HH _ O1 O2) as [_ [_ HI]].
      cbn [replace_cmd holds fst snd]. pose proof (replace_wcell W bs start WF) as RW. fold rs m in RW. rewrite RW.
      apply in_combine_nth in Hvc. destruct Hvc as [n [N1 N2]]. destruct (O3 v (nth_error_In _ _ N1)) as [V1 V2].
      rewrite value_complete by assumption. unfold vval at 2. cbn [wcell vty vidx vrot].
      rewrite (CC B p (OP p NP)) by (apply RNG; left; eapply nth_error_In; exact N2).
      apply (f_equal (fun l => nth_error l n)) in HI. rewrite !nth_error_map, N1, N2 in HI. cbn in HI. congruence.
Qed.
End Complete.
End Proofs.
