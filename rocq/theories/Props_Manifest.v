(** Manifests: the calculus of witness amounts (include/nil/blueprint/manifest.hpp). *)
From Coq Require Import ZArith List Lia Bool Sorted.
From Verif Require Import Base ManifestModel ManifestProofs.
Import ListNotations.
Open Scope Z_scope.

(** ** Specification: the amounts a parameter stands for *)
Inductive accepts : mparam -> Z -> Prop :=
| acc_value : forall v, accepts (MVal v) v
| acc_range : forall s f st k, 0 <= k -> s + k * st < f -> accepts (MRange s f st) (s + k * st)
| acc_set : forall l v, In v l -> accepts (MSet l) v.

(** Parameters the constructors are meant for: non-negative amounts, positive
    steps; a [std::set] is ascending. *)
Definition well_formed (p : mparam) : Prop :=
  match p with
  | MUnsat => True
  | MVal v => 0 <= v
  | MRange s _ st => 0 <= s /\ 0 < st
  | MSet l => StronglySorted Z.lt l /\ forall x, In x l -> 0 <= x
  end.
(** A range that starts closer to a multiple of its step than it is long. *)
Definition long_enough (p : mparam) : Prop :=
  match p with MRange s f st => s < f -> s mod st <= f - s | _ => True end.
(** Ranges with one step: same residue. *)
Definition aligned (p q : mparam) : Prop :=
  match p, q with
  | MRange s _ st, MRange s' _ st' => st = st' -> s mod st = s' mod st'
  | _, _ => True
  end.

Lemma check_exact : forall p v, well_formed p -> (mcheck p true v = true <-> accepts p v).
Proof.
  intros p v Hp. destruct p as [|a|s f st|l].
  - split; [discriminate|intros H; inversion H].
  - cbn. rewrite Z.eqb_eq. split; [intros <-; constructor|intros H; inversion H; reflexivity].
  - cbn [well_formed] in Hp. rewrite check_range by tauto. unfold in_range, divides. split.
    + intros [A [B [k K]]]. replace v with (s + k * st) by lia. constructor; nia.
    + intros H. inversion_clear H. split; [nia|]. split; [assumption|]. exists k. lia.
  - cbn [mcheck]. rewrite smem_In. split; [intros H; constructor; exact H|intros H; inversion H; assumption].
Qed.

(** Bezout data as boost::integer::extended_euclidean returns it. *)
Definition extended_gcd (egcd : Z -> Z -> Z * Z * Z) : Prop :=
  forall a b, 0 < a -> 0 < b ->
    let '(g, m, n) := egcd a b in 0 < g /\ (exists k, a = k * g) /\ (exists k, b = k * g) /\ a * m + b * n = g.

Lemma intersect_well_formed : forall egcd p q, extended_gcd egcd -> well_formed p -> well_formed q ->
  well_formed (mintersect egcd p q).
Proof.
  intros egcd p q HB Hp Hq.
  assert (SF : forall (h : Z -> bool) l, (forall x, In x l -> 0 <= x) -> well_formed (MSet (sof (filter h l)))).
  { intros h l H. split; [apply sof_asc|]. intros x Hx. apply in_sof, filter_In in Hx. apply H. tauto. }
  assert (SU : forall l, well_formed (MSet l) -> well_formed (match l with [] => MUnsat | _ => MSet l end)).
  { intros [|x l] H; [exact I|exact H]. }
  assert (BW : forall a b c, 0 <= a -> 0 < c -> well_formed (build a b c)).
  { intros a b c Ha Hc. unfold build. destruct (a >=? b); [exact I|]. destruct (a =? b - 1); cbn; auto. }
  destruct p as [|a|s f st|l]; cbn [mintersect]; [exact I|destruct (mcheck q true a); [exact Hp|exact I]| |].
  - destruct q as [|b|s' f' st'|l']; [exact I|destruct (mcheck _ true b); [exact Hq|exact I]| |].
    + unfold range_intersect. destruct (_ || _); [exact I|]. cbn [well_formed] in Hp, Hq.
      destruct (st =? st'); [apply BW; lia|].
      specialize (HB st st' ltac:(tauto) ltac:(tauto)). destruct (egcd st st') as [[g m] n].
      destruct HB as [Hg [[a Ha] [[b Hb] _]]]. destruct (negb _); [exact I|].
      assert (E : st' / g = b) by (rewrite Hb; apply Z.div_mul; lia). rewrite E.
      assert (P : 0 < st * b) by nia. apply BW; [|exact P]. rewrite rem_canon by exact P.
      match goal with |- context [?y mod (st * b)] => pose proof (Z.mod_pos_bound y (st * b) P) end. lia.
    + apply SF. apply Hq.
  - destruct q as [|b|s' f' st'|l']; [exact I|destruct (mcheck _ true b); [exact Hq|exact I]| |].
    + apply SU, SF. apply Hp.
    + apply SU, SF. apply Hq.
Qed.

(** ** Intersection *)
Theorem manifest_intersect_exact : forall egcd p q,
  extended_gcd egcd -> well_formed p -> well_formed q -> long_enough p -> long_enough q -> aligned p q ->
  well_formed (mintersect egcd p q) /\
  forall v, accepts (mintersect egcd p q) v <-> accepts p v /\ accepts q v.
Proof.
  intros egcd p q HB Hp Hq L1 L2 AL. pose proof (intersect_well_formed egcd p q HB Hp Hq) as W. split; [exact W|].
  intros v. rewrite <- !check_exact by assumption. rewrite <- andb_true_iff. rewrite (mintersect_ok egcd p q v); [tauto|exact HB|exact Hp|exact Hq|].
  destruct p, q; try exact I. split; [exact L1|]. split; [exact L2|exact AL].
Qed.
Print Assumptions manifest_intersect_exact.

(** ** Satisfiability and the largest amount *)
Theorem manifest_satisfiable_exact : forall p, well_formed p -> long_enough p ->
  (msat p = true <-> exists v, accepts p v).
Proof.
  intros p Hp HL. rewrite (msat_ok p Hp).
  - split; intros [v H]; exists v; apply check_exact; assumption.
  - destruct p; try exact I. exact HL.
Qed.
Print Assumptions manifest_satisfiable_exact.

Theorem manifest_max_exact : forall p, well_formed p -> (exists v, accepts p v) ->
  match p with MRange s _ st => s mod st = 0 | _ => True end ->
  exists m, mmax p = Some m /\ accepts p m /\ forall v, accepts p v -> v <= m.
Proof.
  intros p Hp [v0 H0] HM. destruct (mmax_ok p Hp) as [m [A [B C]]].
  - exists v0. apply check_exact; assumption.
  - exact HM.
  - exists m. split; [exact A|]. split; [apply check_exact; assumption|]. intros v H. apply C. apply check_exact; assumption.
Qed.
Print Assumptions manifest_max_exact.

(** ** Subtraction *)
Lemma subtract_well_formed : forall p vs, well_formed p ->
  match p with MRange s f st => f mod st = 0 \/ s mod st <> 0 | _ => True end ->
  well_formed (msubtract p vs).
Proof.
  intros p vs Hp Hr. destruct p as [|a|s f st|l]; cbn [msubtract].
  - exact I.
  - destruct (smem a vs); [exact I|exact Hp].
  - cbn [well_formed] in Hp. destruct Hp as [P1 P2]. unfold range_subtract.
    set (fs := sof (filter (mcheck (MRange s f st) true) vs)).
    assert (FS : forall x, In x fs -> in_range s f st x).
    { intros x H. unfold fs in H. apply (proj1 (in_sof _ _)) in H. apply filter_In in H. apply check_range; tauto. }
    destruct fs as [|x0 fs0]; [split; assumption|]. set (l := x0 :: fs0) in *.
    destruct (contig l s st) as [cur all] eqn:EC. destruct all.
    + destruct (contig_up l s st cur P2 EC) as [A _]. destruct (cur <? f); [split; [nia|exact P2]|exact I].
    + destruct (contig (rev l) (f - f mod st) (- st)) as [cur2 [|]].
      { destruct (cur2 >? s); [split; assumption|]. destruct (cur2 =? s); [exact P1|exact I]. }
      assert (R : forall x, In x (sof (filter (fun v => negb (smem v l)) (range_values s f st))) -> 0 <= x).
      { intros x H. apply (proj1 (in_sof _ _)) in H. apply filter_In in H. destruct H as [H _].
        apply in_range_values in H; [|exact P2]. destruct H as [H _]. lia. }
      pose proof (sof_asc (filter (fun v => negb (smem v l)) (range_values s f st))) as AS.
      destruct (sof (filter (fun v => negb (smem v l)) (range_values s f st))) as [|x [|y r]]; [exact I| |split; [exact AS|exact R]].
      apply R. left. reflexivity.
  - destruct Hp as [AS P]. assert (G : well_formed (MSet (filter (fun v => negb (smem v vs)) l))).
    { split.
      - clear P. induction AS as [|x r AS IH FA]; cbn [filter]; [constructor|]. destruct (negb (smem x vs)); [|exact IH].
        constructor; [exact IH|]. rewrite Forall_forall in *. intros y Hy. apply filter_In in Hy. apply FA. tauto.
      - intros x H. apply filter_In in H. apply P. tauto. }
    destruct (filter _ l); [exact I|exact G].
Qed.

Theorem manifest_subtract_exact : forall p vs, well_formed p ->
  match p with MRange s f st => f mod st = 0 \/ s mod st <> 0 | _ => True end ->
  forall v, accepts (msubtract p vs) v <-> accepts p v /\ ~ In v vs.
Proof.
  intros p vs Hp HR v. rewrite <- !check_exact by (try apply subtract_well_formed; assumption).
  rewrite (msubtract_ok p vs v Hp HR), andb_true_iff, negb_true_iff, <- smem_In.
  destruct (smem v vs); intuition congruence.
Qed.
Print Assumptions manifest_subtract_exact.

(** ** Merging: the merged component fits where both parts fit *)
(** Cases in which the merge is meant to be used. *)
Definition mergeable (p q : mparam) : Prop :=
  match p, q with
  | MVal v, MRange s f st | MRange s f st, MVal v => s <= v \/ v + (- v) mod st < f
  | MSet l, MRange s _ _ | MRange s _ _, MSet l => exists x, In x l /\ s <= x
  | _, _ => True
  end.

Lemma round_up_spec : forall v st, 0 < st -> round_up v st = v + (- v) mod st.
Proof.
  intros v st H. unfold round_up. f_equal.
  pose proof (Z.div_mod v st ltac:(lia)). replace (st - v mod st) with (- v + (1 + v / st) * st) by lia.
  apply Z_mod_plus_full.
Qed.

Lemma merge_well_formed : forall p q r, well_formed p -> well_formed q -> mmerge p q = Some r -> well_formed r.
Proof.
  assert (SG : forall l, (forall x, In x l -> 0 <= x) -> well_formed (MSet (sof l))).
  { intros l H. split; [apply sof_asc|]. intros x Hx. apply (proj1 (in_sof _ _)) in Hx. auto. }
  assert (VR : forall v s f st, 0 <= v -> 0 <= s -> 0 < st -> well_formed (merge_val_range v s f st)).
  { intros v s f st A B C. unfold merge_val_range. destruct (_ <? f); [split; [lia|exact C]|exact A]. }
  assert (VS : forall v l, 0 <= v -> well_formed (MSet l) -> well_formed (merge_val_set v l)).
  { intros v l A [B C]. unfold merge_val_set. pose proof (in_slower v l B) as SL. pose proof (slower_asc v l B) as SA.
    destruct (slower v l) as [|x r]; [split; [repeat constructor|intros y [<-|[]]; exact A]|].
    split; [exact SA|]. intros y Hy. apply C. apply SL in Hy. tauto. }
  assert (SR : forall l s f st r, well_formed (MSet l) -> 0 <= s -> 0 < st -> merge_set_range l s f st = Some r -> well_formed r).
  { intros l s f st r [A B] Hs Hst E. unfold merge_set_range in E. destruct (slower s l) as [|x t] eqn:ES; [discriminate|].
    injection E as <-. apply SG. intros y [<-|Hy]; [lia|]. apply in_app_or in Hy. destruct Hy as [Hy|Hy].
    - apply in_slower in Hy; [|exact A]. apply B. tauto.
    - apply in_range_values in Hy; [|exact Hst]. destruct Hy as [Hy _]. pose proof (round_up_ge (Z.max x s) st Hst). lia. }
  intros p q r Hp Hq E.
  destruct p as [|a|s f st|l]; [injection E as <-; exact I| | |];
  (destruct q as [|b|s' f' st'|l']; [injection E as <-; exact I| | |]); cbn [well_formed mmerge] in *.
  - injection E as <-. cbn. lia.
  - injection E as <-. apply VR; tauto.
  - injection E as <-. apply VS; tauto.
  - injection E as <-. apply VR; tauto.
  - destruct (st =? st').
    + destruct (_ <? _); injection E as <-; cbn; lia.
    + destruct (_ >=? _); [injection E as <-; exact Hp|]. destruct (_ >=? _); injection E as <-; [exact Hq|].
      apply SG. intros x [<-|H]; [lia|]. apply filter_In in H. destruct H as [_ H]. apply Z.ltb_lt in H. lia.
  - eapply SR; [| | |exact E]; tauto.
  - injection E as <-. apply VS; tauto.
  - eapply SR; [| | |exact E]; tauto.
  - destruct l as [|x l]; [injection E as <-; exact I|]. destruct l' as [|x' l']; [injection E as <-; exact I|].
    destruct (sof _) as [|y t] eqn:ES; injection E as <-; [exact I|]. rewrite <- ES. apply SG.
    intros z Hz. apply in_app_or in Hz. destruct Hz as [Hz|Hz]; apply in_slower in Hz; try tauto; [apply Hp|apply Hq]; tauto.
Qed.

Theorem manifest_merge_safe : forall p q, well_formed p -> well_formed q ->
  (exists v, accepts p v) -> (exists v, accepts q v) -> mergeable p q ->
  exists r, mmerge p q = Some r /\ (exists v, accepts r v) /\
    forall v, accepts r v -> (exists a, accepts p a /\ a <= v) /\ (exists b, accepts q b /\ b <= v).
Proof.
  intros p q Hp Hq [a Ha] [b Hb] Hm. destruct (mmerge_ok p q Hp Hq) as [r [E [N G]]].
  - exists a. apply check_exact; assumption.
  - exists b. apply check_exact; assumption.
  - destruct p, q; cbn [merge_ok mergeable] in *; try exact Hm; try exact I; cbn [well_formed] in *; rewrite round_up_spec by tauto; exact Hm.
  - pose proof (merge_well_formed p q r Hp Hq E) as W. exists r. split; [exact E|]. split.
    + destruct N as [v N]. exists v. apply check_exact; assumption.
    + intros v H. apply check_exact in H; [|exact W]. destruct (G v H) as [[x [X1 X2]] [y [Y1 Y2]]].
      split; [exists x|exists y]; (split; [apply check_exact; assumption|assumption]).
Qed.
Print Assumptions manifest_merge_safe.

(** A merged manifest asks for a constant column exactly if one of the two did,
    and for nothing impossible unless one of the two did. *)
Theorem manifest_merge_constants : forall a b r w consts strict, m_merge a b = Some r ->
  (m_check r w consts strict = true <->
   mcheck (mw r) strict w = true /\ mc a <> CUnsat /\ mc b <> CUnsat /\
   (mc a = CRequired \/ mc b = CRequired -> consts <> 0)).
Proof.
  intros [wa ca] [wb cb] r w consts strict H. unfold m_merge in H. cbn [mw mc] in *.
  destruct (mmerge wa wb) as [wr|]; [|discriminate]. injection H as <-. unfold m_check. cbn [mw mc].
  rewrite andb_true_iff. destruct ca, cb; cbn [cmerge]; rewrite ?negb_true_iff, ?Z.eqb_neq; intuition congruence.
Qed.
Print Assumptions manifest_merge_constants.

(** ** The whole component manifest against the compiler's *)
(** [max] witness columns, constants available or not. *)
Theorem compiler_intersect_exact : forall egcd m max has w consts,
  extended_gcd egcd -> well_formed (mw m) -> long_enough (mw m) ->
  (m_check (comp_intersect egcd (comp_new max has) m) w consts true = true <->
   m_check m w consts true = true /\ 0 <= w <= max /\ (mc m = CRequired -> has = true)).
Proof.
  intros egcd m max has w consts HB Hp HL. unfold m_check, comp_intersect, comp_new. cbn [mw mc cw chas].
  rewrite (mintersect_ok egcd (mw m) (MRange 0 (max + 1) 1) w HB Hp); [|cbn; lia|].
  2:{ destruct (mw m) as [| |s f st|]; cbn; try exact I. split; [exact HL|]. split.
      - intros H. rewrite Z.mod_1_r. lia.
      - intros ->. rewrite !Z.mod_1_r. reflexivity. }
  assert (R : mcheck (MRange 0 (max + 1) 1) true w = true <-> 0 <= w <= max).
  { rewrite check_range by lia. unfold in_range, divides. split; [lia|]. intros H. split; [lia|]. split; [lia|]. exists w. lia. }
  rewrite !andb_true_iff, R. destruct (mc m); cbn [cintersect].
  - intuition congruence.
  - intuition congruence.
  - destruct has; [intuition congruence|]. split; [intros [_ H]; discriminate|]. intros [_ [_ H]]. specialize (H eq_refl). discriminate.
Qed.
Print Assumptions compiler_intersect_exact.

(** ** A concrete extended Euclid for the examples *)
Fixpoint eg (n : nat) (a b : Z) : Z * Z * Z :=
  match n with
  | O => (a, 1, 0)
  | S n' => if b =? 0 then (a, 1, 0) else let '(g, m, k) := eg n' b (a mod b) in (g, k, m - a / b * k)
  end.
Definition euclid (a b : Z) : Z * Z * Z := eg (S (Z.to_nat b)) a b.
Lemma eg_ok : forall n a b, 0 < a -> 0 <= b -> (Z.to_nat b < n)%nat ->
  let '(g, m, k) := eg n a b in 0 < g /\ (exists i, a = i * g) /\ (exists i, b = i * g) /\ a * m + b * k = g.
Proof.
  induction n as [|n IH]; intros a b Ha Hb Hn; [lia|]. cbn [eg]. destruct (Z.eqb_spec b 0) as [->|N].
  - split; [exact Ha|]. split; [exists 1; lia|]. split; [exists 0; lia|lia].
  - pose proof (Z.mod_pos_bound a b ltac:(lia)). specialize (IH b (a mod b) ltac:(lia) ltac:(lia) ltac:(lia)).
    destruct (eg n b (a mod b)) as [[g m] k]. destruct IH as [A [[i Hi] [[j Hj] E]]].
    pose proof (Z.div_mod a b ltac:(lia)) as Q. split; [exact A|].
    split; [exists (i * (a / b) + j); rewrite Q at 1; rewrite Hj; rewrite Hi at 1; ring|]. split; [exists i; exact Hi|].
    rewrite <- E. rewrite Q at 1. ring.
Qed.
Lemma euclid_ok : extended_gcd euclid.
Proof. intros a b Ha Hb. unfold euclid. apply eg_ok; lia. Qed.

Example intersect_ex : mintersect euclid (MRange 3 30 4) (MRange 1 40 6) = MRange 7 30 12.
Proof. reflexivity. Qed.
Example intersect_hyps_ex : well_formed (MRange 3 30 4) /\ well_formed (MRange 1 40 6) /\
  long_enough (MRange 3 30 4) /\ long_enough (MRange 1 40 6) /\ aligned (MRange 3 30 4) (MRange 1 40 6).
Proof. cbn. repeat split; intros; try lia. Qed.
Example max_ex : mmax (MRange 4 31 4) = Some 28 /\ accepts (MRange 4 31 4) 28.
Proof. split; [reflexivity|]. change 28 with (4 + 6 * 4). constructor; lia. Qed.
Example subtract_ex : msubtract (MRange 3 15 4) [3; 8] = MRange 7 15 4 /\ (15 mod 4 = 0 \/ 3 mod 4 <> 0).
Proof. split; [reflexivity|]. right. discriminate. Qed.
Example merge_ex : mmerge (MSet [3; 9]) (MRange 5 20 6) = Some (MSet [9; 12; 18]) /\ mergeable (MSet [3; 9]) (MRange 5 20 6).
Proof. split; [reflexivity|]. exists 9. cbn. intuition lia. Qed.
Example merge_val_ex : mmerge (MVal 5) (MRange 2 20 4) = Some (MRange 8 20 4) /\ mergeable (MVal 5) (MRange 2 20 4).
Proof. split; [reflexivity|]. cbn. left. lia. Qed.
Example compiler_ex : m_check (comp_intersect euclid (comp_new 15 true) (mkM (MRange 3 30 4) CRequired)) 11 1 true = true.
Proof. reflexivity. Qed.

(** ** Where the calculus is wrong *)
Lemma accepts_range : forall s f st v, accepts (MRange s f st) v -> exists k, 0 <= k /\ v = s + k * st /\ v < f.
Proof. intros s f st v H. inversion_clear H. exists k. auto. Qed.
(** Equal steps: residues are not compared. *)
Theorem intersect_residue_refuted : exists p q v, well_formed p /\ well_formed q /\ long_enough p /\ long_enough q /\
  forall egcd, accepts (mintersect egcd p q) v /\ ~ accepts p v.
Proof.
  exists (MRange 0 10 2), (MRange 1 10 2), 1. cbn [well_formed long_enough].
  split; [lia|]. split; [lia|]. split; [cbn; lia|]. split; [cbn; lia|]. intros egcd. split.
  - change (mintersect egcd (MRange 0 10 2) (MRange 1 10 2)) with (MRange 1 10 2).
    change (accepts (MRange 1 10 2) (1 + 0 * 2)). constructor; lia.
  - intros H. apply accepts_range in H; destruct H as [k K]; lia.
Qed.
(** A range holding an amount judged unsatisfiable; with a compiler limit of 10
    columns the manifest range(9, 300, 5) is lost although 9 fits. *)
Theorem satisfiable_refuted : exists p max v, well_formed p /\ accepts p v /\ v <= max /\
  forall egcd, extended_gcd egcd -> accepts (mintersect egcd p (cw (comp_new max true))) v /\
    m_sat (comp_intersect egcd (comp_new max true) (mkM p CNone)) = false.
Proof.
  exists (MRange 9 300 5), 10, 9. split; [cbn; lia|]. split; [change 9 with (9 + 0 * 5) at 2; constructor; lia|]. split; [lia|].
  intros egcd HB.
  assert (E : mintersect egcd (MRange 9 300 5) (MRange 0 11 1) = MRange 9 11 5).
  { cbn [mintersect]. unfold range_intersect. cbn [msat].
    change (negb ((9 <? 300) && (9 mod 5 <=? Z.abs (9 - 300))) || negb ((0 <? 11) && (0 mod 1 <=? Z.abs (0 - 11)))) with false.
    cbv iota. change (5 =? 1) with false. cbv iota.
    specialize (HB 5 1 ltac:(lia) ltac:(lia)). destruct (egcd 5 1) as [[g m] n]. destruct HB as [G [_ [[k K] B]]].
    assert (Hg : g = 1) by (assert (0 < k) by (clear - G K; nia); clear B; nia). rewrite Hg in *. clear Hg. assert (n = 1 - 5 * m) by lia. subst n.
    change (negb (Z.rem 9 1 =? Z.rem 0 1)) with false. cbv iota. change (5 * (1 / 1)) with 5. rewrite Z.quot_1_r.
    rewrite !rem_canon by lia. change (Z.max 9 0) with 9. change (Z.min 300 11) with 11.
    replace (0 * 5 * m + 9 * 1 * (1 - 5 * m)) with (9 + (-9 * m) * 5) by ring. rewrite Z_mod_plus_full. reflexivity. }
  unfold comp_intersect, comp_new, m_sat. cbn [cw mw mc]. change (10 + 1) with 11. rewrite E. split; [|reflexivity].
  change 9 with (9 + 0 * 5) at 2. constructor; lia.
Qed.
(** The largest amount of a range is not a member of the range. *)
Theorem max_refuted : exists p m, well_formed p /\ mmax p = Some m /\ ~ accepts p m /\ exists v, accepts p v /\ m < v.
Proof.
  exists (MRange 9 300 5), 295. split; [cbn; lia|]. split; [reflexivity|]. split; [intros H; apply accepts_range in H; destruct H as [k K]; lia|].
  exists (9 + 58 * 5). split; [constructor; lia|lia].
Qed.
(** Subtracting removes an amount that was not asked for. *)
Theorem subtract_refuted : exists p vs v, well_formed p /\ accepts p v /\ ~ In v vs /\ ~ accepts (msubtract p vs) v.
Proof.
  exists (MRange 0 5 2), [4], 2. split; [cbn; lia|]. split; [change 2 with (0 + 1 * 2) at 2; constructor; lia|].
  split; [cbn; lia|]. change (msubtract (MRange 0 5 2) [4]) with (MRange 0 2 2). intros H. apply accepts_range in H; destruct H as [k K]; lia.
Qed.
(** Merging dereferences the end of a set, and may return too small an amount. *)
Theorem merge_end_refuted : exists p q, well_formed p /\ well_formed q /\ (exists v, accepts p v) /\ (exists v, accepts q v) /\
  mmerge p q = None.
Proof.
  exists (MSet [3]), (MRange 5 10 1). split; [split; [repeat constructor|cbn; lia]|]. split; [cbn; lia|].
  split; [exists 3; constructor; left; reflexivity|]. split; [exists (5 + 0 * 1); constructor; lia|reflexivity].
Qed.
Theorem merge_small_refuted : exists p q r v, well_formed p /\ well_formed q /\ (exists v, accepts q v) /\
  mmerge p q = Some r /\ accepts r v /\ forall b, accepts q b -> v < b.
Proof.
  exists (MVal 5), (MRange 6 8 4), (MVal 5), 5. split; [cbn; lia|]. split; [cbn; lia|].
  split; [exists (6 + 0 * 4); constructor; lia|]. split; [reflexivity|]. split; [constructor|].
  intros b H. apply accepts_range in H; destruct H as [k K]; lia.
Qed.
(** Checked leniently, a set accepts amounts below every member and rejects
    amounts above; a range or a value does the opposite. *)
Theorem lenient_set_refuted : exists l v v', well_formed (MSet l) /\
  mcheck (MSet l) false v = true /\ (forall a, accepts (MSet l) a -> v < a) /\
  mcheck (MSet l) false v' = false /\ (forall a, accepts (MSet l) a -> a < v').
Proof.
  exists [5; 9], 3, 12. split; [split; [repeat constructor|cbn; lia]|]. split; [reflexivity|].
  split; [intros a H; inversion H; subst; cbn in *; lia|]. split; [reflexivity|].
  intros a H; inversion H; subst; cbn in *; lia.
Qed.
(** Constructor and setter disagree on what [max] witness columns means. *)
Theorem set_max_refuted : exists k max, accepts (cw (comp_new max (chas k))) max /\ ~ accepts (cw (comp_set_max k max)) max.
Proof.
  exists (comp_new 15 true), 15. split.
  - change (accepts (MRange 0 16 1) (0 + 15 * 1)). constructor; lia.
  - cbn. intros H. apply accepts_range in H; destruct H as [k K]; lia.
Qed.
Print Assumptions satisfiable_refuted.
