(** Proofs about manifests. *)
From Coq Require Import ZArith List Lia Bool Sorted.
From Verif Require Import Base ManifestModel.
Import ListNotations.
Open Scope Z_scope.

(** ** Sets *)
Lemma in_sinsert : forall x y l, In x (sinsert y l) <-> x = y \/ In x l.
Proof.
  intros x y l. induction l as [|z l IH]; cbn [sinsert]; [cbn; intuition|].
  destruct (y <? z); [cbn; intuition|]. destruct (Z.eqb_spec y z) as [->|N].
  - cbn. intuition.
  - cbn [In]. rewrite IH. intuition.
Qed.
Lemma in_sof : forall x l, In x (sof l) <-> In x l.
Proof.
  intros x l. unfold sof. assert (G : forall l acc, In x (fold_left (fun acc y => sinsert y acc) l acc) <-> In x l \/ In x acc).
  { induction l0 as [|y l0 IH]; intros acc; cbn [fold_left]; [cbn; intuition|]. rewrite IH, in_sinsert. cbn [In]. intuition. }
  rewrite G. cbn. intuition.
Qed.
Lemma smem_In : forall x l, smem x l = true <-> In x l.
Proof.
  intros x l. unfold smem. rewrite existsb_exists. split.
  - intros [y [Hy E]]. apply Z.eqb_eq in E. subst y. exact Hy.
  - intros H. exists x. split; [exact H|apply Z.eqb_refl].
Qed.
Definition ascending (l : list Z) : Prop := StronglySorted Z.lt l.
Lemma sinsert_asc : forall x l, ascending l -> ascending (sinsert x l).
Proof.
  intros x l H. induction H as [|y l H IH FA]; cbn [sinsert]; [repeat constructor|].
  destruct (x <? y) eqn:E1; [apply Z.ltb_lt in E1|apply Z.ltb_ge in E1].
  - constructor; [constructor; assumption|]. constructor; [exact E1|]. eapply Forall_impl; [|exact FA]. cbn. intros; lia.
  - destruct (Z.eqb_spec x y) as [->|N]; [constructor; assumption|]. constructor; [exact IH|].
    rewrite Forall_forall in *. intros z Hz. apply in_sinsert in Hz. destruct Hz as [->|Hz]; [lia|apply FA; exact Hz].
Qed.
Lemma sof_asc : forall l, ascending (sof l).
Proof.
  intros l. unfold sof. assert (G : forall l acc, ascending acc -> ascending (fold_left (fun acc y => sinsert y acc) l acc)).
  { induction l0 as [|y l0 IH]; intros acc H; cbn [fold_left]; [exact H|]. apply IH. apply sinsert_asc. exact H. }
  apply G. constructor.
Qed.
Lemma in_slower : forall m l, ascending l -> forall x, In x (slower m l) <-> In x l /\ m <= x.
Proof.
  intros m l H. induction H as [|y l H IH FA]; intros x; cbn [slower]; [cbn; intuition|].
  destruct (y <? m) eqn:E; [apply Z.ltb_lt in E|apply Z.ltb_ge in E].
  - rewrite IH. cbn [In]. split; [intuition|]. intros [[->|Hx] Hm]; [lia|auto].
  - rewrite Forall_forall in FA. split; [|intuition]. intros Hx. split; [exact Hx|]. destruct Hx as [->|Hx]; [exact E|].
    specialize (FA x Hx). lia.
Qed.
Lemma slower_asc : forall m l, ascending l -> ascending (slower m l).
Proof.
  intros m l H. induction H as [|y l H IH FA]; cbn [slower]; [constructor|]. destruct (y <? m); [exact IH|constructor; assumption].
Qed.

(** ** Ranges *)
Definition divides (a b : Z) : Prop := exists k, b = k * a.
Lemma mod0_div : forall a n, 0 < n -> (a mod n = 0 <-> divides n a).
Proof.
  intros a n H. split.
  - intros E. exists (a / n). pose proof (Z.div_mod a n ltac:(lia)). lia.
  - intros [k ->]. apply Z.mod_mul. lia.
Qed.
Definition in_range (s f st v : Z) : Prop := s <= v /\ v < f /\ divides st (v - s).
Lemma check_range : forall s f st v, 0 < st -> (mcheck (MRange s f st) true v = true <-> in_range s f st v).
Proof.
  intros s f st v H. cbn [mcheck]. rewrite !andb_true_iff, Z.leb_le, Z.ltb_lt, Z.eqb_eq, mod0_div by exact H.
  unfold in_range. tauto.
Qed.

Lemma build_ok : forall ns nf nst v, 0 < nst -> (mcheck (build ns nf nst) true v = true <-> in_range ns nf nst v).
Proof.
  intros ns nf nst v H. unfold build. rewrite Z.geb_leb. destruct (nf <=? ns) eqn:E; [apply Z.leb_le in E|apply Z.leb_gt in E].
  - cbn. split; [discriminate|]. intros [A [B _]]. lia.
  - destruct (Z.eqb_spec ns (nf - 1)) as [E1|E1]; [|apply check_range; exact H].
    cbn. rewrite Z.eqb_eq. split.
    + intros <-. split; [lia|]. split; [lia|]. exists 0. lia.
    + intros [A [B _]]. lia.
Qed.

Definition bezout (egcd : Z -> Z -> Z * Z * Z) : Prop :=
  forall a b, 0 < a -> 0 < b -> let '(g, m, n) := egcd a b in 0 < g /\ divides g a /\ divides g b /\ a * m + b * n = g.

Lemma rem_canon : forall y n, 0 < n -> Z.rem (n + Z.rem y n) n = y mod n.
Proof.
  intros y n H. pose proof (Z.rem_bound_abs y n ltac:(lia)).
  rewrite Z.rem_mod_nonneg by lia. pose proof (Z.quot_rem y n ltac:(lia)) as Q.
  replace (n + Z.rem y n) with (y + (1 - Z.quot y n) * n) by nia. apply Z_mod_plus_full.
Qed.

Lemma range_intersect_ok : forall egcd s f st s' f' st' v, bezout egcd -> 0 <= s -> 0 <= s' -> 0 < st -> 0 < st' ->
  (s < f -> s mod st <= f - s) -> (s' < f' -> s' mod st' <= f' - s') -> (st = st' -> s mod st = s' mod st') ->
  (mcheck (range_intersect egcd s f st s' f' st') true v = true <-> in_range s f st v /\ in_range s' f' st' v).
Proof.
  intros egcd s f st s' f' st' v HB Hs Hs' Ht Ht' Sa Sb Eq. unfold range_intersect. cbn [msat].
  destruct (s <? f) eqn:E1; [apply Z.ltb_lt in E1|apply Z.ltb_ge in E1].
  2:{ cbn. split; [discriminate|]. intros [[A [B _]] _]. lia. }
  destruct (s' <? f') eqn:E2; [apply Z.ltb_lt in E2|apply Z.ltb_ge in E2].
  2:{ cbn. rewrite orb_true_r. cbn. split; [discriminate|]. intros [_ [A [B _]]]. lia. }
  specialize (Sa E1). specialize (Sb E2).
  replace (s mod st <=? Z.abs (s - f)) with true by (symmetry; apply Z.leb_le; lia).
  replace (s' mod st' <=? Z.abs (s' - f')) with true by (symmetry; apply Z.leb_le; lia).
  cbn [andb negb orb].
  destruct (Z.eqb_spec st st') as [Es|Es].
  - specialize (Eq Es). subst st'. rewrite build_ok by exact Ht. unfold in_range.
    assert (D : divides st (s - s')).
    { exists (s / st - s' / st). pose proof (Z.div_mod s st ltac:(lia)). pose proof (Z.div_mod s' st ltac:(lia)). nia. }
    destruct D as [d Hd]. split.
    + intros [A [B [k Hk]]]. destruct (Z.max_spec s s') as [[_ M]|[_ M]]; rewrite M in *.
      * split; (split; [lia|split; [lia|]]); [exists (k - d); lia|exists k; exact Hk].
      * split; (split; [lia|split; [lia|]]); [exists k; exact Hk|exists (k + d); lia].
    + intros [[A [B [k Hk]]] [A' [B' [k' Hk']]]]. split; [lia|]. split; [lia|].
      destruct (Z.max_spec s s') as [[_ M]|[_ M]]; rewrite M; [exists k'|exists k]; assumption.
  - specialize (HB st st' Ht Ht'). destruct (egcd st st') as [[g m] n]. destruct HB as [Hg [[a Ha] [[b Hb] Bz]]].
    assert (Pa : 0 < a) by nia. assert (Pb : 0 < b) by nia.
    assert (B1 : a * m + b * n = 1) by nia.
    rewrite !Z.rem_mod_nonneg by lia.
    destruct (Z.eqb_spec (s mod g) (s' mod g)) as [Em|Em]; cbn [negb].
    2:{ cbn. split; [discriminate|]. intros [[_ [_ [k Hk]]] [_ [_ [k' Hk']]]]. exfalso. apply Em.
        replace s with (s' + (k' * b - k * a) * g) by nia. apply Z_mod_plus_full. }
    assert (D : divides g (s' - s)).
    { exists (s' / g - s / g). pose proof (Z.div_mod s g ltac:(lia)). pose proof (Z.div_mod s' g ltac:(lia)). nia. }
    destruct D as [d Hd].
    assert (Es' : st' / g = b) by (rewrite Hb; apply Z.div_mul; lia). rewrite Es'.
    set (nst := st * b). assert (Pn : 0 < nst) by (unfold nst; nia).
    set (x := s + a * m * d * g).
    assert (Ex : Z.quot (s' * st * m + s * st' * n) g = x).
    { replace (s' * st * m + s * st' * n) with (x * g); [apply Z.quot_mul; lia|]. unfold x.
      replace s' with (s + d * g) by lia. rewrite Ha, Hb.
      transitivity (s * g * (a * m + b * n) + a * m * d * g * g); [rewrite B1; ring|ring]. }
    rewrite Ex. rewrite rem_canon by exact Pn. set (ns := Z.max s s'). rewrite rem_canon by exact Pn.
    rewrite build_ok by exact Pn.
    set (new := ns + (x mod nst - ns) mod nst).
    assert (N1 : ns <= new < ns + nst).
    { pose proof (Z.mod_pos_bound (x mod nst - ns) nst Pn). unfold new. lia. }
    assert (N2 : divides nst (new - x)).
    { pose proof (Z.div_mod (x mod nst - ns) nst ltac:(lia)) as Q1. pose proof (Z.div_mod x nst ltac:(lia)) as Q2.
      exists (- ((x mod nst - ns) / nst) - x / nst). unfold new. nia. }
    destruct N2 as [e He].
    assert (X1 : divides st (x - s)) by (exists (m * d); unfold x; rewrite Ha; ring).
    assert (X2 : divides st' (x - s')).
    { exists (- (n * d)). unfold x. replace s' with (s + d * g) by lia. rewrite Hb.
      transitivity ((a * m - 1) * d * g); [ring|]. replace (a * m - 1) with (- (b * n)) by lia. ring. }
    destruct X1 as [x1 Hx1]. destruct X2 as [x2 Hx2].
    unfold in_range. split.
    + intros [A [B [k Hk]]]. unfold ns in N1.
      split; (split; [lia|split; [lia|]]).
      * exists (k * b + e * b + x1). unfold nst in *. nia.
      * exists (k * a + e * a + x2). unfold nst in *.
        replace (v - s') with ((v - new) + (new - x) + (x - s')) by lia. rewrite Hk, He, Hx2, Ha, Hb. ring.
    + intros [[A [B [k Hk]]] [A' [B' [k' Hk']]]].
      assert (DV : divides nst (v - x)).
      { (* v - x is a multiple of both steps *)
        assert (V1 : v - x = (k - x1) * (a * g)) by nia. assert (V2 : v - x = (k' - x2) * (b * g)) by nia.
        assert (V3 : (k - x1) * a = (k' - x2) * b) by (apply Z.mul_reg_r with g; [lia|]; rewrite <- !Z.mul_assoc; congruence).
        assert (V4 : k - x1 = b * ((k - x1) * n + (k' - x2) * m)).
        { transitivity ((k - x1) * (a * m + b * n)); [rewrite B1; ring|].
          transitivity ((k - x1) * a * m + b * (k - x1) * n); [ring|]. rewrite V3. ring. }
        exists ((k - x1) * n + (k' - x2) * m). unfold nst. rewrite V1, V4 at 1. rewrite Ha. ring. }
      destruct DV as [w Hw]. assert (VN : v - new = (w - e) * nst) by (rewrite Z.mul_sub_distr_r; lia).
      assert (Hns : ns <= v) by (unfold ns; lia).
      assert (0 <= w - e) by (clearbody nst new ns x; clear - VN N1 Hns Pn; nia).
      split; [clearbody nst new ns x; clear - VN H Pn; nia|]. split; [lia|]. exists (w - e). exact VN.
Qed.

(** A well-formed parameter. *)
Definition mwf (p : mparam) : Prop :=
  match p with
  | MUnsat => True
  | MVal v => 0 <= v
  | MRange s _ st => 0 <= s /\ 0 < st
  | MSet l => ascending l /\ forall x, In x l -> 0 <= x
  end.
(** Two ranges that are told apart correctly. *)
Definition range_ok (s f st : Z) : Prop := s < f -> s mod st <= f - s.
Definition compatible (p q : mparam) : Prop :=
  match p, q with
  | MRange s f st, MRange s' f' st' =>
    range_ok s f st /\ range_ok s' f' st' /\ (st = st' -> s mod st = s' mod st')
  | _, _ => True
  end.

Lemma bool_iff : forall a b : bool, (a = true <-> b = true) -> a = b.
Proof. intros [] [] H; intuition congruence. Qed.

Lemma filter_sof : forall (h : Z -> bool) l v, smem v (sof (filter h l)) = true <-> In v l /\ h v = true.
Proof. intros h l v. rewrite smem_In, in_sof, filter_In. tauto. Qed.
Lemma set_or_unsat : forall l v, mcheck (match l with [] => MUnsat | _ => MSet l end) true v = smem v l.
Proof. intros [|x l] v; reflexivity. Qed.

Lemma mintersect_ok : forall egcd p q v, bezout egcd -> mwf p -> mwf q -> compatible p q ->
  mcheck (mintersect egcd p q) true v = mcheck p true v && mcheck q true v.
Proof.
  intros egcd p q v HB Hp Hq Hc. apply bool_iff. rewrite andb_true_iff.
  destruct p as [|a|s f st|l].
  - cbn. intuition discriminate.
  - cbn [mintersect]. destruct (mcheck q true a) eqn:E.
    + cbn. rewrite Z.eqb_eq. split; [intros <-; auto|tauto].
    + split; [discriminate|]. intros [A B]. cbn in A. apply Z.eqb_eq in A. subst. congruence.
  - cbn [mwf] in Hp. destruct q as [|b|s' f' st'|l']; cbn [mintersect].
    + split; [discriminate|intros [_ H]; discriminate].
    + destruct (mcheck (MRange s f st) true b) eqn:E.
      * cbn [mcheck]. rewrite Z.eqb_eq. split; [intros <-; split; [exact E|reflexivity]|tauto].
      * split; [discriminate|]. intros [A B]. cbn [mcheck] in B. apply Z.eqb_eq in B. subst. congruence.
    + destruct Hc as [C1 [C2 C3]]. cbn [mwf] in Hq. rewrite !check_range by tauto.
      apply range_intersect_ok; try tauto; assumption.
    + cbn [mcheck]. rewrite filter_sof. rewrite smem_In. cbn [mcheck]. tauto.
  - destruct q as [|b|s' f' st'|l']; cbn [mintersect].
    + split; [discriminate|intros [_ H]; discriminate].
    + destruct (mcheck (MSet l) true b) eqn:E.
      * cbn [mcheck]. rewrite Z.eqb_eq. split; [intros <-; split; [exact E|reflexivity]|tauto].
      * split; [discriminate|]. intros [A B]. cbn [mcheck] in B. apply Z.eqb_eq in B. subst. congruence.
    + rewrite set_or_unsat, filter_sof. cbn [mcheck]. rewrite smem_In. tauto.
    + rewrite set_or_unsat, filter_sof. cbn [mcheck]. rewrite !smem_In. tauto.
Qed.

(** ** Satisfiability and maximum *)
Lemma msat_ok : forall p, mwf p -> match p with MRange s f st => range_ok s f st | _ => True end ->
  (msat p = true <-> exists v, mcheck p true v = true).
Proof.
  intros p Hp Hr. destruct p as [|a|s f st|l]; cbn [msat].
  - split; [discriminate|intros [v H]; discriminate].
  - split; [intros _; exists a; cbn; apply Z.eqb_refl|reflexivity].
  - cbn [mwf] in Hp. rewrite andb_true_iff, Z.ltb_lt, Z.leb_le. split.
    + intros [A B]. exists s. apply check_range; [tauto|]. split; [lia|]. split; [exact A|]. exists 0. lia.
    + intros [v H]. apply check_range in H; [|tauto]. destruct H as [A [B _]]. split; [lia|].
      unfold range_ok in Hr. specialize (Hr ltac:(lia)). lia.
  - destruct l as [|x l]; cbn.
    + split; [discriminate|intros [v H]; discriminate].
    + split; [intros _; exists x; rewrite Z.eqb_refl; reflexivity|reflexivity].
Qed.

Lemma last_max : forall l x, ascending (x :: l) -> In (last (x :: l) 0) (x :: l) /\ forall y, In y (x :: l) -> y <= last (x :: l) 0.
Proof.
  induction l as [|z l IH]; intros x H.
  - cbn. split; [auto|intros y [->|[]]; lia].
  - inversion_clear H as [|? ? H' FA]. destruct (IH z H') as [A B].
    change (last (x :: z :: l) 0) with (last (z :: l) 0). split; [right; exact A|].
    intros y [<-|Hy]; [|apply B; exact Hy]. rewrite Forall_forall in FA. specialize (FA _ A). lia.
Qed.

Lemma mmax_ok : forall p, mwf p -> (exists v, mcheck p true v = true) ->
  match p with MRange s _ st => s mod st = 0 | _ => True end ->
  exists m, mmax p = Some m /\ mcheck p true m = true /\ forall v, mcheck p true v = true -> v <= m.
Proof.
  intros p Hp [v0 H0] Hr. destruct p as [|a|s f st|l]; cbn [mmax].
  - discriminate.
  - exists a. split; [reflexivity|]. split; [cbn; apply Z.eqb_refl|]. intros v H. cbn in H. apply Z.eqb_eq in H. lia.
  - cbn [mwf] in Hp. destruct Hp as [P1 P2]. apply check_range in H0; [|exact P2]. destruct H0 as [A0 [B0 [k0 K0]]].
    apply mod0_div in Hr; [|exact P2]. destruct Hr as [j Hj].
    set (m := f - (if f mod st =? 0 then st else f mod st)).
    pose proof (Z.div_mod f st ltac:(lia)) as Q. pose proof (Z.mod_pos_bound f st P2) as QB.
    assert (HM : exists i, m = i * st /\ m < f /\ f <= m + st).
    { unfold m. destruct (Z.eqb_spec (f mod st) 0) as [E|E]; [exists (f / st - 1)|exists (f / st)]; nia. }
    destruct HM as [i [Ei [M1 M2]]].
    exists m. split; [reflexivity|]. split.
    + apply check_range; [exact P2|]. split; [|split; [exact M1|exists (i - j); lia]].
      assert (E0 : v0 = (k0 + j) * st) by lia.
      assert (k0 + j < i + 1) by (apply (Z.mul_lt_mono_pos_r st); lia).
      assert (0 <= k0) by nia. rewrite Hj, Ei. apply Z.mul_le_mono_nonneg_r; lia.
    + intros v H. apply check_range in H; [|exact P2]. destruct H as [A [B [k K]]].
      assert (Ev : v = (k + j) * st) by lia.
      assert (k + j < i + 1) by (apply (Z.mul_lt_mono_pos_r st); lia).
      rewrite Ev, Ei. apply Z.mul_le_mono_nonneg_r; lia.
  - destruct Hp as [AS _]. destruct l as [|x l]; [discriminate|]. destruct (last_max l x AS) as [A B].
    exists (last (x :: l) 0). split; [reflexivity|]. split; [cbn [mcheck]; apply smem_In; exact A|].
    intros v H. cbn [mcheck] in H. apply smem_In in H. apply B. exact H.
Qed.

(** ** Subtraction *)
Lemma in_steps : forall n v f st x, 0 < st -> (f - v <= Z.of_nat n) -> (In x (steps n v f st) <-> in_range v f st x).
Proof.
  induction n as [|n IH]; intros v f st x Hst Hn; cbn [steps].
  - split; [intros []|]. intros [A [B _]]. lia.
  - destruct (v <? f) eqn:E; [apply Z.ltb_lt in E|apply Z.ltb_ge in E].
    + cbn [In]. rewrite IH by lia. unfold in_range. split.
      * intros [->|[A [B [k K]]]]; [split; [lia|split; [lia|exists 0; lia]]|].
        split; [lia|]. split; [exact B|]. exists (k + 1). lia.
      * intros [A [B [k K]]]. destruct (Z.eq_dec x v) as [->|N]; [left; reflexivity|right].
        assert (1 <= k) by nia. split; [nia|]. split; [exact B|]. exists (k - 1). lia.
    + split; [intros []|]. intros [A [B _]]. lia.
Qed.
Lemma in_range_values : forall v f st x, 0 < st -> (In x (range_values v f st) <-> in_range v f st x).
Proof. intros v f st x H. unfold range_values. apply in_steps; [exact H|lia]. Qed.

Lemma contig_up : forall l cur st cur', 0 < st -> contig l cur st = (cur', true) ->
  cur' = cur + Z.of_nat (length l) * st /\ forall x, In x l <-> exists i, 0 <= i < Z.of_nat (length l) /\ x = cur + i * st.
Proof.
  induction l as [|y l IH]; intros cur st cur' Hst E; cbn [contig] in E.
  - injection E as <-. cbn. split; [lia|]. intros x. split; [intros []|intros [i [Hi _]]; lia].
  - destruct (Z.eqb_spec y cur) as [->|N]; [|discriminate]. destruct (IH _ _ _ Hst E) as [A B].
    cbn [length]. split; [lia|]. intros x. cbn [In]. rewrite B. split.
    + intros [->|[i [Hi ->]]]; [exists 0; lia|exists (i + 1); lia].
    + intros [i [Hi ->]]. destruct (Z.eq_dec i 0) as [->|N]; [left; lia|right; exists (i - 1); lia].
Qed.

Lemma msubtract_ok : forall p vs v, mwf p ->
  match p with MRange s f st => f mod st = 0 \/ s mod st <> 0 | _ => True end ->
  mcheck (msubtract p vs) true v = mcheck p true v && negb (smem v vs).
Proof.
  intros p vs v Hp Hr. destruct p as [|a|s f st|l]; cbn [msubtract].
  - reflexivity.
  - destruct (smem a vs) eqn:E; cbn.
    + destruct (Z.eqb_spec a v) as [->|]; [rewrite E; reflexivity|reflexivity].
    + destruct (Z.eqb_spec a v) as [->|]; [rewrite E; reflexivity|reflexivity].
  - cbn [mwf] in Hp. destruct Hp as [P1 P2]. apply bool_iff. rewrite andb_true_iff, check_range by exact P2.
    rewrite negb_true_iff. unfold range_subtract.
    set (fs := sof (filter (mcheck (MRange s f st) true) vs)).
    assert (FS : forall x, In x fs <-> In x vs /\ in_range s f st x).
    { intros x. unfold fs. rewrite in_sof, filter_In, check_range by exact P2. tauto. }
    assert (NM : in_range s f st v -> (smem v vs = false <-> ~ In v fs)).
    { intros HR. rewrite FS, <- smem_In. destruct (smem v vs); intuition congruence. }
    assert (GOAL : forall q, (mcheck q true v = true <-> in_range s f st v /\ ~ In v fs) ->
      (mcheck q true v = true <-> in_range s f st v /\ smem v vs = false)).
    { intros q ->. split; intros [A B]; (split; [exact A|]); apply (NM A); exact B. }
    destruct fs as [|x0 fs0] eqn:Ef.
    { apply GOAL. rewrite check_range by exact P2. cbn. tauto. }
    set (l := x0 :: fs0) in *. apply GOAL. clear GOAL NM.
    destruct (contig l s st) as [cur all] eqn:EC. destruct all.
    + destruct (contig_up l s st cur P2 EC) as [A B].
      assert (Q : in_range s f st v /\ ~ In v l <-> in_range cur f st v).
      { rewrite B. unfold in_range. split.
        - intros [[R1 [R2 [k K]]] N]. assert (Z.of_nat (length l) <= k).
          { destruct (Z.le_gt_cases (Z.of_nat (length l)) k) as [C|C]; [exact C|]. exfalso. apply N. exists k. nia. }
          split; [nia|]. split; [exact R2|]. exists (k - Z.of_nat (length l)). nia.
        - intros [R1 [R2 [k K]]]. split.
          + split; [nia|]. split; [exact R2|]. exists (k + Z.of_nat (length l)). nia.
          + intros [i [Hi Ei]]. nia. }
      rewrite Q. destruct (cur <? f) eqn:E; [apply check_range; exact P2|]. apply Z.ltb_ge in E.
      cbn. split; [discriminate|]. intros [R1 [R2 _]]. lia.
    + assert (ND : snd (contig (rev l) (f - f mod st) (- st)) = false).
      { destruct (rev l) as [|y r] eqn:Er; [apply (f_equal (@rev Z)) in Er; rewrite rev_involutive in Er; discriminate|].
        cbn [contig]. destruct (Z.eqb_spec y (f - f mod st)) as [Ey|]; [|reflexivity]. exfalso.
        assert (Iy : In y l) by (apply in_rev; rewrite Er; left; reflexivity).
        apply FS in Iy. destruct Iy as [_ [R1 [R2 [k K]]]].
        pose proof (Z.div_mod f st ltac:(lia)) as Q. destruct Hr as [Hr|Hr]; [lia|].
        apply Hr. apply mod0_div; [exact P2|]. exists (f / st - k). lia. }
      destruct (contig (rev l) (f - f mod st) (- st)) as [cur2 all2]. cbn [snd] in ND. subst all2.
      set (r := sof (filter (fun x => negb (smem x l)) (range_values s f st))).
      assert (R : In v r <-> in_range s f st v /\ ~ In v l).
      { unfold r. rewrite in_sof, filter_In, in_range_values by exact P2. rewrite negb_true_iff.
        rewrite <- smem_In. destruct (smem v l); intuition congruence. }
      rewrite <- R. destruct r as [|x1 [|x2 r]]; cbn [mcheck In].
      * split; [discriminate|intros []].
      * rewrite Z.eqb_eq. tauto.
      * apply smem_In.
  - destruct Hp as [AS _]. apply bool_iff. rewrite andb_true_iff, negb_true_iff. cbn [mcheck]. rewrite smem_In.
    transitivity (In v (filter (fun x => negb (smem x vs)) l)).
    + destruct (filter _ l) as [|x r]; cbn [mcheck]; [split; [discriminate|intros []]|apply smem_In].
    + rewrite filter_In, negb_true_iff. tauto.
Qed.

(** ** Merging *)
(** [v] columns are enough for something [p] accepts. *)
Definition enough (p : mparam) (v : Z) : Prop := exists a, mcheck p true a = true /\ a <= v.

Lemma round_up_ge : forall v st, 0 < st -> v <= round_up v st.
Proof. intros v st H. unfold round_up. pose proof (Z.mod_pos_bound (st - v mod st) st H). lia. Qed.

Definition merge_ok (p q : mparam) : Prop :=
  match p, q with
  | MVal v, MRange s f st | MRange s f st, MVal v => s <= v \/ round_up v st < f
  | MSet l, MRange s _ _ | MRange s _ _, MSet l => exists x, In x l /\ s <= x
  | _, _ => True
  end.

Definition nonempty (p : mparam) : Prop := exists v, mcheck p true v = true.

Lemma enough_range : forall s f st v, 0 < st -> s < f -> (enough (MRange s f st) v <-> s <= v).
Proof.
  intros s f st v H Hf. split.
  - intros [a [A B]]. apply check_range in A; [|exact H]. destruct A as [A _]. lia.
  - intros HV. exists s. split; [|exact HV]. apply check_range; [exact H|]. split; [lia|]. split; [exact Hf|exists 0; lia].
Qed.
Lemma nonempty_range : forall s f st, 0 < st -> nonempty (MRange s f st) -> s < f.
Proof. intros s f st H [v HV]. apply check_range in HV; [|exact H]. destruct HV as [A [B _]]. lia. Qed.
Lemma range_nonempty : forall s f st, 0 < st -> s < f -> nonempty (MRange s f st).
Proof. intros s f st H Hf. exists s. apply check_range; [exact H|]. split; [lia|]. split; [exact Hf|exists 0; lia]. Qed.

Lemma merge_val_range_ok : forall a s f st, 0 < st -> s < f -> (s <= a \/ round_up a st < f) ->
  nonempty (merge_val_range a s f st) /\
  forall v, mcheck (merge_val_range a s f st) true v = true -> a <= v /\ s <= v.
Proof.
  intros a s f st H Hf Ho. unfold merge_val_range. pose proof (round_up_ge a st H).
  destruct (Z.max (round_up a st) s <? f) eqn:E; [apply Z.ltb_lt in E|apply Z.ltb_ge in E].
  - split; [apply range_nonempty; assumption|]. intros v HV. apply check_range in HV; [|exact H]. destruct HV as [A _]. lia.
  - split; [exists a; apply Z.eqb_refl|]. intros v HV. cbn in HV. apply Z.eqb_eq in HV. lia.
Qed.
Lemma merge_val_set_ok : forall a l, ascending l ->
  nonempty (merge_val_set a l) /\
  forall v, mcheck (merge_val_set a l) true v = true -> a <= v /\ (l <> [] -> exists x, In x l /\ x <= v).
Proof.
  intros a l AS. unfold merge_val_set. pose proof (in_slower a l AS) as SL. destruct (slower a l) as [|y r] eqn:E.
  - split; [exists a; cbn; rewrite Z.eqb_refl; reflexivity|].
    intros v HV. cbn [mcheck] in HV. apply smem_In in HV. destruct HV as [<-|[]]. split; [lia|].
    intros NE. destruct l as [|x l]; [contradiction|]. exists x. split; [left; reflexivity|].
    destruct (Z.le_gt_cases a x) as [C|C]; [|lia]. exfalso. apply (proj2 (SL x)). split; [left; reflexivity|exact C].
  - split; [exists y; cbn; rewrite Z.eqb_refl; reflexivity|].
    intros v HV. cbn [mcheck] in HV. apply smem_In in HV. apply SL in HV. split; [tauto|]. intros _. exists v. split; [tauto|lia].
Qed.
Lemma merge_set_range_ok : forall l s f st, 0 < st -> ascending l -> (exists x, In x l /\ s <= x) ->
  exists r, merge_set_range l s f st = Some r /\ nonempty r /\
  forall v, mcheck r true v = true -> s <= v /\ exists x, In x l /\ x <= v.
Proof.
  intros l s f st H AS [x0 [I0 S0]]. unfold merge_set_range. pose proof (in_slower s l AS) as SL.
  destruct (slower s l) as [|x r] eqn:E; [exfalso; apply (proj2 (SL x0)); auto|].
  assert (Ix : In x l /\ s <= x) by (apply SL; left; reflexivity). rewrite Z.max_l by tauto.
  eexists. split; [reflexivity|]. split.
  - exists x. cbn [mcheck]. apply smem_In, in_sof. left. reflexivity.
  - intros v HV. cbn [mcheck] in HV. apply smem_In in HV. apply (proj1 (in_sof _ _)) in HV.
    assert (x <= v).
    { destruct HV as [->|HV]; [lia|]. apply in_app_or in HV. destruct HV as [HV|HV].
      - apply in_slower in HV; [tauto|exact AS].
      - apply in_range_values in HV; [|exact H]. destruct HV as [A _]. pose proof (round_up_ge x st H). lia. }
    split; [lia|]. exists x. split; [tauto|lia].
Qed.

Lemma mmerge_ok : forall p q, mwf p -> mwf q -> nonempty p -> nonempty q -> merge_ok p q ->
  exists r, mmerge p q = Some r /\ nonempty r /\ forall v, mcheck r true v = true -> enough p v /\ enough q v.
Proof.
  assert (EV : forall a v, enough (MVal a) v <-> a <= v).
  { intros a v. split; [intros [b [B1 B2]]; cbn in B1; apply Z.eqb_eq in B1; lia|]. intros H. exists a. split; [cbn; apply Z.eqb_refl|exact H]. }
  assert (ES : forall l v, enough (MSet l) v <-> exists x, In x l /\ x <= v).
  { intros l v. unfold enough. cbn [mcheck]. split; intros [x [A B]]; exists x; (split; [apply smem_In; exact A|exact B]). }
  assert (SN : forall l, nonempty (MSet l) -> l <> []) by (intros l [v H] ->; discriminate).
  intros p q Hp Hq Np Nq Hm.
  destruct p as [|a|s f st|l]; [destruct Np as [? ?]; discriminate| | |];
  (destruct q as [|b|s' f' st'|l']; [destruct Nq as [? ?]; discriminate| | |]); cbn [mwf merge_ok mmerge] in *.
  - eexists. split; [reflexivity|]. split; [eexists; cbn; apply Z.eqb_refl|].
    intros v H. cbn in H. apply Z.eqb_eq in H. rewrite !EV. lia.
  - apply nonempty_range in Nq; [|tauto]. destruct (merge_val_range_ok a s' f' st' ltac:(tauto) Nq Hm) as [A B].
    eexists. split; [reflexivity|]. split; [exact A|]. intros v H. rewrite EV, enough_range by tauto. apply B. exact H.
  - destruct (merge_val_set_ok a l' ltac:(tauto)) as [A B]. eexists. split; [reflexivity|]. split; [exact A|].
    intros v H. rewrite EV, ES. destruct (B v H) as [B1 B2]. split; [exact B1|apply B2; apply SN; exact Nq].
  - apply nonempty_range in Np; [|tauto]. destruct (merge_val_range_ok b s f st ltac:(tauto) Np Hm) as [A B].
    eexists. split; [reflexivity|]. split; [exact A|]. intros v H. rewrite EV, enough_range by tauto. apply and_comm. apply B. exact H.
  - apply nonempty_range in Np; [|tauto]. apply nonempty_range in Nq; [|tauto].
    assert (G : forall r, nonempty r -> (forall v, mcheck r true v = true -> Z.max s s' <= v) ->
      exists r0, Some r = Some r0 /\ nonempty r0 /\ forall v, mcheck r0 true v = true -> enough (MRange s f st) v /\ enough (MRange s' f' st') v).
    { intros r A B. exists r. split; [reflexivity|]. split; [exact A|]. intros v H. rewrite !enough_range by tauto. specialize (B v H). lia. }
    destruct (Z.eqb_spec st st') as [Es|Es].
    + destruct (Z.max s s' <? Z.max f f') eqn:E.
      * apply G; [apply range_nonempty; [tauto|apply Z.ltb_lt; exact E]|]. intros v H. apply check_range in H; [|tauto]. apply H.
      * apply Z.ltb_ge in E. lia.
    + rewrite !Z.geb_leb. destruct (f' <=? Z.max s s') eqn:E1; [apply Z.leb_le in E1|apply Z.leb_gt in E1].
      { apply G; [apply range_nonempty; tauto|]. intros v H. apply check_range in H; [|tauto]. destruct H as [H _]. lia. }
      destruct (f <=? Z.max s s') eqn:E2; [apply Z.leb_le in E2|apply Z.leb_gt in E2].
      { apply G; [apply range_nonempty; tauto|]. intros v H. apply check_range in H; [|tauto]. destruct H as [H _]. lia. }
      apply G.
      * exists (Z.max s s'). cbn [mcheck]. apply smem_In, in_sof. left. reflexivity.
      * intros v H. cbn [mcheck] in H. apply smem_In in H. apply (proj1 (in_sof _ _)) in H. destruct H as [<-|H]; [lia|].
        apply filter_In in H. destruct H as [_ H]. apply Z.ltb_lt in H. lia.
  - apply nonempty_range in Np; [|tauto]. destruct (merge_set_range_ok l' s f st ltac:(tauto) ltac:(tauto) Hm) as [r [E [A B]]].
    exists r. split; [exact E|]. split; [exact A|]. intros v H. rewrite ES, enough_range by tauto. apply B. exact H.
  - destruct (merge_val_set_ok b l ltac:(tauto)) as [A B]. eexists. split; [reflexivity|]. split; [exact A|].
    intros v H. rewrite EV, ES. destruct (B v H) as [B1 B2]. split; [apply B2; apply SN; exact Np|exact B1].
  - apply nonempty_range in Nq; [|tauto]. destruct (merge_set_range_ok l s' f' st' ltac:(tauto) ltac:(tauto) Hm) as [r [E [A B]]].
    exists r. split; [exact E|]. split; [exact A|]. intros v H. rewrite ES, enough_range by tauto. apply and_comm. apply B. exact H.
  - destruct l as [|x l]; [exfalso; apply (SN [] Np); reflexivity|]. destruct l' as [|x' l']; [exfalso; apply (SN [] Nq); reflexivity|].
    destruct Hp as [AS Pp]. destruct Hq as [AS' Pq]. set (m := Z.max x x').
    assert (IN : forall v, In v (sof (slower m (x :: l) ++ slower m (x' :: l'))) <-> (In v (x :: l) \/ In v (x' :: l')) /\ m <= v).
    { intros v. rewrite in_sof, in_app_iff, !in_slower by assumption. tauto. }
    assert (IM : In m (sof (slower m (x :: l) ++ slower m (x' :: l')))).
    { apply IN. split; [|lia]. unfold m. destruct (Z.max_spec x x') as [[_ ->]|[_ ->]]; [right|left]; left; reflexivity. }
    destruct (sof _) as [|y r]; [destruct IM|].
    eexists. split; [reflexivity|]. split; [exists m; cbn [mcheck]; apply smem_In; exact IM|].
    intros v H. cbn [mcheck] in H. apply smem_In, IN in H. rewrite !ES.
    split; [exists x|exists x']; (split; [left; reflexivity|]); unfold m in H; lia.
Qed.
