(** Proofs about the packing heuristic. *)
From Coq Require Import ZArith List Lia Bool Permutation.
From Verif Require Import Base PackModel.
Import ListNotations.
Open Scope Z_scope.

(** Sizes add up. *)
Fixpoint total (l : list task) : Z := match l with [] => 0 | t :: l' => snd t + total l' end.
Definition keys (l : list task) : list Z := map fst l.
(** What [f] gives to agent [a]. *)
Definition load (f : amap) (l : list task) (a : Z) : Z :=
  total (filter (fun t => match f (fst t) with Some b => b =? a | None => false end) l).

Lemma total_app : forall l1 l2, total (l1 ++ l2) = total l1 + total l2.
Proof. induction l1 as [|t l1 IH]; intros l2; cbn; [lia|]. rewrite IH. lia. Qed.
Lemma total_perm : forall l1 l2, Permutation l1 l2 -> total l1 = total l2.
Proof. intros l1 l2 H. induction H; cbn; lia. Qed.
Lemma filter_perm : forall (p : task -> bool) l1 l2, Permutation l1 l2 -> Permutation (filter p l1) (filter p l2).
Proof.
  intros p l1 l2 H. induction H; cbn; auto.
  - destruct (p x); auto.
  - destruct (p x), (p y); auto. apply perm_swap.
  - eapply perm_trans; eauto.
Qed.
Lemma load_perm : forall f l1 l2 a, Permutation l1 l2 -> load f l1 a = load f l2 a.
Proof. intros. apply total_perm. apply filter_perm. assumption. Qed.
Lemma load_app : forall f l1 l2 a, load f (l1 ++ l2) a = load f l1 a + load f l2 a.
Proof. intros. unfold load. rewrite filter_app. apply total_app. Qed.
Lemma total_nonneg : forall l, (forall t, In t l -> 0 <= snd t) -> 0 <= total l.
Proof.
  induction l as [|t l IH]; intros H; cbn; [lia|]. pose proof (H t (or_introl eq_refl)).
  specialize (IH (fun t' Ht => H t' (or_intror Ht))). lia.
Qed.
Lemma total_in : forall l t, (forall t, In t l -> 0 <= snd t) -> In t l -> snd t <= total l.
Proof.
  induction l as [|u l IH]; intros t H Ht; [contradiction|]. cbn.
  pose proof (H u (or_introl eq_refl)). pose proof (total_nonneg l (fun t' Ht' => H t' (or_intror Ht'))).
  destruct Ht as [->|Ht]; [lia|]. specialize (IH t (fun t' Ht' => H t' (or_intror Ht')) Ht). lia.
Qed.

(** ** One agent *)
Lemma take_spec : forall thr ag rem cur asg asg' cur' rest,
  (forall t, In t rem -> 0 <= snd t) ->
  take thr ag cur asg rem = (asg', cur', rest) ->
  exists taken, Permutation rem (taken ++ rest) /\ cur' = cur + total taken /\ (cur <= thr -> cur' <= thr) /\
    (forall t, In t rest -> cur' + snd t > thr) /\
    (forall k, In k (keys taken) -> asg' k = Some ag) /\ (forall k, ~ In k (keys taken) -> asg' k = asg k).
Proof.
  intros thr ag rem. induction rem as [|[k s] rem IH]; intros cur asg asg' cur' rest Hn E.
  - cbn in E. injection E as <- <- <-. exists []. cbn. repeat split; auto; try lia; try contradiction.
  - cbn [take] in E. pose proof (Hn (k, s) (or_introl eq_refl)) as Hs. cbn [snd] in Hs.
    assert (Hn' : forall t, In t rem -> 0 <= snd t) by (intros t Ht; apply Hn; right; exact Ht).
    destruct (cur + s <=? thr) eqn:D; [apply Z.leb_le in D|apply Z.leb_gt in D].
    + destruct (IH _ _ _ _ _ Hn' E) as [tk [Pm [Ec [Hc [Hr [H1 H2]]]]]].
      exists ((k, s) :: tk). cbn [app total keys map fst snd].
      split; [constructor; exact Pm|]. split; [lia|]. split; [intros _; apply Hc; exact D|]. split; [exact Hr|].
      destruct (in_dec Z.eq_dec k (keys tk)) as [I|I].
      * split; [intros k' [<-|Hk]; [apply H1; exact I|apply H1; exact Hk]|].
        intros k' Hk. rewrite H2 by (intros K; apply Hk; right; exact K). unfold aput.
        destruct (Z.eqb_spec k' k) as [->|]; [exfalso; apply Hk; left; reflexivity|reflexivity].
      * split.
        -- intros k' [<-|Hk]; [|apply H1; exact Hk]. rewrite H2 by exact I. unfold aput. rewrite Z.eqb_refl. reflexivity.
        -- intros k' Hk. rewrite H2 by (intros K; apply Hk; right; exact K). unfold aput.
           destruct (Z.eqb_spec k' k) as [->|]; [exfalso; apply Hk; left; reflexivity|reflexivity].
    + destruct (take thr ag cur asg rem) as [[asg1 cur1] rest1] eqn:E1. injection E as <- <- <-.
      destruct (IH _ _ _ _ _ Hn' E1) as [tk [Pm [Ec [Hc [Hr [H1 H2]]]]]].
      exists tk. split.
      { apply perm_trans with ((k, s) :: tk ++ rest1); [constructor; exact Pm|]. apply Permutation_middle. }
      split; [exact Ec|]. split; [exact Hc|]. split; [|split; assumption].
      intros t [<-|Ht]; [cbn [snd]|apply Hr; exact Ht].
      assert (0 <= total tk).
      { apply total_nonneg. intros t Ht. apply Hn'. apply Permutation_sym in Pm.
        eapply Permutation_in; [exact Pm|]. apply in_or_app. left. exact Ht. }
      lia.
Qed.

(** ** All agents *)
Lemma nodup_keys_split : forall rem tk rest, Permutation rem (tk ++ rest) -> NoDup (keys rem) ->
  NoDup (keys rest) /\ (forall k, In k (keys tk) -> ~ In k (keys rest)).
Proof.
  intros rem tk rest Pm ND. apply (Permutation_map fst) in Pm. unfold keys in *. rewrite map_app in Pm.
  apply (Permutation_NoDup Pm) in ND. clear -ND. induction tk as [|[k s] tk IH]; cbn in *.
  - split; [exact ND|intros k []].
  - inversion_clear ND as [|? ? N ND']. destruct (IH ND') as [A B]. split; [exact A|].
    intros k' [<-|Hk]; [|apply B; exact Hk]. intros Hk. apply N. apply in_or_app. right. exact Hk.
Qed.

Lemma agents_frame : forall n i thr asg rem asg' rest, (forall t, In t rem -> 0 <= snd t) ->
  agents n i thr asg rem = (asg', rest) -> forall k, ~ In k (keys rem) -> asg' k = asg k.
Proof.
  induction n as [|n IH]; intros i thr asg rem asg' rest Hn E k Hk; cbn [agents] in E.
  - injection E as <- _. reflexivity.
  - destruct (take thr i 0 asg rem) as [[asg1 cur1] rest1] eqn:E1.
    destruct (take_spec _ _ _ _ _ _ _ _ Hn E1) as [tk [Pm [_ [_ [_ [_ H2]]]]]].
    assert (KI : forall l, (forall t, In t l -> In t (tk ++ rest1)) -> ~ In k (keys l)).
    { intros l Hl HH. apply Hk. apply in_map_iff in HH. destruct HH as [t [<- Ht]]. apply in_map.
      eapply Permutation_in; [apply Permutation_sym; exact Pm|]. apply Hl. exact Ht. }
    assert (K1 : asg1 k = asg k) by (apply H2; apply KI; intros; apply in_or_app; left; assumption).
    destruct (cur1 =? 0); [injection E as <- _; exact K1|].
    rewrite <- K1. eapply IH; [|exact E|apply KI; intros; apply in_or_app; right; assumption].
    intros t Ht. apply Hn. eapply Permutation_in; [apply Permutation_sym; exact Pm|]. apply in_or_app. right. exact Ht.
Qed.

Lemma load_none : forall f l a, (forall t, In t l -> f (fst t) <> Some a) -> load f l a = 0.
Proof.
  intros f l a H. unfold load. replace (filter _ l) with ([] : list task); [reflexivity|].
  induction l as [|t l IH]; [reflexivity|]. cbn [filter].
  destruct (f (fst t)) as [b|] eqn:E.
  - destruct (Z.eqb_spec b a) as [->|N]; [exfalso; exact (H t (or_introl eq_refl) E)|]. apply IH. intros; apply H; right; assumption.
  - apply IH. intros; apply H; right; assumption.
Qed.
Lemma load_all : forall f l a, (forall t, In t l -> f (fst t) = Some a) -> load f l a = total l.
Proof.
  intros f l a H. unfold load. f_equal. induction l as [|t l IH]; [reflexivity|]. cbn [filter].
  rewrite (H t (or_introl eq_refl)), Z.eqb_refl. f_equal. apply IH. intros; apply H; right; assumption.
Qed.

Lemma agents_done : forall n i thr asg rem asg', 0 <= thr -> NoDup (keys rem) -> (forall t, In t rem -> 0 <= snd t) ->
  agents n i thr asg rem = (asg', []) ->
  (forall t, In t rem -> exists a, asg' (fst t) = Some a /\ i <= a < i + Z.of_nat n) /\
  (forall a, load asg' rem a <= thr).
Proof.
  induction n as [|n IH]; intros i thr asg rem asg' Ht ND Hn E; cbn [agents] in E.
  - injection E as <- ->. split; [intros t []|]. intros a. cbn. exact Ht.
  - destruct (take thr i 0 asg rem) as [[asg1 cur1] rest1] eqn:E1.
    destruct (take_spec _ _ _ _ _ _ _ _ Hn E1) as [tk [Pm [Ec [Hc [Hr [H1 H2]]]]]].
    destruct (nodup_keys_split _ _ _ Pm ND) as [ND1 DJ].
    assert (Hn1 : forall t, In t rest1 -> 0 <= snd t).
    { intros t Hi. apply Hn. eapply Permutation_in; [apply Permutation_sym; exact Pm|]. apply in_or_app. right. exact Hi. }
    assert (Core : (forall t, In t rest1 -> exists a, asg' (fst t) = Some a /\ i + 1 <= a < i + 1 + Z.of_nat n) /\
                   (forall a, load asg' rest1 a <= thr) /\ (forall t, In t tk -> asg' (fst t) = Some i)).
    { destruct (cur1 =? 0) eqn:E0.
      - injection E as <- ->. split; [intros t []|]. split; [intros a; cbn; exact Ht|].
        intros t Hi. apply H1. apply in_map. exact Hi.
      - destruct (IH (i + 1) thr asg1 rest1 asg' Ht ND1 Hn1 E) as [A B]. split; [exact A|]. split; [exact B|].
        intros t Hi. rewrite (agents_frame n (i + 1) thr asg1 rest1 asg' [] Hn1 E); [apply H1; apply in_map; exact Hi|].
        apply DJ. apply in_map. exact Hi. }
    destruct Core as [A [B D]]. split.
    + intros t Hi. apply (Permutation_in _ Pm) in Hi. apply in_app_or in Hi. destruct Hi as [Hi|Hi].
      * exists i. split; [apply D; exact Hi|lia].
      * destruct (A t Hi) as [a [Ea Ha]]. exists a. split; [exact Ea|lia].
    + intros a. rewrite (load_perm asg' _ _ a Pm), load_app. destruct (Z.eq_dec a i) as [->|N].
      * rewrite (load_all asg' tk i D). rewrite (load_none asg' rest1 i); [specialize (Hc Ht); lia|].
        intros t Hi K. destruct (A t Hi) as [a [Ea Ha]]. rewrite K in Ea. injection Ea as <-. lia.
      * rewrite (load_none asg' tk a); [specialize (B a); lia|]. intros t Hi K. rewrite (D t Hi) in K. injection K as <-. lia.
Qed.

(** Tasks left over mean every agent is nearly full. *)
Lemma agents_left : forall n i thr M asg rem asg' rest, 0 <= thr -> M <= thr ->
  (forall t, In t rem -> 0 <= snd t <= M) -> agents n i thr asg rem = (asg', rest) ->
  forall t, In t rest -> In t rem /\ Z.of_nat n * (thr - M + 1) + snd t <= total rem /\ (0 < Z.of_nat n -> 0 < snd t).
Proof.
  induction n as [|n IH]; intros i thr M asg rem asg' rest Ht HM Hn E t Hi; cbn [agents] in E.
  - injection E as _ <-. split; [exact Hi|]. split; [|lia].
    pose proof (total_in rem t (fun t' Ht' => proj1 (Hn t' Ht')) Hi). lia.
  - destruct (take thr i 0 asg rem) as [[asg1 cur1] rest1] eqn:E1.
    destruct (take_spec _ _ _ _ _ _ _ _ (fun t' Ht' => proj1 (Hn t' Ht')) E1) as [tk [Pm [Ec [Hc [Hr [H1 H2]]]]]].
    specialize (Hc Ht).
    assert (SUB : forall t, In t rest1 -> In t rem).
    { intros t' Ht'. eapply Permutation_in; [apply Permutation_sym; exact Pm|]. apply in_or_app. right. exact Ht'. }
    assert (TT : total rem = cur1 + total rest1) by (rewrite (total_perm _ _ Pm), total_app; lia).
    destruct (cur1 =? 0) eqn:E0.
    + injection E as _ <-. apply Z.eqb_eq in E0. specialize (Hr t Hi). pose proof (Hn t (SUB t Hi)). lia.
    + destruct (IH (i + 1) thr M asg1 rest1 asg' rest Ht HM (fun t' Ht' => Hn t' (SUB t' Ht')) E t Hi) as [A [B _]].
      specialize (Hr t A). pose proof (Hn t (SUB t A)). split; [apply SUB; exact A|]. split; [nia|lia].
Qed.

(** ** Preparation *)
Lemma tinsert_perm : forall x l, Permutation (tinsert x l) (x :: l).
Proof.
  intros x l. induction l as [|y l IH]; cbn; [auto|]. destruct (snd x >? snd y); [auto|].
  eapply perm_trans; [apply perm_skip; exact IH|apply perm_swap].
Qed.
Lemma tsort_perm : forall l, Permutation (tsort l) l.
Proof.
  intros l. unfold tsort. assert (G : forall (l : list task) acc, Permutation (fold_left (fun acc x => tinsert x acc) l acc) (l ++ acc)).
  { induction l0 as [|x l0 IH]; intros acc; cbn; [auto|].
    eapply perm_trans; [apply IH|]. eapply perm_trans; [apply Permutation_app_head; apply tinsert_perm|].
    apply Permutation_sym. apply Permutation_middle. }
  specialize (G l []). rewrite app_nil_r in G. exact G.
Qed.
Lemma tsum_total : forall l, tsum l = total l.
Proof.
  intros l. unfold tsum. assert (G : forall (l : list task) a, fold_left (fun acc (x : task) => acc + snd x) l a = a + total l).
  { induction l0 as [|x l0 IH]; intros a; cbn; [lia|]. rewrite IH. lia. }
  rewrite G. lia.
Qed.
Lemma tmax_spec : forall l, (forall t, In t l -> snd t <= tmax l) /\ 0 <= tmax l /\
  (tmax l = 0 \/ exists t, In t l /\ snd t = tmax l).
Proof.
  intros l. unfold tmax.
  assert (G : forall (l : list task) a, 0 <= a -> let m := fold_left (fun acc (x : task) => Z.max acc (snd x)) l a in
    (forall t, In t l -> snd t <= m) /\ a <= m /\ (m = a \/ exists t, In t l /\ snd t = m)).
  { induction l0 as [|x l0 IH]; intros a Ha; cbn [fold_left]; cbv zeta.
    - split; [intros t []|]. split; [lia|auto].
    - destruct (IH (Z.max a (snd x)) ltac:(lia)) as [A [B D]]. cbv zeta in *. split; [|split; [lia|]].
      + intros t [<-|Ht]; [lia|apply A; exact Ht].
      + destruct D as [D|[t [Ht Et]]]; [|right; exists t; split; [right; exact Ht|exact Et]].
        destruct (Z.max_spec a (snd x)) as [[? E]|[? E]]; rewrite E in *.
        * right. exists x. split; [left; reflexivity|]. congruence.
        * left. exact D. }
  apply (G l 0). lia.
Qed.

Lemma lower_ceil : forall s m, 0 < m -> s <= m * ((s + m - 1) / m) /\ (0 < s -> m * ((s + m - 1) / m - 1) < s).
Proof.
  intros s m Hm. pose proof (Z.div_mod (s + m - 1) m ltac:(lia)). pose proof (Z.mod_pos_bound (s + m - 1) m Hm). split; intros; nia.
Qed.

(** ** The search *)
Definition good (tasks : list task) (m : Z) (f : amap) (thr : Z) : Prop :=
  (forall t, In t tasks -> exists a, f (fst t) = Some a /\ 0 <= a < m) /\ (forall a, load f tasks a <= thr) /\
  (forall k, ~ In k (keys tasks) -> f k = None).

Lemma search_ok : forall tasks m L, 0 < m -> 0 < L -> NoDup (keys tasks) ->
  (forall t, In t tasks -> 0 <= snd t <= L) -> total tasks <= m * L ->
  forall fuel left right best asg,
  (Z.to_nat (right - left) < fuel)%nat -> L <= left <= right -> right <= 2 * L ->
  (forall k, ~ In k (keys tasks) -> asg k = None) ->
  (right = 2 * L /\ left < 2 * L) \/ (right < 2 * L /\ good tasks m best right) ->
  exists f thr, search fuel tasks m left right best asg = Some f /\ thr < 2 * L /\ good tasks m f thr.
Proof.
  intros tasks m L Hm HL ND Hs HT fuel. induction fuel as [|fuel IH]; intros left right best asg HF HLR HR HA HI; [lia|].
  cbn [search]. destruct (left <? right) eqn:D; [apply Z.ltb_lt in D|apply Z.ltb_ge in D].
  2:{ destruct HI as [[? ?]|[? G]]; [lia|]. exists best, right. auto. }
  set (thr := left + (right - left) / 2).
  pose proof (Z.div_mod (right - left) 2 ltac:(lia)). pose proof (Z.mod_pos_bound (right - left) 2 ltac:(lia)).
  assert (TR : left <= thr < right) by (unfold thr; lia). clearbody thr.
  assert (T0 : 0 <= thr) by lia. assert (T1 : L <= thr) by lia.
  destruct (agents (Z.to_nat m) 0 thr asg tasks) as [asg' rest] eqn:E.
  assert (NN : forall t, In t tasks -> 0 <= snd t) by (intros t Ht; apply Hs; exact Ht).
  assert (HA' : forall k, ~ In k (keys tasks) -> asg' k = None).
  { intros k Hk. rewrite (agents_frame _ _ _ _ _ _ _ NN E k Hk). apply HA. exact Hk. }
  destruct rest as [|t rest].
  - destruct (agents_done _ _ _ _ _ _ T0 ND NN E) as [A B].
    assert (G : good tasks m asg' thr).
    { split; [|split; [exact B|exact HA']]. intros t Ht. destruct (A t Ht) as [a [Ea Ha]]. exists a. split; [exact Ea|]. lia. }
    destruct (thr =? left); [exists asg', thr; split; [reflexivity|split; [lia|exact G]]|].
    apply IH; try lia; [exact HA'|]. right. split; [lia|exact G].
  - apply IH; try lia; [exact HA'|].
    destruct HI as [[E2 HL2]|HI]; [left|right; exact HI]. split; [exact E2|].
    destruct (agents_left _ _ thr L _ _ _ _ T0 T1 Hs E t (or_introl eq_refl)) as [A [B S]].
    specialize (S ltac:(lia)). rewrite Z2Nat.id in B by lia. nia.
Qed.

Lemma keys_perm : forall l1 l2, Permutation l1 l2 -> Permutation (keys l1) (keys l2).
Proof. intros. apply Permutation_map. assumption. Qed.

(** ** Lower bound for any assignment *)
Definition gload (g : Z -> Z) (l : list task) (a : Z) : Z := total (filter (fun t => g (fst t) =? a) l).

Lemma gload_sum : forall g l m, 0 <= m -> (forall t, In t l -> 0 <= g (fst t) < m) ->
  fold_right Z.add 0 (map (gload g l) (zseq 0 m)) = total l.
Proof.
  intros g l m Hm H. induction l as [|t l IH].
  - induction (zseq 0 m) as [|a q IHq]; [reflexivity|]. cbn. cbn in IHq. lia.
  - assert (Ht := H t (or_introl eq_refl)). specialize (IH (fun t' Ht' => H t' (or_intror Ht'))). cbn [total]. rewrite <- IH.
    assert (G : forall q, NoDup q -> fold_right Z.add 0 (map (gload g (t :: l)) q) =
      (if in_dec Z.eq_dec (g (fst t)) q then snd t else 0) + fold_right Z.add 0 (map (gload g l) q)).
    { induction q as [|a q IHq]; intros NDq; [reflexivity|]. inversion_clear NDq as [|? ? Na NDq']. cbn [map fold_right].
      rewrite (IHq NDq'). unfold gload at 1. cbn [filter].
      destruct (Z.eqb_spec (g (fst t)) a) as [Ea|Ea].
      - cbn [total]. fold (gload g l a). subst a. destruct (in_dec Z.eq_dec (g (fst t)) q); [contradiction|].
        destruct (in_dec Z.eq_dec (g (fst t)) (g (fst t) :: q)) as [|N]; [lia|]. exfalso. apply N. left. reflexivity.
      - fold (gload g l a). destruct (in_dec Z.eq_dec (g (fst t)) q) as [I|I], (in_dec Z.eq_dec (g (fst t)) (a :: q)) as [I'|I'];
          try lia; exfalso.
        + apply I'. right. exact I.
        + destruct I' as [I'|I']; [congruence|contradiction]. }
    rewrite G by apply nodup_zseq. destruct (in_dec Z.eq_dec (g (fst t)) (zseq 0 m)) as [|N]; [reflexivity|].
    exfalso. apply N. apply in_zseq. lia.
Qed.

Lemma sum_bound : forall (h : Z -> Z) q B, (forall a, In a q -> h a <= B) -> fold_right Z.add 0 (map h q) <= zlen q * B.
Proof.
  intros h q B H. induction q as [|a q IH]; [cbn; lia|]. cbn [map fold_right].
  pose proof (H a (or_introl eq_refl)). specialize (IH (fun x Hx => H x (or_intror Hx))).
  unfold zlen in *. cbn [length]. nia.
Qed.

Lemma some_agent_loaded : forall g l m, 0 < m -> 0 < total l -> (forall t, In t l -> 0 <= snd t) ->
  (forall t, In t l -> 0 <= g (fst t) < m) -> exists b, 0 <= b < m /\ lower l m <= gload g l b.
Proof.
  intros g l m Hm Ht Hs Hg. unfold lower. rewrite tsum_total.
  destruct (lower_ceil (total l) m Hm) as [_ LC]. specialize (LC Ht). set (q := (total l + m - 1) / m) in *.
  assert (A : exists b, 0 <= b < m /\ q <= gload g l b).
  { destruct (existsb (fun b => q <=? gload g l b) (zseq 0 m)) eqn:E.
    - apply existsb_exists in E. destruct E as [b [Hb E]]. apply in_zseq in Hb. apply Z.leb_le in E. exists b. split; [lia|exact E].
    - exfalso. pose proof (sum_bound (gload g l) (zseq 0 m) (q - 1)) as SB. rewrite gload_sum in SB by (try lia; exact Hg).
      assert (ZL : zlen (zseq 0 m) = m) by (unfold zlen; rewrite zseq_length; lia). rewrite ZL in SB.
      specialize (SB ltac:(intros a Ha; destruct (Z.le_gt_cases q (gload g l a)) as [C|C]; [|lia];
        exfalso; assert (X : existsb (fun b => q <=? gload g l b) (zseq 0 m) = true)
          by (apply existsb_exists; exists a; split; [exact Ha|apply Z.leb_le; exact C]); congruence)). lia. }
  destruct (tmax_spec l) as [_ [M0 MX]]. destruct (Z.le_gt_cases (tmax l) q) as [C|C].
  - destruct A as [b [Hb Eb]]. exists b. split; [exact Hb|]. lia.
  - destruct MX as [MX|[t [Hi Et]]].
    + destruct A as [b [Hb Eb]]. exists b. split; [exact Hb|].
      assert (0 <= gload g l b).
      { unfold gload. apply total_nonneg. intros t Hi. apply filter_In in Hi. apply Hs. apply Hi. }
      lia.
    + exists (g (fst t)). split; [apply Hg; exact Hi|]. rewrite Z.max_r by lia. rewrite <- Et.
      unfold gload. apply total_in.
      * intros t' Hi'. apply filter_In in Hi'. apply Hs. apply Hi'.
      * apply filter_In. split; [exact Hi|apply Z.eqb_refl].
Qed.

Lemma lower_perm : forall l1 l2 m, Permutation l1 l2 -> (forall t, In t l1 -> 0 <= snd t) -> lower l1 m = lower l2 m.
Proof.
  intros l1 l2 m Pm Hs. unfold lower. rewrite !tsum_total, (total_perm _ _ Pm). f_equal.
  destruct (tmax_spec l1) as [A1 [B1 D1]], (tmax_spec l2) as [A2 [B2 D2]].
  assert (tmax l1 <= tmax l2) by (destruct D1 as [->|[t [Hi <-]]]; [lia|apply A2; eapply Permutation_in; eauto]).
  assert (tmax l2 <= tmax l1) by (destruct D2 as [->|[t [Hi <-]]]; [lia|apply A1; eapply Permutation_in; [apply Permutation_sym|]; eauto]).
  lia.
Qed.

Theorem huang_lu_ok : forall l m, 0 < m -> NoDup (keys l) -> (forall t, In t l -> 0 <= snd t) -> 0 < total l ->
  exists f thr, huang_lu l m = Some f /\ good l m f thr /\ thr < 2 * lower l m.
Proof.
  intros l m Hm ND Hs Ht. unfold huang_lu. destruct (Z.eqb_spec m 0) as [|_]; [lia|].
  pose proof (tsort_perm l) as Pm. set (ts := tsort l) in *. cbv zeta.
  assert (Hs' : forall t, In t ts -> 0 <= snd t) by (intros t Hi; apply Hs; eapply Permutation_in; eauto).
  rewrite (lower_perm ts l m Pm Hs').
  destruct (lower_ceil (total l) m Hm) as [LC1 LC2]. specialize (LC2 Ht).
  destruct (tmax_spec l) as [MA [MB _]].
  assert (LB : (total l + m - 1) / m <= lower l m /\ tmax l <= lower l m).
  { unfold lower. rewrite tsum_total. lia. }
  assert (LP : 0 < lower l m) by nia. set (L := lower l m) in *. clearbody L.
  destruct (search_ok ts m L Hm LP) with (fuel := S (Z.to_nat L)) (left := L) (right := 2 * L) (best := aempty) (asg := aempty)
    as [f [thr [E [TL G]]]]; try lia.
  - apply (Permutation_NoDup (keys_perm _ _ (Permutation_sym Pm)) ND).
  - intros t Hi. split; [apply Hs'; exact Hi|]. pose proof (MA t (Permutation_in _ Pm Hi)). lia.
  - rewrite (total_perm _ _ Pm). nia.
  - intros k _. reflexivity.
  - exists f, thr. split; [exact E|]. split; [|exact TL]. destruct G as [A [B D]]. split; [|split].
    + intros t Hi. apply A. eapply Permutation_in; [apply Permutation_sym; exact Pm|exact Hi].
    + intros a. rewrite <- (load_perm f ts l a Pm). apply B.
    + intros k Hk. apply D. intros K. apply Hk. eapply Permutation_in; [apply keys_perm; exact Pm|exact K].
Qed.
