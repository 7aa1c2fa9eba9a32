(** Lemmas about the circuit and assignment proxies. *)
From Coq Require Import ZArith List Lia Bool Arith.
From Verif Require Import Base Field Plonk AssignModel AssignProofs BuilderModel BuilderProofs ProxyModel.
Import ListNotations.
Open Scope Z_scope.

Lemma in_sadd : forall x l y, In y (sadd x l) <-> y = x \/ In y l.
Proof.
  induction l as [|z l IH]; intros y; cbn [sadd].
  - cbn. intuition.
  - destruct (x <? z)%nat; [cbn; intuition|]. destruct (x =? z)%nat eqn:E.
    + apply Nat.eqb_eq in E. subst z. cbn. intuition.
    + cbn. rewrite IH. intuition.
Qed.

Lemma sel_index_found : forall A (gs : list (nat * A)) n, In n (map fst gs) ->
  exists g, nth_error gs (sel_index gs n) = Some g /\ fst g = n.
Proof.
  induction gs as [|g gs IH]; intros n H; [destruct H|]. cbn [sel_index].
  destruct (fst g =? n)%nat eqn:E; [apply Nat.eqb_eq in E; exists g; auto|].
  destruct H as [H|H]; [apply Nat.eqb_neq in E; congruence|]. exact (IH n H).
Qed.
Lemma nodup_nth : forall A (gs : list (nat * A)) i j g h, NoDup (map fst gs) ->
  nth_error gs i = Some g -> nth_error gs j = Some h -> fst g = fst h -> i = j.
Proof.
  intros A gs i j g h N Hi Hj E. rewrite NoDup_nth_error in N. apply N.
  - rewrite map_length. apply nth_error_Some. congruence.
  - rewrite (map_nth_error fst _ _ Hi), (map_nth_error fst _ _ Hj). congruence.
Qed.
Lemma nth_app_l : forall A (l m : list A) k x, nth_error l k = Some x -> nth_error (l ++ m) k = Some x.
Proof. intros A l m k x H. rewrite nth_error_app1; [exact H|]. apply nth_error_Some. congruence. Qed.

(** Marks of gates, when gates [l] are added. *)
Lemma keep_iff : forall A (gs l : list (nat * A)) (old : list nat) (R : nat -> Prop),
  NoDup (map fst (gs ++ l)) ->
  (forall k, In k old <-> exists g, nth_error gs k = Some g /\ R (fst g)) -> (forall m, R m -> In m (map fst gs)) ->
  forall k, In k old <-> exists g, nth_error (gs ++ l) k = Some g /\ R (fst g).
Proof.
  intros A gs l old R N H HR k. rewrite H. split; intros [g [Hn Hg]].
  - exists g. split; [apply nth_app_l; exact Hn|exact Hg].
  - destruct (sel_index_found _ gs (fst g) (HR _ Hg)) as [g' [Hg' E]].
    assert (K : k = sel_index gs (fst g)).
    { eapply nodup_nth; [exact N|exact Hn|apply nth_app_l; exact Hg'|congruence]. }
    exists g'. rewrite K. split; [exact Hg'|congruence].
Qed.
Lemma mark_iff : forall A (gs l : list (nat * A)) n (old : list nat) (R : nat -> Prop),
  NoDup (map fst (gs ++ l)) -> In n (map fst (gs ++ l)) ->
  (forall k, In k old <-> exists g, nth_error gs k = Some g /\ R (fst g)) -> (forall m, R m -> In m (map fst gs)) ->
  forall k, In k (sadd (sel_index (gs ++ l) n) old) <-> exists g, nth_error (gs ++ l) k = Some g /\ (R (fst g) \/ fst g = n).
Proof.
  intros A gs l n old R N Hn H HR k. rewrite in_sadd. rewrite (keep_iff _ gs l old R N H HR k).
  destruct (sel_index_found _ _ n Hn) as [g0 [Hg0 E0]]. split.
  - intros [->|[g [A1 A2]]]; [exists g0; auto|exists g; auto].
  - intros [g [A1 [A2|A2]]]; [right; exists g; auto|]. left.
    eapply nodup_nth; [exact N|exact A1|exact Hg0|congruence].
Qed.

Section Proofs.
Context {P : params}.
Notation F := (F P).

(** Calls that reach the shared objects. *)
Definition forwarded (o : bcall P) : bool :=
  match o with
  | BGateOn _ _ | BLookupOn _ _ | BDynamic => false
  | BA (ABatchPrivate _ _) | BA (AAddBatch _) | BA (AAddBatchConst _) => false
  | _ => true
  end.
Definition gate_req (o : bcall P) : bool := match o with BGate _ | BGate1 _ => true | _ => false end.
Definition lookup_req (o : bcall P) : bool := match o with BLookup _ | BLookup1 _ => true | _ => false end.
(** Rows a call writes through the proxy, and selector rows. *)
Definition writes_row (o : bcall P) (r : nat) : Prop :=
  (exists c v, o = BA (AWitness c r v) \/ o = BA (AConstant c r v) \/ o = BA (ASelector c r v)) \/ exists c, o = BA (AEnable c r).
Definition writes_sel (o : bcall P) (r : nat) : Prop := (exists c v, o = BA (ASelector c r v)) \/ exists c, o = BA (AEnable c r).

(** What reaches the shared objects, and what stays with proxy [i]. *)
Definition fwd (h : list (nat * bcall P)) : list (bcall P) := map snd (filter (fun x => forwarded (snd x)) h).
Definition own (i : nat) (h : list (nat * bcall P)) : list (bcall P) :=
  map snd (filter (fun x => (fst x =? i)%nat && negb (forwarded (snd x))) h).
Definition res3 (x : nat * bcall P * option nat) : bcall P * option nat := (snd (fst x), snd x).
Definition fwdr (rs : list (nat * bcall P * option nat)) := map res3 (filter (fun x => forwarded (snd (fst x))) rs).
Definition ownr (i : nat) (rs : list (nat * bcall P * option nat)) :=
  map res3 (filter (fun x => (fst (fst x) =? i)%nat && negb (forwarded (snd (fst x)))) rs).

(** The marks a forwarded call leaves. *)
Definition marked (c : cstate P) (p : proxy P) (o : bcall P) (r : option nat) : proxy P :=
  match o, r with
  | BGate _, Some n | BGate1 _, Some n => mark_gate p (sel_index (c_gates c) n)
  | BLookup _, Some n | BLookup1 _, Some n => mark_lgate p (sel_index (c_lgates c) n)
  | BCopy _ _, _ => mark_copy p (length (c_copies c))
  | BA a, _ => mark_rows p a
  | _, _ => p
  end.
Lemma xstep_cases : forall vs c s ps i o c' s' ps' r, xstep vs ((c, s), ps) i o = Some (((c', s'), ps'), r) ->
  (forwarded o = true /\ bstep vs (c, s) o = Some ((c', s'), r) /\ ps' = set_x ps i (marked c' (ps i) o r)) \/
  (forwarded o = false /\ c' = c /\ s' = s /\ exists c1 s1, bstep vs (x_c (ps i), x_a (ps i)) o = Some ((c1, s1), r) /\
     ps' = set_x ps i (mkX (x_gates (ps i)) (x_lgates (ps i)) (x_copies (ps i)) (x_rows (ps i)) (x_srows (ps i)) c1 s1)).
Proof.
  intros vs c s ps i o c' s' ps' r H. unfold xstep in H.
  destruct o as [cs|e|sel cs|cs|e|sel cs| |a b|a]; try (left; split; [reflexivity|]); try (right; split; [reflexivity|]).
  - destruct (bstep vs (c, s) (BGate cs)) as [[[c2 s2] [n|]]|]; try discriminate. injection H as <- <- <- <-. auto.
  - destruct (bstep vs (c, s) (BGate1 e)) as [[[c2 s2] [n|]]|]; try discriminate. injection H as <- <- <- <-. auto.
  - cbn in H. injection H as <- <- <- <-. repeat split. eexists; eexists; split; reflexivity.
  - destruct (bstep vs (c, s) (BLookup cs)) as [[[c2 s2] [n|]]|]; try discriminate. injection H as <- <- <- <-. auto.
  - destruct (bstep vs (c, s) (BLookup1 e)) as [[[c2 s2] [n|]]|]; try discriminate. injection H as <- <- <- <-. auto.
  - cbn in H. injection H as <- <- <- <-. repeat split. eexists; eexists; split; reflexivity.
  - cbn in H. injection H as <- <- <- <-. repeat split. eexists; eexists; split; reflexivity.
  - destruct (bstep vs (c, s) (BCopy a b)) as [[[c2 s2] n]|]; try discriminate. injection H as <- <- <- <-. auto.
  - destruct a; (try (left; split; [reflexivity|];
       match type of H with context [bstep ?x ?y ?z] => destruct (bstep x y z) as [[[c2 s2] n0]|] eqn:EE end;
         [|discriminate]; injection H as <- <- <- <-; split; [reflexivity|]; reflexivity)).
    all: right; split; [reflexivity|].
    all: match type of H with context [bstep ?x (x_c ?p, ?y) ?z] => destruct (bstep x (x_c p, y) z) as [[[c2 s2] n0]|] eqn:EE end; [|discriminate].
    all: injection H as <- <- <- <-; split; [reflexivity|]; split; [reflexivity|]; exists c2, s2; split; [reflexivity|].
    all: assert (c2 = x_c (ps i)) as -> by (unfold bstep in EE; match type of EE with context [astep ?x ?y] => destruct (astep x y) end; [|discriminate]; injection EE; congruence); reflexivity.
Qed.

Lemma set_x_same : forall (ps : nat -> proxy P) i p, set_x ps i p i = p.
Proof. intros. unfold set_x. rewrite Nat.eqb_refl. reflexivity. Qed.
Lemma set_x_other : forall (ps : nat -> proxy P) i j p, j <> i -> set_x ps i p j = ps j.
Proof. intros ps i j p H. unfold set_x. apply Nat.eqb_neq in H. rewrite H. reflexivity. Qed.

Lemma marked_own : forall c p o r, x_c (marked c p o r) = x_c p /\ x_a (marked c p o r) = x_a p.
Proof.
  intros c p o r. destruct o; destruct r; cbn; auto; unfold mark_copy; try (destruct (0 <? length (c_copies c))%nat; auto).
  all: destruct o; cbn; auto.
Qed.

(** Every run is a run on the shared objects and one on each proxy's own. *)
Lemma xruns_split : forall vs h c s ps c' s' ps' rs, xruns vs ((c, s), ps) h = Some (((c', s'), ps'), rs) ->
  bruns vs (c, s) (fwd h) = Some ((c', s'), fwdr rs) /\
  (forall i, bruns vs (x_c (ps i), x_a (ps i)) (own i h) = Some ((x_c (ps' i), x_a (ps' i)), ownr i rs)) /\
  map fst rs = h.
Proof.
  induction h as [|[i o] h IH]; intros c s ps c' s' ps' rs H; cbn [xruns] in H.
  - injection H as <- <- <- <-. auto.
  - destruct (xstep vs ((c, s), ps) i o) as [[[[c1 s1] ps1] r]|] eqn:E; [|discriminate].
    match type of H with context [xruns ?a ?b ?c] => destruct (xruns a b c) as [[[[c2 s2] ps2] rs2]|] eqn:E2 end; [|discriminate].
    injection H as <- <- <- <-. destruct (IH _ _ _ _ _ _ _ E2) as [A [B C]].
    destruct (xstep_cases _ _ _ _ _ _ _ _ _ _ E) as [[Fo [S Ps]]|[Fo [-> [-> [c3 [s3 [S Ps]]]]]]].
    + split; [|split].
      * unfold fwd, fwdr. cbn [filter snd fst]. rewrite Fo. cbn [map bruns]. cbn [snd]. rewrite S. fold (fwd h). rewrite A. reflexivity.
      * intros j. unfold own, ownr. cbn [filter snd fst]. rewrite Fo, andb_false_r. fold (own j h). fold (ownr j rs2).
        rewrite <- (B j), Ps. destruct (Nat.eq_dec j i) as [->|N]; [|rewrite set_x_other by exact N; reflexivity].
        rewrite set_x_same. destruct (marked_own c1 (ps i) o r) as [-> ->]. reflexivity.
      * cbn. f_equal. exact C.
    + split; [|split].
      * unfold fwd, fwdr. cbn [filter snd fst]. rewrite Fo. exact A.
      * intros j. unfold own, ownr. cbn [filter snd fst]. rewrite Fo. cbn [negb]. rewrite andb_true_r. rewrite (Nat.eqb_sym i j).
        specialize (B j). rewrite Ps in B. destruct (Nat.eq_dec j i) as [->|N].
        -- rewrite Nat.eqb_refl. rewrite set_x_same in B. cbn [x_c x_a] in B. cbn [map bruns snd]. rewrite S. fold (own i h). rewrite B. reflexivity.
        -- rewrite set_x_other in B by exact N. destruct (j =? i)%nat eqn:X; [apply Nat.eqb_eq in X; congruence|]. exact B.
      * cbn. f_equal. exact C.
Qed.

(** ** The marks *)
Record wfc (c : cstate P) : Prop := {
  w_lt : forall n, In n (map fst (c_gates c) ++ map fst (c_lgates c)) -> (n < c_next c)%nat;
  w_nd : NoDup (map fst (c_gates c) ++ map fst (c_lgates c));
  w_gm : forall g n, In (g, n) (c_gmap c) -> In n (map fst (c_gates c));
  w_lm : forall g n, In (g, n) (c_lmap c) -> In n (map fst (c_lgates c))
}.
Lemma nodup_l : forall A (a b : list A), NoDup (a ++ b) -> NoDup a.
Proof.
  induction a as [|x a IH]; intros b H; [constructor|]. inversion H as [|? ? X Y]; subst. constructor; [|eapply IH; exact Y].
  intros I. apply X. apply in_or_app. auto.
Qed.
Lemma nodup_r : forall A (a b : list A), NoDup (a ++ b) -> NoDup b.
Proof. induction a as [|x a IH]; intros b H; [exact H|]. inversion H; subst. apply IH. assumption. Qed.
Lemma nodup_mid : forall A (a b : list A) x, NoDup (a ++ b) -> ~ In x (a ++ b) -> NoDup ((a ++ [x]) ++ b).
Proof. intros A a b x N X. rewrite <- app_assoc. cbn. eapply Permutation.Permutation_NoDup; [apply Permutation.Permutation_middle|]. constructor; assumption. Qed.
Lemma nodup_end : forall A (a b : list A) x, NoDup (a ++ b) -> ~ In x (a ++ b) -> NoDup (a ++ (b ++ [x])).
Proof.
  intros A a b x N X. rewrite app_assoc. eapply Permutation.Permutation_NoDup; [apply Permutation.Permutation_cons_append|]. constructor; assumption.
Qed.
Lemma add_gate_wf : forall c g cs c' n, wfc c -> add_gate c g cs = (c', n) ->
  wfc c' /\ (exists l, c_gates c' = c_gates c ++ l) /\ c_lgates c' = c_lgates c /\ c_copies c' = c_copies c /\ In n (map fst (c_gates c')).
Proof.
  intros c g cs c' n W H. pose proof W as [W1 W2 W3 W4]. unfold add_gate in H. destruct (find_gid (c_gmap c) g) as [m|] eqn:E.
  - injection H as <- <-. split; [exact W|]. split; [exists []; rewrite app_nil_r; reflexivity|]. split; [reflexivity|]. split; [reflexivity|].
    apply find_gid_some in E. exact (W3 _ _ E).
  - injection H as <- <-. cbn. split; [|split; [eexists; reflexivity|]].
    + assert (X : ~ In (c_next c) (map fst (c_gates c) ++ map fst (c_lgates c))) by (intros X; apply W1 in X; lia).
      constructor; cbn.
      * intros n. rewrite map_app, !in_app_iff. cbn. intros [[A|[A|[]]]|A]; [|lia|]; enough (n < c_next c)%nat by lia; apply W1; rewrite in_app_iff; auto.
      * rewrite map_app. cbn. apply nodup_mid; assumption.
      * intros g0 n [A|A]; rewrite map_app, in_app_iff; [injection A as _ <-; right; left; reflexivity|left; eauto].
      * exact W4.
    + rewrite map_app, in_app_iff. cbn. auto.
Qed.
Lemma add_lookup_wf : forall c g cs c' n, wfc c -> add_lookup c g cs = (c', n) ->
  wfc c' /\ (exists l, c_lgates c' = c_lgates c ++ l) /\ c_gates c' = c_gates c /\ c_copies c' = c_copies c /\ In n (map fst (c_lgates c')).
Proof.
  intros c g cs c' n W H. pose proof W as [W1 W2 W3 W4]. unfold add_lookup in H. destruct (find_gid (c_lmap c) g) as [m|] eqn:E.
  - injection H as <- <-. split; [exact W|]. split; [exists []; rewrite app_nil_r; reflexivity|]. split; [reflexivity|]. split; [reflexivity|].
    apply find_gid_some in E. exact (W4 _ _ E).
  - injection H as <- <-. cbn. split; [|split; [eexists; reflexivity|]].
    + assert (X : ~ In (c_next c) (map fst (c_gates c) ++ map fst (c_lgates c))) by (intros X; apply W1 in X; lia).
      constructor; cbn.
      * intros n. rewrite map_app, !in_app_iff. cbn. intros [A|[A|[A|[]]]]; [| |lia]; enough (n < c_next c)%nat by lia; apply W1; rewrite in_app_iff; auto.
      * rewrite map_app. cbn. apply nodup_end; assumption.
      * exact W3.
      * intros g0 n [A|A]; rewrite map_app, in_app_iff; [injection A as _ <-; right; left; reflexivity|left; eauto].
    + rewrite map_app, in_app_iff. cbn. auto.
Qed.

Definition got (rs : list (nat * bcall P * option nat)) (req : bcall P -> bool) (i n : nat) : Prop :=
  exists o, In (i, o, Some n) rs /\ req o = true.
Record xinv (c : cstate P) (ps : nat -> proxy P) (rs : list (nat * bcall P * option nat)) : Prop := {
  v_wf : wfc c;
  v_gr : forall i n, got rs gate_req i n -> In n (map fst (c_gates c));
  v_lr : forall i n, got rs lookup_req i n -> In n (map fst (c_lgates c));
  v_g : forall i k, In k (x_gates (ps i)) <-> exists g, nth_error (c_gates c) k = Some g /\ got rs gate_req i (fst g);
  v_l : forall i k, In k (x_lgates (ps i)) <-> exists g, nth_error (c_lgates c) k = Some g /\ got rs lookup_req i (fst g);
  v_c1 : forall i k, In k (x_copies (ps i)) -> (k < length (c_copies c))%nat;
  v_c2 : forall k a b, nth_error (c_copies c) k = Some (a, b) -> exists i, In (i, BCopy a b, None) rs /\ In k (x_copies (ps i));
  v_c3 : forall i a b, In (i, BCopy a b, None) rs -> a <> b -> is_private a = false -> is_private b = false ->
    exists k, In k (x_copies (ps i)) /\ nth_error (c_copies c) k = Some (a, b);
  v_r : forall i r, In r (x_rows (ps i)) <-> exists o x, In (i, o, x) rs /\ writes_row o r;
  v_s : forall i r, In r (x_srows (ps i)) <-> exists o x, In (i, o, x) rs /\ writes_sel o r
}.

Lemma got_snoc : forall rs req i o r j n, got (rs ++ [(i, o, r)]) req j n <-> got rs req j n \/ (j = i /\ r = Some n /\ req o = true).
Proof.
  intros rs req i o r j n. unfold got. split.
  - intros [o' [H R]]. apply in_app_or in H. destruct H as [H|[H|[]]]; [left; eauto|]. injection H as -> -> ->. auto.
  - intros [[o' [H R]]|[-> [-> R]]]; [exists o'|exists o]; (split; [|assumption]); apply in_or_app; cbn; auto.
Qed.
Lemma rows_snoc : forall (rs : list (nat * bcall P * option nat)) i o r j (Q : bcall P -> Prop),
  (exists o' x, In (j, o', x) (rs ++ [(i, o, r)]) /\ Q o') <-> (exists o' x, In (j, o', x) rs /\ Q o') \/ (j = i /\ Q o).
Proof.
  intros rs i o r j Q. split.
  - intros [o' [x [H R]]]. apply in_app_or in H. destruct H as [H|[H|[]]]; [left; eauto|]. injection H as -> -> ->. auto.
  - intros [[o' [x [H R]]]|[-> R]]; [exists o', x|exists o, r]; (split; [|assumption]); apply in_or_app; cbn; auto.
Qed.

Lemma xinv_gen : forall c ps rs c' i o r p' lg ll, xinv c ps rs -> wfc c' ->
  c_gates c' = c_gates c ++ lg -> c_lgates c' = c_lgates c ++ ll ->
  (gate_req o = true /\ (exists n, r = Some n /\ In n (map fst (c_gates c')) /\ x_gates p' = sadd (sel_index (c_gates c') n) (x_gates (ps i))) \/
   gate_req o = false /\ x_gates p' = x_gates (ps i)) ->
  (lookup_req o = true /\ (exists n, r = Some n /\ In n (map fst (c_lgates c')) /\ x_lgates p' = sadd (sel_index (c_lgates c') n) (x_lgates (ps i))) \/
   lookup_req o = false /\ x_lgates p' = x_lgates (ps i)) ->
  ((forall a b, o <> BCopy a b) /\ c_copies c' = c_copies c /\ x_copies p' = x_copies (ps i) \/
   exists a b, o = BCopy a b /\ r = None /\ c_copies c' = c_copies (add_copy c a b) /\
     x_copies p' = x_copies (mark_copy (ps i) (length (c_copies c')))) ->
  (forall k, In k (x_rows p') <-> In k (x_rows (ps i)) \/ writes_row o k) ->
  (forall k, In k (x_srows p') <-> In k (x_srows (ps i)) \/ writes_sel o k) ->
  xinv c' (set_x ps i p') (rs ++ [(i, o, r)]).
Proof.
  intros c ps rs c' i o r p' lg ll [W GR LR G L C1 C2 C3 R S] W' Eg El HG HL HC HR HS.
  assert (NDg : NoDup (map fst (c_gates c'))) by (eapply nodup_l; exact (w_nd _ W')).
  assert (NDl : NoDup (map fst (c_lgates c'))) by (eapply nodup_r; exact (w_nd _ W')).
  constructor.
  - exact W'.
  - intros j n. rewrite got_snoc. intros [A|[-> [-> A]]].
    + rewrite Eg, map_app, in_app_iff. left. eauto.
    + destruct HG as [[_ [m [E [I _]]]]|[E _]]; [injection E as <-; exact I|congruence].
  - intros j n. rewrite got_snoc. intros [A|[-> [-> A]]].
    + rewrite El, map_app, in_app_iff. left. eauto.
    + destruct HL as [[_ [m [E [I _]]]]|[E _]]; [injection E as <-; exact I|congruence].
  - intros j k. rewrite Eg in *. destruct (Nat.eq_dec j i) as [->|N].
    + rewrite set_x_same. destruct HG as [[E [m [Er [I ->]]]]|[E ->]].
      * rewrite (mark_iff _ _ lg m _ (got rs gate_req i) NDg I (G i) (GR i) k).
        split; intros [g [A B]]; exists g; (split; [exact A|]); rewrite got_snoc in *.
        -- destruct B as [B|<-]; [left; exact B|right; auto].
        -- destruct B as [B|[_ [B _]]]; [left; exact B|]. right. rewrite Er in B. injection B as <-. reflexivity.
      * rewrite (keep_iff _ _ lg _ (got rs gate_req i) NDg (G i) (GR i) k).
        split; intros [g [A B]]; exists g; (split; [exact A|]); rewrite got_snoc in *; [auto|].
        destruct B as [B|[_ [_ B]]]; [exact B|congruence].
    + rewrite set_x_other by exact N. rewrite (keep_iff _ _ lg _ (got rs gate_req j) NDg (G j) (GR j) k).
      split; intros [g [A B]]; exists g; (split; [exact A|]); rewrite got_snoc in *; [auto|].
      destruct B as [B|[B _]]; [exact B|congruence].
  - intros j k. rewrite El in *. destruct (Nat.eq_dec j i) as [->|N].
    + rewrite set_x_same. destruct HL as [[E [m [Er [I ->]]]]|[E ->]].
      * rewrite (mark_iff _ _ ll m _ (got rs lookup_req i) NDl I (L i) (LR i) k).
        split; intros [g [A B]]; exists g; (split; [exact A|]); rewrite got_snoc in *.
        -- destruct B as [B|<-]; [left; exact B|right; auto].
        -- destruct B as [B|[_ [B _]]]; [left; exact B|]. right. rewrite Er in B. injection B as <-. reflexivity.
      * rewrite (keep_iff _ _ ll _ (got rs lookup_req i) NDl (L i) (LR i) k).
        split; intros [g [A B]]; exists g; (split; [exact A|]); rewrite got_snoc in *; [auto|].
        destruct B as [B|[_ [_ B]]]; [exact B|congruence].
    + rewrite set_x_other by exact N. rewrite (keep_iff _ _ ll _ (got rs lookup_req j) NDl (L j) (LR j) k).
      split; intros [g [A B]]; exists g; (split; [exact A|]); rewrite got_snoc in *; [auto|].
      destruct B as [B|[B _]]; [exact B|congruence].
  - (* copies are in range *)
    assert (Len : (length (c_copies c) <= length (c_copies c'))%nat).
    { destruct HC as [[_ [-> _]]|[a [b [_ [_ [-> _]]]]]]; [lia|]. unfold add_copy. destruct (var_eqb a b); [lia|].
      destruct (is_private a || is_private b); [lia|]. cbn. rewrite app_length. lia. }
    intros j k. destruct (Nat.eq_dec j i) as [->|N].
    + rewrite set_x_same. destruct HC as [[_ [_ ->]]|[a [b [_ [_ [_ ->]]]]]]; [intros H; apply C1 in H; lia|].
      unfold mark_copy. destruct (0 <? length (c_copies c'))%nat eqn:Z; [|intros H; apply C1 in H; lia].
      apply Nat.ltb_lt in Z. cbn. rewrite in_sadd. intros [->|H]; [lia|apply C1 in H; lia].
    + rewrite set_x_other by exact N. intros H. apply C1 in H. lia.
  - (* every copy is marked *)
    assert (Old : forall j k, In k (x_copies (ps j)) -> In k (x_copies (set_x ps i p' j))).
    { intros j k H. destruct (Nat.eq_dec j i) as [->|N]; [|rewrite set_x_other by exact N; exact H]. rewrite set_x_same.
      destruct HC as [[_ [_ ->]]|[a [b [_ [_ [_ ->]]]]]]; [exact H|]. unfold mark_copy. destruct (0 <? length (c_copies c'))%nat; [|exact H].
      cbn. apply in_sadd. auto. }
    intros k a b H.
    destruct HC as [[_ [E _]]|[a0 [b0 [-> [-> [E Ep]]]]]].
    + rewrite E in H. destruct (C2 k a b H) as [j [A B]]. exists j. split; [apply in_or_app; auto|apply Old; exact B].
    + assert (D : nth_error (c_copies c) k = Some (a, b) \/
                  (c_copies c' = c_copies c ++ [(a0, b0)] /\ k = length (c_copies c) /\ a = a0 /\ b = b0)).
      { rewrite E in H. unfold add_copy in H, E. destruct (var_eqb a0 b0); [auto|]. destruct (is_private a0 || is_private b0); [auto|].
        cbn in H, E. apply nth_error_snoc in H. destruct H as [[_ H]|[X Y]]; [auto|]. right. injection Y as <- <-. auto. }
      destruct D as [D|[Ec [-> [-> ->]]]].
      * destruct (C2 k a b D) as [j [A B]]. exists j. split; [apply in_or_app; auto|apply Old; exact B].
      * exists i. split; [apply in_or_app; cbn; auto|]. rewrite set_x_same, Ep. unfold mark_copy. rewrite Ec, app_length. cbn [length].
        replace (0 <? length (c_copies c) + 1)%nat with true by (symmetry; apply Nat.ltb_lt; lia).
        cbn. apply in_sadd. left. lia.
  - (* a copy is marked by the proxy that asked for it *)
    assert (Grow : forall k x, nth_error (c_copies c) k = Some x -> nth_error (c_copies c') k = Some x).
    { intros k x H. destruct HC as [[_ [-> _]]|[a [b [_ [_ [-> _]]]]]]; [exact H|]. unfold add_copy. destruct (var_eqb a b); [exact H|].
      destruct (is_private a || is_private b); [exact H|]. cbn. apply nth_app_l. exact H. }
    intros j a b H Nab Pa Pb. apply in_app_or in H. destruct H as [H|[H|[]]].
    + destruct (C3 j a b H Nab Pa Pb) as [k [A B]]. exists k. split; [|apply Grow; exact B].
      destruct (Nat.eq_dec j i) as [->|N]; [|rewrite set_x_other by exact N; exact A]. rewrite set_x_same.
      destruct HC as [[_ [_ ->]]|[a0 [b0 [_ [_ [_ ->]]]]]]; [exact A|]. unfold mark_copy. destruct (0 <? length (c_copies c'))%nat; [|exact A].
      cbn. apply in_sadd. auto.
    + injection H as <- -> ->. rewrite set_x_same.
      destruct HC as [[X _]|[a0 [b0 [X [_ [E Ep]]]]]]; [exfalso; eapply X; reflexivity|]. injection X as <- <-.
      unfold add_copy in E. destruct (var_eqb a b) eqn:V; [apply var_eqb_eq in V; congruence|]. rewrite Pa, Pb in E. cbn in E.
      exists (length (c_copies c)). rewrite Ep, E. unfold mark_copy. rewrite app_length. cbn [length].
      replace (0 <? length (c_copies c) + 1)%nat with true by (symmetry; apply Nat.ltb_lt; lia). cbn. split; [apply in_sadd; left; lia|].
      rewrite nth_error_app2 by lia. rewrite Nat.sub_diag. reflexivity.
  - intros j k. rewrite (rows_snoc rs i o r j (fun o => writes_row o k)). destruct (Nat.eq_dec j i) as [->|N].
    + rewrite set_x_same, HR, R. intuition.
    + rewrite set_x_other by exact N. rewrite R. intuition.
  - intros j k. rewrite (rows_snoc rs i o r j (fun o => writes_sel o k)). destruct (Nat.eq_dec j i) as [->|N].
    + rewrite set_x_same, HS, S. intuition.
    + rewrite set_x_other by exact N. rewrite S. intuition.
Qed.

Lemma no_row : forall (o : bcall P) l k, (forall c r v, o <> BA (AWitness c r v) /\ o <> BA (AConstant c r v) /\ o <> BA (ASelector c r v) /\ o <> BA (AEnable c r)) ->
  (In k l <-> In k l \/ writes_row o k) /\ (In k l <-> In k l \/ writes_sel o k).
Proof.
  intros o l k H. split; (split; [auto|]); intros [A|A]; try exact A; exfalso; destruct A as [[c [v A]]|[c A]];
    try (destruct (H c k f0) as [_ [_ [_ X]]]; contradiction); destruct (H c k v) as [X1 [X2 [X3 _]]]; intuition.
Qed.

Lemma xstep_inv : forall vs c s ps i o c' s' ps' r rs, xinv c ps rs ->
  xstep vs ((c, s), ps) i o = Some (((c', s'), ps'), r) -> xinv c' ps' (rs ++ [(i, o, r)]).
Proof.
  intros vs c s ps i o c' s' ps' r rs I H. pose proof (v_wf _ _ _ I) as W.
  destruct (xstep_cases _ _ _ _ _ _ _ _ _ _ H) as [[Fo [S ->]]|[Fo [-> [-> [c1 [s1 [S ->]]]]]]].
  - destruct o as [cs|e|sel cs|cs|e|sel cs| |a b|a]; try discriminate Fo; cbn [bstep] in S.
    + destruct (add_gate c (gate_gid vs cs) cs) as [c2 n] eqn:E. injection S as <- <- <-.
      destruct (add_gate_wf _ _ _ _ _ W E) as [W' [[l Eg] [El [Ec Hn]]]].
      eapply (xinv_gen c ps rs c2 i _ _ _ l []); [exact I|exact W'|exact Eg|rewrite app_nil_r; exact El| | | | |].
      * left. split; [reflexivity|]. exists n. auto.
      * right. auto.
      * left. split; [discriminate|]. auto.
      * intros k. apply no_row. intros. repeat split; discriminate.
      * intros k. apply no_row. intros. repeat split; discriminate.
    + destruct (add_gate c (gate_gid1 vs e) [e]) as [c2 n] eqn:E. injection S as <- <- <-.
      destruct (add_gate_wf _ _ _ _ _ W E) as [W' [[l Eg] [El [Ec Hn]]]].
      eapply (xinv_gen c ps rs c2 i _ _ _ l []); [exact I|exact W'|exact Eg|rewrite app_nil_r; exact El| | | | |].
      * left. split; [reflexivity|]. exists n. auto.
      * right. auto.
      * left. split; [discriminate|]. auto.
      * intros k. apply no_row. intros. repeat split; discriminate.
      * intros k. apply no_row. intros. repeat split; discriminate.
    + destruct (add_lookup c (lookup_gid vs cs) cs) as [c2 n] eqn:E. injection S as <- <- <-.
      destruct (add_lookup_wf _ _ _ _ _ W E) as [W' [[l Eg] [El [Ec Hn]]]].
      eapply (xinv_gen c ps rs c2 i _ _ _ [] l); [exact I|exact W'|rewrite app_nil_r; exact El|exact Eg| | | | |].
      * right. auto.
      * left. split; [reflexivity|]. exists n. auto.
      * left. split; [discriminate|]. auto.
      * intros k. apply no_row. intros. repeat split; discriminate.
      * intros k. apply no_row. intros. repeat split; discriminate.
    + destruct (add_lookup c (lookup_gid1 vs e) [e]) as [c2 n] eqn:E. injection S as <- <- <-.
      destruct (add_lookup_wf _ _ _ _ _ W E) as [W' [[l Eg] [El [Ec Hn]]]].
      eapply (xinv_gen c ps rs c2 i _ _ _ [] l); [exact I|exact W'|rewrite app_nil_r; exact El|exact Eg| | | | |].
      * right. auto.
      * left. split; [reflexivity|]. exists n. auto.
      * left. split; [discriminate|]. auto.
      * intros k. apply no_row. intros. repeat split; discriminate.
      * intros k. apply no_row. intros. repeat split; discriminate.
    + injection S as <- <- <-.
      assert (X : wfc (add_copy c a b) /\ c_gates (add_copy c a b) = c_gates c /\ c_lgates (add_copy c a b) = c_lgates c).
      { unfold add_copy. destruct (var_eqb a b); [auto|]. destruct (is_private a || is_private b); [auto|].
        destruct W as [W1 W2 W3 W4]. split; [|split; reflexivity]. constructor; assumption. }
      destruct X as [W' [Eg El]].
      eapply (xinv_gen c ps rs _ i _ _ _ [] []); [exact I|exact W'|rewrite app_nil_r; exact Eg|rewrite app_nil_r; exact El| | | | |].
      * right. split; [reflexivity|]. cbn [marked]. unfold mark_copy. destruct (0 <? length (c_copies (add_copy c a b)))%nat; reflexivity.
      * right. split; [reflexivity|]. cbn [marked]. unfold mark_copy. destruct (0 <? length (c_copies (add_copy c a b)))%nat; reflexivity.
      * right. exists a, b. auto.
      * intros k. cbn [marked].
        replace (x_rows (mark_copy (ps i) (length (c_copies (add_copy c a b))))) with (x_rows (ps i)) by (unfold mark_copy; destruct (0 <? length (c_copies (add_copy c a b)))%nat; reflexivity).
        apply no_row. intros. repeat split; discriminate.
      * intros k. cbn [marked].
        replace (x_srows (mark_copy (ps i) (length (c_copies (add_copy c a b))))) with (x_srows (ps i)) by (unfold mark_copy; destruct (0 <? length (c_copies (add_copy c a b)))%nat; reflexivity).
        apply no_row. intros. repeat split; discriminate.
    + destruct (astep s a) as [s2|]; [|discriminate]. injection S as <- <- <-. cbn [marked].
      eapply (xinv_gen c ps rs c i _ _ _ [] []); [exact I|exact W|rewrite app_nil_r; reflexivity|rewrite app_nil_r; reflexivity| | | | |].
      * right. split; [reflexivity|]. destruct a; reflexivity.
      * right. split; [reflexivity|]. destruct a; reflexivity.
      * left. split; [discriminate|]. split; [reflexivity|]. destruct a; reflexivity.
      * intros k. destruct a; cbn [mark_rows x_rows]; try (apply no_row; intros; repeat split; discriminate); rewrite in_sadd; unfold writes_row; split.
        all: try (intros [->|A]; [right; (left; do 2 eexists; eauto; fail) || (right; eexists; reflexivity)|left; exact A]).
        all: intros [A|[[cz [vz [A|[A|A]]]]|[cz A]]]; try discriminate A; try (injection A; intros; subst; left; reflexivity); right; exact A.
      * intros k. destruct a; cbn [mark_rows x_srows]; try (apply no_row; intros; repeat split; discriminate); try rewrite in_sadd; unfold writes_sel; split.
        all: try (intros [->|A]; [right; (left; do 2 eexists; reflexivity) || (right; eexists; reflexivity)|left; exact A]).
        all: try (intros A; left; exact A).
        all: intros [A|[[cz [vz A]]|[cz A]]]; try discriminate A; try (injection A; intros; subst; left; reflexivity); try (right; exact A); exact A.
  - eapply (xinv_gen c ps rs c i _ _ _ [] []); [exact I|exact W|rewrite app_nil_r; reflexivity|rewrite app_nil_r; reflexivity| | | | |].
    + right. split; [destruct o; try reflexivity; discriminate|reflexivity].
    + right. split; [destruct o; try reflexivity; discriminate|reflexivity].
    + left. split; [intros a b ->; discriminate|]. auto.
    + intros k. apply no_row. intros. repeat split; intros ->; discriminate.
    + intros k. apply no_row. intros. repeat split; intros ->; discriminate.
Qed.

Lemma xruns_inv : forall vs h c s ps c' s' ps' rs rs0, xinv c ps rs0 ->
  xruns vs ((c, s), ps) h = Some (((c', s'), ps'), rs) -> xinv c' ps' (rs0 ++ rs).
Proof.
  induction h as [|[i o] h IH]; intros c s ps c' s' ps' rs rs0 I H; cbn [xruns] in H.
  - injection H as <- <- <- <-. rewrite app_nil_r. exact I.
  - destruct (xstep vs ((c, s), ps) i o) as [[[[c1 s1] ps1] r]|] eqn:E; [|discriminate].
    match type of H with context [xruns ?a ?b ?c] => destruct (xruns a b c) as [[[[c2 s2] ps2] rs2]|] eqn:E2 end; [|discriminate].
    injection H as <- <- <- <-. change ((i, o, r) :: rs2) with ([(i, o, r)] ++ rs2). rewrite app_assoc.
    eapply IH; [|exact E2]. eapply xstep_inv; eauto.
Qed.
Lemma xinv_new : forall s0 : astate P, xinv c_new (fun _ => x_new s0) [].
Proof.
  intros s0. constructor; cbn.
  - constructor; cbn; try (intros; contradiction). constructor.
  - intros i n [o [[] _]].
  - intros i n [o [[] _]].
  - intros i k. split; [intros []|intros [g [A _]]; destruct k; discriminate].
  - intros i k. split; [intros []|intros [g [A _]]; destruct k; discriminate].
  - intros i k [].
  - intros k a b A. destruct k; discriminate.
  - intros i a b [].
  - intros i r. split; [intros []|intros [o [x [[] _]]]].
  - intros i r. split; [intros []|intros [o [x [[] _]]]].
Qed.

(** ** The parts of the circuit seen by the proxies *)
Lemma bruns_own_sel : forall vs h c (s : astate P) c' s' rs, bruns vs (c, s) h = Some ((c', s'), rs) ->
  (forall o, In o h -> forwarded o = false) -> a_sel s' = a_sel s.
Proof.
  induction h as [|o h IH]; intros c s c' s' rs H N; cbn [bruns] in H.
  - injection H as <- <- <-. reflexivity.
  - destruct (bstep vs (c, s) o) as [[[c1 s1] r]|] eqn:E; [|discriminate].
    destruct (bruns vs (c1, s1) h) as [[[c2 s2] rs2]|] eqn:E2; [|discriminate]. injection H as <- <- <-.
    rewrite (IH _ _ _ _ _ E2) by (intros; apply N; right; assumption).
    pose proof (N o (or_introl eq_refl)) as Fo. destruct o as [cs|e|sel cs|cs|e|sel cs| |a b|a]; try discriminate Fo; cbn [bstep] in E; try (injection E as <- <- <-; reflexivity).
    destruct a; try discriminate Fo; cbn in E; try (injection E as <- <- <-; reflexivity).
    destruct (find_const (a_bconst s) v); injection E as <- <- <-; reflexivity.
Qed.
Lemma bruns_fwd_batch : forall vs h c (s : astate P) c' s' rs, bruns vs (c, s) h = Some ((c', s'), rs) ->
  (forall o, In o h -> forwarded o = true) -> a_bpriv s' = a_bpriv s /\ a_bconst s' = a_bconst s.
Proof.
  induction h as [|o h IH]; intros c s c' s' rs H N; cbn [bruns] in H.
  - injection H as <- <- <-. auto.
  - destruct (bstep vs (c, s) o) as [[[c1 s1] r]|] eqn:E; [|discriminate].
    destruct (bruns vs (c1, s1) h) as [[[c2 s2] rs2]|] eqn:E2; [|discriminate]. injection H as <- <- <-.
    destruct (IH _ _ _ _ _ E2) as [-> ->]; [intros; apply N; right; assumption|].
    pose proof (N o (or_introl eq_refl)) as Fo. destruct o as [cs|e|sel cs|cs|e|sel cs| |a b|a]; try discriminate Fo; cbn [bstep] in E.
    + destruct (add_gate c (gate_gid vs cs) cs). injection E as <- <- <-. auto.
    + destruct (add_gate c (gate_gid1 vs e) [e]). injection E as <- <- <-. auto.
    + destruct (add_lookup c (lookup_gid vs cs) cs). injection E as <- <- <-. auto.
    + destruct (add_lookup c (lookup_gid1 vs e) [e]). injection E as <- <- <-. auto.
    + injection E as <- <- <-. auto.
    + destruct a; try discriminate Fo; cbn [astep] in E;
        repeat (match type of E with context [set_col ?a ?b ?c ?d] => destruct (set_col a b c d); [|discriminate] end);
        injection E as <- <- <-; auto.
Qed.
Lemma in_own : forall i (h : list (nat * bcall P)) o, In o (own i h) -> forwarded o = false /\ In (i, o) h.
Proof.
  intros i h o H. unfold own in H. apply in_map_iff in H. destruct H as [[j o'] [E H]]. cbn in E. subst o'.
  apply filter_In in H. destruct H as [H K]. apply andb_true_iff in K. cbn in K. destruct K as [K1 K2].
  apply Nat.eqb_eq in K1. apply negb_true_iff in K2. subst j. auto.
Qed.
Lemma in_fwd : forall (h : list (nat * bcall P)) o, In o (fwd h) <-> exists i, In (i, o) h /\ forwarded o = true.
Proof.
  intros h o. unfold fwd. rewrite in_map_iff. split.
  - intros [[j o'] [E H]]. cbn in E. subst o'. apply filter_In in H. exists j. exact H.
  - intros [i [H Fo]]. exists (i, o). split; [reflexivity|]. apply filter_In. auto.
Qed.

Section Run.
Variables (vs : vset P) (w p k n : nat) (h : list (nat * bcall P)).
Variables (c : cstate P) (s : astate P) (ps : nat -> proxy P) (rs : list (nat * bcall P * option nat)).
Hypothesis Hrun : xruns vs ((c_new, a_new P w p k n), fun _ => x_new (a_new P w p k n)) h = Some (((c, s), ps), rs).

Lemma run_inv : xinv c ps rs.
Proof. exact (xruns_inv vs h _ _ _ _ _ _ rs [] (xinv_new _) Hrun). Qed.
Lemma run_split : bruns vs (c_new, a_new P w p k n) (fwd h) = Some ((c, s), fwdr rs).
Proof. exact (proj1 (xruns_split _ _ _ _ _ _ _ _ _ Hrun)). Qed.

(** The selector columns of the base object stay empty. *)
Lemma own_sel_empty : forall i sel l, on_rows (a_sel (x_a (ps i))) sel l = [].
Proof.
  intros i sel l. destruct (xruns_split _ _ _ _ _ _ _ _ _ Hrun) as [_ [O _]]. specialize (O i).
  apply bruns_own_sel in O; [|intros o Ho; apply (in_own i h o Ho)]. rewrite O. cbn. unfold on_rows.
  assert (E : match nth_error (repeat (@nil F) (length (repeat (@nil F) n))) sel with Some c => c | None => [] end = []).
  { destruct (nth_error _ sel) as [col|] eqn:E; [|reflexivity]. apply nth_error_In, repeat_spec in E. exact E. }
  rewrite E. induction l as [|x l IH]; [reflexivity|]. cbn. exact IH.
Qed.

Lemma proxy_check_l : forall te i, x_satisfied te ((c, s), ps) i = Some true <->
  (forall j a b, In j (x_copies (ps i)) -> nth_error (c_copies c) j = Some (a, b) ->
     exists v, x_value ((c, s), ps) i a = Some v /\ x_value ((c, s), ps) i b = Some v).
Proof.
  intros te i. pose proof run_inv as I. unfold x_satisfied, check_part. cbv zeta. rewrite all_ok_true. cbn [snd fst]. split.
  - intros A j a b Hj Hn.
    assert (X : match x_value ((c, s), ps) i a, x_value ((c, s), ps) i b with Some x, Some y => Some (feqb x y) | _, _ => None end = Some true).
    { apply A. apply in_or_app. right. apply in_or_app. right. apply in_map_iff. exists j. rewrite Hn. auto. }
    destruct (x_value ((c, s), ps) i a) as [x|]; [|discriminate]. destruct (x_value ((c, s), ps) i b) as [y|]; [|discriminate].
    injection X as X. apply feqb_eq in X. subst y. eauto.
  - intros A x Hx. apply in_app_or in Hx. destruct Hx as [Hx|Hx]; [|apply in_app_or in Hx; destruct Hx as [Hx|Hx]].
    + apply in_flat_map in Hx. destruct Hx as [j [Hj Hx]]. apply (v_g _ _ _ I) in Hj. destruct Hj as [g [Hg _]]. rewrite Hg, own_sel_empty in Hx. destruct Hx.
    + apply in_flat_map in Hx. destruct Hx as [j [Hj Hx]]. apply (v_l _ _ _ I) in Hj. destruct Hj as [g [Hg _]]. rewrite Hg, own_sel_empty in Hx. destruct Hx.
    + apply in_map_iff in Hx. destruct Hx as [j [<- Hj]]. pose proof (v_c1 _ _ _ I i j Hj) as L.
      destruct (nth_error (c_copies c) j) as [[a b]|] eqn:E; [|apply nth_error_None in E; lia]. cbn [fst snd].
      destruct (A j a b Hj E) as [v [-> ->]]. rewrite feqb_refl. reflexivity.
Qed.

Hypothesis Fw : forall i o, In (i, o) h -> forwarded o = true.

Lemma value_same : forall i v, x_value ((c, s), ps) i v = var_value s v.
Proof.
  intros i v. unfold x_value. cbn [fst snd].
  destruct ((vidx v =? bpriv_index) || (vidx v =? bconst_index)) eqn:E; [|reflexivity].
  assert (O : own i h = []).
  { destruct (own i h) as [|o l] eqn:X; [reflexivity|]. assert (Y : In o (own i h)) by (rewrite X; left; reflexivity).
    apply in_own in Y. destruct Y as [Y1 Y2]. apply Fw in Y2. congruence. }
  destruct (xruns_split _ _ _ _ _ _ _ _ _ Hrun) as [B [Ow _]]. specialize (Ow i). rewrite O in Ow. cbn in Ow. injection Ow as _ Ea _.
  destruct (bruns_fwd_batch _ _ _ _ _ _ _ B) as [B1 B2]; [intros o Ho; apply in_fwd in Ho; destruct Ho as [j [_ X]]; exact X|].
  rewrite <- Ea. unfold var_value. rewrite B1, B2. cbn [a_bpriv a_bconst a_new].
  apply orb_true_iff in E. rewrite !Z.eqb_eq in E. destruct E as [-> | ->]; reflexivity.
Qed.

Hypothesis NS : forall i sel r v, ~ In (i, BA (ASelector sel r v)) h.
Hypothesis EN : forall i sel r, In (i, BA (AEnable sel r)) h -> exists o, In (i, o, Some sel) rs.

Lemma returned_req : forall i o m, In (i, o, Some m) rs -> gate_req o = true \/ lookup_req o = true.
Proof.
  intros i o m H. destruct (xruns_split _ _ _ _ _ _ _ _ _ Hrun) as [B [_ Hr]].
  assert (Ho : In (i, o) h) by (rewrite <- Hr; apply (in_map fst) in H; exact H).
  assert (X : In (o, Some m) (fwdr rs)).
  { unfold fwdr. apply in_map_iff. exists (i, o, Some m). split; [reflexivity|]. apply filter_In. split; [exact H|]. cbn. eapply Fw; eauto. }
  pose proof (bruns_none _ _ _ _ _ _ _ _ _ _ B X) as Y. pose proof (Fw i o Ho) as Fo. destruct o; try discriminate; auto.
Qed.
Lemma enabled_by : forall sel r, In r (sel_rows s sel) <-> exists i, In (i, BA (AEnable sel r)) h.
Proof.
  intros sel r. pose proof (bruns_aruns _ _ _ _ _ _ _ _ run_split) as HA.
  rewrite (sel_rows_spec P w p k n _ s sel r HA).
  - rewrite in_aops, in_fwd. split; [intros [i [A _]]; eauto|intros [i A]; exists i; auto].
  - intros c0 r0 v0 X. apply in_aops, in_fwd in X. destruct X as [i [X _]]. eapply NS; eauto.
Qed.
Lemma on_rows_sel : forall i sel r, In r (on_rows (a_sel s) sel (x_srows (ps i))) <-> In r (sel_rows s sel) /\ In r (x_srows (ps i)).
Proof.
  intros i sel r. unfold on_rows, sel_rows. rewrite !filter_In, in_seq. split; [|intuition].
  intros [A B]. split; [|exact A]. split; [|exact B]. split; [lia|].
  apply (v_s _ _ _ run_inv) in A. destruct A as [o [x [Hin Hw]]].
  destruct (xruns_split _ _ _ _ _ _ _ _ _ Hrun) as [Br [_ Hr]].
  assert (Ho : In (i, o) h) by (rewrite <- Hr; apply (in_map fst) in Hin; exact Hin).
  destruct Hw as [[c0 [v0 ->]]|[c0 ->]]; [exfalso; eapply NS; eauto|].
  pose proof (bruns_aruns _ _ _ _ _ _ _ _ Br) as HA. destruct (allocated_rows_l P w p k n _ s HA) as [AR _].
  assert (X : In (AEnable c0 r) (aops P (fwd h))) by (apply in_aops, in_fwd; exists i; auto).
  specialize (AR _ r X eq_refl). lia.
Qed.

Lemma parts_cover_l : forall te, is_satisfied te c s = Some true <->
  forall i, check_part te c s (a_sel s) (x_value ((c, s), ps) i) (ps i) = Some true.
Proof.
  intros te. pose proof run_inv as I. pose proof (w_nd _ (v_wf _ _ _ I)) as ND.
  destruct (xruns_split _ _ _ _ _ _ _ _ _ Hrun) as [Br [_ Hr]].
  assert (Disj : forall m, In m (map fst (c_gates c)) -> In m (map fst (c_lgates c)) -> False).
  { intros m. clear - ND. revert ND. generalize (map fst (c_gates c)). induction l as [|x l IH]; intros ND A B; [destruct A|].
    inversion ND as [|? ? X Y]; subst. destruct A as [->|A]; [apply X, in_or_app; auto|eauto]. }
  assert (Srow : forall i sel r, In (i, BA (AEnable sel r)) h -> In r (x_srows (ps i))).
  { intros i sel r Hin. apply (v_s _ _ _ I). rewrite <- Hr in Hin. apply in_map_iff in Hin. destruct Hin as [[[j o] x] [E Hin]]. cbn in E. injection E as -> ->.
    exists (BA (AEnable sel r)), x. split; [exact Hin|]. right. eexists. reflexivity. }
  unfold is_satisfied, check_part. rewrite all_ok_true. setoid_rewrite all_ok_true. split.
  - intros A i x Hx. apply in_app_or in Hx. destruct Hx as [Hx|Hx]; [|apply in_app_or in Hx; destruct Hx as [Hx|Hx]].
    + apply in_flat_map in Hx. destruct Hx as [j [Hj Hx]]. apply (v_g _ _ _ I) in Hj. destruct Hj as [g [Hg _]]. rewrite Hg in Hx.
      apply in_flat_map in Hx. destruct Hx as [r [Hr' Hx]]. apply on_rows_sel in Hr'. apply A. apply in_or_app. left.
      apply in_flat_map. exists g. split; [eapply nth_error_In; eauto|]. apply in_flat_map. exists r. split; [tauto|exact Hx].
    + apply in_flat_map in Hx. destruct Hx as [j [Hj Hx]]. apply (v_l _ _ _ I) in Hj. destruct Hj as [g [Hg _]]. rewrite Hg in Hx.
      apply in_flat_map in Hx. destruct Hx as [r [Hr' Hx]]. apply on_rows_sel in Hr'. apply A. apply in_or_app. right. apply in_or_app. left.
      apply in_flat_map. exists g. split; [eapply nth_error_In; eauto|]. apply in_flat_map. exists r. split; [tauto|exact Hx].
    + apply in_map_iff in Hx. destruct Hx as [j [<- Hj]]. pose proof (v_c1 _ _ _ I i j Hj) as L.
      destruct (nth_error (c_copies c) j) as [ab|] eqn:E; [|apply nth_error_None in E; lia]. rewrite !value_same.
      apply A. apply in_or_app. right. apply in_or_app. right. apply in_map_iff. exists ab. split; [reflexivity|]. eapply nth_error_In; eauto.
  - intros A x Hx. apply in_app_or in Hx. destruct Hx as [Hx|Hx]; [|apply in_app_or in Hx; destruct Hx as [Hx|Hx]].
    + apply in_flat_map in Hx. destruct Hx as [g [Hg Hx]]. apply in_flat_map in Hx. destruct Hx as [r [Hr' Hx]].
      pose proof Hr' as Hsel. apply enabled_by in Hr'. destruct Hr' as [i Hi]. destruct (EN _ _ _ Hi) as [o Ho].
      assert (Gg : got rs gate_req i (fst g)).
      { exists o. split; [exact Ho|]. destruct (returned_req _ _ _ Ho) as [R|R]; [exact R|]. exfalso.
        apply (Disj (fst g)); [apply in_map; exact Hg|]. apply (v_lr _ _ _ I i). exists o. auto. }
      apply In_nth_error in Hg. destruct Hg as [j Hg]. apply (A i). apply in_or_app. left. apply in_flat_map. exists j. split.
      * apply (v_g _ _ _ I). exists g. auto.
      * rewrite Hg. apply in_flat_map. exists r. split; [apply on_rows_sel; split; [exact Hsel|eapply Srow; eauto]|exact Hx].
    + apply in_flat_map in Hx. destruct Hx as [g [Hg Hx]]. apply in_flat_map in Hx. destruct Hx as [r [Hr' Hx]].
      pose proof Hr' as Hsel. apply enabled_by in Hr'. destruct Hr' as [i Hi]. destruct (EN _ _ _ Hi) as [o Ho].
      assert (Gg : got rs lookup_req i (fst g)).
      { exists o. split; [exact Ho|]. destruct (returned_req _ _ _ Ho) as [R|R]; [|exact R]. exfalso.
        apply (Disj (fst g)); [|apply in_map; exact Hg]. apply (v_gr _ _ _ I i). exists o. auto. }
      apply In_nth_error in Hg. destruct Hg as [j Hg]. apply (A i). apply in_or_app. right. apply in_or_app. left. apply in_flat_map. exists j. split.
      * apply (v_l _ _ _ I). exists g. auto.
      * rewrite Hg. apply in_flat_map. exists r. split; [apply on_rows_sel; split; [exact Hsel|eapply Srow; eauto]|exact Hx].
    + apply in_map_iff in Hx. destruct Hx as [[a b] [<- Hin]]. apply In_nth_error in Hin. destruct Hin as [j Hj].
      destruct (v_c2 _ _ _ I j a b Hj) as [i [_ Hm]]. apply (A i). apply in_or_app. right. apply in_or_app. right.
      apply in_map_iff. exists j. rewrite Hj. cbn [fst snd]. rewrite !value_same. auto.
Qed.
End Run.

(** ** Shared variables *)
Lemma save_shared_l : forall (st : xstate P) i v st' wv, save_shared st i v = Some (st', wv) ->
  (exists x, x_value st i v = Some x /\ forall j, x_value st' j wv = Some x) /\
  (forall j u x, x_value st j u = Some x -> x_value st' j u = Some x) /\
  (forall j, x_value st j wv = None).
Proof.
  intros [[c s] ps] i v st' wv H. unfold save_shared in H.
  destruct (nth_error (a_shared s) 0) as [col|] eqn:E; [|discriminate].
  match type of H with context [x_value ?a ?b ?d] => destruct (x_value a b d) as [x|] eqn:Ev end; [|discriminate].
  unfold astep in H. destruct (set_col (a_shared s) 0 (length col) x) as [sh|] eqn:Es; [|discriminate]. injection H as <- <-.
  pose proof (set_col_same _ _ _ _ _ _ Es) as S1.
  assert (C2 : forall cols a b, get_col (P := P) cols (Z.of_nat a) (Z.of_nat b) = cell2 P cols a b).
  { intros cols a b. unfold get_col, cell2. replace ((Z.of_nat a <? 0) || (Z.of_nat b <? 0)) with false by (symmetry; apply orb_false_iff; rewrite !Z.ltb_ge; lia).
    rewrite !Nat2Z.id. reflexivity. }
  assert (NB : (1 =? bpriv_index) || (1 =? bconst_index) = false) by reflexivity.
  split; [|split].
  - exists x. split; [reflexivity|]. intros j. unfold x_value, var_value. cbn [vidx vrot vty fst snd a_shared]. rewrite NB.
    change (1 =? priv_index) with false. change (1 =? bpriv_index) with false. change (1 =? bconst_index) with false. change (0 <? 1) with true. cbv iota.
    change (1 - 1) with (Z.of_nat 0). rewrite C2. exact S1.
  - intros j u y. unfold x_value, var_value. cbn [fst snd a_priv a_bpriv a_bconst a_shared a_pub a_wit a_const].
    destruct ((vidx u =? bpriv_index) || (vidx u =? bconst_index)); [auto|].
    destruct (vidx u =? priv_index); [auto|]. destruct (vidx u =? bpriv_index); [auto|]. destruct (vidx u =? bconst_index); [auto|].
    destruct (vty u); auto. destruct (0 <? vidx u); [|auto]. intros Hy.
    assert (X : exists a b, vidx u - 1 = Z.of_nat a /\ vrot u = Z.of_nat b).
    { unfold get_col in Hy. destruct ((vidx u - 1 <? 0) || (vrot u <? 0)) eqn:Z; [discriminate|]. apply orb_false_iff in Z. rewrite !Z.ltb_ge in Z.
      exists (Z.to_nat (vidx u - 1)), (Z.to_nat (vrot u)). rewrite !Z2Nat.id by lia. auto. }
    destruct X as [a [b [Ea Eb]]]. rewrite Ea, Eb, C2 in *. eapply set_col_other; [exact Es| |exact Hy].
    intros [X1 X2]. subst a b. unfold cell2 in Hy. rewrite E in Hy.
    assert (Y : nth_error col (length col) = None) by (apply nth_error_None; lia). congruence.
  - intros j. unfold x_value, var_value. cbn [vidx vrot vty fst snd]. rewrite NB.
    change (1 =? priv_index) with false. change (1 =? bpriv_index) with false. change (1 =? bconst_index) with false. change (0 <? 1) with true. cbv iota.
    change (1 - 1) with (Z.of_nat 0). rewrite C2. unfold cell2. rewrite E. apply nth_error_None. lia.
Qed.
Lemma save_shared_total : forall c (s : astate P) ps i v x col rest, a_shared s = col :: rest ->
  x_value ((c, s), ps) i v = Some x -> save_shared ((c, s), ps) i v <> None.
Proof.
  intros c s ps i v x col rest E H. unfold save_shared. rewrite E, H. cbn [nth_error]. unfold astep, set_col. rewrite E. cbn. discriminate.
Qed.
Lemma save_shared_all_l : forall l (st : xstate P) i st' ws, save_shared_all st i l = Some (st', ws) ->
  Forall2 (fun v wv => exists x, x_value st' i v = Some x /\ forall j, x_value st' j wv = Some x) l ws /\
  (forall j u x, x_value st j u = Some x -> x_value st' j u = Some x) /\
  NoDup ws /\ (forall wv j, In wv ws -> x_value st j wv = None).
Proof.
  induction l as [|v l IH]; intros st i st' ws H; cbn [save_shared_all] in H.
  - injection H as <- <-. repeat split; auto; try constructor. intros wv j [].
  - destruct (save_shared st i v) as [[st1 w1]|] eqn:E; [|discriminate].
    destruct (save_shared_all st1 i l) as [[st2 ws2]|] eqn:E2; [|discriminate]. injection H as <- <-.
    destruct (save_shared_l _ _ _ _ _ E) as [[x [A1 A2]] [A3 A4]]. destruct (IH _ _ _ _ E2) as [B1 [B2 [B3 B4]]].
    split; [|split; [|split]].
    + constructor; [|exact B1]. exists x. split; [apply B2, A3, A1|]. intros j. apply B2, A2.
    + intros j u y Hy. apply B2, A3, Hy.
    + constructor; [|exact B3]. intros X. specialize (B4 _ 0%nat X). rewrite A2 in B4. discriminate.
    + intros wv j [<-|X]; [apply A4|]. destruct (x_value st j wv) as [y|] eqn:Y; [|reflexivity].
      apply A3 in Y. rewrite (B4 _ j X) in Y. discriminate.
Qed.
End Proofs.
