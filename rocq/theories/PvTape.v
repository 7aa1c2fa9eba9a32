(** Facts shared by the Placeholder argument verifiers: stepped loops, lists
    addressed by integers, cells laid out row by row, and the cells a circuit
    reads. *)
From Coq Require Import ZArith List Lia Bool.
From Verif Require Import Base Field Plonk PlonkFacts Bits FlexModel FlexProofs PvModel.
Import ListNotations.
Open Scope Z_scope.

(** ** Stepped loops *)

Lemma in_zsteps : forall lo hi step i, 0 < step ->
  (In i (zsteps lo hi step) <-> exists k, 0 <= k /\ i = lo + step * k /\ i < hi).
Proof.
  intros lo hi step i Hs. unfold zsteps. rewrite in_map_iff. split.
  - intros [k [E Hk]]. apply in_zseq in Hk. exists k. split; [lia|]. split; [lia|].
    assert (k + 1 <= (hi - lo + step - 1) / step) by lia.
    assert (step * (k + 1) <= step * ((hi - lo + step - 1) / step)) by (apply Z.mul_le_mono_nonneg_l; lia).
    pose proof (Z.mul_div_le (hi - lo + step - 1) step Hs). lia.
  - intros [k [H1 [H2 H3]]]. exists k. split; [lia|]. apply in_zseq. split; [lia|].
    apply Z.lt_le_trans with (k + 1); [lia|]. apply Z.div_le_lower_bound; lia.
Qed.

Lemma zlen_zsteps : forall lo hi step, 0 < step -> zlen (zsteps lo hi step) = Z.max 0 ((hi - lo + step - 1) / step).
Proof. intros lo hi step Hs. unfold zlen, zsteps. rewrite map_length, zseq_length. lia. Qed.

Lemma znth_zsteps : forall A (f : Z -> A) d lo hi step k, 0 < step -> 0 <= k -> lo + step * k < hi ->
  znth d (map f (zsteps lo hi step)) k = f (lo + step * k).
Proof.
  intros A f d lo hi step k Hs Hk Hi. unfold zsteps. rewrite map_map.
  rewrite (znth_map_zseq A (fun q => f (lo + step * q))); [reflexivity|].
  split; [lia|]. rewrite Z.sub_0_r. apply Z.lt_le_trans with (k + 1); [lia|]. apply Z.div_le_lower_bound; lia.
Qed.

(** Induction below a bound. *)
Lemma zind : forall (Q : Z -> Prop) hi, Q 0 -> (forall j, 0 <= j -> j + 1 < hi -> Q j -> Q (j + 1)) ->
  forall k, 0 <= k < hi -> Q k.
Proof.
  intros Q hi H0 HS k [Hk Hh]. revert Hh. pattern k. apply natlike_ind; [auto| |exact Hk].
  intros x Hx IH Hh. replace (Z.succ x) with (x + 1) by lia. apply HS; [exact Hx|lia|apply IH; lia].
Qed.

(** ** Lists *)

Lemma zlen_app : forall A (a b : list A), zlen (a ++ b) = zlen a + zlen b.
Proof. intros. unfold zlen. rewrite app_length. lia. Qed.
Lemma zlen_cons : forall A (a : A) b, zlen (a :: b) = 1 + zlen b.
Proof. intros. unfold zlen. cbn [length]. lia. Qed.
Lemma zlen_map : forall A B (f : A -> B) l, zlen (map f l) = zlen l.
Proof. intros. unfold zlen. rewrite map_length. reflexivity. Qed.
Lemma zlen_zseq : forall lo hi, zlen (zseq lo hi) = Z.max 0 (hi - lo).
Proof. intros. unfold zlen. rewrite zseq_length. lia. Qed.

Lemma znth_l : forall A (d : A) a b i, 0 <= i < zlen a -> znth d (a ++ b) i = znth d a i.
Proof. intros A d a b i H. unfold znth, zlen in *. apply app_nth1. lia. Qed.
Lemma znth_r : forall A (d : A) a b i, zlen a <= i -> znth d (a ++ b) i = znth d b (i - zlen a).
Proof.
  intros A d a b i H. unfold znth, zlen in *. rewrite app_nth2 by lia. f_equal. lia.
Qed.
Lemma znth_0 : forall A (d : A) a l, znth d (a :: l) 0 = a.
Proof. reflexivity. Qed.
Lemma znth_S : forall A (d : A) a l i, 0 < i -> znth d (a :: l) i = znth d l (i - 1).
Proof.
  intros A d a l i H. unfold znth. replace (Z.to_nat i) with (S (Z.to_nat (i - 1))) by lia. reflexivity.
Qed.

(** ** Cells row by row *)

Lemma div_back : forall w p t, 0 < w -> 0 <= t <= p mod w -> (p - t) / w = p / w /\ (p - t) mod w = p mod w - t.
Proof.
  intros w p t Hw Ht. pose proof (Z.div_mod p w ltac:(lia)) as D. pose proof (Z.mod_pos_bound p w Hw) as M.
  replace (p - t) with ((p / w) * w + (p mod w - t)) by lia. apply pos_div. lia.
Qed.
Lemma div_prev : forall w p t, 0 < w -> p mod w < t <= p mod w + w ->
  (p - t) / w = p / w - 1 /\ (p - t) mod w = p mod w - t + w.
Proof.
  intros w p t Hw Ht. pose proof (Z.div_mod p w ltac:(lia)) as D. pose proof (Z.mod_pos_bound p w Hw) as M.
  replace (p - t) with ((p / w - 1) * w + (p mod w - t + w)) by lia. apply pos_div. lia.
Qed.
Lemma ceil_rows_pred : forall n w, 0 < w -> 0 < n -> ceil_rows n w = (n - 1) / w + 1.
Proof.
  intros n w Hw Hn. destruct (ceil_rows_spec n w Hw ltac:(lia)) as [A B].
  assert ((n - 1) / w = ceil_rows n w - 1); [|lia]. symmetry.
  apply Z.div_unique with (r := n - 1 - w * (ceil_rows n w - 1)); [left; lia|lia].
Qed.
(** The remainder of the count of cells, and of its last position. *)
Lemma last_mod : forall n w, 0 < w -> 0 < n ->
  (if n mod w =? 0 then w else n mod w) = (n - 1) mod w + 1.
Proof.
  intros n w Hw Hn. pose proof (Z.div_mod (n - 1) w ltac:(lia)) as D. pose proof (Z.mod_pos_bound (n - 1) w Hw) as M.
  destruct (Z.eq_dec ((n - 1) mod w) (w - 1)) as [E|E].
  - assert (H : n mod w = 0).
    { replace n with (((n - 1) / w + 1) * w + 0) by lia. apply (proj2 (pos_div w ((n - 1) / w + 1) 0 ltac:(lia))). }
    rewrite H, Z.eqb_refl. lia.
  - assert (H : n mod w = (n - 1) mod w + 1).
    { pose proof (proj2 (pos_div w ((n - 1) / w) ((n - 1) mod w + 1) ltac:(lia))) as G.
      replace ((n - 1) / w * w + ((n - 1) mod w + 1)) with n in G by lia. exact G. }
    rewrite H. destruct (Z.eqb_spec ((n - 1) mod w + 1) 0); lia.
Qed.

Section Tape.
Variable P : params.
Notation F := (F P).
Notation table := (table P).
Variable L : lenv P.
Implicit Types T : table.

(** Cell [p] of a strip of [w] columns starting at column [b] of the component. *)
Definition cell (T : table) (c : comp) (b w row p : Z) : F := T CWit (W c (p mod w + b)) (row + p / w).

Lemma cell_at : forall T c b w row p, cell T c b w row p = T CWit (W c (p mod w + b)) (row + p / w).
Proof. reflexivity. Qed.
Lemma cell_back : forall T c b w row p t, 0 < w -> 0 <= t <= p mod w ->
  cell T c b w row (p - t) = T CWit (W c (p mod w + b - t)) (row + p / w).
Proof.
  intros T c b w row p t Hw Ht. unfold cell. destruct (div_back w p t Hw Ht) as [-> ->].
  f_equal. f_equal. lia.
Qed.
Lemma cell_prev : forall T c b w row p t, 0 < w -> p mod w < t <= p mod w + w ->
  cell T c b w row (p - t) = T CWit (W c (p mod w + b - t + w)) (row + p / w - 1).
Proof.
  intros T c b w row p t Hw Ht. unfold cell. destruct (div_prev w p t Hw Ht) as [-> ->].
  f_equal; [f_equal|]; lia.
Qed.

(** Reading back a strip that was written cell by cell. *)
Lemma strip_read : forall T c wc b w row n (val : Z -> F) rest p, wf_comp c wc ->
  0 < w -> 0 <= b -> b + w <= wc -> 0 <= p < n ->
  (forall v, ~ In (W c (p mod w + b), row + p / w, v) rest) ->
  wsets T (map (fun i => (W c (i mod w + b), row + i / w, val i)) (zseq 0 n) ++ rest)
    CWit (W c (p mod w + b)) (row + p / w) = val p.
Proof.
  intros T c wc b w row n val rest p Hwf Hw Hb Hc Hp Hr.
  apply wsets_read.
  - apply in_or_app. left. apply in_map_iff. exists p. split; [reflexivity|apply in_zseq; lia].
  - intros v' H. apply in_app_or in H. destruct H as [H|H]; [|exfalso; exact (Hr _ H)].
    apply in_map_iff in H. destruct H as [i [E Hi]]. injection E as E1 E2 <-.
    pose proof (Z.mod_pos_bound i w Hw). pose proof (Z.mod_pos_bound p w Hw).
    assert (i mod w + b = p mod w + b) by (eapply W_inj; [exact Hwf|lia|lia|exact E1]).
    f_equal. rewrite (Z.div_mod i w), (Z.div_mod p w) by lia. f_equal; [f_equal|]; lia.
Qed.

Lemma holds_enable : forall T gs row i, 0 <= i < zlen gs ->
  (holds L T (enable gs row i) <-> eval T row (znth (ecst f0) gs i) = f0).
Proof.
  intros T gs row i Hi. unfold enable.
  rewrite (proj2 (Z.leb_le 0 i)), (proj2 (Z.ltb_lt i (zlen gs))) by lia. cbn [andb].
  rewrite holds_gate1, all_cons, all_nil. tauto.
Qed.

Lemma sat_flat : forall T A (f : A -> list (cmd P)) l,
  sat L T (flat_map f l) <-> (forall a, In a l -> sat L T (f a)).
Proof.
  intros T A f l. unfold sat. split.
  - intros H a Ha c Hc. apply H. apply in_flat_map. exists a. auto.
  - intros H c Hc. apply in_flat_map in Hc. destruct Hc as [a [Ha Hc]]. eauto.
Qed.

(** ** The cells a circuit reads *)

Fixpoint expr_reads (Q : ctype -> Z -> Z -> Prop) (r : Z) (e : expr P) : Prop :=
  match e with
  | ETerm _ vs => forall v, In v vs -> Q (vty v) (vidx v) (if vrel v then r + vrot v else vrot v)
  | EPow e _ => expr_reads Q r e
  | EBin _ a b => expr_reads Q r a /\ expr_reads Q r b
  end.
Definition var_reads (Q : ctype -> Z -> Z -> Prop) (v : var) : Prop := Q (vty v) (vidx v) (vrot v).
Definition cmd_reads (Q : ctype -> Z -> Z -> Prop) (c : cmd P) : Prop :=
  match c with
  | Gate es rows => forall r, In r rows -> forall e, In e es -> expr_reads Q r e
  | LookupGate cs rows => forall r, In r rows -> forall t es, In (t, es) cs -> forall e, In e es -> expr_reads Q r e
  | Copy a b => var_reads Q a /\ var_reads Q b
  | SetConst col row _ => Q CConst col row
  end.
Definition reads (Q : ctype -> Z -> Z -> Prop) (cs : list (cmd P)) : Prop := forall c, In c cs -> cmd_reads Q c.

Lemma eval_agree : forall (Q : ctype -> Z -> Z -> Prop) T T' r e,
  (forall ty col row, Q ty col row -> T' ty col row = T ty col row) ->
  expr_reads Q r e -> eval T' r e = eval T r e.
Proof.
  intros Q T T' r e HQ. induction e as [k vs|e IH n|o a IHa b IHb]; cbn [expr_reads eval]; intros H.
  - assert (G : forall k, fold_left (fun acc v => fmul acc (gval T' r v)) vs k =
                          fold_left (fun acc v => fmul acc (gval T r v)) vs k); [|apply G].
    revert H. induction vs as [|v vs IH]; intros H k0; [reflexivity|]. cbn [fold_left].
    unfold gval at 2 4. rewrite (HQ _ _ _ (H v (or_introl eq_refl))).
    apply IH. intros v' Hv'. apply H. right. exact Hv'.
  - rewrite IH by exact H. reflexivity.
  - destruct H as [Ha Hb]. rewrite IHa, IHb by assumption. reflexivity.
Qed.

Lemma sat_agree : forall (Q : ctype -> Z -> Z -> Prop) T T' cs,
  (forall ty col row, Q ty col row -> T' ty col row = T ty col row) ->
  reads Q cs -> sat L T cs -> sat L T' cs.
Proof.
  intros Q T T' cs HQ HR HS c Hc. specialize (HR c Hc). specialize (HS c Hc).
  destruct c as [es rows|lcs rows|a b|col row v]; cbn [holds cmd_reads] in *.
  - intros r Hr e He. rewrite (eval_agree Q T T') by eauto. eauto.
  - intros r Hr t es Hes. replace (map (eval T' r) es) with (map (eval T r) es); [eauto|].
    apply map_ext_in. intros e He. symmetry. apply (eval_agree Q); eauto.
  - destruct HR as [Ha Hb]. unfold vval, var_reads in *. rewrite (HQ _ _ _ Ha), (HQ _ _ _ Hb). exact HS.
  - rewrite HQ by exact HR. exact HS.
Qed.

Lemma reads_app : forall Q a b, reads Q (a ++ b) <-> reads Q a /\ reads Q b.
Proof.
  intros Q a b. unfold reads. split.
  - intros H. split; intros; apply H; apply in_or_app; auto.
  - intros [H1 H2] c Hc. apply in_app_or in Hc. destruct Hc; auto.
Qed.
Lemma reads_cons : forall Q a b, reads Q (a :: b) <-> cmd_reads Q a /\ reads Q b.
Proof.
  intros Q a b. unfold reads. split.
  - intros H. split; [apply H; left; reflexivity|intros; apply H; right; assumption].
  - intros [H1 H2] c [<-|Hc]; auto.
Qed.
Lemma reads_nil : forall Q, reads Q [].
Proof. intros Q c []. Qed.
Lemma reads_map : forall Q A (f : A -> cmd P) l, (forall a, In a l -> cmd_reads Q (f a)) -> reads Q (map f l).
Proof. intros Q A f l H c Hc. apply in_map_iff in Hc. destruct Hc as [a [<- Ha]]. auto. Qed.
Lemma reads_flat : forall Q A (f : A -> list (cmd P)) l,
  (forall a, In a l -> reads Q (f a)) -> reads Q (flat_map f l).
Proof. intros Q A f l H c Hc. apply in_flat_map in Hc. destruct Hc as [a [Ha Hc]]. exact (H a Ha c Hc). Qed.

(** A circuit kept by writes outside the cells it reads. *)
Lemma sat_frame : forall c n r0 T T' cs, frame c n r0 T T' ->
  reads (fun ty col row => ~ in_area c n r0 ty col row) cs -> sat L T cs -> sat L T' cs.
Proof. intros c n r0 T T' cs HF HR. apply (sat_agree _ T T' cs HF HR). Qed.

(** Reads of relative witness variables only. *)
Lemma reads_wv : forall (Q : ctype -> Z -> Z -> Prop) r i rot, Q CWit i (r + rot) -> expr_reads Q r (evar (wv i rot)).
Proof. intros Q r i rot H v [<-|[]]. exact H. Qed.
Lemma reads_ecst : forall Q r k, expr_reads Q r (ecst k).
Proof. intros Q r k v []. Qed.

End Tape.

Arguments cell {P}. Arguments expr_reads {P}. Arguments cmd_reads {P}. Arguments reads {P}.
