(** Integer ranges and small list facts shared by the whole development.
    Nothing in this file models code of /repo. *)
Require Import ZArith List Lia Bool.
Import ListNotations.
Open Scope Z_scope.

(** [zrange lo n] is the list [lo; lo+1; ...; lo+n-1]. *)
Fixpoint zrange (lo : Z) (n : nat) : list Z :=
  match n with
  | O => []
  | S k => lo :: zrange (lo + 1) k
  end.

(** [zseq lo hi] enumerates the integers of [lo, hi): a C++ loop
    [for (i = lo; i < hi; i++)]. *)
Definition zseq (lo hi : Z) : list Z := zrange lo (Z.to_nat (hi - lo)).

Lemma in_zrange : forall n lo i, In i (zrange lo n) <-> lo <= i < lo + Z.of_nat n.
Proof.
  induction n as [|n IH]; intros lo i; cbn [zrange In].
  - lia.
  - rewrite IH. lia.
Qed.

Lemma in_zseq : forall lo hi i, In i (zseq lo hi) <-> lo <= i < hi.
Proof.
  intros lo hi i. unfold zseq. rewrite in_zrange. lia.
Qed.

Lemma zrange_length : forall n lo, length (zrange lo n) = n.
Proof. induction n; intros; cbn; auto. Qed.

Lemma zseq_length : forall lo hi, length (zseq lo hi) = Z.to_nat (hi - lo).
Proof. intros. apply zrange_length. Qed.

Lemma zrange_snoc : forall n lo, zrange lo (S n) = zrange lo n ++ [lo + Z.of_nat n].
Proof.
  induction n as [|n IH]; intros lo.
  - cbn. f_equal. lia.
  - change (zrange lo (S (S n))) with (lo :: zrange (lo + 1) (S n)).
    rewrite IH. cbn [zrange app]. f_equal. f_equal. f_equal. lia.
Qed.

Lemma zseq_snoc : forall lo hi, lo <= hi -> zseq lo (hi + 1) = zseq lo hi ++ [hi].
Proof.
  intros lo hi H. unfold zseq.
  replace (Z.to_nat (hi + 1 - lo)) with (S (Z.to_nat (hi - lo))) by lia.
  rewrite zrange_snoc. f_equal. f_equal. lia.
Qed.

Lemma zseq_cons : forall lo hi, lo < hi -> zseq lo hi = lo :: zseq (lo + 1) hi.
Proof.
  intros lo hi H. unfold zseq.
  replace (Z.to_nat (hi - lo)) with (S (Z.to_nat (hi - (lo + 1)))) by lia.
  reflexivity.
Qed.

Lemma zseq_nil : forall lo hi, hi <= lo -> zseq lo hi = [].
Proof.
  intros lo hi H. unfold zseq.
  replace (Z.to_nat (hi - lo)) with O by lia. reflexivity.
Qed.

Lemma zseq_app : forall lo mid hi, lo <= mid <= hi -> zseq lo hi = zseq lo mid ++ zseq mid hi.
Proof.
  intros lo mid hi H. unfold zseq.
  remember (Z.to_nat (mid - lo)) as n eqn:En.
  revert lo mid H En.
  induction n as [|n IH]; intros lo mid H En.
  - assert (lo = mid) by lia. subst. reflexivity.
  - replace (Z.to_nat (hi - lo)) with (S (Z.to_nat (hi - (lo + 1)))) by lia.
    cbn [zrange app]. f_equal. apply IH; lia.
Qed.

Lemma nodup_zrange : forall n lo, NoDup (zrange lo n).
Proof.
  induction n as [|n IH]; intros lo; cbn; constructor.
  - rewrite in_zrange. lia.
  - apply IH.
Qed.

Lemma nodup_zseq : forall lo hi, NoDup (zseq lo hi).
Proof. intros. apply nodup_zrange. Qed.

(** [znth d l i] reads the [i]-th element of a list with a default. *)
Definition znth {A} (d : A) (l : list A) (i : Z) : A := nth (Z.to_nat i) l d.

Definition zlen {A} (l : list A) : Z := Z.of_nat (length l).

Lemma zlen_nonneg : forall A (l : list A), 0 <= zlen l.
Proof. intros. unfold zlen. lia. Qed.

Lemma znth_map : forall A B (f : A -> B) d l i,
  0 <= i < zlen l -> forall d', znth d' (map f l) i = f (znth d l i).
Proof.
  intros A B f d l i H d'. unfold znth, zlen in *.
  rewrite nth_indep with (d' := f d) by (rewrite map_length; lia).
  apply map_nth.
Qed.

Lemma znth_zrange : forall n lo i d, 0 <= i < Z.of_nat n -> znth d (zrange lo n) i = lo + i.
Proof.
  induction n as [|n IH]; intros lo i d H; [lia|].
  unfold znth in *. destruct (Z.to_nat i) as [|k] eqn:E.
  - cbn. lia.
  - cbn. specialize (IH (lo + 1) (Z.of_nat k) d).
    rewrite Nat2Z.id in IH. rewrite IH; lia.
Qed.

Lemma znth_zseq : forall lo hi i d, 0 <= i < hi - lo -> znth d (zseq lo hi) i = lo + i.
Proof. intros. unfold zseq. apply znth_zrange. lia. Qed.

Lemma znth_map_zseq : forall A (f : Z -> A) lo hi i d,
  0 <= i < hi - lo -> znth d (map f (zseq lo hi)) i = f (lo + i).
Proof.
  intros A f lo hi i d H.
  rewrite znth_map with (d := 0) by (unfold zlen; rewrite zseq_length; lia).
  rewrite znth_zseq by lia. reflexivity.
Qed.

Lemma znth_nodup_inj : forall (l : list Z) d i j,
  NoDup l -> 0 <= i < zlen l -> 0 <= j < zlen l -> znth d l i = znth d l j -> i = j.
Proof.
  intros l d i j ND Hi Hj E. unfold znth, zlen in *.
  assert (Z.to_nat i = Z.to_nat j); [|lia].
  eapply NoDup_nth; eauto; lia.
Qed.

Lemma znth_In : forall A (l : list A) d i, 0 <= i < zlen l -> In (znth d l i) l.
Proof. intros. unfold znth, zlen in *. apply nth_In. lia. Qed.

Lemma In_znth : forall A (l : list A) d x, In x l -> exists i, 0 <= i < zlen l /\ znth d l i = x.
Proof.
  intros A l d x H. apply In_nth with (d := d) in H. destruct H as [n [Hn E]].
  exists (Z.of_nat n). unfold zlen, znth. rewrite Nat2Z.id. split; [lia|assumption].
Qed.

Lemma forallb_forall' : forall A (f : A -> bool) l,
  forallb f l = true <-> (forall x, In x l -> f x = true).
Proof. intros. apply forallb_forall. Qed.

(** Left folds over integer ranges, with an invariant. *)
Lemma fold_zseq_inv : forall (A : Type) (I : Z -> A -> Prop) (f : A -> Z -> A) lo hi a,
  lo <= hi ->
  I lo a ->
  (forall i x, lo <= i < hi -> I i x -> I (i + 1) (f x i)) ->
  I hi (fold_left f (zseq lo hi) a).
Proof.
  intros A I f lo hi a Hle H0 Hstep.
  unfold zseq.
  remember (Z.to_nat (hi - lo)) as n eqn:En.
  assert (Hhi : hi = lo + Z.of_nat n) by lia. clear En.
  subst hi. clear Hle.
  revert lo a H0 Hstep.
  induction n as [|n IH]; intros lo a H0 Hstep.
  - cbn. replace (lo + 0) with lo by lia. exact H0.
  - cbn [zrange fold_left].
    replace (lo + Z.of_nat (S n)) with ((lo + 1) + Z.of_nat n) by lia.
    apply IH.
    + apply Hstep; [lia|exact H0].
    + intros i x Hi HI. apply Hstep; [lia|exact HI].
Qed.

Lemma fold_zseq_snoc : forall (A : Type) (f : A -> Z -> A) lo hi a,
  lo <= hi -> fold_left f (zseq lo (hi + 1)) a = f (fold_left f (zseq lo hi) a) hi.
Proof. intros. rewrite zseq_snoc by assumption. rewrite fold_left_app. reflexivity. Qed.
