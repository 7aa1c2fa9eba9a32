(** Where the values of a proof stand in the public input. *)
From Coq Require Import ZArith List Lia Bool.
From Verif Require Import Base Field Plonk PlonkFacts VerifierModel VerifierSpec VerifierWalk VerifierProofs ProofLayoutModel.
Import ListNotations.
Open Scope Z_scope.

Lemma zl_app : forall A (a b : list A), zlen (a ++ b) = zlen a + zlen b.
Proof. intros. unfold zlen. rewrite app_length. lia. Qed.
Lemma zl_map : forall A B (f : A -> B) l, zlen (map f l) = zlen l.
Proof. intros. unfold zlen. rewrite map_length. reflexivity. Qed.
Lemma znth_mid : forall A (d : A) pre x post, znth d (pre ++ x :: post) (zlen pre) = x.
Proof. intros. unfold znth, zlen. rewrite Nat2Z.id. apply nth_middle. Qed.
Lemma znth_app1 : forall A (d : A) a b i, 0 <= i < zlen a -> znth d (a ++ b) i = znth d a i.
Proof. intros A d a b i Hi. unfold znth, zlen in *. apply app_nth1. lia. Qed.
Lemma znth_app2 : forall A (d : A) a b i, 0 <= i -> znth d (a ++ b) (zlen a + i) = znth d b i.
Proof.
  intros A d a b i Hi. unfold znth, zlen. rewrite app_nth2 by lia. f_equal. lia.
Qed.
Lemma znth_cons0 : forall A (d : A) x l, znth d (x :: l) 0 = x.
Proof. reflexivity. Qed.
Lemma znth_consS : forall A (d : A) x l i, 0 <= i -> znth d (x :: l) (i + 1) = znth d l i.
Proof. intros A d x l i Hi. unfold znth. replace (Z.to_nat (i + 1)) with (S (Z.to_nat i)) by lia. reflexivity. Qed.

(** A list is the list of its elements. *)
Lemma map_zseq_list : forall A (d : A) (g : Z -> A) l n, zlen l = n -> (forall t, 0 <= t < n -> g t = znth d l t) -> map g (zseq 0 n) = l.
Proof.
  intros A d g l n E H. apply (nth_ext _ _ d d).
  - rewrite map_length, zseq_length. unfold zlen in E. lia.
  - intros k Hk. rewrite map_length, zseq_length in Hk. pose proof (znth_map_zseq A g 0 n (Z.of_nat k) d ltac:(lia)) as K.
    unfold znth in K at 1. rewrite Nat2Z.id in K. rewrite K. rewrite H by lia. unfold znth. f_equal. lia.
Qed.

Lemma znth_concat : forall A (d : A) ls (f : Z -> Z) j t, (forall q, 0 <= q < zlen ls -> zlen (znth [] ls q) = f q) ->
  0 <= j < zlen ls -> 0 <= t < f j -> znth d (concat ls) (lsum f (zseq 0 j) + t) = znth d (znth [] ls j) t.
Proof.
  intros A d. induction ls as [|l ls IH]; intros f j t HF Hj Ht; [change (zlen (@nil (list A))) with 0 in Hj; lia|].
  rewrite zlen_cons in *. cbn [concat]. pose proof (zlen_nonneg _ ls) as LN.
  pose proof (HF 0 ltac:(lia)) as L0. rewrite znth_cons0 in L0.
  destruct (Z.eq_dec j 0) as [->|NJ].
  - change (lsum f (zseq 0 0)) with 0. rewrite Z.add_0_l, znth_app1 by lia. reflexivity.
  - rewrite (zseq_cons 0) by lia. cbn [lsum]. rewrite <- L0.
    assert (EI : lsum f (zseq (0 + 1) j) = lsum (fun i => f (i + 1)) (zseq 0 (j - 1))).
    { unfold zseq. replace (Z.to_nat (j - (0 + 1))) with (Z.to_nat (j - 1 - 0)) by lia. apply lsum_shift. }
    rewrite EI.
    assert (NN : 0 <= lsum (fun i => f (i + 1)) (zseq 0 (j - 1))).
    { apply lsum_nn. intros i Hi. apply in_zseq in Hi. rewrite <- (HF (i + 1)) by lia. apply zlen_nonneg. }
    replace (zlen l + lsum (fun i => f (i + 1)) (zseq 0 (j - 1)) + t) with (zlen l + (lsum (fun i => f (i + 1)) (zseq 0 (j - 1)) + t)) by lia.
    rewrite znth_app2 by lia.
    rewrite (IH (fun i => f (i + 1))).
    + replace j with (j - 1 + 1) at 2 by lia. rewrite znth_consS by lia. reflexivity.
    + intros q Hq. rewrite <- (HF (q + 1)) by lia. rewrite znth_consS by lia. reflexivity.
    + lia.
    + replace (j - 1 + 1) with j by lia. exact Ht.
Qed.

Section Layout.
Variable P : params.
Notation F := (F P).
Variable T : table P.
Variable vec : list F.
Hypothesis HV : forall i, 0 <= i < zlen vec -> T CPub 0 i = znth f0 vec i.

Lemma slice : forall mid pre post a n, vec = pre ++ mid ++ post -> zlen pre = a -> zlen mid = n -> map (vval T) (pvars a n) = mid.
Proof.
  induction mid as [|x mid IH]; intros pre post a n EV EA EN.
  - change (zlen (@nil F)) with 0 in EN. unfold pvars. rewrite zseq_nil by lia. reflexivity.
  - rewrite zlen_cons in EN. pose proof (zlen_nonneg _ mid). pose proof (zlen_nonneg _ pre). pose proof (zlen_nonneg _ post).
    unfold pvars. rewrite zseq_cons by lia. cbn [map]. f_equal.
    + change (T CPub 0 a = x). rewrite HV.
      * rewrite EV, <- EA. cbn [app]. apply znth_mid.
      * rewrite EV. rewrite !zl_app, zlen_cons. lia.
    + specialize (IH (pre ++ [x]) post (a + 1) (n - 1)). unfold pvars in IH. replace (a + n) with (a + 1 + (n - 1)) by lia. apply IH.
      * rewrite EV. rewrite <- app_assoc. reflexivity.
      * rewrite zl_app, zlen_cons. change (zlen (@nil F)) with 0. lia.
      * lia.
Qed.

Definition q_fits (I : pinfo) (q : pquery P) : Prop :=
  zlen (pw_vals q) = 2 * pi_polys I /\ zlen (pw_pos q) = pi_m I /\ zlen (pw_hashes q) = pi_batches I * pi_m I /\
  zlen (pw_rvals q) = 2 * pi_r I /\ zlen (pw_rhashes q) = pi_layers I.

Definition ev5 (x : list var * list var * list var * list var * list var) : list F * list F * list F * list F * list F :=
  let '(a, b, c, d, e) := x in (map (vval T) a, map (vval T) b, map (vval T) c, map (vval T) d, map (vval T) e).
Definition pw5 (q : pquery P) := (pw_vals q, pw_pos q, pw_hashes q, pw_rvals q, pw_rhashes q).

Lemma queries_read : forall I qs pre post cur, vec = pre ++ flat_map pw_query qs ++ post -> zlen pre = cur ->
  (forall q, In q qs -> q_fits I q) -> map ev5 (pi_queries I (length qs) cur) = map pw5 qs.
Proof.
  intros I. induction qs as [|q qs IH]; intros pre post cur EV EC HQ; [reflexivity|].
  cbn [length pi_queries map]. destruct (HQ q (or_introl eq_refl)) as [L1 [L2 [L3 [L4 L5]]]].
  cbn [flat_map] in EV. f_equal.
  - unfold pi_query, ev5, pw5. cbv zeta. unfold pw_query in EV. set (rest := flat_map pw_query qs ++ post) in *.
    assert (EV' : vec = pre ++ pw_vals q ++ pw_pos q ++ pw_hashes q ++ pw_rvals q ++ pw_rhashes q ++ rest).
    { rewrite EV. unfold rest. rewrite <- !app_assoc. reflexivity. }
    rewrite (slice (pw_vals q) pre (pw_pos q ++ pw_hashes q ++ pw_rvals q ++ pw_rhashes q ++ rest)) by assumption.
    rewrite (slice (pw_pos q) (pre ++ pw_vals q) (pw_hashes q ++ pw_rvals q ++ pw_rhashes q ++ rest))
      by (rewrite ?EV', ?zl_app, <- ?app_assoc; first [reflexivity|lia]).
    rewrite (slice (pw_hashes q) (pre ++ pw_vals q ++ pw_pos q) (pw_rvals q ++ pw_rhashes q ++ rest))
      by (rewrite ?EV', ?zl_app, <- ?app_assoc; first [reflexivity|lia]).
    rewrite (slice (pw_rvals q) (pre ++ pw_vals q ++ pw_pos q ++ pw_hashes q) (pw_rhashes q ++ rest))
      by (rewrite ?EV', ?zl_app, <- ?app_assoc; first [reflexivity|lia]).
    rewrite (slice (pw_rhashes q) (pre ++ pw_vals q ++ pw_pos q ++ pw_hashes q ++ pw_rvals q) rest)
      by (rewrite ?EV', ?zl_app, <- ?app_assoc; first [reflexivity|lia]).
    reflexivity.
  - apply (IH (pre ++ pw_query q) post).
    + rewrite EV, <- !app_assoc. reflexivity.
    + unfold pw_query, pi_qsize. rewrite !zl_app. lia.
    + intros q' Hq'. apply HQ. right. exact Hq'.
Qed.
End Layout.
