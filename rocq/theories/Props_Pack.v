(** Property C27: the packing used by the component stretcher. *)
From Coq Require Import ZArith List Lia Bool.
From Verif Require Import Base PackModel PackProofs.
Import ListNotations.
Open Scope Z_scope.

(** Work given to agent [a] by an assignment [g] of tasks to agents. *)
Fixpoint work (g : Z -> option Z) (l : list (Z * Z)) (a : Z) : Z :=
  match l with
  | [] => 0
  | (k, s) :: l' => (match g k with Some b => if b =? a then s else 0 | None => 0 end) + work g l' a
  end.
(** [g] gives every task of [l] to one of [m] agents. *)
Definition distributes (g : Z -> option Z) (l : list (Z * Z)) (m : Z) : Prop :=
  forall k s, In (k, s) l -> exists a, g k = Some a /\ 0 <= a < m.

Lemma work_load : forall g l a, work g l a = load g l a.
Proof.
  intros g l a. unfold load. induction l as [|[k s] l IH]; [reflexivity|]. cbn [work filter fst]. rewrite IH.
  destruct (g k) as [b|]; [|lia]. destruct (b =? a); [reflexivity|lia].
Qed.

(** With distinct keys and some work to do, the call ends, every task gets an
    agent, no other key is bound, and the busiest agent has less than twice the
    work of the busiest agent in any distribution whatsoever. *)
Theorem packing_correct : forall l m, 0 < m -> NoDup (map fst l) -> (forall k s, In (k, s) l -> 0 <= s) ->
  (exists k s, In (k, s) l /\ 0 < s) ->
  exists f, huang_lu l m = Some f /\ distributes f l m /\ (forall k, ~ In k (map fst l) -> f k = None) /\
    forall g, distributes g l m -> exists b, 0 <= b < m /\ forall a, work f l a < 2 * work g l b.
Proof.
  intros l m Hm ND Hs [k0 [s0 [I0 P0]]].
  assert (Hs' : forall t, In t l -> 0 <= snd t) by (intros [k s]; apply Hs).
  assert (TP : 0 < total l) by (pose proof (total_in l (k0, s0) Hs' I0); cbn in *; lia).
  destruct (huang_lu_ok l m Hm ND Hs' TP) as [f [thr [E [[A [B D]] TL]]]].
  exists f. split; [exact E|]. split; [intros k s Hi; apply (A (k, s) Hi)|]. split; [exact D|].
  intros g Hg. set (g' := fun k => match g k with Some b => b | None => 0 end).
  assert (GG : forall t, In t l -> 0 <= g' (fst t) < m).
  { intros [k s] Hi. destruct (Hg k s Hi) as [b [Eb Hb]]. unfold g'. cbn [fst]. rewrite Eb. exact Hb. }
  destruct (some_agent_loaded g' l m Hm TP Hs' GG) as [b [Hb Lb]]. exists b. split; [exact Hb|].
  assert (WG : gload g' l b = work g l b).
  { clear -Hg. induction l as [|[k s] l IH]; [reflexivity|].
    assert (Hg' : distributes g l m) by (intros k' s' Hi; apply (Hg k' s'); right; exact Hi).
    destruct (Hg k s (or_introl eq_refl)) as [a [Ea _]].
    unfold gload in *. cbn [filter work fst]. unfold g' at 1. rewrite Ea. rewrite <- (IH Hg').
    destruct (a =? b); reflexivity. }
  intros a. rewrite work_load. specialize (B a). lia.
Qed.
Print Assumptions packing_correct.
Example packing_correct_ex : let l := [(4, 3); (7, 5); (1, 0); (9, 2)] in
  0 < 2 /\ NoDup (map fst l) /\ (forall k s, In (k, s) l -> 0 <= s) /\ (exists k s, In (k, s) l /\ 0 < s) /\
  exists f, huang_lu l 2 = Some f /\ f 7 = Some 0 /\ f 4 = Some 1 /\ f 9 = Some 1.
Proof.
  cbv zeta. split; [lia|]. split.
  { repeat constructor; cbn [map fst In]; lia. }
  split; [intros k s H; cbn [In] in H; repeat (destruct H as [H|H]; [injection H as <- <-; lia|]); contradiction|].
  split; [exists 4, 3; cbn; auto with zarith; lia|].
  eexists. split; [vm_compute; reflexivity|]. vm_compute. auto.
Qed.

(** The hypothesis about positive work is needed. *)
(** When all sizes are zero nothing is assigned at all. *)
Theorem packing_zero_refuted : exists l m f, 0 < m /\ NoDup (map fst l) /\ (forall k s, In (k, s) l -> 0 <= s) /\
  huang_lu l m = Some f /\ ~ distributes f l m.
Proof.
  exists [(0, 0)], 1, aempty. split; [lia|]. split; [repeat constructor; cbn; tauto|].
  split; [intros k s [H|[]]; injection H as <- <-; lia|]. split; [reflexivity|].
  intros H. destruct (H 0 0 (or_introl eq_refl)) as [a [E _]]. discriminate.
Qed.
Print Assumptions packing_zero_refuted.
