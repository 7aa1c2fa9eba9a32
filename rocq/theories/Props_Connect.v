(** C107-C108: the connectedness check of components. *)
From Coq Require Import ZArith List Lia Bool.
From Verif Require Import Base Field Plonk AssignModel AssignProofs BuilderModel BuilderProofs FinalizeModel ConnectModel ConnectProofs.
Import ListNotations.
Open Scope Z_scope.

(** ** C107 *)

(** The circuits on which the check is exact: one constant column, gates that
    read witnesses and constants by rotations inside the component, copies and
    inputs and outputs inside it or in the first public column at a row below
    the number of inputs. *)
Definition fits {P} (c : cstate P) (s : astate P) (inputs outputs : list var) (start rows : Z) : Prop :=
  let n := Z.of_nat (length inputs) in
  0 <= start /\ 0 <= rows /\ length (a_const s) = 1%nat /\
  (forall sel k row v, on s start rows sel row -> reads c sel k v \/ lreads c sel k v ->
     vrel v = true /\ vty v <> CPub /\ okcell s start rows n (gcell row v)) /\
  (forall a b, In (a, b) (c_copies c) -> okcell s start rows n (acell a) /\ okcell s start rows n (acell b)) /\
  (forall v, In v (inputs ++ outputs) -> okcell s start rows n (acell v)).

Theorem connectedness_strong_exact : forall P (c : cstate P) s inputs outputs start rows, fits c s inputs outputs start rows -> inputs <> [] ->
  exists b, check_connectedness c s inputs outputs start rows KStrong false = Some b /\
    (b = true <-> forall u v, In u (inputs ++ outputs) -> In v (inputs ++ outputs) -> linked c s start rows (acell u) (acell v)).
Proof.
  intros P c s i o start rows [H1 [H2 [H3 [H4 [H5 H6]]]]] Hne.
  destruct (check_spec c s i o start rows H1 H2 H3 H4 H5 H6 KStrong false (fun _ => Hne)) as [b [E B]].
  exists b. split; [exact E|]. rewrite B. split; [intros [X _]; exact X|intros X; split; [exact X|discriminate]].
Qed.
Print Assumptions connectedness_strong_exact.

Theorem connectedness_weak_exact : forall P (c : cstate P) s inputs outputs start rows, fits c s inputs outputs start rows ->
  exists b, check_connectedness c s inputs outputs start rows KWeak false = Some b /\
    (b = true <-> (forall o, In o outputs -> exists i, In i inputs /\ linked c s start rows (acell o) (acell i)) /\
                  (forall i, In i inputs -> exists o, In o outputs /\ linked c s start rows (acell i) (acell o))).
Proof.
  intros P c s i o start rows [H1 [H2 [H3 [H4 [H5 H6]]]]].
  destruct (check_spec c s i o start rows H1 H2 H3 H4 H5 H6 KWeak false ltac:(discriminate)) as [b [E B]].
  exists b. split; [exact E|]. rewrite B. split; [intros [X _]; exact X|intros X; split; [exact X|discriminate]].
Qed.
Print Assumptions connectedness_weak_exact.

(** With islands: besides the above, every cell a constraint mentions is
    linked to an input or an output. *)
Theorem connectedness_islands_exact : forall P (c : cstate P) s inputs outputs start rows t, fits c s inputs outputs start rows -> inputs <> [] -> t <> KNone ->
  exists b b', check_connectedness c s inputs outputs start rows t true = Some b /\
    check_connectedness c s inputs outputs start rows t false = Some b' /\
    (b = true <-> b' = true /\ forall x, constrained c s start rows x -> exists v, In v (inputs ++ outputs) /\ linked c s start rows x (acell v)).
Proof.
  intros P c s i o start rows t [H1 [H2 [H3 [H4 [H5 H6]]]]] Hne Ht.
  destruct (check_spec c s i o start rows H1 H2 H3 H4 H5 H6 t true (fun _ => Hne)) as [b [E B]].
  destruct (check_spec c s i o start rows H1 H2 H3 H4 H5 H6 t false (fun _ => Hne)) as [b' [E' B']].
  exists b, b'. split; [exact E|]. split; [exact E'|]. rewrite B, B'. unfold no_islands. split.
  - intros [X Y]. split; [split; [exact X|discriminate]|]. apply Y; [reflexivity|exact Ht].
  - intros [[X _] Y]. split; [exact X|]. auto.
Qed.
Print Assumptions connectedness_islands_exact.

(** A component of two rows: a gate adding two witnesses on both rows, the sum
    of the first copied into the second. *)
Definition sum_gate : list (expr P97) := [EBin OSub (EBin OAdd (evar (wv 0 0)) (evar (wv 1 0))) (evar (wv 2 0))].
Definition two_c : cstate P97 :=
  mkC [(0%nat, sum_gate)] [] [(mkVar 0 0 false CPub, wcell 0 0); (mkVar 0 1 false CPub, wcell 1 0); (wcell 2 0, wcell 0 1); (mkVar 0 2 false CPub, wcell 1 1)] [] [] 1.
Definition two_s : astate P97 := mkA [[f1; f1]; [f1; f1]; [f1; f1]] [[f1; f1; f1]] [[]] [[f1; f1]] [[]] [] [] [] 2.
Definition two_in := [mkVar 0 0 false CPub; mkVar 0 1 false CPub; mkVar 0 2 false CPub].

Ltac rows2 row H := let X := fresh in assert (X : row = 0 \/ row = 1) by lia; destruct X; subst row.
Lemma two_fits : fits two_c two_s two_in [wcell 2 1] 0 2.
Proof.
  unfold fits. cbv zeta. repeat (split; [cbn; lia|]). split; [|split].
  - intros sel k row v [Hr _] [[cs [e [A [B D]]]]|[cs [l [e [A _]]]]].
    + destruct k as [|k]; [|destruct k; discriminate]. cbn in A. injection A as <- <-. cbn in B. destruct B as [<-|[]].
      cbn in D. destruct D as [<-|[<-|[<-|[]]]]; cbn; repeat split; try discriminate; lia.
    + destruct k; discriminate.
  - intros a b H. cbn in H. destruct H as [H|[H|[H|[H|[]]]]]; injection H as <- <-; cbn; lia.
  - intros v H. cbn in H. destruct H as [<-|[<-|[<-|[<-|[]]]]]; cbn; lia.
Qed.
Example connectedness_example :
  check_connectedness two_c two_s two_in [wcell 2 1] 0 2 KStrong true = Some true /\
  check_connectedness two_c two_s two_in [wcell 2 1] 0 2 KWeak true = Some true /\
  (* without the copy of the sum the rows are apart *)
  check_connectedness (mkC (c_gates two_c) [] (firstn 2 (c_copies two_c) ++ skipn 3 (c_copies two_c)) [] [] 1) two_s two_in [wcell 2 1] 0 2 KStrong true = Some false /\
  (* with the selector off on the second row too *)
  check_connectedness two_c (mkA (a_wit two_s) (a_pub two_s) (a_const two_s) [[f1; f0]] [[]] [] [] [] 2) two_in [wcell 2 1] 0 2 KWeak true = Some false.
Proof. vm_compute. auto. Qed.

(** ** C108 *)

(** All the constants of a row are one cell for the check. *)
Theorem connectedness_constants_refuted : exists (c : cstate P97) s i o,
  check_connectedness c s [i] [o] 0 1 KStrong true = Some true /\ ~ linked c s 0 1 (acell i) (acell o).
Proof.
  exists (mkC [] [] [(wcell 0 0, ccell 0 0); (wcell 1 0, ccell 1 0)] [] [] 0), (a_new P97 2 0 2 0), (wcell 0 0), (wcell 1 0).
  split; [vm_compute; reflexivity|]. intros H.
  apply (linked_label _ _ _ _ _ (fun x : cell => snd (fst x))) in H; [discriminate| | |].
  - intros sel k row u v _ [cs [e [A _]]]. destruct k; discriminate.
  - intros sel k row u v _ [cs [l [e [A _]]]]. destruct k; discriminate.
  - intros a b X. cbn in X. destruct X as [X|[X|[]]]; injection X as <- <-; reflexivity.
Qed.
Print Assumptions connectedness_constants_refuted.

(** A gate reading past the last row of the component: the public input nobody
    copies is reported connected to the output. *)
Theorem connectedness_rows_refuted : exists (c : cstate P97) s i o,
  length (a_const s) = 1%nat /\ c_copies c = [] /\
  check_connectedness c s [i] [o] 0 1 KStrong true = Some true /\ ~ linked c s 0 1 (acell i) (acell o).
Proof.
  exists (mkC [(0%nat, [EBin OSub (evar (wv 0 0)) (evar (wv 0 1))])] [] [] [] [] 1),
    (mkA [[f1; f1]] [[f1]] [[]] [[f1]] [[]] [] [] [] 2), (mkVar 0 0 false CPub), (wcell 0 0).
  split; [reflexivity|]. split; [reflexivity|]. split; [vm_compute; reflexivity|]. intros H.
  apply (linked_label _ _ _ _ _ (fun x : cell => fst (fst x))) in H; [discriminate| | |].
  - intros sel k row u v _ A B.
    assert (W : forall w, reads (mkC [(0%nat, [EBin OSub (evar (wv 0 0)) (evar (wv 0 1))])] [] [] [] [] 1 : cstate P97) sel k w -> vty w = CWit).
    { intros w [cs [e [X [Y Z']]]]. destruct k as [|k]; [|destruct k; discriminate]. cbn in X. injection X as <- <-. destruct Y as [<-|[]].
      cbn in Z'. destruct Z' as [<-|[<-|[]]]; reflexivity. }
    cbn. rewrite (W u A), (W v B). reflexivity.
  - intros sel k row u v _ [cs [l [e [A _]]]]. destruct k; discriminate.
  - intros a b [].
Qed.
Print Assumptions connectedness_rows_refuted.

(** "all inputs can affect all outputs": a component whose output is 7 for
    every input passes the strongest check, on a circuit where it is exact. *)
Theorem connectedness_affects_refuted : exists (c : cstate P97) s i o sel cs,
  fits c s [i] [o] 0 1 /\ c_gates c = [(sel, cs)] /\
  check_connectedness c s [i] [o] 0 1 KStrong true = Some true /\
  (forall T, (forall e, In e cs -> eval T 0 e = f0) -> gval T 0 o = ofZ 7) /\
  (forall x : bool, exists T, (forall e, In e cs -> eval T 0 e = f0) /\ gval T 0 i = ofZ (Z.b2z x)).
Proof.
  set (cs := [EBin OSub (evar (wv 1 0)) (ecst (ofZ 7)); EBin OMul (evar (wv 0 0)) (EBin OSub (evar (wv 0 0)) (ecst f1))] : list (expr P97)).
  set (c := mkC [(0%nat, cs)] [] [] [] [] 1 : cstate P97).
  set (s := mkA [[f1]; [ofZ 7]] [[]] [[]] [[f1]] [[]] [] [] [] 1 : astate P97).
  exists c, s, (wcell 0 0), (wcell 1 0), 0%nat, cs. split; [|split; [reflexivity|split; [vm_compute; reflexivity|split]]].
  - unfold fits. cbv zeta. repeat (split; [cbn; lia|]). split; [|split].
    + intros sel k row v [Hr _] [[cs' [e [A [B D]]]]|[cs' [l [e [A _]]]]].
      * destruct k as [|k]; [|destruct k; discriminate]. cbn in A. injection A as <- <-. cbn in B.
        destruct B as [<-|[<-|[]]]; cbn in D; repeat (destruct D as [<-|D]); try destruct D; cbn; repeat split; try discriminate; lia.
      * destruct k; discriminate.
    + intros a b [].
    + intros v H. cbn in H. destruct H as [<-|[<-|[]]]; cbn; lia.
  - intros T H. specialize (H _ (or_introl eq_refl)). cbn in H. apply fsub0 in H. rewrite <- H. symmetry. exact (Ring_theory.Rmul_1_l (F_ring P97) _).
  - intros x. exists (fun t i r => match t with CWit => if i =? 0 then ofZ (Z.b2z x) else ofZ 7 | _ => f0 end).
    split; [|destruct x; reflexivity]. intros e [<-|[<-|[]]]; destruct x; apply F_ext; vm_compute; reflexivity.
Qed.
Print Assumptions connectedness_affects_refuted.
