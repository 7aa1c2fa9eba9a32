(** C109-C110: the component stretcher. *)
From Coq Require Import ZArith String List Lia Bool.
From Verif Require Import Base Field Plonk PlonkFacts AssignModel AssignProofs BuilderModel BuilderProofs FinalizeModel ConnectModel ConnectProofs PackModel StretchModel StretchProofs.
Import ListNotations.
Open Scope Z_scope.

(** The constants in copy constraints, in some order. *)
Definition lists_consts {P} (c : cstate P) (cvs : list var) : Prop := forall v, In v cvs <-> copied c v /\ vty v = CConst.
(** [huang_lu] as the packing. *)
Definition packed (R coeff : Z) (z : zones) (k : Z) : Z := match pack_map z R coeff with Some f => f k | None => 0 end.

Lemma layout_inv : forall P (I : inner P) n zmap cvs z rm c s, n_circuit I (converted n) = (c, s) -> layout I n zmap cvs = Some (z, rm) ->
  stretch_zones c s (n_rows I) = Some z /\ place_consts z (zmap z) (n_rows I) (taken z (zmap z) (prio c s (n_rows I))) (fun _ => None) cvs = Some rm.
Proof.
  intros P I n zmap cvs z rm c s Hc H. unfold layout in H. rewrite Hc in H. destruct (stretch_zones c s (n_rows I)) as [z'|]; [|discriminate].
  destruct (forallb _ _); [|discriminate]. destruct (place_consts _ _ _ _ _ _) as [rm'|] eqn:E; [|discriminate]. injection H as <- <-. auto.
Qed.

(** ** C109 *)

(** The stretched circuit is defined whenever the layout is. *)
Theorem stretch_defined : forall P (I : inner P) W zmap cvs n start z rm c s,
  n_circuit I (converted n) = (c, s) -> 0 <= n_rows I -> regular c s (n_rows I) W n -> lists_consts c cvs ->
  layout I n zmap cvs = Some (z, rm) -> stretch_circuit I W zmap cvs (converted n) start <> None.
Proof.
  intros P I W zmap cvs n start z rm c s Hc HR Hreg Hcv Hl. destruct (layout_inv _ _ _ _ _ _ _ _ _ Hc Hl) as [Hz Hp].
  unfold stretch_circuit. assert (El : length (converted n) = n) by (unfold converted; rewrite map_length; apply seq_length). rewrite El, Hl, Hc.
  destruct (move_circuit_spec c s (n_rows I) W start n z (zmap z) cvs rm Hreg Hz Hcv Hp) as [cmds [E _]]. rewrite E. discriminate.
Qed.
Print Assumptions stretch_defined.

(** Soundness: the table read through the layout meets the original circuit,
    and a result variable has the value of the original one. *)
Theorem stretch_sound : forall P (I : inner P) W zmap cvs n start z rm c s cmds L T,
  n_circuit I (converted n) = (c, s) -> 0 <= n_rows I -> regular c s (n_rows I) W n -> lists_consts c cvs ->
  layout I n zmap cvs = Some (z, rm) -> stretch_circuit I W zmap cvs (converted n) start = Some cmds -> sat L T cmds ->
  meets c s (n_rows I) (unstretch z (zmap z) W start s T) /\
  (forall k, T CPub 0 k = unstretch z (zmap z) W start s T CPub 0 k) /\
  (forall v, vty v = CWit -> vrel v = false -> 0 <= vrot v < n_rows I ->
     exists v', move_result z (zmap z) W start (converted n) v = Some v' /\ vval T v' = vval (unstretch z (zmap z) W start s T) v).
Proof.
  intros P I W zmap cvs n start z rm c s cmds L T Hc HR Hreg Hcv Hl Hs HT. destruct (layout_inv _ _ _ _ _ _ _ _ _ Hc Hl) as [Hz Hp].
  unfold stretch_circuit in Hs. assert (El : length (converted n) = n) by (unfold converted; rewrite map_length; apply seq_length). rewrite El, Hl, Hc in Hs.
  split; [|split; [reflexivity|]].
  - eapply stretch_sound_l; eauto.
  - intros v. eapply result_value; eauto.
Qed.
Print Assumptions stretch_sound.

(** Completeness: the assignment of the original component, moved into empty
    cells, satisfies the stretched circuit; nothing else is written. *)
Theorem stretch_complete : forall P (I : inner P) W zmap cvs n start z rm c s cmds L s2 T,
  n_circuit I (converted n) = (c, s) -> 0 <= n_rows I -> regular c s (n_rows I) W n -> lists_consts c cvs ->
  layout I n zmap cvs = Some (z, rm) -> stretch_circuit I W zmap cvs (converted n) start = Some cmds ->
  a_const s2 = a_const s -> meets c s (n_rows I) (a_table s2) ->
  (forall k, 0 <= k < Z.of_nat n -> T CPub 0 k = a_table s2 CPub 0 k) ->
  (forall a b, start <= b < start + n_rows I -> T CWit a b = f0) ->
  exists T', stretch_assignment I W zmap cvs (converted n) start s2 (run_consts T cmds) = Some T' /\ sat L T' cmds /\
    (forall a b, T CWit a b <> T' CWit a b -> exists w i, 0 <= w < W /\ 0 <= i < n_rows I /\ a = group z (zmap z) i * W + w /\ b = start + line z (zmap z) i).
Proof.
  intros P I W zmap cvs n start z rm c s cmds L s2 T Hc HR Hreg Hcv Hl Hs Hk Hm Hp Hw. destruct (layout_inv _ _ _ _ _ _ _ _ _ Hc Hl) as [Hz Hpl].
  unfold stretch_circuit in Hs. unfold stretch_assignment. assert (El : length (converted n) = n) by (unfold converted; rewrite map_length; apply seq_length).
  rewrite El, Hl, Hc in Hs. rewrite El, Hl. eexists. split; [reflexivity|]. split.
  - eapply stretch_complete_l; eauto. intros w i Hw' Hi. apply Hw. unfold line. assert (X : forall A (f : A -> bool) l, (length (filter f l) <= length l)%nat) by (intros A f; induction l as [|y l IH]; cbn; [lia|destruct (f y); cbn; lia]). specialize (X _ (fun j => group z (zmap z) j =? group z (zmap z) i) (zseq 0 i)). rewrite zseq_length in X. lia.
  - intros a b Hne. destruct (move_assignment_cell c (n_rows I) W start z (zmap z) HR s2 (run_consts T cmds)) as [_ [_ D]].
    assert (Dec : forall m k, {exists w i, 0 <= w < Z.of_nat k /\ 0 <= i < Z.of_nat m /\ a = group z (zmap z) i * W + w /\ b = start + line z (zmap z) i} +
                              {forall w i, 0 <= w < Z.of_nat k -> 0 <= i < Z.of_nat m -> a <> group z (zmap z) i * W + w \/ b <> start + line z (zmap z) i}).
    { induction m as [|m IHm]; intros k; [right; intros; lia|]. destruct (IHm k) as [X|X].
      - left. destruct X as [w [i [X1 [X2 X3]]]]. exists w, i. repeat split; try lia; tauto.
      - assert (G : forall k', {exists w, 0 <= w < Z.of_nat k' /\ a = group z (zmap z) (Z.of_nat m) * W + w /\ b = start + line z (zmap z) (Z.of_nat m)} + {forall w, 0 <= w < Z.of_nat k' -> a <> group z (zmap z) (Z.of_nat m) * W + w \/ b <> start + line z (zmap z) (Z.of_nat m)}).
        { induction k' as [|k' IHk]; [right; intros; lia|]. destruct IHk as [Y|Y]; [left; destruct Y as [w [Y1 Y2]]; exists w; split; [lia|exact Y2]|].
          destruct (Z.eq_dec a (group z (zmap z) (Z.of_nat m) * W + Z.of_nat k')) as [E1|E1]; [destruct (Z.eq_dec b (start + line z (zmap z) (Z.of_nat m))) as [E2|E2]|].
          - left. exists (Z.of_nat k'). split; [lia|auto].
          - right. intros w Hw'. destruct (Z.eq_dec w (Z.of_nat k')) as [->|]; [right; exact E2|apply Y; lia].
          - right. intros w Hw'. destruct (Z.eq_dec w (Z.of_nat k')) as [->|]; [left; exact E1|apply Y; lia]. }
        destruct (G k) as [Y|Y]; [left; destruct Y as [w [Y1 Y2]]; exists w, (Z.of_nat m); repeat split; try lia; tauto|].
        right. intros w i Hw' Hi. destruct (Z.eq_dec i (Z.of_nat m)) as [->|]; [apply Y; exact Hw'|apply X; lia]. }
    destruct (Dec (Z.to_nat (n_rows I)) (Z.to_nat W)) as [X|X].
    + destruct X as [w [i [X1 [X2 X3]]]]. exists w, i. repeat split; try lia; tauto.
    + exfalso. apply Hne. rewrite D by (intros w i Hw' Hi; apply X; lia). symmetry. apply run_consts_other. discriminate.
Qed.
Print Assumptions stretch_complete.

(** Five rows of two columns folded into two groups: in0 + in1 on two rows with
    a copied constant, its square on the next two, a gate with a constant on the
    fifth. *)
Definition demo : inner P97 := mkInner 5 (fun ins =>
  (mkC [(0%nat, [EBin OSub (EBin OAdd (evar (wv 0 0)) (evar (wv 1 0))) (evar (wv 0 1))]);
        (1%nat, [EBin OSub (EBin OMul (evar (wv 0 0)) (evar (wv 0 0))) (evar (wv 0 1))]);
        (2%nat, [EBin OSub (evar (wv 0 0)) (evar (mkVar 0 0 true CConst))])] []
       [(nth 0 ins (wcell 0 0), wcell 0 0); (nth 1 ins (wcell 0 0), wcell 1 0); (wcell 1 1, ccell 0 0); (wcell 0 1, wcell 0 2); (wcell 1 4, wcell 0 3)] [] [] 3,
   mkA [[]; []] [] [[ofZ 5; f0; f0; f0; ofZ 7]] [[f1]; [f0; f0; f1]; [f0; f0; f0; f0; f1]] [[]] [] [] [] 5)).
Definition demo_s (x y : F P97) : astate P97 :=
  mkA [[x; fadd x y; fadd x y; fmul (fadd x y) (fadd x y); ofZ 7]; [y; ofZ 5; f0; f0; fmul (fadd x y) (fadd x y)]] [[x; y]] [[ofZ 5; f0; f0; f0; ofZ 7]] [] [[]] [] [] [] 5.
Lemma demo_on : forall sel row, on (snd (n_circuit demo (converted 2))) 0 5 sel row -> (sel = 0%nat /\ row = 0) \/ (sel = 1%nat /\ row = 2) \/ (sel = 2%nat /\ row = 4).
Proof.
  intros sel row [Hr H]. assert (X : row = 0 \/ row = 1 \/ row = 2 \/ row = 3 \/ row = 4) by lia.
  destruct sel as [|[|[|sel]]].
  - left. split; [reflexivity|]. destruct X as [->|[->|[->|[->| ->]]]]; [reflexivity| | | |]; exfalso; apply H; vm_compute; reflexivity.
  - right. left. split; [reflexivity|]. destruct X as [->|[->|[->|[->| ->]]]]; [| |reflexivity| |]; exfalso; apply H; vm_compute; reflexivity.
  - right. right. split; [reflexivity|]. destruct X as [->|[->|[->|[->| ->]]]]; [| | | |reflexivity]; exfalso; apply H; vm_compute; reflexivity.
  - exfalso. apply H. replace row with (Z.of_nat (Z.to_nat row)) by lia. cbn [a_table n_circuit demo snd a_sel]. rewrite cells_cell2. unfold cell2. destruct sel; reflexivity.
Qed.
Lemma demo_regular : regular (fst (n_circuit demo (converted 2))) (snd (n_circuit demo (converted 2))) 5 2 2.
Proof.
  split; [reflexivity|]. split; [repeat constructor; cbn; intuition discriminate|]. split.
  { intros sel cs H. cbn in H. destruct H as [H|[H|[H|[]]]]; injection H as <- _; cbn; lia. }
  split; [reflexivity|]. split.
  - intros sel cs row e v Hg Ho He Hv. apply demo_on in Ho. cbn in Hg.
    destruct Hg as [Hg|[Hg|[Hg|[]]]]; injection Hg as <- <-; cbn in He; destruct He as [<-|[]]; cbn in Hv; destruct Ho as [[Ho ->]|[[Ho ->]|[Ho ->]]]; try discriminate;
      repeat (destruct Hv as [<-|Hv]); try destruct Hv; cbn; (split; [reflexivity|]); (split; [lia|]); try (left; split; [reflexivity|lia]).
    right. repeat split; try lia; try discriminate. intros w [a [b [H Hw]]]. cbn in H.
    repeat (destruct H as [H|H]); try contradiction; injection H as <- <-; destruct Hw as [->| ->]; cbn; intros; try discriminate; lia.
  - intros v [a [b [H Hv]]]. cbn in H.
    repeat (destruct H as [H|H]); try contradiction; injection H as <- <-; destruct Hv as [->| ->]; cbn; (split; [reflexivity|]);
      first [left; repeat split; lia | right; left; repeat split; solve [lia | discriminate] | right; right; repeat split; lia].
Qed.
Lemma demo_consts : lists_consts (fst (n_circuit demo (converted 2))) [ccell 0 0].
Proof.
  intros v. split.
  - intros [<-|[]]. split; [|reflexivity]. exists (wcell 1 1), (ccell 0 0). split; [cbn; tauto|auto].
  - intros [[a [b [H Hv]]] Ht]. cbn in H. repeat (destruct H as [H|H]); try contradiction; injection H as <- <-; destruct Hv as [->| ->]; try discriminate. left. reflexivity.
Qed.
Lemma demo_meets : forall x y, meets (fst (n_circuit demo (converted 2))) (snd (n_circuit demo (converted 2))) 5 (a_table (demo_s x y)).
Proof.
  intros x y.
  assert (S0 : forall a : F P97, fsub a a = f0) by (intros a; apply fsub_eq0; reflexivity).
  assert (M1 : forall a : F P97, fmul f1 a = a) by (intros a; exact (Ring_theory.Rmul_1_l (F_ring P97) a)).
  split; [|split].
  - intros sel cs row e Hg Ho He. apply demo_on in Ho. cbn in Hg.
    destruct Hg as [Hg|[Hg|[Hg|[]]]]; injection Hg as <- <-; destruct He as [<-|[]]; destruct Ho as [[Ho ->]|[[Ho ->]|[Ho ->]]]; try discriminate;
      cbn [eval evar fold_left ebop]; rewrite !M1; apply S0.
  - intros a b H. cbn in H. repeat (destruct H as [H|H]); try contradiction; injection H as <- <-; reflexivity.
  - intros i v H. unfold const_at in H. cbn [snd n_circuit demo a_const] in H. destruct (0 <=? i) eqn:E; [|discriminate]. apply Z.leb_le in E.
    cbn [a_table demo_s a_const]. replace i with (Z.of_nat (Z.to_nat i)) by lia. change 0 with (Z.of_nat 0). rewrite cells_cell2. unfold cell2. cbn [nth_error]. rewrite H. reflexivity.
Qed.
(** The rows go to groups 0, 0, 1, 1, 0 or the like; lines are counted in each;
    the copied constant keeps a free line. *)
Example demo_layout :
  match layout demo 2 (packed 5 2) [ccell 0 0] with
  | Some (z, rm) => map (group z (packed 5 2 z)) [0; 1; 2; 3; 4] = [0; 0; 1; 1; 0] /\
                    map (line z (packed 5 2 z)) [0; 1; 2; 3; 4] = [0; 1; 0; 1; 2] /\ rm 0 = Some 0 /\ rm 4 = None
  | None => False
  end.
Proof. vm_compute. auto. Qed.
Example demo_stretched : forall x y, exists cmds T',
  stretch_circuit demo 2 (packed 5 2) [ccell 0 0] (converted 2) 10 = Some cmds /\
  stretch_assignment demo 2 (packed 5 2) [ccell 0 0] (converted 2) 10 (demo_s x y) (run_consts (fun t c r => match t with CPub => a_table (demo_s x y) CPub c r | _ => f0 end) cmds) = Some T' /\
  sat (fun _ _ => False) T' cmds /\ length cmds = 10%nat.
Proof.
  intros x y. destruct (layout demo 2 (packed 5 2) [ccell 0 0]) as [[z rm]|] eqn:El; [|vm_compute in El; discriminate].
  destruct (stretch_circuit demo 2 (packed 5 2) [ccell 0 0] (converted 2) 10) as [cmds|] eqn:Es; [|vm_compute in Es; discriminate].
  destruct (stretch_complete P97 demo 2 (packed 5 2) [ccell 0 0] 2 10 z rm _ _ cmds (fun _ _ => False) (demo_s x y)
    (fun t c r => match t with CPub => a_table (demo_s x y) CPub c r | _ => f0 end) (surjective_pairing _) ltac:(cbn; lia) demo_regular demo_consts El Es eq_refl (demo_meets x y)
    ltac:(reflexivity) ltac:(reflexivity)) as [T' [A [B _]]].
  exists cmds, T'. split; [reflexivity|]. split; [exact A|]. split; [exact B|]. assert (X : option_map (@length _) (stretch_circuit demo 2 (packed 5 2) [ccell 0 0] (converted 2) 10) = Some 10%nat) by (vm_compute; reflexivity).
  rewrite Es in X. injection X as X. exact X.
Qed.

(** ** C110 *)

Definition nol : lenv P97 := fun _ _ => False.

(** The circuit is generated with the given inputs, and its variables are then
    replaced as if it had been generated with the converted ones: for inputs
    that are not the first public inputs in order the stretched component
    computes something else. *)
Definition difference : inner P97 := mkInner 1 (fun ins =>
  (mkC [(0%nat, [EBin OSub (EBin OSub (evar (wv 0 0)) (evar (wv 1 0))) (evar (wv 2 0))])] []
       [(nth 0 ins (wcell 0 0), wcell 0 0); (nth 1 ins (wcell 0 0), wcell 1 0)] [] [] 1,
   mkA [[]; []; []] [] [[]] [[f1]] [[]] [] [] [] 1)).
Theorem stretch_inputs_refuted : exists (I : inner P97) a b out cmds T z rm out',
  (* the component computes the difference of its inputs *)
  (forall T, meets (fst (n_circuit I [a; b])) (snd (n_circuit I [a; b])) (n_rows I) T -> vval T out = fsub (vval T a) (vval T b)) /\
  layout I 2 (packed 1 2) [] = Some (z, rm) /\
  stretch_circuit I 3 (packed 1 2) [] [a; b] 10 = Some cmds /\ sat nol T cmds /\
  move_result z (packed 1 2 z) 3 10 [a; b] out = Some out' /\ vval T out' <> fsub (vval T a) (vval T b).
Proof.
  destruct (layout difference 2 (packed 1 2) []) as [[z rm]|] eqn:El; [|vm_compute in El; discriminate].
  destruct (stretch_circuit difference 3 (packed 1 2) [] [mkVar 0 1 false CPub; mkVar 0 0 false CPub] 10) as [cmds|] eqn:Es; [|vm_compute in Es; discriminate].
  destruct (move_result z (packed 1 2 z) 3 10 [mkVar 0 1 false CPub; mkVar 0 0 false CPub] (wcell 2 0)) as [out'|] eqn:Eo.
  2:{ exfalso. assert (X : match layout difference 2 (packed 1 2) [] with Some (z, rm) => move_result z (packed 1 2 z) 3 10 [mkVar 0 1 false CPub; mkVar 0 0 false CPub] (wcell 2 0) <> None | None => False end) by (vm_compute; discriminate).
      rewrite El in X. congruence. }
  exists difference, (mkVar 0 1 false CPub), (mkVar 0 0 false CPub), (wcell 2 0), cmds,
    (fun t c r => match t with
                  | CPub => if r =? 0 then ofZ 3 else ofZ 1
                  | CWit => if c =? 0 then ofZ 3 else if c =? 1 then ofZ 1 else ofZ 2
                  | _ => f0 end), z, rm, out'.
  split; [|split; [exact El|split; [exact Es|split; [|split; [exact Eo|]]]]].
  - intros T [M1 [M2 _]]. pose proof (fun e => M1 0%nat _ 0 e (or_introl eq_refl)) as G.
    assert (M : forall a : F P97, fmul f1 a = a) by (intros a; exact (Ring_theory.Rmul_1_l (F_ring P97) a)).
    specialize (G (EBin OSub (EBin OSub (evar (wv 0 0)) (evar (wv 1 0))) (evar (wv 2 0)))).
    assert (Ho : on (snd (n_circuit difference [mkVar 0 1 false CPub; mkVar 0 0 false CPub])) 0 (n_rows difference) 0 0) by (split; [cbn; lia|vm_compute; discriminate]).
    specialize (G Ho (or_introl eq_refl)). cbn [eval evar fold_left ebop] in G. rewrite !M in G. apply fsub0 in G.
    pose proof (M2 _ _ (or_introl eq_refl)) as A. pose proof (M2 _ _ (or_intror (or_introl eq_refl))) as B.
    cbn [nth] in A, B. rewrite A, B. symmetry. exact G.
  - vm_compute in Es. injection Es as <-. intros x Hx. cbn [In] in Hx. destruct Hx as [<-|[<-|[<-|[]]]].
    + cbn [holds]. intros r Hr e He. destruct Hr as [<-|[]]. destruct He as [<-|[]]. apply F_ext. vm_compute. reflexivity.
    + cbn [holds]. apply F_ext. vm_compute. reflexivity.
    + cbn [holds]. apply F_ext. vm_compute. reflexivity.
  - assert (X : match layout difference 2 (packed 1 2) [] with Some (z, rm) => move_result z (packed 1 2 z) 3 10 [mkVar 0 1 false CPub; mkVar 0 0 false CPub] (wcell 2 0) = Some (wcell 2 10) | None => False end) by (vm_compute; reflexivity).
    rewrite El in X. rewrite X in Eo. injection Eo as <-. intros Y. apply (f_equal fval) in Y. vm_compute in Y. discriminate.
Qed.
Print Assumptions stretch_inputs_refuted.

(** An input in a witness column is taken for a cell of the component itself:
    here nothing constrains the result. *)
Definition identity : inner P97 := mkInner 1 (fun ins =>
  (mkC [] [] [(nth 0 ins (wcell 0 0), wcell 0 0)] [] [] 0, mkA [[]] [] [[]] [] [[]] [] [] [] 1)).
Theorem stretch_witness_input_refuted : exists (I : inner P97) a out cmds,
  (forall T, meets (fst (n_circuit I [a])) (snd (n_circuit I [a])) (n_rows I) T -> vval T out = vval T a) /\
  (forall T k, meets (fst (n_circuit I (converted 1))) (snd (n_circuit I (converted 1))) (n_rows I) T -> T CPub 0 0 = k -> vval T out = k) /\
  stretch_circuit I 1 (packed 1 2) [] [a] 10 = Some cmds /\ forall T, sat nol T cmds.
Proof.
  exists identity, (wcell 0 0), (wcell 0 0), [Copy (wcell 0 10) (wcell 0 10)]. split; [reflexivity|]. split.
  - intros T k [_ [M _]] H. rewrite <- H. symmetry. exact (M _ _ (or_introl eq_refl)).
  - split; [vm_compute; reflexivity|]. intros T x [<-|[]]. reflexivity.
Qed.
Print Assumptions stretch_witness_input_refuted.

(** [rows_amount] is the size of the largest zone, not of the fullest group: a
    component placed right after the stretched one overwrites its cells. *)
Definition three : inner P97 := mkInner 3 (fun ins =>
  (mkC [(0%nat, [EBin OSub (evar (wv 0 0)) (ecst f1)]); (1%nat, [EBin OSub (evar (wv 0 0)) (ecst (ofZ 2))]); (2%nat, [EBin OSub (evar (wv 0 0)) (ecst (ofZ 3))])] [] [] [] [] 3,
   mkA [[]] [] [[]] [[f1]; [f0; f1]; [f0; f0; f1]] [[]] [] [] [] 3)).
Theorem stretch_rows_refuted : exists (I : inner P97) W coeff cvs cmds rows cs start last,
  stretch_rows I 0 = Some rows /\ stretch_circuit I W (packed (n_rows I) coeff) cvs [] start = Some cmds /\
  In (Gate cs [last]) cmds /\ start + rows <= last.
Proof.
  exists three, 1, 2, (@nil var). destruct (stretch_circuit three 1 (packed 3 2) [] [] 10) as [cmds|] eqn:E; [|vm_compute in E; discriminate].
  exists cmds, 1. vm_compute in E. injection E as <-.
  exists [EBin OSub (evar (wv 0 0)) (ecst (ofZ 2))], 10, 11.
  split; [vm_compute; reflexivity|]. split; [vm_compute; reflexivity|]. split; [|lia].
  cbn [In]. first [left; reflexivity | right; left; reflexivity | right; right; left; reflexivity].
Qed.
Print Assumptions stretch_rows_refuted.

(** A constant that a gate reads and a copy constraint mentions goes only to
    the place of the copied one: the moved gate reads another cell, and the
    honest assignment fails. *)
Definition both : inner P97 := mkInner 3 (fun ins =>
  (mkC [(0%nat, [EBin OSub (evar (wv 0 0)) (evar (mkVar 0 0 true CConst))])] [] [(wcell 1 0, ccell 0 0)] [] [] 1,
   mkA [[]; []] [] [[ofZ 5]] [[f1]] [[]] [] [] [] 3)).
(** A constant read by rotation need not be in the group of the gate. *)
Definition rotated : inner P97 := mkInner 3 (fun ins =>
  (mkC [(0%nat, [EBin OSub (evar (wv 0 0)) (evar (mkVar 0 (-1) true CConst))])] [] [] [] [] 1,
   mkA [[]] [] [[ofZ 5]] [[f0; f1]] [[]] [] [] [] 3)).
Definition empty_table : table P97 := fun _ _ _ => f0.
Definition honest_rejected (I : inner P97) (W coeff : Z) (cvs : list var) (s2 : astate P97) : Prop :=
  lists_consts (fst (n_circuit I [])) cvs /\
  a_const s2 = a_const (snd (n_circuit I [])) /\ meets (fst (n_circuit I [])) (snd (n_circuit I [])) (n_rows I) (a_table s2) /\
  exists cmds T', stretch_circuit I W (packed (n_rows I) coeff) cvs [] 10 = Some cmds /\
    stretch_assignment I W (packed (n_rows I) coeff) cvs [] 10 s2 (run_consts empty_table cmds) = Some T' /\ ~ sat nol T' cmds.
Lemma const5 : forall (s2 : astate P97) i v, a_const s2 = [[ofZ 5]] -> match a_const s2 with col :: _ => if 0 <=? i then nth_error col (Z.to_nat i) else None | [] => None end = Some v -> a_table s2 CConst 0 i = v.
Proof.
  intros s2 i v E H. cbn [a_table]. rewrite E in *. destruct (0 <=? i) eqn:Hi; [|discriminate]. apply Z.leb_le in Hi. replace i with (Z.of_nat (Z.to_nat i)) by lia.
  change 0 with (Z.of_nat 0). rewrite cells_cell2. unfold cell2. cbn [nth_error]. rewrite H. reflexivity.
Qed.
Theorem stretch_constants_refuted : exists I1 s1 cvs1 I2 s2, honest_rejected I1 2 2 cvs1 s1 /\ honest_rejected I2 1 3 [] s2.
Proof.
  exists both, (mkA [[ofZ 5]; [ofZ 5]] [] [[ofZ 5]] [] [[]] [] [] [] 3), [ccell 0 0], rotated, (mkA [[f0; ofZ 5]] [] [[ofZ 5]] [] [[]] [] [] [] 3).
  split; (split; [|split; [reflexivity|split]]).
  - intros v. split.
    + intros [<-|[]]. split; [|reflexivity]. exists (wcell 1 0), (ccell 0 0). split; [left; reflexivity|auto].
    + intros [[a [b [[H|[]] Hv]]] Ht]. injection H as <- <-. destruct Hv as [->| ->]; [discriminate|left; reflexivity].
  - split; [|split].
    + intros sel cs row e [Hg|[]] [Hr Ho] He. injection Hg as <- <-. destruct He as [<-|[]]. assert (X : row = 0 \/ row = 1 \/ row = 2) by (cbn in Hr; lia).
      destruct X as [->|[->| ->]]; [apply F_ext; vm_compute; reflexivity| |]; exfalso; apply Ho; apply F_ext; vm_compute; reflexivity.
    + intros a b [H|[]]. injection H as <- <-. reflexivity.
    + intros i v H. apply const5; [reflexivity|exact H].
  - destruct (stretch_circuit both 2 (packed (n_rows both) 2) [ccell 0 0] [] 10) as [cmds|] eqn:E; [|vm_compute in E; discriminate].
    destruct (stretch_assignment both 2 (packed (n_rows both) 2) [ccell 0 0] [] 10 (mkA [[ofZ 5]; [ofZ 5]] [] [[ofZ 5]] [] [[]] [] [] [] 3) (run_consts empty_table cmds)) as [T'|] eqn:E'; [|vm_compute in E'; discriminate].
    exists cmds, T'. split; [reflexivity|]. split; [exact E'|]. intros H.
    assert (G : In (Gate [EBin OSub (evar (wv 0 0)) (evar (mkVar 0 0 true CConst))] [10]) cmds) by (vm_compute in E; injection E as <-; left; reflexivity).
    specialize (H _ G 10 (or_introl eq_refl) _ (or_introl eq_refl)).
    assert (X : match stretch_circuit both 2 (packed 3 2) [ccell 0 0] [] 10 with
                | Some cmds => match stretch_assignment both 2 (packed 3 2) [ccell 0 0] [] 10 (mkA [[ofZ 5]; [ofZ 5]] [] [[ofZ 5]] [] [[]] [] [] [] 3) (run_consts empty_table cmds) with
                               | Some T => fval (eval T 10 (EBin OSub (evar (wv 0 0)) (evar (mkVar 0 0 true CConst)))) | None => 0 end | None => 0 end = 5) by (vm_compute; reflexivity).
    change (n_rows both) with 3 in E, E'. rewrite E, E', H in X. vm_compute in X. discriminate.
  - intros v. split; [intros []|]. intros [[a [b [[] _]]] _].
  - split; [|split].
    + intros sel cs row e [Hg|[]] [Hr Ho] He. injection Hg as <- <-. destruct He as [<-|[]]. assert (X : row = 1 \/ row = 0 \/ row = 2) by (cbn in Hr; lia).
      destruct X as [->|[->| ->]]; [apply F_ext; vm_compute; reflexivity| |]; exfalso; apply Ho; apply F_ext; vm_compute; reflexivity.
    + intros a b [].
    + intros i v H. apply const5; [reflexivity|exact H].
  - destruct (stretch_circuit rotated 1 (packed (n_rows rotated) 3) [] [] 10) as [cmds|] eqn:E; [|vm_compute in E; discriminate].
    destruct (stretch_assignment rotated 1 (packed (n_rows rotated) 3) [] [] 10 (mkA [[f0; ofZ 5]] [] [[ofZ 5]] [] [[]] [] [] [] 3) (run_consts empty_table cmds)) as [T'|] eqn:E'; [|vm_compute in E'; discriminate].
    exists cmds, T'. split; [reflexivity|]. split; [exact E'|]. intros H.
    assert (G : In (Gate [EBin OSub (evar (wv 1 0)) (evar (mkVar 0 (-1) true CConst))] [10]) cmds) by (vm_compute in E; injection E as <-; left; reflexivity).
    specialize (H _ G 10 (or_introl eq_refl) _ (or_introl eq_refl)).
    assert (X : match stretch_circuit rotated 1 (packed 3 3) [] [] 10 with
                | Some cmds => match stretch_assignment rotated 1 (packed 3 3) [] [] 10 (mkA [[f0; ofZ 5]] [] [[ofZ 5]] [] [[]] [] [] [] 3) (run_consts empty_table cmds) with
                               | Some T => fval (eval T 10 (EBin OSub (evar (wv 1 0)) (evar (mkVar 0 (-1) true CConst)))) | None => 0 end | None => 0 end = 5) by (vm_compute; reflexivity).
    change (n_rows rotated) with 3 in E, E'. rewrite E, E', H in X. vm_compute in X. discriminate.
Qed.
Print Assumptions stretch_constants_refuted.

(** Lookup gates are not moved: the stretched component does without them. *)
Theorem stretch_lookups_refuted : exists (I : inner P97) sel t e cmds,
  In (sel, [(t, [e])]) (c_lgates (fst (n_circuit I []))) /\ on (snd (n_circuit I [])) 0 (n_rows I) sel 0 /\
  stretch_circuit I 1 (packed 1 2) [] [] 10 = Some cmds /\ forall L T, sat L T cmds.
Proof.
  exists (mkInner 1 (fun ins => (mkC [] [(0%nat, [(1%nat, [evar (wv 0 0)])])] [] [] [] 1, mkA [[]] [] [[]] [[f1]] [[]] [] [] [] 1))), 0%nat, 1%nat, (evar (wv 0 0)), [].
  split; [left; reflexivity|]. split; [split; [cbn; lia|vm_compute; discriminate]|]. split; [vm_compute; reflexivity|]. intros L T x [].
Qed.
Print Assumptions stretch_lookups_refuted.

(** Of the gates on one selector only the last is on in the stretched one. *)
Theorem stretch_selector_refuted : exists (I : inner P97) sel cs e cmds z rm T,
  In (sel, cs) (c_gates (fst (n_circuit I []))) /\ In e cs /\ on (snd (n_circuit I [])) 0 (n_rows I) sel 0 /\
  layout I 0 (packed 1 2) [] = Some (z, rm) /\ stretch_circuit I 2 (packed 1 2) [] [] 10 = Some cmds /\ sat nol T cmds /\
  eval (unstretch z (packed 1 2 z) 2 10 (snd (n_circuit I [])) T) 0 e <> f0.
Proof.
  set (I := mkInner 1 (fun ins => (mkC [(0%nat, [EBin OSub (evar (wv 0 0)) (ecst f1)]); (0%nat, [EBin OSub (evar (wv 1 0)) (ecst (ofZ 2))])] [] [] [] [] 1, mkA [[]; []] [] [[]] [[f1]] [[]] [] [] [] 1)) : inner P97).
  destruct (layout I 0 (packed 1 2) []) as [[z rm]|] eqn:El; [|vm_compute in El; discriminate].
  destruct (stretch_circuit I 2 (packed 1 2) [] [] 10) as [cmds|] eqn:Es; [|vm_compute in Es; discriminate].
  set (T := (fun t c r => match t with CWit => if c =? 1 then ofZ 2 else f0 | _ => f0 end) : table P97).
  exists I, 0%nat, [EBin OSub (evar (wv 0 0)) (ecst f1)], (EBin OSub (evar (wv 0 0)) (ecst f1)), cmds, z, rm, T.
  split; [left; reflexivity|]. split; [left; reflexivity|]. split; [split; [cbn; lia|vm_compute; discriminate]|]. split; [exact El|]. split; [exact Es|]. split.
  - vm_compute in Es. injection Es as <-. intros x Hx. destruct Hx as [<-|[<-|[]]].
    + intros r [].
    + intros r [<-|[]] e [<-|[]]. apply F_ext. vm_compute. reflexivity.
  - assert (X : match layout I 0 (packed 1 2) [] with Some (z, rm) => fval (eval (unstretch z (packed 1 2 z) 2 10 (snd (n_circuit I [])) T) 0 (EBin OSub (evar (wv 0 0)) (ecst f1))) | None => 0 end = 96) by (vm_compute; reflexivity).
    rewrite El in X. intros Y. rewrite Y in X. vm_compute in X. discriminate.
Qed.
Print Assumptions stretch_selector_refuted.
