(** Properties C65 to C72: the argument verifiers of the Placeholder verifier. *)
From Coq Require Import ZArith List Lia Bool Field.
From Verif Require Import Base Field Primes Plonk PlonkFacts Bits FlexModel FlexProofs
  PvModel PvSpec PvTape PvGate PvLoops PvF1 PvF3 PvPerm Examples.
Import ListNotations.
Open Scope Z_scope.

Lemma combine_map2 : forall A B (f : A -> B) (a b : list A),
  combine (map f a) (map f b) = map (fun x => (f (fst x), f (snd x))) (combine a b).
Proof. intros A B f a. induction a as [|x a IH]; intros [|y b]; cbn [map combine fst snd]; try reflexivity. rewrite IH. reflexivity. Qed.
Lemma combine_map3 : forall A B (f : A -> B) (a b c : list A),
  combine (map f a) (combine (map f b) (map f c)) = map (fun x => (f (fst x), (f (fst (snd x)), f (snd (snd x))))) (combine a (combine b c)).
Proof.
  intros A B f a b c. rewrite combine_map2. revert a. generalize (combine b c). clear b c.
  intros l a. revert l. induction a as [|x a IH]; intros [|y l]; cbn [map combine fst snd]; try reflexivity. rewrite IH. reflexivity.
Qed.

(** ** C65 permutation argument *)

Lemma pv_value_spec : forall P (T : table P) i ss,
  pv_value P T i ss = perm_prod (vval T (pv_t1 i)) (vval T (pv_t2 i)) (combine (map (vval T) (pv_f i)) (map (vval T) ss)).
Proof. intros P T i ss. unfold pv_value, perm_prod. rewrite combine_map2, map_map. reflexivity. Qed.

(** The three terms the component is to return, on the values of its inputs. *)
Definition perm_terms {P} (T : table P) (i : pv_in) (o1 o2 o3 : F P) : Prop :=
  let v := vval T in
  o1 = fmul (v (pv_l0 i)) (fsub f1 (v (pv_v i))) /\
  o2 = fmul (fsub f1 (fadd (v (pv_ql i)) (v (pv_qp i))))
        (fsub (fmul (v (pv_vz i)) (perm_prod (v (pv_t1 i)) (v (pv_t2 i)) (combine (map v (pv_f i)) (map v (pv_ss i)))))
              (fmul (v (pv_v i)) (perm_prod (v (pv_t1 i)) (v (pv_t2 i)) (combine (map v (pv_f i)) (map v (pv_se i)))))) /\
  o3 = fmul (v (pv_ql i)) (fsub (fmul (v (pv_v i)) (v (pv_v i))) (v (pv_v i))).

Theorem permutation_verifier_sound : forall P (L : lenv P) T c i row,
  2 <= zlen (pv_f i) -> zlen (pv_se i) = zlen (pv_f i) -> zlen (pv_ss i) = zlen (pv_f i) ->
  sat L T (pv_circuit c i row) ->
  let '(o1, o2, o3) := pv_out c (zlen (pv_f i)) row in
  perm_terms T i (vval T o1) (vval T o2) (vval T o3).
Proof.
  intros P L T c i row Hm E1 E2 H. pose proof (pv_sound_l P L T c i row Hm E1 E2 H) as X.
  unfold pv_out in *. cbv beta iota zeta in *. unfold perm_terms. cbv zeta. rewrite <- !pv_value_spec. exact X.
Qed.
Print Assumptions permutation_verifier_sound.

Definition pv_vars (i : pv_in) : list var :=
  pv_f i ++ pv_se i ++ pv_ss i ++ [pv_l0 i; pv_v i; pv_vz i; pv_ql i; pv_qp i; pv_t1 i; pv_t2 i].

Lemma perm_terms_frame : forall P (T T' : table P) i o1 o2 o3,
  (forall x, In x (pv_vars i) -> vval T' x = vval T x) -> perm_terms T' i o1 o2 o3 -> perm_terms T i o1 o2 o3.
Proof.
  intros P T T' i o1 o2 o3 H. unfold perm_terms. cbv zeta. unfold pv_vars in H.
  assert (M : forall l, (forall x, In x l -> In x (pv_vars i)) -> map (vval T') l = map (vval T) l).
  { intros l Hl. apply map_ext_in. intros x Hx. apply H, Hl, Hx. }
  rewrite (M (pv_f i)), (M (pv_se i)), (M (pv_ss i)) by (intros x Hx; unfold pv_vars; rewrite !in_app_iff; tauto).
  rewrite (H (pv_l0 i)), (H (pv_v i)), (H (pv_vz i)), (H (pv_ql i)), (H (pv_qp i)), (H (pv_t1 i)), (H (pv_t2 i))
    by (rewrite !in_app_iff; cbn [In]; tauto).
  tauto.
Qed.

Theorem permutation_verifier_complete : forall P (L : lenv P) T c w i row, wf_comp c w -> 6 <= w ->
  2 <= zlen (pv_f i) -> zlen (pv_se i) = zlen (pv_f i) -> zlen (pv_ss i) = zlen (pv_f i) ->
  let n := pv_rows (zlen (pv_f i)) in
  (forall x, In x (pv_vars i) -> outside c n row x) ->
  let T' := pv_assign c i row T in
  sat L T' (pv_circuit c i row) /\ frame c n row T T' /\
  let '(o1, o2, o3) := pv_out c (zlen (pv_f i)) row in
  perm_terms T i (vval T' o1) (vval T' o2) (vval T' o3).
Proof.
  intros P L T c w i row Hwf Hw Hm E1 E2 n Ho T'.
  destruct (pv_complete_l P L T c w i row Hwf Hw Hm E1 E2 Ho) as [S FR]. fold T' in S. fold n in FR. fold T' in FR.
  split; [exact S|]. split; [exact FR|].
  pose proof (permutation_verifier_sound P L T' c i row Hm E1 E2 S) as X.
  unfold pv_out in *. cbv beta iota zeta in *. eapply perm_terms_frame; [|exact X].
  intros x Hx. apply (vval_frame P c n row T T'); [exact FR|apply Ho; exact Hx].
Qed.
Print Assumptions permutation_verifier_complete.

Definition pv_ex : pv_in :=
  mkPv [pin 0; pin 1; pin 2] [pin 3; pin 4; pin 5] [pin 6; pin 7; pin 8] (pin 9) (pin 10) (pin 11) (pin 12) (pin 13) (pin 14) (pin 15).
Definition pv_tab : table P97 := intab P97 [1; 2; 3; 4; 5; 6; 7; 8; 9; 10; 11; 12; 13; 14; 15; 16].
Example permutation_verifier_ex :
  wf_comp (std_comp 6) 6 /\ 2 <= zlen (pv_f pv_ex) /\ (forall x, In x (pv_vars pv_ex) -> outside (std_comp 6) (pv_rows 3) 0 x) /\
  sat (noL P97) (pv_assign (std_comp 6) pv_ex 0 pv_tab) (pv_circuit (std_comp 6) pv_ex 0) /\
  (* 10 * (1 - 11), then (1 - 27) * (12 * (122 * 138 * 154) - 11 * (77 * 93 * 109)), then 13 * (121 - 11), modulo 97 *)
  (let '(o1, o2, o3) := pv_out (std_comp 6) 3 0 in
   map (fun o => fval (vval (pv_assign (std_comp 6) pv_ex 0 pv_tab) o)) [o1; o2; o3] =
   [10 * (1 - 11) mod 97;
    ((1 - (13 + 14)) * (12 * ((1 + 15 * 7 + 16) * (2 + 15 * 8 + 16) * (3 + 15 * 9 + 16)) -
                        11 * ((1 + 15 * 4 + 16) * (2 + 15 * 5 + 16) * (3 + 15 * 6 + 16)))) mod 97;
    13 * (11 * 11 - 11) mod 97]).
Proof.
  split; [apply wf_std; lia|]. split; [vm_compute; discriminate|].
  split; [intros x Hx; repeat (destruct Hx as [<-|Hx]; [apply pin_outside|]); destruct Hx|].
  split; [apply satb_sat; vm_compute; reflexivity|vm_compute; reflexivity].
Qed.

(** ** C66 permutation argument with one column *)

Definition pv_ex1 : pv_in := mkPv [pin 0] [pin 1] [pin 2] (pin 3) (pin 4) (pin 5) (pin 6) (pin 7) (pin 8) (pin 9).
(** [f = 1], [Se = 2], [Ssigma = 3], [L0 = 0], [V = 0], [V_zeta = 1], selectors 0, thetas 1 and 5. *)
Definition pv_tab1 : table P97 := intab P97 [1; 2; 3; 0; 0; 1; 0; 0; 1; 5].

Theorem permutation_verifier_single_sound_refuted : exists T : table P97,
  wf_comp (std_comp 6) 6 /\ zlen (pv_f pv_ex1) = 1 /\
  sat (noL P97) T (pv_circuit (std_comp 6) pv_ex1 1) /\
  let '(o1, o2, o3) := pv_out (std_comp 6) 1 1 in
  ~ perm_terms T pv_ex1 (vval T o1) (vval T o2) (vval T o3).
Proof.
  exists (wsets (pv_assign (std_comp 6) pv_ex1 1 pv_tab1)
    [ (0, 0, f1); (5, 0, f1); (0, 1, ofZ 3); (5, 1, ofZ 4); (4, 2, ofZ 4); (5, 2, ofZ 16) ]).
  split; [apply wf_std; lia|]. split; [reflexivity|]. split; [apply satb_sat; vm_compute; reflexivity|].
  unfold pv_out. cbv beta iota zeta. intros [_ [H _]]. apply (f_equal fval) in H. vm_compute in H. discriminate.
Qed.
Print Assumptions permutation_verifier_single_sound_refuted.

Theorem permutation_verifier_single_complete_refuted : exists T : table P97,
  wf_comp (std_comp 6) 6 /\ zlen (pv_f pv_ex1) = 1 /\ (forall x, In x (pv_vars pv_ex1) -> outside (std_comp 6) (pv_rows 1) 1 x) /\
  ~ sat (noL P97) (pv_assign (std_comp 6) pv_ex1 1 T) (pv_circuit (std_comp 6) pv_ex1 1).
Proof.
  exists pv_tab1. split; [apply wf_std; lia|]. split; [reflexivity|].
  split; [intros x Hx; repeat (destruct Hx as [<-|Hx]; [apply pin_outside|]); destruct Hx|].
  intros S. assert (H : holds (noL P97) (pv_assign (std_comp 6) pv_ex1 1 pv_tab1) (Gate (pv_gate1 (std_comp 6)) [1])).
  { apply S. left. reflexivity. }
  rewrite holds_gate1 in H. specialize (H _ (or_introl eq_refl)). apply (f_equal fval) in H. vm_compute in H. discriminate.
Qed.
Print Assumptions permutation_verifier_single_complete_refuted.

(** ** C67 gate component *)

Theorem gate_component_sound : forall P (L : lenv P) T c theta cs q row, 3 <= wamount c -> 2 <= zlen cs ->
  sat L T (gc_circuit c theta cs q row) ->
  vval T (gc_out c (zlen cs - 1) row) = fmul (vval T q) (theta_sum (vval T theta) 0 (map (vval T) cs)).
Proof. intros P L T c theta cs q row Hw Hc. apply gc_sound_l; assumption. Qed.
Print Assumptions gate_component_sound.

Theorem gate_component_complete : forall P (L : lenv P) T c w theta cs q row, wf_comp c w -> 3 <= w -> 2 <= zlen cs ->
  let n := gc_rows w (zlen cs - 1) in
  outside c n row theta -> (forall x, In x cs -> outside c n row x) -> outside c n row q ->
  let T' := gc_assign c theta cs q row T in
  sat L T' (gc_circuit c theta cs q row) /\ frame c n row T T' /\
  vval T' (gc_out c (zlen cs - 1) row) = fmul (vval T q) (theta_sum (vval T theta) 0 (map (vval T) cs)).
Proof. exact gc_complete_l. Qed.
Print Assumptions gate_component_complete.

Definition pinl (k : Z) (n : Z) : list var := map pin (zseq k (k + n)).
Lemma pinl_outside : forall k n c m r x, In x (pinl k n) -> outside c m r x.
Proof. intros k n c m r x H. apply in_map_iff in H. destruct H as [i [<- _]]. apply pin_outside. Qed.

Example gate_component_ex :
  wf_comp (std_comp 4) 4 /\ 2 <= zlen (pinl 2 5) /\
  sat (noL P97) (gc_assign (std_comp 4) (pin 0) (pinl 2 5) (pin 1) 0 (intab P97 [2; 3; 10; 20; 30; 40; 50]))
    (gc_circuit (std_comp 4) (pin 0) (pinl 2 5) (pin 1) 0) /\
  fval (vval (gc_assign (std_comp 4) (pin 0) (pinl 2 5) (pin 1) 0 (intab P97 [2; 3; 10; 20; 30; 40; 50])) (gc_out (std_comp 4) 4 0)) =
  3 * (10 + 2 * 20 + 4 * 30 + 8 * 40 + 16 * 50) mod 97.
Proof.
  split; [apply wf_std; lia|]. split; [vm_compute; discriminate|].
  split; [apply satb_sat; vm_compute; reflexivity|vm_compute; reflexivity].
Qed.

(** ** C68 gate argument *)

(** A gate is its selector with its constraints. *)
Theorem basic_constraints_sound : forall P (L : lenv P) T c theta (gs : list (var * list var)) row, 3 <= wamount c -> gs <> [] ->
  (forall g, In g gs -> 1 <= zlen (snd g)) ->
  let sizes := map (fun g => zlen (snd g)) gs in
  sat L T (bc_circuit c theta sizes (flat_map snd gs) (map fst gs) row) ->
  vval T (bc_out c sizes row) = gates_sum (vval T theta) 0 (map (fun g => (vval T (fst g), map (vval T) (snd g))) gs).
Proof. exact bc_sound_l. Qed.
Print Assumptions basic_constraints_sound.

Theorem basic_constraints_complete : forall P (L : lenv P) T c w theta (gs : list (var * list var)) row, wf_comp c w -> 3 <= w -> gs <> [] ->
  (forall g, In g gs -> 1 <= zlen (snd g)) ->
  let sizes := map (fun g => zlen (snd g)) gs in
  let n := bc_rows w sizes in
  outside c n row theta -> (forall g, In g gs -> outside c n row (fst g) /\ forall x, In x (snd g) -> outside c n row x) ->
  consts_in T (bc_circuit c theta sizes (flat_map snd gs) (map fst gs) row) ->
  let T' := bc_assign c theta sizes (flat_map snd gs) (map fst gs) row T in
  sat L T' (bc_circuit c theta sizes (flat_map snd gs) (map fst gs) row) /\ frame c n row T T' /\
  vval T' (bc_out c sizes row) = gates_sum (vval T theta) 0 (map (fun g => (vval T (fst g), map (vval T) (snd g))) gs).
Proof. exact bc_complete_l. Qed.
Print Assumptions basic_constraints_complete.

Definition bc_ex : list (var * list var) := [ (pin 1, [pin 2; pin 3]); (pin 4, [pin 5]); (pin 6, [pin 7; pin 8; pin 9]) ].
Definition bc_tab : table P97 := intab_c P97 [2; 3; 10; 20; 5; 30; 7; 40; 50; 60] [0; 1; 0].
Example basic_constraints_ex :
  wf_comp (mkComp (zseq 0 3) [0] []) 3 /\ bc_ex <> [] /\ (forall g, In g bc_ex -> 1 <= zlen (snd g)) /\
  consts_in bc_tab (bc_circuit (mkComp (zseq 0 3) [0] []) (pin 0) [2; 1; 3] (flat_map snd bc_ex) (map fst bc_ex) 0) /\
  sat (noL P97) (bc_assign (mkComp (zseq 0 3) [0] []) (pin 0) [2; 1; 3] (flat_map snd bc_ex) (map fst bc_ex) 0 bc_tab)
    (bc_circuit (mkComp (zseq 0 3) [0] []) (pin 0) [2; 1; 3] (flat_map snd bc_ex) (map fst bc_ex) 0) /\
  fval (vval (bc_assign (mkComp (zseq 0 3) [0] []) (pin 0) [2; 1; 3] (flat_map snd bc_ex) (map fst bc_ex) 0 bc_tab)
    (bc_out (mkComp (zseq 0 3) [0] []) [2; 1; 3] 0)) =
  (3 * (10 + 2 * 20) + 5 * (4 * 30) + 7 * (8 * 40 + 16 * 50 + 32 * 60)) mod 97.
Proof.
  split; [apply wf_std; lia|]. split; [discriminate|].
  split; [intros g [<-|[<-|[<-|[]]]]; vm_compute; discriminate|].
  split; [apply consts_inb_ok; vm_compute; reflexivity|].
  split; [apply satb_sat; vm_compute; reflexivity|vm_compute; reflexivity].
Qed.

(** ** C69 product loop of the lookup argument *)

Lemma f1_value_spec : forall P (T : table P) be ga s t,
  f1_value P T be ga s t = plookup_prod be ga (combine (map (vval T) s) (map (vval T) t)).
Proof. intros P T be ga s t. unfold f1_value, plookup_prod. rewrite combine_map2, map_map. reflexivity. Qed.

Theorem f1_loop_sound : forall P (L : lenv P) T c beta gamma s t row, 4 <= wamount c -> 1 <= zlen s -> zlen s = zlen t ->
  sat L T (f1_circuit c beta gamma s t row) ->
  vval T (f1_out c (zlen s) row) = plookup_prod (vval T beta) (vval T gamma) (combine (map (vval T) s) (map (vval T) t)).
Proof. intros P L T c beta gamma s t row Hw Hm E H. rewrite <- f1_value_spec. exact (f1_sound_l P L T c beta gamma s t row Hw Hm E H). Qed.
Print Assumptions f1_loop_sound.

Theorem f1_loop_complete : forall P (L : lenv P) T c w beta gamma s t row, wf_comp c w -> 4 <= w -> 1 <= zlen s -> zlen s = zlen t ->
  let n := f1_rows w (zlen s) in
  outside c n row beta -> outside c n row gamma -> (forall x, In x s -> outside c n row x) -> (forall x, In x t -> outside c n row x) ->
  let T' := f1_assign c beta gamma s t row T in
  sat L T' (f1_circuit c beta gamma s t row) /\ frame c n row T T' /\
  vval T' (f1_out c (zlen s) row) = plookup_prod (vval T beta) (vval T gamma) (combine (map (vval T) s) (map (vval T) t)).
Proof. intros P L T c w beta gamma s t row. rewrite <- f1_value_spec. apply f1_complete_l. Qed.
Print Assumptions f1_loop_complete.

(** Four columns, ten columns on several rows, and all three residues modulo 3. *)
Definition f1_tab : table P97 := intab P97 [2; 3; 1; 2; 3; 4; 5; 6; 7; 8; 9; 10].
Example f1_loop_ex : forall w, w = 4 \/ w = 5 \/ w = 6 \/ w = 10 \/ w = 14 ->
  wf_comp (std_comp w) w /\
  sat (noL P97) (f1_assign (std_comp w) (pin 0) (pin 1) (pinl 2 5) (pinl 7 5) 0 f1_tab) (f1_circuit (std_comp w) (pin 0) (pin 1) (pinl 2 5) (pinl 7 5) 0) /\
  fval (vval (f1_assign (std_comp w) (pin 0) (pin 1) (pinl 2 5) (pinl 7 5) 0 f1_tab) (f1_out (std_comp w) 5 0)) =
  ((9 + 1 + 2 * 6) * (9 + 2 + 2 * 7) * (9 + 3 + 2 * 8) * (9 + 4 + 2 * 9) * (9 + 5 + 2 * 10)) mod 97.
Proof.
  intros w [-> |[-> |[-> |[-> | ->]]]]; (split; [apply wf_std; lia|]); (split; [apply satb_sat; vm_compute; reflexivity|vm_compute; reflexivity]).
Qed.

(** ** C70 sum loop of the lookup argument *)

Lemma f3_value_spec : forall P (T : table P) al s t,
  f3_value P T al s t = weighted_diff (combine (map (vval T) al) (combine (map (vval T) s) (map (vval T) t))).
Proof. intros P T al s t. unfold f3_value, weighted_diff. rewrite combine_map3, map_map. reflexivity. Qed.

(** At four columns, or when the number of columns is not a multiple of four. *)
Theorem f3_loop_sound : forall P (L : lenv P) T c al s t row, 4 <= wamount c -> wamount c = 4 \/ wamount c mod 4 <> 0 ->
  1 <= zlen s -> zlen al = zlen s -> zlen t = zlen s ->
  sat L T (f3_circuit c al s t row) ->
  vval T (f3_out c (zlen s) row) = weighted_diff (combine (map (vval T) al) (combine (map (vval T) s) (map (vval T) t))).
Proof. intros P L T c al s t row Hw Ho Hm Ea Et H. rewrite <- f3_value_spec. exact (f3_sound_l P L T c al s t row Hw Ho Hm Ea Et H). Qed.
Print Assumptions f3_loop_sound.

(** When the cells fit one row, the last cell of the row before must hold 0. *)
Theorem f3_loop_complete : forall P (L : lenv P) T c w al s t row, wf_comp c w -> 4 <= w -> w = 4 \/ w mod 4 <> 0 ->
  1 <= zlen s -> zlen al = zlen s -> zlen t = zlen s ->
  let n := f3_rows w (zlen s) in
  (forall x, In x al -> outside c n row x) -> (forall x, In x s -> outside c n row x) -> (forall x, In x t -> outside c n row x) ->
  (n = 1 -> T CWit (W c (w - 1)) (row - 1) = f0) ->
  let T' := f3_assign c al s t row T in
  sat L T' (f3_circuit c al s t row) /\ frame c n row T T' /\
  vval T' (f3_out c (zlen s) row) = weighted_diff (combine (map (vval T) al) (combine (map (vval T) s) (map (vval T) t))).
Proof. intros P L T c w al s t row. rewrite <- f3_value_spec. apply f3_complete_l. Qed.
Print Assumptions f3_loop_complete.

Definition f3_tab : table P97 := intab P97 [2; 3; 5; 10; 20; 30; 7; 8; 9].
Example f3_loop_ex : forall w, w = 4 \/ w = 5 \/ w = 6 \/ w = 7 \/ w = 13 ->
  wf_comp (std_comp w) w /\ (w = 4 \/ w mod 4 <> 0) /\
  sat (noL P97) (f3_assign (std_comp w) (pinl 0 3) (pinl 3 3) (pinl 6 3) 1 f3_tab) (f3_circuit (std_comp w) (pinl 0 3) (pinl 3 3) (pinl 6 3) 1) /\
  fval (vval (f3_assign (std_comp w) (pinl 0 3) (pinl 3 3) (pinl 6 3) 1 f3_tab) (f3_out (std_comp w) 3 1)) =
  (2 * (10 - 7) + 3 * (20 - 8) + 5 * (30 - 9)) mod 97.
Proof.
  intros w [-> |[-> |[-> |[-> | ->]]]]; (split; [apply wf_std; lia|]); (split; [first [left; reflexivity|right; discriminate]|]);
    (split; [apply satb_sat; vm_compute; reflexivity|vm_compute; reflexivity]).
Qed.

(** ** C71 sum loop: multiples of four columns, and single rows *)

(** A check that no command reads a given witness cell. *)
Definition rd_ok (col row : Z) (v : var) (r : Z) : bool :=
  negb (match vty v with CWit => true | _ => false end && (vidx v =? col) && (r =? row)).
Fixpoint expr_avoid {P} (col row r : Z) (e : expr P) : bool :=
  match e with
  | ETerm _ vs => forallb (fun v => rd_ok col row v (if vrel v then r + vrot v else vrot v)) vs
  | EPow e _ => expr_avoid col row r e
  | EBin _ a b => expr_avoid col row r a && expr_avoid col row r b
  end.
Definition cmd_avoid {P} (col row : Z) (c : cmd P) : bool :=
  match c with
  | Gate es rows => forallb (fun r => forallb (expr_avoid col row r) es) rows
  | LookupGate _ _ => false
  | Copy a b => rd_ok col row a (vrot a) && rd_ok col row b (vrot b)
  | SetConst _ _ _ => true
  end.
Definition other_cell (col row : Z) (ty : ctype) (col' row' : Z) : Prop := ~ (ty = CWit /\ col' = col /\ row' = row).
Lemma rd_ok_spec : forall col row v r, rd_ok col row v r = true -> other_cell col row (vty v) (vidx v) r.
Proof.
  intros col row v r H [E1 [E2 E3]]. unfold rd_ok in H. rewrite E1, E2, E3, !Z.eqb_refl in H. discriminate.
Qed.
Lemma expr_avoid_spec : forall P col row r (e : expr P), expr_avoid col row r e = true -> expr_reads (other_cell col row) r e.
Proof.
  intros P col row r e. induction e as [k vs|e IH n|o a IHa b IHb]; cbn [expr_avoid expr_reads]; intros H.
  - intros v Hv. rewrite forallb_forall in H. apply rd_ok_spec. apply H. exact Hv.
  - apply IH. exact H.
  - apply andb_true_iff in H. split; [apply IHa|apply IHb]; apply H.
Qed.
Lemma avoid_spec : forall P col row (cs : list (cmd P)), forallb (cmd_avoid col row) cs = true -> reads (other_cell col row) cs.
Proof.
  intros P col row cs H c Hc. rewrite forallb_forall in H. specialize (H c Hc).
  destruct c as [es rows|ls rows|a b|k r0 v]; cbn [cmd_avoid cmd_reads] in *.
  - intros r Hr e He. rewrite forallb_forall in H. specialize (H r Hr). rewrite forallb_forall in H. apply expr_avoid_spec. apply H. exact He.
  - discriminate.
  - apply andb_true_iff in H. split; apply rd_ok_spec; apply H.
  - intros [E _]. discriminate.
Qed.

(** With eight or twelve columns the running sum of the later columns of a row
    is not constrained: any output is accepted. *)
Theorem f3_loop_wide_sound_refuted : forall w v, w = 8 \/ w = 12 -> exists T : table P97,
  wf_comp (std_comp w) w /\
  (forall x, In x (pinl 0 2 ++ pinl 2 2 ++ pinl 4 2) -> vval T x = vval (intab P97 [1; 1; 5; 6; 3; 3]) x) /\
  sat (noL P97) T (f3_circuit (std_comp w) (pinl 0 2) (pinl 2 2) (pinl 4 2) 1) /\
  vval T (f3_out (std_comp w) 2 1) = v.
Proof.
  intros w v Hw.
  set (T0 := f3_assign (std_comp w) (pinl 0 2) (pinl 2 2) (pinl 4 2) 1 (intab P97 [1; 1; 5; 6; 3; 3])).
  exists (wset T0 7 1 v). split; [destruct Hw as [-> | ->]; apply wf_std; lia|].
  split; [intros x Hx; unfold pinl in Hx; cbn in Hx; destruct Hw as [-> | ->];
    repeat (destruct Hx as [<-|Hx]; [reflexivity|]); destruct Hx|].
  split.
  - apply (sat_agree P97 (noL P97) (other_cell 7 1) T0).
    + intros ty col row H. apply wset_other. unfold other_cell in H. destruct ty; try (left; discriminate). right. clear - H. destruct (Z.eq_dec col 7); [|left; assumption]. destruct (Z.eq_dec row 1); [exfalso; tauto|right; assumption].
    + apply avoid_spec. destruct Hw as [-> | ->]; vm_compute; reflexivity.
    + subst T0. destruct Hw as [-> | ->]; apply satb_sat; vm_compute; reflexivity.
  - destruct Hw as [-> | ->]; apply wset_same.
Qed.
Print Assumptions f3_loop_wide_sound_refuted.

(** A single-row loop is accepted only after a row whose last cell holds 0. *)
Theorem f3_loop_single_row_complete_refuted : exists T : table P97,
  wf_comp (std_comp 5) 5 /\ f3_rows 5 1 = 1 /\
  (forall x, In x (pinl 0 1 ++ pinl 1 1 ++ pinl 2 1) -> outside (std_comp 5) 1 1 x) /\
  ~ sat (noL P97) (f3_assign (std_comp 5) (pinl 0 1) (pinl 1 1) (pinl 2 1) 1 T) (f3_circuit (std_comp 5) (pinl 0 1) (pinl 1 1) (pinl 2 1) 1).
Proof.
  exists (wset (intab P97 [2; 10; 7]) 4 0 f1). split; [apply wf_std; lia|]. split; [reflexivity|].
  split; [intros x Hx; rewrite !in_app_iff in Hx; destruct Hx as [Hx|[Hx|Hx]]; exact (pinl_outside _ _ _ _ _ _ Hx)|].
  intros S. unfold f3_circuit in S.
  match type of S with sat _ ?T0 (map ?f ?l ++ _) =>
    assert (H : holds (noL P97) T0 (enable (f3_gates (std_comp 5)) 1 4));
    [apply S; apply in_or_app; left; apply in_map_iff; exists (4, 0); split; [reflexivity|vm_compute; tauto]|] end.
  unfold enable in H. rewrite holds_gate1 in H. specialize (H _ (or_introl eq_refl)). apply (f_equal fval) in H. vm_compute in H. discriminate.
Qed.
Print Assumptions f3_loop_single_row_complete_refuted.
