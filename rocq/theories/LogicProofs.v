(** Soundness and completeness of the Boolean operation components. *)
From Coq Require Import ZArith List Lia Bool Field String.
From Verif Require Import Base Field Plonk PlonkFacts LogicModel.
Import ListNotations.
Open Scope Z_scope.

Section Proofs.
Variable P : params.
Notation F := (F P).
Notation table := (table P).
Implicit Types T : table.
Add Field Ff : (F_field P) (morphism (F_morph P), constants [F_const], power_tac (F_power P) [F_pow_tac]).
Local Open Scope F_scope.

Definition ofb (b : bool) : F := if b then f1 else f0.

Lemma ofb_inj : forall a b, ofb a = ofb b -> a = b.
Proof. intros [] [] H; cbn in H; try reflexivity; exfalso; apply (f1_neq_f0 P); congruence. Qed.

(** The constraint fixes the result cell as a polynomial of the input cells. *)
Lemma lop_gate : forall T row o (w : Z -> expr P),
  (eval T row (lop_constraint o w) = f0 <->
   let e i := eval T row (w i) in
   e (lop_args o) = match o with LSelect => e 0%Z * e 1%Z + (f1 - e 0%Z) * e 2%Z
                    | _ => lop_result o e end).
Proof.
  intros T row o w. cbv zeta.
  destruct o; cbn [lop_constraint lop_args lop_result]; rewrite ?eval_bin, ?eval_ecst; cbn [ebop];
    change (ofZ 1) with (f1 : F); split; intros H;
    first [ lc (f1 : F) H | lc (- f1 : F) H ].
Qed.

Lemma lop_cells : forall (L : lenv P) T c o x row,
  sat L T (lop_circuit c o x row) ->
  (forall i, (0 <= i < lop_args o)%Z -> T CWit (W c i) row = vval T (x i)) /\
  vval T (lop_out c o row) =
    match o with
    | LSelect => vval T (x 0%Z) * vval T (x 1%Z) + (f1 - vval T (x 0%Z)) * vval T (x 2%Z)
    | _ => lop_result o (fun i => vval T (x i)) end.
Proof.
  intros L T c o x row H. unfold lop_circuit in H. rewrite sat_cons, sat_map in H.
  destruct H as [G Hc]. rewrite holds_gate1, all_cons in G. destruct G as [G _].
  apply lop_gate in G. cbv zeta in G. rewrite !eval_evar, !gval_wv, !Z.add_0_r in G.
  assert (E : forall i, (0 <= i < lop_args o)%Z -> T CWit (W c i) row = vval T (x i)).
  { intros i Hi. symmetry. apply (Hc i). apply in_zseq. lia. }
  split; [exact E|]. unfold lop_out. rewrite vval_wcell, G.
  destruct o; cbn [lop_result]; rewrite ?eval_evar, ?gval_wv, ?Z.add_0_r;
    rewrite ?E by (cbn [lop_args]; lia); reflexivity.
Qed.

Lemma lop_inputs_read : forall T c x row w n,
  wf_comp c w -> (0 <= n < w)%Z -> (forall i, (0 <= i < n)%Z -> outside c 1 row (x i)) ->
  let r := lop_inputs c n x row T in
  frame c 1 row T (fst r) /\
  (forall i, (0 <= i < n)%Z -> snd r i = vval T (x i) /\ fst r CWit (W c i) row = vval T (x i)).
Proof.
  intros T c x row w n Hwf Hn Ho. cbv zeta. unfold lop_inputs.
  assert (IH : forall k, (0 <= k)%Z -> (k <= n)%Z ->
    let r := fold_left (fun '(T, v) i => let a := vval T (x i) in
               (wset T (W c i) row a, fun j => if (j =? i)%Z then a else v j)) (zseq 0 k) (T, fun _ => f0) in
    frame c 1 row T (fst r) /\
    (forall i, (0 <= i < k)%Z -> snd r i = vval T (x i) /\ fst r CWit (W c i) row = vval T (x i))).
  { refine (natlike_ind _ _ _).
    - intros _. cbn. split; [apply frame_refl|intros; lia].
    - intros k Hk IH Hle. specialize (IH ltac:(lia)). cbv zeta in *.
      replace (Z.succ k) with (k + 1)%Z by lia. rewrite fold_zseq_snoc by lia.
      destruct (fold_left _ (zseq 0 k) _) as [T1 v]. cbn [fst snd] in *.
      replace (0 + k)%Z with k by lia.
      destruct IH as [Fr IH].
      assert (Ev : vval T1 (x k) = vval T (x k)) by (eapply vval_frame; [exact Fr|apply Ho; lia]).
      rewrite Ev. split.
      + eapply frame_wset; [eassumption|lia|exact Fr].
      + intros i Hi. destruct (Z.eq_dec i k) as [D|D].
        * subst i. rewrite Z.eqb_refl, wset_same. auto.
        * destruct (i =? k)%Z eqn:E; [lia|].
          rewrite wset_other by (right; left; eapply W_neq; [eassumption|lia|lia|lia]).
          apply IH. lia. }
  apply (IH n); lia.
Qed.

Lemma lop_complete_l : forall (L : lenv P) T c o x row,
  wf_comp c (lop_args o + 1) -> (forall i, (0 <= i < lop_args o)%Z -> outside c 1 row (x i)) ->
  (o = LSelect -> vval T (x 0%Z) = f0 \/ vval T (x 0%Z) = f1) ->
  let T' := lop_assign c o x row T in
  sat L T' (lop_circuit c o x row) /\ frame c 1 row T T' /\
  (forall i, (0 <= i < lop_args o)%Z -> T' CWit (W c i) row = vval T (x i)) /\
  vval T' (lop_out c o row) = lop_result o (fun i => vval T (x i)).
Proof.
  intros L T c o x row Hwf Ho Hs. cbv zeta. unfold lop_assign.
  assert (Ha : (1 <= lop_args o <= 3)%Z) by (destruct o; cbn; lia).
  pose proof (lop_inputs_read T c x row (lop_args o + 1)%Z (lop_args o) Hwf ltac:(lia) Ho) as R.
  cbv zeta in R. destruct (lop_inputs c (lop_args o) x row T) as [T1 v]. cbn [fst snd] in R.
  destruct R as [Fr R].
  assert (Ev : lop_result o v = lop_result o (fun i => vval T (x i))).
  { destruct o; cbn [lop_args] in *; cbn [lop_result];
    repeat match goal with |- context [v ?i] => rewrite (proj1 (R i ltac:(lia))) end; reflexivity. }
  rewrite Ev. set (res := lop_result o (fun i => vval T (x i))) in *.
  set (T' := wset T1 (W c (lop_args o)) row res).
  assert (Fr' : frame c 1 row T T') by (eapply frame_wset; [eassumption|lia|exact Fr]).
  assert (Hi : forall i, (0 <= i < lop_args o)%Z -> T' CWit (W c i) row = vval T (x i)).
  { intros i Hi. unfold T'. rewrite wset_other by (right; left; eapply W_neq; [eassumption|lia|lia|lia]).
    apply R. exact Hi. }
  assert (Hr : T' CWit (W c (lop_args o)) row = res) by apply wset_same.
  split; [|split; [exact Fr'|split; [exact Hi|exact Hr]]].
  unfold lop_circuit. apply sat_cons. split.
  - apply holds_gate1, all_cons. split; [|apply all_nil; exact I].
    apply lop_gate. cbv beta zeta. rewrite !eval_evar, !gval_wv, !Z.add_0_r, Hr. unfold res.
    destruct o; cbn [lop_args] in *; cbn [lop_result]; rewrite ?eval_evar, ?gval_wv, ?Z.add_0_r;
      rewrite ?Hi by lia; try reflexivity.
    destruct (Hs eq_refl) as [E|E]; rewrite E.
    + rewrite feqb_refl. ring.
    + destruct (feqb f1 f0) eqn:Q; [apply feqb_eq in Q; exfalso; apply (f1_neq_f0 P Q)|ring].
  - apply sat_map. intros i Hin. apply in_zseq in Hin. cbn [holds]. rewrite vval_wcell, Hi by lia.
    eapply vval_frame; [exact Fr'|apply Ho; lia].
Qed.

(** ** Lookup versions *)
Lemma lk_row : forall (is_and : bool) r,
  lib_env (lk_table is_and) r <->
  exists a b : bool, r = [ofb a; ofb b; ofb (if is_and then andb a b else xorb a b)].
Proof.
  intros is_and r. unfold lib_env. split.
  - intros H.
    assert (H' : exists i, (0 <= i <= 3)%Z /\ r = table_row (if is_and then and_columns else xor_columns) i).
    { destruct is_and; cbn [lk_table] in H; destruct H as [[E H]|[E H]]; try discriminate E; exact H. }
    destruct H' as [i [Hi ->]].
    assert (D : (i = 0 \/ i = 1 \/ i = 2 \/ i = 3)%Z) by lia.
    destruct D as [->|[->|[->| ->]]]; destruct is_and;
      [ exists false, false | exists false, false | exists false, true | exists false, true
      | exists true, false | exists true, false | exists true, true | exists true, true ]; reflexivity.
  - intros [a [b ->]]. destruct is_and; [left|right]; (split; [reflexivity|]).
    + destruct a, b; [exists 3%Z|exists 2%Z|exists 1%Z|exists 0%Z]; (split; [lia|reflexivity]).
    + destruct a, b; [exists 3%Z|exists 2%Z|exists 1%Z|exists 0%Z]; (split; [lia|reflexivity]).
Qed.

Lemma lk_sound_l : forall T c is_and x row,
  sat lib_env T (lk_circuit c is_and x row) ->
  exists a b : bool, vval T (x 0%Z) = ofb a /\ vval T (x 1%Z) = ofb b /\
    vval T (lk_out c row) = ofb (if is_and then andb a b else xorb a b).
Proof.
  intros T c is_and x row H. unfold lk_circuit in H. rewrite sat_cons, sat_map in H.
  destruct H as [G Hc]. cbn [holds] in G.
  specialize (G row (or_introl eq_refl) _ _ (or_introl eq_refl)). apply lk_row in G.
  destruct G as [a [b E]]. cbn [map] in E. rewrite !eval_evar, !gval_wv, !Z.add_0_r in E.
  injection E as E0 E1 E2. exists a, b.
  pose proof (Hc 0%Z ltac:(apply in_zseq; lia)) as C0.
  pose proof (Hc 1%Z ltac:(apply in_zseq; lia)) as C1. cbn [holds] in C0, C1.
  rewrite vval_wcell in C0, C1. unfold lk_out. rewrite vval_wcell, C0, C1. auto.
Qed.

Lemma lk_complete_l : forall T c (is_and : bool) x row (a b : bool),
  wf_comp c 3 -> outside c 1 row (x 0%Z) -> outside c 1 row (x 1%Z) ->
  vval T (x 0%Z) = ofb a -> vval T (x 1%Z) = ofb b ->
  let T' := lk_assign c is_and x row T in
  sat lib_env T' (lk_circuit c is_and x row) /\ frame c 1 row T T' /\
  vval T' (lk_out c row) = ofb (if is_and then andb a b else xorb a b).
Proof.
  intros T c is_and x row a b Hwf H0 H1 Ea Eb. cbv zeta. unfold lk_assign.
  assert (Ea2 : lop_args (lk_op is_and) = 2%Z) by (destruct is_and; reflexivity).
  destruct (lop_complete_l lib_env T c (lk_op is_and) x row) as [S [Fr [Hi Hr]]].
  { rewrite Ea2. exact Hwf. }
  { rewrite Ea2. intros i Hi. assert (D : (i = 0 \/ i = 1)%Z) by lia. destruct D as [->| ->]; assumption. }
  { destruct is_and; discriminate. }
  rewrite Ea2 in Hi. unfold lop_out in Hr. rewrite Ea2, vval_wcell in Hr.
  set (T' := lop_assign c (lk_op is_and) x row T) in *.
  assert (Hr' : T' CWit (W c 2) row = ofb (if is_and then andb a b else xorb a b)).
  { rewrite Hr. destruct is_and, a, b; cbn [lk_op lop_result]; rewrite Ea, Eb; cbn [ofb andb xorb];
    ring. }
  split; [|split; [exact Fr|exact Hr']].
  unfold lop_circuit, lk_circuit in *. rewrite Ea2 in S. apply sat_cons in S. destruct S as [_ S].
  apply sat_cons. split; [|exact S].
  intros r [<-|[]] t es [E|[]]. injection E as <- <-. apply lk_row. exists a, b. cbn [map].
  rewrite !eval_evar, !gval_wv, !Z.add_0_r, !Hi, Hr', Ea, Eb by lia. reflexivity.
Qed.

Lemma lop_sound_l : forall (L : lenv P) T k o x row (a b c : bool),
  sat L T (lop_circuit k o x row) ->
  vval T (x 0%Z) = ofb a -> ((1 < lop_args o)%Z -> vval T (x 1%Z) = ofb b) ->
  ((2 < lop_args o)%Z -> vval T (x 2%Z) = ofb c) ->
  vval T (lop_out k o row) =
    ofb match o with
        | LNot => negb a | LAnd => a && b | LOr => a || b | LXor => xorb a b
        | LNand => negb (a && b) | LNor => negb (a || b) | LSelect => if a then b else c
        end.
Proof.
  intros L T k o x row a b c H Ha Hb Hc. apply lop_cells in H. destruct H as [_ H]. rewrite H. clear H.
  destruct o; cbn [lop_args lop_result] in *; rewrite ?Ha, ?(Hb ltac:(lia)), ?(Hc ltac:(lia));
    destruct a; try destruct b; try destruct c; cbn [negb andb orb xorb ofb]; ring.
Qed.

Lemma lop_select_l : forall (L : lenv P) T k x row (a : bool),
  sat L T (lop_circuit k LSelect x row) -> vval T (x 0%Z) = ofb a ->
  vval T (lop_out k LSelect row) = if a then vval T (x 1%Z) else vval T (x 2%Z).
Proof.
  intros L T k x row a H Ha. apply lop_cells in H. destruct H as [_ H]. rewrite H, Ha.
  destruct a; cbn [ofb]; ring.
Qed.
End Proofs.
Arguments ofb {P}.
