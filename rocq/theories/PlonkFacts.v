(** Reasoning principles for the PLONK vocabulary: reading back written cells,
    column injectivity, splitting satisfaction, framing. *)
Require Import ZArith List Lia Bool String.
From Verif Require Import Base Field Plonk.
Import ListNotations.
Open Scope Z_scope.

Lemma cidx_in_range : forall l i, 0 <= i < zlen l -> cidx l i = znth 0 l i.
Proof.
  intros l i H. unfold cidx.
  replace (zlen l + i) with (i + 1 * zlen l) by ring.
  rewrite Z.mod_add by lia. rewrite Z.mod_small by lia. reflexivity.
Qed.

Lemma W_inj : forall c w i j, wf_comp c w -> 0 <= i < w -> 0 <= j < w -> W c i = W c j -> i = j.
Proof.
  intros c w i j [ND [Hw _]] Hi Hj E. unfold W, wamount in *.
  rewrite !cidx_in_range in E by lia.
  eapply znth_nodup_inj; eauto; lia.
Qed.

Lemma W_neq : forall c w i j, wf_comp c w -> 0 <= i < w -> 0 <= j < w -> i <> j -> W c i <> W c j.
Proof. intros c w i j H Hi Hj N E. apply N. eapply W_inj; eauto. Qed.

Lemma W_In : forall c w i, wf_comp c w -> In (W c i) (cWs c).
Proof.
  intros c w i [_ [Hw Hpos]]. unfold W, cidx, wamount in *. apply znth_In.
  apply Z.mod_pos_bound. lia.
Qed.

Lemma W_wrap : forall c w i, wf_comp c w -> W c (i + w) = W c i.
Proof.
  intros c w i [_ [Hw Hpos]]. unfold W, cidx, wamount in *. rewrite Hw.
  f_equal. replace (w + (i + w)) with ((w + i) + 1 * w) by ring. apply Z.mod_add. lia.
Qed.

Lemma wf_std : forall w, 0 < w -> wf_comp (std_comp w) w.
Proof.
  intros w H. split; [apply nodup_zseq|split; [|lia]].
  unfold wamount, std_comp, zlen. cbn [cWs]. rewrite zseq_length. lia.
Qed.

Lemma W_std : forall w i, 0 <= i < w -> W (std_comp w) i = i.
Proof.
  intros w i H. unfold W. rewrite cidx_in_range.
  - unfold std_comp; cbn [cWs]. rewrite znth_zseq by lia. lia.
  - unfold zlen, std_comp. cbn [cWs]. rewrite zseq_length. lia.
Qed.

Section Cells.
Variable P : params.
Implicit Types T : table P.

Lemma wset_same : forall T c r v, wset T c r v CWit c r = v.
Proof. intros. unfold wset. rewrite !Z.eqb_refl. reflexivity. Qed.

Lemma wset_other : forall T c r v ty c' r',
  ty <> CWit \/ c' <> c \/ r' <> r -> wset T c r v ty c' r' = T ty c' r'.
Proof.
  intros T c r v ty c' r' H. unfold wset.
  destruct (ctype_eqb ty CWit) eqn:E1; [|reflexivity].
  apply ctype_eqb_eq in E1.
  destruct (c' =? c) eqn:E2; [|reflexivity].
  destruct (r' =? r) eqn:E3; [|reflexivity].
  apply Z.eqb_eq in E2. apply Z.eqb_eq in E3. destruct H as [H|[H|H]]; congruence.
Qed.

Lemma wset_if : forall T c r v c' r',
  wset T c r v CWit c' r' = if (c' =? c) && (r' =? r) then v else T CWit c' r'.
Proof. reflexivity. Qed.

Lemma wset_const : forall T c r v c' r', wset T c r v CConst c' r' = T CConst c' r'.
Proof. reflexivity. Qed.

Lemma wset_pub : forall T c r v c' r', wset T c r v CPub c' r' = T CPub c' r'.
Proof. reflexivity. Qed.

Lemma cset_same : forall T c r v, cset T c r v CConst c r = v.
Proof. intros. unfold cset. rewrite !Z.eqb_refl. reflexivity. Qed.

Lemma cset_wit : forall T c r v c' r', cset T c r v CWit c' r' = T CWit c' r'.
Proof. reflexivity. Qed.

Lemma cset_other : forall T c r v ty c' r',
  ty <> CConst \/ c' <> c \/ r' <> r -> cset T c r v ty c' r' = T ty c' r'.
Proof.
  intros T c r v ty c' r' H. unfold cset.
  destruct (ctype_eqb ty CConst) eqn:E1; [|reflexivity].
  apply ctype_eqb_eq in E1.
  destruct (c' =? c) eqn:E2; [|reflexivity].
  destruct (r' =? r) eqn:E3; [|reflexivity].
  apply Z.eqb_eq in E2. apply Z.eqb_eq in E3. destruct H as [H|[H|H]]; congruence.
Qed.

Lemma vval_wcell : forall T c r, vval T (wcell c r) = T CWit c r.
Proof. reflexivity. Qed.

Lemma vval_ccell : forall T c r, vval T (ccell c r) = T CConst c r.
Proof. reflexivity. Qed.

Lemma gval_wv : forall T row i rot, gval T row (wv i rot) = T CWit i (row + rot).
Proof. reflexivity. Qed.

Lemma eval_evar : forall T row v, eval T row (evar v) = gval T row v.
Proof.
  intros. cbn. unfold fmul, f1. apply F_ext. rewrite !fval_ofZ.
  pose proof (char_ge_2 P). rewrite Z.mod_1_l by lia. rewrite Z.mul_1_l. apply fval_mod.
Qed.

Lemma eval_term1 : forall T row (k : F P) v, eval T row (ETerm k [v]) = fmul k (gval T row v).
Proof. reflexivity. Qed.

Lemma eval_term2 : forall T row (k : F P) v v',
  eval T row (ETerm k [v; v']) = fmul (fmul k (gval T row v)) (gval T row v').
Proof. reflexivity. Qed.

Lemma eval_pow : forall T row (e : expr P) n, eval T row (EPow e n) = fpow (eval T row e) n.
Proof. reflexivity. Qed.

Lemma eval_ecst : forall T row (v : F P), eval T row (ecst v) = v.
Proof. reflexivity. Qed.

Lemma eval_bin : forall T row o a b, eval T row (EBin o a b) = ebop P o (eval T row a) (eval T row b).
Proof. reflexivity. Qed.

Lemma vval_frame : forall c n r0 T T' x,
  frame c n r0 T T' -> outside c n r0 x -> vval T' x = vval T x.
Proof. intros c n r0 T T' x HF HO. unfold vval. apply HF. exact HO. Qed.

Lemma frame_refl : forall c n r0 T, frame c n r0 T T.
Proof. intros c n r0 T ty col row _. reflexivity. Qed.

Lemma frame_trans : forall c n r0 T1 T2 T3,
  frame c n r0 T1 T2 -> frame c n r0 T2 T3 -> frame c n r0 T1 T3.
Proof. intros c n r0 T1 T2 T3 H1 H2 ty col row H. rewrite H2, H1; auto. Qed.

Lemma frame_wset : forall c w n r0 T T' i r v,
  wf_comp c w -> r0 <= r < r0 + n -> frame c n r0 T T' -> frame c n r0 T (wset T' (W c i) r v).
Proof.
  intros c w n r0 T T' i r v Hwf Hr HF ty col row HO.
  rewrite <- (HF ty col row HO).
  apply wset_other.
  destruct ty; try (left; congruence). right.
  destruct (Z.eq_dec col (W c i)) as [->|Hc]; [|left; exact Hc].
  right. intros ->. apply HO. split; [reflexivity|split; [|lia]].
  eapply W_In; eauto.
Qed.

Lemma frame_sub : forall c n r0 n' r0' T T',
  r0 <= r0' -> r0' + n' <= r0 + n -> frame c n' r0' T T' -> frame c n r0 T T'.
Proof.
  intros c n r0 n' r0' T T' H1 H2 HF ty col row HO. apply HF.
  intros [A [B D]]. apply HO. split; [exact A|split; [exact B|lia]].
Qed.

Lemma outside_sub : forall c n r0 n' r0' x,
  r0 <= r0' -> r0' + n' <= r0 + n -> outside c n r0 x -> outside c n' r0' x.
Proof. intros c n r0 n' r0' x H1 H2 HO [A [B D]]. apply HO. split; [exact A|split; [exact B|lia]]. Qed.

Lemma vval_wset_outside : forall c w n r0 T i r v x,
  wf_comp c w -> outside c n r0 x -> r0 <= r < r0 + n ->
  vval (wset T (W c i) r v) x = vval T x.
Proof.
  intros c w n r0 T i r v x Hwf HO Hr.
  eapply vval_frame; [|exact HO].
  eapply frame_wset; eauto. apply frame_refl.
Qed.

Lemma sat_nil : forall (L : lenv P) T, sat L T [].
Proof. intros L T c []. Qed.

Lemma sat_cons : forall (L : lenv P) T c cs, sat L T (c :: cs) <-> holds L T c /\ sat L T cs.
Proof.
  intros. unfold sat. split.
  - intros H. split; [apply H; left; reflexivity|intros; apply H; right; assumption].
  - intros [H1 H2] x [<-|Hx]; auto.
Qed.

Lemma sat_app : forall (L : lenv P) T a b, sat L T (a ++ b) <-> sat L T a /\ sat L T b.
Proof.
  intros. unfold sat. split.
  - intros H. split; intros; apply H; apply in_or_app; auto.
  - intros [H1 H2] x Hx. apply in_app_or in Hx. destruct Hx; auto.
Qed.

Lemma sat_map : forall (L : lenv P) T A (f : A -> cmd P) l,
  sat L T (map f l) <-> forall a, In a l -> holds L T (f a).
Proof.
  intros. unfold sat. split.
  - intros H a Ha. apply H. apply in_map. exact Ha.
  - intros H c Hc. apply in_map_iff in Hc. destruct Hc as [a [<- Ha]]. auto.
Qed.

Lemma holds_gate1 : forall (L : lenv P) T cs r,
  holds L T (Gate cs [r]) <-> (forall e, In e cs -> eval T r e = f0).
Proof.
  intros. cbn. split.
  - intros H e He. apply H; auto.
  - intros H r' [<-|[]] e He. auto.
Qed.

End Cells.

(** Unfold [sat] of an explicit command list into a conjunction of field
    equations. *)
Ltac unsat H :=
  repeat (rewrite sat_cons in H); repeat (rewrite sat_app in H).

Ltac eval_norm :=
  repeat (rewrite ?eval_bin, ?eval_evar, ?eval_ecst, ?eval_term1, ?eval_term2, ?eval_pow, ?gval_wv);
  cbn [ebop].

Lemma wset_eq : forall P (T : table P) c r v c' r',
  c' = c -> r' = r -> wset T c r v CWit c' r' = v.
Proof. intros P T c r v c' r' -> ->. apply wset_same. Qed.

Lemma all_cons : forall A (Q : A -> Prop) a l,
  (forall e, In e (a :: l) -> Q e) <-> Q a /\ (forall e, In e l -> Q e).
Proof.
  intros A Q a l. split.
  - intros H. split; [apply H; left; reflexivity|intros; apply H; right; assumption].
  - intros [H1 H2] e [<-|He]; auto.
Qed.

Lemma all_nil : forall A (Q : A -> Prop), (forall e, In e [] -> Q e) <-> True.
Proof. intros A Q. split; [auto|intros _ e []]. Qed.

Lemma all_app : forall A (Q : A -> Prop) a b,
  (forall e, In e (a ++ b) -> Q e) <-> (forall e, In e a -> Q e) /\ (forall e, In e b -> Q e).
Proof.
  intros A Q a b. split.
  - intros H. split; intros; apply H; apply in_or_app; auto.
  - intros [H1 H2] e He. apply in_app_or in He. destruct He; auto.
Qed.

Lemma gval_frame : forall P c n r0 (T T' : table P) row v,
  frame c n r0 T T' ->
  ~ in_area c n r0 (vty v) (vidx v) (if vrel v then row + vrot v else vrot v) ->
  gval T' row v = gval T row v.
Proof. intros. unfold gval. apply H. assumption. Qed.

(** Constants the circuit wrote and the table still holds. *)
Definition consts_in {P} (T : table P) (cs : list (cmd P)) : Prop :=
  forall col row v, In (SetConst col row v) cs -> T CConst col row = v.

Lemma consts_in_frame : forall P c n r0 (T T' : table P) cs,
  frame c n r0 T T' -> consts_in T cs -> consts_in T' cs.
Proof.
  intros P c n r0 T T' cs HF H col row v Hin. rewrite HF; [eapply H; eauto|].
  intros [A _]. discriminate.
Qed.

(** Split [sat] over an explicit list into equations, and simplify. *)

Ltac sat_hyp H :=
  repeat first [ rewrite sat_cons in H | rewrite sat_app in H | rewrite holds_gate1 in H
               | rewrite all_cons in H | rewrite all_nil in H ];
  cbn [holds] in H.

Ltac eval_hyps :=
  repeat match goal with
  | H : context [eval _ _ _] |- _ =>
      progress repeat (rewrite ?eval_bin, ?eval_evar, ?eval_ecst, ?eval_term1, ?eval_term2, ?eval_pow, ?gval_wv, ?Z.add_0_r in H; cbn [ebop] in H)
  | H : context [vval _ (wcell _ _)] |- _ => rewrite !vval_wcell in H
  end.

Ltac sat_goal :=
  repeat match goal with
  | |- sat _ _ (_ :: _) => apply sat_cons; split
  | |- sat _ _ (_ ++ _) => apply sat_app; split
  | |- sat _ _ [] => apply sat_nil
  | |- holds _ _ (Gate _ [_]) => apply holds_gate1
  | |- forall e, In e (_ :: _) -> _ => apply all_cons; split
  | |- forall e, In e [] -> _ => apply all_nil; exact I
  end; cbn [holds];
  repeat (rewrite ?eval_bin, ?eval_evar, ?eval_ecst, ?eval_term1, ?eval_term2, ?eval_pow, ?gval_wv, ?Z.add_0_r; cbn [ebop]).

Ltac col_neq := solve [ eapply W_neq; [eassumption | lia | lia | lia] ].
Ltac cell_neq := first [ left; discriminate | right; right; lia | right; left; col_neq ].

(** Read a cell back through a sequence of writes. *)
Ltac rd :=
  repeat first
    [ rewrite wset_same
    | rewrite wset_const
    | rewrite wset_pub
    | rewrite vval_wcell
    | rewrite vval_ccell
    | erewrite vval_wset_outside by first [eassumption | lia]
    | rewrite wset_eq by first [reflexivity | lia]
    | rewrite wset_other by cell_neq ].

Ltac frame_tac :=
  repeat first [ eapply frame_refl | eapply frame_wset; [eassumption | lia | ] ].

(** Linear combinations of hypotheses: [lc k1 H1 k2 H2 ...] proves [a = b] when
    [a - b = k1 * (l1 - r1) + k2 * (l2 - r2) + ...] is a ring identity. *)
Lemma lc0_l : forall P (a b : F P), fsub a b = f0 -> a = b.
Proof. intros P a b. apply fsub_eq0. Qed.
Lemma lc_add : forall P (k1 z1 z2 : F P), z1 = f0 -> z2 = f0 -> fadd (fmul k1 z1) z2 = f0.
Proof.
  intros P k1 z1 z2 -> ->. apply F_ext. unfold fadd, fmul, f0. rewrite !fval_ofZ.
  rewrite Zmod_0_l, Z.mul_0_r, Zmod_0_l. reflexivity.
Qed.
Lemma lc_last : forall P (k1 z1 : F P), z1 = f0 -> fmul k1 z1 = f0.
Proof.
  intros P k1 z1 ->. apply F_ext. unfold fadd, fmul, f0. rewrite !fval_ofZ.
  rewrite Zmod_0_l, Z.mul_0_r, Zmod_0_l. reflexivity.
Qed.
Lemma lc_fin : forall P (a b z : F P), z = f0 -> fsub a b = z -> a = b.
Proof. intros P a b z -> H. apply fsub_eq0. exact H. Qed.

Ltac hz H := lazymatch type of H with ?l = ?r => constr:(proj2 (fsub_eq0 _ l r) H) end.
Tactic Notation "lc" uconstr(k1) constr(H1) :=
  let z1 := hz H1 in
  refine (lc_fin _ _ _ _ (lc_last _ k1 _ z1) _); ring.
Tactic Notation "lc" uconstr(k1) constr(H1) uconstr(k2) constr(H2) :=
  let z1 := hz H1 in let z2 := hz H2 in
  refine (lc_fin _ _ _ _ (lc_add _ k1 _ _ z1 (lc_last _ k2 _ z2)) _); ring.
Tactic Notation "lc" uconstr(k1) constr(H1) uconstr(k2) constr(H2) uconstr(k3) constr(H3) :=
  let z1 := hz H1 in let z2 := hz H2 in let z3 := hz H3 in
  refine (lc_fin _ _ _ _ (lc_add _ k1 _ _ z1 (lc_add _ k2 _ _ z2 (lc_last _ k3 _ z3))) _); ring.
Tactic Notation "lc" uconstr(k1) constr(H1) uconstr(k2) constr(H2) uconstr(k3) constr(H3) uconstr(k4) constr(H4) :=
  let z1 := hz H1 in let z2 := hz H2 in let z3 := hz H3 in let z4 := hz H4 in
  refine (lc_fin _ _ _ _ (lc_add _ k1 _ _ z1 (lc_add _ k2 _ _ z2 (lc_add _ k3 _ _ z3 (lc_last _ k4 _ z4)))) _); ring.
Tactic Notation "lc" uconstr(k1) constr(H1) uconstr(k2) constr(H2) uconstr(k3) constr(H3) uconstr(k4) constr(H4) uconstr(k5) constr(H5) :=
  let z1 := hz H1 in let z2 := hz H2 in let z3 := hz H3 in let z4 := hz H4 in let z5 := hz H5 in
  refine (lc_fin _ _ _ _ (lc_add _ k1 _ _ z1 (lc_add _ k2 _ _ z2 (lc_add _ k3 _ _ z3 (lc_add _ k4 _ _ z4 (lc_last _ k5 _ z5))))) _); ring.
