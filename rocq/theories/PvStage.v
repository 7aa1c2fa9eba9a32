(** Sub-components run one below the other. *)
From Coq Require Import ZArith List Lia Bool.
From Verif Require Import Base Field Plonk PlonkFacts Bits FieldOpsModel FlexModel PvModel PvSpec PvTape PvGate PvLoops PvF1.
Import ListNotations.
Open Scope Z_scope.

Inductive stage :=
| SGc (theta : var) (cs : list var) (q : var)
| SMul (x y : var)
| SF1 (beta gamma : var) (s t : list var).

Definition st_vars (s : stage) : list var :=
  match s with
  | SGc th cs q => th :: q :: cs
  | SMul x y => [x; y]
  | SF1 be ga s t => be :: ga :: s ++ t
  end.
Definition st_ok (s : stage) : Prop :=
  match s with
  | SGc _ cs _ => 2 <= zlen cs
  | SMul _ _ => True
  | SF1 _ _ s t => 1 <= zlen s /\ zlen s = zlen t
  end.
Definition st_rows (w : Z) (s : stage) : Z :=
  match s with
  | SGc _ cs _ => gc_rows w (zlen cs - 1)
  | SMul _ _ => 1
  | SF1 _ _ s _ => f1_rows w (zlen s)
  end.
Definition st_circuit {P} (c : comp) (s : stage) (row : Z) : list (cmd P) :=
  match s with
  | SGc th cs q => gc_circuit c th cs q row
  | SMul x y => multiplication_circuit c x y row
  | SF1 be ga s t => f1_circuit c be ga s t row
  end.
Definition st_assign {P} (c : comp) (s : stage) (row : Z) (T : table P) : table P :=
  match s with
  | SGc th cs q => gc_assign c th cs q row T
  | SMul x y => multiplication_assign c x y row T
  | SF1 be ga s t => f1_assign c be ga s t row T
  end.

Fixpoint sts_rows (w : Z) (l : list stage) : Z :=
  match l with [] => 0 | s :: l' => st_rows w s + sts_rows w l' end.
Fixpoint sts_circuit {P} (c : comp) (l : list stage) (row : Z) : list (cmd P) :=
  match l with [] => [] | s :: l' => st_circuit c s row ++ sts_circuit c l' (row + st_rows (wamount c) s) end.
Fixpoint sts_assign {P} (c : comp) (l : list stage) (row : Z) (T : table P) : table P :=
  match l with [] => T | s :: l' => sts_assign c l' (row + st_rows (wamount c) s) (st_assign c s row T) end.

(** An input from outside the rows of the whole component, or a cell of the
    component above row [r]. *)
Definition prior (c : comp) (N row0 r : Z) (x : var) : Prop :=
  outside c N row0 x \/ exists j r', x = wcell (W c j) r' /\ row0 <= r' < r.
Fixpoint sts_valid (c : comp) (N row0 row : Z) (l : list stage) : Prop :=
  match l with
  | [] => True
  | s :: l' => st_ok s /\ (forall x, In x (st_vars s) -> prior c N row0 row x) /\
      sts_valid c N row0 (row + st_rows (wamount c) s) l'
  end.

Lemma sts_rows_app : forall w a b, sts_rows w (a ++ b) = sts_rows w a + sts_rows w b.
Proof. intros w a b. induction a as [|s a IH]; cbn [app sts_rows]; [lia|]. rewrite IH. lia. Qed.
Lemma sts_circuit_app : forall P c a b row,
  sts_circuit (P:=P) c (a ++ b) row = sts_circuit c a row ++ sts_circuit c b (row + sts_rows (wamount c) a).
Proof.
  intros P c a. induction a as [|s a IH]; intros b row; cbn [app sts_rows sts_circuit].
  - rewrite Z.add_0_r. reflexivity.
  - rewrite IH, <- app_assoc. do 3 f_equal. lia.
Qed.
Lemma sts_assign_app : forall P c a b row (T : table P),
  sts_assign c (a ++ b) row T = sts_assign c b (row + sts_rows (wamount c) a) (sts_assign c a row T).
Proof.
  intros P c a. induction a as [|s a IH]; intros b row T; cbn [app sts_rows sts_assign].
  - rewrite Z.add_0_r. reflexivity.
  - rewrite IH. f_equal. lia.
Qed.
Lemma sts_valid_app : forall c N row0 a b row,
  sts_valid c N row0 row (a ++ b) <-> sts_valid c N row0 row a /\ sts_valid c N row0 (row + sts_rows (wamount c) a) b.
Proof.
  intros c N row0 a. induction a as [|s a IH]; intros b row; cbn [app sts_rows sts_valid].
  - rewrite Z.add_0_r. tauto.
  - rewrite IH. replace (row + (st_rows (wamount c) s + sts_rows (wamount c) a)) with (row + st_rows (wamount c) s + sts_rows (wamount c) a) by lia. tauto.
Qed.

Lemma f1_rows_ge : forall w m, 2 <= f1_rows w m.
Proof. intros. unfold f1_rows. lia. Qed.
Lemma st_rows_pos : forall w s, 4 <= w -> st_ok s -> 1 <= st_rows w s.
Proof.
  intros w [th cs q|x y|be ga s t] Hw H; cbn [st_rows st_ok] in *.
  - apply gc_rows_pos; lia.
  - lia.
  - pose proof (f1_rows_ge w (zlen s)). lia.
Qed.
Lemma sts_rows_nonneg : forall c N row0 l row, 4 <= wamount c -> sts_valid c N row0 row l -> 0 <= sts_rows (wamount c) l.
Proof.
  intros c N row0 l. induction l as [|s l IH]; intros row Hw H; cbn [sts_rows sts_valid] in *; [lia|].
  destruct H as [H1 [_ H2]]. pose proof (st_rows_pos (wamount c) s Hw H1). pose proof (IH _ Hw H2). lia.
Qed.

Lemma prior_outside : forall c N row0 r n x, prior c N row0 r x -> row0 <= r -> r + n <= row0 + N -> outside c n r x.
Proof.
  intros c N row0 r n x [H|[j [r' [-> Hr]]]] H1 H2.
  - eapply outside_sub; [| |exact H]; lia.
  - unfold outside, in_area, wcell. cbn. lia.
Qed.
Lemma prior_mono : forall c N row0 r r' x, prior c N row0 r x -> r <= r' -> prior c N row0 r' x.
Proof. intros c N row0 r r' x [H|[j [q [-> Hr]]]] H1; [left; exact H|]. right. exists j, q. split; [reflexivity|lia]. Qed.
Lemma prior_cell : forall c N row0 r j r', row0 <= r' < r -> prior c N row0 r (wcell (W c j) r').
Proof. intros. right. exists j, r'. split; [reflexivity|assumption]. Qed.

Section Stages.
Variable P : params.
Variable L : lenv P.
Implicit Types T : table P.

Lemma st_complete : forall c w s row T, wf_comp c w -> 4 <= w -> st_ok s ->
  (forall x, In x (st_vars s) -> outside c (st_rows w s) row x) ->
  sat L (st_assign c s row T) (st_circuit c s row) /\ frame c (st_rows w s) row T (st_assign c s row T).
Proof.
  intros c w [th cs q|x y|be ga s t] row T Hwf Hw Hok Ho; cbn [st_ok st_rows st_vars st_circuit st_assign] in *.
  - destruct (gc_complete_l P L T c w th cs q row Hwf ltac:(lia) Hok) as [A [B _]];
      [apply Ho; left; reflexivity|intros; apply Ho; right; right; assumption|apply Ho; right; left; reflexivity|].
    split; assumption.
  - destruct (mul_complete P L T c w x y row Hwf ltac:(lia)) as [A [B _]];
      [apply Ho; left; reflexivity|apply Ho; right; left; reflexivity|]. split; assumption.
  - destruct Hok as [H1 H2].
    destruct (f1_complete_l P L T c w be ga s t row Hwf Hw H1 H2) as [A [B _]];
      [apply Ho; left; reflexivity|apply Ho; right; left; reflexivity| | |split; assumption];
      intros x Hx; apply Ho; right; right; apply in_or_app; auto.
Qed.

Lemma st_reads : forall (Q : ctype -> Z -> Z -> Prop) c s row, 4 <= wamount c -> st_ok s ->
  (forall j r, row <= r < row + st_rows (wamount c) s -> Q CWit (W c j) r) ->
  (forall x, In x (st_vars s) -> var_reads Q x) -> reads Q (st_circuit (P:=P) c s row).
Proof.
  intros Q c [th cs q|x y|be ga s t] row Hw Hok HQ Hv; cbn [st_ok st_rows st_vars st_circuit] in *.
  - apply gc_reads; [lia|exact Hok|exact HQ|apply Hv; left; reflexivity|intros; apply Hv; right; right; assumption|
      apply Hv; right; left; reflexivity].
  - apply mul_reads; [intros j; apply HQ; lia|apply Hv; left; reflexivity|apply Hv; right; left; reflexivity].
  - destruct Hok as [H1 H2]. apply f1_reads; [exact Hw|exact H1|exact H2|exact HQ|apply Hv; left; reflexivity|apply Hv; right; left; reflexivity| |];
      intros x Hx; apply Hv; right; right; apply in_or_app; auto.
Qed.

Lemma sts_reads : forall (Q : ctype -> Z -> Z -> Prop) c N row0 l row, 4 <= wamount c ->
  sts_valid c N row0 row l -> row0 <= row ->
  (forall j r, row0 <= r < row + sts_rows (wamount c) l -> Q CWit (W c j) r) ->
  (forall x, outside c N row0 x -> var_reads Q x) -> reads Q (sts_circuit (P:=P) c l row).
Proof.
  intros Q c N row0 l. induction l as [|s l IH]; intros row Hw Hv Hr HQ Ho; [apply reads_nil|].
  cbn [sts_valid sts_rows sts_circuit] in *. destruct Hv as [V1 [V2 V3]].
  pose proof (st_rows_pos _ s Hw V1) as P1. pose proof (sts_rows_nonneg _ _ _ _ _ Hw V3) as P2.
  apply reads_app. split.
  - apply st_reads; [exact Hw|exact V1|intros j r H; apply HQ; lia|].
    intros x Hx. destruct (V2 x Hx) as [O|[j [r' [-> H]]]]; [apply Ho; exact O|]. apply (HQ j r'). lia.
  - apply IH; [exact Hw|exact V3|lia| |exact Ho]. intros j r H. apply HQ. lia.
Qed.

Lemma sts_complete : forall c w N row0 l row T, wf_comp c w -> 4 <= w ->
  sts_valid c N row0 row l -> row0 <= row -> row + sts_rows w l <= row0 + N ->
  sat L (sts_assign c l row T) (sts_circuit c l row) /\ frame c (sts_rows w l) row T (sts_assign c l row T).
Proof.
  intros c w N row0 l. induction l as [|s l IH]; intros row T Hwf Hw Hv Hr Hn.
  { split; [apply sat_nil|apply frame_refl]. }
  pose proof (proj1 (proj2 Hwf)) as Ew.
  cbn [sts_valid sts_rows sts_circuit sts_assign] in *. rewrite Ew in *. destruct Hv as [V1 [V2 V3]].
  pose proof (st_rows_pos w s Hw V1) as P1.
  assert (P2 : 0 <= sts_rows w l) by (rewrite <- Ew; apply (sts_rows_nonneg c N row0 l _ ltac:(lia) V3)).
  destruct (st_complete c w s row T Hwf Hw V1) as [S1 F1].
  { intros x Hx. apply (prior_outside c N row0); [apply V2; exact Hx|exact Hr|lia]. }
  destruct (IH (row + st_rows w s) (st_assign c s row T) Hwf Hw V3 ltac:(lia) ltac:(lia)) as [S2 F2].
  set (T1 := st_assign c s row T) in *. set (T2 := sts_assign c l (row + st_rows w s) T1) in *.
  split.
  - apply sat_app. split; [|exact S2]. apply (sat_frame P L c (sts_rows w l) (row + st_rows w s) T1 T2 _ F2); [|exact S1].
    apply st_reads; [lia|exact V1| |].
    + intros j r H [_ [_ X]]. rewrite Ew in H. lia.
    + intros x Hx. apply (prior_outside c N row0); [apply (prior_mono c N row0 row); [apply V2; exact Hx|lia]|lia|lia].
  - apply (frame_trans P c (st_rows w s + sts_rows w l) row T T1 T2); (eapply frame_sub; [| |eassumption]); lia.
Qed.

End Stages.
