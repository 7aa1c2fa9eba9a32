(** Facts about lookup_argument_verifier: the loops over tables and gates. *)
From Coq Require Import ZArith List Lia Bool Field.
From Verif Require Import Base Field Plonk PlonkFacts Bits FieldOpsModel FieldOpsProofs FlexModel FlexProofs
  PvModel PvSpec PvTape PvGate PvLoops PvF1 PvF3 PvStage.
Import ListNotations.
Open Scope Z_scope.

(** The inputs of the lookup argument, grouped: a table has a selector, the
    selector of its shifted copy, a number of columns, and its options with
    their shifted copies; a gate has a selector and its constraints, each a table
    number and the inputs. *)
Record lk_table := mkTab { kt_sel : var; kt_ssel : var; kt_cols : Z; kt_opts : list (list var * list var) }.
Record lk_gate := mkLg { kg_sel : var; kg_cons : list (var * list var) }.

(** The flat vectors of the component hold these inputs. *)
Definition lk_inputs (sh : lv_shape) (x : lv_in) (tabs : list lk_table) (gates : list lk_gate) : Prop :=
  ls_gates sh = map (fun g => zlen (kg_cons g)) gates /\
  ls_inputs sh = flat_map (fun g => map (fun k => zlen (snd k)) (kg_cons g)) gates /\
  ls_options sh = map (fun t => zlen (kt_opts t)) tabs /\
  ls_columns sh = map kt_cols tabs /\
  lv_gsel x = map kg_sel gates /\
  lv_gids x = flat_map (fun g => map fst (kg_cons g)) gates /\
  lv_gin x = flat_map (fun g => flat_map snd (kg_cons g)) gates /\
  lv_tsel x = map kt_sel tabs /\
  lv_stsel x = map kt_ssel tabs /\
  lv_topt x = flat_map (fun t => flat_map fst (kt_opts t)) tabs /\
  lv_stopt x = flat_map (fun t => flat_map snd (kt_opts t)) tabs.
Definition lk_counts (tabs : list lk_table) (gates : list lk_gate) : Z :=
  zlen (flat_map kt_opts tabs) + zlen (flat_map kg_cons gates).
Definition lk_sizes (x : lv_in) (tabs : list lk_table) (gates : list lk_gate) : Prop :=
  (forall t, In t tabs -> 1 <= kt_cols t /\ forall o, In o (kt_opts t) -> zlen (fst o) = kt_cols t /\ zlen (snd o) = kt_cols t) /\
  (forall g k, In g gates -> In k (kg_cons g) -> 1 <= zlen (snd k)) /\
  1 <= zlen (flat_map kt_opts tabs) /\ 1 <= zlen (flat_map kg_cons gates) /\
  zlen (lv_sorted x) = 3 * lk_counts tabs gates - 1 /\ zlen (lv_alphas x) = lk_counts tabs gates - 1.

(** ** Jobs *)

Fixpoint njobs {A B} (f : A -> list B) (k : Z) (l : list A) : list (Z * B) :=
  match l with [] => [] | a :: l' => map (fun b => (k, b)) (f a) ++ njobs f (k + 1) l' end.

Lemma map_zseq_const : forall A (a : A) n lo, 0 <= n -> map (fun _ => a) (zseq lo (lo + n)) = repeat a (Z.to_nat n).
Proof.
  intros A a n lo Hn. revert lo. pattern n. apply natlike_ind; [| |exact Hn]; clear n Hn.
  - intros lo. rewrite zseq_nil by lia. reflexivity.
  - intros n Hn IH lo. rewrite zseq_cons by lia. cbn [map]. replace (Z.to_nat (Z.succ n)) with (S (Z.to_nat n)) by lia.
    cbn [repeat]. f_equal. replace (lo + Z.succ n) with (lo + 1 + n) by lia. apply IH.
Qed.
Lemma map_const_len : forall A B (a : A) (l : list B), map (fun _ => a) l = repeat a (length l).
Proof. intros A B a l. induction l as [|b l IH]; cbn [map length repeat]; [reflexivity|]. rewrite IH. reflexivity. Qed.

Lemma jobs_from : forall A B (f : A -> list B) l pre,
  flat_map (fun i => map (fun _ => i) (zseq 0 (znth 0 (pre ++ map (fun a => zlen (f a)) l) i)))
    (zseq (zlen pre) (zlen pre + zlen l)) = map fst (njobs f (zlen pre) l).
Proof.
  intros A B f l. induction l as [|a l IH]; intros pre.
  - rewrite zseq_nil by (unfold zlen; cbn [length]; lia). reflexivity.
  - rewrite zseq_cons by (rewrite zlen_cons; pose proof (zlen_nonneg _ l); lia).
    cbn [flat_map njobs map]. rewrite map_app, map_map. cbn [fst]. f_equal.
    + rewrite znth_r by lia. rewrite Z.sub_diag, znth_0. rewrite <- (Z.add_0_l (zlen (f a))) at 1.
      rewrite map_zseq_const by apply zlen_nonneg. unfold zlen. rewrite Nat2Z.id.
      symmetry. apply map_const_len.
    + specialize (IH (pre ++ [zlen (f a)])). rewrite <- app_assoc in IH. cbn [app] in IH.
      rewrite zlen_app in IH. change (zlen [zlen (f a)]) with 1 in IH. rewrite zlen_cons.
      replace (zlen pre + (1 + zlen l)) with (zlen pre + 1 + zlen l) by lia. exact IH.
Qed.
Lemma jobs_eq : forall A B (f : A -> list B) l, lv_jobs (map (fun a => zlen (f a)) l) = map fst (njobs f 0 l).
Proof. intros A B f l. unfold lv_jobs. rewrite zlen_map. exact (jobs_from A B f l []). Qed.

Lemma njobs_snd : forall A B C (f : A -> list B) (g : B -> C) l k, map (fun j => g (snd j)) (njobs f k l) = flat_map (fun a => map g (f a)) l.
Proof.
  intros A B C f g l. induction l as [|a l IH]; intros k; cbn [njobs flat_map map]; [reflexivity|].
  rewrite map_app, map_map. cbn [snd]. rewrite IH. reflexivity.
Qed.
Lemma njobs_flat : forall A B C (f : A -> list B) (g : B -> list C) l k,
  flat_map (fun j => g (snd j)) (njobs f k l) = flat_map (fun a => flat_map g (f a)) l.
Proof.
  intros A B C f g l. induction l as [|a l IH]; intros k; cbn [njobs flat_map map]; [reflexivity|].
  rewrite flat_map_app, IH. f_equal. generalize (f a). intros bs. induction bs as [|b bs IHb]; cbn [map flat_map snd]; [reflexivity|].
  rewrite IHb. reflexivity.
Qed.
Lemma njobs_in : forall A B (f : A -> list B) (d : A) l k j, In j (njobs f k l) ->
  k <= fst j < k + zlen l /\ In (znth d l (fst j - k)) l /\ In (snd j) (f (znth d l (fst j - k))).
Proof.
  intros A B f d l. induction l as [|a l IH]; intros k j H; cbn [njobs] in H; [destruct H|].
  apply in_app_iff in H. pose proof (zlen_nonneg _ l). rewrite zlen_cons. destruct H as [H|H].
  - apply in_map_iff in H. destruct H as [b [<- Hb]]. cbn [fst snd]. rewrite Z.sub_diag, znth_0.
    split; [lia|]. split; [left; reflexivity|exact Hb].
  - apply IH in H. destruct H as [H1 [H2 H3]]. split; [lia|]. rewrite znth_S by lia.
    replace (fst j - k - 1) with (fst j - (k + 1)) by lia. split; [right; exact H2|exact H3].
Qed.
Lemma njobs_len : forall A B (f : A -> list B) l k, zlen (njobs f k l) = zlen (flat_map f l).
Proof.
  intros A B f l. induction l as [|a l IH]; intros k; cbn [njobs flat_map]; [reflexivity|].
  rewrite !zlen_app, zlen_map, IH. reflexivity.
Qed.

Lemma znth_zdrop : forall A (d : A) l i, 0 <= i -> znth d l i = znth d (zdrop i l) 0.
Proof.
  intros A d l i Hi. unfold znth, zdrop. change (Z.to_nat 0) with 0%nat. generalize (Z.to_nat i) as n. clear i Hi.
  induction l as [|a l IH]; intros [|n]; cbn [skipn nth]; try reflexivity. apply IH.
Qed.
Lemma zdrop_zdrop : forall A (l : list A) i j, 0 <= i -> 0 <= j -> zdrop (i + j) l = zdrop j (zdrop i l).
Proof.
  intros A l i j Hi Hj. unfold zdrop. rewrite Z2Nat.inj_add by lia. generalize (Z.to_nat i) as n, (Z.to_nat j) as m.
  intros n. revert l. induction n as [|n IH]; intros l m; [reflexivity|]. destruct l as [|a l]; cbn [Nat.add skipn]; [destruct m; reflexivity|apply IH].
Qed.

(** ** Tables *)

Section Lookup.
Variable P : params.
Notation F := (F P).
Notation table := (table P).
Variable L : lenv P.
Implicit Types T : table.
Add Field Ff : (F_field P) (morphism (F_morph P), constants [F_const], power_tac (F_power P) [F_pow_tac]).
Local Open Scope F_scope.

Definition topt_in (c : comp) (srow i : Z) (o : list var) : list var := ccell (C c 0) (srow + i) :: o.
Fixpoint tstages (c : comp) (x : lv_in) (srow : Z) (J : list (Z * (list var * list var))) (row : Z) : list stage :=
  match J with
  | [] => []
  | (i, (o, so)) :: J' =>
      let g := gc_rows (wamount c) (zlen o) in
      SGc (lv_theta x) (topt_in c srow i o) (znth dvar (lv_tsel x) i) ::
      SMul (gc_out c (zlen o) row) (wcell (W c 2) srow) ::
      SGc (lv_theta x) (topt_in c srow i so) (znth dvar (lv_stsel x) i) ::
      SMul (gc_out c (zlen o) (row + g + 1)) (wcell (W c 2) (srow + 1)) ::
      tstages c x srow J' (row + (2 * g + 2 * 1))
  end%Z.

Definition tj_ok (sh : lv_shape) (J : list (Z * (list var * list var))) : Prop :=
  forall j, In j J -> (1 <= znth 0 (ls_columns sh) (fst j) /\ zlen (fst (snd j)) = znth 0 (ls_columns sh) (fst j) /\
    zlen (snd (snd j)) = znth 0 (ls_columns sh) (fst j))%Z.

Lemma topt_len : forall c srow i o, (zlen (topt_in c srow i o) - 1)%Z = zlen o.
Proof. intros. unfold topt_in. rewrite zlen_cons. lia. Qed.

Lemma tloop_eq : forall c sh x srow J row start, tj_ok sh J -> (0 <= start)%Z ->
  zdrop start (lv_topt x) = flat_map (fun j => fst (snd j)) J -> zdrop start (lv_stopt x) = flat_map (fun j => snd (snd j)) J ->
  lv_tcircuit (P:=P) c sh x srow (map fst J) row start = sts_circuit c (tstages c x srow J row) row /\
  (forall T, lv_tassign c sh x srow (map fst J) row start T = sts_assign c (tstages c x srow J row) row T) /\
  sts_rows (wamount c) (tstages c x srow J row) = lv_tloop_rows (wamount c) sh (map fst J).
Proof.
  intros c sh x srow J. induction J as [|[i [o so]] J IH]; intros row start Hok Hs E1 E2.
  { repeat split; reflexivity. }
  destruct (Hok _ (or_introl eq_refl)) as [K1 [K2 K3]]. cbn [fst snd] in K1, K2, K3.
  assert (Hok' : tj_ok sh J) by (intros j Hj; apply Hok; right; exact Hj).
  cbn [flat_map fst snd] in E1, E2.
  assert (A1 : ztake (zlen o) (zdrop start (lv_topt x)) = o) by (rewrite E1; apply ztake_app).
  assert (A2 : ztake (zlen o) (zdrop start (lv_stopt x)) = so) by (rewrite E2, K2, <- K3; apply ztake_app).
  pose proof (zlen_nonneg _ o) as Ho.
  specialize (IH (row + (2 * gc_rows (wamount c) (zlen o) + 2 * 1)) (start + zlen o) Hok' ltac:(lia))%Z.
  destruct IH as [I1 [I2 I3]].
  { rewrite zdrop_zdrop, E1 by lia. apply zdrop_app. }
  { rewrite zdrop_zdrop, E2 by lia. rewrite K2, <- K3. apply zdrop_app. }
  cbn [map fst lv_tcircuit lv_tassign lv_tloop_rows tstages sts_circuit sts_assign sts_rows st_circuit st_assign st_rows].
  unfold lv_trows, lv_topts. rewrite <- K2, A1, A2. rewrite !topt_len.
  replace (zlen so) with (zlen o) by lia.
  set (g := gc_rows (wamount c) (zlen o)) in *.
  replace (row + g + 1 + g + 1)%Z with (row + (2 * g + 2 * 1))%Z by lia.
  split; [|split].
  - rewrite I1. reflexivity.
  - intros T. rewrite I2. reflexivity.
  - rewrite I3. lia.
Qed.

Lemma tstages_valid : forall c x N row0 srow J row w, wamount c = w -> (4 <= w)%Z -> (row0 <= srow)%Z -> (srow + 2 <= row)%Z ->
  (forall j, In j J -> (1 <= zlen (fst (snd j)) /\ zlen (snd (snd j)) = zlen (fst (snd j)))%Z) ->
  outside c N row0 (lv_theta x) ->
  (forall j, In j J -> outside c N row0 (znth dvar (lv_tsel x) (fst j)) /\ outside c N row0 (znth dvar (lv_stsel x) (fst j)) /\
    (forall v, In v (fst (snd j)) \/ In v (snd (snd j)) -> outside c N row0 v)) ->
  sts_valid c N row0 row (tstages c x srow J row).
Proof.
  intros c x N row0 srow J. induction J as [|[i [o so]] J IH]; intros row w Ew Hw H0 Hr Hok Ht Ho; [exact I|].
  destruct (Hok _ (or_introl eq_refl)) as [K1 K2]. cbn [fst snd] in K1, K2.
  destruct (Ho _ (or_introl eq_refl)) as [O1 [O2 O3]]. cbn [fst snd] in O1, O2, O3.
  cbn [tstages sts_valid st_ok st_vars st_rows]. rewrite !topt_len. rewrite Ew.
  pose proof (gc_rows_pos w (zlen o) ltac:(lia) K1) as G1. replace (zlen so) with (zlen o) by lia.
  set (g := gc_rows w (zlen o)) in *.
  assert (CC : forall r v o', In v (topt_in c srow i o') -> (forall v, In v o' -> outside c N row0 v) -> prior c N row0 r v).
  { intros r v o' [<-|Hv] Ho'; [|left; apply Ho'; exact Hv]. left. unfold outside, in_area. cbn. intros [X _]. discriminate. }
  split; [unfold topt_in; rewrite zlen_cons; lia|]. split.
  { intros v [<-|[<-|Hv]]; [left; exact Ht|left; exact O1|]. apply (CC _ _ _ Hv). intros; apply O3; left; assumption. }
  split; [exact I|]. split.
  { intros v [<-|[<-|[]]].
    - unfold gc_out. rewrite Ew. apply prior_cell. fold g. lia.
    - apply prior_cell. lia. }
  split; [unfold topt_in; rewrite zlen_cons; lia|]. split.
  { intros v [<-|[<-|Hv]]; [left; exact Ht|left; exact O2|]. apply (CC _ _ _ Hv). intros; apply O3; right; assumption. }
  split; [exact I|]. split.
  { intros v [<-|[<-|[]]].
    - unfold gc_out. rewrite Ew. apply prior_cell. fold g. lia.
    - apply prior_cell. lia. }
  replace (row + g + 1 + g + 1)%Z with (row + (2 * g + 2 * 1))%Z by lia.
  apply (IH _ w Ew Hw H0); [lia| |exact Ht|]; intros j Hj; [apply Hok|apply Ho]; right; exact Hj.
Qed.

Definition tval T (th : F) (q : var) (k : F) (o : list var) (mask : F) : F :=
  vval T q * theta_sum th 0 (k :: map (vval T) o) * mask.

Lemma tloop_sound : forall T c x srow J row, (4 <= wamount c)%Z ->
  (forall j, In j J -> (1 <= zlen (fst (snd j)) /\ zlen (snd (snd j)) = zlen (fst (snd j)))%Z) ->
  sat L T (sts_circuit c (tstages c x srow J row) row) ->
  forall sh, tj_ok sh J ->
  map (fun p => (vval T (fst p), vval T (snd p))) (lv_touts c sh (map fst J) row) =
  map (fun j => (tval T (vval T (lv_theta x)) (znth dvar (lv_tsel x) (fst j)) (T CConst (C c 0) (srow + fst j)%Z) (fst (snd j)) (T CWit (W c 2) srow),
                 tval T (vval T (lv_theta x)) (znth dvar (lv_stsel x) (fst j)) (T CConst (C c 0) (srow + fst j)%Z) (snd (snd j)) (T CWit (W c 2) (srow + 1)%Z))) J.
Proof.
  intros T c x srow J. induction J as [|[i [o so]] J IH]; intros row Hw Hok H sh Hsh; [reflexivity|].
  destruct (Hok _ (or_introl eq_refl)) as [K1 K2]. cbn [fst snd] in K1, K2.
  destruct (Hsh _ (or_introl eq_refl)) as [_ [Q2 _]]. cbn [fst snd] in Q2.
  cbn [tstages sts_circuit st_circuit st_rows] in H. rewrite !topt_len in H.
  replace (zlen so) with (zlen o) in H by lia.
  set (g := gc_rows (wamount c) (zlen o)) in *.
  replace (row + g + 1 + g + 1)%Z with (row + (2 * g + 2 * 1))%Z in H by lia.
  rewrite !sat_app in H. destruct H as [S1 [S2 [S3 [S4 S5]]]].
  assert (TL : forall o', (1 <= zlen o')%Z -> (2 <= zlen (topt_in c srow i o'))%Z) by (intros; unfold topt_in; rewrite zlen_cons; lia).
  apply gc_sound_l in S1; [|lia|apply TL; lia]. apply gc_sound_l in S3; [|lia|apply TL; lia].
  rewrite topt_len in S1, S3. rewrite K2 in S3.
  apply multiplication_sound_l in S2. apply multiplication_sound_l in S4.
  cbn [map fst snd lv_touts]. unfold lv_trows. rewrite <- Q2. fold g. f_equal.
  - f_equal; unfold tval.
    + rewrite S2, S1, vval_wcell. unfold topt_in. cbn [map]. rewrite vval_ccell. reflexivity.
    + rewrite S4, S3, vval_wcell. unfold topt_in. cbn [map]. rewrite vval_ccell. reflexivity.
  - apply IH; [exact Hw| |exact S5|]; intros j Hj; [apply Hok|apply Hsh]; right; exact Hj.
Qed.

(** ** Gates *)

Fixpoint gstages (c : comp) (x : lv_in) (J : list (Z * (var * list var))) : list stage :=
  match J with
  | [] => []
  | (g, k) :: J' => SGc (lv_theta x) (fst k :: snd k) (znth dvar (lv_gsel x) g) :: gstages c x J'
  end.

Lemma gloop_eq : forall c sh x J ctr row start, (0 <= ctr)%Z -> (0 <= start)%Z ->
  zdrop ctr (ls_inputs sh) = map (fun j => zlen (snd (snd j))) J ->
  zdrop ctr (lv_gids x) = map (fun j => fst (snd j)) J ->
  zdrop start (lv_gin x) = flat_map (fun j => snd (snd j)) J ->
  lv_gcircuit (P:=P) c sh x (map fst J) ctr row start = sts_circuit c (gstages c x J) row /\
  (forall T, lv_gassign c sh x (map fst J) ctr row start T = sts_assign c (gstages c x J) row T) /\
  sts_rows (wamount c) (gstages c x J) = lv_gloop_rows (wamount c) sh (map fst J) ctr.
Proof.
  intros c sh x J. induction J as [|[g [id ins]] J IH]; intros ctr row start Hc Hs E1 E2 E3.
  { repeat split; reflexivity. }
  cbn [map flat_map fst snd] in E1, E2, E3.
  assert (A1 : znth 0%Z (ls_inputs sh) ctr = zlen ins) by (rewrite znth_zdrop, E1 by lia; reflexivity).
  assert (A2 : znth dvar (lv_gids x) ctr = id) by (rewrite znth_zdrop, E2 by lia; reflexivity).
  assert (A3 : ztake (zlen ins) (zdrop start (lv_gin x)) = ins) by (rewrite E3; apply ztake_app).
  pose proof (zlen_nonneg _ ins) as Hi.
  destruct (IH (ctr + 1) (row + gc_rows (wamount c) (zlen ins)) (start + zlen ins) ltac:(lia) ltac:(lia))%Z as [I1 [I2 I3]].
  { rewrite zdrop_zdrop, E1 by lia. reflexivity. }
  { rewrite zdrop_zdrop, E2 by lia. reflexivity. }
  { rewrite zdrop_zdrop, E3 by lia. apply zdrop_app. }
  cbn [map fst snd lv_gcircuit lv_gassign lv_gloop_rows gstages sts_circuit sts_assign sts_rows st_circuit st_assign st_rows].
  unfold lv_gopts. rewrite A1, A2, A3. rewrite zlen_cons. replace (1 + zlen ins - 1)%Z with (zlen ins) by lia.
  split; [|split].
  - rewrite I1. reflexivity.
  - intros T. rewrite I2. reflexivity.
  - rewrite I3. reflexivity.
Qed.

Lemma gstages_valid : forall c x N row0 J row,
  (forall j, In j J -> (1 <= zlen (snd (snd j)))%Z) -> outside c N row0 (lv_theta x) ->
  (forall j, In j J -> outside c N row0 (znth dvar (lv_gsel x) (fst j)) /\ outside c N row0 (fst (snd j)) /\
    (forall v, In v (snd (snd j)) -> outside c N row0 v)) ->
  sts_valid c N row0 row (gstages c x J).
Proof.
  intros c x N row0 J. induction J as [|[g [id ins]] J IH]; intros row Hok Ht Ho; [exact I|].
  cbn [gstages sts_valid st_ok st_vars fst snd]. pose proof (Hok _ (or_introl eq_refl)) as K. cbn [fst snd] in K.
  destruct (Ho _ (or_introl eq_refl)) as [O1 [O2 O3]]. cbn [fst snd] in O1, O2, O3.
  split; [rewrite zlen_cons; lia|]. split.
  - intros v [<-|[<-|[<-|Hv]]]; left; auto.
  - apply IH; [|exact Ht|]; intros j Hj; [apply Hok|apply Ho]; right; exact Hj.
Qed.

Lemma gloop_sound : forall T c sh x J ctr row, (4 <= wamount c)%Z -> (0 <= ctr)%Z ->
  (forall j, In j J -> (1 <= zlen (snd (snd j)))%Z) ->
  zdrop ctr (ls_inputs sh) = map (fun j => zlen (snd (snd j))) J ->
  sat L T (sts_circuit c (gstages c x J) row) ->
  map (vval T) (lv_gouts c sh (map fst J) ctr row) =
  map (fun j => vval T (znth dvar (lv_gsel x) (fst j)) *
     theta_sum (vval T (lv_theta x)) 0 (vval T (fst (snd j)) :: map (vval T) (snd (snd j)))) J.
Proof.
  intros T c sh x J. induction J as [|[g [id ins]] J IH]; intros ctr row Hw Hc Hok E1 H; [reflexivity|].
  cbn [gstages sts_circuit st_circuit st_rows fst snd] in H. rewrite sat_app in H. destruct H as [S1 S2].
  pose proof (Hok _ (or_introl eq_refl)) as K. cbn [fst snd] in K. cbn [map fst snd] in E1.
  assert (A1 : znth 0%Z (ls_inputs sh) ctr = zlen ins) by (rewrite znth_zdrop, E1 by lia; reflexivity).
  apply gc_sound_l in S1; [|lia|rewrite zlen_cons; lia]. rewrite zlen_cons in S1, S2.
  replace (1 + zlen ins - 1)%Z with (zlen ins) in S1, S2 by lia.
  cbn [map fst snd lv_gouts]. rewrite A1. f_equal; [exact S1|].
  apply IH; [exact Hw|lia|intros j Hj; apply Hok; right; exact Hj| |exact S2].
  rewrite zdrop_zdrop, E1 by lia. reflexivity.
Qed.

End Lookup.
