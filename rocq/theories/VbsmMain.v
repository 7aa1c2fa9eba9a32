(** Soundness and completeness of the variable base scalar multiplication on tables. *)
From Coq Require Import ZArith List Lia Bool Field.
From Verif Require Import Base Field Plonk PlonkFacts Bits CurveSpec CurveModel CurveProofs VbsmSpec VbsmModel VbsmProofs VbsmTrace VbsmHonest.
Import ListNotations.
Open Scope Z_scope.

(** ** The sub-component *)

Lemma vb_add_W : forall c i, 0 <= i < 11 -> W (vb_add c) i = W c i.
Proof.
  intros c i Hi. unfold vb_add, W at 1. cbn [cWs]. rewrite cidx_in_range.
  - rewrite znth_map_zseq by lia. reflexivity.
  - unfold zlen. rewrite map_length, zseq_length. lia.
Qed.
Lemma vb_add_wf : forall c, wf_comp c 15 -> wf_comp (vb_add c) 11.
Proof.
  intros c Hwf. split; [|split; [|lia]].
  - unfold vb_add. cbn [cWs]. apply NoDup_nth with (d := 0). intros i j Hi Hj E.
    rewrite map_length, zseq_length in Hi, Hj. change (Z.to_nat (11 - 0)) with 11%nat in Hi, Hj.
    assert (G : forall k, (k < 11)%nat -> nth k (map (W c) (zseq 0 11)) 0 = W c (Z.of_nat k)).
    { intros k Hk. pose proof (znth_map_zseq Z (W c) 0 11 (Z.of_nat k) 0 ltac:(lia)) as H. unfold znth in H. rewrite Nat2Z.id in H. exact H. }
    rewrite !G in E by assumption. apply (W_inj c 15) in E; [lia|exact Hwf|lia|lia].
  - unfold wamount, vb_add, zlen. cbn [cWs]. rewrite map_length, zseq_length. reflexivity.
Qed.
Lemma vb_add_sub : forall c col, wf_comp c 15 -> In col (cWs (vb_add c)) -> In col (cWs c).
Proof.
  intros c col Hwf H. unfold vb_add in H. cbn [cWs] in H. apply in_map_iff in H. destruct H as [i [<- _]]. eapply W_In; eassumption.
Qed.

Section Main.
Variable P : params.
Notation F := (F P).
Notation table := (table P).
Notation vb_trace := (vb_trace P).
Variable L : lenv P.
Variable pal : bool.
Implicit Types T : table.
Hypothesis big : group_order false <= char P.
Local Open Scope F_scope.

Lemma vbsm_sound_l : forall T c tx ty b bh row (bc xt yt : F),
  no_axis_points bc -> on_curve bc (Some (xt, yt)) ->
  sat L T (vb_circuit pal c tx ty b bh row) ->
  (vval T tx, vval T ty) = (xt, yt) ->
  (T CWit (W c 0) (row + 1)%Z, T CWit (W c 1) (row + 1)%Z) = (xt, yt) ->
  T CConst (W c 0) (row + 1)%Z = f0 ->
  T CWit (W c 6) (row + 101)%Z = T CWit (W c 14) (row + 100)%Z ->
  let n := scalar_of pal (vval T b) (vval T bh) in
  scalar_ok pal (vval T b) (vval T bh) /\
  ((~ special pal n -> regular (Some (xt, yt)) n 255) ->
   exists r, scalar_product pal (Some (xt, yt)) n r /\ (vval T (vb_x c row), vval T (vb_y c row)) = enc r).
Proof.
  intros T c tx ty b bh row bc xt yt NA OT H EI EB EC EL n.
  apply vb_circuit_iff in H. pose proof (vb_ok_of P L pal c T b bh row _ _ H) as K. rewrite EC in K.
  destruct H as [_ [_ [_ [_ [_ [_ [UA _]]]]]]].
  assert (B3 : (3 <= char P)%Z) by (pose proof (big_z P big) as B; unfold vb_tp in B; lia).
  assert (ED : (vval T (ua_x (vb_add c) row), vval T (ua_y (vb_add c) row)) = enc (ec_add (Some (xt, yt)) (Some (xt, yt)))).
  { apply (ua_sound_l P L B3 T (vb_add c) tx ty tx ty row bc); assumption. }
  apply (trace_sound P pal big _ _ _ _ K bc (xt, yt) NA OT EB ED).
  cbn [vt_ui vt_uo tr_of]. etransitivity; [|etransitivity; [exact EL|]]; f_equal; lia.
Qed.

(** ** Writes *)

Lemma triple_inj : forall (a a' r r' : Z) (v v' : F), (a, r, v) = (a', r', v') -> a = a' /\ r = r' /\ v = v'.
Proof. intros. injection H as E1 E2 E3. auto. Qed.

(** What the cell in column [i], [o] rows below the first one holds. *)
Definition cell_of (t : vb_trace) (i o : Z) : F :=
  (if o =? 103 then vt_f t i else
   let d := (o - 1) / 2 in
   if Z.even o then
     match i with
     | 0 => fst (vt_p t (5 * d + 5)) | 1 => snd (vt_p t (5 * d + 5))
     | 2 | 3 | 4 | 5 | 6 => vt_b t (5 * d + (i - 2))
     | 12 => vt_u0 t ((o - 60) / 2) | 13 => vt_u1 t ((o - 60) / 2) | 14 => vt_uo t ((o - 60) / 2)
     | _ => vt_s t (5 * d + (i - 7))
     end
   else
     match i with
     | 0 => fst (vt_t t) | 1 => snd (vt_t t)
     | 2 => fst (vt_p t (5 * d)) | 3 => snd (vt_p t (5 * d))
     | 4 => vt_n t d | 5 => vt_n t (d + 1)
     | 6 => vt_ui t ((o - 59) / 2)
     | 7 | 9 | 11 | 13 => fst (vt_p t (5 * d + (i - 5) / 2))
     | _ => snd (vt_p t (5 * d + (i - 6) / 2))
     end)%Z.

Lemma odd_row : forall row d, (0 <= d < 51)%Z -> let o := (row + 1 + 2 * d - row)%Z in
  (o =? 103)%Z = false /\ Z.even o = false /\ ((o - 1) / 2 = d)%Z /\ ((o - 59) / 2 = d - 29)%Z.
Proof.
  intros row d Hd o. assert (E : o = (1 + 2 * d)%Z) by (subst o; lia). rewrite E. clearbody o.
  split; [apply Z.eqb_neq; lia|]. split; [rewrite Z.even_add, Z.even_mul; reflexivity|].
  split; [symmetry; apply (Z.div_unique _ _ _ 0); lia|]. symmetry. apply (Z.div_unique _ _ _ 0); lia.
Qed.
Lemma even_row : forall row d, (0 <= d < 51)%Z -> let o := (row + 1 + 2 * d + 1 - row)%Z in
  (o =? 103)%Z = false /\ Z.even o = true /\ ((o - 1) / 2 = d)%Z /\ ((o - 60) / 2 = d - 29)%Z.
Proof.
  intros row d Hd o. assert (E : o = (2 + 2 * d)%Z) by (subst o; lia). rewrite E. clearbody o.
  split; [apply Z.eqb_neq; lia|]. split; [rewrite Z.even_add, Z.even_mul; reflexivity|].
  split; [symmetry; apply (Z.div_unique _ _ _ 1); lia|]. symmetry. apply (Z.div_unique _ _ _ 0); lia.
Qed.

Lemma cells_fun : forall c row t col r v, In (col, r, v) (vb_cells c row t) ->
  exists i, (0 <= i < 15)%Z /\ col = W c i /\ (row + 1 <= r < row + 104)%Z /\ v = cell_of t i (r - row).
Proof.
  intros c row t col r v H. unfold vb_cells in H. apply in_app_or in H. destruct H as [H|H]; [|apply in_app_or in H; destruct H as [H|H]].
  - apply in_flat_map in H. destruct H as [d [Hd H]]. apply in_zseq in Hd.
    destruct (odd_row row d Hd) as [O1 [O2 [O3 O4]]]. destruct (even_row row d Hd) as [E1 [E2 [E3 E4]]].
    unfold vb_double_row in H. cbv zeta in H. cbn [In] in H.
    repeat match type of H with _ \/ _ => destruct H as [H|H] end; try contradiction;
    apply triple_inj in H; destruct H as [<- [<- <-]]; (eexists; split; [|split; [reflexivity|split; [lia|]]]; [lia|]; unfold cell_of; cbv zeta;
      rewrite ?O1, ?E1; rewrite ?O2, ?E2; rewrite ?O3, ?E3; try reflexivity; first [f_equal; lia|f_equal; f_equal; lia|apply f_equal; apply f_equal; lia|apply f_equal; lia]).
  - apply in_flat_map in H. destruct H as [d [Hd H]]. apply in_zseq in Hd.
    destruct (odd_row row (d + 29) ltac:(lia)) as [O1 [O2 [O3 O4]]]. destruct (even_row row (d + 29) ltac:(lia)) as [E1 [E2 [E3 E4]]].
    unfold vb_aux_row in H. cbv zeta in H. replace (row + 59 + 2 * d)%Z with (row + 1 + 2 * (d + 29))%Z in H by lia. cbn [In] in H.
    repeat match type of H with _ \/ _ => destruct H as [H|H] end; try contradiction;
    apply triple_inj in H; destruct H as [<- [<- <-]]; (eexists; split; [|split; [reflexivity|split; [lia|]]]; [lia|]; unfold cell_of; cbv zeta;
      rewrite ?O1, ?E1; rewrite ?O2, ?E2; rewrite ?O4, ?E4; f_equal; lia).
  - unfold vb_final_row in H. apply in_map_iff in H. destruct H as [i [E Hi]]. injection E as <- <- <-.
    exists i. split; [cbn [In] in Hi; lia|]. split; [reflexivity|]. split; [lia|].
    unfold cell_of. replace (row + 103 - row)%Z with 103%Z by lia. reflexivity.
Qed.

Lemma matches_wsets : forall c row t T, wf_comp c 15 -> matches P c (wsets T (vb_cells c row t)) row t.
Proof.
  intros c row t T Hwf col r v H. apply wsets_read; [exact H|]. intros v' H'.
  apply cells_fun in H. apply cells_fun in H'. destruct H as [i [Hi [E1 [_ E2]]]]. destruct H' as [j [Hj [E3 [_ E4]]]].
  rewrite E1 in E3. apply (W_inj c 15) in E3; [|exact Hwf|exact Hi|exact Hj]. rewrite E4, E2, E3. reflexivity.
Qed.

Lemma cells_frame : forall c row t T, wf_comp c 15 -> frame c 103 (row + 1) T (wsets T (vb_cells c row t)).
Proof.
  intros c row t T Hwf. apply (wsets_frame P c 15); [exact Hwf|]. intros col r v H. apply cells_fun in H. destruct H as [i [_ [-> [H _]]]].
  split; [exists i; reflexivity|lia].
Qed.

Lemma realize : forall T c tx ty b bh row (bc : F) (p : point P) t,
  no_axis_points bc -> on_curve bc p -> 
  wf_comp c 15 -> outside c vb_rows row tx -> outside c vb_rows row ty -> outside c vb_rows row b -> outside c vb_rows row bh ->
  (vval T tx, vval T ty) = enc p ->
  vb_ok P pal t (enc (ec_add p p)) (vval T b) (vval T bh) f0 ->
  consts_in T (vb_circuit pal c tx ty b bh row) -> T CConst (W c 0) (row + 1)%Z = f0 ->
  let T1 := ua_assign (vb_add c) tx ty tx ty row T in
  let T' := wsets T1 (vb_cells c row t) in
  (vval T1 (ua_x (vb_add c) row), vval T1 (ua_y (vb_add c) row)) = enc (ec_add p p) /\
  sat L T' (vb_circuit pal c tx ty b bh row) /\ frame c vb_rows row T T' /\ matches P c T' row t.
Proof.
  intros T c tx ty b bh row bc p t NA OT Hwf OX OY OB OH EI K CI CW T1 T'.
  assert (B3 : (3 <= char P)%Z) by (pose proof (big_z P big) as B; unfold vb_tp in B; lia).
  pose proof (vb_add_wf c Hwf) as Hwf1.
  assert (O1 : forall v, outside c vb_rows row v -> outside (vb_add c) 1 row v).
  { intros v HO [A1 [A2 A3]]. apply HO. split; [exact A1|]. split; [apply vb_add_sub; assumption|unfold vb_rows; lia]. }
  destruct (ua_complete_l P L B3 T (vb_add c) tx ty tx ty row bc p p NA OT OT Hwf1 (O1 _ OX) (O1 _ OY) (O1 _ OX) (O1 _ OY) EI EI) as [US [UF UD]].
  fold T1 in US, UF, UD.
  pose proof (matches_wsets c row t T1 Hwf) as M. pose proof (cells_frame c row t T1 Hwf) as CF. fold T' in M, CF.
  assert (F1 : frame c vb_rows row T T1).
  { intros ty0 col r HO. apply UF. intros [A1 [A2 A3]]. apply HO. split; [exact A1|]. split; [apply vb_add_sub; assumption|unfold vb_rows; lia]. }
  assert (F2 : frame c vb_rows row T1 T') by (eapply frame_sub; [| |exact CF]; unfold vb_rows; lia).
  assert (FR : frame c vb_rows row T T') by (eapply frame_trans; eassumption).
  assert (RD : forall v, outside c vb_rows row v -> vval T' v = vval T v) by (intros v HO; eapply vval_frame; eassumption).
  assert (CE : forall col r, T' CConst col r = T CConst col r) by (intros col r; apply FR; intros [A _]; discriminate).
  assert (R0 : forall i, T' CWit (W (vb_add c) i) row = T1 CWit (W (vb_add c) i) row).
  { intros i. apply CF. intros [_ [_ A]]. lia. }
  split; [exact UD|]. split; [|split; [exact FR|exact M]].
  apply vb_circuit_iff. apply (vb_holds_of P L pal c T' b bh row t M).
  - rewrite CE. apply CI. left. reflexivity.
  - apply ua_circuit_iff. apply ua_circuit_iff in US. rewrite !R0, !RD by assumption.
    assert (R1 : forall v, outside c vb_rows row v -> vval T1 v = vval T v) by (intros v HO; eapply vval_frame; eassumption).
    rewrite !R1 in US by assumption. exact US.
  - rewrite CE, CW, (RD b OB), (RD bh OH). unfold ua_x, ua_y in *. rewrite !vval_wcell, !R0. rewrite <- !vval_wcell. rewrite UD. exact K.
Qed.

Lemma vbsm_complete_l : forall T c tx ty b bh row (bc xt yt : F) inf ladd,
  no_axis_points bc -> on_curve bc (Some (xt, yt)) -> affine_add bc inf ladd -> fst inf <> xt ->
  wf_comp c 15 -> outside c vb_rows row tx -> outside c vb_rows row ty -> outside c vb_rows row b -> outside c vb_rows row bh ->
  (vval T tx, vval T ty) = (xt, yt) ->
  scalar_ok pal (vval T b) (vval T bh) -> runs pal (xt, yt) (scalar_of pal (vval T b) (vval T bh)) ->
  consts_in T (vb_circuit pal c tx ty b bh row) -> T CConst (W c 0) (row + 1)%Z = f0 ->
  let T' := vb_assign pal ladd c tx ty b bh row T in
  sat L T' (vb_circuit pal c tx ty b bh row) /\ frame c vb_rows row T T' /\
  (T' CWit (W c 0) (row + 1)%Z, T' CWit (W c 1) (row + 1)%Z) = (xt, yt) /\
  T' CWit (W c 6) (row + 101)%Z = T' CWit (W c 14) (row + 100)%Z.
Proof.
  intros T c tx ty b bh row bc xt yt inf ladd NA OT LA IX Hwf OX OY OB OH EI SO RN CI CW T'.
  unfold vb_assign in T'. cbv zeta in T'. pose proof EI as EI'. injection EI' as EX EY.
  set (bb := (if pal then vval T bh else f0 : F)) in T'.
  assert (SC : scalar_of pal (vval T b) bb = scalar_of pal (vval T b) (vval T bh)) by (unfold scalar_of, bb; destruct pal; reflexivity).
  assert (SO' : scalar_ok pal (vval T b) bb).
  { unfold scalar_ok. rewrite SC. unfold scalar_ok in SO. destruct SO as [S1 S2]. split; [|exact S2]. intros Hp. unfold bb. rewrite Hp. apply S1. exact Hp. }
  assert (RN' : runs pal (xt, yt) (scalar_of pal (vval T b) bb)) by (rewrite SC; exact RN).
  set (T1 := ua_assign (vb_add c) tx ty tx ty row T) in *.
  set (dbl := (vval T1 (ua_x (vb_add c) row), vval T1 (ua_y (vb_add c) row))) in T'.
  set (t := vb_honest P pal ladd (vval T tx) (vval T ty) (vval T b) bb dbl) in T'.
  assert (ED : dbl = enc (ec_add (Some (xt, yt)) (Some (xt, yt)))).
  { assert (B3 : (3 <= char P)%Z) by (pose proof (big_z P big) as B; unfold vb_tp in B; lia).
    assert (O1 : forall v, outside c vb_rows row v -> outside (vb_add c) 1 row v).
    { intros v HO [A1 [A2 A3]]. apply HO. split; [exact A1|]. split; [apply vb_add_sub; assumption|unfold vb_rows; lia]. }
    apply (ua_complete_l P L B3 T (vb_add c) tx ty tx ty row bc _ _ NA OT OT (vb_add_wf c Hwf) (O1 _ OX) (O1 _ OY) (O1 _ OX) (O1 _ OY) EI EI). }
  assert (K : vb_ok P pal t dbl (vval T b) (vval T bh) f0).
  { assert (K1 : vb_ok P pal t dbl (vval T b) bb f0).
    { subst t. rewrite EX, EY. destruct SO' as [S1 S2]. eapply honest_ok; try eassumption. unfold group_order in S2. destruct pal; lia. }
    destruct K1. constructor; try assumption. subst bb. destruct pal; assumption. }
  rewrite ED in K.
  destruct (realize T c tx ty b bh row bc _ t NA OT Hwf OX OY OB OH EI K CI CW) as [_ [S [FR M]]].
  fold T1 in S, FR, M. fold T' in S, FR, M.
  split; [exact S|]. split; [exact FR|]. split.
  - pose proof (m_ct P c T' row t M 0 ltac:(lia)) as A. replace (row + 1 + 2 * 0)%Z with (row + 1)%Z in A by lia. 
    unfold ct in A. rewrite A. subst t. unfold vb_honest. cbn [vt_t]. rewrite EX, EY. reflexivity.
  - pose proof (m_ui P c T' row t M 21 ltac:(lia)) as A. pose proof (m_uo P c T' row t M 20 ltac:(lia)) as B.
    replace (row + 59 + 2 * 21)%Z with (row + 101)%Z in A by lia. replace (row + 59 + 2 * 20 + 1)%Z with (row + 100)%Z in B by lia.
    rewrite A, B. reflexivity.
Qed.
End Main.
