(** C114, C115: the circuit of the recursive verifier. *)
From Coq Require Import ZArith List Lia Bool.
From Verif Require Import Base Field Plonk PlonkFacts Bits FlexModel PoseidonModel PoseidonProofs Examples Props_Flex
  VerifierModel VerifierSpec VerifierSteps VerifierWalk VerifierProofs.
Import ListNotations.
Open Scope Z_scope.

(** The hash: third word of the Poseidon permutation. *)
Definition hash {P} (mds rc : Z -> Z -> F P) (a b d : F P) : F P := nth 2 (perm mds rc [a; b; d]) f0.

(** The values of the proof's variables. *)
Definition proof_vals {P} (T : table P) (inp : vin) : vproof P :=
  mkVpr (fun j => vval T (znth dv (vi_comms inp) j)) (fun j => vval T (znth dv (vi_roots inp) j)) (vval T (vi_chal inp))
    (fun i j => vval T (v2 (vi_pos inp) i j)) (fun i j => vval T (v2 (vi_vals inp) i j)) (fun i j => vval T (v2 (vi_hashes inp) i j))
    (fun i j => vval T (v2 (vi_rvals inp) i j)) (fun i j => vval T (v2 (vi_rhashes inp) i j)).

(** Parameters of an instance that can be built. *)
Definition vp_ok {P} (vp : vparams P) : Prop :=
  0 <= vp_lam vp /\ 1 <= vp_r vp <= vp_m vp + 1 /\ (forall s, In s (vp_sizes vp) -> 0 < s) /\
  0 < vp_pow vp /\ cp_constructs (vp_pow vp) = true.

(** The cells an instance may write: [n] rows of its columns and the places of
    its swap components. *)
Definition own (c : comp) (sw : Z -> comp * Z) (row n : Z) (ty : ctype) (col rw : Z) : Prop :=
  ty = CWit /\ ((In col (cWs c) /\ row <= rw < row + n) \/ exists k, 0 <= k /\ In col (cWs (fst (sw k))) /\ rw = snd (sw k)).
(** The swap components are placed outside the rows of the instance and do not
    overlap. *)
Definition placed (c : comp) (sw : Z -> comp * Z) (row n : Z) : Prop :=
  (forall k, 0 <= k -> wf_comp (fst (sw k)) 5) /\
  (forall k col, 0 <= k -> In col (cWs c) -> In col (cWs (fst (sw k))) -> ~ row <= snd (sw k) < row + n) /\
  (forall k k' col, 0 <= k -> 0 <= k' -> k <> k' -> In col (cWs (fst (sw k))) -> In col (cWs (fst (sw k'))) -> snd (sw k) <> snd (sw k')).
Definition inputs (inp : vin) : list var :=
  vi_chal inp :: vi_comms inp ++ vi_roots inp ++ concat (vi_pos inp) ++ concat (vi_vals inp) ++ concat (vi_hashes inp) ++
  concat (vi_rvals inp) ++ concat (vi_rhashes inp).
Definition inputs_outside (c : comp) (sw : Z -> comp * Z) (row n : Z) (inp : vin) : Prop :=
  forall v, In v (inputs inp) -> ~ own c sw row n (vty v) (vidx v) (vrot v).
Definition same_outside {P} (c : comp) (sw : Z -> comp * Z) (row n : Z) (T T' : table P) : Prop :=
  forall ty col rw, ~ own c sw row n ty col rw -> T' ty col rw = T ty col rw.

Lemma znth_cases : forall A (d : A) l i, In (znth d l i) l \/ znth d l i = d.
Proof. intros A d l i. unfold znth. destruct (nth_in_or_default (Z.to_nat i) l d); tauto. Qed.

Section Main.
Variable P : params.
Variable L : lenv P.
Variable mds rc : Z -> Z -> F P.
Variable vp : vparams P.
Variable c : comp.
Variable w : Z.
Variable sw : Z -> comp * Z.
Variable inp : vin.
Variable row : Z.
Hypothesis Hwf : wf_comp c w.
Hypothesis H9 : 9 <= w.
Hypothesis HM : w mod 3 = 0.
Hypothesis Hvp : vp_ok vp.
Hypothesis Hpl : placed c sw row (ver_rows vp w).
Hypothesis Hio : inputs_outside c sw row (ver_rows vp w) inp.
Notation e := (row + ver_rows vp w).
Notation circ := (ver_circuit mds rc [] vp c sw inp row).
Notation prg := (vprog vp c inp row).

Lemma hash_eq : forall a b d, hash3 P mds rc a b d = hash mds rc a b d.
Proof.
  intros a b d. unfold hash. pose proof (perm_ok P mds rc (a, b, d)) as K. change [a; b; d] with (as_list P (a, b, d)). rewrite K.
  unfold hash3. destruct (ps_state mds rc (a, b, d) rounds) as [[x y] z]. reflexivity.
Qed.
Lemma ver_end_e : endr c (vp_pow vp) (vp_r vp) sw prg row 0 = e.
Proof.
  destruct Hvp as [A [B [D _]]]. pose proof (ver_end_rows P vp c sw inp row A B D) as E. destruct Hwf as [_ [EW _]]. rewrite EW in E. exact E.
Qed.
Lemma old_in : forall v, In v (inputs inp) -> old c sw e row 0 v.
Proof. intros v Hv. exact (Hio v Hv). Qed.
Lemma old_dv : old c sw e row 0 dv.
Proof. intros [K _]. discriminate. Qed.
Lemma old_v2 : forall l, In l [vi_pos inp; vi_vals inp; vi_hashes inp; vi_rvals inp; vi_rhashes inp] ->
  forall i j, old c sw e row 0 (v2 l i j).
Proof.
  intros l Hl i j. unfold v2. destruct (znth_cases _ dv (znth [] l i) j) as [K|K]; [|rewrite K; apply old_dv].
  apply old_in. destruct (znth_cases _ [] l i) as [K'|K']; [|rewrite K' in K; destruct K].
  assert (KC : In (znth dv (znth [] l i) j) (concat l)) by (apply in_concat; eexists; split; [exact K'|exact K]).
  unfold inputs. right. rewrite !in_app_iff. cbn [In] in Hl.
  destruct Hl as [<-|[<-|[<-|[<-|[<-|[]]]]]]; tauto.
Qed.
Lemma old_v1 : forall l, l = vi_comms inp \/ l = vi_roots inp -> forall i, old c sw e row 0 (znth dv l i).
Proof.
  intros l Hl i. destruct (znth_cases _ dv l i) as [K|K]; [|rewrite K; apply old_dv].
  apply old_in. unfold inputs. right. rewrite !in_app_iff. destruct Hl as [->| ->]; tauto.
Qed.

(** One pass over the program. *)
Lemma main_step : forall z (T : table P), vval T (ccell (C c 0) row) = f0 ->
  exists n' xs als, Step P mds rc c (vp_pow vp) (vp_r vp) sw e z T prg row 0
    (map (vval T) als = fri_alphas (hash3 P mds rc) (vp_r vp) (vval T (ccell (C c 0) (row + 2))) (vval T (ccell (C c 0) (row + 3))) (proof_vals T inp) /\
     forall i, 0 <= i < vp_lam vp ->
       md_pow z (znth f0 (fri_xs (hash3 P mds rc) (vp_lam vp) (vp_r vp) (vval T (ccell (C c 0) (row + 2))) (vval T (ccell (C c 0) (row + 3))) (proof_vals T inp)) i)
         (vval T (znth dv xs i)))
    (verifier_checks (hash3 P mds rc) (vp_lam vp) (vp_r vp) (vp_m vp) (vp_sizes vp)
      (vval T (ccell (C c 0) (row + 2))) (vval T (ccell (C c 0) (row + 3))) (proof_vals T inp) /\
     forall i, 0 <= i < vp_lam vp ->
       md_idx z (vval T (znth dv xs i)) (map (fun j => vval T (v2 (vi_pos inp) i j)) (zseq 0 (vp_m vp))) /\
       md_in P z T (pcol_in (vp_r vp) inp (ccell (C c 0) row) i xs als)) PEnd
    (row + vrows w (vp_pow vp) (vp_r vp) (vp_lam vp) (vp_m vp) (vp_sizes vp)) n'.
Proof.
  intros z T HZ. destruct Hvp as [A [B [D [E1 E2]]]]. destruct Hpl as [P1 [P2 P3]].
  destruct (verifier_step P mds rc c w (vp_pow vp) (vp_r vp) sw Hwf H9 HM E1 E2 ltac:(lia) row e P1 P2 P3 z T
    (vp_lam vp) (vp_m vp) (vp_sizes vp) inp (ccell (C c 0) row) (ccell (C c 0) (row + 2)) (ccell (C c 0) (row + 3))
    ltac:(lia) D ltac:(lia)) as [n' [xs [als S]]]; try (intros; apply old_const); try exact HZ; try lia.
  - exact old_v1.
  - apply old_in. left. reflexivity.
  - exact old_v2.
  - split; [lia|]. split; [lia|]. change (endr c (vp_pow vp) (vp_r vp) sw prg row 0 <= e). rewrite ver_end_e. lia.
  - exists n', xs, als. exact S.
Qed.

Lemma main_consts : forall T : table P, consts_in T circ ->
  vval T (ccell (C c 0) row) = f0 /\ vval T (ccell (C c 0) (row + 2)) = vp_vk0 vp /\ vval T (ccell (C c 0) (row + 3)) = vp_vk1 vp.
Proof.
  intros T K. unfold vval, ccell. cbn [vty vidx vrot]. split; [|split]; apply K; unfold ver_circuit; cbn [app In]; tauto.
Qed.
Lemma sat_consts : forall T : table P, sat L T circ -> consts_in T circ.
Proof. intros T S col rw v K. exact (S _ K). Qed.

Lemma main_sound : forall T : table P, sat L T circ ->
  verifier_checks (hash mds rc) (vp_lam vp) (vp_r vp) (vp_m vp) (vp_sizes vp) (vp_vk0 vp) (vp_vk1 vp) (proof_vals T inp).
Proof.
  intros T S. destruct (main_consts T (sat_consts T S)) as [C0 [C2 C3]].
  destruct (main_step m_any T C0) as [n' [xs [als ST]]]. rewrite C2, C3 in ST.
  assert (S' : sat L T (compile mds rc [] c (vp_pow vp) (vp_omega vp) (vp_r vp) sw prg row 0))
    by (intros x Hx; apply S; unfold ver_circuit; apply in_or_app; right; exact Hx).
  destruct (compile_sound P L mds rc c w (vp_pow vp) (vp_omega vp) (vp_r vp) sw Hwf H9 HM prg row 0 T S') as [D O].
  destruct (st_ok _ _ _ _ _ _ _ _ _ _ _ _ _ _ _ _ _ _ ST D) as [_ [_ K]]. apply K in O as [[O _] _].
  apply (checks_ext1 P (hash3 P mds rc) (hash mds rc) _ _ _ _ _ _ (proof_vals T inp) (proof_vals T inp)); [destruct Hvp; lia|apply Hvp|exact hash_eq|repeat split|exact O].
Qed.

Lemma keep_vals : forall T T' : table P, same_outside c sw row (ver_rows vp w) T T' -> forall v, old c sw e row 0 v -> vval T' v = vval T v.
Proof. intros T T' K v O. unfold vval. apply K. exact O. Qed.
Lemma keep_proof : forall T T' : table P, same_outside c sw row (ver_rows vp w) T T' ->
  same_proof P (vp_lam vp) (vp_r vp) (vp_m vp) (vp_sizes vp) (proof_vals T' inp) (proof_vals T inp).
Proof.
  intros T T' K. pose proof (keep_vals T T' K) as KV.
  unfold same_proof; cbn [proof_vals pr_comm pr_root pr_chal pr_pos pr_val pr_hash pr_rval pr_rhash].
  split; [intros; apply KV, old_v1; left; reflexivity|]. split; [intros; apply KV, old_v1; right; reflexivity|].
  split; [apply KV, old_in; left; reflexivity|].
  split; [intros; apply KV, old_v2; cbn [In]; tauto|]. split; [intros; apply KV, old_v2; cbn [In]; tauto|].
  split; [intros; apply KV, old_v2; cbn [In]; tauto|]. split; [intros; apply KV, old_v2; cbn [In]; tauto|].
  intros; apply KV, old_v2; cbn [In]; tauto.
Qed.

Lemma main_complete : forall T : table P, consts_in T circ ->
  verifier_checks (hash mds rc) (vp_lam vp) (vp_r vp) (vp_m vp) (vp_sizes vp) (vp_vk0 vp) (vp_vk1 vp) (proof_vals T inp) ->
  exists T', same_outside c sw row (ver_rows vp w) T T' /\ sat L T' circ.
Proof.
  intros T KC Q. destruct (main_consts T KC) as [C0 [C2 C3]]. destruct (main_step m_zero T C0) as [n0 [xs0 [als0 ST0]]].
  destruct Hvp as [A [B [D [E1 E2]]]]. destruct Hpl as [P1 [P2 P3]].
  assert (KC' : consts_in T (compile mds rc [] c (vp_pow vp) (vp_omega vp) (vp_r vp) sw prg row 0))
    by (intros col rw v Hv; apply KC; unfold ver_circuit; apply in_or_app; right; exact Hv).
  destruct (build P L mds rc c w (vp_pow vp) (vp_omega vp) (vp_r vp) sw Hwf H9 HM E1 E2 ltac:(lia) row e P1 P2 P3 prg row 0 T
    (st_sc _ _ _ _ _ _ _ _ _ _ _ _ _ _ _ _ _ _ ST0 I) ltac:(lia) ltac:(lia) ltac:(rewrite ver_end_e; lia) KC') as [T' [K [D' S]]].
  assert (SO : same_outside c sw row (ver_rows vp w) T T') by (intros ty col rw NO; apply K; exact NO).
  assert (KC2 : consts_in T' circ) by (intros col rw v Hv; rewrite SO by (intros [X _]; discriminate); apply KC; exact Hv).
  exists T'. split; [exact SO|]. destruct (main_consts T' KC2) as [C0' [C2' C3']]. destruct (main_step m_zero T' C0') as [n1 [xs1 [als1 ST1]]].
  rewrite C2', C3' in ST1. destruct (st_ok _ _ _ _ _ _ _ _ _ _ _ _ _ _ _ _ _ _ ST1 D') as [[_ V1] [_ OK]].
  assert (S' : sat L T' (compile mds rc [] c (vp_pow vp) (vp_omega vp) (vp_r vp) sw prg row 0)).
  { apply S. apply OK. split; [|exact I]. split; [|intros i Hi; split; [exact (V1 i Hi)|exact I]].
    apply (checks_ext1 P (hash mds rc) (hash3 P mds rc) _ _ _ _ _ _ (proof_vals T inp)); [lia|exact D|intros; symmetry; apply hash_eq|apply same_sym, keep_proof, SO|exact Q]. }
  intros x Hx. unfold ver_circuit in Hx. apply in_app_or in Hx as [Hx|Hx]; [|exact (S' x Hx)].
  cbn [In] in Hx.
  destruct Hx as [<-|[<-|[<-|[<-|[]]]]]; cbn [holds]; apply KC2; unfold ver_circuit; cbn [app In]; tauto.
Qed.
End Main.

(** Every accepted table holds a proof that passes the checks. *)
Theorem verifier_sound : forall P (L : lenv P) mds rc vp c w sw inp row T,
  wf_comp c w -> 9 <= w -> w mod 3 = 0 -> vp_ok vp -> placed c sw row (ver_rows vp w) -> inputs_outside c sw row (ver_rows vp w) inp ->
  sat L T (ver_circuit mds rc [] vp c sw inp row) ->
  verifier_checks (hash mds rc) (vp_lam vp) (vp_r vp) (vp_m vp) (vp_sizes vp) (vp_vk0 vp) (vp_vk1 vp) (proof_vals T inp).
Proof. intros P L mds rc vp c w sw inp row T Hwf H9 HM Hvp Hpl Hio. exact (main_sound P L mds rc vp c w sw inp row Hwf H9 HM Hvp Hpl Hio T). Qed.
Print Assumptions verifier_sound.

(** The checks are all that is enforced: the instance's cells can be filled
    exactly when they pass. *)
Theorem verifier_exact : forall P (L : lenv P) mds rc vp c w sw inp row (T : table P),
  wf_comp c w -> 9 <= w -> w mod 3 = 0 -> vp_ok vp -> placed c sw row (ver_rows vp w) -> inputs_outside c sw row (ver_rows vp w) inp ->
  consts_in T (ver_circuit mds rc [] vp c sw inp row) ->
  ((exists T', same_outside c sw row (ver_rows vp w) T T' /\ sat L T' (ver_circuit mds rc [] vp c sw inp row)) <->
   verifier_checks (hash mds rc) (vp_lam vp) (vp_r vp) (vp_m vp) (vp_sizes vp) (vp_vk0 vp) (vp_vk1 vp) (proof_vals T inp)).
Proof.
  intros P L mds rc vp c w sw inp row T Hwf H9 HM Hvp Hpl Hio KC. split.
  - intros [T' [SO S]]. pose proof (main_sound P L mds rc vp c w sw inp row Hwf H9 HM Hvp Hpl Hio T' S) as Q.
    apply (checks_ext1 P (hash mds rc) (hash mds rc) _ _ _ _ _ _ (proof_vals T' inp)); [destruct Hvp; lia|apply Hvp|reflexivity| |exact Q].
    eapply keep_proof; eassumption.
  - exact (main_complete P L mds rc vp c w sw inp row Hwf H9 HM Hvp Hpl Hio T KC).
Qed.
Print Assumptions verifier_exact.

(** The rows used are those get_rows_amount announces. *)
Theorem verifier_rows : forall P (vp : vparams P) c sw inp row,
  0 <= vp_lam vp -> 1 <= vp_r vp <= vp_m vp + 1 -> (forall s, In s (vp_sizes vp) -> 0 < s) ->
  ver_end vp c sw inp row = row + ver_rows vp (wamount c).
Proof. exact ver_end_rows. Qed.
Print Assumptions verifier_rows.

(** ** What is not read *)

(** Two tables with the same constants whose proofs agree except in the first
    root, the values of the last round and the first [m] hashes of each query's
    round hashes are accepted together. *)
Theorem verifier_unread : forall P (L : lenv P) mds rc vp c w sw inp row (T T2 : table P),
  wf_comp c w -> 9 <= w -> w mod 3 = 0 -> vp_ok vp -> placed c sw row (ver_rows vp w) -> inputs_outside c sw row (ver_rows vp w) inp ->
  sat L T (ver_circuit mds rc [] vp c sw inp row) ->
  consts_in T2 (ver_circuit mds rc [] vp c sw inp row) ->
  same_proof P (vp_lam vp) (vp_r vp) (vp_m vp) (vp_sizes vp) (proof_vals T inp) (proof_vals T2 inp) ->
  exists T2', same_outside c sw row (ver_rows vp w) T2 T2' /\ sat L T2' (ver_circuit mds rc [] vp c sw inp row).
Proof.
  intros P L mds rc vp c w sw inp row T T2 Hwf H9 HM Hvp Hpl Hio S KC SP. apply verifier_exact; try assumption.
  apply (checks_ext1 P (hash mds rc) (hash mds rc) _ _ _ _ _ _ (proof_vals T inp)); [destruct Hvp; lia|apply Hvp|reflexivity|exact SP|].
  apply (verifier_sound P L mds rc vp c w sw inp row); assumption.
Qed.
Print Assumptions verifier_unread.

(** ** An instance *)

(** One query, two rounds, one batch of one polynomial, trees of height one. *)
Definition ex_inp : vin :=
  mkVin [pin 0; pin 1; pin 2] [pin 3; pin 4] (pin 5) [[pin 6]] [[pin 7; pin 8]] [[pin 9]]
    [[pin 10; pin 11; pin 12; pin 13]] [[pin 14]].
Definition ex_sw (k : Z) : comp * Z := (mkComp (zseq 20 25) [0] [], k).

Section Inst.
Variable H : F P7 -> F P7 -> F P7 -> F P7.
Definition ex_leaf : F P7 := H f0 (ofZ 2) (ofZ 3).
Definition ex_vk1 : F P7 := H f0 ex_leaf ex_leaf.
Definition ex_chal : F P7 :=
  absorb H f0 ([(ofZ 6, ex_vk1); (ofZ 1, f0); (f0, f0); (ofZ 2, f0)] ++ repeat (f0, f0) 8 ++ [(ofZ 3, f0)]).
Definition ex_vp : vparams P7 := mkVp 1 2 1 [1] 3 (ofZ 6) (ofZ 6) ex_vk1.
(** The proof, with a choice for the first root, the position and a value of the
    last round. *)
Definition ex_pub (root bit last : F P7) : list (F P7) :=
  [ofZ 1; ofZ 2; ofZ 3; root; H f0 (ofZ 4) (ofZ 5); ex_chal; bit; ofZ 2; ofZ 3; ex_leaf; ofZ 4; ofZ 5; last; ofZ 1; f0].
Definition ex_tab (root bit last : F P7) : table P7 :=
  fun ty col rw => match ty with
    | CPub => znth f0 (ex_pub root bit last) rw
    | CConst => if rw <? 4 then znth f0 [f0; f1; ofZ 6; ex_vk1] rw else ofZ 6
    | _ => f0
    end.

Lemma ex_checks : forall root bit last, bit = f0 \/ bit = f1 ->
  verifier_checks H 1 2 1 [1] (ofZ 6) ex_vk1 (proof_vals (ex_tab root bit last) ex_inp).
Proof.
  intros root bit last HB. split; [reflexivity|]. intros i Hi. assert (i = 0) as -> by lia. split; intros j Hj.
  - change (zlen [1]) with 1 in Hj. assert (j = 0) as -> by lia. split.
    + intros b s [K|[]]. injection K as <- <-. exact HB.
    + change (climb H ex_leaf [(bit, ex_leaf)] = ex_vk1). cbn [climb fst snd]. unfold ex_vk1. destruct (feqb bit f0); reflexivity.
  - assert (j = 1) as -> by lia. split; [intros b s []|reflexivity].
Qed.
End Inst.

Lemma ex_vp_ok : forall H, vp_ok (ex_vp H).
Proof.
  intros H. split; [cbn; lia|]. split; [cbn; lia|]. split; [intros s [<-|[]]; lia|]. split; [cbn; lia|reflexivity].
Qed.
Lemma ex_placed : forall n, placed (std_comp 9) ex_sw 0 n.
Proof.
  intros n. split; [|split].
  - intros k Hk. split; [apply nodup_zseq|split; [reflexivity|lia]].
  - intros k col Hk H1 H2. apply in_zseq in H1. apply in_zseq in H2. lia.
  - intros k k' col Hk Hk' D _ _ E. apply D. exact E.
Qed.
Lemma ex_outside : forall n, inputs_outside (std_comp 9) ex_sw 0 n ex_inp.
Proof.
  intros n v Hv [K _]. cbn in Hv. repeat (destruct Hv as [<-|Hv]; [discriminate|]). destruct Hv.
Qed.
Lemma ex_consts : forall H mds rc root bit last,
  consts_in (ex_tab H root bit last) (ver_circuit mds rc [] (ex_vp H) (std_comp 9) ex_sw ex_inp 0).
Proof.
  intros H mds rc root bit last col rw v K. unfold ver_circuit in K. apply in_app_or in K as [K|K].
  - cbn [In] in K. destruct K as [K|[K|[K|[K|[]]]]]; injection K as <- <- <-; reflexivity.
  - unfold vprog, pverifier in K. cbv zeta in K. cbn [compile] in K.
    assert (R1 : 1 <= fp_rows (wamount (std_comp 9))) by (change (wamount (std_comp 9)) with 9; apply fp_rows_pos; [lia|reflexivity]).
    do 4 (apply in_app_or in K as [K|K]; [destruct (nc_fp _ _ _ _ _ _ _ _ _ _ K)|]).
    apply consts_compile in K as [-> [K ->]]; try (vm_compute; discriminate).
    + unfold ex_tab. destruct (Z.ltb_spec rw 4); [lia|reflexivity].
    + intros q Hq. apply xi_rows_nn; [reflexivity..|exact Hq].
Qed.
Lemma ex_accepted : forall L mds rc root bit last, bit = f0 \/ bit = f1 ->
  let vp := ex_vp (hash mds rc) in
  exists T', same_outside (std_comp 9) ex_sw 0 (ver_rows vp 9) (ex_tab (hash mds rc) root bit last) T' /\
    sat L T' (ver_circuit mds rc [] vp (std_comp 9) ex_sw ex_inp 0).
Proof.
  intros L mds rc root bit last HB vp. apply verifier_exact; try lia.
  - apply wf_std. lia.
  - reflexivity.
  - apply ex_vp_ok.
  - apply ex_placed.
  - apply ex_outside.
  - apply ex_consts.
  - apply ex_checks. exact HB.
Qed.

(** The hypotheses of [verifier_sound], [verifier_exact] and [verifier_rows]. *)
Example verifier_sound_ex : let vp := ex_vp (hash ex_mds ex_mds) in
  wf_comp (std_comp 9) 9 /\ vp_ok vp /\ placed (std_comp 9) ex_sw 0 (ver_rows vp 9) /\ inputs_outside (std_comp 9) ex_sw 0 (ver_rows vp 9) ex_inp /\
  exists T, sat (noL P7) T (ver_circuit ex_mds ex_mds [] vp (std_comp 9) ex_sw ex_inp 0) /\ vval T (v2 (vi_rvals ex_inp) 0 1) = ofZ 5.
Proof.
  cbv zeta. split; [apply wf_std; lia|]. split; [apply ex_vp_ok|]. split; [apply ex_placed|]. split; [apply ex_outside|].
  destruct (ex_accepted (noL P7) ex_mds ex_mds f0 f0 f0 (or_introl eq_refl)) as [T [SO S]]. exists T. split; [exact S|].
  unfold vval. rewrite SO by (intros [K _]; discriminate). reflexivity.
Qed.
Example verifier_exact_ex : let vp := ex_vp (hash ex_mds ex_mds) in
  consts_in (ex_tab (hash ex_mds ex_mds) f0 f1 f0) (ver_circuit ex_mds ex_mds [] vp (std_comp 9) ex_sw ex_inp 0) /\
  verifier_checks (hash ex_mds ex_mds) (vp_lam vp) (vp_r vp) (vp_m vp) (vp_sizes vp) (vp_vk0 vp) (vp_vk1 vp) (proof_vals (ex_tab (hash ex_mds ex_mds) f0 f1 f0) ex_inp).
Proof. split; [apply ex_consts|]. apply ex_checks. right. reflexivity. Qed.
(** A proof with a position that is no bit is not accepted. *)
Example verifier_exact_no : forall T, same_outside (std_comp 9) ex_sw 0 (ver_rows (ex_vp (hash ex_mds ex_mds)) 9) (ex_tab (hash ex_mds ex_mds) f0 (ofZ 2) f0) T ->
  ~ sat (noL P7) T (ver_circuit ex_mds ex_mds [] (ex_vp (hash ex_mds ex_mds)) (std_comp 9) ex_sw ex_inp 0).
Proof.
  intros T SO S.
  assert (K : verifier_checks (hash ex_mds ex_mds) 1 2 1 [1] (ofZ 6) (ex_vk1 (hash ex_mds ex_mds)) (proof_vals (ex_tab (hash ex_mds ex_mds) f0 (ofZ 2) f0) ex_inp)).
  { refine (proj1 (verifier_exact P7 (noL P7) ex_mds ex_mds (ex_vp (hash ex_mds ex_mds)) (std_comp 9) 9 ex_sw ex_inp 0 _ _ _ _ _ _ _ _) _);
      [apply wf_std; lia|lia|reflexivity|apply ex_vp_ok|apply ex_placed|apply ex_outside|apply ex_consts|exists T; split; assumption]. }
  destruct K as [_ K]. destruct (K 0 ltac:(lia)) as [K1 _]. destruct (K1 0 ltac:(unfold zlen; cbn; lia)) as [K2 _].
  destruct (K2 (ofZ 2) (ex_leaf (hash ex_mds ex_mds)) (or_introl eq_refl)) as [E|E]; apply (f_equal fval) in E; vm_compute in E; discriminate.
Qed.
Example verifier_rows_ex : ver_rows (ex_vp (fun _ _ _ => f0)) 9 = 19 * 15 + 19 * 2 + 19 + 19 * 1 + 19 * 1 + 19 * 1 + 1 + 1 + 10.
Proof. vm_compute. reflexivity. Qed.
Lemma znth_same : forall (f g : var -> F P7) l j, (forall v, In v l -> f v = g v) -> f dv = g dv -> f (znth dv l j) = g (znth dv l j).
Proof. intros f g l j E D. destruct (znth_cases _ dv l j) as [K|K]; [exact (E _ K)|]. rewrite K. exact D. Qed.
Example verifier_unread_ex : let T root last := ex_tab (hash ex_mds ex_mds) root f1 last in
  same_proof P7 1 2 1 [1] (proof_vals (T f0 f0) ex_inp) (proof_vals (T f1 f1) ex_inp) /\
  vval (T f0 f0) (znth dv (vi_roots ex_inp) 0) <> vval (T f1 f1) (znth dv (vi_roots ex_inp) 0).
Proof.
  cbv zeta. split; [|apply fval_neq; vm_compute; discriminate].
  set (T1 := ex_tab (hash ex_mds ex_mds) f0 f1 f0). set (T2 := ex_tab (hash ex_mds ex_mds) f1 f1 f1).
  unfold same_proof. cbn [proof_vals pr_comm pr_root pr_chal pr_pos pr_val pr_hash pr_rval pr_rhash].
  split; [|split; [|split; [|split; [|split; [|split; [|split]]]]]].
  - intros j _. apply znth_same; [|reflexivity]. intros v [<-|[<-|[<-|[]]]]; reflexivity.
  - intros j Hj. assert (j = 1) as -> by lia. reflexivity.
  - reflexivity.
  - intros i j Hi Hj. assert (i = 0) as -> by lia. assert (j = 0) as -> by lia. reflexivity.
  - intros i j Hi _. assert (i = 0) as -> by lia. apply znth_same; [|reflexivity]. intros v [<-|[<-|[]]]; reflexivity.
  - intros i j Hi _. assert (i = 0) as -> by lia. apply znth_same; [|reflexivity]. intros v [<-|[]]; reflexivity.
  - intros i j Hi Hj. assert (i = 0) as -> by lia. unfold v2, znth. assert (Z.to_nat j = 0 \/ Z.to_nat j = 1)%nat as [->| ->] by lia; reflexivity.
  - intros i j Hi Hj. assert (i = 0) as -> by lia. apply znth_same; [|reflexivity]. intros v [<-|[]]; reflexivity.
Qed.

(** ** What is not enforced *)

(** Claim: the values of a round follow from the values of the round before and
    the transcript.  Two accepted proofs differ in one value of the last round
    only. *)
Theorem verifier_folding_refuted : exists (P : params) (L : lenv P) mds rc vp c sw inp row T1 T2,
  let y := v2 (vi_rvals inp) 0 2 in
  vp_ok vp /\ placed c sw row (ver_rows vp (wamount c)) /\ inputs_outside c sw row (ver_rows vp (wamount c)) inp /\
  sat L T1 (ver_circuit mds rc [] vp c sw inp row) /\ sat L T2 (ver_circuit mds rc [] vp c sw inp row) /\
  (forall v, In v (inputs inp) -> v <> y -> vval T1 v = vval T2 v) /\ vval T1 y <> vval T2 y.
Proof.
  destruct (ex_accepted (noL P7) ex_mds ex_mds f0 f0 f0 (or_introl eq_refl)) as [T1 [SO1 S1]].
  destruct (ex_accepted (noL P7) ex_mds ex_mds f0 f0 f1 (or_introl eq_refl)) as [T2 [SO2 S2]].
  exists P7, (noL P7), ex_mds, ex_mds, (ex_vp (hash ex_mds ex_mds)), (std_comp 9), ex_sw, ex_inp, 0, T1, T2. cbv zeta.
  split; [apply ex_vp_ok|]. split; [apply ex_placed|]. split; [apply ex_outside|]. split; [exact S1|]. split; [exact S2|]. split.
  - intros v Hv NE. unfold vval. rewrite SO1, SO2 by (apply ex_outside; exact Hv).
    cbn in Hv. repeat (destruct Hv as [<-|Hv]; [first [reflexivity|destruct (NE eq_refl)]|]). destruct Hv.
  - unfold vval. rewrite SO1, SO2 by (intros [K _]; discriminate). apply fval_neq. vm_compute. discriminate.
Qed.
Print Assumptions verifier_folding_refuted.

(** Claim: the query positions follow from the transcript.  Two accepted proofs
    differ in one position bit only. *)
Theorem verifier_position_refuted : exists (P : params) (L : lenv P) mds rc vp c sw inp row T1 T2,
  let y := v2 (vi_pos inp) 0 0 in
  vp_ok vp /\ placed c sw row (ver_rows vp (wamount c)) /\ inputs_outside c sw row (ver_rows vp (wamount c)) inp /\
  sat L T1 (ver_circuit mds rc [] vp c sw inp row) /\ sat L T2 (ver_circuit mds rc [] vp c sw inp row) /\
  (forall v, In v (inputs inp) -> v <> y -> vval T1 v = vval T2 v) /\ vval T1 y <> vval T2 y.
Proof.
  destruct (ex_accepted (noL P7) ex_mds ex_mds f0 f0 f0 (or_introl eq_refl)) as [T1 [SO1 S1]].
  destruct (ex_accepted (noL P7) ex_mds ex_mds f0 f1 f0 (or_intror eq_refl)) as [T2 [SO2 S2]].
  exists P7, (noL P7), ex_mds, ex_mds, (ex_vp (hash ex_mds ex_mds)), (std_comp 9), ex_sw, ex_inp, 0, T1, T2. cbv zeta.
  split; [apply ex_vp_ok|]. split; [apply ex_placed|]. split; [apply ex_outside|]. split; [exact S1|]. split; [exact S2|]. split.
  - intros v Hv NE. unfold vval. rewrite SO1, SO2 by (apply ex_outside; exact Hv).
    cbn in Hv. repeat (destruct Hv as [<-|Hv]; [first [reflexivity|destruct (NE eq_refl)]|]). destruct Hv.
  - unfold vval. rewrite SO1, SO2 by (intros [K _]; discriminate). apply fval_neq. vm_compute. discriminate.
Qed.
Print Assumptions verifier_position_refuted.

(** Claim: every FRI root is checked against the values.  Two accepted proofs
    differ in the first root only. *)
Theorem verifier_root_refuted : exists (P : params) (L : lenv P) mds rc vp c sw inp row T1 T2,
  let y := znth dv (vi_roots inp) 0 in
  vp_ok vp /\ placed c sw row (ver_rows vp (wamount c)) /\ inputs_outside c sw row (ver_rows vp (wamount c)) inp /\
  sat L T1 (ver_circuit mds rc [] vp c sw inp row) /\ sat L T2 (ver_circuit mds rc [] vp c sw inp row) /\
  (forall v, In v (inputs inp) -> v <> y -> vval T1 v = vval T2 v) /\ vval T1 y <> vval T2 y.
Proof.
  destruct (ex_accepted (noL P7) ex_mds ex_mds f0 f0 f0 (or_introl eq_refl)) as [T1 [SO1 S1]].
  destruct (ex_accepted (noL P7) ex_mds ex_mds f1 f0 f0 (or_introl eq_refl)) as [T2 [SO2 S2]].
  exists P7, (noL P7), ex_mds, ex_mds, (ex_vp (hash ex_mds ex_mds)), (std_comp 9), ex_sw, ex_inp, 0, T1, T2. cbv zeta.
  split; [apply ex_vp_ok|]. split; [apply ex_placed|]. split; [apply ex_outside|]. split; [exact S1|]. split; [exact S2|]. split.
  - intros v Hv NE. unfold vval. rewrite SO1, SO2 by (apply ex_outside; exact Hv).
    cbn in Hv. repeat (destruct Hv as [<-|Hv]; [first [reflexivity|destruct (NE eq_refl)]|]). destruct Hv.
  - unfold vval. rewrite SO1, SO2 by (intros [K _]; discriminate). apply fval_neq. vm_compute. discriminate.
Qed.
Print Assumptions verifier_root_refuted.
