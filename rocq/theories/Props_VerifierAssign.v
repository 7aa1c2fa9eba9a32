(** C118, C119: the assignment of the recursive verifier; the assignment of
    colinear_checks. *)
From Coq Require Import ZArith List Lia Bool.
From Verif Require Import Base Field Primes Plonk PlonkFacts Bits FlexModel FlexPow PowerProofs PoseidonModel PoseidonProofs Examples Props_Flex
  ColinearProofs VerifierModel VerifierSpec VerifierSteps VerifierWalk VerifierProofs Props_Verifier.
Import ListNotations.
Open Scope Z_scope.

(** ** colinear_checks *)

(** The gates hold after the assignment when the inputs fold in every step that
    is not the first of its row. *)
Theorem colinear_complete : forall P (L : lenv P) T c w r inp row,
  wf_comp c w -> 9 <= w -> 0 <= r -> char P <> 2 ->
  zlen (cl_ys inp) = 2 * r + 2 -> zlen (cl_bs inp) = r + 1 -> zlen (cl_al inp) = r ->
  (forall v, In v (cl_ys inp ++ cl_bs inp ++ cl_al inp) -> outside c (cl_rows w r) row v) ->
  (forall k, 0 <= k < r -> k mod ((w - 4) / 5) <> 0 ->
     let ys i := vval T (znth (wcell 0 0) (cl_ys inp) i) in
     let bs i := vval T (znth (wcell 0 0) (cl_bs inp) i) in
     folds (fexp (vval T (cl_x inp)) (2 ^ k)) (bs k) (ys (2 * k)) (ys (2 * k + 1))
       (vval T (znth (wcell 0 0) (cl_al inp) k))
       (chosen (bs (k + 1)) (ys (2 * k + 2)) (ys (2 * k + 3)))) ->
  let T' := cl_assign c r inp row T in
  sat L T' (cl_circuit c r row) /\ frame c (cl_rows w r) row T T'.
Proof.
  intros P L T c w r inp row Hwf H9 Hr H2 L1 L2 L3 HO HF T'. split.
  - apply (cl_complete_l P L c w r row inp Hwf H9 Hr T H2 L1 L2 L3 HO HF).
  - apply cl_frame; assumption.
Qed.
Print Assumptions colinear_complete.

(** ** The verifier *)

(** Query [i] of an honest proof: its point, the power of the challenge, is the
    element the position bits name up to sign, and the values of every round
    from the second on fold to the chosen value of the next. *)
Definition query_valid {P} (H : F P -> F P -> F P -> F P) (vp : vparams P) (pr : vproof P) (i : Z) : Prop :=
  let m := vp_m vp in
  let x := fexp (znth f0 (fri_xs H (vp_lam vp) (vp_r vp) (vp_vk0 vp) (vp_vk1 vp) pr) i) (vp_pow vp) in
  let alpha k := znth f0 (fri_alphas H (vp_r vp) (vp_vk0 vp) (vp_vk1 vp) pr) k in
  (exists zs, (forall z, In z zs -> z = 0 \/ z = 1) /\ zlen zs = m /\ (forall j, 0 <= j < m -> pr_pos pr i j = ofZ (znth 0 zs j)) /\
     (x = fexp (vp_omega vp) (zero_weight zs) \/ x = fopp (fexp (vp_omega vp) (zero_weight zs)))) /\
  forall k, 1 <= k < vp_r vp ->
    folds (fexp x (2 ^ k)) (pr_pos pr i (m - k)) (pr_rval pr i (2 * k - 2)) (pr_rval pr i (2 * k - 1)) (alpha k)
      (chosen (pr_pos pr i (m - k - 1)) (pr_rval pr i (2 * k)) (pr_rval pr i (2 * k + 1))).

Section Ext.
Variable P : params.
Variable H1 H2 : F P -> F P -> F P -> F P.
Hypothesis HE : forall a b d, H1 a b d = H2 a b d.
Lemma squeeze_ext : forall l s, squeeze H1 s l = squeeze H2 s l.
Proof. induction l as [|a l IH]; intros s; [reflexivity|]. cbn [squeeze]. rewrite HE, IH. reflexivity. Qed.
Variable p1 p2 : vproof P.
Hypothesis HC : forall j, pr_comm p1 j = pr_comm p2 j.
Hypothesis HR : forall j, pr_root p1 j = pr_root p2 j.
Lemma start_ext : forall a b, fri_start H1 a b p1 = fri_start H2 a b p2.
Proof. intros a b. unfold fri_start. rewrite !HC. apply absorb_ext. exact HE. Qed.
Lemma alphas_ext : forall r a b, fri_alphas H1 r a b p1 = fri_alphas H2 r a b p2.
Proof. intros r a b. unfold fri_alphas. rewrite start_ext, (map_ext _ _ HR). apply squeeze_ext. Qed.
Lemma xs_ext : forall lam r a b, fri_xs H1 lam r a b p1 = fri_xs H2 lam r a b p2.
Proof.
  intros lam r a b. unfold fri_xs. rewrite start_ext, squeeze_ext. f_equal. rewrite (absorb_ext P H1 H2 HE). f_equal.
  apply map_ext. intros j. rewrite HR. reflexivity.
Qed.
End Ext.

Lemma znth_pairs : forall A (d : A) (f g : Z -> A) n, 0 <= n ->
  zlen (flat_map (fun j => [f j; g j]) (zseq 0 n)) = 2 * n /\
  forall j, 0 <= j < n -> znth d (flat_map (fun j => [f j; g j]) (zseq 0 n)) (2 * j) = f j /\
    znth d (flat_map (fun j => [f j; g j]) (zseq 0 n)) (2 * j + 1) = g j.
Proof.
  intros A d f g n Hn. pattern n. apply natlike_ind; [| |exact Hn]; clear n Hn.
  - split; [reflexivity|]. intros j Hj. lia.
  - intros n Hn [IL IH]. unfold Z.succ. rewrite zseq_snoc by lia. rewrite flat_map_app. cbn [flat_map app].
    set (l := flat_map _ _) in *. split; [unfold zlen in *; rewrite app_length; cbn [length]; lia|].
    intros j Hj. unfold zlen in IL. destruct (Z.eq_dec j n) as [->|NE].
    + unfold znth. rewrite !app_nth2 by lia. replace (Z.to_nat (2 * n) - length l)%nat with 0%nat by lia.
      replace (Z.to_nat (2 * n + 1) - length l)%nat with 1%nat by lia. split; reflexivity.
    + specialize (IH j ltac:(lia)). unfold znth in *. rewrite !app_nth1 by lia. exact IH.
Qed.

Lemma zs_list : forall A (d : A) l n, zlen l = n -> map (fun j => znth d l j) (zseq 0 n) = l.
Proof.
  intros A d l n E. apply (nth_ext _ _ d d).
  - rewrite map_length, zseq_length. unfold zlen in E. lia.
  - intros t Ht. rewrite map_length, zseq_length in Ht.
    pose proof (znth_map_zseq _ (fun j => znth d l j) 0 n (Z.of_nat t) d ltac:(lia)) as K. rewrite Z.add_0_l in K. unfold znth in K. rewrite !Nat2Z.id in K. exact K.
Qed.

(** An honest proof: the assertions hold and the table generated is accepted. *)
Theorem verifier_complete : forall P (L : lenv P) mds rc vp c w sw inp row (T : table P),
  wf_comp c w -> 9 <= w -> w mod 3 = 0 -> vp_ok vp -> placed c sw row (ver_rows vp w) -> inputs_outside c sw row (ver_rows vp w) inp ->
  consts_in T (ver_circuit mds rc [] vp c sw inp row) ->
  char P <> 2 -> vp_r vp <= vp_m vp -> digits4 (vp_pow vp) mod (w - 2) <> 0 -> fexp (vp_omega vp) (2 ^ vp_m vp) = fopp f1 ->
  (forall i, 0 <= i < vp_lam vp -> zlen (znth [] (vi_pos inp) i) = vp_m vp) ->
  verifier_checks (hash mds rc) (vp_lam vp) (vp_r vp) (vp_m vp) (vp_sizes vp) (vp_vk0 vp) (vp_vk1 vp) (proof_vals T inp) ->
  (forall i, 0 <= i < vp_lam vp -> query_valid (hash mds rc) vp (proof_vals T inp) i) ->
  exists T', ver_assign mds rc vp c sw inp row T = Some T' /\ same_outside c sw row (ver_rows vp w) T T' /\
    sat L T' (ver_circuit mds rc [] vp c sw inp row).
Proof.
  intros P L mds rc vp c w sw inp row T Hwf H9 HM Hvp Hpl Hio KC H2 HRM HD HO HS Q QV.
  pose proof (main_step P mds rc vp c w sw inp row Hwf H9 HM Hvp Hpl Hio (m_honest P w (vp_pow vp) (vp_omega vp) (vp_r vp))) as MS.
  destruct (main_consts P mds rc vp c sw inp row T KC) as [C0 [C2 C3]].
  destruct (MS T C0) as [n0 [xs0 [als0 ST0]]].
  pose proof Hvp as [A [B [D [E1 E2]]]]. pose proof Hpl as [P1 [P2 P3]].
  set (e := row + ver_rows vp w) in *. set (prg := vprog vp c inp row) in *.
  assert (KC' : consts_in T (compile mds rc [] c (vp_pow vp) (vp_omega vp) (vp_r vp) sw prg row 0))
    by (intros col rw v Hv; apply KC; unfold ver_circuit; apply in_or_app; right; exact Hv).
  destruct (honest P L mds rc c w (vp_pow vp) (vp_omega vp) (vp_r vp) sw Hwf H9 HM E1 E2 ltac:(lia) row e P1 P2 P3 H2 prg 1 row 0 T
    (st_sc _ _ _ _ _ _ _ _ _ _ _ _ _ _ _ _ _ _ ST0 I) ltac:(lia) ltac:(lia)) as [K [D' S]].
  { unfold prg. rewrite (ver_end_e P vp c w sw inp row Hwf Hvp). unfold e. lia. }
  { exact KC'. }
  set (T' := fill P mds rc c (vp_pow vp) (vp_omega vp) (vp_r vp) sw prg row 0 T) in *.
  assert (SO : same_outside c sw row (ver_rows vp w) T T') by (intros ty col rw NO; apply K; exact NO).
  assert (KC2 : consts_in T' (ver_circuit mds rc [] vp c sw inp row))
    by (intros col rw v Hv; rewrite SO by (intros [X _]; discriminate); apply KC; exact Hv).
  destruct (main_consts P mds rc vp c sw inp row T' KC2) as [C0' [C2' C3']].
  destruct (MS T' C0') as [n1 [xs1 [als1 ST1]]].
  rewrite C2', C3' in ST1. destruct (st_ok _ _ _ _ _ _ _ _ _ _ _ _ _ _ _ _ _ _ ST1 D') as [[VA VX] [_ OK]].
  pose proof (keep_vals P vp c w sw row T T' SO) as KV.
  assert (KP : forall i j, vval T' (v2 (vi_pos inp) i j) = vval T (v2 (vi_pos inp) i j))
    by (intros i j; apply KV, (old_v2 P mds rc vp c w sw inp row Hio); cbn [In]; tauto).
  assert (KR : forall i j, vval T' (v2 (vi_rvals inp) i j) = vval T (v2 (vi_rvals inp) i j))
    by (intros i j; apply KV, (old_v2 P mds rc vp c w sw inp row Hio); cbn [In]; tauto).
  assert (HE : forall a b d, hash3 P mds rc a b d = hash mds rc a b d) by (apply hash_eq).
  assert (KCm : forall j, pr_comm (proof_vals T' inp) j = pr_comm (proof_vals T inp) j)
    by (intros j; cbn [proof_vals pr_comm]; apply KV, (old_v1 P mds rc vp c w sw inp row Hio); left; reflexivity).
  assert (KRt : forall j, pr_root (proof_vals T' inp) j = pr_root (proof_vals T inp) j)
    by (intros j; cbn [proof_vals pr_root]; apply KV, (old_v1 P mds rc vp c w sw inp row Hio); right; reflexivity).
  rewrite (alphas_ext P _ _ HE _ _ KCm KRt) in VA.
  assert (PN : digits4 (vp_pow vp) = cp_len (vp_pow vp)) by (symmetry; apply digits4_len; exact E1).
  assert (XV : forall i, 0 <= i < vp_lam vp -> vval T' (znth dv xs1 i) =
    fexp (znth f0 (fri_xs (hash mds rc) (vp_lam vp) (vp_r vp) (vp_vk0 vp) (vp_vk1 vp) (proof_vals T inp)) i) (vp_pow vp)).
  { intros i Hi. specialize (VX i Hi). cbn [md_pow m_honest] in VX. rewrite (xs_ext P _ _ HE _ _ KCm KRt) in VX. rewrite VX, <- PN.
    destruct (Z.eqb_spec (digits4 (vp_pow vp) mod (w - 2)) 0) as [EZ|_]; [destruct (HD EZ)|reflexivity]. }
  assert (OKS : oks P c (vp_pow vp) (vp_r vp) sw (m_honest P w (vp_pow vp) (vp_omega vp) (vp_r vp)) T' prg row 0).
  { apply OK. split; [|exact I]. split.
    - apply (checks_ext1 P (hash mds rc) (hash3 P mds rc) _ _ _ _ _ _ (proof_vals T inp));
        [lia|exact D|intros; symmetry; apply hash_eq|apply same_sym, (keep_proof P mds rc vp c w sw inp row Hio T T' SO)|exact Q].
    - intros i Hi. destruct (QV i Hi) as [[zs [Z1 [Z2 [Z3 Z4]]]] QF]. split.
      + cbn [md_idx m_honest]. exists zs. split; [exact Z1|]. split; [|split; [lia|split; [rewrite Z2; exact HO|]]].
        * rewrite (map_ext_in _ (fun j => ofZ (znth 0 zs j))) by (intros j Hj; apply in_zseq in Hj; rewrite KP; apply Z3; exact Hj).
          rewrite <- (map_map (znth 0 zs) (@ofZ P)). f_equal. apply zs_list. exact Z2.
        * rewrite XV by exact Hi. rewrite zero_weight_ok in Z4. exact Z4.
      + unfold md_in. cbn [md_col m_honest pcol_in cl_x cl_ys cl_bs cl_al].
        destruct (znth_pairs _ (f0 : F P) (fun j => vval T (v2 (vi_rvals inp) i (2 * j))) (fun j => vval T (v2 (vi_rvals inp) i (2 * j + 1))) (vp_r vp) ltac:(lia)) as [PL PV].
        assert (EY : map (vval T') ([ccell (C c 0) row; ccell (C c 0) row] ++
            flat_map (fun j => [v2 (vi_rvals inp) i (2 * j); v2 (vi_rvals inp) i (2 * j + 1)]) (zseq 0 (vp_r vp))) =
          f0 :: f0 :: flat_map (fun j => [vval T (v2 (vi_rvals inp) i (2 * j)); vval T (v2 (vi_rvals inp) i (2 * j + 1))]) (zseq 0 (vp_r vp))).
        { cbn [app map]. rewrite C0'. do 2 f_equal. clear - KR. generalize (zseq 0 (vp_r vp)) as l. induction l as [|j l IHl]; [reflexivity|].
          cbn [flat_map app map]. rewrite !KR. do 2 f_equal. exact IHl. }
        set (fl := flat_map (fun j => [vval T _; vval T _]) _) in *.
        assert (EB : map (vval T') (ccell (C c 0) row :: map (fun j => v2 (vi_pos inp) i (zlen (znth [] (vi_pos inp) i) - j - 1)) (zseq 0 (vp_r vp))) =
          f0 :: map (fun j => vval T (v2 (vi_pos inp) i (vp_m vp - j - 1))) (zseq 0 (vp_r vp))).
        { cbn [map]. rewrite C0', map_map. f_equal. apply map_ext. intros j. rewrite KP, HS by exact Hi. reflexivity. }
        set (bl := map (fun j => vval T _) _) in *.
        assert (LAL : zlen als1 = vp_r vp).
        { apply (f_equal zlen) in VA. unfold zlen in *. unfold fri_alphas in VA. rewrite squeeze_length, !map_length, zseq_length in VA. lia. }
        assert (EA : map (vval T') (map (fun j => znth dv als1 j) (zseq 0 (vp_r vp))) = map (vval T') als1).
        { f_equal. apply zs_list. exact LAL. }
        rewrite EY, EB, EA, VA. rewrite XV by exact Hi.
        assert (LB : zlen bl = vp_r vp) by (unfold bl, zlen; rewrite map_length, zseq_length; lia).
        split; [rewrite !zlen_cons; lia|]. split; [rewrite zlen_cons; lia|].
        split; [unfold fri_alphas, zlen; rewrite squeeze_length, map_length, zseq_length; lia|].
        intros k Hk Nk. assert (1 <= k) by (destruct (Z.eq_dec k 0) as [->|]; [rewrite Zmod_0_l in Nk; lia|lia]).
        specialize (QF k ltac:(lia)). cbn [proof_vals pr_pos pr_rval] in QF.
        assert (FY : forall j, 0 <= j < vp_r vp -> znth f0 (f0 :: f0 :: fl) (2 * (j + 1)) = vval T (v2 (vi_rvals inp) i (2 * j)) /\
                                znth f0 (f0 :: f0 :: fl) (2 * (j + 1) + 1) = vval T (v2 (vi_rvals inp) i (2 * j + 1))).
        { intros j Hj. destruct (PV j Hj) as [Q1 Q2]. unfold znth in Q1, Q2 |- *.
          replace (Z.to_nat (2 * (j + 1))) with (Datatypes.S (Datatypes.S (Z.to_nat (2 * j)))) by lia.
          replace (Z.to_nat (2 * (j + 1) + 1)) with (Datatypes.S (Datatypes.S (Z.to_nat (2 * j + 1)))) by lia. split; assumption. }
        assert (FB : forall j, 0 <= j < vp_r vp -> znth f0 (f0 :: bl) (j + 1) = vval T (v2 (vi_pos inp) i (vp_m vp - j - 1))).
        { intros j Hj. unfold znth. replace (Z.to_nat (j + 1)) with (Datatypes.S (Z.to_nat j)) by lia. cbn [nth].
          exact (znth_map_zseq _ (fun j => vval T (v2 (vi_pos inp) i (vp_m vp - j - 1))) 0 (vp_r vp) j f0 ltac:(lia)). }
        rewrite (FB k) by lia.
        destruct (FY (k - 1) ltac:(lia)) as [Y1 Y2]. destruct (FY k ltac:(lia)) as [Y3 Y4].
        pose proof (FB (k - 1) ltac:(lia)) as B1.
        replace (k - 1 + 1) with k in Y1, Y2, B1 by lia. replace (2 * (k + 1)) with (2 * k + 2) in Y3, Y4 by lia.
        replace (2 * k + 2 + 1) with (2 * k + 3) in Y4 by lia. rewrite Y1, Y2, Y3, Y4, B1.
        replace (2 * (k - 1)) with (2 * k - 2) by lia. replace (2 * k - 2 + 1) with (2 * k - 1) by lia.
        replace (vp_m vp - (k - 1) - 1) with (vp_m vp - k) by lia. exact QF. }
  destruct (S OKS) as [S1 S2]. exists T'. split; [exact S1|]. split; [exact SO|].
  intros x Hx. unfold ver_circuit in Hx. apply in_app_or in Hx as [Hx|Hx]; [|exact (S2 x Hx)].
  cbn [In] in Hx.
  destruct Hx as [<-|[<-|[<-|[<-|[]]]]]; cbn [holds]; apply KC2; unfold ver_circuit; cbn [app In]; tauto.
Qed.
Print Assumptions verifier_complete.

(** ** Instances *)

Definition ex_ci : clin := mkClin (pin 0) (map pin (zseq 1 7)) (map pin (zseq 7 10)) (map pin (zseq 10 12)).
(** Two steps in one row; the values 1, 19 fold to 8 with the challenge 2. *)
Definition ex_ct : table P97 := intab P97 [3; 40; 41; 1; 19; 8; 50; 0; 1; 1; 7; 2].
Example colinear_complete_ex :
  (forall k, 0 <= k < 2 -> k mod ((14 - 4) / 5) <> 0 ->
     let ys i := vval ex_ct (znth (wcell 0 0) (cl_ys ex_ci) i) in
     let bs i := vval ex_ct (znth (wcell 0 0) (cl_bs ex_ci) i) in
     folds (fexp (vval ex_ct (cl_x ex_ci)) (2 ^ k)) (bs k) (ys (2 * k)) (ys (2 * k + 1)) (vval ex_ct (znth (wcell 0 0) (cl_al ex_ci) k))
       (chosen (bs (k + 1)) (ys (2 * k + 2)) (ys (2 * k + 3)))) /\
  sat (noL P97) (cl_assign (std_comp 14) 2 ex_ci 0 ex_ct) (cl_circuit (std_comp 14) 2 0).
Proof.
  split; [|apply satb_sat; vm_compute; reflexivity].
  intros k Hk Nk. assert (k = 0 \/ k = 1) as [->| ->] by lia; [destruct Nk; reflexivity|]. cbv zeta. apply F_ext. vm_compute. reflexivity.
Qed.

(** One query, two rounds, one batch of one polynomial, trees of height two, over
    the field of 97 elements; 64 has order 8. *)
Definition ex_m97 (i j : Z) : F P97 := ofZ (1 + i + 2 * j * j).
Definition ex_r97 (i j : Z) : F P97 := ofZ (3 * i + j + 1).
Definition ex_vp97 : vparams P97 := mkVp 1 2 2 [1] 12 (ofZ 64) (ofZ 6) (ofZ 48).
Definition ex_inp97 : vin :=
  mkVin [pin 0; pin 1; pin 2] [pin 3; pin 4] (pin 5) [[pin 6; pin 7]] [[pin 8; pin 9]] [[pin 10; pin 11]]
    [[pin 12; pin 13; pin 14; pin 15]] [[pin 16; pin 17; pin 18]].
(** [y] is the value the first round folds to: 48 is right. *)
Definition ex_pub97 (y : Z) : list Z := [1; 2; 3; 33; 3; 36; 0; 1; 2; 3; 0; 73; 4; 10; 9; y; 0; 0; 76].
Definition ex_tab97 (y : Z) : table P97 :=
  fun ty col rw => match ty with
    | CPub => ofZ (znth 0 (ex_pub97 y) rw)
    | CConst => if rw <? 4 then ofZ (znth 0 [0; 1; 6; 48] rw) else ofZ 64
    | _ => f0
    end.
Lemma ex97_consts : forall y, consts_in (ex_tab97 y) (ver_circuit ex_m97 ex_r97 [] ex_vp97 (std_comp 15) ex_sw ex_inp97 0).
Proof.
  intros y col rw v K. unfold ver_circuit in K. apply in_app_or in K as [K|K].
  - cbn [In] in K. destruct K as [K|[K|[K|[K|[]]]]]; injection K as <- <- <-; reflexivity.
  - unfold vprog, pverifier in K. cbv zeta in K. cbn [compile] in K.
    assert (R1 : 1 <= fp_rows (wamount (std_comp 15))) by (change (wamount (std_comp 15)) with 15; apply fp_rows_pos; [lia|reflexivity]).
    do 4 (apply in_app_or in K as [K|K]; [destruct (nc_fp _ _ _ _ _ _ _ _ _ _ K)|]).
    apply consts_compile in K as [-> [K ->]]; try (vm_compute; discriminate).
    + unfold ex_tab97. destruct (Z.ltb_spec rw 4); [lia|reflexivity].
    + intros q Hq. apply (xi_rows_nn 15); [lia|exact Hq].
Qed.
Lemma ex97_vp_ok : vp_ok ex_vp97.
Proof. split; [cbn; lia|]. split; [cbn; lia|]. split; [intros s [<-|[]]; lia|]. split; [cbn; lia|reflexivity]. Qed.
Lemma ex97_placed : forall n, placed (std_comp 15) ex_sw 0 n.
Proof.
  intros n. split; [|split].
  - intros k Hk. split; [apply nodup_zseq|split; [reflexivity|lia]].
  - intros k col Hk H1 H2. apply in_zseq in H1. apply in_zseq in H2. lia.
  - intros k k' col Hk Hk' D _ _ E. apply D. exact E.
Qed.
Lemma ex97_outside : forall n, inputs_outside (std_comp 15) ex_sw 0 n ex_inp97.
Proof.
  intros n v Hv [K _]. cbn in Hv. repeat (destruct Hv as [<-|Hv]; [discriminate|]). destruct Hv.
Qed.
Lemma ex97_checks : forall y, verifier_checks (hash ex_m97 ex_r97) 1 2 2 [1] (ofZ 6) (ofZ 48) (proof_vals (ex_tab97 y) ex_inp97).
Proof.
  intros y. split; [apply F_ext; vm_compute; reflexivity|]. intros i Hi. assert (i = 0) as -> by lia. split; intros j Hj.
  - change (zlen [1]) with 1 in Hj. assert (j = 0) as -> by lia. split.
    + intros b s [K|[K|[]]]; injection K as <- <-; [left|right]; apply F_ext; vm_compute; reflexivity.
    + apply F_ext. vm_compute. reflexivity.
  - assert (j = 1) as -> by lia. split.
    + intros b s [K|[]]. injection K as <- <-. left. apply F_ext. vm_compute. reflexivity.
    + apply F_ext. vm_compute. reflexivity.
Qed.
Lemma ex97_x : forall y, znth f0 (fri_xs (hash ex_m97 ex_r97) 1 2 (ofZ 6) (ofZ 48) (proof_vals (ex_tab97 y) ex_inp97)) 0 = ofZ 5.
Proof. intros y. apply F_ext. vm_compute. reflexivity. Qed.
Lemma ex97_alpha : forall y, znth f0 (fri_alphas (hash ex_m97 ex_r97) 2 (ofZ 6) (ofZ 48) (proof_vals (ex_tab97 y) ex_inp97)) 1 = ofZ 55.
Proof. intros y. apply F_ext. vm_compute. reflexivity. Qed.
Lemma ex97_valid : query_valid (hash ex_m97 ex_r97) ex_vp97 (proof_vals (ex_tab97 48) ex_inp97) 0.
Proof.
  unfold query_valid. cbv zeta. cbn [ex_vp97 vp_lam vp_r vp_m vp_pow vp_omega vp_vk0 vp_vk1]. rewrite ex97_x. split.
  - exists [0; 1]. split; [intros z [<-|[<-|[]]]; tauto|]. split; [reflexivity|]. split.
    + intros j Hj. assert (j = 0 \/ j = 1) as [->| ->] by lia; apply F_ext; vm_compute; reflexivity.
    + left. apply F_ext. vm_compute. reflexivity.
  - intros k Hk. assert (k = 1) as -> by lia. rewrite ex97_alpha. apply F_ext. vm_compute. reflexivity.
Qed.
Example verifier_complete_ex : exists T', ver_assign ex_m97 ex_r97 ex_vp97 (std_comp 15) ex_sw ex_inp97 0 (ex_tab97 48) = Some T' /\
  sat (noL P97) T' (ver_circuit ex_m97 ex_r97 [] ex_vp97 (std_comp 15) ex_sw ex_inp97 0) /\ vval T' (pin 15) = ofZ 48.
Proof.
  destruct (verifier_complete P97 (noL P97) ex_m97 ex_r97 ex_vp97 (std_comp 15) 15 ex_sw ex_inp97 0 (ex_tab97 48)) as [T' [E [SO S]]].
  - apply wf_std. lia.
  - lia.
  - reflexivity.
  - apply ex97_vp_ok.
  - apply ex97_placed.
  - apply ex97_outside.
  - apply ex97_consts.
  - discriminate.
  - cbn. lia.
  - vm_compute. discriminate.
  - apply F_ext. vm_compute. reflexivity.
  - intros i Hi. cbn in Hi. assert (i = 0) as -> by lia. reflexivity.
  - apply ex97_checks.
  - intros i Hi. cbn in Hi. assert (i = 0) as -> by lia. apply ex97_valid.
  - exists T'. split; [exact E|]. split; [exact S|]. unfold vval. rewrite SO by (intros [K _]; discriminate). reflexivity.
Qed.
