(** Proofs about the SHA-512 component: the gates and the two compressions. *)
From Coq Require Import ZArith List Lia Bool.
From Verif Require Import Base Field Plonk PlonkFacts Sha256Model Sha256HashModel Sha256Complete Sha256HashProofs Sha512Spec Sha512Model Sha512HashModel Sha512HashWords Sha512Complete Props_Sha512.
Import ListNotations.
Open Scope Z_scope.

(** ** The gates *)

Section Gates.
Variable P : params.
Notation F := (F P).
Notation table := (table P).
Add Field Fsha5h : (F_field P).
Variable L : lenv P.
Variable c : comp.
Variable row : Z.
Variable R : Z -> Z.
Hypothesis HR : forall a, 0 <= a < 20 -> 0 <= R a < 2 ^ limb_bits a.
Variable T : table.
Variable cells : list (list (option F)).
Hypothesis same : forall o, 0 <= o < 12 -> znth [] cells o = znth [] (u_cells P R) o.
Hypothesis rd : forall o k v, 0 <= o < 15 -> 0 <= k < 9 -> u_at cells o k = Some v -> T CWit (W c k) (row + o) = v.

Lemma rd12 : forall q d k v, 0 <= q + d < 12 -> 0 <= k < 9 -> u_at (u_cells P R) (q + d) k = Some v -> T CWit (W c k) (row + q + d) = v.
Proof.
  intros q d k v Ho Hk E. rewrite <- Z.add_assoc. apply rd; [lia|exact Hk|]. unfold u_at in *. rewrite same by exact Ho. exact E.
Qed.

Ltac lits := repeat match goal with |- context [2 ^ ?n] => let z := eval vm_compute in (2 ^ n) in change (2 ^ n) with z end.
Ltac read H := repeat match goal with |- context [T CWit (W c ?k) (row + ?q + ?d)] =>
  rewrite (H q d k _ ltac:(lia) ltac:(lia) eq_refl) end.
Ltac gate H := rewrite ?eval_bin, ?eval_evar, ?eval_ecst, ?gval_wv; cbn [ebop];
  apply fsub_eq0; read H; rewrite <- ?ofZ_mul, <- ?ofZ_add; f_equal; lits; lia.

Lemma gate0 : sat L T [Gate (u_gate0 P c) [row + 1]].
Proof.
  intros g [<-|[]] r [<-|[]] e He. unfold u_gate0 in He. cbn [In] in He.
  destruct (word_0 R HR) as [W0 _]. destruct (limb_0 R HR) as [L0 _].
  destruct (word_1 R HR) as [W1 _]. destruct (limb_1 R HR) as [L1 _].
  destruct (word_2 R HR) as [W2 _]. destruct (limb_2 R HR) as [L2 _].
  destruct (word_3 R HR) as [W3 _]. destruct (limb_3 R HR) as [L3 _].
  repeat (destruct He as [<-|He]; [gate rd12|]). destruct He.
Qed.
Lemma gate1 : sat L T [Gate (u_gate1 P c) [row + 4]].
Proof.
  intros g [<-|[]] r [<-|[]] e He. unfold u_gate1 in He. cbn [In] in He.
  destruct (word_4 R HR) as [W4 _]. destruct (limb_4 R HR) as [L4 _].
  destruct (word_5 R HR) as [W5 _]. destruct (limb_5 R HR) as [L5 _].
  destruct (word_6 R HR) as [W6 _]. destruct (limb_6 R HR) as [L6 _].
  destruct (word_7 R HR) as [W7 _]. destruct (limb_7 R HR) as [L7 _].
  repeat (destruct He as [<-|He]; [gate rd12|]). destruct He.
Qed.
Lemma gate2 : sat L T [Gate (u_gate2 P c) [row + 7]].
Proof.
  intros g [<-|[]] r [<-|[]] e He. unfold u_gate2 in He. cbn [In] in He.
  destruct (word_8 R HR) as [W8 _]. destruct (limb_8 R HR) as [L8 _].
  destruct (word_9 R HR) as [W9 _]. destruct (limb_9 R HR) as [L9 _].
  destruct (word_10 R HR) as [W10 _]. destruct (limb_10 R HR) as [L10 _].
  destruct (word_11 R HR) as [W11 _]. destruct (limb_11 R HR) as [L11 _].
  repeat (destruct He as [<-|He]; [gate rd12|]). destruct He.
Qed.
Lemma gate3 : sat L T [Gate (u_gate3 P c) [row + 10]].
Proof.
  intros g [<-|[]] r [<-|[]] e He. unfold u_gate3 in He. cbn [In] in He.
  destruct (word_12 R HR) as [W12 _]. destruct (limb_12 R HR) as [L12 _].
  destruct (word_13 R HR) as [W13 _]. destruct (limb_13 R HR) as [L13 _].
  destruct (word_14 R HR) as [W14 _]. destruct (limb_14 R HR) as [L14 _].
  destruct (word_15 R HR) as [W15 _]. destruct (limb_15 R HR) as [L15 _].
  repeat (destruct He as [<-|He]; [gate rd12|]). destruct He.
Qed.

(** The last gate, for the assigned cells. *)
Lemma rd15 : cells = u_cells P R -> forall q d k v, 0 <= q + d < 15 -> 0 <= k < 9 -> u_at (u_cells P R) (q + d) k = Some v -> T CWit (W c k) (row + q + d) = v.
Proof. intros E q d k v Ho Hk H. rewrite <- Z.add_assoc. apply rd; [lia|exact Hk|]. rewrite E. exact H. Qed.
Lemma gate4 : cells = u_cells P R -> sat L T [Gate (u_gate4 P c) [row + 13]].
Proof.
  intros E g [<-|[]] r [<-|[]] e He. unfold u_gate4 in He. cbn [In] in He. assert (rd' := rd15 E).
  destruct (word_16 R HR) as [W16 _]. destruct (limb_16 R HR) as [L16 _].
  destruct (word_17 R HR) as [W17 _]. destruct (limb_17 R HR) as [L17 _].
  destruct (word_18 R HR) as [W18 _]. destruct (limb_18 R HR) as [L18 _].
  destruct (word_19 R HR) as [W19 _]. destruct (limb_19 R HR) as [L19 _].
  repeat (destruct He as [<-|He]; [gate rd'|]). destruct He.
Qed.

(** The last gate, for cells with any two last words [a] and [e]. *)
Hypothesis big : 2 ^ 180 < char P.
Definition u_x (a : Z) : F := fdiv (ofZ (R 18 - a)) (ofZ (2 ^ 64)).
Definition u_y (a e : Z) : F := fdiv (fsub (ofZ (e - 4 * R 19)) (u_x a)) (ofZ (2 ^ 60)).
Definition u_forged (a e : Z) : list (list (option F)) :=
  let s x := Some (ofZ x : F) in
  let w i := znth 0 (u_words R) i in
  let k a from n := u_chunk (R a) from n in
  firstn 12 (u_cells P R) ++
  [[s (R 16); s (k 16 0 4); s (R 17); s (k 17 0 2); s (R 18); s a; s (R 19); s (k 19 0 22); None] ;
   [s (w 16); s (k 16 4 18); s (w 17); s (k 17 2 20); s a; s 0; s e; s (k 19 22 22); None] ;
   [s (k 16 44 22); s (k 16 22 22); s (k 17 44 22); s (k 17 22 22); Some (u_x a); s 0; None; s (k 19 44 14); Some (u_y a e)]].
Lemma two_pow : forall n, 0 <= n <= 64 -> (ofZ (2 ^ n) : F) <> f0.
Proof.
  intros n Hn E. apply (f_equal (@fval P)) in E. assert (0 < 2 ^ n <= 2 ^ 64) by (split; [lia|apply Z.pow_le_mono_r; lia]).
  rewrite fval_ofZ_small in E by lia. unfold f0 in E. rewrite fval_ofZ_small in E by lia. lia.
Qed.
Lemma fdiv_mul : forall x y : F, y <> f0 -> fmul (fdiv x y) y = x.
Proof.
  intros x y H. unfold fdiv. transitivity (fmul x (fmul (finv y) y)); [ring|]. rewrite finv_l by exact H. ring.
Qed.
Lemma rdf : forall a e, cells = u_forged a e -> forall q d k v, 0 <= q + d < 15 -> 0 <= k < 9 -> u_at (u_forged a e) (q + d) k = Some v -> T CWit (W c k) (row + q + d) = v.
Proof. intros a e E q d k v Ho Hk H. rewrite <- Z.add_assoc. apply rd; [lia|exact Hk|]. rewrite E. exact H. Qed.
Lemma gate4f : forall a e, cells = u_forged a e -> sat L T [Gate (u_gate4 P c) [row + 13]].
Proof.
  intros a e E g [<-|[]] r [<-|[]] x He. unfold u_gate4 in He. cbn [In] in He. assert (rd' := rdf a e E).
  assert (X : fmul (u_x a) (ofZ (2 ^ 64)) = ofZ (R 18 - a)) by (apply fdiv_mul, two_pow; lia).
  assert (Y : fmul (u_y a e) (ofZ (2 ^ 60)) = fsub (ofZ (e - 4 * R 19)) (u_x a)) by (apply fdiv_mul, two_pow; lia).
  destruct (word_16 R HR) as [W16 _]. destruct (limb_16 R HR) as [L16 _].
  destruct (word_17 R HR) as [W17 _]. destruct (limb_17 R HR) as [L17 _].
  destruct (limb_19 R HR) as [L19 _].
  destruct He as [<-|He]; [gate rd'|]. destruct He as [<-|He]; [gate rd'|].
  destruct He as [<-|He].
  { rewrite ?eval_bin, ?eval_evar, ?eval_ecst, ?gval_wv; cbn [ebop]. apply fsub_eq0. read rd'. rewrite X. rewrite <- ?ofZ_mul, <- ?ofZ_add. f_equal. lia. }
  destruct He as [<-|He]; [gate rd'|]. destruct He as [<-|He]; [gate rd'|]. destruct He as [<-|He]; [gate rd'|].
  destruct He as [<-|He]; [gate rd'|]. destruct He as [<-|He]; [|destruct He].
  rewrite ?eval_bin, ?eval_evar, ?eval_ecst, ?gval_wv; cbn [ebop]. apply fsub_eq0. read rd'. rewrite Y.
  assert (Z4 : (ofZ (e - 4 * R 19) : F) = fsub (ofZ e) (fadd (fadd (fmul (ofZ (u_chunk (R 19) 0 22)) (ofZ (2 ^ 2))) (fmul (ofZ (u_chunk (R 19) 22 22)) (ofZ (2 ^ 24)))) (fmul (ofZ (u_chunk (R 19) 44 14)) (ofZ (2 ^ 46))))).
  { rewrite <- !ofZ_mul, <- !ofZ_add, <- ofZ_sub. f_equal. lits. lia. }
  rewrite Z4. ring.
Qed.
End Gates.

(** ** Tables that agree everywhere *)

Lemma eval_same : forall P (T T' : table P) r e, (forall ty k q, T' ty k q = T ty k q) -> eval T' r e = eval T r e.
Proof.
  intros P T T' r e H. induction e as [coeff vars| |]; cbn; [|rewrite ?IHe1, ?IHe2, ?IHe; reflexivity..].
  revert coeff. induction vars as [|v vs IH]; intros x; cbn; [reflexivity|]. rewrite IH. unfold gval. rewrite H. reflexivity.
Qed.
Lemma sat_same : forall P (L : lenv P) (T T' : table P) cs, (forall ty k q, T' ty k q = T ty k q) -> sat L T cs -> sat L T' cs.
Proof.
  intros P L T T' cs H S g Hg. specialize (S g Hg). destruct g as [es rs|es rs|x y|k r v]; cbn in *.
  - intros r Hr e He. rewrite (eval_same P T T' r e H). auto.
  - intros r Hr t l Hl. rewrite (map_ext (eval T' r) (eval T r)) by (intros e; apply eval_same, H). eauto.
  - unfold vval in *. rewrite !H. exact S.
  - rewrite H. exact S.
Qed.
Lemma put_swap : forall P c r1 n1 f1 r2 n2 f2 (T : table P) ty k q, r1 + n1 <= r2 ->
  put c r2 n2 f2 (put c r1 n1 f1 T) ty k q = put c r1 n1 f1 (put c r2 n2 f2 T) ty k q.
Proof.
  intros P c r1 n1 f1 r2 n2 f2 T ty k q H. unfold put. destruct (ctype_eqb ty CWit); cbn [andb]; [|reflexivity].
  destruct (Z.leb_spec r2 q), (Z.ltb_spec q (r2 + n2)), (Z.leb_spec r1 q), (Z.ltb_spec q (r1 + n1)); cbn [andb]; try reflexivity; lia.
Qed.
Lemma q_assign_ext : forall P c st st' wd wd' row (T : table P), (forall i, 0 <= i < 8 -> vval T (st i) = vval T (st' i)) ->
  (forall i, 0 <= i < 16 -> vval T (wd i) = vval T (wd' i)) -> q_assign c st wd row T = q_assign c st' wd' row T.
Proof.
  intros P c st st' wd wd' row T Hs Hw. unfold q_assign.
  rewrite (map_ext_in (fun i => fval (vval T (st i))) (fun i => fval (vval T (st' i))) (zseq 0 8)) by (intros i Hi; apply in_zseq in Hi; rewrite Hs by lia; reflexivity).
  rewrite (map_ext_in (fun i => fval (vval T (wd i))) (fun i => fval (vval T (wd' i))) (zseq 0 16)) by (intros i Hi; apply in_zseq in Hi; rewrite Hw by lia; reflexivity).
  reflexivity.
Qed.

(** ** The two compressions *)

Section Two.
Variable P : params.
Notation F := (F P).
Notation table := (table P).
Hypothesis big : 2 ^ 180 < char P.
Variable L : lenv P.
Variable c : comp.
Hypothesis wf : wf_comp c 9.
Hypothesis cols : forall i, 0 <= i < 4 -> W c (2 * i) = 2 * i.
Hypothesis ccol : C c 0 = 0.
Variable b : Z -> var.
Variable row : Z.
Variable T : table.
Hypothesis K : consts_in T (u_circuit c b row).
Variable w : Z -> Z.
Hypothesis Hw : forall i, 0 <= i < 20 -> 0 <= w i < 2 ^ 64.
Hypothesis rd : forall i, 0 <= i < 20 -> T CWit (W c (2 * (i mod 4))) (row + 1 + 3 * (i / 4)) = ofZ (w i).

Notation sub := (sh_sub c).
Notation st1 := (u_st1 row 0).
Notation wd1 := (u_wd1 row (fun i => i)).
Notation st2 := (u_st2 c row).
Notation wd2 := (u_wd2 row (fun i => i) 0).
Let T2 := q_assign sub st1 wd1 (row + 15) T.
Let T3 := q_assign sub st2 wd2 (row + 15 + q_rows) T2.

Lemma quad : forall i, 0 <= i mod 4 < 4.
Proof. intros i. apply Z.mod_pos_bound. lia. Qed.
Lemma small64 : forall x, 0 <= x < 2 ^ 64 -> fval (ofZ x : F) = x.
Proof. intros x H. apply fval_ofZ_small. lia. Qed.

Lemma wd1_in : forall i, u_wd1 row (W c) i = wd1 i.
Proof. intros i. unfold u_wd1. rewrite cols by apply quad. reflexivity. Qed.
Lemma wd2_in : forall i, 0 <= i -> u_wd2 row (W c) (C c 0) i = wd2 i.
Proof. intros i Hi. unfold u_wd2. destruct (Z.ltb_spec i 4); [rewrite cols by lia|rewrite ccol]; reflexivity. Qed.
Lemma hash_is : u_hash c row T = T3.
Proof.
  unfold u_hash, T3, T2. rewrite ccol. rewrite (q_assign_ext P sub st1 st1 (u_wd1 row (W c)) wd1 (row + 15) T) by (intros; rewrite ?wd1_in; reflexivity).
  apply q_assign_ext; intros; [reflexivity|]. rewrite <- wd2_in by lia. rewrite ccol. reflexivity.
Qed.

Lemma K_u : forall g, In g (u_consts c row) -> forall k r v, g = SetConst k r v -> T CConst k r = v.
Proof. intros g Hg k r v ->. apply K. unfold u_circuit. apply in_or_app. left. exact Hg. Qed.
Lemma K_iv : forall i, 0 <= i < 8 -> T CConst 0 (row + i) = ofZ (znth 0 s5_iv i).
Proof.
  intros i Hi. apply (K_u (SetConst (C c 0) (row + i) (ofZ (znth 0 u_iv i)))); [|rewrite ccol; reflexivity].
  unfold u_consts. apply in_or_app. left. apply in_map_iff. exists i. split; [reflexivity|apply in_zseq; lia].
Qed.
Lemma K_0 : T CConst 0 (row + 8) = f0.
Proof. eapply K_u; [unfold u_consts; apply in_or_app; right; left; reflexivity|]. rewrite ccol. reflexivity. Qed.
Lemma K_len : T CConst 0 (row + 9) = ofZ 1276.
Proof. eapply K_u; [unfold u_consts; apply in_or_app; right; right; left; reflexivity|]. rewrite ccol. reflexivity. Qed.
Lemma K_1 : consts_in T (q_circuit sub st1 wd1 (row + 15)).
Proof. intros k r v H. apply K. unfold u_circuit. rewrite !in_app_iff. tauto. Qed.
Lemma K_2 : consts_in T (q_circuit sub st2 wd2 (row + 15 + q_rows)).
Proof. intros k r v H. apply K. unfold u_circuit. rewrite !in_app_iff. tauto. Qed.

Lemma iv_64 : forall i, 0 <= znth 0 s5_iv i < 2 ^ 64.
Proof.
  intros i. assert (Q : qwords s5_iv) by (repeat constructor; discriminate). pose proof (qwords_at _ i Q) as B. exact B.
Qed.

Definition blk1 : list Z := map w (zseq 0 16).
Definition blk2 : list Z := map (fun i => if i <? 4 then w (16 + i) else if i <? 15 then 0 else 1276) (zseq 0 16).

Lemma wd1_val : forall U i, (forall ty k r, r < row + 15 -> U ty k r = T ty k r) -> 0 <= i < 16 -> vval U (wd1 i) = ofZ (w i).
Proof.
  intros U i HU Hi. unfold vval, u_wd1. unfold wcell, ccell; cbn [vty vidx vrot]. assert (Q : 0 <= i / 4 < 4) by (split; [apply Z.div_pos; lia|apply Z.div_lt_upper_bound; lia]).
  rewrite HU by lia. rewrite <- cols by apply quad. apply rd. lia.
Qed.
Lemma st1_val : forall U i, (forall ty k r, r < row + 15 -> U ty k r = T ty k r) -> 0 <= i < 8 -> vval U (st1 i) = ofZ (znth 0 s5_iv i).
Proof. intros U i HU Hi. unfold vval, u_st1. unfold wcell, ccell; cbn [vty vidx vrot]. rewrite HU by lia. apply K_iv, Hi. Qed.

Lemma setup_1 : forall U, (forall ty k r, r < row + 15 -> U ty k r = T ty k r) -> consts_in U (q_circuit sub st1 wd1 (row + 15)) ->
  sha5_setup P sub st1 wd1 (row + 15) U.
Proof.
  intros U HU KU. split; [exact big|]. split; [apply sub_wf, wf|]. split; [|split; [|exact KU]].
  - intros k Hk. split; [intros [X _]; discriminate|]. rewrite (st1_val U k HU Hk), small64; apply iv_64.
  - intros k Hk. split.
    + intros [_ [_ X]]. unfold u_wd1, wcell in X; cbn [vty vidx vrot] in X. assert (Q : 0 <= k / 4 < 4) by (split; [apply Z.div_pos; lia|apply Z.div_lt_upper_bound; lia]). lia.
    + rewrite (wd1_val U k HU Hk), small64; apply Hw; lia.
Qed.
Lemma in_1 : forall U, (forall ty k r, r < row + 15 -> U ty k r = T ty k r) ->
  map (fun i => fval (vval U (st1 i))) (zseq 0 8) = s5_iv /\ map (fun i => fval (vval U (wd1 i))) (zseq 0 16) = blk1.
Proof.
  intros U HU. split.
  - transitivity (map (znth 0 s5_iv) (zseq 0 8)); [|reflexivity]. apply map_ext_in. intros i Hi. apply in_zseq in Hi.
    rewrite (st1_val U i HU) by lia. apply small64, iv_64.
  - apply map_ext_in. intros i Hi. apply in_zseq in Hi. rewrite (wd1_val U i HU) by lia. apply small64, Hw. lia.
Qed.

Lemma ccol_w : C sub 0 = W sub 0.
Proof. rewrite sub_C, sub_W by exact wf. rewrite ccol. symmetry. apply (cols 0). lia. Qed.

Lemma low2 : forall ty k r, r < row + 15 -> T2 ty k r = T ty k r.
Proof. intros ty k r H. apply (put_frame P sub). intros [_ [_ X]]. lia. Qed.
Lemma const2 : forall k r, T2 CConst k r = T CConst k r.
Proof. intros k r. apply (put_frame P sub). intros [X _]. discriminate. Qed.
Lemma st2_val : map (fun i => fval (vval T2 (st2 i))) (zseq 0 8) = s5_compress s5_iv blk1.
Proof.
  destruct (in_1 T) as [A B]; [reflexivity|]. rewrite <- A, <- B.
  apply (sha512_process_value P sub st1 wd1 (row + 15) T), setup_1; [reflexivity|exact K_1].
Qed.
Lemma compress_64 : forall h m, qwords (s5_compress h m).
Proof.
  intros h m. apply Forall_forall. intros x Hx. unfold s5_compress in Hx. apply in_map_iff in Hx. destruct Hx as [k [<- _]].
  apply Z.mod_pos_bound. reflexivity.
Qed.
Lemma st2_64 : forall i, 0 <= i < 8 -> fval (vval T2 (st2 i)) < 2 ^ 64.
Proof.
  intros i Hi. assert (Q := compress_64 s5_iv blk1). rewrite <- st2_val in Q. pose proof (qwords_at _ i Q) as B.
  rewrite znth_map_zseq in B by lia. rewrite Z.add_0_l in B. apply B.
Qed.
Lemma blk2_64 : forall i, 0 <= i < 16 -> 0 <= (if i <? 4 then w (16 + i) else if i <? 15 then 0 else 1276) < 2 ^ 64.
Proof. intros i Hi. destruct (Z.ltb_spec i 4); [apply Hw; lia|]. destruct (i <? 15); lia. Qed.
Lemma wd2_val : forall i, 0 <= i < 16 -> vval T2 (wd2 i) = ofZ (if i <? 4 then w (16 + i) else if i <? 15 then 0 else 1276).
Proof.
  intros i Hi. unfold u_wd2. destruct (Z.ltb_spec i 4).
  - unfold vval. unfold wcell, ccell; cbn [vty vidx vrot]. rewrite low2 by lia. rewrite <- (cols i) by lia.
    pose proof (rd (16 + i) ltac:(lia)) as E. replace ((16 + i) mod 4) with i in E by (apply (Z.mod_unique _ _ 4); lia).
    replace ((16 + i) / 4) with 4 in E by (apply (Z.div_unique _ _ _ i); lia). rewrite <- E. reflexivity.
  - destruct (i <? 15); unfold vval, ccell; cbn [vty vidx vrot]; rewrite const2; [apply K_0|apply K_len].
Qed.
Lemma setup_2 : sha5_setup P sub st2 wd2 (row + 15 + q_rows) T2.
Proof.
  split; [exact big|]. split; [apply sub_wf, wf|]. split; [|split].
  - intros k Hk. split; [|apply st2_64, Hk]. intros [_ [_ X]]. unfold u_st2, q_out in X. destruct (k <? 4); unfold wcell in X; cbn [vty vidx vrot] in X; unfold q_rows in X; lia.
  - intros k Hk. split.
    + unfold u_wd2. destruct (k <? 4); [|destruct (k <? 15)]; intros [Y [_ X]]; try discriminate. unfold u_wd1, wcell in X; cbn [vty vidx vrot] in X. unfold q_rows in X. lia.
    + rewrite wd2_val by exact Hk. rewrite small64; apply blk2_64, Hk.
  - intros k r v H. rewrite const2. apply K_2, H.
Qed.
Lemma in_2 : map (fun i => fval (vval T2 (wd2 i))) (zseq 0 16) = blk2.
Proof.
  apply map_ext_in. intros i Hi. apply in_zseq in Hi. rewrite wd2_val by lia. apply small64, blk2_64. lia.
Qed.

Lemma low3 : forall ty k r, r < row + 15 -> T3 ty k r = T ty k r.
Proof.
  intros ty k r H. rewrite <- low2 by exact H. apply (put_frame P sub). intros [_ [_ X]]. unfold q_rows in X. lia.
Qed.
Lemma hash_frame : frame c (2 * q_rows) (row + 15) T T3.
Proof.
  assert (A : frame sub q_rows (row + 15) T T2) by apply (put_frame P sub).
  assert (B : frame sub q_rows (row + 15 + q_rows) T2 T3) by apply (put_frame P sub).
  apply sub_frame; [exact wf|]. unfold q_rows in *. eapply frame_trans; [eapply frame_sub; [| |exact A]; lia|]. eapply frame_sub; [| |exact B]; lia.
Qed.

(** The first compression is undisturbed by the second. *)
Lemma sat_1 : sat L T3 (q_circuit sub st1 wd1 (row + 15)).
Proof.
  unfold T3 at 1. unfold q_assign at 1. cbv zeta.
  match goal with |- sat L (put _ _ _ ?f _) _ => set (f2 := f) end.
  set (U := put sub (row + 15 + q_rows) q_rows f2 T).
  assert (HU : forall ty k r, r < row + 15 -> U ty k r = T ty k r).
  { intros ty k r H. apply (put_frame P sub). intros [_ [_ X]]. unfold q_rows in X. lia. }
  assert (KU : consts_in U (q_circuit sub st1 wd1 (row + 15))) by (eapply consts_in_frame; [apply (put_frame P sub)|exact K_1]).
  assert (S := proj1 (sha512_process_complete P L sub st1 wd1 (row + 15) U (setup_1 U HU KU) ccol_w)).
  eapply sat_same; [|exact S]. intros ty k q. unfold T2, q_assign. cbv zeta.
  destruct (in_1 U HU) as [-> ->]. destruct (in_1 T) as [-> ->]; [reflexivity|]. apply put_swap. unfold q_rows. lia.
Qed.
Lemma sat_2 : sat L T3 (q_circuit sub st2 wd2 (row + 15 + q_rows)).
Proof. apply (sha512_process_complete P L sub st2 wd2 (row + 15 + q_rows) T2 setup_2 ccol_w). Qed.
Lemma out_3 : map (fun i => fval (vval T3 (u_out c row i))) (zseq 0 8) = s5_compress (s5_compress s5_iv blk1) blk2.
Proof.
  rewrite <- st2_val, <- in_2. rewrite <- (sha512_process_value P sub st2 wd2 (row + 15 + q_rows) T2 setup_2).
  apply map_ext_in. intros i Hi. apply in_zseq in Hi. f_equal. unfold u_out, q_out, u_rows.
  rewrite !sub_W by exact wf. destruct (i <? 4); (f_equal; f_equal; lia).
Qed.

Lemma two : sat L (u_hash c row T) (q_circuit sub st1 wd1 (row + 15) ++ q_circuit sub st2 wd2 (row + 15 + q_rows)) /\
  frame c (2 * q_rows) (row + 15) T (u_hash c row T) /\ (forall ty k r, r < row + 15 -> u_hash c row T ty k r = T ty k r) /\
  map (fun i => fval (vval (u_hash c row T) (u_out c row i))) (zseq 0 8) = s5_compress (s5_compress s5_iv blk1) blk2.
Proof.
  rewrite hash_is. split; [apply sat_app; split; [exact sat_1|exact sat_2]|]. split; [exact hash_frame|]. split; [exact low3|exact out_3].
Qed.
End Two.

(** ** The whole circuit *)

Section Whole.
Variable P : params.
Notation F := (F P).
Notation table := (table P).
Hypothesis big : 2 ^ 180 < char P.
Variable L : lenv P.
Variable c : comp.
Hypothesis wf : wf_comp c 9.
Hypothesis cols : forall i, 0 <= i < 4 -> W c (2 * i) = 2 * i.
Hypothesis ccol : C c 0 = 0.
Variable b : Z -> var.
Variable row : Z.
Variable T : table.
Hypothesis K : consts_in T (u_circuit c b row).
Notation R := (fun a => fval (vval T (b a))).
Hypothesis HR : forall a, 0 <= a < 20 -> 0 <= R a < 2 ^ limb_bits a.
Hypothesis Ob : forall a, 0 <= a < 20 -> outside c u_rows row (b a).
Variable cells : list (list (option F)).
Variable w : Z -> Z.
Hypothesis Hw : forall i, 0 <= i < 20 -> 0 <= w i < 2 ^ 64.
Hypothesis same : forall o, 0 <= o < 12 -> znth [] cells o = znth [] (u_cells P R) o.
Hypothesis Hlimb : forall i, 0 <= i < 20 -> u_at cells (3 * (i / 4)) (2 * (i mod 4)) = Some (ofZ (R i)).
Hypothesis Hword : forall i, 0 <= i < 20 -> u_at cells (1 + 3 * (i / 4)) (2 * (i mod 4)) = Some (ofZ (w i)).
Hypothesis Hlast : u_at cells 12 1 = u_at cells 11 6.
Hypothesis g4 : forall U : table, (forall o k v, 0 <= o < 15 -> 0 <= k < 9 -> u_at cells o k = Some v -> U CWit (W c k) (row + o) = v) ->
  sat L U [Gate (u_gate4 P c) [row + 13]].

Let T1 := put c row 15 (u_at cells) T.
Let T3 := u_hash c row T1.

Lemma div4 : forall i, 0 <= i < 20 -> 0 <= i / 4 < 5 /\ 0 <= i mod 4 < 4.
Proof. intros i Hi. split; [split; [apply Z.div_pos; lia|apply Z.div_lt_upper_bound; lia]|apply Z.mod_pos_bound; lia]. Qed.
Lemma rd_1 : forall o k v, 0 <= o < 15 -> 0 <= k < 9 -> u_at cells o k = Some v -> T1 CWit (W c k) (row + o) = v.
Proof. intros o k v Ho Hk E. apply (put_at P); assumption. Qed.
Lemma frame_1 : frame c 15 row T T1.
Proof. apply (put_frame P). Qed.
Lemma whole_two : sat L T3 (q_circuit (sh_sub c) (u_st1 row 0) (u_wd1 row (fun i => i)) (row + 15) ++
    q_circuit (sh_sub c) (u_st2 c row) (u_wd2 row (fun i => i) 0) (row + 15 + q_rows)) /\
  frame c (2 * q_rows) (row + 15) T1 T3 /\ (forall ty k r, r < row + 15 -> T3 ty k r = T1 ty k r) /\
  map (fun i => fval (vval T3 (u_out c row i))) (zseq 0 8) = s5_compress (s5_compress s5_iv (blk1 w)) (blk2 w).
Proof.
  apply (two P big L c wf cols ccol b row T1); [|exact Hw|].
  - eapply consts_in_frame; [exact frame_1|exact K].
  - intros i Hi. destruct (div4 i Hi) as [D M]. rewrite <- Z.add_assoc. apply rd_1; [lia|lia|apply Hword, Hi].
Qed.
Lemma rd_3 : forall o k v, 0 <= o < 15 -> 0 <= k < 9 -> u_at cells o k = Some v -> T3 CWit (W c k) (row + o) = v.
Proof. intros o k v Ho Hk E. destruct whole_two as [_ [_ [X _]]]. rewrite X by lia. apply rd_1; assumption. Qed.
Lemma frame_3 : frame c u_rows row T T3.
Proof.
  destruct whole_two as [_ [X _]]. unfold u_rows. pose proof frame_1 as A. unfold q_rows in *.
  eapply frame_trans; [eapply frame_sub; [| |exact A]; lia|]. eapply frame_sub; [| |exact X]; lia.
Qed.

Lemma copies_3 : sat L T3 (u_copies c b row).
Proof.
  unfold u_copies. apply sat_app. split; [|apply sat_app; split].
  - intros g Hg. apply in_flat_map in Hg. destruct Hg as [i [Hi Hg]]. apply in_map_iff in Hg. destruct Hg as [q [<- Hq]].
    apply in_zseq in Hi. apply in_zseq in Hq. cbn [holds]. rewrite (vval_frame P c u_rows row T T3 _ frame_3 (Ob (4 * q + i) ltac:(lia))).
    unfold vval at 1, wcell. cbn [vty vidx vrot]. rewrite (rd_3 (3 * q) (2 * i) (ofZ (R (4 * q + i)))); [apply ofZ_fval|lia|lia|].
    rewrite <- Hlimb by lia. replace ((4 * q + i) / 4) with q by (apply (Z.div_unique _ _ _ i); lia).
    replace ((4 * q + i) mod 4) with i by (apply (Z.mod_unique _ _ q); lia). reflexivity.
  - intros g [<-|[]]. cbn [holds]. unfold vval, wcell. cbn [vty vidx vrot].
    replace (row + 4 - 3 + 1) with (row + 2) by lia. replace (row + 4 - 1) with (row + 3) by lia.
    rewrite (rd_3 2 6 (ofZ (u_chunk (R 4) 0 1))), (rd_3 3 8 (ofZ (u_chunk (R 4) 0 1))); try lia; unfold u_at; try rewrite same by lia; reflexivity.
  - intros g Hg. apply in_map_iff in Hg. destruct Hg as [i [<- Hi]]. cbn [zseq] in Hi. cbn [holds]. unfold vval, wcell. cbn [vty vidx vrot].
    apply in_zseq in Hi. assert (Hc : i = 0 \/ i = 1 \/ i = 2) by lia. destruct Hc as [->|[->| ->]].
    + replace (row + 1 + 6 + 3 * 0 - 3 + 1) with (row + 5) by lia. replace (row + 1 + 6 + 3 * 0 - 1) with (row + 6) by lia.
      rewrite (rd_3 5 6 (ofZ (u_chunk (R 8) 0 2))), (rd_3 6 1 (ofZ (u_chunk (R 8) 0 2))); try lia; unfold u_at; try rewrite same by lia; reflexivity.
    + replace (row + 1 + 6 + 3 * 1 - 3 + 1) with (row + 8) by lia. replace (row + 1 + 6 + 3 * 1 - 1) with (row + 9) by lia.
      rewrite (rd_3 8 6 (ofZ (u_chunk (R 12) 0 3))), (rd_3 9 1 (ofZ (u_chunk (R 12) 0 3))); try lia; unfold u_at; try rewrite same by lia; reflexivity.
    + replace (row + 1 + 6 + 3 * 2 - 3 + 1) with (row + 11) by lia. replace (row + 1 + 6 + 3 * 2 - 1) with (row + 12) by lia.
      assert (E : u_at cells 11 6 = Some (ofZ (u_chunk (R 16) 0 4))) by (unfold u_at; rewrite same by lia; reflexivity).
      rewrite (rd_3 11 6 _ ltac:(lia) ltac:(lia) E). rewrite <- Hlast in E. rewrite (rd_3 12 1 _ ltac:(lia) ltac:(lia) E). reflexivity.
Qed.
Lemma consts_3 : sat L T3 (u_consts c row).
Proof.
  assert (X : forall g, In g (u_consts c row) -> exists k r (v : F), g = SetConst k r v).
  { intros g Hg. unfold u_consts in Hg. apply in_app_or in Hg. destruct Hg as [Hg|[<-|[<-|[]]]]; [|eauto..].
    apply in_map_iff in Hg. destruct Hg as [i [<- _]]. eauto. }
  intros g Hg. destruct (X g Hg) as [k [r [v ->]]]. cbn [holds]. apply (consts_in_frame P c u_rows row T T3 _ frame_3 K).
  unfold u_circuit. apply in_or_app. left. exact Hg.
Qed.
Lemma whole : sat L T3 (u_circuit c b row) /\ frame c u_rows row T T3 /\
  map (fun i => fval (vval T3 (u_out c row i))) (zseq 0 8) = s5_compress (s5_compress s5_iv (blk1 w)) (blk2 w).
Proof.
  destruct whole_two as [S [_ [_ O]]]. split; [|split; [exact frame_3|exact O]].
  unfold u_circuit. apply sat_app. split; [exact consts_3|]. apply sat_app. split.
  - unfold u_gates. assert (H := rd_3).
    apply sat_cons. split; [apply (gate0 P L c row R HR T3 cells same H); left; reflexivity|].
    apply sat_cons. split; [apply (gate1 P L c row R HR T3 cells same H); left; reflexivity|].
    apply sat_cons. split; [apply (gate2 P L c row R HR T3 cells same H); left; reflexivity|].
    apply sat_cons. split; [apply (gate3 P L c row R HR T3 cells same H); left; reflexivity|].
    apply g4, H.
  - rewrite app_assoc. apply sat_app. split; [exact S|exact copies_3].
Qed.
End Whole.
