(** Properties C120 and C121: the SHA-512 component. *)
From Coq Require Import ZArith List Lia Bool.
From Verif Require Import Base Field Plonk PlonkFacts Examples Pasta Sha256Model Sha256HashModel Sha256Complete Sha256HashProofs Sha512Spec Sha512Model Sha512HashModel Sha512HashWords Sha512Complete Props_Sha512 Sha512HashProofs.
Import ListNotations.
Open Scope Z_scope.

(** ** Specification *)

(** Five numbers of four limbs each, three of 66 bits and a last of 57 bits, 58
    for the fifth number: the coordinates of two points and the message. *)
Definition h5_bits (a : Z) : Z := if a =? 19 then 58 else if a mod 4 =? 3 then 57 else 66.
Definition h5_num (R : Z -> Z) (q : Z) : Z := R (4 * q) + 2 ^ 66 * R (4 * q + 1) + 2 ^ 132 * R (4 * q + 2) + 2 ^ 198 * R (4 * q + 3).
(** They follow each other, 255 bits each and 256 for the last; then a one, and
    the length in bits as the 32nd word. *)
Definition h5_msg (R : Z -> Z) : Z :=
  h5_num R 0 + 2 ^ 255 * h5_num R 1 + 2 ^ 510 * h5_num R 2 + 2 ^ 765 * h5_num R 3 + 2 ^ 1020 * h5_num R 4 + 2 ^ 1276 + 2 ^ 1984 * 1276.
(** Its words, the least significant first, and their hash. *)
Definition h5_word (N i : Z) : Z := (N / 2 ^ (64 * i)) mod 2 ^ 64.
Definition h5_hash (N : Z) : list Z := s5_compress (s5_compress s5_iv (map (h5_word N) (zseq 0 16))) (map (h5_word N) (zseq 16 32)).

(** The component uses the witness columns 0, 2, 4, 6 and the constant column 0
    for the words it hashes; the limbs are in range. *)
Definition h5_base (P : params) (c : comp) (b : Z -> var) (row : Z) (T : table P) : Prop :=
  2 ^ 180 < char P /\ wf_comp c 9 /\
  (forall a, 0 <= a < 20 -> outside c u_rows row (b a) /\ fval (vval T (b a)) < 2 ^ h5_bits a) /\
  consts_in T (u_circuit c b row).
Definition h5_cols (c : comp) : Prop := (forall i, 0 <= i < 4 -> W c (2 * i) = 2 * i) /\ C c 0 = 0.
Definition h5_limbs {P} (b : Z -> var) (T : table P) (a : Z) : Z := fval (vval T (b a)).

(** ** The words *)

Lemma bits_same : forall a, 0 <= a < 20 -> h5_bits a = limb_bits a.
Proof. intros a Ha. assert (X : In a (zseq 0 20)) by (apply in_zseq; lia). cbn in X. repeat (destruct X as [<-|X]; [reflexivity|]). destruct X. Qed.
Lemma zcases20 : forall (Q : Z -> Prop), (forall i, In i (zseq 0 20) -> Q i) -> forall i, 0 <= i < 20 -> Q i.
Proof. intros Q H i Hi. apply H, in_zseq. lia. Qed.

Section Words.
Variable R : Z -> Z.
Hypothesis HR : forall a, 0 <= a < 20 -> 0 <= R a < 2 ^ limb_bits a.

Lemma words_64 : Forall (fun w => 0 <= w < 2 ^ 64) (u_words R).
Proof.
  change (2 ^ 64) with 18446744073709551616.
  assert (E : u_words R = map (znth 0 (u_words R)) (zseq 0 20)) by reflexivity. rewrite E. apply Forall_forall. intros x Hx.
  apply in_map_iff in Hx. destruct Hx as [i [<- Hi]]. cbn in Hi.
  repeat (destruct Hi as [<-|Hi]; [first [apply (word_0 R HR)|apply (word_1 R HR)|apply (word_2 R HR)|apply (word_3 R HR)|apply (word_4 R HR)
    |apply (word_5 R HR)|apply (word_6 R HR)|apply (word_7 R HR)|apply (word_8 R HR)|apply (word_9 R HR)|apply (word_10 R HR)
    |apply (word_11 R HR)|apply (word_12 R HR)|apply (word_13 R HR)|apply (word_14 R HR)|apply (word_15 R HR)
    |apply (word_16 R HR)|apply (word_17 R HR)|apply (word_18 R HR)|apply (word_19 R HR)]|]). destruct Hi.
Qed.
Lemma word_64 : forall i, 0 <= i < 20 -> 0 <= znth 0 (u_words R) i < 2 ^ 64.
Proof. intros i Hi. apply (proj1 (Forall_forall _ _) words_64). apply znth_In. exact Hi. Qed.

Lemma fold_shift : forall l s, fold_right (fun w s => w + 2 ^ 64 * s) s l = fold_right (fun w s => w + 2 ^ 64 * s) 0 l + 2 ^ (64 * zlen l) * s.
Proof.
  induction l as [|w l IH]; intros s; [cbn [fold_right]; change (64 * zlen (@nil Z)) with 0; rewrite Z.pow_0_r; lia|].
  cbn [fold_right]. rewrite IH. replace (64 * zlen (w :: l)) with (64 + 64 * zlen l) by (unfold zlen; cbn [length]; lia).
  rewrite Z.pow_add_r by (unfold zlen; lia). ring.
Qed.
Definition all32 : list Z := u_words R ++ [0; 0; 0; 0; 0; 0; 0; 0; 0; 0; 0; 1276].
Lemma all32_sum : fold_right (fun w s => w + 2 ^ 64 * s) 0 all32 = h5_msg R.
Proof.
  unfold all32. rewrite fold_right_app, fold_shift, (words_sum R HR). change (zlen (u_words R)) with 20.
  change (fold_right (fun w s : Z => w + 2 ^ 64 * s) 0 [0; 0; 0; 0; 0; 0; 0; 0; 0; 0; 0; 1276]) with (2 ^ 704 * 1276).
  unfold h5_msg. change (h5_num R 0) with (limbs4 R 0). change (h5_num R 1) with (limbs4 R 4). change (h5_num R 2) with (limbs4 R 8).
  change (h5_num R 3) with (limbs4 R 12). change (h5_num R 4) with (limbs4 R 16).
  change (2 ^ (64 * 20) * (2 ^ 704 * 1276)) with (2 ^ 1984 * 1276). reflexivity.
Qed.
Lemma word_is : forall i, 0 <= i < 32 -> h5_word (h5_msg R) i = znth 0 all32 i.
Proof.
  intros i Hi. unfold h5_word. rewrite <- all32_sum. symmetry. apply digit; [|exact Hi].
  unfold all32. apply Forall_app. split; [exact words_64|]. repeat constructor; discriminate.
Qed.
Lemma blocks_is : map (h5_word (h5_msg R)) (zseq 0 16) = blk1 (znth 0 (u_words R)) /\ map (h5_word (h5_msg R)) (zseq 16 32) = blk2 (znth 0 (u_words R)).
Proof.
  split.
  - unfold blk1. rewrite (map_ext_in _ (znth 0 all32)) by (intros i Hi; apply in_zseq in Hi; apply word_is; lia). reflexivity.
  - rewrite (map_ext_in _ (znth 0 all32)) by (intros i Hi; apply in_zseq in Hi; apply word_is; lia). reflexivity.
Qed.
End Words.

Lemma base_R : forall P c b row (T : table P), h5_base P c b row T -> forall a, 0 <= a < 20 -> 0 <= h5_limbs b T a < 2 ^ limb_bits a.
Proof.
  intros P c b row T [_ [_ [H _]]] a Ha. split; [apply fval_range|]. rewrite <- bits_same by exact Ha. apply H, Ha.
Qed.
Ltac by20 := apply zcases20; intros i Hi; cbn in Hi; repeat (destruct Hi as [<-|Hi]; [reflexivity|]); destruct Hi.

(** ** C120 *)

(** The table of [generate_assignments] satisfies the circuit, nothing outside
    the component's rows changes, and the outputs are the hash. *)
Theorem sha512_hash_complete : forall P L c b row (T : table P), h5_base P c b row T -> h5_cols c ->
  let T' := u_assign c b row T in
  sat L T' (u_circuit c b row) /\ frame c u_rows row T T' /\
  map (fun i => fval (vval T' (u_out c row i))) (zseq 0 8) = h5_hash (h5_msg (h5_limbs b T)).
Proof.
  intros P L c b row T H [cols ccol] T'. assert (HR := base_R P c b row T H). destruct H as [big [wf [Hb K]]].
  unfold h5_hash. destruct (blocks_is _ HR) as [-> ->].
  apply (whole P big L c wf cols ccol b row T K HR (fun a Ha => proj1 (Hb a Ha)) (u_cells P (h5_limbs b T)) (znth 0 (u_words (h5_limbs b T)))).
  - exact (word_64 _ HR).
  - reflexivity.
  - by20.
  - by20.
  - reflexivity.
  - intros U HU. exact (gate4 P L c row _ HR U _ HU eq_refl).
Qed.
Print Assumptions sha512_hash_complete.

(** ** C121 *)

(** The last two words of the message are not determined by the inputs: nothing
    bounds the chunks they are cut into, and the cell of the padding bit is free.
    For any two words the circuit accepts a table that hashes them instead. *)
Theorem sha512_hash_words_refuted : forall P c b row (T : table P) x y, h5_base P c b row T -> h5_cols c ->
  0 <= x < 2 ^ 64 -> 0 <= y < 2 ^ 64 -> exists T' : table P, forall L,
  let N := h5_msg (h5_limbs b T) in
  sat L T' (u_circuit c b row) /\ frame c u_rows row T T' /\
  map (fun i => fval (vval T' (u_out c row i))) (zseq 0 8) =
  s5_compress (s5_compress s5_iv (map (h5_word N) (zseq 0 16))) [h5_word N 16; h5_word N 17; x; y; 0; 0; 0; 0; 0; 0; 0; 0; 0; 0; 0; 1276].
Proof.
  intros P c b row T x y H [cols ccol] Hx Hy. assert (HR := base_R P c b row T H). destruct H as [big [wf [Hb K]]].
  exists (u_hash c row (put c row 15 (u_at (u_forged P (h5_limbs b T) x y)) T)). intros L N.
  unfold N. rewrite (proj1 (blocks_is _ HR)), !(word_is _ HR) by lia.
  set (w := fun i => if i =? 18 then x else if i =? 19 then y else znth 0 (u_words (h5_limbs b T)) i).
  change (blk1 (znth 0 (u_words (h5_limbs b T)))) with (blk1 w).
  match goal with |- context [s5_compress _ ?l] => change l with (blk2 w) end.
  apply (whole P big L c wf cols ccol b row T K HR (fun a Ha => proj1 (Hb a Ha)) (u_forged P (h5_limbs b T) x y) w).
  - intros i Hi. unfold w. destruct (i =? 18); [exact Hx|]. destruct (i =? 19); [exact Hy|]. exact (word_64 _ HR i Hi).
  - intros o Ho. assert (X : In o (zseq 0 12)) by (apply in_zseq; lia). cbn in X. repeat (destruct X as [<-|X]; [reflexivity|]). destruct X.
  - by20.
  - by20.
  - reflexivity.
  - intros U HU. exact (gate4f P L c row _ HR U _ HU big x y eq_refl).
Qed.
Print Assumptions sha512_hash_words_refuted.

(** ** The hypotheses are met: the limbs 1 to 20, in the Pallas scalar field *)

Definition h5_comp (k : Z) : comp := mkComp (zseq k (k + 9)) [k] [].
Definition h5_tab (col : Z) : table Ppallas := fun ty k r =>
  match ty with
  | CPub => ofZ (r + 1)
  | CConst => if k =? col then
      ofZ (if r <? 8 then znth 0 s5_iv r else if r =? 8 then 0 else if r =? 9 then 1276 else
           if r <? 1125 then znth 0 s5_K ((r - 404) / 9) else znth 0 s5_K ((r - 1514) / 9)) else f0
  | _ => f0
  end.
Definition h5_in (a : Z) : var := pin a.

Lemma h5_comp_wf : forall k, wf_comp (h5_comp k) 9.
Proof.
  intros k. split; [|split; [unfold wamount, h5_comp, zseq; cbn [cWs]; replace (k + 9 - k) with 9 by lia; reflexivity|lia]].
  unfold h5_comp, zseq. cbn [cWs]. replace (k + 9 - k) with 9 by lia. cbn.
  repeat (apply NoDup_cons; [cbn; lia|]). apply NoDup_nil.
Qed.
Lemma h5_consts : forall col, consts_in (h5_tab col) (u_circuit (h5_comp col) h5_in 0).
Proof.
  intros col k r v H. unfold u_circuit in H. apply in_app_or in H. destruct H as [H|H].
  { unfold u_consts in H. apply in_app_or in H. destruct H as [H|[H|[H|[]]]].
    - apply in_map_iff in H. destruct H as [i [E Hi]]. apply in_zseq in Hi.
      assert (Ek := f_equal (fun x => match x with SetConst a _ _ => a | _ => 0 end) E).
      assert (Er := f_equal (fun x => match x with SetConst _ a _ => a | _ => 0 end) E).
      assert (Ev := f_equal (fun x => match x with SetConst _ _ a => a | _ => f0 end) E). cbv beta iota in Ek, Er, Ev. subst k r v.
      unfold h5_tab. change (C (h5_comp col) 0) with col. rewrite Z.eqb_refl. rewrite (proj2 (Z.ltb_lt (0 + i) 8)) by lia. reflexivity.
    - injection H as <- <- <-. unfold h5_tab. change (C (h5_comp col) 0) with col. rewrite Z.eqb_refl. reflexivity.
    - injection H as <- <- <-. unfold h5_tab. change (C (h5_comp col) 0) with col. rewrite Z.eqb_refl. reflexivity. }
  apply in_app_or in H. destruct H as [H|H]; [unfold u_gates in H; cbn [In] in H; exfalso; repeat (destruct H as [H|H]; [discriminate|]); destruct H|].
  assert (X : forall q, q = 15 \/ q = 15 + q_rows -> forall i, 0 <= i < 80 -> h5_tab col CConst col (q + 389 + i * 9) = ofZ (znth 0 q_rc i)).
  { intros q Hq i Hi. unfold q_rows in Hq. unfold h5_tab. rewrite Z.eqb_refl. rewrite (proj2 (Z.ltb_ge _ 8)) by lia.
    rewrite (proj2 (Z.eqb_neq _ 8)), (proj2 (Z.eqb_neq _ 9)) by lia. rewrite q_rc_K. destruct Hq as [-> | ->].
    - rewrite (proj2 (Z.ltb_lt _ 1125)) by lia. do 2 f_equal. symmetry. apply (Z.div_unique _ _ _ 0); lia.
    - rewrite (proj2 (Z.ltb_ge _ 1125)) by lia. do 2 f_equal. symmetry. apply (Z.div_unique _ _ _ 0); lia. }
  apply in_app_or in H. destruct H as [H|H]; [|apply in_app_or in H; destruct H as [H|H]].
  - destruct (q_set_only _ _ _ _ _ _ _ _ H) as [i [Hi [-> [-> ->]]]]. apply X; [left; reflexivity|exact Hi].
  - destruct (q_set_only _ _ _ _ _ _ _ _ H) as [i [Hi [-> [-> ->]]]]. apply X; [right; reflexivity|exact Hi].
  - exfalso. unfold u_copies in H. apply in_app_or in H. destruct H as [H|H].
    + apply in_flat_map in H. destruct H as [i [_ H]]. apply in_map_iff in H. destruct H as [q [E _]]. discriminate.
    + apply in_app_or in H. destruct H as [[H|[]]|H]; [discriminate|]. apply in_map_iff in H. destruct H as [q [E _]]. discriminate.
Qed.
Lemma h5_limbs_ex : forall col a, 0 <= a < 20 -> h5_limbs h5_in (h5_tab col) a = a + 1.
Proof. intros col a Ha. unfold h5_limbs, h5_in. change (vval (h5_tab col) (pin a)) with (ofZ (a + 1) : F Ppallas). apply fval_ofZ_small. assert (2 ^ 180 < char Ppallas) by reflexivity. lia. Qed.
Example h5_base_ex : forall col, h5_base Ppallas (h5_comp col) h5_in 0 (h5_tab col).
Proof.
  intros col. split; [reflexivity|]. split; [apply h5_comp_wf|]. split; [|apply h5_consts].
  intros a Ha. split; [intros [X _]; discriminate|]. change (h5_limbs h5_in (h5_tab col) a < 2 ^ h5_bits a). rewrite h5_limbs_ex by exact Ha.
  revert a Ha. apply zcases20. intros i Hi. cbn in Hi. repeat (destruct Hi as [<-|Hi]; [reflexivity|]). destruct Hi.
Qed.
Example h5_cols_ex : h5_cols (h5_comp 0).
Proof. split; [|reflexivity]. intros i Hi. assert (X : i = 0 \/ i = 1 \/ i = 2 \/ i = 3) by lia. destruct X as [->|[->|[->| ->]]]; reflexivity. Qed.

Lemma h5_msg_ext : forall R R', (forall a, 0 <= a < 20 -> R a = R' a) -> h5_msg R = h5_msg R'.
Proof. intros R R' H. unfold h5_msg, h5_num. rewrite !H by lia. reflexivity. Qed.
Definition h5_ex : Z := h5_msg (fun a => a + 1).
Definition h5_mid : list Z := Eval vm_compute in s5_compress s5_iv (map (h5_word h5_ex) (zseq 0 16)).
Definition h5_second : list Z := Eval vm_compute in map (h5_word h5_ex) (zseq 16 32).
Definition h5_nopad : list Z := Eval vm_compute in [h5_word h5_ex 16; h5_word h5_ex 17; h5_word h5_ex 18; 80; 0; 0; 0; 0; 0; 0; 0; 0; 0; 0; 0; 1276].
Lemma h5_mid_is : s5_compress s5_iv (map (h5_word h5_ex) (zseq 0 16)) = h5_mid.
Proof. vm_compute. reflexivity. Qed.
Lemma h5_second_is : map (h5_word h5_ex) (zseq 16 32) = h5_second.
Proof. vm_compute. reflexivity. Qed.
Definition h5_result : list Z :=
  [12032614517450146629; 7055479519212484464; 2170853772527646592; 1291469747946875996;
   2009258758649311613; 1172800256830272178; 506858712554332582; 4101284083674637765].
Lemma h5_result_is : s5_compress h5_mid h5_second = h5_result.
Proof. vm_compute. reflexivity. Qed.
Lemma h5_hash_ex : h5_hash h5_ex = h5_result.
Proof. unfold h5_hash. rewrite h5_mid_is, h5_second_is. exact h5_result_is. Qed.
Example sha512_hash_example : forall L, let T' := u_assign (h5_comp 0) h5_in 0 (h5_tab 0) in
  sat L T' (u_circuit (h5_comp 0) h5_in 0) /\ map (fun i => fval (vval T' (u_out (h5_comp 0) 0 i))) (zseq 0 8) = h5_result.
Proof.
  intros L T'. destruct (sha512_hash_complete _ L _ _ _ _ (h5_base_ex 0) h5_cols_ex) as [S [_ O]]. split; [exact S|].
  rewrite <- h5_hash_ex. unfold T', h5_ex. rewrite O. rewrite (h5_msg_ext _ (fun a => a + 1) (h5_limbs_ex 0)). reflexivity.
Qed.

(** With the padding bit removed: the outputs are not the hash of the inputs. *)
Lemma h5_nopad_ne : s5_compress h5_mid h5_nopad <> h5_result.
Proof. vm_compute. discriminate. Qed.
Theorem sha512_hash_sound_refuted : exists T' : table Ppallas, forall L,
  sat L T' (u_circuit (h5_comp 0) h5_in 0) /\ (forall a, 0 <= a < 20 -> h5_limbs h5_in T' a = a + 1) /\
  map (fun i => fval (vval T' (u_out (h5_comp 0) 0 i))) (zseq 0 8) <> h5_hash (h5_msg (fun a => a + 1)).
Proof.
  destruct (sha512_hash_words_refuted _ _ _ _ _ (h5_word h5_ex 18) 80 (h5_base_ex 0) h5_cols_ex) as [T' H]; [apply Z.mod_pos_bound; reflexivity|lia|].
  exists T'. intros L. destruct (H L) as [S [Fr O]]. split; [exact S|]. split.
  - intros a Ha. rewrite <- (h5_limbs_ex 0 a Ha). unfold h5_limbs, vval. rewrite Fr; [reflexivity|]. intros [X _]. discriminate.
  - rewrite O. fold h5_ex. rewrite h5_hash_ex. rewrite (h5_msg_ext _ (fun a => a + 1) (h5_limbs_ex 0)). fold h5_ex. rewrite h5_mid_is.
    exact h5_nopad_ne.
Qed.
Print Assumptions sha512_hash_sound_refuted.

(** The circuit takes the words from the columns of these indices whatever the
    component's columns: with another constant column the assigned table is
    rejected as soon as the initial state is not in the constant column 0. *)
Lemma hash_state_cell : forall P c b row (T : table P), wf_comp c 9 -> consts_in T (u_circuit c b row) ->
  u_assign c b row T CWit (W c 0) (row + 15 + 1106) = ofZ (znth 0 s5_iv 0).
Proof.
  intros P c b row T wf K. unfold u_assign, u_hash. set (T1 := put c row 15 _ T). set (T2 := q_assign _ _ _ (row + 15) T1).
  transitivity (T2 CWit (W c 0) (row + 15 + 1106)); [apply (put_frame P (sh_sub c)); intros [_ [_ X]]; unfold q_rows in X; lia|].
  rewrite <- (sub_W c 0 wf). unfold T2, q_assign. cbv zeta.
  assert (E : fval (vval T1 (u_st1 row (C c 0) 0)) = fval (ofZ (znth 0 s5_iv 0) : F P)).
  { f_equal. unfold vval, u_st1, ccell. cbn [vty vidx vrot]. transitivity (T CConst (C c 0) (row + 0)); [apply (put_frame P c); intros [X _]; discriminate|].
    apply K. unfold u_circuit. apply in_or_app. left. unfold u_consts. apply in_or_app. left. apply in_map_iff. exists 0. split; [reflexivity|apply in_zseq; lia]. }
  apply (put_at P); [apply sub_wf, wf|unfold q_rows; lia|lia|].
  transitivity (Some (ofZ (fval (vval T1 (u_st1 row (C c 0) 0))) : F P)); [reflexivity|]. rewrite E, ofZ_fval. reflexivity.
Qed.
Theorem sha512_hash_columns_refuted : forall P L c b row (T : table P), wf_comp c 9 -> consts_in T (u_circuit c b row) ->
  T CConst 0 row <> ofZ (znth 0 s5_iv 0) -> ~ sat L (u_assign c b row T) (u_circuit c b row).
Proof.
  intros P L c b row T wf K N S. apply N. rewrite <- (hash_state_cell P c b row T wf K).
  assert (X : holds L (u_assign c b row T) (Copy (wcell (W (sh_sub c) 0) (row + 15 + 1106)) (u_st1 row 0 0))).
  { apply S. unfold u_circuit. rewrite !in_app_iff. right. right. left. unfold q_circuit, q_copies. rewrite !in_app_iff.
    do 2 right. do 7 right. left. reflexivity. }
  cbn [holds] in X. unfold vval, wcell, u_st1, ccell in X. cbn [vty vidx vrot] in X. rewrite (sub_W c 0 wf) in X. rewrite X.
  rewrite Z.add_0_r. unfold u_assign, u_hash. set (T1 := put c row 15 _ T). set (T2 := q_assign _ _ _ (row + 15) T1). symmetry.
  transitivity (T2 CConst 0 row); [apply (put_frame P (sh_sub c)); intros [Y _]; discriminate|].
  transitivity (T1 CConst 0 row); [apply (put_frame P (sh_sub c)); intros [Y _]; discriminate|].
  apply (put_frame P c). intros [Y _]. discriminate.
Qed.
Print Assumptions sha512_hash_columns_refuted.
Example sha512_hash_columns_example : forall L col, col <> 0 ->
  h5_base Ppallas (h5_comp col) h5_in 0 (h5_tab col) /\
  ~ sat L (u_assign (h5_comp col) h5_in 0 (h5_tab col)) (u_circuit (h5_comp col) h5_in 0).
Proof.
  intros L col N. split; [apply h5_base_ex|]. apply sha512_hash_columns_refuted; [apply h5_comp_wf|apply h5_consts|].
  unfold h5_tab. rewrite (proj2 (Z.eqb_neq 0 col)) by lia. intros E. apply (f_equal (@fval Ppallas)) in E. vm_compute in E. discriminate.
Qed.

(** ** The padding of the standard *)

(** FIPS 180-4: the bits of the message, a one, zeros; words of 64 bits, the
    first bit the most significant. *)
Definition fips_word (bits : list bool) (i : Z) : Z :=
  fold_left (fun x (t : bool) => 2 * x + (if t then 1 else 0)) (firstn 64 (skipn (Z.to_nat (64 * i)) bits)) 0.
Definition fips_bits (m : list bool) : list bool := m ++ true :: repeat false 643.
Lemma fips_19 : forall m, zlen m = 1276 -> fips_word (fips_bits m) 19 mod 16 = 8.
Proof.
  intros m H. unfold fips_word, fips_bits. change (64 * 19) with 1216.
  assert (Lm : length m = Z.to_nat 1276) by (unfold zlen in H; lia).
  rewrite skipn_app. rewrite Lm. replace (Z.to_nat 1216 - Z.to_nat 1276)%nat with 0%nat by lia. cbn [skipn].
  rewrite firstn_app. assert (Ls : length (skipn (Z.to_nat 1216) m) = 60%nat) by (rewrite skipn_length; lia).
  rewrite firstn_all2 by lia. rewrite Ls. change (64 - 60)%nat with 4%nat. cbn [firstn repeat]. rewrite fold_left_app. cbn [fold_left].
  match goal with |- (2 * (2 * (2 * (2 * ?x + 1) + 0) + 0) + 0) mod 16 = 8 => replace (2 * (2 * (2 * (2 * x + 1) + 0) + 0) + 0) with (8 + x * 16) by lia end.
  rewrite Z_mod_plus_full. reflexivity.
Qed.
(** The bits are put the other way round in each word, so that the words hashed
    for these inputs are not those of any message of the length 1276. *)
Theorem sha512_hash_padding_refuted : forall m, zlen m = 1276 ->
  map (fips_word (fips_bits m)) (zseq 16 20) <> map (h5_word (h5_msg (fun a => a + 1))) (zseq 16 20).
Proof.
  intros m H E. apply (f_equal (fun l => znth 0 l 3)) in E.
  change (fips_word (fips_bits m) 19 = h5_word (h5_msg (fun a => a + 1)) 19) in E.
  apply (f_equal (fun x => x mod 16)) in E. rewrite (fips_19 m H) in E. vm_compute in E. discriminate.
Qed.
Print Assumptions sha512_hash_padding_refuted.
