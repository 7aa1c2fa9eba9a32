(** zkevm_bytecode: what every satisfying table contains, what it may contain
    nevertheless, and when the assignment is accepted. *)
From Coq Require Import ZArith List Lia Bool Field.
From Verif Require Import Base Field Plonk PlonkFacts Examples BytecodeSpec BytecodeModel BytecodeProofs BytecodeRows.
Import ListNotations.
Open Scope Z_scope.

Section Sound.
Variable P : params.
Notation F := (F P).
Notation table := (table P).

(** A header on row [h] followed by exactly [m] byte rows. *)
Definition contract_at (c : comp) (T : table) (h m : Z) : Prop :=
  T CWit (W c TAG) h = f0 /\ (forall i, 1 <= i <= m -> T CWit (W c TAG) (h + i) = f1) /\ T CWit (W c TAG) (h + m + 1) = f0.

(** C87 *)
Theorem bytecode_sound : forall c (T : table) n row h m, 256 <= char P ->
  sat bc_lenv T (bc_circuit c n row) ->
  row <= h -> 1 <= m -> h + m < row + n -> m < char P -> contract_at c T h m ->
  exists bytes k, zlen bytes = m /\ Forall is_byte bytes /\ 1 <= k <= m /\
    let hi := T CWit (W c HASH_HI) h in let lo := T CWit (W c HASH_LO) h in
    bc_entry c T h = header_entry hi lo m /\
    (forall i, 0 <= i < m ->
       bc_entry c T (h + 1 + i) = byte_entry hi lo i (znth 0 bytes i) ((i <? k) && znth false (code_marks bytes) i)) /\
    (forall i, 0 <= i < k -> znth false (code_marks bytes) i = true -> defined_op (znth 0 bytes i)) /\
    T CWit (W c VALUE_RLC) (h + m) = rlc_sum (T CWit (W c RLC_CHALLENGE) h) (map ofZ bytes).
Proof.
  intros c T n row h m Hp S Hh Hm Hn Hmp [T0 [T1 T2]]. rewrite bc_view in S.
  assert (Hok : forall r, h <= r <= h + m -> row_ok P c T r) by (intros; apply S; lia).
  pose proof (s_marks P c T h m Hm Hok T0 T1 Hp Hmp m ltac:(lia) ltac:(lia)) as I.
  assert (K : exists k, 1 <= k <= m /\ forall i, 0 <= i < m -> cell P c T IS_OPCODE (h + (i + 1)) = fbit ((i <? k) && mark P c T h m i)).
  { destruct I as [[I _]|[k [Hk [I _]]]].
    - exists m. split; [lia|]. intros i Hi. rewrite (proj2 (Z.ltb_lt i m)) by lia. apply I. lia.
    - exists k. split; [lia|]. exact I. }
  destruct K as [k [Hk K]]. exists (s_bytes P c T h m), k.
  assert (HB : forall i, 0 <= i < m -> is_byte (znth 0 (s_bytes P c T h m) i)).
  { intros i Hi. rewrite s_bytes_nth by lia. apply (s_byte P c T h m Hok T1 Hp i Hi). }
  assert (Lb : zlen (s_bytes P c T h m) = m) by (unfold zlen; rewrite s_bytes_len; lia).
  repeat apply conj; try assumption; try lia.
  - apply Forall_forall. intros b Hb. destruct (In_nth _ _ 0 Hb) as [i [Hi E]]. rewrite <- E.
    rewrite s_bytes_len in Hi. replace i with (Z.to_nat (Z.of_nat i)) by lia. apply HB. lia.
  - unfold bc_entry, header_entry. cbn [map]. pose proof (Hok h ltac:(lia)) as O. unfold row_ok in O.
    pose proof (s_length P c T h m Hm Hok T0 T1 T2) as L. rewrite Z.add_0_r in L.
    pose proof (tag0_eq P _ _ T0 (k1 P _ _ _ O)) as E1. pose proof (tag0_eq P _ _ T0 (k8 P _ _ _ O)) as E2.
    unfold cell, cols in *. unfold cell in *. rewrite T0, E1, E2, L. reflexivity.
  - intros i Hi. unfold bc_entry, byte_entry. cbn [map]. replace (h + 1 + i) with (h + (i + 1)) by lia.
    specialize (K i Hi). pose proof (s_index P c T h m Hm Hok T0 T1 i ltac:(lia) ltac:(lia)) as E1.
    destruct (s_hash P c T h m Hok T1 (i + 1) ltac:(lia) ltac:(lia)) as [E2 [E3 _]].
    pose proof (s_bytes_nth P c T h m i Hi) as E4. rewrite E4.
    unfold cell in *. rewrite (T1 (i + 1)), K, E1, E2, E3, ofZ_fval, !Z.add_0_r by lia. reflexivity.
  - intros i Hi M. assert (Op : cell P c T IS_OPCODE (h + (i + 1)) = f1).
    { rewrite K by lia. rewrite (proj2 (Z.ltb_lt i k)) by lia. unfold mark. rewrite M. reflexivity. }
    destruct (s_op P c T h m Hok T1 i ltac:(lia)) as [[_ [_ [b [D [R [V _]]]]]]|[O _]].
    + rewrite s_bytes_nth by lia. rewrite V, fval_ofZ_small by lia. exact D.
    + rewrite Op in O. exfalso. exact (f1_neq_f0 P O).
  - pose proof (s_rlc P c T h m Hm Hok T0 T1 m ltac:(lia) ltac:(lia)) as R. unfold cell in R. rewrite R, Z.add_0_r. f_equal.
    unfold s_bytes. rewrite map_map. apply map_ext. intros j. rewrite ofZ_fval. reflexivity.
Qed.

(** If moreover the push counter is at most 32 on the contract's rows, the marks
    are exactly the Ethereum ones. *)
Theorem bytecode_sound_marks : forall c (T : table) n row h m, 256 <= char P ->
  sat bc_lenv T (bc_circuit c n row) ->
  row <= h -> 1 <= m -> h + m < row + n -> m + 32 < char P -> contract_at c T h m ->
  (forall i, 1 <= i <= m -> fval (T CWit (W c PUSH_SIZE) (h + i)) <= 32) ->
  exists bytes, zlen bytes = m /\ Forall is_byte bytes /\ code_defined bytes /\
    map (bc_entry c T) (zseq h (h + 1 + m)) = contract_entries (T CWit (W c HASH_HI) h) (T CWit (W c HASH_LO) h) bytes.
Proof.
  intros c T n row h m Hp S Hh Hm Hn Hmp CA HS.
  destruct (bytecode_sound c T n row h m Hp S Hh Hm Hn ltac:(lia) CA) as [bytes [k [Lb [HB [Hk [E0 [E1 [D _]]]]]]]].
  assert (Mk : forall i, 0 <= i < m -> znth false (code_marks bytes) i = (i <? k) && znth false (code_marks bytes) i).
  { destruct CA as [T0 [T1 T2]]. pose proof S as S'. rewrite bc_view in S'.
    assert (Hok : forall r, h <= r <= h + m -> row_ok P c T r) by (intros; apply S'; lia).
    assert (Eb : bytes = s_bytes P c T h m).
    { apply (nth_ext _ _ 0 0); [rewrite s_bytes_len; unfold zlen in Lb; lia|]. intros j Hj.
      pose proof (s_bytes_nth P c T h m (Z.of_nat j)) as A. unfold znth in A. rewrite Nat2Z.id in A. rewrite A by (unfold zlen in Lb; lia).
      specialize (E1 (Z.of_nat j) ltac:(unfold zlen in Lb; lia)). apply (f_equal (fun l => fval (nth 2 l f0))) in E1.
      unfold bc_entry, byte_entry in E1. cbn [map nth] in E1. unfold znth in E1 at 1. rewrite Nat2Z.id in E1.
      rewrite fval_ofZ_small in E1.
      - rewrite <- E1. unfold cell. do 2 f_equal. lia.
      - rewrite Forall_forall in HB. specialize (HB (nth j bytes 0) (nth_In _ _ Hj)). unfold is_byte in HB. lia. }
    pose proof (s_marks P c T h m Hm Hok T0 T1 Hp ltac:(lia) m ltac:(lia) ltac:(lia)) as I.
    assert (I' : forall j, 0 <= j < m -> cell P c T IS_OPCODE (h + (j + 1)) = fbit (znth false (code_marks bytes) j)).
    { destruct I as [[I _]|[k' [Hk' [_ [_ I]]]]].
      - intros j Hj. rewrite (I j Hj). unfold mark. rewrite <- Eb. reflexivity.
      - exfalso. specialize (HS m ltac:(lia)). unfold cell in I. rewrite I in HS.
        replace (ofZ (k' - m) : F) with (ofZ (char P - (m - k')) : F) in HS.
        + rewrite fval_ofZ_small in HS by lia. lia.
        + apply ofZ_mod. replace (char P - (m - k')) with (k' - m + 1 * char P) by lia. apply Z.mod_add. lia. }
    intros i Hi. specialize (E1 i Hi). apply (f_equal (fun l => nth 3 l f0)) in E1. unfold bc_entry, byte_entry in E1. cbn [map nth] in E1.
    replace (h + 1 + i) with (h + (i + 1)) in E1 by lia. specialize (I' i Hi). unfold cell in I'. rewrite I' in E1.
    destruct (znth false (code_marks bytes) i), (i <? k); cbn [andb fbit] in *; try reflexivity. exfalso. exact (f1_neq_f0 P E1). }
  exists bytes. split; [exact Lb|]. split; [exact HB|]. split.
  - intros i Hi M. rewrite Lb in Hi. apply D; [|exact M]. pose proof (Mk i Hi) as A. rewrite M in A. destruct (Z.ltb_spec i k); [lia|discriminate].
  - rewrite zseq_cons by lia. cbn [map]. unfold contract_entries. rewrite Lb. f_equal; [exact E0|].
    assert (Sh : forall q, 0 <= q -> zseq (h + 1) (h + 1 + q) = map (fun i => h + 1 + i) (zseq 0 q)).
    { apply (natlike_ind (fun q => zseq (h + 1) (h + 1 + q) = map (fun i => h + 1 + i) (zseq 0 q))).
      - rewrite !zseq_nil by lia. reflexivity.
      - intros q Hq IH. unfold Z.succ. rewrite Z.add_assoc, !zseq_snoc, map_app, IH by lia. reflexivity. }
    rewrite Sh, map_map by lia. apply map_ext_in. intros i Hi. apply in_zseq in Hi. rewrite (E1 i Hi), <- (Mk i Hi). reflexivity.
Qed.

(** Every byte row belongs to a contract, if the region starts with a header
    and the row below it is no byte row. *)
Theorem bytecode_rows_covered : forall c (T : table) n row r,
  sat bc_lenv T (bc_circuit c n row) -> T CWit (W c TAG) row = f0 -> T CWit (W c TAG) (row + n) = f0 ->
  row <= r < row + n ->
  T CWit (W c TAG) r = f0 \/
  exists h m, row <= h /\ 1 <= m /\ h + m < row + n /\ h < r <= h + m /\ contract_at c T h m.
Proof.
  intros c T n row r S H0 Hn Hr. rewrite bc_view in S.
  assert (Tg : forall x, row <= x <= row + n -> T CWit (W c TAG) x = f0 \/ T CWit (W c TAG) x = f1).
  { intros x Hx. destruct (Z.eq_dec x (row + n)) as [->|N]; [left; exact Hn|].
    pose proof (k0 P _ _ _ (S x ltac:(lia))) as E. unfold cols, cell in E. destruct (fmul_integral P _ _ E) as [A|A]; [left; exact A|right].
    apply fsub_eq0. exact A. }
  destruct (Tg r ltac:(lia)) as [A|A]; [left; exact A|right].
  assert (Up : forall d, 0 <= d -> d <= r - row -> (exists h, r - d <= h < r /\ T CWit (W c TAG) h = f0 /\ forall x, h < x <= r -> T CWit (W c TAG) x = f1) \/
                (forall x, r - d <= x <= r -> T CWit (W c TAG) x = f1)).
  { apply (natlike_ind (fun d => d <= r - row -> (exists h, r - d <= h < r /\ T CWit (W c TAG) h = f0 /\ forall x, h < x <= r -> T CWit (W c TAG) x = f1) \/
                (forall x, r - d <= x <= r -> T CWit (W c TAG) x = f1))).
    - intros _. right. intros x Hx. replace x with r by lia. exact A.
    - intros d Hd IH L. unfold Z.succ in *. destruct (IH ltac:(lia)) as [[h [B D]]|B].
      + left. exists h. split; [lia|exact D].
      + destruct (Tg (r - (d + 1)) ltac:(lia)) as [E|E].
        * left. exists (r - (d + 1)). split; [lia|]. split; [exact E|]. intros x Hx. apply B. lia.
        * right. intros x Hx. destruct (Z.eq_dec x (r - (d + 1))) as [->|N]; [exact E|]. apply B. lia. }
  assert (Dn : forall d, 0 <= d -> d <= row + n - r -> (exists e, r < e <= r + d /\ T CWit (W c TAG) e = f0 /\ forall x, r <= x < e -> T CWit (W c TAG) x = f1) \/
                (forall x, r <= x <= r + d -> T CWit (W c TAG) x = f1)).
  { apply (natlike_ind (fun d => d <= row + n - r -> (exists e, r < e <= r + d /\ T CWit (W c TAG) e = f0 /\ forall x, r <= x < e -> T CWit (W c TAG) x = f1) \/
                (forall x, r <= x <= r + d -> T CWit (W c TAG) x = f1))).
    - intros _. right. intros x Hx. replace x with r by lia. exact A.
    - intros d Hd IH L. unfold Z.succ in *. destruct (IH ltac:(lia)) as [[h [B D]]|B].
      + left. exists h. split; [lia|exact D].
      + destruct (Tg (r + (d + 1)) ltac:(lia)) as [E|E].
        * left. exists (r + (d + 1)). split; [lia|]. split; [exact E|]. intros x Hx. apply B. lia.
        * right. intros x Hx. destruct (Z.eq_dec x (r + (d + 1))) as [->|N]; [exact E|]. apply B. lia. }
  assert (N10 : (f1 : F) <> f0) by apply f1_neq_f0.
  destruct (Up (r - row) ltac:(lia) ltac:(lia)) as [[h [Hh [Th Ah]]]|B]; [|exfalso; apply N10; rewrite <- (B row) by lia; exact H0].
  destruct (Dn (row + n - r) ltac:(lia) ltac:(lia)) as [[e [He [Te Ae]]]|B]; [|exfalso; apply N10; rewrite <- (B (row + n)) by lia; exact Hn].
  exists h, (e - h - 1). repeat apply conj; try lia.
  - exact Th.
  - intros i Hi. destruct (Z.leb_spec (h + i) r); [apply Ah|apply Ae]; lia.
  - replace (h + (e - h - 1) + 1) with e by lia. exact Te.
Qed.

End Sound.

Section Complete.
Variable P : params.
Notation F := (F P).
Notation table := (table P).

(** The unused rows are zero, the row above is no byte row, and the row below
    is no part of a contract. *)
Definition unused_clean (c : comp) (T : table) (n row used : Z) : Prop :=
  T CWit (W c TAG) (row - 1) = f0 /\
  (forall k r, 0 <= k < 10 -> row + used <= r < row + n -> T CWit (W c k) r = f0) /\
  T CWit (W c TAG) (row + n) = f0 /\ T CWit (W c INDEX) (row + n) = f0 /\ T CWit (W c IS_OPCODE) (row + n) = f0.

Definition total (cs : list (contract P)) : Z := fold_right Z.add 0 (map (fun x => zlen (coBytes P x) + 1) cs).
Definition all_entries (cs : list (contract P)) : list (list F) :=
  List.concat (map (fun x => contract_entries (coHi P x) (coLo P x) (coBytes P x)) cs).
Definition good_contract (x : contract P) : Prop := Forall is_byte (coBytes P x) /\ code_defined (coBytes P x).

(** The input variables hold the contracts: the length, then the bytes. *)
Definition holds_contracts (T : table) (inp : bc_input) (cs : list (contract P)) : Prop :=
  bc_values T inp = map (contract_values P) cs.

Lemma cl_bytes_len : forall l ch hi lo j push rlc len, zlen (cl_bytes P ch hi lo j push rlc len l) = zlen l.
Proof. induction l as [|x l IH]; intros; [reflexivity|]. cbn [cl_bytes]. rewrite !zlen_cons, IH. reflexivity. Qed.
Lemma zlen_combine : forall bytes, zlen (combine bytes (code_marks bytes)) = zlen bytes.
Proof. intros bytes. unfold zlen. rewrite combine_length. unfold code_marks. rewrite marks_length. f_equal. lia. Qed.
Lemma zlen_app' : forall A (a b : list A), zlen (a ++ b) = zlen a + zlen b.
Proof. intros. unfold zlen. rewrite app_length. lia. Qed.
Lemma rows_len : forall ch cs, zlen (claim_rows P ch (map (contract_claim P) cs)) = total cs.
Proof.
  intros ch. induction cs as [|x cs IH]; [reflexivity|]. unfold claim_rows, total in *. cbn [map List.concat fold_right].
  rewrite zlen_app', IH. unfold cl_contract, contract_claim. cbn [clL]. rewrite zlen_cons, cl_bytes_len, zlen_combine. reflexivity.
Qed.
Lemma rows_entries : forall ch cs, map (six P) (claim_rows P ch (map (contract_claim P) cs)) = all_entries cs.
Proof.
  intros ch. induction cs as [|x cs IH]; [reflexivity|]. unfold claim_rows, all_entries in *. cbn [map List.concat].
  rewrite map_app, IH. f_equal. cbn [contract_claim clHi clLo clV clL]. rewrite six_contract. unfold contract_entries, header_entry. f_equal.
  rewrite zlen_combine. apply map_ext. intros i. rewrite znth_combine by (unfold code_marks; rewrite marks_length; reflexivity). reflexivity.
Qed.
Lemma good_claim : forall x, good_contract x -> claim_ok P (contract_claim P x).
Proof.
  intros x [HB HD]. split; cbn [contract_claim clL clV].
  - destruct (Nat.eq_dec (length (coBytes P x)) 0) as [E|E].
    + destruct (coBytes P x); [|discriminate]. repeat split. constructor.
    + replace (code_marks (coBytes P x)) with (cut (length (coBytes P x)) (code_marks (coBytes P x)))
        by (apply cut_all; unfold code_marks; rewrite marks_length; lia).
      apply legal_contract_cut; [lia|exact HB|]. intros i Hi M. specialize (HD (Z.of_nat i)). unfold znth in HD. rewrite Nat2Z.id in HD.
      apply HD; [unfold zlen; lia|exact M].
  - right. rewrite zlen_combine. reflexivity.
Qed.

(** C89 *)
Theorem bytecode_complete : forall c w n row (T : table) inp ch cs,
  256 <= char P -> wf_comp c w -> 10 <= w -> holds_contracts T inp cs -> Forall good_contract cs ->
  total cs <= n -> unused_clean c T n row (total cs) ->
  let T' := bc_assign c inp ch row T in
  sat bc_lenv T' (bc_circuit c n row) /\ frame c (total cs) row T T' /\
  map (bc_entry c T') (zseq row (row + total cs)) = all_entries cs.
Proof.
  intros c w n row T inp ch cs Hp wf Hw Hv Hg Hn Hc T'.
  assert (E : bc_rows (vval T ch) (bc_values T inp) = claim_rows P (vval T ch) (map (contract_claim P) cs)).
  { unfold holds_contracts in Hv. rewrite Hv. apply honest_rows; [exact Hp|]. revert Hg. apply Forall_impl. intros x [A _]. exact A. }
  unfold T', bc_assign. rewrite E. rewrite <- (rows_len (vval T ch) cs) in *. repeat apply conj.
  - apply (accept P c w); try assumption. apply Forall_map. revert Hg. apply Forall_impl. exact good_claim.
  - apply put_rows_frame.
  - rewrite (put_entries P c w) by assumption. apply rows_entries.
Qed.

(** C88.  The table can be filled with any contracts under any hashes, whatever
    the inputs are. *)
Theorem bytecode_any_contracts_refuted : forall c w n row (T : table) (cs : list (contract P)),
  256 <= char P -> wf_comp c w -> 10 <= w -> Forall good_contract cs -> total cs <= n -> unused_clean c T n row (total cs) ->
  exists T', frame c (total cs) row T T' /\ sat bc_lenv T' (bc_circuit c n row) /\
    map (bc_entry c T') (zseq row (row + total cs)) = all_entries cs.
Proof.
  intros c w n row T cs Hp wf Hw Hg Hn Hc. exists (put_rows c row (claim_rows P f0 (map (contract_claim P) cs)) T).
  rewrite <- (rows_len f0 cs) in *. repeat apply conj.
  - apply put_rows_frame.
  - apply (accept P c w); try assumption. apply Forall_map. revert Hg. apply Forall_impl. exact good_claim.
  - rewrite (put_entries P c w) by assumption. apply rows_entries.
Qed.

Lemma zlen_combine_cut : forall bytes k, zlen (combine bytes (cut k (code_marks bytes))) = zlen bytes.
Proof. intros bytes k. unfold zlen. rewrite combine_length, cut_length. unfold code_marks. rewrite marks_length. f_equal. lia. Qed.

(** All instructions from any position [k >= 1] on can be hidden. *)
Theorem bytecode_hidden_code_refuted : forall c w n row (T : table) hi lo bytes k,
  256 <= char P -> wf_comp c w -> 10 <= w -> good_contract (mkContract P hi lo bytes) -> 1 <= k ->
  zlen bytes + 1 <= n -> unused_clean c T n row (zlen bytes + 1) ->
  exists T', frame c (zlen bytes + 1) row T T' /\ sat bc_lenv T' (bc_circuit c n row) /\
    bc_entry c T' row = header_entry hi lo (zlen bytes) /\
    forall i, 0 <= i < zlen bytes ->
      bc_entry c T' (row + 1 + i) = byte_entry hi lo i (znth 0 bytes i) ((i <? k) && znth false (code_marks bytes) i).
Proof.
  intros c w n row T hi lo bytes k Hp wf Hw [HB HD] Hk Hn Hc. cbn [coBytes] in *.
  set (l := combine bytes (cut (Z.to_nat k) (code_marks bytes))).
  set (cl := mkClaim P hi lo (ofZ (zlen bytes)) l).
  assert (Ll : zlen l = zlen bytes) by apply zlen_combine_cut.
  assert (Lr : zlen (claim_rows P f0 [cl]) = zlen bytes + 1).
  { unfold claim_rows. cbn [map List.concat]. rewrite app_nil_r. unfold cl_contract, cl. cbn [clL]. rewrite zlen_cons, cl_bytes_len, Ll. reflexivity. }
  exists (put_rows c row (claim_rows P f0 [cl]) T). rewrite <- Lr in Hn, Hc |- *.
  split; [apply put_rows_frame|]. split.
  { apply (accept P c w); try assumption. constructor; [|constructor]. split; cbn [cl clL clV].
    - apply legal_contract_cut; [lia|exact HB|]. intros i Hi M. destruct (Nat.lt_ge_cases i (length bytes)) as [L|L].
      + specialize (HD (Z.of_nat i)). unfold znth in HD. rewrite Nat2Z.id in HD. apply HD; [unfold zlen; lia|exact M].
      + rewrite nth_overflow in M by (unfold code_marks; rewrite marks_length; exact L). discriminate.
    - right. rewrite Ll. reflexivity. }
  pose proof (put_entries P c w row (claim_rows P f0 [cl]) T wf Hw) as E.
  assert (E2 : map (six P) (claim_rows P f0 [cl]) = header_entry hi lo (zlen bytes) ::
     map (fun i => byte_entry hi lo i (znth 0 bytes i) ((i <? k) && znth false (code_marks bytes) i)) (zseq 0 (zlen bytes))).
  { unfold claim_rows. cbn [map List.concat]. rewrite app_nil_r. rewrite six_contract. unfold cl. cbn [clHi clLo clV clL]. unfold header_entry. f_equal.
    rewrite Ll. apply map_ext_in. intros i Hi. apply in_zseq in Hi. unfold l.
    rewrite znth_combine by (rewrite cut_length; unfold code_marks; rewrite marks_length; reflexivity). cbn [fst snd]. f_equal.
    unfold znth. rewrite cut_nth. f_equal. destruct (Z.ltb_spec i k), (Nat.ltb_spec (Z.to_nat i) (Z.to_nat k)); lia || reflexivity. }
  rewrite E2, Lr in E. assert (Hz : 0 <= zlen bytes) by (unfold zlen; lia). split.
  - pose proof (f_equal (fun l => znth [] l 0) E) as A. cbv beta in A. rewrite znth_map_zseq in A by lia. rewrite Z.add_0_r in A. exact A.
  - intros i Hi. pose proof (f_equal (fun l => znth [] l (i + 1)) E) as A. cbv beta in A. rewrite znth_map_zseq in A by lia.
    rewrite znth_consS, znth_map_zseq in A by lia. replace (row + 1 + i) with (row + (i + 1)) by lia. exact A.
Qed.

(** A header with no bytes can carry any length. *)
Theorem bytecode_empty_length_refuted : forall c w n row (T : table) hi lo v,
  wf_comp c w -> 10 <= w -> 1 <= n -> unused_clean c T n row 1 ->
  exists T', frame c 1 row T T' /\ sat bc_lenv T' (bc_circuit c n row) /\ bc_entry c T' row = header_entry hi lo v /\
    forall r, row < r < row + n -> T' CWit (W c TAG) r = f0.
Proof.
  intros c w n row T hi lo v wf Hw Hn Hc. set (cl := mkClaim P hi lo (ofZ v) []).
  exists (put_rows c row (claim_rows P f0 [cl]) T). assert (Lr : zlen (claim_rows P f0 [cl]) = 1) by reflexivity.
  split; [exact (put_rows_frame P c row (claim_rows P f0 [cl]) T)|]. split.
  - apply (accept P c w); try assumption. constructor; [|constructor]. split; [repeat split; constructor|left; reflexivity].
  - split.
    + pose proof (put_entries P c w row (claim_rows P f0 [cl]) T wf Hw) as E. rewrite Lr in E.
      apply (f_equal (fun l => znth [] l 0)) in E. rewrite znth_map_zseq in E by lia. rewrite Z.add_0_r in E. exact E.
    + intros r Hr. unfold put_rows. rewrite put_out by (rewrite Lr; lia). destruct Hc as [_ [A _]]. apply A; [unfold TAG; lia|lia].
Qed.

(** Any defined instruction, at any index and for any hash, can be put into the
    table without a contract around it. *)
Theorem bytecode_orphan_refuted : forall c w n row (T : table) hi lo j b,
  256 <= char P -> wf_comp c w -> 10 <= w -> 1 <= n -> defined_op b -> unused_clean c T n row 0 ->
  exists T', frame c 1 row T T' /\ sat bc_lenv T' (bc_circuit c n row) /\ bc_entry c T' row = byte_entry hi lo j b true.
Proof.
  intros c w n row T hi lo j b Hp wf Hw Hn Hd Hc. eexists. split; [exact (put_rows_frame P c row [byte_row P (cell P c T RLC_CHALLENGE (row + -1)) hi lo j f0 (cell P c T VALUE_RLC (row + -1)) f1 (b, true)] T)|]. split.
  - apply (accept_orphan P c w n row T hi lo j b); try assumption. unfold is_byte. unfold defined_op in Hd. lia.
  - match goal with |- bc_entry c (put_rows c row ?rows T) row = _ => pose proof (put_entries P c w row rows T wf Hw) as E end.
    apply (f_equal (fun l => znth [] l 0)) in E. rewrite znth_map_zseq in E by (change (zlen [?x]) with 1; lia). rewrite Z.add_0_r in E. exact E.
Qed.

(** C90.  A contract that has an undefined instruction is rejected. *)
Theorem bytecode_undefined_rejected_refuted : forall c w n row (T : table) inp ch cs x i,
  256 <= char P -> wf_comp c w -> 10 <= w -> holds_contracts T inp cs -> Forall (fun x => Forall is_byte (coBytes P x)) cs -> total cs <= n ->
  In x cs -> 0 <= i < zlen (coBytes P x) -> znth false (code_marks (coBytes P x)) i = true -> ~ defined_op (znth 0 (coBytes P x) i) ->
  ~ sat bc_lenv (bc_assign c inp ch row T) (bc_circuit c n row).
Proof.
  intros c w n row T inp ch cs x i Hp wf Hw Hv HB Hn Hx Hi M D S.
  assert (E : bc_rows (vval T ch) (bc_values T inp) = claim_rows P (vval T ch) (map (contract_claim P) cs)).
  { unfold holds_contracts in Hv. rewrite Hv. apply honest_rows; assumption. }
  unfold bc_assign in S. rewrite E in S. pose proof (put_entries P c w row (claim_rows P (vval T ch) (map (contract_claim P) cs)) T wf Hw) as A.
  rewrite rows_entries, rows_len in A. rewrite bc_view in S.
  set (T' := put_rows c row (claim_rows P (vval T ch) (map (contract_claim P) cs)) T) in *.
  assert (I : In (byte_entry (coHi P x) (coLo P x) i (znth 0 (coBytes P x) i) true) (all_entries cs)).
  { unfold all_entries. apply in_concat. eexists. split; [apply in_map, Hx|]. unfold contract_entries. right. apply in_map_iff. exists i.
    rewrite M. split; [reflexivity|]. apply in_zseq. exact Hi. }
  rewrite <- A in I. apply in_map_iff in I. destruct I as [r [Er Hr]]. apply in_zseq in Hr. specialize (S r ltac:(lia)).
  destruct (ko P _ _ _ S) as [l [Hl K]]. unfold cols, cell in K. unfold bc_entry, byte_entry in Er. cbn [map] in Er.
  pose proof (f_equal (fun l => nth 2 l f0) Er) as V. pose proof (f_equal (fun l => nth 3 l f0) Er) as O. cbn [nth fbit] in V, O. rewrite V, O in K.
  rewrite Forall_forall in HB. specialize (HB x Hx). rewrite Forall_forall in HB.
  assert (Hb : is_byte (znth 0 (coBytes P x) i)) by (apply HB; unfold znth; apply nth_In; unfold zlen in Hi; lia). unfold is_byte in Hb.
  destruct (op_table_rows l Hl) as [->|[b [-> [Db Rb]]]]; cbn [map] in K.
  - apply (f_equal (fun l => nth 2 l f0)) in K. exact (f1_neq_f0 P K).
  - apply (f_equal (fun l => fval (nth 0 l f0))) in K. cbn [nth] in K. apply D.
    unfold fmul in K. rewrite (fval_ofZ_small P b) in K by lia. unfold f1 in K. rewrite !(fval_ofZ_small P) in K; rewrite ?(fval_ofZ_small P) by lia; try lia.
    rewrite ?(fval_ofZ_small P) in K by lia. replace (znth 0 (coBytes P x) i) with b by lia. exact Db.
Qed.

(** An unused row that is not clean is rejected. *)
Theorem bytecode_dirty_rejected_refuted : forall c w n row (T : table) inp ch cs r,
  256 <= char P -> wf_comp c w -> 10 <= w -> holds_contracts T inp cs -> Forall (fun x => Forall is_byte (coBytes P x)) cs ->
  row + total cs <= r < row + n -> T CWit (W c TAG) r <> f0 -> T CWit (W c TAG) r <> f1 ->
  ~ sat bc_lenv (bc_assign c inp ch row T) (bc_circuit c n row).
Proof.
  intros c w n row T inp ch cs r Hp wf Hw Hv HB Hr N0 N1 S.
  assert (E : bc_rows (vval T ch) (bc_values T inp) = claim_rows P (vval T ch) (map (contract_claim P) cs)).
  { unfold holds_contracts in Hv. rewrite Hv. apply honest_rows; assumption. }
  unfold bc_assign in S. rewrite E in S. rewrite bc_view in S.
  assert (H0 : 0 <= total cs) by (rewrite <- (rows_len f0 cs); unfold zlen; lia).
  pose proof (k0 P _ _ _ (S r ltac:(lia))) as K. unfold cols, cell, put_rows in K. rewrite put_out in K by (rewrite rows_len; lia).
  destruct (fmul_integral P _ _ K) as [A|A]; [exact (N0 A)|]. apply N1. apply fsub_eq0. exact A.
Qed.

(** If the contracts do not fit, the assignment can be accepted although the
    table has none of their bytes: a header on the last row. *)
Theorem bytecode_overflow_refuted : forall c w row (T : table) inp ch hi lo bytes,
  256 <= char P -> wf_comp c w -> 10 <= w -> 1 <= zlen bytes -> good_contract (mkContract P hi lo bytes) ->
  holds_contracts T inp [mkContract P hi lo bytes] -> T CWit (W c TAG) (row - 1) = f0 ->
  let T' := bc_assign c inp ch row T in
  1 < full_size inp /\ sat bc_lenv T' (bc_circuit c 1 row) /\ map (bc_entry c T') (zseq row (row + 1)) = [header_entry hi lo (zlen bytes)].
Proof.
  intros c w row T inp ch hi lo bytes Hp wf Hw Hm [HB HD] Hv Ht T'.
  set (x := mkContract P hi lo bytes) in *.
  assert (E : bc_rows (vval T ch) (bc_values T inp) = claim_rows P (vval T ch) (map (contract_claim P) [x])).
  { unfold holds_contracts in Hv. rewrite Hv. apply honest_rows; [exact Hp|]. constructor; [exact HB|constructor]. }
  set (rows := claim_rows P (vval T ch) (map (contract_claim P) [x])) in *.
  assert (Er : exists r1 rest, rows = [f0; f0; ofZ (zlen bytes); f0; hi; lo; f0; f0; ofZ (zlen bytes); vval T ch] :: r1 :: rest /\
     zrow P r1 TAG = f1 /\ zrow P r1 INDEX = f0 /\ zrow P r1 LENGTH_LEFT = fsub (ofZ (zlen bytes)) f1 /\ zrow P r1 HASH_HI = hi /\ zrow P r1 HASH_LO = lo /\ zrow P r1 IS_OPCODE = f1).
  { unfold rows, claim_rows. cbn [map List.concat]. rewrite app_nil_r. unfold contract_claim, x. cbn [clHi clLo clV clL coHi coLo coBytes].
    destruct bytes as [|b bytes]; [unfold zlen in Hm; cbn in Hm; lia|]. unfold cl_contract, code_marks. cbn [marks_from Z.eqb combine cl_bytes].
    do 2 eexists. split; [reflexivity|]. repeat split. }
  destruct Er as [r1 [rest [Er [R0 [R1 [R2 [R3 [R4 R5]]]]]]]].
  assert (Lr : 2 <= zlen rows) by (rewrite Er, !zlen_cons; unfold zlen; lia).
  assert (At : forall o k, 0 <= o < 2 -> 0 <= k < 10 -> cell P c T' k (row + o) = zrow P (znth [] rows o) k).
  { intros o k Ho Hk. unfold T', bc_assign, cell. rewrite E. apply (put_rows_at P c w); assumption || lia. }
  split; [|split].
  - unfold full_size. unfold holds_contracts in Hv. destruct inp as [|[vs hl] [|]]; try discriminate Hv.
    cbn [map fold_right fst]. unfold bc_values in Hv. cbn [map fst] in Hv.
    pose proof (f_equal (fun l => length (fst (hd ([], (f0, f0)) l))) Hv) as L. cbn [hd fst contract_values x coBytes length] in L.
    unfold contract_values in L. cbn [fst length] in L. rewrite !map_length in L. unfold x in L. cbn [coBytes] in L. unfold zlen in *. lia.
  - apply bc_view. intros r Hr. replace r with (row + 0) by lia. unfold row_ok.
    apply (ok3_ext P (cols P c T (row + -1)) (zrow P [f0; f0; ofZ (zlen bytes); f0; hi; lo; f0; f0; ofZ (zlen bytes); vval T ch]) (zrow P r1)).
    + intros k Hk. unfold cols. repeat apply conj.
      * unfold T', bc_assign, cell, put_rows. rewrite put_out by lia. f_equal. lia.
      * rewrite (At 0 k) by lia. rewrite Er. reflexivity.
      * replace (row + 0 + 1) with (row + 1) by lia. rewrite (At 1 k) by lia. rewrite Er. reflexivity.
    + apply header_ok; [left; exact Ht|exact R1|]. right. repeat split; assumption.
  - rewrite zseq_cons, zseq_nil by lia. cbn [map]. f_equal. unfold bc_entry.
    assert (A : forall k, 0 <= k < 10 -> T' CWit (W c k) row = zrow P [f0; f0; ofZ (zlen bytes); f0; hi; lo; f0; f0; ofZ (zlen bytes); vval T ch] k).
    { intros k Hk. pose proof (At 0 k ltac:(lia) Hk) as B. rewrite Z.add_0_r in B. unfold cell in B. rewrite B, Er. reflexivity. }
    cbn [map]. rewrite !A by (unfold TAG, INDEX, VALUE, IS_OPCODE, HASH_HI, HASH_LO; lia). reflexivity.
Qed.
End Complete.

(** ** Examples: PUSH1 1; STOP *)
Definition ex_code : list Z := [0x60; 1; 0].
Definition ex_co : contract P65537 := mkContract P65537 (ofZ 11) (ofZ 22) ex_code.
Definition ex_inp : bc_input := [([pin 0; pin 1; pin 2; pin 3], (pin 4, pin 5))].
Definition ex_T : table P65537 := intab P65537 [3; 0x60; 1; 0; 11; 22; 7].

Example code_marks_ex : code_marks ex_code = [true; false; true].
Proof. reflexivity. Qed.
Lemma ex_good : good_contract P65537 ex_co.
Proof.
  split.
  - repeat constructor; unfold is_byte; lia.
  - intros i Hi M. change (zlen (coBytes P65537 ex_co)) with 3 in Hi. assert (K : i = 0 \/ i = 1 \/ i = 2) by lia.
    destruct K as [->|[->| ->]]; [|discriminate M|]; unfold defined_op; [change (znth 0 (coBytes P65537 ex_co) 0) with 0x60|change (znth 0 (coBytes P65537 ex_co) 2) with 0]; lia.
Qed.
Lemma ex_clean : forall n row used, unused_clean P65537 (std_comp 11) ex_T n row used.
Proof. intros. repeat split; reflexivity. Qed.

Example bytecode_complete_ex : let T' := bc_assign (std_comp 11) ex_inp (pin 6) 0 ex_T in
  sat bc_lenv T' (bc_circuit (std_comp 11) 8 0) /\
  map (bc_entry (std_comp 11) T') (zseq 0 4) = all_entries P65537 [ex_co].
Proof.
  destruct (bytecode_complete P65537 (std_comp 11) 11 8 0 ex_T ex_inp (pin 6) [ex_co]) as [A [_ B]].
  - cbn. lia.
  - apply wf_std. lia.
  - lia.
  - reflexivity.
  - constructor; [exact ex_good|constructor].
  - cbn. lia.
  - apply ex_clean.
  - split; [exact A|exact B].
Qed.

(** The honest table meets the hypotheses of the soundness theorems. *)
Example bytecode_sound_ex : let T' := bc_assign (std_comp 11) ex_inp (pin 6) 0 ex_T in
  sat bc_lenv T' (bc_circuit (std_comp 11) 8 0) /\ contract_at P65537 (std_comp 11) T' 0 3 /\
  (forall i, 1 <= i <= 3 -> fval (T' CWit (W (std_comp 11) PUSH_SIZE) (0 + i)) <= 32) /\
  T' CWit (W (std_comp 11) TAG) 0 = f0 /\ T' CWit (W (std_comp 11) TAG) 8 = f0.
Proof.
  cbv zeta. split; [exact (proj1 bytecode_complete_ex)|].
  assert (K : forall i, 1 <= i <= 3 -> i = 1 \/ i = 2 \/ i = 3) by (intros; lia).
  split; [|split; [|split; apply F_ext; vm_compute; reflexivity]].
  - split; [apply F_ext; vm_compute; reflexivity|]. split; [|apply F_ext; vm_compute; reflexivity].
    intros i Hi. destruct (K i Hi) as [->|[->| ->]]; apply F_ext; vm_compute; reflexivity.
  - intros i Hi. destruct (K i Hi) as [->|[->| ->]]; vm_compute; discriminate.
Qed.

(** The STOP of the example hidden: the same bytes, with only the PUSH1 marked. *)
Theorem bytecode_hidden_stop_refuted : exists T', sat bc_lenv T' (bc_circuit (std_comp 11) 8 0) /\
  map (bc_entry (std_comp 11) T') (zseq 0 4) =
    [header_entry (ofZ 11 : F P65537) (ofZ 22) 3; byte_entry (ofZ 11) (ofZ 22) 0 0x60 true; byte_entry (ofZ 11) (ofZ 22) 1 1 false; byte_entry (ofZ 11) (ofZ 22) 2 0 false] /\
  znth false (code_marks ex_code) 2 = true.
Proof.
  destruct (bytecode_hidden_code_refuted P65537 (std_comp 11) 11 8 0 ex_T (ofZ 11) (ofZ 22) ex_code 2) as [T' [_ [S [E0 E]]]].
  - cbn. lia.
  - apply wf_std. lia.
  - lia.
  - exact ex_good.
  - lia.
  - cbn. lia.
  - apply ex_clean.
  - exists T'. split; [exact S|]. split; [|reflexivity]. change (zseq 0 4) with [0; 1; 2; 3]. cbn [map]. change (zlen ex_code) with 3 in *.
    pose proof (E 0 ltac:(lia)) as A0. pose proof (E 1 ltac:(lia)) as A1. pose proof (E 2 ltac:(lia)) as A2.
    change (0 + 1 + 0) with 1 in A0. change (0 + 1 + 1) with 2 in A1. change (0 + 1 + 2) with 3 in A2.
    rewrite E0, A0, A1, A2. reflexivity.
Qed.

(** Byte 0x0c is no instruction: the contract that consists of it is a legal
    contract, and rejected. *)
Definition ex_bad : contract P65537 := mkContract P65537 (ofZ 11) (ofZ 22) [0x0c].
Example bytecode_undefined_rejected_ex :
  let T := intab P65537 [1; 0x0c; 11; 22; 7] in let inp := [([pin 0; pin 1], (pin 2, pin 3))] in
  holds_contracts P65537 T inp [ex_bad] /\ ~ sat bc_lenv (bc_assign (std_comp 11) inp (pin 4) 0 T) (bc_circuit (std_comp 11) 8 0).
Proof.
  cbv zeta. assert (H : holds_contracts P65537 (intab P65537 [1; 0x0c; 11; 22; 7]) [([pin 0; pin 1], (pin 2, pin 3))] [ex_bad]) by reflexivity.
  split; [exact H|]. apply (bytecode_undefined_rejected_refuted P65537 (std_comp 11) 11 8 0 _ _ (pin 4) [ex_bad] ex_bad 0); try (exact H).
  - cbn. lia.
  - apply wf_std. lia.
  - lia.
  - repeat constructor; unfold is_byte; lia.
  - cbn. lia.
  - left. reflexivity.
  - cbn. lia.
  - reflexivity.
  - change (znth 0 (coBytes P65537 ex_bad) 0) with 0x0c. unfold defined_op. lia.
Qed.

(** The remaining hypotheses are met too. *)
Example bytecode_dirty_ex : let T : table P65537 := fun ty col row => match ty with CPub => ex_T CPub col row | _ => if row =? 5 then ofZ 2 else f0 end in
  holds_contracts P65537 T ex_inp [ex_co] /\ ~ sat bc_lenv (bc_assign (std_comp 11) ex_inp (pin 6) 0 T) (bc_circuit (std_comp 11) 8 0).
Proof.
  cbv zeta. split; [reflexivity|]. apply (bytecode_dirty_rejected_refuted P65537 (std_comp 11) 11 8 0 _ _ (pin 6) [ex_co] 5).
  - cbn. lia.
  - apply wf_std. lia.
  - lia.
  - reflexivity.
  - constructor; [apply ex_good|constructor].
  - cbn. lia.
  - apply fval_neq. vm_compute. discriminate.
  - apply fval_neq. vm_compute. discriminate.
Qed.
Example bytecode_overflow_ex : let T' := bc_assign (std_comp 11) ex_inp (pin 6) 0 ex_T in
  full_size ex_inp = 4 /\ sat bc_lenv T' (bc_circuit (std_comp 11) 1 0) /\
  map (bc_entry (std_comp 11) T') (zseq 0 1) = [header_entry (ofZ 11) (ofZ 22) 3].
Proof.
  destruct (bytecode_overflow_refuted P65537 (std_comp 11) 11 0 ex_T ex_inp (pin 6) (ofZ 11) (ofZ 22) ex_code) as [_ A].
  - cbn. lia.
  - apply wf_std. lia.
  - lia.
  - cbn. lia.
  - exact ex_good.
  - reflexivity.
  - reflexivity.
  - split; [reflexivity|exact A].
Qed.

Print Assumptions bytecode_sound.
Print Assumptions bytecode_sound_marks.
Print Assumptions bytecode_rows_covered.
Print Assumptions bytecode_complete.
Print Assumptions bytecode_any_contracts_refuted.
Print Assumptions bytecode_hidden_code_refuted.
Print Assumptions bytecode_hidden_stop_refuted.
Print Assumptions bytecode_empty_length_refuted.
Print Assumptions bytecode_orphan_refuted.
Print Assumptions bytecode_undefined_rejected_refuted.
Print Assumptions bytecode_dirty_rejected_refuted.
Print Assumptions bytecode_overflow_refuted.
