(** Tables that satisfy the byte code circuit: any list of contracts, with any
    marks that are legal for the constraints. *)
From Coq Require Import ZArith List Lia Bool Field.
From Verif Require Import Base Field Plonk PlonkFacts Sha256Model Sha256Complete PvTape BytecodeSpec BytecodeModel BytecodeProofs.
Import ListNotations.
Open Scope Z_scope.

(** What the constraints ask of the marks: a marked byte is a defined
    instruction and comes when the push counter is 0; an unmarked one lowers
    the counter, which may become negative. *)
Fixpoint legal (push : Z) (l : list (Z * bool)) : Prop :=
  match l with
  | [] => True
  | (b, true) :: r => push = 0 /\ defined_op b /\ legal (push_len b) r
  | (b, false) :: r => legal (push - 1) r
  end.
(** One contract: the bytes with their marks; the first byte is marked. *)
Definition legal_contract (l : list (Z * bool)) : Prop :=
  legal 0 l /\ Forall (fun x => is_byte (fst x)) l /\ match l with [] => True | x :: _ => snd x = true end.

Lemma zseq_shift : forall m, 0 <= m -> zseq 0 (m + 1) = 0 :: map (fun i => i + 1) (zseq 0 m).
Proof.
  intros m. apply (natlike_ind (fun m => zseq 0 (m + 1) = 0 :: map (fun i => i + 1) (zseq 0 m))); [reflexivity|].
  intros x Hx IH. unfold Z.succ. rewrite (zseq_snoc 0 (x + 1)), (zseq_snoc 0 x) by lia.
  rewrite map_app, app_comm_cons, <- IH, <- (zseq_snoc 0 x) by lia. reflexivity.
Qed.

Section Rows.
Variable P : params.
Notation F := (F P).
Notation table := (table P).
Add Field Fr : (F_field P) (morphism (F_morph P), constants [F_const], power_tac (F_power P) [F_pow_tac]).
Local Open Scope F_scope.

Definition zrow (l : list F) : Z -> F := fun k => znth f0 l k.

Lemma zrow_red : forall a0 a1 a2 a3 a4 a5 a6 a7 a8 a9 : F, let r := zrow [a0; a1; a2; a3; a4; a5; a6; a7; a8; a9] in
  r TAG = a0 /\ r INDEX = a1 /\ r VALUE = a2 /\ r IS_OPCODE = a3 /\ r HASH_HI = a4 /\ r HASH_LO = a5 /\
  r PUSH_SIZE = a6 /\ r VALUE_RLC = a7 /\ r LENGTH_LEFT = a8 /\ r RLC_CHALLENGE = a9.
Proof. intros. repeat split. Qed.

Definition byte_row (ch hi lo : F) (j : Z) (push rlc len : F) (x : Z * bool) : list F :=
  [f1; ofZ j; ofZ (fst x); fbit (snd x); hi; lo; (if snd x then ofZ (push_len (fst x)) else push - f1); rlc * ch + ofZ (fst x); len - f1; ch].
Fixpoint cl_bytes (ch hi lo : F) (j : Z) (push rlc len : F) (l : list (Z * bool)) : list (list F) :=
  match l with
  | [] => []
  | x :: r => byte_row ch hi lo j push rlc len x ::
      cl_bytes ch hi lo (j + 1) (if snd x then ofZ (push_len (fst x)) else push - f1) (rlc * ch + ofZ (fst x)) (len - f1) r
  end.
(** A contract may claim any length [v] when it has no bytes. *)
Definition cl_contract (ch hi lo v : F) (l : list (Z * bool)) : list (list F) :=
  [f0; f0; v; f0; hi; lo; f0; f0; v; ch] :: cl_bytes ch hi lo 0 f0 f0 v l.

Fixpoint chain (p : Z -> F) (rows : list (list F)) (n : Z -> F) : Prop :=
  match rows with
  | [] => True
  | q :: r => ok3 P p (zrow q) (match r with [] => n | x :: _ => zrow x end) /\ chain (zrow q) r n
  end.

(** What may follow a contract. *)
Definition ends (n : Z -> F) : Prop := n TAG = f0 /\ n INDEX = f0 /\ n IS_OPCODE = f0.

Lemma chain_app : forall l1 l2 p n,
  chain p (l1 ++ l2) n <-> chain p l1 (match l2 with [] => n | x :: _ => zrow x end) /\ chain (match l1 with [] => p | _ => zrow (last l1 []) end) l2 n.
Proof.
  induction l1 as [|a l1 IH]; intros l2 p n; [cbn; tauto|].
  cbn [app chain]. rewrite IH. destruct l1 as [|b l1].
  - cbn [app last chain]. tauto.
  - change (last (a :: b :: l1) []) with (last (b :: l1) []). cbn [app]. tauto.
Qed.

Lemma list3 : forall a b c a' b' c' : F, a = a' -> b = b' -> c = c' -> [a; b; c] = [a'; b'; c'].
Proof. intros. subst. reflexivity. Qed.
Lemma byte_ok : forall (p n : Z -> F) ch hi lo j push (x : Z * bool) len,
  is_byte (fst x) -> (snd x = true -> defined_op (fst x)) -> p RLC_CHALLENGE = ch ->
  let push' : F := if snd x then ofZ (push_len (fst x)) else push - f1 in
  (n TAG = f0 /\ n IS_OPCODE = f0 /\ len = f1) \/
  (n TAG = f1 /\ n INDEX = ofZ (j + 1) /\ n LENGTH_LEFT = len - f1 - f1 /\ n HASH_HI = hi /\ n HASH_LO = lo /\
   ((n IS_OPCODE = f1 /\ push' = f0) \/ (n IS_OPCODE = f0 /\ n PUSH_SIZE = push' - f1))) ->
  ok3 P p (zrow (byte_row ch hi lo j push (p VALUE_RLC) len x)) n.
Proof.
  intros p n ch hi lo j push x len Hb Hd Hc push' H. unfold byte_row. fold push'.
  destruct (zrow_red f1 (ofZ j) (ofZ (fst x)) (fbit (snd x)) hi lo push' (p VALUE_RLC * ch + ofZ (fst x)) (len - f1) ch)
    as [E0 [E1 [E2 [E3 [E4 [E5 [E6 [E7 [E8 E9]]]]]]]]].
  assert (B : fbit (snd x) * (fbit (snd x) - f1) = (f0 : F)) by (destruct (snd x); cbn [fbit]; ring).
  constructor; rewrite ?E0, ?E1, ?E2, ?E3, ?E4, ?E5, ?E6, ?E7, ?E8, ?E9, ?Hc; try (exact B); try ring.
  - destruct H as [[N _]|[N [I _]]]; rewrite N; [ring|]. rewrite I, ofZ_add. fold (f1 (P := P)). ring.
  - destruct H as [[N _]|[N [I [L _]]]]; rewrite N; [ring|]. rewrite L. ring.
  - destruct H as [[N [_ L]]|[N _]]; rewrite N; [rewrite L|]; ring.
  - destruct H as [[_ [N _]]|[_ [_ [_ [_ [_ [[N ->]|[N _]]]]]]]]; rewrite N; ring.
  - destruct H as [[N _]|[N [_ [_ [_ [_ [[O _]|[O ->]]]]]]]]; rewrite N; rewrite ?O; ring.
  - destruct H as [[N _]|[N [_ [_ [-> _]]]]]; rewrite N; ring.
  - destruct H as [[N _]|[N [_ [_ [_ [-> _]]]]]]; rewrite N; ring.
  - exists (fst x). split; [exact Hb|ring].
  - destruct (snd x) eqn:Ex; cbn [fbit].
    + exists [fst x; push_len (fst x); 1]%Z. split; [apply op_table_all, Hd; reflexivity|]. subst push'. cbn [map].
      apply list3; ring.
    + exists [0; 0; 0]%Z. split; [unfold op_table; apply in_or_app; right; left; reflexivity|]. cbn [map]. change (ofZ 0) with (f0 (P := P)).
      apply list3; ring.
Qed.

Lemma header_ok : forall (p n : Z -> F) ch hi lo v,
  (p TAG = f0 \/ n TAG = f0 \/ p RLC_CHALLENGE = ch) ->
  n INDEX = f0 ->
  (n TAG = f0 \/ (n TAG = f1 /\ n LENGTH_LEFT = v - f1 /\ n HASH_HI = hi /\ n HASH_LO = lo /\ n IS_OPCODE = f1)) ->
  ok3 P p (zrow [f0; f0; v; f0; hi; lo; f0; f0; v; ch]) n.
Proof.
  intros p n ch hi lo v Hp Hi Hn.
  destruct (zrow_red f0 f0 v f0 hi lo f0 f0 v ch) as [E0 [E1 [E2 [E3 [E4 [E5 [E6 [E7 [E8 E9]]]]]]]]].
  constructor; rewrite ?E0, ?E1, ?E2, ?E3, ?E4, ?E5, ?E6, ?E7, ?E8, ?E9, ?Hi; try ring.
  - destruct Hn as [->|[-> [-> _]]]; ring.
  - destruct Hn as [->|[-> [_ [_ [_ ->]]]]]; ring.
  - destruct Hn as [->|[-> [_ [_ [_ ->]]]]]; ring.
  - destruct Hn as [->|[-> [_ [-> _]]]]; ring.
  - destruct Hn as [->|[-> [_ [_ [-> _]]]]]; ring.
  - destruct Hp as [->|[->| ->]]; ring.
  - exists 0%Z. split; [lia|]. change (ofZ 0) with (f0 (P := P)). ring.
  - exists [0; 0; 0]%Z. split; [unfold op_table; apply in_or_app; right; left; reflexivity|]. cbn [map]. change (ofZ 0) with (f0 (P := P)).
    apply list3; ring.
Qed.

Lemma chain_bytes : forall l (p n : Z -> F) ch hi lo j push len,
  legal push l -> Forall (fun x => is_byte (fst x)) l -> p RLC_CHALLENGE = ch -> ends n -> len = zlen l ->
  chain p (cl_bytes ch hi lo j (ofZ push) (p VALUE_RLC) (ofZ len) l) n.
Proof.
  induction l as [|x l IH]; intros p n ch hi lo j push len HL HB Hc He Hlen; [exact I|].
  cbn [cl_bytes chain]. rewrite zlen_cons in Hlen. inversion HB as [|x' l' HB1 HB2]; subst x' l'. split.
  - apply byte_ok; [exact HB1| |exact Hc|].
    + intros Ex. destruct x as [b mk]. cbn [snd fst] in *. subst mk. cbn [legal] in HL. tauto.
    + destruct l as [|y l].
      * left. destruct He as [A [B C]]. split; [exact A|]. split; [exact C|]. subst len. reflexivity.
      * right. cbn [cl_bytes]. unfold byte_row at 1 2 3 4 5 6.
        match goal with |- context [zrow [?a0; ?a1; ?a2; ?a3; ?a4; ?a5; ?a6; ?a7; ?a8; ?a9]] =>
          destruct (zrow_red a0 a1 a2 a3 a4 a5 a6 a7 a8 a9) as [E0 [E1 [E2 [E3 [E4 [E5 [E6 [E7 [E8 E9]]]]]]]]] end.
        unfold byte_row.
        rewrite E0, E1, E3, E4, E5, E6, E8. do 5 (split; [reflexivity|]).
        destruct x as [b mk], y as [b2 mk2]. cbn [fst snd] in *. destruct mk2; cbn [fbit].
        -- left. split; [reflexivity|]. destruct mk; cbn [legal] in HL.
           ++ destruct HL as [_ [_ [E _]]]. rewrite E. reflexivity.
           ++ destruct HL as [E _]. replace push with 1%Z by lia. change (ofZ 1) with (f1 (P := P)). ring.
        -- right. split; reflexivity.
  - replace (p VALUE_RLC * ch + ofZ (fst x)) with (zrow (byte_row ch hi lo j (ofZ push) (p VALUE_RLC) (ofZ len) x) VALUE_RLC) by reflexivity.
    replace (ofZ len - f1 : F) with (ofZ (len - 1) : F) by (rewrite ofZ_sub; reflexivity).
    destruct x as [b mk]. cbn [fst snd]. destruct mk; cbn [legal] in HL.
    + apply IH; [tauto|exact HB2|reflexivity|exact He|lia].
    + replace (ofZ push - f1 : F) with (ofZ (push - 1) : F) by (rewrite ofZ_sub; reflexivity).
      apply IH; [tauto|exact HB2|reflexivity|exact He|lia].
Qed.

Lemma chain_contract : forall l (p n : Z -> F) ch hi lo v,
  legal_contract l -> (l = [] \/ v = ofZ (zlen l)) -> (p TAG = f0 \/ p RLC_CHALLENGE = ch) -> ends n ->
  chain p (cl_contract ch hi lo v l) n.
Proof.
  intros l p n ch hi lo v [HL [HB HF]] Hv Hp He. unfold cl_contract. cbn [chain]. split.
  - apply header_ok; [tauto| |].
    + destruct l as [|x l]; [apply He|reflexivity].
    + destruct l as [|x l]; [left; apply He|]. right. cbn [cl_bytes]. split; [reflexivity|]. split; [reflexivity|].
      split; [reflexivity|]. split; [reflexivity|]. change (fbit (snd x) = (f1 : F)). rewrite HF. reflexivity.
  - destruct Hv as [->|Hv]; [exact I|]. rewrite Hv.
    exact (chain_bytes l (zrow [f0; f0; ofZ (zlen l); f0; hi; lo; f0; f0; ofZ (zlen l); ch]) n ch hi lo 0 0 (zlen l) HL HB eq_refl He eq_refl).
Qed.

(** All contracts, then unused rows. *)
Definition zero_row : list F := [f0; f0; f0; f0; f0; f0; f0; f0; f0; f0].
Record claim := mkClaim { clHi : F; clLo : F; clV : F; clL : list (Z * bool) }.
Definition claim_ok (x : claim) : Prop := legal_contract (clL x) /\ (clL x = [] \/ clV x = ofZ (zlen (clL x))).
Definition claim_rows (ch : F) (cs : list claim) : list (list F) :=
  List.concat (map (fun x => cl_contract ch (clHi x) (clLo x) (clV x) (clL x)) cs).

Lemma ends_zero : ends (zrow zero_row).
Proof. repeat split. Qed.
Lemma chain_zeros : forall k (p n : Z -> F), ends n -> chain p (repeat zero_row k) n.
Proof.
  induction k as [|k IH]; intros p n He; [exact I|]. cbn [repeat chain]. split; [|apply IH, He].
  apply header_ok.
  - right. left. destruct k; [apply He|reflexivity].
  - destruct k; [apply He|reflexivity].
  - left. destruct k; [apply He|reflexivity].
Qed.
Lemma last_cl_bytes : forall l ch hi lo j push rlc len, l <> [] -> zrow (last (cl_bytes ch hi lo j push rlc len l) []) RLC_CHALLENGE = ch.
Proof.
  induction l as [|x l IH]; intros ch hi lo j push rlc len H; [congruence|]. destruct l as [|y l]; [reflexivity|].
  cbn [cl_bytes]. change (last (?a :: ?b :: ?c) []) with (last (b :: c) []).
  exact (IH ch hi lo (j + 1)%Z (if snd x then ofZ (push_len (fst x)) else push - f1) (rlc * ch + ofZ (fst x)) (len - f1) ltac:(discriminate)).
Qed.
Lemma last_cl : forall l ch hi lo v, zrow (last (cl_contract ch hi lo v l) []) RLC_CHALLENGE = ch.
Proof.
  intros l ch hi lo v. unfold cl_contract. destruct l as [|x l]; [reflexivity|].
  change (last (?a :: cl_bytes ch hi lo 0 f0 f0 v (x :: l)) []) with (last (cl_bytes ch hi lo 0 f0 f0 v (x :: l)) []).
  apply last_cl_bytes. discriminate.
Qed.

Lemma chain_claims : forall cs (p n : Z -> F) ch k,
  Forall claim_ok cs -> (p TAG = f0 \/ p RLC_CHALLENGE = ch) -> ends n ->
  chain p (claim_rows ch cs ++ repeat zero_row k) n.
Proof.
  induction cs as [|x cs IH]; intros p n ch k H Hp He.
  - apply chain_zeros, He.
  - inversion H as [|x' cs' [H1 H2] H3]; subst. unfold claim_rows. cbn [map List.concat]. rewrite <- app_assoc. apply chain_app. split.
    + apply chain_contract; [exact H1|exact H2|exact Hp|]. destruct cs as [|y cs]; [|repeat split].
      cbn [map List.concat app]. destruct k; [exact He|apply ends_zero].
    + change (match cl_contract ch (clHi x) (clLo x) (clV x) (clL x) with [] => p | _ => zrow (last (cl_contract ch (clHi x) (clLo x) (clV x) (clL x)) []) end)
        with (zrow (last (cl_contract ch (clHi x) (clLo x) (clV x) (clL x)) [])).
      apply IH; [exact H3| |exact He]. right. apply last_cl.
Qed.

(** From rows to the table. *)
Lemma ok3_ext : forall p q n p' q' n' : Z -> F, (forall k, (0 <= k < 10)%Z -> p k = p' k /\ q k = q' k /\ n k = n' k) ->
  ok3 P p q n -> ok3 P p' q' n'.
Proof.
  intros p q n p' q' n' E H.
  assert (Ep : forall k, (0 <= k < 10)%Z -> p' k = p k) by (intros; symmetry; apply E; assumption).
  assert (Eq : forall k, (0 <= k < 10)%Z -> q' k = q k) by (intros; symmetry; apply E; assumption).
  assert (En : forall k, (0 <= k < 10)%Z -> n' k = n k) by (intros; symmetry; apply E; assumption).
  destruct H.
  constructor; rewrite ?Ep, ?Eq, ?En by (unfold TAG, INDEX, VALUE, IS_OPCODE, HASH_HI, HASH_LO, PUSH_SIZE, VALUE_RLC, LENGTH_LEFT, RLC_CHALLENGE; lia); assumption.
Qed.

Lemma chain_rows : forall rows (p n : Z -> F) i, chain p rows n -> (0 <= i < zlen rows)%Z ->
  ok3 P (if (i =? 0)%Z then p else zrow (znth [] rows (i - 1))) (zrow (znth [] rows i)) (if (i + 1 =? zlen rows)%Z then n else zrow (znth [] rows (i + 1))).
Proof.
  induction rows as [|q rows IH]; intros p n i H Hi; [unfold zlen in Hi; cbn in Hi; lia|].
  rewrite zlen_cons in *. destruct H as [H1 H2]. destruct (Z.eqb_spec i 0) as [->|Ni].
  - change (znth [] (q :: rows) 0) with q. change (0 + 1)%Z with 1%Z. destruct rows as [|x rows].
    + exact H1.
    + rewrite zlen_cons. assert (0 <= zlen rows)%Z by (unfold zlen; lia). rewrite (proj2 (Z.eqb_neq 1 (zlen rows + 1 + 1))) by lia. exact H1.
  - rewrite (znth_consS _ [] q rows i) by lia.
    replace (znth [] (q :: rows) i) with (znth [] rows (i - 1)) by (rewrite <- (znth_consS _ [] q rows (i - 1)) by lia; f_equal; lia).
    specialize (IH (zrow q) n (i - 1)%Z H2 ltac:(lia)).
    replace (i - 1 + 1)%Z with i in * by lia.
    replace (i + 1 =? zlen rows + 1)%Z with (i =? zlen rows)%Z by (destruct (Z.eqb_spec i (zlen rows)), (Z.eqb_spec (i + 1) (zlen rows + 1)); lia || reflexivity).
    destruct (Z.eqb_spec (i - 1) 0) as [E|E].
    + replace i with 1%Z in * by lia. exact IH.
    + replace (znth [] (q :: rows) (i - 1)) with (znth [] rows (i - 1 - 1)).
      * exact IH.
      * rewrite <- (znth_consS _ [] q rows (i - 1 - 1)) by lia. f_equal. lia.
Qed.

Lemma put_at_w : forall c w row n cell (T : table) o k v, wf_comp c w -> (0 <= o < n)%Z -> (0 <= k < w)%Z -> cell o k = Some v ->
  put c row n cell T CWit (W c k) (row + o)%Z = v.
Proof.
  intros c w row n cell T o k v wf Ho Hk E. unfold put. rewrite (pos_in_W c w k wf Hk).
  rewrite (proj2 (Z.leb_le row (row + o)%Z) ltac:(lia)), (proj2 (Z.ltb_lt (row + o)%Z (row + n)%Z) ltac:(lia)). cbn [andb].
  replace (row + o - row)%Z with o by lia. rewrite E. reflexivity.
Qed.
Lemma put_out : forall c row n cell (T : table) ty col r, (r < row \/ row + n <= r)%Z -> put c row n cell T ty col r = T ty col r.
Proof.
  intros c row n cell T ty col r H. unfold put. destruct (Z.leb_spec row r), (Z.ltb_spec r (row + n)); cbn [andb]; rewrite ?andb_false_r; reflexivity || lia.
Qed.
Lemma put_rows_frame : forall c row rows (T : table), frame c (zlen rows) row T (put_rows c row rows T).
Proof. intros. apply put_frame. Qed.
Lemma put_rows_at : forall c w row rows (T : table) o k, wf_comp c w -> (10 <= w)%Z -> (0 <= o < zlen rows)%Z -> (0 <= k < 10)%Z ->
  put_rows c row rows T CWit (W c k) (row + o)%Z = zrow (znth [] rows o) k.
Proof.
  intros c w row rows T o k wf Hw Ho Hk. unfold put_rows. apply (put_at_w c w); [exact wf|exact Ho|lia|].
  unfold row_cells. rewrite (proj2 (Z.ltb_lt k 10)) by lia. reflexivity.
Qed.

(** The unused rows of the region, the row above it and the row below it. *)
Definition clean (c : comp) (T : table) (n row used : Z) : Prop :=
  cell P c T TAG (row - 1)%Z = f0 /\
  (forall k r, (0 <= k < 10)%Z -> (row + used <= r < row + n)%Z -> cell P c T k r = f0) /\
  cell P c T TAG (row + n)%Z = f0 /\ cell P c T INDEX (row + n)%Z = f0 /\ cell P c T IS_OPCODE (row + n)%Z = f0.

Lemma accept_chain : forall c w n row (T : table) rows,
  wf_comp c w -> (10 <= w)%Z -> (zlen rows <= n)%Z ->
  (forall k r, (0 <= k < 10)%Z -> (row + zlen rows <= r < row + n)%Z -> cell P c T k r = f0) ->
  chain (cols P c T (row + -1)%Z) (rows ++ repeat zero_row (Z.to_nat (n - zlen rows))) (cols P c T (row + n)%Z) ->
  sat bc_lenv (put_rows c row rows T) (bc_circuit c n row).
Proof.
  intros c w n row T rows wf Hw Hn Cb CH. apply bc_view. intros r Hr.
  set (T' := put_rows c row rows T).
  assert (Hz : (0 <= zlen rows)%Z) by (unfold zlen; lia).
  set (all := rows ++ repeat zero_row (Z.to_nat (n - zlen rows))) in *.
  assert (La : zlen all = n) by (unfold all, zlen in *; rewrite app_length, repeat_length; lia).
  assert (Hprev : forall k, cols P c T' (row + -1)%Z k = cols P c T (row + -1)%Z k).
  { intros k. unfold cols, cell, T', put_rows. rewrite put_out by lia. reflexivity. }
  assert (Hnext : forall k, cols P c T' (row + n)%Z k = cols P c T (row + n)%Z k).
  { intros k. unfold cols, cell, T', put_rows. rewrite put_out by lia. reflexivity. }
  assert (Cell : forall o k, (0 <= o < n)%Z -> (0 <= k < 10)%Z -> cell P c T' k (row + o)%Z = zrow (znth [] all o) k).
  { intros o k Ho Hk. destruct (Z.ltb_spec o (zlen rows)) as [L|L].
    - unfold cell, T'. rewrite (put_rows_at c w) by (assumption || lia). unfold all, znth. rewrite app_nth1 by (unfold zlen in L; lia). reflexivity.
    - unfold cell, T', put_rows. rewrite put_out by lia. change (cell P c T k (row + o)%Z = zrow (znth [] all o) k). rewrite Cb by lia.
      unfold all. unfold znth at 1. rewrite app_nth2 by (unfold zlen in L; lia).
      assert (N : forall j d, (j < d)%nat -> nth j (repeat zero_row d) [] = zero_row) by (induction j; destruct d; cbn; intros; try lia; [reflexivity|apply IHj; lia]).
      rewrite N by (unfold zlen in *; lia).
      assert (K : (k = 0 \/ k = 1 \/ k = 2 \/ k = 3 \/ k = 4 \/ k = 5 \/ k = 6 \/ k = 7 \/ k = 8 \/ k = 9)%Z) by lia.
      repeat (destruct K as [->|K]; [reflexivity|]). rewrite K. reflexivity. }
  pose proof (chain_rows all _ _ (r - row)%Z CH ltac:(lia)) as OK. rewrite La in OK.
  unfold row_ok. eapply ok3_ext; [|exact OK]. intros k Hk. repeat apply conj.
  - destruct (Z.eqb_spec (r - row) 0) as [E|E].
    + rewrite <- Hprev. f_equal. lia.
    + unfold cols. rewrite <- Cell by lia. f_equal. lia.
  - unfold cols. rewrite <- Cell by lia. f_equal. lia.
  - destruct (Z.eqb_spec (r - row + 1) n) as [E|E].
    + rewrite <- Hnext. f_equal. lia.
    + unfold cols. rewrite <- Cell by lia. f_equal. lia.
Qed.

Lemma accept : forall c w n row (T : table) ch cs,
  wf_comp c w -> (10 <= w)%Z -> Forall claim_ok cs -> (zlen (claim_rows ch cs) <= n)%Z -> clean c T n row (zlen (claim_rows ch cs)) ->
  sat bc_lenv (put_rows c row (claim_rows ch cs) T) (bc_circuit c n row).
Proof.
  intros c w n row T ch cs wf Hw Hcs Hn [Ca [Cb Cc]]. apply (accept_chain c w); try assumption.
  apply chain_claims; [exact Hcs|left; exact Ca|exact Cc].
Qed.

Lemma accept_orphan : forall c w n row (T : table) hi lo j b,
  wf_comp c w -> (10 <= w)%Z -> (1 <= n)%Z -> is_byte b -> defined_op b -> clean c T n row 0 ->
  let rows := [byte_row (cell P c T RLC_CHALLENGE (row + -1)%Z) hi lo j f0 (cell P c T VALUE_RLC (row + -1)%Z) f1 (b, true)] in
  sat bc_lenv (put_rows c row rows T) (bc_circuit c n row).
Proof.
  intros c w n row T hi lo j b wf Hw Hn Hb Hd [Ca [Cb Cc]] rows. change (zlen rows) with 1%Z.
  apply (accept_chain c w); try assumption; change (zlen rows) with 1%Z.
  - intros k r Hk Hr. apply Cb; lia.
  - unfold rows. cbn [app chain]. split; [|apply chain_zeros, Cc].
    refine (byte_ok (cols P c T (row + -1)%Z) _ _ hi lo j f0 (b, true) f1 Hb (fun _ => Hd) eq_refl _).
    left. destruct (Z.to_nat (n - 1)); cbn [repeat]; [destruct Cc as [A [B C]]; auto|repeat split].
Qed.

(** ** The entries of the dynamic table *)
Definition six (l : list F) : list F := map (zrow l) [TAG; INDEX; VALUE; IS_OPCODE; HASH_HI; HASH_LO].
Lemma put_entries : forall c w row rows (T : table), wf_comp c w -> (10 <= w)%Z ->
  map (bc_entry c (put_rows c row rows T)) (zseq row (row + zlen rows)) = map six rows.
Proof.
  intros c w row rows T wf Hw. assert (Hz : (0 <= zlen rows)%Z) by (unfold zlen; lia).
  apply (nth_ext _ _ [] []).
  - rewrite !map_length, zseq_length. unfold zlen in *. lia.
  - intros j Hj. rewrite map_length, zseq_length in Hj.
    assert (E : nth j (map (bc_entry c (put_rows c row rows T)) (zseq row (row + zlen rows))) [] = bc_entry c (put_rows c row rows T) (row + Z.of_nat j)%Z).
    { pose proof (znth_map_zseq _ (bc_entry c (put_rows c row rows T)) row (row + zlen rows) (Z.of_nat j) []) as A.
      unfold znth in A. rewrite Nat2Z.id in A. apply A. lia. }
    rewrite E. rewrite (nth_indep _ [] (six [])) by (rewrite map_length; unfold zlen in Hj; lia). rewrite map_nth.
    unfold bc_entry, six. apply map_ext_in. intros k Hk.
    rewrite (put_rows_at c w) by (assumption || lia || (repeat (destruct Hk as [<-|Hk]; [unfold TAG, INDEX, VALUE, IS_OPCODE, HASH_HI, HASH_LO; lia|]); destruct Hk)).
    unfold znth. rewrite Nat2Z.id. reflexivity.
Qed.

(** ** The rows of the honest assignment *)
Lemma next_push_ofZ : (256 <= char P)%Z -> forall s b, (0 <= s <= 32)%Z -> is_byte b ->
  next_push (ofZ s : F) (ofZ b) = ofZ (if (s =? 0)%Z then push_len b else s - 1).
Proof.
  intros Hp s b Hs Hb. unfold is_byte in Hb. unfold next_push, feqb, f0. rewrite !fval_ofZ_small by lia.
  destruct (Z.eqb_spec s 0) as [->|E].
  - unfold push_len. destruct (Z.ltb_spec 0x5f b), (Z.ltb_spec b 0x80), (Z.leb_spec 0x60 b), (Z.leb_spec b 0x7f); cbn [andb]; try lia; try reflexivity.
    rewrite <- ofZ_sub. reflexivity.
  - unfold f1. rewrite <- ofZ_sub. reflexivity.
Qed.
Lemma feqb_s : (256 <= char P)%Z -> forall s, (0 <= s <= 32)%Z -> feqb (ofZ s : F) f0 = (s =? 0)%Z.
Proof. intros Hp s Hs. unfold feqb, f0. rewrite !fval_ofZ_small by lia. reflexivity. Qed.

Lemma honest_bytes : (256 <= char P)%Z -> forall ch hi lo bytes j s rlc len, Forall is_byte bytes -> (0 <= s <= 32)%Z ->
  map (fun p => fst p ++ snd p) (combine (tb_bytes hi lo (j + 1) (ofZ s) (map ofZ bytes)) (ex_bytes ch (ofZ s) rlc len (map ofZ bytes))) =
  cl_bytes ch hi lo j (ofZ s) rlc len (combine bytes (marks_from s bytes)).
Proof.
  intros Hp ch hi lo. induction bytes as [|b bytes IH]; intros j s rlc len HB Hs; [reflexivity|].
  inversion HB as [|b' l' HB1 HB2]; subst. cbn [map tb_bytes ex_bytes marks_from combine].
  rewrite (next_push_ofZ Hp s b Hs HB1), (feqb_s Hp s Hs). pose proof (push_len_range b).
  replace (j + 1 - 1)%Z with j by lia. destruct (Z.eqb_spec s 0) as [->|E]; cbn [combine cl_bytes fst snd]; f_equal.
  - apply IH; [exact HB2|lia].
  - unfold byte_row. cbn [fst snd fbit app]. unfold f1. rewrite <- ofZ_sub. reflexivity.
  - replace (ofZ s - f1 : F) with (ofZ (s - 1) : F) by (rewrite ofZ_sub; reflexivity). apply IH; [exact HB2|lia].
Qed.
Lemma honest_contract : (256 <= char P)%Z -> forall ch hi lo v bytes, Forall is_byte bytes ->
  map (fun p => fst p ++ snd p) (combine (tb_contract hi lo (v :: map ofZ bytes)) (ex_contract ch (v :: map ofZ bytes))) =
  cl_contract ch hi lo v (combine bytes (code_marks bytes)).
Proof.
  intros Hp ch hi lo v bytes HB. unfold cl_contract, tb_contract, ex_contract. cbn [combine map fst snd app]. f_equal.
  exact (honest_bytes Hp ch hi lo bytes 0 0 f0 v HB ltac:(lia)).
Qed.

Lemma tb_bytes_len : forall l hi lo j push, length (tb_bytes (P := P) hi lo j push l) = length l.
Proof. induction l as [|b l IH]; intros; cbn [tb_bytes length]; [reflexivity|]. rewrite IH. reflexivity. Qed.
Lemma ex_bytes_len : forall l ch push rlc len, length (ex_bytes (P := P) ch push rlc len l) = length l.
Proof. induction l as [|b l IH]; intros; cbn [ex_bytes length]; [reflexivity|]. rewrite IH. reflexivity. Qed.
Lemma combine_app : forall A B (a1 a2 : list A) (b1 b2 : list B), length a1 = length b1 ->
  combine (a1 ++ a2) (b1 ++ b2) = combine a1 b1 ++ combine a2 b2.
Proof.
  induction a1 as [|x a1 IH]; intros a2 b1 b2 H; destruct b1 as [|y b1]; cbn in *; try discriminate; [reflexivity|].
  f_equal. apply IH. lia.
Qed.
Lemma bc_rows_cons : forall ch x cs, bc_rows (P := P) ch (x :: cs) =
  map (fun p => fst p ++ snd p) (combine (tb_contract (fst (snd x)) (snd (snd x)) (fst x)) (ex_contract ch (fst x))) ++ bc_rows ch cs.
Proof.
  intros ch x cs. unfold bc_rows. cbn [map List.concat]. rewrite combine_app, map_app; [reflexivity|].
  destruct (fst x) as [|b l]; cbn [tb_contract ex_contract length]; [reflexivity|]. rewrite tb_bytes_len, ex_bytes_len. reflexivity.
Qed.

Record contract := mkContract { coHi : F; coLo : F; coBytes : list Z }.
Definition contract_claim (x : contract) : claim :=
  mkClaim (coHi x) (coLo x) (ofZ (zlen (coBytes x))) (combine (coBytes x) (code_marks (coBytes x))).
Definition contract_values (x : contract) : list F * (F * F) :=
  (ofZ (zlen (coBytes x)) :: map ofZ (coBytes x), (coHi x, coLo x)).

Lemma honest_rows : (256 <= char P)%Z -> forall ch cs, Forall (fun x => Forall is_byte (coBytes x)) cs ->
  bc_rows ch (map contract_values cs) = claim_rows ch (map contract_claim cs).
Proof.
  intros Hp ch. induction cs as [|x cs IH]; intros H; [reflexivity|]. inversion H as [|x' cs' H1 H2]; subst.
  cbn [map]. rewrite bc_rows_cons, IH by assumption. unfold claim_rows. cbn [map List.concat]. f_equal.
  apply honest_contract; assumption.
Qed.

(** Legal marks. *)
Fixpoint cut (k : nat) (l : list bool) : list bool :=
  match l with
  | [] => []
  | m :: r => match k with O => false :: cut O r | S k' => m :: cut k' r end
  end.
Lemma cut_length : forall l k, length (cut k l) = length l.
Proof. induction l as [|m l IH]; intros k; [reflexivity|]. destruct k; cbn; rewrite IH; reflexivity. Qed.
Lemma cut_nth : forall l k i, nth i (cut k l) false = ((i <? k)%nat && nth i l false)%bool.
Proof.
  induction l as [|m l IH]; intros k i; [destruct i; rewrite andb_false_r; reflexivity|].
  destruct k as [|k], i as [|i]; cbn [cut nth]; rewrite ?IH; reflexivity.
Qed.
Lemma cut_all : forall l k, (length l <= k)%nat -> cut k l = l.
Proof. induction l as [|m l IH]; intros k H; [reflexivity|]. destruct k as [|k]; cbn in *; [lia|]. rewrite IH by lia. reflexivity. Qed.

Lemma legal_unmarked : forall bytes ms push, legal push (combine bytes (cut 0 ms)).
Proof. induction bytes as [|b bytes IH]; intros ms push; [exact I|]. destruct ms as [|m ms]; [exact I|]. cbn. apply IH. Qed.
Lemma legal_cut : forall bytes k s,
  (forall i, (i < k)%nat -> nth i (marks_from s bytes) false = true -> defined_op (nth i bytes 0%Z)) ->
  legal s (combine bytes (cut k (marks_from s bytes))).
Proof.
  induction bytes as [|b bytes IH]; intros k s H; [exact I|]. destruct k as [|k]; [apply legal_unmarked|].
  cbn [marks_from] in *. destruct (Z.eqb_spec s 0) as [E|E]; cbn [cut combine legal].
  - split; [exact E|]. split; [apply (H 0%nat); [lia|reflexivity]|]. apply IH. intros i Hi M. apply (H (S i)); [lia|exact M].
  - apply IH. intros i Hi M. apply (H (S i)); [lia|exact M].
Qed.
Lemma byte_combine : forall bytes (ms : list bool), Forall is_byte bytes -> Forall (fun x => is_byte (fst x)) (combine bytes ms).
Proof.
  induction bytes as [|b bytes IH]; intros ms H; [constructor|]. destruct ms; [constructor|]. inversion H; subst. cbn [combine].
  constructor; [assumption|apply IH; assumption].
Qed.
Lemma legal_contract_cut : forall bytes k, (1 <= k)%nat -> Forall is_byte bytes ->
  (forall i, (i < k)%nat -> nth i (code_marks bytes) false = true -> defined_op (nth i bytes 0%Z)) ->
  legal_contract (combine bytes (cut k (code_marks bytes))).
Proof.
  intros bytes k Hk HB HD. split; [apply legal_cut, HD|]. split; [apply byte_combine, HB|].
  destruct bytes as [|b bytes]; [exact I|]. destruct k; [lia|]. reflexivity.
Qed.

(** Entries of one contract. *)
Lemma six_bytes : forall l ch hi lo j push rlc len,
  map six (cl_bytes ch hi lo j push rlc len l) = map (fun i => byte_entry hi lo (j + i) (fst (znth (0%Z, false) l i)) (snd (znth (0%Z, false) l i))) (zseq 0 (zlen l)).
Proof.
  induction l as [|x l IH]; intros ch hi lo j push rlc len; [reflexivity|]. assert (0 <= zlen l)%Z by (unfold zlen; lia).
  cbn [cl_bytes map]. rewrite IH, zlen_cons, zseq_shift by lia. cbn [map]. f_equal.
  - change (znth (0%Z, false) (x :: l) 0) with x. replace (j + 0)%Z with j by lia. reflexivity.
  - rewrite map_map. apply map_ext_in. intros i Hi. apply in_zseq in Hi.
    rewrite znth_consS by lia. f_equal. lia.
Qed.
Lemma six_contract : forall ch hi lo v l, map six (cl_contract ch hi lo v l) =
  [f0; f0; v; f0; hi; lo] :: map (fun i => byte_entry hi lo i (fst (znth (0%Z, false) l i)) (snd (znth (0%Z, false) l i))) (zseq 0 (zlen l)).
Proof.
  intros. unfold cl_contract. cbn [map]. f_equal. rewrite six_bytes. apply map_ext. intros i. f_equal.
Qed.
Lemma znth_combine : forall A B (da : A) (db : B) l1 l2 i, length l1 = length l2 -> znth (da, db) (combine l1 l2) i = (znth da l1 i, znth db l2 i).
Proof. intros. unfold znth. apply combine_nth. assumption. Qed.
End Rows.
