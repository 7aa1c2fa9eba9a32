(** The byte code component: what a satisfying table contains, and which
    tables satisfy the circuit. *)
From Coq Require Import ZArith List Lia Bool Field.
From Verif Require Import Base Field Plonk PlonkFacts Sha256Model Sha256Complete PvTape BytecodeSpec BytecodeModel.
Import ListNotations.
Open Scope Z_scope.

(** ** The opcode table *)

Lemma op_table_rows : forall l, In l op_table ->
  l = [0; 0; 0] \/ exists b, l = [b; push_len b; 1] /\ defined_op b /\ 0 <= b < 256.
Proof.
  assert (H : forallb (fun l => match l with
     | [b; p; m] => ((b =? 0) && (p =? 0) && (m =? 0)) ||
        ((p =? push_len b) && (m =? 1) && ((0 <=? b) && (b <? 256)) &&
         (((0 <=? b) && (b <=? 0x0b)) || ((0x10 <=? b) && (b <=? 0x1d)) || (b =? 0x20) || ((0x30 <=? b) && (b <=? 0x4a)) ||
          ((0x50 <=? b) && (b <=? 0xa4)) || ((0xf0 <=? b) && (b <=? 0xf5)) || (b =? 0xfa) || ((0xfd <=? b) && (b <=? 0xff))))
     | _ => false end) op_table = true) by (vm_compute; reflexivity).
  rewrite forallb_forall in H. intros l Hl. specialize (H l Hl).
  destruct l as [|b [|p [|m [|]]]]; try discriminate.
  apply orb_prop in H. destruct H as [H|H].
  - left. apply andb_prop in H as [H H3]. apply andb_prop in H as [H1 H2].
    apply Z.eqb_eq in H1, H2, H3. subst. reflexivity.
  - right. exists b. apply andb_prop in H as [H H4]. apply andb_prop in H as [H H3]. apply andb_prop in H as [H1 H2].
    apply Z.eqb_eq in H1, H2. subst. split; [reflexivity|]. unfold defined_op. lia.
Qed.

Lemma op_table_all : forall b, defined_op b -> In [b; push_len b; 1] op_table.
Proof.
  assert (H : forallb (fun b => negb
         (((0 <=? b) && (b <=? 0x0b)) || ((0x10 <=? b) && (b <=? 0x1d)) || (b =? 0x20) || ((0x30 <=? b) && (b <=? 0x4a)) ||
          ((0x50 <=? b) && (b <=? 0xa4)) || ((0xf0 <=? b) && (b <=? 0xf5)) || (b =? 0xfa) || ((0xfd <=? b) && (b <=? 0xff))) ||
         existsb (fun l => match l with [x; y; z] => (x =? b) && (y =? push_len b) && (z =? 1) | _ => false end) op_table) (zseq 0 256) = true)
    by (vm_compute; reflexivity).
  rewrite forallb_forall in H. intros b Hb.
  assert (Hin : In b (zseq 0 256)) by (apply in_zseq; unfold defined_op in Hb; lia).
  specialize (H b Hin). apply orb_prop in H. destruct H as [H|H].
  - exfalso. apply negb_true_iff in H. unfold defined_op in Hb. lia.
  - apply existsb_exists in H. destruct H as [l [Hl E]]. destruct l as [|x [|y [|z [|]]]]; try discriminate.
    apply andb_prop in E as [E E3]. apply andb_prop in E as [E1 E2]. apply Z.eqb_eq in E1, E2, E3. subst. exact Hl.
Qed.

(** ** Lists *)

Lemma marks_length : forall l s, length (marks_from s l) = length l.
Proof. induction l as [|b l IH]; intros s; cbn; [reflexivity|]. destruct (s =? 0); cbn; rewrite IH; reflexivity. Qed.

Lemma znth_cons0 : forall A (d x : A) l, znth d (x :: l) 0 = x.
Proof. reflexivity. Qed.
Lemma znth_consS : forall A (d x : A) l i, 0 <= i -> znth d (x :: l) (i + 1) = znth d l i.
Proof. intros. unfold znth. replace (Z.to_nat (i + 1)) with (S (Z.to_nat i)) by lia. reflexivity. Qed.
Lemma zlen_cons : forall A (x : A) l, zlen (x :: l) = zlen l + 1.
Proof. intros. unfold zlen. cbn [length]. lia. Qed.

(** The number of immediate bytes still to come after the first [i] bytes. *)
Fixpoint skip_after (s : Z) (l : list Z) (i : nat) {struct i} : Z :=
  match i, l with
  | S i, b :: r => skip_after (if s =? 0 then push_len b else s - 1) r i
  | _, _ => s
  end.
Lemma marks_skip : forall l s i, (i < length l)%nat -> nth i (marks_from s l) false = (skip_after s l i =? 0).
Proof.
  induction l as [|b l IH]; intros s i Hi; [cbn in Hi; lia|]. cbn [marks_from]. cbn [length] in Hi.
  destruct i as [|i]; cbn [skip_after].
  - destruct (Z.eqb_spec s 0) as [E|E]; cbn [nth]; reflexivity.
  - destruct (s =? 0); cbn [nth]; apply IH; lia.
Qed.
Lemma skip_S : forall l s i, (i < length l)%nat ->
  skip_after s l (S i) = (if skip_after s l i =? 0 then push_len (nth i l 0) else skip_after s l i - 1).
Proof.
  induction l as [|b l IH]; intros s i Hi; [cbn in Hi; lia|]. cbn [length] in Hi.
  destruct i as [|i].
  - cbn. destruct l; reflexivity.
  - change (skip_after s (b :: l) (S (S i))) with (skip_after (if s =? 0 then push_len b else s - 1) l (S i)).
    rewrite IH by lia. reflexivity.
Qed.

Lemma push_len_range : forall b, 0 <= push_len b <= 32.
Proof. intros b. unfold push_len. destruct (Z.leb_spec 0x60 b), (Z.leb_spec b 0x7f); cbn [andb]; lia. Qed.

Section Bc.
Variable P : params.
Notation F := (F P).
Notation table := (table P).
Add Field Ff : (F_field P) (morphism (F_morph P), constants [F_const], power_tac (F_power P) [F_pow_tac]).
Local Open Scope F_scope.

(** ** The constraints as equations *)

Definition cell (c : comp) (T : table) (k r : Z) : F := T CWit (W c k) r.

Record ok3 (p q n : Z -> F) : Prop := mkOk {
  k0 : q TAG * (q TAG - f1) = f0;
  k1 : (q TAG - f1) * q INDEX = f0;
  k2 : (q TAG - f1) * n INDEX = f0;
  k3 : q TAG * n TAG * (n INDEX - q INDEX - f1) = f0;
  k4 : (q TAG - f1) * (q LENGTH_LEFT - q VALUE) = f0;
  k5 : n TAG * (q LENGTH_LEFT - n LENGTH_LEFT - f1) = f0;
  k6 : q TAG * (n TAG - f1) * q LENGTH_LEFT = f0;
  k7 : q IS_OPCODE * (q IS_OPCODE - f1) = f0;
  k8 : (q TAG - f1) * q IS_OPCODE = f0;
  k9 : (q TAG - f1) * n TAG * (n IS_OPCODE - f1) = f0;
  k10 : n IS_OPCODE * q PUSH_SIZE = f0;
  k11 : n TAG * (n IS_OPCODE - f1) * (q PUSH_SIZE - n PUSH_SIZE - f1) = f0;
  k12 : n TAG * (q HASH_HI - n HASH_HI) = f0;
  k13 : n TAG * (q HASH_LO - n HASH_LO) = f0;
  k14 : (q TAG - f1) * q VALUE_RLC = f0;
  k15 : q TAG * (q VALUE_RLC - p VALUE_RLC * q RLC_CHALLENGE - q VALUE) = f0;
  k16 : q TAG * (q RLC_CHALLENGE - p RLC_CHALLENGE) = f0;
  k17 : (q TAG - f1) * p TAG * n TAG * (q RLC_CHALLENGE - p RLC_CHALLENGE) = f0;
  kb : exists i, (0 <= i < 256)%Z /\ q TAG * q VALUE = ofZ i;
  ko : exists l, In l op_table /\ [q VALUE * q IS_OPCODE; q PUSH_SIZE * q IS_OPCODE; q IS_OPCODE] = map ofZ l }.

Definition cols (c : comp) (T : table) (r : Z) : Z -> F := fun k => cell c T k r.
Definition row_ok (c : comp) (T : table) (r : Z) : Prop := ok3 (cols c T (r + -1)) (cols c T r) (cols c T (r + 1)).

Lemma gv0 : forall c (T : table) k r, eval T r (v_ P c k 0) = cell c T k r.
Proof. intros. unfold v_, cell. rewrite eval_evar, gval_wv. f_equal. lia. Qed.
Lemma gv : forall c (T : table) k rot r, eval T r (v_ P c k rot) = cell c T k (r + rot).
Proof. intros. unfold v_, cell. rewrite eval_evar, gval_wv. reflexivity. Qed.
Lemma gone : forall (T : table) r, eval T r (one P) = f1.
Proof. intros. unfold one. rewrite eval_ecst. reflexivity. Qed.

Lemma bc_view : forall c n row (T : table),
  sat bc_lenv T (bc_circuit c n row) <-> forall r, (row <= r < row + n)%Z -> row_ok c T r.
Proof.
  intros c n row T. unfold bc_circuit. split.
  - intros H r Hr. assert (Hin : In r (zseq row (row + n))) by (apply in_zseq; exact Hr).
    pose proof (H _ (or_introl eq_refl) r Hin) as G. pose proof (H _ (or_intror (or_introl eq_refl)) r Hin) as K. cbn [holds] in G, K.
    assert (K1 := K _ _ (or_introl eq_refl)). assert (K2 := K _ _ (or_intror (or_introl eq_refl))). clear K H.
    cbn [map] in K1, K2. repeat rewrite eval_bin in K1. repeat rewrite eval_bin in K2. repeat rewrite gv0 in K1. repeat rewrite gv0 in K2. cbn [ebop] in K1, K2.
    unfold bc_gate in G.
    repeat (rewrite all_cons in G; let X := fresh "E" in destruct G as [X G];
            rewrite ?eval_bin, ?gv0, ?gv, ?gone in X; cbn [ebop] in X).
    destruct K1 as [[_ K1]|[A _]]; [|discriminate A]. destruct K2 as [[A _]|[_ K2]]; [discriminate A|].
    constructor; try assumption; unfold cols.
    destruct K1 as [i [Hi A]]. exists i. split; [exact Hi|]. apply (f_equal (fun l => hd f0 l)) in A. exact A.
  - intros H x [<-|[<-|[]]] r Hr; apply in_zseq in Hr; specialize (H r Hr).
    + unfold bc_gate. destruct H. unfold cols in *.
      repeat (rewrite all_cons; split; [rewrite ?eval_bin, ?gv0, ?gv, ?gone; cbn [ebop]; assumption|]). intros e [].
    + intros t es [E|[E|[]]]; apply (f_equal (fun z => (fst z, snd z))) in E; cbn [fst snd] in E;
        injection E as <- <-; cbn [map]; repeat rewrite eval_bin; repeat rewrite gv0; cbn [ebop].
      * left. split; [reflexivity|]. destruct (kb _ _ _ H) as [i [Hi A]]. exists i. split; [exact Hi|]. unfold cols in A. rewrite A. reflexivity.
      * right. split; [reflexivity|]. exact (ko _ _ _ H).
Qed.

(** ** Soundness *)

Lemma tag0_eq : forall x y : F, x = f0 -> (x - f1) * y = f0 -> y = f0.
Proof. intros x y -> H. replace y with (- ((f0 - f1) * y)) by ring. rewrite H. ring. Qed.
Lemma tag1_eq : forall x y : F, x = f1 -> x * y = f0 -> y = f0.
Proof. intros x y -> H. replace y with (f1 * y) by ring. exact H. Qed.
Lemma sub_eq : forall x y : F, x - y = f0 -> x = y.
Proof. intros. apply fsub_eq0. assumption. Qed.

Section Sound.
Variables (c : comp) (T : table) (h m : Z).
Hypothesis Hm : (1 <= m)%Z.
Hypothesis Hok : forall r, (h <= r <= h + m)%Z -> row_ok c T r.
Hypothesis Hh : cell c T TAG h = f0.
Hypothesis Hb : forall i, (1 <= i <= m)%Z -> cell c T TAG (h + i) = f1.
Hypothesis He : cell c T TAG (h + m + 1) = f0.
Local Notation q k i := (cell c T k (h + i)).

Lemma s_ok : forall i, (0 <= i <= m)%Z ->
  ok3 (cols c T (h + i + -1)) (cols c T (h + i)) (cols c T (h + i + 1)).
Proof. intros i Hi. apply Hok. lia. Qed.

Lemma s_here : forall i, (0 <= i < m)%Z -> ok3 (cols c T (h + i + -1)) (cols c T (h + i)) (cols c T (h + (i + 1))).
Proof. intros i Hi. rewrite Z.add_assoc. apply s_ok. lia. Qed.
Lemma s_next : forall i, (0 <= i < m)%Z -> exists n, ok3 (cols c T (h + i)) (cols c T (h + (i + 1))) n.
Proof. intros i Hi. eexists. pose proof (s_ok (i + 1) ltac:(lia)) as E. replace (h + (i + 1) + -1)%Z with (h + i)%Z in E by lia. exact E. Qed.

Lemma s_index : forall i, (0 <= i)%Z -> (i < m)%Z -> q INDEX (i + 1) = ofZ i.
Proof.
  apply (natlike_ind (fun i => (i < m)%Z -> q INDEX (i + 1) = ofZ i)).
  - intros _. pose proof (k2 _ _ _ (s_here 0 ltac:(lia))) as E. unfold cols in E. rewrite (Z.add_0_r h) in E.
    exact (tag0_eq _ _ Hh E).
  - intros i Hi IH L. unfold Z.succ in *. pose proof (k3 _ _ _ (s_here (i + 1) ltac:(lia))) as E. unfold cols in E.
    rewrite (Hb (i + 1)), (Hb (i + 1 + 1)) in E by lia. rewrite IH in E by lia.
    rewrite ofZ_add. apply sub_eq. rewrite <- E. fold (f1 (P := P)). ring.
Qed.

Lemma s_len : forall i, (0 <= i)%Z -> (i <= m)%Z -> q LENGTH_LEFT i = q VALUE 0 - ofZ i.
Proof.
  apply (natlike_ind (fun i => (i <= m)%Z -> q LENGTH_LEFT i = q VALUE 0 - ofZ i)).
  - intros _. pose proof (k4 _ _ _ (s_here 0 ltac:(lia))) as E. unfold cols in E.
    assert (Hh' : q TAG 0 = f0) by (rewrite Z.add_0_r; exact Hh).
    pose proof (sub_eq _ _ (tag0_eq _ _ Hh' E)) as A. rewrite A. change (ofZ 0) with (f0 (P := P)). ring.
  - intros i Hi IH L. unfold Z.succ in *. pose proof (k5 _ _ _ (s_here i ltac:(lia))) as E. unfold cols in E.
    rewrite (Hb (i + 1)) in E by lia. rewrite IH in E by lia. rewrite ofZ_add. fold (f1 (P := P)).
    apply sub_eq. replace f0 with (- f0 : F) by ring. rewrite <- E. ring.
Qed.
Lemma s_length : q VALUE 0 = ofZ m.
Proof.
  pose proof (s_len m ltac:(lia) ltac:(lia)) as A. pose proof (k6 _ _ _ (s_ok m ltac:(lia))) as E. unfold cols in E.
  rewrite He, (Hb m), A in E by lia. apply sub_eq. replace f0 with (- f0 : F) by ring. rewrite <- E. ring.
Qed.

Lemma s_hash : forall i, (0 <= i)%Z -> (i <= m)%Z -> q HASH_HI i = q HASH_HI 0 /\ q HASH_LO i = q HASH_LO 0 /\ q RLC_CHALLENGE i = q RLC_CHALLENGE 0.
Proof.
  apply (natlike_ind (fun i => (i <= m)%Z -> q HASH_HI i = q HASH_HI 0 /\ q HASH_LO i = q HASH_LO 0 /\ q RLC_CHALLENGE i = q RLC_CHALLENGE 0)).
  - auto.
  - intros i Hi IH L. unfold Z.succ in *. specialize (IH ltac:(lia)). destruct IH as [A [B D]].
    pose proof (k12 _ _ _ (s_here i ltac:(lia))) as E. pose proof (k13 _ _ _ (s_here i ltac:(lia))) as G.
    destruct (s_next i ltac:(lia)) as [n N]. pose proof (k16 _ _ _ N) as K. unfold cols in E, G, K.
    pose proof (Hb (i + 1) ltac:(lia)) as B1.
    rewrite <- A, <- B, <- D. rewrite <- (sub_eq _ _ (tag1_eq _ _ B1 E)), <- (sub_eq _ _ (tag1_eq _ _ B1 G)), (sub_eq _ _ (tag1_eq _ _ B1 K)).
    auto.
Qed.

Definition s_bytes : list Z := map (fun i => fval (q VALUE (i + 1))) (zseq 0 m).
Lemma s_bytes_len : length s_bytes = Z.to_nat m.
Proof. unfold s_bytes. rewrite map_length, zseq_length. f_equal. lia. Qed.
Lemma s_bytes_nth : forall i, (0 <= i < m)%Z -> znth 0%Z s_bytes i = fval (q VALUE (i + 1)).
Proof. intros i Hi. unfold s_bytes. rewrite znth_map_zseq by lia. reflexivity. Qed.

Lemma s_byte : (256 <= char P)%Z -> forall i, (0 <= i < m)%Z -> is_byte (fval (q VALUE (i + 1))).
Proof.
  intros Hp i Hi. destruct (s_next i Hi) as [n N]. destruct (kb _ _ _ N) as [x [Hx E]]. unfold cols in E.
  rewrite (Hb (i + 1)) in E by lia. assert (A : q VALUE (i + 1) = ofZ x) by (rewrite <- E; ring).
  rewrite A, fval_ofZ_small by lia. unfold is_byte. lia.
Qed.

Lemma rlc_snoc : forall r l (b : F), rlc_sum r (l ++ [b]) = rlc_sum r l * r + b.
Proof.
  intros r l b. induction l as [|a l IH]; cbn [rlc_sum app length fpow].
  - change (fpow r 0) with (f1 (P := P)). ring.
  - rewrite IH, app_length. cbn [length]. rewrite Nat.add_1_r. change (fpow r (S (length l))) with (r * fpow r (length l)). ring.
Qed.
Lemma s_rlc : forall i, (0 <= i)%Z -> (i <= m)%Z ->
  q VALUE_RLC i = rlc_sum (q RLC_CHALLENGE 0) (map (fun j => q VALUE (j + 1)) (zseq 0 i)).
Proof.
  apply (natlike_ind (fun i => (i <= m)%Z -> q VALUE_RLC i = rlc_sum (q RLC_CHALLENGE 0) (map (fun j => q VALUE (j + 1)) (zseq 0 i)))).
  - intros _. pose proof (k14 _ _ _ (s_here 0 ltac:(lia))) as E. unfold cols in E.
    assert (Hh' : q TAG 0 = f0) by (rewrite Z.add_0_r; exact Hh). exact (tag0_eq _ _ Hh' E).
  - intros i Hi IH L. unfold Z.succ in *. destruct (s_next i ltac:(lia)) as [n N]. pose proof (k15 _ _ _ N) as E. unfold cols in E.
    pose proof (tag1_eq _ _ (Hb (i + 1) ltac:(lia)) E) as A. destruct (s_hash (i + 1) ltac:(lia) ltac:(lia)) as [_ [_ C]].
    rewrite zseq_snoc by lia. rewrite map_app. cbn [map]. rewrite rlc_snoc, <- IH by lia. rewrite <- C.
    apply sub_eq. rewrite <- A. ring.
Qed.

(** *** Which bytes are marked *)
Lemma s_op : forall i, (0 <= i < m)%Z ->
  (q IS_OPCODE (i + 1) = f1 /\ q PUSH_SIZE i = f0 /\ exists b, defined_op b /\ (0 <= b < 256)%Z /\ q VALUE (i + 1) = ofZ b /\ q PUSH_SIZE (i + 1) = ofZ (push_len b)) \/
  (q IS_OPCODE (i + 1) = f0 /\ q PUSH_SIZE (i + 1) = q PUSH_SIZE i - f1).
Proof.
  intros i Hi. pose proof (s_here i Hi) as A. destruct (s_next i Hi) as [n N].
  pose proof (k7 _ _ _ N) as K7. pose proof (k10 _ _ _ A) as K10. pose proof (k11 _ _ _ A) as K11. destruct (ko _ _ _ N) as [l [Hl K]].
  unfold cols in K7, K10, K11, K. rewrite (Hb (i + 1)) in K11 by lia.
  destruct (fmul_integral P _ _ K7) as [O|O].
  - right. split; [exact O|]. rewrite O in K11. apply sub_eq. rewrite <- K11. ring.
  - left. apply sub_eq in O. split; [exact O|]. rewrite O in K10, K. split; [rewrite <- K10; ring|].
    destruct (op_table_rows l Hl) as [->|[b [-> [D R]]]]; cbn [map] in K.
    + exfalso. assert (Z1 : (f1 : F) = f0) by (apply (f_equal (fun x => nth 2 x f0)) in K; exact K).
      exact (f1_neq_f0 P Z1).
    + exists b. split; [exact D|]. split; [exact R|]. split.
      * apply (f_equal (fun x => nth 0 x f0)) in K. cbn [nth] in K. rewrite <- K. ring.
      * apply (f_equal (fun x => nth 1 x f0)) in K. cbn [nth] in K. rewrite <- K. ring.
Qed.
Lemma s_first : q IS_OPCODE 1 = f1.
Proof.
  pose proof (k9 _ _ _ (s_here 0 ltac:(lia))) as E. unfold cols in E. assert (Hh' : q TAG 0 = f0) by (rewrite Z.add_0_r; exact Hh).
  change (0 + 1)%Z with 1%Z in E. rewrite Hh', (Hb 1) in E by lia. apply sub_eq. replace f0 with (- f0 : F) by ring. rewrite <- E. ring.
Qed.

Local Notation sk i := (skip_after 0 s_bytes (Z.to_nat i)).
Definition mark (i : Z) : bool := znth false (code_marks s_bytes) i.
Lemma mark_skip : forall i, (0 <= i < m)%Z -> mark i = (sk i =? 0)%Z.
Proof. intros i Hi. unfold mark, znth, code_marks. apply marks_skip. rewrite s_bytes_len. lia. Qed.
Lemma sk_S : forall i, (0 <= i < m)%Z -> sk (i + 1) = (if (sk i =? 0)%Z then push_len (znth 0%Z s_bytes i) else sk i - 1)%Z.
Proof.
  intros i Hi. replace (Z.to_nat (i + 1)) with (S (Z.to_nat i)) by lia. rewrite skip_S by (rewrite s_bytes_len; lia). reflexivity.
Qed.
Lemma sk_range : forall i, (0 <= i)%Z -> (i <= m)%Z -> (0 <= sk i <= 32)%Z.
Proof.
  apply (natlike_ind (fun i => (i <= m)%Z -> (0 <= sk i <= 32)%Z)).
  - intros _. change (0 <= 0 <= 32)%Z. lia.
  - intros i Hi IH L. unfold Z.succ in *. rewrite sk_S by lia. specialize (IH ltac:(lia)).
    pose proof (push_len_range (znth 0%Z s_bytes i)). destruct (Z.eqb_spec (sk i) 0); lia.
Qed.

(** After [i] bytes the marks have been right so far, or they went wrong at
    [k] and nothing was marked since. *)
Definition s_inv (i : Z) : Prop :=
  ((forall j, (0 <= j < i)%Z -> q IS_OPCODE (j + 1) = fbit (mark j)) /\ (i = 0%Z \/ q PUSH_SIZE i = ofZ (sk i))) \/
  exists k, (0 < k < i)%Z /\ (forall j, (0 <= j < i)%Z -> q IS_OPCODE (j + 1) = fbit ((j <? k)%Z && mark j)) /\
            mark k = true /\ q PUSH_SIZE i = ofZ (k - i).
Lemma s_marks : (256 <= char P)%Z -> (m < char P)%Z -> forall i, (0 <= i)%Z -> (i <= m)%Z -> s_inv i.
Proof.
  intros Hp Hmp. apply (natlike_ind (fun i => (i <= m)%Z -> s_inv i)).
  - intros _. left. split; [intros; lia|left; reflexivity].
  - intros i Hi IH L. unfold Z.succ in *. specialize (IH ltac:(lia)).
    assert (Hlt : forall x, (0 < x < char P)%Z -> (ofZ x : F) <> f0).
    { intros x Hx E. apply (f_equal (@fval P)) in E. unfold f0 in E. rewrite !fval_ofZ_small in E by lia. lia. }
    destruct IH as [[M S]|[k [Hk [M [Mk S]]]]].
    + destruct (s_op i ltac:(lia)) as [[O [S0 [b [Db [Rb [V S1]]]]]]|[O S1]].
      * (* marked *)
        assert (E : sk i = 0%Z).
        { destruct S as [->|S]; [reflexivity|]. rewrite S in S0. pose proof (sk_range i ltac:(lia) ltac:(lia)).
          destruct (Z.eq_dec (sk i) 0) as [|Ne]; [assumption|]. exfalso. apply (Hlt (sk i) ltac:(lia)). exact S0. }
        left. split.
        -- intros j Hj. destruct (Z.eq_dec j i) as [->|Nj]; [|apply M; lia]. rewrite O, mark_skip, E by lia. reflexivity.
        -- right. rewrite sk_S, E by lia. cbn [Z.eqb]. rewrite S1, s_bytes_nth, V, fval_ofZ_small by lia. reflexivity.
      * (* not marked *)
        destruct (Z.eq_dec i 0) as [->|Ni]. { change (0 + 1)%Z with 1%Z in O. rewrite s_first in O. exfalso. exact (f1_neq_f0 P O). }
        destruct S as [?|S]; [lia|]. destruct (Z.eqb_spec (sk i) 0) as [E|E].
        -- right. exists i. split; [lia|]. split.
           ++ intros j Hj. destruct (Z.eq_dec j i) as [->|Nj].
              ** rewrite Z.ltb_irrefl. exact O.
              ** rewrite (proj2 (Z.ltb_lt j i)) by lia. apply M. lia.
           ++ rewrite mark_skip by lia. split; [apply Z.eqb_eq; exact E|]. rewrite S1, S, E.
              replace (i - (i + 1))%Z with (0 - 1)%Z by lia. rewrite ofZ_sub. reflexivity.
        -- left. split.
           ++ intros j Hj. destruct (Z.eq_dec j i) as [->|Nj]; [|apply M; lia]. rewrite O, mark_skip by lia.
              rewrite (proj2 (Z.eqb_neq (sk i) 0)) by assumption. reflexivity.
           ++ right. rewrite sk_S by lia. rewrite (proj2 (Z.eqb_neq (sk i) 0)) by assumption. rewrite S1, S, ofZ_sub. reflexivity.
    + right. exists k. split; [lia|]. destruct (s_op i ltac:(lia)) as [[O [S0 _]]|[O S1]].
      * exfalso. rewrite S in S0. replace (k - i)%Z with (- (i - k))%Z in S0 by lia. rewrite ofZ_opp in S0.
        apply (Hlt (i - k)%Z); [lia|]. replace (ofZ (i - k) : F) with (- - ofZ (i - k) : F) by ring. rewrite S0. ring.
      * split; [|split; [exact Mk|]].
        -- intros j Hj. destruct (Z.eq_dec j i) as [->|Nj]; [|apply M; lia]. rewrite (proj2 (Z.ltb_ge i k)) by lia. exact O.
        -- rewrite S1, S. replace (k - (i + 1))%Z with (k - i - 1)%Z by lia. rewrite (ofZ_sub P (k - i)). reflexivity.
Qed.
End Sound.
End Bc.
