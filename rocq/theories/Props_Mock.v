(** Properties C124 and C125: the mocked integer operations. *)
From Coq Require Import ZArith Zquot List Lia Bool.
From Verif Require Import Base Field Plonk PlonkFacts Bits Examples Pasta MockModel.
Import ListNotations.
Open Scope Z_scope.

(** ** Specification *)

(** [r] is the result of an operation; a quotient is rounded towards zero and a
    remainder has the sign of the dividend. *)
Definition op_spec (o : mop) (a b r : Z) : Prop :=
  match o with
  | MAdd => r = a + b
  | MSub => r + b = a
  | MMul => r = a * b
  | MDiv => exists m, a = b * r + m /\ Z.abs m < Z.abs b /\ 0 <= m * a
  | MRem => exists q, a = b * q + r /\ Z.abs r < Z.abs b /\ 0 <= r * a
  end.
Definition cmp_spec (o : mcmp) (a b : Z) : Prop :=
  match o with MLess => a < b | MGreater => a > b | MGreaterEq => a >= b | MLessEq => a <= b end.
(** An integer of a sign, zero for plus, and a magnitude. *)
Definition signed (s m : Z) : Z := if s =? 0 then m else - m.
Definition val {P} (T : table P) (x : var) : Z := fval (vval T x).
(** An integer of two halves of 128 bits, the high one first. *)
Definition halves (h l : Z) : Z := h * 2 ^ 128 + l.
Definition half {P} (T : table P) (x : var) : Prop := val T x < 2 ^ 128.
(** The component is on the first [n] columns of the table. *)
Definition first_cols (c : comp) (n : Z) : Prop := wf_comp c n /\ forall i, 0 <= i < n -> W c i = i.
Definition out {P} (T : table P) (row i : Z) : Z := val T (m_out row i).

(** ** Lemmas *)

Lemma rem_ok : forall a b r q, a = b * q + r -> Z.abs r < Z.abs b -> 0 <= r * a -> Remainder a b r.
Proof.
  intros a b r q E H S. unfold Remainder. destruct (Z.lt_trichotomy a 0) as [A|[A|A]].
  - right. nia.
  - assert (q = 0) by nia. subst q. left. lia.
  - left. nia.
Qed.
Lemma op_is : forall o a b r, op_spec o a b r -> m_op o a b = Some r.
Proof.
  intros [] a b r H; cbn in H |- *; try (f_equal; lia).
  - destruct H as [m [E [A S]]]. destruct (Z.eqb_spec b 0) as [->|N]; [lia|]. f_equal. symmetry. apply (Zquot_mod_unique_full a b r m); [exact (rem_ok a b m r E A S)|lia].
  - destruct H as [q [E [A S]]]. destruct (Z.eqb_spec b 0) as [->|N]; [lia|]. f_equal. symmetry. apply (Zquot_mod_unique_full a b q r); [exact (rem_ok a b r q E A S)|lia].
Qed.
Lemma cmp_is : forall o a b, m_cmp o a b = true <-> cmp_spec o a b.
Proof. intros [] a b; cbn; rewrite ?Z.ltb_lt, ?Z.leb_le; lia. Qed.
Lemma uint_id : forall n z, 0 <= z < 2 ^ n -> m_uint n z = z.
Proof. intros n z H. apply Z.mod_small, H. Qed.
Lemma int_id : forall n z, Z.abs z < 2 ^ n -> m_int n z = z.
Proof. intros n z H. unfold m_int. rewrite Z.mod_small by lia. destruct z; cbn; lia. Qed.
Lemma top_is : forall r, 0 <= r < 2 ^ 256 -> Z.shiftr (Z.land m_top r) 128 = r / 2 ^ 128.
Proof.
  intros r H. unfold m_top, m_bottom. rewrite Z.shiftr_land, Z.shiftr_shiftl_l by lia. change (128 - 128) with 0. rewrite Z.shiftl_0_r.
  rewrite Z.land_comm. change (Z.shiftl 1 128 - 1) with (Z.ones 128). rewrite Z.land_ones by lia. rewrite Z.shiftr_div_pow2 by lia.
  apply Z.mod_small. split; [apply Z.div_pos; lia|]. apply Z.div_lt_upper_bound; [lia|]. exact (proj2 H).
Qed.
Lemma bottom_is : forall r, Z.land m_bottom r = r mod 2 ^ 128.
Proof. intros r. unfold m_bottom. change (Z.shiftl 1 128 - 1) with (Z.ones 128). rewrite Z.land_comm. apply Z.land_ones. lia. Qed.
Lemma half_top : forall r, 0 <= r < 2 ^ 256 -> 0 <= r / 2 ^ 128 < 2 ^ 128.
Proof. intros r H. split; [apply Z.div_pos; lia|]. apply Z.div_lt_upper_bound; [lia|exact (proj2 H)]. Qed.
Lemma split_is : forall r, halves (r / 2 ^ 128) (r mod 2 ^ 128) = r.
Proof. intros r. unfold halves. pose proof (Z.div_mod r (2 ^ 128) ltac:(lia)). lia. Qed.

Section Fill.
Variable P : params.
Notation table := (table P).
Lemma put_frame : forall (c : comp) row (l : list (F P)) (T : table), wf_comp c (Z.of_nat (length l)) -> frame c 1 row T (m_put c row l T).
Proof.
  intros c row l T wf. apply (wsets_frame P c _ _ _ _ _ wf). intros col r u H. apply in_map_iff in H. destruct H as [k [E Hk]]. apply in_zseq in Hk.
  apply pair_equal_spec in E. destruct E as [E _]. apply pair_equal_spec in E. destruct E as [<- <-]. split; [eauto|lia].
Qed.
Lemma put_out : forall (c : comp) row (l : list (F P)) (T : table) n, n = Z.of_nat (length l) -> first_cols c n ->
  forall i, 0 <= i < n -> vval (m_put c row l T) (m_out row i) = znth f0 l i.
Proof.
  intros c row l T n -> [wf Wi] i Hi. unfold m_out. rewrite vval_wcell. rewrite <- (Wi i Hi) at 1. apply wsets_read.
  - apply in_map_iff. exists i. split; [reflexivity|apply in_zseq; exact Hi].
  - intros u H. apply in_map_iff in H. destruct H as [j [E Hj]]. apply in_zseq in Hj.
    apply pair_equal_spec in E. destruct E as [E <-]. apply pair_equal_spec in E. destruct E as [E _].
    apply (W_inj c (Z.of_nat (length l))) in E; [subst j; reflexivity|exact wf|lia|lia].
Qed.
Lemma put_Z : forall (c : comp) row (zs : list Z) (T : table) n, n = Z.of_nat (length zs) -> first_cols c n -> (forall z, In z zs -> 0 <= z < char P) ->
  forall i, 0 <= i < n -> out (m_put c row (map (fun z => ofZ z) zs) T) row i = znth 0 zs i.
Proof.
  intros c row zs T n -> Hc Hz i Hi. unfold out, val. rewrite (put_out c row _ T (Z.of_nat (length zs))); [|rewrite map_length; reflexivity|exact Hc|exact Hi].
  unfold znth. change (f0 : F P) with ((fun z => ofZ z : F P) 0). rewrite map_nth. apply fval_ofZ_small, Hz, nth_In. lia.
Qed.
Lemma pair_is : forall h l (T : table), half T h -> half T l -> m_pair h l T = halves (val T h) (val T l).
Proof.
  intros h l T Hh Hl. unfold half, val in *. pose proof (fval_range P (vval T h)). pose proof (fval_range P (vval T l)).
  unfold m_pair, halves, val. set (a := fval (vval T h)) in *. set (b := fval (vval T l)) in *. change (2 ^ 128) with 340282366920938463463374607431768211456 in *.
  assert (B : 2 ^ 256 = 340282366920938463463374607431768211456 * 340282366920938463463374607431768211456) by reflexivity.
  rewrite (uint_id 256 a), (uint_id 256 b), (uint_id 256 (a * 340282366920938463463374607431768211456)), uint_id; lia.
Qed.
Lemma spair_is : forall s h l (T : table), val T s = 0 -> half T h -> half T l -> m_spair s h l T = halves (val T h) (val T l).
Proof.
  intros s h l T Hs Hh Hl. unfold half, val in *. pose proof (fval_range P (vval T h)). pose proof (fval_range P (vval T l)).
  unfold m_spair, m_sign, halves, val. rewrite Hs. cbn [Z.eqb].
  set (a := fval (vval T h)) in *. set (b := fval (vval T l)) in *. change (2 ^ 128) with 340282366920938463463374607431768211456 in *.
  assert (B : 2 ^ 256 = 340282366920938463463374607431768211456 * 340282366920938463463374607431768211456) by reflexivity.
  rewrite (int_id 256 a), (int_id 256 b), (int_id 256 (1 * a * 340282366920938463463374607431768211456)), int_id; lia.
Qed.
End Fill.

(** ** C124 *)

Theorem mock_unsigned_small : forall P (c : comp) (bits : Z) (o : mop) (x y : var) (row r : Z) (T : table P),
  first_cols c 1 -> 2 ^ bits <= char P -> val T x < 2 ^ bits -> val T y < 2 ^ bits ->
  op_spec o (val T x) (val T y) r -> 0 <= r < 2 ^ bits ->
  exists T', m_fill c row (us_vals bits o x y T) T = Some T' /\ out T' row 0 = r /\ frame c 1 row T T'.
Proof.
  intros P c bits o x y row r T Hc HP Hx Hy Hr Rr. unfold us_vals.
  pose proof (fval_range P (vval T x)). pose proof (fval_range P (vval T y)). unfold val in *.
  rewrite !uint_id by lia. rewrite (op_is _ _ _ _ Hr). rewrite uint_id by lia. cbn [m_fill]. eexists. split; [reflexivity|].
  split; [|apply put_frame; exact (proj1 Hc)]. change [ofZ r] with (map (fun z => ofZ z : F P) [r]). rewrite (put_Z P c row [r] T 1 eq_refl Hc); [reflexivity|intros z [<-|[]]; lia|lia].
Qed.
Print Assumptions mock_unsigned_small.

Theorem mock_unsigned_big : forall P (c : comp) (o : mop) (xh xl yh yl : var) (row r : Z) (T : table P),
  first_cols c 2 -> 2 ^ 128 <= char P -> half T xh -> half T xl -> half T yh -> half T yl ->
  op_spec o (halves (val T xh) (val T xl)) (halves (val T yh) (val T yl)) r -> 0 <= r < 2 ^ 256 ->
  exists T', m_fill c row (ub_vals o xh xl yh yl T) T = Some T' /\
    halves (out T' row 0) (out T' row 1) = r /\ out T' row 1 < 2 ^ 128 /\ frame c 1 row T T'.
Proof.
  intros P c o xh xl yh yl row r T Hc HP A B C D Hr Rr. unfold ub_vals. rewrite !pair_is by assumption. rewrite (op_is _ _ _ _ Hr).
  cbv zeta. rewrite (uint_id 256 r Rr), (top_is r Rr), bottom_is. cbn [m_fill]. eexists. split; [reflexivity|].
  pose proof (half_top r Rr). pose proof (Z.mod_pos_bound r (2 ^ 128) ltac:(lia)).
  change [ofZ (r / 2 ^ 128); ofZ (r mod 2 ^ 128)] with (map (fun z => ofZ z : F P) [r / 2 ^ 128; r mod 2 ^ 128]).
  assert (R : forall z, In z [r / 2 ^ 128; r mod 2 ^ 128] -> 0 <= z < char P) by (intros z [<-|[<-|[]]]; lia).
  rewrite !(put_Z P c row [r / 2 ^ 128; r mod 2 ^ 128] T 2 eq_refl Hc R) by lia.
  split; [apply split_is|]. split; [|apply put_frame; exact (proj1 Hc)]. apply Z.mod_pos_bound. reflexivity.
Qed.
Print Assumptions mock_unsigned_big.

Theorem mock_unsigned_compare : forall P (c : comp) (o : mcmp) (xh xl yh yl : var) (row : Z) (T : table P),
  first_cols c 1 -> half T xh -> half T xl -> half T yh -> half T yl ->
  let T' := m_put c row (ubc_vals o xh xl yh yl T) T in
  (out T' row 0 = 1 /\ cmp_spec o (halves (val T xh) (val T xl)) (halves (val T yh) (val T yl)) \/
   out T' row 0 = 0 /\ ~ cmp_spec o (halves (val T xh) (val T xl)) (halves (val T yh) (val T yl))) /\ frame c 1 row T T'.
Proof.
  intros P c o xh xl yh yl row T Hc A B C D T'. split; [|apply put_frame; exact (proj1 Hc)].
  unfold T', ubc_vals. rewrite !pair_is by assumption. set (a := halves _ _). set (b := halves _ _).
  pose proof (char_ge_2 P) as H2. rewrite <- cmp_is. destruct (m_cmp o a b).
  - left. split; [|reflexivity]. change [ofZ 1] with (map (fun z => ofZ z : F P) [1]).
    rewrite (put_Z P c row [1] T 1 eq_refl Hc); [reflexivity|intros z [<-|[]]; lia|lia].
  - right. split; [|discriminate]. change [ofZ 0] with (map (fun z => ofZ z : F P) [0]).
    rewrite (put_Z P c row [0] T 1 eq_refl Hc); [reflexivity|intros z [<-|[]]; lia|lia].
Qed.
Print Assumptions mock_unsigned_compare.

Lemma sign_is : forall P (T : table P) s z, m_sign T s * z = signed (val T s) z.
Proof. intros P T s z. unfold m_sign, signed, val. destruct (fval (vval T s) =? 0); lia. Qed.
Lemma signed_abs : forall s z, Z.abs (signed s z) = Z.abs z.
Proof. intros s z. unfold signed. destruct (s =? 0); lia. Qed.
Lemma signed_back : forall r, signed (if 0 <=? Z.sgn r then 0 else 1) (Z.abs r) = r.
Proof. intros [|r|r]; reflexivity. Qed.

Theorem mock_signed_small : forall P (c : comp) (bits : Z) (o : mop) (s x t y : var) (row r : Z) (T : table P),
  first_cols c 2 -> 2 ^ bits <= char P -> val T x < 2 ^ bits -> val T y < 2 ^ bits ->
  op_spec o (signed (val T s) (val T x)) (signed (val T t) (val T y)) r -> Z.abs r < 2 ^ bits ->
  exists T', m_fill c row (ss_vals bits o s x t y T) T = Some T' /\
    signed (out T' row 0) (out T' row 1) = r /\ (out T' row 0 = 0 \/ out T' row 0 = 1) /\ frame c 1 row T T'.
Proof.
  intros P c bits o s x t y row r T Hc HP Hx Hy Hr Rr. unfold ss_vals.
  pose proof (fval_range P (vval T x)) as Px. pose proof (fval_range P (vval T y)) as Py. fold (val T x) in *. fold (val T y) in *.
  rewrite !(int_id bits (val T _)) by lia. rewrite !sign_is. rewrite !(int_id bits (signed _ _)) by (rewrite signed_abs; lia).
  rewrite (op_is _ _ _ _ Hr). cbv zeta. rewrite (int_id bits r Rr). cbn [m_fill]. eexists. split; [reflexivity|].
  set (g := if 0 <=? Z.sgn r then 0 else 1). pose proof (char_ge_2 P) as H2.
  assert (G : g = 0 \/ g = 1) by (unfold g; destruct (0 <=? Z.sgn r); auto).
  change [ofZ g; ofZ (Z.abs r)] with (map (fun z => ofZ z : F P) [g; Z.abs r]).
  assert (R : forall z, In z [g; Z.abs r] -> 0 <= z < char P) by (intros z [<-|[<-|[]]]; lia).
  rewrite !(put_Z P c row [g; Z.abs r] T 2 eq_refl Hc R) by lia.
  split; [apply signed_back|]. split; [exact G|apply put_frame; exact (proj1 Hc)].
Qed.
Print Assumptions mock_signed_small.

(** The signed operations on 256 bits, for operands and results that are not negative. *)
Theorem mock_signed_big_nonneg : forall P (c : comp) (o : mop) (s xh xl t yh yl : var) (row r : Z) (T : table P),
  first_cols c 3 -> 2 ^ 128 <= char P -> val T s = 0 -> val T t = 0 -> half T xh -> half T xl -> half T yh -> half T yl ->
  op_spec o (halves (val T xh) (val T xl)) (halves (val T yh) (val T yl)) r -> 0 <= r < 2 ^ 256 ->
  exists T', m_fill c row (sb_vals o s xh xl t yh yl T) T = Some T' /\
    out T' row 0 = 0 /\ halves (out T' row 1) (out T' row 2) = r /\ out T' row 2 < 2 ^ 128 /\ frame c 1 row T T'.
Proof.
  intros P c o s xh xl t yh yl row r T Hc HP Hs Ht A B C D Hr Rr. unfold sb_vals. rewrite !spair_is by assumption. rewrite (op_is _ _ _ _ Hr).
  cbv zeta. rewrite (int_id 256 r) by lia. rewrite (top_is r Rr), bottom_is.
  rewrite (proj2 (Z.leb_le 0 (Z.sgn r))) by (destruct r; cbn; lia). cbn [m_fill]. eexists. split; [reflexivity|].
  pose proof (half_top r Rr). pose proof (Z.mod_pos_bound r (2 ^ 128) ltac:(lia)).
  change [ofZ 0; ofZ (r / 2 ^ 128); ofZ (r mod 2 ^ 128)] with (map (fun z => ofZ z : F P) [0; r / 2 ^ 128; r mod 2 ^ 128]).
  assert (R : forall z, In z [0; r / 2 ^ 128; r mod 2 ^ 128] -> 0 <= z < char P) by (intros z [<-|[<-|[<-|[]]]]; lia).
  rewrite !(put_Z P c row [0; r / 2 ^ 128; r mod 2 ^ 128] T 3 eq_refl Hc R) by lia.
  split; [reflexivity|]. split; [apply split_is|]. split; [|apply put_frame; exact (proj1 Hc)]. apply Z.mod_pos_bound. reflexivity.
Qed.
Print Assumptions mock_signed_big_nonneg.

Theorem mock_abs : forall P (c : comp) (s h l : var) (row : Z) (T : table P),
  (first_cols c 2 -> let T' := m_put c row (abs_small_vals l T) T in
     signed (out T' row 0) (out T' row 1) = Z.abs (signed (val T s) (val T l)) /\ frame c 1 row T T') /\
  (first_cols c 3 -> let T' := m_put c row (abs_big_vals h l T) T in
     signed (out T' row 0) (halves (out T' row 1) (out T' row 2)) = Z.abs (signed (val T s) (halves (val T h) (val T l))) /\ frame c 1 row T T').
Proof.
  intros P c s h l row T. pose proof (fval_range P (vval T h)) as Hh. pose proof (fval_range P (vval T l)) as Hl. fold (val T h) in Hh. fold (val T l) in Hl.
  pose proof (char_ge_2 P) as H2. split; intros Hc T'; (split; [|apply put_frame; exact (proj1 Hc)]); rewrite signed_abs; unfold T', out.
  - assert (E : forall i, 0 <= i < 2 -> val (m_put c row (abs_small_vals l T) T) (m_out row i) = fval (znth f0 (abs_small_vals l T) i))
      by (intros i Hi; unfold val; rewrite (put_out P c row (abs_small_vals l T) T 2 eq_refl Hc i Hi); reflexivity).
    assert (E0 := E 0 ltac:(lia)). assert (E1 := E 1 ltac:(lia)). change (fval (znth f0 (abs_small_vals l T) 0)) with (fval (ofZ 0 : F P)) in E0.
    change (fval (znth f0 (abs_small_vals l T) 1)) with (val T l) in E1. rewrite fval_ofZ_small in E0 by lia. rewrite E0, E1. unfold signed. cbn [Z.eqb]. lia.
  - assert (E : forall i, 0 <= i < 3 -> val (m_put c row (abs_big_vals h l T) T) (m_out row i) = fval (znth f0 (abs_big_vals h l T) i))
      by (intros i Hi; unfold val; rewrite (put_out P c row (abs_big_vals h l T) T 3 eq_refl Hc i Hi); reflexivity).
    assert (E0 := E 0 ltac:(lia)). assert (E1 := E 1 ltac:(lia)). assert (E2 := E 2 ltac:(lia)). change (fval (znth f0 (abs_big_vals h l T) 0)) with (fval (ofZ 0 : F P)) in E0.
    change (fval (znth f0 (abs_big_vals h l T) 1)) with (val T h) in E1. change (fval (znth f0 (abs_big_vals h l T) 2)) with (val T l) in E2.
    rewrite fval_ofZ_small in E0 by lia. rewrite E0, E1, E2. unfold signed, halves. cbn [Z.eqb]. lia.
Qed.
Print Assumptions mock_abs.

(** A division by zero throws. *)
Theorem mock_division_by_zero : forall P (c : comp) (o : mop) (bits : Z) (s x t y xh yh : var) (row : Z) (T : table P),
  o = MDiv \/ o = MRem -> val T y = 0 ->
  m_fill c row (us_vals bits o x y T) T = None /\ m_fill c row (ss_vals bits o s x t y T) T = None /\
  (val T yh = 0 -> m_fill c row (ub_vals o xh x yh y T) T = None /\ m_fill c row (sb_vals o s xh x t yh y T) T = None).
Proof.
  intros P c o bits s x t y xh yh row T Ho Hy. unfold val in *.
  assert (Z0 : forall a, m_op o a 0 = None) by (intros a; destruct Ho as [-> | ->]; reflexivity).
  assert (U : forall n, m_uint n 0 = 0) by (intros n; unfold m_uint; apply Zmod_0_l).
  assert (I : forall n, m_int n 0 = 0) by (intros n; reflexivity).
  unfold us_vals, ss_vals. rewrite Hy. rewrite U, Z0, I, Z.mul_0_r, I, Z0. split; [reflexivity|]. split; [reflexivity|].
  intros Hh. assert (A : m_pair yh y T = 0) by (rewrite pair_is; unfold half, halves, val; rewrite ?Hy, ?Hh; reflexivity).
  assert (B : m_spair t yh y T = 0) by (unfold m_spair; rewrite Hy, Hh; destruct (m_sign T t); reflexivity).
  unfold ub_vals, sb_vals. rewrite A, B, !Z0. split; reflexivity.
Qed.
Print Assumptions mock_division_by_zero.

(** ** C125 *)

Definition mk_tab (l : list Z) : table Ppallas := fun ty _ r => match ty with CPub => ofZ (znth 0 l r) | _ => f0 end.
Definition mk_comp (k n : Z) : comp := mkComp (zseq k (k + n)) [] [].
Lemma mk_first : first_cols (mk_comp 0 1) 1 /\ first_cols (mk_comp 0 2) 2 /\ first_cols (mk_comp 0 3) 3.
Proof.
  split; [|split]; (split; [split; [repeat constructor; cbn; intuition discriminate|split; reflexivity]|]); intros i Hi;
    (assert (H : i = 0 \/ i = 1 \/ i = 2) by lia); destruct H as [->|[->| ->]]; try reflexivity; lia.
Qed.

(** The circuit has no constraints: a table may hold any result. *)
Theorem mock_result_refuted : exists (P : params) (c : comp) (x y : var) (row : Z) (T : table P),
  first_cols c 1 /\ (forall L : lenv P, sat L T (m_circuit P)) /\ val T x = 2 /\ val T y = 3 /\ out T row 0 <> 5.
Proof.
  exists Ppallas, (mk_comp 0 1), (pin 0), (pin 1), 0, (mk_tab [2; 3]).
  split; [apply mk_first|]. split; [intros L; apply sat_nil|]. split; [reflexivity|]. split; [reflexivity|]. intro E. vm_compute in E. discriminate E.
Qed.
Print Assumptions mock_result_refuted.

(** On other columns the result variable is not the cell that was filled. *)
Theorem mock_columns_refuted : exists (P : params) (c : comp) (x y : var) (row : Z) (T T' : table P),
  wf_comp c 1 /\ val T x = 2 /\ val T y = 3 /\ m_fill c row (us_vals 64 MAdd x y T) T = Some T' /\ out T' row 0 <> 5.
Proof.
  exists Ppallas, (mk_comp 1 1), (pin 0), (pin 1), 0, (mk_tab [2; 3]). eexists.
  split; [split; [repeat constructor; cbn; intuition discriminate|split; reflexivity]|].
  split; [reflexivity|]. split; [reflexivity|]. split; [reflexivity|]. intro E. vm_compute in E. discriminate E.
Qed.
Print Assumptions mock_columns_refuted.

(** The sign of a number of 256 bits is applied to its high half only: -1 + 1 is 2. *)
Theorem mock_signed_big_refuted : exists (P : params) (c : comp) (s xh xl t yh yl : var) (row : Z) (T T' : table P),
  first_cols c 3 /\ 2 ^ 128 <= char P /\ half T xh /\ half T xl /\ half T yh /\ half T yl /\
  op_spec MAdd (signed (val T s) (halves (val T xh) (val T xl))) (signed (val T t) (halves (val T yh) (val T yl))) 0 /\
  m_fill c row (sb_vals MAdd s xh xl t yh yl T) T = Some T' /\ out T' row 0 = 0 /\ halves (out T' row 1) (out T' row 2) = 2.
Proof.
  exists Ppallas, (mk_comp 0 3), (pin 0), (pin 1), (pin 2), (pin 3), (pin 4), (pin 5), 0, (mk_tab [1; 0; 1; 0; 0; 1]). eexists.
  split; [apply mk_first|]. split; [intro X; discriminate X|]. do 4 (split; [reflexivity|]). split; [reflexivity|]. split; [reflexivity|].
  split; vm_compute; reflexivity.
Qed.
Print Assumptions mock_signed_big_refuted.

(** ** Examples *)

Example mock_small_ex : op_spec MDiv (signed 1 7) (signed 0 2) (-3) /\ op_spec MRem (signed 1 7) (signed 0 2) (-1) /\
  exists T', m_fill (mk_comp 0 2) 0 (ss_vals 64 MDiv (pin 0) (pin 1) (pin 2) (pin 3) (mk_tab [1; 7; 0; 2])) (mk_tab [1; 7; 0; 2]) = Some T' /\
    signed (out T' 0 0) (out T' 0 1) = -3.
Proof.
  assert (A : op_spec MDiv (signed 1 7) (signed 0 2) (-3)) by (exists (-1); cbn; lia).
  split; [exact A|]. split; [exists (-3); cbn; lia|].
  destruct (mock_signed_small Ppallas (mk_comp 0 2) 64 MDiv (pin 0) (pin 1) (pin 2) (pin 3) 0 (-3) (mk_tab [1; 7; 0; 2])) as [T' [E [R _]]];
    [apply mk_first|intro X; discriminate X|reflexivity|reflexivity|exact A|reflexivity|]. exists T'. split; [exact E|exact R].
Qed.
Example mock_big_ex : exists T', m_fill (mk_comp 0 2) 0 (ub_vals MMul (pin 0) (pin 1) (pin 2) (pin 3) (mk_tab [1; 7; 0; 2])) (mk_tab [1; 7; 0; 2]) = Some T' /\
  halves (out T' 0 0) (out T' 0 1) = 2 ^ 129 + 14.
Proof.
  destruct (mock_unsigned_big Ppallas (mk_comp 0 2) MMul (pin 0) (pin 1) (pin 2) (pin 3) 0 (2 ^ 129 + 14) (mk_tab [1; 7; 0; 2])) as [T' [E [R _]]];
    [apply mk_first|intro X; discriminate X|reflexivity|reflexivity|reflexivity|reflexivity|reflexivity|split; [intro X; discriminate X|reflexivity]|].
  exists T'. split; [exact E|exact R].
Qed.
Example mock_unsigned_small_ex : exists T', m_fill (mk_comp 0 1) 0 (us_vals 8 MRem (pin 0) (pin 1) (mk_tab [200; 7])) (mk_tab [200; 7]) = Some T' /\ out T' 0 0 = 4.
Proof.
  destruct (mock_unsigned_small Ppallas (mk_comp 0 1) 8 MRem (pin 0) (pin 1) 0 4 (mk_tab [200; 7])) as [T' [E [R _]]];
    [apply mk_first|intro X; discriminate X|reflexivity|reflexivity|exists 28; split; [reflexivity|split; [reflexivity|intro X; discriminate X]]|lia|].
  exists T'. split; [exact E|exact R].
Qed.
Example mock_signed_big_ex : exists T', m_fill (mk_comp 0 3) 0 (sb_vals MSub (pin 0) (pin 1) (pin 2) (pin 3) (pin 4) (pin 5) (mk_tab [0; 1; 0; 0; 0; 1])) (mk_tab [0; 1; 0; 0; 0; 1]) = Some T' /\
  halves (out T' 0 1) (out T' 0 2) = 2 ^ 128 - 1.
Proof.
  destruct (mock_signed_big_nonneg Ppallas (mk_comp 0 3) MSub (pin 0) (pin 1) (pin 2) (pin 3) (pin 4) (pin 5) 0 (2 ^ 128 - 1) (mk_tab [0; 1; 0; 0; 0; 1])) as [T' [E [_ [R _]]]];
    [apply mk_first|intro X; discriminate X|reflexivity|reflexivity|reflexivity|reflexivity|reflexivity|reflexivity|reflexivity|split; [intro X; discriminate X|reflexivity]|].
  exists T'. split; [exact E|exact R].
Qed.
Example mock_compare_ex : out (m_put (mk_comp 0 1) 0 (ubc_vals MLess (pin 0) (pin 1) (pin 2) (pin 3) (mk_tab [1; 7; 1; 8])) (mk_tab [1; 7; 1; 8])) 0 0 = 1 /\
  half (mk_tab [1; 7; 1; 8]) (pin 3).
Proof. split; vm_compute; reflexivity. Qed.
Example mock_zero_ex : m_fill (mk_comp 0 1) 0 (us_vals 64 MDiv (pin 0) (pin 1) (mk_tab [5; 0])) (mk_tab [5; 0]) = None.
Proof. apply (mock_division_by_zero Ppallas (mk_comp 0 1) MDiv 64 (pin 0) (pin 0) (pin 0) (pin 1) (pin 0) (pin 0) 0 (mk_tab [5; 0])); [left; reflexivity|reflexivity]. Qed.
Example mock_abs_ex : out (m_put (mk_comp 0 3) 0 (abs_big_vals (pin 1) (pin 2) (mk_tab [1; 3; 7])) (mk_tab [1; 3; 7])) 0 1 = 3 /\
  Z.abs (signed (val (mk_tab [1; 3; 7]) (pin 0)) (halves (val (mk_tab [1; 3; 7]) (pin 1)) (val (mk_tab [1; 3; 7]) (pin 2)))) = 3 * 2 ^ 128 + 7.
Proof. split; vm_compute; reflexivity. Qed.
