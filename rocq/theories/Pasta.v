(** The base fields of the Pasta curves are prime fields, and y^2 = x^3 + 5 has no
    point on the axes over either of them.  Nothing here models code. *)
From Coq Require Import ZArith Znumtheory Zpow_facts List Lia Bool.
From Verif Require Import Base Field Primes CurveSpec.
Import ListNotations.
Open Scope Z_scope.

(** The certificate check of Primes.v with the factors' primality given. *)
Definition power_check (n a : Z) (qs : list Z) (r : Z) : bool :=
  (2 <? n) && (n - 1 =? prodz qs * r) && (n <=? prodz qs * prodz qs) && (0 <? prodz qs) && (0 <? a) &&
  forallb (fun q => let b := powm n a ((n - 1) / q) in
             (powm n b q =? 1) && (Z.gcd ((b - 1) mod n) n =? 1)) qs.

Lemma power_check_ok : forall n a qs r, (forall q, In q qs -> prime q) -> power_check n a qs r = true -> prime n.
Proof.
  intros n a qs r HQ H. unfold power_check in H. rewrite !andb_true_iff in H.
  destruct H as [[[[[H1 H2] H2b] H2c] H4] H6].
  apply Z.ltb_lt in H1, H4, H2c. apply Z.eqb_eq in H2. apply Z.leb_le in H2b. rewrite forallb_forall in H6.
  assert (X : forall q, In q qs -> a ^ (n - 1) mod n = 1 /\ Z.gcd ((a ^ ((n - 1) / q) - 1) mod n) n = 1).
  { intros q Hq. assert (Dq : (q | n - 1)) by (rewrite H2; apply Z.divide_mul_l; apply divide_prod_all; exact Hq).
    specialize (H6 q Hq). pose proof (prime_ge_2 q (HQ q Hq)). cbv zeta in H6. rewrite andb_true_iff, !Z.eqb_eq in H6. destruct H6 as [E1 E2].
    assert (Q0 : 0 <= (n - 1) / q) by (apply Z.div_pos; lia).
    rewrite powm_ok in E1, E2 by lia. rewrite powm_ok in E1 by lia.
    rewrite <- Zpower_mod, <- Z.pow_mul_r in E1 by lia.
    destruct Dq as [m Em]. rewrite Em in E1. rewrite Z.div_mul in E1 by lia.
    split; [rewrite Em; exact E1|]. rewrite Zminus_mod in *. rewrite Z.mod_mod in E2 by lia. exact E2. }
  assert (Ex : exists q, In q qs).
  { destruct qs as [|q qs]; [cbn in H2b; lia|exists q; left; reflexivity]. }
  destruct Ex as [q0 Hq0].
  apply (pocklington n a qs r); auto; try lia; try (intros q Hq; apply X; exact Hq). apply (X q0 Hq0).
Qed.

Lemma no_root_pow : forall p k a v, prime p -> 0 < k -> (k | p - 1) -> 0 < a < p -> a ^ ((p - 1) / k) mod p <> 1 -> v ^ k mod p <> a.
Proof.
  intros p k a v Hp Hk [m Em] Ha HN E. pose proof (prime_ge_2 p Hp). apply HN.
  assert (ED : (p - 1) / k = m) by (rewrite Em; apply Z.div_mul; lia). assert (Hm : 0 <= m) by nia.
  rewrite ED. rewrite <- E, <- Zpower_mod, <- Z.pow_mul_r by lia.
  rewrite (Z.mul_comm k m), <- Em. apply fermat_Z; [exact Hp|]. intros [j Ej].
  assert (K : v ^ k mod p = 0).
  { apply Z.mod_divide; [lia|]. replace k with (Z.succ (k - 1)) by lia. rewrite Z.pow_succ_r by lia.
    apply Z.divide_mul_l. exists j. exact Ej. }
  lia.
Qed.

(** y^2 = x^3 + b without axis points, decided by two powers. *)
Lemma no_axis_by_powers : forall P b, (2 | char P - 1) -> (3 | char P - 1) -> 0 < b < char P ->
  b ^ ((char P - 1) / 2) mod char P <> 1 -> (char P - b) ^ ((char P - 1) / 3) mod char P <> 1 ->
  no_axis_points (P := P) (ofZ b).
Proof.
  intros P b D2 D3 Hb N2 N3. pose proof (char_prime P) as HP. split.
  - intros y E. apply (no_root_pow (char P) 2 b (fval y) HP ltac:(lia) D2 Hb N2).
    apply (f_equal fval) in E. rewrite fval_ofZ_small in E by lia. rewrite <- E. rewrite Z.pow_2_r. reflexivity.
  - intros x E. apply (no_root_pow (char P) 3 (char P - b) (fval x) HP ltac:(lia) D3 ltac:(lia) N3).
    assert (K : (fval x ^ 3 + b) mod char P = 0).
    { replace (fval x ^ 3) with (fval x * fval x * fval x) by ring.
      rewrite <- (ofZ_fval P x), <- !ofZ_mul, <- ofZ_add in E. apply ofZ_inj in E. rewrite E. apply Z.mod_0_l. lia. }
    symmetry. apply (Z.mod_unique_pos _ _ ((fval x ^ 3 + b) / char P - 1)); [lia|].
    pose proof (Z.div_mod (fval x ^ 3 + b) (char P) ltac:(lia)). lia.
Qed.

(** ** The two fields *)

(** Powers modulo [n = 2^254 + t]. *)
Definition redt (t x : Z) : Z := let h := Z.shiftr x 254 in x - Z.shiftl h 254 - t * h.
Fixpoint powt_pos (t a : Z) (e : positive) : Z :=
  match e with
  | xH => a
  | xO e => let b := powt_pos t a e in redt t (redt t (b * b))
  | xI e => let b := powt_pos t a e in redt t (redt t (a * redt t (redt t (b * b))))
  end.
Definition powt (t a e : Z) : Z := match e with Zpos e => powt_pos t a e mod (2 ^ 254 + t) | _ => 1 end.

Lemma redt_mod : forall t x, 0 <= t -> redt t x mod (2 ^ 254 + t) = x mod (2 ^ 254 + t).
Proof.
  intros t x Ht. unfold redt. cbv zeta. rewrite Z.shiftl_mul_pow2 by lia. set (h := Z.shiftr x 254).
  replace (x - h * 2 ^ 254 - t * h) with (x + (- h) * (2 ^ 254 + t)) by ring. apply Z_mod_plus_full.
Qed.
Lemma powt_pos_ok : forall t a e, 0 <= t -> powt_pos t a e mod (2 ^ 254 + t) = a ^ Zpos e mod (2 ^ 254 + t).
Proof.
  intros t a e Ht. assert (Hn : 0 < 2 ^ 254 + t) by lia. induction e as [e IH|e IH|]; cbn [powt_pos].
  - rewrite !redt_mod by exact Ht. rewrite <- Z.mul_mod_idemp_r, !redt_mod by lia.
    set (b := powt_pos t a e) in *. rewrite (Z.mul_mod b b), IH, <- (Z.mul_mod (a ^ Z.pos e) (a ^ Z.pos e)) by lia.
    rewrite Z.mul_mod_idemp_r by lia. rewrite <- Z.pow_add_r by lia.
    rewrite <- Z.pow_succ_r by lia. f_equal. f_equal. lia.
  - rewrite !redt_mod by exact Ht. rewrite Z.mul_mod, IH, <- Z.mul_mod by lia. rewrite <- Z.pow_add_r by lia. f_equal. f_equal. lia.
  - rewrite Z.pow_1_r. reflexivity.
Qed.
Lemma powt_ok : forall t a e, 0 <= t -> 0 <= e -> powt t a e = a ^ e mod (2 ^ 254 + t).
Proof.
  intros t a e Ht He. destruct e as [|e|e]; [|apply powt_pos_ok; exact Ht|lia].
  cbn [powt]. rewrite Z.pow_0_r, Z.mod_1_l by lia. reflexivity.
Qed.

(** One chain of powers of 5 certifies that [n = 2^254 + t] is prime, and that 5
    is neither a square nor minus a cube modulo [n]. *)
Definition pasta_check (t g : Z) (k : nat) : bool :=
  let n := 2 ^ 254 + t in
  let r := (n - 1) / (6 * g) in
  let e := powt t 5 r in
  let c := powt t e g in
  let b := powt t e 6 in
  let c2 := powt t c 2 in
  let c3 := powt t c 3 in
  (n - 1 =? 6 * g * r) && (0 <=? t) && (0 <? r) && (1 <? g) && (powt t c 6 =? 1) && negb (c2 =? 1) && negb (c3 =? 1) &&
  (Z.gcd (b - 1) n =? 1) && (Z.gcd (c3 - 1) n =? 1) &&
  (n <=? (g * 2 ^ Z.of_nat k) * (g * 2 ^ Z.of_nat k)) && (r mod 2 ^ Z.of_nat k =? 0).

Lemma prodz_repeat2 : forall k, prodz (repeat 2 k) = 2 ^ Z.of_nat k.
Proof. induction k as [|k IH]; [reflexivity|]. cbn [repeat]. change (2 * prodz (repeat 2 k) = 2 ^ Z.of_nat (S k)). rewrite IH, Nat2Z.inj_succ, Z.pow_succ_r by lia. reflexivity. Qed.

Lemma gcd_pred : forall x n, 1 < n -> Z.gcd (x mod n - 1) n = 1 -> Z.gcd ((x - 1) mod n) n = 1.
Proof.
  intros x n Hn H. rewrite Z.gcd_mod by lia.
  assert (E : x - 1 = x mod n - 1 + x / n * n) by (pose proof (Z.div_mod x n ltac:(lia)); lia).
  rewrite E, Z.gcd_add_mult_diag_r, Z.gcd_comm. exact H.
Qed.

Lemma pasta_check_ok : forall t g k, prime g -> pasta_check t g k = true ->
  let n := 2 ^ 254 + t in
  prime n /\ (2 | n - 1) /\ (3 | n - 1) /\ 5 ^ ((n - 1) / 2) mod n <> 1 /\ (n - 5) ^ ((n - 1) / 3) mod n <> 1.
Proof.
  intros t g k Hg H n. unfold pasta_check in H. cbv zeta in H. fold n in H. set (r := (n - 1) / (6 * g)) in H.
  rewrite !andb_true_iff, !negb_true_iff, !Z.eqb_eq, !Z.eqb_neq, !Z.leb_le, !Z.ltb_lt in H.
  destruct H as [[[[[[[[[[E Ht] Hr] Hg1] H6] H2] H3] HB] HC] HL] HD].
  assert (N : 1 < n) by (unfold n; lia).
  rewrite !powt_ok in H6, H2, H3, HB, HC by lia. fold n in H6, H2, H3, HB, HC.
  rewrite <- !Zpower_mod in H6, H2, H3, HB, HC by lia. rewrite <- !Z.pow_mul_r in H6, H2, H3, HB, HC by lia.
  rewrite powt_ok in H6, H2, H3, HC by lia. fold n in H6, H2, H3, HC.
  rewrite <- !Zpower_mod in H6, H2, H3, HC by lia. rewrite <- !Z.pow_mul_r in H6, H2, H3, HC by lia.
  clearbody r n. clear Ht.
  assert (EX : forall a b, 0 < b -> n - 1 = a * b -> (n - 1) / b = a) by (intros a b Hb ->; apply Z.div_mul; lia).
  split; [|split; [|split; [|split]]].
  - destruct (Z.mod_divide r (2 ^ Z.of_nat k)) as [MD _]; [apply Z.pow_nonzero; lia|]. destruct (MD HD) as [m Em].
    apply (pocklington n 5 (g :: repeat 2 k) (6 * m)); try lia.
    + change (prodz (g :: repeat 2 k)) with (g * prodz (repeat 2 k)). rewrite prodz_repeat2. rewrite E, Em. ring.
    + change (prodz (g :: repeat 2 k)) with (g * prodz (repeat 2 k)). rewrite prodz_repeat2. exact HL.
    + change (prodz (g :: repeat 2 k)) with (g * prodz (repeat 2 k)). rewrite prodz_repeat2.
      apply Z.mul_pos_pos; [lia|apply Z.pow_pos_nonneg; lia].
    + intros q [<-|Hq]; [exact Hg|]. apply repeat_spec in Hq. subst q. apply prime_2.
    + etransitivity; [|exact H6]. f_equal. f_equal. lia.
    + intros q [<-|Hq].
      * apply gcd_pred; [exact N|]. rewrite (EX (r * 6) g) by lia. exact HB.
      * apply repeat_spec in Hq. subst q. apply gcd_pred; [exact N|]. rewrite (EX (r * (g * 3)) 2) by lia. exact HC.
  - exists (r * (g * 3)). lia.
  - exists (r * (g * 2)). lia.
  - rewrite (EX (r * (g * 3)) 2) by lia. exact H3.
  - rewrite (EX (r * (g * 2)) 3) by lia. intros K. apply H2. etransitivity; [|exact K].
    replace (r * (g * 2)) with (2 * (r * g)) by ring. rewrite (Z.pow_mul_r 5 2 (r * g)), (Z.pow_mul_r (n - 5) 2 (r * g)) by nia.
    rewrite (Zpower_mod (5 ^ 2)), (Zpower_mod ((n - 5) ^ 2)) by lia. f_equal. f_equal.
    replace ((n - 5) ^ 2) with (5 ^ 2 + (n - 10) * n) by ring. symmetry. apply Z_mod_plus_full.
Qed.

Definition pallas_p : Z := 0x40000000000000000000000000000000224698fc094cf91b992d30ed00000001.
Definition vesta_q : Z := 0x40000000000000000000000000000000224698fc0994a8dd8c46eb2100000001.

Lemma prime_22160661629 : prime 22160661629.
Proof. apply (order_check_ok 22160661629 2 [41655379] 532). vm_compute. reflexivity. Qed.
Lemma prime_f : prime 8999194758858563409123804352480028797519453.
Proof.
  apply (power_check_ok 8999194758858563409123804352480028797519453 2 [22160661629; 1197907; 115603; 2531]
    (4 * 81 * 11 * 325086459374267)); [|vm_compute; reflexivity].
  intros q [<-|[<-|[<-|[<-|[]]]]]; [apply prime_22160661629|apply prime_check_ok; vm_compute; reflexivity..].
Qed.
Lemma prime_g : prime 10427374428728808478656897599072717.
Proof.
  apply (power_check_ok 10427374428728808478656897599072717 2 [399082391; 4229279; 294793] (4 * 5239247429827)); [|vm_compute; reflexivity].
  intros q [<-|[<-|[<-|[]]]]; apply prime_check_ok; vm_compute; reflexivity.
Qed.

Definition pallas_t : Z := 0x224698fc094cf91b992d30ed00000001.
Definition vesta_t : Z := 0x224698fc0994a8dd8c46eb2100000001.
Lemma pallas_facts : let n := 2 ^ 254 + pallas_t in
  prime n /\ (2 | n - 1) /\ (3 | n - 1) /\ 5 ^ ((n - 1) / 2) mod n <> 1 /\ (n - 5) ^ ((n - 1) / 3) mod n <> 1.
Proof. apply (pasta_check_ok pallas_t _ 0 prime_f). vm_compute. reflexivity. Qed.
Lemma vesta_facts : let n := 2 ^ 254 + vesta_t in
  prime n /\ (2 | n - 1) /\ (3 | n - 1) /\ 5 ^ ((n - 1) / 2) mod n <> 1 /\ (n - 5) ^ ((n - 1) / 3) mod n <> 1.
Proof. apply (pasta_check_ok vesta_t _ 15 prime_g). vm_compute. reflexivity. Qed.

Lemma pallas_prime : prime (2 ^ 254 + pallas_t). Proof. exact (proj1 pallas_facts). Qed.
Lemma vesta_prime : prime (2 ^ 254 + vesta_t). Proof. exact (proj1 vesta_facts). Qed.
Definition Ppallas : params := mkParams (2 ^ 254 + pallas_t) pallas_prime.
Definition Pvesta : params := mkParams (2 ^ 254 + vesta_t) vesta_prime.
Lemma char_pallas : char Ppallas = pallas_p. Proof. reflexivity. Qed.
Lemma char_vesta : char Pvesta = vesta_q. Proof. reflexivity. Qed.

Lemma pallas_no_axis : no_axis_points (P := Ppallas) (ofZ 5).
Proof.
  destruct pallas_facts as [_ [D2 [D3 [N2 N3]]]]. apply no_axis_by_powers; cbn [char Ppallas]; try assumption. unfold pallas_t; lia.
Qed.
Lemma vesta_no_axis : no_axis_points (P := Pvesta) (ofZ 5).
Proof.
  destruct vesta_facts as [_ [D2 [D3 [N2 N3]]]]. apply no_axis_by_powers; cbn [char Pvesta]; try assumption. unfold vesta_t; lia.
Qed.
