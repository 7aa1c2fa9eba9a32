(** Number theory used by the proofs: Fermat's little theorem, and a primality
    certificate check so that the concrete instances can use a field of the
    size the project uses.  Nothing here models code. *)
From Coq Require Import ZArith Znumtheory Zpow_facts List Lia Bool Permutation Field.
From Verif Require Import Base Field.
Import ListNotations.
Open Scope Z_scope.

(** ** Fermat *)
Section Fermat.
Variable P : params.
Notation F := (F P).
Add Field Ff : (F_field P) (morphism (F_morph P), constants [F_const], power_tac (F_power P) [F_pow_tac]).

Definition prodf (l : list F) : F := fold_right fmul f1 l.

Lemma prodf_perm : forall l l', Permutation l l' -> prodf l = prodf l'.
Proof. intros l l' H. induction H; cbn [prodf fold_right]; try (fold (prodf l) in * ); try ring; [f_equal; assumption|congruence]. Qed.

Lemma prodf_map : forall a l, prodf (map (fmul a) l) = (fpow a (length l) * prodf l)%F.
Proof. intros a l. induction l as [|x l IH]; cbn [map length fpow]; [cbn; ring|].
  change (prodf (fmul a x :: map (fmul a) l)) with (a * x * prodf (map (fmul a) l))%F. change (prodf (x :: l)) with (x * prodf l)%F.
  rewrite IH. ring. Qed.

Definition units : list F := map ofZ (zseq 1 (char P)).

Lemma in_units : forall x : F, In x units <-> x <> f0.
Proof.
  intros x. unfold units. rewrite in_map_iff. split.
  - intros [z [<- H]] E. apply in_zseq in H. apply (f_equal fval) in E.
    rewrite fval_ofZ_small in E by lia. unfold f0 in E. rewrite fval_ofZ_small in E by lia. lia.
  - intros H. exists (fval x). split; [apply ofZ_fval|]. apply in_zseq.
    pose proof (fval_range P x). assert (fval x <> 0); [|lia].
    intros E. apply H. rewrite <- (ofZ_fval P x), E. reflexivity.
Qed.

Lemma nodup_map_in : forall A B (f : A -> B) l, (forall x y, In x l -> In y l -> f x = f y -> x = y) -> NoDup l -> NoDup (map f l).
Proof.
  intros A B f l Hf H. induction H as [|x l Hx H IH]; cbn; constructor.
  - rewrite in_map_iff. intros [y [E Hy]]. apply Hf in E; [subst; auto|right; auto|left; auto].
  - apply IH. intros u v Hu Hv. apply Hf; right; auto.
Qed.

Lemma nodup_units : NoDup units.
Proof.
  apply nodup_map_in; [|apply nodup_zseq]. intros x y Hx Hy E. apply in_zseq in Hx, Hy.
  apply (f_equal fval) in E. rewrite !fval_ofZ_small in E by lia. exact E.
Qed.

Lemma len_units : length units = Z.to_nat (char P - 1).
Proof. unfold units. rewrite map_length. apply zseq_length. Qed.

Lemma fermat : forall a : F, a <> f0 -> fpow a (Z.to_nat (char P - 1)) = f1.
Proof.
  intros a Ha.
  assert (PM : Permutation (map (fmul a) units) units).
  { apply NoDup_Permutation_bis.
    - apply nodup_map_in; [|apply nodup_units]. intros x y _ _ E.
      assert (X : (finv a * (a * x))%F = (finv a * (a * y))%F) by (rewrite E; reflexivity).
      replace (finv a * (a * x))%F with x in X by (field; exact Ha).
      replace (finv a * (a * y))%F with y in X by (field; exact Ha). exact X.
    - rewrite map_length. lia.
    - intros y Hy. apply in_map_iff in Hy. destruct Hy as [x [<- Hx]]. apply in_units in Hx. apply in_units.
      intros E. apply fmul_integral in E. tauto. }
  apply prodf_perm in PM. rewrite prodf_map, len_units in PM.
  assert (N : prodf units <> f0).
  { assert (G : forall l, (forall x, In x l -> x <> f0) -> prodf l <> f0).
    { induction l as [|x l IH]; cbn; intros H; [apply f1_neq_f0|]. intros E. apply fmul_integral in E.
      destruct E as [E|E]; [apply (H x); auto|]. apply IH; auto. }
    apply G. intros x. apply in_units. }
  set (e := fpow a (Z.to_nat (char P - 1))) in *.
  replace e with ((e * prodf units) * finv (prodf units))%F by (field; exact N).
  rewrite PM. field. exact N.
Qed.
End Fermat.

Lemma fermat_Z : forall p a, prime p -> ~ (p | a) -> a ^ (p - 1) mod p = 1.
Proof.
  intros p a Hp N. pose proof (prime_ge_2 p Hp).
  pose proof (fermat (mkParams p Hp) (ofZ a)) as H0. cbn [char] in H0.
  rewrite <- ofZ_pow in H0. rewrite Z2Nat.id in H0 by lia.
  assert (E : ofZ (P := mkParams p Hp) (a ^ (p - 1)) = f1).
  { apply H0. intros E. apply N. unfold f0 in E. apply ofZ_inj in E. cbn [char] in E.
    rewrite Z.mod_0_l in E by lia. apply Z.mod_divide; [lia|exact E]. }
  unfold f1 in E. apply ofZ_inj in E. cbn [char] in E. rewrite E. apply Z.mod_1_l. lia.
Qed.

(** ** Primality certificates *)

Lemma prime_divisor : forall n, 2 <= n -> exists d, prime d /\ (d | n).
Proof.
  intros n. assert (H0 : 0 <= n \/ n < 0) by lia. destruct H0 as [H0|H0]; [|lia]. revert n H0.
  apply (Z_lt_induction (fun n => 2 <= n -> exists d, prime d /\ (d | n))).
  intros n IH Hn. destruct (prime_dec n) as [Hp|Hp].
  - exists n. split; [exact Hp|apply Z.divide_refl].
  - destruct (not_prime_divide n) as [d [Hd D]]; [lia|exact Hp|].
    destruct (IH d) as [e [He De]]; [lia|lia|]. exists e. split; [exact He|].
    eapply Z.divide_trans; eauto.
Qed.

(** Exponents to which a residue is one are closed under gcd. *)
Lemma pow_one_mod : forall d a g k, 1 < d -> 0 <= g -> 0 <= k -> a ^ g mod d = 1 -> a ^ (g * k) mod d = 1.
Proof.
  intros d a g k Hd Hg Hk H. rewrite Z.pow_mul_r by lia.
  rewrite <- (Z2Nat.id k) by lia. induction (Z.to_nat k) as [|n IH]; [cbn; apply Z.mod_1_l; lia|].
  rewrite Nat2Z.inj_succ, Z.pow_succ_r by lia. rewrite Z.mul_mod by lia. rewrite H, IH. apply Z.mod_1_l. lia.
Qed.

Lemma pow_one_gcd : forall d a m n, prime d -> ~ (d | a) -> 0 < m -> 0 < n ->
  a ^ m mod d = 1 -> a ^ n mod d = 1 -> a ^ Z.gcd m n mod d = 1.
Proof.
  intros d a m n Hp Na Hm Hn E1 E2. pose proof (prime_ge_2 d Hp) as Hd.
  set (g := Z.gcd m n).
  (* a Bezout identity u*m = v*n + g with nonnegative coefficients *)
  assert (B : exists u v, 0 <= u /\ 0 <= v /\ u * m = v * n + g).
  { destruct (Z.gcd_bezout m n g eq_refl) as [x [y E]].
    exists (x + n * Z.max (Z.abs x) (Z.abs y)), (m * Z.max (Z.abs x) (Z.abs y) - y). split; [nia|]. split; [nia|].
    rewrite <- E. ring. }
  destruct B as [u [v [Hu [Hv B]]]].
  assert (G : 0 <= g) by apply Z.gcd_nonneg.
  assert (A1 : a ^ (u * m) mod d = 1) by (rewrite Z.mul_comm; apply pow_one_mod; try lia; exact E1).
  assert (A2 : a ^ (v * n) mod d = 1) by (rewrite Z.mul_comm; apply pow_one_mod; try lia; exact E2).
  rewrite B, Z.pow_add_r in A1 by nia. rewrite Z.mul_mod, A2 in A1 by lia. rewrite Z.mul_1_l, Z.mod_mod in A1 by lia.
  exact A1.
Qed.

Definition prodz (l : list Z) : Z := fold_right Z.mul 1 l.

Lemma rel_prime_prod : forall h l, (forall q, In q l -> rel_prime h q) -> rel_prime h (prodz l).
Proof.
  intros h l H. induction l as [|q l IH]; cbn; [apply rel_prime_sym; apply rel_prime_1|].
  apply rel_prime_mult; [apply H; left; reflexivity|].
  apply IH. intros x Hx. apply H. right. exact Hx.
Qed.

(** Modular power by squaring.  Products are reduced by an estimated quotient
    ([mu] approximates [2^(2k+16) / n]); an inexact estimate only makes the
    intermediate values larger, the last step reduces fully. *)
Definition mred (n k mu x : Z) : Z :=
  x - Z.shiftr (Z.shiftr x (k - 1) * mu) (k + 17) * n.
Fixpoint powm_pos (n k mu a : Z) (e : positive) : Z :=
  match e with
  | xH => a
  | xO e => let b := powm_pos n k mu a e in mred n k mu (b * b)
  | xI e => let b := powm_pos n k mu a e in mred n k mu (a * mred n k mu (b * b))
  end.
Definition powm (n a e : Z) : Z :=
  match e with
  | Zpos e => let k := Z.log2 n + 1 in powm_pos n k (2 ^ (2 * k + 16) / n) a e mod n
  | _ => 1 mod n
  end.

Lemma mred_mod : forall n k mu x, mred n k mu x mod n = x mod n.
Proof.
  intros n k mu x. unfold mred. set (q := Z.shiftr _ _).
  replace (x - q * n) with (x + (- q) * n) by ring. apply Z_mod_plus_full.
Qed.

Lemma powm_pos_ok : forall n k mu a e, 0 < n -> powm_pos n k mu a e mod n = a ^ Zpos e mod n.
Proof.
  intros n k mu a e Hn. induction e as [e IH|e IH|]; cbn [powm_pos].
  - rewrite mred_mod. rewrite <- Z.mul_mod_idemp_r, mred_mod by lia.
    set (b := powm_pos n k mu a e) in *. rewrite (Z.mul_mod b b), IH, <- (Z.mul_mod (a ^ Z.pos e) (a ^ Z.pos e)) by lia.
    rewrite Z.mul_mod_idemp_r by lia. rewrite <- Z.pow_add_r by lia.
    rewrite <- Z.pow_succ_r by lia. f_equal. f_equal. lia.
  - rewrite mred_mod, Z.mul_mod, IH, <- Z.mul_mod by lia. rewrite <- Z.pow_add_r by lia. f_equal. f_equal. lia.
  - rewrite Z.pow_1_r. reflexivity.
Qed.

Lemma powm_ok : forall n a e, 0 < n -> 0 <= e -> powm n a e = a ^ e mod n.
Proof.
  intros n a e Hn He. destruct e as [|e|e]; [reflexivity|apply powm_pos_ok; exact Hn|lia].
Qed.

Lemma divide_prod_all : forall q l, In q l -> (q | prodz l).
Proof.
  intros q l. induction l as [|x l IH]; cbn; [tauto|]. intros [->|H].
  - apply Z.divide_factor_l.
  - apply Z.divide_mul_r. auto.
Qed.

(** Pocklington's criterion: [qs] are prime factors of [n - 1], with
    multiplicity, whose product exceeds the square root of [n]. *)
Lemma pocklington_divisor : forall n a qs r d, 2 < n ->
  n - 1 = prodz qs * r -> (forall q, In q qs -> prime q) -> 0 < a ->
  a ^ (n - 1) mod n = 1 ->
  (forall q, In q qs -> Z.gcd ((a ^ ((n - 1) / q) - 1) mod n) n = 1) ->
  prime d -> (d | n) -> prodz qs < d.
Proof.
  intros n a qs r d Hn Hprod Hqs Ha H1 Hg Hd Dn.
  pose proof (prime_ge_2 d Hd) as D2.
  assert (MD : forall x, x mod n = 1 -> x mod d = 1).
  { intros x E. destruct Dn as [k Ek]. rewrite Z.mod_eq in E by lia.
    replace x with (1 + (k * (x / n)) * d) by (rewrite Ek in E at 1; lia).
    rewrite Z_mod_plus_full. apply Z.mod_1_l. lia. }
  assert (Na : ~ (d | a)).
  { intros D. specialize (MD _ H1). replace (n - 1) with (Z.succ (n - 2)) in MD by lia.
    rewrite Z.pow_succ_r in MD by lia. destruct D as [k ->].
    replace (k * d * (k * d) ^ (n - 2)) with ((k * (k * d) ^ (n - 2)) * d) in MD by ring.
    rewrite Z.mod_mul in MD by lia. lia. }
  pose proof (fermat_Z d a Hd Na) as FE.
  pose proof (pow_one_gcd d a (n - 1) (d - 1) Hd Na ltac:(lia) ltac:(lia) (MD _ H1) FE) as G.
  set (g := Z.gcd (n - 1) (d - 1)) in *.
  assert (Gd : (g | n - 1)) by apply Z.gcd_divide_l.
  assert (Gd2 : (g | d - 1)) by apply Z.gcd_divide_r.
  destruct Gd as [h Eh].
  assert (Gpos : 0 < g). { pose proof (Z.gcd_nonneg (n - 1) (d - 1)). fold g in H. destruct (Z.eq_dec g 0) as [Z0|]; [|lia]. rewrite Z0 in Eh. lia. }
  assert (Hpos : 0 < h) by nia.
  assert (R : rel_prime h (prodz qs)).
  { apply rel_prime_prod. intros q Hq. apply rel_prime_sym. apply prime_rel_prime; [auto|].
    intros [k Ek]. specialize (Hg q Hq). pose proof (prime_ge_2 q (Hqs q Hq)).
    assert (E : (n - 1) / q = g * k).
    { rewrite Eh, Ek. replace (k * q * g) with ((g * k) * q) by ring. apply Z.div_mul. lia. }
    rewrite E in Hg.
    assert (K : 0 <= k) by nia.
    assert (X : a ^ (g * k) mod d = 1) by (apply pow_one_mod; lia).
    assert (Y : (d | (a ^ (g * k) - 1) mod n)).
    { assert (Z1 : (d | a ^ (g * k) - 1)).
      { apply Z.mod_divide; [lia|]. rewrite Zminus_mod, X, (Z.mod_1_l d) by lia. reflexivity. }
      rewrite Z.mod_eq by lia. apply Z.divide_sub_r; [exact Z1|]. apply Z.divide_mul_l. exact Dn. }
    pose proof (Z.gcd_greatest _ _ _ Y Dn) as W. rewrite Hg in W. apply Z.divide_1_r in W. lia. }
  assert (FG : (prodz qs | g)).
  { apply Gauss with h; [|apply rel_prime_sym; exact R]. exists r. rewrite <- Eh, Hprod. ring. }
  assert (FD : (prodz qs | d - 1)) by (eapply Z.divide_trans; eauto).
  apply Z.divide_pos_le in FD; lia.
Qed.

Theorem pocklington : forall n a qs r, 2 < n ->
  n - 1 = prodz qs * r -> n <= prodz qs * prodz qs -> 0 < prodz qs -> (forall q, In q qs -> prime q) -> 0 < a ->
  a ^ (n - 1) mod n = 1 ->
  (forall q, In q qs -> Z.gcd ((a ^ ((n - 1) / q) - 1) mod n) n = 1) ->
  prime n.
Proof.
  intros n a qs r Hn Hprod Hbig Hpos Hqs Ha H1 Hg.
  destruct (prime_dec n) as [Hp|Hp]; [exact Hp|exfalso].
  destruct (not_prime_divide n) as [e [He De]]; [lia|exact Hp|].
  destruct De as [k Ek].
  assert (Hk : 2 <= k) by nia.
  destruct (prime_divisor e) as [d [Hd Dd]]; [lia|].
  destruct (prime_divisor k) as [d' [Hd' Dd']]; [lia|].
  assert (L1 : prodz qs < d).
  { apply (pocklington_divisor n a qs r d); auto. rewrite Ek. apply Z.divide_mul_r. exact Dd. }
  assert (L2 : prodz qs < d').
  { apply (pocklington_divisor n a qs r d'); auto. rewrite Ek. apply Z.divide_mul_l. exact Dd'. }
  apply Z.divide_pos_le in Dd; [|lia]. apply Z.divide_pos_le in Dd'; [|lia]. nia.
Qed.

(** The check raises to [(n - 1) / q] once per factor and obtains the
    [n - 1]-st power from that. *)
Definition order_check (n a : Z) (qs : list Z) (r : Z) : bool :=
  (2 <? n) && (n - 1 =? prodz qs * r) && (n <=? prodz qs * prodz qs) && (0 <? prodz qs) &&
  forallb prime_check (nodup Z.eq_dec qs) && (0 <? a) &&
  forallb (fun q => let b := powm n a ((n - 1) / q) in
             (powm n b q =? 1) && (Z.gcd ((b - 1) mod n) n =? 1)) (nodup Z.eq_dec qs).

Lemma order_check_ok : forall n a qs r, order_check n a qs r = true -> prime n.
Proof.
  intros n a qs r H. unfold order_check in H. rewrite !andb_true_iff in H.
  destruct H as [[[[[[H1 H2] H2b] H2c] H3] H4] H6].
  apply Z.ltb_lt in H1, H4, H2c. apply Z.eqb_eq in H2. apply Z.leb_le in H2b. rewrite forallb_forall in H3, H6.
  assert (X : forall q, In q qs -> prime q /\ (q | n - 1) /\
     a ^ (n - 1) mod n = 1 /\ Z.gcd ((a ^ ((n - 1) / q) - 1) mod n) n = 1).
  { intros q Hq. assert (Dq : (q | n - 1)) by (rewrite H2; apply Z.divide_mul_l; apply divide_prod_all; exact Hq).
    rewrite <- (nodup_In Z.eq_dec) in Hq. specialize (H6 q Hq). specialize (H3 q Hq). apply prime_check_ok in H3.
    pose proof (prime_ge_2 q H3). cbv zeta in H6. rewrite andb_true_iff, !Z.eqb_eq in H6. destruct H6 as [E1 E2].
    assert (Q0 : 0 <= (n - 1) / q) by (apply Z.div_pos; lia).
    rewrite powm_ok in E1, E2 by lia. rewrite powm_ok in E1 by lia.
    rewrite <- Zpower_mod, <- Z.pow_mul_r in E1 by lia.
    destruct Dq as [m Em]. rewrite Em in E1. rewrite Z.div_mul in E1 by lia.
    split; [exact H3|]. split; [exists m; exact Em|]. split; [rewrite Em; exact E1|].
    rewrite Zminus_mod in *. rewrite Z.mod_mod in E2 by lia. exact E2. }
  assert (Ex : exists q, In q qs).
  { destruct qs as [|q qs]; [cbn in H2b; lia|exists q; left; reflexivity]. }
  destruct Ex as [q0 Hq0].
  apply (pocklington n a qs r); auto; try lia; try (intros q Hq; apply X; exact Hq). apply (X q0 Hq0).
Qed.

(** The scalar field of BLS12-381, one of the fields the project instantiates
    its circuits with. *)
Definition bls_r : Z := 0x73eda753299d7d483339d80809a1d80553bda402fffe5bfeffffffff00000001.
Lemma prime_bls : prime bls_r.
Proof.
  apply (order_check_ok bls_r 7 (repeat 2 32 ++ [906349; 906349; 254760293; 254760293; 52437899])
    (3 * 11 * 19 * 10177 * 125527 * 859267 * 2508409 * 2529403)).
  vm_compute. reflexivity.
Qed.
Definition Pbls : params := mkParams bls_r prime_bls.
