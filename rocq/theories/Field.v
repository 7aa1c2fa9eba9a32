(** Prime fields F_p, as canonical residues.  This stands for the crypto3
    [BlueprintFieldType::value_type] used everywhere in /repo (crypto3 itself
    is a dependency and is not part of /repo): an element is an integer in
    [0, p), and [fval] is what the code reads as [integral_type(x.data)].
    No axioms: equality proofs on the canonicity bit are unique because the
    bit is a boolean. *)
Require Import ZArith Znumtheory List Lia Bool Eqdep_dec Field.
From Verif Require Import Base.
Import ListNotations.
Open Scope Z_scope.

Record params := mkParams { char : Z; char_prime : prime char }.

Lemma char_ge_2 : forall P, 2 <= char P.
Proof. intros P. apply prime_ge_2, char_prime. Qed.

Section Def.
Variable P : params.
Let p := char P.

Record F := mkF { fval : Z; fcanon : (fval =? fval mod p) = true }.

Lemma F_ext : forall a b : F, fval a = fval b -> a = b.
Proof.
  intros [a Ha] [b Hb] E. cbn in E. subst b. f_equal.
  apply UIP_dec. apply bool_dec.
Qed.

Lemma canon_mod : forall z, (z mod p =? (z mod p) mod p) = true.
Proof. intros z. rewrite Z.mod_mod; [apply Z.eqb_refl|]. pose proof (char_ge_2 P). unfold p; lia. Qed.

(** Reduction of an arbitrary integer: [value_type(z)]. *)
Definition ofZ (z : Z) : F := mkF (z mod p) (canon_mod z).

Lemma fval_range : forall a : F, 0 <= fval a < p.
Proof.
  intros [a Ha]. cbn. apply Z.eqb_eq in Ha. rewrite Ha.
  apply Z.mod_pos_bound. pose proof (char_ge_2 P). unfold p; lia.
Qed.

Lemma fval_mod : forall a : F, fval a mod p = fval a.
Proof. intros a. apply Z.mod_small, fval_range. Qed.

Lemma ofZ_fval : forall a : F, ofZ (fval a) = a.
Proof. intros a. apply F_ext. cbn. apply fval_mod. Qed.

Lemma fval_ofZ : forall z, fval (ofZ z) = z mod p.
Proof. reflexivity. Qed.

Lemma fval_ofZ_small : forall z, 0 <= z < p -> fval (ofZ z) = z.
Proof. intros. cbn. apply Z.mod_small. assumption. Qed.

Definition fadd (a b : F) : F := ofZ (fval a + fval b).
Definition fsub (a b : F) : F := ofZ (fval a - fval b).
Definition fmul (a b : F) : F := ofZ (fval a * fval b).
Definition fopp (a : F) : F := ofZ (- fval a).
Definition f0 : F := ofZ 0.
Definition f1 : F := ofZ 1.

(** Extended Euclid: first Bezout coefficient of [a] and [b], given fuel. *)
Fixpoint egcd (n : nat) (a b u v : Z) : Z :=
  match n with
  | O => u
  | S n => if b =? 0 then u else egcd n b (a mod b) v (u - a / b * v)
  end.

(** Bezout inverse.  A computed candidate is used when it is an inverse;
    otherwise the (opaque, always correct) extended Euclid of the standard
    library is used.  [finv f0] is some fixed element and nothing is claimed
    about it. *)
Definition finv (a : F) : F :=
  let c := egcd (Z.to_nat (2 * Z.log2 p + 4)) (fval a) p 1 0 in
  if Z.eqb ((c * fval a) mod p) 1 then ofZ c else
  match euclid (fval a) p with
  | Euclid_intro _ _ u _ _ _ _ =>
      (* the gcd is +1 or -1 for nonzero [a]: fix the sign *)
      if Z.eqb ((u * fval a) mod p) 1 then ofZ u else ofZ (- u)
  end.
Definition fdiv (a b : F) : F := fmul a (finv b).

Definition feqb (a b : F) : bool := fval a =? fval b.

Lemma feqb_eq : forall a b, feqb a b = true <-> a = b.
Proof.
  intros a b. unfold feqb. rewrite Z.eqb_eq. split; [apply F_ext|intros ->; reflexivity].
Qed.

Lemma feqb_neq : forall a b, feqb a b = false <-> a <> b.
Proof.
  intros a b. rewrite <- feqb_eq. destruct (feqb a b); split; intros; congruence.
Qed.

Lemma feqb_refl : forall a, feqb a a = true.
Proof. intros. apply feqb_eq. reflexivity. Qed.

Lemma F_dec : forall a b : F, {a = b} + {a <> b}.
Proof.
  intros a b. destruct (feqb a b) eqn:E.
  - left. apply feqb_eq. exact E.
  - right. apply feqb_neq. exact E.
Defined.

Let p_pos : 0 < p.
Proof. pose proof (char_ge_2 P). unfold p; lia. Qed.

Lemma ofZ_mod : forall a b, a mod p = b mod p -> ofZ a = ofZ b.
Proof. intros a b H. apply F_ext. cbn. exact H. Qed.

Lemma ofZ_inj : forall a b, ofZ a = ofZ b -> a mod p = b mod p.
Proof. intros a b H. apply (f_equal fval) in H. exact H. Qed.

Lemma ofZ_add : forall a b, ofZ (a + b) = fadd (ofZ a) (ofZ b).
Proof. intros. apply ofZ_mod. cbn. apply Z.add_mod. lia. Qed.
Lemma ofZ_mul : forall a b, ofZ (a * b) = fmul (ofZ a) (ofZ b).
Proof. intros. apply ofZ_mod. cbn. apply Z.mul_mod. lia. Qed.
Lemma ofZ_sub : forall a b, ofZ (a - b) = fsub (ofZ a) (ofZ b).
Proof. intros. apply ofZ_mod. cbn. apply Zminus_mod. Qed.
Lemma ofZ_opp : forall a, ofZ (- a) = fopp (ofZ a).
Proof.
  intros. apply ofZ_mod. cbn. replace (- a) with (0 - a) by lia.
  replace (- (a mod p)) with (0 - a mod p) by lia.
  rewrite Zminus_mod, (Zminus_mod 0 (a mod p)). rewrite Z.mod_mod by lia. reflexivity.
Qed.

Ltac lift1 a := rewrite <- (ofZ_fval a).

Lemma F_ring : ring_theory f0 f1 fadd fmul fsub fopp (@eq F).
Proof.
  constructor; unfold f0, f1; intros.
  - lift1 x. rewrite <- ofZ_add. f_equal.
  - lift1 x. lift1 y. rewrite <- !ofZ_add. f_equal. ring.
  - lift1 x. lift1 y. lift1 z. rewrite <- !ofZ_add. f_equal. ring.
  - lift1 x. rewrite <- ofZ_mul. f_equal. ring.
  - lift1 x. lift1 y. rewrite <- !ofZ_mul. f_equal. ring.
  - lift1 x. lift1 y. lift1 z. rewrite <- !ofZ_mul. f_equal. ring.
  - lift1 x. lift1 y. lift1 z. rewrite <- !ofZ_add, <- !ofZ_mul, <- ofZ_add. f_equal. ring.
  - lift1 x. lift1 y. rewrite <- ofZ_opp, <- ofZ_sub, <- ofZ_add. f_equal.
  - lift1 x. rewrite <- ofZ_opp, <- ofZ_add. f_equal. ring.
Qed.

Lemma f1_neq_f0 : f1 <> f0.
Proof.
  intros E. apply ofZ_inj in E. rewrite Z.mod_0_l, Z.mod_1_l in E; pose proof (char_ge_2 P); unfold p in *; lia.
Qed.

Lemma finv_l : forall a, a <> f0 -> fmul (finv a) a = f1.
Proof.
  intros a Ha. unfold finv.
  set (c := egcd _ _ _ _ _). cbv zeta.
  destruct ((c * fval a) mod p =? 1) eqn:Ec.
  { apply Z.eqb_eq in Ec. rewrite <- (ofZ_fval a) at 1. rewrite <- ofZ_mul. apply ofZ_mod.
    rewrite Ec. rewrite Z.mod_1_l; pose proof (char_ge_2 P); unfold p; lia. }
  destruct (euclid (fval a) p) as [u v d Huv Hgcd].
  assert (Hr : rel_prime (fval a) p).
  { apply rel_prime_sym. apply prime_rel_prime; [apply char_prime|].
    intros D. apply Ha. apply F_ext. cbn.
    destruct D as [q D]. pose proof (fval_range a). fold p in D.
    assert (q = 0) by nia. subst q. lia. }
  assert (Hd : d = 1 \/ d = -1).
  { destruct Hgcd as [Da Dp _]. destruct Hr as [_ _ Hr]. specialize (Hr d Da Dp).
    apply Z.divide_1_r. exact Hr. }
  assert (Hmod : (u * fval a) mod p = d mod p).
  { rewrite <- Huv. rewrite Z.add_mod by lia. rewrite Z.mod_mul by lia.
    rewrite Z.add_0_r, Z.mod_mod by lia. reflexivity. }
  assert (E1 : forall w, fmul (ofZ w) a = ofZ (w * fval a)).
  { intros w. rewrite ofZ_mul, ofZ_fval. reflexivity. }
  destruct ((u * fval a) mod p =? 1) eqn:E.
  - apply Z.eqb_eq in E. rewrite E1. apply ofZ_mod.
    rewrite E. rewrite Z.mod_1_l; pose proof (char_ge_2 P); unfold p; lia.
  - destruct Hd as [-> | ->].
    + rewrite Hmod, Z.mod_1_l in E by (pose proof (char_ge_2 P); unfold p; lia). discriminate.
    + rewrite E1. replace (- u * fval a) with (- (u * fval a)) by ring.
      rewrite ofZ_opp. rewrite (ofZ_mod (u * fval a) (-1) Hmod). rewrite <- ofZ_opp. reflexivity.
Qed.

Lemma F_field : field_theory f0 f1 fadd fmul fsub fopp fdiv finv (@eq F).
Proof.
  constructor.
  - apply F_ring.
  - apply f1_neq_f0.
  - reflexivity.
  - intros a Ha. apply finv_l. exact Ha.
Qed.

(** [pow]: repeated multiplication (crypto3 [value_type::pow]). *)
Fixpoint fpow (a : F) (n : nat) : F :=
  match n with O => f1 | S k => fmul a (fpow a k) end.

End Def.

Arguments fval {P}. Arguments ofZ {P}. Arguments fadd {P}. Arguments fsub {P}.
Arguments fmul {P}. Arguments fopp {P}. Arguments f0 {P}. Arguments f1 {P}.
Arguments finv {P}. Arguments fdiv {P}. Arguments feqb {P}. Arguments fpow {P}.

Declare Scope F_scope.
Delimit Scope F_scope with F.
Bind Scope F_scope with F.
Notation "a + b" := (fadd a b) : F_scope.
Notation "a - b" := (fsub a b) : F_scope.
Notation "a * b" := (fmul a b) : F_scope.
Notation "- a" := (fopp a) : F_scope.
Notation "a / b" := (fdiv a b) : F_scope.

(** [ofZ] as a coefficient morphism for [ring] and [field], so that integer
    literals in constraints are handled by normalisation. *)
Lemma F_morph : forall P, ring_morph (@f0 P) f1 fadd fmul fsub fopp (@eq (F P))
                            0 1 Z.add Z.mul Z.sub Z.opp Z.eqb ofZ.
Proof.
  intros P. constructor; intros.
  - reflexivity.
  - reflexivity.
  - apply ofZ_add.
  - apply ofZ_sub.
  - apply ofZ_mul.
  - apply ofZ_opp.
  - apply Z.eqb_eq in H. subst. reflexivity.
Qed.

Ltac F_const t :=
  lazymatch t with
  | f0 => constr:(0)
  | f1 => constr:(1)
  | ofZ ?z => lazymatch isZcst z with true => z | _ => constr:(NotConstant) end
  | _ => constr:(NotConstant)
  end.

Lemma F_power : forall P, power_theory (@f1 P) fmul (@eq (F P)) N.to_nat (@fpow P).
Proof.
  intros P. constructor. intros r n. destruct n as [|q]; [reflexivity|].
  cbn [pow_N]. rewrite positive_N_nat.
  assert (ADD : forall m n, fpow r (m + n) = fmul (fpow r m) (fpow r n)).
  { intros m n. induction m as [|m IH]; cbn [fpow Nat.add].
    - symmetry. apply (Rmul_1_l (F_ring P)).
    - rewrite IH. apply (Rmul_assoc (F_ring P)). }
  assert (ONE : fpow r 1 = r).
  { cbn [fpow]. rewrite (Rmul_comm (F_ring P)). apply (Rmul_1_l (F_ring P)). }
  induction q as [q IH|q IH|]; cbn [pow_pos].
  - rewrite <- IH, Pos2Nat.inj_xI. cbn [fpow].
    rewrite <- ADD. f_equal. f_equal. lia.
  - rewrite <- IH, Pos2Nat.inj_xO. rewrite <- ADD. f_equal. lia.
  - rewrite Pos2Nat.inj_1. exact ONE.
Qed.

Ltac F_pow_tac t :=
  lazymatch isnatcst t with
  | true => let n := eval compute in (N.of_nat t) in n
  | _ => constr:(InitialRing.NotConstant)
  end.

(** Trial-division primality check, used only to build concrete fields for
    the examples. *)
Definition prime_check (n : Z) : bool :=
  (1 <? n) && forallb (fun d => negb (n mod d =? 0)) (zseq 2 (Z.sqrt n + 1)).

Lemma prime_check_ok : forall n, prime_check n = true -> prime n.
Proof.
  intros n H. unfold prime_check in H. apply andb_true_iff in H. destruct H as [H1 H2].
  apply Z.ltb_lt in H1. rewrite forallb_forall in H2.
  destruct (prime_dec n) as [Hp|Hp]; [exact Hp|exfalso].
  apply not_prime_divide in Hp; [|lia].
  destruct Hp as [d [Hd Hdiv]].
  assert (Hsq : Z.sqrt n * Z.sqrt n <= n < (Z.sqrt n + 1) * (Z.sqrt n + 1))
    by (apply Z.sqrt_spec; lia).
  destruct Hdiv as [q Hq].
  destruct (Z_le_gt_dec d (Z.sqrt n)) as [Hle|Hgt].
  - specialize (H2 d). rewrite in_zseq in H2. specialize (H2 ltac:(lia)).
    rewrite Hq in H2. rewrite Z.mod_mul in H2 by lia. discriminate.
  - assert (2 <= q) by nia.
    assert (q <= Z.sqrt n) by nia.
    specialize (H2 q). rewrite in_zseq in H2. specialize (H2 ltac:(lia)).
    rewrite Hq in H2. rewrite Z.mul_comm, Z.mod_mul in H2 by lia. discriminate.
Qed.

Lemma prime_7 : prime 7. Proof. apply prime_check_ok. reflexivity. Qed.
Lemma prime_11 : prime 11. Proof. apply prime_check_ok. reflexivity. Qed.
Lemma prime_97 : prime 97. Proof. apply prime_check_ok. reflexivity. Qed.
Lemma prime_65537 : prime 65537. Proof. apply prime_check_ok. vm_compute. reflexivity. Qed.
Definition P7 : params := mkParams 7 prime_7.
Definition P11 : params := mkParams 11 prime_11.
Definition P97 : params := mkParams 97 prime_97.
Definition P65537 : params := mkParams 65537 prime_65537.

Section Facts.
Variable P : params.
Notation F := (F P).
Add Field Ffield : (F_field P) (morphism (F_morph P), constants [F_const], power_tac (F_power P) [F_pow_tac]).
Open Scope F_scope.

Lemma fmul_integral : forall a b : F, a * b = f0 -> a = f0 \/ b = f0.
Proof.
  intros a b H. destruct (F_dec P a f0) as [Ha|Ha]; [left; exact Ha|right].
  assert (E : finv a * (a * b) = f0) by (rewrite H; ring).
  rewrite <- E. field. exact Ha.
Qed.

Lemma fsub_eq0 : forall a b : F, a - b = f0 <-> a = b.
Proof.
  intros a b. split; intros H.
  - replace a with ((a - b) + b) by ring. rewrite H. ring.
  - subst. ring.
Qed.

Lemma fsub0 : forall a b : F, a - b = f0 -> a = b.
Proof. intros a b H. apply fsub_eq0. exact H. Qed.

Lemma fsub_neq0 : forall a b : F, a <> b -> a - b <> f0.
Proof. intros a b N E. apply N. apply (proj1 (fsub_eq0 a b)). exact E. Qed.

Lemma finv_neq0 : forall a : F, a <> f0 -> finv a <> f0.
Proof.
  intros a Ha E. pose proof (finv_l P a Ha) as H. rewrite E in H.
  apply (f1_neq_f0 P). rewrite <- H. ring.
Qed.

Lemma fbool_cases : forall a : F, a * (a - f1) = f0 -> a = f0 \/ a = f1.
Proof.
  intros a H. apply fmul_integral in H. destruct H as [H|H]; [left; exact H|right].
  apply fsub_eq0. exact H.
Qed.

Lemma fpow_add : forall (a : F) m n, fpow a (m + n) = fpow a m * fpow a n.
Proof.
  intros a m n. induction m as [|m IH]; cbn [fpow Nat.add]; [ring|]. rewrite IH. ring.
Qed.

Lemma fpow_mul : forall (a : F) m n, fpow a (m * n) = fpow (fpow a m) n.
Proof.
  intros a m n. rewrite Nat.mul_comm. induction n as [|n IH]; cbn [fpow Nat.mul]; [reflexivity|].
  rewrite fpow_add, IH. reflexivity.
Qed.

Lemma fpow_1 : forall n, fpow (f1 : F) n = f1.
Proof. induction n; cbn; [reflexivity|]. rewrite IHn. ring. Qed.

Lemma ofZ_pow : forall z n, (ofZ (z ^ Z.of_nat n) : F) = fpow (ofZ z) n.
Proof.
  intros z n. induction n as [|n IH]; [reflexivity|].
  cbn [fpow]. rewrite <- IH, <- ofZ_mul. f_equal.
  rewrite Nat2Z.inj_succ, Z.pow_succ_r by lia. reflexivity.
Qed.

End Facts.

(** Turn a boolean field comparison into a proposition. *)
Ltac fdec E :=
  lazymatch type of E with
  | feqb ?a ?b = true => apply (proj1 (feqb_eq _ a b)) in E
  | feqb ?a ?b = false => apply (proj1 (feqb_neq _ a b)) in E
  end.
