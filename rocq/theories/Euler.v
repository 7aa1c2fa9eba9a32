(** Euler's criterion in a prime field: roots of monic polynomials, squares.
    Nothing here models code. *)
From Coq Require Import ZArith Znumtheory List Lia Bool Field.
From Verif Require Import Base Field Primes.
Import ListNotations.
Open Scope Z_scope.

Section Euler.
Variable P : params.
Notation F := (F P).
Add Field Ff : (F_field P) (morphism (F_morph P), constants [F_const], power_tac (F_power P) [F_pow_tac]).
Local Open Scope F_scope.

(** Monic polynomial functions of a given degree. *)
Fixpoint monic (n : nat) (f : F -> F) : Prop :=
  match n with
  | O => forall x, f x = f1
  | S n => exists g c, monic n g /\ forall x, f x = x * g x + c
  end.

Lemma monic_shift : forall n f c, monic (S n) f -> monic (S n) (fun x => f x + c).
Proof. intros n f c [g [d [H E]]]. exists g, (d + c). split; [exact H|]. intros x. rewrite E. ring. Qed.

Lemma monic_add : forall n g h a, monic (S n) g -> monic n h -> monic (S n) (fun x => g x + a * h x).
Proof.
  induction n as [|n IH]; intros g h a [g1 [c1 [M1 E1]]] H.
  - exists g1, (c1 + a). split; [exact M1|]. intros x. rewrite E1, (H x). ring.
  - destruct H as [h1 [c2 [M2 E2]]]. exists (fun x => g1 x + a * h1 x), (c1 + a * c2).
    split; [apply IH; assumption|]. intros x. rewrite E1, E2. ring.
Qed.

Lemma monic_factor : forall n f a, monic (S n) f -> f a = f0 ->
  exists h, monic n h /\ forall x, f x = (x - a) * h x.
Proof.
  induction n as [|n IH]; intros f a [g [c [M E]]] R.
  - exists g. split; [exact M|]. intros x. rewrite E in *. rewrite (M x), (M a) in *.
    assert (Ec : c = - a) by (apply fsub0; rewrite <- R; ring). rewrite Ec. ring.
  - destruct (IH (fun x => g x + - g a) a) as [h [Mh Eh]].
    + apply monic_shift. exact M.
    + ring.
    + exists (fun x => g x + a * h x). split; [apply monic_add; assumption|].
      intros x. rewrite E in *. specialize (Eh x).
      assert (Ec : c = - (a * g a)) by (apply fsub0; rewrite <- R; ring). rewrite Ec.
      assert (Eg : g x = (x - a) * h x + g a) by (rewrite <- Eh; ring). rewrite Eg. ring.
Qed.

Lemma monic_roots : forall n f l, monic n f -> NoDup l -> (forall x, In x l -> f x = f0) -> (length l <= n)%nat.
Proof.
  induction n as [|n IH]; intros f l M ND R.
  - destruct l as [|x l]; [cbn; lia|]. exfalso. apply (f1_neq_f0 P). rewrite <- (M x). apply R. left. reflexivity.
  - destruct l as [|a l]; [cbn; lia|]. inversion_clear ND as [|? ? Na ND'].
    destruct (monic_factor n f a M (R a (or_introl eq_refl))) as [h [Mh Eh]].
    cbn. apply le_n_S. apply (IH h); [exact Mh|exact ND'|].
    intros x Hx. specialize (R x (or_intror Hx)). rewrite Eh in R. apply fmul_integral in R. destruct R as [R|R]; [|exact R].
    exfalso. apply Na. apply fsub0 in R. rewrite <- R. exact Hx.
Qed.

Lemma monic_pow : forall n, monic n (fun x => fpow x n).
Proof.
  induction n as [|n IH]; [intros x; reflexivity|]. exists (fun x => fpow x n), f0. split; [exact IH|].
  intros x. cbn [fpow]. ring.
Qed.

Definition half : Z := ((char P - 1) / 2)%Z.

Lemma odd_half : (2 < char P)%Z -> char P = (2 * half + 1)%Z.
Proof.
  intros H. unfold half. pose proof (Z.div_mod (char P - 1) 2 ltac:(lia)) as D.
  pose proof (Z.mod_pos_bound (char P - 1) 2 ltac:(lia)) as M.
  destruct (Z.eq_dec ((char P - 1) mod 2) 0) as [E|E]; [lia|].
  exfalso. assert (D2 : (2 | char P)%Z) by (exists ((char P - 1) / 2 + 1)%Z; lia).
  pose proof (prime_divisors (char P) (char_prime P) 2 D2). lia.
Qed.

Lemma two_neq0 : (2 < char P)%Z -> (f1 + f1 : F) <> f0.
Proof.
  intros H E. apply (f_equal fval) in E. unfold fadd, f1, f0 in E. rewrite !fval_ofZ in E.
  rewrite !(Z.mod_small 1) in E by lia. rewrite (Z.mod_small (1 + 1)), Z.mod_0_l in E by lia. lia.
Qed.

Definition squares : list F := map (fun z => ofZ z * ofZ z) (zseq 1 (half + 1)).

Lemma sq_eq : forall a b : F, a * a = b * b -> a = b \/ a = - b.
Proof.
  intros a b H. assert (E : (a - b) * (a + b) = f0) by (transitivity (a * a - b * b); [ring|rewrite H; ring]).
  apply fmul_integral in E. destruct E as [E|E]; [left; apply fsub0; exact E|right].
  apply fsub0. rewrite <- E. ring.
Qed.

Lemma nodup_squares : (2 < char P)%Z -> NoDup squares.
Proof.
  intros H. pose proof (odd_half H). apply nodup_map_in; [|apply nodup_zseq].
  intros x y Hx Hy E. apply in_zseq in Hx, Hy. apply sq_eq in E. destruct E as [E|E].
  - apply (f_equal fval) in E. rewrite !fval_ofZ_small in E by lia. exact E.
  - rewrite <- ofZ_opp in E. apply ofZ_inj in E. rewrite (Z.mod_small x) in E by lia.
    rewrite <- (Z.mod_add (- y) 1) in E by lia. rewrite Z.mod_small in E by lia. lia.
Qed.

Lemma pow_half_sq : forall z : F, (2 < char P)%Z -> z <> f0 -> fpow (z * z) (Z.to_nat half) = f1.
Proof.
  intros z H Hz. pose proof (odd_half H) as O.
  replace (z * z) with (fpow z 2) by (cbn; ring). rewrite <- fpow_mul.
  rewrite <- (fermat P z Hz). f_equal. lia.
Qed.

Theorem euler : forall y : F, (2 < char P)%Z -> fpow y (Z.to_nat half) = f1 -> exists z, z * z = y.
Proof.
  intros y H E. pose proof (odd_half H) as O.
  destruct (in_dec (F_dec P) y squares) as [I|I].
  - apply in_map_iff in I. destruct I as [z [Ez _]]. exists (ofZ z). exact Ez.
  - exfalso. assert (HL : (length (y :: squares) <= Z.to_nat half)%nat).
    { assert (Hh : exists n, Z.to_nat half = S n) by (exists (Z.to_nat (half - 1)); lia).
      destruct Hh as [n Hn].
      apply (monic_roots _ (fun x => fpow x (Z.to_nat half) + - f1)).
      - rewrite Hn. apply monic_shift. apply monic_pow.
      - constructor; [exact I|]. apply nodup_squares. exact H.
      - intros x [<-|Hx]; [rewrite E; ring|]. apply in_map_iff in Hx. destruct Hx as [z [<- Hz]].
        apply in_zseq in Hz. rewrite pow_half_sq; [ring|exact H|].
        intros Z0. apply (f_equal fval) in Z0. unfold f0 in Z0. rewrite !fval_ofZ_small in Z0 by lia. lia. }
    cbn [length] in HL. unfold squares in HL. rewrite map_length, zseq_length in HL. lia.
Qed.

Lemma pow_half_cases : forall y : F, (2 < char P)%Z -> y <> f0 ->
  fpow y (Z.to_nat half) = f1 \/ fpow y (Z.to_nat half) = - f1.
Proof.
  intros y H Hy. pose proof (odd_half H) as O. apply sq_eq.
  rewrite <- fpow_add. transitivity (f1 : F); [|ring]. rewrite <- (fermat P y Hy). f_equal. lia.
Qed.

Lemma pow_half_0 : (2 < char P)%Z -> fpow (f0 : F) (Z.to_nat half) = f0.
Proof.
  intros H. pose proof (odd_half H). destruct (Z.to_nat half) eqn:E; [lia|]. cbn. ring.
Qed.

Lemma nonsquare : forall y : F, (2 < char P)%Z -> fpow y (Z.to_nat half) = - f1 -> forall z, z * z <> y.
Proof.
  intros y H E z Ez. pose proof (two_neq0 H) as N2. rewrite <- Ez in E.
  destruct (F_dec P z f0) as [Z0|Z0].
  - rewrite Z0 in E. replace (f0 * f0) with (f0 : F) in E by ring. rewrite pow_half_0 in E by exact H.
    apply (f1_neq_f0 P). transitivity (- - f1 : F); [ring|]. rewrite <- E. ring.
  - rewrite pow_half_sq in E by assumption. apply N2. rewrite E at 1. ring.
Qed.
End Euler.
Arguments half P : clear implicits.
