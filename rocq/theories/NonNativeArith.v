(** Proofs about non-native addition, subtraction and multiplication. *)
From Coq Require Import ZArith List Lia Bool Field Znumtheory Zpow_facts.
From Verif Require Import Base Field Plonk PlonkFacts Bits NonNativeModel NonNativeProofs.
Import ListNotations.
Open Scope Z_scope.

Ltac lits := change (2 ^ 4) with 16 in *; change (2 ^ 9) with 512 in *;
  change (2 ^ 15) with 32768 in *; change (2 ^ 21) with 2097152 in *; change (2 ^ 22) with 4194304 in *;
  change (2 ^ 42) with 4398046511104 in *; change (2 ^ 44) with 17592186044416 in *;
  change (2 ^ 57) with 144115188075855872 in *; change (2 ^ 66) with 73786976294838206464 in *;
  change (2 ^ 132) with (73786976294838206464 * 73786976294838206464) in *;
  change (2 ^ 198) with (73786976294838206464 * 73786976294838206464 * 73786976294838206464) in *;
  change (2 ^ 125) with 42535295865117307932921825928971026432 in *;
  change (2 ^ 257) with 231584178474632390847141970017375815706539969331281128078915168015826259279872 in *.

Section Core.
Variable P : params.
Notation F := (F P).
Notation table := (table P).
Variable L : lenv P.
Implicit Types T : table.
Add Field Ff : (F_field P) (morphism (F_morph P), constants [F_const], power_tac (F_power P) [F_pow_tac]).
Hypothesis big : 2 ^ 254 <= char P.

Lemma char_big : 28948022309329048855892746252171976963317496166410141009864396001978282409984 <= char P.
Proof. exact big. Qed.

Lemma crt_zero : forall k X, 0 <= k -> (2 ^ k | X) -> (char P | X) -> - (2 ^ k * char P) < X < 2 ^ k * char P -> X = 0.
Proof.
  intros k X Hk [Y ->] D B. pose proof char_big as Bn.
  assert (R : rel_prime (char P) (2 ^ k)).
  { apply rel_prime_Zpower_r; [exact Hk|]. apply prime_rel_prime; [apply char_prime|].
    intros K. apply Z.divide_pos_le in K; lia. }
  rewrite Z.mul_comm in D. apply Gauss in D; [|exact R]. destruct D as [d ->].
  assert (K : 0 < 2 ^ k) by (apply Z.pow_pos_nonneg; lia).
  destruct (Z.eq_dec d 0) as [->|N]; [reflexivity|]. exfalso.
  assert (0 < 2 ^ k * char P) by (apply Z.mul_pos_pos; lia).
  replace (d * char P * 2 ^ k) with (d * (2 ^ k * char P)) in B by ring.
  set (m := 2 ^ k * char P) in *. assert (d <= -1 \/ 1 <= d) by lia. nia.
Qed.

(** The quotient in addition and subtraction is a bit. *)
Lemma bit_val : forall q : F, fmul q (fsub q (ofZ 1)) = f0 -> fval q = 0 \/ fval q = 1.
Proof.
  intros q H. apply fmul_integral in H. destruct H as [->|H].
  - left. change (f0 : F) with (ofZ 0 : F). apply fval_ofZ_small. pose proof (char_ge_2 P). lia.
  - right. apply (proj1 (fsub_eq0 _ _ _)) in H. rewrite H. apply fval_ofZ_small. pose proof (char_ge_2 P). lia.
Qed.

Lemma lin4 : forall (x a b d e : F) s t v, 0 <= s -> 0 <= t -> 0 <= v ->
  fsub x (fadd (fadd (fadd a (fmul b (ofZ s))) (fmul d (ofZ t))) (fmul e (ofZ v))) = f0 ->
  fval a + fval b * s + fval d * t + fval e * v < char P ->
  fval x = fval a + fval b * s + fval d * t + fval e * v.
Proof.
  intros x a b d e s t v Hs Ht Hv E B. rewrite <- (ofZ_fval P a), <- (ofZ_fval P b), <- (ofZ_fval P d), <- (ofZ_fval P e) in E.
  apply (proj1 (fsub_eq0 _ _ _)) in E. rewrite E. rewrite <- !ofZ_mul, <- !ofZ_add. apply fval_ofZ_small.
  pose proof (fval_range P a). pose proof (fval_range P b). pose proof (fval_range P d). pose proof (fval_range P e).
  pose proof (Z.mul_nonneg_nonneg (fval b) s ltac:(lia) ltac:(lia)). pose proof (Z.mul_nonneg_nonneg (fval e) v ltac:(lia) ltac:(lia)).
  pose proof (Z.mul_nonneg_nonneg (fval d) t ltac:(lia) ltac:(lia)). lia.
Qed.

(** Field elements as the image of their values. *)
Ltac to_z H := rewrite <- ?ofZ_mul in H; rewrite <- ?ofZ_add in H; rewrite <- ?ofZ_sub in H.

Local Open Scope F_scope.
Section AddCore.
Variables a0 a1 a2 a3 b0 b1 b2 b3 q r0 r1 r2 r3 u u3 u4 u5 u6 : F.
Let gl (x0 x1 x2 x3 : F) := x0 + x1 * ofZ (2 ^ 66) + x2 * ofZ (2 ^ 132) + x3 * ofZ (2 ^ 198).
Hypothesis A : (fval a0 < 2 ^ 66 /\ fval a1 < 2 ^ 66 /\ fval a2 < 2 ^ 66 /\ fval a3 < 2 ^ 57)%Z.
Hypothesis B : (fval b0 < 2 ^ 66 /\ fval b1 < 2 ^ 66 /\ fval b2 < 2 ^ 66 /\ fval b3 < 2 ^ 57)%Z.
Hypothesis R : (fval r0 < 2 ^ 66 /\ fval r1 < 2 ^ 66 /\ fval r2 < 2 ^ 66 /\ fval r3 < 2 ^ 57)%Z.
Hypothesis U : (fval u3 < 2 ^ 22 /\ fval u4 < 2 ^ 22 /\ fval u5 < 2 ^ 22 /\ fval u6 < 4)%Z.
Hypothesis Q : q * (q - ofZ 1) = f0.
Hypothesis C : u - (u3 + u4 * ofZ (2 ^ 22) + u5 * ofZ (2 ^ 44) + u6 * ofZ (2 ^ 66)) = f0.

Let zg (x0 x1 x2 x3 : F) := (fval x0 + fval x1 * 2 ^ 66 + fval x2 * 2 ^ 132 + fval x3 * 2 ^ 198)%Z.
Let glz : forall x0 x1 x2 x3, gl x0 x1 x2 x3 = ofZ (zg x0 x1 x2 x3).
Proof. intros. unfold zg, gl. rewrite !ofZ_add, !ofZ_mul, !ofZ_fval. reflexivity. Qed.

Lemma add_core :
  u * ofZ (2 ^ 66) - (a0 + b0 + ofZ (nn_m 0) * q - r0) = f0 ->
  gl a0 a1 a2 a3 + gl b0 b1 b2 b3 - (q * ofZ ed_p + gl r0 r1 r2 r3) = f0 ->
  (zg a0 a1 a2 a3 + zg b0 b1 b2 b3 = fval q * ed_p + zg r0 r1 r2 r3)%Z.
Proof.
  intros E G. pose proof (bit_val q Q) as Qv. pose proof char_big as Bn.
  pose proof (fval_range P a0). pose proof (fval_range P a1). pose proof (fval_range P a2). pose proof (fval_range P a3).
  pose proof (fval_range P b0). pose proof (fval_range P b1). pose proof (fval_range P b2). pose proof (fval_range P b3).
  pose proof (fval_range P r0). pose proof (fval_range P r1). pose proof (fval_range P r2). pose proof (fval_range P r3).
  pose proof (fval_range P u3). pose proof (fval_range P u4). pose proof (fval_range P u5). pose proof (fval_range P u6).
  pose proof C as CV. apply lin4 in CV; [|lia..|lits; lia].
  assert (E' : (ofZ (fval u * 2 ^ 66 - (fval a0 + fval b0 + 19 * fval q - fval r0)) : F) = f0).
  { rewrite <- E. change (nn_m 0) with 19%Z. rewrite !ofZ_sub, !ofZ_add, !ofZ_mul, !ofZ_fval. reflexivity. }
  apply ofZ_zero in E'; [|lits; lia].
  assert (G' : (ofZ (zg a0 a1 a2 a3 + zg b0 b1 b2 b3 - (fval q * ed_p + zg r0 r1 r2 r3)) : F) = f0).
  { rewrite <- G. rewrite !glz. rewrite !ofZ_sub, !ofZ_add, !ofZ_mul, !ofZ_fval. reflexivity. }
  apply ofZ_divide in G'. clear E G.
  enough ((zg a0 a1 a2 a3 + zg b0 b1 b2 b3 - (fval q * ed_p + zg r0 r1 r2 r3) = 0)%Z) by lia.
  apply (crt_zero 66); [lia| |exact G'|].
  - exists (fval u + fval a1 + fval a2 * 2 ^ 66 + fval a3 * 2 ^ 132 + fval b1 + fval b2 * 2 ^ 66 + fval b3 * 2 ^ 132
            - fval r1 - fval r2 * 2 ^ 66 - fval r3 * 2 ^ 132 - fval q * 784637716923335095479473677900958302012794430558004314112)%Z.
    unfold zg. rewrite ed_p_val. lits. lia.
  - unfold zg. rewrite ed_p_val. lits. destruct Qv as [-> | ->]; lia.
Qed.

Lemma sub_core :
  u * ofZ (2 ^ 66) - (a0 + ofZ (nn_m 0) * q + ofZ (nn_limb ed_p 0) - b0 - r0) = f0 ->
  gl a0 a1 a2 a3 + ofZ ed_p - gl b0 b1 b2 b3 - ofZ ed_p * q - gl r0 r1 r2 r3 = f0 ->
  (zg a0 a1 a2 a3 + ed_p - zg b0 b1 b2 b3 = fval q * ed_p + zg r0 r1 r2 r3)%Z.
Proof.
  intros E G. pose proof (bit_val q Q) as Qv. pose proof char_big as Bn.
  pose proof (fval_range P a0). pose proof (fval_range P a1). pose proof (fval_range P a2). pose proof (fval_range P a3).
  pose proof (fval_range P b0). pose proof (fval_range P b1). pose proof (fval_range P b2). pose proof (fval_range P b3).
  pose proof (fval_range P r0). pose proof (fval_range P r1). pose proof (fval_range P r2). pose proof (fval_range P r3).
  pose proof (fval_range P u3). pose proof (fval_range P u4). pose proof (fval_range P u5). pose proof (fval_range P u6).
  pose proof C as CV. apply lin4 in CV; [|lia..|lits; lia].
  assert (E' : (ofZ (fval u * 2 ^ 66 - (fval a0 + 19 * fval q + (2 ^ 66 - 19) - fval b0 - fval r0)) : F) = f0).
  { rewrite <- E. rewrite ed_p_limb0. change (nn_m 0) with 19%Z. rewrite !ofZ_sub, !ofZ_add, !ofZ_mul, !ofZ_fval, !ofZ_sub. reflexivity. }
  apply ofZ_zero in E'; [|lits; lia].
  assert (G' : (ofZ (zg a0 a1 a2 a3 + ed_p - zg b0 b1 b2 b3 - ed_p * fval q - zg r0 r1 r2 r3) : F) = f0).
  { rewrite <- G. rewrite !glz. rewrite !ofZ_sub, !ofZ_add, !ofZ_mul, !ofZ_fval. reflexivity. }
  apply ofZ_divide in G'. clear E G.
  enough ((zg a0 a1 a2 a3 + ed_p - zg b0 b1 b2 b3 - ed_p * fval q - zg r0 r1 r2 r3 = 0)%Z) by lia.
  apply (crt_zero 66); [lia| |exact G'|].
  - exists (fval u + fval a1 + fval a2 * 2 ^ 66 + fval a3 * 2 ^ 132 - fval b1 - fval b2 * 2 ^ 66 - fval b3 * 2 ^ 132
            - fval r1 - fval r2 * 2 ^ 66 - fval r3 * 2 ^ 132 + (1 - fval q) * 784637716923335095479473677900958302012794430558004314112 - 1)%Z.
    unfold zg. rewrite ed_p_val. lits. lia.
  - unfold zg. rewrite ed_p_val. lits. destruct Qv as [-> | ->]; lia.
Qed.
End AddCore.

(** Bounds of a product of two cells. *)
Lemma mul_bd : forall x y bx byy, (0 <= x < bx -> 0 <= y < byy -> 0 <= x * y <= bx * byy)%Z.
Proof. intros. split; [apply Z.mul_nonneg_nonneg; lia|apply Z.mul_le_mono_nonneg; lia]. Qed.

Lemma zg_bound : forall x0 x1 x2 x3 : F,
  (fval x0 < 2 ^ 66 /\ fval x1 < 2 ^ 66 /\ fval x2 < 2 ^ 66 /\ fval x3 < 2 ^ 57)%Z ->
  (0 <= fval x0 + fval x1 * 2 ^ 66 + fval x2 * 2 ^ 132 + fval x3 * 2 ^ 198 < 2 ^ 255)%Z.
Proof.
  intros x0 x1 x2 x3 H. change (2 ^ 255)%Z with (2 ^ 57 * 2 ^ 198)%Z.
  pose proof (fval_range P x0). pose proof (fval_range P x1). pose proof (fval_range P x2). pose proof (fval_range P x3).
  lits. lia.
Qed.

Section MulCore.
Variables a0 a1 a2 a3 b0 b1 b2 b3 q0 q1 q2 q3 r0 r1 r2 r3 u0 u1 n0 n1 n2 n3 n4 n5 n6 n7 : F.
Let gl (x0 x1 x2 x3 : F) := x0 + x1 * ofZ (2 ^ 66) + x2 * ofZ (2 ^ 132) + x3 * ofZ (2 ^ 198).
Hypothesis A : (fval a0 < 2 ^ 66 /\ fval a1 < 2 ^ 66 /\ fval a2 < 2 ^ 66 /\ fval a3 < 2 ^ 57)%Z.
Hypothesis B : (fval b0 < 2 ^ 66 /\ fval b1 < 2 ^ 66 /\ fval b2 < 2 ^ 66 /\ fval b3 < 2 ^ 57)%Z.
Hypothesis Q : (fval q0 < 2 ^ 66 /\ fval q1 < 2 ^ 66 /\ fval q2 < 2 ^ 66 /\ fval q3 < 2 ^ 57)%Z.
Hypothesis R : (fval r0 < 2 ^ 66 /\ fval r1 < 2 ^ 66 /\ fval r2 < 2 ^ 66 /\ fval r3 < 2 ^ 57)%Z.
Hypothesis N0 : (fval n0 < 2 ^ 22 /\ fval n1 < 2 ^ 22 /\ fval n2 < 2 ^ 22 /\ fval n3 < 2 ^ 4)%Z.
Hypothesis N1 : (fval n4 < 2 ^ 22 /\ fval n5 < 2 ^ 22 /\ fval n6 < 2 ^ 22 /\ fval n7 < 2 ^ 9)%Z.
Hypothesis C0 : u0 - (n0 + n1 * ofZ (2 ^ 22) + n2 * ofZ (2 ^ 44) + n3 * ofZ (2 ^ 66)) = f0.
Hypothesis C1 : u1 - (n4 + n5 * ofZ (2 ^ 22) + n6 * ofZ (2 ^ 44) + n7 * ofZ (2 ^ 66)) = f0.

Let zg (x0 x1 x2 x3 : F) := (fval x0 + fval x1 * 2 ^ 66 + fval x2 * 2 ^ 132 + fval x3 * 2 ^ 198)%Z.
Let glz : forall x0 x1 x2 x3, gl x0 x1 x2 x3 = ofZ (zg x0 x1 x2 x3).
Proof. intros. unfold zg, gl. rewrite !ofZ_add, !ofZ_mul, !ofZ_fval. reflexivity. Qed.
Let p i : F := ofZ (nn_m i).
Let t0 := a0 * b0 + p 0 * q0.
Let t1 := a1 * b0 + a0 * b1 + p 0 * q1 + p 1 * q0.
Let t2 := a2 * b0 + a0 * b2 + a1 * b1 + p 2 * q0 + q2 * p 0 + p 1 * q1.
Let t3 := a3 * b0 + b3 * a0 + a1 * b2 + b1 * a2 + p 3 * q0 + q3 * p 0 + p 1 * q2 + q1 * p 2.

Lemma mul_core :
  u0 * ofZ (2 ^ 132) - (t0 - r0 + t1 * ofZ (2 ^ 66) - r1 * ofZ (2 ^ 66)) = f0 ->
  u1 * ofZ (2 ^ 125) - (t2 - r2 + t3 * ofZ (2 ^ 66) - r3 * ofZ (2 ^ 66) + u0) = f0 ->
  gl a0 a1 a2 a3 * gl b0 b1 b2 b3 - (gl q0 q1 q2 q3 * ofZ ed_p + gl r0 r1 r2 r3) = f0 ->
  (zg a0 a1 a2 a3 * zg b0 b1 b2 b3 = zg q0 q1 q2 q3 * ed_p + zg r0 r1 r2 r3)%Z.
Proof.
  intros E0 E1 G. pose proof char_big as Bn.
  pose proof (fval_range P a0). pose proof (fval_range P a1). pose proof (fval_range P a2). pose proof (fval_range P a3).
  pose proof (fval_range P b0). pose proof (fval_range P b1). pose proof (fval_range P b2). pose proof (fval_range P b3).
  pose proof (fval_range P r0). pose proof (fval_range P r1). pose proof (fval_range P r2). pose proof (fval_range P r3).
  pose proof (fval_range P q0). pose proof (fval_range P q1). pose proof (fval_range P q2). pose proof (fval_range P q3).
  pose proof (fval_range P n0). pose proof (fval_range P n1). pose proof (fval_range P n2). pose proof (fval_range P n3).
  pose proof (fval_range P n4). pose proof (fval_range P n5). pose proof (fval_range P n6). pose proof (fval_range P n7).
  pose proof C0 as V0. apply lin4 in V0; [|lia..|lits; lia]. pose proof C1 as V1. apply lin4 in V1; [|lia..|lits; lia].
  assert (E0' : (ofZ (fval u0 * 2 ^ 132 - (fval a0 * fval b0 + 19 * fval q0 - fval r0
                 + (fval a1 * fval b0 + fval a0 * fval b1 + 19 * fval q1) * 2 ^ 66 - fval r1 * 2 ^ 66)) : F) = f0).
  { rewrite <- E0. unfold t0, t1, p. change (nn_m 0) with 19%Z. change (nn_m 1) with 0%Z.
    repeat rewrite ?ofZ_sub, ?ofZ_add, ?ofZ_mul, ?ofZ_fval. change (ofZ 0 : F) with (@f0 P). ring. }
  assert (E1' : (ofZ (fval u1 * 2 ^ 125 - (fval a2 * fval b0 + fval a0 * fval b2 + fval a1 * fval b1 + 19 * fval q2 - fval r2
                 + (fval a3 * fval b0 + fval b3 * fval a0 + fval a1 * fval b2 + fval b1 * fval a2 + 432345564227567616 * fval q0
                    + 19 * fval q3) * 2 ^ 66 - fval r3 * 2 ^ 66 + fval u0)) : F) = f0).
  { rewrite <- E1. unfold t2, t3, p. change (nn_m 0) with 19%Z. change (nn_m 1) with 0%Z. change (nn_m 2) with 0%Z.
    change (nn_m 3) with 432345564227567616%Z.
    repeat rewrite ?ofZ_sub, ?ofZ_add, ?ofZ_mul, ?ofZ_fval. change (ofZ 0 : F) with (@f0 P). ring. }
  assert (G' : (ofZ (zg a0 a1 a2 a3 * zg b0 b1 b2 b3 - (zg q0 q1 q2 q3 * ed_p + zg r0 r1 r2 r3)) : F) = f0).
  { rewrite <- G. rewrite !glz. rewrite !ofZ_sub, !ofZ_add, !ofZ_mul. reflexivity. }
  clear E0 E1 G.
  pose proof (mul_bd (fval a0) (fval b0) (2 ^ 66) (2 ^ 66) ltac:(lia) ltac:(lia)) as M00.
  pose proof (mul_bd (fval a0) (fval b1) (2 ^ 66) (2 ^ 66) ltac:(lia) ltac:(lia)) as M01.
  pose proof (mul_bd (fval a0) (fval b2) (2 ^ 66) (2 ^ 66) ltac:(lia) ltac:(lia)) as M02.
  pose proof (mul_bd (fval b3) (fval a0) (2 ^ 57) (2 ^ 66) ltac:(lia) ltac:(lia)) as M03.
  pose proof (mul_bd (fval a1) (fval b0) (2 ^ 66) (2 ^ 66) ltac:(lia) ltac:(lia)) as M10.
  pose proof (mul_bd (fval a1) (fval b1) (2 ^ 66) (2 ^ 66) ltac:(lia) ltac:(lia)) as M11.
  pose proof (mul_bd (fval a1) (fval b2) (2 ^ 66) (2 ^ 66) ltac:(lia) ltac:(lia)) as M12.
  pose proof (mul_bd (fval a2) (fval b0) (2 ^ 66) (2 ^ 66) ltac:(lia) ltac:(lia)) as M20.
  pose proof (mul_bd (fval b1) (fval a2) (2 ^ 66) (2 ^ 66) ltac:(lia) ltac:(lia)) as M21.
  pose proof (mul_bd (fval a3) (fval b0) (2 ^ 57) (2 ^ 66) ltac:(lia) ltac:(lia)) as M30.
  apply ofZ_zero in E0'; [|lits; lia].
  apply ofZ_zero in E1'; [|lits; lia].
  apply ofZ_divide in G'.
  apply Zminus_eq.
  apply (crt_zero 257); [lia| |exact G'|].
  - exists (fval u1 - zg q0 q1 q2 q3 + 128 * (fval a1 * fval b3 + fval a2 * fval b2 + fval a3 * fval b1
            + 432345564227567616 * fval q1 + 2 ^ 66 * (fval a2 * fval b3 + fval a3 * fval b2 + 432345564227567616 * fval q2)
            + 2 ^ 132 * (fval a3 * fval b3 + 432345564227567616 * fval q3)))%Z.
    apply Zminus_eq. unfold zg. rewrite ed_p_val.
    assert (K0 : (2 ^ 132 * (fval u1 * 2 ^ 125 - (fval a2 * fval b0 + fval a0 * fval b2 + fval a1 * fval b1 + 19 * fval q2 - fval r2
                 + (fval a3 * fval b0 + fval b3 * fval a0 + fval a1 * fval b2 + fval b1 * fval a2 + 432345564227567616 * fval q0
                    + 19 * fval q3) * 2 ^ 66 - fval r3 * 2 ^ 66 + fval u0)) = 0)%Z) by (rewrite E1'; apply Z.mul_0_r).
    etransitivity; [|exact (f_equal2 (fun x y => - x - y)%Z E0' K0)].
    generalize (fval a0) (fval a1) (fval a2) (fval a3) (fval b0) (fval b1) (fval b2) (fval b3) (fval q0) (fval q1) (fval q2) (fval q3)
       (fval r0) (fval r1) (fval r2) (fval r3) (fval u0) (fval u1). intros. ring.
  - assert (LA : (0 <= zg a0 a1 a2 a3 < 2 ^ 255)%Z) by (apply zg_bound; exact A).
    assert (LB : (0 <= zg b0 b1 b2 b3 < 2 ^ 255)%Z) by (apply zg_bound; exact B).
    assert (LQ : (0 <= zg q0 q1 q2 q3 < 2 ^ 255)%Z) by (apply zg_bound; exact Q).
    assert (LR : (0 <= zg r0 r1 r2 r3 < 2 ^ 255)%Z) by (apply zg_bound; exact R).
    clear - LA LB LQ LR big.
    pose proof (mul_bd _ _ _ _ LA LB) as LM.
    assert (LE : (0 <= ed_p < 2 ^ 255)%Z) by (split; reflexivity || discriminate).
    pose proof (mul_bd _ _ _ _ LQ LE) as LK.
    assert (LC : (2 ^ 257 * 2 ^ 254 <= 2 ^ 257 * char P)%Z) by (apply Z.mul_le_mono_nonneg_l; [lia|exact big]).
    assert (LF : (2 ^ 257 * 2 ^ 254 = 2 * (2 ^ 255 * 2 ^ 255))%Z) by reflexivity.
    assert (LG : (2 ^ 255 < 2 ^ 255 * 2 ^ 255)%Z) by reflexivity.
    clear LA LB LQ LE. revert LM LK LC LF LG LR. generalize (2 ^ 255 * 2 ^ 255)%Z (2 ^ 257 * char P)%Z (2 ^ 257 * 2 ^ 254)%Z. intros. lia.
Qed.
End MulCore.
End Core.
