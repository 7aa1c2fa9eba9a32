(** The curve Ed25519: -x^2 + y^2 = 1 + d x^2 y^2 over the field of order
    2^255 - 19, and its addition.  Nothing here models code. *)
From Coq Require Import ZArith Znumtheory Zpow_facts List Lia Bool Field.
From Verif Require Import Base Field Primes Pasta.
Import ListNotations.
Open Scope Z_scope.

(** ** The field *)

Lemma prime_1919519569386763 : prime 1919519569386763.
Proof. apply (order_check_ok 1919519569386763 2 [8574133; 127; 47; 47] (2 * 3 * 7 * 19)). vm_compute. reflexivity. Qed.
Lemma prime_75445702479781427272750846543864801 : prime 75445702479781427272750846543864801.
Proof.
  apply (power_check_ok 75445702479781427272750846543864801 7 [1919519569386763; 75707] (32 * 9 * 25 * 72106336199)); [|vm_compute; reflexivity].
  intros q [<-|[<-|[]]]; [apply prime_1919519569386763|apply prime_check_ok; vm_compute; reflexivity].
Qed.
Lemma prime_74058212732561358302231226437062788676166966415465897661863160754340907 :
  prime 74058212732561358302231226437062788676166966415465897661863160754340907.
Proof.
  apply (power_check_ok 74058212732561358302231226437062788676166966415465897661863160754340907 2
    [75445702479781427272750846543864801; 1923133] (2 * 3 * 353 * 57467 * 132049 * 31757755568855353)); [|vm_compute; reflexivity].
  intros q [<-|[<-|[]]]; [apply prime_75445702479781427272750846543864801|apply prime_check_ok; vm_compute; reflexivity].
Qed.
(** Powers modulo 2^255 - 19. *)
Definition red19 (x : Z) : Z := let h := Z.shiftr x 255 in x - Z.shiftl h 255 + 19 * h.
Fixpoint pow19_pos (a : Z) (e : positive) : Z :=
  match e with
  | xH => a
  | xO e => let b := pow19_pos a e in red19 (red19 (b * b))
  | xI e => let b := pow19_pos a e in red19 (red19 (a * red19 (red19 (b * b))))
  end.
Definition pow19 (a e : Z) : Z := match e with Zpos e => pow19_pos a e mod (2 ^ 255 - 19) | _ => 1 end.

Lemma red19_mod : forall x, red19 x mod (2 ^ 255 - 19) = x mod (2 ^ 255 - 19).
Proof.
  intros x. unfold red19. cbv zeta. rewrite Z.shiftl_mul_pow2 by lia. set (h := Z.shiftr x 255).
  replace (x - h * 2 ^ 255 + 19 * h) with (x + (- h) * (2 ^ 255 - 19)) by ring. apply Z_mod_plus_full.
Qed.
Lemma pow19_pos_ok : forall a e, pow19_pos a e mod (2 ^ 255 - 19) = a ^ Zpos e mod (2 ^ 255 - 19).
Proof.
  intros a e. pose proof red19_mod as RM. assert (Hn : 0 < 2 ^ 255 - 19) by reflexivity.
  generalize dependent (2 ^ 255 - 19). intros n RM Hn. induction e as [e IH|e IH|]; cbn [pow19_pos].
  - rewrite !RM. rewrite <- Z.mul_mod_idemp_r, !RM by lia.
    set (b := pow19_pos a e) in *. rewrite (Z.mul_mod b b), IH, <- (Z.mul_mod (a ^ Z.pos e) (a ^ Z.pos e)) by lia.
    rewrite Z.mul_mod_idemp_r by lia. rewrite <- Z.pow_add_r by lia.
    rewrite <- Z.pow_succ_r by lia. f_equal. f_equal. lia.
  - rewrite !RM. rewrite Z.mul_mod, IH, <- Z.mul_mod by lia. rewrite <- Z.pow_add_r by lia. f_equal. f_equal. lia.
  - rewrite Z.pow_1_r. reflexivity.
Qed.
Lemma pow19_ok : forall a e, 0 <= e -> pow19 a e = a ^ e mod (2 ^ 255 - 19).
Proof. intros a e He. destruct e as [|e|e]; [reflexivity|apply pow19_pos_ok|lia]. Qed.

Lemma one_factor : forall n g e b c, prime g -> n - 1 = e * g -> n <= g * g -> 2 < n -> 0 < e ->
  b = 2 ^ e mod n -> c = b ^ g mod n -> (c =? 1) && (Z.gcd (b - 1) n =? 1) = true -> prime n.
Proof.
  intros n g e b c HG N1 B N He -> -> H. apply andb_prop in H. destruct H as [H1 H2]. apply Z.eqb_eq in H1, H2. pose proof (prime_ge_2 g HG).
  rewrite <- Zpower_mod, <- Z.pow_mul_r in H1 by lia.
  apply (pocklington n 2 [g] e); try lia; cbn [prodz fold_right]; try lia.
  - intros q [<-|[]]. exact HG.
  - rewrite N1. exact H1.
  - intros q [<-|[]]. apply gcd_pred; [lia|]. rewrite N1, Z.div_mul by lia. exact H2.
Qed.
Lemma prime_25519 : prime (2 ^ 255 - 19).
Proof.
  apply (one_factor (2 ^ 255 - 19) 74058212732561358302231226437062788676166966415465897661863160754340907 781764 (pow19 2 781764)
    (pow19 (pow19 2 781764) 74058212732561358302231226437062788676166966415465897661863160754340907)).
  - apply prime_74058212732561358302231226437062788676166966415465897661863160754340907.
  - reflexivity.
  - vm_compute. discriminate.
  - reflexivity.
  - reflexivity.
  - apply pow19_ok. discriminate.
  - apply pow19_ok. discriminate.
  - vm_compute. reflexivity.
Qed.
Definition Ped : params := mkParams (2 ^ 255 - 19) prime_25519.
Notation Fe := (F Ped).

(** ** The curve *)

(** RFC 8032, section 5.1: d = -121665/121666. *)
Definition ed_d : Z := 37095705934669439343138083508754565189542113879843219016388785533085940283555.
Lemma ed_d_rfc : (ed_d * 121666 + 121665) mod (2 ^ 255 - 19) = 0. Proof. reflexivity. Qed.

Definition ed_point : Type := (Fe * Fe)%type.
Local Open Scope F_scope.
Definition on_ed (p : ed_point) : Prop :=
  let (x, y) := p in y * y - x * x = f1 + ofZ ed_d * (x * x) * (y * y).
(** RFC 8032, section 5.1.4, affine: the sum of two points. *)
Definition ed_add (p q : ed_point) : ed_point :=
  let (x1, y1) := p in let (x2, y2) := q in
  let e := ofZ ed_d * x1 * x2 * y1 * y2 in
  ((x1 * y2 + x2 * y1) / (f1 + e), (y1 * y2 + x1 * x2) / (f1 - e)).
Definition ed_zero : ed_point := (f0, f1).

Add Field Fed : (F_field Ped) (morphism (F_morph Ped), constants [F_const], power_tac (F_power Ped) [F_pow_tac]).

Lemma ed_i_sq : exists i : Fe, i * i = f0 - f1.
Proof.
  exists (ofZ 19681161376707505956807079304988542015446066515923890162744021073123829784752).
  apply F_ext. vm_compute. reflexivity.
Qed.

Lemma ed_d_power : (ed_d ^ ((2 ^ 255 - 19 - 1) / 2) mod (2 ^ 255 - 19) <> 1)%Z.
Proof.
  rewrite <- pow19_ok by (vm_compute; discriminate). apply Z.eqb_neq. vm_compute. reflexivity.
Qed.
Lemma ed_d_nonsq : forall v : Fe, v * v <> ofZ ed_d.
Proof.
  intros v E. apply (no_root_pow (2 ^ 255 - 19) 2 ed_d (fval v)).
  - apply prime_25519.
  - reflexivity.
  - exists ((2 ^ 255 - 19 - 1) / 2)%Z. reflexivity.
  - split; reflexivity.
  - apply ed_d_power.
  - apply (f_equal fval) in E. etransitivity; [|exact E]. rewrite Z.pow_2_r. reflexivity.
Qed.

Lemma f0_neq_2 : (f1 + f1 : Fe) <> f0.
Proof. intros H. apply (f_equal fval) in H. vm_compute in H. discriminate. Qed.
Lemma sq_eq0 : forall a b : Fe, a * b = f0 -> a <> f0 -> b = f0.
Proof. intros a b H Ha. destruct (fmul_integral _ _ _ H) as [K|K]; [contradiction|exact K]. Qed.

(** The denominators do not vanish on the curve. *)
Lemma ed_den : forall x1 y1 x2 y2 : Fe, on_ed (x1, y1) -> on_ed (x2, y2) ->
  let e := ofZ ed_d * x1 * x2 * y1 * y2 in e * e <> f1.
Proof.
  intros x1 y1 x2 y2 H1 H2 e He. unfold on_ed in H1, H2.
  destruct ed_i_sq as [i Hi]. pose proof ed_d_nonsq as ND. unfold e in He.
  assert (X1 : x1 <> f0) by (intros ->; apply (f1_neq_f0 Ped); rewrite <- He; ring).
  assert (X2 : x2 <> f0) by (intros ->; apply (f1_neq_f0 Ped); rewrite <- He; ring).
  assert (Y1 : y1 <> f0) by (intros ->; apply (f1_neq_f0 Ped); rewrite <- He; ring).
  assert (Hi0 : i <> f0) by (intros ->; apply (f1_neq_f0 Ped); replace (f1 : Fe) with (f0 - (f0 - f1) : Fe) by ring; rewrite <- Hi; ring).
  generalize dependent (ofZ ed_d : Fe). intros d H1 H2 _ He ND.
  (* d x1^2 y1^2 (y2^2 - x2^2) = y1^2 - x1^2 *)
  assert (K : d * (x1 * x1) * (y1 * y1) * (y2 * y2 - x2 * x2) = y1 * y1 - x1 * x1).
  { rewrite H2, H1. transitivity (d * (x1 * x1) * (y1 * y1) + (d * x1 * x2 * y1 * y2) * (d * x1 * x2 * y1 * y2)); [ring|]. rewrite He. ring. }
  assert (S : forall s, s * s = f1 -> (i * x1 + s * (d * x1 * x2 * y1 * y2) * y1) * (i * x1 + s * (d * x1 * x2 * y1 * y2) * y1)
     = d * ((x1 * y1) * (i * x2 + s * y2)) * ((x1 * y1) * (i * x2 + s * y2))).
  { intros s Hs.
    transitivity ((i * i) * (x1 * x1) + (f1 + f1) * i * s * x1 * y1 * (d * x1 * x2 * y1 * y2)
      + (s * s) * ((d * x1 * x2 * y1 * y2) * (d * x1 * x2 * y1 * y2)) * (y1 * y1)); [ring|].
    rewrite He, Hi, Hs.
    transitivity ((y1 * y1 - x1 * x1) + (f1 + f1) * i * s * x1 * y1 * (d * x1 * x2 * y1 * y2)); [ring|].
    rewrite <- K. symmetry.
    transitivity (d * (x1 * y1) * (x1 * y1) * ((i * i) * (x2 * x2) + (f1 + f1) * i * s * x2 * y2 + (s * s) * (y2 * y2))); [ring|].
    rewrite Hi, Hs. ring. }
  assert (Z : forall s, s * s = f1 -> i * x2 + s * y2 = f0).
  { intros s Hs. destruct (feqb (i * x2 + s * y2) f0) eqn:E; [apply feqb_eq; exact E|]. apply feqb_neq in E. exfalso.
    assert (N' : (x1 * y1) * (i * x2 + s * y2) <> f0).
    { intros E2. apply fmul_integral in E2. destruct E2 as [E2|E2]; [apply fmul_integral in E2; destruct E2; contradiction|contradiction]. }
    pose proof (S s Hs) as S'. clear S. clear H1 H2.
    apply (ND ((i * x1 + s * (d * x1 * x2 * y1 * y2) * y1) / ((x1 * y1) * (i * x2 + s * y2)))).
    generalize dependent ((x1 * y1) * (i * x2 + s * y2)). generalize (i * x1 + s * (d * x1 * x2 * y1 * y2) * y1). intros u w w0 Q.
    transitivity (u * u / (w * w)); [field; exact w0|]. rewrite Q. field. exact w0. }
  pose proof (Z f1 ltac:(ring)) as Z1. pose proof (Z (f0 - f1) ltac:(ring)) as Z2.
  assert (Z3 : (f1 + f1) * (i * x2) = f0).
  { transitivity ((i * x2 + f1 * y2) + (i * x2 + (f0 - f1) * y2)); [ring|]. rewrite Z1, Z2. ring. }
  apply fmul_integral in Z3. destruct Z3 as [Z3|Z3]; [exact (f0_neq_2 Z3)|].
  apply fmul_integral in Z3. destruct Z3; contradiction.
Qed.

Lemma ed_den_p : forall x1 y1 x2 y2 : Fe, on_ed (x1, y1) -> on_ed (x2, y2) -> f1 + ofZ ed_d * x1 * x2 * y1 * y2 <> f0.
Proof.
  intros x1 y1 x2 y2 H1 H2 E. apply (ed_den x1 y1 x2 y2 H1 H2). cbv zeta. generalize dependent (ofZ ed_d * x1 * x2 * y1 * y2). intros e E.
  assert (e = f0 - f1) by (transitivity ((f1 + e) - f1); [ring|rewrite E; reflexivity]). subst e. ring.
Qed.
Lemma ed_den_m : forall x1 y1 x2 y2 : Fe, on_ed (x1, y1) -> on_ed (x2, y2) -> f1 - ofZ ed_d * x1 * x2 * y1 * y2 <> f0.
Proof.
  intros x1 y1 x2 y2 H1 H2 E. apply (ed_den x1 y1 x2 y2 H1 H2). cbv zeta. generalize dependent (ofZ ed_d * x1 * x2 * y1 * y2). intros e E.
  assert (e = f1) by (transitivity (f1 - (f1 - e)); [ring|rewrite E; ring]). subst e. ring.
Qed.

(** The sum of two points is the only pair with these products. *)
Lemma ed_add_spec : forall x1 y1 x2 y2 x y : Fe, on_ed (x1, y1) -> on_ed (x2, y2) ->
  let e := ofZ ed_d * x1 * x2 * y1 * y2 in
  ed_add (x1, y1) (x2, y2) = (x, y) <-> x * (f1 + e) = x1 * y2 + x2 * y1 /\ y * (f1 - e) = y1 * y2 + x1 * x2.
Proof.
  intros x1 y1 x2 y2 x y H1 H2 e. pose proof (ed_den_p _ _ _ _ H1 H2) as Dp. pose proof (ed_den_m _ _ _ _ H1 H2) as Dm.
  unfold ed_add. cbv zeta. unfold e. clear e. generalize dependent (ofZ ed_d * x1 * x2 * y1 * y2). intros e Dp Dm. split.
  - intros E. assert (Ex := f_equal fst E). assert (Ey := f_equal snd E). cbn [fst snd] in Ex, Ey. rewrite <- Ex, <- Ey. split; field; assumption.
  - intros [Ex Ey]. rewrite <- Ex, <- Ey. f_equal; field; assumption.
Qed.

Lemma ed_closed_core : forall d u v U V w : Fe, v - u = f1 + d * u * v -> V - U = f1 + d * U * V -> w * w = u * v * (U * V) ->
  (v * V + u * U + (f1 + f1) * w) * ((f1 + d * w) * (f1 + d * w)) - (u * V + U * v + (f1 + f1) * w) * ((f1 - d * w) * (f1 - d * w)) =
  (f1 + d * w) * (f1 + d * w) * ((f1 - d * w) * (f1 - d * w)) + d * (u * V + U * v + (f1 + f1) * w) * (v * V + u * U + (f1 + f1) * w).
Proof.
  intros d u v U V w H1 H2 Hw.
  assert (AB : v * V + u * U - (u * V + U * v) = (f1 + d * u * v) * (f1 + d * U * V)) by (rewrite <- H1, <- H2; ring).
  assert (AM : (v * V + u * U) * (u * V + U * v) = u * v * ((f1 + d * U * V) * (f1 + d * U * V)) + U * V * ((f1 + d * u * v) * (f1 + d * u * v)) + (f1 + f1 + f1 + f1) * (u * v * (U * V))).
  { rewrite <- H1, <- H2. ring. }
  generalize dependent (v * V + u * U). intros A. generalize dependent (u * V + U * v). intros B AB AM.
  replace A with (B + (f1 + d * u * v) * (f1 + d * U * V)) in * by (rewrite <- AB; ring).
  clear AB A. rename H1 into Q1, H2 into Q2. clear Q1 Q2.
  revert Hw AM. replace (u * v * (U * V)) with ((u * v) * (U * V)) by ring.
  replace (d * u * v) with (d * (u * v)) by ring. replace (d * U * V) with (d * (U * V)) by ring.
  generalize (u * v). intros m. generalize (U * V). intros M. clear u v U V. intros Hw AM.
  assert (E : (B + (f1 + d * m) * (f1 + d * M)) * B = m * ((f1 + d * M) * (f1 + d * M)) + M * ((f1 + d * m) * (f1 + d * m)) + (f1 + f1 + f1 + f1) * (w * w)) by (rewrite AM, Hw; reflexivity).
  transitivity ((f1 + d * m) * (f1 + d * M) * (f1 + d * d * (w * w)) + (f1 + f1 + f1 + f1 + f1 + f1 + f1 + f1) * d * (w * w)
    + (f1 + f1) * d * w * (B + B + (f1 + d * m) * (f1 + d * M))); [ring|].
  symmetry.
  transitivity ((f1 - d * d * (w * w)) * (f1 - d * d * (w * w)) + d * ((B + (f1 + d * m) * (f1 + d * M)) * B + (f1 + f1 + f1 + f1) * (w * w)
    + (f1 + f1) * w * (B + B + (f1 + d * m) * (f1 + d * M)))); [ring|].
  rewrite E, Hw. ring.
Qed.

Lemma ed_add_closed : forall p q, on_ed p -> on_ed q -> on_ed (ed_add p q).
Proof.
  intros [x1 y1] [x2 y2] H1 H2. destruct (ed_add (x1, y1) (x2, y2)) as [x y] eqn:E.
  apply (ed_add_spec _ _ _ _ _ _ H1 H2) in E. cbv zeta in E.
  pose proof (ed_den_p _ _ _ _ H1 H2) as Dp. pose proof (ed_den_m _ _ _ _ H1 H2) as Dm.
  unfold on_ed in *. generalize dependent (ofZ ed_d : Fe). intros d H1 H2 [Ex Ey] Dp Dm.
  pose proof (ed_closed_core d (x1 * x1) (y1 * y1) (x2 * x2) (y2 * y2) (x1 * x2 * y1 * y2) H1 H2 ltac:(ring)) as K.
  apply (proj1 (fsub_eq0 Ped _ _)). 
  assert (Z : (f1 + d * x1 * x2 * y1 * y2) * (f1 - d * x1 * x2 * y1 * y2) * ((f1 + d * x1 * x2 * y1 * y2) * (f1 - d * x1 * x2 * y1 * y2)) *
    (y * y - x * x - (f1 + d * (x * x) * (y * y))) = f0).
  { transitivity ((y * (f1 - d * x1 * x2 * y1 * y2)) * (y * (f1 - d * x1 * x2 * y1 * y2)) * ((f1 + d * x1 * x2 * y1 * y2) * (f1 + d * x1 * x2 * y1 * y2))
      - (x * (f1 + d * x1 * x2 * y1 * y2)) * (x * (f1 + d * x1 * x2 * y1 * y2)) * ((f1 - d * x1 * x2 * y1 * y2) * (f1 - d * x1 * x2 * y1 * y2))
      - ((f1 + d * x1 * x2 * y1 * y2) * (f1 + d * x1 * x2 * y1 * y2) * ((f1 - d * x1 * x2 * y1 * y2) * (f1 - d * x1 * x2 * y1 * y2))
        + d * ((x * (f1 + d * x1 * x2 * y1 * y2)) * (x * (f1 + d * x1 * x2 * y1 * y2))) * ((y * (f1 - d * x1 * x2 * y1 * y2)) * (y * (f1 - d * x1 * x2 * y1 * y2))))); [ring|].
    rewrite Ex, Ey. apply (proj2 (fsub_eq0 Ped _ _)).
    replace (d * x1 * x2 * y1 * y2) with (d * (x1 * x2 * y1 * y2)) by ring.
    etransitivity; [|etransitivity; [exact K|]]; ring. }
  repeat (apply fmul_integral in Z; destruct Z as [Z|Z]); try contradiction. exact Z.
Qed.

Lemma ed_zero_on : on_ed ed_zero. Proof. unfold on_ed, ed_zero. ring. Qed.
Lemma ed_add_comm : forall p q, ed_add p q = ed_add q p.
Proof.
  intros [x1 y1] [x2 y2]. unfold ed_add. cbv zeta.
  replace (ofZ ed_d * x2 * x1 * y2 * y1) with (ofZ ed_d * x1 * x2 * y1 * y2) by ring. f_equal; f_equal; ring.
Qed.
Lemma ed_add_zero : forall p, on_ed p -> ed_add p ed_zero = p.
Proof.
  intros [x y] H. apply (ed_add_spec x y f0 f1 x y H ed_zero_on). split; ring.
Qed.

(** ** Associativity *)

Section Assoc.
Variables d x1 y1 x2 y2 x3 y3 : Fe.
Let c1 := y1 * y1 - x1 * x1 - f1 - d * (x1 * x1) * (y1 * y1).
Let c2 := y2 * y2 - x2 * x2 - f1 - d * (x2 * x2) * (y2 * y2).
Let c3 := y3 * y3 - x3 * x3 - f1 - d * (x3 * x3) * (y3 * y3).
Let e12 := d * x1 * x2 * y1 * y2.
Let e23 := d * x2 * x3 * y2 * y3.
Let X12 := x1 * y2 + x2 * y1.
Let Y12 := y1 * y2 + x1 * x2.
Let X23 := x2 * y3 + x3 * y2.
Let Y23 := y2 * y3 + x2 * x3.
Hypothesis H1 : c1 = f0.
Hypothesis H2 : c2 = f0.
Hypothesis H3 : c3 = f0.
Lemma assoc_x : (X12 * (f1 - e12) * y3 + x3 * (Y12 * (f1 + e12))) * ((f1 - e23) * (f1 + e23) + d * X23 * Y23 * x1 * y1) =
  (X23 * (f1 - e23) * y1 + x1 * (Y23 * (f1 + e23))) * ((f1 - e12) * (f1 + e12) + d * X12 * Y12 * x3 * y3).
Proof.
  apply (proj1 (fsub_eq0 Ped _ _)).
  transitivity (c1 * (f0 - y1 * x2 * y2 * y2 * y2 * y2 * x3 * x3 * y3 * d - y1 * x2 * x2 * y2 * y2 * y2 * x3 * d - y1 * x2 * x2 * y2 * y2 * y2 * x3 * x3 * x3 * d
    - y1 * x2 * x2 * x2 * y2 * y2 * y3 * d + y1 * x2 * x2 * x2 * y2 * y2 * y3 * y3 * y3 * d + y1 * x2 * x2 * x2 * y2 * y2 * y2 * y2 * x3 * x3 *
    y3 * d * d + y1 * x2 * x2 * x2 * x2 * y2 * x3 * y3 * y3 * d + y1 * x2 * x2 * x2 * x2 * y2 * y2 * y2 * x3 * y3 * y3 * d * d + x1 * x2 * y2 *
    y2 * y2 * y2 * x3 * y3 * y3 * d - x1 * x2 * x2 * y2 * y2 * y2 * y3 * d + x1 * x2 * x2 * y2 * y2 * y2 * y3 * y3 * y3 * d - x1 * x2 * x2 * x2
    * y2 * y2 * x3 * d - x1 * x2 * x2 * x2 * y2 * y2 * x3 * x3 * x3 * d - x1 * x2 * x2 * x2 * y2 * y2 * y2 * y2 * x3 * y3 * y3 * d * d - x1 * x2
    * x2 * x2 * x2 * y2 * x3 * x3 * y3 * d - x1 * x2 * x2 * x2 * x2 * y2 * y2 * y2 * x3 * x3 * y3 * d * d) +
    c2 * (f0 + y1 * y2 * x3 - y1 * y2 * x3 * y3 * y3 + y1 * y2 * x3 * x3 * x3 + y1 * y2 * x3 * x3 * x3 * y3 * y3 * d + y1 * x2 * y3 - y1 * x2 * y3 *
    y3 * y3 + y1 * x2 * x3 * x3 * y3 + y1 * x2 * x3 * x3 * y3 * y3 * y3 * d - y1 * x2 * y2 * y2 * x3 * x3 * y3 * d - y1 * x2 * x2 * y2 * x3 * y3
    * y3 * d - y1 * y1 * y1 * y2 * x3 + y1 * y1 * y1 * y2 * x3 * y3 * y3 - y1 * y1 * y1 * y2 * x3 * x3 * x3 - y1 * y1 * y1 * y2 * x3 * x3 * x3 *
    y3 * y3 * d - y1 * y1 * y1 * x2 * y3 + y1 * y1 * y1 * x2 * y3 * y3 * y3 - y1 * y1 * y1 * x2 * x3 * x3 * y3 - y1 * y1 * y1 * x2 * x3 * x3 *
    y3 * y3 * y3 * d + y1 * y1 * y1 * x2 * y2 * y2 * x3 * x3 * y3 * d + y1 * y1 * y1 * x2 * x2 * y2 * x3 * y3 * y3 * d + x1 * y2 * y3 - x1 * y2
    * y3 * y3 * y3 + x1 * y2 * x3 * x3 * y3 + x1 * y2 * x3 * x3 * y3 * y3 * y3 * d + x1 * x2 * x3 - x1 * x2 * x3 * y3 * y3 + x1 * x2 * x3 * x3 *
    x3 + x1 * x2 * x3 * x3 * x3 * y3 * y3 * d + x1 * x2 * y2 * y2 * x3 * y3 * y3 * d + x1 * x2 * x2 * y2 * x3 * x3 * y3 * d - x1 * y1 * y1 * y2
    * y3 + x1 * y1 * y1 * y2 * y3 * y3 * y3 - x1 * y1 * y1 * y2 * x3 * x3 * y3 - x1 * y1 * y1 * y2 * x3 * x3 * y3 * y3 * y3 * d - x1 * y1 * y1 *
    x2 * x3 + x1 * y1 * y1 * x2 * x3 * y3 * y3 - x1 * y1 * y1 * x2 * x3 * x3 * x3 - x1 * y1 * y1 * x2 * x3 * x3 * x3 * y3 * y3 * d - x1 * y1 *
    y1 * x2 * y2 * y2 * x3 * y3 * y3 * d + x1 * y1 * y1 * x2 * y2 * y2 * x3 * x3 * x3 * y3 * y3 * d * d - x1 * y1 * y1 * x2 * x2 * y2 * x3 * x3
    * y3 * d - x1 * y1 * y1 * x2 * x2 * y2 * x3 * x3 * y3 * y3 * y3 * d * d + x1 * x1 * y1 * y2 * x3 - x1 * x1 * y1 * y2 * x3 * y3 * y3 + x1 *
    x1 * y1 * y2 * x3 * x3 * x3 + x1 * x1 * y1 * y2 * x3 * x3 * x3 * y3 * y3 * d + x1 * x1 * y1 * x2 * y3 - x1 * x1 * y1 * x2 * y3 * y3 * y3 +
    x1 * x1 * y1 * x2 * x3 * x3 * y3 + x1 * x1 * y1 * x2 * x3 * x3 * y3 * y3 * y3 * d - x1 * x1 * y1 * x2 * y2 * y2 * x3 * x3 * y3 * d - x1 * x1
    * y1 * x2 * y2 * y2 * x3 * x3 * y3 * y3 * y3 * d * d - x1 * x1 * y1 * x2 * x2 * y2 * x3 * y3 * y3 * d + x1 * x1 * y1 * x2 * x2 * y2 * x3 *
    x3 * x3 * y3 * y3 * d * d + x1 * x1 * x1 * y2 * y3 - x1 * x1 * x1 * y2 * y3 * y3 * y3 + x1 * x1 * x1 * y2 * x3 * x3 * y3 + x1 * x1 * x1 * y2
    * x3 * x3 * y3 * y3 * y3 * d + x1 * x1 * x1 * x2 * x3 - x1 * x1 * x1 * x2 * x3 * y3 * y3 + x1 * x1 * x1 * x2 * x3 * x3 * x3 + x1 * x1 * x1 *
    x2 * x3 * x3 * x3 * y3 * y3 * d + x1 * x1 * x1 * x2 * y2 * y2 * x3 * y3 * y3 * d + x1 * x1 * x1 * x2 * x2 * y2 * x3 * x3 * y3 * d) +
    c3 * (f0 - y1 * y2 * x3 + y1 * y2 * y2 * y2 * x3 - y1 * x2 * y3 + y1 * x2 * y2 * y2 * y3 - y1 * x2 * x2 * y2 * x3 - y1 * x2 * x2 * x2 * y3 + y1 *
    y1 * y1 * y2 * x3 - y1 * y1 * y1 * y2 * y2 * y2 * x3 + y1 * y1 * y1 * x2 * y3 - y1 * y1 * y1 * x2 * y2 * y2 * y3 + y1 * y1 * y1 * x2 * x2 *
    y2 * x3 + y1 * y1 * y1 * x2 * x2 * x2 * y3 - x1 * y2 * y3 + x1 * y2 * y2 * y2 * y3 - x1 * x2 * x3 + x1 * x2 * y2 * y2 * x3 - x1 * x2 * x2 *
    y2 * y3 - x1 * x2 * x2 * x2 * x3 + x1 * y1 * y1 * y2 * y3 - x1 * y1 * y1 * y2 * y2 * y2 * y3 + x1 * y1 * y1 * x2 * x3 - x1 * y1 * y1 * x2 *
    y2 * y2 * x3 - x1 * y1 * y1 * x2 * y2 * y2 * x3 * d + x1 * y1 * y1 * x2 * x2 * y2 * y3 + x1 * y1 * y1 * x2 * x2 * y2 * y3 * d + x1 * y1 * y1
    * x2 * x2 * x2 * x3 - x1 * x1 * y1 * y2 * x3 + x1 * x1 * y1 * y2 * y2 * y2 * x3 - x1 * x1 * y1 * x2 * y3 + x1 * x1 * y1 * x2 * y2 * y2 * y3
    + x1 * x1 * y1 * x2 * y2 * y2 * y3 * d - x1 * x1 * y1 * x2 * x2 * y2 * x3 - x1 * x1 * y1 * x2 * x2 * y2 * x3 * d - x1 * x1 * y1 * x2 * x2 *
    x2 * y3 - x1 * x1 * x1 * y2 * y3 + x1 * x1 * x1 * y2 * y2 * y2 * y3 - x1 * x1 * x1 * x2 * x3 + x1 * x1 * x1 * x2 * y2 * y2 * x3 - x1 * x1 *
    x1 * x2 * x2 * y2 * y3 - x1 * x1 * x1 * x2 * x2 * x2 * x3)).
  - unfold c1, c2, c3, X12, Y12, X23, Y23, e12, e23. ring.
  - rewrite H1, H2, H3. ring.
Qed.
Lemma assoc_y : (Y12 * (f1 + e12) * y3 + x3 * (X12 * (f1 - e12))) * ((f1 - e23) * (f1 + e23) - d * X23 * Y23 * x1 * y1) =
  (Y23 * (f1 + e23) * y1 + x1 * (X23 * (f1 - e23))) * ((f1 - e12) * (f1 + e12) - d * X12 * Y12 * x3 * y3).
Proof.
  apply (proj1 (fsub_eq0 Ped _ _)).
  transitivity (c1 * (f0 + y1 * x2 * y2 * y2 * y2 * y2 * x3 * y3 * y3 * d - y1 * x2 * x2 * y2 * y2 * y2 * y3 * d + y1 * x2 * x2 * y2 * y2 * y2 * y3 * y3 * y3 * d
    - y1 * x2 * x2 * x2 * y2 * y2 * x3 * d - y1 * x2 * x2 * x2 * y2 * y2 * x3 * x3 * x3 * d - y1 * x2 * x2 * x2 * y2 * y2 * y2 * y2 * x3 * y3 *
    y3 * d * d - y1 * x2 * x2 * x2 * x2 * y2 * x3 * x3 * y3 * d - y1 * x2 * x2 * x2 * x2 * y2 * y2 * y2 * x3 * x3 * y3 * d * d - x1 * x2 * y2 *
    y2 * y2 * y2 * x3 * x3 * y3 * d - x1 * x2 * x2 * y2 * y2 * y2 * x3 * d - x1 * x2 * x2 * y2 * y2 * y2 * x3 * x3 * x3 * d - x1 * x2 * x2 * x2
    * y2 * y2 * y3 * d + x1 * x2 * x2 * x2 * y2 * y2 * y3 * y3 * y3 * d + x1 * x2 * x2 * x2 * y2 * y2 * y2 * y2 * x3 * x3 * y3 * d * d + x1 * x2
    * x2 * x2 * x2 * y2 * x3 * y3 * y3 * d + x1 * x2 * x2 * x2 * x2 * y2 * y2 * y2 * x3 * y3 * y3 * d * d) +
    c2 * (f0 + y1 * y2 * y3 - y1 * y2 * y3 * y3 * y3 + y1 * y2 * x3 * x3 * y3 + y1 * y2 * x3 * x3 * y3 * y3 * y3 * d + y1 * x2 * x3 - y1 * x2 * x3 *
    y3 * y3 + y1 * x2 * x3 * x3 * x3 + y1 * x2 * x3 * x3 * x3 * y3 * y3 * d + y1 * x2 * y2 * y2 * x3 * y3 * y3 * d + y1 * x2 * x2 * y2 * x3 * x3
    * y3 * d - y1 * y1 * y1 * y2 * y3 + y1 * y1 * y1 * y2 * y3 * y3 * y3 - y1 * y1 * y1 * y2 * x3 * x3 * y3 - y1 * y1 * y1 * y2 * x3 * x3 * y3 *
    y3 * y3 * d - y1 * y1 * y1 * x2 * x3 + y1 * y1 * y1 * x2 * x3 * y3 * y3 - y1 * y1 * y1 * x2 * x3 * x3 * x3 - y1 * y1 * y1 * x2 * x3 * x3 *
    x3 * y3 * y3 * d - y1 * y1 * y1 * x2 * y2 * y2 * x3 * y3 * y3 * d - y1 * y1 * y1 * x2 * x2 * y2 * x3 * x3 * y3 * d + x1 * y2 * x3 - x1 * y2
    * x3 * y3 * y3 + x1 * y2 * x3 * x3 * x3 + x1 * y2 * x3 * x3 * x3 * y3 * y3 * d + x1 * x2 * y3 - x1 * x2 * y3 * y3 * y3 + x1 * x2 * x3 * x3 *
    y3 + x1 * x2 * x3 * x3 * y3 * y3 * y3 * d - x1 * x2 * y2 * y2 * x3 * x3 * y3 * d - x1 * x2 * x2 * y2 * x3 * y3 * y3 * d - x1 * y1 * y1 * y2
    * x3 + x1 * y1 * y1 * y2 * x3 * y3 * y3 - x1 * y1 * y1 * y2 * x3 * x3 * x3 - x1 * y1 * y1 * y2 * x3 * x3 * x3 * y3 * y3 * d - x1 * y1 * y1 *
    x2 * y3 + x1 * y1 * y1 * x2 * y3 * y3 * y3 - x1 * y1 * y1 * x2 * x3 * x3 * y3 - x1 * y1 * y1 * x2 * x3 * x3 * y3 * y3 * y3 * d + x1 * y1 *
    y1 * x2 * y2 * y2 * x3 * x3 * y3 * d + x1 * y1 * y1 * x2 * y2 * y2 * x3 * x3 * y3 * y3 * y3 * d * d + x1 * y1 * y1 * x2 * x2 * y2 * x3 * y3
    * y3 * d - x1 * y1 * y1 * x2 * x2 * y2 * x3 * x3 * x3 * y3 * y3 * d * d + x1 * x1 * y1 * y2 * y3 - x1 * x1 * y1 * y2 * y3 * y3 * y3 + x1 *
    x1 * y1 * y2 * x3 * x3 * y3 + x1 * x1 * y1 * y2 * x3 * x3 * y3 * y3 * y3 * d + x1 * x1 * y1 * x2 * x3 - x1 * x1 * y1 * x2 * x3 * y3 * y3 +
    x1 * x1 * y1 * x2 * x3 * x3 * x3 + x1 * x1 * y1 * x2 * x3 * x3 * x3 * y3 * y3 * d + x1 * x1 * y1 * x2 * y2 * y2 * x3 * y3 * y3 * d - x1 * x1
    * y1 * x2 * y2 * y2 * x3 * x3 * x3 * y3 * y3 * d * d + x1 * x1 * y1 * x2 * x2 * y2 * x3 * x3 * y3 * d + x1 * x1 * y1 * x2 * x2 * y2 * x3 *
    x3 * y3 * y3 * y3 * d * d + x1 * x1 * x1 * y2 * x3 - x1 * x1 * x1 * y2 * x3 * y3 * y3 + x1 * x1 * x1 * y2 * x3 * x3 * x3 + x1 * x1 * x1 * y2
    * x3 * x3 * x3 * y3 * y3 * d + x1 * x1 * x1 * x2 * y3 - x1 * x1 * x1 * x2 * y3 * y3 * y3 + x1 * x1 * x1 * x2 * x3 * x3 * y3 + x1 * x1 * x1 *
    x2 * x3 * x3 * y3 * y3 * y3 * d - x1 * x1 * x1 * x2 * y2 * y2 * x3 * x3 * y3 * d - x1 * x1 * x1 * x2 * x2 * y2 * x3 * y3 * y3 * d) +
    c3 * (f0 - y1 * y2 * y3 + y1 * y2 * y2 * y2 * y3 - y1 * x2 * x3 + y1 * x2 * y2 * y2 * x3 - y1 * x2 * x2 * y2 * y3 - y1 * x2 * x2 * x2 * x3 + y1 *
    y1 * y1 * y2 * y3 - y1 * y1 * y1 * y2 * y2 * y2 * y3 + y1 * y1 * y1 * x2 * x3 - y1 * y1 * y1 * x2 * y2 * y2 * x3 + y1 * y1 * y1 * x2 * x2 *
    y2 * y3 + y1 * y1 * y1 * x2 * x2 * x2 * x3 - x1 * y2 * x3 + x1 * y2 * y2 * y2 * x3 - x1 * x2 * y3 + x1 * x2 * y2 * y2 * y3 - x1 * x2 * x2 *
    y2 * x3 - x1 * x2 * x2 * x2 * y3 + x1 * y1 * y1 * y2 * x3 - x1 * y1 * y1 * y2 * y2 * y2 * x3 + x1 * y1 * y1 * x2 * y3 - x1 * y1 * y1 * x2 *
    y2 * y2 * y3 - x1 * y1 * y1 * x2 * y2 * y2 * y3 * d + x1 * y1 * y1 * x2 * x2 * y2 * x3 + x1 * y1 * y1 * x2 * x2 * y2 * x3 * d + x1 * y1 * y1
    * x2 * x2 * x2 * y3 - x1 * x1 * y1 * y2 * y3 + x1 * x1 * y1 * y2 * y2 * y2 * y3 - x1 * x1 * y1 * x2 * x3 + x1 * x1 * y1 * x2 * y2 * y2 * x3
    + x1 * x1 * y1 * x2 * y2 * y2 * x3 * d - x1 * x1 * y1 * x2 * x2 * y2 * y3 - x1 * x1 * y1 * x2 * x2 * y2 * y3 * d - x1 * x1 * y1 * x2 * x2 *
    x2 * x3 - x1 * x1 * x1 * y2 * x3 + x1 * x1 * x1 * y2 * y2 * y2 * x3 - x1 * x1 * x1 * x2 * y3 + x1 * x1 * x1 * x2 * y2 * y2 * y3 - x1 * x1 *
    x1 * x2 * x2 * y2 * x3 - x1 * x1 * x1 * x2 * x2 * x2 * y3)).
  - unfold c1, c2, c3, X12, Y12, X23, Y23, e12, e23. ring.
  - rewrite H1, H2, H3. ring.
Qed.
End Assoc.
Lemma fmul_neq0 : forall a b : Fe, a <> f0 -> b <> f0 -> a * b <> f0.
Proof. intros a b Ha Hb H. destruct (fmul_integral _ _ _ H); contradiction. Qed.
Lemma fdiv_eq : forall a b u v : Fe, b <> f0 -> v <> f0 -> a * v = u * b -> a / b = u / v.
Proof. intros a b u v Hb Hv H. assert (E : a = u * b / v) by (rewrite <- H; field; exact Hv). rewrite E. field. split; assumption. Qed.
(** The coordinates of a sum with a sum. *)
Lemma ed_add3 : forall d X Y e x3 y3 : Fe, f1 + e <> f0 -> f1 - e <> f0 ->
  f1 + d * (X / (f1 + e)) * x3 * (Y / (f1 - e)) * y3 <> f0 -> f1 - d * (X / (f1 + e)) * x3 * (Y / (f1 - e)) * y3 <> f0 ->
  (f1 - e) * (f1 + e) + d * X * Y * x3 * y3 <> f0 /\ (f1 - e) * (f1 + e) - d * X * Y * x3 * y3 <> f0 /\
  (X / (f1 + e) * y3 + x3 * (Y / (f1 - e))) / (f1 + d * (X / (f1 + e)) * x3 * (Y / (f1 - e)) * y3) =
  (X * (f1 - e) * y3 + x3 * (Y * (f1 + e))) / ((f1 - e) * (f1 + e) + d * X * Y * x3 * y3) /\
  (Y / (f1 - e) * y3 + X / (f1 + e) * x3) / (f1 - d * (X / (f1 + e)) * x3 * (Y / (f1 - e)) * y3) =
  (Y * (f1 + e) * y3 + x3 * (X * (f1 - e))) / ((f1 - e) * (f1 + e) - d * X * Y * x3 * y3).
Proof.
  intros d X Y e x3 y3 Hp Hm Dp Dm.
  assert (Ep : (f1 - e) * (f1 + e) + d * X * Y * x3 * y3 = (f1 - e) * (f1 + e) * (f1 + d * (X / (f1 + e)) * x3 * (Y / (f1 - e)) * y3)) by (field; split; assumption).
  assert (Em : (f1 - e) * (f1 + e) - d * X * Y * x3 * y3 = (f1 - e) * (f1 + e) * (f1 - d * (X / (f1 + e)) * x3 * (Y / (f1 - e)) * y3)) by (field; split; assumption).
  assert (Np : (f1 - e) * (f1 + e) + d * X * Y * x3 * y3 <> f0) by (rewrite Ep; repeat apply fmul_neq0; assumption).
  assert (Nm : (f1 - e) * (f1 + e) - d * X * Y * x3 * y3 <> f0) by (rewrite Em; repeat apply fmul_neq0; assumption).
  split; [exact Np|]. split; [exact Nm|]. split.
  - apply fdiv_eq; [exact Dp|exact Np|]. rewrite Ep. field. split; assumption.
  - apply fdiv_eq; [exact Dm|exact Nm|]. rewrite Em. field. split; assumption.
Qed.
Lemma ed_add_assoc : forall p q r, on_ed p -> on_ed q -> on_ed r -> ed_add (ed_add p q) r = ed_add p (ed_add q r).
Proof.
  intros [x1 y1] [x2 y2] [x3 y3] H1 H2 H3. rewrite (ed_add_comm (x1, y1) (ed_add (x2, y2) (x3, y3))).
  pose proof (ed_add_closed _ _ H1 H2) as C12. pose proof (ed_add_closed _ _ H2 H3) as C23.
  pose proof (ed_den_p _ _ _ _ H1 H2) as N1. pose proof (ed_den_m _ _ _ _ H1 H2) as N2.
  pose proof (ed_den_p _ _ _ _ H2 H3) as N3. pose proof (ed_den_m _ _ _ _ H2 H3) as N4.
  unfold ed_add in *. cbv zeta in *.
  pose proof (ed_den_p _ _ _ _ C12 H3) as M1. pose proof (ed_den_m _ _ _ _ C12 H3) as M2.
  pose proof (ed_den_p _ _ _ _ C23 H1) as M3. pose proof (ed_den_m _ _ _ _ C23 H1) as M4. clear C12 C23.
  assert (E1 : y1 * y1 - x1 * x1 - f1 - ofZ ed_d * (x1 * x1) * (y1 * y1) = f0) by (unfold on_ed in H1; rewrite H1; ring).
  assert (E2 : y2 * y2 - x2 * x2 - f1 - ofZ ed_d * (x2 * x2) * (y2 * y2) = f0) by (unfold on_ed in H2; rewrite H2; ring).
  assert (E3 : y3 * y3 - x3 * x3 - f1 - ofZ ed_d * (x3 * x3) * (y3 * y3) = f0) by (unfold on_ed in H3; rewrite H3; ring).
  clear H1 H2 H3. generalize dependent (ofZ ed_d : Fe). intros d N1 N2 N3 N4 M1 M2 M3 M4 E1 E2 E3.
  destruct (ed_add3 d _ _ _ x3 y3 N1 N2 M1 M2) as [A1 [A2 [-> ->]]].
  destruct (ed_add3 d _ _ _ x1 y1 N3 N4 M3 M4) as [B1 [B2 [-> ->]]].
  f_equal; apply fdiv_eq; try assumption; [apply assoc_x|apply assoc_y]; assumption.
Qed.

(** ** Multiples *)

(** [n] times a point, as a sum of [n] terms. *)
Definition ed_times (n : Z) (p : ed_point) : ed_point := Z.iter n (ed_add p) ed_zero.
Local Open Scope Z_scope.
Lemma ed_times_0 : forall p, ed_times 0 p = ed_zero. Proof. reflexivity. Qed.
Lemma ed_times_succ : forall n p, 0 <= n -> ed_times (n + 1) p = ed_add p (ed_times n p).
Proof. intros n p Hn. destruct n as [|n|n]; [reflexivity| |lia]. unfold ed_times. rewrite Z.add_1_r, <- Pos2Z.inj_succ. unfold Z.iter. rewrite Pos.iter_succ. reflexivity. Qed.
Lemma ed_times_on : forall n p, 0 <= n -> on_ed p -> on_ed (ed_times n p).
Proof.
  intros n p Hn Hp. pattern n. apply natlike_ind; [apply ed_zero_on| |exact Hn].
  intros x Hx IH. rewrite <- Z.add_1_r, ed_times_succ by exact Hx. apply ed_add_closed; assumption.
Qed.
Lemma ed_zero_add : forall p, on_ed p -> ed_add ed_zero p = p.
Proof. intros p Hp. rewrite ed_add_comm. apply ed_add_zero. exact Hp. Qed.
Lemma ed_times_add : forall m n p, 0 <= m -> 0 <= n -> on_ed p -> ed_times (m + n) p = ed_add (ed_times m p) (ed_times n p).
Proof.
  intros m n p Hm Hn Hp. pattern m. apply natlike_ind; [| |exact Hm].
  - rewrite ed_times_0, ed_zero_add by (apply ed_times_on; assumption). reflexivity.
  - intros x Hx IH. replace (Z.succ x + n) with (x + n + 1) by lia. rewrite <- Z.add_1_r. rewrite !ed_times_succ by lia. rewrite IH.
    symmetry. apply ed_add_assoc; [exact Hp|apply ed_times_on; assumption|apply ed_times_on; assumption].
Qed.
Lemma ed_times_1 : forall p, on_ed p -> ed_times 1 p = p.
Proof. intros p Hp. exact (ed_add_zero p Hp). Qed.
