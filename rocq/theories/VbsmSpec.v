(** What the variable base scalar multiplication is meant to compute, stated
    without reference to its model. *)
From Coq Require Import ZArith List Bool.
From Verif Require Import Base Field CurveSpec.
Import ListNotations.
Open Scope Z_scope.

(** The group orders of the two curves: Pallas has the base field order of Vesta
    as its group order and the other way round. *)
Definition group_order (pal : bool) : Z :=
  2 ^ 254 + (if pal then 0x224698fc0994a8dd8c46eb2100000001 else 0x224698fc094cf91b992d30ed00000001).

(** The shifted scalars of -1, 0 and 1.  A shifted scalar [n] stands for
    [2 n + 2^255 + 1] on Pallas; on Vesta these three stand for [n + 2^255]. *)
Definition shifted (pal : bool) (y n : Z) : Prop :=
  0 <= n < group_order pal /\
  (if pal then 2 * n + 2 ^ 255 + 1 else n + 2 ^ 255) mod group_order pal = y mod group_order pal.

Section Spec.
Variable P : params.
Notation F := (F P).

(** The scalar given by the inputs. *)
Definition scalar_of (pal : bool) (b bh : F) : Z :=
  if pal then fval b + 2 ^ 254 * fval bh else fval b.
Definition scalar_ok (pal : bool) (b bh : F) : Prop :=
  (pal = true -> fval b < 2 ^ 254 /\ (fval bh = 0 \/ fval bh = 1)) /\
  scalar_of pal b bh < group_order pal.

(** The double and add ladder over the 255 bits of [n], most significant first:
    every step turns [p] into [(p + t) + p] or [(p - t) + p]. *)
Definition ladder (t : point P) (n k : Z) : point P :=
  fold_left (fun p i => ec_add (ec_add p (if Z.testbit n (254 - i) then t else neg t)) p)
    (zseq 0 k) (ec_add t t).

(** No step of the first [k] meets a point with the abscissa of the base point. *)
Definition regular (t : point P) (n k : Z) : Prop :=
  forall i, 0 <= i < k -> exists x y xt yt,
    ladder t n i = Some (x, y) /\ t = Some (xt, yt) /\ x <> xt.
End Spec.

Arguments scalar_of {P}. Arguments scalar_ok {P}. Arguments ladder {P}. Arguments regular {P}.

(** The product: the special scalars give -t, the neutral element and t; every
    other scalar gives the end of the ladder. *)
Definition special (pal : bool) (n : Z) : Prop := shifted pal (-1) n \/ shifted pal 0 n \/ shifted pal 1 n.
Definition scalar_product {P} (pal : bool) (t : point P) (n : Z) (r : point P) : Prop :=
  (shifted pal (-1) n -> r = neg t) /\ (shifted pal 0 n -> r = None) /\ (shifted pal 1 n -> r = t) /\
  (~ special pal n -> r = ladder t n 255).

(** The ladder runs through without an exceptional step.  For a special scalar
    the last step may be exceptional, since its outcome is not used. *)
Definition runs {P} (pal : bool) (t : F P * F P) (n : Z) : Prop :=
  regular (Some t) n 254 /\
  (forall x y, ladder (Some t) n 254 = Some (x, y) -> x <> fst t) /\
  (~ special pal n -> ladder (Some t) n 254 <> None /\ ladder (Some t) n 255 <> None).

(** An addition of affine points with [inf] in place of the neutral element. *)
Definition lenc {P} (inf : F P * F P) (p : point P) : F P * F P := match p with None => inf | Some xy => xy end.
Definition affine_add {P} (bc : F P) (inf : F P * F P) (ladd : F P * F P -> F P * F P -> F P * F P) : Prop :=
  forall p q, on_curve bc p -> on_curve bc q -> ladd (lenc inf p) (lenc inf q) = lenc inf (ec_add p q).

(** Multiples of a point, and the associativity of the addition of a curve. *)
Definition ec_mul {P} (k : Z) (t : point P) : point P := fold_left (fun p _ => ec_add p t) (zseq 0 k) None.
Definition ec_assoc {P} (bc : F P) : Prop := forall p q r : point P,
  on_curve bc p -> on_curve bc q -> on_curve bc r -> ec_add (ec_add p q) r = ec_add p (ec_add q r).
