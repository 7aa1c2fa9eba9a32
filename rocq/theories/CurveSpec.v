(** What the curve components are meant to compute, stated without reference to
    their models: the chord and tangent group law of [y^2 = x^3 + b], and the
    decomposition behind the endomorphism-optimised scalar. *)
From Coq Require Import ZArith List Bool.
From Verif Require Import Base Field.
Import ListNotations.
Open Scope Z_scope.

Section Spec.
Variable P : params.
Notation F := (F P).
Local Open Scope F_scope.

(** A point: [None] is the neutral element. *)
Definition point := option (F * F).
Definition on_curve (b : F) (p : point) : Prop :=
  match p with None => True | Some (x, y) => y * y = x * x * x + b end.
Definition neg (p : point) : point :=
  match p with None => None | Some (x, y) => Some (x, - y) end.

(** The third point of the line with slope [s] through [(x1, y1)] and a point
    with first coordinate [x2], mirrored. *)
Definition third (s x1 y1 x2 : F) : point :=
  let x3 := s * s - x1 - x2 in Some (x3, s * (x1 - x3) - y1).

(** The group law. *)
Definition ec_add (p q : point) : point :=
  match p, q with
  | None, _ => q
  | _, None => p
  | Some (x1, y1), Some (x2, y2) =>
      if feqb x1 x2 then
        if feqb y1 (- y2) then None
        else third (ofZ 3 * (x1 * x1) / (ofZ 2 * y1)) x1 y1 x2
      else third ((y2 - y1) / (x2 - x1)) x1 y1 x2
  end.

(** The components write the neutral element as (0, 0). *)
Definition enc (p : point) : F * F := match p with None => (f0, f0) | Some xy => xy end.

(** A curve without points on either axis, so that (0, 0) is free for the
    neutral element and no point is its own opposite. *)
Definition no_axis_points (b : F) : Prop :=
  (forall y, y * y <> b) /\ (forall x, x * x * x + b <> f0).
End Spec.

Arguments on_curve {P}. Arguments neg {P}. Arguments third {P}. Arguments ec_add {P}. Arguments enc {P}.
Arguments no_axis_points {P}.

(** ** The endomorphism scalar *)

(** Bits [2 i + 1] and [2 i] of the challenge decide which of the two
    accumulators gets the digit of weight [2^i], and its sign. *)
Definition digit (v i : Z) : Z := if Z.testbit v (2 * i) then 1 else -1.
Definition sumz (l : list Z) : Z := fold_right Z.add 0 l.
Definition endo_a (n v : Z) : Z :=
  2 ^ (n + 1) + sumz (map (fun i => if Z.testbit v (2 * i + 1) then 2 ^ i * digit v i else 0) (zseq 0 n)).
Definition endo_b (n v : Z) : Z :=
  2 ^ (n + 1) + sumz (map (fun i => if Z.testbit v (2 * i + 1) then 0 else 2 ^ i * digit v i) (zseq 0 n)).
