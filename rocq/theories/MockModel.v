(** Model of components/mock/mocked_component_base.hpp and
    components/mock/mocked_components.hpp: integer operations that are computed but
    not constrained.

    Simplifications: an integer of a fixed number of bits wraps around, the unsigned
    ones modulo the power of two, the signed ones in the magnitude; the theorems are
    about operations that do not overflow.  A division by zero throws: [None].
    Not modelled: the manifests, and the signed comparisons
    (SIGNED_BIG_BOOL_OP_COMPONENT), which compare unsigned integers. *)
From Coq Require Import ZArith List Bool.
From Verif Require Import Base Field Plonk Bits.
Import ListNotations.
Open Scope Z_scope.

(** mocked_components.hpp lines 629-633. *)
Inductive mop := MAdd | MSub | MMul | MDiv | MRem.
Definition m_op (o : mop) (a b : Z) : option Z :=
  match o with
  | MAdd => Some (a + b)
  | MSub => Some (a - b)
  | MMul => Some (a * b)
  | MDiv => if b =? 0 then None else Some (Z.quot a b)
  | MRem => if b =? 0 then None else Some (Z.rem a b)
  end.
(** lines 634-637. *)
Inductive mcmp := MLess | MGreater | MGreaterEq | MLessEq.
Definition m_cmp (o : mcmp) (a b : Z) : bool :=
  match o with MLess => a <? b | MGreater => b <? a | MGreaterEq => b <=? a | MLessEq => a <=? b end.

(** lines 269-270 [uint_type], 309-312 [int_type]. *)
Definition m_uint (n z : Z) : Z := z mod 2 ^ n.
Definition m_int (n z : Z) : Z := Z.sgn z * (Z.abs z mod 2 ^ n).

(** lines 285-288, 338-342, 376-380, 428-432, 474-477, 536-541, 621-626
    [result_builder]: the columns are numbers of the table, not of the component. *)
Definition m_out (row i : Z) : var := wcell i row.

Section Mock.
Variable P : params.
Notation F := (F P).
Notation table := (table P).
Let rd (T : table) (x : var) : Z := fval (vval T x).

(** mocked_component_base.hpp lines 93-102 [assigner]. *)
Definition m_put (c : comp) (row : Z) (vals : list F) (T : table) : table :=
  wsets T (map (fun i => (W c i, row, znth f0 vals i)) (zseq 0 (Z.of_nat (length vals)))).
(** lines 129-148 [generate_assignments]. *)
Definition m_fill (c : comp) (row : Z) (vals : option (list F)) (T : table) : option table :=
  match vals with Some l => Some (m_put c row l T) | None => None end.
(** lines 150-164 [generate_circuit]. *)
Definition m_circuit : list (cmd P) := [].

(** mocked_components.hpp lines 274-283 [result_values_calculator]. *)
Definition us_vals (bits : Z) (o : mop) (x y : var) (T : table) : option (list F) :=
  match m_op o (m_uint bits (rd T x)) (m_uint bits (rd T y)) with
  | Some r => Some [ofZ (m_uint bits r)] | None => None end.
(** lines 329-330, 521, 524: the factor of a sign. *)
Definition m_sign (T : table) (s : var) : Z := if rd T s =? 0 then 1 else -1.
(** lines 322-336. *)
Definition ss_vals (bits : Z) (o : mop) (s x t y : var) (T : table) : option (list F) :=
  match m_op o (m_int bits (m_sign T s * m_int bits (rd T x))) (m_int bits (m_sign T t * m_int bits (rd T y))) with
  | Some r => let r' := m_int bits r in Some [ofZ (if 0 <=? Z.sgn r' then 0 else 1); ofZ (Z.abs r')]
  | None => None end.
(** lines 368-374. *)
Definition abs_small_vals (x : var) (T : table) : list F := [ofZ 0; vval T x].
(** lines 411-419, 463-469: the integer of two halves, the high one first. *)
Definition m_pair (h l : var) (T : table) : Z := m_uint 256 (m_uint 256 (m_uint 256 (rd T h) * 2 ^ 128) + m_uint 256 (rd T l)).
Definition m_bottom : Z := Z.shiftl 1 128 - 1.
Definition m_top : Z := Z.shiftl m_bottom 128.
(** lines 406-426. *)
Definition ub_vals (o : mop) (xh xl yh yl : var) (T : table) : option (list F) :=
  match m_op o (m_pair xh xl T) (m_pair yh yl T) with
  | Some r => let r' := m_uint 256 r in Some [ofZ (Z.shiftr (Z.land m_top r') 128); ofZ (Z.land m_bottom r')]
  | None => None end.
(** lines 458-472. *)
Definition ubc_vals (o : mcmp) (xh xl yh yl : var) (T : table) : list F :=
  [ofZ (if m_cmp o (m_pair xh xl T) (m_pair yh yl T) then 1 else 0)].
(** lines 520-526: the sign is a factor of the high half only. *)
Definition m_spair (s h l : var) (T : table) : Z := m_int 256 (m_int 256 (m_sign T s * m_int 256 (rd T h) * 2 ^ 128) + m_int 256 (rd T l)).
(** lines 511-534. *)
Definition sb_vals (o : mop) (s xh xl t yh yl : var) (T : table) : option (list F) :=
  match m_op o (m_spair s xh xl T) (m_spair t yh yl T) with
  | Some r => let r' := m_int 256 r in
      Some [ofZ (if 0 <=? Z.sgn r' then 0 else 1); ofZ (Z.shiftr (Z.land m_top r') 128); ofZ (Z.land m_bottom r')]
  | None => None end.
(** lines 611-619. *)
Definition abs_big_vals (h l : var) (T : table) : list F := [ofZ 0; vval T h; vval T l].
End Mock.
Arguments m_put {P}. Arguments m_fill {P}. Arguments us_vals {P}. Arguments ss_vals {P}. Arguments abs_small_vals {P}.
Arguments ub_vals {P}. Arguments ubc_vals {P}. Arguments sb_vals {P}. Arguments abs_big_vals {P}. Arguments m_pair {P}. Arguments m_spair {P}. Arguments m_sign {P}.
