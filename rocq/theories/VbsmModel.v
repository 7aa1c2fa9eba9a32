(** Model of the variable base scalar multiplication for the Pasta curves
    (include/nil/blueprint/components/algebra/curves/pasta/plonk/variable_base_scalar_mul.hpp). *)
From Coq Require Import ZArith List Lia Bool.
From Verif Require Import Base Field Plonk Bits CurveModel.
Import ListNotations.
Open Scope Z_scope.

(** variable_base_scalar_mul.hpp:159-160 t_q, t_p. *)
Definition vb_tq : Z := 0x224698fc0994a8dd8c46eb2100000001.
Definition vb_tp : Z := 0x224698fc094cf91b992d30ed00000001.

(** variable_base_scalar_mul.hpp:84-100 variable_base_scalar_mul_shifted_consts:
    shifted_minus_one, shifted_zero, shifted_one.  [pal] tells whether CurveType
    is pallas or vesta. *)
Definition vb_sm1 (pal : bool) : Z :=
  if pal then 0x224698fc0994a8dd8c46eb2100000000 else 0x448d31f81299f237325a61da00000001.
Definition vb_s0 (pal : bool) : Z :=
  if pal then 0x200000000000000000000000000000003369e57a0e5efd4c526a60b180000001
  else 0x448d31f81299f237325a61da00000002.
Definition vb_s1 (pal : bool) : Z :=
  if pal then 0x224698fc0994a8dd8c46eb2100000001 else 0x448d31f81299f237325a61da00000003.

Section Model.
Variable P : params.
Notation F := (F P).
Notation table := (table P).
Notation cmd := (cmd P).
Notation expr := (expr P).
Variable pal : bool.

Local Open Scope F_scope.
Local Open Scope E_scope.

(** variable_base_scalar_mul.hpp:146-153 mul_rows_amount = 102, rows_amount = 104,
    aux_bits_start_row = 59. *)
Definition vb_rows : Z := 104.

(** variable_base_scalar_mul.hpp:274-277, 446-449 unified_addition_instance. *)
Definition vb_add (c : comp) : comp := mkComp (map (W c) (zseq 0 11)) [] [].

(** ** Gates *)

(** Columns of the point before and after the step [k] = 0..4 of a double row;
    the point after the last step is in W0, W1 of the second row. *)
Definition vb_in (k : Z) : Z := (if k =? 0 then 2 else 5 + 2 * k)%Z.
Definition vb_out (k : Z) : Z := (if k =? 4 then 0 else 7 + 2 * k)%Z.
Definition vb_orot (k a : Z) : Z := (if k =? 4 then a + 1 else a)%Z.

(** The expressions of step [k]; [a] is the rotation of the first of the two rows. *)
(** variable_base_scalar_mul.hpp:467-471, 572-576 bit_check_1..5. *)
Definition vb_bit_check (c : comp) (a k : Z) : expr :=
  let b := #(wv (W c (2 + k)) (a + 1)) in b * ($1 - b).
(** variable_base_scalar_mul.hpp:473-487, 578-592 constraint_1..5. *)
Definition vb_slope_cs (c : comp) (a k : Z) : expr :=
  let v i := #(wv (W c i) a) in let u i := #(wv (W c i) (a + 1)) in
  (v (vb_in k) - v 0%Z) * u (7 + k)%Z - (v (vb_in k + 1)%Z - ($2 * u (2 + k)%Z - $1) * v 1%Z).
(** [2 * P.X - s.pow(2) + T.X] *)
Definition vb_U (c : comp) (a k : Z) : expr :=
  let v i := #(wv (W c i) a) in let u i := #(wv (W c i) (a + 1)) in
  $2 * v (vb_in k) - EPow (u (7 + k)%Z) 2 + v 0%Z.
(** [2 * P.Y - s * (2 * P.X - s.pow(2) + T.X)] *)
Definition vb_V (c : comp) (a k : Z) : expr :=
  let v i := #(wv (W c i) a) in let u i := #(wv (W c i) (a + 1)) in
  $2 * v (vb_in k + 1)%Z - u (7 + k)%Z * vb_U c a k.
(** variable_base_scalar_mul.hpp:489-528, 594-635 constraint_6..10. *)
Definition vb_x_cs (c : comp) (a k : Z) : expr :=
  let v i := #(wv (W c i) a) in let u i := #(wv (W c i) (a + 1)) in
  let o i := #(wv (W c (vb_out k + i)) (vb_orot k a)) in
  vb_V c a k * vb_V c a k - vb_U c a k * vb_U c a k * (o 0%Z - v 0%Z + EPow (u (7 + k)%Z) 2).
(** variable_base_scalar_mul.hpp:530-558, 637-667 constraint_11..15. *)
Definition vb_y_cs (c : comp) (a k : Z) : expr :=
  let v i := #(wv (W c i) a) in
  let o i := #(wv (W c (vb_out k + i)) (vb_orot k a)) in
  (o 1%Z + v (vb_in k + 1)%Z) * vb_U c a k - (v (vb_in k) - o 0%Z) * vb_V c a k.
(** variable_base_scalar_mul.hpp:560-563, 669-671 constraint_16. *)
Definition vb_n_cs (c : comp) (a : Z) : expr :=
  let v i := #(wv (W c i) a) in let u i := #(wv (W c i) (a + 1)) in
  v 5%Z - ($32 * v 4%Z + $16 * u 2%Z + $8 * u 3%Z + $4 * u 4%Z + $2 * u 5%Z + u 6%Z).

(** variable_base_scalar_mul.hpp:467-570 the first gate. *)
Definition vb_gate1 (c : comp) : list expr :=
  map (vb_bit_check c 0) (zseq 0 5) ++ map (vb_slope_cs c 0) (zseq 0 5) ++
  map (vb_x_cs c 0) (zseq 0 5) ++ map (vb_y_cs c 0) (zseq 0 5) ++ [vb_n_cs c 0].

(** [u * (u - 1) * ... * (u - 7)], lines 694-696, 737-743. *)
Definition vb_oct (u : expr) : expr :=
  u * (u - $1) * (u - $2) * (u - $3) * (u - $4) * (u - $5) * (u - $6) * (u - $7).

(** variable_base_scalar_mul.hpp:572-734 the second gate.  Constraints 9, 10, 14
    and 15 carry the factor [W8(+1) * W2(+1)]; constraints 28 and 29 depend on the
    curve (29 is [W9 - W9] for vesta). *)
Definition vb_gate2 (c : comp) : list expr :=
  let p i := #(wv (W c i) (-1)) in let v i := #(wv (W c i) 0) in let n i := #(wv (W c i) 1) in
  let sm1 := ecst (ofZ (vb_sm1 pal)) in let s0 := ecst (ofZ (vb_s0 pal)) in let s1 := ecst (ofZ (vb_s1 pal)) in
  let mask (e : expr) := e * n 8%Z * n 2%Z in
  let d := (n 5%Z - sm1) * n 3%Z - (n 5%Z - s1) * n 4%Z in
  map (vb_bit_check c (-1)) (zseq 0 5) ++ map (vb_slope_cs c (-1)) (zseq 0 5) ++
  map (vb_x_cs c (-1)) (zseq 0 3) ++ map (fun k => mask (vb_x_cs c (-1) k)) (zseq 3 5) ++
  map (vb_y_cs c (-1)) (zseq 0 3) ++ map (fun k => mask (vb_y_cs c (-1) k)) (zseq 3 5) ++
  [ vb_n_cs c (-1);
    (n 8%Z * n 2%Z - $1) * n 8%Z;
    ((n 5%Z - sm1) * n 3%Z - $1) * (n 5%Z - sm1);
    ((n 5%Z - s1) * n 4%Z - $1) * (n 5%Z - s1);
    n 8%Z * n 2%Z * v 0%Z + d * d * n 6%Z - n 0%Z;
    n 8%Z * n 2%Z * v 1%Z + d * n 7%Z - n 1%Z;
    n 8%Z - (n 5%Z - sm1) * (n 5%Z - s0) * (n 5%Z - s1);
    vb_oct (v 12%Z);
    v 13%Z * (v 13%Z - $1);
    v 14%Z - $16 * p 6%Z - $2 * v 12%Z - v 13%Z;
    n 9%Z * (v 14%Z - n 12%Z);
    n 9%Z * (n 10%Z - ecst (ofZ (2 ^ 124)));
    (if pal then n 12%Z - n 11%Z + ecst (ofZ vb_tq) - ecst (ofZ (2 ^ 130))
     else n 12%Z - n 11%Z + n 9%Z * ecst (ofZ (2 ^ 254)) + ecst (ofZ vb_tp) - ecst (ofZ (2 ^ 130)));
    (if pal then p 5%Z - n 11%Z - n 9%Z * ecst (ofZ (2 ^ 254)) else v 9%Z - v 9%Z) ].

(** variable_base_scalar_mul.hpp:736-747 the third gate. *)
Definition vb_gate3 (c : comp) : list expr :=
  let n i := #(wv (W c i) 1) in
  [ vb_oct (n 12%Z); vb_oct (n 13%Z);
    n 14%Z - $64 * #(wv (W c 6) 0) - $8 * n 12%Z - n 13%Z ].

Local Close Scope E_scope.
Local Close Scope F_scope.

(** variable_base_scalar_mul.hpp:752-829 generate_copy_constraints.  The base
    point in W0, W1 of the first double row is tied to nothing outside the
    component; the running scalar starts at a constant cell in the column with the
    index of the witness column W(0); the chain of the range check stops one link
    short of the last double row. *)
Definition vb_copies (c : comp) (b bh : var) (row : Z) : list cmd :=
  let w i r := wcell (W c i) r in
  let j := row + 1 in
  [ Copy (w 2 j) (ua_x (vb_add c) row); Copy (w 3 j) (ua_y (vb_add c) row) ] ++
  flat_map (fun d => [ Copy (w 0 (j + 2 * d)) (w 0 (j + 2 * d + 2)); Copy (w 1 (j + 2 * d)) (w 1 (j + 2 * d + 2)) ]) (zseq 0 50) ++
  flat_map (fun d => [ Copy (w 2 (j + 2 * d)) (w 0 (j + 2 * d - 1)); Copy (w 3 (j + 2 * d)) (w 1 (j + 2 * d - 1)) ]) (zseq 1 51) ++
  map (fun d => Copy (w 4 (j + 2 * d)) (w 5 (j + 2 * d - 2))) (zseq 1 51) ++
  [ Copy (w 5 (row + 103)) (w 5 (row + 101));
    Copy (w 6 (row + 103)) (w 0 (row + 101));
    Copy (w 7 (row + 103)) (w 1 (row + 101));
    Copy (w 4 j) (ccell (W c 0) j);
    (if pal then Copy bh (w 2 (j + 1)) else Copy b (w 5 (j + 100)));
    Copy (ccell (C c 0) j) (w 6 (j + 58)) ] ++
  map (fun d => Copy (w 14 (j + 58 + 2 * d + 1)) (w 6 (j + 58 + 2 * d + 2))) (zseq 0 20) ++
  [ Copy (w 2 (j + 1)) (w 9 (j + 102));
    Copy (w 5 (j + 48)) (w 10 (j + 102));
    Copy b (w 11 (j + 102)) ].

(** variable_base_scalar_mul.hpp:421-455, 831-841 generate_circuit and
    generate_assignments_constants. *)
Definition vb_circuit (c : comp) (tx ty b bh : var) (row : Z) : list cmd :=
  [ SetConst (C c 0) (row + 1) f0;
    Gate (vb_gate1 c) (map (fun d => row + 1 + 2 * d) (zseq 0 50));
    Gate (vb_gate2 c) [row + 102];
    Gate (vb_gate3 c) (map (fun d => row + 59 + 2 * d) (zseq 0 21)) ] ++
  ua_circuit (vb_add c) tx ty tx ty row ++
  vb_copies c b bh row.

(** variable_base_scalar_mul.hpp:184-195 result_type. *)
Definition vb_x (c : comp) (row : Z) : var := wcell (W c 0) (row + 103).
Definition vb_y (c : comp) (row : Z) : var := wcell (W c 1) (row + 103).

(** ** Assignments *)

(** The values the component writes below its first row. *)
Record vb_trace := mkVb {
  vt_t : F * F;                (** the base point *)
  vt_p : Z -> F * F;           (** the point before step [k] *)
  vt_s : Z -> F;               (** the slope of step [k] *)
  vt_b : Z -> F;               (** the bit of step [k] *)
  vt_n : Z -> F;               (** the running scalar before double row [d] *)
  vt_ui : Z -> F; vt_uo : Z -> F;   (** range check accumulator, in and out *)
  vt_u0 : Z -> F; vt_u1 : Z -> F;   (** range check chunks *)
  vt_f : Z -> F                (** the final row, by column *)
}.

(** variable_base_scalar_mul.hpp:290-348 the writes of one double row, by cell. *)
Definition vb_double_row (c : comp) (row : Z) (t : vb_trace) (d : Z) : list (Z * Z * F) :=
  let i := row + 1 + 2 * d in
  [ (W c 0, i, fst (vt_t t)); (W c 1, i, snd (vt_t t));
    (W c 2, i, fst (vt_p t (5 * d))); (W c 3, i, snd (vt_p t (5 * d)));
    (W c 4, i, vt_n t d); (W c 5, i, vt_n t (d + 1));
    (W c 7, i, fst (vt_p t (5 * d + 1))); (W c 8, i, snd (vt_p t (5 * d + 1)));
    (W c 7, i + 1, vt_s t (5 * d));
    (W c 9, i, fst (vt_p t (5 * d + 2))); (W c 10, i, snd (vt_p t (5 * d + 2)));
    (W c 8, i + 1, vt_s t (5 * d + 1));
    (W c 11, i, fst (vt_p t (5 * d + 3))); (W c 12, i, snd (vt_p t (5 * d + 3)));
    (W c 9, i + 1, vt_s t (5 * d + 2));
    (W c 13, i, fst (vt_p t (5 * d + 4))); (W c 14, i, snd (vt_p t (5 * d + 4)));
    (W c 10, i + 1, vt_s t (5 * d + 3));
    (W c 0, i + 1, fst (vt_p t (5 * d + 5))); (W c 1, i + 1, snd (vt_p t (5 * d + 5)));
    (W c 11, i + 1, vt_s t (5 * d + 4));
    (W c 2, i + 1, vt_b t (5 * d)); (W c 3, i + 1, vt_b t (5 * d + 1)); (W c 4, i + 1, vt_b t (5 * d + 2));
    (W c 5, i + 1, vt_b t (5 * d + 3)); (W c 6, i + 1, vt_b t (5 * d + 4)) ].
(** variable_base_scalar_mul.hpp:350-370 the writes of the range check. *)
Definition vb_aux_row (c : comp) (row : Z) (t : vb_trace) (d : Z) : list (Z * Z * F) :=
  let i := row + 59 + 2 * d in
  [ (W c 6, i, vt_ui t d); (W c 12, i + 1, vt_u0 t d); (W c 13, i + 1, vt_u1 t d); (W c 14, i + 1, vt_uo t d) ].
(** variable_base_scalar_mul.hpp:372-416 the writes of the last row. *)
Definition vb_final_row (c : comp) (row : Z) (t : vb_trace) : list (Z * Z * F) :=
  map (fun i => (W c i, row + 103, vt_f t i)) [9; 10; 11; 12; 2; 3; 4; 5; 6; 7; 8; 0; 1].
Definition vb_cells (c : comp) (row : Z) (t : vb_trace) : list (Z * Z * F) :=
  flat_map (vb_double_row c row t) (zseq 0 51) ++ flat_map (vb_aux_row c row t) (zseq 0 22) ++ vb_final_row c row t.

(** crypto3's addition of affine points, with whatever it does with points at
    infinity; crypto3 is not part of /repo. *)
Variable ladd : F * F -> F * F -> F * F.

Section Trace.
Variables (xt yt b bh : F) (dbl : F * F).
Local Open Scope F_scope.

(** variable_base_scalar_mul.hpp:245-264 bits. *)
Definition vb_bit (i : Z) : Z :=
  (if pal && (i =? 0) && (fval bh =? 1) then 1 else msb_bit 255 (fval b) i)%Z.
Definition vb_fbit (i : Z) : F := ofZ (vb_bit i).
(** variable_base_scalar_mul.hpp:306-307 Q. *)
Definition vb_q (k : Z) : F * F := (xt, (ofZ 2 * vb_fbit k - f1) * yt).
(** variable_base_scalar_mul.hpp:309, 316, 323, 330, 337 P[k+1] = (P[k] + Q) + P[k]. *)
Definition vb_pt (k : Z) : F * F :=
  fold_left (fun p i => ladd (ladd p (vb_q i)) p) (zseq 0 k) dbl.
(** variable_base_scalar_mul.hpp:312-313 and the like. *)
Definition vb_slope (k : Z) : F :=
  (snd (vb_pt k) - snd (vb_q k)) * inv0 (fst (vb_pt k) - fst (vb_q k)).
(** variable_base_scalar_mul.hpp:297, 302-304 n and n_next. *)
Definition vb_n (d : Z) : F :=
  fold_left (fun n m => ofZ 32 * n + ofZ 16 * vb_fbit (5 * m) + ofZ 8 * vb_fbit (5 * m + 1) +
                        ofZ 4 * vb_fbit (5 * m + 2) + ofZ 2 * vb_fbit (5 * m + 3) + vb_fbit (5 * m + 4)) (zseq 0 d) f0.
(** variable_base_scalar_mul.hpp:254-264 aux. *)
Definition vb_aux : F :=
  if pal then b - ofZ vb_tq + ofZ (2 ^ 130)
  else b - vb_fbit 0%Z * ofZ (2 ^ 254) - ofZ vb_tp + ofZ (2 ^ 130).
(** variable_base_scalar_mul.hpp:265-269 aux_bits. *)
Definition vb_abit (i : Z) : F := ofZ (msb_bit 255 (fval vb_aux) i).
(** variable_base_scalar_mul.hpp:355-357, 364-366 u0, u1. *)
Definition vb_u0 (d : Z) : F :=
  let ind := (125 + d * 6)%Z in ofZ 4 * vb_abit ind + ofZ 2 * vb_abit (ind + 1) + vb_abit (ind + 2).
Definition vb_u1 (d : Z) : F :=
  let ind := (125 + d * 6)%Z in
  if (d =? 21)%Z then vb_abit (ind + 3)
  else ofZ 4 * vb_abit (ind + 3) + ofZ 2 * vb_abit (ind + 4) + vb_abit (ind + 5).
(** variable_base_scalar_mul.hpp:351, 358 u_next inside the loop. *)
Definition vb_u (d : Z) : F :=
  fold_left (fun u m => ofZ 64 * u + ofZ 8 * vb_u0 m + vb_u1 m) (zseq 0 d) f0.
(** variable_base_scalar_mul.hpp:358, 367. *)
Definition vb_unext (d : Z) : F :=
  if (d =? 21)%Z then ofZ 16 * vb_u d + ofZ 2 * vb_u0 d + vb_u1 d else vb_u (d + 1).
(** variable_base_scalar_mul.hpp:373-378 e2. *)
Definition vb_e2 : F :=
  fst (fold_left (fun a l => (fst a + vb_fbit (254 - l) * snd a, snd a * ofZ 2)) (zseq 130 255) (f0, f1)).

(** variable_base_scalar_mul.hpp:372-416 the last row. *)
Definition vb_final (i : Z) : F :=
  let n := vb_n 51 in
  let sm1 := ofZ (vb_sm1 pal) in let s0 := ofZ (vb_s0 pal) in let s1 := ofZ (vb_s1 pal) in
  let m := (n - sm1) * (n - s0) * (n - s1) in
  let p5 := vb_pt 255 in
  match i with
  | 0 => (if feqb n sm1 then xt else if feqb n s0 then f0 else if feqb n s1 then xt else fst p5)%F
  | 1 => (if feqb n sm1 then - yt else if feqb n s0 then f0 else if feqb n s1 then yt else snd p5)%F
  | 2 => (inv0 m)%F
  | 3 => (inv0 (n - sm1))%F
  | 4 => (inv0 (n - s1))%F
  | 5 => (n)%F
  | 6 => (xt)%F
  | 7 => (yt)%F
  | 8 => (m)%F
  | 9 => (vb_fbit 0)%F
  | 10 => (vb_e2)%F
  | 11 => (b)%F
  | 12 => (vb_aux)%F
  | _ => f0
  end%Z.

Definition vb_honest : vb_trace :=
  mkVb (xt, yt) vb_pt vb_slope vb_fbit vb_n vb_u vb_unext vb_u0 vb_u1 vb_final.
End Trace.

(** variable_base_scalar_mul.hpp:218-419 generate_assignments.  For vesta b_high is
    0 and its variable is not read. *)
Definition vb_assign (c : comp) (tx ty b bh : var) (row : Z) (T : table) : table :=
  let xt := vval T tx in let yt := vval T ty in
  let T1 := ua_assign (vb_add c) tx ty tx ty row T in
  let dbl := (vval T1 (ua_x (vb_add c) row), vval T1 (ua_y (vb_add c) row)) in
  wsets T1 (vb_cells c row (vb_honest xt yt (vval T b) (if pal then vval T bh else f0) dbl)).

End Model.

Arguments vb_gate1 {P}. Arguments vb_gate2 {P}. Arguments vb_gate3 {P}.
Arguments vb_copies {P}. Arguments vb_circuit {P}. Arguments vb_cells {P}. Arguments vb_assign {P}.
Arguments mkVb {P}. Arguments vt_t {P}. Arguments vt_p {P}. Arguments vt_s {P}. Arguments vt_b {P}. Arguments vt_n {P}.
Arguments vt_ui {P}. Arguments vt_uo {P}. Arguments vt_u0 {P}. Arguments vt_u1 {P}. Arguments vt_f {P}.
