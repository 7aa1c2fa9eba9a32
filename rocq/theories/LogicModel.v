(** Models of the Boolean operation components:
    components/algebra/fields/plonk/non_native/detail/boolean_op_component.hpp,
    logic_ops.hpp, detail/boolean_lookup_op_component.hpp,
    lookup_logic_ops.hpp, and the two lookup tables they use
    (lookup_library.hpp). *)
From Coq Require Import ZArith List Lia Bool String.
From Verif Require Import Base Field Plonk Bits.
Import ListNotations.
Open Scope Z_scope.

(** logic_ops.hpp: the operations; lookup_logic_ops.hpp: the lookup versions. *)
Inductive lop := LNot | LAnd | LOr | LXor | LNand | LNor | LSelect.
(** The template argument [ArgNum]. *)
Definition lop_args (o : lop) : Z :=
  match o with LNot => 1 | LSelect => 3 | _ => 2 end.

Section Model.
Variable P : params.
Notation F := (F P).
Notation table := (table P).
Notation cmd := (cmd P).

Section Exprs.
Local Open Scope E_scope.
(** [op_constraint] of each class: logic_ops.hpp:87-90, 155-158, 223-226,
    291-294, 361-364, 428-431, 495-498.  [w i] is [witnesses[i]]. *)
Definition lop_constraint (o : lop) (w : Z -> expr P) : expr P :=
  match o with
  | LNot => $1 - w 0 - w 1
  | LAnd => w 2 - w 0 * w 1
  | LOr => w 2 - (w 0 + w 1 - w 0 * w 1)
  | LXor => w 2 - (w 0 + w 1 - $2 * w 0 * w 1)
  | LNand => w 2 - ($1 - w 0 * w 1)
  | LNor => w 2 - ($1 - (w 0 + w 1 - w 0 * w 1))
  | LSelect => w 3 - (w 0 * w 1 + ($1 - w 0) * w 2)
  end.
End Exprs.

Section Values.
Local Open Scope F_scope.
(** [result_assignment] of each class: logic_ops.hpp:92-94, 160-162, 228-230,
    296-298, 366-368, 433-435, 500-502. *)
Definition lop_result (o : lop) (v : Z -> F) : F :=
  match o with
  | LNot => f1 - v 0%Z
  | LAnd => v 0%Z * v 1%Z
  | LOr => v 0%Z + v 1%Z - v 0%Z * v 1%Z
  | LXor => v 0%Z + v 1%Z - ofZ 2 * v 0%Z * v 1%Z
  | LNand => f1 - v 0%Z * v 1%Z
  | LNor => f1 - (v 0%Z + v 1%Z - v 0%Z * v 1%Z)
  | LSelect => if feqb (v 0%Z) f0 then v 2%Z else v 1%Z
  end.
End Values.

(** boolean_op_component.hpp:170-241 [generate_gates],
    [generate_copy_constraints], [generate_circuit].  [x i] is
    [instance_input.input[i]]. *)
Definition lop_circuit (c : comp) (o : lop) (x : Z -> var) (row : Z) : list cmd :=
  Gate [lop_constraint o (fun i => evar (wv (W c i) 0))] [row] ::
  map (fun i => Copy (x i) (wcell (W c i) row)) (zseq 0 (lop_args o)).

(** boolean_op_component.hpp:143-168 [generate_assignments]: inputs are read one
    by one, each stored before the next is read. *)
Definition lop_inputs (c : comp) (n : Z) (x : Z -> var) (row : Z) (T : table) : table * (Z -> F) :=
  fold_left (fun '(T, v) i => let a := vval T (x i) in
               (wset T (W c i) row a, fun j => if j =? i then a else v j)) (zseq 0 n) (T, fun _ => f0).
Definition lop_assign (c : comp) (o : lop) (x : Z -> var) (row : Z) (T : table) : table :=
  let '(T1, v) := lop_inputs c (lop_args o) x row T in
  wset T1 (W c (lop_args o)) row (lop_result o v).
(** boolean_op_component.hpp:99-108 [result_type]. *)
Definition lop_out (c : comp) (o : lop) (row : Z) : var := wcell (W c (lop_args o)) row.

(** ** Lookup versions *)

(** lookup_library.hpp:141-171: rows 0..3 of the two tables, column by column
    (subtable "full" takes the three columns and rows 0 to 3). *)
Definition and_columns : list (list Z) := [[0; 0; 1; 1]; [0; 1; 0; 1]; [0; 0; 0; 1]].
Definition xor_columns : list (list Z) := [[0; 0; 1; 1]; [0; 1; 0; 1]; [0; 1; 1; 0]].
Definition table_row (cols : list (list Z)) (i : Z) : list F := map (fun l => ofZ (znth 0 l i)) cols.
(** The environment that holds these two tables. *)
Definition lib_env : lenv P := fun name row =>
  (name = "binary_and_table/full"%string /\ exists i, 0 <= i <= 3 /\ row = table_row and_columns i) \/
  (name = "binary_xor_table/full"%string /\ exists i, 0 <= i <= 3 /\ row = table_row xor_columns i).

(** lookup_logic_ops.hpp:82-92 and 160-170 [op_lookup_constraint]; the table is
    identified by its reserved name.  [true] is lookup_logic_and, [false]
    lookup_logic_xor. *)
Definition lk_table (is_and : bool) : string :=
  (if is_and then "binary_and_table/full" else "binary_xor_table/full")%string.
Definition lk_op (is_and : bool) : lop := if is_and then LAnd else LXor.
(** boolean_lookup_op_component.hpp:167-233. *)
Definition lk_circuit (c : comp) (is_and : bool) (x : Z -> var) (row : Z) : list cmd :=
  LookupGate [(lk_table is_and, map (fun i => evar (wv (W c i) 0)) [0; 1; 2])] [row] ::
  map (fun i => Copy (x i) (wcell (W c i) row)) (zseq 0 2).
(** boolean_lookup_op_component.hpp:143-165; [result_assignment]
    lookup_logic_ops.hpp:94-96, 172-174 are those of logic_and and logic_xor. *)
Definition lk_assign (c : comp) (is_and : bool) (x : Z -> var) (row : Z) (T : table) : table :=
  lop_assign c (lk_op is_and) x row T.
(** boolean_lookup_op_component.hpp:99-107. *)
Definition lk_out (c : comp) (row : Z) : var := wcell (W c 2) row.
End Model.
Arguments lop_constraint {P}. Arguments lop_result {P}. Arguments lop_circuit {P}. Arguments lop_inputs {P}.
Arguments lop_assign {P}. Arguments lib_env {P}. Arguments lk_circuit {P}. Arguments lk_assign {P}. Arguments table_row {P}.
