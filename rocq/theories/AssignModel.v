(** Model of the assignment object
    (include/nil/blueprint/blueprint/plonk/assignment.hpp): columns that grow on
    access, the side stores, and [var_value]. *)
From Coq Require Import ZArith List Lia Bool.
From Verif Require Import Base Field Plonk.
Import ListNotations.
Open Scope Z_scope.

Section Model.
Variable P : params.
Notation F := (F P).

(** assignment.hpp:117-148.  A column is the list of its cells.  The fields
    [_witnesses] etc. live in crypto3's plonk_assignment_table; the number of
    columns is fixed at construction (assignment.hpp:158-166).  The shared
    storage has exactly one column (113). *)
Record astate := mkA {
  a_wit : list (list F); a_pub : list (list F); a_const : list (list F); a_sel : list (list F);
  a_shared : list (list F);
  a_priv : list F; a_bpriv : list F; a_bconst : list F;
  a_rows : Z
}.

(** assignment.hpp:158-166. *)
Definition a_new (w p c s : nat) : astate :=
  mkA (repeat [] w) (repeat [] p) (repeat [] c) (repeat [] s) [[]] [] [] [] 0.

(** [std::vector::resize] to at least [n] cells: new cells are value-initialised
    to zero. *)
Definition grow (n : nat) (l : list F) : list F := l ++ repeat f0 (n - length l).
Fixpoint upd {A} (l : list A) (i : nat) (v : A) : list A :=
  match l, i with
  | [], _ => []
  | _ :: l, O => v :: l
  | x :: l, S i => x :: upd l i v
  end.
(** The non-const accessors followed by an assignment through the returned
    reference, e.g. [witness(i, r) = v]. *)
Definition set_cell (l : list F) (r : nat) (v : F) : list F := upd (grow (S r) l) r v.
(** The same on a list of columns; [None] when the column index assertion
    fails (assignment.hpp:328, 419, 449, 482). *)
Definition set_col (cols : list (list F)) (c r : nat) (v : F) : option (list (list F)) :=
  match nth_error cols c with
  | Some col => Some (upd cols c (set_cell col r v))
  | None => None
  end.

(** Calls that change the assignment. *)
Inductive aop :=
| AWitness (c r : nat) (v : F)          (* witness(c, r) = v *)
| APublic (c r : nat) (v : F)           (* public_input(c, r) = v *)
| AConstant (c r : nat) (v : F)         (* constant(c, r) = v *)
| ASelector (c r : nat) (v : F)         (* selector(c, r) = v *)
| AEnable (c r : nat)                   (* enable_selector(c, r) *)
| AShared (c r : nat) (v : F)           (* shared(c, r) = v *)
| APrivate (i : nat) (v : F)            (* private_storage(i) = v *)
| AResizePrivate (n : nat)              (* resize_private_storage(n); clear_private_storage() is n = 0 *)
| ABatchPrivate (i : nat) (v : F)       (* batch_private_storage(i) = v *)
| AAddBatch (v : F)                     (* add_batch_variable(v) *)
| AAddBatchConst (v : F).               (* add_batch_constant_variable(v) *)

Definition bump (rows : Z) (r : nat) : Z := Z.max rows (Z.of_nat r + 1).

(** Position of the first stored constant equal to [v]
    (assignment.hpp:577-590: the set is ordered by value, so [find] returns the
    unique element with that value). *)
Fixpoint find_const (l : list F) (v : F) : option nat :=
  match l with
  | [] => None
  | x :: l => if feqb x v then Some O else option_map S (find_const l v)
  end.

(** assignment.hpp:326-333, 349-355, 394-399, 418-426, 446-454, 479-488,
    530-544, 554-567, 577-590.  Row counters are unbounded here
    ([std::uint32_t] in the code). *)
Definition astep (s : astate) (o : aop) : option astate :=
  match o with
  | AWitness c r v =>
      match set_col (a_wit s) c r v with
      | Some w => Some (mkA w (a_pub s) (a_const s) (a_sel s) (a_shared s) (a_priv s) (a_bpriv s) (a_bconst s) (bump (a_rows s) r))
      | None => None end
  | APublic c r v =>
      match set_col (a_pub s) c r v with
      | Some p => Some (mkA (a_wit s) p (a_const s) (a_sel s) (a_shared s) (a_priv s) (a_bpriv s) (a_bconst s) (a_rows s))
      | None => None end
  | AConstant c r v =>
      match set_col (a_const s) c r v with
      | Some k => Some (mkA (a_wit s) (a_pub s) k (a_sel s) (a_shared s) (a_priv s) (a_bpriv s) (a_bconst s) (bump (a_rows s) r))
      | None => None end
  | ASelector c r v =>
      match set_col (a_sel s) c r v with
      | Some k => Some (mkA (a_wit s) (a_pub s) (a_const s) k (a_shared s) (a_priv s) (a_bpriv s) (a_bconst s) (a_rows s))
      | None => None end
  | AEnable c r =>
      match set_col (a_sel s) c r f1 with
      | Some k => Some (mkA (a_wit s) (a_pub s) (a_const s) k (a_shared s) (a_priv s) (a_bpriv s) (a_bconst s) (bump (a_rows s) r))
      | None => None end
  | AShared c r v =>
      match set_col (a_shared s) c r v with
      | Some k => Some (mkA (a_wit s) (a_pub s) (a_const s) (a_sel s) k (a_priv s) (a_bpriv s) (a_bconst s) (a_rows s))
      | None => None end
  | APrivate i v =>
      Some (mkA (a_wit s) (a_pub s) (a_const s) (a_sel s) (a_shared s) (set_cell (a_priv s) i v) (a_bpriv s) (a_bconst s) (a_rows s))
  | AResizePrivate n =>
      Some (mkA (a_wit s) (a_pub s) (a_const s) (a_sel s) (a_shared s) (grow n (firstn n (a_priv s))) (a_bpriv s) (a_bconst s) (a_rows s))
  | ABatchPrivate i v =>
      Some (mkA (a_wit s) (a_pub s) (a_const s) (a_sel s) (a_shared s) (a_priv s) (set_cell (a_bpriv s) i v) (a_bconst s) (a_rows s))
  | AAddBatch v =>
      Some (mkA (a_wit s) (a_pub s) (a_const s) (a_sel s) (a_shared s) (a_priv s) (a_bpriv s ++ [v]) (a_bconst s) (a_rows s))
  | AAddBatchConst v =>
      match find_const (a_bconst s) v with
      | Some _ => Some s
      | None => Some (mkA (a_wit s) (a_pub s) (a_const s) (a_sel s) (a_shared s) (a_priv s) (a_bpriv s) (a_bconst s ++ [v]) (a_rows s))
      end
  end.

Fixpoint aruns (s : astate) (h : list aop) : option astate :=
  match h with
  | [] => Some s
  | o :: h => match astep s o with Some s' => aruns s' h | None => None end
  end.

(** assignment.hpp:357-366: the range form of [enable_selector], with step at
    least one. *)
Definition enable_range (c lo hi step : nat) : list aop :=
  map (fun i => AEnable c (lo + step * i)%nat)
      (seq 0 (if (lo <=? hi)%nat then S ((hi - lo) / step) else 0%nat)).

(** Reserved indices, assignment.hpp:153-155. *)
Definition priv_index : Z := 2 ^ 64 - 1.
Definition bpriv_index : Z := 2 ^ 64 - 2.
Definition bconst_index : Z := 2 ^ 64 - 3.

(** Const accessors; [None] is a failed range assertion. *)
Definition get_col (cols : list (list F)) (c r : Z) : option F :=
  if (c <? 0) || (r <? 0) then None
  else match nth_error cols (Z.to_nat c) with
       | Some col => nth_error col (Z.to_nat r)
       | None => None
       end.
Definition get_cell (l : list F) (i : Z) : option F :=
  if i <? 0 then None else nth_error l (Z.to_nat i).

(** assignment.hpp:748-778.  A selector variable takes the [default] branch and
    so reads a constant column. *)
Definition var_value (s : astate) (v : var) : option F :=
  if vidx v =? priv_index then get_cell (a_priv s) (vrot v)
  else if vidx v =? bpriv_index then get_cell (a_bpriv s) (vrot v)
  else if vidx v =? bconst_index then get_cell (a_bconst s) (vrot v)
  else match vty v with
       | CPub => if 0 <? vidx v then get_col (a_shared s) (vidx v - 1) (vrot v)
                 else get_col (a_pub s) (vidx v) (vrot v)
       | CWit => get_col (a_wit s) (vidx v) (vrot v)
       | _ => get_col (a_const s) (vidx v) (vrot v)
       end.

(** assignment.hpp:565-590: the variable returned by the two batch calls in
    state [s]. *)
Definition batch_var (s : astate) : var := mkVar bpriv_index (Z.of_nat (length (a_bpriv s))) false CPub.
Definition batch_const_var (s : astate) (v : F) : var :=
  match find_const (a_bconst s) v with
  | Some i => mkVar bconst_index (Z.of_nat i) false CConst
  | None => mkVar bconst_index (Z.of_nat (length (a_bconst s))) false CConst
  end.

(** The table seen by gates: cells outside the columns count as zero (crypto3
    pads columns with zeros before proving). *)
Definition cells (cols : list (list F)) (c r : Z) : F :=
  match get_col cols c r with Some v => v | None => f0 end.
Definition a_table (s : astate) : table P :=
  fun ty => match ty with
            | CWit => cells (a_wit s) | CPub => cells (a_pub s)
            | CConst => cells (a_const s) | CSel => cells (a_sel s)
            end.

End Model.
Arguments a_wit {P}. Arguments a_pub {P}. Arguments a_const {P}. Arguments a_sel {P}. Arguments a_shared {P}.
Arguments a_priv {P}. Arguments a_bpriv {P}. Arguments a_bconst {P}. Arguments a_rows {P}. Arguments mkA {P}.
Arguments AWitness {P}. Arguments APublic {P}. Arguments AConstant {P}. Arguments ASelector {P}. Arguments AEnable {P}.
Arguments AShared {P}. Arguments APrivate {P}. Arguments AResizePrivate {P}. Arguments ABatchPrivate {P}. Arguments AAddBatch {P}. Arguments AAddBatchConst {P}.
Arguments astep {P}. Arguments aruns {P}. Arguments var_value {P}. Arguments batch_var {P}. Arguments batch_const_var {P}.
Arguments a_table {P}. Arguments grow {P}. Arguments set_cell {P}. Arguments set_col {P}. Arguments get_col {P}.
Arguments get_cell {P}. Arguments find_const {P}. Arguments cells {P}. Arguments enable_range {P}.
