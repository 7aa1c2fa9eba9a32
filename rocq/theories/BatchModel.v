(** Model of component batching: include/nil/blueprint/component_batch.hpp and
    the calls on it in include/nil/blueprint/blueprint/plonk/assignment.hpp:169-222. *)
From Coq Require Import ZArith List Lia Bool.
From Verif Require Import Base Field Plonk AssignModel BuilderModel.
Import ListNotations.
Open Scope Z_scope.

Section Model.
Variable P : params.
Notation F := (F P).
Notation expr := (expr P).
Notation table := (table P).

(** A batched component, built on witness columns [0, b_w): the amount
    get_component_witness_amount picks (component_batch.hpp:208-217), the
    constraints of its only gate (369-370: [gates.size() == 1]), the column each
    input variable is copied to (generate_copy_constraints), the columns of its
    result variables, and the row of cells generate_assignments writes for given
    input values.  Only one-row components without constants are supported by
    the class (148-150). *)
Record bcomp := mkB {
  b_w : Z;
  b_cs : list expr;
  b_in : list Z;
  b_out : list Z;
  b_row : list F -> list F
}.
Definition b_outs (B : bcomp) (xs : list F) : list F := map (fun c => nth (Z.to_nat c) (b_row B xs) f0) (b_out B).

(** component_batch.hpp:161-165: one pair of [inputs_results]; [e_done] is the
    flag telling whether the result has a value. *)
Record entry := mkE { e_in : list var; e_res : list var; e_done : bool }.

Fixpoint vars_eqb (a b : list var) : bool :=
  match a, b with
  | [], [] => true
  | x :: a, y :: b => var_eqb x y && vars_eqb a b
  | _, _ => false
  end.
(** [inputs_results.find(input)]: two inputs are equivalent when all their
    variables are equal (42-62). *)
Definition find_entry (es : list entry) (i : list var) : option entry := find (fun e => vars_eqb (e_in e) i) es.

Section Order.
(** Position of a new input in the map: the order of crypto3's [plonk_variable]
    is left open. *)
Variable before : list var -> list var -> bool.
Fixpoint insert_entry (e : entry) (es : list entry) : list entry :=
  match es with
  | [] => [e]
  | x :: es' => if before (e_in e) (e_in x) then e :: es else x :: insert_entry e es'
  end.

(** Assignment state together with the batches, one list of entries per
    component type and parameters (assignment.hpp:140, 169-203). *)
Definition qstate := (astate P * (nat -> list entry))%type.
Definition upd_batch (m : nat -> list entry) (k : nat) (es : list entry) : nat -> list entry :=
  fun j => if (j =? k)%nat then es else m j.

Fixpoint values (s : astate P) (vs : list var) : option (list F) :=
  match vs with
  | [] => Some []
  | v :: vs => match var_value s v, values s vs with Some x, Some xs => Some (x :: xs) | _, _ => None end
  end.
(** [add_batch_variable] for a list of values (assignment.hpp:565-570). *)
Fixpoint add_batch_vars (s : astate P) (xs : list F) : astate P * list var :=
  match xs with
  | [] => (s, [])
  | x :: xs =>
      let v := batch_var s in
      let s1 := mkA (a_wit s) (a_pub s) (a_const s) (a_sel s) (a_shared s) (a_priv s) (a_bpriv s ++ [x]) (a_bconst s) (a_rows s) in
      let '(s2, vs) := add_batch_vars s1 xs in (s2, v :: vs)
  end.
(** [batch_private_storage(v.rotation) = x] for each pair. *)
Fixpoint fill_vars (s : astate P) (vs : list var) (xs : list F) : astate P :=
  match vs, xs with
  | v :: vs, x :: xs =>
      fill_vars (mkA (a_wit s) (a_pub s) (a_const s) (a_sel s) (a_shared s) (a_priv s)
                     (set_cell (a_bpriv s) (Z.to_nat (vrot v)) x) (a_bconst s) (a_rows s)) vs xs
  | _, _ => s
  end.
Definition mark_done (i : list var) (es : list entry) : list entry :=
  map (fun e => if vars_eqb (e_in e) i then mkE (e_in e) (e_res e) true else e) es.

(** component_batch.hpp:220-285 [add_input] for component [k].  [None]: the value
    of an input variable does not exist. *)
Definition add_input (comps : nat -> bcomp) (st : qstate) (k : nat) (i : list var) (from_circuit : bool) : option (qstate * list var) :=
  let '(s, m) := st in
  match find_entry (m k) i with
  | Some e =>
      if e_done e || from_circuit then Some (st, e_res e)
      else match values s i with
           | None => None
           | Some xs => Some ((fill_vars s (e_res e) (b_outs (comps k) xs), upd_batch m k (mark_done i (m k))), e_res e)
           end
  | None =>
      if from_circuit then
        let '(s', vs) := add_batch_vars s (map (fun _ => f0) (b_out (comps k))) in
        Some ((s', upd_batch m k (insert_entry (mkE i vs false) (m k))), vs)
      else match values s i with
           | None => None
           | Some xs =>
               let '(s', vs) := add_batch_vars s (b_outs (comps k) xs) in
               Some ((s', upd_batch m k (insert_entry (mkE i vs true) (m k))), vs)
           end
  end.

(** A history: batched calls and other changes of the assignment. *)
Inductive qcall :=
| QAdd (k : nat) (i : list var) (from_circuit : bool)
| QOp (o : aop P).
Fixpoint qruns (comps : nat -> bcomp) (st : qstate) (h : list qcall) : option (qstate * list (list var)) :=
  match h with
  | [] => Some (st, [])
  | QAdd k i b :: h =>
      match add_input comps st k i b with
      | Some (st', vs) => match qruns comps st' h with Some (st'', r) => Some (st'', vs :: r) | None => None end
      | None => None
      end
  | QOp o :: h =>
      match astep (fst st) o with
      | Some s' => match qruns comps (s', snd st) h with Some (st'', r) => Some (st'', [] :: r) | None => None end
      | None => None
      end
  end.
End Order.

(** ** finalize_batch (component_batch.hpp:291-344), in the vocabulary of Plonk.v *)

(** A placed instance: input variables, row, first column. *)
Record placed := mkPl { p_in : list var; p_res : list var; p_row : Z; p_off : Z }.
(** The loop at 307-329. *)
Fixpoint place (W w : Z) (es : list entry) (row off : Z) : list placed * (Z * Z) :=
  match es with
  | [] => ([], (row, off))
  | e :: es =>
      let off' := off + w in
      let '(ps, fin) := if off' + w - 1 >=? W then place W w es (row + 1) 0 else place W w es row off' in
      (mkPl (e_in e) (e_res e) row off :: ps, fin)
  end.
(** The loop at 331-342: the rest of the last row is filled with copies of the
    first input. *)
Fixpoint fill (fuel : nat) (W w : Z) (i : list var) (row off : Z) : list placed :=
  match fuel with
  | O => []
  | S f => if off + w - 1 <? W then mkPl i [] row off :: fill f W w i row (off + w) else []
  end.
(** move_constraints and generate_batch_gate, 346-387. *)
Definition shift (off : Z) (v : var) : var := mkVar (vidx v + off) (vrot v) (vrel v) (vty v).
Definition scaled (W : Z) (B : bcomp) : list expr :=
  b_cs B ++ flat_map (fun i => map (move (shift (Z.of_nat i * b_w B))) (b_cs B)) (seq 1 (Z.to_nat (W / b_w B) - 1)).

Definition instance_copies (B : bcomp) (p : placed) : list (cmd P) :=
  map (fun vc => Copy (fst vc) (wcell (p_off p + snd vc) (p_row p))) (combine (p_in p) (b_in B)).
Definition result_cells (B : bcomp) (p : placed) : list var := map (fun c => wcell (p_off p + c) (p_row p)) (b_out B).
(** generate_assignments of an instance. *)
Definition write_row (B : bcomp) (T : table) (p : placed) : table :=
  fold_left (fun T cx => wset T (p_off p + fst cx) (p_row p) (snd cx))
            (combine (map Z.of_nat (seq 0 (Z.to_nat (b_w B)))) (b_row B (map (vval T) (p_in p)))) T.

Record fresult := mkFR { fr_cmds : list (cmd P); fr_map : list (var * var); fr_placed : list placed; fr_fill : list placed; fr_next : Z }.
Definition finalize_batch (W : Z) (B : bcomp) (es : list entry) (start : Z) : fresult :=
  match es with
  | [] => mkFR [] [] [] [] start
  | e0 :: _ =>
    let '(ps, (row, off)) := place W (b_w B) es start 0 in
    let again := negb (off =? 0) && (off + b_w B - 1 <? W) in
    let fs := if again then fill (Z.to_nat W) W (b_w B) (e_in e0) row off else [] in
    mkFR (Gate (scaled W B) (map p_row (filter (fun p => p_off p =? 0) ps)) :: flat_map (instance_copies B) ps)
         (flat_map (fun p => combine (p_res p) (result_cells B p)) ps) ps fs
         (if again then row + 1 else row)
  end.

(** assignment.hpp:205-222 finalize_component_batches: all batches one after
    the other, then replacement in every copy constraint. *)
Fixpoint finalize_all (W : Z) (bs : list (bcomp * list entry)) (start : Z) : list (bcomp * fresult) * Z :=
  match bs with
  | [] => ([], start)
  | (B, es) :: bs =>
      let r := finalize_batch W B es start in
      let '(rs, next) := finalize_all W bs (fr_next r) in
      ((B, r) :: rs, next)
  end.
Definition all_map (rs : list (bcomp * fresult)) : list (var * var) := flat_map (fun br => fr_map (snd br)) rs.
(** A later entry of the map replaces an earlier one. *)
Definition replace_var (m : list (var * var)) (v : var) : var :=
  match find (fun kv => var_eqb (fst kv) v) (rev m) with Some kv => snd kv | None => v end.
Definition replace_cmd (m : list (var * var)) (c : cmd P) : cmd P :=
  match c with Copy a b => Copy (replace_var m a) (replace_var m b) | c => c end.
(** The circuit after finalisation. *)
Definition final_circuit (W : Z) (bs : list (bcomp * list entry)) (start : Z) (cmds : list (cmd P)) : list (cmd P) :=
  let rs := fst (finalize_all W bs start) in
  map (replace_cmd (all_map rs)) (cmds ++ flat_map (fun br => fr_cmds (snd br)) rs).
(** The assignment after finalisation: values are read from the table, in which
    the batch storage is the public column with the reserved index. *)
Definition final_table (W : Z) (bs : list (bcomp * list entry)) (start : Z) (T : table) : table :=
  fold_left (fun T br => fold_left (write_row (fst br)) (fr_placed (snd br) ++ fr_fill (snd br)) T) (fst (finalize_all W bs start)) T.
End Model.
Arguments mkB {P}. Arguments b_w {P}. Arguments b_cs {P}. Arguments b_in {P}. Arguments b_out {P}. Arguments b_row {P}.
Arguments b_outs {P}. Arguments values {P}. Arguments add_batch_vars {P}. Arguments fill_vars {P}. Arguments add_input {P}.
Arguments QAdd {P}. Arguments QOp {P}. Arguments qruns {P}. Arguments scaled {P}. Arguments instance_copies {P}.
Arguments result_cells {P}. Arguments write_row {P}. Arguments fr_cmds {P}. Arguments fr_map {P}. Arguments fr_placed {P}.
Arguments fr_fill {P}. Arguments fr_next {P}. Arguments finalize_batch {P}. Arguments finalize_all {P}. Arguments all_map {P}.
Arguments replace_cmd {P}. Arguments final_circuit {P}. Arguments final_table {P}.
