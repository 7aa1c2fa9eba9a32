(** Model of [finalize_constant_batches]
    (include/nil/blueprint/blueprint/plonk/assignment.hpp:228-324). *)
From Coq Require Import ZArith List Lia Bool.
From Verif Require Import Base Field Plonk AssignModel BuilderModel.
Import ListNotations.
Open Scope Z_scope.

Section Model.
Variable P : params.
Notation F := (F P).
Notation expr := (expr P).

(** crypto3 [expression_for_each_variable_visitor]. *)
Fixpoint evars (e : expr) : list var :=
  match e with
  | ETerm _ vs => vs
  | EPow e _ => evars e
  | EBin _ a b => evars a ++ evars b
  end.

(** Conversion of the signed rotation to [std::size_t]. *)
Definition wrap64 (z : Z) : Z := z mod 2 ^ 64.

(** assignment.hpp:242-246 [var_check]. *)
Definition var_check (col start : Z) (v : var) : bool :=
  ctype_eqb (vty v) CConst && (vidx v =? col) && (start <=? wrap64 (vrot v)).

(** Rows on which the loops at 267-272 and 292-297 find the selector set to
    one: [start - 1 <= row < selector_column_size].  A selector column that does
    not exist counts as empty. *)
Definition enabled_rows (s : astate P) (start : Z) (sel : nat) : list Z :=
  let c := match nth_error (a_sel s) sel with Some c => c | None => [] end in
  filter (fun r => (start - 1 <=? r) && feqb (nth (Z.to_nat r) c f0) f1) (map Z.of_nat (seq 0 (length c))).

(** Indices of [used_constants] that are set: copy constraints (247-253), gates
    (254-274), lookup gates (275-299).  The sets of variables are lists here. *)
Definition copy_marks (c : cstate P) (col start : Z) : list Z :=
  flat_map (fun ab => map (fun v => wrap64 (vrot v - start)) (filter (var_check col start) [fst ab; snd ab])) (c_copies c).
Definition rows_marks (s : astate P) (col start : Z) (sel : nat) (vs : list var) : list Z :=
  flat_map (fun v => map (fun r => wrap64 (r + vrot v - start)) (enabled_rows s start sel)) (filter (var_check col start) vs).
Definition gate_marks (c : cstate P) (s : astate P) (col start : Z) : list Z :=
  flat_map (fun g => rows_marks s col start (fst g) (flat_map evars (snd g))) (c_gates c).
Definition lookup_marks (c : cstate P) (s : astate P) (col start : Z) : list Z :=
  flat_map (fun g => rows_marks s col start (fst g) (flat_map (fun l => flat_map evars (snd l)) (snd g))) (c_lgates c).

(** [used_constants[i] = true]; [None] is a write past the end. *)
Definition mark (u : option (list bool)) (i : Z) : option (list bool) :=
  match u with
  | Some u => if i <? Z.of_nat (length u) then Some (upd u (Z.to_nat i) true) else None
  | None => None
  end.

(** 237-300. *)
Definition used_constants (c : cstate P) (s : astate P) (col start : nat) : option (list bool) :=
  let size := match nth_error (a_const s) col with Some l => length l | None => O end in
  if (start <? size)%nat then
    fold_left mark (copy_marks c (Z.of_nat col) (Z.of_nat start) ++
                    gate_marks c s (Z.of_nat col) (Z.of_nat start) ++
                    lookup_marks c s (Z.of_nat col) (Z.of_nat start)) (Some (repeat false (size - start)))
  else Some [].

(** 301-314: the rows taken by the stored constants, as offsets from [start]. *)
Fixpoint skip (fuel : nat) (u : list bool) (k : nat) : nat :=
  match fuel with
  | O => k
  | S f => if nth k u false then skip f u (S k) else k
  end.
Fixpoint slots (n : nat) (u : list bool) (k : nat) : list nat :=
  match n with
  | O => []
  | S n' => let k' := skip (length u) u k in k' :: slots n' u (S k')
  end.

(** 307-312 and 315-322: replacement in copy constraints. *)
Definition subst_const (col start : nat) (ks : list nat) (v : var) : var :=
  if (vidx v =? bconst_index) && negb (vrel v) && ctype_eqb (vty v) CConst && (0 <=? vrot v) then
    match nth_error ks (Z.to_nat (vrot v)) with
    | Some k => mkVar (Z.of_nat col) (Z.of_nat (start + k)) false CConst
    | None => v
    end
  else v.

(** The whole call: new circuit, new assignment, first free row.  [None]: a
    failed assertion or an out-of-bounds access. *)
Definition finalize_constants (c : cstate P) (s : astate P) (col start : nat) : option (cstate P * astate P * nat) :=
  match a_bconst s with
  | [] => Some (c, s, start)
  | consts =>
    if (start =? 0)%nat then None else
    match used_constants c s col start with
    | None => None
    | Some u =>
      let ks := slots (length consts) u 0 in
      match aruns s (map (fun kv => AConstant col (start + fst kv) (snd kv)) (combine ks consts)) with
      | None => None
      | Some s' =>
        let f := subst_const col start ks in
        Some (mkC (c_gates c) (c_lgates c) (map (fun ab => (f (fst ab), f (snd ab))) (c_copies c))
                  (c_gmap c) (c_lmap c) (c_next c),
              s', (start + S (last ks 0))%nat)
      end
    end
  end.
End Model.
Arguments evars {P}. Arguments enabled_rows {P}. Arguments copy_marks {P}. Arguments rows_marks {P}. Arguments gate_marks {P}.
Arguments lookup_marks {P}. Arguments used_constants {P}. Arguments finalize_constants {P}.
