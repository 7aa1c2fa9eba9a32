(** Model of the circuit object, of gate identifiers, of the satisfiability
    check and of the gate mover:
    include/nil/blueprint/blueprint/plonk/circuit.hpp,
    include/nil/blueprint/gate_id.hpp,
    include/nil/blueprint/utils/satisfiability_check.hpp,
    include/nil/blueprint/utils/gate_mover.hpp. *)
From Coq Require Import ZArith List Lia Bool.
From Verif Require Import Base Field Plonk AssignModel.
Import ListNotations.
Open Scope Z_scope.

Section Model.
Variable P : params.
Notation F := (F P).
Notation expr := (expr P).

(** ** Expressions under an arbitrary valuation of variables
    (crypto3 [expression_evaluator], used at gate_id.hpp:182-190). *)
Fixpoint evalv (rho : var -> F) (e : expr) : F :=
  match e with
  | ETerm c vs => fold_left (fun acc v => fmul acc (rho v)) vs c
  | EPow e n => fpow (evalv rho e) n
  | EBin o a b => ebop P o (evalv rho a) (evalv rho b)
  end.

(** ** gate_mover.hpp:47-85 *)
Fixpoint move (f : var -> var) (e : expr) : expr :=
  match e with
  | ETerm c vs => ETerm c (map f vs)
  | EPow e n => EPow (move f e) n
  | EBin OAdd a b => EBin OAdd (move f a) (move f b)
  | EBin OSub a b => EBin OSub (move f a) (move f b)
  | EBin OMul a b => EBin OMul (move f a) (move f b)
  end.

(** ** gate_id.hpp:48-160 [value_set]: the random values, as functions.  The
    containers grow on demand (98-103), so every index has a value. *)
Record vset := mkVset {
  vs_var : bool -> var -> F;      (* get_var_value: first or second point *)
  vs_mult : nat -> F;             (* constraint_mults *)
  vs_lmult : nat -> F;            (* lookup_constraint_mults *)
  vs_tmult : nat -> F             (* lookup_table_mults *)
}.

Definition gid := (F * F)%type.
(** gate_id.hpp:204-207, 322-325: order of the pairs. *)
Definition gid_ltb (a b : gid) : bool :=
  (fval (fst a) <? fval (fst b)) || ((fval (fst a) =? fval (fst b)) && (fval (snd a) <? fval (snd b))).
(** [std::stable_sort]. *)
Fixpoint ins (x : gid) (l : list gid) : list gid :=
  match l with
  | [] => [x]
  | y :: l => if gid_ltb y x then y :: ins x l else x :: y :: l
  end.
Definition sortg (l : list gid) : list gid := fold_right ins [] l.
(** gate_id.hpp:208-211. *)
Definition combine_mults (mult : nat -> F) (l : list gid) : gid :=
  fold_left (fun acc ip => (fadd (fst acc) (fmul (mult (fst ip)) (fst (snd ip))),
                            fadd (snd acc) (fmul (mult (fst ip)) (snd (snd ip)))))
            (combine (seq 0 (length l)) l) (f0, f0).

(** gate_id.hpp:181-192 eval_constraint. *)
Definition eval_constraint (vs : vset) (e : expr) : gid :=
  (evalv (vs_var vs true) e, evalv (vs_var vs false) e).
(** gate_id.hpp:195-220 (vector and initializer list), 222-226 (single). *)
Definition gate_gid (vs : vset) (cs : list expr) : gid :=
  combine_mults (vs_mult vs) (sortg (map (eval_constraint vs) cs)).
Definition gate_gid1 (vs : vset) (c : expr) : gid := eval_constraint vs c.

(** A lookup constraint: table id and inputs. *)
Definition lcons := (nat * list expr)%type.
(** gate_id.hpp:289-309. *)
Definition eval_lookup (vs : vset) (c : lcons) : gid :=
  let '(a, b) := fold_left (fun acc ie =>
     (fadd (fst acc) (fmul (vs_lmult vs (fst ie)) (evalv (vs_var vs true) (snd ie))),
      fadd (snd acc) (fmul (vs_lmult vs (fst ie)) (evalv (vs_var vs false) (snd ie)))))
     (combine (seq 0 (length (snd c))) (snd c)) (f0, f0) in
  (fmul (vs_tmult vs (fst c)) a, fmul (vs_tmult vs (fst c)) b).
Definition lookup_gid (vs : vset) (cs : list lcons) : gid :=
  combine_mults (vs_mult vs) (sortg (map (eval_lookup vs) cs)).
Definition lookup_gid1 (vs : vset) (c : lcons) : gid := eval_lookup vs c.

Definition gid_eqb (a b : gid) : bool := feqb (fst a) (fst b) && feqb (snd a) (snd b).

(** ** circuit.hpp:68-78 *)
Record cstate := mkC {
  c_gates : list (nat * list expr);
  c_lgates : list (nat * list lcons);
  c_copies : list (var * var);
  c_gmap : list (gid * nat);
  c_lmap : list (gid * nat);
  c_next : nat
}.
Definition c_new : cstate := mkC [] [] [] [] [] 0.

(** [std::map::find]. *)
Fixpoint find_gid (m : list (gid * nat)) (g : gid) : option nat :=
  match m with
  | [] => None
  | (g', n) :: m => if gid_eqb g' g then Some n else find_gid m g
  end.

(** Calls on the circuit, and calls on the assignment. *)
Inductive bcall :=
| BGate (cs : list expr)                 (* add_gate(vector) / add_gate({...}) *)
| BGate1 (c : expr)                      (* add_gate(constraint) *)
| BGateOn (sel : nat) (cs : list expr)   (* add_gate(selector, vector) *)
| BLookup (cs : list lcons)
| BLookup1 (c : lcons)
| BLookupOn (sel : nat) (cs : list lcons)
| BDynamic                               (* get_dynamic_lookup_table_selector() *)
| BCopy (a b : var)
| BA (o : aop P).

(** circuit.hpp:113-125 GENERIC_GATE_ADDER_MACRO. *)
Definition add_gate (c : cstate) (g : gid) (cs : list expr) : cstate * nat :=
  match find_gid (c_gmap c) g with
  | Some n => (c, n)
  | None => (mkC (c_gates c ++ [(c_next c, cs)]) (c_lgates c) (c_copies c)
                 ((g, c_next c) :: c_gmap c) (c_lmap c) (S (c_next c)), c_next c)
  end.
Definition add_lookup (c : cstate) (g : gid) (cs : list lcons) : cstate * nat :=
  match find_gid (c_lmap c) g with
  | Some n => (c, n)
  | None => (mkC (c_gates c) (c_lgates c ++ [(c_next c, cs)]) (c_copies c)
                 (c_gmap c) ((g, c_next c) :: c_lmap c) (S (c_next c)), c_next c)
  end.

(** circuit.hpp:232-243 add_copy_constraint. *)
Definition is_private (v : var) : bool := vidx v =? priv_index.
Definition add_copy (c : cstate) (a b : var) : cstate :=
  if var_eqb a b then c
  else if is_private a || is_private b then c
  else mkC (c_gates c) (c_lgates c) (c_copies c ++ [(a, b)]) (c_gmap c) (c_lmap c) (c_next c).

Definition bstate := (cstate * astate P)%type.
(** One call; the second component is the selector the call returns, if any.
    circuit.hpp:135-183, 232-243. *)
Definition bstep (vs : vset) (st : bstate) (o : bcall) : option (bstate * option nat) :=
  let '(c, s) := st in
  match o with
  | BGate cs => let '(c', n) := add_gate c (gate_gid vs cs) cs in Some ((c', s), Some n)
  | BGate1 e => let '(c', n) := add_gate c (gate_gid1 vs e) [e] in Some ((c', s), Some n)
  | BGateOn sel cs => Some ((mkC (c_gates c ++ [(sel, cs)]) (c_lgates c) (c_copies c) (c_gmap c) (c_lmap c) (c_next c), s), Some sel)
  | BLookup cs => let '(c', n) := add_lookup c (lookup_gid vs cs) cs in Some ((c', s), Some n)
  | BLookup1 e => let '(c', n) := add_lookup c (lookup_gid1 vs e) [e] in Some ((c', s), Some n)
  | BLookupOn sel cs => Some ((mkC (c_gates c) (c_lgates c ++ [(sel, cs)]) (c_copies c) (c_gmap c) (c_lmap c) (c_next c), s), Some sel)
  | BDynamic => Some ((mkC (c_gates c) (c_lgates c) (c_copies c) (c_gmap c) (c_lmap c) (S (c_next c)), s), Some (c_next c))
  | BCopy a b => Some ((add_copy c a b, s), None)
  | BA o => match astep s o with Some s' => Some ((c, s'), None) | None => None end
  end.
(** A run: final state and the value returned by each call, in order. *)
Fixpoint bruns (vs : vset) (st : bstate) (h : list bcall) : option (bstate * list (bcall * option nat)) :=
  match h with
  | [] => Some (st, [])
  | o :: h =>
      match bstep vs st o with
      | None => None
      | Some (st', r) =>
          match bruns vs st' h with
          | None => None
          | Some (st'', rs) => Some (st'', (o, r) :: rs)
          end
      end
  end.

(** ** satisfiability_check.hpp *)

(** A lookup table as the check sees it: a static table with the columns of the
    subtable, or a dynamic table with its selector and options.  Name
    resolution (lookup_library.hpp) is left out: [None] is a table that is not
    found. *)
Inductive tabdef :=
| TStatic (cols : list (list F)) (idx : list nat)
| TDynamic (tag : nat) (options : list (list expr)).
Definition tenv := nat -> option tabdef.

(** First element that is not [Some true] decides: the check returns [false] or
    aborts at the first failure. *)
Definition all_ok (l : list (option bool)) : option bool :=
  fold_right (fun x acc => match x with Some true => acc | y => y end) (Some true) l.

Definition feqbl (a b : list F) : bool :=
  (length a =? length b)%nat && forallb (fun p => feqb (fst p) (snd p)) (combine a b).

(** satisfiability_check.hpp:63-92 load_dynamic_lookup.  [rows_amount] is taken
    to cover the selector column. *)
Definition load_dynamic (s : astate P) (tag : nat) (options : list (list expr)) : list (list F) :=
  let col := match nth_error (a_sel s) tag with Some c => c | None => [] end in
  flat_map (fun r => if feqb (nth r col f0) f0 then []
                     else map (map (eval (a_table s) (Z.of_nat r))) options)
           (seq 0 (length col)).

(** satisfiability_check.hpp:194-214: [table[subtable.column_indices[l]][k]]. *)
Definition row_matches (cols : list (list F)) (idx : list nat) (vals : list F) (k : nat) : bool :=
  forallb (fun p => feqb (match nth_error cols (fst p) with Some c => nth k c f0 | None => f0 end) (snd p))
          (combine idx vals).
Definition lookup_check (te : tenv) (s : astate P) (row : Z) (c : lcons) : option bool :=
  let vals := map (eval (a_table s) row) (snd c) in
  match te (fst c) with
  | None => Some false
  | Some (TDynamic tag options) => Some (existsb (feqbl vals) (load_dynamic s tag options))
  | Some (TStatic cols idx) =>
      if (length idx =? length vals)%nat then
        Some (existsb (row_matches cols idx vals) (seq 0 (length (nth 0 cols []))))
      else None
  end.

(** satisfiability_check.hpp:36-61, 94-245; [selector_rows] is
    [0, allocated_rows). *)
Definition sel_rows (s : astate P) (sel : nat) : list nat :=
  let col := match nth_error (a_sel s) sel with Some c => c | None => [] end in
  filter (fun r => (r <? length col)%nat && negb (feqb (nth r col f0) f0)) (seq 0 (Z.to_nat (a_rows s))).
Definition is_satisfied (te : tenv) (c : cstate) (s : astate P) : option bool :=
  all_ok (
    flat_map (fun g => flat_map (fun r => map (fun e => Some (feqb (eval (a_table s) (Z.of_nat r) e) f0)) (snd g))
                                (sel_rows s (fst g))) (c_gates c) ++
    flat_map (fun g => flat_map (fun r => map (lookup_check te s (Z.of_nat r)) (snd g))
                                (sel_rows s (fst g))) (c_lgates c) ++
    map (fun ab => match var_value s (fst ab), var_value s (snd ab) with
                   | Some x, Some y => Some (feqb x y)
                   | _, _ => None
                   end) (c_copies c)).

End Model.
Arguments evalv {P}. Arguments move {P}. Arguments vs_var {P}. Arguments vs_mult {P}. Arguments vs_lmult {P}.
Arguments vs_tmult {P}. Arguments gid_ltb {P}. Arguments ins {P}. Arguments sortg {P}. Arguments combine_mults {P}.
Arguments eval_constraint {P}. Arguments gate_gid {P}. Arguments gate_gid1 {P}. Arguments eval_lookup {P}.
Arguments lookup_gid {P}. Arguments lookup_gid1 {P}. Arguments gid_eqb {P}. Arguments c_gates {P}. Arguments c_lgates {P}.
Arguments c_copies {P}. Arguments c_gmap {P}. Arguments c_lmap {P}. Arguments c_next {P}. Arguments mkC {P}.
Arguments find_gid {P}. Arguments BGate {P}. Arguments BGate1 {P}. Arguments BGateOn {P}. Arguments BLookup {P}.
Arguments BLookup1 {P}. Arguments BLookupOn {P}. Arguments BDynamic {P}. Arguments BCopy {P}. Arguments BA {P}.
Arguments add_gate {P}. Arguments add_lookup {P}. Arguments add_copy {P}. Arguments bstep {P}. Arguments bruns {P}.
Arguments TStatic {P}. Arguments TDynamic {P}. Arguments feqbl {P}. Arguments load_dynamic {P}. Arguments row_matches {P}.
Arguments lookup_check {P}. Arguments sel_rows {P}. Arguments is_satisfied {P}. Arguments c_new {P}.
