(** Model of the proxies through which several provers share one circuit and
    one assignment:
    include/nil/blueprint/blueprint/plonk/circuit_proxy.hpp,
    include/nil/blueprint/blueprint/plonk/assignment_proxy.hpp.

    A proxy is derived from the class it stands for and holds a pointer to the
    shared object.  A virtual function it overrides acts on the shared object;
    one it does not override acts on the proxy's own base object.  Lookup tables
    and the printing of tables are left out. *)
From Coq Require Import ZArith List Lia Bool.
From Verif Require Import Base Field Plonk AssignModel BuilderModel.
Import ListNotations.
Open Scope Z_scope.

(** [std::set<std::uint32_t>] as an increasing list. *)
Fixpoint sadd (x : nat) (l : list nat) : list nat :=
  match l with
  | [] => [x]
  | y :: l' => if (x <? y)%nat then x :: l else if (x =? y)%nat then l else y :: sadd x l'
  end.

Section Model.
Variable P : params.
Notation F := (F P).

(** circuit_proxy.hpp:50-55 and assignment_proxy.hpp:50-54; [x_c] and [x_a] are
    the base objects of the two proxies (circuit_proxy.hpp:74-76 default
    constructed, assignment_proxy.hpp:56-67 with the same numbers of columns).
    One proxy of each kind is given the same number. *)
Record proxy := mkX {
  x_gates : list nat; x_lgates : list nat; x_copies : list nat;
  x_rows : list nat; x_srows : list nat;
  x_c : cstate P; x_a : astate P
}.
Definition x_new (s : astate P) : proxy :=
  mkX [] [] [] [] [] c_new (a_new P (length (a_wit s)) (length (a_pub s)) (length (a_const s)) (length (a_sel s))).

(** The shared objects and the proxies. *)
Definition xstate := (bstate P * (nat -> proxy))%type.
Definition set_x (ps : nat -> proxy) (i : nat) (p : proxy) : nat -> proxy := fun j => if (j =? i)%nat then p else ps j.

(** circuit_proxy.hpp:57-70: position of the first gate with the selector. *)
Fixpoint sel_index {A} (gs : list (nat * A)) (n : nat) : nat :=
  match gs with [] => O | g :: gs' => if (fst g =? n)%nat then O else S (sel_index gs' n) end.

(** circuit_proxy.hpp:136-170, 204-209. *)
Definition mark_gate (p : proxy) (k : nat) : proxy :=
  mkX (sadd k (x_gates p)) (x_lgates p) (x_copies p) (x_rows p) (x_srows p) (x_c p) (x_a p).
Definition mark_lgate (p : proxy) (k : nat) : proxy :=
  mkX (x_gates p) (sadd k (x_lgates p)) (x_copies p) (x_rows p) (x_srows p) (x_c p) (x_a p).
Definition mark_copy (p : proxy) (n : nat) : proxy :=
  if (0 <? n)%nat then mkX (x_gates p) (x_lgates p) (sadd (n - 1)%nat (x_copies p)) (x_rows p) (x_srows p) (x_c p) (x_a p) else p.
Definition set_own_c (p : proxy) (c : cstate P) : proxy :=
  mkX (x_gates p) (x_lgates p) (x_copies p) (x_rows p) (x_srows p) c (x_a p).
Definition set_own_a (p : proxy) (a : astate P) : proxy :=
  mkX (x_gates p) (x_lgates p) (x_copies p) (x_rows p) (x_srows p) (x_c p) a.
(** assignment_proxy.hpp:103-107, 133-146 (selectors), 184-187 (witnesses),
    231-235 (constants); the other stores are not marked. *)
Definition mark_rows (p : proxy) (o : aop P) : proxy :=
  match o with
  | AWitness _ r _ | AConstant _ r _ =>
      mkX (x_gates p) (x_lgates p) (x_copies p) (sadd r (x_rows p)) (x_srows p) (x_c p) (x_a p)
  | ASelector _ r _ | AEnable _ r =>
      mkX (x_gates p) (x_lgates p) (x_copies p) (sadd r (x_rows p)) (sadd r (x_srows p)) (x_c p) (x_a p)
  | _ => p
  end.

(** A call through proxy [i].  Not overridden: circuit.hpp:161-174 (adding to a
    given selector), 178-182 (dynamic selector) and assignment.hpp:546-590 (the
    two batch stores). *)
Definition xstep (vs : vset P) (st : xstate) (i : nat) (o : bcall P) : option (xstate * option nat) :=
  let '(sh, ps) := st in
  let p := ps i in
  let shared := bstep vs sh o in
  let own := bstep vs (x_c p, x_a p) o in
  match o with
  | BGate _ | BGate1 _ =>
      match shared with
      | Some (sh', Some n) => Some ((sh', set_x ps i (mark_gate p (sel_index (c_gates (fst sh')) n))), Some n)
      | _ => None
      end
  | BLookup _ | BLookup1 _ =>
      match shared with
      | Some (sh', Some n) => Some ((sh', set_x ps i (mark_lgate p (sel_index (c_lgates (fst sh')) n))), Some n)
      | _ => None
      end
  | BGateOn _ _ | BLookupOn _ _ | BDynamic =>
      match own with Some ((c', _), r) => Some ((sh, set_x ps i (set_own_c p c')), r) | None => None end
  | BCopy _ _ =>
      match shared with Some (sh', r) => Some ((sh', set_x ps i (mark_copy p (length (c_copies (fst sh'))))), r) | None => None end
  | BA (ABatchPrivate _ _) | BA (AAddBatch _) | BA (AAddBatchConst _) =>
      match own with Some ((_, a'), r) => Some ((sh, set_x ps i (set_own_a p a')), r) | None => None end
  | BA a =>
      match shared with Some (sh', r) => Some ((sh', set_x ps i (mark_rows p a)), r) | None => None end
  end.

(** A run: the calls with the proxy each goes through, and what they return. *)
Fixpoint xruns (vs : vset P) (st : xstate) (h : list (nat * bcall P)) : option (xstate * list (nat * bcall P * option nat)) :=
  match h with
  | [] => Some (st, [])
  | (i, o) :: h =>
      match xstep vs st i o with
      | None => None
      | Some (st', r) =>
          match xruns vs st' h with None => None | Some (st'', rs) => Some (st'', (i, o, r) :: rs) end
      end
  end.

(** [var_value] (assignment.hpp:748-778) of a proxy whose [check] is off: the
    accessors it does not override read its own batch stores. *)
Definition x_value (st : xstate) (i : nat) (v : var) : option F :=
  if (vidx v =? bpriv_index) || (vidx v =? bconst_index) then var_value (x_a (snd st i)) v else var_value (snd (fst st)) v.
(** The same with [check] on (assignment_proxy.hpp:189-195, 237-247): witnesses
    and constants only of rows used through the proxy, except for the constant
    columns [lc] of lookup tables.  [None] is a failed assertion. *)
Definition x_value_checked (lc : Z -> bool) (st : xstate) (i : nat) (v : var) : option F :=
  let used := existsb (fun r => Z.of_nat r =? vrot v) (x_rows (snd st i)) in
  let refused :=
    negb ((vidx v =? priv_index) || (vidx v =? bpriv_index) || (vidx v =? bconst_index)) &&
    match vty v with CPub => false | CWit => negb used | _ => negb (lc (vidx v)) && negb used end in
  if refused then None else x_value st i v.

(** satisfiability_check.hpp:100-255 with given sets, the selector columns
    [sel], and [value] to read copied variables.  A position past the end of a
    container is [None]. *)
Definition on_rows (sel : list (list F)) (n : nat) (rows : list nat) : list nat :=
  let col := match nth_error sel n with Some c => c | None => [] end in
  filter (fun r => (r <? length col)%nat && negb (feqb (nth r col f0) f0)) rows.
Definition check_part (te : tenv P) (c : cstate P) (s : astate P) (sel : list (list F)) (value : var -> option F) (p : proxy) : option bool :=
  all_ok (
    flat_map (fun k => match nth_error (c_gates c) k with
                       | Some g => flat_map (fun r => map (fun e => Some (feqb (eval (a_table s) (Z.of_nat r) e) f0)) (snd g)) (on_rows sel (fst g) (x_srows p))
                       | None => [None] end) (x_gates p) ++
    flat_map (fun k => match nth_error (c_lgates c) k with
                       | Some g => flat_map (fun r => map (lookup_check te s (Z.of_nat r)) (snd g)) (on_rows sel (fst g) (x_srows p))
                       | None => [None] end) (x_lgates p) ++
    map (fun k => match nth_error (c_copies c) k with
                  | Some ab => match value (fst ab), value (snd ab) with Some x, Some y => Some (feqb x y) | _, _ => None end
                  | None => None end) (x_copies p)).
(** assignment_proxy.hpp:444-460 [is_satisfied] of two proxies.  The selector
    column is read by a qualified call, which is not virtual
    (satisfiability_check.hpp:118-121, 146-149): it is a column of the base
    object of the proxy. *)
Definition x_satisfied (te : tenv P) (st : xstate) (i : nat) : option bool :=
  let p := snd st i in check_part te (fst (fst st)) (snd (fst st)) (a_sel (x_a p)) (x_value st i) p.

(** assignment_proxy.hpp:422-431 [save_shared_var]: the variable returned, and
    the state after it. *)
Definition save_shared (st : xstate) (i : nat) (v : var) : option (xstate * var) :=
  let '((c, s), ps) := st in
  match nth_error (a_shared s) 0, x_value st i v with
  | Some col, Some x =>
      match astep s (AShared 0 (length col) x) with
      | Some s' => Some (((c, s'), ps), mkVar 1 (Z.of_nat (length col)) false CPub)
      | None => None
      end
  | _, _ => None
  end.
(** assignment_proxy.hpp:433-442: the form for a vector. *)
Fixpoint save_shared_all (st : xstate) (i : nat) (l : list var) : option (xstate * list var) :=
  match l with
  | [] => Some (st, [])
  | v :: l =>
      match save_shared st i v with
      | Some (st', w) => match save_shared_all st' i l with Some (st'', ws) => Some (st'', w :: ws) | None => None end
      | None => None
      end
  end.
End Model.
Arguments x_gates {P}. Arguments x_lgates {P}. Arguments x_copies {P}. Arguments x_rows {P}. Arguments x_srows {P}. Arguments x_c {P}. Arguments x_a {P}. Arguments mkX {P}.
Arguments x_new {P}. Arguments set_x {P}. Arguments mark_gate {P}. Arguments mark_lgate {P}. Arguments mark_copy {P}. Arguments set_own_c {P}. Arguments set_own_a {P}.
Arguments mark_rows {P}. Arguments xstep {P}. Arguments xruns {P}. Arguments x_value {P}. Arguments x_value_checked {P}. Arguments on_rows {P}. Arguments check_part {P}.
Arguments x_satisfied {P}. Arguments save_shared {P}. Arguments save_shared_all {P}.
