(** The PLONK table / constraint vocabulary used by every component model.

    Source: include/nil/blueprint/component.hpp (columns of a component),
    include/nil/blueprint/blueprint/plonk/assignment.hpp (cells, selectors),
    include/nil/blueprint/blueprint/plonk/circuit.hpp (gates, copy
    constraints, lookups), include/nil/blueprint/utils/gate_mover.hpp (shape of
    constraint expressions).  The types [plonk_variable], [plonk_constraint]
    and [plonk_gate] themselves live in crypto3, which is not part of /repo;
    their shape is the one gate_mover.hpp:60-125 pattern-matches on. *)
Require Import ZArith List Lia Bool String.
From Verif Require Import Base Field.
Import ListNotations.
Open Scope Z_scope.

(** [plonk_variable::column_type]. *)
Inductive ctype := CWit | CPub | CConst | CSel.

Definition ctype_eqb (a b : ctype) : bool :=
  match a, b with
  | CWit, CWit | CPub, CPub | CConst, CConst | CSel, CSel => true
  | _, _ => false
  end.

Lemma ctype_eqb_eq : forall a b, ctype_eqb a b = true <-> a = b.
Proof. intros [] []; cbn; split; congruence. Qed.

(** [plonk_variable]: index, rotation, relative flag, column type.  With
    [relative = false] the rotation is an absolute row. *)
Record var := mkVar { vidx : Z; vrot : Z; vrel : bool; vty : ctype }.

Definition var_eqb (a b : var) : bool :=
  (vidx a =? vidx b) && (vrot a =? vrot b) && Bool.eqb (vrel a) (vrel b) && ctype_eqb (vty a) (vty b).

Lemma var_eqb_eq : forall a b, var_eqb a b = true <-> a = b.
Proof.
  intros [i r l t] [i' r' l' t']. unfold var_eqb. cbn.
  rewrite !andb_true_iff, !Z.eqb_eq, eqb_true_iff, ctype_eqb_eq. split.
  - intros [[[-> ->] ->] ->]. reflexivity.
  - intros H. injection H as -> -> -> ->. auto.
Qed.

(** [var(i, rot)] as written inside gates (relative, witness). *)
Definition wv (i rot : Z) : var := mkVar i rot true CWit.
(** [var(i, row, false)] as written in copy constraints and results. *)
Definition wcell (i row : Z) : var := mkVar i row false CWit.
(** [var(i, row, false, column_type::constant)]. *)
Definition ccell (i row : Z) : var := mkVar i row false CConst.

Section WithField.
Variable P : params.
Notation F := (F P).

(** [crypto3::math::expression]: a term is a coefficient times a product of
    variables; expressions are terms, integer powers and the three binary
    operations (gate_mover.hpp:78-125).  crypto3 may fold constants when
    building expressions; that does not change values and is not modelled. *)
Inductive bop := OAdd | OSub | OMul.
Inductive expr :=
| ETerm (coeff : F) (vars : list var)
| EPow (e : expr) (n : nat)
| EBin (o : bop) (a b : expr).

Definition evar (v : var) : expr := ETerm f1 [v].
Definition ecst (c : F) : expr := ETerm c [].

(** Cell contents of an assignment table: column type, column index, row.
    Simplification: rows and columns are unbounded (assignment.hpp:394-523
    resizes on access), and [rotation] does not wrap around at the last row. *)
Definition table := ctype -> Z -> Z -> F.

(** assignment.hpp:748-778 [var_value], for the regular column indices. *)
Definition vval (T : table) (v : var) : F := T (vty v) (vidx v) (vrot v).

(** Value of a variable used in a gate enabled on [row]. *)
Definition gval (T : table) (row : Z) (v : var) : F :=
  T (vty v) (vidx v) (if vrel v then row + vrot v else vrot v).

Definition ebop (o : bop) (a b : F) : F :=
  match o with OAdd => fadd a b | OSub => fsub a b | OMul => fmul a b end.

(** [plonk_constraint::evaluate]. *)
Fixpoint eval (T : table) (row : Z) (e : expr) : F :=
  match e with
  | ETerm c vs => fold_left (fun acc v => fmul acc (gval T row v)) vs c
  | EPow e n => fpow (eval T row e) n
  | EBin o a b => ebop o (eval T row a) (eval T row b)
  end.

(** Lookup tables: a table name and one of its rows. *)
Definition lenv := string -> list F -> Prop.

(** What a component's [generate_circuit] asks of the circuit, one command
    per call: [add_gate] together with the [enable_selector] calls on the
    returned selector, [add_lookup_gate] likewise, [add_copy_constraint], and
    writes to constant columns. *)
Inductive cmd :=
| Gate (cs : list expr) (rows : list Z)
| LookupGate (cs : list (string * list expr)) (rows : list Z)
| Copy (a b : var)
| SetConst (col row : Z) (v : F).

Definition holds (L : lenv) (T : table) (c : cmd) : Prop :=
  match c with
  | Gate cs rows => forall r, In r rows -> forall e, In e cs -> eval T r e = f0
  | LookupGate cs rows => forall r, In r rows -> forall t es, In (t, es) cs -> L t (map (eval T r) es)
  | Copy a b => vval T a = vval T b
  | SetConst col row v => T CConst col row = v
  end.

(** Satisfaction of the commands of a component. *)
Definition sat (L : lenv) (T : table) (cs : list cmd) : Prop :=
  forall c, In c cs -> holds L T c.

(** [assignment.witness(col, row) = v]. *)
Definition wset (T : table) (col row : Z) (v : F) : table :=
  fun ty c r =>
    if ctype_eqb ty CWit && ((c =? col) && (r =? row)) then v else T ty c r.

(** [assignment.constant(col, row) = v]. *)
Definition cset (T : table) (col row : Z) (v : F) : table :=
  fun ty c r =>
    if ctype_eqb ty CConst && ((c =? col) && (r =? row)) then v else T ty c r.

(** Running only the constant writes of a command list. *)
Definition run_consts (T : table) (cs : list cmd) : table :=
  fold_left (fun T c => match c with SetConst col row v => cset T col row v | _ => T end) cs T.

End WithField.

Arguments ETerm {P}. Arguments EPow {P}. Arguments EBin {P}. Arguments evar {P}.
Arguments ecst {P}. Arguments vval {P}. Arguments gval {P}. Arguments eval {P}.
Arguments Gate {P}. Arguments LookupGate {P}. Arguments Copy {P}. Arguments SetConst {P}.
Arguments holds {P}. Arguments sat {P}. Arguments wset {P}. Arguments cset {P}.
Arguments run_consts {P}.

Declare Scope E_scope.
Delimit Scope E_scope with E.
Bind Scope E_scope with expr.
Notation "a + b" := (EBin OAdd a b) : E_scope.
Notation "a - b" := (EBin OSub a b) : E_scope.
Notation "a * b" := (EBin OMul a b) : E_scope.
Notation "'#' v" := (evar v) (at level 5) : E_scope.
Notation "'$' c" := (ecst (ofZ c)) (at level 5) : E_scope.

(** component.hpp [plonk_component]: the columns a component instance was
    given.  [W(i) = _W[(_W.size() + i) % _W.size()]], same for [C] and [PI]. *)
Record comp := mkComp { cWs : list Z; cCs : list Z; cPIs : list Z }.
Definition cidx (l : list Z) (i : Z) : Z := znth 0 l ((zlen l + i) mod zlen l).
Definition W (c : comp) (i : Z) : Z := cidx (cWs c) i.
Definition C (c : comp) (i : Z) : Z := cidx (cCs c) i.
Definition PI (c : comp) (i : Z) : Z := cidx (cPIs c) i.
(** [component.witness_amount()]. *)
Definition wamount (c : comp) : Z := zlen (cWs c).

(** A usable instance: exactly [w] distinct witness columns. *)
Definition wf_comp (c : comp) (w : Z) : Prop := NoDup (cWs c) /\ wamount c = w /\ 0 < w.

(** The rectangle of witness cells [rows x w] owned by an instance placed at
    [r0]; an input variable must be outside it. *)
Definition in_area (c : comp) (n r0 : Z) (ty : ctype) (col row : Z) : Prop :=
  ty = CWit /\ In col (cWs c) /\ r0 <= row < r0 + n.
Definition outside (c : comp) (n r0 : Z) (v : var) : Prop :=
  ~ in_area c n r0 (vty v) (vidx v) (vrot v).

(** [T'] differs from [T] only inside the area. *)
Definition frame {P} (c : comp) (n r0 : Z) (T T' : table P) : Prop :=
  forall ty col row, ~ in_area c n r0 ty col row -> T' ty col row = T ty col row.

(** A standard layout used by the concrete examples: witness columns
    [0..w-1], constant column 0. *)
Definition std_comp (w : Z) : comp := mkComp (zseq 0 w) [0] [].
