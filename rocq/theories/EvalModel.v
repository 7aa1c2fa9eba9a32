(** Models of
    components/systems/snark/plonk/placeholder/detail/expression_evaluation_component.hpp
    and components/systems/snark/plonk/verifier/final_polynomial_check.hpp.

    Both components consist of batched calls only.  A function is modelled by its
    effect on the assignment object with its batches ([qstate], BatchModel.v), the
    calls it makes, in order, and its result.  [None]: an exception or a failed
    assertion.  The addition, multiplication and subtraction batches are those of
    the components on three witness columns. *)
From Coq Require Import ZArith List Lia Bool.
From Verif Require Import Base Field Plonk FieldOpsModel AssignModel BuilderModel BatchModel.
Import ListNotations.
Open Scope Z_scope.

Section Model.
Variable P : params.
Notation F := (F P).
Notation expr := (expr P).
Notation cmd := (cmd P).

(** The three batched components: multiplication.hpp, addition.hpp and
    subtraction.hpp on three columns. *)
Definition arith_row (f : F -> F -> F) (xs : list F) : list F :=
  match xs with [x; y] => [x; y; f x y] | _ => [] end.
Definition mul_comp : bcomp P := mkB 3 (multiplication_gate (std_comp 3)) [0; 1] [2] (arith_row fmul).
Definition add_comp : bcomp P := mkB 3 (addition_gate (std_comp 3)) [0; 1] [2] (arith_row fadd).
Definition sub_comp : bcomp P := mkB 3 (subtraction_gate (std_comp 3)) [0; 1] [2] (arith_row fsub).
(** Numbers of the three component types among all batches. *)
Definition k_mul : nat := 0.
Definition k_add : nat := 1.
Definition k_sub : nat := 2.

(** A function that only makes batched calls, as a program: each call hands its
    result variable to the rest. *)
Inductive prog (A : Type) : Type :=
| Ret (a : A)
| Fail                                            (* an exception or a failed assertion *)
| Const (x : F) (k : var -> prog A)               (* add_batch_constant_variable(x) *)
| Op (c : nat) (a b : var) (k : var -> prog A).   (* add_input_to_batch<c>({a, b}, generate_assignment_call).output *)
Fixpoint bind {A B} (p : prog A) (f : A -> prog B) : prog B :=
  match p with
  | Ret _ a => f a
  | Fail _ => Fail B
  | Const _ x k => Const B x (fun v => bind (k v) f)
  | Op _ c a b k => Op B c a b (fun v => bind (k v) f)
  end.

Section Exec.
(** The order of the batch maps, and all batched components. *)
Variable before : list var -> list var -> bool.
Variable comps : nat -> bcomp P.
(** [generate_assignment_call], negated. *)
Variable from_circuit : bool.
(** The new state, the calls made and the result. *)
Fixpoint exec {A} (st : qstate P) (p : prog A) : option (qstate P * list (qcall P) * A) :=
  match p with
  | Ret _ a => Some (st, [], a)
  | Fail _ => None
  | Const _ x k =>
      match astep (fst st) (AAddBatchConst x) with
      | Some s' => match exec (s', snd st) (k (batch_const_var (fst st) x)) with
                   | Some (st', h, r) => Some (st', QOp (AAddBatchConst x) :: h, r)
                   | None => None
                   end
      | None => None
      end
  | Op _ c a b k =>
      match add_input before comps st c [a; b] from_circuit with
      | Some (st1, v :: _) => match exec st1 (k v) with
                              | Some (st', h, r) => Some (st', QAdd c [a; b] from_circuit :: h, r)
                              | None => None
                              end
      | _ => None
      end
  end.
End Exec.

(** ** expression_evaluation_component.hpp *)

Section Visitor.
(** 147 [variable_map]; [None] is [std::out_of_range]. *)
Variable mp : var -> option var.

(** 91-95. *)
Fixpoint ev_vars (vs : list var) (acc : var) : prog var :=
  match vs with
  | [] => Ret _ acc
  | v :: vs' => match mp v with Some u => Op _ k_mul acc u (ev_vars vs') | None => Fail _ end
  end.
(** 75-97. *)
Definition ev_term (c : F) (vs : list var) : prog var :=
  match vs with
  | [] => Const _ c (Ret _)
  | v :: vs' =>
      match mp v with
      | None => Fail _
      | Some u => if feqb c f1 then ev_vars vs' u else Const _ c (fun k => Op _ k_mul k u (ev_vars vs'))
      end
  end.
(** 107-122, the loop and the last multiplication.  The fuel is the power. *)
Fixpoint ev_pow (fuel n : nat) (res x : var) : prog var :=
  match fuel with
  | O => Fail _
  | S fuel' =>
      if (n <=? 1)%nat then Op _ k_mul res x (Ret _)
      else if Nat.even n then Op _ k_mul x x (fun x' => ev_pow fuel' (Nat.div2 n) res x')
      else Op _ k_mul res x (fun res' => ev_pow fuel' (n - 1) res' x)
  end.
(** 128-143. *)
Definition k_bop (o : bop) : nat := match o with OAdd => k_add | OSub => k_sub | OMul => k_mul end.
(** 71-144.  The power is unbounded here ([int] in the code).  The evaluation of
    [mp] before the creation of the constant in a term makes no difference. *)
Fixpoint ev (e : expr) : prog var :=
  match e with
  | ETerm c vs => ev_term c vs
  | EPow e n =>
      match n with
      | O => Fail _
      | _ => bind (ev e) (fun x => if (n =? 1)%nat then Ret _ x else Const _ f1 (fun one => ev_pow n n one x))
      end
  | EBin o a b => bind (ev a) (fun x => bind (ev b) (fun y => Op _ (k_bop o) x y (Ret _)))
  end.
End Visitor.

(** ** final_polynomial_check.hpp *)

(** 168-169. *)
Definition fp_s : var := mkVar 0 0 true CWit.
Definition fp_y : var := mkVar 0 1 true CWit.
(** 170-179: [op] is [OAdd] for [s] and [OSub] for [-s].  The overloaded operators
    of crypto3 build the expressions as written.  No coefficients: out-of-bounds
    access. *)
Definition fp_constraint (op : bop) (cs : list var) : option expr :=
  match cs with
  | [] => None
  | c0 :: cs' =>
      Some (EBin OSub (fold_left (fun e c => EBin op (ETerm f1 [c]) (EBin OMul (ETerm f1 [fp_s]) e)) cs' (ETerm f1 [c0]))
                      (ETerm f1 [fp_y]))
  end.
Definition var_in (v : var) (l : list var) : bool := existsb (var_eqb v) l.
(** 162-166, 212-214: [insert] keeps an entry that is already there. *)
Definition fp_map1 (cs : list var) (point value : var) (v : var) : option var :=
  if var_in v cs then Some v
  else if var_eqb v fp_s then Some point
  else if var_eqb v fp_y then Some value else None.
(** 221-222. *)
Definition fp_map2 (cs : list var) (point value_m : var) (v : var) : option var :=
  if var_eqb v fp_y then Some value_m else fp_map1 cs point value_m v.
(** A call of the expression evaluation component. *)
Definition ev_opt (mp : var -> option var) (e : option expr) : prog var :=
  match e with Some e => ev mp e | None => Fail _ end.

(** 208-225: one entry [(point, value, value_m)] per point. *)
Fixpoint fp_assign (cs : list var) (pts : list (var * var * var)) : prog unit :=
  match pts with
  | [] => Ret _ tt
  | (p, v, v') :: pts' =>
      bind (ev_opt (fp_map1 cs p v) (fp_constraint OAdd cs)) (fun _ =>
      bind (ev_opt (fp_map2 cs p v') (fp_constraint OSub cs)) (fun _ => fp_assign cs pts'))
  end.
(** 254-273; the result is the list of copy constraints. *)
Fixpoint fp_points (zero : var) (cs : list var) (pts : list (var * var * var)) : prog (list cmd) :=
  match pts with
  | [] => Ret _ []
  | (p, v, v') :: pts' =>
      bind (ev_opt (fp_map1 cs p v) (fp_constraint OAdd cs)) (fun o =>
      bind (ev_opt (fp_map2 cs p v') (fp_constraint OSub cs)) (fun o' =>
      bind (fp_points zero cs pts') (fun l => Ret _ (Copy o zero :: Copy o' zero :: l))))
  end.
(** 251-275 generate_circuit. *)
Definition fp_circuit (cs : list var) (pts : list (var * var * var)) : prog (list cmd) :=
  Const _ f0 (fun zero => fp_points zero cs pts).

End Model.
Arguments arith_row {P}. Arguments mul_comp {P}. Arguments add_comp {P}. Arguments sub_comp {P}.
Arguments Ret {P A}. Arguments Fail {P A}. Arguments Const {P A}. Arguments Op {P A}. Arguments bind {P A B}. Arguments exec {P} before comps from_circuit {A}.
Arguments ev_vars {P}. Arguments ev_term {P}. Arguments ev_pow {P}. Arguments ev {P}. Arguments fp_constraint {P}.
Arguments ev_opt {P}. Arguments fp_assign {P}. Arguments fp_points {P}. Arguments fp_circuit {P}.
