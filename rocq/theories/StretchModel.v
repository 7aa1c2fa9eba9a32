(** Model of the component stretcher, which rearranges the rows of a component
    into groups of columns: include/nil/blueprint/component_stretcher.hpp.

    The component is given by the circuit and the assignment its own generate
    functions leave in an empty circuit and assignment at row 0 ([tmp_circuit],
    [tmp_assignment]).  What the stretcher asks of the outer circuit is a list
    of commands as for every component. *)
From Coq Require Import ZArith String List Bool Lia.
From Verif Require Import Base Field Plonk AssignModel BuilderModel FinalizeModel ConnectModel PackModel.
Import ListNotations.
Open Scope Z_scope.

Section Model.
Context {P : params}.
Notation F := (F P).
Notation expr := (expr P).
Notation table := (table P).
Notation cmd := (cmd P).

(** ** Zones (component_stretcher.hpp:98-165) *)

(** 106-127: the variables of the last gate of a selector (108 starts the
    entry anew for every gate). *)
Definition range_of (gs : list (nat * list expr)) (sel : nat) : list var :=
  fold_left (fun acc g => if Nat.eqb (fst g) sel then flat_map evars (snd g) else acc) gs [].
Definition is_const (v : var) : bool := ctype_eqb (vty v) CConst.
(** 118-124: [island]. *)
Definition connects (vs : list var) (cst : bool) (rot : Z) : bool :=
  existsb (fun v => Bool.eqb (is_const v) cst && (vrot v =? rot)) vs.
(** 129-162: the joins for a row on which the selector is on.  Rows are
    [0..R), the zones of selectors follow, then the zone of constants. *)
Definition row_joins (R ng : Z) (vs : list var) (sel : nat) (i : Z) : list (Z * Z) :=
  let zs := R + Z.of_nat sel in let zc := R + ng in
  (if connects vs false (-1) then [(i - 1, i); (i - 1, zs)] else []) ++
  (if connects vs false 0 then [(i, zs)] else []) ++
  (if connects vs false 1 then [(i, i + 1); (i + 1, zs)] else []) ++
  (if connects vs true (-1) then [(i - 1, zc)] else []) ++
  (if connects vs true 0 then [(i, zc)] else []) ++
  (if connects vs true 1 then [(i + 1, zc)] else []).
(** [constant_priority]. *)
Definition row_prio (vs : list var) (i : Z) : list Z :=
  (if connects vs true (-1) then [i - 1] else []) ++
  (if connects vs true 0 then [i] else []) ++
  (if connects vs true 1 then [i + 1] else []).
Definition joins (c : cstate P) (s : astate P) (R : Z) : list (Z * Z) :=
  flat_map (fun g => flat_map (row_joins R (Z.of_nat (length (c_gates c))) (range_of (c_gates c) (fst g)) (fst g)) (enabled s (fst g) 0 R)) (c_gates c).
Definition prio (c : cstate P) (s : astate P) (R : Z) : list Z :=
  flat_map (fun g => flat_map (row_prio (range_of (c_gates c) (fst g))) (enabled s (fst g) 0 R)) (c_gates c).
(** 98-165 [generate_zones].  [None]: the assertion on rotations (119) fails,
    or an index is past the end of a container. *)
Definition stretch_zones (c : cstate P) (s : astate P) (R : Z) : option zones :=
  if forallb (fun g => forallb (fun v => (-1 <=? vrot v) && (vrot v <=? 1)) (flat_map evars (snd g))) (c_gates c)
     && forallb (fun i => (0 <=? i) && (i <? R)) (prio c s R)
  then unions (z_new (R + Z.of_nat (length (c_gates c)) + 1)) (joins c s R) else None.
(** 80-92 [count_zones]: the zones of the rows with their sizes, in the order of
    their first rows.  Simplification: the C++ map has no order of its own. *)
Definition zone_sizes (z : zones) (R : Z) : list task :=
  map (fun k => (k, Z.of_nat (length (filter (fun i => z_rep z i =? k) (zseq 0 R)))))
      (nodup Z.eq_dec (map (z_rep z) (zseq 0 R))).

(** ** Places (component_stretcher.hpp:202-275) *)

(** [zone_mapping] is [zmap]; a missing zone is created with group 0 by
    [operator[]]. *)
Definition pack_map (z : zones) (R coeff : Z) : option (Z -> Z) :=
  match huang_lu (zone_sizes z R) coeff with
  | Some m => Some (fun k => match m k with Some a => a | None => 0 end)
  | None => None
  end.

Section Place.
Variables (z : zones) (zmap : Z -> Z).
(** The group of columns of a row. *)
Definition group (i : Z) : Z := zmap (z_rep z i).
(** 226-236 [line_mapping]: the rows of the group before the row. *)
Definition line (i : Z) : Z := Z.of_nat (length (filter (fun j => group j =? group i) (zseq 0 i))).

(** 238-271: places of the constants in copy constraints. *)
Definition first_free (asg : Z -> bool) (R : Z) : option Z := find (fun k => negb (asg k)) (zseq 0 R).
Definition mark1 (asg : Z -> bool) (k : Z) : Z -> bool := fun x => (x =? k) || asg x.
Definition put (m : Z -> option Z) (k v : Z) : Z -> option Z := fun x => if x =? k then Some v else m x.
(** [None]: the search for a free place runs past the end, or the constant is
    not on a row of the component. *)
Fixpoint place_consts (R : Z) (asg : Z -> bool) (rm : Z -> option Z) (vs : list var) : option (Z -> option Z) :=
  match first_free asg R with
  | None => None
  | Some f =>
      match vs with
      | [] => Some rm
      | v :: vs' =>
          if (0 <=? vrot v) && (vrot v <? R) then
            let p := if asg (line (vrot v)) then f else line (vrot v) in
            place_consts R (mark1 asg p) (put rm (vrot v) p) vs'
          else None
      end
  end.
(** 232-234: lines taken by the constants of gates. *)
Definition taken (pr : list Z) : Z -> bool := fun k => existsb (fun i => line i =? k) pr.

(** ** Moving (component_stretcher.hpp:277-442) *)

Variables (W R ng start : Z) (ins : list var).
(** [input_type_converter::deconvert_var], e.g. sha256.hpp:541-545. *)
Definition deconvert_var (v : var) : option var :=
  if 0 <=? vrot v then nth_error ins (Z.to_nat (vrot v)) else None.
(** 277-309 [move_var]. *)
Definition move_var (old : var) (rot : Z) : option var :=
  match vty old with
  | CConst => Some (mkVar (vidx old) rot (vrel old) CConst)
  | CPub => deconvert_var old
  | CWit => if negb (vrel old) && z_in z (vrot old) then Some (mkVar (group (vrot old) * W + vidx old) rot false CWit) else None
  | CSel => None
  end.
(** 311-341 [move_gate_var]. *)
Definition move_gate_var (sel : nat) (old : var) : var :=
  match vty old with
  | CWit => mkVar (group (R + Z.of_nat sel) * W + vidx old) (vrot old) (vrel old) CWit
  | _ => old
  end.
(** 355-366 and 367-375: the gates with the rows on which they are on.  The
    entry of [gate_mapping] belongs to the last gate of a selector. *)
Definition move_gates (gs : list (nat * list expr)) (s : astate P) : list cmd :=
  map (fun kg =>
         let '(k, (sel, cs)) := kg in
         Gate (map (move (move_gate_var sel)) cs)
              (if existsb (fun g => Nat.eqb (fst g) sel) (skipn (S k) gs) then []
               else map (fun i => start + line i) (enabled s sel 0 R)))
      (combine (seq 0 (length gs)) gs).
(** 376-392. *)
Definition move_consts (s : astate P) (rm : Z -> option Z) (pr : list Z) : list cmd :=
  match a_const s with
  | (_ :: _) :: _ =>
      flat_map (fun i => flat_map (fun ccol => let '(c, col) := ccol in
          match nth_error col (Z.to_nat i) with
          | None => []
          | Some v => match rm i with
                      | Some p => [SetConst (Z.of_nat c) (start + p) v]
                      | None => if existsb (Z.eqb i) pr then [SetConst (Z.of_nat c) (start + line i) v] else []
                      end
          end) (combine (seq 0 (length (a_const s))) (a_const s))) (zseq 0 R)
  | _ => []
  end.
(** 393-418.  Simplification: [line_mapping] is read past its end for a public
    input whose row is not below [R]; the value is not used. *)
Definition move_copied (rm : Z -> option Z) (v : var) : option var :=
  move_var v (start + match vty v, rm (vrot v) with CConst, Some p => p | _, _ => line (vrot v) end).
Fixpoint move_copies (rm : Z -> option Z) (l : list (var * var)) : option (list cmd) :=
  match l with
  | [] => Some []
  | (a, b) :: l =>
      match move_copied rm a, move_copied rm b, move_copies rm l with
      | Some a', Some b', Some r => Some (Copy a' b' :: r)
      | _, _, _ => None
      end
  end.
(** 343-419 [move_circuit].  Lookup gates are not visited. *)
Definition move_circuit (c : cstate P) (s : astate P) (rm : Z -> option Z) : option (list cmd) :=
  match move_copies rm (c_copies c) with
  | Some cp => Some (move_gates (c_gates c) s ++ move_consts s rm (prio c s R) ++ cp)
  | None => None
  end.
(** 421-442 [move_assignment]. *)
Definition move_assignment (s : astate P) (T : table) : table :=
  fold_left (fun T i => fold_left (fun T w =>
      match nth_error (a_wit s) (Z.to_nat w) with
      | Some col => match nth_error col (Z.to_nat i) with
                    | Some v => wset T (w + W * group i) (start + line i) v
                    | None => T
                    end
      | None => T
      end) (zseq 0 W) T) (zseq 0 R) T.
(** [result_type_converter], e.g. sha256.hpp:556-572. *)
Definition move_result (v : var) : option var := move_var v (start + line (vrot v)).
End Place.

(** ** The stretched component (component_stretcher.hpp:202-275, 452-515) *)

(** The original component: its rows and what its [generate_circuit] leaves in
    an empty circuit and assignment for given inputs. *)
Record inner := mkInner { n_rows : Z; n_circuit : list var -> cstate P * astate P }.
(** [input_type_converter::convert], e.g. sha256.hpp:523-539: the inputs become
    the first public inputs. *)
Definition converted (n : nat) : list var := map (fun k => mkVar 0 (Z.of_nat k) false CPub) (seq 0 n).
(** The layout: zones, groups and places of constants, computed with the
    converted input (202-275).  [cvs]: the set of constants in copy constraints
    in the order of [std::set], left open.  [None]: an index past the end of a
    container, among them [zone_rows] (226), which has an entry per zone. *)
Definition layout (I : inner) (n : nat) (zmap : zones -> Z -> Z) (cvs : list var) : option (zones * (Z -> option Z)) :=
  let '(c, s) := n_circuit I (converted n) in
  match stretch_zones c s (n_rows I) with
  | None => None
  | Some z =>
      if forallb (fun i => (0 <=? group z (zmap z) i) && (group z (zmap z) i <? Z.of_nat (length (zone_sizes z (n_rows I))))) (zseq 0 (n_rows I)) then
        match place_consts z (zmap z) (n_rows I) (taken z (zmap z) (prio c s (n_rows I))) (fun _ => None) cvs with
        | Some rm => Some (z, rm)
        | None => None
        end
      else None
  end.
(** 452-480 [generate_circuit]: 474-475 generates the circuit with the given
    input, not the converted one. *)
Definition stretch_circuit (I : inner) (W : Z) (zmap : zones -> Z -> Z) (cvs : list var) (ins : list var) (start : Z) : option (list cmd) :=
  match layout I (length ins) zmap cvs with
  | None => None
  | Some (z, rm) => let '(c, s) := n_circuit I ins in move_circuit z (zmap z) W (n_rows I) start ins c s rm
  end.
(** 482-515 [generate_assignments]; [s] is the assignment of the original
    component for the converted input, with its public inputs set to the values
    of the inputs. *)
Definition stretch_assignment (I : inner) (W : Z) (zmap : zones -> Z -> Z) (cvs : list var) (ins : list var) (start : Z) (s : astate P) (T : table) : option table :=
  match layout I (length ins) zmap cvs with
  | None => None
  | Some (z, rm) => Some (move_assignment z (zmap z) W (n_rows I) start s T)
  end.
(** 272-273 [rows_amount]. *)
Definition stretch_rows (I : inner) (n : nat) : option Z :=
  let '(c, s) := n_circuit I (converted n) in
  match stretch_zones c s (n_rows I) with
  | Some z => Some (fold_left (fun m t => Z.max m (snd t)) (zone_sizes z (n_rows I)) 0)
  | None => None
  end.
End Model.
Arguments inner P : clear implicits.
