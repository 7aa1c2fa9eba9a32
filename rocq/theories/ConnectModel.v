(** Model of the connectedness check run on every component under test:
    include/nil/blueprint/utils/connectedness_check.hpp. *)
From Coq Require Import ZArith List Lia Bool.
From Verif Require Import Base Field Plonk AssignModel BuilderModel FinalizeModel.
Import ListNotations.
Open Scope Z_scope.

(** [boost::disjoint_sets_with_storage]: the number of elements and the
    representative of each.  Ranks and path compression only change which
    element represents a set, and the check compares representatives only. *)
Record zones := mkZ { z_size : Z; z_rep : Z -> Z }.
Definition z_new (n : Z) : zones := mkZ n (fun a => a).
Definition z_in (z : zones) (a : Z) : bool := (0 <=? a) && (a <? z_size z).
(** [None]: an address past the end of the storage (undefined behaviour). *)
Definition find_set (z : zones) (a : Z) : option Z := if z_in z a then Some (z_rep z a) else None.
Definition union_set (z : zones) (a b : Z) : option zones :=
  if z_in z a && z_in z b then
    let ra := z_rep z a in let rb := z_rep z b in
    Some (mkZ (z_size z) (fun x => let rx := z_rep z x in if rx =? ra then rb else rx))
  else None.
Fixpoint unions (z : zones) (l : list (Z * Z)) : option zones :=
  match l with
  | [] => Some z
  | (a, b) :: l => match union_set z a b with Some z' => unions z' l | None => None end
  end.

Section Model.
Variable P : params.
Notation F := (F P).

(** connectedness_check.hpp:51-70.  Addresses are [std::size_t]: a negative
    one is a number past every storage. *)
Definition copy_var_address (row_size start rows : Z) (v : var) : Z :=
  match vty v with
  | CPub => row_size * rows + vrot v
  | CWit => (vrot v - start) * row_size + vidx v
  | _ => (vrot v - start) * row_size + row_size - 1
  end.
(** connectedness_check.hpp:213-220, 306-313. *)
Definition gate_var_address (row_size start row : Z) (v : var) : Z :=
  match vty v with
  | CWit => (row - start + vrot v) * row_size + vidx v
  | _ => (row - start + vrot v) * row_size + row_size - 1
  end.
(** 209, 294, 461. *)
Definition row_size (s : astate P) : Z := Z.of_nat (length (a_wit s)) + Z.of_nat (length (a_const s)).

(** connectedness_check.hpp:158-161, 184-187: rows of the range on which the
    selector is not zero. *)
Definition enabled (s : astate P) (sel : nat) (start rows : Z) : list Z :=
  let col := match nth_error (a_sel s) sel with Some c => c | None => [] end in
  filter (fun r => negb (feqb (nth (Z.to_nat r) col f0) f0))
         (map (fun k => start + Z.of_nat k) (seq 0 (Z.to_nat (Z.min (start + rows) (Z.of_nat (length col)) - start)))).
(** Selectors with the variables of their gate, 222-248, 315-345.  The set of
    variables is a list here, in the order of the visitor and with
    repetitions: the sets joined do not depend on that. *)
Definition var_sets (c : cstate P) : list (nat * list var) :=
  map (fun g => (fst g, flat_map evars (snd g))) (c_gates c) ++
  map (fun g => (fst g, flat_map (fun l => flat_map evars (snd l)) (snd g))) (c_lgates c).
(** 145-168 [mark_set]. *)
Definition mark_set (s : astate P) (start rows : Z) (g : nat * list var) : list (Z * Z) :=
  flat_map (fun row => map (fun v => (gate_var_address (row_size s) start row v,
                                      gate_var_address (row_size s) start row (hd v (snd g)))) (snd g))
           (enabled s (fst g) start rows).
(** 199-256 [generate_connectedness_zones]. *)
Definition generate_zones (c : cstate P) (s : astate P) (inputs : list var) (start rows : Z) : option zones :=
  unions (z_new (row_size s * rows + Z.of_nat (length inputs)))
    (flat_map (mark_set s start rows) (var_sets c) ++
     map (fun ab => (copy_var_address (row_size s) start rows (fst ab), copy_var_address (row_size s) start rows (snd ab))) (c_copies c)).

Definition finds (z : zones) (l : list Z) : option (list Z) :=
  fold_right (fun a acc => match find_set z a, acc with Some r, Some t => Some (r :: t) | _, _ => None end) (Some []) l.
Definition inb (x : Z) (l : list Z) : bool := existsb (Z.eqb x) l.
(** Each of the addresses is in one of the zones; the first that is not, or is
    past the end, decides. *)
Definition all_in (z : zones) (expected l : list Z) : option bool :=
  all_ok (map (fun a => match find_set z a with Some r => Some (inb r expected) | None => None end) l).
Definition and_then (a b : option bool) : option bool := match a with Some true => b | _ => a end.

(** 279-357 [check_islands], with 170-197 [check_set]. *)
Definition check_islands (c : cstate P) (s : astate P) (z : zones) (inputs outputs : list var) (start rows : Z) : option bool :=
  let ad := copy_var_address (row_size s) start rows in
  match finds z (map ad (inputs ++ outputs)) with
  | None => None
  | Some expected =>
      all_in z expected
        (flat_map (fun g => flat_map (fun row => map (gate_var_address (row_size s) start row) (snd g)) (enabled s (fst g) start rows)) (var_sets c) ++
         flat_map (fun ab => [ad (fst ab); ad (snd ab)]) (c_copies c))
  end.
(** 365-392.  [None] without inputs: [input_variables[0]]. *)
Definition check_strong (z : zones) (inputs outputs : list var) (rs start rows : Z) : option bool :=
  let ad := copy_var_address rs start rows in
  match inputs with
  | [] => None
  | i0 :: _ => match find_set z (ad i0) with Some e => all_in z [e] (map ad (inputs ++ outputs)) | None => None end
  end.
(** 399-443. *)
Definition check_weak (z : zones) (inputs outputs : list var) (rs start rows : Z) : option bool :=
  let ad := copy_var_address rs start rows in
  match finds z (map ad inputs) with
  | None => None
  | Some ei =>
      and_then (all_in z ei (map ad outputs))
        (match finds z (map ad outputs) with None => None | Some eo => all_in z eo (map ad inputs) end)
  end.

(** 260-274. *)
Inductive ckind := KNone | KWeak | KStrong.
(** 445-485. *)
Definition check_connectedness (c : cstate P) (s : astate P) (inputs outputs : list var) (start rows : Z) (t : ckind) (islands : bool) : option bool :=
  match t with
  | KNone => Some true
  | _ =>
      match generate_zones c s inputs start rows with
      | None => None
      | Some z =>
          let r := match t with
                   | KWeak => check_weak z inputs outputs (row_size s) start rows
                   | _ => check_strong z inputs outputs (row_size s) start rows
                   end in
          if islands then and_then r (check_islands c s z inputs outputs start rows) else r
      end
  end.
End Model.
Arguments row_size {P}. Arguments enabled {P}. Arguments var_sets {P}. Arguments mark_set {P}. Arguments generate_zones {P}.
Arguments check_islands {P}. Arguments check_connectedness {P}.
