(** What the Placeholder argument verifiers are to compute, stated on field
    values alone. *)
From Coq Require Import ZArith List.
From Verif Require Import Base Field.
Import ListNotations.

Section PvSpec.
Variable P : params.
Notation F := (F P).
Local Open Scope F_scope.

(** [th^k * x_0 + th^(k+1) * x_1 + ...]. *)
Fixpoint theta_sum (th : F) (k : nat) (l : list F) : F :=
  match l with [] => f0 | x :: l' => fpow th k * x + theta_sum th (S k) l' end.

(** Products and sums of lists. *)
Definition list_prod (l : list F) : F := fold_right (fun x y => x * y) f1 l.
Definition list_sum (l : list F) : F := fold_right (fun x y => x + y) f0 l.

(** Gates with their selectors: [theta^k] runs over all the constraints of all
    the gates. *)
Fixpoint gates_sum (th : F) (k : nat) (gates : list (F * list F)) : F :=
  match gates with
  | [] => f0
  | (q, cs) :: gs => q * theta_sum th k cs + gates_sum th (k + length cs) gs
  end.

(** The permutation argument: the product of [f_i + th1 * s_i + th2]. *)
Definition perm_prod (th1 th2 : F) (l : list (F * F)) : F :=
  list_prod (map (fun fs => fst fs + th1 * snd fs + th2) l).
(** The lookup argument: the product of [(1 + beta) * gamma + s_i + beta * t_i]. *)
Definition plookup_prod (beta gamma : F) (l : list (F * F)) : F :=
  list_prod (map (fun st => (f1 + beta) * gamma + fst st + beta * snd st) l).
(** The sum of [alpha_i * (s_i - t_i)]. *)
Definition weighted_diff (l : list (F * (F * F))) : F :=
  list_sum (map (fun x => fst x * (fst (snd x) - snd (snd x))) l).

End PvSpec.
Arguments theta_sum {P}. Arguments list_prod {P}. Arguments list_sum {P}. Arguments gates_sum {P}.
Arguments perm_prod {P}. Arguments plookup_prod {P}. Arguments weighted_diff {P}.

Section LookupSpec.
Variable P : params.
Notation F := (F P).
Local Open Scope F_scope.

(** The rows of the lookup tables: selector and options of each table; tables
    are numbered from [k]. *)
Fixpoint table_vals (th mask : F) (k : Z) (tabs : list (F * list (list F))) : list F :=
  match tabs with
  | [] => []
  | (q, opts) :: ts => map (fun o => q * theta_sum th 0 (ofZ k :: o) * mask) opts ++ table_vals th mask (k + 1)%Z ts
  end.
(** The looked-up expressions: selector, and table number and inputs of each
    constraint. *)
Definition gate_vals (th : F) (gates : list (F * list (F * list F))) : list F :=
  flat_map (fun g => map (fun k => fst g * theta_sum th 0 (fst k :: snd k)) (snd g)) gates.
End LookupSpec.
Arguments table_vals {P}. Arguments gate_vals {P}.
