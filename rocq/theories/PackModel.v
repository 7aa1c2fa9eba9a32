(** Model of detail/huang_lu.hpp (include/nil/blueprint/), the packing heuristic
    the component stretcher uses to spread row zones over column groups.
    [std::size_t] is modelled as unbounded integers. *)
From Coq Require Import ZArith List Lia Bool.
From Verif Require Import Base.
Import ListNotations.
Open Scope Z_scope.

(** A task: key and size (huang_lu.hpp:37). *)
Definition task := (Z * Z)%type.
(** [unordered_map] from keys to agents. *)
Definition amap := Z -> option Z.
Definition aempty : amap := fun _ => None.
Definition aput (m : amap) (k a : Z) : amap := fun k' => if k' =? k then Some a else m k'.

(** huang_lu.hpp:39-44: stable descending sort by size. *)
Fixpoint tinsert (x : task) (l : list task) : list task :=
  match l with
  | [] => [x]
  | y :: l' => if snd x >? snd y then x :: l else y :: tinsert x l'
  end.
Definition tsort (l : list task) : list task := fold_left (fun acc x => tinsert x acc) l [].

(** huang_lu.hpp:62-74: one agent walks over the remaining tasks and takes
    whatever still fits. *)
Fixpoint take (thr agent cur : Z) (asg : amap) (rem : list task) : amap * Z * list task :=
  match rem with
  | [] => (asg, cur, [])
  | (k, s) :: rem' =>
    if cur + s <=? thr then take thr agent (cur + s) (aput asg k agent) rem'
    else let '(asg', cur', rest) := take thr agent cur asg rem' in (asg', cur', (k, s) :: rest)
  end.
(** huang_lu.hpp:61-78: the agents in order; stop at an empty bundle. *)
Fixpoint agents (n : nat) (i thr : Z) (asg : amap) (rem : list task) : amap * list task :=
  match n with
  | O => (asg, rem)
  | S n' => let '(asg', cur, rest) := take thr i 0 asg rem in
            if cur =? 0 then (asg', rest) else agents n' (i + 1) thr asg' rest
  end.
(** huang_lu.hpp:57-89: binary search for the threshold.  [assignment] is not
    cleared between rounds.  [fuel] bounds the loop; [None]: not finished. *)
Fixpoint search (fuel : nat) (tasks : list task) (m left right : Z) (best asg : amap) : option amap :=
  match fuel with
  | O => None
  | S fuel' =>
    if left <? right then
      let thr := left + (right - left) / 2 in
      let '(asg', rest) := agents (Z.to_nat m) 0 thr asg tasks in
      match rest with
      | [] => if thr =? left then Some asg' else search fuel' tasks m left thr asg' asg'
      | _ => search fuel' tasks m (thr + 1) right best asg'
      end
    else Some best
  end.
(** huang_lu.hpp:45-54. *)
Definition tsum (l : list task) : Z := fold_left (fun acc x => acc + snd x) l 0.
Definition tmax (l : list task) : Z := fold_left (fun acc x => Z.max acc (snd x)) l 0.
Definition lower (l : list task) (m : Z) : Z := Z.max ((tsum l + m - 1) / m) (tmax l).
(** huang_lu.hpp:36-91.  [m = 0] divides by zero: [None]. *)
Definition huang_lu (sizes : list task) (m : Z) : option amap :=
  if m =? 0 then None else
  let tasks := tsort sizes in
  let left := lower tasks m in
  search (S (Z.to_nat left)) tasks m left (2 * left) aempty aempty.
