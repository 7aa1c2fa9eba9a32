(** Model of manifest.hpp (include/nil/blueprint/): the sets of column amounts a
    component accepts.  uint32_t/int32_t are modelled as unbounded integers, so
    the statements concern amounts small enough not to wrap around. *)
From Coq Require Import ZArith List Lia Bool.
From Verif Require Import Base.
Import ListNotations.
Open Scope Z_scope.

(** manifest.hpp:276-511: the four kinds of parameters.  A set is the ascending
    list of its elements. *)
Inductive mparam :=
  | MUnsat
  | MVal (v : Z)
  | MRange (start finish step : Z)
  | MSet (l : list Z).

(** std::set::insert, find, lower_bound. *)
Fixpoint sinsert (x : Z) (l : list Z) : list Z :=
  match l with
  | [] => [x]
  | y :: l' => if x <? y then x :: l else if x =? y then l else y :: sinsert x l'
  end.
Definition smem (x : Z) (l : list Z) : bool := existsb (Z.eqb x) l.
Definition sof (l : list Z) : list Z := fold_left (fun acc x => sinsert x acc) l [].
Fixpoint slower (x : Z) (l : list Z) : list Z :=
  match l with [] => [] | y :: l' => if y <? x then slower x l' else l end.

(** is_satisfiable: 284-286, 342-344, 403-405, 468-470. *)
Definition msat (p : mparam) : bool :=
  match p with
  | MUnsat => false
  | MVal _ => true
  | MRange s f st => (s <? f) && (s mod st <=? Z.abs (s - f))
  | MSet l => negb (Nat.eqb (length l) 0)
  end.
(** check_manifest_param: 280-282, 334-340, 407-414, 460-466. *)
Definition mcheck (p : mparam) (strict : bool) (v : Z) : bool :=
  match p with
  | MUnsat => false
  | MVal x => if strict then x =? v else x <=? v
  | MRange s f st =>
    if strict then (s <=? v) && (v <? f) && ((v - s) mod st =? 0) else (s <=? v) && msat p
  | MSet l => if strict then smem v l else negb (Nat.eqb (length (slower v l)) 0)
  end.
(** max_value_if_sat: 313-315, 377-379, 434-436, 507-509; [None]: dereferences
    an iterator of an empty set. *)
Definition mmax (p : mparam) : option Z :=
  match p with
  | MUnsat => Some 0
  | MVal v => Some v
  | MRange s f st => Some (f - (if f mod st =? 0 then st else f mod st))
  | MSet l => match l with [] => None | _ => Some (last l 0) end
  end.

(** The end of manifest_range_param::intersect: what the new bounds amount to, 749-755. *)
Definition build (ns nf nst : Z) : mparam :=
  if ns >=? nf then MUnsat else if ns =? nf - 1 then MVal ns else MRange ns nf nst.
Section Intersect.
(** boost::integer::extended_euclidean: gcd and Bezout coefficients. *)
Variable egcd : Z -> Z -> Z * Z * Z.
(** manifest_range_param::intersect with a range, 721-748.  [/] and [%] on
    signed operands truncate. *)
Definition range_intersect (s f st s' f' st' : Z) : mparam :=
  if negb (msat (MRange s f st)) || negb (msat (MRange s' f' st')) then MUnsat else
  if st =? st' then build (Z.max s s') (Z.min f f') st
  else
    let '(g, m, n) := egcd st st' in
    if negb (Z.rem s g =? Z.rem s' g) then MUnsat else
    let nst := st * (st' / g) in
    let md := Z.rem (nst + Z.rem (Z.quot (s' * st * m + s * st' * n) g) nst) nst in
    let ns := Z.max s s' in
    build (ns + Z.rem (nst + Z.rem (md - ns) nst) nst) (Z.min f f') nst.
(** intersect: 288-290, 346-352, 709-768, 843-884. *)
Definition mintersect (p q : mparam) : mparam :=
  let set_or_unsat l := match l with [] => MUnsat | _ => MSet l end in
  match p, q with
  | MUnsat, _ => MUnsat
  | MVal v, _ => if mcheck q true v then MVal v else MUnsat
  | MRange _ _ _, MUnsat => MUnsat
  | MRange _ _ _, MVal v => if mcheck p true v then q else MUnsat
  | MRange s f st, MRange s' f' st' => range_intersect s f st s' f' st'
  | MRange _ _ _, MSet l => MSet (sof (filter (mcheck p true) l))
  | MSet _, MUnsat => MUnsat
  | MSet _, MVal v => if mcheck p true v then q else MUnsat
  | MSet l, MRange _ _ _ => set_or_unsat (sof (filter (mcheck q true) l))
  | MSet _, MSet l' => set_or_unsat (sof (filter (mcheck p true) l'))
  end.
End Intersect.

(** The values start, start + step, ... below finish (loop at 825-829). *)
Fixpoint steps (n : nat) (v f st : Z) : list Z :=
  match n with
  | O => []
  | S n' => if v <? f then v :: steps n' (v + st) f st else []
  end.
Definition range_values (v f st : Z) : list Z := steps (Z.to_nat (f - v)) v f st.

(** manifest_range_param::subtract, 770-841. *)
Fixpoint contig (l : list Z) (cur d : Z) : Z * bool :=
  match l with
  | [] => (cur, true)
  | x :: l' => if x =? cur then contig l' (cur + d) d else (cur, false)
  end.
Definition range_subtract (s f st : Z) (vs : list Z) : mparam :=
  match sof (filter (mcheck (MRange s f st) true) vs) with
  | [] => MRange s f st
  | fs =>
    let '(cur, all) := contig fs s st in
    if all then (if cur <? f then MRange cur f st else MUnsat) else
    let '(cur, all) := contig (rev fs) (f - f mod st) (- st) in
    if all then (if cur >? s then MRange s cur st else if cur =? s then MVal s else MUnsat) else
    match sof (filter (fun v => negb (smem v fs)) (range_values s f st)) with
    | [] => MUnsat
    | [x] => MVal x
    | l => MSet l
    end
  end.
(** subtract: 292-294, 354-360, 473-482. *)
Definition msubtract (p : mparam) (vs : list Z) : mparam :=
  match p with
  | MUnsat => MUnsat
  | MVal v => if smem v vs then MUnsat else MVal v
  | MRange s f st => range_subtract s f st vs
  | MSet l => match filter (fun v => negb (smem v vs)) l with [] => MUnsat | l' => MSet l' end
  end.

(** merge_with: 296-298, 540-577 (value), 579-634 (set), 636-707 (range).
    [None]: dereferences the end iterator of a set. *)
Definition round_up (v st : Z) : Z := v + (st - v mod st) mod st.
Definition merge_val_range (v s f st : Z) : mparam :=
  let ns := Z.max (round_up v st) s in
  if ns <? f then MRange ns f st else MVal v.
Definition merge_val_set (v : Z) (l : list Z) : mparam :=
  match slower v l with [] => MSet [v] | l' => MSet l' end.
Definition merge_set_range (l : list Z) (s f st : Z) : option mparam :=
  match slower s l with
  | [] => None
  | x :: _ =>
    let ns := Z.max x s in
    Some (MSet (sof (ns :: slower ns l ++ range_values (round_up ns st) f st)))
  end.
Definition mmerge (p q : mparam) : option mparam :=
  match p, q with
  | MUnsat, _ => Some MUnsat
  | _, MUnsat => Some MUnsat
  | MVal v, MVal v' => Some (MVal (Z.max v v'))
  | MVal v, MSet l => Some (merge_val_set v l)
  | MVal v, MRange s f st => Some (merge_val_range v s f st)
  | MSet l, MVal v => Some (merge_val_set v l)
  | MSet l, MSet l' =>
    match l, l' with
    | x :: _, x' :: _ => let m := Z.max x x' in
      match sof (slower m l ++ slower m l') with [] => Some MUnsat | r => Some (MSet r) end
    | _, _ => Some MUnsat
    end
  | MSet l, MRange s f st => merge_set_range l s f st
  | MRange s f st, MVal v => Some (merge_val_range v s f st)
  | MRange s f st, MSet l => merge_set_range l s f st
  | MRange s f st, MRange s' f' st' =>
    let ns := Z.max s s' in
    if st =? st' then
      let nf := Z.max f f' in if ns <? nf then Some (MRange ns nf st) else Some (MVal ns)
    else if ns >=? f' then Some (MRange s f st)
    else if ns >=? f then Some (MRange s' f' st')
    else Some (MSet (sof (ns :: filter (fun v => ns <? v) (range_values s f st ++ range_values s' f' st'))))
  end.

(** manifest_constant_type (127-165, 1002-1013). *)
Inductive mconst := CNone | CUnsat | CRequired.
Definition cmerge (a b : mconst) : mconst :=
  match a, b with
  | CUnsat, _ | _, CUnsat => CUnsat
  | CRequired, _ | _, CRequired => CRequired
  | _, _ => CNone
  end.
Definition cintersect (a : mconst) (has : bool) : mconst :=
  match a with CUnsat => CUnsat | CRequired => if has then CRequired else CUnsat | CNone => CNone end.

(** plonk_component_manifest (891-952). *)
Record cmanifest := mkM { mw : mparam; mc : mconst }.
Definition m_check (m : cmanifest) (w consts : Z) (strict : bool) : bool :=
  mcheck (mw m) strict w &&
  match mc m with CUnsat => false | CRequired => negb (consts =? 0) | CNone => true end.
Definition m_merge (a b : cmanifest) : option cmanifest :=
  match mmerge (mw a) (mw b) with Some w => Some (mkM w (cmerge (mc a) (mc b))) | None => None end.
Definition m_sat (m : cmanifest) : bool := msat (mw m) && match mc m with CUnsat => false | _ => true end.
(** compiler_manifest (961-1000): constructor, set_max_witness_amount, intersect. *)
Record compm := mkCM { cw : mparam; chas : bool }.
Definition comp_new (max : Z) (has : bool) : compm := mkCM (MRange 0 (max + 1) 1) has.
Definition comp_set_max (m : compm) (max : Z) : compm := mkCM (MRange 0 max 1) (chas m).
Definition comp_intersect (egcd : Z -> Z -> Z * Z * Z) (k : compm) (m : cmanifest) : cmanifest :=
  mkM (mintersect egcd (mw m) (cw k)) (cintersect (mc m) (chas k)).
