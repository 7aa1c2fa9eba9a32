(** Model of the zkEVM circuit (include/nil/blueprint/zkevm/): state_selector.hpp,
    zkevm_word.hpp, stack.hpp, state.hpp, zkevm_circuit.hpp and the operations
    add_sub.hpp, iszero.hpp, mul.hpp, div.hpp.

    Simplifications: rows are unbounded integers (no wrap-around at the end of
    the table); the columns are numbered as the constructor allocates them in an
    assignment table that already has enough witness columns; machine words are
    integers in [0, 2^256). *)
From Coq Require Import ZArith List Lia Bool.
From Verif Require Import Base Field Plonk Bits CompareModel.
Import ListNotations.
Open Scope Z_scope.

(** ** state_selector.hpp *)

(** state_selector.hpp:81-89 and 119: number of columns for [n] options. *)
Definition ss_w (n : Z) : Z := (n + 1) / 2 + 2.

(** zkevm_opcodes.hpp:211-213: number of opcodes in the table (217-366). *)
Definition n_opcodes : Z := 149.
(** zkevm_circuit.hpp:331. *)
Definition max_height : Z := 20.

(** ** Columns, in the order in which the constructor allocates them
    (zkevm_circuit.hpp:238-253, 314-336). *)
Definition col_pc : Z := 0.
Definition col_stack : Z := 1.
Definition col_mem : Z := 2.
Definition col_gas : Z := 3.
Definition col_rem : Z := 4.
Definition col_inv : Z := 5.
Definition col_step : Z := 6.
Definition sel_col (i : Z) : Z := 7 + i.
Definition op_col (i : Z) : Z := 7 + ss_w n_opcodes + i.
Definition row_col (i : Z) : Z := 7 + ss_w n_opcodes + 64 + i.

(** zkevm_circuit.hpp:297-303: the implemented opcodes. *)
Inductive opcode := ADD | MUL | SUB | DIV | ISZERO.
(** Iteration order of [std::map<zkevm_opcode, ...>]: enumeration order,
    zkevm_opcodes.hpp:34-52. *)
Definition all_ops : list opcode := [ADD; MUL; SUB; DIV; ISZERO].
(** zkevm_opcodes.hpp:220-236 [get_opcode_value]. *)
Definition byte (o : opcode) : Z :=
  match o with ADD => 1 | MUL => 2 | SUB => 3 | DIV => 4 | ISZERO => 21 end.
(** add_sub.hpp:164-166, mul.hpp:203-205, div.hpp:303-305, iszero.hpp:101-103. *)
Definition height (o : opcode) : Z :=
  match o with ADD | SUB | MUL => 3 | DIV => 4 | ISZERO => 1 end.

(** zkevm_word.hpp:57-73 [zkevm_word_to_field_element], as integers. *)
Definition chunk (w i : Z) : Z := Z.land (Z.shiftr w (16 * i)) (2 ^ 16 - 1).

(** ** Templates shared by constraint construction and witness computation:
    mul.hpp:56-84, div.hpp:57-86. *)
Section Limbs.
Variable A : Type.
Variables add sub mul : A -> A -> A.
Variable k : Z -> A.

(** mul.hpp:56-61, div.hpp:57-62. *)
Definition sum64 (ch : Z -> A) (i : Z) : A :=
  add (add (add (ch (4 * i)) (mul (ch (4 * i + 1)) (k (2 ^ 16))))
           (mul (ch (4 * i + 2)) (k (2 ^ 32)))) (mul (ch (4 * i + 3)) (k (2 ^ 48))).

(** mul.hpp:63-72. *)
Definition mul_first (a b r : Z -> A) : A :=
  sub (sub (add (mul (a 0) (b 0))
                (mul (k (2 ^ 64)) (add (mul (a 0) (b 1)) (mul (a 1) (b 0)))))
           (r 0)) (mul (k (2 ^ 64)) (r 1)).

(** mul.hpp:74-84. *)
Definition mul_second (a b r : Z -> A) : A :=
  add (sub (add (add (mul (a 0) (b 2)) (mul (a 1) (b 1))) (mul (a 2) (b 0))) (r 2))
      (mul (k (2 ^ 64))
           (sub (add (add (add (mul (a 0) (b 3)) (mul (a 1) (b 2))) (mul (a 2) (b 1)))
                     (mul (a 3) (b 0))) (r 3))).

(** div.hpp:64-73. *)
Definition div_first (a b r q : Z -> A) : A :=
  sub (sub (add (add (mul (r 0) (b 0)) (q 0))
                (mul (k (2 ^ 64)) (add (add (mul (r 0) (b 1)) (mul (r 1) (b 0))) (q 1))))
           (a 0)) (mul (k (2 ^ 64)) (a 1)).

(** div.hpp:75-86. *)
Definition div_second (a b r q : Z -> A) : A :=
  add (sub (add (add (add (mul (r 0) (b 2)) (mul (r 1) (b 1))) (mul (r 2) (b 0))) (q 2)) (a 2))
      (mul (k (2 ^ 64))
           (sub (add (add (add (add (mul (r 0) (b 3)) (mul (r 1) (b 2))) (mul (r 2) (b 1)))
                          (mul (r 3) (b 0))) (q 3)) (a 3))).
End Limbs.
Arguments sum64 {A}. Arguments mul_first {A}. Arguments mul_second {A}.
Arguments div_first {A}. Arguments div_second {A}.

Section Model.
Variable P : params.
Notation F := (F P).
Notation table := (table P).
Notation cmd := (cmd P).
Notation expr := (expr P).
Local Open Scope E_scope.

Definition esum (es : list expr) : expr := fold_left (EBin OAdd) es ($0).

(** *** state_selector.hpp:145-174 [generate_constraints], on columns [col 0],
    [col 1], ... *)
Definition ss_constraints (col : Z -> Z) (n : Z) : list expr :=
  let w := ss_w n in
  let v := fun i => evar (wv (col i) 0) in
  map (fun i => v i * (v i - $1)) (zseq 1 (w - 1)) ++
  [ esum (map v (zseq 1 (w - 1))) - $1;
    esum (map (fun i => ETerm (ofZ (2 * (i - 1))) [wv (col i) 0]) (zseq 1 (w - 1)))
      + v (w - 1)%Z - v 0;
    v (w - 1)%Z * (v (w - 1)%Z - $1) ] ++
  (if n mod 2 =? 0 then [] else [v (w - 2)%Z * v (w - 1)%Z]).

(** state_selector.hpp:176-185 [option_constraint]. *)
Definition ss_option (col : Z -> Z) (n o : Z) : expr :=
  if o mod 2 =? 0 then #(wv (col (o / 2 + 1)%Z) 0) * (#(wv (col (ss_w n - 1)%Z) 0) - $1)
  else #(wv (col (o / 2 + 1)%Z) 0) * #(wv (col (ss_w n - 1)%Z) 0).

(** state_selector.hpp:197-224 [generate_assignments]; [idx] is the value read
    from the input variable. *)
Definition ss_assign (col : Z -> Z) (n : Z) (idx : F) (row : Z) (T : table) : table :=
  let w := ss_w n in
  let T1 := wset T (col 0) row idx in
  let T2 := wsets T1 (map (fun i => (col i, row, f0)) (zseq 1 (w - 1))) in
  let T3 := wset T2 (col (Z.shiftr (fval idx) 1 + 1)%Z) row f1 in
  wset T3 (col (w - 1)%Z) row (ofZ (Z.land (fval idx) 1)).

(** state_selector.hpp:226-236 and 256-272: the gate is enabled on the row;
    [generate_copy_constraints] (238-254) is never called. *)
Definition ss_circuit (c : comp) (n : Z) (x : var) (row : Z) : list cmd :=
  [Gate (ss_constraints (W c) n) [row]].

(** *** Opcode position, zkevm_circuit.hpp:219-235; rows are counted backwards. *)
Definition step (off : Z) : expr := evar (wv col_step off).
Definition rem (off : Z) : expr := evar (wv col_rem off).
Definition inv (off : Z) : expr := evar (wv col_inv off).
Definition opt_var (off : Z) : expr := evar (wv (sel_col 0) off).

Definition position (row h : Z) : expr :=
  if row =? h - 1 then step 0
  else if row =? h - 2 then step (-1)
  else if row =? 0 then $1 - rem 0 * inv 0
  else ss_option row_col max_height row.

(** zkevm_operation.hpp:77-79 [var_gen]. *)
Definition ov (i off : Z) : expr := evar (wv (op_col i) off).

(** *** add_sub.hpp:56-117. *)
Definition add_group (first : bool) (i : Z) : list expr :=
  let pos := position 1 3 in
  let a := fun j => ov (3 * i + j)%Z (-1) in
  let b := fun j => ov (3 * i + j)%Z 0 in
  let r := fun j => ov (3 * i + j)%Z 1 in
  let cr := ov (16 + i)%Z 1 in
  let s := (a 0 + b 0) in
  let s := if first then s else ov (16 + i - 1)%Z 1 + s in
  [ pos * (s + (a 1 + b 1) * $(2 ^ 16) + (a 2 + b 2) * $(2 ^ 32)
           - r 0 - r 1 * $(2 ^ 16) - r 2 * $(2 ^ 32) - cr * $(2 ^ 48));
    pos * cr * (cr - $1) ].

Definition add_gates : list expr :=
  add_group true 0 ++ flat_map (add_group false) (zseq 1 5) ++
  [ position 1 3 * (ov 20 1 + ov 15 (-1) + ov 15 0 - ov 15 1 - ov 21 1 * $(2 ^ 16));
    position 1 3 * ov 21 1 * (ov 21 1 - $1) ].

(** *** iszero.hpp:49-70. *)
Definition iszero_sum : expr :=
  fold_left (fun e i => e + ov i 0) (zseq 1 16) (ov 0 0).
Definition iszero_gates : list expr :=
  map (fun i => ov i 0) (zseq 17 32) ++
  [ iszero_sum * ov 32 0 + ov 16 0 - $1; iszero_sum * ov 16 0 ].

(** *** mul.hpp:86-142. *)
Definition e_sum64 : (Z -> expr) -> Z -> expr :=
  sum64 (EBin OAdd) (EBin OMul) (fun z => ecst (ofZ z)).
Definition mul_gates : list expr :=
  let pos := position 1 3 in
  let a := e_sum64 (fun i => ov i (-1)) in
  let b := e_sum64 (fun i => ov i 0) in
  let r := e_sum64 (fun i => ov i 1) in
  let c1 := e_sum64 (fun i => ov (16 + i)%Z (-1)) 0 in
  let c3 := e_sum64 (fun i => ov (16 + i)%Z 0) 0 in
  let c2 := ov 16 1 in
  let c4 := ov 17 1 in
  let k := fun z => ecst (ofZ z) in
  [ pos * (mul_first (EBin OAdd) (EBin OSub) (EBin OMul) k a b r
           - c1 * $(2 ^ 128) - c2 * $(2 ^ 192));
    pos * (mul_second (EBin OAdd) (EBin OSub) (EBin OMul) k a b r
           + c1 + c2 * $(2 ^ 64) - c3 * $(2 ^ 128) - c4 * $(2 ^ 192));
    pos * c2 * (c2 - $1);
    pos * c4 * (c4 - $1) * (c4 - $2) * (c4 - $3) ].

(** *** div.hpp:88-214. *)
Definition div_gates : list expr :=
  let pos := position 2 4 in
  let a := e_sum64 (fun i => ov i (-1)) in
  let b := e_sum64 (fun i => ov i 0) in
  let r := e_sum64 (fun i => ov i 1) in
  let q := e_sum64 (fun i => ov (16 + i)%Z 1) in
  let c1 := e_sum64 (fun i => ov (16 + i)%Z (-1)) 0 in
  let c3 := e_sum64 (fun i => ov (16 + i)%Z 0) 0 in
  let c2 := ov 20 (-1) in
  let c4 := ov 20 0 in
  let binv := ov 21 0 in
  let bsum := esum (map (fun i => ov i 0) (zseq 0 16)) in
  let k := fun z => ecst (ofZ z) in
  [ pos * binv * (binv * bsum - $1);
    pos * bsum * (binv * bsum - $1);
    pos * (div_first (EBin OAdd) (EBin OSub) (EBin OMul) k a b r q
           - c1 * $(2 ^ 128) - c2 * $(2 ^ 192));
    pos * (div_second (EBin OAdd) (EBin OSub) (EBin OMul) k a b r q
           + c1 + c2 * $(2 ^ 64) - c3 * $(2 ^ 128) - c4 * $(2 ^ 192));
    pos * c2 * (c2 - $1);
    pos * c4 * (c4 - $1) * (c4 - $2) * (c4 - $3) ] ++
  map (fun i => pos * ($1 - binv * bsum) * ov i 1) (zseq 0 16) ++
  let pos2 := position 1 4 in
  let bb := fun i => ov i (-1) in
  let qq := fun i => ov (16 + i)%Z 0 in
  let t := fun i => ov i 1 in
  let v := fun i => ov (16 + i)%Z 1 in
  let bnz := ov 21 (-1) * esum (map bb (zseq 0 16)) in
  let delta := fun i => bb i - qq i in
  [ pos2 * bnz * (t 15 - v 15 * delta 15);
    pos2 * bnz * v 15 * (v 15 * delta 15 - $1);
    pos2 * bnz * delta 15 * (v 15 * delta 15 - $1) ] ++
  flat_map (fun j => let i := (14 - j)%Z in
    [ pos2 * bnz * (t i - t (i + 1)%Z - ($1 - t (i + 1)%Z) * v i * delta i);
      pos2 * bnz * (v i * (v i * delta i - $1));
      pos2 * bnz * (delta i * (v i * delta i - $1)) ]) (zseq 0 15) ++
  [ pos2 * bnz * (t 0 - $1) ].

Definition op_gates (o : opcode) : list expr :=
  match o with
  | ADD | SUB => add_gates
  | MUL => mul_gates
  | DIV => div_gates
  | ISZERO => iszero_gates
  end.

(** *** The three gates, zkevm_circuit.hpp:255-295 and 305-393.  [s_start],
    [s_end] and [s_mid] are the selectors returned by [add_gate]. *)
Definition generic_transitions (s_end : Z) : list expr :=
  [ rem 0 * rem 0 * inv 0 - rem 0;
    (rem 0 * inv 0 - $1) * inv 0;
    rem 0 * (rem 1 - rem 0 + $1);
    ($1 - step 0) * (opt_var 0 - opt_var (-1));
    ($1 - inv (-1) * rem (-1)) * ($1 - step 0) ] ++
  map (fun c => ($1 - evar (mkVar s_end 0 true CSel)) * ($1 - step 1) *
                (evar (wv c 1) - evar (wv c 0)))
      [col_pc; col_stack; col_mem; col_gas].

Definition op_constraints (o : opcode) : list expr :=
  let opt := ss_option sel_col n_opcodes (byte o) in
  (if height o =? 1 then opt * rem 0
   else opt * (rem 0 - $(height o - 1)) * step 0) ::
  map (fun c => opt * c) (op_gates o).

Definition middle_gate (s_end : Z) : list expr :=
  ss_constraints sel_col n_opcodes ++ ss_constraints row_col max_height ++
  generic_transitions s_end ++ flat_map op_constraints all_ops.

Definition start_gate : list expr := [step 0 - $1].

(** A gate is checked on the rows where its selector cell is not zero. *)
Definition gate_on (T : table) (sel : Z) (cs : list expr) : Prop :=
  forall r, T CSel sel r <> f0 -> forall e, In e cs -> eval T r e = f0.

Definition zk_sat (s_start s_end s_mid : Z) (T : table) : Prop :=
  gate_on T s_start start_gate /\ gate_on T s_end [] /\ gate_on T s_mid (middle_gate s_end).

(** *** Witness generation. *)

(** assignment.hpp [enable_selector]. *)
Definition sset (T : table) (col row : Z) : table :=
  fun ty c r => if ctype_eqb ty CSel && (c =? col) && (r =? row) then f1 else T ty c r.

(** [n] consecutive opcode columns of one row. *)
Definition blk (row c0 n : Z) (f : Z -> F) : list (Z * Z * F) :=
  map (fun i => (op_col (c0 + i)%Z, row, f i)) (zseq 0 n).

(** add_sub.hpp:119-154 from the (possibly swapped) words on; the comparison
    [>= two_48] is on canonical representatives. *)
Definition fchunk (w i : Z) : F := ofZ (chunk w i).
Definition add_carry_in (a b : Z) (c : bool) (i : Z) : F :=
  (fadd (fadd (fadd (fadd (ofZ (Z.b2z c)) (fchunk a (3 * i))) (fchunk b (3 * i)))
              (fmul (fadd (fchunk a (3 * i + 1)) (fchunk b (3 * i + 1))) (ofZ (2 ^ 16))))
        (fmul (fadd (fchunk a (3 * i + 2)) (fchunk b (3 * i + 2))) (ofZ (2 ^ 32))))%Z.
Fixpoint add_carry (a b : Z) (n : nat) : bool :=
  (2 ^ 48 <=? fval (add_carry_in a b (match n with O => false | S m => add_carry a b m end)
                                 (Z.of_nat n)))%Z.
Definition add_last_carry (a b : Z) : bool :=
  (2 ^ 16 <=? fval (fadd (fadd (ofZ (Z.b2z (add_carry a b 4))) (fchunk a 15)) (fchunk b 15)))%Z.
Definition add_writes (cur a b r : Z) : list (Z * Z * F) :=
  blk cur 0 16 (fchunk a) ++ blk (cur + 1)%Z 0 16 (fchunk b) ++ blk (cur + 2)%Z 0 16 (fchunk r) ++
  blk (cur + 2)%Z 16 5 (fun i => ofZ (Z.b2z (add_carry a b (Z.to_nat i)))) ++
  blk (cur + 2)%Z 21 1 (fun _ => ofZ (Z.b2z (add_last_carry a b))).

(** iszero.hpp:72-99. *)
Definition fsum (f : Z -> F) (n : Z) : F := fold_left (fun s i => fadd s (f i)) (zseq 0 n) f0.
Definition iszero_writes (cur a : Z) : list (Z * Z * F) :=
  blk cur 0 16 (fchunk a) ++
  blk cur 16 1 (fun _ => if (a =? 0)%Z then f1 else f0) ++
  blk cur 17 15 (fun _ => f0) ++
  blk cur 32 1 (fun _ => inv0 (fsum (fchunk a) 16)).

(** zkevm_word.hpp:75-91 [chunk_64_to_16]. *)
Definition fchunk64 (c : F) (i : Z) : F := fchunk (fval c) i.
Definition f_sum64 : (Z -> F) -> Z -> F := sum64 (@fadd P) (@fmul P) ofZ.

(** mul.hpp:147-197. *)
Definition mul_writes (cur a b r : Z) : list (Z * Z * F) :=
  let a64 := f_sum64 (fchunk a) in
  let b64 := f_sum64 (fchunk b) in
  let r64 := f_sum64 (fchunk r) in
  let first := Z.shiftr (fval (mul_first (@fadd P) (@fsub P) (@fmul P) ofZ a64 b64 r64)) 128 in
  let c1 := ofZ (Z.land first (2 ^ 64 - 1)) in
  let c2 := ofZ (Z.shiftr first 64) in
  let second := Z.shiftr (fval (fadd (fadd
       (mul_second (@fadd P) (@fsub P) (@fmul P) ofZ a64 b64 r64) c1)
       (fmul c2 (ofZ (2 ^ 64))))) 128 in
  let c3 := ofZ (Z.land second (2 ^ 64 - 1)) in
  let c4 := ofZ (Z.shiftr second 64) in
  blk cur 0 16 (fchunk a) ++ blk cur 16 4 (fchunk64 c1) ++
  blk (cur + 1)%Z 0 16 (fchunk b) ++ blk (cur + 1)%Z 16 4 (fchunk64 c3) ++
  blk (cur + 2)%Z 0 16 (fchunk r) ++ blk (cur + 2)%Z 16 1 (fun _ => c2) ++
  blk (cur + 2)%Z 17 1 (fun _ => c4).

(** div.hpp:227-296; [r] and [q] are the quotient and the remainder. *)
Definition div_t (b q i : Z) : F :=
  ofZ (Z.b2z (existsb (fun j => fval (fchunk q j) <? fval (fchunk b j))%Z (zseq i 16))).
Definition div_writes (cur a b r q : Z) : list (Z * Z * F) :=
  let a64 := f_sum64 (fchunk a) in
  let b64 := f_sum64 (fchunk b) in
  let r64 := f_sum64 (fchunk r) in
  let q64 := f_sum64 (fchunk q) in
  let first := Z.shiftr (fval (div_first (@fadd P) (@fsub P) (@fmul P) ofZ a64 b64 r64 q64)) 128 in
  let c1 := ofZ (Z.land first (2 ^ 64 - 1)) in
  let c2 := ofZ (Z.shiftr first 64) in
  let second := Z.shiftr (fval (fadd (fadd
       (div_second (@fadd P) (@fsub P) (@fmul P) ofZ a64 b64 r64 q64) c1)
       (fmul c2 (ofZ (2 ^ 64))))) 128 in
  let c3 := ofZ (Z.land second (2 ^ 64 - 1)) in
  let c4 := ofZ (Z.shiftr second 64) in
  blk cur 0 16 (fchunk a) ++ blk cur 16 4 (fchunk64 c1) ++ blk cur 20 1 (fun _ => c2) ++
  blk (cur + 1)%Z 0 16 (fchunk b) ++ blk (cur + 1)%Z 16 4 (fchunk64 c3) ++
  blk (cur + 1)%Z 20 1 (fun _ => c4) ++
  blk (cur + 1)%Z 21 1 (fun _ => inv0 (fsum (fchunk b) 16)) ++
  blk (cur + 2)%Z 0 16 (fchunk r) ++ blk (cur + 2)%Z 16 16 (fchunk q) ++
  blk (cur + 3)%Z 0 16 (div_t b q) ++
  blk (cur + 3)%Z 16 16 (fun i => inv0 (fsub (fchunk b i) (fchunk q i))).

(** [generate_assignments] of the operations: what is written and the machine
    stack afterwards; [None] when a pop finds the stack empty (undefined
    behaviour of [std::stack]).  The head of the list is the top.
    add_sub.hpp:119-162, iszero.hpp:72-99, mul.hpp:144-201, div.hpp:216-301. *)
Definition word_mod (x : Z) : Z := x mod 2 ^ 256.
Definition op_assign (o : opcode) (cur : Z) (stk : list Z) : option (list (Z * Z * F) * list Z) :=
  match o, stk with
  | ADD, a :: b :: s => Some (add_writes cur a b (word_mod (a + b)), a :: b :: s)
  | SUB, a :: b :: s =>
      let result := word_mod (a - b) in
      Some (add_writes cur result b a, a :: b :: s)
  | MUL, a :: b :: s => Some (mul_writes cur a b (word_mod (a * b)), a :: b :: s)
  | DIV, a :: b :: s =>
      let result := if (b =? 0)%Z then 0 else (a / b)%Z in
      let q := if (b =? 0)%Z then a else (a mod b)%Z in
      Some (div_writes cur a b result q, a :: b :: s)
  | ISZERO, a :: s => Some (iszero_writes cur a, a :: s)
  | _, _ => None
  end.

(** The state variables pc, stack_size, memory_size and curr_gas
    (state.hpp:88-118); callers may change them between opcodes through
    [get_state]. *)
Record regs := mkRegs { r_pc : F; r_stack : F; r_mem : F; r_gas : F }.

(** zkevm_circuit.hpp:166-185: one turn of the loop of [advance_rows], with the
    values of step_selection, rows_until_next_op and its inverse. *)
Definition row_assign (T : table) (row : Z) (o : opcode) (g : regs) (st rm iv : F) : table :=
  let opc := ofZ (byte o) in
  let T1 := wset T (sel_col 0) row opc in
  let T2 := ss_assign sel_col n_opcodes (T1 CWit (sel_col 0) row) row T1 in
  let T3 := wset T2 (row_col 0) row rm in
  let T4 := ss_assign row_col max_height (T3 CWit (row_col 0) row) row T3 in
  let T5 := wset (wset (wset (wset T4 col_pc row (r_pc g)) col_stack row (r_stack g))
                       col_mem row (r_mem g)) col_gas row (r_gas g) in
  let T6 := wset (wset (wset T5 col_step row st) col_rem row rm) col_inv row iv in
  wset T6 (sel_col 0) row opc.

Fixpoint rows_assign (T : table) (row : Z) (n : nat) (o : opcode) (g : regs) (st rm iv : F) : table :=
  match n with
  | O => T
  | S m => rows_assign (row_assign T row o g st rm iv) (row + 1) m o g f0 (fsub rm f1)
                       (inv0 (fsub rm f1))
  end.

Fixpoint enable_rows (T : table) (sel row : Z) (n : nat) : table :=
  match n with O => T | S m => enable_rows (sset T sel row) sel (row + 1) m end.

(** zkevm_circuit.hpp:148-186 [assign_opcode]; the circuit object is the table
    together with [curr_row]. *)
Definition assign_opcode (s_mid : Z) (T : table) (cur : Z) (o : opcode) (stk : list Z) (g : regs)
  : option (table * Z * list Z) :=
  match op_assign o cur stk with
  | None => None
  | Some (ws, stk') =>
      let T1 := wsets T ws in
      let rm := ofZ (height o - 1) in
      let T2 := enable_rows T1 s_mid cur (Z.to_nat (height o)) in
      Some (rows_assign T2 cur (Z.to_nat (height o)) o g f1 rm (inv0 rm), cur + height o, stk')%Z
  end.

(** A run: constructor (zkevm_circuit.hpp:395-396), then a sequence of
    [assign_opcode] calls, each with the machine stack and the state variables
    of that moment, then [finalize] (143-146). *)
Fixpoint run_ops (s_mid : Z) (T : table) (cur : Z) (ops : list (opcode * list Z * regs))
  : option (table * Z) :=
  match ops with
  | [] => Some (T, cur)
  | (o, stk, g) :: rest =>
      match assign_opcode s_mid T cur o stk g with
      | None => None
      | Some (T', cur', _) => run_ops s_mid T' cur' rest
      end
  end.

Definition zk_run (s_start s_end s_mid : Z) (T : table) (start : Z)
    (ops : list (opcode * list Z * regs)) : option (table * Z) :=
  match run_ops s_mid (sset (sset T s_start start) s_mid start) start ops with
  | None => None
  | Some (T', cur) => Some (sset T' s_end (cur - 1), cur)
  end.
End Model.

Arguments ss_constraints {P}. Arguments ss_option {P}. Arguments ss_assign {P}. Arguments ss_circuit {P}.
Arguments esum {P}. Arguments step {P}. Arguments rem {P}. Arguments inv {P}. Arguments opt_var {P}.
Arguments position {P}. Arguments ov {P}.
Arguments add_group {P}. Arguments add_gates {P}. Arguments iszero_gates {P}. Arguments iszero_sum {P}.
Arguments e_sum64 {P}.
Arguments mul_gates {P}. Arguments div_gates {P}. Arguments op_gates {P}.
Arguments generic_transitions {P}. Arguments op_constraints {P}. Arguments middle_gate {P}.
Arguments start_gate {P}.
Arguments gate_on {P}. Arguments zk_sat {P}. Arguments sset {P}. Arguments blk {P}.
Arguments fchunk {P}. Arguments fsum {P}. Arguments fchunk64 {P}. Arguments f_sum64 {P}.
Arguments row_assign {P}. Arguments rows_assign {P}. Arguments enable_rows {P}.
Arguments assign_opcode {P}. Arguments run_ops {P}. Arguments zk_run {P}.
Arguments mkRegs {P}. Arguments r_pc {P}. Arguments r_stack {P}. Arguments r_mem {P}. Arguments r_gas {P}.
