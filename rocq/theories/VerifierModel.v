(** The circuit of the recursive verifier.

    Source: include/nil/blueprint/components/systems/snark/plonk/verifier/
    verifier.hpp, class plonk_flexible_verifier (92-300), generate_circuit
    (578-795) and generate_assignments (310-577).

    The function calls other components in a fixed order; it is written here as
    a program whose steps are these calls.  A step receives the variables its
    predecessors returned.  Simplifications: the parameters taken from the
    placeholder objects (number of queries, rounds, batch sizes, ...) are
    arguments; the console output and the unused fields of the [challenges]
    struct are left out; the constants written by generate_assignments
    (341-344) are part of the circuit; the batch of swap components is represented by the
    place [sw k] (columns and row) where the [k]-th call of add_input_to_batch
    ends up when the batches are finalised, and its cells are written when the
    call is made. *)
From Coq Require Import ZArith List Lia Bool.
From Verif Require Import Base Field Plonk Bits FlexModel PoseidonModel.
Import ListNotations.
Open Scope Z_scope.

(** Calls made by generate_circuit; the continuation takes the result. *)
Inductive prog :=
| PEnd
| PHash (a b d : var) (k : var -> prog)        (** flexible poseidon; the result is output_state[2] *)
| PSwap (b x y : var) (k : var -> var -> prog) (** add_input_to_batch<swap> *)
| PCopy (a b : var) (k : prog)                 (** add_copy_constraint *)
| PPow (x : var) (k : var -> prog)             (** constant_pow *)
| PIdx (x : var) (bs : list var) (k : prog)    (** x_index; the result is not used *)
| PCol (inp : clin) (k : prog).                (** colinear_checks; the result is not used *)

(** A [for] loop over [l] with loop state [s], followed by [k]. *)
Fixpoint pfold {A S : Type} (l : list A) (body : A -> S -> (S -> prog) -> prog) (s : S) (k : S -> prog) : prog :=
  match l with
  | [] => k s
  | a :: r => body a s (fun s' => pfold r body s' k)
  end.

(** verifier.hpp:94-126 input_type (the member [proof] is not read). *)
Record vin := mkVin {
  vi_comms : list var; vi_roots : list var; vi_chal : var;
  vi_pos : list (list var); vi_vals : list (list var); vi_hashes : list (list var);
  vi_rvals : list (list var); vi_rhashes : list (list var) }.

(** What a read past the end of a vector (undefined behaviour) gives here. *)
Definition dv : var := mkVar 0 0 false CPub.
Definition v2 (l : list (list var)) (i j : Z) : var := znth dv (znth [] l i) j.

Section Prog.
(** fri_params_lambda, fri_params_r, fri_initial_merkle_proof_size and
    placeholder_info.batches_sizes (258-266). *)
Variable lam r m : Z.
Variable sizes : list Z.
Variable inp : vin.
(** 601-603. *)
Variable zerov vk0v vk1v : var.

(** 727-738 and 762-773: the loop along a Merkle path; [hs] are the sibling
    hashes, the state is (cur_hash, hash_var). *)
Definition pmerkle (i : Z) (hs : list (list var)) (l : list Z) (st : Z * var) (k : Z * var -> prog) : prog :=
  pfold l (fun t st k =>
    PSwap (v2 (vi_pos inp) i t) (v2 hs i (fst st)) (snd st)
      (fun a b => PHash zerov a b (fun h => k (fst st + 1, h)))) st k.

(** 719-725: the leaf of a batch; the state is (cur, input_state[0],
    output_state[2]). *)
Definition pleaf (i : Z) (l : list Z) (st : Z * var * var) (k : Z * var * var -> prog) : prog :=
  pfold l (fun _ st k =>
    let cur := fst (fst st) in
    PHash (snd (fst st)) (v2 (vi_vals inp) i cur) (v2 (vi_vals inp) i (cur + 1))
      (fun h => k (cur + 2, h, h))) st k.

(** 717-743: the loop over the batches; the state is (cur, cur_hash,
    output_state[2]). *)
Definition pbatches (i : Z) (l : list Z) (st : Z * Z * var) (k : Z * Z * var -> prog) : prog :=
  pfold l (fun j st k =>
    pleaf i (zseq 0 (znth 0 sizes j)) (fst (fst st), zerov, snd st) (fun st1 =>
    pmerkle i (vi_hashes inp) (zseq 0 m) (snd (fst st), snd st1) (fun st2 =>
    PCopy (snd st2) (if j =? 0 then vk1v else znth dv (vi_comms inp) (j - 1))
      (k (fst (fst st1), fst st2, snd st2))))) st k.

(** 754-780: the loop over the rounds; the state is (cur, cur_hash, y0, y1) and
    output_state[2]. *)
Definition prounds (i : Z) (l : list Z) (st : Z * Z * (var * var) * var) (k : Z * Z * (var * var) * var -> prog) : prog :=
  pfold l (fun j st k =>
    let cur := fst (fst (fst st)) in
    let ch := snd (fst (fst st)) in
    let y := snd (fst st) in
    let y' := (v2 (vi_rvals inp) i (cur * 2), v2 (vi_rvals inp) i (cur * 2 + 1)) in
    if j =? 0 then k (cur + 1, ch + m, y', snd st)
    else
      PHash zerov (fst y) (snd y) (fun h =>
      pmerkle i (vi_rhashes inp) (zseq 0 (m - j)) (ch, h) (fun st2 =>
      PCopy (snd st2) (znth dv (vi_roots inp) j) (k (cur + 1, fst st2, y', snd st2))))) st k.

(** 711-781: the queries. *)
Definition pqueries (l : list Z) (last : var) (k : var -> prog) : prog :=
  pfold l (fun i last k =>
    pbatches i (zseq 0 (zlen sizes)) (0, 0, last) (fun st =>
    prounds i (zseq 0 r) (0, 0, (dv, dv), snd st) (fun st => k (snd st)))) last k.

(** 693-708: the inputs of the colinearity checks of query [i]. *)
Definition pcol_in (i : Z) (xs alphas : list var) : clin :=
  mkClin (znth dv xs i)
    ([zerov; zerov] ++ flat_map (fun j => [v2 (vi_rvals inp) i (2 * j); v2 (vi_rvals inp) i (2 * j + 1)]) (zseq 0 r))
    (zerov :: map (fun j => v2 (vi_pos inp) i (zlen (znth [] (vi_pos inp) i) - j - 1)) (zseq 0 r))
    (map (fun j => znth dv alphas j) (zseq 0 r)).

(** 605-781. *)
Definition pverifier : prog :=
  let c n := znth dv (vi_comms inp) n in
  PHash zerov vk0v vk1v (fun eta =>
  PHash eta (c 0) zerov (fun perm_beta =>
  PHash perm_beta zerov zerov (fun perm_gamma =>
  PHash perm_gamma (c 1) zerov (fun gate_theta =>
  pfold (zseq 0 8) (fun _ s k => PHash s zerov zerov k) gate_theta (fun alpha =>
  PHash alpha (c 2) zerov (fun xi =>
  PCopy xi (vi_chal inp) (
  PHash xi vk1v (c 0) (fun s =>
  PHash s (c 1) (c 2) (fun lpc_theta =>
  pfold (zseq 0 r) (fun i st k => PHash (fst st) (znth dv (vi_roots inp) i) zerov (fun h => k (h, snd st ++ [h])))
    (lpc_theta, []) (fun st =>
  let alphas := snd st in
  pfold (zseq 0 lam) (fun _ st k => PHash (fst st) zerov zerov (fun h => k (h, snd st ++ [h])))
    (fst st, []) (fun st =>
  let fri_xs := snd st in
  pfold (zseq 0 lam) (fun i xs k => PPow (znth dv fri_xs i) (fun y => k (xs ++ [y]))) [] (fun xs =>
  pfold (zseq 0 lam) (fun i (_ : unit) k =>
    PIdx (znth dv xs i) (map (fun j => v2 (vi_pos inp) i j) (zseq 0 m)) (k tt)) tt (fun _ =>
  pfold (zseq 0 lam) (fun i (_ : unit) k => PCol (pcol_in i xs alphas) (k tt)) tt (fun _ =>
  pqueries (zseq 0 lam) (fst st) (fun _ => PEnd))))))))))))))).
End Prog.

Section Compile.
Variable P : params.
Notation F := (F P).
Notation cmd := (cmd P).
Variable mds rc : Z -> Z -> F.
(** The gates the circuit held before the call (see [fp_circuit]). *)
Variable pre : list (list (expr P)).
Variable c : comp.
(** (modulus - 1) / fri_domain_size (611), fri_omega (672) and fri_params_r. *)
Variable pow : Z.
Variable omega : F.
Variable r : Z.
(** Places of the swap components. *)
Variable sw : Z -> comp * Z.

(** flexible/poseidon.hpp:135-147, output_state[2]. *)
Definition hout (row : Z) : var := snd (fp_out c row).

(** Each call with its row: every component advances [row] by its rows_amount
    (617, 621, ..., 779); swaps count the calls of add_input_to_batch. *)
Fixpoint compile (p : prog) (row n : Z) : list cmd :=
  match p with
  | PEnd => []
  | PHash a b d k =>
      fp_circuit mds rc pre c (a, b, d) row ++ compile (k (hout row)) (row + fp_rows (wamount c)) n
  | PSwap b x y k =>
      let s := sw n in
      fs_circuit (fst s) b x y (snd s) ++
      compile (k (fst (fs_out (fst s) (snd s))) (snd (fs_out (fst s) (snd s)))) row (n + 1)
  | PCopy a b k => Copy a b :: compile k row n
  | PPow x k => cp_circuit c pow x row ++ compile (k (cp_out c pow row)) (row + cp_rows (wamount c) pow) n
  | PIdx x bs k => xi_circuit c omega x bs row ++ compile k (row + xi_rows (wamount c) (zlen bs)) n
  | PCol inp k => cl_circuit c r row ++ compile k (row + cl_rows (wamount c) r) n
  end.
(** The value of [row] at the end. *)
Fixpoint endr (p : prog) (row n : Z) : Z :=
  match p with
  | PEnd => row
  | PHash a b d k => endr (k (hout row)) (row + fp_rows (wamount c)) n
  | PSwap b x y k =>
      let s := sw n in endr (k (fst (fs_out (fst s) (snd s))) (snd (fs_out (fst s) (snd s)))) row (n + 1)
  | PCopy a b k => endr k row n
  | PPow x k => endr (k (cp_out c pow row)) (row + cp_rows (wamount c) pow) n
  | PIdx x bs k => endr k (row + xi_rows (wamount c) (zlen bs)) n
  | PCol inp k => endr k (row + cl_rows (wamount c) r) n
  end.

(** 310-577 generate_assignments makes the calls of generate_circuit in the same
    order; a step fills its cells.  The first [q] comparisons are assertions
    (398), the others are not made.  The assertion of x_index can fail. *)
Fixpoint assign (q : Z) (p : prog) (row n : Z) (T : table P) : option (table P) :=
  match p with
  | PEnd => Some T
  | PHash a b d k => assign q (k (hout row)) (row + fp_rows (wamount c)) n (fp_assign mds rc c (a, b, d) row T)
  | PSwap b x y k =>
      let s := sw n in
      assign q (k (fst (fs_out (fst s) (snd s))) (snd (fs_out (fst s) (snd s)))) row (n + 1)
        (fs_assign (fst s) b x y (snd s) T)
  | PCopy a b k => if (0 <? q) && negb (feqb (vval T a) (vval T b)) then None else assign (q - 1) k row n T
  | PPow x k => assign q (k (cp_out c pow row)) (row + cp_rows (wamount c) pow) n (cp_assign c pow x row T)
  | PIdx x bs k =>
      match xi_assign c omega x bs row T with
      | None => None
      | Some T => assign q k (row + xi_rows (wamount c) (zlen bs)) n T
      end
  | PCol inp k => assign q k (row + cl_rows (wamount c) r) n (cl_assign c r inp row T)
  end.

End Compile.
Arguments compile {P}. Arguments assign {P}.

(** The parameters of an instance, 258-266 and 308. *)
Record vparams (P : params) := mkVp {
  vp_lam : Z; vp_r : Z; vp_m : Z; vp_sizes : list Z; vp_pow : Z; vp_omega : F P; vp_vk0 : F P; vp_vk1 : F P }.
Arguments mkVp {P}. Arguments vp_lam {P}. Arguments vp_r {P}. Arguments vp_m {P}. Arguments vp_sizes {P}.
Arguments vp_pow {P}. Arguments vp_omega {P}. Arguments vp_vk0 {P}. Arguments vp_vk1 {P}.

(** 601-603: the three constant cells. *)
Definition vprog {P} (vp : vparams P) (c : comp) (inp : vin) (row : Z) : prog :=
  pverifier (vp_lam vp) (vp_r vp) (vp_m vp) (vp_sizes vp) inp
    (ccell (C c 0) row) (ccell (C c 0) (row + 2)) (ccell (C c 0) (row + 3)).
(** 578-795 generate_circuit, with the constants of generate_assignments
    (341-344). *)
Definition ver_circuit {P} mds rc pre (vp : vparams P) (c : comp) (sw : Z -> comp * Z) (inp : vin) (row : Z) : list (cmd P) :=
  [SetConst (C c 0) row f0; SetConst (C c 0) (row + 1) f1;
   SetConst (C c 0) (row + 2) (vp_vk0 vp); SetConst (C c 0) (row + 3) (vp_vk1 vp)] ++
  compile mds rc pre c (vp_pow vp) (vp_omega vp) (vp_r vp) sw (vprog vp c inp row) row 0.
(** 310-577 generate_assignments, without the constants; one comparison is
    asserted (398). *)
Definition ver_assign {P} mds rc (vp : vparams P) (c : comp) (sw : Z -> comp * Z) (inp : vin) (row : Z) (T : table P) : option (table P) :=
  assign mds rc c (vp_pow vp) (vp_omega vp) (vp_r vp) sw 1 (vprog vp c inp row) row 0 T.
(** The final value of [row], printed at 783. *)
Definition ver_end {P} (vp : vparams P) (c : comp) (sw : Z -> comp * Z) (inp : vin) (row : Z) : Z :=
  endr c (vp_pow vp) (vp_r vp) sw (vprog vp c inp row) row 0.
(** 193-240 get_rows_amount (and 287-300): for [r = 0] the bound [r - 1] of the
    second loop wraps, not modelled. *)
Definition ver_rows {P} (vp : vparams P) (w : Z) : Z :=
  let p := fp_rows w in
  p * 15 + p * vp_r vp + p * vp_lam vp +
  fold_left (fun a i => a + p * znth 0 (vp_sizes vp) i * vp_lam vp + p * vp_m vp * vp_lam vp)
    (zseq 0 (zlen (vp_sizes vp))) 0 +
  fold_left (fun a i => a + p * vp_lam vp * (vp_m vp - i)) (zseq 0 (vp_r vp - 1)) 0 +
  cp_rows w (vp_pow vp) * vp_lam vp + xi_rows w (vp_m vp) * vp_lam vp + cl_rows w (vp_r vp) * vp_lam vp.
