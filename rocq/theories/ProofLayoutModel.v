(** The public input of the recursive verifier.

    Source: include/nil/blueprint/components/systems/snark/plonk/verifier/
    proof_input_type.hpp, class placeholder_proof_input_type (the variables), and
    proof_wrapper.hpp, class placeholder_proof_wrapper (the values).

    A loop of [push_back(var(0, cur++, false, public_input))] is written as the
    range of cells it pushes.  The members of the placeholder objects that
    fill_vector reads are the fields of [pinfo]; a proof is the record of what the
    wrapper reads.  Not modelled: console output, the assertion that every
    polynomial has evaluation points (proof_wrapper.hpp:79), the floating point in
    the size of the final polynomial (a parameter). *)
From Coq Require Import ZArith List Lia Bool.
From Verif Require Import Base Field Plonk VerifierModel.
Import ListNotations.
Open Scope Z_scope.

(** ** proof_input_type.hpp *)

(** placeholder_info, the table description, columns_rotations[_].size() and the
    FRI parameters; [pi_m] is log2(D[0]->m) - 1 (proof_input_type.hpp:220, 227)
    and [pi_final] is final_polynomial_size (249). *)
Record pinfo := mkPi {
  pi_lookups : bool; pi_perm : Z; pi_rot : Z -> Z;
  pi_wit : Z; pi_pub : Z; pi_const : Z; pi_sel : Z;
  pi_quot : Z; pi_sorted : Z; pi_r : Z; pi_lam : Z;
  pi_polys : Z; pi_m : Z; pi_batches : Z; pi_layers : Z; pi_final : Z }.

(** proof_input_type.hpp: a public input cell. *)
Definition pvar (i : Z) : var := mkVar 0 i false CPub.
Definition pvars (a n : Z) : list var := map pvar (zseq a (a + n)).
Definition zsum (f : Z -> Z) (n : Z) : Z := fold_left (fun a i => a + f i) (zseq 0 n) 0.

Section Vars.
Variable I : pinfo.
(** 108-119. *)
Definition pi_ncomm : Z := if pi_lookups I then 4 else 3.
(** 125-194: the evaluations, pushed to var_vector only.  The index of a
    selector column's rotations is that of line 154. *)
Definition pi_zs : Z :=
  pi_perm I * 2 + 4 +
  zsum (fun i => pi_rot I (pi_wit I + pi_pub I + i)) (pi_const I) +
  zsum (fun i => pi_rot I (pi_wit I + pi_pub I + pi_pub I + i)) (pi_sel I) +
  zsum (fun i => pi_rot I i) (pi_wit I) +
  zsum (fun i => pi_rot I (i + pi_wit I)) (pi_pub I) +
  2 + (if pi_lookups I then 2 else 0) + pi_quot I + (if pi_lookups I then 3 * pi_sorted I else 0).
(** 208-247: one query; the result is (values, positions, hashes, round values,
    round hashes). *)
Definition pi_query (cur : Z) : list var * list var * list var * list var * list var :=
  let c1 := cur + 2 * pi_polys I in
  let c2 := c1 + pi_m I in
  let c3 := c2 + pi_batches I * pi_m I in
  let c4 := c3 + 2 * pi_r I in
  (pvars cur (2 * pi_polys I), pvars c1 (pi_m I), pvars c2 (pi_batches I * pi_m I), pvars c3 (2 * pi_r I), pvars c4 (pi_layers I)).
Definition pi_qsize : Z := 2 * pi_polys I + pi_m I + pi_batches I * pi_m I + 2 * pi_r I + pi_layers I.
Fixpoint pi_queries (n : nat) (cur : Z) : list (list var * list var * list var * list var * list var) :=
  match n with O => [] | S n => pi_query cur :: pi_queries n (cur + pi_qsize) end.
(** 105-253 fill_vector, with the accessors 71-94; the verifier's input
    (verifier.hpp:94-125) is made of them. *)
Definition pi_input : vin :=
  let n := pi_ncomm in
  let r0 := n + 1 + pi_zs in
  let qs := pi_queries (Z.to_nat (pi_lam I)) (r0 + pi_r I) in
  mkVin (pvars 0 n) (pvars r0 (pi_r I)) (pvar n)
    (map (fun q => snd (fst (fst (fst q)))) qs) (map (fun q => fst (fst (fst (fst q)))) qs) (map (fun q => snd (fst (fst q))) qs)
    (map (fun q => snd (fst q)) qs) (map snd qs).
(** The accessor vector() (68-70). *)
Definition pi_vector : list var :=
  pvars 0 (pi_ncomm + 1 + pi_zs + pi_r I + pi_lam I * pi_qsize + pi_final I).
End Vars.

(** ** proof_wrapper.hpp *)

Section Proof.
Variable P : params.
Notation F := (F P).
(** initial_proof of a batch: values and Merkle path of (position, hash). *)
Record pbatch := mkPb { pb_vals : list (F * F); pb_path : list (F * F) }.
(** A round proof: y and the hashes of its path. *)
Record pround := mkPrd { pd_y0 : F; pd_y1 : F; pd_path : list F }.
Record pquery := mkPq { pq_init : list pbatch; pq_rounds : list pround }.
(** commitments 1..3 and 4 if present; z as batches of polynomials of
    evaluations. *)
Record pproof := mkPp {
  pp_comm : F * F * F; pp_lookup : option F; pp_chal : F; pp_z : list (list (list F));
  pp_roots : list F; pp_queries : list pquery; pp_final : list F }.

(** proof_wrapper.hpp:94-101, 104-114 (positions of the first batch only), 116-124,
    125-129, 130-135. *)
Definition pw_vals (q : pquery) : list F := flat_map (fun b => flat_map (fun v => [fst v; snd v]) (pb_vals b)) (pq_init q).
Definition pw_pos (q : pquery) : list F := match pq_init q with [] => [] | b :: _ => map fst (pb_path b) end.
Definition pw_hashes (q : pquery) : list F := flat_map (fun b => map snd (pb_path b)) (pq_init q).
Definition pw_rvals (q : pquery) : list F := flat_map (fun d => [pd_y0 d; pd_y1 d]) (pq_rounds q).
Definition pw_rhashes (q : pquery) : list F := flat_map pd_path (pq_rounds q).
Definition pw_query (q : pquery) : list F := pw_vals q ++ pw_pos q ++ pw_hashes q ++ pw_rvals q ++ pw_rhashes q.
Definition pw_comms (p : pproof) : list F :=
  let '(a, b, d) := pp_comm p in [a; b; d] ++ match pp_lookup p with Some x => [x] | None => [] end.
(** 63-141 fill_vector. *)
Definition pw_vector (p : pproof) : list F :=
  pw_comms p ++ [pp_chal p] ++ concat (concat (pp_z p)) ++ pp_roots p ++ flat_map pw_query (pp_queries p) ++ pp_final p.
End Proof.
Arguments mkPb {P}. Arguments pb_vals {P}. Arguments pb_path {P}. Arguments mkPrd {P}. Arguments pd_y0 {P}. Arguments pd_y1 {P}.
Arguments pd_path {P}. Arguments mkPq {P}. Arguments pq_init {P}. Arguments pq_rounds {P}. Arguments mkPp {P}. Arguments pp_comm {P}.
Arguments pp_lookup {P}. Arguments pp_chal {P}. Arguments pp_z {P}. Arguments pp_roots {P}. Arguments pp_queries {P}. Arguments pp_final {P}.
Arguments pw_vals {P}. Arguments pw_pos {P}. Arguments pw_hashes {P}. Arguments pw_rvals {P}. Arguments pw_rhashes {P}.
Arguments pw_query {P}. Arguments pw_comms {P}. Arguments pw_vector {P}.
