(** What the recursive verifier checks of a proof, stated on the values of the
    proof and a hash function of three field elements. *)
From Coq Require Import ZArith List.
From Verif Require Import Base Field.
Import ListNotations.
Open Scope Z_scope.

Section Spec.
Variable P : params.
Notation F := (F P).
(** The compression function. *)
Variable H : F -> F -> F -> F.

(** A chain that absorbs two elements at a time. *)
Fixpoint absorb (s : F) (l : list (F * F)) : F :=
  match l with [] => s | ab :: l => absorb (H s (fst ab) (snd ab)) l end.

(** A Merkle path as pairs of a position bit and the sibling's hash: position 0
    means that the sibling is the left child. *)
Fixpoint climb (h : F) (l : list (F * F)) : F :=
  match l with
  | [] => h
  | bs :: l => climb (if feqb (fst bs) f0 then H f0 (snd bs) h else H f0 h (snd bs)) l
  end.
Definition all_bits (l : list (F * F)) : Prop := forall b s, In (b, s) l -> b = f0 \/ b = f1.
Definition opens (h : F) (l : list (F * F)) (root : F) : Prop := all_bits l /\ climb h l = root.

(** The values of a proof. *)
Record vproof := mkVpr {
  pr_comm : Z -> F; pr_root : Z -> F; pr_chal : F;
  pr_pos : Z -> Z -> F; pr_val : Z -> Z -> F; pr_hash : Z -> Z -> F;
  pr_rval : Z -> Z -> F; pr_rhash : Z -> Z -> F }.

Fixpoint lsum (f : Z -> Z) (l : list Z) : Z := match l with [] => 0 | x :: l => f x + lsum f l end.

(** The challenge is the one the transcript gives. *)
Definition transcript_ok (vk0 vk1 : F) (pr : vproof) : Prop :=
  absorb f0 ([(vk0, vk1); (pr_comm pr 0, f0); (f0, f0); (pr_comm pr 1, f0)] ++
             repeat (f0, f0) 8 ++ [(pr_comm pr 2, f0)]) = pr_chal pr.

(** The challenges squeezed after the transcript: each absorbs one element and is
    itself the next state. *)
Fixpoint squeeze (s : F) (l : list F) : list F :=
  match l with [] => [] | a :: l => H s a f0 :: squeeze (H s a f0) l end.
Definition fri_start (vk0 vk1 : F) (pr : vproof) : F :=
  absorb f0 ([(vk0, vk1); (pr_comm pr 0, f0); (f0, f0); (pr_comm pr 1, f0)] ++ repeat (f0, f0) 8 ++
             [(pr_comm pr 2, f0); (vk1, pr_comm pr 0); (pr_comm pr 1, pr_comm pr 2)]).
(** The folding challenges, one for each FRI root, and the queries' points. *)
Definition fri_alphas (r : Z) (vk0 vk1 : F) (pr : vproof) : list F :=
  squeeze (fri_start vk0 vk1 pr) (map (pr_root pr) (zseq 0 r)).
Definition fri_xs (lam r : Z) (vk0 vk1 : F) (pr : vproof) : list F :=
  squeeze (absorb (fri_start vk0 vk1 pr) (map (fun j => (pr_root pr j, f0)) (zseq 0 r))) (map (fun _ => f0) (zseq 0 lam)).

(** Batch [j] of query [i]: the values hash to a leaf of the committed tree. *)
Definition batch_ok (m : Z) (sizes : list Z) (vk1 : F) (pr : vproof) (i j : Z) : Prop :=
  let o := 2 * lsum (fun q => znth 0 sizes q) (zseq 0 j) in
  opens
    (absorb f0 (map (fun t => (pr_val pr i (o + 2 * t), pr_val pr i (o + 2 * t + 1))) (zseq 0 (znth 0 sizes j))))
    (map (fun t => (pr_pos pr i t, pr_hash pr i (m * j + t))) (zseq 0 m))
    (if j =? 0 then vk1 else pr_comm pr (j - 1)).

(** Round [j >= 1] of query [i]: the two values of round [j - 1] hash to a leaf
    of the tree of round [j]. *)
Definition round_ok (m : Z) (pr : vproof) (i j : Z) : Prop :=
  let o := lsum (fun q => m - q) (zseq 0 j) in
  opens (H f0 (pr_rval pr i (2 * (j - 1))) (pr_rval pr i (2 * (j - 1) + 1)))
    (map (fun t => (pr_pos pr i t, pr_rhash pr i (o + t))) (zseq 0 (m - j)))
    (pr_root pr j).

Definition verifier_checks (lam r m : Z) (sizes : list Z) (vk0 vk1 : F) (pr : vproof) : Prop :=
  transcript_ok vk0 vk1 pr /\
  forall i, 0 <= i < lam ->
    (forall j, 0 <= j < zlen sizes -> batch_ok m sizes vk1 pr i j) /\
    (forall j, 1 <= j < r -> round_ok m pr i j).
End Spec.
Arguments absorb {P}. Arguments climb {P}. Arguments all_bits {P}. Arguments opens {P}. Arguments mkVpr {P}.
Arguments pr_comm {P}. Arguments pr_root {P}. Arguments pr_chal {P}. Arguments pr_pos {P}. Arguments pr_val {P}.
Arguments pr_hash {P}. Arguments pr_rval {P}. Arguments pr_rhash {P}. Arguments transcript_ok {P}. Arguments squeeze {P}.
Arguments fri_start {P}. Arguments fri_alphas {P}. Arguments fri_xs {P}.
Arguments batch_ok {P}. Arguments round_ok {P}. Arguments verifier_checks {P}.
