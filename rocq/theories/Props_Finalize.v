(** Placement of batched constants:
    include/nil/blueprint/blueprint/plonk/assignment.hpp, finalize_constant_batches. *)
From Coq Require Import ZArith List Lia Bool.
From Verif Require Import Base Field Primes Plonk AssignModel AssignProofs BuilderModel BuilderProofs FinalizeModel FinalizeProofs.
Import ListNotations.
Open Scope Z_scope.

(** ** C26 *)

(** The verdict of the satisfiability check on the circuit with batched
    constants (their values read from the side store) and on the finalised
    circuit (their values read from the constant column) is the same, provided
    gates read the column only at rotations the search looks at. *)
Theorem finalize_constants_preserves : forall P (te : tenv P) c s col start c' s' next,
  tidy P s -> gates_tracked P c s col start -> gates_inside P c s col start -> tables_clear P te col -> copies_read P c s ->
  finalize_constants c s col start = Some (c', s', next) ->
  is_satisfied te c' s' = is_satisfied te c s.
Proof. exact finalize_preserves_l. Qed.
Print Assumptions finalize_constants_preserves.

(** The [i]-th batched constant as it is named in copy constraints, and what
    becomes of a variable when the constants move to rows [place] of column [col]. *)
Definition batched (i : nat) : var := mkVar bconst_index (Z.of_nat i) false CConst.
Definition redirected (col : nat) (place : list nat) (x x' : var) : Prop :=
  (exists i r, x = batched i /\ nth_error place i = Some r /\ x' = mkVar (Z.of_nat col) (Z.of_nat r) false CConst) \/
  ((forall i, (i < length place)%nat -> x <> batched i) /\ x' = x).
Lemma redirected_subst : forall col start place x, (forall r, In r place -> (start <= r)%nat) ->
  redirected col place x (subst_const col start (map (fun r => r - start)%nat place) x).
Proof.
  intros col start place x HP. unfold subst_const. destruct (_ && _) eqn:E.
  - rewrite !andb_true_iff, Z.eqb_eq, negb_true_iff, ctype_eqb_eq, Z.leb_le in E. destruct E as [[[E1 E2] E3] E4].
    rewrite nth_error_map. destruct (nth_error place (Z.to_nat (vrot x))) as [r|] eqn:N.
    + left. exists (Z.to_nat (vrot x)), r. split; [|split; [exact N|]].
      * destruct x as [a b c d]. cbn in *. subst. unfold batched. rewrite Z2Nat.id by exact E4. reflexivity.
      * cbn [option_map]. f_equal. apply nth_error_In, HP in N. lia.
    + right. split; [|reflexivity]. intros i Hi ->. apply nth_error_None in N. cbn in N. lia.
  - right. split; [|reflexivity]. intros i Hi ->. cbn [batched vidx vrel vty vrot] in E. rewrite Z.eqb_refl in E. cbn in E. apply Z.leb_gt in E. lia.
Qed.

(** Each stored constant gets a cell of its own between [start] and the
    returned row; copy constraints are redirected to it; every other cell keeps
    its value. *)
Theorem finalize_constants_places : forall P c (s : astate P) col start c' s' next,
  tidy P s -> finalize_constants c s col start = Some (c', s', next) ->
  exists place : list nat, length place = length (a_bconst s) /\ NoDup place /\
    (forall r, In r place -> (start <= r < next)%nat) /\
    (forall i r v, nth_error place i = Some r -> nth_error (a_bconst s) i = Some v -> cell2 P (a_const s') col r = Some v) /\
    Forall2 (fun ab ab' => redirected col place (fst ab) (fst ab') /\ redirected col place (snd ab) (snd ab')) (c_copies c) (c_copies c') /\
    (forall i r, ~ (i = col /\ In r place) -> forall x, cell2 P (a_const s) i r = Some x -> cell2 P (a_const s') i r = Some x) /\
    a_wit s' = a_wit s /\ a_pub s' = a_pub s /\ a_sel s' = a_sel s /\ a_bconst s' = a_bconst s /\
    c_gates c' = c_gates c /\ c_lgates c' = c_lgates c.
Proof.
  intros P c s col start c' s' next TD H. destruct (finalize_places_l P c s col start c' s' next TD H) as [place [A [B [C [D [_ [G R]]]]]]].
  exists place. split; [exact A|]. split; [exact B|]. split; [exact C|]. split; [exact D|]. split; [|exact R].
  rewrite G. generalize (c_copies c). induction l as [|ab l IH]; cbn [map]; constructor; [|exact IH].
  split; apply redirected_subst; intros r Hr; apply C; exact Hr.
Qed.
Print Assumptions finalize_constants_places.

(** The call succeeds when no gate reads the column. *)
Theorem finalize_constants_defined : forall P c (s : astate P) col start,
  tidy P s -> (0 < start)%nat -> nth_error (a_const s) col <> None ->
  (forall a b x, In (a, b) (c_copies c) -> x = a \/ x = b -> vty x = CConst -> vidx x = Z.of_nat col ->
     0 <= vrot x < Z.of_nat (match nth_error (a_const s) col with Some l => length l | None => O end)) ->
  (forall sel cs e v, In (sel, cs) (c_gates c) -> In e cs -> In v (evars e) -> vty v = CConst -> vidx v <> Z.of_nat col) ->
  (forall sel ls t es e v, In (sel, ls) (c_lgates c) -> In (t, es) ls -> In e es -> In v (evars e) -> vty v = CConst -> vidx v <> Z.of_nat col) ->
  exists r, finalize_constants c s col start = Some r.
Proof. exact finalize_defined_l. Qed.
Print Assumptions finalize_constants_defined.

(** ** Examples *)
Definition z97 : vset P97 := mkVset P97 (fun b v => ofZ (5 * vidx v + 3 * vrot v + if b then 7 else 11)) (fun n => ofZ (13 + 2 * Z.of_nat n))
  (fun n => ofZ (17 + 3 * Z.of_nat n)) (fun n => ofZ (19 + 5 * Z.of_nat n)).
Definition rc (i rot : Z) : var := mkVar i rot true CConst.
Definition bc (i : Z) : var := mkVar bconst_index i false CConst.
Definition prog (h : list (bcall P97)) : option (bstate P97) := option_map fst (bruns z97 (c_new, a_new P97 1 1 1 1) h).

(** Two batched constants; the copied cell in row 1 and the cell in row 3 that the
    gate on row 2 reads with rotation one are left alone. *)
Definition good_hist : list (bcall P97) :=
  [BA (AConstant 0 0 (ofZ 4)); BA (AConstant 0 1 (ofZ 5)); BA (AConstant 0 2 (ofZ 0)); BA (AConstant 0 3 (ofZ 6));
   BGate1 (EBin OSub (evar (wv 0 0)) (evar (rc 0 1))); BA (AEnable 0 2); BA (AWitness 0 2 (ofZ 6));
   BA (AWitness 0 0 (ofZ 5)); BCopy (wcell 0 0) (ccell 0 1);
   BA (AAddBatchConst (ofZ 8)); BA (AAddBatchConst (ofZ 9));
   BA (AWitness 0 1 (ofZ 9)); BCopy (wcell 0 1) (bc 1)].
Example finalize_example : exists c s c' s',
  prog good_hist = Some (c, s) /\ finalize_constants c s 0 1 = Some (c', s', 5%nat) /\
  c_copies c' = [(wcell 0 0, ccell 0 1); (wcell 0 1, ccell 0 4)] /\
  is_satisfied (fun _ => None) c s = Some true /\ is_satisfied (fun _ => None) c' s' = Some true /\
  cell2 P97 (a_const s') 0 2 = Some (ofZ 8) /\ cell2 P97 (a_const s') 0 4 = Some (ofZ 9).
Proof. do 4 eexists. split; [vm_compute; reflexivity|]. split; [vm_compute; reflexivity|]. vm_compute. repeat split. Qed.
Example finalize_hyps : exists c s, prog good_hist = Some (c, s) /\
  tidy P97 s /\ gates_tracked P97 c s 0 1 /\ gates_inside P97 c s 0 1 /\ tables_clear P97 (fun _ => None) 0 /\ copies_read P97 c s.
Proof.
  do 2 eexists. split; [vm_compute; reflexivity|]. split; [|split; [|split; [|split]]].
  - split; [cbn; lia|]. split.
    + intros cs [<-|[]]. cbn. lia.
    + split; [cbn; unfold bconst_index; lia|]. intros [|[|n]] cl H; try discriminate. injection H as <-. split; [cbn; lia|].
      intros x Hx. cbn in Hx. destruct Hx as [<-|[<-|[<-|[]]]]; [left; reflexivity|left; reflexivity|right; reflexivity].
  - split; [|intros sel ls t es e v r []].
    intros sel cs e v r [E|[]] He Hv HS. injection E as <- <-. destruct He as [<-|[]]. cbn in Hv.
    destruct Hv as [<-|[<-|[]]]; intros TY IX; [discriminate|]. unfold small. cbn. split; [lia|]. split; [reflexivity|]. lia.
  - intros HL. exfalso. cbn in HL. lia.
  - intros t tag opts o e v H. discriminate.
  - intros a b x Hab Hx. cbn in Hab. destruct Hab as [E|[E|[]]]; injection E as <- <-; destruct Hx as [->| ->]; cbn [vty wcell ccell bc];
      (split; [discriminate|eexists; vm_compute; reflexivity]).
Qed.

(** ** Where it fails *)

(** A gate reading the constant of its own row: the constant is overwritten and
    the satisfied circuit becomes unsatisfied. *)
Definition own_row_hist : list (bcall P97) :=
  [BA (AConstant 0 1 (ofZ 5)); BGate1 (EBin OSub (evar (wv 0 0)) (evar (rc 0 0))); BA (AEnable 0 1); BA (AWitness 0 1 (ofZ 5));
   BA (AAddBatchConst (ofZ 8))].
Theorem finalize_overwrites_refuted : exists h c s c' s' next, prog h = Some (c, s) /\ tidy P97 s /\ copies_read P97 c s /\
  finalize_constants c s 0 1 = Some (c', s', next) /\
  is_satisfied (fun _ => None) c s = Some true /\ is_satisfied (fun _ => None) c' s' = Some false.
Proof.
  exists own_row_hist. do 5 eexists. split; [vm_compute; reflexivity|]. split; [|split].
  - split; [cbn; lia|]. split; [intros cs [<-|[]]; cbn; lia|]. split; [cbn; unfold bconst_index; lia|].
    intros [|[|n]] cl H; try discriminate. injection H as <-. split; [cbn; lia|].
    intros x Hx. cbn in Hx. destruct Hx as [<-|[<-|[]]]; [left; reflexivity|right; reflexivity].
  - intros a b x [].
  - split; [vm_compute; reflexivity|]. vm_compute. split; reflexivity.
Qed.
Print Assumptions finalize_overwrites_refuted.

(** A gate reading the constant of the row above, enabled on row 1: the search
    writes outside [used_constants]. *)
Definition above_hist : list (bcall P97) :=
  [BA (AConstant 0 0 (ofZ 5)); BA (AConstant 0 1 (ofZ 0)); BGate1 (EBin OSub (evar (wv 0 0)) (evar (rc 0 (-1)))); BA (AEnable 0 1);
   BA (AWitness 0 1 (ofZ 5)); BA (AAddBatchConst (ofZ 8))].
Theorem finalize_out_of_bounds_refuted : exists h c s, prog h = Some (c, s) /\ tidy P97 s /\ copies_read P97 c s /\
  is_satisfied (fun _ => None) c s = Some true /\ finalize_constants c s 0 1 = None.
Proof.
  exists above_hist. do 2 eexists. split; [vm_compute; reflexivity|]. split; [|split].
  - split; [cbn; lia|]. split; [intros cs [<-|[]]; cbn; lia|]. split; [cbn; unfold bconst_index; lia|].
    intros [|[|n]] cl H; try discriminate. injection H as <-. split; [cbn; lia|].
    intros x Hx. cbn in Hx. destruct Hx as [<-|[<-|[]]]; [left; reflexivity|right; reflexivity].
  - intros a b x [].
  - vm_compute. split; reflexivity.
Qed.
