(** Proofs about the final polynomial check (EvalModel.v). *)
From Coq Require Import ZArith List Lia Bool Field.
From Verif Require Import Base Field Plonk PlonkFacts FieldOpsModel AssignModel AssignProofs BuilderModel BuilderProofs FinalizeModel FinalizeProofs BatchModel BatchProofs BatchQueue EvalModel EvalProofs.
Import ListNotations.
Open Scope Z_scope.

Section Proofs.
Variable P : params.
Notation F := (F P).
Notation expr := (expr P).
Notation cmd := (cmd P).
Add Field Ff : (F_field P) (morphism (F_morph P), constants [F_const], power_tac (F_power P) [F_pow_tac]).

(** The polynomial with the given coefficients, highest first. *)
Fixpoint poly (cs : list F) (x : F) : F :=
  match cs with [] => f0 | c :: cs => fadd (fmul c (fpow x (length cs))) (poly cs x) end.

Lemma horner_add : forall (s : F) cs c0, fold_left (fun acc c => fadd c (fmul s acc)) cs c0 = poly (c0 :: cs) s.
Proof.
  intros s. induction cs as [|c cs IH]; intros c0; cbn [fold_left poly length fpow] in *; [ring|]. rewrite IH. ring.
Qed.
Lemma horner_sub : forall (s : F) cs c0, fold_left (fun acc c => fsub c (fmul s acc)) cs c0 = poly (c0 :: cs) (fopp s).
Proof.
  intros s cs c0. rewrite <- horner_add. revert c0. induction cs as [|c cs IH]; intros c0; cbn [fold_left]; [reflexivity|].
  rewrite IH. f_equal. ring.
Qed.

(** The value of the constraint. *)
Lemma constraint_meaning : forall (g : var -> F) op cs e, (op = OAdd \/ op = OSub) -> fp_constraint op cs = Some e ->
  meaning P g e = fsub (poly (map g cs) (if match op with OAdd => true | _ => false end then g fp_s else fopp (g fp_s))) (g fp_y).
Proof.
  intros g op cs e HO H. destruct cs as [|c0 cs]; [discriminate|]. cbn [fp_constraint] in H. injection H as <-. cbn [meaning map fold_right].
  assert (X : forall l e0, meaning P g (fold_left (fun e c => EBin op (ETerm f1 [c]) (EBin OMul (ETerm f1 [fp_s]) e)) l e0) =
     fold_left (fun acc c => (if match op with OAdd => true | _ => false end then fadd else fsub) c (fmul (g fp_s) acc)) (map g l) (meaning P g e0)).
  { induction l as [|c l IH]; intros e0; cbn [fold_left map]; [reflexivity|]. rewrite IH. f_equal.
    destruct HO as [-> | ->]; cbn [meaning map fold_right]; ring. }
  rewrite X. cbn [meaning map fold_right]. destruct HO as [-> | ->].
  - rewrite horner_add. replace (fmul f1 (fmul (g c0) f1)) with (g c0) by ring. ring.
  - rewrite horner_sub. replace (fmul f1 (fmul (g c0) f1)) with (g c0) by ring. ring.
Qed.
Lemma constraint_vars : forall op cs (e : expr) v, fp_constraint op cs = Some e -> In v (evars e) -> In v cs \/ v = fp_s \/ v = fp_y.
Proof.
  intros op cs e v H HV. destruct cs as [|c0 cs]; [discriminate|]. cbn [fp_constraint] in H. injection H as <-. cbn [evars] in HV.
  rewrite in_app_iff in HV. destruct HV as [HV|[<-|[]]]; [|auto].
  assert (X : forall l (e0 : expr), In v (evars (fold_left (fun e c => EBin op (ETerm f1 [c]) (EBin OMul (ETerm f1 [fp_s]) e)) l e0)) -> In v l \/ v = fp_s \/ In v (evars e0)).
  { induction l as [|c l IH]; intros e0 HX; cbn [fold_left] in HX; [auto|]. destruct (IH _ HX) as [Y|[Y|Y]]; [left; right; exact Y|auto|].
    cbn [evars] in Y. rewrite !in_app_iff in Y. destruct Y as [[<-|[]]|[[<-|[]]|Y]]; [left; left; reflexivity|auto|auto]. }
  destruct (X _ _ HV) as [Y|[Y|[<-|[]]]]; [left; right; exact Y|auto|left; left; reflexivity].
Qed.
Lemma constraint_pos : forall op cs (e : expr), fp_constraint op cs = Some e -> pos_powers P e.
Proof.
  intros op cs e H. destruct cs as [|c0 cs]; [discriminate|]. cbn [fp_constraint] in H. injection H as <-. cbn [pos_powers]. split; [|exact I].
  assert (X : forall l (e0 : expr), pos_powers P e0 -> pos_powers P (fold_left (fun e c => EBin op (ETerm f1 [c]) (EBin OMul (ETerm f1 [fp_s]) e)) l e0)).
  { induction l as [|c l IH]; intros e0 HX; cbn [fold_left]; [exact HX|]. apply IH. cbn [pos_powers]. auto. }
  apply X. exact I.
Qed.

Section Check.
Variable cs : list var.
Hypothesis ABS : forall c, In c cs -> vrel c = false.
Lemma var_in_spec : forall v, var_in v cs = true <-> In v cs.
Proof.
  intros v. unfold var_in. rewrite existsb_exists. split; [intros [x [H1 H2]]; apply var_eqb_eq in H2; subst; exact H1|intros H; exists v; split; [exact H|apply var_eqb_eq; reflexivity]].
Qed.
Lemma in_cs : forall v, In v cs -> fp_map1 cs fp_s fp_y v = Some v /\ v <> fp_y.
Proof.
  intros v H. unfold fp_map1. rewrite (proj2 (var_in_spec v) H). split; [reflexivity|]. intros ->. discriminate (ABS _ H).
Qed.
Lemma not_in : forall v, vrel v = true -> var_in v cs = false.
Proof. intros v H. destruct (var_in v cs) eqn:E; [|reflexivity]. apply var_in_spec, ABS in E. congruence. Qed.

(** Both mappings send the coefficients to themselves, [fp_s] to the point and
    [fp_y] to the value. *)
Definition maps (mp : var -> option var) (p v : var) : Prop :=
  (forall c, In c cs -> mp c = Some c) /\ mp fp_s = Some p /\ mp fp_y = Some v.
Lemma maps1 : forall p v, maps (fp_map1 cs p v) p v.
Proof.
  intros p v. split; [|split]; unfold fp_map1; [intros c H; rewrite (proj2 (var_in_spec c) H); reflexivity|rewrite not_in; reflexivity|rewrite not_in; reflexivity].
Qed.
Lemma maps2 : forall p v, maps (fp_map2 cs p v) p v.
Proof.
  intros p v. destruct (maps1 p v) as [A [B C]]. split; [|split]; unfold fp_map2; [|exact B|reflexivity].
  intros c H. destruct (var_eqb c fp_y) eqn:E; [|apply A; exact H]. apply var_eqb_eq in E. subst c. discriminate (ABS _ H).
Qed.
Definition at_op (op : bop) (x : F) : F := match op with OAdd => x | _ => fopp x end.
Lemma wp_check : forall V mp op p v (Q : var -> Prop), (op = OAdd \/ op = OSub) -> maps mp p v ->
  (forall o, V o = fsub (poly (map V cs) (at_op op (V p))) (V v) -> Q o) -> wp P V (ev_opt mp (fp_constraint op cs)) Q.
Proof.
  intros V mp op p v Q HO [M1 [M2 M3]] HQ. destruct (fp_constraint op cs) as [e|] eqn:E; [|exact I]. cbn [ev_opt].
  apply (wp_ev P V mp (fun u => match mp u with Some w => V w | None => f0 end)).
  - intros u w _ ->. reflexivity.
  - intros o H. apply HQ. rewrite H, (constraint_meaning _ op cs e HO E), M2, M3. f_equal. f_equal.
    + apply map_ext_in. intros c Hc. rewrite (M1 c Hc). reflexivity.
    + destruct HO as [-> | ->]; reflexivity.
Qed.
Lemma uses_check : forall mp op p v (K : var -> Prop) (Q : (var -> Prop) -> var -> Prop), cs <> [] -> maps mp p v ->
  (forall c, In c cs -> K c) -> K p -> K v -> (forall (K' : var -> Prop) o, (forall u, K u -> K' u) -> K' o -> Q K' o) ->
  uses P K (ev_opt mp (fp_constraint op cs)) Q.
Proof.
  intros mp op p v K Q NE [M1 [M2 M3]] KC KP KV HQ. destruct (fp_constraint op cs) as [e|] eqn:E; [|destruct cs; [contradiction|discriminate]]. cbn [ev_opt].
  apply uses_ev; [eapply constraint_pos; exact E| |exact HQ]. intros u Hu. destruct (constraint_vars _ _ _ _ E Hu) as [HC|[-> | ->]]; [|eauto|eauto].
  exists u. split; [apply M1; exact HC|apply KC; exact HC].
Qed.

(** The common part of assignment and circuit. *)
Fixpoint fp_outs (pts : list (var * var * var)) : prog P (list (var * var)) :=
  match pts with
  | [] => Ret []
  | (p, v, v') :: pts' =>
      bind (ev_opt (fp_map1 cs p v) (fp_constraint OAdd cs)) (fun o =>
      bind (ev_opt (fp_map2 cs p v') (fp_constraint OSub cs)) (fun o' =>
      bind (fp_outs pts') (fun l => Ret ((o, o') :: l))))
  end.
Definition result {A B} (f : A -> B) (r : option (qstate P * list (qcall P) * A)) : option (qstate P * list (qcall P) * B) :=
  match r with Some (st, h, a) => Some (st, h, f a) | None => None end.
Definition copies (zero : var) (l : list (var * var)) : list cmd := flat_map (fun oo => [Copy (fst oo) zero; Copy (snd oo) zero]) l.
Lemma assign_outs : forall before comps fc pts st, exec before comps fc st (fp_assign cs pts) = result (fun _ => tt) (exec before comps fc st (fp_outs pts)).
Proof.
  intros before comps fc. induction pts as [|[[p v] v'] pts IH]; intros st; cbn [fp_assign fp_outs]; [reflexivity|]. rewrite !exec_bind.
  destruct (exec before comps fc st (ev_opt _ _)) as [[[st1 h1] o]|]; [|reflexivity]. rewrite !exec_bind.
  destruct (exec before comps fc st1 (ev_opt _ _)) as [[[st2 h2] o']|]; [|reflexivity]. rewrite exec_bind, IH.
  destruct (exec before comps fc st2 (fp_outs pts)) as [[[st3 h3] l]|]; [|reflexivity]. cbn [result exec]. rewrite app_nil_r. reflexivity.
Qed.
Lemma points_outs : forall before comps fc zero pts st, exec before comps fc st (fp_points zero cs pts) = result (copies zero) (exec before comps fc st (fp_outs pts)).
Proof.
  intros before comps fc zero. induction pts as [|[[p v] v'] pts IH]; intros st; cbn [fp_points fp_outs]; [reflexivity|]. rewrite !exec_bind.
  destruct (exec before comps fc st (ev_opt _ _)) as [[[st1 h1] o]|]; [|reflexivity]. rewrite !exec_bind.
  destruct (exec before comps fc st1 (ev_opt _ _)) as [[[st2 h2] o']|]; [|reflexivity]. rewrite !exec_bind, IH.
  destruct (exec before comps fc st2 (fp_outs pts)) as [[[st3 h3] l]|]; [|reflexivity]. reflexivity.
Qed.

(** Under a reading, the copies hold exactly when the polynomial takes the values. *)
Definition checks (V : var -> F) (pts : list (var * var * var)) : Prop :=
  forall p v v', In (p, v, v') pts -> poly (map V cs) (V p) = V v /\ poly (map V cs) (fopp (V p)) = V v'.
Lemma wp_points : forall V zero pts (Q : list cmd -> Prop), V zero = f0 ->
  (forall l, ((forall a b, In (Copy a b) l -> V a = V b) <-> checks V pts) -> Q l) -> wp P V (fp_points zero cs pts) Q.
Proof.
  intros V zero pts Q HZ. revert Q. induction pts as [|[[p v] v'] pts IH]; intros Q HQ; cbn [fp_points].
  - apply HQ. split; [intros _ p v v' []|intros _ a b []].
  - apply wp_bind. apply (wp_check V _ OAdd p v); [auto|apply maps1|]. intros o HO. apply wp_bind. apply (wp_check V _ OSub p v'); [auto|apply maps2|]. intros o' HO'.
    apply wp_bind. apply IH. intros l HL. cbn [wp]. apply HQ. cbn [at_op] in HO, HO'. split.
    + intros H. assert (H1 : V o = f0) by (rewrite <- HZ; apply H; left; reflexivity). assert (H2 : V o' = f0) by (rewrite <- HZ; apply H; right; left; reflexivity).
      rewrite H1 in HO. rewrite H2 in HO'. intros q w w' [E|HI].
      * injection E as <- <- <-. split; apply (proj1 (fsub_eq0 _ _ _)); auto.
      * apply (proj1 HL); [|exact HI]. intros a b HA. apply H. right. right. exact HA.
    + intros H a b HI. destruct (H p v v' (or_introl eq_refl)) as [E1 E2]. destruct HI as [HI|[HI|HI]].
      * injection HI as <- <-. rewrite HZ, HO. apply (proj2 (fsub_eq0 _ _ _)). exact E1.
      * injection HI as <- <-. rewrite HZ, HO'. apply (proj2 (fsub_eq0 _ _ _)). exact E2.
      * apply (proj2 HL); [|exact HI]. intros q w w' HP. apply H. right. exact HP.
Qed.
Definition inputs (pts : list (var * var * var)) : list var := cs ++ flat_map (fun t => [fst (fst t); snd (fst t); snd t]) pts.
Lemma uses_outs : forall pts (K : var -> Prop) (Q : (var -> Prop) -> list (var * var) -> Prop), cs <> [] -> (forall v, In v (inputs pts) -> K v) ->
  (forall (K' : var -> Prop) l, (forall u, K u -> K' u) -> (forall o o', In (o, o') l -> K' o /\ K' o') -> Q K' l) ->
  uses P K (fp_outs pts) Q.
Proof.
  induction pts as [|[[p v] v'] pts IH]; intros K Q NE HK HQ; cbn [fp_outs].
  - cbn [uses]. apply HQ; [auto|]. intros o o' [].
  - assert (KC : forall c, In c cs -> K c) by (intros c Hc; apply HK; apply in_or_app; left; exact Hc).
    assert (KP : K p /\ K v /\ K v') by (split; [|split]; apply HK; apply in_or_app; right; cbn; auto).
    assert (KR : forall u, In u (inputs pts) -> K u).
    { intros u Hu. apply HK. unfold inputs in *. rewrite in_app_iff in *. destruct Hu as [Hu|Hu]; [auto|]. right. cbn [flat_map]. apply in_or_app. right. exact Hu. }
    apply uses_bind. apply (uses_check _ _ p v); [exact NE|apply maps1|exact KC|tauto|tauto|]. intros K1 o L1 O1.
    apply uses_bind. apply (uses_check _ _ p v'); [exact NE|apply maps2|auto|apply L1; tauto|apply L1; tauto|]. intros K2 o' L2 O2.
    apply uses_bind. apply IH; [exact NE|auto|]. intros K3 l L3 O3. cbn [uses]. apply HQ; [auto|].
    intros x y [E|HI]; [injection E as <- <-; auto|apply O3; exact HI].
Qed.
End Check.
End Proofs.
