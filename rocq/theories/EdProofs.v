(** Addition and doubling of Ed25519 points. *)
From Coq Require Import ZArith List Lia Bool Field.
From Verif Require Import Base Field Plonk PlonkFacts Bits PvTape NonNativeModel NonNativeProofs NonNativeArith
  NonNativeComp NonNativeWit NonNativeMul Ed25519 EdModel EdStage.
Import ListNotations.
Open Scope Z_scope.

(** ** Integers and elements of the Ed25519 field *)

Notation ez := (fun z => ofZ z : Fe).
Lemma ez_mod : forall a, (ofZ (a mod ed_p) : Fe) = ofZ a.
Proof. intros a. apply (ofZ_mod Ped). apply Zmod_mod. Qed.
Lemma ez_inj : forall a b, (ofZ a : Fe) = ofZ b -> a mod ed_p = b mod ed_p.
Proof. intros a b H. exact (ofZ_inj Ped a b H). Qed.
Lemma ez_eq : forall a b, a mod ed_p = b mod ed_p <-> (ofZ a : Fe) = ofZ b.
Proof. intros a b. split; [intros H; rewrite <- (ez_mod a), <- (ez_mod b), H; reflexivity|apply ez_inj]. Qed.
Lemma fval_canon : forall x : Fe, 0 <= fval x < ed_p.
Proof. intros x. exact (fval_range Ped x). Qed.

Add Field Fed : (F_field Ped) (morphism (F_morph Ped), constants [F_const], power_tac (F_power Ped) [F_pow_tac]).

(** The checks of the addition. *)
Section CaInts.
Variables tx ty rx ry px py : Z.
Definition ca_t0 := (tx * ry) mod ed_p.
Definition ca_t1 := (ty * rx) mod ed_p.
Definition ca_t2 := (tx * rx) mod ed_p.
Definition ca_t3 := (ty * ry) mod ed_p.
Definition ca_k0 := (ed_d * ((ca_t0 * ca_t1) mod ed_p)) mod ed_p.
Definition ca_k2 := (py * ca_k0) mod ed_p.
Definition ca_z0 := (ca_t0 + ca_t1) mod ed_p.
Definition ca_z1 := (ca_t2 + ca_t3) mod ed_p.
Definition ca_k3 := (px + (px * ca_k0) mod ed_p) mod ed_p.
Definition ca_k4 := (py - ca_k2) mod ed_p.
Ltac push := repeat first [rewrite ez_mod | rewrite ofZ_mul | rewrite ofZ_add | rewrite ofZ_sub].
Lemma ca_ints : on_ed (ez tx, ez ty) -> on_ed (ez rx, ez ry) ->
  (ca_z0 = ca_k3 /\ ca_z1 = ca_k4 <-> ed_add (ez tx, ez ty) (ez rx, ez ry) = (ez px, ez py)).
Proof.
  intros H1 H2. rewrite (ed_add_spec _ _ _ _ _ _ H1 H2). cbv zeta.
  unfold ca_z0, ca_z1, ca_k3, ca_k4, ca_k2, ca_k0, ca_t0, ca_t1, ca_t2, ca_t3. rewrite !ez_eq. push.
  generalize (ofZ ed_d : Fe) (ofZ tx : Fe) (ofZ ty : Fe) (ofZ rx : Fe) (ofZ ry : Fe) (ofZ px : Fe) (ofZ py : Fe). clear.
  intros d x1 y1 x2 y2 x y. split; intros [E1 E2]; split.
  - transitivity ((x + x * (d * (x1 * y2 * (y1 * x2))))%F); [ring|rewrite <- E1; ring].
  - transitivity ((y - y * (d * (x1 * y2 * (y1 * x2))))%F); [ring|rewrite <- E2; ring].
  - transitivity ((x * (f1 + d * x1 * x2 * y1 * y2))%F); [rewrite E1; ring|ring].
  - transitivity ((y * (f1 - d * x1 * x2 * y1 * y2))%F); [rewrite E2; ring|ring].
Qed.
End CaInts.

(** The checks of the doubling. *)
Section DbInts.
Variables tx ty px py : Z.
Definition db_t0 := (ty * ty) mod ed_p.
Definition db_t1 := (tx * tx) mod ed_p.
Definition db_t2 := (tx * ty) mod ed_p.
Definition db_t3 := (db_t0 - db_t1) mod ed_p.
Definition db_t4 := (db_t2 + db_t2) mod ed_p.
Definition db_t5 := (db_t1 + db_t0) mod ed_p.
Definition db_t6 := (db_t1 - db_t0) mod ed_p.
Definition db_t7 := (px * db_t3) mod ed_p.
Definition db_t10 := ((py + py) mod ed_p + (py * db_t6) mod ed_p) mod ed_p.
Ltac push := repeat first [rewrite ez_mod | rewrite ofZ_mul | rewrite ofZ_add | rewrite ofZ_sub].
Lemma db_ints : on_ed (ez tx, ez ty) ->
  (db_t7 = db_t4 /\ db_t5 = db_t10 <-> ed_add (ez tx, ez ty) (ez tx, ez ty) = (ez px, ez py)).
Proof.
  intros H. rewrite (ed_add_spec _ _ _ _ _ _ H H). cbv zeta. unfold on_ed in H.
  unfold db_t10, db_t7, db_t6, db_t5, db_t4, db_t3, db_t2, db_t1, db_t0. rewrite !ez_eq. push. revert H.
  generalize (ofZ ed_d : Fe) (ofZ tx : Fe) (ofZ ty : Fe) (ofZ px : Fe) (ofZ py : Fe). clear.
  intros d u v x y H.
  assert (D : (f1 + d * u * u * v * v)%F = (v * v - u * u)%F) by (rewrite H; ring).
  assert (D' : (f1 - d * u * u * v * v)%F = (f1 + f1 + u * u - v * v)%F) by (transitivity ((f1 + f1 - (f1 + d * u * u * v * v))%F); [ring|rewrite D; ring]).
  rewrite D, D'. split; intros [E1 E2]; split.
  - rewrite E1. ring.
  - transitivity ((y + y + y * (u * u - v * v))%F); [ring|rewrite <- E2; ring].
  - rewrite E1. ring.
  - transitivity ((v * v + u * u)%F); [ring|rewrite <- E2; ring].
Qed.
End DbInts.

Section Ed.
Variable P : params.
Notation F := (F P).
Notation table := (table P).
Variable L : lenv P.
Hypothesis big : 2 ^ 254 <= char P.
Implicit Types T : table.

(** ** Operands *)

Definition ca_prog (c : comp) (Tx Ty Rx Ry : list var) (px py : Z) (row : Z) : list stage :=
  let t0 := nm_out c (row + 4) in let t1 := nm_out c (row + 11) in
  let t2 := nm_out c (row + 18) in let t3 := nm_out c (row + 25) in
  let z2 := nm_out c (row + 40) in let k0 := nm_out c (row + 47) in
  let k1 := nm_out c (row + 54) in let k2 := nm_out c (row + 61) in
  [SPut px; SPut py; SMul Tx Ry; SMul Ty Rx; SMul Tx Rx; SMul Ty Ry; SAdd t0 t1; SAdd t2 t3; SMul t0 t1;
   SMul (d_vars c (row + 47)) z2; SMul (own c row) k0; SMul (own c (row + 2)) k0; SAdd (own c row) k1; SSub (own c (row + 2)) k2].
Definition db_prog (c : comp) (Tx Ty : list var) (px py : Z) (row : Z) : list stage :=
  let t0 := nm_out c (row + 4) in let t1 := nm_out c (row + 11) in let t2 := nm_out c (row + 18) in
  let t3 := na_out c (row + 25) in let t6 := na_out c (row + 37) in
  let t8 := na_out c (row + 48) in let t9 := nm_out c (row + 52) in
  [SPut px; SPut py; SMul Ty Ty; SMul Tx Tx; SMul Tx Ty; SSub t0 t1; SAdd t2 t2; SAdd t1 t0; SSub t1 t0; SMul (own c row) t3;
   SAdd (own c (row + 2)) (own c (row + 2)); SMul (own c (row + 2)) t6; SAdd t8 t9].

Lemma ca_circuit_prog : forall c Tx Ty Rx Ry px py row,
  ca_circuit (P := P) c Tx Ty Rx Ry row = prog_circuit P c (ca_prog c Tx Ty Rx Ry px py row) row ++ ca_consts c row ++ ca_copies c row.
Proof.
  intros. unfold ca_circuit, ca_prog. cbv zeta. cbn [prog_circuit st_circuit st_rows]. rewrite <- !Z.add_assoc, <- !app_assoc. reflexivity.
Qed.
Lemma ca_write_prog : forall c Tx Ty Rx Ry px py row T,
  ca_write c Tx Ty Rx Ry px py row T = prog_assign P c (ca_prog c Tx Ty Rx Ry px py row) row T.
Proof.
  intros. unfold ca_write, ca_prog. cbv zeta. cbn [prog_assign st_assign st_rows]. rewrite <- !Z.add_assoc. reflexivity.
Qed.
Lemma db_circuit_prog : forall c Tx Ty px py row,
  db_circuit (P := P) c Tx Ty row = prog_circuit P c (db_prog c Tx Ty px py row) row ++ db_copies c row.
Proof.
  intros. unfold db_circuit, db_prog. cbv zeta. cbn [prog_circuit st_circuit st_rows]. rewrite <- !Z.add_assoc, <- !app_assoc. reflexivity.
Qed.
Lemma db_write_prog : forall c Tx Ty px py row T,
  db_write c Tx Ty px py row T = prog_assign P c (db_prog c Tx Ty px py row) row T.
Proof.
  intros. unfold db_write, db_prog. cbv zeta. cbn [prog_assign st_assign st_rows]. rewrite <- !Z.add_assoc. reflexivity.
Qed.

(** Values along the chains. *)
Ltac rw row := repeat match goal with |- context [row + ?a + ?b] =>
  let s := eval vm_compute in (a + b) in replace (row + a + b) with (row + s) by (clear; lia) end.
Ltac mem := cbn [In]; repeat (first [left; reflexivity | right]).
Lemma ca_evals : forall c (Q R : Z -> Z -> Prop) Tx Ty Rx Ry tx ty rx ry px py row,
  Q row px -> Q (row + 2) py -> R py (ca_k2 tx ty rx ry py) ->
  exists K', evals c Q R (ca_prog c Tx Ty Rx Ry px py row) row [(Tx, tx); (Ty, ty); (Rx, rx); (Ry, ry); (d_vars c (row + 47), ed_d)] K' /\
  In (own c row, px) K' /\ In (own c (row + 2), py) K' /\
  In (na_out c (row + 32), ca_z0 tx ty rx ry) K' /\ In (na_out c (row + 36), ca_z1 tx ty rx ry) K' /\
  In (na_out c (row + 68), ca_k3 tx ty rx ry px) K' /\ In (na_out c (row + 72), ca_k4 tx ty rx ry py) K'.
Proof.
  intros c Q R Tx Ty Rx Ry tx ty rx ry px py row Q1 Q2 HR. eexists. split.
  - unfold ca_prog. cbv zeta. apply ev_put; [exact Q1|]. apply ev_put; [exact Q2|]. rw row.
    apply (ev_mul c Q R Tx Ry tx ry); [mem|mem|]. rw row. apply (ev_mul c Q R Ty Rx ty rx); [mem|mem|]. rw row.
    apply (ev_mul c Q R Tx Rx tx rx); [mem|mem|]. rw row. apply (ev_mul c Q R Ty Ry ty ry); [mem|mem|]. rw row.
    fold (ca_t0 tx ry) (ca_t1 ty rx) (ca_t2 tx rx) (ca_t3 ty ry).
    apply (ev_add c Q R _ _ (ca_t0 tx ry) (ca_t1 ty rx)); [mem|mem|]. rw row.
    apply (ev_add c Q R _ _ (ca_t2 tx rx) (ca_t3 ty ry)); [mem|mem|]. rw row.
    apply (ev_mul c Q R _ _ (ca_t0 tx ry) (ca_t1 ty rx)); [mem|mem|]. rw row.
    apply (ev_mul c Q R _ _ ed_d ((ca_t0 tx ry * ca_t1 ty rx) mod ed_p)); [mem|mem|]. rw row.
    fold (ca_k0 tx ty rx ry).
    apply (ev_mul c Q R _ _ px (ca_k0 tx ty rx ry)); [mem|mem|]. rw row.
    apply (ev_mul c Q R _ _ py (ca_k0 tx ty rx ry)); [mem|mem|]. rw row. fold (ca_k2 tx ty rx ry py).
    apply (ev_add c Q R _ _ px ((px * ca_k0 tx ty rx ry) mod ed_p)); [mem|mem|]. rw row.
    apply (ev_sub c Q R _ _ py (ca_k2 tx ty rx ry py)); [mem|mem|exact HR|]. rw row. apply ev_nil.
  - fold (ca_z0 tx ty rx ry) (ca_z1 tx ty rx ry) (ca_k3 tx ty rx ry px) (ca_k4 tx ty rx ry py). repeat apply conj; mem.
Qed.
Lemma db_evals : forall c (Q R : Z -> Z -> Prop) Tx Ty tx ty px py row,
  Q row px -> Q (row + 2) py -> R (db_t0 ty) (db_t1 tx) -> R (db_t1 tx) (db_t0 ty) ->
  exists K', evals c Q R (db_prog c Tx Ty px py row) row [(Tx, tx); (Ty, ty)] K' /\
  In (own c row, px) K' /\ In (own c (row + 2), py) K' /\
  In (na_out c (row + 29), db_t4 tx ty) K' /\ In (nm_out c (row + 41), db_t7 tx ty px) K' /\
  In (na_out c (row + 33), db_t5 tx ty) K' /\ In (na_out c (row + 59), db_t10 tx ty py) K'.
Proof.
  intros c Q R Tx Ty tx ty px py row Q1 Q2 R1 R2. eexists. split.
  - unfold db_prog. cbv zeta. apply ev_put; [exact Q1|]. apply ev_put; [exact Q2|]. rw row.
    apply (ev_mul c Q R Ty Ty ty ty); [mem|mem|]. rw row. apply (ev_mul c Q R Tx Tx tx tx); [mem|mem|]. rw row.
    apply (ev_mul c Q R Tx Ty tx ty); [mem|mem|]. rw row.
    fold (db_t0 ty) (db_t1 tx) (db_t2 tx ty).
    apply (ev_sub c Q R _ _ (db_t0 ty) (db_t1 tx)); [mem|mem|exact R1|]. rw row.
    apply (ev_add c Q R _ _ (db_t2 tx ty) (db_t2 tx ty)); [mem|mem|]. rw row.
    apply (ev_add c Q R _ _ (db_t1 tx) (db_t0 ty)); [mem|mem|]. rw row.
    apply (ev_sub c Q R _ _ (db_t1 tx) (db_t0 ty)); [mem|mem|exact R2|]. rw row.
    fold (db_t3 tx ty) (db_t6 tx ty).
    apply (ev_mul c Q R _ _ px (db_t3 tx ty)); [mem|mem|]. rw row.
    apply (ev_add c Q R _ _ py py); [mem|mem|]. rw row.
    apply (ev_mul c Q R _ _ py (db_t6 tx ty)); [mem|mem|]. rw row.
    apply (ev_add c Q R _ _ ((py + py) mod ed_p) ((py * db_t6 tx ty) mod ed_p)); [mem|mem|]. rw row. apply ev_nil.
  - fold (db_t4 tx ty) (db_t5 tx ty) (db_t7 tx ty px) (db_t10 tx ty py). repeat apply conj; mem.
Qed.

(** ** Constants and copies *)

Lemma d_vars_nv : forall c row i, 0 <= i < 4 -> nv (d_vars c row) i = ccell (C c 0) (row + (4 + i)).
Proof. intros c row i Hi. destruct (four i Hi) as [-> |[-> |[-> | ->]]]; reflexivity. Qed.
Lemma ca_consts_val : forall T c row, sat L T (ca_consts c row) -> has_val P T (d_vars c (row + 47)) ed_d.
Proof.
  intros T c row H. split; [|split; [discriminate|reflexivity]]. rewrite <- (limbs_map P big). unfold nn_vals. apply map_ext_in. intros i Hi. apply in_zseq in Hi. f_equal.
  rewrite d_vars_nv by exact Hi. unfold ca_consts in H. repeat (rewrite sat_cons in H). cbn [holds] in H. destruct H as [H0 [H1 [H2 [H3 _]]]].
  destruct (four i Hi) as [-> |[-> |[-> | ->]]]; unfold vval; cbn [vty vidx vrot ccell].
  - rewrite (Z.add_assoc (row + 47)). change (4 + 0) with 4 in *. rewrite <- (Z.add_assoc row), Z.add_assoc. 
    transitivity (T CConst (C c 0) (row + 47 + 4)); [f_equal; lia|]. rewrite H0. f_equal.
  - transitivity (T CConst (C c 0) (row + 47 + 5)); [f_equal; lia|]. rewrite H1. f_equal.
  - transitivity (T CConst (C c 0) (row + 47 + 6)); [f_equal; lia|]. rewrite H2. f_equal.
  - transitivity (T CConst (C c 0) (row + 47 + 7)); [f_equal; lia|]. rewrite H3. f_equal.
Qed.
Lemma has_small : forall T A a, has_val P T A a -> small_val P T A a.
Proof. intros T A a H. destruct (has_val_facts P T A a H) as [S [G _]]. split; assumption. Qed.
Lemma copies_vals : forall T (f g : Z -> var) A B, sat L T (map (fun i => Copy (f i) (g i)) (zseq 0 4)) ->
  (forall i, 0 <= i < 4 -> nv A i = f i) -> (forall i, 0 <= i < 4 -> nv B i = g i) -> nn_vals T A = nn_vals T B.
Proof.
  intros T f g A B H HA HB. unfold nn_vals. apply map_ext_in. intros i Hi. rewrite HA, HB by (apply in_zseq; exact Hi).
  f_equal. apply (H (Copy (f i) (g i))). apply in_map_iff. exists i. split; [reflexivity|exact Hi].
Qed.
Lemma vals_copies : forall T (f g : Z -> var) A B, nn_vals T A = nn_vals T B ->
  (forall i, 0 <= i < 4 -> nv A i = f i) -> (forall i, 0 <= i < 4 -> nv B i = g i) -> sat L T (map (fun i => Copy (f i) (g i)) (zseq 0 4)).
Proof.
  intros T f g A B H HA HB x Hx. apply in_map_iff in Hx. destruct Hx as [i [<- Hi]]. apply in_zseq in Hi. cbn [holds]. rewrite <- HA, <- HB by exact Hi.
  apply F_ext. rewrite <- !nn_vals_nth by exact Hi. rewrite H. reflexivity.
Qed.

(** ** Addition *)

Lemma ca_sound_l : forall T c Tx Ty Rx Ry row, sat L T (ca_circuit c Tx Ty Rx Ry row) ->
  prog_looked P T c (ca_prog c Tx Ty Rx Ry 0 0 row) row ->
  nn_small (nn_vals T Tx) -> nn_small (nn_vals T Ty) -> nn_small (nn_vals T Rx) -> nn_small (nn_vals T Ry) ->
  on_ed (pt_val T Tx Ty) -> on_ed (pt_val T Rx Ry) ->
  nn_small (nn_vals T (own c row)) /\ nn_small (nn_vals T (own c (row + 2))) /\
  nn_glue_z (nn_vals T (own c row)) < ed_p /\ nn_glue_z (nn_vals T (own c (row + 2))) < ed_p /\
  pt_val T (own c row) (own c (row + 2)) = ed_add (pt_val T Tx Ty) (pt_val T Rx Ry).
Proof.
  intros T c Tx Ty Rx Ry row S HL S1 S2 S3 S4 O1 O2. unfold pt_val in *.
  set (tx := nn_glue_z (nn_vals T Tx)) in *. set (ty := nn_glue_z (nn_vals T Ty)) in *.
  set (rx := nn_glue_z (nn_vals T Rx)) in *. set (ry := nn_glue_z (nn_vals T Ry)) in *.
  set (px := nn_glue_z (nn_vals T (own c row))). set (py := nn_glue_z (nn_vals T (own c (row + 2)))).
  rewrite (ca_circuit_prog c Tx Ty Rx Ry px py row) in S. rewrite !sat_app in S. destruct S as [SP [SC SE]].
  destruct (ca_evals c (fun r v => v = nn_glue_z (nn_vals T (own c r))) (fun _ _ => True) Tx Ty Rx Ry tx ty rx ry px py row eq_refl eq_refl I)
    as [K' [E [I1 [I2 [I3 [I4 [I5 I6]]]]]]].
  assert (SV : forall A a, In (A, a) K' -> small_val P T A a).
  { apply (prog_sound P L big c T _ row _ K' _ E SP HL). intros A a HA. cbn [In] in HA.
    repeat (destruct HA as [HA|HA]; [injection HA as <- <-|]); [split; auto; fail|split; auto; fail|split; auto; fail|split; auto; fail| |contradiction].
    apply has_small, ca_consts_val. exact SC. }
  unfold ca_copies in SE. rewrite sat_app in SE. destruct SE as [E1 E2].
  assert (V1 : nn_vals T (na_out c (row + 32)) = nn_vals T (na_out c (row + 68))).
  { eapply copies_vals; [exact E1| |]; intros i Hi; rewrite na_out_nv by exact Hi; [reflexivity|f_equal; lia]. }
  assert (V2 : nn_vals T (na_out c (row + 36)) = nn_vals T (na_out c (row + 72))).
  { eapply copies_vals; [exact E2| |]; intros i Hi; rewrite na_out_nv by exact Hi; [reflexivity|f_equal; lia]. }
  destruct (SV _ _ I1) as [SX _]. destruct (SV _ _ I2) as [SY _].
  split; [exact SX|]. split; [exact SY|].
  assert (CN : px < ed_p /\ py < ed_p).
  { unfold ca_prog in SP, HL. cbv zeta in SP, HL. cbn [prog_circuit st_circuit prog_looked st_looked st_rows] in SP, HL. rewrite !sat_app in SP.
    destruct SP as [R1 [R2 _]]. destruct HL as [H1 [H2 _]].
    pose proof (rg_sound_l P L big T c _ _ R1 H1) as [_ [_ [_ [_ X1]]]]. pose proof (rg_sound_l P L big T c _ _ R2 H2) as [_ [_ [_ [_ X2]]]].
    split; assumption. }
  split; [apply CN|]. split; [apply CN|]. symmetry. apply ca_ints; [exact O1|exact O2|].
  destruct (SV _ _ I3) as [_ G3]. destruct (SV _ _ I4) as [_ G4]. destruct (SV _ _ I5) as [_ G5]. destruct (SV _ _ I6) as [_ G6].
  rewrite <- G3, <- G4, <- G5, <- G6, V1, V2. split; reflexivity.
Qed.

Lemma glue_chop : forall v, nn_small v -> (exists T A, v = nn_vals (P := P) T A) -> nn_chop (nn_glue_z v) = v.
Proof.
  intros v S [T [A ->]]. unfold nn_small in S. 
  assert (H : 0 <= nn_glue_z (nn_vals T A) < 2 ^ 255).
  { rewrite glue_z_eq. lits. lia. }
  pose proof (limbs_ok _ H) as [E B]. rewrite glue_z_eq in E at 1. set (x := nn_glue_z (nn_vals T A)) in *. clearbody x.
  assert (V : nn_vals T A = [znth 0 (nn_vals T A) 0; znth 0 (nn_vals T A) 1; znth 0 (nn_vals T A) 2; znth 0 (nn_vals T A) 3]) by reflexivity.
  rewrite V. clear V. unfold nn_chop. change (zseq 0 4) with [0; 1; 2; 3]. cbn [map].
  generalize dependent (znth 0 (nn_vals T A) 0). generalize dependent (znth 0 (nn_vals T A) 1).
  generalize dependent (znth 0 (nn_vals T A) 2). generalize dependent (znth 0 (nn_vals T A) 3). intros v3 v2 v1 v0 S E.
  assert (nn_limb x 0 = v0 /\ nn_limb x 1 = v1 /\ nn_limb x 2 = v2 /\ nn_limb x 3 = v3) as [-> [-> [-> ->]]]; [|reflexivity].
  clear H. generalize dependent (nn_limb x 0). generalize dependent (nn_limb x 1). generalize dependent (nn_limb x 2). generalize dependent (nn_limb x 3).
  intros. lits. lia.
Qed.
Lemma canon_has : forall T A, nn_small (nn_vals T A) -> nn_glue_z (nn_vals T A) < ed_p -> has_val P T A (nn_glue_z (nn_vals T A)).
Proof.
  intros T A S H. pose proof (nn_glue_small _ S H) as [_ N]. split; [symmetry; apply glue_chop; [exact S|exists T, A; reflexivity]|lia].
Qed.
Lemma has_vals_eq : forall T A B a, has_val P T A a -> has_val P T B a -> nn_vals T A = nn_vals T B.
Proof. intros T A B a [E1 _] [E2 _]. rewrite E1, E2. reflexivity. Qed.
Lemma ccell_outside : forall c n r col row, outside c n r (ccell col row).
Proof. intros c n r col row [H _]. discriminate. Qed.

(** What the honest stages of the addition give, whatever point is chosen. *)
Lemma ca_write_l : forall T c Tx Ty Rx Ry px py row, wf_comp c 9 -> (forall i, 0 <= i < 4 -> W c i = i) ->
  nn_outside c 76 row Tx -> nn_outside c 76 row Ty -> nn_outside c 76 row Rx -> nn_outside c 76 row Ry ->
  sat L T (ca_consts c row) -> 0 <= px < ed_p -> 0 <= py < ed_p ->
  forall tx ty rx ry, has_val P T Tx tx -> has_val P T Ty ty -> has_val P T Rx rx -> has_val P T Ry ry ->
  sub_ok py (ca_k2 tx ty rx ry py) ->
  let T' := ca_write c Tx Ty Rx Ry px py row T in
  (ca_z0 tx ty rx ry = ca_k3 tx ty rx ry px -> ca_z1 tx ty rx ry = ca_k4 tx ty rx ry py -> sat L T' (ca_circuit c Tx Ty Rx Ry row)) /\
  frame c 76 row T T' /\ prog_looked P T' c (ca_prog c Tx Ty Rx Ry 0 0 row) row /\
  has_val P T' (own c row) px /\ has_val P T' (own c (row + 2)) py.
Proof.
  intros T c Tx Ty Rx Ry px py row Hwf HW O1 O2 O3 O4 SC Hx Hy tx ty rx ry V1 V2 V3 V4 HS T'.
  destruct (ca_evals c (fun _ v => 0 <= v < ed_p) sub_ok Tx Ty Rx Ry tx ty rx ry px py row Hx Hy HS)
    as [K' [E [I1 [I2 [I3 [I4 [I5 I6]]]]]]].
  pose proof (prog_complete P L big c Hwf HW _ row T _ K' E) as PC. cbv zeta in PC.
  change (prog_rows (ca_prog c Tx Ty Rx Ry px py row)) with 76 in PC. rewrite <- ca_write_prog in PC. fold T' in PC.
  destruct PC as [SP [FR [LK [_ KV]]]].
  { intros A a HA. cbn [In] in HA. repeat (destruct HA as [HA|HA]; [injection HA as <- <-|]); [split; assumption|split; assumption|split; assumption|split; assumption| |contradiction].
    split; [apply ca_consts_val; exact SC|]. intros i Hi. rewrite d_vars_nv by exact Hi. apply ccell_outside. }
  split; [|split; [exact FR|split; [exact LK|split; [apply KV; exact I1|apply KV; exact I2]]]].
  intros Z0 Z1. rewrite (ca_circuit_prog c Tx Ty Rx Ry px py row). rewrite !sat_app. split; [exact SP|]. split.
  - intros x Hx'. specialize (SC x Hx'). unfold ca_consts in Hx'. cbn [In] in Hx'.
    repeat (destruct Hx' as [<-|Hx']; [cbn [holds] in *; rewrite FR; [exact SC|intros [X _]; discriminate]|]). contradiction.
  - apply KV in I3, I4, I5, I6. rewrite Z0 in I3. rewrite Z1 in I4. unfold ca_copies. apply sat_app. split.
    + eapply vals_copies; [exact (has_vals_eq _ _ _ _ I3 I5)| |]; intros i Hi; rewrite na_out_nv by exact Hi; [reflexivity|f_equal; lia].
    + eapply vals_copies; [exact (has_vals_eq _ _ _ _ I4 I6)| |]; intros i Hi; rewrite na_out_nv by exact Hi; [reflexivity|f_equal; lia].
Qed.

Lemma pt_has : forall T X Y x y, has_val P T X x -> has_val P T Y y -> pt_val T X Y = (ofZ x, ofZ y).
Proof.
  intros T X Y x y HX HY. unfold pt_val. destruct (has_val_facts P T X x HX) as [_ [-> _]]. destruct (has_val_facts P T Y y HY) as [_ [-> _]]. reflexivity.
Qed.
Lemma pt_fval : forall (p : ed_point), (ofZ (fval (fst p)), ofZ (fval (snd p))) = p.
Proof. intros [x y]. cbn [fst snd]. rewrite !ofZ_fval. reflexivity. Qed.

Lemma ca_complete_l : forall T c Tx Ty Rx Ry row, wf_comp c 9 -> (forall i, 0 <= i < 4 -> W c i = i) ->
  nn_outside c 76 row Tx -> nn_outside c 76 row Ty -> nn_outside c 76 row Rx -> nn_outside c 76 row Ry ->
  sat L T (ca_consts c row) ->
  forall tx ty rx ry, has_val P T Tx tx -> has_val P T Ty ty -> has_val P T Rx rx -> has_val P T Ry ry ->
  on_ed (ez tx, ez ty) -> on_ed (ez rx, ez ry) ->
  let p := ed_add (ez tx, ez ty) (ez rx, ez ry) in
  sub_ok (fval (snd p)) (ca_k2 tx ty rx ry (fval (snd p))) ->
  let T' := ca_assign c Tx Ty Rx Ry row T in
  sat L T' (ca_circuit c Tx Ty Rx Ry row) /\ frame c 76 row T T' /\ prog_looked P T' c (ca_prog c Tx Ty Rx Ry 0 0 row) row /\
  has_val P T' (own c row) (fval (fst p)) /\ has_val P T' (own c (row + 2)) (fval (snd p)).
Proof.
  intros T c Tx Ty Rx Ry row Hwf HW O1 O2 O3 O4 SC tx ty rx ry V1 V2 V3 V4 C1 C2 p HS T'. unfold T', ca_assign. cbv zeta.
  rewrite (pt_has T Tx Ty tx ty V1 V2), (pt_has T Rx Ry rx ry V3 V4). fold p.
  pose proof (ca_write_l T c Tx Ty Rx Ry (fval (fst p)) (fval (snd p)) row Hwf HW O1 O2 O3 O4 SC (fval_canon _) (fval_canon _) tx ty rx ry V1 V2 V3 V4 HS) as [S K].
  split; [|exact K].
  pose proof (proj2 (ca_ints tx ty rx ry (fval (fst p)) (fval (snd p)) C1 C2)) as CI. rewrite pt_fval in CI. destruct (CI eq_refl) as [Z0 Z1]. apply S; assumption.
Qed.

(** The honest assignment fails when its subtraction does. *)
Definition ca_prog13 (c : comp) (Tx Ty Rx Ry : list var) (px py : Z) (row : Z) : list stage :=
  let t0 := nm_out c (row + 4) in let t1 := nm_out c (row + 11) in
  let t2 := nm_out c (row + 18) in let t3 := nm_out c (row + 25) in
  let z2 := nm_out c (row + 40) in let k0 := nm_out c (row + 47) in let k1 := nm_out c (row + 54) in
  [SPut px; SPut py; SMul Tx Ry; SMul Ty Rx; SMul Tx Rx; SMul Ty Ry; SAdd t0 t1; SAdd t2 t3; SMul t0 t1;
   SMul (d_vars c (row + 47)) z2; SMul (own c row) k0; SMul (own c (row + 2)) k0; SAdd (own c row) k1].
Lemma ca_evals13 : forall c (Q R : Z -> Z -> Prop) Tx Ty Rx Ry tx ty rx ry px py row,
  Q row px -> Q (row + 2) py ->
  exists K', evals c Q R (ca_prog13 c Tx Ty Rx Ry px py row) row [(Tx, tx); (Ty, ty); (Rx, rx); (Ry, ry); (d_vars c (row + 47), ed_d)] K' /\
  In (own c (row + 2), py) K' /\ In (nm_out c (row + 61), ca_k2 tx ty rx ry py) K'.
Proof.
  intros c Q R Tx Ty Rx Ry tx ty rx ry px py row Q1 Q2. eexists. split.
  - unfold ca_prog13. cbv zeta. apply ev_put; [exact Q1|]. apply ev_put; [exact Q2|]. rw row.
    apply (ev_mul c Q R Tx Ry tx ry); [mem|mem|]. rw row. apply (ev_mul c Q R Ty Rx ty rx); [mem|mem|]. rw row.
    apply (ev_mul c Q R Tx Rx tx rx); [mem|mem|]. rw row. apply (ev_mul c Q R Ty Ry ty ry); [mem|mem|]. rw row.
    fold (ca_t0 tx ry) (ca_t1 ty rx) (ca_t2 tx rx) (ca_t3 ty ry).
    apply (ev_add c Q R _ _ (ca_t0 tx ry) (ca_t1 ty rx)); [mem|mem|]. rw row.
    apply (ev_add c Q R _ _ (ca_t2 tx rx) (ca_t3 ty ry)); [mem|mem|]. rw row.
    apply (ev_mul c Q R _ _ (ca_t0 tx ry) (ca_t1 ty rx)); [mem|mem|]. rw row.
    apply (ev_mul c Q R _ _ ed_d ((ca_t0 tx ry * ca_t1 ty rx) mod ed_p)); [mem|mem|]. rw row.
    fold (ca_k0 tx ty rx ry).
    apply (ev_mul c Q R _ _ px (ca_k0 tx ty rx ry)); [mem|mem|]. rw row.
    apply (ev_mul c Q R _ _ py (ca_k0 tx ty rx ry)); [mem|mem|]. rw row. fold (ca_k2 tx ty rx ry py).
    apply (ev_add c Q R _ _ px ((px * ca_k0 tx ty rx ry) mod ed_p)); [mem|mem|]. rw row. apply ev_nil.
  - repeat apply conj; mem.
Qed.
Lemma ca_fails_l : forall T c Tx Ty Rx Ry row, wf_comp c 9 -> (forall i, 0 <= i < 4 -> W c i = i) ->
  nn_outside c 76 row Tx -> nn_outside c 76 row Ty -> nn_outside c 76 row Rx -> nn_outside c 76 row Ry ->
  sat L T (ca_consts c row) ->
  forall tx ty rx ry, has_val P T Tx tx -> has_val P T Ty ty -> has_val P T Rx rx -> has_val P T Ry ry ->
  let p := ed_add (ez tx, ez ty) (ez rx, ez ry) in
  ~ sub_ok (fval (snd p)) (ca_k2 tx ty rx ry (fval (snd p))) ->
  ~ sat L (ca_assign c Tx Ty Rx Ry row T) (ca_circuit c Tx Ty Rx Ry row).
Proof.
  intros T c Tx Ty Rx Ry row Hwf HW O1 O2 O3 O4 SC tx ty rx ry V1 V2 V3 V4 p HS. unfold ca_assign. cbv zeta.
  rewrite (pt_has T Tx Ty tx ty V1 V2), (pt_has T Rx Ry rx ry V3 V4). fold p.
  set (px := fval (fst p)). set (py := fval (snd p)) in *.
  destruct (ca_evals13 c (fun _ v => 0 <= v < ed_p) sub_ok Tx Ty Rx Ry tx ty rx ry px py row (fval_canon _) (fval_canon _)) as [K' [E [I1 I2]]].
  pose proof (prog_complete P L big c Hwf HW _ row T _ K' E) as PC. cbv zeta in PC.
  change (prog_rows (ca_prog13 c Tx Ty Rx Ry px py row)) with 72 in PC. set (T1 := prog_assign P c (ca_prog13 c Tx Ty Rx Ry px py row) row T) in *.
  assert (EA : ca_write c Tx Ty Rx Ry px py row T = ns_assign c (own c (row + 2)) (nm_out c (row + 61)) (row + 72) T1).
  { unfold T1, ca_write, ca_prog13. cbv zeta. cbn [prog_assign st_assign st_rows]. rewrite <- !Z.add_assoc. reflexivity. }
  destruct PC as [_ [_ [_ [_ KV]]]].
  { assert (OO : forall A, nn_outside c 76 row A -> nn_outside c 72 row A).
    { intros A HA i Hi. apply (outside_split c 72 4 row); [lia|lia|apply HA; exact Hi]. }
    intros A a HA. cbn [In] in HA. repeat (destruct HA as [HA|HA]; [injection HA as <- <-|]); [split; auto; fail|split; auto; fail|split; auto; fail|split; auto; fail| |contradiction].
    split; [apply ca_consts_val; exact SC|]. intros i Hi. rewrite d_vars_nv by exact Hi. apply ccell_outside. }
  apply KV in I1, I2. intros S.
  assert (S' : sat L (ca_write c Tx Ty Rx Ry px py row T) (ns_circuit c (own c (row + 2)) (nm_out c (row + 61)) (row + 72))).
  { unfold ca_circuit in S. cbv zeta in S. rewrite !sat_app in S. apply S. }
  rewrite EA in S'. revert S'.
  destruct (has_val_facts P T1 _ _ I1) as [SA [GA PA]]. destruct (has_val_facts P T1 _ _ I2) as [SB [GB PB]].
  apply (ns_fails_l P L big T1 c); auto.
  - intros i Hi. rewrite own_nv by exact Hi. apply (fresh_own c 4 (row + 72) i (row + 2)). lia.
  - intros i Hi. rewrite nm_out_nv by exact Hi. apply (fresh_own c 4 (row + 72) (3 + i) (row + 61 + 5)). lia.
  - rewrite GA, GB. unfold sub_ok in HS. lia.
  - rewrite (limb0_val P T1 _ _ I1), (limb0_val P T1 _ _ I2). unfold sub_ok in HS. lia.
Qed.

(** ** Doubling *)

(** The copies that would compare the two middle limbs of t5 and t10. *)
Definition db_missing T (c : comp) (row : Z) : Prop :=
  T CWit (W c 1) (row + 35) = T CWit (W c 1) (row + 61) /\ T CWit (W c 2) (row + 35) = T CWit (W c 2) (row + 61).
(** The first limb is the sum of its chunks. *)
Lemma rg_low : forall T c ins row, sat L T (rg_circuit c ins row) ->
  T CWit (W c 0) row = fadd (fadd (T CWit (W c 4) row) (fmul (T CWit (W c 5) row) (ofZ (2 ^ 22)))) (fmul (T CWit (W c 6) row) (ofZ (2 ^ 44))).
Proof.
  intros T c ins row H. unfold rg_circuit in H. rewrite sat_cons in H. destruct H as [G _]. rewrite holds_gate1 in G.
  unfold rg_gate in G. cbv zeta in G. rewrite all_cons in G. destruct G as [G _]. eval_hyps. apply (proj1 (fsub_eq0 P _ _)) in G. exact G.
Qed.

Lemma db_sound_l : forall T c Tx Ty row, sat L T (db_circuit c Tx Ty row) ->
  prog_looked P T c (db_prog c Tx Ty 0 0 row) row -> db_missing T c row ->
  nn_small (nn_vals T Tx) -> nn_small (nn_vals T Ty) -> on_ed (pt_val T Tx Ty) ->
  nn_small (nn_vals T (own c row)) /\ nn_small (nn_vals T (own c (row + 2))) /\
  nn_glue_z (nn_vals T (own c row)) < ed_p /\ nn_glue_z (nn_vals T (own c (row + 2))) < ed_p /\
  pt_val T (own c row) (own c (row + 2)) = ed_add (pt_val T Tx Ty) (pt_val T Tx Ty).
Proof.
  intros T c Tx Ty row S HL [M1 M2] S1 S2 O1. unfold pt_val in *.
  set (tx := nn_glue_z (nn_vals T Tx)) in *. set (ty := nn_glue_z (nn_vals T Ty)) in *.
  set (px := nn_glue_z (nn_vals T (own c row))). set (py := nn_glue_z (nn_vals T (own c (row + 2)))).
  rewrite (db_circuit_prog c Tx Ty px py row) in S. rewrite !sat_app in S. destruct S as [SP SE].
  destruct (db_evals c (fun r v => v = nn_glue_z (nn_vals T (own c r))) (fun _ _ => True) Tx Ty tx ty px py row eq_refl eq_refl I I)
    as [K' [E [I1 [I2 [I3 [I4 [I5 I6]]]]]]].
  assert (SV : forall A a, In (A, a) K' -> small_val P T A a).
  { apply (prog_sound P L big c T _ row _ K' _ E SP HL). intros A a HA. cbn [In] in HA.
    repeat (destruct HA as [HA|HA]; [injection HA as <- <-|]); [split; auto; fail|split; auto; fail|contradiction]. }
  unfold db_copies in SE. rewrite sat_app in SE. destruct SE as [E1 E2].
  assert (V1 : nn_vals T (nm_out c (row + 41)) = nn_vals T (na_out c (row + 29))).
  { eapply copies_vals; [exact E1| |]; intros i Hi; [rewrite nm_out_nv by exact Hi|rewrite na_out_nv by exact Hi]; reflexivity. }
  assert (X : forall i, 0 <= i < 4 -> T CWit (W c (3 + i)) (row + 33 + 2) = T CWit (W c (3 + i)) (row + 59 + 2)).
  { intros i Hi. rewrite <- !vval_wcell. apply (E2 (Copy (wcell (W c (3 + i)) (row + 33 + 2)) (wcell (W c (3 + i)) (row + 59 + 2)))).
    apply in_map_iff. exists i. split; [reflexivity|apply in_zseq; exact Hi]. }
  assert (CN : px < ed_p /\ py < ed_p /\
    sat L T (rg_circuit c (na_out c (row + 33)) (row + 33 + 2)) /\ sat L T (rg_circuit c (na_out c (row + 59)) (row + 59 + 2))).
  { unfold db_prog in SP, HL. cbv zeta in SP, HL. cbn [prog_circuit st_circuit prog_looked st_looked st_rows] in SP, HL. rewrite !sat_app in SP.
    destruct SP as [R1 [R2 [_ [_ [_ [_ [_ [A33 [_ [_ [_ [_ [A59 _]]]]]]]]]]]]]. destruct HL as [H1 [H2 _]].
    pose proof (rg_sound_l P L big T c _ _ R1 H1) as [_ [_ [_ [_ X1]]]]. pose proof (rg_sound_l P L big T c _ _ R2 H2) as [_ [_ [_ [_ X2]]]].
    split; [exact X1|]. split; [exact X2|]. revert A33 A59. rw row. intros A33 A59.
    apply na_parts in A33, A59. destruct A33 as [_ [A33 _]]. destruct A59 as [_ [A59 _]]. revert A33 A59. rw row. auto. }
  destruct CN as [CX [CY [R33 R59]]]. apply rg_low in R33, R59.
  assert (V2 : nn_vals T (na_out c (row + 33)) = nn_vals T (na_out c (row + 59))).
  { unfold nn_vals. apply map_ext_in. intros i Hi. apply in_zseq in Hi. rewrite !na_out_nv, !vval_wcell by exact Hi. f_equal.
    destruct (four i Hi) as [-> |[-> |[-> | ->]]].
    - rewrite R33, R59. pose proof (X 1 ltac:(lia)) as X1. pose proof (X 2 ltac:(lia)) as X2. pose proof (X 3 ltac:(lia)) as X3.
      change (3 + 1) with 4 in X1. change (3 + 2) with 5 in X2. change (3 + 3) with 6 in X3. rewrite X1, X2, X3. reflexivity.
    - rw row. exact M1.
    - rw row. exact M2.
    - exact (X 0 ltac:(lia)). }
  destruct (SV _ _ I1) as [SX _]. destruct (SV _ _ I2) as [SY _].
  split; [exact SX|]. split; [exact SY|]. split; [exact CX|]. split; [exact CY|]. symmetry. apply db_ints; [exact O1|].
  destruct (SV _ _ I3) as [_ G3]. destruct (SV _ _ I4) as [_ G4]. destruct (SV _ _ I5) as [_ G5]. destruct (SV _ _ I6) as [_ G6].
  rewrite <- G3, <- G4, <- G5, <- G6, V1, V2. split; reflexivity.
Qed.

(** What the honest stages of the doubling give, whatever point is chosen: the
    copies compare the lowest and highest limbs of t5 and t10 only. *)
Lemma db_write_l : forall T c Tx Ty px py row, wf_comp c 9 -> (forall i, 0 <= i < 4 -> W c i = i) ->
  nn_outside c 63 row Tx -> nn_outside c 63 row Ty -> 0 <= px < ed_p -> 0 <= py < ed_p ->
  forall tx ty, has_val P T Tx tx -> has_val P T Ty ty ->
  sub_ok (db_t0 ty) (db_t1 tx) -> sub_ok (db_t1 tx) (db_t0 ty) ->
  let T' := db_write c Tx Ty px py row T in
  (db_t7 tx ty px = db_t4 tx ty -> nn_limb (db_t5 tx ty) 0 = nn_limb (db_t10 tx ty py) 0 ->
   nn_limb (db_t5 tx ty) 3 = nn_limb (db_t10 tx ty py) 3 -> sat L T' (db_circuit c Tx Ty row)) /\
  (db_t5 tx ty = db_t10 tx ty py -> db_missing T' c row) /\
  frame c 63 row T T' /\ prog_looked P T' c (db_prog c Tx Ty 0 0 row) row /\
  has_val P T' (own c row) px /\ has_val P T' (own c (row + 2)) py.
Proof.
  intros T c Tx Ty px py row Hwf HW O1 O2 Hx Hy tx ty V1 V2 HS1 HS2 T'.
  destruct (db_evals c (fun _ v => 0 <= v < ed_p) sub_ok Tx Ty tx ty px py row Hx Hy HS1 HS2)
    as [K' [E [I1 [I2 [I3 [I4 [I5 I6]]]]]]].
  pose proof (prog_complete P L big c Hwf HW _ row T _ K' E) as PC. cbv zeta in PC.
  change (prog_rows (db_prog c Tx Ty px py row)) with 63 in PC. rewrite <- db_write_prog in PC. fold T' in PC.
  destruct PC as [SP [FR [LK [SC KV]]]].
  { intros A a HA. cbn [In] in HA. repeat (destruct HA as [HA|HA]; [injection HA as <- <-|]); [split; assumption|split; assumption|contradiction]. }
  apply KV in I3, I4, I5, I6.
  assert (Y : forall A B a b i, has_val P T' A a -> has_val P T' B b -> 0 <= i < 4 -> nn_limb a i = nn_limb b i -> vval T' (nv A i) = vval T' (nv B i)).
  { intros A B a b i [EA _] [EB _] Hi EQ. apply F_ext. rewrite <- !nn_vals_nth by exact Hi. rewrite EA, EB.
    destruct (four i Hi) as [-> |[-> |[-> | ->]]]; exact EQ. }
  split; [|split; [|split; [exact FR|split; [exact LK|split; [apply KV; exact I1|apply KV; exact I2]]]]].
  - intros Z0 L0 L3. rewrite (db_circuit_prog c Tx Ty px py row). rewrite !sat_app. split; [exact SP|].
    rewrite Z0 in I4. unfold db_copies. apply sat_app. split.
    + eapply vals_copies; [exact (has_vals_eq _ _ _ _ I4 I3)| |]; intros i Hi; [rewrite nm_out_nv by exact Hi|rewrite na_out_nv by exact Hi]; reflexivity.
    + assert (LC : low_chunks P T' c (row + 33) (db_t5 tx ty) /\ low_chunks P T' c (row + 59) (db_t10 tx ty py)).
      { unfold db_prog in SC. cbv zeta in SC. cbn [sums_chunks st_rows] in SC.
        destruct SC as [_ [_ [_ [_ [_ [_ [_ [A33 [_ [_ [_ [_ [A59 _]]]]]]]]]]]]]. revert A33 A59. rw row. intros A33 A59. split; [apply A33; exact I5|apply A59; exact I6]. }
      destruct LC as [C5 C10]. intros x Hx'. apply in_map_iff in Hx'. destruct Hx' as [i [<- Hi]]. apply in_zseq in Hi. cbn [holds]. rewrite !vval_wcell.
      destruct (Z.eq_dec i 0) as [-> |N].
      * pose proof (Y _ _ _ _ 3 I5 I6 ltac:(lia) L3) as K. rewrite !na_out_nv, !vval_wcell in K by lia. exact K.
      * replace (3 + i) with (4 + (i - 1)) by lia. rewrite (C5 (i - 1)), (C10 (i - 1)) by lia. f_equal.
        assert (CH : forall a k, 0 <= k < 3 -> rg_chunk (nn_chop a) k = (nn_limb a 0 / 2 ^ (22 * k)) mod 2 ^ 22).
        { intros a k Hk. assert (k = 0 \/ k = 1 \/ k = 2) as [-> |[-> | ->]] by lia; reflexivity. }
        rewrite !CH by lia. rewrite L0. reflexivity.
  - intros EQ. rewrite EQ in I5. unfold db_missing. split.
    + pose proof (Y _ _ _ _ 1 I5 I6 ltac:(lia) eq_refl) as K. rewrite !na_out_nv, !vval_wcell in K by lia. revert K. rw row. auto.
    + pose proof (Y _ _ _ _ 2 I5 I6 ltac:(lia) eq_refl) as K. rewrite !na_out_nv, !vval_wcell in K by lia. revert K. rw row. auto.
Qed.

Lemma db_complete_l : forall T c Tx Ty row, wf_comp c 9 -> (forall i, 0 <= i < 4 -> W c i = i) ->
  nn_outside c 63 row Tx -> nn_outside c 63 row Ty ->
  forall tx ty, has_val P T Tx tx -> has_val P T Ty ty -> on_ed (ez tx, ez ty) ->
  sub_ok (db_t0 ty) (db_t1 tx) -> sub_ok (db_t1 tx) (db_t0 ty) ->
  let p := ed_add (ez tx, ez ty) (ez tx, ez ty) in
  let T' := db_assign c Tx Ty row T in
  sat L T' (db_circuit c Tx Ty row) /\ db_missing T' c row /\ frame c 63 row T T' /\ prog_looked P T' c (db_prog c Tx Ty 0 0 row) row /\
  has_val P T' (own c row) (fval (fst p)) /\ has_val P T' (own c (row + 2)) (fval (snd p)).
Proof.
  intros T c Tx Ty row Hwf HW O1 O2 tx ty V1 V2 C1 HS1 HS2 p T'. unfold T', db_assign. cbv zeta.
  rewrite (pt_has T Tx Ty tx ty V1 V2). fold p.
  pose proof (db_write_l T c Tx Ty (fval (fst p)) (fval (snd p)) row Hwf HW O1 O2 (fval_canon _) (fval_canon _) tx ty V1 V2 HS1 HS2) as [S [M K]].
  pose proof (proj2 (db_ints tx ty (fval (fst p)) (fval (snd p)) C1)) as CI. rewrite pt_fval in CI. destruct (CI eq_refl) as [Z0 Z1].
  split; [apply S; [exact Z0|rewrite Z1; reflexivity|rewrite Z1; reflexivity]|]. split; [apply M; exact Z1|exact K].
Qed.
End Ed.
