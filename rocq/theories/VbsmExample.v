(** A curve with a point of order seven over the BLS12-381 scalar field, whose
    ladder for the scalar 0 is periodic; and multiples of points. *)
From Coq Require Import ZArith Zpow_facts List Lia Bool Field.
From Verif Require Import Base Field Primes Pasta Plonk PlonkFacts Bits CurveSpec CurveModel CurveProofs VbsmSpec VbsmModel VbsmProofs VbsmTrace.
Import ListNotations.
Open Scope Z_scope.

(** ** The ladder and multiples *)

Section Multiple.
Variable P : params.
Notation F := (F P).
Hypothesis B3 : 3 <= char P.
Variables (bc : F) (t : point P).
Hypothesis NA : no_axis_points bc.
Hypothesis AS : ec_assoc bc.
Hypothesis OT : on_curve bc t.

Lemma mul_S : forall k, 0 <= k -> ec_mul (k + 1) t = ec_add (ec_mul k t) t.
Proof. intros k Hk. unfold ec_mul. rewrite fold_zseq_snoc by lia. reflexivity. Qed.
Lemma mul_on : forall k, 0 <= k -> on_curve bc (ec_mul k t).
Proof.
  intros k Hk. pattern k. apply natlike_ind; [exact I| |exact Hk]. intros i Hi IH. unfold Z.succ. rewrite mul_S by lia. apply ec_add_on; assumption.
Qed.
Lemma add_none : forall p : point P, ec_add p None = p.
Proof. intros [[x y]|]; reflexivity. Qed.
Lemma mul_add : forall a k, 0 <= a -> 0 <= k -> ec_mul (a + k) t = ec_add (ec_mul a t) (ec_mul k t).
Proof.
  intros a k Ha Hk. pattern k. apply natlike_ind; [| |exact Hk]; clear k Hk.
  - rewrite Z.add_0_r. symmetry. apply add_none.
  - intros k Hk IH. unfold Z.succ. rewrite Z.add_assoc, !mul_S by lia. rewrite IH. apply AS; [apply mul_on; lia|apply mul_on; lia|exact OT].
Qed.
Add Field Fm : (F_field P) (morphism (F_morph P), constants [F_const], power_tac (F_power P) [F_pow_tac]).
Lemma neg_on : on_curve bc (neg t).
Proof.
  clear AS NA. destruct t as [[x y]|]; [|exact I]. cbn [neg on_curve] in *. rewrite <- OT. ring.
Qed.

(** Every ladder step doubles and adds or subtracts the base point. *)
Lemma ladder_mul : forall n k, 0 <= n < 2 ^ 255 -> 0 <= k <= 255 ->
  ladder t n k = ec_mul (2 * (n / 2 ^ (255 - k)) + 2 ^ k + 1) t.
Proof.
  intros n k Hn [Hk Hk2]. revert Hk2. pattern k. apply natlike_ind; [| |exact Hk]; clear k Hk.
  - intros _. rewrite Z.sub_0_r, Z.div_small by lia. change (2 * 0 + 2 ^ 0 + 1) with (0 + 1 + 1). rewrite !mul_S by lia. reflexivity.
  - intros k Hk IH H. unfold Z.succ in *. rewrite ladder_S, IH by lia.
    set (c := 2 * (n / 2 ^ (255 - k)) + 2 ^ k + 1).
    assert (D : 0 <= n / 2 ^ (255 - k)) by (apply Z.div_pos; [lia|apply Z.pow_pos_nonneg; lia]).
    assert (P2 : 0 < 2 ^ k) by (apply Z.pow_pos_nonneg; lia).
    assert (S : n / 2 ^ (255 - (k + 1)) = 2 * (n / 2 ^ (255 - k)) + Z.b2z (Z.testbit n (254 - k))).
    { rewrite testbit_digit by lia. replace (255 - (k + 1)) with (254 - k) by lia.
      replace (255 - k) with (254 - k + 1) by lia. rewrite Z.pow_add_r by lia. rewrite <- Z.div_div by (try apply Z.pow_nonzero; lia).
      change (2 ^ 1) with 2. apply Z.div_mod. lia. }
    rewrite S. rewrite (Z.pow_add_r 2 k 1) by lia. change (2 ^ 1) with 2.
    destruct (Z.testbit n (254 - k)); cbn [Z.b2z].
    + rewrite <- mul_S by (unfold c; lia). rewrite <- mul_add by (unfold c; lia). f_equal. unfold c. lia.
    + replace (ec_mul c t) with (ec_add (ec_mul (c - 1) t) t) at 1 by (rewrite <- mul_S by (unfold c; lia); f_equal; lia).
      rewrite (AS (ec_mul (c - 1) t) t (neg t)); [|apply mul_on; unfold c; lia|exact OT|exact neg_on]. rewrite (ec_add_neg P t), (add_none (ec_mul (c - 1) t)).
      rewrite <- mul_add by (unfold c; lia). f_equal. unfold c. lia.
Qed.
End Multiple.

(** ** The example curve *)

Definition ex7 : F Pbls * F Pbls :=
  (ofZ 0x152b000eacf6bbbdd51f2cd76ff264f8b89ec0525ffa20625412b9660a6422bc,
   ofZ 0x5d8448c5fea53dfa2c86192631aaf93bc82353da69c1637021020924cd81825e).
Definition ex7_2 : F Pbls * F Pbls :=
  (ofZ 27154571362132163733684826146500744256220709216980510008760102890439385081988,
   ofZ 42298820994458281939883756755552027984259571696069937482886506528829908025950).
Definition ex7_3 : F Pbls * F Pbls :=
  (ofZ 15706759173305494337362742586324737485585391385619891705698008563434226382017,
   ofZ 10137054180667908539563983752633937853430980804457700339717152171108673158563).
Definition ex7_5 : F Pbls * F Pbls :=
  (ofZ 27154571362132163733684826146500744256220709216980510008760102890439385081988,
   ofZ 10137054180667908539563983752633937853430980804457700339717152171108673158563).

Definition peqb {P} (p q : point P) : bool :=
  match p, q with
  | Some a, Some b => feqb (fst a) (fst b) && feqb (snd a) (snd b)
  | None, None => true
  | _, _ => false
  end.
Lemma peqb_eq : forall P (p q : point P), peqb p q = true -> p = q.
Proof.
  intros P [[x y]|] [[x' y']|] H; try discriminate; [|reflexivity]. cbn in H. apply andb_true_iff in H. destruct H as [H1 H2].
  apply feqb_eq in H1, H2. subst. reflexivity.
Qed.
Definition onb {P} (b : F P) (p : F P * F P) : bool :=
  feqb (fmul (snd p) (snd p)) (fadd (fmul (fmul (fst p) (fst p)) (fst p)) b).
Lemma onb_on : forall P (b : F P) p, onb b p = true -> on_curve b (Some p).
Proof. intros P b [x y] H. apply feqb_eq in H. exact H. Qed.

Lemma ex7_steps :
  ec_add (Some ex7) (Some ex7) = Some ex7_2 /\
  ec_add (ec_add (Some ex7_2) (neg (Some ex7))) (Some ex7_2) = Some ex7_3 /\
  ec_add (ec_add (Some ex7_3) (neg (Some ex7))) (Some ex7_3) = Some ex7_5 /\
  ec_add (ec_add (Some ex7_5) (neg (Some ex7))) (Some ex7_5) = Some ex7_2.
Proof. split; [|split; [|split]]; apply peqb_eq; vm_compute; reflexivity. Qed.
Lemma ex7_on : on_curve (ofZ 7) (Some ex7).
Proof. apply onb_on. vm_compute. reflexivity. Qed.

Lemma ex7_ladder : forall j, 0 <= j ->
  ladder (Some ex7) 0 (3 * j) = Some ex7_2 /\ ladder (Some ex7) 0 (3 * j + 1) = Some ex7_3 /\ ladder (Some ex7) 0 (3 * j + 2) = Some ex7_5.
Proof.
  destruct ex7_steps as [E0 [E1 [E2 E3]]].
  assert (ST : forall k, 0 <= k -> ladder (Some ex7) 0 (k + 1) = ec_add (ec_add (ladder (Some ex7) 0 k) (neg (Some ex7))) (ladder (Some ex7) 0 k)).
  { intros k Hk. rewrite ladder_S by lia. rewrite Z.testbit_0_l. reflexivity. }
  assert (A : forall j, 0 <= j -> ladder (Some ex7) 0 (3 * j) = Some ex7_2 ->
    ladder (Some ex7) 0 (3 * j + 1) = Some ex7_3 /\ ladder (Some ex7) 0 (3 * j + 2) = Some ex7_5).
  { intros j Hj H. assert (H1 : ladder (Some ex7) 0 (3 * j + 1) = Some ex7_3) by (rewrite ST, H by lia; exact E1).
    split; [exact H1|]. replace (3 * j + 2) with (3 * j + 1 + 1) by lia. rewrite ST, H1 by lia. exact E2. }
  assert (B : forall j, 0 <= j -> ladder (Some ex7) 0 (3 * j) = Some ex7_2).
  { intros j Hj. pattern j. apply natlike_ind; [exact E0| |exact Hj]. intros i Hi IH. unfold Z.succ.
    replace (3 * (i + 1)) with (3 * i + 2 + 1) by lia. destruct (A i Hi IH) as [_ H2]. rewrite ST, H2 by lia. exact E3. }
  intros j Hj. split; [exact (B j Hj)|]. exact (A j Hj (B j Hj)).
Qed.

Lemma ex7_regular : forall k, regular (Some ex7) 0 k.
Proof.
  intros k i Hi. destruct (ex7_ladder (i / 3) ltac:(apply Z.div_pos; lia)) as [A0 [A1 A2]].
  pose proof (Z.div_mod i 3 ltac:(lia)) as D. pose proof (Z.mod_pos_bound i 3 ltac:(lia)) as R.
  assert (X2 : fst ex7_2 <> fst ex7) by (apply feqb_neq; vm_compute; reflexivity).
  assert (X3 : fst ex7_3 <> fst ex7) by (apply feqb_neq; vm_compute; reflexivity).
  assert (C : i = 3 * (i / 3) \/ i = 3 * (i / 3) + 1 \/ i = 3 * (i / 3) + 2) by lia.
  destruct C as [C|[C|C]]; rewrite C; clear C D R.
  - exists (fst ex7_2), (snd ex7_2), (fst ex7), (snd ex7). split; [exact A0|]. split; [reflexivity|exact X2].
  - exists (fst ex7_3), (snd ex7_3), (fst ex7), (snd ex7). split; [exact A1|]. split; [reflexivity|exact X3].
  - exists (fst ex7_5), (snd ex7_5), (fst ex7), (snd ex7). split; [exact A2|]. split; [reflexivity|exact X2].
Qed.

(** Seven is neither a square nor a cube: one power decides both. *)
Lemma bls_no_axis : no_axis_points (P := Pbls) (ofZ 7).
Proof.
  set (c := powm bls_r 7 ((bls_r - 1) / 6)).
  assert (C : ((c * c * c) mod bls_r =? 1) = false /\ ((c * c) mod bls_r =? 1) = false).
  { assert (E : (let c := powm bls_r 7 ((bls_r - 1) / 6) in negb ((c * c * c) mod bls_r =? 1) && negb ((c * c) mod bls_r =? 1)) = true) by (vm_compute; reflexivity).
    cbv zeta in E. fold c in E. apply andb_true_iff in E. rewrite !negb_true_iff in E. exact E. }
  destruct C as [C3 C2]. apply Z.eqb_neq in C3, C2.
  assert (EC : c = 7 ^ ((bls_r - 1) / 6) mod bls_r) by (apply powm_ok; [reflexivity|apply Z.div_pos; unfold bls_r; lia]). clearbody c.
  set (e := (bls_r - 1) / 6) in *.
  assert (E0 : 0 <= e) by (apply Z.div_pos; unfold bls_r; lia).
  assert (E3 : (bls_r - 1) / 3 = e * 2) by reflexivity. assert (E2 : (bls_r - 1) / 2 = e * 3) by reflexivity.
  assert (EV : e = 2 * (e / 2)) by reflexivity.
  assert (D2 : bls_r - 1 = e * 3 * 2) by reflexivity. assert (D3 : bls_r - 1 = e * 2 * 3) by reflexivity. clearbody e.
  assert (CU : forall x, x ^ 3 = x * x * x) by (intros; ring). assert (SQ : forall x, x ^ 2 = x * x) by (intros; ring).
  assert (PC : forall k, 0 <= k -> c ^ k mod bls_r = 7 ^ (e * k) mod bls_r).
  { intros k Hk. rewrite EC. rewrite <- Zpower_mod by (unfold bls_r; lia). rewrite <- Z.pow_mul_r by lia. reflexivity. }
  apply no_axis_by_powers; cbn [char Pbls].
  - exists (e * 3). exact D2.
  - exists (e * 2). exact D3.
  - unfold bls_r; lia.
  - rewrite E2. rewrite <- PC by lia. rewrite CU. exact C3.
  - rewrite E3. intros K. apply C2. rewrite <- SQ. rewrite PC by lia. rewrite <- K.
    rewrite (Z.mul_comm e 2), !Z.pow_mul_r by lia.
    rewrite (Zpower_mod (7 ^ 2)) by (unfold bls_r; lia). rewrite (Zpower_mod ((bls_r - 7) ^ 2)) by (unfold bls_r; lia).
    f_equal.
Qed.
