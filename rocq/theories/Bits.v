(** Positional number systems, most significant digit first, and reading back
    lists of writes.  Nothing here models code. *)
From Coq Require Import ZArith List Lia Bool.
From Verif Require Import Base Field Plonk PlonkFacts.
Import ListNotations.
Open Scope Z_scope.

(** [horner b d n] is the number with digits [d 0, ..., d (n-1)] in base [b],
    most significant first. *)
Definition horner (b : Z) (d : Z -> Z) (n : Z) : Z :=
  fold_left (fun a k => b * a + d k) (zseq 0 n) 0.

Lemma horner_0 : forall b d, horner b d 0 = 0.
Proof. reflexivity. Qed.

Lemma horner_S : forall b d n, 0 <= n -> horner b d (n + 1) = b * horner b d n + d n.
Proof. intros. unfold horner. rewrite fold_zseq_snoc by lia. reflexivity. Qed.

Lemma horner_bound : forall b d n, 0 < b -> 0 <= n ->
  (forall k, 0 <= k < n -> 0 <= d k < b) -> 0 <= horner b d n < b ^ n.
Proof.
  intros b d n Hb Hn. pattern n. apply natlike_ind; [| |exact Hn]; clear n Hn.
  - intros _. rewrite horner_0. cbn. lia.
  - intros n Hn IH H. unfold Z.succ. rewrite horner_S by lia.
    assert (IH' := IH ltac:(intros; apply H; lia)). specialize (H n ltac:(lia)).
    rewrite Z.pow_add_r, Z.pow_1_r by lia. nia.
Qed.

Lemma horner_ext : forall b d d' n, (forall k, 0 <= k < n -> d k = d' k) -> horner b d n = horner b d' n.
Proof.
  intros b d d' n. destruct (Z_lt_le_dec n 0) as [Hn|Hn].
  { intros _. unfold horner. rewrite zseq_nil by lia. reflexivity. }
  pattern n. apply natlike_ind; [| |exact Hn]; clear n Hn.
  - reflexivity.
  - intros n Hn IH H. unfold Z.succ in *. rewrite !horner_S by lia.
    rewrite IH by (intros; apply H; lia). rewrite H by lia. reflexivity.
Qed.

Lemma horner_split : forall b d m n, 0 <= m -> 0 <= n ->
  horner b d (m + n) = horner b d m * b ^ n + horner b (fun k => d (m + k)) n.
Proof.
  intros b d m n Hm Hn. pattern n. apply natlike_ind; [| |exact Hn]; clear n Hn.
  - rewrite Z.add_0_r, horner_0. cbn. lia.
  - intros n Hn IH. unfold Z.succ. rewrite Z.add_assoc, !horner_S by lia. rewrite IH.
    rewrite Z.pow_add_r, Z.pow_1_r by lia. ring.
Qed.

Lemma horner_zero : forall b d n, (forall k, 0 <= k < n -> d k = 0) -> horner b d n = 0.
Proof.
  intros b d n H. rewrite (horner_ext b d (fun _ => 0) n H). clear H.
  destruct (Z_lt_le_dec n 0) as [Hn|Hn].
  { unfold horner. rewrite zseq_nil by lia. reflexivity. }
  pattern n. apply natlike_ind; [| |exact Hn]; clear n Hn.
  - reflexivity.
  - intros n Hn IH. unfold Z.succ. rewrite horner_S, IH by lia. lia.
Qed.

Lemma horner_digits : forall b x n, 0 < b -> 0 <= n ->
  horner b (fun k => (x / b ^ (n - 1 - k)) mod b) n = x mod b ^ n.
Proof.
  intros b x n Hb Hn. revert x. pattern n. apply natlike_ind; [| |exact Hn]; clear n Hn.
  - intros x. rewrite horner_0. cbn. rewrite Z.mod_1_r. reflexivity.
  - intros n Hn IH x. unfold Z.succ. rewrite horner_S by lia.
    assert (0 < b ^ n) by (apply Z.pow_pos_nonneg; lia).
    rewrite (horner_ext b _ (fun k => ((x / b) / b ^ (n - 1 - k)) mod b) n).
    + rewrite IH. replace (n + 1 - 1 - n) with 0 by lia.
      rewrite Z.pow_0_r, Z.div_1_r, Z.pow_add_r, Z.pow_1_r by lia.
      rewrite (Z.mul_comm (b ^ n) b), Z.rem_mul_r by lia. ring.
    + intros k Hk. f_equal. rewrite Z.div_div by (try lia; apply Z.pow_pos_nonneg; lia).
      f_equal. rewrite <- Z.pow_succ_r by lia. f_equal. lia.
Qed.

(** Digits are determined by the number. *)
Lemma horner_digit : forall b d n k, 0 < b -> 0 <= k < n ->
  (forall k, 0 <= k < n -> 0 <= d k < b) ->
  d k = (horner b d n / b ^ (n - 1 - k)) mod b.
Proof.
  intros b d n k Hb Hk H.
  replace n with ((k + 1) + (n - 1 - k)) at 1 by lia.
  rewrite horner_split by lia.
  assert (B : 0 <= horner b (fun j => d (k + 1 + j)) (n - 1 - k) < b ^ (n - 1 - k)).
  { apply horner_bound; [lia|lia|]. intros j Hj. apply H. lia. }
  rewrite Z.div_add_l by lia. rewrite (Z.div_small _ _ B), Z.add_0_r.
  rewrite horner_S by lia. rewrite Z.mul_comm, Z.add_comm, Z.mod_add by lia.
  rewrite Z.mod_small; [reflexivity|]. apply H. lia.
Qed.

(** The bit sequence of a number, most significant first, among [n] bits. *)
Definition msb_bit (n x i : Z) : Z := Z.b2z (Z.testbit x (n - 1 - i)).
(** Bit [i], least significant first. *)
Definition lsb_bit (x i : Z) : Z := Z.b2z (Z.testbit x i).

Lemma testbit_digit : forall x i, 0 <= i -> Z.b2z (Z.testbit x i) = (x / 2 ^ i) mod 2.
Proof. intros. apply Z.testbit_spec'. assumption. Qed.

Lemma horner_bits : forall x n, 0 <= n -> horner 2 (msb_bit n x) n = x mod 2 ^ n.
Proof.
  intros x n Hn. rewrite <- horner_digits by lia. apply horner_ext. intros k Hk.
  unfold msb_bit. apply testbit_digit. lia.
Qed.

Lemma b2z_range : forall b, 0 <= Z.b2z b < 2.
Proof. intros []; cbn; lia. Qed.

(** Field-valued Horner sums. *)
Section F.
Variable P : params.
Notation F := (F P).
Local Open Scope F_scope.

Definition fhorner (b : F) (d : Z -> F) (n : Z) : F :=
  fold_left (fun a k => b * a + d k) (zseq 0 n) f0.

Lemma fhorner_0 : forall b d, fhorner b d 0%Z = f0.
Proof. reflexivity. Qed.

Lemma fhorner_S : forall b d n, (0 <= n)%Z -> fhorner b d (n + 1)%Z = b * fhorner b d n + d n.
Proof. intros. unfold fhorner. rewrite fold_zseq_snoc by lia. reflexivity. Qed.

Lemma fhorner_ofZ : forall b d e n,
  (forall k, (0 <= k < n)%Z -> e k = ofZ (d k)) -> fhorner (ofZ b) e n = ofZ (horner b d n).
Proof.
  intros b d e n. destruct (Z_lt_le_dec n 0) as [Hn|Hn].
  { intros _. unfold horner, fhorner. rewrite zseq_nil by lia. reflexivity. }
  pattern n. apply natlike_ind; [| |exact Hn]; clear n Hn.
  - reflexivity.
  - intros n Hn IH H. unfold Z.succ in *. rewrite horner_S, fhorner_S by lia.
    rewrite IH by (intros; apply H; lia). rewrite H by lia. rewrite ofZ_add, ofZ_mul. reflexivity.
Qed.

End F.
Arguments fhorner {P}.

(** Choice of integer witnesses over a finite range. *)
Lemma choose_range : forall (Q : Z -> Z -> Prop) n,
  (forall k, 0 <= k < n -> exists d, Q k d) ->
  exists d : Z -> Z, forall k, 0 <= k < n -> Q k (d k).
Proof.
  intros Q n. destruct (Z_lt_le_dec n 0) as [Hn|Hn].
  { intros _. exists (fun _ => 0). intros; lia. }
  pattern n. apply natlike_ind; [| |exact Hn]; clear n Hn.
  - intros _. exists (fun _ => 0). intros; lia.
  - intros n Hn IH H. destruct IH as [d Hd]; [intros; apply H; lia|].
    destruct (H n ltac:(lia)) as [e He].
    exists (fun k => if k =? n then e else d k). intros k Hk.
    destruct (k =? n) eqn:E; [apply Z.eqb_eq in E; subst; exact He|].
    apply Z.eqb_neq in E. apply Hd. lia.
Qed.

(** ** Lists of writes *)

Section Writes.
Variable P : params.
Notation F := (F P).
Implicit Types T : table P.

(** [assignment.witness(col, row) = v] for each entry, in order. *)
Definition wsets (T : table P) (ws : list (Z * Z * F)) : table P :=
  fold_left (fun T w => wset T (fst (fst w)) (snd (fst w)) (snd w)) ws T.

Lemma wsets_app : forall T a b, wsets T (a ++ b) = wsets (wsets T a) b.
Proof. intros. unfold wsets. apply fold_left_app. Qed.

Lemma wsets_wit_const : forall T ws ty c r, ty <> CWit -> wsets T ws ty c r = T ty c r.
Proof.
  intros T ws ty c r H. revert T. induction ws as [|w ws IH]; intros T; [reflexivity|].
  cbn. fold (wsets (wset T (fst (fst w)) (snd (fst w)) (snd w)) ws). rewrite IH.
  apply wset_other. left. exact H.
Qed.

Lemma wsets_other : forall T ws c r,
  (forall v, ~ In (c, r, v) ws) -> wsets T ws CWit c r = T CWit c r.
Proof.
  intros T ws c r. revert T. induction ws as [|[[c1 r1] v1] ws IH]; intros T H; [reflexivity|].
  cbn. fold (wsets (wset T c1 r1 v1) ws). rewrite IH.
  - apply wset_other. right.
    destruct (Z.eq_dec c c1) as [->|]; [|left; assumption].
    right. intros ->. apply (H v1). left. reflexivity.
  - intros v Hv. apply (H v). right. exact Hv.
Qed.

Lemma wsets_read : forall T ws c r v,
  In (c, r, v) ws -> (forall v', In (c, r, v') ws -> v' = v) -> wsets T ws CWit c r = v.
Proof.
  intros T ws c r v. revert T. induction ws as [|[[c1 r1] v1] ws IH]; intros T H U; [destruct H|].
  cbn. fold (wsets (wset T c1 r1 v1) ws).
  assert (D : (exists v', In (c, r, v') ws) \/ (forall v', ~ In (c, r, v') ws)).
  { clear. induction ws as [|[[c1 r1] v1] ws IH].
    - right. intros v' [].
    - destruct IH as [[v' H]|H]; [left; exists v'; right; exact H|].
      destruct (Z.eq_dec c1 c) as [->|Hc].
      + destruct (Z.eq_dec r1 r) as [->|Hr].
        * left. exists v1. left. reflexivity.
        * right. intros v' [E|E]; [congruence|eapply H; eauto].
      + right. intros v' [E|E]; [congruence|eapply H; eauto]. }
  destruct D as [[v' Hv']|D].
  - apply IH.
    + rewrite <- (U v'); [exact Hv'|right; exact Hv'].
    + intros v'' Hv''. apply U. right. exact Hv''.
  - rewrite wsets_other by exact D.
    destruct H as [H|H]; [|exfalso; eapply D; eauto].
    injection H as -> -> ->. apply wset_same.
Qed.

Lemma wsets_frame : forall c w n r0 T ws,
  wf_comp c w ->
  (forall col r v, In (col, r, v) ws -> (exists i, col = W c i) /\ r0 <= r < r0 + n) ->
  frame c n r0 T (wsets T ws).
Proof.
  intros c w n r0 T ws Hwf H.
  assert (G : forall T', frame c n r0 T T' -> frame c n r0 T (wsets T' ws)).
  { revert H. induction ws as [|[[c1 r1] v1] ws IH]; intros H T' HF; [exact HF|].
    cbn. fold (wsets (wset T' c1 r1 v1) ws). apply IH.
    - intros; eapply H; right; eauto.
    - destruct (H c1 r1 v1) as [[i ->] Hr]; [left; reflexivity|].
      eapply frame_wset; eauto. }
  apply G. apply frame_refl.
Qed.

End Writes.
Arguments wsets {P}.

Lemma fhorner_split : forall P b (d : Z -> F P) m n, 0 <= m -> 0 <= n ->
  fhorner (ofZ b) d (m + n) =
  (fhorner (ofZ b) d m * ofZ (b ^ n) + fhorner (ofZ b) (fun k => d (m + k)%Z) n)%F.
Proof.
  intros P b d m n Hm Hn.
  rewrite (fhorner_ofZ P b (fun k => fval (d k)) d) by (intros; rewrite ofZ_fval; reflexivity).
  rewrite (fhorner_ofZ P b (fun k => fval (d k)) d) by (intros; rewrite ofZ_fval; reflexivity).
  rewrite (fhorner_ofZ P b (fun j => fval (d (m + j)%Z))) by (intros; rewrite ofZ_fval; reflexivity).
  rewrite <- ofZ_mul, <- ofZ_add. f_equal. apply horner_split; assumption.
Qed.

Lemma fhorner_ext : forall P (b : F P) d d' n,
  (forall k, 0 <= k < n -> d k = d' k) -> fhorner b d n = fhorner b d' n.
Proof.
  intros P b d d' n. destruct (Z_lt_le_dec n 0) as [Hn|Hn].
  { intros _. unfold fhorner. rewrite zseq_nil by lia. reflexivity. }
  pattern n. apply natlike_ind; [| |exact Hn]; clear n Hn.
  - reflexivity.
  - intros n Hn IH H. unfold Z.succ in *. rewrite !fhorner_S by lia.
    rewrite IH by (intros; apply H; lia). rewrite H by lia. reflexivity.
Qed.

Lemma fhorner_zero : forall P b (d : Z -> F P) n,
  (forall k, 0 <= k < n -> d k = f0) -> fhorner (ofZ b) d n = f0.
Proof.
  intros P b d n H. rewrite (fhorner_ofZ P b (fun _ => 0) d) by exact H.
  rewrite horner_zero by reflexivity. reflexivity.
Qed.
