(** Digit lists: spreading bits in a larger base, adding, and reading the
    digits back.  Used for SHA-256; nothing here models code. *)
From Coq Require Import ZArith List Lia Bool.
From Verif Require Import Base Field Plonk Bits Sha256Spec Sha256Model.
Import ListNotations.
Open Scope Z_scope.

(** Number with the given digits, least significant first. *)
Definition numl (B : Z) (l : list Z) : Z := fold_right (fun d a => d + B * a) 0 l.
Definition lbits (n x : Z) : list Z := map (fun i => Z.b2z (Z.testbit x i)) (zseq 0 n).
Definition digs (B n x : Z) : list Z := map (fun i => (x / B ^ i) mod B) (zseq 0 n).
Definition small (B : Z) (l : list Z) : Prop := Forall (fun d => 0 <= d < B) l.

Lemma numl_app : forall B a b, numl B (a ++ b) = numl B a + B ^ zlen a * numl B b.
Proof.
  intros B a b. induction a as [|x a IH]; [change (numl B b = 0 + 1 * numl B b); ring|].
  cbn [app numl fold_right]. fold (numl B (a ++ b)) (numl B a). rewrite IH.
  replace (zlen (x :: a)) with (1 + zlen a) by (unfold zlen; cbn [length]; lia).
  rewrite Z.pow_add_r, Z.pow_1_r by (pose proof (zlen_nonneg _ a); lia). ring.
Qed.

Lemma numl_bound : forall B l, 0 < B -> small B l -> 0 <= numl B l < B ^ zlen l.
Proof.
  intros B l HB H. induction H as [|x l Hx _ IH]; [cbn; lia|].
  cbn [numl fold_right]. fold (numl B l).
  replace (zlen (x :: l)) with (1 + zlen l) by (unfold zlen; cbn [length]; lia).
  rewrite Z.pow_add_r, Z.pow_1_r by (pose proof (zlen_nonneg _ l); lia). nia.
Qed.

Lemma numl_inj : forall B l l', 0 < B -> small B l -> small B l' -> length l = length l' ->
  numl B l = numl B l' -> l = l'.
Proof.
  intros B l l' HB H. revert l'. induction H as [|x l Hx Hl IH]; intros [|y l'] H' E; try discriminate; [reflexivity|].
  inversion H' as [|? ? Hy Hl']; subst. cbn [length] in E. injection E as E. intros N.
  cbn [numl fold_right] in N. fold (numl B l) (numl B l') in N.
  destruct (Z.div_mod_unique B (numl B l) (numl B l') x y) as [N' ->]; [left; lia|left; lia|lia|].
  f_equal. apply IH; assumption.
Qed.

Lemma small_app : forall B a b, small B a -> small B b -> small B (a ++ b).
Proof. intros. apply Forall_app. split; assumption. Qed.

Lemma small_le : forall B B' l, B <= B' -> small B l -> small B' l.
Proof. intros B B' l H. apply Forall_impl. intros; lia. Qed.

Lemma zlen_app : forall A (a b : list A), zlen (a ++ b) = zlen a + zlen b.
Proof. intros. unfold zlen. rewrite app_length. lia. Qed.

Lemma zlen_lbits : forall n x, 0 <= n -> zlen (lbits n x) = n.
Proof. intros. unfold zlen, lbits. rewrite map_length, zseq_length. lia. Qed.
Lemma zlen_digs : forall B n x, 0 <= n -> zlen (digs B n x) = n.
Proof. intros. unfold zlen, digs. rewrite map_length, zseq_length. lia. Qed.

Lemma small_lbits : forall n x, small 2 (lbits n x).
Proof. intros. apply Forall_map, Forall_forall. intros i _. apply b2z_range. Qed.
Lemma small_digs : forall B n x, 0 < B -> small B (digs B n x).
Proof. intros. apply Forall_map, Forall_forall. intros i _. apply Z.mod_pos_bound. assumption. Qed.

Lemma lbits_digs : forall n x, lbits n x = digs 2 n x.
Proof. intros. apply map_ext_in. intros i Hi. apply in_zseq in Hi. apply testbit_digit. lia. Qed.

Lemma digs_S : forall B n x, 0 <= n -> digs B (n + 1) x = digs B n x ++ [(x / B ^ n) mod B].
Proof. intros. unfold digs. rewrite zseq_snoc, map_app by lia. reflexivity. Qed.

Lemma numl_digs : forall B n x, 0 < B -> 0 <= n -> numl B (digs B n x) = x mod B ^ n.
Proof.
  intros B n x HB Hn. pattern n. apply natlike_ind; [| |exact Hn]; clear n Hn.
  - rewrite Z.mod_1_r. reflexivity.
  - intros n Hn IH. unfold Z.succ. rewrite digs_S, numl_app, IH, zlen_digs by lia. cbn [numl fold_right].
    rewrite Z.pow_add_r, Z.pow_1_r by lia. rewrite Z.rem_mul_r by (try apply Z.pow_nonzero; lia). ring.
Qed.

Lemma numl_lbits : forall n x, 0 <= n -> 0 <= x < 2 ^ n -> numl 2 (lbits n x) = x.
Proof. intros. rewrite lbits_digs, numl_digs, Z.mod_small by lia. reflexivity. Qed.

Lemma lbits_numl : forall n l, 0 <= n -> small 2 l -> zlen l = n -> lbits n (numl 2 l) = l.
Proof.
  intros n l Hn S E. assert (B := numl_bound 2 l ltac:(lia) S). rewrite E in B.
  apply (numl_inj 2); [lia|apply small_lbits|exact S| |].
  - assert (L := zlen_lbits n (numl 2 l) Hn). unfold zlen in *. lia.
  - apply numl_lbits; lia.
Qed.

Lemma digs_numl : forall B n l, 0 < B -> 0 <= n -> small B l -> zlen l = n -> digs B n (numl B l) = l.
Proof.
  intros B n l HB Hn S E. assert (Bd := numl_bound B l HB S). rewrite E in Bd.
  apply (numl_inj B); [lia|apply small_digs; lia|exact S| |].
  - assert (L := zlen_digs B n (numl B l) Hn). unfold zlen in *. lia.
  - rewrite numl_digs by lia. apply Z.mod_small. lia.
Qed.

(** Extra high zero bits do not change a spread number. *)
Lemma numl_lbits_ext : forall B n m x, 0 <= n <= m -> 0 <= x < 2 ^ n -> numl B (lbits m x) = numl B (lbits n x).
Proof.
  intros B n m x Hn Hx. unfold lbits. rewrite (zseq_app 0 n m), map_app, numl_app by lia.
  enough (E : forall l, (forall i, In i l -> n <= i) -> numl B (map (fun i => Z.b2z (Z.testbit x i)) l) = 0)
    by (rewrite (E (zseq n m)); [ring|intros i Hi; apply in_zseq in Hi; lia]).
  induction l as [|i l IH]; intros H; [reflexivity|]. cbn [map numl fold_right]. fold (numl B (map (fun i => Z.b2z (Z.testbit x i)) l)).
  rewrite IH by (intros; apply H; right; assumption).
  assert (Hi := H i (or_introl eq_refl)).
  destruct (Z.eq_dec x 0) as [->|N]; [rewrite Z.bits_0; cbn; lia|].
  rewrite (Z.bits_above_log2 x i); [cbn; lia|lia|].
  assert (Z.log2 x < n); [|lia]. apply Z.log2_lt_pow2; lia.
Qed.

(** ** Slices, rotations and shifts of a digit list *)

Definition sl (lo s : nat) (l : list Z) : list Z := firstn s (skipn lo l).
Definition lrot (n : nat) (l : list Z) : list Z := skipn n l ++ firstn n l.
Definition lshr (n : nat) (l : list Z) : list Z := skipn n l ++ repeat 0 n.
Fixpoint zip3 (f : Z -> Z -> Z -> Z) (a b c : list Z) : list Z :=
  match a, b, c with x :: a', y :: b', z :: c' => f x y z :: zip3 f a' b' c' | _, _, _ => [] end.
Definition add3 : list Z -> list Z -> list Z -> list Z := zip3 (fun x y z => x + y + z).

Ltac list32 l H :=
  do 32 (destruct l as [|? l]; [discriminate H|]); destruct l as [|? l]; [clear H|discriminate H].

Lemma znth4 : forall (a b c d : Z), znth 0 [a; b; c; d] 0 = a /\ znth 0 [a; b; c; d] 1 = b /\
  znth 0 [a; b; c; d] 2 = c /\ znth 0 [a; b; c; d] 3 = d.
Proof. intros. repeat split. Qed.
Ltac nth4 := rewrite ?(proj1 (znth4 _ _ _ _)), ?(proj1 (proj2 (znth4 _ _ _ _))),
  ?(proj1 (proj2 (proj2 (znth4 _ _ _ _)))), ?(proj2 (proj2 (proj2 (znth4 _ _ _ _)))).

Lemma sum_sigma0 : forall l, length l = 32%nat ->
  sp_sigma0 [numl 4 (sl 0 3 l); numl 4 (sl 3 4 l); numl 4 (sl 7 11 l); numl 4 (sl 18 14 l)] =
  numl 4 (add3 (lrot 7 l) (lrot 18 l) (lshr 3 l)).
Proof. intros l H. list32 l H. unfold sp_sigma0. nth4. cbn -[Z.mul Z.add Z.pow]. ring. Qed.

Lemma sum_sigma1 : forall l, length l = 32%nat ->
  sp_sigma1 [numl 4 (sl 0 10 l); numl 4 (sl 10 7 l); numl 4 (sl 17 2 l); numl 4 (sl 19 13 l)] =
  numl 4 (add3 (lrot 17 l) (lrot 19 l) (lshr 10 l)).
Proof. intros l H. list32 l H. unfold sp_sigma1. nth4. cbn -[Z.mul Z.add Z.pow]. ring. Qed.

Lemma sum_Sigma0 : forall l, length l = 32%nat ->
  sp_Sigma0 [numl 4 (sl 0 2 l); numl 4 (sl 2 11 l); numl 4 (sl 13 9 l); numl 4 (sl 22 10 l)] =
  numl 4 (add3 (lrot 2 l) (lrot 13 l) (lrot 22 l)).
Proof. intros l H. list32 l H. unfold sp_Sigma0. nth4. cbn -[Z.mul Z.add Z.pow]. ring. Qed.

Lemma sum_Sigma1 : forall l, length l = 32%nat ->
  sp_Sigma1 [numl 7 (sl 0 6 l); numl 7 (sl 6 5 l); numl 7 (sl 11 14 l); numl 7 (sl 25 7 l)] =
  numl 7 (add3 (lrot 6 l) (lrot 11 l) (lrot 25 l)).
Proof. intros l H. list32 l H. unfold sp_Sigma1. nth4. cbn -[Z.mul Z.add Z.pow]. ring. Qed.

(** ** What the splitting functions compute *)

Lemma horner_numl : forall B d n, horner B d n = numl B (rev (map d (zseq 0 n))).
Proof.
  intros. unfold horner, numl. rewrite <- fold_left_rev_right. rewrite <- map_rev.
  induction (rev (zseq 0 n)) as [|i l IH]; [reflexivity|]. cbn [map fold_right]. rewrite IH. ring.
Qed.

Lemma sas_a : forall B x, sas 32 B x a_sizes =
  [numl B (sl 0 3 (lbits 32 x)); numl B (sl 3 4 (lbits 32 x)); numl B (sl 7 11 (lbits 32 x)); numl B (sl 18 14 (lbits 32 x))].
Proof. intros. unfold a_sizes, sas. rewrite !horner_numl. reflexivity. Qed.
Lemma sas_b : forall B x, sas 32 B x b_sizes =
  [numl B (sl 0 10 (lbits 32 x)); numl B (sl 10 7 (lbits 32 x)); numl B (sl 17 2 (lbits 32 x)); numl B (sl 19 13 (lbits 32 x))].
Proof. intros. unfold b_sizes, sas. rewrite !horner_numl. reflexivity. Qed.
Lemma sas_c : forall B x, sas 32 B x c_sizes =
  [numl B (sl 0 2 (lbits 32 x)); numl B (sl 2 11 (lbits 32 x)); numl B (sl 13 9 (lbits 32 x)); numl B (sl 22 10 (lbits 32 x))].
Proof. intros. unfold c_sizes, sas. rewrite !horner_numl. reflexivity. Qed.
Lemma sas_e : forall B x, sas 32 B x e_sizes =
  [numl B (sl 0 6 (lbits 32 x)); numl B (sl 6 5 (lbits 32 x)); numl B (sl 11 14 (lbits 32 x)); numl B (sl 25 7 (lbits 32 x))].
Proof. intros. unfold e_sizes, sas. rewrite !horner_numl. reflexivity. Qed.
Lemma sas_14 : forall B x, sas 14 B x [14] = [numl B (lbits 14 x)].
Proof. intros. unfold sas. rewrite !horner_numl. reflexivity. Qed.
Lemma sas_32 : forall B x, sas 32 B x [32] = [numl B (lbits 32 x)].
Proof. intros. unfold sas. rewrite !horner_numl. reflexivity. Qed.

Definition dseg (B v lo hi : Z) : list Z := map (fun i => (v / B ^ i) mod B) (zseq lo hi).

Lemma zlen_dseg : forall B v lo hi, lo <= hi -> zlen (dseg B v lo hi) = hi - lo.
Proof. intros. unfold zlen, dseg. rewrite map_length, zseq_length. lia. Qed.

Lemma rss_digits_eq : forall f B n m v r0 r1, 0 < B -> Z.of_nat n <= m ->
  rss_digits f B (m - 1) n (v mod B ^ m) r0 r1 =
  (r0 * 2 ^ Z.of_nat n + numl 2 (map f (dseg B v (m - Z.of_nat n) m)),
   r1 * B ^ Z.of_nat n + numl B (dseg B v (m - Z.of_nat n) m), v mod B ^ (m - Z.of_nat n)).
Proof.
  intros f B n. induction n as [|n IH]; intros m v r0 r1 HB Hm.
  - cbn [rss_digits]. unfold dseg. rewrite zseq_nil by lia. cbn. rewrite !Z.mul_1_r, !Z.add_0_r, Z.sub_0_r. reflexivity.
  - cbn [rss_digits]. rewrite Nat2Z.inj_succ in *. unfold Z.succ in *.
    assert (HP : 0 < B ^ (m - 1)) by (apply Z.pow_pos_nonneg; lia).
    assert (EB : B ^ m = B ^ (m - 1) * B) by (replace m with ((m - 1) + 1) at 1 by lia; rewrite Z.pow_add_r, Z.pow_1_r by lia; reflexivity).
    assert (Q : v mod B ^ m / B ^ (m - 1) = (v / B ^ (m - 1)) mod B).
    { rewrite EB. rewrite Z.rem_mul_r by lia. rewrite Z.mul_comm, Z.div_add by lia.
      rewrite (Z.div_small (v mod _)) by (apply Z.mod_pos_bound; lia). lia. }
    assert (M : (v mod B ^ m) mod B ^ (m - 1) = v mod B ^ (m - 1)).
    { rewrite EB. rewrite Z.rem_mul_r by lia. rewrite Z.mul_comm, Z.mod_add, Z.mod_mod by lia. reflexivity. }
    rewrite Q, M. replace (m - 1 - 1) with ((m - 1) - 1) by lia. rewrite IH by lia.
    replace (m - 1 - Z.of_nat n) with (m - (Z.of_nat n + 1)) by lia.
    assert (D : dseg B v (m - (Z.of_nat n + 1)) m = dseg B v (m - (Z.of_nat n + 1)) (m - 1) ++ [(v / B ^ (m - 1)) mod B]).
    { unfold dseg. replace (zseq (m - (Z.of_nat n + 1)) m) with (zseq (m - (Z.of_nat n + 1)) ((m - 1) + 1)) by (f_equal; lia).
      rewrite zseq_snoc, map_app by lia. reflexivity. }
    rewrite D, map_app, !numl_app. unfold zlen. rewrite map_length. fold (zlen (dseg B v (m - (Z.of_nat n + 1)) (m - 1))).
    rewrite zlen_dseg by lia. replace (m - 1 - (m - (Z.of_nat n + 1))) with (Z.of_nat n) by lia.
    cbn [map numl fold_right]. rewrite !Z.pow_add_r, !Z.pow_1_r by lia. f_equal. f_equal; ring.
Qed.

Lemma rss_digits_mod : forall f B n m v, 0 < B -> Z.of_nat n <= m ->
  rss_digits f B (m - 1) n (v mod B ^ m) 0 0 =
  (numl 2 (map f (dseg B v (m - Z.of_nat n) m)), numl B (dseg B v (m - Z.of_nat n) m), v mod B ^ (m - Z.of_nat n)).
Proof. intros. rewrite rss_digits_eq by assumption. reflexivity. Qed.

Lemma rss_32 : forall f B v, 0 < B -> 0 <= v < B ^ 32 -> rss f B v sigma_sizes =
  let D := digs B 32 v in
  [(numl 2 (map f (sl 0 8 D)), numl B (sl 0 8 D)); (numl 2 (map f (sl 8 8 D)), numl B (sl 8 8 D));
   (numl 2 (map f (sl 16 8 D)), numl B (sl 16 8 D)); (numl 2 (map f (sl 24 8 D)), numl B (sl 24 8 D))].
Proof.
  intros f B v HB Hv. unfold rss, sigma_sizes. cbn [rev app rss_loop zsum fold_right].
  change (Z.to_nat 8) with 8%nat. change (8 + (8 + (8 + (8 + 0))) - 1) with (32 - 1).
  replace v with (v mod B ^ 32) at 1 by (apply Z.mod_small; exact Hv).
  rewrite rss_digits_mod by (cbn; lia). change (32 - Z.of_nat 8) with 24.
  change (32 - 1 - 8) with (24 - 1). rewrite rss_digits_mod by (cbn; lia). change (24 - Z.of_nat 8) with 16.
  change (24 - 1 - 8) with (16 - 1). rewrite rss_digits_mod by (cbn; lia). change (16 - Z.of_nat 8) with 8.
  change (16 - 1 - 8) with (8 - 1). rewrite rss_digits_mod by (cbn; lia). reflexivity.
Qed.

Lemma rss_8 : forall f B v, 0 < B -> 0 <= v < B ^ 8 -> rss f B v [8] =
  [(numl 2 (map f (digs B 8 v)), v)].
Proof.
  intros f B v HB Hv. unfold rss. cbn [rev app rss_loop zsum fold_right].
  change (Z.to_nat 8) with 8%nat. change (8 + 0 - 1) with (8 - 1).
  replace v with (v mod B ^ 8) at 1 by (apply Z.mod_small; exact Hv).
  rewrite rss_digits_mod by (cbn; lia). change (8 - Z.of_nat 8) with 0.
  change (dseg B v 0 8) with (digs B 8 v). rewrite numl_digs by lia. rewrite Z.mod_small by exact Hv. reflexivity.
Qed.
