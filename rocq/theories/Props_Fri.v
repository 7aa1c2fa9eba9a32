(** Properties C61 to C64: the FRI components of the Placeholder verifier. *)
From Coq Require Import ZArith List Lia Bool Field.
From Verif Require Import Base Field Primes Plonk PlonkFacts Bits FlexModel FlexProofs PowerProofs
  FriModel FriProofs FriSeq FriCosets FriSound FriComplete Examples.
Import ListNotations.
Open Scope Z_scope.

(** ** C61 linear interpolation *)

Lemma two_nz : forall P, 3 <= char P -> (ofZ 2 : F P) <> f0.
Proof. intros P H E. apply (f_equal fval) in E. rewrite fval_ofZ, Z.mod_small in E by lia. discriminate. Qed.

Section Algebra.
Variable P : params.
Notation F := (F P).
Add Field Ff : (F_field P) (morphism (F_morph P), constants [F_const], power_tac (F_power P) [F_pow_tac]).
Local Open Scope F_scope.
Lemma line_alg : forall a b s al : F, ofZ 2 <> (f0 : F) -> s <> f0 ->
  a * s + b + (a * fopp s + b - (a * s + b)) * (s - al) / (ofZ 2 * s) = a * al + b.
Proof. intros. field. auto. Qed.
Lemma open_alg : forall y al v : F, ofZ 2 * f0 * (v - y) - (y - y) * (f0 - al) = f0.
Proof. intros. ring. Qed.
Lemma keep_alg : forall x y : F, x * (f1 - f0) + y * f0 = x.
Proof. intros. ring. Qed.
Lemma swap_alg : forall x y : F, x * (f1 - f1) + y * f1 = y.
Proof. intros. ring. Qed.
End Algebra.

(** Any line through (s, y0) and (-s, y1) takes the value of the output at alpha. *)
Theorem fri_lin_inter_sound : forall P (L : lenv P) T c s y0 y1 alpha row a b, 3 <= char P ->
  sat L T (li_circuit c s y0 y1 alpha row) -> vval T s <> f0 ->
  fadd (fmul a (vval T s)) b = vval T y0 -> fadd (fmul a (fopp (vval T s))) b = vval T y1 ->
  vval T (li_out c row) = fadd (fmul a (vval T alpha)) b.
Proof.
  intros P L T c s y0 y1 alpha row a b Hp H Hs E0 E1.
  rewrite (li_sound_l P L T c s y0 y1 alpha row (two_nz P Hp) H Hs), <- E0, <- E1.
  apply line_alg; [exact (two_nz P Hp)|exact Hs].
Qed.
Print Assumptions fri_lin_inter_sound.

Theorem fri_lin_inter_complete : forall P (L : lenv P) T c s y0 y1 alpha row, 3 <= char P -> wf_comp c 5 ->
  outside c 1 row s -> outside c 1 row y0 -> outside c 1 row y1 -> outside c 1 row alpha -> vval T s <> f0 ->
  let T' := li_assign c s y0 y1 alpha row T in
  sat L T' (li_circuit c s y0 y1 alpha row) /\ frame c 1 row T T'.
Proof. intros P L T c s y0 y1 alpha row Hp. apply li_complete_l. exact (two_nz P Hp). Qed.
Print Assumptions fri_lin_inter_complete.

(** With s = 0 the circuit still ties the inputs, but leaves the output open: the
    caller must ensure s <> 0, as the comment in the code says. *)
Theorem fri_lin_inter_zero_unconstrained : forall P (L : lenv P) c row (alpha y v : F P), wf_comp c 5 ->
  exists T, vval T (pin 0) = f0 /\ vval T (pin 1) = y /\ vval T (pin 2) = y /\ vval T (pin 3) = alpha /\
    sat L T (li_circuit c (pin 0) (pin 1) (pin 2) (pin 3) row) /\ vval T (li_out c row) = v.
Proof.
  intros P L c row alpha y v Hwf.
  set (T0 := (fun ty _ r => match ty with CPub => if r =? 0 then f0 else if r =? 3 then alpha else y | _ => f0 end) : table P).
  set (T := wsets T0 [(W c 0, row, y); (W c 1, row, y); (W c 2, row, f0); (W c 3, row, alpha); (W c 4, row, v)]).
  assert (FR : frame c 1 row T0 T) by (unfold T, wsets; cbn [fold_left fst snd]; frame_tac).
  exists T. rewrite !(vval_frame _ _ _ _ _ _ _ FR) by apply pin_outside.
  split; [reflexivity|]. split; [reflexivity|]. split; [reflexivity|]. split; [reflexivity|]. split.
  - unfold li_circuit, li_gate. cbv zeta. unfold T, wsets. cbn [fold_left fst snd]. sat_goal; rd; try reflexivity.
    apply open_alg.
  - unfold li_out, T, wsets. cbn [fold_left fst snd]. rd. reflexivity.
Qed.
Print Assumptions fri_lin_inter_zero_unconstrained.

Example fri_lin_inter_ex : let T := li_assign (std_comp 5) (pin 0) (pin 1) (pin 2) (pin 3) 0 (intab P97 [5; 17; 94; 11]) in
  vval T (pin 0) <> f0 /\ sat (noL P97) T (li_circuit (std_comp 5) (pin 0) (pin 1) (pin 2) (pin 3) 0) /\
  fadd (fmul (ofZ 2) (vval T (pin 0))) (ofZ 7) = vval T (pin 1) /\
  fadd (fmul (ofZ 2) (fopp (vval T (pin 0)))) (ofZ 7) = vval T (pin 2) /\ fval (vval T (li_out (std_comp 5) 0)) = 29.
Proof.
  cbv zeta. split; [apply fval_neq; vm_compute; discriminate|]. split; [apply satb_sat; vm_compute; reflexivity|].
  split; [apply F_ext; vm_compute; reflexivity|]. split; [apply F_ext; vm_compute; reflexivity|vm_compute; reflexivity].
Qed.

(** ** C62 array swap *)

(** The array with every pair exchanged. *)
Fixpoint swap_pairs {A} (l : list A) : list A :=
  match l with x :: y :: r => y :: x :: swap_pairs r | _ => l end.

Lemma pairs_ext : forall A (d : A) (h : nat) a b, length a = (2 * h)%nat -> length b = (2 * h)%nat ->
  (forall k, 0 <= k < Z.of_nat h -> znth d a (2 * k) = znth d b (2 * k) /\ znth d a (2 * k + 1) = znth d b (2 * k + 1)) -> a = b.
Proof.
  intros A d h a b La Lb H. apply (nth_ext _ _ d d); [lia|]. intros i Hi.
  pose proof (Z.div_mod (Z.of_nat i) 2 ltac:(lia)) as D. pose proof (Z.mod_pos_bound (Z.of_nat i) 2 ltac:(lia)) as M.
  destruct (H (Z.of_nat i / 2)) as [H1 H2]; [split; [apply Z.div_pos; lia|apply Z.div_lt_upper_bound; lia]|].
  unfold znth in *. destruct (Z.eq_dec (Z.of_nat i mod 2) 0) as [E|E].
  - replace (Z.to_nat (2 * (Z.of_nat i / 2))) with i in H1 by lia. exact H1.
  - replace (Z.to_nat (2 * (Z.of_nat i / 2) + 1)) with i in H2 by lia. exact H2.
Qed.

Lemma swap_pairs_nth : forall A (d : A) (h : nat) l, length l = (2 * h)%nat ->
  length (swap_pairs l) = (2 * h)%nat /\
  forall k, 0 <= k < Z.of_nat h -> znth d (swap_pairs l) (2 * k) = znth d l (2 * k + 1) /\ znth d (swap_pairs l) (2 * k + 1) = znth d l (2 * k).
Proof.
  intros A d h. induction h as [|h IH]; intros l Hl.
  - destruct l; [|discriminate]. split; [reflexivity|]. intros; lia.
  - destruct l as [|x [|y r]]; cbn [length] in Hl; try lia. destruct (IH r ltac:(lia)) as [I1 I2].
    split; [cbn [swap_pairs length]; lia|]. intros k Hk. destruct (Z.eq_dec k 0) as [-> |N]; [split; reflexivity|].
    destruct (I2 (k - 1) ltac:(lia)) as [I3 I4]. unfold znth in *. cbn [swap_pairs].
    replace (Z.to_nat (2 * k)) with (S (S (Z.to_nat (2 * (k - 1))))) by lia.
    replace (Z.to_nat (2 * k + 1)) with (S (S (Z.to_nat (2 * (k - 1) + 1)))) by lia. cbn [nth]. split; assumption.
Qed.

Lemma as_out_len : forall c w half row, wamount c = w -> 5 <= w -> 0 <= half -> length (as_out c half row) = (2 * Z.to_nat half)%nat.
Proof.
  intros c w half row Hw H5 Hh. rewrite (as_out_nth c w half row Hw H5 Hh). unfold zseq. rewrite (flat_len _ _ 2) by reflexivity. lia.
Qed.

Theorem fri_array_swap_sound : forall P (L : lenv P) T c w t arr h row,
  wamount c = w -> 5 <= w -> length arr = (2 * h)%nat ->
  sat L T (as_circuit c t arr row) ->
  let out := map (vval T) (as_out c (Z.of_nat h) row) in
  (vval T t = f0 -> out = map (vval T) arr) /\
  (vval T t = f1 -> out = swap_pairs (map (vval T) arr)).
Proof.
  intros P L T c w t arr h row Hw H5 HL HS out.
  assert (EH : zlen arr / 2 = Z.of_nat h) by (unfold zlen; rewrite HL, Nat2Z.inj_mul, Z.mul_comm; apply Z.div_mul; lia).
  pose proof (as_sound_l P L T c w t arr row Hw H5 HS) as G. rewrite EH in G.
  assert (LO : length out = (2 * h)%nat) by (unfold out; rewrite map_length, (as_out_len c w) by (assumption || lia); lia).
  assert (LA : length (map (vval T) arr) = (2 * h)%nat) by (rewrite map_length; exact HL).
  assert (NM : forall (l : list var) i, znth (vval T (wcell 0 0)) (map (vval T) l) i = vval T (znth (wcell 0 0) l i)) by (intros; unfold znth; apply map_nth).
  split; intros Ht; apply (pairs_ext _ (vval T (wcell 0 0)) h); try assumption.
  - intros k Hk. specialize (G k Hk). cbv zeta in G. unfold out. rewrite !NM. destruct G as [-> ->]. rewrite Ht. split; apply keep_alg.
  - apply (swap_pairs_nth _ (vval T (wcell 0 0))). exact LA.
  - intros k Hk. destruct (swap_pairs_nth _ (vval T (wcell 0 0)) h _ LA) as [_ SP]. destruct (SP k Hk) as [-> ->].
    specialize (G k Hk). cbv zeta in G. unfold out. rewrite !NM. destruct G as [-> ->]. rewrite Ht. split; apply swap_alg.
Qed.
Print Assumptions fri_array_swap_sound.

Theorem fri_array_swap_complete : forall P (L : lenv P) T c w t arr h row,
  wf_comp c w -> 5 <= w -> length arr = (2 * h)%nat ->
  outside c (as_rows w (Z.of_nat h)) row t -> (forall x, In x arr -> outside c (as_rows w (Z.of_nat h)) row x) ->
  vval T t = f0 \/ vval T t = f1 ->
  let T' := as_assign c t arr row T in
  sat L T' (as_circuit c t arr row) /\ frame c (as_rows w (Z.of_nat h)) row T T' /\
  map (vval T') (as_out c (Z.of_nat h) row) = (if feqb (vval T t) f0 then map (vval T) arr else swap_pairs (map (vval T) arr)).
Proof.
  intros P L T c w t arr h row Hwf H5 HL Ot OA Hb T'.
  assert (EH : zlen arr / 2 = Z.of_nat h) by (unfold zlen; rewrite HL, Nat2Z.inj_mul, Z.mul_comm; apply Z.div_mul; lia).
  assert (EE : zlen arr = 2 * (zlen arr / 2)) by (rewrite EH; unfold zlen; lia).
  rewrite <- EH in Ot, OA. destruct (as_complete_l P L T c w t arr row Hwf H5 EE Ot OA Hb) as [S FR]. fold T' in S, FR. rewrite EH in FR, Ot, OA.
  split; [exact S|]. split; [exact FR|].
  destruct (fri_array_swap_sound P L T' c w t arr h row (proj1 (proj2 Hwf)) H5 HL S) as [S0 S1].
  assert (ET : vval T' t = vval T t) by (apply (vval_frame _ _ _ _ _ _ _ FR); exact Ot). rewrite ET in S0, S1.
  assert (EA : map (vval T') arr = map (vval T) arr) by (apply map_ext_in; intros x Hx; apply (vval_frame _ _ _ _ _ _ _ FR); apply OA; exact Hx).
  rewrite EA in S0, S1. destruct Hb as [Hb|Hb].
  - rewrite (S0 Hb), Hb, feqb_refl. reflexivity.
  - rewrite (S1 Hb), Hb. destruct (feqb f1 f0) eqn:E; [apply feqb_eq in E; exfalso; exact (f1_neq_f0 P E)|reflexivity].
Qed.
Print Assumptions fri_array_swap_complete.

Example fri_array_swap_ex : let arr := [pin 1; pin 2; pin 3; pin 4; pin 5; pin 6] in
  let T := as_assign (std_comp 9) (pin 0) arr 0 (intab P97 [1; 10; 20; 30; 40; 50; 60]) in
  wf_comp (std_comp 9) 9 /\ length arr = (2 * 3)%nat /\ vval T (pin 0) = f1 /\
  sat (noL P97) T (as_circuit (std_comp 9) (pin 0) arr 0) /\
  map (fun v => fval (vval T v)) (as_out (std_comp 9) 3 0) = [20; 10; 40; 30; 60; 50] /\ as_rows 9 3 = 3.
Proof.
  cbv zeta. split; [apply wf_std; lia|]. split; [reflexivity|]. split; [apply F_ext; vm_compute; reflexivity|].
  split; [apply satb_sat; vm_compute; reflexivity|]. split; vm_compute; reflexivity.
Qed.

(** ** C63 cosets *)

Definition power {P} (a : F P) (e : Z) : F P := fpow a (Z.to_nat e).

(** The [k]-th triple for the challenge [x]: s = omega ^ (2^k * (x mod 2^n)), its
    opposite, and the bit [n - 1 - k] of [x]. *)
Definition coset {P} (omega : F P) (n x k : Z) : F P * F P * F P :=
  let s := power omega (2 ^ k * (x mod 2 ^ n)) in (s, fopp s, ofZ (Z.b2z (Z.testbit x (n - 1 - k)))).
Definition triple {P} (T : table P) (o : var * var * var) : F P * F P * F P :=
  let '(a, b, c) := o in (vval T a, vval T b, vval T c).
Definition cosets {P} (omega : F P) (n x : Z) : list (F P * F P * F P) := map (coset omega n x) (zseq 0 n).

Theorem fri_cosets_sound : forall P (L : lenv P) T c l n omega x row,
  3 <= char P -> wamount c = 9 * l -> 0 < l -> 1 <= n -> 0 <= fc_remaining P (9 * l) n -> C c 0 = 0 ->
  sat L T (fc_circuit c n omega x row) ->
  map (triple T) (fc_out c n row) = cosets omega n (fval (vval T x)).
Proof.
  intros P L T c l n omega x row Hp Hw Hl Hn HR HC HS. set (X := fval (vval T x)).
  assert (LN : length (fc_out c n row) = Z.to_nat n) by (unfold fc_out; rewrite map_length, rev_length, zseq_length; f_equal; lia).
  pose (d := (wcell 0 0, wcell 0 0, wcell 0 0)).
  apply (nth_ext _ _ (triple T d) (triple T d)).
  - unfold cosets. rewrite !map_length, zseq_length, LN. f_equal. lia.
  - intros i Hi. rewrite map_length, LN in Hi. rewrite map_nth.
    pose proof (fc_sound_l P L T c l n omega x row Hp Hw Hl Hn HR HC HS (Z.of_nat i) d ltac:(lia)) as G. cbv zeta in G. fold X in G.
    pose proof (znth_map_zseq _ (coset omega n X) 0 n (Z.of_nat i) (triple T d) ltac:(lia)) as E. rewrite Z.add_0_l in E.
    unfold znth in G, E. rewrite Nat2Z.id in G, E. unfold cosets. rewrite E. destruct (nth i (fc_out c n row) d) as [[a b] e].
    destruct G as [G1 [G2 G3]]. unfold triple, coset. cbv zeta. rewrite G1, G2, G3. f_equal.
    rewrite Z.testbit_spec' by lia. reflexivity.
Qed.
Print Assumptions fri_cosets_sound.

(** For a root of unity of order dividing 2^n the first components are the
    successive squares of omega ^ x. *)
Theorem fri_cosets_roots : forall P (omega : F P) n x k, 1 <= n -> 0 <= x -> 0 <= k < n -> power omega (2 ^ n) = f1 ->
  fst (fst (coset omega n x k)) = power (power omega x) (2 ^ k).
Proof.
  intros P omega n x k Hn Hx Hk HO. cbn [coset fst]. unfold coset. cbv zeta. cbn [fst]. unfold power in *.
  pose proof (Z.pow_pos_nonneg 2 n ltac:(lia) ltac:(lia)) as Hp. pose proof (Z.pow_pos_nonneg 2 k ltac:(lia) ltac:(lia)) as Hk'.
  assert (E : fpow omega (Z.to_nat x) = fpow omega (Z.to_nat (x mod 2 ^ n))).
  { pose proof (Z.mod_pos_bound x (2 ^ n) Hp) as M. pose proof (Z.div_pos x (2 ^ n) Hx Hp) as D.
    rewrite (Z.div_mod x (2 ^ n)) at 1 by lia. rewrite Z2Nat.inj_add, Z2Nat.inj_mul by nia.
    rewrite fpow_add, fpow_mul, HO, fpow_1. apply (Ring_theory.Rmul_1_l (F_ring P)). }
  rewrite E, <- fpow_mul. f_equal. pose proof (Z.mod_pos_bound x (2 ^ n) Hp). rewrite Z2Nat.inj_mul by lia. lia.
Qed.
Print Assumptions fri_cosets_roots.

Theorem fri_cosets_complete : forall P (L : lenv P) T c l n omega x row,
  3 <= char P -> wf_comp c (9 * l) -> 0 < l -> 1 <= n -> 0 <= fc_remaining P (9 * l) n -> C c 0 = 0 ->
  outside c (fc_rows P (9 * l) n) row x -> consts_in T (fc_circuit c n omega x row) ->
  let T' := fc_assign c n omega x row T in
  sat L T' (fc_circuit c n omega x row) /\ frame c (fc_rows P (9 * l) n) row T T' /\
  map (triple T') (fc_out c n row) = cosets omega n (fval (vval T x)).
Proof.
  intros P L T c l n omega x row Hp Hwf Hl Hn HR HC HO HK T'.
  destruct (fc_complete_l P L T c l n omega x row Hwf Hl Hn HR HC HO HK) as [S FR]. fold T' in S, FR.
  split; [exact S|]. split; [exact FR|].
  rewrite (fri_cosets_sound P L T' c l n omega x row Hp (proj1 (proj2 Hwf)) Hl Hn HR HC S).
  rewrite (vval_frame _ _ _ _ _ _ _ FR) by exact HO. reflexivity.
Qed.
Print Assumptions fri_cosets_complete.

(** 22 has order 4 modulo 97; 45 = 101101b. *)
Example fri_cosets_ex : let c := std_comp 18 in let T := fc_assign c 3 (ofZ 22) (pin 0) 0 (intab_c P97 [45] [22; 0]) in
  3 <= char P97 /\ wf_comp c (9 * 2) /\ 0 <= fc_remaining P97 (9 * 2) 3 /\ C c 0 = 0 /\
  consts_in (intab_c P97 [45] [22; 0]) (fc_circuit c 3 (ofZ 22) (pin 0) 0) /\
  sat (noL P97) T (fc_circuit c 3 (ofZ 22) (pin 0) 0) /\
  map (fun o => let '(a, b, e) := triple T o in (fval a, fval b, fval e)) (fc_out c 3 0) = [(22, 75, 1); (96, 1, 0); (1, 96, 1)] /\
  fc_rows P97 18 3 = 4.
Proof.
  cbv zeta. split; [vm_compute; discriminate|]. split; [apply wf_std; lia|]. split; [vm_compute; discriminate|]. split; [reflexivity|].
  split; [apply consts_inb_ok; vm_compute; reflexivity|]. split; [apply satb_sat; vm_compute; reflexivity|]. split; vm_compute; reflexivity.
Qed.
Example fri_cosets_roots_ex : power (ofZ 22 : F P97) (2 ^ 2) = f1 /\ power (ofZ 22 : F P97) (2 ^ 1) <> f1.
Proof. split; [apply F_ext; vm_compute; reflexivity|apply fval_neq; vm_compute; discriminate]. Qed.

(** ** C64 the constants *)

(** The constants are written to the first constant column of the component but
    read in constant column 0. *)
Definition fri_shifted : comp := mkComp (zseq 0 9) [1] [].

Theorem fri_cosets_sound_refuted : exists T : table P97,
  wf_comp fri_shifted 9 /\ 0 <= fc_remaining P97 9 2 /\
  sat (noL P97) T (fc_circuit fri_shifted 2 (ofZ 22) (pin 0) 0) /\
  map (triple T) (fc_out fri_shifted 2 0) <> cosets (ofZ 22) 2 (fval (vval T (pin 0))).
Proof.
  set (T0 := (fun ty col r => match ty with CPub => ofZ (znth 0 [45] r)
      | CConst => if col =? 1 then ofZ (znth 0 [22; 0] r) else if col =? 0 then ofZ (znth 0 [2; 0] r) else f0 | _ => f0 end) : table P97).
  exists (fc_assign fri_shifted 2 (ofZ 2) (pin 0) 0 T0).
  split; [split; [apply nodup_zseq|split; [reflexivity|lia]]|]. split; [vm_compute; discriminate|].
  split; [apply satb_sat; vm_compute; reflexivity|].
  intros E. apply (f_equal (fun l => match l with o :: _ => fval (fst (fst o)) | [] => 0 end)) in E. vm_compute in E. discriminate.
Qed.
Print Assumptions fri_cosets_sound_refuted.

Theorem fri_cosets_complete_refuted : exists T : table P97,
  wf_comp fri_shifted 9 /\ 0 <= fc_remaining P97 9 2 /\ outside fri_shifted (fc_rows P97 9 2) 0 (pin 0) /\
  consts_in T (fc_circuit fri_shifted 2 (ofZ 22) (pin 0) 0) /\
  ~ sat (noL P97) (fc_assign fri_shifted 2 (ofZ 22) (pin 0) 0 T) (fc_circuit fri_shifted 2 (ofZ 22) (pin 0) 0).
Proof.
  set (T0 := (fun ty col r => match ty with CPub => ofZ (znth 0 [45] r)
      | CConst => if col =? 1 then ofZ (znth 0 [22; 0] r) else f0 | _ => f0 end) : table P97).
  exists T0. split; [split; [apply nodup_zseq|split; [reflexivity|lia]]|]. split; [vm_compute; discriminate|].
  split; [apply pin_outside|]. split; [apply consts_inb_ok; vm_compute; reflexivity|].
  intros S. assert (H : holds (noL P97) (fc_assign fri_shifted 2 (ofZ 22) (pin 0) 0 T0) (Copy (ccell 0 0) (wcell (W fri_shifted 3) 0))).
  { apply S. unfold fc_circuit, fc_copies. cbv zeta. rewrite !in_app_iff. do 4 right. left. left. right. left. reflexivity. }
  cbn [holds] in H. apply (f_equal fval) in H. vm_compute in H. discriminate.
Qed.
Print Assumptions fri_cosets_complete_refuted.
