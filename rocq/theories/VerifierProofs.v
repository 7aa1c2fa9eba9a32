(** Facts about the whole verifier circuit used by Props_Verifier. *)
From Coq Require Import ZArith List Lia Bool.
From Verif Require Import Base Field Plonk PlonkFacts Bits FlexModel PoseidonModel VerifierModel VerifierSpec VerifierSteps VerifierWalk.
Import ListNotations.
Open Scope Z_scope.

(** ** Rows *)

Section Rows.
Variable c : comp.
Variable pow r : Z.
Variable sw : Z -> comp * Z.
Notation ndr := (endr c pow r sw).
Notation ps := (fp_rows (wamount c)).

(** A program fragment that moves on by [d] rows. *)
Definition adv {S : Type} (p : (S -> prog) -> prog) (d : Z) : Prop :=
  forall k row n, exists s n', ndr (p k) row n = ndr (k s) (row + d) n'.

Lemma adv_ret : forall S (s : S), adv (fun k => k s) 0.
Proof. intros S s k row n. exists s, n. f_equal. lia. Qed.
Lemma adv_bind : forall S S' (p : (S -> prog) -> prog) (q : S -> (S' -> prog) -> prog) d d',
  adv p d -> (forall s, adv (q s) d') -> adv (fun k => p (fun s => q s k)) (d + d').
Proof.
  intros S S' p q d d' HP HQ k row n. destruct (HP (fun s => q s k) row n) as [s [n1 E1]].
  destruct (HQ s k (row + d) n1) as [s' [n2 E2]]. exists s', n2. rewrite E1, E2. f_equal. lia.
Qed.
Lemma adv_hash : forall S a b d (g : var -> (S -> prog) -> prog) x, (forall h, adv (g h) x) -> adv (fun k => PHash a b d (fun h => g h k)) (ps + x).
Proof.
  intros S a b d g x HG k row n. cbn [endr]. destruct (HG (hout c row) k (row + ps) n) as [s [n' E]]. exists s, n'. rewrite E. f_equal. lia.
Qed.
Lemma adv_swap : forall S a b d (g : var -> var -> (S -> prog) -> prog) x, (forall o1 o2, adv (g o1 o2) x) ->
  adv (fun k => PSwap a b d (fun o1 o2 => g o1 o2 k)) x.
Proof.
  intros S a b d g x HG k row n. cbn [endr]. cbv zeta.
  destruct (HG (fst (fs_out (fst (sw n)) (snd (sw n)))) (snd (fs_out (fst (sw n)) (snd (sw n)))) k row (n + 1)) as [s [n' E]].
  exists s, n'. exact E.
Qed.
Lemma adv_copy : forall S a b (p : (S -> prog) -> prog) x, adv p x -> adv (fun k => PCopy a b (p k)) x.
Proof. intros S a b p x HP k row n. cbn [endr]. apply HP. Qed.
Lemma adv_pow : forall S a (g : var -> (S -> prog) -> prog) x, (forall y, adv (g y) x) ->
  adv (fun k => PPow a (fun y => g y k)) (cp_rows (wamount c) pow + x).
Proof.
  intros S a g x HG k row n. cbn [endr]. destruct (HG (cp_out c pow row) k (row + cp_rows (wamount c) pow) n) as [s [n' E]].
  exists s, n'. rewrite E. f_equal. lia.
Qed.
Lemma adv_idx : forall S a bs (p : (S -> prog) -> prog) x, adv p x -> adv (fun k => PIdx a bs (p k)) (xi_rows (wamount c) (zlen bs) + x).
Proof.
  intros S a bs p x HP k row n. cbn [endr]. destruct (HP k (row + xi_rows (wamount c) (zlen bs)) n) as [s [n' E]].
  exists s, n'. rewrite E. f_equal. lia.
Qed.
Lemma adv_col : forall S a (p : (S -> prog) -> prog) x, adv p x -> adv (fun k => PCol a (p k)) (cl_rows (wamount c) r + x).
Proof.
  intros S a p x HP k row n. cbn [endr]. destruct (HP k (row + cl_rows (wamount c) r) n) as [s [n' E]].
  exists s, n'. rewrite E. f_equal. lia.
Qed.
Lemma adv_at : forall S (p : (S -> prog) -> prog) d d', adv p d -> d = d' -> adv p d'.
Proof. intros. subst. assumption. Qed.
Lemma adv_fold : forall A S (f : A -> Z) (body : A -> S -> (S -> prog) -> prog),
  (forall a s, adv (body a s) (f a)) -> forall l s, adv (pfold l body s) (fold_right (fun a x => f a + x) 0 l).
Proof.
  intros A S f body HB. induction l as [|a l IH]; intros s; cbn [pfold fold_right].
  - intros k row n. exists s, n. f_equal. lia.
  - apply (adv_bind S S (body a s) (fun s' => pfold l body s')); [apply HB|exact IH].
Qed.
Lemma adv_loop : forall S d n (body : Z -> S -> (S -> prog) -> prog),
  0 <= n -> (forall a s, adv (body a s) d) -> forall s, adv (pfold (zseq 0 n) body s) (d * n).
Proof.
  intros S d n body Hn HB s. eapply adv_at; [apply (adv_fold _ _ (fun _ => d) body HB)|].
  replace n with (zlen (zseq 0 n)) at 2 by (apply zlen_zseq0; exact Hn). generalize (zseq 0 n). intros l.
  induction l as [|a l IH]; cbn [fold_right]; [change (zlen (@nil Z)) with 0; lia|]. rewrite IH, zlen_cons. lia.
Qed.
End Rows.

Lemma fold_lsum : forall f l, fold_right (fun a x => f a + x) 0 l = lsum f l.
Proof. intros f l. induction l as [|a l IH]; cbn [fold_right lsum]; [reflexivity|]. rewrite IH. reflexivity. Qed.
Lemma foldl_lsum : forall f l s, fold_left (fun a i => a + f i) l s = s + lsum f l.
Proof. intros f l. induction l as [|a l IH]; intros s; cbn [fold_left lsum]; [lia|]. rewrite IH. lia. Qed.
Lemma lsum_ext : forall f g l, (forall i, In i l -> f i = g i) -> lsum f l = lsum g l.
Proof.
  intros f g l. induction l as [|a l IH]; intros E; cbn [lsum]; [reflexivity|].
  rewrite E by (left; reflexivity). rewrite IH; [reflexivity|]. intros i Hi. apply E. right. exact Hi.
Qed.
Lemma lsum_mul : forall k f l, lsum (fun i => k * f i) l = k * lsum f l.
Proof. intros k f l. induction l as [|a l IH]; cbn [lsum]; lia. Qed.
Lemma lsum_shift : forall f n a, lsum f (zrange (a + 1) n) = lsum (fun i => f (i + 1)) (zrange a n).
Proof. intros f n. induction n as [|n IH]; intros a; cbn [zrange lsum]; [reflexivity|]. rewrite IH. reflexivity. Qed.

Section VRows.
Variable lam r m : Z.
Variable sizes : list Z.
Variable inp : vin.
Variable zerov vk0v vk1v : var.
Variable c : comp.
Variable pow : Z.
Variable sw : Z -> comp * Z.
Hypothesis Hlam : 0 <= lam.
Hypothesis Hr1 : 1 <= r.
Hypothesis Hm : 0 <= m.
Hypothesis Hrm : r <= m + 1.
Hypothesis Hsz : forall s, In s sizes -> 0 < s.
Notation adv := (adv c pow r sw).
Notation ps := (fp_rows (wamount c)).

Lemma sizes_nn : forall j, 0 <= znth 0 sizes j.
Proof.
  intros j. unfold znth. destruct (nth_in_or_default (Z.to_nat j) sizes 0) as [Hi|E]; [pose proof (Hsz _ Hi)|rewrite E]; lia.
Qed.
Lemma adv_merkle : forall i hs n st, 0 <= n -> adv (pmerkle inp zerov i hs (zseq 0 n) st) (ps * n).
Proof.
  intros i hs n st Hn. unfold pmerkle. apply (adv_loop c pow r sw (Z * var) ps n); [exact Hn|]. intros t s. apply adv_swap. intros o1 o2.
  eapply adv_at; [apply (adv_hash c pow r sw (Z * var) zerov o1 o2 (fun h k => k (fst s + 1, h)) 0); intros h; apply adv_ret|lia].
Qed.
Lemma adv_leaf : forall i n st, 0 <= n -> adv (pleaf inp i (zseq 0 n) st) (ps * n).
Proof.
  intros i n st Hn. unfold pleaf. apply (adv_loop c pow r sw (Z * var * var) ps n); [exact Hn|]. intros t s. cbv zeta.
  eapply adv_at; [apply (adv_hash c pow r sw (Z * var * var) _ _ _ (fun h k => k (fst (fst s) + 2, h, h)) 0); intros h; apply adv_ret|lia].
Qed.
Lemma adv_batches : forall i l st, adv (pbatches m sizes inp zerov vk1v i l st) (lsum (fun j => ps * (znth 0 sizes j + m)) l).
Proof.
  intros i l st. unfold pbatches. rewrite <- fold_lsum.
  apply (adv_fold c pow r sw Z (Z * Z * var) (fun j => ps * (znth 0 sizes j + m))). intros j s.
  eapply adv_at.
  - apply (adv_bind c pow r sw (Z * var * var) (Z * Z * var) (pleaf inp i (zseq 0 (znth 0 sizes j)) (fst (fst s), zerov, snd s))
      (fun st1 k => pmerkle inp zerov i (vi_hashes inp) (zseq 0 m) (snd (fst s), snd st1) (fun st2 =>
         PCopy (snd st2) (if j =? 0 then vk1v else znth dv (vi_comms inp) (j - 1)) (k (fst (fst st1), fst st2, snd st2))))).
    + apply adv_leaf. apply sizes_nn.
    + intros st1. apply (adv_bind c pow r sw (Z * var) (Z * Z * var) (pmerkle inp zerov i (vi_hashes inp) (zseq 0 m) (snd (fst s), snd st1))
        (fun st2 k => PCopy (snd st2) (if j =? 0 then vk1v else znth dv (vi_comms inp) (j - 1)) (k (fst (fst st1), fst st2, snd st2)))).
      * apply adv_merkle. exact Hm.
      * intros st2. apply adv_copy. apply adv_ret.
  - lia.
Qed.
Lemma adv_rounds : forall i l st, (forall j, In j l -> j <= m) ->
  adv (prounds m inp zerov i l st) (lsum (fun j => if j =? 0 then 0 else ps * (1 + (m - j))) l).
Proof.
  intros i l. unfold prounds. induction l as [|j l IH]; intros st HL; cbn [pfold lsum].
  - intros k row n. exists st, n. f_equal. lia.
  - assert (IH' : forall st, adv (pfold l (fun j st k =>
        let cur := fst (fst (fst st)) in let ch := snd (fst (fst st)) in let y := snd (fst st) in
        let y' := (v2 (vi_rvals inp) i (cur * 2), v2 (vi_rvals inp) i (cur * 2 + 1)) in
        if j =? 0 then k (cur + 1, ch + m, y', snd st)
        else PHash zerov (fst y) (snd y) (fun h => pmerkle inp zerov i (vi_rhashes inp) (zseq 0 (m - j)) (ch, h) (fun st2 =>
           PCopy (snd st2) (znth dv (vi_roots inp) j) (k (cur + 1, fst st2, y', snd st2))))) st)
        (lsum (fun j => if j =? 0 then 0 else ps * (1 + (m - j))) l)).
    { intros st'. apply IH. intros j' Hj'. apply HL. right. exact Hj'. }
    cbv zeta in *. specialize (HL j (or_introl eq_refl)). destruct (j =? 0).
    + intros k row n. destruct (IH' (fst (fst (fst st)) + 1, snd (fst (fst st)) + m,
        (v2 (vi_rvals inp) i (fst (fst (fst st)) * 2), v2 (vi_rvals inp) i (fst (fst (fst st)) * 2 + 1)), snd st) k row n) as [s [n' E]].
      exists s, n'. rewrite E. f_equal.
    + eapply adv_at.
      * apply (adv_hash c pow r sw _ zerov (fst (snd (fst st))) (snd (snd (fst st)))
          (fun h k => pmerkle inp zerov i (vi_rhashes inp) (zseq 0 (m - j)) (snd (fst (fst st)), h) (fun st2 =>
             PCopy (snd st2) (znth dv (vi_roots inp) j) (pfold l _ (fst (fst (fst st)) + 1, fst st2,
                (v2 (vi_rvals inp) i (fst (fst (fst st)) * 2), v2 (vi_rvals inp) i (fst (fst (fst st)) * 2 + 1)), snd st2) k)))
          (ps * (m - j) + lsum (fun j => if j =? 0 then 0 else ps * (1 + (m - j))) l)).
        intros h. apply (adv_bind c pow r sw _ _ (pmerkle inp zerov i (vi_rhashes inp) (zseq 0 (m - j)) (snd (fst (fst st)), h))
          (fun st2 k => PCopy (snd st2) (znth dv (vi_roots inp) j) (pfold l _ (fst (fst (fst st)) + 1, fst st2,
                (v2 (vi_rvals inp) i (fst (fst (fst st)) * 2), v2 (vi_rvals inp) i (fst (fst (fst st)) * 2 + 1)), snd st2) k))).
        -- apply adv_merkle. lia.
        -- intros st2. apply adv_copy. apply IH'.
      * lia.
Qed.

Definition vq : Z := lsum (fun j => ps * (znth 0 sizes j + m)) (zseq 0 (zlen sizes)) +
  lsum (fun j => if j =? 0 then 0 else ps * (1 + (m - j))) (zseq 0 r).
Lemma adv_queries : forall last, adv (pqueries r m sizes inp zerov vk1v (zseq 0 lam) last) (vq * lam).
Proof.
  intros last. unfold pqueries. apply (adv_loop c pow r sw var vq lam); [exact Hlam|]. intros i s. unfold vq.
  apply (adv_bind c pow r sw (Z * Z * var) var (pbatches m sizes inp zerov vk1v i (zseq 0 (zlen sizes)) (0, 0, s))
    (fun st k => prounds m inp zerov i (zseq 0 r) (0, 0, (dv, dv), snd st) (fun st => k (snd st)))).
  - apply adv_batches.
  - intros st. eapply adv_at.
    + apply (adv_bind c pow r sw _ var (prounds m inp zerov i (zseq 0 r) (0, 0, (dv, dv), snd st)) (fun st k => k (snd st))).
      * apply adv_rounds. intros j Hj. apply in_zseq in Hj. lia.
      * intros st'. apply adv_ret.
    + lia.
Qed.

Lemma ver_rows_l : forall row n,
  endr c pow r sw (pverifier lam r m sizes inp zerov vk0v vk1v) row n =
  row + (ps * 15 + ps * r + ps * lam + cp_rows (wamount c) pow * lam + xi_rows (wamount c) m * lam + cl_rows (wamount c) r * lam + vq * lam).
Proof.
  intros row n. unfold pverifier. cbv zeta. cbn [endr].
  match goal with |- endr _ _ _ _ (pfold _ ?b ?s ?k) ?rw ?nn = _ =>
    destruct (adv_loop c pow r sw var ps 8 b ltac:(lia)
      ltac:(intros a s0; eapply adv_at; [apply (adv_hash c pow r sw var s0 zerov zerov (fun h q => q h) 0); intros h; apply adv_ret|lia])
      s k rw nn) as [al [n1 E]]; rewrite E; clear E end.
  cbn [endr].
  match goal with |- endr _ _ _ _ (pfold _ ?b ?s ?k) ?rw ?nn = _ =>
    destruct (adv_loop c pow r sw (var * list var) ps r b ltac:(lia)
      ltac:(intros a s0; eapply adv_at; [apply (adv_hash c pow r sw _ _ _ _ (fun h q => q (h, snd s0 ++ [h])) 0); intros h; apply adv_ret|lia])
      s k rw nn) as [st1 [n2 E]]; rewrite E; clear E end.
  match goal with |- endr _ _ _ _ (pfold _ ?b ?s ?k) ?rw ?nn = _ =>
    destruct (adv_loop c pow r sw (var * list var) ps lam b ltac:(lia)
      ltac:(intros a s0; eapply adv_at; [apply (adv_hash c pow r sw _ _ _ _ (fun h q => q (h, snd s0 ++ [h])) 0); intros h; apply adv_ret|lia])
      s k rw nn) as [st2 [n3 E]]; rewrite E; clear E end.
  match goal with |- endr _ _ _ _ (pfold _ ?b ?s ?k) ?rw ?nn = _ =>
    destruct (adv_loop c pow r sw (list var) (cp_rows (wamount c) pow) lam b ltac:(lia)
      ltac:(intros a s0; eapply adv_at; [apply (adv_pow c pow r sw _ _ (fun h q => q (s0 ++ [h])) 0); intros h; apply adv_ret|lia])
      s k rw nn) as [xs [n4 E]]; rewrite E; clear E end.
  match goal with |- endr _ _ _ _ (pfold _ ?b ?s ?k) ?rw ?nn = _ =>
    destruct (adv_loop c pow r sw unit (xi_rows (wamount c) m) lam b ltac:(lia)
      ltac:(intros a s0; eapply adv_at; [apply (adv_idx c pow r sw unit _ _ (fun q => q tt) 0); apply adv_ret|
        rewrite Z.add_0_r; f_equal; unfold zlen; rewrite map_length; apply zlen_zseq0; exact Hm])
      s k rw nn) as [u [n5 E]]; rewrite E; clear E end.
  match goal with |- endr _ _ _ _ (pfold _ ?b ?s ?k) ?rw ?nn = _ =>
    destruct (adv_loop c pow r sw unit (cl_rows (wamount c) r) lam b ltac:(lia)
      ltac:(intros a s0; eapply adv_at; [apply (adv_col c pow r sw unit _ (fun q => q tt) 0); apply adv_ret|lia])
      s k rw nn) as [u' [n6 E]]; rewrite E; clear E end.
  match goal with |- endr _ _ _ _ (pqueries _ _ _ _ _ _ _ ?s ?k) ?rw ?nn = _ =>
    destruct (adv_queries s k rw nn) as [l' [n7 E]]; rewrite E; clear E end.
  cbn [endr]. lia.
Qed.
End VRows.

Lemma ver_end_rows : forall P (vp : vparams P) c sw inp row, 0 <= vp_lam vp -> 1 <= vp_r vp <= vp_m vp + 1 ->
  (forall s, In s (vp_sizes vp) -> 0 < s) -> ver_end vp c sw inp row = row + ver_rows vp (wamount c).
Proof.
  intros P vp c sw inp row HL HR HS. unfold ver_end, vprog. rewrite (ver_rows_l (vp_lam vp) (vp_r vp) (vp_m vp)) by (assumption || lia).
  f_equal. unfold ver_rows. cbv zeta. set (p := fp_rows (wamount c)).
  assert (E1 : fold_left (fun a i => a + p * znth 0 (vp_sizes vp) i * vp_lam vp + p * vp_m vp * vp_lam vp) (zseq 0 (zlen (vp_sizes vp))) 0 =
     vp_lam vp * lsum (fun j => p * (znth 0 (vp_sizes vp) j + vp_m vp)) (zseq 0 (zlen (vp_sizes vp)))).
  { rewrite <- lsum_mul. generalize (zseq 0 (zlen (vp_sizes vp))). intros l.
    assert (K : forall s, fold_left (fun a i => a + p * znth 0 (vp_sizes vp) i * vp_lam vp + p * vp_m vp * vp_lam vp) l s =
      s + lsum (fun i => vp_lam vp * (p * (znth 0 (vp_sizes vp) i + vp_m vp))) l).
    { induction l as [|a l IH]; intros s; cbn [fold_left lsum]; [lia|]. rewrite IH. lia. }
    rewrite K. lia. }
  assert (E2 : fold_left (fun a i => a + p * vp_lam vp * (vp_m vp - i)) (zseq 0 (vp_r vp - 1)) 0 =
     vp_lam vp * lsum (fun j => if j =? 0 then 0 else p * (1 + (vp_m vp - j))) (zseq 0 (vp_r vp))).
  { rewrite foldl_lsum. rewrite (zseq_cons 0 (vp_r vp)) by lia. cbn [lsum]. change (0 =? 0) with true. cbv iota.
    rewrite Z.add_0_l, Z.add_0_l, <- lsum_mul. unfold zseq.
    replace (Z.to_nat (vp_r vp - (0 + 1))) with (Z.to_nat (vp_r vp - 1 - 0)) by lia. rewrite lsum_shift.
    apply lsum_ext. intros i Hi. change (In i (zseq 0 (vp_r vp - 1))) in Hi. apply in_zseq in Hi.
    replace (i + 1 =? 0) with false by (symmetry; apply Z.eqb_neq; lia). lia. }
  rewrite E1, E2. unfold vq. fold p. lia.
Qed.

(** ** Constants *)

Section Consts.
Variable P : params.
Variable mds rc : Z -> Z -> F P.
Variable pre : list (list (expr P)).
Variable c : comp.
Variable pow : Z.
Variable omega : F P.
Variable r : Z.
Variable sw : Z -> comp * Z.
Hypothesis HR : 0 <= fp_rows (wamount c).
Hypothesis HC : 0 <= cp_rows (wamount c) pow.
Hypothesis HX : forall n, 0 <= n -> 0 <= xi_rows (wamount c) n.
Hypothesis HL : 0 <= cl_rows (wamount c) r.

Definition noconst (cs : list (cmd P)) : Prop := forall col rw v, ~ In (SetConst col rw v) cs.
Lemma nc_app : forall a b, noconst a -> noconst b -> noconst (a ++ b).
Proof. intros a b A B col rw v K. apply in_app_or in K as [K|K]; [exact (A _ _ _ K)|exact (B _ _ _ K)]. Qed.
Lemma nc_fp : forall ins row, noconst (fp_circuit mds rc pre c ins row).
Proof.
  intros ins row. apply nc_app; intros col rw v K; [apply in_map_iff in K as [x [E _]]; discriminate|].
  unfold ps_copies in K. cbn [In] in K. repeat (destruct K as [K|K]; [discriminate|]). destruct K.
Qed.
Lemma nc_cp : forall x row, noconst (cp_circuit (P := P) c pow x row).
Proof.
  intros x row. apply nc_app; intros col rw v K; [apply in_map_iff in K as [i [E _]]; discriminate|].
  unfold cp_copies in K.
  repeat match type of K with
  | In _ (_ ++ _) => apply in_app_or in K as [K|K]
  | In _ (_ :: _) => destruct K as [K|K]; [discriminate|]
  | In _ (map _ _) => apply in_map_iff in K as [? [K _]]; discriminate
  | In _ (flat_map _ _) => apply in_flat_map in K as [? [_ K]]
  | In _ (if ?b then _ else _) => destruct b
  | In _ [] => destruct K
  end.
Qed.
Lemma consts_compile : forall p row n col rw v, In (SetConst col rw v) (compile mds rc pre c pow omega r sw p row n) ->
  col = C c 0 /\ row <= rw /\ v = omega.
Proof.
  induction p as [|a b d k IH|b x y k IH|a b k IH|x k IH|x bs k IH|i k IH]; intros row n col rw v K; cbn [compile] in K; cbv zeta in K.
  - destruct K.
  - apply in_app_or in K as [K|K]; [destruct (nc_fp _ _ _ _ _ K)|]. destruct (IH _ _ _ _ _ _ K) as [A [B D]]. split; [exact A|]. split; [lia|exact D].
  - apply in_app_or in K as [K|K]; [|exact (IH _ _ _ _ _ _ _ K)]. cbn [fs_circuit In] in K.
    repeat (destruct K as [K|K]; [discriminate|]). destruct K.
  - destruct K as [K|K]; [discriminate|]. exact (IH _ _ _ _ _ K).
  - apply in_app_or in K as [K|K]; [destruct (nc_cp _ _ _ _ _ K)|]. destruct (IH _ _ _ _ _ _ K) as [A [B D]]. split; [exact A|]. split; [lia|exact D].
  - apply in_app_or in K as [K|K].
    + unfold xi_circuit in K. cbv zeta in K. destruct K as [K|K]; [discriminate|]. apply in_app_or in K as [K|K].
      * exfalso. unfold xi_copies in K.
        repeat match type of K with
        | In _ (_ ++ _) => apply in_app_or in K as [K|K]
        | In _ (_ :: _) => destruct K as [K|K]; [discriminate|]
        | In _ (map _ _) => apply in_map_iff in K as [? [K _]]; discriminate
        | In _ (flat_map _ _) => apply in_flat_map in K as [? [_ K]]
        | In _ (if ?b then _ else _) => destruct b
        | In _ [] => destruct K
        end.
      * apply in_map_iff in K as [j [E Hj]]. apply in_zseq in Hj. injection E as <- <- <-. split; [reflexivity|]. split; [lia|reflexivity].
    + destruct (IH _ _ _ _ _ K) as [A [B D]]. pose proof (HX (zlen bs) (zlen_nonneg _ bs)). split; [exact A|]. split; [lia|exact D].
  - destruct K as [K|K]; [discriminate|]. destruct (IH _ _ _ _ _ K) as [A [B D]]. split; [exact A|]. split; [lia|exact D].
Qed.
End Consts.

(** ** Equal values give equal checks *)

Section Ext.
Variable P : params.
Lemma absorb_ext : forall (H1 H2 : F P -> F P -> F P -> F P), (forall a b d, H1 a b d = H2 a b d) ->
  forall l s, absorb H1 s l = absorb H2 s l.
Proof. intros H1 H2 E. induction l as [|x l IH]; intros s; cbn [absorb]; [reflexivity|]. rewrite E. apply IH. Qed.
Lemma climb_ext : forall (H1 H2 : F P -> F P -> F P -> F P), (forall a b d, H1 a b d = H2 a b d) ->
  forall l s, climb H1 s l = climb H2 s l.
Proof. intros H1 H2 E. induction l as [|x l IH]; intros s; cbn [climb]; [reflexivity|]. rewrite !E. apply IH. Qed.

(** The two agree on everything that is compared. *)
Definition same_proof (lam r m : Z) (sizes : list Z) (p1 p2 : vproof P) : Prop :=
  (forall j, 0 <= j <= 2 \/ 0 <= j < zlen sizes - 1 -> pr_comm p1 j = pr_comm p2 j) /\
  (forall j, 1 <= j < r -> pr_root p1 j = pr_root p2 j) /\ pr_chal p1 = pr_chal p2 /\
  (forall i j, 0 <= i < lam -> 0 <= j < m -> pr_pos p1 i j = pr_pos p2 i j) /\
  (forall i j, 0 <= i < lam -> 0 <= j < 2 * lsum (fun q => znth 0 sizes q) (zseq 0 (zlen sizes)) -> pr_val p1 i j = pr_val p2 i j) /\
  (forall i j, 0 <= i < lam -> 0 <= j < m * zlen sizes -> pr_hash p1 i j = pr_hash p2 i j) /\
  (forall i j, 0 <= i < lam -> 0 <= j < 2 * (r - 1) -> pr_rval p1 i j = pr_rval p2 i j) /\
  (forall i j, 0 <= i < lam -> m <= j < lsum (fun q => m - q) (zseq 0 r) -> pr_rhash p1 i j = pr_rhash p2 i j).

Lemma lsum_nn : forall f l, (forall i, In i l -> 0 <= f i) -> 0 <= lsum f l.
Proof.
  intros f l. induction l as [|a l IH]; intros K; cbn [lsum]; [lia|]. pose proof (K a (or_introl eq_refl)).
  assert (0 <= lsum f l) by (apply IH; intros i Hi; apply K; right; exact Hi). lia.
Qed.
Lemma lsum_prefix : forall f n j, (forall i, 0 <= i < n -> 0 <= f i) -> 0 <= j < n ->
  0 <= lsum f (zseq 0 j) /\ lsum f (zseq 0 j) + f j <= lsum f (zseq 0 n).
Proof.
  intros f n j K Hj. split; [apply lsum_nn; intros i Hi; apply in_zseq in Hi; apply K; lia|].
  rewrite (zseq_app 0 (j + 1) n) by lia. rewrite lsum_app, lsum_snoc by lia.
  assert (0 <= lsum f (zseq (j + 1) n)); [|lia]. apply lsum_nn. intros i Hi. apply in_zseq in Hi. apply K. lia.
Qed.
Lemma checks_ext1 : forall (H1 H2 : F P -> F P -> F P -> F P) lam r m sizes a b p1 p2, r <= m + 1 -> (forall s, In s sizes -> 0 < s) ->
  (forall a b d, H1 a b d = H2 a b d) -> same_proof lam r m sizes p1 p2 ->
  verifier_checks H1 lam r m sizes a b p1 -> verifier_checks H2 lam r m sizes a b p2.
Proof.
  intros H1 H2 lam r m sizes a b p1 p2 HRM HSZ E [E1 [E2 [E3 [E4 [E5 [E6 [E7 E8]]]]]]] [T1 Q]. split.
  - unfold transcript_ok in *. rewrite <- !E1, <- E3, <- T1 by lia. symmetry. apply absorb_ext. exact E.
  - intros i Hi. destruct (Q i Hi) as [QB QR]. split; intros j Hj.
    + pose proof (QB j Hj) as K. unfold batch_ok in *. cbv zeta in *. destruct K as [KB KC].
      assert (EP : map (fun t => (pr_pos p2 i t, pr_hash p2 i (m * j + t))) (zseq 0 m) = map (fun t => (pr_pos p1 i t, pr_hash p1 i (m * j + t))) (zseq 0 m)).
      { apply map_ext_in. intros t Ht. apply in_zseq in Ht. rewrite E4, E6 by nia. reflexivity. }
      rewrite EP. split; [exact KB|].
      assert (EC : (if j =? 0 then b else pr_comm p2 (j - 1)) = (if j =? 0 then b else pr_comm p1 (j - 1)))
        by (destruct (Z.eqb_spec j 0); [reflexivity|symmetry; apply E1; lia]).
      rewrite EC, <- KC. rewrite (climb_ext H2 H1) by (intros; symmetry; apply E).
      f_equal. rewrite (absorb_ext H2 H1) by (intros; symmetry; apply E). f_equal. apply map_ext_in. intros t Ht. apply in_zseq in Ht.
      destruct (lsum_prefix (fun q => znth 0 sizes q) (zlen sizes) j ltac:(intros; apply sizes_nn; exact HSZ) Hj) as [L1 L2].
      rewrite !E5 by lia. reflexivity.
    + pose proof (QR j Hj) as K. unfold round_ok in *. cbv zeta in *. destruct K as [KB KC].
      assert (LM : m <= lsum (fun q => m - q) (zseq 0 j)).
      { rewrite (zseq_cons 0) by lia. cbn [lsum]. assert (0 <= lsum (fun q => m - q) (zseq (0 + 1) j)); [|lia].
        apply lsum_nn. intros q Hq. apply in_zseq in Hq. lia. }
      destruct (lsum_prefix (fun q => m - q) r j ltac:(intros; lia) ltac:(lia)) as [L1 L2].
      assert (EP : forall o, m <= o -> o + (m - j) <= lsum (fun q => m - q) (zseq 0 r) ->
        map (fun t => (pr_pos p2 i t, pr_rhash p2 i (o + t))) (zseq 0 (m - j)) = map (fun t => (pr_pos p1 i t, pr_rhash p1 i (o + t))) (zseq 0 (m - j))).
      { intros o Ho Ho2. apply map_ext_in. intros t Ht. apply in_zseq in Ht. rewrite E4, E8 by lia. reflexivity. }
      rewrite EP by (exact LM || exact L2). split; [exact KB|]. rewrite <- E2 by exact Hj. rewrite <- KC.
      rewrite (climb_ext H2 H1) by (intros; symmetry; apply E).
      f_equal. rewrite <- E. rewrite !E7 by lia. reflexivity.
Qed.
Lemma same_sym : forall lam r m sizes p1 p2, same_proof lam r m sizes p1 p2 -> same_proof lam r m sizes p2 p1.
Proof.
  intros lam r m sizes p1 p2 [E1 [E2 [E3 [E4 [E5 [E6 [E7 E8]]]]]]].
  repeat split; intros; symmetry; auto.
Qed.
End Ext.
